(** C16, C17: imitation with the class DMP.
    Final statements. *)
From Coq Require Import Reals ZArith List Lia Lra Psatz FunctionalExtensionality.
From Verif Require Import M_Prelude M_Canonical M_Forcing M_Dmp M_Base M_DmpObject
  S_Loops S_Dmp P_Loops P_Canonical P_Forcing P_DmpStep P_DmpScale P_DmpLinear P_Converge
  P_DmpObject Properties_Forcing Properties_Dmp.
Import ListNotations.
Open Scope R_scope.
Set Bullet Behavior "Strict Subproofs".

(** Objects that a program can hold: constructed without exception, then
    subjected to any history of calls (including calls that raised). *)
Definition reachable (n_dims : nat) (o : dmp) : Prop :=
  exists junk x dt nw int_dt p_gain smooth alpha beta o0 cs,
    dmp_new junk n_dims x dt nw int_dt p_gain smooth alpha beta = Ok o0
    /\ o = fst (exec_all cs o0).

Lemma reachable_shapes n o : reachable n o -> shapes_ok o /\ p_n_dims (o_base o) = n.
Proof.
  intros (junk & x & dt & nw & idt & pg & sm & al & be & o0 & cs & E & ->).
  destruct (dmp_new_shapes _ _ _ _ _ _ _ _ _ _ _ E) as [Hs Hn].
  destruct (exec_all_shapes cs o0 Hs) as [A B]. split; auto. congruence.
Qed.

Lemma reachable_ft_built n o : reachable n o -> ft_built o.
Proof.
  intros (junk & x & dt & nw & idt & pg & sm & al & be & o0 & cs & E & ->).
  apply exec_all_ft_built. eapply dmp_new_ft_built; eauto.
Qed.

Lemma exec_all_app cs cs' : forall o,
  fst (exec_all (cs ++ cs') o) = fst (exec_all cs' (fst (exec_all cs o))).
Proof.
  induction cs as [|c cs IH]; intros o; [reflexivity|].
  cbn [app exec_all]. destruct (exec c o) as [o1 x]. specialize (IH o1).
  destruct (exec_all (cs ++ cs') o1), (exec_all cs o1). simpl in *. exact IH.
Qed.

Lemma reachable_exec n c o : reachable n o -> reachable n (fst (exec c o)).
Proof.
  intros (junk & x & dt & nw & idt & pg & sm & al & be & o0 & cs & E & ->).
  exists junk, x, dt, nw, idt, pg, sm, al, be, o0, (cs ++ [c]). split; auto.
  rewrite exec_all_app. cbn [exec_all]. now destruct (exec c (fst (exec_all cs o0))).
Qed.

(** A concrete constructor call used in the examples. *)
Definition ex_new (n : nat) (alpha beta : R) : res dmp :=
  dmp_new (vzero, vzero) n 1 (1/100) 2 (1/1000) 0 false
    {| shape := []; data := fun _ => alpha |} {| shape := []; data := fun _ => beta |}.

Lemma ex_new_ok n alpha beta : exists f o,
  ex_new n alpha beta = Ok o
  /\ forcing_term_init vzero vzero 2 1 0 (8/10) (- ln (1/100)) = Ok f
  /\ o = {| o_base := ptp_init n n; o_initialized := false; o_execution_time := 1;
            o_dt := 1/100; o_n_weights_per_dim := 2; o_int_dt := 1/1000; o_p_gain := 0;
            o_smooth_scaling := false; o_forcing_term := f;
            o_alpha_y := {| alen := n; aget := fun _ => alpha |};
            o_beta_y := {| alen := n; aget := fun _ => beta |} |}.
Proof.
  unfold ex_new, dmp_new.
  destruct (init_forcing_term_accepts (vzero, vzero) 2 1) as [f Ef]; [lia|lra|].
  rewrite Ef. cbn [bind]. unfold ensure_1d_array. cbn -[Nat.eqb]. rewrite Nat.eqb_refl.
  cbn [bind].
  apply init_forcing_term_inv in Ef. destruct Ef as (_ & _ & Ef).
  eexists _, _. split; [reflexivity|]. split; [exact Ef|]. reflexivity.
Qed.

Lemma ex_reachable n alpha beta o : ex_new n alpha beta = Ok o -> reachable n o.
Proof.
  intros E. unfold ex_new in E.
  exists (vzero, vzero), 1, (1/100), 2%nat, (1/1000), 0, false,
    {| shape := []; data := fun _ => alpha |}, {| shape := []; data := fun _ => beta |}, o, [].
  auto.
Qed.

(** ** C16 *)
Theorem C16_imitate : forall n o junk regress dm lam allow,
  reachable n o ->
  let last := (d_n dm - 1)%nat in
  0 <= lam -> d_T dm 0%nat < d_T dm last -> d_rows dm = d_n dm -> d_dims dm = n ->
  exists w df f,
    let o' := fst (dmp_imitate_method junk regress dm lam allow o) in
    snd (dmp_imitate_method junk regress dm lam allow o) = Ok tt
    (* endpoints *)
    /\ p_start_y (o_base o') = {| alen := n; aget := d_Y dm 0%nat |}
    /\ p_goal_y (o_base o') = {| alen := n; aget := d_Y dm last |}
    (* final velocity and acceleration of the demonstration *)
    /\ (forall d, allow = false -> df_Yd df last d = 0)
    /\ (forall d, df_Ydd df last d = 0)
    (* finite differences and forces, see C14 *)
    /\ df_Yd df = demo_velocity (d_n dm) (d_T dm) (d_Y dm) allow
    /\ df_Ydd df = demo_acceleration (d_n dm) (d_T dm) (df_Yd df)
    /\ (forall t d, (d < n)%nat ->
          df_F df t d
          = (d_T dm last - d_T dm 0%nat) ^ 2 * df_Ydd df t d
            - aget (o_alpha_y o) d * (aget (o_beta_y o) d * (d_Y dm last d - d_Y dm t d)
               - df_Yd df t d * (d_T dm last - d_T dm 0%nat)
               - (if o_smooth_scaling o
                  then aget (o_beta_y o) d * (d_Y dm last d - d_Y dm 0%nat d)
                       * phase (d_T dm t) (ft_alpha_z (o_forcing_term o))
                               (d_T dm last) (d_T dm 0%nat)
                  else 0)))
    (* the weights are the regression result for these forces *)
    /\ forcing_term_init (fst junk) (snd junk) (o_n_weights_per_dim o) (d_T dm last)
         (d_T dm 0%nat) (ft_overlap (o_forcing_term o)) (ft_alpha_z (o_forcing_term o)) = Ok f
    /\ w = regress (o_n_weights_per_dim o) (d_n dm) (design_matrix f (d_T dm) last) (df_F df) lam
    /\ ft_weights (o_forcing_term o') = w
    (* nothing else changes *)
    /\ o' = with_base (set_goal_y {| alen := n; aget := d_Y dm last |}
                        (set_start_y {| alen := n; aget := d_Y dm 0%nat |} (o_base o)))
              (with_forcing_term (set_ft_weights w (o_forcing_term o)) o).
Proof.
  intros n o junk regress dm lam allow Hr last Hlam HT Hrows Hdims.
  destruct (reachable_shapes n o Hr) as [Hsh Hn].
  assert (Hov : 0 < ft_overlap (o_forcing_term o)).
  { destruct (reachable_ft_built n o Hr) as (j & x & f & w & Ef & ->). simpl.
    apply init_forcing_term_inv in Ef. destruct Ef as (_ & _ & Ef).
    apply forcing_term_init_n in Ef. destruct Ef as (_ & _ & _ & -> & _). lra. }
  split_shapes Hsh.
  assert (Hn2 : (2 <= d_n dm)%nat).
  { unfold last in HT. destruct (d_n dm) as [|[|k]]; simpl in HT; try lra; lia. }
  destruct (forcing_term_init_ok (fst junk) (snd junk) (o_n_weights_per_dim o) (d_T dm last)
    (d_T dm 0%nat) (ft_overlap (o_forcing_term o)) (ft_alpha_z (o_forcing_term o)) H12 HT Hov)
    as (f & Ef & _).
  pose (b := fun v : vec => if Nat.eqb n 1 then (fun _ : nat => v 0%nat) else v).
  assert (Hb : forall v d, (d < n)%nat -> b v d = v d).
  { intros v d Hd. unfold b. destruct (Nat.eqb_spec n 1); auto. subst n.
    assert (d = 0)%nat by lia. now subst. }
  destruct (determine_forces (d_n dm) (d_T dm) (d_Y dm) (b (aget (o_alpha_y o)))
     (b (aget (o_beta_y o))) (ft_alpha_z (o_forcing_term o)) allow (o_smooth_scaling o))
     as [df|] eqn:Edf.
  2: { unfold determine_forces in Edf. destruct (Nat.ltb_spec (d_n dm) 2); [lia|discriminate]. }
  pose (w := regress (o_n_weights_per_dim o) (d_n dm) (design_matrix f (d_T dm) last) (df_F df) lam).
  assert (EI : dmp_imitate junk regress n dm (o_n_weights_per_dim o) lam
          (aget (o_alpha_y o)) (aget (o_beta_y o))
          (ft_overlap (o_forcing_term o)) (ft_alpha_z (o_forcing_term o))
          allow (o_smooth_scaling o) = Ok (w, d_Y dm 0%nat, d_Y dm last)).
  { unfold dmp_imitate. destruct (Rlt_dec lam 0); [lra|].
    destruct (Nat.eqb_spec (d_n dm) 0); [lia|]. fold last. rewrite Ef. cbn [bind].
    rewrite Hrows, Nat.eqb_refl, Hdims, Nat.eqb_refl. cbn [negb andb].
    etransitivity; [exact (f_equal (fun r => bind r _) Edf)|]. reflexivity. }
  exists w, df, f. cbv zeta.
  unfold dmp_imitate_method. rewrite Hn, EI, Hdims, Nat.eqb_refl. cbn [negb].
  unfold dmp_configure, configure. cbn -[Nat.eqb].
  unfold check_1d_array_length. cbn -[Nat.eqb]. rewrite Hn, Nat.eqb_refl. cbn -[Nat.eqb].
  rewrite Hn, Nat.eqb_refl. cbn -[Nat.eqb].
  split; [reflexivity|]. split; [reflexivity|]. split; [reflexivity|].
  unfold determine_forces in Edf.
  destruct (Nat.ltb_spec (d_n dm) 2); [lia|]. inversion Edf as [Edf']. clear Edf.
  split. { intros d ->. simpl. unfold demo_velocity. fold last. now rewrite Nat.eqb_refl. }
  split. { intros d. simpl. unfold demo_acceleration. fold last. now rewrite Nat.eqb_refl. }
  split; [reflexivity|]. split; [reflexivity|].
  split. { intros t d Hd. simpl. fold last. now rewrite !Hb by auto. }
  split; [exact Ef|]. split; [unfold w; now rewrite <- Edf'|]. split; reflexivity.
Qed.

(** Rejected arguments; a failing [imitate] never changes the object. *)
Theorem C16_rejected : forall n o junk regress dm lam allow,
  reachable n o ->
  (lam < 0 -> dmp_imitate_method junk regress dm lam allow o = (o, Err ValueError))
  /\ (forall e, snd (dmp_imitate_method junk regress dm lam allow o) = Err e ->
        fst (dmp_imitate_method junk regress dm lam allow o) = o)
  /\ ((exists e, snd (dmp_imitate_method junk regress dm lam allow o) = Err e)
      <-> (lam < 0 \/ d_T dm (d_n dm - 1)%nat <= d_T dm 0%nat \/ d_rows dm <> d_n dm
           \/ d_dims dm <> n)).
Proof.
  intros n o junk regress dm lam allow Hr.
  destruct (reachable_shapes n o Hr) as [Hsh Hn].
  assert (Hlam : lam < 0 -> dmp_imitate_method junk regress dm lam allow o = (o, Err ValueError)).
  { intros H. unfold dmp_imitate_method, dmp_imitate. destruct (Rlt_dec lam 0); [auto|lra]. }
  split; [exact Hlam|].
  assert (Hkeep : forall e, snd (dmp_imitate_method junk regress dm lam allow o) = Err e ->
        fst (dmp_imitate_method junk regress dm lam allow o) = o).
  { intros e. unfold dmp_imitate_method.
    destruct (dmp_imitate _ _ _ _ _ _ _ _ _ _ _ _) as [[[w sy] gy]|]; [|auto].
    destruct (Nat.eqb_spec (d_dims dm) (p_n_dims (o_base o))) as [He|]; cbn [negb]; [|auto].
    unfold dmp_configure, configure. cbn -[Nat.eqb].
    unfold check_1d_array_length. cbn -[Nat.eqb]. rewrite <- He, Nat.eqb_refl. cbn -[Nat.eqb].
    rewrite <- He, Nat.eqb_refl. cbn. discriminate. }
  split; [exact Hkeep|]. split.
  - intros [e He].
    destruct (Rlt_dec lam 0) as [|Hl]; [auto|].
    destruct (Rle_dec (d_T dm (d_n dm - 1)%nat) (d_T dm 0%nat)) as [|HT]; [auto|].
    destruct (Nat.eq_dec (d_rows dm) (d_n dm)) as [Hrows|]; [|auto].
    destruct (Nat.eq_dec (d_dims dm) n) as [Hd|]; [|auto].
    exfalso. destruct (C16_imitate n o junk regress dm lam allow Hr) as (w & df & f & H & _);
      auto; try lra. congruence.
  - intros [H|[H|[H|H]]].
    + rewrite Hlam by auto. simpl. eauto.
    + unfold dmp_imitate_method, dmp_imitate. destruct (Rlt_dec lam 0); [simpl; eauto|].
      destruct (Nat.eqb (d_n dm) 0); [simpl; eauto|].
      rewrite forcing_term_init_rejects by auto. simpl; eauto.
    + unfold dmp_imitate_method, dmp_imitate. destruct (Rlt_dec lam 0); [simpl; eauto|].
      destruct (Nat.eqb (d_n dm) 0); [simpl; eauto|].
      destruct (forcing_term_init _ _ _ _ _ _ _); [|simpl; eauto]. cbn [bind].
      destruct (Nat.eqb_spec (d_rows dm) (d_n dm)); [tauto|]. simpl. eauto.
    + unfold dmp_imitate_method.
      destruct (dmp_imitate _ _ _ _ _ _ _ _ _ _ _ _) as [[[w sy] gy]|]; [|simpl; eauto].
      destruct (Nat.eqb_spec (d_dims dm) (p_n_dims (o_base o))) as [He|]; [|simpl; eauto].
      congruence.
Qed.

Definition ex_demo (c : R) : demo :=
  {| d_n := 2; d_T := fun i => INR i + c; d_rows := 2; d_dims := 1; d_Y := fun t _ => INR t |}.

Example C16_satisfiable : exists o, reachable 1 o
  /\ d_T (ex_demo 0) 0%nat < d_T (ex_demo 0) (d_n (ex_demo 0) - 1)%nat
  /\ d_rows (ex_demo 0) = d_n (ex_demo 0) /\ d_dims (ex_demo 0) = 1%nat.
Proof.
  destruct (ex_new_ok 1 25 (25/4)) as (f & o & E & _).
  exists o. split; [eapply ex_reachable; eauto|]. simpl. repeat split; lra.
Qed.

(** ** C17 *)
(** The demonstrated velocities, accelerations and forces do not depend on the
    time origin. *)
Theorem C17_forces_shift_invariant_partial :
  forall n T Y alpha beta alpha_z allow smooth c,
  determine_forces n (fun i => T i + c) Y alpha beta alpha_z allow smooth
  = determine_forces n T Y alpha beta alpha_z allow smooth.
Proof.
  intros. unfold determine_forces. destruct (Nat.ltb n 2); [reflexivity|].
  assert (EG : np_gradient n (fun i => T i + c) = np_gradient n T).
  { apply functional_extensionality; intro i. unfold np_gradient.
    destruct (Nat.eqb i 0); [ring|]. destruct (Nat.eqb i (n - 1)); [ring|]. field. }
  assert (EV : demo_velocity n (fun i => T i + c) Y allow = demo_velocity n T Y allow).
  { unfold demo_velocity. now rewrite EG. }
  rewrite EV.
  assert (EA : demo_acceleration n (fun i => T i + c) (demo_velocity n T Y allow)
               = demo_acceleration n T (demo_velocity n T Y allow)).
  { unfold demo_acceleration. now rewrite EG. }
  rewrite EA. f_equal. f_equal.
  apply functional_extensionality; intro t. apply functional_extensionality; intro d.
  unfold phase.
  replace (T (n - 1)%nat + c - (T 0%nat + c)) with (T (n - 1)%nat - T 0%nat) by ring.
  replace (T t + c - (T 0%nat + c)) with (T t - T 0%nat) by ring. reflexivity.
Qed.

(** A regression that, without regularisation, reproduces targets that can be
    reproduced (every least-squares solver does, see C15). *)
Definition exact_regression (regress : regression) : Prop :=
  forall nf ns X F k (W : vec),
  (forall t, (t < ns)%nat -> rsum nf (fun i => W i * X i t) = F t k) ->
  forall t, (t < ns)%nat -> rsum nf (fun i => regress nf ns X F 0 k i * X i t) = F t k.

(** The equation for sample [t] of a forcing term with two basis functions. *)
Lemma two_basis_equation f T last t (W : vec) F : ft_n f = 2%nat ->
  let z := phase (T t) (ft_alpha_z f) (T last) (T 0%nat) in
  let e i := rbf (ft_centers f) (ft_widths f) z i in
  rsum 2 (fun i => W i * design_matrix f T last i t) = F
  <-> W 0%nat * e 0%nat + W 1%nat * e 1%nat = F * (e 0%nat + e 1%nat) / z.
Proof.
  intros Hn z e. unfold design_matrix. cbv zeta. fold z.
  assert (Hz : 0 < z) by apply exp_pos.
  assert (He : forall i, 0 < e i) by (intro; apply exp_pos).
  unfold activations. rewrite Hn. cbn [rsum].
  change (rbf (ft_centers f) (ft_widths f) z 0%nat) with (e 0%nat).
  change (rbf (ft_centers f) (ft_widths f) z 1%nat) with (e 1%nat).
  pose proof (He 0%nat). pose proof (He 1%nat). split.
  - intros <-. field. lra.
  - intros H1. apply (Rmult_eq_reg_r ((e 0%nat + e 1%nat) / z)).
    + replace (F * ((e 0%nat + e 1%nat) / z)) with (F * (e 0%nat + e 1%nat) / z) by (unfold Rdiv; ring).
      rewrite <- H1. field. lra.
    + unfold Rdiv. apply Rmult_integral_contrapositive. split; [lra|]. apply Rinv_neq_0_compat. lra.
Qed.

(** The two basis functions at the two samples of [ex_demo], for a forcing term
    with centres 1 and [c1]. *)
Lemma ex_basis f c1 z : ft_n f = 2%nat -> c1 <> 1 ->
  ft_centers f 0%nat = 1 -> ft_centers f 1%nat = c1 ->
  ft_widths f 0%nat = - ln (8/10) / (c1 - 1) ^ 2 -> ft_widths f 1%nat = ft_widths f 0%nat ->
  rbf (ft_centers f) (ft_widths f) z 0%nat = exp (ln (8/10) * ((z - 1) ^ 2 / (c1 - 1) ^ 2))
  /\ rbf (ft_centers f) (ft_widths f) z 1%nat = exp (ln (8/10) * ((z - c1) ^ 2 / (c1 - 1) ^ 2)).
Proof.
  intros Hn Hne H0 H1 W0 W1. unfold rbf. rewrite W1, W0, H0, H1.
  split; f_equal; field; lra.
Qed.

(** One-dimensional DMP with two weights, two-sample demonstration; shifting
    the time axis by 1/2 changes the learned weights, for every exact
    regression without regularisation. *)
Theorem C17_time_origin_refuted :
  exists o dm c, reachable 1 o /\
  forall junk junk' regress, exact_regression regress ->
  let dm' := {| d_n := d_n dm; d_T := fun i => d_T dm i + c; d_rows := d_rows dm;
                d_dims := d_dims dm; d_Y := d_Y dm |} in
  let r := dmp_imitate_method junk regress dm 0 false o in
  let r' := dmp_imitate_method junk' regress dm' 0 false o in
  snd r = Ok tt /\ snd r' = Ok tt
  /\ ft_weights (o_forcing_term (fst r)) 0%nat 1%nat
     <> ft_weights (o_forcing_term (fst r')) 0%nat 1%nat.
Proof.
  destruct (ex_new_ok 1 25 (25/4)) as (f0 & o & E & Ef0 & Eo).
  pose proof (ex_reachable _ _ _ _ E) as Hr.
  exists o, (ex_demo 0), (1/2). split; auto. intros junk junk' regress Hex dm' r r'.
  destruct (C16_imitate 1 o junk regress (ex_demo 0) 0 false Hr)
    as (w & df & f & Hok & _ & _ & _ & _ & HV & HA & HF & Hf & Hw & Hww & _);
    try (simpl; lra); auto.
  destruct (C16_imitate 1 o junk' regress dm' 0 false Hr)
    as (w' & df' & f' & Hok' & _ & _ & _ & _ & HV' & HA' & HF' & Hf' & Hw' & Hww' & _);
    try (simpl; lra); auto.
  split; auto. split; auto. fold r in Hww. fold r' in Hww'. rewrite Hww, Hww'.
  clear Hok Hok' Hww Hww' r r' E.
  apply forcing_term_init_n in Ef0. destruct Ef0 as (_ & _ & _ & Eov & Eal & _).
  assert (HF0 : df_F df 0%nat 0%nat = - 529/4 /\ df_F df 1%nat 0%nat = 0).
  { rewrite !HF by lia. rewrite HA, HV, Eo. unfold demo_acceleration, demo_velocity, np_gradient.
    simpl. split; field. }
  assert (HF0' : df_F df' 0%nat 0%nat = - 529/4 /\ df_F df' 1%nat 0%nat = 0).
  { rewrite !HF' by lia. rewrite HA', HV', Eo. unfold demo_acceleration, demo_velocity, np_gradient.
    simpl. split; field. }
  clear HF HF' HV HV' HA HA'.
  subst o. cbn [o_forcing_term o_n_weights_per_dim] in *. rewrite Eov, Eal in *.
  assert (Hlog : ln (8/10) < 0) by (rewrite <- ln_1; apply ln_increasing; lra).
  assert (Hz1 : exp (- - ln (1/100) * 1) = 1/100).
  { replace (- - ln (1/100) * 1) with (ln (1/100)) by ring. apply exp_ln. lra. }
  assert (Hzh : exp (- - ln (1/100) * / 2) = 1/10).
  { replace (- - ln (1/100) * / 2) with (/ 2 * ln (1/100)) by ring.
    replace (1/100) with ((1/10) * (1/10)) by field. rewrite ln_mult by lra.
    replace (/ 2 * (ln (1/10) + ln (1/10))) with (ln (1/10)) by field. apply exp_ln. lra. }
  (* the unshifted basis *)
  destruct (forcing_term_init_ok (fst junk) (snd junk) 2 (d_T (ex_demo 0) 1%nat) (d_T (ex_demo 0) 0%nat)
    (8/10) (- ln (1/100))) as (g & Eg & Gn & _ & _ & _ & Ga & _ & Gc & Gw & Gl);
    [lia|simpl; lra|lra|].
  change (d_n (ex_demo 0) - 1)%nat with 1%nat in *.
  assert (g = f) by congruence. subst g. clear Eg.
  destruct (forcing_term_init_ok (fst junk') (snd junk') 2 (d_T dm' 1%nat) (d_T dm' 0%nat)
    (8/10) (- ln (1/100))) as (g & Eg & Gn' & _ & _ & _ & Ga' & _ & Gc' & Gw' & Gl');
    [lia|simpl; lra|lra|].
  change (d_n dm' - 1)%nat with 1%nat in *.
  assert (g = f') by congruence. subst g. clear Eg.
  assert (C0 : ft_centers f 0%nat = 1).
  { rewrite Gc by lia. unfold center_time, phase. simpl. etransitivity; [|exact exp_0]. f_equal. field. }
  assert (C1 : ft_centers f 1%nat = 1/100).
  { rewrite Gc by lia. unfold center_time, phase. simpl. etransitivity; [|exact Hz1]. f_equal. field. }
  assert (C0' : ft_centers f' 0%nat = 1).
  { rewrite Gc' by lia. unfold center_time, phase. simpl. etransitivity; [|exact exp_0]. f_equal. field. }
  assert (C1' : ft_centers f' 1%nat = 1/10).
  { rewrite Gc' by lia. unfold center_time, phase. simpl. etransitivity; [|exact Hzh]. f_equal. field. }
  assert (W0 : ft_widths f 0%nat = - ln (8/10) / (1/100 - 1) ^ 2)
    by (rewrite Gw, C0, C1 by lia; reflexivity).
  assert (W0' : ft_widths f' 0%nat = - ln (8/10) / (1/10 - 1) ^ 2)
    by (rewrite Gw', C0', C1' by lia; reflexivity).
  assert (Z0 : phase (d_T (ex_demo 0) 0%nat) (ft_alpha_z f) (d_T (ex_demo 0) 1%nat) (d_T (ex_demo 0) 0%nat) = 1).
  { rewrite Ga. unfold phase. simpl. etransitivity; [|exact exp_0]. f_equal. field. }
  assert (Z1 : phase (d_T (ex_demo 0) 1%nat) (ft_alpha_z f) (d_T (ex_demo 0) 1%nat) (d_T (ex_demo 0) 0%nat) = 1/100).
  { rewrite Ga. unfold phase. simpl. etransitivity; [|exact Hz1]. f_equal. field. }
  assert (Z0' : phase (d_T dm' 0%nat) (ft_alpha_z f') (d_T dm' 1%nat) (d_T dm' 0%nat) = 1).
  { rewrite Ga'. unfold phase. simpl. etransitivity; [|exact exp_0]. f_equal. field. }
  assert (Z1' : phase (d_T dm' 1%nat) (ft_alpha_z f') (d_T dm' 1%nat) (d_T dm' 0%nat) = 1/100).
  { rewrite Ga'. unfold phase. simpl. etransitivity; [|exact Hz1]. f_equal. field. }
  assert (B : forall z, _) by (intro z; apply (ex_basis f (1/100) z Gn ltac:(lra) C0 C1 W0 Gl)).
  assert (B' : forall z, _) by (intro z; apply (ex_basis f' (1/10) z Gn' ltac:(lra) C0' C1' W0' Gl')).
  cbv beta in B, B'.
  assert (E8 : exp (ln (8/10)) = 8/10) by (apply exp_ln; lra).
  set (L := ln (8/10)) in *.
  set (e0 := exp (L * (9801/8100))). set (e1 := exp (L * (1/100))).
  assert (He01 : e0 <> 8/10 * e1).
  { unfold e0, e1. rewrite <- E8, <- exp_plus. intros H. apply exp_inv in H. lra. }
  assert (He0 : 0 < e0) by apply exp_pos. assert (He1 : 0 < e1) by apply exp_pos.
  (* sample equations *)
  assert (S0 : forall V : vec, rsum 2 (fun i => V i * design_matrix f (d_T (ex_demo 0)) 1 i 0%nat) = - 529/4
     <-> V 0%nat + V 1%nat * (8/10) = - 529/4 * (18/10)).
  { intros V. rewrite two_basis_equation by auto. cbv zeta. rewrite Z0.
    destruct (B 1) as [-> ->].
    replace (L * ((1 - 1) ^ 2 / (1/100 - 1) ^ 2)) with 0 by field.
    replace (L * ((1 - 1/100) ^ 2 / (1/100 - 1) ^ 2)) with L by field.
    rewrite exp_0, E8. lra. }
  assert (S1 : forall V : vec, rsum 2 (fun i => V i * design_matrix f (d_T (ex_demo 0)) 1 i 1%nat) = 0
     <-> V 0%nat * (8/10) + V 1%nat = 0).
  { intros V. rewrite two_basis_equation by auto. cbv zeta. rewrite Z1.
    destruct (B (1/100)) as [-> ->].
    replace (L * ((1/100 - 1/100) ^ 2 / (1/100 - 1) ^ 2)) with 0 by field.
    replace (L * ((1/100 - 1) ^ 2 / (1/100 - 1) ^ 2)) with L by field.
    rewrite exp_0, E8. lra. }
  assert (S0' : forall V : vec, rsum 2 (fun i => V i * design_matrix f' (d_T dm') 1 i 0%nat) = - 529/4
     <-> V 0%nat + V 1%nat * (8/10) = - 529/4 * (18/10)).
  { intros V. rewrite two_basis_equation by auto. cbv zeta. rewrite Z0'.
    destruct (B' 1) as [-> ->].
    replace (L * ((1 - 1) ^ 2 / (1/10 - 1) ^ 2)) with 0 by field.
    replace (L * ((1 - 1/10) ^ 2 / (1/10 - 1) ^ 2)) with L by field.
    rewrite exp_0, E8. lra. }
  assert (S1' : forall V : vec, rsum 2 (fun i => V i * design_matrix f' (d_T dm') 1 i 1%nat) = 0
     <-> V 0%nat * e0 + V 1%nat * e1 = 0).
  { intros V. rewrite two_basis_equation by auto. cbv zeta. rewrite Z1'.
    destruct (B' (1/100)) as [-> ->].
    replace (L * ((1/100 - 1) ^ 2 / (1/10 - 1) ^ 2)) with (L * (9801/8100)) by field.
    replace (L * ((1/100 - 1/10) ^ 2 / (1/10 - 1) ^ 2)) with (L * (1/100)) by field.
    fold e0 e1. lra. }
  destruct HF0 as [F0 F1], HF0' as [F0' F1'].
  (* solutions exist, hence the regression solves the equations *)
  set (V := fun i : nat => if Nat.eqb i 0 then - 529/4 * (18/10) / (1 - 64/100)
                           else - (8/10) * (- 529/4 * (18/10) / (1 - 64/100))).
  assert (Hs : forall t, (t < 2)%nat ->
    rsum 2 (fun i => w 0%nat i * design_matrix f (d_T (ex_demo 0)) 1 i t) = df_F df t 0%nat).
  { rewrite Hw. apply Hex with (W := V). intros t Ht.
    destruct t as [|[|t]]; [| |simpl in Ht; lia].
    - rewrite F0, S0. unfold V; simpl. field.
    - rewrite F1, S1. unfold V; simpl. field. }
  assert (Hden : e1 - 8/10 * e0 > 0).
  { unfold Rgt. assert (e0 < e1); [|lra]. unfold e0, e1. apply exp_increasing. lra. }
  set (V' := fun i : nat => if Nat.eqb i 0 then - 529/4 * (18/10) * e1 / (e1 - 8/10 * e0)
                            else - (- 529/4 * (18/10) * e0 / (e1 - 8/10 * e0))).
  assert (Hs' : forall t, (t < 2)%nat ->
    rsum 2 (fun i => w' 0%nat i * design_matrix f' (d_T dm') 1 i t) = df_F df' t 0%nat).
  { rewrite Hw'. apply Hex with (W := V'). intros t Ht.
    destruct t as [|[|t]]; [| |simpl in Ht; lia].
    - rewrite F0', S0'. unfold V'; simpl. field. lra.
    - rewrite F1', S1'. unfold V'; simpl. field. lra. }
  pose proof (Hs 0%nat ltac:(lia)) as H0. pose proof (Hs 1%nat ltac:(lia)) as H1.
  pose proof (Hs' 0%nat ltac:(lia)) as H0'. pose proof (Hs' 1%nat ltac:(lia)) as H1'.
  rewrite F0 in H0. rewrite F1 in H1. rewrite F0' in H0'. rewrite F1' in H1'.
  apply S0 in H0. apply S1 in H1. apply S0' in H0'. apply S1' in H1'.
  intros Heq. rewrite <- Heq in H0', H1'.
  assert (HE : w' 0%nat 0%nat = w 0%nat 0%nat) by lra. rewrite HE in H1'.
  assert (HW1 : w 0%nat 1%nat = - (8/10) * w 0%nat 0%nat) by lra.
  rewrite HW1 in H1', H0.
  assert (HP : w 0%nat 0%nat * (e0 - 8/10 * e1) = 0) by lra.
  apply Rmult_integral in HP. destruct HP as [HP|HP]; [rewrite HP in H0; lra|].
  apply He01. lra.
Qed.
