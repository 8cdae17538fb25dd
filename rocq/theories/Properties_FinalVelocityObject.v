(** C101: DMPs with final velocity as objects: imitation, histories, convergence
    to the differential equation, final velocity, reproduction.  Final statements. *)
From Coq Require Import Reals ZArith List Lia Lra Psatz FunctionalExtensionality.
From Coquelicot Require Import Coquelicot.
From Verif Require Import M_Prelude M_Canonical M_Forcing M_Dmp M_Base M_DmpObject M_Linalg M_Ridge
  M_FinalVelocity S_Loops S_Dmp S_Stability P_Loops P_Canonical P_Forcing P_DmpStep P_DmpScale P_DmpLinear
  P_Runs P_Converge P_DmpObject P_DmpAffine P_Continuity P_Ode P_OdeSolution P_Reproduction P_FinalVelocity P_Stability
  P_FinalVelocityObject Properties_Forcing Properties_Dmp Properties_DmpObject Properties_DmpState
  Properties_Goal Properties_Ridge Properties_Equivariance Properties_FinalVelocity Properties_Continuity
  Properties_Ode Properties_Stability Properties_Reproduction.
Import ListNotations.
Open Scope R_scope.
Set Bullet Behavior "Strict Subproofs".

(** ** Specification *)
(** Objects that a program can hold: constructed without exception, then
    subjected to any history of calls (including calls that raised). *)
Definition fv_reachable (n_dims : nat) (o : dmp) : Prop :=
  exists junk x dt nw int_dt p_gain alpha beta o0 cs,
    fv_new junk n_dims x dt nw int_dt p_gain alpha beta = Ok o0
    /\ o = fst (fv_exec_all cs o0).

(** The polynomial of degree 5 with coefficients [c] has the configured position,
    velocity and acceleration at the start (time 0) and at the goal (time
    [execution_time]). *)
Definition reference (o : dmp) (d : nat) (c : vec) : Prop :=
  let p := o_base o in
  meets (poly5 c) 0 (aget (p_start_y p) d) (aget (p_start_yd p) d) (aget (p_start_ydd p) d)
  /\ meets (poly5 c) (o_execution_time o)
       (aget (p_goal_y p) d) (aget (p_goal_yd p) d) (aget (p_goal_ydd p) d).

(** The differential equation of dimension [d], up to the goal time, with the
    reference [r]: tau^2 y'' = alpha (beta (r - y) + tau (r' - y')) + f(t) + tau^2 r''. *)
Definition fv_equation (o : dmp) (d : nat) (r : R -> R) (y v : R -> R) : Prop :=
  let tau := o_execution_time o in
  let alpha := aget (o_alpha_y o) d in
  let beta := aget (o_beta_y o) d in
  y 0 = aget (p_start_y (o_base o)) d /\ v 0 = aget (p_start_yd (o_base o)) d
  /\ forall t, 0 <= t <= tau ->
    is_derive y t (v t)
    /\ is_derive v t
         ((alpha * (beta * (r t - y t) + tau * (Derive r t - v t)) + ft_call (o_forcing_term o) t d)
            / tau ^ 2 + Derive_n r 2 t).

(** Objects with the same differential equation in dimension [d]; [dt] and
    [int_dt] may differ. *)
Definition same_fv_equation (d : nat) (o o' : dmp) : Prop :=
  let p := o_base o in let p' := o_base o' in
  o_execution_time o' = o_execution_time o
  /\ o_n_weights_per_dim o' = o_n_weights_per_dim o
  /\ ft_goal_t (o_forcing_term o') = ft_goal_t (o_forcing_term o)
  /\ aget (o_alpha_y o') d = aget (o_alpha_y o) d
  /\ aget (o_beta_y o') d = aget (o_beta_y o) d
  /\ aget (p_start_y p') d = aget (p_start_y p) d
  /\ aget (p_start_yd p') d = aget (p_start_yd p) d
  /\ aget (p_start_ydd p') d = aget (p_start_ydd p) d
  /\ aget (p_goal_y p') d = aget (p_goal_y p) d
  /\ aget (p_goal_yd p') d = aget (p_goal_yd p) d
  /\ aget (p_goal_ydd p') d = aget (p_goal_ydd p) d
  /\ forall i, (i < o_n_weights_per_dim o)%nat ->
       ft_weights (o_forcing_term o') d i = ft_weights (o_forcing_term o) d i.

(** [imitate] with the ridge regression of the code. *)
Definition fv_imitated (junk : vec * vec) (dm : demo) (lam : R) (o : dmp) : dmp :=
  fst (fv_imitate junk ridge_regression dm lam o).

(** The force that makes the equation hold for the motion [y], [v], [a]. *)
Definition fv_required_force (tau alpha beta : R) (r y v a : R -> R) (t : R) : R :=
  tau ^ 2 * (a t - Derive_n r 2 t) - alpha * (beta * (r t - y t) + tau * (Derive r t - v t)).

(** The movement made by [k] steps from the start after [reset]. *)
Definition moves (o : dmp) (k : nat) (y yd : vec) : Prop :=
  exists o' a b,
    fv_n_steps None k (p_start_y (o_base o)) (p_start_yd (o_base o)) (dmp_reset o) = (o', Ok (a, b))
    /\ aget a = y /\ aget b = yd.

(** ** Invariants *)
Lemma fv_step_keeps y yd c o :
  o_n_weights_per_dim (fst (fv_step y yd c o)) = o_n_weights_per_dim o
  /\ o_forcing_term (fst (fv_step y yd c o)) = o_forcing_term o
  /\ o_smooth_scaling (fst (fv_step y yd c o)) = o_smooth_scaling o.
Proof.
  unfold fv_step. cbv zeta.
  change (o_initialized (with_base _ o)) with (o_initialized o).
  destruct (o_initialized o);
    destruct (dmp_step_euler_with_constraints _ _ _ _) as [[y1 v1]|]; cbn; auto.
Qed.

Lemma fv_step_shapes y yd c o : shapes_ok o ->
  shapes_ok (fst (fv_step y yd c o))
  /\ p_n_dims (o_base (fst (fv_step y yd c o))) = p_n_dims (o_base o).
Proof.
  intros H. split_shapes H. unfold fv_step. cbv zeta.
  change (o_initialized (with_base _ o)) with (o_initialized o).
  destruct (o_initialized o);
    destruct (dmp_step_euler_with_constraints _ _ _ _) as [[y1 v1]|]; cbn; split; auto;
    unfold shapes_ok; cbn; repeat split; auto.
Qed.

Lemma fv_imitate_cases j reg dm lam o : fst (fv_imitate j reg dm lam o) = o
  \/ exists c w, fst (fv_imitate j reg dm lam o)
       = fst (dmp_configure c (with_forcing_term (set_ft_weights w (o_forcing_term o)) o)).
Proof.
  unfold fv_imitate.
  destruct (fv_dmp_imitate _ _ _ _ _ _ _ _ _ _) as [[[w [[sy sv] sa]] [[gy gv] ga]]|]; auto.
  destruct (negb _); auto. right. eauto.
Qed.

Lemma configure_smooth c o : o_smooth_scaling (fst (dmp_configure c o)) = o_smooth_scaling o.
Proof. unfold dmp_configure. destruct (configure c (o_base o)) as [p [e|]]; auto. Qed.

Definition fv_ok (n : nat) (o : dmp) : Prop :=
  shapes_ok o /\ p_n_dims (o_base o) = n /\ ft_built o /\ o_smooth_scaling o = false.

Lemma exec_smooth c o : match c with
    | CConfigure _ | CReset | CGetWeights | CSetWeights _ | CSetExecutionTime _ _ | CSetDt _ | CSetIntDt _ =>
        o_smooth_scaling (fst (exec c o)) = o_smooth_scaling o
    | _ => True
    end.
Proof.
  destruct c; cbn; auto.
  - pose proof (configure_smooth c o). now destruct (dmp_configure c o).
  - unfold dmp_set_weights. destruct (reshape _ _ _); auto.
  - unfold dmp_set_execution_time. destruct (init_forcing_term _ _ _); auto.
Qed.

Lemma fv_exec_ok n c o : fv_ok n o -> fv_ok n (fst (fv_exec c o)).
Proof.
  intros (G1 & G2 & G3 & G4).
  assert (HE : forall c', (fst (fv_exec c o) = fst (exec c' o)) ->
     o_smooth_scaling (fst (exec c' o)) = o_smooth_scaling o -> fv_ok n (fst (fv_exec c o))).
  { intros c' E E'. rewrite E. destruct (exec_shapes c' o G1) as [A B]. unfold fv_ok.
    split; auto. split; [congruence|]. split; [now apply exec_ft_built|congruence]. }
  destruct c.
  - exact (HE (CConfigure c) eq_refl (exec_smooth (CConfigure c) o)).
  - exact (HE CReset eq_refl (exec_smooth CReset o)).
  - cbn [fv_exec]. pose proof (fv_step_shapes last_y last_yd c o G1) as [A B].
    destruct (fv_step_keeps last_y last_yd c o) as (K1 & K2 & K3).
    destruct (fv_step last_y last_yd c o) as [o1 r]. cbn [fst] in *. unfold fv_ok.
    split; auto. split; [congruence|]. split; [eapply ft_built_same; eauto|congruence].
  - cbn. unfold fv_ok. auto.
  - cbn [fv_exec]. pose proof (fv_imitate_cases junk regress dm lam o) as HI.
    destruct (fv_imitate junk regress dm lam o) as [o1 r]. cbn [fst] in *.
    destruct HI as [->|(c & w & ->)]; [unfold fv_ok; auto|].
    set (o2 := with_forcing_term _ o).
    assert (S2 : shapes_ok o2) by (split_shapes G1; unfold shapes_ok; simpl; repeat split; auto).
    destruct (dmp_configure_shapes c o2 S2) as [A B]. destruct (dmp_configure_params c o2) as [C D].
    unfold fv_ok. split; auto. split; [rewrite B; exact G2|]. split.
    + apply (ft_built_same o2); auto. now apply ft_built_weights.
    + rewrite configure_smooth. exact G4.
  - exact (HE CGetWeights eq_refl (exec_smooth CGetWeights o)).
  - exact (HE (CSetWeights w) eq_refl (exec_smooth (CSetWeights w) o)).
  - exact (HE (CSetExecutionTime junk x) eq_refl (exec_smooth (CSetExecutionTime junk x) o)).
  - exact (HE (CSetDt x) eq_refl (exec_smooth (CSetDt x) o)).
  - exact (HE (CSetIntDt x) eq_refl (exec_smooth (CSetIntDt x) o)).
Qed.

Lemma fv_exec_all_ok n cs : forall o, fv_ok n o -> fv_ok n (fst (fv_exec_all cs o)).
Proof.
  induction cs as [|c cs IH]; intros o H; [exact H|]. cbn [fv_exec_all].
  pose proof (fv_exec_ok n c o H) as H1. destruct (fv_exec c o) as [o1 x]. cbn [fst] in H1.
  specialize (IH o1 H1). destruct (fv_exec_all cs o1). exact IH.
Qed.

Lemma fv_reachable_ok n o : fv_reachable n o -> fv_ok n o.
Proof.
  intros (junk & x & dt & nw & idt & pg & al & be & o0 & cs & E & ->).
  apply fv_exec_all_ok. unfold fv_new in E.
  destruct (dmp_new_shapes _ _ _ _ _ _ _ _ _ _ _ E) as [Hs Hn].
  unfold fv_ok. split; auto. split; auto. split; [eapply dmp_new_ft_built; eauto|].
  unfold dmp_new in E. repeat match type of E with
    | context [bind ?r _] => destruct r; cbn [bind] in E; try discriminate
    | context [if ?b then _ else _] => destruct b; try discriminate
    | context [match ?r with Ok _ => _ | Err _ => _ end] => destruct r; try discriminate
    end; try (injection E as <-; reflexivity).
Qed.

Lemma fv_ft n o : fv_ok n o -> exists j f w,
  forcing_term_init (fst j) (snd j) (o_n_weights_per_dim o) (ft_goal_t (o_forcing_term o)) 0
    (8/10) (- ln (1/100)) = Ok f
  /\ o_forcing_term o = set_ft_weights w f.
Proof.
  intros (_ & _ & (j & x & f & w & E & Ew) & _).
  apply init_forcing_term_inv in E. destruct E as (_ & _ & E).
  exists j, f, w. split; auto. rewrite Ew. cbn [set_ft_weights ft_goal_t].
  pose proof (forcing_term_init_n _ _ _ _ _ _ _ _ E) as (_ & -> & _). exact E.
Qed.

Lemma fv_phase_ok n o : fv_ok n o -> phase_ok (o_forcing_term o).
Proof.
  intros (_ & _ & (j & x & f & w & E & ->) & _).
  apply init_forcing_term_inv in E. destruct E as (Hn & Hx & E).
  apply forcing_term_init_n in E. destruct E as (E1 & E2 & E3 & _ & E5 & _).
  unfold phase_ok. cbn. rewrite E1, E2, E3, E5. repeat split; try lia; auto.
  pose proof (ln_increasing (1 / 100) 1 ltac:(lra) ltac:(lra)) as Hl. rewrite ln_1 in Hl. lra.
Qed.

(** ** Runs *)
Definition fv_coefs (o : dmp) : nat -> vec :=
  let p := o_base o in
  fun j d => quintic 0 (o_execution_time o) (aget (p_start_y p) d) (aget (p_start_yd p) d)
    (aget (p_start_ydd p) d) (aget (p_goal_y p) d) (aget (p_goal_yd p) d) (aget (p_goal_ydd p) d) j.

Lemma fv_run o : 0 < o_execution_time o -> 0 < o_dt o -> 0 < o_int_dt o ->
  let a := fv_open_loop_step_args o None in
  exists s : nat -> vec * vec,
    s 0%nat = (aget (p_start_y (o_base o)), aget (p_start_yd (o_base o)))
    /\ (forall k, exists l, tiles (0 + INR k * o_dt o) (0 + INR (S k) * o_dt o) (o_int_dt o) l
          /\ s (S k) = exec_substeps (fv_body a (fv_coefs o)) l (s k))
    /\ forall k, run_seq (dmp_step_euler_with_constraints a) 0 (o_dt o)
         (aget (p_start_y (o_base o)), aget (p_start_yd (o_base o))) k = Ok (s k).
Proof.
  intros Hx Hdt Hi a. set (dt := o_dt o) in *.
  set (x0 := (aget (p_start_y (o_base o)), aget (p_start_yd (o_base o)))).
  assert (Htot : forall k s, exists l,
     tiles (0 + INR k * dt) (0 + INR (S k) * dt) (o_int_dt o) l
     /\ dmp_step_euler_with_constraints a (0 + INR k * dt) (0 + INR (S k) * dt) s
        = Ok (exec_substeps (fv_body a (fv_coefs o)) l s)).
  { intros k s. pose proof (pos_INR k). apply (fv_step_total a); try (simpl; lra); rewrite S_INR;
      simpl; nra. }
  set (s := fix s k := match k with
    | O => x0
    | S k' => match dmp_step_euler_with_constraints a (0 + INR k' * dt) (0 + INR (S k') * dt) (s k') with
              | Ok y => y | Err _ => s k' end end).
  exists s. split; [reflexivity|]. split.
  - intros k. destruct (Htot k (s k)) as [l [Hl E]]. exists l. split; auto.
    change (s (S k)) with (match dmp_step_euler_with_constraints a (0 + INR k * dt)
      (0 + INR (S k) * dt) (s k) with Ok y => y | Err _ => s k end). now rewrite E.
  - induction k as [|k IH]; [reflexivity|]. cbn [run_seq]. rewrite IH. cbn [bind].
    change (s (S k)) with (match dmp_step_euler_with_constraints a (0 + INR k * dt)
      (0 + INR (S k) * dt) (s k) with Ok y => y | Err _ => s k end).
    destruct (Htot k (s k)) as [l [Hl E]]. now rewrite E.
Qed.

Lemma fv_moves o k s :
  run_seq (dmp_step_euler_with_constraints (fv_open_loop_step_args o None)) 0 (o_dt o)
    (aget (p_start_y (o_base o)), aget (p_start_yd (o_base o))) k = Ok s ->
  forall y yd, moves o k y yd <-> (y, yd) = s.
Proof.
  intros Hrun y yd.
  destruct (fv_n_steps_follow None o k (dmp_reset o) (p_start_y (o_base o)) (p_start_yd (o_base o)))
    with (s := s) as (o' & a & b & R1 & R2 & R3).
  - unfold same_params; simpl; repeat split.
  - unfold norm. simpl. destruct (o_initialized o); reflexivity.
  - unfold norm. simpl. destruct (o_initialized o); reflexivity.
  - exact Hrun.
  - split.
    + intros (o2 & a2 & b2 & E & <- & <-). rewrite R1 in E. injection E as <- <- <-. exact R2.
    + intros E. exists o', a, b. split; auto. rewrite <- E in R2. now injection R2.
Qed.

(** The reference is the polynomial of the code. *)
Lemma reference_coefs o d c : 0 < o_execution_time o -> reference o d c ->
  forall j, (j < 6)%nat -> c j = fv_coefs o j d.
Proof.
  intros Hx (M0 & M1) j Hj.
  destruct (meets_unique _ _ _ _ _ _ _ _ (poly5_meets c 0) M0) as (A0 & A1 & A2).
  destruct (meets_unique _ _ _ _ _ _ _ _ (poly5_meets c (o_execution_time o)) M1) as (A3 & A4 & A5).
  rewrite <- (poly5_row c 0) in A0. rewrite <- (poly5_row c (o_execution_time o)) in A3.
  rewrite <- (quintic_unique 0 (o_execution_time o) c ltac:(lra) j Hj). unfold fv_coefs.
  rewrite <- A0, <- A1, <- A2, <- A3, <- A4, <- A5. reflexivity.
Qed.

Lemma fv_coefs_reference o d : 0 < o_execution_time o -> reference o d (fun j => fv_coefs o j d).
Proof.
  intros Hx. set (c := fun j => fv_coefs o j d). set (p := o_base o).
  destruct (quintic_solves 0 (o_execution_time o) (aget (p_start_y p)) (aget (p_start_yd p))
    (aget (p_start_ydd p)) (aget (p_goal_y p)) (aget (p_goal_yd p)) (aget (p_goal_ydd p))) as [HS _]; [lra|].
  pose proof (fun i Hi => HS i d Hi) as H.
  unfold reference. cbv zeta. fold p. split.
  - pose proof (poly5_meets c 0) as M.
    rewrite <- (poly5_row c 0) in M.
    rewrite (H 0%nat ltac:(lia) : rsum 6 (fun j => constraint_row 0 0 j * c j) = _) in M.
    rewrite (H 1%nat ltac:(lia) : rsum 6 (fun j => constraint_row 1 0 j * c j) = _) in M.
    rewrite (H 2%nat ltac:(lia) : rsum 6 (fun j => constraint_row 2 0 j * c j) = _) in M.
    exact M.
  - set (tau := o_execution_time o) in *. pose proof (poly5_meets c tau) as M.
    rewrite <- (poly5_row c tau) in M.
    rewrite (H 3%nat ltac:(lia) : rsum 6 (fun j => constraint_row 0 tau j * c j) = _) in M.
    rewrite (H 4%nat ltac:(lia) : rsum 6 (fun j => constraint_row 1 tau j * c j) = _) in M.
    rewrite (H 5%nat ltac:(lia) : rsum 6 (fun j => constraint_row 2 tau j * c j) = _) in M.
    exact M.
Qed.

Lemma Derive2_poly5 c t : Derive_n (poly5 c) 2 t = rsum 6 (fun j => constraint_row 2 t j * c j).
Proof. apply is_derive_unique. apply (poly5_meets c t). Qed.

(** The input of the equation. *)
Definition fv_input (o : dmp) (d : nat) (r : R -> R) (t : R) : R :=
  let tau := o_execution_time o in
  let p := aget (o_alpha_y o) d * aget (o_beta_y o) d / tau ^ 2 in
  let q := aget (o_alpha_y o) d / tau in
  p * (r t - aget (p_goal_y (o_base o)) d) + q * Derive r t + Derive_n r 2 t
  + ft_call (o_forcing_term o) t d / tau ^ 2.

Lemma lipb_row a b k j : (k <= 2)%nat -> lipb a b (fun t => constraint_row k t j).
Proof.
  intros Hk. destruct k as [|[|[|k]]]; [| | |lia];
    destruct j as [|[|[|[|[|[|j]]]]]]; cbn [constraint_row];
    repeat first [apply lipb_const | apply lipb_id | apply lipb_mult].
Qed.

Lemma lipb_rows a b k (c : vec) : (k <= 2)%nat ->
  lipb a b (fun t => rsum 6 (fun j => constraint_row k t j * c j)).
Proof.
  intros Hk. apply (lipb_rsum a b 6 (fun j t => constraint_row k t j * c j)). intros j.
  apply lipb_mult; [now apply lipb_row|apply lipb_const].
Qed.

Lemma lipb_fv_input n o d c a b : fv_ok n o -> lipb a b (fv_input o d (poly5 c)).
Proof.
  intros Hok. pose proof (fv_phase_ok n o Hok) as Hph.
  apply (lipb_ext _ _ (fun t =>
    aget (o_alpha_y o) d * aget (o_beta_y o) d / o_execution_time o ^ 2
      * (rsum 6 (fun j => constraint_row 0 t j * c j) - aget (p_goal_y (o_base o)) d)
    + aget (o_alpha_y o) d / o_execution_time o * rsum 6 (fun j => constraint_row 1 t j * c j)
    + rsum 6 (fun j => constraint_row 2 t j * c j)
    + ft_forces (o_forcing_term o) (ft_phase (o_forcing_term o) t) d * / o_execution_time o ^ 2)).
  - intros t. unfold fv_input. cbv zeta. rewrite Derive_poly5, Derive2_poly5, poly5_row. reflexivity.
  - apply lipb_plus; [apply lipb_plus; [apply lipb_plus|]|].
    + apply lipb_scal, lipb_minus; [apply lipb_rows; lia|apply lipb_const].
    + apply lipb_scal, lipb_rows; lia.
    + apply lipb_rows; lia.
    + apply lipb_mult; [apply lipb_forces, Hph|apply lipb_const].
Qed.

(** One part of a step up to the goal time. *)
Lemma fv_body_rhs o d c t h (y v : vec) : 0 < o_execution_time o -> h <> 0 ->
  t <= o_execution_time o -> reference o d c ->
  let a := fv_open_loop_step_args o None in
  let tau := o_execution_time o in
  let v' := v d + h * rhs (aget (o_alpha_y o) d * aget (o_beta_y o) d / tau ^ 2)
                          (aget (o_alpha_y o) d / tau) (aget (p_goal_y (o_base o)) d)
                          (fv_input o d (poly5 c)) t (y d) (v d) in
  snd (fv_body a (fv_coefs o) t h (y, v)) d = v' /\ fst (fv_body a (fv_coefs o) t h (y, v)) d = y d + h * v'.
Proof.
  intros Hx Hh Ht Href a tau v'.
  assert (E : snd (fv_body a (fv_coefs o) t h (y, v)) d = v').
  { unfold fv_body, apply_constraints. cbv zeta.
    cbn [a fv_open_loop_step_args a_goal_y a_goal_t a_start_t a_alpha_y a_beta_y a_forcing_term
      a_coupling_term a_precomputed a_p_gain a_tracking_error].
    pose proof float_eps_pos.
    destruct (Rlt_dec (o_execution_time o + float_eps) t); [lra|]. cbn [snd].
    unfold fv_acc, vzero, tracking_error_or_zero.
    assert (HR : forall k, rsum 6 (fun j => constraint_row k t j * fv_coefs o j d)
                         = rsum 6 (fun j => constraint_row k t j * c j)).
    { intros k. apply rsum_ext. intros j Hj. now rewrite (reference_coefs o d c Hx Href j Hj). }
    rewrite !HR. unfold v', rhs, fv_input. cbv zeta. fold tau.
    rewrite Derive_poly5, Derive2_poly5, poly5_row, Rminus_0_r. unfold ft_call.
    field. unfold tau. split; lra. }
  split; [exact E|]. rewrite <- E. unfold fv_body.
  destruct (apply_constraints t (a_goal_y a) (a_goal_t a) (fv_coefs o)) as [[g gd] gdd]. reflexivity.
Qed.

Section Error.
Variables (p q g : R) (u : R -> R) (d : nat) (T : R) (y v : R -> R).
Hypothesis HT : 0 <= T.
Hypothesis HU : lipb 0 (2 * T) u.
Hypothesis HY : forall t, 0 <= t <= T -> is_derive y t (v t).
Hypothesis HV : forall t, 0 <= t <= T -> is_derive v t (rhs p q g u t (y t) (v t)).

Lemma body_error : exists C, 0 <= C /\
  forall (body : R -> R -> vec * vec -> vec * vec) (s : nat -> vec * vec) dt i,
  (forall t h (Y V : vec), 0 < h -> t <= T ->
     let V' := V d + h * rhs p q g u t (Y d) (V d) in
     snd (body t h (Y, V)) d = V' /\ fst (body t h (Y, V)) d = Y d + h * V') ->
  0 < dt -> 0 < i -> fst (s 0%nat) d = y 0 -> snd (s 0%nat) d = v 0 ->
  (forall k, exists l, tiles (0 + INR k * dt) (0 + INR (S k) * dt) i l /\ s (S k) = exec_substeps body l (s k)) ->
  forall k, INR k * dt <= T ->
  Rabs (fst (s k) d - y (INR k * dt)) + Rabs (snd (s k) d - v (INR k * dt)) <= C * Rmin dt i.
Proof.
  destruct (euler_consistent p q g T u y v HT HU HY HV) as (M1 & HM1 & CE).
  destruct (one_step p q g T u y v HT HU HY HV M1 HM1) as (K1 & C1 & HK1 & HC1 & OE).
  exists (C1 * T * exp (K1 * T)).
  split; [apply Rmult_le_pos; [apply Rmult_le_pos; auto|apply Rlt_le, exp_pos]|].
  intros body s dt i Hbody Hdt Hi E0 E0' Hstep k Hk. set (H := Rmin dt i).
  assert (HH : 0 < H) by (now apply Rmin_pos).
  assert (Hkt : 0 <= INR k * dt) by (apply Rmult_le_pos; [apply pos_INR|lra]).
  apply Rle_trans with (C1 * H * (INR k * dt) * exp (K1 * (INR k * dt))).
  2:{ replace (C1 * T * exp (K1 * T) * H) with ((C1 * H) * (T * exp (K1 * T))) by ring.
      rewrite Rmult_assoc. apply Rmult_le_compat_l; [apply Rmult_le_pos; lra|].
      apply Rmult_le_compat; try lra; [apply Rlt_le, exp_pos|].
      assert (HKt : K1 * (INR k * dt) <= K1 * T) by (apply Rmult_le_compat_l; lra).
      destruct HKt as [HKt| ->]; [apply Rlt_le, exp_increasing; auto|apply Rle_refl]. }
  change (err y v (INR k * dt) (fst (s k) d) (snd (s k) d) <= C1 * H * (INR k * dt) * exp (K1 * (INR k * dt))).
  clear Hkt. induction k as [|k IH].
  - rewrite Rmult_0_l. unfold err. rewrite E0, E0', !Rminus_eq_0, Rabs_R0. lra.
  - rewrite S_INR in *. pose proof (pos_INR k) as Pk.
    assert (Pkd : 0 <= INR k * dt) by (apply Rmult_le_pos; lra).
    assert (Hk' : INR k * dt <= T) by nra. specialize (IH Hk').
    destruct (Hstep k) as (l & Hl & ->). rewrite S_INR in Hl.
    replace (0 + (INR k + 1) * dt) with ((INR k + 1) * dt) in Hl by ring.
    replace (0 + INR k * dt) with (INR k * dt) in Hl by ring.
    set (I := fun t (s : vec * vec) => err y v t (fst s d) (snd s d) <= C1 * H * t * exp (K1 * t)).
    change (I ((INR k + 1) * dt) (exec_substeps body l (s k))).
    assert (Hl' : tiles (INR k * dt) ((INR k + 1) * dt) H l).
    { destruct (tiles_min _ _ _ _ Hl) as [Hm|Hm].
      - replace ((INR k + 1) * dt - INR k * dt) with dt in Hm by ring. exact Hm.
      - subst l. simpl in Hl. nra. }
    apply (exec_substeps_inv I body l (INR k * dt) ((INR k + 1) * dt) H); auto.
    intros t h [Yv Vv] Ht Hh Hth HI. unfold I in *. cbn [fst snd] in HI.
    pose proof (Hbody (t + h) h Yv Vv ltac:(lra) ltac:(lra)) as RR. cbv zeta in RR. destruct RR as [RV RY].
    apply (gronwall_invariant K1 C1 H t h (err y v t (Yv d) (Vv d))); auto; try lra.
    { apply err_nonneg. }
    apply OE; auto; try lra. rewrite RY, RV. apply CE; lra.
Qed.
End Error.

Lemma fv_equation_rhs o d c y v : 0 < o_execution_time o -> reference o d c ->
  let tau := o_execution_time o in
  fv_equation o d (poly5 c) y v <->
  y 0 = aget (p_start_y (o_base o)) d /\ v 0 = aget (p_start_yd (o_base o)) d
  /\ forall t, 0 <= t <= tau -> is_derive y t (v t)
  /\ is_derive v t (rhs (aget (o_alpha_y o) d * aget (o_beta_y o) d / tau ^ 2)
                        (aget (o_alpha_y o) d / tau) (aget (p_goal_y (o_base o)) d)
                        (fv_input o d (poly5 c)) t (y t) (v t)).
Proof.
  intros Hx Href tau. unfold fv_equation. cbv zeta. fold tau.
  assert (E : forall t, (aget (o_alpha_y o) d * (aget (o_beta_y o) d * (poly5 c t - y t)
        + tau * (Derive (poly5 c) t - v t)) + ft_call (o_forcing_term o) t d) / tau ^ 2
        + Derive_n (poly5 c) 2 t
     = rhs (aget (o_alpha_y o) d * aget (o_beta_y o) d / tau ^ 2)
           (aget (o_alpha_y o) d / tau) (aget (p_goal_y (o_base o)) d)
           (fv_input o d (poly5 c)) t (y t) (v t)).
  { intros t. unfold rhs, fv_input. cbv zeta. fold tau. field. unfold tau. lra. }
  split; intros (H0 & H1 & H2); (split; [auto|split; [auto|]]); intros t Htt;
    destruct (H2 t Htt) as (D1 & D2); (split; [exact D1|]);
    [rewrite <- E|rewrite E]; exact D2.
Qed.

Lemma same_fv_forces n n' o o' d : fv_ok n o -> fv_ok n' o' -> same_fv_equation d o o' ->
  forall t, ft_call (o_forcing_term o') t d = ft_call (o_forcing_term o) t d.
Proof.
  intros Hr Hr' (S1 & S2 & S3 & _ & _ & _ & _ & _ & _ & _ & _ & S9).
  destruct (fv_ft n o Hr) as (j & g & w & Eg & Ef).
  destruct (fv_ft n' o' Hr') as (j' & g' & w' & Eg' & Ef').
  rewrite S2, S3 in Eg'.
  pose proof (forcing_term_init_n _ _ _ _ _ _ _ _ Eg) as (N & G & St & _ & Az & _).
  pose proof (forcing_term_init_n _ _ _ _ _ _ _ _ Eg') as (N' & G' & St' & _ & Az' & _).
  assert (HP : forall t, ft_phase (o_forcing_term o') t = ft_phase (o_forcing_term o) t).
  { intros t. rewrite Ef, Ef'. unfold ft_phase.
    cbn [set_ft_weights ft_n ft_alpha_z ft_goal_t ft_start_t]. congruence. }
  intros t. unfold ft_call. rewrite HP. set (z := ft_phase (o_forcing_term o) t). clearbody z.
  unfold ft_forces. rewrite Ef, Ef' in *. cbn [set_ft_weights ft_n ft_weights ft_centers ft_widths] in *.
  rewrite N', N. f_equal. apply rsum_ext. intros i Hi. rewrite (S9 i Hi). f_equal.
  apply activations_ext; auto. intros k Hk.
  apply (C02_fully_initialised _ _ _ _ _ _ _ _ _ _ _ Eg' Eg k Hk).
Qed.

(** ** C101 *)
(** The reference exists and is the only one, and the equation has exactly one
    solution, for all gains, weights, starts and goals. *)
Theorem C101_solution : forall n o d, fv_reachable n o -> 0 < o_execution_time o ->
  (exists c, reference o d c)
  /\ (forall c c', reference o d c -> reference o d c' -> forall t, poly5 c t = poly5 c' t)
  /\ forall c, reference o d c -> exists y v, fv_equation o d (poly5 c) y v.
Proof.
  intros n o d Hr Hx. apply fv_reachable_ok in Hr. split; [|split].
  - eexists. now apply fv_coefs_reference.
  - intros c c' H H' t. rewrite <- !poly5_row. apply rsum_ext. intros j Hj.
    now rewrite (reference_coefs o d c Hx H j Hj), (reference_coefs o d c' Hx H' j Hj).
  - intros c Hc.
    destruct (solution_exists (aget (o_alpha_y o) d * aget (o_beta_y o) d / o_execution_time o ^ 2)
      (aget (o_alpha_y o) d / o_execution_time o) (aget (p_goal_y (o_base o)) d) (fv_input o d (poly5 c))
      (aget (p_start_y (o_base o)) d) (aget (p_start_yd (o_base o)) d)) as (y & v & H0 & H1 & H2).
    { intros t. apply lipb_continuous. intros. now apply (lipb_fv_input n). }
    exists y, v. apply fv_equation_rhs; auto.
Qed.

(** Every movement with the same equation, whatever the step lengths, is within
    [C * step length] of the solution, positions and velocities, up to the goal
    time; [C] does not depend on the step lengths. *)
Theorem C101_converges : forall n o d c y v, fv_reachable n o -> 0 < o_execution_time o ->
  reference o d c -> fv_equation o d (poly5 c) y v ->
  exists C, 0 <= C /\
  forall n' o', fv_reachable n' o' -> same_fv_equation d o o' -> 0 < o_dt o' -> 0 < o_int_dt o' ->
  forall k, INR k * o_dt o' <= o_execution_time o' ->
  exists pos vel, moves o' k pos vel /\
    Rabs (pos d - y (INR k * o_dt o')) + Rabs (vel d - v (INR k * o_dt o'))
    <= C * Rmin (o_dt o') (o_int_dt o').
Proof.
  intros n o d c y v Hr Hx Href HE. apply fv_reachable_ok in Hr.
  apply (fv_equation_rhs o d c y v Hx Href) in HE. destruct HE as (E0 & E1 & E2).
  set (tau := o_execution_time o) in *.
  set (p := aget (o_alpha_y o) d * aget (o_beta_y o) d / tau ^ 2) in *.
  set (q := aget (o_alpha_y o) d / tau) in *. set (g := aget (p_goal_y (o_base o)) d) in *.
  destruct (body_error p q g (fv_input o d (poly5 c)) d tau y v ltac:(lra)
     (lipb_fv_input n o d c _ _ Hr)) as (C & HC & BE).
  { intros t Ht. apply E2; auto. } { intros t Ht. apply E2; auto. }
  exists C. split; auto. intros n' o' Hr' HS Hdt Hi k Hk. apply fv_reachable_ok in Hr'.
  pose proof (same_fv_forces n n' o o' d Hr Hr' HS) as HF.
  destruct HS as (S1 & S2 & S3 & S4 & S5 & S6 & S7 & S8 & S9 & S10 & S11 & _).
  assert (Hx' : 0 < o_execution_time o') by (rewrite S1; auto).
  destruct (fv_run o' Hx' Hdt Hi) as (s & Z0 & Zs & Zr).
  exists (fst (s k)), (snd (s k)). split.
  { apply (fv_moves o' k (s k) (Zr k)). now destruct (s k). }
  rewrite S1 in Hk. apply (BE (fv_body (fv_open_loop_step_args o' None) (fv_coefs o'))); auto.
  - intros t h Y V Hh Ht.
    assert (Href' : reference o' d c).
    { unfold reference in *. cbv zeta in *. rewrite S1, S6, S7, S8, S9, S10, S11. exact Href. }
    pose proof (fv_body_rhs o' d c t h Y V Hx' ltac:(lra) ltac:(rewrite S1; exact Ht) Href') as RR.
    cbv zeta in RR. cbv zeta.
    assert (EI : forall t, fv_input o' d (poly5 c) t = fv_input o d (poly5 c) t).
    { intros t0. unfold fv_input. cbv zeta. now rewrite S1, S4, S5, S9, HF. }
    unfold rhs in *. rewrite EI, S1, S4, S5, S9 in RR. exact RR.
  - rewrite Z0. cbn [fst]. congruence.
  - rewrite Z0. cbn [snd]. congruence.
Qed.

(** With zero weights the movement arrives at the goal at the goal time with the
    configured final velocity, up to the error of the integration. *)
Theorem C101_final_velocity : forall n o d, fv_reachable n o -> 0 < o_execution_time o ->
  (forall i, (i < o_n_weights_per_dim o)%nat -> ft_weights (o_forcing_term o) d i = 0) ->
  exists C, 0 <= C /\
  forall n' o', fv_reachable n' o' -> same_fv_equation d o o' -> 0 < o_dt o' -> 0 < o_int_dt o' ->
  forall k, INR k * o_dt o' = o_execution_time o' ->
  exists pos vel, moves o' k pos vel /\
    Rabs (pos d - aget (p_goal_y (o_base o)) d) + Rabs (vel d - aget (p_goal_yd (o_base o)) d)
    <= C * Rmin (o_dt o') (o_int_dt o').
Proof.
  intros n o d Hr Hx Hw.
  destruct (C101_solution n o d Hr Hx) as ((c & Hc) & _ & _).
  pose proof Hc as (M0 & M1).
  assert (HF : forall t, ft_call (o_forcing_term o) t d = 0).
  { intros t. destruct (fv_ft n o (fv_reachable_ok n o Hr)) as (j & g & w & Eg & Ef).
    pose proof (forcing_term_init_n _ _ _ _ _ _ _ _ Eg) as (N & _).
    assert (EN : ft_n (o_forcing_term o) = o_n_weights_per_dim o) by (rewrite Ef; exact N).
    unfold ft_call, ft_forces. rewrite EN. rewrite rsum_0; [ring|]. intros i Hi.
    rewrite (Hw i Hi). ring. }
  destruct (C101_converges n o d c (poly5 c) (Derive (poly5 c)) Hr Hx Hc) as (C & HC & H).
  { split; [apply M0|]. split; [apply is_derive_unique, M0|]. intros t Ht. split.
    - rewrite Derive_poly5. apply poly5_derive.
    - rewrite HF. replace (_ / _ + _) with (Derive_n (poly5 c) 2 t) by (field; lra).
      rewrite Derive2_poly5. apply (poly5_meets c t). }
  exists C. split; auto. intros n' o' Hr' HS Hdt Hi k Hk.
  destruct (H n' o' Hr' HS Hdt Hi k ltac:(lra)) as (pos & vel & Hm & Hb).
  exists pos, vel. split; auto. rewrite Hk in Hb. destruct HS as (S1 & _). rewrite S1 in Hb.
  destruct M1 as (M1 & M2 & _). apply is_derive_unique in M2. rewrite M1, M2 in Hb. exact Hb.
Qed.

(** ** After the goal time *)
Lemma fv_step_runs o y yd : 0 < o_execution_time o -> 0 < o_dt o -> 0 < o_int_dt o ->
  exists o1 y1 yd1, fv_step y yd None o = (o1, Ok (y1, yd1))
    /\ same_params o o1 /\ p_t (o_base o1) = p_t (o_base o) + o_dt o
    /\ o_initialized o1 = true
    /\ p_current_y (o_base o1) = y1 /\ p_current_yd (o_base o1) = yd1.
Proof.
  intros Hx Hdt Hi. unfold fv_step. cbv zeta.
  change (o_initialized (with_base _ o)) with (o_initialized o).
  assert (HT : forall a lt t s, 0 < a_goal_t a -> a_start_t a = 0 -> 0 < a_int_dt a -> lt <= t ->
     exists r, dmp_step_euler_with_constraints a lt t s = Ok r).
  { intros a lt t s Ha Hs Ha' Hlt. destruct (Rle_dec t 0) as [H|H].
    - exists s. unfold dmp_step_euler_with_constraints. rewrite Hs.
      destruct (Rle_dec (a_goal_t a) 0); [lra|]. destruct (Rle_dec t 0); [reflexivity|lra].
    - destruct (fv_step_total a lt t s) as (l & _ & E); try lra. eauto. }
  destruct (o_initialized o) eqn:Ei;
  match goal with |- context [dmp_step_euler_with_constraints ?a ?lt ?t ?s] =>
      destruct (HT a lt t s Hx eq_refl Hi ltac:(lra)) as ([y1 v1] & E); rewrite E end;
  (do 3 eexists; split; [reflexivity|]; split;
    [unfold same_params; cbn; repeat split|]; repeat split; exact Ei || reflexivity).
Qed.

Lemma fv_n_steps_run : forall k o y yd, 0 < o_execution_time o -> 0 < o_dt o -> 0 < o_int_dt o ->
  exists o1 y1 yd1, fv_n_steps None (S k) y yd o = (o1, Ok (y1, yd1))
    /\ same_params o o1 /\ p_t (o_base o1) = p_t (o_base o) + INR (S k) * o_dt o
    /\ o_initialized o1 = true
    /\ p_current_y (o_base o1) = y1 /\ p_current_yd (o_base o1) = yd1.
Proof.
  induction k as [|k IH]; intros o y yd Hx Hdt Hi;
    destruct (fv_step_runs o y yd Hx Hdt Hi) as (o1 & y1 & yd1 & E & P & T & I & C & D).
  - exists o1, y1, yd1. cbn [fv_n_steps]. rewrite E. repeat split; auto; try apply P.
    rewrite T. simpl. ring.
  - pose proof P as (P1 & P2 & _ & P4 & _).
    destruct (IH o1 y1 yd1) as (o2 & y2 & yd2 & E2 & Q & T2 & I2 & C2 & D2); try congruence.
    exists o2, y2, yd2. split; [|split; [eapply same_params_trans; eauto|]].
    + change (fv_n_steps None (S (S k)) y yd o)
        with (match fv_step y yd None o with
              | (o, Err e) => (o, Err e)
              | (o, Ok (y, yd)) => fv_n_steps None (S k) y yd o end). now rewrite E.
    + repeat split; auto. rewrite T2, T, P2, (S_INR (S k)). ring.
Qed.

Lemma fv_n_steps_app c m k : forall o y yd o1 y1 yd1,
  fv_n_steps c m y yd o = (o1, Ok (y1, yd1)) ->
  fv_n_steps c (m + k) y yd o = fv_n_steps c k y1 yd1 o1.
Proof.
  induction m as [|m IH]; intros o y yd o1 y1 yd1 E.
  - cbn [fv_n_steps plus] in *. now injection E as <- <- <-.
  - change (S m + k)%nat with (S (m + k)). cbn [fv_n_steps] in *.
    destruct (fv_step y yd c o) as [o2 [[y2 yd2]|e]]; [|discriminate]. now apply IH.
Qed.

(** Any history and first state: if the step length makes the motions of the
    spring smaller, repeated steps end at the goal, at rest. *)
Theorem C101_reaches_goal : forall n o d y yd,
  fv_reachable n o -> 0 < o_execution_time o -> 0 < o_dt o -> 0 < o_int_dt o ->
  steps_shrink Euler o d ->
  forall eps, 0 < eps -> exists N, forall k, (N <= k)%nat ->
  exists o' y' yd',
    fv_n_steps None k y yd o = (o', Ok (y', yd'))
    /\ Rabs (aget y' d - aget (p_goal_y (o_base o)) d) < eps /\ Rabs (aget yd' d) < eps.
Proof.
  intros n o d y yd Hr Hx Hdt Hi (Heq & Hsh) eps Heps.
  pose proof (fv_phase_ok n o (fv_reachable_ok n o Hr)) as Hph. pose proof float_eps_pos as Hfe.
  destruct (clock_steps (p_t (o_base o) - o_execution_time o - float_eps - o_dt o) (o_dt o) Hdt) as [k0 Hk0].
  destruct (fv_n_steps_run k0 o y yd Hx Hdt Hi) as (o1 & y1 & yd1 & E1 & P1 & T1 & I1 & C1 & D1).
  pose proof P1 as (Q1 & Q2 & Q3 & Q4 & Q5 & Q6 & Q7 & Q8 & Q9 & Q10 & Q11 & Q12 & Q13 & Q14
                    & Q15 & Q16 & Q17).
  set (a := fv_open_loop_step_args o1 None). set (t0 := p_t (o_base o1)) in *. set (dt := o_dt o) in *.
  assert (Ht0 : o_execution_time o + float_eps < t0).
  { rewrite T1. rewrite S_INR in *. lra. }
  assert (Htot : forall k s, exists l,
     tiles (t0 + INR k * dt) (t0 + INR (S k) * dt) (a_int_dt a) l
     /\ dmp_step_euler_with_constraints a (t0 + INR k * dt) (t0 + INR (S k) * dt) s
        = Ok (exec_substeps (euler_body (without_smoothing a)) l s)).
  { intros k s. pose proof (pos_INR k).
    assert (Pk : 0 <= INR k * dt) by (apply Rmult_le_pos; lra).
    destruct (fv_step_total a (t0 + INR k * dt) (t0 + INR (S k) * dt) s) as (l & Hl & E);
      try (cbn; rewrite ?Q1, ?Q4; lra); [rewrite S_INR; cbn; lra|rewrite S_INR; lra|].
    exists l. split; [exact Hl|]. rewrite E. f_equal. apply exec_substeps_ext.
    intros c h s0 Hin. destruct (tiles_inside _ _ _ _ _ _ Hl Hin) as [[Hc _] [Hh _]].
    apply fv_body_after_goal; [repeat split| |lra]. cbn. rewrite Q1. lra. }
  set (s := fix s k := match k with
    | O => (aget y1, aget yd1)
    | S k' => match dmp_step_euler_with_constraints a (t0 + INR k' * dt) (t0 + INR (S k') * dt) (s k') with
              | Ok y => y | Err _ => s k' end end).
  assert (HsS : forall k, exists l, tiles (t0 + INR k * dt) (t0 + INR (S k) * dt) (a_int_dt a) l
        /\ s (S k) = exec_substeps (euler_body (without_smoothing a)) l (s k)).
  { intros k. destruct (Htot k (s k)) as [l [Hl E]]. exists l. split; auto.
    change (s (S k)) with (match dmp_step_euler_with_constraints a (t0 + INR k * dt)
      (t0 + INR (S k) * dt) (s k) with Ok y => y | Err _ => s k end). now rewrite E. }
  assert (Hrun : forall k, run_seq (dmp_step_euler_with_constraints a) t0 dt (aget y1, aget yd1) k = Ok (s k)).
  { induction k as [|k IH]; [reflexivity|]. cbn [run_seq]. rewrite IH. cbn [bind].
    change (s (S k)) with (match dmp_step_euler_with_constraints a (t0 + INR k * dt)
      (t0 + INR (S k) * dt) (s k) with Ok y => y | Err _ => s k end).
    destruct (Htot k (s k)) as [l [Hl E]]. now rewrite E. }
  assert (Hda : damping (without_smoothing a) d = dmp_damping o d).
  { unfold damping, dmp_damping. cbn. rewrite Q8, Q1. now rewrite Rminus_0_r. }
  assert (Hka : stiffness (without_smoothing a) d = dmp_stiffness o d).
  { unfold stiffness, dmp_stiffness. cbn -[pow]. rewrite Q8, Q9, Q1. now rewrite Rminus_0_r. }
  assert (Hai : a_int_dt (without_smoothing a) = o_int_dt o) by (cbn; exact Q4).
  destruct (euler_reaches (without_smoothing a) t0 dt (Rmin dt (o_int_dt o)) (aget y1, aget yd1))
    with (d := d) (s := s) as [Hv1 Hv2]; auto.
  { repeat split. } { cbn. rewrite Q1. lra. } { cbn. rewrite Q7. exact Hph. } { rewrite Hai. lra. }
  { rewrite Hai. apply parts_length; auto. }
  { rewrite Hda, Hka. exact Hsh. }
  destruct (Hv1 eps Heps) as [N1 HN1]. destruct (Hv2 eps Heps) as [N2 HN2].
  exists (S k0 + Nat.max N1 N2)%nat. intros k Hk.
  set (j := (k - S k0)%nat). replace k with (S k0 + j)%nat by (unfold j; lia).
  destruct (fv_n_steps_follow None o1 j o1 y1 yd1) with (s := s j) as (o2 & y2 & yd2 & R1 & R2 & R3).
  - apply same_params_refl.
  - rewrite norm_id by auto. exact C1.
  - rewrite norm_id by auto. exact D1.
  - rewrite Q2. apply Hrun.
  - exists o2, y2, yd2. split; [rewrite (fv_n_steps_app _ _ _ _ _ _ _ _ _ E1); exact R1|].
    specialize (HN1 j ltac:(unfold j; lia)). specialize (HN2 j ltac:(unfold j; lia)).
    rewrite <- R2 in HN1, HN2. cbn in HN1, HN2. rewrite Q15 in HN1. auto.
Qed.

(** ** Imitation *)
Lemma quintic_reference t0 t1 y0 y0d y0dd y1 y1d y1dd c : t0 <> t1 ->
  meets (poly5 c) t0 y0 y0d y0dd -> meets (poly5 c) t1 y1 y1d y1dd ->
  forall j, (j < 6)%nat -> c j = quintic t0 t1 y0 y0d y0dd y1 y1d y1dd j.
Proof.
  intros Hx M0 M1 j Hj.
  destruct (meets_unique _ _ _ _ _ _ _ _ (poly5_meets c t0) M0) as (A0 & A1 & A2).
  destruct (meets_unique _ _ _ _ _ _ _ _ (poly5_meets c t1) M1) as (A3 & A4 & A5).
  rewrite <- (poly5_row c t0) in A0. rewrite <- (poly5_row c t1) in A3.
  rewrite <- (quintic_unique t0 t1 c Hx j Hj).
  rewrite <- A0, <- A1, <- A2, <- A3, <- A4, <- A5. reflexivity.
Qed.

Lemma configure_rows n p a1 a2 a3 a4 a5 a6 : p_n_dims p = n -> p_n_vel_dims p = n ->
  configure {| c_t := None;
     c_start_y := Some {| alen := n; aget := a1 |}; c_start_yd := Some {| alen := n; aget := a2 |};
     c_start_ydd := Some {| alen := n; aget := a3 |}; c_goal_y := Some {| alen := n; aget := a4 |};
     c_goal_yd := Some {| alen := n; aget := a5 |}; c_goal_ydd := Some {| alen := n; aget := a6 |} |} p
  = (set_goal_ydd {| alen := n; aget := a6 |} (set_goal_yd {| alen := n; aget := a5 |}
      (set_goal_y {| alen := n; aget := a4 |} (set_start_ydd {| alen := n; aget := a3 |}
        (set_start_yd {| alen := n; aget := a2 |} (set_start_y {| alen := n; aget := a1 |} p))))), None).
Proof.
  intros H1 H2. destruct p. cbn in H1, H2. subst.
  unfold configure, configure_block, check_1d_array_length. cbn -[Nat.eqb].
  repeat (rewrite Nat.eqb_refl; cbn -[Nat.eqb]). reflexivity.
Qed.

(** Accepted demonstrations: the start and the goal become the first and the last
    sample with their backward differences, the weights become the result of the
    regression for the forces that make the equation hold at the samples (relative
    to the polynomial through start and goal), and nothing else changes. *)
Theorem C101_imitate : forall n o junk regress dm lam, fv_reachable n o -> 0 <= lam ->
  demonstrates n dm ->
  let last := (d_n dm - 1)%nat in
  let tau := d_T dm last - d_T dm 0%nat in
  exists (V A F : nat -> vec) f w,
    (forall d, V 0%nat d = 0 /\ A 0%nat d = 0)
    /\ (forall k d, V (S k) d = (d_Y dm (S k) d - d_Y dm k d) / (d_T dm (S k) - d_T dm k)
                 /\ A (S k) d = (V (S k) d - V k d) / (d_T dm (S k) - d_T dm k))
    /\ (forall d c k, (d < n)%nat -> d_T dm k <= d_T dm last ->
          meets (poly5 c) (d_T dm 0%nat) (d_Y dm 0%nat d) 0 0 ->
          meets (poly5 c) (d_T dm last) (d_Y dm last d) (V last d) (A last d) ->
          F k d = tau ^ 2 * (A k d - Derive_n (poly5 c) 2 (d_T dm k))
                  - aget (o_alpha_y o) d * (aget (o_beta_y o) d * (poly5 c (d_T dm k) - d_Y dm k d)
                       + tau * (Derive (poly5 c) (d_T dm k) - V k d)))
    /\ forcing_term_init (fst junk) (snd junk) (o_n_weights_per_dim o) (d_T dm last)
         (d_T dm 0%nat) (8/10) (- ln (1/100)) = Ok f
    /\ w = regress (o_n_weights_per_dim o) (d_n dm) (design_matrix f (d_T dm) last) F lam
    /\ fv_imitate junk regress dm lam o
       = (with_base (set_goal_ydd {| alen := n; aget := A last |}
                      (set_goal_yd {| alen := n; aget := V last |}
                        (set_goal_y {| alen := n; aget := d_Y dm last |}
                          (set_start_ydd {| alen := n; aget := A 0%nat |}
                            (set_start_yd {| alen := n; aget := V 0%nat |}
                              (set_start_y {| alen := n; aget := d_Y dm 0%nat |} (o_base o)))))))
            (with_forcing_term (set_ft_weights w (o_forcing_term o)) o), Ok tt).
Proof.
  intros n o junk regress dm lam Hr Hlam (HT & Hrows & Hdims) last tau.
  pose proof (fv_reachable_ok n o Hr) as Hok. pose proof Hok as (Hsh & Hn & _ & _).
  destruct (fv_ft n o Hok) as (j & g0 & w0 & Eg & Ef).
  pose proof (forcing_term_init_n _ _ _ _ _ _ _ _ Eg) as (_ & _ & _ & Ov & Az & Nw & _).
  assert (Eov : ft_overlap (o_forcing_term o) = 8/10) by (rewrite Ef; exact Ov).
  assert (Eaz : ft_alpha_z (o_forcing_term o) = - ln (1/100)) by (rewrite Ef; exact Az).
  assert (Hn2 : (2 <= d_n dm)%nat).
  { destruct (d_n dm) as [|[|k]]; simpl in HT; try lra; lia. }
  destruct (forcing_term_init_ok (fst junk) (snd junk) (o_n_weights_per_dim o) (d_T dm last)
    (d_T dm 0%nat) (8/10) (- ln (1/100)) Nw HT ltac:(lra)) as (f & Hf & _).
  set (b := fun v : vec => if Nat.eqb n 1 then (fun _ : nat => v 0%nat) else v).
  assert (Hb : forall v d, (d < n)%nat -> b v d = v d).
  { intros v d Hd. unfold b. destruct (Nat.eqb_spec n 1); auto. subst n.
    assert (d = 0)%nat by lia. now subst. }
  set (V := fv_demo_velocity (d_T dm) (d_Y dm)). set (A := fv_demo_velocity (d_T dm) V).
  destruct (fv_determine_forces (d_n dm) (d_T dm) (d_Y dm) (b (aget (o_alpha_y o)))
     (b (aget (o_beta_y o))) true) as [df|] eqn:Edf.
  2:{ exfalso. unfold fv_determine_forces in Edf. cbn [negb] in Edf.
      destruct (Nat.eqb_spec (d_n dm) 0); [lia|]. rewrite solve_constraints_ok in Edf by (apply Rlt_not_eq; exact HT). discriminate. }
  assert (Edf' := Edf). unfold fv_determine_forces in Edf'. cbn [negb] in Edf'.
  destruct (Nat.eqb_spec (d_n dm) 0); [lia|]. rewrite solve_constraints_ok in Edf' by (apply Rlt_not_eq; exact HT).
  cbn [bind] in Edf'. fold last V A in Edf'. injection Edf' as Edf'.
  set (w := regress (o_n_weights_per_dim o) (d_n dm) (design_matrix f (d_T dm) last) (df_F df) lam).
  exists V, A, (df_F df), f, w.
  split; [intros d; split; reflexivity|]. split; [intros k d; split; reflexivity|]. split; [|split; [|split]].
  - intros d c k Hd Hk M0 M1. rewrite <- Edf'. cbn [df_F]. unfold apply_constraints.
    pose proof float_eps_pos. destruct (Rlt_dec (d_T dm last + float_eps) (d_T dm k)); [lra|].
    rewrite !Hb by auto. fold tau.
    assert (HR : forall i t, rsum 6 (fun j => constraint_row i t j
         * quintic (d_T dm 0%nat) (d_T dm last) (d_Y dm 0%nat d) (V 0%nat d) (A 0%nat d)
             (d_Y dm last d) (V last d) (A last d) j) = rsum 6 (fun j => constraint_row i t j * c j)).
    { intros i t. apply rsum_ext. intros jj Hj. f_equal. symmetry.
      apply (quintic_reference _ _ _ _ _ _ _ _ c); auto. now apply Rlt_not_eq. }
    rewrite !HR, Derive_poly5, Derive2_poly5, poly5_row. ring.
  - exact Hf.
  - reflexivity.
  - assert (EI : fv_dmp_imitate junk regress n dm (o_n_weights_per_dim o) lam
          (aget (o_alpha_y o)) (aget (o_beta_y o)) (8/10) (- ln (1/100))
        = Ok (w, (d_Y dm 0%nat, V 0%nat, A 0%nat), (d_Y dm last, V last, A last))).
    { unfold fv_dmp_imitate. destruct (Rlt_dec lam 0); [lra|].
      destruct (Nat.eqb_spec (d_n dm) 0); [lia|]. fold last. rewrite Hf. cbn [bind].
      rewrite Hrows. destruct (Nat.eqb_spec (d_n dm) 0); [lia|].
      rewrite Nat.eqb_refl, Hdims, Nat.eqb_refl. cbn [negb andb].
      etransitivity; [exact (f_equal (fun r => bind r _) Edf)|]. cbn [bind].
      rewrite <- Edf'. unfold w. rewrite <- Edf'. reflexivity. }
    unfold fv_imitate. rewrite Hn, Eov, Eaz, EI, Hdims, Nat.eqb_refl. cbn [negb].
    split_shapes Hsh.
    assert (Hnv : p_n_vel_dims (o_base o) = n) by congruence.
    unfold dmp_configure. rewrite configure_rows by auto. reflexivity.
Qed.

(** Rejected demonstrations; the object does not change. *)
Theorem C101_rejected : forall n o junk regress dm lam, fv_reachable n o ->
  (forall e, snd (fv_imitate junk regress dm lam o) = Err e ->
     fst (fv_imitate junk regress dm lam o) = o)
  /\ ((exists e, snd (fv_imitate junk regress dm lam o) = Err e) <-> ~ (0 <= lam /\ demonstrates n dm)).
Proof.
  intros n o junk regress dm lam Hr.
  pose proof (fv_reachable_ok n o Hr) as (Hsh & Hn & _ & _).
  split_shapes Hsh. assert (Hnv : p_n_vel_dims (o_base o) = n) by congruence.
  split.
  - intros e. unfold fv_imitate.
    destruct (fv_dmp_imitate _ _ _ _ _ _ _ _ _ _) as [[[w [[sy sv] sa]] [[gy gv] ga]]|]; [|auto].
    destruct (Nat.eqb_spec (d_dims dm) (p_n_dims (o_base o))) as [He|]; cbn [negb]; [|auto].
    rewrite He, Hn. unfold dmp_configure. rewrite configure_rows by auto. discriminate.
  - split.
    + intros [e He] (Hl & Hd).
      destruct (C101_imitate n o junk regress dm lam Hr Hl Hd) as (V & A & F & f & w & _ & _ & _ & _ & _ & E).
      rewrite E in He. discriminate.
    + intros H. unfold fv_imitate, fv_dmp_imitate.
      destruct (Rlt_dec lam 0); [cbn; eauto|]. destruct (Nat.eqb (d_n dm) 0); [cbn; eauto|].
      destruct (forcing_term_init _ _ _ _ _ _ _) as [f|] eqn:Ef; [|cbn; eauto]. cbn [bind].
      destruct (Rlt_dec (d_T dm 0%nat) (d_T dm (d_n dm - 1)%nat)) as [HT|HT].
      2:{ rewrite forcing_term_init_rejects in Ef by lra. discriminate. }
      destruct (Nat.eqb (d_rows dm) 0); [cbn; eauto|].
      destruct (Nat.eqb_spec (d_rows dm) (d_n dm)) as [Hrw|]; [|cbn; eauto]. cbn [negb].
      destruct (Nat.eqb_spec (d_dims dm) (p_n_dims (o_base o))) as [He|He].
      { exfalso. apply H. split; [lra|]. unfold demonstrates. rewrite He. auto. }
      cbn [negb andb]. destruct (Nat.eqb (p_n_dims (o_base o)) 1); cbn [negb andb]; [|cbn; eauto].
      destruct (fv_determine_forces _ _ _ _ _ _); cbn; eauto.
Qed.

(** ** Reproduction *)
(** A smooth motion that starts at rest (and need not end at rest) is recorded
    with [N + 1] equidistant samples and imitated.  The movement, with the time
    step of the recording, stays close to the motion, positions and velocities, at
    all times up to [tau].  [eps]: how well the basis functions can represent the
    required force, for any choice of weights [w]; [c]: the polynomial from start
    to goal.  [C] depends only on the motion and on the gains. *)
Theorem C101_reproduces : forall tau alpha beta y v a, 0 < tau -> smooth_motion tau y v a ->
  exists C, 0 <= C /\
  forall n o d N junk dm lam w c eps, fv_reachable n o -> (d < n)%nat ->
  o_execution_time o = tau -> ft_goal_t (o_forcing_term o) = tau ->
  aget (o_alpha_y o) d = alpha -> aget (o_beta_y o) d = beta ->
  (2 <= N)%nat -> demonstrates n dm -> recorded tau N d y dm -> 0 <= lam ->
  o_dt o = tau / INR N -> o_dt o <= o_int_dt o ->
  let o' := fv_imitated junk dm lam o in
  reference o' d c ->
  (forall t, 0 <= t <= tau ->
     Rabs (fv_required_force tau alpha beta (poly5 c) y v a t - force_with o d w t) <= eps) ->
  forall k, (k <= N)%nat -> exists pos vel, moves o' k pos vel
    /\ Rabs (pos d - y (INR k * o_dt o)) + Rabs (vel d - v (INR k * o_dt o))
       <= C * (sqrt (o_dt o) + eps + sqrt (lam * o_dt o * rsum (o_n_weights_per_dim o) (fun i => w i ^ 2))).
Proof.
  intros tau alpha beta y v a Htau (V0 & D & L & HL & La).
  assert (Dy : forall t, 0 <= t <= tau -> is_derive y t (v t)) by (intros; now apply D).
  assert (Dv : forall t, 0 <= t <= tau -> is_derive v t (a t)) by (intros; now apply D).
  destruct (acceleration_bounded a tau L Htau HL La) as (B & HB & Ba).
  set (A0 := 4 * tau ^ 2 * B + Rabs alpha * tau * (B * tau)).
  set (A1 := 10 * tau ^ 2 * L + Rabs alpha * tau * B).
  set (Q := (24 * A0 ^ 2 + 12 * tau ^ 2 * A1 ^ 2 + 8 * tau + 2) / tau ^ 4).
  assert (HQ : 0 <= Q).
  { unfold Q. apply Rmult_le_pos.
    - pose proof (pow2_ge_0 A0). pose proof (pow2_ge_0 A1). pose proof (pow2_ge_0 tau). nra.
    - apply Rlt_le, Rinv_0_lt_compat, pow_lt. auto. }
  destruct (euler_mean_err y v a (alpha * beta / tau ^ 2) (alpha / tau) (y tau) tau L Htau HL Dy Dv La Q HQ)
    as (C & HC & EM).
  exists C. split; auto.
  intros n o d N junk dm lam w c eps Hr Hd Ex Hg Eal Ebe HN Hdem Hrec Hlam Edt Hint o' Href Heps.
  set (req := fv_required_force tau alpha beta (poly5 c) y v a) in *.
  destruct (C101_imitate n o junk ridge_regression dm lam Hr Hlam Hdem)
    as (V & A & F & f & w0 & VA0 & VA & HF & Ef & Ew & Eimi).
  assert (Eo' := f_equal fst Eimi). cbn [fst] in Eo'. fold (fv_imitated junk dm lam o) in Eo'. fold o' in Eo'.
  destruct Hrec as (Rn & RT & RY). rewrite Rn in *. replace (S N - 1)%nat with N in * by lia.
  rewrite Edt in *. set (h := tau / INR N) in *.
  assert (HNpos : 0 < INR N) by (apply lt_0_INR; lia).
  assert (Hh : 0 < h) by (unfold h; now apply Rdiv_lt_0_compat).
  assert (HNh : INR N * h = tau) by (unfold h; field; lra).
  assert (RT0 : d_T dm 0%nat = 0) by (rewrite RT; simpl; ring).
  assert (RTN : d_T dm N = tau) by (rewrite RT; auto).
  assert (Heps0 : 0 <= eps) by (eapply Rle_trans; [apply Rabs_pos|apply (Heps 0); lra]).
  rewrite RT0, RTN, Rminus_0_r in *.
  set (nw := o_n_weights_per_dim o) in *.
  assert (EV : V = fv_demo_velocity (d_T dm) (d_Y dm)).
  { apply functional_extensionality; intros k. apply functional_extensionality; intros x.
    destruct k; [apply VA0|apply VA]. }
  assert (EA : A = fv_demo_velocity (d_T dm) V).
  { apply functional_extensionality; intros k. apply functional_extensionality; intros x.
    destruct k; [apply VA0|apply VA]. }
  assert (Etau' : o_execution_time o' = tau) by (rewrite Eo'; exact Ex).
  (* the forces at the samples *)
  set (G := fun k : nat => tau ^ 2 * (A k d - a (INR k * h)) + alpha * tau * (V k d - v (INR k * h))).
  assert (HM : meets (poly5 c) 0 (d_Y dm 0%nat d) 0 0
            /\ meets (poly5 c) tau (d_Y dm N d) (V N d) (A N d)).
  { unfold reference in Href. cbv zeta in Href. rewrite Etau' in Href. rewrite Eo' in Href.
    cbn in Href. destruct (VA0 d) as [-> ->] in Href. exact Href. }
  destruct HM as [M0 M1].
  assert (EG : forall k, (k <= N)%nat -> F k d = req (INR k * h) + G k).
  { intros k Hk. rewrite (HF d c k Hd); auto.
    - rewrite Eal, Ebe, RT, RY by lia. unfold req, fv_required_force, G. ring.
    - rewrite RT, <- HNh. apply Rmult_le_compat_r; [lra|]. now apply le_INR. }
  pose proof (backward_force_errors y v a tau L B Htau HL HB Dy Dv La Ba V0 N d (d_Y dm) (d_T dm)
    HN RT RY alpha) as FE. cbv zeta in FE. rewrite <- EV, <- EA in FE. fold h in FE.
  change (rsum (S N) (fun k => G k ^ 2) <= 4 * A0 ^ 2 + INR (S N) * (A1 * h) ^ 2) in FE.
  destruct (fv_ft n o (fv_reachable_ok n o Hr)) as (j & g & wg & Eg & Eog). fold nw in Eg. rewrite Hg in Eg.
  pose proof (forcing_term_init_n _ _ _ _ _ _ _ _ Ef) as (Nf & Gf & Sf & _ & Zf & _).
  pose proof (forcing_term_init_n _ _ _ _ _ _ _ _ Eg) as (Ng & Gg & Sg & _ & Zg & _).
  set (X := design_matrix f (d_T dm) N) in *.
  assert (HX : forall (ww : nat -> nat -> R) k,
     ft_call (set_ft_weights ww (o_forcing_term o)) (INR k * h) d = rsum nw (fun i => ww d i * X i k)).
  { intros ww k. unfold ft_call, ft_forces, ft_phase. rewrite Eog.
    cbn [set_ft_weights ft_n ft_weights ft_centers ft_widths ft_alpha_z ft_goal_t ft_start_t].
    rewrite Ng, Gg, Sg, Zg. rewrite <- rsum_scal. apply rsum_ext. intros i Hi.
    unfold X, design_matrix. rewrite RTN, RT0, RT, Zf, Nf.
    rewrite (activations_ext nw (ft_centers f) (ft_widths f) (ft_centers g) (ft_widths g)); auto.
    - fold nw. ring.
    - intros i' Hi'. apply (C02_fully_initialised _ _ _ _ _ _ _ _ _ _ _ Eg Ef i' Hi'). }
  assert (HO : forall k, ft_call (o_forcing_term o') (INR k * h) d
     = rsum nw (fun i => ridge_regression nw (S N) X F lam d i * X i k)).
  { intros k. rewrite Eo', Ew. exact (HX _ k). }
  destruct (fitted_forces tau A0 A1 nw N X F lam d w eps (fun k => req (INR k * h)) G Htau HN Hlam Heps0 EG FE)
    as (Pr & Phr & Psum).
  { intros k Hk. rewrite <- (HX (fun _ => w) k). apply Heps. rewrite <- HNh. split.
    - apply Rmult_le_pos; [apply pos_INR|lra].
    - apply Rmult_le_compat_r; [lra|]. now apply le_INR. }
  fold h Q in Pr, Phr, Psum.
  set (r := sqrt h + eps + sqrt (lam * h * rsum nw (fun i => w i ^ 2))) in *.
  set (e := fun k => (ft_call (o_forcing_term o') (INR k * h) d - req (INR k * h)) / tau ^ 2).
  assert (Edt' : o_dt o' = h) by (rewrite Eo'; exact Edt).
  assert (Eint' : o_int_dt o' = o_int_dt o) by (rewrite Eo'; reflexivity).
  destruct (fv_run o') as (s & Z0 & Zs & Zr); try (rewrite ?Etau', ?Edt', ?Eint'; lra).
  intros k Hk. exists (fst (s k)), (snd (s k)). split.
  { apply (fv_moves o' k (s k) (Zr k)). now destruct (s k). }
  apply (EM N (fun k => fst (s k) d) (fun k => snd (s k) d) e r ltac:(lia)); auto.
  - rewrite Z0. cbn [fst]. rewrite Eo'. change (d_Y dm 0%nat d = y 0). rewrite RY by lia.
    simpl INR. now rewrite Rmult_0_l.
  - rewrite Z0. cbn [snd]. rewrite Eo'. change (V 0%nat d = v 0). rewrite V0. apply VA0.
  - intros i Hi. destruct (Zs i) as (l & Hl & Es). rewrite Edt' in Hl.
    assert (Ei : 0 + INR (S i) * h - (0 + INR i * h) = h) by (rewrite S_INR; ring).
    apply tiles_one in Hl.
    3:{ rewrite Ei, Eint'. lra. }
    2:{ rewrite S_INR. lra. }
    rewrite Ei, Rplus_0_l in Hl. rewrite Es, Hl. destruct (s i) as [yv vv].
    unfold exec_substeps. cbn [fold_left fst snd].
    assert (Hit : INR (S i) * h <= tau).
    { rewrite <- HNh. apply Rmult_le_compat_r; [lra|]. apply le_INR. lia. }
    pose proof (fv_body_rhs o' d c (INR (S i) * h) h yv vv ltac:(rewrite Etau'; lra) ltac:(lra)
      ltac:(rewrite Etau'; exact Hit) Href) as RR. cbv zeta in RR. destruct RR as [RV RY'].
    rewrite RV in *. rewrite RY'.
    assert (EI : rhs (aget (o_alpha_y o') d * aget (o_beta_y o') d / o_execution_time o' ^ 2)
        (aget (o_alpha_y o') d / o_execution_time o') (aget (p_goal_y (o_base o')) d)
        (fv_input o' d (poly5 c)) (INR (S i) * h) (yv d) (vv d)
      = alpha * beta / tau ^ 2 * (y tau - yv d) - alpha / tau * vv d
        + (needed y v a (alpha * beta / tau ^ 2) (alpha / tau) (y tau) (INR (S i) * h) + e (S i))).
    { unfold rhs, fv_input. cbv zeta. rewrite Etau'.
      replace (aget (p_goal_y (o_base o')) d) with (y tau)
        by (rewrite Eo'; change (y tau = d_Y dm N d); rewrite RY, HNh by lia; reflexivity).
      replace (aget (o_alpha_y o') d) with alpha by (rewrite Eo'; now symmetry).
      replace (aget (o_beta_y o') d) with beta by (rewrite Eo'; now symmetry).
      unfold needed, e, req, fv_required_force. field. lra. }
    rewrite EI. auto.
  - eapply Rle_trans; [apply Req_le|exact Psum]. apply rsum_ext. intros i _. unfold e. now rewrite HO.
Qed.

(** ** Instances *)
Lemma fv_exec_all_app cs cs' : forall o,
  fst (fv_exec_all (cs ++ cs') o) = fst (fv_exec_all cs' (fst (fv_exec_all cs o))).
Proof.
  induction cs as [|c cs IH]; intros o; [reflexivity|].
  cbn [app fv_exec_all]. destruct (fv_exec c o) as [o1 x]. specialize (IH o1).
  destruct (fv_exec_all (cs ++ cs') o1), (fv_exec_all cs o1). simpl in *. exact IH.
Qed.

Lemma fv_reachable_exec n c o : fv_reachable n o -> fv_reachable n (fst (fv_exec c o)).
Proof.
  intros (junk & x & dt & nw & idt & pg & al & be & o0 & cs & E & ->).
  exists junk, x, dt, nw, idt, pg, al, be, o0, (cs ++ [c]). split; auto.
  rewrite fv_exec_all_app. cbn [fv_exec_all]. now destruct (fv_exec c (fst (fv_exec_all cs o0))).
Qed.

Lemma fv_ex_reachable n alpha beta o : ex_new n alpha beta = Ok o -> fv_reachable n o.
Proof.
  intros E. exists (vzero, vzero), 1, (1/100), 2%nat, (1/1000), 0,
    {| shape := []; data := fun _ => alpha |}, {| shape := []; data := fun _ => beta |}, o, [].
  split; [exact E|reflexivity].
Qed.

(** A goal with velocity 2, with and without weights. *)
Example C101_satisfiable : forall w0, exists o, fv_reachable 1 o /\ o_execution_time o = 1
  /\ o_dt o = 1/100 /\ o_int_dt o = 1/1000 /\ INR 100 * o_dt o = o_execution_time o
  /\ aget (p_goal_y (o_base o)) 0%nat = 7 /\ aget (p_goal_yd (o_base o)) 0%nat = 2
  /\ (forall i, (i < o_n_weights_per_dim o)%nat -> ft_weights (o_forcing_term o) 0 i = w0)
  /\ same_fv_equation 0 o o /\ steps_shrink Euler o 0
  /\ (exists c, reference o 0 c) /\ forall c, reference o 0 c -> exists y v, fv_equation o 0 (poly5 c) y v.
Proof.
  intros w0. destruct (ex_new_ok 1 25 (25/4)) as (f & o0 & E & Ef & Eo).
  assert (Hr : fv_reachable 1 o0) by (eapply fv_ex_reachable; eauto).
  set (g := FConfigure {| c_t := None; c_start_y := None; c_start_yd := None; c_start_ydd := None;
                 c_goal_y := Some (one 7); c_goal_yd := Some (one 2); c_goal_ydd := None |}).
  set (sw := FSetWeights {| alen := 2; aget := fun _ => w0 |}).
  set (o := fst (fv_exec sw (fst (fv_exec g o0)))).
  assert (HO : fv_reachable 1 o) by (unfold o; now do 2 apply fv_reachable_exec).
  pose proof (forcing_term_init_n _ _ _ _ _ _ _ _ Ef) as (Nf & _).
  assert (EO : o = with_forcing_term (set_ft_weights (fun _ _ => w0) f)
                (with_base (set_goal_yd (one 2) (set_goal_y (one 7) (o_base o0))) o0)).
  { unfold o, g, sw. cbn [fv_exec exec].
    assert (E1 : dmp_configure {| c_t := None; c_start_y := None; c_start_yd := None; c_start_ydd := None;
                 c_goal_y := Some (one 7); c_goal_yd := Some (one 2); c_goal_ydd := None |} o0
        = (with_base (set_goal_yd (one 2) (set_goal_y (one 7) (o_base o0))) o0, Ok tt)).
    { rewrite Eo. reflexivity. }
    rewrite E1. cbn [fst]. rewrite Eo. unfold dmp_set_weights, reshape. cbn -[Nat.eqb]. rewrite Nf. reflexivity. }
  exists o. split; auto.
  assert (X : o_execution_time o = 1) by (rewrite EO, Eo; reflexivity).
  destruct (C101_solution 1 o 0 HO ltac:(lra)) as (R1 & _ & R2).
  split; [exact X|]. split; [rewrite EO, Eo; reflexivity|]. split; [rewrite EO, Eo; reflexivity|].
  split; [rewrite EO, Eo; simpl; lra|]. split; [rewrite EO, Eo; reflexivity|].
  split; [rewrite EO, Eo; reflexivity|]. split; [intros i _; rewrite EO, Eo; reflexivity|].
  split; [unfold same_fv_equation; repeat split|]. split.
  - split.
    + right. exists 10%nat. rewrite EO, Eo. simpl. lra.
    + unfold dmp_damping, dmp_stiffness. rewrite EO, Eo. cbn -[pow].
      replace (Rmin (1/100) (1/1000)) with (1/1000) by (symmetry; apply Rmin_right; lra).
      apply C100_euler_limit; lra.
  - split; auto.
Qed.

(** A motion that ends with velocity 2, learned from any number of samples. *)
Example C101_reproduces_satisfiable : let y := fun t => t ^ 2 in let v := fun t => 2 * t in let a := fun _ => 2 in
  smooth_motion 1 y v a /\ v 1 = 2
  /\ forall N lam junk (w : vec), (2 <= N)%nat -> 0 <= lam -> exists o dm c eps,
     fv_reachable 1 o /\ o_execution_time o = 1 /\ ft_goal_t (o_forcing_term o) = 1
     /\ aget (o_alpha_y o) 0%nat = 25 /\ aget (o_beta_y o) 0%nat = 25/4
     /\ demonstrates 1 dm /\ recorded 1 N 0 y dm /\ o_dt o = 1 / INR N /\ o_dt o <= o_int_dt o
     /\ reference (fv_imitated junk dm lam o) 0 c
     /\ (forall t, 0 <= t <= 1 ->
          Rabs (fv_required_force 1 25 (25/4) (poly5 c) y v a t - force_with o 0 w t) <= eps).
Proof.
  intros y v a. split; [|split; [unfold v; lra|]].
  { unfold smooth_motion. split; [unfold v; lra|]. split.
    - intros t _. unfold y, v, a. split; auto_derive; auto; ring.
    - exists 0. split; [lra|]. intros s t _ _. unfold a. rewrite Rminus_eq_0, Rabs_R0. lra. }
  intros N lam junk w HN Hlam.
  destruct (ex_new_ok 1 25 (25/4)) as (f & o0 & E & Ef & Eo).
  assert (Hr : fv_reachable 1 o0) by (eapply fv_ex_reachable; eauto).
  pose proof (forcing_term_init_n _ _ _ _ _ _ _ _ Ef) as (Nf & Gf & _).
  assert (PN : 0 < INR N) by (apply lt_0_INR; lia).
  assert (Ph : 0 < 1 / INR N) by (apply Rdiv_lt_0_compat; lra).
  set (o := fst (fv_exec (FSetIntDt (1 / INR N)) (fst (fv_exec (FSetDt (1 / INR N)) o0)))).
  assert (HO : fv_reachable 1 o) by (unfold o; now do 2 apply fv_reachable_exec).
  set (dm := {| d_n := S N; d_T := fun k => INR k * (1 / INR N); d_rows := S N; d_dims := 1;
     d_Y := fun k _ => y (INR k * (1 / INR N)) |}).
  assert (Hdem : demonstrates 1 dm).
  { unfold demonstrates, dm. cbn [d_T d_n d_rows d_dims]. split; auto. simpl (INR 0). rewrite Rmult_0_l.
    apply Rmult_lt_0_compat; auto. apply lt_0_INR. lia. }
  destruct (C101_solution 1 (fv_imitated junk dm lam o) 0) as ((c & Hc) & _ & _).
  { pose proof (fv_reachable_exec 1 (FImitate junk ridge_regression dm lam) o HO) as H.
    cbn [fv_exec] in H. unfold fv_imitated. now destruct (fv_imitate junk ridge_regression dm lam o). }
  { unfold fv_imitated.
    destruct (C101_imitate 1 o junk ridge_regression dm lam HO Hlam Hdem) as (V & A & F & g & w1 & _ & _ & _ & _ & _ & EI).
    rewrite EI. unfold o. rewrite Eo. cbn. lra. }
  assert (LB : lipb 0 1 (fun t => fv_required_force 1 25 (25/4) (poly5 c) y v a t - force_with o 0 w t)).
  { apply (lipb_ext _ _ (fun t => (1 ^ 2 * (2 - rsum 6 (fun j => constraint_row 2 t j * c j))
       - 25 * ((25/4) * (rsum 6 (fun j => constraint_row 0 t j * c j) - t * t)
           + 1 * (rsum 6 (fun j => constraint_row 1 t j * c j) - 2 * t))) - force_with o 0 w t)).
    - intros t. unfold fv_required_force. rewrite Derive_poly5, Derive2_poly5, poly5_row.
      unfold y, v, a. ring.
    - pose proof (lipb_rows 0 1 0 c ltac:(lia)) as L0. pose proof (lipb_rows 0 1 1 c ltac:(lia)) as L1.
      pose proof (lipb_rows 0 1 2 c ltac:(lia)) as L2.
      apply lipb_minus; [apply lipb_minus|].
      { apply lipb_scal, lipb_minus; [apply lipb_const|exact L2]. }
      { apply lipb_scal, lipb_plus; apply lipb_scal, lipb_minus; auto.
        - apply lipb_mult; apply lipb_id.
        - apply lipb_scal, lipb_id. }
      apply (lipb_forces 0 1 (set_ft_weights (fun _ => w) (o_forcing_term o)) 0).
      unfold o. rewrite Eo. cbn. rewrite Nf. lia. }
  destruct LB as (eps & _ & LB & _).
  exists o, dm, c, eps. split; auto.
  assert (E2 : o_execution_time o = 1 /\ o_dt o = 1 / INR N /\ o_int_dt o = 1 / INR N
     /\ aget (o_alpha_y o) 0%nat = 25 /\ aget (o_beta_y o) 0%nat = 25/4
     /\ ft_goal_t (o_forcing_term o) = 1).
  { unfold o. rewrite Eo. cbn. repeat split; auto. }
  destruct E2 as (E2 & E3 & E4 & E5 & E6 & E7). repeat (split; [assumption|]). split.
  { unfold recorded, dm. cbn. auto. }
  split; [assumption|]. split; [rewrite E3, E4; apply Rle_refl|]. split; auto.
Qed.
