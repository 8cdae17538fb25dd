(** C106: a CartesianDMP learns the same movement from a demonstration that is
    described in another world frame, for another tool orientation or at another
    speed.  Final statements. *)
From Coq Require Import Reals ZArith List Lia Lra Psatz FunctionalExtensionality.
From Verif Require Import M_Prelude M_Canonical M_Forcing M_Dmp M_Base M_Matrix M_DmpObject M_Ridge
  M_SpringDamper M_Quaternion M_Cartesian S_Loops S_Dmp S_Rotation S_Attributes S_Frames P_Loops P_Canonical P_Forcing
  P_DmpStep P_DmpScale P_DmpLinear P_Matrix P_Quaternion P_Cartesian P_DmpObject P_DmpAffine P_Components
  Properties_Forcing Properties_Dmp Properties_DmpObject Properties_Equivariance Properties_Cartesian
  Properties_CartesianObject Properties_Attributes P_CartesianHistory P_Frames.
Import ListNotations.
Open Scope R_scope.
Set Bullet Behavior "Strict Subproofs".

(** ** Specification *)
(** Two CartesianDMPs with the same timing, number of weights and scaling. *)
Definition same_cart_settings (o o' : cart) : Prop :=
  k_execution_time o' = k_execution_time o /\ k_dt o' = k_dt o /\ k_int_dt o' = k_int_dt o
  /\ k_n o' = k_n o /\ k_smooth o' = k_smooth o /\ ft_goal_t (k_fpos o') = ft_goal_t (k_fpos o).

(** The gains do not distinguish axes that [l] mixes. *)
Definition gains_fit (l : quat) (g' g : arr) : Prop :=
  forall d e, (d < 3)%nat -> (e < 3)%nat -> rotation_matrix l d e <> 0 ->
    aget g' d = aget g e /\ aget g' (3 + d)%nat = aget g (3 + e)%nat.

(** Every orientation of the demonstration is a unit quaternion. *)
Definition unit_orientations (dm : demo) : Prop :=
  forall t, (t < d_n dm)%nat -> unit_quat (attitude (d_Y dm t)).

Definition learn (jp jr : vec * vec) (dm : demo) (lam : R) (allow : bool) (o : cart) : cart :=
  fst (cart_imitate jp jr ridge_regression dm lam allow o).
Definition learns (jp jr : vec * vec) (dm : demo) (lam : R) (allow : bool) (o : cart) : Prop :=
  snd (cart_imitate jp jr ridge_regression dm lam allow o) = Ok tt.

(** ** Proofs *)
Definition ft_made (n : nat) (goal_t : R) (f : forcing_term) : Prop :=
  exists j f0 w, forcing_term_init (fst j) (snd j) n goal_t 0 (8/10) (- ln (1/100)) = Ok f0
    /\ f = set_ft_weights w f0.

Definition both_made (o : cart) : Prop :=
  exists g, ft_made (k_n o) g (k_fpos o) /\ ft_made (k_n o) g (k_frot o).

Lemma ft_made_weights n g w f : ft_made n g f -> ft_made n g (set_ft_weights w f).
Proof. intros (j & f0 & v & E & ->). exists j, f0, w. split; auto. Qed.

Lemma ft_made_goal n g f : ft_made n g f -> ft_goal_t f = g.
Proof. intros (j & f0 & v & E & ->). apply forcing_term_init_n in E. cbn. apply E. Qed.

Lemma both_made_exec c o : both_made o -> both_made (cart_exec c o).
Proof.
  intros H. destruct c; cbn [cart_exec]; auto.
  - unfold cart_configure. destruct (configure _ _). exact H.
  - unfold cart_step. destruct (negb _); auto. destruct (negb _); auto. cbv zeta.
    destruct (assign_slice _ _); auto. destruct (assign_slice _ _); auto.
    destruct (run_step_function _ _ _ _ _) as [[? ?]|]; auto. destruct (q_step _ _ _ _ _) as [[? ?]|]; auto.
  - destruct H as (g & H1 & H2). unfold cart_imitate. destruct (negb _); [exists g; auto|]. cbv zeta.
    destruct (dmp_imitate _ _ _ _ _ _ _ _ _ _ _ _) as [[[? ?] ?]|]; [|exists g; auto].
    destruct (dmp_quaternion_imitation _ _ _ _ _ _ _ _ _ _ _ _ _); [|exists g; cbn; auto using ft_made_weights].
    unfold cart_configure. destruct (configure _ _). exists g; cbn; auto using ft_made_weights.
  - destruct H as (g & H1 & H2). unfold cart_set_weights. cbv zeta.
    destruct (assign_rows _ _); [|exists g; auto].
    destruct (assign_rows _ _); exists g; cbn; auto using ft_made_weights.
  - unfold cart_set_execution_time. cbv zeta. cbn [k_n cart_with_time].
    destruct (init_forcing_term junk_pos (k_n o) x) as [fp|] eqn:E1; [|exact H].
    destruct (init_forcing_term_inv _ _ _ _ E1) as (H2 & Hx & F1).
    destruct (init_forcing_term_accepts junk_rot (k_n o) x H2 Hx) as [fr E2]. rewrite E2.
    destruct (init_forcing_term_inv _ _ _ _ E2) as (_ & _ & F2).
    exists x. cbn. split; [exists junk_pos, fp|exists junk_rot, fr]; eauto.
Qed.

Lemma cart_made_both o : cart_made o -> both_made o.
Proof.
  intros (jp & jr & x & dt & n & idt & sm & al & be & o0 & cs & E & ->).
  assert (H : both_made o0).
  { apply cart_new_inv in E. destruct E as (fp & fr & a & b & E1 & E2 & _ & _ & ->).
    destruct (init_forcing_term_inv _ _ _ _ E1) as (_ & _ & F1).
    destruct (init_forcing_term_inv _ _ _ _ E2) as (_ & _ & F2).
    exists x. cbn. split; [exists jp, fp, (ft_weights fp)|exists jr, fr, (ft_weights fr)]; split; auto;
      [destruct fp|destruct fr]; reflexivity. }
  clear E. revert o0 H. unfold cart_history. induction cs as [|c cs IH]; intros o0 H; [exact H|].
  cbn [fold_left]. apply IH. now apply both_made_exec.
Qed.

(** What [imitate] does to the orientation and to the configuration. *)
Lemma learned o jp jr dm lam allow : cart_made o -> 0 <= lam -> demonstrates 7 dm ->
  exists f qf w,
    learns jp jr dm lam allow o
    /\ determine_forces_quaternion (d_n dm) (d_T dm) (fun t => attitude (d_Y dm t))
         (v3_of (slice 3 3 (aget (k_alpha o)))) (v3_of (slice 3 3 (aget (k_beta o))))
         (- ln (1/100)) allow (k_smooth o) = Ok qf
    /\ forcing_term_init (fst jr) (snd jr) (k_n o) (d_T dm (d_n dm - 1)%nat) (d_T dm 0%nat)
         (8/10) (- ln (1/100)) = Ok f
    /\ w = ridge_regression (k_n o) (d_n dm) (fun i t => design_matrix f (d_T dm) (d_n dm - 1) i t)
             (fun t => vec_of_v3 (qf_F qf t)) lam
    /\ cart_rot_open_args (learn jp jr dm lam allow o) None
       = {| g_goal_y := attitude (d_Y dm (d_n dm - 1)%nat); g_start_y := attitude (d_Y dm 0%nat);
            g_start_yd := v3_zero; g_goal_t := k_execution_time o; g_start_t := 0;
            g_alpha_y := v3_of (slice 3 3 (aget (k_alpha o))); g_beta_y := v3_of (slice 3 3 (aget (k_beta o)));
            g_forcing_term := set_ft_weights w (k_frot o); g_coupling_term := None; g_precomputed := None;
            g_int_dt := k_int_dt o; g_smooth_scaling := k_smooth o |}
    /\ k_execution_time (learn jp jr dm lam allow o) = k_execution_time o
    /\ k_dt (learn jp jr dm lam allow o) = k_dt o.
Proof.
  intros Hm Hlam (HT & Hrows & Hdims).
  destruct (cart_made_both o Hm) as (g & (jp0 & fp0 & wp0 & Ep & Ek) & (jr0 & fr0 & wr0 & Er & Ekr)).
  destruct (cart_made_stand_in o Hm) as [(d0 & _ & Htw) Hn].
  pose proof (forcing_term_init_n _ _ _ _ _ _ _ _ Ep) as (_ & _ & _ & Ov & Az & _).
  pose proof (forcing_term_init_n _ _ _ _ _ _ _ _ Er) as (_ & _ & _ & Ovr & Azr & _).
  assert (Hn2 : (2 <= d_n dm)%nat).
  { destruct (d_n dm) as [|[|k]]; simpl in HT; try lra; lia. }
  destruct (forcing_term_init_ok (fst jp) (snd jp) (k_n o) (d_T dm (d_n dm - 1)%nat) (d_T dm 0%nat) (8/10) (- ln (1/100)))
    as (gp & Egp & _); [lia|exact HT|lra|].
  destruct (forcing_term_init_ok (fst jr) (snd jr) (k_n o) (d_T dm (d_n dm - 1)%nat) (d_T dm 0%nat) (8/10) (- ln (1/100)))
    as (gr & Egr & _); [lia|exact HT|lra|].
  assert (EQ : exists qf, determine_forces_quaternion (d_n dm) (d_T dm) (fun t => attitude (d_Y dm t))
         (v3_of (slice 3 3 (aget (k_alpha o)))) (v3_of (slice 3 3 (aget (k_beta o))))
         (- ln (1/100)) allow (k_smooth o) = Ok qf).
  { unfold determine_forces_quaternion. destruct (Nat.ltb_spec (d_n dm) 2); [lia|]. eauto. }
  destruct EQ as [qf EQ]. exists gr, qf. eexists.
  assert (ED : forall T Y al be az al' sm, exists df, determine_forces (d_n dm) T Y al be az al' sm = Ok df).
  { intros. unfold determine_forces. destruct (Nat.ltb_spec (d_n dm) 2); [lia|]. eauto. }
  set (w := ridge_regression (k_n o) (d_n dm) (fun i t => design_matrix gr (d_T dm) (d_n dm - 1) i t)
             (fun t => vec_of_v3 (qf_F qf t)) lam).
  assert (EI : exists wp, cart_imitate jp jr ridge_regression dm lam allow o
    = cart_configure {| c_t := None; c_start_y := Some {| alen := 7; aget := d_Y dm 0%nat |};
               c_start_yd := None; c_start_ydd := None;
               c_goal_y := Some {| alen := 7; aget := d_Y dm (d_n dm - 1)%nat |};
               c_goal_yd := None; c_goal_ydd := None |}
        (cart_with_frot (set_ft_weights w (k_frot o)) (cart_with_fpos (set_ft_weights wp (k_fpos o)) o))).
  { unfold cart_imitate. rewrite Hdims. cbn [Nat.eqb negb]. cbv zeta.
    unfold dmp_imitate. destruct (Rlt_dec lam 0) as [X|_]; [lra|]. cbn [d_n d_T d_rows d_dims d_Y].
    destruct (Nat.eqb_spec (d_n dm) 0); [lia|]. rewrite Hrows, Nat.eqb_refl. cbn [negb andb Nat.eqb].
    rewrite Ek. cbn [set_ft_weights ft_overlap ft_alpha_z]. rewrite Ov, Az, Egp. cbn [bind].
    match goal with |- context [determine_forces (d_n dm) ?a ?b ?c ?d ?e ?f ?g] =>
      destruct (ED a b c d e f g) as [df Edf] end.
    rewrite Edf. cbn [bind].
    unfold dmp_quaternion_imitation. destruct (Rlt_dec lam 0) as [X|_]; [lra|].
    destruct (Nat.eqb_spec (d_n dm) 0); [lia|]. cbv zeta.
    cbn [cart_with_fpos k_n k_frot k_alpha k_beta k_smooth].
    rewrite Ekr. cbn [set_ft_weights ft_overlap ft_alpha_z]. rewrite Ovr, Azr, Egr. cbn [bind].
    change (fun t : nat => quat_of (slice 3 4 (d_Y dm t))) with (fun t => attitude (d_Y dm t)).
    rewrite EQ. cbn [bind]. eexists. reflexivity. }
  destruct EI as [wp EI].
  unfold learns, learn. rewrite EI.
  unfold cart_configure, configure, configure_block, check_1d_array_length.
  cbn [c_t c_start_y c_start_yd c_start_ydd c_goal_y c_goal_yd c_goal_ydd alen k_base cart_with_frot cart_with_fpos].
  rewrite (bt_dims _ _ (tw_base _ _ Htw)). cbn. rewrite (bt_dims _ _ (tw_base _ _ Htw)). cbn.
  repeat split; auto.
Qed.

Lemma position_run run_t fn o d : position_part o d ->
  res_rel (fun x x3 => fst x3 = fst x /\ Forall2 (fun s y3 => same3 (fst s) y3) (snd x) (snd x3))
    (open_loop_run (run_step_function fn (cart_pos_open_args o None)) 0
       (match run_t with Some x => x | None => k_execution_time o end) (k_dt o)
       (a_start_y (cart_pos_open_args o None)) vzero)
    (dmp_open_loop run_t None (Some fn) d).
Proof.
  intros Hpp. unfold dmp_open_loop. rewrite (pp_time _ _ Hpp), (pp_dt _ _ Hpp).
  set (rt := match run_t with Some x => x | None => k_execution_time o end).
  pose proof (run_on_grid_rel (same_on lt3 id3)
    (run_step_function fn (cart_pos_open_args o None))
    (run_step_function fn (open_loop_step_args d None)) 0 rt (k_dt o)
    (a_start_y (cart_pos_open_args o None), vzero) (aget (p_start_y (o_base d)), vzero)) as HR.
  change (open_loop_run (run_step_function fn (cart_pos_open_args o None)) 0 rt (k_dt o)
            (a_start_y (cart_pos_open_args o None)) vzero)
    with (run_on_grid (run_step_function fn (cart_pos_open_args o None)) 0 rt (k_dt o)
            (a_start_y (cart_pos_open_args o None), vzero)).
  change (open_loop_run (run_step_function fn (open_loop_step_args d None)) 0 rt (k_dt o)
            (aget (p_start_y (o_base d))) vzero)
    with (run_on_grid (run_step_function fn (open_loop_step_args d None)) 0 rt (k_dt o)
            (aget (p_start_y (o_base d)), vzero)).
  assert (H1 : forall a b s s', same_on lt3 id3 s s' ->
     res_on lt3 id3 (run_step_function fn (cart_pos_open_args o None) a b s)
                    (run_step_function fn (open_loop_step_args d None) a b s')).
  { intros a b s s' Hs. apply step_on; auto; [|intros _ j _; reflexivity].
    destruct Hpp. constructor; cbn [cart_pos_open_args cart_pos_args open_loop_step_args a_goal_y
        a_start_y a_goal_t a_start_t
        a_alpha_y a_beta_y a_forcing_term a_coupling_term a_precomputed a_int_dt a_smooth_scaling
        a_p_gain a_tracking_error]; auto using same3_slice; exact I. }
  specialize (HR H1). clear H1.
  assert (H0 : same_on lt3 id3 (a_start_y (cart_pos_open_args o None), vzero) (aget (p_start_y (o_base d)), vzero)).
  { split; [|intros j _; reflexivity]. cbn. apply same3_slice, (pp_start _ _ Hpp). }
  specialize (HR H0). clear H0.
  destruct (run_on_grid (run_step_function fn (cart_pos_open_args o None)) _ _ _ _) as [[t3 l3]|],
    (run_on_grid (run_step_function fn (open_loop_step_args d None)) _ _ _ _) as [[t4 l4]|]; cbn; auto.
  destruct HR as [<- HF]. split; auto.
  clear -HF. induction HF as [|[y v] [y' v'] l l' [Hy _] HF IH]; constructor; auto.
Qed.

Lemma Forall2_comb {A A' B B'} (P : A -> A' -> Prop) (Q : B -> B' -> Prop) a a' b b' :
  Forall2 P a a' -> Forall2 Q b b' ->
  Forall2 (fun x x' => P (fst x) (fst x') /\ Q (snd x) (snd x')) (combine a b) (combine a' b').
Proof.
  intros H. revert b b'. induction H as [|x x' l l' Hx H IH]; intros b b' HB; cbn; [constructor|].
  destruct HB; constructor; auto.
Qed.

Lemma Forall2_trans3 {A B C} (P : A -> B -> Prop) (Q : B -> C -> Prop) (S : A -> C -> Prop) a b c :
  (forall x y z, P x y -> Q y z -> S x z) -> Forall2 P a b -> Forall2 Q b c -> Forall2 S a c.
Proof.
  intros HS H. revert c. induction H; intros c HC; inversion HC; subst; constructor; eauto.
Qed.

(** The weights of the orientation are turned like the demonstration. *)
Lemma learned_weights l r p s o o' jr jr' dm lam allow f f' qf qf' w w' :
  unit_quat l -> unit_quat r -> 0 < s -> (s = 1 \/ d_T dm 0%nat = 0) ->
  d_T dm 0%nat < d_T dm (d_n dm - 1)%nat -> unit_orientations dm -> k_n o' = k_n o -> k_smooth o' = k_smooth o ->
  turns l (v3_of (slice 3 3 (aget (k_alpha o')))) (v3_of (slice 3 3 (aget (k_alpha o)))) ->
  turns l (v3_of (slice 3 3 (aget (k_beta o')))) (v3_of (slice 3 3 (aget (k_beta o)))) ->
  determine_forces_quaternion (d_n dm) (d_T dm) (fun t => attitude (d_Y dm t))
         (v3_of (slice 3 3 (aget (k_alpha o)))) (v3_of (slice 3 3 (aget (k_beta o))))
         (- ln (1/100)) allow (k_smooth o) = Ok qf ->
  forcing_term_init (fst jr) (snd jr) (k_n o) (d_T dm (d_n dm - 1)%nat) (d_T dm 0%nat)
         (8/10) (- ln (1/100)) = Ok f ->
  w = ridge_regression (k_n o) (d_n dm) (fun i t => design_matrix f (d_T dm) (d_n dm - 1) i t)
             (fun t => vec_of_v3 (qf_F qf t)) lam ->
  let dm' := reframed_demo l p r s dm in
  determine_forces_quaternion (d_n dm') (d_T dm') (fun t => attitude (d_Y dm' t))
         (v3_of (slice 3 3 (aget (k_alpha o')))) (v3_of (slice 3 3 (aget (k_beta o'))))
         (- ln (1/100)) allow (k_smooth o') = Ok qf' ->
  forcing_term_init (fst jr') (snd jr') (k_n o') (d_T dm' (d_n dm' - 1)%nat) (d_T dm' 0%nat)
         (8/10) (- ln (1/100)) = Ok f' ->
  w' = ridge_regression (k_n o') (d_n dm') (fun i t => design_matrix f' (d_T dm') (d_n dm' - 1) i t)
             (fun t => vec_of_v3 (qf_F qf' t)) lam ->
  forall i, drel 3 (rotation_matrix l) in3 (fun d => w' d i) (fun d => w d i).
Proof.
  intros Hl Hr Hs Hs0 HT HU En Es Ha Hb Eq Ef -> dm' Eq' Ef' ->. subst dm'.
  cbn [reframed_demo d_n d_T d_Y] in *. rewrite En, Es in *.
  pose proof (forcing_term_init_n _ _ _ _ _ _ _ _ Ef) as (N1 & G1 & T1 & _ & Z1 & Hnw & _ & Hov).
  pose proof (forcing_term_init_n _ _ _ _ _ _ _ _ Ef') as (N1' & G1' & T1' & _ & Z1' & _).
  assert (HB : forall i, (i < k_n o)%nat ->
     ft_centers f' i = ft_centers f i /\ ft_widths f' i = ft_widths f i).
  { intros i Hii. destruct Hs0 as [-> | H0].
    - rewrite !Rmult_1_l in Ef'.
      destruct (C02_fully_initialised _ _ _ _ _ _ _ _ _ _ _ Ef' Ef i Hii). auto.
    - rewrite H0, Rmult_0_r in Ef'. rewrite H0 in Ef, HT.
      assert (Hp : 0 < s * d_T dm (d_n dm - 1)%nat) by nra.
      destruct (forcing_term_init_ok (fst jr) (snd jr) (k_n o)
        (s * d_T dm (d_n dm - 1)%nat) 0 (8/10) (- ln (1/100)) Hnw Hp Hov) as (f2 & E2 & _).
      destruct (C02_fully_initialised _ _ _ _ _ _ _ _ _ _ _ Ef' E2 i Hii) as [-> ->].
      destruct (C05_basis_independent_of_duration_partial _ _ _ _ _ _ _ _ _ Ef E2 i Hii) as [-> ->].
      auto. }
  apply ridge_aff.
  - intros i t Hii Ht. unfold design_matrix. rewrite Z1', Z1, phase_scaled, N1', N1 by auto.
    f_equal. now apply activations_ext.
  - intros t Ht. apply drel_rotate. rewrite !v3_of_vec_of.
    refine (forces_refr l r s (d_n dm) (d_T dm) (fun t => attitude (d_Y dm t)) (fun t => attitude (reframed l p r (d_Y dm t)))
      _ _ _ _ _ _ _ _ _ Hl Hr Hs HU _ Ha Hb Eq Eq' t Ht).
    intros k Hk. apply quat_eq; reflexivity.
Qed.

Lemma reframed_place l p r y : place (reframed l p r y) = v3_add p (rotate l (place y)).
Proof. unfold place at 1, reframed. cbn. destruct (rotate l (place y)); reflexivity. Qed.
Lemma reframed_attitude l p r y : attitude (reframed l p r y) = refr l r (attitude y).
Proof. apply quat_eq; reflexivity. Qed.

Lemma prel_place l p u' u : prel 3 (rotation_matrix l) (vec_of_v3 p) in3 u' u <->
  v3_of u' = v3_add p (rotate l (v3_of u)).
Proof.
  split; intros H.
  - unfold v3_of at 1. rewrite !H by (unfold in3; lia). rewrite !lmap_rotate by lia.
    destruct (rotate l (v3_of u)), p; reflexivity.
  - intros d Hd. rewrite lmap_rotate by auto. rewrite <- (vec_of_v3_of u') by auto. rewrite H.
    destruct d as [|[|[|d]]]; cbn; auto. unfold in3 in Hd; lia.
Qed.

(** ** C106 *)
(** [o] imitates a demonstration, [o'] (any history, the same settings) imitates the
    same demonstration in a world frame turned by [l] and shifted by [p], with the
    tool turned by [r], and [s] times slower.  The movement of [o'] is the movement of
    [o] in that frame and with that tool, at the same times. *)
Theorem C106_frames : forall l p r s o o' jp jr jp' jr' dm lam allow run_t fn i,
  cart_made o -> cart_made o' -> same_cart_settings o o' -> 0 < k_int_dt o -> 0 <= lam ->
  unit_quat l -> unit_quat r -> 0 < s -> (s = 1 \/ d_T dm 0%nat = 0) ->
  demonstrates 7 dm -> unit_orientations dm ->
  gains_fit l (k_alpha o') (k_alpha o) -> gains_fit l (k_beta o') (k_beta o) ->
  learns jp jr dm lam allow o
  /\ learns jp' jr' (reframed_demo l p r s dm) lam allow o'
  /\ match cart_open_loop run_t None fn i (learn jp jr dm lam allow o),
           cart_open_loop run_t None fn i (learn jp' jr' (reframed_demo l p r s dm) lam allow o') with
     | Ok (ts, ys), Ok (ts', ys') =>
         ts' = ts /\ length ys' = length ys
         /\ forall k, (k < length ys)%nat ->
            aget (nth k ys' (zeros 7)) = reframed l p r (aget (nth k ys (zeros 7)))
     | Err e, Err e' => e' = e
     | _, _ => False
     end.
Proof.
  intros l p r s o o' jp jr jp' jr' dm lam allow run_t fn i Hm Hm' (S1 & S2 & S3 & S4 & S5 & S6) Hi Hlam Hl Hr Hs Hs0
    Hd HU Hga Hgb.
  assert (Hd' : demonstrates 7 (reframed_demo l p r s dm)).
  { destruct Hd as (A & B & C). unfold demonstrates; cbn. repeat split; auto. nra. }
  destruct (learned o jp jr dm lam allow Hm Hlam Hd) as (f & qf & w & L1 & Eq & Ef & Ew & Ea & Ex & Edt).
  destruct (learned o' jp' jr' (reframed_demo l p r s dm) lam allow Hm' Hlam Hd') as (f' & qf' & w' & L2 & Eq' & Ef' & Ew' & Ea' & Ex' & Edt').
  split; [exact L1|]. split; [exact L2|].
  assert (Ta : turns l (v3_of (slice 3 3 (aget (k_alpha o')))) (v3_of (slice 3 3 (aget (k_alpha o))))).
  { apply grel_turns. intros d e Hdd He HA. destruct (Hga d e Hdd He HA) as [_ G].
    unfold slice. unfold in3 in Hdd. destruct (Nat.ltb_spec d 3), (Nat.ltb_spec e 3); try lia. exact G. }
  assert (Tb : turns l (v3_of (slice 3 3 (aget (k_beta o')))) (v3_of (slice 3 3 (aget (k_beta o))))).
  { apply grel_turns. intros d e Hdd He HA. destruct (Hgb d e Hdd He HA) as [_ G].
    unfold slice. unfold in3 in Hdd. destruct (Nat.ltb_spec d 3), (Nat.ltb_spec e 3); try lia. exact G. }
  assert (HT : d_T dm 0%nat < d_T dm (d_n dm - 1)%nat) by apply Hd.
  assert (Hn2 : (2 <= d_n dm)%nat).
  { destruct (d_n dm) as [|[|k]]; simpl in HT; try lra; lia. }
  pose proof (learned_weights l r p s o o' jr jr' dm lam allow f f' qf qf' w w' Hl Hr Hs Hs0 HT HU S4 S5 Ta Tb
    Eq Ef Ew Eq' Ef' Ew') as HW.
  destruct fn as [fn|]; [|reflexivity].
  unfold cart_open_loop. cbv zeta. rewrite Ex, Ex', Edt, Edt', S1, S2.
  set (rt := match run_t with Some x => x | None => k_execution_time o end).
  (* positions *)
  destruct (cart_made_stand_in o Hm) as [(d & Hrd & Htw) _].
  destruct (cart_made_stand_in o' Hm') as [(d' & Hrd' & Htw') _].
  pose proof (imitate_twin jp jr ridge_regression dm lam allow o d Htw L1) as T1.
  pose proof (imitate_twin jp' jr' ridge_regression _ lam allow o' d' Htw' L2) as T2.
  fold (learn jp jr dm lam allow o) in T1.
  fold (learn jp' jr' (reframed_demo l p r s dm) lam allow o') in T2.
  pose proof (position_run run_t fn _ _ (twin_position_part _ _ T1)) as P1.
  pose proof (position_run run_t fn _ _ (twin_position_part _ _ T2)) as P2.
  rewrite Ex, Edt in P1. rewrite Ex', Edt', S1, S2 in P2. fold rt in P1, P2.
  assert (HS : same_settings d d').
  { destruct (tw_ft _ _ Htw) as (v & Ev & _), (tw_ft _ _ Htw') as (v' & Ev' & _).
    unfold same_settings. rewrite (tw_time _ _ Htw), (tw_time _ _ Htw'), (tw_n _ _ Htw), (tw_n _ _ Htw'),
      (tw_dt _ _ Htw), (tw_dt _ _ Htw'), (tw_int_dt _ _ Htw), (tw_int_dt _ _ Htw'),
      (tw_smooth _ _ Htw), (tw_smooth _ _ Htw'), Ev, Ev'. cbn. auto 10. }
  assert (Dm : demonstrates 3 (positions dm)) by (destruct Hd as (A & B & C); unfold demonstrates; cbn; auto).
  assert (Dm' : demonstrates 3 (positions (reframed_demo l p r s dm)))
    by (destruct Hd' as (A & B & C); unfold demonstrates; cbn; auto).
  assert (HP : res_rel (fun r' r => fst r' = fst r /\ Forall2 (prel 3 (rotation_matrix l) (vec_of_v3 p) in3) (snd r') (snd r))
    (dmp_open_loop run_t None (Some fn) (imitate jp' (positions (reframed_demo l p r s dm)) lam allow d'))
    (dmp_open_loop run_t None (Some fn) (imitate jp (positions dm) lam allow d))).
  { apply (imitate_core 3 3 d d' (rotation_matrix l) (vec_of_v3 p) in3 s); auto.
    - now rewrite (tw_int_dt _ _ Htw).
    - intros a b Ha Hb HA. unfold in3 in Ha. rewrite (tw_alpha _ _ Htw), (tw_alpha _ _ Htw'), !slice3 by auto.
      now apply (Hga a b Ha Hb HA).
    - intros a b Ha Hb HA. unfold in3 in Ha. rewrite (tw_beta _ _ Htw), (tw_beta _ _ Htw'), !slice3 by auto.
      now apply (Hgb a b Ha Hb HA).
    - intros t Ht. cbn [positions reframed_demo d_Y]. apply prel_place.
      change (v3_of (slice 0 3 (reframed l p r (d_Y dm t)))) with (place (reframed l p r (d_Y dm t))).
      now rewrite reframed_place. }
  (* orientations *)
  assert (HQ : qargs_rel l r (cart_rot_open_args (learn jp' jr' (reframed_demo l p r s dm) lam allow o') None)
                 (cart_rot_open_args (learn jp jr dm lam allow o) None)).
  { rewrite Ea, Ea'. destruct (cart_made_both o Hm) as (g & Mp & j0 & f0 & v & E0 & Ek).
    destruct (cart_made_both o' Hm') as (g' & Mp' & j0' & f0' & v' & E0' & Ek').
    rewrite (ft_made_goal _ _ _ Mp), (ft_made_goal _ _ _ Mp') in S6. subst g'. rewrite S4 in E0'.
    pose proof (forcing_term_init_n _ _ _ _ _ _ _ _ E0) as (A1 & A2 & A3 & A4 & A5 & _).
    pose proof (forcing_term_init_n _ _ _ _ _ _ _ _ E0') as (B1 & B2 & B3 & B4 & B5 & _).
    constructor; cbn [g_goal_y g_start_y g_start_yd g_goal_t g_start_t g_alpha_y g_beta_y g_forcing_term
      g_coupling_term g_precomputed g_int_dt g_smooth_scaling reframed_demo d_Y d_n]; auto using reframed_attitude.
    - now rewrite rotate_zero.
    - intros t. rewrite Ek, Ek'. unfold ft_phase. cbn [set_ft_weights ft_goal_t ft_start_t ft_alpha_z].
      now rewrite A2, A3, A5, B2, B3, B5.
    - intros z. apply drel_rotate. apply ft_forces_aff. rewrite Ek, Ek'. unfold ft_aff. cbn.
      rewrite A1, A2, A3, A5, B1, B2, B3, B5. repeat split; auto;
        now destruct (C02_fully_initialised _ _ _ _ _ _ _ _ _ _ _ E0' E0 i0 H). }
  assert (Ug : unit_quat (g_goal_y (cart_rot_open_args (learn jp jr dm lam allow o) None))).
  { rewrite Ea. cbn. apply HU. lia. }
  assert (Us : unit_quat (g_start_y (cart_rot_open_args (learn jp jr dm lam allow o) None))).
  { rewrite Ea. cbn. apply HU. lia. }
  assert (HR : forall j, res_rel (fun x x' => fst x' = fst x /\ Forall2 (st_refr l r) (snd x) (snd x'))
    (q_open_loop j (cart_rot_open_args (learn jp jr dm lam allow o) None) (k_dt o) rt)
    (q_open_loop j (cart_rot_open_args (learn jp' jr' (reframed_demo l p r s dm) lam allow o') None) (k_dt o) rt)).
  { intros j. apply q_open_loop_refr; auto. rewrite Ea. exact Hi. }
  unfold imitate in HP.
  destruct (open_loop_run _ 0 rt (k_dt o) (a_start_y (cart_pos_open_args (learn jp jr dm lam allow o) None)) vzero) as [[tp lp]|],
    (dmp_open_loop run_t None (Some fn) (fst (dmp_imitate_method jp ridge_regression (positions dm) lam allow d))) as [[t3 l3]|];
    cbn in P1; try tauto;
  destruct (open_loop_run _ 0 rt (k_dt o) (a_start_y (cart_pos_open_args (learn jp' jr' (reframed_demo l p r s dm) lam allow o') None)) vzero) as [[tp' lp']|],
    (dmp_open_loop run_t None (Some fn) (fst (dmp_imitate_method jp' ridge_regression (positions (reframed_demo l p r s dm)) lam allow d'))) as [[t3' l3']|];
    cbn in P2; try tauto; cbn in HP; try tauto.
  2: { cbn [bind]. congruence. }
  cbn [bind]. destruct i as [i|]; [|reflexivity]. specialize (HR i).
  destruct (q_open_loop i _ (k_dt o) rt) as [[tq lq]|], (q_open_loop i _ (k_dt o) rt) as [[tq' lq']|]; cbn in HR; try tauto; cbn [bind fst snd].
  2: congruence.
  destruct P1 as [-> P1], P2 as [-> P2], HP as [-> HP], HR as [-> HR]. split; auto.
  assert (F : Forall2 (fun s s' => v3_of (fst s') = v3_add p (rotate l (v3_of (fst s)))) lp lp').
  { assert (F1 : Forall2 (fun s y' => v3_of y' = v3_add p (rotate l (v3_of (fst s)))) lp l3').
    { apply (Forall2_trans3 (fun s y => same3 (fst s) y) (fun y y' => prel 3 (rotation_matrix l) (vec_of_v3 p) in3 y' y) _ lp l3 l3').
      - intros x y z Hxy Hyz. apply prel_place in Hyz. rewrite Hyz. f_equal. f_equal.
        unfold v3_of. f_equal; apply Hxy; lia.
      - exact P1.
      - clear -HP. induction HP; constructor; auto. }
    apply (Forall2_trans3 (fun s y' => v3_of y' = v3_add p (rotate l (v3_of (fst s)))) (fun y' s' => same3 (fst s') y') _ lp l3' lp').
    - intros x y z E Hs'. rewrite <- E. unfold v3_of. f_equal; symmetry; apply Hs'; lia.
    - exact F1.
    - clear -P2. induction P2; constructor; auto. }
  pose proof (Forall2_comb _ _ _ _ _ _ F HR) as FC.
  split; [rewrite !map_length; clear -FC; induction FC; cbn; congruence|].
  intros k Hk. rewrite map_length in Hk.
  clear -FC Hk. revert k Hk. induction FC as [|[x q] [x' q'] l1 l2 [H1 [_ H2]] _ IH]; intros k Hk; cbn in Hk; [lia|].
  destruct k as [|k]; cbn [nth map]; [|apply IH; cbn; lia].
  cbn [fst snd] in *. apply functional_extensionality. intros j. unfold pose, reframed. cbn [aget].
  destruct (Nat.ltb_spec j 3) as [Hj|Hj].
  - rewrite <- (vec_of_v3_of (fst x')) by auto. rewrite H1. unfold pose at 1. cbn [aget]. destruct (Nat.ltb_spec j 3); [reflexivity|lia].
  - rewrite H2. cbn [fst]. unfold pose at 1. cbn [aget]. destruct (Nat.ltb_spec j 3); [lia|].
    f_equal.
Qed.

(** ** C34 with a forcing term: the weights are turned, too *)
Definition turned_weights (l : quat) (f : forcing_term) : forcing_term :=
  set_ft_weights (fun d i => vec_of_v3 (rotate l (v3_of (fun e => ft_weights f e i))) d) f.
Definition left_turned (l : quat) (a : qargs) : qargs :=
  {| g_goal_y := hamilton l (g_goal_y a); g_start_y := hamilton l (g_start_y a);
     g_start_yd := rotate l (g_start_yd a); g_goal_t := g_goal_t a; g_start_t := g_start_t a;
     g_alpha_y := g_alpha_y a; g_beta_y := g_beta_y a;
     g_forcing_term := turned_weights l (g_forcing_term a);
     g_coupling_term := g_coupling_term a; g_precomputed := g_precomputed a;
     g_int_dt := g_int_dt a; g_smooth_scaling := g_smooth_scaling a |}.

Theorem C34_left_multiplication_weights : forall i l a last_t t y yd,
  0 < g_int_dt a -> unit_quat l -> unit_quat (g_goal_y a) -> unit_quat (g_start_y a) -> unit_quat y ->
  g_coupling_term a = None -> g_precomputed a = None ->
  isotropic (g_alpha_y a) -> isotropic (g_beta_y a) ->
  q_step i (left_turned l a) last_t t (hamilton l y, rotate l yd)
  = rmap (fun s => (hamilton l (fst s), rotate l (snd s))) (q_step i a last_t t (y, yd)).
Proof.
  intros i l a lt t y yd Hi Hl Hg Hs Hy Hc Hp Ha Hb.
  assert (R1 : forall q, refr l q_one q = hamilton l q).
  { intros q. unfold refr. apply quat_eq; cbn; ring. }
  assert (U1 : unit_quat q_one) by (unfold unit_quat; cbn; ring).
  assert (HT : forall g, isotropic g -> turns l g g).
  { intros g Hgi x. now rewrite !isotropic_mul, rotate_scale by auto. }
  assert (HQ : qargs_rel l q_one (left_turned l a) a).
  { constructor; cbn [left_turned g_goal_y g_start_y g_start_yd g_goal_t g_start_t g_alpha_y g_beta_y g_forcing_term
      g_coupling_term g_precomputed g_int_dt g_smooth_scaling]; auto; try (now rewrite R1).
    intros z. apply drel_rotate. apply ft_forces_aff. unfold ft_aff, turned_weights. cbn.
    repeat split; auto. intros k Hk. apply drel_rotate. now rewrite v3_of_vec_of. }
  pose proof (q_step_refr l q_one _ _ Hl U1 Hg Hs HQ i lt t (y, yd) (hamilton l y, rotate l yd) Hi) as H.
  assert (H0 : st_refr l q_one (y, yd) (hamilton l y, rotate l yd)) by (split; cbn; auto; now rewrite R1).
  specialize (H H0). destruct (q_step i a lt t (y, yd)) as [x|], (q_step i (left_turned l a) _ _ _) as [x'|]; cbn; try tauto.
  - destruct H as [_ ->]. now rewrite R1.
  - congruence.
Qed.

(** An object with the default gains, a demonstration that turns about the x axis, a
    world frame turned by 90 degrees about z and shifted, a tool turned about x, half
    the speed. *)
Example C106_satisfiable : exists o,
  let l := axis_quat (V3 0 0 1) (PI / 2) in let r := axis_quat (V3 1 0 0) (PI / 2) in let p := V3 1 2 3 in
  let dm := {| d_n := 3; d_T := INR; d_rows := 3; d_dims := 7;
               d_Y := fun t => aget (pose (fun _ => INR t) (axis_quat (V3 1 0 0) (INR t * (PI / 4)))) |} in
  cart_made o /\ same_cart_settings o o /\ 0 < k_int_dt o
  /\ unit_quat l /\ unit_quat r /\ d_T dm 0%nat = 0 /\ demonstrates 7 dm /\ unit_orientations dm
  /\ gains_fit l (k_alpha o) (k_alpha o) /\ gains_fit l (k_beta o) (k_beta o)
  /\ place (reframed l p r (d_Y dm 2%nat)) = V3 (-1) 4 5
  /\ exists ts ys, cart_open_loop None None (Some RK4) (Some Python)
       (learn (vzero, vzero) (vzero, vzero) dm 0 false o) = Ok (ts, ys).
Proof.
  set (g v := {| shape := [6%nat]; data := fun _ => v |}).
  destruct (init_forcing_term_accepts (vzero, vzero) 2 1) as [f Ef]; [lia|lra|].
  assert (E : exists o, cart_new (vzero, vzero) (vzero, vzero) 1 (1/2) 2 (1/1000) true (g 25) (g (25/4)) = Ok o
     /\ k_execution_time o = 1 /\ k_dt o = 1/2 /\ k_int_dt o = 1/1000
     /\ k_alpha o = {| alen := 6; aget := fun _ => 25 |} /\ k_beta o = {| alen := 6; aget := fun _ => 25/4 |}).
  { unfold cart_new. rewrite Ef. cbn [bind]. unfold g, ensure_1d_array. cbn. eexists. repeat split. }
  destruct E as (o & E & Ex & Edt & Ei & Ea & Eb).
  exists o. cbv zeta.
  set (l := axis_quat (V3 0 0 1) (PI / 2)). set (r := axis_quat (V3 1 0 0) (PI / 2)).
  set (dm := {| d_n := 3; d_T := INR; d_rows := 3; d_dims := 7;
               d_Y := fun t => aget (pose (fun _ => INR t) (axis_quat (V3 1 0 0) (INR t * (PI / 4)))) |}).
  assert (Ux : unit_v3 (V3 1 0 0)) by (unfold unit_v3; cbn; ring).
  assert (Uz : unit_v3 (V3 0 0 1)) by (unfold unit_v3; cbn; ring).
  assert (Hm : cart_made o).
  { exists (vzero, vzero), (vzero, vzero), 1, (1/2), 2%nat, (1/1000), true, (g 25), (g (25/4)), o, []. split; auto. }
  assert (HU : unit_orientations dm).
  { intros t _. cbn [dm d_Y]. replace (attitude _) with (axis_quat (V3 1 0 0) (INR t * (PI / 4)))
      by (apply quat_eq; reflexivity). now apply axis_quat_unit. }
  assert (Hd : demonstrates 7 dm) by (unfold demonstrates; cbn; repeat split; auto; lra).
  split; [exact Hm|]. split; [unfold same_cart_settings; auto 10|]. split; [lra|].
  split; [now apply axis_quat_unit|]. split; [now apply axis_quat_unit|]. split; [reflexivity|].
  split; [exact Hd|]. split; [exact HU|].
  split; [intros d e _ _ _; rewrite Ea; auto|]. split; [intros d e _ _ _; rewrite Eb; auto|].
  split.
  { rewrite reframed_place. unfold l. rewrite rotate_axis by auto. unfold rodrigues. rewrite cos_PI2, sin_PI2.
    unfold v3_dot. apply v3_eq; cbn; lra. }
  destruct (learned o (vzero, vzero) (vzero, vzero) dm 0 false Hm (Rle_refl 0) Hd)
    as (f1 & qf & w & L1 & _ & _ & _ & Eq & Ex1 & Edt1).
  apply (f_equal g_int_dt) in Eq. cbn in Eq.
  apply C69_runs_exist; rewrite ?Ex1, ?Edt1, ?Eq; try lra.
Qed.
