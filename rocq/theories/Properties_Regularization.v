(** C129: what the regularization coefficient of [imitate] does: more
    regularization gives smaller weights and a worse fit, the weights vanish as
    it grows and the fit becomes the best possible one as it vanishes.
    Final statements. *)
From Coq Require Import Reals ZArith List Lia Lra Psatz FunctionalExtensionality.
From Verif Require Import M_Prelude M_Canonical M_Forcing M_Dmp M_Base M_Matrix M_DmpObject M_Ridge
  M_Quaternion M_Cartesian M_FinalVelocity M_Dual S_Loops S_Dmp S_Stability P_Loops P_Canonical P_Forcing P_Matrix P_DmpObject
  Properties_Forcing Properties_DmpObject Properties_Ridge Properties_Goal Properties_Equivariance
  Properties_Continuity Properties_Stability Properties_ContinuityAll
  Properties_CartesianHistory.
Import ListNotations.
Open Scope R_scope.
Set Bullet Behavior "Strict Subproofs".

(** ** Specification *)
(** Sum of the squares of the [n_weights] weights of dimension [d]. *)
Definition weight_size (n_weights : nat) (w : nat -> nat -> R) (d : nat) : R :=
  rsum n_weights (fun i => (w d i) ^ 2).

(** Sum over the [m] samples of the squares of the differences between the
    forces [F] that the demonstration needs in dimension [d] and the forces of
    the forcing term [f] with weights [w] at the times [T] of the samples. *)
Definition misfit (m : nat) (T : vec) (F : nat -> vec) (f : forcing_term) (w : nat -> nat -> R) (d : nat) : R :=
  rsum m (fun t => (F t d - ft_call (set_ft_weights w f) (T t) d) ^ 2).

(** Sum of the squares of the forces that the demonstration needs. *)
Definition force_size (m : nat) (F : nat -> vec) (d : nat) : R := rsum m (fun t => (F t d) ^ 2).

(** The weights [w lam] learned with the coefficient [lam] trade the size of the
    weights for the quality of the fit in dimension [d]. *)
Definition trades_off (n_weights m : nat) (T : vec) (F : nat -> vec) (f : forcing_term)
    (w : R -> nat -> nat -> R) (d : nat) : Prop :=
  (forall l1 l2, 0 <= l1 <= l2 ->
     weight_size n_weights (w l2) d <= weight_size n_weights (w l1) d
     /\ misfit m T F f (w l1) d <= misfit m T F f (w l2) d)
  /\ (forall l, 0 <= l -> l * weight_size n_weights (w l) d <= force_size m F d)
  /\ (forall l w', 0 <= l ->
        misfit m T F f (w l) d <= misfit m T F f w' d + l * weight_size n_weights w' d).

(** ** Proofs *)
Lemma one_output n m X (Y : nat -> vec) lam d (W : nat -> nat -> R) :
  ridge_cost n m 1 X (fun t _ => Y t d) lam (fun _ => W d)
  = rsum m (fun s => (Y s d - rsum n (fun f => W d f * X f s)) ^ 2) + lam * weight_size n W d.
Proof.
  unfold ridge_cost, squared_error, squared_weights, weight_size. cbn [rsum]. ring.
Qed.

Lemma ridge_one_output n m X (Y : nat -> vec) lam d (W : nat -> nat -> R) : 0 <= lam ->
  let V := ridge_regression n m X Y lam in
  rsum m (fun s => (Y s d - rsum n (fun f => V d f * X f s)) ^ 2) + lam * weight_size n V d
  <= rsum m (fun s => (Y s d - rsum n (fun f => W d f * X f s)) ^ 2) + lam * weight_size n W d.
Proof.
  intros Hl V. rewrite <- !one_output.
  pose proof (C15_minimiser n m 1 X (fun t _ => Y t d) lam (fun _ => W d) Hl) as H.
  replace (ridge_cost n m 1 X (fun t _ => Y t d) lam (fun _ => V d))
    with (ridge_cost n m 1 X (fun t _ => Y t d) lam (ridge_regression n m X (fun t _ => Y t d) lam)); [exact H|].
  unfold ridge_cost, squared_error, squared_weights. cbn [rsum]. reflexivity.
Qed.

Lemma weight_size_nonneg n w d : 0 <= weight_size n w d.
Proof. apply rsum_nonneg. intros. apply pow2_ge_0. Qed.
Lemma misfit_nonneg m T F f w d : 0 <= misfit m T F f w d.
Proof. apply rsum_nonneg. intros. apply pow2_ge_0. Qed.

Lemma misfit_design m T F f w d : ft_goal_t f = T (m - 1)%nat -> ft_start_t f = T 0%nat ->
  misfit m T F f w d
  = rsum m (fun s => (F s d - rsum (ft_n f) (fun i => w d i * design_matrix f T (m - 1) i s)) ^ 2).
Proof.
  intros EG ES. unfold misfit. apply rsum_ext. intros t Ht. do 2 f_equal.
  unfold ft_call, ft_phase, ft_forces, design_matrix. cbn [set_ft_weights ft_goal_t ft_start_t ft_alpha_z
    ft_n ft_weights ft_centers ft_widths]. rewrite EG, ES.
  rewrite <- rsum_scal. apply rsum_ext. intros i Hi. ring.
Qed.

Lemma ridge_trades_off nw m T F f (w : R -> nat -> nat -> R) d :
  ft_goal_t f = T (m - 1)%nat -> ft_start_t f = T 0%nat -> ft_n f = nw ->
  (forall l i, 0 <= l -> w l d i = ridge_regression nw m (design_matrix f T (m - 1)) F l d i) ->
  trades_off nw m T F f w d.
Proof.
  intros EG ES EN Hw.
  assert (HM : forall l w', 0 <= l ->
    misfit m T F f (w l) d + l * weight_size nw (w l) d <= misfit m T F f w' d + l * weight_size nw w' d).
  { intros l w' Hl. rewrite !misfit_design by auto. rewrite EN.
    pose proof (ridge_one_output nw m (design_matrix f T (m - 1)) F l d w' Hl) as H. cbv zeta in H.
    set (V := ridge_regression nw m (design_matrix f T (m - 1)) F l) in *.
    assert (E : w l d = V d) by (apply functional_extensionality; intro i; now apply Hw).
    unfold weight_size in *. rewrite E. exact H. }
  split; [|split].
  - intros l1 l2 (H1 & H2).
    destruct (Req_dec l1 l2) as [->|Hne]; [split; lra|].
    pose proof (HM l1 (w l2) H1) as A. pose proof (HM l2 (w l1) ltac:(lra)) as B.
    set (e1 := misfit m T F f (w l1) d) in *. set (e2 := misfit m T F f (w l2) d) in *.
    set (s1 := weight_size nw (w l1) d) in *. set (s2 := weight_size nw (w l2) d) in *.
    assert (s2 <= s1) by nra. split; [auto|nra].
  - intros l Hl. pose proof (HM l (fun _ _ => 0) Hl) as H.
    pose proof (misfit_nonneg m T F f (w l) d).
    assert (E1 : misfit m T F f (fun _ _ => 0) d = force_size m F d).
    { rewrite misfit_design by auto. unfold force_size. apply rsum_ext. intros t Ht.
      rewrite rsum_0 by (intros; ring). ring. }
    assert (E2 : weight_size nw (fun _ _ => 0) d = 0).
    { unfold weight_size. apply rsum_0. intros; ring. }
    rewrite E1, E2 in H. lra.
  - intros l w' Hl. pose proof (HM l w' Hl) as H.
    pose proof (Rmult_le_pos _ _ Hl (weight_size_nonneg nw (w l) d)). lra.
Qed.

(** ** Statements *)
(** DMP: [df] holds the forces the demonstration needs and [f] is the forcing
    term over the times of the demonstration. *)
Theorem C129_trade_off : forall n o junk dm allow d f df,
  reachable n o -> demonstrates n dm -> (d < n)%nat ->
  forcing_term_init (fst junk) (snd junk) (o_n_weights_per_dim o) (d_T dm (d_n dm - 1)%nat)
    (d_T dm 0%nat) (8/10) (- ln (1/100)) = Ok f ->
  determine_forces (d_n dm) (d_T dm) (d_Y dm) (aget (o_alpha_y o)) (aget (o_beta_y o))
    (- ln (1/100)) allow (o_smooth_scaling o) = Ok df ->
  trades_off (o_n_weights_per_dim o) (d_n dm) (d_T dm) (df_F df) f
    (fun lam => ft_weights (o_forcing_term (imitate junk dm lam allow o))) d.
Proof.
  intros n o junk dm allow d f df Hr Hdm Hd Ef Edf.
  pose proof (forcing_term_init_n _ _ _ _ _ _ _ _ Ef) as (N & G & S & _).
  apply ridge_trades_off; auto.
  intros l i Hl. destruct (imitated n o junk dm l allow Hr Hl Hdm) as (f' & df' & _ & Edf' & Ef' & Ew & _).
  rewrite Ew by auto. congruence.
Qed.

(** Positions and orientations of CartesianDMP: a demonstration that is accepted
    with one coefficient is accepted with each nonnegative one. *)
Theorem C129_cartesian : forall o jp jr dm lam0 allow,
  snd (cart_imitate jp jr ridge_regression dm lam0 allow o) = Ok tt ->
  exists fp fr df qf,
    forcing_term_init (fst jp) (snd jp) (k_n o) (d_T dm (d_n dm - 1)%nat) (d_T dm 0%nat)
      (ft_overlap (k_fpos o)) (ft_alpha_z (k_fpos o)) = Ok fp
    /\ forcing_term_init (fst jr) (snd jr) (k_n o) (d_T dm (d_n dm - 1)%nat) (d_T dm 0%nat)
         (ft_overlap (k_frot o)) (ft_alpha_z (k_frot o)) = Ok fr
    /\ determine_forces (d_n dm) (d_T dm) (fun t => slice 0 3 (d_Y dm t))
         (slice 0 3 (aget (k_alpha o))) (slice 0 3 (aget (k_beta o)))
         (ft_alpha_z (k_fpos o)) allow (k_smooth o) = Ok df
    /\ determine_forces_quaternion (d_n dm) (d_T dm) (fun t => quat_of (slice 3 4 (d_Y dm t)))
         (v3_of (slice 3 3 (aget (k_alpha o)))) (v3_of (slice 3 3 (aget (k_beta o))))
         (ft_alpha_z (k_frot o)) allow (k_smooth o) = Ok qf
    /\ (forall lam, 0 <= lam -> snd (cart_imitate jp jr ridge_regression dm lam allow o) = Ok tt)
    /\ forall d, (d < 3)%nat ->
         trades_off (k_n o) (d_n dm) (d_T dm) (df_F df) fp
           (fun lam => ft_weights (k_fpos (fst (cart_imitate jp jr ridge_regression dm lam allow o)))) d
         /\ trades_off (k_n o) (d_n dm) (d_T dm) (fun t => vec_of_v3 (qf_F qf t)) fr
              (fun lam => ft_weights (k_frot (fst (cart_imitate jp jr ridge_regression dm lam allow o)))) d.
Proof.
  intros o jp jr dm lam0 allow H.
  unfold cart_imitate in H |- *.
  destruct (negb (Nat.eqb (d_dims dm) 7)) eqn:E7; [discriminate|].
  unfold dmp_imitate in H |- *. cbn [d_n d_T d_rows d_dims d_Y Nat.eqb negb andb] in H |- *.
  destruct (Rlt_dec lam0 0) as [|Hl0]; [discriminate|].
  destruct (Nat.eqb (d_n dm) 0) eqn:E0; [discriminate|].
  destruct (forcing_term_init (fst jp) (snd jp) (k_n o) _ _ _ _) as [fp|] eqn:Efp; [|discriminate].
  cbn [bind] in H |- *.
  destruct (negb (Nat.eqb (d_rows dm) (d_n dm))) eqn:Er; [discriminate|].
  destruct (determine_forces _ _ _ _ _ _ _ _) as [df|] eqn:Edf; [|discriminate].
  cbn [bind cart_with_fpos k_n k_alpha k_beta k_frot k_smooth] in H |- *.
  unfold dmp_quaternion_imitation in H |- *.
  destruct (Rlt_dec lam0 0) as [|_]; [contradiction|]. rewrite E0 in H |- *.
  destruct (forcing_term_init (fst jr) (snd jr) (k_n o) _ _ _ _) as [fr|] eqn:Efr; [|discriminate].
  cbn [bind] in H |- *.
  destruct (determine_forces_quaternion _ _ _ _ _ _ _ _) as [qf|] eqn:Eqf; [|discriminate].
  cbn [bind] in H |- *.
  exists fp, fr, df, qf. do 4 (split; [reflexivity|]).
  pose proof (forcing_term_init_n _ _ _ _ _ _ _ _ Efp) as (Np & Gp & Sp & _).
  pose proof (forcing_term_init_n _ _ _ _ _ _ _ _ Efr) as (Nr & Gr & Sr & _).
  unfold cart_configure in H |- *. cbn [cart_with_frot cart_with_fpos k_base] in H |- *.
  split; [|intros d Hd; split].
  - intros lam Hl. destruct (Rlt_dec lam 0); [lra|].
    cbn [k_base]. destruct (configure _ _) as [p [e|]]; [discriminate|reflexivity].
  - apply ridge_trades_off; auto. intros l i Hl.
    destruct (Rlt_dec l 0); [lra|]. cbn [k_base]. destruct (configure _ _) as [p e].
    reflexivity.
  - apply ridge_trades_off; auto. intros l i Hl.
    destruct (Rlt_dec l 0); [lra|]. cbn [k_base]. destruct (configure _ _) as [p e].
    reflexivity.
Qed.

(** DMPWithFinalVelocity (for one dimension the gain of dimension 0 is used). *)
Theorem C129_final_velocity : forall o junk dm lam0,
  snd (fv_imitate junk ridge_regression dm lam0 o) = Ok tt ->
  let n := p_n_dims (o_base o) in
  let gain (v : arr) : vec := fun d => if Nat.eqb n 1 then aget v 0%nat else aget v d in
  exists f df,
    forcing_term_init (fst junk) (snd junk) (o_n_weights_per_dim o) (d_T dm (d_n dm - 1)%nat)
      (d_T dm 0%nat) (ft_overlap (o_forcing_term o)) (ft_alpha_z (o_forcing_term o)) = Ok f
    /\ fv_determine_forces (d_n dm) (d_T dm) (d_Y dm) (gain (o_alpha_y o)) (gain (o_beta_y o)) true = Ok df
    /\ (forall lam, 0 <= lam -> snd (fv_imitate junk ridge_regression dm lam o) = Ok tt)
    /\ forall d, (d < n)%nat ->
         trades_off (o_n_weights_per_dim o) (d_n dm) (d_T dm) (df_F df) f
           (fun lam => ft_weights (o_forcing_term (fst (fv_imitate junk ridge_regression dm lam o)))) d.
Proof.
  intros o junk dm lam0 H n gain.
  assert (Eg : forall v, (if Nat.eqb n 1 then fun _ => aget v 0%nat else aget v) = gain v).
  { intros v. unfold gain. destruct (Nat.eqb n 1); reflexivity. }
  unfold fv_imitate, fv_dmp_imitate in H |- *. fold n in H |- *. cbv zeta in H |- *. rewrite !Eg in H |- *.
  destruct (Rlt_dec lam0 0) as [|Hl0]; [discriminate|].
  destruct (Nat.eqb (d_n dm) 0) eqn:E0; [discriminate|].
  destruct (forcing_term_init (fst junk) (snd junk) _ _ _ _ _) as [f|] eqn:Ef; [|discriminate].
  cbn [bind] in H |- *.
  destruct (Nat.eqb (d_rows dm) 0) eqn:E1; [discriminate|].
  destruct (negb (Nat.eqb (d_rows dm) (d_n dm))) eqn:E2; [discriminate|].
  destruct (negb (Nat.eqb (d_dims dm) n) && negb (Nat.eqb n 1))%bool eqn:E3; [discriminate|].
  destruct (fv_determine_forces _ _ _ _ _ _) as [df|] eqn:Edf; [|discriminate].
  cbn [bind] in H |- *.
  pose proof (forcing_term_init_n _ _ _ _ _ _ _ _ Ef) as (N & G & S & _).
  destruct (negb (Nat.eqb (d_dims dm) n)) eqn:E4; [discriminate|].
  exists f, df. split; [reflexivity|]. split; [reflexivity|].
  unfold dmp_configure in H |- *. cbn [with_forcing_term o_base] in H |- *.
  split; [|intros d Hd].
  - intros lam Hl. destruct (Rlt_dec lam 0); [lra|].
    cbn [o_base]. destruct (configure _ _) as [p [e|]]; [discriminate|reflexivity].
  - apply ridge_trades_off; auto. intros l i Hl.
    destruct (Rlt_dec l 0); [lra|]. cbn [o_base]. destruct (configure _ _) as [p e]. reflexivity.
Qed.

(** DualCartesianDMP: rows 0-2 and 6-8 of the weights belong to the positions of
    the left and of the right arm, rows 3-5 and 9-11 to the orientations. *)
Theorem C129_dual : forall o jl jlr jr jrr dm lam0 allow,
  snd (dual_imitate jl jlr jr jrr ridge_regression dm lam0 allow o) = Ok tt ->
  let jp := fun arm : nat => if Nat.eqb arm 0 then jl else jr in
  let jo := fun arm : nat => if Nat.eqb arm 0 then jlr else jrr in
  let weights := fun lam =>
    ft_weights (o_forcing_term (fst (dual_imitate jl jlr jr jrr ridge_regression dm lam allow o))) in
  (forall lam, 0 <= lam -> snd (dual_imitate jl jlr jr jrr ridge_regression dm lam allow o) = Ok tt)
  /\ forall arm, (arm < 2)%nat -> exists fp fr df qf,
    forcing_term_init (fst (jp arm)) (snd (jp arm)) (o_n_weights_per_dim o) (d_T dm (d_n dm - 1)%nat)
      (d_T dm 0%nat) (ft_overlap (o_forcing_term o)) (ft_alpha_z (o_forcing_term o)) = Ok fp
    /\ forcing_term_init (fst (jo arm)) (snd (jo arm)) (o_n_weights_per_dim o) (d_T dm (d_n dm - 1)%nat)
         (d_T dm 0%nat) (ft_overlap (o_forcing_term o)) (ft_alpha_z (o_forcing_term o)) = Ok fr
    /\ determine_forces (d_n dm) (d_T dm) (fun t => slice (7 * arm) 3 (d_Y dm t))
         (slice (6 * arm) 3 (aget (o_alpha_y o))) (slice (6 * arm) 3 (aget (o_beta_y o)))
         (ft_alpha_z (o_forcing_term o)) allow (o_smooth_scaling o) = Ok df
    /\ determine_forces_quaternion (d_n dm) (d_T dm) (fun t => arm_q arm (d_Y dm t))
         (arm_w arm (aget (o_alpha_y o))) (arm_w arm (aget (o_beta_y o)))
         (ft_alpha_z (o_forcing_term o)) allow (o_smooth_scaling o) = Ok qf
    /\ forall d, (d < 3)%nat ->
         trades_off (o_n_weights_per_dim o) (d_n dm) (d_T dm) (df_F df) fp
           (fun lam d => weights lam (6 * arm + d)%nat) d
         /\ trades_off (o_n_weights_per_dim o) (d_n dm) (d_T dm) (fun t => vec_of_v3 (qf_F qf t)) fr
              (fun lam d => weights lam (6 * arm + 3 + d)%nat) d.
Proof.
  intros o jl jlr jr jrr dm lam0 allow H jp jo weights. subst weights.
  unfold dual_imitate in H |- *.
  destruct (negb (Nat.eqb (d_dims dm) 14)) eqn:E7; [discriminate|].
  unfold dmp_imitate, demo_columns in H |- *. cbn [d_n d_T d_rows d_dims d_Y Nat.eqb negb andb] in H |- *.
  cbv zeta in H |- *.
  cbn [with_forcing_term o_alpha_y o_beta_y o_forcing_term set_ft_weights ft_overlap ft_alpha_z
    o_n_weights_per_dim o_smooth_scaling o_base] in H |- *.
  unfold dmp_quaternion_imitation in H |- *.
  destruct (Rlt_dec lam0 0) as [|Hl0]; [discriminate|].
  destruct (Nat.eqb (d_n dm) 0) eqn:E0; [discriminate|].
  destruct (forcing_term_init (fst jl) (snd jl) _ _ _ _ _) as [fl|] eqn:Efl; [|discriminate].
  cbn [bind rmap] in H |- *.
  destruct (negb (Nat.eqb (d_rows dm) (d_n dm))) eqn:Er; [discriminate|].
  destruct (determine_forces _ _ (fun t => slice (7 * 0) 3 (d_Y dm t)) _ _ _ _ _) as [dl|] eqn:Edl; [|discriminate].
  cbn [bind rmap fst] in H |- *.
  destruct (forcing_term_init (fst jlr) (snd jlr) _ _ _ _ _) as [flr|] eqn:Eflr; [|discriminate].
  cbn [bind rmap] in H |- *.
  destruct (determine_forces_quaternion _ _ (fun t => arm_q 0 (d_Y dm t)) _ _ _ _ _) as [ql|] eqn:Eql; [|discriminate].
  cbn [bind rmap] in H |- *.
  destruct (forcing_term_init (fst jr) (snd jr) _ _ _ _ _) as [fr|] eqn:Efr; [|discriminate].
  cbn [bind rmap] in H |- *.
  destruct (determine_forces _ _ (fun t => slice (7 * 1) 3 (d_Y dm t)) _ _ _ _ _) as [dr|] eqn:Edr; [|discriminate].
  cbn [bind rmap fst] in H |- *.
  destruct (forcing_term_init (fst jrr) (snd jrr) _ _ _ _ _) as [frr|] eqn:Efrr; [|discriminate].
  cbn [bind rmap] in H |- *.
  destruct (determine_forces_quaternion _ _ (fun t => arm_q 1 (d_Y dm t)) _ _ _ _ _) as [qr|] eqn:Eqr; [|discriminate].
  cbn [bind rmap] in H |- *.
  unfold dmp_configure in H |- *.
  cbn [with_forcing_term o_alpha_y o_beta_y o_forcing_term set_ft_weights ft_overlap ft_alpha_z
    o_n_weights_per_dim o_smooth_scaling o_base] in H |- *.
  split.
  { intros lam Hl. destruct (Rlt_dec lam 0); [lra|]. cbn [rmap bind fst o_base].
    destruct (configure _ _) as [p [e|]]; [discriminate|reflexivity]. }
  intros [|[|arm]] Ha; [| |lia]; cbn [jp jo Nat.eqb].
  - exists fl, flr, dl, ql. do 4 (split; [first [assumption|reflexivity]|]).
    pose proof (forcing_term_init_n _ _ _ _ _ _ _ _ Efl) as (N1 & G1 & S1 & _).
    pose proof (forcing_term_init_n _ _ _ _ _ _ _ _ Eflr) as (N2 & G2 & S2 & _).
    intros d Hd. split; (apply ridge_trades_off; auto); intros l i Hl;
      (destruct (Rlt_dec l 0); [lra|]); cbn [rmap bind fst o_base]; destruct (configure _ _) as [p e];
      cbn; destruct d as [|[|[|d]]]; try lia; reflexivity.
  - exists fr, frr, dr, qr. do 4 (split; [first [assumption|reflexivity]|]).
    pose proof (forcing_term_init_n _ _ _ _ _ _ _ _ Efr) as (N1 & G1 & S1 & _).
    pose proof (forcing_term_init_n _ _ _ _ _ _ _ _ Efrr) as (N2 & G2 & S2 & _).
    intros d Hd. split; (apply ridge_trades_off; auto); intros l i Hl;
      (destruct (Rlt_dec l 0); [lra|]); cbn [rmap bind fst o_base]; destruct (configure _ _) as [p e];
      cbn; destruct d as [|[|[|d]]]; try lia; reflexivity.
Qed.

(** The movement with strong regularization is the one without forces. *)
Definition without_forces (o : dmp) : dmp :=
  fst (dmp_set_weights {| alen := p_n_dims (o_base o) * o_n_weights_per_dim o; aget := fun _ => 0 |} o).

Theorem C129_unforced : forall n o fn d junk dm allow df,
  reachable n o -> 0 < o_execution_time o -> 0 < o_dt o -> 0 < o_int_dt o -> (d < n)%nat ->
  steps_shrink fn o d -> demonstrates n dm ->
  determine_forces (d_n dm) (d_T dm) (d_Y dm) (aget (o_alpha_y o)) (aget (o_beta_y o))
    (- ln (1/100)) allow (o_smooth_scaling o) = Ok df ->
  exists K, forall lam run_t, 0 < lam ->
  movements_within (K * sqrt (force_size (d_n dm) (df_F df) d / lam)) d
    (dmp_open_loop run_t None (Some fn) (imitate junk dm lam allow o))
    (dmp_open_loop run_t None (Some fn) (without_forces (imitate junk dm lam allow o))).
Proof.
  intros n o fn d junk dm allow df Hr Hx Hdt Hi Hd Hst Hdm Edf.
  destruct (C95_data_all_gains fn o d Hx Hdt Hi Hst) as [K HK]. exists K.
  intros lam run_t Hlam.
  destruct (imitated n o junk dm lam allow Hr ltac:(lra) Hdm) as (f & df' & _ & _ & Ef & _ & w & Eo).
  destruct (C129_trade_off n o junk dm allow d f df Hr Hdm Hd Ef Edf) as (_ & HB & _).
  specialize (HB lam ltac:(lra)). cbv beta in HB.
  pose proof (imitate_reachable n o junk dm lam allow Hr) as Hr1.
  set (o1 := imitate junk dm lam allow o) in *.
  assert (Hr2 : reachable n (without_forces o1)).
  { pose proof (reachable_exec n
      (CSetWeights {| alen := p_n_dims (o_base o1) * o_n_weights_per_dim o1; aget := fun _ => 0 |}) o1 Hr1) as H.
    unfold without_forces. cbn [exec] in H. destruct (dmp_set_weights _ _). exact H. }
  assert (E2 : without_forces o1
     = with_forcing_term (set_ft_weights (fun _ _ => 0) (o_forcing_term o1)) o1).
  { destruct (reachable_ft n o1 Hr1) as (j & f1 & w1 & Ef1 & E1).
    pose proof (forcing_term_init_n _ _ _ _ _ _ _ _ Ef1) as (N1 & _).
    unfold without_forces, dmp_set_weights, reshape. cbn [alen aget].
    replace (ft_n (o_forcing_term o1)) with (o_n_weights_per_dim o1) by (rewrite E1; symmetry; exact N1).
    rewrite Nat.eqb_refl. reflexivity. }
  apply (HK n n); auto.
  - unfold same_settings. rewrite Eo. repeat split.
  - rewrite E2. unfold same_settings. repeat split.
  - unfold gains_like. rewrite Eo. split; reflexivity.
  - rewrite E2. unfold gains_like. cbn. rewrite Eo. split; reflexivity.
  - set (A := force_size (d_n dm) (df_F df) d) in *.
    set (w1 := ft_weights (o_forcing_term o1)) in *.
    pose proof (weight_size_nonneg (o_n_weights_per_dim o) w1 d) as HS0.
    assert (HA : weight_size (o_n_weights_per_dim o) w1 d <= A / lam).
    { apply Rmult_le_reg_l with lam; auto. replace (lam * (A / lam)) with A by (field; lra). exact HB. }
    pose proof (sqrt_pos (A / lam)) as Hs.
    rewrite E2. unfold data_within. cbn [with_forcing_term o_base o_forcing_term set_ft_weights ft_weights].
    split; [unfold Rminus; rewrite Rplus_opp_r, Rabs_R0; auto|].
    split; [unfold Rminus; rewrite Rplus_opp_r, Rabs_R0; auto|].
    intros i Hin. replace (o_n_weights_per_dim o1) with (o_n_weights_per_dim o) in Hin by (rewrite Eo; reflexivity).
    fold w1. replace (0 - w1 d i) with (- w1 d i) by ring. rewrite Rabs_Ropp.
    apply Rsqr_incr_0_var; auto. rewrite <- Rsqr_abs, Rsqr_sqrt by lra.
    eapply Rle_trans; [|exact HA].
    unfold weight_size.
    replace (Rsqr (w1 d i)) with ((w1 d i) ^ 2) by (unfold Rsqr; ring).
    assert (G : forall N, (i < N)%nat -> (w1 d i) ^ 2 <= rsum N (fun k => (w1 d k) ^ 2)).
    { induction N as [|N IH]; [lia|]. intros HN. cbn [rsum].
      pose proof (rsum_nonneg N (fun k => (w1 d k) ^ 2) (fun k _ => pow2_ge_0 _)) as P1.
      pose proof (pow2_ge_0 (w1 d N)) as P2.
      destruct (Nat.eq_dec i N) as [->|Hne]; [lra|]. specialize (IH ltac:(lia)). lra. }
    now apply G.
Qed.

(** An object, an integrator and a demonstration that needs forces; and a
    demonstration that CartesianDMP accepts (C110_satisfiable has one that
    DualCartesianDMP accepts, C101_reproduces_satisfiable one for
    DMPWithFinalVelocity). *)
Example C129_satisfiable : exists o dm f df,
  reachable 1 o /\ 0 < o_execution_time o /\ 0 < o_dt o /\ 0 < o_int_dt o /\ steps_shrink RK4 o 0
  /\ demonstrates 1 dm
  /\ forcing_term_init vzero vzero (o_n_weights_per_dim o) (d_T dm (d_n dm - 1)%nat)
       (d_T dm 0%nat) (8/10) (- ln (1/100)) = Ok f
  /\ determine_forces (d_n dm) (d_T dm) (d_Y dm) (aget (o_alpha_y o)) (aget (o_beta_y o))
       (- ln (1/100)) false (o_smooth_scaling o) = Ok df
  /\ 0 < force_size (d_n dm) (df_F df) 0
  /\ exists k kdm, snd (cart_imitate (vzero, vzero) (vzero, vzero) ridge_regression kdm 0 true k) = Ok tt.
Proof.
  destruct (ex_new_ok 1 25 4) as (f0 & o & E & Ef & Eo).
  assert (Hr : reachable 1 o) by (eapply ex_reachable; eauto).
  set (dm := {| d_n := 3; d_T := INR; d_rows := 3; d_dims := 1; d_Y := fun t _ => INR t |}).
  assert (Hd : demonstrates 1 dm) by (unfold demonstrates; cbn; repeat split; lra).
  destruct (imitated 1 o (vzero, vzero) dm 0 false Hr ltac:(lra) Hd) as (f & df & _ & Edf & Ef' & _).
  exists o, dm, f, df. split; [auto|].
  split; [rewrite Eo; cbn; lra|]. split; [rewrite Eo; cbn; lra|]. split; [rewrite Eo; cbn; lra|].
  split.
  { assert (Ec : dmp_damping o 0 = 25) by (rewrite Eo; unfold dmp_damping; cbn; field).
    assert (Ek : dmp_stiffness o 0 = 25 * 4) by (rewrite Eo; unfold dmp_stiffness; cbn; field).
    assert (Edt : o_dt o = 1/100) by (rewrite Eo; reflexivity).
    unfold steps_shrink. cbv zeta. rewrite Ec, Ek, Edt. exact (proj1 C100_overdamped). }
  split; [auto|]. split; [exact Ef'|]. split; [exact Edf|].
  split.
  { cbn [dm d_n d_T d_Y] in Edf. unfold determine_forces in Edf. cbn [Nat.ltb Nat.leb] in Edf.
    rewrite Eo in Edf. cbn in Edf. injection Edf as <-.
    unfold force_size. cbn. match goal with |- 0 < ?x => replace x with 25204 by field; lra end. }
  destruct (C104_satisfiable 5 ltac:(lia)) as (_ & k & k' & kdm & ts & ys & H).
  exists k, kdm. destruct H as (_ & _ & _ & _ & _ & _ & _ & _ & _ & _ & _ & _ & H & _).
  rewrite H. reflexivity.
Qed.
