(** C111: a movement that avoids obstacles reaches its goal.  Final statements. *)
From Coq Require Import Reals List Lia Lra Psatz FunctionalExtensionality.
From Verif Require Import M_Prelude M_Canonical M_Forcing M_Dmp M_Base M_DmpObject M_Quaternion M_Cartesian M_Coupling
  S_Loops S_Dmp P_Loops P_Canonical P_Forcing P_DmpStep P_DmpScale P_DmpLinear P_Converge P_Quaternion P_Cartesian P_Rigid
  P_DmpObject P_Coupled P_Guided Properties_Forcing Properties_Dmp Properties_DmpObject Properties_DmpState
  Properties_Goal Properties_Stability Properties_Feedback Properties_Coupling Properties_Obstacle Properties_Coupled.
Import ListNotations.
Open Scope R_scope.
Set Bullet Behavior "Strict Subproofs".

(** ** Specification *)
(** A coupling term that only steers: it adds no velocity, the power of its
    acceleration is at most [kap] times the squared speed, and the squared
    acceleration at most [cb] times the squared speed. *)
Definition steers (n : nat) (kap cb : R) (c : coupling) : Prop := forall y v,
  (forall d, (d < n)%nat -> fst (c y v) d = 0) /\
  rsum n (fun d => snd (c y v) d * v d) <= kap * rsum n (fun d => v d ^ 2) /\
  rsum n (fun d => snd (c y v) d ^ 2) <= cb * rsum n (fun d => v d ^ 2).

(** The gains and the duration of a DMP. *)
Definition has_gains (n : nat) (alpha beta : nat -> R) (tau : R) (o : dmp) : Prop :=
  o_execution_time o = tau /\
  forall d, (d < n)%nat -> aget (o_alpha_y o) d = alpha d /\ aget (o_beta_y o) d = beta d.

(** Repeated calls of [step], each with the state that the one before returned,
    come to rest at the goal. *)
Definition comes_to_goal (n : nat) (o : dmp) (fn : step_function) (c : coupling) (y yd : arr) : Prop :=
  forall eps, 0 < eps -> exists N, forall k, (N <= k)%nat -> exists o' y' yd',
    n_steps_open_loop (Some c) (Some fn) k y yd o = (o', Ok (y', yd'))
    /\ forall d, (d < n)%nat ->
       Rabs (aget y' d - aget (p_goal_y (o_base o)) d) < eps /\ Rabs (aget yd' d) < eps.

(** ** Proofs *)
Lemma bounded_steers n k (c : coupling) : 0 <= k ->
  (forall y v, (forall d, (d < n)%nat -> fst (c y v) d = 0) /\
     rsum n (fun d => snd (c y v) d ^ 2) <= k ^ 2 * rsum n (fun d => v d ^ 2)) ->
  steers n k (k ^ 2) c.
Proof.
  intros Hk H y v. destruct (H y v) as [H1 H2]. split; auto. split; auto.
  set (a := snd (c y v)) in *.
  destruct (Req_dec k 0) as [->|Hk0].
  - assert (Ha : rsum n (fun d => a d ^ 2) = 0).
    { apply Rle_antisym; [rewrite (pow_i 2) in H2 by lia; lra|]. apply rsum_nonneg. intros. apply pow2_ge_0. }
    rewrite Rmult_0_l. right.
    rewrite (rsum_ext n _ (fun _ => 0 * 0)); [rewrite rsum_scal; ring|].
    intros d Hd. pose proof (sq_entry n a d Hd) as Hs. unfold sq in Hs. rewrite Ha in Hs.
    assert (a d = 0) as ->; [|ring]. pose proof (pow2_ge_0 (a d)). apply Rsqr_eq_0. rewrite Rsqr_pow2. lra.
  - assert (Hp : 0 < k) by lra.
    assert (Y : 2 * k * rsum n (fun d => a d * v d) <= rsum n (fun d => a d ^ 2) + k ^ 2 * rsum n (fun d => v d ^ 2)).
    { rewrite <- !rsum_scal, <- rsum_plus. apply rsum_le. intros d _. pose proof (pow2_ge_0 (a d - k * v d)). lra. }
    apply Rmult_le_reg_l with (2 * k); [lra|].
    replace (2 * k * (k * rsum n (fun d => v d ^ 2))) with (2 * (k ^ 2 * rsum n (fun d => v d ^ 2))) by ring. lra.
Qed.

(** The same for all objects with consistent arrays; also used for the position part of
    a CartesianDMP. *)
Lemma guided_reached : forall n alpha beta tau kap cb,
  0 < tau -> 0 <= kap -> 0 <= cb ->
  (forall d, (d < n)%nat -> 0 < alpha d /\ 0 < beta d /\ kap < alpha d * tau) ->
  exists h0, 0 < h0 /\ forall o fn c y yd,
  shapes_ok o -> p_n_dims (o_base o) = n -> phase_ok (o_forcing_term o) -> has_gains n alpha beta tau o -> 0 < o_dt o -> 0 < o_int_dt o ->
  step_part fn o <= h0 -> alen y = n -> alen yd = n -> steers n kap cb c ->
  comes_to_goal n o fn c y yd.
Proof.
  intros n alpha beta tau kap cb Htau Hkap Hcb Hg.
  destruct (guided_run n alpha beta tau kap cb Htau Hkap Hcb) as (h0 & Hh0 & Hrun).
  { intros d Hd. apply (Hg d Hd). } { intros d Hd. apply (Hg d Hd). } { intros d Hd. apply (Hg d Hd). }
  exists h0. split; auto.
  intros o fn c y yd Hsh Hn Hph [Etau Hgains] Hdt Hi Hpart Ly Lyd Hst eps Heps.
  assert (Hx : 0 < o_execution_time o) by lra.
  destruct (clock_steps (p_t (o_base o)) (o_dt o) Hdt) as [k0 Hk0].
  destruct (n_steps_total_c (Some c) fn k0 o y yd Hsh (conj Hx (conj Hdt Hi)) ltac:(congruence) ltac:(congruence))
    as (o1 & y1 & yd1 & E1 & P1 & S1 & T1 & I1 & C1 & D1 & L1 & M1).
  pose proof (running_same _ _ P1 (conj Hx (conj Hdt Hi))) as (Hx1 & Hdt1 & Hi1).
  assert (Ht1 : 0 <= p_t (o_base o1)) by lra.
  pose proof P1 as (Q1 & Q2 & Q3 & Q4 & Q5 & Q6 & Q7 & Q8 & Q9 & Q10 & Q11 & Q12 & Q13 & Q14
                    & Q15 & Q16 & Q17).
  set (a := open_loop_step_args o1 (Some c)).
  destruct (Hrun a c fn (p_t (o_base o1)) (o_dt o1) (aget y1, aget yd1)) as (s & Hs & Hv); auto.
  { split; [|split; [|split; [|split; [|split]]]].
    - intros d Hd. cbn. rewrite Q8. apply (Hgains d Hd).
    - intros d Hd. cbn. rewrite Q9. apply (Hgains d Hd).
    - cbn. rewrite Q1. lra.
    - reflexivity.
    - reflexivity.
    - intros Y V. destruct (Hst Y V) as (H1 & H2 & H3). split; auto. split; auto.
      unfold dot, sq. rewrite (rsum_ext n _ (fun d => snd (c Y V) d * V d)); auto. intros; ring. }
  { cbn. rewrite Q7. exact Hph. }
  { unfold step_part in Hpart. cbn. rewrite Q2, Q4. exact Hpart. }
  assert (HN : exists N, forall k, (N <= k)%nat -> forall d, (d < n)%nat ->
    Rabs (fst (s k) d - a_goal_y a d) < eps /\ Rabs (snd (s k) d) < eps).
  { clear - Hv Heps. induction n as [|m IH]; [exists 0%nat; intros; lia|].
    destruct IH as [N HN]; [intros; apply Hv; lia|].
    destruct (Hv m ltac:(lia)) as [V1 V2]. destruct (V1 eps Heps) as [N1 H1]. destruct (V2 eps Heps) as [N2 H2].
    exists (N + N1 + N2)%nat. intros k Hk d Hd. destruct (Nat.eq_dec d m) as [->|].
    - split; [apply H1|apply H2]; lia.
    - apply HN; lia. }
  destruct HN as [N HN].
  exists (S k0 + N)%nat. intros k Hk.
  set (m := (k - S k0)%nat). replace k with (S k0 + m)%nat by (unfold m; lia).
  destruct (n_steps_follow fn (Some c) o1 m o1 y1 yd1 S1 (same_params_refl o1) Hdt1 Ht1)
    with (s := s m) as (o2 & y2 & yd2 & R1 & R2 & R3); auto; try congruence.
  - rewrite norm_id by auto. exact C1.
  - rewrite norm_id by auto. exact D1.
  - exists o2, y2, yd2. split; [rewrite (n_steps_app _ _ _ _ _ _ _ _ _ _ E1); exact R1|].
    intros d Hd. specialize (HN m ltac:(unfold m; lia) d Hd). rewrite <- R2 in HN. cbn [fst snd] in HN.
    change (a_goal_y a d) with (aget (p_goal_y (o_base o1)) d) in HN. rewrite Q15 in HN. exact HN.
Qed.

(** ** C111 *)
(** For every gain and duration there is a step length such that all movements, from
    every history, first state and goal, with all weights, reach their goal whatever
    the coupling term steers them around. *)
Theorem C111_reaches_goal : forall n alpha beta tau kap cb,
  0 < tau -> 0 <= kap -> 0 <= cb ->
  (forall d, (d < n)%nat -> 0 < alpha d /\ 0 < beta d /\ kap < alpha d * tau) ->
  exists h0, 0 < h0 /\ forall o fn c y yd,
  reachable n o -> has_gains n alpha beta tau o -> 0 < o_dt o -> 0 < o_int_dt o ->
  step_part fn o <= h0 -> alen y = n -> alen yd = n -> steers n kap cb c ->
  comes_to_goal n o fn c y yd.
Proof.
  intros n alpha beta tau kap cb Htau Hkap Hcb Hg.
  destruct (guided_reached n alpha beta tau kap cb Htau Hkap Hcb Hg) as (h0 & Hh0 & H).
  exists h0. split; auto. intros o fn c y yd Hr Hgn Hdt Hi Hp Ly Lyd Hst.
  destruct (reachable_shapes n o Hr) as [Hsh Hn]. apply H; auto. now apply reachable_phase_ok with n.
Qed.

(** The obstacle avoidance terms steer. *)
Theorem C111_obstacle_3d : forall obstacle gamma beta, 0 <= gamma -> 0 < beta ->
  let k := gamma / (exp 1 * beta) in steers 3 k (k ^ 2) (obstacle_3d_coupling obstacle gamma beta).
Proof.
  intros ob gamma beta Hg Hb k.
  assert (Heb : 0 < exp 1 * beta) by (apply Rmult_lt_0_compat; auto; apply exp_pos).
  assert (Hk : 0 <= k) by (apply Rmult_le_pos; auto; left; now apply Rinv_0_lt_compat).
  apply bounded_steers; auto. intros y v. split; [reflexivity|].
  unfold obstacle_3d_coupling. cbn [snd].
  pose proof (C44_bound (v3_of y) (v3_of v) ob gamma beta Hg Hb) as H.
  replace (gamma * v3_norm (v3_of v) / (exp 1 * beta)) with (k * v3_norm (v3_of v)) in H
    by (unfold k; field; split; [lra|apply Rgt_not_eq, exp_pos]).
  set (a := obstacle_3d _ _ _ _ _) in *.
  pose proof (v3_norm_pos a). pose proof (v3_norm_dot a) as Na. pose proof (v3_norm_dot (v3_of v)) as Nv.
  assert (H2 : v3_norm a * v3_norm a <= (k * v3_norm (v3_of v)) * (k * v3_norm (v3_of v)))
    by (apply Rmult_le_compat; auto).
  replace (k * v3_norm (v3_of v) * (k * v3_norm (v3_of v))) with (k ^ 2 * (v3_norm (v3_of v) * v3_norm (v3_of v))) in H2 by ring.
  rewrite Na, Nv in H2. unfold v3_dot in H2. cbn in H2. cbn. lra.
Qed.

Theorem C111_obstacle_2d : forall i obstacle gamma beta, 0 <= gamma -> 0 < beta ->
  let k := gamma / (exp 1 * beta) in steers 2 k (k ^ 2) (obstacle_2d_coupling i obstacle gamma beta).
Proof.
  intros i ob gamma beta Hg Hb k.
  assert (Heb : 0 < exp 1 * beta) by (apply Rmult_lt_0_compat; auto; apply exp_pos).
  assert (Hk : 0 <= k) by (apply Rmult_le_pos; auto; left; now apply Rinv_0_lt_compat).
  apply bounded_steers; auto. intros y v. 
  pose proof (C44_coupling_2d i ob gamma beta y v Hg) as H.
  destruct (obstacle_2d_coupling i ob gamma beta y v) as [cd cdd]. cbv zeta in H. destruct H as (-> & _ & H).
  specialize (H Hb). cbn [fst snd]. split; [reflexivity|].
  replace (gamma * sqrt (v 0%nat ^ 2 + v 1%nat ^ 2) / (exp 1 * beta)) with (k * sqrt (v 0%nat ^ 2 + v 1%nat ^ 2)) in H
    by (unfold k; field; split; [lra|apply Rgt_not_eq, exp_pos]).
  set (A := cdd 0%nat ^ 2 + cdd 1%nat ^ 2) in *. set (B := v 0%nat ^ 2 + v 1%nat ^ 2) in *.
  assert (HA : 0 <= A) by (unfold A; pose proof (pow2_ge_0 (cdd 0%nat)); pose proof (pow2_ge_0 (cdd 1%nat)); lra).
  assert (HB : 0 <= B) by (unfold B; pose proof (pow2_ge_0 (v 0%nat)); pose proof (pow2_ge_0 (v 1%nat)); lra).
  pose proof (sqrt_pos A).
  assert (H2 : sqrt A * sqrt A <= (k * sqrt B) * (k * sqrt B)) by (apply Rmult_le_compat; auto).
  replace (k * sqrt B * (k * sqrt B)) with (k ^ 2 * (sqrt B * sqrt B)) in H2 by ring.
  rewrite !sqrt_sqrt in H2 by auto. unfold A, B in H2. cbn -[pow]. lra.
Qed.

(** So a DMP that avoids an obstacle, wherever it is, reaches its goal. *)
Theorem C111_avoids_and_reaches_3d : forall alpha beta tau gamma b, 0 < tau -> 0 <= gamma -> 0 < b ->
  (forall d, (d < 3)%nat -> 0 < alpha d /\ 0 < beta d /\ gamma < exp 1 * b * alpha d * tau) ->
  exists h0, 0 < h0 /\ forall o fn obstacle y yd,
  reachable 3 o -> has_gains 3 alpha beta tau o -> 0 < o_dt o -> 0 < o_int_dt o ->
  step_part fn o <= h0 -> alen y = 3%nat -> alen yd = 3%nat ->
  comes_to_goal 3 o fn (obstacle_3d_coupling obstacle gamma b) y yd.
Proof.
  intros alpha beta tau gamma b Htau Hg Hb H. set (k := gamma / (exp 1 * b)).
  assert (Heb : 0 < exp 1 * b) by (apply Rmult_lt_0_compat; auto; apply exp_pos).
  destruct (C111_reaches_goal 3 alpha beta tau k (k ^ 2)) as (h0 & Hh0 & Hall); auto.
  - apply Rmult_le_pos; auto. left. now apply Rinv_0_lt_compat.
  - apply pow2_ge_0.
  - intros d Hd. destruct (H d Hd) as (H1 & H2 & H3). split; auto. split; auto.
    unfold k. apply Rmult_lt_reg_r with (exp 1 * b); auto. unfold Rdiv. rewrite Rmult_assoc, Rinv_l by lra. lra.
  - exists h0. split; auto. intros. apply Hall; auto. now apply C111_obstacle_3d.
Qed.

Theorem C111_avoids_and_reaches_2d : forall alpha beta tau gamma b, 0 < tau -> 0 <= gamma -> 0 < b ->
  (forall d, (d < 2)%nat -> 0 < alpha d /\ 0 < beta d /\ gamma < exp 1 * b * alpha d * tau) ->
  exists h0, 0 < h0 /\ forall o fn i obstacle y yd,
  reachable 2 o -> has_gains 2 alpha beta tau o -> 0 < o_dt o -> 0 < o_int_dt o ->
  step_part fn o <= h0 -> alen y = 2%nat -> alen yd = 2%nat ->
  comes_to_goal 2 o fn (obstacle_2d_coupling i obstacle gamma b) y yd.
Proof.
  intros alpha beta tau gamma b Htau Hg Hb H. set (k := gamma / (exp 1 * b)).
  assert (Heb : 0 < exp 1 * b) by (apply Rmult_lt_0_compat; auto; apply exp_pos).
  destruct (C111_reaches_goal 2 alpha beta tau k (k ^ 2)) as (h0 & Hh0 & Hall); auto.
  - apply Rmult_le_pos; auto. left. now apply Rinv_0_lt_compat.
  - apply pow2_ge_0.
  - intros d Hd. destruct (H d Hd) as (H1 & H2 & H3). split; auto. split; auto.
    unfold k. apply Rmult_lt_reg_r with (exp 1 * b); auto. unfold Rdiv. rewrite Rmult_assoc, Rinv_l by lra. lra.
  - exists h0. split; auto. intros. apply Hall; auto. now apply C111_obstacle_2d.
Qed.

(** Every coupling term that takes away energy steers with [kap = 0], so that there is
    no condition on its strength. *)
Theorem C111_no_power : forall n alpha beta tau cb,
  0 < tau -> 0 <= cb -> (forall d, (d < n)%nat -> 0 < alpha d /\ 0 < beta d) ->
  exists h0, 0 < h0 /\ forall o fn c y yd,
  reachable n o -> has_gains n alpha beta tau o -> 0 < o_dt o -> 0 < o_int_dt o ->
  step_part fn o <= h0 -> alen y = n -> alen yd = n ->
  (forall x v, (forall d, (d < n)%nat -> fst (c x v) d = 0) /\
     rsum n (fun d => snd (c x v) d * v d) <= 0 /\
     rsum n (fun d => snd (c x v) d ^ 2) <= cb * rsum n (fun d => v d ^ 2)) ->
  comes_to_goal n o fn c y yd.
Proof.
  intros n alpha beta tau cb Htau Hcb Hg.
  destruct (C111_reaches_goal n alpha beta tau 0 cb) as (h0 & Hh0 & Hall); auto; try lra.
  - intros d Hd. destruct (Hg d Hd) as [H1 H2]. split; auto. split; auto. now apply Rmult_lt_0_compat.
  - exists h0. split; auto. intros o fn c y yd Hr Hgn Hdt Hi Hp Ly Lyd Hc. apply Hall; auto.
    intros x v. destruct (Hc x v) as (C1 & C2 & C3). split; [exact C1|].
    split; [rewrite Rmult_0_l; exact C2|exact C3].
Qed.

(** A movement from (0, 0) to (0, 7) around an obstacle at (0, 3), exactly on its way. *)
Example C111_satisfiable : exists o fn y yd, reachable 2 o /\ 0 < o_dt o /\ 0 < o_int_dt o
  /\ alen y = 2%nat /\ alen yd = 2%nat /\ (forall d, aget y d = 0)
  /\ aget (p_goal_y (o_base o)) 1%nat = 7
  /\ comes_to_goal 2 o fn (obstacle_2d_coupling Python (0, 3) 100 (20 / PI)) y yd.
Proof.
  destruct ex_two_dims as (o & Hr & Hx & Hdt & Hi & Ha & Hb & Hg & Hsm & Hw & Hy & Hv & L1 & L2).
  destruct (C111_avoids_and_reaches_2d (fun _ => 25) (fun _ => 25 / 4) 1 100 (20 / PI)) as (h0 & Hh0 & H); try lra.
  { apply Rdiv_lt_0_compat; [lra|apply PI_RGT_0]. }
  { intros d _. split; [lra|]. split; [lra|].
    assert (2 < exp 1) by (pose proof (exp_ineq1 1 ltac:(lra)); lra).
    assert (5 <= 20 / PI).
    { pose proof PI_RGT_0. pose proof PI_4. apply Rmult_le_reg_r with PI; auto.
      unfold Rdiv. rewrite Rmult_assoc, Rinv_l by lra. lra. }
    assert (2 * 5 <= exp 1 * (20 / PI)) by (apply Rmult_le_compat; lra). lra. }
  set (o' := fst (exec (CSetDt h0) o)).
  assert (Hr' : reachable 2 o') by now apply reachable_exec.
  exists o', RK4, (two 0 0), (two 0 0).
  split; [exact Hr'|]. split; [exact Hh0|]. split; [cbn; lra|]. split; [reflexivity|]. split; [reflexivity|].
  split; [intros [|[|d]]; reflexivity|]. split; [cbn; now rewrite Hg|].
  apply H; auto.
  - split; [exact Hx|]. intros d Hd. split; [apply Ha|apply Hb].
  - cbn. lra.
  - cbn. lra.
Qed.
