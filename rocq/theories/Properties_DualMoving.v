(** C133 and C140 for DualCartesianDMP: both hands follow goal poses that are moved before every
    step.  Final statements. *)
From Coq Require Import Reals ZArith List Arith Bool Lia Lra Psatz FunctionalExtensionality.
From Verif Require Import M_Prelude M_Canonical M_Forcing M_Dmp M_Base M_DmpObject M_Ridge M_SpringDamper
  M_Quaternion M_Cartesian M_Dual S_Loops S_Dmp S_Attributes S_Stability P_Loops P_Forcing P_DmpStep P_Stability
  P_CartesianHistory P_Cartesian P_DmpObject P_Components P_Disturbed P_Moving P_Pace P_Dual P_DualObject
  Properties_Forcing Properties_Dmp Properties_DmpObject Properties_DmpState Properties_Goal Properties_Equivariance Properties_Continuity
  Properties_Stability Properties_ContinuityAll Properties_Cartesian Properties_CartesianObject Properties_Attributes
  Properties_DualObject Properties_DualArm Properties_DualRuns
  Properties_CartesianHistory Properties_CartesianMore Properties_DualReproduction Properties_RobustAll
  Properties_Moving Properties_CartesianMoving Properties_Pace Properties_CartesianPace.
Import ListNotations.
Open Scope R_scope.
Set Bullet Behavior "Strict Subproofs".

(** ** Specification *)
(** As [chase] in Properties_Moving.v: [k] rounds of [configure(goal_y=...)] with the poses of both
    hands and [step] from the state that was returned last, without coupling term. *)
Fixpoint dual_chase (i : impl) (goals : nat -> arr) (k : nat) (y yd : arr) (o : dmp) : dmp * res (arr * arr) :=
  match k with
  | O => (o, Ok (y, yd))
  | S k =>
      match dual_chase i goals k y yd o with
      | (o, Ok (y, yd)) =>
          match dmp_configure (goal_only (goals k)) o with
          | (o, Ok _) => let '(o, _, r) := dual_step (CS := unit) y yd None i tt o in (o, r)
          | (o, Err e) => (o, Err e)
          end
      | (o, Err e) => (o, Err e)
      end
  end.

(** The gain of the tracking error is 0, and the right arm is not disturbed by the wrong index of C39. *)
Definition follower (arm : nat) (o : dmp) : Prop :=
  dual_reachable o /\ ft_goal_t (o_forcing_term o) = o_execution_time o /\ o_p_gain o = 0
  /\ beta_index_irrelevant arm o /\ 0 <= p_t (o_base o)
  /\ 0 < o_execution_time o /\ 0 < o_dt o /\ 0 < o_int_dt o.

(** Damping and stiffness of component [j] of the position of a hand. *)
Definition hand_damping (arm j : nat) (o : dmp) : R := aget (o_alpha_y o) (6 * arm + j)%nat / o_execution_time o.
Definition hand_stiffness (arm j : nat) (o : dmp) : R :=
  aget (o_alpha_y o) (6 * arm + j)%nat * aget (o_beta_y o) (6 * arm + j)%nat / o_execution_time o ^ 2.
Definition hand_steps_shrink (arm j : nat) (o : dmp) : Prop :=
  equal_parts (o_dt o) (o_int_dt o)
  /\ euler_shrinks (Rmin (o_dt o) (o_int_dt o)) (hand_damping arm j o) (hand_stiffness arm j o).
Definition same_hand_settings (arm j : nat) (o o' : dmp) : Prop :=
  o_execution_time o' = o_execution_time o /\ o_dt o' = o_dt o /\ o_int_dt o' = o_int_dt o
  /\ o_n_weights_per_dim o' = o_n_weights_per_dim o /\ o_smooth_scaling o' = o_smooth_scaling o
  /\ aget (o_alpha_y o') (6 * arm + j)%nat = aget (o_alpha_y o) (6 * arm + j)%nat
  /\ aget (o_beta_y o') (6 * arm + j)%nat = aget (o_beta_y o) (6 * arm + j)%nat.

(** As [keeps_pace] in Properties_Pace.v. *)
Definition arm_keeps_pace (arm j : nat) (o : dmp) (D x v : R) : Prop :=
  let h := Rmin (o_dt o) (o_int_dt o) in
  exists n, INR n * h = o_dt o
    /\ Nat.iter n (spring_euler h (hand_damping arm j o) (hand_stiffness arm j o)) (x - D, v) = (x, v).

(** ** Proofs *)
Definition of_arm7 (arm : nat) (y : arr) : arr := {| alen := 7; aget := fun j => aget y (7 * arm + j)%nat |}.
Definition of_arm6 (arm : nat) (y : arr) : arr := {| alen := 6; aget := fun j => aget y (6 * arm + j)%nat |}.

Lemma arm_of_goal arm o k g : arm_of arm o k -> arm_of arm (goal_to g o) (cart_goal_to (of_arm7 arm g) k).
Proof. intros []. constructor; auto. Qed.

Lemma dual_chase_arm arm i goals o k0 y yd : (arm <= 1)%nat -> dual_shapes o -> cart_shapes k0 -> arm_of arm o k0 ->
  o_p_gain o = 0 -> beta_index_irrelevant arm o ->
  0 <= p_t (o_base o) -> 0 < o_execution_time o -> 0 < o_dt o -> 0 < o_int_dt o ->
  alen y = 14%nat -> alen yd = 12%nat -> (forall k, alen (goals k) = 14%nat) ->
  forall k, exists o' y' yd' k' yk' ydk',
    dual_chase i goals k y yd o = (o', Ok (y', yd'))
    /\ cart_chase Euler i (fun k => of_arm7 arm (goals k)) k (of_arm7 arm y) (of_arm6 arm yd) k0 = (k', Ok (yk', ydk'))
    /\ dual_shapes o' /\ cart_shapes k' /\ arm_of arm o' k' /\ o_p_gain o' = 0 /\ beta_index_irrelevant arm o'
    /\ 0 <= p_t (o_base o') /\ 0 < o_execution_time o' /\ 0 < o_dt o' /\ 0 < o_int_dt o'
    /\ alen y' = 14%nat /\ alen yd' = 12%nat /\ alen yk' = 7%nat /\ alen ydk' = 6%nat
    /\ arm_pose arm y' yk' /\ arm_twist arm yd' ydk'.
Proof.
  intros Ha Hs Hk HA Hg Hb Ht Hx Hdt Hi Ly Lyd Lg. induction k as [|k IH].
  - exists o, y, yd, k0, (of_arm7 arm y), (of_arm6 arm yd). cbn [dual_chase cart_chase].
    repeat (split; [reflexivity||assumption|]). split; intros j _; reflexivity.
  - destruct IH as (o1 & y1 & v1 & k1 & yk & vk & E & Ek & S1 & K1 & A1 & G1 & B1 & T1 & X1 & D1 & I1 & L1 & L2 & L3 & L4 & P1 & P2).
    cbn [dual_chase cart_chase]. rewrite E, Ek.
    rewrite cart_configure_goal by (auto; apply K1).
    rewrite configure_goal by (rewrite Lg; symmetry; apply S1).
    set (og := goal_to (goals k) o1). set (kg := cart_goal_to (of_arm7 arm (goals k)) k1).
    assert (Sg : dual_shapes og).
    { pose proof (dual_configure_shapes (goal_only (goals k)) o1 S1) as H.
      rewrite configure_goal in H by (rewrite Lg; symmetry; apply S1). exact H. }
    assert (Kg : cart_shapes kg).
    { pose proof (cart_exec_shapes (KConfigure (goal_only (of_arm7 arm (goals k)))) k1 K1) as H. cbn [cart_exec] in H.
      rewrite cart_configure_goal in H by (auto; apply K1). exact H. }
    assert (Ag : arm_of arm og kg) by now apply arm_of_goal.
    destruct (dual_step_total y1 v1 None i tt og Sg L1 L2 I1 ltac:(cbn; lra)) as (o2 & [] & y2 & v2 & F).
    destruct (dual_step_ok _ _ _ _ _ _ _ _ _ _ F Sg) as (_ & _ & Ef & M1 & M2 & Hp & Htt & _ & _ & _ & S2).
    destruct (dual_step_function_cart arm og kg _ i Euler y1 v1 _ _ yk vk _ _ Ha (or_introl eq_refl) Ag G1 B1 T1 D1 X1 P1 P2 Ef)
      as (yp & ydp & q & w & EP & EQ & Q1 & Q2 & Q3 & Q4).
    assert (H7 : alen (p_current_y (k_base kg)) = 7%nat) by apply Kg.
    assert (H6 : alen (p_current_yd (k_base kg)) = 6%nat) by apply Kg.
    destruct (cart_step_intro yk vk None Euler i kg yp ydp q w L3 L4 H7 H6 EP EQ) as [k2 Fk].
    destruct (cart_step_ok _ _ _ _ _ _ _ _ _ Fk H7 H6) as (yp2 & ydp2 & q2 & w2 & _ & _ & _ & _ & Hsame & Ht2 & _ & _).
    assert (K2 : cart_shapes k2).
    { pose proof (cart_exec_shapes (KStep yk vk None Euler i) kg Kg) as H. cbn [cart_exec] in H. rewrite Fk in H. exact H. }
    rewrite F, Fk. exists o2, y2, v2, k2, (pose yp q), (twist ydp w).
    pose proof Hp as (R1 & R2 & R3 & R4 & R5 & R6 & R7 & R8 & R9 & _).
    cbn [goal_to og with_base o_execution_time o_dt o_int_dt o_p_gain o_smooth_scaling o_beta_y] in *.
    repeat (split; [reflexivity||assumption|]).
    split.
    { apply (arm_of_step arm og kg); auto. rewrite Ht2, Htt. now rewrite (ao_t _ _ _ Ag), (ao_dt _ _ _ Ag). }
    split; [congruence|].
    split. { unfold beta_index_irrelevant in *. rewrite R6, R9. exact B1. }
    split. { rewrite Htt. change (0 <= p_t (o_base o1) + o_dt o1). lra. }
    split; [congruence|]. split; [congruence|]. split; [congruence|].
    repeat (split; [reflexivity||assumption|]). split.
    + intros j Hj. unfold arm_p, arm_q, v3_of, quat_of, slice in *. injection Q1 as Q1a Q1b Q1c. subst q.
      destruct (arm_dec arm Ha) as [-> | ->]; cbn in *;
        do 7 (destruct j as [|j]; [cbn; congruence|]); lia.
    + intros j Hj. unfold arm_v, arm_w, v3_of, slice in *. injection Q2 as Q2a Q2b Q2c. subst w.
      destruct (arm_dec arm Ha) as [-> | ->]; cbn in *;
        do 6 (destruct j as [|j]; [cbn; congruence|]); lia.
Qed.

Lemma arm_shrinks arm j o k : arm_of arm o k -> (j < 3)%nat -> hand_steps_shrink arm j o -> position_steps_shrink Euler k j.
Proof.
  intros HA Hj. unfold hand_steps_shrink, position_steps_shrink, hand_damping, hand_stiffness. cbv zeta.
  now rewrite (ao_alpha _ _ _ HA), (ao_beta _ _ _ HA), (ao_time _ _ _ HA), (ao_dt _ _ _ HA), (ao_int_dt _ _ _ HA) by lia.
Qed.
Lemma arm_pace arm j o k D x v : arm_of arm o k -> (j < 3)%nat ->
  arm_keeps_pace arm j o D x v <-> hand_keeps_pace Euler k j D x v.
Proof.
  intros HA Hj. unfold arm_keeps_pace, hand_keeps_pace, hand_damping, hand_stiffness. cbv zeta.
  now rewrite (ao_alpha _ _ _ HA), (ao_beta _ _ _ HA), (ao_time _ _ _ HA), (ao_dt _ _ _ HA), (ao_int_dt _ _ _ HA) by lia.
Qed.

(** ** C133 *)
(** The number [K] depends on the gains and the step lengths only. *)
Theorem C133_dual : forall arm j o0, (arm <= 1)%nat -> (j < 3)%nat -> follower arm o0 -> hand_steps_shrink arm j o0 ->
  exists K, 0 <= K /\ forall i o goals y yd D,
  follower arm o -> same_hand_settings arm j o0 o -> 0 <= D ->
  alen y = 14%nat -> alen yd = 12%nat -> (forall k, alen (goals k) = 14%nat) ->
  slow goals (7 * arm + j) D -> o_smooth_scaling o = false \/ bounded_goals goals (7 * arm + j) ->
  forall eps, 0 < eps -> exists N, forall k, (N <= k)%nat ->
  exists o' y' yd', dual_chase i goals (S k) y yd o = (o', Ok (y', yd'))
    /\ Rabs (aget y' (7 * arm + j)%nat - aget (goals k) (7 * arm + j)%nat) <= K * D + eps
    /\ Rabs (aget yd' (6 * arm + j)%nat) <= K * D + eps.
Proof.
  intros arm j o0 Ha Hj (Hr & Hg & Hp & Hb & Ht & Hx & Hdt & Hi) Hst.
  destruct (arm_made arm o0 Ha Hr Hg) as (k0 & Hm & Hk & HA & Hn & _).
  destruct (C133_cartesian Euler k0 j Hm Hj) as (K & HK & H);
    rewrite ?(ao_time _ _ _ HA), ?(ao_dt _ _ _ HA), ?(ao_int_dt _ _ _ HA); auto; [eapply arm_shrinks; eauto|].
  exists K. split; [exact HK|].
  intros i o goals y yd D (Hr' & Hg' & Hp' & Hb' & Ht' & Hx' & Hdt' & Hi') (E1 & E2 & E3 & E4 & E5 & E6 & E7) HD Ly Lyd Lg Hslow Hsm eps He.
  destruct (arm_made arm o Ha Hr' Hg') as (k1 & Hm1 & Hk1 & HA1 & Hn1 & _).
  destruct (H i k1 (fun k => of_arm7 arm (goals k)) (of_arm7 arm y) (of_arm6 arm yd) D Hm1) with (eps := eps) as [N HN]; auto.
  - unfold same_position_settings.
    rewrite (ao_time _ _ _ HA), (ao_dt _ _ _ HA), (ao_int_dt _ _ _ HA), (ao_smooth _ _ _ HA), Hn,
      (ao_time _ _ _ HA1), (ao_dt _ _ _ HA1), (ao_int_dt _ _ _ HA1), (ao_smooth _ _ _ HA1), Hn1,
      (ao_alpha _ _ _ HA), (ao_beta _ _ _ HA), (ao_alpha _ _ _ HA1), (ao_beta _ _ _ HA1) by lia.
    rewrite (tr_goal_t _ _ _ (ao_pos _ _ _ HA)), (tr_goal_t _ _ _ (ao_pos _ _ _ HA1)), Hg, Hg'. auto 10.
  - rewrite (ao_smooth _ _ _ HA1). exact Hsm.
  - exists N. intros k Hk'. destruct (HN k Hk') as (k2 & yk & vk & F & B1 & B2).
    destruct (dual_chase_arm arm i goals o k1 y yd Ha (dual_reachable_shapes o Hr') (cart_made_shapes k1 Hm1) HA1 Hp' Hb' Ht' Hx' Hdt' Hi' Ly Lyd Lg (S k))
      as (o2 & y2 & v2 & k3 & yk3 & vk3 & G & G3 & _ & _ & _ & _ & _ & _ & _ & _ & _ & _ & _ & _ & _ & P1 & P2).
    rewrite F in G3. injection G3 as <- <- <-.
    exists o2, y2, v2. split; [exact G|]. rewrite <- (P1 j), <- (P2 j) by lia. cbn [of_arm7 aget] in B1. auto.
Qed.

(** ** C140 *)
Theorem C140_dual_pace : forall arm j o D, (arm <= 1)%nat -> (j < 3)%nat -> follower arm o -> hand_steps_shrink arm j o ->
  exists x v, arm_keeps_pace arm j o D x v
  /\ forall x' v', arm_keeps_pace arm j o D x' v' -> x' = x /\ v' = v.
Proof.
  intros arm j o D Ha Hj (Hr & Hg & Hp & Hb & Ht & Hx & Hdt & Hi) Hst.
  destruct (arm_made arm o Ha Hr Hg) as (k & Hm & Hk & HA & Hn & _).
  destruct (C140_cartesian_pace Euler k j D Hm Hj) as (x & v & H & U);
    rewrite ?(ao_time _ _ _ HA), ?(ao_dt _ _ _ HA), ?(ao_int_dt _ _ _ HA); auto; [eapply arm_shrinks; eauto|].
  exists x, v. split; [now apply (arm_pace arm j o k)|].
  intros x' v' H'. apply U. now apply (arm_pace arm j o k) in H'.
Qed.

Theorem C140_dual_limit : forall arm j i o goals y yd D x v,
  (arm <= 1)%nat -> (j < 3)%nat -> follower arm o -> hand_steps_shrink arm j o ->
  alen y = 14%nat -> alen yd = 12%nat -> (forall k, alen (goals k) = 14%nat) ->
  moves_by goals (7 * arm + j) D -> o_smooth_scaling o = false \/ bounded_goals goals (7 * arm + j) ->
  arm_keeps_pace arm j o D x v ->
  forall eps, 0 < eps -> exists N, forall k, (N <= k)%nat ->
  exists o' y' yd', dual_chase i goals (S k) y yd o = (o', Ok (y', yd'))
    /\ Rabs (aget y' (7 * arm + j)%nat - aget (goals k) (7 * arm + j)%nat - x) <= eps
    /\ Rabs (aget yd' (6 * arm + j)%nat - v) <= eps.
Proof.
  intros arm j i o goals y yd D x v Ha Hj (Hr & Hg & Hp & Hb & Ht & Hx & Hdt & Hi) Hst Ly Lyd Lg Hmv Hsm Hkp eps He.
  destruct (arm_made arm o Ha Hr Hg) as (k1 & Hm & Hk & HA & Hn & _).
  destruct (C140_cartesian_limit Euler i k1 j (fun k => of_arm7 arm (goals k)) (of_arm7 arm y) (of_arm6 arm yd) D x v)
    with (eps := eps) as [N HN];
    rewrite ?(ao_time _ _ _ HA), ?(ao_dt _ _ _ HA), ?(ao_int_dt _ _ _ HA), ?(ao_smooth _ _ _ HA); auto.
  - eapply arm_shrinks; eauto.
  - now apply (arm_pace arm j o k1).
  - exists N. intros k Hk'. destruct (HN k Hk') as (k2 & yk & vk & F & B1 & B2).
    destruct (dual_chase_arm arm i goals o k1 y yd Ha (dual_reachable_shapes o Hr) (cart_made_shapes k1 Hm) HA Hp Hb Ht Hx Hdt Hi Ly Lyd Lg (S k))
      as (o2 & y2 & v2 & k3 & yk3 & vk3 & G & G3 & _ & _ & _ & _ & _ & _ & _ & _ & _ & _ & _ & _ & _ & P1 & P2).
    rewrite F in G3. injection G3 as <- <- <-.
    exists o2, y2, v2. split; [exact G|]. rewrite <- (P1 j), <- (P2 j) by lia. cbn [of_arm7 aget] in B1. auto.
Qed.

(** Two hands whose goals move by 1/10 per step in every direction. *)
Example C140_dual_satisfiable : forall arm, (arm <= 1)%nat -> exists o, follower arm o /\ hand_steps_shrink arm 1 o
  /\ same_hand_settings arm 1 o o /\ o_smooth_scaling o = false
  /\ (let goals k := {| alen := 14; aget := fun _ => INR k / 10 |} in
      (forall k, alen (goals k) = 14%nat) /\ slow goals (7 * arm + 1) (1/10) /\ moves_by goals (7 * arm + 1) (1/10))
  /\ exists x v, arm_keeps_pace arm 1 o (1/10) x v.
Proof.
  intros arm Ha.
  destruct (dual_example 1 (1/100) (1/1000) 0 false (fun _ => 25) (fun _ => 4) vzero vzero)
    as (o & Hr & O1 & O2 & O3 & O4 & O5 & O6 & O7 & O8 & O9 & O10 & O11 & O12 & O13 & O14 & O15 & _); [lra|].
  assert (Fo : follower arm o).
  { unfold follower. rewrite O1, O2, O3, O11. repeat (split; [first [assumption|lra|right; left; assumption]|]). lra. }
  assert (Sh : hand_steps_shrink arm 1 o).
  { unfold hand_steps_shrink, hand_damping, hand_stiffness. rewrite O1, O2, O3, O6, O7.
    rewrite Rmin_right by lra.
    replace (25 / 1) with 25 by field. replace (25 * 4 / 1 ^ 2) with (25 * 4) by field.
    split; [right; exists 10%nat; simpl; lra|apply C100_overdamped]. }
  exists o. split; [exact Fo|]. split; [exact Sh|]. split; [repeat split|]. split; [assumption|]. split.
  - intros goals. split; [reflexivity|]. split.
    + intros e He. exists 0%nat. intros k _. unfold goals. cbn [aget]. rewrite S_INR.
      replace ((INR k + 1) / 10 - INR k / 10) with (1/10) by field. rewrite Rabs_pos_eq; lra.
    + intros e He. exists 0%nat. intros k _. unfold goals. cbn [aget]. rewrite S_INR.
      replace ((INR k + 1) / 10 - INR k / 10 - 1/10) with 0 by field. rewrite Rabs_R0. lra.
  - destruct (C140_dual_pace arm 1 o (1/10) Ha ltac:(lia) Fo Sh) as (x & v & H & _). eauto.
Qed.
