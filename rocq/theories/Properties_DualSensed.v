(** C94 for DualCartesianDMP: wrong measurements of the hands cause bounded deviations.
    Final statements. *)
From Coq Require Import Reals ZArith List Arith Bool Lia Lra Psatz FunctionalExtensionality.
From Verif Require Import M_Prelude M_Canonical M_Forcing M_Dmp M_Base M_DmpObject M_Ridge M_SpringDamper
  M_Quaternion M_Cartesian M_Dual S_Loops S_Dmp S_Attributes S_Stability P_Loops P_Forcing P_DmpStep P_Stability
  P_CartesianHistory P_Cartesian P_DmpObject P_Components P_Disturbed P_Moving P_Sensed P_Dual P_DualObject
  Properties_Forcing Properties_Dmp Properties_DmpObject Properties_DmpState Properties_Goal Properties_Equivariance Properties_Continuity
  Properties_Stability Properties_ContinuityAll Properties_Cartesian Properties_CartesianObject Properties_Attributes
  Properties_DualObject Properties_DualArm Properties_DualRuns
  Properties_CartesianHistory Properties_CartesianMore Properties_DualReproduction Properties_RobustAll
  Properties_Moving Properties_CartesianMoving Properties_CartesianSensed Properties_Pace Properties_CartesianPace
  Properties_DualMoving.
Import ListNotations.
Open Scope R_scope.
Set Bullet Behavior "Strict Subproofs".

(** ** Specification *)
(** The object after [k] calls of [step] without coupling term; call [k] is given the measured poses [ms k]
    of both hands and their measured velocities [vs k]. *)
Fixpoint dual_sensed (i : impl) (ms vs : nat -> arr) (k : nat) (o : dmp) : dmp :=
  match k with
  | O => o
  | S k => let o' := dual_sensed i ms vs k o in fst (fst (dual_step (CS := unit) (ms k) (vs k) None i tt o'))
  end.

(** Call [k] returns the poses [y] and the velocities [yd]. *)
Definition dual_returns (i : impl) (ms vs : nat -> arr) (o : dmp) (k : nat) (y yd : arr) : Prop :=
  snd (dual_step (CS := unit) (ms k) (vs k) None i tt (dual_sensed i ms vs k o)) = Ok (y, yd).

(** From call [m] on the position and the velocity that are measured in component [j] of one hand differ from
    those returned by the call before by at most [B]. *)
Definition hand_sensor_within (B : R) (arm j m : nat) (i : impl) (ms vs : nat -> arr) (o : dmp) : Prop :=
  forall k y yd, (m <= k)%nat -> dual_returns i ms vs o k y yd ->
    Rabs (aget (ms (S k)) (7 * arm + j)%nat - aget y (7 * arm + j)%nat) <= B
    /\ Rabs (aget (vs (S k)) (6 * arm + j)%nat - aget yd (6 * arm + j)%nat) <= B.

(** ** Proofs *)
Lemma dual_step_arm arm i o k y yd : (arm <= 1)%nat -> dual_shapes o -> cart_shapes k -> arm_of arm o k ->
  o_p_gain o = 0 -> beta_index_irrelevant arm o ->
  0 <= p_t (o_base o) -> 0 < o_execution_time o -> 0 < o_dt o -> 0 < o_int_dt o ->
  alen y = 14%nat -> alen yd = 12%nat ->
  exists o' y' yd' k' yk' ydk',
    dual_step (CS := unit) y yd None i tt o = (o', tt, Ok (y', yd'))
    /\ cart_step (of_arm7 arm y) (of_arm6 arm yd) None Euler i k = (k', Ok (yk', ydk'))
    /\ dual_shapes o' /\ cart_shapes k' /\ arm_of arm o' k' /\ o_p_gain o' = 0 /\ beta_index_irrelevant arm o'
    /\ 0 <= p_t (o_base o') /\ 0 < o_execution_time o' /\ 0 < o_dt o' /\ 0 < o_int_dt o'
    /\ p_current_y (o_base o') = y' /\ p_current_yd (o_base o') = yd'
    /\ arm_pose arm y' yk' /\ arm_twist arm yd' ydk'.
Proof.
  intros Ha Hs Hk HA Hg Hb Ht Hx Hdt Hi Ly Lyd.
  destruct (dual_step_total y yd None i tt o Hs Ly Lyd Hi ltac:(lra)) as (o2 & [] & y2 & v2 & F).
  destruct (dual_step_ok _ _ _ _ _ _ _ _ _ _ F Hs) as (_ & _ & Ef & M1 & M2 & Hp & Htt & _ & C1 & C2 & S2).
  assert (Y : arm_pose arm y (of_arm7 arm y)) by (intros j _; reflexivity).
  assert (V : arm_twist arm yd (of_arm6 arm yd)) by (intros j _; reflexivity).
  destruct (dual_step_function_cart arm o k _ i Euler y yd _ _ _ _ _ _ Ha (or_introl eq_refl) HA Hg Hb Ht Hdt Hx Y V Ef)
    as (yp & ydp & q & w & EP & EQ & Q1 & Q2 & Q3 & Q4).
  assert (H7 : alen (p_current_y (k_base k)) = 7%nat) by apply Hk.
  assert (H6 : alen (p_current_yd (k_base k)) = 6%nat) by apply Hk.
  destruct (cart_step_intro (of_arm7 arm y) (of_arm6 arm yd) None Euler i k yp ydp q w eq_refl eq_refl H7 H6 EP EQ) as [k2 Fk].
  destruct (cart_step_ok _ _ _ _ _ _ _ _ _ Fk H7 H6) as (yp2 & ydp2 & q2 & w2 & _ & _ & _ & _ & Hsame & Ht2 & _ & _).
  assert (K2 : cart_shapes k2).
  { pose proof (cart_exec_shapes (KStep (of_arm7 arm y) (of_arm6 arm yd) None Euler i) k Hk) as H.
    cbn [cart_exec] in H. rewrite Fk in H. exact H. }
  exists o2, y2, v2, k2, (pose yp q), (twist ydp w).
  pose proof Hp as (R1 & R2 & R3 & R4 & R5 & R6 & R7 & R8 & R9 & _).
  repeat (split; [reflexivity||assumption|]).
  split.
  { apply (arm_of_step arm o k); auto. rewrite Ht2, Htt. now rewrite (ao_t _ _ _ HA), (ao_dt _ _ _ HA). }
  split; [congruence|].
  split. { unfold beta_index_irrelevant in *. rewrite R6, R9. exact Hb. }
  split; [lra|].
  split; [congruence|]. split; [congruence|]. split; [congruence|].
  split; [assumption|]. split; [assumption|]. split.
  + intros j Hj. unfold arm_p, arm_q, v3_of, quat_of, slice in *. injection Q1 as Q1a Q1b Q1c. subst q.
    destruct (arm_dec arm Ha) as [-> | ->]; cbn in *;
      do 7 (destruct j as [|j]; [cbn; congruence|]); lia.
  + intros j Hj. unfold arm_v, arm_w, v3_of, slice in *. injection Q2 as Q2a Q2b Q2c. subst w.
    destruct (arm_dec arm Ha) as [-> | ->]; cbn in *;
      do 6 (destruct j as [|j]; [cbn; congruence|]); lia.
Qed.

Lemma dual_sensed_arm arm i ms vs o k0 : (arm <= 1)%nat -> dual_shapes o -> cart_shapes k0 -> arm_of arm o k0 ->
  o_p_gain o = 0 -> beta_index_irrelevant arm o ->
  0 <= p_t (o_base o) -> 0 < o_execution_time o -> 0 < o_dt o -> 0 < o_int_dt o ->
  (forall k, alen (ms k) = 14%nat /\ alen (vs k) = 12%nat) ->
  forall k, exists y yd yk ydk,
    dual_returns i ms vs o k y yd
    /\ sensed_returns Euler i (fun k => of_arm7 arm (ms k)) (fun k => of_arm6 arm (vs k)) k0 k yk ydk
    /\ p_current_y (o_base (dual_sensed i ms vs (S k) o)) = y /\ p_current_yd (o_base (dual_sensed i ms vs (S k) o)) = yd
    /\ arm_pose arm y yk /\ arm_twist arm yd ydk.
Proof.
  intros Ha Hs Hk HA Hg Hb Ht Hx Hdt Hi Hl.
  assert (Hall : forall k, let o1 := dual_sensed i ms vs k o in
     let k1 := sensed Euler i (fun k => of_arm7 arm (ms k)) (fun k => of_arm6 arm (vs k)) k k0 in
     dual_shapes o1 /\ cart_shapes k1 /\ arm_of arm o1 k1 /\ o_p_gain o1 = 0 /\ beta_index_irrelevant arm o1
     /\ 0 <= p_t (o_base o1) /\ 0 < o_execution_time o1 /\ 0 < o_dt o1 /\ 0 < o_int_dt o1).
  { induction k as [|k IH]; cbv zeta; [cbn [dual_sensed sensed]; auto 10|].
    cbv zeta in IH. destruct IH as (S1 & K1 & A1 & G1 & B1 & T1 & X1 & D1 & I1). destruct (Hl k) as [L1 L2].
    cbn [dual_sensed sensed]. cbv zeta.
    destruct (dual_step_arm arm i _ _ (ms k) (vs k) Ha S1 K1 A1 G1 B1 T1 X1 D1 I1 L1 L2)
      as (o2 & y2 & v2 & k2 & yk & vk & F & Fk & S2 & K2 & A2 & G2 & B2 & T2 & X2 & D2 & I2 & _).
    rewrite F, Fk. cbn [fst]. auto 10. }
  intros k. destruct (Hall k) as (S1 & K1 & A1 & G1 & B1 & T1 & X1 & D1 & I1). destruct (Hl k) as [L1 L2].
  destruct (dual_step_arm arm i _ _ (ms k) (vs k) Ha S1 K1 A1 G1 B1 T1 X1 D1 I1 L1 L2)
    as (o2 & y2 & v2 & k2 & yk & vk & F & Fk & _ & _ & _ & _ & _ & _ & _ & _ & _ & C1 & C2 & P1 & P2).
  exists y2, v2, yk, vk. unfold dual_returns, sensed_returns. cbn [dual_sensed]. cbv zeta.
  rewrite F. cbn [fst snd]. split; [reflexivity|]. split; [|auto]. now rewrite Fk.
Qed.

(** ** C94 *)
(** The number [K] depends on the gains and the step lengths only. *)
Theorem C94_dual : forall arm j o0, (arm <= 1)%nat -> (j < 3)%nat -> follower arm o0 -> hand_steps_shrink arm j o0 ->
  exists K, 0 <= K /\ forall i o ms vs B m,
  follower arm o -> same_hand_settings arm j o0 o -> 0 <= B ->
  (forall k, alen (ms k) = 14%nat /\ alen (vs k) = 12%nat) ->
  hand_sensor_within B arm j m i ms vs o ->
  forall eps, 0 < eps -> exists N, forall k, (N <= k)%nat ->
  exists y yd, dual_returns i ms vs o k y yd
    /\ Rabs (aget y (7 * arm + j)%nat - aget (p_goal_y (o_base o)) (7 * arm + j)%nat) <= K * B + eps
    /\ Rabs (aget yd (6 * arm + j)%nat) <= K * B + eps.
Proof.
  intros arm j o0 Ha Hj (Hr & Hg & Hp & Hb & Ht & Hx & Hdt & Hi) Hst.
  destruct (arm_made arm o0 Ha Hr Hg) as (k0 & Hm & Hk & HA & Hn & _).
  destruct (C94_cartesian Euler k0 j Hj) as (K & HK & H);
    rewrite ?(ao_time _ _ _ HA), ?(ao_dt _ _ _ HA), ?(ao_int_dt _ _ _ HA); auto; [eapply arm_shrinks; eauto|].
  exists K. split; [exact HK|].
  intros i o ms vs B m (Hr' & Hg' & Hp' & Hb' & Ht' & Hx' & Hdt' & Hi') (E1 & E2 & E3 & E4 & E5 & E6 & E7) HB Hl Hse eps He.
  destruct (arm_made arm o Ha Hr' Hg') as (k1 & Hm1 & Hk1 & HA1 & Hn1 & _).
  pose proof (dual_sensed_arm arm i ms vs o k1 Ha (dual_reachable_shapes o Hr') (cart_made_shapes k1 Hm1) HA1 Hp' Hb' Ht' Hx' Hdt' Hi' Hl)
    as Hall.
  destruct (H i k1 (fun k => of_arm7 arm (ms k)) (fun k => of_arm6 arm (vs k)) B m Hm1) with (eps := eps) as [N HN]; auto.
  - unfold same_position_settings.
    rewrite (ao_time _ _ _ HA), (ao_dt _ _ _ HA), (ao_int_dt _ _ _ HA), (ao_smooth _ _ _ HA), Hn,
      (ao_time _ _ _ HA1), (ao_dt _ _ _ HA1), (ao_int_dt _ _ _ HA1), (ao_smooth _ _ _ HA1), Hn1,
      (ao_alpha _ _ _ HA), (ao_beta _ _ _ HA), (ao_alpha _ _ _ HA1), (ao_beta _ _ _ HA1) by lia.
    rewrite (tr_goal_t _ _ _ (ao_pos _ _ _ HA)), (tr_goal_t _ _ _ (ao_pos _ _ _ HA1)), Hg, Hg'. auto 10.
  - intros k yk vk Hmk Hret. destruct (Hall k) as (y & yd & yk' & vk' & R & Rk & _ & _ & P1 & P2).
    unfold sensed_returns in Hret, Rk. rewrite Hret in Rk. injection Rk as <- <-.
    rewrite (P1 j), (P2 j) by lia. exact (Hse k y yd Hmk R).
  - exists N. intros k Hk'. destruct (HN k Hk') as (yk & vk & Rk & B1 & B2).
    destruct (Hall k) as (y & yd & yk' & vk' & R & Rk' & _ & _ & P1 & P2).
    unfold sensed_returns in Rk, Rk'. rewrite Rk in Rk'. injection Rk' as <- <-.
    exists y, yd. split; [exact R|]. rewrite <- (P1 j), <- (P2 j), <- (ao_goal _ _ _ HA1 j) by lia. auto.
Qed.

(** Two hands whose positions are always measured 1/2 too large and whose velocities are measured as they are. *)
Example C94_dual_satisfiable : forall arm, (arm <= 1)%nat -> exists o ms vs, follower arm o /\ hand_steps_shrink arm 1 o
  /\ same_hand_settings arm 1 o o /\ (forall k, alen (ms k) = 14%nat /\ alen (vs k) = 12%nat)
  /\ hand_sensor_within (1/2) arm 1 0 Python ms vs o
  /\ (forall k y yd, dual_returns Python ms vs o k y yd -> aget (ms (S k)) (7 * arm + 1)%nat - aget y (7 * arm + 1)%nat = 1/2).
Proof.
  intros arm Ha. destruct (C140_dual_satisfiable arm Ha) as (o & Fo & Sh & Sa & _).
  set (look := fun o : dmp => {| alen := 14; aget := fun d => aget (p_current_y (o_base o)) d + 1/2 |}).
  set (feel := fun o : dmp => {| alen := 12; aget := aget (p_current_yd (o_base o)) |}).
  set (os := fix os k := match k with O => o
     | S k => fst (fst (dual_step (CS := unit) (look (os k)) (feel (os k)) None Python tt (os k))) end).
  set (ms := fun k => look (os k)). set (vs := fun k => feel (os k)).
  assert (E : forall k, dual_sensed Python ms vs k o = os k).
  { induction k as [|k IH]; [reflexivity|]. cbn [dual_sensed]. cbv zeta. rewrite IH. reflexivity. }
  assert (Hl : forall k, alen (ms k) = 14%nat /\ alen (vs k) = 12%nat) by (intros; split; reflexivity).
  pose proof Fo as (Hr & Hg & Hp & Hb & Ht & Hx & Hdt & Hi).
  destruct (arm_made arm o Ha Hr Hg) as (k1 & Hm1 & Hk1 & HA1 & Hn1 & _).
  pose proof (dual_sensed_arm arm Python ms vs o k1 Ha (dual_reachable_shapes o Hr) (cart_made_shapes k1 Hm1) HA1 Hp Hb Ht Hx Hdt Hi Hl)
    as Hall.
  assert (HC : forall k y yd, dual_returns Python ms vs o k y yd ->
     p_current_y (o_base (os (S k))) = y /\ p_current_yd (o_base (os (S k))) = yd).
  { intros k y yd Hret. destruct (Hall k) as (y' & yd' & _ & _ & R & _ & C1 & C2 & _).
    unfold dual_returns in Hret, R. rewrite Hret in R. injection R as <- <-. rewrite E in C1, C2. auto. }
  exists o, ms, vs. repeat (split; [assumption|]). split.
  - intros k y yd _ Hret. destruct (HC k y yd Hret) as [C1 C2]. unfold ms, vs, look, feel. cbn [aget].
    rewrite C1, C2. split; apply Rabs_le; lra.
  - intros k y yd Hret. destruct (HC k y yd Hret) as [C1 _]. unfold ms, look. cbn [aget]. rewrite C1. lra.
Qed.
