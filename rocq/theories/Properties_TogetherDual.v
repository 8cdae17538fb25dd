(** C141 for DualCartesianDMP: the hands of two pairs of arms come together.  Final statements. *)
From Coq Require Import Reals ZArith List Arith Bool Lia Lra Psatz FunctionalExtensionality.
From Verif Require Import M_Prelude M_Canonical M_Forcing M_Dmp M_Base M_DmpObject M_Ridge M_SpringDamper
  M_Quaternion M_Cartesian M_Dual S_Loops S_Dmp S_Attributes S_Stability P_Loops P_Forcing P_DmpStep P_Stability
  P_CartesianHistory P_Cartesian P_DmpObject P_Components P_Disturbed P_Moving P_Pace P_Dual P_DualObject
  Properties_Forcing Properties_Dmp Properties_DmpObject Properties_DmpState Properties_Goal Properties_Equivariance Properties_Continuity
  Properties_Stability Properties_ContinuityAll Properties_Cartesian Properties_CartesianObject Properties_Attributes
  Properties_DualObject Properties_DualArm Properties_DualRuns
  Properties_CartesianHistory Properties_CartesianMore Properties_DualReproduction Properties_RobustAll
  Properties_Moving Properties_CartesianMoving Properties_DualMoving Properties_Together Properties_TogetherCartesian.
Import ListNotations.
Open Scope R_scope.
Set Bullet Behavior "Strict Subproofs".

(** ** Specification *)
(** The same execution time, step lengths and gains for component [j] of the position of a hand. *)
Definition dual_tuned_like (arm j : nat) (o o' : dmp) : Prop :=
  o_execution_time o' = o_execution_time o /\ o_dt o' = o_dt o /\ o_int_dt o' = o_int_dt o
  /\ aget (o_alpha_y o') (6 * arm + j)%nat = aget (o_alpha_y o) (6 * arm + j)%nat
  /\ aget (o_beta_y o') (6 * arm + j)%nat = aget (o_beta_y o) (6 * arm + j)%nat.

(** ** Proofs *)
(** A hand is a CartesianDMP. *)
Lemma arm_is_hand arm j i o goals y yd : (arm <= 1)%nat -> (j < 3)%nat -> follower arm o ->
  alen y = 14%nat -> alen yd = 12%nat -> (forall k, alen (goals k) = 14%nat) ->
  exists c, cart_made c /\ arm_of arm o c
  /\ forall k c' yk vk, cart_chase Euler i (fun k => of_arm7 arm (goals k)) k (of_arm7 arm y) (of_arm6 arm yd) c = (c', Ok (yk, vk)) ->
       exists o' y' yd', dual_chase i goals k y yd o = (o', Ok (y', yd'))
         /\ aget y' (7 * arm + j)%nat = aget yk j /\ aget yd' (6 * arm + j)%nat = aget vk j.
Proof.
  intros Ha Hj (Hr & Hg & Hp & Hb & Ht & Hx & Hdt & Hi) Ly Lyd Lg.
  destruct (arm_made arm o Ha Hr Hg) as (c & Hm & Hk & HA & Hn & _).
  exists c. split; [exact Hm|]. split; [exact HA|]. intros k c' yk vk F.
  destruct (dual_chase_arm arm i goals o c y yd Ha (dual_reachable_shapes o Hr) (cart_made_shapes c Hm) HA Hp Hb Ht Hx Hdt Hi Ly Lyd Lg k)
    as (o2 & y2 & v2 & k3 & yk3 & vk3 & G & G3 & _ & _ & _ & _ & _ & _ & _ & _ & _ & _ & _ & _ & _ & P1 & P2).
  rewrite F in G3. injection G3 as <- <- <-.
  exists o2, y2, v2. split; [exact G|]. rewrite <- (P1 j), <- (P2 j) by lia. auto.
Qed.

(** ** C141 *)
Theorem C141_dual : forall arm j o0, (arm <= 1)%nat -> (j < 3)%nat -> follower arm o0 -> hand_steps_shrink arm j o0 ->
  exists K, 0 <= K /\ forall i i' o goals y yd o' goals' y' yd' D,
  follower arm o -> dual_tuned_like arm j o0 o ->
  alen y = 14%nat -> alen yd = 12%nat -> (forall k, alen (goals k) = 14%nat) ->
  o_smooth_scaling o = false \/ bounded_goals goals (7 * arm + j) ->
  follower arm o' -> dual_tuned_like arm j o0 o' ->
  alen y' = 14%nat -> alen yd' = 12%nat -> (forall k, alen (goals' k) = 14%nat) ->
  o_smooth_scaling o' = false \/ bounded_goals goals' (7 * arm + j) ->
  0 <= D -> goals_within D (7 * arm + j) goals goals' ->
  forall eps, 0 < eps -> exists N, forall k, (N <= k)%nat ->
  exists o1 y1 yd1 o2 y2 yd2,
    dual_chase i goals (S k) y yd o = (o1, Ok (y1, yd1)) /\ dual_chase i' goals' (S k) y' yd' o' = (o2, Ok (y2, yd2))
    /\ Rabs (aget y1 (7 * arm + j)%nat - aget y2 (7 * arm + j)%nat) <= K * D + eps
    /\ Rabs (aget yd1 (6 * arm + j)%nat - aget yd2 (6 * arm + j)%nat) <= K * D + eps.
Proof.
  intros arm j o0 Ha Hj F0 Hst.
  pose proof F0 as (Hr & Hg & Hp & Hb & Ht & Hx & Hdt & Hi).
  destruct (arm_made arm o0 Ha Hr Hg) as (c0 & Hm0 & _ & HA0 & _).
  destruct (C141_cartesian Euler c0 j Hm0 Hj) as (K & HK & H);
    rewrite ?(ao_time _ _ _ HA0), ?(ao_dt _ _ _ HA0), ?(ao_int_dt _ _ _ HA0); auto; [eapply arm_shrinks; eauto|].
  exists K. split; [exact HK|].
  intros i i' o goals y yd o' goals' y' yd' D Fo T Ly Lyd Lg Hsm Fo' T' Ly' Lyd' Lg' Hsm' HD Hgw eps He.
  destruct (arm_is_hand arm j i o goals y yd Ha Hj Fo Ly Lyd Lg) as (c & Hm & HA & HE).
  destruct (arm_is_hand arm j i' o' goals' y' yd' Ha Hj Fo' Ly' Lyd' Lg') as (c' & Hm' & HA' & HE').
  assert (HT : forall x a, arm_of arm x a -> dual_tuned_like arm j o0 x -> hand_tuned_like j c0 a).
  { intros x a Hxa (E1 & E2 & E3 & E4 & E5). unfold hand_tuned_like.
    rewrite (ao_time _ _ _ HA0), (ao_dt _ _ _ HA0), (ao_int_dt _ _ _ HA0), (ao_time _ _ _ Hxa), (ao_dt _ _ _ Hxa),
      (ao_int_dt _ _ _ Hxa), (ao_alpha _ _ _ HA0), (ao_beta _ _ _ HA0), (ao_alpha _ _ _ Hxa), (ao_beta _ _ _ Hxa) by lia.
    auto 10. }
  destruct (H i i' c (fun k => of_arm7 arm (goals k)) (of_arm7 arm y) (of_arm6 arm yd)
    c' (fun k => of_arm7 arm (goals' k)) (of_arm7 arm y') (of_arm6 arm yd') D Hm (HT _ _ HA T)) with (eps := eps) as [N HN]; auto.
  - rewrite (ao_smooth _ _ _ HA). exact Hsm.
  - exact (HT _ _ HA' T').
  - rewrite (ao_smooth _ _ _ HA'). exact Hsm'.
  - exists N. intros k Hk. destruct (HN k Hk) as (d1 & y1 & v1 & d2 & y2 & v2 & F1 & F2 & F3 & F4).
    destruct (HE _ _ _ _ F1) as (o1 & ya & yda & G1 & G2 & G3). destruct (HE' _ _ _ _ F2) as (o2 & yb & ydb & G4 & G5 & G6).
    exists o1, ya, yda, o2, yb, ydb. split; [exact G1|]. split; [exact G4|]. rewrite G2, G3, G5, G6. auto.
Qed.

Theorem C141_dual_periodic : forall arm j i o p goals y yd, (arm <= 1)%nat -> (j < 3)%nat ->
  follower arm o -> hand_steps_shrink arm j o ->
  alen y = 14%nat -> alen yd = 12%nat -> (forall k, alen (goals k) = 14%nat) ->
  o_smooth_scaling o = false \/ bounded_goals goals (7 * arm + j) -> repeats p (7 * arm + j) goals ->
  forall eps, 0 < eps -> exists N, forall k, (N <= k)%nat ->
  exists o1 y1 yd1 o2 y2 yd2,
    dual_chase i goals k y yd o = (o1, Ok (y1, yd1)) /\ dual_chase i goals (p + k) y yd o = (o2, Ok (y2, yd2))
    /\ Rabs (aget y1 (7 * arm + j)%nat - aget y2 (7 * arm + j)%nat) <= eps
    /\ Rabs (aget yd1 (6 * arm + j)%nat - aget yd2 (6 * arm + j)%nat) <= eps.
Proof.
  intros arm j i o p goals y yd Ha Hj Fo Hst Ly Lyd Lg Hsm Hrep eps He.
  destruct (arm_is_hand arm j i o goals y yd Ha Hj Fo Ly Lyd Lg) as (c & Hm & HA & HE).
  destruct Fo as (_ & _ & _ & _ & _ & Hx & Hdt & Hi).
  destruct (C141_cartesian_periodic Euler i c j p (fun k => of_arm7 arm (goals k)) (of_arm7 arm y) (of_arm6 arm yd) Hm Hj)
    with (eps := eps) as [N HN];
    rewrite ?(ao_time _ _ _ HA), ?(ao_dt _ _ _ HA), ?(ao_int_dt _ _ _ HA), ?(ao_smooth _ _ _ HA); auto.
  - eapply arm_shrinks; eauto.
  - exists N. intros k Hk. destruct (HN k Hk) as (d1 & y1 & v1 & d2 & y2 & v2 & F1 & F2 & F3 & F4).
    destruct (HE _ _ _ _ F1) as (o1 & ya & yda & G1 & G2 & G3). destruct (HE _ _ _ _ F2) as (o2 & yb & ydb & G4 & G5 & G6).
    exists o1, ya, yda, o2, yb, ydb. split; [exact G1|]. split; [exact G4|]. rewrite G2, G3, G5, G6. auto.
Qed.

(** Two hands whose goals swing in all components, and other goals 1/10 away. *)
Example C141_dual_satisfiable : forall arm, (arm <= 1)%nat -> exists o, follower arm o /\ hand_steps_shrink arm 1 o
  /\ dual_tuned_like arm 1 o o /\ o_smooth_scaling o = false
  /\ let goals k := {| alen := 14; aget := fun _ => if Nat.even k then 1 else -1 |} in
     let goals' k := {| alen := 14; aget := fun _ => if Nat.even k then 9/10 else -11/10 |} in
     (forall k, alen (goals k) = 14%nat) /\ (forall k, alen (goals' k) = 14%nat)
     /\ goals_within (1/10) (7 * arm + 1) goals goals' /\ repeats 2 (7 * arm + 1) goals.
Proof.
  intros arm Ha. destruct (C140_dual_satisfiable arm Ha) as (o & H1 & H2 & _ & H3 & _).
  exists o. split; [exact H1|]. split; [exact H2|]. split; [repeat split|]. split; [exact H3|]. cbv zeta.
  split; [reflexivity|]. split; [reflexivity|]. split.
  - intros e He. exists 0%nat. intros k _. cbn [aget]. destruct (Nat.even k); apply Rabs_le; lra.
  - exists 0%nat. intros k _. reflexivity.
Qed.
