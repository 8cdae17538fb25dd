(** C142 for DMPWithFinalVelocity, CartesianDMP, DualCartesianDMP and SpringDamper.  Final statements. *)
From Coq Require Import Reals ZArith List Arith Bool Lia Lra Psatz FunctionalExtensionality.
From Verif Require Import M_Prelude M_Canonical M_Forcing M_Dmp M_Base M_DmpObject M_Ridge M_SpringDamper M_FinalVelocity
  M_Quaternion M_Cartesian M_Dual S_Loops S_Dmp S_Attributes S_Stability P_Loops P_Forcing P_DmpStep P_Stability
  P_CartesianHistory P_Cartesian P_DmpObject P_Components P_Disturbed P_FinalVelocity P_Moving P_Pace P_Dual P_DualObject
  P_DmpLinear P_Converge P_Bounded P_DisturbedAll P_Together P_Superposition
  Properties_Forcing Properties_Dmp Properties_DmpObject Properties_DmpState Properties_Goal Properties_Equivariance Properties_Continuity
  Properties_Stability Properties_ContinuityAll Properties_Cartesian Properties_CartesianObject Properties_Attributes
  Properties_DualObject Properties_DualArm Properties_DualRuns Properties_SpringDamper Properties_SpringHistory
  Properties_CartesianHistory Properties_CartesianMore Properties_DualReproduction Properties_RobustAll
  Properties_FinalVelocity Properties_FinalVelocityObject Properties_MovingSpring Properties_PaceSpring
  Properties_Moving Properties_CartesianMoving Properties_DualMoving Properties_MovingFinalVelocity
  Properties_Together Properties_TogetherFinalVelocity Properties_TogetherSpring Properties_TogetherCartesian Properties_TogetherDual
  Properties_Superposition.
Import ListNotations.
Open Scope R_scope.
Set Bullet Behavior "Strict Subproofs".

(** ** Specification *)
(** As [follows] in Properties_Superposition.v. *)
Definition fv_follows (o0 : dmp) (d : nat) (o : dmp) (goals : nat -> arr) (y yd : arr) : Prop :=
  exists n, fv_reachable n o /\ tuned_like o0 d o /\ alen y = n /\ alen yd = n /\ (forall k, alen (goals k) = n).
Definition hand_follows (j : nat) (o0 o : cart) (goals : nat -> arr) (y yd : arr) : Prop :=
  cart_made o /\ hand_tuned_like j o0 o /\ alen y = 7%nat /\ alen yd = 6%nat /\ (forall k, alen (goals k) = 7%nat)
  /\ (k_smooth o = false \/ bounded_goals goals j).
Definition arm_follows (arm j : nat) (o0 o : dmp) (goals : nat -> arr) (y yd : arr) : Prop :=
  follower arm o /\ dual_tuned_like arm j o0 o /\ alen y = 14%nat /\ alen yd = 12%nat /\ (forall k, alen (goals k) = 14%nat)
  /\ (o_smooth_scaling o = false \/ bounded_goals goals (7 * arm + j)).
Definition spring_follows (o0 o : spring_damper) (goals : nat -> arr) (y yd : arr) : Prop :=
  exists n, position_history n o /\ same_spring o0 o /\ alen y = n /\ alen yd = n /\ (forall k, alen (goals k) = n).

(** ** C142 *)
Theorem C142_final_velocity : forall o0 d,
  0 < o_execution_time o0 -> 0 < o_dt o0 -> 0 < o_int_dt o0 -> steps_shrink Euler o0 d ->
  exists K, 0 <= K /\ forall x z D o goals y yd o' goals' y' yd' o2 goals2 y2 yd2,
  fv_follows o0 d o goals y yd -> fv_follows o0 d o' goals' y' yd' -> fv_follows o0 d o2 goals2 y2 yd2 ->
  0 <= D -> combined x z D d goals goals' goals2 ->
  forall eps, 0 < eps -> exists N, forall k, (N <= k)%nat ->
  exists oa ya va ob yb vb oc yc vc,
    fv_chase goals (S k) y yd o = (oa, Ok (ya, va)) /\ fv_chase goals' (S k) y' yd' o' = (ob, Ok (yb, vb))
    /\ fv_chase goals2 (S k) y2 yd2 o2 = (oc, Ok (yc, vc))
    /\ Rabs (x * aget ya d + z * aget yb d - aget yc d) <= K * D + eps
    /\ Rabs (x * aget va d + z * aget vb d - aget vc d) <= K * D + eps.
Proof.
  intros o0 d Hx Hdt Hi Hst. destruct (superposed Euler o0 d Hx Hdt Hi Hst) as (K & HK & H).
  exists K. split; [exact HK|]. intros x z D o goals y yd o' goals' y' yd' o2 goals2 y2 yd2 F F' F2 HD Hg eps He.
  assert (HL : forall o goals y yd, fv_follows o0 d o goals y yd -> exists k0, forall i, exists o1 y1 yd1,
    ready_like o0 d o1 (fun j => goals (k0 + i + j)%nat) y1 yd1
    /\ forall k, fv_chase goals (k0 + i + k) y yd o = chase Euler (fun j => goals (k0 + i + j)%nat) k y1 yd1 o1).
  { clear - Hx Hdt Hi. intros o goals y yd (n & Hr & HT & Ly & Lyd & Lg).
    assert (Hrun : running o) by (destruct HT as (A1 & A2 & A3 & _); unfold running; rewrite A1, A2, A3; auto).
    destruct (fv_tails n o goals y yd d Hr Hrun Ly Lyd Lg) as [k0 Hk0]. exists k0. intros i.
    destruct (Hk0 i) as (o1 & y1 & yd1 & R1 & T1 & E). exists o1, y1, yd1. split; [|exact E].
    split; [exact R1|]. eapply tuned_like_trans; eauto. }
  destruct (HL _ _ _ _ F) as [k1 H1]. destruct (HL _ _ _ _ F') as [k2 H2]. destruct (HL _ _ _ _ F2) as [k3 H3]. clear HL.
  destruct (H1 (k2 + k3)%nat) as (oa & ya & va & Ra & Ea). destruct (H2 (k1 + k3)%nat) as (ob & yb & vb & Rb & Eb).
  destruct (H3 (k1 + k2)%nat) as (oc & yc & vc & Rc & Ec).
  assert (exists B, B = (k1 + k2 + k3)%nat) as [B EB] by eauto.
  replace (k1 + (k2 + k3))%nat with B in * by lia. replace (k2 + (k1 + k3))%nat with B in * by lia.
  replace (k3 + (k1 + k2))%nat with B in * by lia.
  destruct (H x z D _ _ _ _ _ _ _ _ _ _ _ _ Ra Rb Rc HD) with (eps := eps) as [N HN]; auto.
  { intros e Hee. destruct (Hg e Hee) as [N HN]. exists N. intros k Hk. apply HN. lia. }
  exists (B + N)%nat. intros k Hk.
  destruct (HN (k - B)%nat ltac:(lia)) as (oa' & ya' & va' & ob' & yb' & vb' & oc' & yc' & vc' & E1 & E2 & E3 & E4).
  rewrite <- Ea in E1. rewrite <- Eb in E2. rewrite <- Ec in E3.
  replace (B + S (k - B))%nat with (S k) in E1, E2, E3 by lia.
  exists oa', ya', va', ob', yb', vb', oc', yc', vc'. auto.
Qed.

Theorem C142_cartesian : forall fn o0 j, cart_made o0 -> (j < 3)%nat ->
  0 < k_execution_time o0 -> 0 < k_dt o0 -> 0 < k_int_dt o0 -> position_steps_shrink fn o0 j ->
  exists K, 0 <= K /\ forall x z D i i' i2 o goals y yd o' goals' y' yd' o2 goals2 y2 yd2,
  hand_follows j o0 o goals y yd -> hand_follows j o0 o' goals' y' yd' -> hand_follows j o0 o2 goals2 y2 yd2 ->
  0 <= D -> combined x z D j goals goals' goals2 ->
  forall eps, 0 < eps -> exists N, forall k, (N <= k)%nat ->
  exists oa ya va ob yb vb oc yc vc,
    cart_chase fn i goals (S k) y yd o = (oa, Ok (ya, va)) /\ cart_chase fn i' goals' (S k) y' yd' o' = (ob, Ok (yb, vb))
    /\ cart_chase fn i2 goals2 (S k) y2 yd2 o2 = (oc, Ok (yc, vc))
    /\ Rabs (x * aget ya j + z * aget yb j - aget yc j) <= K * D + eps
    /\ Rabs (x * aget va j + z * aget vb j - aget vc j) <= K * D + eps.
Proof.
  intros fn o0 j Hm0 Hj P1 P2 P3 Hst.
  destruct (cart_made_stand_in o0 Hm0) as [(d0 & Hr0 & Hd0) _].
  destruct (superposed fn d0 j) as (K & HK & H);
    rewrite ?(tw_time _ _ Hd0), ?(tw_dt _ _ Hd0), ?(tw_int_dt _ _ Hd0); auto; [now apply (twin_shrinks fn o0)|].
  exists K. split; [exact HK|].
  intros x z D i i' i2 o goals y yd o' goals' y' yd' o2 goals2 y2 yd2 F F' F2 HD Hg eps He.
  assert (HL : forall i o goals y yd, hand_follows j o0 o goals y yd ->
    exists d, ready_like d0 j d (fun k => first3 (goals k)) (first3 y) (first3 yd)
    /\ forall k d' y3 v3, chase fn (fun k => first3 (goals k)) k (first3 y) (first3 yd) d = (d', Ok (y3, v3)) ->
       exists o' y' yd', cart_chase fn i goals k y yd o = (o', Ok (y', yd'))
         /\ aget y' j = aget y3 j /\ aget yd' j = aget v3 j).
  { clear - Hj P1 P2 P3 Hd0. intros i o goals y yd (Hm & (B1 & B2 & B3 & B4 & B5) & Ly & Lyd & Lg & Hsm).
    destruct (hand_is_ready fn i o j goals y yd) as (d & Hrd & (A1 & A2 & A3 & A4 & A5 & A6) & _ & HE); auto; try congruence.
    exists d. split; [|exact HE]. split; [exact Hrd|].
    unfold tuned_like. rewrite (tw_time _ _ Hd0), (tw_dt _ _ Hd0), (tw_int_dt _ _ Hd0), (tw_gain _ _ Hd0),
      (twin_alpha o0 d0 j Hd0), (twin_beta o0 d0 j Hd0) by auto. repeat split; congruence. }
  destruct (HL i _ _ _ _ F) as (da & Ra & Ea). destruct (HL i' _ _ _ _ F') as (db & Rb & Eb).
  destruct (HL i2 _ _ _ _ F2) as (dc & Rc & Ec).
  destruct (H x z D _ _ _ _ _ _ _ _ _ _ _ _ Ra Rb Rc HD) with (eps := eps) as [N HN]; auto.
  exists N. intros k Hk. destruct (HN k Hk) as (d1 & y1 & v1 & d2 & y3 & v2 & d3 & y4 & v3 & E1 & E2 & E3 & E4 & E5).
  destruct (Ea _ _ _ _ E1) as (oa & ya & va & G1 & G2 & G3). destruct (Eb _ _ _ _ E2) as (ob & yb & vb & G4 & G5 & G6).
  destruct (Ec _ _ _ _ E3) as (oc & yc & vc & G7 & G8 & G9).
  exists oa, ya, va, ob, yb, vb, oc, yc, vc. rewrite G2, G3, G5, G6, G8, G9. auto 10.
Qed.

Theorem C142_dual : forall arm j o0, (arm <= 1)%nat -> (j < 3)%nat -> follower arm o0 -> hand_steps_shrink arm j o0 ->
  exists K, 0 <= K /\ forall x z D i i' i2 o goals y yd o' goals' y' yd' o2 goals2 y2 yd2,
  arm_follows arm j o0 o goals y yd -> arm_follows arm j o0 o' goals' y' yd' -> arm_follows arm j o0 o2 goals2 y2 yd2 ->
  0 <= D -> combined x z D (7 * arm + j) goals goals' goals2 ->
  forall eps, 0 < eps -> exists N, forall k, (N <= k)%nat ->
  exists oa ya va ob yb vb oc yc vc,
    dual_chase i goals (S k) y yd o = (oa, Ok (ya, va)) /\ dual_chase i' goals' (S k) y' yd' o' = (ob, Ok (yb, vb))
    /\ dual_chase i2 goals2 (S k) y2 yd2 o2 = (oc, Ok (yc, vc))
    /\ Rabs (x * aget ya (7 * arm + j)%nat + z * aget yb (7 * arm + j)%nat - aget yc (7 * arm + j)%nat) <= K * D + eps
    /\ Rabs (x * aget va (6 * arm + j)%nat + z * aget vb (6 * arm + j)%nat - aget vc (6 * arm + j)%nat) <= K * D + eps.
Proof.
  intros arm j o0 Ha Hj F0 Hst.
  pose proof F0 as (Hr & Hg & Hp & Hb & Ht & Hx & Hdt & Hi).
  destruct (arm_made arm o0 Ha Hr Hg) as (c0 & Hm0 & _ & HA0 & _).
  destruct (C142_cartesian Euler c0 j Hm0 Hj) as (K & HK & H);
    rewrite ?(ao_time _ _ _ HA0), ?(ao_dt _ _ _ HA0), ?(ao_int_dt _ _ _ HA0); auto; [eapply arm_shrinks; eauto|].
  exists K. split; [exact HK|].
  intros x z D i i' i2 o goals y yd o' goals' y' yd' o2 goals2 y2 yd2 F F' F2 HD Hc eps He.
  assert (HL : forall i o goals y yd, arm_follows arm j o0 o goals y yd ->
    exists c, hand_follows j c0 c (fun k => of_arm7 arm (goals k)) (of_arm7 arm y) (of_arm6 arm yd)
    /\ forall k c' yk vk, cart_chase Euler i (fun k => of_arm7 arm (goals k)) k (of_arm7 arm y) (of_arm6 arm yd) c = (c', Ok (yk, vk)) ->
       exists o' y' yd', dual_chase i goals k y yd o = (o', Ok (y', yd'))
         /\ aget y' (7 * arm + j)%nat = aget yk j /\ aget yd' (6 * arm + j)%nat = aget vk j).
  { clear - Ha Hj HA0. intros i o goals y yd (Fo & (E1 & E2 & E3 & E4 & E5) & Ly & Lyd & Lg & Hsm).
    destruct (arm_is_hand arm j i o goals y yd Ha Hj Fo Ly Lyd Lg) as (c & Hm & HA & HE).
    exists c. split; [|exact HE]. split; [exact Hm|]. split.
    - unfold hand_tuned_like.
      rewrite (ao_time _ _ _ HA0), (ao_dt _ _ _ HA0), (ao_int_dt _ _ _ HA0), (ao_time _ _ _ HA), (ao_dt _ _ _ HA),
        (ao_int_dt _ _ _ HA), (ao_alpha _ _ _ HA0), (ao_beta _ _ _ HA0), (ao_alpha _ _ _ HA), (ao_beta _ _ _ HA) by lia.
      auto 10.
    - repeat (split; [reflexivity|]). rewrite (ao_smooth _ _ _ HA). exact Hsm. }
  destruct (HL i _ _ _ _ F) as (da & Ra & Ea). destruct (HL i' _ _ _ _ F') as (db & Rb & Eb).
  destruct (HL i2 _ _ _ _ F2) as (dc & Rc & Ec).
  destruct (H x z D i i' i2 _ _ _ _ _ _ _ _ _ _ _ _ Ra Rb Rc HD) with (eps := eps) as [N HN]; auto.
  exists N. intros k Hk. destruct (HN k Hk) as (d1 & y1 & v1 & d2 & y3 & v2 & d3 & y4 & v3 & E1 & E2 & E3 & E4 & E5).
  destruct (Ea _ _ _ _ E1) as (oa & ya & va & G1 & G2 & G3). destruct (Eb _ _ _ _ E2) as (ob & yb & vb & G4 & G5 & G6).
  destruct (Ec _ _ _ _ E3) as (oc & yc & vc & G7 & G8 & G9).
  exists oa, ya, va, ob, yb, vb, oc, yc, vc. rewrite G2, G3, G5, G6, G8, G9. auto 10.
Qed.

Theorem C142_springs : forall o0 d, spring_shrinks o0 ->
  exists K, 0 <= K /\ forall x z D o goals y yd o' goals' y' yd' o2 goals2 y2 yd2,
  spring_follows o0 o goals y yd -> spring_follows o0 o' goals' y' yd' -> spring_follows o0 o2 goals2 y2 yd2 ->
  0 <= D -> combined x z D d goals goals' goals2 ->
  forall eps, 0 < eps -> exists N, forall k, (N <= k)%nat ->
  exists oa ya va ob yb vb oc yc vc,
    chase_spring goals k y yd o = (oa, Ok (ya, va)) /\ chase_spring goals' k y' yd' o' = (ob, Ok (yb, vb))
    /\ chase_spring goals2 k y2 yd2 o2 = (oc, Ok (yc, vc))
    /\ Rabs (x * aget ya d + z * aget yb d - aget yc d) <= K * D + eps
    /\ Rabs (x * aget va d + z * aget vb d - aget vc d) <= K * D + eps.
Proof.
  intros o0 d (Hk & Hc & Hdt & Hi & Hep & Hlim).
  set (c := match s_c o0 with Some c => c | None => 2 * sqrt (s_k o0) end) in *.
  destruct (triple_run Euler (s_dt o0) (s_int_dt o0) c (s_k o0 / c) 1 Hdt Hi ltac:(lra)) as (K & HK & H).
  { split; [exact Hep|]. replace (c / 1) with c by field. replace (c * (s_k o0 / c) / 1 ^ 2) with (s_k o0) by (field; lra).
    apply euler_shrinks_iff; auto. now apply Rmin_pos. }
  exists K. split; [exact HK|].
  intros x z D o goals y yd o' goals' y' yd' o2 goals2 y2 yd2 F F' F2 HD Hg eps He.
  assert (HL : forall o goals y yd, spring_follows o0 o goals y yd -> exists k0, forall i, exists t0 a s, 0 <= t0
    /\ moving_args a d no_force (fun k => aget (goals (k0 + i + k)%nat) d) c (s_k o0 / c) 1 0
    /\ (forall k, a_int_dt (a k) = s_int_dt o0)
    /\ (forall k, run_step_function Euler (a k) (t0 + INR k * s_dt o0) (t0 + INR (S k) * s_dt o0) (s k) = Ok (s (S k)))
    /\ forall k, exists o' y' yd', chase_spring goals (k0 + i + k) y yd o = (o', Ok (y', yd')) /\ s k = (aget y', aget yd')).
  { clear - Hk Hc Hdt Hi Hep Hlim. intros o goals y yd (n & Hh & (A1 & A2 & A3 & A4) & Ly & Lyd & Lg).
    assert (Hss : spring_shrinks o).
    { unfold spring_shrinks. cbv zeta. rewrite A1, A2, A3, A4. fold c. auto 7. }
    destruct (spring_states_late n o goals d y yd (position_shapes n o Hh) Hss Ly Lyd Lg) as [k0 H0].
    exists k0. intros i. destruct (H0 i) as (t0 & a & s & B1 & B2 & B3 & B4 & B5).
    rewrite A1, A2 in B2. rewrite A3 in B4. rewrite A4 in B3. fold c in B2.
    exists t0, a, s. auto 10. }
  destruct (HL _ _ _ _ F) as [k1 H1]. destruct (HL _ _ _ _ F') as [k2 H2]. destruct (HL _ _ _ _ F2) as [k3 H3]. clear HL.
  destruct (H1 (k2 + k3)%nat) as (t0 & a & s & Ht & HA & Hint & Hs & Hret).
  destruct (H2 (k1 + k3)%nat) as (t0' & a' & s' & Ht' & HA' & Hint' & Hs' & Hret').
  destruct (H3 (k1 + k2)%nat) as (t2 & a2 & s2 & Ht2 & HA2 & Hint2 & Hs2 & Hret2).
  assert (exists B, B = (k1 + k2 + k3)%nat) as [B EB] by eauto.
  replace (k1 + (k2 + k3))%nat with B in * by lia. replace (k2 + (k1 + k3))%nat with B in * by lia.
  replace (k3 + (k1 + k2))%nat with B in * by lia.
  assert (Hnf : phase_ok no_force) by (unfold phase_ok, no_force; cbn; split; [lia|lra]).
  assert (H0 : 0 <= 0) by lra.
  destruct (H x z a a' a2 d _ _ _ _ _ _ 0 0 0 t0 t0' t2 s s' s2 D HA HA' HA2 Hint Hint' Hint2 Hnf Hnf Hnf
    H0 H0 H0 Ht Ht' Ht2 HD) as [E1 E2]; auto.
  { intros e Hee. destruct (Hg e Hee) as [N HN]. exists N. intros k Hk'. apply HN. lia. }
  destruct (E1 eps He) as [N1 HN1]. destruct (E2 eps He) as [N2 HN2].
  exists (B + N1 + N2)%nat. intros k Hk'. set (j := (k - B)%nat). assert (Ek : (B + j = k)%nat) by (unfold j; lia).
  destruct (Hret j) as (oa & ya & va & R1 & S1). destruct (Hret' j) as (ob & yb & vb & R2 & S2).
  destruct (Hret2 j) as (oc & yc & vc & R3 & S3). rewrite Ek in R1, R2, R3.
  exists oa, ya, va, ob, yb, vb, oc, yc, vc. split; [exact R1|]. split; [exact R2|]. split; [exact R3|].
  specialize (HN1 j ltac:(unfold j; lia)). specialize (HN2 j ltac:(unfold j; lia)). cbv beta in HN1, HN2.
  rewrite S1, S2, S3 in HN1, HN2. cbn [fst snd] in HN1, HN2. auto.
Qed.

(** A swinging goal, a goal that moves away, and twice the first minus the second. *)
Definition swing (n : nat) (k : nat) : arr := {| alen := n; aget := fun _ => if Nat.even k then 1 else -1 |}.
Definition drift (n : nat) (k : nat) : arr := {| alen := n; aget := fun _ => INR k / 10 |}.
Definition both (n : nat) (k : nat) : arr :=
  {| alen := n; aget := fun _ => 2 * (if Nat.even k then 1 else -1) + (-1) * (INR k / 10) |}.
Lemma both_combined n d : combined 2 (-1) 0 d (swing n) (drift n) (both n).
Proof.
  intros e He. exists 0%nat. intros k _. unfold swing, drift, both. cbn [aget]. rewrite Rminus_eq_0, Rabs_R0. lra.
Qed.

Example C142_final_velocity_satisfiable : exists o, 0 < o_execution_time o /\ 0 < o_dt o /\ 0 < o_int_dt o
  /\ steps_shrink Euler o 0
  /\ (forall y v, fv_follows o 0 o (swing 1) (one y) (one v) /\ fv_follows o 0 o (drift 1) (one y) (one v)
        /\ fv_follows o 0 o (both 1) (one y) (one v))
  /\ combined 2 (-1) 0 0 (swing 1) (drift 1) (both 1).
Proof.
  destruct C141_final_velocity_satisfiable as (o & H1 & H2 & H3 & H4 & H5 & H6 & _).
  exists o. repeat (split; [assumption|]). split; [|apply both_combined].
  intros y v. repeat split; exists 1%nat; repeat (split; [assumption || reflexivity|]); reflexivity.
Qed.

Example C142_dual_satisfiable : forall arm, (arm <= 1)%nat -> exists o, follower arm o /\ hand_steps_shrink arm 1 o
  /\ (forall y v, let y := {| alen := 14; aget := y |} in let v := {| alen := 12; aget := v |} in
        arm_follows arm 1 o o (swing 14) y v /\ arm_follows arm 1 o o (drift 14) y v /\ arm_follows arm 1 o o (both 14) y v)
  /\ combined 2 (-1) 0 (7 * arm + 1) (swing 14) (drift 14) (both 14).
Proof.
  intros arm Ha. destruct (C141_dual_satisfiable arm Ha) as (o & H1 & H2 & H3 & H4 & _).
  exists o. split; [exact H1|]. split; [exact H2|]. split; [|apply both_combined].
  intros y v. cbv zeta. unfold arm_follows. repeat (split; [repeat (split; [assumption || reflexivity|]); auto|]).
  repeat (split; [assumption || reflexivity|]); auto.
Qed.

Example C142_cartesian_satisfiable : exists o, cart_made o
  /\ 0 < k_execution_time o /\ 0 < k_dt o /\ 0 < k_int_dt o
  /\ position_steps_shrink RK4 o 1 /\ position_steps_shrink Euler o 1
  /\ (forall y v, let y := {| alen := 7; aget := y |} in let v := {| alen := 6; aget := v |} in
        hand_follows 1 o o (swing 7) y v /\ hand_follows 1 o o (drift 7) y v /\ hand_follows 1 o o (both 7) y v)
  /\ combined 2 (-1) 0 1 (swing 7) (drift 7) (both 7).
Proof.
  destruct C104_more_satisfiable
    as (o & o' & ts & ys & ts' & ys' & H1 & _ & H3 & H4 & H5 & H6 & H7 & _ & _ & _ & _ & _ & _ & _ & H8 & _).
  exists o. repeat (split; [assumption|]). split; [|apply both_combined].
  assert (HT : hand_tuned_like 1 o o) by (unfold hand_tuned_like; repeat split).
  intros y v. cbv zeta. unfold hand_follows. repeat (split; [repeat (split; [assumption || reflexivity|]); auto|]).
  repeat (split; [assumption || reflexivity|]); auto.
Qed.

Example C142_springs_satisfiable : exists o, spring_shrinks o
  /\ (forall y v, spring_follows o o (swing 1) (one y) (one v) /\ spring_follows o o (drift 1) (one y) (one v)
        /\ spring_follows o o (both 1) (one y) (one v))
  /\ combined 2 (-1) 0 0 (swing 1) (drift 1) (both 1).
Proof.
  destruct C141_springs_satisfiable as (o & H1 & H2 & H3 & _).
  exists o. split; [exact H2|]. split; [|apply both_combined].
  intros y v. repeat split; exists 1%nat; repeat (split; [assumption || reflexivity|]); reflexivity.
Qed.
