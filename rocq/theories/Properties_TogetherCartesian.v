(** C141 for CartesianDMP: hands that follow the same goal come together.  Final statements. *)
From Coq Require Import Reals ZArith List Arith Bool Lia Lra Psatz FunctionalExtensionality.
From Verif Require Import M_Prelude M_Canonical M_Forcing M_Dmp M_Base M_DmpObject M_Ridge M_SpringDamper
  M_Quaternion M_Cartesian S_Loops S_Dmp S_Attributes S_Stability P_Loops P_Forcing P_DmpStep P_Stability P_CartesianHistory
  P_Cartesian P_DmpObject P_Components P_Disturbed P_Moving
  Properties_Forcing Properties_Dmp Properties_DmpObject Properties_DmpState Properties_Goal Properties_Equivariance Properties_Continuity
  Properties_Stability Properties_ContinuityAll Properties_Cartesian Properties_CartesianObject Properties_Attributes
  Properties_CartesianHistory Properties_CartesianMore Properties_RobustAll Properties_Moving Properties_CartesianMoving
  Properties_Together Properties_TogetherFinalVelocity.
Import ListNotations.
Open Scope R_scope.
Set Bullet Behavior "Strict Subproofs".

(** ** Specification *)
(** The same execution time, step lengths and gains; the weights, their number and the scaling may differ. *)
Definition hand_tuned_like (j : nat) (o o' : cart) : Prop :=
  k_execution_time o' = k_execution_time o /\ k_dt o' = k_dt o /\ k_int_dt o' = k_int_dt o
  /\ aget (k_alpha o') j = aget (k_alpha o) j /\ aget (k_beta o') j = aget (k_beta o) j.

(** ** Proofs *)
(** The position of a hand is the state of a DMP. *)
Lemma hand_is_ready fn i o j goals y yd : cart_made o -> (j < 3)%nat ->
  0 < k_execution_time o -> 0 < k_dt o -> 0 < k_int_dt o ->
  alen y = 7%nat -> alen yd = 6%nat -> (forall k, alen (goals k) = 7%nat) ->
  k_smooth o = false \/ bounded_goals goals j ->
  exists d, ready d (fun k => first3 (goals k)) (first3 y) (first3 yd) j
  /\ (o_execution_time d = k_execution_time o /\ o_dt d = k_dt o /\ o_int_dt d = k_int_dt o
      /\ aget (o_alpha_y d) j = aget (k_alpha o) j /\ aget (o_beta_y d) j = aget (k_beta o) j /\ o_p_gain d = 0)
  /\ (position_steps_shrink fn o j -> steps_shrink fn d j)
  /\ forall k d' y3 v3, chase fn (fun k => first3 (goals k)) k (first3 y) (first3 yd) d = (d', Ok (y3, v3)) ->
       exists o' y' yd', cart_chase fn i goals k y yd o = (o', Ok (y', yd'))
         /\ aget y' j = aget y3 j /\ aget yd' j = aget v3 j.
Proof.
  intros Hm Hj P1 P2 P3 Ly Lyd Lg Hsm.
  destruct (cart_made_stand_in o Hm) as [(d & Hr & Hd) _].
  destruct (reachable_shapes 3 d Hr) as [Hsh Hn].
  set (d1 := {| o_base := set_current (first3 y) (first3 yd) (o_base d); o_initialized := true;
                o_execution_time := o_execution_time d; o_dt := o_dt d; o_n_weights_per_dim := o_n_weights_per_dim d;
                o_int_dt := o_int_dt d; o_p_gain := o_p_gain d; o_smooth_scaling := o_smooth_scaling d;
                o_forcing_term := o_forcing_term d; o_alpha_y := o_alpha_y d; o_beta_y := o_beta_y d |}).
  assert (Hpp : position_part o d1) by (destruct (twin_position_part o d Hd); constructor; auto).
  assert (Hat : at_state d1 y yd) by (unfold at_state, d1; cbn; repeat split; intros u _; reflexivity).
  assert (Hsh1 : shapes_ok d1) by (unfold shapes_ok, d1 in *; cbn in *; intuition).
  assert (Ln : 3%nat = p_n_dims (o_base d1)) by (symmetry; exact Hn).
  exists d1. split; [|split; [|split]].
  - split; [apply (reachable_phase_ok 3 d Hr)|]. split; [exact Hsh1|]. rewrite <- Ln.
    split; [reflexivity|]. split; [reflexivity|]. split; [reflexivity|].
    cbn. rewrite (tw_smooth _ _ Hd). exact Hsm.
  - cbn. rewrite (tw_time _ _ Hd), (tw_dt _ _ Hd), (tw_int_dt _ _ Hd), (tw_gain _ _ Hd),
      (twin_alpha o d j Hd), (twin_beta o d j Hd) by auto. auto 10.
  - intros Hst. exact (twin_shrinks fn o d j Hd Hj Hst).
  - intros k d' y3 v3 F.
    destruct (cart_chase_part fn i goals o d1 y yd (cart_made_shapes o Hm)) with (k := k)
      as (o2 & y2 & v2 & d3 & z3 & w3 & G & G3 & _ & _ & _ & _ & _ & _ & _ & _ & _ & _ & R1 & R2);
      try congruence; auto.
    rewrite F in G3. injection G3 as <- <- <-.
    exists o2, y2, v2. split; [exact G|]. rewrite <- (R1 j Hj), <- (R2 j Hj). auto.
Qed.

Lemma ready_periodic fn o d p goals y yd : ready o goals y yd d ->
  0 < o_execution_time o -> 0 < o_dt o -> 0 < o_int_dt o -> steps_shrink fn o d -> repeats p d goals ->
  forall eps, 0 < eps -> exists N, forall k, (N <= k)%nat ->
  exists o1 y1 yd1 o2 y2 yd2,
    chase fn goals k y yd o = (o1, Ok (y1, yd1)) /\ chase fn goals (p + k) y yd o = (o2, Ok (y2, yd2))
    /\ Rabs (aget y1 d - aget y2 d) <= eps /\ Rabs (aget yd1 d - aget yd2 d) <= eps.
Proof.
  intros Hrd Hx Hdt Hi Hst [N0 HN0] eps He.
  destruct (together fn o d Hx Hdt Hi Hst) as (K & HK & H).
  assert (HT : tuned_like o d o) by (unfold tuned_like; repeat split).
  destruct (ready_after fn goals y yd o d p Hrd (conj Hx (conj Hdt Hi))) as (op & yp & ydp & Ep & Hrp & HTp).
  destruct (H o op goals (fun j => goals (p + j)%nat) y yd yp ydp 0 Hrd Hrp HT HTp ltac:(lra)) with (eps := eps) as [N HN]; auto.
  { intros e Hee. exists N0. intros k Hk. rewrite HN0 by exact Hk. rewrite Rminus_eq_0, Rabs_R0. lra. }
  exists (S N). intros k Hk. destruct k as [|k]; [lia|].
  destruct (HN k ltac:(lia)) as (o1 & y1 & yd1 & o2 & y2 & yd2 & E1 & E2 & E3 & E4).
  exists o1, y1, yd1, o2, y2, yd2. split; [exact E1|].
  split; [rewrite (chase_shift _ _ _ _ _ _ _ _ _ Ep); exact E2|]. lra.
Qed.

(** ** C141 *)
(** The orientations of the goals and of the hands do not matter. *)
Theorem C141_cartesian : forall fn o0 j, cart_made o0 -> (j < 3)%nat ->
  0 < k_execution_time o0 -> 0 < k_dt o0 -> 0 < k_int_dt o0 -> position_steps_shrink fn o0 j ->
  exists K, 0 <= K /\ forall i i' o goals y yd o' goals' y' yd' D,
  cart_made o -> hand_tuned_like j o0 o ->
  alen y = 7%nat -> alen yd = 6%nat -> (forall k, alen (goals k) = 7%nat) -> k_smooth o = false \/ bounded_goals goals j ->
  cart_made o' -> hand_tuned_like j o0 o' ->
  alen y' = 7%nat -> alen yd' = 6%nat -> (forall k, alen (goals' k) = 7%nat) -> k_smooth o' = false \/ bounded_goals goals' j ->
  0 <= D -> goals_within D j goals goals' ->
  forall eps, 0 < eps -> exists N, forall k, (N <= k)%nat ->
  exists o1 y1 yd1 o2 y2 yd2,
    cart_chase fn i goals (S k) y yd o = (o1, Ok (y1, yd1)) /\ cart_chase fn i' goals' (S k) y' yd' o' = (o2, Ok (y2, yd2))
    /\ Rabs (aget y1 j - aget y2 j) <= K * D + eps /\ Rabs (aget yd1 j - aget yd2 j) <= K * D + eps.
Proof.
  intros fn o0 j Hm0 Hj P1 P2 P3 Hst.
  destruct (cart_made_stand_in o0 Hm0) as [(d0 & Hr0 & Hd0) _].
  destruct (together fn d0 j) as (K & HK & H);
    rewrite ?(tw_time _ _ Hd0), ?(tw_dt _ _ Hd0), ?(tw_int_dt _ _ Hd0); auto; [now apply (twin_shrinks fn o0)|].
  exists K. split; [exact HK|].
  intros i i' o goals y yd o' goals' y' yd' D Hm S Ly Lyd Lg Hsm Hm' S' Ly' Lyd' Lg' Hsm' HD Hg eps He.
  assert (HX : forall x, hand_tuned_like j o0 x -> k_execution_time x = k_execution_time o0 /\ k_dt x = k_dt o0
    /\ k_int_dt x = k_int_dt o0 /\ aget (k_alpha x) j = aget (k_alpha o0) j /\ aget (k_beta x) j = aget (k_beta o0) j).
  { intros x Hx. exact Hx. }
  assert (HT : forall x d, hand_tuned_like j o0 x -> (o_execution_time d = k_execution_time x /\ o_dt d = k_dt x
      /\ o_int_dt d = k_int_dt x /\ aget (o_alpha_y d) j = aget (k_alpha x) j /\ aget (o_beta_y d) j = aget (k_beta x) j
      /\ o_p_gain d = 0) -> tuned_like d0 j d).
  { intros x d Hx (A1 & A2 & A3 & A4 & A5 & A6). destruct (HX x Hx) as (B1 & B2 & B3 & B4 & B5).
    unfold tuned_like. rewrite (tw_time _ _ Hd0), (tw_dt _ _ Hd0), (tw_int_dt _ _ Hd0), (tw_gain _ _ Hd0),
      (twin_alpha o0 d0 j Hd0), (twin_beta o0 d0 j Hd0) by auto. repeat split; congruence. }
  destruct (HX o S) as (B1 & B2 & B3 & _). destruct (HX o' S') as (C1 & C2 & C3 & _).
  destruct (hand_is_ready fn i o j goals y yd) as (d & Hrd & HV & _ & HE); auto; try congruence.
  destruct (hand_is_ready fn i' o' j goals' y' yd') as (d' & Hrd' & HV' & _ & HE'); auto; try congruence.
  destruct (H d d' _ _ _ _ _ _ D Hrd Hrd' (HT _ _ S HV) (HT _ _ S' HV') HD) with (eps := eps) as [N HN]; auto.
  exists N. intros k Hk. destruct (HN k Hk) as (d1 & y1 & v1 & d2 & y2 & v2 & F1 & F2 & F3 & F4).
  destruct (HE _ _ _ _ F1) as (o1 & ya & yda & G1 & G2 & G3). destruct (HE' _ _ _ _ F2) as (o2 & yb & ydb & G4 & G5 & G6).
  exists o1, ya, yda, o2, yb, ydb. split; [exact G1|]. split; [exact G4|]. rewrite G2, G3, G5, G6. auto.
Qed.

Theorem C141_cartesian_periodic : forall fn i o j p goals y yd, cart_made o -> (j < 3)%nat ->
  0 < k_execution_time o -> 0 < k_dt o -> 0 < k_int_dt o -> position_steps_shrink fn o j ->
  alen y = 7%nat -> alen yd = 6%nat -> (forall k, alen (goals k) = 7%nat) -> k_smooth o = false \/ bounded_goals goals j ->
  repeats p j goals ->
  forall eps, 0 < eps -> exists N, forall k, (N <= k)%nat ->
  exists o1 y1 yd1 o2 y2 yd2,
    cart_chase fn i goals k y yd o = (o1, Ok (y1, yd1)) /\ cart_chase fn i goals (p + k) y yd o = (o2, Ok (y2, yd2))
    /\ Rabs (aget y1 j - aget y2 j) <= eps /\ Rabs (aget yd1 j - aget yd2 j) <= eps.
Proof.
  intros fn i o j p goals y yd Hm Hj P1 P2 P3 Hst Ly Lyd Lg Hsm Hrep eps He.
  destruct (hand_is_ready fn i o j goals y yd) as (d & Hrd & (V1 & V2 & V3 & _) & Hs & HE); auto.
  destruct (ready_periodic fn d j p _ _ _ Hrd) with (eps := eps) as [N HN]; auto; try congruence.
  exists N. intros k Hk. destruct (HN k Hk) as (d1 & y1 & v1 & d2 & y2 & v2 & F1 & F2 & F3 & F4).
  destruct (HE _ _ _ _ F1) as (o1 & ya & yda & G1 & G2 & G3). destruct (HE _ _ _ _ F2) as (o2 & yb & ydb & G4 & G5 & G6).
  exists o1, ya, yda, o2, yb, ydb. split; [exact G1|]. split; [exact G4|]. rewrite G2, G3, G5, G6. auto.
Qed.

(** The hand of C133, a goal that swings in all components, and another goal at another place. *)
Example C141_cartesian_satisfiable : exists o, cart_made o
  /\ 0 < k_execution_time o /\ 0 < k_dt o /\ 0 < k_int_dt o
  /\ position_steps_shrink RK4 o 1 /\ position_steps_shrink Euler o 1 /\ hand_tuned_like 1 o o
  /\ let goals k := {| alen := 7; aget := fun _ => if Nat.even k then 1 else -1 |} in
     let goals' k := {| alen := 7; aget := fun _ => if Nat.even k then 9/10 else -11/10 |} in
     (forall k, alen (goals k) = 7%nat) /\ bounded_goals goals 1 /\ bounded_goals goals' 1
     /\ goals_within (1/10) 1 goals goals' /\ repeats 2 1 goals.
Proof.
  destruct C133_cartesian_satisfiable as (o & H1 & H2 & H3 & H4 & H5 & H6 & _ & _ & _ & H8).
  exists o. repeat (split; [assumption|]). split; [unfold hand_tuned_like; repeat split|]. cbv zeta. split; [reflexivity|]. split; [exact H8|]. split; [|split].
  - exists 2. intros k. cbn [aget]. destruct (Nat.even k); apply Rabs_le; lra.
  - intros e He. exists 0%nat. intros k _. cbn [aget]. destruct (Nat.even k); apply Rabs_le; lra.
  - exists 0%nat. intros k _. reflexivity.
Qed.
