(** C140 for CartesianDMP: how a hand keeps pace with a goal pose that moves at a constant speed.
    Final statements. *)
From Coq Require Import Reals ZArith List Arith Bool Lia Lra Psatz FunctionalExtensionality.
From Verif Require Import M_Prelude M_Canonical M_Forcing M_Dmp M_Base M_DmpObject M_Ridge M_SpringDamper
  M_Quaternion M_Cartesian S_Loops S_Dmp S_Attributes S_Stability P_Loops P_Forcing P_DmpStep P_Stability P_CartesianHistory
  P_Cartesian P_DmpObject P_Components P_Disturbed P_Moving P_Pace
  Properties_Forcing Properties_Dmp Properties_DmpObject Properties_DmpState Properties_Goal Properties_Equivariance Properties_Continuity
  Properties_Stability Properties_ContinuityAll Properties_Cartesian Properties_CartesianObject Properties_Attributes
  Properties_CartesianHistory Properties_CartesianMore Properties_RobustAll Properties_Moving Properties_CartesianMoving
  Properties_Pace.
Import ListNotations.
Open Scope R_scope.
Set Bullet Behavior "Strict Subproofs".

(** ** Specification *)
(** As [keeps_pace] in Properties_Pace.v, for component [j] of the position of the hand. *)
Definition hand_keeps_pace (fn : step_function) (o : cart) (j : nat) (D x v : R) : Prop :=
  let tau := k_execution_time o in
  let c := aget (k_alpha o) j / tau in let k := aget (k_alpha o) j * aget (k_beta o) j / tau ^ 2 in
  match fn with
  | RK4 | RK4_cython => spring_rk4 (k_dt o) c k (x - D, v) = (x, v)
  | Euler | Euler_cython =>
      let h := Rmin (k_dt o) (k_int_dt o) in
      exists n, INR n * h = k_dt o /\ Nat.iter n (spring_euler h c k) (x - D, v) = (x, v)
  end.

(** ** Proofs *)
Lemma twin_pace fn o d j D x v : twin o d -> (j < 3)%nat ->
  hand_keeps_pace fn o j D x v <-> keeps_pace fn d j D x v.
Proof.
  intros H Hj. unfold hand_keeps_pace, keeps_pace, dmp_damping, dmp_stiffness.
  now rewrite (twin_alpha o d j H), (twin_beta o d j H), (tw_time _ _ H), (tw_dt _ _ H), (tw_int_dt _ _ H).
Qed.

(** ** C140 *)
Theorem C140_cartesian_pace : forall fn o j D, cart_made o -> (j < 3)%nat ->
  0 < k_execution_time o -> 0 < k_dt o -> 0 < k_int_dt o -> position_steps_shrink fn o j ->
  exists x v, hand_keeps_pace fn o j D x v
  /\ forall x' v', hand_keeps_pace fn o j D x' v' -> x' = x /\ v' = v.
Proof.
  intros fn o j D Hm Hj P1 P2 P3 Hst.
  destruct (cart_made_stand_in o Hm) as [(d & _ & Hd) _].
  destruct (C140_pace fn d j D) as (x & v & H & U);
    rewrite ?(tw_time _ _ Hd), ?(tw_dt _ _ Hd), ?(tw_int_dt _ _ Hd); auto; [now apply (twin_shrinks fn o)|].
  exists x, v. split.
  - now apply (twin_pace fn o d).
  - intros x' v' H'. apply U. now apply (twin_pace fn o d) in H'.
Qed.

(** The orientations of the goals and the orientation of the hand do not matter. *)
Theorem C140_cartesian_limit : forall fn i o j goals y yd D x v, cart_made o -> (j < 3)%nat ->
  0 < k_execution_time o -> 0 < k_dt o -> 0 < k_int_dt o -> position_steps_shrink fn o j ->
  alen y = 7%nat -> alen yd = 6%nat -> (forall k, alen (goals k) = 7%nat) ->
  moves_by goals j D -> k_smooth o = false \/ bounded_goals goals j -> hand_keeps_pace fn o j D x v ->
  forall eps, 0 < eps -> exists N, forall k, (N <= k)%nat ->
  exists o' y' yd', cart_chase fn i goals (S k) y yd o = (o', Ok (y', yd'))
    /\ Rabs (aget y' j - aget (goals k) j - x) <= eps /\ Rabs (aget yd' j - v) <= eps.
Proof.
  intros fn i o j goals y yd D x v Hm Hj P1 P2 P3 Hst Ly Lyd Lg Hmv Hsm Hkp eps He.
  destruct (cart_made_stand_in o Hm) as [(d & Hr & Hd) _].
  destruct (reachable_shapes 3 d Hr) as [Hsh Hn].
  pose proof (twin_shrinks fn o d j Hd Hj Hst) as Hst'.
  pose proof (proj1 (twin_pace fn o d j D x v Hd Hj) Hkp) as Hkp'.
  set (d1 := {| o_base := set_current (first3 y) (first3 yd) (o_base d); o_initialized := true;
                o_execution_time := o_execution_time d; o_dt := o_dt d; o_n_weights_per_dim := o_n_weights_per_dim d;
                o_int_dt := o_int_dt d; o_p_gain := o_p_gain d; o_smooth_scaling := o_smooth_scaling d;
                o_forcing_term := o_forcing_term d; o_alpha_y := o_alpha_y d; o_beta_y := o_beta_y d |}).
  assert (Hpp : position_part o d1) by (destruct (twin_position_part o d Hd); constructor; auto).
  assert (Hat : at_state d1 y yd) by (unfold at_state, d1; cbn; repeat split; intros u _; reflexivity).
  assert (Hsh1 : shapes_ok d1) by (unfold shapes_ok, d1 in *; cbn in *; intuition).
  assert (Ln : 3%nat = p_n_dims (o_base d1)) by (symmetry; exact Hn).
  destruct (pace_limit fn d1 j (fun k => first3 (goals k)) (first3 y) (first3 yd) D x v) with (eps := eps) as [N HN]; auto.
  - apply (reachable_phase_ok 3 d Hr).
  - change (0 < o_execution_time d). now rewrite (tw_time _ _ Hd).
  - change (0 < o_dt d). now rewrite (tw_dt _ _ Hd).
  - change (0 < o_int_dt d). now rewrite (tw_int_dt _ _ Hd).
  - cbn. rewrite (tw_smooth _ _ Hd). exact Hsm.
  - exists N. intros k Hk. destruct (HN k Hk) as (d2 & y3 & v3 & F & B1 & B2).
    destruct (cart_chase_part fn i goals o d1 y yd (cart_made_shapes o Hm)) with (k := Datatypes.S k)
      as (o2 & y2 & v2 & d3 & z3 & w3 & G & G3 & _ & _ & _ & _ & _ & _ & _ & _ & _ & _ & R1 & R2);
      try congruence; auto.
    rewrite F in G3. injection G3 as <- <- <-.
    exists o2, y2, v2. split; [exact G|]. rewrite <- (R1 j Hj), <- (R2 j Hj). cbn [first3 aget] in B1. auto.
Qed.

Theorem C140_cartesian_euler_lag : forall fn o j D, uses_euler fn ->
  0 < k_execution_time o -> 0 < k_dt o <= k_int_dt o ->
  aget (k_alpha o) j <> 0 -> aget (k_beta o) j <> 0 ->
  hand_keeps_pace fn o j D (D - k_execution_time o / aget (k_beta o) j * (D / k_dt o)) (D / k_dt o).
Proof.
  intros fn o j D Hfn Hx [Hdt Hle] Ha Hb. unfold hand_keeps_pace. cbv zeta. rewrite Rmin_left by exact Hle.
  assert (H : forall x v, x - D = - (k_execution_time o / aget (k_beta o) j * (D / k_dt o)) -> v = D / k_dt o ->
    exists n, INR n * k_dt o = k_dt o
      /\ Nat.iter n (spring_euler (k_dt o) (aget (k_alpha o) j / k_execution_time o)
           (aget (k_alpha o) j * aget (k_beta o) j / k_execution_time o ^ 2)) (x - D, v) = (x, v)).
  { intros x v E1 E2. exists 1%nat. split; [simpl; ring|]. cbn [Nat.iter nat_rect]. unfold spring_euler.
    rewrite E1, E2.
    assert (F : x = D - k_execution_time o / aget (k_beta o) j * (D / k_dt o)) by lra. rewrite F.
    f_equal; field; repeat split; lra. }
  destruct Hfn as [-> | ->]; apply H; ring.
Qed.

(** The hand of C133 and a goal that moves by 1/10 in every step in all directions. *)
Example C140_cartesian_satisfiable : exists o, cart_made o
  /\ 0 < k_execution_time o /\ 0 < k_dt o /\ 0 < k_int_dt o
  /\ position_steps_shrink RK4 o 1 /\ position_steps_shrink Euler o 1 /\ k_smooth o = false
  /\ (let goals k := {| alen := 7; aget := fun _ => INR k / 10 |} in
      (forall k, alen (goals k) = 7%nat) /\ moves_by goals 1 (1/10))
  /\ (exists x v, hand_keeps_pace RK4 o 1 (1/10) x v) /\ (exists x v, hand_keeps_pace Euler o 1 (1/10) x v).
Proof.
  destruct C104_more_satisfiable
    as (o & o' & ts & ys & ts' & ys' & H1 & _ & H3 & H4 & H5 & H6 & H7 & _ & _ & _ & _ & _ & _ & _ & H8 & _).
  exists o. repeat (split; [assumption|]). split; [|split].
  - split; [reflexivity|]. intros e He. exists 0%nat. intros k _. cbn [aget]. rewrite S_INR.
    replace ((INR k + 1) / 10 - INR k / 10 - 1/10) with 0 by field. rewrite Rabs_R0. lra.
  - destruct (C140_cartesian_pace RK4 o 1 (1/10)) as (x & v & H & _); eauto.
  - destruct (C140_cartesian_pace Euler o 1 (1/10)) as (x & v & H & _); eauto.
Qed.
