(** C23, C33, C38, C41 and C69 for DualCartesianDMP.  Final statements. *)
From Coq Require Import Reals List Arith Bool Lia Lra ZArith FunctionalExtensionality.
From Verif Require Import M_Prelude M_Canonical M_Forcing M_Dmp M_Base M_DmpObject M_SpringDamper
  M_Quaternion M_Cartesian M_Dual S_Loops S_Rotation P_Loops P_Quaternion P_Cartesian P_DmpObject
  P_Components P_Dual P_DualObject.
Import ListNotations.
Open Scope R_scope.
Set Bullet Behavior "Strict Subproofs".

(** C23 for DualCartesianDMP: poses have 14, velocities 12 components in every state
    that any sequence of calls, failed ones included, can lead to. *)
Theorem C23_dual_shapes : forall o, dual_reachable o -> dual_shapes o.
Proof. exact dual_reachable_shapes. Qed.

(** Orientation of arm 0 (left) or 1 (right) in a pose array of length 14. *)
Definition dual_orientation (arm : nat) (y : arr) : quat :=
  match arm with
  | O => Q4 (aget y 3%nat) (aget y 4%nat) (aget y 5%nat) (aget y 6%nat)
  | _ => Q4 (aget y 10%nat) (aget y 11%nat) (aget y 12%nat) (aget y 13%nat)
  end.

Lemma dual_orientation_arm arm y : (arm <= 1)%nat -> dual_orientation arm y = arm_q arm (aget y).
Proof. intros H. destruct (arm_dec arm H) as [-> | ->]; reflexivity. Qed.

(** ** C33 *)
Theorem C33_dual_steps : forall (CS : Type) arm (ct : option (stateful_coupling CS)) i n y yd cs o o' cs' y' yd',
  (arm <= 1)%nat -> dual_shapes o ->
  unit_quat (dual_orientation arm (p_start_y (o_base o))) -> unit_quat (dual_orientation arm y) ->
  dual_n_steps ct i n y yd cs o = (o', cs', Ok (y', yd')) ->
  unit_quat (dual_orientation arm y').
Proof.
  intros CS arm ct i n. induction n as [|n IH]; intros y yd cs o o' cs' y' yd' Ha Hs Hst Hu E.
  - cbn in E. injection E as <- <- <- <-. exact Hu.
  - cbn [dual_n_steps] in E.
    destruct (dual_step y yd ct i cs o) as [[o1 cs1] [[y1 yd1]|e]] eqn:E1; [|discriminate].
    destruct (dual_step_ok _ _ _ _ _ _ _ _ _ _ E1 Hs) as (_ & _ & Ef & _ & _ & Hp & _ & _ & _ & _ & Hs1).
    rewrite dual_orientation_arm in Hst, Hu by auto.
    eapply (IH y1 yd1 cs1 o1); [exact Ha|exact Hs1| | |exact E].
    + destruct Hp as (A1 & A2 & A3 & A4 & A5 & A6 & A7 & A8 & A9 & A10 & A11 & A12 & _).
      rewrite A12. now rewrite dual_orientation_arm.
    + rewrite dual_orientation_arm by auto.
      refine (dual_step_function_unit i (dual_args o (dual_tracking_error (aget (remembered o)) (aget y)))
        ct arm _ _ (aget y, aget yd) cs (aget y1, aget yd1) cs1 Ha _ _ Ef); [exact Hst|exact Hu].
Qed.

(** ** C69 for DualCartesianDMP: what [open_loop] returns *)
Definition at_time_zero (o : dmp) : dmp := with_base (set_t 0 (o_base o)) o.

Lemma dual_open_loop_spec {CS} rt ct i (cs : CS) o o' cs' ts ys : dual_shapes o ->
  dual_open_loop rt ct (Some i) cs o = (o', cs', Ok (ts, ys)) ->
  let r := match rt with Some x => x | None => o_execution_time o end in
  exists n, length ts = S n /\ length ys = S n
  /\ (forall k, (k <= n)%nat -> nth k ts 0 = INR k * o_dt o)
  /\ (forall k, (k < n)%nat -> INR k * o_dt o < r) /\ r <= INR n * o_dt o
  /\ (forall k, (k <= n)%nat -> exists o1 cs1 y1 yd1,
        dual_n_steps ct i k (p_start_y (o_base o)) (p_start_yd (o_base o)) cs (at_time_zero o)
        = (o1, cs1, Ok (y1, yd1)) /\ nth_error ys k = Some y1)
  /\ (exists o1 y1 yd1,
        dual_n_steps ct i n (p_start_y (o_base o)) (p_start_yd (o_base o)) cs (at_time_zero o)
        = (o1, cs', Ok (y1, yd1)) /\ o' = at_time_zero o1)
  /\ same_params o o' /\ dual_shapes o'.
Proof.
  intros Hs E r. unfold dual_open_loop in E. cbv zeta in E. fold r in E.
  change (with_base (set_t 0 (o_base o)) o) with (at_time_zero o) in E.
  destruct (dual_open_loop_go _ _ _ _ _ _ _ _) as [[o1 cs1] [[ts1 ys1]|e]] eqn:Eg; [|discriminate].
  injection E as <- <- <- <-.
  assert (Hs0 : dual_shapes (at_time_zero o)) by exact Hs.
  destruct (dual_go_spec _ _ _ _ _ _ _ _ _ _ _ _ Hs0 Eg) as (I1 & I2 & I3 & (y1 & yd1 & I4) & I5 & I6).
  cbn [at_time_zero with_base o_base set_t p_t o_dt p_start_y p_start_yd] in *.
  exists (length ts1). cbn [length]. split; [reflexivity|]. split; [congruence|].
  split; [|split; [|split; [|split; [|split; [|split]]]]].
  - intros [|k] Hk; [cbn; ring|]. cbn [nth]. destruct (I2 k) as (-> & _); [lia|]. ring.
  - intros k Hk. destruct (I2 k Hk) as (_ & H & _). lra.
  - lra.
  - intros [|k] Hk.
    + cbn [dual_n_steps nth_error]. do 4 eexists. split; reflexivity.
    + cbn [nth_error]. destruct (I2 k) as (_ & _ & H); [lia|]. exact H.
  - exists o1, y1, yd1. split; [exact I4|reflexivity].
  - apply (same_params_trans o (at_time_zero o)); [unfold same_params; cbn; repeat split|].
    apply (same_params_trans _ o1); [exact I5|]. unfold same_params; cbn; repeat split.
  - exact I6.
Qed.

(** Sample [k] of [open_loop] is the pose after [k] calls of [step] that start at time
    zero with start pose and start velocity, each with the state returned by the
    previous one. *)
Theorem C69_dual_open_loop_is_repeated_step : forall (CS : Type) rt (ct : option (stateful_coupling CS)) i cs
    o o' cs' ts ys,
  dual_reachable o -> dual_open_loop rt ct (Some i) cs o = (o', cs', Ok (ts, ys)) ->
  length ts = length ys
  /\ forall k, (k < length ys)%nat -> exists o1 cs1 y1 yd1,
        dual_n_steps ct i k (p_start_y (o_base o)) (p_start_yd (o_base o)) cs (at_time_zero o)
        = (o1, cs1, Ok (y1, yd1)) /\ nth_error ys k = Some y1.
Proof.
  intros CS rt ct i cs o o' cs' ts ys Hr E. apply dual_reachable_shapes in Hr.
  destruct (dual_open_loop_spec _ _ _ _ _ _ _ _ _ Hr E) as (n & L1 & L2 & _ & _ & _ & H & _).
  split; [congruence|]. intros k Hk. apply H. lia.
Qed.

(** The times start at 0, are [dt] apart, and end with the first one that is not below
    [run_t] (by default the execution time). *)
Theorem C69_dual_time_grid : forall (CS : Type) rt (ct : option (stateful_coupling CS)) i cs o o' cs' ts ys,
  dual_reachable o -> dual_open_loop rt ct (Some i) cs o = (o', cs', Ok (ts, ys)) ->
  let r := match rt with Some x => x | None => o_execution_time o end in
  exists n, ts = map (fun k => INR k * o_dt o) (seq 0 (S n))
  /\ r <= INR n * o_dt o /\ (forall k, (k < n)%nat -> INR k * o_dt o < r)
  /\ nth_error ys 0 = Some (p_start_y (o_base o)).
Proof.
  intros CS rt ct i cs o o' cs' ts ys Hr E r. apply dual_reachable_shapes in Hr.
  destruct (dual_open_loop_spec _ _ _ _ _ _ _ _ _ Hr E) as (n & L1 & L2 & H1 & H2 & H3 & H4 & _).
  exists n. split; [|split; [exact H3|split; [exact H2|]]].
  - apply (nth_ext _ _ 0 0); [now rewrite map_length, seq_length|]. intros k Hk. rewrite L1 in Hk.
    rewrite H1 by lia. rewrite (nth_indep _ 0 ((fun k => INR k * o_dt o) 0%nat)) by (rewrite map_length, seq_length; lia).
    rewrite (map_nth (fun k => INR k * o_dt o)), seq_nth by lia. reflexivity.
  - destruct (H4 0%nat) as (o1 & cs1 & y1 & yd1 & Hk & ->); [lia|]. cbn in Hk. now injection Hk as <- <- <- <-.
Qed.

(** Whenever [dt > 0] and [int_dt > 0], [open_loop] returns (the loops terminate); it
    raises exactly for an unknown step function name, and then changes nothing. *)
Theorem C69_dual_runs_exist : forall (CS : Type) rt (ct : option (stateful_coupling CS)) cs o,
  dual_reachable o -> 0 < o_dt o -> 0 < o_int_dt o ->
  (forall i, exists o' cs' ts ys, dual_open_loop rt ct (Some i) cs o = (o', cs', Ok (ts, ys)))
  /\ dual_open_loop rt ct None cs o = (o, cs, Err ValueError).
Proof.
  intros CS rt ct cs o Hr Hdt Hi. apply dual_reachable_shapes in Hr. split; [|reflexivity].
  intros i. unfold dual_open_loop. cbv zeta.
  set (r := match rt with Some x => x | None => o_execution_time o end).
  change (with_base (set_t 0 (o_base o)) o) with (at_time_zero o).
  pose proof Hr as (D1 & D2 & D3 & D4 & D5).
  destruct (dual_go_total r ct i (dual_fuel r (o_dt (at_time_zero o))) (p_start_y (o_base (at_time_zero o)))
    (p_start_yd (o_base (at_time_zero o))) cs (at_time_zero o)) as (o1 & cs1 & ts & ys & E).
  - exact Hr.
  - exact D3.
  - exact D4.
  - exact Hi.
  - exact Hdt.
  - cbn. pose proof (dual_fuel_enough r (o_dt o) Hdt). lra.
  - rewrite E. eauto 6.
Qed.

(** C33 for [open_loop]. *)
Theorem C33_dual_open_loop : forall (CS : Type) arm rt (ct : option (stateful_coupling CS)) i cs o o' cs' ts ys,
  (arm <= 1)%nat -> dual_reachable o ->
  unit_quat (dual_orientation arm (p_start_y (o_base o))) ->
  dual_open_loop rt ct i cs o = (o', cs', Ok (ts, ys)) ->
  Forall (fun y => unit_quat (dual_orientation arm y)) ys.
Proof.
  intros CS arm rt ct i cs o o' cs' ts ys Ha Hr Hu E. apply dual_reachable_shapes in Hr.
  destruct i as [i|]; [|discriminate].
  destruct (dual_open_loop_spec _ _ _ _ _ _ _ _ _ Hr E) as (n & L1 & L2 & _ & _ & _ & H4 & _).
  apply Forall_forall. intros y Hy. apply In_nth_error in Hy. destruct Hy as [k Hk].
  assert (Hlt : (k < length ys)%nat) by (apply nth_error_Some; congruence).
  destruct (H4 k) as (o1 & cs1 & y1 & yd1 & HS & HN); [lia|].
  rewrite Hk in HN. injection HN as ->.
  eapply C33_dual_steps; [exact Ha| | | |exact HS]; [exact Hr|exact Hu|exact Hu].
Qed.

(** ** C38 *)

(** Poses and velocities of two arrays agree for one arm. *)
Definition same_pose (arm : nat) (y y2 : arr) : Prop :=
  forall j, (j < 7)%nat -> aget y2 (7 * arm + j)%nat = aget y (7 * arm + j)%nat.
Definition same_twist (arm : nat) (v v2 : arr) : Prop :=
  forall j, (j < 6)%nat -> aget v2 (6 * arm + j)%nat = aget v (6 * arm + j)%nat.

(** Two objects that agree in everything that belongs to one arm: start, goal, gains,
    weights and the pose remembered for the tracking error, besides clock, times and
    the basis functions.  The other arm may be arbitrarily different. *)
Record same_arm (arm : nat) (o o2 : dmp) : Prop := {
  sa_t : p_t (o_base o2) = p_t (o_base o);
  sa_time : o_execution_time o2 = o_execution_time o;
  sa_dt : o_dt o2 = o_dt o; sa_int_dt : o_int_dt o2 = o_int_dt o;
  sa_gain : o_p_gain o2 = o_p_gain o; sa_smooth : o_smooth_scaling o2 = o_smooth_scaling o;
  sa_n : ft_n (o_forcing_term o2) = ft_n (o_forcing_term o);
  sa_centers : ft_centers (o_forcing_term o2) = ft_centers (o_forcing_term o);
  sa_widths : ft_widths (o_forcing_term o2) = ft_widths (o_forcing_term o);
  sa_alpha_z : ft_alpha_z (o_forcing_term o2) = ft_alpha_z (o_forcing_term o);
  sa_goal_t : ft_goal_t (o_forcing_term o2) = ft_goal_t (o_forcing_term o);
  sa_start_t : ft_start_t (o_forcing_term o2) = ft_start_t (o_forcing_term o);
  sa_weights : forall j k, (j < 6)%nat -> (k < ft_n (o_forcing_term o))%nat ->
    ft_weights (o_forcing_term o2) (6 * arm + j)%nat k = ft_weights (o_forcing_term o) (6 * arm + j)%nat k;
  sa_alpha : same_twist arm (o_alpha_y o) (o_alpha_y o2);
  sa_beta : same_twist arm (o_beta_y o) (o_beta_y o2);
  sa_start_y : same_pose arm (p_start_y (o_base o)) (p_start_y (o_base o2));
  sa_start_yd : same_twist arm (p_start_yd (o_base o)) (p_start_yd (o_base o2));
  sa_goal_y : same_pose arm (p_goal_y (o_base o)) (p_goal_y (o_base o2));
  sa_remembered : same_pose arm (remembered o) (remembered o2)
}.

Lemma same_pose_p arm y y2 : (arm <= 1)%nat -> same_pose arm y y2 ->
  arm_p arm (aget y2) = arm_p arm (aget y) /\ arm_q arm (aget y2) = arm_q arm (aget y).
Proof.
  intros Ha H. pose proof (fun j Hj => H j Hj) as G.
  destruct (arm_dec arm Ha) as [-> | ->]; unfold arm_p, arm_q, quat_of, slice;
    pose proof (H 0%nat ltac:(lia)); pose proof (H 1%nat ltac:(lia)); pose proof (H 2%nat ltac:(lia));
    pose proof (H 3%nat ltac:(lia)); pose proof (H 4%nat ltac:(lia)); pose proof (H 5%nat ltac:(lia));
    pose proof (H 6%nat ltac:(lia)); cbn in *; split; congruence.
Qed.

Lemma same_twist_v arm (v v2 : vec) : (arm <= 1)%nat ->
  (forall j, (j < 6)%nat -> v2 (6 * arm + j)%nat = v (6 * arm + j)%nat) ->
  arm_v arm v2 = arm_v arm v /\ arm_w arm v2 = arm_w arm v.
Proof.
  intros Ha H. destruct (arm_dec arm Ha) as [-> | ->]; unfold arm_v, arm_w, v3_of, slice;
    pose proof (H 0%nat ltac:(lia)); pose proof (H 1%nat ltac:(lia)); pose proof (H 2%nat ltac:(lia));
    pose proof (H 3%nat ltac:(lia)); pose proof (H 4%nat ltac:(lia)); pose proof (H 5%nat ltac:(lia));
    cbn in *; split; congruence.
Qed.

Lemma pose_from_parts arm (u u2 : vec) : (arm <= 1)%nat -> arm_p arm u2 = arm_p arm u -> arm_q arm u2 = arm_q arm u ->
  forall j, (j < 7)%nat -> u2 (7 * arm + j)%nat = u (7 * arm + j)%nat.
Proof.
  intros Ha H1 H2 j Hj. destruct (arm_dec arm Ha) as [-> | ->]; unfold arm_p, arm_q, quat_of, slice in *; cbn in *;
    injection H1; injection H2; intros;
    do 7 (destruct j as [|j]; [cbn; assumption|]); lia.
Qed.
Lemma twist_from_parts arm (u u2 : vec) : (arm <= 1)%nat -> arm_v arm u2 = arm_v arm u -> arm_w arm u2 = arm_w arm u ->
  forall j, (j < 6)%nat -> u2 (6 * arm + j)%nat = u (6 * arm + j)%nat.
Proof.
  intros Ha H1 H2 j Hj. destruct (arm_dec arm Ha) as [-> | ->]; unfold arm_v, arm_w, v3_of, slice in *; cbn in *;
    injection H1; injection H2; intros;
    do 6 (destruct j as [|j]; [cbn; assumption|]); lia.
Qed.

(** [beta_y] at the indices of the positions of an arm belongs to the same arm. *)
Lemma same_twist_shifted arm (v v2 : vec) : (arm <= 1)%nat ->
  (forall j, (j < 6)%nat -> v2 (6 * arm + j)%nat = v (6 * arm + j)%nat) -> arm_p arm v2 = arm_p arm v.
Proof.
  intros Ha H. destruct (arm_dec arm Ha) as [-> | ->]; unfold arm_p;
    pose proof (H 0%nat ltac:(lia)); pose proof (H 1%nat ltac:(lia)); pose proof (H 2%nat ltac:(lia));
    pose proof (H 3%nat ltac:(lia)); cbn in *; congruence.
Qed.

Lemma te_arm arm (c c2 l l2 : vec) : (arm <= 1)%nat ->
  arm_p arm c2 = arm_p arm c -> arm_q arm c2 = arm_q arm c ->
  arm_p arm l2 = arm_p arm l -> arm_q arm l2 = arm_q arm l ->
  arm_p arm (dual_tracking_error c2 l2) = arm_p arm (dual_tracking_error c l)
  /\ arm_q arm (dual_tracking_error c2 l2) = arm_q arm (dual_tracking_error c l).
Proof.
  intros Ha H1 H2 H3 H4.
  assert (E : forall c l, arm_p arm (dual_tracking_error c l) = v3_sub (arm_p arm c) (arm_p arm l)
    /\ arm_q arm (dual_tracking_error c l) = pr_mul (arm_q arm c) (pr_conj (arm_q arm l))).
  { intros. destruct (arm_dec arm Ha) as [-> | ->]; split; reflexivity. }
  destruct (E c l) as [-> ->]. destruct (E c2 l2) as [-> ->]. split; congruence.
Qed.

Lemma same_arm_params arm o o2 y y2 : (arm <= 1)%nat -> same_arm arm o o2 -> same_pose arm y y2 ->
  arm_params arm (dual_args o2 (dual_tracking_error (aget (remembered o2)) (aget y2)))
  = arm_params arm (dual_args o (dual_tracking_error (aget (remembered o)) (aget y))).
Proof.
  intros Ha [] Hy.
  destruct (same_pose_p _ _ _ Ha Hy) as [Y1 Y2].
  destruct (same_pose_p _ _ _ Ha sa_remembered0) as [M1 M2].
  destruct (same_pose_p _ _ _ Ha sa_start_y0) as [S1 S2].
  destruct (same_pose_p _ _ _ Ha sa_goal_y0) as [G1 G2].
  destruct (same_twist_v _ _ _ Ha sa_start_yd0) as [V1 V2].
  destruct (same_twist_v _ _ _ Ha sa_alpha0) as [A1 A2].
  destruct (same_twist_v _ _ _ Ha sa_beta0) as [B1 B2].
  pose proof (same_twist_shifted _ _ _ Ha sa_beta0) as B3.
  destruct (te_arm arm _ _ _ _ Ha M1 M2 Y1 Y2) as [T1 T2].
  assert (Ef : forall z, arm_v arm (ft_forces (o_forcing_term o2) z) = arm_v arm (ft_forces (o_forcing_term o) z)
     /\ arm_w arm (ft_forces (o_forcing_term o2) z) = arm_w arm (ft_forces (o_forcing_term o) z)).
  { intros z. apply same_twist_v; [exact Ha|]. intros j Hj. unfold ft_forces.
    rewrite sa_n0, sa_centers0, sa_widths0. f_equal. apply rsum_ext. intros k Hk. now rewrite sa_weights0. }
  unfold arm_params. cbn [dual_args step_args a_goal_y a_start_y a_start_yd a_alpha_y a_beta_y a_forcing_term
    a_goal_t a_start_t a_int_dt a_smooth_scaling a_p_gain a_tracking_error option_map].
  rewrite G1, G2, S1, S2, V1, V2, A1, A2, B1, B2, B3, T1, T2, sa_time0, sa_int_dt0, sa_smooth0, sa_gain0.
  f_equal.
  - apply functional_extensionality; intros z. apply Ef.
  - apply functional_extensionality; intros z. apply Ef.
  - apply functional_extensionality; intros z. unfold ft_phase. now rewrite sa_alpha_z0, sa_goal_t0, sa_start_t0.
Qed.

Lemma same_arm_step arm o o2 o' o2' : same_arm arm o o2 -> same_params o o' -> same_params o2 o2' ->
  p_t (o_base o2') = p_t (o_base o') -> same_pose arm (remembered o') (remembered o2') -> same_arm arm o' o2'.
Proof.
  intros [] (A1 & A2 & A3 & A4 & A5 & A6 & A7 & A8 & A9 & A10 & A11 & A12 & A13 & A14 & A15 & A16 & A17)
    (B1 & B2 & B3 & B4 & B5 & B6 & B7 & B8 & B9 & B10 & B11 & B12 & B13 & B14 & B15 & B16 & B17) Ht Hr.
  constructor; rewrite ?A7, ?B7, ?A8, ?B8, ?A9, ?B9, ?A12, ?B12, ?A13, ?B13, ?A15, ?B15; auto; congruence.
Qed.

(** Without coupling term, pose and velocity of one arm after any number of steps do
    not depend on anything that belongs to the other arm. *)
Theorem C38_steps : forall arm i n y yd y2 yd2 o o2 o' y' yd' o2' y2' yd2' u u' u2 u2',
  (arm <= 1)%nat -> dual_shapes o -> dual_shapes o2 -> same_arm arm o o2 ->
  same_pose arm y y2 -> same_twist arm yd yd2 ->
  dual_n_steps (CS := unit) None i n y yd u o = (o', u', Ok (y', yd')) ->
  dual_n_steps (CS := unit) None i n y2 yd2 u2 o2 = (o2', u2', Ok (y2', yd2')) ->
  same_pose arm y' y2' /\ same_twist arm yd' yd2' /\ same_arm arm o' o2'.
Proof.
  intros arm i n. induction n as [|n IH];
    intros y yd y2 yd2 o o2 o' y' yd' o2' y2' yd2' u u' u2 u2' Ha Hs Hs2 HA Hy Hyd E F.
  - cbn in E, F. injection E as <- <- <- <-. injection F as <- <- <- <-. auto.
  - cbn [dual_n_steps] in E, F.
    destruct (dual_step y yd None i u o) as [[o1 u1] [[y1 yd1]|e]] eqn:E1; [|discriminate].
    destruct (dual_step y2 yd2 None i u2 o2) as [[o3 u3] [[y3 yd3]|e]] eqn:F1; [|discriminate].
    destruct (dual_step_ok _ _ _ _ _ _ _ _ _ _ E1 Hs)
      as (L1 & L2 & Ef & L3 & L4 & Hp & Ht & Hini & Hc & _ & Hs1).
    destruct (dual_step_ok _ _ _ _ _ _ _ _ _ _ F1 Hs2)
      as (M1 & M2 & Ff & M3 & M4 & Hp2 & Ht2 & Hini2 & Hc2 & _ & Hs3).
    rewrite (sa_t _ _ _ HA), (sa_dt _ _ _ HA) in Ff.
    destruct (same_pose_p _ _ _ Ha Hy) as [Y1 Y2]. destruct (same_twist_v _ _ _ Ha Hyd) as [V1 V2].
    pose proof (dual_step_function_arm i _ _ arm (p_t (o_base o)) (p_t (o_base o) + o_dt o)
      (aget y, aget yd) (aget y2, aget yd2) u u2 Ha (same_arm_params _ _ _ _ _ Ha HA Hy)) as HS.
    rewrite Ef, Ff in HS. cbn [fst snd] in HS.
    destruct HS as (R1 & R2 & R3 & R4).
    { unfold arm_proj. now rewrite Y1, Y2, V1, V2. }
    assert (P1 : same_pose arm y1 y3) by (intros j Hj; now apply pose_from_parts).
    assert (P2 : same_twist arm yd1 yd3) by (intros j Hj; now apply twist_from_parts).
    eapply (IH y1 yd1 y3 yd3 o1 o3); [exact Ha|exact Hs1|exact Hs3| |exact P1|exact P2|exact E|exact F].
    apply (same_arm_step arm o o2); auto.
    + now rewrite Ht, Ht2, (sa_t _ _ _ HA), (sa_dt _ _ _ HA).
    + unfold remembered. rewrite Hini, Hini2, Hc, Hc2. exact P1.
Qed.

(** The same for [open_loop]. *)
Theorem C38_open_loop : forall arm i rt o o2 o' o2' ts ys ts2 ys2 u u' u2 u2',
  (arm <= 1)%nat -> dual_reachable o -> dual_reachable o2 -> same_arm arm o o2 -> 0 < o_dt o ->
  dual_open_loop (CS := unit) rt None (Some i) u o = (o', u', Ok (ts, ys)) ->
  dual_open_loop (CS := unit) rt None (Some i) u2 o2 = (o2', u2', Ok (ts2, ys2)) ->
  ts2 = ts /\ Forall2 (same_pose arm) ys ys2.
Proof.
  intros arm i rt o o2 o' o2' ts ys ts2 ys2 u u' u2 u2' Ha Hr Hr2 HA Hdt E F.
  apply dual_reachable_shapes in Hr. apply dual_reachable_shapes in Hr2.
  destruct (dual_open_loop_spec _ _ _ _ _ _ _ _ _ Hr E) as (n & L1 & L2 & T1 & T2 & T3 & H4 & _).
  destruct (dual_open_loop_spec _ _ _ _ _ _ _ _ _ Hr2 F) as (m & M1 & M2 & U1 & U2 & U3 & G4 & _).
  rewrite (sa_dt _ _ _ HA) in *.
  assert (Er : match rt with Some x => x | None => o_execution_time o2 end
             = match rt with Some x => x | None => o_execution_time o end)
    by (destruct rt; [reflexivity|apply (sa_time _ _ _ HA)]).
  rewrite Er in *.
  assert (Enm : m = n).
  { destruct (lt_eq_lt_dec m n) as [[Hlt|]|Hlt]; auto.
    - pose proof (T2 m Hlt). lra.
    - pose proof (U2 n Hlt). lra. }
  subst m. split.
  - apply (nth_ext _ _ 0 0); [congruence|]. intros k Hk. rewrite T1, U1 by lia. reflexivity.
  - assert (HN : forall k, (k <= n)%nat -> exists y y2, nth_error ys k = Some y /\ nth_error ys2 k = Some y2
      /\ same_pose arm y y2).
    { intros k Hk. destruct (H4 k Hk) as (p1 & v1 & y1 & yd1 & HS & HE).
      destruct (G4 k Hk) as (p2 & v2 & y2 & yd2 & GS & GE).
      exists y1, y2. split; [exact HE|]. split; [exact GE|].
      assert (HA0 : same_arm arm (at_time_zero o) (at_time_zero o2)) by (destruct HA; constructor; auto).
      eapply (C38_steps arm i k) with (8 := GS); [exact Ha| | | | | |exact HS].
      - exact Hr.
      - exact Hr2.
      - exact HA0.
      - exact (sa_start_y _ _ _ HA).
      - exact (sa_start_yd _ _ _ HA). }
    assert (HL : length ys = length ys2) by congruence.
    assert (HN' : forall k, (k < length ys)%nat -> exists y y2, nth_error ys k = Some y /\ nth_error ys2 k = Some y2
      /\ same_pose arm y y2) by (intros k Hk; apply HN; lia).
    clear -HL HN'. revert ys2 HL HN'. induction ys as [|y ys IH]; intros [|y2 ys2] HL HN; try discriminate; constructor.
    + destruct (HN 0%nat) as (a & b & Ea & Eb & H); [cbn; lia|]. cbn in Ea, Eb. now injection Ea as <-; injection Eb as <-.
    + apply IH; [cbn in HL; congruence|]. intros k Hk. apply (HN (S k)). cbn. lia.
Qed.
