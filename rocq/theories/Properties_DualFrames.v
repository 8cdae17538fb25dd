(** C136 (a coupled pair of arms does not depend on the world frame). *)
From Coq Require Import Reals List Arith Bool Lia Lra FunctionalExtensionality.
From Verif Require Import M_Prelude M_Canonical M_Forcing M_Dmp M_Base M_DmpObject M_Quaternion M_Ridge M_Cartesian
  M_Dual M_Rigid M_Coupling S_Loops S_Rotation S_Rigid S_Frames P_Loops P_Canonical P_Forcing P_Quaternion P_Cartesian P_Rigid P_Components
  P_Dual P_DmpObject P_DualObject P_DmpAffine P_DmpScale P_Frames Properties_Forcing Properties_Cartesian Properties_Coupling
  Properties_PoseCoupling Properties_DualObject Properties_DualRuns Properties_CoupledRuns Properties_Frames
  Properties_Equivariance Properties_DualReproduction.
Import ListNotations.
Open Scope R_scope.
Set Bullet Behavior "Strict Subproofs".

(** ** Specification *)
(** [y'] are the poses of both arms [y] after the world frame was turned by [l] and
    shifted by [p]. *)
Definition both_moved (l : quat) (p : v3) (y y' : vec) : Prop := forall arm, (arm <= 1)%nat ->
  arm_p arm y' = v3_add p (rotate l (arm_p arm y)) /\ arm_q arm y' = hamilton l (arm_q arm y).
(** [v'] are the velocities (or accelerations, or weights) of both arms [v] after that. *)
Definition both_turned (l : quat) (v v' : vec) : Prop := forall arm, (arm <= 1)%nat ->
  arm_v arm v' = rotate l (arm_v arm v) /\ arm_w arm v' = rotate l (arm_w arm v).

(** The coupling term [c'] does in the moved world what [c] does. *)
Definition moved_term {CS} (l : quat) (p : v3) (c c' : stateful_coupling CS) : Prop := forall cs y y' v v',
  proper y -> both_moved l p y y' -> both_turned l v v' ->
  let '(cs1, (cd, cdd)) := c cs y v in
  let '(cs1', (cd', cdd')) := c' cs y' v' in
  cs1' = cs1 /\ both_turned l cd cd' /\ both_turned l cdd cdd'.

(** ** The coupling terms *)
Lemma moved_proper l p y y' : unit_quat l -> proper y -> both_moved l p y y' -> proper y'.
Proof.
  intros Hl [H1 H2] H. destruct (H 0%nat ltac:(lia)) as [_ E0], (H 1%nat ltac:(lia)) as [_ E1].
  split.
  - change (orientation_of 3 y') with (arm_q 0 y'). rewrite E0. now apply hamilton_unit.
  - change (orientation_of 10 y') with (arm_q 1 y'). rewrite E1. now apply hamilton_unit.
Qed.

Definition world (l : quat) (p : v3) : rigid := Rigid (matrix_of_unit l) p.

Lemma moved_left l p y y' : unit_quat l -> proper y -> both_moved l p y y' ->
  left_pose y' = rigid_mul (world l p) (left_pose y).
Proof.
  intros Hl [H1 _] H. destruct (H 0%nat ltac:(lia)) as [P Q].
  unfold left_pose, rigid_mul, world. cbn [r_rot r_pos].
  change (orientation_of 3 y') with (arm_q 0 y'). change (entries 0 y') with (arm_p 0 y'). rewrite P, Q.
  rewrite matrix_hamilton by auto. rewrite matrix_rotate by auto. f_equal.
  change (entries 0 y) with (arm_p 0 y). generalize (rotate l (arm_p 0 y)). intros u. apply v3_eq; cbn; ring.
Qed.
Lemma moved_right l p y y' : unit_quat l -> proper y -> both_moved l p y y' ->
  right_pose y' = rigid_mul (world l p) (right_pose y).
Proof.
  intros Hl [_ H1] H. destruct (H 1%nat ltac:(lia)) as [P Q].
  unfold right_pose, rigid_mul, world. cbn [r_rot r_pos].
  change (orientation_of 10 y') with (arm_q 1 y'). change (entries 7 y') with (arm_p 1 y'). rewrite P, Q.
  rewrite matrix_hamilton by auto. rewrite matrix_rotate by auto. f_equal.
  change (entries 7 y) with (arm_p 1 y). generalize (rotate l (arm_p 1 y)). intros u. apply v3_eq; cbn; ring.
Qed.

Lemma same_relative_pose l p y y' : unit_quat l -> proper y -> both_moved l p y y' ->
  rigid_mul (pt_invert (left_pose y')) (right_pose y') = rigid_mul (pt_invert (left_pose y)) (right_pose y).
Proof.
  intros Hl Hp H. pose proof (moved_left l p y y' Hl Hp H) as EL. pose proof (moved_right l p y y' Hl Hp H) as ER.
  pose proof (moved_proper l p y y' Hl Hp H) as Hp'.
  rewrite ER. replace (right_pose y) with (rigid_mul (left_pose y) (rigid_mul (pt_invert (left_pose y)) (right_pose y))) at 1
    by (rewrite <- rigid_mul_assoc, rigid_inv_r, rigid_mul_1_l by (now apply left_rigid); reflexivity).
  rewrite <- (rigid_mul_assoc (world l p)), <- EL.
  rewrite <- rigid_mul_assoc, rigid_inv_l, rigid_mul_1_l by now apply left_rigid. reflexivity.
Qed.

(** The relative pose that a trajectory coupling learns and compares is the same. *)
Lemma right2left_moved l p y y' : unit_quat l -> proper y -> both_moved l p y y' -> right2left_pq y' = right2left_pq y.
Proof.
  intros Hl Hp H. rewrite !right2left_eq by eauto using moved_proper. now rewrite (same_relative_pose l p y y').
Qed.

Lemma couple_part_moved l p sp flag L e vl vr : unit_quat l ->
  couple_part sp flag (rigid_mul (world l p) L) e (rotate l vl) (rotate l vr)
  = (let '((a, b), (c, d)) := couple_part sp flag L e vl vr in ((rotate l a, rotate l b), (rotate l c, rotate l d))).
Proof.
  intros Hl. unfold couple_part, pt_direction, rigid_mul, world. cbn [r_rot r_pos].
  rewrite !m3_app_mul, !(matrix_rotate l) by auto.
  destruct flag; now rewrite <- ?rotate_scale, <- ?rotate_sub, <- ?rotate_scale, <- ?rotate_sub, <- ?rotate_scale.
Qed.

Lemma turned_vec12 l a b c d : both_turned l (vec12 a b c d) (vec12 (rotate l a) (rotate l b) (rotate l c) (rotate l d)).
Proof.
  intros arm Ha. assert (E : forall u, V3 (v3x u) (v3y u) (v3z u) = u) by now intros [].
  destruct (arm_dec arm Ha) as [-> | ->]; unfold arm_v, arm_w, v3_of, slice, vec12, vec6, vec_of_v3; cbn; rewrite !E;
    split; (f_equal; try (now destruct a); try (now destruct b); try (now destruct c); now destruct d) || idtac.
Qed.

Lemma couple_distance_moved l p sp cp co desired y y' v v' : unit_quat l -> proper y -> both_moved l p y y' ->
  both_turned l v v' ->
  both_turned l (fst (couple_distance sp cp co desired y v)) (fst (couple_distance sp cp co desired y' v'))
  /\ both_turned l (snd (couple_distance sp cp co desired y v)) (snd (couple_distance sp cp co desired y' v')).
Proof.
  intros Hl Hp H Hv. pose proof (moved_proper l p y y' Hl Hp H) as Hp'.
  change (couple_distance sp cp co desired) with (pose_coupling sp cp co desired).
  rewrite !couple_distance_eq by auto. unfold position_error, orientation_error.
  rewrite (same_relative_pose l p y y') by auto. rewrite (moved_left l p y y') by auto.
  destruct (Hv 0%nat ltac:(lia)) as [V0 W0], (Hv 1%nat ltac:(lia)) as [V1 W1].
  change (entries 0 v') with (arm_v 0 v'). change (entries 6 v') with (arm_v 1 v').
  change (entries 3 v') with (arm_w 0 v'). change (entries 9 v') with (arm_w 1 v'). rewrite V0, V1, W0, W1.
  rewrite !couple_part_moved by auto.
  change (arm_v 0 v) with (entries 0 v). change (arm_v 1 v) with (entries 6 v).
  change (arm_w 0 v) with (entries 3 v). change (arm_w 1 v) with (entries 9 v).
  destruct (couple_part sp cp _ _ _ _) as [[a b] [c d]]. destruct (couple_part sp co _ _ _ _) as [[a' b'] [c' d']].
  cbn [fst snd]. split; apply turned_vec12.
Qed.

(** CouplingTermDualCartesianPose. *)
Theorem C136_pose : forall l p sp couple_position couple_orientation desired, unit_quat l ->
  moved_term l p (stateless (pose_coupling sp couple_position couple_orientation desired))
                 (stateless (pose_coupling sp couple_position couple_orientation desired)).
Proof.
  intros l p sp cp co desired Hl cs y y' v v' Hp H Hv. unfold stateless.
  destruct (couple_distance_moved l p sp cp co desired y y' v v' Hl Hp H Hv) as [A B].
  change (couple_distance sp cp co desired) with (pose_coupling sp cp co desired) in A, B.
  destruct (pose_coupling sp cp co desired y v), (pose_coupling sp cp co desired y' v'). cbn [fst snd] in A, B. auto.
Qed.

(** CouplingTermDualCartesianTrajectory: the demonstrated trajectory of the two arms may
    itself be given in any other world frame. *)
Theorem C136_trajectory : forall l p l2 p2 sp couple_position couple_orientation n T Y Y' offset dt,
  unit_quat l -> unit_quat l2 -> (1 <= n)%nat ->
  (forall j, (j < n)%nat -> proper (Y j) /\ both_moved l2 p2 (Y j) (Y' j)) ->
  moved_term l p (trajectory_coupling sp couple_position couple_orientation n T Y offset dt)
                 (trajectory_coupling sp couple_position couple_orientation n T Y' offset dt).
Proof.
  intros l p l2 p2 sp cp co n T Y Y' off dt Hl Hl2 Hn HY t y y' v v' Hp H Hv. unfold trajectory_coupling.
  assert (E : (fun d => interp1d n T (fun j => pq7 (right2left_pq (Y' j)) d) t + off d)
            = (fun d => interp1d n T (fun j => pq7 (right2left_pq (Y j)) d) t + off d)).
  { apply functional_extensionality. intros d. f_equal. unfold interp1d. cbv zeta.
    set (hi := Nat.min (n - 1) _). assert (Hh : (hi <= n - 1)%nat) by apply Nat.le_min_l.
    destruct (HY hi ltac:(lia)) as [A1 A2], (HY (hi - 1)%nat ltac:(lia)) as [B1 B2].
    now rewrite (right2left_moved _ _ _ _ Hl2 A1 A2), (right2left_moved _ _ _ _ Hl2 B1 B2). }
  cbv zeta. rewrite E. set (des := pt_transform_from_pq _ _).
  destruct (couple_distance_moved l p sp cp co des y y' v v' Hl Hp H Hv) as [A B].
  destruct (couple_distance sp cp co des y v), (couple_distance sp cp co des y' v'). cbn [fst snd] in A, B. auto.
Qed.

(** CouplingTermDualCartesianDistance.  (Both positions the same: the code returns NaN in
    both worlds.) *)
Theorem C136_distance : forall l p sp desired_distance, unit_quat l ->
  moved_term l p (stateless (dual_distance_coupling sp desired_distance))
                 (stateless (dual_distance_coupling sp desired_distance)).
Proof.
  intros l p sp dd Hl cs y y' v v' Hp H Hv. unfold stateless, dual_distance_coupling, spring_forces.
  rewrite !v3_of_slice. cbv zeta. cbn [fst snd].
  change (entries 0 y') with (arm_p 0 y'). change (entries 7 y') with (arm_p 1 y').
  change (entries 0 y) with (arm_p 0 y). change (entries 7 y) with (arm_p 1 y).
  destruct (H 0%nat ltac:(lia)) as [-> _], (H 1%nat ltac:(lia)) as [-> _].
  set (u := v3_sub (arm_p 0 y) (arm_p 1 y)).
  assert (E : v3_sub (v3_add p (rotate l (arm_p 0 y))) (v3_add p (rotate l (arm_p 1 y))) = rotate l u).
  { unfold u. rewrite rotate_sub. generalize (rotate l (arm_p 0 y)), (rotate l (arm_p 1 y)).
    intros a b. apply v3_eq; cbn; ring. }
  rewrite E, rotate_norm by auto.
  rewrite <- !rotate_scale, <- rotate_divs, <- rotate_sub, <- !rotate_scale.
  assert (Z : v3_zero = rotate l v3_zero) by (symmetry; apply rotate_zero).
  split; [reflexivity|]. split.
  - rewrite Z at 3 4. apply turned_vec12.
  - rewrite Z at 3 4. apply turned_vec12.
Qed.

(** ** One arm *)
Record arm_moved (l : quat) (p : v3) (A A' : arm_par) : Prop := {
  am_goal : ap_goal A' = v3_add p (rotate l (ap_goal A)); am_goal_q : ap_goal_q A' = hamilton l (ap_goal_q A);
  am_start : ap_start A' = v3_add p (rotate l (ap_start A)); am_start_q : ap_start_q A' = hamilton l (ap_start_q A);
  am_start_v : ap_start_v A' = rotate l (ap_start_v A); am_start_w : ap_start_w A' = rotate l (ap_start_w A);
  am_alpha : turns l (ap_alpha A') (ap_alpha A); am_alpha_w : turns l (ap_alpha_w A') (ap_alpha_w A);
  am_beta : turns l (ap_beta A') (ap_beta A); am_beta_s : turns l (ap_beta_s A') (ap_beta_s A);
  am_beta_w : turns l (ap_beta_w A') (ap_beta_w A);
  am_f : forall z, ap_f A' z = rotate l (ap_f A z); am_fw : forall z, ap_fw A' z = rotate l (ap_fw A z);
  am_phase : forall t, ap_phase A' t = ap_phase A t;
  am_goal_t : ap_goal_t A' = ap_goal_t A; am_start_t : ap_start_t A' = ap_start_t A;
  am_int_dt : ap_int_dt A' = ap_int_dt A; am_smooth : ap_smooth A' = ap_smooth A;
  am_gain : ap_gain A = 0; am_gain' : ap_gain A' = 0;
  am_unit : unit_quat (ap_goal_q A) /\ unit_quat (ap_start_q A) }.

Record state_moved (l : quat) (p : v3) (s s' : arm_state) : Prop := {
  sm_p : as_p s' = v3_add p (rotate l (as_p s)); sm_q : as_q s' = hamilton l (as_q s);
  sm_v : as_v s' = rotate l (as_v s); sm_w : as_w s' = rotate l (as_w s);
  sm_c : as_c s' = rotate l (as_c s); sm_cw : as_cw s' = rotate l (as_cw s);
  sm_unit : unit_quat (as_q s) }.

Lemma sub_shift p a b : v3_sub (v3_add p a) (v3_add p b) = v3_sub a b.
Proof. apply v3_eq; cbn; ring. Qed.
Lemma no_feedback (x : v3) dt : v3_divs (v3_scale 0 x) dt = v3_zero.
Proof. apply v3_eq; cbn; unfold Rdiv; ring. Qed.
Lemma add_zero x : v3_add x v3_zero = x.
Proof. apply v3_eq; cbn; ring. Qed.

Lemma arm_step_moved l p i A A' cur dt cd cdw cdd cddw s s' : unit_quat l -> arm_moved l p A A' -> state_moved l p s s' ->
  state_moved l p (arm_step i A cur dt cd cdw cdd cddw s)
    (arm_step i A' cur dt (rotate l cd) (rotate l cdw) (rotate l cdd) (rotate l cddw) s').
Proof.
  intros Hl [G1 G2 S1 S2 S3 S4 A1 A2 B1 B2 B3 F1 F2 Ph T1 T2 I1 Sm K K' [U1 U2]] [P Q V W C CW U].
  assert (FB : forall (B : arm_par), ap_gain B = 0 -> match ap_te B with
       | None => v3_zero | Some (te, _) => v3_divs (v3_scale (ap_gain B) te) dt end = v3_zero).
  { intros B ->. destruct (ap_te B) as [[? ?]|]; auto using no_feedback. }
  assert (FW : forall (B : arm_par), ap_gain B = 0 -> match ap_te B with
       | None => v3_zero | Some (_, te) => v3_divs (v3_scale (ap_gain B) (i_log i te)) dt end = v3_zero).
  { intros B ->. destruct (ap_te B) as [[? ?]|]; auto using no_feedback. }
  set (z := ap_phase A cur).
  set (tau := ap_goal_t A - ap_start_t A).
  assert (SM : (if ap_smooth A' then v3_mul (v3_mul (ap_beta_s A') (v3_sub (ap_goal A') (ap_start A'))) (V3 z z z) else v3_zero)
    = rotate l (if ap_smooth A then v3_mul (v3_mul (ap_beta_s A) (v3_sub (ap_goal A) (ap_start A))) (V3 z z z) else v3_zero)).
  { rewrite Sm. destruct (ap_smooth A); [|now rewrite rotate_zero].
    rewrite G1, S1, sub_shift, <- rotate_sub, B2.
    assert (M : forall x, v3_mul x (V3 z z z) = v3_scale z x) by (intros x; apply v3_eq; cbn; ring).
    now rewrite !M, rotate_scale. }
  assert (SW : (if ap_smooth A' then v3_mul (v3_scale z (ap_beta_w A')) (q_error i (ap_goal_q A') (ap_start_q A')) else v3_zero)
    = rotate l (if ap_smooth A then v3_mul (v3_scale z (ap_beta_w A)) (q_error i (ap_goal_q A) (ap_start_q A)) else v3_zero)).
  { rewrite Sm. destruct (ap_smooth A); [|now rewrite rotate_zero].
    rewrite G2, S2, q_error_left by auto.
    assert (M : forall g x, v3_mul (v3_scale z g) x = v3_scale z (v3_mul g x)) by (intros g x; apply v3_eq; cbn; ring).
    now rewrite !M, B3, rotate_scale. }
  unfold arm_step. cbv zeta. rewrite !FB, !FW by auto. rewrite !add_zero, T1, T2, Ph. fold z tau. rewrite SM, SW.
  set (sm := if ap_smooth A then _ else _). set (smw := if ap_smooth A then v3_mul (v3_scale z (ap_beta_w A)) _ else _).
  clearbody sm smw.
  rewrite F1, F2, P, Q, V, W, G1, G2, sub_shift, q_error_left by auto.
  rewrite <- rotate_sub, B1, B3, <- !(rotate_scale l tau), <- !rotate_sub, A1, A2, <- !rotate_add, <- !rotate_divs,
    <- !rotate_scale, <- !rotate_add.
  set (v := v3_add (as_v s) _). set (w := v3_add (as_w s) _).
  constructor; cbn [as_p as_q as_v as_w as_c as_cw]; auto.
  - rewrite rotate_add, rotate_scale. generalize (rotate l (as_p s)), (rotate l v). intros a b.
    apply v3_eq; cbn; ring.
  - rewrite <- rotate_scale, !i_mul_unit by auto using hamilton_unit, i_exp_unit.
    rewrite exp_conjugated by auto. now apply conjugated_mul.
  - now apply i_mul_exp_unit.
Qed.

(** ** Both arms *)
Definition terms_moved {CS} (l : quat) (p : v3) (c c' : option (stateful_coupling CS)) : Prop :=
  match c, c' with None, None => True | Some c, Some c' => moved_term l p c c' | _, _ => False end.

Definition pair_moved {CS} (l : quat) (p : v3) (x x' : (vec * vec) * vec * CS) : Prop :=
  snd x' = snd x /\ forall arm, (arm <= 1)%nat -> state_moved l p (arm_proj arm x) (arm_proj arm x').

Lemma dual_body_moved {CS} l p i a a' (c c' : option (stateful_coupling CS)) cur dt x x' : unit_quat l ->
  (forall arm, (arm <= 1)%nat -> arm_moved l p (arm_params arm a) (arm_params arm a')) -> terms_moved l p c c' ->
  pair_moved l p x x' -> pair_moved l p (dual_body i a c cur dt x) (dual_body i a' c' cur dt x').
Proof.
  intros Hl Ha Hc [Es Hx]. destruct x as [[[y yd] cdd] cs], x' as [[[y' yd'] cdd'] cs']. cbn [snd] in Es. subst cs'.
  assert (Hp : proper y).
  { split; [exact (sm_unit _ _ _ _ (Hx 0%nat ltac:(lia)))|exact (sm_unit _ _ _ _ (Hx 1%nat ltac:(lia)))]. }
  assert (Hy : both_moved l p y y') by (intros arm H; destruct (Hx arm H); auto).
  assert (Hv : both_turned l yd yd') by (intros arm H; destruct (Hx arm H); auto).
  assert (Hd : both_turned l cdd cdd') by (intros arm H; destruct (Hx arm H); auto).
  assert (Z : both_turned l vzero vzero).
  { intros arm _. assert (E : arm_v arm vzero = v3_zero /\ arm_w arm vzero = v3_zero).
    { split; [reflexivity|]. unfold arm_w, v3_of, slice. cbn. reflexivity. }
    destruct E as [-> ->]. now rewrite rotate_zero. }
  assert (HC : both_turned l (fst (match c with Some c => snd (c cs y yd)
                      | None => (vzero, match i with Python => cdd | Cython => vzero end) end))
                (fst (match c' with Some c => snd (c cs y' yd')
                      | None => (vzero, match i with Python => cdd' | Cython => vzero end) end))
     /\ both_turned l (snd (match c with Some c => snd (c cs y yd)
                      | None => (vzero, match i with Python => cdd | Cython => vzero end) end))
                (snd (match c' with Some c => snd (c cs y' yd')
                      | None => (vzero, match i with Python => cdd' | Cython => vzero end) end))
     /\ snd (dual_body i a' c' cur dt ((y', yd'), cdd', cs)) = snd (dual_body i a c cur dt ((y, yd), cdd, cs))).
  { unfold dual_body. destruct c as [c|], c' as [c'|]; cbn in Hc; try tauto.
    - specialize (Hc cs y y' yd yd' Hp Hy Hv). destruct (c cs y yd) as [cs1 [cd1 cdd1]], (c' cs y' yd') as [cs2 [cd2 cdd2]].
      cbn [fst snd]. destruct Hc as (A & B & C). auto.
    - cbn [fst snd]. split; [exact Z|]. split; [destruct i; auto|reflexivity]. }
  destruct HC as (C1 & C2 & C3). split; [exact C3|].
  intros arm H. rewrite !dual_body_arm by auto. cbv zeta.
  destruct (match c with Some c => _ | None => _ end) as [cd1 cdd1]. destruct (match c' with Some c => _ | None => _ end) as [cd2 cdd2].
  cbn [fst snd] in C1, C2. destruct (C1 arm H) as [-> ->], (C2 arm H) as [-> ->]. apply arm_step_moved; auto.
Qed.

Lemma dual_step_function_moved {CS} l p i a a' (c c' : option (stateful_coupling CS)) lt t y yd y' yd' cs : unit_quat l ->
  (forall arm, (arm <= 1)%nat -> arm_moved l p (arm_params arm a) (arm_params arm a')) -> terms_moved l p c c' ->
  proper y -> both_moved l p y y' -> both_turned l yd yd' ->
  match dual_step_function i a c lt t (y, yd) cs, dual_step_function i a' c' lt t (y', yd') cs with
  | Ok ((y1, yd1), cs1), Ok ((y2, yd2), cs2) => cs2 = cs1 /\ proper y1 /\ both_moved l p y1 y2 /\ both_turned l yd1 yd2
  | Err e, Err e' => e = e'
  | _, _ => False
  end.
Proof.
  intros Hl Ha Hc Hp Hy Hv. unfold dual_step_function.
  assert (E1 : a_start_t a' = a_start_t a) by exact (am_start_t _ _ _ _ (Ha 0%nat ltac:(lia))).
  assert (E2 : a_int_dt a' = a_int_dt a) by exact (am_int_dt _ _ _ _ (Ha 0%nat ltac:(lia))).
  rewrite E1, E2.
  set (s0 := if Rle_dec t (a_start_t a) then (a_start_y a, a_start_yd a) else (y, yd)).
  set (s0' := if Rle_dec t (a_start_t a) then (a_start_y a', a_start_yd a') else (y', yd')).
  assert (H0 : pair_moved l p (s0, vzero, cs) (s0', vzero, cs)).
  { split; [reflexivity|]. intros arm H. specialize (Ha arm H). destruct Ha. cbn in *.
    assert (E : arm_v arm vzero = v3_zero /\ arm_w arm vzero = v3_zero)
      by (split; [reflexivity|unfold arm_w, v3_of, slice; cbn; reflexivity]).
    destruct E as [X1 X2]. unfold s0, s0'.
    destruct (Rle_dec t (a_start_t a)); constructor; cbn [arm_proj as_p as_q as_v as_w as_c as_cw]; rewrite ?X1, ?X2, ?rotate_zero;
      auto; try tauto; try (now apply Hy); try (now apply Hv).
    destruct Hp. destruct (arm_dec arm H) as [-> | ->]; assumption. }
  pose proof (substeps_rel_any (pair_moved l p) (dual_body i a c) (dual_body i a' c')
    (fun c0 d x x' Hx => dual_body_moved l p i a a' c c' c0 d x x' Hl Ha Hc Hx)
    (substeps_fuel lt t (a_int_dt a)) lt t (a_int_dt a) _ _ H0) as HR.
  destruct (substeps _ _ _ _ (dual_body i a c) _) as [[[[y1 yd1] cdd1] c1]|e];
    destruct (substeps _ _ _ _ (dual_body i a' c') _) as [[[[y2 yd2] cdd2] c2]|e2]; try tauto; cbn [rmap fst snd].
  destruct HR as [HE HR]. cbn in HE. split; [exact HE|]. split.
  - split; [exact (sm_unit _ _ _ _ (HR 0%nat ltac:(lia)))|exact (sm_unit _ _ _ _ (HR 1%nat ltac:(lia)))].
  - split; intros arm H; destruct (HR arm H); auto.
Qed.

(** ** Objects *)
(** [o'] is the DualCartesianDMP [o] in the moved world: start and goal are moved, start
    velocities and the weights of each basis function are turned. *)
Record dual_moved (l : quat) (p : v3) (o o' : dmp) : Prop := {
  dm_start : both_moved l p (aget (p_start_y (o_base o))) (aget (p_start_y (o_base o')));
  dm_goal : both_moved l p (aget (p_goal_y (o_base o))) (aget (p_goal_y (o_base o')));
  dm_velocity : both_turned l (aget (p_start_yd (o_base o))) (aget (p_start_yd (o_base o')));
  dm_weights : forall i, (i < o_n_weights_per_dim o)%nat ->
    both_turned l (fun d => ft_weights (o_forcing_term o) d i) (fun d => ft_weights (o_forcing_term o') d i) }.

(** The same gains everywhere (the default). *)
Definition uniform_gains (ka kb : R) (o : dmp) : Prop :=
  forall d, (d < 12)%nat -> aget (o_alpha_y o) d = ka /\ aget (o_beta_y o) d = kb.

Definition goal_and_start_proper (o : dmp) : Prop :=
  proper (aget (p_start_y (o_base o))) /\ proper (aget (p_goal_y (o_base o))).

(** The second run is the first one in the moved world. *)
Definition moved_dual_runs (l : quat) (p : v3) (r r' : res (list R * list arr)) : Prop :=
  match r, r' with
  | Ok (ts, ys), Ok (ts', ys') => ts' = ts /\ length ys' = length ys
      /\ forall k, (k < length ys)%nat -> both_moved l p (aget (nth k ys (zeros 14))) (aget (nth k ys' (zeros 14)))
  | Err e, Err e' => e' = e
  | _, _ => False
  end.

Lemma turns_uniform l k : turns l (V3 k k k) (V3 k k k).
Proof.
  intros x. assert (M : forall u, v3_mul (V3 k k k) u = v3_scale k u) by (intros u; apply v3_eq; cbn; ring).
  now rewrite !M, rotate_scale.
Qed.

Lemma forces_turned l f f' z :
  ft_n f' = ft_n f ->
  (forall i, (i < ft_n f)%nat -> ft_centers f' i = ft_centers f i /\ ft_widths f' i = ft_widths f i) ->
  (forall i, (i < ft_n f)%nat -> both_turned l (fun d => ft_weights f d i) (fun d => ft_weights f' d i)) ->
  ft_goal_t f' = ft_goal_t f -> ft_start_t f' = ft_start_t f -> ft_alpha_z f' = ft_alpha_z f ->
  both_turned l (ft_forces f z) (ft_forces f' z).
Proof.
  intros En Hb Hw Eg Es Ea arm Ha.
  set (block off (g : forcing_term) := set_ft_weights (fun d i => ft_weights g (off + d)%nat i) g).
  assert (K : forall off, (forall i, (i < ft_n f)%nat ->
      v3_of (fun d => ft_weights f' (off + d)%nat i) = rotate l (v3_of (fun d => ft_weights f (off + d)%nat i))) ->
     v3_of (ft_forces (block off f') z) = rotate l (v3_of (ft_forces (block off f) z))).
  { intros off H. apply drel_rotate. apply ft_forces_aff. unfold ft_aff, block. cbn.
    repeat split; auto; try (now apply Hb). intros i Hi. apply drel_rotate. now apply H. }
  split.
  - destruct (arm_dec arm Ha) as [-> | ->]; [apply (K 0%nat)|apply (K 6%nat)]; intros i Hi; destruct (Hw i Hi _ Ha) as [X _]; exact X.
  - destruct (arm_dec arm Ha) as [-> | ->]; [apply (K 3%nat)|apply (K 9%nat)]; intros i Hi; destruct (Hw i Hi _ Ha) as [_ X]; exact X.
Qed.

Lemma args_moved l p ka kb o o' te te' : dual_reachable o -> dual_reachable o' -> same_dual_settings o o' ->
  ft_goal_t (o_forcing_term o') = ft_goal_t (o_forcing_term o) -> o_p_gain o = 0 -> o_p_gain o' = 0 ->
  uniform_gains ka kb o -> uniform_gains ka kb o' -> goal_and_start_proper o -> dual_moved l p o o' ->
  forall arm, (arm <= 1)%nat -> arm_moved l p (arm_params arm (dual_args o te)) (arm_params arm (dual_args o' te')).
Proof.
  intros Hr Hr' (S1 & S2 & S3 & S4 & S5) Eg G G' U U' [Q1 Q2] [M1 M2 M3 M4] arm Ha.
  destruct (dual_ft_made o Hr) as (g & j & f & w & E0 & Ek). destruct (dual_ft_made o' Hr') as (g' & j' & f' & w' & E0' & Ek').
  pose proof (forcing_term_init_n _ _ _ _ _ _ _ _ E0) as (N1 & N2 & N3 & N4 & N5 & _).
  pose proof (forcing_term_init_n _ _ _ _ _ _ _ _ E0') as (R1 & R2 & R3 & R4 & R5 & _).
  assert (Egg : g' = g) by (rewrite Ek, Ek' in Eg; cbn in Eg; congruence). rewrite Egg, S4 in E0'. rewrite Egg in R2.
  assert (HF : forall z, both_turned l (ft_forces (o_forcing_term o) z) (ft_forces (o_forcing_term o') z)).
  { intros z. apply forces_turned; rewrite ?Ek, ?Ek'; cbn; try congruence.
    - intros i Hi. rewrite N1 in Hi. destruct (C02_fully_initialised _ _ _ _ _ _ _ _ _ _ _ E0' E0 i Hi). auto.
    - rewrite N1. intros i Hi. specialize (M4 i Hi). rewrite Ek, Ek' in M4. exact M4. }
  assert (HG : forall d, (d < 12)%nat -> aget (o_alpha_y o) d = ka /\ aget (o_beta_y o) d = kb
      /\ aget (o_alpha_y o') d = ka /\ aget (o_beta_y o') d = kb)
    by (intros d Hd; destruct (U d Hd), (U' d Hd); auto).
  constructor; cbn [arm_params ap_goal ap_goal_q ap_start ap_start_q ap_start_v ap_start_w ap_alpha ap_alpha_w ap_beta
    ap_beta_s ap_beta_w ap_f ap_fw ap_phase ap_goal_t ap_start_t ap_int_dt ap_smooth ap_gain ap_te dual_args step_args
    a_goal_y a_start_y a_start_yd a_alpha_y a_beta_y a_forcing_term a_goal_t a_start_t a_int_dt a_smooth_scaling a_p_gain];
    try (now apply M1); try (now apply M2); try (now apply M3); auto.
  - replace (arm_v arm (aget (o_alpha_y o'))) with (V3 ka ka ka); [replace (arm_v arm (aget (o_alpha_y o))) with (V3 ka ka ka)|];
      [apply turns_uniform|..]; unfold arm_v; f_equal; symmetry; apply HG; lia.
  - replace (arm_w arm (aget (o_alpha_y o'))) with (V3 ka ka ka); [replace (arm_w arm (aget (o_alpha_y o))) with (V3 ka ka ka)|];
      [apply turns_uniform|..]; unfold arm_w, v3_of, slice; cbn [Nat.ltb Nat.leb]; f_equal; symmetry; apply HG; lia.
  - replace (arm_v arm (aget (o_beta_y o'))) with (V3 kb kb kb); [replace (arm_v arm (aget (o_beta_y o))) with (V3 kb kb kb)|];
      [apply turns_uniform|..]; unfold arm_v; f_equal; symmetry; apply HG; lia.
  - replace (arm_p arm (aget (o_beta_y o'))) with (V3 kb kb kb); [replace (arm_p arm (aget (o_beta_y o))) with (V3 kb kb kb)|];
      [apply turns_uniform|..]; unfold arm_p; f_equal; symmetry; apply HG; lia.
  - replace (arm_w arm (aget (o_beta_y o'))) with (V3 kb kb kb); [replace (arm_w arm (aget (o_beta_y o))) with (V3 kb kb kb)|];
      [apply turns_uniform|..]; unfold arm_w, v3_of, slice; cbn [Nat.ltb Nat.leb]; f_equal; symmetry; apply HG; lia.
  - intros z. now apply HF.
  - intros z. now apply HF.
  - intros t. rewrite Ek, Ek'. unfold ft_phase. cbn [set_ft_weights ft_goal_t ft_start_t ft_alpha_z].
    now rewrite N2, N3, N5, R2, R3, R5.
  - destruct Q1, Q2. destruct (arm_dec arm Ha) as [-> | ->]; split; assumption.
Qed.

Lemma same_params_settings o o1 : same_params o o1 ->
  same_dual_settings o o1 /\ ft_goal_t (o_forcing_term o1) = ft_goal_t (o_forcing_term o) /\ o_p_gain o1 = o_p_gain o.
Proof. intros (A1 & A2 & A3 & A4 & A5 & A6 & A7 & _). unfold same_dual_settings. rewrite A7. auto 10. Qed.

Lemma dual_go_moved {CS} l p rt i (c c' : option (stateful_coupling CS)) (o0 o0' : dmp) : unit_quat l ->
  o_dt o0' = o_dt o0 -> o_p_gain o0 = 0 -> o_p_gain o0' = 0 ->
  (forall te te' arm, (arm <= 1)%nat -> arm_moved l p (arm_params arm (dual_args o0 te)) (arm_params arm (dual_args o0' te'))) ->
  terms_moved l p c c' ->
  forall fuel y yd y' yd' (cs : CS) o o',
  dual_shapes o -> dual_shapes o' -> same_params o0 o -> same_params o0' o' -> p_t (o_base o') = p_t (o_base o) ->
  alen y = 14%nat -> alen yd = 12%nat -> alen y' = 14%nat -> alen yd' = 12%nat ->
  proper (aget y) -> both_moved l p (aget y) (aget y') -> both_turned l (aget yd) (aget yd') ->
  moved_dual_runs l p (snd (dual_open_loop_go fuel rt c i y yd cs o)) (snd (dual_open_loop_go fuel rt c' i y' yd' cs o')).
Proof.
  intros Hl Hdt Hg Hg' HA Hc. induction fuel as [|fuel IH]; intros y yd y' yd' cs o o' Hs Hs' Hp Hp' Ht Ly Lyd Ly' Lyd' Hu Hy Hv;
    cbn [dual_open_loop_go]; rewrite Ht; (destruct (Rlt_dec (p_t (o_base o)) rt); [|split; [auto|split; [auto|cbn; intros; lia]]]);
    [reflexivity|].
  assert (D : o_dt o = o_dt o0) by apply Hp. assert (D' : o_dt o' = o_dt o0) by (rewrite <- Hdt; apply Hp').
  destruct (dual_step y yd c i cs o) as [[o1 c1] r1] eqn:E1.
  destruct (dual_step y' yd' c' i cs o') as [[o3 c3] r3] eqn:E3.
  assert (HR : match r1, r3 with
    | Ok (y1, yd1), Ok (y3, yd3) => c3 = c1 /\ proper (aget y1) /\ both_moved l p (aget y1) (aget y3) /\ both_turned l (aget yd1) (aget yd3)
    | Err e, Err e2 => e = e2
    | _, _ => False end).
  { rewrite dual_step_eq in E1, E3 by auto. cbv zeta in E1, E3.
    set (te := dual_tracking_error (aget (remembered o)) (aget y)) in *.
    set (te' := dual_tracking_error (aget (remembered o')) (aget y')) in *.
    rewrite (dual_step_function_no_gain i o0 o te) in E1 by auto.
    rewrite (dual_step_function_no_gain i o0' o' te') in E3 by auto.
    rewrite Ht, D' in E3. rewrite D in E1.
    pose proof (dual_step_function_moved l p i (dual_args o0 te) (dual_args o0' te') c c' (p_t (o_base o)) (p_t (o_base o) + o_dt o0)
      (aget y) (aget yd) (aget y') (aget yd') cs Hl (HA te te') Hc Hu Hy Hv) as H.
    destruct (dual_step_function i (dual_args o0 te) c _ _ _ _) as [[[a b] ca]|e];
    destruct (dual_step_function i (dual_args o0' te') c' _ _ _ _) as [[[a' b'] ca']|e']; try tauto;
    injection E1 as <- <- <-; injection E3 as <- <- <-; auto. }
  destruct r1 as [[y1 yd1]|e]; destruct r3 as [[y3 yd3]|e3]; try tauto; [|cbn; congruence].
  destruct (dual_step_ok _ _ _ _ _ _ _ _ _ _ E1 Hs) as (_ & _ & _ & L1 & L2 & P1 & T1 & _ & _ & _ & Hs1).
  destruct (dual_step_ok _ _ _ _ _ _ _ _ _ _ E3 Hs') as (_ & _ & _ & L3 & L4 & P3 & T3 & _ & _ & _ & Hs3).
  destruct HR as (-> & U1 & M1 & M2).
  assert (T : p_t (o_base o3) = p_t (o_base o1)) by congruence.
  specialize (IH y1 yd1 y3 yd3 c1 o1 o3 Hs1 Hs3 (same_params_trans _ _ _ Hp P1) (same_params_trans _ _ _ Hp' P3) T L1 L2 L3 L4 U1 M1 M2).
  destruct (dual_open_loop_go fuel rt c i y1 yd1 c1 o1) as [[oa ca] [[ts ys]|ea]];
  destruct (dual_open_loop_go fuel rt c' i y3 yd3 c1 o3) as [[ob cb] [[ts2 ys2]|eb]]; cbn in IH |- *; try tauto.
  destruct IH as (-> & L & IH). split; [now rewrite T|]. split; [now rewrite L|].
  intros [|k] Hk; [exact M1|]. apply IH. lia.
Qed.

(** ** C136 *)
(** The run of a coupled pair of arms in a moved world is the moved run. *)
Theorem C136_runs : forall (CS : Type) l p ka kb o o' (c c' : option (stateful_coupling CS)) run_t i cs,
  unit_quat l -> dual_reachable o -> dual_reachable o' -> same_dual_settings o o' ->
  ft_goal_t (o_forcing_term o') = ft_goal_t (o_forcing_term o) -> o_p_gain o = 0 -> o_p_gain o' = 0 ->
  uniform_gains ka kb o -> uniform_gains ka kb o' -> goal_and_start_proper o ->
  dual_moved l p o o' -> terms_moved l p c c' ->
  moved_dual_runs l p (snd (dual_open_loop run_t c i cs o)) (snd (dual_open_loop run_t c' i cs o')).
Proof.
  intros CS l p ka kb o o' c c' run_t i cs Hl Hr Hr' HS Eg G G' U U' HQ HM Hc.
  destruct i as [i|]; [|reflexivity].
  pose proof (args_moved l p ka kb o o') as HA. unfold dual_open_loop. cbv zeta.
  pose proof HS as (S1 & S2 & _). cbn [o_dt with_base]. rewrite S1, S2.
  set (rt := match run_t with Some x => x | None => o_execution_time o end).
  pose proof (dual_reachable_shapes o Hr) as Hs. pose proof (dual_reachable_shapes o' Hr') as Hs'.
  pose proof Hs as (_ & _ & La & Lb & _). pose proof Hs' as (_ & _ & La' & Lb' & _).
  pose proof (dual_go_moved l p rt i c c' o o' Hl S2 G G'
    (fun te te' => HA te te' Hr Hr' HS Eg G G' U U' HQ HM) Hc (dual_fuel rt (o_dt o))
    (p_start_y (o_base o)) (p_start_yd (o_base o)) (p_start_y (o_base o')) (p_start_yd (o_base o')) cs
    (with_base (set_t 0 (o_base o)) o) (with_base (set_t 0 (o_base o')) o') Hs Hs'
    ltac:(unfold same_params; cbn; auto 20) ltac:(unfold same_params; cbn; auto 20) eq_refl La Lb La' Lb'
    (proj1 HQ) (dm_start _ _ _ _ HM) (dm_velocity _ _ _ _ HM)) as H.
  cbn [o_base with_base set_t p_start_y p_start_yd] in *.
  destruct (dual_open_loop_go _ rt c i _ _ cs _) as [[oa ca] [[ts ys]|ea]];
  destruct (dual_open_loop_go _ rt c' i _ _ cs _) as [[ob cb] [[ts2 ys2]|eb]]; cbn in H |- *; try tauto.
  destruct H as (-> & L & H). split; [reflexivity|]. split; [now rewrite L|].
  intros [|k] Hk; [exact (dm_start _ _ _ _ HM)|]. apply H. lia.
Qed.

(** ** Learning *)
(** The demonstration of both arms in the moved world. *)
Definition demo_moved (l : quat) (p : v3) (dm dm' : demo) : Prop :=
  d_n dm' = d_n dm /\ d_T dm' = d_T dm /\ d_rows dm' = d_rows dm /\ d_dims dm' = d_dims dm
  /\ forall t, (t < d_n dm)%nat -> proper (d_Y dm t) /\ both_moved l p (d_Y dm t) (d_Y dm' t).

Lemma same_design j j' n T m ov al f f' lo hi : forcing_term_init (fst j) (snd j) n hi lo ov al = Ok f ->
  forcing_term_init (fst j') (snd j') n hi lo ov al = Ok f' -> forall i t, (i < n)%nat ->
  design_matrix f' T m i t = design_matrix f T m i t.
Proof.
  intros E E' i t Hi.
  pose proof (forcing_term_init_n _ _ _ _ _ _ _ _ E) as (N1 & _ & _ & _ & Z1 & _).
  pose proof (forcing_term_init_n _ _ _ _ _ _ _ _ E') as (N2 & _ & _ & _ & Z2 & _).
  unfold design_matrix. rewrite Z1, Z2, N1, N2. f_equal. apply activations_ext; auto.
  intros i0 Hi0. destruct (C02_fully_initialised _ _ _ _ _ _ _ _ _ _ _ E' E i0 Hi0). auto.
Qed.

Lemma uniform_grel (k : R) A (D : nat -> Prop) (a' a : vec) : (forall d, (d < 3)%nat -> a' d = k) -> (forall d, (d < 3)%nat -> a d = k) ->
  (forall d, D d -> (d < 3)%nat) -> grel 3 A D a' a.
Proof. intros H1 H2 HD d e Hd He _. rewrite H1, H2; auto. Qed.

Lemma position_weights l p j j' dm dm' n lam al be al' be' ka kb ov az allow sm w w' :
  d_n dm' = d_n dm -> d_T dm' = d_T dm ->
  (forall d, (d < 3)%nat -> al d = ka /\ al' d = ka /\ be d = kb /\ be' d = kb) ->
  (forall t, (t < d_n dm)%nat -> v3_of (d_Y dm' t) = v3_add p (rotate l (v3_of (d_Y dm t)))) ->
  rmap (fun r => fst (fst r)) (dmp_imitate j ridge_regression 3 dm n lam al be ov az allow sm) = Ok w ->
  rmap (fun r => fst (fst r)) (dmp_imitate j' ridge_regression 3 dm' n lam al' be' ov az allow sm) = Ok w' ->
  forall i, v3_of (fun d => w' d i) = rotate l (v3_of (fun d => w d i)).
Proof.
  intros En ET Hg HY E E' i. unfold dmp_imitate in E, E'. rewrite En, ET in E'.
  destruct (Rlt_dec lam 0); [discriminate|]. destruct (Nat.eqb (d_n dm) 0); [discriminate|]. cbv zeta in E, E'.
  destruct (forcing_term_init (fst j) _ _ _ _ _ _) as [f|] eqn:Ef; [|discriminate].
  destruct (forcing_term_init (fst j') _ _ _ _ _ _) as [f'|] eqn:Ef'; [|discriminate]. cbn [bind] in E, E'.
  destruct (negb (Nat.eqb (d_rows dm) (d_n dm))); [discriminate|]. destruct (negb (Nat.eqb (d_rows dm') (d_n dm))); [discriminate|].
  destruct (andb (negb (Nat.eqb (d_dims dm) 3)) _); [discriminate|]. destruct (andb (negb (Nat.eqb (d_dims dm') 3)) _); [discriminate|].
  cbn [Nat.eqb] in E, E'.
  destruct (determine_forces _ _ (d_Y dm) _ _ _ _ _) as [df|] eqn:Ed; [|discriminate].
  destruct (determine_forces _ _ (d_Y dm') _ _ _ _ _) as [df'|] eqn:Ed'; [|discriminate].
  cbn [bind rmap fst] in E, E'. injection E as <-. injection E' as <-.
  apply drel_rotate. apply ridge_aff.
  - intros q t Hq Ht. exact (same_design j j' n (d_T dm) (d_n dm - 1) ov az f f' _ _ Ef Ef' q t Hq).
  - refine (determine_forces_aff 3 (rotation_matrix l) (vec_of_v3 p) in3 _ _ _ _ _ _ _ _ _ _ _ _ _ _ _ _ Ed' Ed).
    + intros t Ht. apply prel_place. now apply HY.
    + apply (uniform_grel ka); auto; intros d Hd; now apply Hg.
    + apply (uniform_grel kb); auto; intros d Hd; now apply Hg.
Qed.

Lemma orientation_weights l j j' n T Y Y' nw lam al be al' be' ka kb ov az allow sm w w' : unit_quat l ->
  al = V3 ka ka ka -> al' = V3 ka ka ka -> be = V3 kb kb kb -> be' = V3 kb kb kb ->
  (forall t, (t < n)%nat -> unit_quat (Y t)) -> (forall t, (t < n)%nat -> Y' t = hamilton l (Y t)) ->
  dmp_quaternion_imitation j ridge_regression n T Y nw lam al be ov az allow sm = Ok w ->
  dmp_quaternion_imitation j' ridge_regression n T Y' nw lam al' be' ov az allow sm = Ok w' ->
  forall i, v3_of (fun d => w' d i) = rotate l (v3_of (fun d => w d i)).
Proof.
  intros Hl -> -> -> -> HU HY E E' i. unfold dmp_quaternion_imitation in E, E'.
  destruct (Rlt_dec lam 0); [discriminate|]. destruct (Nat.eqb n 0); [discriminate|]. cbv zeta in E, E'.
  destruct (forcing_term_init (fst j) _ _ _ _ _ _) as [f|] eqn:Ef; [|discriminate].
  destruct (forcing_term_init (fst j') _ _ _ _ _ _) as [f'|] eqn:Ef'; [|discriminate]. cbn [bind] in E, E'.
  destruct (determine_forces_quaternion n T Y _ _ _ _ _) as [qf|] eqn:Ed; [|discriminate].
  destruct (determine_forces_quaternion n T Y' _ _ _ _ _) as [qf'|] eqn:Ed'; [|discriminate].
  cbn [bind] in E, E'. injection E as <-. injection E' as <-.
  apply drel_rotate. apply ridge_aff.
  - intros q t Hq Ht. exact (same_design j j' nw T (n - 1) ov az f f' _ _ Ef Ef' q t Hq).
  - intros t Ht. apply drel_rotate. rewrite !v3_of_vec_of.
    assert (U1 : unit_quat q_one) by (unfold unit_quat; cbn; ring).
    refine (forces_refr l q_one 1 n T Y Y' _ _ _ _ _ _ _ _ _ Hl U1 Rlt_0_1 HU _ (turns_uniform l ka) (turns_uniform l kb) Ed _ t Ht).
    + intros k Hk. rewrite HY by auto. unfold refr. apply quat_eq; cbn; ring.
    + replace (fun t0 => 1 * T t0) with T by (apply functional_extensionality; intros; ring). exact Ed'.
Qed.

(** What [imitate] does to a DualCartesianDMP. *)
Lemma dual_imitated jl jlr jr jrr dm lam allow o o1 : dual_reachable o ->
  dual_imitate jl jlr jr jrr ridge_regression dm lam allow o = (o1, Ok tt) ->
  exists wl wlr wr wrr,
    (forall arm, (arm <= 1)%nat -> rmap (fun r => fst (fst r))
       (dmp_imitate (if Nat.eqb arm 0 then jl else jr) ridge_regression 3 (demo_columns (7 * arm) 3 dm) (o_n_weights_per_dim o) lam
         (slice (6 * arm) 3 (aget (o_alpha_y o))) (slice (6 * arm) 3 (aget (o_beta_y o))) (ft_overlap (o_forcing_term o))
         (ft_alpha_z (o_forcing_term o)) allow (o_smooth_scaling o)) = Ok (if Nat.eqb arm 0 then wl else wr))
    /\ (forall arm, (arm <= 1)%nat ->
       dmp_quaternion_imitation (if Nat.eqb arm 0 then jlr else jrr) ridge_regression (d_n dm) (d_T dm)
         (fun t => arm_q arm (d_Y dm t)) (o_n_weights_per_dim o) lam (arm_w arm (aget (o_alpha_y o))) (arm_w arm (aget (o_beta_y o)))
         (ft_overlap (o_forcing_term o)) (ft_alpha_z (o_forcing_term o)) allow (o_smooth_scaling o)
       = Ok (if Nat.eqb arm 0 then wlr else wrr))
    /\ (forall arm i, (arm <= 1)%nat ->
       arm_v arm (fun d => ft_weights (o_forcing_term o1) d i) = v3_of (fun d => (if Nat.eqb arm 0 then wl else wr) d i)
       /\ arm_w arm (fun d => ft_weights (o_forcing_term o1) d i) = v3_of (fun d => (if Nat.eqb arm 0 then wlr else wrr) d i))
    /\ aget (p_start_y (o_base o1)) = d_Y dm 0%nat /\ aget (p_goal_y (o_base o1)) = d_Y dm (d_n dm - 1)%nat
    /\ o_alpha_y o1 = o_alpha_y o /\ o_n_weights_per_dim o1 = o_n_weights_per_dim o
    /\ ft_goal_t (o_forcing_term o1) = ft_goal_t (o_forcing_term o).
Proof.
  intros Hr E. pose proof (dual_reachable_shapes o Hr) as (D1 & D2 & _).
  unfold dual_imitate in E. destruct (Nat.eqb_spec (d_dims dm) 14) as [Hd|]; [|discriminate].
  cbn [negb] in E. cbv zeta in E.
  destruct (rmap _ (dmp_imitate jl _ _ _ _ _ _ _ _ _ _ _)) as [wl|] eqn:E1; [|discriminate].
  destruct (dmp_quaternion_imitation jlr _ _ _ _ _ _ _ _ _ _ _ _) as [wlr|] eqn:E2; [|discriminate].
  destruct (rmap _ (dmp_imitate jr _ _ _ _ _ _ _ _ _ _ _)) as [wr|] eqn:E3; [|discriminate].
  destruct (dmp_quaternion_imitation jrr _ _ _ _ _ _ _ _ _ _ _ _) as [wrr|] eqn:E4; [|discriminate].
  exists wl, wlr, wr, wrr.
  split; [intros arm Ha; destruct (arm_dec arm Ha) as [-> | ->]; assumption|].
  split; [intros arm Ha; destruct (arm_dec arm Ha) as [-> | ->]; assumption|].
  match type of E with dmp_configure ?c ?x = _ => set (C := c) in E; set (X := x) in E end.
  assert (EX : o1 = with_base (configured C (o_base X)) X).
  { unfold dmp_configure, configure in E. cbn [C c_t c_start_y c_start_yd c_start_ydd c_goal_y c_goal_yd c_goal_ydd
      configure_block] in E. change (o_base X) with (o_base o) in *.
    cbn [alen set_start_y p_n_dims set_goal_y] in E. rewrite D1 in E. cbn [Nat.eqb negb] in E.
    cbn in E. rewrite D1 in E. cbn in E. now injection E as <-. }
  rewrite EX. split; [|repeat split].
  intros arm i Ha. destruct (arm_dec arm Ha) as [-> | ->]; split; reflexivity.
Qed.

(** A coupled pair of arms that learned in the moved world moves as the pair that
    learned the original demonstration, in the moved world. *)
Theorem C136_learned : forall (CS : Type) l p ka kb o o' o1 o1' (c c' : option (stateful_coupling CS))
    jl jlr jr jrr jl' jlr' jr' jrr' dm dm' lam allow run_t i cs,
  unit_quat l -> dual_reachable o -> dual_reachable o' -> same_dual_settings o o' ->
  ft_goal_t (o_forcing_term o') = ft_goal_t (o_forcing_term o) -> o_p_gain o = 0 -> o_p_gain o' = 0 ->
  uniform_gains ka kb o -> uniform_gains ka kb o' ->
  both_turned l (aget (p_start_yd (o_base o))) (aget (p_start_yd (o_base o'))) ->
  demonstrates 14 dm -> demo_moved l p dm dm' -> terms_moved l p c c' ->
  dual_imitate jl jlr jr jrr ridge_regression dm lam allow o = (o1, Ok tt) ->
  dual_imitate jl' jlr' jr' jrr' ridge_regression dm' lam allow o' = (o1', Ok tt) ->
  moved_dual_runs l p (snd (dual_open_loop run_t c i cs o1)) (snd (dual_open_loop run_t c' i cs o1')).
Proof.
  intros CS l p ka kb o o' o1 o1' c c' jl jlr jr jrr jl' jlr' jr' jrr' dm dm' lam allow run_t i cs Hl Hr Hr' HS Eg G G' U U' HV
    Hd (M1 & M2 & M3 & M4 & M5) Hc E E'.
  destruct (dual_imitate_keeps _ _ _ _ _ _ _ _ _ _ Hr E) as (_ & Hr1 & X1 & X2 & X3 & X4 & X5 & X6 & X7).
  destruct (dual_imitate_keeps _ _ _ _ _ _ _ _ _ _ Hr' E') as (_ & Hr1' & Y1 & Y2 & Y3 & Y4 & Y5 & Y6 & Y7).
  destruct (dual_imitated _ _ _ _ _ _ _ _ _ Hr E) as (wl & wlr & wr & wrr & P & Q & W & B1 & B2 & B3 & B4 & B5).
  destruct (dual_imitated _ _ _ _ _ _ _ _ _ Hr' E') as (wl' & wlr' & wr' & wrr' & P' & Q' & W' & B1' & B2' & B3' & B4' & B5').
  assert (HT : d_T dm 0%nat < d_T dm (d_n dm - 1)%nat) by apply Hd.
  assert (Hn2 : (2 <= d_n dm)%nat) by (destruct (d_n dm) as [|[|k]]; simpl in HT; try lra; lia).
  pose proof HS as (S1 & S2 & S3 & S4 & S5).
  destruct (dual_ft_made o Hr) as (g & j & f & w & E0 & Ek). destruct (dual_ft_made o' Hr') as (g' & j' & f' & w' & E0' & Ek').
  pose proof (forcing_term_init_n _ _ _ _ _ _ _ _ E0) as (N1 & N2 & N3 & N4 & N5 & _).
  pose proof (forcing_term_init_n _ _ _ _ _ _ _ _ E0') as (R1 & R2 & R3 & R4 & R5 & _).
  assert (Ov : ft_overlap (o_forcing_term o') = ft_overlap (o_forcing_term o)) by (rewrite Ek, Ek'; cbn; congruence).
  assert (Az : ft_alpha_z (o_forcing_term o') = ft_alpha_z (o_forcing_term o)) by (rewrite Ek, Ek'; cbn; congruence).
  assert (HG : forall d, (d < 12)%nat -> aget (o_alpha_y o) d = ka /\ aget (o_beta_y o) d = kb
      /\ aget (o_alpha_y o') d = ka /\ aget (o_beta_y o') d = kb)
    by (intros d Hdd; destruct (U d Hdd), (U' d Hdd); auto).
  apply (C136_runs CS l p ka kb); auto; try congruence.
  - unfold same_dual_settings. repeat split; congruence.
  - intros d Hdd. destruct (HG d Hdd) as (? & ? & ? & ?). rewrite B3, X6. auto.
  - intros d Hdd. destruct (HG d Hdd) as (? & ? & ? & ?). rewrite B3', Y6. auto.
  - split; [rewrite B1|rewrite B2]; apply M5; lia.
  - constructor.
    + rewrite B1, B1'. apply M5. lia.
    + rewrite B2, B2', M1. apply M5. lia.
    + now rewrite X7, Y7.
    + intros q _ arm Ha. destruct (W arm q Ha) as [-> ->], (W' arm q Ha) as [-> ->].
      specialize (P arm Ha). specialize (P' arm Ha). specialize (Q arm Ha). specialize (Q' arm Ha).
      rewrite S4, S5, Ov, Az in P', Q'. rewrite M1, M2 in Q'. split.
      * refine (position_weights l p _ _ _ _ _ _ _ _ _ _ ka kb _ _ _ _ _ _ _ _ _ _ P P' q).
        -- exact M1.
        -- exact M2.
        -- intros d Hdd. unfold slice. destruct (Nat.ltb_spec d 3); [|lia]. destruct (HG (6 * arm + d)%nat ltac:(lia)) as (? & ? & ? & ?). auto.
        -- intros t Ht. cbn [demo_columns d_n d_Y] in *. destruct (M5 t Ht) as [_ MM]. destruct (MM arm Ha) as [MP _].
           destruct (arm_dec arm Ha) as [-> | ->]; exact MP.
      * refine (orientation_weights l _ _ _ _ _ _ _ _ _ _ _ _ ka kb _ _ _ _ _ _ Hl _ _ _ _ _ _ Q Q' q).
        -- unfold arm_w, v3_of, slice. cbn [Nat.ltb Nat.leb]. f_equal; apply HG; lia.
        -- unfold arm_w, v3_of, slice. cbn [Nat.ltb Nat.leb]. f_equal; apply HG; lia.
        -- unfold arm_w, v3_of, slice. cbn [Nat.ltb Nat.leb]. f_equal; apply HG; lia.
        -- unfold arm_w, v3_of, slice. cbn [Nat.ltb Nat.leb]. f_equal; apply HG; lia.
        -- intros t Ht. destruct (M5 t Ht) as [[? ?] _]. destruct (arm_dec arm Ha) as [-> | ->]; assumption.
        -- intros t Ht. destruct (M5 t Ht) as [_ MM]. now apply (MM arm Ha).
Qed.

(** Any frame, for two hands one unit apart that move along a line while they turn, held
    together by the three coupling terms in turn. *)
Example C136_satisfiable : forall l p, unit_quat l ->
  exists o o1 o1' dm dm', dual_reachable o /\ same_dual_settings o o /\ o_p_gain o = 0
  /\ uniform_gains 25 (25/4) o
  /\ both_turned l (aget (p_start_yd (o_base o))) (aget (p_start_yd (o_base o)))
  /\ demonstrates 14 dm /\ demo_moved l p dm dm' /\ arm_p 0 (d_Y dm 3%nat) <> arm_p 1 (d_Y dm 3%nat)
  /\ (let c := Some (stateless (dual_distance_coupling follow 1)) in terms_moved l p c c)
  /\ (let c := Some (stateless (pose_coupling follow true true rigid_one)) in terms_moved l p c c)
  /\ terms_moved l p (Some (trajectory_coupling follow true true 11 (d_T dm) (d_Y dm) vzero (1/10)))
                     (Some (trajectory_coupling follow true true 11 (d_T dm') (d_Y dm') vzero (1/10)))
  /\ dual_imitate (vzero, vzero) (vzero, vzero) (vzero, vzero) (vzero, vzero) ridge_regression dm 0 true o = (o1, Ok tt)
  /\ dual_imitate (vzero, vzero) (vzero, vzero) (vzero, vzero) (vzero, vzero) ridge_regression dm' 0 true o = (o1', Ok tt)
  /\ exists ts ys, snd (dual_open_loop None (Some (stateless (dual_distance_coupling follow 1))) (Some Python) tt o1) = Ok (ts, ys).
Proof.
  intros l p Hl.
  destruct (dual_example 1 (1 / 10) (1 / 10) 0 true (fun _ => 25) (fun _ => 25/4) vzero vzero)
    as (o & Ho & O1 & O2 & O3 & O4 & O5 & O6 & O7 & O8 & O9 & O10 & O11 & O12 & O13 & O14 & O15 & _); [lra|].
  set (A := fun (k : nat) => axis_quat (V3 1 0 0) (INR k / 10)).
  set (L := fun (k : nat) => V3 (INR k) 0 0). set (S := fun (k : nat) => V3 (INR k) 1 0).
  set (two := fun (a b : v3) (q : quat) (j : nat) =>
     if Nat.ltb j 7 then aget (pose (vec_of_v3 a) q) j else aget (pose (vec_of_v3 b) q) (j - 7)%nat).
  set (dm := {| d_n := 11; d_T := fun k => INR k / 10; d_rows := 11; d_dims := 14; d_Y := fun k => two (L k) (S k) (A k) |}).
  set (dm' := {| d_n := 11; d_T := fun k => INR k / 10; d_rows := 11; d_dims := 14;
     d_Y := fun k => two (v3_add p (rotate l (L k))) (v3_add p (rotate l (S k))) (hamilton l (A k)) |}).
  assert (EV : forall u, V3 (v3x u) (v3y u) (v3z u) = u) by now intros [].
  assert (EQ : forall u, Q4 (qw u) (qx u) (qy u) (qz u) = u) by now intros [].
  assert (T2 : forall a b q, arm_p 0 (two a b q) = a /\ arm_p 1 (two a b q) = b /\ arm_q 0 (two a b q) = q /\ arm_q 1 (two a b q) = q).
  { intros [] [] []. repeat split. }
  assert (UA : forall k, unit_quat (A k)) by (intros; apply axis_quat_unit; unfold unit_v3; cbn; ring).
  assert (E10 : INR 10 = 10) by (simpl; lra).
  assert (Hd : demonstrates 14 dm).
  { split; [|split; reflexivity]. unfold dm, d_T, d_n. change (11 - 1)%nat with 10%nat. rewrite E10. simpl (INR 0). lra. }
  assert (Hd' : demonstrates 14 dm').
  { split; [|split; reflexivity]. unfold dm', d_T, d_n. change (11 - 1)%nat with 10%nat. rewrite E10. simpl (INR 0). lra. }
  assert (HM : forall t, proper (d_Y dm t) /\ both_moved l p (d_Y dm t) (d_Y dm' t)).
  { intros t. cbn [dm dm' d_Y]. destruct (T2 (L t) (S t) (A t)) as (P0 & P1 & Q0 & Q1).
    destruct (T2 (v3_add p (rotate l (L t))) (v3_add p (rotate l (S t))) (hamilton l (A t))) as (P0' & P1' & Q0' & Q1').
    split.
    - split; [change (unit_quat (arm_q 0 (two (L t) (S t) (A t))))|change (unit_quat (arm_q 1 (two (L t) (S t) (A t))))];
        rewrite ?Q0, ?Q1; apply UA.
    - intros arm Ha. destruct (arm_dec arm Ha) as [-> | ->]; rewrite ?P0, ?P1, ?Q0, ?Q1, ?P0', ?P1', ?Q0', ?Q1'; auto. }
  pose (z := (vzero, vzero)).
  destruct (C110_always_learns z z z z ridge_regression dm 0 true o Ho ltac:(lra) Hd) as (o1 & EI).
  destruct (C110_always_learns z z z z ridge_regression dm' 0 true o Ho ltac:(lra) Hd') as (o1' & EI').
  destruct (dual_imitate_keeps _ _ _ _ _ _ _ _ _ _ Ho EI) as (_ & Hr1 & _ & X2 & X3 & _).
  destruct (C69_dual_runs_exist unit None (Some (stateless (dual_distance_coupling follow 1))) tt o1 Hr1) as [R1 _];
    [rewrite X2, O2; lra|rewrite X3, O3; lra|].
  destruct (R1 Python) as (o2 & [] & ts & ys & EO).
  exists o, o1, o1', dm, dm'.
  split; [exact Ho|]. split; [repeat split|]. split; [exact O4|].
  split; [intros d _; rewrite O6, O7; auto|].
  split.
  { rewrite O10. intros arm Ha.
    destruct (arm_dec arm Ha) as [-> | ->]; split; apply v3_eq; destruct l; cbn; unfold vzero; ring. }
  split; [exact Hd|]. split; [split; [reflexivity|]; split; [reflexivity|]; split; [reflexivity|]; split; [reflexivity|]; intros; apply HM|].
  split.
  { cbn [dm d_Y]. destruct (T2 (L 3%nat) (S 3%nat) (A 3%nat)) as (-> & -> & _). unfold L, S. intros H. injection H. lra. }
  split; [cbv zeta; now apply C136_distance|]. split; [cbv zeta; now apply C136_pose|].
  split.
  { change (d_T dm') with (d_T dm). apply (C136_trajectory l p l p); auto. lia. }
  split; [exact EI|]. split; [exact EI'|]. exists ts, ys. now rewrite EO.
Qed.
