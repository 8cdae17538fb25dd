(** C43 (pose coupling of two arms).  Final statements. *)
From Coq Require Import Reals List Arith Bool Lia Lra Psatz FunctionalExtensionality.
From Verif Require Import M_Prelude M_Canonical M_Forcing M_Dmp M_Base M_DmpObject M_Quaternion M_Cartesian M_Dual M_Rigid
  M_Coupling S_Rotation S_Rigid P_Quaternion P_Cartesian P_Rigid P_Dual Properties_Coupling.
Import ListNotations.
Open Scope R_scope.
Set Bullet Behavior "Strict Subproofs".

(** The poses of the arms in a state [y] of 14 entries: positions in entries 0 to 2 and
    7 to 9, quaternions (w, x, y, z) in entries 3 to 6 and 10 to 13. *)
Definition orientation_of (off : nat) (y : vec) : quat := Q4 (y off) (y (off + 1)%nat) (y (off + 2)%nat) (y (off + 3)%nat).
Definition left_pose (y : vec) : rigid := Rigid (matrix_of_unit (orientation_of 3 y)) (entries 0 y).
Definition right_pose (y : vec) : rigid := Rigid (matrix_of_unit (orientation_of 10 y)) (entries 7 y).
(** Both orientations are unit quaternions. *)
Definition proper (y : vec) : Prop := unit_quat (orientation_of 3 y) /\ unit_quat (orientation_of 10 y).
(** The right arm has the desired pose in the frame of the left arm. *)
Definition at_desired_distance (desired : rigid) (y : vec) : Prop := rigid_mul (left_pose y) desired = right_pose y.

Lemma v3_of_slice off y : v3_of (slice off 3 y) = entries off y.
Proof. unfold v3_of, slice, entries. cbn. now rewrite Nat.add_0_r. Qed.

Lemma left_pose_eq y : proper y -> pt_transform_from_pq (v3_of (slice 0 3 y)) (arm_q 0 y) = left_pose y.
Proof. intros [H _]. unfold pt_transform_from_pq, left_pose. rewrite v3_of_slice. f_equal. now apply pr_matrix_unit. Qed.
Lemma right_pose_eq y : proper y -> pt_transform_from_pq (v3_of (slice 7 3 y)) (arm_q 1 y) = right_pose y.
Proof. intros [_ H]. unfold pt_transform_from_pq, right_pose. rewrite v3_of_slice. f_equal. now apply pr_matrix_unit. Qed.

Lemma left_rigid y : proper y -> is_rigid (left_pose y).
Proof. intros [H _]. now apply matrix_rotation. Qed.
Lemma right_rigid y : proper y -> is_rigid (right_pose y).
Proof. intros [_ H]. now apply matrix_rotation. Qed.

Lemma right2left_eq y : proper y ->
  right2left_pq y = pt_pq_from_transform (rigid_mul (pt_invert (left_pose y)) (right_pose y)).
Proof. intros H. unfold right2left_pq. rewrite left_pose_eq, right_pose_eq by auto. reflexivity. Qed.

Lemma relative_pose desired y : proper y ->
  at_desired_distance desired y <-> rigid_mul (pt_invert (left_pose y)) (right_pose y) = desired.
Proof.
  intros H. unfold at_desired_distance. split; intros E.
  - rewrite <- E, <- rigid_mul_assoc, rigid_inv_l, rigid_mul_1_l by now apply left_rigid. reflexivity.
  - rewrite <- E, <- rigid_mul_assoc, rigid_inv_r, rigid_mul_1_l by now apply left_rigid. reflexivity.
Qed.

(** The contribution in terms of the error in position and orientation. *)
Definition position_error (desired : rigid) (y : vec) : v3 :=
  v3_sub (r_pos desired) (r_pos (rigid_mul (pt_invert (left_pose y)) (right_pose y))).
Definition orientation_error (desired : rigid) (y : vec) : v3 :=
  pr_log (pr_mul (pr_quaternion_from_matrix (r_rot desired))
                 (pr_conj (pr_quaternion_from_matrix (r_rot (rigid_mul (pt_invert (left_pose y)) (right_pose y)))))).

Lemma couple_distance_eq sp cp co desired y yd : proper y ->
  pose_coupling sp cp co desired y yd =
  let '((C12p, C21p), (C12dp, C21dp)) :=
    couple_part sp cp (left_pose y) (position_error desired y) (entries 0 yd) (entries 6 yd) in
  let '((C12r, C21r), (C12dr, C21dr)) :=
    couple_part sp co (left_pose y) (orientation_error desired y) (entries 3 yd) (entries 9 yd) in
  (vec12 C12p C12r C21p C21r, vec12 C12dp C12dr C21dp C21dr).
Proof.
  intros H. unfold pose_coupling, couple_distance. rewrite left_pose_eq by auto. rewrite right2left_eq by auto.
  cbn [pt_pq_from_transform]. rewrite !v3_of_slice. reflexivity.
Qed.

Lemma couple_part_zero sp flag L vl vr :
  couple_part sp flag L v3_zero vl vr =
  ((v3_zero, v3_zero),
   if flag then (v3_scale (- (sp_lf0 sp * (2 * sqrt (sp_k sp * sp_c2 sp)))) vl,
                 v3_scale (- (sp_lf1 sp * (2 * sqrt (sp_k sp * sp_c2 sp)))) vr)
   else (v3_zero, v3_zero)).
Proof.
  unfold couple_part, pt_direction.
  assert (Z : forall k, m3_app (r_rot L) (v3_scale k v3_zero) = v3_zero) by (intros; apply v3_eq; simpl; ring).
  rewrite !Z. destruct flag; f_equal; f_equal; apply v3_eq; simpl; ring.
Qed.

Lemma zero_error desired y : is_rigid desired -> proper y -> at_desired_distance desired y ->
  position_error desired y = v3_zero /\ orientation_error desired y = v3_zero.
Proof.
  intros Hd Hp H. apply relative_pose in H; auto. unfold position_error, orientation_error. rewrite H. split.
  - apply v3_eq; simpl; ring.
  - destruct (quaternion_from_matrix_correct (r_rot desired) Hd) as [Hu _].
    set (q := pr_quaternion_from_matrix (r_rot desired)) in *.
    change (pr_mul q (pr_conj q)) with (i_mul Python q (i_conj Python q)).
    rewrite i_conj_unit by auto. rewrite i_mul_unit by auto using cy_conj_unit. rewrite conj_r by auto.
    apply (log_one Python).
Qed.

(** At the desired relative pose the velocity contribution is zero and the acceleration
    contribution is only damping of the followers. *)
Theorem C43_at_rest : forall sp cp co desired y yd, is_rigid desired -> proper y -> at_desired_distance desired y ->
  let '(cd, cdd) := pose_coupling sp cp co desired y yd in
  let damping := 2 * sqrt (sp_k sp * sp_c2 sp) in
  (entries 0 cd = v3_zero /\ entries 3 cd = v3_zero /\ entries 6 cd = v3_zero /\ entries 9 cd = v3_zero)
  /\ entries 0 cdd = (if cp then v3_scale (- (sp_lf0 sp * damping)) (entries 0 yd) else v3_zero)
  /\ entries 3 cdd = (if co then v3_scale (- (sp_lf0 sp * damping)) (entries 3 yd) else v3_zero)
  /\ entries 6 cdd = (if cp then v3_scale (- (sp_lf1 sp * damping)) (entries 6 yd) else v3_zero)
  /\ entries 9 cdd = (if co then v3_scale (- (sp_lf1 sp * damping)) (entries 9 yd) else v3_zero).
Proof.
  intros sp cp co desired y yd Hd Hp H. rewrite couple_distance_eq by auto.
  destruct (zero_error desired y Hd Hp H) as [-> ->]. rewrite !couple_part_zero.
  destruct cp, co; cbv beta iota; repeat split; cbn; try reflexivity; apply v3_eq; cbn; ring.
Qed.

Lemma couple_part_facts sp flag L e vl vr :
  let r := couple_part sp flag L e vl vr in
  (sp_lf0 sp = 0 -> fst (fst r) = v3_zero /\ fst (snd r) = v3_zero)
  /\ (sp_lf1 sp = 0 -> snd (fst r) = v3_zero /\ snd (snd r) = v3_zero)
  /\ (flag = false -> fst (fst r) = v3_zero /\ snd (fst r) = v3_zero /\ fst (snd r) = v3_zero /\ snd (snd r) = v3_zero).
Proof.
  unfold couple_part, pt_direction. cbv zeta. cbn [fst snd]. split; [|split].
  - intros ->. split; destruct flag; apply v3_eq; simpl; ring.
  - intros ->. split; destruct flag; apply v3_eq; simpl; ring.
  - intros ->. repeat split; apply v3_eq; simpl; ring.
Qed.

(** A pure leader gets nothing; switching a coupling off removes it. *)
Theorem C43_leader_and_flags : forall sp cp co desired y yd,
  let '(cd, cdd) := pose_coupling sp cp co desired y yd in
  (sp_lf0 sp = 0 -> entries 0 cd = v3_zero /\ entries 3 cd = v3_zero /\ entries 0 cdd = v3_zero /\ entries 3 cdd = v3_zero)
  /\ (sp_lf1 sp = 0 -> entries 6 cd = v3_zero /\ entries 9 cd = v3_zero /\ entries 6 cdd = v3_zero /\ entries 9 cdd = v3_zero)
  /\ (cp = false -> entries 0 cd = v3_zero /\ entries 6 cd = v3_zero /\ entries 0 cdd = v3_zero /\ entries 6 cdd = v3_zero)
  /\ (co = false -> entries 3 cd = v3_zero /\ entries 9 cd = v3_zero /\ entries 3 cdd = v3_zero /\ entries 9 cdd = v3_zero).
Proof.
  intros sp cp co desired y yd. unfold pose_coupling, couple_distance.
  destruct (right2left_pq y) as [ap ar]. destruct (pt_pq_from_transform desired) as [dp dr]. cbv zeta.
  match goal with |- context [couple_part sp cp ?L ?e ?u ?v] => destruct (couple_part_facts sp cp L e u v) as (A1 & A2 & A3);
    destruct (couple_part sp cp L e u v) as [[a b] [c d]] end.
  match goal with |- context [couple_part sp co ?L ?e ?u ?v] => destruct (couple_part_facts sp co L e u v) as (B1 & B2 & B3);
    destruct (couple_part sp co L e u v) as [[a' b'] [c' d']] end.
  cbn [fst snd] in *.
  destruct (entries_vec12 a a' b b') as (-> & -> & -> & ->). destruct (entries_vec12 c c' d d') as (-> & -> & -> & ->).
  split; [|split; [|split]]; intros Hz.
  - destruct (A1 Hz), (B1 Hz). auto.
  - destruct (A2 Hz), (B2 Hz). auto.
  - now apply A3.
  - now apply B3.
Qed.

(** If both arms follow with the same factor, velocities are equal and opposite. *)
Theorem C43_equal_and_opposite : forall sp cp co desired y yd, proper y -> sp_lf0 sp = sp_lf1 sp ->
  let '(cd, _) := pose_coupling sp cp co desired y yd in
  entries 0 cd = v3_scale (-1) (entries 6 cd) /\ entries 3 cd = v3_scale (-1) (entries 9 cd).
Proof.
  intros sp cp co desired y yd Hp Hl. rewrite couple_distance_eq by auto.
  assert (F : forall flag L e vl vr, fst (fst (couple_part sp flag L e vl vr)) = v3_scale (-1) (snd (fst (couple_part sp flag L e vl vr)))).
  { intros flag L e vl vr. unfold couple_part, pt_direction. cbn [fst snd]. rewrite Hl. destruct flag; apply v3_eq; simpl; ring. }
  pose proof (F cp (left_pose y) (position_error desired y) (entries 0 yd) (entries 6 yd)) as A.
  pose proof (F co (left_pose y) (orientation_error desired y) (entries 3 yd) (entries 9 yd)) as B.
  destruct (couple_part sp cp _ _ _ _) as [[a b] [c d]]. destruct (couple_part sp co _ _ _ _) as [[a' b'] [c' d']].
  cbn [fst snd] in *. destruct (entries_vec12 a a' b b') as (-> & -> & -> & ->). auto.
Qed.

(** The desired position of the right arm in the base frame. *)
Definition right_target (desired : rigid) (y : vec) : v3 := pt_point (left_pose y) (r_pos desired).

Lemma position_error_base desired y : proper y ->
  m3_app (r_rot (left_pose y)) (position_error desired y) = v3_sub (right_target desired y) (entries 7 y).
Proof.
  intros Hp. unfold position_error, right_target, pt_point. rewrite m3_app_sub.
  pose proof (rigid_inv_r (left_pose y) (left_rigid y Hp)) as E.
  assert (E2 : rigid_mul (left_pose y) (rigid_mul (pt_invert (left_pose y)) (right_pose y)) = right_pose y).
  { rewrite <- rigid_mul_assoc, E. apply rigid_mul_1_l. }
  apply (f_equal r_pos) in E2. cbn [rigid_mul r_pos] in E2.
  set (x := m3_app (r_rot (left_pose y)) (r_pos (rigid_mul (pt_invert (left_pose y)) (right_pose y)))) in *.
  assert (Ex : x = v3_sub (entries 7 y) (r_pos (left_pose y))).
  { change (entries 7 y) with (r_pos (right_pose y)). rewrite <- E2. unfold x. cbn [rigid_mul r_pos]. apply v3_eq; simpl; ring. }
  rewrite Ex. apply v3_eq; simpl; ring.
Qed.

(** A following arm is pulled straight to where it should be: the right arm towards the
    desired position given by the left arm, the left arm the opposite way. *)
Theorem C43_position_pull : forall sp co desired y yd, proper y ->
  let '(cd, cdd) := pose_coupling sp true co desired y yd in
  let missing := v3_sub (right_target desired y) (entries 7 y) in
  let damping := 2 * sqrt (sp_k sp * sp_c2 sp) in
  entries 6 cd = v3_scale (sp_lf1 sp * sp_c1 sp * sp_k sp) missing
  /\ entries 0 cd = v3_scale (- (sp_lf0 sp * sp_c1 sp * sp_k sp)) missing
  /\ entries 6 cdd = v3_scale (sp_lf1 sp) (v3_sub (v3_scale (sp_c2 sp * sp_k sp) missing) (v3_scale damping (entries 6 yd)))
  /\ entries 0 cdd = v3_scale (sp_lf0 sp) (v3_sub (v3_scale (- (sp_c2 sp * sp_k sp)) missing) (v3_scale damping (entries 0 yd))).
Proof.
  intros sp co desired y yd Hp. rewrite couple_distance_eq by auto.
  pose proof (position_error_base desired y Hp) as E.
  unfold couple_part at 1. unfold pt_direction. rewrite !m3_app_scale, E. clear E.
  generalize (v3_sub (right_target desired y) (entries 7 y)). intros m.
  destruct (couple_part sp co _ _ _ _) as [[a b] [c d]].
  match goal with |- context [vec12 ?u a ?v b] => destruct (entries_vec12 u a v b) as (-> & _ & -> & _) end.
  match goal with |- context [vec12 ?u c ?v d] => destruct (entries_vec12 u c v d) as (-> & _ & -> & _) end.
  repeat split; apply v3_eq; simpl; ring.
Qed.

(** The same for orientations: unless the arms are a half turn away from the desired
    relative orientation, the right arm is turned about the axis that leads to the
    desired orientation [q_left q_desired], by the angle that is missing. *)
Theorem C43_orientation_pull : forall sp cp p qd y yd, proper y -> unit_quat qd ->
  let desired := Rigid (matrix_of_unit qd) p in
  let ql := orientation_of 3 y in let qr := orientation_of 10 y in
  let missing := hamilton (hamilton ql qd) (cy_conj qr) in
  qw missing <> 0 ->
  let '(cd, cdd) := pose_coupling sp cp true desired y yd in
  let damping := 2 * sqrt (sp_k sp * sp_c2 sp) in
  entries 9 cd = v3_scale (sp_lf1 sp * sp_c1 sp * sp_k sp) (pr_log missing)
  /\ entries 3 cd = v3_scale (- (sp_lf0 sp * sp_c1 sp * sp_k sp)) (pr_log missing)
  /\ entries 9 cdd = v3_scale (sp_lf1 sp) (v3_sub (v3_scale (sp_c2 sp * sp_k sp) (pr_log missing)) (v3_scale damping (entries 9 yd)))
  /\ entries 3 cdd = v3_scale (sp_lf0 sp) (v3_sub (v3_scale (- (sp_c2 sp * sp_k sp)) (pr_log missing)) (v3_scale damping (entries 3 yd))).
Proof.
  intros sp cp p qd y yd Hp Hqd desired ql qr missing Hw. rewrite couple_distance_eq by auto.
  pose proof Hp as [Hl Hr]. fold ql in Hl. fold qr in Hr.
  assert (E : m3_app (r_rot (left_pose y)) (orientation_error desired y) = pr_log missing).
  { unfold left_pose. cbn [r_rot]. fold ql. rewrite matrix_rotate by auto.
    assert (Em : r_rot (rigid_mul (pt_invert (left_pose y)) (right_pose y)) = matrix_of_unit (hamilton (cy_conj ql) qr)).
    { rewrite matrix_hamilton by auto using cy_conj_unit. rewrite matrix_conj. reflexivity. }
    unfold orientation_error. rewrite Em. unfold desired. cbn [r_rot].
    assert (Ha : unit_quat (hamilton (cy_conj ql) qr)) by auto using hamilton_unit, cy_conj_unit.
    set (x := hamilton qd (cy_conj (hamilton (cy_conj ql) qr))).
    assert (Hx : unit_quat x) by (unfold x; auto using hamilton_unit, cy_conj_unit).
    assert (Ec : conjugated ql x = missing).
    { unfold conjugated, x, missing. rewrite conj_hamilton. replace (cy_conj (cy_conj ql)) with ql by (apply quat_eq; simpl; ring).
      rewrite !hamilton_assoc. rewrite conj_r by auto. now rewrite hamilton_one_r. }
    assert (Hwx : qw x <> 0). { rewrite <- (conjugated_w ql x Hl), Ec. exact Hw. }
    assert (Hlog : forall s, s = x \/ s = q_neg x -> rotate ql (pr_log s) = pr_log missing).
    { intros s Hs. change pr_log with (i_log Python).
      assert (El : i_log Python s = i_log Python x).
      { destruct Hs as [-> | ->]; [reflexivity|]. now apply (log_neg Python x Hx). }
      rewrite El, <- log_conjugated by auto. now rewrite Ec. }
    apply Hlog.
    destruct (quaternion_from_matrix_correct _ (matrix_rotation qd Hqd)) as [U1 _].
    destruct (quaternion_from_matrix_correct _ (matrix_rotation _ Ha)) as [U2 _].
    match goal with |- pr_mul ?u (pr_conj ?v) = _ \/ _ =>
      change (pr_mul u (pr_conj v)) with (i_mul Python u (i_conj Python v)) end.
    rewrite i_conj_unit by auto. rewrite i_mul_unit by auto using cy_conj_unit.
    assert (Nc : forall q, cy_conj (q_neg q) = q_neg (cy_conj q)) by (intros; apply quat_eq; simpl; ring).
    assert (Nn : forall q, q_neg (q_neg q) = q) by (intros; apply quat_eq; simpl; ring).
    destruct (quaternion_from_matrix_of_unit qd Hqd) as [-> | ->];
      destruct (quaternion_from_matrix_of_unit _ Ha) as [-> | ->];
      rewrite ?Nc, ?neg_hamilton_l, ?neg_hamilton_r, ?neg_hamilton_l, ?Nn; auto. }
  unfold couple_part at 2. unfold pt_direction. rewrite !m3_app_scale, E. clear E.
  generalize (pr_log missing). intros m.
  destruct (couple_part sp cp _ _ _ _) as [[a b] [c d]].
  match goal with |- context [vec12 a ?u b ?v] => destruct (entries_vec12 a u b v) as (_ & -> & _ & ->) end.
  match goal with |- context [vec12 c ?u d ?v] => destruct (entries_vec12 c u d v) as (_ & -> & _ & ->) end.
  repeat split; apply v3_eq; simpl; ring.
Qed.

(** ** Following a demonstrated relative movement *)

Lemma searchsorted_sample n T j : (forall a b, (a < b)%nat -> (b < n)%nat -> T a < T b) -> (j < n)%nat ->
  searchsorted n T (T j) = j.
Proof.
  intros HT Hj. unfold searchsorted.
  assert (H : forall m, (m <= n)%nat ->
    length (filter (fun i => if Rlt_dec (T i) (T j) then true else false) (seq 0 m)) = Nat.min m j).
  { induction m as [|m IH]; intros Hm; [reflexivity|].
    rewrite seq_S, filter_app, app_length, IH by lia. cbn [Nat.add filter].
    destruct (Rlt_dec (T m) (T j)) as [H|H].
    - assert (m < j)%nat; [|cbn [length]; lia]. destruct (Nat.lt_trichotomy m j) as [|[C|C]]; [auto|subst m; lra|].
      pose proof (HT j m C ltac:(lia)). lra.
    - assert (j <= m)%nat; [|cbn [length]; lia]. destruct (Nat.lt_trichotomy m j) as [C|[C|C]]; [|lia|lia].
      pose proof (HT m j C ltac:(lia)). contradiction. }
  rewrite H by lia. lia.
Qed.

(** Interpolation reproduces the samples. *)
Lemma interp1d_sample n T Y j : (forall a b, (a < b)%nat -> (b < n)%nat -> T a < T b) -> (2 <= n)%nat -> (j < n)%nat ->
  interp1d n T Y (T j) = Y j.
Proof.
  intros HT Hn Hj. unfold interp1d. rewrite searchsorted_sample by auto.
  destruct j as [|j].
  - replace (Nat.min (n - 1) (Nat.max 1 0)) with 1%nat by lia. cbn [Nat.sub].
    pose proof (HT 0%nat 1%nat ltac:(lia) ltac:(lia)). field. lra.
  - replace (Nat.min (n - 1) (Nat.max 1 (S j))) with (S j) by lia. replace (S j - 1)%nat with j by lia.
    pose proof (HT j (S j) ltac:(lia) ltac:(lia)). field. lra.
Qed.

(** At the time of a demonstrated sample, with both arms at the demonstrated poses (or
    any poses with the same relative pose), the trajectory coupling term adds no
    velocity. *)
Theorem C43_trajectory : forall sp cp co n T Y dt j y yd,
  (2 <= n)%nat -> (forall a b, (a < b)%nat -> (b < n)%nat -> T a < T b) -> (forall k, (k < n)%nat -> proper (Y k)) ->
  (j < n)%nat -> proper y ->
  rigid_mul (pt_invert (left_pose y)) (right_pose y) = rigid_mul (pt_invert (left_pose (Y j))) (right_pose (Y j)) ->
  let '(t', (cd, _)) := trajectory_coupling sp cp co n T Y vzero dt (T j) y yd in
  t' = T j + dt
  /\ entries 0 cd = v3_zero /\ entries 3 cd = v3_zero /\ entries 6 cd = v3_zero /\ entries 9 cd = v3_zero.
Proof.
  intros sp cp co n T Y dt j y yd Hn HT HY Hj Hp Hrel. unfold trajectory_coupling.
  set (desired := fun d => interp1d n T (fun j => pq7 (right2left_pq (Y j)) d) (T j) + vzero d).
  assert (Ed : desired = pq7 (right2left_pq (Y j))).
  { apply functional_extensionality; intros d. unfold desired, vzero. rewrite interp1d_sample by auto. ring. }
  set (rel := rigid_mul (pt_invert (left_pose (Y j))) (right_pose (Y j))) in *.
  assert (Hrel' : is_rigid rel).
  { apply is_rigid_mul; [apply is_rigid_invert, left_rigid|apply right_rigid]; auto. }
  assert (Et : pt_transform_from_pq (v3_of (slice 0 3 desired)) (quat_of (slice 3 4 desired)) = rel).
  { rewrite Ed, right2left_eq by auto. fold rel. unfold pt_pq_from_transform, pt_transform_from_pq.
    destruct (quaternion_from_matrix_correct (r_rot rel) Hrel') as [U1 U2].
    set (q := pr_quaternion_from_matrix (r_rot rel)) in *.
    assert (Eq : quat_of (slice 3 4 (pq7 (r_pos rel, q))) = q) by (now destruct q).
    assert (Ep : v3_of (slice 0 3 (pq7 (r_pos rel, q))) = r_pos rel) by (now destruct (r_pos rel)).
    rewrite Eq, Ep, pr_matrix_unit, U2 by auto. now destruct rel. }
  rewrite Et.
  pose proof (C43_at_rest sp cp co rel y yd Hrel' Hp) as H. unfold pose_coupling in H.
  destruct (couple_distance sp cp co rel y yd) as [cd cdd]. split; [reflexivity|].
  destruct H as (H & _); [now apply relative_pose|exact H].
Qed.

Example C43_satisfiable :
  let y : vec := fun j => if (Nat.eqb j 3 || Nat.eqb j 10)%bool then 1 else if Nat.eqb j 7 then 1 else 0 in
  proper y /\ is_rigid (Rigid m3_one (V3 1 0 0)) /\ at_desired_distance (Rigid m3_one (V3 1 0 0)) y
  /\ qw (hamilton (hamilton (orientation_of 3 y) q_one) (cy_conj (orientation_of 10 y))) <> 0.
Proof.
  cbv zeta. split; [|split; [|split]].
  - unfold proper, unit_quat, orientation_of. cbn. split; lra.
  - apply rotation_one.
  - unfold at_desired_distance, rigid_mul, left_pose, right_pose. cbn. f_equal; [|apply v3_eq; cbn; ring].
    apply m3_eq; cbn; ring.
  - cbn. lra.
Qed.
