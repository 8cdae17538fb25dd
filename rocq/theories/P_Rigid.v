(** Rotation matrices, transformations and their quaternions. *)
From Coq Require Import Reals Lra Psatz.
From Verif Require Import M_Prelude M_Quaternion M_Rigid S_Rotation S_Rigid P_Quaternion.
Open Scope R_scope.
Set Bullet Behavior "Strict Subproofs".

Lemma m3_eq a b : m00 a = m00 b -> m01 a = m01 b -> m02 a = m02 b -> m10 a = m10 b -> m11 a = m11 b ->
  m12 a = m12 b -> m20 a = m20 b -> m21 a = m21 b -> m22 a = m22 b -> a = b.
Proof. destruct a, b; simpl; congruence. Qed.

Lemma m3_mul_assoc a b c : m3_mul (m3_mul a b) c = m3_mul a (m3_mul b c).
Proof. apply m3_eq; simpl; ring. Qed.
Lemma m3_mul_1_l a : m3_mul m3_one a = a.
Proof. apply m3_eq; simpl; ring. Qed.
Lemma m3_mul_1_r a : m3_mul a m3_one = a.
Proof. apply m3_eq; simpl; ring. Qed.
Lemma m3_T_T a : m3_T (m3_T a) = a.
Proof. apply m3_eq; reflexivity. Qed.
Lemma m3_T_mul a b : m3_T (m3_mul a b) = m3_mul (m3_T b) (m3_T a).
Proof. apply m3_eq; simpl; ring. Qed.
Lemma m3_det_mul a b : m3_det (m3_mul a b) = m3_det a * m3_det b.
Proof. unfold m3_det, m3_mul. simpl. ring. Qed.
Lemma m3_det_T a : m3_det (m3_T a) = m3_det a.
Proof. unfold m3_det. simpl. ring. Qed.
Lemma m3_app_mul a b v : m3_app (m3_mul a b) v = m3_app a (m3_app b v).
Proof. apply v3_eq; simpl; ring. Qed.
Lemma m3_app_one v : m3_app m3_one v = v.
Proof. apply v3_eq; simpl; ring. Qed.
Lemma m3_app_add a u v : m3_app a (v3_add u v) = v3_add (m3_app a u) (m3_app a v).
Proof. apply v3_eq; simpl; ring. Qed.
Lemma m3_app_sub a u v : m3_app a (v3_sub u v) = v3_sub (m3_app a u) (m3_app a v).
Proof. apply v3_eq; simpl; ring. Qed.
Lemma m3_app_scale a c v : m3_app a (v3_scale c v) = v3_scale c (m3_app a v).
Proof. apply v3_eq; simpl; ring. Qed.

(** The cofactors of a rotation matrix are its entries. *)
Definition cofactor (a : mat3) : mat3 :=
  M3 (m11 a * m22 a - m12 a * m21 a) (m12 a * m20 a - m10 a * m22 a) (m10 a * m21 a - m11 a * m20 a)
     (m02 a * m21 a - m01 a * m22 a) (m00 a * m22 a - m02 a * m20 a) (m01 a * m20 a - m00 a * m21 a)
     (m01 a * m12 a - m02 a * m11 a) (m02 a * m10 a - m00 a * m12 a) (m00 a * m11 a - m01 a * m10 a).

Definition m3_scale (c : R) (a : mat3) : mat3 :=
  M3 (c * m00 a) (c * m01 a) (c * m02 a) (c * m10 a) (c * m11 a) (c * m12 a) (c * m20 a) (c * m21 a) (c * m22 a).

Lemma cofactor_mul a : m3_mul a (m3_T (cofactor a)) = m3_scale (m3_det a) m3_one.
Proof. apply m3_eq; unfold m3_det; simpl; ring. Qed.

Lemma rotation_cofactor a : rotation a -> cofactor a = a.
Proof.
  intros [Ho Hd]. pose proof (cofactor_mul a) as H. rewrite Hd in H.
  assert (E : m3_scale 1 m3_one = m3_one) by (apply m3_eq; simpl; ring). rewrite E in H.
  assert (E2 : m3_T (cofactor a) = m3_T a).
  { rewrite <- (m3_mul_1_l (m3_T (cofactor a))), <- Ho, m3_mul_assoc, H, m3_mul_1_r. reflexivity. }
  rewrite <- (m3_T_T (cofactor a)), E2, m3_T_T. reflexivity.
Qed.

Lemma rotation_right_inverse a : rotation a -> m3_mul a (m3_T a) = m3_one.
Proof.
  intros H. pose proof (cofactor_mul a) as E. rewrite rotation_cofactor in E by auto.
  destruct H as [_ Hd]. rewrite E, Hd. apply m3_eq; simpl; ring.
Qed.

Lemma rotation_T a : rotation a -> rotation (m3_T a).
Proof. intros H. split; [rewrite m3_T_T; now apply rotation_right_inverse|]. rewrite m3_det_T. apply H. Qed.

Lemma rotation_mul a b : rotation a -> rotation b -> rotation (m3_mul a b).
Proof.
  intros [A1 A2] [B1 B2]. split.
  - rewrite m3_T_mul, m3_mul_assoc, <- (m3_mul_assoc (m3_T a)), A1, m3_mul_1_l. exact B1.
  - rewrite m3_det_mul, A2, B2. ring.
Qed.

Lemma rotation_one : rotation m3_one.
Proof. split; [apply m3_eq; simpl; ring|unfold m3_det; simpl; ring]. Qed.

(** ** Quaternions *)
Lemma matrix_rotate q v : unit_quat q -> m3_app (matrix_of_unit q) v = rotate q v.
Proof. intros _. destruct q, v. apply v3_eq; simpl; ring. Qed.

(** The homogeneous form. *)
Definition matrix_h (q : quat) : mat3 :=
  let '(Q4 w x y z) := q in
  M3 (w * w + x * x - y * y - z * z) (2 * (x * y - w * z)) (2 * (x * z + w * y))
     (2 * (x * y + w * z)) (w * w - x * x + y * y - z * z) (2 * (y * z - w * x))
     (2 * (x * z - w * y)) (2 * (y * z + w * x)) (w * w - x * x - y * y + z * z).
Lemma matrix_of_unit_h q : unit_quat q -> matrix_of_unit q = matrix_h q.
Proof. destruct q as [w x y z]. unfold unit_quat. cbn [qw qx qy qz]. intros H. apply m3_eq; simpl; lra. Qed.

Lemma matrix_hamilton p q : unit_quat p -> unit_quat q ->
  matrix_of_unit (hamilton p q) = m3_mul (matrix_of_unit p) (matrix_of_unit q).
Proof.
  intros Hp Hq. rewrite !matrix_of_unit_h by auto using hamilton_unit.
  destruct p as [a b c d], q as [e f g h]. apply m3_eq; simpl; ring.
Qed.

Lemma matrix_conj q : matrix_of_unit (cy_conj q) = m3_T (matrix_of_unit q).
Proof. destruct q. apply m3_eq; simpl; ring. Qed.

Lemma matrix_one : matrix_of_unit q_one = m3_one.
Proof. apply m3_eq; simpl; ring. Qed.

Lemma matrix_rotation q : unit_quat q -> rotation (matrix_of_unit q).
Proof.
  intros H. split.
  - rewrite <- matrix_conj, <- matrix_hamilton, conj_l by auto using cy_conj_unit. apply matrix_one.
  - rewrite matrix_of_unit_h by auto.
    assert (E : m3_det (matrix_h q) = (qw q ^ 2 + qx q ^ 2 + qy q ^ 2 + qz q ^ 2) ^ 3)
      by (destruct q as [w x y z]; unfold m3_det; simpl; ring).
    rewrite E, H. ring.
Qed.

Lemma pr_matrix_unit q : unit_quat q -> pr_matrix_from_quaternion q = matrix_of_unit q.
Proof. intros H. unfold pr_matrix_from_quaternion. now rewrite check_unit. Qed.

(** Every rotation matrix comes from the quaternion that [pr_quaternion_from_matrix]
    computes, which has unit norm. *)
Lemma quaternion_from_matrix_correct a : rotation a ->
  unit_quat (pr_quaternion_from_matrix a) /\ matrix_of_unit (pr_quaternion_from_matrix a) = a.
Proof.
  intros H. pose proof (rotation_cofactor a H) as HC. pose proof (rotation_right_inverse a H) as HR.
  destruct H as [Ho _]. destruct a as [a00 a01 a02 a10 a11 a12 a20 a21 a22].
  unfold cofactor, m3_mul, m3_T, m3_one in *. cbn [m00 m01 m02 m10 m11 m12 m20 m21 m22] in *.
  injection HC as C0 C1 C2 C3 C4 C5 C6 C7 C8.
  injection HR as R0 R1 R2 _ R4 R5 _ _ R8. injection Ho as O0 O1 O2 _ O4 O5 _ _ O8.
  unfold pr_quaternion_from_matrix, m3_trace. cbn [m00 m01 m02 m10 m11 m12 m20 m21 m22].
  (* products of the four diagonal sums *)
  assert (P1 : (a21 - a12) ^ 2 = (1 + a00 + a11 + a22) * (1 + a00 - a11 - a22)) by lra.
  assert (P2 : (a02 - a20) ^ 2 = (1 + a00 + a11 + a22) * (1 - a00 + a11 - a22)) by lra.
  assert (P3 : (a10 - a01) ^ 2 = (1 + a00 + a11 + a22) * (1 - a00 - a11 + a22)) by lra.
  assert (P4 : (a10 + a01) ^ 2 = (1 + a00 - a11 - a22) * (1 - a00 + a11 - a22)) by lra.
  assert (P5 : (a02 + a20) ^ 2 = (1 + a00 - a11 - a22) * (1 - a00 - a11 + a22)) by lra.
  assert (P6 : (a21 + a12) ^ 2 = (1 - a00 + a11 - a22) * (1 - a00 - a11 + a22)) by lra.
  assert (Q1 : (a21 - a12) * (a02 - a20) = (1 + a00 + a11 + a22) * (a10 + a01)) by lra.
  assert (Q2 : (a21 - a12) * (a10 - a01) = (1 + a00 + a11 + a22) * (a02 + a20)) by lra.
  assert (Q3 : (a02 - a20) * (a10 - a01) = (1 + a00 + a11 + a22) * (a21 + a12)) by lra.
  assert (Q4 : (a21 - a12) * (a10 + a01) = (1 + a00 - a11 - a22) * (a02 - a20)) by lra.
  assert (Q5 : (a21 - a12) * (a02 + a20) = (1 + a00 - a11 - a22) * (a10 - a01)) by lra.
  assert (Q6 : (a10 + a01) * (a02 + a20) = (1 + a00 - a11 - a22) * (a21 + a12)) by lra.
  assert (Q7 : (a02 - a20) * (a10 + a01) = (1 - a00 + a11 - a22) * (a21 - a12)) by lra.
  assert (Q8 : (a02 - a20) * (a21 + a12) = (1 - a00 + a11 - a22) * (a10 - a01)) by lra.
  assert (Q9 : (a10 + a01) * (a21 + a12) = (1 - a00 + a11 - a22) * (a02 + a20)) by lra.
  assert (Q10 : (a10 - a01) * (a02 + a20) = (1 - a00 - a11 + a22) * (a21 - a12)) by lra.
  assert (Q11 : (a10 - a01) * (a21 + a12) = (1 - a00 - a11 + a22) * (a02 - a20)) by lra.
  assert (Q12 : (a02 + a20) * (a21 + a12) = (1 - a00 - a11 + a22) * (a10 + a01)) by lra.
  (* the ten products of the components determine everything *)
  assert (Fin : forall w x y z,
    4 * (w * w) = 1 + a00 + a11 + a22 -> 4 * (x * x) = 1 + a00 - a11 - a22 ->
    4 * (y * y) = 1 - a00 + a11 - a22 -> 4 * (z * z) = 1 - a00 - a11 + a22 ->
    4 * (w * x) = a21 - a12 -> 4 * (w * y) = a02 - a20 -> 4 * (w * z) = a10 - a01 ->
    4 * (x * y) = a10 + a01 -> 4 * (x * z) = a02 + a20 -> 4 * (y * z) = a21 + a12 ->
    unit_quat (M_Quaternion.Q4 w x y z)
    /\ matrix_of_unit (M_Quaternion.Q4 w x y z) = M3 a00 a01 a02 a10 a11 a12 a20 a21 a22).
  { intros w x y z. intros. split; [unfold unit_quat; cbn; lra|]. apply m3_eq; cbn; lra. }
  (* products of the components that are computed *)
  assert (SS : forall D, 0 < D -> 4 * ((1/2 * sqrt D) * (1/2 * sqrt D)) = D).
  { intros D HD. pose proof (sqrt_sqrt D ltac:(lra)). lra. }
  assert (SX : forall D X, 0 < D -> 4 * ((1/2 * sqrt D) * (1/2 / sqrt D * X)) = X).
  { intros D X HD. pose proof (sqrt_lt_R0 D HD). field. lra. }
  assert (XX : forall D X Y K, 0 < D -> X * Y = D * K -> 4 * ((1/2 / sqrt D * X) * (1/2 / sqrt D * Y)) = K).
  { intros D X Y K HD E. pose proof (sqrt_lt_R0 D HD). pose proof (sqrt_sqrt D ltac:(lra)) as S2.
    replace (4 * (1/2 / sqrt D * X * (1/2 / sqrt D * Y))) with (X * Y / (sqrt D * sqrt D)) by (field; lra).
    rewrite S2, E. field. lra. }
  assert (SX' : forall D X, 0 < D -> 4 * ((1/2 / sqrt D * X) * (1/2 * sqrt D)) = X).
  { intros D X HD. rewrite (Rmult_comm (1/2 / sqrt D * X)). now apply SX. }
  clear C0 C1 C2 C3 C4 C5 C6 C7 C8 R0 R1 R2 R4 R5 R8 O0 O1 O2 O4 O5 O8.
  destruct (Rlt_dec 0 (a00 + a11 + a22)).
  - apply Fin; rewrite ?SS, ?SX, ?SX' by lra; try lra; apply XX; lra.
  - destruct (Rlt_dec a11 a00).
    + destruct (Rlt_dec a22 a00).
      * apply Fin; rewrite ?SS, ?SX, ?SX' by lra; try lra; apply XX; lra.
      * apply Fin; rewrite ?SS, ?SX, ?SX' by lra; try lra; apply XX; lra.
    + destruct (Rlt_dec a22 a11).
      * apply Fin; rewrite ?SS, ?SX, ?SX' by lra; try lra; apply XX; lra.
      * apply Fin; rewrite ?SS, ?SX, ?SX' by lra; try lra; apply XX; lra.
Qed.

(** A unit quaternion is determined by its matrix up to the sign. *)
Lemma matrix_injective p q : unit_quat p -> unit_quat q -> matrix_of_unit p = matrix_of_unit q ->
  p = q \/ p = q_neg q.
Proof.
  intros Hp Hq E. rewrite !matrix_of_unit_h in E by auto.
  (* p conj(q) has the identity matrix *)
  assert (HI : matrix_h (hamilton p (cy_conj q)) = m3_one).
  { assert (Hc := cy_conj_unit q Hq). rewrite <- matrix_of_unit_h by auto using hamilton_unit.
    rewrite matrix_hamilton by auto. rewrite (matrix_of_unit_h p) by auto. rewrite E, <- matrix_of_unit_h by auto.
    rewrite matrix_conj. now apply rotation_right_inverse, matrix_rotation. }
  assert (Hu : unit_quat (hamilton p (cy_conj q))) by auto using hamilton_unit, cy_conj_unit.
  assert (Er : p = hamilton (hamilton p (cy_conj q)) q).
  { rewrite hamilton_assoc, conj_l by auto. now rewrite hamilton_one_r. }
  set (r := hamilton p (cy_conj q)) in *. clearbody r.
  destruct r as [w x y z]. unfold unit_quat in Hu. cbn [qw qx qy qz] in Hu. unfold matrix_h, m3_one in HI.
  injection HI as H0 _ _ _ H4 _ _ _ H8.
  assert (Hx : x = 0) by nra. assert (Hy : y = 0) by nra. assert (Hz : z = 0) by nra. subst x y z.
  assert (Hw : (w - 1) * (w + 1) = 0) by nra. apply Rmult_integral in Hw.
  destruct Hw as [Hw|Hw]; [left|right]; rewrite Er.
  - replace w with 1 by lra. apply hamilton_one_l.
  - replace w with (-1) by lra. apply quat_eq; simpl; ring.
Qed.

Lemma quaternion_from_matrix_of_unit q : unit_quat q ->
  pr_quaternion_from_matrix (matrix_of_unit q) = q \/ pr_quaternion_from_matrix (matrix_of_unit q) = q_neg q.
Proof.
  intros H. destruct (quaternion_from_matrix_correct _ (matrix_rotation q H)) as [H1 H2].
  apply matrix_injective; auto.
Qed.

(** ** Rigid transformations *)
Definition is_rigid (a : rigid) : Prop := rotation (r_rot a).

Lemma rigid_mul_assoc a b c : rigid_mul (rigid_mul a b) c = rigid_mul a (rigid_mul b c).
Proof.
  unfold rigid_mul. cbn [r_rot r_pos]. f_equal; [apply m3_mul_assoc|].
  rewrite m3_app_mul, m3_app_add. apply v3_eq; simpl; ring.
Qed.
Lemma rigid_mul_1_l a : rigid_mul rigid_one a = a.
Proof. destruct a as [r p]. unfold rigid_mul. cbn [rigid_one r_rot r_pos]. rewrite m3_mul_1_l, m3_app_one. f_equal. apply v3_eq; simpl; ring. Qed.
Lemma rigid_mul_1_r a : rigid_mul a rigid_one = a.
Proof. destruct a as [r p]. unfold rigid_mul. cbn [rigid_one r_rot r_pos]. rewrite m3_mul_1_r. f_equal. apply v3_eq; simpl; ring. Qed.
Lemma rigid_inv_l a : is_rigid a -> rigid_mul (pt_invert a) a = rigid_one.
Proof.
  intros [H _]. destruct a as [r p]. unfold rigid_mul, pt_invert, rigid_one. cbn [r_rot r_pos] in *. rewrite H. f_equal.
  apply v3_eq; simpl; ring.
Qed.
Lemma rigid_inv_r a : is_rigid a -> rigid_mul a (pt_invert a) = rigid_one.
Proof.
  intros H. destruct a as [r p]. unfold rigid_mul, pt_invert, rigid_one, is_rigid in *. cbn [r_rot r_pos] in *.
  rewrite rotation_right_inverse by auto. f_equal.
  rewrite m3_app_scale, <- m3_app_mul, rotation_right_inverse, m3_app_one by auto.
  apply v3_eq; simpl; ring.
Qed.
Lemma is_rigid_mul a b : is_rigid a -> is_rigid b -> is_rigid (rigid_mul a b).
Proof. apply rotation_mul. Qed.
Lemma is_rigid_invert a : is_rigid a -> is_rigid (pt_invert a).
Proof. apply rotation_T. Qed.
Lemma is_rigid_pq p q : unit_quat q -> is_rigid (pt_transform_from_pq p q).
Proof. intros H. unfold is_rigid. cbn. rewrite pr_matrix_unit by auto. now apply matrix_rotation. Qed.

(** ** Rotation about an axis *)
Lemma axis_angle_matrix_rodrigues u th v : m3_app (axis_angle_matrix u th) v = rodrigues u th v.
Proof. destruct u, v. apply v3_eq; unfold rodrigues, v3_dot; simpl; ring. Qed.

Lemma axis_angle_matrix_quat u th : unit_v3 u -> axis_angle_matrix u th = matrix_of_unit (axis_quat u th).
Proof.
  intros Hu.
  assert (H : forall v, m3_app (axis_angle_matrix u th) v = m3_app (matrix_of_unit (axis_quat u th)) v).
  { intros v. rewrite axis_angle_matrix_rodrigues, matrix_rotate, rotate_axis by auto using axis_quat_unit. reflexivity. }
  pose proof (H (V3 1 0 0)) as H1. pose proof (H (V3 0 1 0)) as H2. pose proof (H (V3 0 0 1)) as H3.
  set (A := axis_angle_matrix u th) in *. set (B := matrix_of_unit (axis_quat u th)) in *. clearbody A B.
  unfold m3_app in *. cbn [v3x v3y v3z] in *.
  injection H1 as X1 X2 X3. injection H2 as Y1 Y2 Y3. injection H3 as Z1 Z2 Z3.
  apply m3_eq; lra.
Qed.
