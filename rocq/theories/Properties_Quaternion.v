(** C32: quaternion algebra.  [i] selects the Python functions (pytransform3d) or
    the Cython functions (dmp_fast.pyx).  Final statements. *)
From Coq Require Import Reals ZArith Lia Lra Psatz.
From Verif Require Import M_Prelude M_Quaternion S_Rotation P_Quaternion.
Open Scope R_scope.
Set Bullet Behavior "Strict Subproofs".

(** On unit quaternions the product is a group operation with the conjugate as
    inverse, and multiplying quaternions composes rotations. *)
Theorem C32_group : forall i p q r v,
  unit_quat p -> unit_quat q -> unit_quat r ->
  unit_quat (i_mul i p q)
  /\ i_mul i (i_mul i p q) r = i_mul i p (i_mul i q r)
  /\ i_mul i q_one q = q /\ i_mul i q q_one = q
  /\ unit_quat (i_conj i q)
  /\ i_mul i q (i_conj i q) = q_one /\ i_mul i (i_conj i q) q = q_one
  /\ i_conj i (i_mul i p q) = i_mul i (i_conj i q) (i_conj i p)
  /\ rotate (i_mul i p q) v = rotate p (rotate q v).
Proof.
  intros i p q r v Hp Hq Hr.
  pose proof (hamilton_unit p q Hp Hq). pose proof (hamilton_unit q r Hq Hr).
  pose proof (cy_conj_unit q Hq). pose proof (cy_conj_unit p Hp). pose proof one_unit.
  rewrite !(i_conj_unit i q), !(i_conj_unit i p) by auto.
  rewrite !(i_mul_unit i p q), !(i_mul_unit i q r) by auto.
  rewrite !i_mul_unit by auto. rewrite i_conj_unit by auto.
  repeat split; auto using hamilton_assoc, hamilton_one_l, hamilton_one_r, conj_r, conj_l,
    conj_hamilton, rotate_hamilton.
Qed.

(** For arbitrary quaternions: the Python product multiplies norms; the Cython
    product of nonzero quaternions is a unit quaternion; both are associative. *)
Theorem C32_arbitrary_norm : forall p q r,
  q_norm (i_mul Python p q) = q_norm p * q_norm q
  /\ i_mul Python (i_mul Python p q) r = i_mul Python p (i_mul Python q r)
  /\ (q_norm p <> 0 -> q_norm q <> 0 -> q_norm r <> 0 ->
      unit_quat (i_mul Cython p q)
      /\ i_mul Cython (i_mul Cython p q) r = i_mul Cython p (i_mul Cython q r)).
Proof.
  intros p q r. split; [apply hamilton_norm|]. split; [apply hamilton_assoc|].
  intros Hp Hq Hr.
  assert (Hn : forall a b, q_norm a <> 0 -> q_norm b <> 0 -> q_norm (hamilton a b) <> 0).
  { intros a b Ha Hb. rewrite hamilton_norm. now apply Rmult_integral_contrapositive. }
  assert (Hn2 : forall a, q_norm a <> 0 -> n2 a <> 0).
  { intros a Ha E. apply Ha. rewrite q_norm_n2, E. apply sqrt_0. }
  split; [apply normalised_unit; auto|].
  simpl. unfold cy_mul. cbv zeta.
  assert (HL : forall a b c, c <> 0 -> hamilton (q_divs a c) b = q_divs (hamilton a b) c).
  { intros a b c Hc. destruct a, b. apply quat_eq; simpl; field; auto. }
  assert (HR : forall a b c, c <> 0 -> hamilton a (q_divs b c) = q_divs (hamilton a b) c).
  { intros a b c Hc. destruct a, b. apply quat_eq; simpl; field; auto. }
  assert (HN : forall a c, 0 < c -> q_norm (q_divs a c) = q_norm a / c).
  { intros a c Hc. rewrite !q_norm_n2, n2_divs by lra. rewrite sqrt_div_alt by (apply pow_lt; lra).
    rewrite sqrt_pow2 by lra. reflexivity. }
  assert (HP : forall a, q_norm a <> 0 -> 0 < q_norm a).
  { intros a Ha. assert (0 <= q_norm a) by apply sqrt_pos. lra. }
  assert (HD : forall a c, 0 < c -> q_norm a <> 0 -> q_divs (q_divs a c) (q_norm (q_divs a c)) = q_divs a (q_norm a)).
  { intros a c Hc Ha. rewrite HN by auto. destruct a. apply quat_eq; simpl; field; split; auto; lra. }
  rewrite HL, HR by auto. rewrite !HD by auto using HP. now rewrite hamilton_assoc.
Qed.

(** The exponential of a rotation vector is a unit quaternion and stands for the
    rotation about the direction of the vector by its length. *)
Theorem C32_exponential : forall i u angle v,
  unit_v3 u -> 0 <= angle ->
  unit_quat (i_exp i (v3_scale angle u))
  /\ rotate (i_exp i (v3_scale angle u)) v = rodrigues u angle v.
Proof.
  intros i u th v Hu Hth. split; [apply i_exp_unit|].
  destruct (exp_axis_sign i u th Hu Hth) as [-> | ->];
    rewrite ?rotate_neg; now apply rotate_axis.
Qed.

(** The logarithm has length at most pi, and is inverse to the exponential up to
    the sign of the quaternion; rotations whose vector part is below the threshold
    of the implementation (1e-7 or 1e-16) are treated as no rotation. *)
Theorem C32_logarithm : forall i q, unit_quat q ->
  v3_norm (i_log i q) <= PI
  /\ (log_threshold i <= v3_norm (V3 (qx q) (qy q) (qz q)) ->
      (i_exp i (i_log i q) = q \/ i_exp i (i_log i q) = q_neg q)
      /\ (forall v, rotate (i_exp i (i_log i q)) v = rotate q v))
  /\ (v3_norm (V3 (qx q) (qy q) (qz q)) < log_threshold i -> i_log i q = v3_zero).
Proof.
  intros i q Hq. split; [now apply log_length|]. split.
  - intros Ht. pose proof (exp_log i q Hq Ht) as H. split; auto. intros v.
    destruct H as [-> | ->]; auto using rotate_neg.
  - intros Ht. rewrite i_log_unit by auto. destruct (Rlt_dec _ _); auto. contradiction.
Qed.

Theorem C32_log_exp : forall i a, v3_norm a < PI ->
  (log_threshold i <= sin (v3_norm a / 2) -> i_log i (i_exp i a) = a)
  /\ (sin (v3_norm a / 2) < log_threshold i -> i_log i (i_exp i a) = v3_zero).
Proof.
  intros i a Ha. rewrite log_exp by auto. split; intros H.
  - destruct (Rlt_dec _ _); auto. lra.
  - destruct (Rlt_dec _ _); auto. contradiction.
Qed.

(** A quaternion and its negative have the same logarithm, unless the rotation
    angle is exactly pi (real part zero): then the sign flips. *)
Theorem C32_double_cover : forall i q, unit_quat q ->
  (qw q <> 0 -> i_log i (q_neg q) = i_log i q)
  /\ (qw q = 0 -> i_log i (q_neg q) = v3_scale (-1) (i_log i q)).
Proof. intros i q Hq. now apply log_neg. Qed.

(** The two implementations agree on unit quaternions, except for the logarithm of
    rotations by exactly pi and of tiny rotations, and for the sign of the
    exponential of rotation vectors longer than pi. *)
Theorem C32_implementations_agree : forall p q a, unit_quat p -> unit_quat q ->
  i_mul Python p q = i_mul Cython p q
  /\ i_conj Python q = i_conj Cython q
  /\ (v3_norm a <= PI -> i_exp Python a = i_exp Cython a)
  /\ (i_exp Python a = i_exp Cython a \/ i_exp Python a = q_neg (i_exp Cython a))
  /\ (qw q <> 0 -> log_threshold Python <= v3_norm (V3 (qx q) (qy q) (qz q)) ->
      i_log Python q = i_log Cython q).
Proof.
  intros p q a Hp Hq. split; [now rewrite !i_mul_unit|]. split; [now rewrite !i_conj_unit|].
  split; [intros; now apply pr_exp_small|]. split.
  - destruct (v3_polar a) as (u & Hu & E). rewrite E.
    destruct (exp_axis_sign Python u (v3_norm a) Hu (v3_norm_pos a)) as [-> | ->];
      simpl; rewrite cy_exp_axis by auto; auto.
  - intros Hw Ht. rewrite !i_log_unit by auto.
    assert (Ho : log_threshold Cython <= log_threshold Python).
    { simpl. apply Rinv_le_contravar; lra. }
    unfold vpart. destruct (Rlt_dec _ _); [lra|]. destruct (Rlt_dec _ _); [lra|].
    replace (log_angle Python (qw q)) with (log_angle Cython (qw q)); auto.
    simpl. destruct (Rlt_dec 0 (qw q)), (Rle_dec 0 (qw q)); auto; lra.
Qed.

(** At a rotation by exactly pi the implementations give opposite vectors. *)
Theorem C32_implementations_at_pi : 
  i_log Python (Q4 0 1 0 0) = V3 PI 0 0 /\ i_log Cython (Q4 0 1 0 0) = V3 (- PI) 0 0.
Proof.
  assert (Hu : unit_quat (Q4 0 1 0 0)) by (unfold unit_quat; simpl; ring).
  assert (En : v3_norm (vpart (Q4 0 1 0 0)) = 1).
  { apply unit_v3_norm. unfold unit_v3; simpl; ring. }
  rewrite !i_log_unit by auto. rewrite En.
  assert (H1 : forall i, log_threshold i < 1).
  { intros []; cbn [log_threshold]; rewrite <- Rinv_1; apply Rinv_lt_contravar; lra. }
  destruct (Rlt_dec 1 (log_threshold Python)) as [H|_]; [specialize (H1 Python); lra|].
  destruct (Rlt_dec 1 (log_threshold Cython)) as [H|_]; [specialize (H1 Cython); lra|].
  simpl. rewrite acos_0. destruct (Rle_dec 0 0); [|lra]. destruct (Rlt_dec 0 0); [lra|].
  split; apply v3_eq; simpl; field.
Qed.

Example C32_satisfiable : unit_quat (Q4 (3/5) (4/5) 0 0) /\ qw (Q4 (3/5) (4/5) 0 0) <> 0
  /\ log_threshold Python <= v3_norm (V3 (4/5) 0 0) /\ unit_v3 (V3 (3/5) 0 (4/5)).
Proof.
  unfold unit_quat, unit_v3. cbn [qw qx qy qz v3x v3y v3z].
  assert (E : v3_norm (V3 (4/5) 0 0) = 4/5).
  { unfold v3_norm. simpl. replace (4/5*(4/5)+0*0+0*0) with ((4/5)^2) by ring.
    apply sqrt_pow2. lra. }
  rewrite E. repeat split; try lra.
  simpl. assert (/ (10 * (10 * (10 * (10 * (10 * (10 * (10 * 1))))))) <= / 2)
    by (apply Rinv_le_contravar; lra). lra.
Qed.
