(** C62: the pose error is a distance between poses. *)
From Coq Require Import Reals List String Bool Arith Lia Lra.
From Verif Require Import M_Prelude M_Quaternion S_Rotation P_Quaternion M_Rigid S_Rigid P_Rigid M_Kinematics
  Properties_Obstacle Properties_Kinematics.
Import ListNotations.
Open Scope R_scope.
Set Bullet Behavior "Strict Subproofs".

(** ** The inverse of a rigid transformation *)
Lemma adjugate_T a : adjugate a = m3_T (cofactor a).
Proof. reflexivity. Qed.

Lemma np_linalg_inv4_rigid a : is_rigid a -> np_linalg_inv4 a = Ok (pt_invert a).
Proof.
  intros H. unfold np_linalg_inv4.
  assert (Ha : adjugate (r_rot a) = m3_T (r_rot a)) by (rewrite adjugate_T, rotation_cofactor by exact H; reflexivity).
  assert (Hd : determinant (r_rot a) = 1).
  { transitivity (m3_det (r_rot a)); [|apply H]. unfold determinant, m3_det, adjugate. cbn. ring. }
  rewrite Hd, Ha. destruct (Req_EM_T 1 0); [lra|].
  assert (E : m3_divs (m3_T (r_rot a)) 1 = m3_T (r_rot a)) by (apply m3_eq; cbn; field).
  now rewrite E.
Qed.

(** ** The angle between two rotations *)
Definition qdot (p q : quat) : R := qw p * qw q + qx p * qx q + qy p * qy q + qz p * qz q.

Lemma lagrange4 a0 a1 a2 a3 b0 b1 b2 b3 :
  (a0 * b0 + a1 * b1 + a2 * b2 + a3 * b3) ^ 2 <= (a0 ^ 2 + a1 ^ 2 + a2 ^ 2 + a3 ^ 2) * (b0 ^ 2 + b1 ^ 2 + b2 ^ 2 + b3 ^ 2).
Proof.
  assert (E : (a0 ^ 2 + a1 ^ 2 + a2 ^ 2 + a3 ^ 2) * (b0 ^ 2 + b1 ^ 2 + b2 ^ 2 + b3 ^ 2)
     - (a0 * b0 + a1 * b1 + a2 * b2 + a3 * b3) ^ 2
     = (a0 * b1 - a1 * b0) ^ 2 + (a0 * b2 - a2 * b0) ^ 2 + (a0 * b3 - a3 * b0) ^ 2
       + (a1 * b2 - a2 * b1) ^ 2 + (a1 * b3 - a3 * b1) ^ 2 + (a2 * b3 - a3 * b2) ^ 2) by ring.
  pose proof (pow2_ge_0 (a0 * b1 - a1 * b0)). pose proof (pow2_ge_0 (a0 * b2 - a2 * b0)).
  pose proof (pow2_ge_0 (a0 * b3 - a3 * b0)). pose proof (pow2_ge_0 (a1 * b2 - a2 * b1)).
  pose proof (pow2_ge_0 (a1 * b3 - a3 * b1)). pose proof (pow2_ge_0 (a2 * b3 - a3 * b2)). lra.
Qed.

Lemma qdot_range p q : unit_quat p -> unit_quat q -> Rabs (qdot p q) <= 1.
Proof.
  destruct p as [a0 a1 a2 a3], q as [b0 b1 b2 b3]. unfold unit_quat, qdot. cbn [qw qx qy qz]. intros H1 H2.
  pose proof (lagrange4 a0 a1 a2 a3 b0 b1 b2 b3) as H. rewrite H1, H2 in H.
  rewrite <- Rabs_R1. apply Rsqr_le_abs_0. unfold Rsqr. lra.
Qed.

Lemma qdot_gram p q r : unit_quat p -> unit_quat q -> unit_quat r ->
  (qdot p r - qdot p q * qdot q r) ^ 2 <= (1 - qdot p q ^ 2) * (1 - qdot q r ^ 2).
Proof.
  destruct p as [a0 a1 a2 a3], q as [b0 b1 b2 b3], r as [c0 c1 c2 c3]. unfold unit_quat, qdot. cbn [qw qx qy qz].
  intros H1 H2 H3.
  set (x := a0 * b0 + a1 * b1 + a2 * b2 + a3 * b3). set (y := b0 * c0 + b1 * c1 + b2 * c2 + b3 * c3).
  pose proof (lagrange4 (a0 - x * b0) (a1 - x * b1) (a2 - x * b2) (a3 - x * b3)
                        (c0 - y * b0) (c1 - y * b1) (c2 - y * b2) (c3 - y * b3)) as H.
  replace ((a0 - x * b0) * (c0 - y * b0) + (a1 - x * b1) * (c1 - y * b1) + (a2 - x * b2) * (c2 - y * b2)
           + (a3 - x * b3) * (c3 - y * b3)) with (a0 * c0 + a1 * c1 + a2 * c2 + a3 * c3 - x * y) in H.
  2: { transitivity (a0 * c0 + a1 * c1 + a2 * c2 + a3 * c3 - x * y - x * y + x * y * (b0 ^ 2 + b1 ^ 2 + b2 ^ 2 + b3 ^ 2));
       [rewrite H2; ring|]. unfold x, y. ring. }
  replace ((a0 - x * b0) ^ 2 + (a1 - x * b1) ^ 2 + (a2 - x * b2) ^ 2 + (a3 - x * b3) ^ 2) with (1 - x ^ 2) in H.
  2: { transitivity ((a0 ^ 2 + a1 ^ 2 + a2 ^ 2 + a3 ^ 2) - 2 * x * x + x ^ 2 * (b0 ^ 2 + b1 ^ 2 + b2 ^ 2 + b3 ^ 2));
       [rewrite H1, H2; ring|]. unfold x. ring. }
  replace ((c0 - y * b0) ^ 2 + (c1 - y * b1) ^ 2 + (c2 - y * b2) ^ 2 + (c3 - y * b3) ^ 2) with (1 - y ^ 2) in H.
  2: { transitivity ((c0 ^ 2 + c1 ^ 2 + c2 ^ 2 + c3 ^ 2) - 2 * y * y + y ^ 2 * (b0 ^ 2 + b1 ^ 2 + b2 ^ 2 + b3 ^ 2));
       [rewrite H3, H2; ring|]. unfold y. ring. }
  exact H.
Qed.

(** Half of the angle between two orientations given by quaternions. *)
Definition half_angle (p q : quat) : R := acos (Rabs (qdot p q)).

Lemma half_angle_range p q : unit_quat p -> unit_quat q -> 0 <= half_angle p q <= PI / 2.
Proof.
  intros Hp Hq. pose proof (qdot_range p q Hp Hq) as H. pose proof (Rabs_pos (qdot p q)) as H0.
  unfold half_angle. split; [apply acos_bound|]. rewrite acos_asin by lra.
  assert (0 <= asin (Rabs (qdot p q))); [|lra].
  rewrite <- asin_0. destruct H0 as [H0|H0]; [|rewrite <- H0; lra].
  left. destruct H as [H|H].
  - rewrite asin_0. apply sin_increasing_0; try (pose proof (asin_bound (Rabs (qdot p q))); pose proof PI_RGT_0; lra).
    rewrite sin_0, sin_asin by lra. exact H0.
  - rewrite H, asin_0, asin_1. pose proof PI_RGT_0. lra.
Qed.

Lemma half_angle_triangle p q r : unit_quat p -> unit_quat q -> unit_quat r ->
  half_angle p r <= half_angle p q + half_angle q r.
Proof.
  intros Hp Hq Hr.
  pose proof (half_angle_range p r Hp Hr) as R1. pose proof (half_angle_range p q Hp Hq) as R2.
  pose proof (half_angle_range q r Hq Hr) as R3.
  pose proof (qdot_range p q Hp Hq) as B1. pose proof (qdot_range q r Hq Hr) as B2. pose proof (qdot_range p r Hp Hr) as B3.
  pose proof (Rabs_pos (qdot p q)) as P1. pose proof (Rabs_pos (qdot q r)) as P2. pose proof (Rabs_pos (qdot p r)) as P3.
  destruct (Rle_lt_dec (half_angle p r) (half_angle p q + half_angle q r)) as [|Hlt]; [assumption|exfalso].
  assert (Hc : cos (half_angle p r) < cos (half_angle p q + half_angle q r)) by (apply cos_decreasing_1; lra).
  rewrite cos_plus in Hc. unfold half_angle in Hc. rewrite !cos_acos, !sin_acos in Hc by lra.
  pose proof (qdot_gram p q r Hp Hq Hr) as G.
  set (x := qdot p q) in *. set (y := qdot q r) in *. set (z := qdot p r) in *.
  rewrite <- !Rsqr_abs in Hc.
  assert (S : Rabs (z - x * y) <= sqrt (1 - x²) * sqrt (1 - y²)).
  { rewrite <- sqrt_mult.
    - rewrite <- sqrt_Rsqr_abs. apply sqrt_le_1_alt. unfold Rsqr. lra.
    - assert (x² <= 1²) by (apply Rsqr_le_abs_1; rewrite Rabs_R1; exact B1). unfold Rsqr in *. lra.
    - assert (y² <= 1²) by (apply Rsqr_le_abs_1; rewrite Rabs_R1; exact B2). unfold Rsqr in *. lra. }
  assert (T : Rabs x * Rabs y <= Rabs z + Rabs (z - x * y)).
  { rewrite <- Rabs_mult. replace (x * y) with (z + - (z - x * y)) at 1 by ring.
    eapply Rle_trans; [apply Rabs_triang|]. rewrite Rabs_Ropp. lra. }
  lra.
Qed.

(** The trace of the difference of two rotations. *)
Lemma trace_between p q : unit_quat p -> unit_quat q ->
  let d := m3_mul (m3_T (matrix_of_unit p)) (matrix_of_unit q) in
  (m00 d + m11 d + m22 d - 1) / 2 = 2 * qdot p q ^ 2 - 1.
Proof.
  intros Hp Hq. cbv zeta. rewrite <- matrix_conj, <- matrix_hamilton by (auto; destruct p; unfold unit_quat in *; cbn in *; lra).
  assert (Hu : unit_quat (hamilton (cy_conj p) q)) by (apply hamilton_unit; auto; destruct p; unfold unit_quat in *; cbn in *; lra).
  assert (Hw : qw (hamilton (cy_conj p) q) = qdot p q) by (destruct p, q; unfold qdot; cbn; ring).
  rewrite <- Hw. destruct (hamilton (cy_conj p) q) as [w x y z]. unfold unit_quat in Hu. cbn in *. lra.
Qed.

Lemma acos_double x : Rabs x <= 1 -> acos (2 * x ^ 2 - 1) = 2 * acos (Rabs x).
Proof.
  intros H. pose proof (Rabs_pos x) as H0.
  assert (E : cos (2 * acos (Rabs x)) = 2 * x ^ 2 - 1).
  { rewrite cos_2a_cos, cos_acos by lra. rewrite <- (pow2_abs x). ring. }
  rewrite <- E. apply acos_cos. pose proof (acos_bound (Rabs x)) as B.
  assert (acos (Rabs x) <= PI / 2); [|lra].
  destruct (Rle_lt_dec (acos (Rabs x)) (PI / 2)) as [|Hlt]; [assumption|exfalso].
  assert (C : cos (acos (Rabs x)) < cos (PI / 2)) by (apply cos_decreasing_1; lra).
  rewrite cos_acos, cos_PI2 in C by lra. lra.
Qed.

(** The pose error in terms of quaternions of the two orientations. *)
Lemma v3_norm_pow v : sqrt (v3x v ^ 2 + v3y v ^ 2 + v3z v ^ 2) = v3_norm v.
Proof. unfold v3_norm. f_equal. ring. Qed.

Lemma rotation_norm a v : rotation a -> v3_norm (m3_app a v) = v3_norm v.
Proof.
  intros [H _]. unfold v3_norm. f_equal.
  destruct a as [a00 a01 a02 a10 a11 a12 a20 a21 a22], v as [x y z].
  unfold m3_mul, m3_T, m3_one in H. cbn in H. injection H as O0 O1 O2 _ O4 O5 _ _ O8. cbn.
  transitivity ((a00 * a00 + a10 * a10 + a20 * a20) * (x * x) + (a01 * a01 + a11 * a11 + a21 * a21) * (y * y)
    + (a02 * a02 + a12 * a12 + a22 * a22) * (z * z) + 2 * (a00 * a01 + a10 * a11 + a20 * a21) * (x * y)
    + 2 * (a00 * a02 + a10 * a12 + a20 * a22) * (x * z) + 2 * (a01 * a02 + a11 * a12 + a21 * a22) * (y * z)); [ring|].
  rewrite O0, O1, O2, O4, O5, O8. ring.
Qed.

Lemma pose_dist_eq desired actual ow pw : is_rigid desired -> is_rigid actual ->
  pose_dist desired actual ow pw
  = Ok (ow * (2 * half_angle (pr_quaternion_from_matrix (r_rot actual)) (pr_quaternion_from_matrix (r_rot desired)))
        + pw * v3_norm (v3_sub (r_pos desired) (r_pos actual))).
Proof.
  intros Hd Ha. unfold pose_dist. rewrite np_linalg_inv4_rigid by auto. cbn [bind].
  destruct (quaternion_from_matrix_correct _ Hd) as [Ud Ed]. destruct (quaternion_from_matrix_correct _ Ha) as [Ua Ea].
  set (p := pr_quaternion_from_matrix (r_rot actual)) in *. set (q := pr_quaternion_from_matrix (r_rot desired)) in *.
  assert (T := trace_between p q Ua Ud). cbv zeta in T. rewrite Ea, Ed in T.
  cbn [rigid_mul pt_invert r_rot r_pos]. rewrite T.
  pose proof (qdot_range p q Ua Ud) as B.
  assert (Hw : 0 <= qdot p q ^ 2 <= 1).
  { split; [apply pow2_ge_0|]. rewrite <- (pow2_abs (qdot p q)). pose proof (Rabs_pos (qdot p q)). nra. }
  rewrite Rmin_left by lra. unfold math_acos. destruct (Rlt_dec _ _); [lra|]. destruct (Rlt_dec _ _); [lra|].
  cbn [bind]. rewrite acos_double by auto. fold (half_angle p q).
  pose proof (half_angle_range p q Ua Ud) as A. rewrite Rmin_left by (pose proof PI_RGT_0; lra).
  rewrite v3_norm_pow. do 3 f_equal.
  rewrite <- (rotation_norm (m3_T (r_rot actual)) (v3_sub (r_pos desired) (r_pos actual))) by now apply rotation_T.
  f_equal. rewrite m3_app_sub. apply v3_eq; cbn; ring.
Qed.

Lemma matrix_neg q : matrix_of_unit (q_neg q) = matrix_of_unit q.
Proof. destruct q. apply m3_eq; cbn; ring. Qed.

(** ** The theorems *)

(** The argument of the arc cosine lies in [-1, 1] for all rotations. *)
Theorem C62_argument_in_range : forall a b, rotation a -> rotation b ->
  let d := m3_mul (m3_T a) b in -1 <= (m3_trace d - 1) / 2 <= 1.
Proof.
  intros a b Ha Hb d. destruct (quaternion_from_matrix_correct _ Ha) as [Ua Ea].
  destruct (quaternion_from_matrix_correct _ Hb) as [Ub Eb].
  assert (T := trace_between _ _ Ua Ub). cbv zeta in T. rewrite Ea, Eb in T. unfold d, m3_trace. rewrite T.
  pose proof (qdot_range _ _ Ua Ub) as B. set (w := qdot _ _) in *.
  assert (0 <= w ^ 2 <= 1); [|lra].
  split; [apply pow2_ge_0|]. rewrite <- (pow2_abs w). pose proof (Rabs_pos w). nra.
Qed.

Theorem C62_distance : forall ow pw, 0 < ow -> 0 < pw ->
  forall a b c, is_rigid a -> is_rigid b -> is_rigid c ->
  exists eab eba ebc eac,
    pose_dist a b ow pw = Ok eab /\ pose_dist b a ow pw = Ok eba
    /\ pose_dist b c ow pw = Ok ebc /\ pose_dist a c ow pw = Ok eac
    /\ 0 <= eab /\ eab = eba /\ (eab = 0 <-> a = b) /\ eac <= eab + ebc.
Proof.
  intros ow pw How Hpw a b c Ha Hb Hc.
  destruct (quaternion_from_matrix_correct _ Ha) as [Ua Ea]. destruct (quaternion_from_matrix_correct _ Hb) as [Ub Eb].
  destruct (quaternion_from_matrix_correct _ Hc) as [Uc Ec].
  do 4 eexists. split; [now apply pose_dist_eq|]. split; [now apply pose_dist_eq|].
  split; [now apply pose_dist_eq|]. split; [now apply pose_dist_eq|].
  set (p := pr_quaternion_from_matrix (r_rot a)) in *. set (q := pr_quaternion_from_matrix (r_rot b)) in *.
  set (r := pr_quaternion_from_matrix (r_rot c)) in *.
  assert (Sym : forall x y, half_angle x y = half_angle y x).
  { intros x y. unfold half_angle. f_equal. f_equal. unfold qdot. ring. }
  assert (SymV : forall x y, v3_norm (v3_sub x y) = v3_norm (v3_sub y x)).
  { intros x y. unfold v3_norm. f_equal. cbn. ring. }
  pose proof (half_angle_range q p Ub Ua) as R1. pose proof (v3_norm_pos (v3_sub (r_pos a) (r_pos b))) as R2.
  split; [|split; [|split]].
  - apply Rplus_le_le_0_compat; apply Rmult_le_pos; lra.
  - rewrite Sym, SymV. reflexivity.
  - split.
    + intros E.
      assert (A0 : half_angle q p = 0) by nra. assert (V0 : v3_norm (v3_sub (r_pos a) (r_pos b)) = 0) by nra.
      apply v3_norm_0 in V0.
      assert (Hrot : r_rot a = r_rot b).
      { unfold half_angle in A0. assert (B := qdot_range q p Ub Ua).
        assert (C1 : Rabs (qdot q p) = 1).
        { rewrite <- (cos_acos (Rabs (qdot q p))), A0 by (pose proof (Rabs_pos (qdot q p)); lra). apply cos_0. }
        assert (Hpq : p = q \/ p = q_neg q).
        { clear - C1 Ua Ub. destruct p as [a0 a1 a2 a3], q as [b0 b1 b2 b3].
          unfold unit_quat, qdot, q_neg in *. cbn [qw qx qy qz] in *.
          unfold Rabs in C1. destruct (Rcase_abs _); [right|left].
          - assert (E : (a0 + b0) ^ 2 + (a1 + b1) ^ 2 + (a2 + b2) ^ 2 + (a3 + b3) ^ 2 = 0) by lra.
            pose proof (pow2_ge_0 (a0 + b0)). pose proof (pow2_ge_0 (a1 + b1)).
            pose proof (pow2_ge_0 (a2 + b2)). pose proof (pow2_ge_0 (a3 + b3)).
            assert (a0 + b0 = 0) by (apply Rsqr_0_uniq; unfold Rsqr; lra).
            assert (a1 + b1 = 0) by (apply Rsqr_0_uniq; unfold Rsqr; lra).
            assert (a2 + b2 = 0) by (apply Rsqr_0_uniq; unfold Rsqr; lra).
            assert (a3 + b3 = 0) by (apply Rsqr_0_uniq; unfold Rsqr; lra). f_equal; lra.
          - assert (E : (a0 - b0) ^ 2 + (a1 - b1) ^ 2 + (a2 - b2) ^ 2 + (a3 - b3) ^ 2 = 0) by lra.
            pose proof (pow2_ge_0 (a0 - b0)). pose proof (pow2_ge_0 (a1 - b1)).
            pose proof (pow2_ge_0 (a2 - b2)). pose proof (pow2_ge_0 (a3 - b3)).
            assert (a0 - b0 = 0) by (apply Rsqr_0_uniq; unfold Rsqr; lra).
            assert (a1 - b1 = 0) by (apply Rsqr_0_uniq; unfold Rsqr; lra).
            assert (a2 - b2 = 0) by (apply Rsqr_0_uniq; unfold Rsqr; lra).
            assert (a3 - b3 = 0) by (apply Rsqr_0_uniq; unfold Rsqr; lra). f_equal; lra. }
        rewrite <- Ea, <- Eb. destruct Hpq as [E1|E1]; rewrite E1; [reflexivity|].
        apply matrix_neg. }
      clear - Hrot V0. destruct a as [ra [x y z]], b as [rb [x' y' z']]. cbn [r_rot r_pos] in *. subst rb. f_equal.
      unfold v3_sub in V0. cbn in V0. injection V0 as H1 H2 H3. f_equal; lra.
    + intros E. assert (Hpq : p = q) by (unfold p, q; now rewrite E). rewrite Hpq, E.
      assert (Z1 : half_angle q q = 0).
      { unfold half_angle. replace (qdot q q) with 1; [rewrite Rabs_R1; apply acos_1|].
        revert Ub. clearbody q. destruct q. unfold unit_quat, qdot. cbn. lra. }
      assert (Z2 : v3_norm (v3_sub (r_pos b) (r_pos b)) = 0).
      { rewrite <- v3_norm_zero. f_equal. apply v3_eq; cbn; ring. }
      rewrite Z1, Z2. ring.
  - pose proof (half_angle_triangle r q p Uc Ub Ua) as T.
    assert (TV : v3_norm (v3_sub (r_pos a) (r_pos c)) <= v3_norm (v3_sub (r_pos a) (r_pos b)) + v3_norm (v3_sub (r_pos b) (r_pos c))).
    { set (u := v3_sub (r_pos a) (r_pos b)). set (v := v3_sub (r_pos b) (r_pos c)).
      assert (E : v3_sub (r_pos a) (r_pos c) = v3_add u v) by (apply v3_eq; cbn; ring). rewrite E.
      pose proof (v3_norm_pos u). pose proof (v3_norm_pos v). pose proof (v3_norm_pos (v3_add u v)).
      apply Rsqr_incr_0_var; [|lra]. pose proof (cauchy_schwarz u v) as CS. pose proof (Rle_abs (v3_dot u v)) as LA.
      assert (N : forall w, v3_norm w * v3_norm w = v3_dot w w).
      { intros w. unfold v3_norm, v3_dot. apply sqrt_sqrt.
        pose proof (Rle_0_sqr (v3x w)). pose proof (Rle_0_sqr (v3y w)). pose proof (Rle_0_sqr (v3z w)).
        unfold Rsqr in *. lra. }
      unfold Rsqr. rewrite N. pose proof (N u) as Nu. pose proof (N v) as Nv.
      replace (v3_dot (v3_add u v) (v3_add u v)) with (v3_dot u u + 2 * v3_dot u v + v3_dot v v)
        by (unfold v3_dot; cbn; ring).
      lra. }
    apply (Rmult_le_compat_l ow) in T; [|lra]. apply (Rmult_le_compat_l pw) in TV; [|lra]. lra.
Qed.

(** What the error measures: a pose that is reached from the actual one by turning by
    [theta] about a unit axis and moving by [p], both in the end effector's frame, has the
    error [ow * theta + pw * |p|]. *)
Theorem C62_meaning : forall ow pw actual axis theta p, is_rigid actual -> unit_v3 axis -> 0 <= theta <= PI ->
  pose_dist (rigid_mul actual (Rigid (axis_angle_matrix axis theta) p)) actual ow pw = Ok (ow * theta + pw * v3_norm p).
Proof.
  intros ow pw a u th p Ha Hu Hth. unfold pose_dist. rewrite np_linalg_inv4_rigid by auto. cbn [bind].
  rewrite <- rigid_mul_assoc, rigid_inv_l, rigid_mul_1_l by auto. cbn [r_rot r_pos].
  assert (T : (m00 (axis_angle_matrix u th) + m11 (axis_angle_matrix u th) + m22 (axis_angle_matrix u th) - 1) / 2 = cos th).
  { destruct u as [x y z]. unfold unit_v3 in Hu. cbn [v3x v3y v3z] in Hu. cbn -[pow].
    transitivity (((1 - cos th) * (x ^ 2 + y ^ 2 + z ^ 2) + 3 * cos th - 1) / 2); [field|]. rewrite Hu. field. }
  rewrite T. pose proof (COS_bound th). rewrite Rmin_left by lra.
  unfold math_acos. destruct (Rlt_dec _ _); [lra|]. destruct (Rlt_dec _ _); [lra|]. cbn [bind].
  rewrite acos_cos by auto. rewrite Rmin_left by lra. now rewrite v3_norm_pow.
Qed.

(** The error that inverse kinematics minimises is the distance between the desired pose
    and the pose that [forward] returns. *)
Theorem C62_objective : forall c m q desired ow pw m' t, rigid_robot m -> is_rigid desired -> 0 < ow -> 0 < pw ->
  forward c m q = Ok (m', t) ->
  exists e, ee_pose_error c m q desired ow pw = Ok e /\ 0 <= e /\ (e = 0 <-> t = desired).
Proof.
  intros c m q desired ow pw m' t Hr Hd How Hpw E. unfold ee_pose_error. rewrite E. cbn [bind snd].
  assert (Ht := proj1 (C59_rigid c m q m' t Hr E)).
  destruct (C62_distance ow pw How Hpw desired t t Hd Ht Ht) as (e1 & e2 & e3 & e4 & H1 & _ & _ & _ & H5 & _ & H7 & _).
  exists e1. split; [exact H1|]. split; [exact H5|]. rewrite H7. split; intros ->; reflexivity.
Qed.

Example C62_satisfiable :
  is_rigid (Rigid (axis_angle_matrix (V3 0 0 1) (PI / 2)) (V3 1 2 3)) /\ is_rigid rigid_one
  /\ pose_dist (Rigid (axis_angle_matrix (V3 0 0 1) (PI / 2)) (V3 0 3 4)) rigid_one 1 1 = Ok (PI / 2 + 5).
Proof.
  assert (Hu : unit_v3 (V3 0 0 1)) by (unfold unit_v3; cbn; ring).
  split; [|split].
  - unfold is_rigid. cbn [r_rot]. rewrite axis_angle_matrix_quat by auto. apply matrix_rotation. now apply axis_quat_unit.
  - apply rotation_one.
  - rewrite <- (rigid_mul_1_l (Rigid _ _)). rewrite C62_meaning; auto.
    + f_equal. unfold v3_norm. cbn [v3x v3y v3z]. replace (0 * 0 + 3 * 3 + 4 * 4) with (5 * 5) by ring.
      rewrite sqrt_square by lra. ring.
    + apply rotation_one.
    + pose proof PI_RGT_0. lra.
Qed.
