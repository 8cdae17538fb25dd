(** C44 and C45 (obstacle avoidance).  Final statements. *)
From Coq Require Import Reals List Arith Bool Lia Lra Psatz FunctionalExtensionality.
From Verif Require Import M_Prelude M_Canonical M_Forcing M_Dmp M_Quaternion M_Cartesian M_Rigid M_Coupling
  S_Rotation S_Rigid P_Quaternion P_Cartesian P_Rigid Properties_Coupling.
Open Scope R_scope.
Set Bullet Behavior "Strict Subproofs".

(** Velocity and direction to the obstacle are not parallel. *)
Definition aside (y yd obstacle : v3) : Prop := v3_cross (v3_sub obstacle y) yd <> v3_zero.

(** ** The argument of arccos *)

Lemma obstacle_epsilon_pos : 0 < obstacle_epsilon.
Proof. unfold obstacle_epsilon. apply Rinv_0_lt_compat. apply pow_lt. lra. Qed.

Lemma cauchy_schwarz a b : Rabs (v3_dot a b) <= v3_norm a * v3_norm b.
Proof.
  rewrite <- (Rabs_pos_eq (v3_norm a * v3_norm b)) by (apply Rmult_le_pos; apply v3_norm_pos).
  apply Rsqr_le_abs_0. unfold Rsqr.
  replace (v3_norm a * v3_norm b * (v3_norm a * v3_norm b)) with ((v3_norm a * v3_norm a) * (v3_norm b * v3_norm b)) by ring.
  rewrite !v3_norm_dot. unfold v3_dot. destruct a as [a1 a2 a3], b as [b1 b2 b3]. simpl.
  pose proof (Rle_0_sqr (a1 * b2 - a2 * b1)) as S1. pose proof (Rle_0_sqr (a1 * b3 - a3 * b1)) as S2.
  pose proof (Rle_0_sqr (a2 * b3 - a3 * b2)) as S3. unfold Rsqr in S1, S2, S3. lra.
Qed.

Theorem C44_arccos_argument : forall a b,
  -1 < v3_dot a b / (v3_norm a * v3_norm b + obstacle_epsilon) < 1.
Proof.
  intros a b. pose proof (cauchy_schwarz a b) as H. pose proof obstacle_epsilon_pos as He.
  pose proof (Rmult_le_pos _ _ (v3_norm_pos a) (v3_norm_pos b)) as Hp.
  assert (H' : - (v3_norm a * v3_norm b) <= v3_dot a b <= v3_norm a * v3_norm b).
  { unfold Rabs in H. destruct (Rcase_abs (v3_dot a b)); lra. }
  split.
  - apply (Rmult_lt_reg_r (v3_norm a * v3_norm b + obstacle_epsilon)); [lra|].
    unfold Rdiv. rewrite Rmult_assoc, Rinv_l by lra. lra.
  - apply (Rmult_lt_reg_r (v3_norm a * v3_norm b + obstacle_epsilon)); [lra|].
    unfold Rdiv. rewrite Rmult_assoc, Rinv_l by lra. lra.
Qed.

Lemma acos_pos x : -1 < x < 1 -> 0 < acos x.
Proof. intros H. apply (acos_bound_lt x H). Qed.

Lemma theta_pos a b : 0 < obstacle_theta (v3_dot a b) (v3_norm a) (v3_norm b).
Proof. unfold obstacle_theta. apply acos_pos, C44_arccos_argument. Qed.

(** ** The rotated velocity *)

Lemma norm_vector_unit v : v <> v3_zero -> pr_norm_vector v = v3_scale (/ v3_norm v) v /\ unit_v3 (pr_norm_vector v).
Proof.
  intros Hv. assert (Hn : v3_norm v <> 0) by (intros H; apply Hv; now apply v3_norm_0).
  unfold pr_norm_vector. destruct (Req_EM_T (v3_norm v) 0) as [|_]; [contradiction|].
  split.
  - apply v3_eq; simpl; field; auto.
  - pose proof (v3_norm_dot v) as H. set (n := v3_norm v) in *. clearbody n. unfold unit_v3. destruct v as [x y z].
    unfold v3_dot, v3_divs in *. cbn [v3x v3y v3z] in *.
    transitivity ((x * x + y * y + z * z) / (n * n)); [field; auto|]. rewrite <- H. field. auto.
Qed.

(** Rotation by 90 degrees about a unit vector perpendicular to the vector. *)
Lemma quarter_turn u v : unit_v3 u -> v3_dot u v = 0 ->
  m3_app (matrix_from_compact_axis_angle (v3_scale (1 / 2 * PI) u)) v = v3_cross u v.
Proof.
  intros Hu Hd. pose proof PI_RGT_0 as Hpi.
  assert (Hn : v3_norm (v3_scale (1 / 2 * PI) u) = 1 / 2 * PI).
  { rewrite v3_norm_scale, Rabs_pos_eq by lra.
    replace (v3_norm u) with 1; [ring|]. unfold v3_norm. unfold unit_v3, v3_dot in Hu.
    match goal with |- 1 = sqrt ?x => replace x with 1 by (unfold v3_dot in *; lra) end. symmetry. apply sqrt_1. }
  unfold matrix_from_compact_axis_angle. rewrite Hn.
  destruct (Req_EM_T (1 / 2 * PI) 0) as [|_]; [lra|].
  assert (E : v3_divs (v3_scale (1 / 2 * PI) u) (1 / 2 * PI) = u) by (apply v3_eq; simpl; field; lra).
  rewrite E. unfold axis_angle_matrix. destruct u as [ux uy uz], v as [x y z].
  replace (1 / 2 * PI) with (PI / 2) by field. rewrite cos_PI2, sin_PI2.
  unfold v3_dot in Hd. simpl in Hd. unfold m3_app. apply v3_eq; simpl.
  - replace (_ + _ + _) with (ux * (ux * x + uy * y + uz * z) + (uy * z - uz * y)) by ring. rewrite Hd. ring.
  - replace (_ + _ + _) with (uy * (ux * x + uy * y + uz * z) + (uz * x - ux * z)) by ring. rewrite Hd. ring.
  - replace (_ + _ + _) with (uz * (ux * x + uy * y + uz * z) + (ux * y - uy * x)) by ring. rewrite Hd. ring.
Qed.

Lemma compact_zero : matrix_from_compact_axis_angle v3_zero = m3_one.
Proof.
  unfold matrix_from_compact_axis_angle. assert (E : v3_norm v3_zero = 0).
  { unfold v3_norm, v3_zero. simpl. replace (_ + _ + _) with 0 by ring. apply sqrt_0. }
  rewrite E. destruct (Req_EM_T 0 0); [reflexivity|lra].
Qed.

(** The acceleration off the line of sight, in closed form. *)
Lemma obstacle_3d_aside y yd o gamma beta : aside y yd o ->
  let d := v3_sub o y in let c := v3_cross d yd in
  let theta := obstacle_theta (v3_dot d yd) (v3_norm d) (v3_norm yd) in
  obstacle_3d y yd o gamma beta = v3_scale (gamma * (theta * exp (- beta * theta)) / v3_norm c) (v3_cross c yd).
Proof.
  intros Ha d c theta. unfold obstacle_3d. fold d. fold c. fold theta.
  destruct (norm_vector_unit c Ha) as [En Hu].
  rewrite quarter_turn; auto.
  - rewrite En. assert (v3_norm c <> 0) by (intros H; apply Ha; now apply v3_norm_0). apply v3_eq; simpl; field; auto.
  - rewrite En. unfold v3_dot, c. simpl. ring.
Qed.

Lemma obstacle_3d_ahead y yd o gamma beta : ~ aside y yd o ->
  let d := v3_sub o y in let theta := obstacle_theta (v3_dot d yd) (v3_norm d) (v3_norm yd) in
  obstacle_3d y yd o gamma beta = v3_scale (gamma * (theta * exp (- beta * theta))) yd.
Proof.
  intros Ha d theta. assert (Hz : v3_cross d yd = v3_zero).
  { assert (Hn : v3_norm (v3_cross d yd) = 0).
    { destruct (v3_norm_pos (v3_cross d yd)) as [H|H]; [|easy]. exfalso. apply Ha. intros E. fold d in E. rewrite E in H.
      replace (v3_norm v3_zero) with 0 in H; [lra|]. unfold v3_norm, v3_zero. simpl.
      replace (_ + _ + _) with 0 by ring. symmetry. apply sqrt_0. }
    now apply v3_norm_0. }
  unfold obstacle_3d. fold d. fold theta. rewrite Hz.
  assert (E : v3_scale (1 / 2 * PI) (pr_norm_vector v3_zero) = v3_zero).
  { unfold pr_norm_vector. destruct (Req_EM_T (v3_norm v3_zero) 0); apply v3_eq; simpl; unfold Rdiv; ring. }
  rewrite E, compact_zero, m3_app_one. apply v3_eq; simpl; ring.
Qed.

(** ** C44 *)

(** Off the line of sight: no work is done on the movement, the acceleration lies in the
    plane of velocity and direction to the obstacle and does not point towards the
    obstacle (it points away for positive [gamma]). *)
Theorem C44_3d : forall y yd o gamma beta, aside y yd o -> 0 <= gamma ->
  let cdd := obstacle_3d y yd o gamma beta in let d := v3_sub o y in
  v3_dot cdd yd = 0
  /\ v3_dot cdd (v3_cross d yd) = 0
  /\ v3_dot cdd d <= 0
  /\ (0 < gamma -> v3_dot cdd d < 0).
Proof.
  intros y yd o gamma beta Ha Hg cdd d. unfold cdd. rewrite obstacle_3d_aside by auto. cbv zeta. fold d.
  set (c := v3_cross d yd). set (theta := obstacle_theta _ _ _).
  assert (Ht : 0 < theta) by apply theta_pos.
  assert (Hc : 0 < v3_norm c).
  { destruct (v3_norm_pos c) as [|H]; auto. exfalso. apply Ha. now apply v3_norm_0. }
  assert (Hcc : 0 < v3_dot c c) by now apply v3_dot_self_pos.
  assert (Hk : 0 <= gamma * (theta * exp (- beta * theta)) / v3_norm c).
  { apply Rmult_le_pos; [|left; now apply Rinv_0_lt_compat]. apply Rmult_le_pos; auto.
    left. apply Rmult_lt_0_compat; auto. apply exp_pos. }
  assert (Hk' : 0 < gamma -> 0 < gamma * (theta * exp (- beta * theta)) / v3_norm c).
  { intros Hg'. apply Rdiv_lt_0_compat; auto. repeat apply Rmult_lt_0_compat; auto. apply exp_pos. }
  set (k := gamma * (theta * exp (- beta * theta)) / v3_norm c) in *. clearbody k.
  assert (E : v3_dot (v3_scale k (v3_cross c yd)) d = - (k * v3_dot c c)).
  { unfold c, v3_dot. destruct d as [d1 d2 d3], yd as [y1 y2 y3]. simpl. ring. }
  split; [|split; [|split]].
  - unfold v3_dot. destruct c as [c1 c2 c3], yd as [y1 y2 y3]. simpl. ring.
  - fold c. unfold v3_dot. destruct c as [c1 c2 c3], yd as [y1 y2 y3]. simpl. ring.
  - rewrite E. pose proof (Rmult_le_pos _ _ Hk (Rlt_le _ _ Hcc)). lra.
  - intros Hg'. rewrite E. pose proof (Rmult_lt_0_compat _ _ (Hk' Hg') Hcc). lra.
Qed.

Lemma obstacle_norm y yd o gamma beta : 0 <= gamma ->
  let d := v3_sub o y in let theta := obstacle_theta (v3_dot d yd) (v3_norm d) (v3_norm yd) in
  v3_norm (obstacle_3d y yd o gamma beta) = gamma * (theta * exp (- beta * theta)) * v3_norm yd.
Proof.
  intros Hg d theta. assert (Ht : 0 < theta) by apply theta_pos.
  assert (Hk : 0 <= gamma * (theta * exp (- beta * theta))).
  { apply Rmult_le_pos; auto. left. apply Rmult_lt_0_compat; auto. apply exp_pos. }
  destruct (Req_dec (v3_norm (v3_cross d yd)) 0) as [Hz|Hz].
  - rewrite obstacle_3d_ahead.
    + fold d. fold theta. rewrite v3_norm_scale, Rabs_pos_eq; auto.
    + intros Ha. apply Ha. now apply v3_norm_0.
  - assert (Ha : aside y yd o).
    { intros E. apply Hz. fold d in E. rewrite E. unfold v3_norm, v3_zero. simpl. replace (_ + _ + _) with 0 by ring. apply sqrt_0. }
    rewrite obstacle_3d_aside by auto. fold d. fold theta. set (c := v3_cross d yd) in *.
    assert (Hc : 0 < v3_norm c) by (destruct (v3_norm_pos c); [easy|congruence]).
    assert (Hcv : v3_norm (v3_cross c yd) = v3_norm c * v3_norm yd).
    { apply Rsqr_inj.
      - apply v3_norm_pos.
      - apply Rmult_le_pos; apply v3_norm_pos.
      - unfold Rsqr. replace (v3_norm c * v3_norm yd * (v3_norm c * v3_norm yd))
          with ((v3_norm c * v3_norm c) * (v3_norm yd * v3_norm yd)) by ring.
        rewrite !v3_norm_dot. assert (Hd : v3_dot c yd = 0) by (unfold c, v3_dot; destruct d, yd; simpl; ring).
        unfold v3_dot in *. destruct c as [c1 c2 c3], yd as [y1 y2 y3]. simpl in *.
        match goal with |- ?x = ?z => replace x with (z - (c1 * y1 + c2 * y2 + c3 * y3) * (c1 * y1 + c2 * y2 + c3 * y3)) by ring end.
        rewrite Hd. ring. }
    rewrite v3_norm_scale, Rabs_pos_eq, Hcv.
    + field. lra.
    + apply Rmult_le_pos; auto. left. now apply Rinv_0_lt_compat.
Qed.

Lemma theta_exp_bound theta beta : 0 < beta -> 0 <= theta -> theta * exp (- beta * theta) <= / (exp 1 * beta).
Proof.
  intros Hb Ht. pose proof (exp_pos 1) as E1. pose proof (exp_pos (beta * theta)) as E2.
  assert (H : beta * theta <= exp (beta * theta - 1)).
  { destruct (Req_dec (beta * theta - 1) 0) as [Hz|Hz].
    - rewrite Hz, exp_0. lra.
    - pose proof (exp_ineq1 _ Hz). lra. }
  replace (beta * theta - 1) with (beta * theta + - (1)) in H by ring. rewrite exp_plus, exp_Ropp in H.
  replace (- beta * theta) with (- (beta * theta)) by ring. rewrite exp_Ropp.
  apply (Rmult_le_reg_r (exp 1 * beta * exp (beta * theta))); [repeat apply Rmult_lt_0_compat; auto|].
  replace (theta * / exp (beta * theta) * (exp 1 * beta * exp (beta * theta))) with (beta * theta * exp 1) by (field; lra).
  replace (/ (exp 1 * beta) * (exp 1 * beta * exp (beta * theta))) with (exp (beta * theta)) by (field; lra).
  apply (Rmult_le_compat_r (exp 1)) in H; [|lra].
  replace (exp (beta * theta) * / exp 1 * exp 1) with (exp (beta * theta)) in H by (field; lra). exact H.
Qed.

(** Everywhere: the acceleration is bounded, and zero for zero velocity. *)
Theorem C44_bound : forall y yd o gamma beta, 0 <= gamma -> 0 < beta ->
  v3_norm (obstacle_3d y yd o gamma beta) <= gamma * v3_norm yd / (exp 1 * beta).
Proof.
  intros y yd o gamma beta Hg Hb. rewrite obstacle_norm by auto. cbv zeta.
  set (theta := obstacle_theta _ _ _). assert (Ht : 0 < theta) by apply theta_pos.
  pose proof (theta_exp_bound theta beta Hb (Rlt_le _ _ Ht)) as H.
  pose proof (Rmult_le_pos _ _ Hg (v3_norm_pos yd)) as Hp.
  apply (Rmult_le_compat_l (gamma * v3_norm yd)) in H; auto.
  unfold Rdiv. lra.
Qed.

Theorem C44_zero_velocity : forall y o gamma beta, obstacle_3d y v3_zero o gamma beta = v3_zero.
Proof.
  intros y o gamma beta. rewrite obstacle_3d_ahead.
  - cbv zeta. apply v3_eq; simpl; ring.
  - intros H. apply H. apply v3_eq; simpl; ring.
Qed.

(** Heading exactly towards the obstacle there is no plane to rotate in; the velocity is
    not rotated and the term accelerates towards the obstacle.  So "perpendicular" and
    "never towards the obstacle" are false in this case. *)
Theorem C44_head_on_refuted : forall gamma beta, 0 < gamma ->
  let cdd := obstacle_3d v3_zero (V3 1 0 0) (V3 1 0 0) gamma beta in
  0 < v3_dot cdd (V3 1 0 0)
  /\ fst (obstacle_2d_python (0, 0) (1, 0) (1, 0) gamma beta) = v3x cdd.
Proof.
  intros gamma beta Hg cdd. unfold cdd. rewrite obstacle_3d_ahead.
  - cbv zeta. set (theta := obstacle_theta _ _ _). assert (Ht : 0 < theta) by apply theta_pos. split.
    + unfold v3_dot. simpl. pose proof (exp_pos (- beta * theta)).
      pose proof (Rmult_lt_0_compat _ _ Hg (Rmult_lt_0_compat _ _ Ht H)). lra.
    + unfold obstacle_2d_python. cbn [fst snd].
      assert (Ez : v3_cross (V3 (1 - 0) (0 - 0) 0) (V3 1 0 0) = v3_zero) by (apply v3_eq; simpl; ring).
      rewrite Ez.
      assert (E : v3_scale (1 / 2 * PI) (pr_norm_vector v3_zero) = v3_zero).
      { unfold pr_norm_vector. destruct (Req_EM_T (v3_norm v3_zero) 0); apply v3_eq; simpl; unfold Rdiv; ring. }
      rewrite E, compact_zero. cbn.
      assert (Et : obstacle_theta ((1 - 0) * 1 + (0 - 0) * 0) (v2_norm (1 - 0, 0 - 0)) (v2_norm (1, 0)) = theta).
      { unfold theta. f_equal.
        - unfold v3_dot. simpl. ring.
        - unfold v2_norm, v3_norm, v3_zero. simpl. f_equal. ring.
        - unfold v2_norm, v3_norm. simpl. f_equal. ring. }
      rewrite Et. ring.
  - intros H. apply H. apply v3_eq; simpl; ring.
Qed.

(** ** C45 *)

Lemma v2_norm_v3 a b : v2_norm (a, b) = v3_norm (V3 a b 0).
Proof. unfold v2_norm, v3_norm. simpl. f_equal. ring. Qed.

(** For states in the plane z = 0 the 3D term is the 2D term with a third component 0. *)
Theorem C45_planar : forall y yd o gamma beta,
  obstacle_3d (V3 (fst y) (snd y) 0) (V3 (fst yd) (snd yd) 0) (V3 (fst o) (snd o) 0) gamma beta
  = V3 (fst (obstacle_2d_python y yd o gamma beta)) (snd (obstacle_2d_python y yd o gamma beta)) 0.
Proof.
  intros [y1 y2] [v1 v2] [o1 o2] gamma beta. cbn [fst snd].
  unfold obstacle_2d_python, obstacle_3d. cbn [fst snd].
  assert (Ed : v3_sub (V3 o1 o2 0) (V3 y1 y2 0) = V3 (o1 - y1) (o2 - y2) 0) by (apply v3_eq; simpl; ring).
  rewrite Ed. rewrite !v2_norm_v3.
  assert (Edot : v3_dot (V3 (o1 - y1) (o2 - y2) 0) (V3 v1 v2 0) = (o1 - y1) * v1 + (o2 - y2) * v2)
    by (unfold v3_dot; simpl; ring).
  rewrite Edot. set (theta := obstacle_theta _ _ _).
  set (r := (o1 - y1) * v2 - (o2 - y2) * v1).
  assert (Ec : v3_cross (V3 (o1 - y1) (o2 - y2) 0) (V3 v1 v2 0) = V3 0 0 r) by (unfold r; apply v3_eq; simpl; ring).
  rewrite Ec.
  assert (Em : exists m, v3_scale (1 / 2 * PI) (pr_norm_vector (V3 0 0 r)) = V3 0 0 m).
  { unfold pr_norm_vector. destruct (Req_EM_T _ 0).
    - exists (1/2 * PI * r). apply v3_eq; simpl; ring.
    - exists (1/2 * PI * (r / v3_norm (V3 0 0 r))). apply v3_eq; simpl; unfold Rdiv; ring. }
  destruct Em as [m Em]. rewrite Em.
  assert (E3 : m20 (matrix_from_compact_axis_angle (V3 0 0 m)) = 0 /\ m21 (matrix_from_compact_axis_angle (V3 0 0 m)) = 0).
  { unfold matrix_from_compact_axis_angle. destruct (Req_EM_T _ 0); [split; reflexivity|].
    unfold v3_divs, axis_angle_matrix. simpl. unfold Rdiv. split; ring. }
  destruct E3 as [E31 E32]. set (M := matrix_from_compact_axis_angle (V3 0 0 m)) in *.
  apply v3_eq; simpl; try rewrite E31, E32; ring.
Qed.

Lemma axis_z_angle r : r <> 0 ->
  matrix_from_compact_axis_angle (V3 0 0 r) = axis_angle_matrix (V3 0 0 (r / Rabs r)) (Rabs r).
Proof.
  intros Hr. unfold matrix_from_compact_axis_angle.
  assert (En : v3_norm (V3 0 0 r) = Rabs r).
  { unfold v3_norm. simpl. replace (_ + _ + _) with (Rsqr r) by (unfold Rsqr; ring). apply sqrt_Rsqr_abs. }
  rewrite En. destruct (Req_EM_T (Rabs r) 0) as [H|_]; [exfalso; now apply Rabs_no_R0 in Hr|].
  f_equal. apply v3_eq; simpl; unfold Rdiv; ring.
Qed.

(** The compiled and the Python implementation agree. *)
Theorem C45_agree : forall y yd o gamma beta, obstacle_2d Python y yd o gamma beta = obstacle_2d Cython y yd o gamma beta.
Proof.
  intros [y1 y2] [v1 v2] [o1 o2] gamma beta. cbn [obstacle_2d]. unfold obstacle_2d_python, obstacle_2d_cython. cbn [fst snd].
  set (r := (o1 - y1) * v2 - (o2 - y2) * v1).
  assert (Ec : v3_cross (V3 (o1 - y1) (o2 - y2) 0) (V3 v1 v2 0) = V3 0 0 r) by (unfold r; apply v3_eq; simpl; ring).
  rewrite Ec.
  assert (Em : v3_scale (1 / 2 * PI) (pr_norm_vector (V3 0 0 r)) = V3 0 0 (if Req_EM_T r 0 then r else r * (1 / 2 * PI / Rabs r))).
  { unfold pr_norm_vector.
    assert (En : v3_norm (V3 0 0 r) = Rabs r).
    { unfold v3_norm. simpl. replace (_ + _ + _) with (Rsqr r) by (unfold Rsqr; ring). apply sqrt_Rsqr_abs. }
    rewrite En. destruct (Req_EM_T r 0) as [Hr|Hr].
    - rewrite Hr, Rabs_R0. destruct (Req_EM_T 0 0); [|lra]. apply v3_eq; simpl; ring.
    - pose proof (Rabs_no_R0 r Hr). destruct (Req_EM_T (Rabs r) 0); [contradiction|]. apply v3_eq; simpl; field; auto. }
  rewrite Em. reflexivity.
Qed.

(** The coupling objects: zero velocity, and the same through the 2D class. *)
Theorem C44_coupling_2d : forall i o gamma beta y yd, 0 <= gamma ->
  let '(cd, cdd) := obstacle_2d_coupling i o gamma beta y yd in
  let d := (fst o - y 0%nat, snd o - y 1%nat) in
  cd = vzero
  /\ (fst d * yd 1%nat - snd d * yd 0%nat <> 0 ->
      cdd 0%nat * yd 0%nat + cdd 1%nat * yd 1%nat = 0
      /\ cdd 0%nat * fst d + cdd 1%nat * snd d <= 0
      /\ (0 < gamma -> cdd 0%nat * fst d + cdd 1%nat * snd d < 0))
  /\ (0 < beta -> sqrt (cdd 0%nat ^ 2 + cdd 1%nat ^ 2) <= gamma * sqrt (yd 0%nat ^ 2 + yd 1%nat ^ 2) / (exp 1 * beta)).
Proof.
  intros i o gamma beta y yd Hg. unfold obstacle_2d_coupling. cbv zeta. cbn [vec2].
  assert (Ei : obstacle_2d i (y 0%nat, y 1%nat) (yd 0%nat, yd 1%nat) o gamma beta
             = obstacle_2d_python (y 0%nat, y 1%nat) (yd 0%nat, yd 1%nat) o gamma beta).
  { destruct i; [reflexivity|]. symmetry. apply (C45_agree). }
  rewrite Ei. pose proof (C45_planar (y 0%nat, y 1%nat) (yd 0%nat, yd 1%nat) o gamma beta) as E. cbn [fst snd] in E.
  set (a := obstacle_2d_python _ _ _ _ _) in *. clearbody a. destruct a as [a1 a2]. cbn [fst snd] in *.
  split; [reflexivity|]. split.
  - intros Hn. destruct (C44_3d (V3 (y 0%nat) (y 1%nat) 0) (V3 (yd 0%nat) (yd 1%nat) 0) (V3 (fst o) (snd o) 0) gamma beta) as (H1 & _ & H2 & H3); auto.
    { intros H. apply Hn. apply (f_equal v3z) in H. simpl in H. exact H. }
    rewrite E in H1, H2, H3. unfold v3_dot in H1, H2, H3. simpl in H1, H2, H3.
    split; [lra|]. split; [lra|]. intros Hg'. specialize (H3 Hg'). lra.
  - intros Hb. pose proof (C44_bound (V3 (y 0%nat) (y 1%nat) 0) (V3 (yd 0%nat) (yd 1%nat) 0) (V3 (fst o) (snd o) 0) gamma beta Hg Hb) as H.
    rewrite E in H. unfold v3_norm in H. simpl in H.
    replace (a1 ^ 2 + a2 ^ 2) with (a1 * a1 + a2 * a2 + 0 * 0) by ring.
    replace (yd 0%nat ^ 2 + yd 1%nat ^ 2) with (yd 0%nat * yd 0%nat + yd 1%nat * yd 1%nat + 0 * 0) by ring. exact H.
Qed.

Example C44_satisfiable : aside v3_zero (V3 1 0 0) (V3 1 1 0).
Proof. intros H. apply (f_equal v3z) in H. simpl in H. lra. Qed.
