(** Proofs about the quaternion functions. *)
From Coq Require Import Reals ZArith Lia Lra Psatz.
From Verif Require Import M_Prelude M_Quaternion S_Rotation.
Open Scope R_scope.

Lemma v3_eq a b : v3x a = v3x b -> v3y a = v3y b -> v3z a = v3z b -> a = b.
Proof. destruct a, b; simpl; intros; subst; reflexivity. Qed.

Lemma quat_eq p q : qw p = qw q -> qx p = qx q -> qy p = qy q -> qz p = qz q -> p = q.
Proof. destruct p, q; simpl; intros; subst; reflexivity. Qed.

(** ** Hamilton product *)
Lemma hamilton_assoc p q r : hamilton (hamilton p q) r = hamilton p (hamilton q r).
Proof. destruct p, q, r. apply quat_eq; simpl; ring. Qed.

Lemma hamilton_one_l q : hamilton q_one q = q.
Proof. destruct q. apply quat_eq; simpl; ring. Qed.

Lemma hamilton_one_r q : hamilton q q_one = q.
Proof. destruct q. apply quat_eq; simpl; ring. Qed.

Definition n2 (q : quat) : R := qw q ^ 2 + qx q ^ 2 + qy q ^ 2 + qz q ^ 2.

Lemma hamilton_n2 p q : n2 (hamilton p q) = n2 p * n2 q.
Proof. destruct p, q. unfold n2; simpl. ring. Qed.

Lemma q_norm_n2 q : q_norm q = sqrt (n2 q).
Proof. unfold q_norm, n2. f_equal. ring. Qed.

Lemma n2_nonneg q : 0 <= n2 q.
Proof. unfold n2. nra. Qed.

Lemma hamilton_norm p q : q_norm (hamilton p q) = q_norm p * q_norm q.
Proof. rewrite !q_norm_n2, hamilton_n2. apply sqrt_mult; apply n2_nonneg. Qed.

Lemma unit_norm q : unit_quat q -> q_norm q = 1.
Proof. intros H. rewrite q_norm_n2. unfold n2. unfold unit_quat in H. rewrite H. apply sqrt_1. Qed.

Lemma norm_unit q : q_norm q = 1 -> unit_quat q.
Proof.
  intros H. rewrite q_norm_n2 in H. unfold unit_quat. fold (n2 q).
  rewrite <- (sqrt_sqrt (n2 q)) by apply n2_nonneg. rewrite H. ring.
Qed.

Lemma hamilton_unit p q : unit_quat p -> unit_quat q -> unit_quat (hamilton p q).
Proof. unfold unit_quat. intros H1 H2. fold (n2 (hamilton p q)). rewrite hamilton_n2. unfold n2. rewrite H1, H2. ring. Qed.

Lemma q_divs_1 q : q_divs q 1 = q.
Proof. destruct q. apply quat_eq; simpl; field. Qed.

Lemma cy_conj_unit q : unit_quat q -> unit_quat (cy_conj q).
Proof. unfold unit_quat, cy_conj. intros H. etransitivity; [|exact H]. simpl. ring. Qed.

Lemma check_unit q : unit_quat q -> pr_check_quaternion q = q.
Proof.
  intros H. unfold pr_check_quaternion. rewrite (unit_norm q H).
  destruct (Req_EM_T 1 0); [reflexivity|apply q_divs_1].
Qed.

Lemma i_mul_unit i p q : unit_quat p -> unit_quat q -> i_mul i p q = hamilton p q.
Proof.
  intros H1 H2. destruct i; [reflexivity|]. simpl. unfold cy_mul. cbv zeta.
  rewrite unit_norm by now apply hamilton_unit. apply q_divs_1.
Qed.

Lemma i_conj_unit i q : unit_quat q -> i_conj i q = cy_conj q.
Proof. intros H. destruct i; [|reflexivity]. simpl. unfold pr_conj. now rewrite check_unit. Qed.

Lemma conj_r q : unit_quat q -> hamilton q (cy_conj q) = q_one.
Proof.
  intros H. destruct q as [w x y z]. unfold unit_quat in H. simpl in H.
  apply quat_eq; simpl; lra.
Qed.

Lemma conj_l q : unit_quat q -> hamilton (cy_conj q) q = q_one.
Proof.
  intros H. destruct q as [w x y z]. unfold unit_quat in H. simpl in H.
  apply quat_eq; simpl; lra.
Qed.

Lemma conj_hamilton p q : cy_conj (hamilton p q) = hamilton (cy_conj q) (cy_conj p).
Proof. destruct p, q. apply quat_eq; simpl; ring. Qed.

Lemma one_unit : unit_quat q_one.
Proof. unfold unit_quat; simpl; ring. Qed.

Lemma n2_divs q c : c <> 0 -> n2 (q_divs q c) = n2 q / c ^ 2.
Proof. intros H. destruct q. unfold n2; simpl. field. auto. Qed.

Lemma normalised_unit q : n2 q <> 0 -> unit_quat (q_divs q (q_norm q)).
Proof.
  intros H. pose proof (n2_nonneg q).
  assert (q_norm q <> 0). { rewrite q_norm_n2. apply Rgt_not_eq. apply sqrt_lt_R0. lra. }
  unfold unit_quat. fold (n2 (q_divs q (q_norm q))). rewrite n2_divs by auto.
  rewrite q_norm_n2. replace (sqrt (n2 q) ^ 2) with (n2 q); [now field|].
  simpl. rewrite Rmult_1_r, sqrt_sqrt; auto.
Qed.

(** ** Vectors *)
Lemma v3_norm_sq a : v3_norm a ^ 2 = v3x a ^ 2 + v3y a ^ 2 + v3z a ^ 2.
Proof. unfold v3_norm. rewrite <- Rsqr_pow2, Rsqr_sqrt; [ring|nra]. Qed.

Lemma v3_norm_pos a : 0 <= v3_norm a.
Proof. apply sqrt_pos. Qed.

Lemma v3_norm_zero : v3_norm v3_zero = 0.
Proof. unfold v3_norm, v3_zero. simpl. replace (0*0+0*0+0*0) with 0 by ring. apply sqrt_0. Qed.

Lemma v3_norm_0 a : v3_norm a = 0 -> a = v3_zero.
Proof.
  intros H. pose proof (v3_norm_sq a) as E. rewrite H in E.
  apply v3_eq; simpl; nra.
Qed.

Lemma v3_norm_scale c a : v3_norm (v3_scale c a) = Rabs c * v3_norm a.
Proof.
  unfold v3_norm. simpl. rewrite <- sqrt_Rsqr_abs, <- sqrt_mult; try nra.
  - f_equal. unfold Rsqr. ring.
  - apply Rle_0_sqr.
Qed.

Lemma unit_v3_norm u : unit_v3 u <-> v3_norm u = 1.
Proof.
  unfold unit_v3. rewrite <- v3_norm_sq. pose proof (v3_norm_pos u). split; intros H1; nra.
Qed.

Lemma v3_divs_scale a c : v3_divs a c = v3_scale (/ c) a.
Proof. apply v3_eq; simpl; unfold Rdiv; ring. Qed.

Lemma direction_unit a : v3_norm a <> 0 -> unit_v3 (v3_divs a (v3_norm a)).
Proof.
  intros H. apply unit_v3_norm. rewrite v3_divs_scale, v3_norm_scale.
  pose proof (v3_norm_pos a). rewrite Rabs_pos_eq; [now field|]. left. apply Rinv_0_lt_compat. lra.
Qed.

Lemma v3_polar a : exists u, unit_v3 u /\ a = v3_scale (v3_norm a) u.
Proof.
  destruct (Req_dec (v3_norm a) 0) as [H|H].
  - exists (V3 1 0 0). split; [unfold unit_v3; simpl; ring|].
    rewrite H. apply v3_norm_0 in H. subst. apply v3_eq; simpl; ring.
  - exists (v3_divs a (v3_norm a)). split; [now apply direction_unit|].
    apply v3_eq; simpl; now field.
Qed.

Lemma v3_scale_0 a : v3_scale 0 a = v3_zero.
Proof. apply v3_eq; simpl; ring. Qed.

Lemma v3_scale_scale a b u : v3_scale a (v3_scale b u) = v3_scale (a * b) u.
Proof. apply v3_eq; simpl; ring. Qed.

(** ** Exponential *)
Definition axis_quat (u : v3) (angle : R) : quat :=
  Q4 (cos (angle / 2)) (sin (angle / 2) * v3x u) (sin (angle / 2) * v3y u) (sin (angle / 2) * v3z u).

Lemma axis_quat_unit u th : unit_v3 u -> unit_quat (axis_quat u th).
Proof.
  intros H. unfold unit_quat, axis_quat. simpl.
  pose proof (sin2_cos2 (th / 2)) as E. unfold Rsqr in E. unfold unit_v3 in H. nra.
Qed.

Lemma cy_exp_axis u th : unit_v3 u -> cy_exp (v3_scale th u) = axis_quat u th.
Proof.
  intros H. unfold cy_exp. cbv zeta. rewrite v3_norm_scale.
  rewrite (proj1 (unit_v3_norm u) H), Rmult_1_r.
  destruct (Req_EM_T (Rabs th) 0) as [E|E].
  - assert (th = 0) as -> by (destruct (Req_dec th 0); auto; apply Rabs_no_R0 in H0; lra).
    unfold axis_quat. replace (0 / 2) with 0 by field. rewrite cos_0, sin_0.
    apply quat_eq; simpl; ring.
  - unfold axis_quat. unfold Rabs in *. destruct (Rcase_abs th).
    + replace (- th / 2) with (- (th / 2)) by field. rewrite cos_neg, sin_neg.
      apply quat_eq; simpl; field; lra.
    + apply quat_eq; simpl; field; lra.
Qed.

Lemma cy_exp_unit a : unit_quat (cy_exp a).
Proof.
  destruct (v3_polar a) as (u & Hu & ->). rewrite cy_exp_axis by auto. now apply axis_quat_unit.
Qed.

Lemma i_exp_unit i a : unit_quat (i_exp i a).
Proof. destruct i; [|apply cy_exp_unit]. apply cy_exp_unit. Qed.

Lemma cy_exp_zero : cy_exp v3_zero = q_one.
Proof. unfold cy_exp. cbv zeta. rewrite v3_norm_zero. destruct (Req_EM_T 0 0); [reflexivity|lra]. Qed.

Lemma i_exp_zero i : i_exp i v3_zero = q_one.
Proof.
  destruct i; [|apply cy_exp_zero]. simpl. unfold pr_exp, pr_norm_compact_axis_angle.
  cbv zeta. rewrite v3_norm_zero. destruct (Req_EM_T 0 0); [apply cy_exp_zero|lra].
Qed.

(** ** Angle wrapping *)
Lemma Int_part_unique x z : IZR z <= x < IZR z + 1 -> Int_part x = z.
Proof.
  intros H. destruct (base_Int_part x) as [H1 H2].
  assert (Int_part x < z + 1)%Z by (apply lt_IZR; rewrite plus_IZR; lra).
  assert (z < Int_part x + 1)%Z by (apply lt_IZR; rewrite plus_IZR; lra). lia.
Qed.

Lemma rmod_spec x y k : 0 < y -> IZR k * y <= x < (IZR k + 1) * y -> rmod x y = x - IZR k * y.
Proof.
  intros Hy Hk. unfold rmod. rewrite (Int_part_unique _ k); [ring|].
  split.
  - apply Rmult_le_reg_r with y; auto. unfold Rdiv. rewrite Rmult_assoc, Rinv_l; lra.
  - apply Rmult_lt_reg_r with y; auto. unfold Rdiv. rewrite Rmult_assoc, Rinv_l; lra.
Qed.

Lemma norm_angle_in x : 0 <= x <= 2 * PI ->
  pr_norm_angle x = if Rle_dec x PI then x else x - 2 * PI.
Proof.
  intros Hx. pose proof PI_RGT_0. unfold pr_norm_angle. destruct (Rle_dec x PI).
  - rewrite (rmod_spec _ _ 0); [ring|lra|]. split; simpl; lra.
  - rewrite (rmod_spec _ _ (-1)); [ring|lra|]. split; lra.
Qed.

Lemma norm_angle_mod x : exists k, pr_norm_angle x = x - 2 * PI * IZR k.
Proof.
  unfold pr_norm_angle, rmod. exists (- Int_part ((PI - x) / (2 * PI)))%Z. rewrite opp_IZR. ring.
Qed.

Lemma norm_angle_range x : - PI < pr_norm_angle x <= PI.
Proof.
  pose proof PI_RGT_0. unfold pr_norm_angle, rmod.
  destruct (base_Int_part ((PI - x) / (2 * PI))) as [H1 H2].
  set (k := IZR (Int_part ((PI - x) / (2 * PI)))) in *.
  assert (E : (PI - x) / (2 * PI) * (2 * PI) = PI - x) by (field; lra).
  assert (k * (2 * PI) <= (PI - x) / (2 * PI) * (2 * PI)) by (apply Rmult_le_compat_r; lra).
  assert (((PI - x) / (2 * PI) - 1) * (2 * PI) < k * (2 * PI)) by (apply Rmult_lt_compat_r; lra).
  lra.
Qed.

Lemma wrap_cython_in x : 0 <= x <= 2 * PI ->
  rmod (x + PI) (2 * PI) - PI = if Rlt_dec x PI then x else x - 2 * PI.
Proof.
  intros Hx. pose proof PI_RGT_0. destruct (Rlt_dec x PI).
  - rewrite (rmod_spec _ _ 0); [ring|lra|]. split; simpl; lra.
  - rewrite (rmod_spec _ _ 1); [ring|lra|]. split; lra.
Qed.

(** [pr_exp] is [cy_exp] up to sign. *)
Lemma pr_exp_axis u th : unit_v3 u -> 0 <= th ->
  pr_exp (v3_scale th u) = axis_quat u (pr_norm_angle th).
Proof.
  intros H Hth. unfold pr_exp, pr_norm_compact_axis_angle. cbv zeta.
  rewrite v3_norm_scale, (proj1 (unit_v3_norm u) H), Rmult_1_r, Rabs_pos_eq by auto.
  destruct (Req_EM_T th 0) as [->|E].
  - rewrite cy_exp_zero, norm_angle_in by (pose proof PI_RGT_0; lra).
    destruct (Rle_dec 0 PI); [|pose proof PI_RGT_0; lra].
    unfold axis_quat. replace (0 / 2) with 0 by field. rewrite cos_0, sin_0.
    apply quat_eq; simpl; ring.
  - rewrite <- cy_exp_axis by auto. f_equal. apply v3_eq; simpl; field; auto.
Qed.

Lemma pr_exp_small a : v3_norm a <= PI -> pr_exp a = cy_exp a.
Proof.
  intros Ha. destruct (v3_polar a) as (u & Hu & E). rewrite E.
  pose proof (v3_norm_pos a). pose proof PI_RGT_0.
  rewrite pr_exp_axis, cy_exp_axis by auto. rewrite norm_angle_in by lra.
  destruct (Rle_dec _ _); [reflexivity|lra].
Qed.

Lemma axis_quat_shift u th k :
  axis_quat u (th - 2 * PI * IZR k) = axis_quat u th
  \/ axis_quat u (th - 2 * PI * IZR k) = q_neg (axis_quat u th).
Proof.
  unfold axis_quat. replace ((th - 2 * PI * IZR k) / 2) with (th / 2 - IZR k * PI) by field.
  destruct (Z.Even_or_Odd k) as [[m ->]|[m ->]].
  - left. rewrite mult_IZR. replace (th / 2 - IZR 2 * IZR m * PI) with (th / 2 + 2 * IZR (- m) * PI)
      by (rewrite opp_IZR; ring).
    assert (HC : cos (th / 2 + 2 * IZR (- m) * PI) = cos (th / 2)
                 /\ sin (th / 2 + 2 * IZR (- m) * PI) = sin (th / 2)).
    { destruct (Z_le_gt_dec 0 (- m)).
      - rewrite <- (Z2Nat.id (- m)), <- INR_IZR_INZ by auto. split; [apply cos_period|apply sin_period].
      - replace (th / 2) with (th / 2 + 2 * IZR (- m) * PI + 2 * IZR m * PI) at 2 4
          by (rewrite opp_IZR; ring).
        rewrite <- (Z2Nat.id m), <- INR_IZR_INZ by lia. rewrite cos_period, sin_period. auto. }
    destruct HC as [-> ->]. reflexivity.
  - right. rewrite plus_IZR, mult_IZR.
    replace (th / 2 - (IZR 2 * IZR m + 1) * PI) with (th / 2 + 2 * IZR (- m - 1) * PI + PI)
      by (rewrite minus_IZR, opp_IZR; ring).
    assert (HC : cos (th / 2 + 2 * IZR (- m - 1) * PI) = cos (th / 2)
                 /\ sin (th / 2 + 2 * IZR (- m - 1) * PI) = sin (th / 2)).
    { set (j := (- m - 1)%Z). destruct (Z_le_gt_dec 0 j).
      - rewrite <- (Z2Nat.id j), <- INR_IZR_INZ by auto. split; [apply cos_period|apply sin_period].
      - replace (th / 2) with (th / 2 + 2 * IZR j * PI + 2 * IZR (- j) * PI) at 2 4
          by (rewrite opp_IZR; ring).
        rewrite <- (Z2Nat.id (- j)), <- INR_IZR_INZ by lia. rewrite cos_period, sin_period. auto. }
    destruct HC as [HC HS].
    rewrite neg_cos, neg_sin, HC, HS. unfold q_neg. apply quat_eq; simpl; ring.
Qed.

Lemma exp_axis_sign i u th : unit_v3 u -> 0 <= th ->
  i_exp i (v3_scale th u) = axis_quat u th \/ i_exp i (v3_scale th u) = q_neg (axis_quat u th).
Proof.
  intros Hu Hth. destruct i; simpl.
  - rewrite pr_exp_axis by auto. destruct (norm_angle_mod th) as [k ->]. apply axis_quat_shift.
  - left. now apply cy_exp_axis.
Qed.

(** ** Logarithm *)
Definition vpart (q : quat) : v3 := V3 (qx q) (qy q) (qz q).

(** The signed angle of the logarithm. *)
Definition log_angle (i : impl) (w : R) : R :=
  match i with
  | Python => if Rle_dec 0 w then 2 * acos w else 2 * acos w - 2 * PI
  | Cython => if Rlt_dec 0 w then 2 * acos w else 2 * acos w - 2 * PI
  end.

Lemma unit_vpart q : unit_quat q -> v3_norm (vpart q) ^ 2 = 1 - qw q ^ 2.
Proof. intros H. rewrite v3_norm_sq. unfold unit_quat in H. simpl. lra. Qed.

Lemma unit_w q : unit_quat q -> -1 <= qw q <= 1.
Proof. unfold unit_quat. intros H. nra. Qed.

Lemma acos_half_pi w : -1 <= w <= 1 -> (acos w <= PI / 2 <-> 0 <= w) /\ (acos w < PI / 2 <-> 0 < w).
Proof.
  intros Hw. pose proof (acos_bound w). pose proof PI_RGT_0.
  assert (Ec : cos (acos w) = w) by now apply cos_acos.
  assert (Hm : forall x y, 0 <= x <= PI -> 0 <= y <= PI -> x < y -> cos y < cos x)
    by (intros; now apply cos_decreasing_1).
  split; split; intros H1.
  - rewrite <- Ec. apply cos_ge_0; lra.
  - destruct (Rle_dec (acos w) (PI / 2)); auto.
    assert (cos (acos w) < cos (PI / 2)) by (apply Hm; lra). rewrite cos_PI2, Ec in *. lra.
  - rewrite <- Ec. apply cos_gt_0; lra.
  - destruct (Rlt_dec (acos w) (PI / 2)); auto.
    destruct (Req_dec (acos w) (PI / 2)) as [E|].
    + rewrite E, cos_PI2 in Ec. lra.
    + assert (cos (acos w) < cos (PI / 2)) by (apply Hm; lra). rewrite cos_PI2, Ec in *. lra.
Qed.

Lemma i_log_unit i q : unit_quat q ->
  i_log i q = if Rlt_dec (v3_norm (vpart q)) (log_threshold i) then v3_zero
              else v3_scale (log_angle i (qw q) / v3_norm (vpart q)) (vpart q).
Proof.
  intros Hq. pose proof (unit_w q Hq) as Hw. pose proof PI_RGT_0.
  pose proof (acos_bound (qw q)) as Hb. destruct (acos_half_pi (qw q) Hw) as [A1 A2].
  pose proof (v3_norm_pos (vpart q)) as Hp.
  pose proof (unit_vpart q Hq) as Hs2.
  destruct i; simpl.
  - unfold pr_log. rewrite check_unit by auto. cbv zeta. fold (vpart q).
    set (s := v3_norm (vpart q)) in *.
    destruct (Rlt_dec s (/ 10 ^ 7)); [destruct (Rlt_dec _ _); [reflexivity|simpl in *; lra]|].
    destruct (Rlt_dec _ _) as [H1|H1]; [simpl in H1; lra|].
    assert (Hs : 0 < s) by (assert (0 < / 10 ^ 7) by (apply Rinv_0_lt_compat; lra); lra).
    rewrite Rmin_left, Rmax_left by lra.
    rewrite norm_angle_in by lra.
    assert (E : (if Rle_dec (2 * acos (qw q)) PI then 2 * acos (qw q) else 2 * acos (qw q) - 2 * PI)
                = (if Rle_dec 0 (qw q) then 2 * acos (qw q) else 2 * acos (qw q) - 2 * PI)).
    { destruct (Rle_dec (2 * acos (qw q)) PI) as [B1|B1], (Rle_dec 0 (qw q)) as [B2|B2]; auto; exfalso.
      - apply B2, A1. lra.
      - apply B1. assert (acos (qw q) <= PI / 2) by now apply A1. lra. }
    rewrite E. apply v3_eq; simpl; field; lra.
  - unfold cy_log. cbv zeta.
    assert (Es : qx q * qx q + qy q * qy q + qz q * qz q = v3_norm (vpart q) ^ 2).
    { rewrite v3_norm_sq. simpl. ring. }
    rewrite Es. set (s := v3_norm (vpart q)) in *.
    assert (Ht : 0 < / 10 ^ 16) by (apply Rinv_0_lt_compat; lra).
    assert (Et : / 10 ^ 32 = (/ 10 ^ 16) ^ 2) by (field).
    rewrite Et.
    destruct (Rlt_dec (s ^ 2) ((/ 10 ^ 16) ^ 2)) as [H1|H1];
      destruct (Rlt_dec s (/ (10 * (10 * (10 * (10 * (10 * (10 * (10 * (10 * (10 * (10 * (10 * (10 * (10 * (10 * (10 * (10 * 1)))))))))))))))))) as [H2|H2];
      change (/ (10 * (10 * (10 * (10 * (10 * (10 * (10 * (10 * (10 * (10 * (10 * (10 * (10 * (10 * (10 * (10 * 1)))))))))))))))))
        with (/ 10 ^ 16) in H2; set (th := / 10 ^ 16) in *; clearbody th; try reflexivity; try (exfalso; nra).
    assert (Hs : 0 < s) by lra.
    replace (qw q * qw q + s ^ 2) with 1 by (rewrite Hs2; ring). rewrite sqrt_1, q_divs_1.
    replace (sqrt (s ^ 2) / 1) with s by (rewrite sqrt_pow2 by lra; field).
    rewrite wrap_cython_in by lra.
    assert (E : (if Rlt_dec (2 * acos (qw q)) PI then 2 * acos (qw q) else 2 * acos (qw q) - 2 * PI)
                = (if Rlt_dec 0 (qw q) then 2 * acos (qw q) else 2 * acos (qw q) - 2 * PI)).
    { destruct (Rlt_dec (2 * acos (qw q)) PI) as [B1|B1], (Rlt_dec 0 (qw q)) as [B2|B2]; auto; exfalso.
      - apply B2, A2. lra.
      - apply B1. assert (acos (qw q) < PI / 2) by now apply A2. lra. }
    rewrite E.
    assert (Hnz : (if Rlt_dec 0 (qw q) then 2 * acos (qw q) else 2 * acos (qw q) - 2 * PI) <> 0).
    { assert (Ec : cos (acos (qw q)) = qw q) by now apply cos_acos.
      destruct (Rlt_dec 0 (qw q)); intros E0.
      - assert (acos (qw q) = 0) as Ez by lra. rewrite Ez, cos_0 in Ec. nra.
      - assert (acos (qw q) = PI) as Ez by lra. rewrite Ez, cos_PI in Ec. nra. }
    unfold vpart. apply v3_eq; simpl; field; split; try lra; auto.
Qed.

Lemma log_angle_range i w : -1 <= w <= 1 -> Rabs (log_angle i w) <= PI.
Proof.
  intros Hw. pose proof (acos_bound w). destruct (acos_half_pi w Hw) as [A1 A2].
  apply Rabs_le. pose proof PI_RGT_0. destruct i; simpl.
  - destruct (Rle_dec 0 w) as [H1|H1].
    + apply A1 in H1. lra.
    + assert (~ acos w <= PI / 2) by (rewrite A1; auto). lra.
  - destruct (Rlt_dec 0 w) as [H1|H1].
    + apply A2 in H1. lra.
    + assert (~ acos w < PI / 2) by (rewrite A2; auto). lra.
Qed.

Lemma log_length i q : unit_quat q -> v3_norm (i_log i q) <= PI.
Proof.
  intros Hq. pose proof PI_RGT_0. rewrite i_log_unit by auto. destruct (Rlt_dec _ _).
  - rewrite v3_norm_zero. lra.
  - assert (Hs : 0 < v3_norm (vpart q)).
    { assert (0 < log_threshold i) by (destruct i; simpl; apply Rinv_0_lt_compat; lra). lra. }
    rewrite v3_norm_scale. unfold Rdiv. rewrite Rabs_mult, (Rabs_pos_eq (/ _));
      [|left; now apply Rinv_0_lt_compat].
    rewrite Rmult_assoc, Rinv_l by lra. rewrite Rmult_1_r. apply log_angle_range. now apply unit_w.
Qed.

Lemma exp_log i q : unit_quat q -> log_threshold i <= v3_norm (vpart q) ->
  i_exp i (i_log i q) = q \/ i_exp i (i_log i q) = q_neg q.
Proof.
  intros Hq Ht.
  assert (E0 : i_exp i (i_log i q) = cy_exp (i_log i q)).
  { destruct i; [|reflexivity]. apply pr_exp_small. exact (log_length Python q Hq). }
  rewrite E0. rewrite i_log_unit by auto. destruct (Rlt_dec _ _); [lra|].
  assert (Hs : 0 < v3_norm (vpart q)).
  { assert (0 < log_threshold i) by (destruct i; simpl; apply Rinv_0_lt_compat; lra). lra. }
  pose proof (unit_w q Hq) as Hw. pose proof (unit_vpart q Hq) as Hs2.
  set (s := v3_norm (vpart q)) in *.
  set (u := v3_scale (/ s) (vpart q)).
  assert (Hu : unit_v3 u).
  { unfold u. rewrite <- v3_divs_scale. apply direction_unit. fold s. lra. }
  replace (v3_scale (log_angle i (qw q) / s) (vpart q)) with (v3_scale (log_angle i (qw q)) u)
    by (unfold u; rewrite v3_scale_scale; reflexivity).
  rewrite cy_exp_axis by auto.
  assert (Es : sin (acos (qw q)) = s).
  { rewrite sin_acos by auto. rewrite Rsqr_pow2, <- Hs2. apply sqrt_pow2. lra. }
  assert (Ec : cos (acos (qw q)) = qw q) by now apply cos_acos.
  assert (HA : axis_quat u (2 * acos (qw q)) = q).
  { unfold axis_quat, u. replace (2 * acos (qw q) / 2) with (acos (qw q)) by field.
    rewrite Es, Ec. apply quat_eq; simpl; field; lra. }
  assert (HB : axis_quat u (2 * acos (qw q) - 2 * PI) = q_neg q).
  { unfold axis_quat, u. replace ((2 * acos (qw q) - 2 * PI) / 2) with (acos (qw q) - PI) by field.
    rewrite cos_minus, sin_minus, cos_PI, sin_PI, Es, Ec. unfold q_neg.
    apply quat_eq; simpl; field; lra. }
  destruct i; simpl.
  - destruct (Rle_dec 0 (qw q)); auto.
  - destruct (Rlt_dec 0 (qw q)); auto.
Qed.

Lemma vpart_neg q : v3_norm (vpart (q_neg q)) = v3_norm (vpart q).
Proof. unfold v3_norm. simpl. f_equal. ring. Qed.

Lemma unit_neg q : unit_quat q -> unit_quat (q_neg q).
Proof. unfold unit_quat, q_neg. intros H. etransitivity; [|exact H]. simpl. ring. Qed.

Lemma log_neg i q : unit_quat q ->
  (qw q <> 0 -> i_log i (q_neg q) = i_log i q)
  /\ (qw q = 0 -> i_log i (q_neg q) = v3_scale (-1) (i_log i q)).
Proof.
  intros Hq. rewrite !i_log_unit by auto using unit_neg. rewrite vpart_neg.
  pose proof (unit_w q Hq) as Hw.
  destruct (Rlt_dec _ _) as [Hl|Hl].
  - split; [reflexivity|]. intros _. apply v3_eq; simpl; ring.
  - assert (Hs : 0 < v3_norm (vpart q)).
    { assert (0 < log_threshold i) by (destruct i; simpl; apply Rinv_0_lt_compat; lra). lra. }
    set (s := v3_norm (vpart q)) in *.
    cbn [q_neg qw].
    split.
    + intros Hz.
      assert (EA : log_angle i (- qw q) = - log_angle i (qw q)).
      { assert (acos (- qw q) = PI - acos (qw q)) as E by now apply acos_opp.
        destruct i; simpl; rewrite E.
        - destruct (Rle_dec 0 (qw q)), (Rle_dec 0 (- qw q)); lra.
        - destruct (Rlt_dec 0 (qw q)), (Rlt_dec 0 (- qw q)); lra. }
      rewrite EA. apply v3_eq; simpl; field; lra.
    + intros Hz. rewrite Hz. replace (- 0) with 0 by ring. apply v3_eq; simpl; field; lra.
Qed.

Lemma log_exp i a : v3_norm a < PI ->
  i_log i (i_exp i a)
  = if Rlt_dec (sin (v3_norm a / 2)) (log_threshold i) then v3_zero else a.
Proof.
  intros Ha. pose proof PI_RGT_0. pose proof (v3_norm_pos a) as Hp.
  assert (E0 : i_exp i a = cy_exp a).
  { destruct i; [|reflexivity]. apply pr_exp_small. lra. }
  rewrite E0, i_log_unit by apply cy_exp_unit.
  destruct (v3_polar a) as (u & Hu & E). set (th := v3_norm a) in *.
  assert (Eq : cy_exp a = axis_quat u th) by (rewrite E; now apply cy_exp_axis).
  rewrite Eq.
  assert (Hsin : 0 <= sin (th / 2)) by (apply sin_ge_0; lra).
  assert (Ev : v3_norm (vpart (axis_quat u th)) = sin (th / 2)).
  { replace (vpart (axis_quat u th)) with (v3_scale (sin (th / 2)) u) by reflexivity.
    rewrite v3_norm_scale, (proj1 (unit_v3_norm u) Hu), Rabs_pos_eq by auto. ring. }
  rewrite Ev. destruct (Rlt_dec _ _) as [Hl|Hl]; [reflexivity|].
  assert (0 < log_threshold i) by (destruct i; simpl; apply Rinv_0_lt_compat; lra).
  assert (Hc : 0 < cos (th / 2)) by (apply cos_gt_0; lra).
  assert (EA : log_angle i (cos (th / 2)) = th).
  { destruct i; simpl.
    - destruct (Rle_dec _ _); [|lra]. rewrite acos_cos by lra. field.
    - destruct (Rlt_dec _ _); [|lra]. rewrite acos_cos by lra. field. }
  change (qw (axis_quat u th)) with (cos (th / 2)). rewrite EA.
  transitivity (v3_scale th u); [|symmetry; exact E]. apply v3_eq; simpl; field; lra.
Qed.

Lemma log_one i : i_log i q_one = v3_zero.
Proof.
  rewrite i_log_unit by apply one_unit. destruct (Rlt_dec _ _) as [|H]; [reflexivity|].
  exfalso. apply H. change (vpart q_one) with v3_zero. rewrite v3_norm_zero.
  destruct i; simpl; apply Rinv_0_lt_compat; lra.
Qed.

(** ** Rotations *)
(** The homogeneous form of the rotation matrix. *)
Definition rotate_h (q : quat) (v : v3) : v3 :=
  let '(Q4 w x y z) := q in
  V3 ((w ^ 2 + x ^ 2 - y ^ 2 - z ^ 2) * v3x v + 2 * (x * y - w * z) * v3y v + 2 * (x * z + w * y) * v3z v)
     (2 * (x * y + w * z) * v3x v + (w ^ 2 - x ^ 2 + y ^ 2 - z ^ 2) * v3y v + 2 * (y * z - w * x) * v3z v)
     (2 * (x * z - w * y) * v3x v + 2 * (y * z + w * x) * v3y v + (w ^ 2 - x ^ 2 - y ^ 2 + z ^ 2) * v3z v).

Lemma rotate_rotate_h q v : unit_quat q -> rotate q v = rotate_h q v.
Proof.
  destruct q as [w x y z]. unfold unit_quat. cbn [qw qx qy qz]. intros H. unfold rotate, rotate_h.
  assert (E1 : 1 - 2 * (y ^ 2 + z ^ 2) = w ^ 2 + x ^ 2 - y ^ 2 - z ^ 2) by lra.
  assert (E2 : 1 - 2 * (x ^ 2 + z ^ 2) = w ^ 2 - x ^ 2 + y ^ 2 - z ^ 2) by lra.
  assert (E3 : 1 - 2 * (x ^ 2 + y ^ 2) = w ^ 2 - x ^ 2 - y ^ 2 + z ^ 2) by lra.
  now rewrite E1, E2, E3.
Qed.

Lemma rotate_hamilton p q v : unit_quat p -> unit_quat q ->
  rotate (hamilton p q) v = rotate p (rotate q v).
Proof.
  intros Hp Hq. rewrite !rotate_rotate_h by auto using hamilton_unit.
  destruct p as [a b c d], q as [e f g h], v as [x y z]. apply v3_eq; simpl; ring.
Qed.

Lemma rotate_neg q v : rotate (q_neg q) v = rotate q v.
Proof. destruct q, v. apply v3_eq; simpl; ring. Qed.

Lemma rotate_one v : rotate q_one v = v.
Proof. destruct v. apply v3_eq; simpl; ring. Qed.

Lemma rotate_axis u th v : unit_v3 u -> rotate (axis_quat u th) v = rodrigues u th v.
Proof.
  intros Hu. destruct u as [a b c], v as [x y z]. unfold unit_v3 in Hu. cbn [v3x v3y v3z] in Hu.
  unfold axis_quat, rodrigues, v3_dot, cross, v3_add, v3_scale, rotate. cbn [v3x v3y v3z].
  set (k := cos (th / 2)). set (s := sin (th / 2)).
  assert (Ec : cos th = 1 - 2 * s * s).
  { replace th with (2 * (th / 2)) by field. apply cos_2a_sin. }
  assert (Es : sin th = 2 * s * k).
  { replace th with (2 * (th / 2)) by field. apply sin_2a. }
  rewrite Ec, Es.
  assert (A : b ^ 2 = 1 - a ^ 2 - c ^ 2) by lra.
  apply v3_eq; cbn [v3x v3y v3z]; ring_simplify; rewrite ?A; ring.
Qed.
