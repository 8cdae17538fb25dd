(** Turning motions: the rotation vector between two orientations depends
    Lipschitz continuously on them, finite differences of sampled orientations,
    and the Euler method for orientations with inputs whose errors are small in
    the mean. *)
From Coq Require Import Reals List Arith Bool Lia Lra Psatz.
From Coquelicot Require Import Coquelicot.
From Verif Require Import M_Prelude M_Dmp M_Quaternion M_Cartesian S_Rotation P_Loops P_Ode P_Reproduction
  P_Quaternion P_Sphere P_Orient.
Set Bullet Behavior "Strict Subproofs".
Local Open Scope R_scope.

(** ** Norms *)
Lemma v3_dot_cs a b : Rabs (v3_dot a b) <= v3_norm a * v3_norm b.
Proof.
  destruct (v3_polar a) as (u & Hu & Ea). destruct (v3_polar b) as (w & Hw & Eb).
  pose proof (cauchy u w Hu Hw) as C. pose proof (v3_norm_pos a) as Pa. pose proof (v3_norm_pos b) as Pb.
  assert (E : v3_dot a b = v3_norm a * v3_norm b * v3_dot u w).
  { rewrite Ea at 1. rewrite Eb at 1. unfold v3_dot. cbn. ring. }
  rewrite E, Rabs_mult, (Rabs_pos_eq (_ * _)) by (apply Rmult_le_pos; auto).
  rewrite <- (Rmult_1_r (v3_norm a * v3_norm b)) at 2. apply Rmult_le_compat_l; [apply Rmult_le_pos; auto|].
  apply Rabs_le. lra.
Qed.

Lemma v3_norm_triangle a b : v3_norm (v3_add a b) <= v3_norm a + v3_norm b.
Proof.
  pose proof (v3_norm_pos a) as Pa. pose proof (v3_norm_pos b) as Pb.
  apply Rsqr_incr_0_var; [|lra]. rewrite !Rsqr_pow2.
  pose proof (v3_norm_sq (v3_add a b)) as E1. pose proof (v3_norm_sq a) as E2. pose proof (v3_norm_sq b) as E3.
  pose proof (v3_dot_cs a b) as C. pose proof (Rle_abs (v3_dot a b)) as C2. unfold v3_dot in *. cbn in E1, C, C2. nra.
Qed.

Lemma v3_norm_opp a : v3_norm (v3_scale (-1) a) = v3_norm a.
Proof. rewrite v3_norm_scale. rewrite Rabs_left by lra. ring. Qed.

Lemma v3_sub_triangle a b c : v3_norm (v3_sub a c) <= v3_norm (v3_sub a b) + v3_norm (v3_sub b c).
Proof.
  replace (v3_sub a c) with (v3_add (v3_sub a b) (v3_sub b c)); [apply v3_norm_triangle|].
  apply v3_eq; cbn; ring.
Qed.

Lemma v3_sub_sym a b : v3_norm (v3_sub a b) = v3_norm (v3_sub b a).
Proof. rewrite <- v3_norm_opp. f_equal. apply v3_eq; cbn; ring. Qed.

Lemma v3_sub_norm a b : v3_norm (v3_sub a b) <= v3_norm a + v3_norm b.
Proof.
  rewrite <- (v3_norm_opp b). replace (v3_sub a b) with (v3_add a (v3_scale (-1) b)); [apply v3_norm_triangle|].
  apply v3_eq; cbn; ring.
Qed.

Lemma v3_sub_same a : v3_norm (v3_sub a a) = 0.
Proof. replace (v3_sub a a) with v3_zero; [apply v3_norm_zero|]. apply v3_eq; cbn; ring. Qed.

Lemma v3_sub_0 a : v3_sub a v3_zero = a.
Proof. apply v3_eq; cbn; ring. Qed.

(** The sum of the absolute values of the entries. *)
Definition n1 (a : v3) : R := Rabs (v3x a) + Rabs (v3y a) + Rabs (v3z a).
Lemma n1_pos a : 0 <= n1 a.
Proof. unfold n1. pose proof (Rabs_pos (v3x a)). pose proof (Rabs_pos (v3y a)). pose proof (Rabs_pos (v3z a)). lra. Qed.
Lemma norm_n1 a : v3_norm a <= n1 a.
Proof.
  pose proof (n1_pos a) as P. apply Rsqr_incr_0_var; auto. rewrite !Rsqr_pow2, v3_norm_sq. unfold n1.
  rewrite <- (pow2_abs (v3x a)), <- (pow2_abs (v3y a)), <- (pow2_abs (v3z a)).
  pose proof (Rabs_pos (v3x a)). pose proof (Rabs_pos (v3y a)). pose proof (Rabs_pos (v3z a)). nra.
Qed.
Lemma entries_le a : Rabs (v3x a) <= v3_norm a /\ Rabs (v3y a) <= v3_norm a /\ Rabs (v3z a) <= v3_norm a.
Proof.
  pose proof (v3_norm_pos a) as P. pose proof (v3_norm_sq a) as E.
  repeat split; apply Rsqr_incr_0_var; auto; rewrite !Rsqr_pow2, pow2_abs; nra.
Qed.
Lemma n1_norm a : n1 a <= 3 * v3_norm a.
Proof. destruct (entries_le a) as (H1 & H2 & H3). unfold n1. lra. Qed.

(** ** Rotation angles *)
Lemma sin_le x : 0 <= x -> sin x <= x.
Proof. intros [H| <-]; [left; now apply sin_lt_x|rewrite sin_0; lra]. Qed.

Lemma half_angle_sin d : unit_quat d -> sin (rot_angle d / 2) = v3_norm (vpart d).
Proof.
  intros Hd. pose proof (unit_w d Hd) as Hw. pose proof (unit_vpart d Hd) as Hs2.
  unfold rot_angle. replace (2 * acos (Rabs (qw d)) / 2) with (acos (Rabs (qw d))) by field.
  rewrite sin_acos.
  - rewrite <- Rsqr_abs, Rsqr_pow2, <- Hs2. apply sqrt_pow2, v3_norm_pos.
  - split; [pose proof (Rabs_pos (qw d)); lra|]. apply Rabs_le. lra.
Qed.

Lemma half_angle_cos d : unit_quat d -> cos (rot_angle d / 2) = Rabs (qw d).
Proof.
  intros Hd. pose proof (unit_w d Hd) as Hw.
  unfold rot_angle. replace (2 * acos (Rabs (qw d)) / 2) with (acos (Rabs (qw d))) by field.
  apply cos_acos. split; [pose proof (Rabs_pos (qw d)); lra|]. apply Rabs_le. lra.
Qed.

Lemma rot_angle_le d : unit_quat d -> rot_angle d <= PI * v3_norm (vpart d).
Proof.
  intros Hd. pose proof (rot_angle_bound d Hd). rewrite <- half_angle_sin by auto.
  pose proof (jordan (rot_angle d / 2) ltac:(lra)). lra.
Qed.

Lemma exp_inverse d : unit_quat d -> exists e, (cy_exp e = d \/ cy_exp e = q_neg d) /\ v3_norm e = rot_angle d.
Proof. intros Hd. destruct (shortest_vector Cython d Hd) as (e & H1 & H2 & _). eauto. Qed.

Lemma hamilton_neg_l p q : hamilton (q_neg p) q = q_neg (hamilton p q).
Proof. apply quat_eq; cbn; ring. Qed.
Lemma hamilton_neg_r p q : hamilton p (q_neg q) = q_neg (hamilton p q).
Proof. apply quat_eq; cbn; ring. Qed.
Lemma conj_neg q : cy_conj (q_neg q) = q_neg (cy_conj q).
Proof. apply quat_eq; cbn; ring. Qed.
Lemma conj_conj q : cy_conj (cy_conj q) = q.
Proof. destruct q. apply quat_eq; cbn; ring. Qed.

Lemma rot_angle_signs p q p' q' : p' = p \/ p' = q_neg p -> q' = q \/ q' = q_neg q ->
  rot_angle (hamilton p' q') = rot_angle (hamilton p q).
Proof. intros [-> | ->] [-> | ->]; rewrite ?hamilton_neg_l, ?hamilton_neg_r, ?rot_angle_neg; auto. Qed.

Lemma rot_angle_conj d : rot_angle (cy_conj d) = rot_angle d.
Proof. reflexivity. Qed.

Lemma exp_opp e : cy_conj (cy_exp e) = cy_exp (v3_scale (-1) e).
Proof.
  destruct (v3_polar e) as (u & Hu & Ee). rewrite Ee. rewrite v3_scale_scale, !cy_exp_axis by auto.
  unfold axis_quat, cy_conj. cbn [qw qx qy qz].
  replace (-1 * v3_norm e / 2) with (- (v3_norm e / 2)) by field. rewrite cos_neg, sin_neg.
  apply quat_eq; cbn [qw qx qy qz]; ring.
Qed.

Lemma rot_angle_mul a b : unit_quat a -> unit_quat b -> rot_angle (hamilton a b) <= rot_angle a + rot_angle b.
Proof.
  intros Ha Hb. destruct (exp_inverse a Ha) as (e & He & Ne).
  destruct (exp_inverse (cy_conj b) (cy_conj_unit b Hb)) as (f & Hf & Nf).
  rewrite rot_angle_conj in Nf.
  rewrite <- (rot_angle_signs a b (cy_exp e) (cy_conj (cy_exp f))); auto.
  - eapply Rle_trans; [apply exp_contracts|]. rewrite <- Ne, <- Nf. apply v3_sub_norm.
  - destruct Hf as [-> | ->]; [left|right]; rewrite ?conj_neg, conj_conj; auto.
Qed.

Lemma rot_angle_conjugate c d : unit_quat c -> rot_angle (hamilton (hamilton c d) (cy_conj c)) = rot_angle d.
Proof.
  intros Hc. unfold rot_angle. do 2 f_equal. f_equal. unfold unit_quat in Hc. destruct c as [w x y z], d as [a b e f].
  cbn in *. transitivity (a * (w * (w * 1) + x * (x * 1) + y * (y * 1) + z * (z * 1))); [ring|rewrite Hc; ring].
Qed.

Lemma err_triangle p q r : unit_quat p -> unit_quat q -> unit_quat r -> err p r <= err p q + err q r.
Proof.
  intros Hp Hq Hr. unfold err.
  replace (hamilton p (cy_conj r)) with (hamilton (hamilton p (cy_conj q)) (hamilton q (cy_conj r))).
  - apply rot_angle_mul; apply hamilton_unit; auto using cy_conj_unit.
  - rewrite hamilton_assoc. f_equal. rewrite <- hamilton_assoc, conj_l by auto. apply hamilton_one_l.
Qed.

Lemma err_sym p q : err p q = err q p.
Proof.
  unfold err. rewrite <- (rot_angle_conj (hamilton q _)), conj_hamilton, conj_conj. reflexivity.
Qed.

Lemma err_same q : unit_quat q -> err q q = 0.
Proof.
  intros Hq. unfold err. rewrite conj_r by auto. unfold rot_angle. cbn. rewrite Rabs_R1, acos_1. ring.
Qed.

(** Two turns from two orientations. *)
Lemma err_turns i p q a b : unit_quat p -> unit_quat q ->
  err (hamilton (cy_exp a) p) (i_mul i (i_exp i b) q) <= err p q + v3_norm (v3_sub a b).
Proof.
  intros Hp Hq. set (A := cy_exp a). assert (HA : unit_quat A) by apply cy_exp_unit.
  set (B := i_exp i b). assert (HB : unit_quat B) by apply i_exp_unit.
  rewrite i_mul_unit by auto. unfold err. rewrite conj_hamilton.
  replace (hamilton (hamilton A p) (hamilton (cy_conj q) (cy_conj B)))
    with (hamilton (hamilton (hamilton A (hamilton p (cy_conj q))) (cy_conj A)) (hamilton A (cy_conj B))).
  2:{ rewrite !hamilton_assoc. do 3 f_equal. rewrite <- hamilton_assoc, conj_l by auto. apply hamilton_one_l. }
  assert (Hd : unit_quat (hamilton p (cy_conj q))) by (apply hamilton_unit; auto using cy_conj_unit).
  eapply Rle_trans; [apply rot_angle_mul|].
  - apply hamilton_unit; [apply hamilton_unit|]; auto using cy_conj_unit.
  - apply hamilton_unit; auto using cy_conj_unit.
  - rewrite rot_angle_conjugate by auto. apply Rplus_le_compat_l.
    rewrite (rot_angle_signs A (cy_conj (cy_exp b)) A (cy_conj B)); [apply exp_contracts|now left|].
    unfold B. destruct (i_exp_sign i b) as [-> | ->]; [left|right]; rewrite ?conj_neg; auto.
Qed.

(** ** The rotation vector depends continuously on the orientations *)
Lemma sin_slope a b m : 0 <= a <= PI / 2 -> 0 <= b <= PI / 2 -> m <= cos a -> m <= cos b -> 0 < m ->
  Rabs (a - b) <= Rabs (sin a - sin b) / m.
Proof.
  assert (W : forall a b, 0 <= a <= PI / 2 -> 0 <= b <= PI / 2 -> m <= cos a -> m <= cos b -> 0 < m -> a <= b ->
    Rabs (a - b) <= Rabs (sin a - sin b) / m).
  { clear a b. intros a b Ha Hb Ca Cb Hm Hab. pose proof PI_RGT_0.
    destruct (MVT_gen sin a b cos) as (c & Hc & E).
    - intros x _. apply is_derive_Reals, derivable_pt_lim_sin.
    - intros x _. apply derivable_continuous_pt, derivable_pt_sin.
    - rewrite Rmin_left, Rmax_right in Hc by auto.
      assert (cos b <= cos c) by (apply cos_decr_1; lra).
      assert (0 <= sin b - sin a) by (rewrite E; apply Rmult_le_pos; lra).
      rewrite Rabs_left1, (Rabs_left1 (sin a - sin b)) by lra.
      apply Rmult_le_reg_r with m; auto. unfold Rdiv. rewrite Rmult_assoc, Rinv_l by lra. nra. }
  intros Ha Hb Ca Cb Hm. destruct (Rle_dec a b); [now apply W|].
  rewrite (Rabs_minus_sym a b), (Rabs_minus_sym (sin a)). apply W; auto. lra.
Qed.

Definition log_lip (c : R) : R := 2 / c + PI + 2 * PI / c.

Lemma log_lip_pos c : 0 < c -> 0 < log_lip c.
Proof.
  intros Hc. unfold log_lip. pose proof PI_RGT_0. pose proof (Rinv_0_lt_compat c Hc).
  unfold Rdiv. assert (0 < 2 * / c) by lra. assert (0 < 2 * PI * / c) by (apply Rmult_lt_0_compat; lra). lra.
Qed.

Lemma exp_inverse_lip c e1 e2 : 0 < c -> v3_norm e1 <= PI -> v3_norm e2 <= PI -> c <= cos (v3_norm e2 / 2) ->
  v3_norm (v3_sub e1 e2) <= log_lip c * rot_angle (hamilton (cy_exp e1) (cy_conj (cy_exp e2))).
Proof.
  intros Hc N1 N2 C2. pose proof PI_RGT_0 as HP.
  set (D := hamilton (cy_exp e1) (cy_conj (cy_exp e2))).
  assert (UD : unit_quat D) by (apply hamilton_unit; [|apply cy_conj_unit]; apply cy_exp_unit).
  pose proof (rot_angle_bound D UD) as HB. set (r := rot_angle D) in *.
  pose proof (log_lip_pos c Hc) as HL.
  destruct (v3_polar e1) as (u1 & Hu1 & E1). destruct (v3_polar e2) as (u2 & Hu2 & E2).
  pose proof (v3_norm_pos e1) as P1. pose proof (v3_norm_pos e2) as P2.
  set (a1 := v3_norm e1 / 2) in *. set (a2 := v3_norm e2 / 2) in *.
  assert (X1 : cy_exp e1 = axis_quat u1 (2 * a1)).
  { rewrite E1 at 1. rewrite cy_exp_axis by auto. f_equal. unfold a1. field. }
  assert (X2 : cy_exp e2 = axis_quat u2 (2 * a2)).
  { rewrite E2 at 1. rewrite cy_exp_axis by auto. f_equal. unfold a2. field. }
  set (w1 := v3_scale (sin a1) u1). set (w2 := v3_scale (sin a2) u2).
  assert (Ha1 : 0 <= a1 <= PI / 2) by (unfold a1; lra). assert (Ha2 : 0 <= a2 <= PI / 2) by (unfold a2; lra).
  assert (C1 : 0 <= cos a1) by (apply cos_ge_0; lra).
  assert (S1 : 0 <= sin a1) by (apply sin_ge_0; lra). assert (S2 : 0 <= sin a2) by (apply sin_ge_0; lra).
  assert (Hu1' : v3_norm u1 = 1) by now apply unit_v3_norm. assert (Hu2' : v3_norm u2 = 1) by now apply unit_v3_norm.
  assert (Nw1 : v3_norm w1 = sin a1) by (unfold w1; rewrite v3_norm_scale, Hu1', Rabs_pos_eq; lra).
  assert (Nw2 : v3_norm w2 = sin a2) by (unfold w2; rewrite v3_norm_scale, Hu2', Rabs_pos_eq; lra).
  assert (QD : qw D = cos a1 * cos a2 + v3_dot w1 w2).
  { unfold D. rewrite X1, X2. unfold axis_quat, w1, w2, v3_dot. cbn.
    replace (2 * a1 / 2) with a1 by field. replace (2 * a2 / 2) with a2 by field. ring. }
  assert (Triv : v3_norm (v3_sub e1 e2) <= 2 * PI).
  { eapply Rle_trans; [apply v3_sub_norm|]. lra. }
  assert (Far : c <= r -> v3_norm (v3_sub e1 e2) <= log_lip c * r).
  { intros Hr. eapply Rle_trans; [exact Triv|]. apply Rle_trans with (2 * PI / c * r).
    - apply Rmult_le_reg_r with c; auto. unfold Rdiv.
      replace (2 * PI * / c * r * c) with (2 * PI * r * (/ c * c)) by ring. rewrite Rinv_l by lra. nra.
    - apply Rmult_le_compat_r; [lra|]. unfold log_lip. pose proof (Rinv_0_lt_compat c Hc). unfold Rdiv. lra. }
  (* distances of the quaternions *)
  assert (Hh : 0 <= sin (r / 4) <= r / 4).
  { split; [apply sin_ge_0; lra|]. apply sin_le. lra. }
  assert (Hcos : cos (r / 2) = 1 - 2 * sin (r / 4) ^ 2).
  { replace (r / 2) with (2 * (r / 4)) by field. rewrite cos_2a_sin. ring. }
  pose proof (half_angle_cos D UD) as HD. fold r in HD.
  pose proof (v3_norm_sq (v3_sub w1 w2)) as Dw. pose proof (v3_norm_sq (v3_add w1 w2)) as Sw.
  pose proof (v3_norm_sq w1) as Qw1. pose proof (v3_norm_sq w2) as Qw2. rewrite Nw1 in Qw1. rewrite Nw2 in Qw2.
  pose proof (sin2_cos2 a1) as T1. pose proof (sin2_cos2 a2) as T2. unfold Rsqr in T1, T2.
  assert (D2 : v3_norm (v3_sub w1 w2) ^ 2 + (cos a1 - cos a2) ^ 2 = 2 - 2 * qw D).
  { rewrite Dw, QD. unfold v3_dot. cbn [v3_sub v3x v3y v3z]. nra. }
  assert (A2 : v3_norm (v3_add w1 w2) ^ 2 + (cos a1 + cos a2) ^ 2 = 2 + 2 * qw D).
  { rewrite Sw, QD. unfold v3_dot. cbn [v3_add v3x v3y v3z]. nra. }
  destruct (Rle_dec 0 (qw D)) as [Hpos|Hneg].
  2:{ apply Far. rewrite Rabs_left in HD by lra. pose proof (pow2_ge_0 (v3_norm (v3_add w1 w2))).
      assert (Hq : c ^ 2 <= (2 * sin (r / 4)) ^ 2) by nra.
      assert (c <= 2 * sin (r / 4)); [|lra].
      apply Rsqr_incr_0_var; [|lra]. rewrite !Rsqr_pow2. exact Hq. }
  rewrite Rabs_pos_eq in HD by auto.
  assert (Q : v3_norm (v3_sub w1 w2) ^ 2 + (cos a1 - cos a2) ^ 2 <= (r / 2) ^ 2) by nra.
  destruct (Rle_dec (c / 2) (cos a1)) as [Hin|Hout].
  2:{ apply Far. pose proof (pow2_ge_0 (v3_norm (v3_sub w1 w2))).
      assert (Hq : (c / 2) ^ 2 <= (r / 2) ^ 2) by nra.
      assert (c / 2 <= r / 2); [|lra]. apply Rsqr_incr_0_var; [|lra]. rewrite !Rsqr_pow2. exact Hq. }
  assert (Dist : v3_norm (v3_sub w1 w2) <= r / 2).
  { apply Rsqr_incr_0_var; [|lra]. rewrite !Rsqr_pow2. pose proof (pow2_ge_0 (cos a1 - cos a2)). lra. }
  set (x := v3_norm (v3_sub w1 w2)) in *. assert (Hx : 0 <= x) by apply v3_norm_pos.
  assert (Ds : Rabs (sin a1 - sin a2) <= x).
  { rewrite <- Nw1, <- Nw2. unfold x. apply Rabs_le.
    pose proof (v3_sub_triangle w1 w2 v3_zero) as R1. pose proof (v3_sub_triangle w2 w1 v3_zero) as R2.
    rewrite !v3_sub_0 in R1, R2. rewrite (v3_sub_sym w2 w1) in R2. lra. }
  assert (Da : Rabs (a1 - a2) <= x / (c / 2)).
  { eapply Rle_trans; [apply (sin_slope a1 a2 (c / 2)); auto; lra|].
    apply Rmult_le_compat_r; [apply Rlt_le, Rinv_0_lt_compat; lra|exact Ds]. }
  assert (Du : a2 * v3_norm (v3_sub u1 u2) <= PI * x).
  { pose proof (jordan a2 Ha2) as J. pose proof (v3_norm_pos (v3_sub u1 u2)) as Pu.
    assert (sin a2 * v3_norm (v3_sub u1 u2) <= 2 * x); [|nra].
    replace (sin a2 * v3_norm (v3_sub u1 u2)) with (v3_norm (v3_sub (v3_scale (sin a2) u1) w2)).
    - eapply Rle_trans; [apply (v3_sub_triangle _ w1)|].
      assert (v3_norm (v3_sub (v3_scale (sin a2) u1) w1) <= x); [|fold x; lra].
      replace (v3_sub (v3_scale (sin a2) u1) w1) with (v3_scale (sin a2 - sin a1) u1)
        by (unfold w1; apply v3_eq; cbn; ring).
      rewrite v3_norm_scale, Hu1', Rmult_1_r, Rabs_minus_sym. exact Ds.
    - replace (v3_sub (v3_scale (sin a2) u1) w2) with (v3_scale (sin a2) (v3_sub u1 u2))
        by (unfold w2; apply v3_eq; cbn; ring).
      rewrite v3_norm_scale, Rabs_pos_eq; auto. }
  assert (Et : v3_norm (v3_sub e1 e2) <= 2 * (Rabs (a1 - a2) + a2 * v3_norm (v3_sub u1 u2))).
  { replace (v3_sub e1 e2) with (v3_scale 2 (v3_add (v3_scale (a1 - a2) u1) (v3_scale a2 (v3_sub u1 u2)))).
    - rewrite v3_norm_scale, Rabs_pos_eq by lra. apply Rmult_le_compat_l; [lra|].
      eapply Rle_trans; [apply v3_norm_triangle|]. rewrite !v3_norm_scale, Hu1', (Rabs_pos_eq a2) by lra. lra.
    - assert (G1 : e1 = v3_scale (2 * a1) u1) by (rewrite E1 at 1; f_equal; unfold a1; field).
      assert (G2 : e2 = v3_scale (2 * a2) u2) by (rewrite E2 at 1; f_equal; unfold a2; field).
      rewrite G1, G2. apply v3_eq; cbn; ring. }
  apply Rle_trans with (2 * (x / (c / 2) + PI * x)); [lra|].
  replace (2 * (x / (c / 2) + PI * x)) with ((2 / c + PI) * (2 * x)) by (field; lra).
  apply Rmult_le_compat; try lra.
  - pose proof (Rinv_0_lt_compat c Hc). unfold Rdiv. lra.
  - unfold log_lip. pose proof (Rinv_0_lt_compat c Hc). unfold Rdiv.
    assert (0 <= 2 * PI * / c) by (apply Rmult_le_pos; lra). lra.
Qed.
