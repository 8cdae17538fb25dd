(** The distance on the sphere of unit quaternions (C93): rotation vectors are
    at least as far apart as the rotations that they stand for. *)
From Coq Require Import Reals Lra Psatz.
From Coquelicot Require Import Coquelicot.
From Verif Require Import M_Prelude M_Quaternion S_Rotation P_Quaternion.
Open Scope R_scope.
Set Bullet Behavior "Strict Subproofs".

(** ** [sin y / y] is decreasing *)
Lemma sin_minus_ycos y : 0 <= y <= PI -> y * cos y <= sin y.
Proof.
  intros Hy. destruct (Req_dec y 0) as [->|Hn]; [rewrite sin_0; lra|].
  destruct (MVT_gen (fun x => sin x - x * cos x) 0 y (fun x => x * sin x)) as (c & Hc & E).
  - intros x Hx. auto_derive; auto. ring.
  - intros x Hx. apply continuity_pt_filterlim, (ex_derive_continuous (fun x => sin x - x * cos x)).
    auto_derive; auto.
  - rewrite Rmin_left, Rmax_right in Hc by lra. rewrite sin_0 in E.
    assert (0 <= sin c) by (apply sin_ge_0; lra).
    assert (0 <= c * sin c * (y - 0)) by (apply Rmult_le_pos; nra). lra.
Qed.

Lemma sinc_decreasing x y : 0 < x -> x <= y -> y <= PI -> sin y * x <= sin x * y.
Proof.
  intros Hx Hxy Hy. destruct (Req_dec x y) as [->|Hn]; [lra|].
  destruct (MVT_gen (fun t => sin t / t) x y (fun t => (t * cos t - sin t) / t ^ 2)) as (c & Hc & E).
  - rewrite Rmin_left, Rmax_right by lra. intros t Ht. auto_derive; [lra|]. field. lra.
  - rewrite Rmin_left, Rmax_right by lra. intros t Ht.
    apply continuity_pt_filterlim, (ex_derive_continuous (fun t => sin t / t)). auto_derive. lra.
  - rewrite Rmin_left, Rmax_right in Hc by lra.
    pose proof (sin_minus_ycos c ltac:(lra)) as H.
    assert (Hd : 0 <= / c ^ 2) by (apply Rlt_le, Rinv_0_lt_compat; nra).
    assert (E2 : sin y / y <= sin x / x).
    { assert ((c * cos c - sin c) / c ^ 2 * (y - x) <= 0); [|lra].
      unfold Rdiv. assert ((c * cos c - sin c) * / c ^ 2 <= 0) by nra. nra. }
    apply Rmult_le_compat_r with (r := x * y) in E2; [|nra].
    replace (sin y / y * (x * y)) with (sin y * x) in E2 by (field; lra).
    replace (sin x / x * (x * y)) with (sin x * y) in E2 by (field; lra). exact E2.
Qed.

Lemma jordan x : 0 <= x <= PI / 2 -> 2 * x <= PI * sin x.
Proof.
  intros Hx. pose proof PI_RGT_0. destruct (Req_dec x 0) as [->|Hn]; [rewrite sin_0; lra|].
  pose proof (sinc_decreasing x (PI / 2) ltac:(lra) ltac:(lra) ltac:(lra)) as Hs.
  rewrite sin_PI2 in Hs. lra.
Qed.

(** ** [cos (sqrt s)] is convex for [s <= PI ^ 2] *)
Lemma cos_sqrt_slope a b : 0 <= a -> a < b -> b <= PI ^ 2 ->
  exists c, a <= c <= b /\ 0 < c
    /\ cos (sqrt b) - cos (sqrt a) = - (sin (sqrt c) / (2 * sqrt c)) * (b - a).
Proof.
  intros Ha Hab Hb.
  set (f' := fun s => - (sin (sqrt s) / (2 * sqrt s))).
  destruct (MVT_gen (fun s => cos (sqrt s)) a b
    (fun s => if Rle_dec s 0 then 0 else f' s)) as (c & Hc & E).
  - rewrite Rmin_left, Rmax_right by lra. intros s Hs. destruct (Rle_dec s 0); [lra|].
    assert (0 < sqrt s) by (apply sqrt_lt_R0; lra).
    unfold f'. auto_derive; [lra|]. field. lra.
  - rewrite Rmin_left, Rmax_right by lra. intros s Hs.
    apply (continuity_pt_comp sqrt cos); [apply continuity_pt_sqrt; lra|apply continuity_cos].
  - rewrite Rmin_left, Rmax_right in Hc by lra. destruct (Rle_dec c 0) as [Hc0|Hc0].
    + exfalso. assert (a = 0) by lra. subst a. rewrite sqrt_0, cos_0 in E.
      assert (Hs : 0 < sqrt b) by (apply sqrt_lt_R0; lra).
      assert (sqrt b <= PI).
      { replace PI with (sqrt (PI ^ 2)) by (apply sqrt_pow2; left; apply PI_RGT_0). now apply sqrt_le_1_alt. }
      assert (cos (sqrt b) < cos 0) by (apply cos_decreasing_1; lra).
      rewrite cos_0 in *. lra.
    + exists c. split; [lra|]. split; [lra|]. exact E.
Qed.

Lemma cos_sqrt_convex a b l : 0 <= a -> a <= b -> b <= PI ^ 2 -> 0 <= l <= 1 ->
  cos (sqrt ((1 - l) * a + l * b)) <= (1 - l) * cos (sqrt a) + l * cos (sqrt b).
Proof.
  intros Ha Hab Hb Hl. pose proof PI_RGT_0 as HP.
  destruct (Req_dec a b) as [->|Hne].
  { replace ((1 - l) * b + l * b) with b by ring. lra. }
  destruct (Req_dec l 0) as [->|Hl0].
  { replace ((1 - 0) * a + 0 * b) with a by ring. lra. }
  destruct (Req_dec l 1) as [->|Hl1].
  { replace ((1 - 1) * a + 1 * b) with b by ring. lra. }
  set (m := (1 - l) * a + l * b).
  assert (Hm : a < m < b) by (unfold m; nra).
  destruct (cos_sqrt_slope a m) as (c1 & Hc1 & Hp1 & E1); try lra.
  destruct (cos_sqrt_slope m b) as (c2 & Hc2 & Hp2 & E2); try lra.
  assert (Hs1 : 0 < sqrt c1) by (apply sqrt_lt_R0; lra).
  assert (Hs12 : sqrt c1 <= sqrt c2) by (apply sqrt_le_1_alt; lra).
  assert (Hs2 : sqrt c2 <= PI).
  { replace PI with (sqrt (PI ^ 2)) by (apply sqrt_pow2; lra). apply sqrt_le_1_alt; lra. }
  pose proof (sinc_decreasing _ _ Hs1 Hs12 Hs2) as HS.
  set (g1 := sin (sqrt c1) / (2 * sqrt c1)) in *. set (g2 := sin (sqrt c2) / (2 * sqrt c2)) in *.
  assert (Hg : g2 <= g1).
  { unfold g1, g2. apply Rmult_le_reg_r with (2 * sqrt c1 * sqrt c2); [nra|].
    replace (sin (sqrt c2) / (2 * sqrt c2) * (2 * sqrt c1 * sqrt c2)) with (sin (sqrt c2) * sqrt c1) by (field; lra).
    replace (sin (sqrt c1) / (2 * sqrt c1) * (2 * sqrt c1 * sqrt c2)) with (sin (sqrt c1) * sqrt c2) by (field; lra).
    exact HS. }
  replace (m - a) with (l * (b - a)) in E1 by (unfold m; ring).
  replace (b - m) with ((1 - l) * (b - a)) in E2 by (unfold m; ring).
  clearbody m g1 g2. assert (0 <= l * (1 - l) * (b - a)) by (apply Rmult_le_pos; nra).
  set (q := l * (1 - l) * (b - a)) in *.
  assert (F1 : (1 - l) * (cos (sqrt m) - cos (sqrt a)) = - g1 * q) by (rewrite E1; unfold q; ring).
  assert (F2 : l * (cos (sqrt b) - cos (sqrt m)) = - g2 * q) by (rewrite E2; unfold q; ring).
  assert (- g1 * q <= - g2 * q) by nra. lra.
Qed.

(** ** Comparison of the spherical and the planar law of cosines *)
Lemma cosines A C x : 0 <= A -> 0 <= C -> -1 <= x <= 1 ->
  sqrt (A ^ 2 + C ^ 2 - 2 * A * C * x) <= PI ->
  cos (sqrt (A ^ 2 + C ^ 2 - 2 * A * C * x)) <= cos A * cos C + x * (sin A * sin C).
Proof.
  intros HA HC Hx HD. pose proof PI_RGT_0 as HP.
  set (s := fun x => A ^ 2 + C ^ 2 - 2 * A * C * x) in *. fold (s x) in *.
  set (w := fun x => cos A * cos C + x * (sin A * sin C)) in *. fold (w x) in *.
  assert (HAC : 0 <= A * C) by nra.
  assert (Hs0 : 0 <= s x).
  { unfold s. replace (A ^ 2 + C ^ 2 - 2 * A * C * x) with ((A - C) ^ 2 + 2 * (A * C) * (1 - x)) by ring.
    assert (0 <= (A - C) ^ 2) by apply pow2_ge_0. assert (0 <= A * C * (1 - x)) by (apply Rmult_le_pos; lra). lra. }
  assert (Hsx : s x <= PI ^ 2).
  { pose proof (sqrt_sqrt (s x) Hs0). pose proof (sqrt_pos (s x)). nra. }
  assert (E1 : sqrt (s 1) = Rabs (A - C)).
  { replace (s 1) with (Rsqr (A - C)) by (unfold s, Rsqr; ring). apply sqrt_Rsqr_abs. }
  assert (W1 : cos (sqrt (s 1)) = w 1).
  { rewrite E1. unfold w, Rabs. destruct (Rcase_abs _); rewrite ?cos_neg, cos_minus; ring. }
  destruct (Req_dec (A * C) 0) as [H0|H0].
  { replace (s x) with (s 1) by (unfold s; nra). rewrite W1. unfold w.
    assert (A = 0 \/ C = 0) as [-> | ->] by (now apply Rmult_integral); rewrite sin_0; lra. }
  (* the other end of the chord *)
  assert (HE : exists xe, -1 <= xe <= x /\ s xe <= PI ^ 2 /\ cos (sqrt (s xe)) <= w xe).
  { destruct (Rle_dec (A + C) PI) as [Hle|Hgt].
    - exists (-1). split; [lra|]. assert (E2 : s (-1) = (A + C) ^ 2) by (unfold s; ring).
      rewrite E2. split; [nra|]. rewrite sqrt_pow2 by lra. rewrite cos_plus. unfold w. lra.
    - exists ((A ^ 2 + C ^ 2 - PI ^ 2) / (2 * A * C)).
      set (xe := (A ^ 2 + C ^ 2 - PI ^ 2) / (2 * A * C)).
      assert (Ee : s xe = PI ^ 2).
      { unfold s, xe. field. split; intros ->; apply H0; ring. }
      assert (Hxe : -1 <= xe <= x).
      { assert (Hpos : 0 < 2 * A * C) by nra. split.
        - apply Rmult_le_reg_l with (2 * A * C); [lra|]. unfold s in Ee. nra.
        - apply Rmult_le_reg_l with (2 * A * C); [lra|]. unfold s in Ee, Hsx. nra. }
      split; [exact Hxe|]. split; [lra|]. rewrite Ee, sqrt_pow2 by lra. rewrite cos_PI.
      unfold w. pose proof (COS_bound (A + C)) as B1. pose proof (COS_bound (A - C)) as B2.
      rewrite cos_plus in B1. rewrite cos_minus in B2.
      set (cc := cos A * cos C) in *. set (ss := sin A * sin C) in *. nra. }
  destruct HE as (xe & Hxe & Hse & Hwe).
  destruct (Req_dec xe 1) as [->|Hn]; [assert (x = 1) by lra; subst; lra|].
  set (l := (1 - x) / (1 - xe)).
  assert (Hl : 0 <= l <= 1).
  { unfold l. split.
    - apply Rmult_le_pos; [lra|]. apply Rlt_le, Rinv_0_lt_compat. lra.
    - apply Rmult_le_reg_r with (1 - xe); [lra|]. unfold Rdiv. rewrite Rmult_assoc, Rinv_l by lra. lra. }
  assert (Ex : x = (1 - l) * 1 + l * xe) by (unfold l; field; lra).
  assert (Es : s x = (1 - l) * s 1 + l * s xe).
  { transitivity (s ((1 - l) * 1 + l * xe)); [now f_equal|]. unfold s. ring. }
  assert (Ew : w x = (1 - l) * w 1 + l * w xe).
  { transitivity (w ((1 - l) * 1 + l * xe)); [now f_equal|]. unfold w. ring. }
  rewrite Es, Ew.
  assert (0 <= s 1).
  { replace (s 1) with ((A - C) ^ 2) by (unfold s; ring). apply pow2_ge_0. }
  assert (s 1 <= s xe).
  { assert (0 <= A * C * (1 - xe)) by (apply Rmult_le_pos; lra). unfold s. lra. }
  eapply Rle_trans; [apply cos_sqrt_convex; auto|]. rewrite W1. nra.
Qed.

(** ** Distance of rotations *)
Definition v3_n2 (a : v3) : R := v3_dot a a.
(** The angle of the rotation that the unit quaternion [d] stands for. *)
Definition rot_angle (d : quat) : R := 2 * acos (Rabs (qw d)).

Lemma v3_n2_norm a : v3_n2 a = v3_norm a ^ 2.
Proof. rewrite v3_norm_sq. unfold v3_n2, v3_dot. ring. Qed.

Lemma v3_n2_pos a : 0 <= v3_n2 a.
Proof. unfold v3_n2, v3_dot. nra. Qed.

Lemma acos_le a b : 0 <= b <= PI -> -1 <= a <= 1 -> cos b <= a -> acos a <= b.
Proof.
  intros Hb Ha H. pose proof (acos_bound a) as Hc. destruct (Rle_dec (acos a) b); auto.
  assert (cos (acos a) < cos b) by (apply cos_decreasing_1; lra).
  rewrite cos_acos in * by auto. lra.
Qed.

Lemma rot_angle_bound d : unit_quat d -> 0 <= rot_angle d <= PI.
Proof.
  intros Hd. pose proof (unit_w d Hd). unfold rot_angle. pose proof (acos_bound (Rabs (qw d))).
  assert (acos (Rabs (qw d)) <= PI / 2); [|lra].
  apply acos_half_pi; [|apply Rabs_pos]. split; [pose proof (Rabs_pos (qw d)); lra|].
  apply Rabs_le. lra.
Qed.

Lemma rot_angle_neg d : rot_angle (q_neg d) = rot_angle d.
Proof. unfold rot_angle, q_neg. cbn. now rewrite Rabs_Ropp. Qed.

Lemma cauchy u v : unit_v3 u -> unit_v3 v -> -1 <= v3_dot u v <= 1.
Proof.
  unfold unit_v3, v3_dot. intros Hu Hv.
  assert (H1 : 0 <= (v3x u - v3x v) ^ 2 + (v3y u - v3y v) ^ 2 + (v3z u - v3z v) ^ 2).
  { pose proof (pow2_ge_0 (v3x u - v3x v)). pose proof (pow2_ge_0 (v3y u - v3y v)).
    pose proof (pow2_ge_0 (v3z u - v3z v)). lra. }
  assert (H2 : 0 <= (v3x u + v3x v) ^ 2 + (v3y u + v3y v) ^ 2 + (v3z u + v3z v) ^ 2).
  { pose proof (pow2_ge_0 (v3x u + v3x v)). pose proof (pow2_ge_0 (v3y u + v3y v)).
    pose proof (pow2_ge_0 (v3z u + v3z v)). lra. }
  lra.
Qed.

Lemma exp_contracts a u :
  rot_angle (hamilton (cy_exp a) (cy_conj (cy_exp u))) <= v3_norm (v3_sub a u).
Proof.
  pose proof PI_RGT_0 as HP.
  destruct (v3_polar a) as (p & Hp & Ea). destruct (v3_polar u) as (r & Hr & Eu).
  pose proof (v3_norm_pos a) as HA. pose proof (v3_norm_pos u) as HC.
  assert (Ew : qw (hamilton (cy_exp a) (cy_conj (cy_exp u)))
    = cos (v3_norm a / 2) * cos (v3_norm u / 2)
      + v3_dot p r * (sin (v3_norm a / 2) * sin (v3_norm u / 2))).
  { rewrite Ea at 1. rewrite Eu at 1. rewrite !cy_exp_axis by auto. unfold axis_quat, v3_dot. cbn. ring. }
  assert (Hun : unit_quat (hamilton (cy_exp a) (cy_conj (cy_exp u)))).
  { apply hamilton_unit; [|apply cy_conj_unit]; apply cy_exp_unit. }
  pose proof (rot_angle_bound _ Hun) as HB. pose proof (unit_w _ Hun) as Hw.
  set (A := v3_norm a / 2) in *. set (C := v3_norm u / 2) in *.
  set (x := v3_dot p r) in *. pose proof (cauchy p r Hp Hr) as Hx. fold x in Hx.
  assert (ED : v3_norm (v3_sub a u) = 2 * sqrt (A ^ 2 + C ^ 2 - 2 * A * C * x)).
  { replace 2 with (sqrt (2 ^ 2)) at 1 by (apply sqrt_pow2; lra).
    rewrite <- sqrt_mult_alt by lra. unfold v3_norm at 1. f_equal.
    assert (Epx : v3x a = v3_norm a * v3x p) by (rewrite Ea at 1; reflexivity).
    assert (Epy : v3y a = v3_norm a * v3y p) by (rewrite Ea at 1; reflexivity).
    assert (Epz : v3z a = v3_norm a * v3z p) by (rewrite Ea at 1; reflexivity).
    assert (Erx : v3x u = v3_norm u * v3x r) by (rewrite Eu at 1; reflexivity).
    assert (Ery : v3y u = v3_norm u * v3y r) by (rewrite Eu at 1; reflexivity).
    assert (Erz : v3z u = v3_norm u * v3z r) by (rewrite Eu at 1; reflexivity).
    cbn [v3_sub v3x v3y v3z]. rewrite Epx, Epy, Epz, Erx, Ery, Erz.
    unfold A, C, x, v3_dot. unfold unit_v3 in Hp, Hr.
    set (na := v3_norm a). set (nu := v3_norm u).
    transitivity (na ^ 2 * (v3x p ^ 2 + v3y p ^ 2 + v3z p ^ 2)
      + nu ^ 2 * (v3x r ^ 2 + v3y r ^ 2 + v3z r ^ 2)
      - 2 * na * nu * (v3x p * v3x r + v3y p * v3y r + v3z p * v3z r)); [ring|].
    rewrite Hp, Hr. field. }
  rewrite ED. set (D := sqrt (A ^ 2 + C ^ 2 - 2 * A * C * x)) in *.
  assert (HD0 : 0 <= D) by apply sqrt_pos.
  destruct (Rle_dec (PI / 2) D) as [Hb|Hb]; [lra|].
  pose proof (cosines A C x ltac:(unfold A; lra) ltac:(unfold C; lra) Hx) as HC2. fold D in HC2.
  specialize (HC2 ltac:(lra)). rewrite <- Ew in HC2.
  unfold rot_angle. apply Rmult_le_compat_l; [lra|]. apply acos_le; [lra| |].
  - split; [pose proof (Rabs_pos (qw (hamilton (cy_exp a) (cy_conj (cy_exp u))))); lra|].
    apply Rabs_le. lra.
  - eapply Rle_trans; [exact HC2|apply Rle_abs].
Qed.

(** ** The logarithm and a shortest rotation vector *)
Lemma threshold_pos i : 0 < log_threshold i.
Proof. destruct i; simpl; apply Rinv_0_lt_compat; lra. Qed.

Lemma shortest_vector i d : unit_quat d ->
  exists e, (cy_exp e = d \/ cy_exp e = q_neg d) /\ v3_norm e = rot_angle d
    /\ (i_log i d = e \/ (i_log i d = v3_zero /\ v3_norm e <= PI * log_threshold i)).
Proof.
  intros Hd. pose proof PI_RGT_0 as HP. pose proof (threshold_pos i) as Ht.
  pose proof (unit_w d Hd) as Hw. pose proof (unit_vpart d Hd) as Hs2.
  pose proof (rot_angle_bound d Hd) as HB.
  assert (Hsin : sin (rot_angle d / 2) = v3_norm (vpart d)).
  { unfold rot_angle. replace (2 * acos (Rabs (qw d)) / 2) with (acos (Rabs (qw d))) by field.
    rewrite sin_acos.
    - rewrite <- Rsqr_abs, Rsqr_pow2, <- Hs2. apply sqrt_pow2, v3_norm_pos.
    - split; [pose proof (Rabs_pos (qw d)); lra|]. apply Rabs_le. lra. }
  assert (Habs : forall th, (th = 2 * acos (qw d) /\ 0 <= qw d)
                  \/ (th = 2 * acos (qw d) - 2 * PI /\ qw d <= 0) -> Rabs th = rot_angle d).
  { pose proof (acos_bound (qw d)). intros th [[-> H0]|[-> H0]]; unfold rot_angle.
    - rewrite (Rabs_pos_eq (qw d)) by auto. apply Rabs_pos_eq. lra.
    - rewrite (Rabs_left1 (qw d)) by auto. rewrite acos_opp, Rabs_left1 by lra. ring. }
  destruct (Rlt_dec (v3_norm (vpart d)) (log_threshold i)) as [Hin|Hout].
  - (* treated as no rotation *)
    assert (Hlog : i_log i d = v3_zero).
    { rewrite i_log_unit by auto. destruct (Rlt_dec _ _); [reflexivity|contradiction]. }
    assert (Hsmall : rot_angle d <= PI * log_threshold i).
    { pose proof (jordan (rot_angle d / 2) ltac:(lra)) as J. rewrite Hsin in J. nra. }
    destruct (Req_dec (v3_norm (vpart d)) 0) as [H0|H0].
    + exists v3_zero. rewrite cy_exp_zero, v3_norm_zero.
      assert (Hr : rot_angle d = 0).
      { rewrite H0 in Hsin. pose proof (jordan (rot_angle d / 2) ltac:(lra)) as J. rewrite Hsin in J. lra. }
      rewrite Hr. split; [|split; [reflexivity|right; split; auto; nra]].
      apply v3_norm_0 in H0. injection H0 as Hx Hy Hz.
      unfold unit_quat in Hd. rewrite Hx, Hy, Hz in Hd.
      assert (Hc : (qw d - 1) * (qw d + 1) = 0) by lra. apply Rmult_integral in Hc.
      destruct Hc; [left|right]; apply quat_eq; cbn; lra.
    + pose proof (v3_norm_pos (vpart d)) as Hpos. set (s := v3_norm (vpart d)) in *.
      set (u := v3_scale (/ s) (vpart d)).
      assert (Hu : unit_v3 u).
      { unfold u. rewrite <- v3_divs_scale. apply direction_unit. exact H0. }
      assert (Es : sin (acos (qw d)) = s).
      { rewrite sin_acos by auto. rewrite Rsqr_pow2, <- Hs2. apply sqrt_pow2. lra. }
      assert (Ec : cos (acos (qw d)) = qw d) by now apply cos_acos.
      set (th := if Rle_dec 0 (qw d) then 2 * acos (qw d) else 2 * acos (qw d) - 2 * PI).
      exists (v3_scale th u). rewrite cy_exp_axis by auto.
      assert (Hn : v3_norm (v3_scale th u) = rot_angle d).
      { rewrite v3_norm_scale, (proj1 (unit_v3_norm u) Hu), Rmult_1_r. apply Habs.
        unfold th. destruct (Rle_dec 0 (qw d)); [left|right]; split; auto; lra. }
      rewrite Hn. split; [|auto].
      unfold th, axis_quat. destruct (Rle_dec 0 (qw d)); [left|right].
      * replace (2 * acos (qw d) / 2) with (acos (qw d)) by field.
        rewrite Es, Ec. unfold u. apply quat_eq; cbn; field; auto.
      * replace ((2 * acos (qw d) - 2 * PI) / 2) with (acos (qw d) - PI) by field.
        rewrite cos_minus, sin_minus, cos_PI, sin_PI, Es, Ec. unfold u, q_neg.
        apply quat_eq; cbn; field; auto.
  - exists (i_log i d).
    assert (Hge : log_threshold i <= v3_norm (vpart d)) by lra.
    assert (E0 : i_exp i (i_log i d) = cy_exp (i_log i d)).
    { destruct i; [|reflexivity]. apply pr_exp_small. exact (log_length Python d Hd). }
    pose proof (exp_log i d Hd Hge) as HE. rewrite E0 in HE.
    split; [exact HE|]. split; [|auto].
    rewrite i_log_unit by auto. destruct (Rlt_dec _ _); [contradiction|].
    rewrite v3_norm_scale. unfold Rdiv. rewrite Rabs_mult, (Rabs_pos_eq (/ _)) by
      (apply Rlt_le, Rinv_0_lt_compat; lra).
    rewrite Rmult_assoc, Rinv_l, Rmult_1_r by lra. apply Habs.
    destruct i; unfold log_angle.
    + destruct (Rle_dec 0 (qw d)); [left|right]; split; auto; lra.
    + destruct (Rlt_dec 0 (qw d)); [left|right]; split; auto; lra.
Qed.
