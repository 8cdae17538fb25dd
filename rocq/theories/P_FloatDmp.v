(** Rounding errors of the Runge-Kutta integrators in double precision. *)
From Coq Require Import Reals ZArith List Bool Lia Lra Psatz.
From Verif Require Import M_Prelude.
From Flocq Require Import Core.Core IEEE754.BinarySingleNaN.
From Verif Require Import M_Float S_Float P_Float M_FloatDmp.
Import ListNotations.
Open Scope R_scope.
Set Bullet Behavior "Strict Subproofs".

(** ** One step of the Runge-Kutta scheme with errors in every stage

    [q] is the scaled distance to the goal, [v] the velocity, [x] the scaled step. *)
Definition growth x := 1 - x + x ^ 2 / 2 - x ^ 3 / 6 + x ^ 4 / 24.
Definition mixing x := 1 - x + x ^ 2 / 2 - x ^ 3 / 6.
Definition energy q v := Rabs (v + q) + / 2 * Rabs q.

Ltac unabs := repeat match goal with
  | H : Rabs _ <= _ |- _ => apply Rabs_le_inv in H; destruct H
  end.
Ltac abs_lra := apply Rabs_le; unabs; split; lra.

Lemma plus_scaled x e A B a b : 0 <= x <= / 6 -> Rabs A <= a -> Rabs B <= b -> e = A + x * B ->
  Rabs e <= a + b / 6.
Proof.
  intros Hx HA HB ->. assert (Hb : 0 <= b) by (apply Rle_trans with (2 := HB), Rabs_pos).
  apply Rle_trans with (1 := Rabs_triang _ _). rewrite Rabs_mult, (Rabs_pos_eq x) by lra.
  pose proof (Rabs_pos B). assert (x * Rabs B <= / 6 * b) by (apply Rmult_le_compat; lra). lra.
Qed.

Section Response.
Variables x q v B r k0 c1 q1 k1 c2 q2 k2 c3 q3 k3 : R.
Hypothesis Hx : 0 <= x <= / 6.
Hypothesis H0 : Rabs (k0 - (- q - 2 * v)) <= B.
Hypothesis H1 : Rabs (c1 - (v + x / 2 * k0)) <= r.
Hypothesis H2 : Rabs (q1 - (q + x / 2 * v)) <= r.
Hypothesis H3 : Rabs (k1 - (- q1 - 2 * c1)) <= B.
Hypothesis H4 : Rabs (c2 - (v + x / 2 * k1)) <= r.
Hypothesis H5 : Rabs (q2 - (q + x / 2 * c1)) <= r.
Hypothesis H6 : Rabs (k2 - (- q2 - 2 * c2)) <= B.
Hypothesis H7 : Rabs (c3 - (v + x * k2)) <= r.
Hypothesis H8 : Rabs (q3 - (q + x * c2)) <= r.
Hypothesis H9 : Rabs (k3 - (- q3 - 2 * c3)) <= B.

Let hk0 := - q - 2 * v.
Let hc1 := v + x / 2 * hk0.
Let hq1 := q + x / 2 * v.
Let hk1 := - hq1 - 2 * hc1.
Let hc2 := v + x / 2 * hk1.
Let hq2 := q + x / 2 * hc1.
Let hk2 := - hq2 - 2 * hc2.
Let hc3 := v + x * hk2.
Let hq3 := q + x * hc2.
Let hk3 := - hq3 - 2 * hc3.

Lemma stage_errors :
  Rabs (k0 - hk0) <= B
  /\ Rabs (c1 - hc1) <= r + B / 12
  /\ Rabs (k1 - hk1) <= 7 / 6 * B + 3 * r
  /\ Rabs (c2 - hc2) <= 5 / 4 * r + 7 / 72 * B
  /\ Rabs (k2 - hk2) <= 5 / 4 * B + 4 * r
  /\ Rabs (c3 - hc3) <= 5 / 3 * r + 5 / 24 * B
  /\ Rabs (k3 - hk3) <= 3 / 2 * B + 6 * r.
Proof.
  assert (E0 : Rabs (k0 - hk0) <= B) by exact H0.
  assert (E0' : Rabs ((k0 - hk0) / 2) <= B / 2) by (clearbody hk0; abs_lra).
  assert (E1 : Rabs (c1 - hc1) <= r + B / 12).
  { replace (B / 12) with (B / 2 / 6) by field. apply (plus_scaled x _ _ _ _ _ Hx H1 E0').
    unfold hc1. field. }
  assert (E2 : Rabs (q1 - hq1) <= r) by exact H2.
  assert (E3 : Rabs (k1 - hk1) <= 7 / 6 * B + 3 * r).
  { unfold hk1. clearbody hq1 hc1. abs_lra. }
  assert (E3' : Rabs ((k1 - hk1) / 2) <= (7 / 6 * B + 3 * r) / 2) by (clearbody hk1; abs_lra).
  assert (E4 : Rabs (c2 - hc2) <= 5 / 4 * r + 7 / 72 * B).
  { replace (5 / 4 * r + 7 / 72 * B) with (r + (7 / 6 * B + 3 * r) / 2 / 6) by field.
    apply (plus_scaled x _ _ _ _ _ Hx H4 E3'). unfold hc2. field. }
  assert (E1' : Rabs ((c1 - hc1) / 2) <= (r + B / 12) / 2) by (clearbody hc1; abs_lra).
  assert (E5 : Rabs (q2 - hq2) <= r + (r + B / 12) / 2 / 6).
  { apply (plus_scaled x _ _ _ _ _ Hx H5 E1'). unfold hq2. field. }
  assert (HB : 0 <= B) by (apply Rle_trans with (2 := E0), Rabs_pos).
  assert (Hr : 0 <= r) by (apply Rle_trans with (2 := E2), Rabs_pos).
  assert (E6 : Rabs (k2 - hk2) <= 5 / 4 * B + 4 * r).
  { unfold hk2. clearbody hq2 hc2. abs_lra. }
  assert (E7 : Rabs (c3 - hc3) <= r + (5 / 4 * B + 4 * r) / 6).
  { apply (plus_scaled x _ _ _ _ _ Hx H7 E6). unfold hc3. field. }
  assert (E8 : Rabs (q3 - hq3) <= r + (5 / 4 * r + 7 / 72 * B) / 6).
  { apply (plus_scaled x _ _ _ _ _ Hx H8 E4). unfold hq3. field. }
  assert (E9 : Rabs (k3 - hk3) <= 3 / 2 * B + 6 * r).
  { unfold hk3. clearbody hq3 hc3. abs_lra. }
  repeat split; auto. clearbody hc3. abs_lra.
Qed.

Lemma velocity_response v' : Rabs (v' - (v + x * (k0 + 2 * k1 + 2 * k2 + k3) / 6)) <= r ->
  Rabs (v' - (growth x * (v + q) - (growth x * q + x * mixing x * (v + q)))) <= 5 * r + 3 / 2 * (x * B).
Proof.
  intros Hv. destruct stage_errors as (E0 & _ & E1 & _ & E2 & _ & E3).
  assert (HB : 0 <= B) by (apply Rle_trans with (2 := E0), Rabs_pos).
  assert (Hr : 0 <= r) by (apply Rle_trans with (2 := H1), Rabs_pos).
  set (e := (k0 - hk0) + 2 * (k1 - hk1) + 2 * (k2 - hk2) + (k3 - hk3)).
  assert (He : Rabs e <= 9 * B + 24 * r).
  { unfold e. clearbody hk0 hk1 hk2 hk3. abs_lra. }
  replace (v' - _) with ((v' - (v + x * (k0 + 2 * k1 + 2 * k2 + k3) / 6)) + x * e / 6).
  - assert (He' : Rabs (x * e / 6) <= 3 / 2 * (x * B) + 4 * r).
    { unfold Rdiv. rewrite 2!Rabs_mult, (Rabs_pos_eq x), (Rabs_pos_eq (/ 6)) by lra.
      assert (x * Rabs e <= x * (9 * B + 24 * r)) by (apply Rmult_le_compat_l; lra).
      assert (x * r <= / 6 * r) by (apply Rmult_le_compat_r; lra). nra. }
    clearbody e. abs_lra.
  - unfold e, growth, mixing, hk3, hc3, hq3, hk2, hc2, hq2, hk1, hc1, hq1, hk0. field.
Qed.

Lemma position_response_c q' : Rabs (q' - (q + x * (v + 2 * c1 + 2 * c2 + c3) / 6)) <= r ->
  Rabs (q' - (growth x * q + x * mixing x * (v + q))) <= 3 * r + / 5 * (x * B).
Proof.
  intros Hq. destruct stage_errors as (E0 & E1 & _ & E2 & _ & E3 & _).
  assert (HB : 0 <= B) by (apply Rle_trans with (2 := E0), Rabs_pos).
  assert (Hr : 0 <= r) by (apply Rle_trans with (2 := H1), Rabs_pos).
  set (e := 2 * (c1 - hc1) + 2 * (c2 - hc2) + (c3 - hc3)).
  assert (He : Rabs e <= B + 7 * r).
  { unfold e. clearbody hc1 hc2 hc3. abs_lra. }
  replace (q' - _) with ((q' - (q + x * (v + 2 * c1 + 2 * c2 + c3) / 6)) + x * e / 6).
  - assert (He' : Rabs (x * e / 6) <= / 5 * (x * B) + 2 * r).
    { unfold Rdiv. rewrite 2!Rabs_mult, (Rabs_pos_eq x), (Rabs_pos_eq (/ 6)) by lra.
      assert (x * Rabs e <= x * (B + 7 * r)) by (apply Rmult_le_compat_l; lra).
      assert (x * r <= / 6 * r) by (apply Rmult_le_compat_r; lra).
      assert (0 <= x * B) by (apply Rmult_le_pos; lra). nra. }
    clearbody e. abs_lra.
  - unfold e, growth, mixing, hk3, hc3, hq3, hk2, hc2, hq2, hk1, hc1, hq1, hk0. field.
Qed.

Lemma position_response q' : Rabs (q' - (q + x * (v + x / 6 * (k0 + k1 + k2)))) <= r ->
  Rabs (q' - (growth x * q + x * mixing x * (v + q))) <= 3 * r + / 5 * (x * B).
Proof.
  intros Hq. destruct stage_errors as (E0 & _ & E1 & _ & E2 & _ & _).
  assert (HB : 0 <= B) by (apply Rle_trans with (2 := E0), Rabs_pos).
  assert (Hr : 0 <= r) by (apply Rle_trans with (2 := H1), Rabs_pos).
  set (e := (k0 - hk0) + (k1 - hk1) + (k2 - hk2)).
  assert (He : Rabs e <= 4 * B + 7 * r).
  { unfold e. clearbody hk0 hk1 hk2. abs_lra. }
  replace (q' - _) with ((q' - (q + x * (v + x / 6 * (k0 + k1 + k2)))) + x * (x * e / 6)).
  - assert (He' : Rabs (x * (x * e / 6)) <= / 5 * (x * B) + 2 * r).
    { unfold Rdiv. rewrite 3!Rabs_mult, (Rabs_pos_eq x), (Rabs_pos_eq (/ 6)) by lra.
      assert (x * Rabs e <= / 6 * (4 * B + 7 * r))
        by (pose proof (Rabs_pos e); apply Rmult_le_compat; lra).
      assert (x * (x * Rabs e * / 6) <= x * (/ 6 * (4 * B + 7 * r) * / 6)) by (apply Rmult_le_compat_l; lra).
      assert (x * r <= / 6 * r) by (apply Rmult_le_compat_r; lra).
      assert (0 <= x * B) by (apply Rmult_le_pos; lra). lra. }
    clearbody e. abs_lra.
  - unfold e, growth, mixing, hk3, hc3, hq3, hk2, hc2, hq2, hk1, hc1, hq1, hk0. field.
Qed.
End Response.

Lemma growth_bounds x : 0 <= x <= / 6 -> 0 <= growth x <= 1 - x / 2 /\ growth x + x * mixing x / 2 <= 1 - x / 3.
Proof.
  intros Hx. unfold growth, mixing.
  assert (A : 0 <= x ^ 2 <= x / 6) by (cbn; nra).
  assert (A3 : 0 <= x ^ 3 <= x / 36) by (cbn; nra).
  assert (A4 : 0 <= x ^ 4 <= x ^ 3 / 6) by (cbn; nra).
  repeat split; try nra.
Qed.

Lemma energy_step x q v q' v' e1 e2 : 0 <= x <= / 6 ->
  Rabs (q' - (growth x * q + x * mixing x * (v + q))) <= e1 ->
  Rabs (v' - (growth x * (v + q) - (growth x * q + x * mixing x * (v + q)))) <= e2 ->
  energy q' v' <= (1 - x / 3) * energy q v + 3 / 2 * e1 + e2.
Proof.
  intros Hx Hq Hv. destruct (growth_bounds x Hx) as [[G0 G1] G2].
  assert (M0 : 0 <= mixing x).
  { unfold mixing. assert (0 <= x ^ 2) by nra. assert (x ^ 3 <= x / 36) by (cbn; nra). nra. }
  assert (M1 : 0 <= x * mixing x) by nra.
  unfold energy. set (m := x * mixing x) in *. set (gr := growth x) in *. set (p := v + q) in *.
  assert (Hp : Rabs (v' + q') <= gr * Rabs p + (e1 + e2)).
  { replace (v' + q') with (gr * p + ((v' - (gr * p - (gr * q + m * p))) + (q' - (gr * q + m * p)))) by ring.
    apply Rle_trans with (1 := Rabs_triang _ _). rewrite Rabs_mult, (Rabs_pos_eq gr) by lra.
    apply Rplus_le_compat_l. apply Rle_trans with (1 := Rabs_triang _ _). lra. }
  assert (Hq' : Rabs q' <= gr * Rabs q + m * Rabs p + e1).
  { replace q' with ((gr * q + m * p) + (q' - (gr * q + m * p))) at 1 by ring.
    apply Rle_trans with (1 := Rabs_triang _ _).
    assert (Rabs (gr * q + m * p) <= gr * Rabs q + m * Rabs p).
    { apply Rle_trans with (1 := Rabs_triang _ _).
      rewrite 2!Rabs_mult, (Rabs_pos_eq gr), (Rabs_pos_eq m) by lra. lra. }
    lra. }
  pose proof (Rabs_pos p). pose proof (Rabs_pos q).
  assert (gr * Rabs q <= (1 - x / 3) * Rabs q) by (apply Rmult_le_compat_r; lra).
  assert ((gr + m / 2) * Rabs p <= (1 - x / 3) * Rabs p) by (apply Rmult_le_compat_r; lra).
  lra.
Qed.

Lemma energy_bounds q v : Rabs q <= 2 * energy q v /\ Rabs v <= 3 * energy q v.
Proof.
  unfold energy. pose proof (Rabs_pos (v + q)). pose proof (Rabs_pos q). split; [lra|].
  replace v with ((v + q) - q) at 1 by ring.
  assert (Rabs ((v + q) - q) <= Rabs (v + q) + Rabs q).
  { unfold Rminus. rewrite <- (Rabs_Ropp q). apply Rabs_triang. }
  lra.
Qed.

Lemma energy_triangle q1 v1 q2 v2 : energy q1 v1 <= energy q2 v2 + energy (q1 - q2) (v1 - v2).
Proof.
  unfold energy.
  assert (Rabs (v1 + q1) <= Rabs (v2 + q2) + Rabs (v1 - v2 + (q1 - q2))).
  { replace (v1 + q1) with ((v2 + q2) + (v1 - v2 + (q1 - q2))) by ring. apply Rabs_triang. }
  assert (Rabs q1 <= Rabs q2 + Rabs (q1 - q2)).
  { replace q1 with (q2 + (q1 - q2)) at 1 by ring. apply Rabs_triang. }
  lra.
Qed.

(** ** Rounding errors of single operations *)
Definition u64 : R := bpow radix2 (-53).

Lemma u64_pos : 0 < u64. Proof. apply bpow_gt_0. Qed.
Lemma u64_small : u64 <= / 1000000.
Proof. unfold u64. apply Rle_trans with (bpow radix2 (-20)); [apply bpow_le; lia|]. cbn. lra. Qed.

(** Magnitudes far from underflow and overflow. *)
Definition within (n : Z) (X : R) : Prop := bpow radix2 (- n) <= X <= bpow radix2 n.

Lemma within_pos n X : within n X -> 0 < X.
Proof. intros [H _]. pose proof (bpow_gt_0 radix2 (- n)). lra. Qed.
Lemma within_weaken n m X : (n <= m)%Z -> within n X -> within m X.
Proof.
  intros H [A B]. split.
  - apply Rle_trans with (2 := A). apply bpow_le. lia.
  - apply Rle_trans with (1 := B). apply bpow_le. lia.
Qed.
Lemma within_mul n m X Y : within n X -> within m Y -> within (n + m) (X * Y).
Proof.
  intros HX HY. pose proof (within_pos _ _ HX). pose proof (within_pos _ _ HY).
  destruct HX, HY. split.
  - replace (- (n + m))%Z with (- n + - m)%Z by lia. rewrite bpow_plus.
    apply Rmult_le_compat; auto; apply bpow_ge_0.
  - rewrite bpow_plus. apply Rmult_le_compat; auto; lra.
Qed.
Lemma within_inv n X : within n X -> within n (/ X).
Proof.
  intros HX. pose proof (within_pos _ _ HX). destruct HX as [A B]. split.
  - rewrite bpow_opp. apply Rinv_le; auto.
  - replace (bpow radix2 n) with (/ bpow radix2 (- n)).
    + apply Rinv_le; [apply bpow_gt_0|auto].
    + rewrite bpow_opp, Rinv_inv. reflexivity.
Qed.
Lemma within_const c : / 64 <= c <= 64 -> within 6 c.
Proof. intros H. split; cbn; lra. Qed.

Lemma round_err z X : within 1000 X -> Rabs z <= X -> Rabs (nearest z - z) <= u64 * X.
Proof.
  intros HX Hz. pose proof (within_pos _ _ HX) as P. apply Rle_trans with (1 := nearest_err z).
  assert (U1 : ulp2 z <= ulp2 X).
  { rewrite <- (ulp_abs radix2 fexp z). apply ulp_mono. split; [apply Rabs_pos|exact Hz]. }
  pose proof (ulp_FLT_le radix2 (-1074) 53 X) as U. rewrite Rabs_pos_eq in U by lra.
  assert (H1022 : bpow radix2 (-1074 + 53 - 1) <= X).
  { destruct HX as [HX _]. apply Rle_trans with (2 := HX). apply bpow_le. lia. }
  specialize (U H1022).
  replace (bpow radix2 (1 - 53)) with (2 * u64) in U; [lra|].
  unfold u64. change (1 - 53)%Z with (-53 + 1)%Z. rewrite bpow_plus. change (bpow radix2 1) with 2. ring.
Qed.

Lemma within_1000_big X : within 1000 X -> X <= bpow radix2 1023.
Proof. intros [_ H]. apply Rle_trans with (1 := H). apply bpow_le. lia. Qed.

Ltac op_err L c X := intros; match goal with
  | W : within 1000 (c * X), H : Rabs ?z <= c * X |- _ =>
    let A := fresh "A" in let B := fresh "B" in let E := fresh "E" in
    destruct L as [A B]; auto;
    [apply Rle_trans with (1 := H); apply within_1000_big; auto|];
    split; [exact B|]; exists ((nearest z - z) / c);
    pose proof (round_err _ _ W H) as E;
    split; [rewrite A; field; lra|
      unfold Rdiv; rewrite Rabs_mult, (Rabs_pos_eq (/ c)) by (left; apply Rinv_0_lt_compat; lra);
      apply Rmult_le_reg_r with c; [lra|];
      rewrite Rmult_assoc, Rinv_l, Rmult_1_r by lra; lra]
  end.

Lemma add_s c X (y z : f64) : is_finite y = true -> is_finite z = true -> 0 < c ->
  within 1000 (c * X) -> Rabs (B2R y + B2R z) <= c * X ->
  is_finite (fadd y z) = true
  /\ exists e, B2R (fadd y z) = B2R y + B2R z + c * e /\ Rabs e <= u64 * X.
Proof. op_err (fadd_ok y z) c X. Qed.
Lemma sub_s c X (y z : f64) : is_finite y = true -> is_finite z = true -> 0 < c ->
  within 1000 (c * X) -> Rabs (B2R y - B2R z) <= c * X ->
  is_finite (fsub y z) = true
  /\ exists e, B2R (fsub y z) = B2R y - B2R z + c * e /\ Rabs e <= u64 * X.
Proof. op_err (fsub_ok y z) c X. Qed.
Lemma mul_s c X (y z : f64) : is_finite y = true -> is_finite z = true -> 0 < c ->
  within 1000 (c * X) -> Rabs (B2R y * B2R z) <= c * X ->
  is_finite (fmul y z) = true
  /\ exists e, B2R (fmul y z) = B2R y * B2R z + c * e /\ Rabs e <= u64 * X.
Proof. op_err (fmul_ok y z) c X. Qed.
Lemma div_s c X (y z : f64) : is_finite y = true -> B2R z <> 0 -> 0 < c ->
  within 1000 (c * X) -> Rabs (B2R y / B2R z) <= c * X ->
  is_finite (fdiv y z) = true
  /\ exists e, B2R (fdiv y z) = B2R y / B2R z + c * e /\ Rabs e <= u64 * X.
Proof. op_err (fdiv_ok y z) c X. Qed.

Lemma fzero_ok : B2R fzero = 0 /\ is_finite fzero = true.
Proof. apply fZ_ok. cbn. lia. Qed.

Lemma add_zero (y : f64) : is_finite y = true -> Rabs (B2R y) <= bpow radix2 1023 ->
  is_finite (fadd y fzero) = true /\ B2R (fadd y fzero) = B2R y.
Proof.
  intros Hy Hb. destruct fzero_ok as [Z1 Z2].
  destruct (fadd_ok y fzero) as [A B]; auto; [rewrite Z1, Rplus_0_r; auto|].
  split; auto. rewrite A, Z1, Rplus_0_r. apply nearest_fmt, fmt_B2R.
Qed.
Lemma sub_zero (y : f64) : is_finite y = true -> Rabs (B2R y) <= bpow radix2 1023 ->
  is_finite (fsub y fzero) = true /\ B2R (fsub y fzero) = B2R y.
Proof.
  intros Hy Hb. destruct fzero_ok as [Z1 Z2].
  destruct (fsub_ok y fzero) as [A B]; auto; [rewrite Z1, Rminus_0_r; auto|].
  split; auto. rewrite A, Z1, Rminus_0_r. apply nearest_fmt, fmt_B2R.
Qed.

Lemma fhalf_ok : B2R fhalf = / 2 /\ is_finite fhalf = true.
Proof.
  destruct (fZ_ok 1) as [A1 B1]; [cbn; lia|]. destruct (fZ_ok 2) as [A2 B2]; [cbn; lia|].
  destruct (fdiv_ok (fZ 1) (fZ 2)) as [A B]; auto.
  - rewrite A2. lra.
  - rewrite A1, A2. apply Rle_trans with (bpow radix2 0); [|apply bpow_le; lia].
    cbn. rewrite Rabs_pos_eq; lra.
  - split; auto. unfold fhalf. rewrite A, A1, A2. replace (1 / 2) with (bpow radix2 (-1)) by (cbn; lra).
    rewrite nearest_fmt; [cbn; lra|]. apply fmt_bpow. lia.
Qed.

Lemma Rabs_scale c X z : 0 < c -> Rabs z <= X -> Rabs (c * z) <= c * X.
Proof. intros Hc H. rewrite Rabs_mult, (Rabs_pos_eq c) by lra. apply Rmult_le_compat_l; lra. Qed.

Lemma scale_below c X z w : 0 < c -> z = c * w -> Rabs w <= X -> Rabs z <= c * X.
Proof. intros Hc -> H. now apply Rabs_scale. Qed.

Section Acc.
Variables (A : dmp_args_f) (d : nat) (tf : f64) (al tau S : R).
Hypothesis Fg : is_finite (fa_goal_y A d) = true.
Hypothesis Fal : is_finite (fa_alpha_y A d) = true.
Hypothesis Fbe : is_finite (fa_beta_y A d) = true.
Hypothesis Ftf : is_finite tf = true.
Hypothesis Eal : B2R (fa_alpha_y A d) = al.
Hypothesis Ebe : B2R (fa_beta_y A d) = al / 4.
Hypothesis Etf : B2R tf = tau.
Hypothesis Wal : within 100 al.
Hypothesis Wtau : within 100 tau.
Hypothesis WS : within 110 S.
Hypothesis Hsq : Rabs (B2R (fa_pow2 A tf) - tau ^ 2) <= 2 * u64 * tau ^ 2.

Let a := al / (2 * tau).
Let g := B2R (fa_goal_y A d).

Lemma tau_pos : 0 < tau. Proof. exact (within_pos _ _ Wtau). Qed.
Lemma al_pos : 0 < al. Proof. exact (within_pos _ _ Wal). Qed.
Lemma S_pos : 0 < S. Proof. exact (within_pos _ _ WS). Qed.
Lemma Wa : within 206 a.
Proof.
  unfold a, Rdiv. apply (within_mul 100 106); auto. apply within_inv. apply (within_mul 6 100); auto.
  apply within_const. lra.
Qed.
Lemma a_pos : 0 < a. Proof. exact (within_pos _ _ Wa). Qed.
Lemma al_a : al = 2 * a * tau.
Proof. unfold a. pose proof tau_pos. field. lra. Qed.

Lemma acc_close (Y V f : f64) : is_finite Y = true -> is_finite V = true -> is_finite f = true ->
  Rabs (B2R V) <= S -> Rabs (a * (B2R Y - g)) <= S -> Rabs (B2R f / (a * tau ^ 2)) <= S / 2 ->
  let K := acc_f A tf d Y V f in
  is_finite K = true
  /\ Rabs (B2R K / a - (- (a * (B2R Y - g)) - 2 * B2R V + B2R f / (a * tau ^ 2))) <= 40 * (u64 * S).
Proof.
  intros FY FV Ff HV HY Hf. cbv zeta. unfold acc_f.
  pose proof tau_pos as Pt. pose proof a_pos as Pa. pose proof S_pos as PS.
  pose proof u64_pos as Pu. pose proof u64_small as Su.
  assert (PU : 0 < u64 * S <= S / 1000000).
  { split; [nra|]. unfold Rdiv. rewrite (Rmult_comm S). apply Rmult_le_compat_r; lra. }
  assert (Pt2 : 0 < tau ^ 2) by (cbn; nra).
  assert (Pat2 : 0 < a * tau ^ 2) by nra.
  assert (Wat2 : within 406 (a * tau ^ 2)).
  { apply (within_mul 206 200); [apply Wa|]. cbn [pow]. rewrite Rmult_1_r. now apply (within_mul 100 100). }
  assert (Wc : forall k, 1 <= k <= 64 -> within 120 (k * S)).
  { intros k Hk. apply (within_weaken 116); [lia|]. apply (within_mul 6 110); auto. apply within_const. lra. }
  set (U := u64 * S) in *.
  set (q := a * (B2R Y - g)) in *. set (F := B2R f / (a * tau ^ 2)) in *. set (v := B2R V) in *.
  (* goal - Y *)
  destruct (sub_s (/ a) S (fa_goal_y A d) Y) as (F1 & e1 & E1 & H1); auto.
  { apply Rinv_0_lt_compat; lra. }
  { apply (within_weaken (206 + 110)); [lia|]. apply within_mul; auto. apply within_inv, Wa. }
  { apply (scale_below _ _ _ (- q)); [apply Rinv_0_lt_compat; lra| |rewrite Rabs_Ropp; auto].
    unfold q, g. field. lra. }
  fold U in H1. fold g in E1. assert (E1' : B2R (fsub (fa_goal_y A d) Y) = / a * (- q + e1)).
  { rewrite E1. unfold q. field. lra. }
  (* beta * ... *)
  set (n1 := fsub (fa_goal_y A d) Y) in *. set (w1 := - q + e1) in *.
  assert (Hw1 : Rabs w1 <= S + U) by (unfold w1; clearbody q; abs_lra).
  destruct (mul_s tau S (fa_beta_y A d) n1) as (F2 & e2 & E2 & H2); auto.
  { apply (within_weaken (100 + 110)); [lia|]. now apply within_mul. }
  { apply (scale_below _ _ _ (w1 / 2)); auto; [rewrite Ebe, E1', al_a; field; lra|].
    clearbody w1. abs_lra. }
  fold U in H2. assert (E2' : B2R (fmul (fa_beta_y A d) n1) = tau * (w1 / 2 + e2)).
  { rewrite E2, Ebe, E1', al_a. field. lra. }
  set (n2 := fmul (fa_beta_y A d) n1) in *. set (w2 := w1 / 2 + e2) in *.
  assert (Hw2 : Rabs w2 <= S / 2 + 2 * U) by (unfold w2; clearbody w1; abs_lra).
  (* execution_time * V *)
  destruct (mul_s tau S tf V) as (F3 & e3 & E3 & H3); auto.
  { apply (within_weaken (100 + 110)); [lia|]. now apply within_mul. }
  { rewrite Etf. now apply Rabs_scale. }
  fold U in H3. assert (E3' : B2R (fmul tf V) = tau * (v + e3)).
  { rewrite E3, Etf. unfold v. ring. }
  set (n3 := fmul tf V) in *. set (w3 := v + e3) in *.
  assert (Hw3 : Rabs w3 <= S + U) by (unfold w3; clearbody v; abs_lra).
  (* difference *)
  destruct (sub_s tau (2 * S) n2 n3) as (F4 & e4 & E4 & H4); auto.
  { apply (within_weaken (100 + 120)); [lia|]. apply within_mul; auto. apply Wc. lra. }
  { apply (scale_below _ _ _ (w2 - w3)); auto; [rewrite E2', E3'; ring|].
    clearbody w2 w3. abs_lra. }
  replace (u64 * (2 * S)) with (2 * U) in H4 by (unfold U; ring).
  assert (E4' : B2R (fsub n2 n3) = tau * (w2 - w3 + e4)).
  { rewrite E4, E2', E3'. ring. }
  set (n4 := fsub n2 n3) in *. set (w4 := w2 - w3 + e4) in *.
  assert (Hw4 : Rabs w4 <= 3 / 2 * S + 5 * U) by (unfold w4; clearbody w2 w3; abs_lra).
  (* smoothing *)
  destruct (sub_zero n4) as [F5 E5]; auto.
  { rewrite E4'. apply Rle_trans with (tau * (2 * S)).
    - apply Rabs_scale; auto. clearbody w4. abs_lra.
    - apply within_1000_big, (within_weaken (100 + 120)); [lia|]. apply within_mul; auto. apply Wc. lra. }
  rewrite E4' in E5. set (n5 := fsub n4 fzero) in *.
  (* alpha * ... *)
  destruct (mul_s (a * tau ^ 2) (4 * S) (fa_alpha_y A d) n5) as (F6 & e6 & E6 & H6); auto.
  { apply (within_weaken (406 + 120)); [lia|]. apply within_mul; auto. apply Wc. lra. }
  { apply (scale_below _ _ _ (2 * w4)); auto; [rewrite Eal, E5, al_a; ring|].
    clearbody w4. abs_lra. }
  replace (u64 * (4 * S)) with (4 * U) in H6 by (unfold U; ring).
  assert (E6' : B2R (fmul (fa_alpha_y A d) n5) = a * tau ^ 2 * (2 * w4 + e6)).
  { rewrite E6, Eal, E5, al_a. ring. }
  set (n6 := fmul (fa_alpha_y A d) n5) in *. set (w6 := 2 * w4 + e6) in *.
  assert (Hw6 : Rabs w6 <= 3 * S + 14 * U) by (unfold w6; clearbody w4; abs_lra).
  (* + f *)
  assert (Ef : B2R f = a * tau ^ 2 * F) by (unfold F; field; lra).
  destruct (add_s (a * tau ^ 2) (4 * S) n6 f) as (F7 & e7 & E7 & H7); auto.
  { apply (within_weaken (406 + 120)); [lia|]. apply within_mul; auto. apply Wc. lra. }
  { apply (scale_below _ _ _ (w6 + F)); auto; [rewrite E6', Ef; ring|].
    clearbody w6 F. abs_lra. }
  replace (u64 * (4 * S)) with (4 * U) in H7 by (unfold U; ring).
  assert (E7' : B2R (fadd n6 f) = a * tau ^ 2 * (w6 + F + e7)).
  { rewrite E7, E6', Ef. ring. }
  set (n7 := fadd n6 f) in *. set (w7 := w6 + F + e7) in *.
  assert (Hw7 : Rabs w7 <= 7 / 2 * S + 18 * U) by (unfold w7; clearbody w6 F; abs_lra).
  (* + 0 + 0 *)
  assert (B7 : Rabs (a * tau ^ 2 * w7) <= bpow radix2 1023).
  { apply Rle_trans with (a * tau ^ 2 * (4 * S)).
    - apply Rabs_scale; auto. clearbody w7. abs_lra.
    - apply within_1000_big, (within_weaken (406 + 120)); [lia|]. apply within_mul; auto. apply Wc. lra. }
  destruct (add_zero n7) as [F8 E8]; auto; [rewrite E7'; auto|]. rewrite E7' in E8.
  set (n8 := fadd n7 fzero) in *.
  destruct (add_zero n8) as [F9 E9]; auto; [rewrite E8; auto|]. rewrite E8 in E9.
  set (n9 := fadd n8 fzero) in *.
  (* / execution_time ** 2 *)
  set (sq := fa_pow2 A tf) in *.
  assert (Hsq' : Rabs (B2R sq - tau ^ 2) <= / 500000 * tau ^ 2).
  { apply Rle_trans with (1 := Hsq). apply Rmult_le_compat_r; lra. }
  assert (Psq : 0 < B2R sq).
  { clearbody sq. apply Rabs_le_inv in Hsq'. lra. }
  set (ka := tau ^ 2 / B2R sq).
  assert (Hka : Rabs (ka - 1) <= 3 * u64).
  { unfold ka. replace (tau ^ 2 / B2R sq - 1) with (- (B2R sq - tau ^ 2) * / B2R sq) by (field; lra).
    rewrite Rabs_mult, Rabs_Ropp, (Rabs_pos_eq (/ B2R sq)) by (left; now apply Rinv_0_lt_compat).
    apply Rmult_le_reg_r with (B2R sq); auto. rewrite Rmult_assoc, Rinv_l, Rmult_1_r by lra.
    apply Rle_trans with (1 := Hsq). clearbody sq. apply Rabs_le_inv in Hsq'. nra. }
  assert (Hka' : Rabs (w7 * ka - w7) <= 12 * U).
  { replace (w7 * ka - w7) with (w7 * (ka - 1)) by ring. rewrite Rabs_mult.
    apply Rle_trans with (4 * S * (3 * u64)); [|unfold U; lra].
    assert (Rabs w7 <= 4 * S) by lra.
    apply Rmult_le_compat; auto using Rabs_pos. }
  destruct (div_s a (4 * S) n9 sq) as (F10 & e10 & E10 & H10); auto; [lra| | |].
  { apply (within_weaken (206 + 120)); [lia|]. apply within_mul; [apply Wa|]. apply Wc. lra. }
  { apply (scale_below _ _ _ (w7 * ka)); auto; [rewrite E9; unfold ka; field; lra|].
    clearbody w7 ka. abs_lra. }
  replace (u64 * (4 * S)) with (4 * U) in H10 by (unfold U; ring).
  split; [exact F10|].
  replace (B2R (fdiv n9 sq) / a) with (w7 * ka + e10)
    by (rewrite E10, E9; unfold ka; field; lra).
  assert (EK : w7 * ka + e10 - (- q - 2 * v + F)
    = (w7 * ka - w7) + e10 + e7 + e6 + 2 * e4 + 2 * e2 - 2 * e3 + e1).
  { unfold w7, w6, w4, w3, w2, w1. field. }
  rewrite EK. set (m := w7 * ka - w7) in *. clearbody m U. abs_lra.
Qed.
End Acc.

(** ** Rounding errors of one step *)
Section Sums.
Variables (S x : R).
Hypothesis WS : within 110 S.
Hypothesis Hx : 0 < x <= / 6.
Let U := u64 * S.

Lemma PU : 0 < U <= S / 1000000.
Proof.
  pose proof (within_pos _ _ WS). pose proof u64_pos. pose proof u64_small. unfold U. split; [nra|].
  unfold Rdiv. rewrite (Rmult_comm S). apply Rmult_le_compat_r; lra.
Qed.

Lemma within_cS n c k : (n + 116 <= 1000)%Z -> within n c -> / 64 <= k <= 64 -> within 1000 (c * (k * S)).
Proof.
  intros Hn Hc Hk. apply (within_weaken (n + (6 + 110))); [lia|]. apply within_mul; auto.
  apply within_mul; [now apply within_const|exact WS].
Qed.
Lemma within_cS1 n c : (n + 116 <= 1000)%Z -> within n c -> within 1000 (c * S).
Proof. intros Hn Hc. rewrite <- (Rmult_1_l S). apply within_cS with n; auto. lra. Qed.

Lemma stage_sum n c (y0 hh k : f64) th e kk M w0 : (n + 116 <= 1000)%Z -> within n c ->
  is_finite y0 = true -> is_finite hh = true -> is_finite k = true ->
  B2R hh * B2R k = c * (x * (th + e) * kk) -> 0 <= th <= 1 -> Rabs e <= 2 * u64 ->
  Rabs kk <= M * S -> 1 <= M -> (th + / 500000) * M <= 6 ->
  B2R y0 = c * w0 -> Rabs w0 <= S ->
  is_finite (fadd y0 (fmul hh k)) = true
  /\ exists w, B2R (fadd y0 (fmul hh k)) = c * w /\ Rabs (w - (w0 + x * th * kk)) <= (4 + M / 3) * U.
Proof.
  intros Hn Wc F0 Fh Fk E Hth He Hkk HM HthM E0 H0.
  pose proof (within_pos _ _ Wc) as Pc. pose proof (within_pos _ _ WS) as PS.
  pose proof PU as HU. pose proof u64_pos as Pu. pose proof u64_small as Su.
  assert (Hk0 := Rabs_pos kk). assert (He0 := Rabs_pos e).
  assert (P1 : Rabs (x * (th + e) * kk) <= S).
  { rewrite 2!Rabs_mult, (Rabs_pos_eq x) by lra.
    assert (T : Rabs (th + e) <= th + / 500000).
    { apply Rle_trans with (1 := Rabs_triang _ _). rewrite (Rabs_pos_eq th) by lra. lra. }
    assert (T0 := Rabs_pos (th + e)).
    assert (Rabs (th + e) * Rabs kk <= (th + / 500000) * (M * S)) by (apply Rmult_le_compat; lra).
    assert ((th + / 500000) * (M * S) <= 6 * S) by (rewrite <- Rmult_assoc; apply Rmult_le_compat_r; lra).
    assert (x * (Rabs (th + e) * Rabs kk) <= / 6 * (6 * S)) by (apply Rmult_le_compat; try lra; nra).
    lra. }
  assert (P2 : Rabs (x * e * kk) <= M / 3 * U).
  { rewrite 2!Rabs_mult, (Rabs_pos_eq x) by lra. rewrite Rmult_assoc.
    assert (Rabs e * Rabs kk <= 2 * u64 * (M * S)) by (apply Rmult_le_compat; lra).
    assert (x * (Rabs e * Rabs kk) <= / 6 * (2 * u64 * (M * S))) by (apply Rmult_le_compat; try lra; nra).
    unfold U. lra. }
  destruct (mul_s c S hh k) as (F1 & e1 & E1 & H1); auto.
  { now apply within_cS1 with n. }
  { rewrite E. now apply Rabs_scale. }
  fold U in H1. rewrite E in E1.
  destruct (add_s c (3 * S) y0 (fmul hh k)) as (F2 & e2 & E2 & H2); auto.
  { apply within_cS with n; auto. lra. }
  { apply (scale_below _ _ _ (w0 + x * (th + e) * kk + e1)); auto; [rewrite E0, E1; ring|].
    set (m := x * (th + e) * kk) in *. clearbody m U. abs_lra. }
  split; auto. exists (w0 + x * (th + e) * kk + e1 + e2). split; [rewrite E2, E0, E1; ring|].
  replace (_ - _) with (x * e * kk + e1 + e2) by ring.
  replace (u64 * (3 * S)) with (3 * U) in H2 by (unfold U; ring).
  replace ((4 + M / 3) * U) with (M / 3 * U + U + 3 * U) by ring.
  set (m := x * e * kk) in *. set (mu := M / 3 * U) in *. clearbody m mu U. abs_lra.
Qed.

(** [z0 + 2 * z1 + 2 * z2 + z3] *)
Lemma sum4 n c (z0 z1 z2 z3 : f64) w0 w1 w2 w3 : (n + 116 <= 1000)%Z -> within n c ->
  is_finite z0 = true -> is_finite z1 = true -> is_finite z2 = true -> is_finite z3 = true ->
  B2R z0 = c * w0 -> B2R z1 = c * w1 -> B2R z2 = c * w2 -> B2R z3 = c * w3 ->
  Rabs w0 <= 4 * S -> Rabs w1 <= 4 * S -> Rabs w2 <= 4 * S -> Rabs w3 <= 4 * S ->
  let sum := fadd (fadd (fadd z0 (fmul (fZ 2) z1)) (fmul (fZ 2) z2)) z3 in
  is_finite sum = true
  /\ exists w, B2R sum = c * w /\ Rabs (w - (w0 + 2 * w1 + 2 * w2 + w3)) <= 75 * U.
Proof.
  intros Hn Wc F0 F1 F2 F3 E0 E1 E2 E3 H0 H1 H2 H3. cbv zeta.
  pose proof (within_pos _ _ Wc) as Pc. pose proof (within_pos _ _ WS) as PS. pose proof PU as HU.
  destruct (fZ_ok 2) as [Et Ft]; [cbn; lia|].
  destruct (mul_s c (8 * S) (fZ 2) z1) as (G1 & e1 & I1 & J1); auto.
  { apply within_cS with n; auto. lra. }
  { apply (scale_below _ _ _ (2 * w1)); auto; [rewrite Et, E1; ring|]. abs_lra. }
  replace (u64 * (8 * S)) with (8 * U) in J1 by (unfold U; ring).
  rewrite Et, E1 in I1. set (m1 := fmul (fZ 2) z1) in *.
  destruct (add_s c (13 * S) z0 m1) as (G2 & e2 & I2 & J2); auto.
  { apply within_cS with n; auto. lra. }
  { apply (scale_below _ _ _ (w0 + 2 * w1 + e1)); auto; [rewrite I1, E0; ring|].
    clearbody U. abs_lra. }
  replace (u64 * (13 * S)) with (13 * U) in J2 by (unfold U; ring).
  rewrite I1, E0 in I2. set (m2 := fadd z0 m1) in *.
  destruct (mul_s c (8 * S) (fZ 2) z2) as (G3 & e3 & I3 & J3); auto.
  { apply within_cS with n; auto. lra. }
  { apply (scale_below _ _ _ (2 * w2)); auto; [rewrite Et, E2; ring|]. abs_lra. }
  replace (u64 * (8 * S)) with (8 * U) in J3 by (unfold U; ring).
  rewrite Et, E2 in I3. set (m3 := fmul (fZ 2) z2) in *.
  destruct (add_s c (21 * S) m2 m3) as (G4 & e4 & I4 & J4); auto.
  { apply within_cS with n; auto. lra. }
  { apply (scale_below _ _ _ (w0 + 2 * w1 + e1 + e2 + 2 * w2 + e3)); auto; [rewrite I2, I3; ring|].
    clearbody U. abs_lra. }
  replace (u64 * (21 * S)) with (21 * U) in J4 by (unfold U; ring).
  rewrite I2, I3 in I4. set (m4 := fadd m2 m3) in *.
  destruct (add_s c (25 * S) m4 z3) as (G5 & e5 & I5 & J5); auto.
  { apply within_cS with n; auto. lra. }
  { apply (scale_below _ _ _ (w0 + 2 * w1 + e1 + e2 + 2 * w2 + e3 + e4 + w3)); auto; [rewrite I4, E3; ring|].
    clearbody U. abs_lra. }
  replace (u64 * (25 * S)) with (25 * U) in J5 by (unfold U; ring).
  split; auto. exists (w0 + 2 * w1 + e1 + e2 + 2 * w2 + e3 + e4 + w3 + e5).
  split; [rewrite I5, I4, E3; ring|]. clearbody U. abs_lra.
Qed.

(** [z0 + z1 + z2] *)
Lemma sum3 n c (z0 z1 z2 : f64) w0 w1 w2 : (n + 116 <= 1000)%Z -> within n c ->
  is_finite z0 = true -> is_finite z1 = true -> is_finite z2 = true ->
  B2R z0 = c * w0 -> B2R z1 = c * w1 -> B2R z2 = c * w2 ->
  Rabs w0 <= 4 * S -> Rabs w1 <= 4 * S -> Rabs w2 <= 4 * S ->
  let sum := fadd (fadd z0 z1) z2 in
  is_finite sum = true
  /\ exists w, B2R sum = c * w /\ Rabs (w - (w0 + w1 + w2)) <= 21 * U.
Proof.
  intros Hn Wc F0 F1 F2 E0 E1 E2 H0 H1 H2. cbv zeta.
  pose proof (within_pos _ _ Wc) as Pc. pose proof (within_pos _ _ WS) as PS. pose proof PU as HU.
  destruct (add_s c (8 * S) z0 z1) as (G2 & e2 & I2 & J2); auto.
  { apply within_cS with n; auto. lra. }
  { apply (scale_below _ _ _ (w0 + w1)); auto; [rewrite E1, E0; ring|]. abs_lra. }
  replace (u64 * (8 * S)) with (8 * U) in J2 by (unfold U; ring).
  rewrite E1, E0 in I2. set (m2 := fadd z0 z1) in *.
  destruct (add_s c (13 * S) m2 z2) as (G5 & e5 & I5 & J5); auto.
  { apply within_cS with n; auto. lra. }
  { apply (scale_below _ _ _ (w0 + w1 + e2 + w2)); auto; [rewrite I2, E2; ring|].
    clearbody U. abs_lra. }
  replace (u64 * (13 * S)) with (13 * U) in J5 by (unfold U; ring).
  split; auto. exists (w0 + w1 + e2 + w2 + e5).
  split; [rewrite I5, I2, E2; ring|]. clearbody U. abs_lra.
Qed.

(** [y0 + dt * sum / 6.0] *)
Lemma final_sum n c (y0 dt sum : f64) e kk w0 : (n + 116 <= 1000)%Z -> within n c ->
  is_finite y0 = true -> is_finite dt = true -> is_finite sum = true ->
  B2R dt * B2R sum = c * (x * (1 + e) * kk) -> Rabs e <= u64 -> Rabs kk <= 25 * S ->
  B2R y0 = c * w0 -> Rabs w0 <= S ->
  let y1 := fadd y0 (fdiv (fmul dt sum) (fZ 6)) in
  is_finite y1 = true
  /\ exists w, B2R y1 = c * w /\ Rabs (w - (w0 + x * kk / 6)) <= 7 * U.
Proof.
  intros Hn Wc F0 Fd Fs E He Hkk E0 H0. cbv zeta.
  pose proof (within_pos _ _ Wc) as Pc. pose proof (within_pos _ _ WS) as PS.
  pose proof PU as HU. pose proof u64_pos as Pu. pose proof u64_small as Su.
  assert (Hk0 := Rabs_pos kk). assert (He0 := Rabs_pos e).
  destruct (fZ_ok 6) as [Et Ft]; [cbn; lia|].
  assert (P0 : Rabs (x * kk) <= 25 / 6 * S).
  { rewrite Rabs_mult, (Rabs_pos_eq x) by lra.
    assert (x * Rabs kk <= / 6 * (25 * S)) by (apply Rmult_le_compat; lra). lra. }
  assert (P2 : Rabs (x * e * kk) <= 25 / 6 * U).
  { rewrite 2!Rabs_mult, (Rabs_pos_eq x) by lra. rewrite Rmult_assoc.
    assert (Rabs e * Rabs kk <= u64 * (25 * S)) by (apply Rmult_le_compat; lra).
    assert (x * (Rabs e * Rabs kk) <= / 6 * (u64 * (25 * S))) by (apply Rmult_le_compat; try lra; nra).
    unfold U. lra. }
  set (m := x * kk) in *. set (m' := x * e * kk) in *.
  assert (E' : B2R dt * B2R sum = c * (m + m')) by (rewrite E; unfold m, m'; ring).
  clearbody m m'.
  destruct (mul_s c (5 * S) dt sum) as (F1 & e1 & E1 & H1); auto.
  { apply within_cS with n; auto. lra. }
  { rewrite E'. apply Rabs_scale; auto. clearbody U. abs_lra. }
  replace (u64 * (5 * S)) with (5 * U) in H1 by (unfold U; ring).
  rewrite E' in E1. set (n1 := fmul dt sum) in *.
  destruct (div_s c S n1 (fZ 6)) as (F2 & e2 & E2 & H2); auto.
  { rewrite Et. lra. }
  { apply within_cS1 with n; auto. }
  { apply (scale_below _ _ _ ((m + m' + e1) / 6)); auto; [rewrite Et, E1; field|].
    clearbody U. abs_lra. }
  fold U in H2. rewrite Et, E1 in E2. set (n2 := fdiv n1 (fZ 6)) in *.
  destruct (add_s c (2 * S) y0 n2) as (F3 & e3 & E3 & H3); auto.
  { apply within_cS with n; auto. lra. }
  { apply (scale_below _ _ _ (w0 + ((m + m' + e1) / 6 + e2))); auto; [rewrite E0, E2; field|].
    clearbody U. abs_lra. }
  replace (u64 * (2 * S)) with (2 * U) in H3 by (unfold U; ring).
  split; auto. exists (w0 + ((m + m' + e1) / 6 + e2) + e3).
  split; [rewrite E3, E0, E2; field|]. clearbody U. abs_lra.
Qed.
End Sums.

(** The stages of one step up to errors of size [r]. *)
Definition rk4_stages (x q v f0 f1 f2 r k0 c1 q1 k1 c2 q2 k2 c3 q3 k3 : R) : Prop :=
  Rabs (k0 - (- q - 2 * v + f0)) <= r
  /\ Rabs (c1 - (v + x / 2 * k0)) <= r
  /\ Rabs (q1 - (q + x / 2 * v)) <= r
  /\ Rabs (k1 - (- q1 - 2 * c1 + f1)) <= r
  /\ Rabs (c2 - (v + x / 2 * k1)) <= r
  /\ Rabs (q2 - (q + x / 2 * c1)) <= r
  /\ Rabs (k2 - (- q2 - 2 * c2 + f1)) <= r
  /\ Rabs (c3 - (v + x * k2)) <= r
  /\ Rabs (q3 - (q + x * c2)) <= r
  /\ Rabs (k3 - (- q3 - 2 * c3 + f2)) <= r.

Section Step.
Variables (A : dmp_args_f) (d : nat) (last_t t y v : f64) (al tau S : R).
Let tf := fsub (fa_goal_t A) (fa_start_t A).
Let a := al / (2 * tau).
Let g := B2R (fa_goal_y A d).
Let h := B2R t - B2R last_t.
Let x := a * h.
Let U := u64 * S.
Let dt := fsub t last_t.
Let dt_2 := fmul fhalf dt.
Let F0 := fa_forces A t d.
Let F1 := fa_forces A (fadd t dt_2) d.
Let F2 := fa_forces A (fadd t dt) d.
Hypothesis Fg : is_finite (fa_goal_y A d) = true.
Hypothesis Fal : is_finite (fa_alpha_y A d) = true.
Hypothesis Fbe : is_finite (fa_beta_y A d) = true.
Hypothesis Ftf : is_finite tf = true.
Hypothesis Eal : B2R (fa_alpha_y A d) = al.
Hypothesis Ebe : B2R (fa_beta_y A d) = al / 4.
Hypothesis Etf : B2R tf = tau.
Hypothesis Wal : within 100 al.
Hypothesis Wtau : within 100 tau.
Hypothesis WS : within 110 S.
Hypothesis Hsq : Rabs (B2R (fa_pow2 A tf) - tau ^ 2) <= 2 * u64 * tau ^ 2.
Hypothesis Ft : is_finite t = true.
Hypothesis Flt : is_finite last_t = true.
Hypothesis Fy : is_finite y = true.
Hypothesis Fv : is_finite v = true.
Hypothesis Wh : within 300 h.
Hypothesis Hx : x <= / 6.
Hypothesis Hy : Rabs (a * (B2R y - g)) <= S / 4.
Hypothesis Hv : Rabs (B2R v) <= S / 4.
Hypothesis Hg : Rabs (a * g) <= S / 4.
Hypothesis FF0 : is_finite F0 = true.
Hypothesis FF1 : is_finite F1 = true.
Hypothesis FF2 : is_finite F2 = true.
Hypothesis HF0 : Rabs (B2R F0 / (a * tau ^ 2)) <= S / 2.
Hypothesis HF1 : Rabs (B2R F1 / (a * tau ^ 2)) <= S / 2.
Hypothesis HF2 : Rabs (B2R F2 / (a * tau ^ 2)) <= S / 2.

Lemma step_close : exists k0 c1 q1 k1 c2 q2 k2 c3 q3 k3,
  rk4_stages x (a * (B2R y - g)) (B2R v) (B2R F0 / (a * tau ^ 2)) (B2R F1 / (a * tau ^ 2))
    (B2R F2 / (a * tau ^ 2)) (50 * U) k0 c1 q1 k1 c2 q2 k2 c3 q3 k3
  /\ (forall sy sv : fvec, sy d = y -> sv d = v ->
      let s' := rk4_cython_f A last_t t (sy, sv) in
      is_finite (fst s' d) = true /\ is_finite (snd s' d) = true
      /\ Rabs (a * (B2R (fst s' d) - g)
               - (a * (B2R y - g) + x * (B2R v + 2 * c1 + 2 * c2 + c3) / 6)) <= 50 * U
      /\ Rabs (B2R (snd s' d) - (B2R v + x * (k0 + 2 * k1 + 2 * k2 + k3) / 6)) <= 50 * U)
  /\ (forall sy sv : fvec, sy d = y -> sv d = v ->
      let s' := rk4_f A last_t t (sy, sv) in
      is_finite (fst s' d) = true /\ is_finite (snd s' d) = true
      /\ Rabs (a * (B2R (fst s' d) - g)
               - (a * (B2R y - g) + x * (B2R v + x / 6 * (k0 + k1 + k2)))) <= 50 * U
      /\ Rabs (B2R (snd s' d) - (B2R v + x * (k0 + 2 * k1 + 2 * k2 + k3) / 6)) <= 50 * U).
Proof.
  assert (Pt : 0 < tau) by exact (within_pos _ _ Wtau).
  assert (Wa' : within 206 a) by exact (Wa al tau Wal Wtau).
  assert (Pa : 0 < a) by exact (within_pos _ _ Wa').
  assert (PS : 0 < S) by exact (within_pos _ _ WS).
  assert (Ph : 0 < h) by exact (within_pos _ _ Wh).
  pose proof u64_pos as Pu. pose proof u64_small as Su.
  assert (HU : 0 < U <= S / 1000000) by exact (PU S WS).
  assert (Px : 0 < x) by (unfold x; nra).
  assert (Hx' : 0 < x <= / 6) by lra.
  assert (W1 : within 0 1) by (split; cbn; lra).
  assert (Wia : within 206 (/ a)) by now apply within_inv.
  assert (Pia : 0 < / a) by now apply Rinv_0_lt_compat.
  (* dt, dt_2 *)
  assert (Wh1 : within 1000 (h * 1)) by (rewrite Rmult_1_r; apply (within_weaken 300); [lia|exact Wh]).
  destruct (sub_s h 1 t last_t) as (Fdt & e & Ed & He); auto.
  { fold h. rewrite Rmult_1_r, Rabs_pos_eq by lra. lra. }
  rewrite Rmult_1_r in He. fold h dt in Ed. fold dt in Fdt.
  destruct fhalf_ok as [Eh Fh].
  assert (He' := Rabs_le_inv _ _ He).
  destruct (mul_s h 1 fhalf dt) as (Fd2 & e' & Ed2 & He2); auto.
  { rewrite Eh, Ed. apply (scale_below _ _ _ ((1 + e) / 2)); [lra|field|]. apply Rabs_le. lra. }
  rewrite Rmult_1_r in He2. fold dt_2 in Ed2, Fd2. rewrite Eh, Ed in Ed2.
  set (e2 := e / 2 + e').
  assert (Ed2' : B2R dt_2 = h * (/ 2 + e2)) by (rewrite Ed2; unfold e2; field).
  assert (He2' : Rabs e2 <= 2 * u64) by (unfold e2; abs_lra).
  assert (Ed1 : B2R dt = h * (1 + e)) by (rewrite Ed; ring).
  assert (He1 : Rabs e <= 2 * u64) by abs_lra.
  destruct (fZ_ok 6) as [E6 F6]; [cbn; lia|].
  destruct (div_s h 1 dt (fZ 6)) as (Fd6 & e6' & Ed6 & He6'); auto.
  { rewrite E6; lra. }
  { rewrite E6, Ed1. apply (scale_below _ _ _ ((1 + e) / 6)); [lra|field|]. apply Rabs_le. lra. }
  rewrite Rmult_1_r in He6'. rewrite E6, Ed1 in Ed6. set (dt6 := fdiv dt (fZ 6)) in *.
  set (e6 := e / 6 + e6').
  assert (Ed6' : B2R dt6 = h * (/ 6 + e6)) by (rewrite Ed6; unfold e6; field).
  assert (He6 : Rabs e6 <= 2 * u64) by (unfold e6; abs_lra).
  clear Ed Ed2 Ed6.
  (* abbreviations *)
  set (q := a * (B2R y - g)) in *. set (vv := B2R v) in *.
  set (f0 := B2R F0 / (a * tau ^ 2)) in *. set (f1 := B2R F1 / (a * tau ^ 2)) in *.
  set (f2 := B2R F2 / (a * tau ^ 2)) in *.
  set (ag := a * g) in *.
  assert (Ey : B2R y = / a * (q + ag)) by (unfold q, ag; field; lra).
  assert (Hqg : Rabs (q + ag) <= S) by (clearbody q ag; abs_lra).
  assert (Ev : B2R v = 1 * vv) by (unfold vv; ring).
  assert (HvS : Rabs vv <= S) by (clearbody vv; abs_lra).
  pose proof (acc_close A d tf al tau S Fg Fal Fbe Ftf Eal Ebe Etf Wal Wtau WS Hsq) as AC.
  cbv zeta in AC. fold a g in AC.
  (* stage sums in the velocity and in the position *)
  assert (SV : forall (hh K : f64) th ee k, is_finite hh = true -> is_finite K = true ->
     B2R hh = h * (th + ee) -> 0 <= th <= 1 -> Rabs ee <= 2 * u64 ->
     B2R K / a = k -> Rabs k <= 4 * S ->
     is_finite (fadd v (fmul hh K)) = true
     /\ Rabs (B2R (fadd v (fmul hh K)) - (vv + x * th * k)) <= 6 * U).
  { intros hh K th ee k Fhh FK Ehh Hth Hee EK Hk.
    assert (EK' : B2R K = a * k) by (rewrite <- EK; field; lra).
    destruct (stage_sum S x WS Hx' 0 1 v hh K th ee k 4 vv) as (R1 & w & R2 & R3); auto; try lra; try lia.
    { rewrite Ehh, EK'. unfold x. ring. }
    split; auto. fold U in R3. rewrite R2, Rmult_1_l. apply Rle_trans with (1 := R3). lra. }
  assert (SY : forall (hh K : f64) th ee k, is_finite hh = true -> is_finite K = true ->
     B2R hh = h * (th + ee) -> 0 <= th <= 1 -> Rabs ee <= 2 * u64 ->
     B2R K = k -> Rabs k <= 4 * S ->
     is_finite (fadd y (fmul hh K)) = true
     /\ Rabs (a * (B2R (fadd y (fmul hh K)) - g) - (q + x * th * k)) <= 6 * U).
  { intros hh K th ee k Fhh FK Ehh Hth Hee EK Hk.
    destruct (stage_sum S x WS Hx' 206 (/ a) y hh K th ee k 4 (q + ag)) as (R1 & w & R2 & R3); auto; try lra; try lia.
    { rewrite Ehh, EK. unfold x. field. lra. }
    split; auto. fold U in R3. rewrite R2.
    replace (a * (/ a * w - g) - (q + x * th * k)) with (w - (q + ag + x * th * k))
      by (unfold ag; field; lra).
    apply Rle_trans with (1 := R3). lra. }
  assert (XB : forall th k b, 0 <= th <= 1 -> Rabs k <= b -> Rabs (x * th * k) <= / 6 * (th * b)).
  { intros th k b Hth Hk. pose proof (Rabs_pos k).
    rewrite 2!Rabs_mult, (Rabs_pos_eq x), (Rabs_pos_eq th) by lra. rewrite Rmult_assoc.
    apply Rmult_le_compat; try lra; [nra|]. apply Rmult_le_compat_l; lra. }
  assert (Dq : a * (B2R y - g) = q) by reflexivity.
  assert (Dv : B2R v = vv) by reflexivity.
  assert (Df0 : B2R F0 / (a * tau ^ 2) = f0) by reflexivity.
  assert (Df1 : B2R F1 / (a * tau ^ 2) = f1) by reflexivity.
  assert (Df2 : B2R F2 / (a * tau ^ 2) = f2) by reflexivity.
  assert (DU : U = u64 * S) by reflexivity.
  assert (Dag : a * g = ag) by reflexivity.
  clearbody q vv f0 f1 f2 ag. clearbody U.
  (* K0 *)
  destruct (AC y v F0) as [FK0 HK0]; auto; try (rewrite ?Dq, ?Dv, ?Df0; abs_lra).
  rewrite Dq, Dv, Df0, <- DU in HK0.
  assert (exists k0, B2R (acc_f A tf d y v F0) / a = k0) as [k0 DK0] by eauto. rewrite DK0 in HK0.
  assert (Hk0 : Rabs k0 <= 4 * S) by abs_lra.
  set (K0 := acc_f A tf d y v F0) in *.
  (* C1, Y1 *)
  destruct (SV dt_2 K0 (/ 2) e2 k0) as [FC1 HC1]; auto; try lra.
  set (C1 := fadd v (fmul dt_2 K0)) in *.
  assert (exists c1, B2R C1 = c1) as [c1 DC1] by eauto. rewrite DC1 in HC1.
  assert (X1 := XB (/ 2) k0 (4 * S) ltac:(lra) Hk0).
  assert (Hc1 : Rabs c1 <= S) by abs_lra.
  destruct (SY dt_2 v (/ 2) e2 vv) as [FY1 HY1]; auto; try lra.
  set (Y1 := fadd y (fmul dt_2 v)) in *.
  assert (exists q1, a * (B2R Y1 - g) = q1) as [q1 DY1] by eauto. rewrite DY1 in HY1.
  assert (X2 := XB (/ 2) vv S ltac:(lra) HvS).
  assert (Hq1 : Rabs q1 <= S) by abs_lra.
  (* K1 *)
  destruct (AC Y1 C1 F1) as [FK1 HK1]; auto; try (rewrite ?DY1, ?DC1, ?Df1; auto).
  rewrite DY1, DC1, Df1, <- DU in HK1.
  assert (exists k1, B2R (acc_f A tf d Y1 C1 F1) / a = k1) as [k1 DK1] by eauto. rewrite DK1 in HK1.
  assert (Hk1 : Rabs k1 <= 4 * S) by abs_lra.
  set (K1 := acc_f A tf d Y1 C1 F1) in *.
  (* C2, Y2 *)
  destruct (SV dt_2 K1 (/ 2) e2 k1) as [FC2 HC2]; auto; try lra.
  set (C2 := fadd v (fmul dt_2 K1)) in *.
  assert (exists c2, B2R C2 = c2) as [c2 DC2] by eauto. rewrite DC2 in HC2.
  assert (X3 := XB (/ 2) k1 (4 * S) ltac:(lra) Hk1).
  assert (Hc2 : Rabs c2 <= S) by abs_lra.
  destruct (SY dt_2 C1 (/ 2) e2 c1) as [FY2 HY2]; auto; try lra.
  set (Y2 := fadd y (fmul dt_2 C1)) in *.
  assert (exists q2, a * (B2R Y2 - g) = q2) as [q2 DY2] by eauto. rewrite DY2 in HY2.
  assert (X4 := XB (/ 2) c1 S ltac:(lra) Hc1).
  assert (Hq2 : Rabs q2 <= S) by abs_lra.
  (* K2 *)
  destruct (AC Y2 C2 F1) as [FK2 HK2]; auto; try (rewrite ?DY2, ?DC2, ?Df1; auto).
  rewrite DY2, DC2, Df1, <- DU in HK2.
  assert (exists k2, B2R (acc_f A tf d Y2 C2 F1) / a = k2) as [k2 DK2] by eauto. rewrite DK2 in HK2.
  assert (Hk2 : Rabs k2 <= 4 * S) by abs_lra.
  set (K2 := acc_f A tf d Y2 C2 F1) in *.
  (* C3, Y3 *)
  destruct (SV dt K2 1 e k2) as [FC3 HC3]; auto; try lra.
  set (C3 := fadd v (fmul dt K2)) in *.
  assert (exists c3, B2R C3 = c3) as [c3 DC3] by eauto. rewrite DC3 in HC3.
  assert (X5 := XB 1 k2 (4 * S) ltac:(lra) Hk2).
  assert (Hc3 : Rabs c3 <= S) by abs_lra.
  destruct (SY dt C2 1 e c2) as [FY3 HY3]; auto; try lra.
  set (Y3 := fadd y (fmul dt C2)) in *.
  assert (exists q3, a * (B2R Y3 - g) = q3) as [q3 DY3] by eauto. rewrite DY3 in HY3.
  assert (X6 := XB 1 c2 S ltac:(lra) Hc2).
  assert (Hq3 : Rabs q3 <= S) by abs_lra.
  (* K3 *)
  destruct (AC Y3 C3 F2) as [FK3 HK3]; auto; try (rewrite ?DY3, ?DC3, ?Df2; auto).
  rewrite DY3, DC3, Df2, <- DU in HK3.
  assert (exists k3, B2R (acc_f A tf d Y3 C3 F2) / a = k3) as [k3 DK3] by eauto. rewrite DK3 in HK3.
  assert (Hk3 : Rabs k3 <= 4 * S) by abs_lra.
  set (K3 := acc_f A tf d Y3 C3 F2) in *.
  assert (EK : forall (K : f64) k, B2R K / a = k -> B2R K = a * k) by (intros K k <-; field; lra).
  assert (EC : forall (K : f64) k, B2R K = k -> B2R K = 1 * k) by (intros K k ->; ring).
  exists k0, c1, q1, k1, c2, q2, k2, c3, q3, k3. split; [|split].
  - unfold rk4_stages. unfold Rdiv in HC1, HC2, HC3, HY1, HY2, HY3 |- *.
    rewrite ?Rmult_1_r in HC3, HY3.
    repeat split; (match goal with H : Rabs ?z <= _ |- Rabs ?z <= _ => apply Rle_trans with (1 := H); lra end).
  - intros sy sv Esy Esv.
    assert (ES : rk4_stages_f A last_t t y v d = {| st_dt := dt; st_K0 := K0; st_K1 := K1; st_K2 := K2;
       st_K3 := K3; st_C1 := C1; st_C2 := C2; st_C3 := C3 |}) by reflexivity.
    unfold rk4_cython_f. cbv zeta. cbn [fst snd]. rewrite Esy, Esv, ES.
    destruct (sum4 S WS 0 1 v C1 C2 C3 vv c1 c2 c3) as (Fs1 & s1 & Es1 & Hs1); auto; try lia; try abs_lra.
    destruct (sum4 S WS 206 a K0 K1 K2 K3 k0 k1 k2 k3) as (Fs2 & s2 & Es2 & Hs2); auto; try lia; try abs_lra.
    cbv zeta in Es1, Es2, Fs1, Fs2. rewrite <- DU in Hs1, Hs2.
    set (Su1 := fadd (fadd (fadd v _) _) C3) in *. set (Su2 := fadd (fadd (fadd K0 _) _) K3) in *.
    destruct (final_sum S x WS Hx' 206 (/ a) y dt Su1 e s1 (q + ag)) as (Ff1 & w1 & Ew1 & Hw1); auto; try lia.
    { rewrite Ed1, Es1. unfold x. field. lra. }
    { abs_lra. }
    destruct (final_sum S x WS Hx' 0 1 v dt Su2 e s2 vv) as (Ff2 & w2 & Ew2 & Hw2); auto; try lia.
    { rewrite Ed1, Es2. unfold x. field. }
    { abs_lra. }
    cbv zeta in Ff1, Ff2, Ew1, Ew2. rewrite <- DU in Hw1, Hw2.
    assert (Y1' := XB 1 (s1 - (vv + 2 * c1 + 2 * c2 + c3)) _ ltac:(lra) Hs1).
    assert (Y2' := XB 1 (s2 - (k0 + 2 * k1 + 2 * k2 + k3)) _ ltac:(lra) Hs2).
    repeat split; auto.
    + rewrite Ew1.
      replace (a * (/ a * w1 - g)) with (w1 - ag) by (rewrite <- Dag; field; lra).
      replace (w1 - ag - (q + x * (vv + 2 * c1 + 2 * c2 + c3) / 6))
        with (w1 - (q + ag + x * s1 / 6) + x * 1 * (s1 - (vv + 2 * c1 + 2 * c2 + c3)) / 6) by field.
      set (m := x * 1 * _) in *. set (m' := x * s1 / 6) in *. clearbody m m'. abs_lra.
    + rewrite Ew2.
      replace (1 * w2 - (vv + x * (k0 + 2 * k1 + 2 * k2 + k3) / 6))
        with (w2 - (vv + x * s2 / 6) + x * 1 * (s2 - (k0 + 2 * k1 + 2 * k2 + k3)) / 6) by field.
      set (m := x * 1 * _) in *. set (m' := x * s2 / 6) in *. clearbody m m'. abs_lra.
  - intros sy sv Esy Esv.
    assert (ES : rk4_stages_f A last_t t y v d = {| st_dt := dt; st_K0 := K0; st_K1 := K1; st_K2 := K2;
       st_K3 := K3; st_C1 := C1; st_C2 := C2; st_C3 := C3 |}) by reflexivity.
    unfold rk4_f. cbv zeta. cbn [fst snd]. rewrite Esy, Esv, ES. fold dt6.
    destruct (sum3 S WS 206 a K0 K1 K2 k0 k1 k2) as (Fs1 & s1 & Es1 & Hs1); auto; try lia; try abs_lra.
    destruct (sum4 S WS 206 a K0 K1 K2 K3 k0 k1 k2 k3) as (Fs2 & s2 & Es2 & Hs2); auto; try lia; try abs_lra.
    cbv zeta in Es1, Es2, Fs1, Fs2. rewrite <- DU in Hs1, Hs2.
    set (Su1 := fadd (fadd K0 K1) K2) in *. set (Su2 := fadd (fadd (fadd K0 _) _) K3) in *.
    destruct (stage_sum S x WS Hx' 0 1 v dt6 Su1 (/ 6) e6 s1 25 vv) as (Fi & wi & Ei & Hi); auto; try lia; try lra.
    { rewrite Ed6', Es1. unfold x. field. }
    { abs_lra. }
    destruct (stage_sum S x WS Hx' 0 1 v dt6 Su2 (/ 6) e6 s2 25 vv) as (Ff2 & w2 & Ew2 & Hw2); auto; try lia; try lra.
    { rewrite Ed6', Es2. unfold x. field. }
    { abs_lra. }
    rewrite <- DU in Hi, Hw2. set (In := fadd v (fmul dt6 Su1)) in *.
    assert (Z1 := XB (/ 6) (s1 - (k0 + k1 + k2)) _ ltac:(lra) Hs1).
    assert (Z2 := XB (/ 6) (s2 - (k0 + 2 * k1 + 2 * k2 + k3)) _ ltac:(lra) Hs2).
    assert (Z3 := XB (/ 6) s1 (13 * S) ltac:(lra) ltac:(abs_lra)).
    assert (Hwi : Rabs (wi - (vv + x / 6 * (k0 + k1 + k2))) <= 14 * U).
    { replace (wi - (vv + x / 6 * (k0 + k1 + k2)))
        with (wi - (vv + x * / 6 * s1) + x * / 6 * (s1 - (k0 + k1 + k2))) by field.
      set (m := x * / 6 * (s1 - _)) in *. set (m' := x * / 6 * s1) in *. clearbody m m'. abs_lra. }
    rewrite Rmult_1_l in Ei.
    destruct (SY dt In 1 e wi) as [FY4 HY4]; auto; try lra.
    { set (m' := x * / 6 * s1) in *. clearbody m'. abs_lra. }
    assert (Z4 := XB 1 (wi - (vv + x / 6 * (k0 + k1 + k2))) _ ltac:(lra) Hwi).
    repeat split; auto.
    + replace (a * (B2R (fadd y (fmul dt In)) - g) - (q + x * (vv + x / 6 * (k0 + k1 + k2))))
        with (a * (B2R (fadd y (fmul dt In)) - g) - (q + x * 1 * wi)
              + x * 1 * (wi - (vv + x / 6 * (k0 + k1 + k2)))) by ring.
      set (m := x * 1 * (wi - _)) in *. set (m' := x * 1 * wi) in *. clearbody m m'. abs_lra.
    + rewrite Ew2.
      replace (1 * w2 - (vv + x * (k0 + 2 * k1 + 2 * k2 + k3) / 6))
        with (w2 - (vv + x * / 6 * s2) + x * / 6 * (s2 - (k0 + 2 * k1 + 2 * k2 + k3))) by field.
      set (m := x * / 6 * (s2 - _)) in *. set (m' := x * / 6 * s2) in *. clearbody m m'. abs_lra.
Qed.
End Step.

(** ** Comparison of two runs *)
Lemma stages_diff x q v f0 f1 f2 r k0 c1 q1 k1 c2 q2 k2 c3 q3 k3
    q' v' f0' f1' f2' k0' c1' q1' k1' c2' q2' k2' c3' q3' k3' G :
  rk4_stages x q v f0 f1 f2 r k0 c1 q1 k1 c2 q2 k2 c3 q3 k3 ->
  rk4_stages x q' v' f0' f1' f2' 0 k0' c1' q1' k1' c2' q2' k2' c3' q3' k3' ->
  Rabs (f0 - f0') <= G -> Rabs (f1 - f1') <= G -> Rabs (f2 - f2') <= G ->
  rk4_stages x (q - q') (v - v') 0 0 0 (G + r) (k0 - k0') (c1 - c1') (q1 - q1') (k1 - k1') (c2 - c2')
    (q2 - q2') (k2 - k2') (c3 - c3') (q3 - q3') (k3 - k3')
  /\ Rabs (c1 - c1' - (v - v' + x / 2 * (k0 - k0'))) <= r
  /\ Rabs (q1 - q1' - (q - q' + x / 2 * (v - v'))) <= r
  /\ Rabs (c2 - c2' - (v - v' + x / 2 * (k1 - k1'))) <= r
  /\ Rabs (q2 - q2' - (q - q' + x / 2 * (c1 - c1'))) <= r
  /\ Rabs (c3 - c3' - (v - v' + x * (k2 - k2'))) <= r
  /\ Rabs (q3 - q3' - (q - q' + x * (c2 - c2'))) <= r.
Proof.
  intros (A0 & A1 & A2 & A3 & A4 & A5 & A6 & A7 & A8 & A9) (B0 & B1 & B2 & B3 & B4 & B5 & B6 & B7 & B8 & B9)
    G0 G1 G2.
  assert (HG : 0 <= G) by (apply Rle_trans with (2 := G0), Rabs_pos).
  assert (D : forall z w r e, Rabs z <= r -> Rabs w <= 0 -> e = z - w -> Rabs e <= r).
  { intros z w r' e Hz Hw ->. abs_lra. }
  assert (D1 := D _ _ _ (c1 - c1' - (v - v' + x / 2 * (k0 - k0'))) A1 B1 ltac:(ring)).
  assert (D2 := D _ _ _ (q1 - q1' - (q - q' + x / 2 * (v - v'))) A2 B2 ltac:(ring)).
  assert (D3 := D _ _ _ (c2 - c2' - (v - v' + x / 2 * (k1 - k1'))) A4 B4 ltac:(ring)).
  assert (D4 := D _ _ _ (q2 - q2' - (q - q' + x / 2 * (c1 - c1'))) A5 B5 ltac:(ring)).
  assert (D5 := D _ _ _ (c3 - c3' - (v - v' + x * (k2 - k2'))) A7 B7 ltac:(ring)).
  assert (D6 := D _ _ _ (q3 - q3' - (q - q' + x * (c2 - c2'))) A8 B8 ltac:(ring)).
  split; [|repeat split; auto]. unfold rk4_stages.
  repeat split;
    try (match goal with H : Rabs ?z <= r |- Rabs ?z <= _ => apply Rle_trans with (1 := H); lra end);
    abs_lra.
Qed.

Lemma compare_stages x q v f0 f1 f2 r k0 c1 q1 k1 c2 q2 k2 c3 q3 k3
    q' v' f0' f1' f2' k0' c1' q1' k1' c2' q2' k2' c3' q3' k3' G y w y' w' :
  0 <= x <= / 6 ->
  rk4_stages x q v f0 f1 f2 r k0 c1 q1 k1 c2 q2 k2 c3 q3 k3 ->
  rk4_stages x q' v' f0' f1' f2' 0 k0' c1' q1' k1' c2' q2' k2' c3' q3' k3' ->
  Rabs (f0 - f0') <= G -> Rabs (f1 - f1') <= G -> Rabs (f2 - f2') <= G ->
  Rabs (w - (v + x * (k0 + 2 * k1 + 2 * k2 + k3) / 6)) <= r ->
  w' = v' + x * (k0' + 2 * k1' + 2 * k2' + k3') / 6 ->
  (Rabs (y - (q + x * (v + 2 * c1 + 2 * c2 + c3) / 6)) <= r
   /\ y' = q' + x * (v' + 2 * c1' + 2 * c2' + c3') / 6
   \/ Rabs (y - (q + x * (v + x / 6 * (k0 + k1 + k2)))) <= r
   /\ y' = q' + x * (v' + x / 6 * (k0' + k1' + k2'))) ->
  energy (y - y') (w - w') <= (1 - x / 3) * energy (q - q') (v - v') + 10 * r + 2 * (x * G).
Proof.
  intros Hx A B G0 G1 G2 Hw -> Hy.
  assert (HG : 0 <= G) by (apply Rle_trans with (2 := G0), Rabs_pos).
  assert (Hr : 0 <= r) by (apply Rle_trans with (2 := Hw), Rabs_pos).
  destruct (stages_diff _ _ _ _ _ _ _ _ _ _ _ _ _ _ _ _ _ _ _ _ _ _ _ _ _ _ _ _ _ _ _ _ _ A B G0 G1 G2)
    as ((D0 & _ & _ & D3 & _ & _ & D6 & _ & _ & D9) & D1 & D2 & D4 & D5 & D7 & D8).
  rewrite Rplus_0_r in D0, D3, D6, D9.
  pose proof (velocity_response x (q - q') (v - v') (G + r) r _ _ _ _ _ _ _ _ _ _ Hx D0 D1 D2 D3 D4 D5 D6 D7 D8 D9
    (w - (v' + x * (k0' + 2 * k1' + 2 * k2' + k3') / 6))) as V.
  assert (V' : Rabs (w - (v' + x * (k0' + 2 * k1' + 2 * k2' + k3') / 6)
     - (v - v' + x * (k0 - k0' + 2 * (k1 - k1') + 2 * (k2 - k2') + (k3 - k3')) / 6)) <= r).
  { apply Rle_trans with (2 := Hw). right. f_equal. field. }
  specialize (V V').
  assert (P : Rabs (y - y' - (growth x * (q - q') + x * mixing x * (v - v' + (q - q'))))
              <= 3 * r + / 5 * (x * (G + r))).
  { destruct Hy as [[Hy ->]|[Hy ->]].
    - apply (position_response_c x (q - q') (v - v') (G + r) r _ _ _ _ _ _ _ _ _ _ Hx D0 D1 D2 D3 D4 D5 D6 D7 D8 D9).
      apply Rle_trans with (2 := Hy). right. f_equal. field.
    - apply (position_response x (q - q') (v - v') (G + r) r _ _ _ _ _ _ _ _ _ _ Hx D0 D1 D2 D3 D4 D5 D6 D7 D8 D9).
      apply Rle_trans with (2 := Hy). right. f_equal. field. }
  pose proof (energy_step x _ _ _ _ _ _ Hx P V) as E.
  assert (x * r <= / 6 * r) by (apply Rmult_le_compat_r; lra).
  assert (0 <= x * G) by (apply Rmult_le_pos; lra). lra.
Qed.
