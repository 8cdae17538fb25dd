(** Proofs about movements with a coupling term that only steers (C111). *)
From Coq Require Import Reals List Lia Lra Psatz FunctionalExtensionality.
From Verif Require Import M_Prelude M_Canonical M_Forcing M_Dmp S_Loops P_Loops P_DmpStep P_DmpLinear
  P_Converge P_Coupled Properties_Ode.
Import ListNotations.
Open Scope R_scope.
Set Bullet Behavior "Strict Subproofs".

Lemma young (x y e : R) : 0 < e -> 2 * (x * y) <= e * x ^ 2 + y ^ 2 / e.
Proof.
  intros He. pose proof (pow2_ge_0 (e * x - y)) as H.
  apply Rmult_le_reg_l with e; auto.
  replace (e * (e * x ^ 2 + y ^ 2 / e)) with (e ^ 2 * x ^ 2 + y ^ 2) by (field; lra). nra.
Qed.

Definition sq (n : nat) (x : vec) : R := rsum n (fun d => x d ^ 2).
Definition dot (n : nat) (x y : vec) : R := rsum n (fun d => x d * y d).

Lemma sq_nonneg n x : 0 <= sq n x.
Proof. apply rsum_nonneg. intros. apply pow2_ge_0. Qed.

Lemma sq_entry n x d : (d < n)%nat -> x d ^ 2 <= sq n x.
Proof.
  intros Hd. unfold sq. induction n as [|n IH]; [lia|]. cbn [rsum].
  destruct (Nat.eq_dec d n) as [->|Hne].
  - assert (0 <= rsum n (fun i => x i ^ 2)) by (apply rsum_nonneg; intros; apply pow2_ge_0). lra.
  - specialize (IH ltac:(lia)). pose proof (pow2_ge_0 (x n)). lra.
Qed.

(** ** The energy *)
Section Energy.
Variables (n : nat) (K q : vec) (Kn Kx Q mu kap cb : R).
Hypothesis HKn : 0 < Kn.
Hypothesis Hmu : 0 < mu.
Hypothesis Hkap : 0 <= kap.
Hypothesis Hcb : 0 <= cb.
Hypothesis HQ : 0 <= Q.
Hypothesis HK : forall d, (d < n)%nat -> Kn <= K d <= Kx.
Hypothesis Hq : forall d, (d < n)%nat -> 0 <= q d <= Q /\ kap + mu <= q d.
Hypothesis HKx : Kn <= Kx.

Definition energy (e : R) (x v : vec) : R := rsum n (fun d => K d * x d ^ 2 + v d ^ 2 + 2 * e * (x d * v d)).

Lemma energy_one (e eta h Kd qd x v a r s x' v' : R) :
  0 < e -> 0 < eta -> 0 < h -> Kn <= Kd <= Kx -> 0 <= qd <= Q ->
  v' = v + h * (- Kd * x - qd * v + a + r) -> x' = x + h * (v + s) ->
  (Kd * x' ^ 2 + v' ^ 2 + 2 * e * (x' * v')) - (Kd * x ^ 2 + v ^ 2 + 2 * e * (x * v))
  <= h * (- (2 * (qd * v ^ 2)) + 2 * (v * a) + e * (2 + 2 * Q ^ 2 / Kn) * v ^ 2 + 2 * e / Kn * a ^ 2
          - e * Kn * x ^ 2 + 2 * eta * (x ^ 2 + v ^ 2) + (1 + Kx ^ 2 + e ^ 2) / eta * (r ^ 2 + s ^ 2))
     + h ^ 2 * (4 * (1 + e) * (Kx ^ 2 + Q ^ 2 + 1) + 2 * (Kx + e)) * (x ^ 2 + v ^ 2 + a ^ 2 + (r ^ 2 + s ^ 2)).
Proof.
  intros He Heta Hh HKd Hqd Ev Ex.
  set (A := - Kd * x - qd * v + a + r) in *. set (b := v + s) in *.
  assert (E : (Kd * x' ^ 2 + v' ^ 2 + 2 * e * (x' * v')) - (Kd * x ^ 2 + v ^ 2 + 2 * e * (x * v))
    = h * (2 * (v * A) + 2 * (Kd * (x * b)) + 2 * (e * (x * A)) + 2 * (e * (v * b)))
      + h ^ 2 * (A ^ 2 + Kd * b ^ 2 + 2 * (e * (b * A)))) by (rewrite Ev, Ex; ring).
  rewrite E. clear E Ev Ex x' v'.
  apply Rplus_le_compat.
  - apply Rmult_le_compat_l; [lra|].
    replace (2 * (v * A) + 2 * (Kd * (x * b)) + 2 * (e * (x * A)) + 2 * (e * (v * b)))
      with (- (2 * (qd * v ^ 2)) + 2 * (v * a) + 2 * e * v ^ 2 - 2 * e * Kd * x ^ 2
            + e * (2 * (x * (- (qd * v)))) + e * (2 * (x * a))
            + 2 * (v * r) + 2 * (x * (Kd * s)) + 2 * (x * (e * r)) + 2 * (v * (e * s)))
      by (unfold A, b; ring).
    pose proof (young x (- (qd * v)) (Kd / 2) ltac:(lra)) as Y1.
    pose proof (young x a (Kd / 2) ltac:(lra)) as Y2.
    pose proof (young v r eta Heta) as Y3. pose proof (young x (Kd * s) eta Heta) as Y4.
    pose proof (young x (e * r) eta Heta) as Y5. pose proof (young v (e * s) eta Heta) as Y6.
    apply (Rmult_le_compat_l e) in Y1; [|lra]. apply (Rmult_le_compat_l e) in Y2; [|lra].
    assert (IK : / Kd <= / Kn) by (apply Rinv_le_contravar; lra).
    assert (IKp : 0 < / Kd) by (apply Rinv_0_lt_compat; lra).
    assert (Z1 : (- (qd * v)) ^ 2 / (Kd / 2) <= 2 * Q ^ 2 / Kn * v ^ 2).
    { replace ((- (qd * v)) ^ 2 / (Kd / 2)) with (2 * (qd ^ 2 * v ^ 2) * / Kd) by (field; lra).
      replace (2 * Q ^ 2 / Kn * v ^ 2) with (2 * (Q ^ 2 * v ^ 2) * / Kn) by (field; lra).
      assert (qd ^ 2 * v ^ 2 <= Q ^ 2 * v ^ 2).
      { apply Rmult_le_compat_r; [apply pow2_ge_0|]. apply pow_incr; lra. }
      apply Rmult_le_compat; try lra.
      assert (0 <= qd ^ 2 * v ^ 2) by (apply Rmult_le_pos; apply pow2_ge_0). lra. }
    assert (Z2 : a ^ 2 / (Kd / 2) <= 2 / Kn * a ^ 2).
    { replace (a ^ 2 / (Kd / 2)) with (2 * a ^ 2 * / Kd) by (field; lra).
      replace (2 / Kn * a ^ 2) with (2 * a ^ 2 * / Kn) by (field; lra).
      apply Rmult_le_compat_l; auto. pose proof (pow2_ge_0 a). lra. }
    apply (Rmult_le_compat_l e) in Z1; [|lra]. apply (Rmult_le_compat_l e) in Z2; [|lra].
    assert (Ie : 0 < / eta) by (apply Rinv_0_lt_compat; auto).
    assert (Z3 : r ^ 2 / eta + (Kd * s) ^ 2 / eta + (e * r) ^ 2 / eta + (e * s) ^ 2 / eta
       <= (1 + Kx ^ 2 + e ^ 2) / eta * (r ^ 2 + s ^ 2)).
    { unfold Rdiv.
      replace (r ^ 2 * / eta + (Kd * s) ^ 2 * / eta + (e * r) ^ 2 * / eta + (e * s) ^ 2 * / eta)
        with ((r ^ 2 + Kd ^ 2 * s ^ 2 + e ^ 2 * (r ^ 2 + s ^ 2)) * / eta) by ring.
      replace ((1 + Kx ^ 2 + e ^ 2) * / eta * (r ^ 2 + s ^ 2))
        with (((1 + Kx ^ 2 + e ^ 2) * (r ^ 2 + s ^ 2)) * / eta) by ring.
      apply Rmult_le_compat_r; [lra|].
      assert (Kd ^ 2 * s ^ 2 <= Kx ^ 2 * s ^ 2) by (apply Rmult_le_compat_r; [apply pow2_ge_0|apply pow_incr; lra]).
      assert (0 <= Kx ^ 2 * r ^ 2) by (apply Rmult_le_pos; apply pow2_ge_0).
      pose proof (pow2_ge_0 s). lra. }
    assert (Z4 : e * Kn * x ^ 2 <= e * Kd * x ^ 2).
    { apply Rmult_le_compat_r; [apply pow2_ge_0|]. apply Rmult_le_compat_l; lra. }
    assert (Z5 : e * (Kd / 2 * x ^ 2 + (- (qd * v)) ^ 2 / (Kd / 2)) = e * Kd * x ^ 2 / 2 + e * ((- (qd * v)) ^ 2 / (Kd / 2))) by lra.
    assert (Z6 : e * (Kd / 2 * x ^ 2 + a ^ 2 / (Kd / 2)) = e * Kd * x ^ 2 / 2 + e * (a ^ 2 / (Kd / 2))) by lra.
    rewrite Z5 in Y1. rewrite Z6 in Y2.
    replace (e * (2 / Kn * a ^ 2)) with (2 * e / Kn * a ^ 2) in Z2 by (unfold Rdiv; ring).
    replace (e * (2 + 2 * Q ^ 2 / Kn) * v ^ 2) with (2 * e * v ^ 2 + e * (2 * Q ^ 2 / Kn * v ^ 2)) by ring.
    lra.
  - rewrite Rmult_assoc. apply Rmult_le_compat_l; [apply pow2_ge_0|].
    set (S5 := x ^ 2 + v ^ 2 + a ^ 2 + (r ^ 2 + s ^ 2)).
    assert (HA : A ^ 2 <= 4 * (Kx ^ 2 + Q ^ 2 + 1) * S5).
    { assert (A ^ 2 <= 4 * (Kd ^ 2 * x ^ 2 + qd ^ 2 * v ^ 2 + a ^ 2 + r ^ 2)).
      { unfold A. pose proof (pow2_ge_0 (Kd * x - qd * v)). pose proof (pow2_ge_0 (Kd * x + a)).
        pose proof (pow2_ge_0 (Kd * x + r)). pose proof (pow2_ge_0 (qd * v + a)).
        pose proof (pow2_ge_0 (qd * v + r)). pose proof (pow2_ge_0 (a - r)). lra. }
      assert (Kd ^ 2 * x ^ 2 <= Kx ^ 2 * x ^ 2) by (apply Rmult_le_compat_r; [apply pow2_ge_0|apply pow_incr; lra]).
      assert (qd ^ 2 * v ^ 2 <= Q ^ 2 * v ^ 2) by (apply Rmult_le_compat_r; [apply pow2_ge_0|apply pow_incr; lra]).
      assert (0 <= Kx ^ 2 * (v ^ 2 + a ^ 2 + (r ^ 2 + s ^ 2))).
      { apply Rmult_le_pos; [apply pow2_ge_0|]. pose proof (pow2_ge_0 v). pose proof (pow2_ge_0 a).
        pose proof (pow2_ge_0 r). pose proof (pow2_ge_0 s). lra. }
      assert (0 <= Q ^ 2 * (x ^ 2 + a ^ 2 + (r ^ 2 + s ^ 2))).
      { apply Rmult_le_pos; [apply pow2_ge_0|]. pose proof (pow2_ge_0 x). pose proof (pow2_ge_0 a).
        pose proof (pow2_ge_0 r). pose proof (pow2_ge_0 s). lra. }
      unfold S5. pose proof (pow2_ge_0 s). pose proof (pow2_ge_0 x). pose proof (pow2_ge_0 v). lra. }
    assert (Hb : b ^ 2 <= 2 * S5).
    { unfold b, S5. pose proof (pow2_ge_0 (v - s)). pose proof (pow2_ge_0 x). pose proof (pow2_ge_0 a).
      pose proof (pow2_ge_0 r). lra. }
    assert (Hbb : 0 <= b ^ 2) by apply pow2_ge_0.
    assert (Hba : 2 * (e * (b * A)) <= e * (b ^ 2 + A ^ 2)).
    { replace (2 * (e * (b * A))) with (e * (2 * (b * A))) by ring. apply Rmult_le_compat_l; [lra|].
      pose proof (pow2_ge_0 (b - A)). lra. }
    apply Rle_trans with ((1 + e) * A ^ 2 + (Kx + e) * b ^ 2).
    { assert (Kd * b ^ 2 <= Kx * b ^ 2) by (apply Rmult_le_compat_r; lra). lra. }
    apply (Rmult_le_compat_l (1 + e)) in HA; [|lra]. apply (Rmult_le_compat_l (Kx + e)) in Hb; [|lra].
    lra.
Qed.

(** [M] bounds the errors of the integration step; everything else follows. *)
Lemma energy_decreases M : 0 <= M -> exists e m c C h0, 0 < e /\ 0 < m /\ 0 < c /\ 0 <= C /\ 0 < h0 <= 1 /\ c * h0 <= 1
  /\ (forall x v, m * (sq n x + sq n v) <= energy e x v)
  /\ forall h phi x v x' v' a r s, 0 < h <= h0 ->
     (forall d, (d < n)%nat -> v' d = v d + h * (- K d * x d - q d * v d + a d + r d)
                            /\ x' d = x d + h * (v d + s d)) ->
     let S := sq n x + sq n v in
     dot n v a <= kap * sq n v + M * h * (S + phi) ->
     sq n a <= cb * sq n v + M * h * (S + phi) ->
     sq n r + sq n s <= M * (h ^ 2 * S + phi) -> 0 <= phi ->
     energy e x' v' <= (1 - c * h) * energy e x v + h * (C * phi).
Proof.
  intros HM.
  set (Z := 2 + 2 * Q ^ 2 / Kn + 2 * cb / Kn).
  assert (HZ : 2 <= Z).
  { unfold Z. assert (0 <= 2 * Q ^ 2 / Kn) by (apply Rmult_le_pos; [pose proof (pow2_ge_0 Q); lra|left; now apply Rinv_0_lt_compat]).
    assert (0 <= 2 * cb / Kn) by (apply Rmult_le_pos; [lra|left; now apply Rinv_0_lt_compat]). lra. }
  set (e := Rmin (mu / Z) (Rmin (Kn / 2) (1 / 2))).
  assert (He : 0 < e).
  { unfold e. apply Rmin_pos; [apply Rdiv_lt_0_compat; lra|]. apply Rmin_pos; lra. }
  assert (He1 : e * Z <= mu).
  { apply Rle_trans with (mu / Z * Z); [|right; field; lra]. apply Rmult_le_compat_r; [lra|apply Rmin_l]. }
  assert (He2 : e <= Kn / 2) by (unfold e; eapply Rle_trans; [apply Rmin_r|apply Rmin_l]).
  assert (He3 : e <= 1 / 2) by (unfold e; eapply Rle_trans; [apply Rmin_r|apply Rmin_r]).
  clearbody e.
  set (d1 := Rmin mu (e * Kn)).
  assert (Hd1 : 0 < d1) by (unfold d1; apply Rmin_pos; [auto|apply Rmult_lt_0_compat; auto]).
  assert (Hd1a : d1 <= mu) by apply Rmin_l. assert (Hd1b : d1 <= e * Kn) by apply Rmin_r. clearbody d1.
  set (eta := d1 / 8). assert (Heta : 0 < eta) by (unfold eta; lra).
  set (G := (1 + Kx ^ 2 + e ^ 2) / eta).
  assert (HG : 0 <= G).
  { unfold G. apply Rmult_le_pos; [pose proof (pow2_ge_0 Kx); pose proof (pow2_ge_0 e); lra|left; now apply Rinv_0_lt_compat]. }
  set (P := 4 * (1 + e) * (Kx ^ 2 + Q ^ 2 + 1) + 2 * (Kx + e)).
  assert (HP : 0 <= P).
  { unfold P. assert (0 <= (1 + e) * (Kx ^ 2 + Q ^ 2 + 1)).
    { apply Rmult_le_pos; [lra|]. pose proof (pow2_ge_0 Kx); pose proof (pow2_ge_0 Q). lra. } lra. }
  set (J := 2 * e / Kn). assert (HJ : 0 <= J) by (unfold J; apply Rmult_le_pos; [lra|left; now apply Rinv_0_lt_compat]).
  (* all terms of order h S, and all multiples of phi *)
  set (C1 := 2 * M + J * M + G * M + P * (1 + cb + 2 * M)).
  assert (HC1 : 0 <= C1).
  { unfold C1. assert (0 <= J * M) by (apply Rmult_le_pos; auto). assert (0 <= G * M) by (apply Rmult_le_pos; auto).
    assert (0 <= P * (1 + cb + 2 * M)) by (apply Rmult_le_pos; lra). lra. }
  set (Cm := Kx + 2).
  assert (HCm : 0 < Cm) by (unfold Cm; lra).
  set (h0 := Rmin 1 (Rmin (d1 / (4 * (C1 + 1))) (2 * Cm / d1))).
  assert (Hh0 : 0 < h0).
  { unfold h0. apply Rmin_pos; [lra|]. apply Rmin_pos; apply Rdiv_lt_0_compat; lra. }
  assert (Hh01 : h0 <= 1) by apply Rmin_l.
  assert (Hh02 : C1 * h0 <= d1 / 4).
  { assert (h0 <= d1 / (4 * (C1 + 1))) by (unfold h0; eapply Rle_trans; [apply Rmin_r|apply Rmin_l]).
    apply Rle_trans with ((C1 + 1) * h0); [nra|].
    apply Rle_trans with ((C1 + 1) * (d1 / (4 * (C1 + 1)))); [apply Rmult_le_compat_l; lra|right; field; lra]. }
  assert (Hh03 : d1 / (2 * Cm) * h0 <= 1).
  { assert (h0 <= 2 * Cm / d1) by (unfold h0; eapply Rle_trans; [apply Rmin_r|apply Rmin_r]).
    apply Rle_trans with (d1 / (2 * Cm) * (2 * Cm / d1)); [|right; field; lra].
    apply Rmult_le_compat_l; auto. left. apply Rdiv_lt_0_compat; lra. }
  assert (Hlow : forall x v, Rmin (Kn / 2) (1 / 2) * (sq n x + sq n v) <= energy e x v).
  { intros x v. unfold energy, sq. rewrite <- rsum_plus, <- rsum_scal. apply rsum_le. intros d Hd.
    destruct (HK d Hd) as [K1 K2].
    set (m := Rmin (Kn / 2) (1 / 2)). assert (m <= Kn / 2) by apply Rmin_l. assert (m <= 1 / 2) by apply Rmin_r.
    assert (0 < m) by (apply Rmin_pos; lra).
    assert (X : - (2 * e * (x d * v d)) <= e * (x d ^ 2 + v d ^ 2)).
    { replace (- (2 * e * (x d * v d))) with (e * (- 2 * (x d * v d))) by ring.
      apply Rmult_le_compat_l; [lra|]. pose proof (pow2_ge_0 (x d + v d)). lra. }
    pose proof (pow2_ge_0 (x d)) as Px. pose proof (pow2_ge_0 (v d)) as Pv.
    assert (m * x d ^ 2 <= Kn / 2 * x d ^ 2) by (apply Rmult_le_compat_r; auto).
    assert (m * v d ^ 2 <= 1 / 2 * v d ^ 2) by (apply Rmult_le_compat_r; auto).
    assert (Kn * x d ^ 2 <= K d * x d ^ 2) by (apply Rmult_le_compat_r; auto).
    assert (e * x d ^ 2 <= Kn / 2 * x d ^ 2) by (apply Rmult_le_compat_r; auto).
    assert (e * v d ^ 2 <= 1 / 2 * v d ^ 2) by (apply Rmult_le_compat_r; auto). lra. }
  assert (Hup : forall x v, energy e x v <= Cm * (sq n x + sq n v)).
  { intros x v. unfold energy, sq. rewrite <- rsum_plus, <- rsum_scal. apply rsum_le. intros d Hd.
    destruct (HK d Hd) as [K1 K2].
    assert (X : 2 * e * (x d * v d) <= e * (x d ^ 2 + v d ^ 2)).
    { replace (2 * e * (x d * v d)) with (e * (2 * (x d * v d))) by ring.
      apply Rmult_le_compat_l; [lra|]. pose proof (pow2_ge_0 (x d - v d)). lra. }
    pose proof (pow2_ge_0 (x d)) as Px. pose proof (pow2_ge_0 (v d)) as Pv.
    assert (K d * x d ^ 2 <= Kx * x d ^ 2) by (apply Rmult_le_compat_r; auto).
    assert (0 <= Kx * v d ^ 2) by (apply Rmult_le_pos; lra).
    assert (e * (x d ^ 2 + v d ^ 2) <= 1 / 2 * (x d ^ 2 + v d ^ 2)) by (apply Rmult_le_compat_r; lra).
    unfold Cm. lra. }
  exists e, (Rmin (Kn / 2) (1 / 2)), (d1 / (2 * Cm)), (C1 + d1 / 4), h0.
  split; [auto|]. split; [apply Rmin_pos; lra|]. split; [apply Rdiv_lt_0_compat; lra|].
  split; [lra|]. split; [auto|]. split; [auto|]. split; [exact Hlow|].
  intros h phi x v x' v' a r s Hh Hstep S Hwork Hsize Herr Hphi.
  pose proof (sq_nonneg n x) as Sx. pose proof (sq_nonneg n v) as Sv. pose proof (sq_nonneg n a) as Sa.
  pose proof (sq_nonneg n r) as Sr. pose proof (sq_nonneg n s) as Ss.
  assert (HS : 0 <= S) by (unfold S; lra).
  assert (Hsum : energy e x' v' - energy e x v
    <= h * (- (2 * rsum n (fun d => q d * v d ^ 2)) + 2 * dot n v a + e * (2 + 2 * Q ^ 2 / Kn) * sq n v + J * sq n a
          - e * Kn * sq n x + 2 * eta * S + G * (sq n r + sq n s))
       + h ^ 2 * P * (S + sq n a + (sq n r + sq n s))).
  { unfold energy, dot, S, sq. rewrite <- rsum_minus.
    match goal with |- _ <= ?X => replace X with (rsum n (fun d =>
       h * (- (2 * (q d * v d ^ 2)) + 2 * (v d * a d) + e * (2 + 2 * Q ^ 2 / Kn) * v d ^ 2 + J * a d ^ 2
          - e * Kn * x d ^ 2 + 2 * eta * (x d ^ 2 + v d ^ 2) + G * (r d ^ 2 + s d ^ 2))
       + h ^ 2 * P * (x d ^ 2 + v d ^ 2 + a d ^ 2 + (r d ^ 2 + s d ^ 2)))) end.
    2:{ clear. induction n as [|k IH]; cbn [rsum]; [ring|]. rewrite IH. ring. }
    apply rsum_le. intros d Hd. destruct (Hstep d Hd) as [Ev Ex]. destruct (Hq d Hd) as [Hq1 _].
    apply (energy_one e eta h (K d) (q d) (x d) (v d) (a d) (r d) (s d) (x' d) (v' d)); auto; lra. }
  assert (Hdamp : (kap + mu) * sq n v <= rsum n (fun d => q d * v d ^ 2)).
  { unfold sq. rewrite <- rsum_scal. apply rsum_le. intros d Hd. destruct (Hq d Hd) as [_ H].
    apply Rmult_le_compat_r; [apply pow2_ge_0|lra]. }
  set (R2 := sq n r + sq n s) in *. set (B := h * (S + phi)).
  assert (HB : 0 <= B) by (unfold B; apply Rmult_le_pos; lra).
  assert (HBS : B <= S + phi) by (unfold B; rewrite <- (Rmult_1_l (S + phi)) at 2; apply Rmult_le_compat_r; lra).
  assert (HhS : h * S <= B) by (unfold B; apply Rmult_le_compat_l; lra).
  assert (HR2 : R2 <= M * (B + phi)).
  { eapply Rle_trans; [exact Herr|]. apply Rmult_le_compat_l; auto. apply Rplus_le_compat_r.
    apply Rle_trans with (h * S); auto. replace (h ^ 2 * S) with (h * (h * S)) by ring.
    rewrite <- (Rmult_1_l (h * S)) at 2. apply Rmult_le_compat_r; [apply Rmult_le_pos; lra|lra]. }
  assert (Hsa : sq n a <= cb * sq n v + M * B) by (unfold B; rewrite <- Rmult_assoc; exact Hsize).
  assert (Hwk : dot n v a <= kap * sq n v + M * B) by (unfold B; rewrite <- Rmult_assoc; exact Hwork).
  assert (HQt : h * P * (S + sq n a + R2) <= P * (1 + cb + 2 * M) * (B + phi)).
  { replace (h * P * (S + sq n a + R2)) with (P * (h * S + h * sq n a + h * R2)) by ring.
    rewrite Rmult_assoc. apply Rmult_le_compat_l; auto.
    assert (h * sq n a <= cb * B + M * B).
    { apply (Rmult_le_compat_l h) in Hsa; [|lra]. eapply Rle_trans; [exact Hsa|].
      assert (h * (cb * sq n v) <= cb * B).
      { replace (h * (cb * sq n v)) with (cb * (h * sq n v)) by ring. apply Rmult_le_compat_l; auto.
        unfold B. apply Rmult_le_compat_l; [lra|]. unfold S. lra. }
      assert (h * (M * B) <= M * B).
      { rewrite <- (Rmult_1_l (M * B)) at 2. apply Rmult_le_compat_r; [apply Rmult_le_pos; auto|lra]. }
      lra. }
    assert (h * R2 <= M * (B + phi)).
    { apply Rle_trans with (1 * R2); [apply Rmult_le_compat_r; [unfold R2; lra|lra]|lra]. }
    assert (0 <= cb * phi) by (apply Rmult_le_pos; auto). assert (0 <= M * phi) by (apply Rmult_le_pos; auto).
    lra. }
  assert (Hlin : - (2 * rsum n (fun d => q d * v d ^ 2)) + 2 * dot n v a + e * (2 + 2 * Q ^ 2 / Kn) * sq n v + J * sq n a
          - e * Kn * sq n x + 2 * eta * S + G * R2 + h * P * (S + sq n a + R2)
     <= - (d1 / 2) * S + (C1 + d1 / 4) * phi).
  { apply (Rmult_le_compat_l J) in Hsa; auto. apply (Rmult_le_compat_l G) in HR2; auto.
    assert (EJ : J * (cb * sq n v + M * B) = e * (2 * cb / Kn) * sq n v + J * M * B) by (unfold J; field; lra).
    rewrite EJ in Hsa.
    assert (EZ : e * (2 + 2 * Q ^ 2 / Kn) * sq n v + e * (2 * cb / Kn) * sq n v <= mu * sq n v).
    { replace (e * (2 + 2 * Q ^ 2 / Kn) * sq n v + e * (2 * cb / Kn) * sq n v) with (e * Z * sq n v) by (unfold Z; ring).
      apply Rmult_le_compat_r; auto. }
    assert (Hd1S : d1 * S <= mu * sq n v + e * Kn * sq n x).
    { unfold S. assert (d1 * sq n v <= mu * sq n v) by (apply Rmult_le_compat_r; auto).
      assert (d1 * sq n x <= e * Kn * sq n x) by (apply Rmult_le_compat_r; auto). lra. }
    assert (HC : 2 * (M * B) + J * M * B + G * (M * (B + phi)) + P * (1 + cb + 2 * M) * (B + phi) <= C1 * (B + phi)).
    { unfold C1. assert (0 <= J * M * phi) by (apply Rmult_le_pos; auto; apply Rmult_le_pos; auto).
      assert (0 <= M * phi) by (apply Rmult_le_pos; auto). lra. }
    assert (HCB : C1 * (B + phi) <= d1 / 4 * S + (d1 / 4 * phi + C1 * phi)).
    { assert (C1 * B <= d1 / 4 * (S + phi)).
      { unfold B. rewrite <- Rmult_assoc. apply Rmult_le_compat_r; [lra|].
        apply Rle_trans with (C1 * h0); [apply Rmult_le_compat_l; lra|auto]. }
      lra. }
    replace (2 * eta * S) with (d1 / 4 * S) by (unfold eta; field).
    lra. }
  apply (Rmult_le_compat_l h) in Hlin; [|lra].
  assert (Hc : d1 / (2 * Cm) * energy e x v <= d1 / 2 * S).
  { apply Rle_trans with (d1 / (2 * Cm) * (Cm * S)); [|right; field; lra].
    apply Rmult_le_compat_l; [left; apply Rdiv_lt_0_compat; lra|apply Hup]. }
  apply (Rmult_le_compat_l h) in Hc; [|lra].
  lra.
Qed.

(** ** One integration step *)
Lemma sq_add h x w : 0 < h <= 1 -> sq n (fun d => x d + h * w d) <= 2 * sq n x + 2 * sq n w.
Proof.
  intros Hh. unfold sq. rewrite <- !rsum_scal, <- rsum_plus. apply rsum_le. intros d _.
  assert (H : h ^ 2 * w d ^ 2 <= 1 * w d ^ 2).
  { apply Rmult_le_compat_r; [apply pow2_ge_0|]. rewrite <- (pow1 2). apply pow_incr. lra. }
  pose proof (pow2_ge_0 (x d - h * w d)). lra.
Qed.

Lemma sq_grow h x w : 0 < h <= 1 ->
  sq n (fun d => x d + h * w d) <= sq n x + h * (sq n x + 2 * sq n w).
Proof.
  intros Hh. unfold sq.
  replace (rsum n (fun d => x d ^ 2) + h * (rsum n (fun d => x d ^ 2) + 2 * rsum n (fun d => w d ^ 2)))
    with (rsum n (fun d => x d ^ 2 + h * (x d ^ 2 + 2 * w d ^ 2))).
  2:{ rewrite rsum_plus, rsum_scal, rsum_plus, rsum_scal. reflexivity. }
  apply rsum_le. intros d _.
  assert (H : h * (h * w d ^ 2) <= h * w d ^ 2).
  { apply Rmult_le_compat_l; [lra|]. rewrite <- (Rmult_1_l (w d ^ 2)) at 2.
    apply Rmult_le_compat_r; [apply pow2_ge_0|lra]. }
  pose proof (pow2_ge_0 (x d - w d)) as Y. apply (Rmult_le_compat_l h) in Y; [|lra]. lra.
Qed.

Lemma sq_scal h w : sq n (fun d => h * w d) = h ^ 2 * sq n w.
Proof. unfold sq. rewrite <- rsum_scal. apply rsum_ext. intros. ring. Qed.

Section Step.
Variables (g : vec) (c : vec -> vec -> vec).
Hypothesis Hwork : forall Y V, dot n V (c Y V) <= kap * sq n V.
Hypothesis Hsize : forall Y V, sq n (c Y V) <= cb * sq n V.

Definition off (Y : vec) : vec := fun d => Y d - g d.
Definition rhs (u Y V : vec) : vec := fun d => - K d * (Y d - g d) - q d * V d + c Y V d + u d.

Definition grow : R := 4 * (Kx ^ 2 + Q ^ 2 + cb + 1).
Lemma grow_ge : 4 <= grow.
Proof. unfold grow. pose proof (pow2_ge_0 Kx). pose proof (pow2_ge_0 Q). lra. Qed.

Lemma rhs_size u Y V phi : sq n u <= phi -> sq n (rhs u Y V) <= grow * (sq n (off Y) + sq n V + phi).
Proof.
  intros Hu. pose proof (Hsize Y V) as Hc. pose proof (sq_nonneg n u) as Pu. pose proof (sq_nonneg n V) as PV.
  pose proof (sq_nonneg n (off Y)) as PY.
  assert (H1 : sq n (rhs u Y V) <= 4 * (Kx ^ 2 * sq n (off Y) + Q ^ 2 * sq n V + sq n (c Y V) + sq n u)).
  { unfold sq.
    replace (4 * _) with (rsum n (fun d => 4 * (Kx ^ 2 * off Y d ^ 2 + Q ^ 2 * V d ^ 2 + c Y V d ^ 2 + u d ^ 2))).
    2:{ rewrite rsum_scal, !rsum_plus, !rsum_scal. reflexivity. }
    apply rsum_le. intros d Hd. unfold rhs, off. destruct (HK d Hd) as [K1 K2]. destruct (Hq d Hd) as [[Q1 Q2] _].
    set (x := Y d - g d). set (v := V d). set (a := c Y V d). set (r := u d).
    assert (K d ^ 2 * x ^ 2 <= Kx ^ 2 * x ^ 2) by (apply Rmult_le_compat_r; [apply pow2_ge_0|apply pow_incr; lra]).
    assert (q d ^ 2 * v ^ 2 <= Q ^ 2 * v ^ 2) by (apply Rmult_le_compat_r; [apply pow2_ge_0|apply pow_incr; lra]).
    pose proof (pow2_ge_0 (K d * x - q d * v)). pose proof (pow2_ge_0 (K d * x + a)).
    pose proof (pow2_ge_0 (K d * x + r)). pose proof (pow2_ge_0 (q d * v + a)).
    pose proof (pow2_ge_0 (q d * v + r)). pose proof (pow2_ge_0 (a - r)). lra. }
  eapply Rle_trans; [exact H1|]. unfold grow.
  assert (0 <= Kx ^ 2 * (sq n V + phi)) by (apply Rmult_le_pos; [apply pow2_ge_0|lra]).
  assert (0 <= Q ^ 2 * (sq n (off Y) + phi)) by (apply Rmult_le_pos; [apply pow2_ge_0|lra]).
  assert (0 <= cb * (sq n (off Y) + phi)) by (apply Rmult_le_pos; lra).
  lra.
Qed.

(** How the coupling acts at a state that is close by. *)
Lemma near_work h Y v w N T : 0 < h <= 1 -> sq n w <= N * T -> sq n v <= T -> 0 <= N ->
  sq n (fun d => v d + h * w d) <= N * T ->
  let a := c Y (fun d => v d + h * w d) in
  dot n v a <= kap * sq n v + (kap * (1 + 2 * N) + N * (1 + cb)) * h * T
  /\ sq n a <= cb * sq n v + cb * (1 + 2 * N) * h * T.
Proof.
  intros Hh Hw Hv HN HV a. set (V := fun d => v d + h * w d) in *.
  pose proof (Hwork Y V) as W. pose proof (Hsize Y V) as Z. fold a in W, Z.
  pose proof (sq_nonneg n w) as Pw. pose proof (sq_nonneg n v) as Pv. pose proof (sq_nonneg n a) as Pa.
  pose proof (sq_nonneg n V) as PV.
  assert (G : sq n V <= sq n v + (1 + 2 * N) * h * T).
  { eapply Rle_trans; [apply sq_grow; auto|]. apply Rplus_le_compat_l.
    replace ((1 + 2 * N) * h * T) with (h * (T + 2 * (N * T))) by ring. apply Rmult_le_compat_l; lra. }
  split.
  - assert (E : dot n v a = dot n V a - h * dot n w a).
    { unfold dot. rewrite <- rsum_scal, <- rsum_minus. apply rsum_ext. intros d _. unfold V. ring. }
    assert (D : - dot n w a <= sq n w + sq n a).
    { unfold dot, sq. rewrite <- rsum_plus. replace (- rsum n (fun d => w d * a d)) with (-1 * rsum n (fun d => w d * a d)) by ring.
      rewrite <- rsum_scal. apply rsum_le. intros d _.
      pose proof (pow2_ge_0 (w d + a d)). pose proof (pow2_ge_0 (w d)). pose proof (pow2_ge_0 (a d)). lra. }
    apply (Rmult_le_compat_l h) in D; [|lra].
    assert (D2 : h * (sq n w + sq n a) <= h * (N * T + cb * (N * T))).
    { apply Rmult_le_compat_l; [lra|]. apply (Rmult_le_compat_l cb) in HV; auto. lra. }
    apply (Rmult_le_compat_l kap) in G; auto. lra.
  - apply (Rmult_le_compat_l cb) in G; auto. lra.
Qed.

Definition reach : R := 107 * grow ^ 4.
Definition Mstep : R := (kap + cb) * (1 + 2 * reach) + reach * (1 + cb) + 3 + 3 * (Kx ^ 2 + Q ^ 2) * reach + reach.

Lemma reach_ge : 1 <= reach.
Proof.
  unfold reach. pose proof grow_ge. assert (1 <= grow ^ 4) by (rewrite <- (pow1 4); apply pow_incr; lra). lra.
Qed.
Lemma Mstep_nonneg : 0 <= Mstep.
Proof.
  unfold Mstep. pose proof reach_ge.
  assert (0 <= (kap + cb) * (1 + 2 * reach)) by (apply Rmult_le_pos; lra).
  assert (0 <= reach * (1 + cb)) by (apply Rmult_le_pos; lra).
  assert (0 <= 3 * (Kx ^ 2 + Q ^ 2) * reach).
  { apply Rmult_le_pos; [|lra]. pose proof (pow2_ge_0 Kx). pose proof (pow2_ge_0 Q). lra. }
  lra.
Qed.

Definition small_error (h phi : R) (y v y' v' : vec) : Prop := exists a r s,
  (forall d, (d < n)%nat -> v' d = v d + h * (- K d * off y d - q d * v d + a d + r d)
                         /\ off y' d = off y d + h * (v d + s d)) /\
  let S := sq n (off y) + sq n v in
  dot n v a <= kap * sq n v + Mstep * h * (S + phi) /\
  sq n a <= cb * sq n v + Mstep * h * (S + phi) /\
  sq n r + sq n s <= Mstep * (h ^ 2 * S + phi).

Lemma euler_small h phi y v u : 0 < h <= 1 -> sq n u <= phi ->
  let A := rhs u y v in
  small_error h phi y v (fun d => y d + h * (v d + h * A d)) (fun d => v d + h * A d).
Proof.
  intros Hh Hu A. exists (c y v), u, (fun d => h * A d). split.
  { intros d _. unfold A, rhs, off. split; ring. }
  cbv zeta. pose proof reach_ge as HR. pose proof grow_ge as Hg.
  pose proof (sq_nonneg n (off y)) as Px. pose proof (sq_nonneg n v) as Pv. pose proof (sq_nonneg n u) as Pu.
  set (S := sq n (off y) + sq n v). assert (HS : 0 <= S) by (unfold S; lra).
  assert (HMS : 0 <= Mstep * h * (S + phi)).
  { apply Rmult_le_pos; [|lra]. apply Rmult_le_pos; [apply Mstep_nonneg|lra]. }
  split; [pose proof (Hwork y v); lra|]. split; [pose proof (Hsize y v); lra|].
  pose proof (rhs_size u y v phi Hu) as HA. fold A S in HA. rewrite sq_scal.
  assert (h2 : 0 <= h ^ 2 <= 1) by (split; [apply pow2_ge_0|rewrite <- (pow1 2); apply pow_incr; lra]).
  assert (H1 : h ^ 2 * sq n A <= reach * (h ^ 2 * S + phi)).
  { apply (Rmult_le_compat_l (h ^ 2)) in HA; [|lra]. eapply Rle_trans; [exact HA|].
    replace (h ^ 2 * (grow * (S + phi))) with (grow * (h ^ 2 * S + h ^ 2 * phi)) by ring.
    assert (h ^ 2 * phi <= 1 * phi) by (apply Rmult_le_compat_r; lra).
    assert (0 <= h ^ 2 * S) by (apply Rmult_le_pos; lra).
    apply Rmult_le_compat; try lra.
    - assert (0 <= h ^ 2 * phi) by (apply Rmult_le_pos; lra). lra.
    - unfold reach. assert (1 <= grow ^ 3) by (rewrite <- (pow1 3); apply pow_incr; lra).
      replace (grow ^ 4) with (grow * grow ^ 3) by ring.
      assert (grow * 1 <= grow * grow ^ 3) by (apply Rmult_le_compat_l; lra). lra. }
  assert (H0 : 0 <= h ^ 2 * S) by (apply Rmult_le_pos; lra).
  assert (H2 : (reach + 1) * (h ^ 2 * S + phi) <= Mstep * (h ^ 2 * S + phi)).
  { apply Rmult_le_compat_r; [lra|]. unfold Mstep.
    assert (0 <= (kap + cb) * (1 + 2 * reach)) by (apply Rmult_le_pos; lra).
    assert (0 <= reach * (1 + cb)) by (apply Rmult_le_pos; lra).
    assert (0 <= 3 * (Kx ^ 2 + Q ^ 2) * reach).
    { apply Rmult_le_pos; [|lra]. pose proof (pow2_ge_0 Kx). pose proof (pow2_ge_0 Q). lra. }
    lra. }
  lra.
Qed.

Lemma off_add y h w : off (fun d => y d + h * w d) = (fun d => off y d + h * w d).
Proof. extensionality d. unfold off. ring. Qed.

(** Mean of the four stages. *)
Lemma jensen a b e f : ((a + 2 * b + 2 * e + f) / 6) ^ 2 <= (a ^ 2 + 2 * b ^ 2 + 2 * e ^ 2 + f ^ 2) / 6.
Proof.
  pose proof (pow2_ge_0 (a - b)). pose proof (pow2_ge_0 (a - e)). pose proof (pow2_ge_0 (a - f)).
  pose proof (pow2_ge_0 (b - e)). pose proof (pow2_ge_0 (b - f)). pose proof (pow2_ge_0 (e - f)). lra.
Qed.
Lemma sq_mean a b e f : sq n (fun d => (a d + 2 * b d + 2 * e d + f d) / 6)
  <= (sq n a + 2 * sq n b + 2 * sq n e + sq n f) / 6.
Proof.
  unfold sq. replace (_ / 6) with (rsum n (fun d => (a d ^ 2 + 2 * b d ^ 2 + 2 * e d ^ 2 + f d ^ 2) / 6)).
  - apply rsum_le. intros d _. apply jensen.
  - unfold Rdiv. rewrite rsum_scal_r, !rsum_plus, !rsum_scal. reflexivity.
Qed.
Lemma dot_mean v a b e f : dot n v (fun d => (a d + 2 * b d + 2 * e d + f d) / 6)
  = (dot n v a + 2 * dot n v b + 2 * dot n v e + dot n v f) / 6.
Proof.
  unfold dot. rewrite <- !rsum_scal, <- !rsum_plus. unfold Rdiv. rewrite <- rsum_scal_r.
  apply rsum_ext. intros. field.
Qed.

Lemma rk4_small h phi y v u0 u1 u2 : 0 < h <= 1 -> sq n u0 <= phi -> sq n u1 <= phi -> sq n u2 <= phi ->
  let K0 := rhs u0 y v in
  let V1 := fun d => v d + h * (/ 2 * K0 d) in let Y1 := fun d => y d + h * (/ 2 * v d) in
  let K1 := rhs u1 Y1 V1 in
  let V2 := fun d => v d + h * (/ 2 * K1 d) in let Y2 := fun d => y d + h * (/ 2 * V1 d) in
  let K2 := rhs u1 Y2 V2 in
  let V3 := fun d => v d + h * K2 d in let Y3 := fun d => y d + h * V2 d in
  let K3 := rhs u2 Y3 V3 in
  small_error h phi y v (fun d => y d + h * (v d + h / 6 * (K0 d + K1 d + K2 d)))
    (fun d => v d + h / 6 * (K0 d + 2 * K1 d + 2 * K2 d + K3 d)).
Proof.
  intros Hh Hu0 Hu1 Hu2 K0 V1 Y1 K1 V2 Y2 K2 V3 Y3 K3.
  pose proof grow_ge as Hg. set (A := grow) in *.
  pose proof (sq_nonneg n (off y)) as Px. pose proof (sq_nonneg n v) as Pv. pose proof (sq_nonneg n u0) as Pu.
  set (S := sq n (off y) + sq n v). set (T := S + phi).
  assert (HS : 0 <= S) by (unfold S; lra). assert (HT : 0 <= T) by (unfold T; lra).
  assert (Hhalf : forall w, sq n (fun d => / 2 * w d) <= sq n w).
  { intros w. rewrite sq_scal. pose proof (sq_nonneg n w). lra. }
  assert (A1 : 1 <= A) by lra.
  assert (A2 : A <= A ^ 2) by (replace (A ^ 2) with (A * A) by ring; rewrite <- (Rmult_1_l A) at 1; apply Rmult_le_compat_r; lra).
  assert (A3 : A ^ 2 <= A ^ 3).
  { replace (A ^ 3) with (A * A ^ 2) by ring. rewrite <- (Rmult_1_l (A ^ 2)) at 1. apply Rmult_le_compat_r; lra. }
  assert (A4 : A ^ 3 <= A ^ 4).
  { replace (A ^ 4) with (A * A ^ 3) by ring. rewrite <- (Rmult_1_l (A ^ 3)) at 1. apply Rmult_le_compat_r; lra. }
  assert (up : forall p r, p <= r -> p * T <= r * T) by (intros; apply Rmult_le_compat_r; auto).
  (* stage 0 *)
  assert (B0 : sq n K0 <= A * T).
  { eapply Rle_trans; [apply rhs_size; exact Hu0|]. fold A S T. lra. }
  assert (W1 : sq n V1 <= 4 * A * T).
  { eapply Rle_trans; [apply sq_add; auto|]. pose proof (Hhalf K0). 
    pose proof (up 1 A ltac:(lra)). unfold T, S in *. lra. }
  assert (X1 : sq n (off Y1) <= 4 * A * T).
  { unfold Y1. rewrite off_add. eapply Rle_trans; [apply sq_add; auto|]. pose proof (Hhalf v).
    pose proof (up 1 A ltac:(lra)). unfold T, S in *. lra. }
  assert (Pphi : phi <= T) by (unfold T; lra).
  assert (B1 : sq n K1 <= 9 * A ^ 2 * T).
  { eapply Rle_trans; [apply rhs_size; exact Hu1|]. fold A.
    replace (9 * A ^ 2 * T) with (A * (9 * A * T)) by ring. apply Rmult_le_compat_l; [lra|].
    pose proof (up 1 A ltac:(lra)). lra. }
  assert (W2 : sq n V2 <= 20 * A ^ 2 * T).
  { eapply Rle_trans; [apply sq_add; auto|]. pose proof (Hhalf K1).
    pose proof (up 1 (A ^ 2) ltac:(lra)). unfold T, S in *. lra. }
  assert (X2 : sq n (off Y2) <= 10 * A ^ 2 * T).
  { unfold Y2. rewrite off_add. eapply Rle_trans; [apply sq_add; auto|]. pose proof (Hhalf V1).
    pose proof (up 1 (A ^ 2) ltac:(lra)). pose proof (up A (A ^ 2) ltac:(lra)). unfold T, S in *. lra. }
  assert (B2 : sq n K2 <= 31 * A ^ 3 * T).
  { eapply Rle_trans; [apply rhs_size; exact Hu1|]. fold A.
    replace (31 * A ^ 3 * T) with (A * (31 * A ^ 2 * T)) by ring. apply Rmult_le_compat_l; [lra|].
    pose proof (up 1 (A ^ 2) ltac:(lra)). lra. }
  assert (W3 : sq n V3 <= 64 * A ^ 3 * T).
  { eapply Rle_trans; [apply sq_add; auto|].
    pose proof (up 1 (A ^ 3) ltac:(lra)). unfold T, S in *. lra. }
  assert (X3 : sq n (off Y3) <= 42 * A ^ 3 * T).
  { unfold Y3. rewrite off_add. eapply Rle_trans; [apply sq_add; auto|].
    pose proof (up 1 (A ^ 3) ltac:(lra)). pose proof (up (A ^ 2) (A ^ 3) ltac:(lra)). unfold T, S in *. lra. }
  set (N := reach). assert (EN : N = 107 * A ^ 4) by reflexivity.
  assert (HN1 : 1 <= N) by apply reach_ge.
  assert (C0 : sq n K0 <= N * T) by (eapply Rle_trans; [exact B0|apply up; lra]).
  assert (C1 : sq n K1 <= N * T) by (eapply Rle_trans; [exact B1|apply up; lra]).
  assert (C2 : sq n K2 <= N * T) by (eapply Rle_trans; [exact B2|apply up; lra]).
  assert (D0 : sq n v <= N * T) by (pose proof (up 1 N HN1); unfold T, S in *; lra).
  assert (D1 : sq n V1 <= N * T) by (eapply Rle_trans; [exact W1|apply up; lra]).
  assert (D2 : sq n V2 <= N * T) by (eapply Rle_trans; [exact W2|apply up; lra]).
  assert (D3 : sq n V3 <= N * T) by (eapply Rle_trans; [exact W3|apply up; lra]).
  assert (Dv : sq n v <= T) by (unfold T, S; lra).
  assert (HN0 : 0 <= N) by lra.
  clear B0 B1 B2 W1 W2 W3 X1 X2 X3.
  set (a := fun d => (c y v d + 2 * c Y1 V1 d + 2 * c Y2 V2 d + c Y3 V3 d) / 6).
  set (p0 := u0).
  set (p1 := fun d => u1 d + h * (- K d * (/ 2 * v d) - q d * (/ 2 * K0 d))).
  set (p2 := fun d => u1 d + h * (- K d * (/ 2 * V1 d) - q d * (/ 2 * K1 d))).
  set (p3 := fun d => u2 d + h * (- K d * V2 d - q d * K2 d)).
  set (r := fun d => (p0 d + 2 * p1 d + 2 * p2 d + p3 d) / 6).
  set (s := fun d => h * ((K0 d + K1 d + K2 d) / 6)).
  exists a, r, s. split.
  { intros d _. split; [|unfold s, off; field].
    assert (E0 : K0 d = - K d * (y d - g d) - q d * v d + c y v d + u0 d) by reflexivity.
    assert (E1 : K1 d = - K d * (y d + h * (/ 2 * v d) - g d) - q d * V1 d + c Y1 V1 d + u1 d) by reflexivity.
    assert (E2 : K2 d = - K d * (y d + h * (/ 2 * V1 d) - g d) - q d * V2 d + c Y2 V2 d + u1 d) by reflexivity.
    assert (E3 : K3 d = - K d * (y d + h * V2 d - g d) - q d * V3 d + c Y3 V3 d + u2 d) by reflexivity.
    assert (F1 : V1 d = v d + h * (/ 2 * K0 d)) by reflexivity.
    assert (F2 : V2 d = v d + h * (/ 2 * K1 d)) by reflexivity.
    assert (F3 : V3 d = v d + h * K2 d) by reflexivity.
    unfold a, r, p0, p1, p2, p3, off.
    generalize dependent (c y v d). generalize dependent (c Y1 V1 d). generalize dependent (c Y2 V2 d).
    generalize dependent (c Y3 V3 d). generalize dependent (K0 d). generalize dependent (K1 d).
    generalize dependent (K2 d). generalize dependent (K3 d). generalize (V1 d) (V2 d) (V3 d).
    intros. subst. field. }
  cbv zeta. fold S T.
  assert (HMp : 0 <= 3 * (Kx ^ 2 + Q ^ 2) * N).
  { apply Rmult_le_pos; [|lra]. pose proof (pow2_ge_0 Kx). pose proof (pow2_ge_0 Q). lra. }
  assert (HkN : 0 <= kap * (1 + 2 * N)) by (apply Rmult_le_pos; lra).
  assert (HcN : 0 <= cb * (1 + 2 * N)) by (apply Rmult_le_pos; lra).
  assert (HNc : 0 <= N * (1 + cb)) by (apply Rmult_le_pos; lra).
  assert (EM : Mstep = (kap + cb) * (1 + 2 * N) + N * (1 + cb) + 3 + 3 * (Kx ^ 2 + Q ^ 2) * N + N) by reflexivity.
  assert (HhT : 0 <= h * T) by (apply Rmult_le_pos; lra).
  destruct (near_work h Y1 v (fun d => / 2 * K0 d) N T) as [N1a N1b]; auto.
  { eapply Rle_trans; [apply Hhalf|exact C0]. }
  destruct (near_work h Y2 v (fun d => / 2 * K1 d) N T) as [N2a N2b]; auto.
  { eapply Rle_trans; [apply Hhalf|exact C1]. }
  destruct (near_work h Y3 v K2 N T) as [N3a N3b]; auto.
  fold V1 in N1a, N1b. fold V2 in N2a, N2b. fold V3 in N3a, N3b.
  pose proof (Hwork y v) as N0a. pose proof (Hsize y v) as N0b.
  set (m1 := kap * (1 + 2 * N) + N * (1 + cb)) in *. set (m2 := cb * (1 + 2 * N)) in *.
  assert (U1 : m1 * h * T <= Mstep * h * T) by (apply up, Rmult_le_compat_r; unfold m1, m2 in *; lra).
  assert (U2 : m2 * h * T <= Mstep * h * T) by (apply up, Rmult_le_compat_r; unfold m1, m2 in *; lra).
  assert (U1p : 0 <= m1 * h * T) by (rewrite Rmult_assoc; apply Rmult_le_pos; unfold m1 in *; lra).
  assert (U2p : 0 <= m2 * h * T) by (rewrite Rmult_assoc; apply Rmult_le_pos; unfold m2 in *; lra).
  split; [|split].
  - unfold a. rewrite dot_mean. lra.
  - eapply Rle_trans; [apply sq_mean|]. lra.
  - set (E2 := Kx ^ 2 + Q ^ 2).
    assert (stage : forall (u z w : vec), sq n u <= phi -> sq n z <= N * T -> sq n w <= N * T ->
      sq n (fun d => u d + h * (- K d * z d - q d * w d)) <= 3 * phi + 3 * E2 * N * (h ^ 2 * T)).
    { intros u z w Hu Hz Hw.
      assert (H1 : sq n (fun d => u d + h * (- K d * z d - q d * w d))
        <= 3 * sq n u + 3 * h ^ 2 * (Kx ^ 2 * sq n z + Q ^ 2 * sq n w)).
      { unfold sq. replace (3 * _ + _) with (rsum n (fun d => 3 * u d ^ 2 + 3 * h ^ 2 * (Kx ^ 2 * z d ^ 2 + Q ^ 2 * w d ^ 2))).
        2:{ rewrite rsum_plus, !rsum_scal, rsum_plus, !rsum_scal. reflexivity. }
        apply rsum_le. intros d Hd. destruct (HK d Hd) as [k1 k2]. destruct (Hq d Hd) as [[q1 q2] _].
        assert (K d ^ 2 * z d ^ 2 <= Kx ^ 2 * z d ^ 2) by (apply Rmult_le_compat_r; [apply pow2_ge_0|apply pow_incr; lra]).
        assert (q d ^ 2 * w d ^ 2 <= Q ^ 2 * w d ^ 2) by (apply Rmult_le_compat_r; [apply pow2_ge_0|apply pow_incr; lra]).
        assert (h ^ 2 * (K d ^ 2 * z d ^ 2 + q d ^ 2 * w d ^ 2) <= h ^ 2 * (Kx ^ 2 * z d ^ 2 + Q ^ 2 * w d ^ 2))
          by (apply Rmult_le_compat_l; [apply pow2_ge_0|lra]).
        pose proof (pow2_ge_0 (u d + h * (K d * z d))). pose proof (pow2_ge_0 (u d + h * (q d * w d))).
        pose proof (pow2_ge_0 (h * (K d * z d) - h * (q d * w d))). lra. }
      eapply Rle_trans; [exact H1|].
      assert (h ^ 2 * (Kx ^ 2 * sq n z + Q ^ 2 * sq n w) <= h ^ 2 * (Kx ^ 2 * (N * T) + Q ^ 2 * (N * T))).
      { apply Rmult_le_compat_l; [apply pow2_ge_0|].
        apply (Rmult_le_compat_l (Kx ^ 2)) in Hz; [|apply pow2_ge_0].
        apply (Rmult_le_compat_l (Q ^ 2)) in Hw; [|apply pow2_ge_0]. lra. }
      unfold E2. lra. }
    pose proof (stage u1 (fun d => / 2 * v d) (fun d => / 2 * K0 d) Hu1
      ltac:(eapply Rle_trans; [apply Hhalf|exact D0]) ltac:(eapply Rle_trans; [apply Hhalf|exact C0])) as R1.
    pose proof (stage u1 (fun d => / 2 * V1 d) (fun d => / 2 * K1 d) Hu1
      ltac:(eapply Rle_trans; [apply Hhalf|exact D1]) ltac:(eapply Rle_trans; [apply Hhalf|exact C1])) as R2.
    pose proof (stage u2 V2 K2 Hu2 D2 C2) as R3.
    change (sq n p1 <= 3 * phi + 3 * E2 * N * (h ^ 2 * T)) in R1.
    change (sq n p2 <= 3 * phi + 3 * E2 * N * (h ^ 2 * T)) in R2. fold p3 in R3.
    assert (h2 : 0 <= h ^ 2 <= 1) by (split; [apply pow2_ge_0|rewrite <- (pow1 2); apply pow_incr; lra]).
    assert (HE2 : 0 <= E2 * N) by (unfold E2 in *; lra).
    assert (P3 : 0 <= 3 * E2 * N * (h ^ 2 * T)).
    { apply Rmult_le_pos; [lra|]. apply Rmult_le_pos; lra. }
    assert (Hr : sq n r <= 3 * phi + 3 * E2 * N * (h ^ 2 * T)).
    { eapply Rle_trans; [apply (sq_mean p0 p1 p2 p3)|]. change (sq n p0) with (sq n u0). lra. }
    assert (Hs : sq n s <= N * (h ^ 2 * T)).
    { unfold s. rewrite sq_scal. replace (N * (h ^ 2 * T)) with (h ^ 2 * (N * T)) by ring.
      apply Rmult_le_compat_l; [lra|].
      apply Rle_trans with ((sq n K0 + sq n K1 + sq n K2) / 12).
      - unfold sq. replace (_ / 12) with (rsum n (fun d => (K0 d ^ 2 + K1 d ^ 2 + K2 d ^ 2) / 12)).
        + apply rsum_le. intros d _. pose proof (pow2_ge_0 (K0 d - K1 d)). pose proof (pow2_ge_0 (K0 d - K2 d)).
          pose proof (pow2_ge_0 (K1 d - K2 d)). lra.
        + unfold Rdiv. rewrite rsum_scal_r, !rsum_plus. reflexivity.
      - pose proof (up 0 N HN0). lra. }
    assert (HT2 : h ^ 2 * T <= h ^ 2 * S + phi).
    { unfold T. assert (h ^ 2 * phi <= 1 * phi) by (apply Rmult_le_compat_r; lra). lra. }
    assert (H0 : 0 <= h ^ 2 * S) by (apply Rmult_le_pos; lra).
    set (Z := h ^ 2 * S + phi) in *.
    assert (F1 : (3 * E2 * N + N) * (h ^ 2 * T) <= (3 * E2 * N + N) * Z) by (apply Rmult_le_compat_l; lra).
    assert (F2 : (3 + (3 * E2 * N + N)) * Z <= Mstep * Z).
    { apply Rmult_le_compat_r; [unfold Z; lra|]. unfold E2, m1, m2 in *. lra. }
    assert (phi <= Z) by (unfold Z; lra). lra.
Qed.
End Step.
End Energy.

Lemma fin_min n (f : nat -> R) : (forall d, (d < n)%nat -> 0 < f d) ->
  exists m, 0 < m /\ forall d, (d < n)%nat -> m <= f d.
Proof.
  induction n as [|n IH]; intros H; [exists 1; split; [lra|intros; lia]|].
  destruct IH as [m [Hm Hf]]; [intros; apply H; lia|]. exists (Rmin m (f n)). split.
  - apply Rmin_pos; auto.
  - intros d Hd. destruct (Nat.eq_dec d n) as [->|]; [apply Rmin_r|].
    eapply Rle_trans; [apply Rmin_l|]. apply Hf. lia.
Qed.
Lemma fin_max n (f : nat -> R) : exists m, 0 <= m /\ forall d, (d < n)%nat -> f d <= m.
Proof.
  induction n as [|n IH]; [exists 0; split; [lra|intros; lia]|].
  destruct IH as [m [Hm Hf]]. exists (Rmax m (f n)). split.
  - eapply Rle_trans; [exact Hm|apply Rmax_l].
  - intros d Hd. destruct (Nat.eq_dec d n) as [->|]; [apply Rmax_r|].
    eapply Rle_trans; [|apply Rmax_l]. apply Hf. lia.
Qed.

(** ** The integration steps of the model *)
(** What a coupling term may do: [steers] in Properties_Guided. *)
Definition guided (n : nat) (kap cb : R) (cpl : coupling) : Prop := forall Y V,
  (forall d, (d < n)%nat -> fst (cpl Y V) d = 0) /\
  dot n V (snd (cpl Y V)) <= kap * sq n V /\ sq n (snd (cpl Y V)) <= cb * sq n V.

Definition input (a : dmp_args) (t : R) : vec :=
  fun d => disturbance a (ft_phase (a_forcing_term a) t) d / (a_goal_t a - a_start_t a) ^ 2.

Section Args.
Variables (n : nat) (al be : vec) (tau kap cb : R).
Let K : vec := fun d => al d * be d / tau ^ 2.
Let q : vec := fun d => al d / tau.
Hypothesis Htau : 0 < tau.
Hypothesis Hkap : 0 <= kap.
Hypothesis Hcb : 0 <= cb.
Hypothesis Hal : forall d, (d < n)%nat -> 0 < al d.
Hypothesis Hbe : forall d, (d < n)%nat -> 0 < be d.
Hypothesis Hdamp : forall d, (d < n)%nat -> kap < al d * tau.

Definition fitting (a : dmp_args) (cpl : coupling) : Prop :=
  (forall d, (d < n)%nat -> a_alpha_y a d = al d) /\ (forall d, (d < n)%nat -> a_beta_y a d = be d) /\
  a_goal_t a - a_start_t a = tau /\ a_coupling_term a = Some cpl /\ a_tracking_error a = None /\
  guided n kap cb cpl.

Lemma step1_energy : exists e m c C h0, 0 < m /\ 0 < c /\ 0 <= C /\ 0 < h0 /\ c * h0 <= 1
  /\ (forall x v, m * (sq n x + sq n v) <= energy n K e x v)
  /\ forall a cpl fn t h phi y v, fitting a cpl -> 0 < h <= h0 ->
     (forall t', t <= t' -> sq n (input a t') <= phi) ->
     let s' := step1 fn a t h (y, v) in
     energy n K e (off (a_goal_y a) (fst s')) (snd s')
     <= (1 - c * h) * energy n K e (off (a_goal_y a) y) v + h * (C * phi).
Proof.
  assert (HK0 : forall d, (d < n)%nat -> 0 < K d).
  { intros d Hd. apply Rdiv_lt_0_compat; [apply Rmult_lt_0_compat; auto|now apply pow_lt]. }
  assert (Hq0 : forall d, (d < n)%nat -> 0 < q d) by (intros d Hd; apply Rdiv_lt_0_compat; auto).
  destruct (fin_min n K HK0) as [Kn [HKn HK1]]. destruct (fin_max n K) as [Km [HKm HK2]].
  destruct (fin_max n q) as [Q [HQ HQ1]].
  destruct (fin_min n (fun d => q d - kap / tau ^ 2)) as [mu [Hmu Hmu1]].
  { intros d Hd. specialize (Hdamp d Hd). unfold q.
    replace (al d / tau - kap / tau ^ 2) with ((al d * tau - kap) / tau ^ 2) by (field; lra).
    apply Rdiv_lt_0_compat; [lra|now apply pow_lt]. }
  set (Kx := Rmax Kn Km). set (kp := kap / tau ^ 2). set (cp := cb / tau ^ 4).
  assert (Hkp : 0 <= kp) by (apply Rmult_le_pos; auto; left; apply Rinv_0_lt_compat; now apply pow_lt).
  assert (Hcp : 0 <= cp) by (apply Rmult_le_pos; auto; left; apply Rinv_0_lt_compat; now apply pow_lt).
  assert (HKx : Kn <= Kx) by apply Rmax_l.
  assert (HK : forall d, (d < n)%nat -> Kn <= K d <= Kx).
  { intros d Hd. split; auto. eapply Rle_trans; [now apply HK2|apply Rmax_r]. }
  assert (Hq : forall d, (d < n)%nat -> 0 <= q d <= Q /\ kp + mu <= q d).
  { intros d Hd. specialize (Hmu1 d Hd). cbv beta in Hmu1. pose proof (Hq0 d Hd). split; [split; [lra|auto]|unfold kp; lra]. }
  pose proof (Mstep_nonneg Kx Q kp cp Hkp Hcp) as HM.
  destruct (energy_decreases n K q Kn Kx Q mu kp cp HKn Hmu Hcp HK Hq HKx (Mstep Kx Q kp cp) HM)
    as (e & m & c & C & h0 & He & Hm & Hc & HC & Hh0 & Hch & Hlow & Hdec).
  exists e, m, c, C, h0. split; [auto|]. split; [auto|]. split; [auto|]. split; [apply Hh0|]. split; [auto|].
  split; [auto|].
  intros a cpl fn t h phi y v (Fa & Fb & Ft & Fc & Fe & Fg) Hh Hphi s'.
  assert (Hphi0 : 0 <= phi) by (eapply Rle_trans; [apply (sq_nonneg n (input a t))|apply Hphi; lra]).
  set (Ka := fun d => a_alpha_y a d * a_beta_y a d / tau ^ 2). set (qa := fun d => a_alpha_y a d / tau).
  assert (EK : forall d, (d < n)%nat -> Ka d = K d) by (intros d Hd; unfold Ka, K; now rewrite Fa, Fb).
  assert (Eq : forall d, (d < n)%nat -> qa d = q d) by (intros d Hd; unfold qa, q; now rewrite Fa).
  set (g := a_goal_y a). set (cf := fun Y V : vec => vscale (/ tau ^ 2) (snd (cpl Y V))).
  assert (Hwork : forall Y V, dot n V (cf Y V) <= kp * sq n V).
  { intros Y V. destruct (Fg Y V) as (_ & H & _).
    replace (dot n V (cf Y V)) with (/ tau ^ 2 * dot n V (snd (cpl Y V))).
    2:{ unfold dot. rewrite <- rsum_scal. apply rsum_ext. intros. unfold cf, vscale. ring. }
    unfold kp, Rdiv. rewrite (Rmult_comm kap), Rmult_assoc. apply Rmult_le_compat_l; auto.
    left. apply Rinv_0_lt_compat. now apply pow_lt. }
  assert (Hsize : forall Y V, sq n (cf Y V) <= cp * sq n V).
  { intros Y V. destruct (Fg Y V) as (_ & _ & H). unfold cf, vscale. rewrite sq_scal.
    replace (cp * sq n V) with ((/ tau ^ 2) ^ 2 * (cb * sq n V)) by (unfold cp; field; lra).
    apply Rmult_le_compat_l; auto. apply pow2_ge_0. }
  assert (HKa : forall d, (d < n)%nat -> Kn <= Ka d <= Kx) by (intros d Hd; rewrite EK by auto; auto).
  assert (Hqa : forall d, (d < n)%nat -> 0 <= qa d <= Q /\ kp + mu <= qa d) by (intros d Hd; rewrite Eq by auto; auto).
  assert (Hacc : forall k Y V t', acc_of a k Y V (ft_phase (a_forcing_term a) t')
       (ft_forces (a_forcing_term a) (ft_phase (a_forcing_term a) t')) = rhs Ka qa g cf (input a t') Y V).
  { intros k Y V t'. extensionality d. unfold acc_of, dmp_acc. rewrite Fc, Fe.
    unfold tracking_error_or_zero, vzero. rewrite Ft.
    replace (a_p_gain a * 0 / k) with 0 by (unfold Rdiv; ring).
    unfold rhs, cf, vscale, input, disturbance, Ka, qa, g. rewrite Ft.
    destruct (a_smooth_scaling a); field; lra. }
  assert (Hh1 : 0 < h <= 1) by (split; [apply Hh|eapply Rle_trans; [apply Hh|apply Hh0]]).
  assert (Hcd : forall Y V d, (d < n)%nat -> fst (cpl Y V) d = 0) by (intros Y V; apply (Fg Y V)).
  assert (Hse : small_error n Ka qa Kx Q kp cp g h phi y v (fst s') (snd s')).
  { assert (Hext : forall y1 v1 y2 v2, (forall d, (d < n)%nat -> y1 d = y2 d /\ v1 d = v2 d) ->
      small_error n Ka qa Kx Q kp cp g h phi y v y2 v2 -> small_error n Ka qa Kx Q kp cp g h phi y v y1 v1).
    { intros y1 v1 y2 v2 E (ca & r & s & H1 & H2). exists ca, r, s. split; auto.
      intros d Hd. destruct (E d Hd) as [E1 E2]. destruct (H1 d Hd) as [G1 G2]. split.
      - now rewrite E2.
      - rewrite <- G2. unfold off. now rewrite E1. }
    pose proof (euler_small n Ka qa Kn Kx Q mu kp cp HKn Hkp Hcp HKa Hqa g cf Hwork Hsize h phi y v (input a t) Hh1 (Hphi t (Rle_refl t))) as HE.
    cbv zeta in HE.
    assert (Hrk : small_error n Ka qa Kx Q kp cp g h phi y v (fst (dmp_step_rk4 a (t - h) t (y, v))) (snd (dmp_step_rk4 a (t - h) t (y, v)))).
    { set (f := a_forcing_term a).
      assert (E : dmp_step_rk4 a (t - h) t (y, v)
        = let s' := rk4_of (acc_of a h) h (ft_phase f t) (ft_phase f (t + / 2 * h)) (ft_phase f (t + h))
            (ft_forces f (ft_phase f t)) (ft_forces f (ft_phase f (t + / 2 * h)))
            (ft_forces f (ft_phase f (t + h))) y v in
          (fst s', vadd (snd s') (vdivs (fst (cpl (fst s') (snd s'))) tau))).
      { unfold dmp_step_rk4. cbv zeta. replace (t - (t - h)) with h by ring.
        unfold rk4_of, acc_of. rewrite Fc, Ft. reflexivity. }
      rewrite E. unfold rk4_of. cbv zeta. unfold f. rewrite !Hacc. cbn [fst snd].
      pose proof (rk4_small n Ka qa Kn Kx Q mu kp cp HKn Hkp Hcp HKa Hqa g cf Hwork Hsize h phi y v
        (input a t) (input a (t + / 2 * h)) (input a (t + h)) Hh1 (Hphi t (Rle_refl t))
        (Hphi (t + / 2 * h) ltac:(lra)) (Hphi (t + h) ltac:(lra))) as HR. cbv zeta in HR.
      assert (V2 : forall x w, (fun d : nat => x d + h * (/ 2 * w d)) = vadd x (vscale (/ 2 * h) w))
        by (intros; extensionality d; unfold vadd, vscale; ring).
      assert (V1 : forall x w, (fun d : nat => x d + h * w d) = vadd x (vscale h w))
        by (intros; extensionality d; unfold vadd, vscale; ring).
      rewrite <- !V2, <- !V1.
      eapply Hext; [|exact HR]. intros d Hd. cbv beta. split; [reflexivity|].
      unfold vadd, vdivs. rewrite Hcd by auto. unfold Rdiv. rewrite Rmult_0_l, Rplus_0_r. reflexivity. }
    unfold s'. destruct fn; cbn [step1].
    - exact Hrk.
    - eapply Hext; [|exact HE]. intros d Hd. unfold euler_body. cbv zeta. rewrite Fc. cbn [fst snd].
      rewrite <- Fc.
      change (dmp_acc y v (precomputed_cdd a) (a_alpha_y a) (a_beta_y a) (a_goal_y a) (a_start_y a)
        (ft_phase (a_forcing_term a) t) (a_goal_t a - a_start_t a)
        (ft_forces (a_forcing_term a) (ft_phase (a_forcing_term a) t)) (a_coupling_term a)
        (fun d => a_p_gain a * tracking_error_or_zero (a_tracking_error a) d / h) (a_smooth_scaling a))
      with (acc_of a h y v (ft_phase (a_forcing_term a) t) (ft_forces (a_forcing_term a) (ft_phase (a_forcing_term a) t))).
      rewrite Hacc. unfold vadd, vscale, vdivs. rewrite Hcd by auto. split; [ring|]. unfold Rdiv. ring.
    - exact Hrk.
    - eapply Hext; [|exact HE]. intros d Hd. specialize (Hacc h y v t).
      apply (f_equal (fun f => f d)) in Hacc. cbv beta in Hacc. cbv beta. rewrite <- Hacc.
      unfold euler_cython_body. cbv zeta. rewrite Fc, Fe.
      specialize (Hcd y v d Hd). destruct (cpl y v) as [cd cdd] eqn:Ec. cbn [fst snd] in *.
      unfold acc_of, dmp_acc. rewrite Fc, Fe, Ec. cbn [snd]. unfold tracking_error_or_zero, vzero.
      rewrite Hcd. split; unfold Rdiv; ring. }
  destruct Hse as (ca & r & s & H1 & H2 & H3 & H4).
  apply (Hdec h phi (off g y) v (off g (fst s')) (snd s') ca r s); auto.
  intros d Hd. rewrite <- EK, <- Eq by auto. auto.
Qed.

Lemma guided_run : exists h0, 0 < h0 /\ forall a cpl fn t0 dt x,
  fitting a cpl -> phase_ok (a_forcing_term a) -> a_start_t a <= t0 -> 0 < dt -> 0 < a_int_dt a ->
  part fn dt (a_int_dt a) <= h0 ->
  exists s, (forall k, run_seq (run_step_function fn a) t0 dt x k = Ok (s k))
  /\ forall d, (d < n)%nat -> vanishes (fun k => fst (s k) d - a_goal_y a d) /\ vanishes (fun k => snd (s k) d).
Proof.
  destruct step1_energy as (e & m & c & C & h0 & Hm & Hc & HC & Hh0 & Hch & Hlow & Hdec).
  exists h0. split; [auto|]. intros a cpl fn t0 dt x Fit Hph Ht0 Hdt Hi Hpart.
  pose proof Fit as (_ & _ & Ft & Fc & Fe & _).
  set (g := a_goal_y a). set (E := fun s : vec * vec => energy n K e (off g (fst s)) (snd s)).
  assert (HE0 : forall s, 0 <= E s).
  { intros s. eapply Rle_trans; [|apply Hlow]. apply Rmult_le_pos; [lra|].
    pose proof (sq_nonneg n (off g (fst s))). pose proof (sq_nonneg n (snd s)). lra. }
  set (rho := exp (- (c * dt))). set (B := C / c + dt * C).
  assert (HCc : 0 <= C / c) by (apply Rmult_le_pos; auto; left; now apply Rinv_0_lt_compat).
  assert (HdC : 0 <= dt * C) by (apply Rmult_le_pos; lra).
  assert (Hstep : forall lt t phi s, a_start_t a <= lt -> t = lt + dt -> (forall t', lt <= t' -> sq n (input a t') <= phi) ->
    exists s', run_step_function fn a lt t s = Ok s' /\ E s' <= rho * E s + B * phi).
  { intros lt t phi s Hlt Et Hphi.
    assert (Hphi0 : 0 <= phi) by (eapply Rle_trans; [apply (sq_nonneg n (input a lt))|apply Hphi; lra]).
    assert (HBphi : 0 <= C / c * phi /\ 0 <= dt * C * phi) by (split; apply Rmult_le_pos; auto).
    assert (Hrk : fn = RK4 \/ fn = RK4_cython -> exists s', Ok (dmp_step_rk4 a lt t s) = Ok s' /\ E s' <= rho * E s + B * phi).
    { intros Hfn. eexists. split; [reflexivity|].
      assert (Hle : dt <= h0) by (destruct Hfn; subst fn; exact Hpart).
      pose proof (Hdec a cpl RK4 t dt phi (fst s) (snd s) Fit (conj Hdt Hle)) as H. cbn [step1] in H.
      replace (t - dt) with lt in H by lra. rewrite <- surjective_pairing in H.
      change (E (dmp_step_rk4 a lt t s) <= rho * E s + B * phi). cbv zeta in H.
      eapply Rle_trans; [apply H; intros; apply Hphi; lra|]. change (energy n K e (off (a_goal_y a) (fst s)) (snd s)) with (E s).
      assert (1 - c * dt <= rho).
      { unfold rho. apply one_minus_le_exp. }
      assert ((1 - c * dt) * E s <= rho * E s) by (apply Rmult_le_compat_r; auto).
      unfold B. lra. }
    assert (Heu : forall body, (forall t1 k s, 0 < k <= h0 -> lt <= t1 ->
        E (body t1 k s) <= (1 - c * k) * E s + k * (C * phi)) ->
      part fn dt (a_int_dt a) = Rmin dt (a_int_dt a) ->
      forall l, tiles lt t (a_int_dt a) l -> E (exec_substeps body l s) <= rho * E s + B * phi).
    { intros body Hbody Ep l Hl. rewrite Ep in Hpart.
      destruct (tiles_min lt t (a_int_dt a) l Hl) as [Hl'|Hl'].
      2:{ subst l. simpl in Hl. lra. }
      replace (t - lt) with dt in Hl' by lra.
      set (L := C / c * phi). assert (HL : 0 <= L) by apply HBphi.
      set (I := fun (t1 : R) (s1 : vec * vec) => E s1 - L <= exp (- (c * (t1 - lt))) * E s).
      assert (HI : I t (exec_substeps body l s)).
      { apply (exec_substeps_inv I body l lt t (Rmin dt (a_int_dt a)) s); auto.
        - intros t1 k s1 Ht1 Hk Htk H. unfold I in *.
          assert (Hk0 : 0 < k <= h0) by lra.
          pose proof (Hbody (t1 + k) k s1 Hk0 ltac:(lra)) as H1.
          assert (Hck : 0 <= 1 - c * k).
          { assert (c * k <= c * h0) by (apply Rmult_le_compat_l; lra). lra. }
          replace (exp (- (c * (t1 + k - lt)))) with (exp (- (c * k)) * exp (- (c * (t1 - lt))))
            by (rewrite <- exp_plus; f_equal; ring).
          pose proof (one_minus_le_exp (c * k)) as Hx.
          apply Rle_trans with ((1 - c * k) * (E s1 - L)).
          { replace (k * (C * phi)) with (c * k * L) in H1 by (unfold L; field; lra). lra. }
          apply Rle_trans with ((1 - c * k) * (exp (- (c * (t1 - lt))) * E s)).
          { apply Rmult_le_compat_l; auto. }
          rewrite Rmult_assoc. apply Rmult_le_compat_r; auto.
          apply Rmult_le_pos; [left; apply exp_pos|auto].
        - unfold I. replace (- (c * (lt - lt))) with 0 by ring. rewrite exp_0. lra. }
      unfold I in HI. replace (t - lt) with dt in HI by lra. fold rho in HI. unfold B. unfold L in *. lra. }
    assert (Ht : a_start_t a < a_goal_t a) by lra.
    destruct fn.
    - apply Hrk. auto.
    - cbn [run_step_function]. unfold dmp_step_euler.
      destruct (Rle_dec (a_goal_t a) (a_start_t a)); [lra|].
      destruct (Rle_dec t (a_start_t a)); [lra|].
      destruct (substeps_tiles lt t (a_int_dt a) Hi ltac:(lra)) as [l [Hl Hex]].
      eexists. split; [apply Hex|]. apply Heu; auto. intros t1 k s1 Hk Ht1.
      pose proof (Hdec a cpl Euler t1 k phi (fst s1) (snd s1) Fit Hk) as H. cbn [step1] in H.
      rewrite <- surjective_pairing in H. apply H. intros; apply Hphi; lra.
    - cbn [run_step_function]. rewrite rk4_cython_eq. apply Hrk. auto.
    - cbn [run_step_function]. unfold dmp_step_euler_cython.
      destruct (Rle_dec (a_goal_t a) (a_start_t a)); [lra|]. cbv zeta.
      destruct (Rle_dec t (a_start_t a)); [lra|].
      destruct (substeps_tiles lt t (a_int_dt a) Hi ltac:(lra)) as [l [Hl Hex]].
      eexists. split; [apply Hex|]. apply Heu; auto. intros t1 k s1 Hk Ht1.
      pose proof (Hdec a cpl Euler_cython t1 k phi (fst s1) (snd s1) Fit Hk) as H. cbn [step1] in H.
      rewrite <- surjective_pairing in H. apply H. intros; apply Hphi; lra. }
  (* the inputs vanish *)
  assert (Hin : exists M, 0 <= M /\ forall lt t', lt <= t' ->
     sq n (input a t') <= M * ft_phase (a_forcing_term a) lt ^ 2).
  { clear - Hph Ft Htau. unfold sq. induction n as [|k IH].
    - exists 0. split; [lra|]. intros. cbn. lra.
    - destruct IH as (M & HM & IH).
      destruct (disturbance_bound a k (proj1 Hph)) as [Bk [Bk0 HBk]].
      assert (Hb : 0 <= Bk / tau ^ 2) by (apply Rmult_le_pos; auto; left; apply Rinv_0_lt_compat; now apply pow_lt).
      exists (M + (Bk / tau ^ 2) ^ 2). split; [pose proof (pow2_ge_0 (Bk / tau ^ 2)); lra|].
      intros lt t' Hle. cbn [rsum]. specialize (IH lt t' Hle).
      pose proof (dist_input_bound a Bk k Bk0 HBk Hph ltac:(lra) lt t' Hle) as H. rewrite Ft in H.
      assert (H2 : input a t' k ^ 2 <= (Bk / tau ^ 2 * ft_phase (a_forcing_term a) lt) ^ 2).
      { unfold input. rewrite Ft. rewrite <- Rsqr_pow2, <- (Rsqr_pow2 (_ * _)). apply Rsqr_le_abs_1.
        rewrite (Rabs_pos_eq (_ * _)); auto. pose proof (ft_phase_pos (a_forcing_term a) lt).
        apply Rmult_le_pos; lra. }
      rewrite Rpow_mult_distr in H2. lra. }
  destruct Hin as (M & HM & Hin).
  set (f := a_forcing_term a) in *.
  set (phi := fun k => M * ft_phase f (t0 + INR k * dt) ^ 2).
  assert (Hvan : vanishes phi).
  { apply (vanishes_le _ (fun k => M * ft_phase f t0 * ft_phase f (t0 + INR k * dt))).
    - intros k. unfold phi. pose proof (pos_INR k).
      assert (Hd : ft_phase f (t0 + INR k * dt) <= ft_phase f t0).
      { apply ft_phase_decreasing; auto. assert (0 <= INR k * dt) by (apply Rmult_le_pos; lra). lra. }
      pose proof (ft_phase_pos f (t0 + INR k * dt)).
      set (z := ft_phase f (t0 + INR k * dt)) in *. rewrite Rabs_pos_eq.
      + replace (M * z ^ 2) with (M * z * z) by ring. apply Rmult_le_compat_r; [lra|]. apply Rmult_le_compat_l; auto.
      + apply Rmult_le_pos; auto. apply pow2_ge_0.
    - apply vanishes_scal. apply phase_grid_vanishes; auto. }
  set (s := fix s k := match k with
    | O => x
    | S k' => match run_step_function fn a (t0 + INR k' * dt) (t0 + INR (S k') * dt) (s k') with
              | Ok y => y | Err _ => s k' end end).
  assert (Hs : forall k, run_step_function fn a (t0 + INR k * dt) (t0 + INR (S k) * dt) (s k) = Ok (s (S k))
     /\ E (s (S k)) <= rho * E (s k) + B * phi k).
  { intros k. pose proof (pos_INR k).
    assert (0 <= INR k * dt) by (apply Rmult_le_pos; lra).
    destruct (Hstep (t0 + INR k * dt) (t0 + INR (S k) * dt) (phi k) (s k)) as [s' [H1 H2]].
    - lra.
    - rewrite S_INR. ring.
    - intros t' Ht'. apply Hin. exact Ht'.
    - change (s (S k)) with (match run_step_function fn a (t0 + INR k * dt) (t0 + INR (S k) * dt) (s k)
      with Ok y => y | Err _ => s k end). rewrite H1. auto. }
  exists s. split.
  { induction k as [|k IH]; [reflexivity|]. cbn [run_seq]. rewrite IH. cbn [bind]. apply Hs. }
  assert (HEv : forall eps, 0 < eps -> exists N, forall k, (N <= k)%nat -> E (s k) < eps).
  { apply (contraction_vanishes (fun k => E (s k)) (fun k => B * phi k) rho).
    - split; [left; apply exp_pos|]. unfold rho. rewrite <- exp_0. apply exp_increasing.
      assert (0 < c * dt) by (apply Rmult_lt_0_compat; auto). lra.
    - auto.
    - intros k. apply Hs.
    - intros eps Heps. destruct (vanishes_scal B phi Hvan eps Heps) as [N HN]. exists N. intros k Hk.
      specialize (HN k Hk). apply Rabs_def2 in HN. apply HN. }
  assert (Hent : forall (u : nat -> R), (forall k, m * u k ^ 2 <= E (s k)) -> vanishes u).
  { intros u Hu eps Heps. destruct (HEv (m * eps ^ 2)) as [N HN].
    { apply Rmult_lt_0_compat; auto. now apply pow_lt. }
    exists N. intros k Hk. specialize (HN k Hk). specialize (Hu k).
    assert (u k ^ 2 < eps ^ 2) by (apply Rmult_lt_reg_l with m; auto; lra).
    rewrite <- (Rabs_pos_eq eps) by lra. apply Rsqr_lt_abs_0. rewrite !Rsqr_pow2. auto. }
  intros d Hd.
  pose proof (fun k => sq_entry n (off g (fst (s k))) d Hd) as H1.
  pose proof (fun k => sq_entry n (snd (s k)) d Hd) as H2.
  pose proof (fun k => Hlow (off g (fst (s k))) (snd (s k))) as H3.
  pose proof (fun k => sq_nonneg n (off g (fst (s k)))) as H4.
  pose proof (fun k => sq_nonneg n (snd (s k))) as H5.
  split; apply Hent; intros k; specialize (H1 k); specialize (H2 k); specialize (H3 k); specialize (H4 k); specialize (H5 k);
    (eapply Rle_trans; [|exact H3]); apply Rmult_le_compat_l; try lra.
  unfold off at 1 in H1. fold g. lra.
Qed.
End Args.
