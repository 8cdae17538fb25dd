(** Backward differences of sampled demonstrations, and the mean error of forces
    that were fitted by ridge regression (for C101). *)
From Coq Require Import Reals List Arith Bool Lia Lra Psatz.
From Coquelicot Require Import Coquelicot.
From Verif Require Import M_Prelude M_Canonical M_Forcing M_Dmp M_Base M_DmpObject M_Linalg M_Ridge
  M_FinalVelocity P_Loops P_Ode P_Reproduction Properties_Ridge.
Set Bullet Behavior "Strict Subproofs".
Local Open Scope R_scope.

Section Samples.
Variables (y v a : R -> R) (tau L B : R).
Hypothesis Htau : 0 < tau.
Hypothesis HL : 0 <= L.
Hypothesis HB : 0 <= B.
Hypothesis Dy : forall t, 0 <= t <= tau -> is_derive y t (v t).
Hypothesis Dv : forall t, 0 <= t <= tau -> is_derive v t (a t).
Hypothesis La : forall s t, 0 <= s <= tau -> 0 <= t <= tau -> Rabs (a s - a t) <= L * Rabs (s - t).
Hypothesis Ba : forall t, 0 <= t <= tau -> Rabs (a t) <= B.
Hypothesis V0 : v 0 = 0.
Variables (N : nat) (d : nat) (Y : nat -> vec) (T : vec).
Hypothesis HN : (2 <= N)%nat.
Let h : R := tau / INR N.
Hypothesis HT : forall k, T k = INR k * h.
Hypothesis HY : forall k, (k <= N)%nat -> Y k d = y (INR k * h).

Let HNpos : 0 < INR N.
Proof. apply lt_0_INR. lia. Qed.
Let Hh : 0 < h.
Proof. unfold h. now apply Rdiv_lt_0_compat. Qed.
Let HNh : INR N * h = tau.
Proof. unfold h. field. lra. Qed.

Notation W := (fv_demo_velocity T Y).
Notation A := (fv_demo_velocity T W).

Lemma sample_time k : (k <= N)%nat -> 0 <= INR k * h <= tau.
Proof.
  intros Hk. split; [apply Rmult_le_pos; [apply pos_INR|lra]|].
  rewrite <- HNh. apply Rmult_le_compat_r; [lra|]. now apply le_INR.
Qed.

Lemma over_h x b : Rabs x <= b * h -> Rabs (x / h) <= b.
Proof.
  intros H. unfold Rdiv. rewrite Rabs_mult, Rabs_inv, (Rabs_pos_eq h) by lra.
  apply Rmult_le_reg_r with h; auto. rewrite Rmult_assoc, Rinv_l by lra. lra.
Qed.

Lemma T_step k : T (S k) - T k = h.
Proof. rewrite !HT, S_INR. ring. Qed.

Lemma backward_velocity k : (k <= N)%nat -> Rabs (W k d - v (INR k * h)) <= B * h.
Proof.
  intros Hk. destruct k as [|k]; cbn [fv_demo_velocity].
  - simpl INR. rewrite Rmult_0_l, V0, Rminus_0_r, Rabs_R0. apply Rmult_le_pos; lra.
  - rewrite T_step, !HY by lia.
    pose proof (sample_time (S k) Hk) as H1. pose proof (sample_time k ltac:(lia)) as H0.
    rewrite S_INR in *. set (t := (INR k + 1) * h) in *.
    replace (INR k * h) with (t - h) in * by (unfold t; ring).
    pose proof (taylor_y y v a tau B HB Dy Dv Ba (t - h) t H0 H1) as TT.
    replace (t - h - t) with (- h) in TT by ring.
    replace ((y t - y (t - h)) / h - v t) with (- (y (t - h) - y t - - h * v t) / h) by (field; lra).
    apply over_h. rewrite Rabs_Ropp. lra.
Qed.

Lemma backward_acceleration k : (k <= N)%nat -> Rabs (A k d) <= 3 * B.
Proof.
  intros Hk. destruct k as [|k].
  - change (Rabs 0 <= 3 * B). rewrite Rabs_R0. lra.
  - change (A (S k) d) with ((W (S k) d - W k d) / (T (S k) - T k)). rewrite T_step.
    pose proof (backward_velocity (S k) Hk) as V1. pose proof (backward_velocity k ltac:(lia)) as V2.
    pose proof (lip_v v a tau B Dv Ba (INR (S k) * h) (INR k * h) (sample_time _ Hk)
                  (sample_time k ltac:(lia))) as V3.
    replace (INR (S k) * h - INR k * h) with h in V3 by (rewrite S_INR; ring).
    rewrite (Rabs_pos_eq h) in V3 by lra.
    apply over_h.
    replace (W (S k) d - W k d) with ((W (S k) d - v (INR (S k) * h))
      + (- (W k d - v (INR k * h)) + (v (INR (S k) * h) - v (INR k * h)))) by ring.
    eapply Rle_trans; [apply Rabs_triang|].
    pose proof (Rabs_triang (- (W k d - v (INR k * h))) (v (INR (S k) * h) - v (INR k * h))) as V4.
    rewrite Rabs_Ropp in V4. lra.
Qed.

Lemma backward_inside k : (2 <= k)%nat -> (k <= N)%nat -> Rabs (A k d - a (INR k * h)) <= 10 * L * h.
Proof.
  intros Hk1 Hk2. destruct k as [|[|k]]; [lia|lia|].
  change (A (S (S k)) d) with
    (((Y (S (S k)) d - Y (S k) d) / (T (S (S k)) - T (S k))
      - (Y (S k) d - Y k d) / (T (S k) - T k)) / (T (S (S k)) - T (S k))).
  rewrite !T_step, !HY by lia.
  pose proof (sample_time (S (S k)) Hk2) as H2. pose proof (sample_time (S k) ltac:(lia)) as H1.
  pose proof (sample_time k ltac:(lia)) as H0.
  rewrite !S_INR in *. set (t := (INR k + 1 + 1) * h) in *.
  replace ((INR k + 1) * h) with (t - h) in * by (unfold t; ring).
  replace (INR k * h) with (t - 2 * h) in * by (unfold t; ring).
  pose proof (taylor2 y v a tau L HL Dy Dv La (t - h) t H1 H2) as T1.
  pose proof (taylor2 y v a tau L HL Dy Dv La (t - 2 * h) t H0 H2) as T2.
  replace (t - h - t) with (- h) in T1 by ring. replace (t - 2 * h - t) with (- (2 * h)) in T2 by ring.
  rewrite Rabs_Ropp in T1, T2. rewrite (Rabs_pos_eq h) in T1 by lra. rewrite (Rabs_pos_eq (2 * h)) in T2 by lra.
  set (r1 := y (t - h) - y t - - h * v t - (- h) ^ 2 / 2 * a t) in *.
  set (r2 := y (t - 2 * h) - y t - - (2 * h) * v t - (- (2 * h)) ^ 2 / 2 * a t) in *.
  replace (((y t - y (t - h)) / h - (y (t - h) - y (t - 2 * h)) / h) / h - a t)
    with ((r2 + (-2) * r1) / h / h) by (unfold r1, r2; field; lra).
  apply over_h. apply over_h.
  eapply Rle_trans; [apply Rabs_triang|]. rewrite (Rabs_mult (-2)).
  replace (Rabs (-2)) with 2 by (rewrite Rabs_left; lra). nra.
Qed.

(** The errors of the forces. *)
Variable alpha : R.
Let G (k : nat) : R := tau ^ 2 * (A k d - a (INR k * h)) + alpha * tau * (W k d - v (INR k * h)).

Lemma backward_force_errors : rsum (S N) (fun k => G k ^ 2)
  <= 4 * (4 * tau ^ 2 * B + Rabs alpha * tau * (B * tau)) ^ 2
     + INR (S N) * ((10 * tau ^ 2 * L + Rabs alpha * tau * B) * h) ^ 2.
Proof.
  set (A0 := 4 * tau ^ 2 * B + Rabs alpha * tau * (B * tau)).
  set (A1 := (10 * tau ^ 2 * L + Rabs alpha * tau * B) * h).
  assert (Hht : h <= tau).
  { rewrite <- HNh. assert (1 <= INR N) by (apply (le_INR 1); lia). nra. }
  pose proof (Rabs_pos alpha) as Pa.
  assert (Pat : 0 <= Rabs alpha * tau) by (apply Rmult_le_pos; lra).
  assert (Pt2 : 0 <= tau ^ 2) by nra.
  assert (G0 : forall k, Rabs (G k) <= tau ^ 2 * Rabs (A k d - a (INR k * h)) + Rabs alpha * tau * Rabs (W k d - v (INR k * h))).
  { intros k. unfold G. eapply Rle_trans; [apply Rabs_triang|]. rewrite !Rabs_mult.
    rewrite (Rabs_pos_eq (tau ^ 2)), (Rabs_pos_eq tau) by lra. lra. }
  assert (GA : forall k, (k <= N)%nat -> Rabs (G k) <= A0).
  { intros k Hk. eapply Rle_trans; [apply G0|]. unfold A0.
    pose proof (backward_velocity k Hk) as V1. pose proof (backward_acceleration k Hk) as V2.
    pose proof (Ba (INR k * h) (sample_time k Hk)) as V3.
    assert (V4 : Rabs (A k d - a (INR k * h)) <= 4 * B).
    { unfold Rminus. eapply Rle_trans; [apply Rabs_triang|]. rewrite Rabs_Ropp. lra. }
    assert (V5 : B * h <= B * tau) by (apply Rmult_le_compat_l; lra).
    apply Rplus_le_compat.
    - replace (4 * tau ^ 2 * B) with (tau ^ 2 * (4 * B)) by ring. apply Rmult_le_compat_l; lra.
    - apply Rmult_le_compat_l; lra. }
  assert (GI : forall k, (2 <= k)%nat -> (k <= N)%nat -> Rabs (G k) <= A1).
  { intros k Hk1 Hk2. eapply Rle_trans; [apply G0|]. unfold A1.
    pose proof (backward_velocity k ltac:(lia)) as V1. pose proof (backward_inside k Hk1 Hk2) as V2.
    assert (tau ^ 2 * Rabs (A k d - a (INR k * h)) <= tau ^ 2 * (10 * L * h)) by (apply Rmult_le_compat_l; lra).
    assert (Rabs alpha * tau * Rabs (W k d - v (INR k * h)) <= Rabs alpha * tau * (B * h)) by (apply Rmult_le_compat_l; lra).
    lra. }
  assert (HA1 : 0 <= A1 ^ 2) by apply pow2_ge_0. assert (HA0 : 0 <= A0 ^ 2) by apply pow2_ge_0.
  set (e := fun i k : nat => if Nat.eqb k i then A0 ^ 2 else 0).
  apply Rle_trans with (rsum (S N) (fun k => e 0%nat k + e 1%nat k + A1 ^ 2)).
  - apply rsum_le. intros k Hk.
    assert (P : forall i, 0 <= e i k) by (intros i; unfold e; destruct (Nat.eqb k i); lra).
    assert (S0 : forall b, Rabs (G k) <= b -> G k ^ 2 <= b ^ 2).
    { intros b Hb. rewrite <- (pow2_abs (G k)). apply pow_incr. split; [apply Rabs_pos|auto]. }
    pose proof (P 0%nat). pose proof (P 1%nat).
    destruct (Nat.eq_dec k 0) as [E|]; [assert (e 0%nat k = A0 ^ 2) by (unfold e; now rewrite E)|].
    { specialize (S0 _ (GA k ltac:(lia))). lra. }
    destruct (Nat.eq_dec k 1) as [E|]; [assert (e 1%nat k = A0 ^ 2) by (unfold e; now rewrite E)|].
    { specialize (S0 _ (GA k ltac:(lia))). lra. }
    specialize (S0 _ (GI k ltac:(lia) ltac:(lia))). lra.
  - rewrite !rsum_plus, rsum_const.
    pose proof (rsum_single (S N) 0 (A0 ^ 2) HA0). pose proof (rsum_single (S N) 1 (A0 ^ 2) HA0).
    unfold e. lra.
Qed.
End Samples.

(** Weights fitted to forces [F] that are [G] off from the required forces [req],
    which some weights [w] produce up to [eps]. *)
Lemma fitted_sq_sum x z : (x + z) ^ 2 <= 2 * x ^ 2 + 2 * z ^ 2.
Proof. pose proof (pow2_ge_0 (x - z)). nra. Qed.

Lemma fitted_column n m X Y lam d w : 0 <= lam ->
  rsum m (fun s => (Y s d - rsum n (fun f => ridge_regression n m X Y lam d f * X f s)) ^ 2)
  <= rsum m (fun s => (Y s d - rsum n (fun f => w f * X f s)) ^ 2) + lam * rsum n (fun f => w f ^ 2).
Proof.
  intros Hl.
  pose proof (C15_minimiser n m 1 X (fun s _ => Y s d) lam (fun _ => w) Hl) as H.
  unfold ridge_cost, squared_error, squared_weights in H. cbn [rsum] in H. rewrite !Rplus_0_l in H.
  change (ridge_regression n m X (fun s _ => Y s d) lam 0%nat) with (ridge_regression n m X Y lam d) in H.
  assert (0 <= lam * rsum n (fun f => ridge_regression n m X Y lam d f ^ 2)).
  { apply Rmult_le_pos; auto. apply rsum_nonneg. intros. apply pow2_ge_0. }
  lra.
Qed.

Lemma fitted_forces tau A0 A1 nw N X F lam d w eps (req G : nat -> R) :
  0 < tau -> (2 <= N)%nat -> 0 <= lam -> 0 <= eps ->
  let h := tau / INR N in
  (forall k, (k <= N)%nat -> F k d = req k + G k) ->
  rsum (S N) (fun k => G k ^ 2) <= 4 * A0 ^ 2 + INR (S N) * (A1 * h) ^ 2 ->
  (forall k, (k <= N)%nat -> Rabs (req k - rsum nw (fun i => w i * X i k)) <= eps) ->
  let W := rsum nw (fun i => w i ^ 2) in
  let r := sqrt h + eps + sqrt (lam * h * W) in
  0 < r /\ h <= r ^ 2 /\
  rsum (S N) (fun k => h * ((rsum nw (fun i => ridge_regression nw (S N) X F lam d i * X i k) - req k) / tau ^ 2) ^ 2)
  <= (24 * A0 ^ 2 + 12 * tau ^ 2 * A1 ^ 2 + 8 * tau + 2) / tau ^ 4 * r ^ 2.
Proof.
  intros Htau HN Hlam Heps0 h EG FE Heps W r.
  assert (HNpos : 0 < INR N) by (apply lt_0_INR; lia).
  assert (Hh : 0 < h) by (unfold h; now apply Rdiv_lt_0_compat).
  assert (HNh : INR N * h = tau) by (unfold h; field; lra).
  assert (HN1 : 1 <= INR N) by (apply (le_INR 1); lia).
  assert (Hht : h <= tau) by nra.
  assert (HW : 0 <= W) by (apply rsum_nonneg; intros; apply pow2_ge_0).
  assert (HlW : 0 <= lam * h * W) by (apply Rmult_le_pos; auto; apply Rmult_le_pos; lra).
  pose proof (sqrt_lt_R0 h Hh) as Ps. pose proof (sqrt_pos (lam * h * W)) as Ps2.
  pose proof (sqrt_sqrt h ltac:(lra)) as Es. pose proof (sqrt_sqrt (lam * h * W) HlW) as Es2.
  assert (Hr2 : h + eps ^ 2 + lam * h * W <= r ^ 2).
  { unfold r. set (x := sqrt h) in *. set (z := sqrt (lam * h * W)) in *. clearbody x z. nra. }
  split; [unfold r; lra|]. split; [nra|].
  pose proof (fitted_column nw (S N) X F lam d w Hlam) as RC. fold W in RC.
  set (fr := fun k => rsum nw (fun i => ridge_regression nw (S N) X F lam d i * X i k)) in *.
  set (fs := fun k => rsum nw (fun i => w i * X i k)) in *.
  assert (Q1 : rsum (S N) (fun s => (F s d - fs s) ^ 2)
     <= 2 * rsum (S N) (fun k => G k ^ 2) + INR (S N) * (2 * eps ^ 2)).
  { rewrite <- rsum_scal, <- rsum_const, <- rsum_plus. apply rsum_le. intros k Hk.
    rewrite EG by lia. replace (req k + G k - fs k) with (G k + (req k - fs k)) by ring.
    eapply Rle_trans; [apply fitted_sq_sum|]. apply Rplus_le_compat_l. apply Rmult_le_compat_l; [lra|].
    rewrite <- (pow2_abs (_ - _)). apply pow_incr. split; [apply Rabs_pos|].
    unfold fs. apply Heps. lia. }
  assert (Q2 : rsum (S N) (fun k => (fr k - req k) ^ 2)
     <= 2 * rsum (S N) (fun s => (F s d - fr s) ^ 2) + 2 * rsum (S N) (fun k => G k ^ 2)).
  { rewrite <- !rsum_scal, <- rsum_plus. apply rsum_le. intros k Hk.
    replace (fr k - req k) with (- (F k d - fr k) + G k) by (rewrite EG by lia; ring).
    eapply Rle_trans; [apply fitted_sq_sum|]. apply Req_le. ring. }
  assert (Q3 : rsum (S N) (fun s => (F s d - fr s) ^ 2)
     <= rsum (S N) (fun s => (F s d - fs s) ^ 2) + lam * W) by exact RC.
  change (rsum (S N) (fun k => h * ((fr k - req k) / tau ^ 2) ^ 2)
    <= (24 * A0 ^ 2 + 12 * tau ^ 2 * A1 ^ 2 + 8 * tau + 2) / tau ^ 4 * r ^ 2).
  set (S1 := rsum (S N) (fun k => G k ^ 2)) in *.
  set (S2 := rsum (S N) (fun k => (fr k - req k) ^ 2)) in *.
  assert (Q4 : S2 <= 6 * S1 + 4 * INR (S N) * eps ^ 2 + 2 * (lam * W)) by lra.
  replace (rsum (S N) (fun k => h * ((fr k - req k) / tau ^ 2) ^ 2)) with (h * S2 / tau ^ 4).
  2:{ unfold S2. unfold Rdiv. rewrite Rmult_assoc, <- rsum_scal_r, <- rsum_scal. apply rsum_ext.
      intros k _. field. lra. }
  unfold Rdiv. rewrite (Rmult_assoc _ (/ tau ^ 4)), (Rmult_comm (/ tau ^ 4)), <- Rmult_assoc.
  apply Rmult_le_compat_r; [apply Rlt_le, Rinv_0_lt_compat, pow_lt; auto|].
  assert (HSN : INR (S N) * h <= 2 * tau) by (rewrite S_INR; lra).
  assert (HSN0 : 0 <= INR (S N)) by apply pos_INR.
  assert (P1 : h * S1 <= (4 * A0 ^ 2 + 2 * tau ^ 2 * A1 ^ 2) * h).
  { apply Rle_trans with (h * (4 * A0 ^ 2 + INR (S N) * (A1 * h) ^ 2)); [apply Rmult_le_compat_l; lra|].
    replace (h * (4 * A0 ^ 2 + INR (S N) * (A1 * h) ^ 2))
      with (4 * A0 ^ 2 * h + (INR (S N) * h) * (A1 ^ 2 * h) * h) by ring.
    assert (INR (S N) * h * (A1 ^ 2 * h) <= 2 * tau * (A1 ^ 2 * tau)).
    { pose proof (pow2_ge_0 A1). apply Rmult_le_compat; try lra.
      - apply Rmult_le_pos; lra.
      - apply Rmult_le_pos; lra.
      - apply Rmult_le_compat_l; lra. }
    assert (INR (S N) * h * (A1 ^ 2 * h) * h <= 2 * tau * (A1 ^ 2 * tau) * h) by (apply Rmult_le_compat_r; lra).
    lra. }
  assert (P2 : h * (INR (S N) * eps ^ 2) <= 2 * tau * eps ^ 2).
  { replace (h * (INR (S N) * eps ^ 2)) with (INR (S N) * h * eps ^ 2) by ring.
    apply Rmult_le_compat_r; auto. apply pow2_ge_0. }
  apply Rle_trans with ((24 * A0 ^ 2 + 12 * tau ^ 2 * A1 ^ 2) * h + 8 * tau * eps ^ 2 + 2 * (lam * h * W)).
  { apply Rle_trans with (h * (6 * S1 + 4 * INR (S N) * eps ^ 2 + 2 * (lam * W))); [apply Rmult_le_compat_l; lra|].
    lra. }
  set (K := 24 * A0 ^ 2 + 12 * tau ^ 2 * A1 ^ 2 + 8 * tau + 2).
  apply Rle_trans with (K * (h + eps ^ 2 + lam * h * W)).
  2:{ apply Rmult_le_compat_l; auto. unfold K. pose proof (pow2_ge_0 A0).
      assert (0 <= tau ^ 2 * A1 ^ 2) by (apply Rmult_le_pos; apply pow2_ge_0). lra. }
  unfold K. set (u1 := 24 * A0 ^ 2). set (u2 := 12 * tau ^ 2 * A1 ^ 2).
  assert (0 <= u1) by (unfold u1; pose proof (pow2_ge_0 A0); lra).
  assert (0 <= u2) by (unfold u2; assert (0 <= tau ^ 2 * A1 ^ 2) by (apply Rmult_le_pos; apply pow2_ge_0); lra).
  pose proof (pow2_ge_0 eps). set (e2 := eps ^ 2) in *. set (lw := lam * h * W) in *. clearbody u1 u2 e2 lw.
  assert (0 <= u1 * e2) by (apply Rmult_le_pos; lra). assert (0 <= u1 * lw) by (apply Rmult_le_pos; lra).
  assert (0 <= u2 * e2) by (apply Rmult_le_pos; lra). assert (0 <= u2 * lw) by (apply Rmult_le_pos; lra).
  assert (0 <= tau * h) by (apply Rmult_le_pos; lra). assert (0 <= tau * lw) by (apply Rmult_le_pos; lra).
  lra.
Qed.
