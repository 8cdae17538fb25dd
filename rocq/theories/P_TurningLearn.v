(** Regression on forces with errors at the borders of the recording. *)
From Coq Require Import Reals List Arith Bool Lia Lra Psatz.
From Coquelicot Require Import Coquelicot.
From Verif Require Import M_Prelude M_Canonical M_Dmp M_Ridge M_Quaternion M_Cartesian S_Rotation P_Loops P_Ode P_Reproduction
  P_Quaternion P_Sphere P_Orient P_Turning S_Turning P_TurningDemo P_TurningRun Properties_Reproduction.
Set Bullet Behavior "Strict Subproofs".
Local Open Scope R_scope.

Lemma sum_border N (G : nat -> R) a b : (2 <= N)%nat ->
  (forall k, (k <= N)%nat -> Rabs (G k) <= a) ->
  (forall k, (2 <= k)%nat -> (k + 2 <= N)%nat -> Rabs (G k) <= b) ->
  rsum (S N) (fun k => G k ^ 2) <= 4 * a ^ 2 + INR (S N) * b ^ 2.
Proof.
  intros HN GA GI. assert (HA1 : 0 <= b ^ 2) by apply pow2_ge_0. assert (HA0 : 0 <= a ^ 2) by apply pow2_ge_0.
  set (e := fun i k : nat => if Nat.eqb k i then a ^ 2 else 0).
  apply Rle_trans with (rsum (S N) (fun k => e 0%nat k + e 1%nat k + e (N - 1)%nat k + e N k + b ^ 2)).
  - apply rsum_le. intros k Hk.
    assert (P : forall i, 0 <= e i k) by (intros i; unfold e; destruct (Nat.eqb k i); lra).
    assert (S0 : forall b, Rabs (G k) <= b -> G k ^ 2 <= b ^ 2).
    { intros b0 Hb. rewrite <- (pow2_abs (G k)). apply pow_incr. split; [apply Rabs_pos|auto]. }
    pose proof (P 0%nat). pose proof (P 1%nat). pose proof (P (N - 1)%nat). pose proof (P N).
    destruct (Nat.eq_dec k 0) as [E|]; [assert (e 0%nat k = a ^ 2) by (unfold e; now rewrite E)|].
    { specialize (S0 _ (GA k ltac:(lia))). lra. }
    destruct (Nat.eq_dec k 1) as [E|]; [assert (e 1%nat k = a ^ 2) by (unfold e; now rewrite E)|].
    { specialize (S0 _ (GA k ltac:(lia))). lra. }
    destruct (Nat.eq_dec k (N - 1)) as [E|]; [assert (e (N - 1)%nat k = a ^ 2) by (unfold e; now rewrite E, Nat.eqb_refl)|].
    { specialize (S0 _ (GA k ltac:(lia))). lra. }
    destruct (Nat.eq_dec k N) as [E|]; [assert (e N k = a ^ 2) by (unfold e; now rewrite E, Nat.eqb_refl)|].
    { specialize (S0 _ (GA k ltac:(lia))). lra. }
    specialize (S0 _ (GI k ltac:(lia) ltac:(lia))). lra.
  - rewrite !rsum_plus, rsum_const.
    pose proof (rsum_single (S N) 0 (a ^ 2) HA0). pose proof (rsum_single (S N) 1 (a ^ 2) HA0).
    pose proof (rsum_single (S N) (N - 1) (a ^ 2) HA0). pose proof (rsum_single (S N) N (a ^ 2) HA0).
    unfold e. lra.
Qed.

Definition regress_const (tau A : R) : R := 48 * A ^ 2 + 216 * tau ^ 2 * A ^ 2 + 216 * tau * A ^ 2 + 8 * tau + 2.

Lemma regress_const_pos tau A : 0 < tau -> 0 <= regress_const tau A.
Proof.
  intros H. unfold regress_const. pose proof (pow2_ge_0 A). pose proof (pow2_ge_0 tau).
  assert (0 <= tau ^ 2 * A ^ 2) by (apply Rmult_le_pos; auto). assert (0 <= tau * A ^ 2) by (apply Rmult_le_pos; lra). lra.
Qed.

Lemma regress_mean tau A K h eps r nw N X (F : nat -> vec) lam d (w : vec) (req G : nat -> R) :
  0 < tau -> 0 < h -> 0 <= A -> 0 <= K -> 0 <= lam -> (2 <= N)%nat -> INR N * h = tau ->
  (forall k, (k <= N)%nat -> F k d = req k + G k) ->
  (forall k, (k <= N)%nat -> Rabs (req k - rsum nw (fun i => w i * X i k)) <= eps) ->
  (forall k, (k <= N)%nat -> Rabs (G k) <= A + A * h + A * K) ->
  (forall k, (2 <= k)%nat -> (k + 2 <= N)%nat -> Rabs (G k) <= A * h + A * K) ->
  h + eps ^ 2 + lam * h * rsum nw (fun i => w i ^ 2) + K ^ 2 <= r ^ 2 ->
  rsum (S N) (fun k => h * (rsum nw (fun i => ridge_regression nw (S N) X F lam d i * X i k) - req k) ^ 2)
  <= regress_const tau A * r ^ 2.
Proof.
  intros Htau Hh HA HK Hlam HN HNh EF Heps GA GI Hr.
  assert (HN1 : 1 <= INR N) by (apply (le_INR 1); lia). assert (Hht : h <= tau) by nra.
  set (W := rsum nw (fun i => w i ^ 2)) in *.
  assert (HW : 0 <= W) by (apply rsum_nonneg; intros; apply pow2_ge_0).
  set (fr := fun k => rsum nw (fun i => ridge_regression nw (S N) X F lam d i * X i k)).
  set (fs := fun k => rsum nw (fun i => w i * X i k)) in *.
  pose proof (ridge_column nw (S N) X F lam d w Hlam) as RC. fold W in RC.
  assert (Q1 : rsum (S N) (fun s => (F s d - fs s) ^ 2)
     <= 2 * rsum (S N) (fun k => G k ^ 2) + INR (S N) * (2 * eps ^ 2)).
  { rewrite <- rsum_scal, <- rsum_const, <- rsum_plus. apply rsum_le. intros k Hk.
    rewrite EF by lia. replace (req k + G k - fs k) with (G k + (req k - fs k)) by ring.
    eapply Rle_trans; [apply sum_sq|]. apply Rplus_le_compat_l. apply Rmult_le_compat_l; [lra|].
    rewrite <- (pow2_abs (_ - _)). apply pow_incr. split; [apply Rabs_pos|]. apply Heps. lia. }
  assert (Q2 : rsum (S N) (fun k => (fr k - req k) ^ 2)
     <= 2 * rsum (S N) (fun s => (F s d - fr s) ^ 2) + 2 * rsum (S N) (fun k => G k ^ 2)).
  { rewrite <- !rsum_scal, <- rsum_plus. apply rsum_le. intros k Hk.
    replace (fr k - req k) with (- (F k d - fr k) + G k) by (rewrite EF by lia; ring).
    eapply Rle_trans; [apply sum_sq|]. apply Req_le. ring. }
  assert (Q3 : rsum (S N) (fun s => (F s d - fr s) ^ 2) <= rsum (S N) (fun s => (F s d - fs s) ^ 2) + lam * W) by exact RC.
  pose proof (sum_border N G _ _ HN GA GI) as Q5.
  set (S1 := rsum (S N) (fun k => G k ^ 2)) in *.
  change (rsum (S N) (fun k => h * (fr k - req k) ^ 2) <= regress_const tau A * r ^ 2). rewrite rsum_scal.
  set (S2 := rsum (S N) (fun k => (fr k - req k) ^ 2)) in *.
  assert (Q4 : S2 <= 6 * S1 + 4 * INR (S N) * eps ^ 2 + 2 * (lam * W)) by lra.
  assert (HSN : INR (S N) * h <= 2 * tau) by (rewrite S_INR; lra).
  assert (HSN1 : 1 <= INR (S N)) by (apply (le_INR 1); lia).
  assert (PA2 : 0 <= A ^ 2) by apply pow2_ge_0. assert (PK2 : 0 <= K ^ 2) by apply pow2_ge_0.
  assert (Pe2 : 0 <= eps ^ 2) by apply pow2_ge_0.
  assert (Hb : (A * h + A * K) ^ 2 <= A ^ 2 * (2 * tau * h + 2 * K ^ 2)).
  { eapply Rle_trans; [apply sum_sq|]. assert (h ^ 2 <= tau * h) by nra.
    assert (A ^ 2 * h ^ 2 <= A ^ 2 * (tau * h)) by (apply Rmult_le_compat_l; auto).
    replace ((A * h) ^ 2) with (A ^ 2 * h ^ 2) by ring. replace ((A * K) ^ 2) with (A ^ 2 * K ^ 2) by ring. lra. }
  set (b2 := (A * h + A * K) ^ 2) in *. assert (Pb2 : 0 <= b2) by apply pow2_ge_0.
  assert (Ha : (A + A * h + A * K) ^ 2 <= 2 * A ^ 2 + 2 * b2).
  { replace (A + A * h + A * K) with (A + (A * h + A * K)) by ring. apply sum_sq. }
  assert (P1 : h * S1 <= 8 * A ^ 2 * h + 18 * tau * b2).
  { apply Rle_trans with (h * (8 * A ^ 2 + 9 * (INR (S N) * b2))).
    - apply Rmult_le_compat_l; [lra|]. assert (1 * b2 <= INR (S N) * b2) by (apply Rmult_le_compat_r; auto). lra.
    - replace (h * (8 * A ^ 2 + 9 * (INR (S N) * b2))) with (8 * A ^ 2 * h + 9 * (INR (S N) * h * b2)) by ring.
      assert (INR (S N) * h * b2 <= 2 * tau * b2) by (apply Rmult_le_compat_r; auto). lra. }
  assert (P2 : h * (INR (S N) * eps ^ 2) <= 2 * tau * eps ^ 2).
  { replace (h * (INR (S N) * eps ^ 2)) with (INR (S N) * h * eps ^ 2) by ring. apply Rmult_le_compat_r; auto. }
  assert (P3 : tau * b2 <= tau * (A ^ 2 * (2 * tau * h + 2 * K ^ 2))) by (apply Rmult_le_compat_l; lra).
  assert (P4 : h * S2 <= h * (6 * S1 + 4 * INR (S N) * eps ^ 2 + 2 * (lam * W))) by (apply Rmult_le_compat_l; lra).
  apply Rle_trans with (regress_const tau A * (h + eps ^ 2 + lam * h * W + K ^ 2)).
  2:{ apply Rmult_le_compat_l; auto. now apply regress_const_pos. }
  assert (PlW : 0 <= lam * h * W) by pos_mul.
  unfold regress_const. set (u1 := 48 * A ^ 2). set (u2 := 216 * tau ^ 2 * A ^ 2). set (u3 := 216 * tau * A ^ 2).
  assert (0 <= u1) by (unfold u1; lra). assert (0 <= u2) by (unfold u2; pose proof (pow2_ge_0 tau); pos_mul).
  assert (0 <= u3) by (unfold u3; pos_mul).
  apply Rle_trans with (u1 * h + u2 * h + u3 * K ^ 2 + 8 * tau * eps ^ 2 + 2 * (lam * h * W)).
  - unfold u1, u2, u3. lra.
  - set (e2 := eps ^ 2) in *. set (lw := lam * h * W) in *. set (k2 := K ^ 2) in *. clearbody u1 u2 u3 e2 lw k2.
    clear - H H0 H1 Htau Hh Pe2 PlW PK2.
    assert (0 <= (u1 + u2) * e2) by pos_mul. assert (0 <= (u1 + u2) * lw) by pos_mul.
    assert (0 <= (u1 + u2) * k2) by pos_mul. assert (0 <= u3 * h) by pos_mul. assert (0 <= u3 * e2) by pos_mul.
    assert (0 <= u3 * lw) by pos_mul. assert (0 <= tau * h) by pos_mul. assert (0 <= tau * lw) by pos_mul.
    assert (0 <= tau * k2) by pos_mul. lra.
Qed.

(** The forces that imitation computes. *)
Lemma forces_entry N T Y al be az allow sm qf : (1 <= N)%nat ->
  determine_forces_quaternion (S N) T Y al be az allow sm = Ok qf -> forall k,
  let W := demo_w N T Y allow in
  let x := T N - T 0%nat in
  qf_F qf k = v3_sub (v3_scale (x ^ 2) (V3 (demo_a N T (fun k => v3x (W k)) k) (demo_a N T (fun k => v3y (W k)) k)
                                            (demo_a N T (fun k => v3z (W k)) k)))
    (v3_mul al (v3_sub (v3_sub (v3_mul be (q_error Python (Y N) (Y k))) (v3_scale x (W k)))
       (if sm then v3_mul (v3_scale (phase (T k) az (T N) (T 0%nat)) be) (q_error Python (Y N) (Y 0%nat)) else v3_zero))).
Proof.
  intros HN E k. unfold determine_forces_quaternion in E. destruct (Nat.ltb_spec (S N) 2); [lia|].
  cbv zeta in E. replace (S N - 1)%nat with N in E by lia. injection E as <-. cbn [qf_F]. cbv zeta.
  unfold demo_a, demo_w. replace (S N - 1)%nat with N by lia. destruct (Nat.eqb k N); reflexivity.
Qed.

(** Unit quaternions with the same rotation. *)
Lemma same_rotation p r : unit_quat p -> unit_quat r -> (forall x, rotate p x = rotate r x) -> same_orientation p r.
Proof.
  intros Hp Hr H. set (d := hamilton p (cy_conj r)).
  assert (Ud : unit_quat d) by (apply hamilton_unit; auto using cy_conj_unit).
  assert (I : forall x, rotate d x = x).
  { intros x. unfold d. rewrite rotate_hamilton by auto using cy_conj_unit. rewrite H.
    rewrite <- rotate_hamilton by auto using cy_conj_unit. rewrite conj_r by auto. apply rotate_one. }
  assert (Ep : p = hamilton d r).
  { unfold d. rewrite hamilton_assoc, conj_l by auto. destruct p; apply quat_eq; cbn; ring. }
  pose proof (I (V3 1 0 0)) as I1. pose proof (I (V3 0 1 0)) as I2. clear I.
  destruct d as [dw dx dy dz]. unfold unit_quat in Ud. cbn in Ud, I1, I2.
  injection I1 as I1 _ _. injection I2 as _ I2 _.
  assert (dx = 0 /\ dy = 0 /\ dz = 0) as (-> & -> & ->) by (repeat split; nra).
  assert (D : (dw - 1) * (dw + 1) = 0) by lra. apply Rmult_integral in D. destruct D as [D|D].
  - left. rewrite Ep. replace dw with 1 by lra. destruct r; apply quat_eq; cbn; ring.
  - right. rewrite Ep. replace dw with (-1) by lra. destruct r; apply quat_eq; cbn; ring.
Qed.

Lemma turned_exp u p r : unit_quat p -> unit_quat r -> turned_by u p r ->
  same_orientation (cy_exp u) (hamilton p (cy_conj r)).
Proof.
  intros Hp Hr (axis & Ha & Eu & HR).
  apply same_rotation; [apply cy_exp_unit|apply hamilton_unit; auto using cy_conj_unit|].
  intros x. rewrite rotate_hamilton by auto using cy_conj_unit. rewrite HR.
  rewrite <- rotate_hamilton, conj_r, rotate_one by auto using cy_conj_unit.
  rewrite Eu at 1. rewrite cy_exp_axis by auto. now rewrite rotate_axis.
Qed.
