(** Finite differences of sampled demonstrations, and the Euler method with
    inputs whose errors are small in the mean. *)
From Coq Require Import Reals List Arith Bool Lia Lra.
From Coquelicot Require Import Coquelicot.
From Verif Require Import M_Prelude M_Dmp P_Loops P_Ode.
Set Bullet Behavior "Strict Subproofs".
Local Open Scope R_scope.

Lemma rsum_single n i c : 0 <= c -> rsum n (fun k => if Nat.eqb k i then c else 0) <= c.
Proof.
  intros Hc. induction n as [|n IH]; cbn [rsum]; [lra|].
  destruct (Nat.eqb_spec n i) as [->|]; [|lra].
  rewrite rsum_0; [lra|]. intros k Hk. destruct (Nat.eqb_spec k i); [lia|reflexivity].
Qed.

Lemma rsum_shift n (f : nat -> R) : rsum (S n) f = f 0%nat + rsum n (fun k => f (S k)).
Proof. induction n as [|n IH]; cbn [rsum] in *; [ring|]. rewrite IH. ring. Qed.

Lemma rsum_mono n m (f : nat -> R) : (n <= m)%nat -> (forall k, 0 <= f k) -> rsum n f <= rsum m f.
Proof. intros H Hf. induction H as [|m H IH]; [lra|]. cbn [rsum]. specialize (Hf m). lra. Qed.

Lemma gronwall_sum K h (E r : nat -> R) : 0 <= K -> 0 <= h -> (forall k, 0 <= r k) ->
  forall n, E 0%nat <= 0 -> (forall k, (k < n)%nat -> E (S k) <= (1 + h * K) * E k + r (S k)) ->
  forall k, (k <= n)%nat -> E k <= exp (K * (INR k * h)) * rsum k (fun j => r (S j)).
Proof.
  intros HK Hh Hr n E0 HS. induction k as [|k IH]; intros Hk.
  - cbn [rsum]. rewrite Rmult_0_r. exact E0.
  - specialize (IH ltac:(lia)). specialize (HS k ltac:(lia)). cbn [rsum]. rewrite S_INR.
    replace (K * ((INR k + 1) * h)) with (h * K + K * (INR k * h)) by ring. rewrite exp_plus.
    assert (HhK : 0 <= h * K) by (apply Rmult_le_pos; auto).
    pose proof (exp_ineq1_le (h * K)) as H1. pose proof (exp_pos (K * (INR k * h))) as P1.
    assert (Hge : 1 <= exp (K * (INR k * h))).
    { assert (H0 : 0 <= K * (INR k * h)) by (apply Rmult_le_pos; auto; apply Rmult_le_pos; auto; apply pos_INR).
      pose proof (exp_ineq1_le (K * (INR k * h))). lra. }
    set (e1 := exp (h * K)) in *. set (e2 := exp (K * (INR k * h))) in *.
    set (S := rsum k (fun j => r (Datatypes.S j))) in *.
    assert (HS0 : 0 <= S) by (apply rsum_nonneg; auto).
    specialize (Hr (Datatypes.S k)). set (x := r (Datatypes.S k)) in *.
    assert (A1 : (1 + h * K) * E k <= (1 + h * K) * (e2 * S)) by (apply Rmult_le_compat_l; lra).
    assert (A2 : (1 + h * K) * (e2 * S) <= e1 * (e2 * S))
      by (apply Rmult_le_compat_r; [apply Rmult_le_pos|]; lra).
    assert (A3 : 1 <= e1 * e2) by (apply Rle_trans with (1 * 1); [lra|apply Rmult_le_compat; lra]).
    assert (A4 : 1 * x <= e1 * e2 * x) by (apply Rmult_le_compat_r; lra).
    lra.
Qed.

Section Demonstration.
Variables (y v a : R -> R) (tau L B : R).
Hypothesis Htau : 0 < tau.
Hypothesis HL : 0 <= L.
Hypothesis HB : 0 <= B.
Hypothesis Dy : forall t, 0 <= t <= tau -> is_derive y t (v t).
Hypothesis Dv : forall t, 0 <= t <= tau -> is_derive v t (a t).
Hypothesis La : forall s t, 0 <= s <= tau -> 0 <= t <= tau -> Rabs (a s - a t) <= L * Rabs (s - t).
Hypothesis Ba : forall t, 0 <= t <= tau -> Rabs (a t) <= B.

Lemma between s t x : 0 <= s <= tau -> 0 <= t <= tau -> Rmin t s <= x <= Rmax t s ->
  0 <= x <= tau /\ Rabs (x - t) <= Rabs (s - t).
Proof.
  intros Hs Ht. unfold Rmin, Rmax. destruct (Rle_dec t s); intros Hx.
  - split; [lra|]. rewrite !Rabs_pos_eq; lra.
  - split; [lra|]. rewrite !Rabs_left1; lra.
Qed.

Lemma taylor1 (f df : R -> R) M : 0 <= M -> (forall t, 0 <= t <= tau -> is_derive f t (df t)) ->
  (forall s t, 0 <= s <= tau -> 0 <= t <= tau -> Rabs (df s - df t) <= M * Rabs (s - t)) ->
  forall s t, 0 <= s <= tau -> 0 <= t <= tau -> Rabs (f s - f t - (s - t) * df t) <= M * (s - t) ^ 2.
Proof.
  intros HM Hd Hl s t Hs Ht.
  destruct (MVT_gen f t s df) as (c & Hc & E).
  - intros x Hx. apply Hd. apply (between s t x Hs Ht). lra.
  - intros x Hx. apply derivable_continuous_pt. exists (df x). apply is_derive_Reals. apply Hd. now apply (between s t x Hs Ht).
  - destruct (between s t c Hs Ht Hc) as [Hc1 Hc2].
    rewrite E. replace (df c * (s - t) - (s - t) * df t) with ((df c - df t) * (s - t)) by ring.
    rewrite Rabs_mult. replace (M * (s - t) ^ 2) with ((M * Rabs (s - t)) * Rabs (s - t)).
    + apply Rmult_le_compat_r; [apply Rabs_pos|]. eapply Rle_trans; [apply Hl; auto|].
      apply Rmult_le_compat_l; auto.
    + rewrite Rmult_assoc, <- Rabs_mult, Rabs_pos_eq by (apply Rle_0_sqr). ring.
Qed.

Lemma lip_v s t : 0 <= s <= tau -> 0 <= t <= tau -> Rabs (v s - v t) <= B * Rabs (s - t).
Proof. intros Hs Ht. apply (derive_lip tau v a B); auto. Qed.

Lemma taylor_y s t : 0 <= s <= tau -> 0 <= t <= tau -> Rabs (y s - y t - (s - t) * v t) <= B * (s - t) ^ 2.
Proof. apply (taylor1 y v B); auto. intros; now apply lip_v. Qed.

Lemma taylor_v s t : 0 <= s <= tau -> 0 <= t <= tau -> Rabs (v s - v t - (s - t) * a t) <= L * (s - t) ^ 2.
Proof. apply (taylor1 v a L); auto. Qed.

Lemma taylor2 s t : 0 <= s <= tau -> 0 <= t <= tau ->
  Rabs (y s - y t - (s - t) * v t - (s - t) ^ 2 / 2 * a t) <= L * Rabs (s - t) ^ 3.
Proof.
  intros Hs Ht.
  set (f := fun x => y x - (x - t) * v t - (x - t) ^ 2 / 2 * a t).
  set (df := fun x => v x - v t - (x - t) * a t).
  assert (Hd : forall x, 0 <= x <= tau -> is_derive f x (df x)).
  { intros x Hx. unfold f, df. auto_derive.
    - exists (v x). now apply Dy.
    - replace (Derive (fun x0 : R => y x0) x) with (v x) by (symmetry; apply is_derive_unique; now apply Dy). field. }
  destruct (MVT_gen f t s df) as (c & Hc & E).
  - intros x Hx. apply Hd. apply (between s t x Hs Ht). lra.
  - intros x Hx. apply derivable_continuous_pt. exists (df x). apply is_derive_Reals. apply Hd. now apply (between s t x Hs Ht).
  - destruct (between s t c Hs Ht Hc) as [Hc1 Hc2].
    replace (y s - y t - (s - t) * v t - (s - t) ^ 2 / 2 * a t) with (f s - f t)
      by (unfold f; rewrite Rminus_eq_0; field).
    rewrite E, Rabs_mult. unfold df.
    replace (L * Rabs (s - t) ^ 3) with ((L * Rabs (s - t) ^ 2) * Rabs (s - t)) by ring.
    apply Rmult_le_compat_r; [apply Rabs_pos|].
    eapply Rle_trans; [now apply taylor_v|]. apply Rmult_le_compat_l; auto.
    rewrite <- (pow2_abs (c - t)). apply pow_incr. split; [apply Rabs_pos|auto].
Qed.

(** ** Samples *)
Variables (N : nat) (d : nat) (allow : bool) (Y : nat -> vec) (T : vec).
Hypothesis HN : (2 <= N)%nat.
Let h : R := tau / INR N.
Hypothesis HT : forall k, T k = INR k * h.
Hypothesis HY : forall k, (k <= N)%nat -> Y k d = y (INR k * h).
Hypothesis Hallow : allow = true \/ v tau = 0.

Let HNpos : 0 < INR N.
Proof. apply lt_0_INR. lia. Qed.
Let Hh : 0 < h.
Proof. unfold h. now apply Rdiv_lt_0_compat. Qed.
Let HNh : INR N * h = tau.
Proof. unfold h. field. lra. Qed.

Lemma time_range k : (k <= N)%nat -> 0 <= INR k * h <= tau.
Proof.
  intros Hk. split; [apply Rmult_le_pos; [apply pos_INR|lra]|].
  rewrite <- HNh. apply Rmult_le_compat_r; [lra|]. now apply le_INR.
Qed.

Lemma gradient_T k : np_gradient (S N) T k = h.
Proof.
  unfold np_gradient. rewrite !HT. destruct (Nat.eqb_spec k 0); [simpl; ring|].
  destruct (Nat.eqb_spec k (S N - 1)).
  - replace (S N - 1)%nat with (S (N - 1)) by lia. replace (S N - 2)%nat with (N - 1)%nat by lia. rewrite S_INR. ring.
  - rewrite plus_INR, minus_INR by lia. simpl. field.
Qed.

Lemma div_le x b : Rabs x <= b * h -> Rabs (x / h) <= b.
Proof.
  intros H. unfold Rdiv. rewrite Rabs_mult, Rabs_inv, (Rabs_pos_eq h) by lra.
  apply Rmult_le_reg_r with h; auto. rewrite Rmult_assoc, Rinv_l by lra. lra.
Qed.

Notation W := (demo_velocity (S N) T Y allow).
Notation A := (demo_acceleration (S N) T W).

Lemma velocity_sample k : (k <= N)%nat -> Rabs (W k d - v (INR k * h)) <= B * h.
Proof.
  intros Hk. unfold demo_velocity. rewrite gradient_T.
  pose proof (time_range k Hk) as Hkt.
  destruct (Nat.eqb_spec k (S N - 1)) as [Ek|Ek].
  - assert (k = N) by lia. clear Ek. subst k.
    destruct allow; cbn [negb andb].
    + unfold np_gradient. destruct (Nat.eqb_spec N 0); [lia|].
      destruct (Nat.eqb_spec N (S N - 1)); [|lia].
      replace (S N - 1)%nat with N by lia. replace (S N - 2)%nat with (N - 1)%nat by lia.
      rewrite !HY by lia.
      assert (E1 : INR (N - 1) * h = INR N * h - h) by (rewrite minus_INR by lia; simpl; ring).
      pose proof (time_range (N - 1) ltac:(lia)) as H1. rewrite E1 in *.
      pose proof (taylor_y (INR N * h - h) (INR N * h) H1 Hkt) as TT.
      replace (INR N * h - h - INR N * h) with (- h) in TT by ring.
      replace ((y (INR N * h) - y (INR N * h - h)) / h - v (INR N * h))
        with (- (y (INR N * h - h) - y (INR N * h) - - h * v (INR N * h)) / h) by (field; lra).
      apply div_le. rewrite Rabs_Ropp. lra.
    + destruct Hallow as [|Hv]; [discriminate|]. rewrite HNh, Hv, Rminus_0_r, Rabs_R0.
      apply Rmult_le_pos; lra.
  - rewrite andb_false_r. unfold np_gradient. destruct (Nat.eqb_spec k 0) as [->|Hk0].
    + rewrite !HY by lia. pose proof (time_range 1 ltac:(lia)) as H1. simpl INR in *.
      pose proof (taylor_y (1 * h) (0 * h) H1 Hkt) as TT.
      replace ((y (1 * h) - y (0 * h)) / h - v (0 * h))
        with ((y (1 * h) - y (0 * h) - (1 * h - 0 * h) * v (0 * h)) / h) by (field; lra).
      apply div_le. lra.
    + destruct (Nat.eqb_spec k (S N - 1)); [contradiction|]. rewrite !HY by lia.
      assert (E1 : INR (k + 1) * h = INR k * h + h) by (rewrite plus_INR; simpl; ring).
      assert (E2 : INR (k - 1) * h = INR k * h - h) by (rewrite minus_INR by lia; simpl; ring).
      pose proof (time_range (k + 1) ltac:(lia)) as H1. pose proof (time_range (k - 1) ltac:(lia)) as H2.
      rewrite E1, E2 in *. set (t := INR k * h) in *.
      pose proof (taylor_y (t + h) t H1 Hkt) as T1. pose proof (taylor_y (t - h) t H2 Hkt) as T2.
      replace (t + h - t) with h in T1 by ring. replace (t - h - t) with (- h) in T2 by ring.
      replace ((y (t + h) - y (t - h)) / 2 / h - v t)
        with (((y (t + h) - y t - h * v t) + - (y (t - h) - y t - - h * v t)) / 2 / h) by (field; lra).
      apply div_le. unfold Rdiv. rewrite Rabs_mult, (Rabs_pos_eq (/ 2)) by lra.
      pose proof (Rabs_triang (y (t + h) - y t - h * v t) (- (y (t - h) - y t - - h * v t))) as T3.
      rewrite Rabs_Ropp in T3. lra.
Qed.

Lemma acceleration_sample k : (k <= N)%nat -> Rabs (A k d) <= 3 * B.
Proof.
  intros Hk. unfold demo_acceleration. rewrite gradient_T.
  destruct (Nat.eqb_spec k (S N - 1)) as [Ek|Ek]; [rewrite Rabs_R0; lra|].
  assert (D : forall i j, (i <= N)%nat -> (j <= N)%nat -> Rabs (INR i * h - INR j * h) <= 2 * h ->
     Rabs (W i d - W j d) <= 2 * (B * h) + B * Rabs (INR i * h - INR j * h)).
  { intros i j Hi Hj _. pose proof (velocity_sample i Hi) as V1. pose proof (velocity_sample j Hj) as V2.
    pose proof (lip_v (INR i * h) (INR j * h) (time_range i Hi) (time_range j Hj)) as V3.
    replace (W i d - W j d) with ((W i d - v (INR i * h)) + (- (W j d - v (INR j * h))
      + (v (INR i * h) - v (INR j * h)))) by ring.
    eapply Rle_trans; [apply Rabs_triang|].
    pose proof (Rabs_triang (- (W j d - v (INR j * h))) (v (INR i * h) - v (INR j * h))) as V4.
    rewrite Rabs_Ropp in V4. lra. }
  unfold np_gradient at 1. destruct (Nat.eqb_spec k 0) as [->|Hk0].
  - apply div_le. specialize (D 1%nat 0%nat ltac:(lia) ltac:(lia)). simpl INR in D.
    replace (1 * h - 0 * h) with h in D by ring. rewrite (Rabs_pos_eq h) in D by lra. specialize (D ltac:(lra)). lra.
  - destruct (Nat.eqb_spec k (S N - 1)); [contradiction|].
    apply div_le. unfold Rdiv. rewrite Rabs_mult, (Rabs_pos_eq (/ 2)) by lra.
    specialize (D (k + 1)%nat (k - 1)%nat ltac:(lia) ltac:(lia)).
    replace (INR (k + 1) * h - INR (k - 1) * h) with (2 * h) in D
      by (rewrite plus_INR, minus_INR by lia; simpl; ring).
    rewrite (Rabs_pos_eq (2 * h)) in D by lra. specialize (D ltac:(lra)).
    assert (0 <= B * h) by (apply Rmult_le_pos; lra). lra.
Qed.

Lemma acceleration_inside k : (2 <= k)%nat -> (k + 2 <= N)%nat -> Rabs (A k d - a (INR k * h)) <= 4 * L * h.
Proof.
  intros Hk1 Hk2. unfold demo_acceleration. rewrite gradient_T.
  destruct (Nat.eqb_spec k (S N - 1)); [lia|].
  assert (E : forall j, (0 < j)%nat -> (j < N)%nat -> W j d = (y (INR j * h + h) - y (INR j * h - h)) / 2 / h).
  { intros j Hj1 Hj2. unfold demo_velocity. rewrite gradient_T.
    destruct (Nat.eqb_spec j (S N - 1)); [lia|]. rewrite andb_false_r. unfold np_gradient.
    destruct (Nat.eqb_spec j 0); [lia|]. destruct (Nat.eqb_spec j (S N - 1)); [lia|]. rewrite !HY by lia.
    rewrite plus_INR, minus_INR by lia. simpl.
    replace ((INR j + 1) * h) with (INR j * h + h) by ring. now replace ((INR j - 1) * h) with (INR j * h - h) by ring. }
  unfold np_gradient at 1. destruct (Nat.eqb_spec k 0); [lia|]. destruct (Nat.eqb_spec k (S N - 1)); [lia|].
  rewrite !E by lia.
  replace (INR (k + 1) * h + h) with (INR k * h + 2 * h) by (rewrite plus_INR; simpl; ring).
  replace (INR (k + 1) * h - h) with (INR k * h) by (rewrite plus_INR; simpl; ring).
  replace (INR (k - 1) * h + h) with (INR k * h) by (rewrite minus_INR by lia; simpl; ring).
  replace (INR (k - 1) * h - h) with (INR k * h - 2 * h) by (rewrite minus_INR by lia; simpl; ring).
  pose proof (time_range (k + 2) ltac:(lia)) as H1. pose proof (time_range (k - 2) ltac:(lia)) as H2.
  rewrite plus_INR in H1. rewrite minus_INR in H2 by lia. simpl INR in H1, H2.
  pose proof (time_range k ltac:(lia)) as Ht. set (t := INR k * h) in *.
  replace ((INR k + (1 + 1)) * h) with (t + 2 * h) in H1 by (unfold t; ring).
  replace ((INR k - (1 + 1)) * h) with (t - 2 * h) in H2 by (unfold t; ring).
  pose proof (taylor2 (t + 2 * h) t H1 Ht) as T1. pose proof (taylor2 (t - 2 * h) t H2 Ht) as T2.
  replace (t + 2 * h - t) with (2 * h) in T1 by ring. replace (t - 2 * h - t) with (- (2 * h)) in T2 by ring.
  rewrite Rabs_Ropp in T2. rewrite (Rabs_pos_eq (2 * h)) in T1, T2 by lra.
  set (r1 := y (t + 2 * h) - y t - 2 * h * v t - (2 * h) ^ 2 / 2 * a t) in *.
  set (r2 := y (t - 2 * h) - y t - - (2 * h) * v t - (- (2 * h)) ^ 2 / 2 * a t) in *.
  replace (((y (t + 2 * h) - y t) / 2 / h - (y t - y (t - 2 * h)) / 2 / h) / 2 / h - a t)
    with ((r1 + r2) / (4 * h) / h) by (unfold r1, r2; field; lra).
  apply div_le. unfold Rdiv. rewrite Rabs_mult, Rabs_inv, (Rabs_pos_eq (4 * h)) by lra.
  apply Rmult_le_reg_r with (4 * h); [lra|]. rewrite Rmult_assoc, Rinv_l by lra.
  pose proof (Rabs_triang r1 r2). nra.
Qed.

(** The errors of the forces. *)
Variable alpha : R.
Let G (k : nat) : R := tau ^ 2 * (A k d - a (INR k * h)) + alpha * tau * (W k d - v (INR k * h)).

Lemma force_errors : rsum (S N) (fun k => G k ^ 2)
  <= 4 * (4 * tau ^ 2 * B + Rabs alpha * tau * (B * tau)) ^ 2
     + INR (S N) * ((4 * tau ^ 2 * L + Rabs alpha * tau * B) * h) ^ 2.
Proof.
  set (A0 := 4 * tau ^ 2 * B + Rabs alpha * tau * (B * tau)).
  set (A1 := (4 * tau ^ 2 * L + Rabs alpha * tau * B) * h).
  assert (Hht : h <= tau).
  { rewrite <- HNh. assert (1 <= INR N) by (apply (le_INR 1); lia). nra. }
  pose proof (Rabs_pos alpha) as Pa.
  assert (Pat : 0 <= Rabs alpha * tau) by (apply Rmult_le_pos; lra).
  assert (Pt2 : 0 <= tau ^ 2) by nra.
  assert (G0 : forall k, Rabs (G k) <= tau ^ 2 * Rabs (A k d - a (INR k * h)) + Rabs alpha * tau * Rabs (W k d - v (INR k * h))).
  { intros k. unfold G. eapply Rle_trans; [apply Rabs_triang|]. rewrite !Rabs_mult.
    rewrite (Rabs_pos_eq (tau ^ 2)), (Rabs_pos_eq tau) by lra. lra. }
  assert (GA : forall k, (k <= N)%nat -> Rabs (G k) <= A0).
  { intros k Hk. eapply Rle_trans; [apply G0|]. unfold A0.
    pose proof (velocity_sample k Hk) as V1. pose proof (acceleration_sample k Hk) as V2.
    pose proof (Ba (INR k * h) (time_range k Hk)) as V3.
    assert (V4 : Rabs (A k d - a (INR k * h)) <= 4 * B).
    { unfold Rminus. eapply Rle_trans; [apply Rabs_triang|]. rewrite Rabs_Ropp. lra. }
    assert (V5 : B * h <= B * tau) by (apply Rmult_le_compat_l; lra).
    apply Rplus_le_compat.
    - replace (4 * tau ^ 2 * B) with (tau ^ 2 * (4 * B)) by ring. apply Rmult_le_compat_l; lra.
    - apply Rmult_le_compat_l; lra. }
  assert (GI : forall k, (2 <= k)%nat -> (k + 2 <= N)%nat -> Rabs (G k) <= A1).
  { intros k Hk1 Hk2. eapply Rle_trans; [apply G0|]. unfold A1.
    pose proof (velocity_sample k ltac:(lia)) as V1. pose proof (acceleration_inside k Hk1 Hk2) as V2.
    assert (tau ^ 2 * Rabs (A k d - a (INR k * h)) <= tau ^ 2 * (4 * L * h)) by (apply Rmult_le_compat_l; lra).
    assert (Rabs alpha * tau * Rabs (W k d - v (INR k * h)) <= Rabs alpha * tau * (B * h)) by (apply Rmult_le_compat_l; lra).
    lra. }
  assert (HA1 : 0 <= A1 ^ 2) by apply pow2_ge_0. assert (HA0 : 0 <= A0 ^ 2) by apply pow2_ge_0.
  set (e := fun i k : nat => if Nat.eqb k i then A0 ^ 2 else 0).
  apply Rle_trans with (rsum (S N) (fun k => e 0%nat k + e 1%nat k + e (N - 1)%nat k + e N k + A1 ^ 2)).
  - apply rsum_le. intros k Hk.
    assert (P : forall i, 0 <= e i k) by (intros i; unfold e; destruct (Nat.eqb k i); lra).
    assert (S0 : forall b, Rabs (G k) <= b -> G k ^ 2 <= b ^ 2).
    { intros b Hb. rewrite <- (pow2_abs (G k)). apply pow_incr. split; [apply Rabs_pos|auto]. }
    pose proof (P 0%nat). pose proof (P 1%nat). pose proof (P (N - 1)%nat). pose proof (P N).
    destruct (Nat.eq_dec k 0) as [E|]; [assert (e 0%nat k = A0 ^ 2) by (unfold e; now rewrite E)|].
    { specialize (S0 _ (GA k ltac:(lia))). lra. }
    destruct (Nat.eq_dec k 1) as [E|]; [assert (e 1%nat k = A0 ^ 2) by (unfold e; now rewrite E)|].
    { specialize (S0 _ (GA k ltac:(lia))). lra. }
    destruct (Nat.eq_dec k (N - 1)) as [E|]; [assert (e (N - 1)%nat k = A0 ^ 2) by (unfold e; now rewrite E, Nat.eqb_refl)|].
    { specialize (S0 _ (GA k ltac:(lia))). lra. }
    destruct (Nat.eq_dec k N) as [E|]; [assert (e N k = A0 ^ 2) by (unfold e; now rewrite E, Nat.eqb_refl)|].
    { specialize (S0 _ (GA k ltac:(lia))). lra. }
    specialize (S0 _ (GI k ltac:(lia) ltac:(lia))). lra.
  - rewrite !rsum_plus, rsum_const.
    pose proof (rsum_single (S N) 0 (A0 ^ 2) HA0). pose proof (rsum_single (S N) 1 (A0 ^ 2) HA0).
    pose proof (rsum_single (S N) (N - 1) (A0 ^ 2) HA0). pose proof (rsum_single (S N) N (A0 ^ 2) HA0).
    unfold e. lra.
Qed.

End Demonstration.

(** ** The Euler method *)
Section Euler.
Variables (y v a : R -> R) (p q g tau L : R).
Hypothesis Htau : 0 < tau.
Hypothesis HL : 0 <= L.
Hypothesis Dy : forall t, 0 <= t <= tau -> is_derive y t (v t).
Hypothesis Dv : forall t, 0 <= t <= tau -> is_derive v t (a t).
Hypothesis La : forall s t, 0 <= s <= tau -> 0 <= t <= tau -> Rabs (a s - a t) <= L * Rabs (s - t).

Lemma acceleration_bounded : exists B, 0 <= B /\ forall t, 0 <= t <= tau -> Rabs (a t) <= B.
Proof.
  exists (Rabs (a 0) + L * tau). split.
  { pose proof (Rabs_pos (a 0)). assert (0 <= L * tau) by (apply Rmult_le_pos; lra). lra. }
  intros t Ht. specialize (La t 0 Ht ltac:(lra)). rewrite Rminus_0_r, (Rabs_pos_eq t) in La by lra.
  replace (a t) with (a 0 + (a t - a 0)) by ring. eapply Rle_trans; [apply Rabs_triang|].
  assert (L * t <= L * tau) by (apply Rmult_le_compat_l; lra). lra.
Qed.

(** The input that the demonstration needs. *)
Definition needed (t : R) : R := a t - p * (g - y t) + q * v t.

Lemma euler_mean_err Q : 0 <= Q -> exists C, 0 <= C /\
  forall (N : nat) (Y V e : nat -> R) r, (1 <= N)%nat ->
  let h := tau / INR N in
  Y 0%nat = y 0 -> V 0%nat = v 0 ->
  (forall k, (k < N)%nat ->
     V (S k) = V k + h * (p * (g - Y k) - q * V k + (needed (INR (S k) * h) + e (S k)))
     /\ Y (S k) = Y k + h * V (S k)) ->
  0 < r -> h <= r ^ 2 -> rsum (S N) (fun k => h * e k ^ 2) <= Q * r ^ 2 ->
  forall k, (k <= N)%nat -> Rabs (Y k - y (INR k * h)) + Rabs (V k - v (INR k * h)) <= C * r.
Proof.
  intros HQ. set (u := fun t => needed (Rmin t tau)).
  destruct acceleration_bounded as (B & HB & Ba).
  assert (R0 : forall t, 0 <= t <= tau -> rhs p q g u t (y t) (v t) = a t).
  { intros t Ht. unfold rhs, u, needed. rewrite Rmin_left by lra. ring. }
  assert (Hv : forall t, 0 <= t <= tau -> is_derive v t (rhs p q g u t (y t) (v t))).
  { intros t Ht. rewrite R0 by auto. auto. }
  assert (HU : lipb 0 (2 * tau) u).
  { destruct (derive_bounded tau ltac:(lra) v a Dv) as (Bv & HBv & Hbv).
    destruct (derive_bounded tau ltac:(lra) y v Dy) as (By & HBy & Hby).
    pose proof (derive_lip tau v a B Dv Ba) as Lv. pose proof (derive_lip tau y v Bv Dy Hbv) as Ly.
    assert (Ha : lipb 0 tau a).
    { exists (B + L). split; [lra|]. split.
      - intros t Ht. specialize (Ba t Ht). lra.
      - intros s t Hs Ht. specialize (La s t Hs Ht). pose proof (Rabs_pos (s - t)). nra. }
    assert (Hyl : lipb 0 tau y).
    { exists (By + Bv). split; [lra|]. split.
      - intros t Ht. specialize (Hby t Ht). lra.
      - intros s t Hs Ht. specialize (Ly s t Hs Ht). pose proof (Rabs_pos (s - t)). nra. }
    assert (Hvl : lipb 0 tau v).
    { exists (Bv + B). split; [lra|]. split.
      - intros t Ht. specialize (Hbv t Ht). lra.
      - intros s t Hs Ht. specialize (Lv s t Hs Ht). pose proof (Rabs_pos (s - t)). nra. }
    assert (Hn : lipb 0 tau needed).
    { unfold needed. apply lipb_plus; [|now apply lipb_scal]. apply lipb_minus; auto.
      apply lipb_scal. apply lipb_minus; auto. apply lipb_const. }
    destruct Hn as (M & HM & Bn & Ln). exists M. split; auto.
    assert (Hr : forall t, 0 <= t <= 2 * tau -> 0 <= Rmin t tau <= tau)
      by (intros t Ht; unfold Rmin; destruct (Rle_dec t tau); lra).
    split; [intros t Ht; apply Bn; auto|].
    intros s t Hs Ht. unfold u. eapply Rle_trans; [apply Ln; auto|]. apply Rmult_le_compat_l; auto.
    unfold Rmin. destruct (Rle_dec s tau), (Rle_dec t tau); try lra.
    - rewrite (Rabs_left1 (s - tau)), (Rabs_left1 (s - t)) by lra. lra.
    - rewrite (Rabs_pos_eq (tau - t)), (Rabs_pos_eq (s - t)) by lra. lra.
    - rewrite Rminus_eq_0, Rabs_R0. apply Rabs_pos. }
  destruct (euler_consistent p q g tau u y v ltac:(lra) HU Dy Hv) as (M & HM & CE).
  destruct (one_step p q g tau u y v ltac:(lra) HU Dy Hv M HM) as (K & C & HK & HC & OE).
  exists (exp (K * tau) * (sqrt tau * tau * C + (1 + tau) * (2 * tau + Q))).
  pose proof (exp_pos (K * tau)) as Pe. pose proof (sqrt_pos tau) as Ps.
  assert (Pc : 0 <= sqrt tau * tau * C) by (apply Rmult_le_pos; auto; apply Rmult_le_pos; lra).
  assert (Pc2 : 0 <= (1 + tau) * (2 * tau + Q)) by (apply Rmult_le_pos; lra).
  split; [apply Rmult_le_pos; lra|].
  intros N Y V e r HN h E0 E0' HS Hr Hhr Hsum k Hk.
  assert (HNpos : 0 < INR N) by (apply lt_0_INR; lia).
  assert (Hh : 0 < h) by (unfold h; now apply Rdiv_lt_0_compat).
  assert (HNh : INR N * h = tau) by (unfold h; field; lra).
  assert (HN1 : 1 <= INR N) by (apply (le_INR 1); lia).
  assert (Hht : h <= tau) by nra.
  set (E := fun k => err y v (INR k * h) (Y k) (V k)).
  set (x := fun k => h ^ 2 * C + (1 + tau) * (h * Rabs (e k))).
  assert (Hx : forall k, 0 <= x k).
  { intros j. unfold x. pose proof (Rabs_pos (e j)). apply Rplus_le_le_0_compat.
    - apply Rmult_le_pos; auto. nra.
    - apply Rmult_le_pos; [lra|]. apply Rmult_le_pos; lra. }
  assert (HE : forall j, (j < N)%nat -> E (S j) <= (1 + h * K) * E j + x (S j)).
  { intros j Hj. destruct (HS j Hj) as [SV SY]. unfold E.
    assert (T0 : 0 <= INR j * h) by (apply Rmult_le_pos; [apply pos_INR|lra]).
    assert (Ej : INR (S j) * h = INR j * h + h) by (rewrite S_INR; ring).
    assert (T1 : INR j * h + h <= tau).
    { rewrite <- Ej, <- HNh. apply Rmult_le_compat_r; [lra|]. apply le_INR. lia. }
    pose proof (CE (INR j * h) h (Y j) (V j) T0 Hh T1) as CC. cbv zeta in CC.
    apply OE in CC; auto. rewrite Ej in *.
    set (V' := V j + h * rhs p q g u (INR j * h + h) (Y j) (V j)) in *.
    assert (EV : V (S j) = V' + h * e (S j)).
    { rewrite SV. unfold V', rhs, u. rewrite Rmin_left by lra. ring. }
    assert (EY : Y (S j) = Y j + h * V' + h * (h * e (S j))) by (rewrite SY, EV; ring).
    unfold err at 1. rewrite EY, EV.
    replace (Y j + h * V' + h * (h * e (S j)) - y (INR j * h + h))
      with ((Y j + h * V' - y (INR j * h + h)) + h * (h * e (S j))) by ring.
    replace (V' + h * e (S j) - v (INR j * h + h)) with ((V' - v (INR j * h + h)) + h * e (S j)) by ring.
    pose proof (Rabs_triang (Y j + h * V' - y (INR j * h + h)) (h * (h * e (S j)))) as R1.
    pose proof (Rabs_triang (V' - v (INR j * h + h)) (h * e (S j))) as R2.
    rewrite (Rabs_mult h (h * e (S j))), (Rabs_mult h (e (S j))), !(Rabs_pos_eq h) in R1 by lra.
    rewrite (Rabs_mult h (e (S j))), (Rabs_pos_eq h) in R2 by lra.
    unfold err at 1 in CC. unfold x. pose proof (Rabs_pos (e (S j))) as Pe'.
    assert (0 <= h * Rabs (e (S j))) by (apply Rmult_le_pos; lra).
    assert (h * (h * Rabs (e (S j))) <= tau * (h * Rabs (e (S j)))) by (apply Rmult_le_compat_r; lra).
    lra. }
  assert (E00 : E 0%nat <= 0).
  { unfold E, err. simpl INR. rewrite Rmult_0_l, E0, E0', !Rminus_eq_0, Rabs_R0. lra. }
  pose proof (gronwall_sum K h E x HK ltac:(lra) Hx N E00 HE k Hk) as GR.
  assert (Hkt : INR k * h <= tau).
  { rewrite <- HNh. apply Rmult_le_compat_r; [lra|]. now apply le_INR. }
  assert (Se : exp (K * (INR k * h)) <= exp (K * tau)).
  { assert (HKt : K * (INR k * h) <= K * tau) by (apply Rmult_le_compat_l; lra).
    destruct HKt as [HKt| ->]; [apply Rlt_le, exp_increasing; auto|apply Rle_refl]. }
  assert (Sx : rsum k (fun j => x (S j)) <= (sqrt tau * tau * C + (1 + tau) * (2 * tau + Q)) * r).
  { apply Rle_trans with (rsum N (fun j => x (S j))); [apply rsum_mono; auto|].
    unfold x. rewrite rsum_plus, rsum_const, rsum_scal.
    assert (I1 : INR N * (h ^ 2 * C) <= sqrt tau * tau * C * r).
    { replace (INR N * (h ^ 2 * C)) with ((INR N * h) * C * h) by ring. rewrite HNh.
      assert (I0 : h <= sqrt tau * r).
      { assert (Q1 : h * h <= tau * r ^ 2) by nra.
        apply Rsqr_incr_0_var; [|apply Rmult_le_pos; lra]. unfold Rsqr.
        replace (sqrt tau * r * (sqrt tau * r)) with ((sqrt tau * sqrt tau) * r ^ 2) by ring.
        rewrite sqrt_sqrt by lra. exact Q1. }
      replace (sqrt tau * tau * C * r) with (tau * C * (sqrt tau * r)) by ring.
      apply Rmult_le_compat_l; auto. apply Rmult_le_pos; lra. }
    assert (I2 : rsum N (fun j => h * Rabs (e (S j))) <= (2 * tau + Q) * r).
    { apply Rle_trans with (rsum (S N) (fun j => h * Rabs (e j))).
      { rewrite (rsum_shift N (fun j => h * Rabs (e j))). pose proof (Rabs_pos (e 0%nat)).
        assert (0 <= h * Rabs (e 0%nat)) by (apply Rmult_le_pos; lra). lra. }
      apply Rle_trans with (rsum (S N) (fun j => h * r + (h * e j ^ 2) * / r)).
      { apply rsum_le. intros j _. 
        replace (h * r + h * e j ^ 2 * / r) with (h * (r + e j ^ 2 * / r)) by ring.
        apply Rmult_le_compat_l; [lra|]. rewrite <- (pow2_abs (e j)).
        pose proof (Rabs_pos (e j)) as Pj. set (z := Rabs (e j)) in *.
        destruct (Rle_dec z r) as [Hz|Hz].
        - assert (0 <= z ^ 2 * / r) by (apply Rmult_le_pos; [nra|apply Rlt_le, Rinv_0_lt_compat; auto]). lra.
        - assert (z <= z ^ 2 * / r); [|lra]. apply Rmult_le_reg_r with r; auto.
          rewrite Rmult_assoc, Rinv_l by lra. nra. }
      rewrite rsum_plus, rsum_const, rsum_scal_r.
      assert (J1 : INR (S N) * (h * r) <= 2 * tau * r).
      { rewrite S_INR. replace ((INR N + 1) * (h * r)) with ((INR N * h + h) * r) by ring.
        rewrite HNh. apply Rmult_le_compat_r; lra. }
      assert (J2 : rsum (S N) (fun j => h * e j ^ 2) * / r <= Q * r).
      { apply Rmult_le_reg_r with r; auto. rewrite Rmult_assoc, Rinv_l by lra. lra. }
      lra. }
    assert (I3 : (1 + tau) * rsum N (fun j => h * Rabs (e (S j))) <= (1 + tau) * ((2 * tau + Q) * r))
      by (apply Rmult_le_compat_l; lra).
    lra. }
  change (E k <= exp (K * tau) * (sqrt tau * tau * C + (1 + tau) * (2 * tau + Q)) * r).
  eapply Rle_trans; [exact GR|]. rewrite Rmult_assoc.
  apply Rmult_le_compat; auto; [apply Rlt_le, exp_pos|]. apply rsum_nonneg. auto.
Qed.
Lemma euler_mean_error Q : 0 <= Q -> exists C, 0 <= C /\
  forall (N : nat) (Y V e : nat -> R) r, (1 <= N)%nat ->
  let h := tau / INR N in
  Y 0%nat = y 0 -> V 0%nat = v 0 ->
  (forall k, (k < N)%nat ->
     V (S k) = V k + h * (p * (g - Y k) - q * V k + (needed (INR (S k) * h) + e (S k)))
     /\ Y (S k) = Y k + h * V (S k)) ->
  0 < r -> h <= r ^ 2 -> rsum (S N) (fun k => h * e k ^ 2) <= Q * r ^ 2 ->
  forall k, (k <= N)%nat -> Rabs (Y k - y (INR k * h)) <= C * r.
Proof.
  intros HQ. destruct (euler_mean_err Q HQ) as (C & HC & H). exists C. split; auto.
  intros N Y V e r HN h E0 E0' HS Hr Hhr Hsum k Hk.
  specialize (H N Y V e r HN E0 E0' HS Hr Hhr Hsum k Hk). fold h in H.
  pose proof (Rabs_pos (V k - v (INR k * h))). lra.
Qed.
End Euler.
