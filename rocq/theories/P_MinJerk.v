(** Closed form of the minimum-jerk recursion; optimality of the quintic. *)
From Coq Require Import Reals ZArith List Arith Lia Lra Psatz FunctionalExtensionality.
From Coquelicot Require Import Coquelicot.
From Verif Require Import M_Prelude M_Base M_MinJerk.
Import ListNotations.
Open Scope R_scope.
Set Bullet Behavior "Strict Subproofs".

(** The unit minimum-jerk profile and its derivatives. *)
Definition mj (u : R) : R := 10 * u ^ 3 - 15 * u ^ 4 + 6 * u ^ 5.
Definition mj1 (u : R) : R := 30 * u ^ 2 - 60 * u ^ 3 + 30 * u ^ 4.
Definition mj2 (u : R) : R := 60 * u - 180 * u ^ 2 + 120 * u ^ 3.

Definition mj_sample (x0 g : vec) (D t : R) : sample :=
  (fun d => x0 d + (g d - x0 d) * mj (t / D),
   fun d => (g d - x0 d) * mj1 (t / D) / D,
   fun d => (g d - x0 d) * mj2 (t / D) / D ^ 2).

Lemma min_jerk_update_closed x0 g D t dt : D <> 0 -> D - t <> 0 ->
  min_jerk_update g (D - t) dt (mj_sample x0 g D t) = mj_sample x0 g D (t + dt).
Proof.
  intros HD Ht. unfold min_jerk_update, mj_sample. 
  f_equal; [f_equal|]; apply functional_extensionality; intro d; unfold mj, mj1, mj2; field; auto.
Qed.

Lemma mj_sample_0 x0 g D : mj_sample x0 g D 0 = (x0, vzero, vzero).
Proof.
  unfold mj_sample, mj, mj1, mj2, vzero, Rdiv. rewrite Rmult_0_l.
  f_equal; [f_equal|]; apply functional_extensionality; intro d; ring.
Qed.

(** Loop indices beyond [N - 1] hold the state. *)
Lemma min_jerk_loop_closed x0 g T dt N : 0 < dt -> (2 <= N)%nat -> INR N * dt <= T < INR (S N) * dt ->
  forall n t k, (1 <= t)%nat -> (k < n)%nat ->
  nth_error (min_jerk_loop g T dt t n
     (mj_sample x0 g (T - dt) (INR (Nat.min (t - 1) (N - 1)) * dt))) k
  = Some (mj_sample x0 g (T - dt) (INR (Nat.min (t + k) (N - 1)) * dt)).
Proof.
  intros Hdt HN [HT1 HT2].
  assert (HNr : 2 <= INR N) by (apply (le_INR 2); auto).
  assert (HD : T - dt <> 0) by nra.
  induction n as [|n IH]; intros t k Ht Hk; [lia|].
  cbn [min_jerk_loop].
  assert (E : (if Rle_dec dt (T - INR t * dt)
      then min_jerk_update g (T - INR t * dt) dt
             (mj_sample x0 g (T - dt) (INR (Nat.min (t - 1) (N - 1)) * dt))
      else mj_sample x0 g (T - dt) (INR (Nat.min (t - 1) (N - 1)) * dt))
    = mj_sample x0 g (T - dt) (INR (Nat.min t (N - 1)) * dt)).
  { destruct (Rle_dec dt (T - INR t * dt)) as [Hc|Hc].
    - assert (t <= N - 1)%nat.
      { assert (INR t + 1 < INR (S N)) by nra. rewrite S_INR in H.
        apply INR_le. rewrite minus_INR by lia. simpl. 
        assert (INR t < INR N) by lra. apply INR_lt in H0.
        apply le_INR in H0. rewrite S_INR in H0. lra. }
      rewrite !Nat.min_l by lia.
      replace (T - INR t * dt) with ((T - dt) - INR (t - 1) * dt)
        by (rewrite minus_INR by lia; simpl; ring).
      rewrite min_jerk_update_closed; auto.
      + f_equal. rewrite minus_INR by lia. simpl. ring.
      + rewrite minus_INR by lia. simpl. nra.
    - assert (N - 1 < t)%nat.
      { destruct (Nat.lt_ge_cases (N - 1) t) as [|Hle]; auto. exfalso. apply Hc.
        apply le_INR in Hle. rewrite minus_INR in Hle by lia. simpl in Hle. nra. }
      rewrite !Nat.min_r by lia. reflexivity. }
  rewrite E. destruct k as [|k].
  - cbn [nth_error]. now rewrite Nat.add_0_r.
  - cbn [nth_error]. specialize (IH (S t) k ltac:(lia) ltac:(lia)).
    replace (S t - 1)%nat with t in IH by lia. rewrite IH.
    now replace (S t + k)%nat with (t + S k)%nat by lia.
Qed.

Lemma min_jerk_loop_length g T dt n : forall t s, length (min_jerk_loop g T dt t n s) = n.
Proof. induction n; intros; simpl; auto. Qed.

(** With less than two periods nothing moves. *)
Lemma min_jerk_loop_still g T dt : 0 < dt -> T < 2 * dt ->
  forall n t s k, (1 <= t)%nat -> (k < n)%nat ->
  nth_error (min_jerk_loop g T dt t n s) k = Some s.
Proof.
  intros Hdt HT. induction n as [|n IH]; intros t s k Ht Hk; [lia|].
  cbn [min_jerk_loop]. destruct (Rle_dec dt (T - INR t * dt)) as [Hc|_].
  - exfalso. apply le_INR in Ht. simpl in Ht. nra.
  - destruct k; [reflexivity|]. cbn [nth_error]. apply IH; lia.
Qed.

(** Number of whole periods. *)
Lemma Ztrunc_bounds x : 0 <= x -> (0 <= Ztrunc x)%Z /\ IZR (Ztrunc x) <= x < IZR (Ztrunc x) + 1.
Proof.
  intros Hx. unfold Ztrunc. destruct (Rlt_dec x 0); [lra|].
  pose proof (base_Int_part x) as [A B]. split; [|lra].
  assert (-1 < IZR (Int_part x)) by lra. apply lt_IZR in H. lia.
Qed.

Lemma periods T dt : 0 < dt -> 0 <= T ->
  let N := Z.to_nat (Ztrunc (T / dt)) in
  INR N * dt <= T < INR (S N) * dt /\ (1 + Ztrunc (T / dt))%Z = Z.of_nat (S N).
Proof.
  intros Hdt HT N.
  assert (Hq : 0 <= T / dt) by (apply Rmult_le_pos; auto; left; now apply Rinv_0_lt_compat).
  destruct (Ztrunc_bounds _ Hq) as (H0 & H1 & H2).
  assert (HN : INR N = IZR (Ztrunc (T / dt))) by (unfold N; rewrite INR_IZR_INZ, Z2Nat.id by auto; auto).
  assert (ET : T = T / dt * dt) by (field; lra).
  split; [|unfold N; lia].
  rewrite S_INR, HN. rewrite ET at 2 3. split; nra.
Qed.

(** All samples in closed form. *)
Lemma generate_minimum_jerk_closed start goal T dt : alen start = alen goal -> 0 < dt -> 0 <= T ->
  let N := Z.to_nat (Ztrunc (T / dt)) in
  exists l, generate_minimum_jerk start goal T dt = Ok l /\ length l = S N
  /\ forall k, (k <= N)%nat -> nth_error l k = Some
       (if le_dec 2 N then mj_sample (aget start) (aget goal) (T - dt) (INR (Nat.min k (N - 1)) * dt)
        else (aget start, vzero, vzero)).
Proof.
  intros Hl Hdt HT N. destruct (periods T dt Hdt HT) as [HP HZ]. fold N in HP, HZ.
  unfold generate_minimum_jerk. rewrite Hl, Nat.eqb_refl. cbn [negb].
  destruct (Req_EM_T dt 0); [lra|]. rewrite HZ.
  destruct (Z_lt_dec _ 0); [lia|]. destruct (Z_lt_dec _ 1); [lia|].
  eexists. split; [reflexivity|]. rewrite Nat2Z.id.
  replace (S N - 1)%nat with N by lia.
  split; [simpl; now rewrite min_jerk_loop_length|].
  intros k Hk. destruct (le_dec 2 N) as [H2|H2].
  - destruct k as [|k].
    + cbn [nth_error]. simpl. rewrite Rmult_0_l, mj_sample_0. reflexivity.
    + cbn [nth_error].
      pose proof (min_jerk_loop_closed (aget start) (aget goal) T dt N Hdt H2 HP N 1 k
        ltac:(lia) ltac:(lia)) as E.
      replace (Nat.min (1 - 1) (N - 1)) with 0%nat in E by lia.
      change (INR 0) with 0 in E. rewrite Rmult_0_l, mj_sample_0 in E. exact E.
  - destruct k as [|k]; [reflexivity|]. cbn [nth_error].
    apply min_jerk_loop_still; auto; try lia.
    assert (INR (S N) <= 2) by (change 2 with (INR 2); apply le_INR; lia). nra.
Qed.

(** ** The profile *)
Lemma mj_derive u : is_derive mj u (mj1 u).
Proof. unfold mj, mj1. auto_derive; auto. ring. Qed.
Lemma mj1_derive u : is_derive mj1 u (mj2 u).
Proof. unfold mj1, mj2. auto_derive; auto. ring. Qed.
Lemma mj_0 : mj 0 = 0. Proof. unfold mj; ring. Qed.
Lemma mj_1 : mj 1 = 1. Proof. unfold mj; ring. Qed.
Lemma mj_below u : 1 - mj u = (1 - u) ^ 3 * (6 * u ^ 2 + 3 * u + 1).
Proof. unfold mj; ring. Qed.
Lemma mj1_nonneg u : 0 <= mj1 u.
Proof. unfold mj1. replace (_ + _) with (30 * (u * (1 - u)) ^ 2) by ring.
  pose proof (pow2_ge_0 (u * (1 - u))). lra. Qed.
Lemma mj_mono u v : u <= v -> mj u <= mj v.
Proof.
  intros [H | ->]; [|lra].
  destruct (MVT_gen mj u v mj1) as [c [_ Hc]].
  - intros. apply mj_derive.
  - intros. apply continuity_pt_filterlim, (ex_derive_continuous mj). eexists; apply mj_derive.
  - pose proof (mj1_nonneg c). nra.
Qed.
Lemma mj_range u : 0 <= u <= 1 -> 0 <= mj u <= 1.
Proof. intros [H1 H2]. pose proof (mj_mono 0 u H1) as A. pose proof (mj_mono u 1 H2) as B.
  rewrite mj_0 in A. rewrite mj_1 in B. lra. Qed.
Lemma mj_lt_1 u : 0 <= u < 1 -> mj u < 1.
Proof.
  intros [H1 H2]. assert (0 < 1 - mj u); [|lra]. rewrite mj_below.
  apply Rmult_lt_0_compat; [apply pow_lt; lra|nra].
Qed.

(** ** Optimality *)
Definition mj3 (u : R) : R := 60 - 360 * u + 360 * u ^ 2.
Definition mj4 (u : R) : R := - 360 + 720 * u.

Lemma mj_t_derive x0 a D t : D <> 0 ->
  is_derive (fun t => x0 + a * mj (t / D)) t (a * mj1 (t / D) / D).
Proof. intros. unfold mj, mj1. auto_derive; auto. field. auto. Qed.
Lemma mj1_t_derive a D t : D <> 0 ->
  is_derive (fun t => a * mj1 (t / D) / D) t (a * mj2 (t / D) / D ^ 2).
Proof. intros. unfold mj1, mj2. auto_derive; auto. field. auto. Qed.
Lemma mj2_t_derive a D t : D <> 0 ->
  is_derive (fun t => a * mj2 (t / D) / D ^ 2) t (a * mj3 (t / D) / D ^ 3).
Proof. intros. unfold mj2, mj3. auto_derive; auto. field. auto. Qed.
Lemma mj3_t_derive a D t : D <> 0 ->
  is_derive (fun t => a * mj3 (t / D) / D ^ 3) t (a * mj4 (t / D) / D ^ 4).
Proof. intros. unfold mj3, mj4. auto_derive; auto. field. auto. Qed.
Lemma mj4_t_derive a D t : D <> 0 ->
  is_derive (fun t => a * mj4 (t / D) / D ^ 4) t (a * 720 / D ^ 5).
Proof. intros. unfold mj4. auto_derive; auto. field. auto. Qed.

Lemma continuous_of_derive (f : R -> R) t l : is_derive f t l -> continuous f t.
Proof. intros. apply (ex_derive_continuous f). eexists; eauto. Qed.

(** Deviation of a competitor from the quintic, with third derivative [e3]. *)
Lemma jerk_orthogonal a D (e e1 e2 e3 : R -> R) : 0 < D ->
  (forall t, 0 <= t <= D -> is_derive e t (e1 t) /\ is_derive e1 t (e2 t)
     /\ is_derive e2 t (e3 t) /\ continuous e3 t) ->
  e 0 = 0 -> e1 0 = 0 -> e2 0 = 0 -> e D = 0 -> e1 D = 0 -> e2 D = 0 ->
  is_RInt (fun t => a * mj3 (t / D) / D ^ 3 * e3 t) 0 D 0.
Proof.
  intros HD He E0 E10 E20 ED E1D E2D.
  assert (HD0 : D <> 0) by lra.
  set (G := fun t => a * mj3 (t / D) / D ^ 3 * e2 t - a * mj4 (t / D) / D ^ 4 * e1 t
                     + a * 720 / D ^ 5 * e t).
  replace 0 with (minus (G D) (G 0)) at 2.
  2:{ unfold G, minus, plus, opp; simpl. rewrite E0, E10, E20, ED, E1D, E2D. ring. }
  apply (is_RInt_derive G).
  - intros t Ht. rewrite Rmin_left, Rmax_right in Ht by lra.
    destruct (He t Ht) as (H0 & H1 & H2 & H3). unfold G.
    pose proof (is_derive_mult (fun t => a * mj3 (t / D) / D ^ 3) e2 t _ _
      (mj3_t_derive a D t HD0) H2 Rmult_comm) as A.
    pose proof (is_derive_mult (fun t => a * mj4 (t / D) / D ^ 4) e1 t _ _
      (mj4_t_derive a D t HD0) H1 Rmult_comm) as B.
    pose proof (is_derive_scal e t (a * 720 / D ^ 5) _ H0) as C.
    pose proof (is_derive_plus _ _ t _ _ (is_derive_minus _ _ t _ _ A B) C) as F.
    match type of F with is_derive ?g _ ?l =>
      replace (a * mj3 (t / D) / D ^ 3 * e3 t) with l; [exact F|] end.
    unfold minus, opp, plus, mult, scal; simpl. unfold mult; simpl. field. auto.
  - intros t Ht. rewrite Rmin_left, Rmax_right in Ht by lra.
    destruct (He t Ht) as (H0 & H1 & H2 & H3).
    apply (continuous_mult (fun t => a * mj3 (t / D) / D ^ 3) e3); auto.
    eapply continuous_of_derive, mj3_t_derive; auto.
Qed.

Lemma jerk_optimal x0 g D (f f1 f2 f3 : R -> R) : 0 < D ->
  (forall t, 0 <= t <= D -> is_derive f t (f1 t) /\ is_derive f1 t (f2 t)
     /\ is_derive f2 t (f3 t) /\ continuous f3 t) ->
  f 0 = x0 -> f1 0 = 0 -> f2 0 = 0 -> f D = g -> f1 D = 0 -> f2 D = 0 ->
  RInt (fun t => ((g - x0) * mj3 (t / D) / D ^ 3) ^ 2) 0 D <= RInt (fun t => f3 t ^ 2) 0 D.
Proof.
  intros HD Hf F0 F10 F20 FD F1D F2D.
  assert (HD0 : D <> 0) by lra.
  set (a := g - x0). set (p3 := fun t => a * mj3 (t / D) / D ^ 3).
  set (e3 := fun t => f3 t - p3 t).
  assert (Hp3 : forall t, continuous p3 t)
    by (intros; eapply continuous_of_derive, mj3_t_derive; auto).
  assert (HZ : is_RInt (fun t => p3 t * e3 t) 0 D 0).
  { apply (jerk_orthogonal a D (fun t => f t - (x0 + a * mj (t / D)))
      (fun t => f1 t - a * mj1 (t / D) / D) (fun t => f2 t - a * mj2 (t / D) / D ^ 2)); auto.
    - intros t Ht. destruct (Hf t Ht) as (H0 & H1 & H2 & H3). split; [|split; [|split]].
      + exact (is_derive_minus f _ t _ _ H0 (mj_t_derive x0 a D t HD0)).
      + exact (is_derive_minus f1 _ t _ _ H1 (mj1_t_derive a D t HD0)).
      + exact (is_derive_minus f2 _ t _ _ H2 (mj2_t_derive a D t HD0)).
      + apply (continuous_minus f3 p3); auto.
    - rewrite F0. unfold mj, Rdiv. ring.
    - rewrite F10. unfold mj1, Rdiv. ring.
    - rewrite F20. unfold mj2, Rdiv. ring.
    - rewrite FD. replace (D / D) with 1 by (field; auto). rewrite mj_1. unfold a. ring.
    - rewrite F1D. replace (D / D) with 1 by (field; auto). unfold mj1, Rdiv. ring.
    - rewrite F2D. replace (D / D) with 1 by (field; auto). unfold mj2, Rdiv. ring. }
  assert (Hc3 : forall t, 0 <= t <= D -> continuous f3 t) by (intros t Ht; now destruct (Hf t Ht)).
  assert (HI1 : ex_RInt (fun t => p3 t ^ 2) 0 D).
  { apply (ex_RInt_continuous (fun t => p3 t ^ 2)). intros t _.
    apply (continuous_ext (fun t => p3 t * p3 t)); [intros; simpl; ring|].
    apply (continuous_mult p3 p3); auto. }
  assert (HI2 : ex_RInt (fun t => e3 t ^ 2) 0 D).
  { apply (ex_RInt_continuous (fun t => e3 t ^ 2)). intros t Ht.
    rewrite Rmin_left, Rmax_right in Ht by lra.
    apply (continuous_ext (fun t => e3 t * e3 t)); [intros; simpl; ring|].
    apply (continuous_mult e3 e3); apply (continuous_minus f3 p3); auto. }
  assert (HI : is_RInt (fun t => f3 t ^ 2) 0 D
     (RInt (fun t => p3 t ^ 2) 0 D + (2 * 0 + RInt (fun t => e3 t ^ 2) 0 D))).
  { apply (is_RInt_ext (fun t => plus (p3 t ^ 2) (plus (scal 2 (p3 t * e3 t)) (e3 t ^ 2)))).
    - intros t _. unfold plus, scal, e3; simpl. unfold mult; simpl. ring.
    - apply (is_RInt_plus (V := R_NormedModule)); [now apply (RInt_correct (V := R_CompleteNormedModule))|].
      apply (is_RInt_plus (V := R_NormedModule)); [|now apply (RInt_correct (V := R_CompleteNormedModule))].
      apply (is_RInt_scal (V := R_NormedModule)). exact HZ. }
  pose proof (is_RInt_unique (V := R_CompleteNormedModule) _ _ _ _ HI) as HU. rewrite HU.
  assert (0 <= RInt (fun t => e3 t ^ 2) 0 D).
  { apply RInt_ge_0; auto; [lra|]. intros; apply pow2_ge_0. }
  apply Rle_trans with (RInt (fun t => p3 t ^ 2) 0 D); [apply Rle_refl|].
  set (I1 := RInt (fun t => p3 t ^ 2) 0 D) in *. set (I2 := RInt (fun t => e3 t ^ 2) 0 D) in *.
  clearbody I1 I2. simpl in *. lra.
Qed.
