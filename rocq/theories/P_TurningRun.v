(** The Euler method for orientations follows a turning motion when the forces are
    close to the required forces in the mean. *)
From Coq Require Import Reals List Arith Bool Lia Lra Psatz.
From Coquelicot Require Import Coquelicot.
From Verif Require Import M_Prelude M_Dmp M_Quaternion M_Cartesian S_Rotation P_Loops P_Ode P_Reproduction
  P_Quaternion P_Sphere P_Orient P_Turning S_Turning P_TurningDemo.
Set Bullet Behavior "Strict Subproofs".
Local Open Scope R_scope.

Ltac pos_mul := repeat match goal with |- 0 <= _ * _ => apply Rmult_le_pos end; lra.

Lemma n1_add u v : n1 (v3_add u v) <= n1 u + n1 v.
Proof.
  unfold n1. cbn. pose proof (Rabs_triang (v3x u) (v3x v)). pose proof (Rabs_triang (v3y u) (v3y v)).
  pose proof (Rabs_triang (v3z u) (v3z v)). lra.
Qed.
Lemma n1_scale x u : n1 (v3_scale x u) = Rabs x * n1 u.
Proof. unfold n1. cbn. rewrite !Rabs_mult. ring. Qed.
Lemma n1_mul x u : n1 (v3_mul x u) <= n1 x * n1 u.
Proof.
  unfold n1. cbn. rewrite !Rabs_mult. pose proof (Rabs_pos (v3x x)). pose proof (Rabs_pos (v3y x)). pose proof (Rabs_pos (v3z x)).
  pose proof (Rabs_pos (v3x u)). pose proof (Rabs_pos (v3y u)). pose proof (Rabs_pos (v3z u)). nra.
Qed.

(** Values that are small in the mean square are small in the mean. *)
Lemma mean_abs tau Q r N h (e : nat -> R) : 0 < h -> 0 < r -> (1 <= N)%nat -> INR N * h = tau -> 
  rsum (S N) (fun j => h * e j ^ 2) <= Q * r ^ 2 ->
  rsum N (fun j => h * Rabs (e (S j))) <= (2 * tau + Q) * r.
Proof.
  intros Hh Hr HN HNh HQ. assert (HN1 : 1 <= INR N) by (apply (le_INR 1); lia). assert (Hht : h <= tau) by nra.
  apply Rle_trans with (rsum (S N) (fun j => h * Rabs (e j))).
  { rewrite (rsum_shift N (fun j => h * Rabs (e j))). pose proof (Rabs_pos (e 0%nat)).
    assert (0 <= h * Rabs (e 0%nat)) by (apply Rmult_le_pos; lra). lra. }
  apply Rle_trans with (rsum (S N) (fun j => h * r + (h * e j ^ 2) * / r)).
  { apply rsum_le. intros j _. 
    replace (h * r + h * e j ^ 2 * / r) with (h * (r + e j ^ 2 * / r)) by ring.
    apply Rmult_le_compat_l; [lra|]. rewrite <- (pow2_abs (e j)).
    pose proof (Rabs_pos (e j)) as Pj. set (z := Rabs (e j)) in *.
    destruct (Rle_dec z r) as [Hz|Hz].
    - assert (0 <= z ^ 2 * / r) by (apply Rmult_le_pos; [nra|apply Rlt_le, Rinv_0_lt_compat; auto]). lra.
    - assert (z <= z ^ 2 * / r); [|lra]. apply Rmult_le_reg_r with r; auto.
      rewrite Rmult_assoc, Rinv_l by lra. nra. }
  rewrite rsum_plus, rsum_const, rsum_scal_r.
  assert (J1 : INR (S N) * (h * r) <= 2 * tau * r).
  { rewrite S_INR. replace ((INR N + 1) * (h * r)) with ((INR N * h + h) * r) by ring.
    rewrite HNh. apply Rmult_le_compat_r; lra. }
  assert (J2 : rsum (S N) (fun j => h * e j ^ 2) * / r <= Q * r).
  { apply Rmult_le_reg_r with r; auto. rewrite Rmult_assoc, Rinv_l by lra. lra. }
  lra.
Qed.

Lemma rot_angle_dot p q : rot_angle (hamilton (cy_conj p) q) = rot_angle (hamilton p (cy_conj q)).
Proof. unfold rot_angle. do 3 f_equal. cbn. ring. Qed.

Lemma threshold_le i : PI * log_threshold i <= 4 * kappa.
Proof.
  pose proof PI_4. pose proof PI_RGT_0. pose proof (threshold_pos i).
  assert (log_threshold i <= kappa); [|apply Rmult_le_compat; lra].
  unfold kappa. destruct i; cbn [log_threshold]; [lra|].
  apply Rinv_le_contravar; [apply pow_lt; lra|]. apply Rle_pow; [lra|lia].
Qed.

Section Run.
Variables (tau L : R) (q : R -> quat) (w a e : R -> v3) (c : R).
Hypothesis Htau : 0 < tau.
Hypothesis HL : 0 <= L.
Hypothesis Hq : forall t, 0 <= t <= tau ->
  unit_quat (q t) /\ is_derive_quat q t (quat_rate (w t) (q t)) /\ is_derive_v3 w t (a t).
Hypothesis La : forall s t, 0 <= s <= tau -> 0 <= t <= tau -> v3_norm (v3_sub (a s) (a t)) <= L * Rabs (s - t).
Hypothesis Hc : 0 < c.
Hypothesis He : forall t, 0 <= t <= tau ->
  v3_norm (e t) <= PI /\ c <= cos (v3_norm (e t) / 2)
  /\ same_orientation (cy_exp (e t)) (hamilton (q tau) (cy_conj (q t))).

Lemma turn_diff f g p t : 0 <= t <= tau -> unit_quat p -> same_orientation g (q tau) -> v3_norm f <= PI ->
  same_orientation (cy_exp f) (hamilton g (cy_conj p)) -> v3_norm (v3_sub f (e t)) <= log_lip c * err p (q t).
Proof.
  intros Ht Hp Hg Nf Sf. destruct (He t Ht) as (E1 & E2 & E3).
  assert (Ug : unit_quat (q tau)) by (apply Hq; lra).
  eapply Rle_trans; [apply (exp_inverse_lip c f (e t) Hc); auto|]. apply Req_le. f_equal.
  rewrite (rot_angle_signs (hamilton (q tau) (cy_conj p)) (cy_conj (hamilton (q tau) (cy_conj (q t))))).
  - rewrite conj_hamilton, conj_conj.
    replace (hamilton (hamilton (q tau) (cy_conj p)) (hamilton (q t) (cy_conj (q tau))))
      with (hamilton (hamilton (q tau) (hamilton (cy_conj p) (q t))) (cy_conj (q tau)))
      by (apply quat_eq; cbn; ring).
    rewrite rot_angle_conjugate by auto. apply rot_angle_dot.
  - destruct Hg as [-> | ->], Sf as [-> | ->]; rewrite ?hamilton_neg_l, ?q_neg_neg; auto.
  - destruct E3 as [-> | ->]; rewrite ?conj_neg; auto.
Qed.

Lemma log_error i g p t : 0 <= t <= tau -> unit_quat p -> same_orientation g (q tau) ->
  v3_norm (v3_sub (q_error i g p) (e t)) <= log_lip c * err p (q t) + 4 * kappa.
Proof.
  intros Ht Hp Hg. assert (Ug : unit_quat (q tau)) by (apply Hq; lra).
  assert (Ug' : unit_quat g) by (destruct Hg as [-> | ->]; auto using unit_neg).
  unfold q_error. rewrite i_conj_unit, i_mul_unit by auto using cy_conj_unit.
  set (d := hamilton g (cy_conj p)). assert (Ud : unit_quat d) by (apply hamilton_unit; auto using cy_conj_unit).
  destruct (shortest_vector i d Ud) as (f & Hf & Nf & Hl). pose proof (rot_angle_bound d Ud) as HB.
  pose proof (turn_diff f g p t Ht Hp Hg ltac:(lra) Hf) as B. pose proof (threshold_le i) as T.
  pose proof (threshold_pos i). pose proof PI_RGT_0.
  eapply Rle_trans; [apply (v3_sub_triangle _ f)|].
  assert (v3_norm (v3_sub (i_log i d) f) <= PI * log_threshold i); [|lra].
  destruct Hl as [-> |[-> Hl]].
  - rewrite v3_sub_same. apply Rmult_le_pos; lra.
  - rewrite v3_sub_sym, v3_sub_0. exact Hl.
Qed.

Lemma rate_hamilton u p : quat_rate u p = q_scale (1/2) (hamilton (pure u) p).
Proof. apply quat_eq; cbn; field. Qed.

Lemma turn_consistent : exists C, 0 <= C /\ forall t h, 0 <= t -> 0 < h -> t + h <= tau ->
  err (hamilton (cy_exp (v3_scale h (w (t + h)))) (q t)) (q (t + h)) <= C * h ^ 2
  /\ v3_norm (v3_sub (e t) (e (t + h))) <= C * h.
Proof.
  destruct (motion_taylor tau L q w a Htau HL Hq La) as (M & HM & T). pose proof PI_RGT_0 as HP.
  pose proof (log_lip_pos c Hc) as HLl.
  exists (4 * PI * (4 * M ^ 2 + M ^ 2 + M) + log_lip c * (4 * PI * M)). 
  assert (M2 : 0 <= M ^ 2) by apply pow2_ge_0.
  assert (Q1 : 0 <= 4 * PI * (4 * M ^ 2 + M ^ 2 + M)) by (apply Rmult_le_pos; lra).
  assert (Q2 : 0 <= log_lip c * (4 * PI * M)) by (pos_mul).
  split; [lra|]. intros t h Ht Hh Hth.
  destruct (T t (t + h) ltac:(lra) ltac:(lra)) as (T1 & T2 & _ & _ & _ & T3 & _).
  destruct (Hq t ltac:(lra)) as (U & _). destruct (Hq (t + h) ltac:(lra)) as (U' & _).
  set (p := q t) in *. set (p' := q (t + h)) in *. set (u := w (t + h)) in *.
  replace (t - (t + h)) with (- h) in * by ring. rewrite Rabs_Ropp, Rabs_pos_eq in T1 by lra. split.
  - set (x := hamilton (cy_exp (v3_scale h u)) p).
    assert (Ux : unit_quat x) by (apply hamilton_unit; auto; apply cy_exp_unit).
    eapply Rle_trans; [apply err_chord; auto|].
    assert (B : nq (q_sub x p') <= (4 * M ^ 2 + M ^ 2 + M) * h ^ 2).
    { set (r := q_sub (cy_exp (v3_scale h u)) (q_add q_one (q_scale (1/2) (pure (v3_scale h u))))).
      replace (q_sub x p') with (q_add (q_add (hamilton r p) (q_scale (h / 2) (hamilton (pure u) (q_sub p p'))))
        (q_sub (q_sub p p') (q_scale (- h) (quat_rate u p')))).
      2:{ unfold x, r. rewrite rate_hamilton. generalize (cy_exp (v3_scale h u)). intros E0. clear.
          apply quat_eq; cbn; field. }
      eapply Rle_trans; [apply nq_add|]. eapply Rle_trans; [apply Rplus_le_compat_r; apply nq_add|].
      assert (B1 : nq (hamilton r p) <= 4 * M ^ 2 * h ^ 2).
      { eapply Rle_trans; [apply nq_mul|]. pose proof (unit_nq p U) as N4. pose proof (exp_expand (v3_scale h u)) as X.
        fold r in X. pose proof (nq_pos r). pose proof (nq_pos p).
        assert (v3_norm (v3_scale h u) ^ 2 <= M ^ 2 * h ^ 2).
        { rewrite v3_norm_scale, Rpow_mult_distr, pow2_abs. rewrite Rmult_comm. apply Rmult_le_compat_r; [apply pow2_ge_0|].
          apply pow_incr. split; [apply v3_norm_pos|]. eapply Rle_trans; [apply norm_n1|auto]. }
        replace (4 * M ^ 2 * h ^ 2) with ((M ^ 2 * h ^ 2) * 4) by ring. apply Rmult_le_compat; lra. }
      assert (B2 : nq (q_scale (h / 2) (hamilton (pure u) (q_sub p p'))) <= M ^ 2 * h ^ 2).
      { rewrite nq_scale, Rabs_pos_eq by lra. pose proof (nq_mul (pure u) (q_sub p p')) as X.
        assert (E1 : nq (pure u) = n1 u) by (unfold nq, n1; cbn; rewrite Rabs_R0; ring). rewrite E1 in X.
        pose proof (n1_pos u). pose proof (nq_pos (q_sub p p')).
        assert (n1 u * nq (q_sub p p') <= M * (M * h)) by (apply Rmult_le_compat; lra).
        assert (0 <= M * (M * h)) by (pos_mul).
        assert (h / 2 * nq (hamilton (pure u) (q_sub p p')) <= h / 2 * (M * (M * h))) by (apply Rmult_le_compat_l; lra).
        assert (0 <= h * (M * (M * h))) by (apply Rmult_le_pos; lra).
        replace (M ^ 2 * h ^ 2) with (h * (M * (M * h))) by ring. lra. }
      unfold qd in T2. fold p' u in T2. replace ((- h) ^ 2) with (h ^ 2) in T2 by ring. lra. }
    pose proof (nq_pos (q_sub x p')).
    apply Rle_trans with (4 * PI * ((4 * M ^ 2 + M ^ 2 + M) * h ^ 2)); [apply Rmult_le_compat_l; lra|].
    assert (0 <= log_lip c * (4 * PI * M) * h ^ 2) by (apply Rmult_le_pos; auto; apply pow2_ge_0). lra.
  - destruct (He t ltac:(lra)) as (E1 & E2 & E3).
    eapply Rle_trans; [apply (turn_diff (e t) (q tau) p (t + h)); auto; [lra|now left]|].
    fold p'. assert (err p p' <= 4 * PI * (M * h)).
    { eapply Rle_trans; [apply err_chord; auto|]. apply Rmult_le_compat_l; lra. }
    apply Rle_trans with (log_lip c * (4 * PI * (M * h))); [apply Rmult_le_compat_l; lra|].
    assert (0 <= 4 * PI * (4 * M ^ 2 + M ^ 2 + M) * h) by (apply Rmult_le_pos; lra). lra.
Qed.

Lemma turning_run (al be : v3) (smooth : bool) (Q : R) : 0 <= Q -> w 0 = v3_zero -> exists C, 0 <= C /\
  forall (i : impl) (N : nat) (P : nat -> quat) (V ep : nat -> v3) (g : quat) (r : R), (1 <= N)%nat ->
  let h := tau / INR N in
  let t := fun k => INR k * h in
  let z := fun s => exp (ln (1/100) * (s / tau)) in
  same_orientation (P 0%nat) (q 0) -> same_orientation g (q tau) -> V 0%nat = v3_zero ->
  (forall k, (k < N)%nat ->
     V (S k) = v3_add (V k) (v3_scale h (v3_divs (v3_add (v3_mul al
         (v3_sub (v3_sub (v3_mul be (q_error i g (P k))) (v3_scale tau (V k)))
            (if smooth then v3_mul (v3_scale (z (t (S k))) be) (q_error i g (P 0%nat)) else v3_zero)))
         (v3_add (required_torque tau al be smooth e w a (t (S k))) (ep (S k)))) (tau ^ 2)))
     /\ P (S k) = i_mul i (i_exp i (v3_scale h (V (S k)))) (P k)) ->
  0 < r -> h <= r ^ 2 -> kappa / h ^ 2 <= r ->
  rsum (S N) (fun k => h * v3x (ep k) ^ 2) <= Q * r ^ 2 ->
  rsum (S N) (fun k => h * v3y (ep k) ^ 2) <= Q * r ^ 2 ->
  rsum (S N) (fun k => h * v3z (ep k) ^ 2) <= Q * r ^ 2 ->
  forall k, (k <= N)%nat -> err (P k) (q (t k)) <= C * r.
Proof.
  intros HQ W0. destruct (motion_taylor tau L q w a Htau HL Hq La) as (M & HM & T). pose proof PI_RGT_0 as HP.
  pose proof kappa_pos as Pk.
  destruct turn_consistent as (C & HC & CS). pose proof (log_lip_pos c Hc) as HLl. set (G := log_lip c) in *.
  pose proof (n1_pos (v3_mul al be)) as PA. pose proof (n1_pos al) as PB.
  set (A := n1 (v3_mul al be)) in *. set (B := n1 al) in *.
  set (j2 := / tau ^ 2). assert (Pj : 0 < j2) by (apply Rinv_0_lt_compat, pow_lt; auto).
  set (K1 := j2 * (A * (3 * G))). set (K2 := j2 * (tau * B)).
  set (K3 := M + j2 * (A * (3 * C) + tau * B * M)). set (K4 := j2 * (A * 24)).
  assert (PK1 : 0 <= K1) by (unfold K1; pos_mul).
  assert (PK2 : 0 <= K2) by (unfold K2; pos_mul).
  assert (PK3 : 0 <= K3).
  { unfold K3. apply Rplus_le_le_0_compat; auto. apply Rmult_le_pos; [lra|]. apply Rplus_le_le_0_compat; pos_mul. }
  assert (PK4 : 0 <= K4) by (unfold K4; pos_mul).
  set (K := 1 + (1 + tau) * (K1 + K2)).
  assert (PK : 0 <= K) by (unfold K; apply Rplus_le_le_0_compat; [lra|]; apply Rmult_le_pos; lra).
  set (H1 := (1 + tau) * K3 + C). set (H2 := (1 + tau) * K4). set (H3 := (1 + tau) * j2).
  assert (PH1 : 0 <= H1) by (unfold H1; apply Rplus_le_le_0_compat; auto; apply Rmult_le_pos; lra).
  assert (PH2 : 0 <= H2) by (unfold H2; apply Rmult_le_pos; lra).
  assert (PH3 : 0 <= H3) by (unfold H3; apply Rmult_le_pos; lra).
  pose proof (sqrt_pos tau) as Ps. pose proof (exp_pos (K * tau)) as Pe.
  assert (Pt2 : 0 < tau ^ 2) by (apply pow_lt; auto).
  exists (exp (K * tau) * (tau * (H1 * sqrt tau + H2 * tau ^ 2) + H3 * (3 * (2 * tau + Q)))).
  split.
  { apply Rmult_le_pos; [lra|]. apply Rplus_le_le_0_compat.
    - apply Rmult_le_pos; [lra|]. apply Rplus_le_le_0_compat; apply Rmult_le_pos; lra.
    - apply Rmult_le_pos; lra. }
  intros i N P V ep g r HN h t z HP0 Hg V0 HS Hr Hhr Hkr Sx Sy Sz k Hk.
  assert (HNpos : 0 < INR N) by (apply lt_0_INR; lia).
  assert (Hh : 0 < h) by (unfold h; now apply Rdiv_lt_0_compat).
  assert (HNh : INR N * h = tau) by (unfold h; field; lra).
  assert (HN1 : 1 <= INR N) by (apply (le_INR 1); lia).
  assert (Hht : h <= tau) by nra.
  assert (TR : forall k, (k <= N)%nat -> 0 <= t k <= tau).
  { intros j Hj. unfold t. split; [apply Rmult_le_pos; [apply pos_INR|lra]|].
    rewrite <- HNh. apply Rmult_le_compat_r; [lra|]. now apply le_INR. }
  assert (T0 : t 0%nat = 0) by (unfold t; simpl; ring).
  assert (TS : forall k, t (S k) = t k + h) by (intros j; unfold t; rewrite S_INR; ring).
  assert (UP : forall k, (k <= N)%nat -> unit_quat (P k)).
  { induction k0 as [|j IH]; intros Hj.
    - destruct (Hq 0 ltac:(lra)) as (U & _). destruct HP0 as [-> | ->]; auto using unit_neg.
    - destruct (HS j ltac:(lia)) as [_ ->]. specialize (IH ltac:(lia)).
      rewrite i_mul_unit by auto using i_exp_unit. apply hamilton_unit; auto using i_exp_unit. }
  assert (E00 : err (P 0%nat) (q 0) = 0).
  { destruct (Hq 0 ltac:(lra)) as (U & _). transitivity (err (q 0) (q 0)); [|now apply err_same]. unfold err.
    apply rot_angle_signs; auto. }
  set (D := fun k => n1 (v3_sub (V k) (w (t k)))). set (E := fun k => err (P k) (q (t k))).
  assert (PD : forall k, 0 <= D k) by (intros; apply n1_pos).
  assert (STEP : forall k, (k < N)%nat ->
     D (S k) <= D k + h * (K1 * E k + K2 * D k + K3 * h + K4 * kappa + j2 * n1 (ep (S k)))
     /\ E (S k) <= E k + h * D (S k) + C * h ^ 2).
  { intros j Hj. destruct (HS j Hj) as [SV SP]. pose proof (TR j ltac:(lia)) as R0. pose proof (TR (S j) ltac:(lia)) as R1.
    destruct (CS (t j) h ltac:(lra) Hh ltac:(rewrite <- TS; lra)) as [C1 C2]. rewrite <- TS in C1, C2.
    destruct (T (t j) (t (S j)) R0 R1) as (_ & _ & _ & _ & _ & _ & _ & T5 & T6). rewrite !TS in T5, T6.
    replace (t j - (t j + h)) with (- h) in T5, T6 by ring. rewrite Rabs_Ropp, Rabs_pos_eq in T5 by lra.
    rewrite <- !TS in T5, T6. replace ((- h) ^ 2) with (h ^ 2) in T6 by ring.
    split.
    - set (x1 := v3_sub (q_error i g (P j)) (e (t (S j)))).
      set (x2 := v3_sub (V j) (w (t (S j)))).
      set (x3 := if smooth then v3_scale (z (t (S j))) (v3_sub (q_error i g (P 0%nat)) (e 0)) else v3_zero).
      set (x4 := v3_sub (v3_sub (w (t j)) (w (t (S j)))) (v3_scale (- h) (a (t (S j))))).
      assert (EQ : v3_sub (V (S j)) (w (t (S j)))
         = v3_add (v3_sub (V j) (w (t j)))
             (v3_add x4 (v3_scale (h * j2)
                (v3_add (v3_mul (v3_mul al be) x1)
                   (v3_add (v3_scale (- tau) (v3_mul al x2))
                      (v3_add (v3_mul (v3_mul al be) (v3_scale (-1) x3)) (ep (S j)))))))).
      { rewrite SV. unfold x1, x2, x3, x4, required_torque, j2. fold (z (t (S j))).
        destruct smooth; apply v3_eq; cbn; field; lra. }
      assert (N1 : n1 x1 <= 3 * (G * E j + 4 * kappa + C * h)).
      { unfold x1. eapply Rle_trans; [apply n1_norm|]. apply Rmult_le_compat_l; [lra|].
        eapply Rle_trans; [apply (v3_sub_triangle _ (e (t j)))|].
        pose proof (log_error i g (P j) (t j) R0 (UP j ltac:(lia)) Hg) as X. fold G in X. unfold E. lra. }
      assert (N2 : n1 x2 <= D j + M * h).
      { replace x2 with (v3_add (v3_sub (V j) (w (t j))) (v3_sub (w (t j)) (w (t (S j)))))
          by (unfold x2; apply v3_eq; cbn; ring).
        eapply Rle_trans; [apply n1_add|]. unfold D. lra. }
      assert (Z1 : 0 <= z (t (S j)) <= 1).
      { unfold z. split; [apply Rlt_le, exp_pos|]. apply Rle_trans with (exp 0); [|rewrite exp_0; lra].
        assert (X : ln (1/100) * (t (S j) / tau) <= 0).
        { assert (ln (1/100) < 0) by (rewrite <- ln_1; apply ln_increasing; lra).
          assert (0 <= t (S j) / tau) by (apply Rmult_le_pos; [lra|apply Rlt_le, Rinv_0_lt_compat; auto]). nra. }
        destruct X as [X| ->]; [apply Rlt_le, exp_increasing; auto|apply Rle_refl]. }
      assert (N3 : n1 x3 <= 12 * kappa).
      { unfold x3. destruct smooth; [|unfold n1; cbn; rewrite Rabs_R0; lra]. rewrite n1_scale, Rabs_pos_eq by lra.
        pose proof (log_error i g (P 0%nat) 0 ltac:(lra) (UP 0%nat ltac:(lia)) Hg) as X. rewrite E00 in X.
        pose proof (n1_norm (v3_sub (q_error i g (P 0%nat)) (e 0))) as Y.
        pose proof (n1_pos (v3_sub (q_error i g (P 0%nat)) (e 0))).
        set (m := n1 (v3_sub (q_error i g (P 0%nat)) (e 0))) in *.
        apply Rle_trans with (1 * m); [apply Rmult_le_compat_r; lra|]. lra. }
      unfold D at 1. rewrite EQ. eapply Rle_trans; [apply n1_add|]. fold (D j).
      eapply Rle_trans; [apply Rplus_le_compat_l, n1_add|]. fold x4 in T6. rewrite n1_scale.
      rewrite Rabs_pos_eq by (apply Rmult_le_pos; lra).
      set (X := n1 (v3_add _ _)).
      assert (HX : X <= A * (3 * (G * E j + 4 * kappa + C * h)) + tau * B * (D j + M * h) + A * (12 * kappa) + n1 (ep (S j))).
      { unfold X. eapply Rle_trans; [apply n1_add|]. eapply Rle_trans; [apply Rplus_le_compat_l, n1_add|].
        eapply Rle_trans; [apply Rplus_le_compat_l, Rplus_le_compat_l, n1_add|].
        assert (Y1 : n1 (v3_mul (v3_mul al be) x1) <= A * (3 * (G * E j + 4 * kappa + C * h))).
        { eapply Rle_trans; [apply n1_mul|]. fold A. apply Rmult_le_compat_l; auto. }
        assert (Y2 : n1 (v3_scale (- tau) (v3_mul al x2)) <= tau * B * (D j + M * h)).
        { rewrite n1_scale, Rabs_Ropp, Rabs_pos_eq, Rmult_assoc by lra. apply Rmult_le_compat_l; [lra|].
          eapply Rle_trans; [apply n1_mul|]. fold B. apply Rmult_le_compat_l; auto. }
        assert (Y3 : n1 (v3_mul (v3_mul al be) (v3_scale (-1) x3)) <= A * (12 * kappa)).
        { eapply Rle_trans; [apply n1_mul|]. fold A. apply Rmult_le_compat_l; auto.
          rewrite n1_scale, (Rabs_left (-1)) by lra. lra. }
        lra. }
      assert (HX2 : h * j2 * X <= h * j2 * (A * (3 * (G * E j + 4 * kappa + C * h)) + tau * B * (D j + M * h) + A * (12 * kappa) + n1 (ep (S j))))
        by (apply Rmult_le_compat_l; auto; apply Rmult_le_pos; lra).
      unfold K1, K2, K3, K4. lra.
    - unfold E at 1. rewrite SP. destruct (Hq (t j) R0) as (U & _). destruct (Hq (t (S j)) R1) as (U' & _).
      set (mid := hamilton (cy_exp (v3_scale h (w (t (S j))))) (q (t j))) in *.
      assert (UM : unit_quat mid) by (apply hamilton_unit; auto; apply cy_exp_unit).
      assert (UN : unit_quat (i_mul i (i_exp i (v3_scale h (V (S j)))) (P j))).
      { rewrite <- SP. apply UP. lia. }
      eapply Rle_trans; [apply (err_triangle _ mid); auto|].
      rewrite (err_sym _ mid).
      pose proof (err_turns i (q (t j)) (P j) (v3_scale h (w (t (S j)))) (v3_scale h (V (S j))) U (UP j ltac:(lia))) as X.
      fold mid in X. rewrite (err_sym (q (t j))) in X. fold (E j) in X.
      assert (Y : v3_norm (v3_sub (v3_scale h (w (t (S j)))) (v3_scale h (V (S j)))) <= h * D (S j)).
      { rewrite v3_sub_sym.
        replace (v3_sub (v3_scale h (V (S j))) (v3_scale h (w (t (S j))))) with (v3_scale h (v3_sub (V (S j)) (w (t (S j)))))
          by (apply v3_eq; cbn; ring).
        rewrite v3_norm_scale, Rabs_pos_eq by lra. apply Rmult_le_compat_l; [lra|]. apply norm_n1. }
      lra. }
  set (Z := fun k => E k + D k).
  set (x := fun k => h * (H1 * h + H2 * kappa + H3 * n1 (ep k))).
  assert (PE : forall k, (k <= N)%nat -> 0 <= E k).
  { intros j Hj. apply err_bound; [apply UP; auto|apply Hq, TR; auto]. }
  assert (Px : forall k, 0 <= x k).
  { intros j. unfold x. pose proof (n1_pos (ep j)). apply Rmult_le_pos; [lra|].
    apply Rplus_le_le_0_compat; [apply Rplus_le_le_0_compat|]; apply Rmult_le_pos; lra. }
  assert (ZS : forall k, (k < N)%nat -> Z (S k) <= (1 + h * K) * Z k + x (S k)).
  { intros j Hj. destruct (STEP j Hj) as [S1 S2]. pose proof (PE j ltac:(lia)) as PEj. pose proof (PD j) as PDj.
    pose proof (n1_pos (ep (S j))) as Pep. unfold Z, x.
    set (Xj := K1 * E j + K2 * D j + K3 * h + K4 * kappa + j2 * n1 (ep (S j))) in *.
    assert (PX : 0 <= Xj) by (unfold Xj; repeat apply Rplus_le_le_0_compat; apply Rmult_le_pos; lra).
    assert (Y1 : (1 + h) * D (S j) <= (1 + h) * (D j + h * Xj)) by (apply Rmult_le_compat_l; lra).
    assert (Y2 : (1 + h) * (h * Xj) <= (1 + tau) * (h * Xj)).
    { apply Rmult_le_compat_r; [apply Rmult_le_pos; lra|lra]. }
    assert (Y3 : Xj <= (K1 + K2) * (E j + D j) + K3 * h + K4 * kappa + j2 * n1 (ep (S j))).
    { unfold Xj. assert (0 <= K1 * D j) by (apply Rmult_le_pos; lra). assert (0 <= K2 * E j) by (apply Rmult_le_pos; lra). lra. }
    assert (Y4 : (1 + tau) * (h * Xj) <= (1 + tau) * (h * ((K1 + K2) * (E j + D j) + K3 * h + K4 * kappa + j2 * n1 (ep (S j))))).
    { apply Rmult_le_compat_l; [lra|]. apply Rmult_le_compat_l; lra. }
    assert (0 <= h * E j) by (apply Rmult_le_pos; lra).
    unfold K, H1, H2, H3. lra. }
  assert (Z0 : Z 0%nat <= 0).
  { unfold Z, E, D. rewrite T0, E00, V0, W0. unfold n1. cbn. rewrite Rminus_0_r, Rabs_R0. lra. }
  pose proof (gronwall_sum K h Z x PK ltac:(lra) Px N Z0 ZS k Hk) as GR.
  assert (Se : exp (K * (INR k * h)) <= exp (K * tau)).
  { assert (HKt : K * (INR k * h) <= K * tau) by (apply Rmult_le_compat_l; [lra|]; apply (TR k Hk)).
    destruct HKt as [HKt| ->]; [apply Rlt_le, exp_increasing; auto|apply Rle_refl]. }
  assert (Sm : rsum k (fun j => x (S j)) <= (tau * (H1 * sqrt tau + H2 * tau ^ 2) + H3 * (3 * (2 * tau + Q))) * r).
  { apply Rle_trans with (rsum N (fun j => x (S j))); [apply rsum_mono; auto|].
    rewrite (rsum_ext N (fun j => x (S j)) (fun j => h * (H1 * h + H2 * kappa)
       + H3 * (h * Rabs (v3x (ep (S j))) + h * Rabs (v3y (ep (S j))) + h * Rabs (v3z (ep (S j))))))
      by (intros j _; unfold x, n1; ring).
    rewrite rsum_plus, rsum_const, rsum_scal, !rsum_plus.
    pose proof (mean_abs tau Q r N h (fun j => v3x (ep j)) Hh Hr HN HNh Sx).
    pose proof (mean_abs tau Q r N h (fun j => v3y (ep j)) Hh Hr HN HNh Sy).
    pose proof (mean_abs tau Q r N h (fun j => v3z (ep j)) Hh Hr HN HNh Sz).
    assert (I0 : h <= sqrt tau * r).
    { assert (Q1 : h * h <= tau * r ^ 2) by nra.
      apply Rsqr_incr_0_var; [|apply Rmult_le_pos; lra]. unfold Rsqr.
      replace (sqrt tau * r * (sqrt tau * r)) with ((sqrt tau * sqrt tau) * r ^ 2) by ring.
      rewrite sqrt_sqrt by lra. exact Q1. }
    assert (I1 : kappa <= tau ^ 2 * r).
    { assert (Ph2 : 0 < h ^ 2) by (apply pow_lt; auto). replace kappa with (h ^ 2 * (kappa / h ^ 2)) by (field; lra).
      apply Rmult_le_compat; auto; [lra| |].
      - apply Rlt_le, Rdiv_lt_0_compat; auto.
      - apply pow_incr; lra. }
    rewrite <- Rmult_assoc, HNh.
    assert (I2 : tau * (H1 * h + H2 * kappa) <= tau * (H1 * (sqrt tau * r) + H2 * (tau ^ 2 * r))).
    { apply Rmult_le_compat_l; [lra|]. apply Rplus_le_compat; apply Rmult_le_compat_l; auto. }
    set (s1 := rsum N (fun j => h * Rabs (v3x (ep (S j))))) in *. set (s2 := rsum N (fun j => h * Rabs (v3y (ep (S j))))) in *.
    set (s3 := rsum N (fun j => h * Rabs (v3z (ep (S j))))) in *.
    assert (I3 : H3 * (s1 + s2 + s3) <= H3 * (3 * ((2 * tau + Q) * r))) by (apply Rmult_le_compat_l; lra).
    lra. }
  apply Rle_trans with (Z k); [unfold Z; pose proof (PD k); unfold E; lra|].
  eapply Rle_trans; [exact GR|]. rewrite Rmult_assoc.
  apply Rmult_le_compat; auto; [apply Rlt_le, exp_pos|]. apply rsum_nonneg. auto.
Qed.
End Run.
