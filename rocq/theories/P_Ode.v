(** One-step methods for the scalar equation y'' = p (g - y) - q y' + u(t): steps
    that agree with the Euler step up to second order stay close to the solution. *)
From Coq Require Import Reals Lia Lra Psatz.
From Coquelicot Require Import Coquelicot.
Open Scope R_scope.
Set Bullet Behavior "Strict Subproofs".

(** ** Bounded Lipschitz functions on an interval *)
Definition lipb (a b : R) (f : R -> R) : Prop :=
  exists L, 0 <= L /\ (forall t, a <= t <= b -> Rabs (f t) <= L)
    /\ forall s t, a <= s <= b -> a <= t <= b -> Rabs (f s - f t) <= L * Rabs (s - t).

Lemma lipb_const a b c : lipb a b (fun _ => c).
Proof.
  exists (Rabs c). split; [apply Rabs_pos|]. split; [intros; lra|]. intros.
  rewrite Rminus_eq_0, Rabs_R0. apply Rmult_le_pos; apply Rabs_pos.
Qed.

Lemma lipb_id a b : lipb a b (fun t => t).
Proof.
  exists (1 + Rabs a + Rabs b). pose proof (Rabs_pos a). pose proof (Rabs_pos b).
  split; [lra|]. split.
  - intros t Ht. apply Rabs_le. pose proof (Rle_abs b). pose proof (Rle_abs (- a)).
    rewrite Rabs_Ropp in *. lra.
  - intros s t _ _. pose proof (Rabs_pos (s - t)). nra.
Qed.

Lemma lipb_plus a b f g : lipb a b f -> lipb a b g -> lipb a b (fun t => f t + g t).
Proof.
  intros (L & HL & Bf & Lf) (M & HM & Bg & Lg). exists (L + M). split; [lra|]. split.
  - intros t Ht. eapply Rle_trans; [apply Rabs_triang|]. specialize (Bf t Ht). specialize (Bg t Ht). lra.
  - intros s t Hs Ht. replace (f s + g s - (f t + g t)) with ((f s - f t) + (g s - g t)) by ring.
    eapply Rle_trans; [apply Rabs_triang|]. specialize (Lf s t Hs Ht). specialize (Lg s t Hs Ht). lra.
Qed.

Lemma lipb_mult a b f g : lipb a b f -> lipb a b g -> lipb a b (fun t => f t * g t).
Proof.
  intros (L & HL & Bf & Lf) (M & HM & Bg & Lg). exists (2 * L * M).
  split; [assert (0 <= L * M) by (apply Rmult_le_pos; auto); lra|]. split.
  - intros t Ht. rewrite Rabs_mult.
    assert (Rabs (f t) * Rabs (g t) <= L * M) by (apply Rmult_le_compat; auto; apply Rabs_pos).
    assert (0 <= L * M) by (apply Rmult_le_pos; auto). lra.
  - intros s t Hs Ht. replace (f s * g s - f t * g t) with (f s * (g s - g t) + (f s - f t) * g t) by ring.
    eapply Rle_trans; [apply Rabs_triang|]. rewrite !Rabs_mult.
    assert (Rabs (f s) * Rabs (g s - g t) <= L * (M * Rabs (s - t)))
      by (apply Rmult_le_compat; auto; apply Rabs_pos).
    assert (Rabs (f s - f t) * Rabs (g t) <= (L * Rabs (s - t)) * M)
      by (apply Rmult_le_compat; auto; apply Rabs_pos).
    lra.
Qed.

Lemma lipb_ext a b f g : (forall t, f t = g t) -> lipb a b f -> lipb a b g.
Proof. intros H (L & HL & Bf & Lf). exists L. split; auto. split; intros; rewrite <- !H; auto. Qed.

Lemma lipb_scal a b c f : lipb a b f -> lipb a b (fun t => c * f t).
Proof. intros H. apply (lipb_mult a b (fun _ => c)); auto. apply lipb_const. Qed.

Lemma lipb_minus a b f g : lipb a b f -> lipb a b g -> lipb a b (fun t => f t - g t).
Proof.
  intros Hf Hg. apply (lipb_ext _ _ (fun t => f t + (-1) * g t)); [intros; ring|].
  apply lipb_plus; auto. now apply lipb_scal.
Qed.

Lemma exp_lip x y M : x <= M -> y <= M -> Rabs (exp x - exp y) <= exp M * Rabs (x - y).
Proof.
  intros Hx Hy.
  destruct (MVT_gen exp y x exp) as (c & Hc & E).
  - intros z _. apply is_derive_exp.
  - intros z _. apply derivable_continuous_pt, derivable_pt_exp.
  - rewrite E, Rabs_mult, (Rabs_pos_eq (exp c)) by (apply Rlt_le, exp_pos).
    apply Rmult_le_compat_r; [apply Rabs_pos|].
    assert (Hm : c <= M) by (destruct Hc as [_ Hc]; revert Hc; unfold Rmax; destruct (Rle_dec y x); lra).
    destruct Hm as [Hm| ->]; [apply Rlt_le, exp_increasing; auto|apply Rle_refl].
Qed.

Lemma lipb_exp a b f : lipb a b f -> lipb a b (fun t => exp (f t)).
Proof.
  intros (L & HL & Bf & Lf). pose proof (exp_pos L) as HE.
  assert (Hb : forall t, a <= t <= b -> f t <= L)
    by (intros t Ht; eapply Rle_trans; [apply Rle_abs|auto]).
  exists (exp L * (1 + L)). split; [apply Rmult_le_pos; lra|]. split.
  - intros t Ht. rewrite Rabs_pos_eq by (apply Rlt_le, exp_pos).
    assert (exp (f t) <= exp L).
    { destruct (Hb t Ht) as [H| ->]; [apply Rlt_le, exp_increasing; auto|apply Rle_refl]. }
    assert (0 <= exp L * L) by (apply Rmult_le_pos; lra). lra.
  - intros s t Hs Ht. eapply Rle_trans; [apply (exp_lip _ _ L); auto|].
    specialize (Lf s t Hs Ht). pose proof (Rabs_pos (s - t)) as Hp.
    apply Rle_trans with (exp L * (L * Rabs (s - t))); [apply Rmult_le_compat_l; lra|].
    assert (0 <= exp L * Rabs (s - t)) by (apply Rmult_le_pos; lra). lra.
Qed.

Lemma lipb_inv a b f : lipb a b f -> (exists m, 0 < m /\ forall t, a <= t <= b -> m <= f t) ->
  lipb a b (fun t => / f t).
Proof.
  intros (L & HL & Bf & Lf) (m & Hm & Hf).
  assert (Hi : 0 < / m) by (apply Rinv_0_lt_compat; auto).
  assert (Hfi : forall t, a <= t <= b -> 0 < / f t <= / m).
  { intros t Ht. specialize (Hf t Ht). split; [apply Rinv_0_lt_compat; lra|apply Rinv_le_contravar; auto]. }
  assert (HLm : 0 <= L * (/ m * / m)) by (apply Rmult_le_pos; auto; apply Rmult_le_pos; lra).
  exists (/ m + L * (/ m * / m)). split; [lra|]. split.
  - intros t Ht. specialize (Hfi t Ht). rewrite Rabs_pos_eq by lra. lra.
  - intros s t Hs Ht. pose proof (Hf s Hs). pose proof (Hf t Ht).
    replace (/ f s - / f t) with (- (f s - f t) * (/ f s * / f t)) by (field; lra).
    rewrite Rabs_mult, Rabs_Ropp. pose proof (Hfi s Hs) as Is. pose proof (Hfi t Ht) as It.
    rewrite (Rabs_pos_eq (/ f s * / f t)) by (apply Rmult_le_pos; lra).
    assert (H1 : / f s * / f t <= / m * / m) by (apply Rmult_le_compat; lra).
    specialize (Lf s t Hs Ht). pose proof (Rabs_pos (s - t)) as Hp.
    assert (H2 : Rabs (f s - f t) * (/ f s * / f t) <= (L * Rabs (s - t)) * (/ m * / m)).
    { apply Rmult_le_compat; auto; [apply Rabs_pos|apply Rmult_le_pos; lra]. }
    assert (0 <= / m * Rabs (s - t)) by (apply Rmult_le_pos; lra). lra.
Qed.

(** ** The equation *)
Section Equation.
Variables (p q g T : R) (u y v : R -> R).
Hypothesis HT : 0 <= T.
Definition rhs (t Y V : R) : R := p * (g - Y) - q * V + u t.
Hypothesis Hu : lipb 0 (2 * T) u.
Hypothesis Hy : forall t, 0 <= t <= T -> is_derive y t (v t).
Hypothesis Hv : forall t, 0 <= t <= T -> is_derive v t (rhs t (y t) (v t)).

Lemma derive_bounded (f df : R -> R) : (forall t, 0 <= t <= T -> is_derive f t (df t)) ->
  exists B, 0 <= B /\ forall t, 0 <= t <= T -> Rabs (f t) <= B.
Proof.
  intros Hd.
  assert (Hc : forall t, 0 <= t <= T -> continuity_pt f t).
  { intros t Ht. apply derivable_continuous_pt. exists (df t). apply is_derive_Reals. auto. }
  destruct (continuity_ab_maj f 0 T HT Hc) as (M & HM & _).
  destruct (continuity_ab_min f 0 T HT Hc) as (m & Hm & _).
  exists (Rabs (f M) + Rabs (f m)). pose proof (Rabs_pos (f M)). pose proof (Rabs_pos (f m)).
  split; [lra|]. intros t Ht. specialize (HM t Ht). specialize (Hm t Ht).
  pose proof (Rle_abs (f M)). pose proof (Rle_abs (- f m)). rewrite Rabs_Ropp in *.
  apply Rabs_le. lra.
Qed.

Lemma derive_lip (f df : R -> R) B : (forall t, 0 <= t <= T -> is_derive f t (df t)) ->
  (forall t, 0 <= t <= T -> Rabs (df t) <= B) ->
  forall s t, 0 <= s <= T -> 0 <= t <= T -> Rabs (f s - f t) <= B * Rabs (s - t).
Proof.
  intros Hd HB s t Hs Ht.
  assert (Hin : forall x, Rmin t s <= x <= Rmax t s -> 0 <= x <= T).
  { intros x. unfold Rmin, Rmax. destruct (Rle_dec t s); lra. }
  destruct (MVT_gen f t s df) as (c & Hc & E).
  - intros x Hx. apply Hd, Hin. lra.
  - intros x Hx. apply derivable_continuous_pt. exists (df x). apply is_derive_Reals. auto.
  - rewrite E, Rabs_mult. apply Rmult_le_compat_r; [apply Rabs_pos|]. auto.
Qed.

(** The solution moves at most quadratically away from its tangent. *)
Lemma derive_taylor (f df : R -> R) L : (forall t, 0 <= t <= T -> is_derive f t (df t)) ->
  (forall s t, 0 <= s <= T -> 0 <= t <= T -> Rabs (df s - df t) <= L * Rabs (s - t)) -> 0 <= L ->
  forall t h, 0 <= t -> 0 < h -> t + h <= T -> Rabs (f (t + h) - (f t + h * df t)) <= h ^ 2 * L.
Proof.
  intros Hd HL HL0 t h Ht Hh Hth.
  assert (Hm : Rmin t (t + h) = t) by (apply Rmin_left; lra).
  assert (HM : Rmax t (t + h) = t + h) by (apply Rmax_right; lra).
  destruct (MVT_gen f t (t + h) df) as (c & Hc & E).
  - rewrite Hm, HM. intros x Hx. apply Hd. lra.
  - rewrite Hm, HM. intros x Hx. apply derivable_continuous_pt. exists (df x). apply is_derive_Reals.
    apply Hd. lra.
  - rewrite Hm, HM in Hc.
    replace (f (t + h) - (f t + h * df t)) with (h * (df c - df t)).
    + rewrite Rabs_mult, (Rabs_pos_eq h) by lra. simpl. rewrite Rmult_1_r, Rmult_assoc.
      apply Rmult_le_compat_l; [lra|].
      eapply Rle_trans; [apply HL; lra|].
      rewrite Rmult_comm. apply Rmult_le_compat_r; auto. rewrite Rabs_pos_eq; lra.
    + replace (f (t + h)) with (f t + df c * (t + h - t)) by lra. ring.
Qed.

Definition err (t Y V : R) : R := Rabs (Y - y t) + Rabs (V - v t).

Lemma err_nonneg t Y V : 0 <= err t Y V.
Proof. unfold err. pose proof (Rabs_pos (Y - y t)). pose proof (Rabs_pos (V - v t)). lra. Qed.

(** Bounds of the solution. *)
Lemma solution_bounds : exists B, 0 <= B
  /\ (forall t, 0 <= t <= T -> Rabs (v t) <= B)
  /\ (forall t, 0 <= t <= T -> Rabs (rhs t (y t) (v t)) <= B)
  /\ (forall s t, 0 <= s <= T -> 0 <= t <= T ->
        Rabs (rhs s (y s) (v s) - rhs t (y t) (v t)) <= B * Rabs (s - t))
  /\ (forall s t, 0 <= s <= 2 * T -> 0 <= t <= 2 * T -> Rabs (u s - u t) <= B * Rabs (s - t)).
Proof.
  destruct Hu as (L & HL & Bu & Lu).
  destruct (derive_bounded y v Hy) as (By & HBy & Hby).
  destruct (derive_bounded v _ Hv) as (Bv & HBv & Hbv).
  pose proof (Rabs_pos p) as Pp. pose proof (Rabs_pos q) as Pq. pose proof (Rabs_pos g) as Pg.
  set (A := Rabs p * (Rabs g + By) + Rabs q * Bv + L).
  assert (H1 : 0 <= Rabs p * (Rabs g + By)) by (apply Rmult_le_pos; lra).
  assert (H2 : 0 <= Rabs q * Bv) by (apply Rmult_le_pos; lra).
  assert (HA : forall t, 0 <= t <= T -> Rabs (rhs t (y t) (v t)) <= A).
  { intros t Ht. unfold rhs, A. eapply Rle_trans; [apply Rabs_triang|]. apply Rplus_le_compat.
    - unfold Rminus at 1. eapply Rle_trans; [apply Rabs_triang|]. rewrite Rabs_Ropp, !Rabs_mult.
      apply Rplus_le_compat; apply Rmult_le_compat_l; auto.
      eapply Rle_trans; [apply Rabs_triang|]. rewrite Rabs_Ropp. specialize (Hby t Ht). lra.
    - apply Bu. lra. }
  set (A2 := Rabs p * Bv + Rabs q * A + L).
  assert (H3 : 0 <= Rabs p * Bv) by (apply Rmult_le_pos; lra).
  assert (HA0 : 0 <= A) by (unfold A; lra).
  assert (H4 : 0 <= Rabs q * A) by (apply Rmult_le_pos; lra).
  assert (HA2 : 0 <= A2) by (unfold A2; lra).
  exists (Bv + A + A2 + L). split; [lra|]. split; [|split; [|split]].
  - intros t Ht. specialize (Hbv t Ht). lra.
  - intros t Ht. specialize (HA t Ht). lra.
  - intros s t Hs Ht. pose proof (derive_lip y v Bv Hy Hbv s t Hs Ht) as Ly.
    pose proof (derive_lip v _ A Hv HA s t Hs Ht) as Lv.
    pose proof (Lu s t ltac:(lra) ltac:(lra)) as Lu'.
    pose proof (Rabs_pos (s - t)) as Hst.
    apply Rle_trans with (A2 * Rabs (s - t)); [|apply Rmult_le_compat_r; lra].
    unfold rhs. replace (p * (g - y s) - q * v s + u s - (p * (g - y t) - q * v t + u t))
      with (- p * (y s - y t) + (- q * (v s - v t) + (u s - u t))) by ring.
    eapply Rle_trans; [apply Rabs_triang|].
    assert (I1 : Rabs (- p * (y s - y t)) <= Rabs p * (Bv * Rabs (s - t)))
      by (rewrite Rabs_mult, Rabs_Ropp; apply Rmult_le_compat_l; auto).
    assert (I2 : Rabs (- q * (v s - v t)) <= Rabs q * (A * Rabs (s - t)))
      by (rewrite Rabs_mult, Rabs_Ropp; apply Rmult_le_compat_l; auto).
    pose proof (Rabs_triang (- q * (v s - v t)) (u s - u t)). unfold A2. lra.
  - intros s t Hs Ht. specialize (Lu s t Hs Ht). pose proof (Rabs_pos (s - t)).
    assert (0 <= (Bv + A + A2) * Rabs (s - t)) by (apply Rmult_le_pos; lra). lra.
Qed.

(** A step of length [h] from time [t] that agrees with the Euler step up to
    second order. *)
Definition consistent (M t h Y V Y' V' : R) : Prop :=
  Rabs (V' - (V + h * rhs t Y V)) <= h ^ 2 * (M * (1 + err t Y V))
  /\ Rabs (Y' - (Y + h * V)) <= h ^ 2 * (M * (1 + err t Y V)).

Lemma one_step M : 0 <= M -> exists K C, 0 <= K /\ 0 <= C /\
  forall t h Y V Y' V', 0 <= t -> 0 < h -> t + h <= T -> consistent M t h Y V Y' V' ->
  err (t + h) Y' V' <= (1 + h * K) * err t Y V + h ^ 2 * C.
Proof.
  intros HM. destruct solution_bounds as (B & HB & Bv & Ba & La & _).
  pose proof (Rabs_pos p) as Pp. pose proof (Rabs_pos q) as Pq.
  assert (HTM : 0 <= T * M) by (apply Rmult_le_pos; auto).
  exists (2 * (T * M) + Rabs p + Rabs q + 1), (2 * M + 2 * B). split; [lra|]. split; [lra|].
  intros t h Y V Y' V' Ht Hh Hth (CV & CY).
  pose proof (err_nonneg t Y V) as HN. set (N := err t Y V) in *.
  assert (TV : Rabs (v (t + h) - (v t + h * rhs t (y t) (v t))) <= h ^ 2 * B).
  { apply (derive_taylor v (fun t => rhs t (y t) (v t)) B Hv La HB); auto. }
  assert (TY : Rabs (y (t + h) - (y t + h * v t)) <= h ^ 2 * B).
  { apply (derive_taylor y v B Hy); auto. apply (derive_lip v _ B Hv Ba). }
  assert (EV : Rabs (V' - v (t + h)) <= h ^ 2 * (M * (1 + N)) + ((Rabs (V - v t)
     + h * (Rabs p * Rabs (Y - y t) + Rabs q * Rabs (V - v t))) + h ^ 2 * B)).
  { replace (V' - v (t + h)) with ((V' - (V + h * rhs t Y V)) + (((V - v t)
       + h * (- p * (Y - y t) + - q * (V - v t))) + - (v (t + h) - (v t + h * rhs t (y t) (v t)))))
      by (unfold rhs; ring).
    eapply Rle_trans; [apply Rabs_triang|]. apply Rplus_le_compat; auto.
    eapply Rle_trans; [apply Rabs_triang|]. rewrite Rabs_Ropp. apply Rplus_le_compat; auto.
    eapply Rle_trans; [apply Rabs_triang|]. apply Rplus_le_compat_l.
    rewrite Rabs_mult, (Rabs_pos_eq h) by lra. apply Rmult_le_compat_l; [lra|].
    eapply Rle_trans; [apply Rabs_triang|]. rewrite !Rabs_mult, !Rabs_Ropp. lra. }
  assert (EY : Rabs (Y' - y (t + h)) <= h ^ 2 * (M * (1 + N)) + ((Rabs (Y - y t)
     + h * Rabs (V - v t)) + h ^ 2 * B)).
  { replace (Y' - y (t + h)) with ((Y' - (Y + h * V)) + (((Y - y t) + h * (V - v t))
       + - (y (t + h) - (y t + h * v t)))) by ring.
    eapply Rle_trans; [apply Rabs_triang|]. apply Rplus_le_compat; auto.
    eapply Rle_trans; [apply Rabs_triang|]. rewrite Rabs_Ropp. apply Rplus_le_compat; auto.
    eapply Rle_trans; [apply Rabs_triang|]. apply Rplus_le_compat_l.
    rewrite Rabs_mult, (Rabs_pos_eq h) by lra. lra. }
  assert (EN : N = Rabs (Y - y t) + Rabs (V - v t)) by reflexivity.
  pose proof (Rabs_pos (Y - y t)) as PY. pose proof (Rabs_pos (V - v t)) as PV.
  set (ey := Rabs (Y - y t)) in *. set (ev := Rabs (V - v t)) in *.
  change (err (t + h) Y' V') with (Rabs (Y' - y (t + h)) + Rabs (V' - v (t + h))).
  assert (H1 : h ^ 2 * (M * N) <= h * (T * M) * N).
  { replace (h ^ 2 * (M * N)) with (h * (h * M) * N) by ring.
    apply Rmult_le_compat_r; auto. apply Rmult_le_compat_l; [lra|]. apply Rmult_le_compat_r; lra. }
  assert (H2 : Rabs p * ey + Rabs q * ev + ev <= (Rabs p + Rabs q + 1) * N).
  { rewrite EN. assert (0 <= Rabs p * ev) by (apply Rmult_le_pos; auto).
    assert (0 <= Rabs q * ey) by (apply Rmult_le_pos; auto). lra. }
  assert (H3 : h * (Rabs p * ey + Rabs q * ev + ev) <= h * ((Rabs p + Rabs q + 1) * N))
    by (apply Rmult_le_compat_l; lra).
  lra.
Qed.

(** The error after steps of at most [H] is at most [C H]. *)
Lemma gronwall_invariant K C H t h N N' : 0 <= K -> 0 <= C -> 0 <= t -> 0 < h -> h <= H -> 0 <= N ->
  N <= C * H * t * exp (K * t) -> N' <= (1 + h * K) * N + h ^ 2 * C ->
  N' <= C * H * (t + h) * exp (K * (t + h)).
Proof.
  intros HK HC Ht Hh HhH HN HI HN'.
  assert (HE : 1 + h * K <= exp (K * h)) by (rewrite Rmult_comm; apply exp_ineq1_le).
  assert (HKh : 0 <= h * K) by (apply Rmult_le_pos; lra).
  assert (HCH : 0 <= C * H) by (apply Rmult_le_pos; lra).
  assert (E : exp (K * (t + h)) = exp (K * h) * exp (K * t)) by (rewrite <- exp_plus; f_equal; ring).
  rewrite E. pose proof (exp_pos (K * t)) as Et. pose proof (exp_pos (K * h)) as Eh.
  assert (Hge : 1 <= exp (K * t)).
  { rewrite <- exp_0. assert (Hkt : 0 <= K * t) by (apply Rmult_le_pos; auto).
    destruct Hkt as [Hkt| <-]; [apply Rlt_le, exp_increasing; auto|apply Rle_refl]. }
  assert (H1 : (1 + h * K) * N <= exp (K * h) * (C * H * t * exp (K * t)))
    by (apply Rmult_le_compat; lra).
  assert (H2 : h ^ 2 * C <= C * H * h).
  { replace (h ^ 2 * C) with ((C * h) * h) by ring. apply Rmult_le_compat_r; [lra|].
    apply Rmult_le_compat_l; lra. }
  assert (HCHh : 0 <= C * H * h) by (apply Rmult_le_pos; lra).
  assert (Hone : 1 <= exp (K * h) * exp (K * t)).
  { apply Rle_trans with (1 * 1); [lra|]. apply Rmult_le_compat; lra. }
  assert (H3 : C * H * h * 1 <= C * H * h * (exp (K * h) * exp (K * t)))
    by (apply Rmult_le_compat_l; auto).
  lra.
Qed.

(** The Euler step with the input at the end of the step. *)
Lemma euler_consistent : exists M, 0 <= M /\ forall t h Y V, 0 <= t -> 0 < h -> t + h <= T ->
  let V' := V + h * rhs (t + h) Y V in
  consistent M t h Y V (Y + h * V') V'.
Proof.
  destruct solution_bounds as (B & HB & Bv & Ba & La & Lu).
  pose proof (Rabs_pos p) as Pp. pose proof (Rabs_pos q) as Pq.
  assert (HTB : 0 <= T * B) by (apply Rmult_le_pos; auto).
  exists (2 * B + T * B + Rabs p + Rabs q). split; [lra|].
  intros t h Y V Ht Hh Hth V'. unfold consistent.
  pose proof (err_nonneg t Y V) as HN. pose proof (Rabs_pos (Y - y t)) as PY.
  pose proof (Rabs_pos (V - v t)) as PV.
  assert (EN : err t Y V = Rabs (Y - y t) + Rabs (V - v t)) by reflexivity.
  set (N := err t Y V) in *. set (ey := Rabs (Y - y t)) in *. set (ev := Rabs (V - v t)) in *.
  assert (Hdu : Rabs (u (t + h) - u t) <= B * h).
  { eapply Rle_trans; [apply Lu; lra|]. replace (t + h - t) with h by ring.
    rewrite Rabs_pos_eq; lra. }
  assert (Hh2 : 0 <= h ^ 2) by nra.
  assert (HTh : h * B <= T * B) by (apply Rmult_le_compat_r; lra).
  assert (HpN : 0 <= Rabs p * N) by (apply Rmult_le_pos; auto).
  assert (HqN : 0 <= Rabs q * N) by (apply Rmult_le_pos; auto).
  assert (HBN : 0 <= B * N) by (apply Rmult_le_pos; auto).
  assert (HTBN : 0 <= T * B * N) by (apply Rmult_le_pos; auto).
  split.
  - unfold V'. replace (V + h * rhs (t + h) Y V - (V + h * rhs t Y V)) with (h * (u (t + h) - u t))
      by (unfold rhs; ring).
    rewrite Rabs_mult, (Rabs_pos_eq h) by lra.
    apply Rle_trans with (h ^ 2 * B).
    + apply Rle_trans with (h * (B * h)); [apply Rmult_le_compat_l; lra|apply Req_le; ring].
    + apply Rmult_le_compat_l; auto. lra.
  - unfold V'. replace (Y + h * (V + h * rhs (t + h) Y V) - (Y + h * V))
      with (h ^ 2 * (rhs t (y t) (v t) + (- p * (Y - y t) + - q * (V - v t)) + (u (t + h) - u t)))
      by (unfold rhs; ring).
    rewrite Rabs_mult, (Rabs_pos_eq (h ^ 2)) by auto. apply Rmult_le_compat_l; auto.
    eapply Rle_trans; [apply Rabs_triang|]. eapply Rle_trans; [apply Rplus_le_compat_r, Rabs_triang|].
    pose proof (Rabs_triang (- p * (Y - y t)) (- q * (V - v t))) as H1.
    rewrite !Rabs_mult, !Rabs_Ropp in H1. fold ey ev in H1.
    assert (H2 : Rabs p * ey <= Rabs p * N) by (apply Rmult_le_compat_l; lra).
    assert (H3 : Rabs q * ev <= Rabs q * N) by (apply Rmult_le_compat_l; lra).
    specialize (Ba t ltac:(lra)). lra.
Qed.

(** The Runge-Kutta step with the input sampled at [s0], [s1], [s2], each at most
    [2 h] after [t]. *)
Lemma rk4_consistent : exists M, 0 <= M /\ forall t h Y V s0 s1 s2, 0 <= t -> 0 < h -> t + h <= T ->
  t <= s0 <= t + 2 * h -> t <= s1 <= t + 2 * h -> t <= s2 <= t + 2 * h ->
  let f (s Y V : R) := p * (g - Y) - q * V + u s in
  let K0 := f s0 Y V in
  let C1 := V + h / 2 * K0 in
  let K1 := f s1 (Y + h / 2 * V) C1 in
  let C2 := V + h / 2 * K1 in
  let K2 := f s1 (Y + h / 2 * C1) C2 in
  let C3 := V + h * K2 in
  let K3 := f s2 (Y + h * C2) C3 in
  consistent M t h Y V (Y + h * (V + h / 6 * (K0 + K1 + K2))) (V + h / 6 * (K0 + 2 * K1 + 2 * K2 + K3)).
Proof.
  destruct solution_bounds as (B & HB & Bv & Ba & La & Lu).
  pose proof (Rabs_pos p) as Pp. pose proof (Rabs_pos q) as Pq.
  set (P := Rabs p) in *. set (Q := Rabs q) in *.
  set (rho := B + P + Q + 1).
  set (k0 := rho + T * (2 * B)).
  set (c1 := rho + T * k0).
  set (d1 := P * rho + Q * k0 + 2 * B).
  set (k1 := rho + T * d1).
  set (c2 := rho + T * k1).
  set (d2 := P * c1 + Q * k1 + 2 * B).
  set (k2 := rho + T * d2).
  set (d3 := P * c2 + Q * k2 + 2 * B).
  assert (Hrho : 0 <= rho) by (unfold rho; lra).
  assert (HTB : 0 <= T * (2 * B)) by (apply Rmult_le_pos; lra).
  assert (Hk0 : 0 <= k0) by (unfold k0; lra).
  assert (HTk0 : 0 <= T * k0) by (apply Rmult_le_pos; lra).
  assert (Hc1 : 0 <= c1) by (unfold c1; lra).
  assert (H01 : 0 <= P * rho) by (apply Rmult_le_pos; lra).
  assert (H02 : 0 <= Q * k0) by (apply Rmult_le_pos; lra).
  assert (Hd1 : 0 <= d1) by (unfold d1; lra).
  assert (HTd1 : 0 <= T * d1) by (apply Rmult_le_pos; lra).
  assert (Hk1 : 0 <= k1) by (unfold k1; lra).
  assert (HTk1 : 0 <= T * k1) by (apply Rmult_le_pos; lra).
  assert (Hc2 : 0 <= c2) by (unfold c2; lra).
  assert (H03 : 0 <= P * c1) by (apply Rmult_le_pos; lra).
  assert (H04 : 0 <= Q * k1) by (apply Rmult_le_pos; lra).
  assert (Hd2 : 0 <= d2) by (unfold d2; lra).
  assert (HTd2 : 0 <= T * d2) by (apply Rmult_le_pos; lra).
  assert (Hk2 : 0 <= k2) by (unfold k2; lra).
  assert (H05 : 0 <= P * c2) by (apply Rmult_le_pos; lra).
  assert (H06 : 0 <= Q * k2) by (apply Rmult_le_pos; lra).
  assert (Hd3 : 0 <= d3) by (unfold d3; lra).
  exists (2 * B + d1 + d2 + d3 + k0 + k1 + k2). split; [lra|].
  intros t h Y V s0 s1 s2 Ht Hh Hth I0 I1 I2 f K0 C1 K1 C2 K2 C3 K3.
  pose proof (err_nonneg t Y V) as HN. pose proof (Rabs_pos (Y - y t)) as PY.
  pose proof (Rabs_pos (V - v t)) as PV.
  assert (EN : err t Y V = Rabs (Y - y t) + Rabs (V - v t)) by reflexivity.
  unfold consistent. set (r := rhs t Y V). set (N := err t Y V) in *.
  set (X := 1 + N).
  assert (HX : 1 <= X) by (unfold X; lra).
  assert (Hr : Rabs r <= rho * X).
  { replace r with (rhs t (y t) (v t) + (- p * (Y - y t) + - q * (V - v t))) by (unfold r, rhs; ring).
    eapply Rle_trans; [apply Rabs_triang|].
    pose proof (Rabs_triang (- p * (Y - y t)) (- q * (V - v t))) as H1.
    rewrite !Rabs_mult, !Rabs_Ropp in H1. fold P Q in H1.
    assert (H2 : P * Rabs (Y - y t) <= P * N) by (apply Rmult_le_compat_l; lra).
    assert (H3 : Q * Rabs (V - v t) <= Q * N) by (apply Rmult_le_compat_l; lra).
    specialize (Ba t ltac:(lra)). unfold rho, X.
    assert (0 <= B * N) by (apply Rmult_le_pos; lra). lra. }
  assert (HV : Rabs V <= rho * X).
  { replace V with (v t + (V - v t)) by ring. eapply Rle_trans; [apply Rabs_triang|].
    specialize (Bv t ltac:(lra)). unfold rho, X.
    assert (0 <= B * N) by (apply Rmult_le_pos; lra).
    assert (0 <= P * N) by (apply Rmult_le_pos; lra).
    assert (0 <= Q * N) by (apply Rmult_le_pos; lra). lra. }
  assert (Hu' : forall s, t <= s <= t + 2 * h -> Rabs (u s - u t) <= h * (2 * B) * X).
  { intros s Hs. apply Rle_trans with (h * (2 * B)).
    - eapply Rle_trans; [apply Lu; lra|]. rewrite (Rabs_pos_eq (s - t)) by lra.
      apply Rle_trans with (B * (2 * h)); [apply Rmult_le_compat_l; lra|lra].
    - rewrite <- (Rmult_1_r (h * (2 * B))) at 1. apply Rmult_le_compat_l; auto.
      apply Rmult_le_pos; lra. }
  assert (Hup : forall c, 0 <= c -> h * c * X <= T * c * X).
  { intros c Hc. apply Rmult_le_compat_r; [lra|]. apply Rmult_le_compat_r; lra. }
  assert (Hcomb : forall s w z c k (l : R), t <= s <= t + 2 * h -> Rabs w <= c * X -> Rabs z <= k * X ->
     0 <= l <= h ->
     Rabs (- p * (l * w) + - q * (l * z) + (u s - u t)) <= h * (P * c + Q * k + 2 * B) * X).
  { intros s w z c k l Hs Hw Hz Hl.
    eapply Rle_trans; [apply Rabs_triang|]. eapply Rle_trans; [apply Rplus_le_compat_r, Rabs_triang|].
    rewrite !Rabs_mult, !Rabs_Ropp, (Rabs_pos_eq l) by lra. fold P Q. specialize (Hu' s Hs).
    assert (A1 : l * Rabs w <= h * (c * X)) by (apply Rmult_le_compat; try lra; apply Rabs_pos).
    assert (A2 : l * Rabs z <= h * (k * X)) by (apply Rmult_le_compat; try lra; apply Rabs_pos).
    assert (B1 : P * (l * Rabs w) <= P * (h * (c * X))) by (apply Rmult_le_compat_l; auto).
    assert (B2 : Q * (l * Rabs z) <= Q * (h * (k * X))) by (apply Rmult_le_compat_l; auto).
    lra. }
  assert (Hstep : forall w c k (l : R), 0 <= l <= h -> Rabs w <= k * X -> 0 <= k -> c = rho + T * k ->
     Rabs (V + l * w) <= c * X).
  { intros w c k l Hl Hw Hk ->. eapply Rle_trans; [apply Rabs_triang|].
    rewrite Rabs_mult, (Rabs_pos_eq l) by lra.
    assert (l * Rabs w <= T * (k * X)) by (apply Rmult_le_compat; try lra; apply Rabs_pos). lra. }
  assert (E0 : Rabs (K0 - r) <= h * (2 * B) * X).
  { replace (K0 - r) with (u s0 - u t) by (unfold K0, f, r, rhs; ring). auto. }
  assert (Hadd : forall K dd, Rabs (K - r) <= h * dd * X -> 0 <= dd -> Rabs K <= (rho + T * dd) * X).
  { intros K dd HK Hdd. replace K with (r + (K - r)) by ring. eapply Rle_trans; [apply Rabs_triang|].
    specialize (Hup dd Hdd). lra. }
  assert (A0 : Rabs K0 <= k0 * X) by (apply (Hadd K0 (2 * B) E0); lra).
  assert (AC1 : Rabs C1 <= c1 * X) by (apply (Hstep K0 c1 k0 (h / 2)); auto; lra).
  assert (E1 : Rabs (K1 - r) <= h * d1 * X).
  { replace (K1 - r) with (- p * (h / 2 * V) + - q * (h / 2 * K0) + (u s1 - u t))
      by (unfold K1, C1, f, r, rhs; ring).
    apply Hcomb; auto; lra. }
  assert (A1 : Rabs K1 <= k1 * X) by (apply (Hadd K1 d1 E1); lra).
  assert (AC2 : Rabs C2 <= c2 * X) by (apply (Hstep K1 c2 k1 (h / 2)); auto; lra).
  assert (E2 : Rabs (K2 - r) <= h * d2 * X).
  { replace (K2 - r) with (- p * (h / 2 * C1) + - q * (h / 2 * K1) + (u s1 - u t))
      by (unfold K2, C2, f, r, rhs; ring).
    apply Hcomb; auto; lra. }
  assert (A2 : Rabs K2 <= k2 * X) by (apply (Hadd K2 d2 E2); lra).
  assert (E3 : Rabs (K3 - r) <= h * d3 * X).
  { replace (K3 - r) with (- p * (h * C2) + - q * (h * K2) + (u s2 - u t))
      by (unfold K3, C3, f, r, rhs; ring).
    apply Hcomb; auto; lra. }
  clearbody K0 C1 K1 C2 K2 C3 K3 r.
  assert (Hh2 : 0 <= h ^ 2) by nra.
  split.
  - replace (V + h / 6 * (K0 + 2 * K1 + 2 * K2 + K3) - (V + h * r))
      with (h * ((K0 - r) / 6 + (K1 - r) / 3 + (K2 - r) / 3 + (K3 - r) / 6)) by field.
    rewrite Rabs_mult, (Rabs_pos_eq h) by lra.
    apply Rle_trans with (h * (h * (2 * B + d1 + d2 + d3) * X)).
    + apply Rmult_le_compat_l; [lra|].
      assert (Hd : forall a c, 0 < c -> Rabs (a / c) = Rabs a / c).
      { intros a c Hc. unfold Rdiv. rewrite Rabs_mult, (Rabs_pos_eq (/ c)); auto.
        apply Rlt_le, Rinv_0_lt_compat; auto. }
      eapply Rle_trans; [apply Rabs_triang|].
      eapply Rle_trans; [apply Rplus_le_compat_r, Rabs_triang|].
      eapply Rle_trans; [apply Rplus_le_compat_r, Rplus_le_compat_r, Rabs_triang|].
      rewrite !Hd by lra.
      pose proof (Rabs_pos (K0 - r)). pose proof (Rabs_pos (K1 - r)).
      pose proof (Rabs_pos (K2 - r)). pose proof (Rabs_pos (K3 - r)). lra.
    + replace (h * (h * (2 * B + d1 + d2 + d3) * X)) with (h ^ 2 * ((2 * B + d1 + d2 + d3) * X)) by ring.
      apply Rmult_le_compat_l; auto. apply Rmult_le_compat_r; lra.
  - replace (Y + h * (V + h / 6 * (K0 + K1 + K2)) - (Y + h * V))
      with (h ^ 2 * ((K0 + K1 + K2) / 6)) by field.
    rewrite Rabs_mult, (Rabs_pos_eq (h ^ 2)) by auto. apply Rmult_le_compat_l; auto.
    apply Rle_trans with ((k0 + k1 + k2) * X); [|apply Rmult_le_compat_r; lra].
    unfold Rdiv. rewrite Rabs_mult, (Rabs_pos_eq (/ 6)) by lra.
    pose proof (Rabs_triang (K0 + K1) K2). pose proof (Rabs_triang K0 K1).
    pose proof (Rabs_pos K0). pose proof (Rabs_pos K1). pose proof (Rabs_pos K2). lra.
Qed.

End Equation.
