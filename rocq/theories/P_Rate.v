(** Inputs that decay exponentially give outputs that decay exponentially:
    the recurrences of the step functions (C131). *)
From Coq Require Import Reals Lia Lra Psatz List.
From Coquelicot Require Import Complex.
From Verif Require Import M_Prelude M_Canonical M_Forcing M_Dmp S_Loops S_Dmp S_Stability P_Loops P_Forcing
  P_Converge P_Stability P_Bounded.
Open Scope R_scope.
Set Bullet Behavior "Strict Subproofs".

Lemma div_pow_le x B r k : 0 < r -> Rabs x <= B * r ^ k -> Rabs (x / r ^ k) <= B.
Proof.
  intros Hr H. assert (Hp : 0 < r ^ k) by (now apply pow_lt).
  unfold Rdiv. rewrite Rabs_mult, (Rabs_pos_eq (/ r ^ k)) by (left; now apply Rinv_0_lt_compat).
  apply Rmult_le_reg_r with (r ^ k); auto. rewrite Rmult_assoc, Rinv_l by lra. lra.
Qed.

Lemma mul_pow_le x B r k : 0 < r -> Rabs (x / r ^ k) <= B -> Rabs x <= B * r ^ k.
Proof.
  intros Hr H. assert (Hp : 0 < r ^ k) by (now apply pow_lt).
  unfold Rdiv in H. rewrite Rabs_mult, (Rabs_pos_eq (/ r ^ k)) in H by (left; now apply Rinv_0_lt_compat).
  apply Rmult_le_compat_r with (r := r ^ k) in H; [|lra]. rewrite Rmult_assoc, Rinv_l in H by lra. lra.
Qed.

Lemma Cmod_scale l r : 0 < r -> Cmod l < r -> Cmod (l * RtoC (/ r))%C < 1.
Proof.
  intros Hr H. rewrite Cmod_mult, Cmod_R, Rabs_pos_eq by (left; now apply Rinv_0_lt_compat).
  apply Rmult_lt_reg_r with r; auto. rewrite Rmult_assoc, Rinv_l by lra. lra.
Qed.

Lemma two_rate m11 m12 m21 m22 l1 l2 r :
  (l1 + l2 = RtoC (m11 + m22))%C -> (l1 * l2 = RtoC (m11 * m22 - m12 * m21))%C ->
  0 < r -> Cmod l1 < r -> Cmod l2 < r ->
  exists K, 0 <= K /\ forall (e v p q : nat -> R) (B : R),
  (forall k, e (S k) = m11 * e k + m12 * v k + p k) ->
  (forall k, v (S k) = m21 * e k + m22 * v k + q k) ->
  Rabs (e 0%nat) <= B -> Rabs (v 0%nat) <= B ->
  (forall k, Rabs (p k) <= B * r ^ k) -> (forall k, Rabs (q k) <= B * r ^ k) ->
  forall k, Rabs (e k) <= K * B * r ^ k /\ Rabs (v k) <= K * B * r ^ k.
Proof.
  intros Ht Hd Hr H1 H2.
  destruct (two_bounded (m11 / r) (m12 / r) (m21 / r) (m22 / r) (l1 * RtoC (/ r))%C (l2 * RtoC (/ r))%C)
    as (K & HK & H).
  - replace (m11 / r + m22 / r) with ((m11 + m22) * / r) by (field; lra).
    rewrite RtoC_mult, <- Ht. ring.
  - replace (m11 / r * (m22 / r) - m12 / r * (m21 / r)) with ((m11 * m22 - m12 * m21) * (/ r * / r))
      by (field; lra).
    rewrite !RtoC_mult, <- Hd. ring.
  - now apply Cmod_scale.
  - now apply Cmod_scale.
  - set (g := 1 + / r). assert (Hi : 0 < / r) by (now apply Rinv_0_lt_compat).
    exists (K * g). split; [apply Rmult_le_pos; unfold g; lra|].
    intros e v p q B He Hv E0 V0 Hp Hq.
    assert (HB : 0 <= B) by (eapply Rle_trans; [apply Rabs_pos|exact E0]).
    assert (Hg : B <= g * B) by (unfold g; nra).
    assert (Hin : forall x k, Rabs x <= B * r ^ k -> Rabs (x / r ^ S k) <= g * B).
    { intros x k Hx. apply div_pow_le; auto. eapply Rle_trans; [exact Hx|].
      assert (0 < r ^ k) by (now apply pow_lt). cbn [pow]. unfold g.
      replace ((1 + / r) * B * (r * r ^ k)) with (B * r ^ k + B * (r * r ^ k)) by (field; lra).
      assert (0 <= B * (r * r ^ k)) by (apply Rmult_le_pos; auto; apply Rmult_le_pos; lra). lra. }
    pose proof (H (fun k => e k / r ^ k) (fun k => v k / r ^ k) (fun k => p k / r ^ S k)
      (fun k => q k / r ^ S k) (g * B)) as Z.
    assert (Hne : forall k, r ^ k <> 0) by (intros; apply pow_nonzero; lra).
    intros k. destruct (Z) with (k := k) as [Z1 Z2].
    + intros j. rewrite He. cbn [pow]. field. split; [apply Hne|lra].
    + intros j. rewrite Hv. cbn [pow]. field. split; [apply Hne|lra].
    + cbn [pow]. unfold Rdiv. rewrite Rinv_1, Rmult_1_r. lra.
    + cbn [pow]. unfold Rdiv. rewrite Rinv_1, Rmult_1_r. lra.
    + intros j. auto.
    + intros j. auto.
    + rewrite (Rmult_assoc K g B). split; now apply mul_pow_le.
Qed.

(** The semi-implicit Euler method. *)
Lemma euler_rate h c k r : 0 < r -> (forall mu, euler_growth h c k mu -> Cmod mu < r) ->
  exists K, 0 <= K /\ forall (e v u : nat -> R) (B : R),
  (forall j, v (S j) = v j + h * (- k * e j - c * v j + u j)) ->
  (forall j, e (S j) = e j + h * v (S j)) ->
  Rabs (e 0%nat) <= B -> Rabs (v 0%nat) <= B -> (forall j, Rabs (u j) <= B * r ^ j) ->
  forall j, Rabs (e j) <= K * B * r ^ j /\ Rabs (v j) <= K * B * r ^ j.
Proof.
  intros Hr Hst.
  destruct (quadratic_roots (2 - h * c - h ^ 2 * k) (1 - h * c)) as (l1 & l2 & Ht & Hp).
  destruct (two_rate (1 - h ^ 2 * k) (h * (1 - h * c)) (- h * k) (1 - h * c) l1 l2 r) as (K & HK & H); auto.
  - rewrite Ht. f_equal. ring.
  - rewrite Hp. f_equal. ring.
  - apply Hst. unfold euler_growth. apply (root_of _ _ l1 l2 _ Ht Hp); auto.
  - apply Hst. unfold euler_growth. apply (root_of _ _ l1 l2 _ Ht Hp); auto.
  - set (g := 1 + Rabs h + h ^ 2).
    pose proof (Rabs_pos h). pose proof (pow2_ge_0 h).
    assert (Hg : 1 <= g) by (unfold g; lra).
    exists (K * g). split; [apply Rmult_le_pos; lra|].
    intros e v u B Hv He E0 V0 Hu.
    assert (HB : 0 <= B) by (eapply Rle_trans; [apply Rabs_pos|exact E0]).
    rewrite (Rmult_assoc K g B).
    assert (Hc : forall c0 j, 0 <= c0 <= g -> c0 * Rabs (u j) <= g * B * r ^ j).
    { intros c0 j Hc0. specialize (Hu j). pose proof (Rabs_pos (u j)).
      rewrite Rmult_assoc. apply Rmult_le_compat; lra. }
    apply (H e v (fun j => h ^ 2 * u j) (fun j => h * u j)).
    + intros j. rewrite He, Hv. ring.
    + intros j. rewrite Hv. ring.
    + nra.
    + nra.
    + intros j. rewrite Rabs_mult, (Rabs_pos_eq (h ^ 2)) by auto. apply Hc. unfold g. lra.
    + intros j. rewrite Rabs_mult. apply Hc. unfold g. lra.
Qed.

(** The Runge-Kutta method. *)
Lemma rk4_rate h c k r : 0 < r ->
  (forall l, rate c k l -> Cmod (rk4_growth (RtoC h * l)%C) < r) ->
  exists K, 0 <= K /\ forall (e v p q : nat -> R) (B : R),
  (forall j, e (S j) = ra h c k * e j + rb h c k * h * v j + p j) ->
  (forall j, v (S j) = - rb h c k * h * k * e j + (ra h c k - rb h c k * h * c) * v j + q j) ->
  Rabs (e 0%nat) <= B -> Rabs (v 0%nat) <= B ->
  (forall j, Rabs (p j) <= B * r ^ j) -> (forall j, Rabs (q j) <= B * r ^ j) ->
  forall j, Rabs (e j) <= K * B * r ^ j /\ Rabs (v j) <= K * B * r ^ j.
Proof.
  intros Hr Hst.
  destruct (quadratic_roots (- c) k) as (mu1 & mu2 & Hs & Hpr).
  destruct (rk4_eigenvalues h c k mu1 mu2 Hs Hpr) as [Ht Hd].
  assert (Hrt : forall x, x = mu1 \/ x = mu2 -> rate c k x).
  { intros x Hx. apply (root_of _ _ mu1 mu2 x Hs Hpr) in Hx. unfold rate. rewrite <- Hx.
    rewrite RtoC_opp. ring. }
  exact (two_rate _ _ _ _ _ _ r Ht Hd Hr (Hst _ (Hrt _ (or_introl eq_refl))) (Hst _ (Hrt _ (or_intror eq_refl)))).
Qed.

(** ** The step functions *)
(** A decaying input per unit of time. *)
Definition input_decays (a : dmp_args) (d : nat) (lam B : R) : Prop := forall t, 0 <= t ->
  Rabs (disturbance a (ft_phase (a_forcing_term a) t) d / (a_goal_t a - a_start_t a) ^ 2) <= B * exp (- lam * t).

Lemma exp_pow lam h k : exp (- lam * (INR k * h)) = exp (- lam * h) ^ k.
Proof.
  induction k as [|k IH].
  - simpl. rewrite Rmult_0_l, Rmult_0_r. apply exp_0.
  - rewrite S_INR. cbn [pow]. rewrite <- IH, <- exp_plus. f_equal. ring.
Qed.

Lemma later_smaller lam h t k B : 0 <= lam -> 0 <= B -> INR k * h <= t ->
  B * exp (- lam * t) <= B * exp (- lam * h) ^ k.
Proof.
  intros Hl HB Ht. rewrite <- exp_pow. apply Rmult_le_compat_l; auto.
  destruct (Rle_lt_or_eq_dec _ _ Ht) as [H|H]; [|rewrite H; lra].
  destruct (Rle_lt_or_eq_dec _ _ Hl) as [Hp|<-]; [|rewrite !Ropp_0, !Rmult_0_l; lra].
  left. apply exp_increasing. nra.
Qed.

Lemma three_decay c0 c1 c2 x0 x1 x2 U : Rabs x0 <= U -> Rabs x1 <= U -> Rabs x2 <= U ->
  Rabs (c0 * x0 + c1 * x1 + c2 * x2) <= (Rabs c0 + Rabs c1 + Rabs c2) * U.
Proof.
  intros H0 H1 H2. eapply Rle_trans; [apply Rabs_triang|]. rewrite !Rmult_plus_distr_r.
  apply Rplus_le_compat; [eapply Rle_trans; [apply Rabs_triang|]; apply Rplus_le_compat|];
    rewrite Rabs_mult; apply Rmult_le_compat_l; auto; apply Rabs_pos.
Qed.

Lemma rk4_run_rate dt c kk lam : 0 < dt -> 0 <= lam ->
  (forall l, rate c kk l -> Cmod (rk4_growth (RtoC dt * l)%C) < exp (- lam * dt)) ->
  exists K, 0 <= K /\ forall a d B s,
  free a -> a_start_t a < a_goal_t a -> damping a d = c -> stiffness a d = kk -> input_decays a d lam B ->
  (forall k, s (S k) = dmp_step_rk4 a (0 + INR k * dt) (0 + INR (S k) * dt) (s k)) ->
  Rabs (fst (s 0%nat) d - a_goal_y a d) <= B -> Rabs (snd (s 0%nat) d) <= B ->
  forall k, Rabs (fst (s k) d - a_goal_y a d) <= K * B * exp (- lam * (INR k * dt))
    /\ Rabs (snd (s k) d) <= K * B * exp (- lam * (INR k * dt)).
Proof.
  intros Hdt Hl Hg.
  destruct (rk4_rate dt c kk (exp (- lam * dt)) (exp_pos _) Hg) as (K & HK & H).
  set (p0 := dt ^ 2 / 6 * (1 - dt * c / 2 + ((dt * c) ^ 2 - dt ^ 2 * kk) / 4)).
  set (p1 := dt ^ 2 / 6 * (2 - dt * c / 2)).
  set (q0 := dt / 6 * (1 - dt * c + ((dt * c) ^ 2 - dt ^ 2 * kk) / 2
                + (2 * (dt * c) * (dt ^ 2 * kk) - (dt * c) ^ 3) / 4)).
  set (q1 := dt / 6 * (4 - 2 * (dt * c) + ((dt * c) ^ 2 - dt ^ 2 * kk) / 2)).
  set (q2 := dt / 6).
  set (M := 1 + (Rabs p0 + Rabs p1 + Rabs 0) + (Rabs q0 + Rabs q1 + Rabs q2)).
  pose proof (Rabs_pos p0). pose proof (Rabs_pos p1). pose proof (Rabs_pos 0). pose proof (Rabs_pos q0).
  pose proof (Rabs_pos q1). pose proof (Rabs_pos q2).
  assert (HM : 1 <= M) by (unfold M; lra).
  exists (K * M). split; [apply Rmult_le_pos; lra|].
  intros a d B s Fa Ht Da Ka Hu Rs HE HV k.
  assert (HB : 0 <= B) by (eapply Rle_trans; [apply Rabs_pos|exact HV]).
  set (tau := a_goal_t a - a_start_t a) in *.
  set (u := fun t => disturbance a (ft_phase (a_forcing_term a) t) d / tau ^ 2).
  set (tm := fun k => 0 + INR (S k) * dt).
  assert (Hin : forall j, Rabs (u (tm j)) <= B * exp (- lam * dt) ^ j
     /\ Rabs (u (tm j + / 2 * dt)) <= B * exp (- lam * dt) ^ j
     /\ Rabs (u (tm j + dt)) <= B * exp (- lam * dt) ^ j).
  { intros j. assert (Hj : INR j * dt <= tm j /\ 0 <= tm j).
    { unfold tm. rewrite S_INR. pose proof (pos_INR j). split; nra. }
    repeat split; (eapply Rle_trans; [apply Hu; lra|]; apply later_smaller; auto; lra). }
  assert (O : forall k, let e := fst (s k) d - a_goal_y a d in let v := snd (s k) d in
     fst (s (S k)) d - a_goal_y a d = ra dt c kk * e + rb dt c kk * dt * v
        + (p0 * u (tm k) + p1 * u (tm k + / 2 * dt) + 0 * u (tm k + dt))
     /\ snd (s (S k)) d = - rb dt c kk * dt * kk * e + (ra dt c kk - rb dt c kk * dt * c) * v
          + (q0 * u (tm k) + q1 * u (tm k + / 2 * dt) + q2 * u (tm k + dt))).
  { intros j. cbv zeta. rewrite Rs. destruct (s j) as [y v].
    pose proof (rk4_two a (0 + INR j * dt) (0 + INR (S j) * dt) y v d Fa ltac:(lra)) as Z.
    cbv zeta in Z. rewrite Da, Ka in Z. fold tau in Z.
    replace (0 + INR (S j) * dt - (0 + INR j * dt)) with dt in Z by (rewrite S_INR; ring).
    exact Z. }
  rewrite exp_pow, (Rmult_assoc K M B).
  apply (H (fun k => fst (s k) d - a_goal_y a d) (fun k => snd (s k) d)
    (fun k => p0 * u (tm k) + p1 * u (tm k + / 2 * dt) + 0 * u (tm k + dt))
    (fun k => q0 * u (tm k) + q1 * u (tm k + / 2 * dt) + q2 * u (tm k + dt)) (M * B)).
  - intros j. apply O.
  - intros j. apply O.
  - nra.
  - nra.
  - intros j. destruct (Hin j) as (I0 & I1 & I2). eapply Rle_trans; [apply three_decay; eauto|].
    rewrite Rmult_assoc. apply Rmult_le_compat_r; [|unfold M; lra].
    apply Rmult_le_pos; auto. left. apply pow_lt, exp_pos.
  - intros j. destruct (Hin j) as (I0 & I1 & I2). eapply Rle_trans; [apply three_decay; eauto|].
    rewrite Rmult_assoc. apply Rmult_le_compat_r; [|unfold M; lra].
    apply Rmult_le_pos; auto. left. apply pow_lt, exp_pos.
Qed.

Lemma euler_run_rate h c kk lam : 0 < h -> 0 <= lam ->
  (forall mu, euler_growth h c kk mu -> Cmod mu < exp (- lam * h)) ->
  exists K, 0 <= K /\ forall a d B x,
  free a -> a_start_t a < a_goal_t a -> damping a d = c -> stiffness a d = kk -> input_decays a d lam B ->
  Rabs (fst x d - a_goal_y a d) <= B -> Rabs (snd x d) <= B ->
  forall k, let s := substates a 0 h x k in
    Rabs (fst s d - a_goal_y a d) <= K * B * exp (- lam * (INR k * h))
    /\ Rabs (snd s d) <= K * B * exp (- lam * (INR k * h)).
Proof.
  intros Hh Hl Hg.
  destruct (euler_rate h c kk (exp (- lam * h)) (exp_pos _) Hg) as (K & HK & H).
  exists K. split; auto. intros a d B x Fa Ht Da Ka Hu HE HV k. cbv zeta.
  assert (HB : 0 <= B) by (eapply Rle_trans; [apply Rabs_pos|exact HV]).
  rewrite exp_pow.
  apply (H (fun k => fst (substates a 0 h x k) d - a_goal_y a d) (fun k => snd (substates a 0 h x k) d)
    (fun k => disturbance a (ft_phase (a_forcing_term a) (0 + INR (S k) * h)) d
              / (a_goal_t a - a_start_t a) ^ 2)); auto.
  - intros j. cbn [substates]. destruct (substates a 0 h x j) as [y v].
    pose proof (euler_two a (0 + INR (S j) * h) h y v d Fa ltac:(lra)) as Z. cbv zeta in Z.
    rewrite Da, Ka in Z. apply Z.
  - intros j. cbn [substates]. destruct (substates a 0 h x j) as [y v].
    pose proof (euler_two a (0 + INR (S j) * h) h y v d Fa ltac:(lra)) as Z. cbv zeta in Z. apply Z.
  - intros j. pose proof (pos_INR j).
    eapply Rle_trans; [apply Hu; rewrite S_INR; nra|]. apply later_smaller; auto. rewrite S_INR. lra.
Qed.
