(** C125: smooth scaling avoids the jump at the beginning of a movement whose goal
    was changed.  Final statements. *)
From Coq Require Import Reals ZArith List Lia Lra Psatz FunctionalExtensionality.
From Verif Require Import M_Prelude M_Canonical M_Forcing M_Dmp M_Base M_DmpObject
  S_Loops S_Dmp P_Loops P_Canonical P_Forcing P_DmpStep P_DmpScale P_DmpLinear P_Converge
  P_DmpObject P_DmpAffine P_Disturbed P_Continuity P_Ode Properties_Forcing Properties_Dmp
  Properties_DmpObject Properties_Goal Properties_Equivariance Properties_Continuity Properties_Stability
  Properties_ContinuityAll Properties_Ode.
Import ListNotations.
Open Scope R_scope.
Set Bullet Behavior "Strict Subproofs".

(** ** Specification *)
(** The objects have the same settings, and in dimension [d] the same gains, start and
    weights.  Their goals may differ. *)
Definition only_goal_differs (d : nat) (o o' : dmp) : Prop :=
  same_settings o o' /\ gains_like o d o'
  /\ aget (p_start_y (o_base o')) d = aget (p_start_y (o_base o)) d
  /\ forall i, (i < o_n_weights_per_dim o)%nat ->
       ft_weights (o_forcing_term o') d i = ft_weights (o_forcing_term o) d i.

Definition goal_change (d : nat) (o o' : dmp) : R :=
  Rabs (aget (p_goal_y (o_base o')) d - aget (p_goal_y (o_base o)) d).

(** Execution time, gains and the end of the forcing term. *)
Definition has_gains (tau al be G : R) (d : nat) (o : dmp) : Prop :=
  o_execution_time o = tau /\ aget (o_alpha_y o) d = al /\ aget (o_beta_y o) d = be
  /\ ft_goal_t (o_forcing_term o) = G.

(** Both calls of [open_loop] raise the same exception, or give trajectories at the same
    times that part like [E * t^3] in dimension [d]: without a jump of the
    acceleration, hence slower than any [E * t^2]. *)
Definition part_smoothly (E T : R) (d : nat) (r r' : res (list R * list vec)) : Prop :=
  match r, r' with
  | Ok (ts, ys), Ok (ts', ys') =>
      ts' = ts /\ length ys = length ts /\ length ys' = length ts
      /\ forall k, (k < length ts)%nat -> nth k ts 0 <= T ->
           Rabs (nth k ys' vzero d - nth k ys vzero d) <= E * nth k ts 0 ^ 3
  | Err e, Err e' => e' = e
  | _, _ => False
  end.

(** ** Proofs *)
Lemma abs_acc p q w Y V W A B : Rabs w <= W -> Rabs Y <= A -> Rabs V <= B ->
  Rabs (w - p * Y - q * V) <= W + Rabs p * A + Rabs q * B.
Proof.
  intros Hw HY HV.
  replace (w - p * Y - q * V) with (w + (- (p * Y) + - (q * V))) by ring.
  eapply Rle_trans; [apply Rabs_triang|].
  pose proof (Rabs_triang (- (p * Y)) (- (q * V))) as H. rewrite !Rabs_Ropp, !Rabs_mult in H.
  pose proof (Rmult_le_compat_l (Rabs p) _ _ (Rabs_pos p) HY).
  pose proof (Rmult_le_compat_l (Rabs q) _ _ (Rabs_pos q) HV). lra.
Qed.

Lemma abs_add h x k X K : 0 <= h -> Rabs x <= X -> Rabs k <= K -> Rabs (x + h * k) <= X + h * K.
Proof.
  intros Hh Hx Hk. eapply Rle_trans; [apply Rabs_triang|]. rewrite Rabs_mult, (Rabs_pos_eq h) by auto.
  pose proof (Rmult_le_compat_l h _ _ Hh Hk). lra.
Qed.

Definition amp (p q T : R) : R :=
  let M := Rabs p * T ^ 2 + Rabs q * T in 1 + M + M ^ 2 + M ^ 3.

Lemma amp_pos p q T : 0 <= T -> 1 <= amp p q T.
Proof.
  intros HT. unfold amp. cbv zeta. pose proof (Rabs_pos p). pose proof (Rabs_pos q).
  assert (0 <= Rabs p * T ^ 2 + Rabs q * T).
  { apply Rplus_le_le_0_compat; apply Rmult_le_pos; auto. apply pow_le; auto. }
  set (M := Rabs p * T ^ 2 + Rabs q * T) in *.
  pose proof (pow_le M 2 H1). pose proof (pow_le M 3 H1). lra.
Qed.

(** One step of the Runge-Kutta method for the difference of two movements. *)
Lemma rk4_gap p q h T w0 w1 w2 W Y V a b : 0 <= h <= T ->
  Rabs w0 <= W -> Rabs w1 <= W -> Rabs w2 <= W -> Rabs Y <= a -> Rabs V <= b ->
  let f w Y V := w - p * Y - q * V in
  let K0 := f w0 Y V in
  let C1 := V + h / 2 * K0 in
  let K1 := f w1 (Y + h / 2 * V) C1 in
  let C2 := V + h / 2 * K1 in
  let K2 := f w1 (Y + h / 2 * C1) C2 in
  let C3 := V + h * K2 in
  let K3 := f w2 (Y + h * C2) C3 in
  let A := amp p q T * (W + Rabs p * a + (Rabs p * T + Rabs q) * b) in
  Rabs (Y + h * (V + h / 6 * (K0 + K1 + K2))) <= a + h * (b + h * A)
  /\ Rabs (V + h / 6 * (K0 + 2 * K1 + 2 * K2 + K3)) <= b + h * A.
Proof.
  intros Hh H0 H1 H2 HY HV f K0 C1 K1 C2 K2 C3 K3 A.
  set (P := Rabs p) in *. set (Q := Rabs q) in *.
  assert (HP : 0 <= P) by apply Rabs_pos. assert (HQ : 0 <= Q) by apply Rabs_pos.
  assert (Ha : 0 <= a) by (eapply Rle_trans; [apply Rabs_pos|exact HY]).
  assert (Hb : 0 <= b) by (eapply Rle_trans; [apply Rabs_pos|exact HV]).
  assert (HW : 0 <= W) by (eapply Rle_trans; [apply Rabs_pos|exact H0]).
  set (M := P * T ^ 2 + Q * T).
  set (X := W + P * a + (P * T + Q) * b).
  assert (HM1 : P * h ^ 2 + Q * h <= M).
  { unfold M. pose proof (Rmult_le_compat_l Q h T HQ (proj2 Hh)).
    assert (h ^ 2 <= T ^ 2) by (apply pow_incr; lra).
    pose proof (Rmult_le_compat_l P _ _ HP H3). lra. }
  assert (Hh2 : 0 <= h ^ 2) by (apply pow_le; lra).
  assert (HPh : 0 <= P * h ^ 2) by (now apply Rmult_le_pos).
  assert (HQh : 0 <= Q * h) by (apply Rmult_le_pos; lra).
  assert (HM : 0 <= M) by lra.
  assert (HPb : 0 <= P * b) by now apply Rmult_le_pos.
  assert (HPT : P * (h * b) <= P * T * b).
  { replace (P * T * b) with ((P * b) * T) by ring. replace (P * (h * b)) with ((P * b) * h) by ring.
    apply Rmult_le_compat_l; lra. }
  assert (HPh0 : 0 <= P * (h * b)).
  { apply Rmult_le_pos; auto. apply Rmult_le_pos; lra. }
  assert (HX : 0 <= X).
  { unfold X. assert (0 <= P * a) by now apply Rmult_le_pos. assert (0 <= Q * b) by now apply Rmult_le_pos.
    replace ((P * T + Q) * b) with (P * T * b + Q * b) by ring. lra. }
  assert (B0 : Rabs K0 <= X).
  { unfold K0, f. eapply Rle_trans; [apply (abs_acc p q _ _ _ W a b); auto|]. fold P Q.
    unfold X. replace ((P * T + Q) * b) with (P * T * b + Q * b) by ring. lra. }
  assert (Hm : forall c, 0 <= c -> 0 <= X * c) by (intros; now apply Rmult_le_pos).
  assert (S1 : forall c, 0 <= c -> P * (h ^ 2 * (X * c)) + Q * (h * (X * c)) <= X * (M * c)).
  { intros c Hc. replace (P * (h ^ 2 * (X * c)) + Q * (h * (X * c))) with ((P * h ^ 2 + Q * h) * (X * c)) by ring.
    replace (X * (M * c)) with (M * (X * c)) by ring. apply Rmult_le_compat_r; auto. }
  assert (S2 : forall c, 0 <= c -> 0 <= P * (h ^ 2 * (X * c)) /\ 0 <= Q * (h * (X * c))).
  { intros c Hc. specialize (Hm c Hc). split; (apply Rmult_le_pos; [auto|apply Rmult_le_pos; auto; lra]). }
  assert (BC1 : Rabs C1 <= b + h / 2 * X) by (apply abs_add; auto using Rle_refl; try lra).
  assert (B1 : Rabs K1 <= X * (1 + M)).
  { unfold K1, f. eapply Rle_trans; [apply (abs_acc p q _ _ _ W (a + h / 2 * b) (b + h / 2 * X)); auto|].
    - apply abs_add; auto; try lra.
    - fold P Q. specialize (S1 1 ltac:(lra)). specialize (S2 1 ltac:(lra)).
      replace (P * (h ^ 2 * (X * 1)) + Q * (h * (X * 1))) with (P * (h ^ 2 * (X * 1)) + Q * h * X) in S1 by ring.
      replace (X * (1 + M)) with (W + P * a + P * T * b + Q * b + X * (M * 1)) by (unfold X; ring).
      destruct S2 as [S2 S2']. replace (Q * (h * (X * 1))) with (Q * h * X) in S2' by ring.
      replace (Q * (b + h / 2 * X)) with (Q * b + Q * h * X / 2) by field. lra. }
  assert (BC2 : Rabs C2 <= b + h / 2 * (X * (1 + M))) by (apply abs_add; auto using Rle_refl; try lra).
  assert (Mm : 0 <= M ^ 2) by (apply pow_le; auto).
  assert (B2 : Rabs K2 <= X * (1 + M + M ^ 2)).
  { unfold K2, f. eapply Rle_trans; [apply (abs_acc p q _ _ _ W (a + h / 2 * (b + h / 2 * X)) (b + h / 2 * (X * (1 + M)))); auto|].
    - apply abs_add; auto; try lra.
    - fold P Q. specialize (S1 (1 + M) ltac:(lra)).
      destruct (S2 (1 + M) ltac:(lra)) as [S2a S2b]. destruct (S2 M HM) as [S2c S2d].
      replace (X * (1 + M + M ^ 2)) with (W + P * a + P * T * b + Q * b + X * (M * (1 + M))) by (unfold X; ring).
      replace (P * (a + h / 2 * (b + h / 2 * X))) with (P * a + P * (h * b) / 2
         + (P * (h ^ 2 * (X * (1 + M))) - P * (h ^ 2 * (X * M))) / 4) by field.
      replace (Q * (b + h / 2 * (X * (1 + M)))) with (Q * b + Q * (h * (X * (1 + M))) / 2) by field. lra. }
  assert (BC3 : Rabs C3 <= b + h * (X * (1 + M + M ^ 2))) by (apply abs_add; auto using Rle_refl; try lra).
  assert (B3 : Rabs K3 <= X * (1 + M + M ^ 2 + M ^ 3)).
  { unfold K3, f. eapply Rle_trans; [apply (abs_acc p q _ _ _ W (a + h * (b + h / 2 * (X * (1 + M)))) (b + h * (X * (1 + M + M ^ 2)))); auto|].
    - apply abs_add; auto; try lra.
    - fold P Q. specialize (S1 (1 + M + M ^ 2) ltac:(lra)).
      destruct (S2 (1 + M + M ^ 2) ltac:(lra)) as [S2a S2b]. destruct (S2 (M ^ 2) Mm) as [S2c S2d].
      replace (X * (1 + M + M ^ 2 + M ^ 3)) with (W + P * a + P * T * b + Q * b + X * (M * (1 + M + M ^ 2))) by (unfold X; ring).
      replace (P * (a + h * (b + h / 2 * (X * (1 + M))))) with (P * a + P * (h * b)
         + (P * (h ^ 2 * (X * (1 + M + M ^ 2))) - P * (h ^ 2 * (X * M ^ 2))) / 2) by field.
      replace (Q * (b + h * (X * (1 + M + M ^ 2)))) with (Q * b + Q * (h * (X * (1 + M + M ^ 2)))) by ring. lra. }
  assert (EA : A = X * (1 + M + M ^ 2 + M ^ 3)).
  { unfold A, amp, X. cbv zeta. fold P Q M. ring. }
  assert (M3 : 0 <= M ^ 3) by (apply pow_le; auto).
  assert (L0 : X <= A) by (rewrite EA; pose proof (Hm (M + M ^ 2 + M ^ 3) ltac:(lra)); lra).
  assert (L1 : X * (1 + M) <= A) by (rewrite EA; apply Rmult_le_compat_l; lra).
  assert (L2 : X * (1 + M + M ^ 2) <= A) by (rewrite EA; apply Rmult_le_compat_l; lra).
  rewrite <- EA in B3.
  assert (T3 : Rabs (K0 + K1 + K2) <= 6 * A).
  { eapply Rle_trans; [apply Rabs_triang|]. pose proof (Rabs_triang K0 K1). lra. }
  assert (T6 : Rabs (K0 + 2 * K1 + 2 * K2 + K3) <= 6 * A).
  { eapply Rle_trans; [apply Rabs_triang|].
    pose proof (Rabs_triang (K0 + 2 * K1) (2 * K2)). pose proof (Rabs_triang K0 (2 * K1)).
    rewrite !Rabs_mult, (Rabs_pos_eq 2) in * by lra. lra. }
  split.
  - apply abs_add; auto; try lra. replace (h * A) with (h / 6 * (6 * A)) by field.
    apply abs_add; auto; try lra.
  - replace (h * A) with (h / 6 * (6 * A)) by field. apply abs_add; auto; try lra.
Qed.

(** Growth of the difference. *)
Definition rate (p q T : R) : R := amp p q T * (2 * Rabs p * T + Rabs q).
Definition level (p q L T D : R) : R := 2 * amp p q T * Rabs p * L * D.
Definition env (p q L T D t : R) : R := level p q L T D * exp (rate p q T * t).

Lemma rate_pos p q T : 0 <= T -> 0 <= rate p q T.
Proof.
  intros HT. unfold rate. pose proof (amp_pos p q T HT). pose proof (Rabs_pos p). pose proof (Rabs_pos q).
  apply Rmult_le_pos; [lra|]. assert (0 <= Rabs p * T) by now apply Rmult_le_pos. lra.
Qed.

Lemma level_pos p q L T D : 0 <= T -> 0 <= L -> 0 <= D -> 0 <= level p q L T D.
Proof.
  intros HT HL HD. unfold level. pose proof (amp_pos p q T HT). pose proof (Rabs_pos p).
  repeat apply Rmult_le_pos; auto; lra.
Qed.

Lemma env_le p q L T D t : 0 <= T -> 0 <= L -> 0 <= D -> 0 <= t ->
  level p q L T D <= env p q L T D t.
Proof.
  intros HT HL HD Ht. unfold env. pose proof (level_pos p q L T D HT HL HD).
  pose proof (exp_ineq1_le (rate p q T * t)). pose proof (rate_pos p q T HT).
  assert (0 <= rate p q T * t) by now apply Rmult_le_pos.
  rewrite <- (Rmult_1_r (level p q L T D)) at 1. apply Rmult_le_compat_l; lra.
Qed.

Lemma early_step p q L T D t h a b a1 b1 : 0 <= L -> 0 <= D -> 0 <= t -> 0 < h -> t + h <= T ->
  let A := amp p q T * (Rabs p * D * (L * (t + 2 * h)) + Rabs p * a + (Rabs p * T + Rabs q) * b) in
  a <= env p q L T D t * t ^ 3 -> b <= env p q L T D t * t ^ 2 ->
  b1 <= b + h * A -> a1 <= a + h * (b + h * A) ->
  a1 <= env p q L T D (t + h) * (t + h) ^ 3 /\ b1 <= env p q L T D (t + h) * (t + h) ^ 2.
Proof.
  intros HL HD Ht Hh HT A Ha Hb Hb1 Ha1.
  assert (HT0 : 0 <= T) by lra.
  pose proof (amp_pos p q T HT0) as Hc. pose proof (Rabs_pos p) as HP. pose proof (Rabs_pos q) as HQ.
  pose proof (rate_pos p q T HT0) as HK. pose proof (level_pos p q L T D HT0 HL HD) as HL0.
  pose proof (env_le p q L T D t HT0 HL HD Ht) as HB.
  set (K := rate p q T) in *.
  assert (EB : env p q L T D t * (1 + K * h) <= env p q L T D (t + h)).
  { unfold env. fold K. rewrite (Rmult_plus_distr_l K t h), exp_plus, <- Rmult_assoc.
    apply Rmult_le_compat_l; [unfold env in HB; fold K in HB; lra|]. apply exp_ineq1_le. }
  set (B := env p q L T D t) in *. set (B' := env p q L T D (t + h)) in *.
  set (S := level p q L T D) in *.
  assert (HB0 : 0 <= B) by lra.
  assert (HA : h * A <= S * (t * h / 2 + h ^ 2) + h * (K * (B * t ^ 2))).
  { assert (E1 : h * A = S * (t * h / 2 + h ^ 2)
       + h * (amp p q T * (Rabs p * a + (Rabs p * T + Rabs q) * b))).
    { unfold A, S, level. field. }
    rewrite E1. apply Rplus_le_compat_l, Rmult_le_compat_l; [lra|].
    unfold K, rate. rewrite Rmult_assoc. apply Rmult_le_compat_l; [lra|].
    assert (P1 : Rabs p * a <= Rabs p * (T * (B * t ^ 2))).
    { apply Rmult_le_compat_l; auto. apply Rle_trans with (B * t ^ 3); auto.
      replace (B * t ^ 3) with (t * (B * t ^ 2)) by ring.
      apply Rmult_le_compat_r; [|lra]. apply Rmult_le_pos; auto. apply pow_le; auto. }
    assert (P2 : (Rabs p * T + Rabs q) * b <= (Rabs p * T + Rabs q) * (B * t ^ 2)).
    { apply Rmult_le_compat_l; auto. assert (0 <= Rabs p * T) by now apply Rmult_le_pos. lra. }
    lra. }
  assert (Hth : 0 <= t * h) by (apply Rmult_le_pos; lra).
  assert (Hh2 : 0 <= h ^ 2) by (apply pow_le; lra).
  assert (HKh : 0 <= K * h) by (apply Rmult_le_pos; lra).
  assert (HS1 : S * (t * h / 2 + h ^ 2) <= B * (t * h / 2 + h ^ 2)) by (apply Rmult_le_compat_r; lra).
  assert (HV : b + h * A <= B * (1 + K * h) * (t + h) ^ 2).
  { replace (B * (1 + K * h) * (t + h) ^ 2)
      with (B * t ^ 2 + h * (K * (B * t ^ 2)) + B * (t * h / 2 + h ^ 2) + B * (t * h * 3 / 2)
            + B * (K * h) * (2 * (t * h) + h ^ 2)) by field.
    assert (0 <= B * (t * h * 3 / 2)) by (apply Rmult_le_pos; lra).
    assert (0 <= B * (K * h) * (2 * (t * h) + h ^ 2)) by (apply Rmult_le_pos; [apply Rmult_le_pos|]; lra).
    lra. }
  assert (Hth2 : 0 <= (t + h) ^ 2) by (apply pow_le; lra).
  assert (HV' : B * (1 + K * h) * (t + h) ^ 2 <= B' * (t + h) ^ 2) by (apply Rmult_le_compat_r; auto).
  split; [|lra].
  apply Rle_trans with (t * (B' * (t + h) ^ 2) + h * (B' * (t + h) ^ 2)); [|right; ring].
  eapply Rle_trans; [exact Ha1|]. apply Rplus_le_compat.
  - eapply Rle_trans; [exact Ha|]. replace (B * t ^ 3) with (t * (B * t ^ 2)) by ring.
    apply Rmult_le_compat_l; auto. eapply Rle_trans; [|exact HV'].
    apply Rmult_le_compat; auto.
    + apply pow_le; auto.
    + assert (0 <= B * (K * h)) by (apply Rmult_le_pos; lra). lra.
    + apply pow_incr; lra.
  - apply Rmult_le_compat_l; lra.
Qed.

(** *** Two movements *)
Section Pair.
Variables (a1 a2 : dmp_args) (d : nat) (p q L T : R).
Let G := a_goal_y a2 d - a_goal_y a1 d.
Let D := Rabs G.
Hypothesis F1 : free a1.
Hypothesis F2 : free a2.
Hypothesis N1 : a_goal_t a1 <> a_start_t a1.
Hypothesis N2 : a_goal_t a2 <> a_start_t a2.
Hypothesis P1 : stiff a1 d = p.
Hypothesis P2 : stiff a2 d = p.
Hypothesis Q1 : damp a1 d = q.
Hypothesis Q2 : damp a2 d = q.
Hypothesis HL : 0 <= L.
Hypothesis HI : forall t, 0 <= t -> Rabs (p * G + (input a2 d t - input a1 d t)) <= Rabs p * D * (L * t).

Definition near (t : R) (x : (vec * vec) * (vec * vec)) : Prop :=
  Rabs (fst (snd x) d - fst (fst x) d) <= env p q L T D t * t ^ 3
  /\ Rabs (snd (snd x) d - snd (fst x) d) <= env p q L T D t * t ^ 2.

Let HD : 0 <= D. Proof. apply Rabs_pos. Qed.

Lemma input_upto t s : 0 <= t <= s -> Rabs (p * G + (input a2 d t - input a1 d t)) <= Rabs p * D * (L * s).
Proof.
  intros H. eapply Rle_trans; [apply HI; lra|]. apply Rmult_le_compat_l.
  - apply Rmult_le_pos; [apply Rabs_pos|auto].
  - apply Rmult_le_compat_l; auto; lra.
Qed.

Lemma near_rk4 lt t x : 0 <= lt -> lt < t -> t <= T -> near lt x ->
  near t (dmp_step_rk4 a1 lt t (fst x), dmp_step_rk4 a2 lt t (snd x)).
Proof.
  intros H0 Hlt HT [NY NV]. destruct x as [[y1 v1] [y2 v2]]. cbn [fst snd] in *.
  pose proof (rk4_rhs a1 lt t y1 v1 d F1 N1) as R1. pose proof (rk4_rhs a2 lt t y2 v2 d F2 N2) as R2.
  cbv zeta in R1, R2. rewrite P1, Q1 in R1. rewrite P2, Q2 in R2.
  destruct R1 as [R1 R1']. destruct R2 as [R2 R2'].
  unfold near. cbn [fst snd].
  set (h := t - lt) in *.
  pose proof (rk4_gap p q h T (p * G + (input a2 d t - input a1 d t))
    (p * G + (input a2 d (t + / 2 * h) - input a1 d (t + / 2 * h)))
    (p * G + (input a2 d (t + h) - input a1 d (t + h)))
    (Rabs p * D * (L * (lt + 2 * h))) (y2 d - y1 d) (v2 d - v1 d) _ _
    ltac:(unfold h; lra) ltac:(apply input_upto; unfold h; lra)
    ltac:(apply input_upto; unfold h; lra) ltac:(apply input_upto; unfold h; lra)
    (Rle_refl _) (Rle_refl _)) as [B1 B2].
  pose proof (early_step p q L T D lt h _ _ _ _ HL HD H0 ltac:(unfold h; lra) ltac:(unfold h; lra) NY NV
    (Rle_refl _) (Rle_refl _)) as [E1 E2].
  replace (lt + h) with t in E1, E2 by (unfold h; ring).
  split.
  - eapply Rle_trans; [|exact E1]. eapply Rle_trans; [|exact B1]. right. f_equal.
    etransitivity; [apply f_equal2; [exact R2|exact R1]|]. unfold G. field.
  - eapply Rle_trans; [|exact E2]. eapply Rle_trans; [|exact B2]. right. f_equal.
    etransitivity; [apply f_equal2; [exact R2'|exact R1']|]. unfold G. field.
Qed.

Lemma near_euler t h x : 0 <= t -> 0 < h -> t + h <= T -> near t x ->
  near (t + h) (euler_body a1 (t + h) h (fst x), euler_body a2 (t + h) h (snd x)).
Proof.
  intros H0 Hh HT [NY NV]. destruct x as [[y1 v1] [y2 v2]]. cbn [fst snd] in *.
  pose proof (euler_rhs a1 (t + h) h y1 v1 d F1 N1) as R1.
  pose proof (euler_rhs a2 (t + h) h y2 v2 d F2 N2) as R2.
  cbv zeta in R1, R2. rewrite P1, Q1 in R1. rewrite P2, Q2 in R2.
  destruct R1 as [R1' R1]. destruct R2 as [R2' R2].
  unfold near. cbn [fst snd].
  pose proof (early_step p q L T D t h _ _ _ _ HL HD H0 Hh HT NY NV
    (Rle_refl _) (Rle_refl _)) as [E1 E2].
  set (A := amp p q T * _) in E1, E2.
  assert (BA : Rabs (p * G + (input a2 d (t + h) - input a1 d (t + h)) - p * (y2 d - y1 d) - q * (v2 d - v1 d)) <= A).
  { eapply Rle_trans; [apply abs_acc; [apply (input_upto (t + h) (t + 2 * h)); lra|apply Rle_refl|apply Rle_refl]|].
    unfold A. set (Z := Rabs p * D * (L * (t + 2 * h))).
    set (a := Rabs (y2 d - y1 d)). set (b := Rabs (v2 d - v1 d)).
    assert (Hc : 1 <= amp p q T) by (apply amp_pos; lra).
    assert (HP : 0 <= Rabs p) by apply Rabs_pos. assert (HQ : 0 <= Rabs q) by apply Rabs_pos.
    assert (Ha : 0 <= a) by apply Rabs_pos. assert (Hb : 0 <= b) by apply Rabs_pos.
    assert (0 <= Z).
    { unfold Z. apply Rmult_le_pos; [apply Rmult_le_pos; auto|apply Rmult_le_pos; lra]. }
    assert (0 <= Rabs p * a) by now apply Rmult_le_pos.
    assert (0 <= Rabs q * b) by now apply Rmult_le_pos.
    assert (0 <= Rabs p * T * b) by (apply Rmult_le_pos; auto; apply Rmult_le_pos; lra).
    apply Rle_trans with (1 * (Z + Rabs p * a + (Rabs p * T + Rabs q) * b)); [lra|].
    apply Rmult_le_compat_r; lra. }
  assert (V : Rabs (snd (euler_body a2 (t + h) h (y2, v2)) d - snd (euler_body a1 (t + h) h (y1, v1)) d)
     <= Rabs (v2 d - v1 d) + h * A).
  { replace (_ - _) with (v2 d - v1 d + h * (p * G + (input a2 d (t + h) - input a1 d (t + h))
        - p * (y2 d - y1 d) - q * (v2 d - v1 d))).
    - apply abs_add; auto; lra.
    - symmetry. etransitivity; [apply f_equal2; [exact R2'|exact R1']|]. unfold rhs, G. ring. }
  split; [|eapply Rle_trans; [exact V|exact E2]].
  eapply Rle_trans; [|exact E1].
  replace (_ - _) with (y2 d - y1 d + h * (snd (euler_body a2 (t + h) h (y2, v2)) d
     - snd (euler_body a1 (t + h) h (y1, v1)) d)).
  - apply abs_add; auto; lra.
  - symmetry. etransitivity; [apply f_equal2; [exact R2|exact R1]|].
    etransitivity; [|apply f_equal2; [reflexivity|apply f_equal2; [reflexivity|
       apply f_equal2; [symmetry; exact R2'|symmetry; exact R1']]]].
    ring.
Qed.

Lemma exec_pair {S} (b1 b2 : R -> R -> S -> S) : forall l s1 s2,
  exec_substeps (fun t h x => (b1 t h (fst x), b2 t h (snd x))) l (s1, s2)
  = (exec_substeps b1 l s1, exec_substeps b2 l s2).
Proof.
  induction l as [|[c k] l IH]; intros s1 s2; simpl; auto.
Qed.

Lemma near_euler_substeps l t t' h x : 0 <= t -> t' <= T -> tiles t t' h l -> near t x ->
  near t' (exec_substeps (euler_body a1) l (fst x), exec_substeps (euler_body a2) l (snd x)).
Proof.
  intros H0 HT Hl Hx. rewrite <- exec_pair.
  apply (exec_substeps_inv near _ l t t' h); auto.
  intros s k y Hs Hk Hsk Hy. apply near_euler; auto; lra.
Qed.
End Pair.

(** *** Objects *)
Definition slope (G : R) : R := - ln (1 / 100) / G.

Lemma phase_slope n o t : reachable n o -> 0 <= t ->
  0 <= slope (ft_goal_t (o_forcing_term o))
  /\ 0 <= 1 - ft_phase (o_forcing_term o) t <= slope (ft_goal_t (o_forcing_term o)) * t.
Proof.
  intros Hr Ht. pose proof (phase_le_1 n o t Hr Ht) as H1.
  pose proof (reachable_phase_ok n o Hr) as (Hn & HG & Hz).
  destruct (reachable_ft n o Hr) as (j & g & w & Eg & Ef).
  pose proof (forcing_term_init_n _ _ _ _ _ _ _ _ Eg) as (_ & G & St & _ & Az & _).
  assert (Es : ft_start_t (o_forcing_term o) = 0) by (rewrite Ef; exact St).
  assert (Ea : ft_alpha_z (o_forcing_term o) = - ln (1 / 100)) by (rewrite Ef; exact Az).
  unfold ft_phase, phase in *. rewrite Es, Ea in *.
  set (g0 := ft_goal_t (o_forcing_term o)) in *. clearbody g0.
  split; [unfold slope; apply Rmult_le_pos; [lra|apply Rlt_le, Rinv_0_lt_compat; lra]|].
  split; [lra|].
  pose proof (exp_ineq1_le (- - ln (1 / 100) * (t - 0) / (g0 - 0))) as H.
  replace (slope g0 * t) with (- (- - ln (1 / 100) * (t - 0) / (g0 - 0))) by (unfold slope; field; lra).
  lra.
Qed.

Section Objects.
Variables (n n' : nat) (o1 o2 : dmp) (d : nat) (tau al be G : R).
Hypothesis R1 : reachable n o1.
Hypothesis R2 : reachable n' o2.
Hypothesis HO : only_goal_differs d o1 o2.
Hypothesis HG : has_gains tau al be G d o1.
Hypothesis Htau : 0 < tau.
Let a1 := open_loop_step_args o1 None.
Let a2 := open_loop_step_args o2 None.
Let Dg := aget (p_goal_y (o_base o2)) d - aget (p_goal_y (o_base o1)) d.

Lemma pair_coefficients : free a1 /\ free a2 /\ a_goal_t a1 <> a_start_t a1 /\ a_goal_t a2 <> a_start_t a2
  /\ stiff a1 d = al * be / tau ^ 2 /\ stiff a2 d = al * be / tau ^ 2
  /\ damp a1 d = al / tau /\ damp a2 d = al / tau.
Proof.
  destruct HO as ((S1 & S2 & S3 & S4 & S5 & S6) & (A & B) & _). destruct HG as (E1 & E2 & E3 & E4).
  unfold free, stiff, damp, a1, a2. cbn. rewrite S1, A, B, E1, E2, E3, Rminus_0_r.
  repeat split; auto; lra.
Qed.

Lemma pair_forces t : ft_forces (o_forcing_term o2) (ft_phase (o_forcing_term o2) t) d
  = ft_forces (o_forcing_term o1) (ft_phase (o_forcing_term o1) t) d
  /\ ft_phase (o_forcing_term o2) t = ft_phase (o_forcing_term o1) t.
Proof.
  destruct HO as (HS & _ & _ & HW).
  destruct (settings_basis n n' o1 o2 R1 R2 HS) as (N & N' & HP & HB). split; auto. rewrite HP.
  unfold ft_forces. rewrite N, N'. f_equal. apply rsum_ext. intros i Hi.
  rewrite (activations_ext _ _ _ _ _ _ i Hi HB), HW by auto. reflexivity.
Qed.

Lemma pair_input t : al * be / tau ^ 2 * Dg + (input a2 d t - input a1 d t)
  = al * be / tau ^ 2 * Dg * (1 - if o_smooth_scaling o1 then ft_phase (o_forcing_term o1) t else 0).
Proof.
  destruct HO as ((S1 & S2 & S3 & S4 & S5 & S6) & (A & B) & Y & _). destruct HG as (E1 & E2 & E3 & E4).
  destruct (pair_forces t) as [PF PP].
  unfold input, disturbance, a1, a2. cbn [open_loop_step_args a_forcing_term a_smooth_scaling a_alpha_y a_beta_y
      a_goal_y a_start_y a_goal_t a_start_t].
  rewrite PF, PP, S1, S5, A, B, Y, E1, E2, E3. unfold Dg.
  destruct (o_smooth_scaling o1); field; lra.
Qed.

Lemma pair_input_bound t : o_smooth_scaling o1 = true -> 0 <= t ->
  Rabs (al * be / tau ^ 2 * Dg + (input a2 d t - input a1 d t))
  <= Rabs (al * be / tau ^ 2) * Rabs Dg * (slope G * t).
Proof.
  intros Hs Ht. rewrite pair_input, Hs, !Rabs_mult.
  destruct (phase_slope n o1 t R1 Ht) as (_ & H1 & H2). destruct HG as (_ & _ & _ & E4). rewrite E4 in H2.
  rewrite (Rabs_pos_eq (1 - _)) by auto. apply Rmult_le_compat_l; auto.
  apply Rmult_le_pos; apply Rabs_pos.
Qed.

(** The states of both movements. *)
Lemma pair_runs fn : 0 < o_dt o1 -> 0 < o_int_dt o1 ->
  exists s1 s2 : nat -> vec * vec,
  s1 0%nat = (aget (p_start_y (o_base o1)), vzero) /\ s2 0%nat = (aget (p_start_y (o_base o2)), vzero)
  /\ (forall k, run_seq (run_step_function fn a1) 0 (o_dt o1) (aget (p_start_y (o_base o1)), vzero) k = Ok (s1 k))
  /\ (forall k, run_seq (run_step_function fn a2) 0 (o_dt o1) (aget (p_start_y (o_base o2)), vzero) k = Ok (s2 k))
  /\ forall k,
     (s1 (S k) = dmp_step_rk4 a1 (0 + INR k * o_dt o1) (0 + INR (S k) * o_dt o1) (s1 k)
      /\ s2 (S k) = dmp_step_rk4 a2 (0 + INR k * o_dt o1) (0 + INR (S k) * o_dt o1) (s2 k))
     \/ exists l, tiles (0 + INR k * o_dt o1) (0 + INR (S k) * o_dt o1) (o_int_dt o1) l
        /\ s1 (S k) = exec_substeps (euler_body a1) l (s1 k)
        /\ s2 (S k) = exec_substeps (euler_body a2) l (s2 k).
Proof.
  intros Hdt Hi.
  assert (Hfn : uses_rk4 fn \/ uses_euler fn) by (destruct fn; unfold uses_rk4, uses_euler; auto).
  destruct pair_coefficients as (F1 & F2 & _).
  destruct HO as ((S1 & S2 & S3 & S4 & S5 & S6) & _). destruct HG as (E1 & _).
  destruct Hfn as [Hfn|Hfn].
  - destruct (run_seq_fn_rk4 fn a1 0 (o_dt o1) (aget (p_start_y (o_base o1)), vzero) Hfn) as (s & E0 & Es & Er).
    destruct (run_seq_fn_rk4 fn a2 0 (o_dt o1) (aget (p_start_y (o_base o2)), vzero) Hfn) as (s' & E0' & Es' & Er').
    exists s, s'. repeat split; auto.
  - destruct (run_seq_euler_twin fn a1 a2 (o_dt o1) (aget (p_start_y (o_base o1)), vzero)
      (aget (p_start_y (o_base o2)), vzero) Hfn F1 F2) as (s & s' & E0 & E0' & Es & Er & Er'); auto.
    + unfold a1. cbn. rewrite E1. exact Htau.
    + unfold a2. cbn. rewrite S1, E1. exact Htau.
    + exists s, s'. repeat split; auto.
Qed.
End Objects.

(** The trajectories from the states. *)
Lemma open_loop_states fn o (s : nat -> vec * vec) run_t :
  (forall k, run_seq (run_step_function fn (open_loop_step_args o None)) 0 (o_dt o)
     (aget (p_start_y (o_base o)), vzero) k = Ok (s k)) ->
  let rt := match run_t with Some x => x | None => o_execution_time o end in
  dmp_open_loop run_t None (Some fn) o
  = match arange 0 (rt + o_dt o) (o_dt o) with
    | [] => Err IndexError
    | ts => Ok (ts, map fst (map s (seq 0 (length ts))))
    end.
Proof.
  intros Hs rt. unfold dmp_open_loop. fold rt. rewrite (open_loop_run_map _ 0 rt (o_dt o) _ _ s Hs).
  destruct (arange 0 (rt + o_dt o) (o_dt o)); reflexivity.
Qed.

Lemma nth_states (s : nat -> vec * vec) k m : (k < m)%nat ->
  nth k (map fst (map s (seq 0 m))) vzero = fst (s k).
Proof.
  intros Hk. rewrite map_map. rewrite nth_indep with (d' := fst (s 0%nat)).
  - rewrite (map_nth (fun x => fst (s x))), seq_nth by auto. reflexivity.
  - now rewrite map_length, seq_length.
Qed.

Lemma nth_grid stop dt k : (k < length (arange 0 stop dt))%nat -> nth k (arange 0 stop dt) 0 = INR k * dt.
Proof. intros H. rewrite arange_nth; [ring|]. now rewrite arange_length in H. Qed.

(** ** C125 *)
(** With smooth scaling, movements to two goals part like t^3, with a factor that
    depends neither on the goals, the start, the weights nor the steps. *)
Theorem C125_smooth : forall tau al be G T, 0 < tau -> 0 <= T ->
  exists C, 0 <= C /\ forall n n' o1 o2 d fn run_t,
  reachable n o1 -> reachable n' o2 -> 0 < o_dt o1 -> 0 < o_int_dt o1 ->
  only_goal_differs d o1 o2 -> has_gains tau al be G d o1 -> o_smooth_scaling o1 = true ->
  part_smoothly (C * goal_change d o1 o2) T d
    (dmp_open_loop run_t None (Some fn) o1) (dmp_open_loop run_t None (Some fn) o2).
Proof.
  intros tau al be G T Htau HT.
  set (p := al * be / tau ^ 2). set (q := al / tau). set (L := Rmax 0 (slope G)).
  exists (env p q L T 1 T).
  assert (HL : 0 <= L) by apply Rmax_l.
  split; [eapply Rle_trans; [|apply env_le]; auto; try lra; apply level_pos; auto; lra|].
  intros n n' o1 o2 d fn run_t R1 R2 Hdt Hi HO HG Hs.
  set (a1 := open_loop_step_args o1 None). set (a2 := open_loop_step_args o2 None).
  destruct (pair_runs o1 o2 d tau al be G HO HG Htau fn Hdt Hi)
    as (s1 & s2 & E1 & E2 & H1 & H2 & HS). fold a1 a2 in H1, H2, HS.
  destruct (pair_coefficients o1 o2 d tau al be G HO HG Htau)
    as (F1 & F2 & N1 & N2 & P1 & P2 & Q1 & Q2). fold a1 a2 in F1, F2, N1, N2, P1, P2, Q1, Q2.
  fold p in P1, P2. fold q in Q1, Q2.
  set (dt := o_dt o1) in *.
  assert (HI : forall t, 0 <= t -> Rabs (p * (a_goal_y a2 d - a_goal_y a1 d) + (input a2 d t - input a1 d t))
     <= Rabs p * Rabs (a_goal_y a2 d - a_goal_y a1 d) * (L * t)).
  { intros t Ht. eapply Rle_trans;
      [apply (pair_input_bound n n' o1 o2 d tau al be G R1 R2 HO HG Htau t Hs Ht)|].
    apply Rmult_le_compat_l; [apply Rmult_le_pos; apply Rabs_pos|].
    apply Rmult_le_compat_r; auto. apply Rmax_r. }
  assert (HN : forall k, INR k * dt <= T -> near a1 a2 d p q L T (INR k * dt) (s1 k, s2 k)).
  { induction k as [|k IH]; intros Hk.
    - rewrite E1, E2. unfold near. cbn [fst snd INR]. destruct HO as (_ & _ & Y & _). rewrite Y.
      unfold vzero. rewrite Rmult_0_l. split.
      + rewrite (Rminus_diag_eq _ _ eq_refl), Rabs_R0. right; ring.
      + rewrite Rminus_0_r, Rabs_R0. right; ring.
    - pose proof (pos_INR k) as Hp. rewrite S_INR in Hk. specialize (IH ltac:(nra)).
      destruct (HS k) as [[-> ->]|(l & Hl & -> & ->)].
      + rewrite !Rplus_0_l.
        apply (near_rk4 a1 a2 d p q L T F1 F2 N1 N2 P1 P2 Q1 Q2 HL HI _ _ (s1 k, s2 k)); auto;
          rewrite ?S_INR; nra.
      + rewrite !Rplus_0_l in Hl.
        apply (near_euler_substeps a1 a2 d p q L T F1 F2 N1 N2 P1 P2 Q1 Q2 HL HI l _ _ _ (s1 k, s2 k))
          with (3 := Hl); auto; rewrite ?S_INR; nra. }
  pose proof HO as ((T1 & T2 & _) & _).
  rewrite (open_loop_states fn o1 s1 run_t H1).
  rewrite (open_loop_states fn o2 s2 run_t) by (rewrite T2; exact H2). rewrite T1, T2. fold dt.
  set (rt := match run_t with Some x => x | None => o_execution_time o1 end).
  pose proof (nth_grid (rt + dt) dt) as HT'.
  destruct (arange 0 (rt + dt) dt) as [|t0 ts]; [reflexivity|].
  unfold part_smoothly. rewrite !map_length, !seq_length.
  split; [reflexivity|]. split; [reflexivity|]. split; [reflexivity|].
  intros k Hk Htk. rewrite !nth_states by auto. rewrite (HT' k Hk) in *.
  destruct (HN k Htk) as [B _]. cbn [fst snd] in B. eapply Rle_trans; [exact B|].
  pose proof (pos_INR k). assert (Ht0 : 0 <= INR k * dt) by (apply Rmult_le_pos; lra).
  apply Rmult_le_compat_r; [now apply pow_le|].
  set (t := INR k * dt) in *. clearbody t.
  unfold env, level, goal_change. change (a_goal_y a2 d - a_goal_y a1 d)
    with (aget (p_goal_y (o_base o2)) d - aget (p_goal_y (o_base o1)) d).
  set (g := Rabs (aget (p_goal_y (o_base o2)) d - aget (p_goal_y (o_base o1)) d)).
  assert (Hexp : exp (rate p q T * t) <= exp (rate p q T * T)).
  { pose proof (Rmult_le_compat_l _ _ _ (rate_pos p q T HT) Htk) as [H0|H0].
    - apply Rlt_le, exp_increasing; auto. - rewrite H0. apply Rle_refl. }
  pose proof (amp_pos p q T HT). pose proof (Rabs_pos p). assert (Hg : 0 <= g) by apply Rabs_pos.
  replace (2 * amp p q T * Rabs p * L * 1 * exp (rate p q T * T) * g)
    with (2 * amp p q T * Rabs p * L * g * exp (rate p q T * T)) by ring.
  apply Rmult_le_compat_l; auto. repeat apply Rmult_le_pos; auto; lra.
Qed.

(** The first step without smooth scaling. *)
Lemma first_jump p q h w : Rabs q * h <= 1 -> Rabs p * h ^ 2 <= 1 -> 0 < h ->
  Rabs w * h ^ 2 / 6 <= Rabs (h * (h * w))
  /\ Rabs w * h ^ 2 / 6
     <= Rabs (h * (h / 6 * (w + (w - q * (h / 2 * w))
          + (w - p * (h / 2 * (h / 2 * w)) - q * (h / 2 * (w - q * (h / 2 * w))))))).
Proof.
  intros Hq Hp Hh. assert (H2 : 0 < h ^ 2) by (apply pow_lt; lra).
  pose proof (Rabs_pos w) as Hw. split.
  - replace (h * (h * w)) with (h ^ 2 * w) by ring. rewrite Rabs_mult, (Rabs_pos_eq (h ^ 2)) by lra.
    assert (0 <= Rabs w * h ^ 2) by (apply Rmult_le_pos; lra). lra.
  - set (c := 3 - q * h - p * h ^ 2 / 4 + (q * h) ^ 2 / 4).
    replace (h * _) with (h ^ 2 / 6 * (w * c)) by (unfold c; field).
    assert (Hc : 1 <= c).
    { unfold c. assert (Rabs (q * h) <= 1) by (rewrite Rabs_mult, (Rabs_pos_eq h); lra).
      assert (Rabs (p * h ^ 2) <= 1) by (rewrite Rabs_mult, (Rabs_pos_eq (h ^ 2)); lra).
      pose proof (Rle_abs (q * h)). pose proof (Rle_abs (p * h ^ 2)).
      pose proof (pow2_ge_0 (q * h)). lra. }
    rewrite !Rabs_mult, (Rabs_pos_eq (h ^ 2 / 6)), (Rabs_pos_eq c) by lra.
    assert (Rabs w * 1 <= Rabs w * c) by (apply Rmult_le_compat_l; auto).
    replace (Rabs w * h ^ 2 / 6) with (h ^ 2 / 6 * (Rabs w * 1)) by field.
    apply Rmult_le_compat_l; lra.
Qed.

(** Without smooth scaling the acceleration jumps: whatever the factor, movements with
    small steps part faster than t^3 in their first step. *)
Theorem C125_jump : forall tau al be G C, 0 < tau -> al <> 0 -> be <> 0 ->
  exists h0, 0 < h0 /\ forall n n' o1 o2 d fn run_t,
  reachable n o1 -> reachable n' o2 -> 0 < o_dt o1 < h0 -> o_dt o1 <= o_int_dt o1 ->
  only_goal_differs d o1 o2 -> has_gains tau al be G d o1 -> o_smooth_scaling o1 = false ->
  aget (p_goal_y (o_base o2)) d <> aget (p_goal_y (o_base o1)) d ->
  match run_t with Some r => 0 < r | None => True end ->
  exists ts ys ys',
    dmp_open_loop run_t None (Some fn) o1 = Ok (ts, ys)
    /\ dmp_open_loop run_t None (Some fn) o2 = Ok (ts, ys')
    /\ (1 < length ts)%nat /\ nth 1 ts 0 = o_dt o1
    /\ C * goal_change d o1 o2 * nth 1 ts 0 ^ 3 < Rabs (nth 1 ys' vzero d - nth 1 ys vzero d).
Proof.
  intros tau al be G C Htau Hal Hbe.
  set (p := al * be / tau ^ 2). set (q := al / tau).
  assert (Ht2 : 0 < tau ^ 2) by (apply pow_lt; auto).
  assert (Hp0 : 0 < Rabs p).
  { apply Rabs_pos_lt. unfold p, Rdiv. apply Rmult_integral_contrapositive_currified.
    - apply Rmult_integral_contrapositive_currified; auto.
    - apply Rinv_neq_0_compat. lra. }
  pose proof (Rabs_pos q) as Hq0. pose proof (Rabs_pos C) as HC0.
  exists (Rmin (Rmin 1 (/ (Rabs p + 1))) (Rmin (/ (Rabs q + 1)) (Rabs p / (6 * Rabs C + 1)))).
  assert (Hip : 0 < / (Rabs p + 1)) by (apply Rinv_0_lt_compat; lra).
  assert (Hiq : 0 < / (Rabs q + 1)) by (apply Rinv_0_lt_compat; lra).
  assert (HiC : 0 < / (6 * Rabs C + 1)) by (apply Rinv_0_lt_compat; lra).
  split.
  { repeat apply Rmin_glb_lt; auto; try lra. now apply Rmult_lt_0_compat. }
  intros n n' o1 o2 d fn run_t R1 R2 [Hdt Hlt] Hle HO HG Hs Hne Hrt.
  set (a1 := open_loop_step_args o1 None). set (a2 := open_loop_step_args o2 None).
  destruct (pair_runs o1 o2 d tau al be G HO HG Htau fn Hdt ltac:(lra))
    as (s1 & s2 & E1 & E2 & H1 & H2 & HS). fold a1 a2 in H1, H2, HS.
  destruct (pair_coefficients o1 o2 d tau al be G HO HG Htau)
    as (F1 & F2 & N1 & N2 & P1 & P2 & Q1 & Q2). fold a1 a2 in F1, F2, N1, N2, P1, P2, Q1, Q2.
  fold p in P1, P2. fold q in Q1, Q2.
  pose proof (pair_input n n' o1 o2 d tau al be G R1 R2 HO HG Htau) as PI. fold a1 a2 p in PI. rewrite Hs in PI.
  assert (PI' : forall t, p * (aget (p_goal_y (o_base o2)) d - aget (p_goal_y (o_base o1)) d)
     + (input a2 d t - input a1 d t) = p * (aget (p_goal_y (o_base o2)) d - aget (p_goal_y (o_base o1)) d))
    by (intros t; rewrite PI; ring).
  clear PI. pose proof HO as ((T1 & T2 & _) & _ & Y0 & _).
  rewrite (open_loop_states fn o1 s1 run_t H1).
  rewrite (open_loop_states fn o2 s2 run_t) by (rewrite T2; exact H2). rewrite T1, T2.
  set (rt := match run_t with Some x => x | None => o_execution_time o1 end).
  assert (Hrt0 : 0 < rt).
  { unfold rt. destruct run_t; auto. destruct HG as (-> & _). exact Htau. }
  set (h := o_dt o1) in *.
  pose proof (arange_len_spec 0 (rt + h) h Hdt ltac:(lra)) as (_ & _ & HL).
  assert (Hlen : (1 < length (arange 0 (rt + h) h))%nat).
  { rewrite arange_length. apply INR_lt. change (INR 1) with 1. nra. }
  pose proof (nth_grid (rt + h) h 1 Hlen) as HT.
  destruct (arange 0 (rt + h) h) as [|t0 ts]; [simpl in Hlen; lia|].
  eexists _, _, _. split; [reflexivity|]. split; [reflexivity|]. split; [exact Hlen|].
  rewrite HT. change (INR 1) with 1. rewrite Rmult_1_l. split; [reflexivity|].
  rewrite !nth_states by auto.
  set (g := aget (p_goal_y (o_base o2)) d - aget (p_goal_y (o_base o1)) d) in *.
  assert (Hg : 0 < Rabs g) by (apply Rabs_pos_lt; unfold g; lra).
  assert (M1 : h < 1) by (eapply Rlt_le_trans; [exact Hlt|]; eapply Rle_trans; apply Rmin_l).
  assert (M2 : h < / (Rabs p + 1)).
  { eapply Rlt_le_trans; [exact Hlt|]. eapply Rle_trans; [apply Rmin_l|apply Rmin_r]. }
  assert (M3 : h < / (Rabs q + 1)).
  { eapply Rlt_le_trans; [exact Hlt|]. eapply Rle_trans; [apply Rmin_r|apply Rmin_l]. }
  assert (M4 : h < Rabs p / (6 * Rabs C + 1)).
  { eapply Rlt_le_trans; [exact Hlt|]. eapply Rle_trans; apply Rmin_r. }
  assert (L2 : Rabs p * h <= 1).
  { apply Rmult_lt_compat_r with (r := Rabs p + 1) in M2; [|lra]. rewrite Rinv_l in M2; lra. }
  assert (L3 : Rabs q * h <= 1).
  { apply Rmult_lt_compat_r with (r := Rabs q + 1) in M3; [|lra]. rewrite Rinv_l in M3; lra. }
  assert (L4 : Rabs C * h < Rabs p / 6).
  { apply Rmult_lt_compat_r with (r := 6 * Rabs C + 1) in M4; [|lra].
    unfold Rdiv in M4. rewrite Rmult_assoc, Rinv_l in M4; lra. }
  assert (L5 : Rabs p * h ^ 2 <= 1).
  { replace (Rabs p * h ^ 2) with ((Rabs p * h) * h) by ring.
    assert (0 <= Rabs p * h) by (apply Rmult_le_pos; lra). nra. }
  apply Rlt_le_trans with (Rabs (p * g) * h ^ 2 / 6).
  { unfold goal_change. fold g. rewrite Rabs_mult.
    assert (Hh2 : 0 < h ^ 2) by (apply pow_lt; auto).
    replace (C * Rabs g * h ^ 3) with ((C * h) * (Rabs g * h ^ 2)) by ring.
    replace (Rabs p * Rabs g * h ^ 2 / 6) with (Rabs p / 6 * (Rabs g * h ^ 2)) by field.
    apply Rmult_lt_compat_r; [now apply Rmult_lt_0_compat|].
    apply Rle_lt_trans with (Rabs C * h); auto. apply Rmult_le_compat_r; [lra|apply Rle_abs]. }
  destruct (first_jump p q h (p * g) L3 L5 Hdt) as [J1 J2].
  destruct (HS 0%nat) as [[S1 S2]|(l & Hl & S1 & S2)].
  - eapply Rle_trans; [exact J2|]. right. f_equal. rewrite S1, S2, E1, E2.
    change (INR 0) with 0. change (INR 1) with 1. rewrite Rmult_0_l, Rmult_1_l, !Rplus_0_l.
    pose proof (rk4_rhs a1 0 h (aget (p_start_y (o_base o1))) vzero d F1 N1) as [R1' _].
    pose proof (rk4_rhs a2 0 h (aget (p_start_y (o_base o2))) vzero d F2 N2) as [R2' _].
    cbv zeta in R1', R2'. rewrite P1, Q1 in R1'. rewrite P2, Q2, Y0 in R2'.
    rewrite Rminus_0_r in R1', R2'.
    symmetry. etransitivity; [apply f_equal2; [exact R2'|exact R1']|]. unfold vzero.
    pose proof (PI' h) as I0. pose proof (PI' (h + / 2 * h)) as I1. 
    change (a_goal_y a1 d) with (aget (p_goal_y (o_base o1)) d).
    change (a_goal_y a2 d) with (aget (p_goal_y (o_base o2)) d).
    set (u0 := input a1 d h) in *. set (u0' := input a2 d h) in *.
    set (u1 := input a1 d (h + / 2 * h)) in *. set (u1' := input a2 d (h + / 2 * h)) in *.
    assert (X0 : u0' = u0) by lra. assert (X1 : u1' = u1) by lra. rewrite X0, X1. unfold g. field.
  - change (INR 0) with 0 in Hl. change (INR 1) with 1 in Hl. rewrite Rmult_0_l, Rmult_1_l, !Rplus_0_l in Hl.
    apply P_Stability.tiles_single in Hl; [|lra]. subst l. cbn in S1, S2.
    eapply Rle_trans; [exact J1|]. right. f_equal. rewrite S1, S2, E1, E2, Rminus_0_r.
    pose proof (euler_rhs a1 h h (aget (p_start_y (o_base o1))) vzero d F1 N1) as [_ R1'].
    pose proof (euler_rhs a2 h h (aget (p_start_y (o_base o2))) vzero d F2 N2) as [_ R2'].
    rewrite P1, Q1 in R1'. rewrite P2, Q2, Y0 in R2'.
    symmetry. etransitivity; [apply f_equal2; [exact R2'|exact R1']|]. unfold vzero, rhs.
    pose proof (PI' h) as I0.
    change (a_goal_y a1 d) with (aget (p_goal_y (o_base o1)) d).
    change (a_goal_y a2 d) with (aget (p_goal_y (o_base o2)) d).
    set (u0 := input a1 d h) in *. set (u0' := input a2 d h) in *.
    assert (X0 : u0' = u0) by lra. rewrite X0. unfold g. ring.
Qed.

(** A DMP and the same DMP with another goal, with and without smooth scaling. *)
Example C125_satisfiable : forall smooth, exists o1 o2, reachable 1 o1 /\ reachable 1 o2
  /\ 0 < o_dt o1 /\ o_dt o1 <= o_int_dt o1
  /\ only_goal_differs 0 o1 o2 /\ has_gains 1 25 (25/4) 1 0 o1 /\ o_smooth_scaling o1 = smooth
  /\ goal_change 0 o1 o2 = 7.
Proof.
  intros smooth.
  set (mk := dmp_new (vzero, vzero) 1 1 (1/1000) 2 (1/100) 0 smooth
    {| shape := []; data := fun _ => 25 |} {| shape := []; data := fun _ => 25/4 |}).
  assert (E : exists f, mk = Ok {| o_base := ptp_init 1 1; o_initialized := false; o_execution_time := 1;
            o_dt := 1/1000; o_n_weights_per_dim := 2; o_int_dt := 1/100; o_p_gain := 0;
            o_smooth_scaling := smooth; o_forcing_term := f;
            o_alpha_y := {| alen := 1; aget := fun _ => 25 |};
            o_beta_y := {| alen := 1; aget := fun _ => 25/4 |} |} /\ ft_goal_t f = 1).
  { unfold mk, dmp_new.
    destruct (init_forcing_term_accepts (vzero, vzero) 2 1) as [f Ef]; [lia|lra|].
    exists f. rewrite Ef. cbn [bind]. unfold ensure_1d_array. cbn -[Nat.eqb].
    cbn [bind]. split; [reflexivity|].
    apply init_forcing_term_inv in Ef. destruct Ef as (_ & _ & Ef).
    pose proof (forcing_term_init_n _ _ _ _ _ _ _ _ Ef) as (_ & H & _). exact H. }
  destruct E as (f & E & Ef). set (o := {| o_base := _ |}) in E.
  assert (Hr : reachable 1 o).
  { exists (vzero, vzero), 1, (1/1000), 2%nat, (1/100), 0, smooth,
      {| shape := []; data := fun _ => 25 |}, {| shape := []; data := fun _ => 25/4 |}, o, []. auto. }
  set (c := CConfigure {| c_t := None; c_start_y := None; c_start_yd := None; c_start_ydd := None;
                 c_goal_y := Some {| alen := 1; aget := fun _ => 7 |};
                 c_goal_yd := None; c_goal_ydd := None |}).
  exists o, (fst (exec c o)). split; auto. split; [now apply reachable_exec|].
  cbn. unfold only_goal_differs, same_settings, gains_like, has_gains, goal_change. cbn.
  repeat split; auto; try lra. rewrite Rminus_0_r. apply Rabs_pos_eq. lra.
Qed.
