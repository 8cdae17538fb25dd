(** Finite differences of sampled orientations. *)
From Coq Require Import Reals List Arith Bool Lia Lra Psatz.
From Coquelicot Require Import Coquelicot.
From Verif Require Import M_Prelude M_Dmp M_Quaternion M_Cartesian S_Rotation P_Loops P_Ode P_Reproduction
  P_Quaternion P_Sphere P_Orient P_Turning S_Turning.
Set Bullet Behavior "Strict Subproofs".
Local Open Scope R_scope.

(** ** Quaternions as vectors *)
Definition q_add (p q : quat) : quat := Q4 (qw p + qw q) (qx p + qx q) (qy p + qy q) (qz p + qz q).
Definition q_sub (p q : quat) : quat := Q4 (qw p - qw q) (qx p - qx q) (qy p - qy q) (qz p - qz q).
Definition q_scale (c : R) (q : quat) : quat := Q4 (c * qw q) (c * qx q) (c * qy q) (c * qz q).
Definition pure (v : v3) : quat := Q4 0 (v3x v) (v3y v) (v3z v).
Definition nq (q : quat) : R := Rabs (qw q) + Rabs (qx q) + Rabs (qy q) + Rabs (qz q).

Lemma nq_pos q : 0 <= nq q.
Proof.
  unfold nq. pose proof (Rabs_pos (qw q)). pose proof (Rabs_pos (qx q)).
  pose proof (Rabs_pos (qy q)). pose proof (Rabs_pos (qz q)). lra.
Qed.

Lemma nq_add p q : nq (q_add p q) <= nq p + nq q.
Proof.
  unfold nq, q_add. cbn. pose proof (Rabs_triang (qw p) (qw q)). pose proof (Rabs_triang (qx p) (qx q)).
  pose proof (Rabs_triang (qy p) (qy q)). pose proof (Rabs_triang (qz p) (qz q)). lra.
Qed.

Lemma nq_scale c q : nq (q_scale c q) = Rabs c * nq q.
Proof. unfold nq, q_scale. cbn. rewrite !Rabs_mult. ring. Qed.

Lemma nq_conj q : nq (cy_conj q) = nq q.
Proof. unfold nq, cy_conj. cbn. now rewrite !Rabs_Ropp. Qed.

Lemma abs4 a b c d : Rabs (a + b + c + d) <= Rabs a + Rabs b + Rabs c + Rabs d.
Proof.
  pose proof (Rabs_triang (a + b + c) d). pose proof (Rabs_triang (a + b) c). pose proof (Rabs_triang a b). lra.
Qed.

Lemma nq_mul p q : nq (hamilton p q) <= nq p * nq q.
Proof.
  destruct p as [a b c d], q as [e f g k]. unfold nq, hamilton. cbn.
  pose proof (abs4 (a * e) (- (b * f)) (- (c * g)) (- (d * k))) as H1.
  pose proof (abs4 (c * k) (- (d * g)) (a * f) (e * b)) as H2.
  pose proof (abs4 (d * f) (- (b * k)) (a * g) (e * c)) as H3.
  pose proof (abs4 (b * g) (- (c * f)) (a * k) (e * d)) as H4.
  rewrite !Rabs_Ropp, !Rabs_mult in *.
  replace (a * e - b * f - c * g - d * k) with (a * e + - (b * f) + - (c * g) + - (d * k)) by ring.
  replace (c * k - d * g + (a * f + e * b)) with (c * k + - (d * g) + a * f + e * b) by ring.
  replace (d * f - b * k + (a * g + e * c)) with (d * f + - (b * k) + a * g + e * c) by ring.
  replace (b * g - c * f + (a * k + e * d)) with (b * g + - (c * f) + a * k + e * d) by ring.
  lra.
Qed.

Lemma unit_nq q : unit_quat q -> nq q <= 4.
Proof.
  intros H. unfold unit_quat in H. unfold nq.
  assert (E : forall x, x ^ 2 <= 1 -> Rabs x <= 1) by (intros x Hx; apply Rabs_le; split; nra).
  pose proof (E (qw q) ltac:(nra)). pose proof (E (qx q) ltac:(nra)).
  pose proof (E (qy q) ltac:(nra)). pose proof (E (qz q) ltac:(nra)). lra.
Qed.

Lemma vpart_nq q : v3_norm (vpart q) <= nq q.
Proof.
  eapply Rle_trans; [apply norm_n1|]. unfold n1, nq, vpart. cbn. pose proof (Rabs_pos (qw q)). lra.
Qed.

Lemma err_chord x y : unit_quat x -> unit_quat y -> err x y <= 4 * PI * nq (q_sub x y).
Proof.
  intros Hx Hy. pose proof PI_RGT_0. unfold err.
  eapply Rle_trans; [apply rot_angle_le; apply hamilton_unit; auto using cy_conj_unit|].
  replace (4 * PI * nq (q_sub x y)) with (PI * (nq (q_sub x y) * 4)) by ring.
  apply Rmult_le_compat_l; [lra|].
  replace (vpart (hamilton x (cy_conj y))) with (vpart (hamilton (q_sub x y) (cy_conj y))).
  2:{ destruct x, y. apply v3_eq; cbn; ring. }
  eapply Rle_trans; [apply vpart_nq|]. eapply Rle_trans; [apply nq_mul|].
  apply Rmult_le_compat_l; [apply nq_pos|]. rewrite nq_conj. now apply unit_nq.
Qed.

(** ** Exponential and logarithm near zero *)
Lemma one_minus_cos x : 0 <= x -> 0 <= 1 - cos x <= x /\ 1 - cos x <= x ^ 2 / 2.
Proof.
  intros Hx.
  assert (Ec : cos x = 1 - 2 * sin (x / 2) * sin (x / 2)) by (rewrite <- cos_2a_sin; f_equal; field).
  rewrite Ec. assert (H1 : Rabs (sin (x / 2)) <= x / 2).
  { apply Rabs_le. split; [|apply sin_le; lra].
    destruct (Rle_dec (x / 2) PI) as [Hp|Hp].
    - pose proof (sin_ge_0 (x / 2) ltac:(lra) Hp). lra.
    - pose proof (SIN_bound (x / 2)). pose proof PI2_1. lra. }
  pose proof (Rabs_pos (sin (x / 2))) as H0. pose proof (SIN_bound (x / 2)) as HB.
  assert (H2 : Rabs (sin (x / 2)) <= 1) by (apply Rabs_le; lra).
  pose proof (pow2_abs (sin (x / 2))) as E. set (s := sin (x / 2)) in *. set (u := Rabs s) in *.
  replace (1 - (1 - 2 * s * s)) with (2 * u ^ 2) by (rewrite E; ring). repeat split; nra.
Qed.

Lemma x_minus_sin x : 0 <= x -> 0 <= x - sin x /\ x - sin x <= x ^ 2 /\ x - sin x <= x ^ 3 / 2.
Proof.
  intros [Hx| <-]; [|rewrite sin_0; lra].
  destruct (MVT_gen (fun t => t - sin t) 0 x (fun t => 1 - cos t)) as (c & Hc & E).
  - intros t _. auto_derive; auto. ring.
  - intros t _. apply derivable_continuous_pt. exists (1 - cos t). apply is_derive_Reals. auto_derive; auto. ring.
  - rewrite sin_0, Rmin_left, Rmax_right in * by lra. replace (x - sin x) with ((1 - cos c) * x) by lra.
    destruct (one_minus_cos c ltac:(lra)) as [[O1 O2] O3].
    assert (c ^ 2 <= x ^ 2) by nra. repeat split; nra.
Qed.

(** [exp u] is [1 + u / 2] up to second order. *)
Lemma exp_expand u : nq (q_sub (cy_exp u) (q_add q_one (q_scale (1/2) (pure u)))) <= v3_norm u ^ 2.
Proof.
  destruct (v3_polar u) as (e & He & Eu). pose proof (v3_norm_pos u) as P. set (t := v3_norm u) in *.
  rewrite Eu at 1. rewrite cy_exp_axis by auto. rewrite Eu.
  destruct (one_minus_cos (t / 2) ltac:(lra)) as [[O1 O2] O3].
  destruct (x_minus_sin (t / 2) ltac:(lra)) as (X1 & X2 & X3).
  unfold nq, q_sub, q_add, q_scale, pure, axis_quat, q_one. cbn [qw qx qy qz v3_scale v3x v3y v3z].
  replace (cos (t / 2) - (1 + 1 / 2 * 0)) with (- (1 - cos (t / 2))) by ring.
  replace (sin (t / 2) * v3x e - (0 + 1 / 2 * (t * v3x e))) with (- ((t / 2 - sin (t / 2)) * v3x e)) by field.
  replace (sin (t / 2) * v3y e - (0 + 1 / 2 * (t * v3y e))) with (- ((t / 2 - sin (t / 2)) * v3y e)) by field.
  replace (sin (t / 2) * v3z e - (0 + 1 / 2 * (t * v3z e))) with (- ((t / 2 - sin (t / 2)) * v3z e)) by field.
  rewrite !Rabs_Ropp, !Rabs_mult, (Rabs_pos_eq (1 - _)), (Rabs_pos_eq (t / 2 - _)) by lra.
  assert (N : n1 e <= 3) by (eapply Rle_trans; [apply n1_norm|]; rewrite (proj1 (unit_v3_norm e) He); lra).
  unfold n1 in N. pose proof (Rabs_pos (v3x e)). pose proof (Rabs_pos (v3y e)). pose proof (Rabs_pos (v3z e)).
  set (s := t / 2 - sin (t / 2)) in *. nra.
Qed.

(** The logarithm of a small rotation is twice its vector part up to third order. *)
Lemma log_small i d : unit_quat d -> 0 < qw d ->
  v3_norm (v3_sub (i_log i d) (v3_scale 2 (vpart d))) <= 8 * v3_norm (vpart d) ^ 3 + PI * log_threshold i.
Proof.
  intros Hd Hw. pose proof PI_RGT_0 as HP. pose proof (threshold_pos i) as Ht.
  destruct (shortest_vector i d Hd) as (e & He & Ne & Hl). pose proof (rot_angle_bound d Hd) as HB.
  destruct (v3_polar e) as (u & Hu & Ee). pose proof (v3_norm_pos e) as Pe.
  assert (Ec : cy_exp e = axis_quat u (v3_norm e)) by (rewrite Ee at 1; now apply cy_exp_axis).
  assert (Hc : 0 <= cos (v3_norm e / 2)) by (apply cos_ge_0; lra).
  assert (Ed : d = axis_quat u (v3_norm e)).
  { destruct He as [He|He]; [congruence|]. exfalso. rewrite Ec in He.
    apply (f_equal qw) in He. cbn in He. lra. }
  set (x := v3_norm e / 2) in *.
  assert (Ev : vpart d = v3_scale (sin x) u) by (rewrite Ed; reflexivity).
  assert (Ee2 : e = v3_scale (2 * x) u) by (rewrite Ee at 1; f_equal; unfold x; field).
  assert (Nu : v3_norm u = 1) by now apply unit_v3_norm.
  assert (Hx : 0 <= x <= PI / 2) by (unfold x; lra).
  assert (Hs : 0 <= sin x) by (apply sin_ge_0; lra).
  assert (Nv : v3_norm (vpart d) = sin x) by (rewrite Ev, v3_norm_scale, Nu, Rabs_pos_eq; lra).
  destruct (x_minus_sin x ltac:(lra)) as (X1 & X2 & X3). pose proof (jordan x Hx) as J.
  assert (P4 : PI <= 4) by apply PI_4.
  assert (Hx2 : x <= 2 * sin x) by nra.
  assert (H3 : x ^ 3 <= 8 * sin x ^ 3).
  { replace (8 * sin x ^ 3) with ((2 * sin x) ^ 3) by ring. apply pow_incr. lra. }
  assert (M : v3_norm (v3_sub e (v3_scale 2 (vpart d))) <= 8 * v3_norm (vpart d) ^ 3).
  { rewrite Nv, Ev, Ee2. replace (v3_sub (v3_scale (2 * x) u) (v3_scale 2 (v3_scale (sin x) u)))
      with (v3_scale (2 * (x - sin x)) u) by (apply v3_eq; cbn; ring).
    rewrite v3_norm_scale, Nu, Rabs_pos_eq by lra. lra. }
  eapply Rle_trans; [apply (v3_sub_triangle _ e)|].
  assert (v3_norm (v3_sub (i_log i d) e) <= PI * log_threshold i); [|lra].
  destruct Hl as [-> |[-> Hl]].
  - rewrite v3_sub_same. apply Rmult_le_pos; lra.
  - rewrite v3_sub_sym, v3_sub_0. exact Hl.
Qed.

(** The logarithm and a rotation vector shorter than half a turn. *)
Lemma log_of_turn i c d e : 0 < c -> unit_quat d -> cy_exp e = d \/ cy_exp e = q_neg d ->
  v3_norm e <= PI -> c <= cos (v3_norm e / 2) -> v3_norm (v3_sub (i_log i d) e) <= PI * log_threshold i.
Proof.
  intros Hc Hd He Ne Hce. pose proof PI_RGT_0 as HP. pose proof (threshold_pos i) as Ht.
  destruct (shortest_vector i d Hd) as (f & Hf & Nf & Hl). pose proof (rot_angle_bound d Hd) as HB.
  assert (E : v3_norm (v3_sub f e) <= 0).
  { eapply Rle_trans; [apply (exp_inverse_lip c f e Hc); auto; lra|].
    rewrite (rot_angle_signs d (cy_conj d) (cy_exp f) (cy_conj (cy_exp e)) Hf).
    - change (rot_angle (hamilton d (cy_conj d))) with (err d d). rewrite err_same by auto. lra.
    - destruct He as [-> | ->]; [left|right]; rewrite ?conj_neg; reflexivity. }
  eapply Rle_trans; [apply (v3_sub_triangle _ f)|].
  assert (v3_norm (v3_sub (i_log i d) f) <= PI * log_threshold i); [|lra].
  destruct Hl as [-> |[-> Hl]].
  - rewrite v3_sub_same. apply Rmult_le_pos; lra.
  - rewrite v3_sub_sym, v3_sub_0. exact Hl.
Qed.

(** ** Taylor expansion *)
Lemma derivable_lipb tau (f df : R -> R) : 0 < tau -> (forall t, 0 <= t <= tau -> is_derive f t (df t)) ->
  (exists B, forall t, 0 <= t <= tau -> Rabs (df t) <= B) -> lipb 0 tau f.
Proof.
  intros Ht Hd (B & HB). destruct (derive_bounded tau ltac:(lra) f df Hd) as (C & HC & HCf).
  assert (0 <= B) by (eapply Rle_trans; [apply Rabs_pos|apply (HB 0); lra]).
  exists (B + C). split; [lra|]. split.
  - intros t Hi. specialize (HCf t Hi). lra.
  - intros s t Hs Hi. pose proof (derive_lip tau f df B Hd HB s t Hs Hi). pose proof (Rabs_pos (s - t)). nra.
Qed.

Lemma lipb_bound tau f : lipb 0 tau f -> exists B, forall t, 0 <= t <= tau -> Rabs (f t) <= B.
Proof. intros (M & _ & H & _). eauto. Qed.

Lemma taylor_all tau (f df ddf : R -> R) : 0 < tau ->
  (forall t, 0 <= t <= tau -> is_derive f t (df t)) -> (forall t, 0 <= t <= tau -> is_derive df t (ddf t)) ->
  lipb 0 tau ddf ->
  exists M, 0 <= M /\ forall s t, 0 <= s <= tau -> 0 <= t <= tau ->
    Rabs (f s - f t) <= M * Rabs (s - t)
    /\ Rabs (f s - f t - (s - t) * df t) <= M * (s - t) ^ 2
    /\ Rabs (f s - f t - (s - t) * df t - (s - t) ^ 2 / 2 * ddf t) <= M * Rabs (s - t) ^ 3
    /\ Rabs (df t) <= M /\ Rabs (ddf t) <= M.
Proof.
  intros Ht D1 D2 (B & HB & Bd & Ld).
  destruct (derive_bounded tau ltac:(lra) df ddf D2) as (C & HC & Bf).
  exists (B + C). split; [lra|]. intros s t Hs Hi.
  pose proof (derive_lip tau f df C D1 Bf s t Hs Hi) as R1.
  pose proof (taylor_y f df ddf tau B HB D1 D2 Bd s t Hs Hi) as R2.
  pose proof (taylor2 f df ddf tau B HB D1 D2 Ld s t Hs Hi) as R3.
  pose proof (Bf t Hi) as R4. pose proof (Bd t Hi) as R5. pose proof (Rabs_pos (s - t)) as P.
  pose proof (pow2_ge_0 (s - t)) as P2. pose proof (pow_le (Rabs (s - t)) 3 P) as P3.
  repeat split; nra.
Qed.

Ltac lip := repeat first [assumption | apply lipb_plus | apply lipb_minus | apply lipb_mult | apply lipb_const].

Section Motion.
Variables (tau L : R) (q : R -> quat) (w a : R -> v3).
Hypothesis Htau : 0 < tau.
Hypothesis HL : 0 <= L.
Hypothesis Hq : forall t, 0 <= t <= tau ->
  unit_quat (q t) /\ is_derive_quat q t (quat_rate (w t) (q t)) /\ is_derive_v3 w t (a t).
Hypothesis La : forall s t, 0 <= s <= tau -> 0 <= t <= tau -> v3_norm (v3_sub (a s) (a t)) <= L * Rabs (s - t).

Definition qd (t : R) : quat := quat_rate (w t) (q t).
Definition qdd (t : R) : quat := q_add (quat_rate (a t) (q t)) (quat_rate (w t) (qd t)).

Lemma a_lipb : lipb 0 tau (fun t => v3x (a t)) /\ lipb 0 tau (fun t => v3y (a t)) /\ lipb 0 tau (fun t => v3z (a t)).
Proof.
  assert (G : forall c : v3 -> R, (forall u v, Rabs (c u - c v) <= v3_norm (v3_sub u v)) -> lipb 0 tau (fun t => c (a t))).
  { intros c Hc. exists (Rabs (c (a 0)) + L * tau + L).
    assert (0 <= L * tau) by (apply Rmult_le_pos; lra). pose proof (Rabs_pos (c (a 0))) as P0. split; [lra|]. split.
    - intros t Ht. pose proof (Hc (a t) (a 0)) as H1. pose proof (La t 0 Ht ltac:(lra)) as H2.
      rewrite Rminus_0_r, (Rabs_pos_eq t) in H2 by lra.
      pose proof (Rabs_triang (c (a t) - c (a 0)) (c (a 0))) as H3.
      replace (c (a t) - c (a 0) + c (a 0)) with (c (a t)) in H3 by ring.
      assert (L * t <= L * tau) by (apply Rmult_le_compat_l; lra). lra.
    - intros s t Hs Ht. pose proof (Hc (a s) (a t)) as H1. pose proof (La s t Hs Ht) as H2.
      pose proof (Rabs_pos (s - t)) as H3. nra. }
  repeat split; apply G; intros u v; destruct (entries_le (v3_sub u v)) as (E1 & E2 & E3); assumption.
Qed.

Lemma w_lipb : lipb 0 tau (fun t => v3x (w t)) /\ lipb 0 tau (fun t => v3y (w t)) /\ lipb 0 tau (fun t => v3z (w t)).
Proof.
  destruct a_lipb as (A1 & A2 & A3). repeat split.
  - apply (derivable_lipb tau _ (fun t => v3x (a t))); auto using lipb_bound. intros t Ht. apply (Hq t Ht).
  - apply (derivable_lipb tau _ (fun t => v3y (a t))); auto using lipb_bound. intros t Ht. apply (Hq t Ht).
  - apply (derivable_lipb tau _ (fun t => v3z (a t))); auto using lipb_bound. intros t Ht. apply (Hq t Ht).
Qed.

Lemma q_derives t : 0 <= t <= tau -> is_derive_quat q t (qd t).
Proof. intros Ht. apply (Hq t Ht). Qed.

Lemma bounded_mult f g : (exists B, forall t, 0 <= t <= tau -> Rabs (f t) <= B) ->
  (exists B, forall t, 0 <= t <= tau -> Rabs (g t) <= B) ->
  exists B, forall t, 0 <= t <= tau -> Rabs (f t * g t) <= B.
Proof.
  intros (B & HB) (C & HC). exists (B * C). intros t Ht. rewrite Rabs_mult.
  specialize (HB t Ht). specialize (HC t Ht). pose proof (Rabs_pos (f t)). pose proof (Rabs_pos (g t)).
  apply Rmult_le_compat; auto.
Qed.
Lemma bounded_plus f g : (exists B, forall t, 0 <= t <= tau -> Rabs (f t) <= B) ->
  (exists B, forall t, 0 <= t <= tau -> Rabs (g t) <= B) ->
  exists B, forall t, 0 <= t <= tau -> Rabs (f t + g t) <= B.
Proof.
  intros (B & HB) (C & HC). exists (B + C). intros t Ht.
  specialize (HB t Ht). specialize (HC t Ht). pose proof (Rabs_triang (f t) (g t)). lra.
Qed.
Lemma bounded_opp f : (exists B, forall t, 0 <= t <= tau -> Rabs (f t) <= B) ->
  exists B, forall t, 0 <= t <= tau -> Rabs (- f t) <= B.
Proof. intros (B & HB). exists B. intros t Ht. rewrite Rabs_Ropp. auto. Qed.
Lemma bounded_const c : exists B, forall t, 0 <= t <= tau -> Rabs ((fun _ => c) t) <= B.
Proof. exists (Rabs c). intros. lra. Qed.

Lemma q_lipb : lipb 0 tau (fun t => qw (q t)) /\ lipb 0 tau (fun t => qx (q t))
  /\ lipb 0 tau (fun t => qy (q t)) /\ lipb 0 tau (fun t => qz (q t)).
Proof.
  destruct w_lipb as (W1 & W2 & W3). apply lipb_bound in W1, W2, W3.
  assert (Q : forall c : quat -> R, (forall x, unit_quat x -> Rabs (c x) <= 4) ->
    exists B, forall t, 0 <= t <= tau -> Rabs (c (q t)) <= B).
  { intros c Hc. exists 4. intros t Ht. apply Hc, (Hq t Ht). }
  assert (U : forall x, unit_quat x -> Rabs (qw x) <= 4 /\ Rabs (qx x) <= 4 /\ Rabs (qy x) <= 4 /\ Rabs (qz x) <= 4).
  { intros x Hx. pose proof (unit_nq x Hx) as N. unfold nq in N. pose proof (Rabs_pos (qw x)).
    pose proof (Rabs_pos (qx x)). pose proof (Rabs_pos (qy x)). pose proof (Rabs_pos (qz x)). lra. }
  pose proof (Q qw (fun x H => proj1 (U x H))) as Q1.
  pose proof (Q qx (fun x H => proj1 (proj2 (U x H)))) as Q2.
  pose proof (Q qy (fun x H => proj1 (proj2 (proj2 (U x H))))) as Q3.
  pose proof (Q qz (fun x H => proj2 (proj2 (proj2 (U x H))))) as Q4. clear Q U.
  assert (B : forall c : quat -> R, c = qw \/ c = qx \/ c = qy \/ c = qz ->
    exists B, forall t, 0 <= t <= tau -> Rabs (c (qd t)) <= B).
  { unfold qd, quat_rate, Rdiv, Rminus.
    intros c [-> |[-> |[-> | ->]]]; cbn [qw qx qy qz];
      repeat first [assumption|apply bounded_mult|apply bounded_plus|apply bounded_opp|apply bounded_const]. }
  repeat split.
  - apply (derivable_lipb tau _ (fun t => qw (qd t))); auto. intros t Ht. apply (q_derives t Ht).
  - apply (derivable_lipb tau _ (fun t => qx (qd t))); auto. intros t Ht. apply (q_derives t Ht).
  - apply (derivable_lipb tau _ (fun t => qy (qd t))); auto. intros t Ht. apply (q_derives t Ht).
  - apply (derivable_lipb tau _ (fun t => qz (qd t))); auto. intros t Ht. apply (q_derives t Ht).
Qed.

Lemma qdd_lipb : lipb 0 tau (fun t => qw (qdd t)) /\ lipb 0 tau (fun t => qx (qdd t))
  /\ lipb 0 tau (fun t => qy (qdd t)) /\ lipb 0 tau (fun t => qz (qdd t)).
Proof.
  destruct w_lipb as (W1 & W2 & W3). destruct a_lipb as (A1 & A2 & A3). destruct q_lipb as (Q1 & Q2 & Q3 & Q4).
  assert (N : forall f, lipb 0 tau f -> lipb 0 tau (fun t => - f t)).
  { intros f Hf. apply (lipb_ext _ _ (fun t => -1 * f t)); [intros; ring|now apply lipb_scal]. }
  unfold qdd, qd, quat_rate, q_add, Rdiv. cbn [qw qx qy qz].
  repeat split; repeat first [assumption | apply lipb_plus | apply lipb_minus | apply lipb_mult | apply lipb_const | apply N].
Qed.

Lemma rate_derives (f1 f2 f3 f4 g1 g2 g3 : R -> R) t (d1 d2 d3 d4 e1 e2 e3 : R) :
  is_derive f1 t d1 -> is_derive f2 t d2 -> is_derive f3 t d3 -> is_derive f4 t d4 ->
  is_derive g1 t e1 -> is_derive g2 t e2 -> is_derive g3 t e3 ->
  is_derive_quat (fun s => quat_rate (V3 (g1 s) (g2 s) (g3 s)) (Q4 (f1 s) (f2 s) (f3 s) (f4 s))) t
    (q_add (quat_rate (V3 e1 e2 e3) (Q4 (f1 t) (f2 t) (f3 t) (f4 t)))
           (quat_rate (V3 (g1 t) (g2 t) (g3 t)) (Q4 d1 d2 d3 d4))).
Proof.
  intros D1 D2 D3 D4 E1 E2 E3.
  assert (X : forall (f : R -> R) (df : R), is_derive f t df -> ex_derive f t) by (intros f df H; eexists; exact H).
  assert (Y : forall (f : R -> R) (df : R), is_derive f t df -> Derive (fun x => f x) t = df)
    by (intros f df H; now apply is_derive_unique).
  unfold is_derive_quat, quat_rate. cbn [qw qx qy qz q_add v3x v3y v3z].
  split; [|split; [|split]].
  all: auto_derive; [repeat split; eauto|].
  all: rewrite ?(Y _ _ D1), ?(Y _ _ D2), ?(Y _ _ D3), ?(Y _ _ D4), ?(Y _ _ E1), ?(Y _ _ E2), ?(Y _ _ E3).
  all: field.
Qed.

Lemma qd_derives t : 0 <= t <= tau -> is_derive_quat qd t (qdd t).
Proof.
  intros Ht. destruct (Hq t Ht) as (_ & (D1 & D2 & D3 & D4) & E1 & E2 & E3).
  exact (rate_derives _ _ _ _ _ _ _ t _ _ _ _ _ _ _ D1 D2 D3 D4 E1 E2 E3).
Qed.

Lemma motion_taylor : exists M, 0 <= M /\ forall s t, 0 <= s <= tau -> 0 <= t <= tau ->
  nq (q_sub (q s) (q t)) <= M * Rabs (s - t)
  /\ nq (q_sub (q_sub (q s) (q t)) (q_scale (s - t) (qd t))) <= M * (s - t) ^ 2
  /\ nq (q_sub (q_sub (q_sub (q s) (q t)) (q_scale (s - t) (qd t))) (q_scale ((s - t) ^ 2 / 2) (qdd t)))
     <= M * Rabs (s - t) ^ 3
  /\ nq (qd t) <= M /\ nq (qdd t) <= M
  /\ n1 (w t) <= M /\ n1 (a t) <= M /\ n1 (v3_sub (w s) (w t)) <= M * Rabs (s - t)
  /\ n1 (v3_sub (v3_sub (w s) (w t)) (v3_scale (s - t) (a t))) <= M * (s - t) ^ 2.
Proof.
  destruct qdd_lipb as (L1 & L2 & L3 & L4). destruct a_lipb as (A1 & A2 & A3). destruct w_lipb as (W1 & W2 & W3).
  destruct (taylor_all tau (fun t => qw (q t)) (fun t => qw (qd t)) (fun t => qw (qdd t)) Htau) as (M1 & P1 & T1); auto;
    [intros t Ht; apply (q_derives t Ht)|intros t Ht; apply (qd_derives t Ht)|].
  destruct (taylor_all tau (fun t => qx (q t)) (fun t => qx (qd t)) (fun t => qx (qdd t)) Htau) as (M2 & P2 & T2); auto;
    [intros t Ht; apply (q_derives t Ht)|intros t Ht; apply (qd_derives t Ht)|].
  destruct (taylor_all tau (fun t => qy (q t)) (fun t => qy (qd t)) (fun t => qy (qdd t)) Htau) as (M3 & P3 & T3); auto;
    [intros t Ht; apply (q_derives t Ht)|intros t Ht; apply (qd_derives t Ht)|].
  destruct (taylor_all tau (fun t => qz (q t)) (fun t => qz (qd t)) (fun t => qz (qdd t)) Htau) as (M4 & P4 & T4); auto;
    [intros t Ht; apply (q_derives t Ht)|intros t Ht; apply (qd_derives t Ht)|].
  assert (V : forall c : v3 -> R, (forall t, 0 <= t <= tau -> is_derive (fun s => c (w s)) t (c (a t))) ->
    lipb 0 tau (fun t => c (a t)) -> exists M, 0 <= M /\ forall s t, 0 <= s <= tau -> 0 <= t <= tau ->
      Rabs (c (w t)) <= M /\ Rabs (c (a t)) <= M /\ Rabs (c (w s) - c (w t)) <= M * Rabs (s - t)
      /\ Rabs (c (w s) - c (w t) - (s - t) * c (a t)) <= M * (s - t) ^ 2).
  { intros c Dc (B & HB & Bb & Bl). destruct (derive_bounded tau ltac:(lra) _ _ Dc) as (C & HC & Bc).
    exists (B + C). split; [lra|]. intros s t Hs Ht.
    pose proof (derive_lip tau _ _ B Dc Bb s t Hs Ht) as R1. cbv beta in R1.
    pose proof (taylor1 tau (fun t => c (w t)) (fun t => c (a t)) B HB Dc Bl s t Hs Ht) as R2. cbv beta in R2.
    specialize (Bc t Ht). cbv beta in Bc. specialize (Bb t Ht). pose proof (Rabs_pos (s - t)) as P.
    pose proof (pow2_ge_0 (s - t)) as P'. repeat split; nra. }
  destruct (V v3x) as (M5 & P5 & T5); auto; [intros t Ht; apply (Hq t Ht)|].
  destruct (V v3y) as (M6 & P6 & T6); auto; [intros t Ht; apply (Hq t Ht)|].
  destruct (V v3z) as (M7 & P7 & T7); auto; [intros t Ht; apply (Hq t Ht)|].
  exists (M1 + M2 + M3 + M4 + (M5 + M6 + M7)). split; [lra|]. intros s t Hs Ht.
  destruct (T1 s t Hs Ht) as (a1 & b1 & c1 & d1 & e1). destruct (T2 s t Hs Ht) as (a2 & b2 & c2 & d2 & e2).
  destruct (T3 s t Hs Ht) as (a3 & b3 & c3 & d3 & e3). destruct (T4 s t Hs Ht) as (a4 & b4 & c4 & d4 & e4).
  destruct (T5 s t Hs Ht) as (a5 & b5 & c5 & d5). destruct (T6 s t Hs Ht) as (a6 & b6 & c6 & d6).
  destruct (T7 s t Hs Ht) as (a7 & b7 & c7 & d7).
  pose proof (Rabs_pos (s - t)) as PA. pose proof (pow2_ge_0 (s - t)) as PB. pose proof (pow_le _ 3 PA) as PC.
  unfold nq, n1, q_sub, q_scale. cbn [qw qx qy qz v3_sub v3_scale v3x v3y v3z].
  set (A := Rabs (s - t)) in *. set (B := (s - t) ^ 2) in *. set (C := A ^ 3) in *.
  assert (F : forall M X, 0 <= M -> 0 <= X -> 0 <= M * X) by (intros; now apply Rmult_le_pos).
  pose proof (F _ _ P1 PA). pose proof (F _ _ P2 PA). pose proof (F _ _ P3 PA). pose proof (F _ _ P4 PA).
  pose proof (F _ _ P5 PA). pose proof (F _ _ P6 PA). pose proof (F _ _ P7 PA).
  pose proof (F _ _ P1 PB). pose proof (F _ _ P2 PB). pose proof (F _ _ P3 PB). pose proof (F _ _ P4 PB).
  pose proof (F _ _ P5 PB). pose proof (F _ _ P6 PB). pose proof (F _ _ P7 PB).
  pose proof (F _ _ P1 PC). pose proof (F _ _ P2 PC). pose proof (F _ _ P3 PC). pose proof (F _ _ P4 PC).
  pose proof (F _ _ P5 PC). pose proof (F _ _ P6 PC). pose proof (F _ _ P7 PC).
  repeat split; lra.
Qed.

(** Vector part of the rotation between two samples. *)
Lemma rate_conj u x : unit_quat x -> vpart (hamilton (quat_rate u x) (cy_conj x)) = v3_scale (1/2) u.
Proof.
  intros H. unfold unit_quat in H. destruct x as [b c d e], u as [f g k]. cbn in H.
  apply v3_eq; cbn.
  - transitivity ((b * (b * 1) + c * (c * 1) + d * (d * 1) + e * (e * 1)) * f / 2); [field|rewrite H; field].
  - transitivity ((b * (b * 1) + c * (c * 1) + d * (d * 1) + e * (e * 1)) * g / 2); [field|rewrite H; field].
  - transitivity ((b * (b * 1) + c * (c * 1) + d * (d * 1) + e * (e * 1)) * k / 2); [field|rewrite H; field].
Qed.

Lemma real_part x y : unit_quat x -> unit_quat y -> nq (q_sub x y) < 1 -> 0 < qw (hamilton x (cy_conj y)).
Proof.
  intros Hx Hy Hn. unfold unit_quat in *. destruct x as [b c d e], y as [f g k l].
  unfold nq, q_sub in Hn. cbn in *.
  assert (S : (b - f) ^ 2 + (c - g) ^ 2 + (d - k) ^ 2 + (e - l) ^ 2 < 1).
  { pose proof (pow2_abs (b - f)) as E1. pose proof (pow2_abs (c - g)) as E2. pose proof (pow2_abs (d - k)) as E3.
    pose proof (pow2_abs (e - l)) as E4. pose proof (Rabs_pos (b - f)). pose proof (Rabs_pos (c - g)).
    pose proof (Rabs_pos (d - k)). pose proof (Rabs_pos (e - l)).
    rewrite <- E1, <- E2, <- E3, <- E4. nra. }
  nra.
Qed.

Definition kappa : R := / 10 ^ 7.
Lemma kappa_pos : 0 < kappa.
Proof. unfold kappa. apply Rinv_0_lt_compat. lra. Qed.

Lemma log_samples : exists C h0, 0 <= C /\ 0 < h0 /\
  (forall s t, 0 <= s <= tau -> 0 <= t <= tau -> Rabs (s - t) <= h0 ->
     v3_norm (v3_sub (pr_log (hamilton (q s) (cy_conj (q t)))) (v3_scale (s - t) (w t)))
     <= C * (s - t) ^ 2 + 4 * kappa)
  /\ (forall t h, 0 < h <= h0 -> 0 <= t - h -> t + h <= tau ->
     v3_norm (v3_sub (pr_log (hamilton (q (t + h)) (cy_conj (q (t - h))))) (v3_scale (2 * h) (w t)))
     <= C * h ^ 3 + 4 * kappa).
Proof.
  destruct motion_taylor as (M & HM & T). pose proof PI_4 as P4. pose proof PI_RGT_0 as PP. pose proof kappa_pos as Pk.
  set (h0 := / (2 * M + 1)). assert (Hh0 : 0 < h0) by (apply Rinv_0_lt_compat; lra).
  assert (Hh1 : (2 * M + 1) * h0 = 1) by (unfold h0; field; lra).
  assert (U : forall t, 0 <= t <= tau -> unit_quat (q t)) by (intros t Ht; apply (Hq t Ht)).
  assert (Lk : PI * log_threshold Python <= 4 * kappa).
  { change (log_threshold Python) with kappa. apply Rmult_le_compat_r; lra. }
  assert (VB : forall s t, 0 <= s <= tau -> 0 <= t <= tau ->
     v3_norm (vpart (hamilton (q s) (cy_conj (q t)))) <= 4 * M * Rabs (s - t)).
  { intros s t Hs Ht. destruct (T s t Hs Ht) as (T1 & _).
    replace (vpart (hamilton (q s) (cy_conj (q t)))) with (vpart (hamilton (q_sub (q s) (q t)) (cy_conj (q t))))
      by (destruct (q s), (q t); apply v3_eq; cbn; ring).
    eapply Rle_trans; [apply vpart_nq|]. eapply Rle_trans; [apply nq_mul|]. rewrite nq_conj.
    pose proof (unit_nq _ (U t Ht)) as N4. pose proof (nq_pos (q_sub (q s) (q t))). pose proof (nq_pos (q t)).
    apply Rle_trans with (M * Rabs (s - t) * 4); [apply Rmult_le_compat; auto|lra]. }
  exists (8 * (4 * M) ^ 3 * tau + 8 * M + 64 * (4 * M) ^ 3 + 2 * (M * M + 8 * M + M * M * tau ^ 3)), h0.
  assert (PM : 0 <= (4 * M) ^ 3) by (apply pow_le; lra).
  assert (Pt3 : 0 <= tau ^ 3) by (apply pow_le; lra).
  assert (PM3 : 0 <= (4 * M) ^ 3 * tau) by (apply Rmult_le_pos; lra).
  assert (PMt : 0 <= M * M * tau ^ 3) by (apply Rmult_le_pos; auto; nra).
  assert (PMM : 0 <= M * M) by nra.
  split; [lra|]. split; [exact Hh0|]. split.
  - intros s t Hs Ht Hst. destruct (T s t Hs Ht) as (T1 & T2 & _). pose proof (VB s t Hs Ht) as V1.
    set (x := q s) in *. set (y := q t) in *. set (d := hamilton x (cy_conj y)).
    assert (Ud : unit_quat d) by (apply hamilton_unit; [|apply cy_conj_unit]; apply U; auto).
    assert (PA := Rabs_pos (s - t)).
    assert (Wd : 0 < qw d).
    { apply real_part; [apply U; auto|apply U; auto|]. eapply Rle_lt_trans; [exact T1|].
      assert (M * Rabs (s - t) <= M * h0) by (apply Rmult_le_compat_l; auto). nra. }
    pose proof (log_small Python d Ud Wd) as G. cbn [i_log] in G.
    eapply Rle_trans; [apply (v3_sub_triangle _ (v3_scale 2 (vpart d)))|].
    assert (R1 : v3_norm (v3_sub (v3_scale 2 (vpart d)) (v3_scale (s - t) (w t))) <= 8 * M * (s - t) ^ 2).
    { replace (v3_sub (v3_scale 2 (vpart d)) (v3_scale (s - t) (w t)))
        with (v3_scale 2 (vpart (hamilton (q_sub (q_sub x y) (q_scale (s - t) (qd t))) (cy_conj y)))).
      - rewrite v3_norm_scale, (Rabs_pos_eq 2) by lra.
        assert (N4 : nq y <= 4) by (apply unit_nq, U; auto).
        set (rho := q_sub (q_sub x y) (q_scale (s - t) (qd t))) in *.
        pose proof (vpart_nq (hamilton rho (cy_conj y))) as A1. pose proof (nq_mul rho (cy_conj y)) as A2.
        rewrite nq_conj in A2. pose proof (nq_pos rho). pose proof (nq_pos y).
        assert (nq rho * nq y <= M * (s - t) ^ 2 * 4) by (apply Rmult_le_compat; auto). lra.
      - assert (E : v3_scale (s - t) (w t) = v3_scale 2 (v3_scale (s - t) (vpart (hamilton (qd t) (cy_conj y))))).
        { unfold qd. fold y. rewrite rate_conj by (apply U; auto). apply v3_eq; cbn; field. }
        rewrite E. unfold d. destruct (qd t), x, y. apply v3_eq; cbn; ring. }
    assert (R2 : v3_norm (vpart d) ^ 3 <= (4 * M) ^ 3 * tau * (s - t) ^ 2).
    { apply Rle_trans with ((4 * M * Rabs (s - t)) ^ 3); [apply pow_incr; split; [apply v3_norm_pos|exact V1]|].
      rewrite <- (pow2_abs (s - t)). assert (Rabs (s - t) <= tau) by (apply Rabs_le; lra).
      replace ((4 * M * Rabs (s - t)) ^ 3) with ((4 * M) ^ 3 * Rabs (s - t) ^ 2 * Rabs (s - t)) by ring.
      replace ((4 * M) ^ 3 * tau * Rabs (s - t) ^ 2) with ((4 * M) ^ 3 * Rabs (s - t) ^ 2 * tau) by ring.
      apply Rmult_le_compat_l; auto. apply Rmult_le_pos; auto. apply pow2_ge_0. }
    pose proof (pow2_ge_0 (s - t)) as P2.
    assert (0 <= (64 * (4 * M) ^ 3 + 2 * (M * M + 8 * M + M * M * tau ^ 3)) * (s - t) ^ 2)
      by (apply Rmult_le_pos; auto; lra).
    lra.
  - intros t h (Hp & Hh) H1 H2.
    destruct (T (t + h) t ltac:(lra) ltac:(lra)) as (_ & _ & T3 & T4 & T5 & _).
    destruct (T (t - h) t ltac:(lra) ltac:(lra)) as (_ & _ & T6 & _).
    destruct (T (t + h) (t - h) ltac:(lra) ltac:(lra)) as (T7 & _).
    pose proof (VB (t + h) (t - h) ltac:(lra) ltac:(lra)) as V1.
    replace (t + h - t) with h in T3 by ring. replace (t - h - t) with (- h) in T6 by ring.
    replace (t + h - (t - h)) with (2 * h) in T7, V1 by ring.
    rewrite Rabs_Ropp in T6. rewrite (Rabs_pos_eq h) in T3, T6 by lra. rewrite (Rabs_pos_eq (2 * h)) in T7, V1 by lra.
    set (x := q (t + h)) in *. set (y := q (t - h)) in *. set (z := q t) in *. set (d := hamilton x (cy_conj y)).
    assert (Ux : unit_quat x) by (apply U; lra). assert (Uy : unit_quat y) by (apply U; lra).
    assert (Uz : unit_quat z) by (apply U; lra).
    assert (Ud : unit_quat d) by (apply hamilton_unit; auto using cy_conj_unit).
    assert (Wd : 0 < qw d).
    { apply real_part; auto. eapply Rle_lt_trans; [exact T7|].
      assert (M * (2 * h) <= M * (2 * h0)) by (apply Rmult_le_compat_l; lra). nra. }
    pose proof (log_small Python d Ud Wd) as G. cbn [i_log] in G.
    eapply Rle_trans; [apply (v3_sub_triangle _ (v3_scale 2 (vpart d)))|].
    set (rp := q_sub (q_sub (q_sub x z) (q_scale h (qd t))) (q_scale (h ^ 2 / 2) (qdd t))) in *.
    set (rm := q_sub (q_sub (q_sub y z) (q_scale (- h) (qd t))) (q_scale ((- h) ^ 2 / 2) (qdd t))) in *.
    assert (Ht3 : h ^ 3 <= tau ^ 3) by (apply pow_incr; lra). assert (Ph3 : 0 <= h ^ 3) by (apply pow_le; lra).
    assert (R1 : v3_norm (v3_sub (vpart d) (v3_scale h (w t))) <= (M * M + 8 * M + M * M * tau ^ 3) * h ^ 3).
    { replace (v3_sub (vpart d) (v3_scale h (w t)))
        with (v3_add (v3_scale (h ^ 3) (vpart (hamilton (qd t) (cy_conj (qdd t)))))
               (v3_add (vpart (hamilton rp (cy_conj y)))
                       (v3_sub (vpart (hamilton x (cy_conj rm))) (vpart (hamilton rp (cy_conj rm)))))).
      - assert (N1 : v3_norm (v3_scale (h ^ 3) (vpart (hamilton (qd t) (cy_conj (qdd t))))) <= h ^ 3 * (M * M)).
        { rewrite v3_norm_scale, Rabs_pos_eq by auto. apply Rmult_le_compat_l; auto.
          eapply Rle_trans; [apply vpart_nq|]. eapply Rle_trans; [apply nq_mul|]. rewrite nq_conj.
          apply Rmult_le_compat; auto using nq_pos. }
        assert (N2 : v3_norm (vpart (hamilton rp (cy_conj y))) <= M * h ^ 3 * 4).
        { eapply Rle_trans; [apply vpart_nq|]. eapply Rle_trans; [apply nq_mul|]. rewrite nq_conj.
          apply Rmult_le_compat; auto using nq_pos, unit_nq. }
        assert (N3 : v3_norm (vpart (hamilton x (cy_conj rm))) <= 4 * (M * h ^ 3)).
        { eapply Rle_trans; [apply vpart_nq|]. eapply Rle_trans; [apply nq_mul|]. rewrite nq_conj.
          apply Rmult_le_compat; auto using nq_pos, unit_nq. }
        assert (N4 : v3_norm (vpart (hamilton rp (cy_conj rm))) <= M * h ^ 3 * (M * tau ^ 3)).
        { eapply Rle_trans; [apply vpart_nq|]. eapply Rle_trans; [apply nq_mul|]. rewrite nq_conj.
          apply Rmult_le_compat; auto using nq_pos.
          eapply Rle_trans; [exact T6|]. apply Rmult_le_compat_l; auto. }
        eapply Rle_trans; [apply v3_norm_triangle|].
        pose proof (v3_norm_triangle (vpart (hamilton rp (cy_conj y)))
          (v3_sub (vpart (hamilton x (cy_conj rm))) (vpart (hamilton rp (cy_conj rm))))) as N5.
        pose proof (v3_sub_norm (vpart (hamilton x (cy_conj rm))) (vpart (hamilton rp (cy_conj rm)))) as N6. lra.
      - assert (E : v3_scale h (w t) = v3_scale (2 * h) (vpart (hamilton (qd t) (cy_conj z)))).
        { unfold qd. fold z. rewrite rate_conj by auto. apply v3_eq; cbn; field. }
        rewrite E. unfold d, rp, rm. destruct (qd t), (qdd t), x, y, z. apply v3_eq; cbn; field. }
    assert (R2 : v3_norm (v3_sub (v3_scale 2 (vpart d)) (v3_scale (2 * h) (w t)))
                 <= 2 * ((M * M + 8 * M + M * M * tau ^ 3) * h ^ 3)).
    { replace (v3_sub (v3_scale 2 (vpart d)) (v3_scale (2 * h) (w t)))
        with (v3_scale 2 (v3_sub (vpart d) (v3_scale h (w t)))) by (apply v3_eq; cbn; ring).
      rewrite v3_norm_scale, (Rabs_pos_eq 2) by lra. lra. }
    assert (R3 : v3_norm (vpart d) ^ 3 <= 8 * (4 * M) ^ 3 * h ^ 3).
    { apply Rle_trans with ((4 * M * (2 * h)) ^ 3); [apply pow_incr; split; [apply v3_norm_pos|exact V1]|].
      apply Req_le. ring. }
    assert (0 <= (8 * (4 * M) ^ 3 * tau + 8 * M) * h ^ 3) by (apply Rmult_le_pos; auto; lra).
    lra.
Qed.

(** ** Samples *)
Definition same_orientation (x y : quat) : Prop := x = y \/ x = q_neg y.

Lemma log_signs x y x' y' : unit_quat x -> unit_quat y -> 0 < qw (hamilton x (cy_conj y)) ->
  same_orientation x' x -> same_orientation y' y ->
  pr_log (pr_mul x' (pr_conj y')) = pr_log (hamilton x (cy_conj y)).
Proof.
  intros Hx Hy Hw Sx Sy. set (d := hamilton x (cy_conj y)) in *.
  assert (Ud : unit_quat d) by (apply hamilton_unit; auto using cy_conj_unit).
  assert (N : pr_log (q_neg d) = pr_log d) by (apply (log_neg Python d Ud); lra).
  assert (Uy : unit_quat y') by (destruct Sy as [-> | ->]; auto using unit_neg).
  unfold pr_mul, pr_conj. rewrite check_unit by auto.
  destruct Sx as [-> | ->], Sy as [-> | ->]; rewrite ?conj_neg, ?hamilton_neg_l, ?hamilton_neg_r, ?q_neg_neg; auto.
Qed.

(** The velocities and accelerations that imitation computes, in one axis [c]. *)
Definition demo_w (N : nat) (T : vec) (Y : nat -> quat) (allow : bool) (k : nat) : v3 :=
  if (negb allow && Nat.eqb k (S N - 1))%bool then v3_zero
  else v3_divs (pr_quaternion_gradient (S N) Y k) (np_gradient (S N) T k).
Definition demo_a (N : nat) (T : vec) (W : nat -> R) (k : nat) : R :=
  if Nat.eqb k (S N - 1) then 0 else np_gradient (S N) W k / np_gradient (S N) T k.

Lemma axis_samples (c : v3 -> R) (alpha : R) :
  (forall u v, c (v3_sub u v) = c u - c v) -> (forall x u, c (v3_scale x u) = x * c u) ->
  (forall u, Rabs (c u) <= v3_norm u) ->
  exists A h0, 0 <= A /\ 0 < h0 /\ forall (N : nat) (T : vec) (Y : nat -> quat) (allow : bool),
  let h := tau / INR N in
  let W := demo_w N T Y allow in
  let G := fun k => tau ^ 2 * (demo_a N T (fun k => c (W k)) k - c (a (INR k * h)))
                    + alpha * tau * (c (W k) - c (w (INR k * h))) in
  (2 <= N)%nat -> h <= h0 -> (forall k, T k = INR k * h) ->
  (forall k, (k <= N)%nat -> same_orientation (Y k) (q (INR k * h))) ->
  allow = true \/ w tau = v3_zero ->
  (forall k, (k <= N)%nat -> Rabs (G k) <= A + A * h + A * (kappa / h ^ 2))
  /\ forall k, (2 <= k)%nat -> (k + 2 <= N)%nat -> Rabs (G k) <= A * h + A * (kappa / h ^ 2).
Proof.
  intros Cs Cx Cn. destruct motion_taylor as (M & HM & T0). destruct log_samples as (C & h1 & HC & Hh1 & LS & LC).
  pose proof kappa_pos as Pk. pose proof (Rabs_pos alpha) as Pal.
  exists (tau ^ 2 * (2 * (C + C * tau) + 2 * M + 8) + Rabs alpha * tau * (C + C * tau + 4 * tau)), (Rmin h1 (/ (2 * M + 1))).
  assert (Hi : 0 < / (2 * M + 1)) by (apply Rinv_0_lt_compat; lra).
  assert (Q1 : 0 <= tau ^ 2) by apply pow2_ge_0.
  assert (Q2 : 0 <= Rabs alpha * tau) by (apply Rmult_le_pos; lra).
  assert (Q3 : 0 <= C * tau) by (apply Rmult_le_pos; lra).
  split; [apply Rplus_le_le_0_compat; apply Rmult_le_pos; lra|].
  split; [apply Rmin_glb_lt; auto|].
  intros N T Y allow h W G HN Hhh HT HY Hallow.
  assert (Hhh1 : h <= h1) by (eapply Rle_trans; [exact Hhh|apply Rmin_l]).
  assert (Hhh2 : (2 * M + 1) * h <= 1).
  { assert (h <= / (2 * M + 1)) by (eapply Rle_trans; [exact Hhh|apply Rmin_r]).
    assert (I : (2 * M + 1) * / (2 * M + 1) = 1) by (apply Rinv_r; lra). rewrite <- I at 2. apply Rmult_le_compat_l; lra. }
  assert (HNpos : 0 < INR N) by (apply lt_0_INR; lia).
  assert (Hh : 0 < h) by (unfold h; now apply Rdiv_lt_0_compat).
  assert (HNh : INR N * h = tau) by (unfold h; field; lra).
  assert (Hht : h <= tau) by (assert (1 <= INR N) by (apply (le_INR 1); lia); nra).
  assert (GT : forall k, np_gradient (S N) T k = h) by (intros k; apply (gradient_T tau N T HN HT)).
  assert (TR : forall k, (k <= N)%nat -> 0 <= INR k * h <= tau) by (intros k Hk; apply (time_range tau Htau N HN k Hk)).
  assert (U : forall k, (k <= N)%nat -> unit_quat (q (INR k * h))) by (intros k Hk; apply (Hq _ (TR k Hk))).
  assert (SG : forall j k, (j <= N)%nat -> (k <= N)%nat -> Rabs (INR j * h - INR k * h) <= 2 * h ->
     pr_log (pr_mul (Y j) (pr_conj (Y k))) = pr_log (hamilton (q (INR j * h)) (cy_conj (q (INR k * h))))).
  { intros j k Hj Hk Hd. apply log_signs; auto. apply real_part; auto.
    destruct (T0 _ _ (TR j Hj) (TR k Hk)) as (B1 & _). eapply Rle_lt_trans; [exact B1|].
    assert (M * Rabs (INR j * h - INR k * h) <= M * (2 * h)) by (apply Rmult_le_compat_l; auto). lra. }
  set (K := kappa / h ^ 2).
  assert (Ph2 : 0 < h ^ 2) by (apply pow_lt; auto).
  assert (PK : 0 < K) by (apply Rdiv_lt_0_compat; auto).
  assert (EK : kappa = K * h ^ 2) by (unfold K; field; lra).
  assert (Nd : forall u x, Rabs x = h \/ Rabs x = 2 * h -> v3_norm (v3_divs u x) = v3_norm u / Rabs x).
  { intros u x Hx. rewrite v3_divs_scale, v3_norm_scale, Rabs_inv. unfold Rdiv. ring. }
  (* velocities inside *)
  assert (VI : forall k, (1 <= k)%nat -> (k + 1 <= N)%nat ->
     Rabs (c (W k) - c (w (INR k * h))) <= C * h ^ 2 + 2 * (K * h)).
  { intros k Hk1 Hk2. rewrite <- Cs. eapply Rle_trans; [apply Cn|]. unfold W, demo_w.
    destruct (Nat.eqb_spec k (S N - 1)); [lia|]. rewrite andb_false_r, GT. unfold pr_quaternion_gradient.
    destruct (Nat.eqb_spec k 0); [lia|]. destruct (Nat.eqb_spec k (S N - 1)); [lia|].
    assert (E1 : INR (k + 1) * h = INR k * h + h) by (rewrite plus_INR; simpl; ring).
    assert (E2 : INR (k - 1) * h = INR k * h - h) by (rewrite minus_INR by lia; simpl; ring).
    rewrite SG by (try lia; rewrite E1, E2; replace (INR k * h + h - (INR k * h - h)) with (2 * h) by ring;
                   rewrite Rabs_pos_eq; lra).
    pose proof (TR (k + 1)%nat ltac:(lia)) as T1. pose proof (TR (k - 1)%nat ltac:(lia)) as T2. rewrite E1 in *. rewrite E2 in *.
    set (t := INR k * h) in *. pose proof (LC t h ltac:(lra) ltac:(lra) ltac:(lra)) as B1.
    set (l := pr_log (hamilton (q (t + h)) (cy_conj (q (t - h))))) in *.
    replace (v3_sub (v3_divs (v3_divs l 2) h) (w t)) with (v3_divs (v3_sub l (v3_scale (2 * h) (w t))) (2 * h))
      by (apply v3_eq; cbn; field; lra).
    rewrite Nd by (right; apply Rabs_pos_eq; lra). rewrite (Rabs_pos_eq (2 * h)) by lra.
    apply Rmult_le_reg_r with (2 * h); [lra|]. unfold Rdiv. rewrite Rmult_assoc, Rinv_l by lra.
    rewrite EK in B1. assert (0 <= C * h ^ 3) by (apply Rmult_le_pos; auto; apply pow_le; lra). lra. }
  (* all velocities *)
  assert (VA : forall k, (k <= N)%nat -> Rabs (c (W k) - c (w (INR k * h))) <= (C + C * tau) * h + 4 * (K * h)).
  { assert (PKh : 0 <= K * h) by (apply Rmult_le_pos; lra). assert (PCh : 0 <= C * h) by (apply Rmult_le_pos; lra).
    assert (PCth : 0 <= C * tau * h) by (apply Rmult_le_pos; lra).
    assert (ONE : forall s t, 0 <= s <= tau -> 0 <= t <= tau -> Rabs (s - t) = h ->
       v3_norm (v3_sub (v3_divs (pr_log (hamilton (q s) (cy_conj (q t)))) (s - t)) (w t)) <= C * h + 4 * (K * h)).
    { intros s t Hs Ht Hd. pose proof (LS s t Hs Ht ltac:(lra)) as B1.
      assert (s - t <> 0) by (intros Z; rewrite Z, Rabs_R0 in Hd; lra).
      set (l := pr_log (hamilton (q s) (cy_conj (q t)))) in *.
      replace (v3_sub (v3_divs l (s - t)) (w t)) with (v3_divs (v3_sub l (v3_scale (s - t) (w t))) (s - t))
        by (apply v3_eq; cbn; field; lra).
      rewrite Nd by auto. rewrite Hd. apply Rmult_le_reg_r with h; [lra|]. unfold Rdiv. rewrite Rmult_assoc, Rinv_l by lra.
      rewrite <- (pow2_abs (s - t)), Hd in B1. rewrite EK in B1. lra. }
    intros k Hk. destruct (Nat.eq_dec k 0) as [->|Hk0]; [|destruct (Nat.eq_dec k N) as [->|HkN]].
    - rewrite <- Cs. eapply Rle_trans; [apply Cn|]. unfold W, demo_w.
      destruct (Nat.eqb_spec 0 (S N - 1)); [lia|]. rewrite andb_false_r, GT. unfold pr_quaternion_gradient.
      rewrite Nat.eqb_refl.
      assert (Eh : INR 1 * h - INR 0 * h = h) by (simpl; ring).
      rewrite SG by (try lia; rewrite Eh, Rabs_pos_eq; lra).
      pose proof (ONE (INR 1 * h) (INR 0 * h) (TR 1%nat ltac:(lia)) (TR 0%nat ltac:(lia))) as B1.
      rewrite Eh in B1. specialize (B1 ltac:(apply Rabs_pos_eq; lra)). lra.
    - unfold W, demo_w. destruct (Nat.eqb_spec N (S N - 1)); [|lia]. destruct allow; cbn [negb andb].
      + rewrite <- Cs. eapply Rle_trans; [apply Cn|]. rewrite GT. unfold pr_quaternion_gradient.
        destruct (Nat.eqb_spec N 0); [lia|]. destruct (Nat.eqb_spec N (S N - 1)); [|lia].
        replace (S N - 1)%nat with N by lia. replace (S N - 2)%nat with (N - 1)%nat by lia.
        assert (E1 : INR (N - 1) * h = INR N * h - h) by (rewrite minus_INR by lia; simpl; ring).
        rewrite SG by (try lia; rewrite E1; replace (INR N * h - (INR N * h - h)) with h by ring; rewrite Rabs_pos_eq; lra).
        (* the logarithm of the inverse rotation *)
        assert (I : pr_log (hamilton (q (INR N * h)) (cy_conj (q (INR (N - 1) * h))))
           = v3_scale (-1) (pr_log (hamilton (q (INR (N - 1) * h)) (cy_conj (q (INR N * h)))))).
        { set (x := q (INR N * h)). set (y := q (INR (N - 1) * h)).
          assert (Ux : unit_quat x) by (apply U; lia). assert (Uy : unit_quat y) by (apply U; lia).
          set (d := hamilton y (cy_conj x)).
          assert (Ed : hamilton x (cy_conj y) = cy_conj d) by (unfold d; now rewrite conj_hamilton, conj_conj).
          assert (Ud : unit_quat d) by (apply hamilton_unit; auto using cy_conj_unit).
          rewrite Ed. change (i_log Python (cy_conj d) = v3_scale (-1) (i_log Python d)).
          rewrite !i_log_unit by auto using cy_conj_unit.
          assert (En : v3_norm (vpart (cy_conj d)) = v3_norm (vpart d)) by (unfold v3_norm; f_equal; cbn; ring).
          rewrite En. cbn [cy_conj qw]. destruct (Rlt_dec _ _); apply v3_eq; cbn; ring. }
        rewrite I, E1. pose proof (TR (N - 1)%nat ltac:(lia)) as T1. rewrite E1 in T1.
        pose proof (ONE (INR N * h - h) (INR N * h) T1 (TR N ltac:(lia))) as B1.
        replace (INR N * h - h - INR N * h) with (- h) in B1 by ring.
        specialize (B1 ltac:(rewrite Rabs_Ropp; apply Rabs_pos_eq; lra)).
        set (l := pr_log (hamilton (q (INR N * h - h)) (cy_conj (q (INR N * h))))) in *.
        replace (v3_divs (v3_scale (-1) l) h) with (v3_divs l (- h)) by (apply v3_eq; cbn; field; lra). lra.
      + destruct Hallow as [|Hw]; [discriminate|]. rewrite HNh, Hw, Rminus_eq_0, Rabs_R0. lra.
    - pose proof (VI k ltac:(lia) ltac:(lia)) as B1.
      assert (C * h ^ 2 <= C * tau * h).
      { replace (C * h ^ 2) with (C * h * h) by ring. replace (C * tau * h) with (C * h * tau) by ring.
        apply Rmult_le_compat_l; lra. }
      lra. }
  assert (CW : forall s t, 0 <= s <= tau -> 0 <= t <= tau ->
     Rabs (c (w s) - c (w t)) <= M * Rabs (s - t) /\ Rabs (c (a t)) <= M
     /\ Rabs (c (w s) - c (w t) - (s - t) * c (a t)) <= M * (s - t) ^ 2).
  { intros s t Hs Ht. destruct (T0 s t Hs Ht) as (_ & _ & _ & _ & _ & _ & B1 & B2 & B3). split; [|split].
    - rewrite <- Cs. eapply Rle_trans; [apply Cn|]. eapply Rle_trans; [apply norm_n1|]. exact B2.
    - eapply Rle_trans; [apply Cn|]. eapply Rle_trans; [apply norm_n1|]. exact B1.
    - rewrite <- Cx, <- !Cs. eapply Rle_trans; [apply Cn|]. eapply Rle_trans; [apply norm_n1|]. exact B3. }
  (* accelerations *)
  assert (PKh : 0 <= K * h) by (apply Rmult_le_pos; lra). assert (PCh : 0 <= C * h) by (apply Rmult_le_pos; lra).
  assert (PMh : 0 <= M * h) by (apply Rmult_le_pos; lra).
  assert (AI : forall k, (2 <= k)%nat -> (k + 2 <= N)%nat ->
     Rabs (demo_a N T (fun k => c (W k)) k - c (a (INR k * h))) <= (C + M) * h + 2 * K).
  { intros k Hk1 Hk2. unfold demo_a. destruct (Nat.eqb_spec k (S N - 1)); [lia|]. rewrite GT. unfold np_gradient.
    destruct (Nat.eqb_spec k 0); [lia|]. destruct (Nat.eqb_spec k (S N - 1)); [lia|].
    assert (E1 : INR (k + 1) * h = INR k * h + h) by (rewrite plus_INR; simpl; ring).
    assert (E2 : INR (k - 1) * h = INR k * h - h) by (rewrite minus_INR by lia; simpl; ring).
    pose proof (VI (k + 1)%nat ltac:(lia) ltac:(lia)) as V1. pose proof (VI (k - 1)%nat ltac:(lia) ltac:(lia)) as V2.
    pose proof (TR (k + 1)%nat ltac:(lia)) as T1. pose proof (TR (k - 1)%nat ltac:(lia)) as T2. rewrite E1 in *. rewrite E2 in *.
    set (t := INR k * h) in *.
    destruct (CW (t + h) t T1 ltac:(lra)) as (_ & _ & A1). destruct (CW (t - h) t T2 ltac:(lra)) as (_ & _ & A2).
    replace (t + h - t) with h in A1 by ring. replace (t - h - t) with (- h) in A2 by ring.
    set (x1 := c (W (k + 1)%nat)) in *. set (x2 := c (W (k - 1)%nat)) in *.
    set (y1 := c (w (t + h))) in *. set (y2 := c (w (t - h))) in *. set (y0 := c (w t)) in *. set (z := c (a t)) in *.
    replace ((x1 - x2) / 2 / h - z)
      with (((x1 - y1) - (x2 - y2) + ((y1 - y0 - h * z) - (y2 - y0 - - h * z))) / (2 * h)) by (field; lra).
    unfold Rdiv. rewrite Rabs_mult, Rabs_inv, (Rabs_pos_eq (2 * h)) by lra.
    apply Rmult_le_reg_r with (2 * h); [lra|]. rewrite Rmult_assoc, Rinv_l, Rmult_1_r by lra.
    apply Rabs_le. apply Rabs_le_between in V1. apply Rabs_le_between in V2. apply Rabs_le_between in A1. apply Rabs_le_between in A2.
    split; lra. }
  assert (AA : forall k, (k <= N)%nat ->
     Rabs (demo_a N T (fun k => c (W k)) k - c (a (INR k * h))) <= 2 * (C + C * tau) + 2 * M + 8 * K).
  { assert (D : forall j k, (j <= N)%nat -> (k <= N)%nat -> Rabs (INR j * h - INR k * h) <= 2 * h ->
       Rabs (c (W j) - c (W k)) <= 2 * ((C + C * tau) * h + 4 * (K * h)) + M * Rabs (INR j * h - INR k * h)).
    { intros j k Hj Hk Hd. pose proof (VA j Hj) as V1. pose proof (VA k Hk) as V2.
      destruct (CW _ _ (TR j Hj) (TR k Hk)) as (V3 & _ & _).
      apply Rabs_le. apply Rabs_le_between in V1. apply Rabs_le_between in V2. apply Rabs_le_between in V3. split; lra. }
    intros k Hk. destruct (CW _ _ (TR k Hk) (TR k Hk)) as (_ & Az & _).
    assert (B : Rabs (demo_a N T (fun k => c (W k)) k) <= 2 * (C + C * tau) + M + 8 * K).
    { unfold demo_a. destruct (Nat.eqb_spec k (S N - 1)); [rewrite Rabs_R0; lra|]. rewrite GT. unfold np_gradient.
      unfold Rdiv. rewrite Rabs_mult, Rabs_inv, (Rabs_pos_eq h) by lra.
      apply Rmult_le_reg_r with h; [lra|]. rewrite Rmult_assoc, Rinv_l, Rmult_1_r by lra.
      destruct (Nat.eqb_spec k 0) as [->|].
      - assert (Eh : INR 1 * h - INR 0 * h = h) by (simpl; ring).
        pose proof (D 1%nat 0%nat ltac:(lia) ltac:(lia)) as B. rewrite Eh, (Rabs_pos_eq h) in B by lra. specialize (B ltac:(lra)). lra.
      - destruct (Nat.eqb_spec k (S N - 1)); [lia|].
        assert (Eh : INR (k + 1) * h - INR (k - 1) * h = 2 * h) by (rewrite plus_INR, minus_INR by lia; simpl; ring).
        pose proof (D (k + 1)%nat (k - 1)%nat ltac:(lia) ltac:(lia)) as B. rewrite Eh, (Rabs_pos_eq (2 * h)) in B by lra.
        specialize (B ltac:(lra)). rewrite Rabs_mult, Rabs_inv, (Rabs_pos_eq 2) by lra.
        assert (0 <= C * tau * h) by (apply Rmult_le_pos; lra). lra. }
    apply Rabs_le. apply Rabs_le_between in B. apply Rabs_le_between in Az. split; lra. }
  set (A := tau ^ 2 * (2 * (C + C * tau) + 2 * M + 8) + Rabs alpha * tau * (C + C * tau + 4 * tau)).
  assert (GV : forall k, (k <= N)%nat ->
     Rabs (alpha * tau * (c (W k) - c (w (INR k * h)))) <= Rabs alpha * tau * ((C + C * tau) * h + 4 * tau * K)).
  { intros k Hk. rewrite !Rabs_mult, (Rabs_pos_eq tau) by lra. apply Rmult_le_compat_l; auto.
    eapply Rle_trans; [apply VA; auto|]. assert (K * h <= K * tau) by (apply Rmult_le_compat_l; lra). lra. }
  assert (P1 : 0 <= (2 * (C + C * tau) + 2 * M) * h) by (apply Rmult_le_pos; lra).
  assert (P2 : 0 <= C + C * tau) by lra.
  assert (P3 : 0 <= (C + C * tau) * h) by (apply Rmult_le_pos; lra).
  assert (P4 : 0 <= tau * K) by (apply Rmult_le_pos; lra).
  assert (P5 : 0 <= tau * h) by (apply Rmult_le_pos; lra).
  assert (P6 : 0 <= (C + C * tau) * K) by (apply Rmult_le_pos; lra).
  assert (P7 : 0 <= M * K) by (apply Rmult_le_pos; lra).
  assert (VB : Rabs alpha * tau * ((C + C * tau) * h + 4 * tau * K)
     <= Rabs alpha * tau * (C + C * tau + 4 * tau) * h + Rabs alpha * tau * (C + C * tau + 4 * tau) * K).
  { replace (Rabs alpha * tau * (C + C * tau + 4 * tau) * h + Rabs alpha * tau * (C + C * tau + 4 * tau) * K)
      with (Rabs alpha * tau * ((C + C * tau + 4 * tau) * h + (C + C * tau + 4 * tau) * K)) by ring.
    apply Rmult_le_compat_l; auto. lra. }
  assert (VB0 : 0 <= Rabs alpha * tau * (C + C * tau + 4 * tau)) by (apply Rmult_le_pos; lra).
  split.
  - intros k Hk. unfold G. eapply Rle_trans; [apply Rabs_triang|]. pose proof (GV k Hk) as B1.
    pose proof (AA k Hk) as B2. rewrite Rabs_mult, (Rabs_pos_eq (tau ^ 2)) by auto.
    assert (B3 : tau ^ 2 * Rabs (demo_a N T (fun k => c (W k)) k - c (a (INR k * h)))
       <= tau ^ 2 * ((2 * (C + C * tau) + 2 * M + 8) + (2 * (C + C * tau) + 2 * M + 8) * h
                    + (2 * (C + C * tau) + 2 * M + 8) * K)).
    { apply Rmult_le_compat_l; auto. assert (0 <= h) by lra. lra. }
    fold K. fold A. unfold A. lra.
  - intros k Hk1 Hk2. unfold G. eapply Rle_trans; [apply Rabs_triang|]. pose proof (GV k ltac:(lia)) as B1.
    pose proof (AI k Hk1 Hk2) as B2. rewrite Rabs_mult, (Rabs_pos_eq (tau ^ 2)) by auto.
    assert (B3 : tau ^ 2 * Rabs (demo_a N T (fun k => c (W k)) k - c (a (INR k * h)))
       <= tau ^ 2 * ((2 * (C + C * tau) + 2 * M + 8) * h + (2 * (C + C * tau) + 2 * M + 8) * K)).
    { apply Rmult_le_compat_l; auto. assert (0 <= C * tau * h) by (apply Rmult_le_pos; lra).
      assert (0 <= C * tau * K) by (apply Rmult_le_pos; lra). lra. }
    fold K. fold A. unfold A. lra.
Qed.

End Motion.
