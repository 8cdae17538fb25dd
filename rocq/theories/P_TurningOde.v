(** The Euler method for orientations stays close to the solution of the DMP's
    differential equation of the orientation. *)
From Coq Require Import Reals List Arith Bool Lia Lra Psatz.
From Coquelicot Require Import Coquelicot.
From Verif Require Import M_Prelude M_Dmp M_Quaternion M_Cartesian S_Rotation P_Loops P_Ode P_Reproduction
  P_Quaternion P_Sphere P_Orient P_Turning S_Turning P_TurningDemo P_TurningRun.
Set Bullet Behavior "Strict Subproofs".
Local Open Scope R_scope.

Lemma gronwall_resolution K C H t h N N' : 0 <= K -> 0 <= C -> 0 <= t -> 0 < h -> 0 <= H ->
  N <= C * H * t * exp (K * t) -> N' <= (1 + h * K) * N + h * (C * H) ->
  N' <= C * H * (t + h) * exp (K * (t + h)).
Proof.
  intros HK HC Ht Hh HH HI HN'.
  assert (HE : 1 + h * K <= exp (K * h)) by (rewrite Rmult_comm; apply exp_ineq1_le).
  assert (HKh : 0 <= h * K) by (apply Rmult_le_pos; lra).
  assert (HCH : 0 <= C * H) by (apply Rmult_le_pos; lra).
  assert (E : exp (K * (t + h)) = exp (K * h) * exp (K * t)) by (rewrite <- exp_plus; f_equal; ring).
  rewrite E. pose proof (exp_pos (K * t)) as Et. pose proof (exp_pos (K * h)) as Eh.
  assert (G : 0 <= K * t) by (apply Rmult_le_pos; auto).
  assert (Hge : 1 <= exp (K * t)) by (pose proof (exp_ineq1_le (K * t)); lra).
  assert (X0 : 0 <= C * H * t * exp (K * t)) by (apply Rmult_le_pos; [apply Rmult_le_pos; lra|lra]).
  assert (X1 : (1 + h * K) * N <= exp (K * h) * (C * H * t * exp (K * t))).
  { apply Rle_trans with ((1 + h * K) * (C * H * t * exp (K * t))); [apply Rmult_le_compat_l; lra|].
    apply Rmult_le_compat_r; lra. }
  assert (X2 : h * (C * H) <= h * (C * H) * (exp (K * h) * exp (K * t))).
  { rewrite <- (Rmult_1_r (h * (C * H))) at 1. apply Rmult_le_compat_l; [apply Rmult_le_pos; lra|].
    assert (1 <= exp (K * h)) by lra. nra. }
  replace (C * H * (t + h) * (exp (K * h) * exp (K * t)))
    with (exp (K * h) * (C * H * t * exp (K * t)) + h * (C * H) * (exp (K * h) * exp (K * t))) by ring. lra.
Qed.

(** Three functions with values in vectors. *)
Definition lip3 (T : R) (f : R -> v3) : Prop :=
  lipb 0 T (fun t => v3x (f t)) /\ lipb 0 T (fun t => v3y (f t)) /\ lipb 0 T (fun t => v3z (f t)).

Section Ode.
Variables (T : R) (goal : quat) (tau : R) (al be : v3) (smooth : bool) (zz : R -> R) (F : R -> v3).
Hypothesis HT : 0 < T.
Hypothesis Htau : 0 < tau.
Hypothesis Hgoal : unit_quat goal.
Hypothesis Hz : lipb 0 T zz.
Hypothesis HF : lip3 T F.

(** Angular acceleration for the rotation vector [f] to the goal, the angular velocity [v]
    and the rotation vector [f0] from the start to the goal. *)
Definition turn_acc (t : R) (f v f0 : v3) : v3 :=
  v3_divs (v3_add (v3_mul al (v3_sub (v3_sub (v3_mul be f) (v3_scale tau v))
    (if smooth then v3_mul (v3_scale (zz t) be) f0 else v3_zero))) (F t)) (tau ^ 2).

Variables (q : R -> quat) (w e : R -> v3) (c : R).
Hypothesis Hq : forall t, 0 <= t <= T ->
  unit_quat (q t) /\ is_derive_quat q t (quat_rate (w t) (q t)) /\ is_derive_v3 w t (turn_acc t (e t) (w t) (e 0)).
Hypothesis Hc : 0 < c.
Hypothesis He : forall t, 0 <= t <= T ->
  v3_norm (e t) <= PI /\ c <= cos (v3_norm (e t) / 2)
  /\ same_orientation (cy_exp (e t)) (hamilton goal (cy_conj (q t))).

Lemma turn_diff_goal f p t : 0 <= t <= T -> unit_quat p -> v3_norm f <= PI ->
  same_orientation (cy_exp f) (hamilton goal (cy_conj p)) -> v3_norm (v3_sub f (e t)) <= log_lip c * err p (q t).
Proof.
  intros Ht Hp Nf Sf. destruct (He t Ht) as (E1 & E2 & E3).
  eapply Rle_trans; [apply (exp_inverse_lip c f (e t) Hc); auto|]. apply Req_le. f_equal.
  rewrite (rot_angle_signs (hamilton goal (cy_conj p)) (cy_conj (hamilton goal (cy_conj (q t))))).
  - rewrite conj_hamilton, conj_conj.
    replace (hamilton (hamilton goal (cy_conj p)) (hamilton (q t) (cy_conj goal)))
      with (hamilton (hamilton goal (hamilton (cy_conj p) (q t))) (cy_conj goal))
      by (apply quat_eq; cbn; ring).
    rewrite rot_angle_conjugate by auto. apply rot_angle_dot.
  - destruct Sf as [-> | ->]; auto.
  - destruct E3 as [-> | ->]; rewrite ?conj_neg; auto.
Qed.

Lemma log_error_goal i g p t : 0 <= t <= T -> unit_quat p -> same_orientation g goal ->
  v3_norm (v3_sub (q_error i g p) (e t)) <= log_lip c * err p (q t) + 4 * kappa.
Proof.
  intros Ht Hp Hg.
  assert (Ug' : unit_quat g) by (destruct Hg as [-> | ->]; auto using unit_neg).
  unfold q_error. rewrite i_conj_unit, i_mul_unit by auto using cy_conj_unit.
  set (d := hamilton g (cy_conj p)). assert (Ud : unit_quat d) by (apply hamilton_unit; auto using cy_conj_unit).
  destruct (shortest_vector i d Ud) as (f & Hf & Nf & Hl). pose proof (rot_angle_bound d Ud) as HB.
  assert (Sf : same_orientation (cy_exp f) (hamilton goal (cy_conj p))).
  { unfold d in Hf. destruct Hg as [-> | ->]; [exact Hf|]. rewrite hamilton_neg_l, q_neg_neg in Hf.
    destruct Hf as [Hf|Hf]; [right|left]; exact Hf. }
  pose proof (turn_diff_goal f p t Ht Hp ltac:(lra) Sf) as B. pose proof (threshold_le i) as Th.
  pose proof (threshold_pos i). pose proof PI_RGT_0.
  eapply Rle_trans; [apply (v3_sub_triangle _ f)|].
  assert (v3_norm (v3_sub (i_log i d) f) <= PI * log_threshold i); [|lra].
  destruct Hl as [-> |[-> Hl]].
  - rewrite v3_sub_same. apply Rmult_le_pos; lra.
  - rewrite v3_sub_sym, v3_sub_0. exact Hl.
Qed.

(** The solution is as smooth as needed. *)
Lemma w_bound : exists B, 0 <= B /\ forall t, 0 <= t <= T -> n1 (w t) <= B.
Proof.
  assert (G : forall k : v3 -> R, (forall t, 0 <= t <= T -> exists d, is_derive (fun s => k (w s)) t d) ->
    exists B, 0 <= B /\ forall t, 0 <= t <= T -> Rabs (k (w t)) <= B).
  { intros k Hk.
    assert (Hcont : forall t, 0 <= t <= T -> continuity_pt (fun s => k (w s)) t).
    { intros t Ht. destruct (Hk t Ht) as [d Hd]. apply derivable_continuous_pt. exists d. now apply is_derive_Reals. }
    destruct (continuity_ab_maj (fun s => k (w s)) 0 T ltac:(lra) Hcont) as (Ma & HMa & _).
    destruct (continuity_ab_min (fun s => k (w s)) 0 T ltac:(lra) Hcont) as (Mi & HMi & _).
    exists (Rabs (k (w Ma)) + Rabs (k (w Mi))). pose proof (Rabs_pos (k (w Ma))). pose proof (Rabs_pos (k (w Mi))).
    split; [lra|]. intros t Ht. specialize (HMa t Ht). specialize (HMi t Ht). apply Rabs_le.
    pose proof (Rle_abs (k (w Ma))). pose proof (Rle_abs (- k (w Mi))). rewrite Rabs_Ropp in *. lra. }
  destruct (G v3x) as (B1 & P1 & H1); [intros t Ht; eexists; apply (Hq t Ht)|].
  destruct (G v3y) as (B2 & P2 & H2); [intros t Ht; eexists; apply (Hq t Ht)|].
  destruct (G v3z) as (B3 & P3 & H3); [intros t Ht; eexists; apply (Hq t Ht)|].
  exists (B1 + B2 + B3). split; [lra|]. intros t Ht. unfold n1.
  specialize (H1 t Ht). specialize (H2 t Ht). specialize (H3 t Ht). lra.
Qed.

Lemma q_lip : exists B, 0 <= B /\ forall s t, 0 <= s <= T -> 0 <= t <= T -> nq (q_sub (q s) (q t)) <= B * Rabs (s - t).
Proof.
  destruct w_bound as (B & PB & HB).
  assert (Rb : forall t, 0 <= t <= T -> nq (quat_rate (w t) (q t)) <= 2 * B).
  { intros t Ht. rewrite rate_hamilton, nq_scale, Rabs_pos_eq by lra.
    pose proof (nq_mul (pure (w t)) (q t)) as X. pose proof (unit_nq (q t) (proj1 (Hq t Ht))) as N4.
    assert (E1 : nq (pure (w t)) = n1 (w t)) by (unfold nq, n1; cbn; rewrite Rabs_R0; ring). rewrite E1 in X.
    specialize (HB t Ht). pose proof (n1_pos (w t)). pose proof (nq_pos (q t)).
    assert (n1 (w t) * nq (q t) <= B * 4) by (apply Rmult_le_compat; lra). lra. }
  assert (G : forall k : quat -> R, (forall t, 0 <= t <= T -> is_derive (fun s => k (q s)) t (k (quat_rate (w t) (q t)))) ->
     (forall x, Rabs (k x) <= nq x) ->
     forall s t, 0 <= s <= T -> 0 <= t <= T -> Rabs (k (q s) - k (q t)) <= 2 * B * Rabs (s - t)).
  { intros k Dk Nk s t Hs Ht.
    apply (derive_lip T (fun s => k (q s)) (fun t => k (quat_rate (w t) (q t)))); auto.
    intros x Hx. eapply Rle_trans; [apply Nk|]. now apply Rb. }
  assert (A : forall x, Rabs (qw x) <= nq x /\ Rabs (qx x) <= nq x /\ Rabs (qy x) <= nq x /\ Rabs (qz x) <= nq x).
  { intros x. unfold nq. pose proof (Rabs_pos (qw x)). pose proof (Rabs_pos (qx x)). pose proof (Rabs_pos (qy x)).
    pose proof (Rabs_pos (qz x)). lra. }
  exists (8 * B). split; [lra|]. intros s t Hs Ht.
  pose proof (G qw (fun t Ht => proj1 (proj1 (proj2 (Hq t Ht)))) (fun x => proj1 (A x)) s t Hs Ht).
  pose proof (G qx (fun t Ht => proj1 (proj2 (proj1 (proj2 (Hq t Ht))))) (fun x => proj1 (proj2 (A x))) s t Hs Ht).
  pose proof (G qy (fun t Ht => proj1 (proj2 (proj2 (proj1 (proj2 (Hq t Ht)))))) (fun x => proj1 (proj2 (proj2 (A x)))) s t Hs Ht).
  pose proof (G qz (fun t Ht => proj2 (proj2 (proj2 (proj1 (proj2 (Hq t Ht)))))) (fun x => proj2 (proj2 (proj2 (A x)))) s t Hs Ht).
  unfold nq. cbn [q_sub qw qx qy qz]. lra.
Qed.

Lemma e_lip : exists B, 0 <= B /\ forall s t, 0 <= s <= T -> 0 <= t <= T -> v3_norm (v3_sub (e s) (e t)) <= B * Rabs (s - t).
Proof.
  destruct q_lip as (B & PB & HB). pose proof (log_lip_pos c Hc) as G. pose proof PI_RGT_0.
  exists (log_lip c * (4 * PI * B)). split; [pos_mul|]. intros s t Hs Ht.
  destruct (He s Hs) as (E1 & E2 & E3).
  eapply Rle_trans; [apply (turn_diff_goal (e s) (q s) t); auto; apply (Hq s Hs)|].
  rewrite Rmult_assoc. apply Rmult_le_compat_l; [lra|].
  eapply Rle_trans; [apply err_chord; [apply (Hq s Hs)|apply (Hq t Ht)]|].
  rewrite (Rmult_assoc (4 * PI)). apply Rmult_le_compat_l; [lra|]. now apply HB.
Qed.

Lemma lip3_of f B : 0 <= B -> (forall s t, 0 <= s <= T -> 0 <= t <= T -> v3_norm (v3_sub (f s) (f t)) <= B * Rabs (s - t)) ->
  lip3 T f.
Proof.
  intros PB HB. assert (G : forall k : v3 -> R, (forall u v, Rabs (k u - k v) <= v3_norm (v3_sub u v)) ->
    lipb 0 T (fun t => k (f t))).
  { intros k Hk. exists (Rabs (k (f 0)) + B * T + B).
    assert (0 <= B * T) by (apply Rmult_le_pos; lra). pose proof (Rabs_pos (k (f 0))) as P0. split; [lra|]. split.
    - intros t Ht. pose proof (Hk (f t) (f 0)) as H1. pose proof (HB t 0 Ht ltac:(lra)) as H2.
      rewrite Rminus_0_r, (Rabs_pos_eq t) in H2 by lra.
      pose proof (Rabs_triang (k (f t) - k (f 0)) (k (f 0))) as H3.
      replace (k (f t) - k (f 0) + k (f 0)) with (k (f t)) in H3 by ring.
      assert (B * t <= B * T) by (apply Rmult_le_compat_l; lra). lra.
    - intros s t Hs Ht. pose proof (Hk (f s) (f t)) as H1. pose proof (HB s t Hs Ht) as H2.
      pose proof (Rabs_pos (s - t)) as H3. nra. }
  repeat split; apply G; intros u v; destruct (entries_le (v3_sub u v)) as (E1 & E2 & E3); assumption.
Qed.

Lemma acc_lip3 : lip3 T (fun t => turn_acc t (e t) (w t) (e 0)).
Proof.
  destruct e_lip as (Be & PBe & HBe). destruct (lip3_of e Be PBe HBe) as (E1 & E2 & E3).
  destruct HF as (F1 & F2 & F3).
  assert (W : lip3 T w).
  { destruct w_bound as (B & PB & HB).
    assert (BW : forall t, 0 <= t <= T -> Rabs (v3x (w t)) <= B /\ Rabs (v3y (w t)) <= B /\ Rabs (v3z (w t)) <= B).
    { intros t Ht. specialize (HB t Ht). unfold n1 in HB. pose proof (Rabs_pos (v3x (w t))).
      pose proof (Rabs_pos (v3y (w t))). pose proof (Rabs_pos (v3z (w t))). lra. }
    assert (D : forall (k : v3 -> R), (forall u x, k (v3_divs u x) = k u / x) -> (forall u v, k (v3_add u v) = k u + k v) ->
       (forall u v, k (v3_sub u v) = k u - k v) -> (forall u v, k (v3_mul u v) = k u * k v) ->
       (forall x u, k (v3_scale x u) = x * k u) -> k v3_zero = 0 ->
       (exists b, forall t, 0 <= t <= T -> Rabs (k (e t)) <= b) -> (exists b, forall t, 0 <= t <= T -> Rabs (k (F t)) <= b) ->
       (forall t, 0 <= t <= T -> Rabs (k (w t)) <= B) ->
       exists b, forall t, 0 <= t <= T -> Rabs (k (turn_acc t (e t) (w t) (e 0))) <= b).
    { intros k K1 K2 K3 K4 K5 K6 (b1 & B1) (b2 & B2) BK. destruct Hz as (bz & Pz & Bz & _).
      exists ((Rabs (k al) * (Rabs (k be) * b1 + tau * B + bz * Rabs (k be) * Rabs (k (e 0))) + b2) * / tau ^ 2).
      intros t Ht. unfold turn_acc. rewrite K1, K2, K4, !K3, K4, K5. unfold Rdiv.
      assert (0 < tau ^ 2) by (apply pow_lt; auto).
      rewrite Rabs_mult, (Rabs_pos_eq (/ tau ^ 2)) by (apply Rlt_le, Rinv_0_lt_compat; auto).
      apply Rmult_le_compat_r; [apply Rlt_le, Rinv_0_lt_compat; auto|].
      eapply Rle_trans; [apply Rabs_triang|]. apply Rplus_le_compat; [|auto].
      rewrite Rabs_mult. apply Rmult_le_compat_l; [apply Rabs_pos|].
      unfold Rminus. eapply Rle_trans; [apply Rabs_triang|]. rewrite Rabs_Ropp.
      apply Rplus_le_compat; [eapply Rle_trans; [apply Rabs_triang|]; rewrite Rabs_Ropp; apply Rplus_le_compat|].
      - rewrite Rabs_mult. apply Rmult_le_compat_l; [apply Rabs_pos|auto].
      - rewrite Rabs_mult, (Rabs_pos_eq tau) by lra. apply Rmult_le_compat_l; [lra|auto].
      - destruct smooth.
        + rewrite K4, K5, !Rabs_mult. apply Rmult_le_compat_r; [apply Rabs_pos|]. apply Rmult_le_compat_r; [apply Rabs_pos|auto].
        + rewrite K6, Rabs_R0. apply Rmult_le_pos; [|apply Rabs_pos]. apply Rmult_le_pos; [lra|apply Rabs_pos]. }
    pose proof (D v3x ltac:(reflexivity) ltac:(reflexivity) ltac:(reflexivity) ltac:(reflexivity) ltac:(reflexivity)
      ltac:(reflexivity) (lipb_bound _ _ E1) (lipb_bound _ _ F1) (fun t Ht => proj1 (BW t Ht))) as D1.
    pose proof (D v3y ltac:(reflexivity) ltac:(reflexivity) ltac:(reflexivity) ltac:(reflexivity) ltac:(reflexivity)
      ltac:(reflexivity) (lipb_bound _ _ E2) (lipb_bound _ _ F2) (fun t Ht => proj1 (proj2 (BW t Ht)))) as D2.
    pose proof (D v3z ltac:(reflexivity) ltac:(reflexivity) ltac:(reflexivity) ltac:(reflexivity) ltac:(reflexivity)
      ltac:(reflexivity) (lipb_bound _ _ E3) (lipb_bound _ _ F3) (fun t Ht => proj2 (proj2 (BW t Ht)))) as D3.
    repeat split.
    - apply (derivable_lipb T _ (fun t => v3x (turn_acc t (e t) (w t) (e 0)))); auto. intros t Ht. apply (Hq t Ht).
    - apply (derivable_lipb T _ (fun t => v3y (turn_acc t (e t) (w t) (e 0)))); auto. intros t Ht. apply (Hq t Ht).
    - apply (derivable_lipb T _ (fun t => v3z (turn_acc t (e t) (w t) (e 0)))); auto. intros t Ht. apply (Hq t Ht). }
  destruct W as (W1 & W2 & W3).
  assert (L : forall (x y : R) (u v f g : R -> R), lipb 0 T u -> lipb 0 T v -> lipb 0 T f -> lipb 0 T g ->
     lipb 0 T (fun t => (x * (y * u t - tau * v t - g t) + f t) / tau ^ 2)).
  { intros x y u v f g Hu Hv Hf Hg.
    apply (lipb_ext _ _ (fun t => / tau ^ 2 * (x * (y * u t - tau * v t - g t) + f t))); [intros; unfold Rdiv; ring|].
    apply lipb_scal, lipb_plus; auto. apply lipb_scal. apply (lipb_minus 0 T (fun t => y * u t - tau * v t)); auto.
    apply lipb_minus; now apply lipb_scal. }
  assert (G : forall (x y : R), lipb 0 T (fun t => if smooth then zz t * x * y else 0)).
  { intros x y. destruct smooth; [|apply (lipb_const 0 T 0)].
    apply (lipb_ext _ _ (fun t => (x * y) * zz t)); [intros; ring|]. now apply lipb_scal. }
  unfold turn_acc. repeat split.
  - eapply lipb_ext; [|apply (L (v3x al) (v3x be) _ _ _ _ E1 W1 F1 (G (v3x be) (v3x (e 0))))].
    intros t. destruct smooth; cbn; unfold Rdiv; ring.
  - eapply lipb_ext; [|apply (L (v3y al) (v3y be) _ _ _ _ E2 W2 F2 (G (v3y be) (v3y (e 0))))].
    intros t. destruct smooth; cbn; unfold Rdiv; ring.
  - eapply lipb_ext; [|apply (L (v3z al) (v3z be) _ _ _ _ E3 W3 F3 (G (v3z be) (v3z (e 0))))].
    intros t. destruct smooth; cbn; unfold Rdiv; ring.
Qed.

Lemma lip3_norm f : lip3 T f -> exists L, 0 <= L /\
  forall s t, 0 <= s <= T -> 0 <= t <= T -> v3_norm (v3_sub (f s) (f t)) <= L * Rabs (s - t).
Proof.
  intros ((L1 & P1 & _ & H1) & (L2 & P2 & _ & H2) & (L3 & P3 & _ & H3)). exists (L1 + L2 + L3). split; [lra|].
  intros s t Hs Ht. eapply Rle_trans; [apply norm_n1|]. unfold n1. cbn [v3_sub v3x v3y v3z].
  specialize (H1 s t Hs Ht). specialize (H2 s t Hs Ht). specialize (H3 s t Hs Ht). lra.
Qed.

(** Distance between a state and the solution. *)
Definition gap (t : R) (p : quat) (v : v3) : R := err p (q t) + n1 (v3_sub v (w t)).

Lemma turn_step : exists C K, 0 <= C /\ 0 <= K /\ forall i kap t h P V f f0,
  0 <= kap -> 0 <= t -> 0 < h -> t + h <= T -> unit_quat P ->
  v3_norm (v3_sub f (e t)) <= log_lip c * err P (q t) + kap -> v3_norm (v3_sub f0 (e 0)) <= kap ->
  let V' := v3_add V (v3_scale h (turn_acc (t + h) f V f0)) in
  gap (t + h) (i_mul i (i_exp i (v3_scale h V')) P) V' <= (1 + h * K) * gap t P V + h * (C * (h + kap)).
Proof.
  set (a := fun t => turn_acc t (e t) (w t) (e 0)).
  destruct (lip3_norm a acc_lip3) as (L & HL & La).
  destruct (motion_taylor T L q w a HT HL Hq La) as (M & HM & Ty). pose proof PI_RGT_0 as HP.
  destruct e_lip as (Ce & PCe & HCe). pose proof (log_lip_pos c Hc) as HLl. set (G := log_lip c) in *.
  destruct Hz as (bz & Pz & Bz & _).
  pose proof (n1_pos (v3_mul al be)) as PA. pose proof (n1_pos al) as PB.
  set (A := n1 (v3_mul al be)) in *. set (B := n1 al) in *.
  set (j2 := / tau ^ 2). assert (Pt2 : 0 < tau ^ 2) by (apply pow_lt; auto).
  assert (Pj : 0 < j2) by (apply Rinv_0_lt_compat; auto).
  assert (M2 : 0 <= M ^ 2) by apply pow2_ge_0.
  set (Cq := 4 * PI * (4 * M ^ 2 + M ^ 2 + M)). assert (PCq : 0 <= Cq) by (unfold Cq; apply Rmult_le_pos; lra).
  set (K1 := j2 * (A * (3 * G))). set (K2 := j2 * (tau * B)).
  set (K3 := M + j2 * (A * (3 * Ce) + tau * B * M)). set (K4 := j2 * (A * (3 + 3 * bz))).
  assert (PK1 : 0 <= K1) by (unfold K1; pos_mul). assert (PK2 : 0 <= K2) by (unfold K2; pos_mul).
  assert (PK3 : 0 <= K3).
  { unfold K3. apply Rplus_le_le_0_compat; auto. apply Rmult_le_pos; [lra|]. apply Rplus_le_le_0_compat; pos_mul. }
  assert (PK4 : 0 <= K4) by (unfold K4; pos_mul).
  exists ((1 + T) * (K3 + K4) + Cq), (1 + (1 + T) * (K1 + K2)).
  assert (X0 : 0 <= (1 + T) * (K3 + K4)) by (apply Rmult_le_pos; lra).
  assert (X00 : 0 <= (1 + T) * (K1 + K2)) by (apply Rmult_le_pos; lra).
  split; [lra|]. split; [lra|].
  intros i kap t h P V f f0 Pkap Ht Hh Hth UP Hf Hf0 V'.
  assert (R0 : 0 <= t <= T) by lra. assert (R1 : 0 <= t + h <= T) by lra.
  destruct (Hq t R0) as (U & _). destruct (Hq (t + h) R1) as (U' & _).
  destruct (Ty t (t + h) R0 R1) as (T1 & T2 & _ & _ & _ & T3 & _ & T5 & T6).
  replace (t - (t + h)) with (- h) in * by ring. rewrite Rabs_Ropp, Rabs_pos_eq in T1, T5 by lra.
  replace ((- h) ^ 2) with (h ^ 2) in T2, T6 by ring.
  set (D := n1 (v3_sub V (w t))). set (D' := n1 (v3_sub V' (w (t + h)))). set (E := err P (q t)).
  assert (PD : 0 <= D) by apply n1_pos. assert (PE : 0 <= E) by (apply err_bound; auto).
  assert (Bz' : Rabs (zz (t + h)) <= bz) by (apply Bz; auto).
  assert (SV : D' <= D + h * (K1 * E + K2 * D + K3 * h + K4 * kap)).
  { set (x1 := v3_sub f (e (t + h))). set (x2 := v3_sub V (w (t + h))).
    set (x3 := if smooth then v3_scale (zz (t + h)) (v3_sub f0 (e 0)) else v3_zero).
    set (x4 := v3_sub (v3_sub (w t) (w (t + h))) (v3_scale (- h) (a (t + h)))).
    assert (EQ : v3_sub V' (w (t + h)) = v3_add (v3_sub V (w t))
       (v3_add x4 (v3_scale (h * j2) (v3_add (v3_mul (v3_mul al be) x1)
          (v3_add (v3_scale (- tau) (v3_mul al x2)) (v3_mul (v3_mul al be) (v3_scale (-1) x3))))))).
    { unfold V', x1, x2, x3, x4, a, turn_acc, j2. destruct smooth; apply v3_eq; cbn; field; lra. }
    assert (N1 : n1 x1 <= 3 * (G * E + kap + Ce * h)).
    { unfold x1. eapply Rle_trans; [apply n1_norm|]. apply Rmult_le_compat_l; [lra|].
      eapply Rle_trans; [apply (v3_sub_triangle _ (e t))|].
      pose proof (HCe t (t + h) R0 R1) as X. replace (t - (t + h)) with (- h) in X by ring.
      rewrite Rabs_Ropp, Rabs_pos_eq in X by lra. unfold E. lra. }
    assert (N2 : n1 x2 <= D + M * h).
    { replace x2 with (v3_add (v3_sub V (w t)) (v3_sub (w t) (w (t + h)))) by (unfold x2; apply v3_eq; cbn; ring).
      eapply Rle_trans; [apply n1_add|]. unfold D. lra. }
    assert (N3 : n1 x3 <= 3 * bz * kap).
    { assert (0 <= 3 * bz * kap) by (apply Rmult_le_pos; lra).
      unfold x3. destruct smooth; [|unfold n1; cbn; rewrite Rabs_R0; lra]. rewrite n1_scale.
      pose proof (n1_norm (v3_sub f0 (e 0))) as Y. pose proof (n1_pos (v3_sub f0 (e 0))).
      apply Rle_trans with (bz * (3 * kap)); [|lra]. apply Rmult_le_compat; try lra. apply Rabs_pos. }
    unfold D'. rewrite EQ. eapply Rle_trans; [apply n1_add|]. fold D.
    eapply Rle_trans; [apply Rplus_le_compat_l, n1_add|]. change (n1 x4 <= M * h ^ 2) in T6. rewrite n1_scale.
    rewrite Rabs_pos_eq by (apply Rmult_le_pos; lra).
    set (X := n1 (v3_add _ _)).
    assert (HX : X <= A * (3 * (G * E + kap + Ce * h)) + tau * B * (D + M * h) + A * (3 * bz * kap)).
    { unfold X. eapply Rle_trans; [apply n1_add|]. eapply Rle_trans; [apply Rplus_le_compat_l, n1_add|].
      assert (Y1 : n1 (v3_mul (v3_mul al be) x1) <= A * (3 * (G * E + kap + Ce * h))).
      { eapply Rle_trans; [apply n1_mul|]. fold A. apply Rmult_le_compat_l; auto. }
      assert (Y2 : n1 (v3_scale (- tau) (v3_mul al x2)) <= tau * B * (D + M * h)).
      { rewrite n1_scale, Rabs_Ropp, Rabs_pos_eq, Rmult_assoc by lra. apply Rmult_le_compat_l; [lra|].
        eapply Rle_trans; [apply n1_mul|]. fold B. apply Rmult_le_compat_l; auto. }
      assert (Y3 : n1 (v3_mul (v3_mul al be) (v3_scale (-1) x3)) <= A * (3 * bz * kap)).
      { eapply Rle_trans; [apply n1_mul|]. fold A. apply Rmult_le_compat_l; auto.
        rewrite n1_scale, (Rabs_left (-1)) by lra. lra. }
      lra. }
    assert (HX2 : h * j2 * X <= h * j2 * (A * (3 * (G * E + kap + Ce * h)) + tau * B * (D + M * h) + A * (3 * bz * kap)))
      by (apply Rmult_le_compat_l; auto; apply Rmult_le_pos; lra).
    unfold K1, K2, K3, K4. lra. }
  assert (SP : err (i_mul i (i_exp i (v3_scale h V')) P) (q (t + h)) <= E + h * D' + Cq * h ^ 2).
  { set (u := w (t + h)) in *. set (mid := hamilton (cy_exp (v3_scale h u)) (q t)) in *.
    assert (UM : unit_quat mid) by (apply hamilton_unit; auto; apply cy_exp_unit).
    assert (UN : unit_quat (i_mul i (i_exp i (v3_scale h V')) P)).
    { rewrite i_mul_unit by auto using i_exp_unit. apply hamilton_unit; auto using i_exp_unit. }
    eapply Rle_trans; [apply (err_triangle _ mid); auto|]. rewrite (err_sym _ mid).
    pose proof (err_turns i (q t) P (v3_scale h u) (v3_scale h V') U UP) as X.
    fold mid in X. rewrite (err_sym (q t)) in X. fold E in X.
    assert (Y : v3_norm (v3_sub (v3_scale h u) (v3_scale h V')) <= h * D').
    { rewrite v3_sub_sym.
      replace (v3_sub (v3_scale h V') (v3_scale h u)) with (v3_scale h (v3_sub V' u)) by (apply v3_eq; cbn; ring).
      rewrite v3_norm_scale, Rabs_pos_eq by lra. apply Rmult_le_compat_l; [lra|]. apply norm_n1. }
    assert (Hm : err mid (q (t + h)) <= Cq * h ^ 2); [|lra].
    eapply Rle_trans; [apply err_chord; auto|].
    set (p := q t) in *. set (p' := q (t + h)) in *.
    assert (Bd : nq (q_sub mid p') <= (4 * M ^ 2 + M ^ 2 + M) * h ^ 2).
    { set (r := q_sub (cy_exp (v3_scale h u)) (q_add q_one (q_scale (1/2) (pure (v3_scale h u))))).
      replace (q_sub mid p') with (q_add (q_add (hamilton r p) (q_scale (h / 2) (hamilton (pure u) (q_sub p p'))))
        (q_sub (q_sub p p') (q_scale (- h) (quat_rate u p')))).
      2:{ unfold mid, r. rewrite rate_hamilton. generalize (cy_exp (v3_scale h u)). intros E0. clear.
          apply quat_eq; cbn; field. }
      eapply Rle_trans; [apply nq_add|]. eapply Rle_trans; [apply Rplus_le_compat_r; apply nq_add|].
      destruct (Ty (t + h) (t + h) R1 R1) as (_ & _ & _ & _ & _ & T3' & _). fold u in T3'.
      assert (B1 : nq (hamilton r p) <= 4 * M ^ 2 * h ^ 2).
      { eapply Rle_trans; [apply nq_mul|]. pose proof (unit_nq p U) as N4. pose proof (exp_expand (v3_scale h u)) as XX.
        fold r in XX. pose proof (nq_pos r). pose proof (nq_pos p).
        assert (v3_norm (v3_scale h u) ^ 2 <= M ^ 2 * h ^ 2).
        { rewrite v3_norm_scale, Rpow_mult_distr, pow2_abs. rewrite Rmult_comm. apply Rmult_le_compat_r; [apply pow2_ge_0|].
          apply pow_incr. split; [apply v3_norm_pos|]. eapply Rle_trans; [apply norm_n1|auto]. }
        replace (4 * M ^ 2 * h ^ 2) with ((M ^ 2 * h ^ 2) * 4) by ring. apply Rmult_le_compat; lra. }
      assert (B2 : nq (q_scale (h / 2) (hamilton (pure u) (q_sub p p'))) <= M ^ 2 * h ^ 2).
      { rewrite nq_scale, Rabs_pos_eq by lra. pose proof (nq_mul (pure u) (q_sub p p')) as XX.
        assert (E1 : nq (pure u) = n1 u) by (unfold nq, n1; cbn; rewrite Rabs_R0; ring). rewrite E1 in XX.
        pose proof (n1_pos u). pose proof (nq_pos (q_sub p p')).
        assert (n1 u * nq (q_sub p p') <= M * (M * h)) by (apply Rmult_le_compat; lra).
        assert (0 <= M * (M * h)) by (pos_mul).
        assert (h / 2 * nq (hamilton (pure u) (q_sub p p')) <= h / 2 * (M * (M * h))) by (apply Rmult_le_compat_l; lra).
        assert (0 <= h * (M * (M * h))) by (apply Rmult_le_pos; lra).
        replace (M ^ 2 * h ^ 2) with (h * (M * (M * h))) by ring. lra. }
      change (qd q w (t + h)) with (quat_rate u p') in T2. lra. }
    unfold Cq. rewrite (Rmult_assoc (4 * PI)). apply Rmult_le_compat_l; [lra|exact Bd]. }
  unfold gap. fold E D. fold D'.
  set (Xj := K1 * E + K2 * D + K3 * h + K4 * kap) in *.
  assert (PX : 0 <= Xj) by (unfold Xj; repeat apply Rplus_le_le_0_compat; apply Rmult_le_pos; lra).
  assert (Y1 : (1 + h) * D' <= (1 + h) * (D + h * Xj)) by (apply Rmult_le_compat_l; lra).
  assert (Y2 : (1 + h) * (h * Xj) <= (1 + T) * (h * Xj)).
  { apply Rmult_le_compat_r; [apply Rmult_le_pos; lra|lra]. }
  assert (Y3 : Xj <= (K1 + K2) * (E + D) + (K3 + K4) * (h + kap)).
  { unfold Xj. assert (0 <= K1 * D) by (apply Rmult_le_pos; lra). assert (0 <= K2 * E) by (apply Rmult_le_pos; lra).
    assert (0 <= K3 * kap) by (apply Rmult_le_pos; lra). assert (0 <= K4 * h) by (apply Rmult_le_pos; lra). lra. }
  assert (Y4 : (1 + T) * (h * Xj) <= (1 + T) * (h * ((K1 + K2) * (E + D) + (K3 + K4) * (h + kap)))).
  { apply Rmult_le_compat_l; [lra|]. apply Rmult_le_compat_l; lra. }
  assert (0 <= h * E) by (apply Rmult_le_pos; lra).
  assert (0 <= h * (Cq * kap)) by (apply Rmult_le_pos; [lra|apply Rmult_le_pos; lra]). lra.
Qed.
End Ode.
