(** Convergence of the DMP integrators (C13). *)
From Coq Require Import Reals ZArith List Lia Lra Psatz FunctionalExtensionality.
From Coquelicot Require Import Coquelicot.
From Verif Require Import M_Prelude M_Canonical M_Forcing M_Dmp S_Dmp
  S_Loops P_Loops P_Canonical P_Forcing P_DmpStep P_DmpScale P_DmpLinear.
Import ListNotations.
Open Scope R_scope.

(** ** A contraction with vanishing disturbance *)
Lemma pow_vanishes r : 0 <= r < 1 -> forall C eps, 0 < eps ->
  exists N, forall j, (N <= j)%nat -> r ^ j * C < eps.
Proof.
  intros Hr C eps He.
  destruct (Rle_lt_dec C 0) as [HC|HC].
  - exists 0%nat. intros j _. assert (0 <= r ^ j) by (apply pow_le; lra). nra.
  - destruct (pow_lt_1_zero r) with (y := eps / C) as [N HN].
    + rewrite Rabs_pos_eq; lra.
    + apply Rmult_lt_0_compat; [lra|apply Rinv_0_lt_compat; lra].
    + exists N. intros j Hj. specialize (HN j Hj).
      rewrite Rabs_pos_eq in HN by (apply pow_le; lra).
      apply Rmult_lt_compat_r with (r := C) in HN; [|lra].
      unfold Rdiv in HN. rewrite Rmult_assoc, Rinv_l, Rmult_1_r in HN by lra. exact HN.
Qed.

Lemma contraction_vanishes (n b : nat -> R) (r : R) :
  0 <= r < 1 -> (forall k, 0 <= n k) ->
  (forall k, n (S k) <= r * n k + b k) ->
  (forall eps, 0 < eps -> exists N, forall k, (N <= k)%nat -> b k < eps) ->
  forall eps, 0 < eps -> exists N, forall k, (N <= k)%nat -> n k < eps.
Proof.
  intros Hr Hn Hrec Hb eps He.
  destruct (Hb ((1 - r) * (eps / 2))) as [K HK]; [nra|].
  assert (Hj : forall j, n (K + j)%nat <= r ^ j * n K + eps / 2).
  { induction j as [|j IH].
    - rewrite Nat.add_0_r. simpl. lra.
    - replace (K + S j)%nat with (S (K + j)) by lia.
      specialize (Hrec (K + j)%nat). specialize (HK (K + j)%nat ltac:(lia)).
      simpl. nra. }
  destruct (pow_vanishes r Hr (n K) (eps / 2)) as [J HJ]; [lra|].
  exists (K + J)%nat. intros k Hk.
  replace k with (K + (k - K))%nat by lia.
  specialize (Hj (k - K)%nat). specialize (HJ (k - K)%nat ltac:(lia)). lra.
Qed.

(** The same for a signed sequence. *)
Definition vanishes (u : nat -> R) : Prop :=
  forall eps, 0 < eps -> exists N, forall k, (N <= k)%nat -> Rabs (u k) < eps.

Lemma abs_contraction_vanishes (n b : nat -> R) (r : R) :
  Rabs r < 1 ->
  (forall k, n (S k) = r * n k + b k) ->
  vanishes b -> vanishes n.
Proof.
  intros Hr Hrec Hb. unfold vanishes. apply (contraction_vanishes (fun k => Rabs (n k)) (fun k => Rabs (b k)) (Rabs r)).
  - split; [apply Rabs_pos|exact Hr].
  - intros. apply Rabs_pos.
  - intros k. rewrite Hrec. eapply Rle_trans; [apply Rabs_triang|]. rewrite Rabs_mult. lra.
  - exact Hb.
Qed.

Lemma vanishes_lim u : vanishes u <-> is_lim_seq u 0.
Proof.
  rewrite <- is_lim_seq_spec. split.
  - intros H eps. destruct (H eps (cond_pos eps)) as [N HN]. exists N. intros.
    rewrite Rminus_0_r. auto.
  - intros H eps He. destruct (H (mkposreal eps He)) as [N HN]. exists N. intros k Hk.
    specialize (HN k Hk). simpl in HN. now rewrite Rminus_0_r in HN.
Qed.

Lemma vanishes_plus u v : vanishes u -> vanishes v -> vanishes (fun k => u k + v k).
Proof.
  rewrite !vanishes_lim. intros. replace (Finite 0) with (Finite (0 + 0)) by (f_equal; ring).
  now apply is_lim_seq_plus'.
Qed.

Lemma vanishes_scal c u : vanishes u -> vanishes (fun k => c * u k).
Proof.
  rewrite !vanishes_lim. intros. replace (Finite 0) with (Rbar_mult c 0).
  - now apply is_lim_seq_scal_l.
  - simpl. f_equal. ring.
Qed.

Lemma vanishes_le u v : (forall k, Rabs (u k) <= v k) -> vanishes v -> vanishes u.
Proof.
  intros Hle Hv eps He. destruct (Hv eps He) as [N HN]. exists N. intros k Hk.
  specialize (HN k Hk). specialize (Hle k). pose proof (Rle_abs (v k)). lra.
Qed.

Lemma vanishes_ext u v : (forall k, u k = v k) -> vanishes u -> vanishes v.
Proof. intros E H eps He. destruct (H eps He) as [N HN]. exists N. intros. rewrite <- E. auto. Qed.

(** ** Infinite runs *)
(** State after [k] steps of length [dt] starting at time [t0]. *)
Fixpoint run_seq {S : Type} (step : R -> R -> S -> res S) (t0 dt : R)
    (x : S) (k : nat) : res S :=
  match k with
  | O => Ok x
  | Datatypes.S k' => bind (run_seq step t0 dt x k') (step (t0 + INR k' * dt) (t0 + INR (Datatypes.S k') * dt))
  end.

Lemma run_seq_shift {A : Type} (step : R -> R -> A -> res A) t0 dt x k :
  run_seq step t0 dt x (S k)
  = bind (step (t0 + INR 0 * dt) (t0 + INR 1 * dt) x)
      (fun x' => run_seq step (t0 + dt) dt x' k).
Proof.
  induction k as [|k IH].
  - simpl. destruct (step (t0 + 0 * dt) (t0 + 1 * dt) x); reflexivity.
  - change (run_seq step t0 dt x (S (S k))) with
      (bind (run_seq step t0 dt x (S k)) (step (t0 + INR (S k) * dt) (t0 + INR (S (S k)) * dt))).
    rewrite IH. destruct (step (t0 + INR 0 * dt) (t0 + INR 1 * dt) x); [|reflexivity].
    cbn [bind]. cbn [run_seq]. f_equal.
    apply functional_extensionality; intro s. f_equal.
    + rewrite S_INR. ring.
    + rewrite (S_INR (S k)). ring.
Qed.

Lemma run_steps_run_seq {A : Type} (step : R -> R -> A -> res A) dt : forall n t0 x l,
  run_steps step t0 (map (fun i => t0 + INR i * dt) (seq 1 n)) x = Ok l ->
  forall k, (k < n)%nat -> exists s, nth_error l k = Some s /\ run_seq step t0 dt x (S k) = Ok s.
Proof.
  induction n as [|n IH]; intros t0 x l H k Hk; [lia|].
  simpl seq in H. cbn [map run_steps] in H.
  destruct (step t0 (t0 + INR 1 * dt) x) as [x'|] eqn:E1; [|discriminate].
  cbn [bind] in H.
  rewrite <- seq_shift, map_map in H.
  replace (map (fun i => t0 + INR (S i) * dt) (seq 1 n))
    with (map (fun i => (t0 + INR 1 * dt) + INR i * dt) (seq 1 n)) in H
    by (apply map_ext; intros i; rewrite (S_INR i); simpl; ring).
  destruct (run_steps step (t0 + INR 1 * dt)
    (map (fun i => t0 + INR 1 * dt + INR i * dt) (seq 1 n)) x') as [l'|] eqn:E2; [|discriminate].
  cbn [bind] in H. inversion H; subst l. clear H.
  assert (E1' : step (t0 + INR 0 * dt) (t0 + INR 1 * dt) x = Ok x').
  { replace (t0 + INR 0 * dt) with t0 by (simpl; ring). exact E1. }
  destruct k as [|k].
  - exists x'. split; [reflexivity|]. rewrite run_seq_shift, E1'. reflexivity.
  - destruct (IH (t0 + INR 1 * dt) x' l' E2 k) as [s [Hs1 Hs2]]; [lia|].
    exists s. split; [exact Hs1|]. rewrite run_seq_shift, E1'. cbn [bind].
    replace (t0 + dt) with (t0 + INR 1 * dt) by (simpl; ring). exact Hs2.
Qed.

Lemma open_loop_run_seq step start_t run_t dt y v ts l :
  open_loop_run step start_t run_t dt y v = Ok (ts, l) ->
  length l = length ts
  /\ forall k, (k < length ts)%nat ->
     nth_error ts k = Some (start_t + INR k * dt)
     /\ exists s, nth_error l k = Some s /\ run_seq step start_t dt (y, v) k = Ok s.
Proof.
  unfold open_loop_run, arange.
  destruct (arange_len start_t (run_t + dt) dt) as [|n] eqn:En; [discriminate|].
  simpl seq. cbn [map].
  set (t0 := start_t + INR 0 * dt). assert (Et : t0 = start_t) by (unfold t0; simpl; ring).
  destruct (run_steps step t0 (map (fun i => start_t + INR i * dt) (seq 1 n)) (y, v))
    as [l'|] eqn:E; [|discriminate]. cbn [bind].
  intros H. inversion H; subst ts l. clear H. clearbody t0. subst t0.
  split.
  { apply run_steps_length in E. simpl. now rewrite E. }
  intros k Hk. simpl in Hk. rewrite map_length, seq_length in Hk.
  destruct k as [|k].
  - simpl. split; [f_equal; ring|]. eauto.
  - cbn [nth_error]. split.
    + rewrite nth_error_map, (nth_error_nth' _ 0%nat) by (rewrite seq_length; lia).
      rewrite seq_nth by lia. reflexivity.
    + destruct (run_steps_run_seq step dt n start_t (y, v) l' E k) as [s Hs]; [lia|]. eauto.
Qed.

(** ** Disturbance: forcing and smoothing term *)
Definition disturbance (a : dmp_args) (z : R) (d : nat) : R :=
  ft_forces (a_forcing_term a) z d
  - (if a_smooth_scaling a
     then a_alpha_y a d * a_beta_y a d * (a_goal_y a d - a_start_y a d) * z else 0).

Definition free (a : dmp_args) : Prop :=
  a_coupling_term a = None /\ a_precomputed a = None /\ a_tracking_error a = None.

Definition phase_ok (f : forcing_term) : Prop :=
  (0 < ft_n f)%nat /\ ft_start_t f < ft_goal_t f /\ 0 < ft_alpha_z f.

Lemma disturbance_bound a d : (0 < ft_n (a_forcing_term a))%nat ->
  exists B, 0 <= B /\ forall z, 0 <= z -> Rabs (disturbance a z d) <= B * z.
Proof.
  intros Hn. destruct (finite_bound (ft_n (a_forcing_term a)) (ft_weights (a_forcing_term a) d))
    as [M [HM0 HM]].
  set (S := a_alpha_y a d * a_beta_y a d * (a_goal_y a d - a_start_y a d)).
  exists (M + Rabs S). split; [pose proof (Rabs_pos S); lra|].
  intros z Hz. unfold disturbance. fold S.
  pose proof (ft_forces_bound (a_forcing_term a) z d M Hn HM) as HF.
  rewrite (Rabs_pos_eq z) in HF by auto.
  pose proof (Rabs_pos S).
  destruct (a_smooth_scaling a).
  - unfold Rminus. eapply Rle_trans; [apply Rabs_triang|]. rewrite Rabs_Ropp, Rabs_mult.
    rewrite (Rabs_pos_eq z) by auto. nra.
  - rewrite Rminus_0_r. nra.
Qed.

Lemma ft_phase_decreasing f t1 t2 : phase_ok f -> t1 <= t2 -> ft_phase f t2 <= ft_phase f t1.
Proof.
  intros (_ & Ht & Ha) Hle. destruct (Rle_lt_or_eq_dec _ _ Hle) as [Hlt|Heq]; [|rewrite Heq; lra].
  apply Rlt_le. now apply phase_decreasing.
Qed.

Lemma ft_phase_pos f t : 0 < ft_phase f t.
Proof. apply phase_pos. Qed.

Lemma phase_grid_vanishes f t0 dt : phase_ok f -> 0 < dt ->
  vanishes (fun k => ft_phase f (t0 + INR k * dt)).
Proof.
  intros (_ & Ht & Ha) Hdt.
  set (tau := ft_goal_t f - ft_start_t f).
  set (q := exp (- ft_alpha_z f * dt / tau)).
  assert (Htau : 0 < tau) by (unfold tau; lra).
  assert (E : forall k, ft_phase f (t0 + INR k * dt) = q ^ k * ft_phase f t0).
  { induction k as [|k IH].
    - simpl. rewrite Rmult_1_l. f_equal. ring.
    - rewrite S_INR. simpl. rewrite Rmult_assoc, <- IH. unfold ft_phase, phase, q. fold tau.
      rewrite <- exp_plus. f_equal. field. lra. }
  assert (Hq : 0 <= q < 1).
  { unfold q. split; [apply Rlt_le, exp_pos|]. rewrite <- exp_0. apply exp_increasing.
    assert (0 < ft_alpha_z f * dt / tau).
    { apply Rmult_lt_0_compat; [nra|]. now apply Rinv_0_lt_compat. }
    unfold Rdiv in *. lra. }
  intros eps He. destruct (pow_vanishes q Hq (ft_phase f t0) eps He) as [N HN].
  exists N. intros k Hk. rewrite E. rewrite Rabs_pos_eq; auto.
  apply Rmult_le_pos; [apply pow_le; lra|apply Rlt_le, ft_phase_pos].
Qed.

(** ** RK4 with critical damping *)
(** Growth factor of one RK4 step for x' = -a x with a h = x. *)
Definition rk4_factor (x : R) : R := 1 - x + x ^ 2 / 2 - x ^ 3 / 6 + x ^ 4 / 24.

Lemma rk4_factor_stable x :
  0 < x -> x ^ 3 - 4 * x ^ 2 + 12 * x - 24 < 0 -> Rabs (rk4_factor x) < 1.
Proof.
  intros H0 H. unfold rk4_factor. apply Rabs_def1.
  - assert (x * (x ^ 3 - 4 * x ^ 2 + 12 * x - 24) < 0) by nra. nra.
  - assert (0 < 2 - x + x ^ 2 / 2 - x ^ 3 / 6 + x ^ 4 / 24); [|lra].
    assert (E : 2 - x + x ^ 2 / 2 - x ^ 3 / 6 + x ^ 4 / 24
      = (x ^ 2 - 2 * x) ^ 2 / 24 + (x - 3 / 2) ^ 2 / 3 + 5 / 4) by field.
    rewrite E. nra.
Qed.

Lemma acc_of_free a h Y V z d :
  free a -> a_goal_t a <> a_start_t a ->
  let tau := a_goal_t a - a_start_t a in
  acc_of a h Y V z (ft_forces (a_forcing_term a) z) d
  = - (a_alpha_y a d * a_beta_y a d / tau ^ 2) * (Y d - a_goal_y a d)
    - a_alpha_y a d / tau * V d + disturbance a z d / tau ^ 2.
Proof.
  intros (Hc & Hp & Hte) Ht tau. unfold acc_of, dmp_acc, disturbance, precomputed_cdd.
  rewrite Hc, Hp, Hte. unfold tracking_error_or_zero, vzero. fold tau.
  assert (tau <> 0) by (unfold tau; lra).
  replace (a_p_gain a * 0 / h) with 0 by (unfold Rdiv; ring).
  destruct (a_smooth_scaling a); field; auto.
Qed.

(** In the coordinates [e = y - g], [w = v + k e], [k = alpha / (2 tau)], one RK4
    step is triangular with the growth factor on the diagonal. *)
Lemma rk4_triangular a lt t y v d :
  free a -> a_goal_t a <> a_start_t a -> a_alpha_y a d = 4 * a_beta_y a d ->
  let tau := a_goal_t a - a_start_t a in
  let h := t - lt in
  let k := a_alpha_y a d / (2 * tau) in
  let x := k * h in
  let z := ft_phase (a_forcing_term a) in
  let u0 := disturbance a (z t) d / tau ^ 2 in
  let u1 := disturbance a (z (t + / 2 * h)) d / tau ^ 2 in
  let u2 := disturbance a (z (t + h)) d / tau ^ 2 in
  let e := y d - a_goal_y a d in
  let w := v d + k * e in
  let s' := dmp_step_rk4 a lt t (y, v) in
  let e' := fst s' d - a_goal_y a d in
  let w' := snd s' d + k * e' in
  w' = rk4_factor x * w
       + h / 6 * ((1 - x + x ^ 2 / 2 - x ^ 3 / 4) * u0
                  + (4 - 2 * x + x ^ 2 / 2) * u1 + u2)
  /\ e' = rk4_factor x * e + h * (1 - x + x ^ 2 / 2 - x ^ 3 / 6) * w
       + h ^ 2 / 6 * ((1 - x + 3 / 4 * x ^ 2) * u0 + (2 - x) * u1).
Proof.
  intros Hf Ht Hcd tau h k x z u0 u1 u2 e w s' e' w'.
  unfold w', e', s'. rewrite rk4_as_rk4_of by apply Hf. fold h. fold z.
  assert (Hb : a_beta_y a d = k * tau / 2).
  { unfold k. rewrite Hcd. field. unfold tau. lra. }
  assert (Ha : a_alpha_y a d = 2 * k * tau) by (unfold k; field; unfold tau; lra).
  assert (Htau : tau <> 0) by (unfold tau; lra).
  assert (Hacc : forall Y V zz, acc_of a h Y V zz (ft_forces (a_forcing_term a) zz) d
     = - k ^ 2 * (Y d - a_goal_y a d) - 2 * k * V d + disturbance a zz d / tau ^ 2).
  { intros. rewrite acc_of_free by auto. fold tau. rewrite Hb, Ha. field. auto. }
  cbv zeta. unfold rk4_of. cbv zeta. cbn [fst snd].
  unfold vadd, vscale. repeat (rewrite !Hacc; cbv beta).
  fold u0 u1 u2. unfold w, x, e, rk4_factor. clearbody u0 u1 u2 h k.
  split; field.
Qed.

Lemma dist_input_bound a B d : 0 <= B ->
  (forall z, 0 <= z -> Rabs (disturbance a z d) <= B * z) ->
  phase_ok (a_forcing_term a) -> a_goal_t a <> a_start_t a ->
  let tau := a_goal_t a - a_start_t a in
  forall t0 t, t0 <= t ->
  Rabs (disturbance a (ft_phase (a_forcing_term a) t) d / tau ^ 2)
  <= B / tau ^ 2 * ft_phase (a_forcing_term a) t0.
Proof.
  intros HB Hd Hp Ht tau t0 t Hle.
  assert (Hn : tau <> 0) by (unfold tau; lra).
  assert (Hs : 0 < / tau ^ 2) by (apply Rinv_0_lt_compat; nra).
  unfold Rdiv. rewrite Rabs_mult, (Rabs_pos_eq (/ tau ^ 2)) by lra.
  pose proof (ft_phase_pos (a_forcing_term a) t).
  specialize (Hd (ft_phase (a_forcing_term a) t) ltac:(lra)).
  pose proof (ft_phase_decreasing _ _ _ Hp Hle).
  replace (B * / tau ^ 2 * ft_phase (a_forcing_term a) t0)
    with (B * ft_phase (a_forcing_term a) t0 * / tau ^ 2) by ring.
  apply Rmult_le_compat_r; [lra|]. nra.
Qed.

Lemma vanishes_bounded_comb (c0 c1 c2 : R) (u0 u1 u2 b : nat -> R) :
  (forall k, Rabs (u0 k) <= b k) -> (forall k, Rabs (u1 k) <= b k) ->
  (forall k, Rabs (u2 k) <= b k) -> vanishes b ->
  vanishes (fun k => c0 * u0 k + c1 * u1 k + c2 * u2 k).
Proof.
  intros H0 H1 H2 Hb.
  repeat apply vanishes_plus; apply vanishes_scal; eapply vanishes_le; eauto.
Qed.

Lemma run_seq_rk4 a t0 dt x :
  exists s, s 0%nat = x
  /\ (forall k, s (S k) = dmp_step_rk4 a (t0 + INR k * dt) (t0 + INR (S k) * dt) (s k))
  /\ forall k, run_seq (run_step_function RK4 a) t0 dt x k = Ok (s k).
Proof.
  exists (fix s k := match k with
    | O => x
    | S k' => dmp_step_rk4 a (t0 + INR k' * dt) (t0 + INR (S k') * dt) (s k') end).
  split; [reflexivity|]. split; [reflexivity|].
  induction k as [|k IH]; [reflexivity|]. cbn [run_seq]. rewrite IH. reflexivity.
Qed.

Lemma rk4_converges a t0 dt x :
  free a -> a_goal_t a <> a_start_t a -> phase_ok (a_forcing_term a) -> 0 < dt ->
  forall d, a_alpha_y a d = 4 * a_beta_y a d ->
  (let xx := a_alpha_y a d / (2 * (a_goal_t a - a_start_t a)) * dt in
   0 < xx /\ xx ^ 3 - 4 * xx ^ 2 + 12 * xx - 24 < 0) ->
  forall s, s 0%nat = x ->
  (forall k, s (S k) = dmp_step_rk4 a (t0 + INR k * dt) (t0 + INR (S k) * dt) (s k)) ->
  vanishes (fun k => fst (s k) d - a_goal_y a d) /\ vanishes (fun k => snd (s k) d).
Proof.
  intros Hf Ht Hp Hdt d Hcd Hst s H0 Hs.
  set (tau := a_goal_t a - a_start_t a) in *.
  set (kk := a_alpha_y a d / (2 * tau)) in *. cbv zeta in Hst.
  set (xx := kk * dt) in *.
  assert (HR : Rabs (rk4_factor xx) < 1) by (apply rk4_factor_stable; tauto).
  destruct (disturbance_bound a d (proj1 Hp)) as [B [HB0 HB]].
  set (b := fun k => B / tau ^ 2 * ft_phase (a_forcing_term a) (t0 + INR k * dt)).
  assert (Hb : vanishes b).
  { apply vanishes_scal. now apply phase_grid_vanishes. }
  set (u := fun q k => disturbance a (ft_phase (a_forcing_term a)
     (t0 + INR (S k) * dt + q * dt)) d / tau ^ 2).
  assert (Hu : forall q, 0 <= q -> forall k, Rabs (u q k) <= b k).
  { intros q Hq k. unfold u, b. apply dist_input_bound; auto.
    rewrite S_INR. nra. }
  set (e := fun k => fst (s k) d - a_goal_y a d).
  set (w := fun k => snd (s k) d + kk * e k).
  assert (Hrec : forall k,
    w (S k) = rk4_factor xx * w k
       + (dt / 6 * (1 - xx + xx ^ 2 / 2 - xx ^ 3 / 4) * u 0 k
          + dt / 6 * (4 - 2 * xx + xx ^ 2 / 2) * u (/ 2)%R k + dt / 6 * u 1 k)
  /\ e (S k) = rk4_factor xx * e k + (dt * (1 - xx + xx ^ 2 / 2 - xx ^ 3 / 6) * w k
       + (dt ^ 2 / 6 * (1 - xx + 3 / 4 * xx ^ 2) * u 0 k
          + dt ^ 2 / 6 * (2 - xx) * u (/ 2)%R k + 0 * u 1 k))).
  { intros k. unfold w, e, u. rewrite Hs. destruct (s k) as [y v] eqn:E.
    pose proof (rk4_triangular a (t0 + INR k * dt) (t0 + INR (S k) * dt) y v d Hf Ht Hcd) as Htr.
    cbv zeta in Htr. fold tau in Htr. fold kk in Htr.
    replace (t0 + INR (S k) * dt - (t0 + INR k * dt)) with dt in Htr by (rewrite S_INR; ring).
    fold xx in Htr. cbn [fst snd].
    destruct Htr as [Hw He].
    replace (t0 + INR (S k) * dt + 0 * dt) with (t0 + INR (S k) * dt) by ring.
    replace (t0 + INR (S k) * dt + 1 * dt) with (t0 + INR (S k) * dt + dt) by ring.
    split; (etransitivity; [first [exact Hw|exact He]|field]); unfold tau; lra. }
  assert (Hw : vanishes w).
  { apply (abs_contraction_vanishes w (fun k => 
       dt / 6 * (1 - xx + xx ^ 2 / 2 - xx ^ 3 / 4) * u 0 k
          + dt / 6 * (4 - 2 * xx + xx ^ 2 / 2) * u (/ 2)%R k + dt / 6 * u 1 k)
       (rk4_factor xx) HR).
    - intros k. apply (proj1 (Hrec k)).
    - apply (vanishes_bounded_comb _ _ _ (u 0) (u (/ 2)) (u 1) b); auto; apply Hu; lra. }
  assert (He : vanishes e).
  { apply (abs_contraction_vanishes e (fun k => dt * (1 - xx + xx ^ 2 / 2 - xx ^ 3 / 6) * w k
       + (dt ^ 2 / 6 * (1 - xx + 3 / 4 * xx ^ 2) * u 0 k
          + dt ^ 2 / 6 * (2 - xx) * u (/ 2)%R k + 0 * u 1 k)) (rk4_factor xx) HR).
    - intros k. apply (proj2 (Hrec k)).
    - apply vanishes_plus; [now apply vanishes_scal|].
      apply (vanishes_bounded_comb _ _ _ (u 0) (u (/ 2)) (u 1) b); auto; apply Hu; lra. }
  split; [exact He|].
  apply (vanishes_ext (fun k => w k + (- kk) * e k)).
  - intros k. unfold w. ring.
  - apply vanishes_plus; auto. now apply vanishes_scal.
Qed.

(** ** Semi-implicit Euler with critical damping *)
Definition euler_norm (k e v : R) : R := Rmax (Rabs (k * e)) (2 * Rabs (v + k * e)).

Lemma euler_norm_nonneg k e v : 0 <= euler_norm k e v.
Proof. unfold euler_norm. eapply Rle_trans; [apply Rabs_pos|apply Rmax_l]. Qed.

Lemma euler_norm_step k h e v u :
  0 < k -> 0 < h -> k * h <= 1 / 2 ->
  let v' := v + h * (- k ^ 2 * e - 2 * k * v + u) in
  let e' := e + h * v' in
  euler_norm k e' v' <= (1 - k * h / 2) * euler_norm k e v + 3 * h * Rabs u.
Proof.
  intros Hk Hh Hx v' e'. set (x := k * h) in *.
  assert (Hx0 : 0 < x) by (unfold x; nra).
  set (N := euler_norm k e v). set (E := k * e). set (w := v + E).
  assert (HE : Rabs E <= N) by apply Rmax_l.
  assert (Hw : 2 * Rabs w <= N) by apply Rmax_r.
  assert (E1 : k * e' = (1 - x + x ^ 2) * E + x * (1 - 2 * x) * w + x * h * u).
  { unfold e', v', w, E, x. ring. }
  assert (W1 : v' + k * e' = x ^ 2 * E + (1 - x - 2 * x ^ 2) * w + (1 + x) * h * u).
  { unfold e', v', w, E, x. ring. }
  unfold euler_norm. rewrite W1, E1.
  pose proof (Rabs_pos E). pose proof (Rabs_pos w). pose proof (Rabs_pos u).
  apply Rmax_lub.
  - eapply Rle_trans; [eapply Rle_trans; [apply Rabs_triang|apply Rplus_le_compat_r, Rabs_triang]|].
    rewrite !Rabs_mult.
    rewrite (Rabs_pos_eq (1 - x + x ^ 2)) by nra. rewrite (Rabs_pos_eq x) by lra.
    rewrite (Rabs_pos_eq (1 - 2 * x)) by lra. rewrite (Rabs_pos_eq h) by lra.
    assert (x * h * Rabs u <= 3 * h * Rabs u)
      by (apply Rmult_le_compat_r; [auto|apply Rmult_le_compat_r; lra]).
    assert ((1 - x + x ^ 2) * Rabs E <= (1 - x + x ^ 2) * N)
      by (apply Rmult_le_compat_l; [nra|auto]).
    assert (x * (1 - 2 * x) * Rabs w <= x * (1 - 2 * x) * (N / 2)).
    { apply Rmult_le_compat_l; nra. }
    nra.
  - eapply Rle_trans; [apply Rmult_le_compat_l; [lra|];
      eapply Rle_trans; [apply Rabs_triang|apply Rplus_le_compat_r, Rabs_triang]|].
    rewrite !Rabs_mult.
    rewrite (Rabs_pos_eq (x ^ 2)) by nra. rewrite (Rabs_pos_eq (1 - x - 2 * x ^ 2)) by nra.
    rewrite (Rabs_pos_eq (1 + x)) by lra. rewrite (Rabs_pos_eq h) by lra.
    assert (2 * ((1 + x) * h * Rabs u) <= 3 * h * Rabs u).
    { assert (0 <= h * Rabs u) by nra. nra. }
    assert (x ^ 2 * Rabs E <= x ^ 2 * N) by (apply Rmult_le_compat_l; [nra|auto]).
    assert (0 <= 1 - x - 2 * x ^ 2) by nra.
    assert ((1 - x - 2 * x ^ 2) * (2 * Rabs w) <= (1 - x - 2 * x ^ 2) * N)
      by (apply Rmult_le_compat_l; lra).
    assert (0 <= N) by lra. nra.
Qed.

Lemma one_minus_le_exp x : 1 - x <= exp (- x).
Proof.
  destruct (Req_dec x 0) as [->|Hx].
  - rewrite Ropp_0, exp_0. lra.
  - pose proof (exp_ineq1 (- x)). assert (- x <> 0) by lra. specialize (H H0). lra.
Qed.

Definition st_norm (k : R) (g : vec) (d : nat) (s : vec * vec) : R :=
  euler_norm k (fst s d - g d) (snd s d).

Lemma euler_body_norm a c h s d U :
  free a -> a_start_t a < a_goal_t a -> a_alpha_y a d = 4 * a_beta_y a d -> 0 < a_alpha_y a d ->
  let tau := a_goal_t a - a_start_t a in
  let k := a_alpha_y a d / (2 * tau) in
  0 < h -> k * h <= 1 / 2 ->
  Rabs (disturbance a (ft_phase (a_forcing_term a) c) d / tau ^ 2) <= U ->
  st_norm k (a_goal_y a) d (euler_body a c h s)
  <= (1 - k * h / 2) * st_norm k (a_goal_y a) d s + 3 * h * U.
Proof.
  intros Hf Ht Hcd Hal tau k Hh Hx HU. destruct s as [y v].
  assert (Htau : 0 < tau) by (unfold tau; lra).
  assert (Hb : a_beta_y a d = k * tau / 2).
  { unfold k. rewrite Hcd. field. lra. }
  assert (Ha : a_alpha_y a d = 2 * k * tau) by (unfold k; field; lra).
  assert (Hk : 0 < k).
  { unfold k. apply Rmult_lt_0_compat; auto. apply Rinv_0_lt_compat. lra. }
  set (z := ft_phase (a_forcing_term a) c) in *.
  assert (Hacc : acc_of a h y v z (ft_forces (a_forcing_term a) z) d
     = - k ^ 2 * (y d - a_goal_y a d) - 2 * k * v d + disturbance a z d / tau ^ 2).
  { rewrite acc_of_free by (auto; lra). fold tau. rewrite Hb, Ha. field. lra. }
  set (u := disturbance a z d / tau ^ 2) in *.
  pose proof (euler_norm_step k h (y d - a_goal_y a d) (v d) u Hk Hh Hx) as HN.
  cbv zeta in HN.
  assert (Hlast : 3 * h * Rabs u <= 3 * h * U) by nra.
  unfold st_norm. cbn [fst snd].
  eapply Rle_trans; [|apply Rplus_le_compat_l; exact Hlast].
  eapply Rle_trans; [|exact HN]. apply Req_le.
  unfold euler_body. cbv zeta. fold z.
  change (dmp_acc _ _ _ _ _ _ _ _ _ _ _ _ _)
    with (acc_of a h y v z (ft_forces (a_forcing_term a) z)).
  rewrite (proj1 Hf). cbn [fst snd]. unfold vadd, vscale. rewrite Hacc.
  f_equal; try ring.
Qed.

Lemma euler_substeps_norm a d U :
  free a -> a_start_t a < a_goal_t a -> a_alpha_y a d = 4 * a_beta_y a d -> 0 < a_alpha_y a d ->
  let tau := a_goal_t a - a_start_t a in
  let k := a_alpha_y a d / (2 * tau) in
  0 <= U ->
  forall l lt t H s, k * H <= 1 / 2 -> tiles lt t H l ->
  (forall c, lt <= c -> Rabs (disturbance a (ft_phase (a_forcing_term a) c) d / tau ^ 2) <= U) ->
  st_norm k (a_goal_y a) d (exec_substeps (euler_body a) l s)
  <= exp (- (k * (t - lt) / 2)) * st_norm k (a_goal_y a) d s + 3 * (t - lt) * U.
Proof.
  intros Hf Ht Hcd Hal tau k HU0. 
  assert (Htau : 0 < tau) by (unfold tau; lra).
  assert (Hk : 0 < k).
  { unfold k. apply Rmult_lt_0_compat; auto. apply Rinv_0_lt_compat. lra. }
  induction l as [|[c h] l IH]; intros lt t H s HH Hti HU.
  - simpl in Hti. subst t. replace (- (k * (lt - lt) / 2)) with 0 by field. rewrite exp_0.
    unfold exec_substeps. simpl. lra.
  - simpl in Hti. destruct Hti as (Hh & -> & _ & Hti).
    change (exec_substeps (euler_body a) ((lt + h, h) :: l) s)
      with (exec_substeps (euler_body a) l (euler_body a (lt + h) h s)).
    eapply Rle_trans; [apply (IH (lt + h) t H); auto; intros; apply HU; lra|].
    assert (Hstep : st_norm k (a_goal_y a) d (euler_body a (lt + h) h s)
       <= (1 - k * h / 2) * st_norm k (a_goal_y a) d s + 3 * h * U).
    { apply euler_body_norm; auto; try lra.
      - fold tau. fold k. assert (k * h <= k * H) by nra. lra.
      - apply HU. lra. }
    pose proof (tiles_le _ _ _ _ Hti) as Hle.
    set (N := st_norm k (a_goal_y a) d s) in *.
    assert (HN : 0 <= N) by apply euler_norm_nonneg.
    pose proof (one_minus_le_exp (k * h / 2)) as He.
    pose proof (exp_pos (- (k * h / 2))).
    assert (He2 : exp (- (k * (t - (lt + h)) / 2)) <= 1).
    { rewrite <- exp_0. destruct (Req_dec t (lt + h)) as [->|Hne].
      - replace (- (k * (lt + h - (lt + h)) / 2)) with 0 by field. lra.
      - apply Rlt_le, exp_increasing. nra. }
    pose proof (exp_pos (- (k * (t - (lt + h)) / 2))) as Hp.
    replace (exp (- (k * (t - lt) / 2)))
      with (exp (- (k * (t - (lt + h)) / 2)) * exp (- (k * h / 2)))
      by (rewrite <- exp_plus; f_equal; field).
    set (p := exp (- (k * (t - (lt + h)) / 2))) in *.
    set (q := exp (- (k * h / 2))) in *.
    assert (p * st_norm k (a_goal_y a) d (euler_body a (lt + h) h s)
       <= p * (q * N + 3 * h * U)).
    { apply Rmult_le_compat_l; [lra|]. eapply Rle_trans; [exact Hstep|].
      apply Rplus_le_compat_r. apply Rmult_le_compat_r; auto. }
    assert (0 <= 3 * h * U) by (apply Rmult_le_pos; lra).
    assert (p * (3 * h * U) <= 3 * h * U) by nra.
    nra.
Qed.

Lemma euler_fn_substeps fn a lt t s :
  fn = Euler \/ fn = Euler_cython ->
  free a -> 0 < a_int_dt a -> a_start_t a < a_goal_t a -> a_start_t a < t -> lt <= t ->
  exists l, tiles lt t (a_int_dt a) l
    /\ run_step_function fn a lt t s = Ok (exec_substeps (euler_body a) l s).
Proof.
  intros Hfn (Hc & Hp & Hte) Hi Ht Hs Hl.
  destruct (substeps_tiles lt t (a_int_dt a) Hi Hl) as [l [Hti Hl']].
  exists l. split; auto.
  assert (E : dmp_step_euler a lt t s = Ok (exec_substeps (euler_body a) l s)).
  { unfold dmp_step_euler. destruct (Rle_dec (a_goal_t a) (a_start_t a)); [lra|].
    destruct (Rle_dec t (a_start_t a)); [lra|]. apply Hl'. }
  destruct Hfn as [-> | ->]; cbn [run_step_function]; auto.
  rewrite euler_steps_agree; auto.
  - congruence.
  - intros _ d. unfold precomputed_cd. rewrite Hp. reflexivity.
Qed.

Lemma run_seq_euler fn a t0 dt x :
  fn = Euler \/ fn = Euler_cython ->
  free a -> 0 < a_int_dt a -> a_start_t a < a_goal_t a -> a_start_t a <= t0 -> 0 < dt ->
  exists s, s 0%nat = x
  /\ (forall k, exists l, tiles (t0 + INR k * dt) (t0 + INR (S k) * dt) (a_int_dt a) l
        /\ s (S k) = exec_substeps (euler_body a) l (s k))
  /\ forall k, run_seq (run_step_function fn a) t0 dt x k = Ok (s k).
Proof.
  intros Hfn Hf Hi Ht H0 Hdt.
  assert (Htot : forall k s, exists l,
     tiles (t0 + INR k * dt) (t0 + INR (S k) * dt) (a_int_dt a) l
     /\ run_step_function fn a (t0 + INR k * dt) (t0 + INR (S k) * dt) s
        = Ok (exec_substeps (euler_body a) l s)).
  { intros k s. pose proof (pos_INR k). apply euler_fn_substeps; auto; rewrite S_INR; nra. }
  set (s := fix s k := match k with
    | O => x
    | S k' => match run_step_function fn a (t0 + INR k' * dt) (t0 + INR (S k') * dt) (s k') with
              | Ok y => y | Err _ => s k' end end).
  exists s. split; [reflexivity|]. split.
  - intros k. destruct (Htot k (s k)) as [l [Hl E]]. exists l. split; auto.
    change (s (S k)) with (match run_step_function fn a (t0 + INR k * dt) (t0 + INR (S k) * dt) (s k)
      with Ok y => y | Err _ => s k end). now rewrite E.
  - induction k as [|k IH]; [reflexivity|]. cbn [run_seq]. rewrite IH. cbn [bind].
    change (s (S k)) with (match run_step_function fn a (t0 + INR k * dt) (t0 + INR (S k) * dt) (s k)
      with Ok y => y | Err _ => s k end).
    destruct (Htot k (s k)) as [l [Hl E]]. now rewrite E.
Qed.

Lemma euler_converges a t0 dt x :
  free a -> a_start_t a < a_goal_t a -> phase_ok (a_forcing_term a) -> 0 < dt ->
  forall d, a_alpha_y a d = 4 * a_beta_y a d -> 0 < a_alpha_y a d ->
  a_alpha_y a d * a_int_dt a <= a_goal_t a - a_start_t a ->
  forall s, s 0%nat = x ->
  (forall k, exists l, tiles (t0 + INR k * dt) (t0 + INR (S k) * dt) (a_int_dt a) l
        /\ s (S k) = exec_substeps (euler_body a) l (s k)) ->
  vanishes (fun k => fst (s k) d - a_goal_y a d) /\ vanishes (fun k => snd (s k) d).
Proof.
  intros Hf Ht Hp Hdt d Hcd Hal Hst s H0 Hs.
  set (tau := a_goal_t a - a_start_t a) in *.
  assert (Htau : 0 < tau) by (unfold tau; lra).
  set (kk := a_alpha_y a d / (2 * tau)) in *.
  assert (Hk : 0 < kk).
  { unfold kk. apply Rmult_lt_0_compat; auto. apply Rinv_0_lt_compat. lra. }
  assert (Hx : kk * a_int_dt a <= 1 / 2).
  { assert (E : kk * a_int_dt a * (2 * tau) = a_alpha_y a d * a_int_dt a) by (unfold kk; field; lra).
    nra. }
  destruct (disturbance_bound a d (proj1 Hp)) as [B [HB0 HB]].
  set (b := fun k => B / tau ^ 2 * ft_phase (a_forcing_term a) (t0 + INR k * dt)).
  assert (Hb : vanishes b).
  { apply vanishes_scal. now apply phase_grid_vanishes. }
  assert (HBt : 0 <= B / tau ^ 2).
  { apply Rmult_le_pos; auto. apply Rlt_le, Rinv_0_lt_compat. nra. }
  assert (Hb0 : forall k, 0 <= b k).
  { intros k. unfold b. apply Rmult_le_pos; auto. apply Rlt_le, ft_phase_pos. }
  set (N := fun k => st_norm kk (a_goal_y a) d (s k)).
  assert (HN : vanishes N).
  { assert (HNn : forall k, 0 <= N k) by (intros; apply euler_norm_nonneg).
    assert (Hv : forall eps, 0 < eps -> exists M, forall k, (M <= k)%nat -> N k < eps).
    { apply (contraction_vanishes N (fun k => 3 * dt * b k) (exp (- (kk * dt / 2)))).
      - split; [apply Rlt_le, exp_pos|]. rewrite <- exp_0. apply exp_increasing. nra.
      - exact HNn.
      - intros k. destruct (Hs k) as [l [Hl E]]. unfold N. rewrite E.
        eapply Rle_trans.
        + apply (euler_substeps_norm a d (b k) Hf Ht Hcd Hal (Hb0 k) l _ _ _ (s k) Hx Hl).
          intros c Hc. apply dist_input_bound; auto. lra.
        + fold tau. fold kk.
          replace (t0 + INR (S k) * dt - (t0 + INR k * dt)) with dt by (rewrite S_INR; ring). lra.
      - intros eps He. destruct (vanishes_scal (3 * dt) b Hb eps He) as [M HM].
        exists M. intros k Hk'. specialize (HM k Hk').
        pose proof (Rle_abs (3 * dt * b k)). lra. }
    intros eps He. destruct (Hv eps He) as [M HM]. exists M. intros k Hk'.
    rewrite Rabs_pos_eq by apply HNn. auto. }
  assert (He : vanishes (fun k => kk * (fst (s k) d - a_goal_y a d))).
  { apply (vanishes_le _ N); auto. intros k. apply Rmax_l. }
  assert (Hw : vanishes (fun k => snd (s k) d + kk * (fst (s k) d - a_goal_y a d))).
  { apply (vanishes_le _ N); auto. intros k. unfold N, st_norm, euler_norm.
    eapply Rle_trans; [|apply Rmax_r].
    pose proof (Rabs_pos (snd (s k) d + kk * (fst (s k) d - a_goal_y a d))). lra. }
  split.
  - apply (vanishes_ext (fun k => / kk * (kk * (fst (s k) d - a_goal_y a d)))).
    + intros k. field. lra.
    + now apply vanishes_scal.
  - apply (vanishes_ext (fun k => (snd (s k) d + kk * (fst (s k) d - a_goal_y a d))
       + (-1) * (kk * (fst (s k) d - a_goal_y a d)))).
    + intros k. ring.
    + apply vanishes_plus; auto. now apply vanishes_scal.
Qed.
