(** C97: a learned movement reproduces the demonstration.  Final statements. *)
From Coq Require Import Reals ZArith List Lia Lra Psatz FunctionalExtensionality.
From Coquelicot Require Import Coquelicot.
From Verif Require Import M_Prelude M_Canonical M_Forcing M_Dmp M_Base M_DmpObject M_Ridge
  S_Loops S_Dmp P_Loops P_Canonical P_Forcing P_DmpStep P_DmpScale P_DmpLinear P_Converge
  P_DmpObject P_DmpAffine P_Continuity P_Ode P_OdeSolution P_Reproduction Properties_Forcing Properties_Dmp
  Properties_DmpObject Properties_Goal Properties_Ridge Properties_Equivariance Properties_Continuity
  Properties_Ode.
Import ListNotations.
Open Scope R_scope.
Set Bullet Behavior "Strict Subproofs".

(** ** Specification *)
(** A demonstrated motion in one dimension from time 0 to [tau]: position [y],
    velocity [v], acceleration [a]; it starts at rest and the acceleration does
    not jump. *)
Definition smooth_motion (tau : R) (y v a : R -> R) : Prop :=
  v 0 = 0
  /\ (forall t, 0 <= t <= tau -> is_derive y t (v t) /\ is_derive v t (a t))
  /\ exists L, 0 <= L /\
     forall s t, 0 <= s <= tau -> 0 <= t <= tau -> Rabs (a s - a t) <= L * Rabs (s - t).

(** The force that makes the DMP equation, with the goal at the end of the
    motion, hold for the motion at time [t]. *)
Definition required_force (tau alpha beta : R) (smooth : bool) (y v a : R -> R) (t : R) : R :=
  tau ^ 2 * a t
  - alpha * (beta * (y tau - y t) - tau * v t
             - (if smooth then beta * (y tau - y 0) * exp (ln (1/100) * (t / tau)) else 0)).

(** Dimension [d] of [dm] is the motion recorded at [N + 1] equidistant times. *)
Definition recorded (tau : R) (N : nat) (d : nat) (y : R -> R) (dm : demo) : Prop :=
  d_n dm = S N
  /\ (forall k, d_T dm k = INR k * (tau / INR N))
  /\ forall k, (k <= N)%nat -> d_Y dm k d = y (INR k * (tau / INR N)).

(** The forcing term of [o] with the weights [w] in dimension [d]. *)
Definition force_with (o : dmp) (d : nat) (w : vec) (t : R) : R :=
  ft_call (set_ft_weights (fun _ => w) (o_forcing_term o)) t d.

(** ** Proofs *)
Lemma tiles_one a b i l : a < b -> b - a <= i -> tiles a b i l -> l = [(b, b - a)].
Proof.
  intros Hab Hi H. destruct l as [|[c k] l]; simpl in H; [lra|].
  destruct H as (Hk & Ec & Hl & Ht). destruct l as [|[c' k'] l].
  - simpl in Ht. subst. f_equal. f_equal. ring.
  - assert (k = i) by (apply Hl; congruence). simpl in Ht. destruct Ht as (Hk' & -> & _ & Ht).
    pose proof (tiles_le _ _ _ _ Ht). lra.
Qed.

Lemma ridge_column n m X Y lam d w : 0 <= lam ->
  rsum m (fun s => (Y s d - rsum n (fun f => ridge_regression n m X Y lam d f * X f s)) ^ 2)
  <= rsum m (fun s => (Y s d - rsum n (fun f => w f * X f s)) ^ 2) + lam * rsum n (fun f => w f ^ 2).
Proof.
  intros Hl.
  pose proof (C15_minimiser n m 1 X (fun s _ => Y s d) lam (fun _ => w) Hl) as H.
  unfold ridge_cost, squared_error, squared_weights in H. cbn [rsum] in H. rewrite !Rplus_0_l in H.
  change (ridge_regression n m X (fun s _ => Y s d) lam 0%nat) with (ridge_regression n m X Y lam d) in H.
  assert (0 <= lam * rsum n (fun f => ridge_regression n m X Y lam d f ^ 2)).
  { apply Rmult_le_pos; auto. apply rsum_nonneg. intros. apply pow2_ge_0. }
  lra.
Qed.

Lemma sum_sq x y : (x + y) ^ 2 <= 2 * x ^ 2 + 2 * y ^ 2.
Proof. pose proof (pow2_ge_0 (x - y)). nra. Qed.

Lemma phase_from_zero t tau : 0 < tau -> phase t (- ln (1/100)) tau 0 = exp (ln (1/100) * (t / tau)).
Proof. intros H. unfold phase. f_equal. field. lra. Qed.

Section Learn.
Variables (tau alpha beta : R) (smooth : bool) (y v a : R -> R) (L B : R).
Hypothesis Htau : 0 < tau.
Hypothesis HL : 0 <= L.
Hypothesis HB : 0 <= B.
Hypothesis Dy : forall t, 0 <= t <= tau -> is_derive y t (v t).
Hypothesis Dv : forall t, 0 <= t <= tau -> is_derive v t (a t).
Hypothesis La : forall s t, 0 <= s <= tau -> 0 <= t <= tau -> Rabs (a s - a t) <= L * Rabs (s - t).
Hypothesis Ba : forall t, 0 <= t <= tau -> Rabs (a t) <= B.
Notation req := (required_force tau alpha beta smooth y v a).
Let A0 : R := 4 * tau ^ 2 * B + Rabs alpha * tau * (B * tau).
Let A1 : R := 4 * tau ^ 2 * L + Rabs alpha * tau * B.
Definition learn_const : R := (24 * A0 ^ 2 + 12 * tau ^ 2 * A1 ^ 2 + 8 * tau + 2) / tau ^ 4.

Lemma learn_const_nonneg : 0 <= learn_const.
Proof.
  unfold learn_const. apply Rmult_le_pos.
  - pose proof (pow2_ge_0 A0). pose proof (pow2_ge_0 A1). pose proof (pow2_ge_0 tau). nra.
  - apply Rlt_le, Rinv_0_lt_compat, pow_lt. auto.
Qed.

(** The forces of the learned weights are close to the required forces in the mean. *)
Lemma learned_forces n o d N dm lam allow junk w eps : reachable n o -> (d < n)%nat ->
  ft_goal_t (o_forcing_term o) = tau -> o_smooth_scaling o = smooth ->
  aget (o_alpha_y o) d = alpha -> aget (o_beta_y o) d = beta ->
  (2 <= N)%nat -> demonstrates n dm -> recorded tau N d y dm -> 0 <= lam ->
  allow = true \/ v tau = 0 ->
  (forall t, 0 <= t <= tau -> Rabs (req t - force_with o d w t) <= eps) ->
  let h := tau / INR N in
  let r := sqrt h + eps + sqrt (lam * h * rsum (o_n_weights_per_dim o) (fun i => w i ^ 2)) in
  let o' := imitate junk dm lam allow o in
  0 < r /\ h <= r ^ 2 /\
  rsum (S N) (fun k => h * ((ft_call (o_forcing_term o') (INR k * h) d - req (INR k * h)) / tau ^ 2) ^ 2)
  <= learn_const * r ^ 2.
Proof.
  intros Hr Hd Hg Hs Eal Ebe HN Hdem (Rn & RT & RY) Hlam Hallow Heps h r o'.
  assert (HNpos : 0 < INR N) by (apply lt_0_INR; lia).
  assert (Hh : 0 < h) by (unfold h; now apply Rdiv_lt_0_compat).
  assert (HNh : INR N * h = tau) by (unfold h; field; lra).
  assert (HN1 : 1 <= INR N) by (apply (le_INR 1); lia).
  assert (Hht : h <= tau) by nra.
  assert (Heps0 : 0 <= eps) by (eapply Rle_trans; [apply Rabs_pos|apply (Heps 0); lra]).
  fold h in RT, RY.
  assert (RT0 : d_T dm 0%nat = 0) by (rewrite RT; simpl; ring).
  assert (RTN : d_T dm N = tau) by (rewrite RT; auto).
  set (nw := o_n_weights_per_dim o) in *.
  set (W := rsum nw (fun i => w i ^ 2)) in *.
  assert (HW : 0 <= W) by (apply rsum_nonneg; intros; apply pow2_ge_0).
  assert (HlW : 0 <= lam * h * W) by (apply Rmult_le_pos; auto; apply Rmult_le_pos; lra).
  pose proof (sqrt_lt_R0 h Hh) as Ps. pose proof (sqrt_pos (lam * h * W)) as Ps2.
  pose proof (sqrt_sqrt h ltac:(lra)) as Es. pose proof (sqrt_sqrt (lam * h * W) HlW) as Es2.
  assert (Hr2 : h + eps ^ 2 + lam * h * W <= r ^ 2).
  { unfold r. set (x := sqrt h) in *. set (z := sqrt (lam * h * W)) in *. clearbody x z. nra. }
  split; [unfold r; lra|]. split; [nra|].
  destruct (imitated n o junk dm lam allow Hr Hlam Hdem) as (f & df & _ & Edf & Ef & Hw & w0 & Eo').
  fold o' in Eo', Hw. rewrite Rn in *. replace (S N - 1)%nat with N in * by lia.
  rewrite RTN, RT0 in Ef.
  destruct (reachable_ft n o Hr) as (j & g & wg & Eg & Eog). fold nw in Eg. rewrite Hg in Eg.
  pose proof (forcing_term_init_n _ _ _ _ _ _ _ _ Ef) as (Nf & Gf & Sf & _ & Zf & _).
  pose proof (forcing_term_init_n _ _ _ _ _ _ _ _ Eg) as (Ng & Gg & Sg & _ & Zg & _).
  set (X := design_matrix f (d_T dm) N) in *.
  (* forces of weights at the samples *)
  assert (HX : forall (ww : nat -> nat -> R) k,
     ft_call (set_ft_weights ww (o_forcing_term o)) (INR k * h) d = rsum nw (fun i => ww d i * X i k)).
  { intros ww k. unfold ft_call, ft_forces, ft_phase. rewrite Eog.
    cbn [set_ft_weights ft_n ft_weights ft_centers ft_widths ft_alpha_z ft_goal_t ft_start_t].
    rewrite Ng, Gg, Sg, Zg. rewrite <- rsum_scal. apply rsum_ext. intros i Hi.
    unfold X, design_matrix. rewrite RTN, RT0, RT, Zf, Nf.
    rewrite (activations_ext nw (ft_centers f) (ft_widths f) (ft_centers g) (ft_widths g)); auto.
    - fold nw. ring.
    - intros i' Hi'. apply (C02_fully_initialised _ _ _ _ _ _ _ _ _ _ _ Eg Ef i' Hi'). }
  assert (HO : forall k, ft_call (o_forcing_term o') (INR k * h) d
     = rsum nw (fun i => ridge_regression nw (S N) X (df_F df) lam d i * X i k)).
  { intros k.
    assert (EF : o_forcing_term o' = set_ft_weights w0 (o_forcing_term o)) by (rewrite Eo'; reflexivity).
    rewrite EF, HX. apply rsum_ext. intros i Hi. f_equal. unfold nw. rewrite <- (Hw d i Hd), EF. reflexivity. }
  assert (HS : forall k, force_with o d w (INR k * h) = rsum nw (fun i => w i * X i k)).
  { intros k. unfold force_with. now rewrite HX. }
  (* forces computed from the demonstration *)
  set (G := fun k : nat =>
     tau ^ 2 * (demo_acceleration (S N) (d_T dm) (demo_velocity (S N) (d_T dm) (d_Y dm) allow) k d - a (INR k * h))
     + alpha * tau * (demo_velocity (S N) (d_T dm) (d_Y dm) allow k d - v (INR k * h))).
  assert (EG : forall k, (k <= N)%nat -> df_F df k d = req (INR k * h) + G k).
  { intros k Hk. unfold determine_forces in Edf. destruct (Nat.ltb_spec (S N) 2); [lia|].
    injection Edf as <-. cbn [df_F]. rewrite Nat.sub_0_r.
    rewrite RTN, RT0, Rminus_0_r, Eal, Ebe, Hs, !RY, RT by lia.
    unfold required_force, G. simpl (INR 0). rewrite Rmult_0_l, HNh, phase_from_zero by auto.
    destruct smooth; ring. }
  pose proof (force_errors y v a tau L B Htau HL HB Dy Dv La Ba N d allow (d_Y dm) (d_T dm) HN RT RY Hallow alpha) as FE.
  cbv zeta in FE. change (tau / INR N) with h in FE.
  change (rsum (S N) (fun k => G k ^ 2) <= 4 * A0 ^ 2 + INR (S N) * (A1 * h) ^ 2) in FE.
  pose proof (ridge_column nw (S N) X (df_F df) lam d w Hlam) as RC. fold W in RC.
  set (fr := fun k => rsum nw (fun i => ridge_regression nw (S N) X (df_F df) lam d i * X i k)) in *.
  set (fs := fun k => rsum nw (fun i => w i * X i k)) in *.
  assert (Q1 : rsum (S N) (fun s => (df_F df s d - fs s) ^ 2)
     <= 2 * rsum (S N) (fun k => G k ^ 2) + INR (S N) * (2 * eps ^ 2)).
  { rewrite <- rsum_scal, <- rsum_const, <- rsum_plus. apply rsum_le. intros k Hk.
    rewrite EG by lia. replace (req (INR k * h) + G k - fs k) with (G k + (req (INR k * h) - fs k)) by ring.
    eapply Rle_trans; [apply sum_sq|]. apply Rplus_le_compat_l. apply Rmult_le_compat_l; [lra|].
    rewrite <- (pow2_abs (_ - _)). apply pow_incr. split; [apply Rabs_pos|].
    unfold fs. rewrite <- HS. apply Heps. rewrite <- HNh. split.
    - apply Rmult_le_pos; [apply pos_INR|lra].
    - apply Rmult_le_compat_r; [lra|]. apply le_INR. lia. }
  assert (Q2 : rsum (S N) (fun k => (fr k - req (INR k * h)) ^ 2)
     <= 2 * rsum (S N) (fun s => (df_F df s d - fr s) ^ 2) + 2 * rsum (S N) (fun k => G k ^ 2)).
  { rewrite <- !rsum_scal, <- rsum_plus. apply rsum_le. intros k Hk.
    replace (fr k - req (INR k * h)) with (- (df_F df k d - fr k) + G k) by (rewrite EG by lia; ring).
    eapply Rle_trans; [apply sum_sq|]. apply Req_le. ring. }
  assert (Q3 : rsum (S N) (fun s => (df_F df s d - fr s) ^ 2)
     <= rsum (S N) (fun s => (df_F df s d - fs s) ^ 2) + lam * W) by exact RC.
  set (S1 := rsum (S N) (fun k => G k ^ 2)) in *.
  set (S2 := rsum (S N) (fun k => (fr k - req (INR k * h)) ^ 2)) in *.
  assert (Q4 : S2 <= 6 * S1 + 4 * INR (S N) * eps ^ 2 + 2 * (lam * W)) by lra.
  replace (rsum (S N) (fun k => h * ((ft_call (o_forcing_term o') (INR k * h) d - req (INR k * h)) / tau ^ 2) ^ 2))
    with (h * S2 / tau ^ 4).
  2:{ unfold S2. unfold Rdiv. rewrite Rmult_assoc, <- rsum_scal_r, <- rsum_scal. apply rsum_ext.
      intros k _. rewrite HO. fold (fr k). field. lra. }
  unfold learn_const. unfold Rdiv. rewrite (Rmult_assoc _ (/ tau ^ 4)), (Rmult_comm (/ tau ^ 4)), <- Rmult_assoc.
  apply Rmult_le_compat_r; [apply Rlt_le, Rinv_0_lt_compat, pow_lt; auto|].
  assert (HSN : INR (S N) * h <= 2 * tau) by (rewrite S_INR; lra).
  assert (HSN0 : 0 <= INR (S N)) by apply pos_INR.
  assert (P1 : h * S1 <= (4 * A0 ^ 2 + 2 * tau ^ 2 * A1 ^ 2) * h).
  { apply Rle_trans with (h * (4 * A0 ^ 2 + INR (S N) * (A1 * h) ^ 2)); [apply Rmult_le_compat_l; lra|].
    replace (h * (4 * A0 ^ 2 + INR (S N) * (A1 * h) ^ 2))
      with (4 * A0 ^ 2 * h + (INR (S N) * h) * (A1 ^ 2 * h) * h) by ring.
    assert (INR (S N) * h * (A1 ^ 2 * h) <= 2 * tau * (A1 ^ 2 * tau)).
    { pose proof (pow2_ge_0 A1). apply Rmult_le_compat; try lra.
      - apply Rmult_le_pos; lra.
      - apply Rmult_le_pos; lra.
      - apply Rmult_le_compat_l; lra. }
    assert (INR (S N) * h * (A1 ^ 2 * h) * h <= 2 * tau * (A1 ^ 2 * tau) * h) by (apply Rmult_le_compat_r; lra).
    lra. }
  assert (P2 : h * (INR (S N) * eps ^ 2) <= 2 * tau * eps ^ 2).
  { replace (h * (INR (S N) * eps ^ 2)) with (INR (S N) * h * eps ^ 2) by ring.
    apply Rmult_le_compat_r; auto. apply pow2_ge_0. }
  apply Rle_trans with ((24 * A0 ^ 2 + 12 * tau ^ 2 * A1 ^ 2) * h + 8 * tau * eps ^ 2 + 2 * (lam * h * W)).
  { apply Rle_trans with (h * (6 * S1 + 4 * INR (S N) * eps ^ 2 + 2 * (lam * W))); [apply Rmult_le_compat_l; lra|].
    lra. }
  set (K := 24 * A0 ^ 2 + 12 * tau ^ 2 * A1 ^ 2 + 8 * tau + 2).
  apply Rle_trans with (K * (h + eps ^ 2 + lam * h * W)).
  2:{ apply Rmult_le_compat_l; auto. unfold K. pose proof (pow2_ge_0 A0).
      assert (0 <= tau ^ 2 * A1 ^ 2) by (apply Rmult_le_pos; apply pow2_ge_0). lra. }
  unfold K. set (u1 := 24 * A0 ^ 2). set (u2 := 12 * tau ^ 2 * A1 ^ 2).
  assert (0 <= u1) by (unfold u1; pose proof (pow2_ge_0 A0); lra).
  assert (0 <= u2) by (unfold u2; assert (0 <= tau ^ 2 * A1 ^ 2) by (apply Rmult_le_pos; apply pow2_ge_0); lra).
  pose proof (pow2_ge_0 eps). set (e2 := eps ^ 2) in *. set (lw := lam * h * W) in *. clearbody u1 u2 e2 lw.
  assert (0 <= u1 * e2) by (apply Rmult_le_pos; lra). assert (0 <= u1 * lw) by (apply Rmult_le_pos; lra).
  assert (0 <= u2 * e2) by (apply Rmult_le_pos; lra). assert (0 <= u2 * lw) by (apply Rmult_le_pos; lra).
  assert (0 <= tau * h) by (apply Rmult_le_pos; lra). assert (0 <= tau * lw) by (apply Rmult_le_pos; lra).
  lra.
Qed.
End Learn.

(** ** C97 *)
(** A smooth motion that starts at rest is recorded with [N + 1] equidistant
    samples and imitated.  The movement, integrated by the Euler method with
    the time step of the recording, stays close to the motion at all times up
    to [tau].  The bound has three parts: the time step; [eps], how well the
    basis functions can represent the required force (for any choice of weights
    [w]); and the regularisation.  [C] depends only on the motion and on the
    gains. *)
Theorem C97_reproduces : forall tau alpha beta smooth y v a, 0 < tau -> smooth_motion tau y v a ->
  exists C, 0 <= C /\
  forall n o d N junk dm lam allow fn w eps ts ys, reachable n o -> (d < n)%nat ->
  o_execution_time o = tau -> ft_goal_t (o_forcing_term o) = tau ->
  aget (o_alpha_y o) d = alpha -> aget (o_beta_y o) d = beta -> o_smooth_scaling o = smooth ->
  (2 <= N)%nat -> demonstrates n dm -> recorded tau N d y dm ->
  0 <= lam -> (allow = true \/ v tau = 0) ->
  fn = Euler \/ fn = Euler_cython -> o_dt o = tau / INR N -> o_dt o <= o_int_dt o ->
  (forall t, 0 <= t <= tau ->
     Rabs (required_force tau alpha beta smooth y v a t - force_with o d w t) <= eps) ->
  dmp_open_loop None None (Some fn) (imitate junk dm lam allow o) = Ok (ts, ys) ->
  length ys = length ts /\
  forall k, (k < length ts)%nat -> nth k ts 0 <= tau ->
    Rabs (nth k ys vzero d - y (nth k ts 0))
    <= C * (sqrt (o_dt o) + eps + sqrt (lam * o_dt o * rsum (o_n_weights_per_dim o) (fun i => w i ^ 2))).
Proof.
  intros tau alpha beta smooth y v a Htau (V0 & D & L & HL & La).
  assert (Dy : forall t, 0 <= t <= tau -> is_derive y t (v t)) by (intros; now apply D).
  assert (Dv : forall t, 0 <= t <= tau -> is_derive v t (a t)) by (intros; now apply D).
  destruct (acceleration_bounded a tau L Htau HL La) as (B & HB & Ba).
  pose proof (learn_const_nonneg tau alpha L B Htau) as HQ. set (Q := learn_const tau alpha L B) in *.
  destruct (euler_mean_error y v a (alpha * beta / tau ^ 2) (alpha / tau) (y tau) tau L Htau HL Dy Dv La Q HQ)
    as (C & HC & EM).
  exists C. split; auto.
  intros n o d N junk dm lam allow fn w eps ts ys Hr Hd Ex Hg Eal Ebe Hs HN Hdem Hrec Hlam Hallow Hfn
    Edt Hint Heps HO.
  destruct (learned_forces tau alpha beta smooth y v a L B Htau HL HB Dy Dv La Ba n o d N dm lam allow junk w eps
    Hr Hd Hg Hs Eal Ebe HN Hdem Hrec Hlam Hallow Heps) as (Pr & Phr & Psum).
  rewrite Edt in *. set (h := tau / INR N) in *.
  set (r := sqrt h + eps + sqrt (lam * h * rsum (o_n_weights_per_dim o) (fun i => w i ^ 2))) in *.
  set (o' := imitate junk dm lam allow o) in *.
  assert (HNpos : 0 < INR N) by (apply lt_0_INR; lia).
  assert (Hh : 0 < h) by (unfold h; now apply Rdiv_lt_0_compat).
  assert (HNh : INR N * h = tau) by (unfold h; field; lra).
  destruct (imitated n o junk dm lam allow Hr Hlam Hdem) as (f & df & _ & _ & _ & _ & w0 & Eo').
  fold o' in Eo'. destruct Hrec as (Rn & RT & RY). rewrite Rn in Eo'. replace (S N - 1)%nat with N in Eo' by lia.
  assert (Edt' : o_dt o' = h) by (rewrite Eo'; exact Edt).
  assert (Eint' : o_int_dt o' = o_int_dt o) by (rewrite Eo'; reflexivity).
  assert (Ex' : o_execution_time o' = tau) by (rewrite Eo'; exact Ex).
  assert (Ey0 : aget (p_start_y (o_base o')) d = y 0).
  { rewrite Eo'. change (d_Y dm 0%nat d = y 0). rewrite RY by lia. simpl INR. now rewrite Rmult_0_l. }
  assert (Eg : aget (p_goal_y (o_base o')) d = y tau).
  { rewrite Eo'. change (d_Y dm N d = y tau). rewrite RY by lia. fold h. now rewrite HNh. }
  set (b := open_loop_step_args o' None).
  assert (F : free b) by (unfold free; cbn; auto).
  assert (Hne : a_goal_t b <> a_start_t b) by (unfold b; cbn; lra).
  destruct (run_seq_euler fn b 0 h (aget (p_start_y (o_base o')), vzero)) as (s & Z0 & Zs & Zr); auto.
  { unfold b; cbn. lra. } { unfold b; cbn. lra. } { unfold b; cbn. lra. }
  set (e := fun k => (ft_call (o_forcing_term o') (INR k * h) d
                      - required_force tau alpha beta smooth y v a (INR k * h)) / tau ^ 2).
  assert (HIN : forall k, input b d (INR k * h)
     = needed y v a (alpha * beta / tau ^ 2) (alpha / tau) (y tau) (INR k * h) + e k).
  { intros k. unfold input, disturbance, needed, e, required_force, b.
    cbn [open_loop_step_args a_alpha_y a_beta_y a_goal_t a_start_t a_goal_y a_start_y a_forcing_term
      a_smooth_scaling]. rewrite Ex', Ey0, Eg, Rminus_0_r.
    replace (o_smooth_scaling o') with smooth by (rewrite Eo'; now symmetry).
    replace (aget (o_alpha_y o') d) with alpha by (rewrite Eo'; now symmetry).
    replace (aget (o_beta_y o') d) with beta by (rewrite Eo'; now symmetry).
    assert (EP : ft_phase (o_forcing_term o') (INR k * h) = exp (ln (1/100) * (INR k * h / tau))).
    { destruct (reachable_ft n o Hr) as (j & g & wg & Eg' & Eog).
      pose proof (forcing_term_init_n _ _ _ _ _ _ _ _ Eg') as (Ng & Gg & Sg & _ & Zg & _).
      replace (ft_phase (o_forcing_term o') (INR k * h)) with (ft_phase (o_forcing_term o) (INR k * h))
        by (rewrite Eo'; reflexivity).
      unfold ft_phase. rewrite Hg. rewrite Eog. cbn [set_ft_weights ft_alpha_z ft_start_t].
      rewrite Sg, Zg. now apply phase_from_zero. }
    unfold ft_call. rewrite EP. destruct smooth; field; lra. }
  assert (Est : stiff b d = alpha * beta / tau ^ 2 /\ damp b d = alpha / tau /\ a_goal_y b d = y tau).
  { unfold stiff, damp, b. cbn [open_loop_step_args a_alpha_y a_beta_y a_goal_t a_start_t a_goal_y].
    rewrite Ex', Eg, Rminus_0_r.
    replace (aget (o_alpha_y o') d) with alpha by (rewrite Eo'; now symmetry).
    replace (aget (o_beta_y o') d) with beta by (rewrite Eo'; now symmetry). auto. }
  destruct Est as (Ep & Eq & Egy).
  assert (RE : forall k, (k <= N)%nat -> Rabs (fst (s k) d - y (INR k * h)) <= C * r).
  { apply (EM N (fun k => fst (s k) d) (fun k => snd (s k) d) e r ltac:(lia)); auto.
    - rewrite Z0. cbn [fst]. auto.
    - rewrite Z0. cbn [snd]. now rewrite V0.
    - intros k Hk. destruct (Zs k) as (l & Hl & Es).
      assert (Ek : 0 + INR (S k) * h - (0 + INR k * h) = h) by (rewrite S_INR; ring).
      apply tiles_one in Hl.
      3:{ rewrite Ek. unfold b. cbn [open_loop_step_args a_int_dt]. lra. }
      2:{ rewrite S_INR. lra. }
      rewrite Ek, Rplus_0_l in Hl. rewrite Es, Hl. destruct (s k) as [yv vv]. cbn [exec_substeps fold_left].
      pose proof (euler_rhs b (INR (S k) * h) h yv vv d F Hne) as RR. cbv zeta in RR.
      unfold exec_substeps. cbn [fold_left fst snd]. destruct RR as [RV RY'].
      rewrite RV in *. rewrite RY'. rewrite Ep, Eq, Egy. unfold rhs. rewrite HIN. auto. }
  unfold dmp_open_loop in HO. rewrite Edt', Ex' in HO. fold b in HO.
  rewrite (open_loop_run_map _ 0 _ h _ _ s Zr) in HO.
  destruct (arange 0 (tau + h) h) as [|t0 ts0] eqn:Ea; [discriminate|].
  unfold bind in HO. cbn [fst snd] in HO. injection HO as <- <-.
  set (m := length (t0 :: ts0)) in *.
  change (fst (s 0%nat) :: map fst (map s (seq 1 (length ts0)))) with (map fst (map s (seq 0 m))).
  split; [now rewrite !map_length, seq_length|]. intros k Hk HkT.
  assert (Enth : nth k (t0 :: ts0) 0 = INR k * h).
  { rewrite <- Ea. rewrite arange_nth; [ring|]. rewrite <- arange_length, Ea. exact Hk. }
  rewrite Enth in *.
  assert (HkN : (k <= N)%nat).
  { apply INR_le. rewrite <- HNh in HkT. apply Rmult_le_reg_r in HkT; auto. }
  replace (nth k (map fst (map s (seq 0 m))) vzero) with (fst (s k)); [apply RE; auto|].
  rewrite map_map. rewrite nth_indep with (d' := fst (s 0%nat)) by (rewrite map_length, seq_length; auto).
  rewrite (map_nth (fun x => fst (s x))), seq_nth by auto. reflexivity.
Qed.

(** The step response of the critically damped equation. *)
Lemma step_response : let c := 25 / 2 in
  let f := fun t => 1 - (1 + c * t) * exp (- (c * t)) in
  let f' := fun t => c ^ 2 * t * exp (- (c * t)) in
  let f'' := fun t => c ^ 2 * (1 - c * t) * exp (- (c * t)) in
  f 0 = 0 /\ f' 0 = 0 /\ (forall t, is_derive f t (f' t) /\ is_derive f' t (f'' t)
  /\ f'' t = c ^ 2 * (1 - f t) - 2 * c * f' t) /\ 0 < 1 - f 1.
Proof.
  intros c f f' f''. split; [unfold f; rewrite Rmult_0_r, Ropp_0, exp_0; ring|].
  split; [unfold f'; ring|]. split.
  - intros t. split; [|split].
    + unfold f, f'. auto_derive; auto. ring.
    + unfold f', f''. auto_derive; auto. ring.
    + unfold f'', f, f'. ring.
  - unfold f. pose proof (exp_pos (- (c * 1))). unfold c in *. nra.
Qed.

(** A motion that the basis functions represent exactly, with weights that are
    not zero, and for every number of samples an object that learns it. *)
Example C97_satisfiable : exists y v a (w : vec), smooth_motion 1 y v a /\ w 0%nat = 3 /\ w 1%nat = 4
  /\ forall N lam, (2 <= N)%nat -> 0 <= lam ->
     exists o dm, reachable 1 o /\ o_execution_time o = 1 /\ ft_goal_t (o_forcing_term o) = 1
     /\ aget (o_alpha_y o) 0%nat = 25 /\ aget (o_beta_y o) 0%nat = 25/4 /\ o_smooth_scaling o = false
     /\ demonstrates 1 dm /\ recorded 1 N 0 y dm /\ o_dt o = 1 / INR N /\ o_dt o <= o_int_dt o
     /\ (forall t, 0 <= t <= 1 ->
          Rabs (required_force 1 25 (25/4) false y v a t - force_with o 0 w t) <= 0)
     /\ forall junk fn, exists ts ys, dmp_open_loop None None (Some fn) (imitate junk dm lam true o) = Ok (ts, ys).
Proof.
  destruct (ex_new_ok 1 25 (25/4)) as (f & o & E & Ef & Eo).
  assert (Hr : reachable 1 o) by (eapply ex_reachable; eauto).
  pose proof (forcing_term_init_n _ _ _ _ _ _ _ _ Ef) as (Nf & Gf & _).
  set (w := fun i : nat => 3 + INR i).
  set (u := fun t => force_with o 0 w t).
  set (fw := set_ft_weights (fun _ => w) (o_forcing_term o)).
  assert (Hu : forall x z, lipb x z u).
  { intros x z. apply (lipb_forces x z fw 0).
    unfold fw. rewrite Eo. cbn [set_ft_weights ft_n o_forcing_term]. rewrite Nf. lia. }
  destruct (solution_exists (625/4) 25 0 u 0 0) as (y0 & v0 & Y0 & V0 & D0).
  { intros t. apply lipb_continuous. intros. apply Hu. }
  pose proof step_response as SR. cbv zeta in SR.
  set (f1 := fun t => 1 - (1 + 25 / 2 * t) * exp (- (25 / 2 * t))) in *.
  set (f2 := fun t => (25 / 2) ^ 2 * t * exp (- (25 / 2 * t))) in *.
  set (f3 := fun t => (25 / 2) ^ 2 * (1 - 25 / 2 * t) * exp (- (25 / 2 * t))) in *.
  destruct SR as (F0 & F0' & SD & S1).
  set (a0 := fun t => rhs (625/4) 25 0 u t (y0 t) (v0 t)).
  set (g := y0 1 / (1 - f1 1)).
  exists (fun t => y0 t + g * f1 t), (fun t => v0 t + g * f2 t), (fun t => a0 t + g * f3 t), w.
  assert (D : forall t, is_derive (fun t => y0 t + g * f1 t) t (v0 t + g * f2 t)
     /\ is_derive (fun t => v0 t + g * f2 t) t (a0 t + g * f3 t)).
  { intros t. destruct (D0 t) as [D1 D2]. destruct (SD t) as (E1 & E2 & _). split.
    - apply (is_derive_plus y0 (fun t => g * f1 t)); auto. now apply is_derive_scal.
    - apply (is_derive_plus v0 (fun t => g * f2 t)); auto. now apply is_derive_scal. }
  split.
  { split; [rewrite V0; change (0 + g * f2 0 = 0); rewrite F0'; ring|]. split; [intros t _; apply D|].
    destruct (derive_bounded 1 ltac:(lra) y0 v0 ltac:(intros; apply D0)) as (By & HBy & By').
    destruct (derive_bounded 1 ltac:(lra) v0 a0 ltac:(intros; apply D0)) as (Bv & HBv & Bv').
    destruct (Hu 0 1) as (Lu & HLu & Bu & Lu').
    assert (Ba : forall t, 0 <= t <= 1 -> Rabs (a0 t) <= 625/4 * By + 25 * Bv + Lu).
    { intros t Ht. unfold a0, rhs. specialize (By' t Ht). specialize (Bv' t Ht). specialize (Bu t Ht).
      apply Rabs_le. apply Rabs_le_between in By'. apply Rabs_le_between in Bv'. apply Rabs_le_between in Bu. lra. }
    pose proof (derive_lip 1 y0 v0 Bv ltac:(intros; apply D0) Bv') as Ly.
    pose proof (derive_lip 1 v0 a0 _ ltac:(intros; apply D0) Ba) as Lv.
    assert (Hy : lipb 0 1 y0).
    { exists (By + Bv). split; [lra|]. split; [intros t Ht; specialize (By' t Ht); lra|].
      intros s t Hs Ht. specialize (Ly s t Hs Ht). pose proof (Rabs_pos (s - t)). nra. }
    assert (Hv : lipb 0 1 v0).
    { exists (Bv + (625/4 * By + 25 * Bv + Lu)). split; [lra|]. split; [intros t Ht; specialize (Bv' t Ht); lra|].
      intros s t Hs Ht. specialize (Lv s t Hs Ht). pose proof (Rabs_pos (s - t)). nra. }
    assert (HH : lipb 0 1 (fun t => a0 t + g * f3 t)).
    { apply lipb_plus.
      - unfold a0, rhs. apply lipb_plus; [|apply Hu]. apply lipb_minus; [|now apply lipb_scal].
        apply lipb_scal, lipb_minus; [apply lipb_const|auto].
      - apply lipb_scal. unfold f3. apply lipb_mult.
        + apply lipb_scal, lipb_minus; [apply lipb_const|apply lipb_scal, lipb_id].
        + apply lipb_exp. apply (lipb_ext _ _ (fun t => (- (25/2)) * t)); [intros; ring|]. apply lipb_scal, lipb_id. }
    destruct HH as (L & HL & _ & LL). exists L. auto. }
  split; [unfold w; simpl; ring|]. split; [unfold w; simpl; ring|].
  intros N lam HN Hlam. assert (PN : 0 < INR N) by (apply lt_0_INR; lia).
  assert (Ph : 0 < 1 / INR N) by (apply Rdiv_lt_0_compat; lra).
  set (o2 := fst (exec (CSetIntDt (1 / INR N)) (fst (exec (CSetDt (1 / INR N)) o)))).
  assert (Hr2 : reachable 1 o2) by (unfold o2; now do 2 apply reachable_exec).
  set (dm := {| d_n := S N; d_T := fun k => INR k * (1 / INR N); d_rows := S N; d_dims := 1;
     d_Y := fun k _ => y0 (INR k * (1 / INR N)) + g * f1 (INR k * (1 / INR N)) |}).
  assert (Hdem : demonstrates 1 dm).
  { unfold demonstrates, dm. cbn [d_T d_n d_rows d_dims]. split; auto. simpl (INR 0). rewrite Rmult_0_l.
    apply Rmult_lt_0_compat; auto. apply lt_0_INR. lia. }
  exists o2, dm. split; auto.
  assert (E2 : o_execution_time o2 = 1 /\ o_dt o2 = 1 / INR N /\ o_int_dt o2 = 1 / INR N
     /\ aget (o_alpha_y o2) 0%nat = 25 /\ aget (o_beta_y o2) 0%nat = 25/4 /\ o_smooth_scaling o2 = false
     /\ o_forcing_term o2 = o_forcing_term o /\ ft_goal_t (o_forcing_term o2) = 1).
  { unfold o2. rewrite Eo. cbn. repeat split; auto. }
  destruct E2 as (E2 & E3 & E4 & E5 & E6 & E7 & E8 & E9).
  do 6 (split; [assumption|]). split.
  { unfold recorded, dm. cbn. auto. }
  split; [assumption|]. split; [rewrite E3, E4; apply Rle_refl|]. split.
  { intros t Ht.
    replace (force_with o2 0 w t) with (u t) by (unfold u, force_with; now rewrite E8).
    destruct (SD t) as (_ & _ & ES).
    assert (Eg : y0 1 = g * (1 - f1 1)) by (unfold g; field; lra).
    match goal with |- Rabs ?x <= 0 => replace x with 0; [rewrite Rabs_R0; lra|] end.
    unfold required_force, a0, rhs. cbn [andb]. rewrite ES, Eg. field. }
  intros junk fn.
  set (o' := imitate junk dm lam true o2).
  destruct (imitated 1 o2 junk dm lam true Hr2 Hlam Hdem) as (? & ? & _ & _ & _ & _ & w0 & Eo'). fold o' in Eo'.
  assert (X1 : o_execution_time o' = 1) by (rewrite Eo'; exact E2).
  assert (X2 : o_dt o' = 1 / INR N) by (rewrite Eo'; exact E3).
  assert (X3 : o_int_dt o' = 1 / INR N) by (rewrite Eo'; exact E4).
  destruct (C13_runs_exist fn (o_forcing_term o') (o_execution_time o') (aget (p_start_y (o_base o')))
      vzero (aget (p_goal_y (o_base o'))) (aget (o_alpha_y o')) (aget (o_beta_y o')) (o_int_dt o') (o_dt o')
      (o_smooth_scaling o') (o_execution_time o')) as (ts & l & El & _); try (rewrite ?X1, ?X2, ?X3; lra).
  change (open_loop_args (o_forcing_term o') (o_execution_time o') (aget (p_start_y (o_base o')))
      (aget (p_goal_y (o_base o'))) (aget (o_alpha_y o')) (aget (o_beta_y o')) (o_int_dt o')
      (o_smooth_scaling o')) with (open_loop_step_args o' None) in El.
  exists ts, (map fst l). unfold dmp_open_loop. now rewrite El.
Qed.
