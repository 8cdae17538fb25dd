(** C109: a learned Cartesian movement reproduces the demonstrated poses.  Final
    statements. *)
From Coq Require Import Reals ZArith List Arith Lia Lra Psatz FunctionalExtensionality.
From Coquelicot Require Import Coquelicot.
From Verif Require Import M_Prelude M_Canonical M_Forcing M_Dmp M_Base M_DmpObject M_Ridge M_SpringDamper
  M_Quaternion M_Cartesian S_Loops S_Rotation S_Frames S_Turning S_Attributes P_Loops P_Canonical P_Forcing P_DmpStep P_DmpObject
  P_Converge P_DmpAffine P_Quaternion P_Cartesian P_Sphere P_Ode P_Reproduction P_Orient P_Turning P_TurningDemo P_TurningRun
  Properties_Forcing Properties_DmpObject Properties_Goal Properties_Reproduction Properties_Equivariance
  Properties_CartesianObject Properties_Attributes Properties_Orientation Properties_CartesianHistory Properties_Frames
  P_TurningLearn.
Import ListNotations.
Open Scope R_scope.
Set Bullet Behavior "Strict Subproofs".

(** ** Specification *)
(** The orientations of [dm] are the turning motion recorded at [N + 1] equidistant
    times; each of them may be represented by either of its two unit quaternions. *)
Definition recorded_turns (tau : R) (N : nat) (q : R -> quat) (dm : demo) : Prop :=
  d_n dm = S N
  /\ (forall k, d_T dm k = INR k * (tau / INR N))
  /\ forall k, (k <= N)%nat -> unit_quat (attitude (d_Y dm k))
     /\ forall x, rotate (attitude (d_Y dm k)) x = rotate (q (INR k * (tau / INR N))) x.

(** The rotation vector [e t] leads from the orientation at time [t] to the final
    orientation, and its angle is less than 180 degrees by at least [delta]. *)
Definition short_turns (tau delta : R) (q : R -> quat) (e : R -> v3) : Prop :=
  forall t, 0 <= t <= tau -> v3_norm (e t) <= PI - delta /\ turned_by (e t) (q tau) (q t).

(** The gains of the three axes of rotation. *)
Definition turn_gains (g : arr) : v3 := V3 (aget g 3%nat) (aget g 4%nat) (aget g 5%nat).

(** The forcing term of the orientation with the weights [wts]. *)
Definition turn_force_with (o : cart) (wts : nat -> nat -> R) (t : R) : v3 :=
  let f := ft_call (set_ft_weights wts (k_frot o)) t in V3 (f 0%nat) (f 1%nat) (f 2%nat).

(** Sum of the squares of three rows of weights. *)
Definition squared_turn_weights (n : nat) (wts : nat -> nat -> R) : R :=
  rsum 3 (fun d => rsum n (fun i => wts d i ^ 2)).

(** ** Proofs *)
Lemma q_step_once i a h k s : g_coupling_term a = None -> g_precomputed a = None ->
  0 < h -> h <= g_int_dt a -> g_start_t a = 0 -> 0 < g_goal_t a ->
  q_step i a (0 + INR k * h) (0 + INR (S k) * h) s = Ok (q_body i a (INR (S k) * h) h s).
Proof.
  intros _ _ Hh Hi Hs Hg. rewrite !Rplus_0_l.
  assert (Ek : INR (S k) * h - INR k * h = h) by (rewrite S_INR; ring).
  assert (P : 0 < INR (S k) * h) by (apply Rmult_lt_0_compat; auto; apply lt_0_INR; lia).
  destruct (substeps_tiles (INR k * h) (INR (S k) * h) (g_int_dt a) ltac:(lra) ltac:(lra)) as (l & Hl & E).
  apply tiles_one in Hl; [|lra|lra]. rewrite Ek in Hl. subst l.
  unfold q_step. rewrite Hs. destruct i.
  - destruct (Rle_dec (g_goal_t a) 0); [lra|]. destruct (Rle_dec (INR (S k) * h) 0); [lra|]. rewrite E. reflexivity.
  - destruct (Rle_dec (INR (S k) * h) 0); [lra|]. rewrite E. reflexivity.
Qed.

Lemma q_run_once i a h s0 : g_coupling_term a = None -> g_precomputed a = None ->
  0 < h -> h <= g_int_dt a -> g_start_t a = 0 -> 0 < g_goal_t a ->
  exists s, s 0%nat = s0 /\ (forall k, s (S k) = q_body i a (INR (S k) * h) h (s k))
  /\ forall k, run_seq (q_step i a) 0 h s0 k = Ok (s k).
Proof.
  intros C1 C2 Hh Hi Hs Hg.
  set (s := fix s k := match k with O => s0 | S k => q_body i a (INR (S k) * h) h (s k) end).
  exists s. split; [reflexivity|]. split; [reflexivity|].
  induction k as [|k IH]; [reflexivity|]. cbn [run_seq]. rewrite IH. cbn [bind].
  rewrite q_step_once by auto. reflexivity.
Qed.

Lemma open_loop_turns fn i o ts ys : cart_open_loop None None (Some fn) (Some i) o = Ok (ts, ys) ->
  exists ts' l, q_open_loop i (cart_rot_open_args o None) (k_dt o) (k_execution_time o) = Ok (ts', l)
  /\ ts' = ts /\ length l = length ts /\ length ys = length ts
  /\ forall k, (k < length ts)%nat -> exists s, nth_error l k = Some s /\ attitude (aget (nth k ys (zeros 7))) = fst s.
Proof.
  unfold cart_open_loop. intros H.
  destruct (open_loop_run _ _ _ _ _ _) as [[tp lp]|] eqn:Ep; [|discriminate]. cbn [bind] in H.
  destruct (q_open_loop _ _ _ _) as [[tr lr]|] eqn:Er; [|discriminate]. cbn [bind fst snd] in H.
  injection H as <- <-. exists tr, lr. split; [reflexivity|].
  change (run_on_grid (run_step_function fn (cart_pos_open_args o None)) 0 (k_execution_time o) (k_dt o)
    (a_start_y (cart_pos_open_args o None), vzero) = Ok (tp, lp)) in Ep.
  destruct (run_on_grid_seq _ _ _ _ _ _ _ Ep) as [L1 N1].
  unfold q_open_loop in Er. destruct (run_on_grid_seq _ _ _ _ _ _ _ Er) as [L2 N2].
  cbn [cart_rot_open_args g_start_t] in *.
  assert (ET : tr = tp).
  { unfold run_on_grid in Ep, Er. destruct (arange 0 (k_execution_time o + k_dt o) (k_dt o)); [discriminate|].
    destruct (run_steps _ _ _ _) in Ep; [|discriminate]. destruct (run_steps _ _ _ _) in Er; [|discriminate].
    cbn [bind] in Ep, Er. congruence. }
  subst tr. split; [reflexivity|]. split; [exact L2|].
  split; [rewrite map_length, combine_length, L1, L2; lia|]. intros k Hk.
  destruct (N1 k Hk) as (_ & s1 & E1 & _). destruct (N2 k Hk) as (_ & s2 & E2 & _).
  exists s2. split; [exact E2|].
  assert (EN : nth k (map (fun x => pose (fst (fst x)) (fst (snd x))) (combine lp lr)) (zeros 7)
     = pose (fst s1) (fst s2)).
  { apply nth_error_nth. rewrite nth_error_map.
    assert (EC : nth_error (combine lp lr) k = Some (s1, s2)).
    { clear - E1 E2. revert lr k E1 E2. induction lp as [|x lp IH]; intros lr k E1 E2; [destruct k; discriminate|].
      destruct lr as [|y lr]; [destruct k; discriminate|]. destruct k as [|k]; cbn in *; [congruence|]. now apply IH. }
    rewrite EC. reflexivity. }
  rewrite EN. apply quat_eq; reflexivity.
Qed.

(** ** C109 *)
(** The angular velocity of a turning motion means what it should: a direction [x]
    that is fixed to the body moves with velocity [w] cross [x]. *)
Theorem C109_angular_velocity : forall q w t x, is_derive_quat q t (quat_rate w (q t)) -> unit_quat (q t) ->
  is_derive_v3 (fun s => rotate (q s) x) t (cross w (rotate (q t) x)).
Proof.
  intros q w t [x1 x2 x3] (D1 & D2 & D3 & D4) U. unfold unit_quat in U.
  assert (G : forall (f1 f2 f3 f4 : R -> R) (d1 d2 d3 d4 : R), is_derive f1 t d1 -> is_derive f2 t d2 ->
     is_derive f3 t d3 -> is_derive f4 t d4 ->
     is_derive_v3 (fun s => rotate (Q4 (f1 s) (f2 s) (f3 s) (f4 s)) (V3 x1 x2 x3)) t
       (V3 (- (4 * (f3 t * d3 + f4 t * d4)) * x1 + 2 * (d2 * f3 t + f2 t * d3 - d1 * f4 t - f1 t * d4) * x2
              + 2 * (d2 * f4 t + f2 t * d4 + d1 * f3 t + f1 t * d3) * x3)
           (2 * (d2 * f3 t + f2 t * d3 + d1 * f4 t + f1 t * d4) * x1 - 4 * (f2 t * d2 + f4 t * d4) * x2
              + 2 * (d3 * f4 t + f3 t * d4 - d1 * f2 t - f1 t * d2) * x3)
           (2 * (d2 * f4 t + f2 t * d4 - d1 * f3 t - f1 t * d3) * x1
              + 2 * (d3 * f4 t + f3 t * d4 + d1 * f2 t + f1 t * d2) * x2 - 4 * (f2 t * d2 + f3 t * d3) * x3))).
  { intros f1 f2 f3 f4 d1 d2 d3 d4 H1 H2 H3 H4. unfold is_derive_v3. cbn [rotate v3x v3y v3z].
    pose proof (is_derive_unique _ _ _ H1) as U1. pose proof (is_derive_unique _ _ _ H2) as U2.
    pose proof (is_derive_unique _ _ _ H3) as U3. pose proof (is_derive_unique _ _ _ H4) as U4.
    assert (E1 : ex_derive f1 t) by (eexists; eauto). assert (E2 : ex_derive f2 t) by (eexists; eauto).
    assert (E3 : ex_derive f3 t) by (eexists; eauto). assert (E4 : ex_derive f4 t) by (eexists; eauto).
    split; [|split]; auto_derive; try (repeat split; auto; fail);
      change (Derive (fun x : R => f1 x) t) with (Derive f1 t); change (Derive (fun x : R => f2 x) t) with (Derive f2 t);
      change (Derive (fun x : R => f3 x) t) with (Derive f3 t); change (Derive (fun x : R => f4 x) t) with (Derive f4 t);
      rewrite U1, U2, U3, U4; ring. }
  specialize (G _ _ _ _ _ _ _ _ D1 D2 D3 D4).
  assert (Ef : (fun s => rotate (Q4 (qw (q s)) (qx (q s)) (qy (q s)) (qz (q s))) (V3 x1 x2 x3))
               = (fun s => rotate (q s) (V3 x1 x2 x3))).
  { apply functional_extensionality. intros s. now destruct (q s). }
  cbv beta in G. rewrite Ef in G. destruct (q t) as [b0 b1 b2 b3]. cbn [qw qx qy qz quat_rate] in *.
  match type of G with is_derive_v3 _ _ ?d => replace (cross w (rotate (Q4 b0 b1 b2 b3) (V3 x1 x2 x3))) with d; [exact G|] end.
  destruct w as [w1 w2 w3]. cbn [rotate cross v3x v3y v3z].
  assert (Z : forall (l r c : R), l - r = (b0 ^ 2 + b1 ^ 2 + b2 ^ 2 + b3 ^ 2 - 1) * c -> l = r)
    by (intros l r c H; rewrite U, Rminus_eq_0, Rmult_0_l in H; lra).
  unfold cross. apply v3_eq; cbn [v3x v3y v3z].
  - apply Z with (w2 * x3 - w3 * x2). field.
  - apply Z with (w3 * x1 - w1 * x3). field.
  - apply Z with (w1 * x2 - w2 * x1). field.
Qed.

(** A turning motion that starts at rest is recorded with [N + 1] equidistant samples
    in the orientations of a demonstration and imitated (whatever the positions do).
    The orientations, integrated by either implementation with the time step of the
    recording, stay close to the motion at all times up to [tau].  The bound on the
    angle has four parts: the time step; [eps], how well the basis functions can
    represent the required forcing term; the regularisation; and the resolution of the
    logarithm of quaternions, by which imitation computes accelerations.  [C] depends
    only on the motion and the gains. *)
Theorem C109_orientations : forall tau al be smooth q w a e delta, 0 < tau -> 0 < delta ->
  turning_motion tau q w a -> short_turns tau delta q e ->
  exists C, 0 <= C /\
  forall o o' N jp jr dm lam allow fn i wts eps ts ys, cart_made o ->
  k_execution_time o = tau -> ft_goal_t (k_frot o) = tau ->
  turn_gains (k_alpha o) = al -> turn_gains (k_beta o) = be -> k_smooth o = smooth ->
  (2 <= N)%nat -> demonstrates 7 dm -> recorded_turns tau N q dm ->
  0 <= lam -> (allow = true \/ w tau = v3_zero) -> k_dt o = tau / INR N -> k_dt o <= k_int_dt o ->
  (forall t, 0 <= t <= tau ->
     v3_norm (v3_sub (required_torque tau al be smooth e w a t) (turn_force_with o wts t)) <= eps) ->
  cart_imitate jp jr ridge_regression dm lam allow o = (o', Ok tt) ->
  cart_open_loop None None (Some fn) (Some i) o' = Ok (ts, ys) ->
  length ys = length ts /\
  forall k, (k < length ts)%nat -> nth k ts 0 <= tau ->
    unit_quat (attitude (aget (nth k ys (zeros 7))))
    /\ angle_between (attitude (aget (nth k ys (zeros 7)))) (q (nth k ts 0))
       <= C * (sqrt (k_dt o) + eps + sqrt (lam * k_dt o * squared_turn_weights (k_n o) wts)
               + / 10 ^ 7 / k_dt o ^ 2).
Proof.
  intros tau al be smooth q w a e delta Htau Hdel (W0 & Hq & L & HL & La) HS. pose proof PI_RGT_0 as HP.
  (* rotation vectors *)
  assert (Hde : delta <= PI).
  { destruct (HS 0 ltac:(lra)) as [H0 _]. pose proof (v3_norm_pos (e 0)). lra. }
  set (c := cos ((PI - delta) / 2)). assert (Hc : 0 < c) by (apply cos_gt_0; lra).
  assert (He : forall t, 0 <= t <= tau -> v3_norm (e t) <= PI /\ c <= cos (v3_norm (e t) / 2)
     /\ same_orientation (cy_exp (e t)) (hamilton (q tau) (cy_conj (q t)))).
  { intros t Ht. destruct (HS t Ht) as [H1 H2]. pose proof (v3_norm_pos (e t)). split; [lra|]. split.
    - apply cos_decr_1; lra.
    - apply turned_exp; auto; [apply (Hq tau); lra|now apply (Hq t)]. }
  (* constants *)
  destruct (axis_samples tau L q w a Htau HL Hq La v3x (v3x al)) as (A1 & h1 & PA1 & Ph1 & F1);
    [reflexivity|reflexivity|intros u; apply entries_le|].
  destruct (axis_samples tau L q w a Htau HL Hq La v3y (v3y al)) as (A2 & h2 & PA2 & Ph2 & F2);
    [reflexivity|reflexivity|intros u; apply entries_le|].
  destruct (axis_samples tau L q w a Htau HL Hq La v3z (v3z al)) as (A3 & h3 & PA3 & Ph3 & F3);
    [reflexivity|reflexivity|intros u; apply entries_le|].
  set (ab := n1 (v3_mul al be)). pose proof (n1_pos (v3_mul al be)) as Pab. fold ab in Pab.
  set (A := A1 + A2 + A3 + 8 * ab * tau ^ 2). pose proof (pow2_ge_0 tau) as Pt2.
  assert (Pabt : 0 <= ab * tau ^ 2) by (apply Rmult_le_pos; auto).
  assert (PA : 0 <= A) by (unfold A; lra).
  pose proof (regress_const_pos tau A Htau) as PQ.
  destruct (turning_run tau L q w a e c Htau HL Hq La Hc He al be smooth (regress_const tau A) PQ W0) as (C & PC & HR).
  set (h0 := Rmin h1 (Rmin h2 h3)). assert (Ph0 : 0 < h0) by (repeat apply Rmin_glb_lt; auto).
  pose proof (sqrt_lt_R0 h0 Ph0) as Ps0.
  exists (C + PI / sqrt h0). split; [apply Rplus_le_le_0_compat; auto; apply Rlt_le, Rdiv_lt_0_compat; auto|].
  intros o o' N jp jr dm lam allow fn i wts eps ts ys Hm Ex Hg Eal Ebe Esm HN Hdem (Rn & RT & RY) Hlam Hallow Edt Hint
    Heps EI HO.
  rewrite Edt in *. set (h := tau / INR N) in *.
  assert (HNpos : 0 < INR N) by (apply lt_0_INR; lia).
  assert (Hh : 0 < h) by (unfold h; now apply Rdiv_lt_0_compat).
  assert (HNh : INR N * h = tau) by (unfold h; field; lra).
  assert (HN1 : 1 <= INR N) by (apply (le_INR 1); lia).
  assert (Hht : h <= tau) by nra.
  assert (Heps0 : 0 <= eps) by (eapply Rle_trans; [apply v3_norm_pos|apply (Heps 0); lra]).
  assert (TR : forall k, (k <= N)%nat -> 0 <= INR k * h <= tau).
  { intros k Hk. split; [apply Rmult_le_pos; [apply pos_INR|lra]|].
    rewrite <- HNh. apply Rmult_le_compat_r; [lra|]. now apply le_INR. }
  set (W := squared_turn_weights (k_n o) wts).
  assert (HWd : forall d, (d < 3)%nat -> 0 <= rsum (k_n o) (fun j => wts d j ^ 2) <= W).
  { intros d Hd. assert (P : forall d, 0 <= rsum (k_n o) (fun j => wts d j ^ 2)) by (intros; apply rsum_nonneg; intros; apply pow2_ge_0).
    pose proof (P 0%nat). pose proof (P 1%nat). pose proof (P 2%nat). unfold W, squared_turn_weights. cbn [rsum].
    destruct d as [|[|[|]]]; [| | |lia]; lra. }
  assert (HW : 0 <= W) by (pose proof (HWd 0%nat ltac:(lia)); lra).
  assert (HlW : 0 <= lam * h * W) by pos_mul.
  set (K := kappa / h ^ 2). assert (PK : 0 < K) by (apply Rdiv_lt_0_compat; [apply kappa_pos|apply pow_lt; auto]).
  set (r := sqrt h + eps + sqrt (lam * h * W) + K).
  pose proof (sqrt_lt_R0 h Hh) as Ps. pose proof (sqrt_pos (lam * h * W)) as Ps2.
  pose proof (sqrt_sqrt h ltac:(lra)) as Es. pose proof (sqrt_sqrt (lam * h * W) HlW) as Es2.
  assert (Hr2 : h + eps ^ 2 + lam * h * W + K ^ 2 <= r ^ 2).
  { unfold r. set (x := sqrt h) in *. set (z := sqrt (lam * h * W)) in *. clearbody x z. nra. }
  (* what was learned *)
  destruct (learned o jp jr dm lam allow Hm Hlam Hdem) as (f & qf & w0 & _ & Eqf & Ef & Ew & Eargs & Ext & Edt').
  unfold learn in *. rewrite EI in *. cbn [fst] in *.
  rewrite Rn in *. replace (S N - 1)%nat with N in * by lia.
  assert (RT0 : d_T dm 0%nat = 0) by (rewrite RT; simpl; ring).
  assert (RTN : d_T dm N = tau) by (rewrite RT; auto).
  set (Y := fun t => attitude (d_Y dm t)) in *.
  assert (SY : forall k, (k <= N)%nat -> same_orientation (Y k) (q (INR k * h))).
  { intros k Hk. destruct (RY k Hk) as [U1 U2]. apply same_rotation; auto. apply Hq, TR; auto. }
  assert (UY : forall k, (k <= N)%nat -> unit_quat (Y k)) by (intros k Hk; apply RY; auto).
  change (v3_of (slice 3 3 (aget (k_alpha o)))) with (turn_gains (k_alpha o)) in *.
  change (v3_of (slice 3 3 (aget (k_beta o)))) with (turn_gains (k_beta o)) in *.
  rewrite Eal, Ebe, Esm in *.
  (* the movement *)
  destruct (open_loop_turns fn i o' ts ys HO) as (ts' & l & EQ & -> & HL1 & HL2 & Hnth).
  split; [exact HL2|]. rewrite Ext, Edt', Edt, Ex in EQ. unfold q_open_loop in EQ. rewrite Eargs in EQ.
  cbn [g_start_t g_start_y] in EQ.
  set (args := {| g_goal_y := _ |}) in EQ.
  destruct (q_run_once i args h (Y 0%nat, v3_zero)) as (s & S0 & SS & SR); auto; [cbn; lra|].
  destruct (run_on_grid_seq _ _ _ _ _ _ _ EQ) as [_ Hseq].
  intros k Hk HkT. destruct (Hnth k Hk) as (sk & En & Ea). destruct (Hseq k Hk) as (Et & sk' & En' & Er).
  rewrite En in En'. injection En' as <-. rewrite SR in Er. injection Er as <-. rewrite Ea.
  rewrite (nth_error_nth _ _ _ Et) in *. rewrite Rplus_0_l in *.
  assert (HkN : (k <= N)%nat).
  { apply INR_le. rewrite <- HNh in HkT. apply Rmult_le_reg_r in HkT; auto. }
  assert (US : forall k, unit_quat (fst (s k))).
  { induction k0 as [|j IH]; [rewrite S0; apply UY; lia|]. rewrite SS.
    destruct (s j) as [yj vj]. cbn [q_body]. destruct (q_coupling i args yj vj). cbn [fst] in *.
    rewrite i_mul_unit by auto using i_exp_unit. apply hamilton_unit; auto using i_exp_unit. }
  split; [apply US|]. rewrite angle_between_err.
  replace (/ 10 ^ 7 / h ^ 2) with K by reflexivity. fold r.
  assert (Pr : 0 < r) by (unfold r; lra).
  assert (PD : 0 <= PI / sqrt h0) by (apply Rlt_le, Rdiv_lt_0_compat; auto).
  destruct (Rle_dec h h0) as [Hh0|Hh0].
  2:{ (* long time steps *)
      assert (U2 : unit_quat (q (INR k * h))) by (apply Hq, TR; auto).
      destruct (err_bound (fst (s k)) (q (INR k * h)) (US k) U2) as [_ B].
      assert (sqrt h0 <= sqrt h) by (apply sqrt_le_1; lra).
      assert (PI <= PI / sqrt h0 * r).
      { replace PI with (PI / sqrt h0 * sqrt h0) at 1 by (field; lra). apply Rmult_le_compat_l; auto. unfold r. lra. }
      assert (0 <= C * r) by (apply Rmult_le_pos; lra). lra. }
  assert (0 <= PI / sqrt h0 * r) by (apply Rmult_le_pos; lra).
  assert (err (fst (s k)) (q (INR k * h)) <= C * r); [|lra].
  (* the learned forces *)
  destruct (cart_made_both o Hm) as (gt & _ & (j0 & f0 & w1 & Ef0 & Ek0)).
  assert (Egt : gt = tau).
  { rewrite <- Hg, Ek0. apply forcing_term_init_n in Ef0. cbn. symmetry. apply Ef0. }
  subst gt. rewrite RTN, RT0 in Ef.
  pose proof (forcing_term_init_n _ _ _ _ _ _ _ _ Ef) as (Nf & Gf & Sf & _ & Zf & _).
  pose proof (forcing_term_init_n _ _ _ _ _ _ _ _ Ef0) as (Ng & Gg & Sg & _ & Zg & _).
  set (X := fun i t => design_matrix f (d_T dm) N i t) in *. set (nw := k_n o) in *.
  assert (HX : forall (ww : nat -> nat -> R) j d,
     ft_call (set_ft_weights ww (k_frot o)) (INR j * h) d = rsum nw (fun i => ww d i * X i j)).
  { intros ww j d. unfold ft_call, ft_forces, ft_phase. rewrite Ek0.
    cbn [set_ft_weights ft_n ft_weights ft_centers ft_widths ft_alpha_z ft_goal_t ft_start_t].
    rewrite Ng, Gg, Sg, Zg. rewrite <- rsum_scal. apply rsum_ext. intros i' Hi.
    unfold X, design_matrix. rewrite RTN, RT0, RT, Zf, Nf.
    rewrite (activations_ext nw (ft_centers f) (ft_widths f) (ft_centers f0) (ft_widths f0)); auto.
    - ring.
    - intros i2 Hi'. apply (C02_fully_initialised _ _ _ _ _ _ _ _ _ _ _ Ef0 Ef i2 Hi'). }
  assert (PH : forall j, ft_phase (set_ft_weights w0 (k_frot o)) (INR j * h) = exp (ln (1/100) * (INR j * h / tau))).
  { intros j. unfold ft_phase. rewrite Ek0. cbn [set_ft_weights ft_alpha_z ft_goal_t ft_start_t].
    rewrite Gg, Sg, Zg. now apply phase_from_zero. }
  set (req := fun j : nat => required_torque tau al be smooth e w a (INR j * h)).
  set (frc := fun j : nat => v3_of (ft_call (set_ft_weights w0 (k_frot o)) (INR j * h))).
  set (ep := fun j => v3_sub (frc j) (req j)).
  (* errors of the recorded forces *)
  pose proof (forces_entry N (d_T dm) Y al be _ allow smooth qf ltac:(lia) Eqf) as FE. cbv zeta in FE.
  rewrite RTN, RT0, Rminus_0_r in FE.
  set (Wv := demo_w N (d_T dm) Y allow) in *.
  set (G := fun (cc : v3 -> R) (j : nat) =>
     (tau ^ 2 * (demo_a N (d_T dm) (fun k => cc (Wv k)) j - cc (a (INR j * h)))
      + cc al * tau * (cc (Wv j) - cc (w (INR j * h))))
     + (- (cc al * cc be) * (cc (q_error Python (Y N) (Y j)) - cc (e (INR j * h)))
        + (if smooth then exp (ln (1/100) * (INR j * h / tau)) else 0) * (cc al * cc be)
          * (cc (q_error Python (Y N) (Y 0%nat)) - cc (e 0)))).
  assert (EQX : forall j, vec_of_v3 (qf_F qf j) 0%nat = v3x (req j) + G v3x j
     /\ vec_of_v3 (qf_F qf j) 1%nat = v3y (req j) + G v3y j /\ vec_of_v3 (qf_F qf j) 2%nat = v3z (req j) + G v3z j).
  { intros j. rewrite FE. unfold req, required_torque, G. rewrite RT. fold h. rewrite phase_from_zero by auto.
    destruct smooth; cbn; repeat split; ring. }
  assert (ST : same_orientation (Y N) (q tau)) by (rewrite <- HNh; apply SY; lia).
  assert (LE : forall j, (j <= N)%nat -> v3_norm (v3_sub (q_error Python (Y N) (Y j)) (e (INR j * h))) <= 4 * kappa).
  { intros j Hj. pose proof (log_error tau q w a e c Htau Hq Hc He Python (Y N) (Y j) (INR j * h) (TR j Hj) (UY j Hj) ST) as B.
    assert (E0 : err (Y j) (q (INR j * h)) = 0).
    { assert (U : unit_quat (q (INR j * h))) by (apply Hq, TR; auto).
      transitivity (err (q (INR j * h)) (q (INR j * h))); [|now apply err_same]. unfold err.
      apply rot_angle_signs; auto. apply SY; auto. }
    rewrite E0, Rmult_0_r in B. lra. }
  assert (LE0 : v3_norm (v3_sub (q_error Python (Y N) (Y 0%nat)) (e 0)) <= 4 * kappa).
  { pose proof (LE 0%nat ltac:(lia)) as B. simpl INR in B. now rewrite Rmult_0_l in B. }
  assert (Ph2' : 0 < h ^ 2) by (apply pow_lt; auto).
  assert (EKh : kappa <= K * tau ^ 2).
  { replace kappa with (K * h ^ 2) by (unfold K; field; lra). apply Rmult_le_compat_l; [lra|]. apply pow_incr; lra. }
  assert (GB : forall (cc : v3 -> R) Ac, (forall u v, cc (v3_sub u v) = cc u - cc v) -> (forall u, Rabs (cc u) <= v3_norm u) ->
     Rabs (cc al * cc be) <= ab -> 0 <= Ac -> Ac + 8 * ab * tau ^ 2 <= A ->
     ((forall j, (j <= N)%nat ->
        Rabs (tau ^ 2 * (demo_a N (d_T dm) (fun k => cc (Wv k)) j - cc (a (INR j * h)))
              + cc al * tau * (cc (Wv j) - cc (w (INR j * h)))) <= Ac + Ac * h + Ac * K)
      /\ forall j, (2 <= j)%nat -> (j + 2 <= N)%nat ->
        Rabs (tau ^ 2 * (demo_a N (d_T dm) (fun k => cc (Wv k)) j - cc (a (INR j * h)))
              + cc al * tau * (cc (Wv j) - cc (w (INR j * h)))) <= Ac * h + Ac * K) ->
     (forall j, (j <= N)%nat -> Rabs (G cc j) <= A + A * h + A * K)
     /\ forall j, (2 <= j)%nat -> (j + 2 <= N)%nat -> Rabs (G cc j) <= A * h + A * K).
  { intros cc Ac Cs Cn Hab HAc HA [B1 B2].
    assert (B3 : forall j, (j <= N)%nat ->
       Rabs (- (cc al * cc be) * (cc (q_error Python (Y N) (Y j)) - cc (e (INR j * h)))
        + (if smooth then exp (ln (1/100) * (INR j * h / tau)) else 0) * (cc al * cc be)
          * (cc (q_error Python (Y N) (Y 0%nat)) - cc (e 0))) <= 8 * ab * tau ^ 2 * K).
    { intros j Hj. eapply Rle_trans; [apply Rabs_triang|].
      assert (R1 : Rabs (cc (q_error Python (Y N) (Y j)) - cc (e (INR j * h))) <= 4 * kappa)
        by (rewrite <- Cs; eapply Rle_trans; [apply Cn|]; auto).
      assert (R2 : Rabs (cc (q_error Python (Y N) (Y 0%nat)) - cc (e 0)) <= 4 * kappa)
        by (rewrite <- Cs; eapply Rle_trans; [apply Cn|]; auto).
      set (z := if smooth then exp (ln (1/100) * (INR j * h / tau)) else 0).
      assert (Z1 : Rabs z <= 1).
      { unfold z. destruct smooth; [|rewrite Rabs_R0; lra]. rewrite Rabs_pos_eq by apply Rlt_le, exp_pos.
        apply Rle_trans with (exp 0); [|rewrite exp_0; lra].
        assert (XX : ln (1/100) * (INR j * h / tau) <= 0).
        { assert (ln (1/100) < 0) by (rewrite <- ln_1; apply ln_increasing; lra). pose proof (TR j Hj).
          assert (0 <= INR j * h / tau) by (apply Rmult_le_pos; [lra|apply Rlt_le, Rinv_0_lt_compat; auto]). nra. }
        destruct XX as [XX| ->]; [apply Rlt_le, exp_increasing; auto|apply Rle_refl]. }
      rewrite !Rabs_mult. rewrite Rabs_Ropp. rewrite !Rabs_mult in *. pose proof kappa_pos as Pk.
      set (m := Rabs (cc al) * Rabs (cc be)) in *. assert (Pm : 0 <= m) by (unfold m; apply Rmult_le_pos; apply Rabs_pos).
      assert (R3 : m * Rabs (cc (q_error Python (Y N) (Y j)) - cc (e (INR j * h))) <= ab * (4 * kappa))
        by (apply Rmult_le_compat; auto using Rabs_pos).
      assert (R4 : Rabs z * m <= 1 * ab) by (apply Rmult_le_compat; auto using Rabs_pos).
      assert (R5 : Rabs z * m * Rabs (cc (q_error Python (Y N) (Y 0%nat)) - cc (e 0)) <= 1 * ab * (4 * kappa))
        by (apply Rmult_le_compat; auto using Rabs_pos; apply Rmult_le_pos; auto using Rabs_pos).
      assert (ab * kappa <= ab * (K * tau ^ 2)) by (apply Rmult_le_compat_l; auto). lra. }
    assert (Q1 : 0 <= (A - Ac) * h) by (apply Rmult_le_pos; lra).
    assert (Q2 : (Ac + 8 * ab * tau ^ 2) * K <= A * K) by (apply Rmult_le_compat_r; lra).
    split.
    - intros j Hj. unfold G. eapply Rle_trans; [apply Rabs_triang|]. pose proof (B1 j Hj). pose proof (B3 j Hj). lra.
    - intros j Hj1 Hj2. unfold G. eapply Rle_trans; [apply Rabs_triang|]. pose proof (B2 j Hj1 Hj2). pose proof (B3 j ltac:(lia)). lra. }
  assert (RTh : forall j, d_T dm j = INR j * h) by exact RT.
  assert (Hh1 : h <= h1) by (eapply Rle_trans; [exact Hh0|apply Rmin_l]).
  assert (Hh2 : h <= h2) by (eapply Rle_trans; [exact Hh0|]; eapply Rle_trans; [apply Rmin_r|apply Rmin_l]).
  assert (Hh3 : h <= h3) by (eapply Rle_trans; [exact Hh0|]; eapply Rle_trans; [apply Rmin_r|apply Rmin_r]).
  assert (Eab : Rabs (v3x al * v3x be) <= ab /\ Rabs (v3y al * v3y be) <= ab /\ Rabs (v3z al * v3z be) <= ab).
  { unfold ab, n1. cbn. pose proof (Rabs_pos (v3x al * v3x be)). pose proof (Rabs_pos (v3y al * v3y be)).
    pose proof (Rabs_pos (v3z al * v3z be)). lra. }
  destruct Eab as (Ea1 & Ea2 & Ea3).
  destruct (GB v3x A1) as [G1 G1']; auto; [intros; apply entries_le|unfold A; lra|apply (F1 N (d_T dm) Y allow); auto|].
  destruct (GB v3y A2) as [G2 G2']; auto; [intros; apply entries_le|unfold A; lra|apply (F2 N (d_T dm) Y allow); auto|].
  destruct (GB v3z A3) as [G3 G3']; auto; [intros; apply entries_le|unfold A; lra|apply (F3 N (d_T dm) Y allow); auto|].
  assert (HE : forall d (cc : v3 -> R), (d < 3)%nat -> (forall u v, cc (v3_sub u v) = cc u - cc v) ->
     (forall u, Rabs (cc u) <= v3_norm u) ->
     (forall f, cc (v3_of f) = f d) -> (forall j, (j <= N)%nat -> vec_of_v3 (qf_F qf j) d = cc (req j) + G cc j) ->
     (forall j, (j <= N)%nat -> Rabs (G cc j) <= A + A * h + A * K) ->
     (forall j, (2 <= j)%nat -> (j + 2 <= N)%nat -> Rabs (G cc j) <= A * h + A * K) ->
     rsum (S N) (fun j => h * cc (ep j) ^ 2) <= regress_const tau A * r ^ 2).
  { intros d cc Hd Cs Cn Cv EGd GA GI.
    assert (RM : rsum (S N) (fun j => h * (rsum nw (fun i => ridge_regression nw (S N) X (fun t => vec_of_v3 (qf_F qf t)) lam d i * X i j)
                                  - cc (req j)) ^ 2) <= regress_const tau A * r ^ 2).
    { apply (regress_mean tau A K h eps r nw N X (fun t => vec_of_v3 (qf_F qf t)) lam d (wts d) (fun j => cc (req j)) (G cc)); auto; try lra.
      - intros j Hj. specialize (Heps (INR j * h) (TR j Hj)). eapply Rle_trans; [|exact Heps].
        eapply Rle_trans; [|apply Cn]. rewrite Cs. unfold turn_force_with. cbv zeta.
        change (V3 (ft_call (set_ft_weights wts (k_frot o)) (INR j * h) 0%nat) _ _)
          with (v3_of (ft_call (set_ft_weights wts (k_frot o)) (INR j * h))).
        rewrite Cv, HX. apply Rle_refl.
      - destruct (HWd d Hd) as [P1 P2]. assert (0 <= lam * h) by pos_mul.
        assert (lam * h * rsum nw (fun j => wts d j ^ 2) <= lam * h * W) by (apply Rmult_le_compat_l; auto). lra. }
    rewrite (rsum_ext (S N) (fun j => h * cc (ep j) ^ 2) (fun j => h * (rsum nw (fun i => ridge_regression nw (S N) X (fun t => vec_of_v3 (qf_F qf t)) lam d i * X i j)
                                  - cc (req j)) ^ 2)); [exact RM|].
    intros j _. unfold ep, frc. rewrite Cs, Cv, HX, Ew. reflexivity. }
  (* the recursion *)
  apply (HR i N (fun j => fst (s j)) (fun j => snd (s j)) ep (Y N) r); auto; try lia.
  - rewrite S0. cbn [fst]. pose proof (SY 0%nat ltac:(lia)) as B. simpl INR in B. now rewrite Rmult_0_l in B.
  - now rewrite S0.
  - intros j Hj. rewrite SS, S0. destruct (s j) as [yj vj]. cbn [fst snd]. fold h.
    change (q_body i args (INR (S j) * h) h (yj, vj)) with
      (let '(cd, cdd) := q_coupling i args yj vj in
       let z := ft_phase (set_ft_weights w0 (k_frot o)) (INR (S j) * h) in
       let f := v3_of (ft_forces (set_ft_weights w0 (k_frot o)) z) in
       let ydd := q_acc i args z f cdd yj vj in
       let yd := v3_add vj (v3_add (v3_scale h ydd) (v3_divs cd (k_execution_time o - 0))) in
       (i_mul i (i_exp i (v3_scale h yd)) yj, yd)).
    assert (ECP : q_coupling i args yj vj = (v3_zero, v3_zero)) by (destruct i; reflexivity).
    rewrite ECP. cbv zeta. cbn [fst snd].
    assert (EV : v3_add vj (v3_add (v3_scale h (q_acc i args (ft_phase (set_ft_weights w0 (k_frot o)) (INR (S j) * h))
        (v3_of (ft_forces (set_ft_weights w0 (k_frot o)) (ft_phase (set_ft_weights w0 (k_frot o)) (INR (S j) * h)))) v3_zero yj vj))
        (v3_divs v3_zero (k_execution_time o - 0)))
      = v3_add vj (v3_scale h (v3_divs (v3_add (v3_mul al
         (v3_sub (v3_sub (v3_mul be (q_error i (Y N) yj)) (v3_scale tau vj))
            (if smooth then v3_mul (v3_scale (exp (ln (1/100) * (INR (S j) * h / tau))) be) (q_error i (Y N) (Y 0%nat)) else v3_zero)))
         (v3_add (required_torque tau al be smooth e w a (INR (S j) * h)) (ep (S j)))) (tau ^ 2)))).
    { rewrite Ex, Rminus_0_r. fold (ft_call (set_ft_weights w0 (k_frot o)) (INR (S j) * h)). fold (frc (S j)).
      rewrite PH. unfold q_acc, args. cbn [g_goal_t g_start_t g_smooth_scaling g_beta_y g_alpha_y g_goal_y g_start_y].
      fold (req (S j)). unfold ep. rewrite Ex, Rminus_0_r.
      change (attitude (d_Y dm N)) with (Y N). change (attitude (d_Y dm 0%nat)) with (Y 0%nat).
      generalize (frc (S j)) (req (S j)) (q_error i (Y N) yj) (q_error i (Y N) (Y 0%nat))
        (exp (ln (1 / 100) * (INR (S j) * h / tau))).
      intros ff rr q1 q2 zz. destruct smooth; apply v3_eq; cbn; field; lra. }
    rewrite EV. split; reflexivity.
  - fold h. pose proof (pow2_ge_0 eps). pose proof (pow2_ge_0 K). lra.
  - fold h. fold K. unfold r. lra.
  - apply (HE 0%nat v3x); auto; [intros; apply entries_le|intros; apply EQX].
  - apply (HE 1%nat v3y); auto; [intros; apply entries_le|intros; apply EQX].
  - apply (HE 2%nat v3z); auto; [intros; apply entries_le|intros; apply EQX].
Qed.

(** A movement of a hand with the positions [y d] and the orientations [q], recorded
    with [N + 1] equidistant samples and imitated, is reproduced in position and
    orientation. *)
Theorem C109_poses : forall tau alp bep al be smooth y v b q w a e delta, 0 < tau -> 0 < delta ->
  (forall d, (d < 3)%nat -> smooth_motion tau (y d) (v d) (b d)) ->
  turning_motion tau q w a -> short_turns tau delta q e ->
  exists C, 0 <= C /\
  forall o o' N jp jr dm lam allow fn i wp wr eps ts ys, cart_made o ->
  k_execution_time o = tau -> ft_goal_t (k_fpos o) = tau ->
  (forall d, (d < 3)%nat -> aget (k_alpha o) d = alp d /\ aget (k_beta o) d = bep d) ->
  turn_gains (k_alpha o) = al -> turn_gains (k_beta o) = be -> k_smooth o = smooth ->
  (2 <= N)%nat -> demonstrates 7 dm ->
  (forall d, (d < 3)%nat -> recorded tau N d (y d) dm) -> recorded_turns tau N q dm ->
  0 <= lam -> (allow = true \/ w tau = v3_zero /\ forall d, (d < 3)%nat -> v d tau = 0) ->
  fn = Euler \/ fn = Euler_cython -> k_dt o = tau / INR N -> k_dt o <= k_int_dt o ->
  (forall t, 0 <= t <= tau ->
     (forall d, (d < 3)%nat ->
        Rabs (required_force tau (alp d) (bep d) smooth (y d) (v d) (b d) t - position_force_with o d (wp d) t) <= eps)
     /\ v3_norm (v3_sub (required_torque tau al be smooth e w a t) (turn_force_with o wr t)) <= eps) ->
  cart_imitate jp jr ridge_regression dm lam allow o = (o', Ok tt) ->
  cart_open_loop None None (Some fn) (Some i) o' = Ok (ts, ys) ->
  length ys = length ts /\
  forall k, (k < length ts)%nat -> nth k ts 0 <= tau ->
    let bound := C * (sqrt (k_dt o) + eps
        + sqrt (lam * k_dt o * (squared_turn_weights (k_n o) wp + squared_turn_weights (k_n o) wr))
        + / 10 ^ 7 / k_dt o ^ 2) in
    (forall d, (d < 3)%nat -> Rabs (aget (nth k ys (zeros 7)) d - y d (nth k ts 0)) <= bound)
    /\ unit_quat (attitude (aget (nth k ys (zeros 7))))
    /\ angle_between (attitude (aget (nth k ys (zeros 7)))) (q (nth k ts 0)) <= bound.
Proof.
  intros tau alp bep al be smooth y v b q w a e delta Htau Hdel Hsm Htm Hst.
  destruct (C104_reproduces tau (alp 0%nat) (bep 0%nat) smooth _ _ _ Htau (Hsm 0%nat ltac:(lia))) as (C0 & P0 & H0).
  destruct (C104_reproduces tau (alp 1%nat) (bep 1%nat) smooth _ _ _ Htau (Hsm 1%nat ltac:(lia))) as (C1 & P1 & H1).
  destruct (C104_reproduces tau (alp 2%nat) (bep 2%nat) smooth _ _ _ Htau (Hsm 2%nat ltac:(lia))) as (C2 & P2 & H2).
  destruct (C109_orientations tau al be smooth q w a e delta Htau Hdel Htm Hst) as (C3 & P3 & H3).
  exists (C0 + C1 + C2 + C3). split; [lra|].
  intros o o' N jp jr dm lam allow fn i wp wr eps ts ys Hm Ex Hg Hgains Eal Ebe Esm HN Hdem Hrec Hrt Hlam Hal Hfn Edt Hint
    Heps EI HO.
  assert (Hg' : ft_goal_t (k_frot o) = tau).
  { destruct (cart_made_both o Hm) as (gt & (j1 & f1 & w1 & E1 & K1) & (j2 & f2 & w2 & E2 & K2)).
    rewrite <- Hg, K1, K2. cbn. apply forcing_term_init_n in E1, E2. destruct E1 as (_ & -> & _). apply E2. }
  destruct (H3 o o' N jp jr dm lam allow fn i wr eps ts ys) as [HL H3']; auto; [tauto|intros; now apply Heps|].
  split; auto. intros k Hk Hkt.
  assert (HNp : 0 < INR N) by (apply lt_0_INR; lia).
  assert (Hh : 0 < k_dt o) by (rewrite Edt; now apply Rdiv_lt_0_compat).
  assert (Heps0 : 0 <= eps) by (eapply Rle_trans; [apply v3_norm_pos|apply (Heps 0); lra]).
  assert (PW : forall u, 0 <= squared_turn_weights (k_n o) u).
  { intros u. unfold squared_turn_weights. apply rsum_nonneg. intros. apply rsum_nonneg. intros. apply pow2_ge_0. }
  assert (PWd : forall d, (d < 3)%nat -> 0 <= rsum (k_n o) (fun i => wp d i ^ 2) <= squared_turn_weights (k_n o) wp).
  { assert (P : forall d, 0 <= rsum (k_n o) (fun j => wp d j ^ 2)) by (intros; apply rsum_nonneg; intros; apply pow2_ge_0).
    intros d Hd. pose proof (P 0%nat). pose proof (P 1%nat). pose proof (P 2%nat).
    unfold squared_turn_weights. cbn [rsum]. destruct d as [|[|[|]]]; [| | |lia]; lra. }
  pose proof (PW wp) as Pwp. pose proof (PW wr) as Pwr.
  assert (PK : 0 < / 10 ^ 7 / k_dt o ^ 2).
  { apply Rdiv_lt_0_compat; [apply Rinv_0_lt_compat; apply pow_lt; lra|apply pow_lt; auto]. }
  pose proof (sqrt_lt_R0 _ Hh) as Ps.
  assert (Plh : 0 <= lam * k_dt o) by (apply Rmult_le_pos; lra).
  assert (SQ : forall x, 0 <= x <= squared_turn_weights (k_n o) wp + squared_turn_weights (k_n o) wr ->
     0 <= sqrt (lam * k_dt o * x) <= sqrt (lam * k_dt o * (squared_turn_weights (k_n o) wp + squared_turn_weights (k_n o) wr))).
  { intros x Hx. split; [apply sqrt_pos|]. apply sqrt_le_1; [apply Rmult_le_pos; lra|apply Rmult_le_pos; lra|].
    apply Rmult_le_compat_l; lra. }
  assert (Hpos : forall d C, (d < 3)%nat -> 0 <= C -> C <= C0 + C1 + C2 + C3 ->
     Rabs (aget (nth k ys (zeros 7)) d - y d (nth k ts 0))
     <= C * (sqrt (k_dt o) + eps + sqrt (lam * k_dt o * rsum (k_n o) (fun i => wp d i ^ 2))) ->
     Rabs (aget (nth k ys (zeros 7)) d - y d (nth k ts 0))
     <= (C0 + C1 + C2 + C3) * (sqrt (k_dt o) + eps
        + sqrt (lam * k_dt o * (squared_turn_weights (k_n o) wp + squared_turn_weights (k_n o) wr))
        + / 10 ^ 7 / k_dt o ^ 2)).
  { intros d C Hd HC HCC B. eapply Rle_trans; [exact B|]. pose proof (PWd d Hd).
    destruct (SQ (rsum (k_n o) (fun i => wp d i ^ 2))); [lra|]. apply Rmult_le_compat; lra. }
  cbv zeta. split.
  - intros d Hd. destruct d as [|[|[|]]]; [| | |lia].
    + apply (Hpos 0%nat C0); auto; [lra|].
      apply (H0 o o' 0%nat N jp jr dm lam allow fn i (wp 0%nat) eps ts ys); auto; try (apply Hgains; lia); try (apply Hrec; lia).
      * destruct Hal as [|[_ X]]; [left; auto|right; apply X; lia].
      * intros t Ht. apply Heps; auto.
    + apply (Hpos 1%nat C1); auto; [lra|].
      apply (H1 o o' 1%nat N jp jr dm lam allow fn i (wp 1%nat) eps ts ys); auto; try (apply Hgains; lia); try (apply Hrec; lia).
      * destruct Hal as [|[_ X]]; [left; auto|right; apply X; lia].
      * intros t Ht. apply Heps; auto.
    + apply (Hpos 2%nat C2); auto; [lra|].
      apply (H2 o o' 2%nat N jp jr dm lam allow fn i (wp 2%nat) eps ts ys); auto; try (apply Hgains; lia); try (apply Hrec; lia).
      * destruct Hal as [|[_ X]]; [left; auto|right; apply X; lia].
      * intros t Ht. apply Heps; auto.
  - destruct (H3' k Hk Hkt) as [U B]. split; auto. eapply Rle_trans; [exact B|].
    destruct (SQ (squared_turn_weights (k_n o) wr)); [lra|]. apply Rmult_le_compat; lra.
Qed.

(** An object with the default gains, and a hand that moves along the diagonal of the
    workspace while it turns about the x axis, with any number of samples. *)
Example C109_satisfiable : forall N, (5 <= N)%nat ->
  let y := fun t => t ^ 2 in let v := fun t => 2 * t in let b := fun _ : R => 2 in
  let q := fun t => axis_quat (V3 1 0 0) (t ^ 2) in
  let w := fun t => V3 (2 * t) 0 0 in let a := fun _ : R => V3 2 0 0 in
  let e := fun t => V3 (1 - t ^ 2) 0 0 in
  let al := V3 25 25 25 in let be := V3 (25/4) (25/4) (25/4) in
  smooth_motion 1 y v b /\ turning_motion 1 q w a /\ short_turns 1 2 q e
  /\ exists o o' dm ts ys, cart_made o /\ k_execution_time o = 1 /\ ft_goal_t (k_fpos o) = 1
     /\ (forall d, (d < 3)%nat -> aget (k_alpha o) d = 25 /\ aget (k_beta o) d = 25/4)
     /\ turn_gains (k_alpha o) = al /\ turn_gains (k_beta o) = be /\ k_smooth o = false
     /\ demonstrates 7 dm /\ (forall d, (d < 3)%nat -> recorded 1 N d y dm) /\ recorded_turns 1 N q dm
     /\ k_dt o = 1 / INR N /\ k_dt o <= k_int_dt o
     /\ (forall t, 0 <= t <= 1 ->
          (forall d, (d < 3)%nat ->
            Rabs (required_force 1 25 (25/4) false y v b t - position_force_with o d vzero t) <= 209)
          /\ v3_norm (v3_sub (required_torque 1 al be false e w a t) (turn_force_with o (fun _ => vzero) t)) <= 209)
     /\ cart_imitate (vzero, vzero) (vzero, vzero) ridge_regression dm 0 true o = (o', Ok tt)
     /\ cart_open_loop None None (Some Euler) (Some Python) o' = Ok (ts, ys).
Proof.
  intros N HN y v b q w a e al be.
  assert (PN : 5 <= INR N) by (replace 5 with (INR 5) by (simpl; lra); now apply le_INR).
  assert (Ph : 0 < 1 / INR N) by (apply Rdiv_lt_0_compat; lra).
  assert (Ux : unit_v3 (V3 1 0 0)) by (unfold unit_v3; cbn; ring).
  assert (N1 : forall x, v3_norm (V3 x 0 0) = Rabs x).
  { intros x. unfold v3_norm, v3_dot. cbn. replace (x * x + 0 * 0 + 0 * 0) with (Rsqr x) by (unfold Rsqr; ring).
    apply sqrt_Rsqr_abs. }
  split.
  { split; [unfold v; ring|]. split.
    - intros t _. unfold y, v, b. split; auto_derive; auto; ring.
    - exists 0. split; [lra|]. intros s t _ _. unfold b. rewrite Rminus_diag_eq by auto. rewrite Rabs_R0. lra. }
  split.
  { split; [unfold w, v3_zero; apply v3_eq; cbn; ring|]. split.
    - intros t _. split; [apply axis_quat_unit; auto|]. split.
      + unfold q, w, quat_rate, axis_quat, is_derive_quat. cbn [qw qx qy qz v3x v3y v3z].
        assert (ET : t * (t * 1) * / 2 = t ^ 2 / 2) by (unfold Rdiv; simpl; ring).
        split; [auto_derive; auto; rewrite ET; field|]. split; [auto_derive; auto; rewrite ET; field|].
        split; auto_derive; auto; rewrite ?ET; field.
      + unfold w, a, is_derive_v3. cbn [v3x v3y v3z]. split; [|split]; auto_derive; auto; ring.
    - exists 0. split; [lra|]. intros s t _ _. unfold a.
      replace (v3_sub (V3 2 0 0) (V3 2 0 0)) with (V3 0 0 0) by (apply v3_eq; cbn; ring). rewrite N1, Rabs_R0. lra. }
  split.
  { intros t Ht. assert (0 <= 1 - t ^ 2 <= 1) by nra. unfold e. rewrite N1, Rabs_pos_eq by lra.
    split; [pose proof PI2_3_2 as X; lra|].
    exists (V3 1 0 0). split; auto. rewrite N1, Rabs_pos_eq by lra. split; [apply v3_eq; cbn; ring|].
    intros x. unfold q. rewrite !rotate_axis by auto.
    replace (1 ^ 2) with ((1 - t ^ 2) + t ^ 2) by ring.
    unfold rodrigues. rewrite cos_plus, sin_plus. unfold v3_dot, cross. apply v3_eq; cbn; ring. }
  destruct (init_forcing_term_accepts (vzero, vzero) 2 1) as [f Ef]; [lia|lra|].
  destruct (init_forcing_term_inv _ _ _ _ Ef) as (_ & _ & F).
  pose proof (forcing_term_init_n _ _ _ _ _ _ _ _ F) as (Fn & Fg & Fs & Fo & Fa & _).
  set (o := {| k_base := ptp_init 7 6; k_execution_time := 1; k_dt := 1 / INR N; k_n := 2;
        k_int_dt := 1 / INR N; k_smooth := false; k_fpos := f; k_frot := f;
        k_alpha := {| alen := 6; aget := fun _ => 25 |}; k_beta := {| alen := 6; aget := fun _ => 25/4 |} |}).
  set (dm := {| d_n := S N; d_T := fun k => INR k * (1 / INR N); d_rows := S N; d_dims := 7;
     d_Y := fun k => aget (pose (fun _ => y (INR k * (1 / INR N))) (q (INR k * (1 / INR N)))) |}).
  assert (HT : d_T dm 0%nat < d_T dm (S N - 1)%nat).
  { cbn [dm d_T]. replace (S N - 1)%nat with N by lia. simpl (INR 0). rewrite Rmult_0_l.
    apply Rmult_lt_0_compat; lra. }
  assert (Hm : cart_made o).
  { exists (vzero, vzero), (vzero, vzero), 1, (1/100), 2%nat, (1/1000), false,
      {| shape := []; data := fun _ => 25 |}, {| shape := []; data := fun _ => 25/4 |}.
    eexists. exists [KSetDt (1 / INR N); KSetIntDt (1 / INR N)]. split.
    - unfold cart_new. rewrite Ef. cbn [bind]. unfold ensure_1d_array. cbn -[Nat.eqb]. reflexivity.
    - reflexivity. }
  assert (Hd : demonstrates 7 dm) by (split; [exact HT|split; reflexivity]).
  destruct (learned o (vzero, vzero) (vzero, vzero) dm 0 true Hm (Rle_refl 0) Hd)
    as (f1 & qf & w1 & L1 & _ & _ & _ & Eq & Ex1 & Edt1).
  apply (f_equal g_int_dt) in Eq. cbn in Eq.
  destruct (C69_runs_exist (learn (vzero, vzero) (vzero, vzero) dm 0 true o) None Euler Python None) as (ts & ys & EO);
    rewrite ?Ex1, ?Edt1, ?Eq; cbn [o k_execution_time k_dt k_int_dt]; try lra.
  exists o, (learn (vzero, vzero) (vzero, vzero) dm 0 true o), dm, ts, ys.
  split; [exact Hm|]. split; [reflexivity|]. split; [exact Fg|]. split; [intros; split; reflexivity|].
  do 3 (split; [reflexivity|]). split; [exact Hd|]. split.
  { intros d Hd3. unfold recorded, dm. cbn [d_n d_T d_Y]. repeat split; auto. intros k Hk.
    destruct d as [|[|[|]]]; [reflexivity|reflexivity|reflexivity|lia]. }
  split.
  { unfold recorded_turns, dm. cbn [d_n d_T d_Y]. repeat split; auto.
    - change (unit_quat (q (INR k * (1 / INR N)))). apply axis_quat_unit; auto. }
  split; [reflexivity|]. split; [apply Rle_refl|]. split.
  { intros t Ht. split.
    - intros d _. unfold required_force, position_force_with, ft_call, ft_forces, y, v, b.
      cbn [set_ft_weights ft_weights]. rewrite (rsum_ext _ _ (fun _ => 0)) by (intros; unfold vzero; ring).
      rewrite rsum_const. apply Rabs_le. nra.
    - replace (turn_force_with o (fun _ => vzero) t) with v3_zero.
      + unfold required_torque, e, w, a, al, be.
        match goal with |- v3_norm ?x <= _ => replace x with (V3 (2 - 25 * (25 / 4 * (1 - t ^ 2) - 2 * t)) 0 0)
          by (unfold v3_zero; apply v3_eq; cbn; ring) end.
        rewrite N1. apply Rabs_le. nra.
      + unfold turn_force_with, ft_call, ft_forces. cbn [set_ft_weights ft_weights].
        rewrite (rsum_ext _ _ (fun _ => 0)) by (intros; unfold vzero; ring). rewrite rsum_const.
        apply v3_eq; cbn; ring. }
  split; [|exact EO].
  unfold learns in L1. unfold learn. destruct (cart_imitate _ _ _ _ _ _ _) as [x [[]|]]; cbn in *; congruence.
Qed.
