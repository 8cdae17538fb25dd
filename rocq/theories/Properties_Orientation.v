(** C93: orientations reach the goal orientation from every orientation and
    angular velocity.  Final statements. *)
From Coq Require Import Reals ZArith List Arith Lia Lra Psatz FunctionalExtensionality.
From Verif Require Import M_Prelude M_Canonical M_Forcing M_Dmp M_Base M_DmpObject M_SpringDamper
  M_Quaternion M_Cartesian M_Dual S_Loops S_Rotation P_Loops P_Canonical P_Forcing P_DmpStep P_DmpScale
  P_Converge P_Quaternion P_Cartesian P_DmpObject P_Dual P_DualObject P_Sphere P_Orient
  Properties_Forcing Properties_Dmp Properties_DmpObject Properties_SpringDamper Properties_Cartesian
  Properties_CartesianObject Properties_DualObject Properties_DualArm Properties_DualRuns
  Properties_DualExamples Properties_Goal.
Import ListNotations.
Open Scope R_scope.
Set Bullet Behavior "Strict Subproofs".

(** ** Specification *)
(** The angle between two orientations, from 0 to pi. *)
Definition angle_between (p q : quat) : R :=
  2 * acos (Rabs (qw p * qw q + qx p * qx q + qy p * qy q + qz p * qz q)).

(** The remaining error of a rotational spring with the given [stiffness] and
    [damping] towards [goal].  The logarithm treats rotations below
    [log_threshold] as no rotation, so this is all that can be asked for; [v] is the
    angular velocity.  With critical damping, [stiffness = damping ^ 2 / 4], the
    angle is below [1.5 * pi * log_threshold]. *)
Definition settled (i : impl) (damping stiffness : R) (goal q : quat) (v : v3) : Prop :=
  let rest := (1 + 5 * (stiffness / damping ^ 2)) * (PI * log_threshold i) ^ 2 in
  angle_between goal q ^ 2 < rest
  /\ v3x v ^ 2 + v3y v ^ 2 + v3z v ^ 2 < stiffness * rest.

(** ** Proofs *)
Lemma angle_between_err p q : angle_between p q = err p q.
Proof.
  unfold angle_between, err, rot_angle. do 3 f_equal. destruct p, q; cbn; ring.
Qed.

(** What [angle_between] means: the orientation [p] is the orientation [q] turned
    by this angle about some axis. *)
Theorem C93_angle_between : forall p q, unit_quat p -> unit_quat q ->
  0 <= angle_between p q <= PI
  /\ exists u, unit_v3 u /\ forall v, rotate p v = rodrigues u (angle_between p q) (rotate q v).
Proof.
  intros p q Hp Hq. rewrite angle_between_err. split; [now apply err_bound|].
  set (d := hamilton p (cy_conj q)).
  assert (Hd : unit_quat d) by (apply hamilton_unit; auto using cy_conj_unit).
  destruct (shortest_vector Cython d Hd) as (e & He & Hne & _).
  destruct (v3_polar e) as (u & Hu & Ee). exists u. split; [exact Hu|]. intros v.
  change (err p q) with (rot_angle d). rewrite <- Hne.
  rewrite <- rotate_axis, <- cy_exp_axis, <- Ee by auto.
  assert (Ed : rotate (cy_exp e) (rotate q v) = rotate d (rotate q v))
    by (destruct He as [-> | ->]; [reflexivity|apply rotate_neg]).
  rewrite Ed, <- rotate_hamilton by auto. f_equal. unfold d.
  rewrite hamilton_assoc. rewrite (conj_l q Hq). destruct p; apply quat_eq; cbn; ring.
Qed.

Lemma excess_settled i al b p q v : 0 < al -> 0 < b ->
  excess (rest_energy i al b) (energy b p q v) < b * (b / al ^ 2) * (PI * log_threshold i) ^ 2 ->
  settled i al b p q v.
Proof.
  intros Ha Hb H. assert (E : b = al * (b / al)) by (field; lra).
  assert (Hbe : 0 < b / al) by (apply Rmult_lt_0_compat; [lra|apply Rinv_0_lt_compat; lra]).
  destruct (excess_small i p q v al (b / al) Ha Hbe) as [H1 H2].
  { rewrite <- E. replace (b / al / al) with (b / al ^ 2) by (field; lra). exact H. }
  rewrite <- E in H2. replace (b / al / al) with (b / al ^ 2) in * by (field; lra).
  unfold settled. rewrite angle_between_err. split; [exact H1|].
  unfold v3_n2, v3_dot in H2. lra.
Qed.

Lemma rest_bound_pos i al b : 0 < al -> 0 < b -> 0 < b * (b / al ^ 2) * (PI * log_threshold i) ^ 2.
Proof.
  intros. pose proof PI_RGT_0. pose proof (threshold_pos i).
  assert (0 < PI * log_threshold i) by (apply Rmult_lt_0_compat; auto).
  apply Rmult_lt_0_compat; [|apply pow_lt; auto].
  apply Rmult_lt_0_compat; auto. apply Rmult_lt_0_compat; auto. apply Rinv_0_lt_compat, pow_lt; auto.
Qed.

(** ** The step function *)
(** Both implementations, any weights, start, duration, with and without smooth
    scaling, any number of integration steps per call.  The gains are the same for
    the three axes; critical damping is not needed. *)
Theorem C93_orientation_converges : forall i a t0 dt q w al be,
  g_coupling_term a = None -> g_precomputed a = None ->
  g_alpha_y a = V3 al al al -> g_beta_y a = V3 be be be -> 0 < al -> 0 < be ->
  g_start_t a < g_goal_t a -> phase_ok (g_forcing_term a) -> 0 < dt -> 0 < g_int_dt a ->
  al * g_int_dt a <= g_goal_t a - g_start_t a ->
  2 * (be * g_int_dt a) <= g_goal_t a - g_start_t a ->
  unit_quat (g_goal_y a) -> unit_quat (g_start_y a) -> unit_quat q -> g_start_t a <= t0 ->
  exists N, forall k, (N <= k)%nat -> exists q' w',
    run_seq (q_step i a) t0 dt (q, w) k = Ok (q', w')
    /\ settled i al (al * be) (g_goal_y a) q' (v3_scale (g_goal_t a - g_start_t a) w').
Proof.
  intros i a t0 dt q w al be F1 F2 I1 I2 Ha Hb Ht Hph Hdt Hi H1 H2 Hg Hs Hq Ht0.
  assert (Hab : 0 < al * be) by (apply Rmult_lt_0_compat; auto).
  destruct (q_run_converges i a t0 dt (q, w) al be) as (s & _ & Hrun & _ & Hv); auto;
    [split; auto|split; auto|].
  destruct (Hv _ (rest_bound_pos i al (al * be) Ha Hab)) as [N HN].
  exists N. intros k Hk. exists (fst (s k)), (snd (s k)).
  rewrite Hrun. split; [now destruct (s k)|].
  apply excess_settled; auto. specialize (HN k Hk).
  rewrite Rabs_pos_eq in HN by apply excess_pos. exact HN.
Qed.

(** ** CartesianDMP *)
(** The gains are the same for the three axes of rotation and the integration step
    is short enough. *)
Definition turns_stably (o : cart) (al be : R) : Prop :=
  angular (k_alpha o) = V3 al al al /\ angular (k_beta o) = V3 be be be /\ 0 < al /\ 0 < be
  /\ al * k_int_dt o <= k_execution_time o /\ 2 * (be * k_int_dt o) <= k_execution_time o.

Definition positive_times (o : cart) : Prop := 0 < k_execution_time o /\ 0 < k_dt o /\ 0 < k_int_dt o.

Lemma built_phase_ok j n x f : init_forcing_term j n x = Ok f -> phase_ok f /\ ft_n f = n.
Proof.
  intros E. apply init_forcing_term_inv in E. destruct E as (Hn & Hx & E).
  apply forcing_term_init_n in E. destruct E as (E1 & E2 & E3 & _ & E5 & _).
  split; [|exact E1]. unfold phase_ok. rewrite E1, E2, E3, E5. repeat split; try lia; auto.
  pose proof (ln_increasing (1 / 100) 1 ltac:(lra) ltac:(lra)) as Hl. rewrite ln_1 in Hl. lra.
Qed.

Lemma cart_reachable_phase o : cart_reachable o ->
  (phase_ok (k_fpos o) /\ ft_n (k_fpos o) = k_n o) /\ phase_ok (k_frot o) /\ ft_n (k_frot o) = k_n o.
Proof.
  intros H. induction H.
  - unfold cart_new in H.
    destruct (init_forcing_term jp n x) as [fp|] eqn:E1; [|discriminate]. cbn [bind] in H.
    destruct (init_forcing_term jr n x) as [fr|] eqn:E2; [|discriminate]. cbn [bind] in H.
    destruct (ensure_1d_array al 6); [|discriminate]. cbn [bind] in H.
    destruct (ensure_1d_array be 6); [|discriminate]. cbn [bind] in H.
    injection H as <-. cbn. eauto using built_phase_ok.
  - unfold cart_configure. destruct (configure c (k_base o)). exact IHcart_reachable.
  - exact IHcart_reachable.
  - unfold cart_step. destruct (negb _); [exact IHcart_reachable|].
    destruct (negb _); [exact IHcart_reachable|]. cbv zeta.
    destruct (assign_slice _ _); [|exact IHcart_reachable].
    destruct (assign_slice _ _); [|exact IHcart_reachable].
    destruct (run_step_function _ _ _ _ _) as [[? ?]|]; [|exact IHcart_reachable].
    destruct (q_step _ _ _ _ _) as [[? ?]|]; exact IHcart_reachable.
  - unfold cart_imitate. destruct (negb _); [exact IHcart_reachable|].
    destruct (dmp_imitate _ _ _ _ _ _ _ _ _ _ _ _) as [[[w ?] ?]|]; [|exact IHcart_reachable].
    cbv zeta. destruct (dmp_quaternion_imitation _ _ _ _ _ _ _ _ _ _ _ _ _); [|exact IHcart_reachable].
    unfold cart_configure. destruct (configure _ _). exact IHcart_reachable.
  - unfold cart_set_weights. destruct (assign_rows _ _); [|exact IHcart_reachable].
    cbv zeta. destruct (assign_rows _ _); exact IHcart_reachable.
  - unfold cart_set_execution_time. cbv zeta.
    destruct (init_forcing_term jp (k_n _) x) as [fp|] eqn:E1; [|exact IHcart_reachable].
    apply built_phase_ok in E1.
    destruct (init_forcing_term jr (k_n _) x) as [fr|] eqn:E2; cbn.
    + apply built_phase_ok in E2. split; [exact E1|exact E2].
    + split; [exact E1|apply IHcart_reachable].
Qed.

Lemma same_cart_refl o : same_cart o o.
Proof. unfold same_cart; repeat split. Qed.
Lemma same_cart_trans a b c : same_cart a b -> same_cart b c -> same_cart a c.
Proof.
  intros (A1 & A2 & A3 & A4 & A5 & A6 & A7 & A8 & A9 & A10 & A11 & A12 & A13 & A14 & A15)
         (B1 & B2 & B3 & B4 & B5 & B6 & B7 & B8 & B9 & B10 & B11 & B12 & B13 & B14 & B15).
  unfold same_cart. repeat split; congruence.
Qed.
Lemma same_cart_rot o o' c : same_cart o o' -> cart_rot_args o' c = cart_rot_args o c.
Proof.
  intros (A1 & A2 & A3 & A4 & A5 & A6 & A7 & A8 & A9 & A10 & A11 & A12 & A13 & A14 & A15).
  unfold cart_rot_args. congruence.
Qed.

Lemma cart_n_steps_info c fn i : forall n y yd o o' y' yd',
  alen (p_current_y (k_base o)) = 7%nat -> alen (p_current_yd (k_base o)) = 6%nat ->
  alen y = 7%nat -> alen yd = 6%nat ->
  cart_n_steps c fn i n y yd o = (o', Ok (y', yd')) ->
  same_cart o o' /\ p_t (k_base o') = p_t (k_base o) + INR n * k_dt o
  /\ alen (p_current_y (k_base o')) = 7%nat /\ alen (p_current_yd (k_base o')) = 6%nat
  /\ alen y' = 7%nat /\ alen yd' = 6%nat
  /\ run_seq (q_step i (cart_rot_args o c)) (p_t (k_base o)) (k_dt o) (orientation y, angular yd) n
     = Ok (orientation y', angular yd').
Proof.
  induction n as [|n IH]; intros y yd o o' y' yd' H7 H6 Ly Lyd E.
  - cbn in E. injection E as <- <- <-. split; [apply same_cart_refl|]. split; [simpl; ring|]. auto.
  - cbn [cart_n_steps] in E. destruct (cart_step y yd c fn i o) as [o1 [[y1 yd1]|]] eqn:E1; [|discriminate].
    destruct (cart_step_ok _ _ _ _ _ _ _ _ _ E1 H7 H6)
      as (yp & ydp & q & w & Ep & Eq & -> & -> & Hsame & Ht & H7' & H6').
    destruct (IH _ _ _ _ _ _ H7' H6' (eq_refl : alen (pose yp q) = 7%nat) (eq_refl : alen (twist ydp w) = 6%nat) E)
      as (S2 & T2 & A & B & C & D & F).
    assert (Edt : k_dt o1 = k_dt o) by apply Hsame.
    split; [eapply same_cart_trans; eauto|].
    split; [rewrite T2, Ht, Edt, S_INR; ring|]. repeat (split; auto).
    rewrite run_seq_shift. replace (p_t (k_base o) + INR 0 * k_dt o) with (p_t (k_base o)) by (simpl; ring).
    replace (p_t (k_base o) + INR 1 * k_dt o) with (p_t (k_base o) + k_dt o) by (simpl; ring).
    rewrite Eq. cbn [bind]. rewrite orientation_pose, angular_twist in F.
    rewrite (same_cart_rot _ _ _ Hsame), Ht, Edt in F. exact F.
Qed.

Lemma cart_n_steps_app c fn i : forall j k o y yd o1 y1 yd1,
  cart_n_steps c fn i j y yd o = (o1, Ok (y1, yd1)) ->
  cart_n_steps c fn i (j + k) y yd o = cart_n_steps c fn i k y1 yd1 o1.
Proof.
  induction j as [|j IH]; intros k o y yd o1 y1 yd1 E; cbn [cart_n_steps plus] in *.
  - injection E as <- <- <-. reflexivity.
  - destruct (cart_step y yd c fn i o) as [o2 [[y2 yd2]|]]; [|discriminate]. eauto.
Qed.

(** Without assumptions on the history of the object. *)
Lemma cart_settles o fn i y yd al be :
  alen (p_current_y (k_base o)) = 7%nat -> alen (p_current_yd (k_base o)) = 6%nat ->
  phase_ok (k_frot o) -> positive_times o -> turns_stably o al be ->
  unit_quat (orientation (p_start_y (k_base o))) -> unit_quat (orientation (p_goal_y (k_base o))) ->
  unit_quat (orientation y) -> alen y = 7%nat -> alen yd = 6%nat ->
  exists N, forall k, (N <= k)%nat -> exists o' y' yd',
    cart_n_steps None fn i k y yd o = (o', Ok (y', yd'))
    /\ settled i al (al * be) (orientation (p_goal_y (k_base o))) (orientation y')
         (v3_scale (k_execution_time o) (angular yd')).
Proof.
  intros H7 H6 Hph (Hx & Hdt & Hi) (G1 & G2 & Ha & Hb & B1 & B2) Us Ug Uy Ly Lyd.
  destruct (clock_steps (p_t (k_base o)) (k_dt o) Hdt) as [k0 Hk0].
  destruct (C37_runs_exist None fn i (S k0) y yd o) as (o1 & y1 & yd1 & E1); auto; try lra.
  pose proof (C33_cartesian_steps _ _ _ _ _ _ _ _ _ _ H7 H6 Uy Us E1) as Uy1.
  destruct (cart_n_steps_info _ _ _ _ _ _ _ _ _ _ H7 H6 Ly Lyd E1) as (S1 & T1 & A7 & A6 & L7 & L6 & _).
  pose proof S1 as (Q1 & Q2 & Q3 & Q4 & Q5 & Q6 & Q7 & Q8 & Q9 & Q10 & Q11 & Q12 & Q13 & Q14 & Q15).
  destruct (C93_orientation_converges i (cart_rot_args o None) (p_t (k_base o1)) (k_dt o)
    (orientation y1) (angular yd1) al be) as [N HN]; auto; cbn [cart_rot_args g_goal_t g_start_t g_int_dt]; try lra.
  - exists (S k0 + N)%nat. intros k Hk. replace k with (S k0 + (k - S k0))%nat by lia.
    set (j := (k - S k0)%nat) in *.
    rewrite (cart_n_steps_app _ _ _ _ _ _ _ _ _ _ _ E1).
    destruct (C37_runs_exist None fn i j y1 yd1 o1) as (o2 & y2 & yd2 & E2); auto; try congruence; try lra.
    exists o2, y2, yd2. split; [exact E2|].
    destruct (cart_n_steps_info _ _ _ _ _ _ _ _ _ _ A7 A6 L7 L6 E2) as (_ & _ & _ & _ & _ & _ & R).
    rewrite (same_cart_rot _ _ _ S1), Q2 in R.
    destruct (HN j ltac:(unfold j; lia)) as (q' & w' & Hrun & Hset).
    rewrite Hrun in R. injection R as -> ->. cbn in Hset. rewrite Rminus_0_r in Hset. exact Hset.
Qed.

(** Whatever happened to the object before, and whatever orientation and angular
    velocity are passed to the first call, stepping on with the returned states ends
    at the goal orientation, at rest. *)
Theorem C93_cartesian : forall o fn i y yd al be,
  cart_reachable o -> positive_times o -> turns_stably o al be ->
  unit_quat (orientation (p_start_y (k_base o))) -> unit_quat (orientation (p_goal_y (k_base o))) ->
  unit_quat (orientation y) -> alen y = 7%nat -> alen yd = 6%nat ->
  exists N, forall k, (N <= k)%nat -> exists o' y' yd',
    cart_n_steps None fn i k y yd o = (o', Ok (y', yd'))
    /\ settled i al (al * be) (orientation (p_goal_y (k_base o))) (orientation y')
         (v3_scale (k_execution_time o) (angular yd')).
Proof.
  intros o fn i y yd al be Hr Ht Hst Us Ug Uy Ly Lyd.
  destruct (C23_cartesian_shapes o Hr) as (H0 & H0' & H1 & H2 & H3 & H4 & H5 & H6 & H7 & H8 & H9 & H10 & H11).
  apply cart_settles; auto. now apply cart_reachable_phase.
Qed.

(** Dimension [d] of the position is critically damped and the step is short enough
    (see [stable] for DMP). *)
Definition moves_stably (fn : step_function) (o : cart) (d : nat) : Prop :=
  let alpha := aget (k_alpha o) d in
  alpha = 4 * aget (k_beta o) d /\ 0 < alpha
  /\ (uses_rk4 fn -> let x := alpha * k_dt o / (2 * k_execution_time o) in
                     x ^ 3 - 4 * x ^ 2 + 12 * x - 24 < 0)
  /\ (uses_euler fn -> alpha * k_int_dt o <= k_execution_time o).

(** The position goes to the goal position. *)
Theorem C93_cartesian_position : forall o fn i d y yd,
  cart_reachable o -> positive_times o -> (d < 3)%nat -> moves_stably fn o d ->
  alen y = 7%nat -> alen yd = 6%nat ->
  forall eps, 0 < eps -> exists N, forall k, (N <= k)%nat -> exists o' y' yd',
    cart_n_steps None fn i k y yd o = (o', Ok (y', yd'))
    /\ Rabs (aget y' d - aget (p_goal_y (k_base o)) d) < eps /\ Rabs (aget yd' d) < eps.
Proof.
  intros o fn i d y yd Hr (Hx & Hdt & Hi) Hd Hst Ly Lyd eps Heps.
  destruct (C23_cartesian_shapes o Hr) as (H0 & H0' & H1 & H2 & H3 & H4 & H5 & H6 & H7 & H8 & H9 & H10 & H11).
  destruct (position_dmp_part o y yd) as [P1 P2].
  set (D := position_dmp o y yd) in *.
  destruct (cart_reachable_phase o Hr) as [[Hp Hn] _].
  destruct (goal_reached 3 D fn d (first3 y) (first3 yd)) with (eps := eps) as [N HN]; auto.
  { unfold shapes_ok, D. cbn. repeat split; auto. }
  exists N. intros k Hk.
  destruct (C37_runs_exist None fn i k y yd o) as (o' & y' & yd' & E); auto; try lra.
  exists o', y', yd'. split; [exact E|].
  destruct (C37_position_is_dmp k fn i None None o D y yd (first3 y) (first3 yd) o' y' yd')
    as (D' & y3 & yd3 & E3 & S1 & S2); auto; try reflexivity; try (intros j Hj; reflexivity).
  destruct (HN k Hk) as (o2 & y2 & yd2 & E2 & B1 & B2). rewrite E3 in E2. injection E2 as <- <- <-.
  rewrite (S1 d Hd) in B1. rewrite (S2 d Hd) in B2. auto.
Qed.

(** The trajectory of [open_loop]: from some time on, all orientations are the goal
    orientation up to the threshold. *)
Theorem C93_open_loop : forall o fn i al be,
  cart_reachable o -> positive_times o -> turns_stably o al be ->
  unit_quat (orientation (p_start_y (k_base o))) -> unit_quat (orientation (p_goal_y (k_base o))) ->
  exists T, forall run_t ts ys,
    cart_open_loop (Some run_t) None (Some fn) (Some i) o = Ok (ts, ys) ->
    forall k, (k < length ts)%nat -> T <= nth k ts 0 ->
    angle_between (orientation (p_goal_y (k_base o))) (orientation (nth k ys (zeros 7))) ^ 2
      < (1 + 5 * (be / al)) * (PI * log_threshold i) ^ 2.
Proof.
  intros o fn i al be Hr Ht (G1 & G2 & Ha & Hb & B1 & B2) Us Ug.
  destruct (C23_cartesian_shapes o Hr) as (H0 & H0' & H1 & H2 & H3 & H4 & H5 & H6 & H7 & H8 & H9 & H10 & H11).
  pose proof Ht as (Hx & Hdt & Hi).
  destruct (C93_cartesian (cart_reset o) fn i (p_start_y (k_base o)) (zeros 6) al be) as [N HN]; auto.
  { now apply cr_reset. } { repeat split; auto. }
  exists (INR N * k_dt o). intros run_t ts ys E k Hk HT.
  destruct (C69_time_grid o fn i None (Some run_t) ts ys Hdt E) as (L1 & L2 & L3 & _).
  destruct (C69_open_loop_is_repeated_step o fn i None (Some run_t) ts ys Hr Hdt I E k)
    as (o' & y & yd & E1 & _ & Eq & _); [lia|].
  rewrite L3 in HT by auto. apply Rmult_le_reg_r in HT; [|exact Hdt]. apply INR_le in HT.
  destruct (HN k HT) as (o2 & y2 & yd2 & E2 & [Hset _]). rewrite E1 in E2. injection E2 as <- <- <-.
  rewrite Eq. replace (be / al) with (al * be / al ^ 2) by (field; lra). exact Hset.
Qed.

(** ** SpringDamperOrientation *)
Lemma sdq_run_converges g k c int t0 dt s0 : unit_quat g -> 0 < k -> 0 < c -> 0 < int -> 0 < dt ->
  c * int <= 1 -> 2 * (k * int) <= c -> unit_quat (fst s0) ->
  exists s, s 0%nat = s0
    /\ (forall n, run_seq (fun lt t => substeps (substeps_fuel lt t int) lt t int (sdq_body g k c None None))
                    t0 dt s0 n = Ok (s n))
    /\ (forall n, unit_quat (fst (s n)))
    /\ vanishes (fun n => excess (rest_energy Python c k) (energy k g (fst (s n)) (snd (s n)))).
Proof.
  intros Hg Hk Hc Hi Hdt H1 H2 Hs.
  set (cf := fun h => h ^ 3 * c * k / 16).
  assert (Hn : forall h, 0 < h <= int -> h * c <= 1 /\ 2 * (h * k) <= c) by (intros h Hh; split; nra).
  assert (Hcf : forall h, 0 < h <= int -> 0 < cf h <= 1).
  { intros h Hh. destruct (Hn h Hh) as (N1 & N2). unfold cf.
    assert (0 < h * c) by nra.
    assert (h ^ 2 * k <= 1 / 2).
    { replace (h ^ 2 * k) with (h * (h * k)) by ring.
      apply Rle_trans with (h * (c / 2)); [apply Rmult_le_compat_l; lra|lra]. }
    replace (h ^ 3 * c * k / 16) with (h * c * (h ^ 2 * k) / 16) by field.
    assert (0 < h ^ 2 * k) by (apply Rmult_lt_0_compat; [apply pow_lt|]; lra). split; nra. }
  apply (loop_converges _ (sdq_body g k c None None)
    (fun s => excess (rest_energy Python c k) (energy k g (fst s) (snd s)))
    (fun s => unit_quat (fst s)) cf int) with (C := 0) (z := fun _ => 0); auto.
  - intros. apply excess_pos.
  - intros h Hh. apply Rlt_le, Hcf; auto.
  - intros _ t h [q w] _ Hh Hu. cbn [fst] in Hu. destruct (Hn h Hh) as (N1 & N2). cbn [sdq_body fst snd].
    set (w' := v3_add w _).
    assert (Ew : w' = v3_add w (v3_scale h (v3_add (v3_sub (v3_scale k (q_error Python g q)) (v3_scale c w)) v3_zero))).
    { unfold w'. apply v3_eq; cbn; ring. }
    split.
    + change (pr_mul (pr_exp (v3_scale h w')) q) with (i_mul Python (i_exp Python (v3_scale h w')) q).
      rewrite i_mul_unit by (auto; apply i_exp_unit). apply hamilton_unit; auto. apply i_exp_unit.
    + change (pr_mul (pr_exp (v3_scale h w')) q) with (i_mul Python (i_exp Python (v3_scale h w')) q).
      rewrite Ew.
      eapply Rle_trans; [apply (energy_step Python g q w v3_zero c k h 0); auto; try lra|].
      * unfold v3_n2, v3_dot. cbn. lra.
      * right. unfold cf. ring.
  - apply Hcf. split; [apply Rmin_glb_lt; auto|apply Rmin_l].
  - intros eps Heps. exists 0%nat. intros. rewrite Rabs_R0. exact Heps.
Qed.

Definition sdo_shapes (o : spring_damper) : Prop :=
  alen (p_start_y (s_base o)) = 4%nat /\ alen (p_start_yd (s_base o)) = 3%nat
  /\ alen (p_current_y (s_base o)) = 4%nat /\ alen (p_current_yd (s_base o)) = 3%nat.

Lemma sdo_step_intro y yd ct o q w : sdo_shapes o -> alen y = 4%nat -> alen yd = 3%nat ->
  spring_damper_step_quaternion (quat_of (aget (p_goal_y (s_base o)))) (s_k o) (s_c o) ct None
      (s_int_dt o) (p_t (s_base o)) (p_t (s_base o) + s_dt o)
      (quat_of (aget y), v3_of (aget yd)) = Ok (q, w) ->
  exists o', sdo_step y yd ct o
    = (o', Ok ({| alen := 4; aget := vec_of_quat q |}, {| alen := 3; aget := vec_of_v3 w |}))
  /\ sdo_shapes o' /\ p_goal_y (s_base o') = p_goal_y (s_base o) /\ s_k o' = s_k o /\ s_c o' = s_c o
  /\ s_int_dt o' = s_int_dt o /\ s_dt o' = s_dt o /\ p_t (s_base o') = p_t (s_base o) + s_dt o.
Proof.
  intros (S1 & S2 & S3 & S4) Ly Lyd E. unfold sdo_step. cbv zeta.
  set (p := if s_initialized o then _ else _).
  assert (E1 : assign_slice (p_current_y p) y = Ok y).
  { unfold assign_slice. replace (alen (p_current_y p)) with (alen y); [now rewrite Nat.eqb_refl|].
    unfold p. destruct (s_initialized o); simpl; congruence. }
  assert (E2 : assign_slice (p_current_yd p) yd = Ok yd).
  { unfold assign_slice. replace (alen (p_current_yd p)) with (alen yd); [now rewrite Nat.eqb_refl|].
    unfold p. destruct (s_initialized o); simpl; congruence. }
  rewrite E1, E2. cbn [sd_with s_k s_c s_int_dt].
  assert (E3 : p_goal_y p = p_goal_y (s_base o)) by (unfold p; destruct (s_initialized o); reflexivity).
  rewrite E3, E, Ly, Lyd. eexists. split; [reflexivity|].
  unfold sdo_shapes, p. destruct (s_initialized o); cbn; repeat split; auto.
Qed.

Lemma sdo_follow ct : forall n y yd o q w, sdo_shapes o -> alen y = 4%nat -> alen yd = 3%nat ->
  run_seq (spring_damper_step_quaternion (quat_of (aget (p_goal_y (s_base o)))) (s_k o) (s_c o) ct None
      (s_int_dt o)) (p_t (s_base o)) (s_dt o) (quat_of (aget y), v3_of (aget yd)) n = Ok (q, w) ->
  exists o' y' yd', sdo_n_steps ct n y yd o = (o', Ok (y', yd'))
    /\ quat_of (aget y') = q /\ v3_of (aget yd') = w.
Proof.
  induction n as [|n IH]; intros y yd o q w Hs Ly Lyd E.
  - cbn in E. injection E as <- <-. cbn. eauto 6.
  - rewrite run_seq_shift in E.
    replace (p_t (s_base o) + INR 0 * s_dt o) with (p_t (s_base o)) in E by (simpl; ring).
    replace (p_t (s_base o) + INR 1 * s_dt o) with (p_t (s_base o) + s_dt o) in E by (simpl; ring).
    destruct (spring_damper_step_quaternion _ _ _ _ _ _ _ _ _) as [[q1 w1]|] eqn:E1; [|discriminate].
    cbn [bind] in E.
    destruct (sdo_step_intro _ _ _ _ _ _ Hs Ly Lyd E1) as (o1 & Eo & Hs1 & A1 & A2 & A3 & A4 & A5 & A6).
    cbn [sdo_n_steps]. rewrite Eo. apply IH; auto.
    rewrite A1, A2, A3, A4, A5, A6. cbn [aget]. destruct q1, w1. exact E.
Qed.

(** The damping constant of the object; [2 * sqrt(k)] unless it is given. *)
Definition damping_of (o : spring_damper) : R :=
  match s_c o with Some c => c | None => 2 * sqrt (s_k o) end.

Theorem C93_spring_damper : forall o y yd,
  sdo_shapes o -> alen y = 4%nat -> alen yd = 3%nat ->
  0 < s_dt o -> 0 < s_int_dt o -> 0 < s_k o -> 0 < damping_of o ->
  damping_of o * s_int_dt o <= 1 -> 2 * (s_k o * s_int_dt o) <= damping_of o ->
  unit_quat (quat_of (aget (p_goal_y (s_base o)))) -> unit_quat (quat_of (aget y)) ->
  exists N, forall n, (N <= n)%nat -> exists o' y' yd',
    sdo_n_steps None n y yd o = (o', Ok (y', yd'))
    /\ settled Python (damping_of o) (s_k o) (quat_of (aget (p_goal_y (s_base o))))
         (quat_of (aget y')) (v3_of (aget yd')).
Proof.
  intros o y yd Hs Ly Lyd Hdt Hi Hk Hc H1 H2 Ug Uy.
  set (g := quat_of (aget (p_goal_y (s_base o)))) in *.
  destruct (sdq_run_converges g (s_k o) (damping_of o) (s_int_dt o) (p_t (s_base o)) (s_dt o)
    (quat_of (aget y), v3_of (aget yd))) as (s & _ & Hrun & _ & Hv); auto.
  destruct (Hv _ (rest_bound_pos Python (damping_of o) (s_k o) Hc Hk)) as [N HN].
  exists N. intros n Hn. specialize (HN n Hn). rewrite Rabs_pos_eq in HN by apply excess_pos.
  specialize (Hrun n). destruct (s n) as [q w].
  destruct (sdo_follow None n y yd o q w Hs Ly Lyd) as (o' & y' & yd' & E & <- & <-).
  { rewrite <- Hrun. unfold spring_damper_step_quaternion. fold g.
    replace (default_critically_damped_c (s_c o) (s_k o)) with (damping_of o); [reflexivity|].
    unfold damping_of, default_critically_damped_c. destruct (s_c o); reflexivity. }
  exists o', y', yd'. split; [exact E|]. apply excess_settled; auto.
Qed.

(** ** DualCartesianDMP *)
Lemma dual_reachable_phase o : dual_reachable o -> phase_ok (o_forcing_term o).
Proof.
  intros H. induction H.
  - unfold dual_new in H.
    destruct (init_forcing_term j n x) as [fp|] eqn:E1; [|discriminate]. cbn [bind] in H.
    destruct (ensure_1d_array al 12); [|discriminate]. cbn [bind] in H.
    destruct (ensure_1d_array be 12); [|discriminate]. cbn [bind] in H.
    injection H as <-. cbn. eapply built_phase_ok; eauto.
  - unfold dmp_configure. destruct (configure c (o_base o)). exact IHdual_reachable.
  - exact IHdual_reachable.
  - match goal with |- context [dual_step ?y ?yd ?ct ?i ?cs o] =>
      destruct (dual_step_shapes y yd ct i cs o (dual_reachable_shapes o H)) as [_ P] end.
    destruct P as (_ & _ & _ & _ & _ & _ & -> & _). exact IHdual_reachable.
  - match goal with |- context [dual_open_loop ?rt ?ct ?i ?cs o] =>
      destruct (dual_open_loop_shapes rt ct i cs o (dual_reachable_shapes o H)) as [_ P] end.
    destruct P as (_ & _ & _ & _ & _ & _ & -> & _). exact IHdual_reachable.
  - unfold dual_imitate. destruct (negb _); [exact IHdual_reachable|]. cbv zeta.
    repeat match goal with |- context [match ?x with Ok _ => _ | Err _ => _ end] =>
      destruct x; [|exact IHdual_reachable] end.
    unfold dmp_configure. destruct (configure _ _). exact IHdual_reachable.
  - unfold dual_set_weights. destruct (reshape _ _ _); exact IHdual_reachable.
  - unfold dmp_set_execution_time. cbv zeta.
    destruct (init_forcing_term _ _ _) as [f|] eqn:E; [|exact IHdual_reachable].
    apply built_phase_ok in E. exact (proj1 E).
  - exact IHdual_reachable.
  - exact IHdual_reachable.
Qed.

(** Orientation and angular velocity of one arm. *)
Definition arm_angular (arm : nat) (v : arr) : v3 :=
  V3 (aget v (6 * arm + 3)%nat) (aget v (6 * arm + 4)%nat) (aget v (6 * arm + 5)%nat).

Lemma dual_n_steps_app {CS} (ct : option (stateful_coupling CS)) i : forall j k o y yd u o1 u1 y1 yd1,
  dual_n_steps ct i j y yd u o = (o1, u1, Ok (y1, yd1)) ->
  dual_n_steps ct i (j + k) y yd u o = dual_n_steps ct i k y1 yd1 u1 o1.
Proof.
  induction j as [|j IH]; intros k o y yd u o1 u1 y1 yd1 E; cbn [dual_n_steps plus] in *.
  - injection E as <- <- <- <-. reflexivity.
  - destruct (dual_step y yd ct i u o) as [[o2 u2] [[y2 yd2]|]]; [|discriminate]. eauto.
Qed.

Lemma dual_n_steps_info {CS} (ct : option (stateful_coupling CS)) i : forall n y yd u o o' u' y' yd',
  dual_shapes o -> alen y = 14%nat -> alen yd = 12%nat ->
  dual_n_steps ct i n y yd u o = (o', u', Ok (y', yd')) ->
  same_params o o' /\ dual_shapes o' /\ p_t (o_base o') = p_t (o_base o) + INR n * o_dt o
  /\ alen y' = 14%nat /\ alen yd' = 12%nat.
Proof.
  induction n as [|n IH]; intros y yd u o o' u' y' yd' Hs Ly Lyd E.
  - cbn in E. injection E as <- <- <- <-. split; [apply same_params_refl|]. repeat (split; auto). simpl; ring.
  - cbn [dual_n_steps] in E. destruct (dual_step y yd ct i u o) as [[o1 u1] [[y1 yd1]|]] eqn:E1; [|discriminate].
    destruct (dual_step_ok _ _ _ _ _ _ _ _ _ _ E1 Hs) as (_ & _ & _ & L1 & L2 & Hp & Ht & _ & _ & _ & Hs1).
    destruct (IH _ _ _ _ _ _ _ _ Hs1 L1 L2 E) as (A & B & C & D & F).
    split; [eapply same_params_trans; eauto|]. split; auto. split; auto.
    rewrite C, Ht, S_INR. replace (o_dt o1) with (o_dt o) by (symmetry; apply Hp). ring.
Qed.

(** An arm of a DualCartesianDMP, without feedback of tracking errors. *)
Theorem C93_dual_arm : forall arm o i y yd al be,
  (arm <= 1)%nat -> dual_reachable o -> o_p_gain o = 0 -> beta_index_irrelevant arm o ->
  0 < o_execution_time o -> 0 < o_dt o -> 0 < o_int_dt o ->
  arm_angular arm (o_alpha_y o) = V3 al al al -> arm_angular arm (o_beta_y o) = V3 be be be ->
  0 < al -> 0 < be -> al * o_int_dt o <= o_execution_time o -> 2 * (be * o_int_dt o) <= o_execution_time o ->
  unit_quat (dual_orientation arm (p_start_y (o_base o))) ->
  unit_quat (dual_orientation arm (p_goal_y (o_base o))) ->
  unit_quat (dual_orientation arm y) -> alen y = 14%nat -> alen yd = 12%nat ->
  exists N, forall k, (N <= k)%nat -> exists o' y' yd',
    dual_n_steps (CS := unit) None i k y yd tt o = (o', tt, Ok (y', yd'))
    /\ settled i al (al * be) (dual_orientation arm (p_goal_y (o_base o))) (dual_orientation arm y')
         (v3_scale (o_execution_time o) (arm_angular arm yd')).
Proof.
  intros arm o i y yd al be Ha Hr Hpg Hbi Hx Hdt Hi G1 G2 Hal Hbe B1 B2 Us Ug Uy Ly Lyd.
  pose proof (dual_reachable_shapes o Hr) as Hs. pose proof (dual_reachable_phase o Hr) as Hph.
  destruct (clock_steps (p_t (o_base o)) (o_dt o) Hdt) as [k0 Hk0].
  destruct (dual_n_steps_total (CS := unit) None i (S k0) y yd tt o Hs Ly Lyd Hi ltac:(lra))
    as (o1 & [] & y1 & yd1 & E1).
  pose proof (C33_dual_steps _ _ _ _ _ _ _ _ _ _ _ _ _ Ha Hs Us Uy E1) as Uy1.
  destruct (dual_n_steps_info _ _ _ _ _ _ _ _ _ _ _ Hs Ly Lyd E1) as (P1 & S1 & T1 & L1 & M1).
  pose proof P1 as (Q1 & Q2 & Q3 & Q4 & Q5 & Q6 & Q7 & Q8 & Q9 & Q10 & Q11 & Q12 & Q13 & Q14 & Q15 & Q16 & Q17).
  set (c := arm_cart arm o1).
  set (yk := arm_array (7 * arm) 7 y1). set (ydk := arm_array (6 * arm) 6 yd1).
  assert (HO : forall v, orientation (arm_array (7 * arm) 7 v) = dual_orientation arm v).
  { intros v. destruct (arm_dec arm Ha) as [-> | ->]; reflexivity. }
  assert (HA : forall v, angular (arm_array (6 * arm) 6 v) = arm_angular arm v) by reflexivity.
  destruct (cart_settles c Euler i yk ydk al be) as [N HN]; try reflexivity.
  - unfold c. cbn. rewrite Q7. exact Hph.
  - unfold positive_times, c. cbn. rewrite Q1, Q2, Q4. auto.
  - unfold turns_stably, c. cbn [arm_cart k_alpha k_beta k_int_dt k_execution_time].
    rewrite !HA, Q8, Q9, Q1, Q4. auto 10.
  - unfold c. cbn [arm_cart k_base p_start_y]. rewrite HO, Q12. exact Us.
  - unfold c. cbn [arm_cart k_base p_goal_y]. rewrite HO, Q15. exact Ug.
  - unfold yk. rewrite HO. exact Uy1.
  - exists (S k0 + N)%nat. intros k Hk. replace k with (S k0 + (k - S k0))%nat by lia.
    set (j := (k - S k0)%nat) in *. rewrite (dual_n_steps_app _ _ _ _ _ _ _ _ _ _ _ _ E1).
    destruct (dual_n_steps_total (CS := unit) None i j y1 yd1 tt o1 S1 L1 M1) as (o2 & [] & y2 & yd2 & E2);
      try lra.
    exists o2, y2, yd2. split; [exact E2|].
    destruct (C39_arm_is_cartesian_dmp arm Euler i j y1 yd1 yk ydk o1 c o2 y2 yd2 tt tt)
      as (c' & yk' & ydk' & Ec & P & V); auto; try reflexivity; try lra;
      try (intros j' Hj'; reflexivity).
    { left. reflexivity. }
    { apply arm_cart_of. }
    { unfold beta_index_irrelevant in *. rewrite Q6, Q9. exact Hbi. }
    destruct (HN j ltac:(unfold j; lia)) as (c2 & y3 & yd3 & E3 & Hset).
    rewrite Ec in E3. injection E3 as <- <- <-.
    unfold c in Hset. cbn [arm_cart k_base p_goal_y k_execution_time] in Hset.
    rewrite HO, Q15, Q1 in Hset.
    assert (EO : orientation yk' = dual_orientation arm y2).
    { rewrite <- HO. unfold orientation. rewrite !P by lia. reflexivity. }
    assert (EA : angular ydk' = arm_angular arm yd2).
    { unfold angular. rewrite !V by lia. reflexivity. }
    rewrite EO, EA in Hset. exact Hset.
Qed.

(** ** Examples *)
(** The default gains; the goal is a half turn away from the start and the weights
    are not zero.  The state passed to the first call is another orientation, turning
    quickly. *)
Lemma ex_turn_ok : exists o, cart_reachable o /\ positive_times o /\ turns_stably o 25 (25/4)
  /\ moves_stably RK4 o 1 /\ moves_stably Euler_cython o 1
  /\ orientation (p_start_y (k_base o)) = Q4 1 0 0 0 /\ orientation (p_goal_y (k_base o)) = Q4 0 1 0 0
  /\ ft_weights (k_frot o) 2%nat 1%nat = 11.
Proof.
  destruct (init_forcing_term_accepts (vzero, vzero) 2 1) as [f Ef]; [lia|lra|].
  assert (E : exists o, cart_new (vzero, vzero) (vzero, vzero) 1 (1/100) 2 (1/1000) true
    {| shape := []; data := fun _ => 25 |} {| shape := []; data := fun _ => 25/4 |} = Ok o
    /\ k_execution_time o = 1 /\ k_dt o = 1/100 /\ k_int_dt o = 1/1000 /\ k_n o = 2%nat
    /\ k_base o = ptp_init 7 6 /\ (forall j, aget (k_alpha o) j = 25) /\ (forall j, aget (k_beta o) j = 25/4)).
  { unfold cart_new. rewrite Ef. cbn [bind]. unfold ensure_1d_array. cbn -[Nat.eqb].
    eexists. split; [reflexivity|]. cbn. repeat split; auto. }
  destruct E as (o & E & E1 & E2 & E3 & E4 & E5 & E6 & E7).
  set (o1 := fst (cart_configure ex_conf o)).
  assert (R1 : cart_reachable o1) by (apply cr_configure; eapply cr_new; eauto).
  assert (B1 : o1 = cart_with_base (configured ex_conf (k_base o)) o).
  { unfold o1, cart_configure. rewrite E5. reflexivity. }
  assert (N1 : k_n o1 = 2%nat) by (rewrite B1; exact E4).
  destruct (C27_round_trip ex_weights o1 R1) as (o2 & S & _ & Hg & Hb & Hx & Hdt & Hn & Hi & _ & Hal & Hbe & _).
  { rewrite N1. reflexivity. }
  exists o2. split.
  { change o2 with (fst (o2, Ok tt : res unit)). rewrite <- S. now apply cr_set_weights. }
  unfold positive_times, turns_stably, moves_stably, angular.
  rewrite Hb, Hx, Hdt, Hi, Hal, Hbe, B1. cbn [cart_with_base k_alpha k_beta k_execution_time k_dt k_int_dt k_base].
  rewrite E1, E2, E3, !E6, !E7.
  split; [lra|]. split; [repeat split; try lra|].
  split; [repeat split; unfold uses_rk4, uses_euler; intros; cbv zeta; try lra|].
  split; [repeat split; unfold uses_rk4, uses_euler; intros; cbv zeta; try lra|].
  split; [reflexivity|]. split; [reflexivity|].
  specialize (Hg 11%nat ltac:(cbn; lia)). unfold cart_get_weights in Hg. rewrite Hn, N1 in Hg.
  cbn [Nat.mul Nat.add aget Nat.ltb Nat.leb Nat.sub] in Hg.
  change (11 - 6)%nat with 5%nat in Hg. cbn [ravel aget] in Hg.
  change (5 / 2)%nat with 2%nat in Hg. change (5 mod 2)%nat with 1%nat in Hg.
  rewrite Hg. cbn. lra.
Qed.

Example C93_satisfiable : exists o y yd, cart_reachable o /\ positive_times o /\ turns_stably o 25 (25/4)
  /\ moves_stably RK4 o 1 /\ moves_stably Euler_cython o 1
  /\ unit_quat (orientation (p_start_y (k_base o))) /\ unit_quat (orientation (p_goal_y (k_base o)))
  /\ unit_quat (orientation y) /\ alen y = 7%nat /\ alen yd = 6%nat
  /\ angle_between (orientation (p_goal_y (k_base o))) (orientation (p_start_y (k_base o))) = PI
  /\ orientation y = Q4 0 0 (3/5) (4/5) /\ angular yd = V3 100 0 (-3)
  /\ ft_weights (k_frot o) 2%nat 1%nat = 11.
Proof.
  destruct ex_turn_ok as (o & A1 & A2 & A3 & A4 & A5 & A6 & A7 & A8).
  exists o, (pose vzero (Q4 0 0 (3/5) (4/5))), (twist vzero (V3 100 0 (-3))).
  rewrite orientation_pose, angular_twist, A6, A7. unfold unit_quat. cbn [qw qx qy qz].
  repeat (split; [first [assumption | lra | reflexivity]|]).
  split; [|auto]. unfold angle_between. cbn [qw qx qy qz].
  replace (0 * 1 + 1 * 0 + 0 * 0 + 0 * 0) with 0 by ring. rewrite Rabs_R0, acos_0. lra.
Qed.

Example C93_spring_damper_satisfiable : exists o y yd,
  sdo_shapes o /\ alen y = 4%nat /\ alen yd = 3%nat
  /\ 0 < s_dt o /\ 0 < s_int_dt o /\ 0 < s_k o /\ 0 < damping_of o
  /\ damping_of o * s_int_dt o <= 1 /\ 2 * (s_k o * s_int_dt o) <= damping_of o
  /\ unit_quat (quat_of (aget (p_goal_y (s_base o)))) /\ unit_quat (quat_of (aget y))
  /\ angle_between (quat_of (aget (p_goal_y (s_base o)))) (quat_of (aget y)) = PI.
Proof.
  set (o := sdo_new (1/100) 4 None (1/1000)).
  exists (sd_with (set_goal_y {| alen := 4; aget := vec_of_quat (Q4 0 1 0 0) |} (s_base o)) false o),
    {| alen := 4; aget := vec_of_quat (Q4 1 0 0 0) |}, {| alen := 3; aget := vec_of_v3 (V3 1 2 3) |}.
  assert (Hs : sqrt 4 = 2) by (replace 4 with (2 * 2) by lra; apply sqrt_square; lra).
  unfold damping_of, sdo_shapes, unit_quat, o. cbn. rewrite Hs.
  repeat split; try lra. unfold angle_between. cbn.
  replace (0 * 1 + 1 * 0 + 0 * 0 + 0 * 0) with 0 by ring. rewrite Rabs_R0, acos_0. lra.
Qed.

Example C93_dual_satisfiable : exists o, dual_reachable o /\ o_p_gain o = 0
  /\ beta_index_irrelevant 0 o /\ beta_index_irrelevant 1 o
  /\ 0 < o_execution_time o /\ 0 < o_dt o /\ 0 < o_int_dt o
  /\ (forall arm, arm_angular arm (o_alpha_y o) = V3 25 25 25
                  /\ arm_angular arm (o_beta_y o) = V3 (25/4) (25/4) (25/4))
  /\ 25 * o_int_dt o <= o_execution_time o /\ 2 * (25/4 * o_int_dt o) <= o_execution_time o
  /\ (forall arm, (arm <= 1)%nat -> unit_quat (dual_orientation arm (p_start_y (o_base o)))
                  /\ unit_quat (dual_orientation arm (p_goal_y (o_base o))))
  /\ p_goal_y (o_base o) <> p_start_y (o_base o).
Proof.
  destruct (dual_example 1 (1/10) (1/100) 0 true (fun _ => 25) (fun _ => 25/4) at_origin turned)
    as (o & Hr & E1 & E2 & E3 & E4 & E5 & E6 & E7 & E8 & E9 & _); [lra|].
  exists o. split; [auto|]. split; [auto|].
  split; [left; reflexivity|]. split; [right; right; intros j Hj; now rewrite E7|].
  rewrite E1, E2, E3. repeat (split; [lra|]).
  split. { intros arm. unfold arm_angular. rewrite E6, E7. auto. }
  repeat (split; [lra|]). split.
  - intros arm Ha. destruct (arm_dec arm Ha) as [-> | ->]; unfold dual_orientation, unit_quat;
      rewrite E8, E9; cbn; split; lra.
  - intros E. apply (f_equal (fun a => aget a 0%nat)) in E. rewrite E8, E9 in E. cbn in E. lra.
Qed.
