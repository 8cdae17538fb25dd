(** C121: spring-damper movements approximate the solution of the equation of a spring
    with a damper, positions and orientations.  Final statements. *)
From Coq Require Import Reals ZArith List Arith Lia Lra Psatz FunctionalExtensionality.
From Coquelicot Require Import Coquelicot.
From Verif Require Import M_Prelude M_Canonical M_Forcing M_Dmp M_Base M_DmpObject M_Ridge M_SpringDamper
  M_Quaternion M_Cartesian S_Loops S_Rotation S_Frames S_Turning S_Attributes P_Loops P_Canonical P_Forcing P_DmpStep P_DmpObject
  P_Converge P_DmpAffine P_Runs P_Quaternion P_Cartesian P_Sphere P_Ode P_Reproduction P_Orient P_Turning P_TurningDemo P_TurningRun
  Properties_SpringDamper Properties_Ode Properties_Reproduction Properties_Equivariance
  Properties_Cartesian Properties_CartesianObject Properties_Orientation Properties_Frames
  P_TurningLearn Properties_PoseReproduction P_TurningOde Properties_TurnOde.
Import ListNotations.
Open Scope R_scope.
Set Bullet Behavior "Strict Subproofs".

(** ** Specification *)
(** The equation of a spring with stiffness [k] and a damper with coefficient [c] that
    pulls to [g]: y'' = k (g - y) - c y'. *)
Definition spring_equation (k c g T : R) (y v : R -> R) : Prop :=
  forall t, 0 <= t <= T -> is_derive y t (v t) /\ is_derive v t (k * (g - y t) - c * v t).

(** The same for orientations: the rotation vector [e t] leads from the orientation [q t] to
    the goal, and [w] is the angular velocity.  The solution never gets closer than [delta] to
    being upside down with respect to the goal. *)
Definition turning_spring_equation (k c : R) (goal : quat) (T delta : R) (q : R -> quat) (w e : R -> v3) : Prop :=
  forall t, 0 <= t <= T ->
    v3_norm (e t) <= PI - delta /\ turned_by (e t) goal (q t)
    /\ is_derive_quat q t (quat_rate (w t) (q t))
    /\ is_derive_v3 w t (v3_sub (v3_scale k (e t)) (v3_scale c (w t))).

(** What remains of the way to the goal at time [t] with critical damping. *)
Definition remaining (k t : R) : R := (1 + sqrt k * t) * exp (- (sqrt k * t)).

(** ** Proofs: positions *)
Lemma sd_run_error k c g T y v : 0 <= T -> spring_equation k c g T y v ->
  exists C, 0 <= C /\
  forall (goal : vec) co int t0 dt (x : vec * vec) j s d, goal d = g -> default_critically_damped_c co k = c -> 0 < int -> 0 < dt ->
  fst x d = y 0 -> snd x d = v 0 -> INR j * dt <= T ->
  run_seq (spring_damper_step goal k co None None int) t0 dt x j = Ok s ->
  Rabs (fst s d - y (INR j * dt)) + Rabs (snd s d - v (INR j * dt)) <= C * Rmin dt int.
Proof.
  intros HT HE. set (u := fun _ : R => 0).
  assert (HU : lipb 0 (2 * T) u) by apply (lipb_const 0 (2 * T) 0).
  assert (HY : forall t, 0 <= t <= T -> is_derive y t (v t)) by (intros; apply HE; auto).
  assert (HV : forall t, 0 <= t <= T -> is_derive v t (rhs k c g u t (y t) (v t))).
  { intros t Ht. unfold rhs, u. rewrite Rplus_0_r. apply HE; auto. }
  destruct (euler_consistent k c g T u y v HT HU HY HV) as (M1 & HM1 & CE).
  destruct (one_step k c g T u y v HT HU HY HV M1 HM1) as (K1 & C1 & HK1 & HC1 & OE).
  exists (C1 * T * exp (K1 * T)). pose proof (exp_pos (K1 * T)) as PE.
  split; [apply Rmult_le_pos; [apply Rmult_le_pos; auto|lra]|].
  intros goal co int t0 dt x j s d Hg Hco Hint Hdt E0 E0' HjT Hr.
  set (H := Rmin dt int). assert (PH : 0 < H) by (unfold H; apply Rmin_glb_lt; auto).
  set (I := fun t (s : vec * vec) => P_Ode.err y v (t - t0) (fst s d) (snd s d) <= C1 * H * (t - t0) * exp (K1 * (t - t0))).
  assert (Runs : forall j s, INR j * dt <= T ->
     run_seq (spring_damper_step goal k co None None int) t0 dt x j = Ok s -> I (t0 + INR j * dt) s).
  { clear j s HjT Hr. induction j as [|j IH]; intros s HjT Hr.
    - cbn [run_seq] in Hr. injection Hr as <-. unfold I. cbn [INR]. replace (t0 + 0 * dt - t0) with 0 by ring.
      unfold P_Ode.err. rewrite E0, E0', !Rminus_eq_0, Rabs_R0. lra.
    - cbn [run_seq] in Hr. destruct (run_seq _ _ _ _ j) as [sj|] eqn:Ej; [|discriminate]. cbn [bind] in Hr.
      assert (Ed : (t0 + INR (S j) * dt) - (t0 + INR j * dt) = dt) by (rewrite S_INR; ring).
      assert (HjT' : INR j * dt <= T) by lra. specialize (IH sj HjT' eq_refl).
      assert (Pj : 0 <= INR j * dt) by (apply Rmult_le_pos; [apply pos_INR|lra]).
      set (a := t0 + INR j * dt) in *. set (b := t0 + INR (S j) * dt) in *.
      unfold spring_damper_step in Hr.
      destruct (substeps_tiles a b int Hint ltac:(lra)) as (l & Hl & EL). rewrite EL, Hco in Hr.
      injection Hr as <-.
      destruct (tiles_min _ _ _ _ Hl) as [Hl' | ->]; [|cbn in Hl; lra].
      rewrite Ed in Hl'. fold H in Hl'.
      apply (exec_substeps_inv I (sd_body goal k c None None) l a b H); auto.
      intros t h [Y V] Ht Hh Htb HI. unfold I in *. cbn [fst snd] in HI.
      replace (t + h - t0) with ((t - t0) + h) by ring.
      assert (HbT : b - t0 <= T) by (unfold b; lra). assert (Ha : 0 <= a - t0) by (unfold a; lra).
      apply (gronwall_invariant K1 C1 H (t - t0) h (P_Ode.err y v (t - t0) (Y d) (V d))); auto; try lra.
      { apply err_nonneg. }
      apply OE; auto; try lra.
      pose proof (CE (t - t0) h (Y d) (V d) ltac:(lra) (proj1 Hh) ltac:(lra)) as X. cbv zeta in X.
      unfold rhs, u in X.
      replace (snd (sd_body goal k c None None (t + h) h (Y, V)) d)
        with (V d + h * (k * (g - Y d) - c * V d + 0)) by (cbn; unfold vzero; rewrite Hg; ring).
      replace (fst (sd_body goal k c None None (t + h) h (Y, V)) d)
        with (Y d + h * (V d + h * (k * (g - Y d) - c * V d + 0))) by (cbn; unfold vzero; rewrite Hg; ring).
      exact X. }
  specialize (Runs j s HjT Hr). unfold I in Runs. replace (t0 + INR j * dt - t0) with (INR j * dt) in Runs by ring.
  set (t := INR j * dt) in *. assert (Pt : 0 <= t) by (apply Rmult_le_pos; [apply pos_INR|lra]).
  change (Rabs (fst s d - y t) + Rabs (snd s d - v t)) with (P_Ode.err y v t (fst s d) (snd s d)).
  eapply Rle_trans; [exact Runs|].
  assert (HX : exp (K1 * t) <= exp (K1 * T)).
  { destruct (Rle_lt_or_eq_dec (K1 * t) (K1 * T)) as [L| ->]; [apply Rmult_le_compat_l; auto| |lra].
    apply Rlt_le, exp_increasing; auto. }
  replace (C1 * T * exp (K1 * T) * H) with (C1 * H * (T * exp (K1 * T))) by ring.
  rewrite (Rmult_assoc (C1 * H)). apply Rmult_le_compat_l; [apply Rmult_le_pos; lra|].
  pose proof (exp_pos (K1 * t)). apply Rmult_le_compat; lra.
Qed.

(** ** C121 *)
(** Repeated [step] calls, from every position and velocity, for every stiffness and damping:
    positions and velocities within the duration [T] are those of the solution, up to an error
    proportional to the length of an integration step. *)
Theorem C121_positions : forall k c g T y v, 0 <= T -> spring_equation k c g T y v ->
  exists C, 0 <= C /\
  forall o n p pd j d, sd_shapes o n -> alen p = n -> alen pd = n -> 0 < s_dt o -> 0 < s_int_dt o ->
  s_k o = k -> damping_of o = c -> aget (p_goal_y (s_base o)) d = g ->
  aget p d = y 0 -> aget pd d = v 0 -> INR j * s_dt o <= T ->
  exists o' p' pd', sd_n_steps None j p pd o = (o', Ok (p', pd'))
    /\ Rabs (aget p' d - y (INR j * s_dt o)) <= C * Rmin (s_dt o) (s_int_dt o)
    /\ Rabs (aget pd' d - v (INR j * s_dt o)) <= C * Rmin (s_dt o) (s_int_dt o).
Proof.
  intros k c g T y v HT HE. destruct (sd_run_error k c g T y v HT HE) as (C & PC & HC).
  exists C. split; auto. intros o n p pd j d Sh Lp Lpd Hdt Hint Ek Ec Eg E0 E0' HjT.
  destruct (sd_n_steps_seq None j o n p pd Sh Lp Lpd Hdt Hint) as (o' & s & Er & En & _).
  rewrite Ek in Er.
  assert (Eco : default_critically_damped_c (s_c o) k = c).
  { rewrite <- Ec, <- Ek. unfold damping_of, default_critically_damped_c. destruct (s_c o); reflexivity. }
  pose proof (HC _ _ _ _ _ (aget p, aget pd) j s d Eg Eco Hint Hdt E0 E0' HjT Er) as B.
  exists o', {| alen := n; aget := fst s |}, {| alen := n; aget := snd s |}. split; [exact En|]. cbn [aget].
  pose proof (Rabs_pos (fst s d - y (INR j * s_dt o))). pose proof (Rabs_pos (snd s d - v (INR j * s_dt o))). lra.
Qed.

Lemma remaining_0 k : remaining k 0 = 1.
Proof. unfold remaining. rewrite !Rmult_0_r, Ropp_0, exp_0. ring. Qed.

Lemma remaining_bounds k t : 0 <= t -> 0 <= remaining k t <= 1.
Proof.
  intros Ht. unfold remaining. set (l := sqrt k). assert (Pl : 0 <= l) by apply sqrt_pos.
  pose proof (exp_pos (- (l * t))) as P. assert (0 <= l * t) by (apply Rmult_le_pos; lra).
  split; [apply Rmult_le_pos; lra|]. pose proof (exp_ineq1_le (l * t)) as B.
  replace 1 with (exp (l * t) * exp (- (l * t))) at 2 by (rewrite <- exp_plus, Rplus_opp_r, exp_0; auto).
  apply Rmult_le_compat_r; lra.
Qed.

Lemma critical_solution k g s T : 0 <= k ->
  spring_equation k (2 * sqrt k) g T (fun t => g - remaining k t * (g - s))
    (fun t => k * t * exp (- (sqrt k * t)) * (g - s)).
Proof.
  intros Hk t _. unfold remaining. assert (Ek : k = sqrt k * sqrt k) by (symmetry; now apply sqrt_sqrt).
  set (l := sqrt k) in *. split; auto_derive; auto.
  - rewrite Ek. ring.
  - rewrite Ek. ring.
Qed.

(** With the default damping the movement that [open_loop] computes is
    goal - (1 + sqrt k t) exp(- sqrt k t) (goal - start), up to the length of an integration
    step. *)
Theorem C121_open_loop : forall k g s T, 0 <= k -> 0 <= T ->
  exists C, 0 <= C /\
  forall o run_t ts ys d, 0 < s_dt o -> 0 < s_int_dt o -> s_k o = k -> s_c o = None ->
  aget (p_goal_y (s_base o)) d = g -> aget (p_start_y (s_base o)) d = s ->
  sd_open_loop run_t None o = Ok (ts, ys) ->
  length ys = length ts /\
  forall i, (i < length ts)%nat -> nth i ts 0 <= T ->
    Rabs (nth i ys vzero d - (g - remaining k (nth i ts 0) * (g - s))) <= C * Rmin (s_dt o) (s_int_dt o).
Proof.
  intros k g s T Hk HT.
  pose proof (critical_solution k g s T Hk) as HE.
  set (y := fun t => g - remaining k t * (g - s)) in *. set (v := fun t => k * t * exp (- (sqrt k * t)) * (g - s)) in *.
  destruct (sd_run_error k (2 * sqrt k) g T y v HT HE) as (C & PC & HC).
  exists C. split; auto. intros o run_t ts ys d Hdt Hint Ek Ec Eg Es HO.
  unfold sd_open_loop, spring_damper_open_loop in HO.
  destruct (open_loop_run _ _ _ _ _ _) as [[ts' l]|] eqn:EO; [|discriminate]. cbn [rmap fst snd] in HO.
  injection HO as <- <-.
  change (run_on_grid (spring_damper_step (aget (p_goal_y (s_base o))) (s_k o) (s_c o) None None (s_int_dt o)) 0 run_t
    (s_dt o) (aget (p_start_y (s_base o)), vzero) = Ok (ts', l)) in EO.
  destruct (run_on_grid_seq _ _ _ _ _ _ _ EO) as [HL Hn]. split; [now rewrite map_length|].
  intros i Hi HiT. destruct (Hn i Hi) as (Et & x & Ex & Er).
  rewrite (nth_error_nth _ _ _ Et) in *. rewrite Rplus_0_l in *.
  assert (EN : nth i (map fst l) vzero = fst x) by (apply nth_error_nth; rewrite nth_error_map, Ex; reflexivity).
  rewrite EN. rewrite Ek, Ec in Er.
  pose proof (HC (aget (p_goal_y (s_base o))) None _ 0 _ (aget (p_start_y (s_base o)), vzero) i x d Eg eq_refl Hint Hdt) as B.
  specialize (B ltac:(cbn [fst]; unfold y; rewrite remaining_0, Es; ring) ltac:(cbn [snd]; unfold v, vzero; ring) HiT Er).
  pose proof (Rabs_pos (snd x d - v (INR i * s_dt o))) as PV. fold (y (INR i * s_dt o)). lra.
Qed.

(** ** Proofs: orientations *)
Lemma sdq_body_turn goal k c ct h P V (zz : R -> R) t f0 : c <> 0 ->
  sdq_body goal k c None None ct h (P, V) =
  (let V' := v3_add V (v3_scale h (turn_acc 1 (V3 c c c) (V3 (k / c) (k / c) (k / c)) false zz (fun _ => v3_zero)
            t (q_error Python goal P) V f0)) in
   (i_mul Python (i_exp Python (v3_scale h V')) P, V')).
Proof.
  intros Hc. unfold sdq_body. cbv zeta.
  match goal with |- (pr_mul (pr_exp (v3_scale h ?v)) P, _) = (i_mul Python (i_exp Python (v3_scale h ?v')) P, _) =>
    assert (E : v = v') end.
  2:{ rewrite E. reflexivity. }
  unfold turn_acc. apply v3_eq; cbn; field; auto.
Qed.

Lemma sdq_run_error k c goal T delta q w e : 0 < T -> 0 < delta -> c <> 0 -> unit_quat goal -> unit_quat (q 0) ->
  turning_spring_equation k c goal T delta q w e ->
  exists C, 0 <= C /\
  forall co int t0 dt j s, default_critically_damped_c co k = c -> 0 < int -> 0 < dt -> INR j * dt <= T ->
  run_seq (spring_damper_step_quaternion goal k co None None int) t0 dt (q 0, w 0) j = Ok s ->
  unit_quat (fst s) /\ err (fst s) (q (INR j * dt)) + n1 (v3_sub (snd s) (w (INR j * dt))) <= C * (Rmin dt int + / 10 ^ 7).
Proof.
  intros HT Hdel Hc Ug U0 HE. pose proof PI_RGT_0 as HP.
  assert (Hde : delta <= PI).
  { destruct (HE 0 ltac:(lra)) as [H0 _]. pose proof (v3_norm_pos (e 0)). lra. }
  assert (U : forall t, 0 <= t <= T -> unit_quat (q t)).
  { apply (turn_unit T q w); auto. intros t Ht. apply (HE t Ht). }
  set (cc := cos ((PI - delta) / 2)). assert (Pcc : 0 < cc) by (apply cos_gt_0; lra).
  set (zz := fun _ : R => 0). set (F := fun _ : R => v3_zero).
  assert (Hz : lipb 0 T zz) by apply (lipb_const 0 T 0).
  assert (HF : lip3 T F) by (repeat split; apply (lipb_const 0 T 0)).
  assert (Hq : forall t, 0 <= t <= T -> unit_quat (q t) /\ is_derive_quat q t (quat_rate (w t) (q t))
     /\ is_derive_v3 w t (turn_acc 1 (V3 c c c) (V3 (k / c) (k / c) (k / c)) false zz F t (e t) (w t) (e 0))).
  { intros t Ht. destruct (HE t Ht) as (_ & _ & D1 & D2). split; auto. split; auto.
    match type of D2 with is_derive_v3 _ _ ?d => match goal with |- is_derive_v3 _ _ ?d' => replace d' with d; auto end end.
    unfold turn_acc, F. apply v3_eq; cbn; field; auto. }
  assert (He : forall t, 0 <= t <= T -> v3_norm (e t) <= PI /\ cc <= cos (v3_norm (e t) / 2)
     /\ same_orientation (cy_exp (e t)) (hamilton goal (cy_conj (q t)))).
  { intros t Ht. destruct (HE t Ht) as (H1 & H2 & _). pose proof (v3_norm_pos (e t)). split; [lra|]. split.
    - apply cos_decr_1; lra.
    - apply turned_exp; auto. }
  destruct (turn_step T goal 1 (V3 c c c) (V3 (k / c) (k / c) (k / c)) false zz F HT ltac:(lra) Ug Hz HF q w e cc Hq Pcc He)
    as (C & K & PC & PK & HS).
  pose proof kappa_pos as Pk.
  set (M := C * (4 * T) * exp (K * T)). pose proof (exp_pos (K * T)) as PE.
  assert (PM : 0 <= M) by (unfold M; apply Rmult_le_pos; [apply Rmult_le_pos; lra|lra]).
  exists M. split; [exact PM|].
  intros co int t0 dt j s Hco Hint Hdt HjT Hr.
  set (H := Rmin dt int). assert (PH : 0 < H) by (unfold H; apply Rmin_glb_lt; auto).
  set (I := fun t (s : quat * v3) => unit_quat (fst s) /\
     gap q w (t - t0) (fst s) (snd s) <= C * (H + 4 * kappa) * (t - t0) * exp (K * (t - t0))).
  assert (Runs : forall j s, INR j * dt <= T ->
     run_seq (spring_damper_step_quaternion goal k co None None int) t0 dt (q 0, w 0) j = Ok s -> I (t0 + INR j * dt) s).
  { clear j s HjT Hr. induction j as [|j IH]; intros s HjT Hr.
    - cbn [run_seq] in Hr. injection Hr as <-. unfold I. cbn [INR fst snd]. replace (t0 + 0 * dt - t0) with 0 by ring.
      split; auto. unfold gap. rewrite err_same by auto. unfold n1, v3_sub. cbn [v3x v3y v3z].
      rewrite !Rminus_eq_0, Rabs_R0. lra.
    - cbn [run_seq] in Hr. destruct (run_seq _ _ _ _ j) as [sj|] eqn:Ej; [|discriminate]. cbn [bind] in Hr.
      assert (Ed : (t0 + INR (S j) * dt) - (t0 + INR j * dt) = dt) by (rewrite S_INR; ring).
      assert (HjT' : INR j * dt <= T) by lra. specialize (IH sj HjT' eq_refl).
      assert (Pj : 0 <= INR j * dt) by (apply Rmult_le_pos; [apply pos_INR|lra]).
      set (a := t0 + INR j * dt) in *. set (b := t0 + INR (S j) * dt) in *.
      unfold spring_damper_step_quaternion in Hr.
      destruct (substeps_tiles a b int Hint ltac:(lra)) as (l & Hl & EL). rewrite EL, Hco in Hr.
      injection Hr as <-.
      destruct (tiles_min _ _ _ _ Hl) as [Hl' | ->]; [|cbn in Hl; lra].
      rewrite Ed in Hl'. fold H in Hl'.
      apply (exec_substeps_inv I (sdq_body goal k c None None) l a b H); auto.
      intros t h [P V] Ht Hh Htb [UP HG]. cbn [fst snd] in UP, HG.
      assert (HbT : b - t0 <= T) by (unfold b; lra). assert (Ha : 0 <= a - t0) by (unfold a; lra).
      rewrite (sdq_body_turn goal k c (t + h) h P V zz (t - t0 + h) (e 0) Hc). cbv zeta.
      set (f := q_error Python goal P).
      assert (B : v3_norm (v3_sub f (e (t - t0))) <= log_lip cc * err P (q (t - t0)) + 4 * kappa).
      { apply (log_error_goal T goal Ug q e cc Pcc He Python); auto; [lra|now left]. }
      assert (B0 : v3_norm (v3_sub (e 0) (e 0)) <= 4 * kappa).
      { rewrite v3_sub_same. lra. }
      specialize (HS Python (4 * kappa) (t - t0) h P V f (e 0) ltac:(lra) ltac:(lra) (proj1 Hh) ltac:(lra) UP B B0).
      cbv zeta in HS. unfold I. cbn [fst snd]. split.
      + rewrite i_mul_unit by auto using i_exp_unit. apply hamilton_unit; auto using i_exp_unit.
      + replace (t + h - t0) with (t - t0 + h) by ring.
        apply (gronwall_resolution K C (H + 4 * kappa) (t - t0) h (gap q w (t - t0) P V)); auto; try lra.
        eapply Rle_trans; [exact HS|]. apply Rplus_le_compat_l.
        apply Rmult_le_compat_l; [lra|]. apply Rmult_le_compat_l; lra. }
  destruct (Runs j s HjT Hr) as [Us G]. split; auto. unfold gap in G.
  replace (t0 + INR j * dt - t0) with (INR j * dt) in G by ring.
  set (t := INR j * dt) in *. assert (P0 : 0 <= t) by (apply Rmult_le_pos; [apply pos_INR|lra]).
  change (/ 10 ^ 7) with kappa. eapply Rle_trans; [exact G|].
  assert (exp (K * t) <= exp (K * T)).
  { destruct (Rle_lt_or_eq_dec (K * t) (K * T)) as [L| ->]; [apply Rmult_le_compat_l; auto| |lra].
    apply Rlt_le, exp_increasing; auto. }
  apply Rle_trans with (C * (4 * (H + kappa)) * T * exp (K * T)); [|unfold M; lra].
  pose proof (exp_pos (K * t)).
  apply Rmult_le_compat; auto; try lra.
  - apply Rmult_le_pos; auto. apply Rmult_le_pos; lra.
  - apply Rmult_le_compat; auto; try lra; [apply Rmult_le_pos; lra|]. apply Rmult_le_compat_l; lra.
Qed.

Lemma sdq_run_exists goal k co int t0 dt x : 0 < int -> 0 < dt -> forall j, exists s,
  run_seq (spring_damper_step_quaternion goal k co None None int) t0 dt x j = Ok s.
Proof.
  intros Hint Hdt. induction j as [|j (s & E)]; [exists x; reflexivity|].
  cbn [run_seq]. rewrite E. cbn [bind]. unfold spring_damper_step_quaternion.
  destruct (substeps_tiles (t0 + INR j * dt) (t0 + INR (S j) * dt) int Hint) as (l & _ & EL); [rewrite S_INR; lra|].
  rewrite EL. eauto.
Qed.

(** Repeated [step] calls of a SpringDamperOrientation, from every orientation and angular
    velocity: the same, up to the resolution 1e-7 of the logarithm of quaternions. *)
Theorem C121_orientations : forall k c goal T delta q w e, 0 < T -> 0 < delta -> c <> 0 ->
  unit_quat goal -> unit_quat (q 0) -> turning_spring_equation k c goal T delta q w e ->
  exists C, 0 <= C /\
  forall o p pd j, sdo_shapes o -> alen p = 4%nat -> alen pd = 3%nat -> 0 < s_dt o -> 0 < s_int_dt o ->
  s_k o = k -> damping_of o = c -> quat_of (aget (p_goal_y (s_base o))) = goal ->
  quat_of (aget p) = q 0 -> v3_of (aget pd) = w 0 -> INR j * s_dt o <= T ->
  exists o' p' pd', sdo_n_steps None j p pd o = (o', Ok (p', pd'))
    /\ unit_quat (quat_of (aget p'))
    /\ angle_between (quat_of (aget p')) (q (INR j * s_dt o)) <= C * (Rmin (s_dt o) (s_int_dt o) + / 10 ^ 7)
    /\ v3_norm (v3_sub (v3_of (aget pd')) (w (INR j * s_dt o))) <= C * (Rmin (s_dt o) (s_int_dt o) + / 10 ^ 7).
Proof.
  intros k c goal T delta q w e HT Hdel Hc Ug U0 HE.
  destruct (sdq_run_error k c goal T delta q w e HT Hdel Hc Ug U0 HE) as (C & PC & HC).
  exists C. split; auto. intros o p pd j Sh Lp Lpd Hdt Hint Ek Ec Eg Ep Epd HjT.
  assert (Eco : default_critically_damped_c (s_c o) k = c).
  { rewrite <- Ec, <- Ek. unfold damping_of, default_critically_damped_c. destruct (s_c o); reflexivity. }
  assert (Ex : exists s, run_seq (spring_damper_step_quaternion goal k (s_c o) None None (s_int_dt o)) (p_t (s_base o)) (s_dt o)
     (q 0, w 0) j = Ok s).
  { apply sdq_run_exists; auto. }
  destruct Ex as ([qs ws] & Er).
  destruct (HC _ _ _ _ j _ Eco Hint Hdt HjT Er) as [Us B]. cbn [fst snd] in *.
  destruct (sdo_follow None j p pd o qs ws Sh Lp Lpd) as (o' & p' & pd' & En & Eq & Ew).
  { rewrite Eg, Ek, Ep, Epd. exact Er. }
  exists o', p', pd'. split; [exact En|]. rewrite Eq, Ew. split; [exact Us|].
  pose proof (n1_pos (v3_sub ws (w (INR j * s_dt o)))). pose proof (norm_n1 (v3_sub ws (w (INR j * s_dt o)))).
  assert (Uq : unit_quat (q (INR j * s_dt o))).
  { apply (turn_unit T q w); auto; [intros t Ht; apply (HE t Ht)|].
    split; auto. apply Rmult_le_pos; [apply pos_INR|lra]. }
  pose proof (err_bound _ _ Us Uq) as [P1 _]. rewrite angle_between_err. lra.
Qed.

Lemma shortest_turn k axis angle s g T : 0 <= k -> unit_v3 axis -> 0 <= angle -> unit_quat s ->
  (forall v, rotate g v = rodrigues axis angle (rotate s v)) ->
  turning_spring_equation k (2 * sqrt k) g T (PI - angle)
    (fun t => hamilton (axis_quat axis ((1 - remaining k t) * angle)) s)
    (fun t => v3_scale (k * t * exp (- (sqrt k * t)) * angle) axis)
    (fun t => v3_scale (remaining k t * angle) axis).
Proof.
  intros Hk Hax Pa Us HG t Ht. pose proof (remaining_bounds k t (proj1 Ht)) as B.
  assert (Ek : k = sqrt k * sqrt k) by (symmetry; now apply sqrt_sqrt).
  assert (Add : forall b c v, rodrigues axis b (rodrigues axis c v) = rodrigues axis (b + c) v).
  { intros b c v. rewrite <- !rotate_axis, <- rotate_hamilton by auto using axis_quat_unit. f_equal.
    unfold axis_quat. replace ((b + c) / 2) with (b / 2 + c / 2) by field. rewrite cos_plus, sin_plus.
    destruct axis as [a1 a2 a3].
    assert (Hax2 : a1 * a1 + a2 * a2 + a3 * a3 = 1) by (unfold unit_v3 in Hax; cbn in Hax; lra).
    apply quat_eq; cbn; try ring.
    transitivity (cos (b / 2) * cos (c / 2) - sin (b / 2) * sin (c / 2) * (a1 * a1 + a2 * a2 + a3 * a3)); [ring|].
    rewrite Hax2. ring. }
  assert (Nax : v3_norm axis = 1).
  { unfold unit_v3 in Hax. unfold v3_norm. rewrite <- sqrt_1. f_equal. unfold v3_dot. lra. }
  assert (Ne : v3_norm (v3_scale (remaining k t * angle) axis) = remaining k t * angle).
  { rewrite v3_norm_scale, Nax, Rabs_pos_eq; [ring|]. apply Rmult_le_pos; lra. }
  split; [rewrite Ne; nra|]. split; [|split].
  - exists axis. split; auto. rewrite Ne. split; [reflexivity|]. intros v.
    rewrite rotate_hamilton, rotate_axis by auto using axis_quat_unit. rewrite Add, HG. f_equal. ring.
  - set (x := remaining k).
    assert (Dx : is_derive x t (- (k * t * exp (- (sqrt k * t))))).
    { unfold x, remaining. set (l := sqrt k) in *. auto_derive; auto. rewrite Ek. ring. }
    pose proof (is_derive_unique _ _ _ Dx) as Ux'. assert (Ed : ex_derive x t) by (eexists; eauto).
    unfold quat_rate, axis_quat, is_derive_quat, hamilton.
    set (v := k * t * exp (- (sqrt k * t))) in *.
    destruct axis as [a1 a2 a3]. destruct s as [s0 s1 s2 s3]. cbn [qw qx qy qz v3x v3y v3z v3_scale].
    assert (EH : (1 + - x t) * angle * / 2 = (1 - x t) * angle / 2) by (unfold Rdiv, Rminus; ring).
    assert (Hax2 : a1 * a1 + a2 * a2 + a3 * a3 = 1) by (unfold unit_v3 in Hax; cbn in Hax; lra).
    split; [|split; [|split]]; auto_derive; auto; change (Derive (fun x0 : R => x x0) t) with (Derive x t);
      rewrite Ux', ?EH; set (S := sin ((1 - x t) * angle / 2)); set (Co := cos ((1 - x t) * angle / 2)); clearbody S Co.
    + transitivity (- (v * angle / 2) * (S * s0 * (a1 * a1 + a2 * a2 + a3 * a3) + Co * (a1 * s1 + a2 * s2 + a3 * s3))); [rewrite Hax2; field|field].
    + transitivity (v * angle / 2 * (Co * (a1 * s0 + a2 * s3 - a3 * s2) - S * s1 * (a1 * a1 + a2 * a2 + a3 * a3))); [rewrite Hax2; field|field].
    + transitivity (v * angle / 2 * (Co * (a2 * s0 + a3 * s1 - a1 * s3) - S * s2 * (a1 * a1 + a2 * a2 + a3 * a3))); [rewrite Hax2; field|field].
    + transitivity (v * angle / 2 * (Co * (a3 * s0 + a1 * s2 - a2 * s1) - S * s3 * (a1 * a1 + a2 * a2 + a3 * a3))); [rewrite Hax2; field|field].
  - unfold remaining, is_derive_v3. destruct axis as [a1 a2 a3]. cbn [v3x v3y v3z v3_scale v3_sub].
    set (l := sqrt k) in *.
    split; [|split]; auto_derive; auto; rewrite Ek; ring.
Qed.

(** With the default damping [open_loop] turns about a fixed axis on the shortest way from
    the start to the goal, and the angle that remains is (1 + sqrt k t) exp(- sqrt k t) times
    the angle at the start. *)
Theorem C121_shortest_way : forall k start goal T, 0 < k -> 0 < T -> unit_quat start -> unit_quat goal ->
  let angle := angle_between goal start in
  angle < PI ->
  exists axis C, unit_v3 axis /\ 0 <= C
  /\ (forall v, rotate goal v = rodrigues axis angle (rotate start v))
  /\ forall o run_t ts ys, 0 < s_dt o -> 0 < s_int_dt o -> s_k o = k -> s_c o = None ->
     quat_of (aget (p_goal_y (s_base o))) = goal -> quat_of (aget (p_start_y (s_base o))) = start ->
     sdo_open_loop run_t None o = Ok (ts, ys) ->
     length ys = length ts /\
     forall i p, (i < length ts)%nat -> nth i ts 0 <= T -> unit_quat p ->
       (forall v, rotate p v = rodrigues axis ((1 - remaining k (nth i ts 0)) * angle) (rotate start v)) ->
       angle_between (nth i ys q_one) p <= C * (Rmin (s_dt o) (s_int_dt o) + / 10 ^ 7).
Proof.
  intros k s g T Hk HT Us Ug angle Hang.
  assert (Ud : unit_quat (hamilton g (cy_conj s))) by (apply hamilton_unit; auto using cy_conj_unit).
  destruct (exp_inverse _ Ud) as (u & Su & Nu).
  assert (Ea : angle = v3_norm u) by (rewrite Nu; apply angle_between_err).
  destruct (v3_polar u) as (axis & Hax & Eu).
  assert (Pa : 0 <= angle) by (rewrite Ea; apply v3_norm_pos).
  assert (HG : forall v, rotate g v = rodrigues axis angle (rotate s v)).
  { intros v. rewrite <- rotate_axis, <- rotate_hamilton by auto using axis_quat_unit.
    assert (Ex : cy_exp u = axis_quat axis angle) by (rewrite Eu, <- Ea; now apply cy_exp_axis).
    assert (Eg : g = hamilton (hamilton g (cy_conj s)) s).
    { rewrite hamilton_assoc, conj_l by auto. destruct g; apply quat_eq; cbn; ring. }
    rewrite Eg at 1. rewrite <- Ex. destruct Su as [-> | ->]; auto. now rewrite hamilton_neg_l, rotate_neg. }
  pose proof (shortest_turn k axis angle s g T ltac:(lra) Hax Pa Us HG) as HE.
  match type of HE with turning_spring_equation _ _ _ _ _ ?q0 ?w0 ?e0 => set (q := q0) in *; set (w := w0) in *; set (e := e0) in * end.
  assert (Q0 : q 0 = s).
  { unfold q. rewrite remaining_0. replace ((1 - 1) * angle) with 0 by ring. unfold axis_quat.
    replace (0 / 2) with 0 by field. rewrite cos_0, sin_0. destruct s; apply quat_eq; cbn; ring. }
  assert (W0 : w 0 = v3_zero) by (unfold w; apply v3_eq; cbn; ring).
  assert (Hc : 2 * sqrt k <> 0) by (pose proof (sqrt_lt_R0 k Hk); lra).
  destruct (sdq_run_error k (2 * sqrt k) g T (PI - angle) q w e HT ltac:(lra) Hc Ug ltac:(now rewrite Q0) HE) as (C & PC & HC).
  exists axis, C. split; auto. split; auto. split; auto.
  intros o run_t ts ys Hdt Hint Ek Ec Eg Es HO.
  unfold sdo_open_loop, spring_damper_open_loop_quaternion in HO.
  destruct (run_on_grid _ _ _ _ _) as [[ts' l]|] eqn:EO; [|discriminate]. cbn [rmap fst snd] in HO.
  injection HO as <- <-. rewrite Ek, Ec, Eg, Es in EO.
  destruct (run_on_grid_seq _ _ _ _ _ _ _ EO) as [HL Hn]. split; [now rewrite map_length|].
  intros i p Hi HiT Up Hp. destruct (Hn i Hi) as (Et & x & Ex & Er).
  rewrite (nth_error_nth _ _ _ Et) in *. rewrite Rplus_0_l in *.
  assert (EN : nth i (map fst l) q_one = fst x) by (apply nth_error_nth; rewrite nth_error_map, Ex; reflexivity).
  rewrite EN. rewrite <- Q0, <- W0 in Er.
  destruct (HC None (s_int_dt o) 0 (s_dt o) i x eq_refl Hint Hdt HiT Er) as [Ux B].
  pose proof (n1_pos (v3_sub (snd x) (w (INR i * s_dt o)))).
  apply Rle_trans with (angle_between (fst x) (q (INR i * s_dt o))); [|rewrite angle_between_err; lra].
  apply Req_le.
  assert (Sp : same_orientation p (q (INR i * s_dt o))).
  { apply same_rotation; auto; [apply hamilton_unit; auto using axis_quat_unit|].
    intros v. unfold q. rewrite rotate_hamilton, rotate_axis by auto using axis_quat_unit. apply Hp. }
  destruct Sp as [-> | ->]; auto. unfold angle_between. do 2 f_equal. rewrite <- Rabs_Ropp. f_equal.
  destruct (q (INR i * s_dt o)); cbn; ring.
Qed.

Lemma run_on_grid_total {A : Type} (step : R -> R -> A -> res A) rt dt s : 0 < dt -> 0 < rt ->
  (forall lt t s, lt <= t -> exists s', step lt t s = Ok s') -> exists ts l, run_on_grid step 0 rt dt s = Ok (ts, l).
Proof.
  intros Hdt Hrt Hs. unfold run_on_grid, arange.
  assert (Hlt : 0 < rt + dt) by lra.
  pose proof (arange_len_spec 0 (rt + dt) dt Hdt Hlt) as [Hn _].
  destruct (arange_len 0 (rt + dt) dt) as [|n]; [lia|]. simpl seq. cbn [map].
  assert (HR : forall m k t0 s, t0 <= 0 + INR k * dt ->
     exists l, run_steps step t0 (map (fun i => 0 + INR i * dt) (seq k m)) s = Ok l).
  { induction m as [|m IH]; intros k t0 s0 Ht0; [simpl; eauto|].
    cbn [seq map run_steps]. destruct (Hs t0 (0 + INR k * dt) s0 Ht0) as [s1 E1].
    rewrite E1. cbn [bind].
    destruct (IH (S k) (0 + INR k * dt) s1) as [l El]; [rewrite S_INR; nra|].
    rewrite El. cbn [bind]. eauto. }
  destruct (HR n 1%nat (0 + INR 0 * dt) s) as [l El]; [simpl; lra|].
  rewrite El. cbn [bind]. eauto.
Qed.

(** A spring that pulls one dimension from 1 to 3, and one that turns by one radian about
    the x axis, both with the default damping and with any time steps. *)
Example C121_satisfiable : forall T h hi, 0 < T -> 0 < h -> 0 < hi ->
  exists o o' o'' ts ys ts' ys',
    sd_new 1 h 4 None hi = o'' /\ sd_configure {| c_t := None; c_start_y := Some {| alen := 1; aget := fun _ => 1 |};
      c_start_yd := None; c_start_ydd := None; c_goal_y := Some {| alen := 1; aget := fun _ => 3 |};
      c_goal_yd := None; c_goal_ydd := None |} o'' = (o, Ok tt)
  /\ sd_shapes o 1 /\ s_k o = 4 /\ damping_of o = 4 /\ s_c o = None /\ s_dt o = h /\ s_int_dt o = hi
  /\ aget (p_start_y (s_base o)) 0%nat = 1 /\ aget (p_goal_y (s_base o)) 0%nat = 3
  /\ sd_open_loop T None o = Ok (ts, ys)
  /\ spring_equation 4 4 3 T (fun t => 3 - remaining 4 t * (3 - 1)) (fun t => 4 * t * exp (- (sqrt 4 * t)) * (3 - 1))
  /\ sdo_shapes o' /\ s_k o' = 4 /\ damping_of o' = 4 /\ s_c o' = None /\ s_dt o' = h /\ s_int_dt o' = hi
  /\ quat_of (aget (p_start_y (s_base o'))) = axis_quat (V3 1 0 0) 0
  /\ quat_of (aget (p_goal_y (s_base o'))) = axis_quat (V3 1 0 0) 1
  /\ unit_quat (axis_quat (V3 1 0 0) 0) /\ unit_quat (axis_quat (V3 1 0 0) 1)
  /\ angle_between (axis_quat (V3 1 0 0) 1) (axis_quat (V3 1 0 0) 0) = 1
  /\ sdo_open_loop T None o' = Ok (ts', ys')
  /\ turning_spring_equation 4 4 (axis_quat (V3 1 0 0) 1) T (PI - 1)
       (fun t => hamilton (axis_quat (V3 1 0 0) ((1 - remaining 4 t) * 1)) (axis_quat (V3 1 0 0) 0))
       (fun t => v3_scale (4 * t * exp (- (sqrt 4 * t)) * 1) (V3 1 0 0))
       (fun t => v3_scale (remaining 4 t * 1) (V3 1 0 0)).
Proof.
  intros T h hi HT Hh Hhi.
  assert (S4 : sqrt 4 = 2) by (replace 4 with (2 * 2) by ring; apply sqrt_square; lra).
  assert (C4 : 2 * sqrt 4 = 4) by (rewrite S4; ring).
  assert (Ux : unit_v3 (V3 1 0 0)) by (unfold unit_v3; cbn; ring).
  set (cfg := {| c_t := None; c_start_y := Some {| alen := 1; aget := fun _ => 1 |};
      c_start_yd := None; c_start_ydd := None; c_goal_y := Some {| alen := 1; aget := fun _ => 3 |};
      c_goal_yd := None; c_goal_ydd := None |}).
  set (o := fst (sd_configure cfg (sd_new 1 h 4 None hi))).
  set (cfg' := {| c_t := None; c_start_y := Some {| alen := 4; aget := vec_of_quat (axis_quat (V3 1 0 0) 0) |};
      c_start_yd := None; c_start_ydd := None; c_goal_y := Some {| alen := 4; aget := vec_of_quat (axis_quat (V3 1 0 0) 1) |};
      c_goal_yd := None; c_goal_ydd := None |}).
  set (o' := fst (sd_configure cfg' (sdo_new h 4 None hi))).
  assert (R1 : exists r, sd_open_loop T None o = Ok r).
  { unfold sd_open_loop, spring_damper_open_loop. 
    match goal with |- exists r, rmap _ (open_loop_run ?f _ _ _ _ _) = _ =>
      destruct (run_on_grid_total f T (s_dt o) (aget (p_start_y (s_base o)), vzero)) as (ts & l & E) end.
    { exact Hh. } { exact HT. }
    { intros a b s Hab. unfold spring_damper_step. destruct (substeps_tiles a b (s_int_dt o)) as (l & _ & EL); [exact Hhi|lra|].
      rewrite EL. eauto. }
    change (open_loop_run _ 0 T (s_dt o) _ _) with (run_on_grid (spring_damper_step (aget (p_goal_y (s_base o))) (s_k o) (s_c o) None None
      (s_int_dt o)) 0 T (s_dt o) (aget (p_start_y (s_base o)), vzero)). rewrite E. cbn. eauto. }
  assert (R2 : exists r, sdo_open_loop T None o' = Ok r).
  { unfold sdo_open_loop, spring_damper_open_loop_quaternion.
    match goal with |- exists r, rmap _ (run_on_grid ?f _ _ _ ?x) = _ =>
      destruct (run_on_grid_total f T (s_dt o') x) as (ts & l & E) end.
    { exact Hh. } { exact HT. }
    { intros a b s Hab. unfold spring_damper_step_quaternion. destruct (substeps_tiles a b (s_int_dt o')) as (l & _ & EL); [exact Hhi|lra|].
      rewrite EL. eauto. }
    rewrite E. cbn. eauto. }
  destruct R1 as ((ts & ys) & E1). destruct R2 as ((ts' & ys') & E2).
  exists o, o', (sd_new 1 h 4 None hi), ts, ys, ts', ys'.
  split; [reflexivity|]. split; [reflexivity|]. split; [repeat split|]. split; [reflexivity|]. split; [exact C4|].
  split; [reflexivity|]. split; [reflexivity|]. split; [reflexivity|]. split; [reflexivity|]. split; [reflexivity|].
  split; [exact E1|]. split.
  { rewrite <- C4 at 2. apply critical_solution. lra. }
  split; [repeat split|]. split; [reflexivity|]. split; [exact C4|].
  split; [reflexivity|]. split; [reflexivity|]. split; [reflexivity|]. split; [reflexivity|]. split; [reflexivity|].
  split; [now apply axis_quat_unit|]. split; [now apply axis_quat_unit|]. split.
  { unfold angle_between, axis_quat. cbn [qw qx qy qz v3x v3y v3z].
    replace (0 / 2) with 0 by field. rewrite sin_0, cos_0.
    assert (P : 0 < cos (1 / 2)) by (apply cos_gt_0; pose proof PI2_3_2; lra).
    rewrite Rabs_pos_eq by lra.
    replace (cos (1 / 2) * 1 + _ + _ + _) with (cos (1 / 2)) by ring.
    rewrite acos_cos by (pose proof PI2_3_2; lra). field. }
  split; [exact E2|]. rewrite <- C4 at 2. apply shortest_turn; auto; try lra; [now apply axis_quat_unit|].
  intros v. rewrite !rotate_axis by auto. replace (rodrigues (V3 1 0 0) 0 v) with v; auto.
  unfold rodrigues, v3_dot, cross. rewrite cos_0, sin_0. destruct v; apply v3_eq; cbn; ring.
Qed.
