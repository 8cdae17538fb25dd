(** C119: the orientations of a Cartesian movement approximate the solution of the
    DMP's differential equation of the orientation.  Final statements. *)
From Coq Require Import Reals ZArith List Arith Lia Lra Psatz FunctionalExtensionality.
From Coquelicot Require Import Coquelicot.
From Verif Require Import M_Prelude M_Canonical M_Forcing M_Dmp M_Base M_DmpObject M_Ridge M_SpringDamper
  M_Quaternion M_Cartesian S_Loops S_Rotation S_Frames S_Turning S_Attributes P_Loops P_Canonical P_Forcing P_DmpStep P_DmpObject
  P_Converge P_DmpAffine P_Quaternion P_Cartesian P_Sphere P_Ode P_Reproduction P_Orient P_Turning P_TurningDemo P_TurningRun
  Properties_Forcing Properties_DmpObject Properties_Goal Properties_Ode Properties_Reproduction Properties_Equivariance
  Properties_CartesianObject Properties_Attributes Properties_Orientation Properties_CartesianHistory Properties_Frames
  P_TurningLearn Properties_PoseReproduction P_TurningOde.
Import ListNotations.
Open Scope R_scope.
Set Bullet Behavior "Strict Subproofs".

(** ** Specification *)
(** The orientation at the start and at the goal of the movement. *)
Definition start_orientation (o : cart) : quat := attitude (aget (p_start_y (k_base o))).
Definition goal_orientation (o : cart) : quat := attitude (aget (p_goal_y (k_base o))).

(** The forcing term of the orientation as a function of time. *)
Definition turn_force (o : cart) (t : R) : v3 :=
  let f := ft_call (k_frot o) t in V3 (f 0%nat) (f 1%nat) (f 2%nat).

(** The differential equation of the orientation [q] and the angular velocity [w],
      tau^2 w' = alpha (beta e - tau w - smoothing) + f(t),
    where the rotation vector [e t] leads from the orientation at time [t] to the goal.
    Products of vectors are products of their entries.  The movement begins at rest
    at the start, and during [0 .. T] it never gets closer than [delta] to being upside
    down with respect to the goal (then the shortest way to the goal is not unique). *)
Definition turn_equation (o : cart) (T delta : R) (q : R -> quat) (w e : R -> v3) : Prop :=
  let tau := k_execution_time o in
  let alpha := turn_gains (k_alpha o) in
  let beta := turn_gains (k_beta o) in
  q 0 = start_orientation o /\ w 0 = v3_zero /\
  forall t, 0 <= t <= T ->
    v3_norm (e t) <= PI - delta /\ turned_by (e t) (goal_orientation o) (q t)
    /\ is_derive_quat q t (quat_rate (w t) (q t))
    /\ is_derive_v3 w t
         (v3_divs (v3_add (v3_mul alpha
            (v3_sub (v3_sub (v3_mul beta (e t)) (v3_scale tau (w t)))
                    (if k_smooth o then v3_scale (ft_phase (k_frot o) t) (v3_mul beta (e 0)) else v3_zero)))
            (turn_force o t)) (tau ^ 2)).

(** Objects with the same differential equation; [dt] and [int_dt] may differ. *)
Definition same_turn_equation (o o' : cart) : Prop :=
  k_execution_time o' = k_execution_time o /\ k_n o' = k_n o /\ k_smooth o' = k_smooth o
  /\ ft_goal_t (k_frot o') = ft_goal_t (k_frot o)
  /\ turn_gains (k_alpha o') = turn_gains (k_alpha o) /\ turn_gains (k_beta o') = turn_gains (k_beta o)
  /\ start_orientation o' = start_orientation o /\ goal_orientation o' = goal_orientation o
  /\ forall d i, (d < 3)%nat -> (i < k_n o)%nat -> ft_weights (k_frot o') d i = ft_weights (k_frot o) d i.

(** ** Proofs *)
Lemma open_loop_turns_any fn i o run_t ts ys : cart_open_loop run_t None (Some fn) (Some i) o = Ok (ts, ys) ->
  exists rt l, q_open_loop i (cart_rot_open_args o None) (k_dt o) rt = Ok (ts, l)
  /\ length l = length ts /\ length ys = length ts
  /\ forall k, (k < length ts)%nat -> exists s, nth_error l k = Some s /\ attitude (aget (nth k ys (zeros 7))) = fst s.
Proof.
  unfold cart_open_loop. cbv zeta. set (rt := match run_t with Some x => x | None => k_execution_time o end). intros H.
  destruct (open_loop_run _ _ _ _ _ _) as [[tp lp]|] eqn:Ep; [|discriminate]. cbn [bind] in H.
  destruct (q_open_loop _ _ _ _) as [[tr lr]|] eqn:Er; [|discriminate]. cbn [bind fst snd] in H.
  injection H as <- <-. exists rt, lr.
  change (run_on_grid (run_step_function fn (cart_pos_open_args o None)) 0 rt (k_dt o)
    (a_start_y (cart_pos_open_args o None), vzero) = Ok (tp, lp)) in Ep.
  destruct (run_on_grid_seq _ _ _ _ _ _ _ Ep) as [L1 N1]. pose proof Er as Er0.
  unfold q_open_loop in Er. destruct (run_on_grid_seq _ _ _ _ _ _ _ Er) as [L2 N2].
  cbn [cart_rot_open_args g_start_t] in *.
  assert (ET : tr = tp).
  { unfold run_on_grid in Ep, Er. destruct (arange 0 (rt + k_dt o) (k_dt o)); [discriminate|].
    destruct (run_steps _ _ _ _) in Ep; [|discriminate]. destruct (run_steps _ _ _ _) in Er; [|discriminate].
    cbn [bind] in Ep, Er. congruence. }
  subst tr. split; [exact Er0|]. split; [exact L2|].
  split; [rewrite map_length, combine_length, L1, L2; lia|]. intros k Hk.
  destruct (N1 k Hk) as (_ & s1 & E1 & _). destruct (N2 k Hk) as (_ & s2 & E2 & _).
  exists s2. split; [exact E2|].
  assert (EN : nth k (map (fun x => pose (fst (fst x)) (fst (snd x))) (combine lp lr)) (zeros 7)
     = pose (fst s1) (fst s2)).
  { apply nth_error_nth. rewrite nth_error_map.
    assert (EC : nth_error (combine lp lr) k = Some (s1, s2)).
    { clear - E1 E2. revert lr k E1 E2. induction lp as [|x lp IH]; intros lr k E1 E2; [destruct k; discriminate|].
      destruct lr as [|y lr]; [destruct k; discriminate|]. destruct k as [|k]; cbn in *; [congruence|]. now apply IH. }
    rewrite EC. reflexivity. }
  rewrite EN. apply quat_eq; reflexivity.
Qed.

Lemma same_turn_forces o o' : cart_made o -> cart_made o' -> same_turn_equation o o' ->
  (forall t, ft_phase (k_frot o') t = ft_phase (k_frot o) t) /\ forall t, turn_force o' t = turn_force o t.
Proof.
  intros Hm Hm' (S1 & S2 & S3 & S4 & S5 & S6 & S7 & S8 & S9).
  destruct (cart_made_both o Hm) as (g & _ & (j & f0 & wt & Eg & Ef)).
  destruct (cart_made_both o' Hm') as (g' & _ & (j' & f0' & wt' & Eg' & Ef')).
  pose proof (forcing_term_init_n _ _ _ _ _ _ _ _ Eg) as (N & G & St & _ & Az & _).
  pose proof (forcing_term_init_n _ _ _ _ _ _ _ _ Eg') as (N' & G' & St' & _ & Az' & _).
  rewrite Ef, Ef' in *. cbn [set_ft_weights ft_goal_t ft_weights] in S4, S9.
  rewrite S2 in *. assert (Hgg : g' = g) by congruence. rewrite Hgg in Eg', G'.
  assert (HP : forall t, ft_phase (set_ft_weights wt' f0') t = ft_phase (set_ft_weights wt f0) t).
  { intros t. unfold ft_phase. cbn [set_ft_weights ft_n ft_alpha_z ft_goal_t ft_start_t]. congruence. }
  split; auto. intros t. unfold turn_force. rewrite Ef, Ef'.
  assert (HF : forall d, (d < 3)%nat -> ft_call (set_ft_weights wt' f0') t d = ft_call (set_ft_weights wt f0) t d).
  { intros d Hd. unfold ft_call. rewrite HP. set (z := ft_phase (set_ft_weights wt f0) t). clearbody z.
    unfold ft_forces. cbn [set_ft_weights ft_n ft_weights ft_centers ft_widths] in *.
    rewrite N', N. f_equal. apply rsum_ext. intros i Hi. rewrite (S9 d i Hd Hi). f_equal.
    apply activations_ext; auto. intros k Hk.
    apply (C02_fully_initialised _ _ _ _ _ _ _ _ _ _ _ Eg' Eg k Hk). }
  cbv zeta. rewrite !HF by lia. reflexivity.
Qed.

Lemma turn_unit T (q : R -> quat) (w : R -> v3) : unit_quat (q 0) ->
  (forall t, 0 <= t <= T -> is_derive_quat q t (quat_rate (w t) (q t))) ->
  forall t, 0 <= t <= T -> unit_quat (q t).
Proof.
  intros U D t Ht.
  set (n := fun s => qw (q s) * qw (q s) + qx (q s) * qx (q s) + qy (q s) * qy (q s) + qz (q s) * qz (q s)).
  assert (Dn : forall s, 0 <= s <= T -> is_derive n s 0).
  { intros s Hs. destruct (D s Hs) as (D1 & D2 & D3 & D4).
    pose proof (is_derive_mult _ _ _ _ _ D1 D1 Rmult_comm) as M1. pose proof (is_derive_mult _ _ _ _ _ D2 D2 Rmult_comm) as M2.
    pose proof (is_derive_mult _ _ _ _ _ D3 D3 Rmult_comm) as M3. pose proof (is_derive_mult _ _ _ _ _ D4 D4 Rmult_comm) as M4.
    pose proof (is_derive_plus _ _ _ _ _ (is_derive_plus _ _ _ _ _ (is_derive_plus _ _ _ _ _ M1 M2) M3) M4) as M.
    refine (eq_ind _ (fun d => is_derive n s d) M 0 _). unfold plus, mult; cbn. field. }
  pose proof (derive_lip T n (fun _ => 0) 0 Dn ltac:(intros; cbv beta; rewrite Rabs_R0; lra) t 0 Ht ltac:(lra)) as B.
  rewrite Rmult_0_l in B. pose proof (Rabs_pos (n t - n 0)) as P.
  assert (E : n t - n 0 = 0) by (destruct (Req_dec (n t - n 0) 0) as [|X]; auto; apply Rabs_pos_lt in X; lra).
  unfold unit_quat, n in *. lra.
Qed.

(** What [P_TurningOde] assumes of a solution. *)
Lemma turn_equation_facts o T delta q w e : 0 < T -> 0 < delta -> unit_quat (start_orientation o) ->
  unit_quat (goal_orientation o) -> turn_equation o T delta q w e ->
  exists c, 0 < c
  /\ (forall t, 0 <= t <= T -> unit_quat (q t) /\ is_derive_quat q t (quat_rate (w t) (q t))
       /\ is_derive_v3 w t (turn_acc (k_execution_time o) (turn_gains (k_alpha o)) (turn_gains (k_beta o)) (k_smooth o)
            (ft_phase (k_frot o)) (turn_force o) t (e t) (w t) (e 0)))
  /\ (forall t, 0 <= t <= T -> v3_norm (e t) <= PI /\ c <= cos (v3_norm (e t) / 2)
       /\ same_orientation (cy_exp (e t)) (hamilton (goal_orientation o) (cy_conj (q t)))).
Proof.
  intros HT Hdel Us Ug (E0 & W0 & Hq). pose proof PI_RGT_0 as HP.
  assert (Hde : delta <= PI).
  { destruct (Hq 0 ltac:(lra)) as [H0 _]. pose proof (v3_norm_pos (e 0)). lra. }
  assert (U : forall t, 0 <= t <= T -> unit_quat (q t)).
  { apply (turn_unit T q w); [now rewrite E0|]. intros t Ht. apply (Hq t Ht). }
  exists (cos ((PI - delta) / 2)). split; [apply cos_gt_0; lra|]. split.
  - intros t Ht. destruct (Hq t Ht) as (_ & _ & D1 & D2). split; auto. split; auto.
    match type of D2 with is_derive_v3 _ _ ?d => match goal with |- is_derive_v3 _ _ ?d' => replace d' with d; auto end end.
    unfold turn_acc. destruct (k_smooth o); auto. do 4 f_equal. apply v3_eq; cbn; ring.
  - intros t Ht. destruct (Hq t Ht) as (H1 & H2 & _). pose proof (v3_norm_pos (e t)). split; [lra|]. split.
    + apply cos_decr_1; lra.
    + apply turned_exp; auto.
Qed.

Lemma lip3_force o T : cart_made o -> lip3 T (turn_force o).
Proof.
  intros Hm. destruct (cart_made_both o Hm) as (g & _ & (j & f0 & wt & Eg & Ef)).
  pose proof (forcing_term_init_n _ _ _ _ _ _ _ _ Eg) as (N & _ & _ & _ & _ & N2 & _).
  assert (Hn : (0 < ft_n (k_frot o))%nat) by (rewrite Ef; cbn; lia).
  unfold lip3, turn_force, ft_call. cbn [v3x v3y v3z]. split; [|split]; now apply lipb_forces.
Qed.

Lemma q_body_turn i o P V t h : let a := cart_rot_open_args o None in
  q_body i a t h (P, V) =
  (let V' := v3_add V (v3_scale h (turn_acc (k_execution_time o) (turn_gains (k_alpha o)) (turn_gains (k_beta o)) (k_smooth o)
            (ft_phase (k_frot o)) (turn_force o) t (q_error i (goal_orientation o) P) V
            (q_error i (goal_orientation o) (start_orientation o)))) in
   (i_mul i (i_exp i (v3_scale h V')) P, V')).
Proof.
  intros a. unfold q_body. cbv zeta.
  assert (EC : q_coupling i a P V = (v3_zero, v3_zero)) by (destruct i; reflexivity).
  rewrite EC.
  match goal with |- (i_mul i (i_exp i (v3_scale h ?v)) P, _) = (i_mul i (i_exp i (v3_scale h ?v')) P, _) =>
    assert (E : v = v') end.
  2:{ rewrite E. reflexivity. }
  f_equal. unfold q_acc, turn_acc.
  change (g_goal_t a) with (k_execution_time o). change (g_start_t a) with 0. rewrite Rminus_0_r.
  change (g_forcing_term a) with (k_frot o). change (g_smooth_scaling a) with (k_smooth o).
  change (g_alpha_y a) with (turn_gains (k_alpha o)). change (g_beta_y a) with (turn_gains (k_beta o)).
  change (g_goal_y a) with (goal_orientation o). change (g_start_y a) with (start_orientation o).
  change (turn_force o t) with (v3_of (ft_forces (k_frot o) (ft_phase (k_frot o) t))).
  apply v3_eq; destruct (k_smooth o); cbn; unfold Rdiv; ring.
Qed.

Section Run.
Variables (o : cart) (T delta : R) (q : R -> quat) (w e : R -> v3).
Hypothesis Hm : cart_made o.
Hypothesis Htau : 0 < k_execution_time o.
Hypothesis HT : 0 < T.
Hypothesis Hdel : 0 < delta.
Hypothesis Us : unit_quat (start_orientation o).
Hypothesis Ug : unit_quat (goal_orientation o).
Hypothesis HE : turn_equation o T delta q w e.

Lemma turn_run_error : exists C, 0 <= C /\
  forall o' i s, cart_made o' -> same_turn_equation o o' -> 0 < k_dt o' -> 0 < k_int_dt o' ->
  forall k, INR k * k_dt o' <= T ->
  run_seq (q_step i (cart_rot_open_args o' None)) 0 (k_dt o') (start_orientation o', v3_zero) k = Ok s ->
  unit_quat (fst s) /\ err (fst s) (q (INR k * k_dt o')) <= C * (Rmin (k_dt o') (k_int_dt o') + / 10 ^ 7).
Proof.
  destruct (turn_equation_facts o T delta q w e HT Hdel Us Ug HE) as (c & Hc & Hq & He).
  destruct HE as (E0 & W0 & _).
  destruct (turn_step T (goal_orientation o) (k_execution_time o) (turn_gains (k_alpha o)) (turn_gains (k_beta o)) (k_smooth o)
     (ft_phase (k_frot o)) (turn_force o) HT Htau Ug (lipb_phase 0 T _) (lip3_force o T Hm) q w e c Hq Hc He)
    as (C & K & PC & PK & HS).
  pose proof kappa_pos as Pk.
  set (M := C * (4 * T) * exp (K * T)). pose proof (exp_pos (K * T)) as PE.
  assert (PM : 0 <= M) by (unfold M; apply Rmult_le_pos; [apply Rmult_le_pos; lra|lra]).
  exists M. split; [exact PM|].
  intros o' i s Hm' HS' Hdt Hint.
  destruct (same_turn_forces o o' Hm Hm' HS') as [HP HF].
  destruct HS' as (S1 & S2 & S3 & S4 & S5 & S6 & S7 & S8 & S9).
  set (a := cart_rot_open_args o' None).
  set (H := Rmin (k_dt o') (k_int_dt o')). assert (PH : 0 < H) by (unfold H; apply Rmin_glb_lt; auto).
  set (I := fun t (s : quat * v3) => unit_quat (fst s) /\
     gap q w t (fst s) (snd s) <= C * (H + 4 * kappa) * t * exp (K * t)).
  assert (Body : forall t h s, 0 <= t -> 0 < h <= H -> t + h <= T -> I t s -> I (t + h) (q_body i a (t + h) h s)).
  { intros t h [P V] Ht Hh HtT [UP HG]. cbn [fst snd] in *. unfold a. rewrite q_body_turn. cbv zeta.
    assert (ET : forall f v f0, turn_acc (k_execution_time o') (turn_gains (k_alpha o')) (turn_gains (k_beta o')) (k_smooth o')
       (ft_phase (k_frot o')) (turn_force o') (t + h) f v f0
      = turn_acc (k_execution_time o) (turn_gains (k_alpha o)) (turn_gains (k_beta o)) (k_smooth o)
       (ft_phase (k_frot o)) (turn_force o) (t + h) f v f0).
    { intros. unfold turn_acc. rewrite S1, S3, S5, S6, HP, HF. reflexivity. }
    rewrite !ET, S7, S8. set (f := q_error i (goal_orientation o) P). set (f0 := q_error i (goal_orientation o) (start_orientation o)).
    assert (B : v3_norm (v3_sub f (e t)) <= log_lip c * err P (q t) + 4 * kappa).
    { apply (log_error_goal T (goal_orientation o) Ug q e c Hc He i); auto; [lra|now left]. }
    assert (B0 : v3_norm (v3_sub f0 (e 0)) <= 4 * kappa).
    { pose proof (log_error_goal T (goal_orientation o) Ug q e c Hc He i (goal_orientation o) (start_orientation o) 0
        ltac:(lra) Us ltac:(now left)) as B0. rewrite E0, err_same in B0 by auto. fold f0 in B0. lra. }
    specialize (HS i (4 * kappa) t h P V f f0 ltac:(lra) Ht (proj1 Hh) HtT UP B B0). cbv zeta in HS.
    split; cbn [fst snd].
    - rewrite i_mul_unit by auto using i_exp_unit. apply hamilton_unit; auto using i_exp_unit.
    - apply (gronwall_resolution K C (H + 4 * kappa) t h (gap q w t P V)); auto; try lra.
      eapply Rle_trans; [exact HS|]. apply Rplus_le_compat_l.
      apply Rmult_le_compat_l; [lra|]. apply Rmult_le_compat_l; lra. }
  assert (Runs : forall k s, INR k * k_dt o' <= T ->
     run_seq (q_step i a) 0 (k_dt o') (start_orientation o', v3_zero) k = Ok s -> I (INR k * k_dt o') s).
  { induction k as [|k IH]; intros s' HkT E.
    - cbn [run_seq] in E. injection E as <-. cbn [INR]. rewrite Rmult_0_l. unfold I. cbn [fst snd].
      rewrite S7. split; auto. unfold gap. rewrite E0, W0, err_same, Rmult_0_r by auto.
      unfold n1, v3_sub, v3_zero. cbn [v3x v3y v3z]. rewrite Rminus_0_r, Rabs_R0. lra.
    - cbn [run_seq] in E. destruct (run_seq _ _ _ _ k) as [sk|] eqn:Ek; [|discriminate]. cbn [bind] in E.
      assert (Ed : INR (S k) * k_dt o' - INR k * k_dt o' = k_dt o') by (rewrite S_INR; ring).
      specialize (IH sk ltac:(lra) eq_refl). rewrite !Rplus_0_l in E.
      set (t0 := INR k * k_dt o') in *. set (t1 := INR (S k) * k_dt o') in *.
      assert (P0 : 0 <= t0) by (apply Rmult_le_pos; [apply pos_INR|lra]).
      destruct (substeps_tiles t0 t1 (k_int_dt o') Hint ltac:(lra)) as (l & Hl & EL).
      assert (Es : s' = exec_substeps (q_body i a) l sk).
      { unfold q_step in E. change (g_goal_t a) with (k_execution_time o') in E. change (g_start_t a) with 0 in E.
        change (g_int_dt a) with (k_int_dt o') in E. rewrite S1 in E. destruct i.
        - destruct (Rle_dec (k_execution_time o) 0); [lra|]. destruct (Rle_dec t1 0); [lra|]. rewrite EL in E. congruence.
        - destruct (Rle_dec t1 0); [lra|]. rewrite EL in E. congruence. }
      subst s'. destruct (tiles_min _ _ _ _ Hl) as [Hl' | ->].
      + rewrite Ed in Hl'. fold H in Hl'. apply (exec_substeps_inv I (q_body i a) l t0 t1 H); auto.
        intros t h s0 Ht Hh HtT. apply Body; auto; lra.
      + cbn in Hl. lra. }
  intros k HkT E. destruct (Runs k s HkT E) as [U G]. split; auto.
  unfold gap in G. pose proof (n1_pos (v3_sub (snd s) (w (INR k * k_dt o')))) as Pn.
  set (t := INR k * k_dt o') in *. assert (P0 : 0 <= t) by (apply Rmult_le_pos; [apply pos_INR|lra]).
  change (/ 10 ^ 7) with kappa.
  assert (X : C * (H + 4 * kappa) * t * exp (K * t) <= M * (H + kappa)).
  { assert (exp (K * t) <= exp (K * T)).
    { destruct (Rle_lt_or_eq_dec (K * t) (K * T)) as [L| ->]; [apply Rmult_le_compat_l; auto| |lra].
      apply Rlt_le, exp_increasing; auto. }
    apply Rle_trans with (C * (4 * (H + kappa)) * T * exp (K * T)); [|unfold M; lra].
    pose proof (exp_pos (K * t)).
    apply Rmult_le_compat; auto; try lra.
    - apply Rmult_le_pos; auto. apply Rmult_le_pos; lra.
    - apply Rmult_le_compat; auto; try lra; [apply Rmult_le_pos; lra|]. apply Rmult_le_compat_l; lra. }
  lra.
Qed.
End Run.

(** ** C119 *)
(** The error of all orientations within the duration [T] is proportional to the length of an
    integration step, up to the resolution 1e-7 of the logarithm of quaternions; the
    constant does not depend on [dt], [int_dt] and the implementation. *)
Theorem C119_orientations : forall o T delta q w e, cart_made o -> 0 < k_execution_time o -> 0 < T -> 0 < delta ->
  unit_quat (start_orientation o) -> unit_quat (goal_orientation o) -> turn_equation o T delta q w e ->
  exists C, 0 <= C /\
  forall o' fn i run_t ts ys, cart_made o' -> same_turn_equation o o' -> 0 < k_dt o' -> 0 < k_int_dt o' ->
  cart_open_loop run_t None (Some fn) (Some i) o' = Ok (ts, ys) ->
  length ys = length ts /\
  forall k, (k < length ts)%nat -> nth k ts 0 <= T ->
    unit_quat (attitude (aget (nth k ys (zeros 7))))
    /\ angle_between (attitude (aget (nth k ys (zeros 7)))) (q (nth k ts 0))
       <= C * (Rmin (k_dt o') (k_int_dt o') + / 10 ^ 7).
Proof.
  intros o T delta q w e Hm Htau HT Hdel Us Ug HE.
  destruct (turn_run_error o T delta q w e Hm Htau HT Hdel Us Ug HE) as (C & PC & HR).
  exists C. split; auto. intros o' fn i run_t ts ys Hm' HS Hdt Hint HO.
  destruct (open_loop_turns_any fn i o' run_t ts ys HO) as (rt & l & EQ & HL1 & HL2 & Hnth).
  split; auto. intros k Hk HkT. destruct (Hnth k Hk) as (s & En & Ea). rewrite Ea.
  unfold q_open_loop in EQ. destruct (run_on_grid_seq _ _ _ _ _ _ _ EQ) as [_ Hseq].
  destruct (Hseq k Hk) as (Et & s' & En' & Er). rewrite En in En'. injection En' as <-.
  rewrite (nth_error_nth _ _ _ Et) in *. change (g_start_t (cart_rot_open_args o' None)) with 0 in *.
  rewrite Rplus_0_l in *. rewrite angle_between_err. apply (HR o' i s); auto.
Qed.

(** The equation has at most one solution. *)
Theorem C119_unique : forall o T delta delta' q w e q' w' e', cart_made o -> 0 < k_execution_time o -> 0 < T ->
  0 < delta -> 0 < delta' -> unit_quat (start_orientation o) -> unit_quat (goal_orientation o) ->
  turn_equation o T delta q w e -> turn_equation o T delta' q' w' e' ->
  forall t, 0 <= t <= T -> w' t = w t /\ forall x, rotate (q' t) x = rotate (q t) x.
Proof.
  intros o T delta delta' q w e q' w' e' Hm Htau HT Hdel Hdel' Us Ug HE HE' t Ht.
  destruct (turn_equation_facts o T delta q w e HT Hdel Us Ug HE) as (c & Hc & Hq & He).
  destruct (turn_equation_facts o T delta' q' w' e' HT Hdel' Us Ug HE') as (c' & Hc' & Hq' & He').
  destruct HE as (E0 & W0 & _). destruct HE' as (E0' & W0' & _).
  destruct (turn_step T (goal_orientation o) (k_execution_time o) (turn_gains (k_alpha o)) (turn_gains (k_beta o)) (k_smooth o)
     (ft_phase (k_frot o)) (turn_force o) HT Htau Ug (lipb_phase 0 T _) (lip3_force o T Hm) q w e c Hq Hc He)
    as (C & K & PC & PK & HS).
  destruct (turn_step T (goal_orientation o) (k_execution_time o) (turn_gains (k_alpha o)) (turn_gains (k_beta o)) (k_smooth o)
     (ft_phase (k_frot o)) (turn_force o) HT Htau Ug (lipb_phase 0 T _) (lip3_force o T Hm) q' w' e' c' Hq' Hc' He')
    as (C' & K' & PC' & PK' & HS').
  set (f0 := e 0).
  assert (B0 : v3_norm (v3_sub f0 (e 0)) <= 0) by (unfold f0; rewrite v3_sub_same; lra).
  assert (B0' : v3_norm (v3_sub f0 (e' 0)) <= 0).
  { destruct (He 0 ltac:(lra)) as (N0 & _ & So). rewrite E0 in So.
    pose proof (turn_diff_goal T (goal_orientation o) Ug q' e' c' Hc' He' f0 (start_orientation o) 0 ltac:(lra) Us N0 So) as B.
    rewrite E0', err_same, Rmult_0_r in B by auto. exact B. }
  assert (Close : forall h, 0 < h -> forall k, INR k * h <= T -> exists P V, unit_quat P
     /\ gap q w (INR k * h) P V <= C * h * (INR k * h) * exp (K * (INR k * h))
     /\ gap q' w' (INR k * h) P V <= C' * h * (INR k * h) * exp (K' * (INR k * h))).
  { intros h Hh. induction k as [|k IH]; intros HkT.
    - exists (start_orientation o), v3_zero. split; auto. cbn [INR]. rewrite Rmult_0_l.
      unfold gap. rewrite E0, E0', W0, W0', err_same by auto.
      unfold n1, v3_sub, v3_zero. cbn [v3x v3y v3z]. rewrite Rminus_0_r, Rabs_R0. lra.
    - rewrite S_INR in *. replace ((INR k + 1) * h) with (INR k * h + h) in * by ring.
      destruct (IH ltac:(lra)) as (P & V & UP & G & G').
      set (s := INR k * h) in *. assert (Ps : 0 <= s) by (apply Rmult_le_pos; [apply pos_INR|lra]).
      assert (Ud : unit_quat (hamilton (goal_orientation o) (cy_conj P))) by (apply hamilton_unit; auto using cy_conj_unit).
      destruct (exp_inverse _ Ud) as (f & Sf & Nf). pose proof (rot_angle_bound _ Ud) as RB.
      pose proof (turn_diff_goal T (goal_orientation o) Ug q e c Hc He f P s ltac:(lra) UP ltac:(lra) Sf) as B.
      pose proof (turn_diff_goal T (goal_orientation o) Ug q' e' c' Hc' He' f P s ltac:(lra) UP ltac:(lra) Sf) as B'.
      specialize (HS Cython 0 s h P V f f0 ltac:(lra) Ps Hh HkT UP ltac:(lra) B0).
      specialize (HS' Cython 0 s h P V f f0 ltac:(lra) Ps Hh HkT UP ltac:(lra) B0').
      cbv zeta in HS, HS'. eexists; eexists. split; [|split].
      2:{ apply (gronwall_resolution K C h s h (gap q w s P V)); auto; [lra|]. rewrite Rplus_0_r in HS. exact HS. }
      2:{ apply (gronwall_resolution K' C' h s h (gap q' w' s P V)); auto; [lra|]. rewrite Rplus_0_r in HS'. exact HS'. }
      rewrite i_mul_unit by auto using i_exp_unit. apply hamilton_unit; auto using i_exp_unit. }
  set (A := C * t * exp (K * t) + C' * t * exp (K' * t)).
  pose proof (exp_pos (K * t)) as PE. pose proof (exp_pos (K' * t)) as PE'.
  assert (PA : 0 <= A).
  { unfold A. apply Rplus_le_le_0_compat; (apply Rmult_le_pos; [apply Rmult_le_pos; lra|lra]). }
  set (D := err (q' t) (q t) + n1 (v3_sub (w' t) (w t))).
  assert (Dh : forall N, (0 < N)%nat -> D <= A * (t / INR N)).
  { intros N HN. assert (PN : 0 < INR N) by now apply lt_0_INR.
    destruct (Rle_lt_or_eq_dec 0 t (proj1 Ht)) as [Pt| <-].
    - assert (Eh : INR N * (t / INR N) = t) by (field; lra).
      destruct (Close (t / INR N) (Rdiv_lt_0_compat _ _ Pt PN) N ltac:(lra)) as (P & V & UP & G & G').
      rewrite Eh in *. unfold gap in *.
      assert (T1 : err (q' t) (q t) <= err P (q' t) + err P (q t)).
      { rewrite (err_sym P (q' t)). apply (err_triangle _ P); auto; [now apply Hq'|now apply Hq]. }
      assert (T2 : n1 (v3_sub (w' t) (w t)) <= n1 (v3_sub V (w' t)) + n1 (v3_sub V (w t))).
      { unfold n1. cbn [v3_sub v3x v3y v3z].
        assert (X : forall x y z : R, Rabs (x - y) <= Rabs (z - x) + Rabs (z - y)).
        { intros x y z. replace (x - y) with ((z - y) - (z - x)) by ring.
          pose proof (Rabs_triang (z - y) (- (z - x))) as Y. rewrite Rabs_Ropp in Y. unfold Rminus at 1. lra. }
        pose proof (X (v3x (w' t)) (v3x (w t)) (v3x V)). pose proof (X (v3y (w' t)) (v3y (w t)) (v3y V)).
        pose proof (X (v3z (w' t)) (v3z (w t)) (v3z V)). lra. }
      unfold D, A. lra.
    - unfold D. rewrite E0, E0', W0, W0', err_same by auto. unfold n1, v3_sub, v3_zero. cbn [v3x v3y v3z].
      rewrite Rminus_0_r, Rabs_R0. unfold Rdiv. rewrite Rmult_0_l, Rmult_0_r. lra. }
  assert (U : unit_quat (q t)) by now apply Hq. assert (U' : unit_quat (q' t)) by now apply Hq'.
  pose proof (err_bound _ _ U' U) as [P1 _]. pose proof (n1_pos (v3_sub (w' t) (w t))) as P2.
  assert (D0 : D <= 0).
  { destruct (Rle_dec D 0) as [|X]; auto. exfalso.
    assert (X' : 0 < D) by lra.
    destruct (archimed_cor1 (D / (A * t + 1))) as (N & HN & PN).
    { assert (0 <= A * t) by (apply Rmult_le_pos; lra). apply Rdiv_lt_0_compat; lra. }
    specialize (Dh N PN). assert (Pt : 0 <= A * t) by (apply Rmult_le_pos; lra).
    assert (0 < INR N) by now apply lt_0_INR.
    assert (HD : D <= A * t * / INR N) by (unfold Rdiv in Dh; lra).
    assert (PI' : 0 < / INR N) by now apply Rinv_0_lt_compat.
    assert (A * t * / INR N <= A * t * (D / (A * t + 1))) by (apply Rmult_le_compat_l; lra).
    assert (A * t * (D / (A * t + 1)) < D).
    { apply Rmult_lt_reg_r with (A * t + 1); [lra|]. replace (A * t * (D / (A * t + 1)) * (A * t + 1)) with (A * t * D) by (field; lra).
      nra. }
    lra. }
  unfold D in D0. split.
  - assert (Z : n1 (v3_sub (w' t) (w t)) = 0) by lra. unfold n1 in Z. cbn [v3_sub v3x v3y v3z] in Z.
    pose proof (Rabs_pos (v3x (w' t) - v3x (w t))). pose proof (Rabs_pos (v3y (w' t) - v3y (w t))).
    pose proof (Rabs_pos (v3z (w' t) - v3z (w t))).
    assert (G : forall x y, Rabs (x - y) = 0 -> x = y).
    { intros x y Hx. destruct (Req_dec (x - y) 0) as [|N]; [lra|]. apply Rabs_no_R0 in N. lra. }
    apply v3_eq; apply G; lra.
  - assert (Z : err (q' t) (q t) = 0) by lra. unfold err in Z.
    assert (Ud : unit_quat (hamilton (q' t) (cy_conj (q t)))) by (apply hamilton_unit; auto using cy_conj_unit).
    destruct (exp_inverse _ Ud) as (u & Su & Nu). rewrite Z in Nu.
    assert (Eu : cy_exp u = q_one).
    { apply v3_norm_0 in Nu. subst u. apply cy_exp_zero. }
    assert (ED : forall x, rotate (hamilton (q' t) (cy_conj (q t))) x = x).
    { intros x. rewrite Eu in Su. destruct Su as [<- | Su]; [apply rotate_one|].
      rewrite <- rotate_neg, <- Su. apply rotate_one. }
    intros x. replace (q' t) with (hamilton (hamilton (q' t) (cy_conj (q t))) (q t)).
    + rewrite rotate_hamilton by auto. apply ED.
    + rewrite hamilton_assoc, conj_l by auto. apply quat_eq; cbn; ring.
Qed.

(** Without forcing term a movement with critically damped gains follows the shortest way:
    it turns about a fixed axis, and the angle that remains is (1 + l t) exp(- l t) times the
    angle at the start, with l = alpha / (2 tau). *)
Theorem C119_unforced : forall o T a, cart_made o -> 0 < k_execution_time o -> 0 < T -> 0 < a ->
  turn_gains (k_alpha o) = V3 a a a -> turn_gains (k_beta o) = V3 (a / 4) (a / 4) (a / 4) -> k_smooth o = false ->
  (forall d i, (d < 3)%nat -> (i < k_n o)%nat -> ft_weights (k_frot o) d i = 0) ->
  unit_quat (start_orientation o) -> unit_quat (goal_orientation o) ->
  let angle := angle_between (goal_orientation o) (start_orientation o) in
  let remaining := fun t => (1 + a / (2 * k_execution_time o) * t) * exp (- (a / (2 * k_execution_time o) * t)) in
  angle < PI ->
  exists axis C, unit_v3 axis /\ 0 <= C
  /\ (forall v, rotate (goal_orientation o) v = rodrigues axis angle (rotate (start_orientation o) v))
  /\ forall o' fn i run_t ts ys, cart_made o' -> same_turn_equation o o' -> 0 < k_dt o' -> 0 < k_int_dt o' ->
     cart_open_loop run_t None (Some fn) (Some i) o' = Ok (ts, ys) ->
     forall k p, (k < length ts)%nat -> nth k ts 0 <= T -> unit_quat p ->
       (forall v, rotate p v = rodrigues axis ((1 - remaining (nth k ts 0)) * angle) (rotate (start_orientation o) v)) ->
       angle_between (attitude (aget (nth k ys (zeros 7)))) p <= C * (Rmin (k_dt o') (k_int_dt o') + / 10 ^ 7).
Proof.
  intros o T a Hm Htau HT Ha Eal Ebe Esm HW Us Ug angle x Hang.
  set (tau := k_execution_time o) in *. set (l := a / (2 * tau)) in *.
  assert (Pl : 0 < l) by (apply Rdiv_lt_0_compat; lra).
  set (s := start_orientation o) in *. set (g := goal_orientation o) in *.
  assert (Ud : unit_quat (hamilton g (cy_conj s))) by (apply hamilton_unit; auto using cy_conj_unit).
  destruct (exp_inverse _ Ud) as (u & Su & Nu).
  assert (Ea : angle = v3_norm u) by (rewrite Nu; apply angle_between_err).
  destruct (v3_polar u) as (axis & Hax & Eu).
  assert (Pa : 0 <= angle) by (rewrite Ea; apply v3_norm_pos).
  assert (HG : forall v, rotate g v = rodrigues axis angle (rotate s v)).
  { intros v. rewrite <- rotate_axis, <- rotate_hamilton by auto using axis_quat_unit.
    assert (Ex : cy_exp u = axis_quat axis angle) by (rewrite Eu, <- Ea; now apply cy_exp_axis).
    assert (Eg : g = hamilton (hamilton g (cy_conj s)) s).
    { rewrite hamilton_assoc, conj_l by auto. destruct g; apply quat_eq; cbn; ring. }
    rewrite Eg at 1. rewrite <- Ex. destruct Su as [-> | ->]; auto. now rewrite hamilton_neg_l, rotate_neg. }
  assert (Add : forall b c v, rodrigues axis b (rodrigues axis c v) = rodrigues axis (b + c) v).
  { intros b c v. rewrite <- !rotate_axis, <- rotate_hamilton by auto using axis_quat_unit. f_equal.
    unfold axis_quat. replace ((b + c) / 2) with (b / 2 + c / 2) by field. rewrite cos_plus, sin_plus.
    destruct axis as [a1 a2 a3].
    assert (Hax2 : a1 * a1 + a2 * a2 + a3 * a3 = 1) by (unfold unit_v3 in Hax; cbn in Hax; lra).
    apply quat_eq; cbn; try ring.
    transitivity (cos (b / 2) * cos (c / 2) - sin (b / 2) * sin (c / 2) * (a1 * a1 + a2 * a2 + a3 * a3)); [ring|].
    rewrite Hax2. ring. }
  set (q := fun t => hamilton (axis_quat axis ((1 - x t) * angle)) s).
  set (w := fun t => v3_scale (l ^ 2 * t * exp (- (l * t)) * angle) axis).
  set (e := fun t => v3_scale (x t * angle) axis).
  assert (X0 : x 0 = 1) by (unfold x; rewrite Rmult_0_r, Ropp_0, exp_0; ring).
  assert (XB : forall t, 0 <= t -> 0 <= x t <= 1).
  { intros t Ht. unfold x. pose proof (exp_pos (- (l * t))) as P. assert (0 <= l * t) by (apply Rmult_le_pos; lra).
    split; [apply Rmult_le_pos; lra|]. pose proof (exp_ineq1_le (l * t)) as B.
    replace 1 with (exp (l * t) * exp (- (l * t))) at 2 by (rewrite <- exp_plus, Rplus_opp_r, exp_0; auto).
    apply Rmult_le_compat_r; lra. }
  assert (Nax : v3_norm axis = 1).
  { unfold unit_v3 in Hax. unfold v3_norm. rewrite <- sqrt_1. f_equal. unfold v3_dot. lra. }
  assert (HE : turn_equation o T (PI - angle) q w e).
  { unfold turn_equation. cbv zeta. rewrite Eal, Ebe, Esm. fold tau s g. split; [|split].
    - unfold q. rewrite X0. replace ((1 - 1) * angle) with 0 by ring. unfold axis_quat.
      replace (0 / 2) with 0 by field. rewrite cos_0, sin_0. destruct s; apply quat_eq; cbn; ring.
    - unfold w, v3_zero. apply v3_eq; cbn; ring.
    - intros t Ht. pose proof (XB t (proj1 Ht)) as B.
      assert (Ne : v3_norm (e t) = x t * angle).
      { unfold e. rewrite v3_norm_scale, Nax, Rabs_pos_eq; [ring|]. apply Rmult_le_pos; lra. }
      split; [rewrite Ne; nra|]. split; [|split].
      + exists axis. split; auto. rewrite Ne. split; [reflexivity|]. intros v. unfold q.
        rewrite rotate_hamilton, rotate_axis by auto using axis_quat_unit. rewrite Add, HG. f_equal. ring.
      + assert (Dx : is_derive x t (- (l ^ 2 * t * exp (- (l * t))))).
        { unfold x. auto_derive; auto. ring. }
        pose proof (is_derive_unique _ _ _ Dx) as Ux'. assert (Ed : ex_derive x t) by (eexists; eauto).
        unfold q, w, quat_rate, axis_quat, is_derive_quat, hamilton.
        set (v := l ^ 2 * t * exp (- (l * t))) in *.
        destruct axis as [a1 a2 a3]. destruct s as [s0 s1 s2 s3]. cbn [qw qx qy qz v3x v3y v3z v3_scale].
        assert (EH : (1 + - x t) * angle * / 2 = (1 - x t) * angle / 2) by (unfold Rdiv, Rminus; ring).
        assert (Hax2 : a1 * a1 + a2 * a2 + a3 * a3 = 1) by (unfold unit_v3 in Hax; cbn in Hax; lra).
        split; [|split; [|split]]; auto_derive; auto; change (Derive (fun x0 : R => x x0) t) with (Derive x t);
          rewrite Ux', ?EH; set (S := sin ((1 - x t) * angle / 2)); set (Co := cos ((1 - x t) * angle / 2)); clearbody S Co.
        * transitivity (- (v * angle / 2) * (S * s0 * (a1 * a1 + a2 * a2 + a3 * a3) + Co * (a1 * s1 + a2 * s2 + a3 * s3))); [rewrite Hax2; field|field].
        * transitivity (v * angle / 2 * (Co * (a1 * s0 + a2 * s3 - a3 * s2) - S * s1 * (a1 * a1 + a2 * a2 + a3 * a3))); [rewrite Hax2; field|field].
        * transitivity (v * angle / 2 * (Co * (a2 * s0 + a3 * s1 - a1 * s3) - S * s2 * (a1 * a1 + a2 * a2 + a3 * a3))); [rewrite Hax2; field|field].
        * transitivity (v * angle / 2 * (Co * (a3 * s0 + a1 * s2 - a2 * s1) - S * s3 * (a1 * a1 + a2 * a2 + a3 * a3))); [rewrite Hax2; field|field].
      + assert (Z : turn_force o t = v3_zero).
        { destruct (cart_made_both o Hm) as (gt & _ & (j & f0 & wt & Eg & Ef)).
          pose proof (forcing_term_init_n _ _ _ _ _ _ _ _ Eg) as (N & _).
          assert (G : forall d, (d < 3)%nat -> ft_call (k_frot o) t d = 0).
          { intros d Hd. unfold ft_call, ft_forces. rewrite (rsum_ext _ _ (fun _ => 0)); [rewrite rsum_const; ring|].
            intros i Hi. rewrite HW; auto; [ring|]. rewrite Ef in Hi. cbn in Hi. lia. }
          unfold turn_force. cbv zeta. rewrite !G by lia. reflexivity. }
        rewrite Z. unfold w, e, x, is_derive_v3. destruct axis as [a1 a2 a3]. cbn [v3x v3y v3z v3_scale].
        assert (El : a = 2 * l * tau) by (unfold l; field; lra).
        split; [|split]; auto_derive; auto; cbn; rewrite El; field; lra. }
  destruct (C119_orientations o T (PI - angle) q w e Hm Htau HT ltac:(lra) Us Ug HE) as (C & PC & HC).
  exists axis, C. split; auto. split; auto. split; auto.
  intros o' fn i run_t ts ys Hm' HS Hdt Hint HO k p Hk HkT Up Hp.
  destruct (HC o' fn i run_t ts ys Hm' HS Hdt Hint HO) as [_ HK]. destruct (HK k Hk HkT) as [_ B].
  eapply Rle_trans; [|exact B]. apply Req_le.
  assert (Sp : same_orientation p (q (nth k ts 0))).
  { apply same_rotation; auto; [apply hamilton_unit; auto using axis_quat_unit|].
    intros v. unfold q. rewrite rotate_hamilton, rotate_axis by auto using axis_quat_unit. apply Hp. }
  destruct Sp as [-> | ->]; auto. unfold angle_between. do 2 f_equal. rewrite <- Rabs_Ropp. f_equal.
  destruct (q (nth k ts 0)); cbn; ring.
Qed.

(** A turn by one radian about the x axis with the default gains and without weights: the
    solution is a critically damped spring, and there are runs with any time steps. *)
Example C119_satisfiable : forall T h hi, 0 < T -> 0 < h -> 0 < hi ->
  let x := fun t => (1 + 25 / 2 * t) * exp (- (25 / 2 * t)) in
  let q := fun t => axis_quat (V3 1 0 0) (1 - x t) in
  let w := fun t => V3 ((25 / 2) ^ 2 * t * exp (- (25 / 2 * t))) 0 0 in
  let e := fun t => V3 (x t) 0 0 in
  exists o o' ts ys, cart_made o /\ 0 < k_execution_time o
  /\ unit_quat (start_orientation o) /\ unit_quat (goal_orientation o)
  /\ start_orientation o <> goal_orientation o /\ angle_between (goal_orientation o) (start_orientation o) = 1
  /\ turn_gains (k_alpha o) = V3 25 25 25 /\ turn_gains (k_beta o) = V3 (25 / 4) (25 / 4) (25 / 4) /\ k_smooth o = false
  /\ (forall d i, ft_weights (k_frot o) d i = 0)
  /\ turn_equation o T 2 q w e
  /\ cart_made o' /\ same_turn_equation o o' /\ k_dt o' = h /\ k_int_dt o' = hi
  /\ cart_open_loop (Some T) None (Some Euler) (Some Python) o' = Ok (ts, ys).
Proof.
  intros T h hi HT Hh Hhi x q w e.
  assert (Ux : unit_v3 (V3 1 0 0)) by (unfold unit_v3; cbn; ring).
  assert (N1 : forall x, v3_norm (V3 x 0 0) = Rabs x).
  { intros z. unfold v3_norm, v3_dot. cbn. replace (z * z + 0 * 0 + 0 * 0) with (Rsqr z) by (unfold Rsqr; ring).
    apply sqrt_Rsqr_abs. }
  assert (X0 : x 0 = 1) by (unfold x; rewrite Rmult_0_r, Ropp_0, exp_0; ring).
  assert (XB : forall t, 0 <= t -> 0 <= x t <= 1).
  { intros t Ht. unfold x. pose proof (exp_pos (- (25 / 2 * t))) as P. split; [apply Rmult_le_pos; lra|].
    pose proof (exp_ineq1_le (25 / 2 * t)) as B.
    replace 1 with (exp (25 / 2 * t) * exp (- (25 / 2 * t))) at 2 by (rewrite <- exp_plus, Rplus_opp_r, exp_0; auto).
    apply Rmult_le_compat_r; lra. }
  destruct (init_forcing_term_accepts (vzero, vzero) 2 1) as [f Ef]; [lia|lra|].
  destruct (init_forcing_term_inv _ _ _ _ Ef) as (_ & _ & F).
  pose proof (forcing_term_init_n _ _ _ _ _ _ _ _ F) as (Fn & Fg & Fs & Fo & Fa & _).
  assert (FW : forall d k, ft_weights f d k = 0).
  { unfold forcing_term_init in F. cbn [Nat.leb] in F. destruct (Rle_dec 1 0); [lra|]. destruct (Rle_dec (8/10) 0); [lra|].
    destruct (init_rbfs _ _ _ _ _ _ _). inversion F. reflexivity. }
  set (cfg := {| c_t := None; c_start_y := Some (pose vzero (axis_quat (V3 1 0 0) 0)); c_start_yd := None; c_start_ydd := None;
     c_goal_y := Some (pose vzero (axis_quat (V3 1 0 0) 1)); c_goal_yd := None; c_goal_ydd := None |}).
  assert (Mk : forall d di, exists o, cart_made o /\ k_execution_time o = 1 /\ k_n o = 2%nat /\ k_smooth o = false
     /\ k_frot o = f /\ turn_gains (k_alpha o) = V3 25 25 25 /\ turn_gains (k_beta o) = V3 (25/4) (25/4) (25/4)
     /\ start_orientation o = axis_quat (V3 1 0 0) 0 /\ goal_orientation o = axis_quat (V3 1 0 0) 1
     /\ k_dt o = d /\ k_int_dt o = di).
  { intros d di. eexists. split.
    - exists (vzero, vzero), (vzero, vzero), 1, (1/100), 2%nat, (1/1000), false,
      {| shape := []; data := fun _ => 25 |}, {| shape := []; data := fun _ => 25/4 |}.
      eexists. exists [KConfigure cfg; KSetDt d; KSetIntDt di]. split.
      + unfold cart_new. rewrite Ef. cbn [bind]. unfold ensure_1d_array. cbn -[Nat.eqb]. reflexivity.
      + reflexivity.
    - unfold cart_history. cbn [fold_left cart_exec cart_configure]. repeat split. }
  destruct (Mk (1/100) (1/1000)) as (o & Hm & Ex & En & Esm & Efr & Eal & Ebe & Est & Ego & _ & _).
  destruct (Mk h hi) as (o' & Hm' & Ex' & En' & Esm' & Efr' & Eal' & Ebe' & Est' & Ego' & Edt & Eidt).
  destruct (C69_runs_exist o' None Euler Python (Some T)) as (ts & ys & EO); try lra.
  exists o, o', ts, ys.
  split; [exact Hm|]. split; [lra|]. rewrite Est, Ego.
  split; [now apply axis_quat_unit|]. split; [now apply axis_quat_unit|]. split.
  { intros X. apply (f_equal qx) in X. cbn in X. replace (0 / 2) with 0 in X by field. rewrite sin_0 in X.
    assert (0 < sin (1 / 2)) by (apply sin_gt_0; [lra|pose proof PI2_3_2; lra]). lra. }
  split.
  { unfold angle_between, axis_quat. cbn [qw qx qy qz v3x v3y v3z].
    replace (0 / 2) with 0 by field. rewrite sin_0, cos_0.
    assert (P : 0 < cos (1 / 2)) by (apply cos_gt_0; pose proof PI2_3_2; lra).
    rewrite Rabs_pos_eq by lra.
    replace (cos (1 / 2) * 1 + _ + _ + _) with (cos (1 / 2)) by ring.
    rewrite acos_cos by (pose proof PI2_3_2; lra). field. }
  split; [exact Eal|]. split; [exact Ebe|]. split; [exact Esm|]. split; [rewrite Efr; exact FW|].
  split.
  - unfold turn_equation. cbv zeta. rewrite Est, Ego, Ex, Eal, Ebe, Esm.
    split; [unfold q; rewrite X0; f_equal; ring|]. split; [unfold w, v3_zero; apply v3_eq; cbn; ring|].
    intros t Ht. pose proof (XB t (proj1 Ht)) as B. unfold e. rewrite N1, Rabs_pos_eq by lra.
    split; [pose proof PI2_3_2; lra|]. split; [|split].
    + exists (V3 1 0 0). split; auto. rewrite N1, Rabs_pos_eq by lra. split; [apply v3_eq; cbn; ring|].
      intros u. unfold q. rewrite !rotate_axis by auto.
      assert (EC : cos 1 = cos (x t + (1 - x t))) by (f_equal; ring).
      assert (ES : sin 1 = sin (x t + (1 - x t))) by (f_equal; ring).
      unfold rodrigues. rewrite EC, ES, cos_plus, sin_plus. unfold v3_dot, cross. apply v3_eq; cbn; ring.
    + assert (Dx : is_derive x t (- ((25 / 2) ^ 2 * t * exp (- (25 / 2 * t))))).
      { unfold x. auto_derive; auto. field. }
      pose proof (is_derive_unique _ _ _ Dx) as Ux'. assert (Ed : ex_derive x t) by (eexists; eauto).
      unfold q, w, quat_rate, axis_quat, is_derive_quat. cbn [qw qx qy qz v3x v3y v3z].
      set (v := (25 / 2) ^ 2 * t * exp (- (25 / 2 * t))) in *.
      assert (EH : (1 + - x t) * / 2 = (1 - x t) / 2) by (unfold Rdiv, Rminus; ring).
      change (Derive x t = - v) in Ux'.
      split; [|split; [|split]]; auto_derive; auto; change (Derive (fun x0 : R => x x0) t) with (Derive x t);
        rewrite Ux', ?EH; field.
    + unfold w, is_derive_v3. cbn [v3x v3y v3z].
      assert (Z : turn_force o t = v3_zero).
      { unfold turn_force, ft_call, ft_forces. rewrite Efr. rewrite (rsum_ext _ _ (fun _ => 0)) by (intros; rewrite FW; ring).
        rewrite (rsum_ext (ft_n f) (fun i => ft_weights f 1%nat i * _) (fun _ => 0)) by (intros; rewrite FW; ring).
        rewrite (rsum_ext (ft_n f) (fun i => ft_weights f 2%nat i * _) (fun _ => 0)) by (intros; rewrite FW; ring).
        rewrite rsum_const. apply v3_eq; cbn; ring. }
      rewrite Z. unfold x. split; [|split]; auto_derive; auto; cbn; field.
  - split; [exact Hm'|]. split; [|auto].
    unfold same_turn_equation. rewrite Efr, Efr'. repeat split; congruence.
Qed.
