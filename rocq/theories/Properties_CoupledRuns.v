(** C43 (runs with a leader) and C41 (coupling terms with a state).  Final statements. *)
From Coq Require Import Reals List Arith Bool Lia Lra ZArith FunctionalExtensionality.
From Verif Require Import M_Prelude M_Canonical M_Forcing M_Dmp M_Base M_DmpObject M_Quaternion M_Cartesian M_Dual M_Rigid
  M_Coupling S_Loops S_Rotation S_Rigid P_Loops P_Canonical P_Quaternion P_Cartesian P_DmpObject P_Rigid
  P_Components P_Dual P_DualObject Properties_Cartesian Properties_CartesianObject Properties_DualObject
  Properties_DualArm Properties_DualRuns Properties_Coupling Properties_PoseCoupling.
Import ListNotations.
Open Scope R_scope.
Set Bullet Behavior "Strict Subproofs".

(** The coupling term never contributes anything to one arm (0: left, 1: right). *)
Definition silent_for {CS} (arm : nat) (ct : stateful_coupling CS) : Prop := forall cs y yd,
  let '(_, (cd, cdd)) := ct cs y yd in
  entries (6 * arm) cd = v3_zero /\ entries (6 * arm + 3) cd = v3_zero
  /\ entries (6 * arm) cdd = v3_zero /\ entries (6 * arm + 3) cdd = v3_zero.

Lemma arm_w_entries arm v : (arm <= 1)%nat -> arm_w arm v = entries (6 * arm + 3) v.
Proof. intros H. destruct (arm_dec arm H) as [-> | ->]; reflexivity. Qed.

Lemma arm_step_silent i A cur dt s : ap_gain A = 0 ->
  as_c (arm_step i A cur dt v3_zero v3_zero v3_zero v3_zero s) = v3_zero
  /\ as_cw (arm_step i A cur dt v3_zero v3_zero v3_zero v3_zero s) = v3_zero.
Proof.
  intros Hg. unfold arm_step. cbn [as_c as_cw]. rewrite Hg.
  destruct (ap_te A) as [[te tw]|]; split; apply v3_eq; simpl; unfold Rdiv; ring.
Qed.

Lemma dual_step_function_silent {CS} i a a2 (ct : stateful_coupling CS) arm lt t s s2 cs :
  (arm <= 1)%nat -> silent_for arm ct -> ap_gain (arm_params arm a) = 0 ->
  arm_params arm a2 = arm_params arm a ->
  arm_proj arm (s2, vzero, cs) = arm_proj arm (s, vzero, cs) ->
  match dual_step_function i a (Some ct) lt t s cs, dual_step_function i a2 None lt t s2 cs with
  | Ok (x, _), Ok (x2, _) => arm_p arm (fst x2) = arm_p arm (fst x) /\ arm_q arm (fst x2) = arm_q arm (fst x)
                             /\ arm_v arm (snd x2) = arm_v arm (snd x) /\ arm_w arm (snd x2) = arm_w arm (snd x)
  | Err e, Err e' => e = e'
  | _, _ => False
  end.
Proof.
  intros Ha Hs Hg E Es. unfold dual_step_function.
  pose proof (f_equal ap_int_dt E) as Ei. pose proof (f_equal ap_start_t E) as Est.
  cbn [arm_params ap_int_dt ap_start_t] in Ei, Est. rewrite Ei, Est.
  set (s0 := if Rle_dec t (a_start_t a) then (a_start_y a, a_start_yd a) else s).
  set (s02 := if Rle_dec t (a_start_t a) then (a_start_y a2, a_start_yd a2) else s2).
  assert (Es0 : arm_proj arm (s02, vzero, cs) = arm_proj arm (s0, vzero, cs)).
  { unfold s0, s02. destruct (Rle_dec t (a_start_t a)); [|exact Es].
    pose proof (f_equal ap_start E) as E1. pose proof (f_equal ap_start_q E) as E2.
    pose proof (f_equal ap_start_v E) as E3. pose proof (f_equal ap_start_w E) as E4.
    cbn [arm_params ap_start ap_start_q ap_start_v ap_start_w] in *.
    unfold arm_proj. congruence. }
  clearbody s0 s02.
  pose proof (substeps_rel_any (fun (x : (vec * vec) * vec * CS) (x2 : (vec * vec) * vec * CS) =>
      arm_proj arm x2 = arm_proj arm x /\ as_c (arm_proj arm x) = v3_zero /\ as_cw (arm_proj arm x) = v3_zero)
      (dual_body i a (Some ct)) (dual_body i a2 None)) as HR.
  match type of HR with ?P -> _ => assert (HP : P) end.
  { intros c d x x2 (Hx & Hc & Hcw). rewrite dual_body_arm_none, dual_body_arm by auto. cbv zeta. rewrite Hx, E, Hc, Hcw.
    destruct x as [[[y yd] cdd] k]. specialize (Hs k y yd). destruct (ct k y yd) as [k' [cd cdd']]. cbn [snd].
    destruct Hs as (S1 & S2 & S3 & S4).
    change (arm_v arm cd) with (entries (6 * arm) cd). change (arm_v arm cdd') with (entries (6 * arm) cdd').
    rewrite !arm_w_entries by auto. rewrite S1, S2, S3, S4.
    destruct (arm_step_silent i (arm_params arm a) c d (arm_proj arm ((y, yd), cdd, k)) Hg).
    destruct i; auto. }
  assert (I0 : arm_proj arm (s02, vzero, cs) = arm_proj arm (s0, vzero, cs)
     /\ as_c (arm_proj arm (s0, vzero, cs)) = v3_zero /\ as_cw (arm_proj arm (s0, vzero, cs)) = v3_zero).
  { split; [exact Es0|]. destruct s0 as [y yd]. split; [reflexivity|]. destruct (arm_dec arm Ha) as [-> | ->]; reflexivity. }
  specialize (HR HP (substeps_fuel lt t (a_int_dt a)) lt t (a_int_dt a) (s0, vzero, cs) (s02, vzero, cs) I0).
  destruct (substeps _ _ _ _ (dual_body i a (Some ct)) _) as [[[[y yd] cdd] c]|e];
    destruct (substeps _ _ _ _ (dual_body i a2 None) _) as [[[[y2 yd2] cdd2] c2]|e2]; try tauto; cbn [rmap fst snd].
  destruct HR as [HR _].
  repeat split; [exact (f_equal as_p HR)|exact (f_equal as_q HR)|exact (f_equal as_v HR)|exact (f_equal as_w HR)].
Qed.

(** Pose of one arm. *)
Definition arm_pose (arm : nat) (y : arr) : v3 * quat := (arm_p arm (aget y), arm_q arm (aget y)).

(** The tracking error plays no role without gain. *)
Lemma dual_step_function_te {CS} i o te te2 (ct : option (stateful_coupling CS)) lt t s cs : o_p_gain o = 0 ->
  dual_step_function i (dual_args o te2) ct lt t s cs = dual_step_function i (dual_args o te) ct lt t s cs.
Proof. intros Hg. apply dual_step_function_no_gain; auto. unfold same_params. repeat split. Qed.

Lemma dual_go_silent {CS} rt (ct : stateful_coupling CS) i arm : (arm <= 1)%nat -> silent_for arm ct ->
  forall fuel y yd y2 yd2 (cs cs2 : CS) o o2,
  dual_shapes o -> dual_shapes o2 -> same_but_current o o2 -> o_p_gain o = 0 ->
  alen y = 14%nat -> alen yd = 12%nat -> alen y2 = 14%nat -> alen yd2 = 12%nat ->
  arm_proj arm ((aget y2, aget yd2), vzero, cs) = arm_proj arm ((aget y, aget yd), vzero, cs) ->
  match dual_open_loop_go fuel rt (Some ct) i y yd cs o, dual_open_loop_go fuel rt None i y2 yd2 cs2 o2 with
  | (_, _, Ok (ts, ys)), (_, _, Ok (ts2, ys2)) => ts2 = ts /\ map (arm_pose arm) ys2 = map (arm_pose arm) ys
  | (_, _, Err e), (_, _, Err e2) => e = e2
  | _, _ => False
  end.
Proof.
  intros Ha Hsl. induction fuel as [|fuel IH]; intros y yd y2 yd2 cs cs2 o o2 Hs Hs2 [Hp Ht] Hg Ly Lyd Ly2 Lyd2 HE;
    cbn [dual_open_loop_go]; rewrite Ht; (destruct (Rlt_dec (p_t (o_base o)) rt); [|auto]); [auto|].
  pose proof Hp as (A1 & A2 & A3 & A4 & A5 & A6 & A7 & A8 & A9 & A10 & A11 & A12 & A13 & A14 & A15 & _).
  destruct (dual_step y yd (Some ct) i cs o) as [[o1 c1] r1] eqn:E1.
  destruct (dual_step y2 yd2 None i cs2 o2) as [[o3 c3] r3] eqn:E3.
  assert (HR : match r1, r3 with
    | Ok (y', yd'), Ok (y2', yd2') => arm_proj arm ((aget y2', aget yd2'), vzero, cs) = arm_proj arm ((aget y', aget yd'), vzero, cs)
    | Err e, Err e2 => e = e2
    | _, _ => False end).
  { rewrite dual_step_eq in E1, E3 by auto. cbv zeta in E1, E3.
    set (te := dual_tracking_error (aget (remembered o)) (aget y)) in *.
    rewrite (dual_step_function_no_gain i o o2 te) in E3 by auto.
    rewrite Ht, A2 in E3.
    assert (H := dual_step_function_silent i (dual_args o te) (dual_args o te) ct arm (p_t (o_base o)) (p_t (o_base o) + o_dt o)
      (aget y, aget yd) (aget y2, aget yd2) cs Ha Hsl Hg eq_refl HE).
    assert (HI : match dual_step_function i (dual_args o te) None (p_t (o_base o)) (p_t (o_base o) + o_dt o) (aget y2, aget yd2) cs,
                       dual_step_function i (dual_args o te) None (p_t (o_base o)) (p_t (o_base o) + o_dt o) (aget y2, aget yd2) cs2 with
                 | Ok (x, _), Ok (x2, _) => arm_p arm (fst x2) = arm_p arm (fst x) /\ arm_q arm (fst x2) = arm_q arm (fst x)
                             /\ arm_v arm (snd x2) = arm_v arm (snd x) /\ arm_w arm (snd x2) = arm_w arm (snd x)
                 | Err e, Err e' => e = e' | _, _ => False end) by (apply dual_step_function_arm; auto).
    destruct (dual_step_function i (dual_args o te) (Some ct) _ _ _ _) as [[[y' yd'] c']|e];
    destruct (dual_step_function i (dual_args o te) None _ _ _ cs) as [[[ym ydm] cm]|em];
    destruct (dual_step_function i (dual_args o te) None _ _ _ cs2) as [[[yn ydn] cn]|en]; try tauto;
    injection E1 as <- <- <-; injection E3 as <- <- <-.
    - cbn [aget]. destruct H as (H1 & H2 & H3 & H4), HI as (I1 & I2 & I3 & I4). cbn [fst snd] in *.
      unfold arm_proj. now rewrite I1, I2, I3, I4, H1, H2, H3, H4.
    - congruence. }
  destruct r1 as [[y1 yd1]|e]; destruct r3 as [[y3 yd3]|e3]; try tauto.
  destruct (dual_step_ok _ _ _ _ _ _ _ _ _ _ E1 Hs) as (_ & _ & _ & L1 & L2 & P1 & T1 & _ & _ & _ & Hs1).
  destruct (dual_step_ok _ _ _ _ _ _ _ _ _ _ E3 Hs2) as (_ & _ & _ & L3 & L4 & P3 & T3 & _ & _ & _ & Hs3).
  assert (Hsame : same_but_current o1 o3).
  { split.
    - clear -Hp P1 P3. unfold same_params in *. intuition congruence.
    - congruence. }
  assert (Hg1 : o_p_gain o1 = 0) by (destruct P1 as (_ & _ & _ & _ & B5 & _); congruence).
  specialize (IH y1 yd1 y3 yd3 c1 c3 o1 o3 Hs1 Hs3 Hsame Hg1 L1 L2 L3 L4 HR).
  assert (T : p_t (o_base o3) = p_t (o_base o1)) by apply Hsame. rewrite T.
  destruct (dual_open_loop_go fuel rt (Some ct) i y1 yd1 c1 o1) as [[oa ca] [[ts ys]|ea]];
  destruct (dual_open_loop_go fuel rt None i y3 yd3 c3 o3) as [[ob cb] [[ts2 ys2]|eb]]; try tauto.
  destruct IH as [-> IH]. split; [reflexivity|]. cbn [map]. rewrite IH. f_equal.
  unfold arm_pose. f_equal; [exact (f_equal as_p HR)|exact (f_equal as_q HR)].
Qed.

(** A leader moves exactly as without coupling (feedback of the tracking error switched
    off), whatever the other arm does. *)
Theorem C43_leader_moves_freely : forall (CS : Type) (ct : stateful_coupling CS) arm rt i cs o,
  dual_reachable o -> o_p_gain o = 0 -> (arm <= 1)%nat -> silent_for arm ct ->
  match dual_open_loop rt (Some ct) (Some i) cs o, dual_open_loop rt None (Some i) cs o with
  | (_, _, Ok (ts, ys)), (_, _, Ok (ts2, ys2)) => ts2 = ts /\ map (arm_pose arm) ys2 = map (arm_pose arm) ys
  | (_, _, Err e), (_, _, Err e2) => e = e2
  | _, _ => False
  end.
Proof.
  intros CS ct arm rt i cs o Hr Hg Ha Hsl. pose proof (dual_reachable_shapes o Hr) as Hs.
  unfold dual_open_loop. cbv zeta. change (with_base (set_t 0 (o_base o)) o) with (at_time_zero o).
  set (r := match rt with Some x => x | None => o_execution_time o end).
  pose proof Hs as (D1 & D2 & D3 & D4 & _).
  assert (Hs0 : dual_shapes (at_time_zero o)) by exact Hs.
  assert (HC : same_but_current (at_time_zero o) (at_time_zero o)).
  { split; [unfold same_params; repeat split|reflexivity]. }
  assert (H := dual_go_silent r ct i arm Ha Hsl (dual_fuel r (o_dt (at_time_zero o)))
    (p_start_y (o_base (at_time_zero o))) (p_start_yd (o_base (at_time_zero o)))
    (p_start_y (o_base (at_time_zero o))) (p_start_yd (o_base (at_time_zero o))) cs cs
    (at_time_zero o) (at_time_zero o) Hs0 Hs0 HC Hg).
  match type of H with ?A -> ?B -> _ => assert (L1 : A); [|assert (L2 : B)] end; auto.
  specialize (H L1 L2 L1 L2 eq_refl).
  destruct (dual_open_loop_go _ r (Some ct) _ _ _ _ _) as [[oa ca] [[ts ys]|ea]];
  destruct (dual_open_loop_go _ r None _ _ _ _ _) as [[ob cb] [[ts2 ys2]|eb]]; try tauto.
  destruct H as [-> H]. split; [reflexivity|]. cbn [map]. now rewrite H.
Qed.

(** All coupling terms of the library are silent for a leader. *)
Lemma pose_silent sp cp co desired arm : (arm <= 1)%nat ->
  (if Nat.eqb arm 0 then sp_lf0 sp else sp_lf1 sp) = 0 -> silent_for arm (stateless (pose_coupling sp cp co desired)).
Proof.
  intros Ha Hz [] y yd. unfold stateless. pose proof (C43_leader_and_flags sp cp co desired y yd) as H.
  destruct (pose_coupling sp cp co desired y yd) as [cd cdd]. destruct H as (H0 & H1 & _).
  destruct (arm_dec arm Ha) as [-> | ->]; cbn [Nat.eqb Nat.mul Nat.add] in *; [apply H0|apply H1]; exact Hz.
Qed.

Theorem C43_silent_leaders : forall sp arm, (arm <= 1)%nat ->
  (if Nat.eqb arm 0 then sp_lf0 sp else sp_lf1 sp) = 0 ->
  (forall cp co desired, silent_for arm (stateless (pose_coupling sp cp co desired)))
  /\ (forall cp co n T Y offset dt, silent_for arm (trajectory_coupling sp cp co n T Y offset dt))
  /\ (forall dd, silent_for arm (stateless (dual_distance_coupling sp dd))).
Proof.
  intros sp arm Ha Hz. split; [|split].
  - intros. now apply pose_silent.
  - intros cp co n T Y offset dt t y yd. unfold trajectory_coupling.
    match goal with |- context [couple_distance sp cp co ?d y yd] => pose proof (pose_silent sp cp co d arm Ha Hz tt y yd) as H end.
    unfold stateless, pose_coupling in H. destruct (couple_distance _ _ _ _ y yd) as [cd cdd]. exact H.
  - intros dd [] y yd. unfold stateless, dual_distance_coupling, spring_forces. cbv beta iota zeta.
    destruct (arm_dec arm Ha) as [-> | ->]; cbn [Nat.eqb Nat.mul Nat.add] in *; rewrite Hz; repeat split; apply v3_eq; cbn; ring.
Qed.

(** ** C41: the trajectory coupling term does not start again *)

(** The demonstration: the right arm moves away from the left arm, which rests. *)
Definition apart (j : nat) : vec := fun d => if Nat.eqb d 7 then INR j else at_origin d.
Definition follow : spring := {| sp_lf0 := 0; sp_lf1 := 1; sp_k := 1; sp_c1 := 1; sp_c2 := 0 |}.
Definition follow_demonstration : stateful_coupling R := trajectory_coupling follow true false 2 INR apart vzero 1.

Lemma apart_proper j : proper (apart j).
Proof. unfold proper, unit_quat, orientation_of, apart, at_origin. cbn. split; lra. Qed.

(** At time [t] the right arm is pulled from the origin to the position [t]. *)
Lemma follow_at_origin t : exists cdd, follow_demonstration t at_origin vzero = (t + 1, cdd)
  /\ fst cdd 6%nat = t /\ snd cdd 6%nat = 0.
Proof.
  unfold follow_demonstration, trajectory_coupling.
  set (desired := fun d => _ + vzero d).
  assert (E7 : forall j, right2left_pq (apart j) = (V3 (INR j) 0 0, q_one)).
  { intros j. rewrite right2left_eq by apply apart_proper.
    assert (EL : left_pose (apart j) = rigid_one).
    { unfold left_pose, rigid_one, orientation_of, apart, at_origin, entries. cbn. f_equal. apply m3_eq; cbn; ring. }
    assert (ER : right_pose (apart j) = Rigid m3_one (V3 (INR j) 0 0)).
    { unfold right_pose, orientation_of, apart, at_origin, entries. cbn -[INR]. f_equal. apply m3_eq; cbn; ring. }
    rewrite EL, ER.
    assert (EI : rigid_mul (pt_invert rigid_one) (Rigid m3_one (V3 (INR j) 0 0)) = Rigid m3_one (V3 (INR j) 0 0)).
    { replace (pt_invert rigid_one) with rigid_one; [apply rigid_mul_1_l|].
      unfold pt_invert, rigid_one. cbn. f_equal. apply v3_eq; cbn; ring. }
    rewrite EI. unfold pt_pq_from_transform. cbn [r_pos r_rot]. f_equal.
    unfold pr_quaternion_from_matrix, m3_trace, m3_one. cbn.
    destruct (Rlt_dec 0 (1 + 1 + 1)) as [_|H]; [|lra].
    replace (1 + (1 + 1 + 1)) with (2 * 2) by ring. rewrite sqrt_square by lra.
    apply quat_eq; cbn; field. }
  assert (Ed : forall d, desired d = if Nat.eqb d 0 then t else if Nat.eqb d 3 then 1 else 0).
  { intros d. unfold desired, interp1d, vzero. rewrite !E7.
    set (ss := searchsorted 2 INR t).
    replace (Nat.min (2 - 1) (Nat.max 1 ss)) with 1%nat by lia. cbn [Nat.sub INR].
    do 7 (destruct d as [|d]; [cbn; field|]). unfold pq7. cbn. field. }
  assert (Et : pt_transform_from_pq (v3_of (slice 0 3 desired)) (quat_of (slice 3 4 desired)) = Rigid m3_one (V3 t 0 0)).
  { unfold pt_transform_from_pq. unfold v3_of, quat_of, slice. cbn -[desired]. rewrite !Ed. cbn.
    rewrite pr_matrix_unit by (unfold unit_quat; cbn; ring). f_equal. apply m3_eq; cbn; ring. }
  rewrite Et. eexists. split; [reflexivity|].
  assert (Hp : proper at_origin) by (unfold proper, unit_quat, orientation_of, at_origin; cbn; split; lra).
  pose proof (C43_position_pull follow false (Rigid m3_one (V3 t 0 0)) at_origin vzero Hp) as H.
  unfold pose_coupling in H. destruct (couple_distance _ _ _ _ _ _) as [cd cdd]. cbn [fst snd].
  destruct H as (H6 & _ & H7 & _). apply (f_equal v3x) in H6, H7. unfold entries in H6, H7. cbn [v3x] in H6, H7.
  rewrite H6, H7. unfold right_target, pt_point, left_pose, orientation_of, at_origin, entries, vzero. cbn -[sqrt].
  split; ring.
Qed.

(** A run of one step of length 1 from the origin to the origin, twice with the same
    coupling term object: the second time the right arm moves. *)
Theorem C41_coupling_refuted : exists o o' o'' t1 t2 ts ys ys2 y1 y2,
  dual_reachable o /\ o_p_gain o = 0
  /\ dual_open_loop None (Some follow_demonstration) (Some Cython) trajectory_start o = (o', t1, Ok (ts, ys))
  /\ dual_open_loop None (Some follow_demonstration) (Some Cython) t1 o' = (o'', t2, Ok (ts, ys2))
  /\ nth_error ys 1 = Some y1 /\ nth_error ys2 1 = Some y2 /\ aget y1 7%nat = 0 /\ aget y2 7%nat = 1.
Proof.
  destruct (dual_example 1 1 1 0 false (fun _ => 1) (fun _ => 1) at_origin at_origin)
    as (o & Hr & E1 & E2 & E3 & E4 & E5 & E6 & E7 & E8 & E9 & E10 & E11 & E12 & E13 & E14 & E15 & E16 & E17 & _); [lra|].
  assert (Hf : forall z, ft_forces (o_forcing_term o) z = vzero) by (intros; apply zero_weights_forces; auto).
  destruct (C69_dual_runs_exist R None (Some follow_demonstration) trajectory_start o Hr) as [T _]; [lra|lra|].
  destruct (T Cython) as (o' & t1 & ts & ys & EE). clear T.
  assert (Hr' : dual_reachable o').
  { pose proof (dr_open_loop R None (Some follow_demonstration) (Some Cython) trajectory_start o Hr) as HR. now rewrite EE in HR. }
  pose proof (dual_reachable_shapes o Hr) as Hs. pose proof (dual_reachable_shapes o' Hr') as Hs'.
  destruct (dual_open_loop_spec _ _ _ _ _ _ _ _ _ Hs EE)
    as (n & L1 & L2 & T1 & T2 & T3 & HN & (o1 & yl & ydl & HL & Eo) & Hp & _).
  pose proof Hp as (A1 & A2 & A3 & A4 & A5 & A6 & A7 & A8 & A9 & A10 & A11 & A12 & A13 & A14 & A15 & _).
  destruct (C69_dual_runs_exist R None (Some follow_demonstration) t1 o' Hr') as [T _]; [lra|lra|].
  destruct (T Cython) as (o'' & t2 & ts2 & ys2 & EE2). clear T.
  destruct (dual_open_loop_spec _ _ _ _ _ _ _ _ _ Hs' EE2)
    as (n2 & L1' & L2' & T1' & T2' & T3' & HN' & _).
  cbv zeta in *. rewrite E1, E2 in *. rewrite A1, A2 in T2', T3'.
  assert (n = 1%nat).
  { destruct n as [|[|n]]; [simpl in T3; lra|reflexivity|]. pose proof (T2 1%nat ltac:(lia)). simpl in H. lra. }
  assert (n2 = 1%nat).
  { destruct n2 as [|[|m]]; [simpl in T3'; lra|reflexivity|]. pose proof (T2' 1%nat ltac:(lia)). simpl in H0. lra. }
  subst n n2.
  (* one step of the right arm *)
  assert (HX : forall ox y' yd' ow c c', dual_shapes ox -> same_params o ox -> p_t (o_base ox) = 0 ->
    dual_step (p_start_y (o_base o)) (p_start_yd (o_base o)) (Some follow_demonstration) Cython c ox = (ow, c', Ok (y', yd')) ->
    aget y' 7%nat = c /\ c' = c + 1).
  { intros ox y' yd' ow c c' Hsx (B1 & B2 & B3 & B4 & B5 & B6 & B7 & B8 & B9 & B10 & B11 & B12 & B13 & B14 & B15 & _) Htx F.
    destruct (dual_step_ok _ _ _ _ _ _ _ _ _ _ F Hsx) as (_ & _ & Ef & _).
    unfold dual_step_function in Ef. change (a_start_t (dual_args ox _)) with 0 in Ef.
    change (a_int_dt (dual_args ox _)) with (o_int_dt ox) in Ef.
    rewrite B2, B4, E2, E3, Htx in Ef. destruct (Rle_dec (0 + 1) 0); [lra|].
    rewrite substeps_one in Ef by lra. cbn [rmap] in Ef.
    rewrite E8, E10 in Ef. change (aget (zeros 12)) with vzero in Ef.
    destruct (follow_at_origin c) as ([cd cdd] & Ec & C1 & C2). cbn [fst snd] in C1, C2.
    unfold dual_body in Ef. rewrite Ec in Ef. cbn [fst snd] in Ef.
    apply (f_equal (fun r => match r with Ok ((yy, _), cc) => (yy 7%nat, cc) | Err _ => (0, 0) end)) in Ef.
    injection Ef as Ey Ecs. split; [|congruence].
    rewrite <- Ey. clear Ey.
    cbn [assemble_p is_pp Nat.ltb Nat.leb Nat.eqb orb andb].
    unfold assemble_p, is_pp, dual_pos_acc, pv_of, pp_of. cbn -[dual_feedback].
    rewrite dual_feedback_no_gain by (cbn; congruence).
    rewrite !B1, !B6, !B7, !B8, !B9, ?B15, ?E1, ?E5, ?E6, ?E7, ?E8, ?E9, Hf.
    unfold vadd, vzero, at_origin. cbn. rewrite C1, C2. field. }
  destruct (HN 1%nat) as (oa & ca & ya & yda & F & Ny); [lia|].
  destruct (HN' 1%nat) as (ob & cb & yb & ydb & F' & Ny'); [lia|].
  exists o, o', o'', t1, t2, ts, ys, ys2, ya, yb.
  split; [exact Hr|]. split; [exact E4|]. split; [exact EE|].
  split.
  { assert (ts2 = ts) as <-; [|exact EE2]. apply (nth_ext _ _ 0 0); [congruence|].
    intros k Hk. rewrite T1, T1' by lia. rewrite A2; reflexivity. }
  split; [exact Ny|]. split; [exact Ny'|].
  rewrite HL in F. injection F as <- <- <- <-.
  cbn [dual_n_steps] in HL, F'.
  destruct (dual_step _ _ _ _ _ (at_time_zero o)) as [[oc cc] [[yc ydc]|e]] eqn:S1; [|discriminate].
  injection HL as <- <- <- <-.
  destruct (dual_step _ _ _ _ _ (at_time_zero o')) as [[od cd] [[ye yde]|e]] eqn:S2; [|discriminate].
  injection F' as <- <- <- <-.
  destruct (HX (at_time_zero o) yc ydc oc trajectory_start cc) as (X1 & X2);
    [exact Hs|unfold same_params; cbn; repeat split|reflexivity|exact S1|].
  rewrite A12, A13 in S2.
  destruct (HX (at_time_zero o') ye yde od cc cd) as (Y1 & _); [exact Hs'|exact Hp|reflexivity|exact S2|].
  unfold trajectory_start in *. split; lra.
Qed.

Example C43_leader_satisfiable : exists o, dual_reachable o /\ o_p_gain o = 0 /\ silent_for 0 follow_demonstration.
Proof.
  destruct (dual_example 1 1 1 0 false (fun _ => 1) (fun _ => 1) at_origin at_origin)
    as (o & Hr & _ & _ & _ & E4 & _); [lra|].
  exists o. split; [exact Hr|]. split; [exact E4|].
  destruct (C43_silent_leaders follow 0%nat) as (_ & H & _); [lia|reflexivity|apply H].
Qed.
