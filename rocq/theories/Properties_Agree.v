(** C40: Python and Cython implementations of orientation and dual-arm steps.  Final statements. *)
From Coq Require Import Reals List Arith Bool Lia Lra ZArith FunctionalExtensionality.
From Verif Require Import M_Prelude M_Canonical M_Forcing M_Dmp M_Base M_DmpObject M_SpringDamper
  M_Quaternion M_Cartesian M_Dual S_Loops S_Rotation P_Loops P_Canonical P_Quaternion P_Cartesian P_DmpObject
  P_Components P_Dual P_DualObject Properties_Quaternion Properties_Cartesian Properties_DualObject
  Properties_DualArm Properties_DualRuns.
Import ListNotations.
Open Scope R_scope.
Set Bullet Behavior "Strict Subproofs".

(** Rotations on which the two logarithms are the same: not exactly a half turn, and
    the vector part (sine of half the angle) is not between the two thresholds. *)
Definition regular_rotation (q : quat) : Prop :=
  qw q <> 0 /\ (/ 10 ^ 7 <= v3_norm (V3 (qx q) (qy q) (qz q)) \/ v3_norm (V3 (qx q) (qy q) (qz q)) < / 10 ^ 16).

(** The rotation from [q] to [p]. *)
Definition rotation_between (p q : quat) : quat := hamilton p (Q4 (qw q) (- qx q) (- qy q) (- qz q)).

Lemma thresholds : log_threshold Python = / 10 ^ 7 /\ log_threshold Cython = / 10 ^ 16.
Proof. split; reflexivity. Qed.

Lemma log_agree q : unit_quat q -> regular_rotation q -> i_log Python q = i_log Cython q.
Proof.
  intros Hq [Hw [Ht | Ht]]; destruct thresholds as [T1 T2].
  - apply (C32_implementations_agree q q v3_zero Hq Hq); auto.
  - rewrite !i_log_unit by auto. unfold vpart. rewrite T1, T2.
    assert (/ 10 ^ 16 <= / 10 ^ 7) by (apply Rinv_le_contravar; lra).
    destruct (Rlt_dec _ _); [|lra]. destruct (Rlt_dec _ _); [reflexivity|lra].
Qed.

Lemma q_error_agree p q : unit_quat p -> unit_quat q -> regular_rotation (rotation_between p q) ->
  q_error Python p q = q_error Cython p q.
Proof.
  intros Hp Hq Hr. rewrite !q_error_unit by auto. apply log_agree; [|exact Hr].
  apply hamilton_unit; auto. now apply cy_conj_unit.
Qed.

(** ** CartesianDMP: the orientation step *)

(** In the state [s], an integration step of length [d] that ends at time [c] behaves
    the same in both implementations. *)
Definition regular_q (a : qargs) (c d : R) (s : quat * v3) : Prop :=
  regular_rotation (rotation_between (g_goal_y a) (fst s))
  /\ v3_norm (v3_scale d (snd (q_body Python a c d s))) <= PI.

Lemma q_body_agree a c d s : unit_quat (fst s) -> unit_quat (g_goal_y a) -> unit_quat (g_start_y a) ->
  (g_coupling_term a = None \/ g_precomputed a = None) ->
  (g_smooth_scaling a = true -> regular_rotation (rotation_between (g_goal_y a) (g_start_y a))) ->
  regular_q a c d s -> q_body Python a c d s = q_body Cython a c d s.
Proof.
  intros Hs Hg Hst Hc Hsm [Hr Hn]. destruct s as [y yd]. cbn [fst snd] in *.
  unfold q_body in *.
  assert (Ec : q_coupling Python a y yd = q_coupling Cython a y yd).
  { unfold q_coupling. destruct (g_coupling_term a) as [ct|].
    - destruct Hc as [Hc|Hc]; [discriminate|]. rewrite Hc. now destruct (ct y yd).
    - destruct (g_precomputed a) as [[pd pdd]|]; [|reflexivity].
      f_equal; apply v3_eq; simpl; ring. }
  rewrite Ec in *. destruct (q_coupling Cython a y yd) as [cd cdd].
  assert (Ea : forall z f, q_acc Python a z f cdd y yd = q_acc Cython a z f cdd y yd).
  { intros z f. unfold q_acc. rewrite (q_error_agree (g_goal_y a) y) by auto.
    destruct (g_smooth_scaling a); [|reflexivity].
    now rewrite (q_error_agree (g_goal_y a) (g_start_y a)) by auto. }
  rewrite Ea in *. set (w := v3_add yd _) in *. cbn [snd] in Hn.
  f_equal. pose proof (i_exp_unit Python (v3_scale d w)) as H1. pose proof (i_exp_unit Cython (v3_scale d w)) as H2.
  rewrite !i_mul_unit by auto. f_equal. now apply pr_exp_small.
Qed.

(** Two loop bodies that agree on all states that the first loop visits. *)
Lemma exec_agree {S} (b1 b2 : R -> R -> S -> S) (I : S -> Prop) : forall l s,
  (forall c d x, I x -> I (b1 c d x)) -> I s ->
  (forall done c d rest, l = done ++ (c, d) :: rest -> I (exec_substeps b1 done s) ->
     b1 c d (exec_substeps b1 done s) = b2 c d (exec_substeps b1 done s)) ->
  exec_substeps b1 l s = exec_substeps b2 l s.
Proof.
  induction l as [|[c d] l IH]; intros s HI Hs HE; [reflexivity|].
  assert (E0 : b1 c d s = b2 c d s) by (apply (HE [] c d l); auto).
  unfold exec_substeps in *. cbn [fold_left fst snd]. rewrite <- E0.
  apply IH; auto. intros done c' d' rest -> Hx.
  apply (HE ((c, d) :: done) c' d' rest); auto.
Qed.

Theorem C40_orientation_partial : forall a last_t t s,
  0 < g_int_dt a -> g_start_t a < g_goal_t a -> g_start_t a < t -> last_t <= t ->
  unit_quat (fst s) -> unit_quat (g_goal_y a) -> unit_quat (g_start_y a) ->
  (g_coupling_term a = None \/ g_precomputed a = None) ->
  (g_smooth_scaling a = true -> regular_rotation (rotation_between (g_goal_y a) (g_start_y a))) ->
  (forall l done c d rest, tiles last_t t (g_int_dt a) l -> l = done ++ (c, d) :: rest ->
     regular_q a c d (exec_substeps (q_body Python a) done s)) ->
  q_step Python a last_t t s = q_step Cython a last_t t s.
Proof.
  intros a lt t s Hi Hx Ht Hlt Hs Hg Hst Hc Hsm HR. unfold q_step.
  destruct (Rle_dec (g_goal_t a) (g_start_t a)); [lra|]. destruct (Rle_dec t (g_start_t a)); [lra|].
  destruct (substeps_tiles lt t (g_int_dt a) Hi Hlt) as (l & Hl & HE).
  rewrite !HE. f_equal.
  apply (exec_agree _ _ (fun s => unit_quat (fst s))); auto.
  - intros. now apply q_body_unit.
  - intros done c d rest El Hu. apply q_body_agree; auto. now apply (HR l done c d rest).
Qed.

(** ** DualCartesianDMP *)
Definition dual_orientation_of (arm : nat) (y : vec) : quat :=
  match arm with
  | O => Q4 (y 3%nat) (y 4%nat) (y 5%nat) (y 6%nat)
  | _ => Q4 (y 10%nat) (y 11%nat) (y 12%nat) (y 13%nat)
  end.
Definition dual_angular_of (arm : nat) (yd : vec) : v3 :=
  match arm with
  | O => V3 (yd 3%nat) (yd 4%nat) (yd 5%nat)
  | _ => V3 (yd 9%nat) (yd 10%nat) (yd 11%nat)
  end.

(** The pose and the velocity in a state of the loop. *)
Definition state_y {CS} (s : (vec * vec) * vec * CS) : vec := fst (fst (fst s)).
Definition state_yd {CS} (s : (vec * vec) * vec * CS) : vec := snd (fst (fst s)).

Definition regular_dual {CS} (a : dmp_args) (ct : option (stateful_coupling CS)) (c d : R)
    (s : (vec * vec) * vec * CS) : Prop :=
  forall arm, (arm <= 1)%nat ->
    regular_rotation (rotation_between (dual_orientation_of arm (a_goal_y a)) (dual_orientation_of arm (state_y s)))
    /\ v3_norm (v3_scale d (dual_angular_of arm (state_yd (dual_body Python a ct c d s)))) <= PI.

Lemma dual_orientation_of_arm arm y : (arm <= 1)%nat -> dual_orientation_of arm y = arm_q arm y.
Proof. intros H. destruct (arm_dec arm H) as [-> | ->]; reflexivity. Qed.
Lemma dual_angular_of_arm arm y : (arm <= 1)%nat -> dual_angular_of arm y = arm_w arm y.
Proof. intros H. destruct (arm_dec arm H) as [-> | ->]; reflexivity. Qed.

(** What the theorem assumes about the arguments of the call: unit start and goal, and
    regular rotations for the constant parts. *)
Record regular_args {CS} (a : dmp_args) (ct : option (stateful_coupling CS)) : Prop := {
  ra_goal : forall arm, (arm <= 1)%nat -> unit_quat (dual_orientation_of arm (a_goal_y a));
  ra_start : forall arm, (arm <= 1)%nat -> unit_quat (dual_orientation_of arm (a_start_y a));
  ra_smooth : a_smooth_scaling a = true -> forall arm, (arm <= 1)%nat ->
    regular_rotation (rotation_between (dual_orientation_of arm (a_goal_y a)) (dual_orientation_of arm (a_start_y a)));
  ra_error : a_p_gain a <> 0 -> forall te, a_tracking_error a = Some te -> forall arm, (arm <= 1)%nat ->
    unit_quat (dual_orientation_of arm te) /\ regular_rotation (dual_orientation_of arm te)
}.

Lemma dual_feedback_agree {CS} a (ct : option (stateful_coupling CS)) d : regular_args a ct ->
  dual_feedback Python a d = dual_feedback Cython a d.
Proof.
  intros H. destruct (Req_dec (a_p_gain a) 0) as [Hg|Hg]; [now rewrite !dual_feedback_no_gain|].
  unfold dual_feedback. destruct (a_tracking_error a) as [te|] eqn:Et; [|reflexivity].
  destruct (ra_error _ _ H Hg te Et 0 ltac:(lia)) as [U0 R0]. destruct (ra_error _ _ H Hg te Et 1 ltac:(lia)) as [U1 R1].
  rewrite dual_orientation_of_arm in U0, R0, U1, R1 by lia.
  now rewrite (log_agree (arm_q 0 te)), (log_agree (arm_q 1 te)) by auto.
Qed.

(** The loop bodies agree except for the array [cdd], which Python does not clear. *)
Lemma dual_body_agree {CS} a (ct : option (stateful_coupling CS)) c d s :
  regular_args a ct -> (ct = None -> snd (fst s) = vzero) ->
  (forall arm, (arm <= 1)%nat -> unit_quat (dual_orientation_of arm (state_y s))) ->
  regular_dual a ct c d s -> dual_body Python a ct c d s = dual_body Cython a ct c d s.
Proof.
  intros HA Hc Hu HR. pose proof (HR 0%nat ltac:(lia)) as [R0 N0]. pose proof (HR 1%nat ltac:(lia)) as [R1 N1].
  pose proof (Hu 0%nat ltac:(lia)) as U0. pose proof (Hu 1%nat ltac:(lia)) as U1. clear HR Hu.
  pose proof (ra_goal _ _ HA 0%nat ltac:(lia)) as G0. pose proof (ra_goal _ _ HA 1%nat ltac:(lia)) as G1.
  pose proof (ra_start _ _ HA 0%nat ltac:(lia)) as S0. pose proof (ra_start _ _ HA 1%nat ltac:(lia)) as S1.
  rewrite dual_angular_of_arm in N0, N1 by lia. rewrite !dual_orientation_of_arm in * by lia.
  destruct s as [[[y yd] cdd0] cs]. unfold state_y, state_yd in *. cbn [fst snd] in *.
  unfold dual_body in *.
  assert (Ec : match ct with Some c => c cs y yd | None => (cs, (vzero, cdd0)) end
             = match ct with Some c => c cs y yd | None => (cs, (vzero, vzero)) end).
  { destruct ct; [reflexivity|]. now rewrite Hc. }
  rewrite Ec in *. destruct (match ct with Some c => c cs y yd | None => _ end) as [cs' [cd cdd]].
  rewrite (dual_feedback_agree a ct) in * by auto.
  set (z := ft_phase _ c) in *. set (f := ft_forces _ z) in *. set (C := vadd cdd (dual_feedback Cython a d)) in *.
  assert (Ea : forall arm, (arm <= 1)%nat -> dual_rot_acc Python a arm z f C y yd = dual_rot_acc Cython a arm z f C y yd).
  { intros arm Ha. unfold dual_rot_acc.
    assert (E1 : q_error Python (arm_q arm (a_goal_y a)) (arm_q arm y) = q_error Cython (arm_q arm (a_goal_y a)) (arm_q arm y)).
    { destruct (arm_dec arm Ha) as [-> | ->]; apply q_error_agree; auto. }
    rewrite E1. destruct (a_smooth_scaling a) eqn:Es; [|reflexivity].
    pose proof (ra_smooth _ _ HA Es arm Ha) as Rs. rewrite !dual_orientation_of_arm in Rs by auto.
    rewrite (q_error_agree (arm_q arm (a_goal_y a)) (arm_q arm (a_start_y a))); auto;
      destruct (arm_dec arm Ha) as [-> | ->]; auto. }
  rewrite (Ea 0%nat), (Ea 1%nat) in * by lia. clear Ea.
  set (w0 := v3_add (arm_w 0 yd) _) in *. set (w1 := v3_add (arm_w 1 yd) _) in *.
  change (arm_w 0 (snd _)) with w0 in N0. change (arm_w 1 (snd _)) with w1 in N1.
  assert (Eq : forall w q, unit_quat q -> v3_norm (v3_scale d w) <= PI ->
    i_mul Python (i_exp Python (v3_scale d w)) q = i_mul Cython (i_exp Cython (v3_scale d w)) q).
  { intros w q Hq Hn. pose proof (i_exp_unit Python (v3_scale d w)). pose proof (i_exp_unit Cython (v3_scale d w)).
    rewrite !i_mul_unit by auto. f_equal. now apply pr_exp_small. }
  rewrite (Eq w0), (Eq w1); [reflexivity| | | |]; auto.
Qed.

Lemma dual_exec_agree {CS} a (ct : option (stateful_coupling CS)) l s :
  regular_args a ct ->
  (ct = None -> (a_p_gain a = 0 \/ a_tracking_error a = None \/ (length l <= 1)%nat) /\ snd (fst s) = vzero) ->
  (forall arm, (arm <= 1)%nat -> unit_quat (dual_orientation_of arm (state_y s))) ->
  (forall done c d rest, l = done ++ (c, d) :: rest -> regular_dual a ct c d (exec_substeps (dual_body Python a ct) done s)) ->
  exec_substeps (dual_body Python a ct) l s = exec_substeps (dual_body Cython a ct) l s.
Proof.
  intros HA Hc Hu HR.
  assert (HU : forall i c d x, (forall arm, (arm <= 1)%nat -> unit_quat (dual_orientation_of arm (state_y x))) ->
    forall arm, (arm <= 1)%nat -> unit_quat (dual_orientation_of arm (state_y (dual_body i a ct c d x)))).
  { intros i c d x H arm Ha. rewrite dual_orientation_of_arm by auto. apply dual_body_unit; auto.
    rewrite <- dual_orientation_of_arm by auto. now apply H. }
  destruct l as [|[c0 d0] [|p l]].
  - reflexivity.
  - (* a single sub-step *)
    unfold exec_substeps. cbn [fold_left fst snd]. apply dual_body_agree; auto.
    + intros E. now apply Hc.
    + apply (HR [] c0 d0 []). reflexivity.
  - apply (exec_agree _ _ (fun x => (ct = None -> snd (fst x) = vzero) /\
      forall arm, (arm <= 1)%nat -> unit_quat (dual_orientation_of arm (state_y x)))).
    + intros c d x [H1 H2]. split; [|now apply HU]. intros E. specialize (H1 E). destruct (Hc E) as [Hk _].
      assert (Hf : dual_feedback Python a d = vzero).
      { destruct Hk as [Hk|[Hk|Hk]]; [now apply dual_feedback_no_gain|unfold dual_feedback; now rewrite Hk|].
        cbn in Hk. lia. }
      destruct x as [[[y yd] cdd] cs]. cbn [fst snd] in *. unfold dual_body. rewrite E, Hf, H1. cbn [fst snd].
      apply functional_extensionality; intros v. unfold vadd, vzero. ring.
    + split; [intros E; now apply Hc|exact Hu].
    + intros done c d rest El [H1 H2]. apply dual_body_agree; auto. now apply (HR done c d rest).
Qed.

(** The dual-arm steps give the same state if no half turn, no tiny rotation and no
    rotation by more than pi within one integration step occurs, and the tracking-error
    feedback is not applied in several integration steps without coupling term. *)
Theorem C40_dual_arm_partial : forall (CS : Type) a (ct : option (stateful_coupling CS)) last_t t s cs,
  0 < a_int_dt a -> last_t <= t -> regular_args a ct ->
  (ct = None -> a_p_gain a = 0 \/ a_tracking_error a = None \/ t - last_t <= a_int_dt a) ->
  (forall arm, (arm <= 1)%nat -> unit_quat (dual_orientation_of arm (fst s))) ->
  let s0 := if Rle_dec t (a_start_t a) then (a_start_y a, a_start_yd a) else s in
  (forall l done c d rest, tiles last_t t (a_int_dt a) l -> l = done ++ (c, d) :: rest ->
     regular_dual a ct c d (exec_substeps (dual_body Python a ct) done (s0, vzero, cs))) ->
  dual_step_function Python a ct last_t t s cs = dual_step_function Cython a ct last_t t s cs.
Proof.
  intros CS a ct lt t s cs Hi Hlt HA Hc Hu s0 HR. unfold dual_step_function. fold s0.
  destruct (substeps_tiles lt t (a_int_dt a) Hi Hlt) as (l & Hl & HE). rewrite !HE. cbn [rmap].
  rewrite (dual_exec_agree a ct l (s0, vzero, cs)); [reflexivity|exact HA| | |].
  - intros E. split; [|reflexivity]. destruct (Hc E) as [H|[H|H]]; auto. right. right.
    destruct l as [|p l]; [cbn; lia|]. pose proof (tiles_count _ _ _ _ Hl ltac:(discriminate)) as [H1 _].
    apply INR_le. simpl (INR 1). set (m := INR (length (p :: l))) in *.
    destruct (Rle_dec m 1) as [|Hn]; auto. exfalso.
    assert (2 <= m).
    { unfold m in *. replace 2 with (INR 2) by (simpl; ring). apply le_INR.
      apply INR_lt with (n := 1%nat). simpl (INR 1). lra. }
    assert (1 * a_int_dt a <= (m - 1) * a_int_dt a) by (apply Rmult_le_compat_r; lra). lra.
  - intros arm Ha. unfold state_y, s0. cbn [fst]. destruct (Rle_dec _ _); [apply (ra_start _ _ HA arm Ha)|auto].
  - intros done c d rest El. apply (HR l done c d rest); auto.
Qed.

(** Without coupling term Python adds the tracking-error feedback again in every
    integration step.  Two integration steps, p_gain 1, tracking error 1 in the first
    coordinate, goal and state at the origin: the results differ. *)
Definition ex_feedback (f : forcing_term) : dmp_args :=
  {| a_goal_y := at_origin; a_goal_yd := vzero; a_goal_ydd := vzero; a_start_y := at_origin; a_start_yd := vzero;
     a_start_ydd := vzero; a_goal_t := 1; a_start_t := 0; a_alpha_y := fun _ => 1; a_beta_y := fun _ => 1;
     a_forcing_term := f; a_coupling_term := None; a_precomputed := None; a_int_dt := 1/2; a_p_gain := 1;
     a_tracking_error := Some (moved 0); a_smooth_scaling := false |}.

Theorem C40_feedback_refuted : forall f, (forall d k, ft_weights f d k = 0) ->
  exists y yd y2 yd2,
  dual_step_function (CS := unit) Python (ex_feedback f) None 0 1 (at_origin, vzero) tt = Ok ((y, yd), tt)
  /\ dual_step_function (CS := unit) Cython (ex_feedback f) None 0 1 (at_origin, vzero) tt = Ok ((y2, yd2), tt)
  /\ y 0%nat = 13/8 /\ y2 0%nat = 9/8.
Proof.
  intros f Hw.
  assert (Hf : forall z, ft_forces f z = vzero) by (intros; apply zero_weights_forces; auto).
  assert (Two : forall (b : R -> R -> (vec * vec) * vec * unit -> (vec * vec) * vec * unit) s,
    substeps (substeps_fuel 0 1 (1/2)) 0 1 (1/2) b s = Ok (b 1 (1/2) (b (1/2) (1/2) s))).
  { intros b s. unfold substeps_fuel.
    assert (E : up ((1 - 0) / (1/2)) = 3%Z).
    { replace ((1 - 0) / (1/2)) with 2 by field. symmetry; apply tech_up; lra. }
    rewrite E. change (Z.to_nat 3) with 3%nat. cbn [substeps].
    destruct (Rlt_dec 0 1); [|lra]. destruct (Rlt_dec (1 - 0) (1/2)); [lra|].
    replace (0 + 1/2) with (1/2) by lra.
    destruct (Rlt_dec (1/2) 1); [|lra]. destruct (Rlt_dec (1 - 1/2) (1/2)); [lra|].
    replace (1/2 + 1/2) with 1 by lra. destruct (Rlt_dec 1 1); [lra|]. reflexivity. }
  unfold dual_step_function. change (a_start_t (ex_feedback f)) with 0. change (a_int_dt (ex_feedback f)) with (1/2).
  destruct (Rle_dec 1 0); [lra|]. rewrite !Two. cbn [rmap].
  set (xp := dual_body Python _ _ _ _ _). set (xc := dual_body Cython _ _ _ _ _).
  exists (fst (fst (fst xp))), (snd (fst (fst xp))), (fst (fst (fst xc))), (snd (fst (fst xc))).
  destruct xp as [[[y yd] c] []] eqn:Ep, xc as [[[y2 yd2] c2] []] eqn:Ec. cbn [fst snd].
  split; [reflexivity|]. split; [reflexivity|].
  apply (f_equal (fun x => v3x (as_p (arm_proj 0 x)))) in Ep, Ec.
  change (v3x (as_p (arm_proj 0 (y, yd, c, tt)))) with (y 0%nat) in Ep.
  change (v3x (as_p (arm_proj 0 (y2, yd2, c2, tt)))) with (y2 0%nat) in Ec.
  rewrite <- Ep, <- Ec. unfold xp, xc. clear -Hf.
  assert (HX : forall i c s, arm_proj 0 (dual_body (CS := unit) i (ex_feedback f) None c (1/2) s) =
     let A := arm_proj 0 s in arm_step i (arm_params 0 (ex_feedback f)) c (1/2) v3_zero v3_zero
      (match i with Python => as_c A | Cython => v3_zero end)
      (match i with Python => as_cw A | Cython => v3_zero end) A) by (intros; apply dual_body_arm_none; lia).
  rewrite !HX. cbv zeta.
  unfold arm_step. cbn [as_p as_v as_c ap_te ap_gain ap_smooth ap_f ap_goal ap_alpha ap_beta ap_goal_t ap_start_t ap_phase
    arm_params ex_feedback a_tracking_error option_map a_p_gain a_smooth_scaling a_goal_t a_start_t a_forcing_term
    a_alpha_y a_beta_y a_goal_y arm_p arm_v v3x v3_add v3_scale v3_divs v3_sub v3_mul v3_zero Nat.mul Nat.add arm_proj].
  rewrite ?HX. cbv zeta. unfold moved, at_origin, vzero. cbn. rewrite !Hf. unfold vzero. split; field.
Qed.
