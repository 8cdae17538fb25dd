(** Concrete cases that meet the hypotheses of the theorems about DualCartesianDMP. *)
From Coq Require Import Reals List Arith Bool Lia Lra ZArith FunctionalExtensionality.
From Verif Require Import M_Prelude M_Canonical M_Forcing M_Dmp M_Base M_DmpObject M_SpringDamper
  M_Quaternion M_Cartesian M_Dual S_Loops S_Rotation P_Loops P_Canonical P_Quaternion P_Cartesian P_DmpObject
  P_Components P_Dual P_DualObject Properties_Quaternion Properties_Cartesian Properties_DualObject
  Properties_DualArm Properties_DualRuns Properties_Agree.
Import ListNotations.
Open Scope R_scope.
Set Bullet Behavior "Strict Subproofs".

(** A goal of 14 entries: the left arm moves by 1 and turns by the rotation with
    quaternion (3/5, 4/5, 0, 0), the right arm stays. *)
Definition turned : vec := fun j =>
  if Nat.eqb j 0 then 1 else if Nat.eqb j 3 then 3/5 else if Nat.eqb j 4 then 4/5 else if Nat.eqb j 10 then 1 else 0.

Lemma turned_unit arm : (arm <= 1)%nat -> unit_quat (dual_orientation_of arm turned).
Proof. intros H. destruct arm as [|[|?]]; [| |lia]; unfold unit_quat; cbn; lra. Qed.
Lemma origin_unit arm : (arm <= 1)%nat -> unit_quat (dual_orientation_of arm at_origin).
Proof. intros H. destruct arm as [|[|?]]; [| |lia]; unfold unit_quat; cbn; lra. Qed.

Lemma v3_norm_scale c v : v3_norm (v3_scale c v) = Rabs c * v3_norm v.
Proof.
  unfold v3_norm. rewrite <- sqrt_Rsqr_abs, <- sqrt_mult_alt by apply Rle_0_sqr.
  f_equal. simpl. unfold Rsqr. ring.
Qed.

Lemma turned_regular arm : (arm <= 1)%nat ->
  regular_rotation (rotation_between (dual_orientation_of arm turned) (dual_orientation_of arm at_origin)).
Proof.
  intros H. destruct arm as [|[|?]]; [| |lia]; unfold regular_rotation; cbn -[v3_norm pow].
  - split; [lra|]. left. unfold v3_norm. cbn -[pow].
    match goal with |- _ <= sqrt ?x => replace x with ((4/5)^2) by field end.
    rewrite sqrt_pow2 by lra. apply Rle_trans with (/ 2); [|lra].
    apply Rinv_le_contravar; [lra|]. simpl. lra.
  - split; [lra|]. right. unfold v3_norm. cbn -[pow].
    match goal with |- sqrt ?x < _ => replace x with 0 by field end.
    rewrite sqrt_0. apply Rinv_0_lt_compat, pow_lt. lra.
Qed.

Definition ex_turning (f : forcing_term) : dmp_args :=
  {| a_goal_y := turned; a_goal_yd := vzero;
     a_goal_ydd := vzero; a_start_y := at_origin; a_start_yd := vzero;
     a_start_ydd := vzero; a_goal_t := 1; a_start_t := 0; a_alpha_y := fun _ => 1; a_beta_y := fun _ => 1;
     a_forcing_term := f; a_coupling_term := None; a_precomputed := None; a_int_dt := 1; a_p_gain := 0;
     a_tracking_error := None; a_smooth_scaling := false |}.

(** A step of length 1/2 of a DMP with goal [turned] and zero weights. *)
Example C40_satisfiable : forall f, (forall d k, ft_weights f d k = 0) ->
  regular_args (CS := unit) (ex_turning f) None
  /\ forall l done c d rest, tiles 0 (1/2) 1 l -> l = done ++ (c, d) :: rest ->
     regular_dual (CS := unit) (ex_turning f) None c d
       (exec_substeps (dual_body Python (ex_turning f) None) done ((at_origin, vzero), vzero, tt)).
Proof.
  intros f Hw.
  assert (Hf : forall z, ft_forces f z = vzero) by (intros; apply zero_weights_forces; auto).
  split.
  - constructor; cbn [ex_turning a_goal_y a_start_y a_smooth_scaling a_p_gain a_tracking_error].
    + apply turned_unit.
    + apply origin_unit.
    + discriminate.
    + intros; discriminate.
  - intros l done c d rest Hl El.
    assert (done = [] /\ rest = [] /\ c = 1/2 /\ d = 1/2) as (-> & -> & -> & ->).
    { destruct l as [|[c0 d0] [|p l]].
      - destruct done; discriminate.
      - cbn in Hl. destruct Hl as (H1 & H2 & _ & H3). destruct done as [|? done]; [|destruct done; discriminate].
        injection El as <- <- <-. repeat split; lra.
      - exfalso. cbn in Hl. destruct Hl as (H1 & H2 & H3 & H4). specialize (H3 ltac:(discriminate)).
        destruct p as [c1 d1]. destruct H4 as (H4 & H5 & _ & H6). apply tiles_le in H6. lra. }
    intros arm Ha. unfold exec_substeps. cbn [fold_left]. split; [now apply turned_regular|].
    rewrite dual_angular_of_arm by auto. unfold dual_body, state_yd. cbn [fst snd ex_turning a_forcing_term].
    rewrite Hf.
    set (W := arm_w _ _).
    assert (EW : W = v3_scale (1/2) (q_error Python (arm_q arm turned) (arm_q arm at_origin))).
    { unfold W. destruct (arm_dec arm Ha) as [-> | ->]; cbn -[q_error]; unfold vzero; apply v3_eq; cbn -[q_error];
        cbv [vadd vzero dual_feedback a_tracking_error ex_turning]; try field. }
    rewrite EW, q_error_unit.
    2: rewrite <- dual_orientation_of_arm by auto; now apply turned_unit.
    2: rewrite <- dual_orientation_of_arm by auto; now apply origin_unit.
    rewrite !v3_norm_scale. rewrite !Rabs_pos_eq by lra.
    match goal with |- _ * (_ * v3_norm (i_log ?i ?q)) <= _ => pose proof (log_length i q) as HL end.
    assert (HP := PI_RGT_0).
    match type of HL with ?A -> _ => assert (HA : A) end.
    { apply hamilton_unit; [|apply cy_conj_unit]; rewrite <- dual_orientation_of_arm by auto;
        [now apply turned_unit|now apply origin_unit]. }
    specialize (HL HA). lra.
Qed.

(** Two dual-arm DMPs whose left arms agree while goal and gains of the right arms differ,
    and the runs of both: for C23, C33, C38, C41, C69. *)
Definition right_elsewhere : vec := fun j => if Nat.ltb j 7 then turned j else if Nat.eqb j 11 then 1 else 0.

Example C38_satisfiable : exists o o2 o' o2' ts ys ts2 ys2,
  dual_reachable o /\ dual_reachable o2 /\ same_arm 0 o o2 /\ 0 < o_dt o
  /\ unit_quat (dual_orientation 0 (p_start_y (o_base o)))
  /\ dual_open_loop (CS := unit) None None (Some Cython) tt o = (o', tt, Ok (ts, ys))
  /\ dual_open_loop (CS := unit) None None (Some Cython) tt o2 = (o2', tt, Ok (ts2, ys2))
  /\ aget (p_goal_y (o_base o)) 10%nat <> aget (p_goal_y (o_base o2)) 10%nat
  /\ aget (o_beta_y o) 8%nat <> aget (o_beta_y o2) 8%nat.
Proof.
  destruct (dual_example 1 (1/10) (1/100) 1 true (fun _ => 1) (fun _ => 1) at_origin turned)
    as (o & Hr & E1 & E2 & E3 & E4 & E5 & E6 & E7 & E8 & E9 & E10 & E11 & E12 & E13 & E14 & E15 & E16 & E17 & E18); [lra|].
  destruct (dual_example 1 (1/10) (1/100) 1 true (fun _ => 1) (fun j => if Nat.ltb j 8 then 1 else 2) at_origin right_elsewhere)
    as (o2 & Gr & G1 & G2 & G3 & G4 & G5 & G6 & G7 & G8 & G9 & G10 & G11 & G12 & G13 & G14 & G15 & G16 & G17 & G18); [lra|].
  destruct (C69_dual_runs_exist unit None None tt o Hr) as [T _]; [lra|lra|].
  destruct (T Cython) as (o' & [] & ts & ys & EE).
  destruct (C69_dual_runs_exist unit None None tt o2 Gr) as [T2 _]; [lra|lra|].
  destruct (T2 Cython) as (o2' & [] & ts2 & ys2 & EE2).
  exists o, o2, o', o2', ts, ys, ts2, ys2.
  split; [auto|]. split; [auto|]. split; [|split; [lra|split; [|split; [auto|split; [auto|]]]]].
  - assert (EF : o_forcing_term o2 = o_forcing_term o) by congruence.
    constructor; rewrite ?EF; try congruence; auto.
    all: intros j Hj; unfold remembered; rewrite ?E12, ?G12, ?E6, ?G6, ?E7, ?G7, ?E8, ?G8, ?E9, ?G9, ?E10, ?G10;
      cbn [Nat.mul Nat.add]; unfold right_elsewhere; try reflexivity.
    + destruct (Nat.ltb_spec j 8); [reflexivity|lia].
    + destruct (Nat.ltb_spec j 7); [reflexivity|lia].
  - unfold dual_orientation, unit_quat. rewrite E8. cbn. lra.
  - rewrite E9, G9, E7, G7. split; cbn; lra.
Qed.

(** The left arm of the same object and the CartesianDMP with its parameters. *)
Example C39_satisfiable : exists o o' y' yd',
  dual_shapes o /\ arm_of 0 o (arm_cart 0 o) /\ o_p_gain o = 0 /\ beta_index_irrelevant 1 o
  /\ o_smooth_scaling o = true /\ 0 <= p_t (o_base o) /\ 0 < o_dt o /\ 0 < o_execution_time o
  /\ dual_n_steps (CS := unit) None Python 7 (p_start_y (o_base o)) (p_start_yd (o_base o)) tt o
     = (o', tt, Ok (y', yd'))
  /\ p_goal_y (o_base o) <> p_start_y (o_base o).
Proof.
  destruct (dual_example 1 (1/10) (1/100) 0 true (fun _ => 1) (fun _ => 1) at_origin turned)
    as (o & Hr & E1 & E2 & E3 & E4 & E5 & E6 & E7 & E8 & E9 & E10 & E11 & E12 & E13 & E14 & E15 & E16 & E17 & E18); [lra|].
  pose proof (dual_reachable_shapes o Hr) as Hs.
  destruct (dual_n_steps_total (CS := unit) None Python 7 (p_start_y (o_base o)) (p_start_yd (o_base o)) tt o)
    as (o' & [] & y' & yd' & F).
  1-5: pose proof Hs as (D1 & D2 & D3 & D4 & _); auto; lra.
  exists o, o', y', yd'. split; [auto|]. split; [apply arm_cart_of|]. split; [auto|].
  split; [right; right; intros j Hj; now rewrite E7|].
  repeat (split; [first [assumption|lra]|]).
  intros E. apply (f_equal (fun a => aget a 0%nat)) in E. rewrite E8, E9 in E. cbn in E. lra.
Qed.

(** ** C26: the weights of a DualCartesianDMP *)

(** [set_weights] followed by [get_weights] returns the vector; a vector of wrong length
    is rejected without effect; [set_weights(get_weights())] changes no weight. *)
Theorem C26_dual : forall o w, dual_reachable o ->
  ((alen w = 12 * o_n_weights_per_dim o)%nat ->
     snd (dual_set_weights w o) = Ok tt
     /\ alen (dual_get_weights (fst (dual_set_weights w o))) = alen w
     /\ forall k, (k < alen w)%nat -> aget (dual_get_weights (fst (dual_set_weights w o))) k = aget w k)
  /\ ((alen w <> 12 * o_n_weights_per_dim o)%nat -> dual_set_weights w o = (o, Err ValueError))
  /\ snd (dual_set_weights (dual_get_weights o) o) = Ok tt
  /\ forall d k, (k < o_n_weights_per_dim o)%nat ->
       ft_weights (o_forcing_term (fst (dual_set_weights (dual_get_weights o) o))) d k
       = ft_weights (o_forcing_term o) d k.
Proof.
  intros o w Hr. apply dual_reachable_shapes in Hr. unfold dual_shapes in Hr. cbv zeta in Hr.
  destruct Hr as (_ & _ & _ & _ & _ & _ & _ & _ & _ & _ & _ & _ & Hn & H2). rewrite <- Hn in *.
  split; [|split; [|]].
  - intros Hw. unfold dual_set_weights.
    destruct (reshape w 12 (ft_n (o_forcing_term o))) as [W|] eqn:E.
    + destruct (ravel_reshape _ _ _ _ (ltac:(lia) : (0 < ft_n (o_forcing_term o))%nat) E) as [A B].
      cbn [fst snd]. split; [reflexivity|]. split; [exact A|]. intros; apply B.
    + unfold reshape in E. rewrite Hw, Nat.eqb_refl in E. discriminate.
  - intros Hw. unfold dual_set_weights, reshape.
    destruct (Nat.eqb_spec (alen w) (12 * ft_n (o_forcing_term o))); congruence.
  - destruct (reshape_ravel 12 (ft_n (o_forcing_term o)) (ft_weights (o_forcing_term o))) as (w' & E & Hw).
    unfold dual_set_weights, dual_get_weights. rewrite E. split; [reflexivity|]. exact Hw.
Qed.

(** ** C35: equilibrium of a DualCartesianDMP *)

(** One arm whose orientation weights are zero: its orientation stays at the goal for any
    number of steps, whatever the other arm and the positions do. *)
Theorem C35_dual : forall arm i n y yd o o' y' yd' u u',
  (arm <= 1)%nat -> dual_shapes o -> o_p_gain o = 0 -> beta_index_irrelevant arm o ->
  0 < o_int_dt o -> 0 < o_dt o -> 0 < o_execution_time o -> 0 <= p_t (o_base o) ->
  unit_quat (dual_orientation arm (p_goal_y (o_base o))) ->
  (forall d j, (d < 3)%nat -> (j < ft_n (o_forcing_term o))%nat ->
     ft_weights (o_forcing_term o) (6 * arm + 3 + d)%nat j = 0) ->
  (o_smooth_scaling o = true ->
     dual_orientation arm (p_start_y (o_base o)) = dual_orientation arm (p_goal_y (o_base o))) ->
  dual_orientation arm y = dual_orientation arm (p_goal_y (o_base o)) ->
  dual_angular_of arm (aget yd) = v3_zero ->
  dual_n_steps (CS := unit) None i n y yd u o = (o', u', Ok (y', yd')) ->
  dual_orientation arm y' = dual_orientation arm (p_goal_y (o_base o)) /\ dual_angular_of arm (aget yd') = v3_zero.
Proof.
  intros arm i n y yd o o' y' yd' u u' Ha Hs Hg Hb Hi Hdt Hx Ht Hug Hw Hsm Hy Hyd E.
  (* a CartesianDMP with the parameters of this arm *)
  set (k0 := arm_cart arm o).
  set (W := fun d j => if Nat.ltb d 3 then ft_weights (k_frot k0) d j else 0).
  set (k := cart_with_frot (set_ft_weights W (k_frot k0)) k0).
  assert (HA : arm_of arm o k).
  { constructor; try reflexivity; intros; try reflexivity; constructor; try reflexivity.
    intros j q Hj. cbn. unfold W. destruct (Nat.ltb_spec j 3); [reflexivity|lia]. }
  set (yk := arm_array (7 * arm) 7 y). set (ydk := arm_array (6 * arm) 6 yd).
  assert (HO : forall a b, arm_pose arm a b -> orientation b = dual_orientation arm a).
  { intros a b H. unfold orientation. rewrite !H by lia. destruct (arm_dec arm Ha) as [-> | ->]; reflexivity. }
  assert (HW : forall a b, arm_twist arm a b -> angular b = dual_angular_of arm (aget a)).
  { intros a b H. unfold angular. rewrite !H by lia. destruct (arm_dec arm Ha) as [-> | ->]; reflexivity. }
  assert (Py : arm_pose arm y yk) by (intros j Hj; reflexivity).
  assert (Pyd : arm_twist arm yd ydk) by (intros j Hj; reflexivity).
  assert (EG : orientation (p_goal_y (k_base k)) = dual_orientation arm (p_goal_y (o_base o)))
    by (apply HO; exact (ao_goal _ _ _ HA)).
  assert (ES : orientation (p_start_y (k_base k)) = dual_orientation arm (p_start_y (o_base o)))
    by (apply HO; exact (ao_start _ _ _ HA)).
  destruct (C39_arm_is_cartesian_dmp arm Euler i n y yd yk ydk o k o' y' yd' u u')
    as (k' & yk' & ydk' & EK & P1 & P2); auto; try reflexivity; [now left|].
  rewrite <- (HO _ _ P1), <- (HW _ _ P2), <- EG.
  apply (C35_cartesian Euler i n yk ydk k k'); auto; try reflexivity; try exact Hi; try exact Hdt; try exact Hx; try exact Ht.
  - now rewrite EG.
  - intros d j Hj. cbn. unfold W. destruct (Nat.ltb_spec d 3); [|reflexivity]. cbn. now apply Hw.
  - intros Hk. rewrite EG, ES. now apply Hsm.
  - now rewrite EG, (HO _ _ Py).
  - now rewrite (HW _ _ Pyd).
Qed.

Example C35_dual_satisfiable : exists o, dual_reachable o /\ o_p_gain o = 0 /\ o_smooth_scaling o = false
  /\ unit_quat (dual_orientation 0 (p_goal_y (o_base o)))
  /\ dual_orientation 0 (p_start_y (o_base o)) <> dual_orientation 0 (p_goal_y (o_base o))
  /\ (forall d k, ft_weights (o_forcing_term o) d k = 0).
Proof.
  destruct (dual_example 1 (1/10) (1/100) 0 false (fun _ => 1) (fun _ => 1) at_origin turned)
    as (o & Hr & E1 & E2 & E3 & E4 & E5 & E6 & E7 & E8 & E9 & E10 & E11 & E12 & E13 & E14 & E15 & E16 & E17 & E18); [lra|].
  exists o. repeat (split; [assumption|]). unfold dual_orientation, unit_quat. rewrite E8, E9. cbn.
  split; [lra|]. split; [|assumption]. intros E. apply (f_equal qw) in E. cbn in E. lra.
Qed.
