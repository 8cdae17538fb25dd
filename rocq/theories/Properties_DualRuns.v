(** C39 (counterexample), C41, C35 and examples for DualCartesianDMP.  Final statements. *)
From Coq Require Import Reals List Arith Bool Lia Lra ZArith FunctionalExtensionality.
From Verif Require Import M_Prelude M_Canonical M_Forcing M_Dmp M_Base M_DmpObject M_SpringDamper
  M_Quaternion M_Cartesian M_Dual S_Loops S_Rotation P_Loops P_Canonical P_Quaternion P_Cartesian P_DmpObject
  P_Components P_Dual P_DualObject Properties_Cartesian Properties_CartesianObject Properties_DualObject
  Properties_DualArm.
Import ListNotations.
Open Scope R_scope.
Set Bullet Behavior "Strict Subproofs".

(** A loop with a single iteration. *)
Lemma substeps_one {S} (body : R -> R -> S -> S) a b h s : a < b -> b - a <= h ->
  substeps (substeps_fuel a b h) a b h body s = Ok (body b (b - a) s).
Proof.
  intros Hab Hh. unfold substeps_fuel.
  assert (0 < (b - a) / h) by (apply Rdiv_lt_0_compat; lra).
  destruct (archimed ((b - a) / h)) as [H1 _].
  assert (0 < up ((b - a) / h))%Z by (apply lt_IZR; lra).
  destruct (Z.to_nat (up ((b - a) / h))) as [|fuel] eqn:Ef; [lia|].
  cbn [substeps]. destruct (Rlt_dec a b); [|lra].
  assert (Ed : (if Rlt_dec (b - a) h then b - a else h) = b - a) by (destruct (Rlt_dec (b - a) h); lra).
  rewrite Ed. replace (a + (b - a)) with b by ring.
  destruct fuel; cbn [substeps]; (destruct (Rlt_dec b b); [lra|reflexivity]).
Qed.

Definition dual_conf (sy gy : vec) : configure_args :=
  {| c_t := None; c_start_y := Some {| alen := 14; aget := sy |}; c_start_yd := None; c_start_ydd := None;
     c_goal_y := Some {| alen := 14; aget := gy |}; c_goal_yd := None; c_goal_ydd := None |}.

(** A new object with given gains and times, configured with a start and a goal. *)
Lemma dual_example x dt idt pg sm (al be sy gy : vec) : 0 < x ->
  exists o, dual_reachable o /\ o_execution_time o = x /\ o_dt o = dt /\ o_int_dt o = idt /\ o_p_gain o = pg
   /\ o_smooth_scaling o = sm /\ aget (o_alpha_y o) = al /\ aget (o_beta_y o) = be
   /\ aget (p_start_y (o_base o)) = sy /\ aget (p_goal_y (o_base o)) = gy
   /\ p_start_yd (o_base o) = zeros 12 /\ p_t (o_base o) = 0 /\ o_initialized o = false
   /\ o_n_weights_per_dim o = 2%nat
   /\ (forall d k, ft_weights (o_forcing_term o) d k = 0) /\ ft_goal_t (o_forcing_term o) = x
   /\ ft_start_t (o_forcing_term o) = 0 /\ ft_alpha_z (o_forcing_term o) = - ln (1/100)
   /\ init_forcing_term (vzero, vzero) 2 x = Ok (o_forcing_term o).
Proof.
  intros Hx. destruct (init_forcing_term_accepts (vzero, vzero) 2 x) as [f Ef]; [lia|exact Hx|].
  pose proof (init_forcing_term_inv _ _ _ _ Ef) as (_ & _ & Ei).
  destruct (forcing_term_init_n _ _ _ _ _ _ _ _ Ei) as (F1 & F2 & F3 & F4 & F5 & _).
  assert (Fw : forall d k, ft_weights f d k = 0).
  { unfold forcing_term_init in Ei. destruct (Nat.leb 2 1); [discriminate|]. destruct (Rle_dec x 0); [discriminate|].
    destruct (Rle_dec (8/10) 0); [discriminate|]. destruct (init_rbfs _ _ _ _ _ _ _). injection Ei as <-. reflexivity. }
  assert (E : exists o, dual_new (vzero, vzero) x dt 2 idt pg sm
    {| shape := [12%nat]; data := al |} {| shape := [12%nat]; data := be |} = Ok o
    /\ o_execution_time o = x /\ o_dt o = dt /\ o_int_dt o = idt /\ o_p_gain o = pg /\ o_smooth_scaling o = sm
    /\ aget (o_alpha_y o) = al /\ aget (o_beta_y o) = be /\ o_base o = ptp_init 14 12 /\ o_forcing_term o = f
    /\ o_initialized o = false /\ o_n_weights_per_dim o = 2%nat).
  { unfold dual_new. rewrite Ef. cbn [bind]. unfold ensure_1d_array. cbn -[Nat.eqb].
    eexists. split; [reflexivity|]. cbn. repeat split; reflexivity. }
  destruct E as (o & E & E1 & E2 & E3 & E4 & E5 & E6 & E7 & E8 & E9 & E10 & E11).
  exists (fst (dmp_configure (dual_conf sy gy) o)).
  split; [apply dr_configure; eapply dr_new; eauto|].
  assert (B : fst (dmp_configure (dual_conf sy gy) o) = with_base (configured (dual_conf sy gy) (o_base o)) o).
  { unfold dmp_configure. rewrite E8. reflexivity. }
  rewrite B, E8. cbn. rewrite E9. repeat split; auto.
Qed.

(** Identity orientations at position zero, and the same with coordinate [d] equal to 1. *)
Definition at_origin : vec := fun j => if (Nat.eqb j 3 || Nat.eqb j 10)%bool then 1 else 0.
Definition moved (d : nat) : vec := fun j => if Nat.eqb j d then 1 else at_origin j.

(** The CartesianDMP of one arm, in the state [y], [yd]. *)
Definition arm_array (off len : nat) (a : arr) : arr := {| alen := len; aget := fun j => aget a (off + j)%nat |}.
Definition arm_cart (arm : nat) (o : dmp) : cart :=
  let p := o_base o in
  let rows off := set_ft_weights (fun j => ft_weights (o_forcing_term o) (off + j)%nat) (o_forcing_term o) in
  {| k_base := {| p_n_dims := 7; p_n_vel_dims := 6; p_t := p_t p; p_last_t := None;
                  p_start_y := arm_array (7 * arm) 7 (p_start_y p); p_start_yd := arm_array (6 * arm) 6 (p_start_yd p);
                  p_start_ydd := arm_array (6 * arm) 6 (p_start_ydd p); p_goal_y := arm_array (7 * arm) 7 (p_goal_y p);
                  p_goal_yd := arm_array (6 * arm) 6 (p_goal_yd p); p_goal_ydd := arm_array (6 * arm) 6 (p_goal_ydd p);
                  p_current_y := arm_array (7 * arm) 7 (p_current_y p);
                  p_current_yd := arm_array (6 * arm) 6 (p_current_yd p) |};
     k_execution_time := o_execution_time o; k_dt := o_dt o; k_n := o_n_weights_per_dim o; k_int_dt := o_int_dt o;
     k_smooth := o_smooth_scaling o; k_fpos := rows (6 * arm)%nat; k_frot := rows (6 * arm + 3)%nat;
     k_alpha := arm_array (6 * arm) 6 (o_alpha_y o); k_beta := arm_array (6 * arm) 6 (o_beta_y o) |}.

Lemma arm_cart_of arm o : arm_of arm o (arm_cart arm o).
Proof.
  constructor; try reflexivity; intros; try reflexivity; constructor; try reflexivity.
Qed.

(** The full C39 is false: the smooth scaling term of the right arm takes [beta_y] of a
    neighbouring component.  All hypotheses of [C39_arm_is_cartesian_dmp] except
    [beta_index_irrelevant] hold, and after a single step the arms differ. *)
Theorem C39_right_arm_refuted : exists o k o' y' yd' k' yk' ydk',
  dual_reachable o /\ arm_of 1 o k /\ o_p_gain o = 0 /\ o_smooth_scaling o = true
  /\ p_t (o_base o) = 0 /\ 0 < o_dt o /\ 0 < o_execution_time o
  /\ (forall d, 0 < aget (o_beta_y o) d) /\ (forall d w, ft_weights (o_forcing_term o) d w = 0)
  /\ dual_n_steps (CS := unit) None Python 1 (p_start_y (o_base o)) (p_start_yd (o_base o)) tt o = (o', tt, Ok (y', yd'))
  /\ cart_n_steps None Euler Python 1 (p_start_y (k_base k)) (p_start_yd (k_base k)) k = (k', Ok (yk', ydk'))
  /\ aget yd' 6%nat <> aget ydk' 0%nat.
Proof.
  destruct (dual_example 1 1 1 0 true (fun _ => 1) (fun d => if Nat.eqb d 7 then 2 else 1) at_origin (moved 7))
    as (o & Hr & E1 & E2 & E3 & E4 & E5 & E6 & E7 & E8 & E9 & E10 & E11 & E12 & E13 & E14 & E15 & E16 & E17 & _); [lra|].
  pose proof (dual_reachable_shapes o Hr) as Hs.
  destruct (dual_n_steps_total (CS := unit) None Python 1 (p_start_y (o_base o)) (p_start_yd (o_base o)) tt o)
    as (o' & cs' & y' & yd' & F).
  1-5: pose proof Hs as (D1 & D2 & D3 & D4 & _); auto; lra.
  destruct cs'.
  set (k := arm_cart 1 o).
  assert (G : exists k' yk' ydk', cart_n_steps None Euler Python 1 (p_start_y (k_base k)) (p_start_yd (k_base k)) k
    = (k', Ok (yk', ydk'))).
  { apply C37_runs_exist; try reflexivity; cbn; lra. }
  destruct G as (k' & yk' & ydk' & G).
  exists o, k, o', y', yd', k', yk', ydk'.
  split; [exact Hr|]. split; [apply arm_cart_of|]. do 4 (split; [first [assumption|lra]|]). split; [lra|].
  split; [intros d; rewrite E7; destruct (Nat.eqb d 7); lra|].
  split; [exact E14|]. split; [exact F|]. split; [exact G|].
  cbn [dual_n_steps] in F. destruct (dual_step _ _ _ _ _ o) as [[o1 u1] [[y1 yd1]|e]] eqn:F1; [|discriminate].
  injection F as -> _ -> ->.
  destruct (dual_step_ok _ _ _ _ _ _ _ _ _ _ F1 Hs) as (_ & _ & Ef & _).
  cbn [cart_n_steps] in G. destruct (cart_step _ _ _ _ _ k) as [k1 [[y2 yd2]|e]] eqn:G1; [|discriminate].
  injection G as -> -> ->.
  destruct (cart_step_ok _ _ _ _ _ _ _ _ _ G1) as (yp & ydp & q & w & EP & _ & -> & -> & _); try reflexivity.
  assert (Hz : 0 < ft_phase (o_forcing_term o) 1) by (unfold ft_phase, phase; apply exp_pos).
  assert (Hf : forall z, ft_forces (o_forcing_term o) z = vzero) by (intros; apply zero_weights_forces; auto).
  assert (Hf2 : forall z, ft_forces (k_fpos k) z = vzero) by (intros; apply zero_weights_forces; intros; apply E14).
  (* the dual arm *)
  unfold dual_step_function in Ef. change (a_start_t (dual_args o _)) with 0 in Ef.
  change (a_int_dt (dual_args o _)) with (o_int_dt o) in Ef.
  rewrite E2, E3, E11 in Ef. destruct (Rle_dec (0 + 1) 0); [lra|].
  rewrite substeps_one in Ef by lra. cbn [rmap] in Ef.
  match type of Ef with Ok (fst (fst ?x), _) = _ => set (X := x) in Ef end.
  assert (Ev : v3x (as_v (arm_proj 1 X)) = aget yd' 6%nat).
  { destruct X as [[[a b] c] d]. cbn in Ef. injection Ef as -> ->. reflexivity. }
  unfold X in Ev. rewrite dual_body_arm_none in Ev by lia. cbv zeta in Ev.
  (* the CartesianDMP *)
  unfold run_step_function, dmp_step_euler in EP.
  change (a_goal_t (cart_pos_args k None)) with (o_execution_time o) in EP.
  change (a_start_t (cart_pos_args k None)) with 0 in EP.
  change (a_int_dt (cart_pos_args k None)) with (o_int_dt o) in EP.
  change (p_t (k_base k)) with (p_t (o_base o)) in EP. change (k_dt k) with (o_dt o) in EP.
  rewrite E1, E2, E3, E11 in EP. destruct (Rle_dec 1 0); [lra|]. destruct (Rle_dec (0 + 1) 0); [lra|].
  rewrite substeps_one in EP by lra.
  replace (0 + 1) with 1 in * by ring. replace (1 - 0) with 1 in * by ring.
  unfold euler_body in EP. change (a_coupling_term (cart_pos_args k None)) with (@None coupling) in EP. cbv zeta in EP.
  injection EP as _ EP. apply (f_equal (fun v => v 0%nat)) in EP.
  cbn [twist aget Nat.ltb Nat.leb]. rewrite <- EP, <- Ev. clear EP Ev.
  cbn [arm_step as_v arm_params dual_args step_args option_map ap_te a_tracking_error ap_gain ap_smooth ap_goal_t ap_start_t ap_phase
    ap_f a_p_gain a_smooth_scaling a_goal_t a_start_t a_forcing_term ap_beta_s ap_goal ap_start ap_alpha ap_beta].
  rewrite E1, E4, E5, Hf.
  unfold vadd, vscale, dmp_acc, precomputed_cdd.
  cbn [cart_pos_args a_coupling_term a_smooth_scaling a_forcing_term a_precomputed a_tracking_error a_p_gain
    a_alpha_y a_beta_y a_goal_y a_start_y a_goal_t a_start_t tracking_error_or_zero].
  rewrite Hf2. change (k_smooth k) with (o_smooth_scaling o). rewrite ?E5.
  change (ft_phase (k_fpos k) 1) with (ft_phase (o_forcing_term o) 1).
  change (k_execution_time k) with (o_execution_time o). rewrite ?E1.
  set (z := ft_phase _ _) in *. clearbody z.
  cbn [slice Nat.ltb Nat.leb Nat.add k arm_cart k_alpha k_beta k_base p_goal_y p_start_y p_start_yd arm_array aget].
  cbn [arm_proj as_p as_v as_c arm_p arm_v v3x v3_add v3_scale v3_divs v3_sub v3_mul v3_zero].
  unfold slice. cbn [Nat.ltb Nat.leb Nat.add Nat.mul arm_cart k k_alpha k_beta k_base p_goal_y p_start_y p_start_yd arm_array aget].
  rewrite E6, E7, E8, E9, E10. unfold zeros. cbn. rewrite E6, E7, E8, E9. unfold vzero, moved, at_origin. cbn.
  replace (0 * vsub (aget (remembered o)) _ 7%nat) with 0 by ring. unfold Rdiv. rewrite !Rminus_0_r, !Rmult_1_r, Rinv_1. lra.
Qed.

(** ** C41 *)
Lemma dual_feedback_no_gain i a d : a_p_gain a = 0 -> dual_feedback i a d = vzero.
Proof.
  intros H. unfold dual_feedback. destruct (a_tracking_error a) as [te|]; [|reflexivity].
  rewrite H. apply functional_extensionality; intros v. unfold assemble_v.
  destruct (is_pv v); [unfold vzero, Rdiv; ring|].
  assert (Z : forall q, v3_divs (v3_scale 0 q) d = v3_zero)
    by (intros q; apply v3_eq; simpl; unfold Rdiv; ring).
  rewrite !Z.
  assert (Z0 : forall m, vec_of_v3 v3_zero m = 0) by (intros [|[|[|m]]]; reflexivity).
  rewrite !Z0. now destruct (Nat.ltb v 6), (Nat.ltb v 12).
Qed.

Lemma dual_step_function_no_gain {CS} i o o2 te te2 (ct : option (stateful_coupling CS)) lt t s cs :
  o_p_gain o = 0 -> same_params o o2 ->
  dual_step_function i (dual_args o2 te2) ct lt t s cs = dual_step_function i (dual_args o te) ct lt t s cs.
Proof.
  intros Hg (A1 & A2 & A3 & A4 & A5 & A6 & A7 & A8 & A9 & A10 & A11 & A12 & A13 & A14 & A15 & A16 & A17).
  assert (HF : forall c d x, dual_body i (dual_args o2 te2) ct c d x = dual_body i (dual_args o te) ct c d x).
  { intros c d [[[y yd] cdd] k]. unfold dual_body.
    rewrite (dual_feedback_no_gain i (dual_args o2 te2)) by (cbn; congruence).
    rewrite (dual_feedback_no_gain i (dual_args o te)) by exact Hg.
    unfold dual_pos_acc, dual_rot_acc.
    cbn [dual_args step_args a_goal_y a_start_y a_alpha_y a_beta_y a_forcing_term a_goal_t a_start_t a_smooth_scaling].
    now rewrite A1, A6, A7, A8, A9, A12, A15. }
  unfold dual_step_function.
  cbn [dual_args step_args a_start_t a_int_dt a_start_y a_start_yd]. rewrite A4, A12, A13.
  assert (HB : dual_body i (dual_args o2 te2) ct = dual_body i (dual_args o te) ct).
  { do 3 (apply functional_extensionality; intro). apply HF. }
  fold (dual_args o2 te2). fold (dual_args o te). rewrite HB. reflexivity.
Qed.

(** Objects that differ only in what is left over from earlier steps. *)
Definition same_but_current (o o2 : dmp) : Prop := same_params o o2 /\ p_t (o_base o2) = p_t (o_base o).

Lemma dual_go_repeat {CS} rt (ct : option (stateful_coupling CS)) i : forall fuel y yd cs o o2,
  dual_shapes o -> dual_shapes o2 -> same_but_current o o2 -> o_p_gain o = 0 ->
  snd (dual_open_loop_go fuel rt ct i y yd cs o2) = snd (dual_open_loop_go fuel rt ct i y yd cs o)
  /\ snd (fst (dual_open_loop_go fuel rt ct i y yd cs o2)) = snd (fst (dual_open_loop_go fuel rt ct i y yd cs o)).
Proof.
  induction fuel as [|fuel IH]; intros y yd cs o o2 Hs Hs2 [Hp Ht] Hg; cbn [dual_open_loop_go]; rewrite Ht;
    (destruct (Rlt_dec (p_t (o_base o)) rt); [|auto]); [auto|].
  destruct (Nat.eq_dec (alen y) 14) as [Ly|Ly]; [|
    unfold dual_step; destruct (Nat.eqb_spec (alen y) 14); [contradiction|]; cbn; auto].
  destruct (Nat.eq_dec (alen yd) 12) as [Lyd|Lyd]; [|
    unfold dual_step; rewrite Ly; destruct (Nat.eqb_spec (alen yd) 12); [contradiction|]; cbn; auto].
  destruct (dual_step y yd ct i cs o) as [[o1 c1] r1] eqn:E1.
  destruct (dual_step y yd ct i cs o2) as [[o3 c3] r3] eqn:E3.
  assert (HR : r3 = r1 /\ c3 = c1).
  { rewrite dual_step_eq in E1, E3 by auto. cbv zeta in E1, E3.
    rewrite (dual_step_function_no_gain i o o2 (dual_tracking_error (aget (remembered o)) (aget y))) in E3 by auto.
    pose proof Hp as (_ & A2 & _). rewrite Ht, A2 in E3.
    destruct (dual_step_function _ _ _ _ _ _ _) as [[[y' yd'] c']|e]; injection E1 as <- <- <-; injection E3 as <- <- <-; auto. }
  destruct HR as [-> ->].
  destruct r1 as [[y1 yd1]|e]; [|auto].
  destruct (dual_step_ok _ _ _ _ _ _ _ _ _ _ E1 Hs) as (_ & _ & _ & _ & _ & P1 & T1 & _ & _ & _ & Hs1).
  destruct (dual_step_ok _ _ _ _ _ _ _ _ _ _ E3 Hs2) as (_ & _ & _ & _ & _ & P3 & T3 & _ & _ & _ & Hs3).
  assert (Hsame : same_but_current o1 o3).
  { split.
    - clear -Hp P1 P3. unfold same_params in *. intuition congruence.
    - pose proof Hp as (_ & A2 & _). congruence. }
  assert (Hg1 : o_p_gain o1 = 0) by (destruct P1 as (_ & _ & _ & _ & A5 & _); congruence).
  destruct (IH y1 yd1 c1 o1 o3 Hs1 Hs3 Hsame Hg1) as [I1 I2].
  assert (T : p_t (o_base o3) = p_t (o_base o1)) by apply Hsame. rewrite T.
  destruct (dual_open_loop_go fuel rt ct i y1 yd1 c1 o1) as [[oa ca] ra].
  destruct (dual_open_loop_go fuel rt ct i y1 yd1 c1 o3) as [[ob cb] rb].
  cbn [fst snd] in I1, I2. subst ra ca. destruct rb as [[ts ys]|e]; auto.
Qed.

(** Without tracking-error feedback ([p_gain = 0]), calling [open_loop] again on the
    object that the first call left behind gives the same times and poses, provided the
    coupling term (if any) is in the same state as in the first call. *)
Theorem C41_repeatable_partial : forall (CS : Type) rt (ct : option (stateful_coupling CS)) i cs o o' cs' ts ys,
  dual_reachable o -> o_p_gain o = 0 ->
  dual_open_loop rt ct (Some i) cs o = (o', cs', Ok (ts, ys)) ->
  exists o'', dual_open_loop rt ct (Some i) cs o' = (o'', cs', Ok (ts, ys)).
Proof.
  intros CS rt ct i cs o o' cs' ts ys Hr Hg E. apply dual_reachable_shapes in Hr.
  destruct (dual_open_loop_spec _ _ _ _ _ _ _ _ _ Hr E) as (n & _ & _ & _ & _ & _ & _ & (o1 & y1 & yd1 & _ & Eo) & Hp & Hs').
  unfold dual_open_loop in *. cbv zeta in *.
  change (with_base (set_t 0 (o_base o)) o) with (at_time_zero o) in *.
  change (with_base (set_t 0 (o_base o')) o') with (at_time_zero o') in *.
  pose proof Hp as (A1 & A2 & A3 & A4 & A5 & A6 & A7 & A8 & A9 & A10 & A11 & A12 & A13 & _).
  change (o_dt (at_time_zero o')) with (o_dt o'). change (o_dt (at_time_zero o)) with (o_dt o) in E.
  change (p_start_y (o_base (at_time_zero o'))) with (p_start_y (o_base o')).
  change (p_start_yd (o_base (at_time_zero o'))) with (p_start_yd (o_base o')).
  change (p_start_y (o_base (at_time_zero o))) with (p_start_y (o_base o)) in E.
  change (p_start_yd (o_base (at_time_zero o))) with (p_start_yd (o_base o)) in E.
  rewrite A1, A2, A12, A13.
  set (r := match rt with Some x => x | None => o_execution_time o end) in *.
  assert (Hs0 : dual_shapes (at_time_zero o)) by exact Hr.
  assert (Hs1 : dual_shapes (at_time_zero o')) by exact Hs'.
  assert (HC : same_but_current (at_time_zero o) (at_time_zero o')).
  { split; [exact Hp|reflexivity]. }
  destruct (dual_go_repeat r ct i (dual_fuel r (o_dt o)) (p_start_y (o_base o)) (p_start_yd (o_base o)) cs
    (at_time_zero o) (at_time_zero o') Hs0 Hs1 HC Hg) as [I1 I2].
  destruct (dual_open_loop_go _ _ _ _ _ _ _ (at_time_zero o)) as [[oa ca] ra].
  destruct (dual_open_loop_go _ _ _ _ _ _ _ (at_time_zero o')) as [[ob cb] rb].
  cbn [fst snd] in I1, I2. subst ra ca. destruct rb as [[ts1 ys1]|e]; [|discriminate].
  injection E as _ -> <- <-. eexists. reflexivity.
Qed.

(** A coupling term without state: no condition on the coupling term is left. *)
Theorem C41_repeatable_stateless_partial : forall rt (c : option coupling) i o o' ts ys,
  dual_reachable o -> o_p_gain o = 0 ->
  dual_open_loop rt (option_map stateless c) (Some i) tt o = (o', tt, Ok (ts, ys)) ->
  exists o'', dual_open_loop rt (option_map stateless c) (Some i) tt o' = (o'', tt, Ok (ts, ys)).
Proof. intros rt c i o o' ts ys. apply C41_repeatable_partial. Qed.

(** With [p_gain = 1], dt = execution_time = 1 and a goal at distance 1: the x coordinate
    of the last pose is 1 in the first call and 2 in the second. *)
Theorem C41_feedback_refuted : exists o o' o'' ts ys ys2 y1 y2,
  dual_reachable o
  /\ dual_open_loop (CS := unit) None None (Some Cython) tt o = (o', tt, Ok (ts, ys))
  /\ dual_open_loop (CS := unit) None None (Some Cython) tt o' = (o'', tt, Ok (ts, ys2))
  /\ nth_error ys 1 = Some y1 /\ nth_error ys2 1 = Some y2 /\ aget y1 0%nat = 1 /\ aget y2 0%nat = 2.
Proof.
  destruct (dual_example 1 1 1 1 false (fun _ => 1) (fun _ => 1) at_origin (moved 0))
    as (o & Hr & E1 & E2 & E3 & E4 & E5 & E6 & E7 & E8 & E9 & E10 & E11 & E12 & E13 & E14 & E15 & E16 & E17 & _); [lra|].
  assert (Hf : forall z, ft_forces (o_forcing_term o) z = vzero) by (intros; apply zero_weights_forces; auto).
  destruct (C69_dual_runs_exist unit None None tt o Hr) as [T _]; [lra|lra|].
  destruct (T Cython) as (o' & [] & ts & ys & EE). clear T.
  assert (Hr' : dual_reachable o').
  { pose proof (dr_open_loop unit None None (Some Cython) tt o Hr) as R. now rewrite EE in R. }
  pose proof (dual_reachable_shapes o Hr) as Hs. pose proof (dual_reachable_shapes o' Hr') as Hs'.
  destruct (dual_open_loop_spec _ _ _ _ _ _ _ _ _ Hs EE)
    as (n & L1 & L2 & T1 & T2 & T3 & HN & (o1 & yl & ydl & HL & Eo) & Hp & _).
  pose proof Hp as (A1 & A2 & A3 & A4 & A5 & A6 & A7 & A8 & A9 & A10 & A11 & A12 & A13 & A14 & A15 & _).
  destruct (C69_dual_runs_exist unit None None tt o' Hr') as [T _]; [lra|lra|].
  destruct (T Cython) as (o'' & [] & ts2 & ys2 & EE2). clear T.
  destruct (dual_open_loop_spec _ _ _ _ _ _ _ _ _ Hs' EE2)
    as (n2 & L1' & L2' & T1' & T2' & T3' & HN' & _).
  cbv zeta in *. rewrite E1, E2 in *. rewrite A1, A2 in T2', T3'.
  assert (n = 1%nat).
  { destruct n as [|[|n]]; [simpl in T3; lra|reflexivity|]. pose proof (T2 1%nat ltac:(lia)). simpl in H. lra. }
  assert (n2 = 1%nat).
  { destruct n2 as [|[|m]]; [simpl in T3'; lra|reflexivity|]. pose proof (T2' 1%nat ltac:(lia)). simpl in H0. lra. }
  subst n n2.
  (* one step of the x coordinate *)
  assert (HX : forall ox y' yd' ow, dual_shapes ox -> same_params o ox -> p_t (o_base ox) = 0 ->
    dual_step (CS := unit) (p_start_y (o_base o)) (p_start_yd (o_base o)) None Cython tt ox = (ow, tt, Ok (y', yd')) ->
    aget y' 0%nat = 1 + (aget (remembered ox) 0%nat - 0) /\ o_initialized ow = true /\ p_current_y (o_base ow) = y').
  { intros ox y' yd' ow Hsx (B1 & B2 & B3 & B4 & B5 & B6 & B7 & B8 & B9 & B10 & B11 & B12 & B13 & B14 & B15 & _) Htx F.
    destruct (dual_step_ok _ _ _ _ _ _ _ _ _ _ F Hsx) as (_ & _ & Ef & _ & _ & _ & _ & Hi & Hc & _).
    split; [|auto].
    unfold dual_step_function in Ef. change (a_start_t (dual_args ox _)) with 0 in Ef.
    change (a_int_dt (dual_args ox _)) with (o_int_dt ox) in Ef.
    rewrite B2, B4, E2, E3, Htx in Ef. destruct (Rle_dec (0 + 1) 0); [lra|].
    rewrite substeps_one in Ef by lra. cbn [rmap] in Ef.
    match type of Ef with Ok (fst (fst ?x), _) = _ => set (X := x) in Ef end.
    assert (Ev : v3x (as_p (arm_proj 0 X)) = aget y' 0%nat).
    { destruct X as [[[a b] c] d]. cbn in Ef. injection Ef as -> ->. reflexivity. }
    rewrite <- Ev. unfold X. rewrite dual_body_arm_none by lia. cbv zeta. clear Ef Ev X.
    replace (0 + 1 - 0) with 1 by ring.
    cbn [arm_step as_p arm_params dual_args step_args option_map ap_te a_tracking_error ap_gain ap_smooth ap_goal_t
      ap_start_t ap_phase ap_f a_p_gain a_smooth_scaling a_goal_t a_start_t a_forcing_term ap_beta_s ap_goal
      ap_start ap_alpha ap_beta].
    rewrite B1, B5, B6, B7, E1, E4, E5, Hf.
    cbn [arm_proj as_p as_v as_c arm_p arm_v v3x v3_add v3_scale v3_divs v3_sub v3_mul v3_zero a_alpha_y a_beta_y a_goal_y
      arm_q Nat.mul Nat.add].
    unfold dual_tracking_error. cbn. unfold vsub.
    rewrite B8, B9, B15, E6, E7, E8, E9, E10. unfold zeros. cbn.
    unfold vzero, moved, at_origin. cbn. unfold Rdiv. rewrite !Rminus_0_r, !Rmult_1_r, Rinv_1. ring. }
  destruct (HN 1%nat) as (oa & [] & ya & yda & F & Ny); [lia|].
  destruct (HN' 1%nat) as (ob & [] & yb & ydb & F' & Ny'); [lia|].
  exists o, o', o'', ts, ys, ys2, ya, yb.
  split; [exact Hr|]. split; [exact EE|].
  split.
  { assert (ts2 = ts) as <-; [|exact EE2]. apply (nth_ext _ _ 0 0); [congruence|].
    intros k Hk. rewrite T1, T1' by lia. rewrite A2; reflexivity. }
  split; [exact Ny|]. split; [exact Ny'|].
  rewrite HL in F. injection F as <- <- <-.
  cbn [dual_n_steps] in HL, F'.
  destruct (dual_step _ _ _ _ _ (at_time_zero o)) as [[oc []] [[yc ydc]|e]] eqn:S1; [|discriminate].
  injection HL as <- <- <-.
  destruct (dual_step _ _ _ _ _ (at_time_zero o')) as [[od []] [[ye yde]|e]] eqn:S2; [|discriminate].
  injection F' as <- <- <-.
  destruct (HX (at_time_zero o) yc ydc oc) as (X1 & X2 & X3); [exact Hs|unfold same_params; cbn; repeat split|reflexivity|exact S1|].
  assert (R1 : aget (remembered (at_time_zero o)) 0%nat = 0).
  { unfold remembered. cbn [at_time_zero with_base o_initialized]. rewrite E12. cbn. rewrite E8. reflexivity. }
  rewrite R1 in X1.
  rewrite A12, A13 in S2.
  destruct (HX (at_time_zero o') ye yde od) as (Y1 & _); [exact Hs'|exact Hp|reflexivity|exact S2|].
  assert (R2 : aget (remembered (at_time_zero o')) 0%nat = 1).
  { rewrite Eo. unfold remembered. cbn [at_time_zero with_base o_initialized o_base set_t p_current_y].
    rewrite X2, X3. lra. }
  split; lra.
Qed.
