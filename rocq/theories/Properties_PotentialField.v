(** C63: the potential field that is plotted for a two-dimensional DMP against the
    accelerations the DMP itself uses. *)
From Coq Require Import Reals List Arith Bool Lra Lia FunctionalExtensionality.
From Verif Require Import M_Prelude M_Canonical M_Forcing M_Dmp M_Base M_DmpObject M_Quaternion M_Coupling.
From Verif Require Import M_PotentialField S_Loops P_Loops P_DmpObject Properties_DmpObject Properties_Obstacle.
Import ListNotations.
Set Bullet Behavior "Strict Subproofs".
Open Scope R_scope.

(** [a] is the acceleration that the DMP applies at time [t] in the state [(y, v)]: one
    integration step that ends at [t], whatever its length, changes the velocity by the
    length times [a].  There is no tracking error. *)
Definition step_acceleration (fn : step_function) (o : dmp) (c : option coupling) (t : R)
    (y v a : vec) : Prop :=
  forall h, 0 < h <= o_int_dt o ->
    exists y' v', run_step_function fn (step_args o c vzero) (t - h) t (y, v) = Ok (y', v')
      /\ forall d, v' d = v d + h * a d.

(** The obstacle as the coupling term object a user passes to [step]. *)
Definition avoid (i : impl) (obstacle : option (R * R)) : option coupling :=
  match obstacle with
  | None => None
  | Some ob => Some (obstacle_2d_coupling i ob 1000 (20 / PI))
  end.

Lemma one_substep {S} (body : R -> R -> S -> S) t h idt s :
  0 < h <= idt ->
  substeps (substeps_fuel (t - h) t idt) (t - h) t idt body s = Ok (body t h s).
Proof.
  intros [Hh Hi].
  destruct (substeps_fuel (t - h) t idt) as [|n] eqn:E.
  - exfalso. pose proof (substeps_fuel_enough (t - h) t idt ltac:(lra) ltac:(lra)) as H.
    rewrite E in H. cbn in H. lra.
  - cbn [substeps]. destruct (Rlt_dec (t - h) t); [|lra].
    destruct (Rlt_dec (t - (t - h)) idt) as [H|H].
    + replace (t - (t - h)) with h by ring. replace (t - h + h) with t by ring.
      destruct n; cbn [substeps]; destruct (Rlt_dec t t); try lra; reflexivity.
    + assert (idt = h) by lra. subst idt. replace (t - h + h) with t by ring.
      destruct n; cbn [substeps]; destruct (Rlt_dec t t); try lra; reflexivity.
Qed.

(** The acceleration the DMP applies, by the documented formula. *)
Definition dmp_acceleration (o : dmp) (obstacle : option (R * R)) (t : R) (y v : vec) : vec := fun d =>
  let p := o_base o in
  let tau := o_execution_time o in
  let z := ft_phase (o_forcing_term o) t in
  (aget (o_alpha_y o) d
     * (aget (o_beta_y o) d * (aget (p_goal_y p) d - y d) - tau * v d
        - (if o_smooth_scaling o
           then aget (o_beta_y o) d * (aget (p_goal_y p) d - aget (p_start_y p) d) * z else 0))
   + ft_call (o_forcing_term o) t d
   + match obstacle with
     | None => 0
     | Some ob => vec2 (fst (obstacle_2d_python (y 0%nat, y 1%nat) (v 0%nat, v 1%nat) ob 1000 (20 / PI)))
                       (snd (obstacle_2d_python (y 0%nat, y 1%nat) (v 0%nat, v 1%nat) ob 1000 (20 / PI))) d
     end) / tau ^ 2.

(** Both Euler integrators apply that acceleration. *)
Lemma euler_acceleration fn o obstacle t y v :
  fn = Euler \/ fn = Euler_cython -> 0 < o_execution_time o -> 0 < t ->
  step_acceleration fn o (avoid Python obstacle) t y v (dmp_acceleration o obstacle t y v).
Proof.
  intros Hfn Htau Ht h Hh.
  assert (Hi : a_int_dt (step_args o (avoid Python obstacle) vzero) = o_int_dt o) by reflexivity.
  destruct Hfn as [-> | ->]; cbn [run_step_function].
  - unfold dmp_step_euler. rewrite Hi.
    destruct (Rle_dec _ _) as [H|_]; [cbn in H; lra|].
    destruct (Rle_dec _ _) as [H|_]; [cbn in H; lra|].
    rewrite one_substep by exact Hh. unfold euler_body.
    destruct obstacle as [ob|]; cbn [avoid a_coupling_term step_args];
      eexists; eexists; (split; [reflexivity|]); intros d;
      unfold vadd, vscale, vdivs, dmp_acc, dmp_acceleration, ft_call, tracking_error_or_zero,
        precomputed_cdd, obstacle_2d_coupling, obstacle_2d, vzero; cbn -[pow ft_forces ft_phase obstacle_2d_python PI Rdiv];
      unfold vadd, vscale, vzero; rewrite ?Rminus_0_r;
      field; lra.
  - unfold dmp_step_euler_cython. rewrite Hi.
    destruct (Rle_dec _ _) as [H|_]; [cbn in H; lra|].
    destruct (Rle_dec _ _) as [H|_]; [cbn in H; lra|].
    rewrite one_substep by exact Hh. unfold euler_cython_body.
    destruct obstacle as [ob|]; cbn [avoid a_coupling_term step_args a_precomputed obstacle_2d_coupling];
      eexists; eexists; (split; [reflexivity|]); intros d;
      unfold vadd, vscale, vdivs, dmp_acceleration, ft_call, tracking_error_or_zero,
        precomputed_cdd, obstacle_2d_coupling, obstacle_2d, vzero; cbn -[pow ft_forces ft_phase obstacle_2d_python PI Rdiv];
      unfold vadd, vscale, vzero; rewrite ?Rminus_0_r;
      field; lra.
Qed.

Lemma step_acceleration_unique fn o c t y v a a' d :
  0 < o_int_dt o -> step_acceleration fn o c t y v a -> step_acceleration fn o c t y v a' -> a d = a' d.
Proof.
  intros Hi H H'. destruct (H (o_int_dt o)) as (y1 & v1 & E1 & D1); [lra|].
  destruct (H' (o_int_dt o)) as (y2 & v2 & E2 & D2); [lra|].
  rewrite E1 in E2. injection E2 as _ E. specialize (D1 d). specialize (D2 d). rewrite E in D1.
  apply Rmult_eq_reg_l with (o_int_dt o); lra.
Qed.

(** What is drawn at every tick, and by how much it differs from the acceleration that the
    DMP applies there with the same obstacle: the goal velocity and goal acceleration are
    added, the scaling of the smooth variant is always subtracted, and the obstacle
    acceleration is not divided by the square of the execution time. *)
Theorem C63_difference : forall n o x_range y_range n_ticks obstacle,
  reachable n o -> n = 2%nat -> 0 < o_execution_time o -> 0 < p_t (o_base o) ->
  exists pf, potential_field_2d o x_range y_range n_ticks obstacle = Ok pf
  /\ forall i j fn, fn = Euler \/ fn = Euler_cython ->
     let p := o_base o in
     let tau := o_execution_time o in
     let z := ft_phase (o_forcing_term o) (p_t p) in
     let y := vec2 (pf_xx pf i j) (pf_yy pf i j) in
     let v := aget (p_current_yd p) in
     (forall d, pf_acc pf i j d = pf_ft pf i j d + pf_ts pf i j d + pf_ct pf i j d)
     /\ exists a, step_acceleration fn o (avoid Python obstacle) (p_t p) y v a
     /\ forall d,
        pf_acc pf i j d
        = a d
          + aget (o_alpha_y o) d * aget (p_goal_yd p) d / tau + aget (p_goal_ydd p) d
          - (if o_smooth_scaling o then 0
             else aget (o_alpha_y o) d * aget (o_beta_y o) d
                  * (aget (p_goal_y p) d - aget (p_start_y p) d) * z / tau ^ 2)
          + (1 - / tau ^ 2) * pf_ct pf i j d.
Proof.
  intros n o xr yr k obs Hr Hn Htau Ht.
  destruct (reachable_shapes n o Hr) as [_ Hd].
  unfold potential_field_2d. rewrite Hd, Hn. cbn [Nat.eqb negb].
  eexists. split; [reflexivity|]. intros i j fn Hfn. split; [reflexivity|].
  eexists. split; [now apply euler_acceleration|].
  intros d. unfold dmp_acceleration.
  cbn -[pow ft_call ft_phase obstacle_2d_python PI linspace vec2 Rdiv].
  unfold dmp_transformation_system.
  destruct obs as [ob|]; destruct (o_smooth_scaling o); unfold vzero; cbn [vec2]; field; lra.
Qed.

(** The part of C63 that holds: with smooth scaling, a resting goal, and no obstacle or an
    execution time of one second, the plotted acceleration is the one the DMP applies. *)
Theorem C63_equal_partial : forall n o x_range y_range n_ticks obstacle,
  reachable n o -> n = 2%nat -> 0 < o_execution_time o -> 0 < p_t (o_base o) ->
  o_smooth_scaling o = true ->
  (forall d, aget (p_goal_yd (o_base o)) d = 0) -> (forall d, aget (p_goal_ydd (o_base o)) d = 0) ->
  obstacle = None \/ o_execution_time o = 1 ->
  exists pf, potential_field_2d o x_range y_range n_ticks obstacle = Ok pf
  /\ forall i j fn, fn = Euler \/ fn = Euler_cython ->
     step_acceleration fn o (avoid Python obstacle) (p_t (o_base o))
       (vec2 (pf_xx pf i j) (pf_yy pf i j)) (aget (p_current_yd (o_base o))) (pf_acc pf i j).
Proof.
  intros n o xr yr k obs Hr Hn Htau Ht Hs Hv Ha Ho.
  destruct (C63_difference n o xr yr k obs Hr Hn Htau Ht) as (pf & E & H).
  exists pf. split; [exact E|]. intros i j fn Hfn.
  destruct (H i j fn Hfn) as (_ & a & Hstep & D).
  replace (pf_acc pf i j) with a; [exact Hstep|].
  apply functional_extensionality. intros d. rewrite (D d), Hs, Hv, Ha.
  assert (C : (1 - / o_execution_time o ^ 2) * pf_ct pf i j d = 0).
  { destruct Ho as [-> | ->]; [|replace (1 - / 1 ^ 2) with 0 by field; ring].
    unfold potential_field_2d in E. destruct (negb _); [discriminate|].
    injection E as <-. cbn. unfold vzero. ring. }
  rewrite C. field. lra.
Qed.

(** The grid covers the requested rectangle: corners and even spacing. *)
Theorem C63_grid : forall o x_range y_range n_ticks obstacle pf,
  potential_field_2d o x_range y_range n_ticks obstacle = Ok pf -> (2 <= n_ticks)%nat ->
  let last := (n_ticks - 1)%nat in
  (forall i, pf_xx pf i 0%nat = fst x_range /\ pf_xx pf i last = snd x_range)
  /\ (forall j, pf_yy pf 0%nat j = fst y_range /\ pf_yy pf last j = snd y_range)
  /\ forall i j, pf_xx pf i (S j) - pf_xx pf i j = (snd x_range - fst x_range) / INR last
              /\ pf_yy pf (S i) j - pf_yy pf i j = (snd y_range - fst y_range) / INR last.
Proof.
  intros o xr yr k obs pf E Hk last.
  unfold potential_field_2d in E. destruct (negb _); [discriminate|]. injection E as <-.
  cbn [pf_xx pf_yy]. unfold linspace. destruct (Nat.eqb_spec k 1) as [|_]; [lia|].
  assert (Hl : INR last = INR k - 1) by (unfold last; rewrite minus_INR by lia; cbn; lra).
  assert (INR k - 1 <> 0) by (rewrite <- Hl; apply not_0_INR; unfold last; lia).
  rewrite !Hl. repeat split; intros; rewrite ?Hl; rewrite ?S_INR; cbn [INR]; field; assumption.
Qed.

(** C63 is false for a DMP with default arguments: it does not scale smoothly, but the
    field is computed as if it did.  Here: goal (1, 1), start (0, 0), half-way through. *)
Definition ex_conf (t : R) (g gd : R) : configure_args :=
  {| c_t := Some t; c_start_y := None; c_start_yd := None; c_start_ydd := None;
     c_goal_y := Some {| alen := 2; aget := fun _ => g |};
     c_goal_yd := Some {| alen := 2; aget := fun _ => gd |}; c_goal_ydd := None |}.

Theorem C63_default_refuted : exists o, reachable 2 o
  /\ o_smooth_scaling o = false /\ 0 < p_t (o_base o) < o_execution_time o
  /\ (forall d, aget (p_goal_yd (o_base o)) d = 0)
  /\ forall x_range y_range n_ticks, exists pf,
     potential_field_2d o x_range y_range n_ticks None = Ok pf
     /\ forall i j, ~ step_acceleration Euler o None (p_t (o_base o))
          (vec2 (pf_xx pf i j) (pf_yy pf i j)) (aget (p_current_yd (o_base o))) (pf_acc pf i j).
Proof.
  destruct (ex_new_ok 2 25 (25/4)) as (f & o0 & E0 & _ & Eo0).
  pose (o := fst (exec (CConfigure (ex_conf (1/2) 1 0)) o0)).
  assert (Hr : reachable 2 o) by (apply reachable_exec; eapply ex_reachable; eauto).
  assert (Eo : o = with_base (set_goal_yd {| alen := 2; aget := fun _ => 0 |}
                      (set_goal_y {| alen := 2; aget := fun _ => 1 |} (set_t (1/2) (o_base o0)))) o0).
  { unfold o. rewrite Eo0. reflexivity. }
  exists o. split; [exact Hr|].
  rewrite Eo, Eo0. cbn [o_smooth_scaling o_base o_execution_time with_base p_t p_goal_yd set_goal_yd set_goal_y set_t aget].
  split; [reflexivity|]. split; [cbn; lra|]. split; [reflexivity|].
  rewrite Eo0 in Eo. cbn in Eo. 
  intros xr yr k.
  assert (Htau : 0 < o_execution_time o) by (rewrite Eo; cbn; lra).
  assert (Ht : 0 < p_t (o_base o)) by (rewrite Eo; cbn; lra).
  destruct (C63_difference 2 o xr yr k None Hr eq_refl Htau Ht) as (pf & E & H).
  rewrite Eo in E. exists pf. split; [exact E|]. intros i j Hacc.
  destruct (H i j Euler (or_introl eq_refl)) as (_ & a & Ha & D).
  specialize (D 0%nat).
  assert (Hct : pf_ct pf i j 0%nat = 0).
  { unfold potential_field_2d in E. destruct (negb _); [discriminate|].
    injection E as <-. reflexivity. }
  assert (Hu : a 0%nat = pf_acc pf i j 0%nat).
  { eapply step_acceleration_unique; [|exact Ha|].
    - rewrite Eo. cbn. lra.
    - rewrite Eo. exact Hacc. }
  rewrite <- Hu, Hct in D. rewrite Eo in D. cbn -[pow ft_phase] in D.
  unfold ft_phase, phase in D.
  pose proof (exp_pos (- ft_alpha_z f * (1 / 2 - ft_start_t f) / (ft_goal_t f - ft_start_t f))) as Hp.
  replace (1 ^ 2) with 1 in D by ring. unfold Rdiv in D. rewrite Rinv_1 in D.
  unfold vzero in D. unfold Rdiv in Hp. lra.
Qed.

(** A DMP with smooth scaling and an execution time of two seconds that moves with
    velocity (1, 0) at the time 1; [g] is the goal, [gd] the goal velocity. *)
Definition ex_conf_start : configure_args :=
  {| c_t := None; c_start_y := None; c_start_yd := Some {| alen := 2; aget := vec2 1 0 |};
     c_start_ydd := None; c_goal_y := None; c_goal_yd := None; c_goal_ydd := None |}.

Lemma ex_smooth g gd : exists o, reachable 2 o
  /\ o_smooth_scaling o = true /\ o_execution_time o = 2 /\ p_t (o_base o) = 1 /\ o_int_dt o = 1/1000
  /\ aget (o_alpha_y o) = (fun _ => 25)
  /\ aget (p_goal_y (o_base o)) = (fun _ => g)
  /\ aget (p_goal_yd (o_base o)) = (fun _ => gd)
  /\ aget (p_goal_ydd (o_base o)) = vzero /\ aget (p_start_y (o_base o)) = vzero
  /\ aget (p_current_yd (o_base o)) = vec2 1 0.
Proof.
  destruct (dmp_new (vzero, vzero) 2 2 (1/100) 2 (1/1000) 0 true
    {| shape := []; data := fun _ => 25 |} {| shape := []; data := fun _ => 25/4 |}) as [o0|e] eqn:E0.
  - exists (fst (exec_all [CConfigure ex_conf_start; CReset; CConfigure (ex_conf 1 g gd)] o0)).
    split.
    { exists (vzero, vzero), 2, (1/100), 2%nat, (1/1000), 0, true,
        {| shape := []; data := fun _ => 25 |}, {| shape := []; data := fun _ => 25/4 |}, o0. eexists.
      split; [exact E0|reflexivity]. }
    unfold dmp_new in E0.
    destruct (init_forcing_term_accepts (vzero, vzero) 2 2) as [f Ef]; [lia|lra|].
    rewrite Ef in E0. cbn in E0. injection E0 as <-. cbn. repeat split.
  - exfalso. unfold dmp_new in E0.
    destruct (init_forcing_term_accepts (vzero, vzero) 2 2) as [f Ef]; [lia|lra|].
    rewrite Ef in E0. cbn in E0. discriminate.
Qed.

Example C63_satisfiable : exists o, reachable 2 o
  /\ 0 < o_execution_time o /\ 0 < p_t (o_base o) /\ 0 < o_int_dt o /\ o_smooth_scaling o = true
  /\ (forall d, aget (p_goal_yd (o_base o)) d = 0) /\ (forall d, aget (p_goal_ydd (o_base o)) d = 0)
  /\ aget (p_goal_y (o_base o)) 0%nat <> aget (p_start_y (o_base o)) 0%nat.
Proof.
  destruct (ex_smooth 1 0) as (o & Hr & H1 & H2 & H3 & H4 & H5 & H6 & H7 & H8 & H9 & _).
  exists o. split; [exact Hr|]. rewrite H2, H3, H4, H6, H7, H8, H9.
  repeat split; try lra; auto; unfold vzero; try (intros; reflexivity).
Qed.

(** C63 is false when the goal has a velocity, even with smooth scaling. *)
Theorem C63_goal_velocity_refuted : exists o, reachable 2 o
  /\ o_smooth_scaling o = true /\ 0 < p_t (o_base o) < o_execution_time o
  /\ forall x_range y_range n_ticks, exists pf,
     potential_field_2d o x_range y_range n_ticks None = Ok pf
     /\ forall i j, ~ step_acceleration Euler o None (p_t (o_base o))
          (vec2 (pf_xx pf i j) (pf_yy pf i j)) (aget (p_current_yd (o_base o))) (pf_acc pf i j).
Proof.
  destruct (ex_smooth 1 1) as (o & Hr & H1 & H2 & H3 & H4 & H5 & H6 & H7 & H8 & H9 & H10).
  exists o. repeat split; auto; try lra. intros xr yr k.
  destruct (C63_difference 2 o xr yr k None Hr eq_refl ltac:(lra) ltac:(lra)) as (pf & E & H).
  exists pf. split; [exact E|]. intros i j Hacc.
  destruct (H i j Euler (or_introl eq_refl)) as (_ & a & Ha & D). specialize (D 0%nat).
  assert (Hct : pf_ct pf i j 0%nat = 0).
  { unfold potential_field_2d in E. destruct (negb _); [discriminate|]. injection E as <-. reflexivity. }
  assert (Hu : a 0%nat = pf_acc pf i j 0%nat).
  { eapply step_acceleration_unique; [|exact Ha|exact Hacc]. lra. }
  rewrite <- Hu, Hct, H1, H2, H5, H7, H8 in D. unfold vzero in D. lra.
Qed.

(** C63 is false near an obstacle when the execution time is not one second: the field
    shows the undivided avoidance acceleration. *)
Theorem C63_obstacle_refuted : exists o, reachable 2 o
  /\ o_smooth_scaling o = true /\ 0 < p_t (o_base o) < o_execution_time o
  /\ (forall d, aget (p_goal_yd (o_base o)) d = 0) /\ (forall d, aget (p_goal_ydd (o_base o)) d = 0)
  /\ forall x_range y_range n_ticks ob, exists pf,
     potential_field_2d o x_range y_range n_ticks (Some ob) = Ok pf
     /\ forall i j, pf_yy pf i j <> snd ob ->
        ~ step_acceleration Euler o (avoid Python (Some ob)) (p_t (o_base o))
          (vec2 (pf_xx pf i j) (pf_yy pf i j)) (aget (p_current_yd (o_base o))) (pf_acc pf i j).
Proof.
  destruct (ex_smooth 1 0) as (o & Hr & H1 & H2 & H3 & H4 & H5 & H6 & H7 & H8 & H9 & H10).
  exists o. split; [exact Hr|]. split; [exact H1|]. split; [lra|].
  split; [intros; now rewrite H7|]. split; [intros; now rewrite H8|].
  intros xr yr k ob.
  destruct (C63_difference 2 o xr yr k (Some ob) Hr eq_refl ltac:(lra) ltac:(lra)) as (pf & E & H).
  exists pf. split; [exact E|]. intros i j Hne Hacc.
  destruct (H i j Euler (or_introl eq_refl)) as (_ & a & Ha & D). cbv zeta in D.
  assert (Hct : pf_ct pf i j
    = snd (obstacle_2d_coupling Python ob 1000 (20 / PI) (vec2 (pf_xx pf i j) (pf_yy pf i j)) (vec2 1 0))).
  { unfold potential_field_2d in E. destruct (negb _); [discriminate|]. injection E as <-.
    cbn [pf_ct pf_xx pf_yy]. rewrite H10. reflexivity. }
  pose proof (C44_coupling_2d Python ob 1000 (20 / PI) (vec2 (pf_xx pf i j) (pf_yy pf i j)) (vec2 1 0) ltac:(lra)) as C.
  destruct (obstacle_2d_coupling _ _ _ _ _ _) as [cd cdd] eqn:Ec. cbn [snd] in Hct.
  cbn [fst snd vec2] in C. destruct C as (_ & C & _).
  destruct C as (C1 & _ & C2); [lra|]. specialize (C2 ltac:(lra)).
  assert (Hz : forall d, cdd d = 0).
  { intros d. specialize (D d).
    assert (Hu : a d = pf_acc pf i j d).
    { eapply step_acceleration_unique; [|exact Ha|exact Hacc]. lra. }
    rewrite <- Hu, Hct, H1, H2, H5, H7, H8 in D. unfold vzero in D. lra. }
  rewrite !Hz in C2. lra.
Qed.
