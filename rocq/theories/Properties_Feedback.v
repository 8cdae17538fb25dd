(** C80: what coupling terms and the tracking-error feedback add to one integration
    step; C28 for the Cartesian classes. *)
From Coq Require Import Reals List Arith Bool Lia Lra FunctionalExtensionality.
From Verif Require Import M_Prelude M_Canonical M_Forcing M_Dmp M_Base M_DmpObject M_FinalVelocity M_Linalg
  M_StateFollowing M_SpringDamper M_Quaternion M_Cartesian M_Dual
  P_Loops P_DmpObject P_DualObject Properties_DmpObject Properties_DmpState Properties_CartesianObject
  S_Loops Properties_FinalVelocity Properties_DualObject Properties_DualRuns Properties_DualExamples.
From Verif Require Import M_StateFollowing.
Import ListNotations.
Open Scope R_scope.
Set Bullet Behavior "Strict Subproofs".

(** The interval is covered by a single integration step. *)
Definition single_step (last_t t int_dt : R) : Prop := last_t < t /\ t - last_t <= int_dt.

Lemma substeps_single {S} (body : R -> R -> S -> S) a b h s : single_step a b h ->
  substeps (substeps_fuel a b h) a b h body s = Ok (body b (b - a) s).
Proof.
  intros [H1 H2].
  assert (F : exists k, substeps_fuel a b h = Datatypes.S k).
  { pose proof (substeps_fuel_enough a b h ltac:(lra) ltac:(lra)) as F.
    destruct (substeps_fuel a b h) as [|k]; [cbn in F; lra|eauto]. }
  destruct F as [k ->]. cbn [substeps].
  destruct (Rlt_dec a b); [|lra]. cbv zeta.
  replace (if Rlt_dec (b - a) h then b - a else h) with (b - a) by (destruct (Rlt_dec (b - a) h); lra).
  replace (a + (b - a)) with b by ring.
  destruct k; cbn [substeps]; destruct (Rlt_dec b b); try lra; reflexivity.
Qed.

Definition without_coupling (a : dmp_args) : dmp_args :=
  {| a_goal_y := a_goal_y a; a_goal_yd := a_goal_yd a; a_goal_ydd := a_goal_ydd a;
     a_start_y := a_start_y a; a_start_yd := a_start_yd a; a_start_ydd := a_start_ydd a;
     a_goal_t := a_goal_t a; a_start_t := a_start_t a;
     a_alpha_y := a_alpha_y a; a_beta_y := a_beta_y a; a_forcing_term := a_forcing_term a;
     a_coupling_term := None; a_precomputed := None; a_int_dt := a_int_dt a;
     a_p_gain := a_p_gain a; a_tracking_error := a_tracking_error a;
     a_smooth_scaling := a_smooth_scaling a |}.

(** *** Coupling terms *)

(** A coupling term that answers [(cd, cdd)] adds [h cdd / tau^2 + cd / tau] to the
    velocity, where [tau] is the duration of the movement and [h] the length of the
    step, and [h] times that to the position.  The Cython Euler step: *)
Theorem C80_euler_cython : forall a c last_t t y v,
  a_start_t a < a_goal_t a -> a_start_t a < t -> single_step last_t t (a_int_dt a) ->
  a_coupling_term a = Some c ->
  let tau := a_goal_t a - a_start_t a in
  let h := t - last_t in
  let dv := fun d => h * snd (c y v) d / tau ^ 2 + fst (c y v) d / tau in
  exists y0 v0 y1 v1,
    dmp_step_euler_cython (without_coupling a) last_t t (y, v) = Ok (y0, v0) /\
    dmp_step_euler_cython a last_t t (y, v) = Ok (y1, v1) /\
    forall d, v1 d = v0 d + dv d /\ y1 d = y0 d + h * dv d.
Proof.
  intros a c last_t t y v Hg Ht Hs Hc tau h dv.
  unfold dmp_step_euler_cython. cbn [without_coupling a_goal_t a_start_t a_int_dt a_start_y a_start_yd].
  destruct (Rle_dec (a_goal_t a) (a_start_t a)); [lra|]. destruct (Rle_dec t (a_start_t a)); [lra|].
  cbv zeta. rewrite !substeps_single by exact Hs.
  unfold euler_cython_body. cbn [without_coupling a_goal_t a_start_t a_coupling_term a_precomputed
    a_tracking_error a_forcing_term a_smooth_scaling a_beta_y a_goal_y a_start_y a_alpha_y a_p_gain].
  rewrite Hc. cbv zeta. unfold dv. destruct (c y v) as [cd cdd]. cbn [fst snd].
  do 4 eexists. split; [reflexivity|]. split; [reflexivity|].
  intro d. unfold vzero, tau, h.
  destruct (a_tracking_error a), (a_smooth_scaling a); destruct Hs; split; field; repeat split; lra.
Qed.

(** The Python Euler step evaluates the velocity part at the new state and does not
    use it for the position of this step. *)
Theorem C80_euler : forall a c last_t t y v,
  a_start_t a < a_goal_t a -> a_start_t a < t -> single_step last_t t (a_int_dt a) ->
  a_coupling_term a = Some c ->
  let tau := a_goal_t a - a_start_t a in
  let h := t - last_t in
  exists y0 v0 y1 v1 v',
    dmp_step_euler (without_coupling a) last_t t (y, v) = Ok (y0, v0) /\
    dmp_step_euler a last_t t (y, v) = Ok (y1, v1) /\
    forall d,
      v' d = v0 d + h * snd (c y v) d / tau ^ 2 /\
      y1 d = y0 d + h * (h * snd (c y v) d / tau ^ 2) /\
      v1 d = v' d + fst (c y1 v') d / tau.
Proof.
  intros a c last_t t y v Hg Ht Hs Hc tau h.
  unfold dmp_step_euler. cbn [without_coupling a_goal_t a_start_t a_int_dt].
  destruct (Rle_dec (a_goal_t a) (a_start_t a)); [lra|]. destruct (Rle_dec t (a_start_t a)); [lra|].
  rewrite !substeps_single by exact Hs.
  unfold euler_body. cbn [without_coupling a_goal_t a_start_t a_coupling_term a_precomputed
    a_tracking_error a_forcing_term a_smooth_scaling a_beta_y a_goal_y a_start_y a_alpha_y a_p_gain precomputed_cdd].
  rewrite Hc. cbv zeta.
  eexists; eexists; eexists; eexists. eexists (vadd v (vscale (t - last_t) _)).
  split; [reflexivity|]. split; [reflexivity|].
  intro d. refine (conj _ (conj _ eq_refl));
    unfold dmp_acc, vadd, vscale, vdivs, vzero, tau, h, precomputed_cdd; cbn [without_coupling a_precomputed];
    destruct (a_smooth_scaling a), Hs; field; repeat split; lra.
Qed.

(** DMPWithFinalVelocity. *)
Theorem C80_final_velocity : forall a c last_t t y v y0 v0,
  a_start_t a < a_goal_t a -> a_start_t a < t -> single_step last_t t (a_int_dt a) ->
  a_coupling_term a = Some c -> a_precomputed a = None ->
  let tau := a_goal_t a - a_start_t a in
  let h := t - last_t in
  let dv := fun d => h * snd (c y v) d / tau ^ 2 + fst (c y v) d / tau in
  dmp_step_euler_with_constraints (without_coupling a) last_t t (y, v) = Ok (y0, v0) ->
  exists y1 v1,
    dmp_step_euler_with_constraints a last_t t (y, v) = Ok (y1, v1) /\
    forall d, v1 d = v0 d + dv d /\ y1 d = y0 d + h * dv d.
Proof.
  intros a c last_t t y v y0 v0 Hg Ht Hs Hc Hp tau h dv.
  unfold dmp_step_euler_with_constraints. cbn [without_coupling a_goal_t a_start_t a_int_dt a_start_y a_start_yd
    a_start_ydd a_goal_y a_goal_yd a_goal_ydd].
  destruct (Rle_dec (a_goal_t a) (a_start_t a)); [lra|]. destruct (Rle_dec t (a_start_t a)); [lra|].
  destruct (solve_constraints _ _ _ _ _ _ _ _) as [co|]; cbn [bind]; [|discriminate].
  rewrite !substeps_single by exact Hs.
  unfold fv_body. cbn [without_coupling a_goal_t a_start_t a_coupling_term a_precomputed
    a_tracking_error a_forcing_term a_goal_y a_alpha_y a_beta_y a_p_gain].
  rewrite Hc, Hp. unfold dv. destruct (c y v) as [cd cdd]. cbn [fst snd].
  destruct (apply_constraints _ _ _ _) as [[g gd] gdd]. cbv zeta. intro E. injection E as <- <-.
  do 2 eexists. split; [reflexivity|].
  intro d. unfold fv_acc, vzero, tau, h. destruct Hs; split; field; repeat split; lra.
Qed.

(** StateFollowingDMP: its time constant is half the duration. *)
Theorem C80_state_following : forall a c last_t t y v,
  sa_start_t a < sa_goal_t a -> sa_start_t a < t -> single_step last_t t (sa_int_dt a) ->
  sa_coupling a = Some c -> sa_precomputed a = None ->
  let tau := (sa_goal_t a - sa_start_t a) / 2 in
  let h := t - last_t in
  let dv := fun d => h * snd (c y v) d / tau ^ 2 + fst (c y v) d / tau in
  exists y0 v0 y1 v1,
    sf_step_fn {| sa_goal_t := sa_goal_t a; sa_start_t := sa_start_t a; sa_alpha_y := sa_alpha_y a;
                  sa_beta_y := sa_beta_y a; sa_forcing := sa_forcing a; sa_coupling := None;
                  sa_precomputed := None; sa_int_dt := sa_int_dt a |} last_t t (y, v) = Ok (y0, v0) /\
    sf_step_fn a last_t t (y, v) = Ok (y1, v1) /\
    forall d, v1 d = v0 d + dv d /\ y1 d = y0 d + h * dv d.
Proof.
  intros a c last_t t y v Hg Ht Hs Hc Hp tau h dv.
  unfold sf_step_fn. cbn [sa_goal_t sa_start_t sa_int_dt].
  destruct (Rle_dec (sa_goal_t a) (sa_start_t a)); [lra|]. destruct (Rle_dec t (sa_start_t a)); [lra|].
  rewrite !substeps_single by exact Hs.
  unfold sf_body. cbn [sa_goal_t sa_start_t sa_coupling sa_precomputed sa_forcing sa_alpha_y sa_beta_y].
  rewrite Hc, Hp. unfold dv. destruct (c y v) as [cd cdd]. cbn [fst snd]. cbv zeta.
  do 4 eexists. split; [reflexivity|]. split; [reflexivity|].
  intro d. unfold vzero, tau, h.
  match goal with |- context [rsum ?n ?f] => set (X := rsum n f) end.
  destruct Hs; split; field; repeat split; lra.
Qed.

(** The spring-damper has no duration: [h cdd + cd]. *)
Theorem C80_spring_damper : forall goal k c0 c int_dt last_t t y v,
  single_step last_t t int_dt ->
  let h := t - last_t in
  let dv := fun d => h * snd (c y v) d + fst (c y v) d in
  exists y0 v0 y1 v1,
    spring_damper_step goal k c0 None None int_dt last_t t (y, v) = Ok (y0, v0) /\
    spring_damper_step goal k c0 (Some c) None int_dt last_t t (y, v) = Ok (y1, v1) /\
    forall d, v1 d = v0 d + dv d /\ y1 d = y0 d + h * dv d.
Proof.
  intros goal k c0 c int_dt last_t t y v Hs h dv. unfold spring_damper_step.
  rewrite !substeps_single by exact Hs. unfold sd_body. unfold dv. destruct (c y v) as [cd cdd]. cbn [fst snd].
  cbv zeta. do 4 eexists. split; [reflexivity|]. split; [reflexivity|].
  intro d. unfold vzero, h. split; ring.
Qed.

Lemma v3_ext a b : v3x a = v3x b -> v3y a = v3y b -> v3z a = v3z b -> a = b.
Proof. destruct a, b; cbn; intros; subst; reflexivity. Qed.

(** Orientations: the angular velocity changes in the same way, and the orientation is
    the old one turned by the new angular velocity. *)
Theorem C80_orientation : forall i a c last_t t q w,
  g_start_t a < g_goal_t a -> g_start_t a < t -> single_step last_t t (g_int_dt a) ->
  g_coupling_term a = Some c -> g_precomputed a = None ->
  let tau := g_goal_t a - g_start_t a in
  let h := t - last_t in
  exists q0 w0 q1 w1,
    q_step i {| g_goal_y := g_goal_y a; g_start_y := g_start_y a; g_start_yd := g_start_yd a;
                g_goal_t := g_goal_t a; g_start_t := g_start_t a; g_alpha_y := g_alpha_y a;
                g_beta_y := g_beta_y a; g_forcing_term := g_forcing_term a; g_coupling_term := None;
                g_precomputed := None; g_int_dt := g_int_dt a; g_smooth_scaling := g_smooth_scaling a |}
       last_t t (q, w) = Ok (q0, w0) /\
    q_step i a last_t t (q, w) = Ok (q1, w1) /\
    w1 = v3_add w0 (v3_add (v3_scale (h / tau ^ 2) (snd (c q w))) (v3_scale (/ tau) (fst (c q w)))) /\
    q1 = i_mul i (i_exp i (v3_scale h w1)) q.
Proof.
  intros i a c last_t t q w Hg Ht Hs Hc Hp tau h.
  destruct i; unfold q_step; cbn [g_goal_t g_start_t g_int_dt g_start_y g_start_yd].
  - destruct (Rle_dec (g_goal_t a) (g_start_t a)); [lra|]. destruct (Rle_dec t (g_start_t a)); [lra|].
    rewrite !substeps_single by exact Hs.
    unfold q_body, q_coupling. cbn [g_goal_t g_start_t g_coupling_term g_precomputed g_forcing_term].
    rewrite Hc, Hp. destruct (c q w) as [cd cdd]. cbn [fst snd]. cbv zeta.
    do 4 eexists. split; [reflexivity|]. split; [reflexivity|]. split; [|reflexivity].
    unfold q_acc. cbn [g_goal_t g_start_t g_smooth_scaling g_beta_y g_alpha_y g_goal_y g_start_y].
    apply v3_ext; cbn -[q_error]; unfold tau, h; field; repeat split; lra.
  - destruct (Rle_dec t (g_start_t a)); [lra|]. cbv zeta.
    rewrite !substeps_single by exact Hs.
    unfold q_body, q_coupling. cbn [g_goal_t g_start_t g_coupling_term g_precomputed g_forcing_term].
    rewrite Hc. destruct (c q w) as [cd cdd]. cbn [fst snd]. cbv zeta.
    do 4 eexists. split; [reflexivity|]. split; [reflexivity|]. split; [|reflexivity].
    unfold q_acc. cbn [g_goal_t g_start_t g_smooth_scaling g_beta_y g_alpha_y g_goal_y g_start_y].
    apply v3_ext; cbn -[q_error]; unfold tau, h; field; repeat split; lra.
Qed.

Theorem C80_spring_damper_orientation : forall goal k c0 c int_dt last_t t q w,
  single_step last_t t int_dt ->
  let h := t - last_t in
  exists q0 w0 q1 w1,
    spring_damper_step_quaternion goal k c0 None None int_dt last_t t (q, w) = Ok (q0, w0) /\
    spring_damper_step_quaternion goal k c0 (Some c) None int_dt last_t t (q, w) = Ok (q1, w1) /\
    w1 = v3_add w0 (v3_add (v3_scale h (snd (c q w))) (fst (c q w))) /\
    q1 = pr_mul (pr_exp (v3_scale h w1)) q.
Proof.
  intros goal k c0 c int_dt last_t t q w Hs h. unfold spring_damper_step_quaternion.
  rewrite !substeps_single by exact Hs. unfold sdq_body. destruct (c q w) as [cd cdd]. cbn [fst snd].
  cbv zeta. do 4 eexists. split; [reflexivity|]. split; [reflexivity|]. split; [|reflexivity].
  apply v3_ext; cbn -[q_error]; unfold h; ring.
Qed.

Lemma quat_assemble_l o p ql qr : quat_of (slice 3 4 (assemble_p o p ql qr)) = ql.
Proof. destruct ql; reflexivity. Qed.
Lemma quat_assemble_r o p ql qr : quat_of (slice 10 4 (assemble_p o p ql qr)) = qr.
Proof. destruct qr; reflexivity. Qed.
Lemma w_assemble_l o p wl wr : v3_of (slice 3 3 (assemble_v o p wl wr)) = wl.
Proof. destruct wl; reflexivity. Qed.
Lemma w_assemble_r o p wl wr : v3_of (slice 9 3 (assemble_v o p wl wr)) = wr.
Proof. destruct wr; reflexivity. Qed.

(** DualCartesianDMP, positions (velocity entries 0-2 and 6-8) and angular velocities
    (3-5 and 9-11) of both arms. *)
Theorem C80_dual : forall (CS : Type) i a (c : stateful_coupling CS) last_t t y v cs,
  a_start_t a < a_goal_t a -> a_start_t a < t -> single_step last_t t (a_int_dt a) ->
  let tau := a_goal_t a - a_start_t a in
  let h := t - last_t in
  let cd := fst (snd (c cs y v)) in
  let cdd := snd (snd (c cs y v)) in
  exists y0 v0 y1 v1,
    dual_step_function i a None last_t t (y, v) cs = Ok ((y0, v0), cs) /\
    dual_step_function i a (Some c) last_t t (y, v) cs = Ok ((y1, v1), fst (c cs y v)) /\
    (forall k, (k < 12)%nat -> v1 k = v0 k + (h * cdd k / tau ^ 2 + cd k / tau)) /\
    (forall k, (k < 3)%nat -> y1 k = y k + h * v1 k /\ y1 (7 + k)%nat = y (7 + k)%nat + h * v1 (6 + k)%nat) /\
    quat_of (slice 3 4 y1) = i_mul i (i_exp i (v3_scale h (v3_of (slice 3 3 v1)))) (quat_of (slice 3 4 y)) /\
    quat_of (slice 10 4 y1) = i_mul i (i_exp i (v3_scale h (v3_of (slice 9 3 v1)))) (quat_of (slice 10 4 y)).
Proof.
  intros CS i a c last_t t y v cs Hg Ht Hs tau h cd cdd.
  unfold dual_step_function. destruct (Rle_dec t (a_start_t a)); [lra|]. cbv zeta.
  rewrite !substeps_single by exact Hs. cbn [rmap].
  unfold dual_body, cd, cdd. destruct (c cs y v) as [cs' [cd' cdd']]. cbn [fst snd]. cbv zeta.
  do 4 eexists. split; [reflexivity|]. split; [reflexivity|]. split; [|split; [|split]].
  - intros k Hk. unfold tau, h. unfold dual_pos_acc, dual_rot_acc.
    do 12 (destruct k as [|k]; [destruct i; cbn -[dual_feedback q_error]; unfold vadd, vzero;
       match goal with |- context [dual_feedback ?x a ?z] => set (FB := dual_feedback x a z) end; field; repeat split; lra|]).
    lia.
  - intros k Hk. do 3 (destruct k as [|k]; [split; reflexivity|]). lia.
  - rewrite quat_assemble_l, w_assemble_l. reflexivity.
  - rewrite quat_assemble_r, w_assemble_r. reflexivity.
Qed.

(** *** Feedback *)

(** The DMP's own position before the step: the start position before the first step. *)
Definition own_position (o : dmp) : vec :=
  aget (if o_initialized o then p_current_y (o_base o) else p_start_y (o_base o)).

(** Passing a state other than the DMP's own one accelerates the DMP by
    [p_gain (own - passed) / h / tau^2]: over one integration step of length [h] the
    velocity changes by [p_gain (own - passed) / tau^2]. *)
Theorem C21_gain : forall n o fn y yd y', reachable n o ->
  fn = Euler \/ fn = Euler_cython ->
  alen y = n -> alen yd = n -> alen y' = n -> (forall d, aget y' d = own_position o d) ->
  0 < o_execution_time o -> 0 <= p_t (o_base o) -> 0 < o_dt o <= o_int_dt o ->
  exists o0 r0 v0 o1 r1 v1,
    dmp_step y' yd None (Some fn) o = (o0, Ok (r0, v0)) /\
    dmp_step y yd None (Some fn) o = (o1, Ok (r1, v1)) /\
    let dv := fun d => o_p_gain o * (own_position o d - aget y d) / o_execution_time o ^ 2 in
    forall d, aget v1 d = aget v0 d + dv d /\ aget r1 d = aget r0 d + o_dt o * dv d.
Proof.
  intros n o fn y yd y' Hr Hfn Hy Hyd Hy' Hown Hx Ht Hdt.
  destruct (reachable_shapes n o Hr) as [_ Hn].
  rewrite !dmp_step_eq by congruence. cbv zeta.
  assert (Hc : aget (p_current_y (o_base (tick (norm o)))) = own_position o).
  { unfold own_position, norm. destruct (o_initialized o); reflexivity. }
  assert (HT : o_execution_time (tick (norm o)) = o_execution_time o
             /\ o_p_gain (tick (norm o)) = o_p_gain o /\ o_int_dt (tick (norm o)) = o_int_dt o).
  { unfold norm. destruct (o_initialized o); auto. }
  destruct HT as (E1 & E2 & E3).
  assert (Hs : single_step (p_t (o_base o)) (p_t (o_base o) + o_dt o) (o_int_dt o)) by (split; lra).
  rewrite Hc. set (cyd := aget (p_current_yd (o_base (tick (norm o))))).
  set (o1 := tick (norm o)) in *. clearbody o1.
  destruct Hfn as [-> | ->]; cbn [run_step_function].
  - unfold dmp_step_euler. cbn [step_args a_goal_t a_start_t a_int_dt]. rewrite E1, E3.
    destruct (Rle_dec (o_execution_time o) 0); [lra|].
    destruct (Rle_dec (p_t (o_base o) + o_dt o) 0); [lra|].
    rewrite !substeps_single by exact Hs. unfold euler_body.
    cbn [step_args a_goal_t a_start_t a_coupling_term a_precomputed a_tracking_error a_forcing_term
      a_smooth_scaling a_beta_y a_goal_y a_start_y a_alpha_y a_p_gain precomputed_cdd tracking_error_or_zero].
    cbv zeta. rewrite E1, E2. do 6 eexists. split; [reflexivity|]. split; [reflexivity|]. cbn [aget].
    intro d. unfold dmp_acc, vadd, vscale, vsub. rewrite Hown. destruct (o_smooth_scaling o1); split; field; lra.
  - unfold dmp_step_euler_cython. cbn [step_args a_goal_t a_start_t a_int_dt]. rewrite E1, E3.
    destruct (Rle_dec (o_execution_time o) 0); [lra|]. cbv zeta.
    destruct (Rle_dec (p_t (o_base o) + o_dt o) 0); [lra|].
    rewrite !substeps_single by exact Hs. unfold euler_cython_body.
    cbn [step_args a_goal_t a_start_t a_coupling_term a_precomputed a_tracking_error a_forcing_term
      a_smooth_scaling a_beta_y a_goal_y a_start_y a_alpha_y a_p_gain precomputed_cdd tracking_error_or_zero].
    cbv zeta. rewrite E1, E2. do 6 eexists. split; [reflexivity|]. split; [reflexivity|]. cbn [aget].
    intro d. unfold vzero, vsub. rewrite Hown. destruct (o_smooth_scaling o1); split; field; lra.
Qed.

(** The same for DMPWithFinalVelocity; without gain the passed state is not used. *)
Theorem C21_gain_final_velocity : forall o y yd y' o0 r0 v0,
  (forall d, aget y' d = own_position o d) ->
  0 < o_execution_time o -> 0 <= p_t (o_base o) -> 0 < o_dt o <= o_int_dt o ->
  fv_step y' yd None o = (o0, Ok (r0, v0)) ->
  exists o1 r1 v1,
    fv_step y yd None o = (o1, Ok (r1, v1)) /\
    let dv := fun d => o_p_gain o * (own_position o d - aget y d) / o_execution_time o ^ 2 in
    forall d, aget v1 d = aget v0 d + dv d /\ aget r1 d = aget r0 d + o_dt o * dv d.
Proof.
  intros o y yd y' o0 r0 v0 Hown Hx Ht Hdt. unfold fv_step. cbv zeta.
  match goal with |- context [step_args ?q] => set (o1 := q) end.
  assert (Hc : aget (p_current_y (o_base o1)) = own_position o).
  { unfold own_position, o1. cbn [o_initialized with_base]. destruct (o_initialized o); reflexivity. }
  assert (HT : o_execution_time o1 = o_execution_time o /\ o_p_gain o1 = o_p_gain o /\ o_int_dt o1 = o_int_dt o).
  { unfold o1. cbn [o_initialized with_base]. destruct (o_initialized o); auto. }
  destruct HT as (E1 & E2 & E3).
  assert (Hs : single_step (p_t (o_base o)) (p_t (o_base o) + o_dt o) (o_int_dt o)) by (split; lra).
  rewrite Hc. set (cyd := aget (p_current_yd (o_base o1))). clearbody o1.
  unfold dmp_step_euler_with_constraints.
  cbn [step_args a_goal_t a_start_t a_int_dt a_start_y a_start_yd a_start_ydd a_goal_y a_goal_yd a_goal_ydd].
  rewrite E1, E3. destruct (Rle_dec (o_execution_time o) 0); [lra|].
  destruct (Rle_dec (p_t (o_base o) + o_dt o) 0); [lra|].
  destruct (solve_constraints _ _ _ _ _ _ _ _) as [co|]; cbn [bind]; [|discriminate].
  rewrite !substeps_single by exact Hs. unfold fv_body.
  cbn [step_args a_goal_t a_start_t a_coupling_term a_precomputed a_tracking_error a_forcing_term
      a_goal_y a_alpha_y a_beta_y a_p_gain tracking_error_or_zero].
  rewrite E1, E2. destruct (apply_constraints _ _ _ _) as [[g gd] gdd]. cbv zeta.
  intro E. injection E as _ <- <-. do 3 eexists. split; [reflexivity|]. cbn [aget].
  intro d. unfold fv_acc, vzero, vsub. rewrite Hown. split; field; lra.
Qed.

(** *** C28 for the Cartesian classes *)
Theorem C28_cartesian : forall o jp jr x, cart_reachable o -> 0 < x ->
  let o' := fst (cart_set_execution_time jp jr x o) in
  snd (cart_set_execution_time jp jr x o) = Ok tt /\
  (forall d i, ft_weights (k_fpos o') d i = ft_weights (k_fpos o) d i) /\
  (forall d i, ft_weights (k_frot o') d i = ft_weights (k_frot o) d i) /\
  k_execution_time o' = x /\
  ft_goal_t (k_fpos o') = x /\ ft_start_t (k_fpos o') = 0 /\
  ft_goal_t (k_frot o') = x /\ ft_start_t (k_frot o') = 0 /\
  k_base o' = k_base o /\ k_dt o' = k_dt o /\ k_int_dt o' = k_int_dt o /\ k_n o' = k_n o /\
  k_smooth o' = k_smooth o /\ k_alpha o' = k_alpha o /\ k_beta o' = k_beta o.
Proof.
  intros o jp jr x Hr Hx o'.
  destruct (C23_cartesian_shapes o Hr) as (_ & _ & _ & _ & _ & _ & _ & _ & _ & _ & _ & _ & Hn).
  destruct (init_forcing_term_accepts jp (k_n o) x Hn Hx) as [fp Ep].
  destruct (init_forcing_term_accepts jr (k_n o) x Hn Hx) as [fr Er].
  unfold o', cart_set_execution_time. cbn [k_n cart_with_time]. rewrite Ep, Er. cbn.
  apply init_forcing_term_inv in Ep, Er.
  destruct Ep as (_ & _ & Ep), Er as (_ & _ & Er).
  pose proof (forcing_term_init_n _ _ _ _ _ _ _ _ Ep) as (_ & G1 & S1 & _).
  pose proof (forcing_term_init_n _ _ _ _ _ _ _ _ Er) as (_ & G2 & S2 & _).
  repeat split; auto.
Qed.

Theorem C28_cartesian_rejected_partial : forall o jp jr x, cart_reachable o -> x <= 0 ->
  cart_set_execution_time jp jr x o = (cart_with_time x o, Err ValueError).
Proof.
  intros o jp jr x _ Hx. unfold cart_set_execution_time. cbn [k_n cart_with_time].
  now rewrite init_forcing_term_rejects.
Qed.

Theorem C28_dual : forall o j x, dual_reachable o -> 0 < x ->
  let o' := fst (dmp_set_execution_time j x o) in
  snd (dmp_set_execution_time j x o) = Ok tt /\
  dual_get_weights o' = dual_get_weights o /\
  o_execution_time o' = x /\
  ft_goal_t (o_forcing_term o') = x /\ ft_start_t (o_forcing_term o') = 0 /\
  o' = with_forcing_term (o_forcing_term o') (with_execution_time x o).
Proof.
  intros o j x Hr Hx o'.
  destruct (dual_reachable_shapes o Hr) as (_ & _ & _ & _ & _ & _ & _ & _ & _ & _ & _ & _ & Hf & Hn).
  destruct (init_forcing_term_accepts j (o_n_weights_per_dim o) x Hn Hx) as [f Ef].
  unfold o', dmp_set_execution_time. cbn [o_n_weights_per_dim with_execution_time]. rewrite Ef. cbn.
  apply init_forcing_term_inv in Ef. destruct Ef as (_ & _ & Ef).
  pose proof (forcing_term_init_n _ _ _ _ _ _ _ _ Ef) as (N & G & S & _).
  repeat split; auto. unfold dual_get_weights. cbn. now rewrite N, Hf.
Qed.

(** *** Feedback of the dual arm DMP *)
Definition set_gain (g : R) (o : dmp) : dmp :=
  {| o_base := o_base o; o_initialized := o_initialized o; o_execution_time := o_execution_time o;
     o_dt := o_dt o; o_n_weights_per_dim := o_n_weights_per_dim o; o_int_dt := o_int_dt o; o_p_gain := g;
     o_smooth_scaling := o_smooth_scaling o; o_forcing_term := o_forcing_term o; o_alpha_y := o_alpha_y o;
     o_beta_y := o_beta_y o |}.

Lemma arm_q_te_l u v : arm_q 0 (dual_tracking_error u v) = pr_mul (arm_q 0 u) (pr_conj (arm_q 0 v)).
Proof. unfold dual_tracking_error, arm_q at 1. cbn [Nat.mul Nat.add]. now rewrite quat_assemble_l. Qed.
Lemma arm_q_te_r u v : arm_q 1 (dual_tracking_error u v) = pr_mul (arm_q 1 u) (pr_conj (arm_q 1 v)).
Proof. unfold dual_tracking_error, arm_q at 1. cbn [Nat.mul Nat.add]. now rewrite quat_assemble_r. Qed.

(** Compared with the same object with [p_gain = 0]: the velocities change by
    [p_gain (own - passed) / tau^2], the angular velocities by [p_gain / tau^2] times
    the rotation vector from the passed to the own orientation. *)
Theorem C21_gain_dual : forall o y yd i, dual_reachable o ->
  alen y = 14%nat -> alen yd = 12%nat ->
  0 < o_execution_time o -> 0 <= p_t (o_base o) -> 0 < o_dt o <= o_int_dt o ->
  exists o0 r0 v0 o1 r1 v1,
    dual_step y yd None i tt (set_gain 0 o) = (o0, tt, Ok (r0, v0)) /\
    dual_step y yd None i tt o = (o1, tt, Ok (r1, v1)) /\
    let tau := o_execution_time o in
    (forall k, (k < 3)%nat ->
       aget v1 k = aget v0 k + o_p_gain o * (own_position o k - aget y k) / tau ^ 2 /\
       aget v1 (6 + k)%nat = aget v0 (6 + k)%nat
         + o_p_gain o * (own_position o (7 + k)%nat - aget y (7 + k)%nat) / tau ^ 2) /\
    (forall arm, (arm < 2)%nat ->
       v3_of (slice (3 + 6 * arm) 3 (aget v1)) =
       v3_add (v3_of (slice (3 + 6 * arm) 3 (aget v0)))
         (v3_scale (o_p_gain o / tau ^ 2)
            (i_log i (pr_mul (quat_of (slice (3 + 7 * arm) 4 (own_position o)))
                             (pr_conj (quat_of (slice (3 + 7 * arm) 4 (aget y)))))))).
Proof.
  intros o y yd i Hr Hy Hyd Hx Ht Hdt.
  pose proof (dual_reachable_shapes o Hr) as Hsh.
  assert (Hsh0 : dual_shapes (set_gain 0 o)) by exact Hsh.
  rewrite !dual_step_eq by assumption. cbv zeta.
  assert (Ho : aget (remembered o) = own_position o) by reflexivity.
  change (remembered (set_gain 0 o)) with (remembered o). rewrite Ho.
  cbn [set_gain o_base o_dt]. unfold dual_step_function.
  cbn [dual_args step_args a_start_t a_int_dt set_gain o_int_dt].
  destruct (Rle_dec (p_t (o_base o) + o_dt o) 0); [lra|].
  assert (Hs : single_step (p_t (o_base o)) (p_t (o_base o) + o_dt o) (o_int_dt o)) by (split; lra).
  rewrite !substeps_single by exact Hs. cbn [rmap].
  replace (p_t (o_base o) + o_dt o - p_t (o_base o)) with (o_dt o) by ring.
  set (h := o_dt o) in *. set (own := own_position o). clearbody own.
  unfold dual_body. cbv zeta. cbn [fst snd].
  do 6 eexists. split; [reflexivity|]. split; [reflexivity|]. cbn [aget].
  split.
  - intros k Hk. unfold dual_pos_acc.
    do 3 (destruct k as [|k]; [destruct i; cbn -[i_log pr_mul pr_conj]; unfold vadd, vzero, vsub,
      assemble_v, dual_tracking_error, assemble_p; cbn -[i_log pr_mul pr_conj]; unfold vsub; split; field; repeat split; lra|]). lia.
  - intros arm Ha. unfold dual_rot_acc.
    destruct arm as [|[|arm]]; [| |lia]; cbn [Nat.mul Nat.add];
    rewrite ?w_assemble_l, ?w_assemble_r;
    unfold dual_feedback; cbn [a_tracking_error step_args a_p_gain dual_args set_gain o_p_gain];
    rewrite ?arm_q_te_l, ?arm_q_te_r;
    change (quat_of (slice 3 4 own)) with (arm_q 0 own);
    change (quat_of (slice 3 4 (aget y))) with (arm_q 0 (aget y));
    change (quat_of (slice 10 4 own)) with (arm_q 1 own);
    change (quat_of (slice 10 4 (aget y))) with (arm_q 1 (aget y));
    match goal with |- _ = v3_add _ (v3_scale _ ?l) => set (L := l) end;
    clearbody L; (apply v3_ext; destruct i; cbn -[q_error]; unfold vadd, vzero, assemble_v; cbn -[q_error];
      field; repeat split; lra).
Qed.

(** *** The hypotheses are met *)

(** A coupling term that pushes towards the origin, and a step of a tenth of a
    second of a movement of one second. *)
Definition pushing : coupling := fun y v => (fun d => - y d, fun d => - v d).

Definition ex_coupled (f : forcing_term) : dmp_args :=
  {| a_goal_y := fun _ => 1; a_goal_yd := vzero; a_goal_ydd := vzero; a_start_y := vzero;
     a_start_yd := vzero; a_start_ydd := vzero; a_goal_t := 1; a_start_t := 0; a_alpha_y := fun _ => 25;
     a_beta_y := fun _ => 25/4; a_forcing_term := f; a_coupling_term := Some pushing; a_precomputed := None;
     a_int_dt := 1/10; a_p_gain := 0; a_tracking_error := None; a_smooth_scaling := true |}.

Example C80_satisfiable : forall f, let a := ex_coupled f in
  a_start_t a < a_goal_t a /\ a_start_t a < 3/10 /\ single_step (2/10) (3/10) (a_int_dt a)
  /\ a_coupling_term a = Some pushing /\ a_precomputed a = None
  /\ (exists y0 v0, dmp_step_euler_with_constraints (without_coupling a) (2/10) (3/10) (fun _ => 1, fun _ => 2)
        = Ok (y0, v0))
  /\ (forall d, 1/10 * snd (pushing (fun _ => 1) (fun _ => 2)) d / 1 ^ 2 + fst (pushing (fun _ => 1) (fun _ => 2)) d / 1 = -12/10).
Proof.
  intros f a. cbn [a ex_coupled a_start_t a_goal_t a_int_dt a_coupling_term a_precomputed].
  repeat split; try lra.
  - destruct (fv_step_total (without_coupling a) (2/10) (3/10) (fun _ => 1, fun _ => 2)) as (l & _ & E);
      [cbn; lra|cbn; lra|cbn; lra|lra|].
    rewrite E. destruct (exec_substeps _ _ _) as [y v]. eauto.
  - intro d. cbn. lra.
Qed.

(** A DMP with gain 3 whose integration step is as long as its time step. *)
Example C21_gain_satisfiable : exists o,
  reachable 2 o /\ o_p_gain o = 3 /\ 0 < o_execution_time o /\ 0 <= p_t (o_base o) /\ 0 < o_dt o <= o_int_dt o
  /\ (forall d, own_position o d = 0)
  /\ exists o0 r0 v0, fv_step (zeros 2) (zeros 2) None o = (o0, Ok (r0, v0)).
Proof.
  destruct (init_forcing_term_accepts (vzero, vzero) 2 1) as [f Ef]; [lia|lra|].
  assert (E : exists o, dmp_new (vzero, vzero) 2 1 (1/100) 2 (1/100) 3 false
    {| shape := []; data := fun _ => 25 |} {| shape := []; data := fun _ => 25/4 |} = Ok o
    /\ o_base o = ptp_init 2 2 /\ o_p_gain o = 3 /\ o_execution_time o = 1 /\ o_dt o = 1/100 /\ o_int_dt o = 1/100
    /\ o_initialized o = false).
  { unfold dmp_new. rewrite Ef. cbn [bind]. unfold ensure_1d_array. cbn -[Nat.eqb].
    eexists. split; [reflexivity|]. cbn. repeat split. }
  destruct E as (o & E & E1 & E2 & E3 & E4 & E5 & E6). exists o.
  split.
  { exists (vzero, vzero), 1, (1/100), 2%nat, (1/100), 3, false,
      {| shape := []; data := fun _ => 25 |}, {| shape := []; data := fun _ => 25/4 |}, o, []. auto. }
  rewrite E1, E2, E3, E4, E5. cbn [ptp_init p_t]. repeat split; try lra.
  - intro d. unfold own_position. rewrite E6, E1. reflexivity.
  - unfold fv_step. cbv zeta. cbn [o_initialized with_base]. rewrite E6.
    match goal with |- context [dmp_step_euler_with_constraints ?a ?lt ?t ?s] =>
      destruct (fv_step_total a lt t s) as (l & _ & EE) end;
      try (cbn; rewrite ?E1, ?E3, ?E4, ?E5; cbn; lra).
    rewrite EE. destruct (exec_substeps _ _ _) as [y v]. eauto.
Qed.

Example C28_cartesian_satisfiable : exists o, cart_reachable o /\ 0 < 3
  /\ k_execution_time o = 1 /\ ft_weights (k_frot o) 2%nat 1%nat = 11.
Proof.
  destruct ex_cart_ok as (o & Hr & Hx & Hdt & Hi & Hn & Hs & Hg & Hw).
  exists o. repeat split; auto; lra.
Qed.

Example C21_gain_dual_satisfiable : exists o, dual_reachable o /\ o_p_gain o = 2
  /\ 0 < o_execution_time o /\ 0 <= p_t (o_base o) /\ 0 < o_dt o <= o_int_dt o
  /\ alen (p_start_y (o_base o)) = 14%nat /\ alen (p_start_yd (o_base o)) = 12%nat.
Proof.
  destruct (dual_example 1 (1/100) (1/100) 2 false (fun _ => 1) (fun _ => 1) at_origin turned)
    as (o & Hr & E1 & E2 & E3 & E4 & E5 & E6 & E7 & E8 & E9 & E10 & E11 & E12 & E13 & E14 & E15 & E16 & E17 & E18); [lra|].
  pose proof (dual_reachable_shapes o Hr) as (D1 & D2 & D3 & D4 & _).
  exists o. split; [exact Hr|]. repeat split; auto; try lra.
Qed.
