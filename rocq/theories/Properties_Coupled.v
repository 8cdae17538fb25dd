(** C102: where two coupled components come to rest.  Final statements. *)
From Coq Require Import Reals ZArith List Lia Lra Psatz FunctionalExtensionality.
From Verif Require Import M_Prelude M_Canonical M_Forcing M_Dmp M_Base M_DmpObject M_Quaternion M_Coupling
  S_Loops S_Dmp S_Stability S_Coupled P_Loops P_Canonical P_Forcing P_DmpStep P_DmpScale P_DmpLinear P_Converge
  P_DmpObject P_Stability P_Coupled Properties_Forcing Properties_Dmp Properties_DmpObject Properties_DmpState
  Properties_Goal Properties_Stability Properties_Feedback.
Import ListNotations.
Open Scope R_scope.
Set Bullet Behavior "Strict Subproofs".

(** ** Specification *)
(** A DMP and a distance spring between its components [i] and [j]. *)
Record pair := { pr_i : nat; pr_j : nat; pr_l0 : R; pr_l1 : R; pr_a : R; pr_b : R; pr_dist : R }.

Definition pair_spring (c : coupling) (p : pair) : Prop :=
  distance_spring c (pr_i p) (pr_j p) (pr_l0 p) (pr_l1 p) (pr_a p) (pr_b p) (pr_dist p).

(** Both components have the same gains. *)
Definition same_gains (o : dmp) (p : pair) : Prop :=
  aget (o_alpha_y o) (pr_i p) = aget (o_alpha_y o) (pr_j p) /\
  aget (o_beta_y o) (pr_i p) = aget (o_beta_y o) (pr_j p).

(** The displacement of the goals. *)
Definition goal_displacement (o : dmp) (p : pair) : R :=
  aget (p_goal_y (o_base o)) (pr_j p) - aget (p_goal_y (o_base o)) (pr_i p).

(** The length of the integration steps: the Euler integrators divide a step. *)
Definition step_part (fn : step_function) (o : dmp) : R := part fn (o_dt o) (o_int_dt o).
Definition parts_equal (fn : step_function) (o : dmp) : Prop :=
  uses_euler fn -> equal_parts (o_dt o) (o_int_dt o).

(** Damping and stiffness of the displacement, and the velocity that the coupling
    adds per unit of missing displacement. *)
Definition pair_damping (o : dmp) (p : pair) : R := dmp_damping o (pr_j p).
Definition pair_stiffness (o : dmp) (p : pair) : R :=
  dmp_stiffness o (pr_j p) + (pr_l0 p + pr_l1 p) * pr_b p / o_execution_time o ^ 2.
Definition pair_kick (o : dmp) (p : pair) : R := (pr_l0 p + pr_l1 p) * pr_a p / o_execution_time o.

(** How strongly the goals and the coupling pull at the displacement. *)
Definition goal_pull (fn : step_function) (o : dmp) (p : pair) : R :=
  let h := step_part fn o in
  h ^ 2 * weight_goal fn h (pair_damping o p) (pair_stiffness o p) * dmp_stiffness o (pr_j p).
Definition coupling_pull (fn : step_function) (o : dmp) (p : pair) : R :=
  let h := step_part fn o in
  h ^ 2 * weight_goal fn h (pair_damping o p) (pair_stiffness o p)
        * ((pr_l0 p + pr_l1 p) * pr_b p / o_execution_time o ^ 2)
  + h * weight_kick fn h (pair_damping o p) (pair_stiffness o p) * pair_kick o p.

(** The displacement at rest: the mean of both displacements, weighted with the
    pulls. *)
Definition rest_displacement (fn : step_function) (o : dmp) (p : pair) : R :=
  (goal_pull fn o p * goal_displacement o p + coupling_pull fn o p * pr_dist p)
  / (goal_pull fn o p + coupling_pull fn o p).

(** The positions at rest: the components share the deviation from their goals in
    proportion to their factors. *)
Definition rest_i (fn : step_function) (o : dmp) (p : pair) : R :=
  aget (p_goal_y (o_base o)) (pr_i p)
  + pr_l0 p / (pr_l0 p + pr_l1 p) * (goal_displacement o p - rest_displacement fn o p).
Definition rest_j (fn : step_function) (o : dmp) (p : pair) : R :=
  aget (p_goal_y (o_base o)) (pr_j p)
  - pr_l1 p / (pr_l0 p + pr_l1 p) * (goal_displacement o p - rest_displacement fn o p).

(** The velocities that are reported although the positions do not change. *)
Definition rest_velocity (fn : step_function) (o : dmp) (p : pair) : R :=
  let h := step_part fn o in
  h ^ 2 * left_over fn h (pair_damping o p) (pair_stiffness o p) * (pr_a p / o_execution_time o)
    * dmp_stiffness o (pr_j p) * (pr_dist p - goal_displacement o p)
  / (goal_pull fn o p + coupling_pull fn o p).

(** The step length makes all motions smaller, those of the displacement and those
    of the weighted sum, which the coupling does not change. *)
Definition pair_shrinks (fn : step_function) (o : dmp) (p : pair) : Prop :=
  pair_settles fn (step_part fn o) (pair_damping o p) (pair_stiffness o p) (pair_kick o p) /\
  pair_settles fn (step_part fn o) (pair_damping o p) (dmp_stiffness o (pr_j p)) 0.

(** ** Proofs *)
Lemma lin_split i j l0 l1 x : l0 + l1 <> 0 ->
  x i = (lin i j l1 l0 x - l0 * lin i j (-1) 1 x) / (l0 + l1)
  /\ x j = (lin i j l1 l0 x + l1 * lin i j (-1) 1 x) / (l0 + l1).
Proof. intros H. unfold lin. split; field; auto. Qed.

Lemma vanishes_sub f n : (0 < n)%nat -> vanishes f -> vanishes (fun k => f (k * n)%nat).
Proof.
  intros Hn H eps He. destruct (H eps He) as [N HN]. exists N. intros k Hk. apply HN. nia.
Qed.

(** A run of the step function with constant arguments. *)
Lemma run_settles fn a cpl i j l0 l1 ga gb dist t0 dt x :
  a_coupling_term a = Some cpl -> a_tracking_error a = None -> a_start_t a < a_goal_t a ->
  a_alpha_y a i = a_alpha_y a j -> a_beta_y a i = a_beta_y a j ->
  distance_spring cpl i j l0 l1 ga gb dist ->
  phase_ok (a_forcing_term a) -> 0 < dt -> 0 < a_int_dt a -> a_start_t a <= t0 ->
  parts_ok fn dt (a_int_dt a) -> l0 + l1 <> 0 ->
  let tau := a_goal_t a - a_start_t a in
  let h := part fn dt (a_int_dt a) in
  let cc := a_alpha_y a j / tau in
  let k0 := a_alpha_y a j * a_beta_y a j / tau ^ 2 in
  let k := k0 + (l0 + l1) * gb / tau ^ 2 in
  let p := (l0 + l1) * ga / tau in
  let gx := a_goal_y a j - a_goal_y a i in
  let D := h ^ 2 * k * weight_goal fn h cc k + h * p * weight_kick fn h cc k in
  let X := (h ^ 2 * weight_goal fn h cc k * (k0 * gx + (l0 + l1) * gb / tau ^ 2 * dist)
            + h * p * weight_kick fn h cc k * dist) / D in
  let w := h ^ 2 * left_over fn h cc k * p * k0 * (dist - gx) / D in
  pair_settles fn h cc k p -> pair_settles fn h cc k0 0 ->
  exists s, (forall m, run_seq (run_step_function fn a) t0 dt x m = Ok (s m))
  /\ vanishes (fun m => fst (s m) i - (a_goal_y a i + l0 / (l0 + l1) * (gx - X)))
  /\ vanishes (fun m => fst (s m) j - (a_goal_y a j - l1 / (l0 + l1) * (gx - X)))
  /\ vanishes (fun m => snd (s m) i - (- (l0 / (l0 + l1)) * w))
  /\ vanishes (fun m => snd (s m) j - l1 / (l0 + l1) * w).
Proof.
  intros Hc Hte Ht Hal Hbe Hsp Hph Hdt Hi Ht0 Hpa HL tau h cc k0 k p gx D X w Hst Hs0.
  assert (Hn0 : tau <> 0) by (unfold tau; lra).
  destruct (run_bodies fn a t0 dt x Ht Hdt Hi Ht0 Hpa) as (Hh & n & Hn & Hrun). fold h in Hh, Hrun.
  assert (Htn : a_goal_t a <> a_start_t a) by lra.
  assert (Ek : cstiff a j gb (l0 + l1) = k) by (unfold cstiff, k, k0; fold tau; field; auto).
  assert (Ek0 : cstiff a j gb 0 = k0) by (unfold cstiff, k0; fold tau; field; auto).
  assert (Ep0 : 0 * ga / (a_goal_t a - a_start_t a) = 0) by (unfold Rdiv; ring).
  destruct (bodies_lin a cpl i j l0 l1 ga gb dist Hc Hte Htn Hal Hbe Hsp Hph fn (-1) 1 (l0 + l1) t0 h x)
    as [HX Hw]; auto using fits_displacement.
  { rewrite Ek. exact Hst. }
  destruct (bodies_lin a cpl i j l0 l1 ga gb dist Hc Hte Htn Hal Hbe Hsp Hph fn l1 l0 0 t0 h x)
    as [HW HV]; auto using fits_sum.
  { rewrite Ek0, Ep0. exact Hs0. }
  cbv zeta in HX, Hw, HW, HV. rewrite Ek in HX, Hw. rewrite Ek0, Ep0 in HW, HV. fold tau in HX, Hw.
  fold p in HX, Hw.
  set (r := bodies (step1 fn a) t0 h x) in *.
  assert (EX : restX a j dist fn h k (cconst a i j gb dist (-1) 1 (l0 + l1)) p = X).
  { unfold restX, X, Delta, D. fold tau cc. f_equal. f_equal. f_equal.
    unfold cconst, lin, k0, gx. fold tau. field. auto. }
  assert (Ew : restw a j dist fn h k (cconst a i j gb dist (-1) 1 (l0 + l1)) p = w).
  { unfold restw, w, Delta, D. fold tau cc. f_equal. unfold cconst, lin, k, k0, gx. fold tau. field. auto. }
  assert (HD0 : Delta a j fn h k0 0 <> 0).
  { rewrite Delta_eq. fold tau cc. destruct Hs0 as [_ Hs0]. apply Rabs_def2 in Hs0. lra. }
  assert (EW : restX a j dist fn h k0 (cconst a i j gb dist l1 l0 0) 0 = l1 * a_goal_y a i + l0 * a_goal_y a j).
  { unfold restX. unfold Delta in *. fold tau cc in HD0 |- *.
    replace (cconst a i j gb dist l1 l0 0) with (k0 * (l1 * a_goal_y a i + l0 * a_goal_y a j))
      by (unfold cconst, lin, k0; fold tau; field; auto).
    apply (Rmult_eq_reg_r _ _ _) with (2 := HD0). unfold Rdiv at 1. rewrite Rmult_assoc, Rinv_l by exact HD0.
    ring. }
  assert (EV : restw a j dist fn h k0 (cconst a i j gb dist l1 l0 0) 0 = 0).
  { unfold restw. unfold Rdiv. ring. }
  rewrite EX in HX. rewrite Ew in Hw. rewrite EW in HW. rewrite EV in HV.
  exists (fun m => r (m * n)%nat). split; [exact Hrun|].
  assert (Hgen : forall (F G : nat -> R) e1 e2 u, vanishes F -> vanishes G ->
    (forall m, u m = e1 * F m + e2 * G m) -> vanishes (fun m => u (m * n)%nat)).
  { intros F G e1 e2 u HF HG E. apply vanishes_sub; auto.
    apply (vanishes_ext (fun m => e1 * F m + e2 * G m)); [intros; now rewrite E|].
    apply vanishes_plus; now apply vanishes_scal. }
  split; [|split; [|split]].
  - apply (Hgen _ _ (/ (l0 + l1)) (- l0 / (l0 + l1)) (fun m => fst (r m) i - _) HW HX).
    intros m. unfold lin, gx. field. auto.
  - apply (Hgen _ _ (/ (l0 + l1)) (l1 / (l0 + l1)) (fun m => fst (r m) j - _) HW HX).
    intros m. unfold lin, gx. field. auto.
  - apply (Hgen _ _ (/ (l0 + l1)) (- l0 / (l0 + l1)) (fun m => snd (r m) i - _) HV Hw).
    intros m. unfold lin. field. auto.
  - apply (Hgen _ _ (/ (l0 + l1)) (l1 / (l0 + l1)) (fun m => snd (r m) j - _) HV Hw).
    intros m. unfold lin. field. auto.
Qed.

(** ** C102 *)
(** The distance terms are springs between components. *)
Theorem C102_pos1d : forall sp dist,
  distance_spring (pos1d_coupling sp dist) 0 1 (sp_lf0 sp) (sp_lf1 sp)
    (sp_c1 sp * sp_k sp) (sp_c2 sp * sp_c1 sp * sp_k sp) dist.
Proof. intros sp dist y v. cbn. repeat split; ring. Qed.

Theorem C102_pos3d : forall sp dist,
  let term d x := distance_spring (pos3d_coupling sp dist) d (3 + d) (sp_lf0 sp) (sp_lf1 sp)
    (sp_c1 sp * sp_k sp) (sp_c2 sp * sp_k sp) x in
  term 0%nat (v3x dist) /\ term 1%nat (v3y dist) /\ term 2%nat (v3z dist).
Proof.
  intros sp dist term. unfold term. repeat split; cbn; ring.
Qed.

(** From every history, every first state and for every integrator: repeated steps
    bring both components to rest at these positions. *)
Theorem C102_settles : forall n o fn cpl p y yd,
  reachable n o -> 0 < o_execution_time o -> 0 < o_dt o -> 0 < o_int_dt o ->
  (pr_i p < n)%nat -> (pr_j p < n)%nat -> alen y = n -> alen yd = n ->
  pair_spring cpl p -> pr_l0 p + pr_l1 p <> 0 -> same_gains o p ->
  parts_equal fn o -> pair_shrinks fn o p ->
  forall eps, 0 < eps -> exists N, forall k, (N <= k)%nat ->
  exists o' y' yd',
    n_steps_open_loop (Some cpl) (Some fn) k y yd o = (o', Ok (y', yd'))
    /\ Rabs (aget y' (pr_i p) - rest_i fn o p) < eps
    /\ Rabs (aget y' (pr_j p) - rest_j fn o p) < eps
    /\ Rabs (aget yd' (pr_i p) + pr_l0 p * rest_velocity fn o p) < eps
    /\ Rabs (aget yd' (pr_j p) - pr_l1 p * rest_velocity fn o p) < eps.
Proof.
  intros n o fn cpl p y yd Hr Hx Hdt Hi _ _ Ly Lyd Hsp HL [Hal Hbe] Hpe [Hst Hs0] eps Heps.
  destruct (reachable_shapes n o Hr) as [Hsh Hn].
  pose proof (reachable_phase_ok n o Hr) as Hph.
  destruct (clock_steps (p_t (o_base o)) (o_dt o) Hdt) as [k0 Hk0].
  destruct (n_steps_total_c (Some cpl) fn k0 o y yd Hsh (conj Hx (conj Hdt Hi)) ltac:(congruence) ltac:(congruence))
    as (o1 & y1 & yd1 & E1 & P1 & S1 & T1 & I1 & C1 & D1 & L1 & M1).
  pose proof (running_same _ _ P1 (conj Hx (conj Hdt Hi))) as (Hx1 & Hdt1 & Hi1).
  assert (Ht1 : 0 <= p_t (o_base o1)) by lra.
  pose proof P1 as (Q1 & Q2 & Q3 & Q4 & Q5 & Q6 & Q7 & Q8 & Q9 & Q10 & Q11 & Q12 & Q13 & Q14
                    & Q15 & Q16 & Q17).
  set (a := open_loop_step_args o1 (Some cpl)).
  set (i := pr_i p) in *. set (j := pr_j p) in *.
  assert (Etau : a_goal_t a - a_start_t a = o_execution_time o) by (cbn; rewrite Q1; ring).
  assert (Hda : a_alpha_y a j / (a_goal_t a - a_start_t a) = pair_damping o p).
  { rewrite Etau. cbn. now rewrite Q8. }
  assert (Hka : a_alpha_y a j * a_beta_y a j / (a_goal_t a - a_start_t a) ^ 2 = dmp_stiffness o j).
  { rewrite Etau. cbn -[pow]. now rewrite Q8, Q9. }
  assert (Hh : part fn (o_dt o1) (a_int_dt a) = step_part fn o).
  { unfold step_part. cbn. now rewrite Q2, Q4. }
  pose proof (run_settles fn a cpl i j (pr_l0 p) (pr_l1 p) (pr_a p) (pr_b p) (pr_dist p)
    (p_t (o_base o1)) (o_dt o1) (aget y1, aget yd1)) as H. cbv zeta in H.
  rewrite Hda, Hka, Hh, Etau in H.
  change (dmp_stiffness o j + (pr_l0 p + pr_l1 p) * pr_b p / o_execution_time o ^ 2)
    with (pair_stiffness o p) in H.
  change ((pr_l0 p + pr_l1 p) * pr_a p / o_execution_time o) with (pair_kick o p) in H.
  change (a_goal_y a i) with (aget (p_goal_y (o_base o1)) i) in H.
  change (a_goal_y a j) with (aget (p_goal_y (o_base o1)) j) in H.
  rewrite Q15 in H.
  change (aget (p_goal_y (o_base o)) j - aget (p_goal_y (o_base o)) i) with (goal_displacement o p) in H.
  assert (ED : step_part fn o ^ 2 * pair_stiffness o p
      * weight_goal fn (step_part fn o) (pair_damping o p) (pair_stiffness o p)
      + step_part fn o * pair_kick o p * weight_kick fn (step_part fn o) (pair_damping o p) (pair_stiffness o p)
    = goal_pull fn o p + coupling_pull fn o p).
  { unfold goal_pull, coupling_pull. fold j. cbv zeta. set (P := weight_goal _ _ _ _). set (K := weight_kick _ _ _ _).
    unfold pair_stiffness. fold j. ring. }
  rewrite ED in H.
  match type of H with context [pr_l0 p / (pr_l0 p + pr_l1 p) * (goal_displacement o p - ?X)] =>
    replace X with (rest_displacement fn o p) in H end.
  2: { unfold rest_displacement. f_equal. unfold goal_pull, coupling_pull. fold j. cbv zeta. ring. }
  destruct H as (s & Hrun & V1 & V2 & V3 & V4); auto.
  { cbn. rewrite Q8. exact Hal. }
  { cbn. rewrite Q9. exact Hbe. }
  { cbn. rewrite Q7. exact Hph. }
  { unfold parts_equal, uses_euler, equal_parts in Hpe. cbn. rewrite Q2, Q4. destruct fn; cbn; auto. }
  destruct (V1 eps Heps) as [N1 HN1]. destruct (V2 eps Heps) as [N2 HN2].
  destruct (V3 eps Heps) as [N3 HN3]. destruct (V4 eps Heps) as [N4 HN4].
  exists (S k0 + (N1 + N2 + N3 + N4))%nat. intros k Hk.
  set (m := (k - S k0)%nat). replace k with (S k0 + m)%nat by (unfold m; lia).
  destruct (n_steps_follow fn (Some cpl) o1 m o1 y1 yd1 S1 (same_params_refl o1) Hdt1 Ht1)
    with (s := s m) as (o2 & y2 & yd2 & R1 & R2 & R3); auto; try congruence.
  - rewrite norm_id by auto. exact C1.
  - rewrite norm_id by auto. exact D1.
  - exists o2, y2, yd2. split; [rewrite (n_steps_app _ _ _ _ _ _ _ _ _ _ E1); exact R1|].
    specialize (HN1 m ltac:(unfold m; lia)). specialize (HN2 m ltac:(unfold m; lia)).
    specialize (HN3 m ltac:(unfold m; lia)). specialize (HN4 m ltac:(unfold m; lia)).
    rewrite <- R2 in HN1, HN2, HN3, HN4. cbn [fst snd] in HN1, HN2, HN3, HN4.
    split; [exact HN1|]. split; [exact HN2|].
    assert (EV : rest_velocity fn o p
      = / (pr_l0 p + pr_l1 p) * (step_part fn o ^ 2
          * left_over fn (step_part fn o) (pair_damping o p) (pair_stiffness o p) * pair_kick o p
          * dmp_stiffness o j * (pr_dist p - goal_displacement o p)
          / (goal_pull fn o p + coupling_pull fn o p))).
    { unfold rest_velocity, pair_kick. fold j. unfold Rdiv. set (iD := / (goal_pull fn o p + coupling_pull fn o p)).
      field. split; [lra|auto]. }
    rewrite EV. split.
    + eapply Rle_lt_trans; [|exact HN3]. right. f_equal. unfold Rdiv. ring.
    + eapply Rle_lt_trans; [|exact HN4]. right. f_equal. unfold Rdiv. ring.
Qed.

(** With positive weights, the displacement at rest lies between that of the goals
    and the desired one. *)
Theorem C102_between : forall fn o p,
  0 < goal_pull fn o p -> 0 < coupling_pull fn o p ->
  exists w, 0 < w < 1 /\
  rest_displacement fn o p = (1 - w) * goal_displacement o p + w * pr_dist p.
Proof.
  intros fn o p Hg Hc. set (G := goal_pull fn o p) in *. set (S := coupling_pull fn o p) in *.
  exists (S / (G + S)). split.
  - split; [apply Rdiv_lt_0_compat; lra|]. apply Rmult_lt_reg_r with (G + S); [lra|].
    unfold Rdiv. rewrite Rmult_assoc, Rinv_l by lra. lra.
  - unfold rest_displacement. fold G S. field. lra.
Qed.

(** The weights are positive for the compiled Euler integrator, for the Euler
    integrator if h c < 1, and for the Runge-Kutta integrators for steps that are
    not too long. *)
Theorem C102_positive_weights : forall fn o p,
  0 < o_execution_time o -> 0 < o_dt o -> 0 < o_int_dt o ->
  0 < aget (o_alpha_y o) (pr_j p) -> 0 < aget (o_beta_y o) (pr_j p) ->
  0 < pr_l0 p + pr_l1 p -> 0 < pr_a p -> 0 <= pr_b p ->
  let h := step_part fn o in
  (fn = Euler -> h * pair_damping o p < 1) ->
  (uses_rk4 fn -> h * pair_damping o p <= 1 /\ h ^ 2 * pair_stiffness o p <= 1) ->
  0 < goal_pull fn o p /\ 0 < coupling_pull fn o p.
Proof.
  intros fn o p Hx Hdt Hi Hal Hbe HL Ha Hb h He Hr.
  assert (Hh : 0 < h) by (unfold h, step_part, part; destruct fn; auto; now apply Rmin_pos).
  assert (Hc : 0 < pair_damping o p) by (apply Rdiv_lt_0_compat; auto).
  assert (Hk0 : 0 < dmp_stiffness o (pr_j p)).
  { apply Rdiv_lt_0_compat; [now apply Rmult_lt_0_compat|now apply pow_lt]. }
  assert (Hb' : 0 <= (pr_l0 p + pr_l1 p) * pr_b p / o_execution_time o ^ 2).
  { apply Rmult_le_pos; [nra|]. left. apply Rinv_0_lt_compat. now apply pow_lt. }
  assert (Hk : 0 < pair_stiffness o p) by (unfold pair_stiffness; lra).
  assert (Hp : 0 < pair_kick o p) by (apply Rdiv_lt_0_compat; auto; now apply Rmult_lt_0_compat).
  assert (Hw : 0 < weight_goal fn h (pair_damping o p) (pair_stiffness o p)
               /\ 0 < weight_kick fn h (pair_damping o p) (pair_stiffness o p)).
  { set (c := pair_damping o p) in *. set (k := pair_stiffness o p) in *.
    assert (Hrk : uses_rk4 fn -> 0 < rk_s (h * c) (h ^ 2 * k) /\ 0 < rk_b (h * c) (h ^ 2 * k)).
    { intros H. destruct (Hr H) as [X1 X2].
      assert (X0 : 0 < h * c) by now apply Rmult_lt_0_compat.
      assert (Y0 : 0 < h ^ 2 * k) by (apply Rmult_lt_0_compat; auto; now apply pow_lt).
      set (x := h * c) in *. set (q := h ^ 2 * k) in *. unfold rk_s, rk_b. clearbody x q.
      assert (0 <= x * q) by nra. assert (0 <= x * x <= 1) by nra.
      replace (x ^ 2) with (x * x) by ring. replace (x ^ 3) with (x * x * x) by ring.
      replace (2 * x * q) with (2 * (x * q)) by ring.
      assert (x * x * x <= 1) by nra. split; lra. }
    unfold weight_goal, weight_kick. destruct fn.
    - destruct Hrk as [H1 H2]; [now left|]. split; [|exact H2]. cbv zeta.
      assert (0 < h * c) by now apply Rmult_lt_0_compat.
      assert (0 < h ^ 2 * k) by (apply Rmult_lt_0_compat; auto; now apply pow_lt).
      set (s := rk_s _ _) in *. set (b := rk_b _ _) in *.
      assert (0 < h ^ 2 * k * s) by now apply Rmult_lt_0_compat.
      assert (0 < h * c * b) by now apply Rmult_lt_0_compat.
      assert (0 < s * (h ^ 2 * k * s + h * c * b)) by (apply Rmult_lt_0_compat; lra).
      assert (0 < b ^ 2) by now apply pow_lt. lra.
    - specialize (He eq_refl). split; lra.
    - destruct Hrk as [H1 H2]; [now right|]. split; [|exact H2]. cbv zeta.
      assert (0 < h * c) by now apply Rmult_lt_0_compat.
      assert (0 < h ^ 2 * k) by (apply Rmult_lt_0_compat; auto; now apply pow_lt).
      set (s := rk_s _ _) in *. set (b := rk_b _ _) in *.
      assert (0 < h ^ 2 * k * s) by now apply Rmult_lt_0_compat.
      assert (0 < h * c * b) by now apply Rmult_lt_0_compat.
      assert (0 < s * (h ^ 2 * k * s + h * c * b)) by (apply Rmult_lt_0_compat; lra).
      assert (0 < b ^ 2) by now apply pow_lt. lra.
    - split; lra. }
  destruct Hw as [H1 H2]. unfold goal_pull, coupling_pull. fold h. cbv zeta.
  set (P := weight_goal _ _ _ _) in *. set (K := weight_kick _ _ _ _) in *.
  assert (0 < h ^ 2 * P) by (apply Rmult_lt_0_compat; auto; now apply pow_lt).
  assert (0 < h * K) by now apply Rmult_lt_0_compat.
  split; [now apply Rmult_lt_0_compat|].
  apply Rplus_le_lt_0_compat; [apply Rmult_le_pos; lra|now apply Rmult_lt_0_compat].
Qed.

(** The limits of the step length in numbers, for the Euler integrators. *)
Theorem C102_limits : forall h c k p, 0 < h -> 0 < c ->
  (pair_settles Euler_cython h c k p <-> 0 < h ^ 2 * k + h * p < 4 - 2 * (h * c)) /\
  (pair_settles Euler h c k p <-> 0 < h ^ 2 * k + h * p * (1 - h * c) < 4 - 2 * (h * c)).
Proof.
  intros h c k p Hh Hc. assert (Hx : 0 < h * c) by now apply Rmult_lt_0_compat.
  unfold pair_settles, pair_sum, pair_product, weight_kick. cbv zeta. split; split.
  - intros [H1 H2]. apply Rabs_def2 in H2. lra.
  - intros H. split; [lra|]. apply Rabs_def1; lra.
  - intros [H1 H2]. apply Rabs_def2 in H2. lra.
  - intros H. split; [lra|]. apply Rabs_def1; lra.
Qed.

(** Without coupling, the condition is that of C100. *)
Theorem C102_without_coupling : forall fn o d,
  parts_equal fn o ->
  (pair_settles fn (step_part fn o) (dmp_damping o d) (dmp_stiffness o d) 0 <-> steps_shrink fn o d).
Proof.
  intros fn o d Hpe. unfold steps_shrink. cbv zeta.
  set (c := dmp_damping o d). set (k := dmp_stiffness o d).
  assert (Heu : forall h, euler_shrinks h c k <->
    1 - h * c < 1 /\ Rabs (2 - h * c - h ^ 2 * k) < 1 + (1 - h * c)).
  { intros h. destruct (quadratic_roots (2 - h * c - h ^ 2 * k) (1 - h * c)) as (m1 & m2 & Et & Ed).
    rewrite <- (roots_inside _ _ _ _ Et Ed). unfold euler_shrinks, euler_growth. split.
    - intros H. split; apply H; apply (root_of _ _ m1 m2 _ Et Ed); auto.
    - intros [H1 H2] mu Hmu. apply (root_of _ _ m1 m2 _ Et Ed) in Hmu. destruct Hmu as [-> | ->]; auto. }
  assert (Hrk : forall h, rk4_shrinks h c k <-> pair_settles RK4 h c k 0).
  { intros h. destruct (quadratic_roots (- c) k) as (m1 & m2 & Es & Ep).
    destruct (rk4_eigenvalues h c k m1 m2 Es Ep) as [Et Ed].
    rewrite (rk4_shrinks_roots h c k m1 m2 Es Ep), (roots_inside _ _ _ _ Et Ed).
    unfold pair_settles, pair_sum, pair_product. cbv zeta. rewrite <- ra_rk, <- rb_rk.
    replace (ra h c k * (ra h c k - rb h c k * h * c) - rb h c k * h * (- rb h c k * h * k))
      with (ra h c k * (ra h c k - h * c * rb h c k) + h ^ 2 * k * rb h c k ^ 2) by ring.
    replace (2 * ra h c k - h * c * rb h c k - h * 0 * weight_kick RK4 h c k)
      with (ra h c k + (ra h c k - rb h c k * h * c)) by ring.
    reflexivity. }
  unfold parts_equal, uses_euler in Hpe. unfold step_part, part.
  destruct fn.
  - now rewrite Hrk.
  - rewrite Heu. unfold pair_settles, pair_sum, pair_product, weight_kick.
    replace (Rmin (o_dt o) (o_int_dt o) * 0 * (1 - Rmin (o_dt o) (o_int_dt o) * c)) with 0 by ring.
    rewrite Rminus_0_r. split; [|tauto]. intros H. split; auto.
  - now rewrite Hrk.
  - rewrite Heu. unfold pair_settles, pair_sum, pair_product, weight_kick.
    replace (Rmin (o_dt o) (o_int_dt o) * 0 * 1) with 0 by ring.
    rewrite Rminus_0_r. split; [|tauto]. intros H. split; auto.
Qed.

(** *** The weighted sum *)
Definition no_coupling : coupling := fun _ _ => (vzero, vzero).
Definition with_coupling (c : option coupling) (a : dmp_args) : dmp_args :=
  {| a_goal_y := a_goal_y a; a_goal_yd := a_goal_yd a; a_goal_ydd := a_goal_ydd a;
     a_start_y := a_start_y a; a_start_yd := a_start_yd a; a_start_ydd := a_start_ydd a;
     a_goal_t := a_goal_t a; a_start_t := a_start_t a;
     a_alpha_y := a_alpha_y a; a_beta_y := a_beta_y a; a_forcing_term := a_forcing_term a;
     a_coupling_term := c; a_precomputed := a_precomputed a; a_int_dt := a_int_dt a;
     a_p_gain := a_p_gain a; a_tracking_error := a_tracking_error a;
     a_smooth_scaling := a_smooth_scaling a |}.

Lemma acc_no_coupling a h Y V z f : a_precomputed a = None ->
  acc_of (with_coupling (Some no_coupling) a) h Y V z f = acc_of (with_coupling None a) h Y V z f.
Proof.
  intros Hp. apply functional_extensionality; intro d. unfold acc_of, dmp_acc. cbn.
  unfold precomputed_cdd. cbn. rewrite ?Hp. reflexivity.
Qed.

Lemma vadd_nothing v t : vadd v (vdivs vzero t) = v.
Proof. apply functional_extensionality; intro d. unfold vadd, vdivs, vzero, Rdiv. ring. Qed.

Lemma step1_no_coupling fn a t h s : a_precomputed a = None ->
  step1 fn (with_coupling (Some no_coupling) a) t h s = step1 fn (with_coupling None a) t h s.
Proof.
  intros Hp. destruct s as [y v].
  assert (Hrk : dmp_step_rk4 (with_coupling (Some no_coupling) a) (t - h) t (y, v)
    = dmp_step_rk4 (with_coupling None a) (t - h) t (y, v)).
  { rewrite (rk4_as_rk4_of (with_coupling None a)) by reflexivity. cbv zeta.
    set (f := a_forcing_term a).
    assert (E : dmp_step_rk4 (with_coupling (Some no_coupling) a) (t - h) t (y, v)
      = let dt := t - (t - h) in
        let s' := rk4_of (acc_of (with_coupling (Some no_coupling) a) dt) dt (ft_phase f t)
          (ft_phase f (t + / 2 * dt)) (ft_phase f (t + dt))
          (ft_forces f (ft_phase f t)) (ft_forces f (ft_phase f (t + / 2 * dt)))
          (ft_forces f (ft_phase f (t + dt))) y v in
        (fst s', vadd (snd s') (vdivs vzero (a_goal_t a - a_start_t a)))) by reflexivity.
    rewrite E. cbv zeta. rewrite vadd_nothing.
    unfold rk4_of. rewrite !acc_no_coupling by auto. reflexivity. }
  destruct fn; cbn [step1].
  - exact Hrk.
  - unfold euler_body. cbn. unfold precomputed_cdd. cbn. rewrite ?Hp, vadd_nothing. reflexivity.
  - exact Hrk.
  - unfold euler_cython_body. cbn. rewrite ?Hp. reflexivity.
Qed.

Lemma sum_step fn a cpl i j l0 l1 ga gb dist t h s s0 :
  a_coupling_term a = Some cpl -> a_tracking_error a = None -> a_precomputed a = None ->
  a_goal_t a <> a_start_t a ->
  a_alpha_y a i = a_alpha_y a j -> a_beta_y a i = a_beta_y a j ->
  distance_spring cpl i j l0 l1 ga gb dist ->
  lin i j l1 l0 (fst s) = lin i j l1 l0 (fst s0) -> lin i j l1 l0 (snd s) = lin i j l1 l0 (snd s0) ->
  let s' := step1 fn a t h s in let s0' := step1 fn (with_coupling None a) t h s0 in
  lin i j l1 l0 (fst s') = lin i j l1 l0 (fst s0') /\ lin i j l1 l0 (snd s') = lin i j l1 l0 (snd s0').
Proof.
  intros Hc Hte Hp Ht Hal Hbe Hsp E1 E2 s' s0'. unfold s0'. rewrite <- step1_no_coupling by exact Hp.
  destruct s as [y v], s0 as [y0 v0]. cbn [fst snd] in E1, E2.
  pose proof (step1_lin a cpl i j l0 l1 ga gb dist Hc Hte Ht Hal Hbe Hsp fn l1 l0 0 t h y v
    (fits_sum i j l0 l1 dist)) as H1.
  assert (Hsp0 : distance_spring no_coupling i j l0 l1 0 0 dist).
  { intros Y V. cbn. unfold vzero. repeat split; ring. }
  pose proof (step1_lin (with_coupling (Some no_coupling) a) no_coupling i j l0 l1 0 0 dist eq_refl Hte Ht Hal
    Hbe Hsp0 fn l1 l0 0 t h y0 v0 (fits_sum i j l0 l1 dist)) as H0.
  rewrite <- E1, <- E2 in H0.
  assert (Ek : cstiff (with_coupling (Some no_coupling) a) j 0 0 = cstiff a j gb 0).
  { unfold cstiff. cbn -[pow]. f_equal. ring. }
  assert (Em : cconst (with_coupling (Some no_coupling) a) i j 0 dist l1 l0 0 = cconst a i j gb dist l1 l0 0).
  { unfold cconst. cbn -[pow lin]. f_equal. ring. }
  rewrite Ek, Em in H0.
  replace (0 * 0 / (a_goal_t (with_coupling (Some no_coupling) a) - a_start_t (with_coupling (Some no_coupling) a)))
    with (0 * ga / (a_goal_t a - a_start_t a)) in H0 by (unfold Rdiv; ring).
  assert (H : (lin i j l1 l0 (fst s'), lin i j l1 l0 (snd s'))
    = (lin i j l1 l0 (fst (step1 fn (with_coupling (Some no_coupling) a) t h (y0, v0))),
       lin i j l1 l0 (snd (step1 fn (with_coupling (Some no_coupling) a) t h (y0, v0))))).
  { etransitivity; [exact H1|]. symmetry. exact H0. }
  split; [exact (f_equal fst H)|exact (f_equal snd H)].
Qed.

Lemma exec_related (Rel : vec * vec -> vec * vec -> Prop) (B B0 : R -> R -> vec * vec -> vec * vec) :
  (forall t h s s0, Rel s s0 -> Rel (B t h s) (B0 t h s0)) ->
  forall l s s0, Rel s s0 -> Rel (exec_substeps B l s) (exec_substeps B0 l s0).
Proof.
  intros HB l. induction l as [|[t h] l IH]; intros s s0 H; [exact H|].
  unfold exec_substeps in *. cbn [fold_left fst snd]. apply IH. now apply HB.
Qed.

Lemma run_sum fn a cpl i j l0 l1 ga gb dist t0 dt x :
  a_coupling_term a = Some cpl -> a_tracking_error a = None -> a_precomputed a = None ->
  a_start_t a < a_goal_t a ->
  a_alpha_y a i = a_alpha_y a j -> a_beta_y a i = a_beta_y a j ->
  distance_spring cpl i j l0 l1 ga gb dist ->
  0 < dt -> 0 < a_int_dt a -> a_start_t a <= t0 ->
  forall k, exists s s0, run_seq (run_step_function fn a) t0 dt x k = Ok s
  /\ run_seq (run_step_function fn (with_coupling None a)) t0 dt x k = Ok s0
  /\ lin i j l1 l0 (fst s) = lin i j l1 l0 (fst s0) /\ lin i j l1 l0 (snd s) = lin i j l1 l0 (snd s0).
Proof.
  intros Hc Hte Hp Ht Hal Hbe Hsp Hdt Hi Ht0.
  pose proof (fun t h s s0 => sum_step fn a cpl i j l0 l1 ga gb dist t h s s0 Hc Hte Hp ltac:(lra) Hal Hbe Hsp) as HS.
  cbv zeta in HS.
  induction k as [|k (s & s0 & E & E0 & L1 & L2)]; [exists x, x; auto|].
  cbn [run_seq]. rewrite E, E0. cbn [bind].
  set (lt := t0 + INR k * dt). set (t := t0 + INR (S k) * dt).
  assert (Hlt : t = lt + dt) by (unfold lt, t; rewrite S_INR; ring).
  assert (Hst : a_start_t a < t) by (unfold t; rewrite S_INR; pose proof (pos_INR k); nra).
  assert (Hrk : let u := dmp_step_rk4 a lt t s in let u0 := dmp_step_rk4 (with_coupling None a) lt t s0 in
    uses_rk4 fn -> lin i j l1 l0 (fst u) = lin i j l1 l0 (fst u0) /\ lin i j l1 l0 (snd u) = lin i j l1 l0 (snd u0)).
  { intros u u0 Hfn. specialize (HS t dt s s0 L1 L2).
    assert (Es : forall a, step1 fn a t dt = dmp_step_rk4 a lt t).
    { intros b. replace lt with (t - dt) by lra. destruct Hfn as [-> | ->]; reflexivity. }
    rewrite !Es in HS. exact HS. }
  cbv zeta in Hrk.
  set (Rel := fun s s0 : vec * vec => lin i j l1 l0 (fst s) = lin i j l1 l0 (fst s0)
                              /\ lin i j l1 l0 (snd s) = lin i j l1 l0 (snd s0)).
  destruct fn; cbn [run_step_function].
  - eexists _, _. split; [reflexivity|]. split; [reflexivity|]. apply Hrk. now left.
  - unfold dmp_step_euler. cbn [with_coupling a_goal_t a_start_t a_int_dt].
    destruct (Rle_dec (a_goal_t a) (a_start_t a)); [lra|]. destruct (Rle_dec t (a_start_t a)); [lra|].
    destruct (substeps_tiles lt t (a_int_dt a) Hi ltac:(lra)) as [l [_ Hl]].
    eexists _, _. split; [apply Hl|]. split; [apply Hl|].
    apply (exec_related Rel); [|split; auto]. intros t' h' u u0 [U1 U2]. exact (HS t' h' u u0 U1 U2).
  - eexists _, _. split; [reflexivity|]. split; [reflexivity|]. rewrite !rk4_cython_eq. apply Hrk. now right.
  - unfold dmp_step_euler_cython. cbn [with_coupling a_goal_t a_start_t a_int_dt].
    destruct (Rle_dec (a_goal_t a) (a_start_t a)); [lra|]. cbv zeta. destruct (Rle_dec t (a_start_t a)); [lra|].
    destruct (substeps_tiles lt t (a_int_dt a) Hi ltac:(lra)) as [l [_ Hl]].
    eexists _, _. split; [apply Hl|]. split; [apply Hl|].
    apply (exec_related Rel); [|split; auto]. intros t' h' u u0 [U1 U2]. exact (HS t' h' u u0 U1 U2).
Qed.

(** In every step of every run, the coupling leaves the sum of the components,
    weighted with the factors of the respective other component, as it is without
    coupling; for step lengths of any kind. *)
Theorem C102_weighted_sum : forall n o fn cpl p k,
  reachable n o -> 0 < o_execution_time o -> 0 < o_dt o -> 0 < o_int_dt o ->
  (pr_i p < n)%nat -> (pr_j p < n)%nat ->
  pair_spring cpl p -> same_gains o p ->
  let run c := n_steps_open_loop c (Some fn) k (p_start_y (o_base o)) (p_start_yd (o_base o)) (dmp_reset o) in
  let sum x := pr_l1 p * aget x (pr_i p) + pr_l0 p * aget x (pr_j p) in
  exists o1 y1 v1 o2 y2 v2, run (Some cpl) = (o1, Ok (y1, v1)) /\ run None = (o2, Ok (y2, v2))
  /\ sum y1 = sum y2 /\ sum v1 = sum v2.
Proof.
  intros n o fn cpl p k Hr Hx Hdt Hi _ _ Hsp [Hal Hbe] run sum.
  destruct (reachable_shapes n o Hr) as [Hsh Hn].
  pose proof Hsh as Hsh'. split_shapes Hsh'.
  destruct (run_sum fn (open_loop_step_args o (Some cpl)) cpl (pr_i p) (pr_j p) (pr_l0 p) (pr_l1 p) (pr_a p)
    (pr_b p) (pr_dist p) 0 (o_dt o) (aget (p_start_y (o_base o)), aget (p_start_yd (o_base o)))) with (k := k)
    as (s & s0 & E & E0 & L1 & L2); auto; try (cbn; lra).
  change (with_coupling None (open_loop_step_args o (Some cpl))) with (open_loop_step_args o None) in E0.
  assert (Hf : forall c u, run_seq (run_step_function fn (open_loop_step_args o c)) 0 (o_dt o)
      (aget (p_start_y (o_base o)), aget (p_start_yd (o_base o))) k = Ok u ->
    exists o1 y1 v1, run c = (o1, Ok (y1, v1)) /\ (aget y1, aget v1) = u).
  { intros c u Hu.
    destruct (n_steps_follow fn c o k (dmp_reset o) (p_start_y (o_base o)) (p_start_yd (o_base o)))
      with (s := u) as (o2 & y2 & yd2 & R1 & R2 & R3); auto; try congruence.
    - unfold same_params; simpl; repeat split.
    - simpl. lra.
    - unfold norm. simpl. destruct (o_initialized o); reflexivity.
    - unfold norm. simpl. destruct (o_initialized o); reflexivity.
    - exists o2, y2, yd2. auto. }
  destruct (Hf _ _ E) as (o1 & y1 & v1 & R1 & R2). destruct (Hf _ _ E0) as (o2 & y2 & v2 & R3 & R4).
  exists o1, y1, v1, o2, y2, v2. split; [exact R1|]. split; [exact R3|].
  rewrite <- R2, <- R4 in L1, L2. unfold lin in L1, L2. cbn [fst snd] in L1, L2. unfold sum. auto.
Qed.

(** A component whose factor is zero leads: it moves as it does without coupling. *)
Theorem C102_leader : forall n o fn cpl p k,
  reachable n o -> 0 < o_execution_time o -> 0 < o_dt o -> 0 < o_int_dt o ->
  (pr_i p < n)%nat -> (pr_j p < n)%nat ->
  pair_spring cpl p -> same_gains o p -> pr_l0 p = 0 -> pr_l1 p <> 0 ->
  let run c := n_steps_open_loop c (Some fn) k (p_start_y (o_base o)) (p_start_yd (o_base o)) (dmp_reset o) in
  exists o1 y1 v1 o2 y2 v2, run (Some cpl) = (o1, Ok (y1, v1)) /\ run None = (o2, Ok (y2, v2))
  /\ aget y1 (pr_i p) = aget y2 (pr_i p) /\ aget v1 (pr_i p) = aget v2 (pr_i p).
Proof.
  intros n o fn cpl p k Hr Hx Hdt Hi Hi' Hj Hsp Hg H0 H1 run.
  destruct (C102_weighted_sum n o fn cpl p k Hr Hx Hdt Hi Hi' Hj Hsp Hg) as
    (o1 & y1 & v1 & o2 & y2 & v2 & R1 & R2 & S1 & S2).
  exists o1, y1, v1, o2, y2, v2. split; [exact R1|]. split; [exact R2|].
  cbv zeta in S1, S2. rewrite H0 in S1, S2. split; apply (Rmult_eq_reg_l (pr_l1 p)); auto; lra.
Qed.

(** *** The compiled Euler integrator *)
(** The displacement at rest depends on the length of the steps. *)
Theorem C102_euler_cython_rest : forall o p,
  0 < o_execution_time o -> 0 < o_dt o -> 0 < o_int_dt o ->
  let tau := o_execution_time o in
  let L := pr_l0 p + pr_l1 p in
  let k := aget (o_alpha_y o) (pr_j p) * aget (o_beta_y o) (pr_j p) in
  let h := Rmin (o_dt o) (o_int_dt o) in
  h * (k + L * pr_b p) + L * pr_a p * tau <> 0 ->
  rest_displacement Euler_cython o p - pr_dist p
  = (goal_displacement o p - pr_dist p) * (h * k / (h * (k + L * pr_b p) + L * pr_a p * tau)).
Proof.
  intros o p Hx Hdt Hi tau L k h HD.
  assert (Hh : 0 < h) by now apply Rmin_pos.
  unfold rest_displacement, goal_pull, coupling_pull, pair_kick, step_part, part, weight_goal, weight_kick, dmp_stiffness.
  cbv zeta. fold h L tau. change (aget (o_alpha_y o) (pr_j p) * aget (o_beta_y o) (pr_j p)) with k.
  assert (Ht : tau <> 0) by (unfold tau; lra).
  field. repeat split; auto; try lra.
  intros HE. apply HD. apply (Rmult_eq_reg_l h); [|lra]. rewrite Rmult_0_r. rewrite <- HE. ring.
Qed.

(** If the state comes close to rest at this displacement, the step length respects
    the limit: from rest elsewhere, with zero weights. *)
Theorem C102_exact : forall n o cpl p,
  reachable n o -> 0 < o_execution_time o -> 0 < o_dt o -> 0 < o_int_dt o ->
  (pr_i p < n)%nat -> (pr_j p < n)%nat ->
  pair_spring cpl p -> same_gains o p -> equal_parts (o_dt o) (o_int_dt o) ->
  0 < pair_damping o p -> 0 < pair_stiffness o p -> 0 <= pair_kick o p ->
  o_smooth_scaling o = false ->
  (forall d m, d = pr_i p \/ d = pr_j p -> (m < ft_n (o_forcing_term o))%nat ->
     ft_weights (o_forcing_term o) d m = 0) ->
  let disp x := aget x (pr_j p) - aget x (pr_i p) in
  disp (p_start_y (o_base o)) <> rest_displacement Euler_cython o p -> disp (p_start_yd (o_base o)) = 0 ->
  (forall eps, 0 < eps -> exists k o' y' yd',
     n_steps_open_loop (Some cpl) (Some Euler_cython) k (p_start_y (o_base o)) (p_start_yd (o_base o)) (dmp_reset o)
       = (o', Ok (y', yd'))
     /\ Rabs (disp y' - rest_displacement Euler_cython o p) < eps /\ Rabs (disp yd') < eps) ->
  let h := Rmin (o_dt o) (o_int_dt o) in
  h ^ 2 * pair_stiffness o p + h * pair_kick o p < 4 - 2 * (h * pair_damping o p).
Proof.
  intros n o cpl p Hr Hx Hdt Hi _ _ Hsp [Hal Hbe] He Hc Hk Hp Hsm Hw disp Hne Hv0 Hsmall h.
  destruct (reachable_shapes n o Hr) as [Hsh Hn].
  pose proof Hsh as Hsh'. split_shapes Hsh'.
  set (a := open_loop_step_args o (Some cpl)).
  set (i := pr_i p) in *. set (j := pr_j p) in *.
  set (x := (aget (p_start_y (o_base o)), aget (p_start_yd (o_base o)))).
  destruct (run_bodies Euler_cython a 0 (o_dt o) x) as (Hh & m & Hm & Hrun); auto; try (cbn; lra).
  change (part Euler_cython (o_dt o) (a_int_dt a)) with h in Hh, Hrun.
  set (r := bodies (step1 Euler_cython a) 0 h x) in *.
  set (tau := o_execution_time o) in *.
  assert (Etau : a_goal_t a - a_start_t a = tau) by (cbn; unfold tau; ring).
  assert (Ht : tau <> 0) by (apply Rgt_not_eq; exact Hx).
  assert (HD : 0 < h ^ 2 * pair_stiffness o p + h * pair_kick o p).
  { apply Rplus_lt_le_0_compat; [apply Rmult_lt_0_compat; auto; now apply pow_lt|apply Rmult_le_pos; lra]. }
  set (X := rest_displacement Euler_cython o p) in *.
  set (k := pair_stiffness o p) in *. set (kick := pair_kick o p) in *. set (c := pair_damping o p) in *.
  set (mm := cconst a i j (pr_b p) (pr_dist p) (-1) 1 (pr_l0 p + pr_l1 p)).
  assert (Ek : cstiff a j (pr_b p) (pr_l0 p + pr_l1 p) = k).
  { unfold cstiff, k, pair_stiffness, dmp_stiffness. rewrite Etau. cbn -[pow]. fold tau j. field. auto. }
  assert (EX : h ^ 2 * mm + h * kick * pr_dist p = (h ^ 2 * k + h * kick) * X).
  { assert (ED : h ^ 2 * k + h * kick = goal_pull Euler_cython o p + coupling_pull Euler_cython o p).
    { unfold goal_pull, coupling_pull, weight_goal, weight_kick. cbv zeta.
      change (step_part Euler_cython o) with h. unfold k, kick, pair_stiffness. fold j. ring. }
    unfold X, rest_displacement. rewrite ED. rewrite ED in HD.
    match goal with |- _ = ?D * (?N / ?D) => replace (D * (N / D)) with N by (field; lra) end.
    unfold goal_pull, coupling_pull, weight_goal, weight_kick. cbv zeta.
    change (step_part Euler_cython o) with h. fold kick j.
    unfold mm, cconst, lin, goal_displacement, dmp_stiffness. rewrite Etau. cbn -[pow]. fold tau i j. field. auto. }
  assert (Hz : forall t, cdist a i j (-1) 1 t = 0).
  { intros t. unfold cdist. cbv zeta. rewrite !no_disturbance; auto; try (intros; apply Hw; auto).
    unfold Rdiv. ring. }
  assert (Hsh2 : euler_shrinks h c (k + kick / h)).
  { assert (Hstep : forall q, (lin i j (-1) 1 (fst (r (S q))), lin i j (-1) 1 (snd (r (S q))))
      = upd a j (pr_dist p) Euler_cython h k mm kick (lin i j (-1) 1 (fst (r q))) (lin i j (-1) 1 (snd (r q))) 0 0).
    { intros q. unfold r. cbn [bodies]. destruct (bodies (step1 Euler_cython a) 0 h x q) as [y v].
      pose proof (step1_lin a cpl i j (pr_l0 p) (pr_l1 p) (pr_a p) (pr_b p) (pr_dist p) eq_refl eq_refl
        (Rgt_not_eq (a_goal_t a) (a_start_t a) Hx) Hal Hbe Hsp Euler_cython (-1) 1 (pr_l0 p + pr_l1 p) (0 + INR (S q) * h) h y v
        (fits_displacement i j (pr_l0 p) (pr_l1 p) (pr_dist p))) as H.
      rewrite Ek, Etau in H. unfold inp, inq in H. rewrite Hz in H. exact H. }
    assert (Hc' : a_alpha_y a j / (a_goal_t a - a_start_t a) = c) by (rewrite Etau; reflexivity).
    apply (euler_must_shrink h c (k + kick / h) (fun q => lin i j (-1) 1 (fst (r q)) - X)
      (fun q => lin i j (-1) 1 (snd (r q)))); try lra.
    - apply Rgt_not_eq. apply Rplus_lt_le_0_compat; auto. apply Rmult_le_pos; auto. left.
      now apply Rinv_0_lt_compat.
    - intros q. pose proof (f_equal snd (Hstep q)) as E. unfold upd in E. cbn [snd] in E. rewrite Hc' in E.
      rewrite E. apply (Rmult_eq_reg_l (h ^ 2)); [|apply pow_nonzero; lra].
      transitivity (h ^ 2 * lin i j (-1) 1 (snd (r q)) + h * ((h ^ 2 * mm + h * kick * pr_dist p)
        - (h ^ 2 * k + h * kick) * lin i j (-1) 1 (fst (r q)) - h ^ 2 * c * lin i j (-1) 1 (snd (r q)))); [ring|].
      rewrite EX. field. lra.
    - intros q. pose proof (f_equal fst (Hstep q)) as E. pose proof (f_equal snd (Hstep q)) as E'.
      unfold upd in E, E'. cbn [fst snd] in E, E'. rewrite E, E'. ring.
    - cbn. unfold lin. intros HE. apply Hne. unfold disp. fold i j. cbn in HE. lra.
    - cbn. unfold lin. unfold disp in Hv0. fold i j in Hv0. cbn. lra.
    - intros eps Heps. destruct (Hsmall eps Heps) as (q & o' & y' & yd' & E & D1 & D2).
      exists (q * m)%nat.
      destruct (n_steps_follow Euler_cython (Some cpl) o q (dmp_reset o) (p_start_y (o_base o)) (p_start_yd (o_base o)))
        with (s := r (q * m)%nat) as (o2 & y2 & yd2 & R1 & R2 & R3); auto; try congruence.
      + unfold same_params; simpl; repeat split.
      + simpl. lra.
      + unfold norm. simpl. destruct (o_initialized o); reflexivity.
      + unfold norm. simpl. destruct (o_initialized o); reflexivity.
      + rewrite E in R1. injection R1 as -> -> ->. rewrite <- R2. cbn [fst snd]. unfold lin.
        unfold disp in D1, D2. fold i j in D1, D2.
        split; [eapply Rle_lt_trans; [|exact D1]|eapply Rle_lt_trans; [|exact D2]]; right; f_equal; ring. }
  apply euler_shrinks_iff in Hsh2; auto.
  - replace (h ^ 2 * (k + kick / h)) with (h ^ 2 * k + h * kick) in Hsh2 by (field; lra). lra.
  - apply Rplus_lt_le_0_compat; auto. apply Rmult_le_pos; auto. left. now apply Rinv_0_lt_compat.
Qed.

(** ** Examples *)
(** A DMP with the default gains, goals 0 and 7, and the default coupling term
    with the desired displacement 1. *)
Definition two (x y : R) : arr := {| alen := 2; aget := fun i => match i with O => x | _ => y end |}.
Definition ex_goals : call := CConfigure {| c_t := None; c_start_y := None; c_start_yd := None;
  c_start_ydd := None; c_goal_y := Some (two 0 7); c_goal_yd := None; c_goal_ydd := None |}.
Definition ex_spring : spring := {| sp_lf0 := 1; sp_lf1 := 1; sp_k := 1; sp_c1 := 100; sp_c2 := 30 |}.
Definition ex_pair : pair :=
  {| pr_i := 0; pr_j := 1; pr_l0 := 1; pr_l1 := 1; pr_a := 100; pr_b := 3000; pr_dist := 1 |}.

Lemma ex_pair_spring : pair_spring (pos1d_coupling ex_spring 1) ex_pair.
Proof.
  unfold pair_spring. cbn [ex_pair pr_i pr_j pr_l0 pr_l1 pr_a pr_b pr_dist].
  pose proof (C102_pos1d ex_spring 1) as H. unfold distance_spring in *. intros y v. cbn. repeat split; ring.
Qed.

Lemma ex_two_dims : exists o, reachable 2 o
  /\ o_execution_time o = 1 /\ o_dt o = 1 / 100 /\ o_int_dt o = 1 / 1000
  /\ (forall d, aget (o_alpha_y o) d = 25) /\ (forall d, aget (o_beta_y o) d = 25 / 4)
  /\ p_goal_y (o_base o) = two 0 7 /\ o_smooth_scaling o = false
  /\ (forall d m, ft_weights (o_forcing_term o) d m = 0)
  /\ (forall d, aget (p_start_y (o_base o)) d = 0) /\ (forall d, aget (p_start_yd (o_base o)) d = 0)
  /\ alen (p_start_y (o_base o)) = 2%nat /\ alen (p_start_yd (o_base o)) = 2%nat.
Proof.
  destruct (ex_new_ok 2 25 (25 / 4)) as (f & o0 & E & Ef & Eo).
  assert (Hr : reachable 2 o0) by (eapply ex_reachable; eauto).
  destruct (reachable_shapes 2 o0 Hr) as [Hsh Hn].
  exists (fst (exec ex_goals o0)).
  split; [now apply reachable_exec|].
  assert (E1 : fst (exec ex_goals o0) = with_base (set_goal_y (two 0 7) (o_base o0)) o0).
  { unfold ex_goals. cbn [exec]. unfold dmp_configure, configure. cbn -[Nat.eqb].
    unfold check_1d_array_length. rewrite Hn. reflexivity. }
  rewrite E1, Eo. cbn -[pow INR].
  repeat split; auto.
  intros d m. unfold forcing_term_init in Ef.
  repeat (destruct (Rle_dec _ _); try discriminate). cbn in Ef. injection Ef as <-. reflexivity.
Qed.

Lemma ex_numbers o : o_execution_time o = 1 ->
  (forall d, aget (o_alpha_y o) d = 25) -> (forall d, aget (o_beta_y o) d = 25 / 4) ->
  p_goal_y (o_base o) = two 0 7 ->
  pair_damping o ex_pair = 25 /\ dmp_stiffness o 1 = 625 / 4 /\ pair_stiffness o ex_pair = 625 / 4 + 6000
  /\ pair_kick o ex_pair = 200 /\ goal_displacement o ex_pair = 7 /\ same_gains o ex_pair.
Proof.
  intros Hx Ha Hb Hg. unfold pair_damping, pair_stiffness, pair_kick, dmp_damping, dmp_stiffness, goal_displacement, same_gains.
  rewrite Hx, Hg. cbn [ex_pair pr_i pr_j pr_l0 pr_l1 pr_a pr_b pr_dist]. rewrite !Ha, !Hb. cbn [two aget].
  repeat split; lra.
Qed.

Lemma ex_shrinks fn o : o_execution_time o = 1 ->
  (forall d, aget (o_alpha_y o) d = 25) -> (forall d, aget (o_beta_y o) d = 25 / 4) ->
  p_goal_y (o_base o) = two 0 7 -> o_dt o = 1 / 100 -> o_int_dt o = 1 / 1000 \/ o_int_dt o = 1 / 500 ->
  parts_equal fn o /\ pair_shrinks fn o ex_pair.
Proof.
  intros Hx Ha Hb Hg Hdt Hi.
  destruct (ex_numbers o Hx Ha Hb Hg) as (E1 & E2 & E3 & E4 & E5 & _).
  assert (Hm : Rmin (o_dt o) (o_int_dt o) = 1 / 1000 \/ Rmin (o_dt o) (o_int_dt o) = 1 / 500).
  { rewrite Hdt. destruct Hi as [-> | ->]; [left|right]; apply Rmin_right; lra. }
  split.
  - intros _. right. rewrite Hdt. destruct Hi as [-> | ->]; [exists 10%nat|exists 5%nat]; simpl; lra.
  - unfold pair_shrinks. cbn [ex_pair pr_j]. change (pr_j ex_pair) with 1%nat. rewrite E1, E2, E3, E4.
    unfold step_part, part. destruct fn.
    + rewrite Hdt. unfold pair_settles, pair_sum, pair_product, weight_kick, rk_a, rk_b, rk_s. cbv zeta.
      split; (split; [lra|apply Rabs_def1; lra]).
    + split; apply C102_limits; destruct Hm as [Em|Em]; try rewrite Em; lra.
    + rewrite Hdt. unfold pair_settles, pair_sum, pair_product, weight_kick, rk_a, rk_b, rk_s. cbv zeta.
      split; (split; [lra|apply Rabs_def1; lra]).
    + split; apply C102_limits; destruct Hm as [Em|Em]; try rewrite Em; lra.
Qed.

Example C102_satisfiable : exists n o cpl p, reachable n o /\ 0 < o_execution_time o /\ 0 < o_dt o /\ 0 < o_int_dt o
  /\ (pr_i p < n)%nat /\ (pr_j p < n)%nat /\ pair_spring cpl p /\ pr_l0 p + pr_l1 p <> 0 /\ same_gains o p
  /\ (forall fn, parts_equal fn o /\ pair_shrinks fn o p
      /\ 0 < goal_pull fn o p /\ 0 < coupling_pull fn o p)
  /\ goal_displacement o p = 7 /\ pr_dist p = 1.
Proof.
  destruct ex_two_dims as (o & Hr & Hx & Hdt & Hi & Ha & Hb & Hg & Hsm & Hw & Hy & Hv & L1 & L2).
  destruct (ex_numbers o Hx Ha Hb Hg) as (E1 & E2 & E3 & E4 & E5 & E6).
  exists 2%nat, o, (pos1d_coupling ex_spring 1), ex_pair.
  repeat (split; [first [exact Hr | lra | (cbn; lia) | apply ex_pair_spring | (cbn; lra) | exact E6]|]).
  split; [|split; [exact E5|reflexivity]].
  intros fn. destruct (ex_shrinks fn o Hx Ha Hb Hg Hdt (or_introl Hi)) as [P1 P2].
  split; [exact P1|]. split; [exact P2|].
  assert (Hm : Rmin (o_dt o) (o_int_dt o) = 1 / 1000) by (rewrite Hdt, Hi; apply Rmin_right; lra).
  apply C102_positive_weights; try (rewrite ?Ha, ?Hb; cbn; lra).
  - intros ->. unfold step_part, part. rewrite Hm, E1. lra.
  - intros [-> | ->]; unfold step_part, part; rewrite Hdt, E1, E3; lra.
Qed.

(** *** What is not true *)
(** The positions at rest depend on the length of the integration steps: the same
    object with [int_dt] 1/1000 and 1/500. *)
Theorem C102_step_length_refuted : exists o o' cpl x x',
  reachable 2 o /\ o' = fst (exec (CSetIntDt (1 / 500)) o) /\ x <> x' /\
  let settles_at o x := forall eps, 0 < eps -> exists N, forall k, (N <= k)%nat -> exists o2 y' yd',
    n_steps_open_loop (Some cpl) (Some Euler_cython) k (two 0 0) (two 0 0) o = (o2, Ok (y', yd'))
    /\ Rabs (aget y' 1%nat - x) < eps in
  settles_at o x /\ settles_at o' x'.
Proof.
  destruct ex_two_dims as (o & Hr & Hx & Hdt & Hi & Ha & Hb & Hg & Hsm & Hw & Hy & Hv & L1 & L2).
  set (o' := fst (exec (CSetIntDt (1 / 500)) o)).
  assert (Hr' : reachable 2 o') by now apply reachable_exec.
  exists o, o', (pos1d_coupling ex_spring 1), (rest_j Euler_cython o ex_pair), (rest_j Euler_cython o' ex_pair).
  split; [exact Hr|]. split; [reflexivity|].
  destruct (ex_numbers o Hx Ha Hb Hg) as (E1 & E2 & E3 & E4 & E5 & E6).
  destruct (ex_numbers o' Hx Ha Hb Hg) as (F1 & F2 & F3 & F4 & F5 & F6).
  split; [|split].
  - unfold rest_j. rewrite E5, F5.
    pose proof (C102_euler_cython_rest o ex_pair ltac:(lra) ltac:(lra) ltac:(lra)) as X1.
    pose proof (C102_euler_cython_rest o' ex_pair) as X2.
    assert (Hm : Rmin (o_dt o) (o_int_dt o) = 1 / 1000) by (rewrite Hdt, Hi; apply Rmin_right; lra).
    assert (Hm' : Rmin (o_dt o') (o_int_dt o') = 1 / 500) by (cbn; rewrite Hdt; apply Rmin_right; lra).
    cbv zeta in X1, X2. rewrite Hm, E5 in X1. rewrite Hm', F5 in X2.
    change (o_execution_time o') with (o_execution_time o) in X2.
    change (o_alpha_y o') with (o_alpha_y o) in X2. change (o_beta_y o') with (o_beta_y o) in X2.
    cbn [ex_pair pr_j pr_l0 pr_l1 pr_a pr_b pr_dist] in X1, X2. rewrite Hx, Ha, Hb in X1, X2.
    specialize (X1 ltac:(lra)).
    specialize (X2 ltac:(lra) ltac:(cbn; lra) ltac:(cbn; lra) ltac:(lra)).
    set (r := rest_displacement Euler_cython o ex_pair) in *.
    set (r' := rest_displacement Euler_cython o' ex_pair) in *.
    change (aget (p_goal_y (o_base o')) (pr_j ex_pair)) with (aget (p_goal_y (o_base o)) (pr_j ex_pair)).
    cbn [ex_pair pr_l0 pr_l1]. intros HE. assert (r = r') by lra. clearbody r r'. lra.
  - intros eps Heps.
    destruct (ex_shrinks Euler_cython o Hx Ha Hb Hg Hdt (or_introl Hi)) as [P1 P2].
    destruct (C102_settles 2 o Euler_cython (pos1d_coupling ex_spring 1) ex_pair (two 0 0) (two 0 0))
      with (eps := eps) as [N HN]; auto using ex_pair_spring; try (cbn; lra).
    exists N. intros k Hk. destruct (HN k Hk) as (o2 & y' & yd' & R & _ & D & _). exists o2, y', yd'. auto.
  - intros eps Heps.
    destruct (ex_shrinks Euler_cython o' Hx Ha Hb Hg Hdt (or_intror eq_refl)) as [P1 P2].
    destruct (C102_settles 2 o' Euler_cython (pos1d_coupling ex_spring 1) ex_pair (two 0 0) (two 0 0))
      with (eps := eps) as [N HN]; auto using ex_pair_spring; try (cbn; lra).
    exists N. intros k Hk. destruct (HN k Hk) as (o2 & y' & yd' & R & _ & D & _). exists o2, y', yd'. auto.
Qed.

(** With the Runge-Kutta integrators, the positions come to rest but the reported
    velocity does not tend to zero. *)
Theorem C102_velocity_refuted : exists o cpl x v,
  reachable 2 o /\ v <> 0 /\
  forall eps, 0 < eps -> exists N, forall k, (N <= k)%nat -> exists o2 y' yd',
    n_steps_open_loop (Some cpl) (Some RK4) k (two 0 0) (two 0 0) o = (o2, Ok (y', yd'))
    /\ Rabs (aget y' 1%nat - x) < eps /\ Rabs (aget yd' 1%nat - v) < eps.
Proof.
  destruct ex_two_dims as (o & Hr & Hx & Hdt & Hi & Ha & Hb & Hg & Hsm & Hw & Hy & Hv & L1 & L2).
  destruct (ex_numbers o Hx Ha Hb Hg) as (E1 & E2 & E3 & E4 & E5 & E6).
  exists o, (pos1d_coupling ex_spring 1), (rest_j RK4 o ex_pair), (1 * rest_velocity RK4 o ex_pair).
  split; [exact Hr|]. split.
  - assert (Hpos : 0 < goal_pull RK4 o ex_pair /\ 0 < coupling_pull RK4 o ex_pair).
    { apply C102_positive_weights; try (rewrite ?Ha, ?Hb; cbn; lra).
      - discriminate.
      - intros _. unfold step_part, part; rewrite Hdt, E1, E3; lra. }
    unfold rest_velocity. cbv zeta. rewrite E1, E3, E5, Hx.
    change (pr_j ex_pair) with 1%nat. rewrite E2.
    set (D := goal_pull RK4 o ex_pair + coupling_pull RK4 o ex_pair) in *.
    assert (HD : 0 < D) by (unfold D; lra). clearbody D.
    unfold step_part, part, left_over, rk_s. rewrite Hdt. cbn [ex_pair pr_a pr_dist].
    apply Rlt_not_eq. rewrite Rmult_1_l. unfold Rdiv at 1.
    assert (HI : 0 < / D) by now apply Rinv_0_lt_compat. nra.
  - intros eps Heps.
    destruct (ex_shrinks RK4 o Hx Ha Hb Hg Hdt (or_introl Hi)) as [P1 P2].
    destruct (C102_settles 2 o RK4 (pos1d_coupling ex_spring 1) ex_pair (two 0 0) (two 0 0))
      with (eps := eps) as [N HN]; auto using ex_pair_spring; try (cbn; lra).
    exists N. intros k Hk. destruct (HN k Hk) as (o2 & y' & yd' & R & _ & D & _ & V). exists o2, y', yd'. auto.
Qed.
