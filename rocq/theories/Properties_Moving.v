(** C133: a DMP follows a goal that is moved before every step.  Final statements. *)
From Coq Require Import Reals ZArith List Lia Lra Psatz FunctionalExtensionality.
From Verif Require Import M_Prelude M_Canonical M_Forcing M_Dmp M_Base M_DmpObject
  S_Loops S_Dmp S_Stability P_Loops P_Canonical P_Forcing P_DmpStep P_DmpScale P_DmpLinear P_Converge
  P_DmpObject P_Disturbed P_Stability P_Bounded P_DisturbedAll P_Moving Properties_Forcing Properties_Dmp
  Properties_DmpObject Properties_DmpState Properties_Goal Properties_Stability Properties_Robust
  Properties_RobustAll.
Import ListNotations.
Open Scope R_scope.
Set Bullet Behavior "Strict Subproofs".

(** ** Specification *)
(** The call [configure(goal_y=g)]. *)
Definition goal_only (g : arr) : configure_args :=
  {| c_t := None; c_start_y := None; c_start_yd := None; c_start_ydd := None;
     c_goal_y := Some g; c_goal_yd := None; c_goal_ydd := None |}.

(** [k] rounds of: give the DMP its new goal, make a step from the last state that
    was returned (the first step begins at [y], [yd]). *)
Fixpoint chase (fn : step_function) (goals : nat -> arr) (k : nat) (y yd : arr) (o : dmp)
  : dmp * res (arr * arr) :=
  match k with
  | O => (o, Ok (y, yd))
  | S k =>
      match chase fn goals k y yd o with
      | (o, Ok (y, yd)) =>
          match dmp_configure (goal_only (goals k)) o with
          | (o, Ok _) => dmp_step y yd None (Some fn) o
          | (o, Err e) => (o, Err e)
          end
      | (o, Err e) => (o, Err e)
      end
  end.

(** From some round on the goal moves by at most [D] (and a little) per step. *)
Definition slow (goals : nat -> arr) (d : nat) (D : R) : Prop :=
  forall eps, 0 < eps -> exists N, forall k, (N <= k)%nat ->
    Rabs (aget (goals (S k)) d - aget (goals k) d) <= D + eps.

Definition bounded_goals (goals : nat -> arr) (d : nat) : Prop :=
  exists B, forall k, Rabs (aget (goals k) d) <= B.

(** ** Proofs *)
Definition goal_to (g : arr) (o : dmp) : dmp := with_base (set_goal_y g (o_base o)) o.

Lemma configure_goal g o : alen g = p_n_dims (o_base o) ->
  dmp_configure (goal_only g) o = (goal_to g o, Ok tt).
Proof.
  intros Lg. unfold dmp_configure, configure. cbn -[Nat.eqb].
  unfold check_1d_array_length. rewrite Lg, Nat.eqb_refl. reflexivity.
Qed.

Lemma goal_to_shapes g o : shapes_ok o -> alen g = p_n_dims (o_base o) -> shapes_ok (goal_to g o).
Proof. unfold shapes_ok, goal_to. cbn. intuition. Qed.

Lemma goal_to_params g g' o o' : same_params (goal_to g o) o' -> same_params (goal_to g' o) (goal_to g' o').
Proof. unfold same_params, goal_to. cbn. intuition congruence. Qed.

Lemma chase_info fn goals o y yd : shapes_ok o -> running o ->
  alen y = p_n_dims (o_base o) -> alen yd = p_n_dims (o_base o) ->
  (forall k, alen (goals k) = p_n_dims (o_base o)) ->
  forall k, exists ok, chase fn goals (S k) y yd o = (ok, Ok (p_current_y (o_base ok), p_current_yd (o_base ok)))
    /\ same_params (goal_to (goals k) o) ok /\ shapes_ok ok
    /\ p_t (o_base ok) = p_t (o_base o) + INR (S k) * o_dt o /\ o_initialized ok = true.
Proof.
  intros Hsh Hr Ly Lyd Lg.
  assert (Hone : forall k ob y1 yd1, chase fn goals k y yd o = (ob, Ok (y1, yd1)) ->
    alen y1 = p_n_dims (o_base o) -> alen yd1 = p_n_dims (o_base o) ->
    same_params (goal_to (goals k) o) (goal_to (goals k) ob) -> shapes_ok ob ->
    p_t (o_base ob) = p_t (o_base o) + INR k * o_dt o ->
    exists ok, chase fn goals (S k) y yd o = (ok, Ok (p_current_y (o_base ok), p_current_yd (o_base ok)))
    /\ same_params (goal_to (goals k) o) ok /\ shapes_ok ok
    /\ p_t (o_base ok) = p_t (o_base o) + INR (S k) * o_dt o /\ o_initialized ok = true).
  { intros k ob y1 yd1 E L1 L2 P S1 T1.
    assert (En : p_n_dims (o_base ob) = p_n_dims (o_base o)) by apply P.
    assert (Edt : o_dt ob = o_dt o) by apply P.
    assert (Lk : alen (goals k) = p_n_dims (o_base ob)) by (rewrite En; apply Lg).
    cbn [chase]. rewrite E, configure_goal by exact Lk.
    assert (Hrun : running (goal_to (goals k) ob)) by (apply (running_same (goal_to (goals k) o)); auto).
    destruct (step_total_coupled fn (goal_to (goals k) ob) y1 yd1 None
      (goal_to_shapes _ _ S1 Lk) Hrun) as (s & _ & P2 & S2 & T2 & I2 & R2 & _); cbn; try congruence.
    exists (fst (dmp_step y1 yd1 None (Some fn) (goal_to (goals k) ob))).
    split. { rewrite <- R2. apply surjective_pairing. }
    split; [eapply same_params_trans; eauto|]. split; [exact S2|]. split; [|exact I2].
    etransitivity; [exact T2|].
    change (o_dt (goal_to (goals k) ob)) with (o_dt ob).
    change (p_t (o_base (goal_to (goals k) ob))) with (p_t (o_base ob)).
    rewrite Edt, T1.
    match goal with |- _ = _ + ?x * _ => change x with (INR (S k)) end. rewrite S_INR. ring. }
  induction k as [|k IH].
  - apply (Hone 0%nat o y yd); auto.
    + apply same_params_refl.
    + cbn. ring.
  - destruct IH as (ok & E & P & S1 & T1 & I1).
    assert (En : p_n_dims (o_base ok) = p_n_dims (o_base o)) by apply P.
    apply (Hone (S k) ok _ _ E); auto.
    + rewrite <- En. unfold shapes_ok in S1. tauto.
    + rewrite <- En. unfold shapes_ok in S1. tauto.
    + eapply goal_to_params; eauto.
Qed.

Lemma moving_bound o goals d : (0 < ft_n (o_forcing_term o))%nat ->
  o_smooth_scaling o = false \/ bounded_goals goals d ->
  exists M, 0 <= M /\ forall k o' c te z, same_params (goal_to (goals k) o) o' -> 0 <= z ->
    Rabs (disturbance (step_args (tick o') c te) z d) <= M * z.
Proof.
  intros Hn Hg.
  destruct (finite_bound (ft_n (o_forcing_term o)) (ft_weights (o_forcing_term o) d)) as [M [HM0 HM]].
  set (ab := Rabs (aget (o_alpha_y o) d * aget (o_beta_y o) d)).
  assert (Hab : 0 <= ab) by apply Rabs_pos.
  assert (HB : exists B, 0 <= B /\ (o_smooth_scaling o = false
             \/ forall k, Rabs (aget (goals k) d - aget (p_start_y (o_base o)) d) <= B)).
  { destruct Hg as [Hg|[B HB]].
    - exists 0. split; [lra|auto].
    - exists (B + Rabs (aget (p_start_y (o_base o)) d)).
      pose proof (Rabs_pos (aget (goals 0%nat) d)). pose proof (HB 0%nat).
      pose proof (Rabs_pos (aget (p_start_y (o_base o)) d)).
      split; [lra|]. right. intros k. specialize (HB k).
      unfold Rminus.
      eapply Rle_trans; [apply Rabs_triang|]. rewrite Rabs_Ropp. lra. }
  destruct HB as (B & HB0 & HB).
  exists (M + ab * B). split; [nra|].
  intros k o' c te z (Q1 & Q2 & Q3 & Q4 & Q5 & Q6 & Q7 & Q8 & Q9 & Q10 & Q11 & Q12 & Q13 & Q14 & Q15 & Q16 & Q17) Hz.
  unfold disturbance. cbn. rewrite Q6, Q7, Q8, Q9, Q12, Q15. cbn.
  pose proof (ft_forces_bound (o_forcing_term o) z d M Hn HM) as HF.
  rewrite (Rabs_pos_eq z) in HF by auto.
  assert (HABz : 0 <= ab * B * z) by (apply Rmult_le_pos; nra).
  destruct (o_smooth_scaling o).
  - destruct HB as [HB|HB]; [discriminate|]. specialize (HB k).
    unfold Rminus at 1. eapply Rle_trans; [apply Rabs_triang|].
    rewrite Rabs_Ropp, 2 Rabs_mult. fold ab. rewrite (Rabs_pos_eq z) by auto.
    assert (ab * Rabs (aget (goals k) d - aget (p_start_y (o_base o)) d) * z <= ab * B * z).
    { apply Rmult_le_compat_r; auto. apply Rmult_le_compat_l; auto. }
    nra.
  - rewrite Rminus_0_r. nra.
Qed.

(** The states after [S k0], [S (S k0)], ... rounds, as a run of the step function. *)
Lemma chase_states fn o goals d y yd :
  phase_ok (o_forcing_term o) -> shapes_ok o -> running o ->
  alen y = p_n_dims (o_base o) -> alen yd = p_n_dims (o_base o) -> (forall k, alen (goals k) = p_n_dims (o_base o)) ->
  o_smooth_scaling o = false \/ bounded_goals goals d ->
  exists k0 MM t0 a s, 0 <= MM /\ 0 <= t0
  /\ moving_args a d (o_forcing_term o) (fun k => aget (goals (S (k0 + k))) d) (aget (o_alpha_y o) d)
       (aget (o_beta_y o) d) (o_execution_time o) MM
  /\ (forall k, a_int_dt (a k) = o_int_dt o)
  /\ (forall k, run_step_function fn (a k) (t0 + INR k * o_dt o) (t0 + INR (S k) * o_dt o) (s k) = Ok (s (S k)))
  /\ forall k, exists o' y' yd', chase fn goals (S (k0 + k)) y yd o = (o', Ok (y', yd')) /\ s k = (aget y', aget yd').
Proof.
  intros Hph Hsh Hrun Ly Lyd Lg' Hsm.
  pose proof (chase_info fn goals o y yd Hsh Hrun Ly Lyd Lg') as Hinfo.
  destruct (moving_bound o goals d (proj1 Hph) Hsm) as (MM & HM0 & HM).
  destruct (clock_steps (p_t (o_base o)) (o_dt o)) as [k0 Hk0]; [apply Hrun|].
  set (dt := o_dt o).
  (* The states after S k0, S (S k0), ... rounds. *)
  set (ob := fun k => fst (chase fn goals (S (k0 + k)) y yd o)).
  set (s := fun k => (aget (p_current_y (o_base (ob k))), aget (p_current_yd (o_base (ob k))))).
  set (g := fun k => aget (goals (S (k0 + k))) d).
  set (te := fun k => vsub (aget (p_current_y (o_base (ob k)))) (aget (p_current_y (o_base (ob k))))).
  set (a := fun k => step_args (tick (goal_to (goals (S (k0 + k))) (ob k))) None (te k)).
  set (t0 := p_t (o_base o) + INR (S k0) * o_dt o).
  assert (Hob : forall k, chase fn goals (S (k0 + k)) y yd o
      = (ob k, Ok (p_current_y (o_base (ob k)), p_current_yd (o_base (ob k))))
    /\ same_params (goal_to (goals (k0 + k)%nat) o) (ob k) /\ shapes_ok (ob k)
    /\ p_t (o_base (ob k)) = t0 + INR k * o_dt o /\ o_initialized (ob k) = true).
  { intros k. destruct (Hinfo (k0 + k)%nat) as (ok & E & P & S1 & T & I1).
    assert (Eo : ob k = ok) by (unfold ob; rewrite E; reflexivity).
    rewrite Eo. split; [exact E|]. split; [exact P|]. split; [exact S1|]. split; [|exact I1].
    rewrite T. unfold t0. rewrite !S_INR, plus_INR. ring. }
  assert (HPg : forall k, same_params (goal_to (goals (S (k0 + k))) o) (goal_to (goals (S (k0 + k))) (ob k))).
  { intros k. eapply goal_to_params. apply Hob. }
  assert (Hstep : forall k,
     run_step_function fn (a k) (t0 + INR k * dt) (t0 + INR (S k) * dt) (s k) = Ok (s (S k))).
  { intros k. destruct (Hob k) as (E & P & S1 & T & I1).
    assert (En : p_n_dims (o_base (ob k)) = p_n_dims (o_base o)) by apply P.
    assert (Edt : o_dt (ob k) = dt) by apply P.
    assert (Lk : alen (goals (S (k0 + k))) = p_n_dims (o_base (ob k))) by (rewrite En; apply Lg').
    set (og := goal_to (goals (S (k0 + k))) (ob k)).
    assert (Hrg : running og) by exact (running_same _ _ (HPg k) Hrun).
    destruct (step_total_coupled fn og (p_current_y (o_base (ob k))) (p_current_yd (o_base (ob k))) None
      (goal_to_shapes _ _ S1 Lk) Hrg) as (s' & E' & _ & _ & _ & _ & R & Es).
    { unfold shapes_ok in S1. cbn. tauto. } { unfold shapes_ok in S1. cbn. tauto. }
    rewrite norm_id in E' by exact I1.
    change (p_current_y (o_base og)) with (p_current_y (o_base (ob k))) in E'.
    change (p_current_yd (o_base og)) with (p_current_yd (o_base (ob k))) in E'.
    change (p_t (o_base og)) with (p_t (o_base (ob k))) in E'.
    change (o_dt og) with (o_dt (ob k)) in E'.
    fold (te k) in E'. fold (s k) in E'. change (step_args (tick og) None (te k)) with (a k) in E'.
    rewrite T, Edt in E'. fold dt in E'.
    replace (t0 + INR (S k) * dt) with (t0 + INR k * dt + dt) by (rewrite S_INR; ring).
    rewrite E'.
    assert (Eo : fst (dmp_step (p_current_y (o_base (ob k))) (p_current_yd (o_base (ob k))) None (Some fn) og)
                 = ob (S k)).
    { unfold ob at 3. replace (k0 + S k)%nat with (S (k0 + k)) by lia.
      change (chase fn goals (S (S (k0 + k))) y yd o) with
        (match chase fn goals (S (k0 + k)) y yd o with
         | (o, Ok (y, yd)) =>
          match dmp_configure (goal_only (goals (S (k0 + k)))) o with
          | (o, Ok _) => dmp_step y yd None (Some fn) o
          | (o, Err e) => (o, Err e)
          end
         | (o, Err e) => (o, Err e) end).
      rewrite E, configure_goal by exact Lk. reflexivity. }
    rewrite Eo in Es. now rewrite Es. }
  assert (HA : moving_args a d (o_forcing_term o) g (aget (o_alpha_y o) d) (aget (o_beta_y o) d) (o_execution_time o) MM).
  { split; intros k; cbn; pose proof (HPg k) as P;
      destruct P as (Q1 & Q2 & Q3 & Q4 & Q5 & Q6 & Q7 & Q8 & Q9 & Q10 & Q11 & Q12 & Q13 & Q14 & Q15 & Q16 & Q17);
      cbn in *; try congruence.
    - reflexivity.
    - intros z Hz. unfold a. apply (HM (S (k0 + k))); auto.
    - unfold te, vsub. ring. }
  exists k0, MM, t0, a, s. split; [exact HM0|]. split; [exact Hk0|]. split; [exact HA|].
  split; [intros k; cbn; apply (HPg k)|]. split; [exact Hstep|].
  intros k. exists (ob k), (p_current_y (o_base (ob k))), (p_current_yd (o_base (ob k))).
  split; [apply Hob|reflexivity].
Qed.

(** The state of the movement does not have to be reachable. *)
Lemma bounded_lag : forall fn o0 d,
  0 < o_execution_time o0 -> 0 < o_dt o0 -> 0 < o_int_dt o0 -> steps_shrink fn o0 d ->
  exists K, 0 <= K /\ forall o goals y yd D,
  phase_ok (o_forcing_term o) -> shapes_ok o -> tuned_like o0 d o -> 0 <= D ->
  alen y = p_n_dims (o_base o) -> alen yd = p_n_dims (o_base o) -> (forall k, alen (goals k) = p_n_dims (o_base o)) ->
  slow goals d D -> o_smooth_scaling o = false \/ bounded_goals goals d ->
  forall eps, 0 < eps -> exists N, forall k, (N <= k)%nat ->
  exists o' y' yd', chase fn goals (S k) y yd o = (o', Ok (y', yd'))
    /\ Rabs (aget y' d - aget (goals k) d) <= K * D + eps
    /\ Rabs (aget yd' d) <= K * D + eps.
Proof.
  intros fn o0 d Hx Hdt Hi Hst.
  set (al := aget (o_alpha_y o0) d). set (be := aget (o_beta_y o0) d).
  set (tau := o_execution_time o0) in *. set (dt := o_dt o0) in *. set (int_dt := o_int_dt o0) in *.
  assert (Hfn : uses_rk4 fn \/ uses_euler fn) by (destruct fn; unfold uses_rk4, uses_euler; auto).
  assert (Hcore : exists K, 0 <= K /\ forall a d f g D M t0 s,
    moving_args a d f g al be tau M -> (forall k, a_int_dt (a k) = int_dt) ->
    phase_ok f -> 0 <= D -> 0 <= M -> 0 <= t0 -> eventually_below (fun k => g k - g (S k)) D ->
    (forall k, run_step_function fn (a k) (t0 + INR k * dt) (t0 + INR (S k) * dt) (s k) = Ok (s (S k))) ->
    eventually_below (fun k => fst (s k) d - g k) (K * D)
    /\ eventually_below (fun k => snd (s k) d) (K * D)).
  { destruct Hfn as [Hfn|Hfn].
    - assert (Hsh : rk4_shrinks dt (al / tau) (al * be / tau ^ 2)) by (destruct Hfn as [-> | ->]; exact Hst).
      destruct (rk4_moving_run dt al be tau Hdt Hx Hsh) as (K & HK & H).
      exists K. split; auto. intros a d' f g D M t0 s A _ Hph HD HM _ Hg Hs.
      apply (H a d' f g D M t0 s A Hph HD HM Hg). intros k. specialize (Hs k).
      destruct Hfn as [-> | ->]; cbn [run_step_function] in Hs.
      + now injection Hs.
      + rewrite rk4_cython_eq in Hs. now injection Hs.
    - assert (Hsh : equal_parts dt int_dt /\ euler_shrinks (Rmin dt int_dt) (al / tau) (al * be / tau ^ 2))
        by (destruct Hfn as [-> | ->]; exact Hst).
      destruct Hsh as [Hep Hsh].
      destruct (euler_moving_run dt int_dt (Rmin dt int_dt) al be tau Hdt Hi Hx
        (parts_length _ _ Hdt Hi Hep) Hsh) as (K & HK & H).
      exists K. split; auto. intros a d' f g D M t0 s A Hint Hph HD HM Ht0 Hg Hs.
      apply (H fn a d' f g D M t0 s Hfn A Hint Hph HD HM Ht0 Hg Hs). }
  destruct Hcore as (K & HK & H). exists (K + 1). split; [lra|].
  intros o goals y yd D Hph Hsh (T1 & T2 & T3 & T4 & T5 & T6) HD Ly Lyd Lg' Hslow Hsm.
  assert (Hrun : running o) by (unfold running; rewrite T1, T2, T3; auto).
  destruct (chase_states fn o goals d y yd Hph Hsh Hrun Ly Lyd Lg' Hsm)
    as (k0 & MM & t0 & a & s & HM0 & Ht0 & HA & Hint & Hstep & Hret).
  rewrite T1, T4, T5 in HA. rewrite T2 in Hstep. rewrite T3 in Hint.
  set (g := fun k => aget (goals (S (k0 + k))) d) in *.
  assert (Hg : eventually_below (fun k => g k - g (S k)) D).
  { intros e He. destruct (Hslow e He) as [N HN]. exists N. intros k Hk. unfold g.
    rewrite Rabs_minus_sym. replace (k0 + S k)%nat with (S (k0 + k)) by lia. apply HN. lia. }
  destruct (H a d _ g D MM t0 s HA) as [HE1 HE2]; auto.
  intros eps He.
  destruct (HE1 (eps / 2) ltac:(lra)) as [N1 HN1]. destruct (HE2 eps He) as [N2 HN2].
  destruct (Hslow (eps / 2) ltac:(lra)) as [N3 HN3].
  exists (k0 + N1 + N2 + N3)%nat. intros k Hk.
  set (j := (k - k0)%nat). assert (Ek : k = (k0 + j)%nat) by (unfold j; lia).
  destruct (Hret j) as (o' & y' & yd' & E & Es). exists o', y', yd'.
  rewrite Ek. split; [exact E|].
  specialize (HN1 j ltac:(unfold j; lia)). specialize (HN2 j ltac:(unfold j; lia)).
  specialize (HN3 (k0 + j)%nat ltac:(lia)).
  unfold g in HN1, HN2. rewrite Es in HN1, HN2. cbn [fst snd] in HN1, HN2. split.
  - replace (aget y' d - aget (goals (k0 + j)%nat) d) with
      ((aget y' d - aget (goals (S (k0 + j))) d)
       + (aget (goals (S (k0 + j))) d - aget (goals (k0 + j)%nat) d)) by ring.
    eapply Rle_trans; [apply Rabs_triang|]. lra.
  - lra.
Qed.

(** ** C133 *)
(** The number [K] depends on the integrator, the gains and the step lengths only. *)
Theorem C133_bounded_lag : forall fn o0 d,
  0 < o_execution_time o0 -> 0 < o_dt o0 -> 0 < o_int_dt o0 -> steps_shrink fn o0 d ->
  exists K, 0 <= K /\ forall n o goals y yd D,
  reachable n o -> tuned_like o0 d o -> 0 <= D ->
  alen y = n -> alen yd = n -> (forall k, alen (goals k) = n) ->
  slow goals d D -> o_smooth_scaling o = false \/ bounded_goals goals d ->
  forall eps, 0 < eps -> exists N, forall k, (N <= k)%nat ->
  exists o' y' yd', chase fn goals (S k) y yd o = (o', Ok (y', yd'))
    /\ Rabs (aget y' d - aget (goals k) d) <= K * D + eps
    /\ Rabs (aget yd' d) <= K * D + eps.
Proof.
  intros fn o0 d Hx Hdt Hi Hst. destruct (bounded_lag fn o0 d Hx Hdt Hi Hst) as (K & HK & H).
  exists K. split; [exact HK|]. intros n o goals y yd D Hreach. intros.
  destruct (reachable_shapes n o Hreach) as [Hsh Hn].
  apply H; auto; try (intros; rewrite Hn; auto; fail). now apply (reachable_phase_ok n).
Qed.

(** A goal that comes to rest, however slowly and whether or not it converges, is
    followed ever more closely. *)
Corollary C133_settling_goal : forall fn n o d goals y yd,
  reachable n o -> 0 < o_execution_time o -> 0 < o_dt o -> 0 < o_int_dt o -> steps_shrink fn o d ->
  alen y = n -> alen yd = n -> (forall k, alen (goals k) = n) ->
  slow goals d 0 -> o_smooth_scaling o = false \/ bounded_goals goals d ->
  forall eps, 0 < eps -> exists N, forall k, (N <= k)%nat ->
  exists o' y' yd', chase fn goals (S k) y yd o = (o', Ok (y', yd'))
    /\ Rabs (aget y' d - aget (goals k) d) <= eps /\ Rabs (aget yd' d) <= eps.
Proof.
  intros fn n o d goals y yd Hr Hx Hdt Hi Hst Ly Lyd Lg Hs Hsm eps He.
  destruct (C133_bounded_lag fn o d Hx Hdt Hi Hst) as (K & HK & H).
  assert (HT : tuned_like o d o) by (unfold tuned_like; repeat split).
  destruct (H n o goals y yd 0 Hr HT ltac:(lra) Ly Lyd Lg Hs Hsm eps He) as [N HN].
  exists N. intros k Hk. destruct (HN k Hk) as (o' & y' & yd' & E & E1 & E2).
  exists o', y', yd'. split; [exact E|]. lra.
Qed.

(** An overdamped DMP and a goal that moves by 1/10 in every step, forever; and a
    goal that swings between 1 and -1. *)
Example C133_satisfiable : exists o, reachable 1 o /\ 0 < o_execution_time o /\ 0 < o_dt o /\ 0 < o_int_dt o
  /\ steps_shrink RK4 o 0 /\ steps_shrink Euler_cython o 0 /\ tuned_like o 0 o
  /\ o_smooth_scaling o = false
  /\ (let goals := fun k => one (INR k / 10) in
      (forall k, alen (goals k) = 1%nat) /\ slow goals 0 (1/10) /\ ~ bounded_goals goals 0)
  /\ (let goals := fun k => one (if Nat.even k then 1 else -1) in
      (forall k, alen (goals k) = 1%nat) /\ slow goals 0 2 /\ bounded_goals goals 0).
Proof.
  destruct (ex_new_ok 1 25 4) as (f & o & E & Ef & Eo).
  assert (Hr : reachable 1 o) by (eapply ex_reachable; eauto).
  exists o. split; [exact Hr|].
  split; [rewrite Eo; cbn; lra|]. split; [rewrite Eo; cbn; lra|]. split; [rewrite Eo; cbn; lra|].
  assert (Ec : dmp_damping o 0 = 25) by (rewrite Eo; unfold dmp_damping; cbn; field).
  assert (Ek : dmp_stiffness o 0 = 25 * 4) by (rewrite Eo; unfold dmp_stiffness; cbn; field).
  assert (Edt : o_dt o = 1/100) by (rewrite Eo; reflexivity).
  assert (Edi : o_int_dt o = 1/1000) by (rewrite Eo; reflexivity).
  assert (Hp : equal_parts (1/100) (1/1000)) by (right; exists 10%nat; simpl; lra).
  destruct C100_overdamped as [H1 H2].
  split. { unfold steps_shrink. cbv zeta. rewrite Ec, Ek, Edt. exact H1. }
  split. { unfold steps_shrink. cbv zeta. rewrite Ec, Ek, Edt, Edi. rewrite (Rmin_right (1/100) (1/1000)) by lra. auto. }
  split. { unfold tuned_like. repeat split. }
  split. { rewrite Eo. reflexivity. }
  split; cbv zeta.
  - split; [reflexivity|]. split.
    + intros e He. exists 0%nat. intros k _. unfold one. cbn [aget]. rewrite S_INR.
      rewrite Rabs_pos_eq; lra.
    + intros [B HB]. destruct (archimed (10 * B)) as [Ha _].
      specialize (HB (Z.to_nat (up (10 * B)))). unfold one in HB. cbn [aget] in HB.
      assert (0 <= B) by (eapply Rle_trans; [apply Rabs_pos|exact HB]).
      rewrite INR_IZR_INZ, Z2Nat.id in HB by (apply le_IZR; lra).
      rewrite Rabs_pos_eq in HB; lra.
  - split; [reflexivity|]. split.
    + intros e He. exists 0%nat. intros k _. unfold one. cbn [aget].
      destruct (Nat.even (S k)), (Nat.even k); apply Rabs_le; lra.
    + exists 1. intros k. unfold one. cbn [aget]. destruct (Nat.even k); apply Rabs_le; lra.
Qed.
