(** C92: whatever happened before, a DMP reaches its current goal.
    Final statements. *)
From Coq Require Import Reals ZArith List Lia Lra Psatz FunctionalExtensionality.
From Verif Require Import M_Prelude M_Canonical M_Forcing M_Dmp M_Base M_DmpObject
  S_Loops S_Dmp P_Loops P_Canonical P_Forcing P_DmpStep P_DmpScale P_DmpLinear P_Converge
  P_DmpObject Properties_Forcing Properties_Dmp Properties_DmpObject Properties_DmpState.
Import ListNotations.
Open Scope R_scope.
Set Bullet Behavior "Strict Subproofs".

(** ** Specification *)
(** Dimension [d] is critically damped and the step length is small enough for
    the integrator: for RK4, |R(-x)| < 1 for its growth factor R, and for Euler
    sub-steps of length [int_dt]. *)
Definition stable (fn : step_function) (o : dmp) (d : nat) : Prop :=
  let alpha := aget (o_alpha_y o) d in
  alpha = 4 * aget (o_beta_y o) d /\ 0 < alpha
  /\ (uses_rk4 fn -> let x := alpha * o_dt o / (2 * o_execution_time o) in
                     x ^ 3 - 4 * x ^ 2 + 12 * x - 24 < 0)
  /\ (uses_euler fn -> alpha * o_int_dt o <= o_execution_time o).

(** ** Proofs *)
Definition running (o : dmp) : Prop := 0 < o_execution_time o /\ 0 < o_dt o /\ 0 < o_int_dt o.

Lemma running_same o o' : same_params o o' -> running o -> running o'.
Proof.
  intros (E1 & E2 & _ & E4 & _) (H1 & H2 & H3). unfold running. now rewrite E1, E2, E4.
Qed.

Lemma step_total_c c fn o y yd : shapes_ok o -> running o ->
  alen y = p_n_dims (o_base o) -> alen yd = p_n_dims (o_base o) ->
  exists o1 y1 yd1, dmp_step y yd c (Some fn) o = (o1, Ok (y1, yd1))
    /\ same_params o o1 /\ shapes_ok o1 /\ p_t (o_base o1) = p_t (o_base o) + o_dt o
    /\ o_initialized o1 = true
    /\ p_current_y (o_base o1) = y1 /\ p_current_yd (o_base o1) = yd1
    /\ alen y1 = p_n_dims (o_base o) /\ alen yd1 = p_n_dims (o_base o).
Proof.
  intros Hsh (Hx & Hdt & Hi) Hy Hyd.
  pose proof (step_shapes y yd c (Some fn) o Hsh) as [Hsh1 Hn1].
  rewrite dmp_step_eq in * by auto. cbv zeta in *.
  destruct (norm_params o) as (Q1 & Q2 & Q3 & Q4 & Q5 & Q6 & Q7 & Q8 & Q9 & Q10 & Q11 & Q12 & Q13 & Q14
                    & Q15 & Q16 & Q17).
  set (a := step_args (tick (norm o)) c _) in *.
  assert (HT : forall s, exists s', run_step_function fn a (p_t (o_base o)) (p_t (o_base o) + o_dt o) s
                                  = Ok s').
  { intros s. destruct fn; cbn [run_step_function]; eauto.
    - unfold dmp_step_euler.
      destruct (Rle_dec (a_goal_t a) (a_start_t a)) as [H|]; [cbn in H; lra|].
      destruct (Rle_dec _ (a_start_t a)); eauto.
      destruct (substeps_tiles (p_t (o_base o)) (p_t (o_base o) + o_dt o) (a_int_dt a)) as [l [_ Hl]];
        [cbn; lra|lra|]. eexists. apply Hl.
    - unfold dmp_step_euler_cython.
      destruct (Rle_dec (a_goal_t a) (a_start_t a)) as [H|]; [cbn in H; lra|].
      destruct (substeps_tiles (p_t (o_base o)) (p_t (o_base o) + o_dt o) (a_int_dt a)) as [l [_ Hl]];
        [cbn; lra|lra|]. eexists. apply Hl. }
  match goal with |- context [run_step_function fn a ?u ?v ?s] => destruct (HT s) as [[y1 yd1] E] end.
  rewrite E in *. cbn [fst] in Hsh1, Hn1.
  eexists _, _, _. split; [reflexivity|].
  split. { apply (same_params_trans _ (norm o)); [apply norm_params|].
           unfold same_params; cbn; repeat split. }
  split; [exact Hsh1|].
  split. { cbn. rewrite Q2. unfold norm. destruct (o_initialized o); reflexivity. }
  split. { cbn. apply norm_initialized. }
  split; [reflexivity|]. split; [reflexivity|].
  split_shapes Hsh1. cbn in H7, H8. cbn. split; congruence.
Qed.

Lemma n_steps_total_c c fn : forall k o y yd, shapes_ok o -> running o ->
  alen y = p_n_dims (o_base o) -> alen yd = p_n_dims (o_base o) ->
  exists o1 y1 yd1, n_steps_open_loop c (Some fn) (S k) y yd o = (o1, Ok (y1, yd1))
    /\ same_params o o1 /\ shapes_ok o1 /\ p_t (o_base o1) = p_t (o_base o) + INR (S k) * o_dt o
    /\ o_initialized o1 = true
    /\ p_current_y (o_base o1) = y1 /\ p_current_yd (o_base o1) = yd1
    /\ alen y1 = p_n_dims (o_base o) /\ alen yd1 = p_n_dims (o_base o).
Proof.
  induction k as [|k IH]; intros o y yd Hsh Hr Hy Hyd;
    destruct (step_total_c c fn o y yd Hsh Hr Hy Hyd)
      as (o1 & y1 & yd1 & E & P & S1 & T1 & I1 & C1 & D1 & L1 & M1).
  - exists o1, y1, yd1. cbn [n_steps_open_loop]. rewrite E. split; [reflexivity|].
    repeat (split; auto). rewrite T1. simpl. ring.
  - pose proof (proj1 (proj2 P)) as Edt.
    assert (En : p_n_dims (o_base o1) = p_n_dims (o_base o)) by apply P.
    destruct (IH o1 y1 yd1 S1 (running_same _ _ P Hr)) as
      (o2 & y2 & yd2 & E2 & P2 & S2 & T2 & I2 & C2 & D2 & L2 & M2); try congruence.
    exists o2, y2, yd2.
    change (n_steps_open_loop c (Some fn) (S (S k)) y yd o)
      with (match dmp_step y yd c (Some fn) o with
            | (o, Err e) => (o, Err e)
            | (o, Ok (y, yd)) => n_steps_open_loop c (Some fn) (S k) y yd o end).
    rewrite E. split; [exact E2|]. split; [eapply same_params_trans; eauto|].
    split; [exact S2|]. split; [rewrite T2, T1, Edt, (S_INR (S k)); ring|].
    repeat (split; auto); congruence.
Qed.

Definition n_steps_total fn := n_steps_total_c None fn.

Lemma n_steps_app c fn : forall j k o y yd o1 y1 yd1,
  n_steps_open_loop c fn j y yd o = (o1, Ok (y1, yd1)) ->
  n_steps_open_loop c fn (j + k) y yd o = n_steps_open_loop c fn k y1 yd1 o1.
Proof.
  induction j as [|j IH]; intros k o y yd o1 y1 yd1 E; cbn [n_steps_open_loop plus] in *.
  - injection E as <- <- <-. reflexivity.
  - destruct (dmp_step y yd c fn o) as [o2 [[y2 yd2]|]]; [|discriminate]. eauto.
Qed.

Lemma reachable_phase_ok n o : reachable n o -> phase_ok (o_forcing_term o).
Proof.
  intros H. destruct (reachable_ft_built n o H) as (j & x & f & w & E & ->).
  apply init_forcing_term_inv in E. destruct E as (Hn & Hx & E).
  apply forcing_term_init_n in E. destruct E as (E1 & E2 & E3 & _ & E5 & _).
  unfold phase_ok. cbn. rewrite E1, E2, E3, E5. repeat split; try lia; auto.
  pose proof (ln_increasing (1 / 100) 1 ltac:(lra) ltac:(lra)) as Hl. rewrite ln_1 in Hl. lra.
Qed.

(** The steps until the clock is not negative. *)
Lemma clock_steps t dt : 0 < dt -> exists k0, 0 <= t + INR (S k0) * dt.
Proof.
  intros Hdt. destruct (archimed (- t / dt)) as [Ha _].
  exists (Z.to_nat (up (- t / dt))).
  assert (H : IZR (up (- t / dt)) <= INR (S (Z.to_nat (up (- t / dt))))).
  { rewrite INR_IZR_INZ. apply IZR_le. lia. }
  set (q := INR (S _)) in *.
  assert (Hq : - t / dt * dt <= q * dt) by (apply Rmult_le_compat_r; lra).
  replace (- t / dt * dt) with (- t) in Hq by (field; lra). lra.
Qed.

Lemma goal_reached n o fn d y yd :
  shapes_ok o -> p_n_dims (o_base o) = n -> phase_ok (o_forcing_term o) ->
  0 < o_execution_time o -> 0 < o_dt o -> 0 < o_int_dt o ->
  stable fn o d -> alen y = n -> alen yd = n ->
  forall eps, 0 < eps -> exists N, forall k, (N <= k)%nat ->
  exists o' y' yd',
    n_steps_open_loop None (Some fn) k y yd o = (o', Ok (y', yd'))
    /\ Rabs (aget y' d - aget (p_goal_y (o_base o)) d) < eps /\ Rabs (aget yd' d) < eps.
Proof.
  intros Hsh Hn Hph Hx Hdt Hi (Hcd & Hal & Hrk & Heu) Ly Lyd eps Heps.
  destruct (clock_steps (p_t (o_base o)) (o_dt o) Hdt) as [k0 Hk0].
  destruct (n_steps_total fn k0 o y yd Hsh (conj Hx (conj Hdt Hi)) ltac:(congruence) ltac:(congruence))
    as (o1 & y1 & yd1 & E1 & P1 & S1 & T1 & I1 & C1 & D1 & L1 & M1).
  pose proof (running_same _ _ P1 (conj Hx (conj Hdt Hi))) as (Hx1 & Hdt1 & Hi1).
  assert (Ht1 : 0 <= p_t (o_base o1)) by lra.
  pose proof P1 as (Q1 & Q2 & Q3 & Q4 & Q5 & Q6 & Q7 & Q8 & Q9 & Q10 & Q11 & Q12 & Q13 & Q14
                    & Q15 & Q16 & Q17).
  set (a := open_loop_step_args o1 None).
  assert (Hfree : free a) by (repeat split).
  assert (HC : exists s, s 0%nat = (aget y1, aget yd1)
    /\ (forall k, run_seq (run_step_function fn a) (p_t (o_base o1)) (o_dt o1) (aget y1, aget yd1) k
                  = Ok (s k))
    /\ vanishes (fun k => fst (s k) d - a_goal_y a d) /\ vanishes (fun k => snd (s k) d)).
  { assert (HP : phase_ok (a_forcing_term a)) by (cbn; rewrite Q7; exact Hph).
    assert (Hfn : uses_rk4 fn \/ uses_euler fn) by (destruct fn; unfold uses_rk4, uses_euler; auto).
    destruct Hfn as [Hfn|Hfn].
    - destruct (run_seq_rk4 a (p_t (o_base o1)) (o_dt o1) (aget y1, aget yd1)) as (s & Hs0 & HsS & Hrun).
      exists s. split; auto. split.
      + intros k. rewrite <- Hrun. destruct Hfn as [-> | ->]; [reflexivity|].
        f_equal. do 3 (apply functional_extensionality; intro). cbn. now rewrite rk4_cython_eq.
      + apply (rk4_converges a (p_t (o_base o1)) (o_dt o1) (aget y1, aget yd1)); auto.
        * cbn. lra.
        * cbn. rewrite Q8, Q9. exact Hcd.
        * cbn. rewrite Q8, Q1, Q2, Rminus_0_r. specialize (Hrk Hfn). cbv zeta in Hrk.
          set (al := aget (o_alpha_y o) d) in *.
          replace (al / (2 * o_execution_time o) * o_dt o)
            with (al * o_dt o / (2 * o_execution_time o)) by (field; lra).
          split; [|exact Hrk]. apply Rmult_lt_0_compat; [nra|apply Rinv_0_lt_compat; lra].
    - destruct (run_seq_euler fn a (p_t (o_base o1)) (o_dt o1) (aget y1, aget yd1))
        as (s & Hs0 & HsS & Hrun); auto.
      exists s. split; auto. split; auto.
      apply (euler_converges a (p_t (o_base o1)) (o_dt o1) (aget y1, aget yd1)); auto; cbn.
      + rewrite Q8, Q9. exact Hcd.
      + rewrite Q8. exact Hal.
      + rewrite Q8, Q4, Q1, Rminus_0_r. apply Heu. exact Hfn. }
  destruct HC as (s & Hs0 & Hrun & Hv1 & Hv2).
  destruct (Hv1 eps Heps) as [N1 HN1]. destruct (Hv2 eps Heps) as [N2 HN2].
  exists (S k0 + Nat.max N1 N2)%nat. intros k Hk.
  set (j := (k - S k0)%nat). replace k with (S k0 + j)%nat by (unfold j; lia).
  destruct (n_steps_follow fn None o1 j o1 y1 yd1 S1 (same_params_refl o1) Hdt1 Ht1)
    with (s := s j) as (o2 & y2 & yd2 & R1 & R2 & R3); auto; try congruence.
  - rewrite norm_id by auto. exact C1.
  - rewrite norm_id by auto. exact D1.
  - exists o2, y2, yd2. split; [rewrite (n_steps_app _ _ _ _ _ _ _ _ _ _ E1); exact R1|].
    specialize (HN1 j ltac:(unfold j; lia)). specialize (HN2 j ltac:(unfold j; lia)).
    rewrite <- R2 in HN1, HN2. cbn in HN1, HN2. rewrite Q15 in HN1. auto.
Qed.

(** ** C92 *)
(** From any state an object can be in, stepping on with the returned states
    ends at the goal that is configured now, at rest.  The first call may pass
    any state [y], [yd] as the current one. *)
Theorem C92_goal_reached : forall n o fn d y yd,
  reachable n o -> 0 < o_execution_time o -> 0 < o_dt o -> 0 < o_int_dt o ->
  (d < n)%nat -> stable fn o d -> alen y = n -> alen yd = n ->
  forall eps, 0 < eps -> exists N, forall k, (N <= k)%nat ->
  exists o' y' yd',
    n_steps_open_loop None (Some fn) k y yd o = (o', Ok (y', yd'))
    /\ Rabs (aget y' d - aget (p_goal_y (o_base o)) d) < eps /\ Rabs (aget yd' d) < eps.
Proof.
  intros n o fn d y yd Hr Hx Hdt Hi _ Hst Ly Lyd.
  destruct (reachable_shapes n o Hr) as [Hsh Hn].
  apply (goal_reached n); auto. apply (reachable_phase_ok n); auto.
Qed.

(** In particular the goal may be moved while the movement is executed. *)
Corollary C92_goal_moved : forall n o fn d y yd g,
  reachable n o -> 0 < o_execution_time o -> 0 < o_dt o -> 0 < o_int_dt o ->
  (d < n)%nat -> stable fn o d -> alen y = n -> alen yd = n -> alen g = n ->
  let o1 := fst (exec (CConfigure {| c_t := None; c_start_y := None; c_start_yd := None;
                   c_start_ydd := None; c_goal_y := Some g; c_goal_yd := None; c_goal_ydd := None |}) o) in
  forall eps, 0 < eps -> exists N, forall k, (N <= k)%nat ->
  exists o' y' yd',
    n_steps_open_loop None (Some fn) k y yd o1 = (o', Ok (y', yd'))
    /\ Rabs (aget y' d - aget g d) < eps /\ Rabs (aget yd' d) < eps.
Proof.
  intros n o fn d y yd g Hr Hx Hdt Hi Hd Hst Ly Lyd Lg o1.
  destruct (reachable_shapes n o Hr) as [Hsh Hn].
  assert (Hr1 : reachable n o1) by (apply reachable_exec; auto).
  assert (E : o1 = with_base (set_goal_y g (o_base o)) o).
  { unfold o1. cbn [exec]. unfold dmp_configure, configure. cbn -[Nat.eqb].
    unfold check_1d_array_length. rewrite Hn, Lg, Nat.eqb_refl. reflexivity. }
  assert (Hg : p_goal_y (o_base o1) = g) by (rewrite E; reflexivity).
  assert (H1 : o_execution_time o1 = o_execution_time o /\ o_dt o1 = o_dt o /\ o_int_dt o1 = o_int_dt o
    /\ o_alpha_y o1 = o_alpha_y o /\ o_beta_y o1 = o_beta_y o) by (rewrite E; cbn; auto).
  destruct H1 as (A1 & A2 & A3 & A4 & A5). rewrite <- Hg.
  apply (C92_goal_reached n o1 fn d y yd); try congruence; auto.
  unfold stable in *. now rewrite A1, A2, A3, A4, A5.
Qed.

(** A DMP in the middle of a movement with a new goal, while the caller reports
    another position than the expected one. *)
Example C92_satisfiable : exists o y yd, reachable 1 o /\ 0 < o_execution_time o /\ 0 < o_dt o
  /\ 0 < o_int_dt o /\ stable RK4 o 0 /\ stable Euler_cython o 0 /\ alen y = 1%nat /\ alen yd = 1%nat
  /\ p_t (o_base o) = 3/100 /\ aget (p_goal_y (o_base o)) 0%nat = 7.
Proof.
  destruct (ex_new_ok 1 25 (25/4)) as (f & o0 & E & Ef & Eo).
  assert (Hr : reachable 1 o0) by (eapply ex_reachable; eauto).
  destruct (reachable_shapes 1 o0 Hr) as [Hsh Hn].
  set (g := CConfigure {| c_t := Some (3/100); c_start_y := None; c_start_yd := None;
                   c_start_ydd := None; c_goal_y := Some (one 7); c_goal_yd := None; c_goal_ydd := None |}).
  exists (fst (exec g o0)), (one 5), (one 0).
  split; [now apply reachable_exec|].
  assert (E1 : fst (exec g o0) = with_base (set_goal_y (one 7) (set_t (3/100) (o_base o0))) o0).
  { unfold g. cbn [exec]. unfold dmp_configure, configure. cbn -[Nat.eqb].
    unfold check_1d_array_length. rewrite Hn. reflexivity. }
  rewrite E1, Eo. unfold stable. cbn.
  repeat split; try lra; unfold uses_rk4, uses_euler; intros; try lra.
Qed.
