(** C10, C18, C19, C21-C26, C28: the class DMP as a state machine.
    Final statements (continued). *)
From Coq Require Import Reals ZArith List Lia Lra Psatz FunctionalExtensionality.
From Verif Require Import M_Prelude M_Canonical M_Forcing M_Dmp M_Base M_DmpObject
  S_Loops S_Dmp P_Loops P_Canonical P_Forcing P_DmpStep P_DmpScale P_DmpLinear P_Converge
  P_DmpObject Properties_Forcing Properties_Dmp Properties_DmpObject.
Import ListNotations.
Open Scope R_scope.
Set Bullet Behavior "Strict Subproofs".

(** ** C18 *)
Lemma norm_initialized o : o_initialized (norm o) = true.
Proof. unfold norm. destruct (o_initialized o) eqn:E; auto. Qed.

Lemma norm_id o : o_initialized o = true -> norm o = o.
Proof. intros H. unfold norm. now rewrite H. Qed.

Lemma n_steps_follow fn c o0 : forall k o y yd,
  shapes_ok o0 -> same_params o0 o -> 0 < o_dt o0 -> 0 <= p_t (o_base o) ->
  p_current_y (o_base (norm o)) = y -> p_current_yd (o_base (norm o)) = yd ->
  alen y = p_n_dims (o_base o0) -> alen yd = p_n_dims (o_base o0) ->
  forall s, run_seq (run_step_function fn (open_loop_step_args o0 c)) (p_t (o_base o)) (o_dt o0)
              (aget y, aget yd) k = Ok s ->
  exists o' y' yd', n_steps_open_loop c (Some fn) k y yd o = (o', Ok (y', yd'))
    /\ (aget y', aget yd') = s /\ p_t (o_base o') = p_t (o_base o) + INR k * o_dt o0.
Proof.
  induction k as [|k IH]; intros o y yd Hsh Hp Hdt Ht Ey Eyd Ly Lyd s Hs.
  - simpl in Hs. injection Hs as <-. exists o, y, yd. simpl. repeat split. ring.
  - rewrite run_seq_shift in Hs. cbn [n_steps_open_loop].
    destruct Hp as (P1 & P2 & P3 & P4 & P5 & P6 & P7 & P8 & P9 & P10 & P11 & P12 & P13 & P14
                    & P15 & P16 & P17).
    rewrite dmp_step_eq by congruence. cbv zeta.
    change (p_current_y (o_base (tick (norm o)))) with (p_current_y (o_base (norm o))).
    change (p_current_yd (o_base (tick (norm o)))) with (p_current_yd (o_base (norm o))).
    rewrite Ey, Eyd.
    set (t0 := p_t (o_base o)) in *.
    replace (t0 + INR 0 * o_dt o0) with t0 in Hs by (simpl; ring).
    replace (t0 + INR 1 * o_dt o0) with (t0 + o_dt o0) in Hs by (simpl; ring).
    assert (Hnp : same_params o (norm o)) by apply norm_params.
    assert (HA : run_step_function fn (step_args (tick (norm o)) c (vsub (aget y) (aget y)))
                   t0 (t0 + o_dt o) (aget y, aget yd)
                 = run_step_function fn (open_loop_step_args o0 c) t0 (t0 + o_dt o0)
                   (aget y, aget yd)).
    { rewrite P2. apply step_args_equiv.
      - destruct Hnp as (Q1 & Q2 & Q3 & Q4 & Q5 & Q6 & Q7 & Q8 & Q9 & Q10 & Q11 & Q12 & Q13 & Q14
                    & Q15 & Q16 & Q17).
        constructor; simpl; try congruence.
        intros d. unfold vsub, vzero. ring.
      - right. simpl. lra. }
    destruct (run_step_function fn (open_loop_step_args o0 c) t0 (t0 + o_dt o0) (aget y, aget yd))
      as [[y1 v1]|] eqn:E; [|discriminate].
    cbn [bind] in Hs.
    match goal with |- context [match ?X with Ok _ => _ | Err _ => _ end] =>
      replace X with (Ok (y1, v1) : res (vec * vec)) by (symmetry; exact HA) end.
    set (o1 := with_base _ _).
    destruct (IH o1 {| alen := alen y; aget := y1 |} {| alen := alen yd; aget := v1 |})
      with (s := s) as (o' & y' & yd' & R1 & R2 & R3); auto.
    + apply (same_params_trans _ o); [unfold same_params; repeat split; auto|].
      apply (same_params_trans _ (norm o)); auto.
      unfold same_params, o1; simpl; repeat split.
    + unfold o1; simpl. fold t0.
      assert (p_t (o_base (norm o)) = t0) as -> by (unfold norm; destruct (o_initialized o); auto).
      assert (o_dt (norm o) = o_dt o) as -> by (unfold norm; destruct (o_initialized o); auto).
      lra.
    + rewrite norm_id; [reflexivity|]. unfold o1. simpl. apply norm_initialized.
    + rewrite norm_id; [reflexivity|]. unfold o1. simpl. apply norm_initialized.
    + assert (Et : p_t (o_base o1) = t0 + o_dt o0).
      { unfold o1; simpl.
        assert (p_t (o_base (norm o)) = t0) as -> by (unfold norm; destruct (o_initialized o); auto).
        assert (o_dt (norm o) = o_dt o) as -> by (unfold norm; destruct (o_initialized o); auto).
        now rewrite P2. }
      rewrite Et. exact Hs.
    + exists o', y', yd'. split; [exact R1|]. split; [exact R2|]. rewrite R3, S_INR.
      unfold o1; simpl.
      assert (p_t (o_base (norm o)) = t0) as -> by (unfold norm; destruct (o_initialized o); auto).
      assert (o_dt (norm o) = o_dt o) as -> by (unfold norm; destruct (o_initialized o); auto).
      rewrite P2. ring.
Qed.

(** After [reset], [k] calls of [step], each with the state returned by the
    previous one, give the time and the position of sample [k] of [open_loop];
    for every step function, coupling term, gains (including [p_gain]), weights
    and whatever was executed before.  The start velocity must be zero. *)
Theorem C18_open_loop_is_repeated_step_partial :
  forall n o fn c run_t ts ys,
  reachable n o -> 0 < o_dt o -> p_start_yd (o_base o) = zeros n ->
  dmp_open_loop run_t c (Some fn) o = Ok (ts, ys) ->
  forall k, (k < length ys)%nat ->
  exists o' y yd,
    n_steps_open_loop c (Some fn) k (p_start_y (o_base o)) (p_start_yd (o_base o)) (dmp_reset o)
    = (o', Ok (y, yd))
    /\ aget y = nth k ys vzero /\ p_t (o_base o') = nth k ts 0.
Proof.
  intros n o fn c run_t ts ys Hr Hdt Hv E k Hk.
  destruct (reachable_shapes n o Hr) as [Hsh Hn].
  unfold dmp_open_loop in E.
  destruct (open_loop_run _ _ _ _ _ _) as [[ts' l]|] eqn:Eo; [|discriminate].
  cbn [bind fst snd] in E. injection E as <- <-. rewrite map_length in Hk.
  pose proof (open_loop_run_seq _ _ _ _ _ _ _ _ Eo) as [Hlen Hs].
  destruct (Hs k) as (Hts & s & Hl & Hrun); [lia|].
  pose proof Hsh as Hsh'. split_shapes Hsh'.
  destruct (n_steps_follow fn c o k (dmp_reset o) (p_start_y (o_base o)) (p_start_yd (o_base o)))
    with (s := s) as (o' & y & yd & R1 & R2 & R3); auto; try congruence.
  - unfold same_params; simpl; repeat split.
  - simpl. lra.
  - unfold norm. simpl. destruct (o_initialized o); reflexivity.
  - unfold norm. simpl. destruct (o_initialized o); reflexivity.
  - rewrite Hv. exact Hrun.
  - exists o', y, yd. split; [exact R1|]. split.
    + rewrite (nth_indep _ _ (fst (vzero, vzero))) by (rewrite map_length; lia).
      rewrite map_nth. rewrite (nth_error_nth _ _ _ Hl). rewrite <- R2. reflexivity.
    + rewrite R3. simpl. rewrite (nth_error_nth _ _ _ Hts). ring.
Qed.

Lemma rk4_without_forces a lt t y v :
  free a -> a_goal_t a <> a_start_t a -> a_smooth_scaling a = false ->
  (forall d, a_alpha_y a d = 0) ->
  (forall d i, ft_weights (a_forcing_term a) d i = 0) ->
  dmp_step_rk4 a lt t (y, v) = (fun d => y d + (t - lt) * v d, v).
Proof.
  intros Hf Hne Hsm Ha Hw. rewrite rk4_as_rk4_of by apply Hf. cbv zeta.
  assert (Hdist : forall z d, disturbance a z d = 0).
  { intros z d. unfold disturbance. rewrite Hsm. unfold ft_forces.
    rewrite rsum_0; [ring|]. intros i Hi. rewrite Hw. ring. }
  assert (HA : forall h Y V z, acc_of a h Y V z (ft_forces (a_forcing_term a) z) = vzero).
  { intros h Y V z. apply functional_extensionality; intro d.
    rewrite acc_of_free by auto. cbv zeta. rewrite Ha, Hdist. unfold vzero. field. lra. }
  unfold rk4_of. rewrite !HA.
  f_equal; apply functional_extensionality; intro d; unfold vadd, vscale, vzero; rewrite ?HA;
    unfold vzero; field.
Qed.


(** A DMP without spring, weights and tracking gain moves at constant velocity. *)
Definition drifts (o : dmp) : Prop :=
  (forall d, aget (o_alpha_y o) d = 0)
  /\ (forall d i, ft_weights (o_forcing_term o) d i = 0)
  /\ o_smooth_scaling o = false /\ o_p_gain o = 0 /\ o_execution_time o <> 0.

Lemma drift_step y yd o : drifts o ->
  alen y = p_n_dims (o_base o) -> alen yd = p_n_dims (o_base o) ->
  let cy := p_current_y (o_base (norm o)) in
  let cyd := p_current_yd (o_base (norm o)) in
  snd (dmp_step y yd None (Some RK4) o)
  = Ok ({| alen := alen cy; aget := fun d => aget cy d + o_dt o * aget cyd d |},
        {| alen := alen cyd; aget := aget cyd |}).
Proof.
  intros (Ha & Hw & Hs & Hg & Hx) Hy Hyd cy cyd.
  rewrite dmp_step_eq by auto. cbv zeta.
  change (p_current_y (o_base (tick (norm o)))) with cy.
  change (p_current_yd (o_base (tick (norm o)))) with cyd.
  destruct (norm_params o) as (Q1 & Q2 & Q3 & Q4 & Q5 & Q6 & Q7 & Q8 & Q9 & Q10 & Q11 & Q12 & Q13 & Q14
                    & Q15 & Q16 & Q17).
  cbn [run_step_function].
  rewrite (rk4_args_equiv (open_loop_step_args (norm o) None)).
  - rewrite rk4_without_forces; simpl.
    + repeat f_equal. apply functional_extensionality; intro d. ring.
    + unfold free; simpl; auto.
    + rewrite Q1. auto.
    + rewrite Q6. auto.
    + intros d. rewrite Q8. auto.
    + intros d i. rewrite Q7. auto.
  - constructor; simpl; auto. intros d. rewrite Q5, Hg. ring.
Qed.

Definition conf_start (y yd : option arr) : configure_args :=
  {| c_t := None; c_start_y := y; c_start_yd := yd; c_start_ydd := None;
     c_goal_y := None; c_goal_yd := None; c_goal_ydd := None |}.
Definition one (x : R) : arr := {| alen := 1; aget := fun _ => x |}.

Lemma ex_drift : exists o, reachable 1 o /\ drifts o /\ o_initialized o = false
  /\ o_dt o = 1/100 /\ o_base o = ptp_init 1 1 /\ o_execution_time o = 1
  /\ o_int_dt o = 1/1000.
Proof.
  destruct (ex_new_ok 1 0 0) as (f & o & E & Ef & Eo). exists o.
  split; [eapply ex_reachable; eauto|]. rewrite Eo. unfold drifts; simpl.
  repeat split; auto; try lra.
  intros d i. unfold forcing_term_init in Ef.
  repeat (destruct (Rle_dec _ _); try discriminate). cbn in Ef.
  injection Ef as <-. reflexivity.
Qed.

(** [open_loop] ignores the configured start velocity, [step] does not. *)
Theorem C18_start_velocity_refuted :
  exists o ys ts y yd,
    reachable 1 o
    /\ dmp_open_loop None None (Some RK4) o = Ok (ts, ys) /\ (1 < length ys)%nat
    /\ snd (n_steps_open_loop None (Some RK4) 1 (p_start_y (o_base o)) (p_start_yd (o_base o))
              (dmp_reset o)) = Ok (y, yd)
    /\ aget y 0%nat <> nth 1 ys vzero 0%nat.
Proof.
  destruct ex_drift as (o0 & Hr & Hd & Hi & Hdt & Hb & Hx & Hid).
  set (o := fst (exec (CConfigure (conf_start None (Some (one 1)))) o0)).
  assert (Hr' : reachable 1 o) by (apply reachable_exec; auto).
  assert (Eb : o = with_base (set_start_yd (one 1) (o_base o0)) o0).
  { unfold o. simpl. unfold dmp_configure, configure. rewrite Hb. reflexivity. }
  assert (Hd' : drifts (dmp_reset o)).
  { rewrite Eb. destruct Hd as (A & B & C & D & F). unfold drifts; simpl. auto. }
  pose proof (drift_step (p_start_y (o_base o)) (p_start_yd (o_base o)) (dmp_reset o) Hd') as HS.
  destruct (C13_runs_exist RK4 (o_forcing_term o) (o_execution_time o) (aget (p_start_y (o_base o)))
     vzero (aget (p_goal_y (o_base o))) (aget (o_alpha_y o)) (aget (o_beta_y o)) (o_int_dt o) (o_dt o)
     (o_smooth_scaling o) (o_execution_time o)) as (ts & l & El & Hl);
     try (rewrite Eb; simpl; lra).
  destruct Hl as [Hl|Hl]; [|rewrite Eb in Hl; simpl in Hl; lra].
  change (open_loop_args (o_forcing_term o) (o_execution_time o) (aget (p_start_y (o_base o)))
    (aget (p_goal_y (o_base o))) (aget (o_alpha_y o)) (aget (o_beta_y o)) (o_int_dt o)
    (o_smooth_scaling o)) with (open_loop_step_args o None) in El.
  pose proof (open_loop_run_seq _ _ _ _ _ _ _ _ El) as [Hlen Hs].
  destruct (Hs 1%nat) as (_ & s & Hl1 & Hrun); [lia|].
  cbn [run_seq bind] in Hrun. cbn [run_step_function] in Hrun.
  rewrite rk4_without_forces in Hrun.
  2: { unfold free; simpl; auto. }
  2: { rewrite Eb; simpl; lra. }
  2: { rewrite Eb; apply Hd. }
  2: { rewrite Eb; apply Hd. }
  2: { rewrite Eb; apply Hd. }
  injection Hrun as <-.
  exists o, (map fst l), ts,
    {| alen := 1; aget := fun d => aget (p_start_y (o_base o)) d
                           + o_dt o * aget (p_start_yd (o_base o)) d |}, (one 1).
  split; [exact Hr'|]. split.
  { unfold dmp_open_loop. rewrite El. reflexivity. }
  split; [rewrite map_length; lia|]. split.
  - cbn [n_steps_open_loop]. specialize (HS ltac:(rewrite Eb, Hb; reflexivity)
      ltac:(rewrite Eb, Hb; reflexivity)). cbv zeta in HS.
    destruct (dmp_step _ _ _ _ _) as [o' [[y' yd']|]]; simpl in HS; [|discriminate].
    injection HS as -> ->. simpl. rewrite Eb. unfold norm. simpl. rewrite Hi, Hb. reflexivity.
  - rewrite (nth_indep _ _ (fst (vzero, vzero))) by (rewrite map_length; lia).
    rewrite map_nth. rewrite (nth_error_nth _ _ _ Hl1). simpl. rewrite Eb. simpl.
    rewrite Hb, Hdt. simpl. unfold vzero. lra.
Qed.

Example C18_satisfiable : exists o ts ys, reachable 1 o /\ 0 < o_dt o
  /\ p_start_yd (o_base o) = zeros 1 /\ dmp_open_loop None None (Some Euler) o = Ok (ts, ys)
  /\ (1 < length ys)%nat.
Proof.
  destruct (ex_new_ok 1 25 (25/4)) as (f & o & E & Ef & Eo).
  destruct (C13_runs_exist Euler f 1 vzero vzero vzero (fun _ => 25) (fun _ => 25/4) (1/1000) (1/100)
     false 1) as (ts & l & El & Hl); try lra.
  exists o, ts, (map fst l). split; [eapply ex_reachable; eauto|].
  rewrite Eo. simpl. split; [lra|]. split; [reflexivity|]. split.
  - unfold dmp_open_loop. simpl. etransitivity; [exact (f_equal (fun r => bind r _) El)|reflexivity].
  - rewrite map_length. destruct Hl; [lia|lra].
Qed.

(** ** C10 and C19 for objects *)
(** Setting [execution_time_], [dt_] and [int_dt] to [s] times their values
    leaves the positions generated by [open_loop] unchanged, at [s] times the
    original times. *)
Theorem C10_object : forall n o fn s junk, reachable n o -> 0 < s ->
  o_execution_time o = ft_goal_t (o_forcing_term o) ->
  0 < o_execution_time o -> 0 < o_int_dt o -> 0 < o_dt o ->
  let o' := fst (exec_all [CSetExecutionTime junk (s * o_execution_time o); CSetDt (s * o_dt o);
                           CSetIntDt (s * o_int_dt o)] o) in
  snd (exec_all [CSetExecutionTime junk (s * o_execution_time o); CSetDt (s * o_dt o);
                 CSetIntDt (s * o_int_dt o)] o) = [ONone; ONone; ONone]
  /\ forall ts ys, dmp_open_loop None None (Some fn) o = Ok (ts, ys) ->
     dmp_open_loop None None (Some fn) o' = Ok (map (Rmult s) ts, ys).
Proof.
  intros n o fn s junk Hr Hs Hx Hx0 Hi Hdt o'.
  destruct (reachable_shapes n o Hr) as [Hsh Hn]. split_shapes Hsh.
  destruct (reachable_ft_built n o Hr) as (j & x & f & w & Ef & Ew).
  assert (Hsx : 0 < s * o_execution_time o) by (apply Rmult_lt_0_compat; auto).
  destruct (init_forcing_term_accepts junk (o_n_weights_per_dim o) (s * o_execution_time o) H12 Hsx)
    as [f' Ef'].
  assert (Eo' : exec_all [CSetExecutionTime junk (s * o_execution_time o); CSetDt (s * o_dt o);
                           CSetIntDt (s * o_int_dt o)] o
     = (with_int_dt (s * o_int_dt o) (with_dt (s * o_dt o)
         (with_forcing_term (set_ft_weights (ft_weights (o_forcing_term o)) f')
            (with_execution_time (s * o_execution_time o) o))), [ONone; ONone; ONone])).
  { cbn [exec_all exec]. unfold dmp_set_execution_time.
    cbn [o_n_weights_per_dim with_execution_time]. rewrite Ef'. reflexivity. }
  unfold o'. rewrite Eo'. split; [reflexivity|]. clear o' Eo'. cbn [fst].
  set (o' := with_int_dt _ _). intros ts ys E.
  apply init_forcing_term_inv in Ef, Ef'. destruct Ef as (_ & Hx1 & Ef), Ef' as (_ & _ & Ef').
  assert (Exx : x = o_execution_time o).
  { rewrite Hx, Ew. simpl. apply forcing_term_init_n in Ef. symmetry. apply Ef. }
  assert (Hbasis : forall i, (i < o_n_weights_per_dim o)%nat ->
     ft_centers f i = ft_centers f' i /\ ft_widths f i = ft_widths f' i).
  { assert (H' : exists f'', forcing_term_init (fst j) (snd j) (o_n_weights_per_dim o)
       (s * o_execution_time o) 0 (8 / 10) (- ln (1 / 100)) = Ok f'').
    { destruct (forcing_term_init_ok (fst j) (snd j) (o_n_weights_per_dim o)
       (s * o_execution_time o) 0 (8 / 10) (- ln (1 / 100)) H12 Hsx ltac:(lra)) as (f'' & E'' & _).
      eauto. }
    destruct H' as [f'' E''].
    pose proof (C05_basis_independent_of_duration_partial _ _ _ _ _ _ _ _ _ Ef E'') as A.
    pose proof (C02_fully_initialised _ _ _ _ _ _ _ _ _ _ _ E'' Ef') as B.
    intros i Hi0. destruct (A i Hi0) as [-> ->]. apply B; auto. }
  apply forcing_term_init_n in Ef, Ef'.
  destruct Ef as (N1 & G1 & S1 & _ & A1 & _), Ef' as (N1' & G1' & S1' & _ & A1' & _).
  assert (HA : args_scaled s (open_loop_step_args o None) (open_loop_step_args o' None)).
  { constructor; simpl; auto; try ring.
    - intros. unfold vzero. field. lra.
    - rewrite Ew. unfold ft_scaled; simpl. rewrite N1, N1', G1, G1', S1, S1', A1, A1', Exx.
      repeat split; auto; try ring; intros; symmetry; apply Hbasis; congruence.
    - rewrite Ew. simpl. rewrite G1, S1. lra. }
  unfold dmp_open_loop in E |- *.
  pose proof (open_loop_scaled s fn (open_loop_step_args o None)
     (open_loop_step_args o' None) 0 (o_execution_time o) (o_dt o)
     (aget (p_start_y (o_base o))) vzero vzero Hs) as HO.
  assert (Hne : a_goal_t (open_loop_step_args o None) <> a_start_t (open_loop_step_args o None))
    by (simpl; lra).
  specialize (HO Hne Hi HA ltac:(lra)). rewrite Rmult_0_r in HO.
  assert (Hz : forall d, vzero d = vzero d / s) by (intros; unfold vzero; field; lra).
  specialize (HO Hz).
  destruct (open_loop_run (run_step_function fn (open_loop_step_args o None)) 0 (o_execution_time o)
     (o_dt o) (aget (p_start_y (o_base o))) vzero) as [[ts0 l0]|]; [|discriminate].
  cbn [bind fst snd] in E. injection E as <- <-.
  change (o_execution_time o') with (s * o_execution_time o).
  change (o_dt o') with (s * o_dt o).
  change (p_start_y (o_base o')) with (p_start_y (o_base o)).
  destruct (open_loop_run (run_step_function fn (open_loop_step_args o' None)) 0
     (s * o_execution_time o) (s * o_dt o) (aget (p_start_y (o_base o))) vzero) as [[ts1 l1]|];
     simpl in HO; [|tauto].
  destruct HO as [-> Hl]. cbn [bind fst snd]. do 2 f_equal.
  induction Hl as [|x0 x1 l0 l1 [Hy _] Hl IH]; [reflexivity|]. simpl. now rewrite IH, Hy.
Qed.

Example C10_object_satisfiable : exists o, reachable 2 o
  /\ o_execution_time o = ft_goal_t (o_forcing_term o)
  /\ 0 < o_execution_time o /\ 0 < o_int_dt o /\ 0 < o_dt o.
Proof.
  destruct (ex_new_ok 2 25 (25/4)) as (f & o & E & Ef & Eo).
  exists o. split; [eapply ex_reachable; eauto|].
  apply forcing_term_init_n in Ef. destruct Ef as (_ & Eg & _).
  rewrite Eo; simpl. rewrite Eg. repeat split; lra.
Qed.

Theorem C19_object : forall o run_t c fn ts ys,
  0 < o_dt o -> dmp_open_loop run_t c fn o = Ok (ts, ys) ->
  let rt := match run_t with Some x => x | None => o_execution_time o end in
  length ys = length ts /\ (0 < length ts)%nat
  /\ (forall k, (k < length ts)%nat -> nth k ts 0 = INR k * o_dt o)
  /\ rt <= last ts 0 < rt + o_dt o
  /\ hd_error ys = Some (aget (p_start_y (o_base o))).
Proof.
  intros o run_t c [fn|] ts ys Hdt E rt; [|discriminate].
  unfold dmp_open_loop in E. fold rt in E.
  destruct (open_loop_run _ _ _ _ _ _) as [[ts' l]|] eqn:Eo; [|discriminate].
  cbn [bind fst snd] in E. injection E as <- <-.
  apply C19_time_grid in Eo; auto. destruct Eo as (A & B & C & D & F).
  rewrite map_length. repeat split; auto; try apply D.
  - intros k Hk. rewrite C by auto. ring.
  - destruct l; [discriminate|]. simpl in *. injection F as ->. reflexivity.
Qed.

(** ** C21 *)
Theorem C21_feedback : forall n o y yd y' yd' c fn, reachable n o ->
  alen y = n -> alen yd = n -> alen y' = n -> alen yd' = n ->
  o_p_gain o = 0 \/ y' = y ->
  dmp_step y' yd' c fn o = dmp_step y yd c fn o.
Proof.
  intros n o y yd y' yd' c fn Hr Hy Hyd Hy' Hyd' H.
  destruct (reachable_shapes n o Hr) as [_ Hn].
  destruct fn as [fn|]; [|reflexivity].
  rewrite !dmp_step_eq by congruence. cbv zeta.
  rewrite (step_args_equiv fn (step_args (tick (norm o)) c
     (vsub (aget (p_current_y (o_base (tick (norm o))))) (aget y)))); [reflexivity| |auto].
  destruct H as [H| ->]; constructor; simpl; auto.
  assert (o_p_gain (norm o) = 0) as -> by (destruct (norm_params o) as (_ & _ & _ & _ & -> & _); auto).
  intros; ring.
Qed.

Example C21_satisfiable : exists o, reachable 1 o /\ o_p_gain o = 0
  /\ alen (one 1) = 1%nat /\ alen (one 2) = 1%nat.
Proof.
  destruct (ex_new_ok 1 25 (25/4)) as (f & o & E & Ef & Eo).
  exists o. split; [eapply ex_reachable; eauto|]. rewrite Eo. auto.
Qed.

(** ** C22 *)
(** The object as if it had just been constructed and configured with its
    present start, goal, weights and parameters. *)
Definition fresh (o : dmp) : dmp :=
  let p := o_base o in
  with_initialized false
    (with_base (set_current (zeros (p_n_dims p)) (zeros (p_n_vel_dims p))
                  (set_last_t None (set_t 0 p))) o).

(** Calls that do not assign the start state. *)
Definition keeps_start (c : call) : Prop :=
  match c with
  | CConfigure c => c_start_y c = None /\ c_start_yd c = None
  | CImitate _ _ _ _ _ => False
  | _ => True
  end.

Lemma norm_eq_step y yd c fn o o' : norm o = norm o' ->
  snd (dmp_step y yd c fn o) = snd (dmp_step y yd c fn o')
  /\ norm (fst (dmp_step y yd c fn o)) = norm (fst (dmp_step y yd c fn o')).
Proof.
  intros E.
  assert (Ep : o_base o = o_base o' \/ True) by auto.
  assert (En : p_n_dims (o_base o) = p_n_dims (o_base o')).
  { destruct (norm_params o) as (_ & _ & _ & _ & _ & _ & _ & _ & _ & A & _).
    destruct (norm_params o') as (_ & _ & _ & _ & _ & _ & _ & _ & _ & B & _). congruence. }
  assert (Et : p_t (o_base o) = p_t (o_base o')).
  { assert (H : forall o, p_t (o_base (norm o)) = p_t (o_base o))
      by (intros q; unfold norm; destruct (o_initialized q); auto).
    rewrite <- (H o), <- (H o'). now rewrite E. }
  assert (Ed : o_dt o = o_dt o').
  { destruct (norm_params o) as (_ & A & _). destruct (norm_params o') as (_ & B & _). congruence. }
  destruct (step_valid_dec y yd fn (p_n_dims (o_base o))) as [(f & -> & Hy & Hyd) | H].
  - rewrite !dmp_step_eq by congruence. rewrite E, Et, Ed. cbv zeta. auto.
  - pose proof H as H'. rewrite En in H'.
    unfold dmp_step. destruct fn; [|simpl; auto]. rewrite En.
    destruct (Nat.eqb_spec (alen y) (p_n_dims (o_base o'))); cbn [negb]; [|simpl; auto].
    destruct (Nat.eqb_spec (alen yd) (p_n_dims (o_base o'))); cbn [negb]; [|simpl; auto].
    destruct H' as [H'|[H'|H']]; congruence.
Qed.

Lemma dmp_eq_cases o o' : norm o = norm o' ->
  o_initialized o = o_initialized o' -> o_initialized o = true -> o = o'.
Proof. intros E Ei Et. rewrite norm_id in E by auto. rewrite norm_id in E by congruence. auto. Qed.

(** [norm] commutes with attribute assignments that keep the start state. *)
Lemma norm_with_base o p : p_start_y p = p_start_y (o_base o) ->
  p_start_yd p = p_start_yd (o_base o) ->
  norm (with_base p o)
  = with_base (set_current (if o_initialized o then p_current_y p else p_start_y p)
                 (if o_initialized o then p_current_yd p else p_start_yd p) p)
      (with_initialized true o).
Proof.
  intros E1 E2. unfold norm. destruct o as [b ini x dt nw idt pg sm f al be]. simpl in *.
  destruct ini; simpl; [|reflexivity]. destruct p; reflexivity.
Qed.

Lemma configured_norm c o : c_start_y c = None -> c_start_yd c = None ->
  norm (with_base (configured c (o_base o)) o)
  = with_base (configured c (o_base (norm o))) (norm o).
Proof.
  intros E1 E2. destruct o as [b ini x dt nw idt pg sm f al be].
  destruct b, c as [ct c1 c2 c3 c4 c5 c6]. simpl in E1, E2. subst.
  destruct ini; reflexivity.
Qed.

Lemma configure_norm c o : c_start_y c = None -> c_start_yd c = None ->
  norm (fst (dmp_configure c o)) = fst (dmp_configure c (norm o))
  /\ snd (dmp_configure c o) = snd (dmp_configure c (norm o)).
Proof.
  intros E1 E2. unfold dmp_configure, configure. rewrite E1, E2. cbn [configure_block and_then].
  destruct o as [b ini x dt nw idt pg sm f al be]. destruct b.
  destruct c as [ct c1 c2 c3 c4 c5 c6]. simpl in E1, E2. subst. unfold norm.
  destruct ini, ct; cbn -[check_1d_array_length];
    repeat (match goal with |- context [configure_block ?a _ _ _] => destruct a end;
      cbn -[check_1d_array_length];
      try match goal with |- context [check_1d_array_length ?a ?n] =>
        destruct (check_1d_array_length a n) end; cbn -[check_1d_array_length]); auto.
Qed.

Lemma norm_idem o : norm (norm o) = norm o.
Proof. apply norm_id, norm_initialized. Qed.

Lemma keeps_start_norm c o : keeps_start c ->
  snd (exec c o) = snd (exec c (norm o)) /\ norm (fst (exec c o)) = norm (fst (exec c (norm o))).
Proof.
  intros K. destruct c; simpl in K |- *; try tauto.
  - destruct K as [K1 K2]. destruct (configure_norm c o K1 K2) as [A B].
    destruct (dmp_configure c o), (dmp_configure c (norm o)). simpl in *.
    rewrite B. split; auto. rewrite <- A. now rewrite norm_idem.
  - split; auto. unfold norm, dmp_reset. destruct (o_initialized o) eqn:E; simpl; rewrite ?E; auto.
  - destruct (norm_eq_step last_y last_yd c fn o (norm o) (eq_sym (norm_idem o))) as [A B].
    destruct (dmp_step last_y last_yd c fn o), (dmp_step last_y last_yd c fn (norm o)).
    simpl in *. subst. auto.
  - rewrite norm_idem. split; auto. unfold dmp_open_loop. destruct fn; auto.
    unfold norm; destruct (o_initialized o); reflexivity.
  - rewrite norm_idem. split; auto. unfold norm; destruct (o_initialized o); reflexivity.
  - unfold dmp_set_weights.
    assert (p_n_dims (o_base (norm o)) = p_n_dims (o_base o)
            /\ o_forcing_term (norm o) = o_forcing_term o) as [-> ->]
      by (unfold norm; destruct (o_initialized o); auto).
    destruct (reshape _ _ _); simpl; [|rewrite norm_idem; auto]. split; auto.
    unfold norm. destruct (o_initialized o) eqn:E; simpl; rewrite ?E; auto.
  - unfold dmp_set_execution_time. cbn [o_n_weights_per_dim with_execution_time o_forcing_term].
    assert (o_n_weights_per_dim (norm o) = o_n_weights_per_dim o
            /\ o_forcing_term (norm o) = o_forcing_term o) as [-> ->]
      by (unfold norm; destruct (o_initialized o); auto).
    destruct (init_forcing_term _ _ _); simpl; split; auto;
    unfold norm; destruct (o_initialized o) eqn:E; simpl; rewrite ?E; auto.
  - split; auto. unfold norm; destruct (o_initialized o) eqn:E; simpl; rewrite ?E; auto.
  - split; auto. unfold norm; destruct (o_initialized o) eqn:E; simpl; rewrite ?E; auto.
Qed.

Lemma keeps_start_rel c o o' : keeps_start c -> norm o = norm o' ->
  snd (exec c o) = snd (exec c o') /\ norm (fst (exec c o)) = norm (fst (exec c o')).
Proof.
  intros K E. destruct (keeps_start_norm c o K) as [A B], (keeps_start_norm c o' K) as [A' B'].
  rewrite E in *. split; congruence.
Qed.

Lemma keeps_start_prefix n cs : forall o o' cs', Forall keeps_start cs -> norm o = norm o' ->
  shapes_ok o -> shapes_ok o' -> p_n_dims (o_base o) = n -> p_n_dims (o_base o') = n ->
  (forall o o', norm o = norm o' -> p_n_dims (o_base o) = n -> p_n_dims (o_base o') = n ->
     snd (exec_all cs' o) = snd (exec_all cs' o')) ->
  snd (exec_all (cs ++ cs') o) = snd (exec_all (cs ++ cs') o').
Proof.
  induction cs as [|c cs IH]; intros o o' cs' K E S S' N N' H; [apply H; auto|].
  inversion K; subst. cbn [app exec_all].
  destruct (keeps_start_rel c o o' H2 E) as [A B].
  destruct (exec_shapes c o S) as [S1 N1]. destruct (exec_shapes c o' S') as [S1' N1'].
  destruct (exec c o) as [o1 x], (exec c o') as [o1' x']. simpl in *. subst.
  specialize (IH o1 o1' cs' H3 B S1 S1' N1 ltac:(congruence) H).
  destruct (exec_all (cs ++ cs') o1), (exec_all (cs ++ cs') o1'). simpl in *. now subst.
Qed.

Lemma valid_step_initializes y yd c fn o :
  alen y = p_n_dims (o_base o) -> alen yd = p_n_dims (o_base o) ->
  o_initialized (fst (dmp_step y yd c (Some fn) o)) = true.
Proof.
  intros Hy Hyd. rewrite dmp_step_eq by auto. cbv zeta.
  destruct (run_step_function _ _ _ _ _) as [[? ?]|]; simpl; apply norm_initialized.
Qed.

(** Whatever was executed before: after [reset], every history in which the
    start state is not assigned between [reset] and the first step gives the
    same observations as on a newly configured object; after the first step
    everything is allowed. *)
Theorem C22_reset_forgets_partial :
  forall n o before y yd c fn after, reachable n o ->
  Forall keeps_start before -> alen y = n -> alen yd = n ->
  let history := before ++ CStep y yd c (Some fn) :: after in
  snd (exec_all history (dmp_reset o)) = snd (exec_all history (fresh o)).
Proof.
  intros n o before y yd c fn after Hr K Hy Hyd history.
  destruct (reachable_shapes n o Hr) as [Hsh Hn]. split_shapes Hsh.
  apply (keeps_start_prefix n); auto.
  - destruct o as [b [|] ? ? ? ? ? ? ? ? ?]; reflexivity.
  - unfold shapes_ok; simpl; repeat split; auto.
  - unfold shapes_ok; simpl; repeat split; auto.
  - intros o1 o2 E N1 N2. cbn [exec_all].
    pose proof (keeps_start_rel (CStep y yd c (Some fn)) o1 o2 I E) as [A B].
    cbn [exec] in A, B |- *.
    pose proof (valid_step_initializes y yd c fn o1 ltac:(congruence) ltac:(congruence)) as I1.
    pose proof (valid_step_initializes y yd c fn o2 ltac:(congruence) ltac:(congruence)) as I2.
    destruct (dmp_step y yd c (Some fn) o1) as [q1 r1], (dmp_step y yd c (Some fn) o2) as [q2 r2].
    simpl in A, B, I1, I2. rewrite !norm_id in B by auto. subst q2.
    destruct (exec_all after q1). simpl. now rewrite A.
Qed.

(** Assigning a new start after [reset] has no effect on an object that was
    stepped before, in contrast to a newly configured object. *)
Theorem C22_reset_then_configure_refuted :
  exists o cs, reachable 1 o
  /\ snd (exec_all cs (dmp_reset o)) <> snd (exec_all cs (fresh o)).
Proof.
  destruct ex_drift as (o0 & Hr & Hd & Hi & Hdt & Hb & Hx & Hid).
  set (o := fst (exec (CStep (one 0) (one 0) None (Some RK4)) o0)).
  assert (Hr' : reachable 1 o) by (apply reachable_exec; auto).
  assert (Ho : same_params o0 o).
  { unfold o. cbn [exec]. pose proof (dmp_step_params (one 0) (one 0) None (Some RK4) o0).
    destruct (dmp_step _ _ _ _ _); auto. }
  assert (Hio : o_initialized o = true).
  { unfold o. cbn [exec]. pose proof (valid_step_initializes (one 0) (one 0) None RK4 o0) as V.
    rewrite Hb in V. specialize (V eq_refl eq_refl). destruct (dmp_step _ _ _ _ _); auto. }
  assert (Hds : drifts o).
  { destruct Hd as (A & B & C & D & E). destruct Ho as (P1 & P2 & P3 & P4 & P5 & P6 & P7 & P8 & _).
    unfold drifts. rewrite P1, P5, P6, P7, P8. auto. }
  destruct Ho as (P1 & P2 & P3 & P4 & P5 & P6 & P7 & P8 & P9 & P10 & P11 & P12 & P13 & P14
                    & P15 & P16 & P17).
  rewrite Hb in *. simpl in P10, P11, P12, P13.
  set (c := CConfigure (conf_start (Some (one 1)) None)).
  exists o, [c; CStep (one 0) (one 0) None (Some RK4)].
  split; [exact Hr'|].
  assert (E : forall q, p_n_dims (o_base q) = 1%nat ->
     exec c q = (with_base (set_start_y (one 1) (o_base q)) q, ONone)).
  { intros q Hq. unfold c. simpl. unfold dmp_configure, configure. simpl. rewrite Hq. reflexivity. }
  cbn [exec_all]. rewrite !E by exact P10. clear E. cbn [exec].
  pose proof (drift_step (one 0) (one 0)
     (with_base (set_start_y (one 1) (o_base (dmp_reset o))) (dmp_reset o)) Hds) as S1.
  pose proof (drift_step (one 0) (one 0)
     (with_base (set_start_y (one 1) (o_base (fresh o))) (fresh o)) Hds) as S2.
  specialize (S1 ltac:(simpl; auto) ltac:(simpl; auto)).
  specialize (S2 ltac:(simpl; auto) ltac:(simpl; auto)). cbv zeta in S1, S2.
  destruct (dmp_step _ _ _ _ (with_base (set_start_y (one 1) (o_base (dmp_reset o))) (dmp_reset o)))
    as [a1 r1].
  destruct (dmp_step _ _ _ _ (with_base (set_start_y (one 1) (o_base (fresh o))) (fresh o)))
    as [a2 r2].
  cbn [snd] in S1, S2. subst r1 r2. cbn [snd obs_of fst]. intros H.
  apply (f_equal (fun l => match l with [_; OState y _] => aget y 0%nat | _ => 0 end)) in H.
  unfold norm in H. simpl in H. rewrite Hio in H. simpl in H. rewrite P12, P13 in H. simpl in H.
  unfold vzero in H. lra.
Qed.

Example C22_satisfiable : exists o, reachable 1 o
  /\ Forall keeps_start [CSetDt (1/50); COpenLoop None None (Some RK4); CReset].
Proof.
  destruct (ex_new_ok 1 25 (25/4)) as (f & o & E & Ef & Eo).
  exists o. split; [eapply ex_reachable; eauto|]. repeat constructor.
Qed.

(** ** C23 *)
Definition bad_length (x : option arr) (n : nat) : Prop :=
  exists a, x = Some a /\ alen a <> n.

Theorem C23_configure_errors : forall n o c, reachable n o ->
  (snd (dmp_configure c o) = Err ValueError
   <-> (bad_length (c_start_y c) n \/ bad_length (c_start_yd c) n \/ bad_length (c_start_ydd c) n
        \/ bad_length (c_goal_y c) n \/ bad_length (c_goal_yd c) n \/ bad_length (c_goal_ydd c) n))
  /\ (snd (dmp_configure c o) <> Err ValueError -> snd (dmp_configure c o) = Ok tt).
Proof.
  intros n o c Hr. destruct (reachable_shapes n o Hr) as [Hsh Hn].
  assert (Hv : p_n_vel_dims (o_base o) = n) by (destruct Hsh; congruence).
  assert (Hbad : forall x, ~ arr_fits x n <-> bad_length x n).
  { intros [a|]; unfold bad_length; simpl.
    - split; [intros; exists a; auto|]. intros (b & [= ->] & H); auto.
    - split; [tauto|]. intros (b & [=] & _). }
  unfold dmp_configure.
  destruct (configure_cases c (o_base o)) as [[V ->] | [V (k & _ & _ & _ & ->)]]; simpl;
    unfold configure_valid in V; rewrite Hn, Hv in V; rewrite <- !Hbad.
  - split; [|auto]. split; [discriminate|]. tauto.
  - split; [|congruence]. split; [intros _|auto].
    destruct (arr_fits_dec (c_start_y c) n), (arr_fits_dec (c_start_yd c) n),
      (arr_fits_dec (c_start_ydd c) n), (arr_fits_dec (c_goal_y c) n),
      (arr_fits_dec (c_goal_yd c) n), (arr_fits_dec (c_goal_ydd c) n); tauto.
Qed.

(** In every state after construction and any history, all vectors have the
    announced length. *)
Theorem C23_shapes : forall junk n x dt nw idt pg sm al be o0 cs,
  dmp_new junk n x dt nw idt pg sm al be = Ok o0 ->
  let p := o_base (fst (exec_all cs o0)) in
  Forall (fun a => alen a = n)
    [p_start_y p; p_start_yd p; p_start_ydd p; p_goal_y p; p_goal_yd p; p_goal_ydd p;
     p_current_y p; p_current_yd p].
Proof.
  intros junk n x dt nw idt pg sm al be o0 cs E p.
  assert (Hr : reachable n (fst (exec_all cs o0)))
    by (exists junk, x, dt, nw, idt, pg, sm, al, be, o0, cs; auto).
  destruct (reachable_shapes n _ Hr) as [Hsh Hn]. split_shapes Hsh. unfold p.
  repeat constructor; congruence.
Qed.

Example C23_satisfiable : exists o, reachable 1 o
  /\ snd (dmp_configure (conf_start (Some {| alen := 2; aget := vzero |}) None) o) = Err ValueError
  /\ snd (dmp_configure (conf_start (Some (one 3)) None) o) = Ok tt.
Proof.
  destruct (ex_new_ok 1 25 (25/4)) as (f & o & E & Ef & Eo).
  exists o. split; [eapply ex_reachable; eauto|]. rewrite Eo. split; reflexivity.
Qed.

(** ** C24 *)
(** A failed [configure] may have assigned the time and a valid prefix of the
    arrays; every attribute is the old one or the (valid) given one, and
    parameters, weights and current state are unchanged. *)
Theorem C24_failed_configure_partial : forall n o c, reachable n o ->
  snd (dmp_configure c o) = Err ValueError ->
  let o' := fst (dmp_configure c o) in
  let p := o_base o in let p' := o_base o' in
  let old_or_given x a a' := a' = a \/ (x = Some a' /\ alen a' = n) in
  old_or_given (c_start_y c) (p_start_y p) (p_start_y p')
  /\ old_or_given (c_start_yd c) (p_start_yd p) (p_start_yd p')
  /\ old_or_given (c_start_ydd c) (p_start_ydd p) (p_start_ydd p')
  /\ old_or_given (c_goal_y c) (p_goal_y p) (p_goal_y p')
  /\ old_or_given (c_goal_yd c) (p_goal_yd p) (p_goal_yd p')
  /\ p_goal_ydd p' = p_goal_ydd p
  /\ p_t p' = match c_t c with Some t => t | None => p_t p end
  /\ p_last_t p' = p_last_t p /\ p_current_y p' = p_current_y p
  /\ p_current_yd p' = p_current_yd p
  /\ o' = with_base p' o.
Proof.
  intros n o c Hr He o' p p' og. destruct (reachable_shapes n o Hr) as [Hsh Hn].
  assert (Hv : p_n_vel_dims (o_base o) = n) by (destruct Hsh; congruence).
  assert (Hog : forall x a, arr_fits x n -> og x a (given x a)).
  { intros [b|] a H; unfold og; simpl in *; auto. }
  unfold p', o'. clear o' p'. revert He. unfold dmp_configure.
  destruct (configure_cases c (o_base o)) as [[V ->] | [V (k & Hk & Vk & _ & ->)]]; simpl;
    [discriminate|]. intros _. fold p in Hn, Hv |- *.
  unfold configure_valid, drop_from in Vk. simpl in Vk. fold p in Vk. rewrite Hn, Hv in Vk.
  destruct Vk as (V1 & V2 & V3 & V4 & V5 & V6).
  repeat split; auto.
  - destruct k as [|k]; simpl in *; [left; reflexivity|auto].
  - destruct k as [|[|k]]; simpl in *; try (left; reflexivity); auto.
  - destruct k as [|[|[|k]]]; simpl in *; try (left; reflexivity); auto.
  - destruct k as [|[|[|[|k]]]]; simpl in *; try (left; reflexivity); auto.
  - destruct k as [|[|[|[|[|k]]]]]; simpl in *; try (left; reflexivity); auto.
  - destruct k as [|[|[|[|[|[|k]]]]]]; simpl in *; try reflexivity. lia.
Qed.

Theorem C24_not_atomic_refuted : exists o c, reachable 1 o
  /\ snd (dmp_configure c o) = Err ValueError
  /\ p_t (o_base (fst (dmp_configure c o))) <> p_t (o_base o)
  /\ p_start_y (o_base (fst (dmp_configure c o))) <> p_start_y (o_base o).
Proof.
  destruct (ex_new_ok 1 25 (25/4)) as (f & o & E & Ef & Eo).
  exists o, {| c_t := Some 1; c_start_y := Some (one 1); c_start_yd := None; c_start_ydd := None;
     c_goal_y := Some {| alen := 2; aget := vzero |}; c_goal_yd := None; c_goal_ydd := None |}.
  split; [eapply ex_reachable; eauto|]. rewrite Eo. simpl. split; [reflexivity|].
  split; [lra|]. intros H. apply (f_equal (fun a => aget a 0%nat)) in H. simpl in H.
  unfold vzero in H. lra.
Qed.

(** ** C25 *)
Theorem C25_ensure_1d_array : forall v n,
  (* a scalar or a one-element vector is repeated *)
  (shape v = [] \/ shape v = [1%nat] ->
     exists a, ensure_1d_array v n = Ok a /\ alen a = n /\ forall i, aget a i = data v 0%nat)
  (* a vector of length n is returned unchanged *)
  /\ (shape v = [n] -> exists a, ensure_1d_array v n = Ok a /\ alen a = n
        /\ forall i, (i < n)%nat -> aget a i = data v i)
  (* everything else is rejected *)
  /\ (shape v <> [] -> shape v <> [1%nat] -> shape v <> [n] -> ensure_1d_array v n = Err ValueError).
Proof.
  intros [sh dt] n. unfold ensure_1d_array. simpl. repeat split.
  - intros [-> | ->]; simpl; rewrite Nat.eqb_refl; eexists; repeat split.
  - intros ->. destruct n as [|[|n]]; simpl.
    + eexists; repeat split.
    + eexists; repeat split. intros i Hi. simpl. now replace i with 0%nat by lia.
    + rewrite Nat.eqb_refl. eexists; repeat split.
  - intros H1 H2 H3. destruct sh as [|[|[|k]] [|m l]]; cbn -[Nat.eqb]; try congruence;
      match goal with |- (if Nat.eqb ?x ?y then _ else _) = _ => destruct (Nat.eqb_spec x y) end;
      congruence.
Qed.

Example C25_satisfiable :
  ensure_1d_array {| shape := [2%nat; 3%nat]; data := vzero |} 6 = Err ValueError
  /\ exists a, ensure_1d_array {| shape := [3%nat]; data := INR |} 3 = Ok a /\ aget a 2%nat = 2.
Proof. split; [reflexivity|]. eexists; split; [reflexivity|]. simpl. lra. Qed.

(** ** C26 *)
Definition same_arr (a b : arr) : Prop :=
  alen a = alen b /\ forall i, (i < alen a)%nat -> aget a i = aget b i.

Theorem C26_set_get : forall n o w, reachable n o ->
  (alen w = dmp_n_weights o ->
     snd (dmp_set_weights w o) = Ok tt
     /\ same_arr (dmp_get_weights (fst (dmp_set_weights w o))) w)
  /\ (alen w <> dmp_n_weights o -> dmp_set_weights w o = (o, Err ValueError))
  /\ dmp_n_weights o = (n * o_n_weights_per_dim o)%nat
  /\ alen (dmp_get_weights o) = dmp_n_weights o.
Proof.
  intros n o w Hr. destruct (reachable_shapes n o Hr) as [Hsh Hn]. split_shapes Hsh.
  split; [|split; [|split]].
  - intros Hw. unfold dmp_n_weights in Hw. unfold dmp_set_weights.
    assert (Hm : (0 < ft_n (o_forcing_term o))%nat) by lia.
    destruct (reshape w (p_n_dims (o_base o)) (ft_n (o_forcing_term o))) as [W|] eqn:E.
    + destruct (ravel_reshape _ _ _ _ Hm E) as [A B]. cbn [fst snd].
      split; [reflexivity|]. split; [exact A|]. intros; apply B.
    + unfold reshape in E. rewrite Hw, Nat.eqb_refl in E. discriminate.
  - intros Hw. unfold dmp_set_weights, reshape. unfold dmp_n_weights in Hw.
    destruct (Nat.eqb_spec (alen w) (p_n_dims (o_base o) * ft_n (o_forcing_term o))); congruence.
  - unfold dmp_n_weights. congruence.
  - reflexivity.
Qed.

(** [set_weights(get_weights())] changes nothing: the object cannot be told
    apart from the old one by any later history. *)
Definition same_weights (f f' : forcing_term) : Prop :=
  exists w, f' = set_ft_weights w f
    /\ forall d i, (i < ft_n f)%nat -> w d i = ft_weights f d i.
Definition same_but_weights (o o' : dmp) : Prop :=
  o' = with_forcing_term (o_forcing_term o') o
  /\ same_weights (o_forcing_term o) (o_forcing_term o').

Lemma same_weights_forces f f' : same_weights f f' ->
  ft_phase f' = ft_phase f /\ ft_forces f' = ft_forces f.
Proof.
  intros (w & -> & H). split; [reflexivity|].
  apply functional_extensionality; intro z. apply functional_extensionality; intro d.
  unfold ft_forces. cbn [ft_n set_ft_weights ft_weights].
  f_equal. apply rsum_ext. intros i Hi. rewrite H by auto. reflexivity.
Qed.

Lemma same_weights_set w f f' : same_weights f f' -> set_ft_weights w f' = set_ft_weights w f.
Proof. intros (w' & -> & _). reflexivity. Qed.

Lemma step_weights fn o f' c te lt t s : same_weights (o_forcing_term o) f' ->
  run_step_function fn (step_args (with_forcing_term f' o) c te) lt t s
  = run_step_function fn (step_args o c te) lt t s.
Proof.
  intros H. destruct (same_weights_forces _ _ H). apply step_args_equiv; [|left; reflexivity].
  constructor; simpl; auto.
Qed.

Lemma open_loop_weights fn o f' c : same_weights (o_forcing_term o) f' ->
  run_step_function fn (open_loop_step_args (with_forcing_term f' o) c)
  = run_step_function fn (open_loop_step_args o c).
Proof.
  intros H. destruct (same_weights_forces _ _ H).
  do 3 (apply functional_extensionality; intro). apply step_args_equiv; [|left; reflexivity].
  constructor; simpl; auto.
Qed.

Lemma same_but_intro o f' : same_weights (o_forcing_term o) f' ->
  same_but_weights o (with_forcing_term f' o).
Proof. intros H. split; auto. Qed.

Lemma same_weights_refl f : same_weights f f.
Proof. exists (ft_weights f). split; auto. now destruct f. Qed.

Lemma same_but_refl o : same_but_weights o o.
Proof. split; [now destruct o|apply same_weights_refl]. Qed.

Lemma configure_weights c o f' :
  dmp_configure c (with_forcing_term f' o)
  = (with_forcing_term f' (fst (dmp_configure c o)), snd (dmp_configure c o)).
Proof. unfold dmp_configure. simpl. destruct (configure c (o_base o)) as [p [e|]]; reflexivity. Qed.

Lemma exec_same_weights c o o' : shapes_ok o -> same_but_weights o o' ->
  snd (exec c o') = snd (exec c o) /\ same_but_weights (fst (exec c o)) (fst (exec c o')).
Proof.
  intros Hsh [E H]. rewrite E. set (f' := o_forcing_term o') in *. clearbody f'. clear o' E.
  destruct c; cbn [exec].
  - rewrite configure_weights. destruct (dmp_configure_params c o) as [_ F].
    destruct (dmp_configure c o) as [o1 r]. simpl in *. split; auto.
    apply same_but_intro. now rewrite F.
  - split; auto. apply (same_but_intro (dmp_reset o) f' H).
  - destruct (step_valid_dec last_y last_yd fn (p_n_dims (o_base o))) as [(g & -> & Hy & Hyd) | Hi].
    + rewrite !dmp_step_eq by auto. cbv zeta.
      assert (En : tick (norm (with_forcing_term f' o)) = with_forcing_term f' (tick (norm o)))
        by (destruct o as [b [|] ? ? ? ? ? ? ? ? ?]; reflexivity).
      rewrite En.
      assert (H' : same_weights (o_forcing_term (tick (norm o))) f')
        by (destruct o as [b [|] ? ? ? ? ? ? ? ? ?]; exact H).
      set (q := tick (norm o)) in *.
      change (o_base (with_forcing_term f' q)) with (o_base q).
      change (o_base (with_forcing_term f' o)) with (o_base o).
      change (o_dt (with_forcing_term f' o)) with (o_dt o).
      rewrite step_weights by auto.
      destruct (run_step_function _ _ _ _ _) as [[y1 v1]|]; simpl; split; auto;
        (split; [reflexivity|exact H']).
    + destruct (dmp_step_invalid last_y last_yd c fn o Hi) as [e E].
      assert (E' : dmp_step last_y last_yd c fn (with_forcing_term f' o)
                   = (with_forcing_term f' o, snd (dmp_step last_y last_yd c fn o))).
      { unfold dmp_step in *. destruct fn; [|reflexivity].
        change (o_base (with_forcing_term f' o)) with (o_base o).
        destruct (Nat.eqb_spec (alen last_y) (p_n_dims (o_base o))); cbn [negb]; [|reflexivity].
        destruct (Nat.eqb_spec (alen last_yd) (p_n_dims (o_base o))); cbn [negb]; [|reflexivity].
        destruct Hi as [Hi|[Hi|Hi]]; congruence. }
      rewrite E', E. simpl. split; auto. now apply same_but_intro.
  - cbn [fst snd]. split; [|now apply same_but_intro]. f_equal.
    unfold dmp_open_loop. destruct fn; [|reflexivity]. now rewrite open_loop_weights.
  - unfold dmp_imitate_method. cbn [o_base with_forcing_term o_n_weights_per_dim o_alpha_y o_beta_y
      o_smooth_scaling o_forcing_term].
    assert (ft_overlap f' = ft_overlap (o_forcing_term o)
            /\ ft_alpha_z f' = ft_alpha_z (o_forcing_term o)) as [-> ->]
      by (destruct H as (w & -> & _); auto).
    destruct (dmp_imitate _ _ _ _ _ _ _ _ _ _ _ _) as [[[w sy] gy]|];
      [|simpl; split; auto; now apply same_but_intro].
    destruct (negb _); [simpl; split; auto; now apply same_but_intro|].
    rewrite (same_weights_set w _ _ H).
    change (with_forcing_term (set_ft_weights w (o_forcing_term o)) (with_forcing_term f' o))
      with (with_forcing_term (set_ft_weights w (o_forcing_term o)) o).
    split; auto. apply same_but_refl.
  - cbn [fst snd]. split; [|now apply same_but_intro]. f_equal.
    split_shapes Hsh. unfold dmp_get_weights. simpl.
    destruct H as (w & -> & H). cbn [ft_n set_ft_weights ft_weights]. unfold ravel. f_equal.
    apply functional_extensionality; intro k. apply H. apply Nat.mod_upper_bound. lia.
  - unfold dmp_set_weights. cbn [o_base with_forcing_term o_forcing_term].
    assert (ft_n f' = ft_n (o_forcing_term o)) as -> by (destruct H as (w0 & -> & _); auto).
    destruct (reshape _ _ _) as [w1|]; [|simpl; split; auto; now apply same_but_intro].
    rewrite (same_weights_set w1 _ _ H). simpl. split; auto. apply same_but_refl.
  - unfold dmp_set_execution_time. cbn [with_execution_time with_forcing_term o_forcing_term
      o_n_weights_per_dim].
    split_shapes Hsh.
    destruct (init_forcing_term junk (o_n_weights_per_dim o) x) as [f|] eqn:Ef; simpl; split; auto.
    + destruct H as (w & -> & H). split; [reflexivity|]. simpl. exists w. split; [reflexivity|].
      apply init_forcing_term_inv in Ef. destruct Ef as (_ & _ & Ef).
      apply forcing_term_init_n in Ef. destruct Ef as (Ef & _). simpl. rewrite Ef, <- H11. exact H.
    + split; auto.
  - simpl. split; auto. apply (same_but_intro (with_dt x o) f' H).
  - simpl. split; auto. apply (same_but_intro (with_int_dt x o) f' H).
Qed.

Lemma exec_all_same_weights cs : forall o o', shapes_ok o -> same_but_weights o o' ->
  snd (exec_all cs o') = snd (exec_all cs o).
Proof.
  induction cs as [|c cs IH]; intros o o' Hsh H; [reflexivity|]. cbn [exec_all].
  destruct (exec_same_weights c o o' Hsh H) as [A B]. destruct (exec_shapes c o Hsh) as [C _].
  destruct (exec c o) as [q x], (exec c o') as [q' x']. simpl in A, B, C. subst x'.
  specialize (IH q q' C B). destruct (exec_all cs q), (exec_all cs q'). simpl in *. now subst.
Qed.

Theorem C26_get_set : forall n o cs, reachable n o ->
  let o' := fst (dmp_set_weights (dmp_get_weights o) o) in
  snd (dmp_set_weights (dmp_get_weights o) o) = Ok tt
  /\ snd (exec_all cs o') = snd (exec_all cs o).
Proof.
  intros n o cs Hr o'. destruct (reachable_shapes n o Hr) as [Hsh Hn].
  destruct (reshape_ravel (p_n_dims (o_base o)) (ft_n (o_forcing_term o))
              (ft_weights (o_forcing_term o))) as (w & E & Hw).
  assert (Eo : dmp_set_weights (dmp_get_weights o) o
      = (with_forcing_term (set_ft_weights w (o_forcing_term o)) o, Ok tt))
    by (unfold dmp_set_weights, dmp_get_weights; now rewrite E).
  unfold o'. rewrite Eo. split; [reflexivity|]. apply exec_all_same_weights; auto.
  apply same_but_intro. exists w. split; auto.
Qed.

Example C26_satisfiable : exists o w, reachable 2 o /\ dmp_n_weights o = 4%nat
  /\ alen w = dmp_n_weights o /\ aget w 3%nat = 3
  /\ ~ same_arr w (dmp_get_weights o).
Proof.
  destruct (ex_new_ok 2 25 (25/4)) as (f & o & E & Ef & Eo).
  pose proof Ef as Ef'. apply forcing_term_init_n in Ef'. destruct Ef' as (En & _).
  exists o, {| alen := 4; aget := INR |}. split; [eapply ex_reachable; eauto|].
  rewrite Eo. unfold dmp_n_weights. simpl. rewrite En. repeat split; auto; [simpl; lra|].
  intros [_ H]. specialize (H 3%nat ltac:(cbn [alen]; lia)). simpl in H.
  unfold forcing_term_init in Ef. repeat (destruct (Rle_dec _ _); try discriminate). cbn in Ef.
  injection Ef as <-. simpl in H. lra.
Qed.

(** ** C28 *)
(** Assigning a positive execution time keeps the weights and all other
    attributes; the forcing term becomes the one of a new object with that
    execution time. *)
Theorem C28_set_execution_time : forall n o junk x, reachable n o -> 0 < x ->
  let o' := fst (dmp_set_execution_time junk x o) in
  snd (dmp_set_execution_time junk x o) = Ok tt
  /\ dmp_get_weights o' = dmp_get_weights o
  /\ o_execution_time o' = x
  /\ (exists f, init_forcing_term junk (o_n_weights_per_dim o) x = Ok f
        /\ o_forcing_term o' = set_ft_weights (ft_weights (o_forcing_term o)) f)
  /\ o' = with_forcing_term (o_forcing_term o') (with_execution_time x o)
  /\ (forall i, (i < o_n_weights_per_dim o)%nat ->
        ft_centers (o_forcing_term o') i = ft_centers (o_forcing_term o) i
        /\ ft_widths (o_forcing_term o') i = ft_widths (o_forcing_term o) i)
  /\ ft_alpha_z (o_forcing_term o') = ft_alpha_z (o_forcing_term o)
  /\ ft_goal_t (o_forcing_term o') = x /\ ft_start_t (o_forcing_term o') = 0.
Proof.
  intros n o junk x Hr Hx o'.
  destruct (reachable_shapes n o Hr) as [Hsh Hn]. split_shapes Hsh.
  destruct (reachable_ft_built n o Hr) as (j & x0 & f0 & w & Ef0 & Ew).
  destruct (init_forcing_term_accepts junk (o_n_weights_per_dim o) x H12 Hx) as [f Ef].
  assert (Eo : dmp_set_execution_time junk x o
     = (with_forcing_term (set_ft_weights (ft_weights (o_forcing_term o)) f)
          (with_execution_time x o), Ok tt)).
  { unfold dmp_set_execution_time. cbn [o_n_weights_per_dim with_execution_time]. now rewrite Ef. }
  unfold o'. rewrite Eo. clear o' Eo. cbn [fst snd].
  pose proof Ef as Efc. apply init_forcing_term_inv in Ef0, Ef.
  destruct Ef0 as (_ & Hx0 & Ef0), Ef as (_ & _ & Ef).
  pose proof (forcing_term_init_n _ _ _ _ _ _ _ _ Ef) as (N1 & G1 & S1 & _ & A1 & _).
  pose proof (forcing_term_init_n _ _ _ _ _ _ _ _ Ef0) as (N0 & G0 & S0 & _ & A0 & _).
  split; [reflexivity|]. split.
  { unfold dmp_get_weights. simpl. now rewrite N1, H11. }
  split; [reflexivity|]. split; [eauto|]. split; [reflexivity|]. split.
  - intros i Hi. rewrite Ew. simpl.
    destruct (forcing_term_init_ok (fst j) (snd j) (o_n_weights_per_dim o)
       x 0 (8 / 10) (- ln (1 / 100)) H12 Hx ltac:(lra)) as (f'' & E'' & _).
    pose proof (C05_basis_independent_of_duration_partial _ _ _ _ _ _ _ _ _ Ef0 E'') as A.
    pose proof (C02_fully_initialised _ _ _ _ _ _ _ _ _ _ _ E'' Ef) as B.
    destruct (A i Hi) as [-> ->]. destruct (B i Hi) as [-> ->]. auto.
  - rewrite Ew. simpl. rewrite A1, A0, G1, S1. auto.
Qed.

(** A non-positive execution time is rejected, but not without a trace: the
    attribute is changed while the forcing term is the old one, and the next
    Euler step raises. *)
Theorem C28_rejected_partial : forall n o junk x, reachable n o -> x <= 0 ->
  dmp_set_execution_time junk x o = (with_execution_time x o, Err ValueError).
Proof.
  intros n o junk x _ Hx. unfold dmp_set_execution_time.
  cbn [o_n_weights_per_dim with_execution_time]. now rewrite init_forcing_term_rejects.
Qed.

Theorem C28_rejected_not_atomic_refuted :
  exists o junk x, reachable 1 o
    /\ snd (dmp_set_execution_time junk x o) = Err ValueError
    /\ (exists r, snd (dmp_step (one 0) (one 0) None (Some Euler) o) = Ok r)
    /\ snd (dmp_step (one 0) (one 0) None (Some Euler) (fst (dmp_set_execution_time junk x o)))
       = Err ValueError.
Proof.
  destruct (ex_new_ok 1 25 (25/4)) as (f & o & E & Ef & Eo).
  exists o, (vzero, vzero), (-1).
  assert (Hr : reachable 1 o) by (eapply ex_reachable; eauto).
  rewrite (C28_rejected_partial 1 o (vzero, vzero) (-1) Hr) by lra. cbn [fst snd].
  split; [exact Hr|]. split; [reflexivity|]. split.
  - rewrite dmp_step_eq by (rewrite Eo; reflexivity). cbv zeta. cbn [run_step_function].
    unfold dmp_step_euler at 1.
    replace (a_goal_t (step_args (tick (norm o)) None
       (vsub (aget (p_current_y (o_base (tick (norm o))))) (aget (one 0))))) with 1
      by (rewrite Eo; reflexivity).
    replace (p_t (o_base o)) with 0 by (rewrite Eo; reflexivity).
    replace (o_dt o) with (1/100) by (rewrite Eo; reflexivity).
    replace (a_int_dt (step_args (tick (norm o)) None
       (vsub (aget (p_current_y (o_base (tick (norm o))))) (aget (one 0))))) with (1/1000)
      by (rewrite Eo; reflexivity).
    cbn [a_start_t step_args]. destruct (Rle_dec 1 0); [lra|]. destruct (Rle_dec (0 + 1/100) 0); [lra|].
    match goal with |- context [substeps _ _ _ _ ?b ?s] =>
      destruct (C20_substeps_tile_the_interval _ b 0 (0 + 1/100) (1/1000) s) as (l & -> & _) end;
      try lra.
    destruct (exec_substeps _ _ _) as [y1 v1]. eexists; reflexivity.
  - rewrite Eo. rewrite dmp_step_eq by reflexivity. cbv zeta. cbn [run_step_function].
    unfold dmp_step_euler. simpl. destruct (Rle_dec (-1) 0); [reflexivity|lra].
Qed.

Example C28_satisfiable : exists o, reachable 2 o /\ 0 < 3 /\ o_execution_time o = 1.
Proof.
  destruct (ex_new_ok 2 25 (25/4)) as (f & o & E & Ef & Eo).
  exists o. split; [eapply ex_reachable; eauto|]. rewrite Eo. simpl. lra.
Qed.
