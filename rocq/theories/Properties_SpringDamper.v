(** C46 (positions).  Final statements. *)
From Coq Require Import Reals List Arith Lia Lra Psatz FunctionalExtensionality.
From Coquelicot Require Import Coquelicot.
From Verif Require Import M_Prelude M_Canonical M_Forcing M_Dmp M_Base M_SpringDamper S_Loops
  P_Loops P_Canonical P_Forcing P_DmpStep P_DmpScale P_DmpLinear P_Converge P_Runs.
Import ListNotations.
Open Scope R_scope.
Set Bullet Behavior "Strict Subproofs".

(** A forcing term with weights zero. *)
Definition no_force : forcing_term :=
  {| ft_n := 1; ft_goal_t := 1; ft_start_t := 0; ft_overlap := 8/10; ft_alpha_z := 1;
     ft_weights := fun _ _ => 0; ft_centers := vzero; ft_widths := vzero |}.

(** A DMP with execution time 1, stiffness [k] and damping [c]. *)
Definition sd_dmp (start_t k c int_dt : R) (g : vec) : dmp_args :=
  {| a_goal_y := g; a_goal_yd := vzero; a_goal_ydd := vzero;
     a_start_y := vzero; a_start_yd := vzero; a_start_ydd := vzero;
     a_goal_t := start_t + 1; a_start_t := start_t;
     a_alpha_y := fun _ => c; a_beta_y := fun _ => k / c;
     a_forcing_term := no_force; a_coupling_term := None; a_precomputed := None;
     a_int_dt := int_dt; a_p_gain := 0; a_tracking_error := None; a_smooth_scaling := false |}.

Lemma sd_body_is_euler g k c t0 int_dt ct h s : c <> 0 -> h <> 0 ->
  sd_body g k c None None ct h s = euler_body (sd_dmp t0 k c int_dt g) ct h s.
Proof.
  intros Hc Hh. destruct s as [y v]. unfold sd_body, euler_body, dmp_acc, precomputed_cdd.
  cbn [sd_dmp a_goal_y a_goal_t a_start_t a_alpha_y a_beta_y a_forcing_term a_coupling_term
    a_precomputed a_p_gain a_tracking_error a_smooth_scaling a_start_y tracking_error_or_zero].
  assert (Ef : ft_forces no_force (ft_phase no_force ct) = vzero).
  { apply functional_extensionality; intro d. unfold ft_forces, no_force, vzero. simpl. ring. }
  rewrite Ef. unfold vadd, vscale, vzero.
  assert (Ev : forall d, v d + (h * (k * (g d - y d) - c * v d + 0) + 0)
    = v d + h * ((c * (k / c * (g d - y d) - (t0 + 1 - t0) * v d - 0) + 0 + 0 + 0 * 0 / h)
                 / (t0 + 1 - t0) ^ 2)).
  { intros d. replace (t0 + 1 - t0) with 1 by ring. field. auto. }
  f_equal; apply functional_extensionality; intro d.
  - f_equal. f_equal. apply Ev.
  - apply Ev.
Qed.

Lemma exec_substeps_ext_pos {S} (b b' : R -> R -> S -> S) lt t H l : forall s, tiles lt t H l ->
  (forall c h s, 0 < h -> b c h s = b' c h s) -> exec_substeps b l s = exec_substeps b' l s.
Proof.
  revert lt. induction l as [|[c h] l IH]; intros lt s Ht Hb; [reflexivity|].
  simpl in Ht. destruct Ht as (Hh & -> & _ & Ht).
  unfold exec_substeps. simpl. rewrite Hb by lra. eapply IH; eauto.
Qed.

(** ** A spring-damper is a DMP without forcing term *)
Theorem C46_dmp_without_forcing_term : forall g k c int_dt last_t t s,
  let c' := match c with Some c => c | None => 2 * sqrt k end in
  c' <> 0 -> 0 < int_dt -> last_t <= t ->
  forall start_t, start_t < t ->
  spring_damper_step g k c None None int_dt last_t t s
  = dmp_step_euler (sd_dmp start_t k c' int_dt g) last_t t s.
Proof.
  intros g k c int_dt lt t s c' Hc Hi Hl t0 Ht0.
  unfold spring_damper_step, dmp_step_euler, default_critically_damped_c. fold c'.
  cbn [sd_dmp a_goal_t a_start_t a_int_dt].
  destruct (Rle_dec (t0 + 1) t0); [lra|]. destruct (Rle_dec t t0); [lra|].
  destruct (substeps_tiles lt t int_dt Hi Hl) as [l [Htl Hs]]. rewrite !Hs. f_equal.
  eapply exec_substeps_ext_pos; [exact Htl|].
  intros ct h s' Hh. change (fun _ : nat => k / c') with (fun _ : nat => k / c').
  apply sd_body_is_euler; auto. lra.
Qed.

(** The integrator is a function of state and parameters: one call of [step]. *)
Lemma sd_step_eq o y yd ct : alen y = alen (p_current_y (s_base o)) ->
  alen yd = alen (p_current_yd (s_base o)) ->
  alen (p_start_y (s_base o)) = alen (p_current_y (s_base o)) ->
  alen (p_start_yd (s_base o)) = alen (p_current_yd (s_base o)) ->
  0 < s_dt o -> 0 < s_int_dt o ->
  exists s o', spring_damper_step (aget (p_goal_y (s_base o))) (s_k o) (s_c o) ct None (s_int_dt o)
      (p_t (s_base o)) (p_t (s_base o) + s_dt o) (aget y, aget yd) = Ok s
  /\ sd_step y yd ct o = (o', Ok ({| alen := alen y; aget := fst s |},
                                  {| alen := alen yd; aget := snd s |}))
  /\ p_t (s_base o') = p_t (s_base o) + s_dt o
  /\ s_dt o' = s_dt o /\ s_k o' = s_k o /\ s_c o' = s_c o /\ s_int_dt o' = s_int_dt o
  /\ p_goal_y (s_base o') = p_goal_y (s_base o)
  /\ alen (p_current_y (s_base o')) = alen y /\ alen (p_current_yd (s_base o')) = alen yd
  /\ p_start_y (s_base o') = p_start_y (s_base o) /\ p_start_yd (s_base o') = p_start_yd (s_base o).
Proof.
  intros Hy Hyd Hsy Hsyd Hdt Hi.
  destruct (substeps_tiles (p_t (s_base o)) (p_t (s_base o) + s_dt o) (s_int_dt o) Hi ltac:(lra))
    as [l [_ Hs]].
  assert (HE : exists y' v', spring_damper_step (aget (p_goal_y (s_base o))) (s_k o) (s_c o) ct None
    (s_int_dt o) (p_t (s_base o)) (p_t (s_base o) + s_dt o) (aget y, aget yd) = Ok (y', v')).
  { unfold spring_damper_step. rewrite Hs. destruct (exec_substeps _ l _) as [y' v']. eauto. }
  destruct HE as (y' & v' & HE). exists (y', v'). eexists. split; [exact HE|].
  unfold sd_step. cbv zeta.
  set (p := if s_initialized o then _ else _).
  assert (E1 : assign_slice (p_current_y p) y = Ok y).
  { unfold assign_slice.
    replace (alen (p_current_y p)) with (alen y); [now rewrite Nat.eqb_refl|].
    unfold p. destruct (s_initialized o); simpl; congruence. }
  assert (E2 : assign_slice (p_current_yd p) yd = Ok yd).
  { unfold assign_slice.
    replace (alen (p_current_yd p)) with (alen yd); [now rewrite Nat.eqb_refl|].
    unfold p. destruct (s_initialized o); simpl; congruence. }
  assert (E3 : p_goal_y p = p_goal_y (s_base o)) by (unfold p; destruct (s_initialized o); auto).
  rewrite E1, E2, E3. cbn [sd_with s_k s_c s_int_dt].
  rewrite HE. split; [reflexivity|].
  cbn. unfold p. destruct (s_initialized o); cbn; repeat split.
Qed.

(** Well-formed objects: the state arrays have the dimension of the object. *)
Definition sd_shapes (o : spring_damper) (n : nat) : Prop :=
  alen (p_current_y (s_base o)) = n /\ alen (p_current_yd (s_base o)) = n
  /\ alen (p_start_y (s_base o)) = n /\ alen (p_start_yd (s_base o)) = n.

Lemma sd_n_steps_seq ct : forall k o n y yd, sd_shapes o n -> alen y = n -> alen yd = n ->
  0 < s_dt o -> 0 < s_int_dt o ->
  exists o' s, run_seq (spring_damper_step (aget (p_goal_y (s_base o))) (s_k o) (s_c o) ct None
       (s_int_dt o)) (p_t (s_base o)) (s_dt o) (aget y, aget yd) k = Ok s
  /\ sd_n_steps ct k y yd o = (o', Ok ({| alen := n; aget := fst s |}, {| alen := n; aget := snd s |}))
  /\ p_t (s_base o') = p_t (s_base o) + INR k * s_dt o.
Proof.
  induction k as [|k IH]; intros o n y yd (S1 & S2 & S3 & S4) Hy Hyd Hdt Hi.
  - exists o, (aget y, aget yd). split; [reflexivity|]. split.
    + simpl. destruct y, yd; simpl in *; subst; reflexivity.
    + simpl. ring.
  - destruct (sd_step_eq o y yd ct) as (s & o' & Es & E & Et & E1 & E2 & E3 & E4 & E5 & E6 & E7 & E8 & E9);
      try congruence; auto.
    destruct (IH o' n {| alen := alen y; aget := fst s |} {| alen := alen yd; aget := snd s |})
      as (o'' & s' & Hr & Hn & Ht); try (simpl; congruence); auto.
    { unfold sd_shapes. rewrite E6, E7, E8, E9. repeat split; congruence. }
    exists o'', s'. rewrite run_seq_shift.
    replace (p_t (s_base o) + INR 0 * s_dt o) with (p_t (s_base o)) by (simpl; ring).
    replace (p_t (s_base o) + INR 1 * s_dt o) with (p_t (s_base o) + s_dt o) by (simpl; ring).
    rewrite Es. cbn [bind]. rewrite E1, E2, E3, E4, E5, Et in Hr. cbn [aget] in Hr.
    destruct s as [y1 v1]. cbn [fst snd] in *.
    split; [exact Hr|]. cbn [sd_n_steps]. rewrite E. split; [exact Hn|].
    rewrite Ht, Et, E1, S_INR. ring.
Qed.

(** ** Convergence *)
(** From every state of the object and every position and velocity, repeated
    [step] calls with critical damping converge to the goal with zero velocity,
    for every period [dt]; [int_dt * sqrt k <= 1/2] is the sufficient stability
    condition of the integrator used here. *)
Theorem C46_converges : forall o n y yd d,
  sd_shapes o n -> alen y = n -> alen yd = n ->
  0 < s_k o -> s_c o = None -> 0 < s_dt o -> 0 < s_int_dt o -> s_int_dt o * sqrt (s_k o) <= 1 / 2 ->
  forall eps, 0 < eps -> exists N, forall j, (N <= j)%nat ->
  exists o' y' yd', sd_n_steps None j y yd o = (o', Ok (y', yd'))
  /\ Rabs (aget y' d - aget (p_goal_y (s_base o)) d) < eps /\ Rabs (aget yd' d) < eps.
Proof.
  intros o n y yd d Hsh Hy Hyd Hk Hc Hdt Hi Hst eps He.
  set (g := aget (p_goal_y (s_base o))). set (t0 := p_t (s_base o)). set (dt := s_dt o) in *.
  set (c := 2 * sqrt (s_k o)).
  assert (Hsq : 0 < sqrt (s_k o)) by now apply sqrt_lt_R0.
  assert (Hc0 : c <> 0) by (unfold c; lra).
  set (a := sd_dmp (t0 - 1) (s_k o) c (s_int_dt o) g).
  set (step := spring_damper_step g (s_k o) (s_c o) None None (s_int_dt o)).
  set (x0 := (aget y, aget yd)).
  assert (Htot : forall lt t s, lt <= t -> exists l, tiles lt t (s_int_dt o) l
     /\ step lt t s = Ok (exec_substeps (euler_body a) l s)).
  { intros lt t s Hl. destruct (substeps_tiles lt t (s_int_dt o) Hi Hl) as [l [Htl Hs]].
    exists l. split; auto. unfold step, spring_damper_step. rewrite Hs. f_equal.
    rewrite Hc. eapply exec_substeps_ext_pos; [exact Htl|].
    intros ct h s' Hh. apply sd_body_is_euler; auto. lra. }
  set (s := fix s k := match k with
    | O => x0
    | S k' => match step (t0 + INR k' * dt) (t0 + INR (S k') * dt) (s k') with
              | Ok y => y | Err _ => s k' end end).
  assert (HsS : forall k, exists l, tiles (t0 + INR k * dt) (t0 + INR (S k) * dt) (a_int_dt a) l
        /\ s (S k) = exec_substeps (euler_body a) l (s k)).
  { intros k. destruct (Htot (t0 + INR k * dt) (t0 + INR (S k) * dt) (s k)) as [l [Hl E]].
    - rewrite S_INR. nra.
    - exists l. split; auto. cbn [s]. fold s. now rewrite E. }
  assert (Hrun : forall k, run_seq step t0 dt x0 k = Ok (s k)).
  { induction k as [|k IH]; [reflexivity|]. cbn [run_seq]. rewrite IH. cbn [bind].
    destruct (Htot (t0 + INR k * dt) (t0 + INR (S k) * dt) (s k)) as [l [Hl E]].
    - rewrite S_INR. nra.
    - cbn [s]. fold s. now rewrite E. }
  destruct (euler_converges a t0 dt x0) with (d := d) (s := s) as [H1 H2]; auto.
  - repeat split.
  - simpl. lra.
  - unfold phase_ok. simpl. repeat split; try lra; lia.
  - simpl. replace (s_k o) with (sqrt (s_k o) * sqrt (s_k o)) by (apply sqrt_sqrt; lra).
    unfold c. field. lra.
  - simpl. unfold c. lra.
  - simpl. unfold c. lra.
  - destruct (H1 eps He) as [N1 HN1]. destruct (H2 eps He) as [N2 HN2].
    exists (Nat.max N1 N2). intros j Hj.
    destruct (sd_n_steps_seq None j o n y yd) as (o' & s' & Hr & Hn & _); auto.
    eexists _, _, _. split; [exact Hn|]. cbn [aget].
    change (run_seq step t0 dt x0 j = Ok s') in Hr. rewrite Hrun in Hr. injection Hr as <-.
    split; [apply HN1|apply HN2]; lia.
Qed.

(** ** Equilibrium *)
(** At rest at the goal a spring-damper stays there, for every [k], [c], [dt]
    and [int_dt]. *)
Theorem C46_equilibrium : forall o n yd j, sd_shapes o n -> alen (p_goal_y (s_base o)) = n ->
  0 < s_dt o -> 0 < s_int_dt o -> alen yd = n -> aget yd = vzero ->
  exists o', sd_n_steps None j (p_goal_y (s_base o)) yd o = (o', Ok (p_goal_y (s_base o), yd)).
Proof.
  intros o n yd j Hsh Hg Hdt Hi Hyd Hz.
  destruct (sd_n_steps_seq None j o n (p_goal_y (s_base o)) yd) as (o' & s & Hr & Hn & _); auto.
  exists o'. rewrite Hn.
  assert (Hs : forall k s, run_seq (spring_damper_step (aget (p_goal_y (s_base o))) (s_k o) (s_c o)
     None None (s_int_dt o)) (p_t (s_base o)) (s_dt o) (aget (p_goal_y (s_base o)), aget yd) k = Ok s
     -> s = (aget (p_goal_y (s_base o)), aget yd)).
  { induction k as [|k IH]; intros s' H; [cbn [run_seq] in H; congruence|].
    cbn [run_seq] in H. destruct (run_seq _ _ _ _ k) as [s0|]; [|discriminate].
    cbn [bind] in H. rewrite (IH s0 eq_refl) in H.
    set (lt := p_t (s_base o) + INR k * s_dt o) in *. set (t := p_t (s_base o) + INR (S k) * s_dt o) in *.
    destruct (substeps_tiles lt t (s_int_dt o) Hi) as [l [_ Hs]].
    { unfold lt, t. rewrite S_INR. nra. }
    unfold spring_damper_step in H. rewrite Hs in H. injection H as <-.
    clear -Hz. induction l as [|[c h] l IHl]; [reflexivity|].
    unfold exec_substeps in *. cbn [fold_left fst snd] in *.
    match goal with |- fold_left _ l ?x = _ =>
      replace x with (aget (p_goal_y (s_base o)), aget yd); [exact IHl|] end.
    symmetry. unfold sd_body.
    f_equal; apply functional_extensionality; intro d; rewrite Hz; unfold vzero; ring. }
  rewrite (Hs j s Hr). cbn [fst snd]. destruct (p_goal_y (s_base o)), yd; simpl in *; subst; reflexivity.
Qed.

(** ** Translation *)
(** Shifting state and goal by the same offset shifts the result. *)
Theorem C46_translation : forall g k c int_dt last_t t y yd off y' yd',
  spring_damper_step g k c None None int_dt last_t t (y, yd) = Ok (y', yd') ->
  spring_damper_step (vadd g off) k c None None int_dt last_t t (vadd y off, yd)
    = Ok (vadd y' off, yd').
Proof.
  intros g k c int_dt lt t y yd off y' yd'. unfold spring_damper_step.
  generalize (default_critically_damped_c c k) as c'. intros c'.
  generalize (substeps_fuel lt t int_dt) as fuel. intros fuel. revert lt y yd.
  induction fuel as [|fuel IH]; intros lt y yd; cbn [substeps].
  - destruct (Rlt_dec lt t); intros H; [discriminate|]. congruence.
  - destruct (Rlt_dec lt t); intros H; [|congruence].
    set (h := if Rlt_dec (t - lt) int_dt then t - lt else int_dt) in *.
    destruct (sd_body g k c' None None (lt + h) h (y, yd)) as [y1 v1] eqn:E.
    apply IH in H. rewrite <- H. f_equal.
    unfold sd_body in E |- *. injection E as <- <-.
    f_equal; apply functional_extensionality; intro d; unfold vadd, vzero; ring.
Qed.

(** ** Open loop *)
(** [open_loop] is the iteration of [step] from the start position at rest. *)
Theorem C46_open_loop_is_repeated_step : forall o n ct run_t ts ys,
  sd_shapes o n -> 0 < s_dt o -> 0 < s_int_dt o ->
  sd_open_loop run_t ct o = Ok (ts, ys) ->
  forall j, (j < length ys)%nat -> exists o' y yd,
    sd_n_steps ct j (p_start_y (s_base o)) (zeros n) (sd_reset o) = (o', Ok (y, yd))
    /\ aget y = nth j ys vzero /\ p_t (s_base o') = nth j ts 0.
Proof.
  intros o n ct run_t ts ys Hsh Hdt Hi E j Hj.
  unfold sd_open_loop, spring_damper_open_loop in E.
  destruct (open_loop_run _ _ _ _ _ _) as [[ts' l]|] eqn:Eo; [|discriminate].
  cbn [rmap fst snd] in E. injection E as <- <-. rewrite map_length in Hj.
  pose proof (open_loop_run_seq _ _ _ _ _ _ _ _ Eo) as [Hlen Hs].
  destruct (Hs j) as (Hts & s & Hl & Hrun); [lia|].
  destruct Hsh as (S1 & S2 & S3 & S4).
  destruct (sd_n_steps_seq ct j (sd_reset o) n (p_start_y (s_base o)) (zeros n))
    as (o' & s' & Hr & Hn & Ht); auto.
  { repeat split; auto. }
  exists o', {| alen := n; aget := fst s' |}, {| alen := n; aget := snd s' |}.
  split; [exact Hn|].
  assert (s = s').
  { assert (Ok s = Ok s') as [=]; [|assumption]. rewrite <- Hrun. exact Hr. }
  subst s'. split.
  - cbn [aget]. rewrite (nth_indep _ _ (fst (vzero, vzero))) by (rewrite map_length; lia).
    rewrite map_nth. now rewrite (nth_error_nth _ _ _ Hl).
  - rewrite Ht. rewrite (nth_error_nth _ _ _ Hts). cbn. ring.
Qed.

(** [reset] keeps the state of the integrator: the next [step] does not read it. *)
Theorem C46_step_ignores_internal_state : forall o o' n y yd ct,
  sd_shapes o n -> sd_shapes o' n -> alen y = n -> alen yd = n ->
  0 < s_dt o -> 0 < s_int_dt o ->
  p_t (s_base o) = p_t (s_base o') -> s_dt o = s_dt o' -> s_k o = s_k o' -> s_c o = s_c o' ->
  s_int_dt o = s_int_dt o' -> p_goal_y (s_base o) = p_goal_y (s_base o') ->
  snd (sd_step y yd ct o) = snd (sd_step y yd ct o').
Proof.
  intros o o' n y yd ct (S1 & S2 & S3 & S4) (S1' & S2' & S3' & S4') Hy Hyd Hdt Hi Et Ed Ek Ec Ei Eg.
  destruct (sd_step_eq o y yd ct) as (s & o1 & Es & E & _); try congruence; auto.
  destruct (sd_step_eq o' y yd ct) as (s' & o1' & Es' & E' & _); try congruence; try lra.
  rewrite E, E'. cbn [snd]. assert (s = s') by congruence. now subst.
Qed.

Example C46_satisfiable :
  let o := sd_new 2 (1/100) 25 None (1/1000) in
  sd_shapes o 2 /\ 0 < s_k o /\ s_int_dt o * sqrt (s_k o) <= 1/2.
Proof.
  simpl. unfold sd_shapes; simpl. split; [auto|]. split; [lra|].
  replace 25 with (5 * 5) by ring. rewrite sqrt_square; lra.
Qed.
