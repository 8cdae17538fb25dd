(** C70: dimensions of a DMP do not interact.  Final statements. *)
From Coq Require Import Reals List Arith Lia Lra FunctionalExtensionality.
From Verif Require Import M_Prelude M_Canonical M_Forcing M_Dmp M_Base M_DmpObject M_Cartesian
  S_Loops P_Loops P_DmpStep P_DmpObject P_Cartesian P_Components Properties_Dmp Properties_DmpObject.
Import ListNotations.
Open Scope R_scope.
Set Bullet Behavior "Strict Subproofs".

(** Component [e] of the DMP object [o'] has the parameters and the state of component
    [d] of [o].  The objects may have different numbers of dimensions, and nothing is
    said about other components.  Taking [o'] one-dimensional and [e = 0], this is the
    scalar DMP of component [d]. *)
Record same_component (d e : nat) (o o' : dmp) : Prop := {
  sc_d : (d < p_n_dims (o_base o))%nat; sc_e : (e < p_n_dims (o_base o'))%nat;
  sc_t : p_t (o_base o') = p_t (o_base o);
  sc_time : o_execution_time o' = o_execution_time o;
  sc_dt : o_dt o' = o_dt o; sc_int_dt : o_int_dt o' = o_int_dt o;
  sc_gain : o_p_gain o' = o_p_gain o; sc_smooth : o_smooth_scaling o' = o_smooth_scaling o;
  sc_initialized : o_initialized o' = o_initialized o;
  sc_n : ft_n (o_forcing_term o') = ft_n (o_forcing_term o);
  sc_centers : ft_centers (o_forcing_term o') = ft_centers (o_forcing_term o);
  sc_widths : ft_widths (o_forcing_term o') = ft_widths (o_forcing_term o);
  sc_alpha_z : ft_alpha_z (o_forcing_term o') = ft_alpha_z (o_forcing_term o);
  sc_goal_t : ft_goal_t (o_forcing_term o') = ft_goal_t (o_forcing_term o);
  sc_start_t : ft_start_t (o_forcing_term o') = ft_start_t (o_forcing_term o);
  sc_weights : forall i, ft_weights (o_forcing_term o') e i = ft_weights (o_forcing_term o) d i;
  sc_alpha : aget (o_alpha_y o') e = aget (o_alpha_y o) d;
  sc_beta : aget (o_beta_y o') e = aget (o_beta_y o) d;
  sc_start_y : aget (p_start_y (o_base o')) e = aget (p_start_y (o_base o)) d;
  sc_start_yd : aget (p_start_yd (o_base o')) e = aget (p_start_yd (o_base o)) d;
  sc_goal_y : aget (p_goal_y (o_base o')) e = aget (p_goal_y (o_base o)) d;
  sc_current_y : aget (p_current_y (o_base o')) e = aget (p_current_y (o_base o)) d;
  sc_current_yd : aget (p_current_yd (o_base o')) e = aget (p_current_yd (o_base o)) d
}.

(** No coupling terms, or coupling terms for which component [e] of the second depends
    on component [e] only, in the way component [d] of the first depends on [d]. *)
Definition componentwise (d e : nat) (c c' : option coupling) : Prop :=
  match c, c' with
  | None, None => True
  | Some c, Some c' => forall y y' v v', y' e = y d -> v' e = v d ->
      fst (c' y' v') e = fst (c y v) d /\ snd (c' y' v') e = snd (c y v) d
  | _, _ => False
  end.

Lemma componentwise_on d e c c' : componentwise d e c c' -> coupling_on (eq d) (fun _ => e) c c'.
Proof.
  unfold componentwise, coupling_on. destruct c, c'; auto.
  intros H y y' v v' Hy Hv. destruct (H y y' v v') as [H1 H2]; [now apply Hy|now apply Hv|].
  split; intros k <-; auto.
Qed.

Lemma veq_single d e (u u' : vec) : u' e = u d -> veq (eq d) (fun _ => e) u u'.
Proof. intros H k <-. exact H. Qed.

Lemma same_component_ft d e o o' : same_component d e o o' ->
  (forall t, ft_phase (o_forcing_term o') t = ft_phase (o_forcing_term o) t)
  /\ (forall z, ft_forces (o_forcing_term o') z e = ft_forces (o_forcing_term o) z d).
Proof.
  intros []. split.
  - intros t. unfold ft_phase. now rewrite sc_alpha_z0, sc_goal_t0, sc_start_t0.
  - intros z. unfold ft_forces. rewrite sc_n0, sc_centers0, sc_widths0. f_equal. apply rsum_ext.
    intros i _. now rewrite sc_weights0.
Qed.

Lemma same_component_norm d e o o' : same_component d e o o' -> same_component d e (norm o) (norm o').
Proof.
  intros []. unfold norm. rewrite sc_initialized0. destruct (o_initialized o) eqn:Ei.
  - constructor; auto. congruence.
  - constructor; cbn; auto.
Qed.

Theorem C70_steps : forall n d e fn c c' o o' y yd y' yd',
  same_component d e o o' -> componentwise d e c c' ->
  alen y = p_n_dims (o_base o) -> alen yd = p_n_dims (o_base o) ->
  alen y' = p_n_dims (o_base o') -> alen yd' = p_n_dims (o_base o') ->
  shapes_ok o -> shapes_ok o' ->
  aget y' e = aget y d -> aget yd' e = aget yd d ->
  match snd (n_steps_open_loop c (Some fn) n y yd o), snd (n_steps_open_loop c' (Some fn) n y' yd' o') with
  | Ok (z, zd), Ok (z', zd') => aget z' e = aget z d /\ aget zd' e = aget zd d
  | Err x, Err x' => x = x'
  | _, _ => False
  end.
Proof.
  induction n as [|n IH]; intros d e fn c c' o o' y yd y' yd' H Hc Ly Lyd Ly' Lyd' So So' Ey Eyd.
  - simpl. auto.
  - cbn [n_steps_open_loop]. rewrite !dmp_step_eq by auto. cbv zeta.
    pose proof (same_component_norm d e o o' H) as Hn.
    destruct (same_component_ft d e _ _ Hn) as [Hph Hfo].
    set (cy := p_current_y (o_base (tick (norm o)))). set (cyd := p_current_yd (o_base (tick (norm o)))).
    set (cy' := p_current_y (o_base (tick (norm o')))). set (cyd' := p_current_yd (o_base (tick (norm o')))).
    assert (Ecy : aget cy' e = aget cy d) by apply (sc_current_y _ _ _ _ Hn).
    assert (Ecyd : aget cyd' e = aget cyd d) by apply (sc_current_yd _ _ _ _ Hn).
    rewrite (sc_t _ _ _ _ H), (sc_dt _ _ _ _ H).
    pose proof (step_on (eq d) (fun _ => e) fn
      (step_args (tick (norm o)) c (vsub (aget cy) (aget y)))
      (step_args (tick (norm o')) c' (vsub (aget cy') (aget y')))
      (p_t (o_base o)) (p_t (o_base o) + o_dt o) (aget cy, aget cyd) (aget cy', aget cyd')) as HS.
    unfold res_on in HS.
    assert (HA : agree_on (eq d) (fun _ => e) (step_args (tick (norm o)) c (vsub (aget cy) (aget y)))
      (step_args (tick (norm o')) c' (vsub (aget cy') (aget y')))).
    { destruct Hn. constructor; cbn [step_args tick with_base o_base set_t set_last_t p_goal_y p_start_y
        o_execution_time o_alpha_y o_beta_y o_forcing_term o_int_dt o_p_gain o_smooth_scaling
        a_goal_y a_start_y a_goal_t a_start_t a_alpha_y a_beta_y a_forcing_term a_coupling_term
        a_precomputed a_int_dt a_smooth_scaling a_p_gain a_tracking_error]; auto using veq_single.
      - now apply componentwise_on.
      - intros k <-. cbn [tracking_error_or_zero]. unfold vsub.
        now rewrite sc_gain0, Ecy, Ey. }
    specialize (HS HA).
    assert (HS' := HS (fun _ => veq_single d e _ _ (sc_start_yd _ _ _ _ Hn))
                      (conj (veq_single d e _ _ Ecy) (veq_single d e _ _ Ecyd))).
    clear HS.
    destruct (run_step_function fn (step_args (tick (norm o)) c _) _ _ _) as [[z zd]|] eqn:E1;
      destruct (run_step_function fn (step_args (tick (norm o')) c' _) _ _ _) as [[z' zd']|] eqn:E2;
      try contradiction; [|exact HS'].
    destruct HS' as [Sy Syd]. specialize (Sy d eq_refl). specialize (Syd d eq_refl).
    cbn [fst snd] in Sy, Syd.
    set (o1 := with_base _ (tick (norm o))). set (o1' := with_base _ (tick (norm o'))).
    assert (P1 : same_params o o1).
    { eapply same_params_trans; [apply norm_params|]. unfold o1, same_params; cbn; repeat split. }
    assert (P1' : same_params o' o1').
    { eapply same_params_trans; [apply norm_params|]. unfold o1', same_params; cbn; repeat split. }
    assert (D1 : p_n_dims (o_base o1) = p_n_dims (o_base o)) by (unfold same_params in P1; intuition).
    assert (D1' : p_n_dims (o_base o1') = p_n_dims (o_base o')) by (unfold same_params in P1'; intuition).
    assert (Sn : forall o, shapes_ok o -> alen (p_current_y (o_base (norm o))) = p_n_dims (o_base o)
                 /\ alen (p_current_yd (o_base (norm o))) = p_n_dims (o_base o)).
    { intros x Hx. split_shapes Hx. unfold norm. destruct (o_initialized x); cbn; auto. }
    assert (Sh : forall x cs zz zzd, shapes_ok x -> alen zz = p_n_dims (o_base x) -> alen zzd = p_n_dims (o_base x) ->
       cs = with_base (set_current zz zzd (o_base (tick (norm x)))) (tick (norm x)) -> shapes_ok cs).
    { intros x cs zz zzd Hx L1 L2 ->. split_shapes Hx. unfold shapes_ok, norm, tick.
      destruct (o_initialized x); cbn; repeat split; auto. }
    destruct (Sn o So) as [A1 A2]. destruct (Sn o' So') as [A1' A2'].
    apply (IH d e fn c c' o1 o1' {| alen := alen cy; aget := z |} {| alen := alen cyd; aget := zd |}
             {| alen := alen cy'; aget := z' |} {| alen := alen cyd'; aget := zd' |}); auto.
    + destruct Hn. unfold o1, o1'. constructor; cbn; auto. now rewrite sc_t0, sc_dt0.
    + rewrite D1. exact A1.
    + rewrite D1. exact A2.
    + rewrite D1'. exact A1'.
    + rewrite D1'. exact A2'.
    + eapply Sh; [exact So| | |reflexivity]; assumption.
    + eapply Sh; [exact So'| | |reflexivity]; assumption.
Qed.

Theorem C70_open_loop : forall d e run_t fn c c' o o',
  same_component d e o o' -> componentwise d e c c' ->
  match dmp_open_loop run_t c (Some fn) o, dmp_open_loop run_t c' (Some fn) o' with
  | Ok (ts, ys), Ok (ts', ys') => ts' = ts /\ map (fun y => y e) ys' = map (fun y => y d) ys
  | Err x, Err x' => x = x'
  | _, _ => False
  end.
Proof.
  intros d e run_t fn c c' o o' H Hc. unfold dmp_open_loop.
  rewrite (sc_time _ _ _ _ H), (sc_dt _ _ _ _ H).
  set (rt := match run_t with Some x => x | None => o_execution_time o end).
  destruct (same_component_ft d e _ _ H) as [Hph Hfo].
  pose proof (run_on_grid_rel (same_on (eq d) (fun _ => e))
    (run_step_function fn (open_loop_step_args o c)) (run_step_function fn (open_loop_step_args o' c'))
    0 rt (o_dt o) (aget (p_start_y (o_base o)), vzero) (aget (p_start_y (o_base o')), vzero)) as HR.
  change (open_loop_run ?s 0 rt (o_dt o) ?y vzero) with (run_on_grid s 0 rt (o_dt o) (y, vzero)).
  assert (HA : agree_on (eq d) (fun _ => e) (open_loop_step_args o c) (open_loop_step_args o' c')).
  { destruct H. constructor; cbn [open_loop_step_args
        a_goal_y a_start_y a_goal_t a_start_t a_alpha_y a_beta_y a_forcing_term a_coupling_term
        a_precomputed a_int_dt a_smooth_scaling a_p_gain a_tracking_error]; auto using veq_single.
    now apply componentwise_on. }
  specialize (HR ltac:(intros; apply step_on; auto; intros _; now apply veq_single)).
  specialize (HR (conj (veq_single d e _ _ (sc_start_y _ _ _ _ H)) (veq_single d e vzero vzero eq_refl))).
  destruct (run_on_grid (run_step_function fn (open_loop_step_args o c)) _ _ _ _) as [[ts l]|],
    (run_on_grid (run_step_function fn (open_loop_step_args o' c')) _ _ _ _) as [[ts' l']|];
    try contradiction; cbn [bind fst snd]; auto.
  destruct HR as [<- HF]. split; [reflexivity|].
  induction HF as [|s s' l l' [Hs _] _ IH]; [reflexivity|]. cbn [map]. rewrite IH. f_equal.
  apply Hs. reflexivity.
Qed.

(** A two-dimensional object and its second component. *)
Example C70_satisfiable : exists o o' : dmp,
  reachable 2 o /\ reachable 1 o' /\ same_component 1 0 o o'
  /\ shapes_ok o /\ shapes_ok o' /\ componentwise 1 0 None None.
Proof.
  destruct (ex_new_ok 2 25 (25/4)) as (f & o & E & Ef & Eo).
  destruct (ex_new_ok 1 25 (25/4)) as (f' & o' & E' & Ef' & Eo').
  pose proof (ex_reachable _ _ _ _ E) as Hr. pose proof (ex_reachable _ _ _ _ E') as Hr'.
  assert (f' = f) by congruence. subst f'.
  exists o, o'. split; [exact Hr|]. split; [exact Hr'|].
  split; [|split; [apply reachable_shapes in Hr; tauto|split; [apply reachable_shapes in Hr'; tauto|exact I]]].
  assert (Hw : forall d i, ft_weights f d i = 0).
  { unfold forcing_term_init in Ef. destruct (Nat.leb 2 1); [discriminate|].
    destruct (Rle_dec 1 0); [discriminate|]. destruct (Rle_dec (8/10) 0); [discriminate|].
    destruct (init_rbfs _ _ _ _ _ _ _). injection Ef as <-. reflexivity. }
  subst o o'. constructor; cbn; auto; try lia.
  intros i. now rewrite !Hw.
Qed.
