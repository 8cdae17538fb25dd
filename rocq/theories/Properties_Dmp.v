(** C06-C14, C19, C20: integrators, open-loop execution, imitation.
    Final statements. *)
From Coq Require Import Reals ZArith List Lia Lra Psatz FunctionalExtensionality.
From Coquelicot Require Import Coquelicot.
From Verif Require Import M_Prelude M_Canonical M_Forcing M_Dmp S_Loops S_Dmp
  P_Loops P_Canonical P_Forcing P_DmpStep P_DmpScale P_DmpLinear P_Converge
  Properties_Forcing.
Import ListNotations.
Open Scope R_scope.

(** ** C06.  [last_t <> t] and [goal_t <> start_t] exclude the divisions by
    zero of the code.  The forcing term is the one [h] later than the textbook
    formula samples it; see C07. *)
Theorem C06_rk4_is_textbook_rk4 : forall a last_t t y yd,
  last_t <> t -> a_goal_t a <> a_start_t a ->
  a_coupling_term a = None ->
  let h := t - last_t in
  dmp_step_rk4 a last_t t (y, yd)
  = rk4_textbook
      (dmp_equation (a_goal_t a - a_start_t a) (a_alpha_y a) (a_beta_y a)
         (a_goal_y a) (a_start_y a) (a_smooth_scaling a)
         (fun s => ft_phase (a_forcing_term a) (s + h))
         (fun s => ft_call (a_forcing_term a) (s + h))
         (fun _ _ d =>
            match a_precomputed a with Some (_, cdd) => cdd d | None => 0 end
            + a_p_gain a * match a_tracking_error a with Some e => e d | None => 0 end / h))
      last_t h (y, yd).
Proof.
  intros a lt t y yd _ _ Hc h. rewrite rk4_is_textbook by auto. f_equal. f_equal.
  repeat (apply functional_extensionality; intro). unfold coupling_acc. rewrite Hc.
  unfold precomputed_cdd, tracking_error_or_zero.
  destruct (a_precomputed a) as [[? ?]|], (a_tracking_error a); reflexivity.
Qed.

Theorem C06_rk4_with_coupling : forall a c last_t t y yd,
  last_t <> t -> a_goal_t a <> a_start_t a ->
  a_coupling_term a = Some c ->
  let h := t - last_t in
  let tau := a_goal_t a - a_start_t a in
  let x := rk4_textbook
      (dmp_equation tau (a_alpha_y a) (a_beta_y a)
         (a_goal_y a) (a_start_y a) (a_smooth_scaling a)
         (fun s => ft_phase (a_forcing_term a) (s + h))
         (fun s => ft_call (a_forcing_term a) (s + h))
         (fun y v d => snd (c y v) d
            + a_p_gain a * match a_tracking_error a with Some e => e d | None => 0 end / h))
      last_t h (y, yd) in
  dmp_step_rk4 a last_t t (y, yd)
  = (fst x, fun d => snd x d + fst (c (fst x) (snd x)) d / tau).
Proof.
  intros a c lt t y yd _ _ Hc h tau x.
  rewrite (rk4_is_textbook_coupled a c) by auto.
  fold h tau. unfold x, tracking_error_or_zero.
  destruct (a_tracking_error a); reflexivity.
Qed.

(** Concrete arguments used in the examples and refutations: one forcing term
    with two basis functions and constant weight [c]. *)
Definition ex_ft (c : R) : forcing_term :=
  {| ft_n := 2; ft_goal_t := 1; ft_start_t := 0; ft_overlap := / 2; ft_alpha_z := 1;
     ft_weights := fun _ _ => c; ft_centers := fun i => 1 - INR i / 2; ft_widths := fun _ => 1 |}.
Definition ex_args (c alpha beta : R) (cp : option coupling) (pre : option (vec * vec)) : dmp_args :=
  {| a_goal_y := fun _ => 1; a_goal_yd := vzero; a_goal_ydd := vzero;
     a_start_y := vzero; a_start_yd := vzero; a_start_ydd := vzero;
     a_goal_t := 1; a_start_t := 0;
     a_alpha_y := fun _ => alpha; a_beta_y := fun _ => beta;
     a_forcing_term := ex_ft c; a_coupling_term := cp; a_precomputed := pre;
     a_int_dt := 1 / 10; a_p_gain := 0; a_tracking_error := None;
     a_smooth_scaling := false |}.

Example C06_satisfiable :
  a_coupling_term (ex_args 5 25 (25/4) None None) = None
  /\ a_coupling_term (ex_args 5 25 (25/4) (Some (fun _ _ => (vzero, vzero))) None)
     = Some (fun _ _ => (vzero, vzero))
  /\ a_goal_t (ex_args 5 25 (25/4) None None) <> a_start_t (ex_args 5 25 (25/4) None None).
Proof. simpl. repeat split; lra. Qed.

(** ** C07 *)
Definition with_forcing (f : forcing_term) (a : dmp_args) : dmp_args :=
  {| a_goal_y := a_goal_y a; a_goal_yd := a_goal_yd a; a_goal_ydd := a_goal_ydd a;
     a_start_y := a_start_y a; a_start_yd := a_start_yd a; a_start_ydd := a_start_ydd a;
     a_goal_t := a_goal_t a; a_start_t := a_start_t a;
     a_alpha_y := a_alpha_y a; a_beta_y := a_beta_y a;
     a_forcing_term := f; a_coupling_term := a_coupling_term a;
     a_precomputed := a_precomputed a;
     a_int_dt := a_int_dt a; a_p_gain := a_p_gain a; a_tracking_error := a_tracking_error a;
     a_smooth_scaling := a_smooth_scaling a |}.

(** The forcing term enters only through its phase and value at the times
    t, t + h/2 and t + h, i.e. after the step interval [last_t, t]. *)
Theorem C07_evaluation_times_partial : forall a f f' last_t t s,
  let h := t - last_t in
  (forall u, u = t \/ u = t + / 2 * h \/ u = t + h ->
     ft_phase f u = ft_phase f' u /\ ft_call f u = ft_call f' u) ->
  dmp_step_rk4 (with_forcing f a) last_t t s = dmp_step_rk4 (with_forcing f' a) last_t t s.
Proof.
  intros a f f' lt t [y v] h H. unfold dmp_step_rk4, with_forcing, precomputed_cdd. cbn.
  fold h. unfold ft_call in H.
  destruct (H t) as [E0 F0]; auto. destruct (H (t + / 2 * h)) as [E1 F1]; auto.
  destruct (H (t + h)) as [E2 F2]; auto. now rewrite F0, F1, F2, E0, E1, E2.
Qed.

(** Hence the step does not use forces of its own interval: with constant
    weights [c > 0] and no spring the velocity gain of a step is strictly below
    what any sampling inside the interval (a weighted mean of forces at times in
    [last_t, t]) could give. *)
Theorem C07_forcing_sampled_after_the_step_refuted :
  forall a last_t t y yd d c,
  free a -> phase_ok (a_forcing_term a) -> a_start_t a <> a_goal_t a ->
  a_smooth_scaling a = false -> a_alpha_y a d = 0 ->
  (forall i, (i < ft_n (a_forcing_term a))%nat -> ft_weights (a_forcing_term a) d i = c) ->
  0 < c -> last_t < t ->
  forall s, last_t <= s <= t ->
    snd (dmp_step_rk4 a last_t t (y, yd)) d - yd d
    < (t - last_t) * (ft_call (a_forcing_term a) s d / (a_goal_t a - a_start_t a) ^ 2).
Proof.
  intros a lt t y yd d c Hf Hp Ht Hs Ha Hw Hc Hl s Hst.
  rewrite rk4_as_rk4_of by apply Hf. cbv zeta.
  set (h := t - lt). set (tau := a_goal_t a - a_start_t a).
  assert (Htau : tau <> 0) by (unfold tau; lra).
  assert (Hacc : forall Y V z, acc_of a h Y V z (ft_forces (a_forcing_term a) z) d
     = c * z / tau ^ 2).
  { intros. rewrite acc_of_free by (auto; lra). fold tau. rewrite Ha. unfold disturbance.
    rewrite Hs, (C04_constant_weights _ _ _ c) by (auto; apply Hp). field. auto. }
  unfold rk4_of. cbv zeta. cbn [fst snd]. rewrite !Hacc.
  unfold ft_call. rewrite (C04_constant_weights _ _ _ c) by (auto; apply Hp).
  set (z := ft_phase (a_forcing_term a)).
  assert (H1 : z t <= z s) by (apply ft_phase_decreasing; auto; lra).
  assert (H2 : z (t + / 2 * h) < z t).
  { destruct Hp as (_ & Hp1 & Hp2). apply phase_decreasing; auto. unfold h. lra. }
  assert (H3 : z (t + h) < z t).
  { destruct Hp as (_ & Hp1 & Hp2). apply phase_decreasing; auto. unfold h. lra. }
  assert (Hh : 0 < h) by (unfold h; lra).
  assert (Hq : 0 < h * c / tau ^ 2).
  { apply Rmult_lt_0_compat; [nra|]. apply Rinv_0_lt_compat. nra. }
  set (q := h * c / tau ^ 2) in *.
  replace (yd d + h / 6 * (c * z t / tau ^ 2 + 2 * (c * z (t + / 2 * h) / tau ^ 2)
      + 2 * (c * z (t + / 2 * h) / tau ^ 2) + c * z (t + h) / tau ^ 2) - yd d)
    with (q * ((z t + 4 * z (t + / 2 * h) + z (t + h)) / 6)) by (unfold q; field; auto).
  replace (h * (c * z s / tau ^ 2)) with (q * z s) by (unfold q; field; auto).
  apply Rmult_lt_compat_l; auto. lra.
Qed.

Example C07_satisfiable :
  let a := ex_args 5 0 1 None None in
  free a /\ phase_ok (a_forcing_term a) /\ a_start_t a <> a_goal_t a
  /\ a_smooth_scaling a = false /\ a_alpha_y a 0%nat = 0
  /\ (forall i, (i < ft_n (a_forcing_term a))%nat -> ft_weights (a_forcing_term a) 0%nat i = 5).
Proof. unfold free, phase_ok; simpl. repeat split; auto; try lia; lra. Qed.

(** ** C08 *)
Theorem C08_rk4_implementations_agree : forall a last_t t s,
  last_t <> t -> a_goal_t a <> a_start_t a ->
  dmp_step_rk4_cython a last_t t s = dmp_step_rk4 a last_t t s.
Proof. intros. apply rk4_cython_eq. Qed.

(** ** C09 *)
(** Agreement when the coupling contributes no velocity and the motion has
    started. *)
Theorem C09_euler_implementations_agree_partial : forall a last_t t s,
  0 < a_int_dt a -> a_start_t a < t ->
  (forall cp, a_coupling_term a = Some cp -> forall y v d, fst (cp y v) d = 0) ->
  (forall cd cdd, a_coupling_term a = None -> a_precomputed a = Some (cd, cdd) ->
     forall d, cd d = 0) ->
  dmp_step_euler_cython a last_t t s = dmp_step_euler a last_t t s.
Proof.
  intros a lt t s Hi Ht Hc Hp. apply euler_steps_agree; auto.
  intros Hn d. unfold precomputed_cd. destruct (a_precomputed a) as [[cd cdd]|] eqn:E; auto.
  eapply Hp; eauto.
Qed.

(** Before the start time one implementation returns the start state, the
    other leaves the given state. *)
Theorem C09_before_start_refuted : forall a t s,
  a_start_t a < a_goal_t a -> t <= a_start_t a ->
  dmp_step_euler a t t s = Ok s
  /\ dmp_step_euler_cython a t t s = Ok (a_start_y a, a_start_yd a).
Proof.
  intros a t s Hg Ht. unfold dmp_step_euler, dmp_step_euler_cython.
  destruct (Rle_dec (a_goal_t a) (a_start_t a)); [lra|].
  destruct (Rle_dec t (a_start_t a)); [|lra].
  split; [reflexivity|].
  destruct (substeps_fuel t t (a_int_dt a)); simpl; destruct (Rlt_dec t t); try lra; reflexivity.
Qed.

Lemma one_substep {S} (body : R -> R -> S -> S) last_t t h s :
  0 < h -> t = last_t + h -> substeps (substeps_fuel last_t t h) last_t t h body s = Ok (body t h s).
Proof.
  intros Hh ->. destruct (substeps_tiles last_t (last_t + h) h) as [l [Ht Hl]]; [lra|lra|].
  rewrite Hl. f_equal. destruct l as [|[c d] l]; simpl in Ht; [lra|].
  destruct Ht as (Hd & -> & Hh' & Ht).
  destruct l as [|p l]; [|].
  - simpl in Ht. assert (d = h) by lra. subst. reflexivity.
  - exfalso. assert (d = h) by (apply Hh'; congruence). subst.
    destruct p as [c' d']. simpl in Ht. destruct Ht as (Hd' & -> & _ & Ht).
    apply tiles_le in Ht. lra.
Qed.

(** A velocity contribution of a coupling term moves the position one sub-step
    earlier in the Cython implementation. *)
Theorem C09_coupling_velocity_refuted : forall c, c <> 0 ->
  let cp : coupling := fun _ _ => (fun _ => c, vzero) in
  let a := ex_args 0 0 0 (Some cp) None in
  exists y1 v1 y2 v2,
    dmp_step_euler a 0 (1/10) (vzero, vzero) = Ok (y1, v1)
    /\ dmp_step_euler_cython a 0 (1/10) (vzero, vzero) = Ok (y2, v2)
    /\ y1 0%nat = 0 /\ y2 0%nat = c / 10.
Proof.
  intros c Hc cp a.
  assert (HF : forall z, ft_forces (ex_ft 0) z 0%nat = 0).
  { intros. rewrite (C04_constant_weights _ _ _ 0); simpl; auto. ring. }
  eexists _, _, _, _. unfold dmp_step_euler, dmp_step_euler_cython.
  destruct (Rle_dec (a_goal_t a) (a_start_t a)) as [Hle|]; [simpl in Hle; lra|].
  destruct (Rle_dec (1 / 10) (a_start_t a)) as [Hle|]; [simpl in Hle; lra|].
  rewrite !one_substep by (simpl; lra).
  split; [reflexivity|]. split; [reflexivity|].
  unfold euler_body, euler_cython_body, dmp_acc, vadd, vscale, vdivs, vzero; simpl.
  rewrite !HF. unfold vzero. split; field.
Qed.

(** A precomputed coupling velocity is ignored by the Python implementation. *)
Theorem C09_precomputed_velocity_refuted : forall c, c <> 0 ->
  let a := ex_args 0 0 0 None (Some (fun _ => c, vzero)) in
  exists y1 v1 y2 v2,
    dmp_step_euler a 0 (1/10) (vzero, vzero) = Ok (y1, v1)
    /\ dmp_step_euler_cython a 0 (1/10) (vzero, vzero) = Ok (y2, v2)
    /\ v1 0%nat = 0 /\ v2 0%nat = c.
Proof.
  intros c Hc a.
  assert (HF : forall z, ft_forces (ex_ft 0) z 0%nat = 0).
  { intros. rewrite (C04_constant_weights _ _ _ 0); simpl; auto. ring. }
  eexists _, _, _, _. unfold dmp_step_euler, dmp_step_euler_cython.
  destruct (Rle_dec (a_goal_t a) (a_start_t a)) as [Hle|]; [simpl in Hle; lra|].
  destruct (Rle_dec (1 / 10) (a_start_t a)) as [Hle|]; [simpl in Hle; lra|].
  rewrite !one_substep by (simpl; lra).
  split; [reflexivity|]. split; [reflexivity|].
  unfold euler_body, euler_cython_body, dmp_acc, vadd, vscale, vdivs, vzero; simpl.
  rewrite !HF. unfold precomputed_cdd, vzero. simpl. unfold vzero. split; field.
Qed.

Example C09_satisfiable :
  let a := ex_args 3 25 (25/4) None None in
  0 < a_int_dt a /\ a_start_t a < 1/10 /\ a_coupling_term a = None /\ a_precomputed a = None.
Proof. simpl. repeat split; lra. Qed.

(** ** C10 *)
(** Arguments with which [DMP.open_loop] of a DMP with execution time [tau]
    and forcing term [f] calls a step function (dmp/_dmp.py:540-550). *)
Definition open_loop_args (f : forcing_term) (tau : R) (y0 g alpha beta : vec) (int_dt : R)
    (smooth : bool) : dmp_args :=
  {| a_goal_y := g; a_goal_yd := vzero; a_goal_ydd := vzero;
     a_start_y := y0; a_start_yd := vzero; a_start_ydd := vzero;
     a_goal_t := tau; a_start_t := 0; a_alpha_y := alpha; a_beta_y := beta;
     a_forcing_term := f; a_coupling_term := None; a_precomputed := None;
     a_int_dt := int_dt; a_p_gain := 0; a_tracking_error := None;
     a_smooth_scaling := smooth |}.

Theorem C10_temporal_scaling :
  forall fn s jc jw jc' jw' n tau overlap alpha_z f f' w y0 v0 g alpha beta int_dt dt run_t smooth,
  0 < s -> 0 < int_dt -> 0 < dt ->
  forcing_term_init jc jw n tau 0 overlap alpha_z = Ok f ->
  forcing_term_init jc' jw' n (s * tau) 0 overlap alpha_z = Ok f' ->
  let a := open_loop_args (set_ft_weights w f) tau y0 g alpha beta int_dt smooth in
  let a' := open_loop_args (set_ft_weights w f') (s * tau) y0 g alpha beta (s * int_dt) smooth in
  match open_loop_run (run_step_function fn a) 0 run_t dt y0 v0,
        open_loop_run (run_step_function fn a') 0 (s * run_t) (s * dt) y0 (fun d => v0 d / s) with
  | Ok (ts, l), Ok (ts', l') =>
      ts' = map (Rmult s) ts
      /\ map fst l' = map fst l
      /\ map snd l' = map (fun x d => snd x d / s) l
  | Err e, Err e' => e = e'
  | _, _ => False
  end.
Proof.
  intros fn s jc jw jc' jw' n tau overlap alpha_z f f' w y0 v0 g alpha beta int_dt dt run_t smooth
    Hs Hi Hdt E E' a a'.
  assert (H : (2 <= n)%nat /\ 0 < tau /\ 0 < overlap)
    by (apply (C02_constructor_errors jc jw n tau 0 overlap alpha_z); eauto).
  assert (H' : (2 <= n)%nat /\ 0 < s * tau /\ 0 < overlap)
    by (apply (C02_constructor_errors jc' jw' n (s * tau) 0 overlap alpha_z); eauto).
  destruct H as (Hn & Ht & Hov), H' as (_ & Ht' & _).
  pose proof (C05_basis_independent_of_duration_partial jc jw n tau (s * tau) overlap alpha_z f) as Hb0.
  destruct (forcing_term_init_ok jc jw n tau 0 overlap alpha_z Hn Ht Hov)
    as (g1 & E1 & N1 & G1 & S1 & _ & A1 & _ & _).
  destruct (forcing_term_init_ok jc' jw' n (s * tau) 0 overlap alpha_z Hn Ht' Hov)
    as (g1' & E1' & N1' & G1' & S1' & _ & A1' & _ & _).
  assert (g1 = f) by congruence. assert (g1' = f') by congruence. subst g1 g1'.
  assert (Hb : forall i, (i < n)%nat -> ft_centers f i = ft_centers f' i /\ ft_widths f i = ft_widths f' i).
  { destruct (forcing_term_init_ok jc jw n (s * tau) 0 overlap alpha_z Hn Ht' Hov)
      as (f'' & E'' & _).
    pose proof (Hb0 f'' E E'') as H1.
    pose proof (C02_fully_initialised jc jw jc' jw' n (s * tau) 0 overlap alpha_z f'' f' E'' E') as H2.
    intros i Hin. destruct (H1 i Hin) as [-> ->]. apply H2; auto. }
  assert (Ha : args_scaled s a a').
  { constructor; simpl; auto; try ring.
    - intros. unfold vzero. field. lra.
    - unfold ft_scaled; simpl. rewrite N1, N1', G1, G1', S1, S1', A1, A1'.
      repeat split; auto; try ring; intros; symmetry; now apply Hb.
    - rewrite G1, S1. lra. }
  pose proof (open_loop_scaled s fn a a' 0 run_t dt y0 v0 (fun d => v0 d / s) Hs) as HO.
  rewrite Rmult_0_r in HO.
  assert (Hne : a_goal_t a <> a_start_t a) by (simpl; lra).
  specialize (HO Hne Hi Ha ltac:(lra) ltac:(reflexivity)).
  destruct (open_loop_run (run_step_function fn a) 0 run_t dt y0 v0) as [[ts l]|],
    (open_loop_run (run_step_function fn a') 0 (s * run_t) (s * dt) y0 (fun d => v0 d / s))
      as [[ts' l']|]; simpl in HO; auto.
  destruct HO as [Hts Hl]. split; auto.
  clear -Hl. induction Hl as [|x x' l l' [Hy Hv] Hl [IH1 IH2]]; [split; reflexivity|].
  simpl. rewrite IH1, IH2, Hy. split; auto. f_equal.
  apply functional_extensionality. exact Hv.
Qed.

Example C10_satisfiable : forall jc jw, exists f f',
  forcing_term_init jc jw 10 1 0 (8/10) (ln 100) = Ok f
  /\ forcing_term_init jc jw 10 (2 * 1) 0 (8/10) (ln 100) = Ok f'.
Proof.
  intros. destruct (forcing_term_init_ok jc jw 10 1 0 (8/10) (ln 100)) as [f [E _]]; [lia|lra|lra|].
  destruct (forcing_term_init_ok jc jw 10 (2 * 1) 0 (8/10) (ln 100)) as [f' [E' _]]; [lia|lra|lra|].
  eauto.
Qed.

(** ** C11 *)
(** The run for a linear combination of starts, goals, weights (and start
    velocities) is the linear combination of the runs. *)
Theorem C11_linear :
  forall fn ca cb f w1 w2 tau y1 y2 v1 v2 g1 g2 alpha beta int_dt dt run_t smooth,
  0 < int_dt ->
  let run w y v g :=
    open_loop_run (run_step_function fn
      (open_loop_args (set_ft_weights w f) tau y g alpha beta int_dt smooth)) 0 run_t dt y v in
  match run (fun d i => ca * w1 d i + cb * w2 d i) (lin ca cb y1 y2) (lin ca cb v1 v2)
            (lin ca cb g1 g2),
        run w1 y1 v1 g1, run w2 y2 v2 g2 with
  | Ok (ts, l), Ok (ts1, l1), Ok (ts2, l2) =>
      ts = ts1 /\ ts = ts2 /\ length l = length l1 /\ length l = length l2
      /\ forall k x x1 x2, nth_error l k = Some x -> nth_error l1 k = Some x1 ->
           nth_error l2 k = Some x2 -> x = lin2 ca cb x1 x2
  | Err e, Err e1, Err e2 => e = e1 /\ e = e2
  | _, _, _ => False
  end.
Proof.
  intros fn ca cb f w1 w2 tau y1 y2 v1 v2 g1 g2 alpha beta int_dt dt run_t smooth Hi run.
  set (a := open_loop_args (set_ft_weights (fun d i => ca * w1 d i + cb * w2 d i) f) tau
              (lin ca cb y1 y2) (lin ca cb g1 g2) alpha beta int_dt smooth).
  set (a1 := open_loop_args (set_ft_weights w1 f) tau y1 g1 alpha beta int_dt smooth).
  set (a2 := open_loop_args (set_ft_weights w2 f) tau y2 g2 alpha beta int_dt smooth).
  assert (Ha : args_lin ca cb a a1 a2).
  { constructor; simpl; auto.
    - intros d; reflexivity.
    - intros d; reflexivity.
    - intros d; unfold vzero; ring.
    - split; simpl; [|reflexivity]. intros h [-> | ->]; simpl; auto 10.
    - intros b [-> | ->]; simpl; auto 10. }
  assert (Hx : st_lin ca cb (lin ca cb y1 y2, lin ca cb v1 v2) (y1, v1) (y2, v2))
    by (split; intros d; reflexivity).
  pose proof (open_loop_lin ca cb fn a a1 a2 0 run_t dt _ _ _ Hi Ha Hx) as HO.
  unfold run. fold a a1 a2. cbn [fst snd] in HO.
  destruct (open_loop_run (run_step_function fn a) 0 run_t dt (lin ca cb y1 y2) (lin ca cb v1 v2))
    as [[ts l]|], (open_loop_run (run_step_function fn a1) 0 run_t dt y1 v1) as [[ts1 l1]|],
    (open_loop_run (run_step_function fn a2) 0 run_t dt y2 v2) as [[ts2 l2]|];
    simpl in HO; auto.
  destruct HO as (<- & <- & Hl). split; auto. split; auto.
  clear -Hl. induction Hl as [|x x1 x2 l l1 l2 [Hy Hv] Hl (IH1 & IH2 & IH)].
  - repeat split; auto. intros [|k] x x1 x2 H; discriminate.
  - simpl. repeat split; auto. intros [|k] z z1 z2 H H1 H2; simpl in *; [|eapply IH; eauto].
    inversion H; inversion H1; inversion H2; subst.
    apply lrel_eq in Hy, Hv. destruct z as [zy zv]; simpl in *. subst. reflexivity.
Qed.

(** Translating start and goal translates every position and leaves the
    velocities unchanged. *)
Theorem C11_translation :
  forall fn f tau y0 v0 g o alpha beta int_dt dt run_t smooth ts l,
  0 < int_dt -> 0 < tau -> 0 < dt ->
  let run y g :=
    open_loop_run (run_step_function fn
      (open_loop_args f tau y g alpha beta int_dt smooth)) 0 run_t dt y v0 in
  run y0 g = Ok (ts, l) ->
  exists l', run (vadd y0 o) (vadd g o) = Ok (ts, l') /\ length l' = length l
  /\ forall k x x', nth_error l k = Some x -> nth_error l' k = Some x' ->
       x' = (vadd (fst x) o, snd x).
Proof.
  intros fn f tau y0 v0 g o alpha beta int_dt dt run_t smooth ts l Hi Ht Hdt run Hrun.
  pose proof (C11_linear fn 1 1 f (ft_weights f) (fun _ _ => 0) tau y0 o v0 vzero g o
    alpha beta int_dt dt run_t smooth Hi) as HL. cbv beta zeta in HL.
  assert (Ew : set_ft_weights (fun d i => 1 * ft_weights f d i + 1 * 0) f = f).
  { destruct f; unfold set_ft_weights; simpl. f_equal.
    do 2 (apply functional_extensionality; intro). ring. }
  assert (Ew1 : set_ft_weights (ft_weights f) f = f) by (destruct f; reflexivity).
  assert (El : forall u : vec, lin 1 1 u o = vadd u o).
  { intros. apply functional_extensionality; intro. unfold lin, vadd. ring. }
  assert (Ev : lin 1 1 v0 vzero = v0).
  { apply functional_extensionality; intro. unfold lin, vzero. ring. }
  rewrite Ew, Ew1, !El, Ev in HL. fold (run y0 g) in HL. fold (run (vadd y0 o) (vadd g o)) in HL.
  set (a2 := open_loop_args (set_ft_weights (fun _ _ => 0) f) tau o o alpha beta int_dt smooth) in HL.
  assert (Hrest : at_rest a2).
  { unfold at_rest, a2; simpl. repeat split; auto. }
  (* the run at rest *)
  assert (H2 : forall ts2 l2, open_loop_run (run_step_function fn a2) 0 run_t dt o vzero
     = Ok (ts2, l2) -> forall k x, nth_error l2 k = Some x -> x = (o, vzero)).
  { intros ts2 l2 E k x Hk.
    pose proof (open_loop_run_seq _ _ _ _ _ _ _ _ E) as [Hlen Hs].
    assert (Hk' : (k < length ts2)%nat).
    { rewrite <- Hlen. apply nth_error_Some. congruence. }
    destruct (Hs k Hk') as [_ [s [Hs1 Hs2]]].
    assert (x = s) by congruence. subst s.
    assert (HR : forall j, run_seq (run_step_function fn a2) 0 dt (o, vzero) j = Ok (o, vzero)).
    { induction j as [|j IH]; [reflexivity|]. cbn [run_seq]. rewrite IH. cbn [bind].
      pose proof (pos_INR j). rewrite S_INR.
      apply (step_at_rest fn a2); auto; try (simpl; lra); simpl; try nra. }
    rewrite HR in Hs2. congruence. }
  rewrite Hrun in HL.
  destruct (run (vadd y0 o) (vadd g o)) as [[ts' l']|];
    destruct (open_loop_run (run_step_function fn a2) 0 run_t dt o vzero) as [[ts2 l2]|] eqn:E2;
    try tauto.
  destruct HL as (-> & _ & Hlen1 & Hlen2 & HL).
  exists l'. repeat split; auto.
  intros k x x' Hx Hx'.
  destruct (nth_error l2 k) as [x2|] eqn:Ex2.
  - specialize (H2 _ _ eq_refl _ _ Ex2). subst x2.
    rewrite (HL k x' x (o, vzero) Hx' Hx Ex2). unfold lin2; simpl. f_equal; auto.
    apply functional_extensionality; intro. unfold lin, vzero. ring.
  - apply nth_error_None in Ex2. rewrite <- Hlen2 in Ex2.
    assert (nth_error l' k <> None) by congruence. apply nth_error_Some in H. lia.
Qed.

(** Scaling start, goal, start velocity and weights by [c] scales the run. *)
Theorem C11_scaling :
  forall fn c f w tau y0 v0 g alpha beta int_dt dt run_t smooth ts l,
  0 < int_dt ->
  let run w y v g :=
    open_loop_run (run_step_function fn
      (open_loop_args (set_ft_weights w f) tau y g alpha beta int_dt smooth)) 0 run_t dt y v in
  run w y0 v0 g = Ok (ts, l) ->
  exists l', run (fun d i => c * w d i) (vscale c y0) (vscale c v0) (vscale c g) = Ok (ts, l')
  /\ length l' = length l
  /\ forall k x x', nth_error l k = Some x -> nth_error l' k = Some x' ->
       x' = (vscale c (fst x), vscale c (snd x)).
Proof.
  intros fn c f w tau y0 v0 g alpha beta int_dt dt run_t smooth ts l Hi run Hrun.
  pose proof (C11_linear fn c 0 f w w tau y0 y0 v0 v0 g g alpha beta int_dt dt run_t smooth Hi) as HL.
  cbv zeta in HL.
  assert (El : forall u : vec, lin c 0 u u = vscale c u).
  { intros. apply functional_extensionality; intro. unfold lin, vscale. ring. }
  assert (Ew : (fun d i => c * w d i + 0 * w d i) = (fun d i => c * w d i)).
  { do 2 (apply functional_extensionality; intro). ring. }
  rewrite Ew, !El in HL. fold (run w y0 v0 g) in HL.
  fold (run (fun d i => c * w d i) (vscale c y0) (vscale c v0) (vscale c g)) in HL.
  rewrite Hrun in HL.
  destruct (run (fun d i => c * w d i) (vscale c y0) (vscale c v0) (vscale c g)) as [[ts' l']|];
    [|tauto].
  destruct HL as (-> & _ & Hlen & _ & HL). exists l'. repeat split; auto.
  intros k x x' Hx Hx'. rewrite (HL k x' x x Hx' Hx Hx). unfold lin2. now rewrite !El.
Qed.

(** ** C12 *)
Theorem C12_goal_is_equilibrium :
  forall fn f tau y0 g alpha beta int_dt dt run_t smooth ts l,
  0 < int_dt -> 0 < tau -> 0 < dt ->
  (forall d i, (i < ft_n f)%nat -> ft_weights f d i = 0) ->
  (smooth = true -> y0 = g) ->
  open_loop_run (run_step_function fn (open_loop_args f tau y0 g alpha beta int_dt smooth))
    0 run_t dt g vzero = Ok (ts, l) ->
  forall x, In x l -> x = (g, vzero).
Proof.
  intros fn f tau y0 g alpha beta int_dt dt run_t smooth ts l Hi Ht Hdt Hw Hsm E x Hin.
  set (a := open_loop_args f tau y0 g alpha beta int_dt smooth) in *.
  assert (Hrest : at_rest a).
  { unfold at_rest, a; simpl. repeat split; auto. intros. now rewrite Hsm. }
  apply In_nth_error in Hin. destruct Hin as [k Hk].
  pose proof (open_loop_run_seq _ _ _ _ _ _ _ _ E) as [Hlen Hs].
  assert (Hk' : (k < length ts)%nat).
  { rewrite <- Hlen. apply nth_error_Some. congruence. }
  destruct (Hs k Hk') as [_ [s [Hs1 Hs2]]].
  assert (x = s) by congruence. subst s.
  assert (HR : forall j, run_seq (run_step_function fn a) 0 dt (g, vzero) j = Ok (g, vzero)).
  { induction j as [|j IH]; [reflexivity|]. cbn [run_seq]. rewrite IH. cbn [bind].
    pose proof (pos_INR j). rewrite S_INR.
    apply (step_at_rest fn a); auto; try (simpl; lra); simpl; try nra. }
  rewrite HR in Hs2. congruence.
Qed.

(** ** C13 *)
Definition uses_rk4 (fn : step_function) : Prop := fn = RK4 \/ fn = RK4_cython.
Definition uses_euler (fn : step_function) : Prop := fn = Euler \/ fn = Euler_cython.

(** The polynomial condition is exactly |R(-x)| < 1 for the growth factor R of
    RK4 (x < 2.785...). *)
Theorem C13_rk4_converges :
  forall fn f tau y0 v0 g alpha beta int_dt dt smooth d,
  uses_rk4 fn -> phase_ok f -> 0 < tau -> 0 < dt ->
  alpha d = 4 * beta d -> 0 < alpha d ->
  (let x := alpha d * dt / (2 * tau) in x ^ 3 - 4 * x ^ 2 + 12 * x - 24 < 0) ->
  forall eps, 0 < eps -> exists N, forall run_t ts l,
    open_loop_run (run_step_function fn (open_loop_args f tau y0 g alpha beta int_dt smooth))
      0 run_t dt y0 v0 = Ok (ts, l) ->
    forall k y v, (N <= k)%nat -> nth_error l k = Some (y, v) ->
      Rabs (y d - g d) < eps /\ Rabs (v d) < eps.
Proof.
  intros fn f tau y0 v0 g alpha beta int_dt dt smooth d Hfn Hp Ht Hdt Hcd Hal Hx eps He.
  set (a := open_loop_args f tau y0 g alpha beta int_dt smooth).
  destruct (run_seq_rk4 a 0 dt (y0, v0)) as (s & Hs0 & HsS & Hrun).
  assert (Hfree : free a) by (repeat split).
  assert (Hc : vanishes (fun k => fst (s k) d - g d) /\ vanishes (fun k => snd (s k) d)).
  { apply (rk4_converges a 0 dt (y0, v0)); auto.
    - simpl; lra.
    - simpl. rewrite Rminus_0_r.
      replace (alpha d / (2 * tau) * dt) with (alpha d * dt / (2 * tau)) by (field; lra).
      split; [|exact Hx]. apply Rmult_lt_0_compat; [nra|apply Rinv_0_lt_compat; lra]. }
  destruct Hc as [Hc1 Hc2].
  destruct (Hc1 eps He) as [N1 HN1]. destruct (Hc2 eps He) as [N2 HN2].
  exists (Nat.max N1 N2). intros run_t ts l E k y v Hk Hn.
  pose proof (open_loop_run_seq _ _ _ _ _ _ _ _ E) as [Hlen Hs].
  assert (Hk' : (k < length ts)%nat).
  { rewrite <- Hlen. apply nth_error_Some. congruence. }
  destruct (Hs k Hk') as [_ [s' [Hs1 Hs2]]].
  assert (Hss : Ok (s k) = Ok (y, v)).
  { rewrite <- (Hrun k). assert (s' = (y, v)) by congruence. subst s'. rewrite <- Hs2.
    destruct Hfn as [-> | ->]; [reflexivity|].
    f_equal. do 3 (apply functional_extensionality; intro). simpl. now rewrite rk4_cython_eq. }
  inversion Hss as [Hsk].
  specialize (HN1 k ltac:(lia)). specialize (HN2 k ltac:(lia)). rewrite Hsk in HN1, HN2. auto.
Qed.

(** Semi-implicit Euler, any step length [dt], sub-steps with
    alpha * int_dt <= execution time. *)
Theorem C13_euler_converges :
  forall fn f tau y0 v0 g alpha beta int_dt dt smooth d,
  uses_euler fn -> phase_ok f -> 0 < tau -> 0 < dt -> 0 < int_dt ->
  alpha d = 4 * beta d -> 0 < alpha d ->
  alpha d * int_dt <= tau ->
  forall eps, 0 < eps -> exists N, forall run_t ts l,
    open_loop_run (run_step_function fn (open_loop_args f tau y0 g alpha beta int_dt smooth))
      0 run_t dt y0 v0 = Ok (ts, l) ->
    forall k y v, (N <= k)%nat -> nth_error l k = Some (y, v) ->
      Rabs (y d - g d) < eps /\ Rabs (v d) < eps.
Proof.
  intros fn f tau y0 v0 g alpha beta int_dt dt smooth d Hfn Hp Ht Hdt Hi Hcd Hal Hx eps He.
  set (a := open_loop_args f tau y0 g alpha beta int_dt smooth).
  assert (Hfree : free a) by (repeat split).
  destruct (run_seq_euler fn a 0 dt (y0, v0)) as (s & Hs0 & HsS & Hrun); auto; try (simpl; lra).
  assert (Hc : vanishes (fun k => fst (s k) d - g d) /\ vanishes (fun k => snd (s k) d)).
  { apply (euler_converges a 0 dt (y0, v0)); auto; simpl; lra. }
  destruct Hc as [Hc1 Hc2].
  destruct (Hc1 eps He) as [N1 HN1]. destruct (Hc2 eps He) as [N2 HN2].
  exists (Nat.max N1 N2). intros run_t ts l E k y v Hk Hn.
  pose proof (open_loop_run_seq _ _ _ _ _ _ _ _ E) as [Hlen Hs].
  assert (Hk' : (k < length ts)%nat).
  { rewrite <- Hlen. apply nth_error_Some. congruence. }
  destruct (Hs k Hk') as [_ [s' [Hs1 Hs2]]].
  assert (Hss : s k = (y, v)).
  { rewrite Hrun in Hs2. congruence. }
  specialize (HN1 k ltac:(lia)). specialize (HN2 k ltac:(lia)). rewrite Hss in HN1, HN2. auto.
Qed.

(** With these arguments the runs exist for every [run_t]. *)
Theorem C13_runs_exist :
  forall fn f tau y0 v0 g alpha beta int_dt dt smooth run_t,
  0 < tau -> 0 < dt -> 0 < int_dt -> 0 <= run_t ->
  exists ts l,
    open_loop_run (run_step_function fn (open_loop_args f tau y0 g alpha beta int_dt smooth))
      0 run_t dt y0 v0 = Ok (ts, l) /\ ((length l >= 2)%nat \/ run_t = 0).
Proof.
  intros fn f tau y0 v0 g alpha beta int_dt dt smooth run_t Ht Hdt Hi Hr.
  set (a := open_loop_args f tau y0 g alpha beta int_dt smooth).
  assert (Hlt : 0 < run_t + dt) by lra.
  pose proof (arange_len_spec 0 (run_t + dt) dt Hdt Hlt) as [Hn Hb]. cbv zeta in Hb.
  assert (Htot : forall t0 t s, t0 <= t -> 0 < t ->
     exists s', run_step_function fn a t0 t s = Ok s').
  { intros t0 t s Hle Ht'. destruct fn; cbn [run_step_function]; eauto.
    - unfold dmp_step_euler. destruct (Rle_dec (a_goal_t a) (a_start_t a)) as [H|]; [simpl in H; lra|].
      destruct (Rle_dec t (a_start_t a)); eauto.
      destruct (substeps_tiles t0 t (a_int_dt a)) as [l [_ Hl]]; auto.
      exists (exec_substeps (euler_body a) l s). apply Hl.
    - unfold dmp_step_euler_cython.
      destruct (Rle_dec (a_goal_t a) (a_start_t a)) as [H|]; [simpl in H; lra|].
      destruct (substeps_tiles t0 t (a_int_dt a)) as [l [_ Hl]]; auto.
      eexists. apply Hl. }
  assert (HR : forall ts t0 s, 0 <= t0 ->
     (forall i, (i < length ts)%nat -> nth i (t0 :: ts) 0 < nth i ts 0) ->
     exists l, run_steps (run_step_function fn a) t0 ts s = Ok l).
  { induction ts as [|t ts IH]; intros t0 s H0 Hmono; [simpl; eauto|].
    assert (Hlt' : t0 < t) by (apply (Hmono 0%nat); simpl; lia).
    destruct (Htot t0 t s) as [s' Es]; [lra|lra|].
    destruct (IH t s') as [l El]; [lra| |].
    { intros i Hi'. apply (Hmono (S i)). simpl. lia. }
    exists (s' :: l). cbn [run_steps]. rewrite Es. cbn [bind]. now rewrite El. }
  unfold open_loop_run, arange.
  destruct (arange_len 0 (run_t + dt) dt) as [|n] eqn:En; [lia|].
  simpl seq. cbn [map].
  destruct (HR (map (fun i => 0 + INR i * dt) (seq 1 n)) (0 + INR 0 * dt) (y0, v0)) as [l El].
  - simpl. lra.
  - intros i Hi'. rewrite map_length, seq_length in Hi'.
    change (0 + INR 0 * dt :: map (fun i0 => 0 + INR i0 * dt) (seq 1 n))
      with (map (fun i0 => 0 + INR i0 * dt) (seq 0 (S n))).
    rewrite !(nth_indep _ 0 (0 + INR 0 * dt)) by (rewrite map_length, seq_length; lia).
    rewrite !(map_nth (fun i0 => 0 + INR i0 * dt)), !seq_nth by lia.
    rewrite !plus_INR. simpl (INR 1). simpl (INR 0). nra.
  - rewrite El. cbn [bind]. eexists _, _. split; [reflexivity|].
    apply run_steps_length in El. rewrite map_length, seq_length in El. simpl. rewrite El.
    destruct n as [|n]; [|left; lia]. right.
    simpl in Hb. lra.
Qed.

Example C13_satisfiable :
  let alpha : vec := fun _ => 25 in let beta : vec := fun _ => 25 / 4 in
  alpha 0%nat = 4 * beta 0%nat /\ 0 < alpha 0%nat
  /\ (let x := alpha 0%nat * (1 / 100) / (2 * 1) in x ^ 3 - 4 * x ^ 2 + 12 * x - 24 < 0)
  /\ alpha 0%nat * (1 / 1000) <= 1
  /\ phase_ok (ex_ft 7) /\ uses_rk4 RK4 /\ uses_euler Euler.
Proof. unfold phase_ok, uses_rk4, uses_euler; simpl. repeat split; auto; try lia; lra. Qed.

(** ** C14 *)
Theorem C14_forces_reproduce_acceleration :
  forall n T Y alpha_y beta_y alpha_z allow smooth df,
  determine_forces n T Y alpha_y beta_y alpha_z allow smooth = Ok df ->
  T 0%nat <> T (n - 1)%nat ->
  forall t d,
  dmp_acc (Y t) (df_Yd df t) vzero alpha_y beta_y (Y (n - 1)%nat) (Y 0%nat)
    (phase (T t) alpha_z (T (n - 1)%nat) (T 0%nat)) (T (n - 1)%nat - T 0%nat)
    (df_F df t) None vzero smooth d
  = df_Ydd df t d.
Proof.
  intros n T Y alpha_y beta_y alpha_z allow smooth df H HT t d.
  unfold determine_forces in H. destruct (Nat.ltb n 2); [discriminate|].
  inversion H; subst df. clear H. simpl. unfold dmp_acc, vzero.
  set (tau := T (n - 1)%nat - T 0%nat). assert (tau <> 0) by (unfold tau; lra).
  set (A := demo_acceleration _ _ _ _ _). set (V := demo_velocity _ _ _ _ _ _).
  destruct smooth; field; auto.
Qed.

(** The forces are the only ones with that property. *)
Theorem C14_forces_unique :
  forall n T Y alpha_y beta_y alpha_z allow smooth df F,
  determine_forces n T Y alpha_y beta_y alpha_z allow smooth = Ok df ->
  T 0%nat <> T (n - 1)%nat ->
  forall t d,
  dmp_acc (Y t) (df_Yd df t) vzero alpha_y beta_y (Y (n - 1)%nat) (Y 0%nat)
    (phase (T t) alpha_z (T (n - 1)%nat) (T 0%nat)) (T (n - 1)%nat - T 0%nat)
    F None vzero smooth d
  = df_Ydd df t d -> F d = df_F df t d.
Proof.
  intros n T Y alpha_y beta_y alpha_z allow smooth df F H HT t d HF.
  rewrite <- (C14_forces_reproduce_acceleration _ _ _ _ _ _ _ _ _ H HT t d) in HF.
  unfold dmp_acc in HF.
  set (tau := T (n - 1)%nat - T 0%nat) in *. assert (Ht : tau <> 0) by (unfold tau; lra).
  apply (f_equal (fun x => x * tau ^ 2)) in HF. unfold Rdiv in HF.
  rewrite !Rmult_assoc, !Rinv_l, !Rmult_1_r in HF by (apply pow_nonzero; auto). lra.
Qed.

(** Velocities and accelerations are central differences inside and follow the
    documented boundary rules. *)
Theorem C14_finite_differences :
  forall n T Y alpha_y beta_y alpha_z allow smooth df,
  determine_forces n T Y alpha_y beta_y alpha_z allow smooth = Ok df ->
  (2 <= n)%nat
  /\ (forall t d, (0 < t < n - 1)%nat -> T (t + 1)%nat <> T (t - 1)%nat ->
        df_Yd df t d = (Y (t + 1)%nat d - Y (t - 1)%nat d) / (T (t + 1)%nat - T (t - 1)%nat)
        /\ df_Ydd df t d
           = (df_Yd df (t + 1)%nat d - df_Yd df (t - 1)%nat d) / (T (t + 1)%nat - T (t - 1)%nat))
  /\ (forall d, df_Ydd df (n - 1)%nat d = 0)
  /\ (allow = false -> forall d, df_Yd df (n - 1)%nat d = 0).
Proof.
  intros n T Y alpha_y beta_y alpha_z allow smooth df H.
  unfold determine_forces in H. destruct (Nat.ltb_spec n 2); [discriminate|].
  inversion H; subst df. clear H. cbn [df_Yd df_Ydd].
  split; auto. repeat split.
  - unfold demo_velocity, np_gradient.
    destruct (Nat.eqb_spec t 0); [lia|]. destruct (Nat.eqb_spec t (n - 1)); [lia|].
    rewrite Bool.andb_false_r. field. lra.
  - unfold demo_acceleration. destruct (Nat.eqb_spec t (n - 1)); [lia|].
    set (V := demo_velocity _ _ _ _). unfold np_gradient.
    destruct (Nat.eqb_spec t 0); [lia|]. destruct (Nat.eqb_spec t (n - 1)); [lia|].
    field. lra.
  - intros d. unfold demo_acceleration. now rewrite Nat.eqb_refl.
  - intros -> d. unfold demo_velocity. now rewrite Nat.eqb_refl.
Qed.

Example C14_satisfiable : exists df,
  determine_forces 5 (fun i => INR i) (fun i d => INR i ^ 2) (fun _ => 25) (fun _ => 25/4) 4
    false true = Ok df
  /\ df_Yd df 2%nat 0%nat = 4.
Proof.
  eexists. split; [reflexivity|]. simpl. unfold demo_velocity, np_gradient. simpl. field.
Qed.

(** ** C19 *)
Theorem C19_time_grid : forall step start_t run_t dt y v ts l,
  0 < dt -> open_loop_run step start_t run_t dt y v = Ok (ts, l) ->
  length l = length ts
  /\ (0 < length ts)%nat
  /\ (forall k, (k < length ts)%nat -> nth k ts 0 = start_t + INR k * dt)
  /\ run_t <= last ts 0 < run_t + dt
  /\ hd_error l = Some (y, v).
Proof.
  intros step start_t run_t dt y v ts l Hdt E.
  pose proof (open_loop_run_seq _ _ _ _ _ _ _ _ E) as [Hlen Hs].
  unfold open_loop_run in E.
  destruct (arange start_t (run_t + dt) dt) as [|t0 ts0] eqn:Ea; [discriminate|].
  destruct (run_steps step t0 ts0 (y, v)) as [l0|] eqn:Er; [|discriminate].
  cbn [bind] in E. injection E as <- <-.
  assert (Hl : (0 < arange_len start_t (run_t + dt) dt)%nat)
    by (rewrite <- arange_length, Ea; simpl; lia).
  assert (Hlt : start_t < run_t + dt).
  { destruct (Rlt_le_dec start_t (run_t + dt)) as [|Hle]; auto. exfalso.
    unfold arange_len in Hl.
    assert (Hq : (run_t + dt - start_t) / dt <= 0).
    { assert (0 < / dt) by (apply Rinv_0_lt_compat; lra). unfold Rdiv. nra. }
    pose proof (Zceil_bounds ((run_t + dt - start_t) / dt)) as [H1 H2].
    assert (IZR (Zceil ((run_t + dt - start_t) / dt)) < 1) by lra.
    apply lt_IZR in H. lia. }
  pose proof (arange_len_spec start_t (run_t + dt) dt Hdt Hlt) as [_ Hb]. cbv zeta in Hb.
  assert (Hlast : last (t0 :: ts0) 0 = start_t + (INR (length (t0 :: ts0)) - 1) * dt).
  { assert (Hg : forall (l : list R) d, l <> [] -> last l d = nth (length l - 1) l d).
    { induction l as [|x [|y' l'] IH]; intros d Hne; [congruence|reflexivity|].
      change (last (x :: y' :: l') d) with (last (y' :: l') d).
      rewrite IH by congruence. simpl. now rewrite Nat.sub_0_r. }
    rewrite Hg by congruence.
    assert (Hk : (length (t0 :: ts0) - 1 < length (t0 :: ts0))%nat) by (simpl; lia).
    destruct (Hs _ Hk) as [Hk1 _]. rewrite (nth_error_nth _ _ _ Hk1).
    rewrite minus_INR by (simpl; lia). reflexivity. }
  repeat split; auto.
  - simpl; lia.
  - intros k Hk. destruct (Hs k Hk) as [Hk1 _]. now apply nth_error_nth.
  - rewrite Hlast, <- Ea, arange_length. lra.
  - rewrite Hlast, <- Ea, arange_length. lra.
Qed.

Example C19_satisfiable : exists ts l,
  open_loop_run (run_step_function RK4 (ex_args 5 25 (25/4) None None)) 0 1 (1/10) vzero vzero
    = Ok (ts, l) /\ length ts = 11%nat.
Proof.
  destruct (C13_runs_exist RK4 (ex_ft 5) 1 vzero vzero (fun _ => 1) (fun _ => 25) (fun _ => 25/4)
    (1/10) (1/10) false 1) as (ts & l & E & _); try lra.
  exists ts, l. split; [exact E|].
  apply C19_time_grid in E; [|lra]. destruct E as (_ & Hpos & Hn & Hl & _).
  assert (Hg : forall (l : list R) d, l <> [] -> last l d = nth (length l - 1) l d).
  { induction l0 as [|x [|y' l'] IH]; intros d Hne; [congruence|reflexivity|].
    change (last (x :: y' :: l') d) with (last (y' :: l') d).
    rewrite IH by congruence. simpl. now rewrite Nat.sub_0_r. }
  rewrite Hg in Hl by (destruct ts; simpl in *; [lia|congruence]).
  rewrite Hn in Hl by lia. rewrite minus_INR in Hl by lia. simpl (INR 1) in Hl.
  assert (H1 : INR 10 < INR (length ts) + 0) by (simpl; lra).
  assert (H2 : INR (length ts) < INR 12) by (simpl; lra).
  rewrite Rplus_0_r in H1. apply INR_lt in H1, H2. lia.
Qed.

(** ** C20 *)
Theorem C20_substeps_tile_the_interval :
  forall (S : Type) (body : R -> R -> S -> S) last_t t int_dt s,
  0 < int_dt -> last_t <= t ->
  exists l : list (R * R),
    substeps (substeps_fuel last_t t int_dt) last_t t int_dt body s = Ok (exec_substeps body l s)
    /\ tiles last_t t int_dt l
    /\ fold_right Rplus 0 (map snd l) = t - last_t
    /\ (forall c d, In (c, d) l -> 0 < d <= int_dt /\ last_t < c <= t)
    /\ (l <> [] -> (INR (length l) - 1) * int_dt < t - last_t <= INR (length l) * int_dt).
Proof.
  intros S body last_t t int_dt s Hi Hl.
  destruct (substeps_tiles last_t t int_dt Hi Hl) as [l [Ht Hs]].
  exists l. split; [apply Hs|]. split; auto. split; [now apply (tiles_sum _ _ int_dt)|].
  split.
  - intros c d Hin. destruct (tiles_inside _ _ _ _ _ _ Ht Hin); auto.
  - intros. now apply tiles_count.
Qed.

(** The sub-step lengths depend on the times only, not on the loop body. *)
Theorem C20_substeps_uniform :
  forall last_t t int_dt, 0 < int_dt -> last_t <= t ->
  exists l : list (R * R), tiles last_t t int_dt l /\
    forall (S : Type) (body : R -> R -> S -> S) s,
    substeps (substeps_fuel last_t t int_dt) last_t t int_dt body s = Ok (exec_substeps body l s).
Proof. intros. now apply substeps_tiles. Qed.

(** For [int_dt <= 0] the loop never ends. *)
Theorem C20_diverges_for_nonpositive_int_dt :
  forall (S : Type) (body : R -> R -> S -> S) fuel last_t t int_dt s,
  int_dt <= 0 -> last_t < t -> substeps fuel last_t t int_dt body s = Err OutOfFuel.
Proof. intros. now apply substeps_diverges. Qed.

Example C20_satisfiable :
  tiles 0 (25/100) (1/10) [(1/10, 1/10); (2/10, 1/10); (25/100, 5/100)].
Proof. simpl. repeat split; intros; try lra; congruence. Qed.
