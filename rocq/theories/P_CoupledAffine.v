(** Coupled steps of DMPs that are related by an affine map. *)
From Coq Require Import Reals ZArith List Lia Lra Psatz FunctionalExtensionality.
From Verif Require Import M_Prelude M_Canonical M_Forcing M_Dmp
  S_Loops S_Dmp P_Loops P_Canonical P_Forcing P_DmpStep P_DmpScale P_DmpLinear P_Matrix P_Cartesian P_DmpAffine.
Import ListNotations.
Open Scope R_scope.
Set Bullet Behavior "Strict Subproofs".

Section Coupled.
Variable n : nat.
Variable A : nat -> nat -> R.
Variable b : vec.
Variable D : nat -> Prop.

Notation drel := (drel n A D).
Notation prel := (prel n A b D).
Notation st_aff := (st_aff n A b D).

(** Coupling terms that commute with the map. *)
Definition crel (c' c : coupling) : Prop := forall Y' Y V' V, prel Y' Y -> drel V' V ->
  drel (fst (c' Y' V')) (fst (c Y V)) /\ drel (snd (c' Y' V')) (snd (c Y V)).

Definition uncoupled (a : dmp_args) : dmp_args :=
  {| a_goal_y := a_goal_y a; a_goal_yd := a_goal_yd a; a_goal_ydd := a_goal_ydd a;
     a_start_y := a_start_y a; a_start_yd := a_start_yd a; a_start_ydd := a_start_ydd a;
     a_goal_t := a_goal_t a; a_start_t := a_start_t a;
     a_alpha_y := a_alpha_y a; a_beta_y := a_beta_y a; a_forcing_term := a_forcing_term a;
     a_coupling_term := None; a_precomputed := a_precomputed a; a_int_dt := a_int_dt a;
     a_p_gain := a_p_gain a; a_tracking_error := a_tracking_error a;
     a_smooth_scaling := a_smooth_scaling a |}.

Lemma acc_of_coupled a c h Y V z f : a_coupling_term a = Some c -> a_precomputed a = None ->
  acc_of a h Y V z f = acc_of (uncoupled a) h Y V z (vadd f (snd (c Y V))).
Proof.
  intros E1 E2. unfold acc_of, dmp_acc, precomputed_cdd. rewrite E1. cbn. rewrite E2.
  apply functional_extensionality. intros d. unfold vadd, vzero. f_equal. ring.
Qed.

Variables a' a : dmp_args.
Variables c' c : coupling.
Hypothesis Ec' : a_coupling_term a' = Some c'.
Hypothesis Ec : a_coupling_term a = Some c.
Hypothesis H : args_aff n A b D (uncoupled a') (uncoupled a).
Hypothesis Hc : crel c' c.

Lemma acc_coupled_aff h z Y' Y V' V f' f : prel Y' Y -> drel V' V -> drel f' f ->
  drel (acc_of a' h Y' V' z f') (acc_of a h Y V z f).
Proof.
  intros HY HV Hf. rewrite (acc_of_coupled a' c'), (acc_of_coupled a c) by (auto; apply H).
  apply acc_of_aff with (b := b); auto. apply drel_vadd; auto. now apply Hc.
Qed.

Lemma rk4_of_aff (acc' acc : vec -> vec -> R -> vec -> vec) h Z0 Z1 Z2 F0' F0 F1' F1 F2' F2 y' y v' v :
  (forall z Y' Y V' V f' f, prel Y' Y -> drel V' V -> drel f' f -> drel (acc' Y' V' z f') (acc Y V z f)) ->
  drel F0' F0 -> drel F1' F1 -> drel F2' F2 -> prel y' y -> drel v' v ->
  st_aff (rk4_of acc' h Z0 Z1 Z2 F0' F1' F2' y' v') (rk4_of acc h Z0 Z1 Z2 F0 F1 F2 y v).
Proof.
  intros Ha HF0 HF1 HF2 Hy Hv. unfold rk4_of. cbv zeta.
  pose proof (Ha Z0 _ _ _ _ _ _ Hy Hv HF0) as E0.
  set (K0 := acc y v Z0 F0) in *. set (K0' := acc' y' v' Z0 F0') in *. clearbody K0 K0'.
  assert (EC1 := drel_vadd _ _ _ _ _ _ _ Hv (drel_vscale _ _ _ (/ 2 * h) _ _ E0)).
  pose proof (Ha Z1 _ _ _ _ _ _ (prel_vadd _ _ _ _ _ _ _ _ Hy (drel_vscale _ _ _ (/ 2 * h) _ _ Hv)) EC1 HF1) as E2.
  set (K1 := acc _ _ Z1 _) in E2 |- *. set (K1' := acc' _ _ Z1 _) in E2 |- *. clearbody K1 K1'.
  assert (EC2 := drel_vadd _ _ _ _ _ _ _ Hv (drel_vscale _ _ _ (/ 2 * h) _ _ E2)).
  pose proof (Ha Z1 _ _ _ _ _ _ (prel_vadd _ _ _ _ _ _ _ _ Hy (drel_vscale _ _ _ (/ 2 * h) _ _ EC1)) EC2 HF1) as E3.
  set (K2 := acc _ _ Z1 _) in E3 |- *. set (K2' := acc' _ _ Z1 _) in E3 |- *. clearbody K2 K2'.
  assert (EC3 := drel_vadd _ _ _ _ _ _ _ Hv (drel_vscale _ _ _ h _ _ E3)).
  pose proof (Ha Z2 _ _ _ _ _ _ (prel_vadd _ _ _ _ _ _ _ _ Hy (drel_vscale _ _ _ h _ _ EC2)) EC3 HF2) as E4.
  set (K3 := acc _ _ Z2 _) in E4 |- *. set (K3' := acc' _ _ Z2 _) in E4 |- *. clearbody K3 K3'.
  split; cbn [fst snd].
  - pose proof (prel_vadd _ _ _ _ _ _ _ _ Hy (drel_vscale _ _ _ h _ _ (drel_vadd _ _ _ _ _ _ _ Hv
      (drel_vscale _ _ _ (h / 6) _ _ (drel_vadd _ _ _ _ _ _ _ (drel_vadd _ _ _ _ _ _ _ E0 E2) E3))))) as HH.
    exact HH.
  - pose proof (drel_vadd _ _ _ _ _ _ _ Hv (drel_vscale _ _ _ (h / 6) _ _ (drel_vadd _ _ _ _ _ _ _ (drel_vadd _ _ _ _ _ _ _
      (drel_vadd _ _ _ _ _ _ _ E0 (drel_vscale _ _ _ 2 _ _ E2)) (drel_vscale _ _ _ 2 _ _ E3)) E4))) as HH.
    exact HH.
Qed.

Lemma drel_vdivs s u' u : drel u' u -> drel (vdivs u' s) (vdivs u s).
Proof.
  intros Hu. apply drel_ext with (u' := vscale (/ s) u') (u := vscale (/ s) u); [| |now apply drel_vscale];
    intros d; unfold vscale, vdivs, Rdiv; ring.
Qed.

Lemma tau_eq : a_goal_t a' - a_start_t a' = a_goal_t a - a_start_t a.
Proof.
  pose proof (aa_goal_t _ _ _ _ _ _ H) as E1. pose proof (aa_start_t _ _ _ _ _ _ H) as E2.
  cbn in E1, E2. now rewrite E1, E2.
Qed.

Lemma rk4_coupled_aff lt t x' x : st_aff x' x -> st_aff (dmp_step_rk4 a' lt t x') (dmp_step_rk4 a lt t x).
Proof.
  intros [Hy Hv]. destruct x as [y v], x' as [y' v']. cbn [fst snd] in Hy, Hv.
  pose proof (aa_ft _ _ _ _ _ _ H) as Hf. cbn [uncoupled a_forcing_term] in Hf.
  assert (E : forall a0 c0 y v, a_coupling_term a0 = Some c0 ->
    dmp_step_rk4 a0 lt t (y, v) =
    let h := t - lt in let z := ft_phase (a_forcing_term a0) in
    let f := fun t => ft_forces (a_forcing_term a0) (z t) in
    let r := rk4_of (acc_of a0 h) h (z t) (z (t + / 2 * h)) (z (t + h)) (f t) (f (t + / 2 * h)) (f (t + h)) y v in
    (fst r, vadd (snd r) (vdivs (fst (c0 (fst r) (snd r))) (a_goal_t a0 - a_start_t a0)))).
  { intros a0 c0 y0 v0 E0. unfold dmp_step_rk4. rewrite E0. unfold rk4_of, acc_of. rewrite E0. reflexivity. }
  rewrite (E a' c'), (E a c) by auto. cbv zeta. rewrite !(ft_phase_aff _ _ _ _ _ _ Hf).
  match goal with |- st_aff (fst ?r', _) (fst ?r, _) => assert (HR : st_aff r' r);
    [|set (R' := r') in *; set (R0 := r) in *; clearbody R' R0] end.
  { apply rk4_of_aff; auto; try (apply ft_forces_aff; exact Hf).
    intros. now apply acc_coupled_aff. }
  destruct HR as [HR1 HR2]. split; cbn [fst snd]; [exact HR1|]. rewrite tau_eq.
  apply drel_vadd; auto. apply drel_vdivs. now apply Hc.
Qed.

Lemma euler_coupled_aff cu h x' x : st_aff x' x -> st_aff (euler_body a' cu h x') (euler_body a cu h x).
Proof.
  intros [Hy Hv]. destruct x as [y v], x' as [y' v']. cbn [fst snd] in Hy, Hv.
  pose proof (aa_ft _ _ _ _ _ _ H) as Hf. cbn [uncoupled a_forcing_term] in Hf.
  unfold euler_body. cbv zeta. rewrite !(ft_phase_aff _ _ _ _ _ _ Hf).
  set (z := ft_phase (a_forcing_term a) cu).
  pose proof (acc_coupled_aff h z _ _ _ _ _ _ Hy Hv (ft_forces_aff _ _ _ _ _ z Hf)) as Ha. unfold acc_of in Ha.
  set (K := dmp_acc y v _ _ _ _ _ _ _ _ _ _ _) in *.
  set (K' := dmp_acc y' v' _ _ _ _ _ _ _ _ _ _ _) in *. clearbody K K'.
  rewrite Ec, Ec'.
  assert (Hv1 := drel_vadd _ _ _ _ _ _ _ Hv (drel_vscale _ _ _ h _ _ Ha)).
  assert (Hy1 := prel_vadd _ _ _ _ _ _ _ _ Hy (drel_vscale _ _ _ h _ _ Hv1)).
  split; cbn [fst snd]; [exact Hy1|]. rewrite tau_eq.
  apply drel_vadd; auto. apply drel_vdivs. now apply Hc.
Qed.

Lemma euler_cython_coupled_aff cu h x' x : st_aff x' x ->
  st_aff (euler_cython_body a' cu h x') (euler_cython_body a cu h x).
Proof.
  intros [Hy Hv]. destruct x as [y v], x' as [y' v']. cbn [fst snd] in Hy, Hv.
  pose proof (aa_ft _ _ _ _ _ _ H) as Hf. cbn [uncoupled a_forcing_term] in Hf.
  destruct (aa_free _ _ _ _ _ _ H) as (_ & P1 & P2). destruct (aa_free' _ _ _ _ _ _ H) as (_ & P1' & P2').
  cbn [uncoupled a_precomputed a_tracking_error] in *.
  assert (E : forall a0 c0 y v, a_coupling_term a0 = Some c0 -> a_tracking_error a0 = None ->
    euler_cython_body a0 cu h (y, v) =
    let z := ft_phase (a_forcing_term a0) cu in
    let v1 := vadd v (vadd (vscale h (acc_of a0 h y v z (ft_forces (a_forcing_term a0) z)))
                        (vdivs (fst (c0 y v)) (a_goal_t a0 - a_start_t a0))) in
    (vadd y (vscale h v1), v1)).
  { intros a0 c0 y0 v0 E0 E1. unfold euler_cython_body, acc_of, dmp_acc. rewrite E0, E1.
    destruct (c0 y0 v0) as [cd cdd] eqn:Ecc. cbn [fst snd tracking_error_or_zero].
    assert (EA : forall X X' : vec * vec, fst X = fst X' -> snd X = snd X' -> X = X') by (intros [] []; cbn; congruence).
    apply EA; cbn [fst snd]; apply functional_extensionality; intros d; unfold vadd, vscale, vdivs, vzero;
      unfold Rdiv; ring. }
  rewrite (E a' c'), (E a c) by auto. cbv zeta. rewrite !(ft_phase_aff _ _ _ _ _ _ Hf), tau_eq.
  set (z := ft_phase (a_forcing_term a) cu).
  pose proof (acc_coupled_aff h z _ _ _ _ _ _ Hy Hv (ft_forces_aff _ _ _ _ _ z Hf)) as Ha.
  assert (Hv1 := drel_vadd _ _ _ _ _ _ _ Hv (drel_vadd _ _ _ _ _ _ _ (drel_vscale _ _ _ h _ _ Ha)
    (drel_vdivs (a_goal_t a - a_start_t a) _ _ (proj1 (Hc _ _ _ _ Hy Hv))))).
  split; cbn [fst snd]; [|exact Hv1]. apply prel_vadd; [exact Hy|]. now apply drel_vscale.
Qed.

Lemma step_coupled_aff fn lt t x' x : 0 < a_int_dt a -> st_aff x' x ->
  res_rel st_aff (run_step_function fn a' lt t x') (run_step_function fn a lt t x).
Proof.
  intros Hi Hx.
  assert (Eg : a_goal_t a' = a_goal_t a) by apply (aa_goal_t _ _ _ _ _ _ H).
  assert (Es : a_start_t a' = a_start_t a) by apply (aa_start_t _ _ _ _ _ _ H).
  assert (Ei : a_int_dt a' = a_int_dt a) by apply (aa_int_dt _ _ _ _ _ _ H).
  destruct fn; cbn [run_step_function].
  - now apply rk4_coupled_aff.
  - unfold dmp_step_euler. rewrite Eg, Es, Ei.
    destruct (Rle_dec (a_goal_t a) (a_start_t a)); [reflexivity|].
    destruct (Rle_dec t (a_start_t a)); [exact Hx|].
    apply (substeps_rel st_aff); auto. intros. now apply euler_coupled_aff.
  - rewrite !rk4_cython_eq. now apply rk4_coupled_aff.
  - unfold dmp_step_euler_cython. rewrite Eg, Es, Ei.
    destruct (Rle_dec (a_goal_t a) (a_start_t a)); [reflexivity|].
    apply (substeps_rel st_aff); auto.
    + intros. now apply euler_cython_coupled_aff.
    + destruct (Rle_dec t (a_start_t a)); auto.
      split; cbn [fst snd]; [apply (aa_start_y _ _ _ _ _ _ H)|apply (aa_start_yd _ _ _ _ _ _ H)].
Qed.

Lemma open_loop_coupled_aff fn start_t run_t dt x' x : 0 < a_int_dt a -> st_aff x' x ->
  res_rel (fun r' r => fst r' = fst r /\ Forall2 st_aff (snd r') (snd r))
    (open_loop_run (run_step_function fn a') start_t run_t dt (fst x') (snd x'))
    (open_loop_run (run_step_function fn a) start_t run_t dt (fst x) (snd x)).
Proof.
  intros Hi Hx. unfold open_loop_run.
  destruct (arange start_t (run_t + dt) dt) as [|t0 ts]; [reflexivity|].
  eapply res_rel_bind.
  - apply (run_steps_rel st_aff); [|destruct x, x'; exact Hx].
    intros. now apply step_coupled_aff.
  - intros l' l Hl. simpl. split; auto.
Qed.
End Coupled.
