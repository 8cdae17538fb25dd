(** The DMP integrators and imitation commute with linear maps of the
    coordinates that only connect dimensions with equal gains (C91). *)
From Coq Require Import Reals ZArith List Lia Lra Psatz FunctionalExtensionality.
From Verif Require Import M_Prelude M_Canonical M_Forcing M_Dmp M_Matrix M_DmpObject M_Ridge
  S_Dmp S_Loops P_Loops P_Canonical P_Forcing P_DmpStep P_DmpScale P_DmpLinear P_Matrix P_Cartesian.
Import ListNotations.
Open Scope R_scope.
Set Bullet Behavior "Strict Subproofs".

Section Affine.
Variable n : nat.
Variable A : nat -> nat -> R.
Variable b : vec.
Variable D : nat -> Prop.

Definition lmap (u : vec) : vec := fun d => rsum n (fun e => A d e * u e).
Definition drel (u' u : vec) : Prop := forall d, D d -> u' d = lmap u d.
Definition prel (u' u : vec) : Prop := forall d, D d -> u' d = b d + lmap u d.

Lemma lmap_vadd u v d : lmap (vadd u v) d = lmap u d + lmap v d.
Proof.
  unfold lmap, vadd. rewrite <- rsum_plus. apply rsum_ext. intros. ring.
Qed.
Lemma lmap_vscale c u d : lmap (vscale c u) d = c * lmap u d.
Proof.
  unfold lmap, vscale. rewrite <- rsum_scal. apply rsum_ext. intros. ring.
Qed.
Lemma lmap_vzero d : lmap vzero d = 0.
Proof. unfold lmap. apply rsum_0. intros. unfold vzero. ring. Qed.

Lemma drel_vadd u' u v' v : drel u' u -> drel v' v -> drel (vadd u' v') (vadd u v).
Proof. intros Hu Hv d Hd. rewrite lmap_vadd. unfold vadd. now rewrite Hu, Hv. Qed.
Lemma drel_vscale c u' u : drel u' u -> drel (vscale c u') (vscale c u).
Proof. intros Hu d Hd. rewrite lmap_vscale. unfold vscale. now rewrite Hu. Qed.
Lemma prel_vadd u' u v' v : prel u' u -> drel v' v -> prel (vadd u' v') (vadd u v).
Proof. intros Hu Hv d Hd. rewrite lmap_vadd. unfold vadd. rewrite Hu, Hv by auto. ring. Qed.
Lemma prel_minus u' u v' v : prel u' u -> prel v' v ->
  drel (fun d => u' d - v' d) (fun d => u d - v d).
Proof.
  intros Hu Hv d Hd. rewrite Hu, Hv by auto. unfold lmap.
  rewrite (rsum_ext _ (fun e => A d e * (u e - v e)) (fun e => A d e * u e - A d e * v e))
    by (intros; ring).
  rewrite rsum_minus. ring.
Qed.

(** Gains: a dimension only depends on dimensions with the same gains. *)
Definition grel (g' g : vec) : Prop := forall d e, D d -> (e < n)%nat -> A d e <> 0 -> g' d = g e.

Lemma grel_mult g' g u' u : grel g' g -> drel u' u ->
  drel (fun d => g' d * u' d) (fun d => g d * u d).
Proof.
  intros Hg Hu d Hd. rewrite Hu by auto. unfold lmap. rewrite <- rsum_scal.
  apply rsum_ext. intros e He.
  destruct (Req_dec (A d e) 0) as [E|E]; [rewrite E; ring|].
  rewrite (Hg d e) by auto. ring.
Qed.

Lemma drel_ext u' u v' v : (forall d, u' d = v' d) -> (forall d, u d = v d) -> drel u' u -> drel v' v.
Proof.
  intros H' H Hu d Hd. rewrite <- H', Hu by auto. unfold lmap. apply rsum_ext. intros. now rewrite H.
Qed.

Definition st_aff (x' x : vec * vec) : Prop := prel (fst x') (fst x) /\ drel (snd x') (snd x).

(** Forcing terms with the same basis. *)
Definition ft_aff (f' f : forcing_term) : Prop :=
  ft_n f' = ft_n f /\ ft_goal_t f' = ft_goal_t f /\ ft_start_t f' = ft_start_t f
  /\ ft_alpha_z f' = ft_alpha_z f
  /\ (forall i, (i < ft_n f)%nat -> ft_centers f' i = ft_centers f i /\ ft_widths f' i = ft_widths f i)
  /\ forall i, (i < ft_n f)%nat -> drel (fun d => ft_weights f' d i) (fun d => ft_weights f d i).

Record args_aff (a' a : dmp_args) : Prop := {
  aa_goal_y : prel (a_goal_y a') (a_goal_y a);
  aa_start_y : prel (a_start_y a') (a_start_y a);
  aa_start_yd : drel (a_start_yd a') (a_start_yd a);
  aa_ft : ft_aff (a_forcing_term a') (a_forcing_term a);
  aa_alpha : grel (a_alpha_y a') (a_alpha_y a);
  aa_beta : grel (a_beta_y a') (a_beta_y a);
  aa_goal_t : a_goal_t a' = a_goal_t a;
  aa_start_t : a_start_t a' = a_start_t a;
  aa_int_dt : a_int_dt a' = a_int_dt a;
  aa_smooth : a_smooth_scaling a' = a_smooth_scaling a;
  aa_free : a_coupling_term a = None /\ a_precomputed a = None /\ a_tracking_error a = None;
  aa_free' : a_coupling_term a' = None /\ a_precomputed a' = None /\ a_tracking_error a' = None
}.

Lemma activations_ext m c w c' w' z i : (i < m)%nat ->
  (forall i, (i < m)%nat -> c' i = c i /\ w' i = w i) ->
  activations m c' w' z i = activations m c w z i.
Proof.
  intros Hi H. unfold activations.
  assert (Hr : forall j, (j < m)%nat -> rbf c' w' z j = rbf c w z j).
  { intros j Hj. unfold rbf. now destruct (H j Hj) as [-> ->]. }
  rewrite (Hr i Hi), (rsum_ext m _ _ Hr). reflexivity.
Qed.

Lemma ft_forces_aff f' f z : ft_aff f' f -> drel (ft_forces f' z) (ft_forces f z).
Proof.
  intros (En & _ & _ & _ & Hb & Hw) d Hd. unfold ft_forces, lmap. rewrite En.
  rewrite (rsum_ext (ft_n f) (fun i => ft_weights f' d i
       * activations (ft_n f) (ft_centers f') (ft_widths f') z i)
     (fun i => rsum n (fun e => A d e * (ft_weights f e i
       * activations (ft_n f) (ft_centers f) (ft_widths f) z i)))).
  - rewrite rsum_swap. rewrite <- rsum_scal. apply rsum_ext. intros e He.
    rewrite rsum_scal. ring.
  - intros i Hi. rewrite (Hw i Hi d Hd). rewrite (activations_ext _ _ _ _ _ _ _ Hi Hb).
    unfold lmap. rewrite <- rsum_scal_r. apply rsum_ext. intros. ring.
Qed.

Lemma ft_phase_aff f' f t : ft_aff f' f -> ft_phase f' t = ft_phase f t.
Proof. intros (_ & E1 & E2 & E3 & _). unfold ft_phase. now rewrite E1, E2, E3. Qed.

Lemma acc_of_aff a' a h z Y' Y V' V f' f : args_aff a' a ->
  prel Y' Y -> drel V' V -> drel f' f ->
  drel (acc_of a' h Y' V' z f') (acc_of a h Y V z f).
Proof.
  intros H HY HV Hf.
  destruct (aa_free _ _ H) as (E1 & E2 & E3). destruct (aa_free' _ _ H) as (E1' & E2' & E3').
  set (tau := a_goal_t a - a_start_t a).
  set (s := fun (x : dmp_args) d => if a_smooth_scaling x
             then a_beta_y x d * vscale z (fun d => a_goal_y x d - a_start_y x d) d else 0).
  assert (Hs : drel (s a') (s a)).
  { unfold s. rewrite (aa_smooth _ _ H). destruct (a_smooth_scaling a).
    - apply grel_mult; [apply (aa_beta _ _ H)|]. apply drel_vscale.
      apply prel_minus; [apply (aa_goal_y _ _ H)|apply (aa_start_y _ _ H)].
    - intros d Hd. symmetry. apply lmap_vzero. }
  pose proof (grel_mult _ _ _ _ (aa_beta _ _ H) (prel_minus _ _ _ _ (aa_goal_y _ _ H) HY)) as H1.
  pose proof (drel_vadd _ _ _ _ (drel_vadd _ _ _ _ H1 (drel_vscale (- tau) _ _ HV))
               (drel_vscale (-1) _ _ Hs)) as H2.
  pose proof (drel_vscale (/ tau ^ 2) _ _
    (drel_vadd _ _ _ _ (grel_mult _ _ _ _ (aa_alpha _ _ H) H2) Hf)) as H3.
  revert H3. apply drel_ext; intros d; unfold acc_of, dmp_acc, precomputed_cdd, tracking_error_or_zero;
    rewrite ?E1, ?E2, ?E3, ?E1', ?E2', ?E3', ?(aa_goal_t _ _ H), ?(aa_start_t _ _ H);
    fold tau; unfold vadd, vscale, s, vzero; rewrite ?(aa_smooth _ _ H);
    destruct (a_smooth_scaling a); unfold vscale, Rdiv; ring.
Qed.

Lemma rk4_aff a' a lt t x' x : args_aff a' a -> st_aff x' x ->
  st_aff (dmp_step_rk4 a' lt t x') (dmp_step_rk4 a lt t x).
Proof.
  intros H [Hy Hv]. destruct x as [y v], x' as [y' v']. cbn [fst snd] in Hy, Hv.
  destruct (aa_free _ _ H) as (E1 & _ & _). destruct (aa_free' _ _ H) as (E1' & _ & _).
  rewrite !rk4_as_rk4_of by auto. cbv zeta.
  pose proof (aa_ft _ _ H) as Hf.
  rewrite !(ft_phase_aff _ _ _ Hf).
  set (h := t - lt).
  set (Z0 := ft_phase (a_forcing_term a) t).
  set (Z1 := ft_phase (a_forcing_term a) (t + / 2 * h)).
  set (Z2 := ft_phase (a_forcing_term a) (t + h)).
  unfold rk4_of. cbv zeta.
  pose proof (fun z Y' Y V' V f' f => acc_of_aff a' a h z Y' Y V' V f' f H) as Ha.
  pose proof (Ha Z0 _ _ _ _ _ _ Hy Hv (ft_forces_aff _ _ Z0 Hf)) as E0.
  set (K0 := acc_of a h y v Z0 _) in *. set (K0' := acc_of a' h y' v' Z0 _) in *. clearbody K0 K0'.
  assert (EC1 := drel_vadd _ _ _ _ Hv (drel_vscale (/ 2 * h) _ _ E0)).
  pose proof (Ha Z1 _ _ _ _ _ _ (prel_vadd _ _ _ _ Hy (drel_vscale (/ 2 * h) _ _ Hv)) EC1
    (ft_forces_aff _ _ Z1 Hf)) as E2.
  set (K1 := acc_of a h _ _ Z1 _) in E2 |- *. set (K1' := acc_of a' h _ _ Z1 _) in E2 |- *.
  clearbody K1 K1'.
  assert (EC2 := drel_vadd _ _ _ _ Hv (drel_vscale (/ 2 * h) _ _ E2)).
  pose proof (Ha Z1 _ _ _ _ _ _ (prel_vadd _ _ _ _ Hy (drel_vscale (/ 2 * h) _ _ EC1)) EC2
    (ft_forces_aff _ _ Z1 Hf)) as E3.
  set (K2 := acc_of a h _ _ Z1 _) in E3 |- *. set (K2' := acc_of a' h _ _ Z1 _) in E3 |- *.
  clearbody K2 K2'.
  assert (EC3 := drel_vadd _ _ _ _ Hv (drel_vscale h _ _ E3)).
  pose proof (Ha Z2 _ _ _ _ _ _ (prel_vadd _ _ _ _ Hy (drel_vscale h _ _ EC2)) EC3
    (ft_forces_aff _ _ Z2 Hf)) as E4.
  set (K3 := acc_of a h _ _ Z2 _) in E4 |- *. set (K3' := acc_of a' h _ _ Z2 _) in E4 |- *.
  clearbody K3 K3'.
  split; cbn [fst snd].
  - pose proof (prel_vadd _ _ _ _ Hy (drel_vscale h _ _ (drel_vadd _ _ _ _ Hv
      (drel_vscale (h / 6) _ _ (drel_vadd _ _ _ _ (drel_vadd _ _ _ _ E0 E2) E3))))) as HH.
    exact HH.
  - pose proof (drel_vadd _ _ _ _ Hv (drel_vscale (h / 6) _ _ (drel_vadd _ _ _ _ (drel_vadd _ _ _ _
      (drel_vadd _ _ _ _ E0 (drel_vscale 2 _ _ E2)) (drel_vscale 2 _ _ E3)) E4))) as HH.
    exact HH.
Qed.

Lemma euler_body_aff a' a c h x' x : args_aff a' a -> st_aff x' x ->
  st_aff (euler_body a' c h x') (euler_body a c h x).
Proof.
  intros H [Hy Hv]. destruct x as [y v], x' as [y' v']. cbn [fst snd] in Hy, Hv.
  destruct (aa_free _ _ H) as (E1 & _ & _). destruct (aa_free' _ _ H) as (E1' & _ & _).
  pose proof (aa_ft _ _ H) as Hf. unfold euler_body. cbv zeta.
  rewrite !(ft_phase_aff _ _ _ Hf).
  set (z := ft_phase (a_forcing_term a) c).
  pose proof (acc_of_aff a' a h z _ _ _ _ _ _ H Hy Hv (ft_forces_aff _ _ z Hf)) as Ha.
  unfold acc_of in Ha.
  set (K := dmp_acc y v _ _ _ _ _ _ _ _ _ _ _) in *.
  set (K' := dmp_acc y' v' _ _ _ _ _ _ _ _ _ _ _) in *. clearbody K K'.
  rewrite E1, E1'.
  assert (Hv1 := drel_vadd _ _ _ _ Hv (drel_vscale h _ _ Ha)).
  split; cbn [fst snd]; [|exact Hv1].
  apply prel_vadd; [exact Hy|]. now apply drel_vscale.
Qed.

Lemma step_aff fn a' a lt t x' x : 0 < a_int_dt a -> args_aff a' a -> st_aff x' x ->
  res_rel st_aff (run_step_function fn a' lt t x') (run_step_function fn a lt t x).
Proof.
  intros Hi H Hx.
  assert (He : forall a0, a_coupling_term a0 = None /\ a_precomputed a0 = None
            /\ a_tracking_error a0 = None ->
    forall c h s, euler_cython_body a0 c h s = euler_body a0 c h s).
  { intros a0 (F1 & F2 & F3) c h s. apply euler_bodies_agree.
    - intros cp Ecp. congruence.
    - intros _ d. unfold precomputed_cd. rewrite F2. reflexivity. }
  destruct fn; cbn [run_step_function].
  - now apply rk4_aff.
  - unfold dmp_step_euler. rewrite (aa_goal_t _ _ H), (aa_start_t _ _ H), (aa_int_dt _ _ H).
    destruct (Rle_dec (a_goal_t a) (a_start_t a)); [reflexivity|].
    destruct (Rle_dec t (a_start_t a)); [exact Hx|].
    apply (substeps_rel st_aff); auto. intros. now apply euler_body_aff.
  - rewrite !rk4_cython_eq. now apply rk4_aff.
  - unfold dmp_step_euler_cython. rewrite (aa_goal_t _ _ H), (aa_start_t _ _ H), (aa_int_dt _ _ H).
    destruct (Rle_dec (a_goal_t a) (a_start_t a)); [reflexivity|].
    apply (substeps_rel st_aff); auto.
    + intros. rewrite !He by apply H. now apply euler_body_aff.
    + destruct (Rle_dec t (a_start_t a)); auto.
      split; cbn [fst snd]; [apply (aa_start_y _ _ H)|apply (aa_start_yd _ _ H)].
Qed.

Lemma open_loop_aff fn a' a start_t run_t dt x' x :
  0 < a_int_dt a -> args_aff a' a -> st_aff x' x ->
  res_rel (fun r' r => fst r' = fst r /\ Forall2 st_aff (snd r') (snd r))
    (open_loop_run (run_step_function fn a') start_t run_t dt (fst x') (snd x'))
    (open_loop_run (run_step_function fn a) start_t run_t dt (fst x) (snd x)).
Proof.
  intros Hi H Hx. unfold open_loop_run.
  destruct (arange start_t (run_t + dt) dt) as [|t0 ts]; [reflexivity|].
  eapply res_rel_bind.
  - apply (run_steps_rel st_aff); [|destruct x, x'; exact Hx].
    intros. now apply step_aff.
  - intros l' l Hl. simpl. split; auto.
Qed.

(** ** Imitation *)
Lemma np_gradient_aff m (Y' Y : nat -> vec) t :
  (2 <= m)%nat -> (t < m)%nat -> (forall t, (t < m)%nat -> prel (Y' t) (Y t)) ->
  drel (fun d => np_gradient m (fun k => Y' k d) t) (fun d => np_gradient m (fun k => Y k d) t).
Proof.
  intros Hm Ht HY. unfold np_gradient.
  destruct (Nat.eqb_spec t 0); [apply prel_minus; apply HY; lia|].
  destruct (Nat.eqb_spec t (m - 1)); [apply prel_minus; apply HY; lia|].
  apply (drel_ext (vscale (/ 2) (fun d => Y' (t + 1)%nat d - Y' (t - 1)%nat d))
                  (vscale (/ 2) (fun d => Y (t + 1)%nat d - Y (t - 1)%nat d)));
    try (intros; unfold vscale; field).
  apply drel_vscale. apply prel_minus; apply HY; lia.
Qed.

End Affine.

Lemma drel_prel n A D u' u : drel n A D u' u -> prel n A vzero D u' u.
Proof. intros H d Hd. rewrite (H d Hd). unfold vzero. ring. Qed.

Section Imitate.
Variable n : nat.
Variable A : nat -> nat -> R.
Variable b : vec.
Variable D : nat -> Prop.

Lemma demo_velocity_aff m T (Y' Y : nat -> vec) allow t :
  (2 <= m)%nat -> (t < m)%nat -> (forall t, (t < m)%nat -> prel n A b D (Y' t) (Y t)) ->
  drel n A D (demo_velocity m T Y' allow t) (demo_velocity m T Y allow t).
Proof.
  intros Hm Ht HY. unfold demo_velocity.
  destruct (negb allow && Nat.eqb t (m - 1))%bool.
  - intros d Hd. symmetry. apply lmap_vzero.
  - apply (drel_ext n A D (vscale (/ np_gradient m T t) (fun d => np_gradient m (fun k => Y' k d) t))
                  (vscale (/ np_gradient m T t) (fun d => np_gradient m (fun k => Y k d) t)));
      try (intros; unfold vscale, Rdiv; ring).
    apply drel_vscale. now apply (np_gradient_aff n A b).
Qed.

Lemma demo_acceleration_aff m T (V' V : nat -> vec) t :
  (2 <= m)%nat -> (t < m)%nat -> (forall t, (t < m)%nat -> drel n A D (V' t) (V t)) ->
  drel n A D (demo_acceleration m T V' t) (demo_acceleration m T V t).
Proof.
  intros Hm Ht HY. unfold demo_acceleration.
  destruct (Nat.eqb t (m - 1)).
  - intros d Hd. symmetry. apply lmap_vzero.
  - apply (drel_ext n A D (vscale (/ np_gradient m T t) (fun d => np_gradient m (fun k => V' k d) t))
                  (vscale (/ np_gradient m T t) (fun d => np_gradient m (fun k => V k d) t)));
      try (intros; unfold vscale, Rdiv; ring).
    apply drel_vscale. apply (np_gradient_aff n A vzero); auto. intros. apply drel_prel. auto.
Qed.

Lemma determine_forces_aff m T Y' Y al' al be' be alpha_z allow smooth df' df :
  (forall t, (t < m)%nat -> prel n A b D (Y' t) (Y t)) ->
  grel n A D al' al -> grel n A D be' be ->
  determine_forces m T Y' al' be' alpha_z allow smooth = Ok df' ->
  determine_forces m T Y al be alpha_z allow smooth = Ok df ->
  forall t, (t < m)%nat -> drel n A D (df_F df' t) (df_F df t).
Proof.
  intros HY Hal Hbe E' E t Ht. unfold determine_forces in E', E.
  destruct (Nat.ltb_spec m 2) as [|Hm]; [discriminate|].
  injection E' as <-. injection E as <-. cbn [df_F].
  assert (HV : forall t, (t < m)%nat ->
    drel n A D (demo_velocity m T Y' allow t) (demo_velocity m T Y allow t)).
  { intros. now apply demo_velocity_aff. }
  pose proof (demo_acceleration_aff m T _ _ t Hm Ht HV) as Ha. specialize (HV t Ht).
  set (V' := demo_velocity m T Y' allow) in *. set (V := demo_velocity m T Y allow) in *.
  set (Ac' := demo_acceleration m T V' t) in *. set (Ac := demo_acceleration m T V t) in *.
  set (tau := T (m - 1)%nat - T 0%nat).
  set (z := phase (T t) alpha_z (T (m - 1)%nat) (T 0%nat)).
  set (s := fun (be : vec) (Y : nat -> vec) d => if smooth
      then be d * vscale z (fun d => Y (m - 1)%nat d - Y 0%nat d) d else 0).
  assert (Hs : drel n A D (s be' Y') (s be Y)).
  { unfold s. destruct smooth.
    - apply grel_mult; auto. apply drel_vscale. apply (prel_minus n A b); apply HY; lia.
    - intros d Hd. symmetry. apply lmap_vzero. }
  assert (Hg : drel n A D (fun d => Y' (m - 1)%nat d - Y' t d) (fun d => Y (m - 1)%nat d - Y t d)).
  { apply (prel_minus n A b); apply HY; lia. }
  pose proof (grel_mult n A D _ _ _ _ Hbe Hg) as H1.
  pose proof (drel_vadd n A D _ _ _ _ (drel_vadd n A D _ _ _ _ H1 (drel_vscale n A D (- tau) _ _ HV))
               (drel_vscale n A D (-1) _ _ Hs)) as H2.
  pose proof (drel_vadd n A D _ _ _ _ (drel_vscale n A D (tau ^ 2) _ _ Ha)
    (drel_vscale n A D (-1) _ _ (grel_mult n A D _ _ _ _ Hal H2))) as H3.
  revert H3. apply drel_ext; intros d; unfold vadd, vscale, s; destruct smooth; unfold vscale; ring.
Qed.

Lemma ridge_aff nf m X' X (F' F : nat -> vec) lam :
  (forall i t, (i < nf)%nat -> (t < m)%nat -> X' i t = X i t) ->
  (forall t, (t < m)%nat -> drel n A D (F' t) (F t)) ->
  forall i, drel n A D (fun d => ridge_regression nf m X' F' lam d i)
              (fun d => ridge_regression nf m X F lam d i).
Proof.
  intros HX HF i d Hd. unfold ridge_regression.
  assert (EX : crop nf m X' = crop nf m X).
  { apply functional_extensionality; intro p. apply functional_extensionality; intro q.
    unfold crop. destruct (Nat.ltb_spec p nf), (Nat.ltb_spec q m); cbn [andb]; auto. }
  rewrite EX. set (PX := mmul nf _ (crop nf m X)). unfold mT, mmul, lmap.
  rewrite (rsum_ext m (fun l => PX i l * F' l d) (fun l => rsum n (fun e => A d e * (PX i l * F l e)))).
  - rewrite rsum_swap. apply rsum_ext. intros e He. now rewrite rsum_scal.
  - intros t Ht. rewrite (HF t Ht d Hd). unfold lmap. rewrite <- rsum_scal. apply rsum_ext.
    intros. ring.
Qed.

End Imitate.
