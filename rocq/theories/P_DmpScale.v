(** Temporal scaling of the DMP integrators (C10). *)
From Coq Require Import Reals ZArith List Lia Lra Psatz FunctionalExtensionality.
From Verif Require Import M_Prelude M_Canonical M_Forcing M_Dmp S_Dmp
  S_Loops P_Loops P_Canonical P_Forcing P_DmpStep.
Import ListNotations.
Open Scope R_scope.

(** ** Loops over a scaled time axis *)
Lemma Rlt_dec_scale {A} (s a b : R) (x y : A) : 0 < s ->
  (if Rlt_dec (s * a) (s * b) then x else y) = (if Rlt_dec a b then x else y).
Proof. intros. destruct (Rlt_dec (s * a) (s * b)), (Rlt_dec a b); auto; nra. Qed.

Lemma Rle_dec_scale {A} (s a b : R) (x y : A) : 0 < s ->
  (if Rle_dec (s * a) (s * b) then x else y) = (if Rle_dec a b then x else y).
Proof. intros. destruct (Rle_dec (s * a) (s * b)), (Rle_dec a b); auto; nra. Qed.

Definition res_rel {A B} (rel : A -> B -> Prop) (x : res A) (y : res B) : Prop :=
  match x, y with
  | Ok a, Ok b => rel a b
  | Err e, Err e' => e = e'
  | _, _ => False
  end.

Lemma res_rel_bind {A B A' B'} (P : A -> A' -> Prop) (Q : B -> B' -> Prop) x x' f f' :
  res_rel P x x' -> (forall a a', P a a' -> res_rel Q (f a) (f' a')) ->
  res_rel Q (bind x f) (bind x' f').
Proof. destruct x, x'; simpl; auto; tauto. Qed.

Lemma substeps_scale {S S' : Type} (rel : S -> S' -> Prop) (s : R)
    (body : R -> R -> S -> S) (body' : R -> R -> S' -> S') :
  0 < s ->
  (forall c d x x', 0 < d -> rel x x' -> rel (body c d x) (body' (s * c) (s * d) x')) ->
  forall fuel a b h x x', 0 < h -> rel x x' ->
  res_rel rel (substeps fuel a b h body x)
              (substeps fuel (s * a) (s * b) (s * h) body' x').
Proof.
  intros Hs Hb. induction fuel as [|fuel IH]; intros a b h x x' Hh Hx; simpl.
  - rewrite Rlt_dec_scale by auto. destruct (Rlt_dec a b); simpl; auto.
  - rewrite Rlt_dec_scale by auto. destruct (Rlt_dec a b); simpl; auto.
    replace (s * b - s * a) with (s * (b - a)) by ring.
    rewrite Rlt_dec_scale by auto.
    destruct (Rlt_dec (b - a) h).
    + replace (s * a + s * (b - a)) with (s * (a + (b - a))) by ring.
      apply IH; auto. apply Hb; auto. lra.
    + replace (s * a + s * h) with (s * (a + h)) by ring.
      apply IH; auto.
Qed.

Lemma substeps_fuel_scale s a b h : s <> 0 -> h <> 0 ->
  substeps_fuel (s * a) (s * b) (s * h) = substeps_fuel a b h.
Proof.
  intros Hs Hh. unfold substeps_fuel. do 2 f_equal.
  field. auto.
Qed.

Lemma arange_len_scale s a b h : s <> 0 -> h <> 0 ->
  arange_len (s * a) (s * b) (s * h) = arange_len a b h.
Proof. intros Hs Hh. unfold arange_len. do 2 f_equal. field. auto. Qed.

Lemma arange_scale s a b h : s <> 0 -> h <> 0 ->
  arange (s * a) (s * b) (s * h) = map (Rmult s) (arange a b h).
Proof.
  intros Hs Hh. unfold arange. rewrite arange_len_scale by auto. rewrite map_map.
  apply map_ext. intros. ring.
Qed.

Lemma run_steps_scale {S S' : Type} (rel : S -> S' -> Prop) (s : R)
    (step : R -> R -> S -> res S) (step' : R -> R -> S' -> res S') :
  (forall a b x x', a <> b -> rel x x' ->
     res_rel rel (step a b x) (step' (s * a) (s * b) x')) ->
  forall ts t0 x x',
  (forall i, (i < length ts)%nat -> nth i (t0 :: ts) 0 <> nth i ts 0) -> rel x x' ->
  res_rel (Forall2 rel) (run_steps step t0 ts x)
          (run_steps step' (s * t0) (map (Rmult s) ts) x').
Proof.
  intros Hst. induction ts as [|t ts IH]; intros t0 x x' Hd Hx; simpl.
  - constructor.
  - assert (Ht : t0 <> t) by (apply (Hd 0%nat); simpl; lia).
    pose proof (Hst t0 t x x' Ht Hx) as H.
    destruct (step t0 t x) as [y|e], (step' (s * t0) (s * t) x') as [y'|e']; simpl in *;
      try tauto.
    assert (H' : res_rel (Forall2 rel) (run_steps step t ts y)
                   (run_steps step' (s * t) (map (Rmult s) ts) y')).
    { apply IH; auto. intros i Hi. apply (Hd (Datatypes.S i)). simpl. lia. }
    destruct (run_steps step t ts y), (run_steps step' (s * t) (map (Rmult s) ts) y');
      simpl in *; auto. 
Qed.

(** ** The scaling relation *)
Definition ft_scaled (s : R) (f f' : forcing_term) : Prop :=
  ft_n f' = ft_n f /\ ft_goal_t f' = s * ft_goal_t f /\ ft_start_t f' = s * ft_start_t f
  /\ ft_alpha_z f' = ft_alpha_z f
  /\ (forall d i, (i < ft_n f)%nat -> ft_weights f' d i = ft_weights f d i)
  /\ (forall i, (i < ft_n f)%nat -> ft_centers f' i = ft_centers f i)
  /\ (forall i, (i < ft_n f)%nat -> ft_widths f' i = ft_widths f i).

Lemma ft_phase_scaled s f f' t :
  s <> 0 -> ft_goal_t f <> ft_start_t f -> ft_scaled s f f' ->
  ft_phase f' (s * t) = ft_phase f t.
Proof.
  intros Hs Hne (_ & Eg & Es & Ea & _). unfold ft_phase. rewrite Eg, Es, Ea.
  unfold phase. f_equal.
  replace (s * ft_goal_t f - s * ft_start_t f) with (s * (ft_goal_t f - ft_start_t f)) by ring.
  field. split; lra.
Qed.

Lemma ft_forces_scaled s f f' z :
  ft_scaled s f f' -> ft_forces f' z = ft_forces f z.
Proof.
  intros (En & _ & _ & _ & Ew & Ec & Ed). vext. unfold ft_forces. rewrite En.
  f_equal. apply rsum_ext. intros i Hi. rewrite Ew by auto. f_equal.
  unfold activations. rewrite (rsum_ext _ _ (rbf (ft_centers f) (ft_widths f) z)).
  - unfold rbf. now rewrite Ec, Ed.
  - intros j Hj. unfold rbf. now rewrite Ec, Ed.
Qed.

Record args_scaled (s : R) (a a' : dmp_args) : Prop := {
  as_goal_y : a_goal_y a' = a_goal_y a;
  as_start_y : a_start_y a' = a_start_y a;
  as_start_yd : forall d, a_start_yd a' d = a_start_yd a d / s;
  as_goal_t : a_goal_t a' = s * a_goal_t a;
  as_start_t : a_start_t a' = s * a_start_t a;
  as_alpha : a_alpha_y a' = a_alpha_y a;
  as_beta : a_beta_y a' = a_beta_y a;
  as_ft : ft_scaled s (a_forcing_term a) (a_forcing_term a');
  as_ft_t : ft_goal_t (a_forcing_term a) <> ft_start_t (a_forcing_term a);
  as_coupling : match a_coupling_term a, a_coupling_term a' with
                | None, None => True
                | Some c, Some c' =>
                    forall y v v', (forall d, v' d = v d / s) -> c' y v' = c y v
                | _, _ => False
                end;
  as_precomputed : a_precomputed a' = a_precomputed a;
  as_int_dt : a_int_dt a' = s * a_int_dt a;
  as_p_gain : a_p_gain a' = s * a_p_gain a \/ a_tracking_error a = None;
  as_te : a_tracking_error a' = a_tracking_error a;
  as_smooth : a_smooth_scaling a' = a_smooth_scaling a
}.

Definition st_scaled (s : R) (x x' : vec * vec) : Prop :=
  fst x' = fst x /\ forall d, snd x' d = snd x d / s.

Lemma dmp_acc_scaled s a a' Y V V' z f tdd tdd' cdd :
  0 < s -> a_goal_t a <> a_start_t a -> args_scaled s a a' ->
  (forall d, V' d = V d / s) -> (forall d, tdd' d = tdd d) ->
  forall d,
  dmp_acc Y V' cdd (a_alpha_y a') (a_beta_y a') (a_goal_y a') (a_start_y a') z
    (a_goal_t a' - a_start_t a') f (a_coupling_term a') tdd' (a_smooth_scaling a') d
  = dmp_acc Y V cdd (a_alpha_y a) (a_beta_y a) (a_goal_y a) (a_start_y a) z
    (a_goal_t a - a_start_t a) f (a_coupling_term a) tdd (a_smooth_scaling a) d / s ^ 2.
Proof.
  intros Hs Ht H HV Htd d. unfold dmp_acc.
  rewrite (as_goal_y _ _ _ H), (as_start_y _ _ _ H), (as_goal_t _ _ _ H), (as_start_t _ _ _ H),
    (as_alpha _ _ _ H), (as_beta _ _ _ H), (as_smooth _ _ _ H), Htd, HV.
  assert (Ec : match a_coupling_term a' with Some c => snd (c Y V') | None => cdd end
             = match a_coupling_term a with Some c => snd (c Y V) | None => cdd end).
  { pose proof (as_coupling _ _ _ H) as Hc.
    destruct (a_coupling_term a), (a_coupling_term a'); try tauto.
    now rewrite (Hc Y V V' HV). }
  rewrite Ec. replace (s * a_goal_t a - s * a_start_t a) with (s * (a_goal_t a - a_start_t a)) by ring.
  field. split; lra.
Qed.

Lemma tdd_scaled s a a' h :
  0 < s -> h <> 0 -> args_scaled s a a' -> forall d,
  a_p_gain a' * tracking_error_or_zero (a_tracking_error a') d / (s * h)
  = a_p_gain a * tracking_error_or_zero (a_tracking_error a) d / h.
Proof.
  intros Hs Hh H d. rewrite (as_te _ _ _ H).
  destruct (as_p_gain _ _ _ H) as [E|E].
  - rewrite E. field. split; lra.
  - rewrite E. unfold tracking_error_or_zero, vzero. field. split; lra.
Qed.

Lemma precomputed_scaled s a a' : args_scaled s a a' ->
  precomputed_cdd a' = precomputed_cdd a /\ precomputed_cd a' = precomputed_cd a.
Proof.
  intros H. unfold precomputed_cdd, precomputed_cd. now rewrite (as_precomputed _ _ _ H).
Qed.

Lemma euler_body_scaled s a a' c d x x' :
  0 < s -> a_goal_t a <> a_start_t a -> args_scaled s a a' -> 0 < d ->
  st_scaled s x x' ->
  st_scaled s (euler_body a c d x) (euler_body a' (s * c) (s * d) x').
Proof.
  intros Hs Ht H Hd [Hy Hv]. destruct x as [y v], x' as [y' v']. simpl in Hy, Hv. subst y'.
  unfold euler_body.
  destruct (precomputed_scaled _ _ _ H) as [-> _].
  rewrite (ft_phase_scaled s (a_forcing_term a) (a_forcing_term a')) by
    (first [lra|apply (as_ft_t _ _ _ H)|apply (as_ft _ _ _ H)]).
  rewrite (ft_forces_scaled s (a_forcing_term a) (a_forcing_term a')) by apply (as_ft _ _ _ H).
  pose (A := dmp_acc y v (precomputed_cdd a) (a_alpha_y a) (a_beta_y a)
     (a_goal_y a) (a_start_y a) (ft_phase (a_forcing_term a) c) (a_goal_t a - a_start_t a)
     (ft_forces (a_forcing_term a) (ft_phase (a_forcing_term a) c)) (a_coupling_term a)
     (fun d0 => a_p_gain a * tracking_error_or_zero (a_tracking_error a) d0 / d)
     (a_smooth_scaling a)).
  pose (A' := dmp_acc y v' (precomputed_cdd a) (a_alpha_y a') (a_beta_y a')
     (a_goal_y a') (a_start_y a') (ft_phase (a_forcing_term a) c) (a_goal_t a' - a_start_t a')
     (ft_forces (a_forcing_term a) (ft_phase (a_forcing_term a) c)) (a_coupling_term a')
     (fun d0 => a_p_gain a' * tracking_error_or_zero (a_tracking_error a') d0 / (s * d))
     (a_smooth_scaling a')).
  assert (Hacc : forall d0, A' d0 = A d0 / s ^ 2).
  { intros d0. unfold A, A'. apply dmp_acc_scaled; auto. intros. apply tdd_scaled; auto. lra. }
  change (st_scaled s
    (let yd1 := vadd v (vscale d A) in let y1 := vadd y (vscale d yd1) in
     match a_coupling_term a with
     | None => (y1, yd1)
     | Some c => (y1, vadd yd1 (vdivs (fst (c y1 yd1)) (a_goal_t a - a_start_t a))) end)
    (let yd1 := vadd v' (vscale (s * d) A') in let y1 := vadd y (vscale (s * d) yd1) in
     match a_coupling_term a' with
     | None => (y1, yd1)
     | Some c => (y1, vadd yd1 (vdivs (fst (c y1 yd1)) (a_goal_t a' - a_start_t a'))) end)).
  clearbody A A'.
  assert (HV : forall d0, vadd v' (vscale (s * d) A') d0 = vadd v (vscale d A) d0 / s).
  { intros. unfold vadd, vscale. rewrite Hv, Hacc. field. lra. }
  assert (HY : vadd y (vscale (s * d) (vadd v' (vscale (s * d) A')))
             = vadd y (vscale d (vadd v (vscale d A)))).
  { vext. unfold vadd, vscale in *. rewrite HV. field. lra. }
  pose proof (as_coupling _ _ _ H) as Hc.
  destruct (a_coupling_term a) as [cp|], (a_coupling_term a') as [cp'|]; try tauto.
  - cbv zeta. rewrite HY. split; simpl; [reflexivity|].
    intros d0. rewrite (Hc _ _ _ HV). unfold vdivs. unfold vadd at 1. rewrite HV.
    unfold vadd at 4.
    rewrite (as_goal_t _ _ _ H), (as_start_t _ _ _ H). unfold vadd.
    replace (s * a_goal_t a - s * a_start_t a) with (s * (a_goal_t a - a_start_t a)) by ring.
    field. split; lra.
  - cbv zeta. rewrite HY. split; simpl; [reflexivity|]. exact HV.
Qed.

Lemma euler_cython_body_scaled s a a' c d x x' :
  0 < s -> a_goal_t a <> a_start_t a -> args_scaled s a a' -> 0 < d ->
  st_scaled s x x' ->
  st_scaled s (euler_cython_body a c d x) (euler_cython_body a' (s * c) (s * d) x').
Proof.
  intros Hs Ht H Hd [Hy Hv]. destruct x as [y v], x' as [y' v']. simpl in Hy, Hv. subst y'.
  unfold euler_cython_body.
  rewrite (ft_phase_scaled s (a_forcing_term a) (a_forcing_term a')) by
    (first [lra|apply (as_ft_t _ _ _ H)|apply (as_ft _ _ _ H)]).
  rewrite (ft_forces_scaled s (a_forcing_term a) (a_forcing_term a')) by apply (as_ft _ _ _ H).
  assert (Ec : match a_coupling_term a', a_precomputed a' with
    | Some c, _ => c y v' | None, Some p => p | None, None => (vzero, vzero) end
    = match a_coupling_term a, a_precomputed a with
    | Some c, _ => c y v | None, Some p => p | None, None => (vzero, vzero) end).
  { pose proof (as_coupling _ _ _ H) as Hc. rewrite (as_precomputed _ _ _ H).
    destruct (a_coupling_term a), (a_coupling_term a'); try tauto. now apply Hc. }
  rewrite Ec.
  destruct (match a_coupling_term a, a_precomputed a with
    | Some c, _ => c y v | None, Some p => p | None, None => (vzero, vzero) end) as [cd cdd].
  assert (Et : match a_tracking_error a' with
      | Some te => fun d0 => cdd d0 + a_p_gain a' * te d0 / (s * d) | None => cdd end
    = match a_tracking_error a with
      | Some te => fun d0 => cdd d0 + a_p_gain a * te d0 / d | None => cdd end).
  { assert (Hd' : d <> 0) by lra. pose proof (tdd_scaled s a a' d Hs Hd' H) as Htd.
    rewrite (as_te _ _ _ H) in *. destruct (a_tracking_error a); [|reflexivity].
    vext. unfold tracking_error_or_zero in Htd. now rewrite Htd. }
  rewrite Et. cbv zeta.
  rewrite (as_goal_y _ _ _ H), (as_start_y _ _ _ H), (as_goal_t _ _ _ H), (as_start_t _ _ _ H),
    (as_alpha _ _ _ H), (as_beta _ _ _ H), (as_smooth _ _ _ H).
  replace (s * a_goal_t a - s * a_start_t a) with (s * (a_goal_t a - a_start_t a)) by ring.
  split; simpl.
  - vext. rewrite Hv. field. split; lra.
  - intros d0. rewrite Hv. field. split; lra.
Qed.

Lemma rk4_scaled s a a' lt t x x' :
  0 < s -> a_goal_t a <> a_start_t a -> args_scaled s a a' -> lt <> t ->
  st_scaled s x x' ->
  st_scaled s (dmp_step_rk4 a lt t x) (dmp_step_rk4 a' (s * lt) (s * t) x').
Proof.
  intros Hs Ht H Hd [Hy Hv]. destruct x as [y v], x' as [y' v']. simpl in Hy, Hv. subst y'.
  unfold dmp_step_rk4. destruct (precomputed_scaled _ _ _ H) as [-> _].
  replace (s * t - s * lt) with (s * (t - lt)) by ring.
  set (h := t - lt). assert (Hh : h <> 0) by (unfold h; lra). clearbody h.
  replace (s * t + / 2 * (s * h)) with (s * (t + / 2 * h)) by ring.
  replace (s * t + s * h) with (s * (t + h)) by ring.
  rewrite !(ft_phase_scaled s (a_forcing_term a) (a_forcing_term a')) by
    (first [lra|apply (as_ft_t _ _ _ H)|apply (as_ft _ _ _ H)]).
  rewrite !(ft_forces_scaled s (a_forcing_term a) (a_forcing_term a')) by apply (as_ft _ _ _ H).
  set (Z0 := ft_phase _ t). set (Z1 := ft_phase _ (t + / 2 * h)).
  set (Z2 := ft_phase _ (t + h)).
  set (F0 := ft_forces _ Z0). set (F1 := ft_forces _ Z1). set (F2 := ft_forces _ Z2).
  clearbody Z0 Z1 Z2 F0 F1 F2.
  pose (acc' := fun Y V z f => dmp_acc Y V (precomputed_cdd a) (a_alpha_y a') (a_beta_y a')
     (a_goal_y a') (a_start_y a') z (a_goal_t a' - a_start_t a') f (a_coupling_term a')
     (fun d => a_p_gain a' * tracking_error_or_zero (a_tracking_error a') d / (s * h))
     (a_smooth_scaling a')).
  pose (acc := fun Y V z f => dmp_acc Y V (precomputed_cdd a) (a_alpha_y a) (a_beta_y a)
     (a_goal_y a) (a_start_y a) z (a_goal_t a - a_start_t a) f (a_coupling_term a)
     (fun d => a_p_gain a * tracking_error_or_zero (a_tracking_error a) d / h)
     (a_smooth_scaling a)).
  assert (Hacc : forall Y Y' V V' z f, Y' = Y -> (forall d, V' d = V d / s) ->
     forall d, acc' Y' V' z f d = acc Y V z f d / s ^ 2).
  { intros Y Y' V V' z f -> HV d. unfold acc, acc'. apply dmp_acc_scaled; auto.
    intros d0. apply tdd_scaled; auto. }
  change (st_scaled s
    (let K0 := acc y v Z0 F0 in
     let C1 := vadd v (vscale (/ 2 * h) K0) in
     let K1 := acc (vadd y (vscale (/ 2 * h) v)) C1 Z1 F1 in
     let C2 := vadd v (vscale (/ 2 * h) K1) in
     let K2 := acc (vadd y (vscale (/ 2 * h) C1)) C2 Z1 F1 in
     let C3 := vadd v (vscale h K2) in
     let K3 := acc (vadd y (vscale h C2)) C3 Z2 F2 in
     let ny := fun d => y d + h * (v d + h / 6 * (K0 d + K1 d + K2 d)) in
     let nv := fun d => v d + h / 6 * (K0 d + 2 * K1 d + 2 * K2 d + K3 d) in
     match a_coupling_term a with
     | None => (ny, nv)
     | Some c => (ny, vadd nv (vdivs (fst (c ny nv)) (a_goal_t a - a_start_t a)))
     end)
    (let K0 := acc' y v' Z0 F0 in
     let C1 := vadd v' (vscale (/ 2 * (s * h)) K0) in
     let K1 := acc' (vadd y (vscale (/ 2 * (s * h)) v')) C1 Z1 F1 in
     let C2 := vadd v' (vscale (/ 2 * (s * h)) K1) in
     let K2 := acc' (vadd y (vscale (/ 2 * (s * h)) C1)) C2 Z1 F1 in
     let C3 := vadd v' (vscale (s * h) K2) in
     let K3 := acc' (vadd y (vscale (s * h) C2)) C3 Z2 F2 in
     let ny := fun d => y d + s * h * (v' d + s * h / 6 * (K0 d + K1 d + K2 d)) in
     let nv := fun d => v' d + s * h / 6 * (K0 d + 2 * K1 d + 2 * K2 d + K3 d) in
     match a_coupling_term a' with
     | None => (ny, nv)
     | Some c => (ny, vadd nv (vdivs (fst (c ny nv)) (a_goal_t a' - a_start_t a')))
     end)).
  clearbody acc acc'. intros.
  assert (HC : forall K K' q, (forall d, K' d = K d / s ^ 2) ->
     forall d, vadd v' (vscale (q * (s * h)) K') d = vadd v (vscale (q * h) K) d / s).
  { intros K K' q HK d. unfold vadd, vscale. rewrite Hv, HK. field. lra. }
  assert (HY : forall C C' q, (forall d, C' d = C d / s) ->
     vadd y (vscale (q * (s * h)) C') = vadd y (vscale (q * h) C)).
  { intros C C' q HCC. vext. unfold vadd, vscale. rewrite HCC. field. lra. }
  cbv zeta.
  match goal with |- st_scaled s (match _ with Some c => (?ny, vadd ?nv _) | None => _ end)
                                 (match _ with Some c' => (?ny', vadd ?nv' _) | None => _ end) =>
    set (NY := ny); set (NV := nv); set (NY' := ny'); set (NV' := nv');
    assert (E : NY' = NY /\ forall d, NV' d = NV d / s) end.
  { unfold NY, NV, NY', NV'. clear NY NV NY' NV'. set (K0 := acc y v Z0 F0). set (K0' := acc' y v' Z0 F0).
    assert (E0 : forall d, K0' d = K0 d / s ^ 2) by (apply Hacc; auto).
    set (C1 := vadd v (vscale (/ 2 * h) K0)). set (C1' := vadd v' (vscale (/ 2 * (s * h)) K0')).
    assert (EC1 : forall d, C1' d = C1 d / s) by (apply HC; auto).
    set (K1 := acc _ C1 Z1 F1). set (K1' := acc' _ C1' Z1 F1).
    assert (E1 : forall d, K1' d = K1 d / s ^ 2) by (apply Hacc; auto).
    set (C2 := vadd v (vscale (/ 2 * h) K1)). set (C2' := vadd v' (vscale (/ 2 * (s * h)) K1')).
    assert (EC2 : forall d, C2' d = C2 d / s) by (apply HC; auto).
    set (K2 := acc _ C2 Z1 F1). set (K2' := acc' _ C2' Z1 F1).
    assert (E2 : forall d, K2' d = K2 d / s ^ 2) by (apply Hacc; auto).
    set (C3 := vadd v (vscale h K2)). set (C3' := vadd v' (vscale (s * h) K2')).
    assert (EC3 : forall d, C3' d = C3 d / s).
    { unfold C3, C3'. intros d. specialize (HC K2 K2' 1 E2 d). now rewrite !Rmult_1_l in HC. }
    set (K3 := acc _ C3 Z2 F2). set (K3' := acc' _ C3' Z2 F2).
    assert (E3 : forall d, K3' d = K3 d / s ^ 2).
    { apply Hacc; auto. specialize (HY C2 C2' 1 EC2). now rewrite !Rmult_1_l in HY. }
    split.
    - vext. rewrite Hv, E0, E1, E2. field. lra.
    - intros d. rewrite Hv, E0, E1, E2, E3. field. lra. }
  clearbody NY NV NY' NV'. destruct E as [Ey Ev].
  pose proof (as_coupling _ _ _ H) as Hc.
  destruct (a_coupling_term a) as [cp|], (a_coupling_term a') as [cp'|]; try tauto.
  - rewrite Ey. split; simpl; [reflexivity|]. intros d.
    rewrite (Hc _ _ _ Ev). unfold vdivs. unfold vadd at 1. rewrite Ev.
    rewrite (as_goal_t _ _ _ H), (as_start_t _ _ _ H).
    replace (s * a_goal_t a - s * a_start_t a) with (s * (a_goal_t a - a_start_t a)) by ring.
    unfold vadd. field. split; lra.
  - rewrite Ey. split; simpl; [reflexivity|]. exact Ev.
Qed.

Lemma step_scaled s fn a a' lt t x x' :
  0 < s -> a_goal_t a <> a_start_t a -> 0 < a_int_dt a -> args_scaled s a a' -> lt <> t ->
  st_scaled s x x' ->
  res_rel (st_scaled s) (run_step_function fn a lt t x)
          (run_step_function fn a' (s * lt) (s * t) x').
Proof.
  intros Hs Ht Hi H Hd Hx. destruct fn; simpl.
  - now apply rk4_scaled.
  - unfold dmp_step_euler. rewrite (as_goal_t _ _ _ H), (as_start_t _ _ _ H), (as_int_dt _ _ _ H).
    rewrite !Rle_dec_scale by auto.
    destruct (Rle_dec (a_goal_t a) (a_start_t a)); [reflexivity|].
    destruct (Rle_dec t (a_start_t a)); [exact Hx|].
    rewrite substeps_fuel_scale by lra.
    apply substeps_scale; auto. intros. now apply euler_body_scaled.
  - rewrite !rk4_cython_eq. now apply rk4_scaled.
  - unfold dmp_step_euler_cython.
    rewrite (as_goal_t _ _ _ H), (as_start_t _ _ _ H), (as_int_dt _ _ _ H).
    rewrite !Rle_dec_scale by auto.
    destruct (Rle_dec (a_goal_t a) (a_start_t a)); [reflexivity|].
    rewrite substeps_fuel_scale by lra.
    apply substeps_scale; auto.
    + intros. now apply euler_cython_body_scaled.
    + destruct (Rle_dec t (a_start_t a)); auto.
      split; simpl; [apply (as_start_y _ _ _ H)|apply (as_start_yd _ _ _ H)].
Qed.

Lemma arange_distinct a b h : h <> 0 ->
  forall i, (S i < length (arange a b h))%nat ->
  nth i (arange a b h) 0 <> nth (S i) (arange a b h) 0.
Proof.
  intros Hh i Hi. rewrite arange_length in Hi.
  rewrite !arange_nth by lia. rewrite S_INR. intros E. apply Hh.
  replace h with (a + (INR i + 1) * h - (a + INR i * h)) by ring. rewrite <- E. ring.
Qed.

Lemma open_loop_scaled s fn a a' start_t run_t dt y v v' :
  0 < s -> a_goal_t a <> a_start_t a -> 0 < a_int_dt a -> args_scaled s a a' -> dt <> 0 ->
  (forall d, v' d = v d / s) ->
  res_rel (fun r r' => fst r' = map (Rmult s) (fst r) /\ Forall2 (st_scaled s) (snd r) (snd r'))
    (open_loop_run (run_step_function fn a) start_t run_t dt y v)
    (open_loop_run (run_step_function fn a') (s * start_t) (s * run_t) (s * dt) y v').
Proof.
  intros Hs Ht Hi H Hdt Hv. unfold open_loop_run.
  replace (s * run_t + s * dt) with (s * (run_t + dt)) by ring.
  rewrite arange_scale by lra.
  pose proof (arange_distinct start_t (run_t + dt) dt Hdt) as Hd.
  destruct (arange start_t (run_t + dt) dt) as [|t0 ts]; simpl; [reflexivity|].
  pose proof (run_steps_scale (st_scaled s) s (run_step_function fn a) (run_step_function fn a'))
    as HR.
  assert (Hst : forall t t' x x', t <> t' -> st_scaled s x x' ->
     res_rel (st_scaled s) (run_step_function fn a t t' x)
       (run_step_function fn a' (s * t) (s * t') x'))
    by (intros; now apply step_scaled).
  assert (H0 : st_scaled s (y, v) (y, v')) by (split; auto).
  specialize (HR Hst ts t0 (y, v) (y, v')).
  assert (HR' : res_rel (Forall2 (st_scaled s)) (run_steps (run_step_function fn a) t0 ts (y, v))
     (run_steps (run_step_function fn a') (s * t0) (map (Rmult s) ts) (y, v'))).
  { apply HR; auto. intros i Hi'. apply (Hd i). simpl. lia. }
  eapply res_rel_bind; [exact HR'|]. intros l l' Hl. simpl.
  split; [reflexivity|constructor; auto].
Qed.
