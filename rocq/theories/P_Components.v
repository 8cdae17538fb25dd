(** The components in a set [D] of the result of a step function only depend on
    these components of its arguments, if this holds for the coupling term.  The
    second vector may have its components in another place: component [d] of the
    first corresponds to component [r d] of the second. *)
From Coq Require Import Reals List Arith Lia Lra FunctionalExtensionality.
From Verif Require Import M_Prelude M_Canonical M_Forcing M_Dmp S_Loops P_Loops P_DmpStep.
Import ListNotations.
Open Scope R_scope.

Definition veq (D : nat -> Prop) (r : nat -> nat) (u u' : vec) : Prop :=
  forall d, D d -> u' (r d) = u d.
Definition same_on (D : nat -> Prop) (r : nat -> nat) (s s' : vec * vec) : Prop :=
  veq D r (fst s) (fst s') /\ veq D r (snd s) (snd s').

Definition coupling_on (D : nat -> Prop) (r : nat -> nat) (c c' : option coupling) : Prop :=
  match c, c' with
  | None, None => True
  | Some c, Some c' => forall y y' v v', veq D r y y' -> veq D r v v' -> same_on D r (c y v) (c' y' v')
  | _, _ => False
  end.

Record agree_on (D : nat -> Prop) (r : nat -> nat) (a a' : dmp_args) : Prop := {
  ag_goal : veq D r (a_goal_y a) (a_goal_y a'); ag_start : veq D r (a_start_y a) (a_start_y a');
  ag_goal_t : a_goal_t a' = a_goal_t a; ag_start_t : a_start_t a' = a_start_t a;
  ag_alpha : veq D r (a_alpha_y a) (a_alpha_y a'); ag_beta : veq D r (a_beta_y a) (a_beta_y a');
  ag_phase : forall t, ft_phase (a_forcing_term a') t = ft_phase (a_forcing_term a) t;
  ag_forces : forall z, veq D r (ft_forces (a_forcing_term a) z) (ft_forces (a_forcing_term a') z);
  ag_coupling : coupling_on D r (a_coupling_term a) (a_coupling_term a');
  ag_pre : a_precomputed a = None; ag_pre' : a_precomputed a' = None;
  ag_int_dt : a_int_dt a' = a_int_dt a; ag_smooth : a_smooth_scaling a' = a_smooth_scaling a;
  ag_te : forall d, D d -> a_p_gain a' * tracking_error_or_zero (a_tracking_error a') (r d)
          = a_p_gain a * tracking_error_or_zero (a_tracking_error a) d
}.

Lemma veq_add D r u u' v v' : veq D r u u' -> veq D r v v' -> veq D r (vadd u v) (vadd u' v').
Proof. intros H1 H2 d Hd. unfold vadd. now rewrite H1, H2. Qed.
Lemma veq_scale D r c u u' : veq D r u u' -> veq D r (vscale c u) (vscale c u').
Proof. intros H1 d Hd. unfold vscale. now rewrite H1. Qed.
Lemma veq_divs D r c u u' : veq D r u u' -> veq D r (vdivs u c) (vdivs u' c).
Proof. intros H1 d Hd. unfold vdivs. now rewrite H1. Qed.

Lemma dmp_acc_on D r a a' Y Y' V V' z f f' h : agree_on D r a a' -> veq D r Y Y' -> veq D r V V' -> veq D r f f' ->
  veq D r
   (dmp_acc Y V (precomputed_cdd a) (a_alpha_y a) (a_beta_y a) (a_goal_y a) (a_start_y a) z
    (a_goal_t a - a_start_t a) f (a_coupling_term a)
    (fun d => a_p_gain a * tracking_error_or_zero (a_tracking_error a) d / h) (a_smooth_scaling a))
   (dmp_acc Y' V' (precomputed_cdd a') (a_alpha_y a') (a_beta_y a') (a_goal_y a') (a_start_y a') z
    (a_goal_t a' - a_start_t a') f' (a_coupling_term a')
    (fun d => a_p_gain a' * tracking_error_or_zero (a_tracking_error a') d / h) (a_smooth_scaling a')).
Proof.
  intros H HY HV Hf d Hd. unfold dmp_acc, precomputed_cdd.
  rewrite (ag_pre _ _ _ _ H), (ag_pre' _ _ _ _ H).
  set (C' := match a_coupling_term a' with Some _ => _ | None => _ end).
  set (C := match a_coupling_term a with Some _ => _ | None => _ end).
  assert (Ec : C' (r d) = C d).
  { pose proof (ag_coupling _ _ _ _ H) as HC. unfold C, C', coupling_on in *.
    destruct (a_coupling_term a), (a_coupling_term a'); try tauto.
    apply HC; auto. }
  clearbody C C'.
  rewrite (ag_goal _ _ _ _ H d Hd), (ag_start _ _ _ _ H d Hd), (ag_goal_t _ _ _ _ H), (ag_start_t _ _ _ _ H),
    (ag_alpha _ _ _ _ H d Hd), (ag_beta _ _ _ _ H d Hd), (ag_smooth _ _ _ _ H), (ag_te _ _ _ _ H d Hd),
    (HY d Hd), (HV d Hd), (Hf d Hd), Ec.
  reflexivity.
Qed.

(** Adding the velocity of the coupling term at the end of a step. *)
Lemma final_coupling_on D r a a' y y' v v' : agree_on D r a a' -> veq D r y y' -> veq D r v v' ->
  same_on D r
    (match a_coupling_term a with
     | None => (y, v)
     | Some c => (y, vadd v (vdivs (fst (c y v)) (a_goal_t a - a_start_t a))) end)
    (match a_coupling_term a' with
     | None => (y', v')
     | Some c => (y', vadd v' (vdivs (fst (c y' v')) (a_goal_t a' - a_start_t a'))) end).
Proof.
  intros H Hy Hv. pose proof (ag_coupling _ _ _ _ H) as HC. unfold coupling_on in HC.
  rewrite (ag_goal_t _ _ _ _ H), (ag_start_t _ _ _ _ H).
  destruct (a_coupling_term a), (a_coupling_term a'); try tauto; split; cbn [fst snd]; auto.
  apply veq_add; auto. apply veq_divs. now apply HC.
Qed.

Lemma rk4_on D r a a' lt t s s' : agree_on D r a a' -> same_on D r s s' ->
  same_on D r (dmp_step_rk4 a lt t s) (dmp_step_rk4 a' lt t s').
Proof.
  destruct s as [y v], s' as [y' v']. intros H [Hy Hv]. cbn [fst snd] in Hy, Hv.
  unfold dmp_step_rk4. cbv zeta. rewrite !(ag_phase _ _ _ _ H).
  set (z0 := ft_phase _ t). set (z1 := ft_phase _ (t + / 2 * (t - lt))). set (z2 := ft_phase _ (t + (t - lt))).
  set (K0' := dmp_acc y' v' _ _ _ _ _ _ _ _ _ _ _). set (K0 := dmp_acc y v _ _ _ _ _ _ _ _ _ _ _).
  assert (E0 : veq D r K0 K0') by (apply dmp_acc_on; auto; apply (ag_forces _ _ _ _ H)).
  clearbody K0 K0'.
  set (K1' := dmp_acc (vadd y' (vscale _ v')) _ _ _ _ _ _ _ _ _ _ _ _).
  set (K1 := dmp_acc (vadd y (vscale _ v)) _ _ _ _ _ _ _ _ _ _ _ _).
  assert (E1 : veq D r K1 K1').
  { apply dmp_acc_on; auto using veq_add, veq_scale. apply (ag_forces _ _ _ _ H). }
  clearbody K1 K1'.
  set (K2' := dmp_acc (vadd y' (vscale _ (vadd v' (vscale _ K0')))) _ _ _ _ _ _ _ _ _ _ _ _).
  set (K2 := dmp_acc (vadd y (vscale _ (vadd v (vscale _ K0)))) _ _ _ _ _ _ _ _ _ _ _ _).
  assert (E2 : veq D r K2 K2').
  { apply dmp_acc_on; auto using veq_add, veq_scale. apply (ag_forces _ _ _ _ H). }
  clearbody K2 K2'.
  set (K3' := dmp_acc (vadd y' (vscale _ (vadd v' (vscale _ K1')))) _ _ _ _ _ _ _ _ _ _ _ _).
  set (K3 := dmp_acc (vadd y (vscale _ (vadd v (vscale _ K1)))) _ _ _ _ _ _ _ _ _ _ _ _).
  assert (E3 : veq D r K3 K3').
  { apply dmp_acc_on; auto using veq_add, veq_scale. apply (ag_forces _ _ _ _ H). }
  clearbody K3 K3'.
  apply final_coupling_on; auto.
  - intros d Hd. now rewrite (Hy d Hd), (Hv d Hd), (E0 d Hd), (E1 d Hd), (E2 d Hd).
  - intros d Hd. now rewrite (Hv d Hd), (E0 d Hd), (E1 d Hd), (E2 d Hd), (E3 d Hd).
Qed.

Lemma euler_body_on D r a a' c h s s' : agree_on D r a a' -> same_on D r s s' ->
  same_on D r (euler_body a c h s) (euler_body a' c h s').
Proof.
  destruct s as [y v], s' as [y' v']. intros H [Hy Hv]. cbn [fst snd] in Hy, Hv.
  unfold euler_body. cbv zeta. rewrite (ag_phase _ _ _ _ H).
  set (K' := dmp_acc y' v' _ _ _ _ _ _ _ _ _ _ _). set (K := dmp_acc y v _ _ _ _ _ _ _ _ _ _ _).
  assert (E0 : veq D r K K') by (apply dmp_acc_on; auto; apply (ag_forces _ _ _ _ H)).
  clearbody K K'. apply final_coupling_on; auto using veq_add, veq_scale.
Qed.

Lemma euler_cython_body_on D r a a' c h s s' : agree_on D r a a' -> same_on D r s s' ->
  same_on D r (euler_cython_body a c h s) (euler_cython_body a' c h s').
Proof.
  destruct s as [y v], s' as [y' v']. intros H [Hy Hv]. cbn [fst snd] in Hy, Hv.
  unfold euler_cython_body. rewrite (ag_pre _ _ _ _ H), (ag_pre' _ _ _ _ H).
  assert (Hc : same_on D r (match a_coupling_term a with Some c => c y v | None => (vzero, vzero) end)
                         (match a_coupling_term a' with Some c => c y' v' | None => (vzero, vzero) end)).
  { pose proof (ag_coupling _ _ _ _ H) as HC. unfold coupling_on in HC.
    destruct (a_coupling_term a), (a_coupling_term a'); try tauto; [auto|].
    split; intros d Hd; reflexivity. }
  destruct (match a_coupling_term a with Some c => c y v | None => (vzero, vzero) end) as [cd cdd].
  destruct (match a_coupling_term a' with Some c => c y' v' | None => (vzero, vzero) end) as [cd' cdd'].
  destruct Hc as [Hcd Hcdd]. cbn [fst snd] in Hcd, Hcdd.
  cbv zeta. rewrite (ag_phase _ _ _ _ H).
  assert (Ec : veq D r (match a_tracking_error a with
       | Some te => fun d => cdd d + a_p_gain a * te d / h | None => cdd end)
    (match a_tracking_error a' with
       | Some te => fun d => cdd' d + a_p_gain a' * te d / h | None => cdd' end)).
  { intros d Hd. pose proof (ag_te _ _ _ _ H d Hd) as T. unfold tracking_error_or_zero in T.
    specialize (Hcdd d Hd).
    destruct (a_tracking_error a'), (a_tracking_error a); unfold vzero in *; unfold Rdiv in *.
    - now rewrite T, Hcdd.
    - rewrite T, Hcdd. ring.
    - rewrite <- T, Hcdd. ring.
    - exact Hcdd. }
  set (C' := match a_tracking_error a' with Some _ => _ | None => _ end) in *.
  set (C := match a_tracking_error a with Some _ => _ | None => _ end) in *.
  clearbody C C'.
  split; intros d Hd; cbn [fst snd];
    rewrite (ag_goal _ _ _ _ H d Hd), (ag_start _ _ _ _ H d Hd), (ag_goal_t _ _ _ _ H), (ag_start_t _ _ _ _ H),
    (ag_alpha _ _ _ _ H d Hd), (ag_beta _ _ _ _ H d Hd), (ag_smooth _ _ _ _ H), (ag_forces _ _ _ _ H _ d Hd),
    (Hy d Hd), (Hv d Hd), (Ec d Hd), (Hcd d Hd); reflexivity.
Qed.

Lemma substeps_rel_any {S S' : Type} (rel : S -> S' -> Prop)
    (body : R -> R -> S -> S) (body' : R -> R -> S' -> S') :
  (forall c d s s', rel s s' -> rel (body c d s) (body' c d s')) ->
  forall fuel a b h s s', rel s s' ->
  match substeps fuel a b h body s, substeps fuel a b h body' s' with
  | Ok x, Ok x' => rel x x'
  | Err e, Err e' => e = e'
  | _, _ => False
  end.
Proof.
  intros Hb. induction fuel as [|fuel IH]; intros a b h s s' Hs; simpl; destruct (Rlt_dec a b); auto.
  apply IH. now apply Hb.
Qed.

Definition res_on (D : nat -> Prop) (r : nat -> nat) (x x' : res (vec * vec)) : Prop :=
  match x, x' with
  | Ok x, Ok x' => same_on D r x x'
  | Err e, Err e' => e = e'
  | _, _ => False
  end.

Lemma step_on D r fn a a' lt t s s' : agree_on D r a a' ->
  (t <= a_start_t a -> veq D r (a_start_yd a) (a_start_yd a')) -> same_on D r s s' ->
  res_on D r (run_step_function fn a lt t s) (run_step_function fn a' lt t s').
Proof.
  intros H Hv Hs. unfold res_on. destruct fn; cbn [run_step_function].
  - now apply rk4_on.
  - unfold dmp_step_euler. rewrite (ag_goal_t _ _ _ _ H), (ag_start_t _ _ _ _ H), (ag_int_dt _ _ _ _ H).
    destruct (Rle_dec _ _); [reflexivity|]. destruct (Rle_dec _ _); [auto|].
    apply (substeps_rel_any (same_on D r)); auto. intros. now apply euler_body_on.
  - rewrite !rk4_cython_eq. now apply rk4_on.
  - unfold dmp_step_euler_cython. rewrite (ag_goal_t _ _ _ _ H), (ag_start_t _ _ _ _ H), (ag_int_dt _ _ _ _ H).
    destruct (Rle_dec _ _); [reflexivity|].
    apply (substeps_rel_any (same_on D r)); [intros; now apply euler_cython_body_on|].
    destruct (Rle_dec _ _); [|auto]. split; [apply (ag_start _ _ _ _ H)|auto].
Qed.
