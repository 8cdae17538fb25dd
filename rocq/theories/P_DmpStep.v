(** Proofs about single steps of the DMP integrators. *)
From Coq Require Import Reals List Lia Lra Psatz FunctionalExtensionality.
From Verif Require Import M_Prelude M_Canonical M_Forcing M_Dmp S_Dmp
  S_Loops P_Loops P_Canonical P_Forcing.
Import ListNotations.
Open Scope R_scope.

Ltac vext := apply functional_extensionality; intro.

(** ** C06 *)
Definition coupling_acc (a : dmp_args) : vec -> vec -> vec :=
  match a_coupling_term a with
  | Some c => fun y v => snd (c y v)
  | None => fun _ _ => precomputed_cdd a
  end.

Lemma rk4_is_textbook a last_t t s :
  a_coupling_term a = None ->
  let h := t - last_t in
  let te := tracking_error_or_zero (a_tracking_error a) in
  dmp_step_rk4 a last_t t s
  = rk4_textbook
      (dmp_equation (a_goal_t a - a_start_t a) (a_alpha_y a) (a_beta_y a)
         (a_goal_y a) (a_start_y a) (a_smooth_scaling a)
         (fun s => ft_phase (a_forcing_term a) (s + h))
         (fun s => ft_call (a_forcing_term a) (s + h))
         (fun y v d => coupling_acc a y v d + a_p_gain a * te d / h))
      last_t h s.
Proof.
  intros Hc h te. destruct s as [y yd].
  set (F := dmp_equation _ _ _ _ _ _ _ _ _).
  assert (HF : forall T Y V,
    dmp_acc Y V (precomputed_cdd a) (a_alpha_y a) (a_beta_y a) (a_goal_y a)
      (a_start_y a) (ft_phase (a_forcing_term a) (T + h))
      (a_goal_t a - a_start_t a)
      (ft_forces (a_forcing_term a) (ft_phase (a_forcing_term a) (T + h)))
      None (fun d => a_p_gain a * te d / h) (a_smooth_scaling a)
    = snd (F T (Y, V))).
  { intros. unfold F, dmp_equation, dmp_acc, ft_call, coupling_acc. rewrite Hc. cbn [fst snd].
    vext. rewrite !Rplus_assoc. reflexivity. }
  assert (HV : forall T x, fst (F T x) = snd x) by reflexivity.
  clearbody F.
  unfold dmp_step_rk4. rewrite Hc. cbv zeta. fold h. fold te.
  replace t with (last_t + h) by (unfold h; ring).
  replace (last_t + h + / 2 * h) with (last_t + / 2 * h + h) by ring.
  rewrite !HF. unfold rk4_textbook, st_plus, st_times, vadd, vscale.
  replace (h / 2) with (/ 2 * h) by (unfold Rdiv; ring).
  cbn [fst snd]. rewrite !HV. cbn [fst snd].
  clearbody h. unfold vec in *. f_equal; vext; [field|ring].
Qed.

(** The same with a coupling object: its acceleration enters the equation, its
    velocity is added to the resulting velocity. *)
Lemma rk4_is_textbook_coupled a c last_t t s :
  a_coupling_term a = Some c ->
  let h := t - last_t in
  let tau := a_goal_t a - a_start_t a in
  let te := tracking_error_or_zero (a_tracking_error a) in
  let x := rk4_textbook
      (dmp_equation tau (a_alpha_y a) (a_beta_y a)
         (a_goal_y a) (a_start_y a) (a_smooth_scaling a)
         (fun s => ft_phase (a_forcing_term a) (s + h))
         (fun s => ft_call (a_forcing_term a) (s + h))
         (fun y v d => snd (c y v) d + a_p_gain a * te d / h))
      last_t h s in
  dmp_step_rk4 a last_t t s
  = (fst x, fun d => snd x d + fst (c (fst x) (snd x)) d / tau).
Proof.
  intros Hc h tau te x. destruct s as [y yd]. unfold x. clear x.
  set (F := dmp_equation _ _ _ _ _ _ _ _ _).
  assert (HF : forall T Y V,
    dmp_acc Y V (precomputed_cdd a) (a_alpha_y a) (a_beta_y a) (a_goal_y a)
      (a_start_y a) (ft_phase (a_forcing_term a) (T + h))
      tau
      (ft_forces (a_forcing_term a) (ft_phase (a_forcing_term a) (T + h)))
      (Some c) (fun d => a_p_gain a * te d / h) (a_smooth_scaling a)
    = snd (F T (Y, V))).
  { intros. unfold F, dmp_equation, dmp_acc, ft_call, coupling_acc. cbn [fst snd].
    vext. rewrite !Rplus_assoc. reflexivity. }
  assert (HV : forall T x, fst (F T x) = snd x) by reflexivity.
  clearbody F.
  unfold dmp_step_rk4. rewrite Hc. cbv zeta. fold h. fold te. fold tau.
  replace t with (last_t + h) by (unfold h; ring).
  replace (last_t + h + / 2 * h) with (last_t + / 2 * h + h) by ring.
  rewrite !HF. unfold rk4_textbook, st_plus, st_times, vadd, vscale, vdivs.
  replace (h / 2) with (/ 2 * h) by (unfold Rdiv; ring).
  cbn [fst snd]. rewrite !HV. cbn [fst snd].
  clearbody h. unfold vec in *.
  match goal with |- (?y1, ?v1) = (?y2, ?v2) =>
    assert (Ey : y1 = y2) end.
  { vext. field. }
  rewrite <- Ey. f_equal. vext.
  match goal with |- _ + fst (c ?p ?q) _ / _ = _ + fst (c ?p' ?q') _ / _ =>
    assert (Ev : q = q') by (vext; ring); rewrite Ev; clear Ev end.
  ring.
Qed.

(** ** C08 *)
Lemma rk4_cython_eq a last_t t s :
  dmp_step_rk4_cython a last_t t s = dmp_step_rk4 a last_t t s.
Proof.
  destruct s as [y yd]. unfold dmp_step_rk4_cython, dmp_step_rk4.
  assert (Ec : vadd vzero (precomputed_cdd a) = precomputed_cdd a).
  { vext. unfold vadd, vzero. ring. }
  rewrite Ec. cbv zeta.
  assert (Et : match a_tracking_error a with
      | Some te => vscale (a_p_gain a / (t - last_t)) te
      | None => vzero
      end = fun d => a_p_gain a * tracking_error_or_zero (a_tracking_error a) d / (t - last_t)).
  { destruct (a_tracking_error a); vext; unfold vscale, vzero, tracking_error_or_zero, Rdiv;
      [ring|unfold vzero; ring]. }
  rewrite Et. clear Ec Et.
  set (acc := fun Y V z f => dmp_acc_cython Y V (precomputed_cdd a) (a_alpha_y a)
    (a_beta_y a) (a_goal_y a) (a_start_y a) z (a_goal_t a - a_start_t a) f
    (a_coupling_term a)
    (fun d => a_p_gain a * tracking_error_or_zero (a_tracking_error a) d / (t - last_t))
    (a_smooth_scaling a)).
  change dmp_acc_cython with dmp_acc in acc.
  match goal with |- match _ with None => (?y1, ?v1) | _ => _ end
      = match _ with None => (?y2, ?v2) | _ => _ end =>
    assert (Ey : y1 = y2);
    [|assert (Ev : v1 = v2);
      [|rewrite Ey, Ev; reflexivity]] end.
  - vext. unfold vadd, vscale. change dmp_acc_cython with dmp_acc. field.
  - vext. unfold vadd, vscale. change dmp_acc_cython with dmp_acc. field.
Qed.
