(** The dual-arm step, arm by arm. *)
From Coq Require Import Reals List Arith Lia Lra FunctionalExtensionality.
From Verif Require Import M_Prelude M_Canonical M_Forcing M_Dmp M_Base M_DmpObject M_Quaternion
  M_Cartesian M_Dual S_Loops S_Rotation P_Loops P_Quaternion P_Cartesian P_Components.
Import ListNotations.
Open Scope R_scope.
Set Bullet Behavior "Strict Subproofs".

Definition arm_p (arm : nat) (y : vec) : v3 :=
  V3 (y (7 * arm)%nat) (y (7 * arm + 1)%nat) (y (7 * arm + 2)%nat).
Definition arm_v (arm : nat) (yd : vec) : v3 :=
  V3 (yd (6 * arm)%nat) (yd (6 * arm + 1)%nat) (yd (6 * arm + 2)%nat).

(** Everything of one arm. *)
Record arm_par := {
  ap_goal : v3; ap_goal_q : quat; ap_start : v3; ap_start_q : quat; ap_start_v : v3; ap_start_w : v3;
  ap_alpha : v3; ap_alpha_w : v3; ap_beta : v3; ap_beta_s : v3; ap_beta_w : v3;
  ap_f : R -> v3; ap_fw : R -> v3; ap_phase : R -> R;
  ap_goal_t : R; ap_start_t : R; ap_int_dt : R;
  ap_smooth : bool; ap_gain : R; ap_te : option (v3 * quat)
}.
Definition arm_params (arm : nat) (a : dmp_args) : arm_par := {|
  ap_goal := arm_p arm (a_goal_y a); ap_goal_q := arm_q arm (a_goal_y a);
  ap_start := arm_p arm (a_start_y a); ap_start_q := arm_q arm (a_start_y a);
  ap_start_v := arm_v arm (a_start_yd a); ap_start_w := arm_w arm (a_start_yd a);
  ap_alpha := arm_v arm (a_alpha_y a); ap_alpha_w := arm_w arm (a_alpha_y a);
  ap_beta := arm_v arm (a_beta_y a); ap_beta_s := arm_p arm (a_beta_y a);
  ap_beta_w := arm_w arm (a_beta_y a);
  ap_f := fun z => arm_v arm (ft_forces (a_forcing_term a) z);
  ap_fw := fun z => arm_w arm (ft_forces (a_forcing_term a) z);
  ap_phase := ft_phase (a_forcing_term a);
  ap_goal_t := a_goal_t a; ap_start_t := a_start_t a; ap_int_dt := a_int_dt a;
  ap_smooth := a_smooth_scaling a; ap_gain := a_p_gain a;
  ap_te := option_map (fun te => (arm_p arm te, arm_q arm te)) (a_tracking_error a) |}.

(** Position, orientation, velocity, angular velocity and the two parts of [cdd]. *)
Record arm_state := { as_p : v3; as_q : quat; as_v : v3; as_w : v3; as_c : v3; as_cw : v3 }.
Definition arm_proj {CS} (arm : nat) (s : (vec * vec) * vec * CS) : arm_state :=
  let '((y, yd), cdd, _) := s in
  {| as_p := arm_p arm y; as_q := arm_q arm y; as_v := arm_v arm yd; as_w := arm_w arm yd;
     as_c := arm_v arm cdd; as_cw := arm_w arm cdd |}.

(** One integration step of one arm; [cd], [cdd] come from the coupling term. *)
Definition arm_step (i : impl) (A : arm_par) (cur dt : R) (cd cdw cdd cddw : v3) (s : arm_state)
    : arm_state :=
  let tau := ap_goal_t A - ap_start_t A in
  let z := ap_phase A cur in
  let fb := match ap_te A with
            | None => v3_zero | Some (te, _) => v3_divs (v3_scale (ap_gain A) te) dt end in
  let fbw := match ap_te A with
             | None => v3_zero
             | Some (_, te) => v3_divs (v3_scale (ap_gain A) (i_log i te)) dt end in
  let c := v3_add cdd fb in
  let cw := v3_add cddw fbw in
  let sm := if ap_smooth A then v3_mul (v3_mul (ap_beta_s A) (v3_sub (ap_goal A) (ap_start A))) (V3 z z z)
            else v3_zero in
  let smw := if ap_smooth A then v3_mul (v3_scale z (ap_beta_w A)) (q_error i (ap_goal_q A) (ap_start_q A))
             else v3_zero in
  let acc := v3_divs (v3_add (v3_add (v3_mul (ap_alpha A)
               (v3_sub (v3_sub (v3_mul (ap_beta A) (v3_sub (ap_goal A) (as_p s))) (v3_scale tau (as_v s))) sm))
               (ap_f A z)) c) (tau ^ 2) in
  let accw := v3_divs (v3_add (v3_add (v3_mul (ap_alpha_w A)
               (v3_sub (v3_sub (v3_mul (ap_beta_w A) (q_error i (ap_goal_q A) (as_q s))) (v3_scale tau (as_w s))) smw))
               (ap_fw A z)) cw) (tau ^ 2) in
  let v := v3_add (as_v s) (v3_add (v3_scale dt acc) (v3_divs cd tau)) in
  let w := v3_add (as_w s) (v3_add (v3_scale dt accw) (v3_divs cdw tau)) in
  {| as_p := v3_add (as_p s) (v3_scale dt v);
     as_q := i_mul i (i_exp i (v3_scale dt w)) (as_q s);
     as_v := v; as_w := w; as_c := c; as_cw := cw |}.

Lemma arm_dec arm : (arm <= 1)%nat -> arm = 0%nat \/ arm = 1%nat.
Proof. lia. Qed.

Lemma dual_body_arm {CS} i a (ct : option (stateful_coupling CS)) arm cur dt s : (arm <= 1)%nat ->
  arm_proj arm (dual_body i a ct cur dt s)
  = let '((y, yd), cdd, cs) := s in
    let '(cd, cdd) := match ct with
                      | Some c => snd (c cs y yd)
                      | None => (vzero, match i with Python => cdd | Cython => vzero end) end in
    arm_step i (arm_params arm a) cur dt (arm_v arm cd) (arm_w arm cd) (arm_v arm cdd) (arm_w arm cdd)
      (arm_proj arm s).
Proof.
  intros Ha. destruct s as [[[y yd] cdd] cs].
  set (C := match ct with Some c => c cs y yd | None => (cs, (vzero, match i with Python => cdd | Cython => vzero end)) end).
  replace (match ct with Some c => snd (c cs y yd)
           | None => (vzero, match i with Python => cdd | Cython => vzero end) end) with (snd C)
    by (unfold C; now destruct ct).
  unfold dual_body. fold C. clearbody C. clear ct.
  destruct C as [cs' [cd cdd']]. cbn [snd].
  unfold arm_step, arm_params, dual_feedback. cbn [ap_te ap_smooth ap_goal_t ap_start_t].
  destruct (arm_dec arm Ha) as [-> | ->]; destruct (a_tracking_error a) as [te|];
    unfold dual_pos_acc, dual_rot_acc; destruct (a_smooth_scaling a), i; reflexivity.
Qed.

(** Without coupling the arm only sees itself. *)
Lemma dual_body_arm_none {CS} i a arm cur dt (s : (vec * vec) * vec * CS) : (arm <= 1)%nat ->
  arm_proj arm (dual_body i a None cur dt s)
  = let A := arm_proj arm s in
    arm_step i (arm_params arm a) cur dt v3_zero v3_zero
      (match i with Python => as_c A | Cython => v3_zero end)
      (match i with Python => as_cw A | Cython => v3_zero end) A.
Proof.
  intros Ha. rewrite dual_body_arm by auto. destruct s as [[[y yd] cdd] cs]. cbv zeta. now destruct i.
Qed.

Lemma dual_step_function_arm {CS CS2} i a a2 arm lt t s s2 (cs : CS) (cs2 : CS2) : (arm <= 1)%nat ->
  arm_params arm a2 = arm_params arm a ->
  arm_proj arm (s2, vzero, cs2) = arm_proj arm (s, vzero, cs) ->
  match dual_step_function i a None lt t s cs, dual_step_function i a2 None lt t s2 cs2 with
  | Ok (x, _), Ok (x2, _) => arm_p arm (fst x2) = arm_p arm (fst x) /\ arm_q arm (fst x2) = arm_q arm (fst x)
                             /\ arm_v arm (snd x2) = arm_v arm (snd x) /\ arm_w arm (snd x2) = arm_w arm (snd x)
  | Err e, Err e' => e = e'
  | _, _ => False
  end.
Proof.
  intros Ha E Es. unfold dual_step_function.
  pose proof (f_equal ap_int_dt E) as Ei. pose proof (f_equal ap_start_t E) as Est.
  cbn [arm_params ap_int_dt ap_start_t] in Ei, Est. rewrite Ei, Est.
  set (s0 := if Rle_dec t (a_start_t a) then (a_start_y a, a_start_yd a) else s).
  set (s02 := if Rle_dec t (a_start_t a) then (a_start_y a2, a_start_yd a2) else s2).
  assert (Es0 : arm_proj arm (s02, vzero, cs2) = arm_proj arm (s0, vzero, cs)).
  { unfold s0, s02. destruct (Rle_dec t (a_start_t a)); [|exact Es].
    pose proof (f_equal ap_start E) as E1. pose proof (f_equal ap_start_q E) as E2.
    pose proof (f_equal ap_start_v E) as E3. pose proof (f_equal ap_start_w E) as E4.
    cbn [arm_params ap_start ap_start_q ap_start_v ap_start_w] in *.
    unfold arm_proj. congruence. }
  clearbody s0 s02.
  pose proof (substeps_rel_any (fun (x : (vec * vec) * vec * CS) (x2 : (vec * vec) * vec * CS2) =>
      arm_proj arm x2 = arm_proj arm x) (dual_body i a None) (dual_body i a2 None)) as HR.
  match type of HR with ?P -> _ => assert (HP : P) end.
  { intros c d x x2 Hx. rewrite !dual_body_arm_none by auto. cbv zeta. now rewrite Hx, E. }
  specialize (HR HP (substeps_fuel lt t (a_int_dt a)) lt t (a_int_dt a) (s0, vzero, cs) (s02, vzero, cs2) Es0).
  destruct (substeps _ _ _ _ (dual_body i a None) _) as [[[[y yd] cdd] c]|e];
    destruct (substeps _ _ _ _ (dual_body i a2 None) _) as [[[[y2 yd2] cdd2] c2]|e2]; try tauto; cbn [rmap fst snd].
  repeat split; [exact (f_equal as_p HR)|exact (f_equal as_q HR)|exact (f_equal as_v HR)|exact (f_equal as_w HR)].
Qed.

(** ** Unit orientations *)
Lemma arm_proj_q {CS} arm (y yd cdd : vec) (cs : CS) : as_q (arm_proj arm ((y, yd), cdd, cs)) = arm_q arm y.
Proof. reflexivity. Qed.

Lemma dual_body_unit {CS} i a (ct : option (stateful_coupling CS)) arm c d s : (arm <= 1)%nat ->
  unit_quat (arm_q arm (fst (fst (fst s)))) ->
  unit_quat (arm_q arm (fst (fst (fst (dual_body i a ct c d s))))).
Proof.
  intros Ha H. pose proof (dual_body_arm i a ct arm c d s Ha) as E.
  destruct (dual_body i a ct c d s) as [[[y' yd'] cdd'] cs'] eqn:Eb.
  apply (f_equal as_q) in E. rewrite arm_proj_q in E. cbn [fst]. rewrite E.
  destruct s as [[[y yd] cdd] cs]. destruct (match ct with Some _ => _ | None => _ end) as [cd cdd2].
  unfold arm_step. cbn [as_q arm_proj]. apply i_mul_exp_unit. exact H.
Qed.

Lemma dual_step_function_unit {CS} i a (ct : option (stateful_coupling CS)) arm lt t s cs s' cs' :
  (arm <= 1)%nat -> unit_quat (arm_q arm (a_start_y a)) -> unit_quat (arm_q arm (fst s)) ->
  dual_step_function i a ct lt t s cs = Ok (s', cs') -> unit_quat (arm_q arm (fst s')).
Proof.
  intros Ha Hs H E. unfold dual_step_function in E.
  destruct (substeps _ _ _ _ _ _) as [x|] eqn:Ex; [|discriminate]. cbn [rmap] in E.
  injection E as <- <-.
  refine (substeps_inv (fun x => unit_quat (arm_q arm (fst (fst (fst x))))) _ _ _ _ _ _ _ _ _ Ex).
  - intros. now apply dual_body_unit.
  - cbn [fst]. destruct (Rle_dec _ _); auto.
Qed.
