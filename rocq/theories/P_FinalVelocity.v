(** Lemmas about the quintic goal trajectory (M_FinalVelocity.v). *)
From Coq Require Import Reals List Arith Lia Lra Psatz FunctionalExtensionality.
From Coquelicot Require Import Coquelicot.
From Verif Require Import M_Prelude M_Canonical M_Forcing M_Dmp M_Base M_DmpObject M_Linalg
  M_FinalVelocity S_Loops S_Dmp P_Loops P_Canonical P_Forcing P_DmpStep P_DmpScale P_DmpLinear
  P_Converge P_DmpObject.
Import ListNotations.
Open Scope R_scope.
Set Bullet Behavior "Strict Subproofs".

Definition bc (y0 y0d y0dd y1 y1d y1dd : vec) : nat -> vec :=
  fun i => match i with
           | 0%nat => y0 | 1%nat => y0d | 2%nat => y0dd
           | 3%nat => y1 | 4%nat => y1d | 5%nat => y1dd | _ => vzero end.

(** Explicit coefficients: first around [t0], then expanded. *)
Definition quintic (t0 t1 : R) (a b c a' b' c' : R) (j : nat) : R :=
  let T := t1 - t0 in
  let c0 := a in let c1 := b in let c2 := c / 2 in
  let c3 := (20 * (a' - a) - (8 * b' + 12 * b) * T - (3 * c - c') * T ^ 2) / (2 * T ^ 3) in
  let c4 := (30 * (a - a') + (14 * b' + 16 * b) * T + (3 * c - 2 * c') * T ^ 2) / (2 * T ^ 4) in
  let c5 := (12 * (a' - a) - 6 * (b' + b) * T + (c' - c) * T ^ 2) / (2 * T ^ 5) in
  match j with
  | 0%nat => c0 - c1 * t0 + c2 * t0 ^ 2 - c3 * t0 ^ 3 + c4 * t0 ^ 4 - c5 * t0 ^ 5
  | 1%nat => c1 - 2 * c2 * t0 + 3 * c3 * t0 ^ 2 - 4 * c4 * t0 ^ 3 + 5 * c5 * t0 ^ 4
  | 2%nat => c2 - 3 * c3 * t0 + 6 * c4 * t0 ^ 2 - 10 * c5 * t0 ^ 3
  | 3%nat => c3 - 4 * c4 * t0 + 10 * c5 * t0 ^ 2
  | 4%nat => c4 - 5 * c5 * t0
  | 5%nat => c5
  | _ => 0
  end.

Lemma lt6 i : (i < 6)%nat ->
  i = 0%nat \/ i = 1%nat \/ i = 2%nat \/ i = 3%nat \/ i = 4%nat \/ i = 5%nat.
Proof. lia. Qed.

Lemma quintic_solves t0 t1 y0 y0d y0dd y1 y1d y1dd : t0 <> t1 ->
  solves 6 (constraint_matrix t0 t1) (bc y0 y0d y0dd y1 y1d y1dd)
    (fun j d => quintic t0 t1 (y0 d) (y0d d) (y0dd d) (y1 d) (y1d d) (y1dd d) j).
Proof.
  intros H. split.
  - intros i d Hi. destruct (lt6 i Hi) as [->|[->|[->|[->|[->| ->]]]]];
      cbn [rsum constraint_matrix constraint_row bc quintic]; field; lra.
  - intros i d Hi. do 6 (destruct i; [lia|]). reflexivity.
Qed.

Lemma quintic_unique t0 t1 (x : vec) : t0 <> t1 ->
  forall j, (j < 6)%nat ->
  quintic t0 t1 (rsum 6 (fun k => constraint_matrix t0 t1 0 k * x k))
    (rsum 6 (fun k => constraint_matrix t0 t1 1 k * x k))
    (rsum 6 (fun k => constraint_matrix t0 t1 2 k * x k))
    (rsum 6 (fun k => constraint_matrix t0 t1 3 k * x k))
    (rsum 6 (fun k => constraint_matrix t0 t1 4 k * x k))
    (rsum 6 (fun k => constraint_matrix t0 t1 5 k * x k)) j = x j.
Proof.
  intros H j Hj. destruct (lt6 j Hj) as [->|[->|[->|[->|[->| ->]]]]];
    cbn [rsum constraint_matrix constraint_row quintic]; field; lra.
Qed.

Lemma constraint_nonsingular t0 t1 : t0 <> t1 -> nonsingular 6 (constraint_matrix t0 t1).
Proof.
  intros H x Hx k Hk. rewrite <- (quintic_unique t0 t1 x H k Hk).
  rewrite !Hx by lia. destruct (lt6 k Hk) as [->|[->|[->|[->|[->| ->]]]]]; cbn [quintic]; field; lra.
Qed.

Lemma constraint_singular t : ~ nonsingular 6 (constraint_matrix t t).
Proof.
  intros H. specialize (H (fun j => match j with
     | 0%nat => - t ^ 3 | 1%nat => 3 * t ^ 2 | 2%nat => - 3 * t | 3%nat => 1 | _ => 0 end)).
  assert (E : (1 : R) = 0); [|lra]. apply (H ltac:(
    intros i Hi; destruct (lt6 i Hi) as [->|[->|[->|[->|[->| ->]]]]];
    cbn [rsum constraint_matrix constraint_row]; ring) 3%nat). lia.
Qed.

Lemma solve_constraints_ok t0 t1 y0 y0d y0dd y1 y1d y1dd : t0 <> t1 ->
  solve_constraints t0 t1 y0 y0d y0dd y1 y1d y1dd
  = Ok (fun j d => quintic t0 t1 (y0 d) (y0d d) (y0dd d) (y1 d) (y1d d) (y1dd d) j).
Proof.
  intros H. apply np_linalg_solve_ok; [now apply constraint_nonsingular|].
  now apply quintic_solves.
Qed.

(** Polynomials of degree at most five. *)
Definition poly5 (c : vec) (t : R) : R := rsum 6 (fun j => c j * t ^ j).

Lemma poly5_derive c t :
  is_derive (poly5 c) t (rsum 6 (fun j => constraint_row 1 t j * c j)).
Proof.
  unfold poly5. cbn [rsum constraint_row]. auto_derive; [auto|]. ring.
Qed.

Lemma poly5_derive2 c t :
  is_derive (fun s => rsum 6 (fun j => constraint_row 1 s j * c j)) t
    (rsum 6 (fun j => constraint_row 2 t j * c j)).
Proof. cbn [rsum constraint_row]. auto_derive; [auto|]. ring. Qed.

Lemma poly5_row c t : rsum 6 (fun j => constraint_row 0 t j * c j) = poly5 c t.
Proof. unfold poly5. cbn [rsum constraint_row]. ring. Qed.

Lemma float_eps_pos : 0 < float_eps.
Proof. unfold float_eps. apply Rinv_0_lt_compat. lra. Qed.

(** After the goal time the body is the Euler body of a DMP without smooth
    scaling. *)
Definition without_smoothing (a : dmp_args) : dmp_args :=
  {| a_goal_y := a_goal_y a; a_goal_yd := a_goal_yd a; a_goal_ydd := a_goal_ydd a;
     a_start_y := a_start_y a; a_start_yd := a_start_yd a; a_start_ydd := a_start_ydd a;
     a_goal_t := a_goal_t a; a_start_t := a_start_t a;
     a_alpha_y := a_alpha_y a; a_beta_y := a_beta_y a; a_forcing_term := a_forcing_term a;
     a_coupling_term := a_coupling_term a; a_precomputed := a_precomputed a;
     a_int_dt := a_int_dt a; a_p_gain := a_p_gain a; a_tracking_error := a_tracking_error a;
     a_smooth_scaling := false |}.

Lemma fv_body_after_goal a B c h s : free a -> a_goal_t a + float_eps < c -> h <> 0 ->
  fv_body a B c h s = euler_body (without_smoothing a) c h s.
Proof.
  intros (Hc & Hp & Hte) Ht Hh. destruct s as [y v].
  unfold fv_body, euler_body, apply_constraints, precomputed_cdd. cbv zeta. cbn [without_smoothing
    a_goal_y a_goal_t a_start_t a_alpha_y a_beta_y a_forcing_term a_coupling_term a_precomputed
    a_p_gain a_tracking_error a_smooth_scaling a_start_y].
  rewrite Hc, Hp. destruct (Rlt_dec (a_goal_t a + float_eps) c); [|lra].
  unfold dmp_acc, fv_acc, vadd, vscale, vzero.
  assert (E : forall d, v d + (h * ((a_alpha_y a d * (a_beta_y a d * (a_goal_y a d - y d)
      + (a_goal_t a - a_start_t a) * (0 - v d))
      + ft_forces (a_forcing_term a) (ft_phase (a_forcing_term a) c) d
      + (0 + a_p_gain a * tracking_error_or_zero (a_tracking_error a) d / h))
      / (a_goal_t a - a_start_t a) ^ 2 + 0) + 0 / (a_goal_t a - a_start_t a))
    = v d + h * ((a_alpha_y a d * (a_beta_y a d * (a_goal_y a d - y d)
      - (a_goal_t a - a_start_t a) * v d - 0)
      + ft_forces (a_forcing_term a) (ft_phase (a_forcing_term a) c) d + 0
      + a_p_gain a * tracking_error_or_zero (a_tracking_error a) d / h)
      / (a_goal_t a - a_start_t a) ^ 2)).
  { intros d. unfold Rdiv. ring. }
  f_equal; apply functional_extensionality; intro d; rewrite E; reflexivity.
Qed.
