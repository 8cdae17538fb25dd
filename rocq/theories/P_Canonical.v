(** Proofs about the canonical system. *)
From Coq Require Import Reals Lra Psatz.
From Coquelicot Require Import Coquelicot.
From Verif Require Import M_Prelude M_Canonical.
Open Scope R_scope.

Lemma canonical_system_alpha_ok goal_z goal_t start_t alpha :
  canonical_system_alpha goal_z goal_t start_t = Ok alpha ->
  0 < goal_z /\ start_t < goal_t /\ alpha = - ln goal_z.
Proof.
  unfold canonical_system_alpha.
  destruct (Rle_dec goal_z 0); [discriminate|].
  destruct (Rle_dec goal_t start_t); [discriminate|].
  intros H; inversion H; repeat split; lra.
Qed.

Lemma canonical_system_alpha_accepts goal_z goal_t start_t :
  0 < goal_z -> start_t < goal_t ->
  canonical_system_alpha goal_z goal_t start_t = Ok (- ln goal_z).
Proof.
  intros. unfold canonical_system_alpha.
  destruct (Rle_dec goal_z 0); [lra|]. destruct (Rle_dec goal_t start_t); [lra|reflexivity].
Qed.

Lemma canonical_system_alpha_rejects goal_z goal_t start_t :
  goal_z <= 0 \/ goal_t <= start_t ->
  canonical_system_alpha goal_z goal_t start_t = Err ValueError.
Proof.
  intros. unfold canonical_system_alpha.
  destruct (Rle_dec goal_z 0); [reflexivity|].
  destruct (Rle_dec goal_t start_t); [reflexivity|lra].
Qed.

Lemma phase_pos t alpha goal_t start_t : 0 < phase t alpha goal_t start_t.
Proof. apply exp_pos. Qed.

Lemma phase_start alpha goal_t start_t : phase start_t alpha goal_t start_t = 1.
Proof.
  unfold phase. replace (- alpha * (start_t - start_t) / (goal_t - start_t)) with 0.
  - apply exp_0.
  - unfold Rdiv. ring.
Qed.

Lemma phase_goal alpha goal_t start_t :
  start_t < goal_t -> phase goal_t alpha goal_t start_t = exp (- alpha).
Proof. intros. unfold phase. f_equal. field. lra. Qed.

Lemma phase_decreasing alpha goal_t start_t t1 t2 :
  start_t < goal_t -> 0 < alpha -> t1 < t2 ->
  phase t2 alpha goal_t start_t < phase t1 alpha goal_t start_t.
Proof.
  intros. unfold phase. apply exp_increasing.
  unfold Rdiv. apply Rmult_lt_compat_r; [apply Rinv_0_lt_compat; lra|nra].
Qed.

Lemma phase_derive alpha goal_t start_t t :
  start_t < goal_t ->
  is_derive (fun t => phase t alpha goal_t start_t) t
    (- alpha * phase t alpha goal_t start_t / (goal_t - start_t)).
Proof.
  intros. unfold phase. auto_derive; [auto|].
  unfold Rdiv, Rminus. ring.
Qed.

(** Shape of the phase as a decaying exponential of time. *)
Lemma phase_as_exp t alpha goal_t start_t :
  start_t < goal_t ->
  phase t alpha goal_t start_t
  = exp (alpha * start_t / (goal_t - start_t)) * exp (- (alpha / (goal_t - start_t)) * t).
Proof. intros. unfold phase. rewrite <- exp_plus. f_equal. field. lra. Qed.

Lemma phase_lim alpha goal_t start_t :
  start_t < goal_t -> 0 < alpha ->
  is_lim (fun t => phase t alpha goal_t start_t) p_infty 0.
Proof.
  intros Hs Ha.
  set (a := alpha / (goal_t - start_t)).
  assert (0 < a) by (apply Rmult_lt_0_compat; [lra|apply Rinv_0_lt_compat; lra]).
  apply is_lim_ext with (f := fun t => exp (alpha * start_t / (goal_t - start_t)) * exp (- a * t)).
  { intros. now rewrite phase_as_exp. }
  replace (Finite 0) with (Rbar_mult (exp (alpha * start_t / (goal_t - start_t))) 0).
  2:{ simpl. f_equal. ring. }
  apply is_lim_scal_l.
  apply (is_lim_comp exp (fun t => - a * t) p_infty 0 m_infty).
  - apply is_lim_exp_m.
  - replace m_infty with (Rbar_mult (- a) p_infty).
    + apply is_lim_scal_l. apply is_lim_id.
    + rewrite Rbar_mult_comm. unfold Rbar_mult, Rbar_mult'.
      destruct (Rle_dec 0 (- a)); [exfalso; lra|reflexivity].
  - exists 0. intros; discriminate.
Qed.

(** The phase only depends on the fraction of the execution time. *)
Lemma phase_scale s t alpha goal_t start_t :
  s <> 0 -> phase (s * t) alpha (s * goal_t) (s * start_t) = phase t alpha goal_t start_t.
Proof.
  intros Hs. unfold phase. f_equal.
  rewrite <- !Rmult_minus_distr_l.
  destruct (Req_dec (goal_t - start_t) 0) as [E|E].
  - rewrite E, Rmult_0_r. unfold Rdiv. rewrite Rinv_0. ring.
  - field. split; auto.
Qed.

Lemma phase_shift c t alpha goal_t start_t :
  phase (t + c) alpha (goal_t + c) (start_t + c) = phase t alpha goal_t start_t.
Proof.
  unfold phase.
  replace (t + c - (start_t + c)) with (t - start_t) by ring.
  replace (goal_t + c - (start_t + c)) with (goal_t - start_t) by ring. reflexivity.
Qed.
