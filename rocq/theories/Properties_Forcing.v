(** C01-C05: canonical system and forcing term.  Final statements. *)
From Coq Require Import Reals List Lia Lra Psatz.
From Coquelicot Require Import Coquelicot.
From Verif Require Import M_Prelude M_Canonical M_Forcing S_Loops P_Loops P_Canonical P_Forcing.
Import ListNotations.
Open Scope R_scope.

(** ** C01 *)
Theorem C01_alpha_errors : forall goal_z goal_t start_t,
  (canonical_system_alpha goal_z goal_t start_t = Err ValueError
     <-> (goal_z <= 0 \/ start_t >= goal_t))
  /\ ((exists alpha, canonical_system_alpha goal_z goal_t start_t = Ok alpha)
     <-> (0 < goal_z /\ start_t < goal_t)).
Proof.
  intros. destruct (Rle_dec goal_z 0), (Rle_dec goal_t start_t);
    try (rewrite canonical_system_alpha_rejects by lra;
         split; split; intros; try lra; try reflexivity;
         destruct H; discriminate).
  rewrite canonical_system_alpha_accepts by lra.
  split; split; intros; try discriminate; try lra. eauto.
Qed.

Theorem C01_phase : forall goal_z goal_t start_t alpha,
  canonical_system_alpha goal_z goal_t start_t = Ok alpha ->
  let z := fun t => phase t alpha goal_t start_t in
  let tau := goal_t - start_t in
  z start_t = 1
  /\ z goal_t = goal_z
  /\ (forall t, 0 < z t)
  /\ (goal_z < 1 -> forall t1 t2, t1 < t2 -> z t2 < z t1)
  /\ (forall t, exists z', is_derive z t z' /\ tau * z' = - alpha * z t)
  /\ (goal_z < 1 -> is_lim z p_infty 0).
Proof.
  intros goal_z goal_t start_t alpha H z tau.
  apply canonical_system_alpha_ok in H. destruct H as (Hz & Ht & ->).
  assert (Hneg : goal_z < 1 -> 0 < - ln goal_z).
  { intros. assert (ln goal_z < ln 1) by (apply ln_increasing; lra). rewrite ln_1 in *. lra. }
  unfold z, tau. repeat split.
  - apply phase_start.
  - rewrite phase_goal by auto. rewrite Ropp_involutive. now apply exp_ln.
  - intros. apply phase_pos.
  - intros. apply phase_decreasing; auto.
  - intros. eexists. split; [apply phase_derive; auto|]. field. lra.
  - intros. apply phase_lim; auto.
Qed.

Example C01_satisfiable :
  exists alpha, canonical_system_alpha (/ 100) 2 0 = Ok alpha /\ / 100 < 1.
Proof. eexists; split; [apply canonical_system_alpha_accepts; lra|lra]. Qed.

(** ** C02 *)
Theorem C02_constructor_errors :
  forall junk_c junk_w n goal_t start_t overlap alpha_z,
  (forcing_term_init junk_c junk_w n goal_t start_t overlap alpha_z = Err ValueError
     <-> ((n <= 1)%nat \/ start_t >= goal_t \/ overlap <= 0))
  /\ ((exists f, forcing_term_init junk_c junk_w n goal_t start_t overlap alpha_z = Ok f)
     <-> ((2 <= n)%nat /\ start_t < goal_t /\ 0 < overlap)).
Proof.
  intros. destruct (le_lt_dec n 1).
  { rewrite forcing_term_init_rejects by auto.
    split; split; intros; auto; try (destruct H; discriminate). lia. }
  destruct (Rle_dec goal_t start_t).
  { rewrite forcing_term_init_rejects by auto.
    split; split; intros; auto; try (destruct H; discriminate); lra. }
  destruct (Rle_dec overlap 0).
  { rewrite forcing_term_init_rejects by auto.
    split; split; intros; auto; try (destruct H; discriminate); lra. }
  destruct (forcing_term_init_ok junk_c junk_w n goal_t start_t overlap alpha_z)
    as [f [E _]]; [lia|lra|lra|]. rewrite E.
  split; split; intros; try discriminate.
  - destruct H as [H|[H|H]]; [lia|lra|lra].
  - repeat split; [lia|lra|lra].
  - eauto.
Qed.

(** No entry of [centers] or [widths] keeps the arbitrary content that
    [np.empty] left there. *)
Theorem C02_fully_initialised :
  forall jc jw jc' jw' n goal_t start_t overlap alpha_z f f',
  forcing_term_init jc jw n goal_t start_t overlap alpha_z = Ok f ->
  forcing_term_init jc' jw' n goal_t start_t overlap alpha_z = Ok f' ->
  forall i, (i < n)%nat ->
    ft_centers f i = ft_centers f' i /\ ft_widths f i = ft_widths f' i.
Proof.
  intros jc jw jc' jw' n goal_t start_t overlap alpha_z f f' E E'.
  assert (H : (2 <= n)%nat /\ start_t < goal_t /\ 0 < overlap)
    by (apply (C02_constructor_errors jc jw n goal_t start_t overlap alpha_z); eauto).
  destruct H as (Hn & Ht & Hov).
  destruct (forcing_term_init_ok jc jw n goal_t start_t overlap alpha_z Hn Ht Hov)
    as (g & E1 & _ & _ & _ & _ & _ & _ & Hc & Hw & Hl).
  destruct (forcing_term_init_ok jc' jw' n goal_t start_t overlap alpha_z Hn Ht Hov)
    as (g' & E1' & _ & _ & _ & _ & _ & _ & Hc' & Hw' & Hl').
  assert (g = f) by congruence. assert (g' = f') by congruence. subst g g'.
  assert (HC : forall i, (i < n)%nat -> ft_centers f i = ft_centers f' i)
    by (intros; rewrite Hc, Hc'; auto).
  assert (HW : forall i, (i < n - 1)%nat -> ft_widths f i = ft_widths f' i)
    by (intros; rewrite Hw, Hw', !HC by lia; auto).
  intros i Hi. split; auto.
  destruct (Nat.eq_dec i (n - 1)) as [->|]; [|apply HW; lia].
  rewrite Hl, Hl'. apply HW. lia.
Qed.

Theorem C02_basis :
  forall jc jw n goal_t overlap alpha_z f,
  forcing_term_init jc jw n goal_t 0 overlap alpha_z = Ok f ->
  0 < overlap < 1 -> 0 < alpha_z ->
  ft_centers f 0%nat = 1
  /\ ft_centers f (n - 1)%nat = phase goal_t alpha_z goal_t 0
  /\ (forall i j, (i < j < n)%nat -> ft_centers f j < ft_centers f i)
  /\ (forall i, (i < n)%nat -> 0 < ft_widths f i)
  /\ (forall i, (i < n - 1)%nat ->
        exp (- ft_widths f i * (ft_centers f (i + 1)%nat - ft_centers f i) ^ 2) = overlap).
Proof.
  intros jc jw n goal_t overlap alpha_z f E Ho Ha.
  assert (H : (2 <= n)%nat /\ 0 < goal_t /\ 0 < overlap)
    by (apply (C02_constructor_errors jc jw n goal_t 0 overlap alpha_z); eauto).
  destruct H as (Hn & Ht & Hov).
  destruct (forcing_term_init_ok jc jw n goal_t 0 overlap alpha_z Hn Ht Hov)
    as (g & E1 & _ & _ & _ & _ & _ & _ & Hc & Hw & Hl).
  assert (g = f) by congruence. subst g. clear E1.
  assert (H1n : 1 < INR n) by (apply lt_1_INR; lia).
  assert (HC : forall i, (i < n)%nat ->
    ft_centers f i = exp (- alpha_z * (INR i / (INR n - 1)))).
  { intros i Hi. rewrite Hc by auto. now apply center_at_zero. }
  assert (Hdec : forall i j, (i < j < n)%nat -> ft_centers f j < ft_centers f i).
  { intros i j Hij. rewrite !HC by lia. apply exp_increasing.
    assert (INR i < INR j) by (apply lt_INR; lia).
    assert (INR i / (INR n - 1) < INR j / (INR n - 1))
      by (apply Rmult_lt_compat_r; [apply Rinv_0_lt_compat; lra|lra]).
    nra. }
  assert (Hlo : 0 < - ln overlap).
  { assert (ln overlap < ln 1) by (apply ln_increasing; lra). rewrite ln_1 in *. lra. }
  assert (Hwp : forall i, (i < n - 1)%nat -> 0 < ft_widths f i).
  { intros i Hi. rewrite Hw by auto.
    apply Rmult_lt_0_compat; auto. apply Rinv_0_lt_compat.
    assert (ft_centers f (S i) < ft_centers f i) by (apply Hdec; lia). nra. }
  repeat split.
  - rewrite HC by lia. simpl. replace (- alpha_z * (0 / (INR n - 1))) with 0.
    + apply exp_0.
    + field. lra.
  - rewrite HC by lia. rewrite phase_goal by auto. f_equal.
    rewrite minus_INR by lia. simpl. field. lra.
  - apply Hdec.
  - intros i Hi. destruct (Nat.eq_dec i (n - 1)) as [->|]; [rewrite Hl|];
      apply Hwp; lia.
  - intros i Hi. rewrite Hw by auto. replace (i + 1)%nat with (S i) by lia.
    replace (_ * _) with (ln overlap); [apply exp_ln; lra|].
    assert (ft_centers f (S i) < ft_centers f i) by (apply Hdec; lia).
    field. lra.
Qed.

Example C02_satisfiable : forall jc jw,
  exists f, forcing_term_init jc jw 10 2 0 (8/10) (ln 100) = Ok f
    /\ 0 < 8/10 < 1 /\ 0 < ln 100.
Proof.
  intros. destruct (forcing_term_init_ok jc jw 10 2 0 (8/10) (ln 100)) as [f [E _]];
    [lia|lra|lra|]. exists f. repeat split; auto; try lra.
  rewrite <- ln_1. apply ln_increasing; lra.
Qed.

(** ** C03 *)
Theorem C03_partition_of_unity : forall n centers widths z,
  (0 < n)%nat ->
  (forall i, (i < n)%nat -> 0 < activations n centers widths z i)
  /\ rsum n (activations n centers widths z) = 1
  /\ rsum n (rbf centers widths z) <> 0.
Proof.
  intros n c w z Hn. repeat split.
  - intros. now apply activations_pos.
  - now apply activations_sum.
  - apply Rgt_not_eq. apply rsum_pos; auto using rbf_pos.
Qed.

(** The activations are proportional to the radial basis functions. *)
Theorem C03_proportional : forall n centers widths z i j,
  (0 < n)%nat ->
  activations n centers widths z i * exp (- widths j * (z - centers j) ^ 2)
  = activations n centers widths z j * exp (- widths i * (z - centers i) ^ 2).
Proof. intros. unfold activations, rbf. unfold Rdiv. ring. Qed.

(** ** C04 *)
Theorem C04_linear : forall f w1 w2 a b z d,
  ft_forces (set_ft_weights (fun d i => a * w1 d i + b * w2 d i) f) z d
  = a * ft_forces (set_ft_weights w1 f) z d + b * ft_forces (set_ft_weights w2 f) z d.
Proof. exact ft_forces_linear. Qed.

Theorem C04_bounded : forall f z d M,
  (0 < ft_n f)%nat ->
  (forall i, (i < ft_n f)%nat -> Rabs (ft_weights f d i) <= M) ->
  Rabs (ft_forces f z d) <= Rabs z * M.
Proof. exact ft_forces_bound. Qed.

(** The force is the phase times a weighted mean of the weights of that
    dimension: constant weights give exactly [c * z]. *)
Theorem C04_constant_weights : forall f z d c,
  (0 < ft_n f)%nat ->
  (forall i, (i < ft_n f)%nat -> ft_weights f d i = c) ->
  ft_forces f z d = c * z.
Proof.
  intros f z d c Hn Hc. unfold ft_forces.
  rewrite rsum_ext with (g := fun i => c * activations (ft_n f) (ft_centers f) (ft_widths f) z i)
    by (intros; rewrite Hc; auto).
  rewrite rsum_scal, activations_sum by auto. ring.
Qed.

Theorem C04_vanishes : forall f d,
  (0 < ft_n f)%nat -> ft_start_t f < ft_goal_t f -> 0 < ft_alpha_z f ->
  is_lim (fun t => ft_call f t d) p_infty 0.
Proof. exact ft_call_lim. Qed.

Example C04_satisfiable : exists f,
  (0 < ft_n f)%nat /\ ft_start_t f < ft_goal_t f /\ 0 < ft_alpha_z f
  /\ ft_forces f 1 0%nat = 3.
Proof.
  set (f := {| ft_n := 4; ft_goal_t := 1; ft_start_t := 0; ft_overlap := 1/2;
               ft_alpha_z := 1; ft_weights := fun _ _ => 3;
               ft_centers := INR; ft_widths := fun _ => 1 |}).
  exists f. repeat split; simpl; try lia; try lra.
  rewrite C04_constant_weights with (c := 3); simpl; auto; lra.
Qed.

(** ** C05: for every start time other than 0 the basis is not the shifted
    copy of the basis for start time 0. *)
Theorem C05_shifted_basis_refuted :
  forall jc jw n tau s overlap alpha_z f0 fs,
  s <> 0 -> 0 < alpha_z ->
  forcing_term_init jc jw n tau 0 overlap alpha_z = Ok f0 ->
  forcing_term_init jc jw n (s + tau) s overlap alpha_z = Ok fs ->
  forall i, (0 < i < n)%nat -> ft_centers fs i <> ft_centers f0 i.
Proof.
  intros jc jw n tau s overlap alpha_z f0 fs Hs Ha E0 Es i Hi.
  assert (H : (2 <= n)%nat /\ 0 < tau /\ 0 < overlap)
    by (apply (C02_constructor_errors jc jw n tau 0 overlap alpha_z); eauto).
  destruct H as (Hn & Ht & Hov).
  destruct (forcing_term_init_ok jc jw n tau 0 overlap alpha_z Hn Ht Hov)
    as (g & E1 & _ & _ & _ & _ & _ & _ & Hc & _).
  assert (Ht' : s < s + tau) by lra.
  destruct (forcing_term_init_ok jc jw n (s + tau) s overlap alpha_z Hn Ht' Hov)
    as (g' & E1' & _ & _ & _ & _ & _ & _ & Hc' & _).
  assert (g = f0) by congruence. assert (g' = fs) by congruence. subst g g'.
  rewrite Hc, Hc' by lia. unfold phase, center_time.
  destruct (Nat.eqb_spec i 0); [lia|].
  assert (1 < INR n) by (apply lt_1_INR; lia).
  intros Heq. apply exp_inv in Heq.
  apply (f_equal (fun x => x * tau)) in Heq.
  replace (s + tau - s) with tau in Heq by ring. rewrite !Rminus_0_r in Heq.
  replace (- alpha_z * (INR i * (tau / (INR n - 1)) - s) / tau * tau)
    with (- alpha_z * (INR i * (tau / (INR n - 1))) + alpha_z * s) in Heq by (field; lra).
  replace (- alpha_z * (INR i * (tau / (INR n - 1))) / tau * tau)
    with (- alpha_z * (INR i * (tau / (INR n - 1)))) in Heq by (field; lra).
  assert (alpha_z * s = 0) by lra.
  apply Rmult_integral in H0. lra.
Qed.

(** When the start time is one grid step, two consecutive centres coincide and
    the computation of the width divides by zero (dmp/_forcing_term.py:68-69). *)
Theorem C05_division_by_zero_refuted :
  forall jc jw n tau overlap alpha_z,
  (2 <= n)%nat -> 0 < tau -> 0 < overlap ->
  let s := tau / (INR n - 1) in
  exists f, forcing_term_init jc jw n (s + tau) s overlap alpha_z = Ok f
  /\ ft_centers f 1%nat - ft_centers f 0%nat = 0.
Proof.
  intros jc jw n tau overlap alpha_z Hn Ht Hov s.
  assert (1 < INR n) by (apply lt_1_INR; lia).
  assert (Hs : s < s + tau) by lra.
  destruct (forcing_term_init_ok jc jw n (s + tau) s overlap alpha_z Hn Hs Hov)
    as (f & E & _ & _ & _ & _ & _ & _ & Hc & _).
  exists f. split; auto. rewrite !Hc by lia.
  unfold center_time. simpl. replace (s + tau - s) with tau by ring.
  fold s. replace (1 * s) with s by ring. ring.
Qed.

(** What does hold: for start time 0 the basis does not depend on the duration. *)
Theorem C05_basis_independent_of_duration_partial :
  forall jc jw n tau tau' overlap alpha_z f f',
  forcing_term_init jc jw n tau 0 overlap alpha_z = Ok f ->
  forcing_term_init jc jw n tau' 0 overlap alpha_z = Ok f' ->
  forall i, (i < n)%nat ->
    ft_centers f i = ft_centers f' i /\ ft_widths f i = ft_widths f' i.
Proof.
  intros jc jw n tau tau' overlap alpha_z f f' E E'.
  assert (H : (2 <= n)%nat /\ 0 < tau /\ 0 < overlap)
    by (apply (C02_constructor_errors jc jw n tau 0 overlap alpha_z); eauto).
  assert (H' : (2 <= n)%nat /\ 0 < tau' /\ 0 < overlap)
    by (apply (C02_constructor_errors jc jw n tau' 0 overlap alpha_z); eauto).
  destruct H as (Hn & Ht & Hov), H' as (_ & Ht' & _).
  destruct (forcing_term_init_ok jc jw n tau 0 overlap alpha_z Hn Ht Hov)
    as (g & E1 & _ & _ & _ & _ & _ & _ & Hc & Hw & Hl).
  destruct (forcing_term_init_ok jc jw n tau' 0 overlap alpha_z Hn Ht' Hov)
    as (g' & E1' & _ & _ & _ & _ & _ & _ & Hc' & Hw' & Hl').
  assert (g = f) by congruence. assert (g' = f') by congruence. subst g g'.
  assert (HC : forall i, (i < n)%nat -> ft_centers f i = ft_centers f' i)
    by (intros; rewrite Hc, Hc' by auto; rewrite !center_at_zero; auto).
  assert (HW : forall i, (i < n - 1)%nat -> ft_widths f i = ft_widths f' i)
    by (intros; rewrite Hw, Hw', !HC by lia; auto).
  intros i Hi. split; auto.
  destruct (Nat.eq_dec i (n - 1)) as [->|]; [|apply HW; lia].
  rewrite Hl, Hl'. apply HW. lia.
Qed.
