(** Proofs about the forcing term. *)
From Coq Require Import Reals List Lia Lra Psatz FunctionalExtensionality.
From Coquelicot Require Import Coquelicot.
From Verif Require Import M_Prelude M_Canonical M_Forcing S_Loops P_Loops P_Canonical.
Import ListNotations.
Open Scope R_scope.

Lemma upd_same a i x : upd a i x i = x.
Proof. unfold upd. now rewrite Nat.eqb_refl. Qed.
Lemma upd_other a i j x : j <> i -> upd a i x j = a j.
Proof. intros. unfold upd. apply Nat.eqb_neq in H. now rewrite H. Qed.

Section init.
Variables (junk_c junk_w : vec) (alpha_z goal_t start_t lo step : R).
Let c0 := upd junk_c 0 (phase start_t alpha_z goal_t start_t).
Definition center_time (start_t step : R) (i : nat) : R :=
  if Nat.eqb i 0 then start_t else INR i * step.

Lemma init_loop_inv k :
  let '(c, w) := fold_left (init_rbfs_body alpha_z goal_t start_t lo step)
                   (seq 1 k) (c0, junk_w) in
  (forall j, (j <= k)%nat -> c j = phase (center_time start_t step j) alpha_z goal_t start_t)
  /\ (forall j, (j < k)%nat -> w j = lo / (c (S j) - c j) ^ 2)
  /\ (forall j, (k <= j)%nat -> w j = junk_w j).
Proof.
  induction k as [|k IH].
  - simpl. repeat split; intros.
    + assert (j = 0)%nat by lia. subst. unfold c0. now rewrite upd_same.
    + lia.
  - rewrite seq_S, fold_left_app. simpl.
    destruct (fold_left _ (seq 1 k) (c0, junk_w)) as [c w].
    destruct IH as (Hc & Hw & Hj). cbv beta iota zeta delta [init_rbfs_body].
    replace (k - 0)%nat with k by lia.
    replace (S k - 1)%nat with k by lia.
    assert (Hc' : forall j, (j <= S k)%nat ->
      upd c (S k) (phase (INR (S k) * step) alpha_z goal_t start_t) j =
      phase (center_time start_t step j) alpha_z goal_t start_t).
    { intros j Hjk. destruct (Nat.eq_dec j (S k)) as [->|Hne].
      - rewrite upd_same. unfold center_time. simpl Nat.eqb. reflexivity.
      - rewrite upd_other by lia. apply Hc. lia. }
    repeat split.
    + exact Hc'.
    + intros j Hjk. destruct (Nat.eq_dec j k) as [->|Hne].
      * now rewrite upd_same.
      * rewrite upd_other by lia. rewrite Hw by lia.
        rewrite !upd_other by lia. reflexivity.
    + intros j Hjk. rewrite upd_other by lia. apply Hj. lia.
Qed.
End init.

Lemma init_rbfs_spec junk_c junk_w n alpha_z goal_t start_t overlap :
  (2 <= n)%nat ->
  let '(c, w) := init_rbfs junk_c junk_w n alpha_z goal_t start_t overlap in
  (forall j, (j < n)%nat ->
     c j = phase (center_time start_t ((goal_t - start_t) / (INR n - 1)) j)
                 alpha_z goal_t start_t)
  /\ (forall j, (j < n - 1)%nat -> w j = - ln overlap / (c (S j) - c j) ^ 2)
  /\ w (n - 1)%nat = w (n - 2)%nat.
Proof.
  intros Hn. unfold init_rbfs.
  pose proof (init_loop_inv junk_c junk_w alpha_z goal_t start_t (- ln overlap)
                ((goal_t - start_t) / (INR n - 1)) (n - 1)) as H.
  destruct (fold_left _ _ _) as [c w]. destruct H as (Hc & Hw & Hj).
  repeat split.
  - intros j Hjn. apply Hc. lia.
  - intros j Hjn. rewrite upd_other by lia. now apply Hw.
  - rewrite upd_same, upd_other by lia. reflexivity.
Qed.

Lemma forcing_term_init_rejects junk_c junk_w n goal_t start_t overlap alpha_z :
  (n <= 1)%nat \/ goal_t <= start_t \/ overlap <= 0 ->
  forcing_term_init junk_c junk_w n goal_t start_t overlap alpha_z = Err ValueError.
Proof.
  intros H. unfold forcing_term_init.
  destruct (Nat.leb_spec n 1); [reflexivity|].
  destruct (Rle_dec goal_t start_t); [reflexivity|].
  destruct (Rle_dec overlap 0); [reflexivity|].
  destruct H as [H|[H|H]]; [lia|lra|lra].
Qed.

Lemma forcing_term_init_ok junk_c junk_w n goal_t start_t overlap alpha_z :
  (2 <= n)%nat -> start_t < goal_t -> 0 < overlap ->
  exists f, forcing_term_init junk_c junk_w n goal_t start_t overlap alpha_z = Ok f
  /\ ft_n f = n /\ ft_goal_t f = goal_t /\ ft_start_t f = start_t
  /\ ft_overlap f = overlap /\ ft_alpha_z f = alpha_z
  /\ (forall d i, ft_weights f d i = 0)
  /\ (forall j, (j < n)%nat ->
       ft_centers f j = phase (center_time start_t ((goal_t - start_t) / (INR n - 1)) j)
                 alpha_z goal_t start_t)
  /\ (forall j, (j < n - 1)%nat ->
       ft_widths f j = - ln overlap / (ft_centers f (S j) - ft_centers f j) ^ 2)
  /\ ft_widths f (n - 1)%nat = ft_widths f (n - 2)%nat.
Proof.
  intros Hn Hlt Hov. unfold forcing_term_init.
  destruct (Nat.leb_spec n 1); [lia|].
  destruct (Rle_dec goal_t start_t); [lra|].
  destruct (Rle_dec overlap 0); [lra|].
  pose proof (init_rbfs_spec junk_c junk_w n alpha_z goal_t start_t overlap Hn) as H1.
  destruct (init_rbfs _ _ _ _ _ _ _) as [c w].
  eexists; split; [reflexivity|]. simpl. tauto.
Qed.

(** Centre [i] of a forcing term that starts at time 0. *)
Lemma center_at_zero n alpha_z goal_t i :
  (2 <= n)%nat -> 0 < goal_t -> (i < n)%nat ->
  phase (center_time 0 ((goal_t - 0) / (INR n - 1)) i) alpha_z goal_t 0
  = exp (- alpha_z * (INR i / (INR n - 1))).
Proof.
  intros Hn Hg Hi.
  assert (1 < INR n) by (apply lt_1_INR; lia).
  unfold phase, center_time. f_equal.
  destruct (Nat.eqb_spec i 0) as [->|Hne]; simpl; field; lra.
Qed.

Lemma rbf_pos c w z i : 0 < rbf c w z i.
Proof. apply exp_pos. Qed.

Lemma activations_pos n c w z i : (0 < n)%nat -> 0 < activations n c w z i.
Proof.
  intros. unfold activations. apply Rmult_lt_0_compat; [apply rbf_pos|].
  apply Rinv_0_lt_compat. apply rsum_pos; auto using rbf_pos.
Qed.

Lemma activations_sum n c w z : (0 < n)%nat -> rsum n (activations n c w z) = 1.
Proof.
  intros. unfold activations. rewrite rsum_div.
  apply Rinv_r. apply Rgt_not_eq. apply rsum_pos; auto using rbf_pos.
Qed.

(** A weighted mean with positive weights of total one is bounded by a bound of
    the values. *)
Lemma convex_bounds n (a x : nat -> R) lo hi :
  (forall i, (i < n)%nat -> 0 <= a i) -> rsum n a = 1 ->
  (forall i, (i < n)%nat -> lo <= x i <= hi) ->
  lo <= rsum n (fun i => x i * a i) <= hi.
Proof.
  intros Ha Hs Hx. split.
  - replace lo with (rsum n (fun i => lo * a i)) by (rewrite rsum_scal, Hs; ring).
    apply rsum_le. intros i Hi. apply Rmult_le_compat_r; [auto|apply Hx; auto].
  - replace hi with (rsum n (fun i => hi * a i)) by (rewrite rsum_scal, Hs; ring).
    apply rsum_le. intros i Hi. apply Rmult_le_compat_r; [auto|apply Hx; auto].
Qed.

Lemma ft_forces_bound f z d M :
  (0 < ft_n f)%nat ->
  (forall i, (i < ft_n f)%nat -> Rabs (ft_weights f d i) <= M) ->
  Rabs (ft_forces f z d) <= Rabs z * M.
Proof.
  intros Hn HM. unfold ft_forces. rewrite Rabs_mult.
  apply Rmult_le_compat_l; [apply Rabs_pos|].
  apply Rabs_le. apply convex_bounds.
  - intros. apply Rlt_le. now apply activations_pos.
  - now apply activations_sum.
  - intros i Hi. specialize (HM i Hi). apply Rabs_le_between in HM. exact HM.
Qed.

Lemma ft_forces_linear f w1 w2 a b z d :
  ft_forces (set_ft_weights (fun d i => a * w1 d i + b * w2 d i) f) z d
  = a * ft_forces (set_ft_weights w1 f) z d + b * ft_forces (set_ft_weights w2 f) z d.
Proof.
  unfold ft_forces; simpl.
  rewrite rsum_ext with (g := fun i =>
    a * (w1 d i * activations (ft_n f) (ft_centers f) (ft_widths f) z i)
    + b * (w2 d i * activations (ft_n f) (ft_centers f) (ft_widths f) z i))
    by (intros; ring).
  rewrite rsum_plus, !rsum_scal. ring.
Qed.

Lemma ft_forces_zero f z d :
  (forall i, (i < ft_n f)%nat -> ft_weights f d i = 0) -> ft_forces f z d = 0.
Proof.
  intros H. unfold ft_forces. rewrite rsum_0; [ring|].
  intros i Hi. rewrite H by auto. ring.
Qed.

(** Bound of finitely many values. *)
Lemma finite_bound n (f : nat -> R) :
  exists M, 0 <= M /\ forall i, (i < n)%nat -> Rabs (f i) <= M.
Proof.
  induction n as [|n [M [HM IH]]].
  - exists 0. split; [lra|]. intros; lia.
  - exists (Rmax M (Rabs (f n))). split.
    + eapply Rle_trans; [exact HM|apply Rmax_l].
    + intros i Hi. destruct (Nat.eq_dec i n) as [->|Hne]; [apply Rmax_r|].
      eapply Rle_trans; [apply IH; lia|apply Rmax_l].
Qed.

Lemma ft_call_lim f d :
  (0 < ft_n f)%nat -> ft_start_t f < ft_goal_t f -> 0 < ft_alpha_z f ->
  is_lim (fun t => ft_call f t d) p_infty 0.
Proof.
  intros Hn Ht Ha.
  destruct (finite_bound (ft_n f) (ft_weights f d)) as [M [HM HB]].
  apply (is_lim_le_le_loc (fun t => - (ft_phase f t * M)) (fun t => ft_phase f t * M)).
  - exists 0. intros t _.
    assert (H := ft_forces_bound f (ft_phase f t) d M Hn HB).
    rewrite (Rabs_right (ft_phase f t)) in H by (apply Rle_ge, Rlt_le, phase_pos).
    apply Rabs_le_between in H. unfold ft_call. exact H.
  - replace (Finite 0) with (Rbar_opp (Rbar_mult 0 M)) by (simpl; f_equal; ring).
    apply is_lim_opp, is_lim_scal_r. unfold ft_phase. now apply phase_lim.
  - replace (Finite 0) with (Rbar_mult 0 M) by (simpl; f_equal; ring).
    apply is_lim_scal_r. unfold ft_phase. now apply phase_lim.
Qed.

(** Everything a query can observe only depends on the entries below [n]. *)
Lemma ft_forces_ext f1 f2 z d :
  ft_n f1 = ft_n f2 ->
  (forall i, (i < ft_n f1)%nat -> ft_centers f1 i = ft_centers f2 i) ->
  (forall i, (i < ft_n f1)%nat -> ft_widths f1 i = ft_widths f2 i) ->
  (forall i, (i < ft_n f1)%nat -> ft_weights f1 d i = ft_weights f2 d i) ->
  ft_forces f1 z d = ft_forces f2 z d.
Proof.
  intros Hn Hc Hw Hwt. unfold ft_forces. rewrite <- Hn. f_equal.
  assert (Hr : forall i, (i < ft_n f1)%nat ->
     rbf (ft_centers f1) (ft_widths f1) z i = rbf (ft_centers f2) (ft_widths f2) z i).
  { intros i Hi. unfold rbf. now rewrite Hc, Hw. }
  apply rsum_ext. intros i Hi. rewrite Hwt by auto. f_equal.
  unfold activations. rewrite Hr by auto. f_equal. now apply rsum_ext.
Qed.
