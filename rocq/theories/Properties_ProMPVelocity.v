(** C54: velocities of a ProMP. *)
From Coq Require Import Reals List Arith Lia Lra.
From Coquelicot Require Import Coquelicot.
From Verif Require Import M_Prelude M_Base P_Loops M_Matrix P_Matrix M_DmpObject M_Ridge M_ProMP P_ProMP
  Properties_ProMP.
Import ListNotations.
Open Scope R_scope.
Set Bullet Behavior "Strict Subproofs".

Lemma is_derive_rsum n (f : nat -> R -> R) (l : vec) (x : R) :
  (forall k, (k < n)%nat -> is_derive (f k) x (l k)) ->
  is_derive (fun s => rsum n (fun k => f k s)) x (rsum n l).
Proof.
  induction n as [|n IH]; intros H; cbn [rsum].
  - apply (@is_derive_const R_AbsRing R_NormedModule).
  - apply (@is_derive_plus R_AbsRing R_NormedModule); [apply IH; auto|apply H; auto].
Qed.

Lemma gauss_derive h c (s : R) : h <> 0 -> is_derive (gauss h c) s ((c - s) / h * gauss h c s).
Proof. intros Hh. unfold gauss. auto_derive; auto.
  replace (- ((s + - c) * ((s + - c) * 1)) * / (2 * h)) with (- (s - c) ^ 2 / (2 * h)) by (field; auto).
  field. auto. Qed.

Lemma basis_derive o s k : (0 < pm_n_weights_per_dim o)%nat ->
  let n := pm_n_weights_per_dim o in let h := rbf_h n (7/10) in
  let g k := gauss h (pm_centers o k) s in
  let g' k := (pm_centers o k - s) / h * g k in
  is_derive (fun s => basis o s k) s ((g' k * rsum n g - g k * rsum n g') / rsum n g ^ 2).
Proof.
  intros Hn n h g g'. unfold basis. fold n h.
  assert (Hh : h <> 0) by (apply Rgt_not_eq; now apply rbf_h_pos).
  assert (Hs : rsum n g <> 0) by (apply Rgt_not_eq; now apply gauss_sum_pos).
  apply is_derive_div; [now apply gauss_derive| |exact Hs].
  apply (is_derive_rsum n (fun k s => gauss h (pm_centers o k) s) g'). intros. now apply gauss_derive.
Qed.

Lemma velocities_eq D N o T : (0 < N)%nat -> is_promp D N o -> times T ->
  exists Yd T', mean_velocities o T = Ok (Yd, T')
  /\ forall t d, (t < alen T)%nat -> (d < D)%nat ->
     let h := rbf_h N (7/10) in let s := rel_time T t in
     let g k := gauss h (pm_centers o k) s in
     let g' k := (pm_centers o k - s) / h * g k in
     Yd t d = rsum N (fun k => (g' k * rsum N g - g k * rsum N g') / rsum N g ^ 2
                               * pm_weight_mean o (d * N + k)%nat).
Proof.
  intros HN Ho [HT Hp]. destruct (promp_dims D N o Ho) as (ED & EN & EK).
  unfold mean_velocities, rbfs_derivative_nd_sequence, rbfs_derivative_1d_sequence, rbfs_1d_sequence.
  rewrite ED, EN, normalize_time_ok by auto. cbn [bind]. rewrite normalize_time_ok by auto. cbn [bind fst snd alen].
  eexists _, _. split; [reflexivity|]. intros t d Ht Hd.
  set (h := rbf_h N (7/10)). set (s := rel_time T t). set (g := fun k => gauss h (pm_centers o k) s).
  set (g' := fun k => (pm_centers o k - s) / h * g k).
  unfold reshape_T. rewrite nd_block_T_vec by auto. apply rsum_ext. intros k Hk.
  rewrite crop_in by auto. cbn [aget].
  assert (Es : rel_time {| alen := alen T; aget := rel_time T |} t = s).
  { unfold rel_time at 1. cbn [alen aget]. rewrite rel_time_max by auto. unfold s. field. }
  rewrite Es. fold h.
  rewrite (rsum_ext N (fun k0 => crop N (alen T) (fun k1 j => gauss h (pm_centers o k1) (rel_time T j)) k0 t) g)
    by (intros; now rewrite crop_in).
  rewrite (rsum_ext N (fun k0 => (pm_centers o k0 - s) / h * crop N (alen T) (fun k1 j => gauss h (pm_centers o k1) (rel_time T j)) k0 t) g')
    by (intros; now rewrite crop_in).
  rewrite crop_in by auto. reflexivity.
Qed.

(** There is one smooth curve per dimension, a function of the relative time,
    that [mean_trajectory] samples, and [mean_velocities] is its derivative. *)
Theorem C54_relative_time_partial : forall D N o, (0 < N)%nat -> is_promp D N o ->
  exists curve : nat -> R -> R, forall T, times T ->
  exists Y T1 Yd T2, mean_trajectory o T = Ok (Y, T1) /\ mean_velocities o T = Ok (Yd, T2)
  /\ forall t d, (t < alen T)%nat -> (d < D)%nat ->
     let s := aget T t / np_max (alen T) (aget T) in
     Y t d = curve d s /\ is_derive (curve d) s (Yd t d).
Proof.
  intros D N o HN Ho. destruct (promp_dims D N o Ho) as (ED & EN & EK).
  exists (fun d s => rsum N (fun k => basis o s k * pm_weight_mean o (d * N + k)%nat)).
  intros T HT.
  destruct (trajectory_eq D N o T {| alen := pm_n_weights o; aget := pm_weight_mean o |} Ho (proj1 HT) EK) as (Y & E & H).
  destruct (velocities_eq D N o T HN Ho HT) as (Yd & T' & E' & H').
  eexists _, _, _, _. split; [exact E|]. split; [exact E'|]. intros t d Ht Hd s. split.
  - rewrite H by auto. apply rsum_ext. intros k Hk. cbn [aget]. now rewrite (promp_basis D N o).
  - rewrite H' by auto. cbv zeta.
    apply (is_derive_rsum N (fun k s => basis o s k * pm_weight_mean o (d * N + k)%nat)).
    intros k Hk.
    assert (B := basis_derive o s k ltac:(rewrite EN; exact HN)). cbv zeta in B. rewrite EN in B.
    unfold rel_time. fold s.
    match goal with |- is_derive _ _ (?a * ?b) =>
      replace (a * b) with (b * a) by ring;
      apply (is_derive_ext (fun s => b * basis o s k)); [intros; apply Rmult_comm|];
      apply is_derive_scal; exact B
    end.
Qed.

(** With a largest time of 1, velocities are derivatives with respect to time. *)
Theorem C54_unit_duration : forall D N o, (0 < N)%nat -> is_promp D N o ->
  exists curve : nat -> R -> R, forall T, times T -> np_max (alen T) (aget T) = 1 ->
  exists Y T1 Yd T2, mean_trajectory o T = Ok (Y, T1) /\ mean_velocities o T = Ok (Yd, T2)
  /\ forall t d, (t < alen T)%nat -> (d < D)%nat ->
     Y t d = curve d (aget T t) /\ is_derive (curve d) (aget T t) (Yd t d).
Proof.
  intros D N o HN Ho. destruct (C54_relative_time_partial D N o HN Ho) as (curve & H).
  exists curve. intros T HT H1. destruct (H T HT) as (Y & T1 & Yd & T2 & E & E' & H').
  eexists _, _, _, _. split; [exact E|]. split; [exact E'|]. intros t d Ht Hd.
  specialize (H' t d Ht Hd). rewrite H1 in H'. cbv zeta in H'. unfold Rdiv in H'.
  rewrite Rinv_1, Rmult_1_r in H'. exact H'.
Qed.

(** With another duration [m] they are too large by the factor [m]: the
    trajectory as a function of the caller's time has derivative [Yd / m]. *)
Theorem C54_duration_refuted : forall D N o, (0 < N)%nat -> is_promp D N o ->
  forall m, 0 < m ->
  exists position : nat -> R -> R, forall T, (0 < alen T)%nat -> np_max (alen T) (aget T) = m ->
  exists Y T1 Yd T2, mean_trajectory o T = Ok (Y, T1) /\ mean_velocities o T = Ok (Yd, T2)
  /\ forall t d, (t < alen T)%nat -> (d < D)%nat ->
     Y t d = position d (aget T t) /\ is_derive (position d) (aget T t) (Yd t d / m)
     /\ (m <> 1 -> Yd t d <> 0 -> ~ is_derive (position d) (aget T t) (Yd t d)).
Proof.
  intros D N o HN Ho m Hm. destruct (C54_relative_time_partial D N o HN Ho) as (curve & H).
  exists (fun d t => curve d (t / m)). intros T HT Em.
  destruct (H T) as (Y & T1 & Yd & T2 & E & E' & H'); [split; [auto|lra]|].
  eexists _, _, _, _. split; [exact E|]. split; [exact E'|]. intros t d Ht Hd.
  specialize (H' t d Ht Hd). rewrite Em in H'. cbv zeta in H'. destruct H' as [HY HD].
  assert (HD' : is_derive (fun u => curve d (u / m)) (aget T t) (Yd t d / m)).
  { replace (Yd t d / m) with (/ m * Yd t d) by (unfold Rdiv; ring).
    apply (is_derive_comp (curve d) (fun u => u / m)); [exact HD|]. auto_derive; auto. field. lra. }
  split; [exact HY|]. split; [exact HD'|]. intros H1 Hz HC.
  assert (EC : Yd t d / m = Yd t d).
  { rewrite <- (is_derive_unique _ _ _ HD'). exact (is_derive_unique _ _ _ HC). }
  apply H1. apply (Rmult_eq_reg_l (Yd t d)); [|exact Hz].
  apply (Rmult_eq_reg_r (/ m)); [|apply Rinv_neq_0_compat; lra].
  rewrite Rmult_1_r. fold (Rdiv (Yd t d) m). rewrite EC. field. lra.
Qed.

(** A ProMP with two weights 0 and 1 moves. *)
Example C54_satisfiable :
  let o := from_weight_distribution (fun i => INR i) (eye 2) (promp_new 1 2) in
  let T := {| alen := 2; aget := fun i => 2 * INR i |} in
  is_promp 1 2 o /\ np_max (alen T) (aget T) = 2
  /\ exists Yd T', mean_velocities o T = Ok (Yd, T') /\ Yd 0%nat 0%nat <> 0.
Proof.
  intros o T. assert (Em : np_max (alen T) (aget T) = 2).
  { cbn. unfold Rmax. destruct (Rle_dec _ _); lra. }
  assert (Ho : is_promp 1 2 o) by (eexists _, _; reflexivity).
  split; [exact Ho|]. split; [exact Em|].
  destruct (velocities_eq 1 2 o T ltac:(lia) Ho) as (Yd & T' & E & H).
  { split; [cbn; lia|lra]. }
  eexists _, _. split; [exact E|]. rewrite H by (cbn; lia).
  cbv zeta. set (h := rbf_h 2 (7/10)). set (s := rel_time T 0).
  assert (Hh : 0 < h) by (apply rbf_h_pos; lia).
  cbn [rsum]. unfold pm_weight_mean, o. cbn [from_weight_distribution pm_centers promp_new Nat.eqb Nat.mul Nat.add INR].
  unfold linspace01. cbn -[gauss].
  assert (G0 := gauss_pos h (0 / (1 + 1 - 1)) s). assert (G1 := gauss_pos h (1 / (1 + 1 - 1)) s).
  set (a := gauss h (0 / (1 + 1 - 1)) s) in *. set (b := gauss h (1 / (1 + 1 - 1)) s) in *.
  match goal with |- ?x <> 0 => replace x with (a * b / h / (a + b) ^ 2) end.
  - apply Rgt_not_eq. apply Rdiv_lt_0_compat; [|apply pow_lt; lra].
    apply Rdiv_lt_0_compat; [nra|auto].
  - field. split; lra.
Qed.
