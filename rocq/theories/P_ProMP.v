(** Block-diagonal matrices, basis functions and conditioning. *)
From Coq Require Import Reals List Arith Lia Lra.
From Verif Require Import M_Prelude M_Base P_Loops M_Matrix P_Matrix M_DmpObject M_Ridge M_ProMP.
Import ListNotations.
Open Scope R_scope.
Set Bullet Behavior "Strict Subproofs".

(** ** Blocks *)
Lemma rsum_app n m f : rsum (n + m) f = rsum n f + rsum m (fun i => f (n + i)%nat).
Proof.
  induction m as [|m IH]; [rewrite Nat.add_0_r; cbn [rsum]; ring|].
  rewrite Nat.add_succ_r. cbn [rsum]. rewrite IH. ring.
Qed.
Lemma rsum_blocks D n f : rsum (D * n) f = rsum D (fun d => rsum n (fun t => f (d * n + t)%nat)).
Proof.
  induction D as [|D IH]; [reflexivity|].
  replace (S D * n)%nat with (D * n + n)%nat by ring. rewrite rsum_app, IH. reflexivity.
Qed.
Lemma block_index D n i : (i < D * n)%nat -> exists d t, (d < D)%nat /\ (t < n)%nat /\ i = (d * n + t)%nat.
Proof.
  intros H. assert (n <> 0)%nat by (intros ->; lia).
  exists (i / n)%nat, (i mod n)%nat. repeat split.
  - apply Nat.div_lt_upper_bound; lia.
  - now apply Nat.mod_upper_bound.
  - rewrite (Nat.div_mod i n) at 1 by auto. lia.
Qed.

Lemma block_unique n a b i : (n * a <= i < n * (a + 1))%nat -> (n * b <= i < n * (b + 1))%nat -> a = b.
Proof. intros H1 H2. assert (n <> 0)%nat by (intros ->; lia). nia. Qed.

Lemma assign_block_spec full r0 r1 c0 c1 P i j :
  assign_block full r0 r1 c0 c1 P i j = P (i - r0)%nat (j - c0)%nat /\ (r0 <= i < r1)%nat /\ (c0 <= j < c1)%nat
  \/ assign_block full r0 r1 c0 c1 P i j = full i j /\ ~ ((r0 <= i < r1)%nat /\ (c0 <= j < c1)%nat).
Proof.
  unfold assign_block.
  destruct (Nat.leb_spec r0 i), (Nat.ltb_spec i r1), (Nat.leb_spec c0 j), (Nat.ltb_spec j c1);
    cbn [andb]; (left; split; [reflexivity|lia]) || (right; split; [reflexivity|lia]).
Qed.

Lemma nd_block_spec r c P : forall D i j,
  (exists b, (b < D)%nat /\ (r * b <= i < r * (b + 1))%nat /\ (c * b <= j < c * (b + 1))%nat
     /\ nd_block_diagonal r c P D i j = P (i - r * b)%nat (j - c * b)%nat)
  \/ (nd_block_diagonal r c P D i j = 0
      /\ forall b, (b < D)%nat -> ~ ((r * b <= i < r * (b + 1))%nat /\ (c * b <= j < c * (b + 1))%nat)).
Proof.
  induction D as [|D IH]; intros i j.
  - right. split; [reflexivity|]. intros; lia.
  - unfold nd_block_diagonal in *. rewrite seq_S, fold_left_app. cbn [fold_left Nat.add].
    destruct (assign_block_spec (fold_left (fun full_nd j0 =>
      assign_block full_nd (r * j0) (r * (j0 + 1)) (c * j0) (c * (j0 + 1)) P) (seq 0 D) mzero)
      (r * D) (r * (D + 1)) (c * D) (c * (D + 1)) P i j) as [(E & Hi & Hj)|(E & H)].
    + left. exists D. repeat split; auto; lia.
    + rewrite E. destruct (IH i j) as [(b & Hb & Hi & Hj & Eb)|[E0 H0]].
      * left. exists b. repeat split; auto; lia.
      * right. split; auto. intros b Hb. destruct (Nat.eq_dec b D) as [->|]; auto. apply H0. lia.
Qed.

Lemma nd_block_in r c P D b i j : (b < D)%nat -> (i < r)%nat -> (j < c)%nat ->
  nd_block_diagonal r c P D (b * r + i)%nat (b * c + j)%nat = P i j.
Proof.
  intros Hb Hi Hj. destruct (nd_block_spec r c P D (b * r + i)%nat (b * c + j)%nat) as [(b' & Hb' & Hi' & Hj' & E)|[_ H]].
  - assert (b' = b) by (apply (block_unique r b' b (b * r + i)%nat); auto; lia). subst.
    rewrite E. f_equal; lia.
  - exfalso. apply (H b Hb). lia.
Qed.
Lemma nd_block_off r c P D a b i j : a <> b -> (i < r)%nat -> (j < c)%nat ->
  nd_block_diagonal r c P D (a * r + i)%nat (b * c + j)%nat = 0.
Proof.
  intros Hab Hi Hj. destruct (nd_block_spec r c P D (a * r + i)%nat (b * c + j)%nat) as [(b' & Hb' & Hi' & Hj' & E)|[E H]]; auto.
  exfalso. apply Hab. transitivity b'.
  - apply (block_unique r a b' (a * r + i)%nat); auto; lia.
  - apply (block_unique c b' b (b * c + j)%nat); auto; lia.
Qed.
Lemma sized_nd_block r c P D : sized (D * r) (D * c) (nd_block_diagonal r c P D).
Proof.
  intros i j H. destruct (nd_block_spec r c P D i j) as [(b & Hb & Hi & Hj & E)|[E _]]; auto.
  exfalso. nia.
Qed.

(** A block-diagonal matrix applied to a vector acts on each block. *)
Lemma nd_block_T_vec r c P D w d t : (d < D)%nat -> (t < c)%nat ->
  mvec (D * r) (mT (nd_block_diagonal r c P D)) w (d * c + t)%nat = rsum r (fun k => P k t * w (d * r + k)%nat).
Proof.
  intros Hd Ht. unfold mvec, mT. rewrite rsum_blocks.
  rewrite <- (rsum_delta D d (fun e => rsum r (fun k => P k t * w (e * r + k)%nat)) Hd).
  apply rsum_ext. intros e He. destruct (Nat.eqb_spec d e) as [<-|Hne].
  - rewrite Rmult_1_l. apply rsum_ext. intros k Hk. now rewrite nd_block_in.
  - rewrite Rmult_0_l. apply rsum_0. intros k Hk. rewrite nd_block_off by auto. ring.
Qed.

(** ** Basis functions *)
Lemma ln_07 : ln (7/10) < 0.
Proof. rewrite <- ln_1. apply ln_increasing; lra. Qed.
Lemma rbf_h_pos n : (0 < n)%nat -> 0 < rbf_h n (7/10).
Proof.
  intros Hn. unfold rbf_h. assert (H := ln_07). assert (0 < INR n) by now apply lt_0_INR.
  replace (- 1 / (8 * INR n ^ 2 * ln (7 / 10))) with (/ (8 * INR n ^ 2 * - ln (7/10))).
  - apply Rinv_0_lt_compat. apply Rmult_lt_0_compat; [|lra]. apply Rmult_lt_0_compat; [lra|now apply pow_lt].
  - field. split; [lra|]. lra.
Qed.
Lemma gauss_pos h c t : 0 < gauss h c t.
Proof. apply exp_pos. Qed.
Lemma gauss_sum_pos n h (c : vec) t : (0 < n)%nat -> 0 < rsum n (fun k => gauss h (c k) t).
Proof. intros Hn. apply rsum_pos; auto. intros. apply gauss_pos. Qed.

(** The basis functions of a ProMP at a normalised time. *)
Definition basis (o : promp) (s : R) : vec := fun k =>
  gauss (rbf_h (pm_n_weights_per_dim o) (7/10)) (pm_centers o k) s
  / rsum (pm_n_weights_per_dim o) (fun k => gauss (rbf_h (pm_n_weights_per_dim o) (7/10)) (pm_centers o k) s).

Lemma basis_pos o s k : (0 < pm_n_weights_per_dim o)%nat -> 0 < basis o s k.
Proof. intros H. apply Rdiv_lt_0_compat; [apply gauss_pos|now apply gauss_sum_pos]. Qed.
Lemma basis_sum o s : (0 < pm_n_weights_per_dim o)%nat -> rsum (pm_n_weights_per_dim o) (basis o s) = 1.
Proof.
  intros H. unfold basis. rewrite rsum_div. apply Rinv_r.
  apply Rgt_not_eq. now apply gauss_sum_pos.
Qed.

(** Normalised times. *)
Definition rel_time (T : arr) (i : nat) : R := aget T i / np_max (alen T) (aget T).

Lemma normalize_time_ok T : (0 < alen T)%nat ->
  normalize_time T = Ok {| alen := alen T; aget := rel_time T |}.
Proof. intros H. unfold normalize_time. destruct (Nat.eqb_spec (alen T) 0); [lia|reflexivity]. Qed.

Lemma rbfs_nd_sequence_ok o T : (0 < alen T)%nat ->
  rbfs_nd_sequence o T = Ok
   (nd_block_diagonal (pm_n_weights_per_dim o) (alen T)
      (crop (pm_n_weights_per_dim o) (alen T) (fun k j => basis o (rel_time T j) k)) (pm_n_dims o),
    {| alen := alen T; aget := rel_time T |}).
Proof.
  intros H. unfold rbfs_nd_sequence, rbfs_1d_sequence. rewrite normalize_time_ok by auto. reflexivity.
Qed.

Lemma np_max_scale c v : 0 < c -> forall n, np_max n (fun i => v i / c) = np_max n v / c.
Proof.
  intros Hc. induction n as [|n IH]; [unfold np_max; unfold Rdiv; ring|].
  destruct n as [|n]; [reflexivity|]. cbn [np_max] in *. rewrite IH.
  unfold Rdiv. rewrite !(Rmult_comm _ (/ c)).
  rewrite RmaxRmult; [reflexivity|]. left. now apply Rinv_0_lt_compat.
Qed.
Lemma np_max_in n v : (0 < n)%nat -> exists i, (i < n)%nat /\ np_max n v = v i.
Proof.
  induction n as [|n IH]; [lia|]. intros _. destruct n as [|n]; [exists 0%nat; auto|].
  destruct IH as (i & Hi & E); [lia|]. cbn [np_max] in *. rewrite E.
  unfold Rmax. destruct (Rle_dec (v i) (v (S n))); [exists (S n); auto|exists i; auto].
Qed.
Lemma np_max_le n v i : (i < n)%nat -> v i <= np_max n v.
Proof.
  induction n as [|n IH]; [lia|]. intros Hi. destruct n as [|n].
  - assert (i = 0)%nat as -> by lia. apply Rle_refl.
  - cbn [np_max] in *. destruct (Nat.eq_dec i (S n)) as [->|]; [apply Rmax_r|].
    eapply Rle_trans; [apply IH; lia|apply Rmax_l].
Qed.

(** The product of times with themselves: after normalisation the maximum is 1. *)
Lemma rel_time_max T : (0 < alen T)%nat -> 0 < np_max (alen T) (aget T) -> np_max (alen T) (rel_time T) = 1.
Proof.
  intros H Hp. unfold rel_time.
  rewrite (np_max_scale (np_max (alen T) (aget T)) (aget T) Hp). field. lra.
Qed.
