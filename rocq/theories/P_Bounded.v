(** Bounded inputs of two coupled recurrences give bounded outputs. *)
From Coq Require Import Reals Lia Lra Psatz.
From Coquelicot Require Import Coquelicot.
From Verif Require Import M_Prelude S_Stability P_Converge P_Stability.
Open Scope R_scope.
Set Bullet Behavior "Strict Subproofs".

Lemma ccontraction_bounded (n b : nat -> C) (r : C) (B : R) :
  Cmod r < 1 -> (forall k, n (S k) = (r * n k + b k)%C) ->
  (forall k, Cmod (b k) <= B) -> Cmod (n 0%nat) <= B / (1 - Cmod r) ->
  forall k, Cmod (n k) <= B / (1 - Cmod r).
Proof.
  intros Hr Hrec Hb H0. induction k as [|k IH]; [exact H0|].
  rewrite Hrec. eapply Rle_trans; [apply Cmod_triangle|]. rewrite Cmod_mult.
  pose proof (Cmod_ge_0 r). specialize (Hb k).
  apply Rle_trans with (Cmod r * (B / (1 - Cmod r)) + B).
  - apply Rplus_le_compat; [|exact Hb]. now apply Rmult_le_compat_l.
  - right. field. lra.
Qed.

Lemma grow_bound (x r : R) : 0 <= x -> 0 <= r < 1 -> x <= x / (1 - r).
Proof.
  intros Hx Hr. apply Rmult_le_reg_r with (1 - r); [lra|]. unfold Rdiv. rewrite Rmult_assoc, Rinv_l by lra. nra.
Qed.

Lemma two_bounded m11 m12 m21 m22 l1 l2 :
  (l1 + l2 = RtoC (m11 + m22))%C -> (l1 * l2 = RtoC (m11 * m22 - m12 * m21))%C ->
  Cmod l1 < 1 -> Cmod l2 < 1 ->
  exists K, 0 <= K /\ forall (e v p q : nat -> R) (B : R),
  (forall k, e (S k) = m11 * e k + m12 * v k + p k) ->
  (forall k, v (S k) = m21 * e k + m22 * v k + q k) ->
  Rabs (e 0%nat) <= B -> Rabs (v 0%nat) <= B ->
  (forall k, Rabs (p k) <= B) -> (forall k, Rabs (q k) <= B) ->
  forall k, Rabs (e k) <= K * B /\ Rabs (v k) <= K * B.
Proof.
  intros Ht Hd H1 H2.
  set (W1 := fun e v => ((RtoC m11 - l1) * RtoC e + RtoC m12 * RtoC v)%C).
  set (W2 := fun e v => (RtoC m21 * RtoC e + (RtoC m22 - l1) * RtoC v)%C).
  set (c := Cmod (RtoC m11 - l1)%C + Cmod (RtoC m12) + (Cmod (RtoC m21) + Cmod (RtoC m22 - l1)%C)).
  pose proof (Cmod_ge_0 (RtoC m11 - l1)%C). pose proof (Cmod_ge_0 (RtoC m12)).
  pose proof (Cmod_ge_0 (RtoC m21)). pose proof (Cmod_ge_0 (RtoC m22 - l1)%C).
  pose proof (Cmod_ge_0 l1). pose proof (Cmod_ge_0 l2).
  assert (Hc : 0 <= c) by (unfold c; lra).
  assert (Hc2 : 0 <= c / (1 - Cmod l2)) by (apply Rmult_le_pos; [auto|left; apply Rinv_0_lt_compat; lra]).
  exists ((c / (1 - Cmod l2) + 1) / (1 - Cmod l1)). split.
  { apply Rmult_le_pos; [lra|]. left. apply Rinv_0_lt_compat. lra. }
  intros e v p q B He Hv E0 V0 Hp Hq.
  assert (HB : 0 <= B) by (eapply Rle_trans; [apply Rabs_pos|exact E0]).
  assert (BW1 : forall x y, Rabs x <= B -> Rabs y <= B -> Cmod (W1 x y) <= c * B).
  { intros x y Hx Hy. unfold W1. eapply Rle_trans; [apply Cmod_triangle|]. rewrite !Cmod_mult, (Cmod_R x), (Cmod_R y).
    pose proof (Rabs_pos x). pose proof (Rabs_pos y). unfold c.
    assert (Cmod (RtoC m11 - l1)%C * Rabs x <= Cmod (RtoC m11 - l1)%C * B) by (now apply Rmult_le_compat_l).
    assert (Cmod (RtoC m12) * Rabs y <= Cmod (RtoC m12) * B) by (now apply Rmult_le_compat_l).
    assert (0 <= (Cmod (RtoC m21) + Cmod (RtoC m22 - l1)%C) * B) by (apply Rmult_le_pos; lra). lra. }
  assert (BW2 : forall x y, Rabs x <= B -> Rabs y <= B -> Cmod (W2 x y) <= c * B).
  { intros x y Hx Hy. unfold W2. eapply Rle_trans; [apply Cmod_triangle|]. rewrite !Cmod_mult, (Cmod_R x), (Cmod_R y).
    pose proof (Rabs_pos x). pose proof (Rabs_pos y). unfold c.
    assert (Cmod (RtoC m21) * Rabs x <= Cmod (RtoC m21) * B) by (now apply Rmult_le_compat_l).
    assert (Cmod (RtoC m22 - l1)%C * Rabs y <= Cmod (RtoC m22 - l1)%C * B) by (now apply Rmult_le_compat_l).
    assert (0 <= (Cmod (RtoC m11 - l1)%C + Cmod (RtoC m12)) * B) by (apply Rmult_le_pos; lra). lra. }
  assert (HW1 : forall k, Cmod (W1 (e k) (v k)) <= c * B / (1 - Cmod l2)).
  { apply (ccontraction_bounded _ (fun k => W1 (p k) (q k)) l2); auto.
    - intros k. rewrite He, Hv. apply (triangular m11 m12 m21 m22 l1 l2 Ht Hd (e k) (v k) (p k) (q k)).
    - eapply Rle_trans; [apply BW1; auto|]. apply grow_bound; [now apply Rmult_le_pos|lra]. }
  assert (HW2 : forall k, Cmod (W2 (e k) (v k)) <= c * B / (1 - Cmod l2)).
  { apply (ccontraction_bounded _ (fun k => W2 (p k) (q k)) l2); auto.
    - intros k. rewrite He, Hv. apply (triangular m11 m12 m21 m22 l1 l2 Ht Hd (e k) (v k) (p k) (q k)).
    - eapply Rle_trans; [apply BW2; auto|]. apply grow_bound; [now apply Rmult_le_pos|lra]. }
  set (D := c * B / (1 - Cmod l2) + B).
  assert (ED : (c / (1 - Cmod l2) + 1) / (1 - Cmod l1) * B = D / (1 - Cmod l1)) by (unfold D; field; lra).
  assert (HD : B <= D) by (unfold D; assert (0 <= c * B / (1 - Cmod l2));
    [replace (c * B / (1 - Cmod l2)) with (c / (1 - Cmod l2) * B) by (field; lra); now apply Rmult_le_pos|lra]).
  assert (Re : forall k, Cmod (RtoC (e k)) <= D / (1 - Cmod l1)).
  { apply (ccontraction_bounded _ (fun k => (W1 (e k) (v k) + RtoC (p k))%C) l1); auto.
    - intros k. rewrite He at 1. apply (triangular m11 m12 m21 m22 l1 l2 Ht Hd (e k) (v k) (p k) (q k)).
    - intros k. eapply Rle_trans; [apply Cmod_triangle|]. rewrite Cmod_R. unfold D. specialize (HW1 k). specialize (Hp k). lra.
    - rewrite Cmod_R. apply Rle_trans with D; [lra|]. apply grow_bound; lra. }
  assert (Rv : forall k, Cmod (RtoC (v k)) <= D / (1 - Cmod l1)).
  { apply (ccontraction_bounded _ (fun k => (W2 (e k) (v k) + RtoC (q k))%C) l1); auto.
    - intros k. rewrite Hv at 1. apply (triangular m11 m12 m21 m22 l1 l2 Ht Hd (e k) (v k) (p k) (q k)).
    - intros k. eapply Rle_trans; [apply Cmod_triangle|]. rewrite Cmod_R. unfold D. specialize (HW2 k). specialize (Hq k). lra.
    - rewrite Cmod_R. apply Rle_trans with D; [lra|]. apply grow_bound; lra. }
  intros k. rewrite ED, <- !Cmod_R. auto.
Qed.

(** The semi-implicit Euler method. *)
Lemma euler_bounded h c k : euler_shrinks h c k ->
  exists K, 0 <= K /\ forall (e v u : nat -> R) (B : R),
  (forall j, v (S j) = v j + h * (- k * e j - c * v j + u j)) ->
  (forall j, e (S j) = e j + h * v (S j)) ->
  Rabs (e 0%nat) <= B -> Rabs (v 0%nat) <= B -> (forall j, Rabs (u j) <= B) ->
  forall j, Rabs (e j) <= K * B /\ Rabs (v j) <= K * B.
Proof.
  intros Hst.
  destruct (quadratic_roots (2 - h * c - h ^ 2 * k) (1 - h * c)) as (l1 & l2 & Ht & Hp).
  destruct (two_bounded (1 - h ^ 2 * k) (h * (1 - h * c)) (- h * k) (1 - h * c) l1 l2) as (K & HK & H).
  - rewrite Ht. f_equal. ring.
  - rewrite Hp. f_equal. ring.
  - apply Hst. unfold euler_growth. apply (root_of _ _ l1 l2 _ Ht Hp); auto.
  - apply Hst. unfold euler_growth. apply (root_of _ _ l1 l2 _ Ht Hp); auto.
  - set (g := 1 + Rabs h + h ^ 2).
    pose proof (Rabs_pos h). pose proof (pow2_ge_0 h).
    assert (Hg : 1 <= g) by (unfold g; lra).
    exists (K * g). split; [apply Rmult_le_pos; lra|].
    intros e v u B Hv He E0 V0 Hu.
    assert (HB : 0 <= B) by (eapply Rle_trans; [apply Rabs_pos|exact E0]).
    rewrite Rmult_assoc.
    apply (H e v (fun j => h ^ 2 * u j) (fun j => h * u j)).
    + intros j. rewrite He, Hv. ring.
    + intros j. rewrite Hv. ring.
    + nra.
    + nra.
    + intros j. rewrite Rabs_mult, (Rabs_pos_eq (h ^ 2)) by auto. specialize (Hu j). pose proof (Rabs_pos (u j)).
      assert (h ^ 2 * Rabs (u j) <= h ^ 2 * B) by (now apply Rmult_le_compat_l). unfold g. nra.
    + intros j. rewrite Rabs_mult. specialize (Hu j). pose proof (Rabs_pos (u j)).
      assert (Rabs h * Rabs (u j) <= Rabs h * B) by (now apply Rmult_le_compat_l). unfold g. nra.
Qed.

(** The Runge-Kutta method. *)
Lemma rk4_bounded h c k : rk4_shrinks h c k ->
  exists K, 0 <= K /\ forall (e v p q : nat -> R) (B : R),
  (forall j, e (S j) = ra h c k * e j + rb h c k * h * v j + p j) ->
  (forall j, v (S j) = - rb h c k * h * k * e j + (ra h c k - rb h c k * h * c) * v j + q j) ->
  Rabs (e 0%nat) <= B -> Rabs (v 0%nat) <= B -> (forall j, Rabs (p j) <= B) -> (forall j, Rabs (q j) <= B) ->
  forall j, Rabs (e j) <= K * B /\ Rabs (v j) <= K * B.
Proof.
  intros Hst.
  destruct (quadratic_roots (- c) k) as (mu1 & mu2 & Hs & Hpr).
  destruct (rk4_eigenvalues h c k mu1 mu2 Hs Hpr) as [Ht Hd].
  apply (rk4_shrinks_roots h c k mu1 mu2 Hs Hpr) in Hst. destruct Hst as [H1 H2].
  exact (two_bounded _ _ _ _ _ _ Ht Hd H1 H2).
Qed.
