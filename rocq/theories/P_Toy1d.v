(** Cholesky factors exist for positive definite matrices; the finite-difference matrix. *)
From Coq Require Import Reals Arith List Lia Lra Psatz Bool.
From Verif Require Import M_Prelude P_Loops M_Matrix P_Matrix M_Ridge M_PotentialField M_Toy1d.
Import ListNotations.
Set Bullet Behavior "Strict Subproofs".
Open Scope R_scope.

(** Positive definite: only the first [n] rows and columns count. *)
Definition pd (n : nat) (A : mat) : Prop :=
  (forall i j, (i < n)%nat -> (j < n)%nat -> A i j = A j i)
  /\ forall x : vec, (exists i, (i < n)%nat /\ x i <> 0) -> 0 < dot n x (mvec n A x).

Lemma dot_mvec_sum n A x : dot n x (mvec n A x) = rsum n (fun i => x i * rsum n (fun j => A i j * x j)).
Proof. reflexivity. Qed.

Lemma pd_crop n A : pd n A -> pd n (crop n n A) .
Proof.
  intros [S P]. split.
  - intros i j Hi Hj. rewrite !crop_in by auto. auto.
  - intros x Hx. specialize (P x Hx). unfold dot, mvec in *.
    erewrite rsum_ext; [exact P|]. intros i Hi. cbv beta. f_equal. apply rsum_ext.
    intros j Hj. now rewrite crop_in by auto.
Qed.

Lemma pd_inverse n A : pd n A -> exists X, inverse n (crop n n A) X.
Proof.
  intros HP. apply symmetric_inverse.
  - apply sized_crop.
  - intros i j. unfold crop. destruct HP as [S _].
    destruct (Nat.ltb_spec i n), (Nat.ltb_spec j n); cbn [andb]; auto.
  - intros x Hx k Hk. destruct (Req_EM_T (x k) 0) as [E|E]; [exact E|]. exfalso.
    apply pd_crop in HP. destruct HP as [_ P]. assert (0 < dot n x (mvec n (crop n n A) x)) by (apply P; eauto).
    rewrite dot_comm, dot_zero_l in H; [lra|exact Hx].
Qed.

Lemma pd_leading n A : pd (S n) A -> pd n A.
Proof.
  intros [S P]. split; [intros; apply S; lia|].
  intros x (i & Hi & Hx).
  set (x' := fun k => if Nat.ltb k n then x k else 0).
  assert (E : 0 < dot (Datatypes.S n) x' (mvec (Datatypes.S n) A x')).
  { apply P. exists i. split; [lia|]. unfold x'. destruct (Nat.ltb_spec i n); [exact Hx|lia]. }
  unfold dot, mvec in E. cbn [rsum] in E.
  assert (x' n = 0) as Hn by (unfold x'; now rewrite Nat.ltb_irrefl). rewrite Hn in E.
  replace (rsum n (fun i => x' i * (rsum n (fun l => A i l * x' l) + A i n * 0))
           + 0 * (rsum n (fun l => A n l * x' l) + A n n * 0)) with (dot n x (mvec n A x)) in E; [exact E|].
  unfold dot, mvec. rewrite Rmult_0_l, Rplus_0_r. apply rsum_ext. intros k Hk.
  unfold x' at 1. destruct (Nat.ltb_spec k n); [|lia]. rewrite Rmult_0_r, Rplus_0_r. f_equal.
  apply rsum_ext. intros l Hl. unfold x'. destruct (Nat.ltb_spec l n); [reflexivity|lia].
Qed.

Theorem cholesky_exists : forall n A, pd n A -> exists L, cholesky_factor n A L.
Proof.
  induction n as [|n IH]; intros A HA.
  - exists mzero. repeat split; try (intros; lia).
  - pose proof (pd_leading n A HA) as Hn. destruct (IH A Hn) as (L & SL & TL & PL & EL).
    destruct (pd_inverse n A Hn) as (X & SX & X1 & X2).
    set (a := fun i => A n i). set (z := mvec n X a). set (l := mvec n (mT L) z).
    assert (Az : forall i, (i < n)%nat -> mvec n A z i = a i).
    { intros i Hi. transitivity (mvec n (crop n n A) z i).
      - unfold mvec. apply rsum_ext. intros j Hj. now rewrite crop_in by auto.
      - unfold z. rewrite <- mvec_mmul, X1. now apply mvec_eye_in. }
    assert (Ll : forall i, (i < n)%nat -> mvec n L l i = a i).
    { intros i Hi. unfold l. rewrite <- mvec_mmul. rewrite <- (Az i Hi).
      unfold mvec. apply rsum_ext. intros j Hj. now rewrite EL. }
    assert (Hll : dot n l l = dot n z a).
    { unfold l at 1. rewrite dot_mvec, mT_mT. apply dot_ext; auto. }
    assert (HzA : dot n z (mvec n A z) = dot n z a) by (apply dot_ext; auto).
    assert (Piv : 0 < A n n - dot n l l).
    { destruct HA as [S P].
      set (x := fun k => if Nat.ltb k n then z k else -1).
      assert (E : 0 < dot (Datatypes.S n) x (mvec (Datatypes.S n) A x)).
      { apply P. exists n. split; [lia|]. unfold x. rewrite Nat.ltb_irrefl. lra. }
      assert (Hx : forall k, (k < n)%nat -> x k = z k)
        by (intros k Hk; unfold x; destruct (Nat.ltb_spec k n); [reflexivity|lia]).
      assert (Hxn : x n = -1) by (unfold x; now rewrite Nat.ltb_irrefl).
      unfold dot, mvec in E. cbn [rsum] in E. rewrite Hxn in E.
      rewrite (rsum_ext n (fun i => x i * (rsum n (fun l => A i l * x l) + A i n * -1))
                (fun i => z i * mvec n A z i - z i * a i)) in E.
      2:{ intros i Hi. rewrite (Hx i Hi). unfold mvec, a. rewrite (S i n) by lia.
          rewrite (rsum_ext n (fun l => A i l * x l) (fun l => A i l * z l)); [ring|].
          intros j Hj. now rewrite Hx. }
      rewrite (rsum_ext n (fun l => A n l * x l) (fun i => z i * a i)) in E.
      2:{ intros i Hi. rewrite (Hx i Hi). unfold a. ring. }
      rewrite rsum_minus in E. fold (dot n z (mvec n A z)) in E. fold (dot n z a) in E. lra. }
    set (M := fun i j => if Nat.ltb i n then L i j
                         else if Nat.eqb i n then
                                if Nat.ltb j n then l j
                                else if Nat.eqb j n then sqrt (A n n - dot n l l) else 0
                              else 0).
    assert (Mi : forall i j, (i < n)%nat -> M i j = L i j)
      by (intros i j Hi; unfold M; destruct (Nat.ltb_spec i n); [reflexivity|lia]).
    assert (Mn : forall j, (j < n)%nat -> M n j = l j).
    { intros j Hj. unfold M. rewrite Nat.ltb_irrefl, Nat.eqb_refl. destruct (Nat.ltb_spec j n); [reflexivity|lia]. }
    assert (Mnn : M n n = sqrt (A n n - dot n l l))
      by (unfold M; rewrite Nat.ltb_irrefl, Nat.eqb_refl; reflexivity).
    assert (TM : forall i j, (i < j)%nat -> M i j = 0).
    { intros i j Hij. unfold M. destruct (Nat.ltb_spec i n); [auto|].
      destruct (Nat.eqb_spec i n); [|reflexivity]. destruct (Nat.ltb_spec j n); [lia|].
      destruct (Nat.eqb_spec j n); [lia|reflexivity]. }
    exists M. split; [|split; [exact TM|split]].
    + intros i j [Hi|Hj].
      * unfold M. destruct (Nat.ltb_spec i n); [lia|]. destruct (Nat.eqb_spec i n); [lia|reflexivity].
      * unfold M. destruct (Nat.ltb_spec i n); [apply SL; lia|]. destruct (Nat.eqb_spec i n); [|reflexivity].
        destruct (Nat.ltb_spec j n); [lia|]. destruct (Nat.eqb_spec j n); [lia|reflexivity].
    + intros i Hi. destruct (Nat.eq_dec i n) as [->|Hne].
      * rewrite Mnn. now apply sqrt_lt_R0.
      * rewrite Mi by lia. apply PL. lia.
    + destruct HA as [S _]. intros i j Hi Hj.
      unfold mmul, mT. cbn [rsum].
      destruct (Nat.eq_dec i n) as [->|Hin], (Nat.eq_dec j n) as [->|Hjn].
      * rewrite Mnn. rewrite (rsum_ext n _ (fun k => l k * l k)) by (intros k Hk; now rewrite Mn).
        fold (dot n l l). rewrite sqrt_sqrt by lra. ring.
      * rewrite (TM j n) by lia. rewrite (rsum_ext n _ (fun k => L j k * l k))
          by (intros k Hk; rewrite Mn, Mi by lia; ring).
        fold (mvec n L l j). rewrite Ll by lia. unfold a. ring.
      * rewrite (TM i n) by lia. rewrite (rsum_ext n _ (fun k => L i k * l k))
          by (intros k Hk; rewrite Mn, Mi by lia; ring).
        fold (mvec n L l i). rewrite Ll by lia. unfold a. rewrite S by lia. ring.
      * rewrite (TM i n) by lia. rewrite (rsum_ext n _ (fun k => L i k * L j k))
          by (intros k Hk; rewrite !Mi by lia; ring).
        pose proof (EL i j ltac:(lia) ltac:(lia)) as E. unfold mmul, mT in E. rewrite E. ring.
Qed.

(** The inverse of a positive definite matrix is positive definite. *)
Lemma pd_of_inverse n A X : sized n n A -> pd n A -> inverse n A X -> pd n X.
Proof.
  intros SA [S P] (SX & X1 & X2).
  assert (SymA : mT A = A).
  { apply mat_ext. intros i j. unfold mT. destruct (lt_dec i n), (lt_dec j n); auto;
      rewrite !SA by lia; reflexivity. }
  assert (SymX : mT X = X).
  { apply (inverse_unique n A); [|repeat split; auto].
    repeat split; [now apply sized_mT| |].
    - rewrite <- SymA at 1. rewrite <- mT_mmul, X2. apply mT_eye.
    - rewrite <- SymA at 1. rewrite <- mT_mmul, X1. apply mT_eye. }
  split.
  - intros i j _ _. change (X i j = mT X i j). now rewrite SymX.
  - intros x (i & Hi & Hx).
    assert (AX : forall k, (k < n)%nat -> mvec n A (mvec n X x) k = x k)
      by (intros k Hk; rewrite <- mvec_mmul, X1; now apply mvec_eye_in).
    replace (dot n x (mvec n X x)) with (dot n (mvec n X x) (mvec n A (mvec n X x)))
      by (rewrite dot_comm; now apply dot_ext).
    apply P. destruct (Classical_Prop.classic (exists k, (k < n)%nat /\ mvec n X x k <> 0)) as [H|H]; [exact H|].
    exfalso. apply Hx. rewrite <- (AX i Hi). unfold mvec at 1.
    rewrite (rsum_ext n _ (fun _ => 0)); [clear; induction n; cbn; lra|].
    intros k Hk. destruct (Req_EM_T (mvec n X x k) 0) as [E|E]; [rewrite E; ring|]. exfalso. apply H. eauto.
Qed.

(** ** Finite differences *)
(** [y] outside of the trajectory is zero. *)
Definition padded (n : nat) (y : vec) (k : nat) : R := if Nat.ltb k n then y k else 0.
Definition shifted (n d : nat) (y : vec) (i : nat) : R := if Nat.ltb i d then 0 else padded n y (i - d).

Lemma rsum_diag n d i (y : vec) c : 
  rsum n (fun j => (if Nat.eqb i (j + d) then c else 0) * y j) = c * shifted n d y i.
Proof.
  unfold shifted, padded. induction n as [|n IH].
  - cbn [rsum]. change (Nat.ltb (i - d) 0) with false. destruct (Nat.ltb i d); ring.
  - cbn [rsum]. rewrite IH. destruct (Nat.eqb_spec i (n + d)) as [->|Hne].
    + destruct (Nat.ltb_spec (n + d) d); [lia|]. replace (n + d - d)%nat with n by lia.
      rewrite Nat.ltb_irrefl. destruct (Nat.ltb_spec n (S n)); [|lia]. ring.
    + destruct (Nat.ltb_spec i d); [ring|].
      destruct (Nat.ltb_spec (i - d) n), (Nat.ltb_spec (i - d) (S n)); try ring; lia.
Qed.

Lemma finite_differences_entry n dt i j : (j < n)%nat ->
  create_finite_differences_matrix_1d n dt i j
  = ((if Nat.eqb i (j + 0) then 1 else 0) + (if Nat.eqb i (j + 1) then -2 else 0)
     + (if Nat.eqb i (j + 2) then 1 else 0)) / dt ^ 2.
Proof.
  intros Hj. unfold create_finite_differences_matrix_1d. destruct (Nat.ltb_spec j n); [|lia]. cbn [andb].
  f_equal. destruct (Nat.eqb_spec i (j + 0)), (Nat.eqb_spec i (j + 1)), (Nat.eqb_spec i (j + 2)); try lia; ring.
Qed.

Lemma finite_differences_mvec n dt y i :
  mvec n (create_finite_differences_matrix_1d n dt) y i
  = (shifted n 0 y i - 2 * shifted n 1 y i + shifted n 2 y i) / dt ^ 2.
Proof.
  unfold mvec.
  rewrite (rsum_ext n _ (fun j => ((if Nat.eqb i (j + 0) then 1 else 0) * y j + (if Nat.eqb i (j + 1) then -2 else 0) * y j
     + (if Nat.eqb i (j + 2) then 1 else 0) * y j) * / dt ^ 2)).
  2:{ intros j Hj. rewrite finite_differences_entry by exact Hj. unfold Rdiv. ring. }
  rewrite rsum_scal_r, !rsum_plus, !rsum_diag. unfold Rdiv. ring.
Qed.

Lemma sized_finite_differences n dt : sized (n + 2) n (create_finite_differences_matrix_1d n dt).
Proof.
  intros i j Hij. unfold create_finite_differences_matrix_1d.
  destruct (Nat.ltb_spec j n); cbn [andb]; [|unfold Rdiv; ring].
  destruct Hij; [|lia].
  destruct (Nat.eqb_spec i (j + 0)), (Nat.eqb_spec i (j + 1)), (Nat.eqb_spec i (j + 2)); try lia. unfold Rdiv. ring.
Qed.

Lemma finite_differences_kernel n dt y : dt <> 0 ->
  (forall i, (i < n + 2)%nat -> mvec n (create_finite_differences_matrix_1d n dt) y i = 0) ->
  forall k, (k < n)%nat -> y k = 0.
Proof.
  intros Hdt H k. induction k as [k IH] using (well_founded_induction lt_wf). intros Hk.
  specialize (H k ltac:(lia)). rewrite finite_differences_mvec in H.
  assert (Z : forall d, (1 <= d)%nat -> shifted n d y k = 0).
  { intros d Hd. unfold shifted, padded. destruct (Nat.ltb_spec k d); [reflexivity|].
    destruct (Nat.ltb_spec (k - d) n); [|reflexivity]. apply IH; lia. }
  rewrite (Z 1%nat), (Z 2%nat) in H by lia.
  assert (E : shifted n 0 y k = y k).
  { unfold shifted, padded. destruct (Nat.ltb_spec k 0); [lia|]. rewrite Nat.sub_0_r.
    destruct (Nat.ltb_spec k n); [reflexivity|lia]. }
  rewrite E in H. replace ((y k - 2 * 0 + 0) / dt ^ 2) with (y k * / dt ^ 2) in H by (unfold Rdiv; ring).
  assert (/ dt ^ 2 <> 0) by (apply Rinv_neq_0_compat; apply pow_nonzero; exact Hdt).
  apply Rmult_integral in H. tauto.
Qed.

Lemma finite_differences_pd n dt : dt <> 0 ->
  let A := create_finite_differences_matrix_1d n dt in
  sized n n (mmul (n + 2) (mT A) A) /\ pd n (mmul (n + 2) (mT A) A).
Proof.
  intros Hdt A. split.
  - apply sized_mmul; [apply sized_mT|]; apply sized_finite_differences.
  - split.
    + intros i j _ _. unfold mmul, mT. apply rsum_ext. intros k _. ring.
    + intros x (i & Hi & Hx). rewrite mvec_mmul, dot_comm, dot_mvec, mT_mT.
      destruct (dot_self (n + 2) (mvec n A x)) as [H|H]; [exact H|]. exfalso.
      apply Hx. eapply finite_differences_kernel; [exact Hdt| |exact Hi].
      apply dot_self_0. symmetry. exact H.
Qed.
