(** Arrays with two axes: the numpy operations used by dmp/_dmp.py:802-804,
    promp.py and data/_toy_1d.py.  A matrix of shape (m, n) is a function
    [nat -> nat -> R] that is zero outside its shape, so that equal arrays are
    equal functions.  Operations that numpy derives from the shapes take the
    inner dimension as an argument. *)
From Coq Require Import Reals Arith.
From Verif Require Import M_Prelude.
Open Scope R_scope.

Definition mat := nat -> nat -> R.

(** [A] has shape (m, n). *)
Definition sized (m n : nat) (A : mat) : Prop :=
  forall i j, (m <= i)%nat \/ (n <= j)%nat -> A i j = 0.
Definition vsized (n : nat) (v : vec) : Prop := forall i, (n <= i)%nat -> v i = 0.

(** [A.dot(B)] with inner dimension [k], [A.T], [A.dot(v)], [np.eye(n)]. *)
Definition mmul (k : nat) (A B : mat) : mat := fun i j => rsum k (fun l => A i l * B l j).
Definition mT (A : mat) : mat := fun i j => A j i.
Definition mvec (k : nat) (A : mat) (v : vec) : vec := fun i => rsum k (fun l => A i l * v l).
Definition eye (n : nat) : mat := fun i j => if andb (i =? j)%nat (i <? n)%nat then 1 else 0.
Definition madd (A B : mat) : mat := fun i j => A i j + B i j.
Definition msub (A B : mat) : mat := fun i j => A i j - B i j.
Definition mscale (c : R) (A : mat) : mat := fun i j => c * A i j.
Definition mzero : mat := fun _ _ => 0.
Definition dot (n : nat) (u v : vec) : R := rsum n (fun i => u i * v i).

(** Symmetric positive semidefinite matrices, i.e. covariance matrices. *)
Definition symmetric (A : mat) : Prop := forall i j, A i j = A j i.
Definition psd (n : nat) (A : mat) : Prop :=
  symmetric A /\ forall x : vec, 0 <= dot n x (mvec n A x).

(** The four equations that characterise the Moore-Penrose inverse. *)
Definition penrose (m n : nat) (A X : mat) : Prop :=
  sized n m X /\
  mmul m (mmul n A X) A = A /\
  mmul n (mmul m X A) X = X /\
  symmetric (mmul n A X) /\ symmetric (mmul m X A).

(** [X] is the inverse of the (n, n) matrix [A]. *)
Definition inverse (n : nat) (A X : mat) : Prop :=
  sized n n X /\ mmul n A X = eye n /\ mmul n X A = eye n.
