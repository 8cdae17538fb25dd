(** [np.linalg.pinv], [np.linalg.inv] by their documented contracts and
    ridge regression. *)
From Coq Require Import Reals Arith ClassicalDescription.
From Verif Require Import M_Prelude M_Matrix P_Matrix M_DmpObject.
Open Scope R_scope.

(** [np.linalg.pinv(A)] for [A] of shape (m, n): the Moore-Penrose inverse.
    Simplification: numpy treats singular values below rcond = 1e-15 times the
    largest one as zero; over the reals only exact zeros are zero. *)
Definition np_linalg_pinv (m n : nat) (A : mat) : mat :=
  proj1_sig (constructive_definite_description (penrose m n (crop m n A))
    (match penrose_exists m n (crop m n A) (sized_crop m n A) with
     | ex_intro _ X HX => ex_intro _ X (conj HX (fun X' HX' => penrose_unique m n _ X X' HX HX'))
     end)).

Lemma np_linalg_pinv_spec m n A : sized m n A -> penrose m n A (np_linalg_pinv m n A).
Proof.
  intros HA. unfold np_linalg_pinv. destruct (constructive_definite_description _ _) as [X HX].
  cbn [proj1_sig]. rewrite (mat_ext_sized m n (crop m n A) A (sized_crop m n A) HA (crop_in m n A)) in HX.
  exact HX.
Qed.

(** [np.linalg.inv(A)] for [A] of shape (n, n); LinAlgError when [A] is singular. *)
Definition np_linalg_inv (n : nat) (A : mat) : res mat :=
  match excluded_middle_informative (exists X, inverse n A X) with
  | left H => Ok (proj1_sig (constructive_definite_description (inverse n A)
      (match H with ex_intro _ X HX =>
         ex_intro _ X (conj HX (fun X' HX' => inverse_unique n A X X' HX HX')) end)))
  | right _ => Err LinAlgError
  end.

Lemma np_linalg_inv_ok n A X : inverse n A X -> np_linalg_inv n A = Ok X.
Proof.
  intros H. unfold np_linalg_inv. destruct (excluded_middle_informative _) as [E|E].
  - f_equal. apply (inverse_unique n A); [|exact H].
    apply (proj2_sig (constructive_definite_description _ _)).
  - exfalso. eauto.
Qed.
Lemma np_linalg_inv_spec n A X : np_linalg_inv n A = Ok X -> inverse n A X.
Proof.
  unfold np_linalg_inv. destruct (excluded_middle_informative _) as [E|E]; [|discriminate].
  intros [= <-]. apply (proj2_sig (constructive_definite_description _ _)).
Qed.
Lemma np_linalg_inv_err n A e : np_linalg_inv n A = Err e -> e = LinAlgError /\ ~ exists X, inverse n A X.
Proof.
  unfold np_linalg_inv. destruct (excluded_middle_informative _) as [E|E]; [discriminate|].
  intros [= <-]. auto.
Qed.

(** dmp/_dmp.py:779-804 [ridge_regression].  [X] has shape (n_features,
    n_samples) and [Y] has shape (n_samples, n_outputs), contrary to the
    docstring of the function, see line 803 and the call at line 772.  The
    result has one row per output and [n_features] columns; the number of
    outputs does not enter the computation. *)
Definition ridge_regression : regression :=
  fun n_features n_samples X Y regularization_coefficient =>
    let X := crop n_features n_samples X in
    let P := np_linalg_pinv n_features n_features
               (madd (mmul n_samples X (mT X))
                     (mscale regularization_coefficient (eye n_features))) in
    mT (mmul n_samples (mmul n_features P X) Y).                     (* 802-804 *)
