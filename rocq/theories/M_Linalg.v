(** numpy.linalg functions, by their documented contracts. *)
From Coq Require Import Reals Arith Lia ClassicalDescription FunctionalExtensionality.
From Verif Require Import M_Prelude P_Loops.
Open Scope R_scope.

(** [M] ([n] x [n]) has a trivial kernel. *)
Definition nonsingular (n : nat) (M : nat -> nat -> R) : Prop :=
  forall x : vec, (forall i, (i < n)%nat -> rsum n (fun k => M i k * x k) = 0) ->
  forall k, (k < n)%nat -> x k = 0.

(** [X] solves [M X = Y]; rows beyond [n] are filled with zeros so that the
    array has one representation. *)
Definition solves (n : nat) (M : nat -> nat -> R) (Y X : nat -> vec) : Prop :=
  (forall i d, (i < n)%nat -> rsum n (fun k => M i k * X k d) = Y i d)
  /\ (forall i d, (n <= i)%nat -> X i d = 0).

Lemma solves_unique n M Y : nonsingular n M ->
  forall X X', solves n M Y X -> solves n M Y X' -> X = X'.
Proof.
  intros HM X X' [H Z] [H' Z'].
  apply functional_extensionality; intro i. apply functional_extensionality; intro d.
  destruct (le_lt_dec n i) as [Hi|Hi]; [now rewrite Z, Z'|].
  assert (E : X i d - X' i d = 0).
  { apply (HM (fun k => X k d - X' k d)); auto. intros j Hj.
    rewrite (rsum_ext _ _ (fun k => M j k * X k d - M j k * X' k d)) by (intros; ring).
    rewrite rsum_minus, H, H' by auto. ring. }
  now apply Rminus_diag_uniq.
Qed.

(** [np.linalg.solve(M, Y)]: the solution of [M X = Y], LinAlgError when [M] is
    singular.  (For a nonsingular [M] a solution always exists; the definition
    does not need that fact.) *)
Definition np_linalg_solve (n : nat) (M : nat -> nat -> R) (Y : nat -> vec) : res (nat -> vec) :=
  match excluded_middle_informative (nonsingular n M /\ exists X, solves n M Y X) with
  | left H =>
      let '(conj HM HX) := H in
      Ok (proj1_sig (constructive_definite_description (solves n M Y)
            (match HX with ex_intro _ X HX =>
               ex_intro _ X (conj HX (fun X' HX' => solves_unique n M Y HM X X' HX HX')) end)))
  | right _ => Err LinAlgError
  end.

Lemma np_linalg_solve_ok n M Y X : nonsingular n M -> solves n M Y X ->
  np_linalg_solve n M Y = Ok X.
Proof.
  intros HM HX. unfold np_linalg_solve.
  destruct (excluded_middle_informative _) as [[HM' HX']|H]; [|exfalso; apply H; eauto].
  f_equal. eapply solves_unique; [exact HM| |exact HX].
  apply (proj2_sig (constructive_definite_description _ _)).
Qed.

Lemma np_linalg_solve_singular n M Y : ~ nonsingular n M -> np_linalg_solve n M Y = Err LinAlgError.
Proof.
  intros H. unfold np_linalg_solve.
  destruct (excluded_middle_informative _) as [[HM' HX']|H']; [tauto|reflexivity].
Qed.
