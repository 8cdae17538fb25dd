(** Model of data/_toy_1d.py and of [np.linalg.cholesky] by its documented contract. *)
From Coq Require Import Reals Arith List Lia Lra Psatz ClassicalDescription.
From Verif Require Import M_Prelude P_Loops M_Matrix P_Matrix M_Ridge M_PotentialField.
Import ListNotations.
Set Bullet Behavior "Strict Subproofs".
Open Scope R_scope.

(** ** [np.linalg.cholesky] *)
(** [L] is the Cholesky factor of the (n, n) matrix [A]: lower triangular with positive
    diagonal and [L L^T = A]. *)
Definition cholesky_factor (n : nat) (A L : mat) : Prop :=
  sized n n L /\ (forall i j, (i < j)%nat -> L i j = 0) /\ (forall i, (i < n)%nat -> 0 < L i i)
  /\ forall i j, (i < n)%nat -> (j < n)%nat -> mmul n L (mT L) i j = A i j.

(** Entry (i, j) of [L L^T] for [j <= i] only involves the first [j + 1] columns. *)
Lemma lower_product n L i j : (forall i j, (i < j)%nat -> L i j = 0) -> (j < n)%nat ->
  mmul n L (mT L) i j = rsum j (fun l => L i l * L j l) + L i j * L j j.
Proof.
  intros HL Hj. unfold mmul, mT.
  assert (E : forall m, (j < m)%nat -> rsum m (fun l => L i l * L j l)
              = rsum j (fun l => L i l * L j l) + L i j * L j j).
  { induction m as [|m IH]; [lia|]. intros Hm. cbn [rsum]. destruct (Nat.eq_dec j m) as [->|Hn].
    - ring.
    - rewrite IH by lia. rewrite (HL j m) by lia. ring. }
  apply E, Hj.
Qed.

Lemma cholesky_unique n A L M : cholesky_factor n A L -> cholesky_factor n A M -> L = M.
Proof.
  intros (SL & TL & PL & EL) (SM & TM & PM & EM).
  assert (H : forall j, (j < n)%nat -> forall i, (i < n)%nat -> L i j = M i j).
  { induction j as [j IH] using (well_founded_induction lt_wf). intros Hj.
    assert (Hsum : forall i, (i < n)%nat -> rsum j (fun l => L i l * L j l) = rsum j (fun l => M i l * M j l)).
    { intros i Hi. apply rsum_ext. intros l Hl. rewrite (IH l) by lia. rewrite (IH l) by lia. reflexivity. }
    assert (Hd : L j j = M j j).
    { pose proof (EL j j Hj Hj) as E1. pose proof (EM j j Hj Hj) as E2.
      rewrite lower_product in E1 by auto. rewrite lower_product in E2 by auto.
      rewrite (Hsum j Hj) in E1. pose proof (PL j Hj). pose proof (PM j Hj).
      assert (L j j * L j j = M j j * M j j) by lra. nra. }
    intros i Hi. destruct (lt_dec i j) as [Hlt|Hge]; [rewrite TL, TM by lia; reflexivity|].
    pose proof (EL i j Hi Hj) as E1. pose proof (EM i j Hi Hj) as E2.
    rewrite lower_product in E1 by auto. rewrite lower_product in E2 by auto.
    rewrite (Hsum i Hi) in E1. rewrite Hd in E1. pose proof (PM j Hj).
    apply Rmult_eq_reg_r with (M j j); lra. }
  apply (mat_ext_sized n n); auto.
Qed.

(** [np.linalg.cholesky(A)] for a symmetric [A] of shape (n, n); LinAlgError when there is no
    factor, i.e. when [A] is not positive definite. *)
Definition np_linalg_cholesky (n : nat) (A : mat) : res mat :=
  match excluded_middle_informative (exists L, cholesky_factor n A L) with
  | left H => Ok (proj1_sig (constructive_definite_description (cholesky_factor n A)
      (match H with ex_intro _ L HL =>
         ex_intro _ L (conj HL (fun L' HL' => cholesky_unique n A L L' HL HL')) end)))
  | right _ => Err LinAlgError
  end.

Lemma np_linalg_cholesky_ok n A L : cholesky_factor n A L -> np_linalg_cholesky n A = Ok L.
Proof.
  intros H. unfold np_linalg_cholesky. destruct (excluded_middle_informative _) as [E|E].
  - f_equal. apply (cholesky_unique n A); [|exact H].
    apply (proj2_sig (constructive_definite_description _ _)).
  - exfalso. eauto.
Qed.
Lemma np_linalg_cholesky_spec n A L : np_linalg_cholesky n A = Ok L -> cholesky_factor n A L.
Proof.
  unfold np_linalg_cholesky. destruct (excluded_middle_informative _) as [E|E]; [|discriminate].
  intros [= <-]. apply (proj2_sig (constructive_definite_description _ _)).
Qed.

(** ** data/_toy_1d.py *)

(** data/_toy_1d.py:57-82 [create_finite_differences_matrix_1d]; shape (n_steps + 2,
    n_steps).  The three diagonals are written in the order of the code, the later ones over
    the earlier ones (they do not overlap). *)
Definition create_finite_differences_matrix_1d (n_steps : nat) (dt : R) : mat :=
  let A0 : mat := fun _ _ => 0 in                                              (* 74 *)
  let on (d : nat) (x : R) (A : mat) : mat :=
    fun i j => if (Nat.ltb j n_steps && Nat.eqb i (j + d))%bool then x else A i j in
  let A1 := on 0%nat 1 A0 in                                                   (* 75, 77 *)
  let A2 := on 2%nat 1 A1 in                                                   (* 76, 78 *)
  let A3 := on 1%nat (-2) A2 in                                                (* 79-80 *)
  fun i j => A3 i j / dt ^ 2.                                                  (* 82 *)

(** data/_toy_1d.py:4-54 [generate_1d_trajectory_distribution].  The state of the random
    number generator is an argument; [rand] draws a number and [randn] an array of numbers.
    The result holds, per demonstration, the function from steps to positions. *)
Section Toy.
  Context {RS : Type} (rand : RS -> R * RS) (randn : nat -> RS -> vec * RS).

  Definition generate_1d_demonstration (n_steps : nat)
      (initial_offset_range final_offset_range noise_per_step_range : R) (L : mat) (rs : RS) : vec * RS :=
    let T := linspace 0 1 n_steps in
    let y : vec := fun i => cos (2 * PI * T i) in                              (* 42 *)
    let '(y, rs) :=
      if (if Req_EM_T initial_offset_range 0 then
            if Req_EM_T final_offset_range 0 then false else true
          else true) then                                                      (* 43 *)
        let '(r, rs) := rand rs in
        let initial_offset := initial_offset_range * (r - 1 / 2) in            (* 44 *)
        let '(r, rs) := rand rs in
        let final_offset := final_offset_range * (r - 1 / 2) in                (* 45 *)
        (vadd y (linspace initial_offset final_offset n_steps), rs)            (* 46-47 *)
      else (y, rs) in
    if Req_EM_T noise_per_step_range 0 then (y, rs) else                       (* 48 *)
    let '(e, rs) := randn n_steps rs in
    (vadd y (vscale noise_per_step_range (mvec n_steps L e)), rs).             (* 49-51 *)

  Fixpoint generate_1d_demonstrations (n_demos n_steps : nat)
      (initial_offset_range final_offset_range noise_per_step_range : R) (L : mat) (rs : RS)
      : list vec * RS :=
    match n_demos with
    | O => ([], rs)
    | S k =>
        let '(y, rs) := generate_1d_demonstration n_steps initial_offset_range final_offset_range
                          noise_per_step_range L rs in
        let '(ys, rs) := generate_1d_demonstrations k n_steps initial_offset_range final_offset_range
                           noise_per_step_range L rs in
        (y :: ys, rs)
    end.

  Definition generate_1d_trajectory_distribution (n_demos n_steps : nat)
      (initial_offset_range final_offset_range noise_per_step_range : R) (rs : RS)
      : res (vec * list vec * RS) :=
    let T := linspace 0 1 n_steps in                                           (* 34 *)
    if Nat.eqb n_steps 1 then Err ZeroDivisionError else                       (* 37 *)
    let A := create_finite_differences_matrix_1d n_steps (1 / (INR n_steps - 1)) in (* 37 *)
    bind (np_linalg_inv n_steps (mmul (n_steps + 2) (mT A) A)) (fun cov =>     (* 38 *)
    bind (np_linalg_cholesky n_steps cov) (fun L =>                            (* 39 *)
    let '(ys, rs) := generate_1d_demonstrations n_demos n_steps initial_offset_range
                       final_offset_range noise_per_step_range L rs in         (* 41-53 *)
    Ok (T, ys, rs))).                                                          (* 54 *)
End Toy.
