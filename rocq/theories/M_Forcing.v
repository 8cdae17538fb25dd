(** Model of dmp/_forcing_term.py. *)
From Coq Require Import Reals List.
From Verif Require Import M_Prelude M_Canonical.
Import ListNotations.
Open Scope R_scope.

(** dmp/_forcing_term.py:9-49 [ForcingTerm]: attributes.  [ft_weights d i] is
    [weights_[d, i]]. *)
Record forcing_term := {
  ft_n : nat;             (* n_weights_per_dim *)
  ft_goal_t : R;
  ft_start_t : R;
  ft_overlap : R;
  ft_alpha_z : R;
  ft_weights : nat -> nat -> R;
  ft_centers : vec;
  ft_widths : vec
}.

(** One iteration of the loop at dmp/_forcing_term.py:62-69. *)
Definition init_rbfs_body (alpha_z goal_t start_t log_overlap step : R)
    (cw : vec * vec) (i : nat) : vec * vec :=
  let '(centers, widths) := cw in
  let t := INR i * step in                                       (* 64 *)
  let centers := upd centers i (phase t alpha_z goal_t start_t) in (* 65 *)
  let diff := centers i - centers (i - 1)%nat in                 (* 68 *)
  let widths := upd widths (i - 1)%nat (log_overlap / diff ^ 2) in (* 69 *)
  (centers, widths).

(** dmp/_forcing_term.py:51-73 [_init_rbfs].  [np.empty] returns arrays with
    arbitrary content, here the arguments [junk_c] and [junk_w]. *)
Definition init_rbfs (junk_c junk_w : vec) (n : nat)
    (alpha_z goal_t start_t overlap : R) : vec * vec :=
  let log_overlap := - ln overlap in                             (* 52 *)
  let execution_time := goal_t - start_t in                      (* 53 *)
  let step := execution_time / (INR n - 1) in                    (* 58 *)
  let centers := upd junk_c 0 (phase start_t alpha_z goal_t start_t) in (* 60-61 *)
  let '(centers, widths) :=
    fold_left (init_rbfs_body alpha_z goal_t start_t log_overlap step)
              (seq 1 (n - 1)) (centers, junk_w) in               (* 62-69 *)
  (centers, upd widths (n - 1)%nat (widths (n - 2)%nat)).        (* 72-73 *)

(** dmp/_forcing_term.py:37-49 [__init__].  [weights_] is initialised with
    zeros (line 54). *)
Definition forcing_term_init (junk_c junk_w : vec) (n : nat)
    (goal_t start_t overlap alpha_z : R) : res forcing_term :=
  if Nat.leb n 1 then Err ValueError                             (* 39-40 *)
  else if Rle_dec goal_t start_t then Err ValueError             (* 42-43 *)
  else if Rle_dec overlap 0 then Err ValueError                  (* 52: math.log *)
  else
    let '(centers, widths) :=
      init_rbfs junk_c junk_w n alpha_z goal_t start_t overlap in
    Ok {| ft_n := n; ft_goal_t := goal_t; ft_start_t := start_t;
          ft_overlap := overlap; ft_alpha_z := alpha_z;
          ft_weights := fun _ _ => 0;
          ft_centers := centers; ft_widths := widths |}.

(** Assignment of [forcing_term.weights_]. *)
Definition set_ft_weights (w : nat -> nat -> R) (f : forcing_term) :=
  {| ft_n := ft_n f; ft_goal_t := ft_goal_t f; ft_start_t := ft_start_t f;
     ft_overlap := ft_overlap f; ft_alpha_z := ft_alpha_z f;
     ft_weights := w;
     ft_centers := ft_centers f; ft_widths := ft_widths f |}.

(** dmp/_forcing_term.py:75-78: unnormalised radial basis function [i]. *)
Definition rbf (centers widths : vec) (z : R) (i : nat) : R :=
  exp (- widths i * (z - centers i) ^ 2).

(** dmp/_forcing_term.py:75-80 [_activations], one column (one phase value). *)
Definition activations (n : nat) (centers widths : vec) (z : R) : vec :=
  fun i => rbf centers widths z i / rsum n (rbf centers widths z).

(** dmp/_forcing_term.py:86-88 [phase]. *)
Definition ft_phase (f : forcing_term) (t : R) : R :=
  phase t (ft_alpha_z f) (ft_goal_t f) (ft_start_t f).

(** dmp/_forcing_term.py:90-93 [forcing_term], one column. *)
Definition ft_forces (f : forcing_term) (z : R) : vec :=
  fun d => z * rsum (ft_n f) (fun i =>
    ft_weights f d i * activations (ft_n f) (ft_centers f) (ft_widths f) z i).

(** dmp/_forcing_term.py:95-96 [__call__]. *)
Definition ft_call (f : forcing_term) (t : R) : vec :=
  ft_forces f (ft_phase f t).

(** dmp/_forcing_term.py:82-84 [design_matrix]: entry for basis function [i]
    and step [j] of the times [T 0 .. T last]. *)
Definition design_matrix (f : forcing_term) (T : vec) (last : nat)
    (i j : nat) : R :=
  let z := phase (T j) (ft_alpha_z f) (T last) (T 0%nat) in
  z * activations (ft_n f) (ft_centers f) (ft_widths f) z i.
