(** Model of dmp_to_state_space_distribution.py:11-71 and 144-155: the propagation of a
    weight distribution to state space with its cache file. *)
From Coq Require Import Reals List Arith Bool.
From Verif Require Import M_Prelude M_Forcing M_Dmp M_Base M_DmpObject M_Quaternion M_Cartesian M_Dual M_StateSpace.
Import ListNotations.
Open Scope R_scope.

(** A two-dimensional array by its rows; [np.loadtxt] drops the dimensions of size 1. *)
Inductive table := Matrix (rows : list arr) | Row (r : arr) | Empty.

(** The class MVN of the library gmr, of which nothing is assumed: [from_samples],
    [sigma_points] and [estimate_from_sigma_points] of an MVN with [n_features] zero means
    and unit covariance. *)
Record gmr (mvn : Type) := {
  from_samples : list arr -> mvn;
  sigma_points : mvn -> R -> R -> list arr;
  estimate_from_sigma_points : nat -> table -> R -> R -> res mvn }.
Arguments from_samples {mvn}. Arguments sigma_points {mvn}. Arguments estimate_from_sigma_points {mvn}.

(** [np.savetxt] with its default format (18 decimals, exact for doubles) writes one line
    per row; [np.loadtxt] reads them. *)
Definition loadtxt (lines : list arr) : table :=
  match lines with
  | [] => Empty
  | [r] => Row r
  | _ => Matrix lines
  end.

(** dmp_to_state_space_distribution.py:144-155 [estimate_state_distribution]. *)
Definition estimate_state_distribution {mvn} (g : gmr mvn) (trajectories : table) (alpha kappa : R)
    (n_weights_per_dim : nat) : res mvn :=
  let n_weights := (2 * 6 * n_weights_per_dim)%nat in
  let n_dims := (2 * 7)%nat in
  let n_features := (n_weights + 2 * n_dims + 1)%nat in                        (* 148-150 *)
  estimate_from_sigma_points g n_features trajectories alpha kappa.            (* 151-155 *)

(** The arguments except for the file name; the contents of np.empty arrays and the
    regression are passed as in M_StateSpace. *)
Record propagation := {
  pr_dataset : list demo; pr_n_weights : nat; pr_alpha : R; pr_kappa : R; pr_dt : R; pr_int_dt : R;
  pr_regress : regression; pr_impl : impl; pr_junk : list (vec * vec) }.

(** dmp_to_state_space_distribution.py:58-65: the trajectories of the sigma points. *)
Definition compute_trajectories {mvn} (g : gmr mvn) (a : propagation) : res (list arr) :=
  let j k := nth k (pr_junk a) (vzero, vzero) in
  bind (estimate_dmp_parameter_distribution (j 0%nat) (j 1%nat) (j 2%nat) (j 3%nat) (j 4%nat) (pr_regress a)
          (pr_n_weights a) (pr_int_dt a) (pr_dataset a)) (fun '(samples, execution_time) =>   (* 58-60 *)
  propagate_to_state_space (j 5%nat) (pr_impl a)
    (sigma_points g (from_samples g samples) (pr_alpha a) (pr_kappa a))
    (pr_n_weights a) execution_time (pr_dt a) (pr_int_dt a)).                                  (* 61-64 *)

(** dmp_to_state_space_distribution.py:11-71
    [propagate_weight_distribution_to_state_space].  [file] is the content of the cache
    file before the call, if it exists.  The result is the file after the call and the
    distribution. *)
Definition propagate {mvn} (g : gmr mvn) (use_cache : bool) (a : propagation) (file : option (list arr))
    : option (list arr) * res mvn :=
  let finish trajectories :=
    estimate_state_distribution g trajectories (pr_alpha a) (pr_kappa a) (pr_n_weights a) in
  match (if use_cache then file else None) with                                (* 55 *)
  | Some lines => (file, finish (loadtxt lines))                               (* 56, 69-71 *)
  | None =>
      match compute_trajectories g a with                                      (* 58-64 *)
      | Err e => (file, Err e)
      | Ok rows => ((if use_cache then Some rows else file),                   (* 66-67 *)
                    finish (Matrix rows))                                      (* 69-71 *)
      end
  end.
(** The file after a call that is interrupted when [lines] lines are on the disk. *)
Definition propagate_interrupted {mvn} (g : gmr mvn) (a : propagation) (file : option (list arr)) (lines : nat)
    : option (list arr) :=
  match file with
  | Some _ => file
  | None => match compute_trajectories g a with
            | Err _ => None
            | Ok rows => Some (firstn lines rows)
            end
  end.
