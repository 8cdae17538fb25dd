(** Model of dmp_to_state_space_distribution.py.  The class MVN of the package gmr is not
    modelled: [estimate_dmp_parameter_distribution] returns the rows that are passed to
    [MVN.from_samples] and [propagate_to_state_space] takes the result of [MVN.sigma_points], any
    list of vectors.  [estimate_state_distribution] (lines 144-156), which only calls MVN, and
    the cache file (54-55, 66-67) are in M_StateCache.v.  Printing is not modelled. *)
From Coq Require Import Reals List Arith Bool.
From Verif Require Import M_Prelude M_Canonical M_Forcing M_Dmp M_Base M_DmpObject M_Quaternion M_Cartesian M_Dual.
Import ListNotations.
Open Scope R_scope.

Definition scalar_array (x : R) : ndarray := {| shape := []; data := fun _ => x |}.

(** The call of the constructor in lines 93-95 and 133-135, with the defaults of
    dmp/_dual_cartesian_dmp.py:237-238. *)
Definition ss_dmp (junk : vec * vec) (execution_time dt : R) (n_weights_per_dim : nat) (int_dt : R) : res dmp :=
  dual_new junk execution_time dt n_weights_per_dim int_dt 0 false (scalar_array 25) (scalar_array (25 / 4)).

(** [np.hstack((w, s, g, e))] (line 104). *)
Definition pack_parameters (w s g : arr) (e : R) : arr :=
  {| alen := alen w + alen s + alen g + 1;
     aget := fun k =>
       if Nat.ltb k (alen w) then aget w k
       else if Nat.ltb k (alen w + alen s) then aget s (k - alen w)%nat
       else if Nat.ltb k (alen w + alen s + alen g) then aget g (k - alen w - alen s)%nat
       else e |}.

(** [np.mean(np.diff(T))] (line 89) for at least two time steps. *)
Definition mean_diff (n : nat) (T : vec) : R :=
  rsum (n - 1) (fun k => T (S k) - T k) / INR (n - 1).

(** dmp_to_state_space_distribution.py:87-103, one demonstration: [None] when it is skipped.
    A demonstration with less than two steps (whose mean difference is nan) is not modelled
    and gives ValueError.  [junk] holds the contents of the arrays from np.empty. *)
Definition demonstration_parameters (junk jl jlr jr jrr : vec * vec) (regress : regression)
    (n_weights_per_dim : nat) (int_dt : R) (dm : demo) : res (option (arr * R)) :=
  if Nat.ltb (d_n dm) 2 then Err ValueError else
  let execution_time := d_T dm (d_n dm - 1)%nat in                             (* 88 *)
  let dt := mean_diff (d_n dm) (d_T dm) in                                     (* 89 *)
  if Rlt_dec dt (5 / 1000) then Ok None else                                   (* 90-91 *)
  bind (ss_dmp junk execution_time dt n_weights_per_dim int_dt) (fun o =>      (* 93-95 *)
  match dual_imitate jl jlr jr jrr regress dm 0 false o with                   (* 96 *)
  | (_, Err e) => Err e
  | (o, Ok _) =>
      Ok (Some (pack_parameters (dual_get_weights o)                           (* 97, 99 *)
                  {| alen := d_dims dm; aget := d_Y dm 0%nat |}                (* 100 *)
                  {| alen := d_dims dm; aget := d_Y dm (d_n dm - 1)%nat |}     (* 101 *)
                  execution_time, execution_time))                             (* 102 *)
  end).

Fixpoint dataset_parameters (f : demo -> res (option (arr * R))) (dataset : list demo)
    : res (list (arr * R)) :=
  match dataset with
  | [] => Ok []
  | dm :: dataset =>
      bind (f dm) (fun x => bind (dataset_parameters f dataset) (fun l =>
      Ok (match x with Some x => x :: l | None => l end)))
  end.

(** dmp_to_state_space_distribution.py:73-109 [estimate_dmp_parameter_distribution]: the
    rows of [all_parameters] and the mean execution time.  [np.vstack] of an empty list
    raises ValueError. *)
Definition estimate_dmp_parameter_distribution (junk jl jlr jr jrr : vec * vec) (regress : regression)
    (n_weights_per_dim : nat) (int_dt : R) (dataset : list demo) : res (list arr * R) :=
  bind (dataset_parameters (demonstration_parameters junk jl jlr jr jrr regress n_weights_per_dim int_dt) dataset)
    (fun l =>
  match l with
  | [] => Err ValueError                                                       (* 103-105 *)
  | _ => Ok (map fst l, fold_right Rplus 0 (map snd l) / INR (length l))       (* 107-109 *)
  end).

(** dmp_to_state_space_distribution.py:117-121 and 130-132: [parameters[indices]] raises
    IndexError when an index is out of bounds. *)
Definition unpack_parameters (n_weights_per_dim : nat) (parameters : arr) : res (arr * arr * arr) :=
  let n_weights := (2 * 6 * n_weights_per_dim)%nat in
  let n_dims := (2 * 7)%nat in
  let take off len := if Nat.ltb (alen parameters) (off + len) then Err IndexError
                      else Ok {| alen := len; aget := fun k => aget parameters (off + k)%nat |} in
  bind (take 0%nat n_weights) (fun weights =>
  bind (take n_weights n_dims) (fun start =>
  bind (take (n_weights + n_dims)%nat n_dims) (fun goal =>
  Ok (weights, start, goal)))).

(** [P.ravel()] of an array with [n_cols] columns, given by its rows. *)
Definition ravel_rows (n_cols : nat) (rows : list arr) : arr :=
  {| alen := length rows * n_cols;
     aget := fun k => aget (nth (k / n_cols) rows (zeros n_cols)) (k mod n_cols)%nat |}.

(** dmp_to_state_space_distribution.py:129-139, one sigma point. *)
Definition propagate_point (junk : vec * vec) (i : impl) (n_weights_per_dim : nat)
    (execution_time dt int_dt : R) (parameters : arr) : res arr :=
  bind (unpack_parameters n_weights_per_dim parameters) (fun '(weights, start, goal) => (* 130-132 *)
  bind (ss_dmp junk execution_time dt n_weights_per_dim int_dt) (fun o =>      (* 133-135 *)
  match dmp_configure {| c_t := None; c_start_y := Some start; c_start_yd := None; c_start_ydd := None;
                         c_goal_y := Some goal; c_goal_yd := None; c_goal_ydd := None |} o with (* 136 *)
  | (_, Err e) => Err e
  | (o, Ok _) =>
  match dual_set_weights weights o with                                        (* 137 *)
  | (_, Err e) => Err e
  | (o, Ok _) =>
  match dual_open_loop (CS := unit) (Some execution_time) None (Some i) tt o with (* 138 *)
  | (_, _, Err e) => Err e
  | (_, _, Ok (_, P)) => Ok (ravel_rows 14 P)                                  (* 138-139 *)
  end end end)).

Fixpoint propagate_points (f : arr -> res arr) (points : list arr) : res (list arr) :=
  match points with
  | [] => Ok []
  | p :: points => bind (f p) (fun t => bind (propagate_points f points) (fun l => Ok (t :: l)))
  end.

(** [np.vstack]: at least one row and all rows of the same length. *)
Definition vstack (rows : list arr) : res (list arr) :=
  match rows with
  | [] => Err ValueError
  | r :: l => if forallb (fun x => Nat.eqb (alen x) (alen r)) l then Ok rows else Err ValueError
  end.

(** dmp_to_state_space_distribution.py:112-141 [propagate_to_state_space]. *)
Definition propagate_to_state_space (junk : vec * vec) (i : impl) (points : list arr)
    (n_weights_per_dim : nat) (execution_time dt int_dt : R) : res (list arr) :=
  bind (propagate_points (propagate_point junk i n_weights_per_dim execution_time dt int_dt) points) vstack.
