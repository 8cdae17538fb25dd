(** Model of utils.py, base.py and dmp/_base.py. *)
From Coq Require Import Reals List Arith Bool.
From Verif Require Import M_Prelude.
Import ListNotations.
Open Scope R_scope.

(** A one-dimensional numpy array of floats: length and entries.  Entries at
    indices beyond the length have no meaning in the program. *)
Record arr := { alen : nat; aget : vec }.
Definition zeros (n : nat) : arr := {| alen := n; aget := vzero |}.

(** A numpy array of any dimension: shape and row-major data.  A Python scalar
    has the empty shape. *)
Record ndarray := { shape : list nat; data : vec }.

(** utils.py:4-28 [check_1d_array_length]; [len(var)] is [alen]. *)
Definition check_1d_array_length (var : arr) (expected_length : nat) : option exn :=
  if Nat.eqb (alen var) expected_length then None else Some ValueError.

(** utils.py:31-62 [ensure_1d_array].  The argument is what [np.asarray] makes
    of the value; ragged lists and strings (rejected by numpy itself) are not
    modelled. *)
Definition ensure_1d_array (value : ndarray) (n_dims : nat) : res arr :=
  let shape1 := match shape value with [] => [1%nat] | s => s end in (* 55: np.atleast_1d *)
  let '(shape2, data2) :=
    match shape1 with
    | [1%nat] => ([n_dims], fun _ => data value 0%nat)               (* 56-57: np.repeat *)
    | s => (s, data value)
    end in
  match shape2 with
  | [n] => if Nat.eqb n n_dims then Ok {| alen := n; aget := data2 |}
           else Err ValueError                                       (* 58-61 *)
  | _ => Err ValueError                                              (* 58-61 *)
  end.

(** base.py:9-75 [PointToPointMovement]: attributes. *)
Record ptp := {
  p_n_dims : nat; p_n_vel_dims : nat;
  p_t : R; p_last_t : option R;
  p_start_y : arr; p_start_yd : arr; p_start_ydd : arr;
  p_goal_y : arr; p_goal_yd : arr; p_goal_ydd : arr;
  p_current_y : arr; p_current_yd : arr
}.

(** base.py:59-75 [__init__]. *)
Definition ptp_init (n_pos_dims n_vel_dims : nat) : ptp :=
  {| p_n_dims := n_pos_dims; p_n_vel_dims := n_vel_dims;
     p_t := 0; p_last_t := None;
     p_start_y := zeros n_pos_dims; p_start_yd := zeros n_vel_dims;
     p_start_ydd := zeros n_vel_dims;
     p_goal_y := zeros n_pos_dims; p_goal_yd := zeros n_vel_dims;
     p_goal_ydd := zeros n_vel_dims;
     p_current_y := zeros n_pos_dims; p_current_yd := zeros n_vel_dims |}.

(** Attribute assignments. *)
Definition set_t (x : R) (p : ptp) : ptp :=
  Build_ptp (p_n_dims p) (p_n_vel_dims p) x (p_last_t p) (p_start_y p) (p_start_yd p)
    (p_start_ydd p) (p_goal_y p) (p_goal_yd p) (p_goal_ydd p) (p_current_y p) (p_current_yd p).
Definition set_last_t (x : option R) (p : ptp) : ptp :=
  Build_ptp (p_n_dims p) (p_n_vel_dims p) (p_t p) x (p_start_y p) (p_start_yd p)
    (p_start_ydd p) (p_goal_y p) (p_goal_yd p) (p_goal_ydd p) (p_current_y p) (p_current_yd p).
Definition set_start_y (x : arr) (p : ptp) : ptp :=
  Build_ptp (p_n_dims p) (p_n_vel_dims p) (p_t p) (p_last_t p) x (p_start_yd p)
    (p_start_ydd p) (p_goal_y p) (p_goal_yd p) (p_goal_ydd p) (p_current_y p) (p_current_yd p).
Definition set_start_yd (x : arr) (p : ptp) : ptp :=
  Build_ptp (p_n_dims p) (p_n_vel_dims p) (p_t p) (p_last_t p) (p_start_y p) x
    (p_start_ydd p) (p_goal_y p) (p_goal_yd p) (p_goal_ydd p) (p_current_y p) (p_current_yd p).
Definition set_start_ydd (x : arr) (p : ptp) : ptp :=
  Build_ptp (p_n_dims p) (p_n_vel_dims p) (p_t p) (p_last_t p) (p_start_y p) (p_start_yd p)
    x (p_goal_y p) (p_goal_yd p) (p_goal_ydd p) (p_current_y p) (p_current_yd p).
Definition set_goal_y (x : arr) (p : ptp) : ptp :=
  Build_ptp (p_n_dims p) (p_n_vel_dims p) (p_t p) (p_last_t p) (p_start_y p) (p_start_yd p)
    (p_start_ydd p) x (p_goal_yd p) (p_goal_ydd p) (p_current_y p) (p_current_yd p).
Definition set_goal_yd (x : arr) (p : ptp) : ptp :=
  Build_ptp (p_n_dims p) (p_n_vel_dims p) (p_t p) (p_last_t p) (p_start_y p) (p_start_yd p)
    (p_start_ydd p) (p_goal_y p) x (p_goal_ydd p) (p_current_y p) (p_current_yd p).
Definition set_goal_ydd (x : arr) (p : ptp) : ptp :=
  Build_ptp (p_n_dims p) (p_n_vel_dims p) (p_t p) (p_last_t p) (p_start_y p) (p_start_yd p)
    (p_start_ydd p) (p_goal_y p) (p_goal_yd p) x (p_current_y p) (p_current_yd p).
Definition set_current (y yd : arr) (p : ptp) : ptp :=
  Build_ptp (p_n_dims p) (p_n_vel_dims p) (p_t p) (p_last_t p) (p_start_y p) (p_start_yd p)
    (p_start_ydd p) (p_goal_y p) (p_goal_yd p) (p_goal_ydd p) y yd.

(** Arguments of [configure]; [None] is the default. *)
Record configure_args := {
  c_t : option R;
  c_start_y : option arr; c_start_yd : option arr; c_start_ydd : option arr;
  c_goal_y : option arr; c_goal_yd : option arr; c_goal_ydd : option arr
}.

(** One [if x is not None: check; assign] block of [configure]. *)
Definition configure_block (x : option arr) (expected : nat) (assign : arr -> ptp -> ptp)
    (p : ptp) : ptp * option exn :=
  match x with
  | None => (p, None)
  | Some a => match check_1d_array_length a expected with
              | Some e => (p, Some e)
              | None => (assign a p, None)
              end
  end.

Definition and_then (r : ptp * option exn) (f : ptp -> ptp * option exn) : ptp * option exn :=
  match r with
  | (p, Some e) => (p, Some e)
  | (p, None) => f p
  end.

(** base.py:77-130 [configure].  Returns the (possibly partially) modified
    object and the exception, if any. *)
Definition configure (c : configure_args) (p : ptp) : ptp * option exn :=
  let p := match c_t c with Some t => set_t t p | None => p end in   (* 110-111 *)
  and_then (configure_block (c_start_y c) (p_n_dims p) set_start_y p) (fun p =>       (* 113-115 *)
  and_then (configure_block (c_start_yd c) (p_n_vel_dims p) set_start_yd p) (fun p => (* 116-118 *)
  and_then (configure_block (c_start_ydd c) (p_n_vel_dims p) set_start_ydd p) (fun p => (* 119-121 *)
  and_then (configure_block (c_goal_y c) (p_n_dims p) set_goal_y p) (fun p =>         (* 122-124 *)
  and_then (configure_block (c_goal_yd c) (p_n_vel_dims p) set_goal_yd p) (fun p =>   (* 125-127 *)
  configure_block (c_goal_ydd c) (p_n_vel_dims p) set_goal_ydd p))))).               (* 128-130 *)

(** dmp/_base.py:21-26 [DMPBase.reset].  The flag [initialized] of DMPBase
    (line 19) is not touched. *)
Definition ptp_reset (p : ptp) : ptp :=
  set_current (p_start_y p) (p_start_yd p) (set_last_t None (set_t 0 p)).

(** [weights_.ravel()] (row-major) and [w.reshape(n_rows, n_cols)], which
    raises ValueError when the number of elements differs. *)
Definition ravel (n_rows n_cols : nat) (w : nat -> nat -> R) : arr :=
  {| alen := n_rows * n_cols; aget := fun k => w (k / n_cols)%nat (k mod n_cols)%nat |}.
Definition reshape (w : arr) (n_rows n_cols : nat) : res (nat -> nat -> R) :=
  if Nat.eqb (alen w) (n_rows * n_cols)
  then Ok (fun d i => aget w (d * n_cols + i)%nat)
  else Err ValueError.
