(** Model of data/_minimum_jerk.py and minimum_jerk_trajectory.py. *)
From Coq Require Import Reals ZArith List Arith.
From Verif Require Import M_Prelude M_Base.
Import ListNotations.
Open Scope R_scope.

(** Position, velocity and acceleration of one sample. *)
Definition sample := (vec * vec * vec)%type.

(** data/_minimum_jerk.py:74-98, the branch [tau >= dt] of the loop body.  The
    constants [a1 = v1 = 0] (76, 78) are kept. *)
Definition min_jerk_update (g : vec) (tau dt : R) (s : sample) : sample :=
  let '(x, xd, xdd) := s in
  let a1 := 0 in let v1 := 0 in
  let dist := fun d => g d - x d in                                  (* 74 *)
  let a0 := fun d => xdd d * tau ^ 2 in                              (* 77 *)
  let v0 := fun d => xd d * tau in                                   (* 79 *)
  let t1 := dt in let t2 := dt ^ 2 in let t3 := dt ^ 3 in            (* 81-83 *)
  let t4 := dt ^ 4 in let t5 := dt ^ 5 in                            (* 84-85 *)
  let c1 := fun d => (6 * dist d + (a1 - a0 d) / 2 - 3 * (v0 d + v1)) / tau ^ 5 in (* 87 *)
  let c2 := fun d => (- 15 * dist d + (3 * a0 d - 2 * a1) / 2 + 8 * v0 d + 7 * v1)
                     / tau ^ 4 in                                    (* 88-89 *)
  let c3 := fun d => (10 * dist d + (a1 - 3 * a0 d) / 2 - 6 * v0 d - 4 * v1)
                     / tau ^ 3 in                                    (* 90-91 *)
  let c4 := fun d => xdd d / 2 in                                    (* 92 *)
  let c5 := xd in let c6 := x in                                     (* 93-94 *)
  (fun d => c1 d * t5 + c2 d * t4 + c3 d * t3 + c4 d * t2 + c5 d * t1 + c6 d,   (* 96 *)
   fun d => 5 * c1 d * t4 + 4 * c2 d * t3 + 3 * c3 d * t2 + 2 * c4 d * t1 + c5 d, (* 97 *)
   fun d => 20 * c1 d * t3 + 12 * c2 d * t2 + 6 * c3 d * t1 + 2 * c4 d).        (* 98 *)

(** data/_minimum_jerk.py:70-102: iterations [t, t+1, ..., t+n-1] of the loop;
    the recorded samples. *)
Fixpoint min_jerk_loop (g : vec) (execution_time dt : R) (t n : nat) (s : sample)
    : list sample :=
  match n with
  | O => []
  | S n' =>
      let tau := execution_time - INR t * dt in                      (* 71 *)
      let s := if Rle_dec dt tau then min_jerk_update g tau dt s else s in (* 73-98 *)
      s :: min_jerk_loop g execution_time dt (S t) n' s              (* 100-102 *)
  end.

(** data/_minimum_jerk.py:4-104 [generate_minimum_jerk].  The arguments are
    one-dimensional arrays.  [np.zeros] rejects a negative number of rows,
    [X[0] = x] fails for zero rows. *)
Definition generate_minimum_jerk (start goal : arr) (execution_time dt : R)
    : res (list sample) :=
  if negb (Nat.eqb (alen start) (alen goal)) then Err ValueError     (* 54-56 *)
  else if Req_EM_T dt 0 then Err ZeroDivisionError                   (* 59 *)
  else
    let n_steps := (1 + Ztrunc (execution_time / dt))%Z in           (* 59 *)
    if Z_lt_dec n_steps 0 then Err ValueError                        (* 61 *)
    else if Z_lt_dec n_steps 1 then Err IndexError                   (* 69 *)
    else
      let s0 := (aget start, vzero, vzero) in                        (* 65-69 *)
      Ok (s0 :: min_jerk_loop (aget goal) execution_time dt 1
                  (Z.to_nat n_steps - 1) s0).

(** minimum_jerk_trajectory.py:7-63 [MinimumJerkTrajectory]: attributes.  [X] and
    [Xd] are the columns of one list of samples. *)
Record mjt := {
  j_base : ptp;
  j_X : option (list sample);
  j_execution_time : R;
  j_dt : R;
  j_step_idx : nat;
  j_initialized : bool
}.

(** minimum_jerk_trajectory.py:21-28 [__init__]. *)
Definition mjt_new (n_dims : nat) (execution_time dt : R) : mjt :=
  {| j_base := ptp_init n_dims n_dims; j_X := None; j_execution_time := execution_time;
     j_dt := dt; j_step_idx := 0; j_initialized := false |}.

(** minimum_jerk_trajectory.py:30-33 [reset]. *)
Definition mjt_reset (o : mjt) : mjt :=
  {| j_base := j_base o; j_X := j_X o; j_execution_time := j_execution_time o;
     j_dt := j_dt o; j_step_idx := 0; j_initialized := false |}.

(** base.py:77-130 [configure]. *)
Definition mjt_configure (c : configure_args) (o : mjt) : mjt * res unit :=
  let '(p, e) := configure c (j_base o) in
  ({| j_base := p; j_X := j_X o; j_execution_time := j_execution_time o;
      j_dt := j_dt o; j_step_idx := j_step_idx o; j_initialized := j_initialized o |},
   match e with Some e => Err e | None => Ok tt end).

(** minimum_jerk_trajectory.py:35-63 [step].  [last_y] and [last_yd] are not
    read.  [current_y] and [current_yd] are views of row [step_idx]; the returned
    arrays are copies. *)
Definition mjt_step (last_y last_yd : arr) (o : mjt) : mjt * res (arr * arr) :=
  let init :=
    if j_initialized o then Ok o
    else bind (generate_minimum_jerk (p_start_y (j_base o)) (p_goal_y (j_base o))
                 (j_execution_time o) (j_dt o)) (fun X =>
         Ok {| j_base := j_base o; j_X := Some X; j_execution_time := j_execution_time o;
               j_dt := j_dt o; j_step_idx := j_step_idx o; j_initialized := true |}) in (* 54-57 *)
  match init with
  | Err e => (o, Err e)
  | Ok o =>
      match j_X o with
      | None => (o, Err TypeError)
      | Some X =>
          match nth_error X (j_step_idx o) with                      (* 59-60 *)
          | None => (o, Err IndexError)
          | Some (x, xd, _) =>
              let n := p_n_dims (j_base o) in
              let y := {| alen := n; aget := x |} in
              let yd := {| alen := n; aget := xd |} in
              ({| j_base := set_current y yd (j_base o); j_X := j_X o;
                  j_execution_time := j_execution_time o; j_dt := j_dt o;
                  j_step_idx := S (j_step_idx o); j_initialized := j_initialized o |}, (* 61 *)
               Ok (y, yd))                                           (* 63 *)
          end
      end
  end.
