(** Model of the class DMP (dmp/_dmp.py:343-594) as a state machine. *)
From Coq Require Import Reals List Arith Bool.
From Verif Require Import M_Prelude M_Canonical M_Forcing M_Dmp M_Base.
Import ListNotations.
Open Scope R_scope.

(** Attributes of a DMP object. *)
Record dmp := {
  o_base : ptp;
  o_initialized : bool;            (* dmp/_base.py:19 *)
  o_execution_time : R;            (* _execution_time *)
  o_dt : R;
  o_n_weights_per_dim : nat;
  o_int_dt : R;
  o_p_gain : R;
  o_smooth_scaling : bool;
  o_forcing_term : forcing_term;   (* weights_ has shape (n_dims, ft_n) *)
  o_alpha_y : arr;
  o_beta_y : arr
}.

Definition with_base (p : ptp) (o : dmp) : dmp :=
  Build_dmp p (o_initialized o) (o_execution_time o) (o_dt o) (o_n_weights_per_dim o)
    (o_int_dt o) (o_p_gain o) (o_smooth_scaling o) (o_forcing_term o) (o_alpha_y o) (o_beta_y o).
Definition with_initialized (b : bool) (o : dmp) : dmp :=
  Build_dmp (o_base o) b (o_execution_time o) (o_dt o) (o_n_weights_per_dim o)
    (o_int_dt o) (o_p_gain o) (o_smooth_scaling o) (o_forcing_term o) (o_alpha_y o) (o_beta_y o).
Definition with_execution_time (x : R) (o : dmp) : dmp :=
  Build_dmp (o_base o) (o_initialized o) x (o_dt o) (o_n_weights_per_dim o)
    (o_int_dt o) (o_p_gain o) (o_smooth_scaling o) (o_forcing_term o) (o_alpha_y o) (o_beta_y o).
Definition with_dt (x : R) (o : dmp) : dmp :=
  Build_dmp (o_base o) (o_initialized o) (o_execution_time o) x (o_n_weights_per_dim o)
    (o_int_dt o) (o_p_gain o) (o_smooth_scaling o) (o_forcing_term o) (o_alpha_y o) (o_beta_y o).
Definition with_int_dt (x : R) (o : dmp) : dmp :=
  Build_dmp (o_base o) (o_initialized o) (o_execution_time o) (o_dt o) (o_n_weights_per_dim o)
    x (o_p_gain o) (o_smooth_scaling o) (o_forcing_term o) (o_alpha_y o) (o_beta_y o).
Definition with_forcing_term (f : forcing_term) (o : dmp) : dmp :=
  Build_dmp (o_base o) (o_initialized o) (o_execution_time o) (o_dt o) (o_n_weights_per_dim o)
    (o_int_dt o) (o_p_gain o) (o_smooth_scaling o) f (o_alpha_y o) (o_beta_y o).

(** dmp/_dmp.py:429-433 [_init_forcing_term]; [junk] is the content of the
    arrays allocated with np.empty. *)
Definition init_forcing_term (junk : vec * vec) (n_weights : nat) (execution_time : R)
    : res forcing_term :=
  bind (canonical_system_alpha (1 / 100) execution_time 0) (fun alpha_z =>        (* 430 *)
  forcing_term_init (fst junk) (snd junk) n_weights execution_time 0 (8 / 10) alpha_z). (* 431-433 *)

(** dmp/_dmp.py:413-427 [__init__]. *)
Definition dmp_new (junk : vec * vec) (n_dims : nat) (execution_time dt : R) (n_weights : nat)
    (int_dt p_gain : R) (smooth_scaling : bool) (alpha_y beta_y : ndarray) : res dmp :=
  bind (init_forcing_term junk n_weights execution_time) (fun f =>               (* 424 *)
  bind (ensure_1d_array alpha_y n_dims) (fun alpha_y =>                          (* 426 *)
  bind (ensure_1d_array beta_y n_dims) (fun beta_y =>                            (* 427 *)
  Ok {| o_base := ptp_init n_dims n_dims; o_initialized := false;
        o_execution_time := execution_time; o_dt := dt; o_n_weights_per_dim := n_weights;
        o_int_dt := int_dt; o_p_gain := p_gain; o_smooth_scaling := smooth_scaling;
        o_forcing_term := f; o_alpha_y := alpha_y; o_beta_y := beta_y |}))).

(** Every method returns the object after the call and a result or exception. *)
Definition outcome (A : Type) := (dmp * res A)%type.

(** base.py:77-130 [configure] on a DMP. *)
Definition dmp_configure (c : configure_args) (o : dmp) : outcome unit :=
  let '(p, e) := configure c (o_base o) in
  (with_base p o, match e with Some e => Err e | None => Ok tt end).

(** dmp/_base.py:21-26 [reset]. *)
Definition dmp_reset (o : dmp) : dmp := with_base (ptp_reset (o_base o)) o.

(** dmp/_dmp.py:438-444 [set_execution_time_]: the execution time is assigned
    before the forcing term is rebuilt. *)
Definition dmp_set_execution_time (junk : vec * vec) (x : R) (o : dmp) : outcome unit :=
  let o := with_execution_time x o in                                          (* 439 *)
  let weights := ft_weights (o_forcing_term o) in                              (* 440 *)
  match init_forcing_term junk (o_n_weights_per_dim o) x with                  (* 441 *)
  | Err e => (o, Err e)
  | Ok f => (with_forcing_term (set_ft_weights weights f) o, Ok tt)            (* 442 *)
  end.

(** dmp/_base.py:36-44 [get_weights]; the shape of [weights_] is
    (n_dims, n_weights_per_dim). *)
Definition dmp_get_weights (o : dmp) : arr :=
  ravel (p_n_dims (o_base o)) (ft_n (o_forcing_term o)) (ft_weights (o_forcing_term o)).

(** dmp/_base.py:56-59 [n_weights]. *)
Definition dmp_n_weights (o : dmp) : nat :=
  (p_n_dims (o_base o) * ft_n (o_forcing_term o))%nat.

(** dmp/_base.py:46-54 [set_weights]. *)
Definition dmp_set_weights (w : arr) (o : dmp) : outcome unit :=
  match reshape w (p_n_dims (o_base o)) (ft_n (o_forcing_term o)) with
  | Err e => (o, Err e)
  | Ok w => (with_forcing_term (set_ft_weights w (o_forcing_term o)) o, Ok tt)
  end.

(** Arguments of the step function in dmp/_dmp.py:491-504. *)
Definition step_args (o : dmp) (coupling_term : option coupling) (tracking_error : vec)
    : dmp_args :=
  let p := o_base o in
  {| a_goal_y := aget (p_goal_y p); a_goal_yd := aget (p_goal_yd p);
     a_goal_ydd := aget (p_goal_ydd p);
     a_start_y := aget (p_start_y p); a_start_yd := aget (p_start_yd p);
     a_start_ydd := aget (p_start_ydd p);
     a_goal_t := o_execution_time o; a_start_t := 0;
     a_alpha_y := aget (o_alpha_y o); a_beta_y := aget (o_beta_y o);
     a_forcing_term := o_forcing_term o;
     a_coupling_term := coupling_term; a_precomputed := None;
     a_int_dt := o_int_dt o; a_p_gain := o_p_gain o;
     a_tracking_error := Some tracking_error;
     a_smooth_scaling := o_smooth_scaling o |}.

(** dmp/_dmp.py:446-505 [step].  [step_function = None] stands for an unknown
    name.  An exception of the step function itself (ValueError of the Euler
    variants) is raised before it touches the state arrays, but after the
    clock was advanced. *)
Definition dmp_step (last_y last_yd : arr) (coupling_term : option coupling)
    (step_function : option step_function) (o : dmp) : outcome (arr * arr) :=
  match step_function with
  | None => (o, Err ValueError)                                        (* 469-473 *)
  | Some fn =>
    if negb (Nat.eqb (alen last_y) (p_n_dims (o_base o))) then (o, Err AssertionError)  (* 475 *)
    else if negb (Nat.eqb (alen last_yd) (p_n_dims (o_base o))) then (o, Err AssertionError) (* 476 *)
    else
      let t0 := p_t (o_base o) in
      let t1 := t0 + o_dt o in
      let o := with_base (set_t t1 (set_last_t (Some t0) (o_base o))) o in (* 477-478 *)
      let o := if o_initialized o then o
               else with_initialized true
                      (with_base (set_current (p_start_y (o_base o)) (p_start_yd (o_base o))
                                              (o_base o)) o) in         (* 480-483 *)
      let cy := p_current_y (o_base o) in
      let cyd := p_current_yd (o_base o) in
      let tracking_error := vsub (aget cy) (aget last_y) in            (* 486 *)
      match run_step_function fn (step_args o coupling_term tracking_error) t0 t1
              (aget cy, aget cyd) with                                 (* 488-504 *)
      | Err e => (o, Err e)
      | Ok (y, yd) =>
          let y := {| alen := alen cy; aget := y |} in
          let yd := {| alen := alen cyd; aget := yd |} in
          (with_base (set_current y yd (o_base o)) o, Ok (y, yd))      (* 505 *)
      end
  end.

(** Arguments of the step function in dmp/_dmp.py:807-906 as called from
    dmp/_dmp.py:540-550 (velocities and accelerations default to zero). *)
Definition open_loop_step_args (o : dmp) (coupling_term : option coupling) : dmp_args :=
  let p := o_base o in
  {| a_goal_y := aget (p_goal_y p); a_goal_yd := vzero; a_goal_ydd := vzero;
     a_start_y := aget (p_start_y p); a_start_yd := vzero; a_start_ydd := vzero;
     a_goal_t := o_execution_time o; a_start_t := 0;
     a_alpha_y := aget (o_alpha_y o); a_beta_y := aget (o_beta_y o);
     a_forcing_term := o_forcing_term o;
     a_coupling_term := coupling_term; a_precomputed := None;
     a_int_dt := o_int_dt o; a_p_gain := 0; a_tracking_error := None;
     a_smooth_scaling := o_smooth_scaling o |}.

(** dmp/_dmp.py:507-550 [open_loop] with [dmp_open_loop] (807-908).  The object
    is not modified.  Only positions are returned. *)
Definition dmp_open_loop (run_t : option R) (coupling_term : option coupling)
    (step_function : option step_function) (o : dmp) : res (list R * list vec) :=
  match step_function with
  | None => Err ValueError                                             (* 534-538 *)
  | Some fn =>
      let run_t := match run_t with Some x => x | None => o_execution_time o end in (* 887-888 *)
      bind (open_loop_run (run_step_function fn (open_loop_step_args o coupling_term))
              0 run_t (o_dt o) (aget (p_start_y (o_base o))) vzero)    (* 890-906 *)
           (fun r => Ok (fst r, map fst (snd r)))
  end.

(** A demonstration: [d_n] times and a matrix with [d_rows] rows, [d_dims] columns. *)
Record demo := { d_n : nat; d_T : vec; d_rows : nat; d_dims : nat; d_Y : nat -> vec }.

(** [ridge_regression(X, F, lam)] (dmp/_dmp.py:779-804) as an argument:
    number of features, number of samples, X (features x samples),
    F (samples x outputs), coefficient; result: weights (outputs x features).
    Its own model is M_Ridge.v. *)
Definition regression :=
  nat -> nat -> (nat -> nat -> R) -> (nat -> vec) -> R -> (nat -> nat -> R).

(** dmp/_dmp.py:692-776 [dmp_imitate] (default [determine_forces]) for
    [alpha_y], [beta_y] of length [n_dims].  numpy shape errors: a number of
    rows of Y different from the length of T makes line 666 raise ValueError;
    a number of columns different from [n_dims] makes line 684 raise
    ValueError when [n_dims > 1]; for [n_dims = 1] the gains are broadcast. *)
Definition dmp_imitate (junk : vec * vec) (regress : regression) (n_dims : nat) (dm : demo)
    (n_weights : nat) (lam : R) (alpha_y beta_y : vec) (overlap alpha_z : R)
    (allow_final_velocity smooth_scaling : bool)
    : res ((nat -> nat -> R) * vec * vec) :=
  if Rlt_dec lam 0 then Err ValueError                                 (* 756-757 *)
  else if Nat.eqb (d_n dm) 0 then Err IndexError                       (* 760: T[-1] *)
  else
    let T := d_T dm in
    let last := (d_n dm - 1)%nat in
    bind (forcing_term_init (fst junk) (snd junk) n_weights (T last) (T 0%nat) overlap alpha_z)
      (fun f =>                                                        (* 759-760 *)
    if negb (Nat.eqb (d_rows dm) (d_n dm)) then Err ValueError
    else if (negb (Nat.eqb (d_dims dm) n_dims) && negb (Nat.eqb n_dims 1))%bool
    then Err ValueError
    else
      let b (v : vec) : vec := if Nat.eqb n_dims 1 then (fun _ => v 0%nat) else v in
      bind (determine_forces (d_n dm) T (d_Y dm) (b alpha_y) (b beta_y) alpha_z
              allow_final_velocity smooth_scaling)                     (* 761-767 *)
        (fun df =>
           let X := fun i t => design_matrix f T last i t in       (* 770 *)
           Ok (regress n_weights (d_n dm) X (df_F df) lam,             (* 772 *)
               d_Y dm 0%nat, d_Y dm last))).

(** dmp/_dmp.py:552-594 [imitate].  The weight assignment broadcasts or raises:
    a (d_dims x n) matrix fits into (n_dims x n) exactly when the number of rows
    agrees (or is 1, impossible here unless n_dims = 1). *)
Definition dmp_imitate_method (junk : vec * vec) (regress : regression) (dm : demo) (lam : R)
    (allow_final_velocity : bool) (o : dmp) : outcome unit :=
  let n := p_n_dims (o_base o) in
  match dmp_imitate junk regress n dm (o_n_weights_per_dim o) lam
          (aget (o_alpha_y o)) (aget (o_beta_y o))
          (ft_overlap (o_forcing_term o)) (ft_alpha_z (o_forcing_term o))
          allow_final_velocity (o_smooth_scaling o) with               (* 583-593 *)
  | Err e => (o, Err e)
  | Ok (w, start_y, goal_y) =>
      if negb (Nat.eqb (d_dims dm) n) then (o, Err ValueError)         (* 583 *)
      else
        dmp_configure                                                  (* 594 *)
          {| c_t := None;
             c_start_y := Some {| alen := d_dims dm; aget := start_y |};
             c_start_yd := None; c_start_ydd := None;
             c_goal_y := Some {| alen := d_dims dm; aget := goal_y |};
             c_goal_yd := None; c_goal_ydd := None |}
          (with_forcing_term (set_ft_weights w (o_forcing_term o)) o)
  end.

(** base.py:153-177 [n_steps_open_loop] (any step function and coupling term;
    the method itself uses the default step function and no coupling term). *)
Fixpoint n_steps_open_loop (coupling_term : option coupling) (fn : option step_function)
    (n_steps : nat) (last_y last_yd : arr) (o : dmp) : outcome (arr * arr) :=
  match n_steps with
  | O => (o, Ok (last_y, last_yd))
  | S n =>
      match dmp_step last_y last_yd coupling_term fn o with
      | (o, Err e) => (o, Err e)
      | (o, Ok (y, yd)) => n_steps_open_loop coupling_term fn n y yd o
      end
  end.

(** Calls on a DMP object; [CSetDt] and [CSetIntDt] are the attribute
    assignments [dmp.dt_ = x] and [dmp.int_dt = x]. *)
Inductive call :=
| CConfigure (c : configure_args)
| CReset
| CStep (last_y last_yd : arr) (c : option coupling) (fn : option step_function)
| COpenLoop (run_t : option R) (c : option coupling) (fn : option step_function)
| CImitate (junk : vec * vec) (regress : regression) (dm : demo) (lam : R) (allow : bool)
| CGetWeights
| CSetWeights (w : arr)
| CSetExecutionTime (junk : vec * vec) (x : R)
| CSetDt (x : R)
| CSetIntDt (x : R).

(** Observable results. *)
Inductive obs :=
| ONone
| OState (y yd : arr)
| OTrajectory (ts : list R) (ys : list vec)
| OWeights (w : arr)
| ORaised (e : exn).

Definition obs_of {A} (f : A -> obs) (r : res A) : obs :=
  match r with Ok a => f a | Err e => ORaised e end.

Definition exec (c : call) (o : dmp) : dmp * obs :=
  match c with
  | CConfigure c => let '(o, r) := dmp_configure c o in (o, obs_of (fun _ => ONone) r)
  | CReset => (dmp_reset o, ONone)
  | CStep y yd c fn => let '(o, r) := dmp_step y yd c fn o in
                       (o, obs_of (fun x => OState (fst x) (snd x)) r)
  | COpenLoop rt c fn => (o, obs_of (fun x => OTrajectory (fst x) (snd x))
                                    (dmp_open_loop rt c fn o))
  | CImitate j reg dm lam al => let '(o, r) := dmp_imitate_method j reg dm lam al o in
                                (o, obs_of (fun _ => ONone) r)
  | CGetWeights => (o, OWeights (dmp_get_weights o))
  | CSetWeights w => let '(o, r) := dmp_set_weights w o in (o, obs_of (fun _ => ONone) r)
  | CSetExecutionTime j x => let '(o, r) := dmp_set_execution_time j x o in
                             (o, obs_of (fun _ => ONone) r)
  | CSetDt x => (with_dt x o, ONone)
  | CSetIntDt x => (with_int_dt x o, ONone)
  end.

(** A history: the object and the observations after a list of calls. *)
Fixpoint exec_all (cs : list call) (o : dmp) : dmp * list obs :=
  match cs with
  | [] => (o, [])
  | c :: cs => let '(o, x) := exec c o in
               let '(o, xs) := exec_all cs o in (o, x :: xs)
  end.
