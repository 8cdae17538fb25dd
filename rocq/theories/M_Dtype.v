(** Model of the element types (numpy dtypes) of the arrays that a DMP, a
    SpringDamper and a SpringDamperOrientation keep.  The other model files treat
    every array as an array of floats; here the arrays given by the user may hold
    Python integers ([np.array([0, 1])] has dtype int64).

    numpy rules used (trusted base, DESIGN.md): [np.copy], [np.zeros_like] and
    [np.empty_like] keep the dtype; arithmetic of integers with floats gives
    floats; storing floats into slices of an integer array ([a[:] = x]) truncates
    towards zero; [a += x] with an integer array [a] and floats [x] raises
    UFuncTypeError, a TypeError.  Cython: an argument declared
    [np.ndarray[double, ndim=1]] raises ValueError for an integer array. *)
From Coq Require Import Reals ZArith List Arith Bool.
From Verif Require Import M_Prelude M_Canonical M_Forcing M_Dmp M_Base M_DmpObject
  M_SpringDamper M_Quaternion M_Cartesian.
Import ListNotations.
Open Scope R_scope.

Inductive dtype := Int64 | Float64.

(** [a[...] = x] for an array [a] of the given dtype. *)
Definition store (d : dtype) (x : R) : R :=
  match d with Float64 => x | Int64 => IZR (Ztrunc x) end.

Definition is_int (d : dtype) : bool := match d with Int64 => true | Float64 => false end.

(** ** Step functions *)

(** dtypes of the array arguments of the step functions. *)
Record arg_types := {
  at_current_y : dtype; at_current_yd : dtype;
  at_goal_y : dtype; at_goal_yd : dtype; at_goal_ydd : dtype;
  at_start_y : dtype; at_start_yd : dtype; at_start_ydd : dtype
}.

(** dmp_fast.pyx:52-55 and 202-205: all these arguments are declared as arrays of
    double ([alpha_y] and [beta_y], 56 and 206, always are, utils.py:55). *)
Definition accepted_by_cython (ty : arg_types) : bool :=
  negb (is_int (at_current_y ty) || is_int (at_current_yd ty)
        || is_int (at_goal_y ty) || is_int (at_goal_yd ty) || is_int (at_goal_ydd ty)
        || is_int (at_start_y ty) || is_int (at_start_yd ty) || is_int (at_start_ydd ty)).

(** The state arrays after the call and the exception, if any. *)
Definition stepped := ((vec * vec) * option exn)%type.

Definition of_res (s : vec * vec) (r : res (vec * vec)) : stepped :=
  match r with Ok s' => (s', None) | Err e => (s, Some e) end.

(** dmp/_dmp.py:9-132 [dmp_step_rk4]: [current_y +=] (127) is executed first, then
    [current_yd +=] (128). *)
Definition rk4_typed (ty : arg_types) (a : dmp_args) (last_t t : R) (s : vec * vec) : stepped :=
  let s' := dmp_step_rk4 a last_t t s in
  if is_int (at_current_y ty) then (s, Some TypeError)               (* 127 *)
  else if is_int (at_current_yd ty) then ((fst s', snd s), Some TypeError) (* 128 *)
  else (s', None).

(** dmp/_dmp.py:312-320: the velocity after the first in-place addition of the loop
    body. *)
Definition euler_first_velocity (a : dmp_args) (current_t dt : R) (s : vec * vec) : vec :=
  let '(current_y, current_yd) := s in
  let execution_time := a_goal_t a - a_start_t a in
  let z := ft_phase (a_forcing_term a) current_t in                  (* 312 *)
  let f := ft_forces (a_forcing_term a) z in                         (* 313 *)
  let te := tracking_error_or_zero (a_tracking_error a) in
  let tdd := fun d => a_p_gain a * te d / dt in                      (* 314 *)
  let ydd := dmp_acc current_y current_yd (precomputed_cdd a) (a_alpha_y a) (a_beta_y a)
               (a_goal_y a) (a_start_y a) z execution_time f
               (a_coupling_term a) tdd (a_smooth_scaling a) in       (* 316-319 *)
  vadd current_yd (vscale dt ydd).                                   (* 320 *)

(** dmp/_dmp.py:214-325 [dmp_step_euler]: [current_yd +=] (320) is executed first,
    then [current_y +=] (321); without a sub-step nothing is added. *)
Definition euler_typed (ty : arg_types) (a : dmp_args) (last_t t : R) (s : vec * vec) : stepped :=
  if (is_int (at_current_y ty) || is_int (at_current_yd ty))%bool then
    if Rle_dec (a_goal_t a) (a_start_t a) then (s, Some ValueError)  (* 290-291 *)
    else if Rle_dec t (a_start_t a) then (s, None)                   (* 293-294 *)
    else if Rlt_dec last_t t then                                    (* 299 *)
      let dt := if Rlt_dec (t - last_t) (a_int_dt a) then t - last_t else a_int_dt a in
      if is_int (at_current_yd ty) then (s, Some TypeError)          (* 320 *)
      else ((fst s, euler_first_velocity a (last_t + dt) dt s), Some TypeError) (* 321 *)
    else (s, None)
  else of_res s (dmp_step_euler a last_t t s).

(** dmp/_dmp.py:328-340 [DMP_STEP_FUNCTIONS]. *)
Definition run_step_function_typed (fn : step_function) (ty : arg_types) (a : dmp_args)
    (last_t t : R) (s : vec * vec) : stepped :=
  match fn with
  | RK4 => rk4_typed ty a last_t t s
  | Euler => euler_typed ty a last_t t s
  | RK4_cython | Euler_cython =>
      if accepted_by_cython ty then of_res s (run_step_function fn a last_t t s)
      else (s, Some ValueError)
  end.

(** ** DMP objects *)

(** dtypes of the attributes of a PointToPointMovement (base.py:59-75). *)
Record dtypes := {
  ty_start_y : dtype; ty_start_yd : dtype; ty_start_ydd : dtype;
  ty_goal_y : dtype; ty_goal_yd : dtype; ty_goal_ydd : dtype;
  ty_current_y : dtype; ty_current_yd : dtype
}.

(** base.py:65-75: np.zeros gives floats. *)
Definition float_types : dtypes :=
  {| ty_start_y := Float64; ty_start_yd := Float64; ty_start_ydd := Float64;
     ty_goal_y := Float64; ty_goal_yd := Float64; ty_goal_ydd := Float64;
     ty_current_y := Float64; ty_current_yd := Float64 |}.

Definition ty_set_start_y x ty := Build_dtypes x (ty_start_yd ty) (ty_start_ydd ty)
  (ty_goal_y ty) (ty_goal_yd ty) (ty_goal_ydd ty) (ty_current_y ty) (ty_current_yd ty).
Definition ty_set_start_yd x ty := Build_dtypes (ty_start_y ty) x (ty_start_ydd ty)
  (ty_goal_y ty) (ty_goal_yd ty) (ty_goal_ydd ty) (ty_current_y ty) (ty_current_yd ty).
Definition ty_set_start_ydd x ty := Build_dtypes (ty_start_y ty) (ty_start_yd ty) x
  (ty_goal_y ty) (ty_goal_yd ty) (ty_goal_ydd ty) (ty_current_y ty) (ty_current_yd ty).
Definition ty_set_goal_y x ty := Build_dtypes (ty_start_y ty) (ty_start_yd ty) (ty_start_ydd ty)
  x (ty_goal_yd ty) (ty_goal_ydd ty) (ty_current_y ty) (ty_current_yd ty).
Definition ty_set_goal_yd x ty := Build_dtypes (ty_start_y ty) (ty_start_yd ty) (ty_start_ydd ty)
  (ty_goal_y ty) x (ty_goal_ydd ty) (ty_current_y ty) (ty_current_yd ty).
Definition ty_set_goal_ydd x ty := Build_dtypes (ty_start_y ty) (ty_start_yd ty) (ty_start_ydd ty)
  (ty_goal_y ty) (ty_goal_yd ty) x (ty_current_y ty) (ty_current_yd ty).
Definition ty_set_current y yd ty := Build_dtypes (ty_start_y ty) (ty_start_yd ty) (ty_start_ydd ty)
  (ty_goal_y ty) (ty_goal_yd ty) (ty_goal_ydd ty) y yd.

(** dtypes of the arguments of [configure]; irrelevant where the argument is None. *)
Record configure_types := {
  ct_start_y : dtype; ct_start_yd : dtype; ct_start_ydd : dtype;
  ct_goal_y : dtype; ct_goal_yd : dtype; ct_goal_ydd : dtype
}.

(** One [if x is not None: check; assign] block of [configure]: the array is stored
    as given. *)
Definition configure_block_typed (x : option arr) (d : dtype) (expected : nat)
    (assign : arr -> ptp -> ptp) (assign_t : dtype -> dtypes -> dtypes) (p : ptp * dtypes)
    : (ptp * dtypes) * option exn :=
  match x with
  | None => (p, None)
  | Some a => match check_1d_array_length a expected with
              | Some e => (p, Some e)
              | None => ((assign a (fst p), assign_t d (snd p)), None)
              end
  end.

Definition and_then_typed (r : (ptp * dtypes) * option exn)
    (f : ptp * dtypes -> (ptp * dtypes) * option exn) : (ptp * dtypes) * option exn :=
  match r with
  | (p, Some e) => (p, Some e)
  | (p, None) => f p
  end.

(** base.py:77-130 [configure]. *)
Definition configure_typed (c : configure_args) (ct : configure_types) (p : ptp * dtypes)
    : (ptp * dtypes) * option exn :=
  let p := (match c_t c with Some t => set_t t (fst p) | None => fst p end, snd p) in (* 110-111 *)
  and_then_typed (configure_block_typed (c_start_y c) (ct_start_y ct) (p_n_dims (fst p))
    set_start_y ty_set_start_y p) (fun p =>                                            (* 113-115 *)
  and_then_typed (configure_block_typed (c_start_yd c) (ct_start_yd ct) (p_n_vel_dims (fst p))
    set_start_yd ty_set_start_yd p) (fun p =>                                          (* 116-118 *)
  and_then_typed (configure_block_typed (c_start_ydd c) (ct_start_ydd ct) (p_n_vel_dims (fst p))
    set_start_ydd ty_set_start_ydd p) (fun p =>                                        (* 119-121 *)
  and_then_typed (configure_block_typed (c_goal_y c) (ct_goal_y ct) (p_n_dims (fst p))
    set_goal_y ty_set_goal_y p) (fun p =>                                              (* 122-124 *)
  and_then_typed (configure_block_typed (c_goal_yd c) (ct_goal_yd ct) (p_n_vel_dims (fst p))
    set_goal_yd ty_set_goal_yd p) (fun p =>                                            (* 125-127 *)
  configure_block_typed (c_goal_ydd c) (ct_goal_ydd ct) (p_n_vel_dims (fst p))
    set_goal_ydd ty_set_goal_ydd p))))).                                               (* 128-130 *)

(** A DMP together with the dtypes of its arrays. *)
Definition tdmp := (dmp * dtypes)%type.

Definition configure_method_typed (c : configure_args) (ct : configure_types) (o : tdmp)
    : tdmp * res unit :=
  let '((p, ty), e) := configure_typed c ct (o_base (fst o), snd o) in
  ((with_base p (fst o), ty), match e with Some e => Err e | None => Ok tt end).

(** dmp/_base.py:21-26 [reset]: copies keep the dtype. *)
Definition reset_typed (o : tdmp) : tdmp :=
  (dmp_reset (fst o), ty_set_current (ty_start_y (snd o)) (ty_start_yd (snd o)) (snd o)).

Definition step_arg_types (ty : dtypes) : arg_types :=
  {| at_current_y := ty_current_y ty; at_current_yd := ty_current_yd ty;
     at_goal_y := ty_goal_y ty; at_goal_yd := ty_goal_yd ty; at_goal_ydd := ty_goal_ydd ty;
     at_start_y := ty_start_y ty; at_start_yd := ty_start_yd ty; at_start_ydd := ty_start_ydd ty |}.

(** dmp/_dmp.py:446-505 [step].  An exception of the step function leaves what was
    already added to the state arrays. *)
Definition step_typed (last_y last_yd : arr) (coupling_term : option coupling)
    (step_function : option step_function) (o : tdmp) : tdmp * res (arr * arr) :=
  let '(o, ty) := o in
  match step_function with
  | None => ((o, ty), Err ValueError)                                  (* 469-473 *)
  | Some fn =>
    if negb (Nat.eqb (alen last_y) (p_n_dims (o_base o))) then ((o, ty), Err AssertionError) (* 475 *)
    else if negb (Nat.eqb (alen last_yd) (p_n_dims (o_base o))) then ((o, ty), Err AssertionError)
    else
      let t0 := p_t (o_base o) in
      let t1 := t0 + o_dt o in
      let was_initialized := o_initialized o in
      let o := with_base (set_t t1 (set_last_t (Some t0) (o_base o))) o in (* 477-478 *)
      let o := if was_initialized then o
               else with_initialized true
                      (with_base (set_current (p_start_y (o_base o)) (p_start_yd (o_base o))
                                              (o_base o)) o) in         (* 480-483 *)
      let ty := if was_initialized then ty
                else ty_set_current (ty_start_y ty) (ty_start_yd ty) ty in
      let cy := p_current_y (o_base o) in
      let cyd := p_current_yd (o_base o) in
      let tracking_error := vsub (aget cy) (aget last_y) in            (* 486 *)
      match run_step_function_typed fn (step_arg_types ty)
              (step_args o coupling_term tracking_error) t0 t1 (aget cy, aget cyd) with (* 488-504 *)
      | ((y, yd), e) =>
          let y := {| alen := alen cy; aget := y |} in
          let yd := {| alen := alen cyd; aget := yd |} in
          ((with_base (set_current y yd (o_base o)) o, ty),
           match e with Some e => Err e | None => Ok (y, yd) end)      (* 505 *)
      end
  end.

(** dmp/_dmp.py:876-892: the velocities and accelerations are zeros_like. *)
Definition open_loop_arg_types (ty : dtypes) : arg_types :=
  {| at_current_y := ty_start_y ty; at_current_yd := ty_start_y ty;
     at_goal_y := ty_goal_y ty; at_goal_yd := ty_goal_y ty; at_goal_ydd := ty_goal_y ty;
     at_start_y := ty_start_y ty; at_start_yd := ty_start_y ty; at_start_ydd := ty_start_y ty |}.

Definition to_res (r : stepped) : res (vec * vec) :=
  match r with (_, Some e) => Err e | (s, None) => Ok s end.

(** dmp/_dmp.py:507-550 [open_loop] with [dmp_open_loop] (807-908). *)
Definition open_loop_typed (run_t : option R) (coupling_term : option coupling)
    (step_function : option step_function) (o : tdmp) : res (list R * list vec) :=
  let '(o, ty) := o in
  match step_function with
  | None => Err ValueError                                             (* 534-538 *)
  | Some fn =>
      let run_t := match run_t with Some x => x | None => o_execution_time o end in (* 887-888 *)
      bind (open_loop_run
              (fun last_t t s => to_res (run_step_function_typed fn (open_loop_arg_types ty)
                                           (open_loop_step_args o coupling_term) last_t t s))
              0 run_t (o_dt o) (aget (p_start_y (o_base o))) vzero)    (* 890-906 *)
           (fun r => Ok (fst r, map fst (snd r)))
  end.

(** ** Imitation *)

(** dmp/_dmp.py:662-672: [Yd] and [Ydd] are np.empty_like(Y). *)
Definition demo_velocity_typed (d : dtype) (n : nat) (T : vec) (Y : nat -> vec)
    (allow_final_velocity : bool) : nat -> vec :=
  fun t k => store d (demo_velocity n T Y allow_final_velocity t k).   (* 664-668 *)
Definition demo_acceleration_typed (d : dtype) (n : nat) (T : vec) (Yd : nat -> vec)
    : nat -> vec :=
  fun t k => store d (demo_acceleration n T Yd t k).                   (* 669-672 *)

(** dmp/_dmp.py:610-689 [determine_forces]. *)
Definition determine_forces_typed (dy : dtype) (n : nat) (T : vec) (Y : nat -> vec)
    (alpha_y beta_y : vec) (alpha_z : R)
    (allow_final_velocity smooth_scaling : bool) : res demo_forces :=
  if Nat.ltb n 2 then Err ValueError else
  let Yd := demo_velocity_typed dy n T Y allow_final_velocity in
  let Ydd := demo_acceleration_typed dy n T Yd in
  let last := (n - 1)%nat in
  let execution_time := T last - T 0%nat in                            (* 674 *)
  let goal_y := Y last in                                              (* 675 *)
  let start_y := Y 0%nat in                                            (* 676 *)
  let Z := fun t => phase (T t) alpha_z (T last) (T 0%nat) in          (* 677 *)
  let F := fun t d =>
    let smoothing := if smooth_scaling
                     then beta_y d * (goal_y d - start_y d) * Z t
                     else 0 in                                         (* 680-683 *)
    execution_time ^ 2 * Ydd t d
    - alpha_y d * (beta_y d * (goal_y d - Y t d)
                   - Yd t d * execution_time
                   - smoothing) in                                     (* 684-688 *)
  Ok {| df_F := F; df_Yd := Yd; df_Ydd := Ydd |}.                      (* 689 *)

(** dmp/_dmp.py:692-776 [dmp_imitate]; see M_DmpObject.v. *)
Definition dmp_imitate_typed (dy : dtype) (junk : vec * vec) (regress : regression) (n_dims : nat)
    (dm : demo) (n_weights : nat) (lam : R) (alpha_y beta_y : vec) (overlap alpha_z : R)
    (allow_final_velocity smooth_scaling : bool)
    : res ((nat -> nat -> R) * vec * vec) :=
  if Rlt_dec lam 0 then Err ValueError                                 (* 756-757 *)
  else if Nat.eqb (d_n dm) 0 then Err IndexError                       (* 760 *)
  else
    let T := d_T dm in
    let last := (d_n dm - 1)%nat in
    bind (forcing_term_init (fst junk) (snd junk) n_weights (T last) (T 0%nat) overlap alpha_z)
      (fun f =>                                                        (* 759-760 *)
    if negb (Nat.eqb (d_rows dm) (d_n dm)) then Err ValueError
    else if (negb (Nat.eqb (d_dims dm) n_dims) && negb (Nat.eqb n_dims 1))%bool
    then Err ValueError
    else
      let b (v : vec) : vec := if Nat.eqb n_dims 1 then (fun _ => v 0%nat) else v in
      bind (determine_forces_typed dy (d_n dm) T (d_Y dm) (b alpha_y) (b beta_y) alpha_z
              allow_final_velocity smooth_scaling)                     (* 761-767 *)
        (fun df =>
           let X := fun i t => design_matrix f T last i t in           (* 770 *)
           Ok (regress n_weights (d_n dm) X (df_F df) lam,             (* 772 *)
               d_Y dm 0%nat, d_Y dm last))).

(** dmp/_dmp.py:552-594 [imitate]: rows of an integer demonstration are integer
    arrays, so that start and goal become integer arrays (594). *)
Definition imitate_typed (dy : dtype) (junk : vec * vec) (regress : regression) (dm : demo) (lam : R)
    (allow_final_velocity : bool) (o : tdmp) : tdmp * res unit :=
  let '(o, ty) := o in
  let n := p_n_dims (o_base o) in
  match dmp_imitate_typed dy junk regress n dm (o_n_weights_per_dim o) lam
          (aget (o_alpha_y o)) (aget (o_beta_y o))
          (ft_overlap (o_forcing_term o)) (ft_alpha_z (o_forcing_term o))
          allow_final_velocity (o_smooth_scaling o) with               (* 583-593 *)
  | Err e => ((o, ty), Err e)
  | Ok (w, start_y, goal_y) =>
      if negb (Nat.eqb (d_dims dm) n) then ((o, ty), Err ValueError)   (* 583 *)
      else
        configure_method_typed                                         (* 594 *)
          {| c_t := None;
             c_start_y := Some {| alen := d_dims dm; aget := start_y |};
             c_start_yd := None; c_start_ydd := None;
             c_goal_y := Some {| alen := d_dims dm; aget := goal_y |};
             c_goal_yd := None; c_goal_ydd := None |}
          {| ct_start_y := dy; ct_start_yd := Float64; ct_start_ydd := Float64;
             ct_goal_y := dy; ct_goal_yd := Float64; ct_goal_ydd := Float64 |}
          (with_forcing_term (set_ft_weights w (o_forcing_term o)) o, ty)
  end.

(** ** Histories *)

(** A call together with the dtypes of the arrays it passes.  The dtypes of the
    arguments of [step] and [set_weights] have no effect: the former are only
    subtracted (486), the latter stored into an array of floats. *)
Inductive tcall :=
| TConfigure (c : configure_args) (ct : configure_types)
| TImitate (dy : dtype) (junk : vec * vec) (regress : regression) (dm : demo) (lam : R) (allow : bool)
| TCall (c : call).

(** The call as the other model files see it. *)
Definition untyped (c : tcall) : call :=
  match c with
  | TConfigure c _ => CConfigure c
  | TImitate _ j reg dm lam al => CImitate j reg dm lam al
  | TCall c => c
  end.

(** [TCall (CConfigure _)] and [TCall (CImitate ..)] are calls with arrays of floats. *)
Definition float_configure : configure_types :=
  {| ct_start_y := Float64; ct_start_yd := Float64; ct_start_ydd := Float64;
     ct_goal_y := Float64; ct_goal_yd := Float64; ct_goal_ydd := Float64 |}.

Definition exec_typed (c : tcall) (o : tdmp) : tdmp * obs :=
  match c with
  | TConfigure c ct => let '(o, r) := configure_method_typed c ct o in (o, obs_of (fun _ => ONone) r)
  | TImitate dy j reg dm lam al => let '(o, r) := imitate_typed dy j reg dm lam al o in
                                   (o, obs_of (fun _ => ONone) r)
  | TCall (CConfigure c) => let '(o, r) := configure_method_typed c float_configure o in
                            (o, obs_of (fun _ => ONone) r)
  | TCall (CImitate j reg dm lam al) => let '(o, r) := imitate_typed Float64 j reg dm lam al o in
                                        (o, obs_of (fun _ => ONone) r)
  | TCall CReset => (reset_typed o, ONone)
  | TCall (CStep y yd c fn) => let '(o, r) := step_typed y yd c fn o in
                               (o, obs_of (fun x => OState (fst x) (snd x)) r)
  | TCall (COpenLoop rt c fn) => (o, obs_of (fun x => OTrajectory (fst x) (snd x))
                                            (open_loop_typed rt c fn o))
  | TCall c => let '(o', x) := exec c (fst o) in ((o', snd o), x)
  end.

Fixpoint exec_all_typed (cs : list tcall) (o : tdmp) : tdmp * list obs :=
  match cs with
  | [] => (o, [])
  | c :: cs => let '(o, x) := exec_typed c o in
               let '(o, xs) := exec_all_typed cs o in (o, x :: xs)
  end.

(** ** Spring-damper systems *)

(** spring_damper.py:283-297 [spring_damper_open_loop] with [spring_damper_step]
    (218-242) for a start of the given dtype: [y] and [yd] (286-287) have its dtype;
    the first sub-step executes [current_yd +=] (241). *)
Definition spring_damper_step_typed (d : dtype) (goal_y : vec) (k : R) (c : option R)
    (coupling_term : option coupling) (int_dt : R) (last_t t : R) (s : vec * vec)
    : res (vec * vec) :=
  if is_int d then
    if Rlt_dec last_t t then Err TypeError else Ok s                   (* 225, 241 *)
  else spring_damper_step goal_y k c coupling_term None int_dt last_t t s.

(** spring_damper.py:89-113 [SpringDamper.open_loop]. *)
Definition sd_open_loop_typed (d : dtype) (run_t : R) (coupling_term : option coupling)
    (o : spring_damper) : res (list R * list vec) :=
  rmap (fun r => (fst r, map fst (snd r)))
    (open_loop_run (spring_damper_step_typed d (aget (p_goal_y (s_base o))) (s_k o) (s_c o)
                      coupling_term (s_int_dt o))
       0 run_t (s_dt o) (aget (p_start_y (s_base o))) vzero).

Definition q_store (d : dtype) (q : quat) : quat :=
  Q4 (store d (qw q)) (store d (qx q)) (store d (qy q)) (store d (qz q)).

(** spring_damper.py:279-280: the new orientation is stored into [current_y]. *)
Definition sdq_body_typed (d : dtype) (goal_y : quat) (k c : R) (coupling_term : option qcoupling)
    (current_t dt : R) (s : quat * v3) : quat * v3 :=
  let s' := sdq_body goal_y k c coupling_term None current_t dt s in
  (q_store d (fst s'), snd s').

(** spring_damper.py:251-280 [spring_damper_step_quaternion]. *)
Definition spring_damper_step_quaternion_typed (d : dtype) (goal_y : quat) (k : R) (c : option R)
    (coupling_term : option qcoupling) (int_dt : R) (last_t t : R) (s : quat * v3)
    : res (quat * v3) :=
  substeps (substeps_fuel last_t t int_dt) last_t t int_dt
    (sdq_body_typed d goal_y k (default_critically_damped_c c k) coupling_term) s.

(** spring_damper.py:191-215 [SpringDamperOrientation.open_loop] with
    [spring_damper_open_loop_quaternion] (300-314): [y] is a copy of the start (303),
    [yd] always an array of floats (304). *)
Definition sdo_open_loop_typed (d : dtype) (run_t : R) (coupling_term : option qcoupling)
    (o : spring_damper) : res (list R * list quat) :=
  rmap (fun r => (fst r, map fst (snd r)))
    (run_on_grid (spring_damper_step_quaternion_typed d (quat_of (aget (p_goal_y (s_base o))))
                    (s_k o) (s_c o) coupling_term (s_int_dt o))
       0 run_t (s_dt o) (quat_of (aget (p_start_y (s_base o))), v3_zero)).
