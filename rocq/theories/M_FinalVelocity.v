(** Model of dmp/_dmp_with_final_velocity.py. *)
From Coq Require Import Reals List Arith Bool.
From Verif Require Import M_Prelude M_Canonical M_Forcing M_Dmp M_Base M_DmpObject M_Linalg.
Import ListNotations.
Open Scope R_scope.

(** dmp/_dmp_with_final_velocity.py:217-231: the matrix [M]. *)
Definition constraint_row (k : nat) (t : R) (j : nat) : R :=
  match k, j with
  | 0%nat, 0%nat => 1 | 0%nat, 1%nat => t | 0%nat, 2%nat => t * t | 0%nat, 3%nat => t * t * t
  | 0%nat, 4%nat => t * t * t * t | 0%nat, 5%nat => t * t * t * t * t
  | 1%nat, 0%nat => 0 | 1%nat, 1%nat => 1 | 1%nat, 2%nat => 2 * t | 1%nat, 3%nat => 3 * (t * t)
  | 1%nat, 4%nat => 4 * (t * t * t) | 1%nat, 5%nat => 5 * (t * t * t * t)
  | 2%nat, 0%nat => 0 | 2%nat, 1%nat => 0 | 2%nat, 2%nat => 2 | 2%nat, 3%nat => 6 * t
  | 2%nat, 4%nat => 12 * (t * t) | 2%nat, 5%nat => 20 * (t * t * t)
  | _, _ => 0
  end.
Definition constraint_matrix (t0 t1 : R) (i j : nat) : R :=
  match i with
  | 0%nat => constraint_row 0 t0 j
  | 1%nat => constraint_row 1 t0 j
  | 2%nat => constraint_row 2 t0 j
  | 3%nat => constraint_row 0 t1 j
  | 4%nat => constraint_row 1 t1 j
  | 5%nat => constraint_row 2 t1 j
  | _ => 0
  end.

(** dmp/_dmp_with_final_velocity.py:216-236 [solve_constraints]. *)
Definition solve_constraints (t0 t1 : R) (y0 y0d y0dd y1 y1d y1dd : vec) : res (nat -> vec) :=
  np_linalg_solve 6 (constraint_matrix t0 t1)
    (fun i => match i with
              | 0%nat => y0 | 1%nat => y0d | 2%nat => y0dd
              | 3%nat => y1 | 4%nat => y1d | 5%nat => y1dd
              | _ => vzero
              end).                                              (* 232-236 *)

(** [np.finfo(float).eps], 2^-52. *)
Definition float_eps : R := / 4503599627370496.

(** dmp/_dmp_with_final_velocity.py:239-258 [apply_constraints]. *)
Definition apply_constraints (t : R) (goal_y : vec) (goal_t : R) (coefficients : nat -> vec)
    : vec * vec * vec :=
  if Rlt_dec (goal_t + float_eps) t then (goal_y, vzero, vzero)        (* 240-245 *)
  else
    (fun d => rsum 6 (fun j => constraint_row 0 t j * coefficients j d), (* 251,255 *)
     fun d => rsum 6 (fun j => constraint_row 1 t j * coefficients j d), (* 252,256 *)
     fun d => rsum 6 (fun j => constraint_row 2 t j * coefficients j d)). (* 253,257 *)

(** dmp/_dmp_with_final_velocity.py:450-457: acceleration. *)
Definition fv_acc (Y V alpha_y beta_y : vec) (g gd gdd : vec) (execution_time : R)
    (f coupling_sum : vec) : vec :=
  fun d =>
    (alpha_y d * (beta_y d * (g d - Y d) + execution_time * (gd d - V d))
     + f d + coupling_sum d) / execution_time ^ 2 + gdd d.

(** Body of the loop in dmp/_dmp_with_final_velocity.py:436-459.  The [+=] on
    the arrays returned by a coupling object is modelled without the possible
    side effect on that object. *)
Definition fv_body (a : dmp_args) (coefficients : nat -> vec) (current_t dt : R)
    (s : vec * vec) : vec * vec :=
  let '(current_y, current_yd) := s in
  let execution_time := a_goal_t a - a_start_t a in                  (* 423 *)
  let '(cd, cdd) := match a_coupling_term a with
                    | Some c => c current_y current_yd               (* 436-437 *)
                    | None => (vzero, vzero)                         (* 438-439 *)
                    end in
  let '(cd, cdd) := match a_precomputed a with
                    | Some (pd, pdd) => (vadd cd pd, vadd cdd pdd)   (* 440-442 *)
                    | None => (cd, cdd)
                    end in
  let z := ft_phase (a_forcing_term a) current_t in                  (* 444 *)
  let f := ft_forces (a_forcing_term a) z in                         (* 445 *)
  let '(g, gd, gdd) := apply_constraints current_t (a_goal_y a) (a_goal_t a) coefficients in (* 447 *)
  let te := tracking_error_or_zero (a_tracking_error a) in
  let coupling_sum := fun d => cdd d + a_p_gain a * te d / dt in     (* 449 *)
  let ydd := fv_acc current_y current_yd (a_alpha_y a) (a_beta_y a) g gd gdd
               execution_time f coupling_sum in                      (* 450-457 *)
  let yd1 := fun d => current_yd d + (dt * ydd d + cd d / execution_time) in (* 458 *)
  let y1 := fun d => current_y d + dt * yd1 d in                     (* 459 *)
  (y1, yd1).

(** dmp/_dmp_with_final_velocity.py:342-459 [dmp_step_euler_with_constraints].
    For [t <= start_t] the state arrays are left untouched and all callers
    ignore the returned copies. *)
Definition dmp_step_euler_with_constraints (a : dmp_args) (last_t t : R) (s : vec * vec)
    : res (vec * vec) :=
  if Rle_dec (a_goal_t a) (a_start_t a) then Err ValueError          (* 417-418 *)
  else if Rle_dec t (a_start_t a) then Ok s                          (* 420-421 *)
  else
    bind (solve_constraints (a_start_t a) (a_goal_t a) (a_start_y a) (a_start_yd a)
            (a_start_ydd a) (a_goal_y a) (a_goal_yd a) (a_goal_ydd a))  (* 425-427 *)
      (fun coefficients =>
         substeps (substeps_fuel last_t t (a_int_dt a)) last_t t (a_int_dt a)
           (fv_body a coefficients) s).                              (* 429-459 *)

(** dmp/_dmp_with_final_velocity.py:261-339 [determine_forces] for [n] steps.
    Result: forces, velocities, accelerations.  [n = 0]: IndexError in line 319.
    [T[0] = T[-1]] (in particular [n = 1]): LinAlgError in line 328. *)
Definition fv_demo_velocity (T : vec) (Y : nat -> vec) : nat -> vec :=
  fun t d => match t with
             | O => 0                                                (* 319, 324 *)
             | S k => (Y (S k) d - Y k d) / (T (S k) - T k)          (* 316, 321, 326 *)
             end.
Definition fv_determine_forces (n : nat) (T : vec) (Y : nat -> vec) (alpha_y beta_y : vec)
    (allow_final_velocity : bool) : res demo_forces :=
  if negb allow_final_velocity then Err AssertionError               (* 313 *)
  else if Nat.eqb n 0 then Err IndexError                            (* 319 *)
  else
    let last := (n - 1)%nat in
    let Yd := fv_demo_velocity T Y in                                (* 318-321 *)
    let Ydd := fv_demo_velocity T Yd in                              (* 323-326 *)
    bind (solve_constraints (T 0%nat) (T last) (Y 0%nat) (Yd 0%nat) (Ydd 0%nat)
            (Y last) (Yd last) (Ydd last))                           (* 328-329 *)
      (fun coefficients =>
         let execution_time := T last - T 0%nat in                   (* 331 *)
         Ok {| df_F := fun t d =>
                 let '(g, gd, gdd) := apply_constraints (T t) (Y last) (T last) coefficients in
                 execution_time ^ 2 * Ydd t d
                 - alpha_y d * (beta_y d * (g d - Y t d) + execution_time * (gd d - Yd t d))
                 - execution_time ^ 2 * gdd d;                       (* 334-338 *)
               df_Yd := Yd; df_Ydd := Ydd |}).                       (* 339 *)

(** ** The class DMPWithFinalVelocity.  Its attributes are those of DMP with
    [smooth_scaling = False]; construction and [execution_time_] are textually
    the same as in dmp/_dmp.py (lines 61-92). *)
Definition fv_new (junk : vec * vec) (n_dims : nat) (execution_time dt : R) (n_weights : nat)
    (int_dt p_gain : R) (alpha_y beta_y : ndarray) : res dmp :=
  dmp_new junk n_dims execution_time dt n_weights int_dt p_gain false alpha_y beta_y.

(** dmp/_dmp_with_final_velocity.py:94-140 [step].  The arguments are assumed to
    have [n_dims] entries (there is no check; numpy would broadcast or raise). *)
Definition fv_step (last_y last_yd : arr) (coupling_term : option coupling) (o : dmp)
    : outcome (arr * arr) :=
  let t0 := p_t (o_base o) in
  let t1 := t0 + o_dt o in
  let o := with_base (set_t t1 (set_last_t (Some t0) (o_base o))) o in  (* 116-117 *)
  let o := if o_initialized o then o
           else with_initialized true
                  (with_base (set_current (p_start_y (o_base o)) (p_start_yd (o_base o))
                                          (o_base o)) o) in             (* 119-122 *)
  let cy := p_current_y (o_base o) in
  let cyd := p_current_yd (o_base o) in
  let tracking_error := vsub (aget cy) (aget last_y) in                 (* 125 *)
  match dmp_step_euler_with_constraints (step_args o coupling_term tracking_error) t0 t1
          (aget cy, aget cyd) with                                      (* 127-139 *)
  | Err e => (o, Err e)
  | Ok (y, yd) =>
      let y := {| alen := alen cy; aget := y |} in
      let yd := {| alen := alen cyd; aget := yd |} in
      (with_base (set_current y yd (o_base o)) o, Ok (y, yd))           (* 140 *)
  end.

(** Arguments of dmp/_dmp.py:807-906 as called from
    dmp/_dmp_with_final_velocity.py:161-171. *)
Definition fv_open_loop_step_args (o : dmp) (coupling_term : option coupling) : dmp_args :=
  let p := o_base o in
  {| a_goal_y := aget (p_goal_y p); a_goal_yd := aget (p_goal_yd p);
     a_goal_ydd := aget (p_goal_ydd p);
     a_start_y := aget (p_start_y p); a_start_yd := aget (p_start_yd p);
     a_start_ydd := aget (p_start_ydd p);
     a_goal_t := o_execution_time o; a_start_t := 0;
     a_alpha_y := aget (o_alpha_y o); a_beta_y := aget (o_beta_y o);
     a_forcing_term := o_forcing_term o;
     a_coupling_term := coupling_term; a_precomputed := None;
     a_int_dt := o_int_dt o; a_p_gain := 0; a_tracking_error := None;
     a_smooth_scaling := o_smooth_scaling o |}.

(** dmp/_dmp_with_final_velocity.py:142-171 [open_loop]. *)
Definition fv_open_loop (run_t : option R) (coupling_term : option coupling) (o : dmp)
    : res (list R * list vec) :=
  let run_t := match run_t with Some x => x | None => o_execution_time o end in
  bind (open_loop_run (dmp_step_euler_with_constraints (fv_open_loop_step_args o coupling_term))
          0 run_t (o_dt o) (aget (p_start_y (o_base o))) (aget (p_start_yd (o_base o))))
       (fun r => Ok (fst r, map fst (snd r))).

(** base.py:153-177 [n_steps_open_loop] on a DMPWithFinalVelocity. *)
Fixpoint fv_n_steps (coupling_term : option coupling) (n_steps : nat) (last_y last_yd : arr)
    (o : dmp) : outcome (arr * arr) :=
  match n_steps with
  | O => (o, Ok (last_y, last_yd))
  | S n =>
      match fv_step last_y last_yd coupling_term o with
      | (o, Err e) => (o, Err e)
      | (o, Ok (y, yd)) => fv_n_steps coupling_term n y yd o
      end
  end.

(** dmp/_dmp.py:692-776 [dmp_imitate] as called from
    dmp/_dmp_with_final_velocity.py:200-208, with the [determine_forces] above,
    [allow_final_velocity = True] and [smooth_scaling] left at False.  Result:
    weights, and position, velocity and acceleration at the start and at the end.
    numpy shape errors: a number of rows of Y different from the length of T makes
    line 321 raise ValueError (IndexError in line 319 for no rows); not modelled
    is the case of two times and another number of rows, where numpy broadcasts.
    Numbers of columns as in [M_DmpObject.dmp_imitate]. *)
Definition fv_dmp_imitate (junk : vec * vec) (regress : regression) (n_dims : nat) (dm : demo)
    (n_weights : nat) (lam : R) (alpha_y beta_y : vec) (overlap alpha_z : R)
    : res ((nat -> nat -> R) * (vec * vec * vec) * (vec * vec * vec)) :=
  if Rlt_dec lam 0 then Err ValueError                                 (* _dmp.py:756-757 *)
  else if Nat.eqb (d_n dm) 0 then Err IndexError                       (* _dmp.py:760: T[-1] *)
  else
    let T := d_T dm in
    let last := (d_n dm - 1)%nat in
    bind (forcing_term_init (fst junk) (snd junk) n_weights (T last) (T 0%nat) overlap alpha_z)
      (fun f =>                                                        (* _dmp.py:759-760 *)
    if Nat.eqb (d_rows dm) 0 then Err IndexError
    else if negb (Nat.eqb (d_rows dm) (d_n dm)) then Err ValueError
    else if (negb (Nat.eqb (d_dims dm) n_dims) && negb (Nat.eqb n_dims 1))%bool
    then Err ValueError
    else
      let b (v : vec) : vec := if Nat.eqb n_dims 1 then (fun _ => v 0%nat) else v in
      bind (fv_determine_forces (d_n dm) T (d_Y dm) (b alpha_y) (b beta_y) true) (* _dmp.py:761-767 *)
        (fun df =>
           let X := fun i t => design_matrix f T last i t in           (* _dmp.py:770 *)
           Ok (regress n_weights (d_n dm) X (df_F df) lam,             (* _dmp.py:772 *)
               (d_Y dm 0%nat, df_Yd df 0%nat, df_Ydd df 0%nat),        (* 339 *)
               (d_Y dm last, df_Yd df last, df_Ydd df last)))).

(** dmp/_dmp_with_final_velocity.py:173-213 [imitate]. *)
Definition fv_imitate (junk : vec * vec) (regress : regression) (dm : demo) (lam : R) (o : dmp)
    : outcome unit :=
  let n := p_n_dims (o_base o) in
  match fv_dmp_imitate junk regress n dm (o_n_weights_per_dim o) lam
          (aget (o_alpha_y o)) (aget (o_beta_y o))
          (ft_overlap (o_forcing_term o)) (ft_alpha_z (o_forcing_term o)) with   (* 200-209 *)
  | Err e => (o, Err e)
  | Ok (w, (start_y, start_yd, start_ydd), (goal_y, goal_yd, goal_ydd)) =>
      if negb (Nat.eqb (d_dims dm) n) then (o, Err ValueError)         (* 200 *)
      else
        let row (v : vec) := Some {| alen := d_dims dm; aget := v |} in
        dmp_configure                                                  (* 210-212 *)
          {| c_t := None;
             c_start_y := row start_y; c_start_yd := row start_yd; c_start_ydd := row start_ydd;
             c_goal_y := row goal_y; c_goal_yd := row goal_yd; c_goal_ydd := row goal_ydd |}
          (with_forcing_term (set_ft_weights w (o_forcing_term o)) o)
  end.

(** Calls on a DMPWithFinalVelocity.  [configure], [reset], [get_weights],
    [set_weights] and the attributes [execution_time_], [dt_], [int_dt] are those
    of DMP: base.py, dmp/_base.py and lines 82-92. *)
Inductive fv_call :=
| FConfigure (c : configure_args)
| FReset
| FStep (last_y last_yd : arr) (c : option coupling)
| FOpenLoop (run_t : option R) (c : option coupling)
| FImitate (junk : vec * vec) (regress : regression) (dm : demo) (lam : R)
| FGetWeights
| FSetWeights (w : arr)
| FSetExecutionTime (junk : vec * vec) (x : R)
| FSetDt (x : R)
| FSetIntDt (x : R).

Definition fv_exec (c : fv_call) (o : dmp) : dmp * obs :=
  match c with
  | FConfigure c => exec (CConfigure c) o
  | FReset => exec CReset o
  | FStep y yd c => let '(o, r) := fv_step y yd c o in
                    (o, obs_of (fun x => OState (fst x) (snd x)) r)
  | FOpenLoop rt c => (o, obs_of (fun x => OTrajectory (fst x) (snd x)) (fv_open_loop rt c o))
  | FImitate j reg dm lam => let '(o, r) := fv_imitate j reg dm lam o in
                             (o, obs_of (fun _ => ONone) r)
  | FGetWeights => exec CGetWeights o
  | FSetWeights w => exec (CSetWeights w) o
  | FSetExecutionTime j x => exec (CSetExecutionTime j x) o
  | FSetDt x => exec (CSetDt x) o
  | FSetIntDt x => exec (CSetIntDt x) o
  end.

Fixpoint fv_exec_all (cs : list fv_call) (o : dmp) : dmp * list obs :=
  match cs with
  | [] => (o, [])
  | c :: cs => let '(o, x) := fv_exec c o in
               let '(o, xs) := fv_exec_all cs o in (o, x :: xs)
  end.
