(** Model of the integration, open-loop and imitation functions of
    dmp/_dmp.py and of their Cython counterparts in dmp_fast.pyx. *)
From Coq Require Import Reals List.
From Verif Require Import M_Prelude M_Canonical M_Forcing.
Import ListNotations.
Open Scope R_scope.

(** A coupling term object without internal state: [coupling(y, yd)] returns
    (additional velocity, additional acceleration). *)
Definition coupling := vec -> vec -> vec * vec.

(** The arguments that dmp_step_rk4 / dmp_step_euler share
    (dmp/_dmp.py:9-13,214-218; dmp_fast.pyx:51-61,201-211) except the times and
    the state.  [a_tracking_error = None] stands for the defaults ([0.0] in
    Python, [None] in Cython). *)
Record dmp_args := {
  a_goal_y : vec; a_goal_yd : vec; a_goal_ydd : vec;
  a_start_y : vec; a_start_yd : vec; a_start_ydd : vec;
  a_goal_t : R; a_start_t : R;
  a_alpha_y : vec; a_beta_y : vec;
  a_forcing_term : forcing_term;
  a_coupling_term : option coupling;
  a_precomputed : option (vec * vec);
  a_int_dt : R;
  a_p_gain : R;
  a_tracking_error : option vec;
  a_smooth_scaling : bool
}.

Definition tracking_error_or_zero (te : option vec) : vec :=
  match te with Some e => e | None => vzero end.

(** dmp/_dmp.py:135-211 [_dmp_acc]. *)
Definition dmp_acc (Y V cdd alpha_y beta_y goal_y start_y : vec)
    (z execution_time : R) (f : vec) (coupling_term : option coupling)
    (tdd : vec) (smooth_scaling : bool) : vec :=
  let cdd := match coupling_term with
             | Some c => snd (c Y V)
             | None => cdd
             end in                                              (* 196-197 *)
  fun d =>
    let smoothing := if smooth_scaling
                     then beta_y d * (goal_y d - start_y d) * z
                     else 0 in                                   (* 198-201 *)
    (alpha_y d * (beta_y d * (goal_y d - Y d)
                  - execution_time * V d
                  - smoothing)
     + f d + cdd d + tdd d) / execution_time ^ 2.                (* 202-211 *)

(** dmp/_dmp.py:85-91: coupling used when no coupling object is given. *)
Definition precomputed_cdd (a : dmp_args) : vec :=
  match a_precomputed a with
  | Some (_, cdd) => cdd
  | None => vzero
  end.
Definition precomputed_cd (a : dmp_args) : vec :=
  match a_precomputed a with
  | Some (cd, _) => cd
  | None => vzero
  end.

(** dmp/_dmp.py:9-132 [dmp_step_rk4]. *)
Definition dmp_step_rk4 (a : dmp_args) (last_t t : R) (s : vec * vec)
    : vec * vec :=
  let '(current_y, current_yd) := s in
  let cdd := precomputed_cdd a in                                (* 85-91 *)
  let execution_time := a_goal_t a - a_start_t a in              (* 98 *)
  let dt := t - last_t in                                        (* 99 *)
  let dt_2 := / 2 * dt in                                        (* 100 *)
  let T0 := t in let T1 := t + dt_2 in let T2 := t + dt in       (* 101 *)
  let Z0 := ft_phase (a_forcing_term a) T0 in                    (* 102 *)
  let Z1 := ft_phase (a_forcing_term a) T1 in
  let Z2 := ft_phase (a_forcing_term a) T2 in
  let F0 := ft_forces (a_forcing_term a) Z0 in                   (* 103 *)
  let F1 := ft_forces (a_forcing_term a) Z1 in
  let F2 := ft_forces (a_forcing_term a) Z2 in
  let te := tracking_error_or_zero (a_tracking_error a) in
  let tdd := fun d => a_p_gain a * te d / dt in                  (* 104 *)
  let acc := fun Y V z f =>
    dmp_acc Y V cdd (a_alpha_y a) (a_beta_y a) (a_goal_y a) (a_start_y a)
            z execution_time f (a_coupling_term a) tdd (a_smooth_scaling a) in
  let C0 := current_yd in                                        (* 106 *)
  let K0 := acc current_y C0 Z0 F0 in                            (* 107-110 *)
  let C1 := vadd current_yd (vscale dt_2 K0) in                  (* 111 *)
  let K1 := acc (vadd current_y (vscale dt_2 C0)) C1 Z1 F1 in    (* 112-115 *)
  let C2 := vadd current_yd (vscale dt_2 K1) in                  (* 116 *)
  let K2 := acc (vadd current_y (vscale dt_2 C1)) C2 Z1 F1 in    (* 117-120 *)
  let C3 := vadd current_yd (vscale dt K2) in                    (* 121 *)
  let K3 := acc (vadd current_y (vscale dt C2)) C3 Z2 F2 in      (* 122-125 *)
  let new_y := fun d => current_y d
      + dt * (current_yd d + dt / 6 * (K0 d + K1 d + K2 d)) in   (* 127 *)
  let new_yd := fun d => current_yd d
      + dt / 6 * (K0 d + 2 * K1 d + 2 * K2 d + K3 d) in          (* 128 *)
  match a_coupling_term a with
  | None => (new_y, new_yd)
  | Some c => (new_y, vadd new_yd
                 (vdivs (fst (c new_y new_yd)) execution_time))  (* 130-132 *)
  end.

(** dmp_fast.pyx:334-364 [_dmp_acc].  The array [cdd] is shared by the four
    calls and overwritten when a coupling term is given; since it is then
    overwritten before every use, passing it by value is faithful. *)
Definition dmp_acc_cython (Y V cdd alpha_y beta_y goal_y start_y : vec)
    (z execution_time : R) (f : vec) (coupling_term : option coupling)
    (tdd : vec) (smooth_scaling : bool) : vec :=
  let cdd := match coupling_term with
             | Some c => snd (c Y V)
             | None => cdd
             end in                                              (* 342-343 *)
  fun d =>
    let smoothing := if smooth_scaling
                     then beta_y d * (goal_y d - start_y d) * z
                     else 0 in                                   (* 350-353 *)
    (alpha_y d * (beta_y d * (goal_y d - Y d)
                  - execution_time * V d
                  - smoothing)
     + f d + cdd d + tdd d) / execution_time ^ 2.                (* 354-363 *)

(** dmp_fast.pyx:201-331 [dmp_step_rk4]. *)
Definition dmp_step_rk4_cython (a : dmp_args) (last_t t : R) (s : vec * vec)
    : vec * vec :=
  let '(current_y, current_yd) := s in
  let cdd := vadd vzero (precomputed_cdd a) in                   (* 285-289 *)
  let execution_time := a_goal_t a - a_start_t a in              (* 292 *)
  let dt := t - last_t in                                        (* 293 *)
  let dt_2 := / 2 * dt in                                        (* 294 *)
  let T0 := t in let T1 := t + dt_2 in let T2 := t + dt in       (* 295 *)
  let Z0 := ft_phase (a_forcing_term a) T0 in                    (* 296 *)
  let Z1 := ft_phase (a_forcing_term a) T1 in
  let Z2 := ft_phase (a_forcing_term a) T2 in
  let F0 := ft_forces (a_forcing_term a) Z0 in                   (* 297 *)
  let F1 := ft_forces (a_forcing_term a) Z1 in
  let F2 := ft_forces (a_forcing_term a) Z2 in
  let tdd := match a_tracking_error a with
             | Some te => vscale (a_p_gain a / dt) te            (* 299-300 *)
             | None => vzero                                     (* 301-302 *)
             end in
  let acc := fun Y V z f =>
    dmp_acc_cython Y V cdd (a_alpha_y a) (a_beta_y a) (a_goal_y a)
      (a_start_y a) z execution_time f (a_coupling_term a) tdd
      (a_smooth_scaling a) in
  let K0 := acc current_y current_yd Z0 F0 in                    (* 304-307 *)
  let C1 := vadd current_yd (vscale dt_2 K0) in                  (* 308 *)
  let K1 := acc (vadd current_y (vscale dt_2 current_yd)) C1 Z1 F1 in (* 309-312 *)
  let C2 := vadd current_yd (vscale dt_2 K1) in                  (* 313 *)
  let K2 := acc (vadd current_y (vscale dt_2 C1)) C2 Z1 F1 in    (* 314-317 *)
  let C3 := vadd current_yd (vscale dt K2) in                    (* 318 *)
  let K3 := acc (vadd current_y (vscale dt C2)) C3 Z2 F2 in      (* 319-322 *)
  let new_y := fun i => current_y i
      + dt * (current_yd i + 2 * C1 i + 2 * C2 i + C3 i) / 6 in  (* 326 *)
  let new_yd := fun i => current_yd i
      + dt * (K0 i + 2 * K1 i + 2 * K2 i + K3 i) / 6 in          (* 327 *)
  match a_coupling_term a with
  | None => (new_y, new_yd)
  | Some c => (new_y, vadd new_yd
                 (vdivs (fst (c new_y new_yd)) execution_time))  (* 329-331 *)
  end.

(** Body of the loop in dmp/_dmp.py:305-325. *)
Definition euler_body (a : dmp_args) (current_t dt : R) (s : vec * vec)
    : vec * vec :=
  let '(current_y, current_yd) := s in
  let execution_time := a_goal_t a - a_start_t a in              (* 296 *)
  let cdd := precomputed_cdd a in                                (* 305-311 *)
  let z := ft_phase (a_forcing_term a) current_t in              (* 312 *)
  let f := ft_forces (a_forcing_term a) z in                     (* 313 *)
  let te := tracking_error_or_zero (a_tracking_error a) in
  let tdd := fun d => a_p_gain a * te d / dt in                  (* 314 *)
  let ydd := dmp_acc current_y current_yd cdd (a_alpha_y a) (a_beta_y a)
               (a_goal_y a) (a_start_y a) z execution_time f
               (a_coupling_term a) tdd (a_smooth_scaling a) in   (* 316-319 *)
  let yd1 := vadd current_yd (vscale dt ydd) in                  (* 320 *)
  let y1 := vadd current_y (vscale dt yd1) in                    (* 321 *)
  match a_coupling_term a with
  | None => (y1, yd1)
  | Some c => (y1, vadd yd1 (vdivs (fst (c y1 yd1)) execution_time)) (* 323-325 *)
  end.

(** dmp/_dmp.py:214-325 [dmp_step_euler].  For [t <= start_t] the function
    returns copies of the start state and leaves [current_y], [current_yd]
    untouched; all callers ignore the return value. *)
Definition dmp_step_euler (a : dmp_args) (last_t t : R) (s : vec * vec)
    : res (vec * vec) :=
  if Rle_dec (a_goal_t a) (a_start_t a) then Err ValueError      (* 290-291 *)
  else if Rle_dec t (a_start_t a) then Ok s                      (* 293-294 *)
  else substeps (substeps_fuel last_t t (a_int_dt a))
         last_t t (a_int_dt a) (euler_body a) s.                 (* 298-325 *)

(** Body of the loop in dmp_fast.pyx:164-194. *)
Definition euler_cython_body (a : dmp_args) (current_t dt : R) (s : vec * vec)
    : vec * vec :=
  let '(current_y, current_yd) := s in
  let execution_time := a_goal_t a - a_start_t a in              (* 140 *)
  let '(cd, cdd) :=
    match a_coupling_term a, a_precomputed a with
    | Some c, _ => c current_y current_yd                        (* 164-165 *)
    | None, Some p => p                                          (* 166-168 *)
    | None, None => (vzero, vzero)                               (* 169-171 *)
    end in
  let cdd := match a_tracking_error a with
             | Some te => fun d => cdd d + a_p_gain a * te d / dt (* 172-173 *)
             | None => cdd
             end in
  let z := ft_phase (a_forcing_term a) current_t in              (* 175 *)
  let f := ft_forces (a_forcing_term a) z in                     (* 176 *)
  let ydd := fun d =>
    let smoothing := if a_smooth_scaling a
                     then a_beta_y a d * (a_goal_y a d - a_start_y a d) * z
                     else 0 in                                   (* 179-182 *)
    (a_alpha_y a d * (a_beta_y a d * (a_goal_y a d - current_y d)
                      - execution_time * current_yd d
                      - smoothing)
     + f d + cdd d) / execution_time ^ 2 in                      (* 184-192 *)
  let yd1 := fun d => current_yd d + (dt * ydd d + cd d / execution_time) in (* 193 *)
  let y1 := fun d => current_y d + dt * yd1 d in                 (* 194 *)
  (y1, yd1).

(** dmp_fast.pyx:51-194 [dmp_step]. *)
Definition dmp_step_euler_cython (a : dmp_args) (last_t t : R) (s : vec * vec)
    : res (vec * vec) :=
  if Rle_dec (a_goal_t a) (a_start_t a) then Err ValueError      (* 133-134 *)
  else
    let s := if Rle_dec t (a_start_t a) then (a_start_y a, a_start_yd a)
             else s in                                           (* 136-138 *)
    substeps (substeps_fuel last_t t (a_int_dt a))
      last_t t (a_int_dt a) (euler_cython_body a) s.             (* 157-194 *)

(** dmp/_dmp.py:328-340 [DMP_STEP_FUNCTIONS]. *)
Inductive step_function := RK4 | Euler | RK4_cython | Euler_cython.
Definition run_step_function (f : step_function) (a : dmp_args)
    (last_t t : R) (s : vec * vec) : res (vec * vec) :=
  match f with
  | RK4 => Ok (dmp_step_rk4 a last_t t s)
  | RK4_cython => Ok (dmp_step_rk4_cython a last_t t s)
  | Euler => dmp_step_euler a last_t t s
  | Euler_cython => dmp_step_euler_cython a last_t t s
  end.

(** dmp/_dmp.py:807-908 [dmp_open_loop] for a step function [step] that
    already holds the remaining arguments; the result pairs the times with
    positions *and* velocities (the code returns only the positions).
    An empty time grid raises IndexError at line 895. *)
Definition open_loop_run (step : R -> R -> vec * vec -> res (vec * vec))
    (start_t run_t dt : R) (start_y start_yd : vec)
    : res (list R * list (vec * vec)) :=
  match arange start_t (run_t + dt) dt with                      (* 893 *)
  | [] => Err IndexError                                         (* 895 *)
  | t0 :: ts =>
      bind (run_steps step t0 ts (start_y, start_yd))            (* 897-906 *)
           (fun l => Ok (t0 :: ts, (start_y, start_yd) :: l))
  end.

(** dmp/_dmp.py:597-607 [dmp_transformation_system]. *)
Definition dmp_transformation_system
    (Y V alpha_y beta_y goal_y goal_yd goal_ydd start_y : vec)
    (z execution_time : R) : vec :=
  fun d =>
    (alpha_y d * (beta_y d * (goal_y d - Y d)
                  + execution_time * (goal_yd d - V d)
                  - beta_y d * (goal_y d - start_y d) * z))
    / execution_time ^ 2 + goal_ydd d.

(** numpy [np.gradient(x)] for [n] samples with unit spacing: central
    differences inside, one-sided differences at the borders.  (numpy raises
    ValueError for fewer than two samples; see [determine_forces].) *)
Definition np_gradient (n : nat) (x : vec) : vec :=
  fun i =>
    if Nat.eqb i 0 then x 1%nat - x 0%nat
    else if Nat.eqb i (n - 1) then x (n - 1)%nat - x (n - 2)%nat
    else (x (i + 1)%nat - x (i - 1)%nat) / 2.

(** Result of [determine_forces]: forces, velocities and accelerations
    estimated from the demonstration, indexed by step and dimension. *)
Record demo_forces := {
  df_F : nat -> vec;
  df_Yd : nat -> vec;
  df_Ydd : nat -> vec
}.

(** dmp/_dmp.py:662-672: velocities and accelerations by finite differences. *)
Definition demo_velocity (n : nat) (T : vec) (Y : nat -> vec)
    (allow_final_velocity : bool) : nat -> vec :=
  let DT := np_gradient n T in                                   (* 663 *)
  fun t d =>
    if (negb allow_final_velocity && Nat.eqb t (n - 1))%bool then 0 (* 667-668 *)
    else np_gradient n (fun k => Y k d) t / DT t.                (* 665-666 *)

Definition demo_acceleration (n : nat) (T : vec) (Yd : nat -> vec)
    : nat -> vec :=
  let DT := np_gradient n T in
  fun t d =>
    if Nat.eqb t (n - 1) then 0                                  (* 672 *)
    else np_gradient n (fun k => Yd k d) t / DT t.               (* 670-671 *)

(** dmp/_dmp.py:610-689 [determine_forces] for [n] steps.  Fewer than two
    steps: np.gradient raises ValueError (line 663). *)
Definition determine_forces (n : nat) (T : vec) (Y : nat -> vec)
    (alpha_y beta_y : vec) (alpha_z : R)
    (allow_final_velocity smooth_scaling : bool) : res demo_forces :=
  if Nat.ltb n 2 then Err ValueError else
  let Yd := demo_velocity n T Y allow_final_velocity in
  let Ydd := demo_acceleration n T Yd in
  let last := (n - 1)%nat in
  let execution_time := T last - T 0%nat in                      (* 674 *)
  let goal_y := Y last in                                        (* 675 *)
  let start_y := Y 0%nat in                                      (* 676 *)
  let Z := fun t => phase (T t) alpha_z (T last) (T 0%nat) in    (* 677 *)
  let F := fun t d =>
    let smoothing := if smooth_scaling
                     then beta_y d * (goal_y d - start_y d) * Z t
                     else 0 in                                   (* 680-683 *)
    execution_time ^ 2 * Ydd t d
    - alpha_y d * (beta_y d * (goal_y d - Y t d)
                   - Yd t d * execution_time
                   - smoothing) in                               (* 684-688 *)
  Ok {| df_F := F; df_Yd := Yd; df_Ydd := Ydd |}.                (* 689 *)
