(** Model of dmp/_cartesian_dmp.py, of the quaternion step in dmp_fast.pyx and of
    the quaternion part of spring_damper.py. *)
From Coq Require Import Reals List Arith Bool.
From Verif Require Import M_Prelude M_Canonical M_Forcing M_Dmp M_Base M_DmpObject
  M_SpringDamper M_Quaternion.
Import ListNotations.
Open Scope R_scope.

(** ** Quaternion step functions *)

(** A coupling term called with an orientation and an angular velocity. *)
Definition qcoupling := quat -> v3 -> v3 * v3.

(** Arguments of dmp_step_quaternion_python / dmp_step_quaternion that they read
    (goal_yd, goal_ydd and start_ydd are never used). *)
Record qargs := {
  g_goal_y : quat; g_start_y : quat; g_start_yd : v3;
  g_goal_t : R; g_start_t : R;
  g_alpha_y : v3; g_beta_y : v3;
  g_forcing_term : forcing_term;
  g_coupling_term : option qcoupling;
  g_precomputed : option (v3 * v3);
  g_int_dt : R;
  g_smooth_scaling : bool
}.

(** Coupling: in Python (_cartesian_dmp.py:108-114) the precomputed term is added
    to the coupling term; in Cython (dmp_fast.pyx:479-483) it is only used when
    there is no coupling term. *)
Definition q_coupling (i : impl) (a : qargs) (y : quat) (yd : v3) : v3 * v3 :=
  match i with
  | Python =>
      let '(cd, cdd) := match g_coupling_term a with
                        | Some c => c y yd                           (* 109 *)
                        | None => (v3_zero, v3_zero) end in          (* 111 *)
      match g_precomputed a with
      | Some (pd, pdd) => (v3_add cd pd, v3_add cdd pdd)             (* 112-114 *)
      | None => (cd, cdd)
      end
  | Cython =>
      match g_coupling_term a, g_precomputed a with
      | Some c, _ => c y yd                                          (* 479-480 *)
      | None, Some p => p                                            (* 481-483 *)
      | None, None => (v3_zero, v3_zero)                             (* 457-458 *)
      end
  end.

(** The rotation vector [log(p * conj(q))] from [q] to [p]. *)
Definition q_error (i : impl) (p q : quat) : v3 := i_log i (i_mul i p (i_conj i q)).

(** _cartesian_dmp.py:119-137 / dmp_fast.pyx:488-502: angular acceleration. *)
Definition q_acc (i : impl) (a : qargs) (z : R) (f cdd : v3) (y : quat) (yd : v3) : v3 :=
  let execution_time := g_goal_t a - g_start_t a in
  let smoothing := if g_smooth_scaling a
                   then v3_mul (v3_scale z (g_beta_y a)) (q_error i (g_goal_y a) (g_start_y a))
                   else v3_zero in
  v3_divs
    (v3_add (v3_add
       (v3_mul (g_alpha_y a)
          (v3_sub (v3_sub (v3_mul (g_beta_y a) (q_error i (g_goal_y a) y))
                          (v3_scale execution_time yd))
                  smoothing))
       f) cdd)
    (execution_time ^ 2).

(** Loop bodies: _cartesian_dmp.py:108-139, dmp_fast.pyx:479-505. *)
Definition q_body (i : impl) (a : qargs) (current_t dt : R) (s : quat * v3) : quat * v3 :=
  let '(y, yd) := s in
  let execution_time := g_goal_t a - g_start_t a in
  let '(cd, cdd) := q_coupling i a y yd in
  let z := ft_phase (g_forcing_term a) current_t in                  (* 116 / 485 *)
  let f := v3_of (ft_forces (g_forcing_term a) z) in                 (* 117 / 486 *)
  let ydd := q_acc i a z f cdd y yd in
  let yd := v3_add yd (v3_add (v3_scale dt ydd) (v3_divs cd execution_time)) in (* 137 / 503 *)
  let y := i_mul i (i_exp i (v3_scale dt yd)) y in                   (* 138-139 / 504-505 *)
  (y, yd).

(** _cartesian_dmp.py:10-139 [dmp_step_quaternion_python] and dmp_fast.pyx:371-505
    [dmp_step_quaternion].  The Cython version has no check of the times; for
    [t <= start_t] it resets the state to the start and then runs the loop. *)
Definition q_step (i : impl) (a : qargs) (last_t t : R) (s : quat * v3) : res (quat * v3) :=
  match i with
  | Python =>
      if Rle_dec (g_goal_t a) (g_start_t a) then Err ValueError      (* 91-92 *)
      else if Rle_dec t (g_start_t a) then Ok s                      (* 94-95 *)
      else substeps (substeps_fuel last_t t (g_int_dt a)) last_t t (g_int_dt a)
             (q_body Python a) s                                     (* 101-139 *)
  | Cython =>
      let s := if Rle_dec t (g_start_t a) then (g_start_y a, g_start_yd a) else s in (* 449-451 *)
      substeps (substeps_fuel last_t t (g_int_dt a)) last_t t (g_int_dt a)
        (q_body Cython a) s                                          (* 472-505 *)
  end.

(** A trajectory on [np.arange(start_t, run_t + dt, dt)] for any kind of state
    (cf. [open_loop_run]). *)
Definition run_on_grid {S} (step : R -> R -> S -> res S) (start_t run_t dt : R) (s0 : S)
    : res (list R * list S) :=
  match arange start_t (run_t + dt) dt with
  | [] => Err IndexError
  | t0 :: ts => bind (run_steps step t0 ts s0) (fun l => Ok (t0 :: ts, s0 :: l))
  end.

(** _cartesian_dmp.py:631-717 [dmp_open_loop_quaternion] (with the velocities). *)
Definition q_open_loop (i : impl) (a : qargs) (dt run_t : R) : res (list R * list (quat * v3)) :=
  run_on_grid (q_step i a) (g_start_t a) run_t dt (g_start_y a, v3_zero). (* 699-715 *)

(** ** Imitation *)
Record qforces := { qf_F : nat -> v3; qf_Yd : nat -> v3; qf_Ydd : nat -> v3 }.

(** _cartesian_dmp.py:544-628 [determine_forces_quaternion] for [n] steps.  Fewer
    than two steps: np.gradient raises ValueError (599). *)
Definition determine_forces_quaternion (n : nat) (T : vec) (Y : nat -> quat) (alpha_y beta_y : v3)
    (alpha_z : R) (allow_final_velocity smooth_scaling : bool) : res qforces :=
  if Nat.ltb n 2 then Err ValueError else
  let DT := np_gradient n T in                                       (* 599 *)
  let Yd := fun t =>
    if (negb allow_final_velocity && Nat.eqb t (n - 1))%bool then v3_zero (* 602-603 *)
    else v3_divs (pr_quaternion_gradient n Y t) (DT t) in            (* 601 *)
  let Ydd := fun t =>
    if Nat.eqb t (n - 1) then v3_zero                                (* 608 *)
    else V3 (np_gradient n (fun k => v3x (Yd k)) t / DT t)
            (np_gradient n (fun k => v3y (Yd k)) t / DT t)
            (np_gradient n (fun k => v3z (Yd k)) t / DT t) in        (* 605-607 *)
  let last := (n - 1)%nat in
  let execution_time := T last - T 0%nat in                          (* 610 *)
  let goal_y := Y last in let start_y := Y 0%nat in                  (* 611-612 *)
  let goal_y_minus_start_y := q_error Python goal_y start_y in       (* 613-614 *)
  let F := fun t =>
    let smoothing := if smooth_scaling
                     then v3_mul (v3_scale (phase (T t) alpha_z (T last) (T 0%nat)) beta_y)
                                 goal_y_minus_start_y
                     else v3_zero in                                 (* 618-621 *)
    v3_sub (v3_scale (execution_time ^ 2) (Ydd t))
      (v3_mul alpha_y
         (v3_sub (v3_sub (v3_mul beta_y (q_error Python goal_y (Y t)))
                         (v3_scale execution_time (Yd t)))
                 smoothing)) in                                      (* 622-627 *)
  Ok {| qf_F := F; qf_Yd := Yd; qf_Ydd := Ydd |}.

(** _cartesian_dmp.py:465-541 [dmp_quaternion_imitation]: the weights. *)
Definition dmp_quaternion_imitation (junk : vec * vec) (regress : regression) (n : nat) (T : vec)
    (Y : nat -> quat) (n_weights : nat) (lam : R) (alpha_y beta_y : v3) (overlap alpha_z : R)
    (allow_final_velocity smooth_scaling : bool) : res (nat -> nat -> R) :=
  if Rlt_dec lam 0 then Err ValueError                               (* 528-529 *)
  else if Nat.eqb n 0 then Err IndexError                            (* 532 *)
  else
    let last := (n - 1)%nat in
    bind (forcing_term_init (fst junk) (snd junk) n_weights (T last) (T 0%nat) overlap alpha_z)
      (fun f =>                                                      (* 531-532 *)
    bind (determine_forces_quaternion n T Y alpha_y beta_y alpha_z allow_final_velocity
            smooth_scaling) (fun qf =>                               (* 533-536 *)
    let X := fun i t => design_matrix f T last i t in                (* 538 *)
    Ok (regress n_weights n X (fun t => vec_of_v3 (qf_F qf t)) lam))). (* 540 *)

(** ** The class CartesianDMP *)
Record cart := {
  k_base : ptp;
  k_execution_time : R; k_dt : R; k_n : nat; k_int_dt : R; k_smooth : bool;
  k_fpos : forcing_term; k_frot : forcing_term;    (* weights_ of shape (3, k_n) *)
  k_alpha : arr; k_beta : arr
}.

Definition cart_with_base (p : ptp) (o : cart) : cart :=
  Build_cart p (k_execution_time o) (k_dt o) (k_n o) (k_int_dt o) (k_smooth o)
    (k_fpos o) (k_frot o) (k_alpha o) (k_beta o).
Definition cart_with_time (x : R) (o : cart) : cart :=
  Build_cart (k_base o) x (k_dt o) (k_n o) (k_int_dt o) (k_smooth o)
    (k_fpos o) (k_frot o) (k_alpha o) (k_beta o).
Definition cart_with_fpos (f : forcing_term) (o : cart) : cart :=
  Build_cart (k_base o) (k_execution_time o) (k_dt o) (k_n o) (k_int_dt o) (k_smooth o)
    f (k_frot o) (k_alpha o) (k_beta o).
Definition cart_with_frot (f : forcing_term) (o : cart) : cart :=
  Build_cart (k_base o) (k_execution_time o) (k_dt o) (k_n o) (k_int_dt o) (k_smooth o)
    (k_fpos o) f (k_alpha o) (k_beta o).

(** _cartesian_dmp.py:234-247 [__init__], 249-256 [_init_forcing_term]. *)
Definition cart_new (junk_pos junk_rot : vec * vec) (execution_time dt : R) (n_weights : nat)
    (int_dt : R) (smooth_scaling : bool) (alpha_y beta_y : ndarray) : res cart :=
  bind (init_forcing_term junk_pos n_weights execution_time) (fun fp => (* 250-253 *)
  bind (init_forcing_term junk_rot n_weights execution_time) (fun fr => (* 254-256 *)
  bind (ensure_1d_array alpha_y 6) (fun alpha_y =>                   (* 246 *)
  bind (ensure_1d_array beta_y 6) (fun beta_y =>                     (* 247 *)
  Ok {| k_base := ptp_init 7 6; k_execution_time := execution_time; k_dt := dt;
        k_n := n_weights; k_int_dt := int_dt; k_smooth := smooth_scaling;
        k_fpos := fp; k_frot := fr; k_alpha := alpha_y; k_beta := beta_y |})))).

(** _cartesian_dmp.py:261-267 [set_execution_time_]. *)
Definition cart_set_execution_time (junk_pos junk_rot : vec * vec) (x : R) (o : cart)
    : cart * res unit :=
  let o := cart_with_time x o in                                     (* 262 *)
  let wp := ft_weights (k_fpos o) in let wr := ft_weights (k_frot o) in (* 263-264 *)
  match init_forcing_term junk_pos (k_n o) x with                    (* 265 *)
  | Err e => (o, Err e)
  | Ok fp =>
      match init_forcing_term junk_rot (k_n o) x with
      | Err e => (cart_with_fpos fp o, Err e)
      | Ok fr => (cart_with_frot (set_ft_weights wr fr)
                    (cart_with_fpos (set_ft_weights wp fp) o), Ok tt) (* 266-267 *)
      end
  end.

(** base.py:77-130 [configure], dmp/_base.py:21-26 [reset]. *)
Definition cart_configure (c : configure_args) (o : cart) : cart * res unit :=
  let '(p, e) := configure c (k_base o) in
  (cart_with_base p o, match e with Some e => Err e | None => Ok tt end).
Definition cart_reset (o : cart) : cart := cart_with_base (ptp_reset (k_base o)) o.

(** [v[off:off+len]]. *)
Definition slice (off len : nat) (v : vec) : vec :=
  fun i => if Nat.ltb i len then v (off + i)%nat else 0.

(** A coupling term object is called with positions by the position step and with
    orientations by the orientation step. *)
Definition cart_coupling := option (coupling * qcoupling).

(** Arguments in _cartesian_dmp.py:311-321 (positions). *)
Definition cart_pos_args (o : cart) (c : cart_coupling) : dmp_args :=
  let p := k_base o in
  {| a_goal_y := slice 0 3 (aget (p_goal_y p)); a_goal_yd := slice 0 3 (aget (p_goal_yd p));
     a_goal_ydd := slice 0 3 (aget (p_goal_ydd p));
     a_start_y := slice 0 3 (aget (p_start_y p)); a_start_yd := slice 0 3 (aget (p_start_yd p));
     a_start_ydd := slice 0 3 (aget (p_start_ydd p));
     a_goal_t := k_execution_time o; a_start_t := 0;
     a_alpha_y := slice 0 3 (aget (k_alpha o)); a_beta_y := slice 0 3 (aget (k_beta o));
     a_forcing_term := k_fpos o;
     a_coupling_term := option_map fst c; a_precomputed := None;
     a_int_dt := k_int_dt o; a_p_gain := 0; a_tracking_error := None;
     a_smooth_scaling := k_smooth o |}.

(** Arguments in _cartesian_dmp.py:322-332 (orientations). *)
Definition cart_rot_args (o : cart) (c : cart_coupling) : qargs :=
  let p := k_base o in
  {| g_goal_y := quat_of (slice 3 4 (aget (p_goal_y p)));
     g_start_y := quat_of (slice 3 4 (aget (p_start_y p)));
     g_start_yd := v3_of (slice 3 3 (aget (p_start_yd p)));
     g_goal_t := k_execution_time o; g_start_t := 0;
     g_alpha_y := v3_of (slice 3 3 (aget (k_alpha o)));
     g_beta_y := v3_of (slice 3 3 (aget (k_beta o)));
     g_forcing_term := k_frot o; g_coupling_term := option_map snd c; g_precomputed := None;
     g_int_dt := k_int_dt o; g_smooth_scaling := k_smooth o |}.

(** A pose array of length 7 from position and quaternion, a velocity array of
    length 6. *)
Definition pose (y : vec) (q : quat) : arr :=
  {| alen := 7; aget := fun i => if Nat.ltb i 3 then y i else vec_of_quat q (i - 3)%nat |}.
Definition twist (yd : vec) (w : v3) : arr :=
  {| alen := 6; aget := fun i => if Nat.ltb i 3 then yd i else vec_of_v3 w (i - 3)%nat |}.

(** _cartesian_dmp.py:271-333 [step]; [step_function] and [quaternion_step_function]
    are the functions themselves here, not names.  If the position step raises,
    line 310 has already been executed. *)
Definition cart_step (last_y last_yd : arr) (c : cart_coupling) (fn : step_function) (i : impl)
    (o : cart) : cart * res (arr * arr) :=
  if negb (Nat.eqb (alen last_y) 7) then (o, Err AssertionError)     (* 302 *)
  else if negb (Nat.eqb (alen last_yd) 6) then (o, Err AssertionError) (* 303 *)
  else
    let t0 := p_t (k_base o) in
    let t1 := t0 + k_dt o in
    let p := set_t t1 (set_last_t (Some t0) (k_base o)) in           (* 305-306 *)
    let o := cart_with_base p o in
    match assign_slice (p_current_y p) last_y with                   (* 310 *)
    | Err e => (o, Err e)
    | Ok y =>
    match assign_slice (p_current_yd p) last_yd with                 (* 310 *)
    | Err e => (cart_with_base (set_current y (p_current_yd p) p) o, Err e)
    | Ok yd =>
    let o := cart_with_base (set_current y yd p) o in
    match run_step_function fn (cart_pos_args o c) t0 t1
            (slice 0 3 (aget y), slice 0 3 (aget yd)) with           (* 311-321 *)
    | Err e => (o, Err e)
    | Ok (yp, ydp) =>
    let q0 := quat_of (slice 3 4 (aget y)) in
    let w0 := v3_of (slice 3 3 (aget yd)) in
    match q_step i (cart_rot_args o c) t0 t1 (q0, w0) with           (* 322-332 *)
    | Err e => (cart_with_base (set_current (pose yp q0) (twist ydp w0) p) o, Err e)
    | Ok (q, w) =>
        (cart_with_base (set_current (pose yp q) (twist ydp w) p) o,
         Ok (pose yp q, twist ydp w))                                (* 333 *)
    end end end end.

(** [open_loop] passes no start velocity: _cartesian_dmp.py:369-377 (positions, with
    the defaults of dmp_open_loop) and 385-393. *)
Definition cart_pos_open_args (o : cart) (c : cart_coupling) : dmp_args :=
  let a := cart_pos_args o c in
  {| a_goal_y := a_goal_y a; a_goal_yd := vzero; a_goal_ydd := vzero;
     a_start_y := a_start_y a; a_start_yd := vzero; a_start_ydd := vzero;
     a_goal_t := k_execution_time o; a_start_t := 0;
     a_alpha_y := a_alpha_y a; a_beta_y := a_beta_y a; a_forcing_term := k_fpos o;
     a_coupling_term := option_map fst c; a_precomputed := None;
     a_int_dt := k_int_dt o; a_p_gain := 0; a_tracking_error := None;
     a_smooth_scaling := k_smooth o |}.
Definition cart_rot_open_args (o : cart) (c : cart_coupling) : qargs :=
  let a := cart_rot_args o c in
  {| g_goal_y := g_goal_y a; g_start_y := g_start_y a; g_start_yd := v3_zero;
     g_goal_t := k_execution_time o; g_start_t := 0;
     g_alpha_y := g_alpha_y a; g_beta_y := g_beta_y a;
     g_forcing_term := k_frot o; g_coupling_term := option_map snd c; g_precomputed := None;
     g_int_dt := k_int_dt o; g_smooth_scaling := k_smooth o |}.

(** _cartesian_dmp.py:335-394 [open_loop]; [None] stands for an unknown name. *)
Definition cart_open_loop (run_t : option R) (c : cart_coupling) (fn : option step_function)
    (i : option impl) (o : cart) : res (list R * list arr) :=
  match fn with
  | None => Err ValueError                                           (* 363-368 *)
  | Some fn =>
      let run_t := match run_t with Some x => x | None => k_execution_time o end in
      let ap := cart_pos_open_args o c in
      bind (open_loop_run (run_step_function fn ap) 0 run_t (k_dt o) (a_start_y ap) vzero)
        (fun rp =>                                                   (* 369-377 *)
      match i with
      | None => Err ValueError                                       (* 378-384 *)
      | Some i =>
          bind (q_open_loop i (cart_rot_open_args o c) (k_dt o) run_t) (fun rr => (* 385-393 *)
          Ok (fst rp, map (fun x => pose (fst (fst x)) (fst (snd x)))
                          (combine (snd rp) (snd rr))))              (* 394 *)
      end)
  end.

(** _cartesian_dmp.py:396-437 [imitate] for a demonstration with 7 columns (other
    widths raise somewhere in the functions called; not modelled in detail). *)
Definition cart_imitate (junk_pos junk_rot : vec * vec) (regress : regression) (dm : demo) (lam : R)
    (allow_final_velocity : bool) (o : cart) : cart * res unit :=
  if negb (Nat.eqb (d_dims dm) 7) then (o, Err ValueError) else
  let dmp_pos := {| d_n := d_n dm; d_T := d_T dm; d_rows := d_rows dm; d_dims := 3;
                    d_Y := fun t => slice 0 3 (d_Y dm t) |} in
  match dmp_imitate junk_pos regress 3 dmp_pos (k_n o) lam
          (slice 0 3 (aget (k_alpha o))) (slice 0 3 (aget (k_beta o)))
          (ft_overlap (k_fpos o)) (ft_alpha_z (k_fpos o)) allow_final_velocity (k_smooth o) with
  | Err e => (o, Err e)                                              (* 418-426 *)
  | Ok (w, _, _) =>
      let o := cart_with_fpos (set_ft_weights w (k_fpos o)) o in     (* 418 *)
      match dmp_quaternion_imitation junk_rot regress (d_n dm) (d_T dm)
              (fun t => quat_of (slice 3 4 (d_Y dm t))) (k_n o) lam
              (v3_of (slice 3 3 (aget (k_alpha o)))) (v3_of (slice 3 3 (aget (k_beta o))))
              (ft_overlap (k_frot o)) (ft_alpha_z (k_frot o)) allow_final_velocity (k_smooth o) with
      | Err e => (o, Err e)                                          (* 427-435 *)
      | Ok w =>
          let o := cart_with_frot (set_ft_weights w (k_frot o)) o in (* 427 *)
          cart_configure
            {| c_t := None;
               c_start_y := Some {| alen := 7; aget := d_Y dm 0%nat |};
               c_start_yd := None; c_start_ydd := None;
               c_goal_y := Some {| alen := 7; aget := d_Y dm (d_n dm - 1)%nat |};
               c_goal_yd := None; c_goal_ydd := None |} o            (* 437 *)
      end
  end.

(** _cartesian_dmp.py:439-448 [get_weights]. *)
Definition cart_get_weights (o : cart) : arr :=
  let n := k_n o in
  {| alen := 3 * n + 3 * n;
     aget := fun k => if Nat.ltb k (3 * n)
                      then aget (ravel 3 n (ft_weights (k_fpos o))) k
                      else aget (ravel 3 n (ft_weights (k_frot o))) (k - 3 * n)%nat |}.

(** [weights_[:, :] = w.reshape(-1, n)] for [weights_] of shape (3, n), n > 0:
    ValueError if the size is not a multiple of [n]; a single row is broadcast;
    other numbers of rows than 3 raise ValueError. *)
Definition assign_rows (w : arr) (n : nat) : res (nat -> nat -> R) :=
  if negb (Nat.eqb (alen w mod n) 0) then Err ValueError
  else if Nat.eqb (alen w / n) 3 then Ok (fun d i => aget w (d * n + i)%nat)
  else if Nat.eqb (alen w / n) 1 then Ok (fun _ i => aget w i)
  else Err ValueError.

(** _cartesian_dmp.py:450-462 [set_weights]. *)
Definition cart_set_weights (w : arr) (o : cart) : cart * res unit :=
  let n := k_n o in
  let n_pos := (3 * n)%nat in                                        (* 458 *)
  match assign_rows {| alen := Nat.min (alen w) n_pos; aget := aget w |} n with
  | Err e => (o, Err e)                                              (* 459-460 *)
  | Ok wp =>
      let o := cart_with_fpos (set_ft_weights wp (k_fpos o)) o in
      match assign_rows {| alen := (alen w - n_pos)%nat;
                           aget := fun k => aget w (n_pos + k)%nat |} n with
      | Err e => (o, Err e)                                          (* 461-462 *)
      | Ok wr => (cart_with_frot (set_ft_weights wr (k_frot o)) o, Ok tt)
      end
  end.

(** base.py:153-177 [n_steps_open_loop], for any step functions and coupling. *)
Fixpoint cart_n_steps (c : cart_coupling) (fn : step_function) (i : impl) (n_steps : nat)
    (last_y last_yd : arr) (o : cart) : cart * res (arr * arr) :=
  match n_steps with
  | O => (o, Ok (last_y, last_yd))
  | S n =>
      match cart_step last_y last_yd c fn i o with
      | (o, Err e) => (o, Err e)
      | (o, Ok (y, yd)) => cart_n_steps c fn i n y yd o
      end
  end.

(** ** SpringDamperOrientation *)

(** spring_damper.py:265-280, loop body of [spring_damper_step_quaternion]. *)
Definition sdq_body (goal_y : quat) (k c : R) (coupling_term : option qcoupling)
    (precomputed : option (v3 * v3)) (current_t dt : R) (s : quat * v3) : quat * v3 :=
  let '(y, yd) := s in
  let '(cd, cdd) := match coupling_term with
                    | Some ct => ct y yd                             (* 266 *)
                    | None => (v3_zero, v3_zero) end in              (* 268 *)
  let '(cd, cdd) := match precomputed with
                    | Some (pd, pdd) => (v3_add cd pd, v3_add cdd pdd) (* 269-271 *)
                    | None => (cd, cdd) end in
  let ydd := v3_add (v3_sub (v3_scale k (q_error Python goal_y y)) (v3_scale c yd)) cdd in (* 273-277 *)
  let yd := v3_add yd (v3_add (v3_scale dt ydd) cd) in               (* 278 *)
  let y := pr_mul (pr_exp (v3_scale dt yd)) y in                     (* 279-280 *)
  (y, yd).

(** spring_damper.py:251-280 [spring_damper_step_quaternion]. *)
Definition spring_damper_step_quaternion (goal_y : quat) (k : R) (c : option R)
    (coupling_term : option qcoupling) (precomputed : option (v3 * v3)) (int_dt : R)
    (last_t t : R) (s : quat * v3) : res (quat * v3) :=
  substeps (substeps_fuel last_t t int_dt) last_t t int_dt
    (sdq_body goal_y k (default_critically_damped_c c k) coupling_term precomputed) s.

(** spring_damper.py:300-314 [spring_damper_open_loop_quaternion]. *)
Definition spring_damper_open_loop_quaternion (dt : R) (start_y goal_y : quat) (k : R)
    (c : option R) (coupling_term : option qcoupling) (run_t int_dt : R)
    : res (list R * list (quat * v3)) :=
  run_on_grid (spring_damper_step_quaternion goal_y k c coupling_term None int_dt) 0 run_t dt
    (start_y, v3_zero).

(** spring_damper.py:135-144 [SpringDamperOrientation.__init__]; the attributes are
    those of [spring_damper]. *)
Definition sdo_new (dt k : R) (c : option R) (int_dt : R) : spring_damper :=
  {| s_base := ptp_init 4 3; s_dt := dt; s_k := k; s_c := c; s_int_dt := int_dt;
     s_initialized := false |}.

(** spring_damper.py:151-189 [step]. *)
Definition sdo_step (last_y last_yd : arr) (coupling_term : option qcoupling) (o : spring_damper)
    : spring_damper * res (arr * arr) :=
  let t0 := p_t (s_base o) in
  let t1 := t0 + s_dt o in
  let p := set_t t1 (set_last_t (Some t0) (s_base o)) in             (* 173-174 *)
  let p := if s_initialized o then p
           else set_current (p_start_y p) (p_start_yd p) p in        (* 176-179 *)
  let o := sd_with p true o in
  match assign_slice (p_current_y p) last_y with                     (* 181 *)
  | Err e => (o, Err e)
  | Ok y =>
      let o := sd_with (set_current y (p_current_yd p) p) true o in
      match assign_slice (p_current_yd p) last_yd with               (* 181 *)
      | Err e => (o, Err e)
      | Ok yd =>
          match spring_damper_step_quaternion (quat_of (aget (p_goal_y p))) (s_k o) (s_c o)
                  coupling_term None (s_int_dt o) t0 t1
                  (quat_of (aget y), v3_of (aget yd)) with           (* 182-188 *)
          | Err e => (sd_with (set_current y yd p) true o, Err e)
          | Ok (q, w) =>
              let y' := {| alen := alen y; aget := vec_of_quat q |} in
              let yd' := {| alen := alen yd; aget := vec_of_v3 w |} in
              (sd_with (set_current y' yd' p) true o, Ok (y', yd'))  (* 189 *)
          end
      end
  end.

(** spring_damper.py:191-215 [open_loop]. *)
Definition sdo_open_loop (run_t : R) (coupling_term : option qcoupling) (o : spring_damper)
    : res (list R * list quat) :=
  rmap (fun r => (fst r, map fst (snd r)))
    (spring_damper_open_loop_quaternion (s_dt o) (quat_of (aget (p_start_y (s_base o))))
       (quat_of (aget (p_goal_y (s_base o)))) (s_k o) (s_c o) coupling_term run_t (s_int_dt o)).
