(** Model of dmp/_dual_cartesian_dmp.py and of the dual-arm step in dmp_fast.pyx. *)
From Coq Require Import Reals List Arith Bool.
From Verif Require Import M_Prelude M_Canonical M_Forcing M_Dmp M_Base M_DmpObject
  M_SpringDamper M_Quaternion M_Cartesian.
Import ListNotations.
Open Scope R_scope.

(** A coupling term object with internal state: [coupling(y, yd)] updates the state
    and returns (additional velocity, additional acceleration). *)
Definition stateful_coupling (CS : Type) := CS -> vec -> vec -> CS * (vec * vec).

(** A coupling term that has no state. *)
Definition stateless (c : coupling) : stateful_coupling unit := fun s y yd => (s, c y yd).

(** The lists [pps = [0, 1, 2, 7, 8, 9]] and [pvs = [0, 1, 2, 6, 7, 8]]
    (_dual_cartesian_dmp.py:11-12, dmp_fast.pyx:613-614) in corresponding order:
    the position entry that belongs to a velocity entry, and vice versa. *)
Definition pp_of (pv : nat) : nat := if Nat.ltb pv 6 then pv else S pv.
Definition pv_of (pp : nat) : nat := if Nat.ltb pp 7 then pp else pred pp.
Definition is_pp (p : nat) : bool := (Nat.ltb p 3 || (Nat.leb 7 p && Nat.ltb p 10))%bool.
Definition is_pv (v : nat) : bool := (Nat.ltb v 3 || (Nat.leb 6 v && Nat.ltb v 9))%bool.

(** The slices [ops], [ovs] of the arms 0 (left) and 1 (right):
    3:7 and 10:14, 3:6 and 9:12 (_dual_cartesian_dmp.py:114-115,138-139). *)
Definition arm_q (arm : nat) (y : vec) : quat := quat_of (slice (3 + 7 * arm) 4 y).
Definition arm_w (arm : nat) (yd : vec) : v3 := v3_of (slice (3 + 6 * arm) 3 yd).

(** An array of 12 entries from its position entries and the two orientation
    parts; an array of 14 entries likewise.  Entries beyond the length: [old]. *)
Definition assemble_v (old pos : vec) (wl wr : v3) : vec := fun v =>
  if is_pv v then pos v
  else if Nat.ltb v 6 then vec_of_v3 wl (v - 3)%nat
  else if Nat.ltb v 12 then vec_of_v3 wr (v - 9)%nat
  else old v.
Definition assemble_p (old pos : vec) (ql qr : quat) : vec := fun p =>
  if is_pp p then pos p
  else if Nat.ltb p 7 then vec_of_quat ql (p - 3)%nat
  else if Nat.ltb p 14 then vec_of_quat qr (p - 10)%nat
  else old p.

(** What lines _dual_cartesian_dmp.py:112-117 / dmp_fast.pyx:632-636
    add to [cdd] for the tracking error. *)
Definition dual_feedback (i : impl) (a : dmp_args) (dt : R) : vec :=
  match a_tracking_error a with
  | None => vzero
  | Some te =>
      let rot arm := v3_divs (v3_scale (a_p_gain a) (i_log i (arm_q arm te))) dt in
      assemble_v vzero (fun v => a_p_gain a * te (pp_of v) / dt) (rot 0%nat) (rot 1%nat)
  end.

(** Position accelerations: _dual_cartesian_dmp.py:119-133, dmp_fast.pyx:639-652.
    In both versions the smoothing term reads [beta_y] at the index of the position
    entry, not of the velocity entry. *)
Definition dual_pos_acc (a : dmp_args) (z : R) (f cdd y yd : vec) : vec := fun v =>
  let execution_time := a_goal_t a - a_start_t a in
  let smoothing := if a_smooth_scaling a
                   then a_beta_y a (pp_of v)
                        * (a_goal_y a (pp_of v) - a_start_y a (pp_of v)) * z
                   else 0 in                                         (* 119-122 / 640-643 *)
  (a_alpha_y a v
     * (a_beta_y a v * (a_goal_y a (pp_of v) - y (pp_of v)) - execution_time * yd v - smoothing)
   + f v + cdd v) / execution_time ^ 2.                              (* 125-133 / 644-652 *)

(** Angular accelerations of one arm: _dual_cartesian_dmp.py:140-155,
    dmp_fast.pyx:658-671. *)
Definition dual_rot_acc (i : impl) (a : dmp_args) (arm : nat) (z : R) (f cdd y yd : vec) : v3 :=
  let execution_time := a_goal_t a - a_start_t a in
  let beta := arm_w arm (a_beta_y a) in
  let goal := arm_q arm (a_goal_y a) in
  let smoothing := if a_smooth_scaling a
                   then v3_mul (v3_scale z beta) (q_error i goal (arm_q arm (a_start_y a)))
                   else v3_zero in                                   (* 140-145 *)
  v3_divs
    (v3_add (v3_add
       (v3_mul (arm_w arm (a_alpha_y a))
          (v3_sub (v3_sub (v3_mul beta (q_error i goal (arm_q arm y)))
                          (v3_scale execution_time (arm_w arm yd)))
                  smoothing))
       (arm_w arm f)) (arm_w arm cdd))
    (execution_time ^ 2).                                            (* 146-155 *)

(** Loop body: _dual_cartesian_dmp.py:107-158, dmp_fast.pyx:624-675.  The state
    consists of [current_y], [current_yd], the array [cdd] and the state of the
    coupling term.  Python allocates [cd], [cdd] before the loop (98) and overwrites
    them only if there is a coupling term (107-108); Cython clears them in every
    iteration (625-626).  The arrays are updated in place in the order positions,
    left orientation, right orientation; no part reads what another part wrote. *)
Definition dual_body {CS} (i : impl) (a : dmp_args) (ct : option (stateful_coupling CS))
    (current_t dt : R) (s : (vec * vec) * vec * CS) : (vec * vec) * vec * CS :=
  let '((y, yd), old_cdd, cs) := s in
  let execution_time := a_goal_t a - a_start_t a in
  let '(cs, (cd, cdd)) :=
    match ct with
    | Some c => c cs y yd                                            (* 107-108 / 628 *)
    | None => (cs, (vzero, match i with Python => old_cdd | Cython => vzero end)) (* 98 / 625-626 *)
    end in
  let z := ft_phase (a_forcing_term a) current_t in                  (* 110 / 630 *)
  let f := ft_forces (a_forcing_term a) z in                         (* 111 / 631 *)
  let cdd := vadd cdd (dual_feedback i a dt) in                      (* 112-117 *)
  let new_w arm :=
    v3_add (arm_w arm yd)
      (v3_add (v3_scale dt (dual_rot_acc i a arm z f cdd y yd))
              (v3_divs (arm_w arm cd) execution_time)) in            (* 156 / 672 *)
  let new_q arm := i_mul i (i_exp i (v3_scale dt (new_w arm))) (arm_q arm y) in (* 157-158 / 673-675 *)
  let new_v v := yd v + (dt * dual_pos_acc a z f cdd y yd v + cd v / execution_time) in (* 134 / 653 *)
  let new_p p := y p + dt * new_v (pv_of p) in                       (* 135 / 654 *)
  ((assemble_p y new_p (new_q 0%nat) (new_q 1%nat),
    assemble_v yd new_v (new_w 0%nat) (new_w 1%nat)), cdd, cs).

(** _dual_cartesian_dmp.py:15-158 [dmp_step_dual_cartesian_python] and
    dmp_fast.pyx:512-675 [dmp_step_dual_cartesian].  Neither checks the times; for
    [t <= start_t] both reset the state to the start (90-92 / 589-591) and then run
    the loop. *)
Definition dual_step_function {CS} (i : impl) (a : dmp_args) (ct : option (stateful_coupling CS))
    (last_t t : R) (s : vec * vec) (cs : CS) : res ((vec * vec) * CS) :=
  let s := if Rle_dec t (a_start_t a) then (a_start_y a, a_start_yd a) else s in
  rmap (fun x => (fst (fst x), snd x))
    (substeps (substeps_fuel last_t t (a_int_dt a)) last_t t (a_int_dt a)
       (dual_body i a ct) (s, vzero, cs)).

(** ** The class DualCartesianDMP

    It has the attributes of DMP; the forcing term has 12 outputs. *)

(** _dual_cartesian_dmp.py:237-250 [__init__], 252-256 [_init_forcing_term]. *)
Definition dual_new (junk : vec * vec) (execution_time dt : R) (n_weights : nat)
    (int_dt p_gain : R) (smooth_scaling : bool) (alpha_y beta_y : ndarray) : res dmp :=
  bind (init_forcing_term junk n_weights execution_time) (fun f =>   (* 247 *)
  bind (ensure_1d_array alpha_y 12) (fun alpha_y =>                  (* 249 *)
  bind (ensure_1d_array beta_y 12) (fun beta_y =>                    (* 250 *)
  Ok {| o_base := ptp_init 14 12; o_initialized := false;
        o_execution_time := execution_time; o_dt := dt; o_n_weights_per_dim := n_weights;
        o_int_dt := int_dt; o_p_gain := p_gain; o_smooth_scaling := smooth_scaling;
        o_forcing_term := f; o_alpha_y := alpha_y; o_beta_y := beta_y |}))).

(** dmp/_base.py:36-54 [get_weights], [set_weights] with 12 rows. *)
Definition dual_get_weights (o : dmp) : arr :=
  ravel 12 (ft_n (o_forcing_term o)) (ft_weights (o_forcing_term o)).
Definition dual_set_weights (w : arr) (o : dmp) : outcome unit :=
  match reshape w 12 (ft_n (o_forcing_term o)) with
  | Err e => (o, Err e)
  | Ok w => (with_forcing_term (set_ft_weights w (o_forcing_term o)) o, Ok tt)
  end.

(** _dual_cartesian_dmp.py:307-310: the tracking error; its orientation entries are
    always computed with pytransform3d. *)
Definition dual_tracking_error (cy ly : vec) : vec :=
  let rot arm := pr_mul (arm_q arm cy) (pr_conj (arm_q arm ly)) in
  assemble_p vzero (vsub cy ly) (rot 0%nat) (rot 1%nat).

(** The arguments in _dual_cartesian_dmp.py:312-321 (the coupling term is passed
    separately). *)
Definition dual_args (o : dmp) (te : vec) : dmp_args := step_args o None te.

(** _dual_cartesian_dmp.py:269-323 [step]; [cs] is the state of the coupling term
    object. *)
Definition dual_step {CS} (last_y last_yd : arr) (ct : option (stateful_coupling CS)) (i : impl)
    (cs : CS) (o : dmp) : dmp * CS * res (arr * arr) :=
  if negb (Nat.eqb (alen last_y) 14) then (o, cs, Err AssertionError)  (* 296 *)
  else if negb (Nat.eqb (alen last_yd) 12) then (o, cs, Err AssertionError) (* 297 *)
  else
    let t0 := p_t (o_base o) in
    let t1 := t0 + o_dt o in
    let o := with_base (set_t t1 (set_last_t (Some t0) (o_base o))) o in (* 299-300 *)
    let o := if o_initialized o then o
             else with_initialized true
                    (with_base (set_current (p_start_y (o_base o)) (p_start_yd (o_base o))
                                            (o_base o)) o) in        (* 302-305 *)
    let te := dual_tracking_error (aget (p_current_y (o_base o))) (aget last_y) in (* 307-310 *)
    match assign_slice (p_current_y (o_base o)) last_y with          (* 311 *)
    | Err e => (o, cs, Err e)
    | Ok y =>
    match assign_slice (p_current_yd (o_base o)) last_yd with        (* 311 *)
    | Err e => (with_base (set_current y (p_current_yd (o_base o)) (o_base o)) o, cs, Err e)
    | Ok yd =>
    let o := with_base (set_current y yd (o_base o)) o in
    match dual_step_function i (dual_args o te) ct t0 t1 (aget y, aget yd) cs with (* 312-321 *)
    | Err e => (o, cs, Err e)
    | Ok ((y', yd'), cs) =>
        let y := {| alen := alen y; aget := y' |} in
        let yd := {| alen := alen yd; aget := yd' |} in
        (with_base (set_current y yd (o_base o)) o, cs, Ok (y, yd))  (* 323 *)
    end end end.

(** The loop _dual_cartesian_dmp.py:362-365. *)
Fixpoint dual_open_loop_go {CS} (fuel : nat) (run_t : R) (ct : option (stateful_coupling CS))
    (i : impl) (y yd : arr) (cs : CS) (o : dmp) : dmp * CS * res (list R * list arr) :=
  if Rlt_dec (p_t (o_base o)) run_t then
    match fuel with
    | O => (o, cs, Err OutOfFuel)
    | S fuel =>
        match dual_step y yd ct i cs o with                          (* 363 *)
        | (o, cs, Err e) => (o, cs, Err e)
        | (o, cs, Ok (y, yd)) =>
            match dual_open_loop_go fuel run_t ct i y yd cs o with
            | (o', cs', Err e) => (o', cs', Err e)
            | (o', cs', Ok (ts, ys)) =>
                (o', cs', Ok (p_t (o_base o) :: ts, y :: ys))        (* 364-365 *)
            end
        end
    end
  else (o, cs, Ok ([], [])).

(** Enough iterations whenever [dt > 0] (proved in Properties_DualObject.v). *)
Definition dual_fuel (run_t dt : R) : nat := Z.to_nat (up (run_t / dt)).

(** _dual_cartesian_dmp.py:325-367 [open_loop]; [None] stands for an unknown name. *)
Definition dual_open_loop {CS} (run_t : option R) (ct : option (stateful_coupling CS))
    (i : option impl) (cs : CS) (o : dmp) : dmp * CS * res (list R * list arr) :=
  match i with
  | None => (o, cs, Err ValueError)                                  (* 348-353 *)
  | Some i =>
      let run_t := match run_t with Some x => x | None => o_execution_time o end in (* 355-356 *)
      let o := with_base (set_t 0 (o_base o)) o in                   (* 357 *)
      let sy := p_start_y (o_base o) in
      let syd := p_start_yd (o_base o) in
      match dual_open_loop_go (dual_fuel run_t (o_dt o)) run_t ct i sy syd cs o with
      | (o, cs, Err e) => (o, cs, Err e)
      | (o, cs, Ok (ts, ys)) =>
          (with_base (set_t 0 (o_base o)) o, cs, Ok (0 :: ts, sy :: ys)) (* 366-367 *)
      end
  end.

(** base.py:153-177 [n_steps_open_loop], for any step function and coupling term. *)
Fixpoint dual_n_steps {CS} (ct : option (stateful_coupling CS)) (i : impl) (n : nat)
    (y yd : arr) (cs : CS) (o : dmp) : dmp * CS * res (arr * arr) :=
  match n with
  | O => (o, cs, Ok (y, yd))
  | S n =>
      match dual_step y yd ct i cs o with
      | (o, cs, Err e) => (o, cs, Err e)
      | (o, cs, Ok (y, yd)) => dual_n_steps ct i n y yd cs o
      end
  end.

(** [weights_[off:off+3, :] = w]. *)
Definition assign_three_rows (off : nat) (w W : nat -> nat -> R) : nat -> nat -> R :=
  fun d j => if (Nat.leb off d && Nat.ltb d (off + 3))%bool then w (d - off)%nat j else W d j.

(** The columns [off:off+len] of a demonstration. *)
Definition demo_columns (off len : nat) (dm : demo) : demo :=
  {| d_n := d_n dm; d_T := d_T dm; d_rows := d_rows dm; d_dims := len;
     d_Y := fun t => slice off len (d_Y dm t) |}.

(** _dual_cartesian_dmp.py:369-428 [imitate] for a demonstration with 14 columns
    (other widths raise somewhere in the functions called; not modelled in
    detail). *)
Definition dual_imitate (jl jlr jr jrr : vec * vec) (regress : regression) (dm : demo) (lam : R)
    (allow_final_velocity : bool) (o : dmp) : outcome unit :=
  if negb (Nat.eqb (d_dims dm) 14) then (o, Err ValueError) else
  let alpha := aget (o_alpha_y o) in
  let beta := aget (o_beta_y o) in
  let overlap := ft_overlap (o_forcing_term o) in
  let alpha_z := ft_alpha_z (o_forcing_term o) in
  let n := o_n_weights_per_dim o in
  let pos junk (arm : nat) :=
    rmap (fun r => fst (fst r))
      (dmp_imitate junk regress 3 (demo_columns (7 * arm) 3 dm) n lam
         (slice (6 * arm) 3 alpha) (slice (6 * arm) 3 beta) overlap alpha_z
         allow_final_velocity (o_smooth_scaling o)) in
  let rot junk (arm : nat) :=
    dmp_quaternion_imitation junk regress (d_n dm) (d_T dm) (fun t => arm_q arm (d_Y dm t)) n lam
      (arm_w arm alpha) (arm_w arm beta) overlap alpha_z
      allow_final_velocity (o_smooth_scaling o) in
  let put off (w : nat -> nat -> R) (o : dmp) :=
    with_forcing_term
      (set_ft_weights (assign_three_rows off w (ft_weights (o_forcing_term o)))
         (o_forcing_term o)) o in
  match pos jl 0%nat with                                            (* 391-399 *)
  | Err e => (o, Err e)
  | Ok w => let o := put 0%nat w o in
  match rot jlr 0%nat with                                           (* 400-408 *)
  | Err e => (o, Err e)
  | Ok w => let o := put 3%nat w o in
  match pos jr 1%nat with                                            (* 409-417 *)
  | Err e => (o, Err e)
  | Ok w => let o := put 6%nat w o in
  match rot jrr 1%nat with                                           (* 418-426 *)
  | Err e => (o, Err e)
  | Ok w => let o := put 9%nat w o in
      dmp_configure
        {| c_t := None;
           c_start_y := Some {| alen := 14; aget := d_Y dm 0%nat |};
           c_start_yd := None; c_start_ydd := None;
           c_goal_y := Some {| alen := 14; aget := d_Y dm (d_n dm - 1)%nat |};
           c_goal_yd := None; c_goal_ydd := None |} o                (* 428 *)
  end end end end.
