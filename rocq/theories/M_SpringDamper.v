(** Model of spring_damper.py, positions (the quaternion variant is in
    M_Cartesian.v). *)
From Coq Require Import Reals List Arith.
From Verif Require Import M_Prelude M_Dmp M_Base.
Import ListNotations.
Open Scope R_scope.

(** spring_damper.py:245-248 [_default_critically_damped_c].  For [k < 0]
    np.sqrt gives NaN; the model is meant for [k >= 0]. *)
Definition default_critically_damped_c (c : option R) (k : R) : R :=
  match c with Some c => c | None => 2 * sqrt k end.

(** spring_damper.py:232-242, body of the loop of [spring_damper_step].  The
    velocity part [cd] of a coupling term is added to the velocity without the
    factor [dt]. *)
Definition sd_body (goal_y : vec) (k c : R) (coupling_term : option coupling)
    (precomputed : option (vec * vec)) (current_t dt : R) (s : vec * vec) : vec * vec :=
  let '(y, yd) := s in
  let '(cd, cdd) := match coupling_term with
                    | Some ct => ct y yd                             (* 233 *)
                    | None => (vzero, vzero) end in                  (* 235 *)
  let '(cd, cdd) := match precomputed with
                    | Some (pd, pdd) => (vadd cd pd, vadd cdd pdd)   (* 236-238 *)
                    | None => (cd, cdd) end in
  let ydd := fun d => k * (goal_y d - y d) - c * yd d + cdd d in     (* 240 *)
  let yd := fun d => yd d + (dt * ydd d + cd d) in                   (* 241 *)
  let y := fun d => y d + dt * yd d in                               (* 242 *)
  (y, yd).

(** spring_damper.py:218-242 [spring_damper_step]. *)
Definition spring_damper_step (goal_y : vec) (k : R) (c : option R)
    (coupling_term : option coupling) (precomputed : option (vec * vec)) (int_dt : R)
    (last_t t : R) (s : vec * vec) : res (vec * vec) :=
  substeps (substeps_fuel last_t t int_dt) last_t t int_dt
    (sd_body goal_y k (default_critically_damped_c c k) coupling_term precomputed) s.

(** spring_damper.py:283-297 [spring_damper_open_loop] (with the velocities). *)
Definition spring_damper_open_loop (dt : R) (start_y goal_y : vec) (k : R) (c : option R)
    (coupling_term : option coupling) (run_t int_dt : R) : res (list R * list (vec * vec)) :=
  open_loop_run (spring_damper_step goal_y k c coupling_term None int_dt) 0 run_t dt
    start_y vzero.

(** spring_damper.py:11-45 [SpringDamper]: attributes. *)
Record spring_damper := {
  s_base : ptp;
  s_dt : R; s_k : R; s_c : option R; s_int_dt : R;
  s_initialized : bool
}.

Definition sd_with (p : ptp) (ini : bool) (o : spring_damper) : spring_damper :=
  {| s_base := p; s_dt := s_dt o; s_k := s_k o; s_c := s_c o; s_int_dt := s_int_dt o;
     s_initialized := ini |}.

(** spring_damper.py:33-42 [__init__]; [configure()] without arguments changes
    nothing. *)
Definition sd_new (n_dims : nat) (dt k : R) (c : option R) (int_dt : R) : spring_damper :=
  {| s_base := ptp_init n_dims n_dims; s_dt := dt; s_k := k; s_c := c; s_int_dt := int_dt;
     s_initialized := false |}.

(** spring_damper.py:44-47 [reset]: only the time. *)
Definition sd_reset (o : spring_damper) : spring_damper :=
  sd_with (set_last_t None (set_t 0 (s_base o))) (s_initialized o) o.

(** base.py:77-130 [configure]. *)
Definition sd_configure (c : configure_args) (o : spring_damper) : spring_damper * res unit :=
  let '(p, e) := configure c (s_base o) in
  (sd_with p (s_initialized o) o, match e with Some e => Err e | None => Ok tt end).

(** [target[:] = value] for one-dimensional arrays: equal lengths, or a single
    value that is broadcast. *)
Definition assign_slice (target value : arr) : res arr :=
  if Nat.eqb (alen value) (alen target) then Ok value
  else if Nat.eqb (alen value) 1 then Ok {| alen := alen target; aget := fun _ => aget value 0%nat |}
  else Err ValueError.

(** spring_damper.py:49-87 [step].  [n_dims] is the length of the state. *)
Definition sd_step (last_y last_yd : arr) (coupling_term : option coupling) (o : spring_damper)
    : spring_damper * res (arr * arr) :=
  let t0 := p_t (s_base o) in
  let t1 := t0 + s_dt o in
  let p := set_t t1 (set_last_t (Some t0) (s_base o)) in             (* 70-71 *)
  let p := if s_initialized o then p
           else set_current (p_start_y p) (p_start_yd p) p in        (* 73-76 *)
  let o := sd_with p true o in
  match assign_slice (p_current_y p) last_y with                     (* 78 *)
  | Err e => (o, Err e)
  | Ok y =>
      let o := sd_with (set_current y (p_current_yd p) p) true o in
      match assign_slice (p_current_yd p) last_yd with               (* 78 *)
      | Err e => (o, Err e)
      | Ok yd =>
          match spring_damper_step (aget (p_goal_y p)) (s_k o) (s_c o) coupling_term None
                  (s_int_dt o) t0 t1 (aget y, aget yd) with          (* 79-85 *)
          | Err e => (sd_with (set_current y yd p) true o, Err e)
          | Ok (y', yd') =>
              let y' := {| alen := alen y; aget := y' |} in
              let yd' := {| alen := alen yd; aget := yd' |} in
              (sd_with (set_current y' yd' p) true o, Ok (y', yd'))  (* 86 *)
          end
      end
  end.

(** spring_damper.py:89-113 [open_loop]. *)
Definition sd_open_loop (run_t : R) (coupling_term : option coupling) (o : spring_damper)
    : res (list R * list vec) :=
  rmap (fun r => (fst r, map fst (snd r)))
    (spring_damper_open_loop (s_dt o) (aget (p_start_y (s_base o))) (aget (p_goal_y (s_base o)))
       (s_k o) (s_c o) coupling_term run_t (s_int_dt o)).

(** base.py:153-177 [n_steps_open_loop] on a SpringDamper. *)
Fixpoint sd_n_steps (coupling_term : option coupling) (n_steps : nat) (last_y last_yd : arr)
    (o : spring_damper) : spring_damper * res (arr * arr) :=
  match n_steps with
  | O => (o, Ok (last_y, last_yd))
  | S n =>
      match sd_step last_y last_yd coupling_term o with
      | (o, Err e) => (o, Err e)
      | (o, Ok (y, yd)) => sd_n_steps coupling_term n y yd o
      end
  end.
