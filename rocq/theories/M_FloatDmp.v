(** The Runge-Kutta integrators of DMPs in IEEE double precision, one correctly
    rounded operation at a time in the order in which Python and C evaluate the
    expressions.  numpy and the loops in Cython apply the scalar operations to
    each component, so arrays are functions from the dimension to doubles. *)
From Coq Require Import ZArith List Bool.
From Flocq Require Import Core.Core IEEE754.BinarySingleNaN.
From Verif Require Import M_Prelude M_Float.
Import ListNotations.

Definition fvec := nat -> f64.

(** The arguments of dmp_step_rk4 (dmp/_dmp.py:9-13; dmp_fast.pyx:201-211) that
    matter without coupling terms, tracking error and smooth scaling (their
    defaults; the zeros that they contribute are still added in [acc_f]).
    [fa_forces T d] stands for the value that
    [forcing_term.forcing_term(forcing_term.phase(T))] computes for the
    time [T] in dimension [d] and [fa_pow2 x] for the result of C's
    [pow(x, 2.0)]: both depend on the C library and are not modelled. *)
Record dmp_args_f := {
  fa_goal_y : fvec;
  fa_goal_t : f64; fa_start_t : f64;
  fa_alpha_y : fvec; fa_beta_y : fvec;
  fa_forces : f64 -> fvec;
  fa_pow2 : f64 -> f64
}.

Definition fzero : f64 := fZ 0.
Definition fhalf : f64 := fdiv (fZ 1) (fZ 2).

(** dmp/_dmp.py:198-211 and dmp_fast.pyx:349-363 for dimension [d]: [smoothing],
    [cdd[d]] and [tdd[d]] are [0.0]. *)
Definition acc_f (a : dmp_args_f) (execution_time : f64) (d : nat) (Y V f : f64) : f64 :=
  let smoothing := fzero in
  fdiv (fadd (fadd (fadd (fmul (fa_alpha_y a d)
                               (fsub (fsub (fmul (fa_beta_y a d) (fsub (fa_goal_y a d) Y))
                                           (fmul execution_time V))
                                     smoothing))
                         f)
                   fzero)
             fzero)
       (fa_pow2 a execution_time).

(** dmp/_dmp.py:98-125 and dmp_fast.pyx:292-322 for dimension [d]: execution
    time, [dt], the accelerations [K0], [K1], [K2], [K3] and the velocities [C1],
    [C2], [C3]. *)
Record stages_f := {
  st_dt : f64;
  st_K0 : f64; st_K1 : f64; st_K2 : f64; st_K3 : f64;
  st_C1 : f64; st_C2 : f64; st_C3 : f64
}.

Definition rk4_stages_f (a : dmp_args_f) (last_t t : f64) (y yd : f64) (d : nat) : stages_f :=
  let execution_time := fsub (fa_goal_t a) (fa_start_t a) in
  let dt := fsub t last_t in
  let dt_2 := fmul fhalf dt in
  let F0 := fa_forces a t d in
  let F1 := fa_forces a (fadd t dt_2) d in
  let F2 := fa_forces a (fadd t dt) d in
  let acc := acc_f a execution_time d in
  let K0 := acc y yd F0 in
  let C1 := fadd yd (fmul dt_2 K0) in
  let K1 := acc (fadd y (fmul dt_2 yd)) C1 F1 in
  let C2 := fadd yd (fmul dt_2 K1) in
  let K2 := acc (fadd y (fmul dt_2 C1)) C2 F1 in
  let C3 := fadd yd (fmul dt K2) in
  let K3 := acc (fadd y (fmul dt C2)) C3 F2 in
  {| st_dt := dt; st_K0 := K0; st_K1 := K1; st_K2 := K2; st_K3 := K3;
     st_C1 := C1; st_C2 := C2; st_C3 := C3 |}.

(** dmp/_dmp.py:9-132 [dmp_step_rk4]. *)
Definition rk4_f (a : dmp_args_f) (last_t t : f64) (s : fvec * fvec) : fvec * fvec :=
  let '(current_y, current_yd) := s in
  let st d := rk4_stages_f a last_t t (current_y d) (current_yd d) d in
  let two := fZ 2 in
  (fun d => let '{| st_dt := dt; st_K0 := K0; st_K1 := K1; st_K2 := K2 |} := st d in
     fadd (current_y d)
       (fmul dt (fadd (current_yd d)
                      (fmul (fdiv dt (fZ 6)) (fadd (fadd K0 K1) K2)))),      (* 127 *)
   fun d => let '{| st_dt := dt; st_K0 := K0; st_K1 := K1; st_K2 := K2; st_K3 := K3 |} := st d in
     fadd (current_yd d)
       (fmul (fdiv dt (fZ 6))
             (fadd (fadd (fadd K0 (fmul two K1)) (fmul two K2)) K3))).       (* 128 *)

(** dmp_fast.pyx:201-331 [dmp_step_rk4]; the C compiler may contract a product
    and a sum to one operation with a single rounding on machines that have such
    an instruction (not in the x86-64 baseline), which is not modelled. *)
Definition rk4_cython_f (a : dmp_args_f) (last_t t : f64) (s : fvec * fvec) : fvec * fvec :=
  let '(current_y, current_yd) := s in
  let st d := rk4_stages_f a last_t t (current_y d) (current_yd d) d in
  let two := fZ 2 in
  (fun d => let '{| st_dt := dt; st_C1 := C1; st_C2 := C2; st_C3 := C3 |} := st d in
     fadd (current_y d)
       (fdiv (fmul dt (fadd (fadd (fadd (current_yd d) (fmul two C1)) (fmul two C2)) C3))
             (fZ 6)),                                                        (* 326 *)
   fun d => let '{| st_dt := dt; st_K0 := K0; st_K1 := K1; st_K2 := K2; st_K3 := K3 |} := st d in
     fadd (current_yd d)
       (fdiv (fmul dt (fadd (fadd (fadd K0 (fmul two K1)) (fmul two K2)) K3))
             (fZ 6))).                                                       (* 327 *)

(** dmp/_dmp.py:897-906: the loop over the times of [open_loop], collecting the
    state after each step, as [M_Prelude.run_steps]. *)
Fixpoint run_steps_f (step : f64 -> f64 -> fvec * fvec -> fvec * fvec)
    (last_t : f64) (ts : list f64) (s : fvec * fvec) : list (fvec * fvec) :=
  match ts with
  | [] => []
  | t :: ts' => let s' := step last_t t s in s' :: run_steps_f step t ts' s'
  end.
