(** The time loops of the code in IEEE double precision.  All other model files
    replace Python floats by reals; this file models the computation of times,
    sample counts and one-dimensional minimum jerk trajectories with binary64
    numbers as formalised by Flocq: correctly rounded operations, round to nearest,
    ties to even. *)
From Coq Require Import ZArith List Bool.
From Flocq Require Import Core.Core IEEE754.BinarySingleNaN.
From Verif Require Import M_Prelude.
Import ListNotations.

Notation f64 := (binary_float 53 1024).
#[global] Instance prec_gt_0_53 : Prec_gt_0 53 := eq_refl.
#[global] Instance prec_lt_emax_53 : Prec_lt_emax 53 1024 := eq_refl.

(** Python's [x + y], [x - y], [x * y], [x / y] ([y] nonzero), [x < y], [x >= y]
    on floats. *)
Definition fadd (x y : f64) : f64 := Bplus mode_NE x y.
Definition fsub (x y : f64) : f64 := Bminus mode_NE x y.
Definition fmul (x y : f64) : f64 := Bmult mode_NE x y.
Definition fdiv (x y : f64) : f64 := Bdiv mode_NE x y.
Definition flt (x y : f64) : bool := Bltb x y.
Definition fge (x y : f64) : bool := Bleb y x.

(** Conversion of a Python int, and of the literal [m * 10 ** -k]. *)
Definition fZ (m : Z) : f64 := binary_normalize 53 1024 _ _ mode_NE m 0 false.

(** Python's [int(x)] for a finite [x], and [math.ceil(x)] for a finite [x]. *)
Definition fint (x : f64) : Z := Btrunc x.
Definition fceil (x : f64) : Z :=
  let z := Btrunc x in if flt (fZ z) x then (z + 1)%Z else z.

(** [x ** n] for an int literal [n]; simplification: by repeated multiplication,
    CPython calls the C library's [pow]. *)
Fixpoint fpow (x : f64) (n : nat) : f64 :=
  match n with
  | O => fZ 1
  | S O => x
  | S n => fmul (fpow x n) x
  end.

(** The sub-step loop of all Euler integrators, as [M_Prelude.substeps]
    (dmp/_dmp.py:298-303, dmp/_dmp_with_final_velocity.py:429-434,
    dmp/_state_following_dmp.py:144-149, dmp/_cartesian_dmp.py:101-106,
    dmp/_dual_cartesian_dmp.py:100-105, spring_damper.py:225-230,258-263,
    dmp_fast.pyx:157-162,472-477,617-622), with the value of [current_t] after
    the loop. *)
Fixpoint substeps_f {S : Type} (fuel : nat) (current_t t int_dt : f64)
    (body : f64 -> f64 -> S -> S) (s : S) : res (f64 * S) :=
  if flt current_t t then
    match fuel with
    | O => Err OutOfFuel
    | Datatypes.S fuel' =>
        let dt := if flt (fsub t current_t) int_dt then fsub t current_t
                  else int_dt in
        substeps_f fuel' (fadd current_t dt) t int_dt body
                   (body (fadd current_t dt) dt s)
    end
  else Ok (current_t, s).

(** [np.arange(start, stop, step)] for floats: [ceil((stop - start) / step)]
    values, the first two are [start] and [start + step], the others are
    [start + i * delta] where [delta] is the rounded difference of the first two
    (numpy's [fill]). *)
Definition arange_f_len (start stop step : f64) : nat :=
  Z.to_nat (fceil (fdiv (fsub stop start) step)).
Definition arange_f (start stop step : f64) : list f64 :=
  let second := fadd start step in
  let delta := fsub second start in
  map (fun i => match i with
                | O => start
                | 1%nat => second
                | _ => fadd start (fmul (fZ (Z.of_nat i)) delta)
                end)
      (seq 0 (arange_f_len start stop step)).

(** dmp/_dmp.py:893, dmp/_cartesian_dmp.py:702 (with [start_t]) and
    spring_damper.py:289,306 (with [start_t = 0]): the times of [open_loop]. *)
Definition open_loop_times_f (start_t run_t dt : f64) : list f64 :=
  arange_f start_t (fadd run_t dt) dt.

(** data/_minimum_jerk.py:59. *)
Definition min_jerk_n_steps_f (execution_time dt : f64) : Z :=
  (1 + fint (fdiv execution_time dt))%Z.

(** data/_minimum_jerk.py:74-98 for one dimension (numpy applies the scalar
    operations to each component). *)
Definition min_jerk_update_f (g tau dt : f64) (s : f64 * f64 * f64) : f64 * f64 * f64 :=
  let '(x, xd, xdd) := s in
  let a1 := fZ 0 in let v1 := fZ 0 in
  let two := fZ 2 in
  let dist := fsub g x in                                             (* 74 *)
  let a0 := fmul xdd (fpow tau 2) in                                  (* 77 *)
  let v0 := fmul xd tau in                                            (* 79 *)
  let t1 := dt in let t2 := fpow dt 2 in let t3 := fpow dt 3 in       (* 81-83 *)
  let t4 := fpow dt 4 in let t5 := fpow dt 5 in                       (* 84-85 *)
  let c1 := fdiv (fsub (fadd (fmul (fZ 6) dist) (fdiv (fsub a1 a0) two))
                       (fmul (fZ 3) (fadd v0 v1))) (fpow tau 5) in    (* 87 *)
  let c2 := fdiv (fadd (fadd (fadd (fmul (fZ (-15)) dist)
                                   (fdiv (fsub (fmul (fZ 3) a0) (fmul two a1)) two))
                             (fmul (fZ 8) v0)) (fmul (fZ 7) v1)) (fpow tau 4) in (* 88-89 *)
  let c3 := fdiv (fsub (fsub (fadd (fmul (fZ 10) dist)
                                   (fdiv (fsub a1 (fmul (fZ 3) a0)) two))
                             (fmul (fZ 6) v0)) (fmul (fZ 4) v1)) (fpow tau 3) in (* 90-91 *)
  let c4 := fdiv xdd two in                                           (* 92 *)
  let c5 := xd in let c6 := x in                                      (* 93-94 *)
  (fadd (fadd (fadd (fadd (fadd (fmul c1 t5) (fmul c2 t4)) (fmul c3 t3))
              (fmul c4 t2)) (fmul c5 t1)) c6,                         (* 96 *)
   fadd (fadd (fadd (fadd (fmul (fmul (fZ 5) c1) t4) (fmul (fmul (fZ 4) c2) t3))
                    (fmul (fmul (fZ 3) c3) t2)) (fmul (fmul two c4) t1)) c5, (* 97 *)
   fadd (fadd (fadd (fmul (fmul (fZ 20) c1) t3) (fmul (fmul (fZ 12) c2) t2))
              (fmul (fmul (fZ 6) c3) t1)) (fmul two c4)).             (* 98 *)

(** data/_minimum_jerk.py:70-102. *)
Fixpoint min_jerk_loop_f (g execution_time dt : f64) (t n : nat) (s : f64 * f64 * f64)
    : list (f64 * f64 * f64) :=
  match n with
  | O => []
  | S n' =>
      let tau := fsub execution_time (fmul (fZ (Z.of_nat t)) dt) in   (* 71 *)
      let s := if fge tau dt then min_jerk_update_f g tau dt s else s in (* 73-98 *)
      s :: min_jerk_loop_f g execution_time dt (S t) n' s             (* 100-102 *)
  end.

(** data/_minimum_jerk.py:4-104 [generate_minimum_jerk] for one dimension and at
    least one step. *)
Definition generate_minimum_jerk_f (start goal execution_time dt : f64)
    : list (f64 * f64 * f64) :=
  let s0 := (start, fZ 0, fZ 0) in
  s0 :: min_jerk_loop_f goal execution_time dt 1
          (Z.to_nat (min_jerk_n_steps_f execution_time dt) - 1) s0.
