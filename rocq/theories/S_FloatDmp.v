(** Specification vocabulary: a double precision computation of a DMP and the
    exact one. *)
From Coq Require Import Reals ZArith List.
From Flocq Require Import Core.Core IEEE754.BinarySingleNaN.
From Verif Require Import M_Prelude M_Canonical M_Forcing M_Dmp M_Float M_FloatDmp.
Import ListNotations.
Open Scope R_scope.

(** [z] is a finite double with the value [r]. *)
Definition is_double (z : f64) (r : R) : Prop := is_finite z = true /\ B2R z = r.

(** The double precision arguments [A] are the real arguments [a] in dimension
    [d]: no coupling, no tracking error, no smooth scaling, the movement starts at
    time 0 (as [DMP] always does), and the C library squares the execution
    time with a relative error of at most one unit in the last place. *)
Record same_arguments (A : dmp_args_f) (a : dmp_args) (d : nat) : Prop := {
  sa_goal : is_double (fa_goal_y A d) (a_goal_y a d);
  sa_alpha : is_double (fa_alpha_y A d) (a_alpha_y a d);
  sa_beta : is_double (fa_beta_y A d) (a_beta_y a d);
  sa_goal_t : is_double (fa_goal_t A) (a_goal_t a);
  sa_start_t : is_double (fa_start_t A) 0 /\ a_start_t a = 0;
  sa_pow2 : forall z, is_double z (a_goal_t a) ->
            Rabs (B2R (fa_pow2 A z) - a_goal_t a ^ 2) <= bpow radix2 (-52) * a_goal_t a ^ 2;
  sa_plain : a_coupling_term a = None /\ a_precomputed a = None /\ a_tracking_error a = None
             /\ a_smooth_scaling a = false
}.

(** The force of the forcing term at time [T]. *)
Definition force_at (a : dmp_args) (T : R) (d : nat) : R :=
  ft_forces (a_forcing_term a) (ft_phase (a_forcing_term a) T) d.

(** The force at time [T] is at most [bound], and the computed one differs from
    it by at most [err]. *)
Definition force_close (A : dmp_args_f) (a : dmp_args) (d : nat) (bound err : R) (Tf : f64) (T : R) : Prop :=
  is_finite (fa_forces A Tf d) = true
  /\ Rabs (force_at a T d) <= bound
  /\ Rabs (B2R (fa_forces A Tf d) - force_at a T d) <= err.

(** At the three times of the step from [l] to [t] that the integrator uses. *)
Definition forces_close (A : dmp_args_f) (a : dmp_args) (d : nat) (bound err : R) (l t : f64) : Prop :=
  let dt := fsub t l in
  let h := B2R t - B2R l in
  force_close A a d bound err t (B2R t)
  /\ force_close A a d bound err (fadd t (fmul fhalf dt)) (B2R t + / 2 * h)
  /\ force_close A a d bound err (fadd t dt) (B2R t + h).

(** [P] holds for all consecutive times. *)
Fixpoint each_step {T : Type} (P : T -> T -> Prop) (last : T) (ts : list T) : Prop :=
  match ts with
  | [] => True
  | t :: ts' => P last t /\ each_step P t ts'
  end.

(** Between 2^-100 and 2^100. *)
Definition ordinary (r : R) : Prop := bpow radix2 (-100) <= r <= bpow radix2 100.

(** The integrators in double precision. *)
Inductive rk4_function := RK4_python | RK4_compiled.
Definition double_step (fn : rk4_function) := match fn with
  | RK4_python => rk4_f
  | RK4_compiled => rk4_cython_f
  end.
Definition exact_step (fn : rk4_function) : step_function := match fn with
  | RK4_python => RK4
  | RK4_compiled => RK4_cython
  end.
