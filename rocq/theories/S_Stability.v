(** Specification of the stability of one step of an integrator for a damped
    spring (C100). *)
From Coq Require Import Reals.
From Coquelicot Require Import Complex.
Open Scope R_scope.

(** A damped spring y'' = - c y' - k (y - g) moves like exp(lambda t) for the
    (complex) rates [lambda] with lambda^2 + c lambda + k = 0. *)
Definition rate (c k : R) (lambda : C) : Prop :=
  (lambda * lambda + RtoC c * lambda + RtoC k = 0)%C.

(** By how much the classical Runge-Kutta method multiplies a solution
    exp(lambda t) in one step of length h, where z = h lambda: the first terms of
    the exponential series. *)
Definition rk4_growth (z : C) : C :=
  (1 + z + z * z / 2 + z * z * z / 6 + z * z * z * z / 24)%C.

(** Every motion of the spring shrinks in a Runge-Kutta step of length [h]. *)
Definition rk4_shrinks (h c k : R) : Prop :=
  forall lambda, rate c k lambda -> Cmod (rk4_growth (RtoC h * lambda)%C) < 1.

(** The same for the Euler method that uses the new velocity for the new position:
    the position y(n) satisfies y(n+2) - (2 - h c - h^2 k) y(n+1) + (1 - h c) y(n) = 0,
    which has the solutions mu^n. *)
Definition euler_growth (h c k : R) (mu : C) : Prop :=
  (mu * mu - RtoC (2 - h * c - h ^ 2 * k) * mu + RtoC (1 - h * c) = 0)%C.
Definition euler_shrinks (h c k : R) : Prop :=
  forall mu, euler_growth h c k mu -> Cmod mu < 1.
