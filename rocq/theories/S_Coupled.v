(** Specification of movements whose components are coupled by a distance term (C102). *)
From Coq Require Import Reals.
From Verif Require Import M_Prelude M_Dmp.
Open Scope R_scope.

(** A coupling term that acts as a spring between the components [i] and [j]: with
    [pull = dist - (y_j - y_i)], what is missing to the desired displacement [dist]
    of [j] with respect to [i], it adds the velocities [- l0 a pull] and [l1 a pull]
    and the accelerations [- l0 b pull] and [l1 b pull]. *)
Definition distance_spring (c : coupling) (i j : nat) (l0 l1 a b dist : R) : Prop :=
  forall y v,
  let pull := dist - (y j - y i) in
  fst (c y v) i = - (l0 * a * pull) /\ fst (c y v) j = l1 * a * pull /\
  snd (c y v) i = - (l0 * b * pull) /\ snd (c y v) j = l1 * b * pull.

(** The polynomials of the classical Runge-Kutta method for a spring with damping
    [c] and stiffness [k], in terms of x = h c and q = h^2 k: a step of length [h]
    maps the error [e] and the velocity [w] to
    [rk_a e + rk_b h w] and [- rk_b h k e + (rk_a - rk_b h c) w]. *)
Definition rk_s (x q : R) : R := 1 / 2 - x / 6 + (x ^ 2 - q) / 24.
Definition rk_a (x q : R) : R := 1 - q * rk_s x q.
Definition rk_b (x q : R) : R := 1 - x / 2 + (x ^ 2 - q) / 6 + (2 * x * q - x ^ 3) / 24.

(** How strongly one step of length [h] pulls towards the goal ([weight_goal]) and
    towards the desired displacement through the velocity ([weight_kick]), and which
    part of the velocity that the coupling adds is left at rest ([left_over]).
    [c]: damping; [k]: stiffness including the acceleration of the coupling term. *)
Definition weight_goal (fn : step_function) (h c k : R) : R :=
  match fn with
  | Euler | Euler_cython => 1
  | RK4 | RK4_cython =>
      let x := h * c in let q := h ^ 2 * k in
      rk_s x q * (q * rk_s x q + x * rk_b x q) + rk_b x q ^ 2
  end.
Definition weight_kick (fn : step_function) (h c k : R) : R :=
  match fn with
  | Euler_cython => 1
  | Euler => 1 - h * c
  | RK4 | RK4_cython => rk_b (h * c) (h ^ 2 * k)
  end.
Definition left_over (fn : step_function) (h c k : R) : R :=
  match fn with
  | Euler_cython => 0
  | Euler => 1
  | RK4 | RK4_cython => rk_s (h * c) (h ^ 2 * k)
  end.

(** One step multiplies the motions of the displacement by the roots of
    X^2 - pair_sum X + pair_product; [p] is the velocity that the coupling adds per
    unit of missing displacement. *)
Definition pair_product (fn : step_function) (h c k : R) : R :=
  match fn with
  | Euler | Euler_cython => 1 - h * c
  | RK4 | RK4_cython =>
      let x := h * c in let q := h ^ 2 * k in
      rk_a x q * (rk_a x q - x * rk_b x q) + q * rk_b x q ^ 2
  end.
Definition pair_sum (fn : step_function) (h c k p : R) : R :=
  match fn with
  | Euler | Euler_cython => 2 - h * c - h ^ 2 * k - h * p * weight_kick fn h c k
  | RK4 | RK4_cython =>
      let x := h * c in let q := h ^ 2 * k in
      2 * rk_a x q - x * rk_b x q - h * p * weight_kick fn h c k
  end.

(** Both roots have a modulus less than 1. *)
Definition pair_settles (fn : step_function) (h c k p : R) : Prop :=
  pair_product fn h c k < 1 /\
  Rabs (pair_sum fn h c k p) < 1 + pair_product fn h c k.
