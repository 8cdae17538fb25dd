(** Specifications for the DMP integrators, independent of the model of the
    step functions. *)
From Coq Require Import Reals.
From Verif Require Import M_Prelude.
Open Scope R_scope.

(** ** Textbook classical Runge-Kutta step for x' = F(s, x), x = (y, v). *)
Definition st_plus (x k : vec * vec) : vec * vec :=
  (fun d => fst x d + fst k d, fun d => snd x d + snd k d).
Definition st_times (c : R) (k : vec * vec) : vec * vec :=
  (fun d => c * fst k d, fun d => c * snd k d).

Definition rk4_textbook (F : R -> vec * vec -> vec * vec) (s h : R)
    (x : vec * vec) : vec * vec :=
  let k1 := F s x in
  let k2 := F (s + h / 2) (st_plus x (st_times (h / 2) k1)) in
  let k3 := F (s + h / 2) (st_plus x (st_times (h / 2) k2)) in
  let k4 := F (s + h) (st_plus x (st_times h k3)) in
  st_plus x (st_times (h / 6)
    (st_plus k1 (st_plus (st_times 2 k2) (st_plus (st_times 2 k3) k4)))).

(** ** The documented DMP equation
    tau^2 y'' = alpha (beta (g - y) - tau y' - [beta (g - y0) z]) + f + C
    as a first-order right-hand side (y, v) |-> (v, y''). *)
Definition dmp_equation (tau : R) (alpha beta g y0 : vec) (smooth : bool)
    (z : R -> R) (f : R -> vec) (C : vec -> vec -> vec)
    (s : R) (x : vec * vec) : vec * vec :=
  let y := fst x in let v := snd x in
  (v, fun d =>
     (alpha d * (beta d * (g d - y d) - tau * v d
                 - (if smooth then beta d * (g d - y0 d) * z s else 0))
      + f s d + C y v d) / tau ^ 2).

(** Pointwise linear combination of states. *)
Definition lin (a b : R) (u v : vec) : vec := fun d => a * u d + b * v d.
Definition lin2 (a b : R) (x x' : vec * vec) : vec * vec :=
  (lin a b (fst x) (fst x'), lin a b (snd x) (snd x')).
