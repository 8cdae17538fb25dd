(** Specification vocabulary for the claims about double precision. *)
From Coq Require Import Reals List.
From Flocq Require Import Core.Core IEEE754.BinarySingleNaN.
Import ListNotations.
Open Scope R_scope.

(** Rounding of a real number to the nearest binary64 number, ties to even,
    ignoring overflow. *)
Definition nearest (r : R) : R := round radix2 (FLT_exp (-1074) 53) ZnearestE r.

(** [x] is the double that Python reads for the decimal number [r]. *)
Definition double_of (r : R) (x : binary_float 53 1024) : Prop :=
  is_finite x = true /\ B2R x = nearest r.

(** The smallest binary64 number above [r]. *)
Definition next_double (r : R) : R := succ radix2 (FLT_exp (-1074) 53) r.

(** A run of an integrator: the sub-steps [(current_t, dt)] in order. *)
Definition run_steps {T S : Type} (body : T -> T -> S -> S) (steps : list (T * T)) (s : S) : S :=
  fold_left (fun s p => body (fst p) (snd p) s) steps s.
