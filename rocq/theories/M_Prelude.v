(** Common vocabulary of the model: exceptions as values, arrays, sums, loops.

    Python floats are modelled by real numbers (see DESIGN.md, section 1). *)
From Coq Require Import Reals ZArith List Lia Lra FunctionalExtensionality.
Import ListNotations.
Open Scope R_scope.

(** Python exceptions that the modelled code can raise.  [OutOfFuel] is not a
    Python exception: it marks a loop that did not finish within its fuel. *)
Inductive exn : Set :=
| ValueError | IndexError | KeyError | AssertionError | TypeError
| AttributeError | ZeroDivisionError | NotImplementedError | LinAlgError
| ImportError | OutOfFuel.

Inductive res (A : Type) : Type :=
| Ok (a : A)
| Err (e : exn).
Arguments Ok {A} a.
Arguments Err {A} e.

Definition bind {A B} (x : res A) (f : A -> res B) : res B :=
  match x with Ok a => f a | Err e => Err e end.

Definition rmap {A B} (f : A -> B) (x : res A) : res B :=
  match x with Ok a => Ok (f a) | Err e => Err e end.

(** A one-dimensional array as its index function; only indices below the
    length of the array are meaningful. *)
Definition vec := nat -> R.

Definition vzero : vec := fun _ => 0.
Definition vadd (u v : vec) : vec := fun i => u i + v i.
Definition vsub (u v : vec) : vec := fun i => u i - v i.
Definition vmul (u v : vec) : vec := fun i => u i * v i.
Definition vscale (c : R) (u : vec) : vec := fun i => c * u i.
Definition vdivs (u : vec) (c : R) : vec := fun i => u i / c.

(** Array assignment [a[i] = x]. *)
Definition upd (a : vec) (i : nat) (x : R) : vec :=
  fun j => if Nat.eqb j i then x else a j.

(** [sum(f(0), ..., f(n-1))], e.g. [np.sum], [np.dot]. *)
Fixpoint rsum (n : nat) (f : nat -> R) : R :=
  match n with
  | O => 0
  | S k => rsum k f + f k
  end.

(** Smallest integer not below [x] ([math.ceil]) and Python's [int(x)]
    (truncation towards zero). *)
Definition Zceil (x : R) : Z := (- Int_part (- x))%Z.
Definition Ztrunc (x : R) : Z :=
  if Rlt_dec x 0 then Zceil x else Int_part x.

(** The sub-step loop that all Euler integrators share, textually
    (dmp/_dmp.py:298-303, dmp/_dmp_with_final_velocity.py:429-434,
    dmp/_state_following_dmp.py:144-149, dmp/_cartesian_dmp.py:101-106,
    dmp/_dual_cartesian_dmp.py:100-105, spring_damper.py:225-230,258-263,
    dmp_fast.pyx:157-162,472-477,617-622):
<<
    current_t = last_t
    while current_t < t:
        dt = int_dt
        if t - current_t < int_dt:
            dt = t - current_t
        current_t += dt
        BODY(current_t, dt)
>>
    [body current_t dt s] receives the already advanced [current_t]. *)
Fixpoint substeps {S : Type} (fuel : nat) (current_t t int_dt : R)
    (body : R -> R -> S -> S) (s : S) : res S :=
  if Rlt_dec current_t t then
    match fuel with
    | O => Err OutOfFuel
    | Datatypes.S fuel' =>
        let dt := if Rlt_dec (t - current_t) int_dt then t - current_t
                  else int_dt in
        substeps fuel' (current_t + dt) t int_dt body
                 (body (current_t + dt) dt s)
    end
  else Ok s.

(** Enough iterations for [substeps] whenever [int_dt > 0] (proved in
    P_Loops.v). *)
Definition substeps_fuel (last_t t int_dt : R) : nat :=
  Z.to_nat (up ((t - last_t) / int_dt)).

(** [np.arange(start, stop, step)]: [ceil((stop - start)/step)] values
    [start + i*step]. *)
Definition arange_len (start stop step : R) : nat :=
  Z.to_nat (Zceil ((stop - start) / step)).
Definition arange (start stop step : R) : list R :=
  map (fun i => start + INR i * step) (seq 0 (arange_len start stop step)).

(** [for i in range(1, len(T)): step(T[i-1], T[i], state)], collecting the
    state after each step. *)
Fixpoint run_steps {S : Type} (step : R -> R -> S -> res S)
    (last_t : R) (ts : list R) (s : S) : res (list S) :=
  match ts with
  | [] => Ok []
  | t :: ts' =>
      bind (step last_t t s) (fun s' =>
      bind (run_steps step t ts' s') (fun l => Ok (s' :: l)))
  end.
