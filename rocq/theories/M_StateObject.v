(** The remaining methods of StateFollowingDMP (dmp/_state_following_dmp.py). *)
From Coq Require Import Reals.
From Verif Require Import M_Prelude M_Canonical M_Forcing M_Dmp M_Base M_SpringDamper M_StateFollowing.
Open Scope R_scope.

(** base.py:77-130 [configure], inherited. *)
Definition sf_configure (c : configure_args) (o : sf_dmp) : sf_dmp * option exn :=
  let '(p, e) := configure c (f_base o) in (sf_with_base p o, e).

(** dmp/_base.py:21-26 [reset], inherited. *)
Definition sf_reset (o : sf_dmp) : sf_dmp := sf_with_base (ptp_reset (f_base o)) o.

Definition sf_with (dt int_dt : R) (f : sf_forcing) (o : sf_dmp) : sf_dmp :=
  {| f_base := f_base o; f_execution_time := f_execution_time o; f_dt := dt; f_int_dt := int_dt;
     f_alpha_y := f_alpha_y o; f_beta_y := f_beta_y o; f_forcing := f |}.

(** Assignments of the attributes [dt_] and [int_dt], and of via-points
    ([dmp.forcing_term.viapoints[:] = ...], examples/plot_state_following_dmp.py:20,
    test/test_state_following_dmp.py:14-15). *)
Definition sf_set_dt (dt : R) (o : sf_dmp) : sf_dmp := sf_with dt (f_int_dt o) (f_forcing o) o.
Definition sf_set_int_dt (int_dt : R) (o : sf_dmp) : sf_dmp := sf_with (f_dt o) int_dt (f_forcing o) o.
Definition sf_set_viapoints (v : nat -> nat -> R) (o : sf_dmp) : sf_dmp :=
  sf_with (f_dt o) (f_int_dt o) (set_viapoints v (f_forcing o)) o.

(** base.py:153-178 [n_steps_open_loop], inherited.  [step] returns the internal arrays
    (63), which the next call copies to themselves (52). *)
Fixpoint sf_n_steps (n_steps : nat) (last_y last_yd : arr) (o : sf_dmp)
    : sf_dmp * res (arr * arr) :=
  match n_steps with
  | O => (o, Ok (last_y, last_yd))
  | S n => match sf_step last_y last_yd None o with
           | (o, Ok (y, yd)) => sf_n_steps n y yd o
           | (o, Err e) => (o, Err e)
           end
  end.
