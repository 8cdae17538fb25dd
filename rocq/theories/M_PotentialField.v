(** Model of dmp_potential_field.py. *)
From Coq Require Import Reals List Arith Bool String.
From Verif Require Import M_Prelude M_Canonical M_Forcing M_Dmp M_Base M_DmpObject M_Quaternion M_Coupling.
Import ListNotations.
Open Scope R_scope.

(** [np.linspace(a, b, n)]: [n] evenly spaced values, only [a] for [n = 1]. *)
Definition linspace (a b : R) (n : nat) : vec := fun i =>
  if Nat.eqb n 1 then a else a + INR i * ((b - a) / (INR n - 1)).

(** The returned arrays; the first index is the row, the second the column and the third
    (inside [vec]) the dimension. *)
Record potential_field := {
  pf_xx : nat -> nat -> R; pf_yy : nat -> nat -> R;
  pf_ft : nat -> nat -> vec; pf_ts : nat -> nat -> vec; pf_ct : nat -> nat -> vec;
  pf_acc : nat -> nat -> vec
}.

(** dmp_potential_field.py:10-70 [potential_field_2d].  A DMP that does not have two
    dimensions makes the assignment of line 55 or the arithmetic of line 58 fail (the
    one-dimensional DMP, whose arrays numpy would repeat, is rejected here too; the
    documentation asks for two dimensions).  The obstacle acceleration is the Python
    function with its default [gamma] and [beta]. *)
Definition potential_field_2d (o : dmp) (x_range y_range : R * R) (n_ticks : nat)
    (obstacle : option (R * R)) : res potential_field :=
  if negb (Nat.eqb (p_n_dims (o_base o)) 2) then Err ValueError else
  let p := o_base o in
  let xx := fun (i j : nat) => linspace (fst x_range) (snd x_range) n_ticks j in   (* 51-52 *)
  let yy := fun (i j : nat) => linspace (fst y_range) (snd y_range) n_ticks i in
  let Y := fun i j => vec2 (xx i j) (yy i j) in                                    (* 53 *)
  let Yd := aget (p_current_yd p) in                                               (* 54-55 *)
  let z := ft_phase (o_forcing_term o) (p_t p) in                                  (* 57 *)
  let ts := fun i j =>
    dmp_transformation_system (Y i j) Yd (aget (o_alpha_y o)) (aget (o_beta_y o))
      (aget (p_goal_y p)) (aget (p_goal_yd p)) (aget (p_goal_ydd p)) (aget (p_start_y p))
      z (o_execution_time o) in                                                    (* 58-60 *)
  let ft := fun (_ _ : nat) (d : nat) =>
    ft_call (o_forcing_term o) (p_t p) d / o_execution_time o ^ 2 in               (* 61-62 *)
  let ct := fun i j =>
    match obstacle with
    | None => vzero                                                                (* 64-65 *)
    | Some ob =>
        let a := obstacle_2d_python (xx i j, yy i j) (Yd 0%nat, Yd 1%nat) ob 1000 (20 / PI) in
        vec2 (fst a) (snd a)                                                       (* 67 *)
    end in
  let acc := fun i j d => ft i j d + ts i j d + ct i j d in                        (* 69 *)
  Ok {| pf_xx := xx; pf_yy := yy; pf_ft := ft; pf_ts := ts; pf_ct := ct; pf_acc := acc |}. (* 70 *)

(** One call [ax.quiver(xx, yy, u, v, scale=scale, color=color)]. *)
Record quiver := {
  qv_x : nat -> nat -> R; qv_y : nat -> nat -> R;
  qv_u : nat -> nat -> R; qv_v : nat -> nat -> R;
  qv_scale : R; qv_color : string
}.

(** [np.max] of [n] numbers that are not negative. *)
Fixpoint max_upto (n : nat) (f : nat -> R) : R :=
  match n with
  | O => 0
  | S n => Rmax (max_upto n f) (f n)
  end.

(** dmp_potential_field.py:73-118 [plot_potential_field_2d] as the sequence of its calls
    of [ax.quiver].  The four arrays are different objects (62, 58, 65 / 67, 69), so that
    each of them is multiplied once.  [n_ticks = 0] makes [max] (113) raise ValueError. *)
Definition plot_potential_field_2d (o : dmp) (x_range y_range : R * R) (n_ticks : nat)
    (obstacle : option (R * R)) (exaggerate_arrows : R) : res (list quiver) :=
  bind (potential_field_2d o x_range y_range n_ticks obstacle) (fun pf =>          (* 105-106 *)
  let ft := fun i j d => pf_ft pf i j d * exaggerate_arrows in                     (* 108 *)
  let ts := fun i j d => pf_ts pf i j d * exaggerate_arrows in                     (* 109 *)
  let ct := fun i j d => pf_ct pf i j d * exaggerate_arrows in                     (* 110 *)
  let acc := fun i j d => pf_acc pf i j d * exaggerate_arrows in                   (* 111 *)
  if Nat.eqb n_ticks 0 then Err ValueError else
  let quiver_scale :=
    max_upto n_ticks (fun i => max_upto n_ticks (fun j => max_upto 2 (fun d => Rabs (acc i j d))))
    * INR n_ticks in                                                               (* 113 *)
  let draw := fun (a : nat -> nat -> vec) color =>
    {| qv_x := pf_xx pf; qv_y := pf_yy pf; qv_u := fun i j => a i j 0%nat; qv_v := fun i j => a i j 1%nat;
       qv_scale := quiver_scale; qv_color := color |} in
  Ok [draw ts "g"%string; draw ft "r"%string; draw ct "y"%string; draw acc "k"%string]).  (* 114-118 *)
