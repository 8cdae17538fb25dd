(** Model of dmp/_state_following_dmp.py. *)
From Coq Require Import Reals ZArith List Arith.
From Verif Require Import M_Prelude M_Canonical M_Forcing M_Dmp M_Base M_SpringDamper.
Import ListNotations.
Open Scope R_scope.

(** dmp/_state_following_dmp.py:76-91 [StateFollowingForcingTerm]: attributes.
    [sf_viapoints i d] is [viapoints[i, d]]. *)
Record sf_forcing := {
  sf_n : nat;
  sf_goal_t : R; sf_start_t : R; sf_overlap : R; sf_alpha_z : R;
  sf_viapoints : nat -> nat -> R;
  sf_centers : vec; sf_widths : vec
}.

(** dmp/_state_following_dmp.py:93-114 [_init_rbfs].  The loop body 103-110 is
    textually the one of dmp/_forcing_term.py:62-69; the step length (98) is not.
    For [n = 1] line 113 reads [widths[-1]], which is entry 0 itself. *)
Definition sf_init_rbfs (junk_c junk_w : vec) (n : nat) (alpha_z goal_t start_t overlap : R)
    : vec * vec :=
  let log_overlap := - ln overlap in                                 (* 94 *)
  let execution_time := goal_t - start_t in                          (* 95 *)
  let step := execution_time / INR n in                              (* 98 *)
  let centers := upd junk_c 0 (phase start_t alpha_z goal_t start_t) in (* 101-102 *)
  let '(centers, widths) :=
    fold_left (init_rbfs_body alpha_z goal_t start_t log_overlap step)
              (seq 1 (n - 1)) (centers, junk_w) in                   (* 103-110 *)
  (centers, upd widths (n - 1)%nat (widths (n - 2)%nat)).            (* 113 *)

(** dmp/_state_following_dmp.py:78-91 [__init__]. *)
Definition sf_forcing_init (junk_c junk_w : vec) (n : nat) (goal_t start_t overlap alpha_z : R)
    : res sf_forcing :=
  if Nat.leb n 0 then Err ValueError                                 (* 79-80 *)
  else if Rle_dec goal_t start_t then Err ValueError                 (* 82-83 *)
  else if Rle_dec overlap 0 then Err ValueError                      (* 94: math.log *)
  else
    let '(centers, widths) := sf_init_rbfs junk_c junk_w n alpha_z goal_t start_t overlap in
    Ok {| sf_n := n; sf_goal_t := goal_t; sf_start_t := start_t; sf_overlap := overlap;
          sf_alpha_z := alpha_z; sf_viapoints := fun _ _ => 0;
          sf_centers := centers; sf_widths := widths |}.

(** Assignment of [forcing_term.viapoints]. *)
Definition set_viapoints (v : nat -> nat -> R) (f : sf_forcing) : sf_forcing :=
  {| sf_n := sf_n f; sf_goal_t := sf_goal_t f; sf_start_t := sf_start_t f;
     sf_overlap := sf_overlap f; sf_alpha_z := sf_alpha_z f; sf_viapoints := v;
     sf_centers := sf_centers f; sf_widths := sf_widths f |}.

(** dmp/_state_following_dmp.py:116-128 [_activations], [__call__]: one row.  The
    arithmetic is that of dmp/_forcing_term.py:75-80. *)
Definition sf_call (f : sf_forcing) (t : R) : vec :=
  activations (sf_n f) (sf_centers f) (sf_widths f)
    (phase t (sf_alpha_z f) (sf_goal_t f) (sf_start_t f)).

(** Arguments of [state_following_dmp_step] that it reads.  The goal state and
    the start state are not among them (goal_y, goal_yd, goal_ydd are unused;
    start_y, start_yd, start_ydd are only returned for [t <= start_t], where the
    callers ignore them). *)
Record sf_args := {
  sa_goal_t : R; sa_start_t : R; sa_alpha_y : vec; sa_beta_y : vec;
  sa_forcing : sf_forcing; sa_coupling : option coupling;
  sa_precomputed : option (vec * vec); sa_int_dt : R
}.

(** dmp/_state_following_dmp.py:152-167, loop body. *)
Definition sf_body (a : sf_args) (current_t dt : R) (s : vec * vec) : vec * vec :=
  let '(y, yd) := s in
  let execution_time := sa_goal_t a - sa_start_t a in                (* 140 *)
  let '(cd, cdd) := match sa_coupling a with
                    | Some c => c y yd                               (* 152 *)
                    | None => (vzero, vzero) end in                  (* 154 *)
  let '(cd, cdd) := match sa_precomputed a with
                    | Some (pd, pdd) => (vadd cd pd, vadd cdd pdd)   (* 155-157 *)
                    | None => (cd, cdd) end in
  let h := sf_call (sa_forcing a) current_t in                       (* 159 *)
  let ydd := fun d =>
    rsum (sf_n (sa_forcing a)) (fun i =>
      h i * sa_alpha_y a d * (sa_beta_y a d * (sf_viapoints (sa_forcing a) i d - y d)
                              - / 2 * execution_time * yd d)
      / (/ 2 * execution_time) ^ 2)                                  (* 161-164 *)
    + cdd d / (/ 2 * execution_time) ^ 2 in                          (* 165 *)
  let yd := fun d => yd d + (dt * ydd d + cd d / (/ 2 * execution_time)) in (* 166 *)
  let y := fun d => y d + dt * yd d in                               (* 167 *)
  (y, yd).

(** dmp/_state_following_dmp.py:130-167 [state_following_dmp_step]. *)
Definition sf_step_fn (a : sf_args) (last_t t : R) (s : vec * vec) : res (vec * vec) :=
  if Rle_dec (sa_goal_t a) (sa_start_t a) then Err ValueError        (* 134-135 *)
  else if Rle_dec t (sa_start_t a) then Ok s                         (* 137-138 *)
  else substeps (substeps_fuel last_t t (sa_int_dt a)) last_t t (sa_int_dt a) (sf_body a) s.

(** dmp/_state_following_dmp.py:181-194: the loop of
    [state_following_dmp_open_loop]; [t] is accumulated. *)
Fixpoint sf_loop (fuel : nat) (a : sf_args) (dt run_t t : R) (s : vec * vec)
    : res (list R * list (vec * vec)) :=
  if Rlt_dec t run_t then                                            (* 179 *)
    match fuel with
    | O => Err OutOfFuel
    | S fuel =>
        let last_t := t in let t := t + dt in                        (* 180-181 *)
        bind (sf_step_fn a last_t t s) (fun s =>                     (* 182-191 *)
        bind (sf_loop fuel a dt run_t t s) (fun r =>
        Ok (t :: fst r, s :: snd r)))                                (* 192-193 *)
    end
  else Ok ([], []).

(** dmp/_state_following_dmp.py:170-194 [state_following_dmp_open_loop]. *)
Definition sf_open_loop_fn (a : sf_args) (dt : R) (start_y : vec) (run_t : option R)
    : res (list R * list (vec * vec)) :=
  let run_t := match run_t with Some x => x | None => sa_goal_t a end in (* 177-178 *)
  let s0 := (start_y, vzero) in                                      (* 173-174 *)
  bind (sf_loop (Z.to_nat (up ((run_t - sa_start_t a) / dt))) a dt run_t (sa_start_t a) s0)
    (fun r => Ok (sa_start_t a :: fst r, s0 :: snd r)).              (* 175-176, 194 *)

(** dmp/_state_following_dmp.py:8-43 [StateFollowingDMP]: attributes. *)
Record sf_dmp := {
  f_base : ptp; f_execution_time : R; f_dt : R; f_int_dt : R;
  f_alpha_y : arr; f_beta_y : arr; f_forcing : sf_forcing
}.

(** dmp/_state_following_dmp.py:27-43 [__init__]. *)
Definition sf_new (junk : vec * vec) (n_dims : nat) (execution_time dt : R) (n_viapoints : nat)
    (int_dt : R) (alpha_y beta_y : ndarray) : res sf_dmp :=
  bind (canonical_system_alpha (1 / 100) execution_time 0) (fun alpha_z =>
  bind (ensure_1d_array alpha_y n_dims) (fun alpha_y =>
  bind (ensure_1d_array beta_y n_dims) (fun beta_y =>
  bind (sf_forcing_init (fst junk) (snd junk) n_viapoints execution_time 0 (1 / 10) alpha_z)
    (fun f =>
  Ok {| f_base := ptp_init n_dims n_dims; f_execution_time := execution_time; f_dt := dt;
        f_int_dt := int_dt; f_alpha_y := alpha_y; f_beta_y := beta_y; f_forcing := f |})))).

Definition sf_with_base (p : ptp) (o : sf_dmp) : sf_dmp :=
  {| f_base := p; f_execution_time := f_execution_time o; f_dt := f_dt o; f_int_dt := f_int_dt o;
     f_alpha_y := f_alpha_y o; f_beta_y := f_beta_y o; f_forcing := f_forcing o |}.

Definition sf_object_args (coupling_term : option coupling) (o : sf_dmp) : sf_args :=
  {| sa_goal_t := f_execution_time o; sa_start_t := 0;
     sa_alpha_y := aget (f_alpha_y o); sa_beta_y := aget (f_beta_y o);
     sa_forcing := f_forcing o; sa_coupling := coupling_term; sa_precomputed := None;
     sa_int_dt := f_int_dt o |}.

(** dmp/_state_following_dmp.py:45-63 [step].  It returns the internal arrays
    themselves (63); see C64. *)
Definition sf_step (last_y last_yd : arr) (coupling_term : option coupling) (o : sf_dmp)
    : sf_dmp * res (arr * arr) :=
  if negb (Nat.eqb (alen last_y) (p_n_dims (f_base o))) then (o, Err AssertionError)  (* 46 *)
  else if negb (Nat.eqb (alen last_yd) (p_n_dims (f_base o))) then (o, Err AssertionError) (* 47 *)
  else
    let t0 := p_t (f_base o) in
    let t1 := t0 + f_dt o in
    let p := set_t t1 (set_last_t (Some t0) (f_base o)) in           (* 49-50 *)
    match assign_slice (p_current_y p) last_y, assign_slice (p_current_yd p) last_yd with (* 52 *)
    | Ok y, Ok yd =>
        match sf_step_fn (sf_object_args coupling_term o) t0 t1 (aget y, aget yd) with (* 53-62 *)
        | Err e => (sf_with_base (set_current y yd p) o, Err e)
        | Ok (y', yd') =>
            let y' := {| alen := alen y; aget := y' |} in
            let yd' := {| alen := alen yd; aget := yd' |} in
            (sf_with_base (set_current y' yd' p) o, Ok (y', yd'))    (* 63 *)
        end
    | Err e, _ => (sf_with_base p o, Err e)
    | Ok y, Err e => (sf_with_base (set_current y (p_current_yd p) p) o, Err e)
    end.

(** dmp/_state_following_dmp.py:65-69 [open_loop]. *)
Definition sf_open_loop (run_t : option R) (coupling_term : option coupling) (o : sf_dmp)
    : res (list R * list vec) :=
  rmap (fun r => (fst r, map fst (snd r)))
    (sf_open_loop_fn (sf_object_args coupling_term o) (f_dt o) (aget (p_start_y (f_base o))) run_t).
