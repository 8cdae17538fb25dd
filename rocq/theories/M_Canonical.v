(** Model of dmp/_canonical_system.py. *)
From Coq Require Import Reals.
From Verif Require Import M_Prelude.
Open Scope R_scope.

(** dmp/_canonical_system.py:4-46 [canonical_system_alpha]. *)
Definition canonical_system_alpha (goal_z goal_t start_t : R) : res R :=
  if Rle_dec goal_z 0 then Err ValueError            (* line 41-42 *)
  else if Rle_dec goal_t start_t then Err ValueError (* line 43-44: start_t >= goal_t *)
  else Ok (- ln goal_z).                             (* line 46 *)

(** dmp/_canonical_system.py:49-95 [phase]; dmp_fast.pyx:21-44 [phase] is the
    same formula. *)
Definition phase (t alpha goal_t start_t : R) : R :=
  let execution_time := goal_t - start_t in
  exp (- alpha * (t - start_t) / execution_time).
