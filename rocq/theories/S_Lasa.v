(** What a user expects of the data set on disk and of its demonstrations. *)
From Coq Require Import Reals List String Permutation.
From Verif Require Import M_Prelude M_Lasa.
Import ListNotations.
Open Scope R_scope.

(** The directory holds exactly the files of the archive, each completely written. *)
Definition complete (a : archive) (d : dir) : Prop :=
  Permutation d (map (fun f => (fst f, Some (snd f))) a).

(** The data directory after any number of processes that ran one after the other;
    each of them stopped (finished, failed or was killed) after any number of steps. *)
Inductive after_runs (a : archive) : fs -> Prop :=
| AR_start : after_runs a no_data
| AR_run s network n :
    after_runs a s -> after_runs a (fst (proc_steps a network n s Check)).

(** Two processes at the same time: the list tells which one takes the next step;
    a process that does not appear any more was killed or is not scheduled. *)
Fixpoint interleaved (a : archive) (schedule : list bool) (s : fs) (p q : proc) : fs * proc * proc :=
  match schedule with
  | [] => (s, p, q)
  | true :: r => let (s, p) := proc_step a true s p in interleaved a r s p q
  | false :: r => let (s, q) := proc_step a true s q in interleaved a r s p q
  end.

(** Consecutive entries of [t] are [dt] apart. *)
Definition spaced (t : nat -> R) (n : nat) (dt : R) : Prop :=
  forall i, (S i < n)%nat -> t (S i) - t i = dt.
