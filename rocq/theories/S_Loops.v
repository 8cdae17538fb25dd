(** Specification of a tiling of a time interval. *)
From Coq Require Import Reals List.
Import ListNotations.
Open Scope R_scope.

(** [tiles a b h l]: the sub-steps [l] (each given as its end time and its
    length) lead from [a] to [b] without gap or overlap; all have positive
    length at most [h], and all but the last have length exactly [h]. *)
Fixpoint tiles (a b h : R) (l : list (R * R)) : Prop :=
  match l with
  | [] => a = b
  | (c, d) :: l' => 0 < d <= h /\ c = a + d /\ (l' <> [] -> d = h) /\ tiles c b h l'
  end.

(** Apply [body end_time length] for each sub-step, in order. *)
Definition exec_substeps {S} (body : R -> R -> S -> S) (l : list (R * R)) (s : S) : S :=
  fold_left (fun s cd => body (fst cd) (snd cd) s) l s.
