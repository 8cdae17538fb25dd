(** Specification of learning a ProMP from demonstrations (C88). *)
From Coq Require Import Reals List Arith Bool.
From Verif Require Import M_Prelude M_Base M_Matrix M_DmpObject M_ProMP.
Import ListNotations.
Open Scope R_scope.

(** The trajectory of the weights [w] at the times [T]. *)
Definition trajectory_of (o : promp) (T : arr) (w : vec) : nat -> vec :=
  match trajectory_from_weights o T {| alen := pm_n_weights o; aget := w |} with
  | Ok (Z, _) => Z
  | Err _ => fun _ _ => 0
  end.

(** Demonstrations are compared after removing most of the correlation of
    consecutive steps: 0.7 times the next step is subtracted from each step. *)
Definition filtered (n : nat) (z : nat -> R) (t : nat) : R :=
  if (S t <? n)%nat then z t - 7/10 * z (S t) else z t.

(** Squared distance between two filtered trajectories with [n] steps. *)
Definition filtered_distance (D n : nat) (Y Z : nat -> vec) : R :=
  rsum n (fun t => rsum D (fun d =>
    (filtered n (fun t => Y t d) t - filtered n (fun t => Z t d) t) ^ 2)).

(** x^T A y. *)
Definition bilinear (K : nat) (A : mat) (x y : vec) : R :=
  rsum K (fun i => rsum K (fun j => x i * A i j * y j)).

(** Twice the negative logarithm of the posterior density of the weights [w]
    given one demonstration, up to a constant: the noise has variance [v], the
    prior has mean [m] and inverse covariance [P]. *)
Definition map_cost (D K : nat) (o : promp) (v : R) (m : vec) (P : mat) (d : pdemo) (w : vec) : R :=
  / v * filtered_distance D (pd_rows d) (pd_Y d) (trajectory_of o (pd_T d) w)
  + bilinear K P (fun i => w i - m i) (fun i => w i - m i).

(** [w] and [C] are mean and covariance of that posterior: [w] has the smallest
    cost and the cost grows with the inverse of [C] around it. *)
Definition posterior (D K : nat) (o : promp) (v : R) (m : vec) (P : mat) (d : pdemo) (w : vec) (C : mat) : Prop :=
  (forall w', map_cost D K o v m P d w <= map_cost D K o v m P d w')
  /\ exists Q, inverse K C Q
     /\ forall w', map_cost D K o v m P d w'
                   = map_cost D K o v m P d w + bilinear K Q (fun i => w' i - w i) (fun i => w' i - w i).

(** The k-th unit vector. *)
Definition unit_weight (k : nat) : vec := fun i => if (i =? k)%nat then 1 else 0.

(** Expected squared distance between the demonstration and the trajectory of
    weights with mean [w] and covariance [C]. *)
Definition expected_distance (D K : nat) (o : promp) (d : pdemo) (w : vec) (C : mat) : R :=
  let n := pd_rows d in
  filtered_distance D n (pd_Y d) (trajectory_of o (pd_T d) w)
  + rsum n (fun t => rsum D (fun a =>
      let b k := filtered n (fun t => trajectory_of o (pd_T d) (unit_weight k) t a) t in
      bilinear K C b b)).

Definition total {A} (f : A -> R) (l : list A) : R := fold_right (fun a s => f a + s) 0 l.

(** One iteration: the posterior for each demonstration, then the mean and
    covariance of the mixture of these posteriors; the noise is the expected
    squared distance divided by a factor. *)
Definition em_update (D K : nat) (o : promp) (ds : list pdemo) (st st' : vec * mat * R) : Prop :=
  let '(m, C, v) := st in
  let '(m', C', v') := st' in
  let M := INR (length ds) in
  exists P ps, inverse K C P
  /\ Forall2 (fun d p => posterior D K o v m P d (fst p) (snd p)) ds ps
  /\ (forall i, m' i = total (fun p => fst p i) ps / M)
  /\ (forall i j, C' i j = total (fun p => (fst p i - m' i) * (fst p j - m' j) + snd p i j) ps / M)
  /\ v' = total (fun dp => expected_distance D K o (fst dp) (fst (snd dp)) (snd (snd dp))) (combine ds ps)
          / (sqrt (total (fun p => rsum K (fun i => fst p i ^ 2)) ps) * M * INR D * total (fun d => INR (pd_rows d)) ds + 2).

(** Distance between two means. *)
Definition mean_change (K : nat) (st st' : vec * mat * R) : R :=
  sqrt (rsum K (fun i => (fst (fst st') i - fst (fst st) i) ^ 2)).

(** At most [n] iterations; the first one that changes the mean by less than
    [min_delta] is the last one. *)
Inductive em_run (D K : nat) (o : promp) (ds : list pdemo) (min_delta : R)
    : nat -> vec * mat * R -> vec * mat * R -> Prop :=
| run_out st : em_run D K o ds min_delta 0 st st
| run_converged n st st' : em_update D K o ds st st' -> mean_change K st st' < min_delta ->
    em_run D K o ds min_delta (S n) st st'
| run_continue n st st' st'' : em_update D K o ds st st' -> min_delta <= mean_change K st st' ->
    em_run D K o ds min_delta n st' st'' -> em_run D K o ds min_delta (S n) st st''.
