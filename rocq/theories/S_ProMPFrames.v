(** Specification of a ProMP in another coordinate frame (C107). *)
From Coq Require Import Reals List Arith Bool.
From Verif Require Import M_Prelude M_Base M_Matrix M_DmpObject M_ProMP.
Open Scope R_scope.

(** [A] is a rotation or a reflection in [D] dimensions: its rows and its columns
    are orthogonal unit vectors. *)
Definition orthogonal (D : nat) (A : mat) : Prop := forall i j, (i < D)%nat -> (j < D)%nat ->
  rsum D (fun k => A i k * A j k) = (if (i =? j)%nat then 1 else 0)
  /\ rsum D (fun k => A k i * A k j) = (if (i =? j)%nat then 1 else 0).

(** The point [y] in the other frame. *)
Definition turned_point (D : nat) (A : mat) (y : vec) : vec := fun d => rsum D (fun e => A d e * y e).

(** The covariance of [A x] and [A y] if [C e f] is the covariance of [x e] and [y f]. *)
Definition turned_covariance (D : nat) (A C : mat) : mat := fun d d' =>
  rsum D (fun e => rsum D (fun f => A d e * A d' f * C e f)).

(** The same movement in the other frame: the weights of each basis function are
    a point.  The weights of dimension [d] are those with indices [d * N], ...,
    [d * N + N - 1]. *)
Definition turned_weights (D N : nat) (A : mat) (w : vec) : vec := fun i =>
  if (i <? D * N)%nat then turned_point D A (fun e => w (e * N + i mod N)%nat) (i / N)%nat else 0.
Definition turned_weight_cov (D N : nat) (A C : mat) : mat := fun i j =>
  if ((i <? D * N) && (j <? D * N))%nat%bool
  then turned_covariance D A (fun e f => C (e * N + i mod N)%nat (f * N + j mod N)%nat) (i / N)%nat (j / N)%nat
  else 0.
Definition turned (D N : nat) (A : mat) (o : promp) : promp :=
  from_weight_distribution (turned_weights D N A (pm_weight_mean o)) (turned_weight_cov D N A (pm_weight_cov o)) o.

(** [d'] is the demonstration [d] in the other frame and with another unit of time. *)
Definition turned_demo (D : nat) (A : mat) (d d' : pdemo) : Prop :=
  pd_rows d' = pd_rows d /\ alen (pd_T d') = alen (pd_T d)
  /\ (exists c, 0 < c /\ forall i, (i < alen (pd_T d))%nat -> aget (pd_T d') i = c * aget (pd_T d) i)
  /\ forall t e, (t < pd_rows d)%nat -> (e < D)%nat -> pd_Y d' t e = turned_point D A (pd_Y d t) e.

(** The movement shifted by [b], and a demonstration shifted by [b]. *)
Definition shifted (D N : nat) (b : vec) (o : promp) : promp :=
  from_weight_distribution
    (fun i => if (i <? D * N)%nat then pm_weight_mean o i + b (i / N)%nat else 0) (pm_weight_cov o) o.
Definition shifted_demo (D : nat) (b : vec) (d d' : pdemo) : Prop :=
  pd_rows d' = pd_rows d /\ pd_T d' = pd_T d
  /\ forall t e, (t < pd_rows d)%nat -> (e < D)%nat -> pd_Y d' t e = pd_Y d t e + b e.
