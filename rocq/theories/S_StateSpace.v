(** Specification for C128: sample mean and covariance, and the contract of gmr. *)
From Coq Require Import Reals List Arith.
From Verif Require Import M_Prelude M_Base M_StateSpace M_StateCache.
Open Scope R_scope.

(** Entry [k] of row [j]. *)
Definition entry (rows : list arr) (j k : nat) : R := aget (nth j rows (zeros 0)) k.

(** Sample mean and (Bessel-corrected) sample covariance of the entries [k], [l] of some rows. *)
Definition sample_mean (rows : list arr) (k : nat) : R :=
  rsum (length rows) (fun j => entry rows j k) / INR (length rows).
Definition sample_cov (rows : list arr) (k l : nat) : R :=
  rsum (length rows) (fun j => (entry rows j k - sample_mean rows k) * (entry rows j l - sample_mean rows l))
  / (INR (length rows) - 1).

(** Mean and covariance with weights. *)
Definition weighted_mean (w : vec) (rows : list arr) (k : nat) : R :=
  rsum (length rows) (fun j => w j * entry rows j k).
Definition weighted_cov (wm wc : vec) (rows : list arr) (k l : nat) : R :=
  rsum (length rows) (fun j => wc j * ((entry rows j k - weighted_mean wm rows k)
                                       * (entry rows j l - weighted_mean wm rows l))).

(** gmr keeps its contract for some samples with [D] features: there are weights for mean and
    covariance (they depend on [D], [alpha] and [kappa]) with which the [2 D + 1] sigma points
    have the mean and the covariance of the samples, and with which
    [estimate_from_sigma_points] of an MVN with [D] features computes the result from
    [2 D + 1] rows.  [mean] and [cov] read the attributes of an MVN. *)
Record keeps_contract {mvn} (g : gmr mvn) (mean : mvn -> vec) (cov : mvn -> nat -> nat -> R)
    (D : nat) (alpha kappa : R) (samples : list arr) : Prop := {
  kc_number : length (sigma_points g (from_samples g samples) alpha kappa) = (2 * D + 1)%nat;
  kc_length : Forall (fun p => alen p = D) (sigma_points g (from_samples g samples) alpha kappa);
  kc_weights : exists wm wc,
    (forall a, (a < D)%nat ->
       weighted_mean wm (sigma_points g (from_samples g samples) alpha kappa) a = sample_mean samples a)
    /\ (forall a b, (a < D)%nat -> (b < D)%nat ->
       weighted_cov wm wc (sigma_points g (from_samples g samples) alpha kappa) a b = sample_cov samples a b)
    /\ (forall rows, length rows = (2 * D + 1)%nat ->
       exists m, estimate_from_sigma_points g D (Matrix rows) alpha kappa = Ok m
       /\ (forall k, mean m k = weighted_mean wm rows k)
       /\ (forall k l, cov m k l = weighted_cov wm wc rows k l))
}.

(** The entries of a flattened trajectory of two poses (position and quaternion each) that
    belong to positions. *)
Definition is_position (k : nat) : Prop :=
  let column := (k mod 14)%nat in (column < 3)%nat \/ (7 <= column < 10)%nat.
