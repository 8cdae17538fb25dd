(** C118: mean and covariance of a ProMP are those of the trajectories of its random
    weights.  Final statements. *)
From Coq Require Import Reals List Arith Bool Lia Lra FunctionalExtensionality.
From Verif Require Import M_Prelude M_Base M_Matrix M_ProMP P_Matrix P_Loops P_ProMP Properties_ProMP Properties_ProMPWeights.
Import ListNotations.
Open Scope R_scope.
Set Bullet Behavior "Strict Subproofs".

(** ** Specification *)
(** An expectation [E] of functions of the weights, with which the weights have the mean
    [m] and the covariance [C]: every linear combination of the weights has the mean and
    every two have the covariance that belong to them. *)
Definition has_moments (E : (vec -> R) -> R) (K : nat) (m : vec) (C : mat) : Prop :=
  (forall u, E (fun w => rsum K (fun l => u l * w l)) = rsum K (fun l => u l * m l))
  /\ forall u v, E (fun w => rsum K (fun l => u l * (w l - m l)) * rsum K (fun l => v l * (w l - m l)))
       = rsum K (fun l => rsum K (fun l' => u l * C l l' * v l')).

(** The expectation of finitely many weights with given probabilities; with equal
    probabilities it is the average of the samples. *)
Definition weighted (n : nat) (p : nat -> R) (ws : list vec) (f : vec -> R) : R :=
  rsum n (fun i => p i * f (nth i ws vzero)).

(** Mean and covariance of such weights, component by component. *)
Definition sample_moments (n : nat) (p : nat -> R) (ws : list vec) (K : nat) (m : vec) (C : mat) : Prop :=
  length ws = n /\ (forall i, (i < n)%nat -> 0 <= p i) /\ rsum n p = 1
  /\ (forall l, (l < K)%nat -> rsum n (fun i => p i * nth i ws vzero l) = m l)
  /\ forall l l', (l < K)%nat -> (l' < K)%nat ->
     rsum n (fun i => p i * ((nth i ws vzero l - m l) * (nth i ws vzero l' - m l'))) = C l l'.

(** Step [t] of dimension [d] of the trajectory, or of the velocities, with the weights [w]. *)
Definition trajectory_of (o : promp) (T : arr) (w : vec) (t d : nat) : R :=
  match trajectory_from_weights o T {| alen := pm_n_weights o; aget := w |} with
  | Ok (Y, _) => Y t d
  | Err _ => 0
  end.
Definition velocity_of (o : promp) (T : arr) (w : vec) (t d : nat) : R :=
  match mean_velocities (from_weight_distribution w (pm_weight_cov o) o) T with
  | Ok (Y, _) => Y t d
  | Err _ => 0
  end.

(** ** Proofs *)
Lemma moments_linear E K m C a : has_moments E K m C ->
  (forall i, E (fun w => mvec K (mT a) w i) = mvec K (mT a) m i)
  /\ forall i j, E (fun w => (mvec K (mT a) w i - mvec K (mT a) m i) * (mvec K (mT a) w j - mvec K (mT a) m j))
       = mmul K (mmul K (mT a) C) a i j.
Proof.
  intros [H1 H2]. split.
  - intros i. exact (H1 (fun l => a l i)).
  - intros i j. transitivity (rsum K (fun l => rsum K (fun l' => a l i * C l l' * a l' j))).
    + rewrite <- H2. f_equal. apply functional_extensionality. intros w. f_equal;
      unfold mvec, mT; rewrite <- rsum_minus; apply rsum_ext; intros; ring.
    + unfold mmul, mT. rewrite rsum_swap. apply rsum_ext. intros l' _. rewrite Rmult_comm, <- rsum_scal.
      apply rsum_ext. intros. ring.
Qed.

Lemma trajectory_of_eq D N o T : is_promp D N o -> (0 < alen T)%nat ->
  exists a, rbfs_nd_sequence o T = Ok (a, {| alen := alen T; aget := rel_time T |})
  /\ forall w t d, trajectory_of o T w t d = mvec (D * N) (mT a) w (d * alen T + t)%nat.
Proof.
  intros Ho HT. destruct (promp_dims D N o Ho) as (ED & EN & EK).
  eexists. split; [exact (rbfs_nd_sequence_ok o T HT)|]. intros w t d.
  unfold trajectory_of, trajectory_from_weights. rewrite rbfs_nd_sequence_ok by auto. cbn [bind alen].
  rewrite ED, EN, EK, Nat.eqb_refl. reflexivity.
Qed.

Lemma velocity_of_eq D N o T : is_promp D N o -> (0 < alen T)%nat ->
  exists a T', rbfs_derivative_nd_sequence o T = Ok (a, T')
  /\ forall w t d, velocity_of o T w t d = mvec (D * N) (mT a) w (d * alen T + t)%nat.
Proof.
  intros Ho HT. destruct (promp_dims D N o Ho) as (ED & EN & _).
  destruct (rbfs_derivative_ok o T HT) as (a & T' & E & _). exists a, T'. split; [exact E|].
  intros w t d. unfold velocity_of, mean_velocities.
  change (rbfs_derivative_nd_sequence (from_weight_distribution w (pm_weight_cov o) o) T)
    with (rbfs_derivative_nd_sequence o T). rewrite E. cbn [bind].
  change (pm_n_dims (from_weight_distribution w (pm_weight_cov o) o)) with (pm_n_dims o).
  change (pm_n_weights_per_dim (from_weight_distribution w (pm_weight_cov o) o)) with (pm_n_weights_per_dim o).
  now rewrite ED, EN.
Qed.

(** ** C118 *)
(** If the weights are random with the mean and the covariance of the ProMP, the mean
    trajectory is the mean of their trajectories, the covariance of the trajectory is that
    of their trajectories at every two steps and dimensions, and the variance is the mean of
    the squared deviation.  No other property of the distribution matters. *)
Theorem C118_trajectories : forall D N o T E, is_promp D N o -> times T ->
  has_moments E (D * N) (pm_weight_mean o) (pm_weight_cov o) -> (forall f, 0 <= E (fun w => f w ^ 2)) ->
  exists Y C V T1 T2 T3, mean_trajectory o T = Ok (Y, T1) /\ cov_trajectory o T = Ok (C, T2)
  /\ var_trajectory o T = Ok (V, T3)
  /\ (forall t d, E (fun w => trajectory_of o T w t d) = Y t d)
  /\ (forall t d t' d', E (fun w => (trajectory_of o T w t d - Y t d) * (trajectory_of o T w t' d' - Y t' d'))
        = C (d * alen T + t)%nat (d' * alen T + t')%nat)
  /\ (forall t d, E (fun w => (trajectory_of o T w t d - Y t d) ^ 2) = V t d).
Proof.
  intros D N o T E Ho [HT _] HE Hpos. destruct (promp_dims D N o Ho) as (ED & EN & EK).
  destruct (trajectory_of_eq D N o T Ho HT) as (a & Ea & Ht).
  destruct (moments_linear E _ _ _ a HE) as [M1 M2].
  assert (EY : exists Y, mean_trajectory o T = Ok (Y, {| alen := alen T; aget := rel_time T |})
     /\ forall t d, Y t d = mvec (D * N) (mT a) (pm_weight_mean o) (d * alen T + t)%nat).
  { unfold mean_trajectory, trajectory_from_weights. rewrite Ea. cbn [bind alen aget].
    rewrite ED, EN, EK, Nat.eqb_refl. cbn [negb]. eexists. split; reflexivity. }
  destruct EY as (Y & EY & HY).
  assert (ft : forall t d, (fun w => trajectory_of o T w t d) = (fun w => mvec (D * N) (mT a) w (d * alen T + t)%nat))
    by (intros; apply functional_extensionality; intros; apply Ht).
  assert (fd : forall t d t' d', (fun w => (trajectory_of o T w t d - Y t d) * (trajectory_of o T w t' d' - Y t' d'))
    = (fun w => (mvec (D * N) (mT a) w (d * alen T + t)%nat - mvec (D * N) (mT a) (pm_weight_mean o) (d * alen T + t)%nat)
         * (mvec (D * N) (mT a) w (d' * alen T + t')%nat - mvec (D * N) (mT a) (pm_weight_mean o) (d' * alen T + t')%nat)))
    by (intros; apply functional_extensionality; intros; now rewrite !Ht, !HY).
  exists Y. unfold var_trajectory, var_of, cov_trajectory, cov_of. rewrite Ea, ED, EN. cbn [bind fst snd].
  do 5 eexists. split; [exact EY|]. split; [reflexivity|]. split; [reflexivity|]. split; [|split].
  - intros t d. now rewrite ft, M1, HY.
  - intros. now rewrite fd, M2.
  - intros t d. unfold reshape_T. specialize (Hpos (fun w => trajectory_of o T w t d - Y t d)). cbv beta in Hpos.
    assert (Q : E (fun w => (trajectory_of o T w t d - Y t d) ^ 2)
      = mmul (D * N) (mmul (D * N) (mT a) (pm_weight_cov o)) a (d * alen T + t)%nat (d * alen T + t)%nat).
    { rewrite <- M2, <- fd. f_equal. apply functional_extensionality. intros; ring. }
    rewrite Q in *. symmetry. apply Rmax_left. exact Hpos.
Qed.

(** The same for velocities. *)
Theorem C118_velocities : forall D N o T E, is_promp D N o -> times T ->
  has_moments E (D * N) (pm_weight_mean o) (pm_weight_cov o) -> (forall f, 0 <= E (fun w => f w ^ 2)) ->
  exists Y C V T1 T2 T3, mean_velocities o T = Ok (Y, T1) /\ cov_velocities o T = Ok (C, T2)
  /\ var_velocities o T = Ok (V, T3)
  /\ (forall t d, E (fun w => velocity_of o T w t d) = Y t d)
  /\ (forall t d t' d', E (fun w => (velocity_of o T w t d - Y t d) * (velocity_of o T w t' d' - Y t' d'))
        = C (d * alen T + t)%nat (d' * alen T + t')%nat)
  /\ (forall t d, E (fun w => (velocity_of o T w t d - Y t d) ^ 2) = V t d).
Proof.
  intros D N o T E Ho [HT _] HE Hpos. destruct (promp_dims D N o Ho) as (ED & EN & EK).
  destruct (velocity_of_eq D N o T Ho HT) as (a & T' & Ea & Ht).
  destruct (moments_linear E _ _ _ a HE) as [M1 M2].
  assert (EY : exists Y, mean_velocities o T = Ok (Y, T')
     /\ forall t d, Y t d = mvec (D * N) (mT a) (pm_weight_mean o) (d * alen T + t)%nat).
  { unfold mean_velocities. rewrite Ea. cbn [bind]. rewrite ED, EN. eexists. split; reflexivity. }
  destruct EY as (Y & EY & HY).
  assert (ft : forall t d, (fun w => velocity_of o T w t d) = (fun w => mvec (D * N) (mT a) w (d * alen T + t)%nat))
    by (intros; apply functional_extensionality; intros; apply Ht).
  assert (fd : forall t d t' d', (fun w => (velocity_of o T w t d - Y t d) * (velocity_of o T w t' d' - Y t' d'))
    = (fun w => (mvec (D * N) (mT a) w (d * alen T + t)%nat - mvec (D * N) (mT a) (pm_weight_mean o) (d * alen T + t)%nat)
         * (mvec (D * N) (mT a) w (d' * alen T + t')%nat - mvec (D * N) (mT a) (pm_weight_mean o) (d' * alen T + t')%nat)))
    by (intros; apply functional_extensionality; intros; now rewrite !Ht, !HY).
  exists Y. unfold var_velocities, var_of, cov_velocities, cov_of. rewrite Ea, ED, EN. cbn [bind fst snd].
  do 5 eexists. split; [exact EY|]. split; [reflexivity|]. split; [reflexivity|]. split; [|split].
  - intros t d. now rewrite ft, M1, HY.
  - intros. now rewrite fd, M2.
  - intros t d. unfold reshape_T. specialize (Hpos (fun w => velocity_of o T w t d - Y t d)). cbv beta in Hpos.
    assert (Q : E (fun w => (velocity_of o T w t d - Y t d) ^ 2)
      = mmul (D * N) (mmul (D * N) (mT a) (pm_weight_cov o)) a (d * alen T + t)%nat (d * alen T + t)%nat).
    { rewrite <- M2, <- fd. f_equal. apply functional_extensionality. intros; ring. }
    rewrite Q in *. symmetry. apply Rmax_left. exact Hpos.
Qed.

Lemma sample_expectation n p ws K m C : sample_moments n p ws K m C ->
  has_moments (weighted n p ws) K m C /\ forall f, 0 <= weighted n p ws (fun w => f w ^ 2).
Proof.
  intros (_ & Hp & _ & H1 & H2). unfold has_moments, weighted. split; [split|].
  - intros u.
    transitivity (rsum n (fun i => rsum K (fun l => u l * (p i * nth i ws vzero l)))).
    + apply rsum_ext. intros i _. rewrite <- rsum_scal. apply rsum_ext. intros; ring.
    + rewrite rsum_swap. apply rsum_ext. intros l Hl. rewrite rsum_scal. f_equal. now apply H1.
  - intros u v.
    transitivity (rsum n (fun i => rsum K (fun l => rsum K (fun l' =>
       u l * v l' * (p i * ((nth i ws vzero l - m l) * (nth i ws vzero l' - m l'))))))).
    + apply rsum_ext. intros i _. rewrite <- rsum_scal_r, <- rsum_scal. apply rsum_ext. intros l _.
      rewrite <- rsum_scal, <- rsum_scal. apply rsum_ext. intros; ring.
    + rewrite rsum_swap. apply rsum_ext. intros l Hl. rewrite rsum_swap. apply rsum_ext. intros l' Hl'.
      rewrite rsum_scal, H2 by auto. ring.
  - intros f. apply rsum_nonneg. intros i Hi. apply Rmult_le_pos; [auto|apply pow2_ge_0].
Qed.

(** Trajectories that were sampled with weights whose weighted mean and covariance are those
    of the ProMP: their mean at every step and dimension is the mean trajectory, and their
    covariance and variance are those of the ProMP. *)
Theorem C118_samples : forall D N o T n p ws, is_promp D N o -> times T ->
  sample_moments n p ws (D * N) (pm_weight_mean o) (pm_weight_cov o) ->
  exists Ys Y C V T1 T2 T3 T4, sample_trajectories o T ws = Ok (Ys, T1) /\ length Ys = n
  /\ mean_trajectory o T = Ok (Y, T2) /\ cov_trajectory o T = Ok (C, T3) /\ var_trajectory o T = Ok (V, T4)
  /\ (forall t d, (t < alen T)%nat -> (d < D)%nat ->
        rsum n (fun i => p i * nth i Ys (fun _ => vzero) t d) = Y t d
        /\ rsum n (fun i => p i * (nth i Ys (fun _ => vzero) t d - Y t d) ^ 2) = V t d)
  /\ (forall t d t' d', (t < alen T)%nat -> (d < D)%nat -> (t' < alen T)%nat -> (d' < D)%nat ->
        rsum n (fun i => p i * ((nth i Ys (fun _ => vzero) t d - Y t d) * (nth i Ys (fun _ => vzero) t' d' - Y t' d')))
        = C (d * alen T + t)%nat (d' * alen T + t')%nat).
Proof.
  intros D N o T n p ws Ho HT HS. destruct (promp_dims D N o Ho) as (_ & _ & EK).
  destruct (sample_expectation _ _ _ _ _ _ HS) as [HM Hpos]. destruct HS as (Hn & _).
  destruct (C118_trajectories D N o T _ Ho HT HM Hpos) as (Y & C & V & T2 & T3 & T4 & E2 & E3 & E4 & Q1 & Q2 & Q3).
  destruct (C55_samples D N o T ws Ho HT) as (Ys & T1 & E1 & F & _).
  assert (L : length Ys = n) by (rewrite <- Hn; clear - F; induction F; cbn; congruence).
  assert (S : forall i t d, (i < n)%nat -> (t < alen T)%nat -> (d < D)%nat ->
     nth i Ys (fun _ => vzero) t d = trajectory_of o T (nth i ws vzero) t d).
  { clear - F Hn EK. subst n. intros i t d Hi Ht Hd. revert i Hi. induction F as [|w Z ws Ys (X & (T' & EX) & HX) F IH]; intros i Hi.
    - cbn in Hi. lia.
    - destruct i as [|i]; cbn [nth].
      + rewrite HX by auto. unfold trajectory_of. now rewrite EK, EX.
      + apply IH. cbn in Hi. lia. }
  exists Ys, Y, C, V, T1, T2, T3, T4. repeat (split; [assumption|]). split.
  - intros t d Ht Hd. split.
    + rewrite <- Q1. apply rsum_ext. intros i Hi. now rewrite S.
    + rewrite <- Q3. apply rsum_ext. intros i Hi. now rewrite S.
  - intros t d t' d' Ht Hd Ht' Hd'. rewrite <- Q2. apply rsum_ext. intros i Hi. now rewrite !S.
Qed.

(** Four samples with equal probabilities of the two weights of a ProMP with one dimension:
    all combinations of 1 and -1 have the mean 0 and the covariance of a new ProMP. *)
Definition signs (a b : R) : vec := fun l => match l with O => a | 1%nat => b | _ => 0 end.
Example C118_satisfiable : is_promp 1 2 (promp_new 1 2) /\ times ex_T
  /\ sample_moments 4 (fun _ => 1 / 4) [signs 1 1; signs 1 (-1); signs (-1) 1; signs (-1) (-1)] (1 * 2)
       (pm_weight_mean (promp_new 1 2)) (pm_weight_cov (promp_new 1 2)).
Proof.
  split; [exists vzero, (eye 2); reflexivity|]. split; [apply C50_satisfiable|].
  split; [reflexivity|]. split; [intros; lra|]. split; [cbn; lra|]. split.
  - intros l Hl. destruct l as [|[|l]]; [| |lia]; cbn; unfold vzero; lra.
  - intros l l' Hl Hl'. destruct l as [|[|l]]; [| |lia]; (destruct l' as [|[|l']]; [| |lia]); cbn; unfold vzero; lra.
Qed.
