(** C82: the cache file of propagate_weight_distribution_to_state_space. *)
From Coq Require Import Reals List Arith Bool Lia Lra.
From Verif Require Import M_Prelude M_Forcing M_Dmp M_Base M_DmpObject M_Quaternion M_Cartesian M_Dual M_StateSpace
  M_StateCache Properties_StateSpace.
Import ListNotations.
Open Scope R_scope.
Set Bullet Behavior "Strict Subproofs".

(** The distribution that is asked for: what the call returns without a cache file. *)
Definition uncached {mvn} (g : gmr mvn) (a : propagation) : res mvn := snd (propagate g false a None).

(** Without a file name nothing is read or written. *)
Theorem C82_without_cache : forall mvn (g : gmr mvn) a file,
  propagate g false a file = (file, uncached g a).
Proof.
  intros mvn g a file. unfold uncached, propagate. destruct (compute_trajectories g a); reflexivity.
Qed.

(** The first call with a new file name returns the same; when it fails, no file is left. *)
Theorem C82_first_call : forall mvn (g : gmr mvn) a,
  snd (propagate g true a None) = uncached g a
  /\ (forall e, compute_trajectories g a = Err e -> propagate g true a None = (None, Err e)).
Proof.
  intros mvn g a. unfold uncached, propagate. destruct (compute_trajectories g a) as [rows|e].
  - split; [reflexivity|discriminate].
  - split; [reflexivity|]. intros e' E. injection E as ->. reflexivity.
Qed.

(** Every later call with the same arguments returns the same again and leaves the file
    (for two or more sigma points: a single one would be read as a one-dimensional array). *)
Theorem C82_repeated : forall mvn (g : gmr mvn) a rows, compute_trajectories g a = Ok rows ->
  (2 <= length rows)%nat ->
  let file := fst (propagate g true a None) in
  propagate g true a file = (file, uncached g a).
Proof.
  intros mvn g a rows E Hn file. unfold file, uncached, propagate. rewrite E. cbn [fst snd].
  destruct rows as [|r [|r' rows]]; cbn in Hn; try lia. reflexivity.
Qed.

(** The file is used whatever it was computed from: after a call with [a], the call with
    any other data set, time steps or number of weights uses the trajectories of [a]. *)
Theorem C82_stale_refuted : forall mvn (g : gmr mvn) a b rows, compute_trajectories g a = Ok rows ->
  (2 <= length rows)%nat -> pr_n_weights b = pr_n_weights a -> pr_alpha b = pr_alpha a -> pr_kappa b = pr_kappa a ->
  uncached g b <> uncached g a ->
  snd (propagate g true b (fst (propagate g true a None))) <> uncached g b.
Proof.
  intros mvn g a b rows E Hn H1 H2 H3 Hd X. apply Hd. rewrite <- X. unfold uncached, propagate. rewrite E. cbn [fst snd].
  destruct rows as [|r [|r' rows]]; cbn in Hn; try lia. cbn [loadtxt]. now rewrite H1, H2, H3.
Qed.

(** A call that was interrupted while it wrote the file: the next call does not compute the
    missing trajectories but uses the lines that are there. *)
Theorem C82_interrupted_refuted : forall mvn (g : gmr mvn) a rows k, compute_trajectories g a = Ok rows ->
  (k < length rows)%nat ->
  estimate_state_distribution g (loadtxt (firstn k rows)) (pr_alpha a) (pr_kappa a) (pr_n_weights a)
    <> uncached g a ->
  exists file, propagate_interrupted g a None k = Some file /\ (length file < length rows)%nat
    /\ propagate g true a (Some file) = (Some file, snd (propagate g true a (Some file)))
    /\ snd (propagate g true a (Some file)) <> uncached g a.
Proof.
  intros mvn g a rows k E Hk Hd. exists (firstn k rows).
  unfold propagate_interrupted. rewrite E. split; [reflexivity|].
  split; [rewrite firstn_length; lia|]. split; [reflexivity|]. exact Hd.
Qed.

(** The distribution is estimated with as many features as a parameter vector has entries. *)
Theorem C82_features : forall mvn (g : gmr mvn) t alpha kappa n w start goal e,
  alen w = (12 * n)%nat -> alen start = 14%nat -> alen goal = 14%nat ->
  estimate_state_distribution g t alpha kappa n
  = estimate_from_sigma_points g (alen (pack_parameters w start goal e)) t alpha kappa.
Proof.
  intros mvn g t alpha kappa n w start goal e Hw Hs Hg. unfold estimate_state_distribution. f_equal.
  cbn [pack_parameters alen]. lia.
Qed.

(** *** The hypotheses are met *)

(** A library that keeps the samples and the trajectories. *)
Definition ex_gmr : gmr (list arr) :=
  {| from_samples := fun l => l; sigma_points := fun l _ _ => l;
     estimate_from_sigma_points := fun _ t _ _ =>
       match t with Matrix l => Ok l | Row r => Ok [r] | Empty => Err ValueError end |}.
Definition ex_propagation (regress : regression) (dataset : list demo) : propagation :=
  {| pr_dataset := dataset; pr_n_weights := 5; pr_alpha := 1/1000; pr_kappa := 10; pr_dt := 1;
     pr_int_dt := 1/1000; pr_regress := regress; pr_impl := Cython; pr_junk := [] |}.

Lemma ex_trajectories regress n : (1 <= n)%nat ->
  exists rows, compute_trajectories ex_gmr (ex_propagation regress (repeat ss_demo n)) = Ok rows /\ length rows = n.
Proof.
  intros Hn. unfold compute_trajectories. cbn [ex_propagation pr_junk pr_regress pr_n_weights pr_int_dt pr_dataset
    pr_impl pr_alpha pr_kappa pr_dt ex_gmr from_samples sigma_points].
  match goal with |- context [estimate_dmp_parameter_distribution ?j ?a ?b ?c ?d _ _ _ _] =>
    destruct (C66_demonstration_accepted j a b c d regress 5 (1/1000) ss_demo) as [_ H];
    try (cbn; lia); try reflexivity; try (cbn [ss_demo d_n d_T Nat.sub]; rewrite !S_INR; cbn [INR]; lra);
    destruct H as (row & E & L & _); [rewrite ss_demo_diff; lra|];
    assert (EE : forall m, dataset_parameters (demonstration_parameters j a b c d regress 5 (1/1000)) (repeat ss_demo m)
      = Ok (repeat (row, d_T ss_demo (d_n ss_demo - 1)%nat) m)) end.
  { induction m as [|m IH]; [reflexivity|]. cbn [repeat dataset_parameters]. rewrite E, IH. reflexivity. }
  unfold estimate_dmp_parameter_distribution. rewrite EE. cbn [bind].
  destruct n as [|n]; [lia|]. cbn [repeat]. cbn [bind].
  set (l := _ :: repeat _ n). assert (Hl : map fst l = repeat row (S n)).
  { unfold l. change (map fst (repeat (row, d_T ss_demo (d_n ss_demo - 1)%nat) (S n)) = repeat row (S n)).
    generalize (S n). intros m. induction m as [|m IH]; [reflexivity|]. cbn [repeat map fst]. now rewrite IH. }
  assert (HX : 0 < fold_right Rplus 0 (map snd l) / INR (length l)).
  { assert (HS : forall m, fold_right Rplus 0 (map snd (repeat (row, d_T ss_demo (d_n ss_demo - 1)%nat) m)) = 2 * INR m).
    { induction m as [|m IH]; [cbn; ring|]. cbn [repeat map fold_right snd]. rewrite IH, S_INR.
      cbn [ss_demo d_n d_T Nat.sub]. rewrite !S_INR. cbn [INR]. ring. }
    change l with (repeat (row, d_T ss_demo (d_n ss_demo - 1)%nat) (S n)). rewrite HS, repeat_length.
    pose proof (lt_0_INR (S n) ltac:(lia)). apply Rdiv_lt_0_compat; lra. }
  rewrite Hl.
  match goal with |- context [propagate_to_state_space ?j _ _ _ ?x _ _] =>
    destruct (C66_propagate j Cython 5 x 1 (1/1000) (repeat row (S n))) as (rows & Ep & F) end;
    try lia; try lra; try discriminate.
  { apply Forall_forall. intros r Hr. apply repeat_spec in Hr. subst r. lia. }
  exists rows. split; [exact Ep|]. rewrite <- (repeat_length row (S n)). clear - F.
  induction F; cbn [length]; congruence.
Qed.

Example C82_satisfiable : forall regress,
  let a := ex_propagation regress (repeat ss_demo 3) in
  let b := ex_propagation regress (repeat ss_demo 4) in
  exists rows, compute_trajectories ex_gmr a = Ok rows /\ (2 <= length rows)%nat
  /\ pr_n_weights b = pr_n_weights a /\ pr_alpha b = pr_alpha a /\ pr_kappa b = pr_kappa a
  /\ uncached ex_gmr b <> uncached ex_gmr a
  /\ estimate_state_distribution ex_gmr (loadtxt (firstn 2 rows)) (pr_alpha a) (pr_kappa a) (pr_n_weights a)
     <> uncached ex_gmr a.
Proof.
  intros regress a b.
  destruct (ex_trajectories regress 3) as (ra & Ea & La); [lia|].
  destruct (ex_trajectories regress 4) as (rb & Eb & Lb); [lia|].
  exists ra. split; [exact Ea|]. split; [lia|]. do 3 (split; [reflexivity|]).
  unfold uncached, propagate, a, b. rewrite Ea, Eb. cbn [snd estimate_state_distribution estimate_from_sigma_points ex_gmr].
  split; intros E.
  - injection E as E. subst. lia.
  - destruct ra as [|r0 [|r1 [|r2 [|]]]]; try discriminate La. cbn in E. discriminate E.
Qed.
