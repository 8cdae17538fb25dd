(** C128 (the order of the demonstrations). *)
From Coq Require Import Reals List Arith Lia Lra Permutation FunctionalExtensionality.
From Verif Require Import M_Prelude M_Canonical M_Forcing M_Dmp M_Base M_DmpObject M_Quaternion M_Ridge M_Cartesian M_Dual
  M_StateSpace M_StateCache Properties_StateSpace Properties_StateCache Properties_StateSpaceExact.
Import ListNotations.
Open Scope R_scope.
Set Bullet Behavior "Strict Subproofs".

(** ** Specification *)
(** Two calls of [estimate_dmp_parameter_distribution] that received the demonstrations in
    different orders: both raise, or both give the same rows, in some order, and the same
    mean execution time. *)
Definition same_estimate (r r' : res (list arr * R)) : Prop :=
  match r, r' with
  | Ok (rows, t), Ok (rows', t') => Permutation rows rows' /\ t' = t
  | Err _, Err _ => True
  | _, _ => False
  end.

(** Both calls of [propagate_weight_distribution_to_state_space] raise, or both return the
    same distribution. *)
Definition same_result {A} (r r' : res A) : Prop :=
  match r, r' with Ok x, Ok x' => x' = x | Err _, Err _ => True | _, _ => False end.

(** The data set in another order. *)
Definition reorder (dataset' : list demo) (a : propagation) : propagation :=
  {| pr_dataset := dataset'; pr_n_weights := pr_n_weights a; pr_alpha := pr_alpha a; pr_kappa := pr_kappa a;
     pr_dt := pr_dt a; pr_int_dt := pr_int_dt a; pr_regress := pr_regress a; pr_impl := pr_impl a; pr_junk := pr_junk a |}.

(** ** Calls for each element of a list *)
Fixpoint each {A B} (f : A -> res B) (l : list A) : res (list (A * B)) :=
  match l with
  | [] => Ok []
  | x :: l => bind (f x) (fun y => bind (each f l) (fun r => Ok ((x, y) :: r)))
  end.

Definition both_or_none {A} (P : A -> A -> Prop) (r r' : res A) : Prop :=
  match r, r' with Ok x, Ok x' => P x x' | Err _, Err _ => True | _, _ => False end.

Lemma both_trans {A} (P : A -> A -> Prop) r1 r2 r3 : (forall x y z, P x y -> P y z -> P x z) ->
  both_or_none P r1 r2 -> both_or_none P r2 r3 -> both_or_none P r1 r3.
Proof. intros HT. destruct r1, r2, r3; cbn; try tauto. eauto. Qed.

Lemma each_permuted {A B} (f : A -> res B) l l' : Permutation l l' ->
  both_or_none (@Permutation (A * B)) (each f l) (each f l').
Proof.
  induction 1 as [|x l l' H IH|x y l|l1 l2 l3 H1 IH1 H2 IH2]; cbn [each].
  - cbn. constructor.
  - destruct (f x); cbn [bind]; [|exact I]. destruct (each f l), (each f l'); cbn [bind both_or_none] in *; try tauto.
    now constructor.
  - destruct (f x), (f y); cbn [bind]; try exact I; destruct (each f l); cbn [bind both_or_none]; auto. constructor.
  - eapply both_trans; [apply Permutation_trans|exact IH1|exact IH2].
Qed.

(** ** Sums *)
Lemma fold_permuted {A} (op : A -> A -> A) z l l' : (forall x y w, op x (op y w) = op y (op x w)) ->
  Permutation l l' -> fold_right op z l' = fold_right op z l.
Proof. intros HC. induction 1; cbn; congruence. Qed.

(** ** C128 *)
(** The data set of the state-space distribution. *)
Lemma dataset_each f ds : dataset_parameters f ds
  = rmap (fun r => flat_map (fun x : demo * option (arr * R) => match snd x with Some y => [y] | None => [] end) r) (each f ds).
Proof.
  induction ds as [|d ds IH]; [reflexivity|]. cbn [dataset_parameters each].
  destruct (f d) as [p|]; [|reflexivity]. cbn [bind]. rewrite IH.
  destruct (each f ds); [|reflexivity]. cbn. now destruct p.
Qed.

Theorem C128_order_of_parameters : forall junk jl jlr jr jrr regress n_weights_per_dim int_dt dataset dataset',
  Permutation dataset dataset' ->
  same_estimate (estimate_dmp_parameter_distribution junk jl jlr jr jrr regress n_weights_per_dim int_dt dataset)
                (estimate_dmp_parameter_distribution junk jl jlr jr jrr regress n_weights_per_dim int_dt dataset').
Proof.
  intros. unfold estimate_dmp_parameter_distribution. rewrite !dataset_each.
  pose proof (each_permuted (demonstration_parameters junk jl jlr jr jrr regress n_weights_per_dim int_dt) _ _ H) as HP.
  destruct (each _ dataset) as [l|]; destruct (each _ dataset') as [l'|]; cbn [both_or_none] in HP; try tauto; try exact I.
  cbn [rmap bind]. set (g := fun x : demo * option (arr * R) => match snd x with Some y => [y] | None => [] end).
  pose proof (Permutation_flat_map g HP) as HF.
  assert (EL : length (flat_map g l') = length (flat_map g l)) by (symmetry; now apply Permutation_length).
  destruct (flat_map g l) as [|x r] eqn:E; destruct (flat_map g l') as [|x' r'] eqn:E'; try discriminate; [exact I|].
  cbn [same_estimate]. split; [now apply Permutation_map|].
  rewrite EL. f_equal. apply fold_permuted; [intros; ring|now apply Permutation_map].
Qed.

(** If the Gaussian that gmr fits to samples does not depend on the order of the samples
    (mean and covariance do not), the result does not depend on the order of the
    demonstrations. *)
Theorem C128_order_of_demonstrations : forall mvn (g : gmr mvn) a dataset',
  (forall rows rows', Permutation rows rows' -> from_samples g rows' = from_samples g rows) ->
  Permutation (pr_dataset a) dataset' ->
  same_result (uncached g a) (uncached g (reorder dataset' a)).
Proof.
  intros mvn g a ds' Hg H. unfold uncached, propagate, compute_trajectories. cbn [reorder pr_dataset pr_n_weights pr_alpha
    pr_kappa pr_dt pr_int_dt pr_regress pr_impl pr_junk].
  set (j := fun k => nth k (pr_junk a) (vzero, vzero)).
  pose proof (C128_order_of_parameters (j 0%nat) (j 1%nat) (j 2%nat) (j 3%nat) (j 4%nat) (pr_regress a) (pr_n_weights a) (pr_int_dt a)
    _ _ H) as HE.
  destruct (estimate_dmp_parameter_distribution _ _ _ _ _ _ _ _ (pr_dataset a)) as [[rows x]|];
  destruct (estimate_dmp_parameter_distribution _ _ _ _ _ _ _ _ ds') as [[rows' x']|]; cbn [same_estimate] in HE; try tauto;
    try exact I.
  destruct HE as [HP ->]. cbn [bind]. rewrite (Hg _ _ HP).
  destruct (propagate_to_state_space _ _ _ _ _ _ _) as [r|]; [|exact I]. cbn [snd].
  destruct (estimate_state_distribution _ _ _ _ _); [reflexivity|exact I].
Qed.

(** The mean of the samples. *)
Definition mean_gmr (D : nat) : gmr vec :=
  {| from_samples := fun l k => fold_right Rplus 0 (map (fun r => aget r k) l) / INR (length l);
     sigma_points := fun m _ _ => [{| alen := D; aget := m |}];
     estimate_from_sigma_points := fun _ t _ _ => match t with Matrix [r] => Ok (aget r) | _ => Err ValueError end |}.

(** Two demonstrations with different parameters, for which a distribution is returned. *)
Example C128_order_satisfiable : forall regress i, exists a r1 r2 m,
  pr_dataset a = [ss_demo; ss_demo2] /\ pr_regress a = regress /\ pr_impl a = i
  /\ Permutation (pr_dataset a) [ss_demo2; ss_demo]
  /\ estimate_dmp_parameter_distribution (vzero, vzero) (vzero, vzero) (vzero, vzero) (vzero, vzero) (vzero, vzero)
       regress 5 (pr_int_dt a) (pr_dataset a) = Ok ([r1; r2], 2)
  /\ aget r1 60%nat <> aget r2 60%nat
  /\ (forall rows rows', Permutation rows rows' -> from_samples (mean_gmr 89) rows' = from_samples (mean_gmr 89) rows)
  /\ uncached (mean_gmr 89) a = Ok m.
Proof.
  intros regress i. destruct (C128_satisfiable regress i) as (a & r1 & r2 & E1 & E2 & E3 & E4 & E5 & E6 & E7 & E8 & E9 & _).
  set (z := (vzero, vzero)) in *.
  set (b := {| pr_dataset := pr_dataset a; pr_n_weights := 5; pr_alpha := 1; pr_kappa := 1; pr_dt := 1;
               pr_int_dt := pr_int_dt a; pr_regress := regress; pr_impl := i; pr_junk := [] |}).
  set (p := {| alen := 89; aget := from_samples (mean_gmr 89) [r1; r2] |}).
  destruct (C66_propagate z i 5 2 1 (pr_int_dt a) [p]) as (rows & Ep & F); try lia; try lra; try discriminate.
  { constructor; [cbn; lia|constructor]. }
  inversion F as [|? row ? tl _ F']; subst. inversion F'; subst.
  exists b, r1, r2, (aget row).
  split; [exact E1|]. split; [reflexivity|]. split; [reflexivity|].
  split; [cbn [b pr_dataset]; rewrite E1; constructor|].
  split; [exact E4|]. split; [rewrite E8, E9; lra|].
  split.
  { intros l l' H. cbn [mean_gmr from_samples]. apply functional_extensionality. intros k.
    rewrite (Permutation_length H). f_equal. apply fold_permuted; [intros; ring|now apply Permutation_map]. }
  unfold uncached, propagate, compute_trajectories. cbn [b pr_dataset pr_n_weights pr_alpha pr_kappa pr_dt pr_int_dt pr_regress
    pr_impl pr_junk nth]. fold z. rewrite E4. cbn [bind].
  change (sigma_points (mean_gmr 89) (from_samples (mean_gmr 89) [r1; r2]) 1 1) with [p]. rewrite Ep. reflexivity.
Qed.
