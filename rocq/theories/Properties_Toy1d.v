(** C65: the toy data of data/_toy_1d.py. *)
From Coq Require Import Reals Arith List Lia Lra Psatz Bool.
From Verif Require Import M_Prelude P_Loops M_Matrix P_Matrix M_Ridge M_PotentialField M_Toy1d P_Toy1d.
Import ListNotations.
Set Bullet Behavior "Strict Subproofs".
Open Scope R_scope.

(** The matrix computes accelerations: every row is the second difference of the trajectory,
    which is continued by zeros before the first and after the last step. *)
Definition extended (n : nat) (y : vec) (k : Z) : R :=
  if Z_lt_dec k 0 then 0 else if Z_lt_dec k (Z.of_nat n) then y (Z.to_nat k) else 0.

Theorem C65_accelerations : forall n dt y i, (i < n + 2)%nat ->
  let k := Z.of_nat i in
  mvec n (create_finite_differences_matrix_1d n dt) y i
  = (extended n y k - 2 * extended n y (k - 1) + extended n y (k - 2)) / dt ^ 2.
Proof.
  intros n dt y i _ k. rewrite finite_differences_mvec.
  assert (E : forall d, shifted n d y i = extended n y (k - Z.of_nat d)).
  { intros d. unfold shifted, padded, extended, k.
    destruct (Nat.ltb_spec i d), (Z_lt_dec (Z.of_nat i - Z.of_nat d) 0); try lia; [reflexivity|].
    destruct (Nat.ltb_spec (i - d) n), (Z_lt_dec (Z.of_nat i - Z.of_nat d) (Z.of_nat n)); try lia; [|reflexivity].
    f_equal. lia. }
  rewrite !E. cbn [Z.of_nat Pos.of_succ_nat Pos.succ]. rewrite Z.sub_0_r. reflexivity.
Qed.

(** Full column rank for every number of steps. *)
Theorem C65_full_rank : forall n dt y, dt <> 0 ->
  (forall i, (i < n + 2)%nat -> mvec n (create_finite_differences_matrix_1d n dt) y i = 0) ->
  forall k, (k < n)%nat -> y k = 0.
Proof. exact finite_differences_kernel. Qed.

(** The matrix that is inverted is symmetric and positive definite. *)
Theorem C65_positive_definite : forall n dt, dt <> 0 ->
  let A := create_finite_differences_matrix_1d n dt in
  let M := mmul (n + 2) (mT A) A in
  symmetric M /\ forall x, (exists i, (i < n)%nat /\ x i <> 0) -> 0 < dot n x (mvec n M x).
Proof.
  intros n dt Hdt A M. split; [|apply finite_differences_pd, Hdt].
  intros i j. unfold M, mmul, mT. apply rsum_ext. intros k _. ring.
Qed.

(** What one demonstration consists of. *)
Definition demonstration (n : nat) (L : mat) (initial final noise : R) (e y : vec) : Prop :=
  forall i, (i < n)%nat ->
  y i = cos (2 * PI * linspace 0 1 n i) + linspace initial final n i + noise * mvec n L e i.

(** The data can be generated for every number of steps but one, whatever the random numbers
    are: neither the inversion nor the Cholesky decomposition fails.  The noise is [L e] for a
    factor [L] of the inverse of [A^T A], so that its covariance is that inverse when the
    entries of [e] are independent with variance 1. *)
Theorem C65_generate : forall RS (rand : RS -> R * RS) randn n_demos n initial_range final_range noise_range rs,
  n <> 1%nat -> (forall rs, 0 <= fst (rand rs) <= 1) ->
  exists T ys rs' L, generate_1d_trajectory_distribution rand randn n_demos n initial_range final_range noise_range rs
    = Ok (T, ys, rs')
  /\ List.length ys = n_demos
  /\ ((2 <= n)%nat -> T 0%nat = 0 /\ T (n - 1)%nat = 1)
  /\ inverse n (mmul n L (mT L)) (mmul (n + 2) (mT (create_finite_differences_matrix_1d n (1 / (INR n - 1))))
                                      (create_finite_differences_matrix_1d n (1 / (INR n - 1))))
  /\ Forall (fun y => exists initial final e,
       Rabs initial <= Rabs initial_range / 2 /\ Rabs final <= Rabs final_range / 2
       /\ demonstration n L initial final noise_range e y) ys.
Proof.
  intros RS rand randn n_demos n ri rf rn rs Hn Hr.
  assert (Hdt : 1 / (INR n - 1) <> 0).
  { assert (INR n - 1 <> 0). { intros E. apply Hn. apply INR_eq. cbn. lra. }
    unfold Rdiv. rewrite Rmult_1_l. now apply Rinv_neq_0_compat. }
  destruct (finite_differences_pd n (1 / (INR n - 1)) Hdt) as [SM PM].
  unfold generate_1d_trajectory_distribution. destruct (Nat.eqb_spec n 1) as [|_]; [contradiction|].
  set (A := create_finite_differences_matrix_1d n (1 / (INR n - 1))) in *.
  set (M := mmul (n + 2) (mT A) A) in *.
  destruct (pd_inverse n M PM) as [X HX].
  rewrite (mat_ext_sized n n (crop n n M) M (sized_crop n n M) SM (crop_in n n M)) in HX.
  rewrite (np_linalg_inv_ok n M X HX). cbn [bind].
  pose proof (pd_of_inverse n M X SM PM HX) as PX.
  destruct (cholesky_exists n X PX) as [L HL].
  rewrite (np_linalg_cholesky_ok n X L HL). cbn [bind].
  assert (ELL : mmul n L (mT L) = X).
  { destruct HX as (SX & _). destruct HL as (SL & TL & PL & EL).
    apply (mat_ext_sized n n); auto. apply sized_mmul; [exact SL|]. now apply sized_mT. }
  destruct (generate_1d_demonstrations rand randn n_demos n ri rf rn L rs) as [ys rs'] eqn:Eg.
  exists (linspace 0 1 n), ys, rs', L. split; [reflexivity|].
  split; [|split; [|split]].
  - revert rs ys rs' Eg. induction n_demos as [|k IH]; intros rs ys rs' Eg; cbn in Eg.
    + injection Eg as <- _. reflexivity.
    + destruct (generate_1d_demonstration rand randn n ri rf rn L rs) as [y rs1].
      destruct (generate_1d_demonstrations rand randn k n ri rf rn L rs1) as [ys1 rs2] eqn:E1.
      injection Eg as <- _. cbn. f_equal. eapply IH, E1.
  - intros H2. unfold linspace. destruct (Nat.eqb_spec n 1); [contradiction|]. cbn [INR]. split; [ring|].
    rewrite minus_INR by lia. cbn [INR].
    assert (INR n - 1 <> 0). { intros E. apply Hn. apply INR_eq. cbn. lra. }
    field. exact H.
  - rewrite ELL. destruct HX as (SX & X1 & X2). repeat split; auto.
  - revert rs ys rs' Eg. induction n_demos as [|k IH]; intros rs ys rs' Eg; cbn in Eg.
    + injection Eg as <- _. constructor.
    + destruct (generate_1d_demonstration rand randn n ri rf rn L rs) as [y rs1] eqn:Ed.
      destruct (generate_1d_demonstrations rand randn k n ri rf rn L rs1) as [ys1 rs2] eqn:E1.
      injection Eg as <- _. constructor; [|eapply IH, E1]. clear IH E1 k.
      unfold generate_1d_demonstration in Ed.
      destruct (match Req_EM_T ri 0 with left _ => match Req_EM_T rf 0 with left _ => false | right _ => true end
                | right _ => true end) eqn:Eo.
      * pose proof (Hr rs) as H1. destruct (rand rs) as [r1 rs3]. cbn [fst] in H1.
        pose proof (Hr rs3) as H2. destruct (rand rs3) as [r2 rs4]. cbn [fst] in H2.
        exists (ri * (r1 - 1/2)), (rf * (r2 - 1/2)).
        assert (B : forall a r, 0 <= r <= 1 -> Rabs (a * (r - 1/2)) <= Rabs a / 2).
        { intros a r Hrr. rewrite Rabs_mult. assert (Rabs (r - 1/2) <= 1/2) by (apply Rabs_le; lra).
          pose proof (Rabs_pos a). nra. }
        destruct (Req_EM_T rn 0) as [E0|E0].
        -- exists vzero. split; [auto|]. split; [auto|]. intros i Hi. injection Ed as <- _.
           unfold vadd. rewrite E0. ring.
        -- destruct (randn n rs4) as [e rs5]. exists e. split; [auto|]. split; [auto|]. intros i Hi.
           injection Ed as <- _. unfold vadd, vscale. reflexivity.
      * destruct (Req_EM_T ri 0) as [E1|]; [|discriminate]. destruct (Req_EM_T rf 0) as [E2|]; [|discriminate].
        exists 0, 0. rewrite E1, E2, Rabs_R0.
        assert (Z : forall i, linspace 0 0 n i = 0).
        { intros i. unfold linspace. destruct (Nat.eqb n 1); [reflexivity|]. unfold Rdiv. ring. }
        destruct (Req_EM_T rn 0) as [E0|E0].
        -- exists vzero. split; [lra|]. split; [lra|]. intros i Hi. injection Ed as <- _.
           rewrite E0, Z. ring.
        -- destruct (randn n rs) as [e rs5]. exists e. split; [lra|]. split; [lra|]. intros i Hi.
           injection Ed as <- _. unfold vadd, vscale. rewrite Z. ring.
Qed.

(** A single step is rejected although the documentation does not exclude it. *)
Theorem C65_single_step_refuted : forall RS (rand : RS -> R * RS) randn n_demos ri rf rn rs,
  generate_1d_trajectory_distribution rand randn n_demos 1 ri rf rn rs = Err ZeroDivisionError.
Proof. reflexivity. Qed.

Example C65_satisfiable : (5 <> 1)%nat
  /\ (forall rs : nat, 0 <= fst ((fun rs : nat => (1/4, S rs)) rs) <= 1)
  /\ (exists i, (i < 5)%nat /\ (fun _ : nat => 1) i <> 0).
Proof. split; [lia|]. split; [cbn; intros; lra|]. exists 0%nat. split; [lia|lra]. Qed.
