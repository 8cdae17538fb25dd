(** C139: independent components of a ProMP stay independent when it is conditioned, and
    each is conditioned as it would be alone.  Final statements. *)
From Coq Require Import Reals List Arith Lia Lra.
From Verif Require Import M_Prelude M_Base P_Loops M_Matrix P_Matrix M_DmpObject M_Ridge M_ProMP P_ProMP
  P_Conditioning P_Bayes Properties_ProMP Properties_Conditioning Properties_Bayes.
Import ListNotations.
Open Scope R_scope.
Set Bullet Behavior "Strict Subproofs".

(** ** Specification *)
(** Component [d] of a ProMP with [N] weights per component, as a ProMP of its own: the
    constructor followed by [from_weight_distribution] with the component's weights. *)
Definition component (N d : nat) (o : promp) : promp :=
  from_weight_distribution
    (fun k => if (k <? N)%nat then pm_weight_mean o (d * N + k)%nat else 0)
    (fun i j => if ((i <? N) && (j <? N))%nat%bool then pm_weight_cov o (d * N + i)%nat (d * N + j)%nat else 0)
    (promp_new 1 N).
(** The weights of different components are uncorrelated. *)
Definition independent (D N : nat) (o : promp) : Prop := forall d e i j,
  (d < D)%nat -> (e < D)%nat -> d <> e -> (i < N)%nat -> (j < N)%nat ->
  pm_weight_cov o (d * N + i)%nat (e * N + j)%nat = 0.
(** The errors of the observed components are uncorrelated. *)
Definition independent_noise (D : nat) (c : obs_cov) : Prop := forall d e,
  (d < D)%nat -> (e < D)%nat -> d <> e -> noise_matrix c d e = 0.
(** What a condition says about component [d]. *)
Definition about (d : nat) (q : condition) : condition :=
  {| cd_t := cd_t q; cd_t_max := cd_t_max q; cd_y := fun _ => cd_y q d;
     cd_cov := FullCov (fun _ _ => noise_matrix (cd_cov q) d d) |}.

(** ** Proofs *)
Lemma one_term n i f : (i < n)%nat -> (forall k, (k < n)%nat -> k <> i -> f k = 0) -> rsum n f = f i.
Proof.
  intros Hi H. rewrite <- (rsum_delta n i f Hi). apply rsum_ext. intros k Hk.
  destruct (Nat.eqb_spec i k) as [<-|Hne]; [ring|]. rewrite H by auto. ring.
Qed.

Lemma mmul_Psi D N s M i d : (d < D)%nat ->
  mmul (D * N) M (Psi D N s) i d = rsum N (fun k => basis (promp_new D N) s k * M i (d * N + k)%nat).
Proof.
  intros Hd. rewrite <- (Psi_T_vec D N s (M i) d Hd). unfold mmul, mvec, mT. apply rsum_ext. intros; ring.
Qed.
Lemma mmul_Psi_T D N s M d j : (d < D)%nat ->
  mmul (D * N) (mT (Psi D N s)) M d j = rsum N (fun k => basis (promp_new D N) s k * M (d * N + k)%nat j).
Proof. intros Hd. exact (Psi_T_vec D N s (fun i => M i j) d Hd). Qed.

(** What the weights of component [d] have to do with its position at relative time [s]. *)
Definition right_part (D N : nat) (s : R) (S : mat) (d i : nat) : R :=
  rsum N (fun k => basis (promp_new D N) s k * S (d * N + i)%nat (d * N + k)%nat).
Definition left_part (D N : nat) (s : R) (S : mat) (d j : nat) : R :=
  rsum N (fun k => basis (promp_new D N) s k * S (d * N + k)%nat (d * N + j)%nat).
Definition spread_at (D N : nat) (s : R) (S : mat) (d : nat) : R :=
  rsum N (fun i => basis (promp_new D N) s i * right_part D N s S d i).

Lemma observation_entry D N s c o d e : independent D N o -> independent_noise D c ->
  (d < D)%nat -> (e < D)%nat ->
  observation D N s c o d e = if (d =? e)%nat then noise_matrix c d d + spread_at D N s (pm_weight_cov o) d else 0.
Proof.
  intros Ho Hc Hd He.
  assert (E1 : mmul (D * N) (mmul (D * N) (mT (Psi D N s)) (pm_weight_cov o)) (Psi D N s) d e
    = if (d =? e)%nat then spread_at D N s (pm_weight_cov o) d else 0).
  { rewrite mmul_assoc, mmul_Psi_T by auto. destruct (Nat.eqb_spec d e) as [<-|Hne].
    - apply rsum_ext. intros k Hk. now rewrite mmul_Psi.
    - apply rsum_0. intros k Hk. rewrite mmul_Psi by auto. rewrite rsum_0; [ring|].
      intros l Hl. rewrite Ho by auto. ring. }
  assert (E2 : observation D N s c o d e = noise_matrix c d e
    + mmul (D * N) (mmul (D * N) (mT (Psi D N s)) (pm_weight_cov o)) (Psi D N s) d e).
  { unfold observation, add_obs_cov, noise_matrix. destruct c; [ring| |]; unfold madd; rewrite crop_in by auto; reflexivity. }
  rewrite E2, E1. destruct (Nat.eqb_spec d e) as [<-|Hne]; [reflexivity|]. rewrite Hc by auto. ring.
Qed.

(** Inverse of a diagonal matrix. *)
Lemma diagonal_inverse n A G : inverse n A G ->
  (forall d e, (d < n)%nat -> (e < n)%nat -> d <> e -> A d e = 0) ->
  forall d e, (d < n)%nat -> (e < n)%nat -> A d d * G d e = if (d =? e)%nat then 1 else 0.
Proof.
  intros (_ & H & _) HA d e Hd He.
  assert (E : mmul n A G d e = eye n d e) by now rewrite H.
  unfold mmul in E. rewrite (one_term n d) in E by (auto; intros; rewrite HA by auto; ring).
  rewrite E. unfold eye. destruct (Nat.eqb_spec d e); destruct (Nat.ltb_spec d n); try lia; reflexivity.
Qed.

Section Entries.
Variables (D N : nat) (s : R) (y : vec) (c : obs_cov) (o : promp) (G : mat).
Hypothesis Ho : independent D N o.
Hypothesis Hc : independent_noise D c.
Hypothesis HG : inverse D (observation D N s c o) G.
Let S := pm_weight_cov o.
Let a d := noise_matrix c d d + spread_at D N s S d.

Lemma observation_diagonal d e : (d < D)%nat -> (e < D)%nat -> d <> e -> observation D N s c o d e = 0.
Proof. intros Hd He Hne. rewrite observation_entry by auto. destruct (Nat.eqb_spec d e); [lia|reflexivity]. Qed.
Lemma a_nonzero d : (d < D)%nat -> a d <> 0.
Proof.
  intros Hd Z. assert (E := diagonal_inverse D _ G HG observation_diagonal d d Hd Hd).
  rewrite Nat.eqb_refl in E. rename E into E'.
  rewrite observation_entry, Nat.eqb_refl in E' by auto. unfold a, S in Z. rewrite Z in E'. lra.
Qed.
Lemma G_entry d e : (d < D)%nat -> (e < D)%nat -> G d e = if (d =? e)%nat then / a d else 0.
Proof.
  intros Hd He. assert (Z := a_nonzero d Hd).
  assert (E := diagonal_inverse D _ G HG observation_diagonal d e Hd He).
  rewrite observation_entry, Nat.eqb_refl in E by auto. fold S (a d) in E.
  apply Rmult_eq_reg_l with (a d); auto. rewrite E. destruct (d =? e)%nat; [now rewrite Rinv_r|ring].
Qed.
Lemma gain_entry d e i : (d < D)%nat -> (e < D)%nat -> (i < N)%nat ->
  mmul D (mmul (D * N) S (Psi D N s)) G (d * N + i)%nat e = if (d =? e)%nat then right_part D N s S d i / a d else 0.
Proof.
  intros Hd He Hi. unfold mmul at 1. rewrite (one_term D d); auto.
  - rewrite mmul_Psi by auto. fold (right_part D N s S d i). rewrite G_entry by auto.
    destruct (d =? e)%nat; [reflexivity|ring].
  - intros f Hf Hne. rewrite mmul_Psi by auto. rewrite rsum_0; [ring|]. intros k Hk. unfold S. rewrite Ho by auto. ring.
Qed.

Lemma mean_entry d i : (d < D)%nat -> (i < N)%nat ->
  pm_weight_mean (posterior D N s y o G) (d * N + i)%nat
  = pm_weight_mean o (d * N + i)%nat + right_part D N s S d i / a d
      * (y d - rsum N (fun k => basis (promp_new D N) s k * pm_weight_mean o (d * N + k)%nat)).
Proof.
  intros Hd Hi. unfold posterior. cbn [from_weight_distribution pm_weight_mean]. unfold vadd. f_equal.
  unfold mvec at 1. rewrite (one_term D d); auto.
  - rewrite gain_entry, Nat.eqb_refl by auto. unfold vsub. now rewrite Psi_T_vec.
  - intros e He Hne. rewrite gain_entry by auto. destruct (Nat.eqb_spec d e); [lia|ring].
Qed.
Lemma cov_entry d e i j : (d < D)%nat -> (e < D)%nat -> (i < N)%nat -> (j < N)%nat ->
  pm_weight_cov (posterior D N s y o G) (d * N + i)%nat (e * N + j)%nat
  = if (d =? e)%nat then S (d * N + i)%nat (d * N + j)%nat - right_part D N s S d i / a d * left_part D N s S d j else 0.
Proof.
  intros Hd He Hi Hj. unfold posterior, conditioned_cov. cbn [from_weight_distribution pm_weight_cov]. unfold msub.
  rewrite mmul_assoc. fold S. unfold mmul at 1. rewrite (one_term D e); auto.
  - rewrite gain_entry, mmul_Psi_T by auto. fold (left_part D N s S e j).
    destruct (Nat.eqb_spec d e) as [<-|Hne].
    + reflexivity.
    + unfold S. rewrite Ho by auto. ring.
  - intros f Hf Hne. rewrite mmul_Psi_T by auto.
    rewrite (rsum_0 N (fun k => basis (promp_new D N) s k * S (f * N + k)%nat (e * N + j)%nat)); [ring|].
    intros k Hk. unfold S. rewrite Ho by auto. ring.
Qed.
End Entries.

Lemma component_promp N d o : is_promp 1 N (component N d o).
Proof. eexists _, _. reflexivity. Qed.
Lemma one_independent N o : independent 1 N o.
Proof. intros d e i j. lia. Qed.
Lemma one_independent_noise c : independent_noise 1 c.
Proof. intros d e. lia. Qed.
Lemma component_mean N d o k : (k < N)%nat -> pm_weight_mean (component N d o) k = pm_weight_mean o (d * N + k)%nat.
Proof. intros Hk. cbn [component from_weight_distribution pm_weight_mean pm_weight_cov]. destruct (Nat.ltb_spec k N); [reflexivity|lia]. Qed.
Lemma component_cov N d o i j : (i < N)%nat -> (j < N)%nat ->
  pm_weight_cov (component N d o) i j = pm_weight_cov o (d * N + i)%nat (d * N + j)%nat.
Proof.
  intros Hi Hj. cbn [component from_weight_distribution pm_weight_mean pm_weight_cov]. destruct (Nat.ltb_spec i N), (Nat.ltb_spec j N); try lia. reflexivity.
Qed.
Lemma component_right D N s d o i : (i < N)%nat ->
  right_part 1 N s (pm_weight_cov (component N d o)) 0 i = right_part D N s (pm_weight_cov o) d i.
Proof. intros Hi. apply rsum_ext. intros k Hk. cbn [Nat.mul Nat.add]. now rewrite component_cov. Qed.
Lemma component_left D N s d o i : (i < N)%nat ->
  left_part 1 N s (pm_weight_cov (component N d o)) 0 i = left_part D N s (pm_weight_cov o) d i.
Proof. intros Hi. apply rsum_ext. intros k Hk. cbn [Nat.mul Nat.add]. now rewrite component_cov. Qed.
Lemma component_spread D N s d o :
  spread_at 1 N s (pm_weight_cov (component N d o)) 0 = spread_at D N s (pm_weight_cov o) d.
Proof. apply rsum_ext. intros k Hk. now rewrite (component_right D). Qed.

Lemma component_step D N o q o' : is_promp D N o -> cd_t_max q <> 0 -> independent D N o -> independent_noise D (cd_cov q) ->
  condition_position o (cd_y q) (cd_cov q) (cd_t q) (cd_t_max q) = Ok o' ->
  is_promp D N o' /\ independent D N o'
  /\ forall d, (d < D)%nat -> let p := about d q in
     condition_position (component N d o) (cd_y p) (cd_cov p) (cd_t p) (cd_t_max p) = Ok (component N d o').
Proof.
  intros Hp Ht Ho Hc E. split; [now apply (C52_shape D N _ _ _ _ _ _ Hp Ht E)|].
  destruct (condition_ok D N _ _ _ _ _ _ Hp Ht E) as (G & HG & ->).
  set (s := cd_t q / cd_t_max q) in *. set (y := cd_y q) in *. set (c := cd_cov q) in *.
  split.
  { intros d e i j Hd He Hne Hi Hj. rewrite (cov_entry D N s y c o G) by auto.
    destruct (Nat.eqb_spec d e); [contradiction|reflexivity]. }
  intros d Hd p. cbn [about cd_y cd_cov cd_t cd_t_max p]. fold s y c.
  assert (HN : independent_noise 1 (FullCov (fun _ _ => noise_matrix c d d))) by apply one_independent_noise.
  assert (HI := one_independent N (component N d o)).
  rewrite (condition_eq 1 N) by (auto using component_promp). fold s.
  set (a := noise_matrix c d d + spread_at D N s (pm_weight_cov o) d).
  assert (Ha : a <> 0) by (apply (a_nonzero D N s c o G); auto).
  set (A := observation 1 N s (FullCov (fun _ _ => noise_matrix c d d)) (component N d o)).
  assert (EA : forall i j, (i < 1)%nat -> (j < 1)%nat -> A i j = a).
  { intros i j Hi Hj. unfold A. rewrite observation_entry by auto. replace i with 0%nat by lia. replace j with 0%nat by lia.
    cbn [Nat.eqb noise_matrix]. now rewrite (component_spread D). }
  set (X := (fun i j => if ((i =? 0) && (j =? 0))%nat%bool then / a else 0) : mat).
  assert (HX : inverse 1 A X).
  { unfold X. split.
    - intros i j Hij. destruct (Nat.eqb_spec i 0), (Nat.eqb_spec j 0); cbn [andb]; try reflexivity. lia.
    - assert (SA : sized 1 1 A).
      { unfold A, observation, add_obs_cov. apply sized_madd; [apply sized_crop|].
        apply (sized_mmul 1 (1 * N) 1); [|apply sized_Psi]. apply (sized_mmul 1 (1 * N) (1 * N)).
        - apply sized_mT, sized_Psi.
        - intros i j Hij. cbn [component from_weight_distribution pm_weight_cov].
          destruct (Nat.ltb_spec i N), (Nat.ltb_spec j N); cbn [andb]; try reflexivity. lia. }
      split; apply mat_ext; intros i j; unfold mmul, eye; cbn [rsum];
        destruct (Nat.eq_dec i 0) as [->|Hi]; destruct (Nat.eq_dec j 0) as [->|Hj]; cbn [Nat.eqb andb];
        rewrite ?EA by lia; try (rewrite (SA i) by lia); try (rewrite (SA 0%nat j) by lia);
        repeat match goal with |- context [Nat.eqb ?u 0] => destruct (Nat.eqb_spec u 0); try lia end; cbn [andb];
        try (destruct i; [lia|]); try (destruct j; [lia|]); cbn; try (rewrite Rplus_0_l, ?Rinv_r, ?Rinv_l by auto; reflexivity);
        try (destruct (Nat.eqb i j)); cbn; try ring. }
  rewrite (np_linalg_inv_ok _ _ _ HX). cbn [bind]. f_equal.
  assert (SP : sized N N (pm_weight_cov (component N d o))).
  { intros i j Hij. cbn [component from_weight_distribution pm_weight_mean pm_weight_cov]. destruct (Nat.ltb_spec i N), (Nat.ltb_spec j N); cbn [andb]; try reflexivity. lia. }
  assert (E0 : spread_at 1 N s (pm_weight_cov (component N d o)) 0 = spread_at D N s (pm_weight_cov o) d) by apply component_spread.
  assert (HM : forall k, pm_weight_mean (posterior 1 N s (fun _ => y d) (component N d o) X) k
     = pm_weight_mean (component N d (posterior D N s y o G)) k).
  { intros k. destruct (Nat.lt_ge_cases k N) as [Hk|Hk].
    - rewrite component_mean by auto. rewrite (mean_entry D N s y c o G) by auto.
      assert (M := mean_entry 1 N s (fun _ => y d) _ (component N d o) X HI HN HX 0 k ltac:(lia) Hk).
      cbn [Nat.mul Nat.add] in M. rewrite M. rewrite (component_right D) by auto. cbn [noise_matrix]. rewrite E0.
      rewrite component_mean by auto. f_equal. f_equal. f_equal. apply rsum_ext. intros l Hl. now rewrite component_mean.
    - unfold posterior. cbn [component from_weight_distribution pm_weight_mean]. unfold vadd.
      destruct (Nat.ltb_spec k N); [lia|]. rewrite Rplus_0_l. unfold mvec at 1. apply rsum_0. intros l Hl.
      assert (Z : mmul 1 (mmul (1 * N) (pm_weight_cov (component N d o)) (Psi 1 N s)) X k l = 0).
      { apply (sized_mmul N 1 1); [apply (sized_mmul N (1 * N) 1)|apply HX|lia]; [|apply sized_Psi].
        rewrite Nat.mul_1_l. exact SP. }
      lazymatch goal with |- _ * ?b = 0 => transitivity (0 * b); [f_equal; exact Z|ring] end. }
  assert (SC : sized (1 * N) (1 * N) (pm_weight_cov (posterior 1 N s (fun _ => y d) (component N d o) X))).
  { apply (sized_conditioned (1 * N) 1 (pm_weight_cov (component N d o)) (Psi 1 N s) (crop 1 1 (fun _ _ => noise_matrix c d d)) X).
    - rewrite Nat.mul_1_l. exact SP.
    - apply sized_Psi.
    - exact HX. }
  assert (HV : forall i j, pm_weight_cov (posterior 1 N s (fun _ => y d) (component N d o) X) i j
     = pm_weight_cov (component N d (posterior D N s y o G)) i j).
  { intros i j. destruct (Nat.lt_ge_cases i N) as [Hi|Hi]; [destruct (Nat.lt_ge_cases j N) as [Hj|Hj]|].
    - rewrite component_cov by auto. rewrite (cov_entry D N s y c o G), Nat.eqb_refl by auto.
      assert (M := cov_entry 1 N s (fun _ => y d) _ (component N d o) X HI HN HX 0 0 i j ltac:(lia) ltac:(lia) Hi Hj).
      cbn [Nat.mul Nat.add Nat.eqb] in M. rewrite M. rewrite (component_right D), (component_left D) by auto. cbn [noise_matrix].
      rewrite E0. now rewrite component_cov.
    - rewrite (SC i j) by lia. cbn [component from_weight_distribution pm_weight_mean pm_weight_cov].
      destruct (Nat.ltb_spec i N), (Nat.ltb_spec j N); cbn [andb]; try reflexivity. lia.
    - rewrite (SC i j) by lia. cbn [component from_weight_distribution pm_weight_mean pm_weight_cov].
      destruct (Nat.ltb_spec i N), (Nat.ltb_spec j N); cbn [andb]; try reflexivity. lia. }
  unfold component, posterior in *. cbn [from_weight_distribution pm_weight_mean pm_weight_cov pm_n_dims pm_n_weights_per_dim pm_n_weights pm_centers promp_new] in *.
  unfold from_weight_distribution. f_equal; [apply vec_ext|apply mat_ext]; auto.
Qed.

(** Activations of positions and of velocities have the same shape for every number of
    components. *)
Lemma activations_blocks N T : (0 < alen T)%nat -> exists P1 T1 P2 T2, forall D o, is_promp D N o ->
  rbfs_nd_sequence o T = Ok (nd_block_diagonal N (alen T) P1 D, T1)
  /\ rbfs_derivative_nd_sequence o T = Ok (nd_block_diagonal N (alen T) P2 D, T2).
Proof.
  intros HT.
  assert (E : exists P2 T2, rbfs_derivative_1d_sequence (promp_new 0 N) T (7 / 10) = Ok (P2, T2)).
  { unfold rbfs_derivative_1d_sequence, rbfs_1d_sequence.
    rewrite normalize_time_ok by auto. cbn [bind]. rewrite normalize_time_ok by auto. cbn [bind]. eauto. }
  destruct E as (P2 & T2 & E).
  exists (crop N (alen T) (fun k j => basis (promp_new 0 N) (rel_time T j) k)), {| alen := alen T; aget := rel_time T |}, P2, T2.
  intros D o (m & c & ->). split.
  - rewrite rbfs_nd_sequence_ok by auto. reflexivity.
  - unfold rbfs_derivative_nd_sequence.
    change (rbfs_derivative_1d_sequence (from_weight_distribution m c (promp_new D N)) T (7 / 10))
      with (rbfs_derivative_1d_sequence (promp_new 0 N) T (7 / 10)).
    rewrite E. reflexivity.
Qed.

Lemma block_cov D N n P S d e i j : (d < D)%nat -> (e < D)%nat -> (i < n)%nat -> (j < n)%nat ->
  let A := nd_block_diagonal N n P D in
  mmul (D * N) (mmul (D * N) (mT A) S) A (d * n + i)%nat (e * n + j)%nat
  = rsum N (fun k => P k i * rsum N (fun l => P l j * S (d * N + k)%nat (e * N + l)%nat)).
Proof.
  intros Hd He Hi Hj A. rewrite mmul_assoc.
  transitivity (mvec (D * N) (mT A) (fun r => mmul (D * N) S A r (e * n + j)%nat) (d * n + i)%nat); [reflexivity|].
  unfold A at 1. rewrite nd_block_T_vec by auto. apply rsum_ext. intros k Hk. f_equal.
  transitivity (mvec (D * N) (mT A) (S (d * N + k)%nat) (e * n + j)%nat).
  - unfold mmul, mvec, mT. apply rsum_ext. intros; ring.
  - unfold A. rewrite nd_block_T_vec by auto. reflexivity.
Qed.

(** ** C139 *)
(** The component, asked alone, answers what the ProMP answers about it: mean, variance
    and covariance of positions and of velocities. *)
Theorem C139_component : forall D N o T d, is_promp D N o -> times T -> (d < D)%nat ->
  exists Y Y1 Yd Yd1 C C1 Cd Cd1 V V1 Vd Vd1 T' Td',
    mean_trajectory o T = Ok (Y, T') /\ mean_trajectory (component N d o) T = Ok (Y1, T')
    /\ mean_velocities o T = Ok (Yd, Td') /\ mean_velocities (component N d o) T = Ok (Yd1, Td')
    /\ cov_trajectory o T = Ok (C, T') /\ cov_trajectory (component N d o) T = Ok (C1, T')
    /\ cov_velocities o T = Ok (Cd, Td') /\ cov_velocities (component N d o) T = Ok (Cd1, Td')
    /\ var_trajectory o T = Ok (V, T') /\ var_trajectory (component N d o) T = Ok (V1, T')
    /\ var_velocities o T = Ok (Vd, Td') /\ var_velocities (component N d o) T = Ok (Vd1, Td')
    /\ forall i, (i < alen T)%nat ->
       Y1 i 0%nat = Y i d /\ Yd1 i 0%nat = Yd i d /\ V1 i 0%nat = V i d /\ Vd1 i 0%nat = Vd i d
       /\ forall j, (j < alen T)%nat ->
          C1 i j = C (d * alen T + i)%nat (d * alen T + j)%nat
          /\ Cd1 i j = Cd (d * alen T + i)%nat (d * alen T + j)%nat.
Proof.
  intros D N o T d Ho [HT _] Hd.
  destruct (activations_blocks N T HT) as (P1 & T1 & P2 & T2 & H).
  destruct (H D o Ho) as [A1 A2]. destruct (H 1%nat _ (component_promp N d o)) as [B1 B2].
  destruct (promp_dims D N o Ho) as (ED & EN & EK).
  assert (M : forall P i, (i < alen T)%nat ->
    mvec (1 * N) (mT (nd_block_diagonal N (alen T) P 1)) (pm_weight_mean (component N d o)) i
    = mvec (D * N) (mT (nd_block_diagonal N (alen T) P D)) (pm_weight_mean o) (d * alen T + i)%nat).
  { intros P i Hi. rewrite nd_block_T_vec by auto.
    rewrite (nd_block_T_vec N (alen T) P 1 _ 0 i) by lia. apply rsum_ext. intros k Hk.
    cbn [Nat.mul Nat.add]. now rewrite component_mean. }
  assert (C : forall P i j, (i < alen T)%nat -> (j < alen T)%nat ->
    let A n := nd_block_diagonal N (alen T) P n in
    mmul (1 * N) (mmul (1 * N) (mT (A 1%nat)) (pm_weight_cov (component N d o))) (A 1%nat) i j
    = mmul (D * N) (mmul (D * N) (mT (A D)) (pm_weight_cov o)) (A D) (d * alen T + i)%nat (d * alen T + j)%nat).
  { intros P i j Hi Hj A. unfold A. rewrite block_cov by auto.
    pose proof (block_cov 1 N (alen T) P (pm_weight_cov (component N d o)) 0 0 i j ltac:(lia) ltac:(lia) Hi Hj) as Q.
    cbv zeta in Q. cbn [Nat.mul] in Q. rewrite !Nat.add_0_l in Q. cbn [Nat.mul]. rewrite Q.
    apply rsum_ext. intros k Hk. f_equal. apply rsum_ext. intros l Hl. cbn [Nat.add]. now rewrite component_cov. }
  unfold var_trajectory, var_velocities, var_of, cov_trajectory, cov_velocities, cov_of, mean_trajectory,
    trajectory_from_weights, mean_velocities.
  rewrite A1, A2, B1, B2. cbn [bind fst snd]. rewrite ED, EN, EK.
  change (pm_n_dims (component N d o)) with 1%nat. change (pm_n_weights_per_dim (component N d o)) with N.
  change (pm_n_weights (component N d o)) with (1 * N)%nat.
  cbn [alen aget]. rewrite !Nat.eqb_refl. cbn [negb].
  eexists _, _, _, _, _, _, _, _, _, _, _, _, T1, T2.
  repeat match goal with |- _ = _ /\ _ => split; [reflexivity|] end.
  intros i Hi. unfold reshape_T. rewrite !Nat.mul_0_l, !Nat.add_0_l.
  repeat split.
  - now apply M.
  - now apply M.
  - f_equal. now apply C.
  - f_equal. now apply C.
  - now apply C.
  - now apply C.
Qed.

(** Independent components remain independent, whatever is observed with independent
    errors, and each is conditioned as if it were alone. *)
Theorem C139_conditions : forall D N l o o', is_promp D N o -> independent D N o ->
  Forall (fun q => cd_t_max q <> 0 /\ independent_noise D (cd_cov q)) l ->
  conditions l o = Ok o' ->
  independent D N o'
  /\ forall d, (d < D)%nat -> conditions (map (about d) l) (component N d o) = Ok (component N d o').
Proof.
  intros D N l o o' Hp Ho Hl. revert o Hp Ho. induction Hl as [|q l [Ht Hn] Hl IH]; intros o Hp Ho E; cbn [conditions map] in *.
  - injection E as <-. split; auto.
  - destruct (condition_position o _ _ _ _) as [o1|] eqn:E1; [|discriminate]. cbn [bind] in E.
    destruct (component_step D N o q o1 Hp Ht Ho Hn E1) as (Hp1 & Ho1 & H1).
    destruct (IH o1 Hp1 Ho1 E) as [H2 H3]. split; [exact H2|]. intros d Hd. rewrite (H1 d Hd). cbn [bind]. auto.
Qed.

(** The positions and the velocities of independent components are uncorrelated at all
    times. *)
Theorem C139_uncorrelated : forall D N o T, is_promp D N o -> independent D N o -> times T ->
  exists C Cd T' Td', cov_trajectory o T = Ok (C, T') /\ cov_velocities o T = Ok (Cd, Td')
  /\ forall d e i j, (d < D)%nat -> (e < D)%nat -> d <> e -> (i < alen T)%nat -> (j < alen T)%nat ->
     C (d * alen T + i)%nat (e * alen T + j)%nat = 0 /\ Cd (d * alen T + i)%nat (e * alen T + j)%nat = 0.
Proof.
  intros D N o T Hp Ho [HT _]. destruct (activations_blocks N T HT) as (P1 & T1 & P2 & T2 & H).
  destruct (H D o Hp) as [A1 A2]. destruct (promp_dims D N o Hp) as (ED & EN & EK).
  unfold cov_trajectory, cov_velocities, cov_of. rewrite A1, A2. cbn [bind]. rewrite ED, EN.
  eexists _, _, T1, T2. split; [reflexivity|]. split; [reflexivity|].
  intros d e i j Hd He Hne Hi Hj. rewrite !block_cov by auto.
  split; apply rsum_0; intros k Hk; rewrite rsum_0; try ring; intros l Hl; rewrite Ho by auto; ring.
Qed.

(** What was observed of one component does not matter to the others. *)
Theorem C139_others : forall D N o q q' o1 o2 d, is_promp D N o -> independent D N o -> (d < D)%nat ->
  cd_t_max q <> 0 -> cd_t q' = cd_t q -> cd_t_max q' = cd_t_max q ->
  independent_noise D (cd_cov q) -> independent_noise D (cd_cov q') ->
  cd_y q' d = cd_y q d -> noise_matrix (cd_cov q') d d = noise_matrix (cd_cov q) d d ->
  conditions [q] o = Ok o1 -> conditions [q'] o = Ok o2 ->
  component N d o1 = component N d o2.
Proof.
  intros D N o q q' o1 o2 d Hp Ho Hd Ht Et Etm Hn Hn' Ey En E1 E2.
  destruct (C139_conditions D N [q] o o1 Hp Ho ltac:(auto) E1) as [_ H1].
  destruct (C139_conditions D N [q'] o o2 Hp Ho ltac:(repeat constructor; rewrite ?Etm; auto) E2) as [_ H2].
  specialize (H1 d Hd). specialize (H2 d Hd). cbn [map] in H1, H2.
  assert (E : about d q' = about d q) by (unfold about; rewrite Et, Etm, Ey, En; reflexivity).
  rewrite E in H2. congruence.
Qed.

(** Two components: one is told to be at 3 in the middle with an error, the other at 5. *)
Definition ex_condition : condition :=
  {| cd_t := 1; cd_t_max := 2; cd_y := fun d => if (d =? 0)%nat then 3 else 5;
     cd_cov := FullCov (fun i j => if (i =? j)%nat then if (i =? 0)%nat then 1 / 100 else 0 else 0) |}.
Example C139_satisfiable : is_promp 2 3 (promp_new 2 3) /\ independent 2 3 (promp_new 2 3) /\ times ex_T
  /\ cd_t_max ex_condition <> 0 /\ independent_noise 2 (cd_cov ex_condition)
  /\ exists o', conditions [ex_condition] (promp_new 2 3) = Ok o'.
Proof.
  assert (Ho : is_promp 2 3 (promp_new 2 3)) by (exists vzero, (eye 6); reflexivity).
  split; [exact Ho|]. split.
  { intros d e i j Hd He Hne Hi Hj. cbn [promp_new pm_weight_cov]. unfold eye.
    destruct (Nat.eqb_spec (d * 3 + i) (e * 3 + j)); [lia|]. now destruct (_ <? _)%nat. }
  split; [apply C50_satisfiable|]. split; [cbn; lra|]. split.
  { intros d e Hd He Hne. cbn. destruct (Nat.eqb_spec d e); [contradiction|reflexivity]. }
  assert (HE : covariance 2 (fun i j => if (i =? j)%nat then if (i =? 0)%nat then 1 / 100 else 0 else 0)).
  { split.
    - intros i j Hi Hj. destruct i as [|[|i]], j as [|[|j]]; try lia; reflexivity.
    - intros x. cbn. nra. }
  destruct (C52_accepted 2 3 (promp_new 2 3) (cd_y ex_condition) (cd_cov ex_condition) 1 2) as (o' & E); auto; try lra.
  - apply sized_eye.
  - apply psd_covariance, psd_eye.
  - apply eye_positive_definite.
  - exists o'. cbn [conditions]. change (cd_t ex_condition) with 1. change (cd_t_max ex_condition) with 2.
    rewrite E. reflexivity.
Qed.
