(** C52, C53: conditioning a ProMP on positions. *)
From Coq Require Import Reals List Arith Lia Lra.
From Verif Require Import M_Prelude M_Base P_Loops M_Matrix P_Matrix M_DmpObject M_Ridge M_ProMP P_ProMP
  P_Conditioning Properties_ProMP.
Import ListNotations.
Open Scope R_scope.
Set Bullet Behavior "Strict Subproofs".

(** Activations at relative time [s], shape (D * N, D). *)
Definition Psi (D N : nat) (s : R) : mat :=
  nd_block_diagonal N 1 (crop N 1 (fun i _ => basis (promp_new D N) s i)) D.

Lemma sized_Psi D N s : sized (D * N) D (Psi D N s).
Proof. assert (H := sized_nd_block N 1 (crop N 1 (fun i _ => basis (promp_new D N) s i)) D).
  rewrite Nat.mul_1_r in H. exact H. Qed.
Lemma Psi_T_vec D N s w d : (d < D)%nat ->
  mvec (D * N) (mT (Psi D N s)) w d = rsum N (fun k => basis (promp_new D N) s k * w (d * N + k)%nat).
Proof.
  intros Hd. replace d with (d * 1 + 0)%nat at 1 by lia. unfold Psi. rewrite nd_block_T_vec by lia.
  apply rsum_ext. intros k Hk. now rewrite crop_in by lia.
Qed.
Lemma Psi_vec D N s z d k : (d < D)%nat -> (k < N)%nat ->
  mvec D (Psi D N s) z (d * N + k)%nat = basis (promp_new D N) s k * z d.
Proof.
  intros Hd Hk. unfold mvec. rewrite <- (rsum_delta D d (fun e => basis (promp_new D N) s k * z e) Hd).
  apply rsum_ext. intros e He. unfold Psi. replace e with (e * 1 + 0)%nat at 1 by lia.
  destruct (Nat.eqb_spec d e) as [<-|Hne].
  - rewrite nd_block_in, crop_in by lia. ring.
  - rewrite nd_block_off by lia. ring.
Qed.

(** The distribution at relative time [s]. *)
Lemma mean_at D N o T Y T' i d : is_promp D N o -> (0 < alen T)%nat -> mean_trajectory o T = Ok (Y, T') ->
  (i < alen T)%nat -> (d < D)%nat ->
  Y i d = mvec (D * N) (mT (Psi D N (rel_time T i))) (pm_weight_mean o) d.
Proof.
  intros Ho HT E Hi Hd. destruct (promp_dims D N o Ho) as (ED & EN & EK).
  destruct (trajectory_eq D N o T {| alen := pm_n_weights o; aget := pm_weight_mean o |} Ho HT EK) as (Y' & E' & H).
  unfold mean_trajectory in E. rewrite E in E'. injection E' as -> _.
  rewrite H, Psi_T_vec by auto. reflexivity.
Qed.

Lemma cov_at D N o T C T' i j d e : is_promp D N o -> (0 < alen T)%nat -> cov_trajectory o T = Ok (C, T') ->
  (i < alen T)%nat -> (j < alen T)%nat -> (d < D)%nat -> (e < D)%nat ->
  C (d * alen T + i)%nat (e * alen T + j)%nat
  = mmul (D * N) (mmul (D * N) (mT (Psi D N (rel_time T i))) (pm_weight_cov o)) (Psi D N (rel_time T j)) d e.
Proof.
  intros Ho HT E Hi Hj Hd He. destruct (promp_dims D N o Ho) as (ED & EN & EK).
  unfold cov_trajectory, cov_of in E. rewrite rbfs_nd_sequence_ok in E by auto. cbn [bind] in E.
  rewrite ED, EN in E. injection E as <- _.
  set (A := nd_block_diagonal N (alen T) (crop N (alen T) (fun k j0 => basis o (rel_time T j0) k)) D).
  assert (HA : forall i d w, (i < alen T)%nat -> (d < D)%nat ->
     mvec (D * N) (mT A) w (d * alen T + i)%nat = mvec (D * N) (mT (Psi D N (rel_time T i))) w d).
  { intros i' d' w Hi' Hd'. unfold A. rewrite nd_block_T_vec, Psi_T_vec by auto. apply rsum_ext. intros k Hk.
    rewrite crop_in by auto. now rewrite (promp_basis D N o). }
  rewrite !mmul_assoc.
  change (mmul (D * N) (mT A) (mmul (D * N) (pm_weight_cov o) A) (d * alen T + i)%nat (e * alen T + j)%nat)
    with (mvec (D * N) (mT A) (fun k => mmul (D * N) (pm_weight_cov o) A k (e * alen T + j)%nat) (d * alen T + i)%nat).
  rewrite HA by auto. apply rsum_ext. intros k Hk. f_equal.
  assert (HA' := HA j e (pm_weight_cov o k) Hj He).
  unfold mmul, mvec, mT in *. rewrite (rsum_ext _ _ (fun l => A l (e * alen T + j)%nat * pm_weight_cov o k l)) by (intros; ring).
  rewrite HA'. apply rsum_ext. intros; ring.
Qed.

(** [condition_position] with the activations spelled out. *)
Definition posterior (D N : nat) (s : R) (y : vec) (o : promp) (G : mat) : promp :=
  from_weight_distribution
    (vadd (pm_weight_mean o) (mvec D (mmul D (mmul (D * N) (pm_weight_cov o) (Psi D N s)) G)
       (vsub y (mvec (D * N) (mT (Psi D N s)) (pm_weight_mean o)))))
    (conditioned_cov (D * N) D (pm_weight_cov o) (Psi D N s) G)
    (promp_new D N).
Definition observation (D N : nat) (s : R) (c : obs_cov) (o : promp) : mat :=
  add_obs_cov D c (mmul (D * N) (mmul (D * N) (mT (Psi D N s)) (pm_weight_cov o)) (Psi D N s)).

Lemma condition_eq D N o y c t tm : is_promp D N o -> tm <> 0 ->
  condition_position o y c t tm
  = bind (np_linalg_inv D (observation D N (t / tm) c o)) (fun G => Ok (posterior D N (t / tm) y o G)).
Proof.
  intros Ho Htm. destruct (promp_dims D N o Ho) as (ED & EN & EK).
  unfold condition_position, rbfs_1d_point. rewrite ED, EN.
  destruct (Req_EM_T tm 0) as [|_]; [contradiction|]. cbn [bind].
  replace (crop N 1 (fun i _ => if (i <? N)%nat then _ else 0))
    with (crop N 1 (fun i (_ : nat) => basis (promp_new D N) (t / tm) i)).
  2:{ apply (mat_ext_sized N 1); try apply sized_crop. intros i j Hi Hj. rewrite !crop_in by auto.
      destruct (Nat.ltb_spec i N); [|lia]. rewrite <- (promp_basis D N o) by auto.
      unfold basis. now rewrite EN. }
  reflexivity.
Qed.

Lemma condition_ok D N o y c t tm o' : is_promp D N o -> tm <> 0 ->
  condition_position o y c t tm = Ok o' ->
  exists G, inverse D (observation D N (t / tm) c o) G /\ o' = posterior D N (t / tm) y o G.
Proof.
  intros Ho Htm E. rewrite (condition_eq D N) in E by auto.
  destruct (np_linalg_inv D _) as [G|] eqn:EG; [|discriminate]. cbn [bind] in E. injection E as <-.
  exists G. split; [now apply np_linalg_inv_spec|reflexivity].
Qed.

Definition no_noise (c : obs_cov) : Prop :=
  match c with NoCov => True | RowCov r => forall j, r j = 0 | FullCov C => forall i j, C i j = 0 end.

Lemma observation_no_noise D N s c o : no_noise c ->
  observation D N s c o = madd mzero (mmul (D * N) (mmul (D * N) (mT (Psi D N s)) (pm_weight_cov o)) (Psi D N s)).
Proof.
  intros H. unfold observation, add_obs_cov. destruct c as [|r|C]; apply mat_ext; intros i j; unfold madd, mzero, crop.
  - ring.
  - cbn in H. rewrite H. destruct (andb _ _); ring.
  - cbn in H. rewrite H. destruct (andb _ _); ring.
Qed.

(** What an exact observation does to the weights. *)
Lemma posterior_exact D N s y o G : sized (D * N) (D * N) (pm_weight_cov o) ->
  inverse D (madd mzero (mmul (D * N) (mmul (D * N) (mT (Psi D N s)) (pm_weight_cov o)) (Psi D N s))) G ->
  (forall d, (d < D)%nat -> mvec (D * N) (mT (Psi D N s)) (pm_weight_mean (posterior D N s y o G)) d = y d)
  /\ mmul (D * N) (mT (Psi D N s)) (pm_weight_cov (posterior D N s y o G)) = mzero.
Proof.
  intros HS HG. split.
  - intros d Hd. unfold posterior. cbn [from_weight_distribution pm_weight_mean].
    rewrite mvec_vadd, <- mvec_mmul, <- !mmul_assoc.
    assert (E : mmul D (mmul (D * N) (mmul (D * N) (mT (Psi D N s)) (pm_weight_cov o)) (Psi D N s)) G = eye D).
    { destruct HG as (_ & H1 & _). rewrite <- H1. f_equal. apply mat_ext; intros i j. unfold madd, mzero. ring. }
    rewrite E. unfold vadd. rewrite mvec_eye_in by auto. unfold vsub. ring.
  - apply (conditioned_zero_l (D * N) D (pm_weight_cov o) (Psi D N s) mzero G); auto.
    apply sized_Psi.
Qed.

(** ** C52 *)
Theorem C52_shape : forall D N o y c t tm o', is_promp D N o -> tm <> 0 ->
  condition_position o y c t tm = Ok o' -> is_promp D N o'.
Proof.
  intros D N o y c t tm o' Ho Htm E. destruct (condition_ok D N o y c t tm o' Ho Htm E) as (G & _ & ->).
  eexists _, _. reflexivity.
Qed.

(** An exact observation is met: at every sample whose relative time is that of
    the condition the mean is [y_mean]; the covariance of that sample with any
    other sample is zero. *)
Theorem C52_hits_target : forall D N o y c t tm o' T Y T1 C T2,
  is_promp D N o -> sized (D * N) (D * N) (pm_weight_cov o) -> tm <> 0 -> no_noise c ->
  condition_position o y c t tm = Ok o' -> times T ->
  mean_trajectory o' T = Ok (Y, T1) -> cov_trajectory o' T = Ok (C, T2) ->
  forall i, (i < alen T)%nat -> aget T i / np_max (alen T) (aget T) = t / tm ->
  forall d, (d < D)%nat ->
    Y i d = y d
    /\ forall j e, (j < alen T)%nat -> (e < D)%nat -> C (d * alen T + i)%nat (e * alen T + j)%nat = 0.
Proof.
  intros D N o y c t tm o' T Y T1 C T2 Ho HS Htm Hc E [HT _] EY EC i Hi Et d Hd.
  assert (Ho' := C52_shape D N o y c t tm o' Ho Htm E).
  destruct (condition_ok D N o y c t tm o' Ho Htm E) as (G & HG & Eo').
  rewrite observation_no_noise in HG by auto.
  destruct (posterior_exact D N (t / tm) y o G HS HG) as [M Z]. rewrite <- Eo' in M, Z.
  fold (rel_time T i) in Et. split.
  - rewrite (mean_at D N o' T Y T1 i d Ho' HT EY Hi Hd), Et. now apply M.
  - intros j e Hj He. rewrite (cov_at D N o' T C T2 i j d e Ho' HT EC Hi Hj Hd He), Et, Z, mmul_mzero_l. reflexivity.
Qed.

(** Observation noise is described by a covariance matrix. *)
Definition noise (D : nat) (c : obs_cov) : Prop :=
  match c with NoCov => True | RowCov r => forall j, r j = 0 | FullCov C => covariance D C end.

Lemma noise_psd D N s c o : noise D c -> exists C, sized D D C /\ psd D C /\
  observation D N s c o = madd C (mmul (D * N) (mmul (D * N) (mT (Psi D N s)) (pm_weight_cov o)) (Psi D N s)).
Proof.
  assert (Z : psd D mzero).
  { split; [intros i j; reflexivity|]. intros x. apply rsum_nonneg. intros i _.
    unfold mvec, mzero. rewrite rsum_0 by (intros; ring). lra. }
  intros H. destruct c as [|r|C].
  - exists mzero. split; [apply sized_mzero|]. split; [exact Z|]. now rewrite observation_no_noise.
  - exists mzero. split; [apply sized_mzero|]. split; [exact Z|]. now rewrite observation_no_noise.
  - exists (crop D D C). split; [apply sized_crop|]. split; [|reflexivity].
    apply covariance_psd; [apply sized_crop|]. destruct H as [S P]. split.
    + intros i j Hi Hj. rewrite !crop_in by auto. auto.
    + intros x. rewrite (rsum_ext D _ (fun i => rsum D (fun j => x i * C i j * x j))); [apply P|].
      intros i Hi. apply rsum_ext. intros j Hj. now rewrite crop_in.
Qed.

(** The conditioned covariance is a covariance and not larger than the prior. *)
Theorem C52_covariance : forall D N o y c t tm o',
  is_promp D N o -> sized (D * N) (D * N) (pm_weight_cov o) -> covariance (D * N) (pm_weight_cov o) ->
  noise D c -> tm <> 0 -> condition_position o y c t tm = Ok o' ->
  sized (D * N) (D * N) (pm_weight_cov o') /\ covariance (D * N) (pm_weight_cov o')
  /\ forall x : vec,
       rsum (D * N) (fun i => rsum (D * N) (fun j => x i * pm_weight_cov o' i j * x j))
       <= rsum (D * N) (fun i => rsum (D * N) (fun j => x i * pm_weight_cov o i j * x j)).
Proof.
  intros D N o y c t tm o' Ho HS HC Hn Htm E. apply covariance_psd in HC; auto.
  destruct (condition_ok D N o y c t tm o' Ho Htm E) as (G & HG & ->).
  destruct (noise_psd D N (t / tm) c o Hn) as (C & SC & PC & EC). rewrite EC in HG.
  unfold posterior. cbn [from_weight_distribution pm_weight_cov].
  assert (HP := sized_Psi D N (t / tm)).
  split; [now apply (sized_conditioned (D * N) D _ _ C)|].
  split; [apply psd_covariance; now apply (conditioned_psd (D * N) D _ _ C)|].
  intros x. rewrite <- !quadratic.
  assert (H := proj2 (conditioned_smaller (D * N) D _ _ C G HS HP SC HG HC PC) x).
  rewrite mvec_msub, dot_vsub_r in H. lra.
Qed.

(** Positive definite: the form is positive on nonzero vectors. *)
Definition positive_definite (n : nat) (M : mat) : Prop :=
  forall x : vec, (exists i, (i < n)%nat /\ x i <> 0) ->
    0 < rsum n (fun i => rsum n (fun j => x i * M i j * x j)).

Lemma positive_definite_kernel n M x : positive_definite n M ->
  (forall i, (i < n)%nat -> mvec n M x i = 0) -> forall i, (i < n)%nat -> x i = 0.
Proof.
  intros H Hx i Hi. destruct (Req_dec (x i) 0) as [|Hn]; auto. exfalso.
  assert (P := H x (ex_intro _ i (conj Hi Hn))). rewrite <- quadratic, dot_comm, dot_zero_l in P by auto. lra.
Qed.

(** With a positive definite prior covariance the condition is accepted. *)
Theorem C52_accepted : forall D N o y c t tm, (0 < N)%nat ->
  is_promp D N o -> sized (D * N) (D * N) (pm_weight_cov o) -> covariance (D * N) (pm_weight_cov o) ->
  positive_definite (D * N) (pm_weight_cov o) -> noise D c -> tm <> 0 ->
  exists o', condition_position o y c t tm = Ok o'.
Proof.
  intros D N o y c t tm HN Ho HS HC HP Hn Htm. apply covariance_psd in HC; auto.
  destruct (noise_psd D N (t / tm) c o Hn) as (C & SC & PC & EC).
  destruct (prior_inverse (D * N) D (pm_weight_cov o) (Psi D N (t / tm)) C SC HS (sized_Psi D N _) PC HC) as (G & HG).
  { intros z Hz d Hd.
    assert (Z := positive_definite_kernel _ _ _ HP Hz (d * N + 0)%nat ltac:(nia)).
    rewrite Psi_vec in Z by lia. apply Rmult_integral in Z. destruct Z as [Z|Z]; auto.
    exfalso. assert (B := basis_pos (promp_new D N) (t / tm) 0 HN). lra. }
  rewrite (condition_eq D N) by auto. rewrite EC, (np_linalg_inv_ok _ _ _ HG). cbn [bind]. eauto.
Qed.

Lemma eye_positive_definite n : positive_definite n (eye n).
Proof.
  intros x (i & Hi & Hx). rewrite <- quadratic.
  rewrite (dot_ext n x (mvec n (eye n) x) x x) by (auto; intros; now apply mvec_eye_in).
  destruct (dot_self n x) as [H|H]; [exact H|]. exfalso. apply Hx. now apply (dot_self_0 n).
Qed.

Example C52_satisfiable : exists o',
  condition_position (promp_new 2 3) (fun d => INR d + 5) NoCov (1/2) 2 = Ok o'
  /\ is_promp 2 3 (promp_new 2 3) /\ sized 6 6 (pm_weight_cov (promp_new 2 3))
  /\ covariance 6 (pm_weight_cov (promp_new 2 3)) /\ positive_definite 6 (pm_weight_cov (promp_new 2 3)).
Proof.
  assert (Ho : is_promp 2 3 (promp_new 2 3)) by (exists vzero, (eye 6); reflexivity).
  destruct (C52_accepted 2 3 (promp_new 2 3) (fun d => INR d + 5) NoCov (1/2) 2) as (o' & E); auto.
  - apply sized_eye.
  - apply psd_covariance, psd_eye.
  - apply eye_positive_definite.
  - exact I.
  - exists o'. split; [exact E|]. split; [exact Ho|]. split; [apply sized_eye|].
    split; [apply psd_covariance, psd_eye|]. apply eye_positive_definite.
Qed.

(** ** C53 *)
(** A direction without spread keeps its mean and stays without spread. *)
Lemma posterior_keeps D N s y o G A : mmul (D * N) A (pm_weight_cov o) = mzero ->
  mmul (D * N) A (pm_weight_cov (posterior D N s y o G)) = mzero
  /\ mvec (D * N) A (pm_weight_mean (posterior D N s y o G)) = mvec (D * N) A (pm_weight_mean o).
Proof.
  intros Z. unfold posterior. cbn [from_weight_distribution pm_weight_mean pm_weight_cov]. split.
  - unfold conditioned_cov. rewrite mmul_msub_r, <- !mmul_assoc, Z, !mmul_mzero_l. apply msub_self.
  - rewrite mvec_vadd, <- mvec_mmul, <- !mmul_assoc, Z, !mmul_mzero_l.
    apply vec_ext. intros i. unfold vadd.
    unfold mvec at 2. unfold mzero at 1. rewrite (rsum_0 D) by (intros; ring). ring.
Qed.

Definition exact_cov (c : option (nat -> vec)) : Prop :=
  match c with None => True | Some f => forall i j, f i j = 0 end.

Lemma via_points_inv D N y c : exact_cov c -> forall ts idx o o',
  is_promp D N o -> sized (D * N) (D * N) (pm_weight_cov o) ->
  via_points_loop idx ts y c o = Ok o' ->
  is_promp D N o' /\ sized (D * N) (D * N) (pm_weight_cov o')
  /\ (forall j, (j < length ts)%nat ->
       mmul (D * N) (mT (Psi D N (nth j ts 0 / 1))) (pm_weight_cov o') = mzero
       /\ forall d, (d < D)%nat -> mvec (D * N) (mT (Psi D N (nth j ts 0 / 1))) (pm_weight_mean o') d = y (idx + j)%nat d)
  /\ (forall A, mmul (D * N) A (pm_weight_cov o) = mzero ->
       mmul (D * N) A (pm_weight_cov o') = mzero
       /\ mvec (D * N) A (pm_weight_mean o') = mvec (D * N) A (pm_weight_mean o)).
Proof.
  intros Hc. induction ts as [|t ts IH]; intros idx o o' Ho HS E; cbn [via_points_loop] in E.
  - injection E as <-. repeat split; auto; cbn [length] in *; lia.
  - set (yc := match c with None => RowCov vzero | Some c => RowCov (c idx) end) in E.
    assert (Hyc : no_noise yc) by (unfold yc; destruct c; cbn in *; auto).
    destruct (condition_position o (y idx) yc t 1) as [o1|] eqn:E1; [|discriminate]. cbn [bind] in E.
    assert (Ho1 := C52_shape D N o _ _ _ _ _ Ho R1_neq_R0 E1).
    destruct (condition_ok D N o _ _ _ _ _ Ho R1_neq_R0 E1) as (G & HG & Eo1).
    rewrite observation_no_noise in HG by auto.
    assert (HS1 : sized (D * N) (D * N) (pm_weight_cov o1)).
    { rewrite Eo1. apply (sized_conditioned (D * N) D _ _ mzero); auto. apply sized_Psi. }
    destruct (posterior_exact D N (t / 1) (y idx) o G HS HG) as [M Z]. rewrite <- Eo1 in M, Z.
    destruct (IH (S idx) o1 o' Ho1 HS1 E) as (R1 & R2 & R3 & R4).
    split; [exact R1|]. split; [exact R2|]. split.
    + intros [|j] Hj; cbn [nth length] in *.
      * destruct (R4 _ Z) as [Z' M']. split; [exact Z'|]. intros d Hd. rewrite M', M by auto. f_equal. lia.
      * replace (idx + S j)%nat with (S idx + j)%nat by lia. apply R3. lia.
    + intros A HA. destruct (posterior_keeps D N (t / 1) (y idx) o G A HA) as [Z' M']. rewrite <- Eo1 in Z', M'.
      destruct (R4 _ Z') as [Z'' M'']. split; [exact Z''|]. now rewrite M'', M'.
Qed.

(** The mean passes through every via-point and has no variance there. *)
Theorem C53_all_via_points : forall D N o ts y c o' T Y T1 C T2,
  is_promp D N o -> sized (D * N) (D * N) (pm_weight_cov o) -> exact_cov c ->
  via_points o ts y c = Ok o' -> times T ->
  mean_trajectory o' T = Ok (Y, T1) -> cov_trajectory o' T = Ok (C, T2) ->
  forall i j, (i < alen T)%nat -> (j < length ts)%nat ->
  aget T i / np_max (alen T) (aget T) = nth j ts 0 ->
  forall d, (d < D)%nat -> Y i d = y j d /\ C (d * alen T + i)%nat (d * alen T + i)%nat = 0.
Proof.
  intros D N o ts y c o' T Y T1 C T2 Ho HS Hc E [HT _] EY EC i j Hi Hj Et d Hd.
  destruct (via_points_inv D N y c Hc ts 0 o o' Ho HS E) as (Ho' & _ & H & _).
  destruct (H j Hj) as [Z M]. fold (rel_time T i) in Et.
  assert (E1 : nth j ts 0 / 1 = nth j ts 0) by field. rewrite E1 in Z, M.
  split.
  - rewrite (mean_at D N o' T Y T1 i d Ho' HT EY Hi Hd), Et. now apply M.
  - rewrite (cov_at D N o' T C T2 i i d d Ho' HT EC Hi Hi Hd Hd), Et, Z, mmul_mzero_l. reflexivity.
Qed.
