(** C50, C51, C54, C55: queries of a ProMP. *)
From Coq Require Import Reals List Arith Lia Lra.
From Coquelicot Require Import Coquelicot.
From Verif Require Import M_Prelude M_Base P_Loops M_Matrix P_Matrix M_DmpObject M_Ridge M_ProMP P_ProMP Properties_Ridge.
Import ListNotations.
Open Scope R_scope.
Set Bullet Behavior "Strict Subproofs".

(** A ProMP with [D] dimensions and [N] > 0 weights per dimension: constructed
    with any weight distribution.  [condition_position], [via_points] and
    [imitate] return such objects (C52_shape, C56_shape). *)
Definition is_promp (D N : nat) (o : promp) : Prop :=
  exists mean cov, o = from_weight_distribution mean cov (promp_new D N).

(** Times that can be normalised: at least one, the largest one is positive. *)
Definition times (T : arr) : Prop := (0 < alen T)%nat /\ 0 < np_max (alen T) (aget T).

Lemma promp_basis D N o s k : is_promp D N o -> basis o s k = basis (promp_new D N) s k.
Proof. intros (mean & cov & ->). reflexivity. Qed.
Lemma promp_dims D N o : is_promp D N o ->
  pm_n_dims o = D /\ pm_n_weights_per_dim o = N /\ pm_n_weights o = (D * N)%nat.
Proof. intros (mean & cov & ->). auto. Qed.

Lemma trajectory_eq D N o T w : is_promp D N o -> (0 < alen T)%nat -> alen w = (D * N)%nat ->
  exists Y, trajectory_from_weights o T w = Ok (Y, {| alen := alen T; aget := rel_time T |})
  /\ forall t d, (t < alen T)%nat -> (d < D)%nat ->
       Y t d = rsum N (fun k => basis (promp_new D N) (rel_time T t) k * aget w (d * N + k)%nat).
Proof.
  intros Ho HT Hw. destruct (promp_dims D N o Ho) as (ED & EN & EK).
  unfold trajectory_from_weights. rewrite rbfs_nd_sequence_ok by auto. cbn [bind].
  rewrite ED, EN, Hw, Nat.eqb_refl. cbn [negb]. eexists. split; [reflexivity|].
  intros t d Ht Hd. unfold reshape_T. rewrite nd_block_T_vec by auto.
  apply rsum_ext. intros k Hk. rewrite crop_in by auto. now rewrite (promp_basis D N).
Qed.

(** ** C50 *)
(** The coefficients depend on the sizes and the relative time only: not on the
    weights, not on the dimension. *)
Theorem C50_convex : forall N, (0 < N)%nat -> exists coeff : R -> nat -> R,
  (forall s k, (k < N)%nat -> 0 < coeff s k)
  /\ (forall s, rsum N (coeff s) = 1)
  /\ forall D o T w, is_promp D N o -> times T -> alen w = (D * N)%nat ->
     exists Y T', trajectory_from_weights o T w = Ok (Y, T')
     /\ forall t d, (t < alen T)%nat -> (d < D)%nat ->
          Y t d = rsum N (fun k => coeff (aget T t / np_max (alen T) (aget T)) k * aget w (d * N + k)%nat).
Proof.
  intros N HN. exists (basis (promp_new 0 N)).
  split; [intros; apply basis_pos; exact HN|]. split; [intros; exact (basis_sum (promp_new 0 N) s HN)|].
  intros D o T w Ho [HT _] Hw. destruct (trajectory_eq D N o T w Ho HT Hw) as (Y & E & H).
  exists Y, {| alen := alen T; aget := rel_time T |}. split; auto.
Qed.

Lemma convex_bounds N (c w : vec) lo hi : (forall k, (k < N)%nat -> 0 < c k) -> rsum N c = 1 ->
  (forall k, (k < N)%nat -> lo <= w k <= hi) -> lo <= rsum N (fun k => c k * w k) <= hi.
Proof.
  intros Hc Hs Hw. split.
  - replace lo with (rsum N (fun k => c k * lo)) by (rewrite rsum_scal_r, Hs; ring).
    apply rsum_le. intros k Hk. apply Rmult_le_compat_l; [left; auto|apply Hw; auto].
  - replace hi with (rsum N (fun k => c k * hi)) by (rewrite rsum_scal_r, Hs; ring).
    apply rsum_le. intros k Hk. apply Rmult_le_compat_l; [left; auto|apply Hw; auto].
Qed.

(** Bounds on the weights of one dimension bound that dimension of the trajectory. *)
Theorem C50_bounds : forall D N o T w Y T' d lo hi, (0 < N)%nat -> is_promp D N o -> times T ->
  trajectory_from_weights o T w = Ok (Y, T') -> (d < D)%nat ->
  (forall k, (k < N)%nat -> lo <= aget w (d * N + k)%nat <= hi) ->
  forall t, (t < alen T)%nat -> lo <= Y t d <= hi.
Proof.
  intros D N o T w Y T' d lo hi HN Ho [HT _] E Hd Hw t Ht.
  assert (Hl : alen w = (D * N)%nat).
  { destruct (promp_dims D N o Ho) as (ED & EN & _). unfold trajectory_from_weights in E.
    rewrite rbfs_nd_sequence_ok in E by auto. cbn [bind] in E. rewrite ED, EN in E.
    destruct (Nat.eqb_spec (alen w) (D * N)); [auto|discriminate]. }
  destruct (trajectory_eq D N o T w Ho HT Hl) as (Y' & E' & H).
  rewrite E in E'. injection E' as -> _. rewrite H by auto.
  apply (convex_bounds N (basis (promp_new D N) (rel_time T t)) (fun k => aget w (d * N + k)%nat)); auto.
  - intros. apply basis_pos. exact HN.
  - exact (basis_sum (promp_new D N) _ HN).
Qed.

(** Linear in the weights. *)
Theorem C50_linear : forall D N o T u v a b, is_promp D N o -> times T ->
  alen u = (D * N)%nat -> alen v = (D * N)%nat ->
  exists Yu Yv Y T1 T2 T3,
    trajectory_from_weights o T u = Ok (Yu, T1)
    /\ trajectory_from_weights o T v = Ok (Yv, T2)
    /\ trajectory_from_weights o T {| alen := (D * N)%nat; aget := fun i => a * aget u i + b * aget v i |} = Ok (Y, T3)
    /\ forall t d, (t < alen T)%nat -> (d < D)%nat -> Y t d = a * Yu t d + b * Yv t d.
Proof.
  intros D N o T u v a b Ho [HT _] Hu Hv.
  destruct (trajectory_eq D N o T u Ho HT Hu) as (Yu & Eu & H1).
  destruct (trajectory_eq D N o T v Ho HT Hv) as (Yv & Ev & H2).
  destruct (trajectory_eq D N o T {| alen := (D * N)%nat; aget := fun i => a * aget u i + b * aget v i |} Ho HT eq_refl)
    as (Y & E & H3).
  eexists _, _, _, _, _, _. split; [exact Eu|]. split; [exact Ev|]. split; [exact E|].
  intros t d Ht Hd. rewrite H1, H2, H3 by auto. cbn [aget].
  rewrite <- !rsum_scal, <- rsum_plus. apply rsum_ext. intros; ring.
Qed.

(** Constant weights give a constant trajectory. *)
Theorem C50_constant : forall D N o T w Y T' d c, (0 < N)%nat -> is_promp D N o -> times T ->
  trajectory_from_weights o T w = Ok (Y, T') -> (d < D)%nat ->
  (forall k, (k < N)%nat -> aget w (d * N + k)%nat = c) ->
  forall t, (t < alen T)%nat -> Y t d = c.
Proof.
  intros D N o T w Y T' d c HN Ho HT E Hd Hw t Ht.
  assert (H := C50_bounds D N o T w Y T' d c c HN Ho HT E Hd).
  assert (c <= Y t d <= c); [|lra]. apply H; auto. intros k Hk. rewrite Hw by auto. lra.
Qed.

(** Two times, two dimensions, two weights each. *)
Definition ex_T : arr := {| alen := 2; aget := fun i => INR i |}.
Example C50_satisfiable :
  is_promp 2 2 (promp_new 2 2) /\ times ex_T
  /\ exists Y T', trajectory_from_weights (promp_new 2 2) ex_T
        {| alen := 4; aget := fun i => if (i <? 2)%nat then 3 else INR i |} = Ok (Y, T')
     /\ Y 0%nat 0%nat = 3 /\ 2 <= Y 1%nat 1%nat <= 3.
Proof.
  assert (Ho : is_promp 2 2 (promp_new 2 2)) by (exists vzero, (eye 4); reflexivity).
  assert (HT : times ex_T).
  { split; [cbn; lia|]. unfold ex_T. cbn. unfold Rmax. destruct (Rle_dec 0 1); lra. }
  split; [exact Ho|]. split; [exact HT|].
  destruct (trajectory_eq 2 2 (promp_new 2 2) ex_T
    {| alen := 4; aget := fun i => if (i <? 2)%nat then 3 else INR i |} Ho (proj1 HT) eq_refl) as (Y & E & _).
  eexists _, _. split; [exact E|]. split.
  - apply (C50_constant 2 2 _ _ _ _ _ 0 3 ltac:(lia) Ho HT E); [lia| |cbn; lia].
    intros k Hk. cbn [aget]. destruct (Nat.ltb_spec (0 * 2 + k) 2); [reflexivity|lia].
  - apply (C50_bounds 2 2 _ _ _ _ _ 1 2 3 ltac:(lia) Ho HT E); [lia| |cbn; lia].
    intros k Hk. cbn [aget]. destruct k as [|[|k]]; cbn; try lia; lra.
Qed.

(** ** C51 *)
(** [M] (n, n) is a covariance matrix: symmetric, positive semidefinite. *)
Definition covariance (n : nat) (M : mat) : Prop :=
  (forall i j, (i < n)%nat -> (j < n)%nat -> M i j = M j i)
  /\ forall x : vec, 0 <= rsum n (fun i => rsum n (fun j => x i * M i j * x j)).

Lemma quadratic n M x : dot n x (mvec n M x) = rsum n (fun i => rsum n (fun j => x i * M i j * x j)).
Proof.
  apply rsum_ext. intros i _. unfold mvec. rewrite <- rsum_scal. apply rsum_ext. intros; ring.
Qed.
Lemma psd_covariance n M : psd n M -> covariance n M.
Proof. intros [S P]. split; [auto|]. intros x. rewrite <- quadratic. apply P. Qed.
Lemma covariance_psd n M : sized n n M -> covariance n M -> psd n M.
Proof.
  intros HM [S P]. split; [|intros x; rewrite quadratic; apply P].
  intros i j. destruct (le_lt_dec n i) as [Hi|Hi]; [rewrite !HM by auto; auto|].
  destruct (le_lt_dec n j) as [Hj|Hj]; [rewrite !HM by auto; auto|]. auto.
Qed.
Lemma covariance_diag n M i : (i < n)%nat -> covariance n M -> 0 <= M i i.
Proof.
  intros Hi [_ P]. specialize (P (fun k => if (i =? k)%nat then 1 else 0)).
  rewrite (rsum_ext n _ (fun k => (if (i =? k)%nat then 1 else 0) * M k i)) in P.
  - now rewrite rsum_delta in P.
  - intros k _. rewrite (rsum_ext n _ (fun j => (if (i =? j)%nat then 1 else 0) * ((if (i =? k)%nat then 1 else 0) * M k j)))
      by (intros; ring). now rewrite rsum_delta.
Qed.

Lemma cov_psd rbfs D N o T a T' : is_promp D N o -> psd (D * N) (pm_weight_cov o) ->
  rbfs o T = Ok (a, T') -> exists C, cov_of rbfs o T = Ok (C, T') /\ psd (D * alen T) C.
Proof.
  intros Ho HC E. destruct (promp_dims D N o Ho) as (ED & EN & _).
  unfold cov_of. rewrite E. cbn [bind]. rewrite ED, EN. eexists. split; [reflexivity|].
  apply (psd_conj (D * alen T) (D * N)). exact HC.
Qed.

Lemma rbfs_derivative_ok o T : (0 < alen T)%nat -> exists a T',
  rbfs_derivative_nd_sequence o T = Ok (a, T') /\ alen T' = alen T.
Proof.
  intros H. unfold rbfs_derivative_nd_sequence, rbfs_derivative_1d_sequence, rbfs_1d_sequence.
  rewrite normalize_time_ok by auto. cbn [bind]. rewrite normalize_time_ok by auto. cbn [bind].
  eexists _, _. split; [reflexivity|]. reflexivity.
Qed.

(** For trajectories and for velocities. *)
Theorem C51_covariance : forall D N o T, is_promp D N o ->
  sized (D * N) (D * N) (pm_weight_cov o) -> covariance (D * N) (pm_weight_cov o) -> times T ->
  exists C T1 V T2 Cd T3 Vd T4,
    cov_trajectory o T = Ok (C, T1) /\ covariance (D * alen T) C
    /\ var_trajectory o T = Ok (V, T2)
    /\ (forall t d, (t < alen T)%nat -> (d < D)%nat ->
          V t d = C (d * alen T + t)%nat (d * alen T + t)%nat /\ 0 <= V t d)
    /\ cov_velocities o T = Ok (Cd, T3) /\ covariance (D * alen T) Cd
    /\ var_velocities o T = Ok (Vd, T4)
    /\ (forall t d, (t < alen T)%nat -> (d < D)%nat ->
          Vd t d = Cd (d * alen T + t)%nat (d * alen T + t)%nat /\ 0 <= Vd t d).
Proof.
  intros D N o T Ho HS HC [HT _]. apply covariance_psd in HC; auto.
  destruct (cov_psd rbfs_nd_sequence D N o T _ _ Ho HC (rbfs_nd_sequence_ok o T HT)) as (C & EC & PC).
  destruct (rbfs_derivative_ok o T HT) as (a & T' & Ea & _).
  destruct (cov_psd rbfs_derivative_nd_sequence D N o T _ _ Ho HC Ea) as (Cd & ECd & PCd).
  apply psd_covariance in PC, PCd.
  assert (V : forall M t d, covariance (D * alen T) M -> (t < alen T)%nat -> (d < D)%nat ->
     reshape_T (alen T) (fun i => Rmax (M i i) 0) t d = M (d * alen T + t)%nat (d * alen T + t)%nat
     /\ 0 <= reshape_T (alen T) (fun i => Rmax (M i i) 0) t d).
  { intros M t d HM Ht Hd. unfold reshape_T.
    assert (H := covariance_diag (D * alen T) M (d * alen T + t) ltac:(nia) HM).
    rewrite Rmax_left by auto. auto. }
  unfold var_trajectory, var_velocities, var_of, cov_trajectory, cov_velocities. rewrite EC, ECd. cbn [bind fst snd].
  do 8 eexists. repeat (split; [reflexivity || assumption || (intros; apply V; assumption)|]).
  intros; apply V; assumption.
Qed.

Example C51_satisfiable : is_promp 2 3 (promp_new 2 3)
  /\ sized (2 * 3) (2 * 3) (pm_weight_cov (promp_new 2 3))
  /\ covariance (2 * 3) (pm_weight_cov (promp_new 2 3)) /\ times ex_T.
Proof.
  split; [exists vzero, (eye 6); reflexivity|]. split; [apply sized_eye|].
  split; [apply psd_covariance, psd_eye|]. apply C50_satisfiable.
Qed.

(** ** C55 *)
(** Every query overwrites the caller's array with the normalised times. *)
Theorem C55_times_overwritten_refuted : forall D N o T, is_promp D N o -> times T ->
  exists Y T', mean_trajectory o T = Ok (Y, T')
  /\ alen T' = alen T /\ forall i, aget T' i = aget T i / np_max (alen T) (aget T).
Proof.
  intros D N o T Ho [HT _]. destruct (promp_dims D N o Ho) as (ED & EN & EK).
  destruct (trajectory_eq D N o T {| alen := pm_n_weights o; aget := pm_weight_mean o |} Ho HT EK) as (Y & E & _).
  exists Y, {| alen := alen T; aget := rel_time T |}. split; [exact E|]. split; reflexivity.
Qed.

(** In particular an array whose largest time is not 1 is changed. *)
Theorem C55_changed_refuted : forall D N o T, is_promp D N o -> times T ->
  np_max (alen T) (aget T) <> 1 ->
  exists Y T' i, mean_trajectory o T = Ok (Y, T') /\ (i < alen T)%nat /\ aget T' i <> aget T i.
Proof.
  intros D N o T Ho HT Hn. destruct (C55_times_overwritten_refuted D N o T Ho HT) as (Y & T' & E & _ & H).
  destruct HT as [HT Hp]. destruct (np_max_in (alen T) (aget T) HT) as (i & Hi & Ei).
  exists Y, T', i. split; auto. split; auto. rewrite H, <- Ei.
  unfold Rdiv. rewrite Rinv_r by lra. auto.
Qed.

(** What remains true: queries with the overwritten array return the same
    values, so a second query of the same array repeats the first. *)
Theorem C55_queries_repeatable_partial : forall D N o T, is_promp D N o -> times T ->
  exists Y T' Y', mean_trajectory o T = Ok (Y, T') /\ mean_trajectory o T' = Ok (Y', T')
  /\ forall t d, (t < alen T)%nat -> (d < D)%nat -> Y' t d = Y t d.
Proof.
  intros D N o T Ho [HT Hp]. destruct (promp_dims D N o Ho) as (ED & EN & EK).
  set (w := {| alen := pm_n_weights o; aget := pm_weight_mean o |}).
  set (T' := {| alen := alen T; aget := rel_time T |}).
  destruct (trajectory_eq D N o T w Ho HT EK) as (Y & E & H).
  destruct (trajectory_eq D N o T' w Ho HT EK) as (Y' & E' & H').
  assert (ET : rel_time T' = rel_time T).
  { apply vec_ext. intros i. unfold rel_time at 1. cbn [alen aget T'].
    rewrite rel_time_max by auto. field. }
  exists Y, T', Y'. split; [exact E|]. split.
  - unfold mean_trajectory. fold w. rewrite E'. now rewrite ET.
  - intros t d Ht Hd. rewrite H, H' by auto. now rewrite ET.
Qed.

Example C55_satisfiable : exists T, times T /\ np_max (alen T) (aget T) <> 1.
Proof.
  exists {| alen := 2; aget := fun i => 2 * INR i |}.
  assert (E : np_max 2 (fun i => 2 * INR i) = 2).
  { cbn. unfold Rmax. destruct (Rle_dec _ _); lra. }
  split; [split|]; cbn [alen aget]; [lia| |]; rewrite E; lra.
Qed.
