(** C107: a ProMP in another coordinate frame. *)
From Coq Require Import Reals List Arith Bool Lia Lra.
From Verif Require Import M_Prelude M_Base P_Loops M_Matrix P_Matrix M_DmpObject M_Ridge M_ProMP P_ProMP
  Properties_Ridge Properties_ProMP Properties_ProMPImitate Properties_ProMPWeights S_ProMPFrames P_ProMPFrames
  P_ProMPOne.
Import ListNotations.
Open Scope R_scope.
Set Bullet Behavior "Strict Subproofs".

Lemma turned_promp D N A o : is_promp D N o -> is_promp D N (turned D N A o).
Proof. intros (m & C & ->). do 2 eexists. reflexivity. Qed.

(** Learning from the demonstrations in the other frame, with any units of time, gives
    the distribution in the other frame and the same variance. *)
Theorem C107_learning : forall D N A o ds ds' n_iter min_delta,
  orthogonal D A -> is_promp D N o -> sized (D * N) (D * N) (pm_weight_cov o) -> Forall2 (turned_demo D A) ds ds' ->
  match promp_imitate o ds n_iter min_delta, promp_imitate (turned D N A o) ds' n_iter min_delta with
  | Ok (o1, v, Ts), Ok (o1', v', Ts') => o1' = turned D N A o1 /\ v' = v
  | Err e, Err e' => e' = e
  | _, _ => False
  end.
Proof.
  intros D N A o ds ds' n md HA Ho HS Hd.
  pose proof (em_precompute_all_rel D N A o (turned D N A o) HA Ho (turned_promp D N A o Ho) ds ds' Hd) as H1.
  unfold promp_imitate.
  destruct (em_precompute_all o ds) as [[es Ts]|], (em_precompute_all (turned D N A o) ds') as [[es' Ts']|];
    cbn [res_rel bind fst snd] in *; try tauto. destruct H1 as [He _].
  destruct (promp_dims D N o Ho) as (ED & EN & EK).
  replace (pm_n_dims (turned D N A o)) with D by (symmetry; exact ED).
  replace (pm_n_weights_per_dim (turned D N A o)) with N by (symmetry; exact EN). rewrite ED, EN.
  replace (fold_right Nat.add 0%nat (map pd_rows ds')) with (fold_right Nat.add 0%nat (map pd_rows ds)).
  2:{ clear -Hd. induction Hd as [|d d' l l' (H & _) _ IH]; cbn; congruence. }
  pose proof (em_loop_rel D (D * N) (kron D N A) (fold_right Nat.add 0%nat (map pd_rows ds)) md es es' (orth_kron D N A HA) He n
     (pm_weight_mean o, pm_weight_cov o, 1) (pm_weight_mean (turned D N A o), pm_weight_cov (turned D N A o), 1)) as H2.
  destruct (em_loop _ _ _ n md es _) as [[[m C] v]|], (em_loop _ _ _ n md es' _) as [[[m' C'] v']|];
    cbn [res_rel bind fst snd] in *; try (apply H2; repeat split; cbn; auto using turned_weights_kron, turned_cov_kron; fail).
  destruct H2 as ((E1 & E2 & _) & E3).
  { repeat split; cbn; auto using turned_weights_kron, turned_cov_kron. }
  cbn [fst snd] in *. subst v' m' C'. split; [|reflexivity].
  destruct Ho as (m0 & C0 & ->). unfold turned, from_weight_distribution. cbn.
  now rewrite turned_weights_kron, turned_cov_kron.
Qed.

(** ** Queries *)
Lemma kron_query D r n A P m t d : (t < n)%nat -> (d < D)%nat ->
  reshape_T n (mvec (D * r) (mT (nd_block_diagonal r n P D)) (mvec (D * r) (kron D r A) m)) t d
  = turned_point D A (reshape_T n (mvec (D * r) (mT (nd_block_diagonal r n P D)) m) t) d.
Proof.
  intros Ht Hd. unfold reshape_T, turned_point. rewrite <- mvec_mmul, <- kron_block_T, mvec_mmul. now apply mvec_kron.
Qed.
Lemma kron_cov_query D r n A P C :
  mmul (D * r) (mmul (D * r) (mT (nd_block_diagonal r n P D)) (conj (D * r) (kron D r A) C)) (nd_block_diagonal r n P D)
  = conj (D * n) (kron D n A) (mmul (D * r) (mmul (D * r) (mT (nd_block_diagonal r n P D)) C) (nd_block_diagonal r n P D)).
Proof.
  set (B := nd_block_diagonal r n P D). unfold conj.
  assert (E1 : mmul (D * r) (mT B) (kron D r A) = mmul (D * n) (kron D n A) (mT B)) by (symmetry; apply kron_block_T).
  assert (E2 : mmul (D * r) (mT (kron D r A)) B = mmul (D * n) B (mT (kron D n A))).
  { rewrite !kron_T. apply kron_block. }
  rewrite !mmul_assoc. rewrite E2. rewrite <- (mmul_assoc (D * r) (D * r) (mT B) (kron D r A)), E1. now rewrite !mmul_assoc.
Qed.

(** Mean and covariance of positions and velocities.  The arrays of covariances have
    the entry of dimension [d] at time [t] in row or column [d * n + t]. *)
Theorem C107_queries : forall D N A o T, is_promp D N o -> times T ->
  exists Y Y' V V' T1 T2, mean_trajectory o T = Ok (Y, T1) /\ mean_trajectory (turned D N A o) T = Ok (Y', T1)
  /\ mean_velocities o T = Ok (V, T2) /\ mean_velocities (turned D N A o) T = Ok (V', T2)
  /\ (forall t d, (t < alen T)%nat -> (d < D)%nat -> Y' t d = turned_point D A (Y t) d /\ V' t d = turned_point D A (V t) d)
  /\ exists CY CY' CV CV', cov_trajectory o T = Ok (CY, T1) /\ cov_trajectory (turned D N A o) T = Ok (CY', T1)
  /\ cov_velocities o T = Ok (CV, T2) /\ cov_velocities (turned D N A o) T = Ok (CV', T2)
  /\ forall t s d e, (t < alen T)%nat -> (s < alen T)%nat -> (d < D)%nat -> (e < D)%nat ->
       CY' (d * alen T + t)%nat (e * alen T + s)%nat
       = turned_covariance D A (fun d e => CY (d * alen T + t)%nat (e * alen T + s)%nat) d e
       /\ CV' (d * alen T + t)%nat (e * alen T + s)%nat
       = turned_covariance D A (fun d e => CV (d * alen T + t)%nat (e * alen T + s)%nat) d e.
Proof.
  intros D N A o T Ho [HT _]. destruct Ho as (m & C & ->). set (n := alen T) in *.
  destruct (rbfs_derivative_ok (promp_new D N) T HT) as (a & T' & Ea & _).
  assert (EV : exists P, rbfs_derivative_nd_sequence (promp_new D N) T = Ok (nd_block_diagonal N n P D, T')).
  { unfold rbfs_derivative_nd_sequence in *. destruct (rbfs_derivative_1d_sequence _ _ _) as [[P T0]|]; cbn [bind fst snd] in *; [|discriminate].
    exists P. injection Ea as _ <-. reflexivity. }
  destruct EV as [P EV]. clear a Ea.
  assert (EP : exists P, rbfs_nd_sequence (promp_new D N) T = Ok (nd_block_diagonal N n P D, {| alen := n; aget := rel_time T |})).
  { rewrite rbfs_nd_sequence_ok by auto. eexists. reflexivity. }
  destruct EP as [P' EP].
  assert (G : forall mean cov, rbfs_nd_sequence (from_weight_distribution mean cov (promp_new D N)) T = rbfs_nd_sequence (promp_new D N) T
            /\ rbfs_derivative_nd_sequence (from_weight_distribution mean cov (promp_new D N)) T = rbfs_derivative_nd_sequence (promp_new D N) T)
    by (intros; split; reflexivity).
  set (o := from_weight_distribution m C (promp_new D N)).
  assert (Eo : turned D N A o = from_weight_distribution (turned_weights D N A m) (turned_weight_cov D N A C) (promp_new D N)) by reflexivity.
  rewrite Eo. clear Eo. unfold mean_trajectory, mean_velocities, cov_trajectory, cov_velocities, cov_of, trajectory_from_weights.
  unfold o. set (m' := turned_weights D N A m). set (C' := turned_weight_cov D N A C).
  rewrite (proj1 (G m C)), (proj2 (G m C)), (proj1 (G m' C')), (proj2 (G m' C')), EP, EV. subst m' C'. cbn [bind from_weight_distribution promp_new pm_n_dims pm_n_weights_per_dim
    pm_n_weights pm_weight_mean pm_weight_cov alen aget]. rewrite Nat.eqb_refl. cbn [negb].
  do 6 eexists. do 4 (split; [reflexivity|]). split.
  { intros t d Ht Hd. rewrite turned_weights_kron. split; now apply kron_query. }
  do 4 eexists. do 4 (split; [reflexivity|]).
  intros t s d e Ht Hs Hd He. rewrite !turned_cov_kron, !kron_cov_query, <- !turned_cov_kron.
  assert (EI : forall M, turned_weight_cov D n A M (d * n + t)%nat (e * n + s)%nat
            = turned_covariance D A (fun d e => M (d * n + t)%nat (e * n + s)%nat) d e).
  { intros M. unfold turned_weight_cov. destruct (block_div n d t Ht) as [-> ->], (block_div n e s Hs) as [-> ->].
    destruct (Nat.ltb_spec (d * n + t) (D * n)); [|nia]. destruct (Nat.ltb_spec (e * n + s) (D * n)); [|nia]. reflexivity. }
  split; apply EI.
Qed.

(** ** A new ProMP has no preferred frame *)
Lemma turned_new D N A : orthogonal D A -> turned D N A (promp_new D N) = promp_new D N.
Proof.
  intros HA. unfold turned. rewrite turned_weights_kron, turned_cov_kron. cbn [promp_new pm_weight_mean pm_weight_cov].
  rewrite mvec_vzero, conj_eye by now apply orth_kron. reflexivity.
Qed.

Theorem C107_new : forall D N A ds ds' n_iter min_delta o v Ts T,
  orthogonal D A -> Forall2 (turned_demo D A) ds ds' -> times T ->
  promp_imitate (promp_new D N) ds n_iter min_delta = Ok (o, v, Ts) ->
  exists o' Ts', promp_imitate (promp_new D N) ds' n_iter min_delta = Ok (o', v, Ts')
  /\ exists Y Y' T1, mean_trajectory o T = Ok (Y, T1) /\ mean_trajectory o' T = Ok (Y', T1)
     /\ forall t d, (t < alen T)%nat -> (d < D)%nat -> Y' t d = turned_point D A (Y t) d.
Proof.
  intros D N A ds ds' n md o v Ts T HA Hd HT E.
  assert (Ho : is_promp D N (promp_new D N)) by (do 2 eexists; reflexivity).
  pose proof (C107_learning D N A (promp_new D N) ds ds' n md HA Ho (sized_eye _) Hd) as H.
  rewrite turned_new, E in H by auto. destruct (promp_imitate (promp_new D N) ds' n md) as [[[o' v'] Ts']|]; [|tauto].
  destruct H as [-> ->]. do 2 eexists. split; [reflexivity|].
  assert (Ho1 : is_promp D N o).
  { unfold promp_imitate in E. destruct (em_precompute_all _ _) as [p|]; [|discriminate]. cbn [bind] in E.
    destruct (em_loop _ _ _ _ _ _ _) as [st|]; [|discriminate]. cbn [bind] in E. injection E as <- _ _.
    do 2 eexists. reflexivity. }
  destruct (C107_queries D N A o T Ho1 HT) as (Y & Y' & V & V' & T1 & T2 & E1 & E2 & _ & _ & H & _).
  exists Y, Y', T1. split; [exact E1|]. split; [exact E2|]. intros t d Ht Hdd. now apply H.
Qed.

(** ** Conditioning *)
Lemma inverse_conj K Q M X : orth K Q -> sized K K M -> inverse K M X -> inverse K (conj K Q M) (conj K Q X).
Proof.
  intros HQ SM (SX & E1 & E2). repeat split.
  - apply sized_conj; auto. apply HQ.
  - rewrite conj_mul, E1 by auto. now apply conj_eye.
  - rewrite conj_mul, E2 by auto. now apply conj_eye.
Qed.
Lemma orth_T K Q : orth K Q -> orth K (mT Q).
Proof. intros (S & E1 & E2). split; [now apply sized_mT|]. rewrite mT_mT. auto. Qed.
Lemma conj_conj_T K Q M : orth K Q -> sized K K M -> conj K (mT Q) (conj K Q M) = M.
Proof.
  intros HQ SM. unfold conj. rewrite mT_mT, !mmul_assoc, (proj2 (proj2 HQ)).
  rewrite mmul_eye_r; [now apply conj_cancel_l|]. intros; apply SM; auto.
Qed.
Lemma inv_conj K Q M : orth K Q -> sized K K M ->
  res_rel (fun X X' => X' = conj K Q X /\ sized K K X) (np_linalg_inv K M) (np_linalg_inv K (conj K Q M)).
Proof.
  intros HQ SM. destruct (np_linalg_inv K M) as [X|e] eqn:E.
  - apply np_linalg_inv_spec in E. rewrite (np_linalg_inv_ok K _ _ (inverse_conj K Q M X HQ SM E)). cbn. split; [reflexivity|apply E].
  - apply np_linalg_inv_err in E. destruct E as [-> E].
    destruct (np_linalg_inv K (conj K Q M)) as [X|e] eqn:E'; cbn.
    + exfalso. apply E. apply np_linalg_inv_spec in E'. exists (conj K (mT Q) X).
      rewrite <- (conj_conj_T K Q M) by auto. apply inverse_conj; auto using orth_T. apply sized_conj; auto. apply HQ.
    + now apply np_linalg_inv_err in E'.
Qed.

Lemma kron_1 D A i j : (i < D)%nat -> (j < D)%nat -> kron D 1 A i j = A i j.
Proof.
  intros Hi Hj. unfold kron. rewrite Nat.mul_1_r, !Nat.mod_1_r, !Nat.div_1_r, Nat.eqb_refl.
  destruct (Nat.ltb_spec i D), (Nat.ltb_spec j D); try lia. reflexivity.
Qed.

(** A condition without covariance or with a square array of covariances. *)
Definition turned_obs (D : nat) (A : mat) (c c' : obs_cov) : Prop :=
  match c, c' with
  | NoCov, NoCov => True
  | FullCov C, FullCov C' => forall d e, (d < D)%nat -> (e < D)%nat -> C' d e = turned_covariance D A C d e
  | RowCov r, RowCov r' => forall d, (d < D)%nat -> r d = 0 /\ r' d = 0
  | _, _ => False
  end.

Lemma add_obs_rel D A c c' M : orthogonal D A -> sized D D M -> turned_obs D A c c' ->
  add_obs_cov D c' (conj D (kron D 1 A) M) = conj D (kron D 1 A) (add_obs_cov D c M) /\ sized D D (add_obs_cov D c M).
Proof.
  intros HA SM H. pose proof (orth_kron D 1 A HA) as HQ. rewrite Nat.mul_1_r in HQ. assert (SQ := proj1 HQ).
  assert (G : forall B B', crop D D B' = conj D (kron D 1 A) (crop D D B) ->
    madd (crop D D B') (conj D (kron D 1 A) M) = conj D (kron D 1 A) (madd (crop D D B) M) /\ sized D D (madd (crop D D B) M)).
  { intros B B' E. rewrite E, conj_madd. split; auto. apply sized_madd; auto. apply sized_crop. }
  destruct c as [|r|C], c' as [|r'|C']; cbn [turned_obs add_obs_cov] in *; try tauto.
  - apply G. replace (crop D D (fun _ j => r j)) with mzero.
    + rewrite conj_mzero. apply (mat_ext_sized D D); [apply sized_crop|apply sized_mzero|].
      intros i j Hi Hj. rewrite crop_in by auto. now apply H.
    + apply (mat_ext_sized D D); [apply sized_mzero|apply sized_crop|].
      intros i j Hi Hj. rewrite crop_in by auto. symmetry. now apply H.
  - apply G. apply (mat_ext_sized D D); [apply sized_crop|apply sized_conj; auto; apply sized_crop|].
    intros i j Hi Hj. rewrite crop_in, H by auto. unfold conj, turned_covariance. rewrite mmul_assoc. unfold mmul at 1.
    apply rsum_ext. intros e He. rewrite kron_1 by auto. unfold mmul. rewrite <- rsum_scal.
    apply rsum_ext. intros f Hf. unfold mT. rewrite kron_1, crop_in by auto. ring.
Qed.

Lemma condition_rel D N A o y y' c c' t t_max : orthogonal D A -> is_promp D N o ->
  sized (D * N) (D * N) (pm_weight_cov o) ->
  (forall d, (d < D)%nat -> y' d = turned_point D A y d) -> turned_obs D A c c' ->
  match condition_position o y c t t_max, condition_position (turned D N A o) y' c' t t_max with
  | Ok o1, Ok o1' => o1' = turned D N A o1 /\ sized (D * N) (D * N) (pm_weight_cov o1) /\ is_promp D N o1
  | Err e, Err e' => e' = e
  | _, _ => False
  end.
Proof.
  intros HA (m & C & ->) SC Hy Hc. cbn [from_weight_distribution pm_weight_cov] in SC.
  unfold condition_position, rbfs_1d_point. cbn [turned from_weight_distribution promp_new pm_n_dims pm_n_weights_per_dim pm_weight_mean pm_weight_cov pm_centers].
  destruct (Req_EM_T t_max 0); cbn [bind]; [reflexivity|].
  set (P := crop N 1 _). set (Psi := nd_block_diagonal N 1 P D). set (K := (D * N)%nat).
  set (Q := kron D N A). set (Q1 := kron D 1 A).
  pose proof (orth_kron D N A HA) as HQ. fold K Q in HQ.
  pose proof (orth_kron D 1 A HA) as HQ1. rewrite Nat.mul_1_r in HQ1. fold Q1 in HQ1.
  rewrite turned_weights_kron, turned_cov_kron. fold K Q.
  assert (SPsi : sized K D Psi) by (pose proof (sized_nd_block N 1 P D) as H; rewrite Nat.mul_1_r in H; exact H).
  assert (E0 : mmul K (mmul K (mT Psi) (conj K Q C)) Psi = conj D Q1 (mmul K (mmul K (mT Psi) C) Psi)).
  { pose proof (kron_cov_query D N 1 A P C) as H. rewrite Nat.mul_1_r in H. exact H. }
  rewrite E0. set (M := mmul K (mmul K (mT Psi) C) Psi).
  assert (SM : sized D D M).
  { apply (sized_mmul _ K); auto. apply (sized_mmul _ K); auto. now apply sized_mT. }
  destruct (add_obs_rel D A c c' M HA SM Hc) as [E1 SM1]. fold Q1 in E1. rewrite E1.
  pose proof (inv_conj D Q1 _ HQ1 SM1) as H.
  destruct (np_linalg_inv D (add_obs_cov D c M)) as [X|], (np_linalg_inv D (conj D Q1 (add_obs_cov D c M))) as [X'|];
    cbn [res_rel bind] in *; try tauto. destruct H as [-> SX].
  assert (B1 : mmul K (mT Q) Psi = mmul D Psi (mT Q1)).
  { unfold Q, Q1, Psi. rewrite !kron_T. pose proof (kron_block D N 1 P (mT A)) as H. rewrite Nat.mul_1_r in H. exact H. }
  assert (B2 : mmul K (mT Psi) Q = mmul D Q1 (mT Psi)).
  { pose proof (kron_block_T D N 1 P A) as H. rewrite Nat.mul_1_r in H. symmetry. exact H. }
  set (G := mmul D (mmul K C Psi) X).
  assert (SG : sized K D G) by (apply (sized_mmul _ D); auto; apply (sized_mmul _ K); auto).
  assert (EG : mmul D (mmul K (conj K Q C) Psi) (conj D Q1 X) = mmul D (mmul K Q G) (mT Q1)).
  { unfold conj, G. rewrite !mmul_assoc. do 2 f_equal.
    rewrite <- (mmul_assoc K D (mT Q) Psi), B1, !mmul_assoc. do 1 f_equal.
    apply conj_cancel_l; auto. apply (sized_mmul _ D); auto. apply sized_mT. apply HQ1. }
  rewrite EG. split; [|split].
  - unfold turned, from_weight_distribution. cbn [pm_n_dims pm_n_weights_per_dim pm_n_weights pm_weight_mean pm_weight_cov pm_centers promp_new].
    rewrite turned_weights_kron, turned_cov_kron. fold K Q. f_equal.
    + rewrite mvec_vadd. f_equal. rewrite !mvec_mmul. f_equal.
      rewrite (mvec_ext D (mT Q1) _ (mvec D Q1 (vsub y (mvec K (mT Psi) m)))).
      * rewrite <- (mvec_mmul D D (mT Q1) Q1), (proj2 (proj2 HQ1)). apply mvec_ext. intros i Hi. now apply mvec_eye_in.
      * intros d Hd. rewrite mvec_vsub. unfold vsub. f_equal.
        -- rewrite Hy by auto. unfold turned_point, mvec. apply rsum_ext. intros e He. unfold Q1. now rewrite kron_1.
        -- rewrite <- !mvec_mmul, B2. reflexivity.
    + unfold conj at 3. rewrite mmul_msub_r, mmul_msub_l. f_equal.
      unfold conj. rewrite !mmul_assoc. do 2 f_equal.
      rewrite <- (mmul_assoc K K (mT Psi) Q), B2, mmul_assoc. rewrite <- mmul_assoc, (proj2 (proj2 HQ1)). apply mmul_eye_l.
      intros i j Hi. unfold mmul. apply rsum_0. intros l Hl. unfold mT. rewrite (SPsi l i) by auto. ring.
  - cbn. apply sized_msub; auto. apply (sized_mmul _ K); auto. apply (sized_mmul _ D); auto. now apply sized_mT.
  - do 2 eexists. reflexivity.
Qed.

Theorem C107_conditioning : forall D N A o y y' c c' t t_max, orthogonal D A -> is_promp D N o ->
  sized (D * N) (D * N) (pm_weight_cov o) ->
  (forall d, (d < D)%nat -> y' d = turned_point D A y d) -> turned_obs D A c c' ->
  match condition_position o y c t t_max, condition_position (turned D N A o) y' c' t t_max with
  | Ok o1, Ok o1' => o1' = turned D N A o1
  | Err e, Err e' => e' = e
  | _, _ => False
  end.
Proof.
  intros D N A o y y' c c' t t_max HA Ho SC Hy Hc.
  pose proof (condition_rel D N A o y y' c c' t t_max HA Ho SC Hy Hc) as H.
  destruct (condition_position o y c t t_max), (condition_position (turned D N A o) y' c' t t_max); tauto.
Qed.

(** Via-points without covariances. *)
Theorem C107_via_points : forall D N A o ts ys ys', orthogonal D A -> is_promp D N o ->
  sized (D * N) (D * N) (pm_weight_cov o) ->
  (forall i d, (i < length ts)%nat -> (d < D)%nat -> ys' i d = turned_point D A (ys i) d) ->
  match via_points o ts ys None, via_points (turned D N A o) ts ys' None with
  | Ok o1, Ok o1' => o1' = turned D N A o1
  | Err e, Err e' => e' = e
  | _, _ => False
  end.
Proof.
  intros D N A o ts ys ys' HA. unfold via_points.
  assert (G : forall ts idx o, is_promp D N o -> sized (D * N) (D * N) (pm_weight_cov o) ->
    (forall i d, (idx <= i < idx + length ts)%nat -> (d < D)%nat -> ys' i d = turned_point D A (ys i) d) ->
    match via_points_loop idx ts ys None o, via_points_loop idx ts ys' None (turned D N A o) with
    | Ok o1, Ok o1' => o1' = turned D N A o1
    | Err e, Err e' => e' = e
    | _, _ => False
    end).
  { clear -HA. induction ts as [|t ts IH]; intros idx o Ho SC H; cbn [via_points_loop]; [reflexivity|].
    pose proof (condition_rel D N A o (ys idx) (ys' idx) (RowCov vzero) (RowCov vzero) t 1 HA Ho SC) as G.
    destruct (condition_position o (ys idx) (RowCov vzero) t 1) as [o1|], (condition_position (turned D N A o) (ys' idx) (RowCov vzero) t 1) as [o1'|];
      cbn [bind].
    - destruct G as (-> & S1 & P1).
      + intros d Hd. apply H; auto. cbn [length]. lia.
      + cbn. intros. split; reflexivity.
      + apply IH; auto. intros i d Hi Hd. apply H; auto. cbn [length]. lia.
    - exfalso. apply G; [intros d Hd; apply H; auto; cbn [length]; lia|cbn; split; reflexivity].
    - exfalso. apply G; [intros d Hd; apply H; auto; cbn [length]; lia|cbn; split; reflexivity].
    - apply G; [intros d Hd; apply H; auto; cbn [length]; lia|cbn; split; reflexivity]. }
  intros Ho SC H. apply G; auto. intros i d Hi Hd. apply H; auto. lia.
Qed.

(** Weights of one demonstration. *)
Theorem C107_weights : forall D N A o T rows Y Y' lmbda, orthogonal D A -> is_promp D N o ->
  (forall t e, (t < rows)%nat -> (e < D)%nat -> Y' t e = turned_point D A (Y t) e) ->
  match promp_weights o T rows Y lmbda, promp_weights o T rows Y' lmbda with
  | Ok (w, T1), Ok (w', T1') => w' = turned_weights D N A w /\ T1' = T1
  | Err e, Err e' => e' = e
  | _, _ => False
  end.
Proof.
  intros D N A o T rows Y Y' lam HA Ho HY. destruct (promp_dims D N o Ho) as (ED & EN & _).
  unfold promp_weights. destruct (Nat.eq_dec (alen T) 0) as [E0|E0].
  { unfold rbfs_nd_sequence, rbfs_1d_sequence, normalize_time. rewrite E0. cbn. reflexivity. }
  rewrite rbfs_nd_sequence_ok by lia. cbn [bind].
  destruct (Nat.eqb_spec rows (alen T)) as [->|]; cbn [negb]; [|reflexivity]. split; [|reflexivity].
  rewrite ED, EN. set (n := alen T) in *. set (P := crop N n _). set (Phi := nd_block_diagonal N n P D).
  rewrite (T_ravel_turned D A n Y Y') by auto. rewrite turned_weights_kron. set (Q := kron D N A). set (Qn := kron D n A).
  rewrite !mT_mT. set (K := (D * N)%nat). set (G := madd (mmul (D * n) Phi (mT Phi)) (mscale lam (eye K))).
  pose proof (orth_kron D N A HA) as HQ. fold K Q in HQ.
  assert (SPhi : sized K (D * n) Phi) by apply sized_nd_block.
  assert (SG : sized K K G).
  { apply sized_madd; [apply (sized_mmul _ (D * n)); auto; now apply sized_mT|]. apply sized_mscale, sized_eye. }
  assert (E1 : mmul K Q Phi = mmul (D * n) Phi Qn) by apply kron_block.
  assert (E2 : mmul (D * n) Qn (mT Phi) = mmul K (mT Phi) Q) by apply kron_block_T.
  assert (EG : mmul K Q G = mmul K G Q).
  { unfold G. rewrite mmul_madd_r, mmul_madd_l. f_equal.
    - rewrite <- mmul_assoc, E1, mmul_assoc, E2. now rewrite <- mmul_assoc.
    - rewrite mmul_mscale_r, mmul_mscale_l. f_equal. rewrite mmul_eye_l, mmul_eye_r; auto; intros; apply HQ; auto. }
  set (X := np_linalg_pinv K K G). assert (SX : sized K K X) by now apply np_linalg_pinv_spec.
  assert (EX : mmul K Q X = mmul K X Q).
  { assert (E3 : conj K Q X = X).
    { unfold X. rewrite <- pinv_conj by auto. f_equal. now apply conj_commuting. }
    rewrite <- E3 at 2. unfold conj. rewrite mmul_assoc, (proj2 (proj2 HQ)). symmetry. apply mmul_eye_r.
    intros i j Hj. unfold mmul. apply rsum_0. intros l Hl. rewrite (SX l j) by auto. ring. }
  rewrite <- !mvec_mmul. f_equal. rewrite mmul_assoc, <- E1. rewrite <- mmul_assoc, <- EX. now rewrite mmul_assoc.
Qed.

(** ** Shifts *)
(** The queries follow a shift of the weights, *)
Theorem C107_shifted_queries : forall D N b o T, (0 < N)%nat -> is_promp D N o -> times T ->
  exists Y Y' C T1, mean_trajectory o T = Ok (Y, T1) /\ mean_trajectory (shifted D N b o) T = Ok (Y', T1)
  /\ (forall t d, (t < alen T)%nat -> (d < D)%nat -> Y' t d = Y t d + b d)
  /\ cov_trajectory o T = Ok (C, T1) /\ cov_trajectory (shifted D N b o) T = Ok (C, T1).
Proof.
  intros D N b o T HN Ho [HT _].
  assert (Ho' : is_promp D N (shifted D N b o)) by (destruct Ho as (m & C & ->); do 2 eexists; reflexivity).
  destruct (promp_dims D N o Ho) as (ED & EN & EK), (promp_dims D N _ Ho') as (ED' & EN' & EK').
  destruct (trajectory_eq D N o T {| alen := pm_n_weights o; aget := pm_weight_mean o |} Ho HT EK) as (Y & E1 & H1).
  destruct (trajectory_eq D N _ T {| alen := pm_n_weights (shifted D N b o); aget := pm_weight_mean (shifted D N b o) |} Ho' HT EK') as (Y' & E2 & H2).
  exists Y, Y'. eexists. exists {| alen := alen T; aget := rel_time T |}.
  split; [exact E1|]. split; [exact E2|]. split.
  - intros t d Ht Hd. rewrite H1, H2 by auto. cbn [aget shifted from_weight_distribution pm_weight_mean].
    rewrite (rsum_ext N _ (fun k => basis (promp_new D N) (rel_time T t) k * pm_weight_mean o (d * N + k)%nat
                                   + basis (promp_new D N) (rel_time T t) k * b d)).
    + rewrite rsum_plus, rsum_scal_r, (basis_sum (promp_new D N)) by exact HN. ring.
    + intros k Hk. destruct (block_div N d k Hk) as [-> _]. destruct (Nat.ltb_spec (d * N + k) (D * N)); [ring|nia].
  - unfold cov_trajectory, cov_of. rewrite !rbfs_nd_sequence_ok by auto. cbn [bind]. rewrite ED, EN, ED', EN'.
    split; [reflexivity|]. destruct Ho as (m & C & ->). reflexivity.
Qed.

(** but learning does not: with a demonstration and a prior that are shifted by [s],
    the mean after two iterations is not shifted by [s]. *)
Theorem C107_shift_refuted : forall s, 0 < s -> exists d d' o1 v1 Ts o1' v1' Ts',
  shifted_demo 1 (fun _ => s) d d'
  /\ promp_imitate (promp_new 1 1) [d] 2 0 = Ok (o1, v1, Ts)
  /\ promp_imitate (shifted 1 1 (fun _ => s) (promp_new 1 1)) [d'] 2 0 = Ok (o1', v1', Ts')
  /\ forall T Y T1 Y' T1' t, times T -> mean_trajectory o1 T = Ok (Y, T1) -> mean_trajectory o1' T = Ok (Y', T1') ->
       (t < alen T)%nat -> Y' t 0%nat <> Y t 0%nat + s.
Proof.
  assert (G : forall s o, 0 <= s -> is_promp 1 1 o -> pm_weight_mean o 0%nat = s -> pm_weight_cov o = eye 1 ->
    exists o1 v1 Ts, promp_imitate o [demo2 (1 + s) (1 + s)] 2 0 = Ok (o1, v1, Ts) /\ is_promp 1 1 o1
      /\ let a := 109/209 in let A := 109/209 + 109/100 * (100/209) ^ 2 in let v := A / (2 * (a + s) + 2) in
         0 < v /\ pm_weight_mean o1 0%nat = s + 109 * (1 + v) / (109 + 209 * v)).
  { intros s o Hs Ho Em EC. destruct (promp_dims 1 1 o Ho) as (ED & EN & _).
    destruct (em1_ok o (1 + s) (1 + s) Ho) as (e & T & Ee & He). unfold promp_imitate.
    change [demo2 (1 + s) (1 + s)] with (repeat (demo2 (1 + s) (1 + s)) 1).
    rewrite (em_precompute_all_repeat o _ e T 1 Ee), rows_repeat. cbn [bind fst snd]. rewrite ED, EN. change (1 * 1)%nat with 1%nat.
    assert (C0 : pm_weight_cov o 0%nat 0%nat = 1) by (rewrite EC; reflexivity).
    assert (SC : sized 1 1 (pm_weight_cov o)) by (rewrite EC; apply sized_eye).
    destruct (em_step_repeat 1 (2 * 1) 0 e _ _ 1 (pm_weight_mean o) (pm_weight_cov o) 1 ltac:(lia) He ltac:(lra) SC ltac:(lra) ltac:(lra))
      as (m1 & C1 & Em1 & EC1 & SC1 & EL). rewrite EL. clear EL.
    rewrite C0, Em in Em1. rewrite C0 in EC1. pose proof He as (Eq & Eh & _).
    assert (Hp : post_var 1 1 = 100/209) by (unfold post_var; field).
    rewrite Hp in EC1. unfold post_mean in Em1. rewrite Hp, Eh in Em1.
    assert (Em1' : m1 0%nat = 109/209 + s) by (rewrite Em1; field). clear Em1.
    set (v1 := new_var _ _ _ _ _ _).
    assert (Hsq : sqrt (INR 1 * ((109/209 + s) * (109/209 + s))) = 109/209 + s).
    { cbn [INR]. rewrite Rmult_1_l. apply sqrt_square. lra. }
    assert (EV : v1 = (109/209 + 109/100 * (100/209) ^ 2) / (2 * (109/209 + s) + 2)).
    { unfold v1, new_var, post_mean. rewrite C0, Em, Hp, Eq, Eh.
      replace (100 / 209 * ((3 / 10 * (1 + s - 7 / 10 * (1 + s)) + (1 + s)) / 1 + s / 1)) with (109/209 + s) by field.
      rewrite Hsq. cbn [INR Nat.mul Nat.add]. field. lra. }
    cbv zeta. rewrite <- EV.
    assert (HV : 0 < v1) by (rewrite EV; apply Rdiv_lt_0_compat; lra).
    destruct (em_step_repeat 1 (2 * 1) 0 e _ _ 0 m1 C1 v1 ltac:(lia) He HV SC1 ltac:(lra) ltac:(lra))
      as (m2 & C2 & Em2 & EC2 & _ & EL). rewrite EL. cbn [em_loop bind fst snd]. do 3 eexists. split; [reflexivity|]. split.
    - destruct Ho as (mm & CC & ->). do 2 eexists. reflexivity.
    - split; [exact HV|]. cbn [from_weight_distribution pm_weight_mean]. rewrite Em2. unfold post_mean, post_var.
      rewrite EC1, Em1', Eh. field. split; lra. }
  intros s Hs.
  destruct (G 0 (promp_new 1 1) (Rle_refl 0)) as (o1 & v1 & Ts & E1 & P1 & V1 & M1); [do 2 eexists; reflexivity|reflexivity|reflexivity|].
  destruct (G s (shifted 1 1 (fun _ => s) (promp_new 1 1)) (Rlt_le _ _ Hs)) as (o2 & v2 & Ts2 & E2 & P2 & V2 & M2);
    [do 2 eexists; reflexivity|cbn; unfold vzero; ring|reflexivity|].
  exists (demo2 1 1), (demo2 (1 + s) (1 + s)), o1, v1, Ts, o2, v2, Ts2.
  split; [repeat split; intros t e _ _; cbn; destruct (t =? 0)%nat; ring|].
  split; [now rewrite Rplus_0_r in E1|]. split; [exact E2|].
  intros T Y T1 Y' T1' t [HT _] EY EY' Ht Heq.
  assert (Q : forall o Y T1, is_promp 1 1 o -> mean_trajectory o T = Ok (Y, T1) -> Y t 0%nat = pm_weight_mean o 0%nat).
  { intros o Z T2 Ho EZ. destruct (promp_dims 1 1 o Ho) as (ED & EN & EK).
    destruct (trajectory_eq 1 1 o T {| alen := pm_n_weights o; aget := pm_weight_mean o |} Ho HT EK) as (Z' & EZ' & HZ).
    unfold mean_trajectory in EZ. rewrite EZ' in EZ. injection EZ as <- _. rewrite HZ by lia. cbn [rsum aget Nat.mul Nat.add].
    assert (B := basis_sum (promp_new 1 1) (rel_time T t)). cbn [promp_new pm_n_weights_per_dim rsum] in B.
    rewrite Rplus_0_l in B |- *. rewrite B by lia. ring. }
  rewrite (Q _ _ _ P1 EY), (Q _ _ _ P2 EY'), M1, M2 in Heq. cbv zeta in V1, V2, Heq.
  set (A := 109 / 209 + 109 / 100 * (100 / 209) ^ 2) in *.
  set (w1 := A / (2 * (109 / 209 + 0) + 2)) in *. set (w2 := A / (2 * (109 / 209 + s) + 2)) in *.
  assert (HA : 0 < A) by (unfold A; lra).
  assert (Hlt : w2 < w1).
  { unfold w1, w2, Rdiv. apply Rmult_lt_compat_l; [exact HA|]. apply Rinv_lt_contravar; nra. }
  assert (Heq' : 109 * (1 + w2) / (109 + 209 * w2) = 109 * (1 + w1) / (109 + 209 * w1)) by lra.
  apply (f_equal (fun x => x * ((109 + 209 * w2) * (109 + 209 * w1)))) in Heq'. field_simplify in Heq'; nra.
Qed.

(** A reflection and a rotation by a right angle in the plane, and a demonstration. *)
Example C107_satisfiable :
  orthogonal 2 (fun i j => match i, j with 0%nat, 1%nat => -1 | 1%nat, 0%nat => 1 | _, _ => 0 end)
  /\ orthogonal 2 (fun i j => match i, j with 0%nat, 0%nat => 3/5 | 0%nat, 1%nat => 4/5 | 1%nat, 0%nat => 4/5 | _, _ => - (3/5) end)
  /\ (let A : mat := fun i j => match i, j with 0%nat, 1%nat => -1 | 1%nat, 0%nat => 1 | _, _ => 0 end in
      let d := {| pd_T := ex_T; pd_rows := 2; pd_Y := fun t e => INR t + 2 * INR e |} in
      let d' := {| pd_T := {| alen := 2; aget := fun i => 3 * INR i |}; pd_rows := 2;
                   pd_Y := fun t e => if (e =? 0)%nat then - (INR t + 2) else INR t |} in
      turned_demo 2 A d d' /\ valid_demo d
      /\ exists o v Ts, promp_imitate (promp_new 2 3) [d] 5 0 = Ok (o, v, Ts)).
Proof.
  split; [|split; [|split; [|split]]].
  - intros [|[|i]] [|[|j]] Hi Hj; try lia; cbn; lra.
  - intros [|[|i]] [|[|j]] Hi Hj; try lia; cbn; lra.
  - split; [reflexivity|]. split; [reflexivity|]. split.
    + exists 3. split; [lra|]. intros i Hi. reflexivity.
    + intros t [|[|e]] Ht He; try lia; unfold turned_point; cbn; ring.
  - split; [|reflexivity]. split; cbn; [lia|]. unfold Rmax. destruct (Rle_dec _ _); lra.
  - destruct C56_satisfiable as (_ & H2 & H3 & H4 & H5).
    assert (HT : times ex_T) by (split; cbn; [lia|]; unfold Rmax; destruct (Rle_dec _ _); lra).
    destruct (C56_valid 2 3 (promp_new 2 3) [{| pd_T := ex_T; pd_rows := 2; pd_Y := fun t e => INR t + 2 * INR e |}] 5 0)
      as (o & v & Ts & E & _); auto; try lia; try discriminate.
    + constructor; [split; [exact HT|reflexivity]|constructor].
    + exists o, v, Ts. exact E.
Qed.
