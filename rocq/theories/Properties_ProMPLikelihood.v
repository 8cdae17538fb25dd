(** C108: learning a ProMP can make the demonstrations less likely. *)
From Coq Require Import Reals List Arith Bool Lia Lra.
From Verif Require Import M_Prelude M_Base P_Loops M_Matrix P_Matrix M_DmpObject M_Ridge M_ProMP P_ProMP
  Properties_Ridge Properties_ProMP Properties_ProMPImitate Properties_ProMPWeights Properties_ProMPEM S_ProMPEM P_ProMPOne.
Import ListNotations.
Open Scope R_scope.
Set Bullet Behavior "Strict Subproofs".

(** ** Specification *)
(** Logarithm of the density of the normal distribution in the plane with mean
    (m0, m1) and covariance matrix ((a, b), (b, c)). *)
Definition log_normal2 (m0 m1 a b c x0 x1 : R) : R :=
  - ln (2 * PI) - 1/2 * ln (a * c - b * b)
  - 1/2 * ((c * (x0 - m0) ^ 2 - 2 * b * (x0 - m0) * (x1 - m1) + a * (x1 - m1) ^ 2) / (a * c - b * b)).

(** Logarithm of the likelihood of a demonstration with two steps in one dimension.
    Its filtered values (see [filtered]) are the filtered values of a trajectory
    of the ProMP, plus independent noise with variance [v]. *)
Definition log_likelihood (o : promp) (v : R) (d : pdemo) (l : R) : Prop :=
  exists Y T1 C T2, mean_trajectory o (pd_T d) = Ok (Y, T1) /\ cov_trajectory o (pd_T d) = Ok (C, T2)
  /\ l = log_normal2 (filtered 2 (fun t => Y t 0%nat) 0) (filtered 2 (fun t => Y t 0%nat) 1)
           (C 0%nat 0%nat - 7/10 * C 0%nat 1%nat - 7/10 * C 1%nat 0%nat + 7/10 * (7/10) * C 1%nat 1%nat + v)
           (C 0%nat 1%nat - 7/10 * C 1%nat 1%nat)
           (C 1%nat 1%nat + v)
           (filtered 2 (fun t => pd_Y d t 0%nat) 0) (filtered 2 (fun t => pd_Y d t 0%nat) 1).

(** ** Proofs *)
Lemma log_likelihood_1 o v y0 y1 : is_promp 1 1 o -> sized 1 1 (pm_weight_cov o) ->
  let m := pm_weight_mean o 0%nat in let C := pm_weight_cov o 0%nat 0%nat in
  log_likelihood o v (demo2 y0 y1) (log_normal2 (3/10 * m) m (9/100 * C + v) (3/10 * C) (C + v) (y0 - 7/10 * y1) y1).
Proof.
  intros Ho SC m C. destruct (promp_dims 1 1 o Ho) as (ED & EN & EK).
  assert (HT : (0 < alen ex_T)%nat) by (cbn; lia).
  destruct (trajectory_eq 1 1 o ex_T {| alen := pm_n_weights o; aget := pm_weight_mean o |} Ho HT EK) as (Y & EY & HY).
  assert (BB : forall j, basis o (rel_time ex_T j) 0%nat = 1).
  { intros j. assert (G := basis_sum o (rel_time ex_T j)). rewrite EN in G. cbn [rsum] in G. rewrite <- G by lia. ring. }
  assert (Yt : forall t, (t < 2)%nat -> Y t 0%nat = m).
  { intros t Ht. rewrite HY by (cbn; lia). cbn [rsum aget Nat.mul Nat.add]. rewrite <- (promp_basis 1 1 o) by auto. rewrite BB. unfold m. ring. }
  unfold log_likelihood. cbn [demo2 pd_T pd_Y]. unfold mean_trajectory. rewrite EY. unfold cov_trajectory, cov_of.
  rewrite rbfs_nd_sequence_ok by auto. rewrite ED, EN. cbn [bind]. do 4 eexists. split; [reflexivity|]. split; [reflexivity|].
  set (Phi := nd_block_diagonal _ _ _ _).
  assert (EP : forall j, (j < 2)%nat -> Phi 0%nat j = 1).
  { intros j Hj. unfold Phi. etransitivity; [exact (nd_block_in 1 2 _ 1 0 0 j ltac:(lia) ltac:(lia) Hj)|]. rewrite crop_in by (cbn; lia). apply BB. }
  set (X := mmul _ _ Phi).
  assert (EX : forall i j, (i < 2)%nat -> (j < 2)%nat -> X i j = C).
  { intros i j Hi Hj. unfold X, mmul, mT. cbn [rsum Nat.mul Nat.add]. rewrite !EP by auto. unfold C. ring. }
  rewrite !EX by lia. unfold filtered. cbn [Nat.ltb Nat.leb Nat.eqb]. rewrite !Yt by lia.
  f_equal; lra.
Qed.

Lemma log_normal2_rank1 m C v x0 x1 : 0 < v -> 0 <= C ->
  log_normal2 (3/10 * m) m (9/100 * C + v) (3/10 * C) (C + v) x0 x1
  = - ln (2 * PI) - 1/2 * ln (v * (v + 109/100 * C))
    - 1/2 * ((v * ((x0 - 3/10 * m) ^ 2 + (x1 - m) ^ 2) + C * (x0 - 3/10 * x1) ^ 2) / (v * (v + 109/100 * C))).
Proof.
  intros Hv HC. unfold log_normal2.
  replace ((9 / 100 * C + v) * (C + v) - 3 / 10 * C * (3 / 10 * C)) with (v * (v + 109/100 * C)) by field.
  do 3 f_equal. field.
Qed.

(** ** C108 *)
(** Four copies of the demonstration (1.79, 0.7): one iteration makes them less
    likely than they are for the new ProMP with the initial noise variance 1
    (no iteration). *)
Theorem C108_less_likely_refuted : exists ds o0 v0 Ts0 o1 v1 Ts1,
  Forall valid_demo ds
  /\ promp_imitate (promp_new 1 1) ds 0 0 = Ok (o0, v0, Ts0)
  /\ promp_imitate (promp_new 1 1) ds 1 0 = Ok (o1, v1, Ts1)
  /\ forall d, In d ds -> exists l0 l1, log_likelihood o0 v0 d l0 /\ log_likelihood o1 v1 d l1 /\ l1 < l0 - 1/10.
Proof.
  set (y0 := 179/100). set (y1 := 7/10).
  assert (Ho : is_promp 1 1 (promp_new 1 1)) by (do 2 eexists; reflexivity).
  destruct (em1_ok (promp_new 1 1) y0 y1 Ho) as (e & T & Ee & He).
  exists (repeat (demo2 y0 y1) 4). unfold promp_imitate.
  rewrite (em_precompute_all_repeat _ _ e T 4 Ee), rows_repeat. cbn [bind fst snd promp_new pm_n_dims pm_n_weights_per_dim].
  change (1 * 1)%nat with 1%nat.
  destruct (em_step_repeat 4 (2 * 4) 0 e _ _ 0 (pm_weight_mean (promp_new 1 1)) (pm_weight_cov (promp_new 1 1)) 1 ltac:(lia) He ltac:(lra)
    (sized_eye 1) ltac:(cbn; lra) ltac:(lra)) as (m1 & C1 & Em1 & EC1 & SC1 & EL).
  rewrite EL. cbn [em_loop bind fst snd]. do 6 eexists.
  assert (HT : times ex_T) by (split; cbn; [lia|]; unfold Rmax; destruct (Rle_dec _ _); lra).
  split; [cbn [repeat]; repeat (constructor; [split; [exact HT|reflexivity]|]); constructor|]. split; [reflexivity|]. split; [reflexivity|].
  intros d Hd. apply repeat_spec in Hd. subst d.
  destruct He as (Eq & Eh & _). cbn [promp_new pm_weight_mean pm_weight_cov] in Em1, EC1. change (1 * 1)%nat with 1%nat in Em1, EC1.
  unfold eye, vzero in Em1, EC1. cbn [Nat.eqb Nat.ltb Nat.leb andb] in Em1, EC1.
  assert (Hp : post_var 1 1 = 100/209) by (unfold post_var; field). rewrite Hp in EC1.
  assert (EM : post_mean 1 1 0 (e_PhiHTR e 0%nat) = 109/209).
  { unfold post_mean. rewrite Hp, Eh. unfold y0, y1. field. }
  rewrite EM in Em1. cbn [promp_new pm_weight_mean pm_weight_cov]. change (1 * 1)%nat with 1%nat.
  unfold eye, vzero. cbn [Nat.eqb Nat.ltb Nat.leb andb]. rewrite Hp, EM.
  set (v := new_var _ _ _ _ _ _).
  assert (Hsq : sqrt (INR 4 * (109/209 * (109/209))) = 218/209).
  { replace (INR 4 * (109/209 * (109/209))) with (218/209 * (218/209)) by (cbn; field). apply sqrt_square. lra. }
  assert (EV : v = 4 * (109/209 + 109/100 * (100/209) ^ 2 + 109/100) / (218/209 * 32 + 2)).
  { unfold v, new_var. rewrite Hsq, Eq, Eh. unfold y0, y1. cbn [INR Nat.mul Nat.add]. field. }
  clearbody v.
  do 2 eexists. split; [apply log_likelihood_1; [exact Ho|apply sized_eye]|].
  split; [apply log_likelihood_1; [do 2 eexists; reflexivity|exact SC1]|].
  cbn [promp_new from_weight_distribution pm_weight_mean pm_weight_cov]. change (eye (1 * 1) 0%nat 0%nat) with 1. change (vzero 0%nat) with 0.
  cbn [Nat.eqb Nat.leb andb]. rewrite Em1, EC1, !log_normal2_rank1 by (rewrite ?EV; lra). fold y0 y1.
  set (v' := 4 * (109/209 + 109/100 * (100/209) ^ 2 + 109/100) / (218/209 * 32 + 2)) in EV.
  assert (Hv : 21/100 < v < 211/1000) by (rewrite EV; unfold v'; lra).
  set (det1 := v * (v + 109/100 * (100/209))). set (det0 := 1 * (1 + 109/100 * 1)).
  assert (E0 : det0 = 209/100) by (unfold det0; lra).
  assert (E1 : 153/1000 < det1 < 155/1000) by (unfold det1; nra).
  set (q1 := v * _ + _). set (q0 := 1 * _ + _).
  assert (Q0 : q0 / det0 <= 162/100) by (rewrite E0; unfold q0, y0, y1; lra).
  assert (Q1 : 54/10 <= q1 / det1).
  { apply Rmult_le_reg_r with det1; [lra|]. unfold Rdiv at 2. rewrite Rmult_assoc, Rinv_l, Rmult_1_r by lra.
    unfold q1, det1, y0, y1. nra. }
  assert (HL : ln det0 - ln det1 <= 35/10).
  { assert (HX : det0 <= exp (35/10) * det1).
    { assert (E : exp (35/10) = exp (7/16) ^ 8) by (cbn [pow]; rewrite Rmult_1_r, <- !exp_plus; f_equal; lra).
      assert (H1 : 23/16 <= exp (7/16)) by (assert (H := exp_ineq1 (7/16)); lra).
      assert (H8 : (23/16) ^ 8 <= exp (7/16) ^ 8) by (apply pow_incr; lra).
      assert (H9 : 18 <= (23/16) ^ 8) by lra. rewrite E, E0. nra. }
    assert (HD : 0 < exp (35/10)) by apply exp_pos.
    assert (HY : ln det0 <= ln (exp (35/10) * det1)) by (destruct (Rle_lt_or_eq_dec _ _ HX) as [H|<-]; [left; apply ln_increasing; lra|right; reflexivity]).
    rewrite ln_mult, ln_exp in HY by lra. lra. }
  lra.
Qed.
