(** C138: what a condition does to the movements a ProMP describes.  Final statements. *)
From Coq Require Import Reals List Arith Lia Lra.
From Verif Require Import M_Prelude M_Base P_Loops M_Matrix P_Matrix M_DmpObject M_Ridge M_ProMP P_ProMP
  P_Conditioning P_Bayes Properties_ProMP Properties_Conditioning Properties_Bayes.
Import ListNotations.
Open Scope R_scope.
Set Bullet Behavior "Strict Subproofs".

(** ** Specification *)
(** [C'] is at most as uncertain as [C]: no linear combination of the entries has a larger
    variance. *)
Definition at_most (n : nat) (C' C : mat) : Prop := forall x, form n C' x <= form n C x.

(** At no time a component of position or velocity has a larger variance under [o'] than
    under [o], and neither has any combination of them. *)
Definition at_most_as_uncertain (D : nat) (o' o : promp) : Prop := forall T, times T ->
  exists C C' V V' Cd Cd' Vd Vd' T' Td',
    cov_trajectory o T = Ok (C, T') /\ cov_trajectory o' T = Ok (C', T') /\ at_most (D * alen T) C' C
    /\ var_trajectory o T = Ok (V, T') /\ var_trajectory o' T = Ok (V', T')
    /\ cov_velocities o T = Ok (Cd, Td') /\ cov_velocities o' T = Ok (Cd', Td') /\ at_most (D * alen T) Cd' Cd
    /\ var_velocities o T = Ok (Vd, Td') /\ var_velocities o' T = Ok (Vd', Td')
    /\ forall t d, (t < alen T)%nat -> (d < D)%nat -> V' t d <= V t d /\ Vd' t d <= Vd t d.

(** Blend of two observations. *)
Definition blended (l : R) (y1 y2 : vec) : vec := fun d => l * y1 d + (1 - l) * y2 d.

(** ** Proofs *)
Lemma form_eq n M x : form n M x = dot n x (mvec n M x).
Proof. unfold form. now rewrite quadratic. Qed.

Lemma conj_at_most n k A A' B : at_most k A' A -> at_most n (mmul k (mmul k (mT B) A') B) (mmul k (mmul k (mT B) A) B).
Proof.
  intros H x. rewrite !form_eq.
  assert (E : forall M, dot n x (mvec n (mmul k (mmul k (mT B) M) B) x) = dot k (mvec n B x) (mvec k M (mvec n B x))).
  { intros M. rewrite !mvec_mmul. rewrite dot_comm, dot_mvec, dot_comm. f_equal. }
  rewrite !E. specialize (H (mvec n B x)). rewrite !form_eq in H. exact H.
Qed.

Lemma at_most_diag n C C' i : (i < n)%nat -> at_most n C' C -> C' i i <= C i i.
Proof.
  intros Hi H. specialize (H (fun j => if Nat.eqb i j then 1 else 0)).
  assert (E : forall M, form n M (fun j => if Nat.eqb i j then 1 else 0) = M i i).
  { intros M. unfold form. rewrite (rsum_ext n _ (fun j => (if Nat.eqb i j then 1 else 0) * M j i)).
    - now rewrite (rsum_delta n i (fun j => M j i)).
    - intros j Hj. rewrite (rsum_ext n _ (fun l => (if Nat.eqb i l then 1 else 0) * ((if Nat.eqb i j then 1 else 0) * M j l))).
      + now rewrite (rsum_delta n i (fun l => (if Nat.eqb i j then 1 else 0) * M j l)) by auto.
      + intros l Hl. ring. }
  now rewrite !E in H.
Qed.

Lemma weights_to_movements D N o o' : proper D N o -> proper D N o' ->
  at_most (D * N) (pm_weight_cov o') (pm_weight_cov o) -> at_most_as_uncertain D o' o.
Proof.
  intros (Ho & HS & HC) (Ho' & HS' & HC') H T HT.
  destruct (C51_covariance D N o T Ho HS HC HT) as (C & T1 & V & T2 & Cd & T3 & Vd & T4 & E1 & _ & E2 & P2 & E3 & _ & E4 & P4).
  destruct (C51_covariance D N o' T Ho' HS' HC' HT) as (C' & T1' & V' & T2' & Cd' & T3' & Vd' & T4' & E1' & _ & E2' & P2' & E3' & _ & E4' & P4').
  assert (K : forall rbfs : promp -> arr -> res (mat * arr), rbfs o T = rbfs o' T -> forall A TA A' TA',
    cov_of rbfs o T = Ok (A, TA) -> cov_of rbfs o' T = Ok (A', TA') -> TA' = TA /\ at_most (D * alen T) A' A).
  { intros rbfs ER A TA A' TA' EA EA'. unfold cov_of in EA, EA'. rewrite ER in EA.
    destruct (promp_dims D N o Ho) as (D1 & D2 & _), (promp_dims D N o' Ho') as (D1' & D2' & _).
    rewrite D1, D2 in EA. rewrite D1', D2' in EA'.
    destruct (rbfs o' T) as [[a b]|]; [|discriminate]. cbn in EA, EA'. injection EA as <- <-. injection EA' as <- <-.
    split; [reflexivity|]. now apply conj_at_most. }
  assert (R1 : rbfs_nd_sequence o T = rbfs_nd_sequence o' T) by (destruct Ho as (? & ? & ->), Ho' as (? & ? & ->); reflexivity).
  assert (R2 : rbfs_derivative_nd_sequence o T = rbfs_derivative_nd_sequence o' T)
    by (destruct Ho as (? & ? & ->), Ho' as (? & ? & ->); reflexivity).
  destruct (K _ R1 _ _ _ _ E1 E1') as [-> L1]. destruct (K _ R2 _ _ _ _ E3 E3') as [-> L3].
  assert (T2 = T1) by (unfold var_trajectory, var_of in E2; rewrite E1 in E2; cbn in E2; congruence). subst T2.
  assert (T2' = T1) by (unfold var_trajectory, var_of in E2'; rewrite E1' in E2'; cbn in E2'; congruence). subst T2'.
  assert (T4 = T3) by (unfold var_velocities, var_of in E4; rewrite E3 in E4; cbn in E4; congruence). subst T4.
  assert (T4' = T3) by (unfold var_velocities, var_of in E4'; rewrite E3' in E4'; cbn in E4'; congruence). subst T4'.
  exists C, C', V, V', Cd, Cd', Vd, Vd', T1, T3.
  split; [exact E1|]. split; [exact E1'|]. split; [exact L1|]. split; [exact E2|]. split; [exact E2'|].
  split; [exact E3|]. split; [exact E3'|]. split; [exact L3|]. split; [exact E4|]. split; [exact E4'|].
  intros t d Ht Hd. destruct (P2 t d Ht Hd) as [-> _], (P2' t d Ht Hd) as [-> _], (P4 t d Ht Hd) as [-> _], (P4' t d Ht Hd) as [-> _].
  split; apply (at_most_diag (D * alen T)); auto; nia.
Qed.

Lemma at_most_trans n A B C : at_most n A B -> at_most n B C -> at_most n A C.
Proof. intros H1 H2 x. specialize (H1 x). specialize (H2 x). lra. Qed.

Lemma leftover_nothing D N s x i : leftover D N s x vzero i = x i.
Proof. unfold leftover, vzero. ring. Qed.

Lemma form_ext n M x y : (forall i, (i < n)%nat -> x i = y i) -> form n M x = form n M y.
Proof. intros H. unfold form. apply rsum_ext. intros i Hi. apply rsum_ext. intros j Hj. now rewrite !H. Qed.

Lemma condition_at_most D N o q o' : proper D N o -> acceptable D q ->
  condition_position o (cd_y q) (cd_cov q) (cd_t q) (cd_t_max q) = Ok o' ->
  at_most (D * N) (pm_weight_cov o') (pm_weight_cov o).
Proof.
  intros Ho [Ht Hn] E x. destruct (C90_best_estimate D N o _ _ _ _ o' Ho Hn Ht E x) as (v & _ & _ & H).
  specialize (H vzero). rewrite (form_ext _ _ _ x (fun i _ => leftover_nothing D N _ x i)) in H.
  assert (Z : form D (noise_matrix (cd_cov q)) vzero = 0).
  { unfold form. apply rsum_0. intros. apply rsum_0. intros. unfold vzero. ring. }
  lra.
Qed.

(** ** C138 *)
(** However often it is conditioned, a ProMP does not become less certain about any
    position or velocity. *)
Theorem C138_conditions : forall D N l o o', proper D N o -> Forall (acceptable D) l -> conditions l o = Ok o' ->
  proper D N o' /\ at_most_as_uncertain D o' o.
Proof.
  intros D N l o o' Ho Hl E.
  assert (K : proper D N o' /\ at_most (D * N) (pm_weight_cov o') (pm_weight_cov o)).
  { revert o Ho E. induction Hl as [|q l Hq Hl IH]; intros o Ho E; cbn [conditions] in E.
    - injection E as <-. split; [exact Ho|]. intros x. lra.
    - destruct (condition_position o _ _ _ _) as [o1|] eqn:E1; [|discriminate]. cbn [bind] in E.
      pose proof (step_proper D N o q o1 Ho Hq E1) as H1. destruct (IH o1 H1 E) as [H2 H3].
      split; [exact H2|]. eapply at_most_trans; [exact H3|]. eapply condition_at_most; eauto. }
  destruct K as [K1 K2]. split; [exact K1|]. now apply (weights_to_movements D N).
Qed.

(** A more precise observation at the same time leaves less uncertainty, whatever
    positions were observed. *)
Theorem C138_precision : forall D N o t t_max y1 c1 o1 y2 c2 o2, proper D N o -> t_max <> 0 ->
  covariance D (noise_matrix c1) -> covariance D (noise_matrix c2) ->
  at_most D (noise_matrix c1) (noise_matrix c2) ->
  condition_position o y1 c1 t t_max = Ok o1 -> condition_position o y2 c2 t t_max = Ok o2 ->
  at_most_as_uncertain D o1 o2.
Proof.
  intros D N o t tm y1 c1 o1 y2 c2 o2 Ho Ht H1 H2 HL E1 E2.
  apply (weights_to_movements D N).
  - exact (step_proper D N o {| cd_t := t; cd_t_max := tm; cd_y := y2; cd_cov := c2 |} o2 Ho (conj Ht H2) E2).
  - exact (step_proper D N o {| cd_t := t; cd_t_max := tm; cd_y := y1; cd_cov := c1 |} o1 Ho (conj Ht H1) E1).
  - intros x. destruct (C90_best_estimate D N o _ _ _ _ o1 Ho H1 Ht E1 x) as (v1 & _ & _ & B1).
    destruct (C90_best_estimate D N o _ _ _ _ o2 Ho H2 Ht E2 x) as (v2 & _ & B2 & _).
    rewrite B2. specialize (B1 v2). specialize (HL v2). lra.
Qed.

(** Observing exactly what was expected does not change the mean movement. *)
Theorem C138_expected : forall D N o t t_max y c o' T Y T1 Y' T1' j, is_promp D N o -> t_max <> 0 -> times T ->
  condition_position o y c t t_max = Ok o' ->
  mean_trajectory o T = Ok (Y, T1) -> mean_trajectory o' T = Ok (Y', T1') ->
  (j < alen T)%nat -> aget T j / np_max (alen T) (aget T) = t / t_max -> (forall d, (d < D)%nat -> y d = Y j d) ->
  forall i d, (i < alen T)%nat -> (d < D)%nat -> Y' i d = Y i d.
Proof.
  intros D N o t tm y c o' T Y T1 Y' T1' j Ho Ht [HT _] E EY EY' Hj Es Hy i d Hi Hd.
  pose proof (C52_shape D N o y c t tm o' Ho Ht E) as Ho'.
  destruct (condition_ok D N o y c t tm o' Ho Ht E) as (G & _ & Eo).
  rewrite (mean_at D N o T Y T1 i d Ho HT EY Hi Hd), (mean_at D N o' T Y' T1' i d Ho' HT EY' Hi Hd).
  rewrite Eo. unfold posterior. cbn [from_weight_distribution pm_weight_mean].
  rewrite mvec_vadd. unfold vadd at 1.
  rewrite (mvec_ext D _ (vsub y _) vzero).
  - assert (Z : forall n M, mvec n M vzero = vzero).
    { intros n M. apply vec_ext. intros k. unfold mvec, vzero. apply rsum_0. intros. ring. }
    rewrite !Z. unfold vzero. ring.
  - intros e He. unfold vsub, vzero. rewrite Hy by auto.
    rewrite (mean_at D N o T Y T1 j e Ho HT EY Hj He). fold (rel_time T j) in Es. rewrite Es. ring.
Qed.

(** What is observed does not change the uncertainty, and the mean movements for a blend
    of two observations are the blended mean movements. *)
Theorem C138_blended : forall D N o t t_max y1 y2 c o1 l, is_promp D N o -> t_max <> 0 ->
  condition_position o y1 c t t_max = Ok o1 ->
  exists o2 o3, condition_position o y2 c t t_max = Ok o2 /\ condition_position o (blended l y1 y2) c t t_max = Ok o3
  /\ pm_weight_cov o2 = pm_weight_cov o1 /\ pm_weight_cov o3 = pm_weight_cov o1
  /\ forall T, times T -> exists Y1 Y2 Y3 T',
       mean_trajectory o1 T = Ok (Y1, T') /\ mean_trajectory o2 T = Ok (Y2, T') /\ mean_trajectory o3 T = Ok (Y3, T')
       /\ forall i d, (i < alen T)%nat -> (d < D)%nat -> Y3 i d = l * Y1 i d + (1 - l) * Y2 i d.
Proof.
  intros D N o t tm y1 y2 c o1 l Ho Ht E. rewrite (condition_eq D N) in E by auto.
  destruct (np_linalg_inv D _) as [G|] eqn:EG; [|discriminate]. cbn [bind] in E. injection E as <-.
  exists (posterior D N (t / tm) y2 o G), (posterior D N (t / tm) (blended l y1 y2) o G).
  split; [rewrite (condition_eq D N) by auto; rewrite EG; reflexivity|].
  split; [rewrite (condition_eq D N) by auto; rewrite EG; reflexivity|].
  split; [reflexivity|]. split; [reflexivity|]. intros T [HT Hm].
  assert (HP : forall y, is_promp D N (posterior D N (t / tm) y o G)) by (intros; eexists _, _; reflexivity).
  assert (HE : forall y, exists Y, mean_trajectory (posterior D N (t / tm) y o G) T = Ok (Y, {| alen := alen T; aget := rel_time T |})).
  { intros y. destruct (promp_dims D N _ (HP y)) as (_ & _ & EK).
    destruct (trajectory_eq D N _ T {| alen := pm_n_weights (posterior D N (t / tm) y o G);
      aget := pm_weight_mean (posterior D N (t / tm) y o G) |} (HP y) HT EK) as (Y & EY & _). eauto. }
  destruct (HE y1) as (Y1 & E1), (HE y2) as (Y2 & E2), (HE (blended l y1 y2)) as (Y3 & E3).
  exists Y1, Y2, Y3, {| alen := alen T; aget := rel_time T |}. split; [exact E1|]. split; [exact E2|]. split; [exact E3|].
  intros i d Hi Hd.
  rewrite (mean_at D N _ T Y1 _ i d (HP y1) HT E1 Hi Hd), (mean_at D N _ T Y2 _ i d (HP y2) HT E2 Hi Hd),
    (mean_at D N _ T Y3 _ i d (HP _) HT E3 Hi Hd).
  unfold posterior. cbn [from_weight_distribution pm_weight_mean].
  set (mu := pm_weight_mean o). set (M := mmul D (mmul (D * N) (pm_weight_cov o) (Psi D N (t / tm))) G).
  set (p := mvec (D * N) (mT (Psi D N (t / tm))) mu).
  assert (EB : vadd mu (mvec D M (vsub (blended l y1 y2) p))
     = vadd (vscale l (vadd mu (mvec D M (vsub y1 p)))) (vscale (1 - l) (vadd mu (mvec D M (vsub y2 p))))).
  { assert (EV : vsub (blended l y1 y2) p = vadd (vscale l (vsub y1 p)) (vscale (1 - l) (vsub y2 p)))
      by (apply vec_ext; intros k; unfold vsub, vadd, vscale, blended; ring).
    rewrite EV, mvec_vadd, !mvec_vscale. apply vec_ext. intros k. unfold vadd, vscale. ring. }
  rewrite EB, mvec_vadd, !mvec_vscale. reflexivity.
Qed.

(** A ProMP with two components, observed at the end without and with noise, and at its
    expected position. *)
Example C138_satisfiable : forall y1 y2, exists o1 o2 o3 Y Y3 T1 T3,
  proper 2 3 (promp_new 2 3) /\ times ex_T
  /\ covariance 2 (noise_matrix NoCov) /\ covariance 2 (noise_matrix (FullCov (eye 2)))
  /\ at_most 2 (noise_matrix NoCov) (noise_matrix (FullCov (eye 2)))
  /\ condition_position (promp_new 2 3) y1 NoCov 1 1 = Ok o1
  /\ condition_position (promp_new 2 3) y2 (FullCov (eye 2)) 1 1 = Ok o2
  /\ conditions [{| cd_t := 1; cd_t_max := 1; cd_y := y2; cd_cov := FullCov (eye 2) |}] (promp_new 2 3) = Ok o2
  /\ mean_trajectory (promp_new 2 3) ex_T = Ok (Y, T1)
  /\ aget ex_T 1%nat / np_max (alen ex_T) (aget ex_T) = 1 / 1
  /\ condition_position (promp_new 2 3) (Y 1%nat) (FullCov (eye 2)) 1 1 = Ok o3
  /\ mean_trajectory o3 ex_T = Ok (Y3, T3).
Proof.
  intros y1 y2. assert (Ho : is_promp 2 3 (promp_new 2 3)) by (exists vzero, (eye 6); reflexivity).
  assert (HT : times ex_T) by apply C50_satisfiable.
  assert (HE : covariance 2 (eye 2)) by (apply psd_covariance, psd_eye).
  assert (HZ : forall x, form 2 (fun _ _ => 0) x = 0).
  { intros x. unfold form. apply rsum_0. intros. apply rsum_0. intros. ring. }
  assert (HA : forall y c, noise 2 c -> exists o', condition_position (promp_new 2 3) y c 1 1 = Ok o').
  { intros y c Hc. apply (C52_accepted 2 3); auto; try lra; [apply sized_eye|apply psd_covariance, psd_eye|apply eye_positive_definite]. }
  assert (HM : forall o, is_promp 2 3 o -> exists Y T', mean_trajectory o ex_T = Ok (Y, T')).
  { intros o Hp. destruct (promp_dims 2 3 o Hp) as (_ & _ & EK).
    destruct (trajectory_eq 2 3 o ex_T {| alen := pm_n_weights o; aget := pm_weight_mean o |} Hp (proj1 HT) EK) as (Y & EY & _).
    eauto. }
  destruct (HA y1 NoCov I) as (o1 & E1). destruct (HA y2 (FullCov (eye 2)) HE) as (o2 & E2).
  destruct (HM _ Ho) as (Y & T1 & EY). destruct (HA (Y 1%nat) (FullCov (eye 2)) HE) as (o3 & E3).
  destruct (HM o3 (C52_shape 2 3 _ _ _ _ _ _ Ho R1_neq_R0 E3)) as (Y3 & T3 & EY3).
  exists o1, o2, o3, Y, Y3, T1, T3.
  split; [apply proper_new|]. split; [exact HT|].
  split; [split; [reflexivity|intros x; pose proof (HZ x) as H; unfold form in H; cbn [noise_matrix]; lra]|].
  split; [exact HE|].
  split; [intros x; cbn [noise_matrix]; rewrite HZ; apply HE|].
  split; [exact E1|]. split; [exact E2|]. split; [cbn [conditions cd_y cd_cov cd_t cd_t_max]; rewrite E2; reflexivity|].
  split; [exact EY|]. split; [cbn; unfold Rmax; destruct (Rle_dec _ _); lra|]. split; [exact E3|exact EY3].
Qed.
