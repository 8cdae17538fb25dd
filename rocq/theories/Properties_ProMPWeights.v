(** C87: weights fitted to a demonstration; C51_prior: the distribution of a new
    ProMP; C55_samples: sampled trajectories. *)
From Coq Require Import Reals List Arith Bool Lia Lra.
From Verif Require Import M_Prelude M_Base P_Loops M_Matrix P_Matrix M_DmpObject M_Ridge M_ProMP P_ProMP
  Properties_Ridge Properties_ProMP.
Import ListNotations.
Open Scope R_scope.
Set Bullet Behavior "Strict Subproofs".

(** ** Specification *)

(** The trajectory that [trajectory_from_weights] returns for the weights [w]. *)
Definition is_trajectory (D N : nat) (o : promp) (T : arr) (w : vec) (Z : nat -> vec) : Prop :=
  exists T', trajectory_from_weights o T {| alen := (D * N)%nat; aget := w |} = Ok (Z, T').

(** Sum of the squared differences between [n] steps of two trajectories with
    [D] dimensions. *)
Definition squared_distance (D n : nat) (Y Z : nat -> vec) : R :=
  rsum n (fun t => rsum D (fun d => (Y t d - Z t d) ^ 2)).

(** Squared length of the vector of weights. *)
Definition squared_length (n : nat) (w : vec) : R := rsum n (fun i => (w i) ^ 2).

(** ** The fit as a ridge regression with one output *)
Lemma T_ravel_at n D Y d t : (d < D)%nat -> (t < n)%nat -> T_ravel n D Y (d * n + t)%nat = Y t d.
Proof.
  intros Hd Ht. unfold T_ravel.
  assert ((d * n + t) < D * n)%nat by nia.
  destruct (Nat.ltb_spec (d * n + t) (D * n)); [|lia].
  rewrite (Nat.add_comm (d * n) t), Nat.mod_add, Nat.mod_small by lia.
  rewrite Nat.div_add, Nat.div_small by lia. reflexivity.
Qed.

Definition the_basis (D N : nat) (o : promp) (T : arr) : mat :=
  nd_block_diagonal N (alen T) (crop N (alen T) (fun k j => basis o (rel_time T j) k)) D.

Lemma basis_error D N o T Y w Z : is_promp D N o -> (0 < alen T)%nat -> is_trajectory D N o T w Z ->
  squared_error (D * N) (D * alen T) 1 (the_basis D N o T) (fun s _ => T_ravel (alen T) D Y s) (fun _ => w)
  = squared_distance D (alen T) Y Z.
Proof.
  intros Ho HT (T' & E).
  destruct (trajectory_eq D N o T {| alen := (D * N)%nat; aget := w |} Ho HT eq_refl) as (Z' & E' & H).
  rewrite E in E'. injection E' as -> _.
  unfold squared_error, squared_distance. cbn [rsum]. rewrite Rplus_0_l, rsum_blocks, rsum_swap.
  apply rsum_ext. intros t Ht. apply rsum_ext. intros d Hd. rewrite T_ravel_at by auto. f_equal. f_equal.
  rewrite H by auto. cbn [aget].
  assert (B := nd_block_T_vec N (alen T) (crop N (alen T) (fun k j => basis o (rel_time T j) k)) D w d t Hd Ht).
  unfold mvec, mT in B. fold (the_basis D N o T) in B.
  rewrite (rsum_ext (D * N) _ (fun l => the_basis D N o T l (d * alen T + t)%nat * w l)) by (intros; ring).
  rewrite B. apply rsum_ext. intros k Hk. rewrite crop_in by auto. now rewrite (promp_basis D N).
Qed.

Lemma weights_ridge D N o T Y lam : is_promp D N o -> (0 < alen T)%nat ->
  promp_weights o T (alen T) Y lam
  = Ok (ridge_regression (D * N)%nat (D * alen T)%nat (the_basis D N o T) (fun s _ => T_ravel (alen T) D Y s) lam 0%nat,
        {| alen := alen T; aget := rel_time T |}).
Proof.
  intros Ho HT. destruct (promp_dims D N o Ho) as (ED & EN & EK).
  unfold promp_weights. rewrite rbfs_nd_sequence_ok by auto. cbn [bind].
  rewrite ED, EN, Nat.eqb_refl. cbn [negb]. fold (the_basis D N o T).
  f_equal. f_equal. unfold ridge_regression. rewrite mT_mT.
  assert (S : sized (D * N) (D * alen T) (the_basis D N o T)) by apply sized_nd_block.
  rewrite (mat_ext_sized _ _ _ _ (sized_crop _ _ _) S (crop_in _ _ _)). reflexivity.
Qed.

Lemma is_trajectory_exists D N o T w : is_promp D N o -> (0 < alen T)%nat -> exists Z, is_trajectory D N o T w Z.
Proof.
  intros Ho HT. destruct (trajectory_eq D N o T {| alen := (D * N)%nat; aget := w |} Ho HT eq_refl) as (Z & E & _).
  exists Z. eexists. exact E.
Qed.

Lemma squared_weights_1 n w : squared_weights n 1%nat (fun _ => w) = squared_length n w.
Proof. unfold squared_weights, squared_length. cbn [rsum]. ring. Qed.

Lemma weights_cost D N o T Y lam w Z : is_promp D N o -> (0 < alen T)%nat -> is_trajectory D N o T w Z ->
  ridge_cost (D * N) (D * alen T) 1 (the_basis D N o T) (fun s _ => T_ravel (alen T) D Y s) lam (fun _ => w)
  = squared_distance D (alen T) Y Z + lam * squared_length (D * N) w.
Proof.
  intros Ho HT HZ. unfold ridge_cost. now rewrite (basis_error D N o T Y w Z Ho HT HZ), squared_weights_1.
Qed.

Lemma ridge_row n m X y lam o : ridge_regression n m X (fun s _ => y s) lam o
  = ridge_regression n m X (fun s _ => y s) lam 0%nat.
Proof. reflexivity. Qed.

(** ** C87 *)
(** The weights of [weights] minimise the squared distance between the
    demonstration and the trajectory of the weights plus [lam] times the
    squared length of the weights. *)
Theorem C87_minimiser : forall D N o T Y lam, is_promp D N o -> times T -> 0 <= lam ->
  exists w T', promp_weights o T (alen T) Y lam = Ok (w, T')
  /\ forall Z w' Z', is_trajectory D N o T w Z -> is_trajectory D N o T w' Z' ->
       squared_distance D (alen T) Y Z + lam * squared_length (D * N) w
       <= squared_distance D (alen T) Y Z' + lam * squared_length (D * N) w'.
Proof.
  intros D N o T Y lam Ho [HT _] Hl. eexists _, _. split; [exact (weights_ridge D N o T Y lam Ho HT)|].
  intros Z w' Z' HZ HZ'. rewrite <- (weights_cost D N o T Y lam _ Z Ho HT HZ), <- (weights_cost D N o T Y lam _ Z' Ho HT HZ').
  exact (C15_minimiser (D * N) (D * alen T) 1 (the_basis D N o T) (fun s _ => T_ravel (alen T) D Y s) lam (fun _ => w') Hl).
Qed.

(** They are the only ones when [lam] is positive. *)
Theorem C87_unique : forall D N o T Y lam w T' Z w' Z', is_promp D N o -> times T -> 0 < lam ->
  promp_weights o T (alen T) Y lam = Ok (w, T') ->
  is_trajectory D N o T w Z -> is_trajectory D N o T w' Z' ->
  squared_distance D (alen T) Y Z' + lam * squared_length (D * N) w'
  <= squared_distance D (alen T) Y Z + lam * squared_length (D * N) w ->
  forall i, (i < D * N)%nat -> w' i = w i.
Proof.
  intros D N o T Y lam w T' Z w' Z' Ho [HT _] Hl E HZ HZ' H i Hi.
  rewrite (weights_ridge D N o T Y lam Ho HT) in E. injection E as <- _.
  rewrite <- (weights_cost D N o T Y lam _ Z Ho HT HZ), <- (weights_cost D N o T Y lam _ Z' Ho HT HZ') in H.
  exact (C15_unique (D * N) (D * alen T) 1 (the_basis D N o T) (fun s _ => T_ravel (alen T) D Y s) lam (fun _ => w')
           Hl H 0%nat i Nat.lt_0_1 Hi).
Qed.

(** A demonstration that some weights produce is reproduced up to [lam] times
    their squared length: exactly when [lam] is 0. *)
Theorem C87_round_trip : forall D N o T lam w0 Y, is_promp D N o -> times T -> 0 <= lam ->
  is_trajectory D N o T w0 Y ->
  exists w T' Z, promp_weights o T (alen T) Y lam = Ok (w, T') /\ is_trajectory D N o T w Z
  /\ squared_distance D (alen T) Y Z <= lam * squared_length (D * N) w0
  /\ (lam = 0 -> forall t d, (t < alen T)%nat -> (d < D)%nat -> Z t d = Y t d).
Proof.
  intros D N o T lam w0 Y Ho HT Hl H0.
  destruct (C87_minimiser D N o T Y lam Ho HT Hl) as (w & T' & E & M).
  destruct (is_trajectory_exists D N o T w Ho (proj1 HT)) as (Z & HZ).
  exists w, T', Z. split; [exact E|]. split; [exact HZ|].
  assert (B : squared_distance D (alen T) Y Z <= lam * squared_length (D * N) w0).
  { specialize (M Z w0 Y HZ H0).
    assert (E0 : squared_distance D (alen T) Y Y = 0).
    { apply rsum_0. intros. apply rsum_0. intros. ring. }
    assert (0 <= lam * squared_length (D * N) w).
    { apply Rmult_le_pos; auto. apply rsum_nonneg. intros. apply pow2_ge_0. }
    lra. }
  split; [exact B|]. intros -> t d Ht Hd. rewrite Rmult_0_l in B.
  assert (Q : squared_distance D (alen T) Y Z = 0).
  { apply Rle_antisym; [exact B|]. apply (rsum2_sq_nonneg (alen T) D (fun t d => Y t d - Z t d)). }
  assert (Q1 := rsum_nonneg_0 (alen T) _ (fun t _ => rsum_nonneg D _ (fun d _ => pow2_ge_0 (Y t d - Z t d))) Q t Ht).
  assert (Q2 := rsum_nonneg_0 D _ (fun d _ => pow2_ge_0 (Y t d - Z t d)) Q1 d Hd). cbn beta in Q2.
  replace ((Y t d - Z t d) ^ 2) with (Rsqr (Y t d - Z t d)) in Q2 by (unfold Rsqr; ring).
  apply Rsqr_0_uniq in Q2. lra.
Qed.

(** The weights of a dimension depend on that dimension of the demonstration only. *)
Lemma trajectory_block D N o T w Z w' Z' d : is_promp D N o -> (0 < alen T)%nat ->
  is_trajectory D N o T w Z -> is_trajectory D N o T w' Z' -> (d < D)%nat ->
  (forall k, (k < N)%nat -> w (d * N + k)%nat = w' (d * N + k)%nat) ->
  forall t, (t < alen T)%nat -> Z t d = Z' t d.
Proof.
  intros Ho HT (T1 & E1) (T2 & E2) Hd H t Ht.
  destruct (trajectory_eq D N o T {| alen := (D * N)%nat; aget := w |} Ho HT eq_refl) as (Z1 & F1 & G1).
  destruct (trajectory_eq D N o T {| alen := (D * N)%nat; aget := w' |} Ho HT eq_refl) as (Z2 & F2 & G2).
  rewrite E1 in F1. injection F1 as -> _. rewrite E2 in F2. injection F2 as -> _.
  rewrite G1, G2 by auto. apply rsum_ext. intros k Hk. cbn [aget]. now rewrite H.
Qed.

(** Replace the block of dimension [d] of [w] by the one of [u]. *)
Definition replace_block (N d : nat) (w u : vec) : vec := fun i =>
  if ((d * N <=? i) && (i <? d * N + N))%nat%bool then u i else w i.
Lemma replace_block_in N d w u k : (k < N)%nat -> replace_block N d w u (d * N + k)%nat = u (d * N + k)%nat.
Proof.
  intros H. unfold replace_block. destruct (Nat.leb_spec (d * N) (d * N + k)); [|lia].
  destruct (Nat.ltb_spec (d * N + k) (d * N + N)); [reflexivity|lia].
Qed.
Lemma replace_block_out N d w u e k : e <> d -> (k < N)%nat ->
  replace_block N d w u (e * N + k)%nat = w (e * N + k)%nat.
Proof.
  intros He H. unfold replace_block. destruct (Nat.leb_spec (d * N) (e * N + k)); [|reflexivity].
  destruct (Nat.ltb_spec (e * N + k) (d * N + N)); [exfalso; nia|reflexivity].
Qed.

(** The cost of one dimension. *)
Definition block_cost (N n : nat) (Y Z : nat -> vec) (lam : R) (w : vec) (d : nat) : R :=
  rsum n (fun t => (Y t d - Z t d) ^ 2) + lam * rsum N (fun k => (w (d * N + k)%nat) ^ 2).
Lemma cost_blocks D N n Y Z lam w :
  squared_distance D n Y Z + lam * squared_length (D * N) w = rsum D (block_cost N n Y Z lam w).
Proof.
  unfold squared_distance, squared_length, block_cost. rewrite rsum_swap, rsum_blocks, <- rsum_scal, <- rsum_plus.
  reflexivity.
Qed.
Lemma rsum_split D d f : (d < D)%nat -> rsum D f = rsum D (fun e => if Nat.eqb e d then 0 else f e) + f d.
Proof.
  intros H. rewrite <- (rsum_delta D d f H), <- rsum_plus. apply rsum_ext. intros e _.
  rewrite (Nat.eqb_sym d e). destruct (Nat.eqb e d); ring.
Qed.

Theorem C87_dimensions : forall D N o T Y Y' lam w T1 w' T2 d, is_promp D N o -> times T -> 0 < lam ->
  promp_weights o T (alen T) Y lam = Ok (w, T1) -> promp_weights o T (alen T) Y' lam = Ok (w', T2) ->
  (d < D)%nat -> (forall t, (t < alen T)%nat -> Y t d = Y' t d) ->
  forall k, (k < N)%nat -> w (d * N + k)%nat = w' (d * N + k)%nat.
Proof.
  intros D N o T Y Y' lam w T1 w' T2 d Ho HT Hl E E' Hd HY k Hk.
  set (u := replace_block N d w w'). set (u' := replace_block N d w' w).
  destruct (is_trajectory_exists D N o T w Ho (proj1 HT)) as (Z & HZ).
  destruct (is_trajectory_exists D N o T w' Ho (proj1 HT)) as (Z' & HZ').
  destruct (is_trajectory_exists D N o T u Ho (proj1 HT)) as (V & HV).
  destruct (is_trajectory_exists D N o T u' Ho (proj1 HT)) as (V' & HV').
  destruct (C87_minimiser D N o T Y lam Ho HT (Rlt_le _ _ Hl)) as (w1 & T3 & E1 & M).
  rewrite E in E1. injection E1 as <- <-. specialize (M Z u V HZ HV).
  assert (EV : forall t, (t < alen T)%nat -> V t d = Z' t d).
  { apply (trajectory_block D N o T u V w' Z' d Ho (proj1 HT) HV HZ' Hd). intros. now apply replace_block_in. }
  assert (EV' : forall t, (t < alen T)%nat -> V' t d = Z t d).
  { apply (trajectory_block D N o T u' V' w Z d Ho (proj1 HT) HV' HZ Hd). intros. now apply replace_block_in. }
  assert (EZ : forall e t, (e < D)%nat -> e <> d -> (t < alen T)%nat -> V t e = Z t e).
  { intros e t He Hne. revert t. apply (trajectory_block D N o T u V w Z e Ho (proj1 HT) HV HZ He).
    intros. now apply replace_block_out. }
  assert (EZ' : forall e t, (e < D)%nat -> e <> d -> (t < alen T)%nat -> V' t e = Z' t e).
  { intros e t He Hne. revert t. apply (trajectory_block D N o T u' V' w' Z' e Ho (proj1 HT) HV' HZ' He).
    intros. now apply replace_block_out. }
  rewrite !cost_blocks, (rsum_split D d (block_cost N _ Y Z lam w) Hd),
    (rsum_split D d (block_cost N _ Y V lam u) Hd) in M.
  rewrite (rsum_ext D (fun e => if Nat.eqb e d then 0 else block_cost N (alen T) Y V lam u e)
                      (fun e => if Nat.eqb e d then 0 else block_cost N (alen T) Y Z lam w e)) in M.
  2: { intros e He. destruct (Nat.eqb_spec e d) as [|Hne]; [reflexivity|]. unfold block_cost. f_equal.
       - apply rsum_ext. intros t Ht. now rewrite EZ.
       - f_equal. apply rsum_ext. intros j Hj. unfold u. now rewrite replace_block_out. }
  apply Rplus_le_reg_l in M.
  rewrite <- (replace_block_in N d w' w k Hk). fold u'.
  refine (C87_unique D N o T Y' lam w' T2 Z' u' V' Ho HT Hl E' HZ' HV' _ _ _); [|nia].
  rewrite !cost_blocks, (rsum_split D d (block_cost N _ Y' V' lam u') Hd),
    (rsum_split D d (block_cost N _ Y' Z' lam w') Hd).
  apply Rplus_le_compat.
  - right. apply rsum_ext. intros e He. destruct (Nat.eqb_spec e d) as [|Hne]; [reflexivity|]. unfold block_cost. f_equal.
    + apply rsum_ext. intros t Ht. now rewrite EZ'.
    + f_equal. apply rsum_ext. intros j Hj. unfold u'. now rewrite replace_block_out.
  - unfold block_cost in M |- *.
    rewrite (rsum_ext (alen T) (fun t => (Y' t d - V' t d) ^ 2) (fun t => (Y t d - Z t d) ^ 2))
      by (intros t Ht; rewrite HY, EV' by auto; reflexivity).
    rewrite (rsum_ext (alen T) (fun t => (Y' t d - Z' t d) ^ 2) (fun t => (Y t d - V t d) ^ 2))
      by (intros t Ht; rewrite HY, EV by auto; reflexivity).
    rewrite (rsum_ext N (fun k => u' (d * N + k)%nat ^ 2) (fun k => w (d * N + k)%nat ^ 2))
      by (intros j Hj; unfold u'; rewrite replace_block_in by auto; reflexivity).
    rewrite (rsum_ext N (fun k => w' (d * N + k)%nat ^ 2) (fun k => u (d * N + k)%nat ^ 2))
      by (intros j Hj; unfold u; rewrite replace_block_in by auto; reflexivity).
    exact M.
Qed.

(** One dimension, one weight, two steps with values 3 and 3: without
    regularization the weight is 3. *)
Example C87_satisfiable : exists w T', 
  is_promp 1 1 (promp_new 1 1) /\ times ex_T
  /\ promp_weights (promp_new 1 1) ex_T (alen ex_T) (fun _ _ => 3) 0 = Ok (w, T') /\ w 0%nat = 3.
Proof.
  assert (Ho : is_promp 1 1 (promp_new 1 1)) by (eexists _, _; reflexivity).
  assert (HT : times ex_T) by (split; [cbn; lia|]; unfold ex_T, np_max; cbn [alen aget INR]; unfold Rmax; destruct Rle_dec; lra).
  destruct (is_trajectory_exists 1 1 _ ex_T (fun _ => 3) Ho (proj1 HT)) as (Y & HY).
  assert (EY : forall t, (t < 2)%nat -> Y t 0%nat = 3).
  { destruct HY as (T1 & E1). intros t Ht.
    apply (C50_constant 1 1 _ ex_T _ Y T1 0 3 Nat.lt_0_1 Ho HT E1 Nat.lt_0_1); auto. }
  destruct (C87_round_trip 1 1 _ ex_T 0 (fun _ => 3) Y Ho HT (Rle_refl 0) HY) as (w & T' & Z & E & HZ & _ & H).
  exists w, T'. split; [exact Ho|]. split; [exact HT|].
  assert (EW : promp_weights (promp_new 1 1) ex_T (alen ex_T) (fun _ _ => 3) 0 = Ok (w, T')).
  { rewrite <- E. rewrite !(weights_ridge 1 1) by (auto; exact (proj1 HT)). f_equal. f_equal.
    replace (T_ravel (alen ex_T) 1 Y) with (T_ravel (alen ex_T) 1 (fun _ _ : nat => 3)); [reflexivity|].
    apply vec_ext. intros i. unfold T_ravel. change (alen ex_T) with 2%nat.
    destruct (Nat.ltb_spec i (1 * 2)); [|reflexivity].
    assert (i / 2 = 0)%nat as -> by (apply Nat.div_small; lia). symmetry. apply EY. apply Nat.mod_upper_bound. lia. }
  split; [exact EW|].
  specialize (H eq_refl 0%nat 0%nat (proj1 HT) Nat.lt_0_1). rewrite EY in H by lia. rewrite <- H.
  destruct HZ as (T1 & E1). symmetry.
  apply (C50_constant 1 1 _ ex_T _ Z T1 0 (w 0%nat) Nat.lt_0_1 Ho HT E1 Nat.lt_0_1); [|exact (proj1 HT)].
  intros k Hk. cbn [aget]. f_equal. lia.
Qed.

(** ** A new ProMP *)
Lemma sum_sq_bounds N (c : vec) : (0 < N)%nat -> (forall k, (k < N)%nat -> 0 < c k) -> rsum N c = 1 ->
  / INR N <= rsum N (fun k => c k * c k) <= 1.
Proof.
  intros HN Hc Hs. assert (HI : 0 < INR N) by now apply lt_0_INR. split.
  - assert (Q : 0 <= rsum N (fun k => (c k - / INR N) ^ 2)) by (apply rsum_nonneg; intros; apply pow2_ge_0).
    rewrite (rsum_ext N _ (fun k => c k * c k + (- (2 * / INR N) * c k + / INR N ^ 2))) in Q
      by (intros; field; lra).
    rewrite !rsum_plus, rsum_scal, Hs in Q.
    assert (EC : rsum N (fun _ => / INR N ^ 2) = / INR N) by (rewrite rsum_const; field; lra). rewrite EC in Q. lra.
  - rewrite <- Hs. apply rsum_le. intros k Hk.
    assert (c k <= 1).
    { rewrite <- Hs, (rsum_split N k c Hk).
      assert (0 <= rsum N (fun e => if Nat.eqb e k then 0 else c e)); [|lra].
      apply rsum_nonneg. intros e He. destruct (Nat.eqb e k); [lra|]. left. auto. }
    assert (0 < c k) by auto. nra.
Qed.

(** The mean of a new ProMP is zero, different dimensions are uncorrelated and
    the variance is between 1 / n_weights_per_dim and 1 at every time: entry
    (d * n_steps + t) of the covariance belongs to dimension d and step t. *)
Theorem C51_prior : forall D N T, (0 < N)%nat -> times T ->
  exists Y C V T1 T2 T3,
    mean_trajectory (promp_new D N) T = Ok (Y, T1)
    /\ cov_trajectory (promp_new D N) T = Ok (C, T2)
    /\ var_trajectory (promp_new D N) T = Ok (V, T3)
    /\ (forall t d, (t < alen T)%nat -> (d < D)%nat -> Y t d = 0 /\ / INR N <= V t d <= 1)
    /\ (forall t d t' d', (t < alen T)%nat -> (t' < alen T)%nat -> (d < D)%nat -> (d' < D)%nat -> d <> d' ->
          C (d * alen T + t)%nat (d' * alen T + t')%nat = 0).
Proof.
  intros D N T HN HT. set (o := promp_new D N). assert (Ho : is_promp D N o) by (eexists _, _; reflexivity).
  destruct (trajectory_eq D N o T {| alen := (D * N)%nat; aget := pm_weight_mean o |} Ho (proj1 HT) eq_refl)
    as (Y & EY & HY).
  assert (EC : cov_trajectory o T = Ok (mmul (D * N) (mT (the_basis D N o T)) (the_basis D N o T),
                                      {| alen := alen T; aget := rel_time T |})).
  { unfold cov_trajectory, cov_of. rewrite rbfs_nd_sequence_ok by apply HT. cbn [bind].
    change (pm_n_dims o) with D. change (pm_n_weights_per_dim o) with N. fold (the_basis D N o T).
    change (pm_weight_cov o) with (eye (D * N)). rewrite mmul_eye_r; [reflexivity|].
    intros i j Hj. assert (S := sized_nd_block N (alen T) (crop N (alen T) (fun k j => basis o (rel_time T j) k)) D).
    apply (S j i). auto. }
  assert (HC : forall t d t' d', (t < alen T)%nat -> (t' < alen T)%nat -> (d < D)%nat -> (d' < D)%nat ->
     mmul (D * N) (mT (the_basis D N o T)) (the_basis D N o T) (d * alen T + t)%nat (d' * alen T + t')%nat
     = if Nat.eqb d d' then rsum N (fun k => basis o (rel_time T t) k * basis o (rel_time T t') k) else 0).
  { intros t d t' d' Ht Ht' Hd Hd'.
    change (mmul (D * N) (mT (the_basis D N o T)) (the_basis D N o T) (d * alen T + t)%nat (d' * alen T + t')%nat)
      with (mvec (D * N) (mT (the_basis D N o T)) (fun l => the_basis D N o T l (d' * alen T + t')%nat) (d * alen T + t)%nat).
    unfold the_basis at 1. rewrite nd_block_T_vec by auto.
    destruct (Nat.eqb_spec d d') as [<-|Hne].
    - apply rsum_ext. intros k Hk. unfold the_basis. now rewrite nd_block_in, !crop_in by auto.
    - apply rsum_0. intros k Hk. unfold the_basis. rewrite nd_block_off by auto. ring. }
  eexists Y, _, _, _, _, _. split; [exact EY|]. split; [exact EC|].
  split; [unfold var_trajectory, var_of; rewrite EC; reflexivity|]. cbn [fst]. split.
  - intros t d Ht Hd. split.
    + rewrite HY by auto. apply rsum_0. intros. cbn [aget]. change (pm_weight_mean o) with vzero. unfold vzero. ring.
    + unfold reshape_T. rewrite HC, Nat.eqb_refl by auto.
      assert (B : / INR N <= rsum N (fun k => basis o (rel_time T t) k * basis o (rel_time T t) k) <= 1).
      { apply sum_sq_bounds; auto; [intros; apply basis_pos; exact HN|exact (basis_sum o _ HN)]. }
      assert (0 < / INR N) by (apply Rinv_0_lt_compat; now apply lt_0_INR).
      rewrite Rmax_left by lra. exact B.
  - intros t d t' d' Ht Ht' Hd Hd' Hne. rewrite HC by auto. destruct (Nat.eqb_spec d d'); [contradiction|reflexivity].
Qed.

(** ** Samples *)
Lemma rel_time_twice T : times T -> forall i,
  rel_time {| alen := alen T; aget := rel_time T |} i = rel_time T i.
Proof.
  intros [H1 H2] i. unfold rel_time at 1. cbn [alen aget]. rewrite rel_time_max by auto. field.
Qed.

(** Every sampled trajectory is the trajectory of its weights, in the order in
    which the weights were drawn, and the time array is normalised by the first
    sample and not changed by the others. *)
Theorem C55_samples : forall D N o T ws, is_promp D N o -> times T ->
  exists Ys T', sample_trajectories o T ws = Ok (Ys, T')
  /\ Forall2 (fun w Y => exists Z, is_trajectory D N o T w Z
                /\ forall t d, (t < alen T)%nat -> (d < D)%nat -> Y t d = Z t d) ws Ys
  /\ alen T' = alen T
  /\ forall i, aget T' i = match ws with [] => aget T i | _ => aget T i / np_max (alen T) (aget T) end.
Proof.
  intros D N o T ws Ho HT. destruct (promp_dims D N o Ho) as (ED & EN & EK).
  assert (G : forall ws T0, alen T0 = alen T -> (forall i, rel_time T0 i = rel_time T i) ->
    exists Ys T', sample_loop o T0 ws = Ok (Ys, T')
    /\ Forall2 (fun w Y => exists Z, is_trajectory D N o T w Z
                  /\ forall t d, (t < alen T)%nat -> (d < D)%nat -> Y t d = Z t d) ws Ys
    /\ alen T' = alen T
    /\ forall i, aget T' i = match ws with [] => aget T0 i | _ => rel_time T i end).
  { clear ws. induction ws as [|w ws IH]; intros T0 Hl Hr.
    - exists [], T0. repeat split; auto.
    - cbn [sample_loop]. rewrite EK.
      assert (HT0 : (0 < alen T0)%nat) by (rewrite Hl; apply HT).
      destruct (trajectory_eq D N o T0 {| alen := (D * N)%nat; aget := w |} Ho HT0 eq_refl) as (Y & EY & HY).
      rewrite EY. cbn [bind snd fst].
      destruct (IH {| alen := alen T0; aget := rel_time T0 |}) as (Ys & T' & E & F & L & A).
      { exact Hl. }
      { intros i. transitivity (rel_time {| alen := alen T; aget := rel_time T |} i).
        - unfold rel_time at 1 3. cbn [alen aget]. rewrite Hl, Hr. f_equal.
          assert (Ef : rel_time T0 = rel_time T) by (apply vec_ext; auto). now rewrite Ef.
        - now apply rel_time_twice. }
      rewrite E. cbn [bind fst snd]. exists (Y :: Ys), T'. split; [reflexivity|]. split; [|split; [exact L|]].
      + constructor; [|exact F].
        destruct (trajectory_eq D N o T {| alen := (D * N)%nat; aget := w |} Ho (proj1 HT) eq_refl) as (Z & EZ & HZ).
        exists Z. split; [eexists; exact EZ|]. intros t d Ht Hd. rewrite HZ, HY by (rewrite ?Hl; auto).
        now rewrite Hr.
      + intros i. rewrite A. destruct ws; [cbn [aget]; apply Hr|reflexivity]. }
  exact (G ws T eq_refl (fun _ => eq_refl)).
Qed.
