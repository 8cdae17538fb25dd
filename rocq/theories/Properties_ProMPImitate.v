(** C56: learning a ProMP from demonstrations keeps its parameters valid. *)
From Coq Require Import Reals List Arith Lia Lra.
From Verif Require Import M_Prelude M_Base P_Loops M_Matrix P_Matrix M_DmpObject M_Ridge M_ProMP P_ProMP
  Properties_ProMP.
Import ListNotations.
Open Scope R_scope.
Set Bullet Behavior "Strict Subproofs".

(** ** Traces *)
Lemma trace_gram K S B C : symmetric C ->
  rsum K (fun i => mmul K (mmul S B (mT B)) C i i)
  = rsum S (fun c => dot K (fun i => B i c) (mvec K C (fun i => B i c))).
Proof.
  intros HC. unfold dot. rewrite rsum_swap. apply rsum_ext. intros i _.
  rewrite mmul_assoc. unfold mmul at 1. apply rsum_ext. intros c _. f_equal.
  unfold mvec, mmul, mT. apply rsum_ext. intros l _. rewrite (HC l i). ring.
Qed.

(** ** One demonstration *)
Lemma h_partial_last n j : (0 < n)%nat -> h_partial n (n - 1)%nat j = eye n (n - 1)%nat j.
Proof.
  intros Hn. unfold h_partial.
  assert (G : forall l M, (forall y, In y l -> (y < n - 1)%nat) ->
    fold_left (fun H y => fun i j => if ((i =? y) && (j =? y + 1))%nat%bool then - (7/10) else H i j) l M
      (n - 1)%nat j = M (n - 1)%nat j).
  { induction l as [|y l IH]; intros M Hl; cbn [fold_left]; [reflexivity|].
    rewrite IH by (intros; apply Hl; now right).
    destruct (Nat.eqb_spec (n - 1) y) as [E|E]; [|reflexivity].
    specialize (Hl y (or_introl eq_refl)). lia. }
  apply G. intros y Hy. apply in_seq in Hy. lia.
Qed.

(** What the precomputed terms of a demonstration satisfy. *)
Definition em_ok (K : nat) (e : em_terms) : Prop :=
  exists S R B, e_RTR e = dot S R R /\ e_PhiHT e = B /\ e_PhiHTR e = mvec S B R
  /\ e_PhiHTHPhiT e = mmul S B (mT B) /\ sized K S B
  /\ exists i c, (i < K)%nat /\ (c < S)%nat /\ B i c <> 0.

Definition valid_demo (d : pdemo) : Prop := times (pd_T d) /\ pd_rows d = alen (pd_T d).

Lemma em_precompute_ok D N o d : (0 < D)%nat -> (0 < N)%nat -> is_promp D N o -> valid_demo d ->
  exists e, em_precompute o d = Ok (e, {| alen := alen (pd_T d); aget := rel_time (pd_T d) |})
            /\ em_ok (D * N) e.
Proof.
  intros HD HN Ho [[HT _] Hr]. destruct (promp_dims D N o Ho) as (ED & EN & EK).
  unfold em_precompute. rewrite rbfs_nd_sequence_ok by auto. cbn [bind]. rewrite Hr, Nat.eqb_refl. cbn [negb].
  rewrite ED, EN. eexists. split; [reflexivity|].
  set (n := alen (pd_T d)) in *.
  set (H := nd_block_diagonal n n (h_partial n) D).
  set (Phi := nd_block_diagonal N n (crop N n (fun k j => basis o (rel_time (pd_T d) j) k)) D).
  exists (D * n)%nat, (mvec (D * n) H (T_ravel n D (pd_Y d))), (mmul (D * n) Phi (mT H)).
  cbn [e_RTR e_PhiHT e_PhiHTR e_PhiHTHPhiT fst snd].
  split; [reflexivity|]. split; [reflexivity|]. split; [reflexivity|]. split; [reflexivity|].
  assert (SH : sized (D * n) (D * n) H) by apply sized_nd_block.
  assert (SP : sized (D * N) (D * n) Phi) by apply sized_nd_block.
  split; [apply (sized_mmul (D * N) (D * n) (D * n)); auto; now apply sized_mT|].
  exists (0 * N + 0)%nat, (0 * n + (n - 1))%nat. split; [nia|]. split; [nia|].
  assert (E : mmul (D * n) Phi (mT H) (0 * N + 0)%nat (0 * n + (n - 1))%nat = Phi (0 * N + 0)%nat (0 * n + (n - 1))%nat).
  { unfold mmul, mT. rewrite rsum_blocks.
    rewrite <- (rsum_delta D 0%nat (fun b => Phi (0 * N + 0)%nat (b * n + (n - 1))%nat) HD).
    apply rsum_ext. intros b Hb. destruct (Nat.eqb_spec 0 b) as [<-|Hne].
    - rewrite (rsum_ext n _ (fun t => eye n (n - 1)%nat t * Phi (0 * N + 0)%nat (0 * n + t)%nat)).
      + rewrite eye_row by lia. ring.
      + intros t Ht. unfold H. rewrite nd_block_in, h_partial_last by lia. ring.
    - rewrite rsum_0; [ring|]. intros t Ht. unfold H. rewrite nd_block_off by lia. ring. }
  rewrite E. unfold Phi. rewrite nd_block_in, crop_in by lia.
  apply Rgt_not_eq. apply basis_pos. rewrite EN. exact HN.
Qed.

Lemma em_precompute_all_ok D N o : (0 < D)%nat -> (0 < N)%nat -> is_promp D N o -> forall ds,
  Forall valid_demo ds -> exists es,
  em_precompute_all o ds = Ok (es, map (fun d => {| alen := alen (pd_T d); aget := rel_time (pd_T d) |}) ds)
  /\ Forall (em_ok (D * N)) es /\ length es = length ds.
Proof.
  intros HD HN Ho. induction ds as [|d ds IH]; intros H.
  - exists []. split; [reflexivity|]. split; [|reflexivity || constructor]; constructor || reflexivity.
  - inversion_clear H as [|? ? Hd Hds]. destruct (em_precompute_ok D N o d HD HN Ho Hd) as (e & Ee & He).
    destruct (IH Hds) as (es & Ees & Hes & Hl). exists (e :: es).
    cbn [em_precompute_all]. rewrite Ee. cbn [bind]. rewrite Ees. cbn [bind fst snd map length].
    split; [reflexivity|]. split; [now constructor|]. now rewrite Hl.
Qed.

(** ** Expectation *)
Lemma expectation_ok K v m C e : 0 < v -> sized K K C -> psd K C -> em_ok K e ->
  exists m' C', expectation K v m C e = Ok (m', C') /\ sized K K C' /\ psd K C'
  /\ 0 < rsum K (fun i => mmul K (e_PhiHTHPhiT e) C' i i)
  /\ 0 <= e_RTR e - 2 * dot K (e_PhiHTR e) m' + dot K m' (mvec K (e_PhiHTHPhiT e) m').
Proof.
  intros Hv SC PC (S & R & B & E1 & _ & E2 & E3 & SB & i0 & c0 & Hi0 & Hc0 & Hne).
  unfold expectation. destruct (Req_EM_T v 0) as [|_]; [lra|].
  set (P := np_linalg_pinv K K C).
  assert (HP := np_linalg_pinv_spec K K C SC). fold P in HP.
  assert (PP : psd K P) by now apply (penrose_psd K C).
  set (M := madd (mscale (/ v) (e_PhiHTHPhiT e)) P).
  assert (SM : sized K K M).
  { apply sized_madd; [|apply HP]. apply sized_mscale. rewrite E3.
    apply (sized_mmul K S K); auto. now apply sized_mT. }
  assert (PM : psd K M).
  { apply psd_madd; auto. apply psd_mscale; [left; now apply Rinv_0_lt_compat|]. rewrite E3. apply psd_gram. }
  assert (HC' := np_linalg_pinv_spec K K M SM). set (C' := np_linalg_pinv K K M) in *.
  assert (PC' : psd K C') by now apply (penrose_psd K M).
  eexists _, C'. split; [reflexivity|]. split; [apply HC'|]. split; [exact PC'|]. split.
  - rewrite E3, trace_gram by apply PC'.
    assert (N0 : forall c, (c < S)%nat -> 0 <= dot K (fun i => B i c) (mvec K C' (fun i => B i c))) by (intros; apply PC').
    destruct (rsum_nonneg S _ N0) as [|Z]; [assumption|]. exfalso. apply Hne.
    assert (Z0 := rsum_nonneg_0 S _ N0 (eq_sym Z) c0 Hc0). cbn beta in Z0.
    set (b := fun i => B i c0) in *.
    assert (Kb : mvec K C' b = vzero).
    { apply vec_ext. intros i. destruct (le_lt_dec K i) as [Hi|Hi].
      - apply vsized_mvec with (m := K); auto. intros; apply (proj1 HC'); auto.
      - unfold vzero. now apply (psd_kernel K C' b PC' Z0). }
    assert (Mb := penrose_kernel K M C' b (proj1 PM) HC' Kb).
    assert (Q : dot K b (mvec K M b) = 0).
    { rewrite Mb, dot_comm. apply dot_zero_l. reflexivity. }
    unfold M in Q. rewrite mvec_madd, mvec_mscale, dot_vadd_r, dot_vscale_r, E3, mvec_mmul in Q.
    rewrite (dot_comm K b (mvec S B _)), dot_mvec in Q.
    assert (Q1 := dot_self S (mvec K (mT B) b)). assert (Q2 := proj2 PP b).
    assert (Hv' := Rinv_0_lt_compat v Hv).
    assert (Q3 : dot S (mvec K (mT B) b) (mvec K (mT B) b) = 0) by nra.
    assert (Q4 := dot_self_0 S _ Q3 c0 Hc0). change (dot K b b = 0) in Q4.
    exact (dot_self_0 K b Q4 i0 Hi0).
  - rewrite E1, E2, E3. set (m' := mvec K C' _).
    rewrite mvec_mmul, (dot_comm K m' (mvec S B _)), (dot_mvec _ _ B R m'), (dot_mvec _ _ B (mvec K (mT B) m') m').
    replace (dot S R R - 2 * dot S R (mvec K (mT B) m') + dot S (mvec K (mT B) m') (mvec K (mT B) m'))
      with (dot S (vsub R (mvec K (mT B) m')) (vsub R (mvec K (mT B) m'))).
    + apply dot_self.
    + rewrite !dot_vsub, !dot_vsub_r, (dot_comm S (mvec K (mT B) m') R). ring.
Qed.

Definition em_step_ok (K : nat) (me : (vec * mat) * em_terms) : Prop :=
  let '((m, C), e) := me in
  sized K K C /\ psd K C /\ 0 < rsum K (fun i => mmul K (e_PhiHTHPhiT e) C i i)
  /\ 0 <= e_RTR e - 2 * dot K (e_PhiHTR e) m + dot K m (mvec K (e_PhiHTHPhiT e) m).

Lemma expectation_all_ok K v m C : 0 < v -> sized K K C -> psd K C -> forall es, Forall (em_ok K) es ->
  exists ms, expectation_all K v m C es = Ok ms /\ length ms = length es
             /\ Forall (em_step_ok K) (combine ms es).
Proof.
  intros Hv SC PC. induction es as [|e es IH]; intros H.
  - exists []. split; [reflexivity|]. split; [|reflexivity || constructor]; constructor || reflexivity.
  - inversion_clear H as [|? ? He Hes].
    destruct (expectation_ok K v m C e Hv SC PC He) as (m' & C' & E & H1 & H2 & H3 & H4).
    destruct (IH Hes) as (ms & Ems & Hl & Hms). exists ((m', C') :: ms).
    cbn [expectation_all]. rewrite E. cbn [bind]. rewrite Ems. cbn [bind combine length].
    split; [reflexivity|]. split; [now rewrite Hl|]. constructor; auto. cbn. auto.
Qed.

(** ** Maximization *)
Lemma lsum_nonneg l : Forall (fun x => 0 <= x) l -> 0 <= lsum l.
Proof. unfold lsum. induction 1; cbn [fold_right]; lra. Qed.
Lemma lsum_pos l : l <> [] -> Forall (fun x => 0 < x) l -> 0 < lsum l.
Proof.
  intros Hn H. destruct l as [|x l]; [contradiction|]. inversion_clear H as [|? ? Hx Hl].
  unfold lsum. cbn [fold_right].
  assert (0 <= lsum l); [|unfold lsum in *; lra]. apply lsum_nonneg.
  eapply Forall_impl; [|exact Hl]. intros; now left.
Qed.

Lemma msum_ok K l : Forall (fun M => sized K K M /\ psd K M) l -> sized K K (msum l) /\ psd K (msum l).
Proof.
  induction 1 as [|M l [S P] H [IS IP]]; cbn.
  - split; [apply sized_mzero|]. split; [intros i j; reflexivity|]. intros x. apply rsum_nonneg. intros i _.
    unfold mvec, mzero. rewrite rsum_0 by (intros; ring). lra.
  - split; [now apply sized_madd|now apply psd_madd].
Qed.

Lemma outer_psd K (c : vec) : psd K (fun i j => c i * c j).
Proof.
  split; [intros i j; ring|]. intros x.
  replace (dot K x (mvec K (fun i j => c i * c j) x)) with (dot K x c * dot K x c); [apply Rle_0_sqr|].
  unfold dot, mvec. rewrite <- rsum_scal_r. apply rsum_ext. intros i _.
  rewrite (rsum_ext K (fun l => c i * c l * x l) (fun l => c i * (x l * c l))) by (intros; ring).
  rewrite rsum_scal. ring.
Qed.

Lemma combine_length_eq {A B} (l : list A) (l' : list B) : length l = length l' -> length (combine l l') = length l.
Proof. intros H. rewrite combine_length, H. apply Nat.min_id. Qed.
Lemma combine_fst {A B} (P : A -> Prop) : forall (l : list A) (l' : list B), length l = length l' ->
  Forall (fun ab => P (fst ab)) (combine l l') -> Forall P l.
Proof.
  induction l as [|a l IH]; intros [|b l'] Hl H; try discriminate; [constructor|].
  cbn [combine] in H. inversion_clear H. constructor; auto. eapply IH; eauto.
Qed.

Definition em_state_ok (K : nat) (st : vec * mat * R) : Prop :=
  let '(m, C, v) := st in sized K K C /\ psd K C /\ 0 < v /\ vsized K m.

Lemma expectation_sized K v m C e m' C' : sized K K C ->
  (forall i j, (K <= i)%nat -> e_PhiHTHPhiT e i j = 0) -> (forall i j, (K <= j)%nat -> e_PhiHTHPhiT e i j = 0) ->
  expectation K v m C e = Ok (m', C') -> vsized K m'.
Proof.
  intros SC H1 H2 E. unfold expectation in E. destruct (Req_EM_T v 0); [discriminate|]. injection E as <- _.
  apply vsized_mvec. intros i j Hi.
  refine (proj1 (np_linalg_pinv_spec K K _ _) i j (or_introl Hi)).
  apply sized_madd; [apply sized_mscale; intros a b [Ha|Hb]; auto|].
  apply (np_linalg_pinv_spec K K C SC).
Qed.

Lemma maximization_ok D K ms es ns : length ms = length es -> es <> [] -> Forall (em_step_ok K) (combine ms es) ->
  Forall (fun m => vsized K (fst m)) ms ->
  em_state_ok K (maximization D K ms es ns).
Proof.
  intros Hl Hne H Hv.
  assert (HM : 0 < INR (length ms)).
  { apply lt_0_INR. rewrite Hl. destruct es; [contradiction|cbn; lia]. }
  assert (HM' := Rinv_0_lt_compat _ HM).
  unfold maximization. set (M := INR (length ms)) in *.
  set (mean := vscale (/ M) (vsum (map fst ms))).
  assert (Hmean : vsized K mean).
  { assert (Hs : vsized K (vsum (map fst ms))).
    { clear - Hv. induction Hv as [|x l Hx Hl IH]; cbn; [intros i _; reflexivity|].
      intros i Hi. unfold vadd. rewrite Hx, IH by auto. ring. }
    intros i Hi. unfold mean, vscale. rewrite Hs by auto. ring. }
  assert (Hms : Forall (fun m : vec * mat => sized K K (snd m) /\ psd K (snd m)) ms).
  { apply (combine_fst (fun m : vec * mat => sized K K (snd m) /\ psd K (snd m)) ms es Hl).
    eapply Forall_impl; [|exact H]. intros [[m C] e] Hme. cbn in *. tauto. }
  assert (Hcov : sized K K (msum (map snd ms)) /\ psd K (msum (map snd ms))).
  { apply msum_ok. apply Forall_map. exact Hms. }
  assert (Hcen : sized K K (msum (map (fun c : vec => fun i j => c i * c j) (map (fun m => vsub (fst m) mean) ms)))
     /\ psd K (msum (map (fun c : vec => fun i j => c i * c j) (map (fun m => vsub (fst m) mean) ms)))).
  { apply msum_ok. apply Forall_map, Forall_map. eapply Forall_impl; [|exact Hv]. intros m Hm. split.
    - intros i j [Hi|Hj]; unfold vsub.
      + rewrite Hm, Hmean by auto. ring.
      + rewrite (Hm j), (Hmean j) by auto. ring.
    - apply outer_psd. }
  cbn [em_state_ok]. split; [|split; [|split]].
  - apply sized_mscale, sized_madd; tauto.
  - apply psd_mscale; [lra|]. apply psd_madd; tauto.
  - apply Rdiv_lt_0_compat.
    + apply lsum_pos.
      * intros E. apply (f_equal (@length R)) in E. rewrite map_length, combine_length_eq in E by auto. cbn in E.
        rewrite Hl in E. destruct es; [contradiction|discriminate].
      * apply Forall_map. eapply Forall_impl; [|exact H]. intros [[m C] e] Hme. cbn in Hme. cbn beta iota.
        destruct Hme as (_ & _ & H1 & H2). lra.
    + assert (0 <= sqrt (lsum (map (fun m : vec * mat => dot K (fst m) (fst m)) ms)) * M * INR D * INR ns); [|lra].
      apply Rmult_le_pos; [|apply pos_INR]. apply Rmult_le_pos; [|apply pos_INR].
      apply Rmult_le_pos; [apply sqrt_pos|lra].
  - exact Hmean.
Qed.

Lemma expectation_all_sized K v m C : sized K K C -> forall es ms, Forall (em_ok K) es ->
  expectation_all K v m C es = Ok ms -> Forall (fun x => vsized K (fst x)) ms.
Proof.
  intros SC. induction es as [|e es IH]; intros ms H E; cbn [expectation_all] in E.
  - injection E as <-. constructor.
  - inversion_clear H as [|? ? He Hes].
    destruct (expectation K v m C e) as [[m' C']|] eqn:E1; [|discriminate]. cbn [bind] in E.
    destruct (expectation_all K v m C es) as [ms'|] eqn:E2; [|discriminate]. cbn [bind] in E. injection E as <-.
    constructor; [|now apply IH]. cbn [fst].
    destruct He as (S & R & B & _ & _ & _ & E3 & SB & _).
    assert (SA : sized K K (e_PhiHTHPhiT e)).
    { rewrite E3. apply (sized_mmul K S K); auto. now apply sized_mT. }
    eapply expectation_sized; [exact SC| | |exact E1]; intros; apply SA; auto.
Qed.

Lemma em_loop_ok D K ns min_delta es : es <> [] -> Forall (em_ok K) es ->
  forall n_iter st, em_state_ok K st ->
  exists st', em_loop D K ns n_iter min_delta es st = Ok st' /\ em_state_ok K st'.
Proof.
  intros Hne He. induction n_iter as [|k IH]; intros st Hst; cbn [em_loop]; [eauto|].
  destruct st as [[m C] v]. pose proof Hst as (SC & PC & Hv & Hm).
  destruct (expectation_all_ok K v m C Hv SC PC es He) as (ms & E & Hl & Hms). rewrite E. cbn [bind].
  assert (Hst' := maximization_ok D K ms es ns Hl Hne Hms (expectation_all_sized K v m C SC es ms He E)).
  destruct (Rlt_dec _ _); [eauto|]. apply IH. exact Hst'.
Qed.

(** Learning from at least one demonstration with any number of iterations
    succeeds; the learned covariance is a covariance matrix and the noise
    variance is positive. *)
Theorem C56_valid : forall D N o ds n_iter min_delta,
  (0 < D)%nat -> (0 < N)%nat -> is_promp D N o ->
  sized (D * N) (D * N) (pm_weight_cov o) -> covariance (D * N) (pm_weight_cov o) -> vsized (D * N) (pm_weight_mean o) ->
  ds <> [] -> Forall valid_demo ds ->
  exists o' variance Ts, promp_imitate o ds n_iter min_delta = Ok (o', variance, Ts)
  /\ is_promp D N o' /\ sized (D * N) (D * N) (pm_weight_cov o') /\ covariance (D * N) (pm_weight_cov o')
  /\ vsized (D * N) (pm_weight_mean o') /\ 0 < variance.
Proof.
  intros D N o ds n_iter min_delta HD HN Ho HS HC Hm Hne Hds. destruct (promp_dims D N o Ho) as (ED & EN & EK).
  destruct (em_precompute_all_ok D N o HD HN Ho ds Hds) as (es & Ees & Hes & Hl).
  unfold promp_imitate. rewrite Ees. cbn [bind fst snd]. rewrite ED, EN.
  destruct (em_loop_ok D (D * N) (fold_right Nat.add 0%nat (map pd_rows ds)) min_delta es) with (n_iter := n_iter)
    (st := (pm_weight_mean o, pm_weight_cov o, 1)) as ([[m C] v] & E & Hst).
  - intros ->. destruct ds; [contradiction|discriminate].
  - exact Hes.
  - cbn. split; [exact HS|]. split; [now apply covariance_psd|]. split; [lra|exact Hm].
  - rewrite E. cbn [bind fst snd]. do 3 eexists. split; [reflexivity|].
    destruct Hst as (H1 & H2 & H3 & H4). split.
    + destruct Ho as (mean & cov & ->). exists m, C. reflexivity.
    + cbn [from_weight_distribution pm_weight_cov pm_weight_mean]. split; [exact H1|].
      split; [now apply psd_covariance|]. auto.
Qed.

(** Learning overwrites the caller's arrays of times, too (C55). *)
Theorem C55_imitate_refuted : forall D N o ds n_iter min_delta o' variance Ts,
  (0 < D)%nat -> (0 < N)%nat -> is_promp D N o -> Forall valid_demo ds ->
  promp_imitate o ds n_iter min_delta = Ok (o', variance, Ts) ->
  length Ts = length ds
  /\ forall k d, nth_error ds k = Some d -> exists T', nth_error Ts k = Some T'
     /\ forall i, aget T' i = aget (pd_T d) i / np_max (alen (pd_T d)) (aget (pd_T d)).
Proof.
  intros D N o ds n_iter min_delta o' variance Ts HD HN Ho Hds E.
  destruct (em_precompute_all_ok D N o HD HN Ho ds Hds) as (es & Ees & Hes & Hl).
  unfold promp_imitate in E. rewrite Ees in E. cbn [bind fst snd] in E.
  destruct (em_loop _ _ _ _ _ _ _) as [st|]; [|discriminate]. cbn [bind] in E. injection E as _ _ <-.
  split; [apply map_length|]. intros k d Hk. exists {| alen := alen (pd_T d); aget := rel_time (pd_T d) |}.
  split; [|reflexivity].
  exact (map_nth_error (fun d => {| alen := alen (pd_T d); aget := rel_time (pd_T d) |}) k ds Hk).
Qed.

Example C56_satisfiable :
  let d := {| pd_T := ex_T; pd_rows := 2; pd_Y := fun t d => INR t + INR d |} in
  Forall valid_demo [d; d] /\ is_promp 2 3 (promp_new 2 3)
  /\ sized 6 6 (pm_weight_cov (promp_new 2 3)) /\ covariance 6 (pm_weight_cov (promp_new 2 3))
  /\ vsized 6 (pm_weight_mean (promp_new 2 3)).
Proof.
  intros d. assert (Hd : valid_demo d) by (split; [apply C50_satisfiable|reflexivity]).
  split; [auto|]. split; [exists vzero, (eye 6); reflexivity|]. split; [apply sized_eye|].
  split; [apply psd_covariance, psd_eye|]. intros i _. reflexivity.
Qed.
