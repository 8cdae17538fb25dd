(** C88: learning a ProMP is expectation-maximization. *)
From Coq Require Import Reals List Arith Bool Lia Lra Permutation.
From Verif Require Import M_Prelude M_Base P_Loops M_Matrix P_Matrix M_DmpObject M_Ridge M_ProMP P_ProMP
  Properties_Ridge Properties_ProMP Properties_ProMPImitate Properties_ProMPWeights S_ProMPEM.
Import ListNotations.
Open Scope R_scope.
Set Bullet Behavior "Strict Subproofs".

(** ** Inverses of positive definite matrices *)
Lemma symmetric_eye n : symmetric (eye n).
Proof. apply symmetric_mT, mT_eye. Qed.

Lemma inverse_pinv K C P : sized K K C -> inverse K C P -> np_linalg_pinv K K C = P.
Proof.
  intros SC (SP & E1 & E2). apply (penrose_unique K K C); [now apply np_linalg_pinv_spec|].
  repeat split; auto.
  - rewrite E1. apply mmul_eye_l. intros; apply SC; auto.
  - rewrite E2. apply mmul_eye_l. intros; apply SP; auto.
  - rewrite E1. apply symmetric_eye.
  - rewrite E2. apply symmetric_eye.
Qed.

Lemma inverse_sym K C P : sized K K C -> inverse K C P -> inverse K P C.
Proof. intros SC (SP & E1 & E2). repeat split; auto. Qed.

Lemma inverse_psd K C P : sized K K C -> psd K C -> inverse K C P -> psd K P.
Proof.
  intros SC PC HP. apply (penrose_psd K C P PC). rewrite <- (inverse_pinv K C P SC HP). now apply np_linalg_pinv_spec.
Qed.

(** A positive semidefinite matrix that is at least an invertible one is invertible. *)
Lemma above_invertible K M P C : sized K K M -> psd K M -> sized K K P -> psd K P -> inverse K P C ->
  (forall x, dot K x (mvec K P x) <= dot K x (mvec K M x)) -> exists X, inverse K M X.
Proof.
  intros SM PM SP PP (SC & E1 & E2) H. apply symmetric_inverse; [exact SM|apply PM|].
  intros x Hx k Hk.
  assert (Z : dot K x (mvec K P x) = 0).
  { apply Rle_antisym; [|apply PP]. eapply Rle_trans; [apply H|]. right. rewrite dot_comm. now apply dot_zero_l. }
  assert (Q : mvec K P x = vzero).
  { apply vec_ext. intros i. destruct (le_lt_dec K i) as [Hi|Hi].
    - apply vsized_mvec with (m := K); auto.
    - unfold vzero. now apply (psd_kernel K P x PP Z). }
  rewrite <- (mvec_eye_in K x k Hk), <- E2, mvec_mmul, Q, mvec_vzero. reflexivity.
Qed.

Lemma bilinear_dot K A x y : bilinear K A x y = dot K x (mvec K A y).
Proof.
  unfold bilinear, dot, mvec. apply rsum_ext. intros i _. rewrite <- rsum_scal. apply rsum_ext. intros; ring.
Qed.

(** ** One demonstration *)
Lemma nd_block_vec r c P D v d t : (d < D)%nat -> (t < r)%nat ->
  mvec (D * c) (nd_block_diagonal r c P D) v (d * r + t)%nat = rsum c (fun k => P t k * v (d * c + k)%nat).
Proof.
  intros Hd Ht. unfold mvec. rewrite rsum_blocks.
  rewrite <- (rsum_delta D d (fun e => rsum c (fun k => P t k * v (e * c + k)%nat)) Hd).
  apply rsum_ext. intros e He. destruct (Nat.eqb_spec d e) as [<-|Hne].
  - rewrite Rmult_1_l. apply rsum_ext. intros k Hk. now rewrite nd_block_in.
  - rewrite Rmult_0_l. apply rsum_0. intros k Hk. rewrite nd_block_off by auto. ring.
Qed.

Lemma h_partial_spec n i j : (i < n)%nat ->
  h_partial n i j = eye n i j + (if ((S i <? n) && (j =? S i))%nat%bool then - (7/10) else 0).
Proof.
  intros Hi. unfold h_partial.
  assert (G : forall l M, NoDup l -> fold_left
     (fun H y => fun i j => if ((i =? y) && (j =? y + 1))%nat%bool then - (7/10) else H i j) l M i j
     = if (existsb (Nat.eqb i) l && (j =? S i)%nat)%bool then - (7/10) else M i j).
  { induction l as [|y l IH]; intros M Hl; cbn [fold_left existsb]; [reflexivity|].
    inversion_clear Hl as [|? ? Hy Hn]. rewrite (IH _ Hn). destruct (Nat.eqb_spec i y) as [<-|Hne]; cbn [andb orb].
    - rewrite Nat.add_1_r. destruct (Nat.eqb j (S i)); destruct (existsb (Nat.eqb i) l); reflexivity.
    - reflexivity. }
  rewrite G by apply seq_NoDup.
  assert (E : existsb (Nat.eqb i) (seq 0 (n - 1)) = (S i <? n)%nat).
  { destruct (Nat.ltb_spec (S i) n) as [H|H].
    - apply existsb_exists. exists i. split; [apply in_seq; lia|apply Nat.eqb_refl].
    - apply not_true_iff_false. intros Q. apply existsb_exists in Q. destruct Q as (y & Hy & Ey).
      apply in_seq in Hy. apply Nat.eqb_eq in Ey. lia. }
  rewrite E. destruct (Nat.ltb_spec (S i) n) as [H|H]; cbn [andb]; [|ring].
  destruct (Nat.eqb_spec j (S i)) as [->|]; [|ring].
  unfold eye. destruct (Nat.eqb_spec i (S i)); [lia|]. cbn [andb]. ring.
Qed.

Lemma h_partial_filtered n z t : (t < n)%nat -> rsum n (fun k => h_partial n t k * z k) = filtered n z t.
Proof.
  intros Ht. unfold filtered.
  rewrite (rsum_ext n _ (fun k => eye n t k * z k + (if ((S t <? n) && (k =? S t))%nat%bool then - (7/10) else 0) * z k))
    by (intros; rewrite h_partial_spec by auto; ring).
  rewrite rsum_plus, eye_row by auto. destruct (Nat.ltb_spec (S t) n) as [H|H]; cbn [andb].
  - rewrite (rsum_ext n _ (fun k => (if (S t =? k)%nat then 1 else 0) * (- (7/10) * z k))).
    + rewrite rsum_delta by auto. ring.
    + intros k _. rewrite (Nat.eqb_sym k). destruct (Nat.eqb (S t) k); ring.
  - rewrite rsum_0; [ring|intros; ring].
Qed.

Lemma filtered_ext n z z' t : (t < n)%nat -> (forall i, (i < n)%nat -> z i = z' i) -> filtered n z t = filtered n z' t.
Proof.
  intros Ht H. unfold filtered. destruct (Nat.ltb_spec (S t) n); rewrite ?(H t), ?(H (S t)) by auto; reflexivity.
Qed.

(** What the precomputed terms of a demonstration mean. *)
Definition em_demo (D N : nat) (o : promp) (d : pdemo) (e : em_terms) : Prop :=
  let K := (D * N)%nat in let n := pd_rows d in let S := (D * n)%nat in
  exists R B, e_RTR e = dot S R R /\ e_PhiHTR e = mvec S B R /\ e_PhiHTHPhiT e = mmul S B (mT B) /\ sized K S B
  /\ (forall a t, (a < D)%nat -> (t < n)%nat -> R (a * n + t)%nat = filtered n (fun t => pd_Y d t a) t)
  /\ (forall w a t, (a < D)%nat -> (t < n)%nat ->
        mvec K (mT B) w (a * n + t)%nat = filtered n (fun t => trajectory_of o (pd_T d) w t a) t).

Lemma em_precompute_demo D N o d e T' : is_promp D N o -> valid_demo d ->
  em_precompute o d = Ok (e, T') -> em_demo D N o d e.
Proof.
  intros Ho [[HT _] Hr] E. destruct (promp_dims D N o Ho) as (ED & EN & EK).
  unfold em_precompute in E. rewrite rbfs_nd_sequence_ok in E by auto. cbn [bind] in E.
  rewrite Hr, Nat.eqb_refl in E. cbn [negb] in E. rewrite ED, EN in E. injection E as <- _.
  unfold em_demo. rewrite Hr. set (n := alen (pd_T d)) in *. set (K := (D * N)%nat).
  set (H := nd_block_diagonal n n (h_partial n) D).
  fold (the_basis D N o (pd_T d)). set (Phi := the_basis D N o (pd_T d)).
  exists (mvec (D * n) H (T_ravel n D (pd_Y d))), (mmul (D * n) Phi (mT H)).
  cbn [e_RTR e_PhiHT e_PhiHTR e_PhiHTHPhiT fst snd].
  split; [reflexivity|]. split; [reflexivity|]. split; [reflexivity|].
  assert (SH : sized (D * n) (D * n) H) by apply sized_nd_block.
  assert (SP : sized (D * N) (D * n) Phi) by apply sized_nd_block.
  split; [apply (sized_mmul (D * N) (D * n) (D * n)); auto; now apply sized_mT|]. split.
  - intros a t Ha Ht. unfold H. rewrite nd_block_vec, h_partial_filtered by auto.
    apply filtered_ext; auto. intros i Hi. now apply T_ravel_at.
  - intros w a t Ha Ht. rewrite mT_mmul, mT_mT, mvec_mmul. unfold H. rewrite nd_block_vec, h_partial_filtered by auto.
    apply filtered_ext; auto. intros i Hi. unfold trajectory_of. rewrite EK.
    destruct (trajectory_eq D N o (pd_T d) {| alen := (D * N)%nat; aget := w |} Ho HT eq_refl) as (Z & EZ & HZ).
    rewrite EZ, HZ by auto. unfold Phi, the_basis, K. rewrite nd_block_T_vec by auto.
    apply rsum_ext. intros k Hk. rewrite crop_in by auto. now rewrite (promp_basis D N).
Qed.

Lemma dot_blocks D n u v : dot (D * n) u v = rsum n (fun t => rsum D (fun a => u (a * n + t)%nat * v (a * n + t)%nat)).
Proof. unfold dot. now rewrite rsum_blocks, rsum_swap. Qed.

Lemma demo_distance D N o d R B w :
  let K := (D * N)%nat in let n := pd_rows d in let S := (D * n)%nat in
  (forall a t, (a < D)%nat -> (t < n)%nat -> R (a * n + t)%nat = filtered n (fun t => pd_Y d t a) t) ->
  (forall w a t, (a < D)%nat -> (t < n)%nat ->
        mvec K (mT B) w (a * n + t)%nat = filtered n (fun t => trajectory_of o (pd_T d) w t a) t) ->
  filtered_distance D n (pd_Y d) (trajectory_of o (pd_T d) w)
  = dot S (vsub R (mvec K (mT B) w)) (vsub R (mvec K (mT B) w)).
Proof.
  intros K n S HR HB. unfold S. rewrite dot_blocks. apply rsum_ext. intros t Ht. apply rsum_ext. intros a Ha.
  unfold vsub. rewrite HR, HB by auto. ring.
Qed.

(** ** Expectation *)
Lemma quad_gap K S B R m P v w w' :
  psd K P ->
  (forall i, (i < K)%nat -> mvec K (madd (mscale (/ v) (mmul S B (mT B))) P) w i
                            = vadd (vscale (/ v) (mvec S B R)) (mvec K P m) i) ->
  let c u := / v * dot S (vsub R (mvec K (mT B) u)) (vsub R (mvec K (mT B) u))
             + dot K (vsub u m) (mvec K P (vsub u m)) in
  c w' = c w + dot K (vsub w' w) (mvec K (madd (mscale (/ v) (mmul S B (mT B))) P) (vsub w' w)).
Proof.
  intros [SP _] H c. unfold c.
  set (x := vsub w' w).
  assert (E : dot K x (mvec K (madd (mscale (/ v) (mmul S B (mT B))) P) w)
              = dot K x (vadd (vscale (/ v) (mvec S B R)) (mvec K P m))) by (apply dot_ext; auto).
  rewrite mvec_madd, mvec_mscale, !dot_vadd_r, !dot_vscale_r, mvec_mmul in E.
  rewrite (dot_comm K x (mvec S B _)), (dot_comm K x (mvec S B R)) in E.
  rewrite (dot_mvec K S B (mvec K (mT B) w)), (dot_mvec K S B R) in E.
  rewrite mvec_madd, mvec_mscale, dot_vadd_r, dot_vscale_r, mvec_mmul.
  rewrite (dot_comm K x (mvec S B _)), (dot_mvec K S B (mvec K (mT B) x)).
  assert (Ew : w' = vadd w x) by (apply vec_ext; intros; unfold vadd, x, vsub; ring).
  rewrite Ew. clearbody x. clear Ew w'.
  assert (Sy : forall u y, dot K u (mvec K P y) = dot K y (mvec K P u)).
  { intros u y. rewrite (dot_comm K u), dot_mvec. apply symmetric_mT in SP. now rewrite SP. }
  rewrite !mvec_vsub, !mvec_vadd, !dot_vsub, !dot_vsub_r, !dot_vadd, !dot_vadd_r.
  set (p := mvec K (mT B) w) in *. set (q := mvec K (mT B) x) in *.
  rewrite (dot_comm S p R), (dot_comm S q R), (dot_comm S q p) in *.
  rewrite (Sy m x), (Sy m w), (Sy w x).
  lra.
Qed.

(** State between iterations. *)
Definition em_inv (K : nat) (st : vec * mat * R) : Prop :=
  let '(m, C, v) := st in sized K K C /\ psd K C /\ 0 < v /\ vsized K m /\ exists P, inverse K C P.

Lemma expectation_posterior D N o v m C P d e w C' : let K := (D * N)%nat in
  0 < v -> sized K K C -> psd K C -> inverse K C P ->
  em_demo D N o d e -> expectation K v m C e = Ok (w, C') ->
  posterior D K o v m P d w C' /\ sized K K C' /\ psd K C' /\ exists Q, inverse K C' Q.
Proof.
  intros K Hv SC PC HP (R & B & E1 & E2 & E3 & SB & HR & HB) E. fold K in SB, HB.
  set (S := (D * pd_rows d)%nat) in *.
  unfold expectation in E. destruct (Req_EM_T v 0) as [|_]; [lra|].
  rewrite (inverse_pinv K C P SC HP), E3, E2 in E.
  set (M := madd (mscale (/ v) (mmul S B (mT B))) P) in *.
  assert (PP : psd K P) by now apply (inverse_psd K C P).
  assert (SP : sized K K P) by apply HP.
  assert (SM : sized K K M).
  { apply sized_madd; [|exact SP]. apply sized_mscale. apply (sized_mmul K S K); auto. now apply sized_mT. }
  assert (Hv' := Rinv_0_lt_compat v Hv).
  assert (PG : psd K (mscale (/ v) (mmul S B (mT B)))) by (apply psd_mscale; [now left|apply psd_gram]).
  assert (PM : psd K M) by (apply psd_madd; auto).
  destruct (above_invertible K M P C SM PM SP PP (inverse_sym K C P SC HP)) as (X & HX).
  { intros x. unfold M. rewrite mvec_madd, dot_vadd_r. assert (Q := proj2 PG x). lra. }
  rewrite (inverse_pinv K M X SM HX) in E. injection E as <- <-.
  assert (SX : sized K K X) by apply HX.
  split; [|split; [exact SX|split; [now apply (inverse_psd K M X)|exists M; now apply inverse_sym]]].
  set (w := mvec K X _).
  assert (G : forall w', map_cost D K o v m P d w' = map_cost D K o v m P d w
                + dot K (vsub w' w) (mvec K M (vsub w' w))).
  { intros w'. unfold map_cost. rewrite !(demo_distance D N o d R B _ HR HB), !bilinear_dot.
    apply (quad_gap K S B R m P v w w' PP). intros i Hi. fold M. unfold w.
    destruct HX as (_ & X1 & _). rewrite <- mvec_mmul, X1. now apply mvec_eye_in. }
  split.
  - intros w'. rewrite (G w'). assert (Q := proj2 PM (vsub w' w)). lra.
  - exists M. split; [now apply inverse_sym|]. intros w'. rewrite (G w'), bilinear_dot. reflexivity.
Qed.

Lemma expectation_all_posterior D N o v m C P : let K := (D * N)%nat in
  0 < v -> sized K K C -> psd K C -> inverse K C P -> forall ds es ms,
  Forall2 (em_demo D N o) ds es -> expectation_all K v m C es = Ok ms ->
  Forall2 (fun d p => posterior D K o v m P d (fst p) (snd p)) ds ms
  /\ Forall (fun p => sized K K (snd p) /\ psd K (snd p) /\ exists Q, inverse K (snd p) Q) ms.
Proof.
  intros K Hv SC PC HP ds es ms H. revert ms. induction H as [|d e ds es Hd Hes IH]; intros ms E; cbn [expectation_all] in E.
  - injection E as <-. split; constructor.
  - destruct (expectation K v m C e) as [[w C']|] eqn:E1; [|discriminate]. cbn [bind] in E.
    destruct (expectation_all K v m C es) as [ms'|] eqn:E2; [|discriminate]. cbn [bind] in E. injection E as <-.
    destruct (IH ms' eq_refl) as [H1 H2].
    destruct (expectation_posterior D N o v m C P d e w C' Hv SC PC HP Hd E1) as [H3 H4].
    split; constructor; auto.
Qed.

(** ** Maximization *)
Lemma vsum_total l i : vsum l i = total (fun v : vec => v i) l.
Proof. induction l as [|v l IH]; [reflexivity|]. cbn [total fold_right]. change (v i + vsum l i = v i + total (fun v : vec => v i) l). now rewrite IH. Qed.
Lemma msum_total l i j : msum l i j = total (fun A : mat => A i j) l.
Proof. induction l as [|v l IH]; [reflexivity|]. change (v i j + msum l i j = v i j + total (fun v : mat => v i j) l). now rewrite IH. Qed.
Lemma total_map {A B} (g : A -> B) (f : B -> R) l : total f (map g l) = total (fun a => f (g a)) l.
Proof. induction l as [|v l IH]; [reflexivity|]. unfold total in *. cbn [map fold_right]. now rewrite IH. Qed.
Lemma lsum_total l : lsum l = total (fun x => x) l.
Proof. reflexivity. Qed.
Lemma total_plus {A} (f g : A -> R) l : total f l + total g l = total (fun a => f a + g a) l.
Proof. induction l as [|v l IH]; unfold total in *; cbn [fold_right]; [ring|]. rewrite <- IH. ring. Qed.
Lemma total_ext {A} (f g : A -> R) l : (forall a, f a = g a) -> total f l = total g l.
Proof. intros H. induction l as [|v l IH]; unfold total in *; cbn [fold_right]; [reflexivity|]. now rewrite H, IH. Qed.

Lemma unit_column K S B k c : (k < K)%nat -> sized K S B -> mvec K (mT B) (unit_weight k) c = B k c.
Proof.
  intros Hk SB. unfold mvec, mT, unit_weight.
  rewrite (rsum_ext K _ (fun l => (if (k =? l)%nat then 1 else 0) * B l c)).
  - exact (rsum_delta K k (fun l => B l c) Hk).
  - intros l _. rewrite (Nat.eqb_sym l). ring.
Qed.

Lemma expected_eq D N o d e w C : let K := (D * N)%nat in symmetric C -> em_demo D N o d e ->
  rsum K (fun i => mmul K (e_PhiHTHPhiT e) C i i)
     + e_RTR e - 2 * dot K (e_PhiHTR e) w + dot K w (mvec K (e_PhiHTHPhiT e) w)
  = expected_distance D K o d w C.
Proof.
  intros K SC (R & B & E1 & E2 & E3 & SB & HR & HB). fold K in SB, HB. unfold expected_distance.
  rewrite (demo_distance D N o d R B w HR HB). set (S := (D * pd_rows d)%nat) in *. fold K.
  rewrite E1, E2, E3, trace_gram by exact SC.
  rewrite mvec_mmul, (dot_comm K w (mvec S B _)), (dot_mvec _ _ B R w), (dot_mvec _ _ B (mvec K (mT B) w) w).
  assert (EQ : rsum S (fun c => dot K (fun i => B i c) (mvec K C (fun i => B i c)))
    = rsum (pd_rows d) (fun t => rsum D (fun a =>
      bilinear K C (fun k => filtered (pd_rows d) (fun t0 => trajectory_of o (pd_T d) (unit_weight k) t0 a) t)
                   (fun k => filtered (pd_rows d) (fun t0 => trajectory_of o (pd_T d) (unit_weight k) t0 a) t)))).
  { unfold S. rewrite rsum_blocks, rsum_swap. apply rsum_ext. intros t Ht. apply rsum_ext. intros a Ha.
    rewrite <- bilinear_dot. unfold bilinear. apply rsum_ext. intros i Hi. apply rsum_ext. intros j Hj.
    rewrite <- !HB, !(unit_column K S B) by auto. reflexivity. }
  rewrite EQ. rewrite !dot_vsub, !dot_vsub_r, (dot_comm S (mvec K (mT B) w) R). ring.
Qed.

Lemma variance_total D N o : let K := (D * N)%nat in forall ds es ms,
  Forall2 (em_demo D N o) ds es -> length ms = length es -> Forall (fun p : vec * mat => symmetric (snd p)) ms ->
  lsum (map (fun me : (vec * mat) * em_terms =>
     let '((mean, cov), e) := me in
     rsum K (fun i => mmul K (e_PhiHTHPhiT e) cov i i)
     + e_RTR e - 2 * dot K (e_PhiHTR e) mean + dot K mean (mvec K (e_PhiHTHPhiT e) mean))
     (combine ms es))
  = total (fun dp : pdemo * (vec * mat) => expected_distance D K o (fst dp) (fst (snd dp)) (snd (snd dp))) (combine ds ms).
Proof.
  intros K ds es ms H. revert ms. induction H as [|d e ds es Hd Hes IH]; intros [|[w C] ms] Hl Hs; try discriminate; [reflexivity|].
  inversion_clear Hs as [|? ? Hs1 Hs2]. cbn [combine map].
  assert (E := expected_eq D N o d e w C Hs1 Hd). fold K in E.
  assert (E' := IH ms (f_equal Nat.pred Hl) Hs2). unfold lsum, total in *. cbn [fold_right fst snd].
  rewrite E, E'. reflexivity.
Qed.

Lemma rows_total ds : INR (fold_right Nat.add 0%nat (map pd_rows ds)) = total (fun d => INR (pd_rows d)) ds.
Proof. induction ds as [|d ds IH]; [reflexivity|]. unfold total in *. cbn [map fold_right]. now rewrite plus_INR, IH. Qed.

Lemma maximization_update D N o ds es ms v m C P : let K := (D * N)%nat in
  inverse K C P -> Forall2 (em_demo D N o) ds es -> length ms = length ds ->
  Forall2 (fun d p => posterior D K o v m P d (fst p) (snd p)) ds ms ->
  Forall (fun p => sized K K (snd p) /\ psd K (snd p) /\ exists Q, inverse K (snd p) Q) ms ->
  em_update D K o ds (m, C, v) (maximization D K ms es (fold_right Nat.add 0%nat (map pd_rows ds))).
Proof.
  intros K HP Hes Hl Hp Hs. unfold em_update, maximization.
  exists P, ms. split; [exact HP|]. split; [exact Hp|]. rewrite Hl. split; [|split].
  - intros i. unfold vscale. rewrite vsum_total, total_map. apply Rmult_comm.
  - intros i j. unfold mscale, madd. rewrite !msum_total, !total_map, total_plus. unfold vsub, Rdiv. apply Rmult_comm.
  - assert (HV := variance_total D N o ds es ms Hes). fold K in HV. rewrite HV.
    + f_equal. f_equal. rewrite rows_total. f_equal. f_equal. f_equal. f_equal.
      rewrite lsum_total, total_map. apply total_ext. intros p. unfold dot. apply rsum_ext. intros i Hi. cbn [pow]. rewrite Rmult_1_r. reflexivity.
    + rewrite Hl. clear - Hes. induction Hes; cbn; congruence.
    + eapply Forall_impl; [|exact Hs]. intros p (_ & [Hp0 _] & _). exact Hp0.
Qed.

Lemma maximization_invertible D K ms es ns : ms <> [] -> length ms = length es ->
  Forall (fun p => sized K K (snd p) /\ psd K (snd p) /\ exists Q, inverse K (snd p) Q) ms ->
  em_state_ok K (maximization D K ms es ns) -> em_inv K (maximization D K ms es ns).
Proof.
  intros Hne Hl Hs. unfold maximization. intros (SC & PC & Hv & Hm). cbn. repeat (split; [assumption|]).
  destruct ms as [|[w0 C0] ms]; [contradiction|].
  set (M := INR (length ((w0, C0) :: ms))) in *.
  assert (HM : 0 < / M) by (apply Rinv_0_lt_compat, lt_0_INR; cbn; lia).
  assert (Hs' := Forall_inv_tail Hs). apply Forall_inv in Hs. cbn [snd] in Hs. destruct Hs as (S0 & P0 & Q & HQ).
  assert (SQ : sized K K (mscale M Q)) by (apply sized_mscale, HQ).
  assert (HMQ : inverse K (mscale (/ M) C0) (mscale M Q)).
  { assert (M <> 0) by (intros E; rewrite E, Rinv_0 in HM; lra).
    destruct HQ as (_ & Q1 & Q2). split; [exact SQ|].
    rewrite !mmul_mscale_l, !mmul_mscale_r, Q1, Q2. split; apply mat_ext; intros; unfold mscale; field; auto. }
  refine (above_invertible K _ (mscale (/ M) C0) (mscale M Q) SC PC _ _ HMQ _).
  - apply sized_mscale. exact S0.
  - apply psd_mscale; [now left|auto].
  - intros x. cbn [map]. rewrite !mvec_mscale, !dot_vscale_r. apply Rmult_le_compat_l; [now left|].
    rewrite mvec_madd, dot_vadd_r. cbn [map snd msum fold_right].
    rewrite !mvec_madd, !dot_vadd_r. fold (msum (map snd ms)).
    match goal with |- context [fold_right madd mzero ?l] => fold (msum l) end.
    assert (A1 := proj2 (proj2 (msum_ok K (map snd ms) ltac:(rewrite Forall_map; eapply Forall_impl; [|exact Hs']; intros ? (? & ? & _); auto))) x).
    match goal with |- context [msum (map ?f ?l)] =>
      assert (A2 : 0 <= dot K x (mvec K (msum (map f l)) x)) end.
    { match goal with |- context [map _ ?l] => generalize l end.
      intros l. induction l as [|c l IH]; cbn [map msum fold_right].
      - unfold mvec, mzero. apply rsum_nonneg. intros. rewrite rsum_0 by (intros; ring). lra.
      - rewrite mvec_madd, dot_vadd_r. assert (Q0 := proj2 (outer_psd K c) x). fold (msum (map (fun (c : vec) (i j : nat) => c i * c j) l)). lra. }
    match goal with |- context [mvec K (fun i j => ?c i * ?c j) x] =>
      assert (A3 := proj2 (outer_psd K c) x) end.
    lra.
Qed.

(** ** The loop *)
Lemma em_loop_run D N o ds es min_delta : let K := (D * N)%nat in
  ds <> [] -> Forall2 (em_demo D N o) ds es -> Forall (em_ok K) es ->
  forall n st, em_inv K st -> exists st',
    em_loop D K (fold_right Nat.add 0%nat (map pd_rows ds)) n min_delta es st = Ok st'
    /\ em_run D K o ds min_delta n st st'.
Proof.
  intros K Hne Hes Hok. induction n as [|n IH]; intros [[m C] v] Hst.
  - eexists. split; [reflexivity|constructor].
  - destruct Hst as (SC & PC & Hv & Hm & P & HP). cbn [em_loop].
    destruct (expectation_all_ok K v m C Hv SC PC es Hok) as (ms & E & Hl & Hms). rewrite E. cbn [bind].
    assert (Hld : length ms = length ds) by (rewrite Hl; clear - Hes; induction Hes; cbn; congruence).
    destruct (expectation_all_posterior D N o v m C P Hv SC PC HP ds es ms Hes E) as [H1 H2].
    assert (Hne' : es <> []) by (intros ->; inversion Hes; subst; contradiction).
    assert (Hst' := maximization_ok D K ms es (fold_right Nat.add 0%nat (map pd_rows ds)) Hl Hne' Hms
                      (expectation_all_sized K v m C SC es ms Hok E)).
    assert (Hms' : ms <> []) by (intros ->; destruct ds; [contradiction|discriminate]).
    apply maximization_invertible in Hst'; auto.
    assert (U := maximization_update D N o ds es ms v m C P HP Hes Hld H1 H2). fold K in U.
    set (st' := maximization D K ms es (fold_right Nat.add 0%nat (map pd_rows ds))) in *.
    assert (Ed : sqrt (dot K (vsub (fst (fst st')) m) (vsub (fst (fst st')) m)) = mean_change K (m, C, v) st').
    { unfold mean_change, dot, vsub. cbn [fst]. f_equal. apply rsum_ext. intros; ring. }
    cbn zeta. rewrite Ed. destruct (Rlt_dec _ _) as [Hlt|Hge].
    + exists st'. split; [reflexivity|]. now apply run_converged.
    + destruct (IH st' Hst') as (st'' & E' & R). exists st''. split; [exact E'|].
      apply run_continue with st'; auto. lra.
Qed.

Lemma em_precompute_all_demo D N o : is_promp D N o -> forall ds es Ts, Forall valid_demo ds ->
  em_precompute_all o ds = Ok (es, Ts) -> Forall2 (em_demo D N o) ds es.
Proof.
  intros Ho. induction ds as [|d ds IH]; intros es Ts H E; cbn [em_precompute_all] in E.
  - injection E as <- _. constructor.
  - inversion_clear H as [|? ? Hd Hds].
    destruct (em_precompute o d) as [[e T]|] eqn:E1; [|discriminate]. cbn [bind] in E.
    destruct (em_precompute_all o ds) as [[es' Ts']|] eqn:E2; [|discriminate]. cbn [bind fst snd] in E.
    injection E as <- _. constructor; [now apply (em_precompute_demo D N o d e T)|]. now apply (IH es' Ts').
Qed.

(** Learning from a distribution with invertible covariance, e.g. that of a new
    ProMP, runs expectation-maximization until the mean changes by less than
    [min_delta] or [n_iter] iterations are done. *)
Theorem C88_expectation_maximization : forall D N o ds n_iter min_delta,
  (0 < D)%nat -> (0 < N)%nat -> is_promp D N o ->
  sized (D * N) (D * N) (pm_weight_cov o) -> covariance (D * N) (pm_weight_cov o) -> vsized (D * N) (pm_weight_mean o) ->
  (exists P, inverse (D * N) (pm_weight_cov o) P) ->
  ds <> [] -> Forall valid_demo ds ->
  exists o' variance Ts, promp_imitate o ds n_iter min_delta = Ok (o', variance, Ts)
  /\ em_run D (D * N) o ds min_delta n_iter (pm_weight_mean o, pm_weight_cov o, 1)
       (pm_weight_mean o', pm_weight_cov o', variance).
Proof.
  intros D N o ds n_iter min_delta HD HN Ho HS HC Hm HP Hne Hds. destruct (promp_dims D N o Ho) as (ED & EN & EK).
  destruct (em_precompute_all_ok D N o HD HN Ho ds Hds) as (es & Ees & Hes & Hl).
  unfold promp_imitate. rewrite Ees. cbn [bind fst snd]. rewrite ED, EN.
  destruct (em_loop_run D N o ds es min_delta Hne (em_precompute_all_demo D N o Ho ds es _ Hds Ees) Hes n_iter
              (pm_weight_mean o, pm_weight_cov o, 1)) as ([[m C] v] & E & Run).
  - cbn. split; [exact HS|]. split; [now apply covariance_psd|]. split; [lra|]. split; [exact Hm|exact HP].
  - rewrite E. cbn [bind fst snd]. do 3 eexists. split; [reflexivity|].
    destruct Ho as (mean & cov & ->). exact Run.
Qed.

(** A new ProMP and two demonstrations with two dimensions. *)
Example C88_satisfiable :
  let d := {| pd_T := ex_T; pd_rows := 2; pd_Y := fun t d => INR t + INR d |} in
  Forall valid_demo [d; d] /\ is_promp 2 3 (promp_new 2 3)
  /\ sized 6 6 (pm_weight_cov (promp_new 2 3)) /\ covariance 6 (pm_weight_cov (promp_new 2 3))
  /\ vsized 6 (pm_weight_mean (promp_new 2 3)) /\ exists P, inverse 6 (pm_weight_cov (promp_new 2 3)) P.
Proof.
  intros d. destruct C56_satisfiable as (H1 & H2 & H3 & H4 & H5). repeat (split; [assumption|]).
  exists (eye 6). assert (E : mmul 6 (eye 6) (eye 6) = eye 6) by (apply mmul_eye_l; intros; apply sized_eye; auto).
  split; [apply sized_eye|split; exact E].
Qed.

(** ** The order of the demonstrations *)
Lemma total_perm {A} (f : A -> R) l l' : Permutation l l' -> total f l = total f l'.
Proof. unfold total. induction 1; cbn [fold_right]; try rewrite IHPermutation; try congruence; ring. Qed.

Lemma expectation_all_perm K v m C es es' : Permutation es es' -> forall ms, expectation_all K v m C es = Ok ms ->
  exists ms', expectation_all K v m C es' = Ok ms' /\ Permutation (combine ms es) (combine ms' es')
              /\ length ms' = length es'.
Proof.
  induction 1 as [|e es es' H IH|e1 e2 es|es1 es2 es3 H1 IH1 H2 IH2]; intros ms E.
  - exists ms. cbn in E |- *. injection E as <-. auto.
  - cbn [expectation_all] in E |- *. destruct (expectation K v m C e) as [p|]; [|discriminate]. cbn [bind] in E |- *.
    destruct (expectation_all K v m C es) as [ms0|]; [|discriminate]. cbn [bind] in E. injection E as <-.
    destruct (IH ms0 eq_refl) as (ms' & E' & Hp & Hl). rewrite E'. exists (p :: ms'). cbn [bind combine length]. auto.
  - cbn [expectation_all] in E |- *.
    destruct (expectation K v m C e2) as [p|]; [|discriminate]. cbn [bind] in E |- *.
    destruct (expectation K v m C e1) as [q|]; [|discriminate]. cbn [bind] in E |- *.
    destruct (expectation_all K v m C es) as [ms0|] eqn:E0; [|discriminate]. cbn [bind] in E |- *. injection E as <-.
    exists (q :: p :: ms0). cbn [combine length]. split; [reflexivity|]. split; [constructor|].
    do 2 f_equal. clear - E0. revert ms0 E0. induction es as [|e es IH]; intros ms0 E; cbn [expectation_all] in E.
    + now injection E as <-.
    + destruct (expectation K v m C e) as [p|]; [|discriminate]. cbn [bind] in E.
      destruct (expectation_all K v m C es) as [ms1|]; [|discriminate]. cbn [bind] in E. injection E as <-.
      cbn. f_equal. now apply IH.
  - destruct (IH1 ms E) as (ms2 & E2 & P2 & _). destruct (IH2 ms2 E2) as (ms3 & E3 & P3 & L3).
    exists ms3. split; [exact E3|]. split; [now transitivity (combine ms2 es2)|exact L3].
Qed.

Lemma expectation_all_length K v m C : forall es ms, expectation_all K v m C es = Ok ms -> length ms = length es.
Proof.
  induction es as [|e es IH]; intros ms E; cbn [expectation_all] in E; [now injection E as <-|].
  destruct (expectation K v m C e) as [p|]; [|discriminate]. cbn [bind] in E.
  destruct (expectation_all K v m C es) as [ms1|]; [|discriminate]. cbn [bind] in E. injection E as <-.
  cbn. f_equal. now apply IH.
Qed.

Lemma combine_map_fst {A B} : forall (l : list A) (l' : list B), length l = length l' -> map fst (combine l l') = l.
Proof. induction l as [|a l IH]; intros [|b l'] H; try discriminate; [reflexivity|]. cbn. f_equal. apply IH. now injection H. Qed.

Lemma vsum_perm l l' : Permutation l l' -> vsum l = vsum l'.
Proof. intros H. apply vec_ext. intros i. rewrite !vsum_total. now apply total_perm. Qed.
Lemma msum_perm l l' : Permutation l l' -> msum l = msum l'.
Proof. intros H. apply mat_ext. intros i j. rewrite !msum_total. now apply total_perm. Qed.
Lemma lsum_perm l l' : Permutation l l' -> lsum l = lsum l'.
Proof. intros H. rewrite !lsum_total. now apply total_perm. Qed.

Lemma maximization_perm D K ms es ms' es' ns : length ms = length es -> length ms' = length es' ->
  Permutation (combine ms es) (combine ms' es') -> maximization D K ms es ns = maximization D K ms' es' ns.
Proof.
  intros L L' H.
  assert (Hm : Permutation ms ms').
  { rewrite <- (combine_map_fst ms es L), <- (combine_map_fst ms' es' L'). now apply Permutation_map. }
  unfold maximization. rewrite (Permutation_length Hm), (vsum_perm _ _ (Permutation_map fst Hm)),
    (msum_perm _ _ (Permutation_map snd Hm)), (lsum_perm _ _ (Permutation_map (fun m => dot K (fst m) (fst m)) Hm)).
  set (mean := vscale _ _). set (h := fun me : (vec * mat) * em_terms => _).
  rewrite (lsum_perm _ _ (Permutation_map h H)).
  rewrite !map_map. rewrite (msum_perm _ _ (Permutation_map (fun m : vec * mat => (fun c : vec => fun i j => c i * c j) (vsub (fst m) mean)) Hm)).
  reflexivity.
Qed.

Lemma em_loop_perm D K ns min_delta es es' : Permutation es es' -> forall n st st',
  em_loop D K ns n min_delta es st = Ok st' -> em_loop D K ns n min_delta es' st = Ok st'.
Proof.
  intros H. induction n as [|n IH]; intros [[m C] v] st' E; cbn [em_loop] in E |- *; [exact E|].
  destruct (expectation_all K v m C es) as [ms|] eqn:E1; [|discriminate]. cbn [bind] in E.
  destruct (expectation_all_perm K v m C es es' H ms E1) as (ms' & E2 & Hp & Hl). rewrite E2. cbn [bind].
  rewrite <- (maximization_perm D K ms es ms' es' ns (expectation_all_length K v m C es ms E1) Hl Hp).
  destruct (Rlt_dec _ _); [exact E|]. now apply IH.
Qed.

Lemma em_precompute_all_perm o ds ds' : Permutation ds ds' -> forall es Ts, em_precompute_all o ds = Ok (es, Ts) ->
  exists es' Ts', em_precompute_all o ds' = Ok (es', Ts') /\ Permutation es es' /\ Permutation Ts Ts'.
Proof.
  induction 1 as [|d ds ds' H IH|d1 d2 ds|ds1 ds2 ds3 H1 IH1 H2 IH2]; intros es Ts E.
  - exists es, Ts. auto.
  - cbn [em_precompute_all] in E |- *. destruct (em_precompute o d) as [p|]; [|discriminate]. cbn [bind] in E |- *.
    destruct (em_precompute_all o ds) as [[es0 Ts0]|]; [|discriminate]. cbn [bind fst snd] in E. injection E as <- <-.
    destruct (IH es0 Ts0 eq_refl) as (es' & Ts' & E' & P1 & P2). rewrite E'. cbn [bind fst snd].
    exists (fst p :: es'), (snd p :: Ts'). auto.
  - cbn [em_precompute_all] in E |- *. destruct (em_precompute o d2) as [p|]; [|discriminate]. cbn [bind] in E |- *.
    destruct (em_precompute o d1) as [q|]; [|discriminate]. cbn [bind] in E |- *.
    destruct (em_precompute_all o ds) as [[es0 Ts0]|]; [|discriminate]. cbn [bind fst snd] in E |- *. injection E as <- <-.
    eexists _, _. split; [reflexivity|]. split; constructor.
  - destruct (IH1 es Ts E) as (es2 & Ts2 & E2 & P2 & Q2). destruct (IH2 es2 Ts2 E2) as (es3 & Ts3 & E3 & P3 & Q3).
    exists es3, Ts3. split; [exact E3|]. split; [now transitivity es2|now transitivity Ts2].
Qed.

(** The learned distribution does not depend on the order of the demonstrations. *)
Theorem C88_order : forall o ds ds' n_iter min_delta o' variance Ts, Permutation ds ds' ->
  promp_imitate o ds n_iter min_delta = Ok (o', variance, Ts) ->
  exists Ts', promp_imitate o ds' n_iter min_delta = Ok (o', variance, Ts') /\ Permutation Ts Ts'.
Proof.
  intros o ds ds' n_iter min_delta o' variance Ts H E. unfold promp_imitate in E |- *.
  destruct (em_precompute_all o ds) as [[es Ts0]|] eqn:E1; [|discriminate]. cbn [bind fst snd] in E.
  destruct (em_precompute_all_perm o ds ds' H es Ts0 E1) as (es' & Ts' & E2 & P1 & P2). rewrite E2. cbn [bind fst snd].
  destruct (em_loop _ _ _ n_iter min_delta es _) as [st|] eqn:E3; [|discriminate]. cbn [bind] in E. injection E as <- <- <-.
  assert (En : fold_right Nat.add 0%nat (map pd_rows ds') = fold_right Nat.add 0%nat (map pd_rows ds)).
  { clear - H. induction H; cbn; lia. }
  rewrite En, (em_loop_perm _ _ _ _ _ _ P1 _ _ _ E3). cbn [bind]. exists Ts'. auto.
Qed.
