(** Matrix algebra, least squares and existence of the Moore-Penrose inverse. *)
From Coq Require Import Reals List Arith Lia Lra FunctionalExtensionality.
From Verif Require Import M_Prelude P_Loops M_Matrix.
Open Scope R_scope.
Set Bullet Behavior "Strict Subproofs".

Lemma mat_ext (A B : mat) : (forall i j, A i j = B i j) -> A = B.
Proof. intros H. apply functional_extensionality; intro i. apply functional_extensionality; intro j. apply H. Qed.
Lemma vec_ext (u v : vec) : (forall i, u i = v i) -> u = v.
Proof. intros H. apply functional_extensionality; intro i. apply H. Qed.

Lemma mat_ext_sized m n A B : sized m n A -> sized m n B ->
  (forall i j, (i < m)%nat -> (j < n)%nat -> A i j = B i j) -> A = B.
Proof.
  intros HA HB H. apply mat_ext. intros i j.
  destruct (le_lt_dec m i); [rewrite HA, HB; auto|].
  destruct (le_lt_dec n j); [rewrite HA, HB; auto|]. auto.
Qed.

Lemma mmul_assoc k l A B C : mmul l (mmul k A B) C = mmul k A (mmul l B C).
Proof.
  apply mat_ext; intros i j. unfold mmul.
  rewrite (rsum_ext l _ (fun b => rsum k (fun a => A i a * B a b * C b j))).
  2:{ intros. now rewrite rsum_scal_r. }
  rewrite rsum_swap. apply rsum_ext. intros a _.
  rewrite <- rsum_scal. apply rsum_ext. intros; ring.
Qed.
Lemma mvec_mmul k l A B v : mvec l (mmul k A B) v = mvec k A (mvec l B v).
Proof.
  apply vec_ext; intros i. unfold mmul, mvec.
  rewrite (rsum_ext l _ (fun b => rsum k (fun a => A i a * B a b * v b))).
  2:{ intros. now rewrite rsum_scal_r. }
  rewrite rsum_swap. apply rsum_ext. intros a _.
  rewrite <- rsum_scal. apply rsum_ext. intros; ring.
Qed.
Lemma mT_mmul k A B : mT (mmul k A B) = mmul k (mT B) (mT A).
Proof. apply mat_ext; intros i j. unfold mmul, mT. apply rsum_ext. intros; ring. Qed.
Lemma mT_mT A : mT (mT A) = A. Proof. reflexivity. Qed.
Lemma mT_eye n : mT (eye n) = eye n.
Proof.
  apply mat_ext; intros i j. unfold mT, eye. rewrite (Nat.eqb_sym j i).
  destruct (Nat.eqb_spec i j); [subst|]; reflexivity.
Qed.
Lemma mT_madd A B : mT (madd A B) = madd (mT A) (mT B). Proof. reflexivity. Qed.
Lemma mT_msub A B : mT (msub A B) = msub (mT A) (mT B). Proof. reflexivity. Qed.
Lemma mT_mscale c A : mT (mscale c A) = mscale c (mT A). Proof. reflexivity. Qed.

Lemma rsum_delta n i f : (i < n)%nat ->
  rsum n (fun k => (if (i =? k)%nat then 1 else 0) * f k) = f i.
Proof.
  revert i. induction n as [|n IH]; intros i Hi; [lia|].
  cbn [rsum]. destruct (Nat.eqb_spec i n) as [E|E].
  - subst. rewrite rsum_0; [ring|]. intros j Hj. destruct (Nat.eqb_spec n j); [lia|ring].
  - rewrite IH by lia. ring.
Qed.
Lemma eye_row n i f : (i < n)%nat -> rsum n (fun k => eye n i k * f k) = f i.
Proof.
  intros Hi. rewrite <- (rsum_delta n i f Hi). apply rsum_ext. intros k Hk.
  unfold eye. destruct (Nat.eqb_spec i k); cbn [andb]; [|ring].
  destruct (Nat.ltb_spec i n); [ring|lia].
Qed.
Lemma eye_row_out n i f : (n <= i)%nat -> rsum n (fun k => eye n i k * f k) = 0.
Proof.
  intros Hi. apply rsum_0. intros k Hk. unfold eye.
  destruct (Nat.eqb_spec i k); [lia|]. cbn [andb]. ring.
Qed.

Lemma mmul_eye_l n A : (forall i j, (n <= i)%nat -> A i j = 0) -> mmul n (eye n) A = A.
Proof.
  intros H. apply mat_ext; intros i j. unfold mmul.
  destruct (le_lt_dec n i) as [Hi|Hi].
  - rewrite (eye_row_out n i (fun k => A k j)) by auto. now rewrite H.
  - now rewrite (eye_row n i (fun k => A k j)).
Qed.
Lemma mmul_eye_r n A : (forall i j, (n <= j)%nat -> A i j = 0) -> mmul n A (eye n) = A.
Proof.
  intros H. rewrite <- (mT_mT (mmul n A (eye n))), mT_mmul, mT_eye, mmul_eye_l; [reflexivity|].
  intros i j Hi. now apply H.
Qed.
Lemma mvec_eye n v : vsized n v -> mvec n (eye n) v = v.
Proof.
  intros H. apply vec_ext; intros i. unfold mvec.
  destruct (le_lt_dec n i) as [Hi|Hi]; [rewrite eye_row_out, H; auto|now rewrite eye_row].
Qed.
Lemma mvec_eye_in n v i : (i < n)%nat -> mvec n (eye n) v i = v i.
Proof. intros. apply eye_row; auto. Qed.

Lemma mmul_madd_l k A B C : mmul k (madd A B) C = madd (mmul k A C) (mmul k B C).
Proof. apply mat_ext; intros i j. unfold mmul, madd. rewrite <- rsum_plus. apply rsum_ext; intros; ring. Qed.
Lemma mmul_madd_r k A B C : mmul k A (madd B C) = madd (mmul k A B) (mmul k A C).
Proof. apply mat_ext; intros i j. unfold mmul, madd. rewrite <- rsum_plus. apply rsum_ext; intros; ring. Qed.
Lemma mmul_msub_l k A B C : mmul k (msub A B) C = msub (mmul k A C) (mmul k B C).
Proof. apply mat_ext; intros i j. unfold mmul, msub. rewrite <- rsum_minus. apply rsum_ext; intros; ring. Qed.
Lemma mmul_msub_r k A B C : mmul k A (msub B C) = msub (mmul k A B) (mmul k A C).
Proof. apply mat_ext; intros i j. unfold mmul, msub. rewrite <- rsum_minus. apply rsum_ext; intros; ring. Qed.
Lemma mmul_mscale_l k c A B : mmul k (mscale c A) B = mscale c (mmul k A B).
Proof. apply mat_ext; intros i j. unfold mmul, mscale. rewrite <- rsum_scal. apply rsum_ext; intros; ring. Qed.
Lemma mmul_mscale_r k c A B : mmul k A (mscale c B) = mscale c (mmul k A B).
Proof. apply mat_ext; intros i j. unfold mmul, mscale. rewrite <- rsum_scal. apply rsum_ext; intros; ring. Qed.
Lemma mmul_mzero_l k A : mmul k mzero A = mzero.
Proof. apply mat_ext; intros i j. unfold mmul, mzero. apply rsum_0. intros; ring. Qed.
Lemma mmul_mzero_r k A : mmul k A mzero = mzero.
Proof. apply mat_ext; intros i j. unfold mmul, mzero. apply rsum_0. intros; ring. Qed.
Lemma mvec_vadd k A u v : mvec k A (vadd u v) = vadd (mvec k A u) (mvec k A v).
Proof. apply vec_ext; intros i. unfold mvec, vadd. rewrite <- rsum_plus. apply rsum_ext; intros; ring. Qed.
Lemma mvec_vsub k A u v : mvec k A (vsub u v) = vsub (mvec k A u) (mvec k A v).
Proof. apply vec_ext; intros i. unfold mvec, vsub. rewrite <- rsum_minus. apply rsum_ext; intros; ring. Qed.
Lemma mvec_vscale k A c v : mvec k A (vscale c v) = vscale c (mvec k A v).
Proof. apply vec_ext; intros i. unfold mvec, vscale. rewrite <- rsum_scal. apply rsum_ext; intros; ring. Qed.
Lemma mvec_madd k A B v : mvec k (madd A B) v = vadd (mvec k A v) (mvec k B v).
Proof. apply vec_ext; intros i. unfold mvec, madd, vadd. rewrite <- rsum_plus. apply rsum_ext; intros; ring. Qed.
Lemma mvec_msub k A B v : mvec k (msub A B) v = vsub (mvec k A v) (mvec k B v).
Proof. apply vec_ext; intros i. unfold mvec, msub, vsub. rewrite <- rsum_minus. apply rsum_ext; intros; ring. Qed.
Lemma mvec_mscale k c A v : mvec k (mscale c A) v = vscale c (mvec k A v).
Proof. apply vec_ext; intros i. unfold mvec, mscale, vscale. rewrite <- rsum_scal. apply rsum_ext; intros; ring. Qed.
Lemma mvec_vzero k A : mvec k A vzero = vzero.
Proof. apply vec_ext; intros i. unfold mvec, vzero. apply rsum_0. intros; ring. Qed.
Lemma mvec_ext k A u v : (forall i, (i < k)%nat -> u i = v i) -> mvec k A u = mvec k A v.
Proof. intros H. apply vec_ext; intros i. apply rsum_ext. intros; now rewrite H. Qed.
Lemma mmul_ext k A B C D : (forall i l, (l < k)%nat -> A i l = B i l) ->
  (forall l j, (l < k)%nat -> C l j = D l j) -> mmul k A C = mmul k B D.
Proof. intros H H'. apply mat_ext; intros i j. apply rsum_ext. intros; now rewrite H, H'. Qed.

Lemma sized_mT m n A : sized m n A -> sized n m (mT A).
Proof. intros H i j [Hi|Hj]; apply H; auto. Qed.
Lemma sized_mmul m k n A B : sized m k A -> sized k n B -> sized m n (mmul k A B).
Proof.
  intros HA HB i j [Hi|Hj]; apply rsum_0; intros l Hl; [rewrite HA; auto|rewrite HB; auto]; ring.
Qed.
Lemma sized_madd m n A B : sized m n A -> sized m n B -> sized m n (madd A B).
Proof. intros HA HB i j H. unfold madd. rewrite HA, HB; auto; ring. Qed.
Lemma sized_msub m n A B : sized m n A -> sized m n B -> sized m n (msub A B).
Proof. intros HA HB i j H. unfold msub. rewrite HA, HB; auto; ring. Qed.
Lemma sized_mscale m n c A : sized m n A -> sized m n (mscale c A).
Proof. intros HA i j H. unfold mscale. rewrite HA; auto; ring. Qed.
Lemma sized_eye n : sized n n (eye n).
Proof.
  intros i j H. unfold eye. destruct (Nat.eqb_spec i j); [|reflexivity].
  destruct (Nat.ltb_spec i n); [lia|reflexivity].
Qed.
Lemma sized_mzero m n : sized m n mzero. Proof. intros i j _. reflexivity. Qed.
Lemma vsized_mvec m k A v : (forall i j, (m <= i)%nat -> A i j = 0) -> vsized m (mvec k A v).
Proof. intros H i Hi. apply rsum_0. intros. rewrite H; auto; ring. Qed.

(** ** Inner products *)
Lemma dot_comm n u v : dot n u v = dot n v u.
Proof. apply rsum_ext; intros; ring. Qed.
Lemma dot_vadd n u v w : dot n (vadd u v) w = dot n u w + dot n v w.
Proof. unfold dot, vadd. rewrite <- rsum_plus. apply rsum_ext; intros; ring. Qed.
Lemma dot_vsub n u v w : dot n (vsub u v) w = dot n u w - dot n v w.
Proof. unfold dot, vsub. rewrite <- rsum_minus. apply rsum_ext; intros; ring. Qed.
Lemma dot_vscale n c u v : dot n (vscale c u) v = c * dot n u v.
Proof. unfold dot, vscale. rewrite <- rsum_scal. apply rsum_ext; intros; ring. Qed.
Lemma dot_vadd_r n u v w : dot n w (vadd u v) = dot n w u + dot n w v.
Proof. rewrite dot_comm, dot_vadd, (dot_comm n u), (dot_comm n v). reflexivity. Qed.
Lemma dot_vsub_r n u v w : dot n w (vsub u v) = dot n w u - dot n w v.
Proof. rewrite dot_comm, dot_vsub, (dot_comm n u), (dot_comm n v). reflexivity. Qed.
Lemma dot_vscale_r n c u v : dot n v (vscale c u) = c * dot n v u.
Proof. rewrite dot_comm, dot_vscale, dot_comm. reflexivity. Qed.
Lemma dot_ext n u v u' v' : (forall i, (i < n)%nat -> u i = u' i) ->
  (forall i, (i < n)%nat -> v i = v' i) -> dot n u v = dot n u' v'.
Proof. intros H H'. apply rsum_ext. intros; now rewrite H, H'. Qed.
Lemma dot_mvec m k A u v : dot m (mvec k A u) v = dot k u (mvec m (mT A) v).
Proof.
  unfold dot, mvec, mT.
  rewrite (rsum_ext m _ (fun i => rsum k (fun l => A i l * u l * v i))).
  2:{ intros. now rewrite rsum_scal_r. }
  rewrite rsum_swap. apply rsum_ext. intros a _.
  rewrite <- rsum_scal. apply rsum_ext. intros; ring.
Qed.
Lemma dot_self n u : 0 <= dot n u u.
Proof. apply rsum_nonneg. intros i _. apply Rle_0_sqr. Qed.
Lemma rsum_nonneg_0 n f : (forall i, (i < n)%nat -> 0 <= f i) -> rsum n f = 0 ->
  forall i, (i < n)%nat -> f i = 0.
Proof.
  intros H. induction n as [|n IH]; intros E i Hi; [lia|]. cbn [rsum] in E.
  assert (H0 := rsum_nonneg n f (fun j Hj => H j (Nat.lt_lt_succ_r _ _ Hj))).
  assert (Hn := H n (Nat.lt_succ_diag_r n)).
  destruct (Nat.eq_dec i n) as [->|]; [lra|]. apply IH; [intros; apply H; lia|lra|lia].
Qed.
Lemma dot_self_0 n u : dot n u u = 0 -> forall i, (i < n)%nat -> u i = 0.
Proof.
  intros H i Hi. apply Rsqr_0_uniq.
  apply (rsum_nonneg_0 n (fun i => u i * u i)); auto. intros; apply Rle_0_sqr.
Qed.
Lemma dot_zero_l n u v : (forall i, (i < n)%nat -> u i = 0) -> dot n u v = 0.
Proof. intros H. apply rsum_0. intros. rewrite H; auto; ring. Qed.

(** ** Symmetric positive semidefinite matrices *)
Lemma symmetric_mT A : symmetric A <-> mT A = A.
Proof. split; [intros H; apply mat_ext; intros i j; symmetry; apply H|].
  intros H i j. exact (f_equal (fun M : mat => M j i) H). Qed.
Lemma psd_madd n A B : psd n A -> psd n B -> psd n (madd A B).
Proof.
  intros [SA PA] [SB PB]. split.
  - intros i j. unfold madd. now rewrite SA, SB.
  - intros x. rewrite mvec_madd, dot_vadd_r. specialize (PA x). specialize (PB x). lra.
Qed.
Lemma psd_mscale n c A : 0 <= c -> psd n A -> psd n (mscale c A).
Proof.
  intros Hc [SA PA]. split.
  - intros i j. unfold mscale. now rewrite SA.
  - intros x. rewrite mvec_mscale, dot_vscale_r. apply Rmult_le_pos; auto.
Qed.
Lemma psd_gram n k B : psd n (mmul k B (mT B)).
Proof.
  split.
  - apply symmetric_mT. now rewrite mT_mmul.
  - intros x. rewrite mvec_mmul, dot_comm, dot_mvec. apply dot_self.
Qed.
Lemma psd_conj n k A B : psd k A -> psd n (mmul k (mmul k (mT B) A) B).
Proof.
  intros [SA PA]. split.
  - apply symmetric_mT. apply symmetric_mT in SA.
    rewrite !mT_mmul, SA, mT_mT. now rewrite mmul_assoc.
  - intros x. rewrite mmul_assoc, mvec_mmul, dot_comm, dot_mvec, mT_mT, dot_comm, mvec_mmul.
    apply PA.
Qed.
Lemma psd_eye n : psd n (eye n).
Proof.
  split; [apply symmetric_mT, mT_eye|]. intros x.
  rewrite (dot_ext n x (mvec n (eye n) x) x x); auto; [apply dot_self|].
  intros; now apply mvec_eye_in.
Qed.
(** A vector on which a positive semidefinite form vanishes is in the kernel. *)
Lemma psd_kernel n A x : psd n A -> dot n x (mvec n A x) = 0 ->
  forall i, (i < n)%nat -> mvec n A x i = 0.
Proof.
  intros [SA PA] H. apply dot_self_0. set (z := mvec n A x).
  assert (Hs : forall u v, dot n u (mvec n A v) = dot n v (mvec n A u)).
  { intros u v. rewrite dot_comm, dot_mvec. apply symmetric_mT in SA. now rewrite SA. }
  assert (Q : forall s, 0 <= 2 * s * dot n z z + s * s * dot n z (mvec n A z)).
  { intros s. specialize (PA (vadd x (vscale s z))).
    rewrite mvec_vadd, mvec_vscale, !dot_vadd, !dot_vadd_r, !dot_vscale, !dot_vscale_r, H in PA.
    rewrite (Hs x z) in PA. fold z in PA. lra. }
  destruct (Req_dec (dot n z z) 0) as [|Hn]; auto. exfalso.
  assert (Hp := dot_self n z). set (p := dot n z z) in *. set (q := dot n z (mvec n A z)) in *.
  assert (Hq : 0 <= q) by apply PA.
  assert (Q' := Q (- p / (q + 1))).
  replace (2 * (- p / (q + 1)) * p + - p / (q + 1) * (- p / (q + 1)) * q)
    with (- (p * p / ((q + 1) * (q + 1)) * (q + 2))) in Q' by (field; lra).
  assert (0 < p * p / ((q + 1) * (q + 1)) * (q + 2)).
  { apply Rmult_lt_0_compat; [|lra]. apply Rdiv_lt_0_compat; apply Rmult_lt_0_compat; lra. }
  lra.
Qed.

(** ** Least squares: the normal equations always have a solution *)
Lemma projection_exists m : forall n (A : mat) (b : vec),
  exists x : vec, forall j, (j < n)%nat ->
    dot m (fun i => A i j) (vsub b (mvec n A x)) = 0.
Proof.
  induction n as [|n IH]; intros A b.
  - exists vzero. intros; lia.
  - destruct (IH A b) as [x Hx]. destruct (IH A (fun i => A i n)) as [z Hz].
    set (rb := vsub b (mvec n A x)) in *.
    set (ra := vsub (fun i => A i n) (mvec n A z)) in *.
    set (c := if Req_EM_T (dot m ra ra) 0 then 0 else dot m ra rb / dot m ra ra).
    exists (fun j => if (j =? n)%nat then c else x j - c * z j).
    assert (E : vsub b (mvec (S n) A (fun j => if (j =? n)%nat then c else x j - c * z j))
                = vsub rb (vscale c ra)).
    { apply vec_ext; intros i. unfold rb, ra, vsub, vscale, mvec. cbn [rsum].
      rewrite Nat.eqb_refl.
      rewrite (rsum_ext n _ (fun l => A i l * x l - c * (A i l * z l))).
      2:{ intros l Hl. destruct (Nat.eqb_spec l n); [lia|ring]. }
      rewrite rsum_minus, rsum_scal. ring. }
    rewrite E.
    assert (O : forall j, (j < n)%nat -> dot m (fun i => A i j) (vsub rb (vscale c ra)) = 0).
    { intros j Hj. rewrite dot_vsub_r, dot_vscale_r, Hx, Hz by auto. ring. }
    intros j Hj. destruct (Nat.eq_dec j n) as [->|]; [|apply O; lia].
    assert (Hspan : forall w, dot m (mvec n A w) (vsub rb (vscale c ra)) = 0).
    { intros w. rewrite dot_mvec. rewrite dot_comm. apply dot_zero_l. intros l Hl.
      rewrite <- (O l Hl). unfold mvec, dot, mT. reflexivity. }
    replace (fun i => A i n) with (vadd ra (mvec n A z)).
    2:{ apply vec_ext; intros i. unfold ra, vadd, vsub. ring. }
    rewrite dot_vadd, Hspan, dot_vsub_r, dot_vscale_r.
    unfold c. destruct (Req_EM_T (dot m ra ra) 0) as [Z|Z].
    + rewrite Z. assert (Hr := dot_self_0 _ _ Z). rewrite (dot_zero_l m ra rb Hr). ring.
    + field. exact Z.
Qed.

(** ** Moore-Penrose inverse *)
Lemma choice_nat (P : nat -> vec -> Prop) : forall m,
  (forall k, (k < m)%nat -> exists v, P k v) ->
  exists F : mat, forall k, (k < m)%nat -> P k (F k).
Proof.
  induction m as [|m IH]; intros H; [exists mzero; intros; lia|].
  destruct IH as [F HF]; [intros; apply H; lia|]. destruct (H m) as [v Hv]; [lia|].
  exists (fun k => if (k =? m)%nat then v else F k). intros k Hk.
  destruct (Nat.eqb_spec k m) as [->|]; auto. apply HF. lia.
Qed.

(** restriction of a matrix to its shape *)
Definition crop (m n : nat) (A : mat) : mat :=
  fun i j => if andb (i <? m)%nat (j <? n)%nat then A i j else 0.
Lemma crop_in m n A i j : (i < m)%nat -> (j < n)%nat -> crop m n A i j = A i j.
Proof. intros Hi Hj. unfold crop. apply Nat.ltb_lt in Hi, Hj. now rewrite Hi, Hj. Qed.
Lemma sized_crop m n A : sized m n (crop m n A).
Proof.
  intros i j [H|H]; unfold crop; apply Nat.ltb_ge in H; rewrite H; [reflexivity|].
  now rewrite Bool.andb_false_r.
Qed.

(** [X] with [A^T A X = A^T]. *)
Lemma normal_equations m n A : sized m n A ->
  exists X, sized n m X /\ mmul m (mT A) (mmul n A X) = mT A.
Proof.
  intros HA.
  destruct (choice_nat (fun k x => forall j, (j < n)%nat ->
     dot m (fun i => A i j) (vsub (fun i => eye m i k) (mvec n A x)) = 0) m) as [F HF].
  { intros k _. apply projection_exists. }
  exists (crop n m (fun j k => F k j)). split; [apply sized_crop|].
  apply (mat_ext_sized n m).
  - apply (sized_mmul n m m); [now apply sized_mT|]. apply (sized_mmul m n m); auto. apply sized_crop.
  - now apply sized_mT.
  - intros j k Hj Hk. specialize (HF k Hk j Hj). rewrite dot_vsub_r in HF.
    assert (E : dot m (fun i => A i j) (fun i => eye m i k) = A k j).
    { unfold dot. rewrite <- (eye_row m k (fun i => A i j) Hk). apply rsum_ext. intros i Hi.
      rewrite (proj2 (symmetric_mT (eye m)) (mT_eye m) i k). ring. }
    rewrite E in HF. unfold mT at 2. apply Rminus_diag_uniq_sym in HF. rewrite <- HF.
    unfold mmul, dot, mT. apply rsum_ext. intros i Hi. f_equal. apply rsum_ext. intros l Hl.
    now rewrite crop_in.
Qed.

(** A A^T cancels on the left. *)
Lemma gram_cancel m n k A B : sized m n A ->
  mmul m (mT A) (mmul n A B) = mzero -> (forall i j, (k <= j)%nat -> B i j = 0) -> mmul n A B = mzero.
Proof.
  intros HA H HB. apply (mat_ext_sized m k); [|apply sized_mzero|].
  { intros i j [Hi|Hj]; apply rsum_0; intros l Hl; [rewrite HA; auto|rewrite HB; auto]; ring. }
  intros i j Hi Hj. unfold mzero.
  apply (dot_self_0 m (fun i => mmul n A B i j)); auto.
  change (fun i0 => mmul n A B i0 j) with (mvec n A (fun l => B l j)).
  rewrite dot_mvec. rewrite dot_comm. apply dot_zero_l. intros l Hl.
  change (mvec m (mT A) (mvec n A (fun l0 => B l0 j)) l) with (mmul m (mT A) (mmul n A B) l j).
  now rewrite H.
Qed.

Lemma inverse_13 m n A : sized m n A ->
  exists X, sized n m X /\ mmul m (mmul n A X) A = A /\ symmetric (mmul n A X).
Proof.
  intros HA. destruct (normal_equations m n A HA) as [X [SX HX]]. exists X.
  assert (Sym : mT (mmul n A X) = mmul n A X).
  { assert (E : mmul n A X = mmul m (mmul n (mT X) (mT A)) (mmul n A X)).
    { transitivity (mT (mmul n (mT X) (mT A))); [now rewrite mT_mmul, !mT_mT|].
      rewrite <- HX at 1. rewrite <- mmul_assoc, mT_mmul, !mT_mmul, !mT_mT, mmul_assoc. reflexivity. }
    rewrite E at 1. rewrite mT_mmul, (mT_mmul n A X), (mT_mmul n (mT X) (mT A)), !mT_mT. now symmetry. }
  split; [exact SX|]. split; [|now apply symmetric_mT].
  assert (Z : msub (mmul m (mmul n A X) A) A = mzero).
  { replace (msub (mmul m (mmul n A X) A) A) with (mmul n A (msub (mmul m X A) (eye n))).
    2:{ rewrite mmul_msub_r, mmul_eye_r by (intros; apply HA; auto). now rewrite mmul_assoc. }
    apply (gram_cancel m n n); auto.
    - rewrite mmul_msub_r, mmul_eye_r by (intros; apply HA; auto).
      rewrite mmul_msub_r, <- (mmul_assoc n m A X A), <- mmul_assoc, HX.
      apply mat_ext; intros i j. unfold msub, mzero. ring.
    - intros i j Hj. unfold msub. rewrite (sized_eye n i j) by auto.
      enough (mmul m X A i j = 0) by lra. apply rsum_0. intros. rewrite HA; auto. ring. }
  apply mat_ext; intros i j. assert (E := f_equal (fun M => M i j) Z).
  unfold msub, mzero in E. lra.
Qed.

Lemma penrose_exists m n A : sized m n A -> exists X, penrose m n A X.
Proof.
  intros HA. destruct (inverse_13 m n A HA) as (X & SX & HX1 & HX3).
  destruct (inverse_13 n m (mT A) (sized_mT _ _ _ HA)) as (Y' & SY & HY1 & HY4).
  set (Y := mT Y'). assert (SY' : sized n m Y) by now apply sized_mT.
  assert (HY1' : mmul m (mmul n A Y) A = A).
  { unfold Y. rewrite <- (mT_mT A) at 3. rewrite <- HY1. rewrite !mT_mmul, !mT_mT.
    now rewrite mmul_assoc. }
  assert (HY4' : mT (mmul m Y A) = mmul m Y A).
  { apply symmetric_mT in HY4. unfold Y. rewrite mT_mmul, mT_mT, <- HY4, mT_mmul, mT_mT. reflexivity. }
  apply symmetric_mT in HX3.
  exists (mmul n (mmul m Y A) X).
  assert (EA : mmul n A (mmul n (mmul m Y A) X) = mmul n A X).
  { rewrite <- !mmul_assoc. rewrite HY1'. reflexivity. }
  assert (EB : mmul m (mmul n (mmul m Y A) X) A = mmul m Y A).
  { rewrite !mmul_assoc. rewrite <- (mmul_assoc n m A X A), HX1. reflexivity. }
  repeat split.
  - apply (sized_mmul n n m); auto. apply (sized_mmul n m n); auto.
  - now rewrite EA.
  - rewrite EB, !mmul_assoc.
    rewrite <- (mmul_assoc n m A Y (mmul n A X)), <- (mmul_assoc m n (mmul n A Y) A X), HY1'. reflexivity.
  - rewrite EA. now apply symmetric_mT.
  - rewrite EB. now apply symmetric_mT.
Qed.

Lemma penrose_unique m n A X Z : penrose m n A X -> penrose m n A Z -> X = Z.
Proof.
  intros (SX & X1 & X2 & X3 & X4) (SZ & Z1 & Z2 & Z3 & Z4).
  apply symmetric_mT in X3, X4, Z3, Z4.
  assert (P : mmul n A X = mmul n A Z).
  { rewrite <- X3, <- Z1 at 1. rewrite mmul_assoc.
    transitivity (mT (mmul m (mmul n A Z) (mmul n A X))); [now rewrite !mmul_assoc|].
    rewrite mT_mmul, X3, Z3, <- mmul_assoc, X1. reflexivity. }
  assert (Q : mmul m X A = mmul m Z A).
  { rewrite <- X4. transitivity (mT (mmul n (mmul m X A) (mmul m Z A))).
    - rewrite mmul_assoc, <- (mmul_assoc n m A Z A), Z1. reflexivity.
    - rewrite mT_mmul, X4, Z4, mmul_assoc, <- (mmul_assoc n m A X A), X1. reflexivity. }
  rewrite <- X2, <- Z2, Q, !mmul_assoc, P. reflexivity.
Qed.

(** ** Inverses *)
Lemma inverse_unique n A X Z : inverse n A X -> inverse n A Z -> X = Z.
Proof.
  intros (SX & X1 & X2) (SZ & Z1 & Z2).
  rewrite <- (mmul_eye_l n Z) by (intros; apply SZ; auto). rewrite <- X2, mmul_assoc, Z1.
  rewrite mmul_eye_r; auto.
Qed.

Lemma penrose_mT m n A X : penrose m n A X -> penrose n m (mT A) (mT X).
Proof.
  intros (SX & X1 & X2 & X3 & X4). apply symmetric_mT in X3, X4. repeat split.
  - now apply sized_mT.
  - rewrite <- !mT_mmul, <- mmul_assoc, X1. reflexivity.
  - rewrite <- !mT_mmul, <- mmul_assoc, X2. reflexivity.
  - apply symmetric_mT. rewrite <- mT_mmul, X4. now apply X4.
  - apply symmetric_mT. rewrite <- mT_mmul, X3. now apply X3.
Qed.

Lemma penrose_symmetric n A X : symmetric A -> penrose n n A X -> symmetric X.
Proof.
  intros SA H. apply symmetric_mT. apply (penrose_unique n n A); auto.
  apply symmetric_mT in SA. rewrite <- SA. now apply penrose_mT.
Qed.

(** A symmetric matrix with trivial kernel has an inverse. *)
Lemma symmetric_inverse n A : sized n n A -> symmetric A ->
  (forall x, (forall i, (i < n)%nat -> mvec n A x i = 0) -> forall k, (k < n)%nat -> x k = 0) ->
  exists X, inverse n A X.
Proof.
  intros HA Sym Ker. destruct (penrose_exists n n A HA) as (X & SX & X1 & X2 & X3 & X4).
  assert (L : mmul n X A = eye n).
  { apply (mat_ext_sized n n); [now apply (sized_mmul n n n)|apply sized_eye|].
    intros i j Hi Hj. apply Rminus_diag_uniq.
    apply (Ker (fun i => mmul n X A i j - eye n i j)); auto. intros k Hk.
    change (mvec n A (fun i0 => mmul n X A i0 j - eye n i0 j) k)
      with (mmul n A (msub (mmul n X A) (eye n)) k j).
    rewrite mmul_msub_r, <- mmul_assoc, X1, mmul_eye_r by (intros; apply HA; auto).
    unfold msub. ring. }
  exists X. apply symmetric_mT in Sym, X3, X4. repeat split; auto.
  rewrite <- X3, mT_mmul, Sym.
  assert (E : mT X = X).
  { apply symmetric_mT, (penrose_symmetric n A); [now apply symmetric_mT|].
    repeat split; auto; now apply symmetric_mT. }
  now rewrite E.
Qed.

Lemma penrose_psd n A X : psd n A -> penrose n n A X -> psd n X.
Proof.
  intros [SA PA] H. assert (SX := penrose_symmetric n A X SA H). split; [exact SX|].
  destruct H as (_ & _ & X2 & _). intros x. rewrite <- X2, mmul_assoc.
  rewrite mvec_mmul, dot_comm, dot_mvec. apply symmetric_mT in SX. rewrite SX, dot_comm, mvec_mmul.
  apply PA.
Qed.

(** A symmetric matrix and its pseudo-inverse have the same kernel. *)
Lemma penrose_kernel n A X x : symmetric A -> penrose n n A X ->
  mvec n X x = vzero -> mvec n A x = vzero.
Proof.
  intros SA H E. assert (SX := penrose_symmetric n A X SA H).
  destruct H as (_ & X1 & _ & X3 & X4).
  apply symmetric_mT in SA, SX, X3, X4.
  rewrite <- X1, mmul_assoc, <- X4, mT_mmul, SA, SX, !mvec_mmul, E, !mvec_vzero. reflexivity.
Qed.
