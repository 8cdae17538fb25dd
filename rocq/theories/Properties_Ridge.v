(** C15: ridge regression returns a minimiser. *)
From Coq Require Import Reals Arith Lia Lra.
From Verif Require Import M_Prelude P_Loops M_Matrix P_Matrix M_DmpObject M_Ridge.
Open Scope R_scope.
Set Bullet Behavior "Strict Subproofs".

(** The objective: squared error plus [lam] times the squared weights, for
    [n] features, [m] samples and [k] outputs. *)
Definition squared_error (n m k : nat) (X : nat -> nat -> R) (Y : nat -> vec) (W : nat -> nat -> R) : R :=
  rsum k (fun o => rsum m (fun s => (Y s o - rsum n (fun f => W o f * X f s)) ^ 2)).
Definition squared_weights (n k : nat) (W : nat -> nat -> R) : R :=
  rsum k (fun o => rsum n (fun f => (W o f) ^ 2)).
Definition ridge_cost n m k X Y lam W : R := squared_error n m k X Y W + lam * squared_weights n k W.

(** The normal equations are solved. *)
Lemma gram_pinv n m X lam : sized n m X -> 0 <= lam ->
  let G := madd (mmul m X (mT X)) (mscale lam (eye n)) in
  mmul n G (mmul n (np_linalg_pinv n n G) X) = X.
Proof.
  intros HX Hl G.
  assert (SG : sized n n G).
  { apply sized_madd; [apply (sized_mmul n m n); auto; now apply sized_mT|].
    apply sized_mscale, sized_eye. }
  assert (Sym : mT G = G).
  { unfold G. now rewrite mT_madd, mT_mmul, mT_mscale, mT_eye, mT_mT. }
  destruct (np_linalg_pinv_spec n n G SG) as (SP & P1 & P2 & P3 & P4).
  set (P := np_linalg_pinv n n G) in *. apply symmetric_mT in P3.
  set (Q := msub (eye n) (mmul n G P)).
  assert (SQ : sized n n Q) by (apply sized_msub; [apply sized_eye|now apply (sized_mmul n n n)]).
  assert (QT : mT Q = Q) by (unfold Q; now rewrite mT_msub, mT_eye, P3).
  assert (QG : mmul n Q G = mzero).
  { unfold Q. rewrite mmul_msub_l, P1, mmul_eye_l by (intros; apply SG; auto).
    apply mat_ext; intros i j. unfold msub, mzero. ring. }
  assert (XQ : mmul n (mT X) Q = mzero).
  { apply (mat_ext_sized m n); [apply (sized_mmul m n n); auto; now apply sized_mT|apply sized_mzero|].
    intros s j Hs Hj. unfold mzero.
    set (q := fun i => Q i j).
    change (mvec n (mT X) q s = 0).
    assert (E : dot n q (mvec n G q) = 0).
    { apply rsum_0. intros i Hi.
      assert (Z := f_equal (fun M : mat => M i j) (eq_trans (eq_sym (mT_mmul n Q G)) (f_equal mT QG))).
      rewrite Sym, QT in Z. change (mvec n G q i = 0) in Z. rewrite Z. ring. }
    unfold G in E. rewrite mvec_madd, mvec_mscale, dot_vadd_r, dot_vscale_r, mvec_mmul in E.
    rewrite (dot_comm n q (mvec m X _)), dot_mvec in E.
    rewrite (dot_ext n q (mvec n (eye n) q) q q) in E by (auto; intros; now apply mvec_eye_in).
    assert (H1 := dot_self m (mvec n (mT X) q)). assert (H2 := Rmult_le_pos _ _ Hl (dot_self n q)).
    apply (dot_self_0 m (mvec n (mT X) q)); [lra|auto]. }
  assert (QX : mmul n Q X = mzero).
  { rewrite <- (mT_mT (mmul n Q X)), mT_mmul, QT, XQ. reflexivity. }
  rewrite <- mmul_assoc.
  unfold Q in QX. rewrite mmul_msub_l, mmul_eye_l in QX by (intros; apply HX; auto).
  apply mat_ext; intros i j. assert (E := f_equal (fun M => M i j) QX).
  unfold msub, mzero in E. lra.
Qed.

(** One output. *)
Lemma ridge_vec n m X y lam w w' : sized n m X ->
  (forall i, (i < n)%nat -> mvec n (madd (mmul m X (mT X)) (mscale lam (eye n))) w i = mvec m X y i) ->
  let c v := dot m (vsub y (mvec n (mT X) v)) (vsub y (mvec n (mT X) v)) + lam * dot n v v in
  c w' = c w + dot m (mvec n (mT X) (vsub w' w)) (mvec n (mT X) (vsub w' w)) + lam * dot n (vsub w' w) (vsub w' w).
Proof.
  intros HX H c. unfold c.
  assert (E : dot n (vsub w' w) (mvec n (madd (mmul m X (mT X)) (mscale lam (eye n))) w)
              = dot n (vsub w' w) (mvec m X y)) by (apply dot_ext; auto).
  rewrite mvec_madd, mvec_mscale, dot_vadd_r, dot_vscale_r, mvec_mmul in E.
  rewrite (dot_ext n (vsub w' w) (mvec n (eye n) w) (vsub w' w) w) in E by (auto; intros; now apply mvec_eye_in).
  rewrite (dot_comm n (vsub w' w) (mvec m X (mvec n (mT X) w))), (dot_comm n (vsub w' w) (mvec m X y)) in E.
  rewrite (dot_mvec n m X (mvec n (mT X) w)), (dot_mvec n m X y) in E.
  rewrite !mvec_vsub, !dot_vsub, !dot_vsub_r in *.
  rewrite (dot_comm n w w') in *.
  set (p := mvec n (mT X) w) in *. set (q := mvec n (mT X) w') in *.
  rewrite (dot_comm m p y), (dot_comm m q y), (dot_comm m q p) in *. lra.
Qed.

Lemma squared_error_dot n m k X Y W : sized n m X ->
  squared_error n m k X Y W = rsum k (fun o =>
    dot m (vsub (fun s => Y s o) (mvec n (mT X) (W o))) (vsub (fun s => Y s o) (mvec n (mT X) (W o)))).
Proof.
  intros _. apply rsum_ext. intros o _. apply rsum_ext. intros s _. unfold vsub, mvec, mT.
  rewrite (rsum_ext n _ (fun l => X l s * W o l)) by (intros; ring). ring.
Qed.
Lemma squared_weights_dot n k W : squared_weights n k W = rsum k (fun o => dot n (W o) (W o)).
Proof. apply rsum_ext. intros o _. apply rsum_ext. intros f _. ring. Qed.

Lemma squared_error_crop n m k X Y W : squared_error n m k (crop n m X) Y W = squared_error n m k X Y W.
Proof.
  apply rsum_ext. intros o _. apply rsum_ext. intros s Hs. f_equal. f_equal. apply rsum_ext.
  intros f Hf. now rewrite crop_in.
Qed.

(** The cost of any weights exceeds the cost of the regression's weights by the
    squared difference of the predictions plus [lam] times the squared
    difference of the weights. *)
Lemma ridge_gap n m k X Y lam W' : 0 <= lam ->
  let W := ridge_regression n m X Y lam in
  ridge_cost n m k X Y lam W' = ridge_cost n m k X Y lam W
    + rsum k (fun o => rsum m (fun s => (rsum n (fun f => (W' o f - W o f) * X f s)) ^ 2))
    + lam * rsum k (fun o => rsum n (fun f => (W' o f - W o f) ^ 2)).
Proof.
  intros Hl W. unfold ridge_cost.
  rewrite <- !(squared_error_crop n m k X Y). set (Xc := crop n m X).
  assert (SX : sized n m Xc) by apply sized_crop.
  rewrite !squared_error_dot, !squared_weights_dot, <- !rsum_scal, <- !rsum_plus by auto.
  apply rsum_ext. intros o _.
  rewrite (ridge_vec n m Xc (fun s => Y s o) lam (W o) (W' o) SX).
  - f_equal; [f_equal|].
    + apply rsum_ext. intros s Hs. unfold mvec, mT, vsub.
      rewrite (rsum_ext n _ (fun f => (W' o f - W o f) * X f s)); [ring|].
      intros f Hf. unfold Xc. rewrite crop_in by auto. ring.
    + f_equal. apply rsum_ext. intros f Hf. unfold vsub. ring.
  - intros i Hi.
    assert (E := gram_pinv n m Xc lam SX Hl). cbn zeta in E.
    set (G := madd (mmul m Xc (mT Xc)) (mscale lam (eye n))) in *.
    assert (EW : forall f, W o f = mvec m (mmul n (np_linalg_pinv n n G) Xc) (fun s => Y s o) f) by reflexivity.
    replace (W o) with (mvec m (mmul n (np_linalg_pinv n n G) Xc) (fun s => Y s o)) by reflexivity.
    rewrite <- mvec_mmul, E. reflexivity.
Qed.

Lemma rsum2_sq_nonneg k n (f : nat -> nat -> R) : 0 <= rsum k (fun o => rsum n (fun i => f o i ^ 2)).
Proof. apply rsum_nonneg. intros. apply rsum_nonneg. intros. apply pow2_ge_0. Qed.

Theorem C15_minimiser : forall n_features n_samples n_outputs X Y lam W',
  0 <= lam ->
  ridge_cost n_features n_samples n_outputs X Y lam (ridge_regression n_features n_samples X Y lam)
  <= ridge_cost n_features n_samples n_outputs X Y lam W'.
Proof.
  intros n m k X Y lam W' Hl. rewrite (ridge_gap n m k X Y lam W' Hl). cbn zeta.
  assert (H1 := rsum2_sq_nonneg k m (fun o s => rsum n (fun f => (W' o f - ridge_regression n m X Y lam o f) * X f s))).
  assert (H2 := Rmult_le_pos _ _ Hl (rsum2_sq_nonneg k n (fun o f => W' o f - ridge_regression n m X Y lam o f))).
  cbn beta in *. lra.
Qed.

Theorem C15_unique : forall n_features n_samples n_outputs X Y lam W',
  0 < lam ->
  ridge_cost n_features n_samples n_outputs X Y lam W'
  <= ridge_cost n_features n_samples n_outputs X Y lam (ridge_regression n_features n_samples X Y lam) ->
  forall o f, (o < n_outputs)%nat -> (f < n_features)%nat ->
    W' o f = ridge_regression n_features n_samples X Y lam o f.
Proof.
  intros n m k X Y lam W' Hl H o f Ho Hf.
  rewrite (ridge_gap n m k X Y lam W') in H by lra. cbn zeta in H.
  set (W := ridge_regression n m X Y lam) in *.
  assert (H1 := rsum2_sq_nonneg k m (fun o s => rsum n (fun f => (W' o f - W o f) * X f s))).
  assert (H2 := rsum2_sq_nonneg k n (fun o f => W' o f - W o f)). cbn beta in *.
  assert (Z : rsum k (fun o => rsum n (fun f => (W' o f - W o f) ^ 2)) = 0) by nra.
  assert (Z' := rsum_nonneg_0 k _ (fun o _ => rsum_nonneg n _ (fun f _ => pow2_ge_0 (W' o f - W o f))) Z o Ho).
  cbn beta in Z'.
  assert (Z'' := rsum_nonneg_0 n _ (fun f _ => pow2_ge_0 (W' o f - W o f)) Z' f Hf). cbn beta in Z''.
  apply Rminus_diag_uniq. replace ((W' o f - W o f) ^ 2) with (Rsqr (W' o f - W o f)) in Z''
    by (unfold Rsqr; ring). now apply Rsqr_0_uniq.
Qed.

(** With [lam = 0] targets that some weights reproduce are reproduced. *)
Theorem C15_interpolates : forall n_features n_samples n_outputs X Y W0,
  (forall s o, (s < n_samples)%nat -> (o < n_outputs)%nat ->
     Y s o = rsum n_features (fun f => W0 o f * X f s)) ->
  forall s o, (s < n_samples)%nat -> (o < n_outputs)%nat ->
    rsum n_features (fun f => ridge_regression n_features n_samples X Y 0 o f * X f s) = Y s o.
Proof.
  intros n m k X Y W0 H s o Hs Ho.
  assert (M := C15_minimiser n m k X Y 0 W0 (Rle_refl 0)).
  set (W := ridge_regression n m X Y 0) in *. unfold ridge_cost in M.
  assert (Z : squared_error n m k X Y W0 = 0).
  { apply rsum_0. intros o' Ho'. apply rsum_0. intros s' Hs'. rewrite H by auto. ring. }
  assert (Z1 : squared_error n m k X Y W = 0).
  { apply Rle_antisym; [lra|]. apply (rsum2_sq_nonneg k m (fun o s => Y s o - rsum n (fun f => W o f * X f s))). }
  assert (Z2 := rsum_nonneg_0 k _ (fun o _ => rsum_nonneg m _ (fun s _ => pow2_ge_0 (Y s o - rsum n (fun f => W o f * X f s)))) Z1 o Ho).
  assert (Z3 := rsum_nonneg_0 m _ (fun s _ => pow2_ge_0 (Y s o - rsum n (fun f => W o f * X f s))) Z2 s Hs).
  cbn beta in Z3. replace ((Y s o - rsum n (fun f => W o f * X f s)) ^ 2)
    with (Rsqr (Y s o - rsum n (fun f => W o f * X f s))) in Z3 by (unfold Rsqr; ring).
  apply Rsqr_0_uniq in Z3. lra.
Qed.

(** Two samples of one feature, targets twice the feature: the weight is 2. *)
Example C15_satisfiable :
  ridge_regression 1%nat 2%nat (fun _ s => INR s + 1) (fun s _ => 2 * (INR s + 1)) 0 0%nat 0%nat = 2
  /\ ridge_cost 1%nat 2%nat 1%nat (fun _ s => INR s + 1) (fun s _ => 2 * (INR s + 1)) 1 (fun _ _ => 5 / 3) = 10 / 3.
Proof.
  split.
  - assert (H := C15_interpolates 1%nat 2%nat 1%nat (fun _ s => INR s + 1) (fun s _ => 2 * (INR s + 1)) (fun _ _ => 2)).
    specialize (H ltac:(intros; cbn [rsum]; ring) 0%nat 0%nat ltac:(lia) ltac:(lia)).
    cbn [rsum] in H. simpl INR in H. lra.
  - unfold ridge_cost, squared_error, squared_weights. cbn [rsum]. simpl INR. field.
Qed.
