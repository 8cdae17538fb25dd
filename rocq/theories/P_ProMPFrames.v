(** Rotations of the space of a ProMP: proofs for C107. *)
From Coq Require Import Reals List Arith Bool Lia Lra.
From Verif Require Import M_Prelude M_Base P_Loops M_Matrix P_Matrix M_DmpObject M_Ridge M_ProMP P_ProMP
  Properties_Ridge Properties_ProMP Properties_ProMPImitate Properties_ProMPWeights S_ProMPFrames.
Import ListNotations.
Open Scope R_scope.
Set Bullet Behavior "Strict Subproofs".

(** ** A matrix that turns each group of [D] entries at distance [n] *)
Definition kron (D n : nat) (A : mat) : mat := fun i j =>
  if ((i <? D * n) && (j <? D * n) && (i mod n =? j mod n))%nat%bool then A (i / n)%nat (j / n)%nat else 0.

Lemma block_div n d k : (k < n)%nat -> ((d * n + k) / n = d)%nat /\ ((d * n + k) mod n = k)%nat.
Proof.
  intros H. split.
  - symmetry. apply (Nat.div_unique _ n d k); lia.
  - symmetry. apply (Nat.mod_unique _ n d k); lia.
Qed.

Lemma kron_at D n A d e k l : (d < D)%nat -> (e < D)%nat -> (k < n)%nat -> (l < n)%nat ->
  kron D n A (d * n + k)%nat (e * n + l)%nat = (if (k =? l)%nat then 1 else 0) * A d e.
Proof.
  intros Hd He Hk Hl. unfold kron. destruct (block_div n d k Hk) as [-> ->], (block_div n e l Hl) as [-> ->].
  destruct (Nat.ltb_spec (d * n + k) (D * n)); [|nia]. destruct (Nat.ltb_spec (e * n + l) (D * n)); [|nia].
  cbn [andb]. destruct (k =? l)%nat; ring.
Qed.
Lemma sized_kron D n A : sized (D * n) (D * n) (kron D n A).
Proof.
  intros i j H. unfold kron. destruct (Nat.ltb_spec i (D * n)); [|reflexivity].
  destruct (Nat.ltb_spec j (D * n)); [lia|reflexivity].
Qed.
Lemma kron_T D n A : mT (kron D n A) = kron D n (mT A).
Proof.
  apply mat_ext. intros i j. unfold mT, kron. rewrite (Nat.eqb_sym (j mod n) (i mod n)).
  destruct (i <? D * n)%nat, (j <? D * n)%nat; reflexivity.
Qed.

Lemma mat_ext_blocks D r c X Y : sized (D * r) (D * c) X -> sized (D * r) (D * c) Y ->
  (forall d k e l, (d < D)%nat -> (k < r)%nat -> (e < D)%nat -> (l < c)%nat ->
     X (d * r + k)%nat (e * c + l)%nat = Y (d * r + k)%nat (e * c + l)%nat) -> X = Y.
Proof.
  intros SX SY H. apply (mat_ext_sized (D * r) (D * c)); auto. intros i j Hi Hj.
  destruct (block_index D r i Hi) as (d & k & Hd & Hk & ->), (block_index D c j Hj) as (e & l & He & Hl & ->). auto.
Qed.
Lemma vec_ext_blocks D r (u v : vec) : vsized (D * r) u -> vsized (D * r) v ->
  (forall d k, (d < D)%nat -> (k < r)%nat -> u (d * r + k)%nat = v (d * r + k)%nat) -> u = v.
Proof.
  intros Su Sv H. apply vec_ext. intros i. destruct (Nat.lt_ge_cases i (D * r)) as [Hi|Hi].
  - destruct (block_index D r i Hi) as (d & k & Hd & Hk & ->). auto.
  - now rewrite Su, Sv.
Qed.

Lemma kron_row D n A d k f : (d < D)%nat -> (k < n)%nat ->
  rsum (D * n) (fun j => kron D n A (d * n + k)%nat j * f j) = rsum D (fun e => A d e * f (e * n + k)%nat).
Proof.
  intros Hd Hk. rewrite rsum_blocks. apply rsum_ext. intros e He.
  rewrite <- (rsum_delta n k (fun l => A d e * f (e * n + l)%nat) Hk).
  apply rsum_ext. intros l Hl. rewrite kron_at by auto. ring.
Qed.
Lemma mvec_kron D n A v d k : (d < D)%nat -> (k < n)%nat ->
  mvec (D * n) (kron D n A) v (d * n + k)%nat = rsum D (fun e => A d e * v (e * n + k)%nat).
Proof. intros. now apply kron_row. Qed.

Lemma kron_orthogonal D n A : orthogonal D A ->
  mmul (D * n) (kron D n A) (mT (kron D n A)) = eye (D * n) /\ mmul (D * n) (mT (kron D n A)) (kron D n A) = eye (D * n).
Proof.
  intros HA.
  assert (E : forall B, (forall i j, (i < D)%nat -> (j < D)%nat -> rsum D (fun k => B i k * B j k) = (if (i =? j)%nat then 1 else 0)) ->
    mmul (D * n) (kron D n B) (mT (kron D n B)) = eye (D * n)).
  { intros B HB. apply (mat_ext_blocks D n n).
    - apply (sized_mmul _ (D * n)); [|apply sized_mT]; apply sized_kron.
    - apply sized_eye.
    - intros d k e l Hd Hk He Hl. unfold mmul. rewrite kron_row by auto.
      rewrite (rsum_ext D _ (fun f => B d f * B e f * (if (l =? k)%nat then 1 else 0))).
      2:{ intros f Hf. unfold mT. rewrite kron_at by auto. ring. }
      rewrite rsum_scal_r, HB by auto. unfold eye.
      destruct (Nat.ltb_spec (d * n + k) (D * n)); [|nia]. rewrite andb_true_r.
      destruct (block_div n d k Hk) as [E1 E2], (block_div n e l Hl) as [E3 E4].
      destruct (Nat.eqb_spec d e) as [Hde|Hde], (Nat.eqb_spec l k) as [Hlk|Hlk],
        (Nat.eqb_spec (d * n + k) (e * n + l)) as [He1|He1]; try ring; exfalso; subst; try lia;
        rewrite He1 in E1, E2; congruence. }
  split; [apply E; intros; apply HA; auto|].
  replace (kron D n A) with (mT (kron D n (mT A))) at 2 by (rewrite kron_T; reflexivity).
  rewrite kron_T. apply E. intros; apply HA; auto.
Qed.

(** Block-diagonal matrices commute with it. *)
Lemma kron_block D r c P A :
  mmul (D * r) (kron D r A) (nd_block_diagonal r c P D) = mmul (D * c) (nd_block_diagonal r c P D) (kron D c A).
Proof.
  apply (mat_ext_blocks D r c).
  - apply (sized_mmul _ (D * r)); [apply sized_kron|apply sized_nd_block].
  - apply (sized_mmul _ (D * c)); [apply sized_nd_block|apply sized_kron].
  - intros d k e l Hd Hk He Hl. unfold mmul. rewrite kron_row by auto.
    transitivity (A d e * P k l).
    + rewrite <- (rsum_delta D e (fun f => A d f * P k l) He). apply rsum_ext. intros f Hf.
      destruct (Nat.eqb_spec e f) as [<-|Hne].
      * rewrite nd_block_in by auto. ring.
      * rewrite nd_block_off by auto. ring.
    + rewrite (rsum_ext _ _ (fun j => kron D c (mT A) (e * c + l)%nat j * nd_block_diagonal r c P D (d * r + k)%nat j)).
      2:{ intros j Hj. rewrite <- kron_T. unfold mT. ring. }
      rewrite kron_row by auto. symmetry.
      rewrite <- (rsum_delta D d (fun f => A f e * P k l) Hd). apply rsum_ext. intros f Hf. unfold mT.
      destruct (Nat.eqb_spec d f) as [<-|Hne].
      * rewrite nd_block_in by auto. ring.
      * rewrite nd_block_off by auto. ring.
Qed.
Lemma kron_block_T D r c P A :
  mmul (D * c) (kron D c A) (mT (nd_block_diagonal r c P D)) = mmul (D * r) (mT (nd_block_diagonal r c P D)) (kron D r A).
Proof.
  assert (H := kron_block D r c P (mT A)). apply (f_equal mT) in H. rewrite !mT_mmul, !kron_T in H. symmetry. exact H.
Qed.

(** ** The spec in terms of matrices *)
Lemma turned_weights_kron D N A w : turned_weights D N A w = mvec (D * N) (kron D N A) w.
Proof.
  apply (vec_ext_blocks D N).
  - intros i Hi. unfold turned_weights. destruct (Nat.ltb_spec i (D * N)); [lia|reflexivity].
  - apply vsized_mvec. intros i j Hi. apply sized_kron. auto.
  - intros d k Hd Hk. rewrite mvec_kron by auto. unfold turned_weights, turned_point.
    destruct (block_div N d k Hk) as [-> ->]. destruct (Nat.ltb_spec (d * N + k) (D * N)); [reflexivity|nia].
Qed.
Definition conj (K : nat) (Q C : mat) : mat := mmul K (mmul K Q C) (mT Q).
Lemma sized_conj K Q C : sized K K Q -> sized K K C -> sized K K (conj K Q C).
Proof. intros. unfold conj. apply (sized_mmul _ K); [apply (sized_mmul _ K); auto|now apply sized_mT]. Qed.
Lemma turned_cov_kron D N A C : turned_weight_cov D N A C = conj (D * N) (kron D N A) C.
Proof.
  apply (mat_ext_blocks D N N).
  - intros i j H. unfold turned_weight_cov. destruct (Nat.ltb_spec i (D * N)), (Nat.ltb_spec j (D * N)); try reflexivity. lia.
  - intros i j [H|H]; unfold conj, mmul; apply rsum_0; intros l Hl.
    + rewrite (rsum_0 (D * N)); [ring|]. intros m Hm. rewrite sized_kron by auto. ring.
    + unfold mT. rewrite (sized_kron D N A j l) by auto. ring.
  - intros d k e l Hd Hk He Hl. unfold turned_weight_cov, turned_covariance.
    destruct (block_div N d k Hk) as [-> ->], (block_div N e l Hl) as [-> ->].
    destruct (Nat.ltb_spec (d * N + k) (D * N)); [|nia]. destruct (Nat.ltb_spec (e * N + l) (D * N)); [|nia].
    cbn [andb]. unfold conj. rewrite mmul_assoc. unfold mmul. rewrite kron_row by auto.
    apply rsum_ext. intros f Hf.
    rewrite (rsum_ext _ (fun l0 => C (f * N + k)%nat l0 * mT (kron D N A) l0 (e * N + l)%nat)
              (fun j => kron D N A (e * N + l)%nat j * C (f * N + k)%nat j)) by (intros; unfold mT; ring).
    rewrite kron_row, <- rsum_scal by auto. apply rsum_ext. intros g Hg. ring.
Qed.

(** ** Conjugation with an orthogonal matrix *)
Definition orth (K : nat) (Q : mat) : Prop :=
  sized K K Q /\ mmul K Q (mT Q) = eye K /\ mmul K (mT Q) Q = eye K.
Lemma orth_kron D n A : orthogonal D A -> orth (D * n) (kron D n A).
Proof. intros H. split; [apply sized_kron|now apply kron_orthogonal]. Qed.

Lemma conj_cancel_l K Q B : orth K Q -> sized K K B -> mmul K (mT Q) (mmul K Q B) = B.
Proof. intros (SQ & _ & E) SB. rewrite <- mmul_assoc, E. apply mmul_eye_l. intros; apply SB; auto. Qed.
Lemma conj_mul K Q B C : orth K Q -> sized K K C -> mmul K (conj K Q B) (conj K Q C) = conj K Q (mmul K B C).
Proof.
  intros HQ SC. unfold conj. rewrite !mmul_assoc. do 2 f_equal.
  apply conj_cancel_l; auto. apply (sized_mmul _ K); auto. apply sized_mT. apply HQ.
Qed.
Lemma symmetric_conj K Q B : symmetric B -> symmetric (conj K Q B).
Proof.
  intros H. apply symmetric_mT in H. apply symmetric_mT. unfold conj.
  rewrite !mT_mmul, mT_mT, H. now rewrite mmul_assoc.
Qed.
Lemma penrose_conj K Q C X : orth K Q -> sized K K C -> penrose K K C X -> penrose K K (conj K Q C) (conj K Q X).
Proof.
  intros HQ SC (SX & P1 & P2 & P3 & P4). assert (SQ := proj1 HQ).
  assert (S1 : sized K K (mmul K C X)) by now apply (sized_mmul _ K).
  assert (S2 : sized K K (mmul K X C)) by now apply (sized_mmul _ K).
  repeat split.
  - now apply sized_conj.
  - rewrite !conj_mul by auto. now rewrite P1.
  - rewrite !conj_mul by auto. now rewrite P2.
  - rewrite conj_mul by auto. now apply symmetric_conj.
  - rewrite conj_mul by auto. now apply symmetric_conj.
Qed.
Lemma pinv_conj K Q C : orth K Q -> sized K K C -> np_linalg_pinv K K (conj K Q C) = conj K Q (np_linalg_pinv K K C).
Proof.
  intros HQ SC. apply (penrose_unique K K (conj K Q C)).
  - apply np_linalg_pinv_spec. apply sized_conj; auto. apply HQ.
  - apply penrose_conj; auto. now apply np_linalg_pinv_spec.
Qed.
Lemma conj_commuting K Q G : orth K Q -> sized K K G -> mmul K Q G = mmul K G Q -> conj K Q G = G.
Proof.
  intros (SQ & E & _) SG H. unfold conj. rewrite H, mmul_assoc, E. apply mmul_eye_r. intros; apply SG; auto.
Qed.
Lemma conj_madd K Q B C : conj K Q (madd B C) = madd (conj K Q B) (conj K Q C).
Proof. unfold conj. now rewrite mmul_madd_r, mmul_madd_l. Qed.
Lemma conj_mscale K Q c C : conj K Q (mscale c C) = mscale c (conj K Q C).
Proof. unfold conj. now rewrite mmul_mscale_r, mmul_mscale_l. Qed.
Lemma conj_mzero K Q : conj K Q mzero = mzero.
Proof. unfold conj. now rewrite mmul_mzero_r, mmul_mzero_l. Qed.
Lemma conj_eye K Q : orth K Q -> conj K Q (eye K) = eye K.
Proof. intros HQ. apply conj_commuting; auto; [apply sized_eye|]. rewrite mmul_eye_l, mmul_eye_r; auto; intros; apply HQ; auto. Qed.
Lemma conj_vec K Q B v : orth K Q -> sized K K B -> mvec K (conj K Q B) (mvec K Q v) = mvec K Q (mvec K B v).
Proof.
  intros (SQ & _ & E) SB. unfold conj. rewrite !mvec_mmul. f_equal. rewrite <- (mvec_mmul K K (mT Q) Q), E.
  apply mvec_ext. intros i Hi. now apply mvec_eye_in.
Qed.
Lemma dot_orth K Q u v : orth K Q -> dot K (mvec K Q u) (mvec K Q v) = dot K u v.
Proof.
  intros (SQ & _ & E). rewrite dot_mvec, <- mvec_mmul, E. apply dot_ext; auto. intros i Hi. now apply mvec_eye_in.
Qed.
Lemma outer_conj K Q (c : vec) : (fun i j => mvec K Q c i * mvec K Q c j) = conj K Q (fun i j => c i * c j).
Proof.
  apply mat_ext. intros i j. unfold conj, mmul, mvec, mT. rewrite <- rsum_scal.
  apply rsum_ext. intros l Hl. rewrite (rsum_ext K (fun m => Q i m * (c m * c l)) (fun m => Q i m * c m * c l)) by (intros; ring).
  rewrite rsum_scal_r. ring.
Qed.
Lemma trace_conj K Q B : orth K Q -> rsum K (fun i => conj K Q B i i) = rsum K (fun i => B i i).
Proof.
  intros (SQ & _ & E). unfold conj, mmul at 1.
  rewrite (rsum_ext K _ (fun i => rsum K (fun l => rsum K (fun m => Q i l * Q i m * B m l)))).
  2:{ intros i Hi. apply rsum_ext. intros l Hl. unfold mT, mmul. rewrite <- rsum_scal_r. apply rsum_ext. intros; ring. }
  rewrite rsum_swap. apply rsum_ext. intros l Hl. rewrite rsum_swap.
  rewrite (rsum_ext K _ (fun m => eye K l m * B m l)); [exact (eye_row K l (fun m => B m l) Hl)|].
  intros m Hm. rewrite <- E. unfold mmul, mT. now rewrite <- rsum_scal_r.
Qed.

(** ** Expectation-maximization *)
Definition em_rel (K : nat) (Q : mat) (e e' : em_terms) : Prop :=
  e_RTR e' = e_RTR e /\ e_PhiHTR e' = mvec K Q (e_PhiHTR e) /\ e_PhiHTHPhiT e' = e_PhiHTHPhiT e
  /\ sized K K (e_PhiHTHPhiT e) /\ mmul K Q (e_PhiHTHPhiT e) = mmul K (e_PhiHTHPhiT e) Q.
Definition gauss_rel (K : nat) (Q : mat) (p p' : vec * mat) : Prop :=
  fst p' = mvec K Q (fst p) /\ snd p' = conj K Q (snd p) /\ sized K K (snd p).
Definition st_rel (K : nat) (Q : mat) (s s' : vec * mat * R) : Prop :=
  gauss_rel K Q (fst s) (fst s') /\ snd s' = snd s.
Definition res_rel {A B} (P : A -> B -> Prop) (r : res A) (r' : res B) : Prop :=
  match r, r' with Ok x, Ok y => P x y | Err e, Err e' => e' = e | _, _ => False end.

Lemma expectation_rel K Q v p p' e e' : orth K Q -> em_rel K Q e e' -> gauss_rel K Q p p' ->
  res_rel (gauss_rel K Q) (expectation K v (fst p) (snd p) e) (expectation K v (fst p') (snd p') e').
Proof.
  intros HQ (E1 & E2 & E3 & SG & HG) (F1 & F2 & SC). unfold expectation.
  destruct (Req_EM_T v 0); cbn [res_rel]; [reflexivity|].
  set (P := np_linalg_pinv K K (snd p)). assert (SP : sized K K P) by (apply np_linalg_pinv_spec; auto).
  set (G := e_PhiHTHPhiT e) in *.
  assert (SM : sized K K (madd (mscale (/ v) G) P)) by (apply sized_madd; auto; now apply sized_mscale).
  assert (EC : np_linalg_pinv K K (madd (mscale (/ v) (e_PhiHTHPhiT e')) (np_linalg_pinv K K (snd p')))
               = conj K Q (np_linalg_pinv K K (madd (mscale (/ v) G) P))).
  { rewrite E3, F2, pinv_conj by auto. fold P.
    rewrite <- (conj_commuting K Q G) at 1 by auto. rewrite <- conj_mscale, <- conj_madd. now apply pinv_conj. }
  unfold gauss_rel. cbn [fst snd]. rewrite EC. split; [|split; [reflexivity|now apply np_linalg_pinv_spec]].
  rewrite E2, F1, F2, pinv_conj by auto. fold P. rewrite (conj_vec K Q P) by auto.
  rewrite <- mvec_vscale, <- mvec_vadd. apply conj_vec; auto. now apply np_linalg_pinv_spec.
Qed.

Lemma expectation_all_rel K Q v p p' es es' : orth K Q -> gauss_rel K Q p p' -> Forall2 (em_rel K Q) es es' ->
  res_rel (Forall2 (gauss_rel K Q)) (expectation_all K v (fst p) (snd p) es) (expectation_all K v (fst p') (snd p') es').
Proof.
  intros HQ Hp. induction 1 as [|e e' es es' He Hes IH]; cbn [expectation_all]; [cbn; constructor|].
  pose proof (expectation_rel K Q v p p' e e' HQ He Hp) as H1.
  destruct (expectation K v (fst p) (snd p) e) as [x|], (expectation K v (fst p') (snd p') e') as [x'|]; cbn [res_rel bind] in *; try tauto.
  destruct (expectation_all K v (fst p) (snd p) es) as [r|], (expectation_all K v (fst p') (snd p') es') as [r'|];
    cbn [res_rel bind] in *; try tauto. now constructor.
Qed.

Lemma vsum_rel K Q ms ms' : Forall2 (gauss_rel K Q) ms ms' -> vsum (map fst ms') = mvec K Q (vsum (map fst ms)).
Proof.
  unfold vsum. induction 1 as [|p p' l l' (H & _) _ IH]; cbn [map fold_right]; [symmetry; apply mvec_vzero|].
  now rewrite H, IH, mvec_vadd.
Qed.
Lemma msum_rel K Q l l' : Forall2 (fun B B' => B' = conj K Q B) l l' -> msum l' = conj K Q (msum l).
Proof.
  unfold msum. induction 1 as [|p p' l l' H _ IH]; cbn [fold_right]; [symmetry; apply conj_mzero|].
  now rewrite H, IH, conj_madd.
Qed.
Lemma Forall2_map2 {A B C D} (f : A -> C) (g : B -> D) (P : A -> B -> Prop) (S : C -> D -> Prop) l l' :
  (forall x y, P x y -> S (f x) (g y)) -> Forall2 P l l' -> Forall2 S (map f l) (map g l').
Proof. intros H. induction 1; cbn; constructor; auto. Qed.
Lemma lsum_same l l' : Forall2 (fun x x' : R => x' = x) l l' -> lsum l' = lsum l.
Proof. unfold lsum. induction 1; cbn [fold_right]; congruence. Qed.
Lemma combine_rel {A B C D} (P : A -> B -> Prop) (S : C -> D -> Prop) l l' m m' :
  Forall2 P l l' -> Forall2 S m m' -> Forall2 (fun x y => P (fst x) (fst y) /\ S (snd x) (snd y)) (combine l m) (combine l' m').
Proof. intros H. revert m m'. induction H; intros m m' Hm; cbn; [constructor|]. destruct Hm; constructor; auto. Qed.
Lemma msum_sized K l : Forall (sized K K) l -> sized K K (msum l).
Proof. unfold msum. induction 1; cbn [fold_right]; [apply sized_mzero|now apply sized_madd]. Qed.

Lemma maximization_rel D K Q ms ms' es es' ns : orth K Q -> Forall2 (gauss_rel K Q) ms ms' -> Forall2 (em_rel K Q) es es' ->
  Forall (fun p => vsized K (fst p)) ms ->
  st_rel K Q (maximization D K ms es ns) (maximization D K ms' es' ns).
Proof.
  intros HQ Hm He Hv. unfold maximization, st_rel, gauss_rel. cbn [fst snd].
  assert (EL : length ms' = length ms) by (clear -Hm; induction Hm; cbn; congruence).
  assert (EM : vscale (/ INR (length ms')) (vsum (map fst ms'))
               = mvec K Q (vscale (/ INR (length ms)) (vsum (map fst ms)))).
  { now rewrite EL, (vsum_rel K Q ms ms'), mvec_vscale. }
  set (mu := vscale (/ INR (length ms)) (vsum (map fst ms))) in *.
  assert (Smu : vsized K mu).
  { intros i Hi. unfold mu, vscale. replace (vsum (map fst ms) i) with 0; [ring|].
    unfold vsum. clear -Hv Hi. induction Hv as [|p l Hp _ IH]; cbn [map fold_right]; [reflexivity|].
    change (0 = fst p i + fold_right vadd vzero (map fst l) i). rewrite <- IH, Hp by auto. ring. }
  rewrite EM, EL. split; [split; [reflexivity|split]|].
  - rewrite conj_mscale, conj_madd. f_equal. f_equal.
    + apply msum_rel. rewrite !map_map.
      apply (Forall2_map2 _ _ (gauss_rel K Q)); auto. intros p p' (H1 & _ & _). rewrite H1, <- mvec_vsub.
      symmetry. symmetry. apply outer_conj.
    + apply msum_rel. apply (Forall2_map2 _ _ (gauss_rel K Q)); auto. intros p p' (_ & H2 & _). exact H2.
  - apply sized_mscale, sized_madd; apply msum_sized.
    + rewrite map_map. apply Forall_map. apply (Forall_impl _ (P := fun p => vsized K (fst p))); auto.
      intros p Hp i j [H|H]; unfold vsub; rewrite (Hp _ H), (Smu _ H); ring.
    + clear -Hm. induction Hm as [|p p' l l' (_ & _ & H) _ IH]; cbn [map]; constructor; auto.
  - f_equal.
    + apply lsum_same. apply (Forall2_map2 _ _ _ _ _ _) with (2 := combine_rel _ _ _ _ _ _ Hm He).
      intros [[m C] e] [[m' C'] e'] ((F1 & F2 & SC) & (E1 & E2 & E3 & SG & HG)). cbn [fst snd] in *. subst m' C'.
      rewrite E1, E2, E3. set (G := e_PhiHTHPhiT e) in *.
      assert (EG : G = conj K Q G) by (symmetry; now apply conj_commuting).
      f_equal; [f_equal; [f_equal|]|].
      * replace (mmul K G (conj K Q C)) with (conj K Q (mmul K G C)) by (rewrite <- conj_mul, <- EG by auto; reflexivity).
        now apply trace_conj.
      * f_equal. now apply dot_orth.
      * replace (mvec K G (mvec K Q m)) with (mvec K Q (mvec K G m)) by (rewrite <- conj_vec, <- EG by auto; reflexivity).
        now apply dot_orth.
    + do 5 f_equal. apply lsum_same.
      apply (Forall2_map2 _ _ (gauss_rel K Q)); auto. intros p p' (H1 & _ & _). rewrite H1. now apply dot_orth.
Qed.

Lemma expectation_all_vsized K v p es : sized K K (snd p) -> Forall (fun e => sized K K (e_PhiHTHPhiT e)) es ->
  forall ms, expectation_all K v (fst p) (snd p) es = Ok ms -> Forall (fun p => vsized K (fst p)) ms.
Proof.
  intros SC. induction 1 as [|e es He Hes IH]; cbn [expectation_all]; intros ms E; [injection E as <-; constructor|].
  unfold expectation in E. destruct (Req_EM_T v 0); [discriminate|]. cbn [bind] in E.
  destruct (expectation_all K v (fst p) (snd p) es) as [r|]; [|discriminate]. cbn [bind] in E. injection E as <-.
  constructor; auto. cbn [fst]. apply vsized_mvec. intros i j Hi.
  apply np_linalg_pinv_spec; auto. apply sized_madd; [now apply sized_mscale|now apply np_linalg_pinv_spec].
Qed.

Lemma em_loop_rel D K Q ns md es es' : orth K Q -> Forall2 (em_rel K Q) es es' -> forall n st st', st_rel K Q st st' ->
  res_rel (st_rel K Q) (em_loop D K ns n md es st) (em_loop D K ns n md es' st').
Proof.
  intros HQ He. induction n as [|n IH]; intros [[m C] v] [[m' C'] v'] (Hg & Ev); cbn [em_loop]; [cbn; split; auto|].
  cbn [fst snd] in *. subst v'.
  pose proof (expectation_all_rel K Q v (m, C) (m', C') es es' HQ Hg He) as H. cbn [fst snd] in H.
  assert (HV := expectation_all_vsized K v (m, C) es (proj2 (proj2 Hg))). cbn [fst snd] in HV.
  destruct (expectation_all K v m C es) as [ms|], (expectation_all K v m' C' es') as [ms'|]; cbn [res_rel bind] in *; try tauto.
  assert (HM : st_rel K Q (maximization D K ms es ns) (maximization D K ms' es' ns)).
  { apply maximization_rel; auto. apply HV; auto. clear -He. induction He as [|e e' l l' (_ & _ & _ & H & _)]; constructor; auto. }
  set (s1 := maximization D K ms es ns) in *. set (s2 := maximization D K ms' es' ns) in *.
  replace (vsub (fst (fst s2)) m') with (mvec K Q (vsub (fst (fst s1)) m)).
  2:{ destruct HM as ((E1 & _) & _), Hg as (E2 & _). cbn [fst] in E2. now rewrite E1, E2, mvec_vsub. }
  rewrite dot_orth by auto. destruct (Rlt_dec _ _); [exact HM|]. now apply IH.
Qed.

(** ** The constant terms *)
Lemma np_max_scaled c v v' : 0 < c -> forall n, (forall i, (i < n)%nat -> v' i = c * v i) -> np_max n v' = c * np_max n v.
Proof.
  intros Hc. induction n as [|[|n] IH]; intros H; [cbn; ring|cbn; apply H; lia|].
  change (Rmax (np_max (S n) v') (v' (S n)) = c * Rmax (np_max (S n) v) (v (S n))).
  rewrite IH by (intros; apply H; lia). rewrite (H (S n)) by lia.
  unfold Rmax. destruct (Rle_dec _ _), (Rle_dec _ _); try reflexivity; exfalso; nra.
Qed.
Lemma rel_time_scaled T T' c : 0 < c -> alen T' = alen T -> (forall i, (i < alen T)%nat -> aget T' i = c * aget T i) ->
  forall i, (i < alen T)%nat -> rel_time T' i = rel_time T i.
Proof.
  intros Hc EL H i Hi. unfold rel_time. rewrite EL, (np_max_scaled c (aget T) (aget T')), H by auto.
  destruct (Req_dec (np_max (alen T) (aget T)) 0) as [E|E].
  - rewrite E, Rmult_0_r. unfold Rdiv. rewrite Rinv_0. ring.
  - field. split; lra.
Qed.

Lemma T_ravel_turned D A n Y Y' : (forall t e, (t < n)%nat -> (e < D)%nat -> Y' t e = turned_point D A (Y t) e) ->
  T_ravel n D Y' = mvec (D * n) (kron D n A) (T_ravel n D Y).
Proof.
  intros H. apply (vec_ext_blocks D n).
  - intros i Hi. unfold T_ravel. destruct (Nat.ltb_spec i (D * n)); [lia|reflexivity].
  - apply vsized_mvec. intros i j Hi. apply sized_kron. auto.
  - intros d k Hd Hk. rewrite mvec_kron, T_ravel_at, H by auto. apply rsum_ext. intros e He. now rewrite T_ravel_at.
Qed.

Definition same_times (T T' : arr) : Prop := alen T' = alen T /\ forall i, (i < alen T)%nat -> aget T' i = aget T i.

Lemma em_precompute_rel D N A o o' d d' : orthogonal D A -> is_promp D N o -> is_promp D N o' -> turned_demo D A d d' ->
  res_rel (fun p p' => em_rel (D * N) (kron D N A) (fst p) (fst p') /\ same_times (snd p) (snd p'))
          (em_precompute o d) (em_precompute o' d').
Proof.
  intros HA Ho Ho' (Er & El & (c & Hc & HT) & HY). destruct (promp_dims D N o Ho) as (ED & EN & _), (promp_dims D N o' Ho') as (ED' & EN' & _).
  unfold em_precompute. destruct (Nat.eq_dec (alen (pd_T d)) 0) as [E0|E0].
  { unfold rbfs_nd_sequence, rbfs_1d_sequence, normalize_time. rewrite El, E0. cbn. reflexivity. }
  rewrite !rbfs_nd_sequence_ok by lia. cbn [bind fst snd]. rewrite El, Er.
  destruct (Nat.eqb_spec (alen (pd_T d)) (pd_rows d)) as [En|En]; cbn [negb res_rel]; [|reflexivity].
  assert (HR := rel_time_scaled (pd_T d) (pd_T d') c Hc El HT).
  rewrite ED, EN, ED', EN', En in *. set (n := pd_rows d) in *.
  assert (EP : crop N n (fun k j => basis o' (rel_time (pd_T d') j) k) = crop N n (fun k j => basis o (rel_time (pd_T d) j) k)).
  { apply (mat_ext_sized N n); try apply sized_crop. intros i j Hi Hj. rewrite !crop_in by auto.
    rewrite (promp_basis D N o'), (promp_basis D N o), HR by auto. reflexivity. }
  rewrite EP. set (P := crop N n _). set (Phi := nd_block_diagonal N n P D). set (H := nd_block_diagonal n n (h_partial n) D).
  rewrite (T_ravel_turned D A n (pd_Y d) (pd_Y d')) by auto.
  set (Y := T_ravel n D (pd_Y d)). set (Q := kron D N A). set (Qn := kron D n A).
  assert (HQn : orth (D * n) Qn) by now apply orth_kron.
  assert (E1 : mvec (D * n) H (mvec (D * n) Qn Y) = mvec (D * n) Qn (mvec (D * n) H Y)).
  { rewrite <- !mvec_mmul. unfold H, Qn. now rewrite kron_block. }
  assert (E2 : mmul (D * N) Q Phi = mmul (D * n) Phi Qn) by apply kron_block.
  assert (E3 : mmul (D * n) Qn (mT H) = mmul (D * n) (mT H) Qn) by apply kron_block_T.
  set (B := mmul (D * n) Phi (mT H)).
  assert (E4 : mmul (D * N) Q B = mmul (D * n) B Qn).
  { unfold B. rewrite <- mmul_assoc, E2, mmul_assoc, E3. now rewrite <- mmul_assoc. }
  assert (E5 : mmul (D * n) Qn (mT B) = mmul (D * N) (mT B) Q).
  { unfold B. rewrite mT_mmul, mT_mT. rewrite <- mmul_assoc.
    assert (E6 : mmul (D * n) Qn H = mmul (D * n) H Qn) by apply kron_block.
    rewrite E6, mmul_assoc. unfold Qn, Phi at 1. rewrite kron_block_T. fold Phi Q. now rewrite <- mmul_assoc. }
  unfold em_rel. cbn [e_RTR e_PhiHTR e_PhiHTHPhiT fst snd]. rewrite E1. split.
  - repeat split.
    + now apply dot_orth.
    + now rewrite <- !mvec_mmul, E4.
    + assert (SB : sized (D * N) (D * n) B).
      { apply (sized_mmul _ (D * n)); [apply sized_nd_block|]. apply sized_mT. apply sized_nd_block. }
      apply (sized_mmul _ (D * n)); auto. now apply sized_mT.
    + rewrite <- mmul_assoc, E4, mmul_assoc, E5. now rewrite <- mmul_assoc.
  - split; cbn [alen aget]; auto.
Qed.
Lemma em_precompute_all_rel D N A o o' : orthogonal D A -> is_promp D N o -> is_promp D N o' ->
  forall ds ds', Forall2 (turned_demo D A) ds ds' ->
  res_rel (fun p p' => Forall2 (em_rel (D * N) (kron D N A)) (fst p) (fst p') /\ Forall2 same_times (snd p) (snd p'))
          (em_precompute_all o ds) (em_precompute_all o' ds').
Proof.
  intros HA Ho Ho'. induction 1 as [|d d' ds ds' Hd Hds IH]; cbn [em_precompute_all]; [cbn; auto|].
  pose proof (em_precompute_rel D N A o o' d d' HA Ho Ho' Hd) as H1.
  destruct (em_precompute o d) as [x|], (em_precompute o' d') as [x'|]; cbn [res_rel bind] in *; try tauto.
  destruct (em_precompute_all o ds) as [r|], (em_precompute_all o' ds') as [r'|]; cbn [res_rel bind fst snd] in *; try tauto.
  destruct H1, IH. split; constructor; auto.
Qed.
