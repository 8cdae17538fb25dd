(** Linear algebra of conditioning a normal distribution twice, of the best
    linear estimate and of the product of prior and likelihood. *)
From Coq Require Import Reals List Arith Lia Lra.
From Verif Require Import M_Prelude M_Base P_Loops M_Matrix P_Matrix M_DmpObject M_Ridge M_ProMP P_ProMP
  P_Conditioning.
Import ListNotations.
Open Scope R_scope.
Set Bullet Behavior "Strict Subproofs".

Lemma inverse_vec n A X v i : inverse n A X -> (i < n)%nat -> mvec n A (mvec n X v) i = v i.
Proof. intros (_ & H & _) Hi. rewrite <- mvec_mmul, H. now apply mvec_eye_in. Qed.
Lemma inverse_vec' n A X v i : inverse n A X -> (i < n)%nat -> mvec n X (mvec n A v) i = v i.
Proof. intros (_ & _ & H) Hi. rewrite <- mvec_mmul, H. now apply mvec_eye_in. Qed.
Lemma inverse_injective n A X v : inverse n A X -> (forall i, (i < n)%nat -> mvec n A v i = 0) ->
  forall i, (i < n)%nat -> v i = 0.
Proof.
  intros H Hv i Hi. rewrite <- (inverse_vec' n A X v i H Hi).
  apply rsum_0. intros j Hj. rewrite Hv by auto. ring.
Qed.

(** matrices of a known size are equal when they act alike *)
Lemma mat_act_ext m n A B : sized m n A -> sized m n B ->
  (forall x i, (i < m)%nat -> mvec n A x i = mvec n B x i) -> A = B.
Proof.
  intros HA HB H. apply (mat_ext_sized m n); auto. intros i j Hi Hj.
  assert (E := H (fun k => if (j =? k)%nat then 1 else 0) i Hi).
  unfold mvec in E. rewrite !(rsum_ext n _ (fun k => (if (j =? k)%nat then 1 else 0) * A i k)) in E by (intros; ring).
  rewrite (rsum_ext n (fun k => B i k * _) (fun k => (if (j =? k)%nat then 1 else 0) * B i k)) in E by (intros; ring).
  now rewrite !rsum_delta in E by auto.
Qed.

(** ** Two conditions *)
Section Two.
Variables (K D : nat) (S P1 P2 C1 C2 : mat).
Let A := madd C1 (mmul K (mmul K (mT P1) S) P1).
Let E := madd C2 (mmul K (mmul K (mT P2) S) P2).
Let S1 (G1 : mat) := conditioned_cov K D S P1 G1.
Let F (G1 : mat) := madd C2 (mmul K (mmul K (mT P2) (S1 G1)) P2).

(** The linear system that both orders solve. *)
Definition solves (u1 u2 z1 z2 : vec) : Prop := forall d, (d < D)%nat ->
  mvec D A z1 d + mvec K (mT P1) (mvec K S (mvec D P2 z2)) d = u1 d
  /\ mvec K (mT P2) (mvec K S (mvec D P1 z1)) d + mvec D E z2 d = u2 d.
Definition push (z1 z2 : vec) : vec := vadd (mvec K S (mvec D P1 z1)) (mvec K S (mvec D P2 z2)).

Lemma S1_vec G1 x : mvec K (S1 G1) x
  = vsub (mvec K S x) (mvec K S (mvec D P1 (mvec D G1 (mvec K (mT P1) (mvec K S x))))).
Proof. unfold S1, conditioned_cov. rewrite mvec_msub, !mvec_mmul. reflexivity. Qed.
Lemma F_vec G1 z : mvec D (F G1) z = vadd (mvec D C2 z) (mvec K (mT P2) (mvec K (S1 G1) (mvec D P2 z))).
Proof. unfold F. rewrite mvec_madd, !mvec_mmul. reflexivity. Qed.
Lemma A_vec z : mvec D A z = vadd (mvec D C1 z) (mvec K (mT P1) (mvec K S (mvec D P1 z))).
Proof. unfold A. rewrite mvec_madd, !mvec_mmul. reflexivity. Qed.
Lemma E_vec z : mvec D E z = vadd (mvec D C2 z) (mvec K (mT P2) (mvec K S (mvec D P2 z))).
Proof. unfold E. rewrite mvec_madd, !mvec_mmul. reflexivity. Qed.

Lemma push_ext z1 z2 z1' z2' : (forall d, (d < D)%nat -> z1 d = z1' d /\ z2 d = z2' d) ->
  push z1 z2 = push z1' z2'.
Proof.
  intros H. unfold push. rewrite (mvec_ext D P1 z1 z1'), (mvec_ext D P2 z2 z2'); auto; intros i Hi; apply H; auto.
Qed.

Section Solution.
Variables (G1 G2 : mat).
Hypothesis HG1 : inverse D A G1.
Hypothesis HG2 : inverse D (F G1) G2.
Variables (u1 u2 : vec).
Definition second : vec :=
  mvec D G2 (vsub u2 (mvec K (mT P2) (mvec K S (mvec D P1 (mvec D G1 u1))))).
Definition first : vec :=
  vsub (mvec D G1 u1) (mvec D G1 (mvec K (mT P1) (mvec K S (mvec D P2 second)))).

Lemma F_second d : (d < D)%nat -> mvec D (F G1) second d
  = u2 d - mvec K (mT P2) (mvec K S (mvec D P1 (mvec D G1 u1))) d.
Proof. intros Hd. unfold second. now rewrite (inverse_vec D (F G1) G2) by auto. Qed.

Lemma solves_both : solves u1 u2 first second.
Proof.
  intros d Hd. split.
  - unfold first. rewrite mvec_vsub. unfold vsub at 1. rewrite !(inverse_vec D A G1) by auto. ring.
  - assert (H := F_second d Hd). rewrite F_vec, S1_vec in H.
    rewrite mvec_vsub in H. unfold vadd, vsub at 1 in H.
    rewrite E_vec. unfold first. rewrite !mvec_vsub. unfold vadd. unfold vsub at 1. lra.
Qed.

(** the solution is unique *)
Lemma solves_unique z1 z2 : solves u1 u2 z1 z2 ->
  forall d, (d < D)%nat -> z1 d = first d /\ z2 d = second d.
Proof.
  intros H. assert (H' := solves_both).
  set (d1 := vsub z1 first). set (d2 := vsub z2 second).
  assert (E1 : forall d, (d < D)%nat -> mvec D A d1 d = - mvec K (mT P1) (mvec K S (mvec D P2 d2)) d).
  { intros d Hd. destruct (H d Hd) as [h1 _], (H' d Hd) as [h1' _].
    unfold d1, d2. rewrite !mvec_vsub. unfold vsub at 1 2. lra. }
  assert (E2 : forall d, (d < D)%nat -> mvec K (mT P2) (mvec K S (mvec D P1 d1)) d + mvec D E d2 d = 0).
  { intros d Hd. destruct (H d Hd) as [_ h2], (H' d Hd) as [_ h2'].
    unfold d1, d2. rewrite !mvec_vsub. unfold vsub at 1 2. lra. }
  set (w := mvec D G1 (mvec K (mT P1) (mvec K S (mvec D P2 d2)))).
  assert (E3 : forall d, (d < D)%nat -> d1 d = - w d).
  { intros d Hd. rewrite <- (inverse_vec' D A G1 d1 d HG1 Hd).
    rewrite (mvec_ext D G1 _ (vscale (-1) (mvec K (mT P1) (mvec K S (mvec D P2 d2))))).
    - rewrite mvec_vscale. unfold vscale, w. ring.
    - intros i Hi. rewrite E1 by auto. unfold vscale. ring. }
  assert (E4 : forall d, (d < D)%nat -> mvec D (F G1) d2 d = 0).
  { intros d Hd. rewrite F_vec, S1_vec. fold w. rewrite mvec_vsub. unfold vadd, vsub at 1.
    assert (h := E2 d Hd). rewrite E_vec in h. unfold vadd in h.
    rewrite (mvec_ext D P1 d1 (vscale (-1) w)) in h by (intros i Hi; rewrite E3 by auto; unfold vscale; ring).
    rewrite !mvec_vscale in h. unfold vscale at 1 in h. lra. }
  assert (E5 := inverse_injective D (F G1) G2 d2 HG2 E4).
  intros d Hd. assert (Z2 := E5 d Hd).
  assert (Z1 : d1 d = 0).
  { rewrite E3 by auto. unfold w. rewrite (mvec_ext D P2 d2 vzero) by (intros; now apply E5).
    rewrite !mvec_vzero. unfold vzero. ring. }
  unfold d1, d2, vsub in Z1, Z2. lra.
Qed.

(** what two conditions add to the mean, and take from the covariance *)
Lemma step_two : push first second
  = vadd (mvec K S (mvec D P1 (mvec D G1 u1))) (mvec K (S1 G1) (mvec D P2 second)).
Proof.
  unfold push, first. rewrite S1_vec, !mvec_vsub. apply vec_ext. intros i. unfold vadd, vsub. ring.
Qed.
End Solution.

Lemma mean_two G1 G2 mu y1 y2 :
  let mu1 := vadd mu (mvec D (mmul D (mmul K S P1) G1) (vsub y1 (mvec K (mT P1) mu))) in
  vadd mu1 (mvec D (mmul D (mmul K (S1 G1) P2) G2) (vsub y2 (mvec K (mT P2) mu1)))
  = vadd mu (push (first G1 G2 (vsub y1 (mvec K (mT P1) mu)) (vsub y2 (mvec K (mT P2) mu)))
                  (second G1 G2 (vsub y1 (mvec K (mT P1) mu)) (vsub y2 (mvec K (mT P2) mu)))).
Proof.
  cbv zeta. set (u1 := vsub y1 (mvec K (mT P1) mu)). set (u2 := vsub y2 (mvec K (mT P2) mu)).
  rewrite step_two. rewrite !mvec_mmul.
  assert (Er : vsub y2 (mvec K (mT P2) (vadd mu (mvec K S (mvec D P1 (mvec D G1 u1)))))
    = vsub u2 (mvec K (mT P2) (mvec K S (mvec D P1 (mvec D G1 u1))))).
  { rewrite mvec_vadd. unfold u2. apply vec_ext. intros i. unfold vsub, vadd. ring. }
  rewrite Er. unfold second. apply vec_ext. intros i. unfold vadd. ring.
Qed.

Lemma cov_two G1 G2 x :
  mvec K (conditioned_cov K D (S1 G1) P2 G2) x
  = vsub (mvec K S x) (push (first G1 G2 (mvec K (mT P1) (mvec K S x)) (mvec K (mT P2) (mvec K S x)))
                            (second G1 G2 (mvec K (mT P1) (mvec K S x)) (mvec K (mT P2) (mvec K S x)))).
Proof.
  set (u1 := mvec K (mT P1) (mvec K S x)). set (u2 := mvec K (mT P2) (mvec K S x)).
  rewrite step_two. unfold conditioned_cov at 1. rewrite mvec_msub, !mvec_mmul.
  assert (Er : mvec K (mT P2) (mvec K (S1 G1) x) = vsub u2 (mvec K (mT P2) (mvec K S (mvec D P1 (mvec D G1 u1))))).
  { rewrite S1_vec, mvec_vsub. reflexivity. }
  rewrite Er. rewrite S1_vec at 1. fold u1. unfold second. apply vec_ext. intros i. unfold vsub at 1 2 4, vadd. ring.
Qed.

(** The other order can be computed when this one can. *)
Hypothesis HS : sized K K S.
Hypothesis HP1 : sized K D P1.
Hypothesis HP2 : sized K D P2.
Hypothesis HC1 : sized D D C1.
Hypothesis HC2 : sized D D C2.
Hypothesis PS : psd K S.
Hypothesis PC1 : psd D C1.
Hypothesis PC2 : psd D C2.
Variables (G1 G2 : mat).
Hypothesis HG1 : inverse D A G1.
Hypothesis HG2 : inverse D (F G1) G2.

Lemma E_invertible : exists X, inverse D E X.
Proof.
  assert (PP : psd D (mmul K (mmul K (mT P2) S) P2)) by now apply psd_conj.
  assert (PE : psd D E) by now apply psd_madd.
  assert (PS1 : psd K (S1 G1)) by (now apply (conditioned_psd K D S P1 C1)).
  assert (PF : psd D (F G1)) by (apply psd_madd; auto; now apply psd_conj).
  apply symmetric_inverse.
  - apply sized_madd; auto. now apply (sized_PSP K D S P2).
  - apply PE.
  - intros x Hx. apply (inverse_injective D (F G1) G2); auto.
    apply psd_kernel; auto.
    assert (E0 : dot D x (mvec D E x) = 0) by (rewrite dot_comm; now apply dot_zero_l).
    assert (Q := proj2 (conditioned_smaller K D S P1 C1 G1 HS HP1 HC1 HG1 PS PC1) (mvec D P2 x)).
    fold (S1 G1) in Q. rewrite mvec_msub, dot_vsub_r in Q.
    rewrite E_vec, dot_vadd_r in E0. rewrite F_vec, dot_vadd_r.
    assert (h1 : dot D x (mvec K (mT P2) (mvec K S (mvec D P2 x))) = dot K (mvec D P2 x) (mvec K S (mvec D P2 x)))
      by (now rewrite dot_mvec).
    assert (h2 : dot D x (mvec K (mT P2) (mvec K (S1 G1) (mvec D P2 x))) = dot K (mvec D P2 x) (mvec K (S1 G1) (mvec D P2 x)))
      by (now rewrite dot_mvec).
    assert (h3 := proj2 PF x). rewrite F_vec, dot_vadd_r in h3. lra.
Qed.

Lemma F_swapped_invertible X : inverse D E X ->
  exists Y, inverse D (madd C1 (mmul K (mmul K (mT P1) (conditioned_cov K D S P2 X)) P1)) Y.
Proof.
  intros HX. set (S2 := conditioned_cov K D S P2 X).
  assert (PS2 : psd K S2) by (now apply (conditioned_psd K D S P2 C2)).
  assert (HS2 : sized K K S2) by (now apply (sized_conditioned K D S P2 C2)).
  assert (PF : psd D (madd C1 (mmul K (mmul K (mT P1) S2) P1))) by (apply psd_madd; auto; now apply psd_conj).
  apply symmetric_inverse.
  - apply sized_madd; auto. now apply (sized_PSP K D S2 P1).
  - apply PF.
  - intros x Hx.
    set (z := vscale (-1) (mvec D X (mvec K (mT P2) (mvec K S (mvec D P1 x))))).
    assert (Hs : solves vzero vzero x z).
    { intros d Hd. split.
      - assert (h := Hx d Hd). rewrite mvec_madd, !mvec_mmul in h. unfold S2 in h.
        unfold conditioned_cov in h. rewrite mvec_msub, !mvec_mmul, mvec_vsub in h.
        rewrite A_vec. unfold z. rewrite !mvec_vscale. unfold vadd in *. unfold vscale at 1. unfold vsub at 1 in h.
        unfold vzero. lra.
      - unfold z. rewrite mvec_vscale. unfold vscale at 1. rewrite (inverse_vec D E X) by auto. unfold vzero. ring. }
    intros i Hi.
    assert (Hs0 : solves vzero vzero vzero vzero).
    { intros d Hd. rewrite !mvec_vzero. unfold vzero. split; ring. }
    destruct (solves_unique G1 G2 HG1 HG2 vzero vzero x z Hs i Hi) as [h _].
    destruct (solves_unique G1 G2 HG1 HG2 vzero vzero vzero vzero Hs0 i Hi) as [h0 _].
    rewrite h, <- h0. reflexivity.
Qed.
End Two.

Lemma solves_swap K D S P1 P2 C1 C2 u1 u2 z1 z2 :
  solves K D S P1 P2 C1 C2 u1 u2 z1 z2 -> solves K D S P2 P1 C2 C1 u2 u1 z2 z1.
Proof. intros H d Hd. destruct (H d Hd) as [h1 h2]. split; lra. Qed.
Lemma push_swap K D S P1 P2 z1 z2 : push K D S P1 P2 z1 z2 = push K D S P2 P1 z2 z1.
Proof. apply vec_ext. intros i. unfold push, vadd. ring. Qed.

(** Both orders push the same. *)
Lemma push_two K D S P1 P2 C1 C2 G1 G2 X1 X2 u1 u2 :
  inverse D (madd C1 (mmul K (mmul K (mT P1) S) P1)) G1 ->
  inverse D (madd C2 (mmul K (mmul K (mT P2) (conditioned_cov K D S P1 G1)) P2)) G2 ->
  inverse D (madd C2 (mmul K (mmul K (mT P2) S) P2)) X2 ->
  inverse D (madd C1 (mmul K (mmul K (mT P1) (conditioned_cov K D S P2 X2)) P1)) X1 ->
  push K D S P1 P2 (first K D S P1 P2 G1 G2 u1 u2) (second K D S P1 P2 G1 G2 u1 u2)
  = push K D S P2 P1 (first K D S P2 P1 X2 X1 u2 u1) (second K D S P2 P1 X2 X1 u2 u1).
Proof.
  intros HG1 HG2 HX2 HX1. rewrite push_swap. apply push_ext. intros d Hd.
  destruct (solves_unique K D S P2 P1 C2 C1 X2 X1 HX2 HX1 u2 u1
     (second K D S P1 P2 G1 G2 u1 u2) (first K D S P1 P2 G1 G2 u1 u2)) with (d := d) as [h1 h2]; auto.
  apply solves_swap. now apply solves_both.
Qed.

(** ** Best linear estimate *)
Section Estimate.
Variables (K D : nat) (S P C G : mat).
Hypothesis HS : sized K K S.
Hypothesis HP : sized K D P.
Hypothesis HC : sized D D C.
Hypothesis PS : psd K S.
Hypothesis PC : psd D C.
Let A := madd C (mmul K (mmul K (mT P) S) P).
Hypothesis HG : inverse D A G.

Lemma S_move a b : dot K a (mvec K S b) = dot K (mvec K S a) b.
Proof. rewrite dot_mvec. destruct PS as [H _]. apply symmetric_mT in H. now rewrite H. Qed.
Lemma A_move a b : dot D a (mvec D A b) = dot D (mvec D A a) b.
Proof.
  assert (PA : psd D A) by (apply psd_madd; auto; now apply psd_conj).
  rewrite dot_mvec. destruct PA as [H _]. apply symmetric_mT in H. now rewrite H.
Qed.

(** variance of [x . w - v . observation] *)
Definition spread (x v : vec) : R :=
  dot K (vsub x (mvec D P v)) (mvec K S (vsub x (mvec D P v))) + dot D v (mvec D C v).
Definition best (x : vec) : vec := mvec D G (mvec K (mT P) (mvec K S x)).

Lemma spread_eq x v : spread x v
  = dot K x (mvec K S x) - 2 * dot D v (mvec K (mT P) (mvec K S x)) + dot D v (mvec D A v).
Proof.
  unfold spread, A. rewrite mvec_vsub, dot_vsub, !dot_vsub_r, mvec_madd, dot_vadd_r, !mvec_mmul.
  assert (h1 : dot K x (mvec K S (mvec D P v)) = dot D v (mvec K (mT P) (mvec K S x))).
  { rewrite S_move, dot_comm, dot_mvec. reflexivity. }
  assert (h2 : dot K (mvec D P v) (mvec K S x) = dot D v (mvec K (mT P) (mvec K S x))) by now rewrite dot_mvec.
  assert (h3 : dot K (mvec D P v) (mvec K S (mvec D P v)) = dot D v (mvec K (mT P) (mvec K S (mvec D P v)))) by now rewrite dot_mvec.
  rewrite h1, h2, h3. ring.
Qed.
Lemma A_best v x : dot D v (mvec D A (best x)) = dot D v (mvec K (mT P) (mvec K S x)).
Proof. apply dot_ext; auto. intros i Hi. unfold best. now rewrite (inverse_vec D A G). Qed.

Lemma spread_best x v : spread x v = spread x (best x) + dot D (vsub v (best x)) (mvec D A (vsub v (best x))).
Proof.
  rewrite !spread_eq, mvec_vsub, dot_vsub, !dot_vsub_r.
  rewrite (A_move (best x) v), (dot_comm D (mvec D A (best x)) v), !A_best. ring.
Qed.
Lemma best_least x v : spread x (best x) <= spread x v.
Proof.
  rewrite (spread_best x v). assert (PA : psd D A) by (apply psd_madd; auto; now apply psd_conj).
  assert (h := proj2 PA (vsub v (best x))). lra.
Qed.
Lemma best_cov x : dot K x (mvec K (conditioned_cov K D S P G) x) = spread x (best x).
Proof.
  rewrite spread_eq, A_best. unfold conditioned_cov. rewrite mvec_msub, dot_vsub_r, !mvec_mmul.
  fold (best x). rewrite (S_move x (mvec D P (best x))), (dot_comm K (mvec K S x) (mvec D P (best x))), dot_mvec. ring.
Qed.
Lemma best_mean x r : dot K x (mvec D (mmul D (mmul K S P) G) r) = dot D (best x) r.
Proof.
  rewrite !mvec_mmul, S_move, dot_comm, dot_mvec. unfold best.
  assert (SG : mT G = G).
  { apply symmetric_mT, (inverse_symmetric D A); auto.
    assert (PA : psd D A) by (apply psd_madd; auto; now apply psd_conj). apply PA. }
  rewrite dot_mvec, SG. apply dot_comm.
Qed.

(** ** Product of prior and likelihood *)
Variables (L Q : mat).
Hypothesis HL : inverse K S L.
Hypothesis HQ : inverse D C Q.
Definition information : mat := madd L (mmul D (mmul D P Q) (mT P)).

Lemma PSP_vec v : mvec K (mT P) (mvec K S (mvec D P v)) = vsub (mvec D A v) (mvec D C v).
Proof. unfold A. rewrite mvec_madd, !mvec_mmul. apply vec_ext. intros i. unfold vsub, vadd. ring. Qed.

(** the information matrix applied to the gain *)
Lemma information_gain r i : (i < K)%nat ->
  mvec K information (mvec K S (mvec D P (mvec D G r))) i = mvec D P (mvec D Q r) i.
Proof.
  intros Hi. unfold information. rewrite mvec_madd, !mvec_mmul, PSP_vec. unfold vadd.
  assert (h : mvec K L (mvec K S (mvec D P (mvec D G r))) i = mvec D P (mvec D G r) i)
    by now apply (inverse_vec' K S L).
  rewrite h, mvec_vsub, mvec_vsub. unfold vsub.
  rewrite (mvec_ext D P (mvec D Q (mvec D C (mvec D G r))) (mvec D G r)) by (intros; now apply (inverse_vec' D C Q)).
  rewrite (mvec_ext D Q (mvec D A (mvec D G r)) r) by (intros; now apply (inverse_vec D A G)). ring.
Qed.

Lemma L_move a b : dot K a (mvec K L b) = dot K (mvec K L a) b.
Proof.
  rewrite dot_mvec. assert (H : symmetric L) by (apply (inverse_symmetric K S); auto; apply PS).
  apply symmetric_mT in H. now rewrite H.
Qed.
Lemma Q_move a b : dot D a (mvec D Q b) = dot D (mvec D Q a) b.
Proof.
  rewrite dot_mvec. assert (H : symmetric Q) by (apply (inverse_symmetric D C); auto; apply PC).
  apply symmetric_mT in H. now rewrite H.
Qed.
Lemma information_sym : mT information = information.
Proof.
  assert (H : symmetric L) by (apply (inverse_symmetric K S); auto; apply PS).
  assert (H' : symmetric Q) by (apply (inverse_symmetric D C); auto; apply PC).
  apply symmetric_mT in H, H'. unfold information. rewrite mT_madd, !mT_mmul, H, H', mT_mT.
  now rewrite mmul_assoc.
Qed.
Lemma sized_information : sized K K information.
Proof.
  apply sized_madd; [apply HL|]. apply (sized_mmul K D K); [|now apply sized_mT].
  apply (sized_mmul K D D); auto. apply HQ.
Qed.

Lemma information_inverse : inverse K (conditioned_cov K D S P G) information.
Proof.
  assert (SM := sized_information).
  assert (SC' : sized K K (conditioned_cov K D S P G)) by now apply (sized_conditioned K D S P C).
  assert (R : mmul K information (conditioned_cov K D S P G) = eye K).
  { apply (mat_act_ext K K); [now apply (sized_mmul K K K)|apply sized_eye|].
    intros x i Hi. rewrite mvec_mmul, mvec_eye_in by auto.
    unfold conditioned_cov. rewrite mvec_msub, mvec_vsub, !mvec_mmul. unfold vsub.
    rewrite information_gain by auto.
    unfold information. rewrite mvec_madd, !mvec_mmul. unfold vadd.
    rewrite (inverse_vec' K S L) by auto. ring. }
  split; [exact SM|]. split; [|exact R].
  assert (SS : mT (conditioned_cov K D S P G) = conditioned_cov K D S P G).
  { apply symmetric_mT. now apply (conditioned_psd K D S P C). }
  rewrite <- SS, <- information_sym, <- mT_mmul, R. apply mT_eye.
Qed.

(** minus twice the logarithm of prior times likelihood, up to constants *)
Lemma completed_square d r :
  let k := mvec K S (mvec D P (mvec D G r)) in
  dot K d (mvec K L d) + dot D (vsub r (mvec K (mT P) d)) (mvec D Q (vsub r (mvec K (mT P) d)))
  = dot K (vsub d k) (mvec K information (vsub d k)) + dot D r (mvec D G r).
Proof.
  intros k.
  assert (I_move : forall a b, dot K a (mvec K information b) = dot K (mvec K information a) b)
    by (intros a b; rewrite dot_mvec, information_sym; reflexivity).
  assert (h1 : forall a, dot K a (mvec K information k) = dot D (mvec K (mT P) a) (mvec D Q r)).
  { intros a. rewrite (dot_ext K a (mvec K information k) a (mvec D P (mvec D Q r))) by (auto; intros; now apply information_gain).
    rewrite dot_comm, dot_mvec, dot_comm. reflexivity. }
  rewrite (mvec_vsub K information), (dot_vsub K), !(dot_vsub_r K), (I_move k d), (dot_comm K (mvec K information k) d), !h1.
  rewrite (mvec_vsub D Q), (dot_vsub D), !(dot_vsub_r D).
  assert (h2 : dot K d (mvec K information d) = dot K d (mvec K L d) + dot D (mvec K (mT P) d) (mvec D Q (mvec K (mT P) d))).
  { unfold information. rewrite mvec_madd, dot_vadd_r, !mvec_mmul. f_equal.
    rewrite dot_comm, dot_mvec, dot_comm. reflexivity. }
  assert (h3 : dot D (mvec K (mT P) k) (mvec D Q r) = dot D r (mvec D Q r) - dot D r (mvec D G r)).
  { unfold k. rewrite PSP_vec, dot_vsub.
    rewrite (dot_ext D (mvec D A (mvec D G r)) (mvec D Q r) r (mvec D Q r)) by (auto; intros; now apply (inverse_vec D A G)).
    f_equal. rewrite dot_comm, <- Q_move.
    apply dot_ext; auto. intros i Hi. now apply (inverse_vec' D C Q). }
  assert (h4 : dot D r (mvec D Q (mvec K (mT P) d)) = dot D (mvec K (mT P) d) (mvec D Q r))
    by (rewrite Q_move; apply dot_comm).
  rewrite h2, h3, h4. ring.
Qed.
End Estimate.
