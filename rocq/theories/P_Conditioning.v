(** Linear algebra of conditioning a normal distribution. *)
From Coq Require Import Reals List Arith Lia Lra.
From Verif Require Import M_Prelude M_Base P_Loops M_Matrix P_Matrix M_DmpObject M_Ridge M_ProMP P_ProMP.
Import ListNotations.
Open Scope R_scope.
Set Bullet Behavior "Strict Subproofs".

Lemma inverse_symmetric n A X : symmetric A -> inverse n A X -> symmetric X.
Proof.
  intros SA (SX & X1 & X2). apply symmetric_mT in SA. apply symmetric_mT.
  apply (inverse_unique n A); [|repeat split; auto].
  split; [now apply sized_mT|]. split.
  - rewrite <- SA at 1. rewrite <- mT_mmul, X2. apply mT_eye.
  - rewrite <- SA at 1. rewrite <- mT_mmul, X1. apply mT_eye.
Qed.
Lemma inverse_psd n A X : sized n n A -> psd n A -> inverse n A X -> psd n X.
Proof.
  intros HA [SA PA] H. assert (SX := inverse_symmetric n A X SA H). split; [exact SX|].
  destruct H as (HX & X1 & X2). intros x.
  assert (E : mmul n X (mmul n A X) = X) by (rewrite X1; apply mmul_eye_r; auto).
  rewrite <- E, mvec_mmul, dot_comm, dot_mvec. apply symmetric_mT in SX. rewrite SX, dot_comm, mvec_mmul.
  apply PA.
Qed.

Lemma mmul_msub_self k A B : mmul k (msub A A) B = mzero.
Proof. apply mat_ext; intros i j. apply rsum_0. intros. unfold msub. ring. Qed.
Lemma msub_self A : msub A A = mzero.
Proof. apply mat_ext; intros i j. unfold msub, mzero. ring. Qed.

(** [S] covariance of the weights, [P] activations (K, D), [C] covariance of
    the observation, [G] inverse of [C + P^T S P]. *)
Section Conditioning.
Variables (K D : nat) (S P C G : mat).
Hypothesis HS : sized K K S.
Hypothesis HP : sized K D P.
Hypothesis HC : sized D D C.
Let PSP := mmul K (mmul K (mT P) S) P.
Hypothesis HG : inverse D (madd C PSP) G.
Let common := mmul D (mmul K S P) G.
Definition conditioned_cov := msub S (mmul K (mmul D (mmul D (mmul K S P) G) (mT P)) S).

Lemma sized_PSP : sized D D PSP.
Proof. apply (sized_mmul D K D); auto. apply (sized_mmul D K K); auto. now apply sized_mT. Qed.
Lemma sized_conditioned : sized K K conditioned_cov.
Proof.
  apply sized_msub; auto. apply (sized_mmul K K K); auto. apply (sized_mmul K D K); [|now apply sized_mT].
  apply (sized_mmul K D D); [|apply HG]. apply (sized_mmul K K D); auto.
Qed.

(** without observation noise the conditioned weights have no spread along [P] *)
Lemma conditioned_zero_l : C = mzero -> mmul K (mT P) conditioned_cov = mzero.
Proof.
  intros HC0. unfold conditioned_cov. rewrite mmul_msub_r.
  assert (E : mmul K (mT P) (mmul K (mmul D (mmul D (mmul K S P) G) (mT P)) S) = mmul K (mT P) S).
  { rewrite <- !mmul_assoc. rewrite (mmul_assoc K K (mT P) S P), <- mmul_assoc. fold PSP.
    assert (EI : mmul D PSP G = eye D).
    { destruct HG as (_ & H1 & _). rewrite <- H1. f_equal. rewrite HC0. apply mat_ext; intros i j. unfold madd, mzero. ring. }
    rewrite EI. rewrite mmul_eye_l; [reflexivity|]. intros i j Hi. unfold mT. apply HP. auto. }
  rewrite E. apply msub_self.
Qed.

Hypothesis PS : psd K S.
Hypothesis PC : psd D C.

Lemma S_sym : mT S = S. Proof. apply symmetric_mT, PS. Qed.
Lemma total_psd : psd D (madd C PSP).
Proof. apply psd_madd; auto. now apply psd_conj. Qed.
Lemma G_sym : mT G = G.
Proof. apply symmetric_mT, (inverse_symmetric D (madd C PSP)); auto. apply total_psd. Qed.

Lemma conditioned_sym : symmetric conditioned_cov.
Proof.
  apply symmetric_mT. unfold conditioned_cov. rewrite mT_msub, S_sym. f_equal.
  rewrite !mT_mmul, S_sym, G_sym, mT_mT. rewrite !mmul_assoc. reflexivity.
Qed.

Lemma conditioned_psd : psd K conditioned_cov.
Proof.
  split; [apply conditioned_sym|]. intros x.
  set (u := mvec K (mT P) (mvec K S x)). set (z := mvec D G u).
  assert (E : mvec K conditioned_cov x = vsub (mvec K S x) (mvec K S (mvec D P z))).
  { unfold conditioned_cov. rewrite mvec_msub. f_equal. rewrite !mvec_mmul. reflexivity. }
  rewrite E, dot_vsub_r.
  assert (Hsym : forall a b, dot K a (mvec K S b) = dot K (mvec K S a) b).
  { intros a b. rewrite dot_mvec, S_sym. reflexivity. }
  assert (E1 : dot K x (mvec K S (mvec D P z)) = dot D z u).
  { rewrite Hsym, dot_comm, dot_mvec. reflexivity. }
  assert (E2 : mvec D (madd C PSP) z = mvec D (eye D) u).
  { unfold z. rewrite <- mvec_mmul. f_equal. apply HG. }
  assert (E3 : dot D z (mvec D C z) + dot D z (mvec D PSP z) = dot D z u).
  { rewrite <- dot_vadd_r, <- mvec_madd, E2. apply dot_ext; auto. intros. now apply mvec_eye_in. }
  assert (E4 : dot D z (mvec D PSP z) = dot K (mvec D P z) (mvec K S (mvec D P z))).
  { unfold PSP. rewrite !mvec_mmul, <- dot_mvec. reflexivity. }
  assert (E5 := proj2 PS (vsub x (mvec D P z))).
  rewrite mvec_vsub, !dot_vsub, !dot_vsub_r, E1 in E5.
  assert (E7 : dot K (mvec D P z) (mvec K S x) = dot D z u) by (rewrite dot_mvec; reflexivity).
  rewrite E7 in E5.
  assert (E6 := proj2 PC z). lra.
Qed.

(** the variance does not grow *)
Lemma conditioned_smaller : psd K (msub S conditioned_cov).
Proof.
  assert (E : msub S conditioned_cov = mmul D (mmul D (mT (mmul K (mT P) S)) G) (mmul K (mT P) S)).
  { rewrite mT_mmul, mT_mT, S_sym. unfold conditioned_cov. rewrite <- mmul_assoc.
    apply mat_ext; intros i j. unfold msub. ring. }
  rewrite E. apply psd_conj. apply (inverse_psd D (madd C PSP)); auto.
  - apply sized_madd; [exact HC|apply sized_PSP].
  - apply total_psd.
Qed.

(** the kernel grows by the columns of [P] only *)
Lemma conditioned_kernel x : (forall i, (i < K)%nat -> mvec K conditioned_cov x i = 0) ->
  exists z, forall i, (i < K)%nat -> mvec K S (vsub x (mvec D P z)) i = 0.
Proof.
  intros H. exists (mvec D G (mvec K (mT P) (mvec K S x))). intros i Hi. rewrite <- (H i Hi).
  unfold conditioned_cov. rewrite mvec_msub, mvec_vsub. f_equal. rewrite !mvec_mmul. reflexivity.
Qed.
End Conditioning.

(** [C + P^T S P] is invertible when no nonzero combination of the columns of
    [P] is in the kernel of [S]. *)
Lemma prior_inverse K D S P C : sized D D C -> sized K K S -> sized K D P -> psd D C -> psd K S ->
  (forall z, (forall i, (i < K)%nat -> mvec K S (mvec D P z) i = 0) -> forall d, (d < D)%nat -> z d = 0) ->
  exists G, inverse D (madd C (mmul K (mmul K (mT P) S) P)) G.
Proof.
  intros HC HS HP PC PS H.
  assert (PP : psd D (mmul K (mmul K (mT P) S) P)) by now apply psd_conj.
  apply symmetric_inverse.
  - apply sized_madd; auto. now apply (sized_PSP K D S P).
  - exact (proj1 (psd_madd D _ _ PC PP)).
  - intros z Hz. apply H. apply psd_kernel; auto.
    assert (E : dot D z (mvec D (madd C (mmul K (mmul K (mT P) S) P)) z) = 0).
    { rewrite dot_comm. now apply dot_zero_l. }
    rewrite mvec_madd, dot_vadd_r in E.
    assert (E1 := proj2 PC z). assert (E2 := proj2 PP z).
    replace (dot K (mvec D P z) (mvec K S (mvec D P z))) with (dot D z (mvec D (mmul K (mmul K (mT P) S) P) z)); [lra|].
    rewrite !mvec_mmul, <- dot_mvec. reflexivity.
Qed.

(** ** Vandermonde: the powers of distinct numbers are independent *)
Lemma vandermonde : forall (l : list (R * R)),
  NoDup (map fst l) ->
  (forall k, (k < length l)%nat -> fold_right Rplus 0 (map (fun ua => snd ua * fst ua ^ k) l) = 0) ->
  forall ua, In ua l -> snd ua = 0.
Proof.
  intros l. remember (length l) as n eqn:En. revert l En.
  induction n as [|n IH]; intros l En Hd H ua Hin; [destruct l; [destruct Hin|discriminate]|].
  destruct l as [|[u0 a0] l]; [discriminate|]. cbn [length] in En. injection En as En.
  cbn [map fst] in Hd. apply NoDup_cons_iff in Hd. destruct Hd as [Hnot Hd].
  assert (Z : forall ua, In ua l -> snd ua = 0).
  { assert (Z' : forall ub, In ub (map (fun ua => (fst ua, snd ua * (fst ua - u0))) l) -> snd ub = 0).
    { apply IH.
      - now rewrite map_length.
      - rewrite map_map. exact Hd.
      - intros k Hk. rewrite map_map. cbn [fst snd].
        assert (H1 := H (S k) ltac:(lia)). assert (H0 := H k ltac:(lia)).
        cbn [map fold_right fst snd] in H0, H1.
        replace (fold_right Rplus 0 (map (fun x => snd x * (fst x - u0) * fst x ^ k) l))
          with (fold_right Rplus 0 (map (fun ua => snd ua * fst ua ^ S k) l)
                - u0 * fold_right Rplus 0 (map (fun ua => snd ua * fst ua ^ k) l)).
        + cbn [pow] in H1. set (s := fold_right Rplus 0 (map (fun ua => snd ua * fst ua ^ k) l)) in *.
          change (fold_right Rplus 0 (map (fun ua0 => snd ua0 * (fst ua0 * fst ua0 ^ k)) l))
            with (fold_right Rplus 0 (map (fun ua0 => snd ua0 * fst ua0 ^ S k) l)) in H1.
          nra.
        + clear. induction l as [|[u a] l IHl]; cbn [map fold_right fst snd]; [ring|].
          rewrite <- IHl. cbn [pow]. ring. }
    intros [u a] Hin'. cbn [snd].
    assert (Ha := Z' (u, a * (u - u0)) (in_map (fun ua => (fst ua, snd ua * (fst ua - u0))) _ _ Hin')).
    cbn [snd] in Ha. apply Rmult_integral in Ha. destruct Ha as [Ha|Ha]; [exact Ha|].
    exfalso. apply Hnot. apply in_map_iff. exists (u, a). split; auto. cbn. lra. }
  destruct Hin as [<-|Hin]; [|auto]. cbn [snd].
  assert (Z0 : forall l', (forall ua, In ua l' -> snd ua = 0) ->
     fold_right Rplus 0 (map (fun ua => snd ua * fst ua ^ 0) l') = 0).
  { clear. induction l' as [|ua l IHl]; intros Z; cbn [map fold_right]; [reflexivity|].
    rewrite IHl by (intros; apply Z; now right). rewrite (Z ua) by (now left). ring. }
  specialize (H 0%nat ltac:(lia)). cbn [map fold_right fst snd] in H.
  rewrite (Z0 l Z) in H. simpl in H. lra.
Qed.
