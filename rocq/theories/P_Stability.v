(** Which linear recurrences of two numbers vanish (C100). *)
From Coq Require Import Reals List Lia Lra Psatz FunctionalExtensionality.
From Coquelicot Require Import Coquelicot.
From Verif Require Import M_Prelude M_Canonical M_Forcing M_Dmp S_Dmp
  S_Loops P_Loops P_Canonical P_Forcing P_DmpStep P_DmpScale P_DmpLinear P_Converge S_Stability.
Import ListNotations.
Open Scope R_scope.
Set Bullet Behavior "Strict Subproofs".

(** ** Complex sequences *)
Definition cvanishes (u : nat -> C) : Prop := vanishes (fun j => Cmod (u j)).

Lemma cvanishes_le u v : (forall k, Cmod (u k) <= v k) -> vanishes v -> cvanishes u.
Proof.
  intros H Hv. unfold cvanishes. apply (vanishes_le _ v); auto.
  intros k. rewrite Rabs_pos_eq by apply Cmod_ge_0. apply H.
Qed.

Lemma cvanishes_real u : cvanishes (fun j => RtoC (u j)) <-> vanishes u.
Proof.
  unfold cvanishes. split; intros H eps He; destruct (H eps He) as [N HN]; exists N; intros k Hk;
    specialize (HN k Hk); rewrite Cmod_R in *.
  - now rewrite Rabs_Rabsolu in HN.
  - now rewrite Rabs_Rabsolu.
Qed.

Lemma cvanishes_plus u v : cvanishes u -> cvanishes v -> cvanishes (fun k => (u k + v k)%C).
Proof.
  intros Hu Hv. apply (cvanishes_le _ (fun k => Cmod (u k) + Cmod (v k))).
  - intros. apply Cmod_triangle.
  - now apply vanishes_plus.
Qed.

Lemma cvanishes_scal c u : cvanishes u -> cvanishes (fun k => (c * u k)%C).
Proof.
  intros Hu. apply (cvanishes_le _ (fun k => Cmod c * Cmod (u k))).
  - intros. rewrite Cmod_mult. lra.
  - now apply vanishes_scal.
Qed.

Lemma cvanishes_ext u v : (forall k, u k = v k) -> cvanishes u -> cvanishes v.
Proof. intros E. apply vanishes_ext. intros. now rewrite E. Qed.

Lemma ccontraction (n b : nat -> C) (r : C) :
  Cmod r < 1 -> (forall k, n (S k) = (r * n k + b k)%C) -> cvanishes b -> cvanishes n.
Proof.
  intros Hr Hrec Hb eps He.
  destruct (contraction_vanishes (fun k => Cmod (n k)) (fun k => Cmod (b k)) (Cmod r)) with (eps := eps)
    as [N HN]; auto.
  - split; [apply Cmod_ge_0|exact Hr].
  - intros. apply Cmod_ge_0.
  - intros k. rewrite Hrec. eapply Rle_trans; [apply Cmod_triangle|]. rewrite Cmod_mult. lra.
  - intros e0 He0. destruct (Hb e0 He0) as [M HM]. exists M. intros k Hk. specialize (HM k Hk).
    rewrite Rabs_pos_eq in HM by apply Cmod_ge_0. exact HM.
  - exists N. intros k Hk. rewrite Rabs_pos_eq by apply Cmod_ge_0. auto.
Qed.

(** ** Two coupled recurrences *)
Section Two.
Variables m11 m12 m21 m22 : R.
Variables l1 l2 : C.
Hypothesis Htr : (l1 + l2 = RtoC (m11 + m22))%C.
Hypothesis Hdet : (l1 * l2 = RtoC (m11 * m22 - m12 * m21))%C.

Lemma triangular (e v : R) (p q : R) :
  let e' := m11 * e + m12 * v + p in
  let v' := m21 * e + m22 * v + q in
  let W1 e v := ((RtoC m11 - l1) * RtoC e + RtoC m12 * RtoC v)%C in
  let W2 e v := (RtoC m21 * RtoC e + (RtoC m22 - l1) * RtoC v)%C in
  W1 e' v' = (l2 * W1 e v + W1 p q)%C
  /\ W2 e' v' = (l2 * W2 e v + W2 p q)%C
  /\ RtoC e' = (l1 * RtoC e + (W1 e v + RtoC p))%C
  /\ RtoC v' = (l1 * RtoC v + (W2 e v + RtoC q))%C.
Proof.
  intros e' v' W1 W2. unfold W1, W2, e', v'.
  assert (Ht := Htr). assert (Hd := Hdet).
  rewrite RtoC_plus in Ht. rewrite RtoC_minus, !RtoC_mult in Hd.
  rewrite !RtoC_plus, !RtoC_mult.
  set (c11 := RtoC m11) in *. set (c12 := RtoC m12) in *. set (c21 := RtoC m21) in *.
  set (c22 := RtoC m22) in *. set (ce := RtoC e). set (cv := RtoC v). set (cp := RtoC p).
  set (cq := RtoC q). clearbody c11 c12 c21 c22 ce cv cp cq. clear Htr Hdet W1 W2 e' v'.
  assert (E2 : l2 = (c11 + c22 - l1)%C) by (rewrite <- Ht; ring).
  rewrite E2 in Hd |- *.
  assert (E : (c12 * c21 = c11 * c22 - l1 * (c11 + c22 - l1))%C) by (rewrite Hd; ring).
  repeat split; try ring.
  - transitivity (((c11 - l1) * c11 + c12 * c21) * ce + (c11 - l1 + c22) * c12 * cv
      + ((c11 - l1) * cp + c12 * cq))%C; [ring|]. rewrite E. ring.
  - transitivity (c21 * (c11 + c22 - l1) * ce + (c12 * c21 + (c22 - l1) * c22) * cv
      + (c21 * cp + (c22 - l1) * cq))%C; [ring|]. rewrite E. ring.
Qed.

Lemma two_vanish (e v p q : nat -> R) :
  (forall k, e (S k) = m11 * e k + m12 * v k + p k) ->
  (forall k, v (S k) = m21 * e k + m22 * v k + q k) ->
  vanishes p -> vanishes q -> Cmod l1 < 1 -> Cmod l2 < 1 -> vanishes e /\ vanishes v.
Proof.
  intros He Hv Hp Hq H1 H2.
  apply cvanishes_real in Hp. apply cvanishes_real in Hq.
  set (W1 := fun e v => ((RtoC m11 - l1) * RtoC e + RtoC m12 * RtoC v)%C).
  set (W2 := fun e v => (RtoC m21 * RtoC e + (RtoC m22 - l1) * RtoC v)%C).
  assert (HW1 : cvanishes (fun k => W1 (e k) (v k))).
  { apply (ccontraction _ (fun k => W1 (p k) (q k)) l2); auto.
    - intros k. rewrite He, Hv. apply (triangular (e k) (v k) (p k) (q k)).
    - apply cvanishes_plus; now apply cvanishes_scal. }
  assert (HW2 : cvanishes (fun k => W2 (e k) (v k))).
  { apply (ccontraction _ (fun k => W2 (p k) (q k)) l2); auto.
    - intros k. rewrite He, Hv. apply (triangular (e k) (v k) (p k) (q k)).
    - apply cvanishes_plus; now apply cvanishes_scal. }
  split; apply cvanishes_real.
  - apply (ccontraction _ (fun k => (W1 (e k) (v k) + RtoC (p k))%C) l1); auto.
    + intros k. rewrite He at 1. apply (triangular (e k) (v k) (p k) (q k)).
    + now apply cvanishes_plus.
  - apply (ccontraction _ (fun k => (W2 (e k) (v k) + RtoC (q k))%C) l1); auto.
    + intros k. rewrite Hv at 1. apply (triangular (e k) (v k) (p k) (q k)).
    + now apply cvanishes_plus.
Qed.

(** Without input: [W2] is multiplied by [l2] in every step. *)
Lemma second_shrinks (e v : nat -> R) :
  (forall k, e (S k) = m11 * e k + m12 * v k) ->
  (forall k, v (S k) = m21 * e k + m22 * v k) ->
  e 0%nat <> 0 -> v 0%nat = 0 -> m21 <> 0 ->
  (forall eps, 0 < eps -> exists j, Rabs (e j) < eps /\ Rabs (v j) < eps) -> Cmod l2 < 1.
Proof.
  intros He Hv H0 Hv0 Hm Hsmall.
  set (W2 := fun e v => (RtoC m21 * RtoC e + (RtoC m22 - l1) * RtoC v)%C).
  assert (HW : forall k, Cmod (W2 (e k) (v k)) = Cmod l2 ^ k * Cmod (W2 (e 0%nat) (v 0%nat))).
  { induction k as [|k IH]; [simpl; ring|].
    replace (W2 (e (S k)) (v (S k))) with (l2 * W2 (e k) (v k))%C.
    - rewrite Cmod_mult, IH. simpl. ring.
    - pose proof (proj1 (proj2 (triangular (e k) (v k) 0 0))) as T. cbv zeta in T.
      rewrite !Rplus_0_r in T. rewrite <- He, <- Hv in T. unfold W2. rewrite T. ring. }
  destruct (Rlt_le_dec (Cmod l2) 1) as [|Hge]; [auto|exfalso].
  set (w := Cmod (W2 (e 0%nat) (v 0%nat))) in *.
  assert (Hw : 0 < w).
  { unfold w, W2. rewrite Hv0. replace (RtoC m21 * RtoC (e 0%nat) + (RtoC m22 - l1) * RtoC 0)%C
      with (RtoC (m21 * e 0%nat)) by (rewrite RtoC_mult; ring).
    rewrite Cmod_R. apply Rabs_pos_lt. now apply Rmult_integral_contrapositive_currified. }
  set (L := Rabs m21 + Cmod (RtoC m22 - l1)%C).
  assert (HL : 0 <= L) by (unfold L; pose proof (Rabs_pos m21); pose proof (Cmod_ge_0 (RtoC m22 - l1)%C); lra).
  destruct (Hsmall (w / (L + 1))) as (j & Hej & Hvj); [apply Rdiv_lt_0_compat; lra|].
  assert (HWj : Cmod (W2 (e j) (v j)) < w).
  { unfold W2. eapply Rle_lt_trans; [apply Cmod_triangle|]. rewrite !Cmod_mult, !Cmod_R.
    apply Rle_lt_trans with (L * (w / (L + 1))).
    - unfold L at 1. rewrite Rmult_plus_distr_r.
      apply Rplus_le_compat; apply Rmult_le_compat_l; try lra; [apply Rabs_pos|apply Cmod_ge_0].
    - apply Rmult_lt_reg_r with (L + 1); [lra|].
      replace (L * (w / (L + 1)) * (L + 1)) with (L * w) by (field; lra). nra. }
  rewrite HW in HWj. pose proof (pow_R1_Rle (Cmod l2) j Hge). nra.
Qed.
End Two.

(** ** Roots of quadratic equations *)
(** X^2 - t X + p has two (complex) roots. *)
Lemma quadratic_roots (t p : R) : exists l1 l2 : C,
  (l1 + l2 = RtoC t)%C /\ (l1 * l2 = RtoC p)%C.
Proof.
  destruct (Rle_lt_dec (4 * p) (t ^ 2)) as [H|H].
  - set (s := sqrt (t ^ 2 - 4 * p)).
    assert (Hs : s * s = t ^ 2 - 4 * p) by (apply sqrt_sqrt; lra).
    exists (RtoC ((t + s) / 2)), (RtoC ((t - s) / 2)). rewrite <- RtoC_plus, <- RtoC_mult.
    split; f_equal; [field|]. replace p with ((t ^ 2 - s * s) / 4) by lra. field.
  - set (s := sqrt (4 * p - t ^ 2)).
    assert (Hs : s * s = 4 * p - t ^ 2) by (apply sqrt_sqrt; lra).
    exists (t / 2, s / 2), (t / 2, - (s / 2)). unfold Cplus, Cmult, RtoC. cbn [fst snd].
    split; f_equal; try field.
    replace p with ((t ^ 2 + s * s) / 4) by lra. field.
Qed.

Lemma root_of (t p : R) (l1 l2 x : C) :
  (l1 + l2 = RtoC t)%C -> (l1 * l2 = RtoC p)%C ->
  ((x * x - RtoC t * x + RtoC p = 0)%C <-> x = l1 \/ x = l2).
Proof.
  intros Ht Hp. rewrite <- Ht, <- Hp. split.
  - intros H. assert (E : ((x - l1) * (x - l2) = 0)%C) by (rewrite <- H; ring).
    destruct (Ceq_dec x l1) as [|N1]; [auto|]. destruct (Ceq_dec x l2) as [|N2]; [auto|].
    exfalso. apply (Cmult_neq_0 (x - l1)%C (x - l2)%C); auto; now apply Cminus_eq_contra.
  - intros [-> | ->]; ring.
Qed.

(** Both roots lie inside the unit circle iff |p| < 1 and |t| < 1 + p. *)
Lemma roots_inside (t p : R) (l1 l2 : C) :
  (l1 + l2 = RtoC t)%C -> (l1 * l2 = RtoC p)%C ->
  (Cmod l1 < 1 /\ Cmod l2 < 1 <-> p < 1 /\ Rabs t < 1 + p).
Proof.
  intros Ht Hp. destruct l1 as [a b], l2 as [c d].
  unfold Cplus, Cmult, RtoC in Ht, Hp. cbn [fst snd] in Ht, Hp.
  injection Ht as Ht Hb. injection Hp as Hp Hi.
  assert (d = - b) by lra. subst d. clear Hb.
  assert (Hm : forall x y, Cmod (x, y) < 1 <-> x ^ 2 + y ^ 2 < 1).
  { intros x y. unfold Cmod. cbn [fst snd]. split; intros H.
    - rewrite <- sqrt_1 in H. apply sqrt_lt_0_alt in H. exact H.
    - rewrite <- sqrt_1. apply sqrt_lt_1_alt. split; [nra|exact H]. }
  rewrite !Hm. assert (Hab : b * (c - a) = 0) by lra.
  apply Rmult_integral in Hab. destruct Hab as [-> |Hab].
  - (* real roots *)
    replace (a ^ 2 + 0 ^ 2) with (a ^ 2) by ring. replace (c ^ 2 + (- 0) ^ 2) with (c ^ 2) by ring.
    assert (Ep : p = a * c) by lra. assert (Et : t = a + c) by lra. subst p t. clear Hi.
    split.
    + intros [Ha Hc]. assert (-1 < a < 1) by nra. assert (-1 < c < 1) by nra.
      split; [nra|]. apply Rabs_def1; nra.
    + intros [H1 H2]. apply Rabs_def2 in H2. destruct H2 as [H2 H3].
      assert (0 < (1 - a) * (1 - c)) by nra. assert (0 < (1 + a) * (1 + c)) by nra.
      assert (Ha : -1 < a < 1).
      { destruct (Rlt_le_dec a 1) as [A|A].
        - destruct (Rlt_le_dec (-1) a) as [B|B]; [lra|].
          assert (c < -1) by nra. nra.
        - assert (1 < c) by nra. nra. }
      assert (-1 < c < 1) by nra. nra.
  - (* conjugate roots *)
    assert (c = a) by lra. subst c.
    replace ((- b) ^ 2) with (b ^ 2) by ring.
    assert (Ep : p = a ^ 2 + b ^ 2) by lra. assert (Et : t = 2 * a) by lra. subst p t. clear Hi Hab.
    split.
    + intros [H _]. split; [lra|]. assert (-1 < a < 1) by nra. apply Rabs_def1; nra.
    + intros [H _]. lra.
Qed.

(** ** The Runge-Kutta step *)
Section Rk4.
Variables h c k : R.
(** h A = [[0, h], [- h k, - h c]] satisfies Z^2 = - h c Z - h^2 k; the polynomial of
    the method in Z is  ra + rb Z. *)
Definition ra : R := 1 - h ^ 2 * k / 2 + h * c * (h ^ 2 * k) / 6
  - h ^ 2 * k * ((h * c) ^ 2 - h ^ 2 * k) / 24.
Definition rb : R := 1 - h * c / 2 + ((h * c) ^ 2 - h ^ 2 * k) / 6
  + (h * c * (h ^ 2 * k) + h * c * (h ^ 2 * k) - (h * c) ^ 3) / 24.

Lemma rk4_growth_rate (l : C) : rate c k l ->
  rk4_growth (RtoC h * l)%C = (RtoC ra + RtoC rb * (RtoC h * l))%C.
Proof.
  unfold rate. intros H.
  assert (E : (l * l = - (RtoC c * l) - RtoC k)%C).
  { replace (l * l)%C with ((l * l + RtoC c * l + RtoC k) - RtoC c * l - RtoC k)%C by ring.
    rewrite H. ring. }
  assert (E3 : (l * l * l = (RtoC c * RtoC c - RtoC k) * l + RtoC c * RtoC k)%C).
  { rewrite E. transitivity (- RtoC c * (l * l) - RtoC k * l)%C; [ring|]. rewrite E. ring. }
  assert (E4 : (l * l * l * l = (RtoC c * RtoC k + RtoC c * RtoC k - RtoC c * RtoC c * RtoC c) * l
     - RtoC k * (RtoC c * RtoC c - RtoC k))%C).
  { rewrite E3. transitivity ((RtoC c * RtoC c - RtoC k) * (l * l) + RtoC c * RtoC k * l)%C; [ring|].
    rewrite E. ring. }
  unfold rk4_growth.
  set (hh := RtoC h).
  transitivity (1 + hh * l + hh * hh * (l * l) / 2 + hh * hh * hh * (l * l * l) / 6
    + hh * hh * hh * hh * (l * l * l * l) / 24)%C.
  { field. repeat split; intros X; apply RtoC_inj in X; lra. }
  rewrite E4, E3, E. unfold ra, rb, Rdiv.
  cbn [pow]. rewrite ?RtoC_plus, ?RtoC_minus, ?RtoC_mult, ?RtoC_inv, ?Rmult_1_r by lra.
  repeat (rewrite ?RtoC_plus, ?RtoC_minus, ?RtoC_mult, ?Rmult_1_r; rewrite ?RtoC_inv by lra).
  fold hh. field. repeat split; intros X; apply RtoC_inj in X; lra.
Qed.
End Rk4.

(** The matrix ra + rb h A of the step has the growth factors of the rates as
    eigenvalues. *)
Lemma rk4_eigenvalues h c k mu1 mu2 :
  (mu1 + mu2 = RtoC (- c))%C -> (mu1 * mu2 = RtoC k)%C ->
  let a := ra h c k in let b := rb h c k in
  let l1 := rk4_growth (RtoC h * mu1)%C in let l2 := rk4_growth (RtoC h * mu2)%C in
  (l1 + l2 = RtoC (a + (a - b * h * c)))%C
  /\ (l1 * l2 = RtoC (a * (a - b * h * c) - (b * h) * (- b * h * k)))%C.
Proof.
  intros Hs Hp a b l1 l2.
  assert (Hr : forall x, x = mu1 \/ x = mu2 -> rate c k x).
  { intros x Hx. apply (root_of _ _ mu1 mu2 x Hs Hp) in Hx. unfold rate. rewrite <- Hx.
    rewrite RtoC_opp. ring. }
  unfold l1, l2. rewrite !(rk4_growth_rate h c k) by auto. fold a b.
  assert (Hc : (RtoC c = - (mu1 + mu2))%C) by (rewrite Hs, RtoC_opp; ring).
  repeat (rewrite ?RtoC_plus, ?RtoC_minus, ?RtoC_mult, ?RtoC_opp). rewrite !Hc, <- !Hp.
  split; ring.
Qed.

Lemma rk4_shrinks_roots h c k mu1 mu2 :
  (mu1 + mu2 = RtoC (- c))%C -> (mu1 * mu2 = RtoC k)%C ->
  (rk4_shrinks h c k <->
   Cmod (rk4_growth (RtoC h * mu1)%C) < 1 /\ Cmod (rk4_growth (RtoC h * mu2)%C) < 1).
Proof.
  intros Hs Hp.
  assert (Hr : forall x, rate c k x <-> x = mu1 \/ x = mu2).
  { intros x. rewrite <- (root_of _ _ mu1 mu2 x Hs Hp). unfold rate. rewrite RtoC_opp.
    split; intros H; rewrite <- H; ring. }
  split.
  - intros H. split; apply H; apply Hr; auto.
  - intros [H1 H2] l Hl. apply Hr in Hl. destruct Hl as [-> | ->]; auto.
Qed.

Lemma rk4_vanish h c k (e v p q : nat -> R) :
  rk4_shrinks h c k ->
  (forall j, e (S j) = ra h c k * e j + rb h c k * h * v j + p j) ->
  (forall j, v (S j) = - rb h c k * h * k * e j + (ra h c k - rb h c k * h * c) * v j + q j) ->
  vanishes p -> vanishes q -> vanishes e /\ vanishes v.
Proof.
  intros Hst He Hv Hp Hq.
  destruct (quadratic_roots (- c) k) as (mu1 & mu2 & Hs & Hpr).
  destruct (rk4_eigenvalues h c k mu1 mu2 Hs Hpr) as [Ht Hd].
  apply (rk4_shrinks_roots h c k mu1 mu2 Hs Hpr) in Hst. destruct Hst as [H1 H2].
  exact (two_vanish _ _ _ _ _ _ Ht Hd e v p q He Hv Hp Hq H1 H2).
Qed.

(** If the state of a spring that starts at rest away from its goal comes close to
    rest at the goal, then every motion shrinks. *)
Lemma rk4_must_shrink h c k (e v : nat -> R) :
  h <> 0 -> k <> 0 ->
  (forall j, e (S j) = ra h c k * e j + rb h c k * h * v j) ->
  (forall j, v (S j) = - rb h c k * h * k * e j + (ra h c k - rb h c k * h * c) * v j) ->
  e 0%nat <> 0 -> v 0%nat = 0 ->
  (forall eps, 0 < eps -> exists j, Rabs (e j) < eps /\ Rabs (v j) < eps) ->
  rk4_shrinks h c k.
Proof.
  intros Hh Hk He Hv H0 Hv0 Hsmall.
  destruct (quadratic_roots (- c) k) as (mu1 & mu2 & Hs & Hp).
  destruct (rk4_eigenvalues h c k mu1 mu2 Hs Hp) as [Ht Hd].
  apply (rk4_shrinks_roots h c k mu1 mu2 Hs Hp).
  set (l1 := rk4_growth (RtoC h * mu1)%C) in *. set (l2 := rk4_growth (RtoC h * mu2)%C) in *.
  destruct (Req_dec (rb h c k) 0) as [Hb|Hb].
  - (* the step is a multiplication *)
    assert (Hr : forall x, x = mu1 \/ x = mu2 -> rate c k x).
    { intros x Hx. apply (root_of _ _ mu1 mu2 x Hs Hp) in Hx. unfold rate. rewrite <- Hx.
      rewrite RtoC_opp. ring. }
    assert (E1 : l1 = RtoC (ra h c k)).
    { unfold l1. rewrite (rk4_growth_rate h c k) by auto. rewrite Hb. ring. }
    assert (E2 : l2 = RtoC (ra h c k)).
    { unfold l2. rewrite (rk4_growth_rate h c k) by auto. rewrite Hb. ring. }
    rewrite E1, E2, Cmod_R. clear E1 E2.
    assert (Hej : forall j, e j = ra h c k ^ j * e 0%nat).
    { induction j as [|j IH]; [simpl; ring|]. rewrite He, IH, Hb. simpl. ring. }
    assert (HA : Rabs (ra h c k) < 1); [|auto].
    destruct (Rlt_le_dec (Rabs (ra h c k)) 1) as [|Hge]; [auto|exfalso].
    destruct (Hsmall (Rabs (e 0%nat))) as (j & Hj & _); [now apply Rabs_pos_lt|].
    rewrite Hej, Rabs_mult, <- RPow_abs in Hj.
    pose proof (pow_R1_Rle _ j Hge). pose proof (Rabs_pos (e 0%nat)). nra.
  - assert (Hm : - rb h c k * h * k <> 0).
    { replace (- rb h c k * h * k) with (- (rb h c k * h * k)) by ring.
      apply Ropp_neq_0_compat. repeat apply Rmult_integral_contrapositive_currified; auto. }
    split.
    + rewrite Cplus_comm in Ht. rewrite Cmult_comm in Hd.
      exact (second_shrinks _ _ _ _ _ _ Ht Hd e v He Hv H0 Hv0 Hm Hsmall).
    + exact (second_shrinks _ _ _ _ _ _ Ht Hd e v He Hv H0 Hv0 Hm Hsmall).
Qed.

(** ** The Euler step *)
Lemma euler_shrinks_iff h c k : 0 < h -> 0 < c -> 0 < k ->
  (euler_shrinks h c k <-> h ^ 2 * k + 2 * (h * c) < 4).
Proof.
  intros Hh Hc Hk.
  destruct (quadratic_roots (2 - h * c - h ^ 2 * k) (1 - h * c)) as (l1 & l2 & Ht & Hp).
  assert (Hr : euler_shrinks h c k <-> Cmod l1 < 1 /\ Cmod l2 < 1).
  { unfold euler_shrinks, euler_growth. split.
    - intros H. split; apply H; apply (root_of _ _ l1 l2 _ Ht Hp); auto.
    - intros [H1 H2] x Hx. apply (root_of _ _ l1 l2 _ Ht Hp) in Hx. destruct Hx as [-> | ->]; auto. }
  rewrite Hr, (roots_inside _ _ _ _ Ht Hp).
  assert (0 < h * c) by nra. assert (0 < h ^ 2 * k) by (apply Rmult_lt_0_compat; nra).
  split.
  - intros [H1 H2]. apply Rabs_def2 in H2. lra.
  - intros H1. split; [lra|]. apply Rabs_def1; lra.
Qed.

Lemma euler_vanish h c k (e v u : nat -> R) :
  euler_shrinks h c k ->
  (forall j, v (S j) = v j + h * (- k * e j - c * v j + u j)) ->
  (forall j, e (S j) = e j + h * v (S j)) ->
  vanishes u -> vanishes e /\ vanishes v.
Proof.
  intros Hst Hv He Hu.
  destruct (quadratic_roots (2 - h * c - h ^ 2 * k) (1 - h * c)) as (l1 & l2 & Ht & Hp).
  apply (two_vanish (1 - h ^ 2 * k) (h * (1 - h * c)) (- h * k) (1 - h * c) l1 l2)
    with (p := fun j => h ^ 2 * u j) (q := fun j => h * u j).
  - rewrite Ht. f_equal. ring.
  - rewrite Hp. f_equal. ring.
  - intros j. rewrite He, Hv. ring.
  - intros j. rewrite Hv. ring.
  - now apply vanishes_scal.
  - now apply vanishes_scal.
  - apply Hst. unfold euler_growth. apply (root_of _ _ l1 l2 _ Ht Hp); auto.
  - apply Hst. unfold euler_growth. apply (root_of _ _ l1 l2 _ Ht Hp); auto.
Qed.

Lemma euler_must_shrink h c k (e v : nat -> R) :
  h <> 0 -> k <> 0 ->
  (forall j, v (S j) = v j + h * (- k * e j - c * v j)) ->
  (forall j, e (S j) = e j + h * v (S j)) ->
  e 0%nat <> 0 -> v 0%nat = 0 ->
  (forall eps, 0 < eps -> exists j, Rabs (e j) < eps /\ Rabs (v j) < eps) ->
  euler_shrinks h c k.
Proof.
  intros Hh Hk Hv He H0 Hv0 Hsmall.
  destruct (quadratic_roots (2 - h * c - h ^ 2 * k) (1 - h * c)) as (l1 & l2 & Ht & Hp).
  assert (Hm : - h * k <> 0).
  { replace (- h * k) with (- (h * k)) by ring. apply Ropp_neq_0_compat.
    now apply Rmult_integral_contrapositive_currified. }
  assert (He' : forall j, e (S j) = (1 - h ^ 2 * k) * e j + h * (1 - h * c) * v j)
    by (intros j; rewrite He, Hv; ring).
  assert (Hv' : forall j, v (S j) = - h * k * e j + (1 - h * c) * v j)
    by (intros j; rewrite Hv; ring).
  assert (Ht' : (l1 + l2 = RtoC (1 - h ^ 2 * k + (1 - h * c)))%C) by (rewrite Ht; f_equal; ring).
  assert (Hp' : (l1 * l2 = RtoC ((1 - h ^ 2 * k) * (1 - h * c) - h * (1 - h * c) * (- h * k)))%C)
    by (rewrite Hp; f_equal; ring).
  intros x Hx. apply (root_of _ _ l1 l2 _ Ht Hp) in Hx. destruct Hx as [-> | ->].
  - rewrite Cplus_comm in Ht'. rewrite Cmult_comm in Hp'.
    exact (second_shrinks _ _ _ _ _ _ Ht' Hp' e v He' Hv' H0 Hv0 Hm Hsmall).
  - exact (second_shrinks _ _ _ _ _ _ Ht' Hp' e v He' Hv' H0 Hv0 Hm Hsmall).
Qed.

(** ** The step functions *)
Definition damping (a : dmp_args) (d : nat) : R := a_alpha_y a d / (a_goal_t a - a_start_t a).
Definition stiffness (a : dmp_args) (d : nat) : R :=
  a_alpha_y a d * a_beta_y a d / (a_goal_t a - a_start_t a) ^ 2.

Lemma rk4_two a lt t y v d :
  free a -> a_goal_t a <> a_start_t a ->
  let tau := a_goal_t a - a_start_t a in
  let h := t - lt in
  let c := damping a d in let k := stiffness a d in
  let z := ft_phase (a_forcing_term a) in
  let u0 := disturbance a (z t) d / tau ^ 2 in
  let u1 := disturbance a (z (t + / 2 * h)) d / tau ^ 2 in
  let u2 := disturbance a (z (t + h)) d / tau ^ 2 in
  let e := y d - a_goal_y a d in
  let s' := dmp_step_rk4 a lt t (y, v) in
  fst s' d - a_goal_y a d = ra h c k * e + rb h c k * h * v d
    + (h ^ 2 / 6 * (1 - h * c / 2 + ((h * c) ^ 2 - h ^ 2 * k) / 4) * u0
       + h ^ 2 / 6 * (2 - h * c / 2) * u1 + 0 * u2)
  /\ snd s' d = - rb h c k * h * k * e + (ra h c k - rb h c k * h * c) * v d
    + (h / 6 * (1 - h * c + ((h * c) ^ 2 - h ^ 2 * k) / 2
                + (2 * (h * c) * (h ^ 2 * k) - (h * c) ^ 3) / 4) * u0
       + h / 6 * (4 - 2 * (h * c) + ((h * c) ^ 2 - h ^ 2 * k) / 2) * u1 + h / 6 * u2).
Proof.
  intros Hf Ht tau h c k z u0 u1 u2 e s'.
  unfold s'. rewrite rk4_as_rk4_of by apply Hf. fold h. fold z.
  assert (Hacc : forall Y V zz, acc_of a h Y V zz (ft_forces (a_forcing_term a) zz) d
     = - k * (Y d - a_goal_y a d) - c * V d + disturbance a zz d / tau ^ 2).
  { intros. rewrite acc_of_free by auto. reflexivity. }
  cbv zeta. unfold rk4_of. cbv zeta. cbn [fst snd].
  unfold vadd, vscale. repeat (rewrite !Hacc; cbv beta).
  fold u0 u1 u2. unfold e, ra, rb. clearbody u0 u1 u2 h k c.
  split; field.
Qed.

Lemma euler_two a c' h y v d :
  free a -> a_goal_t a <> a_start_t a ->
  let tau := a_goal_t a - a_start_t a in
  let c := damping a d in let k := stiffness a d in
  let u := disturbance a (ft_phase (a_forcing_term a) c') d / tau ^ 2 in
  let s' := euler_body a c' h (y, v) in
  snd s' d = v d + h * (- k * (y d - a_goal_y a d) - c * v d + u)
  /\ fst s' d - a_goal_y a d = (y d - a_goal_y a d) + h * snd s' d.
Proof.
  intros Hf Ht tau c k u s'.
  set (z := ft_phase (a_forcing_term a) c') in *.
  assert (Hacc : acc_of a h y v z (ft_forces (a_forcing_term a) z) d
     = - k * (y d - a_goal_y a d) - c * v d + disturbance a z d / tau ^ 2).
  { rewrite acc_of_free by auto. reflexivity. }
  unfold s', euler_body. cbv zeta. fold z.
  change (dmp_acc _ _ _ _ _ _ _ _ _ _ _ _ _)
    with (acc_of a h y v z (ft_forces (a_forcing_term a) z)).
  rewrite (proj1 Hf). cbn [fst snd]. unfold vadd, vscale. rewrite Hacc. fold u.
  split; ring.
Qed.

Lemma no_disturbance a z d : a_smooth_scaling a = false ->
  (forall i, (i < ft_n (a_forcing_term a))%nat -> ft_weights (a_forcing_term a) d i = 0) ->
  disturbance a z d = 0.
Proof.
  intros Hs Hw. unfold disturbance, ft_forces. rewrite Hs, rsum_0; [ring|].
  intros i Hi. rewrite Hw by auto. ring.
Qed.

(** *** Runge-Kutta *)
Lemma rk4_reaches a t0 dt x :
  free a -> a_goal_t a <> a_start_t a -> phase_ok (a_forcing_term a) -> 0 < dt ->
  forall d, rk4_shrinks dt (damping a d) (stiffness a d) ->
  forall s, s 0%nat = x ->
  (forall k, s (S k) = dmp_step_rk4 a (t0 + INR k * dt) (t0 + INR (S k) * dt) (s k)) ->
  vanishes (fun k => fst (s k) d - a_goal_y a d) /\ vanishes (fun k => snd (s k) d).
Proof.
  intros Hf Ht Hp Hdt d Hst s H0 Hs.
  set (tau := a_goal_t a - a_start_t a).
  destruct (disturbance_bound a d (proj1 Hp)) as [B [HB0 HB]].
  set (b := fun k => B / tau ^ 2 * ft_phase (a_forcing_term a) (t0 + INR k * dt)).
  assert (Hb : vanishes b).
  { apply vanishes_scal. now apply phase_grid_vanishes. }
  set (u := fun q k => disturbance a (ft_phase (a_forcing_term a)
     (t0 + INR (S k) * dt + q * dt)) d / tau ^ 2).
  assert (Hu : forall q, 0 <= q -> forall k, Rabs (u q k) <= b k).
  { intros q Hq k. unfold u, b. apply dist_input_bound; auto.
    rewrite S_INR. nra. }
  set (c := damping a d) in *. set (k := stiffness a d) in *.
  assert (Hrec : forall j,
    fst (s (S j)) d - a_goal_y a d
    = ra dt c k * (fst (s j) d - a_goal_y a d) + rb dt c k * dt * snd (s j) d
      + (dt ^ 2 / 6 * (1 - dt * c / 2 + ((dt * c) ^ 2 - dt ^ 2 * k) / 4) * u 0 j
       + dt ^ 2 / 6 * (2 - dt * c / 2) * u (/ 2)%R j + 0 * u 1 j)
    /\ snd (s (S j)) d = - rb dt c k * dt * k * (fst (s j) d - a_goal_y a d)
      + (ra dt c k - rb dt c k * dt * c) * snd (s j) d
      + (dt / 6 * (1 - dt * c + ((dt * c) ^ 2 - dt ^ 2 * k) / 2
                + (2 * (dt * c) * (dt ^ 2 * k) - (dt * c) ^ 3) / 4) * u 0 j
       + dt / 6 * (4 - 2 * (dt * c) + ((dt * c) ^ 2 - dt ^ 2 * k) / 2) * u (/ 2)%R j + dt / 6 * u 1 j)).
  { intros j. rewrite Hs. destruct (s j) as [y v] eqn:E. cbn [fst snd].
    pose proof (rk4_two a (t0 + INR j * dt) (t0 + INR (S j) * dt) y v d Hf Ht) as T.
    cbv zeta in T. fold tau c k in T.
    replace (t0 + INR (S j) * dt - (t0 + INR j * dt)) with dt in T by (rewrite S_INR; ring).
    unfold u. replace (t0 + INR (S j) * dt + 0 * dt) with (t0 + INR (S j) * dt) by ring.
    replace (t0 + INR (S j) * dt + 1 * dt) with (t0 + INR (S j) * dt + dt) by ring.
    exact T. }
  apply (rk4_vanish dt c k) with (2 := fun j => proj1 (Hrec j)) (3 := fun j => proj2 (Hrec j)); auto.
  - apply (vanishes_bounded_comb _ _ _ (u 0) (u (/ 2)) (u 1) b); auto; apply Hu; lra.
  - apply (vanishes_bounded_comb _ _ _ (u 0) (u (/ 2)) (u 1) b); auto; apply Hu; lra.
Qed.

Lemma rk4_necessary a t0 dt x :
  free a -> a_goal_t a <> a_start_t a -> 0 < dt -> a_smooth_scaling a = false ->
  forall d, (forall i, (i < ft_n (a_forcing_term a))%nat -> ft_weights (a_forcing_term a) d i = 0) ->
  stiffness a d <> 0 -> fst x d <> a_goal_y a d -> snd x d = 0 ->
  forall s, s 0%nat = x ->
  (forall k, s (S k) = dmp_step_rk4 a (t0 + INR k * dt) (t0 + INR (S k) * dt) (s k)) ->
  (forall eps, 0 < eps -> exists j, Rabs (fst (s j) d - a_goal_y a d) < eps /\ Rabs (snd (s j) d) < eps) ->
  rk4_shrinks dt (damping a d) (stiffness a d).
Proof.
  intros Hf Ht Hdt Hsm d Hw Hk Hx Hv s H0 Hs Hsmall.
  apply (rk4_must_shrink dt _ _ (fun j => fst (s j) d - a_goal_y a d) (fun j => snd (s j) d)); auto; try lra.
  - intros j. cbv beta. rewrite Hs. destruct (s j) as [y v].
    destruct (rk4_two a (t0 + INR j * dt) (t0 + INR (S j) * dt) y v d Hf Ht) as [T _].
    rewrite !no_disturbance in T by auto.
    replace (t0 + INR (S j) * dt - (t0 + INR j * dt)) with dt in T by (rewrite S_INR; ring).
    etransitivity; [exact T|]. cbn [fst snd]. field. lra.
  - intros j. cbv beta. rewrite Hs. destruct (s j) as [y v].
    destruct (rk4_two a (t0 + INR j * dt) (t0 + INR (S j) * dt) y v d Hf Ht) as [_ T].
    rewrite !no_disturbance in T by auto.
    replace (t0 + INR (S j) * dt - (t0 + INR j * dt)) with dt in T by (rewrite S_INR; ring).
    etransitivity; [exact T|]. cbn [fst snd]. field. lra.
  - rewrite H0. lra.
  - now rewrite H0.
Qed.

(** *** Euler *)
(** All sub-steps of a step of length [dt] have the length [h]. *)
Definition substep_length (dt int_dt h : R) : Prop :=
  (dt <= int_dt /\ h = dt) \/ (h = int_dt /\ exists n, dt = INR n * int_dt).

Lemma tiles_equal H : 0 < H -> forall n l lt t, t = lt + INR n * H -> tiles lt t H l ->
  l = map (fun i => (lt + INR i * H, H)) (seq 1 n).
Proof.
  intros HH. induction n as [|n IH]; intros l lt t Et Hl.
  - simpl in Et. destruct l as [|[c d] l]; [reflexivity|exfalso]. simpl in Hl.
    destruct Hl as (Hd & -> & _ & Hl). apply tiles_le in Hl. lra.
  - rewrite S_INR in Et. pose proof (pos_INR n) as Hn.
    destruct l as [|[c d] l]; simpl in Hl; [nra|].
    destruct Hl as (Hd & -> & Hf & Hl).
    assert (Hd' : d = H).
    { destruct l as [|p l]; [|apply Hf; discriminate]. simpl in Hl. nra. }
    subst d. rewrite (IH l (lt + H) t) by (auto; lra).
    cbn [seq map]. simpl (INR 1). rewrite Rmult_1_l. f_equal.
    rewrite <- (seq_shift n 1), map_map. apply map_ext. intros i. rewrite S_INR. f_equal. ring.
Qed.

Lemma tiles_single H lt t l : 0 < t - lt <= H -> tiles lt t H l -> l = [(t, t - lt)].
Proof.
  intros Hle Hl. destruct l as [|[c d] l]; simpl in Hl; [lra|].
  destruct Hl as (Hd & -> & Hf & Hl).
  destruct l as [|p l].
  - simpl in Hl. subst t. replace (lt + d - lt) with d by ring. reflexivity.
  - exfalso. rewrite Hf in * by discriminate. destruct p as [c d']. simpl in Hl.
    destruct Hl as (Hd' & -> & _ & Hl). apply tiles_le in Hl. lra.
Qed.

Lemma equal_tiles dt int_dt h : 0 < dt -> 0 < int_dt -> substep_length dt int_dt h ->
  exists n, (0 < n)%nat /\ dt = INR n * h /\ 0 < h
  /\ forall lt t l, t - lt = dt -> tiles lt t int_dt l ->
     l = map (fun i => (lt + INR i * h, h)) (seq 1 n).
Proof.
  intros Hdt Hi [(Hle & ->)|(-> & n & En)].
  - exists 1%nat. split; [lia|]. split; [simpl; ring|]. split; [lra|]. intros lt t l Et Hl.
    rewrite (tiles_single int_dt lt t l) by (auto; lra). simpl. rewrite Et.
    repeat f_equal. lra.
  - exists n. split; [destruct n; [simpl in En; lra|lia]|]. split; [exact En|]. split; [auto|].
    intros lt t l Et Hl. apply (tiles_equal int_dt Hi n l lt t); auto. lra.
Qed.

(** The states after every sub-step. *)
Fixpoint substates (a : dmp_args) (t0 h : R) (x : vec * vec) (j : nat) : vec * vec :=
  match j with
  | O => x
  | S j => euler_body a (t0 + INR (S j) * h) h (substates a t0 h x j)
  end.

Lemma substates_exec a t0 h x : forall n lt j,
  lt = t0 + INR j * h ->
  exec_substeps (euler_body a) (map (fun i => (lt + INR i * h, h)) (seq 1 n)) (substates a t0 h x j)
  = substates a t0 h x (j + n).
Proof.
  induction n as [|n IH]; intros lt j Hlt; [now rewrite Nat.add_0_r|].
  rewrite seq_S, map_app. unfold exec_substeps in *. rewrite fold_left_app, (IH lt j Hlt).
  cbn [map fold_left fst snd]. replace (j + S n)%nat with (S (j + n)) by lia. cbn [substates].
  f_equal. rewrite Hlt. replace (1 + n)%nat with (S n) by lia.
  replace (S (j + n)) with (j + S n)%nat by lia. rewrite plus_INR. ring.
Qed.

Lemma euler_subsequence a t0 dt h x : 0 < dt -> 0 < a_int_dt a -> substep_length dt (a_int_dt a) h ->
  forall s, s 0%nat = x ->
  (forall k, exists l, tiles (t0 + INR k * dt) (t0 + INR (S k) * dt) (a_int_dt a) l
        /\ s (S k) = exec_substeps (euler_body a) l (s k)) ->
  0 < h /\ exists n, (0 < n)%nat /\ forall k, s k = substates a t0 h x (k * n).
Proof.
  intros Hdt Hi Hh s H0 Hs.
  destruct (equal_tiles dt (a_int_dt a) h Hdt Hi Hh) as (n & Hn & En & Hh0 & Htl).
  split; [auto|]. exists n. split; [auto|]. induction k as [|k IH]; [exact H0|].
  destruct (Hs k) as (l & Hl & ->).
  apply Htl in Hl; [|rewrite S_INR; ring]. subst l. rewrite IH.
  rewrite (substates_exec a t0 h x n).
  - f_equal. lia.
  - rewrite mult_INR, En. ring.
Qed.

Lemma euler_reaches a t0 dt h x :
  free a -> a_goal_t a <> a_start_t a -> phase_ok (a_forcing_term a) -> 0 < dt -> 0 < a_int_dt a ->
  substep_length dt (a_int_dt a) h ->
  forall d, euler_shrinks h (damping a d) (stiffness a d) ->
  forall s, s 0%nat = x ->
  (forall k, exists l, tiles (t0 + INR k * dt) (t0 + INR (S k) * dt) (a_int_dt a) l
        /\ s (S k) = exec_substeps (euler_body a) l (s k)) ->
  vanishes (fun k => fst (s k) d - a_goal_y a d) /\ vanishes (fun k => snd (s k) d).
Proof.
  intros Hf Ht Hp Hdt Hi Hh d Hst s H0 Hs.
  destruct (euler_subsequence a t0 dt h x Hdt Hi Hh s H0 Hs) as (Hh0 & n & Hn & Es).
  set (tau := a_goal_t a - a_start_t a).
  set (r := substates a t0 h x) in *.
  destruct (disturbance_bound a d (proj1 Hp)) as [B [HB0 HB]].
  set (b := fun k => B / tau ^ 2 * ft_phase (a_forcing_term a) (t0 + INR k * h)).
  assert (Hb : vanishes b) by (apply vanishes_scal; now apply phase_grid_vanishes).
  set (u := fun j => disturbance a (ft_phase (a_forcing_term a) (t0 + INR (S j) * h)) d / tau ^ 2).
  assert (Hu : vanishes u).
  { apply (vanishes_le _ b); auto. intros j. unfold u, b. apply dist_input_bound; auto.
    rewrite S_INR. nra. }
  assert (Hr : vanishes (fun j => fst (r j) d - a_goal_y a d) /\ vanishes (fun j => snd (r j) d)).
  { apply (euler_vanish h (damping a d) (stiffness a d)) with (u := u); auto.
    - intros j. unfold r. cbn [substates]. destruct (substates a t0 h x j) as [y v].
      apply (euler_two a (t0 + INR (S j) * h) h y v d Hf Ht).
    - intros j. unfold r. cbn [substates]. destruct (substates a t0 h x j) as [y v].
      apply (euler_two a (t0 + INR (S j) * h) h y v d Hf Ht). }
  destruct Hr as [H1 H2].
  assert (Hsub : forall w : nat -> R, vanishes w -> vanishes (fun k => w (k * n)%nat)).
  { intros w Hw eps He. destruct (Hw eps He) as [N HN]. exists N. intros k Hk. apply HN. nia. }
  split.
  - apply (vanishes_ext (fun k => fst (r (k * n)%nat) d - a_goal_y a d)).
    + intros k. now rewrite Es.
    + apply (Hsub (fun j => fst (r j) d - a_goal_y a d) H1).
  - apply (vanishes_ext (fun k => snd (r (k * n)%nat) d)).
    + intros k. now rewrite Es.
    + apply (Hsub (fun j => snd (r j) d) H2).
Qed.

Lemma euler_necessary a t0 dt h x :
  free a -> a_goal_t a <> a_start_t a -> 0 < dt -> 0 < a_int_dt a -> substep_length dt (a_int_dt a) h ->
  a_smooth_scaling a = false ->
  forall d, (forall i, (i < ft_n (a_forcing_term a))%nat -> ft_weights (a_forcing_term a) d i = 0) ->
  stiffness a d <> 0 -> fst x d <> a_goal_y a d -> snd x d = 0 ->
  forall s, s 0%nat = x ->
  (forall k, exists l, tiles (t0 + INR k * dt) (t0 + INR (S k) * dt) (a_int_dt a) l
        /\ s (S k) = exec_substeps (euler_body a) l (s k)) ->
  (forall eps, 0 < eps -> exists j, Rabs (fst (s j) d - a_goal_y a d) < eps /\ Rabs (snd (s j) d) < eps) ->
  euler_shrinks h (damping a d) (stiffness a d).
Proof.
  intros Hf Ht Hdt Hi Hh Hsm d Hw Hk Hx Hv s H0 Hs Hsmall.
  destruct (euler_subsequence a t0 dt h x Hdt Hi Hh s H0 Hs) as (Hh0 & n & Hn & Es).
  set (r := substates a t0 h x) in *.
  apply (euler_must_shrink h _ _ (fun j => fst (r j) d - a_goal_y a d) (fun j => snd (r j) d)); auto; try lra.
  - intros j. unfold r. cbn [substates]. destruct (substates a t0 h x j) as [y v].
    destruct (euler_two a (t0 + INR (S j) * h) h y v d Hf Ht) as [T _].
    rewrite no_disturbance in T by auto. etransitivity; [exact T|]. cbn [fst snd]. field. lra.
  - intros j. unfold r. cbn [substates]. destruct (substates a t0 h x j) as [y v].
    apply (euler_two a (t0 + INR (S j) * h) h y v d Hf Ht).
  - unfold r. change (fst x d - a_goal_y a d <> 0). now apply Rminus_eq_contra.
  - intros eps He. destruct (Hsmall eps He) as (j & Hj). exists (j * n)%nat.
    rewrite <- Es. exact Hj.
Qed.
