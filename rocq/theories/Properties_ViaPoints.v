(** C53: up to [n_weights_per_dim] distinct via-points are accepted. *)
From Coq Require Import Reals List Arith Lia Lra FinFun Permutation.
From Verif Require Import M_Prelude M_Base P_Loops M_Matrix P_Matrix M_DmpObject M_Ridge M_ProMP P_ProMP
  P_Conditioning Properties_ProMP Properties_Conditioning.
Import ListNotations.
Open Scope R_scope.
Set Bullet Behavior "Strict Subproofs".

Lemma exp_INR n x : exp (INR n * x) = exp x ^ n.
Proof.
  induction n as [|n IH]; [simpl; rewrite Rmult_0_l; apply exp_0|].
  rewrite S_INR, Rmult_plus_distr_r, Rmult_1_l, exp_plus, IH. simpl. ring.
Qed.

(** Equally spaced Gaussians are a geometric sequence in the index. *)
Definition ratio (N : nat) (s : R) : R := exp (s / ((INR N - 1) * rbf_h N (7/10))).

Lemma INR_ge_2 N : (2 <= N)%nat -> 1 < INR N.
Proof. intros H. apply (lt_INR 1). lia. Qed.

Lemma gauss_power N s k : (2 <= N)%nat -> (k < N)%nat ->
  gauss (rbf_h N (7/10)) (linspace01 N k) s
  = exp (- s ^ 2 / (2 * rbf_h N (7/10))) * exp (- (INR k / (INR N - 1)) ^ 2 / (2 * rbf_h N (7/10)))
    * ratio N s ^ k.
Proof.
  intros HN Hk. assert (H1 := INR_ge_2 N HN). assert (Hh := rbf_h_pos N ltac:(lia)).
  unfold gauss, ratio, linspace01. destruct (Nat.ltb_spec k N); [|lia].
  rewrite <- exp_INR, <- !exp_plus. f_equal. field. split; lra.
Qed.

Lemma ratio_injective N s t : (2 <= N)%nat -> ratio N s = ratio N t -> s = t.
Proof.
  intros HN E. assert (H1 := INR_ge_2 N HN). assert (Hh := rbf_h_pos N ltac:(lia)).
  apply exp_inv in E. apply (Rmult_eq_reg_r (/ ((INR N - 1) * rbf_h N (7/10)))); [exact E|].
  apply Rinv_neq_0_compat. apply Rgt_not_eq. apply Rmult_lt_0_compat; lra.
Qed.

(** Sum of the contributions of a list of times and coefficient vectors. *)
Definition span (D N : nat) (l : list (R * vec)) (i : nat) : R :=
  fold_right Rplus 0 (map (fun tz => mvec D (Psi D N (fst tz)) (snd tz) i) l).

Lemma fold_scale (A : Type) (f : A -> R) c l :
  fold_right Rplus 0 (map (fun x => c * f x) l) = c * fold_right Rplus 0 (map f l).
Proof. induction l as [|x l IH]; cbn [map fold_right]; [ring|]. rewrite IH. ring. Qed.
Lemma map_ext_sum (A : Type) (f g : A -> R) l : (forall x, In x l -> f x = g x) ->
  fold_right Rplus 0 (map f l) = fold_right Rplus 0 (map g l).
Proof. intros H. f_equal. apply map_ext_in. exact H. Qed.

(** Activations at different times are linearly independent. *)
Lemma activations_independent D N s z l : NoDup (s :: map fst l) -> (length l < N)%nat ->
  (forall i, (i < D * N)%nat -> mvec D (Psi D N s) z i = span D N l i) ->
  forall d, (d < D)%nat -> z d = 0.
Proof.
  intros Hd Hl H d Hdd. destruct (le_lt_dec 2 N) as [HN|HN].
  - assert (exists a : R -> R, forall t, In t (s :: map fst l) -> 0 < a t /\ forall k, (k < N)%nat ->
       basis (promp_new D N) t k = a t * exp (- (INR k / (INR N - 1)) ^ 2 / (2 * rbf_h N (7/10))) * ratio N t ^ k)
      as [a Ha].
    { exists (fun t => exp (- t ^ 2 / (2 * rbf_h N (7/10)))
                 / rsum N (fun k => gauss (rbf_h N (7/10)) (pm_centers (promp_new D N) k) t)).
      intros t _. assert (P : 0 < rsum N (fun k => gauss (rbf_h N (7/10)) (pm_centers (promp_new D N) k) t))
        by (apply gauss_sum_pos; lia).
      split; [apply Rdiv_lt_0_compat; [apply exp_pos|exact P]|].
      intros k Hk. unfold basis. cbn [pm_n_weights_per_dim promp_new].
      set (S := rsum N _) in *.
      assert (E : pm_centers (promp_new D N) k = linspace01 N k).
      { cbn [pm_centers promp_new]. destruct (Nat.eqb_spec N 1); [lia|reflexivity]. }
      rewrite E, gauss_power by auto. field. lra. }
    assert (Z := vandermonde ((ratio N s, a s * z d) :: map (fun tz => (ratio N (fst tz), - (a (fst tz) * snd tz d))) l)).
    assert (Z0 : a s * z d = 0).
    { apply (Z) with (ua := (ratio N s, a s * z d)); [| |now left].
      - cbn [map fst]. rewrite map_map. cbn [fst]. apply NoDup_cons_iff in Hd. destruct Hd as [H1 H2].
        rewrite <- (map_map fst (ratio N)).
        constructor.
        + intros Hin. apply in_map_iff in Hin. destruct Hin as (t & E & Hin). apply H1.
          apply ratio_injective in E; auto. now subst.
        + apply Injective_map_NoDup; [|exact H2]. intros x y E. now apply (ratio_injective N).
      - cbn [length]. rewrite map_length. intros k Hk.
        assert (Hk' : (k < N)%nat) by (eapply Nat.lt_le_trans; [exact Hk|exact Hl]).
        assert (HdN : ((d + 1) * N <= D * N)%nat) by (apply Nat.mul_le_mono_r; lia).
        specialize (H (d * N + k)%nat ltac:(lia)). rewrite Psi_vec in H by lia.
        unfold span in H. rewrite (map_ext_sum _ _ (fun tz => basis (promp_new D N) (fst tz) k * snd tz d)) in H
          by (intros; apply Psi_vec; lia).
        set (b := exp (- (INR k / (INR N - 1)) ^ 2 / (2 * rbf_h N (7/10)))) in *.
        assert (Hb : 0 < b) by apply exp_pos.
        rewrite (proj2 (Ha s (or_introl eq_refl)) k) in H by lia. fold b in H.
        rewrite (map_ext_sum _ _ (fun tz => (- b) * (- (a (fst tz) * snd tz d) * ratio N (fst tz) ^ k))) in H.
        2:{ intros tz Hin. rewrite (proj2 (Ha (fst tz) (or_intror (in_map fst _ _ Hin))) k) by lia. fold b. ring. }
        rewrite fold_scale in H. cbn [map fold_right fst snd]. rewrite map_map. cbn [fst snd].
        apply (Rmult_eq_reg_l b); [|lra]. rewrite Rmult_0_r.
        set (X := fold_right Rplus 0 _) in *.
        transitivity (a s * b * ratio N s ^ k * z d - (- b * X)); [ring|]. rewrite H. ring. }
    apply Rmult_integral in Z0. destruct Z0 as [Z0|Z0]; auto.
    exfalso. assert (P := proj1 (Ha s (or_introl eq_refl))). lra.
  - destruct l; [|cbn [length] in Hl; lia]. assert (N = 1)%nat by (cbn [length] in Hl; lia). subst N.
    specialize (H (d * 1 + 0)%nat ltac:(lia)). rewrite Psi_vec in H by lia. unfold span in H. cbn in H.
    apply Rmult_integral in H. destruct H as [H|H]; auto.
    assert (P := basis_pos (promp_new D 1) s 0 Nat.lt_0_1). exfalso. lra.
Qed.

(** The kernel of the covariance is spanned by the conditions so far. *)
Definition kernel_spanned (D N : nat) (done : list R) (o : promp) : Prop :=
  forall x, (forall i, (i < D * N)%nat -> mvec (D * N) (pm_weight_cov o) x i = 0) ->
  exists l, map fst l = done /\ forall i, (i < D * N)%nat -> x i = span D N l i.

Lemma via_points_accept D N y c : exact_cov c -> forall ts idx o done,
  is_promp D N o -> sized (D * N) (D * N) (pm_weight_cov o) -> psd (D * N) (pm_weight_cov o) ->
  kernel_spanned D N done o -> NoDup (ts ++ done) -> (length ts + length done <= N)%nat ->
  exists o', via_points_loop idx ts y c o = Ok o'.
Proof.
  intros Hc. induction ts as [|t ts IH]; intros idx o done Ho HS HP HK Hnd Hlen; cbn [via_points_loop].
  - eauto.
  - set (yc := match c with None => RowCov vzero | Some c => RowCov (c idx) end).
    assert (Hyc : no_noise yc) by (unfold yc; destruct c; cbn in *; auto).
    assert (Z : psd D mzero).
    { split; [intros i j; reflexivity|]. intros x. apply rsum_nonneg. intros i _.
      unfold mvec, mzero. rewrite rsum_0 by (intros; ring). lra. }
    cbn [app length] in *. apply NoDup_cons_iff in Hnd. destruct Hnd as [Hnot Hnd].
    assert (E1 : t / 1 = t) by field.
    destruct (prior_inverse (D * N) D (pm_weight_cov o) (Psi D N (t / 1)) mzero (sized_mzero D D) HS (sized_Psi D N _) Z HP) as (G & HG).
    { intros z Hz. destruct (HK _ Hz) as (l & Hl & Hx). rewrite E1 in Hx.
      apply (activations_independent D N t z l).
      - constructor; [|].
        + rewrite Hl. intros Hin. apply Hnot. apply in_or_app. now right.
        + rewrite Hl. clear - Hnd. induction ts as [|a ts IHts]; [exact Hnd|].
          cbn [app] in Hnd. apply NoDup_cons_iff in Hnd. apply IHts, Hnd.
      - rewrite <- (map_length fst), Hl. lia.
      - exact Hx. }
    rewrite (condition_eq D N) by (auto using R1_neq_R0).
    rewrite observation_no_noise, (np_linalg_inv_ok _ _ _ HG) by auto. cbn [bind].
    set (o1 := posterior D N (t / 1) (y idx) o G).
    apply (IH (S idx) o1 (t :: done)).
    + eexists _, _. reflexivity.
    + apply (sized_conditioned (D * N) D _ _ mzero); auto. apply sized_Psi.
    + apply (conditioned_psd (D * N) D _ _ mzero); auto.
    + intros x Hx. destruct (conditioned_kernel (D * N) D _ _ G x Hx) as (z & Hz).
      destruct (HK _ Hz) as (l & Hl & Hxl). exists ((t, z) :: l). split; [cbn; now rewrite Hl|].
      intros i Hi. unfold span in *. cbn [map fold_right fst snd]. rewrite <- Hxl by auto. unfold vsub.
      rewrite E1. ring.
    + assert (Hp : Permutation.Permutation (t :: ts ++ done) (ts ++ t :: done)) by apply Permutation.Permutation_middle.
      apply (Permutation.Permutation_NoDup Hp). now constructor.
    + cbn [length]. lia.
Qed.

(** Any number of distinct via-points up to the number of weights per dimension
    is accepted when the prior covariance is positive definite. *)
Theorem C53_accepted : forall D N o ts y c,
  is_promp D N o -> sized (D * N) (D * N) (pm_weight_cov o) -> covariance (D * N) (pm_weight_cov o) ->
  positive_definite (D * N) (pm_weight_cov o) -> exact_cov c ->
  NoDup ts -> (length ts <= N)%nat ->
  exists o', via_points o ts y c = Ok o'.
Proof.
  intros D N o ts y c Ho HS HC HP Hc Hnd Hlen.
  apply (via_points_accept D N y c Hc ts 0 o []); auto.
  - now apply covariance_psd.
  - intros x Hx. exists []. split; [reflexivity|]. intros i Hi. unfold span. cbn.
    now apply (positive_definite_kernel (D * N) (pm_weight_cov o)).
  - now rewrite app_nil_r.
  - cbn [length]. lia.
Qed.

(** The same time twice is rejected: after the first condition there is no
    variance left. *)
Theorem C53_repeated_time_rejected : forall D N o t y c, (0 < D)%nat ->
  is_promp D N o -> sized (D * N) (D * N) (pm_weight_cov o) -> exact_cov c ->
  exists e, via_points o [t; t] y c = Err e.
Proof.
  intros D N o t y c HD Ho HS Hc. unfold via_points. cbn [via_points_loop].
  set (yc := fun idx => match c with None => RowCov vzero | Some c => RowCov (c idx) end).
  assert (Hyc : forall i, no_noise (yc i)) by (intros i; unfold yc; destruct c; cbn in *; auto).
  fold (yc 0%nat). destruct (condition_position o (y 0%nat) (yc 0%nat) t 1) as [o1|e] eqn:E1; [|cbn [bind]; eauto].
  cbn [bind]. fold (yc 1%nat).
  destruct (condition_position o1 (y 1%nat) (yc 1%nat) t 1) as [o2|e] eqn:E2; [|cbn [bind]; eauto].
  exfalso.
  assert (Ho1 := C52_shape D N o _ _ _ _ _ Ho R1_neq_R0 E1).
  destruct (condition_ok D N o _ _ _ _ _ Ho R1_neq_R0 E1) as (G & HG & Eo1).
  destruct (condition_ok D N o1 _ _ _ _ _ Ho1 R1_neq_R0 E2) as (G' & HG' & _).
  rewrite observation_no_noise in HG, HG' by auto.
  destruct (posterior_exact D N (t / 1) (y 0%nat) o G HS HG) as [_ Z]. rewrite <- Eo1 in Z.
  destruct HG' as (_ & H1 & _). rewrite Z, mmul_mzero_l in H1.
  assert (E := f_equal (fun M : mat => M 0%nat 0%nat) H1). cbn beta in E.
  unfold mmul in E. rewrite rsum_0 in E by (intros; unfold madd, mzero; ring).
  unfold eye in E. cbn [Nat.eqb andb] in E. destruct (Nat.ltb_spec 0 D); [lra|lia].
Qed.

Example C53_satisfiable : exists o',
  via_points (promp_new 2 4) [0; 1/2; 1] (fun j d => INR j * (INR d + 1)) None = Ok o'.
Proof.
  apply (C53_accepted 2 4).
  - exists vzero, (eye 8). reflexivity.
  - apply sized_eye.
  - apply psd_covariance, psd_eye.
  - apply eye_positive_definite.
  - exact I.
  - repeat constructor; cbn; intuition lra.
  - cbn. lia.
Qed.
