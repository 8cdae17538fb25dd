(** C135: avoiding obstacles does not depend on the coordinate frame.
    Final statements. *)
From Coq Require Import Reals ZArith List Lia Lra Psatz FunctionalExtensionality.
From Verif Require Import M_Prelude M_Canonical M_Forcing M_Dmp M_Base M_Matrix M_DmpObject M_Ridge M_Quaternion M_Coupling
  S_Loops S_Dmp P_Loops P_Canonical P_Forcing P_DmpStep P_DmpScale P_DmpLinear P_Matrix P_Quaternion P_Cartesian
  P_DmpObject P_DmpAffine P_CoupledAffine Properties_Forcing Properties_Dmp Properties_DmpObject Properties_Equivariance
  Properties_Continuity Properties_Obstacle.
Import ListNotations.
Open Scope R_scope.
Set Bullet Behavior "Strict Subproofs".

(** ** Specification *)
(** The columns of [A] are perpendicular unit vectors: a rotation or a reflection. *)
Definition orthogonal (n : nat) (A : nat -> nat -> R) : Prop := forall e e', (e < n)%nat -> (e' < n)%nat ->
  rsum n (fun d => A d e * A d e') = if Nat.eqb e e' then 1 else 0.

(** [o'] is the DMP [o] described in another frame: start and goal are mapped as
    points, the weights as vectors; all dimensions of both have the same gains. *)
Record moved (n : nat) (A : nat -> nat -> R) (b : vec) (o o' : dmp) : Prop := {
  mv_start : forall d, (d < n)%nat ->
    aget (p_start_y (o_base o')) d = affine n A b (aget (p_start_y (o_base o))) d;
  mv_goal : forall d, (d < n)%nat ->
    aget (p_goal_y (o_base o')) d = affine n A b (aget (p_goal_y (o_base o))) d;
  mv_weights : forall d i, (d < n)%nat -> (i < o_n_weights_per_dim o)%nat ->
    ft_weights (o_forcing_term o') d i = affine n A vzero (fun e => ft_weights (o_forcing_term o) e i) d;
  mv_gains : forall d e, (d < n)%nat -> (e < n)%nat ->
    aget (o_alpha_y o') d = aget (o_alpha_y o) e /\ aget (o_beta_y o') d = aget (o_beta_y o) e }.

(** The coupling term [c'] is [c] in the other frame. *)
Definition moved_coupling (n : nat) (A : nat -> nat -> R) (b : vec) (c c' : coupling) : Prop :=
  forall y' y v' v,
  (forall d, (d < n)%nat -> y' d = affine n A b y d) -> (forall d, (d < n)%nat -> v' d = affine n A vzero v d) ->
  forall d, (d < n)%nat ->
    fst (c' y' v') d = affine n A vzero (fst (c y v)) d /\ snd (c' y' v') d = affine n A vzero (snd (c y v)) d.

(** The second run is the first one in the other frame. *)
Definition moved_runs (n : nat) (A : nat -> nat -> R) (b : vec) (r r' : res (list R * list vec)) : Prop :=
  match r, r' with
  | Ok (ts, ys), Ok (ts', ys') =>
      ts' = ts /\ length ys' = length ys
      /\ forall k, (k < length ys)%nat -> forall d, (d < n)%nat ->
         nth k ys' vzero d = affine n A b (nth k ys vzero) d
  | Err e, Err e' => e' = e
  | _, _ => False
  end.

(** ** Proofs *)
Lemma affine_drel n A u' u : (forall d, (d < n)%nat -> u' d = affine n A vzero u d) <->
  drel n A (fun d => (d < n)%nat) u' u.
Proof.
  unfold drel, lmap, affine, vzero. split; intros H d Hd; rewrite H by auto; ring.
Qed.

Lemma moved_coupling_crel n A b c c' : moved_coupling n A b c c' -> crel n A b (fun d => (d < n)%nat) c' c.
Proof.
  intros H Y' Y V' V HY HV. split; apply affine_drel; intros d Hd;
    (destruct (H Y' Y V' V HY (proj2 (affine_drel n A V' V) HV) d Hd); assumption).
Qed.

Lemma moved_run n A b o o' c c' fn run_t :
  reachable n o -> reachable n o' -> same_settings o o' -> 0 < o_int_dt o -> moved n A b o o' ->
  moved_coupling n A b c c' ->
  moved_runs n A b (dmp_open_loop run_t (Some c) fn o) (dmp_open_loop run_t (Some c') fn o').
Proof.
  intros Hr Hr' (S1 & S2 & S3 & S4 & S5 & S6) Hi [M1 M2 M3 M4] Hc.
  destruct fn as [fn|]; [|reflexivity].
  unfold dmp_open_loop. rewrite S1, S2.
  set (D := fun d : nat => (d < n)%nat).
  assert (Hz : drel n A D vzero vzero) by (intros d Hd; symmetry; apply lmap_vzero).
  assert (Ha : args_aff n A b D (uncoupled (open_loop_step_args o' (Some c'))) (uncoupled (open_loop_step_args o (Some c)))).
  { constructor; cbn; auto.
    - destruct (reachable_ft n o Hr) as (j1 & f1 & w1 & Ef1 & E1).
      destruct (reachable_ft n o' Hr') as (j & f & w & Ef & E).
      pose proof (forcing_term_init_n _ _ _ _ _ _ _ _ Ef1) as (A1 & A2 & A3 & A4 & A5 & _).
      pose proof (forcing_term_init_n _ _ _ _ _ _ _ _ Ef) as (B1 & B2 & B3 & B4 & B5 & _).
      rewrite S4, S6 in Ef.
      assert (P : ft_n (o_forcing_term o) = o_n_weights_per_dim o /\ ft_start_t (o_forcing_term o) = 0
                  /\ ft_alpha_z (o_forcing_term o) = - ln (1/100)) by (rewrite E1; cbn; auto).
      assert (Q : ft_n (o_forcing_term o') = o_n_weights_per_dim o' /\ ft_start_t (o_forcing_term o') = 0
                  /\ ft_alpha_z (o_forcing_term o') = - ln (1/100)) by (rewrite E; cbn; auto).
      destruct P as (P1 & P2 & P3), Q as (Q1 & Q2 & Q3).
      unfold ft_aff. rewrite P1, P2, P3, Q1, Q2, Q3, S4.
      split; [auto|]. split; [auto|]. split; [auto|]. split; [auto|]. split.
      + intros i Hii. rewrite E, E1. cbn.
        destruct (C02_fully_initialised _ _ _ _ _ _ _ _ _ _ _ Ef Ef1 i Hii). auto.
      + intros i Hii. apply affine_drel. intros d Hd. now apply M3.
    - intros d e Hd He _. now apply M4.
    - intros d e Hd He _. now apply M4. }
  set (rt := match run_t with Some x => x | None => o_execution_time o end).
  pose proof (open_loop_coupled_aff n A b D (open_loop_step_args o' (Some c')) (open_loop_step_args o (Some c)) c' c
    eq_refl eq_refl Ha (moved_coupling_crel _ _ _ _ _ Hc) fn 0 rt (o_dt o)
    (aget (p_start_y (o_base o')), vzero) (aget (p_start_y (o_base o)), vzero) Hi (conj M1 Hz)) as HO.
  cbn [fst snd] in HO.
  destruct (open_loop_run _ _ _ _ (aget (p_start_y (o_base o))) _) as [[ts l]|],
    (open_loop_run _ _ _ _ (aget (p_start_y (o_base o'))) _) as [[ts' l']|]; cbn in HO |- *; auto.
  destruct HO as [-> HF]. split; [reflexivity|]. clear -HF.
  rewrite !map_length. induction HF as [|x' x l' l [Hx _] _ [L IH]]; cbn; [split; [auto|intros; lia]|].
  split; [now rewrite L|]. intros [|k] Hk d Hd; [now apply Hx|]. apply IH; auto; lia.
Qed.

(** *** Imitation *)
Lemma moved_imitate n A b o o' junk junk' dm lam allow :
  reachable n o -> reachable n o' -> same_settings o o' -> 0 <= lam -> demonstrates n dm ->
  (forall d e, (d < n)%nat -> (e < n)%nat ->
    aget (o_alpha_y o') d = aget (o_alpha_y o) e /\ aget (o_beta_y o') d = aget (o_beta_y o) e) ->
  moved n A b (imitate junk dm lam allow o) (imitate junk' (mapped n n A b dm) lam allow o')
  /\ same_settings (imitate junk dm lam allow o) (imitate junk' (mapped n n A b dm) lam allow o').
Proof.
  intros Hr Hr' (S1 & S2 & S3 & S4 & S5 & S6) Hlam Hd Hg.
  assert (Hd' : demonstrates n (mapped n n A b dm)).
  { destruct Hd as (H1 & H2 & _). unfold demonstrates. cbn. auto. }
  destruct (imitated n o junk dm lam allow Hr Hlam Hd) as (f & df & _ & Edf & Ef & Hw & w & Eo).
  destruct (imitated n o' junk' _ lam allow Hr' Hlam Hd') as (f' & df' & _ & Edf' & Ef' & Hw' & w' & Eo').
  cbn [mapped d_n d_T d_Y] in *. rewrite S4, S5 in *.
  set (D := fun d : nat => (d < n)%nat).
  assert (Hal : grel n A D (aget (o_alpha_y o')) (aget (o_alpha_y o))) by (intros d e H1 H2 _; now apply Hg).
  assert (Hbe : grel n A D (aget (o_beta_y o')) (aget (o_beta_y o))) by (intros d e H1 H2 _; now apply Hg).
  assert (HY : forall t, (t < d_n dm)%nat -> prel n A b D (affine n A b (d_Y dm t)) (d_Y dm t)) by (intros t _ d _; reflexivity).
  pose proof (determine_forces_aff n A b D _ _ _ _ _ _ _ _ _ _ _ _ _ HY Hal Hbe Edf' Edf) as HF.
  assert (HX : forall i t, (i < o_n_weights_per_dim o)%nat -> (t < d_n dm)%nat ->
     design_matrix f' (d_T dm) (d_n dm - 1) i t = design_matrix f (d_T dm) (d_n dm - 1) i t).
  { intros i t Hii Ht.
    pose proof (forcing_term_init_n _ _ _ _ _ _ _ _ Ef) as (N1 & _ & _ & _ & Z1 & _).
    pose proof (forcing_term_init_n _ _ _ _ _ _ _ _ Ef') as (N2 & _ & _ & _ & Z2 & _).
    unfold design_matrix. rewrite Z1, Z2, N1, N2. f_equal. apply activations_ext; auto.
    intros i0 Hi0. destruct (C02_fully_initialised _ _ _ _ _ _ _ _ _ _ _ Ef' Ef i0 Hi0). auto. }
  split.
  - constructor.
    + intros d Hdn. rewrite Eo, Eo'. reflexivity.
    + intros d Hdn. rewrite Eo, Eo'. reflexivity.
    + intros d i Hdn Hi.
      assert (Hi2 : (i < o_n_weights_per_dim o)%nat).
      { replace (o_n_weights_per_dim (imitate junk dm lam allow o)) with (o_n_weights_per_dim o) in Hi
          by (rewrite Eo; reflexivity). exact Hi. }
      rewrite Hw' by auto.
      rewrite (ridge_aff n A D _ _ _ _ _ _ lam HX HF i d Hdn). unfold lmap, affine, vzero. rewrite Rplus_0_l.
      apply rsum_ext. intros e He. now rewrite Hw.
    + intros d e Hdn He. rewrite Eo, Eo'. cbn. now apply Hg.
  - rewrite Eo, Eo'. unfold same_settings. cbn. auto 10.
Qed.

(** *** The obstacle avoidance terms *)
(** The terms are built from inner products. *)
Lemma cross_cross d v : v3_cross (v3_cross d v) v = v3_sub (v3_scale (v3_dot d v) v) (v3_scale (v3_dot v v) d).
Proof. apply v3_eq; unfold v3_dot; simpl; ring. Qed.
Lemma cross_dot d v : v3_dot (v3_cross d v) (v3_cross d v) = v3_dot d d * v3_dot v v - v3_dot d v ^ 2.
Proof. unfold v3_dot. simpl. ring. Qed.
Lemma v3_norm_by_dot a : v3_norm a = sqrt (v3_dot a a).
Proof. unfold v3_norm, v3_dot. f_equal; ring. Qed.

Lemma aside_by_dot y v o : aside y v o <-> v3_dot (v3_sub o y) (v3_sub o y) * v3_dot v v - v3_dot (v3_sub o y) v ^ 2 <> 0.
Proof.
  unfold aside. rewrite <- cross_dot. set (c := v3_cross _ _). split; intros H E; apply H.
  - apply v3_norm_0. now rewrite v3_norm_by_dot, E, sqrt_0.
  - rewrite E. unfold v3_dot. simpl. ring.
Qed.

Lemma obstacle_moved (L : v3 -> v3) y v o y' v' o' gamma beta :
  (forall a b, v3_dot (L a) (L b) = v3_dot a b) ->
  (forall a k, L (v3_scale k a) = v3_scale k (L a)) -> (forall a b, L (v3_sub a b) = v3_sub (L a) (L b)) ->
  v3_sub o' y' = L (v3_sub o y) -> v' = L v ->
  obstacle_3d y' v' o' gamma beta = L (obstacle_3d y v o gamma beta).
Proof.
  intros Hdot Hs Hm Hd ->.
  assert (Ha : aside y' (L v) o' <-> aside y v o) by (rewrite !aside_by_dot, Hd, !Hdot; tauto).
  destruct (Req_EM_T (v3_dot (v3_sub o y) (v3_sub o y) * v3_dot v v - v3_dot (v3_sub o y) v ^ 2) 0) as [E|E].
  - assert (N : ~ aside y v o) by (rewrite aside_by_dot; tauto).
    rewrite (obstacle_3d_ahead y v), (obstacle_3d_ahead y' (L v)) by tauto. cbv zeta.
    rewrite Hd, !v3_norm_by_dot, !Hdot. now rewrite Hs.
  - assert (N : aside y v o) by (rewrite aside_by_dot; tauto).
    rewrite (obstacle_3d_aside y v), (obstacle_3d_aside y' (L v)) by tauto. cbv zeta.
    rewrite !cross_cross, !v3_norm_by_dot, !cross_dot, Hd, !Hdot. now rewrite Hs, (Hm (v3_scale _ _)), !Hs.
Qed.

Definition lin3 (A : nat -> nat -> R) (a : v3) : v3 := v3_of (lmap 3 A (vec_of_v3 a)).

Lemma lin3_dot A a b : orthogonal 3 A -> v3_dot (lin3 A a) (lin3 A b) = v3_dot a b.
Proof.
  intros H.
  pose proof (H 0%nat 0%nat ltac:(lia) ltac:(lia)) as H00. pose proof (H 0%nat 1%nat ltac:(lia) ltac:(lia)) as H01.
  pose proof (H 0%nat 2%nat ltac:(lia) ltac:(lia)) as H02. pose proof (H 1%nat 1%nat ltac:(lia) ltac:(lia)) as H11.
  pose proof (H 1%nat 2%nat ltac:(lia) ltac:(lia)) as H12. pose proof (H 2%nat 2%nat ltac:(lia) ltac:(lia)) as H22.
  cbn in H00, H01, H02, H11, H12, H22.
  destruct a as [a0 a1 a2], b as [b0 b1 b2]. unfold lin3, lmap, v3_dot. cbn.
  set (A00 := A 0%nat 0%nat) in *. set (A01 := A 0%nat 1%nat) in *. set (A02 := A 0%nat 2%nat) in *.
  set (A10 := A 1%nat 0%nat) in *. set (A11 := A 1%nat 1%nat) in *. set (A12 := A 1%nat 2%nat) in *.
  set (A20 := A 2%nat 0%nat) in *. set (A21 := A 2%nat 1%nat) in *. set (A22 := A 2%nat 2%nat) in *.
  transitivity (a0 * b0 * (0 + A00 * A00 + A10 * A10 + A20 * A20) + a1 * b1 * (0 + A01 * A01 + A11 * A11 + A21 * A21)
    + a2 * b2 * (0 + A02 * A02 + A12 * A12 + A22 * A22)
    + (a0 * b1 + a1 * b0) * (0 + A00 * A01 + A10 * A11 + A20 * A21)
    + (a0 * b2 + a2 * b0) * (0 + A00 * A02 + A10 * A12 + A20 * A22)
    + (a1 * b2 + a2 * b1) * (0 + A01 * A02 + A11 * A12 + A21 * A22)); [ring|].
  rewrite H00, H01, H02, H11, H12, H22. ring.
Qed.

Lemma lin3_scale A a k : lin3 A (v3_scale k a) = v3_scale k (lin3 A a).
Proof. destruct a. unfold lin3, lmap. apply v3_eq; cbn; ring. Qed.
Lemma lin3_sub A a b : lin3 A (v3_sub a b) = v3_sub (lin3 A a) (lin3 A b).
Proof. destruct a, b. unfold lin3, lmap. apply v3_eq; cbn; ring. Qed.

(** ** C135 *)
(** Every coupling term that is the same in both frames. *)
Theorem C135_coupling : forall n A b o o' c c' junk junk' dm lam allow fn run_t,
  reachable n o -> reachable n o' -> same_settings o o' -> 0 < o_int_dt o -> 0 <= lam -> demonstrates n dm ->
  (forall d e, (d < n)%nat -> (e < n)%nat ->
    aget (o_alpha_y o') d = aget (o_alpha_y o) e /\ aget (o_beta_y o') d = aget (o_beta_y o) e) ->
  moved_coupling n A b c c' ->
  moved_runs n A b (dmp_open_loop run_t (Some c) fn (imitate junk dm lam allow o))
    (dmp_open_loop run_t (Some c') fn (imitate junk' (mapped n n A b dm) lam allow o')).
Proof.
  intros n A b o o' c c' junk junk' dm lam allow fn run_t Hr Hr' HS Hi Hlam Hd Hg Hc.
  destruct (moved_imitate n A b o o' junk junk' dm lam allow Hr Hr' HS Hlam Hd Hg) as [HM HS'].
  apply moved_run; auto; try (now apply imitate_reachable).
  destruct (imitated n o junk dm lam allow Hr Hlam Hd) as (? & ? & _ & _ & _ & _ & w & ->). exact Hi.
Qed.

(** The obstacle avoidance terms are the same in all frames that differ by
    rotations, reflections and translations. *)
Theorem C135_obstacle_3d : forall A b obstacle gamma beta, orthogonal 3 A ->
  moved_coupling 3 A b (obstacle_3d_coupling obstacle gamma beta)
    (obstacle_3d_coupling (v3_of (affine 3 A b (vec_of_v3 obstacle))) gamma beta).
Proof.
  intros A b ob gamma beta HA y' y v' v Hy Hv.
  assert (E : obstacle_3d (v3_of y') (v3_of v') (v3_of (affine 3 A b (vec_of_v3 ob))) gamma beta
            = lin3 A (obstacle_3d (v3_of y) (v3_of v) ob gamma beta)).
  { apply obstacle_moved.
    - intros. now apply lin3_dot.
    - apply lin3_scale.
    - apply lin3_sub.
    - unfold lin3, lmap, v3_of at 2. destruct ob. apply v3_eq; cbn; rewrite Hy by lia; unfold affine; cbn; ring.
    - unfold lin3, lmap. apply v3_eq; cbn; rewrite Hv by lia; unfold affine, vzero; cbn; ring. }
  intros d Hd. unfold obstacle_3d_coupling. cbn [fst snd]. rewrite E.
  set (a := obstacle_3d _ _ _ _ _). split.
  - unfold affine, vzero. rewrite rsum_0; [ring|]. intros; ring.
  - destruct a. destruct d as [|[|[|d]]]; [| | |lia]; unfold lin3, lmap, affine, vzero; cbn; ring.
Qed.

Theorem C135_obstacle_2d : forall i i' A b obstacle gamma beta, orthogonal 2 A ->
  moved_coupling 2 A b (obstacle_2d_coupling i obstacle gamma beta)
    (obstacle_2d_coupling i' (affine 2 A b (vec2 (fst obstacle) (snd obstacle)) 0%nat,
                              affine 2 A b (vec2 (fst obstacle) (snd obstacle)) 1%nat) gamma beta).
Proof.
  intros i i' A b ob gamma beta HA y' y v' v Hy Hv.
  set (ob' := (_, _)).
  assert (Ei : forall i0 p q o0, obstacle_2d i0 p q o0 gamma beta = obstacle_2d_python p q o0 gamma beta).
  { intros [] p q o0; [reflexivity|]. symmetry. apply C45_agree. }
  set (A3 := fun d e : nat => if Nat.ltb d 2 then (if Nat.ltb e 2 then A d e else 0)
                              else if Nat.ltb e 2 then 0 else 1).
  assert (HA3 : orthogonal 3 A3).
  { pose proof (HA 0%nat 0%nat ltac:(lia) ltac:(lia)) as H00. pose proof (HA 0%nat 1%nat ltac:(lia) ltac:(lia)) as H01.
    pose proof (HA 1%nat 0%nat ltac:(lia) ltac:(lia)) as H10. pose proof (HA 1%nat 1%nat ltac:(lia) ltac:(lia)) as H11.
    cbn in H00, H01, H10, H11. unfold A3.
    intros [|[|[|e]]] [|[|[|e']]] He He'; try lia; cbn; lra. }
  pose proof (C45_planar (y 0%nat, y 1%nat) (v 0%nat, v 1%nat) ob gamma beta) as E.
  pose proof (C45_planar (y' 0%nat, y' 1%nat) (v' 0%nat, v' 1%nat) ob' gamma beta) as E'. cbn [fst snd] in E, E'.
  assert (EM : obstacle_3d (V3 (y' 0%nat) (y' 1%nat) 0) (V3 (v' 0%nat) (v' 1%nat) 0) (V3 (fst ob') (snd ob') 0) gamma beta
     = lin3 A3 (obstacle_3d (V3 (y 0%nat) (y 1%nat) 0) (V3 (v 0%nat) (v 1%nat) 0) (V3 (fst ob) (snd ob) 0) gamma beta)).
  { apply obstacle_moved.
    - intros. now apply lin3_dot.
    - apply lin3_scale.
    - apply lin3_sub.
    - unfold ob', lin3, lmap, A3. apply v3_eq; cbn; rewrite ?Hy by lia; unfold affine; cbn; ring.
    - unfold lin3, lmap, A3. apply v3_eq; cbn; rewrite ?Hv by lia; unfold affine, vzero; cbn; ring. }
  cbn [fst snd] in EM. unfold ob' in EM, E'. cbn [fst snd] in EM, E'. fold ob' in E'. rewrite E' in EM. rewrite E in EM.
  intros d Hd. unfold obstacle_2d_coupling. cbn [fst snd]. rewrite !Ei. split.
  - unfold affine, vzero. rewrite rsum_0; [ring|]. intros; ring.
  - apply (f_equal vec_of_v3) in EM. apply (f_equal (fun u => u d)) in EM.
    fold ob'. destruct (obstacle_2d_python (y' 0%nat, y' 1%nat) _ _ _ _) as [p' q'].
    destruct (obstacle_2d_python (y 0%nat, y 1%nat) _ _ _ _) as [p q].
    destruct d as [|[|d]]; [| |lia]; unfold lin3, lmap, A3 in EM; cbn in EM |- *; rewrite EM; unfold affine, vzero; cbn; ring.
Qed.

(** A movement that is learned from a demonstration and avoids an obstacle, and
    the movement that is learned from the same demonstration in another frame and
    avoids the obstacle in that frame. *)
Theorem C135_avoidance_3d : forall A b obstacle gamma beta o o' junk junk' dm lam allow fn run_t,
  orthogonal 3 A -> reachable 3 o -> reachable 3 o' -> same_settings o o' -> 0 < o_int_dt o -> 0 <= lam ->
  demonstrates 3 dm ->
  (forall d e, (d < 3)%nat -> (e < 3)%nat ->
    aget (o_alpha_y o') d = aget (o_alpha_y o) e /\ aget (o_beta_y o') d = aget (o_beta_y o) e) ->
  moved_runs 3 A b
    (dmp_open_loop run_t (Some (obstacle_3d_coupling obstacle gamma beta)) fn (imitate junk dm lam allow o))
    (dmp_open_loop run_t (Some (obstacle_3d_coupling (v3_of (affine 3 A b (vec_of_v3 obstacle))) gamma beta)) fn
       (imitate junk' (mapped 3 3 A b dm) lam allow o')).
Proof. intros. apply C135_coupling; auto. now apply C135_obstacle_3d. Qed.

Theorem C135_avoidance_2d : forall i i' A b obstacle gamma beta o o' junk junk' dm lam allow fn run_t,
  orthogonal 2 A -> reachable 2 o -> reachable 2 o' -> same_settings o o' -> 0 < o_int_dt o -> 0 <= lam ->
  demonstrates 2 dm ->
  (forall d e, (d < 2)%nat -> (e < 2)%nat ->
    aget (o_alpha_y o') d = aget (o_alpha_y o) e /\ aget (o_beta_y o') d = aget (o_beta_y o) e) ->
  moved_runs 2 A b
    (dmp_open_loop run_t (Some (obstacle_2d_coupling i obstacle gamma beta)) fn (imitate junk dm lam allow o))
    (dmp_open_loop run_t (Some (obstacle_2d_coupling i' (affine 2 A b (vec2 (fst obstacle) (snd obstacle)) 0%nat,
                              affine 2 A b (vec2 (fst obstacle) (snd obstacle)) 1%nat) gamma beta)) fn
       (imitate junk' (mapped 2 2 A b dm) lam allow o')).
Proof. intros. apply C135_coupling; auto. now apply C135_obstacle_2d. Qed.

(** A frame that is turned by 90 degrees about the third axis and shifted, two DMPs,
    a demonstration and a state for which the term is not zero. *)
Example C135_satisfiable :
  let A := fun d e : nat => match d, e with 0%nat, 1%nat => -1 | 1%nat, 0%nat => 1 | 2%nat, 2%nat => 1 | _, _ => 0 end in
  let b := fun d : nat => INR d in
  let obstacle := V3 1 2 3 in
  orthogonal 3 A
  /\ v3_of (affine 3 A b (vec_of_v3 obstacle)) = V3 (-2) 2 5
  /\ aside v3_zero (V3 1 0 0) obstacle
  /\ v3_dot (obstacle_3d v3_zero (V3 1 0 0) obstacle 1 1) obstacle < 0
  /\ exists o ts ys, reachable 3 o /\ same_settings o o /\ 0 < o_int_dt o
     /\ (forall d e, aget (o_alpha_y o) d = aget (o_alpha_y o) e /\ aget (o_beta_y o) d = aget (o_beta_y o) e)
     /\ let dm := {| d_n := 3; d_T := INR; d_rows := 3; d_dims := 3;
                     d_Y := fun t d => if Nat.eqb d 0 then INR t else INR t ^ 2 |} in
        demonstrates 3 dm
        /\ dmp_open_loop None (Some (obstacle_3d_coupling obstacle 1 1)) (Some RK4)
             (imitate (vzero, vzero) dm 0 false o) = Ok (ts, ys)
        /\ (1 < length ys)%nat.
Proof.
  intros A b ob.
  assert (Ha : aside v3_zero (V3 1 0 0) ob).
  { unfold aside, ob. intros H. apply (f_equal v3y) in H. cbn in H. lra. }
  split; [intros [|[|[|e]]] [|[|[|e']]] He He'; try lia; cbn; ring|].
  split; [unfold ob, affine, b; apply v3_eq; cbn; ring|]. split; [exact Ha|]. split.
  { pose proof (C44_3d v3_zero (V3 1 0 0) ob 1 1 Ha ltac:(lra)) as (_ & _ & _ & H).
    specialize (H ltac:(lra)). replace (v3_sub ob v3_zero) with ob in H; [exact H|].
    unfold ob. apply v3_eq; cbn; ring. }
  destruct (ex_new_ok 3 25 (25/4)) as (f & o & E & Ef & Eo).
  assert (Hr : reachable 3 o) by (eapply ex_reachable; eauto).
  set (dm := Build_demo 3 INR 3 3 (fun t d => if Nat.eqb d 0 then INR t else INR t ^ 2)).
  assert (Hd : demonstrates 3 dm) by (unfold demonstrates; cbn; repeat split; lra).
  destruct (imitated 3 o (vzero, vzero) dm 0 false Hr ltac:(lra) Hd) as (? & ? & _ & _ & _ & _ & w & EI).
  set (o2 := imitate (vzero, vzero) dm 0 false o) in *.
  assert (HO : exists ts ys, dmp_open_loop None (Some (obstacle_3d_coupling ob 1 1)) (Some RK4) o2 = Ok (ts, ys)
                 /\ (1 < length ys)%nat).
  { unfold dmp_open_loop.
    replace (o_execution_time o2) with 1 by (rewrite EI, Eo; reflexivity).
    replace (o_dt o2) with (1/100) by (rewrite EI, Eo; reflexivity).
    set (step := run_step_function _ _). set (y0 := aget (p_start_y (o_base o2))).
    assert (HT : exists ts l, open_loop_run step 0 1 (1/100) y0 vzero = Ok (ts, l)).
    { unfold open_loop_run.
      pose proof (arange_len_spec 0 (1 + 1/100) (1/100) ltac:(lra) ltac:(lra)) as [Hn _].
      destruct (arange 0 (1 + 1/100) (1/100)) as [|t0 ts] eqn:EA.
      - exfalso. apply (f_equal (@length R)) in EA. unfold arange in EA. rewrite map_length, seq_length in EA.
        cbn in EA. lia.
      - assert (HS : forall ts t s, exists l, run_steps step t ts s = Ok l).
        { induction ts0 as [|t' ts' IH]; intros t s; cbn [run_steps]; [eauto|].
          destruct (IH t' (dmp_step_rk4 (open_loop_step_args o2 (Some (obstacle_3d_coupling ob 1 1))) t t' s)) as [l El].
          unfold step at 1. cbn [run_step_function bind]. rewrite El. cbn [bind]. eauto. }
        destruct (HS ts t0 (y0, vzero)) as [l El]. rewrite El. cbn [bind]. eauto. }
    destruct HT as (ts & l & El). rewrite El. cbn [bind fst snd]. exists ts, (map fst l). split; [reflexivity|].
    assert (P : 0 < 1/100) by lra.
    destruct (C19_time_grid _ _ _ _ _ _ _ _ P El) as (L1 & L2 & L3 & L4 & _).
    rewrite map_length, L1. destruct ts as [|t0 [|t1 ts]]; cbn [length] in *; try lia.
    exfalso. specialize (L3 0%nat ltac:(lia)). cbn in L3, L4. lra. }
  destruct HO as (ts & ys & HO & HL).
  exists o, ts, ys. split; [exact Hr|]. split; [repeat split|]. split; [rewrite Eo; cbn; lra|].
  split; [intros d e; rewrite Eo; cbn; auto|]. split; [exact Hd|]. split; [exact HO|exact HL].
Qed.
