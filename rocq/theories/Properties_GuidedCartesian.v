(** C111 for the positions of a CartesianDMP.  Final statements. *)
From Coq Require Import Reals List Lia Lra Psatz FunctionalExtensionality.
From Verif Require Import M_Prelude M_Canonical M_Forcing M_Dmp M_Base M_DmpObject M_Quaternion M_Cartesian M_Coupling
  S_Loops S_Dmp P_Loops P_Canonical P_Forcing P_DmpStep P_Converge P_Quaternion P_Cartesian P_DmpObject
  Properties_Forcing Properties_Dmp Properties_DmpObject Properties_Cartesian Properties_CartesianObject
  Properties_Goal Properties_Orientation Properties_Stability Properties_Feedback Properties_Coupled Properties_Guided.
Import ListNotations.
Open Scope R_scope.
Set Bullet Behavior "Strict Subproofs".

(** ** Specification *)
(** The gains of the positions and the duration of a CartesianDMP. *)
Definition cart_gains (alpha beta : nat -> R) (tau : R) (o : cart) : Prop :=
  k_execution_time o = tau /\
  forall d, (d < 3)%nat -> aget (k_alpha o) d = alpha d /\ aget (k_beta o) d = beta d.

(** The length of the integration steps of [fn]. *)
Definition cart_part (fn : step_function) (o : cart) : R :=
  match fn with RK4 | RK4_cython => k_dt o | Euler | Euler_cython => Rmin (k_dt o) (k_int_dt o) end.

(** The coupling term looks at the three coordinates of positions and velocities only. *)
Definition three_coordinates (c : coupling) : Prop := forall y y' v v',
  same3 y y' -> same3 v v' -> same3 (fst (c y v)) (fst (c y' v')) /\ same3 (snd (c y v)) (snd (c y' v')).

(** ** C111 *)
(** Whatever the orientation part of the object, of the state and of the coupling term
    are, the positions of a CartesianDMP come to rest at the goal. *)
Theorem C111_cartesian : forall alpha beta tau kap cb,
  0 < tau -> 0 <= kap -> 0 <= cb ->
  (forall d, (d < 3)%nat -> 0 < alpha d /\ 0 < beta d /\ kap < alpha d * tau) ->
  exists h0, 0 < h0 /\ forall o fn i c cq y yd,
  cart_reachable o -> cart_gains alpha beta tau o -> 0 < k_dt o -> 0 < k_int_dt o ->
  cart_part fn o <= h0 -> alen y = 7%nat -> alen yd = 6%nat ->
  steers 3 kap cb c -> three_coordinates c ->
  forall eps, 0 < eps -> exists N, forall k, (N <= k)%nat -> exists o' y' yd',
    cart_n_steps (Some (c, cq)) fn i k y yd o = (o', Ok (y', yd'))
    /\ forall d, (d < 3)%nat ->
       Rabs (aget y' d - aget (p_goal_y (k_base o)) d) < eps /\ Rabs (aget yd' d) < eps.
Proof.
  intros alpha beta tau kap cb Htau Hkap Hcb Hg.
  destruct (guided_reached 3 alpha beta tau kap cb Htau Hkap Hcb Hg) as (h0 & Hh0 & Hall).
  exists h0. split; auto.
  intros o fn i c cq y yd Hr [Etau Hgn] Hdt Hi Hp Ly Lyd Hst H3c eps Heps.
  assert (Hx : 0 < k_execution_time o) by lra.
  destruct (C23_cartesian_shapes o Hr) as (H0 & H0' & H1 & H2 & H3 & H4 & H5 & H6 & H7 & H8 & H9 & H10 & H11).
  destruct (position_dmp_part o y yd) as [P1 P2].
  set (D := position_dmp o y yd) in *.
  destruct (cart_reachable_phase o Hr) as [[Hph Hn] _].
  assert (HD : comes_to_goal 3 D fn c (first3 y) (first3 yd)).
  { apply Hall; auto.
    - unfold shapes_ok, D. cbn. repeat split; auto.
    - split; [exact Etau|exact Hgn]. }
  destruct (HD eps Heps) as [N HN]. exists N. intros k Hk.
  destruct (C37_runs_exist (Some (c, cq)) fn i k y yd o) as (o' & y' & yd' & E); auto; try lra.
  exists o', y', yd'. split; [exact E|]. intros d Hd.
  destruct (C37_position_is_dmp k fn i (Some (c, cq)) (Some c) o D y yd (first3 y) (first3 yd) o' y' yd')
    as (D' & y3 & yd3 & E3 & S1 & S2); auto; try reflexivity; try (intros j Hj; reflexivity).
  destruct (HN k Hk) as (o2 & y2 & yd2 & E2 & B). rewrite E3 in E2. injection E2 as <- <- <-.
  destruct (B d Hd) as [B1 B2].
  rewrite (S1 d Hd) in B1. rewrite (S2 d Hd) in B2. auto.
Qed.

Lemma obstacle_three ob gamma b : three_coordinates (obstacle_3d_coupling ob gamma b).
Proof.
  intros y y' v v' Hy Hv. unfold obstacle_3d_coupling, v3_of.
  rewrite !(Hy _) by lia. rewrite !(Hv _) by lia. split; intros j Hj; reflexivity.
Qed.

(** The position part of an obstacle avoidance term is such a term. *)
Theorem C111_cartesian_obstacle : forall alpha beta tau gamma b, 0 < tau -> 0 <= gamma -> 0 < b ->
  (forall d, (d < 3)%nat -> 0 < alpha d /\ 0 < beta d /\ gamma < exp 1 * b * alpha d * tau) ->
  exists h0, 0 < h0 /\ forall o fn i obstacle cq y yd,
  cart_reachable o -> cart_gains alpha beta tau o -> 0 < k_dt o -> 0 < k_int_dt o ->
  cart_part fn o <= h0 -> alen y = 7%nat -> alen yd = 6%nat ->
  forall eps, 0 < eps -> exists N, forall k, (N <= k)%nat -> exists o' y' yd',
    cart_n_steps (Some (obstacle_3d_coupling obstacle gamma b, cq)) fn i k y yd o = (o', Ok (y', yd'))
    /\ forall d, (d < 3)%nat ->
       Rabs (aget y' d - aget (p_goal_y (k_base o)) d) < eps /\ Rabs (aget yd' d) < eps.
Proof.
  intros alpha beta tau gamma b Htau Hg Hb H. set (k := gamma / (exp 1 * b)).
  assert (Heb : 0 < exp 1 * b) by (apply Rmult_lt_0_compat; auto; apply exp_pos).
  destruct (C111_cartesian alpha beta tau k (k ^ 2)) as (h0 & Hh0 & Hall); auto.
  - apply Rmult_le_pos; auto. left. now apply Rinv_0_lt_compat.
  - apply pow2_ge_0.
  - intros d Hd. destruct (H d Hd) as (H1 & H2 & H3). split; auto. split; auto.
    unfold k. apply Rmult_lt_reg_r with (exp 1 * b); auto. unfold Rdiv. rewrite Rmult_assoc, Rinv_l by lra. lra.
  - exists h0. split; auto. intros. apply Hall; auto; [now apply C111_obstacle_3d|apply obstacle_three].
Qed.

(** The default gains, from the origin to (1, 1, 1) with an obstacle half way, and a
    half turn between the start and the goal orientation. *)
Example C111_cartesian_satisfiable : exists o cq y yd, cart_reachable o
  /\ cart_gains (fun _ => 25) (fun _ => 25 / 4) 1 o /\ 0 < k_dt o /\ 0 < k_int_dt o
  /\ alen y = 7%nat /\ alen yd = 6%nat /\ aget y 0%nat = 0 /\ aget (p_goal_y (k_base o)) 0%nat = 1
  /\ orientation y = Q4 1 0 0 0 /\ orientation (p_goal_y (k_base o)) = Q4 0 1 0 0
  /\ forall eps, 0 < eps -> exists N, forall k, (N <= k)%nat -> exists o' y' yd',
       cart_n_steps (Some (obstacle_3d_coupling (V3 (1/2) (1/2) (1/2)) 100 20, cq)) RK4 Cython k y yd o
         = (o', Ok (y', yd'))
       /\ forall d, (d < 3)%nat -> Rabs (aget y' d - 1) < eps /\ Rabs (aget yd' d) < eps.
Proof.
  destruct (C111_cartesian_obstacle (fun _ => 25) (fun _ => 25 / 4) 1 100 20) as (h0 & Hh0 & H); try lra.
  { intros d _. assert (2 < exp 1) by (pose proof (exp_ineq1 1 ltac:(lra)); lra). lra. }
  destruct (init_forcing_term_accepts (vzero, vzero) 2 1) as [f Ef]; [lia|lra|].
  assert (E : exists o, cart_new (vzero, vzero) (vzero, vzero) 1 h0 2 (1/1000) true
    {| shape := []; data := fun _ => 25 |} {| shape := []; data := fun _ => 25/4 |} = Ok o
    /\ k_execution_time o = 1 /\ k_dt o = h0 /\ k_int_dt o = 1/1000
    /\ k_base o = ptp_init 7 6 /\ (forall j, aget (k_alpha o) j = 25) /\ (forall j, aget (k_beta o) j = 25/4)).
  { unfold cart_new. rewrite Ef. cbn [bind]. unfold ensure_1d_array. cbn -[Nat.eqb].
    eexists. split; [reflexivity|]. cbn. repeat split; auto. }
  destruct E as (o & E & E1 & E2 & E3 & E5 & E6 & E7).
  set (o1 := fst (cart_configure ex_conf o)).
  assert (R1 : cart_reachable o1) by (apply cr_configure; eapply cr_new; eauto).
  assert (B1 : o1 = cart_with_base (configured ex_conf (k_base o)) o).
  { unfold o1, cart_configure. rewrite E5. reflexivity. }
  set (cq := fun (_ : quat) (_ : v3) => (V3 0 0 0, V3 1 0 0)).
  assert (G1 : cart_gains (fun _ => 25) (fun _ => 25 / 4) 1 o1).
  { rewrite B1. split; [exact E1|]. intros d _. split; [apply E6|apply E7]. }
  exists o1, cq, {| alen := 7; aget := fun j => if Nat.eqb j 3 then 1 else 0 |}, {| alen := 6; aget := vzero |}.
  split; [exact R1|]. split; [exact G1|].
  assert (D1 : k_dt o1 = h0) by (rewrite B1; exact E2).
  assert (I1 : k_int_dt o1 = 1/1000) by (rewrite B1; exact E3).
  split; [lra|]. split; [lra|]. split; [reflexivity|]. split; [reflexivity|]. split; [reflexivity|].
  split; [rewrite B1, E5; reflexivity|]. split; [reflexivity|]. split; [rewrite B1, E5; reflexivity|].
  intros eps Heps.
  destruct (H o1 RK4 Cython (V3 (1/2) (1/2) (1/2)) cq {| alen := 7; aget := fun j => if Nat.eqb j 3 then 1 else 0 |}
    {| alen := 6; aget := vzero |} R1 G1) with (eps := eps) as [N HN]; auto; try lra.
  { cbn. lra. }
  exists N. intros k Hk. destruct (HN k Hk) as (o' & y' & yd' & A & B). exists o', y', yd'. split; [exact A|].
  intros d Hd. destruct (B d Hd) as [B2 B3]. split; [|exact B3].
  replace (aget (p_goal_y (k_base o1)) d) with 1 in B2; [exact B2|].
  rewrite B1, E5. destruct d as [|[|[|d]]]; [reflexivity|reflexivity|reflexivity|lia].
Qed.
