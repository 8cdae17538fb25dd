(** C125 and C131 for the positions of both hands of a DualCartesianDMP.  Final statements. *)
From Coq Require Import Reals ZArith List Arith Bool Lia Lra Psatz FunctionalExtensionality.
From Coquelicot Require Import Complex.
From Verif Require Import M_Prelude M_Canonical M_Forcing M_Dmp M_Base M_DmpObject M_Ridge M_SpringDamper
  M_Quaternion M_Cartesian M_Dual S_Loops S_Dmp S_Attributes S_Stability P_Loops P_Forcing P_DmpStep P_Stability
  P_CartesianHistory P_Cartesian P_DmpObject P_Components P_Dual P_DualObject
  Properties_Forcing Properties_Dmp Properties_DmpObject Properties_Goal Properties_Equivariance Properties_Continuity
  Properties_Stability Properties_ContinuityAll Properties_CartesianObject Properties_Attributes
  Properties_DualObject Properties_DualArm Properties_DualRuns
  Properties_CartesianHistory Properties_CartesianMore Properties_DualReproduction Properties_SmoothScaling Properties_Rate
  Properties_CartesianSmooth Properties_CartesianRate Properties_DualMoving.
Import ListNotations.
Open Scope R_scope.
Set Bullet Behavior "Strict Subproofs".

(** ** Specification *)
(** An arm that can be played back on its own: see [follower]; it starts without velocity. *)
Definition player (arm : nat) (o : dmp) : Prop :=
  dual_reachable o /\ ft_goal_t (o_forcing_term o) = o_execution_time o /\ o_p_gain o = 0
  /\ beta_index_irrelevant arm o /\ arm_starts_at_rest arm o
  /\ 0 < o_execution_time o /\ 0 < o_dt o /\ 0 < o_int_dt o.

(** [open_loop(run_t)] without coupling term returns [ts] and [ys]. *)
Definition plays (i : impl) (run_t : option R) (o : dmp) (ts : list R) (ys : list arr) : Prop :=
  exists o', dual_open_loop (CS := unit) run_t None (Some i) tt o = (o', tt, Ok (ts, ys)).

Definition time_ok (run_t : option R) : Prop := match run_t with Some x => 0 <= x | None => True end.

(** Every state of the Euler method shrinks by more than [exp (- lam * h)] in a step, and [lam] is not
    faster than the phase. *)
Definition hand_decays_at (lam : R) (arm j : nat) (o : dmp) : Prop :=
  lam * o_execution_time o <= ln 100 /\ equal_parts (o_dt o) (o_int_dt o)
  /\ let h := Rmin (o_dt o) (o_int_dt o) in
     forall mu, euler_growth h (hand_damping arm j o) (hand_stiffness arm j o) mu -> Cmod mu < exp (- lam * h).

(** Weights of a component of the position of a hand. *)
Definition hand_weights_within (W : R) (arm j : nat) (o : dmp) : Prop :=
  0 <= W /\ forall w, (w < o_n_weights_per_dim o)%nat ->
  Rabs (ft_weights (o_forcing_term o) (6 * arm + j)%nat w) <= W.

(** The goal of this component may differ; nothing is said about the other components and the other hand. *)
Definition only_hand_goal_differs (arm j : nat) (o o' : dmp) : Prop :=
  same_hand_settings arm j o o'
  /\ aget (p_start_y (o_base o')) (7 * arm + j)%nat = aget (p_start_y (o_base o)) (7 * arm + j)%nat
  /\ forall w, (w < o_n_weights_per_dim o)%nat ->
     ft_weights (o_forcing_term o') (6 * arm + j)%nat w = ft_weights (o_forcing_term o) (6 * arm + j)%nat w.

(** ** Proofs *)
Lemma player_arm arm i o : (arm <= 1)%nat -> player arm o ->
  exists k, cart_made k /\ arm_of arm o k /\ k_n k = o_n_weights_per_dim o
  /\ forall run_t ts ys, time_ok run_t -> plays i run_t o ts ys ->
     length ys = length ts /\ exists ys', cart_open_loop run_t None (Some Euler) (Some i) k = Ok (ts, ys')
     /\ length ys' = length ts
     /\ forall n, (n < length ts)%nat -> arm_pose arm (nth n ys (zeros 14)) (nth n ys' (zeros 7)).
Proof.
  intros Ha (Hr & Hg & Hp & Hb & H0 & Hx & Hdt & Hi).
  destruct (arm_made arm o Ha Hr Hg) as (k & Hm & Hk & HA & Hn & _).
  exists k. repeat (split; [assumption|]). intros run_t ts ys Hrt [o' E].
  apply (arm_runs arm Euler i run_t o k o' tt tt ts ys); auto. now left.
Qed.

Lemma player_settings arm j o k o' k' : (j < 3)%nat -> player arm o -> player arm o' -> arm_of arm o k -> arm_of arm o' k' ->
  k_n k = o_n_weights_per_dim o -> k_n k' = o_n_weights_per_dim o' ->
  same_hand_settings arm j o o' -> same_position_settings j k k'.
Proof.
  intros Hj (_ & Hg & _) (_ & Hg' & _) HA HA' Hn Hn' (S1 & S2 & S3 & S4 & S5 & S6 & S7).
  unfold same_position_settings.
  rewrite (ao_time _ _ _ HA), (ao_time _ _ _ HA'), (ao_dt _ _ _ HA), (ao_dt _ _ _ HA'), (ao_int_dt _ _ _ HA),
    (ao_int_dt _ _ _ HA'), (ao_smooth _ _ _ HA), (ao_smooth _ _ _ HA'),
    (tr_goal_t _ _ _ (ao_pos _ _ _ HA)), (tr_goal_t _ _ _ (ao_pos _ _ _ HA')),
    (ao_alpha _ _ _ HA), (ao_alpha _ _ _ HA'), (ao_beta _ _ _ HA), (ao_beta _ _ _ HA') by lia.
  repeat split; congruence.
Qed.

Lemma player_weight arm j o k w : (j < 3)%nat -> player arm o -> arm_of arm o k ->
  (w < o_n_weights_per_dim o)%nat -> ft_weights (k_fpos k) j w = ft_weights (o_forcing_term o) (6 * arm + j)%nat w.
Proof.
  intros Hj (Hr & _) HA Hw. apply (tr_weights _ _ _ (ao_pos _ _ _ HA)); auto.
  pose proof (dual_reachable_shapes o Hr) as Hs. unfold dual_shapes in Hs. cbv zeta in Hs.
  destruct Hs as (_ & _ & _ & _ & _ & _ & _ & _ & _ & _ & _ & _ & Hs & _). now rewrite Hs.
Qed.

(** ** C131 *)
Theorem C131_dual : forall arm j o0 lam, (arm <= 1)%nat -> (j < 3)%nat -> player arm o0 ->
  0 <= lam -> hand_decays_at lam arm j o0 ->
  exists K, forall i o W run_t ts ys, player arm o -> same_hand_settings arm j o0 o ->
  hand_weights_within W arm j o -> time_ok run_t -> plays i run_t o ts ys ->
  length ys = length ts
  /\ forall n, (n < length ys)%nat ->
  Rabs (aget (nth n ys (zeros 14)) (7 * arm + j)%nat - aget (p_goal_y (o_base o)) (7 * arm + j)%nat)
  <= K * (Rabs (aget (p_start_y (o_base o)) (7 * arm + j)%nat - aget (p_goal_y (o_base o)) (7 * arm + j)%nat) + W)
     * exp (- lam * nth n ts 0).
Proof.
  intros arm j o0 lam Ha Hj P0 Hl Hdec.
  destruct (player_arm arm Python o0 Ha P0) as (k0 & Hm0 & HA0 & Hn0 & _).
  pose proof P0 as (Hr & Hg & _ & _ & _ & Hx & Hdt & Hi).
  destruct (C131_cartesian Euler k0 j lam Hm0 Hj) as (K & HK);
    rewrite ?(ao_time _ _ _ HA0), ?(ao_dt _ _ _ HA0), ?(ao_int_dt _ _ _ HA0); auto.
  { unfold position_decays_at. cbv zeta.
    rewrite (ao_alpha _ _ _ HA0), (ao_beta _ _ _ HA0), (ao_time _ _ _ HA0), (ao_dt _ _ _ HA0), (ao_int_dt _ _ _ HA0),
      (tr_goal_t _ _ _ (ao_pos _ _ _ HA0)), Hg by lia. exact Hdec. }
  exists K. intros i o W run_t ts ys P S [HW0 HW] Hrt E.
  destruct (player_arm arm i o Ha P) as (k & Hm & HA & Hn & HR).
  destruct (HR run_t ts ys Hrt E) as (L & ys' & EC & L' & HP).
  destruct (HK i k W run_t ts ys' Hm) as [_ HB]; auto.
  { apply (player_settings arm j o0 k0 o k); auto. }
  { intros w Hw. rewrite (player_weight arm j o k w) by (auto; lia). apply HW. lia. }
  split; [exact L|]. intros n Hn'. specialize (HB n ltac:(lia)).
  rewrite (HP n ltac:(lia) j ltac:(lia)), (ao_start _ _ _ HA), (ao_goal _ _ _ HA) in HB by lia. exact HB.
Qed.

(** Whenever the steps shrink there is a positive rate. *)
Theorem C131_dual_exponential : forall arm j o, (arm <= 1)%nat -> (j < 3)%nat -> player arm o ->
  hand_steps_shrink arm j o -> exists lam, 0 < lam /\ hand_decays_at lam arm j o.
Proof.
  intros arm j o Ha Hj P Hst.
  destruct (player_arm arm Python o Ha P) as (k & Hm & HA & Hn & _).
  pose proof P as (Hr & Hg & _ & _ & _ & Hx & Hdt & Hi).
  destruct (C131_cartesian_exponential Euler k j Hm Hj) as (lam & Hl & H);
    rewrite ?(ao_time _ _ _ HA), ?(ao_dt _ _ _ HA), ?(ao_int_dt _ _ _ HA); auto; [eapply arm_shrinks; eauto|].
  exists lam. split; [exact Hl|]. unfold position_decays_at in H. cbv zeta in H.
  rewrite (ao_alpha _ _ _ HA), (ao_beta _ _ _ HA), (ao_time _ _ _ HA), (ao_dt _ _ _ HA), (ao_int_dt _ _ _ HA),
    (tr_goal_t _ _ _ (ao_pos _ _ _ HA)), Hg in H by lia. exact H.
Qed.

(** ** C125 *)
(** With smooth scaling, another goal changes the first movements of a hand by no more than the third
    power of the time. *)
Theorem C125_dual : forall tau al be T, 0 < tau -> 0 <= T ->
  exists C, 0 <= C /\ forall arm j i i' o o' run_t ts ys ts' ys', (arm <= 1)%nat -> (j < 3)%nat ->
  player arm o -> player arm o' -> only_hand_goal_differs arm j o o' ->
  o_execution_time o = tau -> aget (o_alpha_y o) (6 * arm + j)%nat = al -> aget (o_beta_y o) (6 * arm + j)%nat = be ->
  o_smooth_scaling o = true -> time_ok run_t -> plays i run_t o ts ys -> plays i' run_t o' ts' ys' ->
  ts' = ts /\ length ys = length ts /\ length ys' = length ts
  /\ forall n, (n < length ts)%nat -> nth n ts 0 <= T ->
     Rabs (aget (nth n ys' (zeros 14)) (7 * arm + j)%nat - aget (nth n ys (zeros 14)) (7 * arm + j)%nat)
     <= C * Rabs (aget (p_goal_y (o_base o')) (7 * arm + j)%nat - aget (p_goal_y (o_base o)) (7 * arm + j)%nat)
        * nth n ts 0 ^ 3.
Proof.
  intros tau al be T Htau HT.
  destruct (C125_cartesian tau al be tau T Htau HT) as (C & HC & H). exists C. split; [exact HC|].
  intros arm j i i' o o' run_t ts ys ts' ys' Ha Hj P P' (S & Es & Ew) Ex Ea Eb Hsm Hrt E E'.
  destruct (player_arm arm i o Ha P) as (k & Hm & HA & Hn & HR).
  destruct (player_arm arm i' o' Ha P') as (k' & Hm' & HA' & Hn' & HR').
  destruct (HR run_t ts ys Hrt E) as (L & zs & EC & Lz & HP).
  destruct (HR' run_t ts' ys' Hrt E') as (L' & zs' & EC' & Lz' & HP').
  pose proof P as (Hr & Hg & _ & _ & _ & Hx & Hdt & Hi).
  pose proof (H i i' k k' j Euler run_t ts zs ts' zs' Hm Hm' Hj) as HB.
  rewrite (ao_dt _ _ _ HA), (ao_int_dt _ _ _ HA), (ao_smooth _ _ _ HA) in HB.
  destruct HB as (B1 & B2 & B3 & B4); auto.
  { split; [apply (player_settings arm j o k o' k'); auto|]. split.
    - now rewrite (ao_start _ _ _ HA), (ao_start _ _ _ HA') by lia.
    - intros w Hw. pose proof S as (_ & _ & _ & S4 & _).
      rewrite (player_weight arm j o k w), (player_weight arm j o' k' w) by (auto; lia). apply Ew. lia. }
  { unfold has_position_gains. rewrite (ao_time _ _ _ HA), (ao_alpha _ _ _ HA), (ao_beta _ _ _ HA),
      (tr_goal_t _ _ _ (ao_pos _ _ _ HA)) by lia. repeat split; congruence. }
  subst ts'. split; [reflexivity|]. split; [exact L|]. split; [exact L'|].
  intros n Hlt HnT. specialize (B4 n Hlt HnT). unfold position_goal_change in B4.
  rewrite (HP n Hlt j ltac:(lia)), (HP' n Hlt j ltac:(lia)), (ao_goal _ _ _ HA), (ao_goal _ _ _ HA') in B4 by lia.
  exact B4.
Qed.

(** Without smooth scaling there is no such bound. *)
Theorem C125_dual_jump : forall tau al be C, 0 < tau -> al <> 0 -> be <> 0 ->
  exists h0, 0 < h0 /\ forall arm j i i' o o' run_t ts ys ts' ys', (arm <= 1)%nat -> (j < 3)%nat ->
  player arm o -> player arm o' -> only_hand_goal_differs arm j o o' -> o_dt o < h0 -> o_dt o <= o_int_dt o ->
  o_execution_time o = tau -> aget (o_alpha_y o) (6 * arm + j)%nat = al -> aget (o_beta_y o) (6 * arm + j)%nat = be ->
  o_smooth_scaling o = false ->
  aget (p_goal_y (o_base o')) (7 * arm + j)%nat <> aget (p_goal_y (o_base o)) (7 * arm + j)%nat ->
  match run_t with Some r => 0 < r | None => True end -> plays i run_t o ts ys -> plays i' run_t o' ts' ys' ->
  (1 < length ts)%nat /\ nth 1 ts 0 = o_dt o
  /\ C * Rabs (aget (p_goal_y (o_base o')) (7 * arm + j)%nat - aget (p_goal_y (o_base o)) (7 * arm + j)%nat)
       * nth 1 ts 0 ^ 3
     < Rabs (aget (nth 1 ys' (zeros 14)) (7 * arm + j)%nat - aget (nth 1 ys (zeros 14)) (7 * arm + j)%nat).
Proof.
  intros tau al be C Htau Hal Hbe.
  destruct (C125_cartesian_jump tau al be tau C Htau Hal Hbe) as (h0 & Hh0 & H). exists h0. split; [exact Hh0|].
  intros arm j i i' o o' run_t ts ys ts' ys' Ha Hj P P' (S & Es & Ew) Hlt Hle Ex Ea Eb Hsm Hne Hrun E E'.
  assert (Hrt : time_ok run_t) by (unfold time_ok; destruct run_t; [lra|exact I]).
  destruct (player_arm arm i o Ha P) as (k & Hm & HA & Hn & HR).
  destruct (player_arm arm i' o' Ha P') as (k' & Hm' & HA' & Hn' & HR').
  destruct (HR run_t ts ys Hrt E) as (L & zs & EC & Lz & HP).
  destruct (HR' run_t ts' ys' Hrt E') as (L' & zs' & EC' & Lz' & HP').
  pose proof P as (Hr & Hg & _ & _ & _ & Hx & Hdt & Hi).
  assert (O : only_position_goal_differs j k k').
  { split; [apply (player_settings arm j o k o' k'); auto|]. split.
    - now rewrite (ao_start _ _ _ HA), (ao_start _ _ _ HA') by lia.
    - intros w Hw. pose proof S as (_ & _ & _ & S4 & _).
      rewrite (player_weight arm j o k w), (player_weight arm j o' k' w) by (auto; lia). apply Ew. lia. }
  assert (G : has_position_gains tau al be tau j k).
  { unfold has_position_gains. rewrite (ao_time _ _ _ HA), (ao_alpha _ _ _ HA), (ao_beta _ _ _ HA),
      (tr_goal_t _ _ _ (ao_pos _ _ _ HA)) by lia. repeat split; congruence. }
  assert (O' : only_position_goal_differs j k' k).
  { destruct O as ((Q1 & Q2 & Q3 & Q4 & Q5 & Q6 & Q7 & Q8) & Q9 & Q10). repeat split; try congruence.
    intros w Hw. symmetry. apply Q10. lia. }
  assert (G' : has_position_gains tau al be tau j k').
  { destruct G as (G1 & G2 & G3 & G4). destruct O as ((Q1 & Q2 & Q3 & Q4 & Q5 & Q6 & Q7 & Q8) & _).
    repeat split; congruence. }
  destruct S as (S1 & S2 & S3 & S4 & S5 & _).
  pose proof (H i i' k k' j Euler run_t ts zs ts' zs' Hm Hm' Hj) as HB.
  rewrite (ao_dt _ _ _ HA), (ao_int_dt _ _ _ HA), (ao_smooth _ _ _ HA), (ao_goal _ _ _ HA), (ao_goal _ _ _ HA') in HB by lia.
  destruct HB as (B1 & B2 & B3); auto.
  pose proof (H i' i k' k j Euler run_t ts' zs' ts zs Hm' Hm Hj) as HB.
  rewrite (ao_dt _ _ _ HA'), (ao_int_dt _ _ _ HA'), (ao_smooth _ _ _ HA'), (ao_goal _ _ _ HA), (ao_goal _ _ _ HA'), S2, S3, S5 in HB by lia.
  destruct HB as (B1' & _); auto.
  split; [exact B1|]. split; [exact B2|]. unfold position_goal_change in B3.
  rewrite (HP 1%nat B1 j ltac:(lia)), (HP' 1%nat B1' j ltac:(lia)), (ao_goal _ _ _ HA), (ao_goal _ _ _ HA') in B3 by lia.
  exact B3.
Qed.

(** A DualCartesianDMP and the same one with another goal. *)
Example C125_dual_satisfiable : forall arm smooth, (arm <= 1)%nat -> exists o o' ts ys ts' ys',
  player arm o /\ player arm o' /\ only_hand_goal_differs arm 1 o o' /\ o_dt o <= o_int_dt o
  /\ o_execution_time o = 1 /\ aget (o_alpha_y o) (6 * arm + 1)%nat = 25 /\ aget (o_beta_y o) (6 * arm + 1)%nat = 4
  /\ o_smooth_scaling o = smooth
  /\ aget (p_goal_y (o_base o')) (7 * arm + 1)%nat <> aget (p_goal_y (o_base o)) (7 * arm + 1)%nat
  /\ plays Python None o ts ys /\ plays Python None o' ts' ys'
  /\ hand_steps_shrink arm 1 o /\ hand_weights_within 0 arm 1 o.
Proof.
  intros arm smooth Ha.
  assert (Mk : forall x, exists o ts ys, player arm o /\ plays Python None o ts ys /\ o_execution_time o = 1
    /\ o_dt o = 1/1000 /\ o_int_dt o = 1/1000 /\ o_n_weights_per_dim o = 2%nat /\ o_smooth_scaling o = smooth
    /\ aget (o_alpha_y o) = (fun _ => 25) /\ aget (o_beta_y o) = (fun _ => 4)
    /\ aget (p_start_y (o_base o)) = vzero /\ aget (p_goal_y (o_base o)) = (fun _ => x)
    /\ forall d k, ft_weights (o_forcing_term o) d k = 0).
  { intros x.
    destruct (dual_example 1 (1/1000) (1/1000) 0 smooth (fun _ => 25) (fun _ => 4) vzero (fun _ => x))
      as (o & Hr & O1 & O2 & O3 & O4 & O5 & O6 & O7 & O8 & O9 & O10 & O11 & O12 & O13 & O14 & O15 & _); [lra|].
    destruct (C69_dual_runs_exist unit None None tt o Hr) as [X _]; [rewrite O2; lra|rewrite O3; lra|].
    destruct (X Python) as (o' & [] & ts & ys & E).
    exists o, ts, ys. split; [|split; [exists o'; exact E|repeat (split; [assumption|]); assumption]].
    unfold player. rewrite O1, O2, O3, O15. repeat (split; [first [assumption|lra]|]).
    split; [right; right; intros; now rewrite O7|]. split; [|lra].
    intros d Hd. rewrite O10. reflexivity. }
  destruct (Mk 1) as (o & ts & ys & P & E & A1 & A2 & A3 & A4 & A5 & A6 & A7 & A8 & A9 & A10).
  destruct (Mk 3) as (o' & ts' & ys' & P' & E' & B1 & B2 & B3 & B4 & B5 & B6 & B7 & B8 & B9 & B10).
  exists o, o', ts, ys, ts', ys'. split; [exact P|]. split; [exact P'|]. split.
  { unfold only_hand_goal_differs, same_hand_settings. rewrite A6, A7, A8, B6, B7, B8.
    repeat split; try congruence. }
  split; [lra|]. split; [exact A1|]. split; [now rewrite A6|]. split; [now rewrite A7|]. split; [exact A5|].
  split; [rewrite A9, B9; lra|]. split; [exact E|]. split; [exact E'|]. split.
  - unfold hand_steps_shrink, hand_damping, hand_stiffness. rewrite A1, A2, A3, A6, A7.
    rewrite Rmin_left by lra.
    replace (25 / 1) with 25 by field. replace (25 * 4 / 1 ^ 2) with (25 * 4) by field.
    split; [left; lra|].
    apply C100_overdamped.
  - split; [lra|]. intros w _. rewrite A10, Rabs_R0. lra.
Qed.
