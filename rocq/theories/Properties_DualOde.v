(** C122: both hands of a two-armed movement follow the differential equations of their
    positions and orientations.  Final statements. *)
From Coq Require Import Reals ZArith List Arith Bool Lia Lra Psatz FunctionalExtensionality.
From Coquelicot Require Import Coquelicot.
From Verif Require Import M_Prelude M_Canonical M_Forcing M_Dmp M_Base M_DmpObject M_Ridge M_SpringDamper
  M_Quaternion M_Cartesian M_Dual S_Loops S_Rotation S_Frames S_Turning S_Attributes P_Loops P_Canonical P_Forcing
  P_DmpObject P_Quaternion P_Cartesian P_Components P_Dual P_DualObject P_Reproduction P_Orient P_Turning
  Properties_Forcing Properties_DmpObject Properties_Goal Properties_Reproduction Properties_Equivariance
  Properties_Cartesian Properties_CartesianObject Properties_DualObject Properties_DualArm Properties_DualRuns
  Properties_Attributes Properties_Orientation Properties_CartesianHistory Properties_Frames P_TurningRun P_TurningLearn
  Properties_PoseReproduction Properties_DualReproduction P_TurningOde Properties_TurnOde.
Import ListNotations.
Open Scope R_scope.
Set Bullet Behavior "Strict Subproofs".

(** ** Specification *)
(** The differential equation of component [j] of the position of one hand. *)
Definition hand_position_equation (arm j : nat) (o : dmp) (y v : R -> R) : Prop :=
  let tau := o_execution_time o in
  let alpha := aget (o_alpha_y o) (6 * arm + j)%nat in
  let beta := aget (o_beta_y o) (6 * arm + j)%nat in
  let goal := hand arm (aget (p_goal_y (o_base o))) j in
  let start := hand arm (aget (p_start_y (o_base o))) j in
  y 0 = start /\ v 0 = 0 /\
  forall t, 0 <= t ->
    is_derive y t (v t)
    /\ is_derive v t
         ((alpha * (beta * (goal - y t) - tau * v t
                    - (if o_smooth_scaling o then beta * (goal - start) * ft_phase (o_forcing_term o) t else 0))
           + ft_call (o_forcing_term o) t (6 * arm + j)%nat) / tau ^ 2).

(** The gains and the forcing term of the orientation of one hand. *)
Definition hand_turn_gains (arm : nat) (g : arr) : v3 :=
  V3 (aget g (6 * arm + 3)%nat) (aget g (6 * arm + 4)%nat) (aget g (6 * arm + 5)%nat).
Definition hand_turn_force (arm : nat) (o : dmp) (t : R) : v3 :=
  let f := ft_call (o_forcing_term o) t in V3 (f (6 * arm + 3)%nat) (f (6 * arm + 4)%nat) (f (6 * arm + 5)%nat).

(** The differential equation of the orientation [q] of one hand; [w] is its angular velocity,
    and the rotation vector [e t] leads from the orientation at time [t] to the goal. *)
Definition hand_turn_equation (arm : nat) (o : dmp) (T delta : R) (q : R -> quat) (w e : R -> v3) : Prop :=
  let tau := o_execution_time o in
  let alpha := hand_turn_gains arm (o_alpha_y o) in
  let beta := hand_turn_gains arm (o_beta_y o) in
  q 0 = attitude (hand arm (aget (p_start_y (o_base o)))) /\ w 0 = v3_zero /\
  forall t, 0 <= t <= T ->
    v3_norm (e t) <= PI - delta /\ turned_by (e t) (attitude (hand arm (aget (p_goal_y (o_base o))))) (q t)
    /\ is_derive_quat q t (quat_rate (w t) (q t))
    /\ is_derive_v3 w t
         (v3_divs (v3_add (v3_mul alpha
            (v3_sub (v3_sub (v3_mul beta (e t)) (v3_scale tau (w t)))
                    (if o_smooth_scaling o then v3_scale (ft_phase (o_forcing_term o) t) (v3_mul beta (e 0)) else v3_zero)))
            (hand_turn_force arm o t)) (tau ^ 2)).

(** Objects with the same equations for one arm; [dt], [int_dt] and everything that belongs to
    the other arm may differ. *)
Definition same_hand_equation (arm : nat) (o o' : dmp) : Prop :=
  o_execution_time o' = o_execution_time o /\ o_n_weights_per_dim o' = o_n_weights_per_dim o
  /\ o_smooth_scaling o' = o_smooth_scaling o
  /\ (forall j, (j < 6)%nat -> aget (o_alpha_y o') (6 * arm + j)%nat = aget (o_alpha_y o) (6 * arm + j)%nat
        /\ aget (o_beta_y o') (6 * arm + j)%nat = aget (o_beta_y o) (6 * arm + j)%nat)
  /\ (forall j, (j < 7)%nat -> hand arm (aget (p_start_y (o_base o'))) j = hand arm (aget (p_start_y (o_base o))) j
        /\ hand arm (aget (p_goal_y (o_base o'))) j = hand arm (aget (p_goal_y (o_base o))) j)
  /\ forall j i, (j < 6)%nat -> (i < o_n_weights_per_dim o)%nat ->
       ft_weights (o_forcing_term o') (6 * arm + j)%nat i = ft_weights (o_forcing_term o) (6 * arm + j)%nat i.

(** Objects whose arm moves without feedback and begins at rest.  The right arm needs equal
    [beta_y] entries with smooth scaling (see C39). *)
Definition plain_arm (arm : nat) (o : dmp) : Prop :=
  dual_reachable o /\ ft_goal_t (o_forcing_term o) = o_execution_time o /\ o_p_gain o = 0
  /\ beta_index_irrelevant arm o /\ arm_starts_at_rest arm o
  /\ 0 < o_dt o /\ 0 < o_int_dt o /\ 0 < o_execution_time o.

(** ** Proofs *)
Lemma arm_position_equation arm o k j y v : arm_of arm o k -> (j < 3)%nat ->
  (position_equation k j y v <-> hand_position_equation arm j o y v).
Proof.
  intros HA Hj. pose proof HA as [_ Kx Kd Ki Ks Kp Kr Ka Kb Kst Kg].
  unfold position_equation, hand_position_equation, hand. cbv zeta.
  rewrite Kx, Ks, Ka, Kb, Kst, Kg by lia.
  assert (E : forall t, ft_phase (k_fpos k) t = ft_phase (o_forcing_term o) t) by (intros; now apply (three_rows_phase (6 * arm))).
  assert (F : forall t, ft_call (k_fpos k) t j = ft_call (o_forcing_term o) t (6 * arm + j)%nat).
  { intros t. unfold ft_call. rewrite E. now apply three_rows_forces. }
  split; intros (H1 & H2 & H3); split; auto; split; auto; intros t Ht; specialize (H3 t Ht); rewrite ?E, ?F in *; auto.
Qed.

Lemma arm_turn_equation arm o k T delta q w e : arm_of arm o k ->
  hand_turn_equation arm o T delta q w e -> turn_equation k T delta q w e.
Proof.
  intros HA. pose proof HA as [_ Kx Kd Ki Ks Kp Kr Ka Kb Kst Kg].
  unfold turn_equation, hand_turn_equation, start_orientation, goal_orientation, attitude, hand, turn_gains, hand_turn_gains. cbv zeta.
  rewrite Kx, Ks, !Ka, !Kb, !Kst, !Kg by lia.
  assert (E : forall t, ft_phase (k_frot k) t = ft_phase (o_forcing_term o) t) by (intros; now apply (three_rows_phase (6 * arm + 3))).
  assert (F : forall t, turn_force k t = hand_turn_force arm o t).
  { intros t. unfold turn_force, hand_turn_force, ft_call. rewrite E, !(three_rows_forces _ _ _ _ _ Kr) by lia.
    cbv zeta. apply v3_eq; cbn [v3x v3y v3z]; f_equal; lia. }
  intros (H1 & H2 & H3). split; auto. split; auto. intros t Ht. destruct (H3 t Ht) as (A1 & A2 & A3 & A4).
  rewrite E, F. auto.
Qed.

Lemma arm_same_equations arm o o' k k' : dual_reachable o -> arm_of arm o k -> arm_of arm o' k' -> k_n k = o_n_weights_per_dim o ->
  k_n k' = o_n_weights_per_dim o' -> ft_goal_t (o_forcing_term o) = o_execution_time o ->
  ft_goal_t (o_forcing_term o') = o_execution_time o' -> dual_reachable o' -> same_hand_equation arm o o' ->
  same_turn_equation k k' /\ forall j, (j < 3)%nat -> same_position_equation j k k'.
Proof.
  intros Hr HA HA' Kn Kn' Hg Hg' Hr' (S1 & S2 & S3 & S4 & S5 & S6).
  pose proof HA as [_ Kx Kd Ki Ks Kp Kr Ka Kb Kst Kg]. pose proof HA' as [_ Kx' Kd' Ki' Ks' Kp' Kr' Ka' Kb' Kst' Kg'].
  destruct (dual_ft_made o Hr) as (g & jj & f0 & ww & Eg & Ef). destruct (dual_ft_made o' Hr') as (g' & jj' & f0' & ww' & Eg' & Ef').
  assert (N : ft_n (o_forcing_term o) = o_n_weights_per_dim o).
  { rewrite Ef. apply (forcing_term_init_n _ _ _ _ _ _ _ _ Eg). }
  assert (N' : ft_n (o_forcing_term o') = o_n_weights_per_dim o).
  { rewrite Ef', <- S2. apply (forcing_term_init_n _ _ _ _ _ _ _ _ Eg'). }
  unfold hand in S5.
  assert (A1 := fun j H => proj1 (S5 j H)). assert (A2 := fun j H => proj2 (S5 j H)).
  assert (A3 := fun j H => proj1 (S4 j H)). assert (A4 := fun j H => proj2 (S4 j H)). cbv beta in A1, A2, A3, A4. split.
  - unfold same_turn_equation, start_orientation, goal_orientation, attitude, turn_gains.
    rewrite !Kst, !Kst', !Kg, !Kg', !Ka, !Ka', !Kb, !Kb' by lia.
    rewrite !A1, !A2, !A3, !A4 by lia.
    destruct Kr as [T1 T2 T3 T4 T5 T6 T7], Kr' as [T1' T2' T3' T4' T5' T6' T7'].
    repeat split; try congruence. intros d i Hd Hi. rewrite T7, T7' by lia.
    replace (6 * arm + 3 + d)%nat with (6 * arm + (3 + d))%nat by lia. apply S6; lia.
  - intros j Hj. unfold same_position_equation.
    rewrite !Kst, !Kst', !Kg, !Kg', !Ka, !Ka', !Kb, !Kb' by lia.
    rewrite !A1, !A2, !A3, !A4 by lia.
    destruct Kp as [T1 T2 T3 T4 T5 T6 T7], Kp' as [T1' T2' T3' T4' T5' T6' T7'].
    repeat split; try congruence. intros i Hi. rewrite T7, T7' by lia. apply S6; lia.
Qed.

(** ** C122 *)
(** The equation of every position component has exactly one solution, and the error of the
    positions of the hand is proportional to the length of an integration step. *)
Theorem C122_positions : forall arm j o T, (arm <= 1)%nat -> (j < 3)%nat -> plain_arm arm o -> 0 <= T ->
  exists y v, hand_position_equation arm j o y v
  /\ (forall y' v', hand_position_equation arm j o y' v' -> forall t, 0 <= t -> y' t = y t)
  /\ exists C, 0 <= C /\
     forall o' o2 i run_t u u' ts ys, plain_arm arm o' -> same_hand_equation arm o o' ->
     match run_t with Some x => 0 <= x | None => True end ->
     dual_open_loop (CS := unit) run_t None (Some i) u o' = (o2, u', Ok (ts, ys)) ->
     length ys = length ts /\
     forall k, (k < length ts)%nat -> nth k ts 0 <= T ->
       Rabs (hand arm (aget (nth k ys (zeros 14))) j - y (nth k ts 0)) <= C * Rmin (o_dt o') (o_int_dt o').
Proof.
  intros arm j o T Ha Hj (Hr & Hg & Hp & Hb & H0 & Hdt & Hi & Hx) HT.
  destruct (arm_made arm o Ha Hr Hg) as (k & Hm & Hk & HA & Hn & _).
  destruct (C104_differential_equation k j T Hm Hj ltac:(now rewrite (ao_time _ _ _ HA)) HT) as (y & v & HE & HU & C & PC & HC).
  exists y, v. split; [now apply (arm_position_equation arm o k)|]. split.
  { intros y' v' HE'. apply (HU y' v'). now apply (arm_position_equation arm o k). }
  exists C. split; auto. intros o' o2 i run_t u u' ts ys (Hr' & Hg' & Hp' & Hb' & H0' & Hdt' & Hi' & Hx') HS Hrt EO.
  destruct (arm_made arm o' Ha Hr' Hg') as (k' & Hm' & Hk' & HA' & Hn' & _).
  destruct (arm_runs arm Euler i run_t o' k' o2 u u' ts ys) as (L1 & ys' & EC & L2 & P); auto; [now left|].
  split; auto. intros n Hn0 HnT. unfold hand. rewrite <- (P n Hn0) by lia.
  destruct (arm_same_equations arm o o' k k') as [_ S]; auto.
  destruct (HC k' Euler i run_t ts ys' Hm' (S j Hj)) as [_ B]; auto.
  - now rewrite (ao_dt _ _ _ HA').
  - now rewrite (ao_int_dt _ _ _ HA').
  - specialize (B n Hn0 HnT). unfold position_step_length in B.
    now rewrite (ao_dt _ _ _ HA'), (ao_int_dt _ _ _ HA') in B.
Qed.

(** The orientations of the hand. *)
Theorem C122_orientations : forall arm o T delta q w e, (arm <= 1)%nat -> plain_arm arm o -> 0 < T -> 0 < delta ->
  unit_quat (attitude (hand arm (aget (p_start_y (o_base o))))) ->
  unit_quat (attitude (hand arm (aget (p_goal_y (o_base o))))) ->
  hand_turn_equation arm o T delta q w e ->
  exists C, 0 <= C /\
  forall o' o2 i run_t u u' ts ys, plain_arm arm o' -> same_hand_equation arm o o' ->
  match run_t with Some x => 0 <= x | None => True end ->
  dual_open_loop (CS := unit) run_t None (Some i) u o' = (o2, u', Ok (ts, ys)) ->
  length ys = length ts /\
  forall k, (k < length ts)%nat -> nth k ts 0 <= T ->
    unit_quat (attitude (hand arm (aget (nth k ys (zeros 14)))))
    /\ angle_between (attitude (hand arm (aget (nth k ys (zeros 14))))) (q (nth k ts 0))
       <= C * (Rmin (o_dt o') (o_int_dt o') + / 10 ^ 7).
Proof.
  intros arm o T delta q w e Ha (Hr & Hg & Hp & Hb & H0 & Hdt & Hi & Hx) HT Hdel Us Ug HE.
  destruct (arm_made arm o Ha Hr Hg) as (k & Hm & Hk & HA & Hn & _).
  assert (Es : start_orientation k = attitude (hand arm (aget (p_start_y (o_base o))))).
  { unfold start_orientation, attitude, hand. rewrite !(ao_start _ _ _ HA) by lia. reflexivity. }
  assert (Eg : goal_orientation k = attitude (hand arm (aget (p_goal_y (o_base o))))).
  { unfold goal_orientation, attitude, hand. rewrite !(ao_goal _ _ _ HA) by lia. reflexivity. }
  destruct (C119_orientations k T delta q w e Hm) as (C & PC & HC); auto.
  { now rewrite (ao_time _ _ _ HA). } { now rewrite Es. } { now rewrite Eg. } { now apply (arm_turn_equation arm o). }
  exists C. split; auto. intros o' o2 i run_t u u' ts ys (Hr' & Hg' & Hp' & Hb' & H0' & Hdt' & Hi' & Hx') HS Hrt EO.
  destruct (arm_made arm o' Ha Hr' Hg') as (k' & Hm' & Hk' & HA' & Hn' & _).
  destruct (arm_runs arm Euler i run_t o' k' o2 u u' ts ys) as (L1 & ys' & EC & L2 & P); auto; [now left|].
  split; auto. intros n Hn0 HnT.
  assert (EA : attitude (aget (nth n ys' (zeros 7))) = attitude (hand arm (aget (nth n ys (zeros 14))))).
  { unfold attitude, hand. rewrite !(P n Hn0) by lia. reflexivity. }
  rewrite <- EA.
  destruct (arm_same_equations arm o o' k k') as [S _]; auto.
  destruct (HC k' Euler i run_t ts ys' Hm' S) as [_ B]; auto.
  - now rewrite (ao_dt _ _ _ HA').
  - now rewrite (ao_int_dt _ _ _ HA').
  - specialize (B n Hn0 HnT). now rewrite (ao_dt _ _ _ HA'), (ao_int_dt _ _ _ HA') in B.
Qed.

(** With the default ratio of the gains, no weights and no smooth scaling each hand turns about
    one fixed axis on the shortest way to its goal. *)
Theorem C122_unforced : forall arm o T a, (arm <= 1)%nat -> plain_arm arm o -> 0 < T -> 0 < a ->
  hand_turn_gains arm (o_alpha_y o) = V3 a a a -> hand_turn_gains arm (o_beta_y o) = V3 (a / 4) (a / 4) (a / 4) ->
  o_smooth_scaling o = false ->
  (forall d i, (3 <= d < 6)%nat -> (i < o_n_weights_per_dim o)%nat -> ft_weights (o_forcing_term o) (6 * arm + d)%nat i = 0) ->
  let start := attitude (hand arm (aget (p_start_y (o_base o)))) in
  let goal := attitude (hand arm (aget (p_goal_y (o_base o)))) in
  unit_quat start -> unit_quat goal ->
  let angle := angle_between goal start in
  let remaining := fun t => (1 + a / (2 * o_execution_time o) * t) * exp (- (a / (2 * o_execution_time o) * t)) in
  angle < PI ->
  exists axis C, unit_v3 axis /\ 0 <= C
  /\ (forall v, rotate goal v = rodrigues axis angle (rotate start v))
  /\ forall o' o2 i run_t u u' ts ys, plain_arm arm o' -> same_hand_equation arm o o' ->
     match run_t with Some x => 0 <= x | None => True end ->
     dual_open_loop (CS := unit) run_t None (Some i) u o' = (o2, u', Ok (ts, ys)) ->
     forall k p, (k < length ts)%nat -> nth k ts 0 <= T -> unit_quat p ->
       (forall v, rotate p v = rodrigues axis ((1 - remaining (nth k ts 0)) * angle) (rotate start v)) ->
       angle_between (attitude (hand arm (aget (nth k ys (zeros 14))))) p <= C * (Rmin (o_dt o') (o_int_dt o') + / 10 ^ 7).
Proof.
  intros arm o T a Ha (Hr & Hg & Hp & Hb & H0 & Hdt & Hi & Hx) HT Pa Eal Ebe Esm HW start goal Us Ug angle remaining Hang.
  destruct (arm_made arm o Ha Hr Hg) as (k & Hm & Hk & HA & Hn & _).
  pose proof HA as [_ Kx Kd Ki Ks Kp Kr Ka Kb Kst Kg].
  assert (Es : start_orientation k = start).
  { unfold start_orientation, start, attitude, hand. rewrite !Kst by lia. reflexivity. }
  assert (Eg : goal_orientation k = goal).
  { unfold goal_orientation, goal, attitude, hand. rewrite !Kg by lia. reflexivity. }
  destruct (C119_unforced k T a Hm) as (axis & C & Hax & PC & HG & HC); rewrite ?Es, ?Eg; auto; try congruence.
  - rewrite <- Eal. unfold turn_gains, hand_turn_gains. now rewrite !Ka by lia.
  - rewrite <- Ebe. unfold turn_gains, hand_turn_gains. now rewrite !Kb by lia.
  - intros d j Hd Hj. destruct (dual_ft_made o Hr) as (ga & jj & f0 & ww & Ega & Ef).
    assert (N : ft_n (o_forcing_term o) = o_n_weights_per_dim o).
    { rewrite Ef. apply (forcing_term_init_n _ _ _ _ _ _ _ _ Ega). }
    rewrite (tr_weights _ _ _ Kr) by lia.
    replace (6 * arm + 3 + d)%nat with (6 * arm + (3 + d))%nat by lia. apply HW; lia.
  - rewrite Es, Eg, Kx in *. exists axis, C. split; auto. split; auto. split; auto.
    intros o' o2 i run_t u u' ts ys (Hr' & Hg' & Hp' & Hb' & H0' & Hdt' & Hi' & Hx') HS Hrt EO.
    destruct (arm_made arm o' Ha Hr' Hg') as (k' & Hm' & Hk' & HA' & Hn' & _).
    destruct (arm_runs arm Euler i run_t o' k' o2 u u' ts ys) as (L1 & ys' & EC & L2 & P); auto; [now left|].
    intros n p Hn0 HnT Up Hpr.
    assert (EA : attitude (aget (nth n ys' (zeros 7))) = attitude (hand arm (aget (nth n ys (zeros 14))))).
    { unfold attitude, hand. rewrite !(P n Hn0) by lia. reflexivity. }
    rewrite <- EA, <- (ao_dt _ _ _ HA'), <- (ao_int_dt _ _ _ HA').
    destruct (arm_same_equations arm o o' k k') as [S _]; auto.
    apply (HC k' Euler i run_t ts ys'); auto.
    + now rewrite (ao_dt _ _ _ HA').
    + now rewrite (ao_int_dt _ _ _ HA').
Qed.

(** Hands that turn by one radian about the x axis and move from 0 to 1 along every axis, with
    the default gains and without weights; there are runs with any time steps. *)
Example C122_satisfiable : forall arm T h hi, (arm <= 1)%nat -> 0 < T -> 0 < h -> 0 < hi ->
  let x := fun t => (1 + 25 / 2 * t) * exp (- (25 / 2 * t)) in
  let q := fun t => axis_quat (V3 1 0 0) (1 - x t) in
  let w := fun t => V3 ((25 / 2) ^ 2 * t * exp (- (25 / 2 * t))) 0 0 in
  let e := fun t => V3 (x t) 0 0 in
  exists o o' o2 ts ys, plain_arm arm o
  /\ unit_quat (attitude (hand arm (aget (p_start_y (o_base o)))))
  /\ unit_quat (attitude (hand arm (aget (p_goal_y (o_base o)))))
  /\ attitude (hand arm (aget (p_goal_y (o_base o)))) <> attitude (hand arm (aget (p_start_y (o_base o))))
  /\ hand arm (aget (p_goal_y (o_base o))) 0%nat = 1 /\ hand arm (aget (p_start_y (o_base o))) 0%nat = 0
  /\ hand_turn_equation arm o T 2 q w e
  /\ plain_arm arm o' /\ same_hand_equation arm o o' /\ o_dt o' = h /\ o_int_dt o' = hi
  /\ dual_open_loop (CS := unit) (Some T) None (Some Python) tt o' = (o2, tt, Ok (ts, ys)).
Proof.
  intros arm T h hi Ha HT Hh Hhi x q w e.
  set (s := aget (pose vzero (axis_quat (V3 1 0 0) 0))). set (g := aget (pose (fun _ => 1) (axis_quat (V3 1 0 0) 1))).
  set (two := fun (p : vec) (j : nat) => if Nat.ltb j 7 then p j else p (j - 7)%nat).
  assert (H2 : forall p j, (j < 7)%nat -> hand arm (two p) j = p j).
  { intros p j Hj. unfold hand, two. destruct (arm_dec arm Ha) as [-> | ->].
    - replace (7 * 0 + j)%nat with j by lia. destruct (Nat.ltb_spec j 7); [reflexivity|lia].
    - destruct (Nat.ltb_spec (7 * 1 + j) 7); [lia|]. now replace (7 * 1 + j - 7)%nat with j by lia. }
  assert (A2 : forall p, attitude (hand arm (two p)) = attitude p) by (intros p; unfold attitude; rewrite !H2 by lia; reflexivity).
  destruct (dual_example 1 (1/100) (1/1000) 0 false (fun _ => 25) (fun _ => 25/4) (two s) (two g))
    as (o & Hr & O1 & O2 & O3 & O4 & O5 & O6 & O7 & O8 & O9 & O10 & O11 & O12 & O13 & O14 & O15 & O16 & O17 & OI); [lra|].
  destruct (dual_example 1 h hi 0 false (fun _ => 25) (fun _ => 25/4) (two s) (two g))
    as (o' & Hr' & P1 & P2 & P3 & P4 & P5 & P6 & P7 & P8 & P9 & P10 & P11 & P12 & P13 & P14 & P15 & P16 & P17 & PI'); [lra|].
  destruct (C69_dual_runs_exist unit (Some T) None tt o' Hr') as [R1 _]; [lra|lra|].
  destruct (R1 Python) as (o2 & [] & ts & ys & EO).
  exists o, o', o2, ts, ys.
  assert (Pl : forall o, dual_reachable o -> o_execution_time o = 1 -> 0 < o_dt o -> 0 < o_int_dt o -> o_p_gain o = 0 ->
     o_smooth_scaling o = false -> p_start_yd (o_base o) = zeros 12 -> ft_goal_t (o_forcing_term o) = 1 -> plain_arm arm o).
  { intros a H1 H3 H4 H5 H6 H7 H8 H9. split; auto. split; [congruence|]. split; auto. split; [right; left; auto|].
    split; [intros j Hj; rewrite H8; reflexivity|]. repeat split; auto; lra. }
  assert (N1 : forall x, v3_norm (V3 x 0 0) = Rabs x).
  { intros z. unfold v3_norm, v3_dot. cbn. replace (z * z + 0 * 0 + 0 * 0) with (Rsqr z) by (unfold Rsqr; ring).
    apply sqrt_Rsqr_abs. }
  assert (X0 : x 0 = 1) by (unfold x; rewrite Rmult_0_r, Ropp_0, exp_0; ring).
  assert (XB : forall t, 0 <= t -> 0 <= x t <= 1).
  { intros t Ht. unfold x. pose proof (exp_pos (- (25 / 2 * t))) as P. split; [apply Rmult_le_pos; lra|].
    pose proof (exp_ineq1_le (25 / 2 * t)) as B.
    replace 1 with (exp (25 / 2 * t) * exp (- (25 / 2 * t))) at 2 by (rewrite <- exp_plus, Rplus_opp_r, exp_0; auto).
    apply Rmult_le_compat_r; lra. }
  split; [apply Pl; auto; lra|]. rewrite O8, O9, !A2.
  assert (Ux : unit_v3 (V3 1 0 0)) by (unfold unit_v3; cbn; ring).
  assert (Es : attitude s = axis_quat (V3 1 0 0) 0) by (apply quat_eq; reflexivity).
  assert (Eg : attitude g = axis_quat (V3 1 0 0) 1) by (apply quat_eq; reflexivity).
  rewrite Es, Eg.
  split; [now apply axis_quat_unit|]. split; [now apply axis_quat_unit|]. split.
  { intros X. apply (f_equal qx) in X. cbn in X. replace (0 / 2) with 0 in X by field. rewrite sin_0 in X.
    assert (0 < sin (1 / 2)) by (apply sin_gt_0; [lra|pose proof PI2_3_2; lra]). lra. }
  rewrite !H2 by lia. split; [reflexivity|]. split; [reflexivity|]. split.
  - unfold hand_turn_equation. cbv zeta.
    rewrite O8, O9, !A2, Es, Eg, O1, O5. unfold hand_turn_gains. rewrite O6, O7.
    split; [unfold q; rewrite X0; f_equal; ring|]. split; [unfold w, v3_zero; apply v3_eq; cbn; ring|].
    intros t Ht. pose proof (XB t (proj1 Ht)) as B. unfold e. rewrite N1, Rabs_pos_eq by lra.
    split; [pose proof PI2_3_2; lra|]. split; [|split].
    + exists (V3 1 0 0). split; auto. rewrite N1, Rabs_pos_eq by lra. split; [apply v3_eq; cbn; ring|].
      intros u. unfold q. rewrite !rotate_axis by auto.
      assert (EC : cos 1 = cos (x t + (1 - x t))) by (f_equal; ring).
      assert (ES : sin 1 = sin (x t + (1 - x t))) by (f_equal; ring).
      unfold rodrigues. rewrite EC, ES, cos_plus, sin_plus. unfold v3_dot, cross. apply v3_eq; cbn; ring.
    + assert (Dx : is_derive x t (- ((25 / 2) ^ 2 * t * exp (- (25 / 2 * t))))).
      { unfold x. auto_derive; auto. field. }
      pose proof (is_derive_unique _ _ _ Dx) as Ux'. assert (Ed : ex_derive x t) by (eexists; eauto).
      unfold q, w, quat_rate, axis_quat, is_derive_quat. cbn [qw qx qy qz v3x v3y v3z].
      set (v := (25 / 2) ^ 2 * t * exp (- (25 / 2 * t))) in *.
      assert (EH : (1 + - x t) * / 2 = (1 - x t) / 2) by (unfold Rdiv, Rminus; ring).
      change (Derive x t = - v) in Ux'.
      split; [|split; [|split]]; auto_derive; auto; change (Derive (fun x0 : R => x x0) t) with (Derive x t);
        rewrite Ux', ?EH; field.
    + unfold w, is_derive_v3. cbn [v3x v3y v3z].
      assert (Z : hand_turn_force arm o t = v3_zero).
      { unfold hand_turn_force, ft_call. rewrite zero_weights_forces by auto. reflexivity. }
      rewrite Z. unfold x. split; [|split]; auto_derive; auto; cbn; field.
  - split; [apply Pl; auto; lra|]. split; [|auto].
    unfold same_hand_equation. rewrite O6, O7, O8, O9, P6, P7, P8, P9. repeat split; try congruence.
Qed.
