(** C104: the positions of a CartesianDMP are a three-dimensional DMP after every
    history; so its movements approximate the same differential equation, depend
    continuously on the data and reproduce demonstrations.  Final statements. *)
From Coq Require Import Reals List Arith Lia Lra Psatz FunctionalExtensionality.
From Coquelicot Require Import Coquelicot.
From Verif Require Import M_Prelude M_Canonical M_Forcing M_Dmp M_Base M_DmpObject M_Ridge M_SpringDamper
  M_Quaternion M_Cartesian S_Loops S_Rotation S_Attributes P_Loops P_Canonical P_Forcing P_DmpStep P_DmpObject P_Converge
  P_Quaternion P_Cartesian P_Components Properties_Dmp Properties_DmpObject Properties_Goal Properties_Equivariance
  Properties_Continuity Properties_Ode Properties_Reproduction
  Properties_CartesianObject Properties_Attributes P_CartesianHistory.
Import ListNotations.
Open Scope R_scope.
Set Bullet Behavior "Strict Subproofs".

(** ** Specification *)
(** Component [j] of the position satisfies the differential equation of a DMP with
    the attributes of [o]. *)
Definition position_equation (o : cart) (j : nat) (y v : R -> R) : Prop :=
  let tau := k_execution_time o in
  let alpha := aget (k_alpha o) j in
  let beta := aget (k_beta o) j in
  let goal := aget (p_goal_y (k_base o)) j in
  let start := aget (p_start_y (k_base o)) j in
  y 0 = start /\ v 0 = 0 /\
  forall t, 0 <= t ->
    is_derive y t (v t)
    /\ is_derive v t
         ((alpha * (beta * (goal - y t) - tau * v t
                    - (if k_smooth o then beta * (goal - start) * ft_phase (k_fpos o) t else 0))
           + ft_call (k_fpos o) t j) / tau ^ 2).

(** Objects with the same equation for component [j] of the position; [dt], [int_dt]
    and everything that belongs to the orientation may differ. *)
Definition same_position_equation (j : nat) (o o' : cart) : Prop :=
  k_execution_time o' = k_execution_time o /\ k_n o' = k_n o /\ k_smooth o' = k_smooth o
  /\ ft_goal_t (k_fpos o') = ft_goal_t (k_fpos o)
  /\ aget (k_alpha o') j = aget (k_alpha o) j /\ aget (k_beta o') j = aget (k_beta o) j
  /\ aget (p_start_y (k_base o')) j = aget (p_start_y (k_base o)) j
  /\ aget (p_goal_y (k_base o')) j = aget (p_goal_y (k_base o)) j
  /\ forall i, (i < k_n o)%nat -> ft_weights (k_fpos o') j i = ft_weights (k_fpos o) j i.

Definition position_step_length (fn : step_function) (o : cart) : R :=
  match fn with
  | RK4 | RK4_cython => k_dt o
  | Euler | Euler_cython => Rmin (k_dt o) (k_int_dt o)
  end.

(** Step lengths and gains with which component [j] of the position converges. *)
Definition position_stable (fn : step_function) (o : cart) (j : nat) : Prop :=
  let alpha := aget (k_alpha o) j in
  alpha = 4 * aget (k_beta o) j /\ 0 < alpha
  /\ (uses_rk4 fn -> let x := alpha * k_dt o / (2 * k_execution_time o) in
                     x ^ 3 - 4 * x ^ 2 + 12 * x - 24 < 0)
  /\ (uses_euler fn -> alpha * k_int_dt o <= k_execution_time o).

(** The position components of two trajectories differ by at most [E]. *)
Definition positions_within (E : R) (j : nat) (ts ts' : list R) (ys ys' : list arr) : Prop :=
  ts' = ts /\ length ys' = length ys
  /\ forall k, (k < length ys)%nat -> Rabs (aget (nth k ys' (zeros 7)) j - aget (nth k ys (zeros 7)) j) <= E.

(** The forcing term of the positions with the weights [w] in component [j]. *)
Definition position_force_with (o : cart) (j : nat) (w : vec) (t : R) : R :=
  ft_call (set_ft_weights (fun _ => w) (k_fpos o)) t j.

(** ** Proofs *)
Lemma twin_open_loop run_t fn i o d ts ys : twin o d ->
  cart_open_loop run_t None (Some fn) (Some i) o = Ok (ts, ys) ->
  exists ys3, dmp_open_loop run_t None (Some fn) d = Ok (ts, ys3) /\ length ys3 = length ys
    /\ forall k j, (k < length ys)%nat -> (j < 3)%nat -> nth k ys3 vzero j = aget (nth k ys (zeros 7)) j.
Proof.
  intros H E. destruct (C37_open_loop_position_is_dmp run_t fn i None None o d ts ys
    (twin_position_part _ _ H) I E) as (ys3 & E3 & F).
  exists ys3. split; auto. clear E E3. induction F as [|y y3 l l3 Hy F IH]; cbn [length].
  - split; auto. intros; lia.
  - destruct IH as [HL IH]. split; [lia|]. intros k j Hk Hj. destruct k as [|k]; cbn [nth].
    + now apply Hy.
    + apply IH; auto; lia.
Qed.

Section Twin.
  Variables (o : cart) (d : dmp) (j : nat).
  Hypotheses (H : twin o d) (Hj : (j < 3)%nat).

  Lemma twin_alpha : aget (o_alpha_y d) j = aget (k_alpha o) j.
  Proof. rewrite (tw_alpha _ _ H). now apply slice3. Qed.
  Lemma twin_beta : aget (o_beta_y d) j = aget (k_beta o) j.
  Proof. rewrite (tw_beta _ _ H). now apply slice3. Qed.
  Lemma twin_start : aget (p_start_y (o_base d)) j = aget (p_start_y (k_base o)) j.
  Proof. now apply (bt_start _ _ (tw_base _ _ H)). Qed.
  Lemma twin_goal : aget (p_goal_y (o_base d)) j = aget (p_goal_y (k_base o)) j.
  Proof. now apply (bt_goal _ _ (tw_base _ _ H)). Qed.
  Lemma twin_phase t : ft_phase (o_forcing_term d) t = ft_phase (k_fpos o) t.
  Proof. destruct (tw_ft _ _ H) as (w & -> & _). reflexivity. Qed.
  Lemma twin_goal_t : ft_goal_t (o_forcing_term d) = ft_goal_t (k_fpos o).
  Proof. destruct (tw_ft _ _ H) as (w & -> & _). reflexivity. Qed.
  Lemma twin_w i : (i < k_n o)%nat -> ft_weights (o_forcing_term d) j i = ft_weights (k_fpos o) j i.
  Proof. intros Hi. destruct (tw_ft _ _ H) as (w & -> & Hw). cbn. auto. Qed.
  Lemma twin_call t : ft_call (o_forcing_term d) t j = ft_call (k_fpos o) t j.
  Proof.
    unfold ft_call. rewrite twin_phase. destruct (tw_ft _ _ H) as (w & -> & Hw).
    rewrite set_ft_weights_forces; auto. intros r i Hi. apply Hw. rewrite <- (tw_ft_n _ _ H). exact Hi.
  Qed.
  Lemma twin_force_with w t : force_with d j w t = position_force_with o j w t.
  Proof.
    unfold force_with, position_force_with. destruct (tw_ft _ _ H) as (v & -> & _). reflexivity.
  Qed.
  Lemma twin_step_length fn : step_length fn d = position_step_length fn o.
  Proof. unfold step_length, position_step_length. now rewrite (tw_dt _ _ H), (tw_int_dt _ _ H). Qed.
  Lemma twin_stable fn : position_stable fn o j -> stable fn d j.
  Proof.
    unfold position_stable, stable. now rewrite twin_alpha, twin_beta, (tw_dt _ _ H), (tw_int_dt _ _ H), (tw_time _ _ H).
  Qed.
  Lemma twin_equation y v : dmp_equation d j y v <-> position_equation o j y v.
  Proof.
    unfold dmp_equation, position_equation.
    rewrite twin_alpha, twin_beta, twin_start, twin_goal, (tw_time _ _ H), (tw_smooth _ _ H).
    split; intros (A & B & C); split; auto; split; auto; intros t Ht; destruct (C t Ht) as [D1 D2];
      rewrite ?twin_phase, ?twin_call in *; auto.
  Qed.
End Twin.

Lemma twin_same_equation o d o' d' j : twin o d -> twin o' d' -> (j < 3)%nat ->
  same_position_equation j o o' -> same_equation j d d'.
Proof.
  intros H H' Hj (A1 & A2 & A3 & A4 & A5 & A6 & A7 & A8 & A9).
  unfold same_equation. rewrite (tw_time _ _ H), (tw_time _ _ H'), (tw_n _ _ H), (tw_n _ _ H'),
    (tw_smooth _ _ H), (tw_smooth _ _ H'), (twin_goal_t _ _ H), (twin_goal_t _ _ H').
  rewrite !(twin_alpha _ _ j H), !(twin_alpha _ _ j H'), !(twin_beta _ _ j H), !(twin_beta _ _ j H'),
    !(twin_start _ _ j H), !(twin_start _ _ j H'), !(twin_goal _ _ j H), !(twin_goal _ _ j H') by auto.
  repeat split; auto. intros i Hi. rewrite (twin_w _ _ j H), (twin_w _ _ j H') by lia. auto.
Qed.

(** ** C104 *)
(** After every history of a CartesianDMP there is a history of a DMP with three
    dimensions that has the same clock, durations, gains, start, goal and position
    weights.  By C37 they then produce the same positions. *)
Theorem C104_position_dmp : forall o, cart_made o -> exists d, reachable 3 d /\ position_part o d.
Proof.
  intros o H. destruct (cart_made_stand_in o H) as [(d & Hr & Ht) _].
  exists d. split; auto. now apply twin_position_part.
Qed.

(** The differential equation of each position component has exactly one solution,
    and the positions computed by [open_loop], for every step function, approach it
    in proportion to the step length. *)
Theorem C104_differential_equation : forall o j T, cart_made o -> (j < 3)%nat ->
  0 < k_execution_time o -> 0 <= T ->
  exists y v, position_equation o j y v
  /\ (forall y' v', position_equation o j y' v' -> forall t, 0 <= t -> y' t = y t)
  /\ exists C, 0 <= C /\
     forall o' fn i run_t ts ys, cart_made o' -> same_position_equation j o o' ->
     0 < k_dt o' -> 0 < k_int_dt o' ->
     cart_open_loop run_t None (Some fn) (Some i) o' = Ok (ts, ys) ->
     length ys = length ts /\
     forall k, (k < length ts)%nat -> nth k ts 0 <= T ->
       Rabs (aget (nth k ys (zeros 7)) j - y (nth k ts 0)) <= C * position_step_length fn o'.
Proof.
  intros o j T Hm Hj Ht HT. destruct (cart_made_stand_in o Hm) as [(d & Hr & Hd) _].
  assert (Ht' : 0 < o_execution_time d) by (rewrite (tw_time _ _ Hd); auto).
  destruct (C96_solution 3 d j Hr Ht') as ((y & v & E) & U).
  exists y, v. split; [now apply (twin_equation o d j Hd Hj)|]. split.
  { intros y' v' E' t Htt. apply (U y' v' y v); auto. now apply (twin_equation o d j Hd Hj). }
  destruct (C96_converges 3 d j y v T Hr Ht' HT E) as (C & HC & HK). exists C. split; auto.
  intros o' fn i run_t ts ys Hm' HS Hdt Hi HO.
  destruct (cart_made_stand_in o' Hm') as [(d' & Hr' & Hd') _].
  destruct (twin_open_loop _ _ _ _ _ _ _ Hd' HO) as (ys3 & E3 & HL & HN).
  destruct (HK 3%nat d' fn run_t ts ys3 Hr' (twin_same_equation _ _ _ _ _ Hd Hd' Hj HS)
    ltac:(now rewrite (tw_dt _ _ Hd')) ltac:(now rewrite (tw_int_dt _ _ Hd')) E3) as (L & B).
  split; [lia|]. intros k Hk HkT. rewrite <- HN by lia. rewrite <- (twin_step_length _ _ Hd').
  now apply B.
Qed.

(** The positions depend continuously on the start, goal and weights of the
    positions, with a constant that does not depend on the length of the movement. *)
Theorem C104_continuity : exists K : step_function -> R -> R -> R -> R,
  forall fn i i' o o' j D run_t ts ys ts' ys', cart_made o -> cart_made o' -> (j < 3)%nat ->
  k_execution_time o' = k_execution_time o -> k_dt o' = k_dt o -> k_int_dt o' = k_int_dt o ->
  k_n o' = k_n o -> k_smooth o' = k_smooth o -> ft_goal_t (k_fpos o') = ft_goal_t (k_fpos o) ->
  0 < k_execution_time o -> 0 < k_dt o -> 0 < k_int_dt o -> position_stable fn o j ->
  aget (k_alpha o') j = aget (k_alpha o) j -> aget (k_beta o') j = aget (k_beta o) j ->
  Rabs (aget (p_start_y (k_base o')) j - aget (p_start_y (k_base o)) j) <= D ->
  Rabs (aget (p_goal_y (k_base o')) j - aget (p_goal_y (k_base o)) j) <= D ->
  (forall w, (w < k_n o)%nat -> Rabs (ft_weights (k_fpos o') j w - ft_weights (k_fpos o) j w) <= D) ->
  cart_open_loop run_t None (Some fn) (Some i) o = Ok (ts, ys) ->
  cart_open_loop run_t None (Some fn) (Some i') o' = Ok (ts', ys') ->
  positions_within (K fn (aget (k_alpha o) j) (k_execution_time o) (k_dt o) * D) j ts ts' ys ys'.
Proof.
  destruct C95_data as [K HK]. exists K.
  intros fn i i' o o' j D run_t ts ys ts' ys' Hm Hm' Hj E1 E2 E3 E4 E5 E6 P1 P2 P3 Hst Ea Eb D1 D2 D3 O O'.
  destruct (cart_made_stand_in o Hm) as [(d & Hr & Hd) _].
  destruct (cart_made_stand_in o' Hm') as [(d' & Hr' & Hd') _].
  destruct (twin_open_loop _ _ _ _ _ _ _ Hd O) as (y3 & O3 & HL & HN).
  destruct (twin_open_loop _ _ _ _ _ _ _ Hd' O') as (y3' & O3' & HL' & HN').
  assert (HS : same_settings d d').
  { unfold same_settings. rewrite (tw_time _ _ Hd), (tw_time _ _ Hd'), (tw_n _ _ Hd), (tw_n _ _ Hd'),
      (tw_dt _ _ Hd), (tw_dt _ _ Hd'), (tw_int_dt _ _ Hd), (tw_int_dt _ _ Hd'),
      (tw_smooth _ _ Hd), (tw_smooth _ _ Hd'), (twin_goal_t _ _ Hd), (twin_goal_t _ _ Hd'). auto 10. }
  assert (HD : data_within D j d d').
  { unfold data_within. rewrite (twin_start _ _ j Hd), (twin_start _ _ j Hd'), (twin_goal _ _ j Hd),
      (twin_goal _ _ j Hd'), (tw_n _ _ Hd) by auto. repeat split; auto. intros w Hw.
    rewrite (twin_w _ _ j Hd), (twin_w _ _ j Hd') by lia. auto. }
  pose proof (HK fn 3%nat 3%nat d d' j D run_t Hr Hr' HS) as M.
  rewrite (tw_time _ _ Hd), (tw_dt _ _ Hd), (tw_int_dt _ _ Hd) in M.
  rewrite !(twin_alpha _ _ j Hd), !(twin_alpha _ _ j Hd'), !(twin_beta _ _ j Hd), !(twin_beta _ _ j Hd') in M by auto.
  specialize (M P1 P2 P3 Hj Hj (twin_stable _ _ j Hd Hj fn Hst) Ea Eb HD).
  unfold movements_within in M. rewrite O3, O3' in M. destruct M as (-> & M2 & M3).
  split; auto. split; [lia|]. intros k Hk. rewrite <- HN, <- HN' by lia. apply M3. lia.
Qed.

(** Demonstrations with the same times that differ little in component [j] of the
    positions lead to positions that differ little. *)
Theorem C104_demonstrations : forall o fn j m T lam allow, cart_made o -> (j < 3)%nat ->
  0 < k_execution_time o -> 0 < k_dt o -> 0 < k_int_dt o -> position_stable fn o j ->
  0 <= lam -> (2 <= m)%nat -> (forall t, (S t < m)%nat -> T t < T (S t)) ->
  exists K, forall i i' jp jr jp' jr' dm dm' D run_t o1 o2 ts ys ts' ys',
  demonstrates 7 dm -> demonstrates 7 dm' -> d_n dm = m -> d_n dm' = m ->
  (forall t, d_T dm t = T t) -> (forall t, d_T dm' t = T t) ->
  (forall t, (t < m)%nat -> Rabs (d_Y dm' t j - d_Y dm t j) <= D) ->
  cart_imitate jp jr ridge_regression dm lam allow o = (o1, Ok tt) ->
  cart_imitate jp' jr' ridge_regression dm' lam allow o = (o2, Ok tt) ->
  cart_open_loop run_t None (Some fn) (Some i) o1 = Ok (ts, ys) ->
  cart_open_loop run_t None (Some fn) (Some i') o2 = Ok (ts', ys') ->
  positions_within (K * D) j ts ts' ys ys'.
Proof.
  intros o fn j m T lam allow Hm Hj P1 P2 P3 Hst Hlam Hm2 HT.
  destruct (cart_made_stand_in o Hm) as [(d & Hr & Hd) _].
  destruct (C95_demonstrations 3 d fn j m T lam allow Hr) as (K & HK);
    rewrite ?(tw_time _ _ Hd), ?(tw_dt _ _ Hd), ?(tw_int_dt _ _ Hd); auto.
  { now apply (twin_stable o d j Hd Hj). }
  exists K. intros i i' jp jr jp' jr' dm dm' D run_t o1 o2 ts ys ts' ys' Dm Dm' En En' ET ET' HD I1 I2 O O'.
  pose proof (imitate_twin jp jr ridge_regression dm lam allow o d Hd) as T1. rewrite I1 in T1.
  pose proof (imitate_twin jp' jr' ridge_regression dm' lam allow o d Hd) as T2. rewrite I2 in T2.
  specialize (T1 eq_refl). specialize (T2 eq_refl). cbn [fst] in T1, T2.
  destruct (twin_open_loop _ _ _ _ _ _ _ T1 O) as (y3 & O3 & HL & HN).
  destruct (twin_open_loop _ _ _ _ _ _ _ T2 O') as (y3' & O3' & HL' & HN').
  pose proof (HK jp jp' (positions dm) (positions dm') D run_t) as M.
  unfold imitate, movements_within in M. rewrite O3, O3' in M.
  destruct M as (-> & M2 & M3); auto.
  - destruct Dm as (A & B & C). unfold demonstrates; cbn; auto.
  - destruct Dm' as (A & B & C). unfold demonstrates; cbn; auto.
  - intros t Ht. cbn [positions d_Y]. rewrite !slice3 by auto. auto.
  - split; auto. split; [lia|]. intros k Hk. rewrite <- HN, <- HN' by lia. apply M3. lia.
Qed.

(** A smooth motion that starts at rest is recorded with [N + 1] equidistant samples
    in component [j] of the positions and imitated (whatever the orientations do).
    The positions stay close to the motion as in C97. *)
Theorem C104_reproduces : forall tau alpha beta smooth y v a, 0 < tau -> smooth_motion tau y v a ->
  exists C, 0 <= C /\
  forall o o' j N jp jr dm lam allow fn i w eps ts ys, cart_made o -> (j < 3)%nat ->
  k_execution_time o = tau -> ft_goal_t (k_fpos o) = tau ->
  aget (k_alpha o) j = alpha -> aget (k_beta o) j = beta -> k_smooth o = smooth ->
  (2 <= N)%nat -> demonstrates 7 dm -> recorded tau N j y dm ->
  0 <= lam -> (allow = true \/ v tau = 0) ->
  fn = Euler \/ fn = Euler_cython -> k_dt o = tau / INR N -> k_dt o <= k_int_dt o ->
  (forall t, 0 <= t <= tau ->
     Rabs (required_force tau alpha beta smooth y v a t - position_force_with o j w t) <= eps) ->
  cart_imitate jp jr ridge_regression dm lam allow o = (o', Ok tt) ->
  cart_open_loop None None (Some fn) (Some i) o' = Ok (ts, ys) ->
  length ys = length ts /\
  forall k, (k < length ts)%nat -> nth k ts 0 <= tau ->
    Rabs (aget (nth k ys (zeros 7)) j - y (nth k ts 0))
    <= C * (sqrt (k_dt o) + eps + sqrt (lam * k_dt o * rsum (k_n o) (fun i => w i ^ 2))).
Proof.
  intros tau alpha beta smooth y v a Htau Hs.
  destruct (C97_reproduces tau alpha beta smooth y v a Htau Hs) as (C & HC & HK). exists C. split; auto.
  intros o o' j N jp jr dm lam allow fn i w eps ts ys Hm Hj Ex Hg Ea Eb Esm HN Hdem Hrec Hlam Hal Hfn Edt Hint
    Heps EI HO.
  destruct (cart_made_stand_in o Hm) as [(d & Hr & Hd) _].
  pose proof (imitate_twin jp jr ridge_regression dm lam allow o d Hd) as T. rewrite EI in T.
  specialize (T eq_refl). cbn [fst] in T.
  change (fst (dmp_imitate_method jp ridge_regression (positions dm) lam allow d))
    with (imitate jp (positions dm) lam allow d) in T.
  destruct (twin_open_loop _ _ _ _ _ _ _ T HO) as (ys3 & E3 & HL & HNth).
  assert (Hrec3 : recorded tau N j y (positions dm)).
  { destruct Hrec as (A & B & D). unfold recorded, positions; cbn. repeat split; auto.
    intros k Hk. rewrite slice3 by auto. auto. }
  assert (Hdem3 : demonstrates 3 (positions dm)) by (destruct Hdem as (A & B & D); unfold demonstrates; cbn; auto).
  destruct (HK 3%nat d j N jp (positions dm) lam allow fn w eps ts ys3) as (L & B); auto;
    rewrite ?(tw_time _ _ Hd), ?(twin_goal_t _ _ Hd), ?(twin_alpha _ _ j Hd Hj), ?(twin_beta _ _ j Hd Hj),
      ?(tw_smooth _ _ Hd), ?(tw_dt _ _ Hd), ?(tw_int_dt _ _ Hd); auto.
  { intros t Htt. rewrite (twin_force_with _ _ j Hd). auto. }
  split; [lia|]. intros k Hk HkT. rewrite <- HNth by lia.
  specialize (B k Hk HkT). rewrite (tw_dt _ _ Hd), (tw_n _ _ Hd) in B. exact B.
Qed.

(** A new object for which a history with a change of both step lengths is made, and
    the motion [t^2] in all three components, recorded with any number of samples. *)
Example C104_satisfiable : forall N, (5 <= N)%nat ->
  let y := fun t => t ^ 2 in let v := fun t => 2 * t in let a := fun _ : R => 2 in
  smooth_motion 1 y v a
  /\ exists o o' dm ts ys, cart_made o /\ k_execution_time o = 1 /\ ft_goal_t (k_fpos o) = 1
     /\ aget (k_alpha o) 2%nat = 25 /\ aget (k_beta o) 2%nat = 25/4 /\ k_smooth o = false
     /\ position_stable RK4 o 2
     /\ demonstrates 7 dm /\ recorded 1 N 2 y dm /\ k_dt o = 1 / INR N /\ k_dt o <= k_int_dt o
     /\ (forall t, 0 <= t <= 1 ->
          Rabs (required_force 1 25 (25/4) false y v a t - position_force_with o 2 vzero t) <= 209)
     /\ cart_imitate (vzero, vzero) (vzero, vzero) ridge_regression dm 0 true o = (o', Ok tt)
     /\ cart_open_loop None None (Some Euler) (Some Python) o' = Ok (ts, ys).
Proof.
  intros N HN y v a.
  assert (PN : 5 <= INR N) by (replace 5 with (INR 5) by (simpl; lra); now apply le_INR).
  assert (Ph : 0 < 1 / INR N) by (apply Rdiv_lt_0_compat; lra).
  split.
  { split; [unfold v; ring|]. split.
    - intros t _. unfold y, v, a. split; auto_derive; auto; ring.
    - exists 0. split; [lra|]. intros s t _ _. unfold a. rewrite Rminus_diag_eq by auto. rewrite Rabs_R0. lra. }
  destruct (init_forcing_term_accepts (vzero, vzero) 2 1) as [f Ef]; [lia|lra|].
  destruct (init_forcing_term_inv _ _ _ _ Ef) as (_ & _ & F).
  pose proof (forcing_term_init_n _ _ _ _ _ _ _ _ F) as (Fn & Fg & Fs & Fo & Fa & _).
  set (o := {| k_base := ptp_init 7 6; k_execution_time := 1; k_dt := 1 / INR N; k_n := 2;
        k_int_dt := 1 / INR N; k_smooth := false; k_fpos := f; k_frot := f;
        k_alpha := {| alen := 6; aget := fun _ => 25 |}; k_beta := {| alen := 6; aget := fun _ => 25/4 |} |}).
  set (dm := {| d_n := S N; d_T := fun k => INR k * (1 / INR N); d_rows := S N; d_dims := 7;
     d_Y := fun k j => if Nat.ltb j 3 then y (INR k * (1 / INR N)) else if Nat.eqb j 3 then 1 else 0 |}).
  assert (HT : d_T dm 0%nat < d_T dm (S N - 1)%nat).
  { cbn [dm d_T]. replace (S N - 1)%nat with N by lia. simpl (INR 0). rewrite Rmult_0_l.
    apply Rmult_lt_0_compat; lra. }
  assert (EI : exists o', cart_imitate (vzero, vzero) (vzero, vzero) ridge_regression dm 0 true o = (o', Ok tt)
      /\ k_execution_time o' = 1 /\ k_int_dt o' = 1 / INR N /\ k_dt o' = 1 / INR N).
  { unfold cart_imitate. change (d_dims dm) with 7%nat. cbn [Nat.eqb negb]. cbv zeta.
    change (d_n dm) with (S N).
    unfold dmp_imitate. destruct (Rlt_dec 0 0) as [X|_]; [lra|]. cbn [d_n d_T d_rows d_dims d_Y Nat.eqb].
    change (d_rows dm) with (S N). rewrite Nat.eqb_refl. cbn [negb andb].
    cbn [o k_n k_fpos k_frot k_smooth k_alpha k_beta aget fst snd]. rewrite Fo, Fa.
    destruct (forcing_term_init_ok vzero vzero 2 (d_T dm (S N - 1)%nat) (d_T dm 0%nat) (8/10) (- ln (1/100)))
      as (g & Eg & _); [lia|exact HT|lra|].
    rewrite Eg. cbn [bind]. unfold determine_forces at 1. destruct (Nat.ltb_spec (S N) 2) as [X|_]; [lia|].
    cbn [bind]. unfold dmp_quaternion_imitation. destruct (Rlt_dec 0 0) as [X|_]; [lra|]. cbn [Nat.eqb].
    cbn [k_n k_frot cart_with_fpos fst snd]. cbn [o k_n k_frot]. rewrite Fo, Fa, Eg. cbn [bind].
    unfold determine_forces_quaternion at 1. destruct (Nat.ltb_spec (S N) 2) as [X|_]; [lia|].
    cbn [bind]. unfold cart_configure, configure, configure_block, check_1d_array_length.
    cbn [c_t c_start_y c_start_yd c_start_ydd c_goal_y c_goal_yd c_goal_ydd alen k_base cart_with_frot cart_with_fpos
      p_n_dims ptp_init Nat.eqb and_then set_start_y set_goal_y].
    eexists. split; [reflexivity|]. cbn. auto. }
  destruct EI as (o' & EI & X1 & X2 & X3).
  destruct (C69_runs_exist o' None Euler Python None) as (ts & ys & EO);
    [rewrite X1; lra|rewrite X2; exact Ph|rewrite X3; exact Ph|exact I|].
  exists o, o', dm, ts, ys. split.
  { exists (vzero, vzero), (vzero, vzero), 1, (1/100), 2%nat, (1/1000), false,
      {| shape := []; data := fun _ => 25 |}, {| shape := []; data := fun _ => 25/4 |}.
    eexists. exists [KSetDt (1 / INR N); KSetIntDt (1 / INR N)]. split.
    - unfold cart_new. rewrite Ef. cbn [bind]. unfold ensure_1d_array. cbn -[Nat.eqb]. reflexivity.
    - reflexivity. }
  split; [reflexivity|]. split; [exact Fg|]. do 3 (split; [reflexivity|]). split.
  { unfold position_stable. cbn [o k_alpha k_beta aget k_dt k_execution_time k_int_dt]. split; [lra|]. split; [lra|]. split.
    - intros _. cbv zeta.
      assert (H : 1 / INR N <= 1 / 5) by (apply Rmult_le_compat_l; [lra|]; apply Rinv_le_contravar; lra).
      replace (25 * (1 / INR N) / (2 * 1)) with (25 / 2 * (1 / INR N)) by (field; lra).
      set (h := 1 / INR N) in *. clearbody h. assert (0 < 25 / 2 * h <= 5 / 2) by lra.
      set (x := 25 / 2 * h) in *. clearbody x. nra.
    - intros X. unfold uses_euler in X. destruct X; discriminate. }
  split; [split; [exact HT|split; reflexivity]|]. split.
  { unfold recorded, dm. cbn. auto. }
  split; [reflexivity|]. split; [apply Rle_refl|]. split.
  { intros t Ht. unfold required_force, position_force_with, ft_call, ft_forces, y, v, a.
    cbn [set_ft_weights ft_weights]. rewrite (rsum_ext _ _ (fun _ => 0)) by (intros; unfold vzero; ring).
    rewrite rsum_const. apply Rabs_le. nra. }
  split; [exact EI|exact EO].
Qed.
