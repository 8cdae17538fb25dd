(** The positions of a CartesianDMP: continuity for all gains (C95) and the order of the
    Runge-Kutta step functions (C105).  Final statements. *)
From Coq Require Import Reals ZArith List Arith Bool Lia Lra Psatz FunctionalExtensionality.
From Coquelicot Require Import Coquelicot.
From Verif Require Import M_Prelude M_Canonical M_Forcing M_Dmp M_Base M_DmpObject M_Ridge M_SpringDamper
  M_Quaternion M_Cartesian S_Loops S_Dmp S_Attributes S_Stability P_Loops P_Forcing P_DmpStep P_Stability P_CartesianHistory P_Cartesian P_DmpObject P_Components
  Properties_Forcing Properties_Dmp Properties_DmpObject Properties_Goal Properties_Equivariance Properties_Continuity
  Properties_Stability Properties_ContinuityAll Properties_Ode Properties_Order Properties_CartesianObject Properties_Attributes
  Properties_CartesianHistory.
Import ListNotations.
Open Scope R_scope.
Set Bullet Behavior "Strict Subproofs".

(** ** Specification *)
(** The steps of the integrator make the motions of the spring of component [j] smaller; see
    [rk4_shrinks] and [euler_shrinks] in S_Stability.v for the exact conditions. *)
Definition position_steps_shrink (fn : step_function) (o : cart) (j : nat) : Prop :=
  let tau := k_execution_time o in
  let c := aget (k_alpha o) j / tau in let k := aget (k_alpha o) j * aget (k_beta o) j / tau ^ 2 in
  match fn with
  | RK4 | RK4_cython => rk4_shrinks (k_dt o) c k
  | Euler | Euler_cython =>
      equal_parts (k_dt o) (k_int_dt o) /\ euler_shrinks (Rmin (k_dt o) (k_int_dt o)) c k
  end.

(** Objects that differ only in start, goal and weights, in component [j] by at most [D]. *)
Definition positions_configured_within (D : R) (j : nat) (o o' : cart) : Prop :=
  Rabs (aget (p_start_y (k_base o')) j - aget (p_start_y (k_base o)) j) <= D
  /\ Rabs (aget (p_goal_y (k_base o')) j - aget (p_goal_y (k_base o)) j) <= D
  /\ forall w, (w < k_n o)%nat -> Rabs (ft_weights (k_fpos o') j w - ft_weights (k_fpos o) j w) <= D.
Definition same_position_settings (j : nat) (o o' : cart) : Prop :=
  k_execution_time o' = k_execution_time o /\ k_dt o' = k_dt o /\ k_int_dt o' = k_int_dt o
  /\ k_n o' = k_n o /\ k_smooth o' = k_smooth o /\ ft_goal_t (k_fpos o') = ft_goal_t (k_fpos o)
  /\ aget (k_alpha o') j = aget (k_alpha o) j /\ aget (k_beta o') j = aget (k_beta o) j.

(** The differential equation of component [j] in which the forcing term runs ahead of the time
    by [a]. *)
Definition position_equation_ahead (a : R) (o : cart) (j : nat) (y v : R -> R) : Prop :=
  let tau := k_execution_time o in
  let alpha := aget (k_alpha o) j in
  let beta := aget (k_beta o) j in
  let goal := aget (p_goal_y (k_base o)) j in
  let start := aget (p_start_y (k_base o)) j in
  y 0 = start /\ v 0 = 0 /\
  forall t, 0 <= t ->
    is_derive y t (v t)
    /\ is_derive v t
         ((alpha * (beta * (goal - y t) - tau * v t
                    - (if k_smooth o then beta * (goal - start) * ft_phase (k_fpos o) (t + a) else 0))
           + ft_call (k_fpos o) (t + a) j) / tau ^ 2).

(** ** Proofs *)
Lemma twin_ahead o d j a y v : twin o d -> (j < 3)%nat -> (equation_ahead a d j y v <-> position_equation_ahead a o j y v).
Proof.
  intros H Hj. unfold equation_ahead, position_equation_ahead.
  rewrite (twin_alpha o d j H), (twin_beta o d j H), (twin_start o d j H), (twin_goal o d j H), (tw_time _ _ H), (tw_smooth _ _ H) by auto.
  split; intros (A & B & C); split; auto; split; auto; intros t Ht; destruct (C t Ht) as [D1 D2];
    (split; [exact D1|]); [rewrite <- (twin_call o d j H (t + a)), <- (twin_phase o d H (t + a))|rewrite (twin_call o d j H (t + a)), (twin_phase o d H (t + a))]; exact D2.
Qed.

Lemma twin_shrinks fn o d j : twin o d -> (j < 3)%nat -> position_steps_shrink fn o j -> steps_shrink fn d j.
Proof.
  intros H Hj. unfold position_steps_shrink, steps_shrink, dmp_damping, dmp_stiffness.
  now rewrite (twin_alpha o d j H), (twin_beta o d j H), (tw_time _ _ H), (tw_dt _ _ H), (tw_int_dt _ _ H).
Qed.

Lemma twin_settings o d o' d' j : twin o d -> twin o' d' -> (j < 3)%nat -> same_position_settings j o o' ->
  same_settings d d' /\ gains_like d j d'.
Proof.
  intros Hd Hd' Hj (E1 & E2 & E3 & E4 & E5 & E6 & E7 & E8). split.
  - unfold same_settings. rewrite (tw_time _ _ Hd), (tw_time _ _ Hd'), (tw_n _ _ Hd), (tw_n _ _ Hd'),
      (tw_dt _ _ Hd), (tw_dt _ _ Hd'), (tw_int_dt _ _ Hd), (tw_int_dt _ _ Hd'),
      (tw_smooth _ _ Hd), (tw_smooth _ _ Hd'), (twin_goal_t _ _ Hd), (twin_goal_t _ _ Hd'). auto 10.
  - unfold gains_like.
    now rewrite (twin_alpha o d j Hd), (twin_beta o d j Hd), (twin_alpha o' d' j Hd'), (twin_beta o' d' j Hd').
Qed.

(** ** C104 *)
(** For all gains for which the steps shrink: movements depend continuously on start, goal and
    weights; the constant depends on times and gains only. *)
Theorem C104_continuity_all_gains : forall fn o0 j, cart_made o0 -> (j < 3)%nat ->
  0 < k_execution_time o0 -> 0 < k_dt o0 -> 0 < k_int_dt o0 -> position_steps_shrink fn o0 j ->
  exists K, forall i i' o o' D run_t ts ys ts' ys', cart_made o -> cart_made o' ->
  same_position_settings j o0 o -> same_position_settings j o0 o' -> positions_configured_within D j o o' ->
  cart_open_loop run_t None (Some fn) (Some i) o = Ok (ts, ys) ->
  cart_open_loop run_t None (Some fn) (Some i') o' = Ok (ts', ys') ->
  positions_within (K * D) j ts ts' ys ys'.
Proof.
  intros fn o0 j Hm0 Hj P1 P2 P3 Hst.
  destruct (cart_made_stand_in o0 Hm0) as [(d0 & Hr0 & Hd0) _].
  destruct (C95_data_all_gains fn d0 j) as [K HK];
    rewrite ?(tw_time _ _ Hd0), ?(tw_dt _ _ Hd0), ?(tw_int_dt _ _ Hd0); auto; [now apply (twin_shrinks fn o0)|].
  exists K. intros i i' o o' D run_t ts ys ts' ys' Hm Hm' S S' (D1 & D2 & D3) O O'.
  destruct (cart_made_stand_in o Hm) as [(d & Hr & Hd) _].
  destruct (cart_made_stand_in o' Hm') as [(d' & Hr' & Hd') _].
  destruct (twin_open_loop _ _ _ _ _ _ _ Hd O) as (y3 & O3 & HL & HN).
  destruct (twin_open_loop _ _ _ _ _ _ _ Hd' O') as (y3' & O3' & HL' & HN').
  destruct (twin_settings _ _ _ _ j Hd0 Hd Hj S) as [S1 G1]. destruct (twin_settings _ _ _ _ j Hd0 Hd' Hj S') as [S2 G2].
  assert (S12 : same_settings d d').
  { destruct S1 as (A1 & A2 & A3 & A4 & A5 & A6), S2 as (B1 & B2 & B3 & B4 & B5 & B6).
    unfold same_settings. repeat split; congruence. }
  assert (HD : data_within D j d d').
  { destruct S as (_ & _ & _ & N & _), S' as (_ & _ & _ & N' & _).
    unfold data_within. rewrite (twin_start _ _ j Hd), (twin_start _ _ j Hd'), (twin_goal _ _ j Hd),
      (twin_goal _ _ j Hd'), (tw_n _ _ Hd) by auto. repeat split; auto. intros w Hw.
    rewrite (twin_w _ _ j Hd), (twin_w _ _ j Hd') by lia. auto. }
  pose proof (HK 3%nat 3%nat d d' D run_t Hr Hr' S1 S12 G1 G2 HD) as M.
  unfold movements_within in M. rewrite O3, O3' in M. destruct M as (-> & M2 & M3).
  split; auto. split; [lia|]. intros k Hk. rewrite <- HN, <- HN' by lia. apply M3. lia.
Qed.

(** The Runge-Kutta step functions are of fourth order for the equation of a position component
    in which the forcing term runs ahead by one time step; that equation has a solution. *)
Theorem C104_fourth_order_ahead : forall o j T, cart_made o -> (j < 3)%nat -> 0 < k_execution_time o -> 0 <= T ->
  (forall a, exists y v, position_equation_ahead a o j y v) /\
  exists C, 0 <= C /\
  forall o' fn i run_t ts ys y v, cart_made o' -> same_position_equation j o o' -> 0 < k_dt o' ->
  runge_kutta fn -> cart_open_loop run_t None (Some fn) (Some i) o' = Ok (ts, ys) ->
  position_equation_ahead (k_dt o') o j y v ->
  length ys = length ts /\
  forall k, (k < length ts)%nat -> nth k ts 0 <= T ->
    Rabs (aget (nth k ys (zeros 7)) j - y (nth k ts 0)) <= C * k_dt o' ^ 4.
Proof.
  intros o j T Hm Hj Ht HT. destruct (cart_made_stand_in o Hm) as [(d & Hr & Hd) _].
  assert (Ht' : 0 < o_execution_time d) by (rewrite (tw_time _ _ Hd); auto). split.
  { intros a. destruct (C105_solution 3 d j a Hr Ht') as (y & v & E). exists y, v. now apply (twin_ahead o d). }
  destruct (C105_fourth_order_ahead 3 d j T Hr Ht' HT) as (C & HC & HK). exists C. split; auto.
  intros o' fn i run_t ts ys y v Hm' HS Hdt Hfn HO HE.
  destruct (cart_made_stand_in o' Hm') as [(d' & Hr' & Hd') _].
  destruct (twin_open_loop _ _ _ _ _ _ _ Hd' HO) as (ys3 & E3 & HL & HN).
  destruct (HK 3%nat d' fn run_t ts ys3 y v Hr' (twin_same_equation _ _ _ _ _ Hd Hd' Hj HS)
    ltac:(now rewrite (tw_dt _ _ Hd')) Hfn E3) as (L & B).
  { rewrite (tw_dt _ _ Hd'). now apply (twin_ahead o d). }
  split; [lia|]. intros k Hk HkT. rewrite <- HN by lia. rewrite (tw_dt _ _ Hd') in B. now apply B.
Qed.

(** Without forcing term and smooth scaling they are of fourth order for the equation of the
    movement itself. *)
Theorem C104_fourth_order_unforced : forall o j y v T, cart_made o -> (j < 3)%nat -> 0 < k_execution_time o -> 0 <= T ->
  (forall i, (i < k_n o)%nat -> ft_weights (k_fpos o) j i = 0) ->
  k_smooth o = false \/ aget (p_goal_y (k_base o)) j = aget (p_start_y (k_base o)) j ->
  position_equation o j y v ->
  exists C, 0 <= C /\
  forall o' fn i run_t ts ys, cart_made o' -> same_position_equation j o o' -> 0 < k_dt o' ->
  runge_kutta fn -> cart_open_loop run_t None (Some fn) (Some i) o' = Ok (ts, ys) ->
  length ys = length ts /\
  forall k, (k < length ts)%nat -> nth k ts 0 <= T ->
    Rabs (aget (nth k ys (zeros 7)) j - y (nth k ts 0)) <= C * k_dt o' ^ 4.
Proof.
  intros o j y v T Hm Hj Ht HT Hw Hs HE. destruct (cart_made_stand_in o Hm) as [(d & Hr & Hd) _].
  assert (Ht' : 0 < o_execution_time d) by (rewrite (tw_time _ _ Hd); auto).
  destruct (C105_fourth_order_unforced 3 d j y v T Hr Ht' HT) as (C & HC & HK).
  - intros i Hi. rewrite (tw_n _ _ Hd) in Hi. rewrite (twin_w o d j Hd) by auto. auto.
  - now rewrite (tw_smooth _ _ Hd), (twin_start o d j Hd), (twin_goal o d j Hd).
  - now apply (twin_equation o d j Hd Hj).
  - exists C. split; auto. intros o' fn i run_t ts ys Hm' HS Hdt Hfn HO.
    destruct (cart_made_stand_in o' Hm') as [(d' & Hr' & Hd') _].
    destruct (twin_open_loop _ _ _ _ _ _ _ Hd' HO) as (ys3 & E3 & HL & HN).
    destruct (HK 3%nat d' fn run_t ts ys3 Hr' (twin_same_equation _ _ _ _ _ Hd Hd' Hj HS)
      ltac:(now rewrite (tw_dt _ _ Hd')) Hfn E3) as (L & B).
    split; [lia|]. intros k Hk HkT. rewrite <- HN by lia. rewrite (tw_dt _ _ Hd') in B. now apply B.
Qed.

(** An object with gains that are not critically damped whose steps shrink with both integrators,
    and the same object with another goal. *)
Example C104_more_satisfiable : exists o o' ts ys ts' ys', cart_made o /\ cart_made o'
  /\ 0 < k_execution_time o /\ 0 < k_dt o /\ 0 < k_int_dt o
  /\ position_steps_shrink RK4 o 1 /\ position_steps_shrink Euler o 1
  /\ aget (k_alpha o) 1%nat <> 4 * aget (k_beta o) 1%nat
  /\ same_position_settings 1 o o /\ same_position_settings 1 o o' /\ positions_configured_within (1/10) 1 o o'
  /\ aget (p_goal_y (k_base o)) 1%nat <> aget (p_goal_y (k_base o')) 1%nat
  /\ same_position_equation 1 o o /\ (forall i, ft_weights (k_fpos o) 1%nat i = 0) /\ k_smooth o = false
  /\ cart_open_loop None None (Some RK4) (Some Python) o = Ok (ts, ys)
  /\ cart_open_loop None None (Some RK4) (Some Python) o' = Ok (ts', ys').
Proof.
  destruct (init_forcing_term_accepts (vzero, vzero) 2 1) as [f Ef]; [lia|lra|].
  destruct (init_forcing_term_inv _ _ _ _ Ef) as (_ & _ & F).
  assert (FW : forall d k, ft_weights f d k = 0).
  { unfold forcing_term_init in F. cbn [Nat.leb] in F. destruct (Rle_dec 1 0); [lra|]. destruct (Rle_dec (8/10) 0); [lra|].
    destruct (init_rbfs _ _ _ _ _ _ _). inversion F. reflexivity. }
  set (cfg x := {| c_t := None; c_start_y := None; c_start_yd := None; c_start_ydd := None;
     c_goal_y := Some {| alen := 7; aget := fun j => if Nat.eqb j 1 then x else if Nat.eqb j 3 then 1 else 0 |};
     c_goal_yd := None; c_goal_ydd := None |}).
  assert (Mk : forall x, exists o, cart_made o /\ k_execution_time o = 1 /\ k_n o = 2%nat /\ k_smooth o = false
     /\ k_fpos o = f /\ aget (k_alpha o) 1%nat = 25 /\ aget (k_beta o) 1%nat = 4
     /\ aget (p_start_y (k_base o)) 1%nat = 0 /\ aget (p_goal_y (k_base o)) 1%nat = x
     /\ k_dt o = 1 / 100 /\ k_int_dt o = 1 / 1000).
  { intros x. eexists. split.
    - exists (vzero, vzero), (vzero, vzero), 1, (1/100), 2%nat, (1/1000), false,
      {| shape := []; data := fun _ => 25 |}, {| shape := []; data := fun _ => 4 |}.
      eexists. exists [KConfigure (cfg x)]. split.
      + unfold cart_new. rewrite Ef. cbn [bind]. unfold ensure_1d_array. cbn -[Nat.eqb]. reflexivity.
      + reflexivity.
    - unfold cart_history. cbn [fold_left cart_exec cart_configure]. repeat split. }
  destruct (Mk 1) as (o & Hm & Ex & En & Es & Ef1 & Ea & Eb & Est & Eg & Edt & Ei).
  destruct (Mk (11/10)) as (o' & Hm' & Ex' & En' & Es' & Ef1' & Ea' & Eb' & Est' & Eg' & Edt' & Ei').
  destruct (C69_runs_exist o None RK4 Python None) as (ts & ys & EO); try lra; auto.
  destruct (C69_runs_exist o' None RK4 Python None) as (ts' & ys' & EO'); try lra; auto.
  exists o, o', ts, ys, ts', ys'. split; auto. split; auto. do 3 (split; [lra|]).
  assert (Me : Rmin (1/100) (1/1000) = 1/1000) by (apply Rmin_right; lra).
  split; [|split; [|split; [lra|split; [repeat split; auto|split; [repeat split; congruence|]]]]].
  - unfold position_steps_shrink. cbv zeta. rewrite Ex, Ea, Eb, Edt.
    replace (25 / 1) with 25 by field. replace (25 * 4 / 1 ^ 2) with (25 * 4) by field. apply C100_overdamped.
  - unfold position_steps_shrink. cbv zeta. rewrite Ex, Ea, Eb, Edt, Ei, Me.
    replace (25 / 1) with 25 by field. replace (25 * 4 / 1 ^ 2) with (25 * 4) by field.
    split; [right; exists 10%nat; simpl; lra|apply C100_overdamped].
  - split.
    { split; [|split].
      - rewrite Est, Est', Rminus_diag_eq, Rabs_R0 by auto. lra.
      - rewrite Eg, Eg'. rewrite Rabs_pos_eq; lra.
      - intros w _. rewrite Ef1, Ef1', Rminus_diag_eq, Rabs_R0 by auto. lra. }
    split; [lra|]. split; [repeat split; auto|]. split; [rewrite Ef1; auto|auto].
Qed.
