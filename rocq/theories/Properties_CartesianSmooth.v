(** C125 for the positions of a CartesianDMP.  Final statements. *)
From Coq Require Import Reals ZArith List Arith Bool Lia Lra Psatz FunctionalExtensionality.
From Verif Require Import M_Prelude M_Canonical M_Forcing M_Dmp M_Base M_DmpObject M_Ridge M_SpringDamper
  M_Quaternion M_Cartesian S_Loops S_Dmp S_Attributes S_Stability P_Loops P_Forcing P_DmpStep P_Stability P_CartesianHistory P_Cartesian P_DmpObject P_Components
  Properties_Forcing Properties_Dmp Properties_DmpObject Properties_Goal Properties_Equivariance Properties_Continuity
  Properties_Stability Properties_ContinuityAll Properties_CartesianObject Properties_Attributes
  Properties_CartesianHistory Properties_CartesianMore Properties_SmoothScaling.
Import ListNotations.
Open Scope R_scope.
Set Bullet Behavior "Strict Subproofs".

(** ** Specification *)
(** The objects have the same settings, and in component [j] of the position the same gains, start
    and weights.  Their goals may differ; everything that concerns orientations may differ. *)
Definition only_position_goal_differs (j : nat) (o o' : cart) : Prop :=
  same_position_settings j o o'
  /\ aget (p_start_y (k_base o')) j = aget (p_start_y (k_base o)) j
  /\ forall w, (w < k_n o)%nat -> ft_weights (k_fpos o') j w = ft_weights (k_fpos o) j w.

Definition position_goal_change (j : nat) (o o' : cart) : R :=
  Rabs (aget (p_goal_y (k_base o')) j - aget (p_goal_y (k_base o)) j).

(** Execution time, gains and the end of the forcing term. *)
Definition has_position_gains (tau al be G : R) (j : nat) (o : cart) : Prop :=
  k_execution_time o = tau /\ aget (k_alpha o) j = al /\ aget (k_beta o) j = be /\ ft_goal_t (k_fpos o) = G.

(** ** Proofs *)
Lemma twin_only_goal o d o' d' j : twin o d -> twin o' d' -> (j < 3)%nat ->
  only_position_goal_differs j o o' -> only_goal_differs j d d'.
Proof.
  intros H H' Hj (S & Es & Ew). destruct (twin_settings _ _ _ _ j H H' Hj S) as [S1 S2].
  pose proof S as (_ & _ & _ & En & _).
  split; [exact S1|]. split; [exact S2|]. split.
  - rewrite (twin_start _ _ j H), (twin_start _ _ j H') by auto. exact Es.
  - intros i Hi. rewrite (tw_n _ _ H) in Hi.
    rewrite (twin_w _ _ j H), (twin_w _ _ j H') by lia. auto.
Qed.

Lemma twin_gains tau al be G j o d : twin o d -> (j < 3)%nat ->
  has_position_gains tau al be G j o -> has_gains tau al be G j d.
Proof.
  intros H Hj (E1 & E2 & E3 & E4). unfold has_gains.
  rewrite (tw_time _ _ H), (twin_alpha o d j H), (twin_beta o d j H), (twin_goal_t _ _ H) by auto. auto.
Qed.

Lemma twin_change o d o' d' j : twin o d -> twin o' d' -> (j < 3)%nat ->
  goal_change j d d' = position_goal_change j o o'.
Proof.
  intros H H' Hj. unfold goal_change, position_goal_change.
  now rewrite (twin_goal _ _ j H), (twin_goal _ _ j H') by auto.
Qed.

(** ** C125 *)
Theorem C125_cartesian : forall tau al be G T, 0 < tau -> 0 <= T ->
  exists C, 0 <= C /\ forall i i' o o' j fn run_t ts ys ts' ys',
  cart_made o -> cart_made o' -> (j < 3)%nat -> 0 < k_dt o -> 0 < k_int_dt o ->
  only_position_goal_differs j o o' -> has_position_gains tau al be G j o -> k_smooth o = true ->
  cart_open_loop run_t None (Some fn) (Some i) o = Ok (ts, ys) ->
  cart_open_loop run_t None (Some fn) (Some i') o' = Ok (ts', ys') ->
  ts' = ts /\ length ys = length ts /\ length ys' = length ts
  /\ forall k, (k < length ts)%nat -> nth k ts 0 <= T ->
     Rabs (aget (nth k ys' (zeros 7)) j - aget (nth k ys (zeros 7)) j)
     <= C * position_goal_change j o o' * nth k ts 0 ^ 3.
Proof.
  intros tau al be G T Htau HT.
  destruct (C125_smooth tau al be G T Htau HT) as (C & HC & H). exists C. split; [exact HC|].
  intros i i' o o' j fn run_t ts ys ts' ys' Hm Hm' Hj Hdt Hi HO HG Hs E E'.
  destruct (cart_made_stand_in o Hm) as [(d & Hr & Hd) _].
  destruct (cart_made_stand_in o' Hm') as [(d' & Hr' & Hd') _].
  destruct (twin_open_loop _ _ _ _ _ _ _ Hd E) as (y3 & E3 & L3 & N3).
  destruct (twin_open_loop _ _ _ _ _ _ _ Hd' E') as (y3' & E3' & L3' & N3').
  pose proof (H 3%nat 3%nat d d' j fn run_t Hr Hr') as HP.
  rewrite (tw_dt _ _ Hd), (tw_int_dt _ _ Hd), (tw_smooth _ _ Hd) in HP.
  specialize (HP Hdt Hi (twin_only_goal _ _ _ _ j Hd Hd' Hj HO) (twin_gains _ _ _ _ j _ _ Hd Hj HG) Hs).
  unfold part_smoothly in HP. rewrite E3, E3' in HP. destruct HP as (P1 & P2 & P3 & P4).
  rewrite (twin_change _ _ _ _ j Hd Hd' Hj) in P4.
  split; [exact P1|]. split; [lia|]. split; [lia|].
  intros k Hk Hkt. specialize (P4 k Hk Hkt).
  rewrite N3, N3' in P4 by lia. exact P4.
Qed.

(** Without smooth scaling there is no such bound: the positions part like [t^2]. *)
Theorem C125_cartesian_jump : forall tau al be G C, 0 < tau -> al <> 0 -> be <> 0 ->
  exists h0, 0 < h0 /\ forall i i' o o' j fn run_t ts ys ts' ys',
  cart_made o -> cart_made o' -> (j < 3)%nat -> 0 < k_dt o < h0 -> k_dt o <= k_int_dt o ->
  only_position_goal_differs j o o' -> has_position_gains tau al be G j o -> k_smooth o = false ->
  aget (p_goal_y (k_base o')) j <> aget (p_goal_y (k_base o)) j ->
  match run_t with Some r => 0 < r | None => True end ->
  cart_open_loop run_t None (Some fn) (Some i) o = Ok (ts, ys) ->
  cart_open_loop run_t None (Some fn) (Some i') o' = Ok (ts', ys') ->
  (1 < length ts)%nat /\ nth 1 ts 0 = k_dt o
  /\ C * position_goal_change j o o' * nth 1 ts 0 ^ 3
     < Rabs (aget (nth 1 ys' (zeros 7)) j - aget (nth 1 ys (zeros 7)) j).
Proof.
  intros tau al be G C Htau Hal Hbe.
  destruct (C125_jump tau al be G C Htau Hal Hbe) as (h0 & Hh0 & H). exists h0. split; [exact Hh0|].
  intros i i' o o' j fn run_t ts ys ts' ys' Hm Hm' Hj Hdt Hi HO HG Hs Hne Hrun E E'.
  destruct (cart_made_stand_in o Hm) as [(d & Hr & Hd) _].
  destruct (cart_made_stand_in o' Hm') as [(d' & Hr' & Hd') _].
  destruct (twin_open_loop _ _ _ _ _ _ _ Hd E) as (y3 & E3 & L3 & N3).
  destruct (twin_open_loop _ _ _ _ _ _ _ Hd' E') as (y3' & E3' & L3' & N3').
  pose proof (H 3%nat 3%nat d d' j fn run_t Hr Hr') as HP.
  rewrite (tw_dt _ _ Hd), (tw_int_dt _ _ Hd), (tw_smooth _ _ Hd), (twin_goal _ _ j Hd), (twin_goal _ _ j Hd') in HP by auto.
  destruct (HP Hdt Hi (twin_only_goal _ _ _ _ j Hd Hd' Hj HO) (twin_gains _ _ _ _ j _ _ Hd Hj HG) Hs Hne Hrun)
    as (ts0 & z & z' & F & F' & Hl & Ht & HB).
  rewrite F in E3. injection E3 as -> ->. rewrite F' in E3'. injection E3' as <- ->.
  rewrite (twin_change _ _ _ _ j Hd Hd' Hj) in HB. split; [exact Hl|]. split; [exact Ht|].
  destruct HO as ((_ & Edt & _) & _).
  destruct (C69_time_grid _ _ _ _ _ _ _ (proj1 Hdt) E) as (Ly & _).
  destruct (C69_time_grid _ _ _ _ _ _ _ ltac:(rewrite Edt; apply Hdt) E') as (Ly' & _).
  rewrite N3, N3' in HB by lia. exact HB.
Qed.

(** A CartesianDMP and the same CartesianDMP with another goal. *)
Example C125_cartesian_satisfiable : forall smooth, exists o o' ts ys ts' ys', cart_made o /\ cart_made o'
  /\ 0 < k_dt o /\ k_dt o <= k_int_dt o /\ only_position_goal_differs 1 o o'
  /\ has_position_gains 1 25 (25/4) 1 1 o /\ k_smooth o = smooth /\ position_goal_change 1 o o' = 2
  /\ cart_open_loop None None (Some RK4) (Some Python) o = Ok (ts, ys)
  /\ cart_open_loop None None (Some RK4) (Some Python) o' = Ok (ts', ys').
Proof.
  intros smooth.
  destruct (init_forcing_term_accepts (vzero, vzero) 2 1) as [f Ef]; [lia|lra|].
  destruct (init_forcing_term_inv _ _ _ _ Ef) as (_ & _ & F).
  pose proof (forcing_term_init_n _ _ _ _ _ _ _ _ F) as (_ & Hgt & _).
  set (cfg x := {| c_t := None; c_start_y := None; c_start_yd := None; c_start_ydd := None;
     c_goal_y := Some {| alen := 7; aget := fun j => if Nat.eqb j 1 then x else if Nat.eqb j 3 then 1 else 0 |};
     c_goal_yd := None; c_goal_ydd := None |}).
  assert (Mk : forall x, exists o, cart_made o /\ k_execution_time o = 1 /\ k_n o = 2%nat /\ k_smooth o = smooth
     /\ k_fpos o = f /\ aget (k_alpha o) 1%nat = 25 /\ aget (k_beta o) 1%nat = 25/4
     /\ aget (p_start_y (k_base o)) 1%nat = 0 /\ aget (p_goal_y (k_base o)) 1%nat = x
     /\ k_dt o = 1 / 1000 /\ k_int_dt o = 1 / 100).
  { intros x. eexists. split.
    - exists (vzero, vzero), (vzero, vzero), 1, (1/1000), 2%nat, (1/100), smooth,
      {| shape := []; data := fun _ => 25 |}, {| shape := []; data := fun _ => 25/4 |}.
      eexists. exists [KConfigure (cfg x)]. split.
      + unfold cart_new. rewrite Ef. cbn [bind]. unfold ensure_1d_array. cbn -[Nat.eqb]. reflexivity.
      + reflexivity.
    - unfold cart_history. cbn [fold_left cart_exec cart_configure]. repeat split. }
  destruct (Mk 1) as (o & Hm & Ex & En & Es & Ef1 & Ea & Eb & Est & Eg & Edt & Ei).
  destruct (Mk 3) as (o' & Hm' & Ex' & En' & Es' & Ef1' & Ea' & Eb' & Est' & Eg' & Edt' & Ei').
  destruct (C69_runs_exist o None RK4 Python None) as (ts & ys & EO); try lra; auto.
  destruct (C69_runs_exist o' None RK4 Python None) as (ts' & ys' & EO'); try lra; auto.
  exists o, o', ts, ys, ts', ys'. split; auto. split; auto. do 2 (split; [lra|]). split; [|split; [|split; [auto|split; [|auto]]]].
  - unfold only_position_goal_differs, same_position_settings. repeat split; try congruence.
  - unfold has_position_gains. repeat split; auto. rewrite Ef1. exact Hgt.
  - unfold position_goal_change. rewrite Eg, Eg', Rabs_pos_eq; lra.
Qed.
