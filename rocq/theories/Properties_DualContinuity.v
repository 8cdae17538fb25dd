(** C95 for the positions of CartesianDMPs and of both hands of a DualCartesianDMP.  Final statements. *)
From Coq Require Import Reals ZArith List Arith Bool Lia Lra Psatz FunctionalExtensionality.
From Verif Require Import M_Prelude M_Canonical M_Forcing M_Dmp M_Base M_DmpObject M_Ridge M_SpringDamper
  M_Quaternion M_Cartesian M_Dual S_Loops S_Dmp S_Attributes S_Stability P_Loops P_Forcing P_DmpStep P_Stability
  P_CartesianHistory P_Cartesian P_DmpObject P_Components P_Dual P_DualObject
  Properties_Forcing Properties_Dmp Properties_DmpObject Properties_Goal Properties_Equivariance Properties_Continuity
  Properties_Stability Properties_ContinuityAll Properties_CartesianObject Properties_Attributes
  Properties_DualObject Properties_DualArm Properties_DualRuns
  Properties_CartesianHistory Properties_CartesianMore Properties_DualReproduction Properties_DualMoving
  Properties_DualRate Properties_DualBlend.
Import ListNotations.
Open Scope R_scope.
Set Bullet Behavior "Strict Subproofs".

(** ** Specification *)
(** Start, goal and weights of component [j] of the position of a hand differ by at most [D]. *)
Definition hands_configured_within (D : R) (arm j : nat) (o o' : dmp) : Prop :=
  Rabs (aget (p_start_y (o_base o')) (7 * arm + j)%nat - aget (p_start_y (o_base o)) (7 * arm + j)%nat) <= D
  /\ Rabs (aget (p_goal_y (o_base o')) (7 * arm + j)%nat - aget (p_goal_y (o_base o)) (7 * arm + j)%nat) <= D
  /\ forall w, (w < o_n_weights_per_dim o)%nat ->
     Rabs (ft_weights (o_forcing_term o') (6 * arm + j)%nat w - ft_weights (o_forcing_term o) (6 * arm + j)%nat w) <= D.

(** The positions of a hand in two trajectories are at the same times and differ by at most [E]. *)
Definition hands_within (E : R) (arm j : nat) (ts ts' : list R) (ys ys' : list arr) : Prop :=
  ts' = ts /\ length ys' = length ys
  /\ forall n, (n < length ys)%nat ->
     Rabs (aget (nth n ys' (zeros 14)) (7 * arm + j)%nat - aget (nth n ys (zeros 14)) (7 * arm + j)%nat) <= E.

(** ** Proofs *)
(** One CartesianDMP learns from every demonstration what the arm learns. *)
Lemma player_twin arm o lam allow : (arm <= 1)%nat -> player arm o ->
  exists k, cart_made k /\ arm_of arm o k /\ forall run_t i jl jlr jr jrr dm o' ts ys, time_ok run_t ->
    dual_imitate jl jlr jr jrr ridge_regression dm lam allow o = (o', Ok tt) -> plays i run_t o' ts ys ->
    exists jp jq k' zs, cart_imitate jp jq ridge_regression (demo_columns (7 * arm) 7 dm) lam allow k = (k', Ok tt)
    /\ cart_open_loop run_t None (Some Euler) (Some i) k' = Ok (ts, zs) /\ length ys = length ts /\ length zs = length ts
    /\ forall n, (n < length ts)%nat -> arm_pose arm (nth n ys (zeros 14)) (nth n zs (zeros 7)).
Proof.
  intros Ha P. pose proof P as (Hr & Hg & _ & _ & _ & _ & _ & Hi).
  pose proof (dual_reachable_shapes o Hr) as Hs.
  destruct (arm_made arm o Ha Hr Hg) as (k & Hm & Hk & HA & Hn & O1 & O2).
  pose proof (C23_cartesian_shapes k Hk) as (S1 & _).
  exists k. split; [exact Hm|]. split; [exact HA|].
  intros run_t i jl jlr jr jrr dm o' ts ys Hrt I0 [o2 R0].
  destruct (C39_imitate arm _ _ _ _ _ _ _ _ _ _ k Ha Hs HA Hn S1 O1 O2 I0) as (k' & EK & HA').
  destruct (player_learns arm _ _ _ _ _ _ _ _ _ P I0) as (Q1 & Q2 & Q3 & Q4 & Q5 & Q6 & Q7).
  assert (Hk' : cart_reachable k').
  { match type of EK with ?f = _ => replace k' with (fst f) by now rewrite EK end. now apply cr_imitate. }
  destruct (arm_runs arm Euler i run_t o' k' o2 tt tt ts ys) as (L & zs & EC & Lz & HP); auto; [now left|].
  do 2 eexists. exists k', zs. split; [exact EK|]. auto.
Qed.

(** ** C95 *)
(** The positions of a CartesianDMP that has learned, for all gains. *)
Theorem C95_cartesian_demonstrations : forall o fn j m T lam allow, cart_made o -> (j < 3)%nat ->
  0 < k_execution_time o -> 0 < k_dt o -> 0 < k_int_dt o -> position_steps_shrink fn o j ->
  0 <= lam -> (2 <= m)%nat -> (forall t, (S t < m)%nat -> T t < T (S t)) ->
  exists K, forall i i' jp jr jp' jr' dm dm' D run_t o1 o2 ts ys ts' ys',
  demonstrates 7 dm -> demonstrates 7 dm' -> d_n dm = m -> d_n dm' = m ->
  (forall t, d_T dm t = T t) -> (forall t, d_T dm' t = T t) ->
  (forall t, (t < m)%nat -> Rabs (d_Y dm' t j - d_Y dm t j) <= D) ->
  cart_imitate jp jr ridge_regression dm lam allow o = (o1, Ok tt) ->
  cart_imitate jp' jr' ridge_regression dm' lam allow o = (o2, Ok tt) ->
  cart_open_loop run_t None (Some fn) (Some i) o1 = Ok (ts, ys) ->
  cart_open_loop run_t None (Some fn) (Some i') o2 = Ok (ts', ys') ->
  positions_within (K * D) j ts ts' ys ys'.
Proof.
  intros o fn j m T lam allow Hm Hj P1 P2 P3 Hst Hlam Hm2 HT.
  destruct (cart_made_stand_in o Hm) as [(d & Hr & Hd) _].
  destruct (C95_demonstrations_all_gains 3 d fn j m T lam allow Hr) as (K & HK);
    rewrite ?(tw_time _ _ Hd), ?(tw_dt _ _ Hd), ?(tw_int_dt _ _ Hd); auto.
  { now apply (twin_shrinks fn o). }
  exists K. intros i i' jp jr jp' jr' dm dm' D run_t o1 o2 ts ys ts' ys' Dm Dm' En En' ET ET' HD I1 I2 O O'.
  pose proof (imitate_twin jp jr ridge_regression dm lam allow o d Hd) as T1. rewrite I1 in T1.
  pose proof (imitate_twin jp' jr' ridge_regression dm' lam allow o d Hd) as T2. rewrite I2 in T2.
  specialize (T1 eq_refl). specialize (T2 eq_refl). cbn [fst] in T1, T2.
  destruct (twin_open_loop _ _ _ _ _ _ _ T1 O) as (y3 & O3 & HL & HN).
  destruct (twin_open_loop _ _ _ _ _ _ _ T2 O') as (y3' & O3' & HL' & HN').
  pose proof (HK jp jp' (positions dm) (positions dm') D run_t) as M.
  unfold imitate, movements_within in M. rewrite O3, O3' in M.
  destruct M as (-> & M2 & M3); auto.
  - destruct Dm as (A & B & C). unfold demonstrates; cbn; auto.
  - destruct Dm' as (A & B & C). unfold demonstrates; cbn; auto.
  - intros t Ht. cbn [positions d_Y]. rewrite !slice3 by auto. auto.
  - split; auto. split; [lia|]. intros k Hk. rewrite <- HN, <- HN' by lia. apply M3. lia.
Qed.

(** Two configurations of a hand. *)
Theorem C95_dual : forall arm j o0, (arm <= 1)%nat -> (j < 3)%nat -> player arm o0 -> hand_steps_shrink arm j o0 ->
  exists K, forall i i' o o' D run_t ts ys ts' ys', player arm o -> player arm o' ->
  same_hand_settings arm j o0 o -> same_hand_settings arm j o0 o' -> hands_configured_within D arm j o o' ->
  time_ok run_t -> plays i run_t o ts ys -> plays i' run_t o' ts' ys' ->
  hands_within (K * D) arm j ts ts' ys ys'.
Proof.
  intros arm j o0 Ha Hj P0 Hst.
  destruct (player_arm arm Python o0 Ha P0) as (k0 & Hm0 & HA0 & Hn0 & _).
  pose proof P0 as (Hr & Hg & _ & _ & _ & Hx & Hdt & Hi).
  destruct (C104_continuity_all_gains Euler k0 j Hm0 Hj) as (K & HK);
    rewrite ?(ao_time _ _ _ HA0), ?(ao_dt _ _ _ HA0), ?(ao_int_dt _ _ _ HA0); auto; [eapply arm_shrinks; eauto|].
  exists K. intros i i' o o' D run_t ts ys ts' ys' P P' S S' (D1 & D2 & D3) Hrt E E'.
  destruct (player_arm arm i o Ha P) as (k & Hm & HA & Hn & HR).
  destruct (player_arm arm i' o' Ha P') as (k' & Hm' & HA' & Hn' & HR').
  destruct (HR run_t ts ys Hrt E) as (L & zs & EC & Lz & HP).
  destruct (HR' run_t ts' ys' Hrt E') as (L' & zs' & EC' & Lz' & HP').
  destruct (HK i i' k k' D run_t ts zs ts' zs') as (B1 & B2 & B3); auto.
  { apply (player_settings arm j o0 k0 o k); auto. }
  { apply (player_settings arm j o0 k0 o' k'); auto. }
  { unfold positions_configured_within.
    rewrite (ao_start _ _ _ HA), (ao_start _ _ _ HA'), (ao_goal _ _ _ HA), (ao_goal _ _ _ HA') by lia.
    split; [exact D1|]. split; [exact D2|]. intros w Hw.
    destruct S as (_ & _ & _ & S4 & _), S' as (_ & _ & _ & S4' & _).
    rewrite (player_weight arm j o k w), (player_weight arm j o' k' w) by (auto; lia). apply D3. lia. }
  subst ts'. split; [reflexivity|]. split; [congruence|]. intros n Hlt. specialize (B3 n ltac:(lia)).
  rewrite (HP n ltac:(lia) j ltac:(lia)), (HP' n ltac:(lia) j ltac:(lia)) in B3. exact B3.
Qed.

(** Two demonstrations. *)
Theorem C95_dual_demonstrations : forall arm j o m T lam allow, (arm <= 1)%nat -> (j < 3)%nat -> player arm o ->
  hand_steps_shrink arm j o -> 0 <= lam -> (2 <= m)%nat -> (forall t, (S t < m)%nat -> T t < T (S t)) ->
  exists K, forall i i' jl jlr jr jrr jl' jlr' jr' jrr' dm dm' D run_t o1 o2 ts ys ts' ys',
  demonstrates 14 dm -> demonstrates 14 dm' -> d_n dm = m -> d_n dm' = m ->
  (forall t, d_T dm t = T t) -> (forall t, d_T dm' t = T t) ->
  (forall t, (t < m)%nat -> Rabs (d_Y dm' t (7 * arm + j)%nat - d_Y dm t (7 * arm + j)%nat) <= D) ->
  dual_imitate jl jlr jr jrr ridge_regression dm lam allow o = (o1, Ok tt) ->
  dual_imitate jl' jlr' jr' jrr' ridge_regression dm' lam allow o = (o2, Ok tt) ->
  time_ok run_t -> plays i run_t o1 ts ys -> plays i' run_t o2 ts' ys' ->
  hands_within (K * D) arm j ts ts' ys ys'.
Proof.
  intros arm j o m T lam allow Ha Hj P Hst Hlam Hm2 HT.
  destruct (player_twin arm o lam allow Ha P) as (k & Hm & HA & HL).
  pose proof P as (Hr & Hg & _ & _ & _ & Hx & Hdt & Hi).
  destruct (C95_cartesian_demonstrations k Euler j m T lam allow Hm Hj) as (K & HK);
    rewrite ?(ao_time _ _ _ HA), ?(ao_dt _ _ _ HA), ?(ao_int_dt _ _ _ HA); auto; [eapply arm_shrinks; eauto|].
  exists K. intros i i' jl jlr jr jrr jl' jlr' jr' jrr' dm dm' D run_t o1 o2 ts ys ts' ys' Dm Dm' En En' ET ET' HD I1 I2 Hrt E E'.
  destruct (HL run_t i _ _ _ _ _ _ _ _ Hrt I1 E) as (jp & jq & k1 & zs & K1 & C1 & A1 & A1' & H1).
  destruct (HL run_t i' _ _ _ _ _ _ _ _ Hrt I2 E') as (jp' & jq' & k2 & zs' & K2 & C2 & A2 & A2' & H2).
  assert (DC : forall x, demonstrates 14 x -> demonstrates 7 (demo_columns (7 * arm) 7 x)).
  { intros x (X1 & X2 & X3). unfold demonstrates; cbn; auto. }
  destruct (HK i i' jp jq jp' jq' (demo_columns (7 * arm) 7 dm) (demo_columns (7 * arm) 7 dm') D run_t k1 k2 ts zs ts' zs')
    as (B1 & B2 & B3); auto.
  { intros t Ht. cbn [demo_columns d_Y]. unfold slice. destruct (Nat.ltb_spec j 7); [|lia]. auto. }
  subst ts'. split; [reflexivity|]. split; [congruence|]. intros n Hlt. specialize (B3 n ltac:(lia)).
  rewrite (H1 n ltac:(lia) j ltac:(lia)), (H2 n ltac:(lia) j ltac:(lia)) in B3. exact B3.
Qed.

(** A DualCartesianDMP with two goals, and with two demonstrations. *)
Example C95_dual_satisfiable : forall arm, (arm <= 1)%nat -> exists o o' ts ys ts' ys' dm dm' o1 o2 us xs us' xs',
  player arm o /\ player arm o' /\ hand_steps_shrink arm 1 o
  /\ same_hand_settings arm 1 o o /\ same_hand_settings arm 1 o o' /\ hands_configured_within 2 arm 1 o o'
  /\ plays Python None o ts ys /\ plays Python None o' ts' ys'
  /\ demonstrates 14 dm /\ demonstrates 14 dm' /\ d_n dm = 3%nat /\ d_n dm' = 3%nat
  /\ (forall t, d_T dm t = INR t) /\ (forall t, d_T dm' t = INR t) /\ (forall t, INR t < INR (S t))
  /\ (forall t, (t < 3)%nat -> Rabs (d_Y dm' t (7 * arm + 1)%nat - d_Y dm t (7 * arm + 1)%nat) <= 1/10)
  /\ d_Y dm' 1%nat (7 * arm + 1)%nat <> d_Y dm 1%nat (7 * arm + 1)%nat
  /\ dual_imitate (vzero, vzero) (vzero, vzero) (vzero, vzero) (vzero, vzero) ridge_regression dm 0 true o = (o1, Ok tt)
  /\ dual_imitate (vzero, vzero) (vzero, vzero) (vzero, vzero) (vzero, vzero) ridge_regression dm' 0 true o = (o2, Ok tt)
  /\ plays Python None o1 us xs /\ plays Python None o2 us' xs'.
Proof.
  intros arm Ha.
  assert (Mk : forall x, exists o ts ys, player arm o /\ plays Python None o ts ys /\ o_execution_time o = 1
    /\ o_dt o = 1/1000 /\ o_int_dt o = 1/1000 /\ o_n_weights_per_dim o = 2%nat /\ o_smooth_scaling o = true
    /\ aget (o_alpha_y o) = (fun _ => 25) /\ aget (o_beta_y o) = (fun _ => 4)
    /\ aget (p_start_y (o_base o)) = vzero /\ aget (p_goal_y (o_base o)) = (fun _ => x)
    /\ forall d k, ft_weights (o_forcing_term o) d k = 0).
  { intros x.
    destruct (dual_example 1 (1/1000) (1/1000) 0 true (fun _ => 25) (fun _ => 4) vzero (fun _ => x))
      as (o & Hr & O1 & O2 & O3 & O4 & O5 & O6 & O7 & O8 & O9 & O10 & O11 & O12 & O13 & O14 & O15 & _); [lra|].
    destruct (C69_dual_runs_exist unit None None tt o Hr) as [X _]; [rewrite O2; lra|rewrite O3; lra|].
    destruct (X Python) as (o' & [] & ts & ys & E).
    exists o, ts, ys. split; [|split; [exists o'; exact E|repeat (split; [assumption|]); assumption]].
    unfold player. rewrite O1, O2, O3, O15. repeat (split; [first [assumption|lra]|]).
    split; [right; right; intros; now rewrite O7|]. split; [|lra].
    intros d Hd. rewrite O10. reflexivity. }
  destruct (Mk 1) as (o & ts & ys & P & E & A1 & A2 & A3 & A4 & A5 & A6 & A7 & A8 & A9 & A10).
  destruct (Mk 3) as (o' & ts' & ys' & P' & E' & B1 & B2 & B3 & B4 & B5 & B6 & B7 & B8 & B9 & B10).
  pose proof P as (Hr & _ & _ & _ & _ & _ & Hdt & Hi).
  set (mk := fun (y : nat -> R) => {| d_n := 3; d_T := INR; d_rows := 3; d_dims := 14;
     d_Y := fun k j => if Nat.eqb (j mod 7) 3 then 1 else if Nat.ltb (j mod 7) 3 then y k else 0 |}).
  assert (HD : forall y, demonstrates 14 (mk y)).
  { intros. unfold demonstrates, mk. cbn. repeat split; lra. }
  assert (EI : forall dm, demonstrates 14 dm -> exists o' ts ys,
      dual_imitate (vzero, vzero) (vzero, vzero) (vzero, vzero) (vzero, vzero) ridge_regression dm 0 true o = (o', Ok tt)
      /\ plays Python None o' ts ys).
  { intros dm Hd.
    destruct (C110_always_learns (vzero, vzero) (vzero, vzero) (vzero, vzero) (vzero, vzero) ridge_regression dm 0 true o
      Hr ltac:(lra) Hd) as (q & EI).
    destruct (dual_imitate_keeps _ _ _ _ _ _ _ _ _ _ Hr EI) as (_ & Hr' & X1 & X2 & X3 & _).
    destruct (C69_dual_runs_exist unit None None tt q Hr') as [R1 _]; [rewrite X2; lra|rewrite X3; lra|].
    destruct (R1 Python) as (o2 & [] & us & xs & EO). exists q, us, xs. split; [exact EI|]. exists o2. exact EO. }
  set (dm := mk (fun k => INR k ^ 2)). set (dm' := mk (fun k => INR k ^ 2 + 1/20)).
  destruct (EI dm (HD _)) as (o1 & us & xs & I1 & J1).
  destruct (EI dm' (HD _)) as (o2 & us' & xs' & I2 & J2).
  assert (M : forall j, (j < 7)%nat -> ((7 * arm + j) mod 7 = j)%nat).
  { intros j Hj. rewrite Nat.add_comm, Nat.mul_comm, Nat.mod_add by lia. now apply Nat.mod_small. }
  exists o, o', ts, ys, ts', ys', dm, dm', o1, o2, us, xs, us', xs'.
  split; [exact P|]. split; [exact P'|]. split.
  { unfold hand_steps_shrink, hand_damping, hand_stiffness. rewrite A1, A2, A3, A6, A7. rewrite Rmin_left by lra.
    replace (25 / 1) with 25 by field. replace (25 * 4 / 1 ^ 2) with (25 * 4) by field.
    split; [left; lra|]. apply C100_overdamped. }
  split; [repeat split|]. split.
  { unfold same_hand_settings. rewrite A6, A7, B6, B7. repeat split; congruence. }
  split.
  { unfold hands_configured_within. rewrite A8, A9, B8, B9. unfold vzero.
    split; [apply Rabs_le; lra|]. split; [apply Rabs_le; lra|]. intros w _. rewrite A10, B10. apply Rabs_le; lra. }
  split; [exact E|]. split; [exact E'|]. split; [apply HD|]. split; [apply HD|].
  do 2 (split; [reflexivity|]). do 2 (split; [reflexivity|]).
  split; [intros t; apply lt_INR; lia|].
  split.
  { intros t _. cbn [dm dm' mk d_Y]. rewrite M by lia. cbn [Nat.eqb Nat.ltb Nat.leb]. apply Rabs_le. lra. }
  split.
  { cbn [dm dm' mk d_Y]. rewrite M by lia. cbn [Nat.eqb Nat.ltb Nat.leb]. lra. }
  auto.
Qed.
