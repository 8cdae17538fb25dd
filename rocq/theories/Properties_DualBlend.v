(** C115 and C134 for the positions of both hands of a DualCartesianDMP.  Final statements. *)
From Coq Require Import Reals ZArith List Arith Bool Lia Lra Psatz FunctionalExtensionality.
From Verif Require Import M_Prelude M_Canonical M_Forcing M_Dmp M_Base M_DmpObject M_Ridge M_SpringDamper
  M_Quaternion M_Cartesian M_Dual S_Loops S_Dmp S_Attributes S_Stability P_Loops P_Forcing P_DmpStep
  P_CartesianHistory P_Cartesian P_DmpObject P_Components P_Dual P_DualObject
  Properties_Forcing Properties_Dmp Properties_DmpObject Properties_Equivariance Properties_Continuity
  Properties_CartesianObject Properties_Attributes Properties_DualObject Properties_DualArm Properties_DualRuns
  Properties_CartesianHistory Properties_CartesianMore Properties_Blend Properties_CartesianBlend Properties_Overshoot
  Properties_DualReproduction Properties_DualMoving Properties_DualRate.
Import ListNotations.
Open Scope R_scope.
Set Bullet Behavior "Strict Subproofs".

(** ** Specification *)
(** The positions of one hand in the demonstration [dm] are [p] times those in [dm1] and [q] times those
    in [dm2]; orientations and the other hand are arbitrary. *)
Definition hand_blend (arm : nat) (p q : R) (dm1 dm2 dm : demo) : Prop :=
  d_n dm = d_n dm1 /\ (forall t, d_T dm t = d_T dm1 t)
  /\ forall t j, (t < d_n dm1)%nat -> (j < 3)%nat ->
     d_Y dm t (7 * arm + j)%nat = p * d_Y dm1 t (7 * arm + j)%nat + q * d_Y dm2 t (7 * arm + j)%nat.

(** ** Proofs *)
Lemma player_learns arm jl jlr jr jrr dm lam al o o' : player arm o ->
  dual_imitate jl jlr jr jrr ridge_regression dm lam al o = (o', Ok tt) ->
  dual_reachable o' /\ o_p_gain o' = 0 /\ beta_index_irrelevant arm o' /\ arm_starts_at_rest arm o'
  /\ 0 < o_dt o' /\ 0 < o_int_dt o' /\ 0 < o_execution_time o'.
Proof.
  intros (Hr & Hg & Hp & Hb & H0 & Hx & Hdt & Hi) E.
  destruct (dual_imitate_keeps _ _ _ _ _ _ _ _ _ _ Hr E) as (_ & Hr' & X1 & X2 & X3 & X4 & X5 & X6 & X7).
  unfold beta_index_irrelevant, arm_starts_at_rest in *. rewrite X1, X2, X3, X4, X5, X6, X7. auto 10.
Qed.

(** ** C134 *)
Theorem C134_dual : forall arm p q o i1 i2 i jl1 jlr1 jr1 jrr1 jl2 jlr2 jr2 jrr2 jl jlr jr jrr dm1 dm2 dm lam allow run_t
    o1 o2 o' ts1 ys1 ts2 ys2 ts ys,
  (arm <= 1)%nat -> player arm o -> 0 <= lam ->
  demonstrates 14 dm1 -> demonstrates 14 dm2 -> demonstrates 14 dm ->
  same_times dm1 dm2 -> hand_blend arm p q dm1 dm2 dm ->
  dual_imitate jl1 jlr1 jr1 jrr1 ridge_regression dm1 lam allow o = (o1, Ok tt) ->
  dual_imitate jl2 jlr2 jr2 jrr2 ridge_regression dm2 lam allow o = (o2, Ok tt) ->
  dual_imitate jl jlr jr jrr ridge_regression dm lam allow o = (o', Ok tt) ->
  time_ok run_t -> plays i1 run_t o1 ts1 ys1 -> plays i2 run_t o2 ts2 ys2 -> plays i run_t o' ts ys ->
  ts1 = ts /\ ts2 = ts /\ length ys1 = length ys /\ length ys2 = length ys
  /\ forall k j, (k < length ys)%nat -> (j < 3)%nat ->
     aget (nth k ys (zeros 14)) (7 * arm + j)%nat
     = p * aget (nth k ys1 (zeros 14)) (7 * arm + j)%nat + q * aget (nth k ys2 (zeros 14)) (7 * arm + j)%nat.
Proof.
  intros arm p q o i1 i2 i jl1 jlr1 jr1 jrr1 jl2 jlr2 jr2 jrr2 jl jlr jr jrr dm1 dm2 dm lam allow run_t
    o1 o2 o' ts1 ys1 ts2 ys2 ts ys Ha P Hlam D1 D2 D [Tn TT] (Bn & BT & BY) I1 I2 I0 Hrt R1 R2 R0.
  pose proof P as (Hr & Hg & _ & _ & _ & _ & _ & Hi).
  pose proof (dual_reachable_shapes o Hr) as Hs.
  destruct (arm_made arm o Ha Hr Hg) as (k & Hm & Hk & HA & Hn & O1 & O2).
  pose proof (C23_cartesian_shapes k Hk) as (S1 & _).
  assert (L : forall i jl jlr jr jrr dm o' ts ys,
    dual_imitate jl jlr jr jrr ridge_regression dm lam allow o = (o', Ok tt) -> plays i run_t o' ts ys ->
    exists jp jq k' zs, cart_imitate jp jq ridge_regression (demo_columns (7 * arm) 7 dm) lam allow k = (k', Ok tt)
    /\ cart_open_loop run_t None (Some Euler) (Some i) k' = Ok (ts, zs) /\ length ys = length ts /\ length zs = length ts
    /\ forall n, (n < length ts)%nat -> arm_pose arm (nth n ys (zeros 14)) (nth n zs (zeros 7))).
  { clear - Ha P Hs HA Hn S1 O1 O2 Hk Hrt. intros i jl jlr jr jrr dm o' ts ys I0 [o2 R0].
    destruct (C39_imitate arm _ _ _ _ _ _ _ _ _ _ k Ha Hs HA Hn S1 O1 O2 I0) as (k' & EK & HA').
    destruct (player_learns arm _ _ _ _ _ _ _ _ _ P I0) as (Q1 & Q2 & Q3 & Q4 & Q5 & Q6 & Q7).
    assert (Hk' : cart_reachable k').
    { match type of EK with ?f = _ => replace k' with (fst f) by now rewrite EK end. now apply cr_imitate. }
    destruct (arm_runs arm Euler i run_t o' k' o2 tt tt ts ys) as (L & zs & EC & Lz & HP); auto; [now left|].
    do 2 eexists. exists k', zs. split; [exact EK|]. auto. }
  destruct (L _ _ _ _ _ _ _ _ _ I1 R1) as (jp1 & jq1 & k1 & zs1 & K1 & C1 & A1 & A1' & H1).
  destruct (L _ _ _ _ _ _ _ _ _ I2 R2) as (jp2 & jq2 & k2 & zs2 & K2 & C2 & A2 & A2' & H2).
  destruct (L _ _ _ _ _ _ _ _ _ I0 R0) as (jp & jq & k0 & zs & K0 & C0 & A0 & A0' & H0).
  assert (DC : forall x, demonstrates 14 x -> demonstrates 7 (demo_columns (7 * arm) 7 x)).
  { intros x (X1 & X2 & X3). unfold demonstrates; cbn; auto. }
  destruct (C134_cartesian p q k i1 i2 i jp1 jq1 jp2 jq2 jp jq (demo_columns (7 * arm) 7 dm1) (demo_columns (7 * arm) 7 dm2)
    (demo_columns (7 * arm) 7 dm) lam allow Euler run_t k1 k2 k0 ts1 zs1 ts2 zs2 ts zs) as (E1 & E2 & E3 & E4 & E5); auto.
  { rewrite (ao_int_dt _ _ _ HA). exact Hi. }
  { split; assumption. }
  { split; [exact Bn|]. split; [exact BT|]. intros t j Ht Hj. cbn [demo_columns d_Y d_n] in *. unfold slice.
    destruct (Nat.ltb_spec j 7); [|lia]. apply BY; auto. }
  subst ts1 ts2. split; [reflexivity|]. split; [reflexivity|]. split; [congruence|]. split; [congruence|].
  intros n j Hlt Hj. specialize (E5 n j ltac:(lia) Hj).
  rewrite (H0 n ltac:(lia) j ltac:(lia)), (H1 n ltac:(lia) j ltac:(lia)), (H2 n ltac:(lia) j ltac:(lia)) in E5. exact E5.
Qed.

(** ** C115 *)
Theorem C115_dual : forall arm d o i run_t ts ys, (arm <= 1)%nat -> (d < 3)%nat -> player arm o ->
  0 < aget (o_beta_y o) (6 * arm + d)%nat ->
  4 * aget (o_beta_y o) (6 * arm + d)%nat <= aget (o_alpha_y o) (6 * arm + d)%nat ->
  o_smooth_scaling o = false -> hand_weights_within 0 arm d o ->
  o_int_dt o * hand_damping arm d o <= 1 -> time_ok run_t -> plays i run_t o ts ys ->
  aget (nth 0 ys (zeros 14)) (7 * arm + d)%nat = aget (p_start_y (o_base o)) (7 * arm + d)%nat
  /\ forall k j, (k <= j)%nat -> (j < length ys)%nat ->
     not_past (aget (p_goal_y (o_base o)) (7 * arm + d)%nat)
       (aget (nth k ys (zeros 14)) (7 * arm + d)%nat) (aget (nth j ys (zeros 14)) (7 * arm + d)%nat).
Proof.
  intros arm d o i run_t ts ys Ha Hd P Hb Hab Hsm [_ Hw] Hh Hrt E.
  pose proof P as (Hr & Hg & _ & _ & _ & Hx & Hdt & Hi).
  destruct (player_arm arm i o Ha P) as (k & Hm & HA & Hn & HR).
  destruct (HR run_t ts ys Hrt E) as (L & zs & EC & Lz & HP).
  destruct (C115_cartesian_positions k Euler i d run_t ts zs Hm Hd) as (B1 & B2);
    rewrite ?(ao_time _ _ _ HA), ?(ao_dt _ _ _ HA), ?(ao_int_dt _ _ _ HA), ?(ao_smooth _ _ _ HA),
      ?(ao_alpha _ _ _ HA), ?(ao_beta _ _ _ HA) by lia; auto.
  { intros w Hlt. rewrite (player_weight arm d o k w) by (auto; lia).
    specialize (Hw w ltac:(lia)). destruct (Req_dec (ft_weights (o_forcing_term o) (6 * arm + d)%nat w) 0) as [Z|Z]; auto.
    apply Rabs_pos_lt in Z. lra. }
  assert (Lt : (0 < length ts)%nat).
  { destruct (C69_time_grid _ _ _ _ _ _ _ ltac:(rewrite (ao_dt _ _ _ HA); exact Hdt) EC) as (_ & G & _). lia. }
  rewrite (ao_start _ _ _ HA) in B1 by lia. rewrite (ao_goal _ _ _ HA) in B2 by lia.
  split.
  - rewrite <- B1. symmetry. apply HP; lia.
  - intros m j Hmj Hj. rewrite <- (HP m ltac:(lia) d ltac:(lia)), <- (HP j ltac:(lia) d ltac:(lia)). apply B2; lia.
Qed.

(** A DualCartesianDMP, two demonstrations and one with a quarter of the first and three quarters of the second. *)
Example C134_dual_satisfiable : forall arm, (arm <= 1)%nat -> exists o dm1 dm2 dm o1 o2 o' ts1 ys1 ts2 ys2 ts ys,
  player arm o /\ demonstrates 14 dm1 /\ demonstrates 14 dm2 /\ demonstrates 14 dm
  /\ same_times dm1 dm2 /\ hand_blend arm (1/4) (3/4) dm1 dm2 dm
  /\ d_Y dm1 1%nat (7 * arm)%nat <> d_Y dm2 1%nat (7 * arm)%nat
  /\ dual_imitate (vzero, vzero) (vzero, vzero) (vzero, vzero) (vzero, vzero) ridge_regression dm1 0 true o = (o1, Ok tt)
  /\ dual_imitate (vzero, vzero) (vzero, vzero) (vzero, vzero) (vzero, vzero) ridge_regression dm2 0 true o = (o2, Ok tt)
  /\ dual_imitate (vzero, vzero) (vzero, vzero) (vzero, vzero) (vzero, vzero) ridge_regression dm 0 true o = (o', Ok tt)
  /\ plays Python None o1 ts1 ys1 /\ plays Python None o2 ts2 ys2 /\ plays Python None o' ts ys.
Proof.
  intros arm Ha. destruct (C125_dual_satisfiable arm true Ha) as (o & _ & _ & _ & _ & _ & P & _).
  pose proof P as (Hr & _ & _ & _ & _ & _ & Hdt & Hi).
  set (mk := fun (y : nat -> R) (c : R) => {| d_n := 3; d_T := INR; d_rows := 3; d_dims := 14;
     d_Y := fun k j => if Nat.eqb (j mod 7) 3 then c else if Nat.eqb (j mod 7) 4 then 1 - c
                       else if Nat.ltb (j mod 7) 3 then y k else 0 |}).
  assert (HD : forall y c, demonstrates 14 (mk y c)).
  { intros. unfold demonstrates, mk. cbn. repeat split; lra. }
  assert (EI : forall dm, demonstrates 14 dm -> exists o' ts ys,
      dual_imitate (vzero, vzero) (vzero, vzero) (vzero, vzero) (vzero, vzero) ridge_regression dm 0 true o = (o', Ok tt)
      /\ plays Python None o' ts ys).
  { intros dm Hd.
    destruct (C110_always_learns (vzero, vzero) (vzero, vzero) (vzero, vzero) (vzero, vzero) ridge_regression dm 0 true o
      Hr ltac:(lra) Hd) as (o' & EI).
    destruct (dual_imitate_keeps _ _ _ _ _ _ _ _ _ _ Hr EI) as (_ & Hr' & X1 & X2 & X3 & _).
    destruct (C69_dual_runs_exist unit None None tt o' Hr') as [R1 _]; [rewrite X2; lra|rewrite X3; lra|].
    destruct (R1 Python) as (o2 & [] & ts & ys & EO). exists o', ts, ys. split; [exact EI|]. exists o2. exact EO. }
  set (dm1 := mk (fun k => INR k ^ 2) 1). set (dm2 := mk (fun k => 5 - INR k) 0).
  set (dm := mk (fun k => 1/4 * INR k ^ 2 + 3/4 * (5 - INR k)) 1).
  destruct (EI dm1 (HD _ _)) as (o1 & ts1 & ys1 & A1 & B1).
  destruct (EI dm2 (HD _ _)) as (o2 & ts2 & ys2 & A2 & B2).
  destruct (EI dm (HD _ _)) as (o' & ts & ys & A & B).
  exists o, dm1, dm2, dm, o1, o2, o', ts1, ys1, ts2, ys2, ts, ys.
  split; [exact P|]. do 3 (split; [apply HD|]). split; [split; reflexivity|].
  assert (M : forall j, (j < 7)%nat -> ((7 * arm + j) mod 7 = j)%nat).
  { intros j Hj. rewrite Nat.add_comm, Nat.mul_comm, Nat.mod_add by lia. now apply Nat.mod_small. }
  split.
  { split; [reflexivity|]. split; [reflexivity|]. intros t j _ Hj. cbn [dm dm1 dm2 mk d_Y]. rewrite M by lia.
    destruct (Nat.eqb_spec j 3); [lia|]. destruct (Nat.eqb_spec j 4); [lia|]. destruct (Nat.ltb_spec j 3); [reflexivity|lia]. }
  split.
  { cbn [dm1 dm2 mk d_Y]. replace (7 * arm)%nat with (7 * arm + 0)%nat by lia. rewrite M by lia. cbn. lra. }
  auto 10.
Qed.

Example C115_dual_satisfiable : forall arm, (arm <= 1)%nat -> exists o ts ys, player arm o
  /\ 0 < aget (o_beta_y o) (6 * arm + 1)%nat
  /\ 4 * aget (o_beta_y o) (6 * arm + 1)%nat <= aget (o_alpha_y o) (6 * arm + 1)%nat
  /\ o_smooth_scaling o = false /\ hand_weights_within 0 arm 1 o
  /\ o_int_dt o * hand_damping arm 1 o <= 1 /\ plays Python None o ts ys
  /\ aget (p_start_y (o_base o)) (7 * arm + 1)%nat <> aget (p_goal_y (o_base o)) (7 * arm + 1)%nat.
Proof.
  intros arm Ha.
  destruct (dual_example 1 (1/100) (1/1000) 0 false (fun _ => 25) (fun _ => 4) vzero (fun _ => 1))
    as (o & Hr & O1 & O2 & O3 & O4 & O5 & O6 & O7 & O8 & O9 & O10 & O11 & O12 & O13 & O14 & O15 & _); [lra|].
  destruct (C69_dual_runs_exist unit None None tt o Hr) as [X _]; [rewrite O2; lra|rewrite O3; lra|].
  destruct (X Python) as (o' & [] & ts & ys & E).
  exists o, ts, ys. split.
  { unfold player. rewrite O1, O2, O3, O15. repeat (split; [first [assumption|lra]|]).
    split; [right; left; assumption|]. split; [|lra]. intros d Hd. rewrite O10. reflexivity. }
  unfold hand_damping. rewrite O6, O7, O8, O9, O1, O3. split; [lra|]. split; [lra|]. split; [assumption|].
  split; [split; [lra|]; intros w _; rewrite O14, Rabs_R0; lra|]. split; [lra|].
  split; [exists o'; exact E|]. unfold vzero. lra.
Qed.
