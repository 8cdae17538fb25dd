(** C134 for the positions of a CartesianDMP.  Final statements. *)
From Coq Require Import Reals ZArith List Arith Bool Lia Lra Psatz FunctionalExtensionality.
From Verif Require Import M_Prelude M_Canonical M_Forcing M_Dmp M_Base M_DmpObject M_Ridge
  M_Quaternion M_Cartesian S_Loops S_Dmp S_Attributes S_Stability P_Loops P_Forcing P_DmpStep P_CartesianHistory P_Cartesian P_DmpObject P_Components
  Properties_Forcing Properties_Dmp Properties_DmpObject Properties_Equivariance Properties_Continuity
  Properties_CartesianObject Properties_Attributes Properties_CartesianHistory Properties_CartesianMore Properties_Blend.
Import ListNotations.
Open Scope R_scope.
Set Bullet Behavior "Strict Subproofs".

(** ** Specification *)
(** The positions of the demonstration [dm] are [p] times those of [dm1] and [q]
    times those of [dm2]; the orientations of all three are arbitrary. *)
Definition positions_blend (p q : R) (dm1 dm2 dm : demo) : Prop :=
  d_n dm = d_n dm1 /\ (forall t, d_T dm t = d_T dm1 t)
  /\ forall t j, (t < d_n dm1)%nat -> (j < 3)%nat -> d_Y dm t j = p * d_Y dm1 t j + q * d_Y dm2 t j.

(** ** C134 *)
Theorem C134_cartesian : forall p q o i1 i2 i jp1 jr1 jp2 jr2 jp jr dm1 dm2 dm lam allow fn run_t
    o1 o2 o' ts1 ys1 ts2 ys2 ts ys,
  cart_made o -> 0 < k_int_dt o -> 0 <= lam ->
  demonstrates 7 dm1 -> demonstrates 7 dm2 -> demonstrates 7 dm ->
  same_times dm1 dm2 -> positions_blend p q dm1 dm2 dm ->
  cart_imitate jp1 jr1 ridge_regression dm1 lam allow o = (o1, Ok tt) ->
  cart_imitate jp2 jr2 ridge_regression dm2 lam allow o = (o2, Ok tt) ->
  cart_imitate jp jr ridge_regression dm lam allow o = (o', Ok tt) ->
  cart_open_loop run_t None (Some fn) (Some i1) o1 = Ok (ts1, ys1) ->
  cart_open_loop run_t None (Some fn) (Some i2) o2 = Ok (ts2, ys2) ->
  cart_open_loop run_t None (Some fn) (Some i) o' = Ok (ts, ys) ->
  ts1 = ts /\ ts2 = ts /\ length ys1 = length ys /\ length ys2 = length ys
  /\ forall k j, (k < length ys)%nat -> (j < 3)%nat ->
     aget (nth k ys (zeros 7)) j = p * aget (nth k ys1 (zeros 7)) j + q * aget (nth k ys2 (zeros 7)) j.
Proof.
  intros p q o i1 i2 i jp1 jr1 jp2 jr2 jp jr dm1 dm2 dm lam allow fn run_t o1 o2 o' ts1 ys1 ts2 ys2 ts ys
    Hm Hi Hlam D1 D2 D0 HT (Bn & BT & BY) I1 I2 I0 O1 O2 O0.
  destruct (cart_made_stand_in o Hm) as [(d & Hr & Hd) _].
  pose proof (imitate_twin jp1 jr1 ridge_regression dm1 lam allow o d Hd) as T1. rewrite I1 in T1.
  pose proof (imitate_twin jp2 jr2 ridge_regression dm2 lam allow o d Hd) as T2. rewrite I2 in T2.
  pose proof (imitate_twin jp jr ridge_regression dm lam allow o d Hd) as T0. rewrite I0 in T0.
  specialize (T1 eq_refl). specialize (T2 eq_refl). specialize (T0 eq_refl). cbn [fst] in T1, T2, T0.
  destruct (twin_open_loop _ _ _ _ _ _ _ T1 O1) as (z1 & Z1 & L1 & N1).
  destruct (twin_open_loop _ _ _ _ _ _ _ T2 O2) as (z2 & Z2 & L2 & N2).
  destruct (twin_open_loop _ _ _ _ _ _ _ T0 O0) as (z & Z & L & N).
  assert (P : forall x, demonstrates 7 x -> demonstrates 3 (positions x)).
  { intros x (A & B & C). unfold demonstrates; cbn; auto. }
  assert (Hi3 : 0 < o_int_dt d) by now rewrite (tw_int_dt _ _ Hd).
  destruct (C134_demonstrations 3 p q d jp1 jp2 jp (positions dm1) (positions dm2) lam allow (Some fn) run_t
    Hr Hi3 Hlam (P _ D1) (P _ D2) HT) as [_ M].
  unfold imitate in M at 1 2. rewrite Z1, Z2 in M.
  destruct (dmp_open_loop run_t None (Some fn) (imitate jp (blended p q (positions dm1) (positions dm2)) lam allow d))
    as [[tsb zb]|] eqn:Zb; [|contradiction].
  destruct M as (-> & -> & M1 & M2 & M3).
  assert (C : forall j, (j < 3)%nat -> tsb = ts /\ length zb = length z
            /\ forall k, (k < length z)%nat -> nth k zb vzero j = nth k z vzero j).
  { intros j Hj.
    pose proof (C91_dimensions 3 3 d d j jp jp (positions dm) (blended p q (positions dm1) (positions dm2)) lam allow
      (Some fn) run_t Hr Hr ltac:(repeat split) Hi3 Hlam (P _ D0) (P _ D1) Hj Hj eq_refl eq_refl) as C.
    rewrite Zb in C. unfold imitate in C. rewrite Z in C. apply C.
    - cbn. now rewrite Bn.
    - intros t. cbn. now rewrite BT.
    - intros t Ht. cbn [positions blended d_n d_Y] in *. rewrite !slice3 by auto. rewrite BY; auto. now rewrite <- Bn. }
  destruct (C 0%nat ltac:(lia)) as (E & E2 & _). subst tsb.
  split; [reflexivity|]. split; [reflexivity|]. split; [lia|]. split; [lia|].
  intros k j Hk Hj. rewrite <- N, <- N1, <- N2 by lia.
  destruct (C j Hj) as (_ & _ & <-); [|lia]. apply M3; lia.
Qed.

(** Two demonstrations with different positions and orientations, and one with a
    quarter of the positions of the first and three quarters of the second. *)
Example C134_cartesian_satisfiable : exists o dm1 dm2 dm o1 o2 o' ts1 ys1 ts2 ys2 ts ys,
  cart_made o /\ 0 < k_int_dt o
  /\ demonstrates 7 dm1 /\ demonstrates 7 dm2 /\ demonstrates 7 dm
  /\ same_times dm1 dm2 /\ positions_blend (1/4) (3/4) dm1 dm2 dm
  /\ d_Y dm1 1%nat 0%nat <> d_Y dm2 1%nat 0%nat /\ d_Y dm1 1%nat 3%nat <> d_Y dm2 1%nat 3%nat
  /\ cart_imitate (vzero, vzero) (vzero, vzero) ridge_regression dm1 0 true o = (o1, Ok tt)
  /\ cart_imitate (vzero, vzero) (vzero, vzero) ridge_regression dm2 0 true o = (o2, Ok tt)
  /\ cart_imitate (vzero, vzero) (vzero, vzero) ridge_regression dm 0 true o = (o', Ok tt)
  /\ cart_open_loop None None (Some Euler) (Some Python) o1 = Ok (ts1, ys1)
  /\ cart_open_loop None None (Some Euler) (Some Python) o2 = Ok (ts2, ys2)
  /\ cart_open_loop None None (Some Euler) (Some Python) o' = Ok (ts, ys).
Proof.
  destruct (init_forcing_term_accepts (vzero, vzero) 2 1) as [f Ef]; [lia|lra|].
  destruct (init_forcing_term_inv _ _ _ _ Ef) as (_ & _ & F).
  pose proof (forcing_term_init_n _ _ _ _ _ _ _ _ F) as (Fn & Fg & Fs & Fo & Fa & _).
  set (o := {| k_base := ptp_init 7 6; k_execution_time := 1; k_dt := 1/100; k_n := 2;
        k_int_dt := 1/1000; k_smooth := false; k_fpos := f; k_frot := f;
        k_alpha := {| alen := 6; aget := fun _ => 25 |}; k_beta := {| alen := 6; aget := fun _ => 25/4 |} |}).
  assert (EI : forall dm, demonstrates 7 dm -> (2 <= d_n dm)%nat -> exists o' ts ys,
      cart_imitate (vzero, vzero) (vzero, vzero) ridge_regression dm 0 true o = (o', Ok tt)
      /\ cart_open_loop None None (Some Euler) (Some Python) o' = Ok (ts, ys)).
  { intros dm (HT & Hrows & Hdims) Hn.
    assert (H : exists o', cart_imitate (vzero, vzero) (vzero, vzero) ridge_regression dm 0 true o = (o', Ok tt)
      /\ k_execution_time o' = 1 /\ k_int_dt o' = 1/1000 /\ k_dt o' = 1/100).
    { unfold cart_imitate. rewrite Hdims. cbn [Nat.eqb negb]. cbv zeta.
      unfold dmp_imitate. destruct (Rlt_dec 0 0) as [X|_]; [lra|]. cbn [d_n d_T d_rows d_dims d_Y Nat.eqb].
      rewrite Hrows, Nat.eqb_refl. cbn [negb andb].
      cbn [o k_n k_fpos k_frot k_smooth k_alpha k_beta aget fst snd]. rewrite Fo, Fa.
      destruct (forcing_term_init_ok vzero vzero 2 (d_T dm (d_n dm - 1)%nat) (d_T dm 0%nat) (8/10) (- ln (1/100)))
        as (g & Eg & _); [lia|exact HT|lra|].
      rewrite Eg. cbn [bind]. unfold determine_forces at 1. destruct (Nat.ltb_spec (d_n dm) 2) as [X|_]; [lia|].
      cbn [bind]. unfold dmp_quaternion_imitation. destruct (Rlt_dec 0 0) as [X|_]; [lra|]. cbn [Nat.eqb].
      cbn [k_n k_frot cart_with_fpos fst snd]. cbn [o k_n k_frot]. rewrite Fo, Fa, Eg. cbn [bind].
      unfold determine_forces_quaternion at 1. destruct (Nat.ltb_spec (d_n dm) 2) as [X|_]; [lia|].
      destruct (Nat.eqb_spec (d_n dm) 0) as [X|_]; [lia|].
      cbn [bind]. unfold cart_configure, configure, configure_block, check_1d_array_length.
      cbn [c_t c_start_y c_start_yd c_start_ydd c_goal_y c_goal_yd c_goal_ydd alen k_base cart_with_frot cart_with_fpos
        p_n_dims ptp_init Nat.eqb and_then set_start_y set_goal_y].
      eexists. split; [reflexivity|]. cbn. auto. }
    destruct H as (o' & E & X1 & X2 & X3).
    destruct (C69_runs_exist o' None Euler Python None) as (ts & ys & EO);
      [rewrite X1; lra|rewrite X2; lra|rewrite X3; lra|exact I|].
    exists o', ts, ys. auto. }
  set (mk := fun (y : nat -> R) (c s : R) => {| d_n := 3; d_T := INR; d_rows := 3; d_dims := 7;
     d_Y := fun k j => if Nat.ltb j 3 then y k else if Nat.eqb j 3 then c else if Nat.eqb j 4 then s else 0 |}).
  set (dm1 := mk (fun k => INR k ^ 2) 1 0). set (dm2 := mk (fun k => 5 - INR k) 0 1).
  set (dm := mk (fun k => 1/4 * INR k ^ 2 + 3/4 * (5 - INR k)) (3/5) (4/5)).
  assert (HD : forall y c s, demonstrates 7 (mk y c s)).
  { intros. unfold demonstrates, mk. cbn. repeat split; lra. }
  destruct (EI dm1 (HD _ _ _) ltac:(cbn; lia)) as (o1 & ts1 & ys1 & A1 & B1).
  destruct (EI dm2 (HD _ _ _) ltac:(cbn; lia)) as (o2 & ts2 & ys2 & A2 & B2).
  destruct (EI dm (HD _ _ _) ltac:(cbn; lia)) as (o' & ts & ys & A & B).
  exists o, dm1, dm2, dm, o1, o2, o', ts1, ys1, ts2, ys2, ts, ys. split.
  { exists (vzero, vzero), (vzero, vzero), 1, (1/100), 2%nat, (1/1000), false,
      {| shape := []; data := fun _ => 25 |}, {| shape := []; data := fun _ => 25/4 |}.
    eexists. exists []. split.
    - unfold cart_new. rewrite Ef. cbn [bind]. unfold ensure_1d_array. cbn -[Nat.eqb]. reflexivity.
    - reflexivity. }
  split; [cbn; lra|]. split; [apply HD|]. split; [apply HD|]. split; [apply HD|].
  split; [split; reflexivity|]. split.
  { split; [reflexivity|]. split; [reflexivity|]. intros t j _ Hj. cbn [dm dm1 dm2 mk d_Y].
    destruct (Nat.ltb_spec j 3); [reflexivity|lia]. }
  split; [cbn; lra|]. split; [cbn; lra|]. auto 8.
Qed.
