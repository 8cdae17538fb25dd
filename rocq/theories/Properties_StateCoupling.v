(** C80 for the objects: a coupling term given to [step] or [open_loop] of a StateFollowingDMP is
    used, with half the execution time as time constant. *)
From Coq Require Import Reals ZArith List Arith Bool Lia Lra FunctionalExtensionality.
From Verif Require Import M_Prelude M_Canonical M_Forcing M_Dmp M_Base M_StateFollowing M_StateObject M_SpringDamper
  S_Loops P_Loops P_Converge Properties_Feedback Properties_StateFollowing Properties_StateRest Properties_StateFrames.
Import ListNotations.
Open Scope R_scope.
Set Bullet Behavior "Strict Subproofs".

(** What the coupling term adds to the velocity within a step of length [h]. *)
Definition coupled_change (c : coupling) (tau h : R) (y v : vec) (d : nat) : R :=
  h * snd (c y v) d / tau ^ 2 + fst (c y v) d / tau.

Theorem C80_state_following_step : forall n nv o c y yd, sf_reachable n nv o ->
  0 <= p_t (f_base o) -> 0 < f_dt o <= f_int_dt o -> alen y = n -> alen yd = n ->
  exists o0 y0 v0 o1 y1 v1,
    sf_step y yd None o = (o0, Ok (y0, v0)) /\ sf_step y yd (Some c) o = (o1, Ok (y1, v1))
    /\ forall d, let dv := coupled_change c (f_execution_time o / 2) (f_dt o) (aget y) (aget yd) d in
       aget v1 d = aget v0 d + dv /\ aget y1 d = aget y0 d + f_dt o * dv.
Proof.
  intros n nv o c y yd Hr Ht [Hdt Hi] Ly Lv.
  pose proof (sf_reachable_ok _ _ _ Hr) as K. pose proof K as (_ & _ & _ & _ & _ & _ & Hx & _).
  destruct (sf_ok_shapes n nv o K) as (S1 & S2 & S3).
  destruct (C80_state_following (sf_object_args (Some c) o) c (p_t (f_base o)) (p_t (f_base o) + f_dt o) (aget y) (aget yd))
    as (y0 & v0 & y1 & v1 & E0 & E1 & ED); try reflexivity; [exact Hx|cbn; lra|split; cbn; lra|].
  cbv zeta in ED. cbn [sf_object_args sa_goal_t sa_start_t] in ED.
  exists (sf_with_base (set_current {| alen := n; aget := y0 |} {| alen := n; aget := v0 |}
            (set_t (p_t (f_base o) + f_dt o) (set_last_t (Some (p_t (f_base o))) (f_base o)))) o),
    {| alen := n; aget := y0 |}, {| alen := n; aget := v0 |},
    (sf_with_base (set_current {| alen := n; aget := y1 |} {| alen := n; aget := v1 |}
            (set_t (p_t (f_base o) + f_dt o) (set_last_t (Some (p_t (f_base o))) (f_base o)))) o),
    {| alen := n; aget := y1 |}, {| alen := n; aget := v1 |}.
  assert (St : forall ct y' v', sf_step_fn (sf_object_args ct o) (p_t (f_base o)) (p_t (f_base o) + f_dt o) (aget y, aget yd) = Ok (y', v') ->
     sf_step y yd ct o = (sf_with_base (set_current {| alen := n; aget := y' |} {| alen := n; aget := v' |}
            (set_t (p_t (f_base o) + f_dt o) (set_last_t (Some (p_t (f_base o))) (f_base o)))) o,
            Ok ({| alen := n; aget := y' |}, {| alen := n; aget := v' |}))).
  { intros ct y' v' E. unfold sf_step. rewrite Ly, Lv, S1, Nat.eqb_refl. cbn [negb]. cbv zeta.
    cbn [p_current_y p_current_yd set_t set_last_t].
    unfold assign_slice. rewrite S2, S3, Ly, Lv, Nat.eqb_refl. rewrite E. cbv iota. rewrite Ly, Lv.
    reflexivity. }
  split; [apply St; exact E0|]. split; [apply St; exact E1|].
  intros d. cbn [aget]. destruct (ED d) as [D1 D2]. cbv zeta. unfold coupled_change.
  replace (p_t (f_base o) + f_dt o - p_t (f_base o)) with (f_dt o) in D1, D2 by ring.
  rewrite Rminus_0_r in D1, D2. split; [exact D1|exact D2].
Qed.

Theorem C80_state_following_open_loop : forall o c T, 0 < f_execution_time o -> 0 < f_dt o <= f_int_dt o -> 0 < T ->
  exists ts y0 y1 ys0 ys1,
    sf_open_loop (Some T) None o = Ok (ts, aget (p_start_y (f_base o)) :: y0 :: ys0)
    /\ sf_open_loop (Some T) (Some c) o = Ok (ts, aget (p_start_y (f_base o)) :: y1 :: ys1)
    /\ forall d, y1 d = y0 d + f_dt o * coupled_change c (f_execution_time o / 2) (f_dt o) (aget (p_start_y (f_base o))) vzero d.
Proof.
  intros o c T Hx [Hdt Hi] HT.
  assert (G : forall ct, exists ts y' ys s, sf_open_loop (Some T) ct o = Ok (ts, aget (p_start_y (f_base o)) :: y' :: ys)
     /\ sf_step_fn (sf_object_args ct o) 0 (0 + f_dt o) (aget (p_start_y (f_base o)), vzero) = Ok s /\ y' = fst s
     /\ (forall k, (k < length ts)%nat -> nth_error ts k = Some (INR k * f_dt o) /\ ((k + 1 < length ts)%nat -> INR k * f_dt o < T))
     /\ T <= INR (length ts - 1) * f_dt o).
  { intros ct. destruct (C31_open_loop o ct (Some T) Hx Hdt ltac:(lra)) as (ts & ys & E & L & Hk & Hend).
    destruct ts as [|t0 [|t1 ts]]; try (cbn in Hend; lra). destruct ys as [|a [|b ys]]; try discriminate.
    destruct (Hk 0%nat ltac:(cbn; lia)) as (_ & _ & s0 & A & R0). cbn [run_seq] in R0. injection R0 as <-.
    destruct (Hk 1%nat ltac:(cbn; lia)) as (_ & _ & s1 & B & R1). cbn [run_seq bind] in R1.
    cbn in A, B. injection A as ->. injection B as ->.
    replace (0 + INR 0 * f_dt o) with 0 in R1 by (cbn; ring). replace (0 + INR 1 * f_dt o) with (0 + f_dt o) in R1 by (cbn; ring).
    exists (t0 :: t1 :: ts), (fst s1), ys, s1. split; [exact E|]. split; [exact R1|]. split; [reflexivity|].
    split; [|exact Hend]. intros k Hl. destruct (Hk k Hl) as (H1 & H2 & _). auto. }
  destruct (G None) as (ts & y0 & ys0 & s0 & E0 & F0 & -> & A0 & B0).
  destruct (G (Some c)) as (ts' & y1 & ys1 & s1 & E1 & F1 & -> & A1 & B1).
  assert (EL : length ts' = length ts).
  { assert (LE : forall l l' : list R, (forall k, (k < length l)%nat -> (k + 1 < length l)%nat -> INR k * f_dt o < T) ->
        T <= INR (length l' - 1) * f_dt o -> (0 < length l')%nat -> (length l <= length l')%nat).
    { intros l l' H H' Hl. destruct (le_lt_dec (length l) (length l')) as [|Hlt]; auto. exfalso.
      pose proof (H (length l' - 1)%nat ltac:(lia) ltac:(lia)). lra. }
    assert (P0 : (0 < length ts)%nat) by (destruct ts; [cbn in B0; lra|cbn; lia]).
    assert (P1 : (0 < length ts')%nat) by (destruct ts'; [cbn in B1; lra|cbn; lia]).
    apply Nat.le_antisymm; apply LE; auto; intros k K1 K2; [apply (A1 k K1)|apply (A0 k K1)]; auto. }
  assert (ts' = ts) as ->.
  { apply nth_ext with (d := 0) (d' := 0); auto. intros k Hk.
    rewrite (nth_error_nth _ _ _ (proj1 (A1 k Hk))). rewrite EL in Hk. now rewrite (nth_error_nth _ _ _ (proj1 (A0 k Hk))). }
  exists ts, (fst s0), (fst s1), ys0, ys1. split; [exact E0|]. split; [exact E1|].
  destruct (C80_state_following (sf_object_args (Some c) o) c 0 (0 + f_dt o) (aget (p_start_y (f_base o))) vzero)
    as (z0 & v0 & z1 & v1 & Z0 & Z1 & ED); try reflexivity; [exact Hx|cbn; lra|split; cbn; lra|].
  change (sf_step_fn (sf_object_args None o) 0 (0 + f_dt o) (aget (p_start_y (f_base o)), vzero) = Ok (z0, v0)) in Z0.
  rewrite F0 in Z0. rewrite F1 in Z1. injection Z0 as ->. injection Z1 as ->.
  intros d. destruct (ED d) as [_ D]. cbn [fst]. cbn [sf_object_args sa_goal_t sa_start_t] in D.
  replace (0 + f_dt o - 0) with (f_dt o) in D by ring. rewrite Rminus_0_r in D. exact D.
Qed.

(** A push along the first dimension moves a one-dimensional movement by [dt / tau] per step. *)
Example C80_state_following_satisfiable :
  exists o, sf_reachable 1 8 o /\ 0 <= p_t (f_base o) /\ 0 < f_dt o <= f_int_dt o /\ 0 < f_execution_time o
  /\ coupled_change (fun _ _ => (fun _ => 1, vzero)) (f_execution_time o / 2) (f_dt o) vzero vzero 0 <> 0.
Proof.
  assert (Ea : exists z, canonical_system_alpha (1 / 100) 1 0 = Ok z).
  { unfold canonical_system_alpha. repeat (destruct (Rle_dec _ _); [lra|]). eauto. }
  destruct Ea as [z Ea].
  destruct (proj2 (proj1 (C31_constructor_errors vzero vzero 8 1 0 (1/10) z))) as [f E]; [repeat split; [lia|lra|lra]|].
  assert (E' : exists o, sf_new (vzero, vzero) 1 1 (1/1000) 8 (1/1000) {| shape := []; data := fun _ => 25 |}
      {| shape := []; data := fun _ => 25/4 |} = Ok o /\ p_t (f_base o) = 0 /\ f_dt o = 1/1000 /\ f_int_dt o = 1/1000 /\ f_execution_time o = 1).
  { eexists. split; [unfold sf_new; rewrite Ea; cbn [bind fst snd ensure_1d_array shape data Nat.eqb]; rewrite E; reflexivity|]. repeat split. }
  destruct E' as (o & E' & Et & E1 & E2 & E3). exists o. split; [eapply sr_new; exact E'|].
  rewrite Et, E1, E2, E3. split; [lra|]. split; [lra|]. split; [lra|].
  unfold coupled_change, vzero. cbn. lra.
Qed.
