(** C141 for SpringDamper.  Final statements. *)
From Coq Require Import Reals ZArith List Arith Bool Lia Lra Psatz FunctionalExtensionality.
From Verif Require Import M_Prelude M_Canonical M_Forcing M_Dmp M_Base M_DmpObject M_SpringDamper S_Loops S_Dmp S_Stability
  P_Loops P_Forcing P_DmpStep P_DmpLinear P_Converge P_DmpObject P_Disturbed P_Stability P_Bounded P_DisturbedAll P_Moving P_Together
  Properties_SpringDamper Properties_IO Properties_Goal Properties_Stability Properties_SpringHistory Properties_Moving
  Properties_MovingSpring Properties_PaceSpring Properties_DmpState Properties_Together.
Import ListNotations.
Open Scope R_scope.
Set Bullet Behavior "Strict Subproofs".

(** ** Specification *)
(** Two springs with the same constants. *)
Definition same_spring (o o' : spring_damper) : Prop :=
  s_k o' = s_k o /\ s_c o' = s_c o /\ s_dt o' = s_dt o /\ s_int_dt o' = s_int_dt o.

(** ** Proofs *)
(** The states from any late round on. *)
Lemma spring_states_late n o goals d y yd : ptp_shapes n n (s_base o) -> spring_shrinks o ->
  alen y = n -> alen yd = n -> (forall j, alen (goals j) = n) ->
  let c := match s_c o with Some c => c | None => 2 * sqrt (s_k o) end in
  exists k0, forall i, exists t0 a s, 0 <= t0
  /\ moving_args a d no_force (fun k => aget (goals (k0 + i + k)%nat) d) c (s_k o / c) 1 0
  /\ (forall k, a_int_dt (a k) = s_int_dt o)
  /\ (forall k, run_step_function Euler (a k) (t0 + INR k * s_dt o) (t0 + INR (S k) * s_dt o) (s k) = Ok (s (S k)))
  /\ forall k, exists o' y' yd', chase_spring goals (k0 + i + k) y yd o = (o', Ok (y', yd')) /\ s k = (aget y', aget yd').
Proof.
  intros Hshape (Hk & Hc & Hdt & Hi & _) Ly Lyd Lg c.
  fold c in Hc.
  set (P := fun j (r : spring_damper * res (arr * arr)) => exists ok yk ydk, r = (ok, Ok (yk, ydk))
     /\ ptp_shapes n n (s_base ok) /\ spring_like o ok /\ alen yk = n /\ alen ydk = n
     /\ p_t (s_base ok) = p_t (s_base o) + INR j * s_dt o).
  assert (HP : forall j, P j (chase_spring goals j y yd o)).
  { induction j as [|j IH].
    - exists o, y, yd. split; [reflexivity|]. split; [exact Hshape|]. split; [unfold spring_like; auto|].
      split; [exact Ly|]. split; [exact Lyd|]. simpl. ring.
    - destruct IH as (ok & yk & ydk & E & A1 & A2 & A3 & A4 & A5).
      destruct (chase_spring_step n goals o y yd j ok yk ydk) as (ok' & yk' & ydk' & E' & B); auto; try lra.
      exists ok', yk', ydk'. tauto. }
  set (st := fun j => match snd (chase_spring goals j y yd o) with
                      | Ok (y, yd) => (aget y, aget yd) | Err _ => (vzero, vzero) end).
  assert (Hst : forall j, spring_damper_step (aget (goals j)) (s_k o) (s_c o) None None (s_int_dt o)
       (p_t (s_base o) + INR j * s_dt o) (p_t (s_base o) + INR (S j) * s_dt o) (st j) = Ok (st (S j))).
  { intros j. destruct (HP j) as (ok & yk & ydk & E & A1 & A2 & A3 & A4 & A5).
    destruct (chase_spring_step n goals o y yd j ok yk ydk) as (ok' & yk' & ydk' & E' & _ & _ & _ & _ & _ & Es); auto; try lra.
    unfold st. rewrite E, E'. cbn [snd]. exact Es. }
  destruct (clock_steps (p_t (s_base o)) (s_dt o) Hdt) as [k0 Hk0].
  exists (S k0). intros i. assert (exists M, M = (S k0 + i)%nat) as [M EM] by eauto. rewrite <- EM.
  set (t0 := p_t (s_base o) + INR M * s_dt o).
  assert (Ht0 : 0 <= t0).
  { unfold t0. rewrite EM, plus_INR. pose proof (pos_INR i). assert (0 <= INR i * s_dt o) by (apply Rmult_le_pos; lra). lra. }
  exists t0, (fun j => sd_dmp 0 (s_k o) c (s_int_dt o) (aget (goals (M + j)%nat))), (fun j => st (M + j)%nat).
  split; [lra|]. split; [|split; [reflexivity|split]].
  - split; intros j; cbn; try reflexivity.
    + lra.
    + intros z Hz. unfold disturbance. cbn [sd_dmp a_forcing_term a_smooth_scaling].
      assert (Ef : ft_forces no_force z d = 0) by (unfold ft_forces, no_force; simpl; ring).
      rewrite Ef, Rminus_0_r, Rabs_R0. lra.
  - intros j. cbn [run_step_function].
    pose proof (pos_INR j). pose proof (C46_dmp_without_forcing_term (aget (goals (M + j)%nat)) (s_k o) (s_c o) (s_int_dt o)
      (t0 + INR j * s_dt o) (t0 + INR (S j) * s_dt o) (st (M + j)%nat)) as HC. cbv zeta in HC. fold c in HC.
    rewrite <- HC; auto; try lra; try (rewrite S_INR; nra).
    replace (t0 + INR j * s_dt o) with (p_t (s_base o) + INR (M + j) * s_dt o) by (unfold t0; rewrite plus_INR; ring).
    replace (t0 + INR (S j) * s_dt o) with (p_t (s_base o) + INR (S (M + j)) * s_dt o)
      by (unfold t0; rewrite (S_INR (M + j)), plus_INR, (S_INR j); ring).
    replace (M + S j)%nat with (S (M + j)) by lia. apply Hst.
  - intros j. destruct (HP (M + j)%nat) as (ok & yk & ydk & E & _). exists ok, yk, ydk.
    split; [exact E|]. unfold st. now rewrite E.
Qed.

Lemma springs_together : forall o0, spring_shrinks o0 ->
  exists K, 0 <= K /\ forall n o goals y yd n' o' goals' y' yd' d D q,
  ptp_shapes n n (s_base o) -> same_spring o0 o -> alen y = n -> alen yd = n -> (forall k, alen (goals k) = n) ->
  ptp_shapes n' n' (s_base o') -> same_spring o0 o' -> alen y' = n' -> alen yd' = n' -> (forall k, alen (goals' k) = n') ->
  0 <= D -> goals_within D d goals (fun k => goals' (q + k)%nat) ->
  forall eps, 0 < eps -> exists N, forall k, (N <= k)%nat ->
  exists o1 y1 yd1 o2 y2 yd2,
    chase_spring goals k y yd o = (o1, Ok (y1, yd1)) /\ chase_spring goals' (q + k) y' yd' o' = (o2, Ok (y2, yd2))
    /\ Rabs (aget y1 d - aget y2 d) <= K * D + eps /\ Rabs (aget yd1 d - aget yd2 d) <= K * D + eps.
Proof.
  intros o0 (Hk & Hc & Hdt & Hi & Hep & Hlim).
  set (c := match s_c o0 with Some c => c | None => 2 * sqrt (s_k o0) end) in *.
  destruct (pair_run Euler (s_dt o0) (s_int_dt o0) c (s_k o0 / c) 1 Hdt Hi ltac:(lra)) as (K & HK & H).
  { split; [exact Hep|]. replace (c / 1) with c by field. replace (c * (s_k o0 / c) / 1 ^ 2) with (s_k o0) by (field; lra).
    apply euler_shrinks_iff; auto. now apply Rmin_pos. }
  exists K. split; [exact HK|].
  intros n o goals y yd n' o' goals' y' yd' d D q R1 T L1 L2 L3 R2 U L4 L5 L6 HD Hg eps He.
  assert (Hss : forall x, same_spring o0 x -> spring_shrinks x).
  { intros x (A1 & A2 & A3 & A4). unfold spring_shrinks. cbv zeta. rewrite A1, A2, A3, A4. fold c. auto 7. }
  destruct (spring_states_late n o goals d y yd R1 (Hss _ T) L1 L2 L3) as [k1 H1].
  destruct (spring_states_late n' o' goals' d y' yd' R2 (Hss _ U) L4 L5 L6) as [k2 H2].
  destruct T as (T1 & T2 & T3 & T4). destruct U as (U1 & U2 & U3 & U4).
  destruct (H1 k2) as (t0 & a & s & Ht & HA & Hint & Hs & Hret).
  destruct (H2 (q + k1)%nat) as (t0' & a' & s' & Ht' & HA' & Hint' & Hs' & Hret').
  rewrite T1, T2 in HA. rewrite T3 in Hs. rewrite T4 in Hint. fold c in HA.
  rewrite U1, U2 in HA'. rewrite U3 in Hs'. rewrite U4 in Hint'. fold c in HA'.
  assert (Hnf : phase_ok no_force) by (unfold phase_ok, no_force; cbn; split; [lia|lra]).
  destruct (H a a' d _ _ _ _ 0 0 t0 t0' s s' D HA HA' Hint Hint' Hnf Hnf ltac:(lra) ltac:(lra) Ht Ht' HD) as [E1 E2]; auto.
  { intros e Hee. destruct (Hg e Hee) as [N HN]. exists N. intros k Hk'.
    replace (k2 + (q + k1) + k)%nat with (q + (k1 + k2 + k))%nat by lia. apply HN. lia. }
  destruct (E1 eps He) as [N1 HN1]. destruct (E2 eps He) as [N2 HN2].
  exists (k1 + k2 + N1 + N2)%nat. intros k Hk'. set (j := (k - (k1 + k2))%nat).
  assert (Ek : (k1 + k2 + j = k)%nat) by (unfold j; lia).
  destruct (Hret j) as (o1 & y1 & yd1 & Q1 & S1). destruct (Hret' j) as (o2 & y2 & yd2 & Q2 & S2).
  replace (k2 + (q + k1) + j)%nat with (q + k)%nat in Q2 by lia. rewrite Ek in Q1.
  exists o1, y1, yd1, o2, y2, yd2. split; [exact Q1|]. split; [exact Q2|].
  specialize (HN1 j ltac:(unfold j; lia)). specialize (HN2 j ltac:(unfold j; lia)). cbv beta in HN1, HN2.
  rewrite S1, S2 in HN1, HN2. cbn [fst snd] in HN1, HN2. auto.
Qed.

(** ** C141 *)
Theorem C141_springs : forall o0, spring_shrinks o0 ->
  exists K, 0 <= K /\ forall n o goals y yd n' o' goals' y' yd' d D,
  position_history n o -> same_spring o0 o -> alen y = n -> alen yd = n -> (forall k, alen (goals k) = n) ->
  position_history n' o' -> same_spring o0 o' -> alen y' = n' -> alen yd' = n' -> (forall k, alen (goals' k) = n') ->
  0 <= D -> goals_within D d goals goals' ->
  forall eps, 0 < eps -> exists N, forall k, (N <= k)%nat ->
  exists o1 y1 yd1 o2 y2 yd2,
    chase_spring goals k y yd o = (o1, Ok (y1, yd1)) /\ chase_spring goals' k y' yd' o' = (o2, Ok (y2, yd2))
    /\ Rabs (aget y1 d - aget y2 d) <= K * D + eps /\ Rabs (aget yd1 d - aget yd2 d) <= K * D + eps.
Proof.
  intros o0 Hs. destruct (springs_together o0 Hs) as (K & HK & H). exists K. split; [exact HK|].
  intros n o goals y yd n' o' goals' y' yd' d D R1 T1 L1 L2 L3 R2 T2 L4 L5 L6 HD Hg.
  apply (H n o goals y yd n' o' goals' y' yd' d D 0%nat); auto using position_shapes.
Qed.

Theorem C141_springs_periodic : forall n o d p goals y yd,
  position_history n o -> spring_shrinks o ->
  alen y = n -> alen yd = n -> (forall k, alen (goals k) = n) -> repeats p d goals ->
  forall eps, 0 < eps -> exists N, forall k, (N <= k)%nat ->
  exists o1 y1 yd1 o2 y2 yd2,
    chase_spring goals k y yd o = (o1, Ok (y1, yd1)) /\ chase_spring goals (p + k) y yd o = (o2, Ok (y2, yd2))
    /\ Rabs (aget y1 d - aget y2 d) <= eps /\ Rabs (aget yd1 d - aget yd2 d) <= eps.
Proof.
  intros n o d p goals y yd Hr Hs Ly Lyd Lg [N0 HN0] eps He.
  destruct (springs_together o Hs) as (K & HK & H).
  pose proof (position_shapes n o Hr) as Hsh.
  assert (HT : same_spring o o) by (unfold same_spring; auto).
  destruct (H n o goals y yd n o goals y yd d 0 p) with (eps := eps) as [N HN]; auto.
  - lra.
  - intros e Hee. exists N0. intros k Hk. rewrite HN0 by exact Hk. rewrite Rminus_eq_0, Rabs_R0. lra.
  - exists N. intros k Hk. destruct (HN k Hk) as (o1 & y1 & yd1 & o2 & y2 & yd2 & E1 & E2 & E3 & E4).
    exists o1, y1, yd1, o2, y2, yd2. split; [exact E1|]. split; [exact E2|]. lra.
Qed.

Example C141_springs_satisfiable : exists o, position_history 1 o /\ spring_shrinks o /\ same_spring o o
  /\ let goals := fun k => one (if Nat.even k then 1 else -1) in
     let goals' := fun k => one (if Nat.even k then 9/10 else -11/10) in
     (forall k, alen (goals k) = 1%nat) /\ (forall k, alen (goals' k) = 1%nat)
     /\ repeats 2 0 goals /\ goals_within (1/10) 0 goals goals'.
Proof.
  destruct C141_satisfiable as (_ & _ & _ & _ & _ & _ & _ & _ & _ & A1 & A2 & _ & A3 & _ & A4 & _).
  exists (fst (sd_configure (goal_only {| alen := 3; aget := INR |}) (sd_new 1 (1/10) 4 None (1/1000)))).
  split. { apply sh_configure, sh_new. eauto. }
  split; [|split; [unfold same_spring; auto|cbv zeta; auto]].
  unfold spring_shrinks. cbn. assert (E : sqrt 4 = 2) by (replace 4 with (2 * 2) by ring; apply sqrt_square; lra).
  rewrite E, Rmin_right by lra.
  split; [lra|]. split; [lra|]. split; [lra|]. split; [lra|]. split; [right; exists 100%nat; simpl; lra|lra].
Qed.
