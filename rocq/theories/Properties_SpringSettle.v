(** C131 for SpringDamper: open loops and settling times.  Final statements. *)
From Coq Require Import Reals ZArith List Arith Bool Lia Lra Psatz FunctionalExtensionality.
From Coquelicot Require Import Complex.
From Verif Require Import M_Prelude M_Canonical M_Forcing M_Dmp M_Base M_DmpObject M_SpringDamper S_Loops S_Dmp S_Stability
  P_Loops P_Forcing P_DmpStep P_DmpLinear P_Converge P_DmpObject P_Disturbed P_Stability P_Rate
  Properties_SpringDamper Properties_Goal Properties_Stability Properties_SpringHistory Properties_Moving Properties_TogetherSpring
  Properties_Prefix Properties_SpringOde Properties_SpringRate.
Import ListNotations.
Open Scope R_scope.
Set Bullet Behavior "Strict Subproofs".

(** ** Proofs *)
Lemma sd_open_loop_total o run_t : 0 < s_dt o -> 0 < s_int_dt o -> 0 < run_t ->
  exists ts ys, sd_open_loop run_t None o = Ok (ts, ys).
Proof.
  intros Hdt Hi HT. unfold sd_open_loop, spring_damper_open_loop.
  match goal with |- exists ts ys, rmap _ (open_loop_run ?f _ _ _ _ _) = _ =>
    destruct (run_on_grid_total f run_t (s_dt o) (aget (p_start_y (s_base o)), vzero)) as (ts & l & E) end; auto.
  { intros a b s Hab. unfold spring_damper_step.
    destruct (substeps_tiles a b (s_int_dt o)) as (l & _ & EL); [exact Hi|lra|]. rewrite EL. eauto. }
  rewrite open_loop_run_grid, E. cbn. eauto.
Qed.

Lemma decay_below K D eps lam t : 0 <= K -> 0 <= D -> 0 < eps -> ln (K * D / eps) <= lam * t ->
  K * D * exp (- lam * t) <= eps.
Proof.
  intros HK HD He Hl. destruct (Req_dec (K * D) 0) as [E|E].
  - rewrite E, Rmult_0_l. lra.
  - assert (H0 : 0 < K * D) by (pose proof (Rmult_le_pos K D HK HD); lra).
    assert (Hq : 0 < K * D / eps) by now apply Rdiv_lt_0_compat.
    apply Rle_trans with (K * D * exp (- ln (K * D / eps))).
    + apply Rmult_le_compat_l; [lra|].
      assert (H1 : - lam * t <= - ln (K * D / eps)) by lra.
      destruct H1 as [H1|H1]; [left; now apply exp_increasing|rewrite H1; lra].
    + rewrite exp_Ropp, exp_ln by exact Hq. right. field. repeat split; try lra; intros Z; apply E; rewrite Z; ring.
Qed.

(** ** C131 *)
(** A whole movement: [open_loop] returns, and every position it returns is within the bound at
    the time that is returned with it. *)
Theorem C131_spring_open_loop : forall o0 lam, 0 < s_k o0 -> 0 < sd_c o0 -> 0 < s_dt o0 -> 0 < s_int_dt o0 ->
  0 <= lam -> spring_decays_at lam o0 ->
  exists K, forall o n run_t, position_history n o -> same_spring o0 o -> 0 < run_t ->
  exists ts ys, sd_open_loop run_t None o = Ok (ts, ys) /\ length ts = length ys
  /\ forall i d, (i < length ys)%nat ->
     Rabs (nth i ys vzero d - aget (p_goal_y (s_base o)) d)
     <= K * Rabs (aget (p_start_y (s_base o)) d - aget (p_goal_y (s_base o)) d) * exp (- lam * nth i ts 0).
Proof.
  intros o0 lam Hk Hc Hdt Hi Hl Hd.
  destruct (C131_spring o0 lam Hk Hc Hdt Hi Hl Hd) as [K HK].
  exists K. intros o n run_t Hh Hs HT. pose proof Hs as (S1 & S2 & S3 & S4).
  assert (Hdt' : 0 < s_dt o) by lra. assert (Hi' : 0 < s_int_dt o) by lra.
  destruct (sd_open_loop_total o run_t Hdt' Hi' HT) as (ts & ys & E).
  exists ts, ys. split; [exact E|].
  assert (Hsh : sd_shapes o n).
  { destruct (position_shapes n o Hh) as (_ & _ & A1 & A2 & _ & _ & _ & _ & A3 & A4). unfold sd_shapes. auto. }
  pose proof E as E'. unfold sd_open_loop, spring_damper_open_loop in E'.
  destruct (open_loop_run _ _ _ _ _ _) as [[ts' l]|] eqn:Eo; [|discriminate].
  cbn [rmap fst snd] in E'. injection E' as E1 E2. subst ts'.
  pose proof (open_loop_run_seq _ _ _ _ _ _ _ _ Eo) as [Hlen Hrun].
  assert (Hll : length ys = length l) by (rewrite <- E2; now rewrite map_length).
  split; [congruence|].
  intros i d Hid.
  destruct (C46_open_loop_is_repeated_step o n None run_t ts ys Hsh Hdt' Hi' E i Hid) as (o' & y & yd & En & Ey & _).
  destruct (HK (sd_reset o) n (p_start_y (s_base o)) (zeros n) d i) as (o2 & y2 & yd2 & E3 & B & _).
  { now apply sh_reset. }
  { repeat split; auto. }
  { apply Hsh. }
  { reflexivity. }
  rewrite En in E3. injection E3 as _ <- <-. rewrite Ey in B.
  destruct (Hrun i) as (Hts & _); [lia|].
  rewrite (nth_error_nth _ _ _ Hts). cbn [sd_reset s_base s_dt p_goal_y zeros aget] in B.
  unfold vzero in B at 2. rewrite Rabs_R0, Rplus_0_r in B. rewrite Rplus_0_l. exact B.
Qed.

(** The time after which the spring stays within any tolerance: it grows with the logarithm of the
    distance only. *)
Theorem C131_spring_settles : forall o0 lam, 0 < s_k o0 -> 0 < sd_c o0 -> 0 < s_dt o0 -> 0 < s_int_dt o0 ->
  0 <= lam -> spring_decays_at lam o0 ->
  exists K, 0 <= K /\ forall o n y yd d eps, position_history n o -> same_spring o0 o -> alen y = n -> alen yd = n ->
  0 < eps ->
  let D := Rabs (aget y d - aget (p_goal_y (s_base o)) d) + Rabs (aget yd d) in
  forall j, ln (K * D / eps) <= lam * (INR j * s_dt o) ->
  exists o' y' yd', sd_n_steps None j y yd o = (o', Ok (y', yd'))
  /\ Rabs (aget y' d - aget (p_goal_y (s_base o)) d) <= eps /\ Rabs (aget yd' d) <= eps.
Proof.
  intros o0 lam Hk Hc Hdt Hi Hl Hd.
  destruct (C131_spring o0 lam Hk Hc Hdt Hi Hl Hd) as [K HK].
  exists (Rmax K 0). split; [apply Rmax_r|].
  intros o n y yd d eps Hh Hs Ly Lyd He D j Hj.
  destruct (HK o n y yd d j Hh Hs Ly Lyd) as (o' & y' & yd' & E & B1 & B2).
  exists o', y', yd'. split; [exact E|].
  fold D in B1, B2.
  assert (HD : 0 <= D).
  { unfold D. pose proof (Rabs_pos (aget y d - aget (p_goal_y (s_base o)) d)). pose proof (Rabs_pos (aget yd d)). lra. }
  pose proof (decay_below (Rmax K 0) D eps lam (INR j * s_dt o) (Rmax_r _ _) HD He Hj) as HB.
  assert (HM : K * D * exp (- lam * (INR j * s_dt o)) <= Rmax K 0 * D * exp (- lam * (INR j * s_dt o))).
  { apply Rmult_le_compat_r; [left; apply exp_pos|]. apply Rmult_le_compat_r; [exact HD|apply Rmax_l]. }
  split; lra.
Qed.

(** Two dimensions, default damping, goal (1, 1) and start (0, 0): one bound for open loops of every length. *)
Example C131_spring_open_loop_satisfiable : exists o, position_history 2 o /\ s_k o = 4 /\ s_c o = None
  /\ spring_decays_at 1 o /\ same_spring o o /\ aget (p_start_y (s_base o)) 0%nat = 0 /\ aget (p_goal_y (s_base o)) 0%nat = 1
  /\ exists K, forall run_t, 0 < run_t -> exists ts ys, sd_open_loop run_t None o = Ok (ts, ys)
     /\ forall i, (i < length ys)%nat -> Rabs (nth i ys vzero 0%nat - 1) <= K * exp (- 1 * nth i ts 0).
Proof.
  set (o := fst (sd_configure (goal_only {| alen := 2; aget := fun _ => 1 |}) (sd_new 2 (1/100) 4 None (1/1000)))).
  assert (E4 : sqrt 4 = 2) by (replace 4 with (2 * 2) by ring; apply sqrt_square; lra).
  assert (Sh : position_history 2 o) by (apply sh_configure, sh_new; eauto).
  assert (Hc : 0 < sd_c o) by (unfold sd_c; cbn; lra).
  assert (Hd : spring_decays_at 1 o).
  { replace 1 with (sqrt (s_k o) / 2) by (cbn; lra).
    apply C131_spring_default; try (cbn; lra); [reflexivity| |].
    - right. exists 10%nat. cbn. lra.
    - cbn. rewrite Rmin_right, E4; lra. }
  exists o. split; [exact Sh|]. split; [reflexivity|]. split; [reflexivity|]. split; [exact Hd|].
  split; [repeat split|]. split; [reflexivity|]. split; [reflexivity|].
  destruct (C131_spring_open_loop o 1) as [K HK]; try (cbn; lra); auto.
  exists K. intros run_t HT.
  destruct (HK o 2%nat run_t Sh ltac:(repeat split) HT) as (ts & ys & E & _ & B).
  exists ts, ys. split; [exact E|]. intros i Hi. specialize (B i 0%nat Hi).
  cbn [aget] in B. change (aget (p_start_y (s_base o)) 0%nat) with 0 in B.
  change (aget (p_goal_y (s_base o)) 0%nat) with 1 in B.
  replace (Rabs (0 - 1)) with 1 in B by (rewrite Rabs_left; lra). rewrite Rmult_1_r in B. exact B.
Qed.
