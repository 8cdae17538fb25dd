(** C141: DMPs with final velocity forget where they began.  Final statements. *)
From Coq Require Import Reals ZArith List Lia Lra Psatz FunctionalExtensionality.
From Verif Require Import M_Prelude M_Canonical M_Forcing M_Dmp M_Base M_DmpObject M_FinalVelocity
  S_Loops S_Dmp S_Stability P_Loops P_Canonical P_Forcing P_DmpStep P_DmpScale P_DmpLinear P_Converge
  P_DmpObject P_Disturbed P_FinalVelocity P_Stability P_Bounded P_DisturbedAll P_Moving P_Together Properties_Forcing Properties_Dmp
  Properties_DmpObject Properties_DmpState Properties_Goal Properties_FinalVelocity Properties_Stability Properties_Robust
  Properties_RobustAll Properties_FinalVelocityObject Properties_Moving Properties_MovingFinalVelocity Properties_Together.
Import ListNotations.
Open Scope R_scope.
Set Bullet Behavior "Strict Subproofs".

(** ** Proofs *)
Lemma tuned_like_trans d o1 o2 o3 : tuned_like o1 d o2 -> tuned_like o2 d o3 -> tuned_like o1 d o3.
Proof. unfold tuned_like. intros (A1 & A2 & A3 & A4 & A5 & A6) (B1 & B2 & B3 & B4 & B5 & B6). repeat split; congruence. Qed.

Lemma ready_after fn goals y yd o d i : ready o goals y yd d -> running o ->
  exists op yp ydp, chase fn goals i y yd o = (op, Ok (yp, ydp))
    /\ ready op (fun j => goals (i + j)%nat) yp ydp d /\ tuned_like o d op.
Proof.
  intros Hrd Hrun. pose proof Hrd as (Hph & Hsh & Ly' & Lyd' & Lg' & Hsm).
  destruct i as [|p]; [exists o, y, yd; split; [reflexivity|]; split; [exact Hrd|unfold tuned_like; repeat split]|].
  destruct (chase_info fn goals o y yd Hsh Hrun Ly' Lyd' Lg' p) as (op & E & P & S1 & _ & _).
  exists op, (p_current_y (o_base op)), (p_current_yd (o_base op)). split; [exact E|].
  assert (En : p_n_dims (o_base op) = p_n_dims (o_base o)) by apply P.
  assert (Ef : o_forcing_term op = o_forcing_term o) by apply P.
  assert (Es : o_smooth_scaling op = o_smooth_scaling o) by apply P.
  split.
  - split; [now rewrite Ef|]. split; [exact S1|].
    split; [unfold shapes_ok in S1; tauto|]. split; [unfold shapes_ok in S1; tauto|].
    split; [intros k; rewrite En; apply Lg'|]. rewrite Es. destruct Hsm as [Hs|[B HB]]; [auto|].
    right. exists B. intros k. apply HB.
  - destruct P as (Q1 & Q2 & Q3 & Q4 & Q5 & Q6 & Q7 & Q8 & Q9 & Q10 & Q11 & Q12 & Q13 & Q14 & Q15 & Q16 & Q17).
    cbn in *. unfold tuned_like. rewrite Q8, Q9. repeat split; congruence.
Qed.

Lemma fv_tails n o goals y yd d : fv_reachable n o -> running o ->
  alen y = n -> alen yd = n -> (forall k, alen (goals k) = n) ->
  exists k0, forall i, exists o1 y1 yd1, ready o1 (fun j => goals (k0 + i + j)%nat) y1 yd1 d /\ tuned_like o d o1
  /\ forall k, fv_chase goals (k0 + i + k) y yd o = chase Euler (fun j => goals (k0 + i + j)%nat) k y1 yd1 o1.
Proof.
  intros Hr Hrun Ly Lyd Lg.
  destruct (fv_chase_tail n o goals y yd Hr Hrun Ly Lyd Lg) as (k0 & o1 & y1 & yd1 & HC & Hph & Hsm & En & L1 & L2 & HE).
  pose proof (chase_tuned _ _ _ d HC) as HT.
  assert (Hrun1 : running o1) by exact (running_same _ _ (proj1 HC) Hrun).
  assert (Hrd : ready o1 (fun j => goals (k0 + j)%nat) y1 yd1 d).
  { split; [exact Hph|]. split; [apply HC|]. rewrite En. repeat split; auto. }
  exists k0. intros i.
  destruct (ready_after Euler _ _ _ _ _ i Hrd Hrun1) as (o2 & y2 & yd2 & E & Hrd2 & HT2).
  assert (Eg : (fun j => goals (k0 + (i + j))%nat) = (fun j => goals (k0 + i + j)%nat)).
  { apply functional_extensionality. intros j. f_equal. lia. }
  exists o2, y2, yd2. split; [|split].
  - rewrite <- Eg. exact Hrd2.
  - eapply tuned_like_trans; eauto.
  - intros k. rewrite <- Nat.add_assoc, HE, (chase_shift _ _ _ _ _ _ _ _ _ E), Eg. reflexivity.
Qed.

(** ** C141 *)
Theorem C141_final_velocity : forall o0 d,
  0 < o_execution_time o0 -> 0 < o_dt o0 -> 0 < o_int_dt o0 -> steps_shrink Euler o0 d ->
  exists K, 0 <= K /\ forall n o goals y yd n' o' goals' y' yd' D,
  fv_reachable n o -> tuned_like o0 d o -> alen y = n -> alen yd = n -> (forall k, alen (goals k) = n) ->
  fv_reachable n' o' -> tuned_like o0 d o' -> alen y' = n' -> alen yd' = n' -> (forall k, alen (goals' k) = n') ->
  0 <= D -> goals_within D d goals goals' ->
  forall eps, 0 < eps -> exists N, forall k, (N <= k)%nat ->
  exists o1 y1 yd1 o2 y2 yd2,
    fv_chase goals (S k) y yd o = (o1, Ok (y1, yd1)) /\ fv_chase goals' (S k) y' yd' o' = (o2, Ok (y2, yd2))
    /\ Rabs (aget y1 d - aget y2 d) <= K * D + eps /\ Rabs (aget yd1 d - aget yd2 d) <= K * D + eps.
Proof.
  intros o0 d Hx Hdt Hi Hst. destruct (together Euler o0 d Hx Hdt Hi Hst) as (K & HK & H).
  exists K. split; [exact HK|]. intros n o goals y yd n' o' goals' y' yd' D R1 T1 L1 L2 L3 R2 T2 L4 L5 L6 HD Hg eps He.
  assert (Hrun : forall x, tuned_like o0 d x -> running x).
  { intros x (A1 & A2 & A3 & _). unfold running. rewrite A1, A2, A3. auto. }
  destruct (fv_tails n o goals y yd d R1 (Hrun _ T1) L1 L2 L3) as [k1 H1].
  destruct (fv_tails n' o' goals' y' yd' d R2 (Hrun _ T2) L4 L5 L6) as [k2 H2].
  destruct (H1 k2) as (oa & ya & yda & Ra & Ta & Ea). destruct (H2 k1) as (ob & yb & ydb & Rb & Tb & Eb).
  destruct (H oa ob _ _ ya yda yb ydb D Ra Rb (tuned_like_trans _ _ _ _ T1 Ta) (tuned_like_trans _ _ _ _ T2 Tb) HD)
    with (eps := eps) as [N HN]; auto.
  { intros e Hee. destruct (Hg e Hee) as [N HN]. exists N. intros k Hk.
    replace (k2 + k1 + k)%nat with (k1 + k2 + k)%nat by lia. apply HN. lia. }
  exists (k1 + k2 + N)%nat. intros k Hk.
  destruct (HN (k - (k1 + k2))%nat ltac:(lia)) as (o1 & y1 & yd1 & o2 & y2 & yd2 & E1 & E2 & E3).
  rewrite <- Ea in E1. rewrite <- Eb in E2.
  replace (k1 + k2 + S (k - (k1 + k2)))%nat with (S k) in E1 by lia.
  replace (k2 + k1 + S (k - (k1 + k2)))%nat with (S k) in E2 by lia.
  exists o1, y1, yd1, o2, y2, yd2. auto.
Qed.

Theorem C141_final_velocity_periodic : forall n o d p goals y yd,
  fv_reachable n o -> 0 < o_execution_time o -> 0 < o_dt o -> 0 < o_int_dt o -> steps_shrink Euler o d ->
  alen y = n -> alen yd = n -> (forall k, alen (goals k) = n) -> repeats p d goals ->
  forall eps, 0 < eps -> exists N, forall k, (N <= k)%nat ->
  exists o1 y1 yd1 o2 y2 yd2,
    fv_chase goals k y yd o = (o1, Ok (y1, yd1)) /\ fv_chase goals (p + k) y yd o = (o2, Ok (y2, yd2))
    /\ Rabs (aget y1 d - aget y2 d) <= eps /\ Rabs (aget yd1 d - aget yd2 d) <= eps.
Proof.
  intros n o d p goals y yd Hr Hx Hdt Hi Hst Ly Lyd Lg [N0 HN0] eps He.
  destruct (together Euler o d Hx Hdt Hi Hst) as (K & HK & H).
  destruct (fv_tails n o goals y yd d Hr (conj Hx (conj Hdt Hi)) Ly Lyd Lg) as [k0 H0].
  destruct (H0 0%nat) as (oa & ya & yda & Ra & Ta & Ea). destruct (H0 p) as (ob & yb & ydb & Rb & Tb & Eb).
  destruct (H oa ob _ _ ya yda yb ydb 0 Ra Rb Ta Tb ltac:(lra)) with (eps := eps) as [N HN]; auto.
  { intros e Hee. exists N0. intros k Hk. rewrite Nat.add_0_r.
    replace (k0 + p + k)%nat with (p + (k0 + k))%nat by lia. rewrite HN0 by lia. rewrite Rminus_eq_0, Rabs_R0. lra. }
  exists (S (k0 + N)). intros k Hk.
  destruct (HN (k - S k0)%nat ltac:(lia)) as (o1 & y1 & yd1 & o2 & y2 & yd2 & E1 & E2 & E3 & E4).
  rewrite <- Ea in E1. rewrite <- Eb in E2.
  replace (k0 + 0 + S (k - S k0))%nat with k in E1 by lia.
  replace (k0 + p + S (k - S k0))%nat with (p + k)%nat in E2 by lia.
  exists o1, y1, yd1, o2, y2, yd2. split; [exact E1|]. split; [exact E2|]. lra.
Qed.

(** A goal that swings between 1 and -1, and another goal that is always 1/10 away. *)
Example C141_final_velocity_satisfiable : exists o, fv_reachable 1 o /\ 0 < o_execution_time o /\ 0 < o_dt o
  /\ 0 < o_int_dt o /\ steps_shrink Euler o 0 /\ tuned_like o 0 o
  /\ let goals := fun k => one (if Nat.even k then 1 else -1) in
     let goals' := fun k => one (if Nat.even k then 9/10 else -11/10) in
     (forall k, alen (goals k) = 1%nat) /\ (forall k, alen (goals' k) = 1%nat)
     /\ repeats 2 0 goals /\ goals_within (1/10) 0 goals goals'.
Proof.
  destruct C140_final_velocity_satisfiable as (o & H1 & H2 & H3 & H4 & H5 & H6 & _).
  destruct C141_satisfiable as (_ & _ & _ & _ & _ & _ & _ & _ & _ & A1 & A2 & _ & A3 & _ & A4 & _).
  exists o. repeat (split; [assumption|]). exact A4.
Qed.
