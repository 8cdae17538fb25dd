(** C141: movements forget where they began.  Final statements. *)
From Coq Require Import Reals ZArith List Lia Lra Psatz FunctionalExtensionality.
From Verif Require Import M_Prelude M_Canonical M_Forcing M_Dmp M_Base M_DmpObject
  S_Loops S_Dmp S_Stability P_Loops P_Canonical P_Forcing P_DmpStep P_DmpScale P_DmpLinear P_Converge
  P_DmpObject P_Disturbed P_Stability P_Bounded P_DisturbedAll P_Moving P_Together Properties_Forcing Properties_Dmp
  Properties_DmpObject Properties_DmpState Properties_Goal Properties_Stability Properties_Robust
  Properties_RobustAll Properties_Moving.
Import ListNotations.
Open Scope R_scope.
Set Bullet Behavior "Strict Subproofs".

(** ** Specification *)
(** From some round on the goals differ by at most [D] (and a little). *)
Definition goals_within (D : R) (d : nat) (goals goals' : nat -> arr) : Prop :=
  forall eps, 0 < eps -> exists N, forall k, (N <= k)%nat -> Rabs (aget (goals k) d - aget (goals' k) d) <= D + eps.

(** From some round on the sequence of goals repeats itself after [p] rounds. *)
Definition repeats (p : nat) (d : nat) (goals : nat -> arr) : Prop :=
  exists N, forall k, (N <= k)%nat -> aget (goals (p + k)%nat) d = aget (goals k) d.

(** ** Proofs *)
Definition ready (o : dmp) (goals : nat -> arr) (y yd : arr) (d : nat) : Prop :=
  phase_ok (o_forcing_term o) /\ shapes_ok o
  /\ alen y = p_n_dims (o_base o) /\ alen yd = p_n_dims (o_base o) /\ (forall k, alen (goals k) = p_n_dims (o_base o))
  /\ (o_smooth_scaling o = false \/ bounded_goals goals d).

Lemma reachable_ready n o goals y yd d : reachable n o -> alen y = n -> alen yd = n -> (forall k, alen (goals k) = n) ->
  o_smooth_scaling o = false \/ bounded_goals goals d -> ready o goals y yd d.
Proof.
  intros Hr Ly Lyd Lg Hs. destruct (reachable_shapes n o Hr) as [Hsh Hn].
  split; [now apply (reachable_phase_ok n)|]. split; [exact Hsh|]. rewrite Hn. auto.
Qed.

(** The states from any late round on. *)
Lemma chase_states_late fn o goals d y yd : ready o goals y yd d -> running o ->
  exists k0, forall i, exists MM t0 a s, 0 <= MM /\ 0 <= t0
  /\ moving_args a d (o_forcing_term o) (fun k => aget (goals (S (k0 + i + k))) d) (aget (o_alpha_y o) d)
       (aget (o_beta_y o) d) (o_execution_time o) MM
  /\ (forall k, a_int_dt (a k) = o_int_dt o)
  /\ (forall k, run_step_function fn (a k) (t0 + INR k * o_dt o) (t0 + INR (S k) * o_dt o) (s k) = Ok (s (S k)))
  /\ forall k, exists o' y' yd', chase fn goals (S (k0 + i + k)) y yd o = (o', Ok (y', yd')) /\ s k = (aget y', aget yd').
Proof.
  intros (Hph & Hsh & Ly & Lyd & Lg & Hsm) Hrun.
  destruct (chase_states fn o goals d y yd Hph Hsh Hrun Ly Lyd Lg Hsm) as (k0 & MM & t0 & a & s & HM & Ht & HA & Hint & Hs & Hret).
  exists k0. intros i. exists MM, (t0 + INR i * o_dt o), (fun k => a (i + k)%nat), (fun k => s (i + k)%nat).
  assert (Hi : 0 <= INR i * o_dt o) by (apply Rmult_le_pos; [apply pos_INR|destruct Hrun; lra]).
  split; [exact HM|]. split; [lra|]. split.
  { destruct HA as [m_pre m_start m_goal_t m_al m_be m_goal m_ft m_dist m_te m_c]. split; intros k; auto.
    rewrite m_goal. now rewrite Nat.add_assoc. }
  split; [auto|]. split.
  - intros k. replace (t0 + INR i * o_dt o + INR k * o_dt o) with (t0 + INR (i + k) * o_dt o) by (rewrite plus_INR; ring).
    replace (t0 + INR i * o_dt o + INR (S k) * o_dt o) with (t0 + INR (S (i + k)) * o_dt o) by (rewrite !S_INR, plus_INR; ring).
    replace (i + S k)%nat with (S (i + k)) by lia. apply Hs.
  - intros k. rewrite <- Nat.add_assoc. apply Hret.
Qed.

Lemma together : forall fn o0 d,
  0 < o_execution_time o0 -> 0 < o_dt o0 -> 0 < o_int_dt o0 -> steps_shrink fn o0 d ->
  exists K, 0 <= K /\ forall o o' goals goals' y yd y' yd' D,
  ready o goals y yd d -> ready o' goals' y' yd' d -> tuned_like o0 d o -> tuned_like o0 d o' -> 0 <= D ->
  goals_within D d goals goals' ->
  forall eps, 0 < eps -> exists N, forall k, (N <= k)%nat ->
  exists o1 y1 yd1 o2 y2 yd2,
    chase fn goals (S k) y yd o = (o1, Ok (y1, yd1)) /\ chase fn goals' (S k) y' yd' o' = (o2, Ok (y2, yd2))
    /\ Rabs (aget y1 d - aget y2 d) <= K * D + eps /\ Rabs (aget yd1 d - aget yd2 d) <= K * D + eps.
Proof.
  intros fn o0 d Hx Hdt Hi Hst.
  destruct (pair_run fn (o_dt o0) (o_int_dt o0) (aget (o_alpha_y o0) d) (aget (o_beta_y o0) d) (o_execution_time o0)
    Hdt Hi Hx) as (K & HK & H).
  { unfold steps_shrink in Hst. cbv zeta in Hst. unfold dmp_damping, dmp_stiffness in Hst. exact Hst. }
  exists K. split; [exact HK|].
  intros o o' goals goals' y yd y' yd' D Hr Hr' (T1 & T2 & T3 & T4 & T5 & T6) (U1 & U2 & U3 & U4 & U5 & U6) HD Hg eps He.
  assert (Hrun : running o) by (unfold running; rewrite T1, T2, T3; auto).
  assert (Hrun' : running o') by (unfold running; rewrite U1, U2, U3; auto).
  destruct (chase_states_late fn o goals d y yd Hr Hrun) as [k1 H1].
  destruct (chase_states_late fn o' goals' d y' yd' Hr' Hrun') as [k2 H2].
  destruct (H1 k2) as (M & t0 & a & s & HM & Ht & HA & Hint & Hs & Hret).
  destruct (H2 k1) as (M' & t0' & a' & s' & HM' & Ht' & HA' & Hint' & Hs' & Hret').
  rewrite T1, T4, T5 in HA. rewrite T2 in Hs. rewrite T3 in Hint.
  rewrite U1, U4, U5 in HA'. rewrite U2 in Hs'. rewrite U3 in Hint'.
  destruct (H a a' d _ _ _ _ M M' t0 t0' s s' D HA HA' Hint Hint' (proj1 Hr) (proj1 Hr') HM HM' Ht Ht' HD) as [E1 E2]; auto.
  { intros e Hee. destruct (Hg e Hee) as [N HN]. exists N. intros k Hk.
    replace (k2 + k1 + k)%nat with (k1 + k2 + k)%nat by lia. apply HN. lia. }
  destruct (E1 eps He) as [N1 HN1]. destruct (E2 eps He) as [N2 HN2].
  exists (k1 + k2 + N1 + N2)%nat. intros k Hk. set (j := (k - (k1 + k2))%nat).
  assert (Ek : (k1 + k2 + j = k)%nat) by (unfold j; lia).
  destruct (Hret j) as (o1 & y1 & yd1 & R1 & S1). destruct (Hret' j) as (o2 & y2 & yd2 & R2 & S2).
  replace (k2 + k1 + j)%nat with k in R2 by lia. rewrite Ek in R1.
  exists o1, y1, yd1, o2, y2, yd2. split; [exact R1|]. split; [exact R2|].
  specialize (HN1 j ltac:(unfold j; lia)). specialize (HN2 j ltac:(unfold j; lia)). cbv beta in HN1, HN2.
  rewrite S1, S2 in HN1, HN2. cbn [fst snd] in HN1, HN2. auto.
Qed.

Lemma chase_shift fn goals p y yd o o1 y1 yd1 : chase fn goals p y yd o = (o1, Ok (y1, yd1)) ->
  forall k, chase fn goals (p + k) y yd o = chase fn (fun j => goals (p + j)%nat) k y1 yd1 o1.
Proof.
  intros E. induction k as [|k IH]; [rewrite Nat.add_0_r; exact E|].
  replace (p + S k)%nat with (S (p + k)) by lia. cbn [chase]. now rewrite IH.
Qed.

(** ** C141 *)
(** Two DMPs with the same gains and step lengths, with any histories, weights, starts, numbers of
    dimensions and first states.  [K] depends on the integrator, the gains and the step lengths only. *)
Theorem C141_together : forall fn o0 d,
  0 < o_execution_time o0 -> 0 < o_dt o0 -> 0 < o_int_dt o0 -> steps_shrink fn o0 d ->
  exists K, 0 <= K /\ forall n o goals y yd n' o' goals' y' yd' D,
  reachable n o -> tuned_like o0 d o -> alen y = n -> alen yd = n -> (forall k, alen (goals k) = n) ->
  o_smooth_scaling o = false \/ bounded_goals goals d ->
  reachable n' o' -> tuned_like o0 d o' -> alen y' = n' -> alen yd' = n' -> (forall k, alen (goals' k) = n') ->
  o_smooth_scaling o' = false \/ bounded_goals goals' d ->
  0 <= D -> goals_within D d goals goals' ->
  forall eps, 0 < eps -> exists N, forall k, (N <= k)%nat ->
  exists o1 y1 yd1 o2 y2 yd2,
    chase fn goals (S k) y yd o = (o1, Ok (y1, yd1)) /\ chase fn goals' (S k) y' yd' o' = (o2, Ok (y2, yd2))
    /\ Rabs (aget y1 d - aget y2 d) <= K * D + eps /\ Rabs (aget yd1 d - aget yd2 d) <= K * D + eps.
Proof.
  intros fn o0 d Hx Hdt Hi Hst. destruct (together fn o0 d Hx Hdt Hi Hst) as (K & HK & H).
  exists K. split; [exact HK|]. intros n o goals y yd n' o' goals' y' yd' D R1 T1 L1 L2 L3 S1 R2 T2 L4 L5 L6 S2 HD Hg.
  apply H; auto; [now apply (reachable_ready n)|now apply (reachable_ready n')].
Qed.

(** Goals that approach each other, in particular equal ones: the movements approach each other. *)
Corollary C141_forgets : forall fn d n o goals y yd n' o' goals' y' yd',
  reachable n o -> 0 < o_execution_time o -> 0 < o_dt o -> 0 < o_int_dt o -> steps_shrink fn o d ->
  alen y = n -> alen yd = n -> (forall k, alen (goals k) = n) ->
  o_smooth_scaling o = false \/ bounded_goals goals d ->
  reachable n' o' -> tuned_like o d o' -> alen y' = n' -> alen yd' = n' -> (forall k, alen (goals' k) = n') ->
  o_smooth_scaling o' = false \/ bounded_goals goals' d ->
  goals_within 0 d goals goals' ->
  forall eps, 0 < eps -> exists N, forall k, (N <= k)%nat ->
  exists o1 y1 yd1 o2 y2 yd2,
    chase fn goals (S k) y yd o = (o1, Ok (y1, yd1)) /\ chase fn goals' (S k) y' yd' o' = (o2, Ok (y2, yd2))
    /\ Rabs (aget y1 d - aget y2 d) <= eps /\ Rabs (aget yd1 d - aget yd2 d) <= eps.
Proof.
  intros fn d n o goals y yd n' o' goals' y' yd' R1 Hx Hdt Hi Hst L1 L2 L3 S1 R2 T2 L4 L5 L6 S2 Hg eps He.
  destruct (C141_together fn o d Hx Hdt Hi Hst) as (K & HK & H).
  assert (HT : tuned_like o d o) by (unfold tuned_like; repeat split).
  destruct (H n o goals y yd n' o' goals' y' yd' 0 R1 HT L1 L2 L3 S1 R2 T2 L4 L5 L6 S2 ltac:(lra) Hg eps He) as [N HN].
  exists N. intros k Hk. destruct (HN k Hk) as (o1 & y1 & yd1 & o2 & y2 & yd2 & E1 & E2 & E3 & E4).
  exists o1, y1, yd1, o2, y2, yd2. split; [exact E1|]. split; [exact E2|]. lra.
Qed.

(** A goal that moves periodically is followed periodically. *)
Theorem C141_periodic : forall fn n o d p goals y yd,
  reachable n o -> 0 < o_execution_time o -> 0 < o_dt o -> 0 < o_int_dt o -> steps_shrink fn o d ->
  alen y = n -> alen yd = n -> (forall k, alen (goals k) = n) ->
  o_smooth_scaling o = false \/ bounded_goals goals d -> repeats p d goals ->
  forall eps, 0 < eps -> exists N, forall k, (N <= k)%nat ->
  exists o1 y1 yd1 o2 y2 yd2,
    chase fn goals k y yd o = (o1, Ok (y1, yd1)) /\ chase fn goals (p + k) y yd o = (o2, Ok (y2, yd2))
    /\ Rabs (aget y1 d - aget y2 d) <= eps /\ Rabs (aget yd1 d - aget yd2 d) <= eps.
Proof.
  intros fn n o d p goals y yd Hr Hx Hdt Hi Hst Ly Lyd Lg Hsm [N0 HN0] eps He.
  pose proof (reachable_ready n o goals y yd d Hr Ly Lyd Lg Hsm) as Hrd.
  pose proof Hrd as (Hph & Hsh & Ly' & Lyd' & Lg' & _).
  destruct (together fn o d Hx Hdt Hi Hst) as (K & HK & H).
  assert (HT : tuned_like o d o) by (unfold tuned_like; repeat split).
  assert (Hp : exists op yp ydp, chase fn goals p y yd o = (op, Ok (yp, ydp))
    /\ ready op (fun j => goals (p + j)%nat) yp ydp d /\ tuned_like o d op).
  { destruct p as [|p]; [exists o, y, yd; split; [reflexivity|]; split; [exact Hrd|exact HT]|].
    destruct (chase_info fn goals o y yd Hsh (conj Hx (conj Hdt Hi)) Ly' Lyd' Lg' p) as (op & E & P & S1 & _ & _).
    exists op, (p_current_y (o_base op)), (p_current_yd (o_base op)). split; [exact E|].
    assert (En : p_n_dims (o_base op) = p_n_dims (o_base o)) by apply P.
    assert (Ef : o_forcing_term op = o_forcing_term o) by apply P.
    assert (Es : o_smooth_scaling op = o_smooth_scaling o) by apply P.
    split.
    - split; [now rewrite Ef|]. split; [exact S1|].
      split; [unfold shapes_ok in S1; tauto|]. split; [unfold shapes_ok in S1; tauto|].
      split; [intros k; rewrite En; apply Lg'|]. rewrite Es. destruct Hsm as [Hs|[B HB]]; [auto|].
      right. exists B. intros k. apply HB.
    - destruct P as (Q1 & Q2 & Q3 & Q4 & Q5 & Q6 & Q7 & Q8 & Q9 & Q10 & Q11 & Q12 & Q13 & Q14 & Q15 & Q16 & Q17).
      cbn in *. unfold tuned_like. rewrite Q8, Q9. repeat split; congruence. }
  destruct Hp as (op & yp & ydp & Ep & Hrp & HTp).
  destruct (H o op goals (fun j => goals (p + j)%nat) y yd yp ydp 0 Hrd Hrp HT HTp ltac:(lra)) with (eps := eps) as [N HN]; auto.
  { intros e Hee. exists N0. intros k Hk. rewrite HN0 by exact Hk. rewrite Rminus_eq_0, Rabs_R0. lra. }
  exists (S N). intros k Hk. destruct k as [|k]; [lia|].
  destruct (HN k ltac:(lia)) as (o1 & y1 & yd1 & o2 & y2 & yd2 & E1 & E2 & E3 & E4).
  exists o1, y1, yd1, o2, y2, yd2. split; [exact E1|].
  split; [rewrite (chase_shift _ _ _ _ _ _ _ _ _ Ep); exact E2|]. lra.
Qed.

(** The overdamped DMP of C133, a goal that swings between 1 and -1, and another goal that is always 1/10 away. *)
Example C141_satisfiable : exists o, reachable 1 o /\ 0 < o_execution_time o /\ 0 < o_dt o /\ 0 < o_int_dt o
  /\ steps_shrink RK4 o 0 /\ steps_shrink Euler_cython o 0 /\ tuned_like o 0 o /\ o_smooth_scaling o = false
  /\ let goals := fun k => one (if Nat.even k then 1 else -1) in
     let goals' := fun k => one (if Nat.even k then 9/10 else -11/10) in
     (forall k, alen (goals k) = 1%nat) /\ (forall k, alen (goals' k) = 1%nat) /\ bounded_goals goals 0
     /\ repeats 2 0 goals /\ ~ repeats 1 0 goals /\ goals_within (1/10) 0 goals goals' /\ goals_within 0 0 goals goals.
Proof.
  destruct C133_satisfiable as (o & H1 & H2 & H3 & H4 & H5 & H6 & H7 & H8 & _ & _ & _ & H9).
  exists o. repeat (split; [assumption|]). cbv zeta.
  split; [reflexivity|]. split; [reflexivity|]. split; [exact H9|]. split; [|split; [|split]].
  - exists 0%nat. intros k _. reflexivity.
  - intros [N HN]. specialize (HN (N + N)%nat ltac:(lia)). unfold one in HN. cbn [aget] in HN.
    assert (E1 : Nat.even (N + N) = true) by (apply Nat.even_spec; exists N; lia).
    assert (E2 : Nat.even (1 + (N + N)) = false).
    { destruct (Nat.even (1 + (N + N))) eqn:E; [|reflexivity]. apply Nat.even_spec in E. destruct E as [q Hq]. lia. }
    rewrite E1, E2 in HN. lra.
  - intros e He. exists 0%nat. intros k _. unfold one. cbn [aget]. destruct (Nat.even k); apply Rabs_le; lra.
  - intros e He. exists 0%nat. intros k _. rewrite Rminus_eq_0, Rabs_R0. lra.
Qed.
