(** C142: in the long run the answer to moving goals is linear.  Final statements. *)
From Coq Require Import Reals ZArith List Lia Lra Psatz FunctionalExtensionality.
From Verif Require Import M_Prelude M_Canonical M_Forcing M_Dmp M_Base M_DmpObject
  S_Loops S_Dmp S_Stability P_Loops P_Canonical P_Forcing P_DmpStep P_DmpScale P_DmpLinear P_Converge
  P_DmpObject P_Disturbed P_Stability P_Bounded P_DisturbedAll P_Moving P_Together P_Superposition Properties_Forcing Properties_Dmp
  Properties_DmpObject Properties_DmpState Properties_Goal Properties_Stability Properties_Robust
  Properties_RobustAll Properties_Moving Properties_Together.
Import ListNotations.
Open Scope R_scope.
Set Bullet Behavior "Strict Subproofs".

(** ** Specification *)
(** From some round on [goals2] is [x] times [goals] plus [z] times [goals'], up to [D] (and a little). *)
Definition combined (x z D : R) (d : nat) (goals goals' goals2 : nat -> arr) : Prop :=
  forall eps, 0 < eps -> exists N, forall k, (N <= k)%nat ->
  Rabs (x * aget (goals k) d + z * aget (goals' k) d - aget (goals2 k) d) <= D + eps.

(** A DMP made by any history, its moving goal and the state before the first step. *)
Definition follows (o0 : dmp) (d : nat) (o : dmp) (goals : nat -> arr) (y yd : arr) : Prop :=
  exists n, reachable n o /\ tuned_like o0 d o /\ alen y = n /\ alen yd = n /\ (forall k, alen (goals k) = n)
  /\ (o_smooth_scaling o = false \/ bounded_goals goals d).

(** ** Proofs *)
Definition ready_like (o0 : dmp) (d : nat) (o : dmp) (goals : nat -> arr) (y yd : arr) : Prop :=
  ready o goals y yd d /\ tuned_like o0 d o.

Lemma superposed : forall fn o0 d,
  0 < o_execution_time o0 -> 0 < o_dt o0 -> 0 < o_int_dt o0 -> steps_shrink fn o0 d ->
  exists K, 0 <= K /\ forall x z D o goals y yd o' goals' y' yd' o2 goals2 y2 yd2,
  ready_like o0 d o goals y yd -> ready_like o0 d o' goals' y' yd' -> ready_like o0 d o2 goals2 y2 yd2 ->
  0 <= D -> combined x z D d goals goals' goals2 ->
  forall eps, 0 < eps -> exists N, forall k, (N <= k)%nat ->
  exists oa ya va ob yb vb oc yc vc,
    chase fn goals (S k) y yd o = (oa, Ok (ya, va)) /\ chase fn goals' (S k) y' yd' o' = (ob, Ok (yb, vb))
    /\ chase fn goals2 (S k) y2 yd2 o2 = (oc, Ok (yc, vc))
    /\ Rabs (x * aget ya d + z * aget yb d - aget yc d) <= K * D + eps
    /\ Rabs (x * aget va d + z * aget vb d - aget vc d) <= K * D + eps.
Proof.
  intros fn o0 d Hx Hdt Hi Hst.
  destruct (triple_run fn (o_dt o0) (o_int_dt o0) (aget (o_alpha_y o0) d) (aget (o_beta_y o0) d) (o_execution_time o0)
    Hdt Hi Hx) as (K & HK & H).
  { unfold steps_shrink in Hst. cbv zeta in Hst. unfold dmp_damping, dmp_stiffness in Hst. exact Hst. }
  exists K. split; [exact HK|].
  intros x z D o goals y yd o' goals' y' yd' o2 goals2 y2 yd2 F F' F2 HD Hg eps He.
  assert (HL : forall o goals y yd, ready_like o0 d o goals y yd -> exists k0, forall i, exists MM t0 a s, 0 <= MM /\ 0 <= t0
    /\ moving_args a d (o_forcing_term o) (fun k => aget (goals (S (k0 + i + k))) d) (aget (o_alpha_y o0) d)
         (aget (o_beta_y o0) d) (o_execution_time o0) MM
    /\ (forall k, a_int_dt (a k) = o_int_dt o0)
    /\ (forall k, run_step_function fn (a k) (t0 + INR k * o_dt o0) (t0 + INR (S k) * o_dt o0) (s k) = Ok (s (S k)))
    /\ phase_ok (o_forcing_term o)
    /\ forall k, exists o' y' yd', chase fn goals (S (k0 + i + k)) y yd o = (o', Ok (y', yd')) /\ s k = (aget y', aget yd')).
  { clear - Hx Hdt Hi. intros o goals y yd (Hrd & T1 & T2 & T3 & T4 & T5 & T6).
    assert (Hrun : running o) by (unfold running; rewrite T1, T2, T3; auto).
    destruct (chase_states_late fn o goals d y yd Hrd Hrun) as [k0 Hk0].
    exists k0. intros i. destruct (Hk0 i) as (MM & t0 & a & s & A1 & A2 & A3 & A4 & A5 & A6).
    rewrite T1, T4, T5 in A3. rewrite T2 in A5. rewrite T3 in A4.
    exists MM, t0, a, s. repeat (split; [assumption|]). split; [apply Hrd|exact A6]. }
  destruct (HL _ _ _ _ F) as [k1 H1]. destruct (HL _ _ _ _ F') as [k2 H2]. destruct (HL _ _ _ _ F2) as [k3 H3]. clear HL.
  destruct (H1 (k2 + k3)%nat) as (M & t0 & a & s & HM & Ht & HA & Hint & Hs & Hph & Hret).
  destruct (H2 (k1 + k3)%nat) as (M' & t0' & a' & s' & HM' & Ht' & HA' & Hint' & Hs' & Hph' & Hret').
  destruct (H3 (k1 + k2)%nat) as (M2 & t2 & a2 & s2 & HM2 & Ht2 & HA2 & Hint2 & Hs2 & Hph2 & Hret2).
  assert (exists B, B = (k1 + k2 + k3)%nat) as [B EB] by eauto.
  replace (k1 + (k2 + k3))%nat with B in * by lia. replace (k2 + (k1 + k3))%nat with B in * by lia.
  replace (k3 + (k1 + k2))%nat with B in * by lia.
  destruct (H x z a a' a2 d _ _ _ _ _ _ M M' M2 t0 t0' t2 s s' s2 D HA HA' HA2 Hint Hint' Hint2 Hph Hph' Hph2
    HM HM' HM2 Ht Ht' Ht2 HD) as [E1 E2]; auto.
  { intros e Hee. destruct (Hg e Hee) as [N HN]. exists N. intros k Hk. apply HN. lia. }
  destruct (E1 eps He) as [N1 HN1]. destruct (E2 eps He) as [N2 HN2].
  exists (B + N1 + N2)%nat. intros k Hk. set (j := (k - B)%nat). assert (Ek : (B + j = k)%nat) by (unfold j; lia).
  destruct (Hret j) as (oa & ya & va & R1 & S1). destruct (Hret' j) as (ob & yb & vb & R2 & S2).
  destruct (Hret2 j) as (oc & yc & vc & R3 & S3). rewrite Ek in R1, R2, R3.
  exists oa, ya, va, ob, yb, vb, oc, yc, vc. split; [exact R1|]. split; [exact R2|]. split; [exact R3|].
  specialize (HN1 j ltac:(unfold j; lia)). specialize (HN2 j ltac:(unfold j; lia)). cbv beta in HN1, HN2.
  rewrite S1, S2, S3 in HN1, HN2. cbn [fst snd] in HN1, HN2. auto.
Qed.

(** ** C142 *)
Theorem C142_superposition : forall fn o0 d,
  0 < o_execution_time o0 -> 0 < o_dt o0 -> 0 < o_int_dt o0 -> steps_shrink fn o0 d ->
  exists K, 0 <= K /\ forall x z D o goals y yd o' goals' y' yd' o2 goals2 y2 yd2,
  follows o0 d o goals y yd -> follows o0 d o' goals' y' yd' -> follows o0 d o2 goals2 y2 yd2 ->
  0 <= D -> combined x z D d goals goals' goals2 ->
  forall eps, 0 < eps -> exists N, forall k, (N <= k)%nat ->
  exists oa ya va ob yb vb oc yc vc,
    chase fn goals (S k) y yd o = (oa, Ok (ya, va)) /\ chase fn goals' (S k) y' yd' o' = (ob, Ok (yb, vb))
    /\ chase fn goals2 (S k) y2 yd2 o2 = (oc, Ok (yc, vc))
    /\ Rabs (x * aget ya d + z * aget yb d - aget yc d) <= K * D + eps
    /\ Rabs (x * aget va d + z * aget vb d - aget vc d) <= K * D + eps.
Proof.
  intros fn o0 d Hx Hdt Hi Hst. destruct (superposed fn o0 d Hx Hdt Hi Hst) as (K & HK & H).
  exists K. split; [exact HK|]. intros x z D o goals y yd o' goals' y' yd' o2 goals2 y2 yd2 F F' F2.
  assert (HR : forall o goals y yd, follows o0 d o goals y yd -> ready_like o0 d o goals y yd).
  { clear. intros o goals y yd (n & Hr & HT & Ly & Lyd & Lg & Hsm). split; [now apply (reachable_ready n)|exact HT]. }
  apply H; now apply HR.
Qed.

(** Exact combinations. *)
Corollary C142_linear : forall fn d x z o goals y yd o' goals' y' yd' o2 goals2 y2 yd2,
  0 < o_execution_time o -> 0 < o_dt o -> 0 < o_int_dt o -> steps_shrink fn o d ->
  follows o d o goals y yd -> follows o d o' goals' y' yd' -> follows o d o2 goals2 y2 yd2 ->
  (forall k, aget (goals2 k) d = x * aget (goals k) d + z * aget (goals' k) d) ->
  forall eps, 0 < eps -> exists N, forall k, (N <= k)%nat ->
  exists oa ya va ob yb vb oc yc vc,
    chase fn goals (S k) y yd o = (oa, Ok (ya, va)) /\ chase fn goals' (S k) y' yd' o' = (ob, Ok (yb, vb))
    /\ chase fn goals2 (S k) y2 yd2 o2 = (oc, Ok (yc, vc))
    /\ Rabs (aget yc d - (x * aget ya d + z * aget yb d)) <= eps
    /\ Rabs (aget vc d - (x * aget va d + z * aget vb d)) <= eps.
Proof.
  intros fn d x z o goals y yd o' goals' y' yd' o2 goals2 y2 yd2 Hx Hdt Hi Hst F F' F2 Hg eps He.
  destruct (C142_superposition fn o d Hx Hdt Hi Hst) as (K & HK & H).
  destruct (H x z 0 _ _ _ _ _ _ _ _ _ _ _ _ F F' F2 ltac:(lra)) with (eps := eps) as [N HN]; auto.
  { intros e Hee. exists 0%nat. intros k _. rewrite Hg, Rminus_eq_0, Rabs_R0. lra. }
  exists N. intros k Hk. destruct (HN k Hk) as (oa & ya & va & ob & yb & vb & oc & yc & vc & E1 & E2 & E3 & E4 & E5).
  exists oa, ya, va, ob, yb, vb, oc, yc, vc. split; [exact E1|]. split; [exact E2|]. split; [exact E3|].
  rewrite Rabs_minus_sym. rewrite (Rabs_minus_sym (aget vc d)). lra.
Qed.

(** A goal that swings, a goal that moves away at constant speed, and twice the first minus the second. *)
Example C142_satisfiable : exists o, 0 < o_execution_time o /\ 0 < o_dt o /\ 0 < o_int_dt o
  /\ steps_shrink RK4 o 0 /\ steps_shrink Euler_cython o 0
  /\ let goals := fun k => one (if Nat.even k then 1 else -1) in
     let goals' := fun k => one (INR k / 10) in
     let goals2 := fun k => one (2 * (if Nat.even k then 1 else -1) + (-1) * (INR k / 10)) in
     follows o 0 o goals (one 3) (one 1) /\ follows o 0 o goals' (one 0) (one 0)
     /\ follows o 0 o goals2 (one (-7)) (one 5) /\ combined 2 (-1) 0 0 goals goals' goals2.
Proof.
  destruct C133_satisfiable as (o & H1 & H2 & H3 & H4 & H5 & H6 & H7 & H8 & _).
  exists o. repeat (split; [assumption|]). cbv zeta.
  assert (HF : forall g y v, follows o 0 o (fun k => one (g k)) (one y) (one v)).
  { intros g y v. exists 1%nat. split; [exact H1|]. split; [exact H7|]. repeat (split; [reflexivity|]). auto. }
  split; [apply HF|]. split; [apply HF|]. split; [apply HF|].
  intros e He. exists 0%nat. intros k _. unfold one. cbn [aget]. rewrite Rminus_eq_0, Rabs_R0. lra.
Qed.
