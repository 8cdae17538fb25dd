(** C133, C140: DMPs with final velocity follow moving goals.  Final statements. *)
From Coq Require Import Reals ZArith List Lia Lra Psatz FunctionalExtensionality.
From Verif Require Import M_Prelude M_Canonical M_Forcing M_Dmp M_Base M_DmpObject M_FinalVelocity
  S_Loops S_Dmp S_Stability P_Loops P_Canonical P_Forcing P_DmpStep P_DmpScale P_DmpLinear P_Converge
  P_DmpObject P_Disturbed P_FinalVelocity P_Stability P_Bounded P_DisturbedAll P_Moving P_Pace Properties_Forcing Properties_Dmp
  Properties_DmpObject Properties_DmpState Properties_Goal Properties_FinalVelocity Properties_Stability Properties_Robust
  Properties_RobustAll Properties_FinalVelocityObject Properties_Moving Properties_Pace.
Import ListNotations.
Open Scope R_scope.
Set Bullet Behavior "Strict Subproofs".

(** ** Specification *)
(** [k] rounds of: give the DMP its new goal, make a step from the last state that
    was returned (the first step begins at [y], [yd]). *)
Fixpoint fv_chase (goals : nat -> arr) (k : nat) (y yd : arr) (o : dmp) : dmp * res (arr * arr) :=
  match k with
  | O => (o, Ok (y, yd))
  | S k =>
      match fv_chase goals k y yd o with
      | (o, Ok (y, yd)) =>
          match dmp_configure (goal_only (goals k)) o with
          | (o, Ok _) => fv_step y yd None o
          | (o, Err e) => (o, Err e)
          end
      | (o, Err e) => (o, Err e)
      end
  end.

(** ** Proofs *)
(** A step that begins after the execution time is the Euler step of a DMP without smooth scaling. *)
Lemma late_substeps a lt t s : a_coupling_term a = None -> a_precomputed a = None -> a_smooth_scaling a = false ->
  a_start_t a < a_goal_t a -> 0 < a_int_dt a -> a_goal_t a + float_eps < lt -> lt <= t ->
  dmp_step_euler_with_constraints a lt t s = dmp_step_euler a lt t s.
Proof.
  intros Hc Hp Hs Hg Hi Hlt Ht. pose proof float_eps_pos as Hf.
  unfold dmp_step_euler_with_constraints, dmp_step_euler.
  destruct (Rle_dec (a_goal_t a) (a_start_t a)); [lra|]. destruct (Rle_dec t (a_start_t a)); [lra|].
  rewrite solve_constraints_ok by lra. cbn [bind].
  destruct (substeps_tiles lt t (a_int_dt a) Hi Ht) as [l [Hl E]]. rewrite !E. f_equal.
  apply exec_substeps_ext. intros c h [y v] Hin. destruct (tiles_inside _ _ _ _ _ _ Hl Hin) as [[Hc1 _] [Hh _]].
  unfold fv_body, euler_body, apply_constraints, precomputed_cdd. cbv zeta. rewrite Hc, Hp, Hs.
  destruct (Rlt_dec (a_goal_t a + float_eps) c); [|lra].
  unfold dmp_acc, fv_acc, vadd, vscale, vzero.
  f_equal; apply functional_extensionality; intro d; unfold Rdiv; ring.
Qed.

Lemma late_step o y yd : shapes_ok o -> running o -> o_smooth_scaling o = false ->
  alen y = p_n_dims (o_base o) -> alen yd = p_n_dims (o_base o) -> o_execution_time o + float_eps < p_t (o_base o) ->
  fv_step y yd None o = dmp_step y yd None (Some Euler) o.
Proof.
  intros Hsh (Hx & Hdt & Hi) Hsm Ly Lyd Ht. unfold fv_step, dmp_step. rewrite Ly, Lyd, !Nat.eqb_refl.
  cbn [negb run_step_function]. cbv zeta.
  change (o_initialized (with_base _ o)) with (o_initialized o).
  destruct (o_initialized o); rewrite late_substeps; try reflexivity; try exact Hx; try exact Hi; try exact Ht;
    try exact Hsm; lra.
Qed.

Definition in_chase (o : dmp) (k : nat) (o' : dmp) : Prop :=
  same_params (goal_to (p_goal_y (o_base o')) o) o' /\ shapes_ok o' /\ p_t (o_base o') = p_t (o_base o) + INR k * o_dt o.

Lemma fv_chase_info goals o y yd : shapes_ok o -> running o ->
  alen y = p_n_dims (o_base o) -> alen yd = p_n_dims (o_base o) ->
  (forall k, alen (goals k) = p_n_dims (o_base o)) ->
  forall k, exists ok yk ydk, fv_chase goals k y yd o = (ok, Ok (yk, ydk)) /\ in_chase o k ok
    /\ alen yk = p_n_dims (o_base o) /\ alen ydk = p_n_dims (o_base o).
Proof.
  intros Hsh Hr Ly Lyd Lg. induction k as [|k (ob & y1 & yd1 & E & (P & S1 & T1) & L1 & L2)].
  - exists o, y, yd. split; [reflexivity|]. split; [|auto]. split; [|split; [exact Hsh|cbn; ring]].
    unfold same_params. cbn. repeat split.
  - assert (En : p_n_dims (o_base ob) = p_n_dims (o_base o)) by apply P.
    assert (Lk : alen (goals k) = p_n_dims (o_base ob)) by (rewrite En; apply Lg).
    cbn [fv_chase]. rewrite E, configure_goal by exact Lk.
    pose proof (goal_to_params _ (goals k) _ _ P) as P1.
    assert (Hrun : running (goal_to (goals k) ob)) by exact (running_same _ _ P1 Hr).
    destruct Hrun as (R1 & R2 & R3).
    destruct (fv_step_runs (goal_to (goals k) ob) y1 yd1 R1 R2 R3) as (o2 & y2 & yd2 & E2 & P2 & T2 & I2 & C2 & D2).
    exists o2, y2, yd2. split; [exact E2|].
    assert (S2 : shapes_ok o2).
    { pose proof (fv_step_shapes y1 yd1 None _ (goal_to_shapes _ _ S1 Lk)) as H. rewrite E2 in H. cbn [fst] in H. tauto. }
    assert (P3 : same_params (goal_to (goals k) o) o2) by (eapply same_params_trans; eauto).
    assert (Eg : p_goal_y (o_base o2) = goals k) by apply P3.
    split; [split; [now rewrite Eg|]; split; [exact S2|]|].
    + rewrite T2. change (p_t (o_base (goal_to (goals k) ob))) with (p_t (o_base ob)).
      change (o_dt (goal_to (goals k) ob)) with (o_dt ob).
      assert (Edt : o_dt ob = o_dt o) by apply P. rewrite Edt, T1.
      match goal with |- _ = _ + ?x * _ => change x with (INR (S k)) end. rewrite S_INR. ring.
    + assert (En2 : p_n_dims (o_base o2) = p_n_dims (o_base o)) by apply P3.
      rewrite <- C2, <- D2, <- En2. unfold shapes_ok in S2. tauto.
Qed.

Lemma late_chase goals o y yd : shapes_ok o -> running o -> o_smooth_scaling o = false ->
  alen y = p_n_dims (o_base o) -> alen yd = p_n_dims (o_base o) ->
  (forall k, alen (goals k) = p_n_dims (o_base o)) ->
  o_execution_time o + float_eps < p_t (o_base o) ->
  forall k, fv_chase goals k y yd o = chase Euler goals k y yd o.
Proof.
  intros Hsh Hr Hsm Ly Lyd Lg Ht. induction k as [|k IH]; [reflexivity|].
  destruct (fv_chase_info goals o y yd Hsh Hr Ly Lyd Lg k) as (ob & y1 & yd1 & E & (P & S1 & T1) & L1 & L2).
  cbn [fv_chase chase]. rewrite <- IH, E.
  assert (En : p_n_dims (o_base ob) = p_n_dims (o_base o)) by apply P.
  assert (Lk : alen (goals k) = p_n_dims (o_base ob)) by (rewrite En; apply Lg).
  rewrite configure_goal by exact Lk.
  pose proof (goal_to_params _ (goals k) _ _ P) as P1.
  apply late_step.
  - now apply goal_to_shapes.
  - exact (running_same _ _ P1 Hr).
  - transitivity (o_smooth_scaling o); [apply P1|exact Hsm].
  - cbn. congruence.
  - cbn. congruence.
  - cbn. assert (Ex : o_execution_time ob = o_execution_time o) by apply P.
    rewrite Ex, T1. destruct Hr as (_ & Hdt & _). pose proof (pos_INR k). nra.
Qed.

Lemma chase_from goals k0 y yd o o1 y1 yd1 : fv_chase goals k0 y yd o = (o1, Ok (y1, yd1)) ->
  forall k, fv_chase goals (k0 + k) y yd o = fv_chase (fun j => goals (k0 + j)%nat) k y1 yd1 o1.
Proof.
  intros E. induction k as [|k IH]; [rewrite Nat.add_0_r; exact E|].
  replace (k0 + S k)%nat with (S (k0 + k)) by lia. cbn [fv_chase]. now rewrite IH.
Qed.

(** After some rounds it is the chase of a DMP that begins elsewhere. *)
Lemma fv_chase_tail n o goals y yd : fv_reachable n o -> running o ->
  alen y = n -> alen yd = n -> (forall k, alen (goals k) = n) ->
  exists k0 o1 y1 yd1, in_chase o k0 o1 /\ phase_ok (o_forcing_term o1) /\ o_smooth_scaling o1 = false
  /\ p_n_dims (o_base o1) = n /\ alen y1 = n /\ alen yd1 = n
  /\ forall k, fv_chase goals (k0 + k) y yd o = chase Euler (fun j => goals (k0 + j)%nat) k y1 yd1 o1.
Proof.
  intros Hr Hrun Ly Lyd Lg. pose proof (fv_reachable_ok n o Hr) as Hok.
  pose proof (fv_phase_ok n o Hok) as Hph. destruct Hok as (Hsh & Hn & _ & Hsm).
  assert (Ly' : alen y = p_n_dims (o_base o)) by congruence.
  assert (Lyd' : alen yd = p_n_dims (o_base o)) by congruence.
  assert (Lg' : forall k, alen (goals k) = p_n_dims (o_base o)) by (intros; rewrite Hn; auto).
  destruct Hrun as (Hx & Hdt & Hi).
  destruct (clock_steps (p_t (o_base o) - o_execution_time o - float_eps - o_dt o) (o_dt o) Hdt) as [k0 Hk0].
  destruct (fv_chase_info goals o y yd Hsh (conj Hx (conj Hdt Hi)) Ly' Lyd' Lg' (S k0)) as (o1 & y1 & yd1 & E & HC & L1 & L2).
  pose proof HC as (P & S1 & T1).
  assert (En : p_n_dims (o_base o1) = p_n_dims (o_base o)) by apply P.
  assert (Ef : o_forcing_term o1 = o_forcing_term o) by apply P.
  assert (Es : o_smooth_scaling o1 = false) by (rewrite <- Hsm; apply P).
  assert (Ex : o_execution_time o1 = o_execution_time o) by apply P.
  exists (S k0), o1, y1, yd1. split; [exact HC|]. split; [rewrite Ef; exact Hph|]. split; [exact Es|].
  split; [congruence|]. split; [congruence|]. split; [congruence|]. intros k.
  rewrite (chase_from _ _ _ _ _ _ _ _ E). apply late_chase; try (intros; rewrite En; auto; fail); auto.
  - exact (running_same _ _ P (conj Hx (conj Hdt Hi))).
  - rewrite Ex, T1. rewrite S_INR in *. lra.
Qed.

Lemma chase_tuned o k o1 d : in_chase o k o1 -> tuned_like o d o1.
Proof.
  intros (P & _). destruct P as (Q1 & Q2 & Q3 & Q4 & Q5 & Q6 & Q7 & Q8 & Q9 & Q10 & Q11 & Q12 & Q13 & Q14 & Q15 & Q16 & Q17).
  cbn in *. unfold tuned_like. rewrite Q8, Q9. repeat split; congruence.
Qed.

(** ** C133 *)
Theorem C133_final_velocity : forall o0 d,
  0 < o_execution_time o0 -> 0 < o_dt o0 -> 0 < o_int_dt o0 -> steps_shrink Euler o0 d ->
  exists K, 0 <= K /\ forall n o goals y yd D,
  fv_reachable n o -> tuned_like o0 d o -> 0 <= D ->
  alen y = n -> alen yd = n -> (forall k, alen (goals k) = n) -> slow goals d D ->
  forall eps, 0 < eps -> exists N, forall k, (N <= k)%nat ->
  exists o' y' yd', fv_chase goals (S k) y yd o = (o', Ok (y', yd'))
    /\ Rabs (aget y' d - aget (goals k) d) <= K * D + eps
    /\ Rabs (aget yd' d) <= K * D + eps.
Proof.
  intros o0 d Hx Hdt Hi Hst. destruct (bounded_lag Euler o0 d Hx Hdt Hi Hst) as (K & HK & H).
  exists K. split; [exact HK|]. intros n o goals y yd D Hr HT HD Ly Lyd Lg Hslow eps He.
  pose proof HT as (T1 & T2 & T3 & T4 & T5 & T6).
  assert (Hrun : running o) by (unfold running; rewrite T1, T2, T3; auto).
  destruct (fv_chase_tail n o goals y yd Hr Hrun Ly Lyd Lg) as (k0 & o1 & y1 & yd1 & HC & Hph & Hsm & En & L1 & L2 & HE).
  pose proof (chase_tuned _ _ _ d HC) as (U1 & U2 & U3 & U4 & U5 & U6).
  destruct (H o1 (fun j => goals (k0 + j)%nat) y1 yd1 D) with (eps := eps) as [N HN]; auto.
  - apply HC.
  - unfold tuned_like. repeat split; congruence.
  - congruence.
  - congruence.
  - intros j. rewrite En. apply Lg.
  - intros e Hee. destruct (Hslow e Hee) as [N HN]. exists N. intros k Hk.
    replace (k0 + S k)%nat with (S (k0 + k)) by lia. apply HN. lia.
  - exists (k0 + N)%nat. intros k Hk. destruct (HN (k - k0)%nat ltac:(lia)) as (o' & y' & yd' & E & E1 & E2).
    exists o', y', yd'. rewrite <- HE in E. replace (k0 + S (k - k0))%nat with (S k) in E by lia.
    replace (k0 + (k - k0))%nat with k in E1 by lia. auto.
Qed.

(** ** C140 *)
Theorem C140_final_velocity : forall n o d goals y yd D x v,
  fv_reachable n o -> 0 < o_execution_time o -> 0 < o_dt o -> 0 < o_int_dt o -> steps_shrink Euler o d ->
  alen y = n -> alen yd = n -> (forall k, alen (goals k) = n) ->
  moves_by goals d D -> keeps_pace Euler o d D x v ->
  forall eps, 0 < eps -> exists N, forall k, (N <= k)%nat ->
  exists o' y' yd', fv_chase goals (S k) y yd o = (o', Ok (y', yd'))
    /\ Rabs (aget y' d - aget (goals k) d - x) <= eps /\ Rabs (aget yd' d - v) <= eps.
Proof.
  intros n o d goals y yd D x v Hr Hx Hdt Hi Hst Ly Lyd Lg Hmv Hkp eps He.
  assert (Hrun : running o) by (unfold running; auto).
  destruct (fv_chase_tail n o goals y yd Hr Hrun Ly Lyd Lg) as (k0 & o1 & y1 & yd1 & HC & Hph & Hsm & En & L1 & L2 & HE).
  pose proof (chase_tuned _ _ _ d HC) as (U1 & U2 & U3 & U4 & U5 & U6).
  assert (Ec : dmp_damping o1 d = dmp_damping o d) by (unfold dmp_damping; now rewrite U4, U1).
  assert (Ek : dmp_stiffness o1 d = dmp_stiffness o d) by (unfold dmp_stiffness; now rewrite U4, U5, U1).
  destruct (pace_limit Euler o1 d (fun j => goals (k0 + j)%nat) y1 yd1 D x v) with (eps := eps) as [N HN]; auto;
    try congruence.
  - apply HC.
  - unfold steps_shrink in *. cbv zeta in *. now rewrite Ec, Ek, U2, U3.
  - intros e Hee. destruct (Hmv e Hee) as [N HN]. exists N. intros k Hk.
    replace (k0 + S k)%nat with (S (k0 + k)) by lia. apply HN. lia.
  - unfold keeps_pace in *. cbv zeta in *. now rewrite Ec, Ek, U2, U3.
  - exists (k0 + N)%nat. intros k Hk. destruct (HN (k - k0)%nat ltac:(lia)) as (o' & y' & yd' & E & E1 & E2).
    exists o', y', yd'. rewrite <- HE in E. replace (k0 + S (k - k0))%nat with (S k) in E by lia.
    replace (k0 + (k - k0))%nat with k in E1 by lia. auto.
Qed.

(** Gains 25 and 25/4 and a goal that moves by 1/10 in every step. *)
Example C140_final_velocity_satisfiable : exists o, fv_reachable 1 o /\ 0 < o_execution_time o /\ 0 < o_dt o
  /\ 0 < o_int_dt o /\ steps_shrink Euler o 0 /\ tuned_like o 0 o
  /\ (let goals := fun k => one (INR k / 10) in
      (forall k, alen (goals k) = 1%nat) /\ slow goals 0 (1/10) /\ moves_by goals 0 (1/10))
  /\ exists x v, keeps_pace Euler o 0 (1/10) x v.
Proof.
  destruct (C101_satisfiable 1) as (o & Hr & X1 & X2 & X3 & _ & _ & _ & _ & _ & Hst & _).
  assert (P1 : 0 < o_execution_time o) by lra. assert (P2 : 0 < o_dt o) by lra. assert (P3 : 0 < o_int_dt o) by lra.
  exists o. repeat (split; [assumption|]). split; [unfold tuned_like; repeat split|]. split.
  - split; [reflexivity|]. split; intros e He; exists 0%nat; intros k _; unfold one; cbn [aget]; rewrite S_INR.
    + rewrite Rabs_pos_eq; lra.
    + replace ((INR k + 1) / 10 - INR k / 10 - 1/10) with 0 by field. rewrite Rabs_R0. lra.
  - destruct (C140_pace Euler o 0 (1/10) P1 P2 P3 Hst) as (x & v & H & _). eauto.
Qed.
