(** C94 for DMPs with final velocity: wrong measurements cause bounded deviations.  Final statements. *)
From Coq Require Import Reals ZArith List Lia Lra Psatz FunctionalExtensionality.
From Verif Require Import M_Prelude M_Canonical M_Forcing M_Dmp M_Base M_DmpObject M_FinalVelocity
  S_Loops S_Dmp S_Stability P_Loops P_Canonical P_Forcing P_DmpStep P_DmpScale P_DmpLinear P_Converge
  P_DmpObject P_Disturbed P_FinalVelocity P_Stability P_Bounded P_DisturbedAll P_Moving P_Pace Properties_Forcing Properties_Dmp
  Properties_DmpObject Properties_DmpState Properties_Goal Properties_FinalVelocity Properties_Stability Properties_Robust
  Properties_RobustAll Properties_FinalVelocityObject Properties_Moving Properties_Pace Properties_MovingFinalVelocity.
Import ListNotations.
Open Scope R_scope.
Set Bullet Behavior "Strict Subproofs".

(** ** Specification *)
(** The object after [k] calls of [step]; call [k] is given the measured position [ys k] and the
    measured velocity [yds k]. *)
Fixpoint fv_loop (ys yds : nat -> arr) (k : nat) (o : dmp) : dmp :=
  match k with
  | O => o
  | S k => fst (fv_step (ys k) (yds k) None (fv_loop ys yds k o))
  end.

(** Call [k] returns the position [y] and the velocity [yd]. *)
Definition fv_returns (ys yds : nat -> arr) (o : dmp) (k : nat) (y yd : arr) : Prop :=
  snd (fv_step (ys k) (yds k) None (fv_loop ys yds k o)) = Ok (y, yd).

(** From call [m] on the position measured in dimension [d] differs from the one returned
    by the call before by at most [B]. *)
Definition measured_within (B : R) (d m : nat) (ys yds : nat -> arr) (o : dmp) : Prop :=
  forall k y yd, (m <= k)%nat -> fv_returns ys yds o k y yd -> Rabs (aget (ys (S k)) d - aget y d) <= B.

(** ** Proofs *)
Lemma fv_loop_info ys yds o : shapes_ok o -> running o ->
  forall k, let ok := fv_loop ys yds k o in
    same_params o ok /\ shapes_ok ok /\ p_t (o_base ok) = p_t (o_base o) + INR k * o_dt o.
Proof.
  intros Hsh Hr. induction k as [|k (P & S1 & T1)].
  - cbn. split; [apply same_params_refl|]. split; [exact Hsh|lra].
  - cbn [fv_loop]. destruct (running_same _ _ P Hr) as (R1 & R2 & R3).
    destruct (fv_step_runs _ (ys k) (yds k) R1 R2 R3) as (o2 & y2 & yd2 & E2 & P2 & T2 & _).
    pose proof (fv_step_shapes (ys k) (yds k) None _ S1) as [S2 _].
    rewrite E2 in *. cbn [fst] in *. cbv zeta.
    split; [eapply same_params_trans; eauto|]. split; [exact S2|].
    assert (Edt : o_dt (fv_loop ys yds k o) = o_dt o) by apply P.
    rewrite T2, T1, Edt, S_INR. ring.
Qed.

Lemma fv_loop_next ys yds o : shapes_ok o -> running o ->
  forall k, fv_returns ys yds o k (p_current_y (o_base (fv_loop ys yds (S k) o)))
                                  (p_current_yd (o_base (fv_loop ys yds (S k) o)))
    /\ o_initialized (fv_loop ys yds (S k) o) = true.
Proof.
  intros Hsh Hr k. destruct (fv_loop_info ys yds o Hsh Hr k) as (P & S1 & T1).
  destruct (running_same _ _ P Hr) as (R1 & R2 & R3).
  destruct (fv_step_runs _ (ys k) (yds k) R1 R2 R3) as (o2 & y2 & yd2 & E2 & P2 & T2 & I2 & C2 & D2).
  unfold fv_returns. cbn [fv_loop]. rewrite E2. cbn [fst snd]. rewrite C2, D2. auto.
Qed.

(** ** C94 *)
(** The number [K] depends on the gains, the feedback gain and the step lengths only. *)
Theorem C94_final_velocity : forall o0 d,
  0 < o_execution_time o0 -> 0 < o_dt o0 -> 0 < o_int_dt o0 -> steps_shrink Euler o0 d ->
  exists K, 0 <= K /\ forall n o ys yds B m,
  fv_reachable n o -> tuned_like o0 d o -> 0 <= B ->
  (forall k, alen (ys k) = n /\ alen (yds k) = n) ->
  measured_within B d m ys yds o ->
  forall eps, 0 < eps -> exists N, forall k, (N <= k)%nat ->
  exists y yd, fv_returns ys yds o k y yd
    /\ Rabs (aget y d - aget (p_goal_y (o_base o)) d) <= K * B + eps
    /\ Rabs (aget yd d) <= K * B + eps.
Proof.
  intros o0 d Hx0 Hdt0 Hi0 (Hep & Hst).
  destruct (euler_disturbed_run_all (o_dt o0) (o_int_dt o0) (Rmin (o_dt o0) (o_int_dt o0)) (aget (o_alpha_y o0) d)
    (aget (o_beta_y o0) d) (o_execution_time o0) (o_p_gain o0) Hdt0 Hi0 Hx0 (parts_length _ _ Hdt0 Hi0 Hep) Hst)
    as (K & HK & H).
  exists K. split; [exact HK|].
  intros n o ys yds B m Hr (T1 & T2 & T3 & T4 & T5 & T6) HB Hlen Hme.
  pose proof (fv_reachable_ok n o Hr) as Hok. pose proof (fv_phase_ok n o Hok) as Hph.
  destruct Hok as (Hsh & Hn & _ & Hsm). rewrite <- T1 in Hx0. rewrite <- T2 in Hdt0. rewrite <- T3 in Hi0.
  rename Hx0 into Hx, Hdt0 into Hdt, Hi0 into Hi.
  assert (Hrun : running o) by (unfold running; auto).
  pose proof (fv_loop_info ys yds o Hsh Hrun) as Hinfo. pose proof (fv_loop_next ys yds o Hsh Hrun) as Hnext.
  destruct (clock_steps (p_t (o_base o) - o_execution_time o - float_eps - o_dt o) (o_dt o) Hdt) as [k0 Hk0].
  pose proof float_eps_pos as Hfe.
  assert (exists M, M = S (Nat.max m k0)) as [M EM] by eauto.
  set (ob := fun k => fv_loop ys yds (M + k) o).
  set (s := fun k => (aget (p_current_y (o_base (ob k))), aget (p_current_yd (o_base (ob k))))).
  set (te := fun k => vsub (aget (p_current_y (o_base (ob k)))) (aget (ys (M + k)%nat))).
  set (a := fun k => step_args (tick (ob k)) None (te k)).
  set (t0 := p_t (o_base o) + INR M * o_dt o).
  assert (Ht0 : o_execution_time o + float_eps < t0).
  { assert (HM : INR (S k0) * o_dt o <= INR M * o_dt o)
      by (apply Rmult_le_compat_r; [lra|]; apply le_INR; lia).
    unfold t0. rewrite S_INR in *. lra. }
  assert (HP : forall k, same_params o (ob k)) by (intros; apply Hinfo).
  assert (Hob : forall k, ob (S k) = fst (fv_step (ys (M + k)%nat) (yds (M + k)%nat) None (ob k))).
  { intros k. unfold ob. replace (M + S k)%nat with (S (M + k)) by lia. reflexivity. }
  assert (Hstep : forall k,
     run_step_function Euler (a k) (t0 + INR k * o_dt o) (t0 + INR (S k) * o_dt o) (s k) = Ok (s (S k))).
  { intros k. destruct (Hinfo (M + k)%nat) as (P & S1 & U1). fold (ob k) in P, S1, U1.
    destruct (Hlen (M + k)%nat) as [L1 L2].
    assert (En : p_n_dims (o_base (ob k)) = n) by (rewrite <- Hn; apply P).
    assert (Edt : o_dt (ob k) = o_dt o) by apply P.
    assert (Ex : o_execution_time (ob k) = o_execution_time o) by apply P.
    assert (Es : o_smooth_scaling (ob k) = false) by (rewrite <- Hsm; apply P).
    assert (Ei : o_initialized (ob k) = true) by (unfold ob; rewrite EM; apply Hnext).
    assert (Et : p_t (o_base (ob k)) = t0 + INR k * o_dt o) by (rewrite U1; unfold t0; rewrite plus_INR; ring).
    assert (Hk : 0 <= INR k * o_dt o) by (apply Rmult_le_pos; [apply pos_INR|lra]).
    destruct (step_total_coupled Euler (ob k) (ys (M + k)%nat) (yds (M + k)%nat) None S1 (running_same _ _ P Hrun))
      as (s' & E & _ & _ & _ & _ & _ & Es'); try congruence.
    rewrite norm_id in E by exact Ei. fold (te k) in E. fold (a k) in E. fold (s k) in E.
    rewrite Et, Edt in E.
    replace (t0 + INR (S k) * o_dt o) with (t0 + INR k * o_dt o + o_dt o) by (rewrite S_INR; ring).
    rewrite E. unfold s. rewrite Es'. rewrite Hob.
    rewrite late_step; [reflexivity|exact S1|exact (running_same _ _ P Hrun)|exact Es|congruence|congruence|].
    rewrite Ex, Et. lra. }
  assert (HD : disturbed_args a d (o_forcing_term o) (fun z => disturbance (step_args o None vzero) z d)
     (aget (p_goal_y (o_base o)) d) (aget (o_alpha_y o) d) (aget (o_beta_y o) d) (o_execution_time o) (o_p_gain o) B).
  { split; intros k; cbn; pose proof (HP k) as P;
      destruct P as (Q1 & Q2 & Q3 & Q4 & Q5 & Q6 & Q7 & Q8 & Q9 & Q10 & Q11 & Q12 & Q13 & Q14 & Q15 & Q16 & Q17);
      try congruence.
    - intros z. unfold a. rewrite (step_args_disturbance o) by apply HP. reflexivity.
    - unfold te, vsub, ob. rewrite EM, Rabs_minus_sym.
      refine (Hme (Nat.max m k0 + k)%nat _ _ _ (proj1 (Hnext (Nat.max m k0 + k)%nat))). lia.
    - exact I. }
  assert (HnW : (0 < ft_n (o_forcing_term o))%nat) by apply Hph.
  destruct (disturbance_bound (step_args o None vzero) d HnW) as [MM [HM0 HM]].
  rewrite T1, T4, T5, T6 in HD. rewrite T2 in Hstep.
  assert (Hint : forall k, a_int_dt (a k) = o_int_dt o0) by (intros k; rewrite <- T3; cbn; apply (HP k)).
  destruct (H Euler a d _ _ _ B MM t0 s (or_introl eq_refl) HD Hint Hph HB HM0 HM ltac:(lra) Hstep) as [HE1 HE2].
  intros eps He. destruct (HE1 eps He) as [N1 HN1]. destruct (HE2 eps He) as [N2 HN2].
  exists (M + Nat.max N1 N2)%nat. intros k Hk.
  set (j := (k - M)%nat). replace k with (M + j)%nat by (unfold j; lia).
  exists (p_current_y (o_base (ob (S j)))), (p_current_yd (o_base (ob (S j)))).
  split. { unfold ob. replace (M + S j)%nat with (S (M + j)) by lia. apply Hnext. }
  specialize (HN1 (S j) ltac:(unfold j; lia)). specialize (HN2 (S j) ltac:(unfold j; lia)).
  split; [exact HN1|exact HN2].
Qed.

(** Measurement errors that fade away do not keep the DMP from reaching its goal. *)
Corollary C94_final_velocity_fading : forall n o d ys yds,
  fv_reachable n o -> 0 < o_execution_time o -> 0 < o_dt o -> 0 < o_int_dt o -> steps_shrink Euler o d ->
  (forall k, alen (ys k) = n /\ alen (yds k) = n) ->
  (forall B, 0 < B -> exists m, measured_within B d m ys yds o) ->
  forall eps, 0 < eps -> exists N, forall k, (N <= k)%nat ->
  exists y yd, fv_returns ys yds o k y yd
    /\ Rabs (aget y d - aget (p_goal_y (o_base o)) d) <= eps /\ Rabs (aget yd d) <= eps.
Proof.
  intros n o d ys yds Hr Hx Hdt Hi Hst Hl Hf eps He.
  destruct (C94_final_velocity o d Hx Hdt Hi Hst) as (K & HK & H).
  assert (HB : 0 < eps / (2 * (K + 1))).
  { apply Rmult_lt_0_compat; auto. apply Rinv_0_lt_compat. lra. }
  destruct (Hf _ HB) as [m Hm].
  assert (HT : tuned_like o d o) by (unfold tuned_like; repeat split).
  destruct (H n o ys yds _ m Hr HT (Rlt_le _ _ HB) Hl Hm (eps / 2)) as [N HN]; [lra|].
  exists N. intros k Hk. destruct (HN k Hk) as (y & yd & R & H1 & H2). exists y, yd. split; auto.
  assert (HGB : K * (eps / (2 * (K + 1))) <= eps / 2).
  { apply Rle_trans with ((K + 1) * (eps / (2 * (K + 1)))).
    - apply Rmult_le_compat_r; lra.
    - apply Req_le. field. lra. }
  split; lra.
Qed.

(** A DMP whose final velocity is 2 and a sensor that always shows 1/2 too much. *)
Example C94_final_velocity_satisfiable : exists o ys yds, fv_reachable 1 o /\ 0 < o_execution_time o /\ 0 < o_dt o
  /\ 0 < o_int_dt o /\ steps_shrink Euler o 0 /\ tuned_like o 0 o /\ aget (p_goal_yd (o_base o)) 0%nat = 2
  /\ (forall k, alen (ys k) = 1%nat /\ alen (yds k) = 1%nat)
  /\ measured_within (1/2) 0 0 ys yds o
  /\ forall k y yd, fv_returns ys yds o k y yd -> aget (ys (S k)) 0%nat - aget y 0%nat = 1/2.
Proof.
  destruct (C101_satisfiable 1) as (o & Hr & X1 & X2 & X3 & _ & _ & Hv & _ & _ & Hst & _).
  pose (os := fix os k := match k with
    | O => o
    | S k => fst (fv_step (one (aget (p_current_y (o_base (os k))) 0%nat + 1/2)) (one 0) None (os k)) end).
  pose (ys := fun k => one (aget (p_current_y (o_base (os k))) 0%nat + 1/2)).
  assert (P1 : 0 < o_execution_time o) by lra. assert (P2 : 0 < o_dt o) by lra. assert (P3 : 0 < o_int_dt o) by lra.
  assert (Hrun : running o) by (unfold running; auto).
  pose proof (proj1 (fv_reachable_ok 1 o Hr)) as Hsh.
  assert (Eo : forall k, fv_loop ys (fun _ => one 0) k o = os k).
  { induction k as [|k IH]; [reflexivity|]. cbn [fv_loop]. rewrite IH. reflexivity. }
  assert (HE : forall k y yd, fv_returns ys (fun _ => one 0) o k y yd -> aget (ys (S k)) 0%nat - aget y 0%nat = 1/2).
  { intros k y yd Hret. destruct (fv_loop_next ys (fun _ => one 0) o Hsh Hrun k) as [E _].
    unfold fv_returns in *. rewrite E in Hret.
    assert (Ey : p_current_y (o_base (fv_loop ys (fun _ => one 0) (S k) o)) = y) by (now injection Hret).
    rewrite Eo in Ey. rewrite <- Ey. unfold ys, one. cbn [aget]. ring. }
  exists o, ys, (fun _ => one 0). repeat (split; [assumption|]).
  split; [unfold tuned_like; repeat split|]. split; [exact Hv|]. split; [split; reflexivity|]. split; [|exact HE].
  intros k y yd _ Hret. rewrite (HE k y yd Hret). rewrite Rabs_pos_eq; lra.
Qed.
