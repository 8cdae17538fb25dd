(** C94 for all gains: bounded disturbances cause bounded deviations whenever the
    steps of the integrator make the motions of the spring smaller (the exact
    condition of C100).  Final statements. *)
From Coq Require Import Reals ZArith List Lia Lra Psatz FunctionalExtensionality.
From Verif Require Import M_Prelude M_Canonical M_Forcing M_Dmp M_Base M_DmpObject
  S_Loops S_Dmp S_Stability P_Loops P_Canonical P_Forcing P_DmpStep P_DmpScale P_DmpLinear P_Converge
  P_DmpObject P_Disturbed P_Stability P_Bounded P_DisturbedAll Properties_Forcing Properties_Dmp
  Properties_DmpObject Properties_DmpState Properties_Goal Properties_Stability Properties_Robust.
Import ListNotations.
Open Scope R_scope.
Set Bullet Behavior "Strict Subproofs".

(** ** Specification *)
(** [o] has the timing of [o0], its gains in dimension [d] and its gain of the
    tracking error; start, goal, weights, scaling and history may differ. *)
Definition tuned_like (o0 : dmp) (d : nat) (o : dmp) : Prop :=
  o_execution_time o = o_execution_time o0 /\ o_dt o = o_dt o0 /\ o_int_dt o = o_int_dt o0
  /\ aget (o_alpha_y o) d = aget (o_alpha_y o0) d /\ aget (o_beta_y o) d = aget (o_beta_y o0) d
  /\ o_p_gain o = o_p_gain o0.

(** ** C94 *)
Theorem C94_bounded_all_gains : forall fn o0 d,
  0 < o_execution_time o0 -> 0 < o_dt o0 -> 0 < o_int_dt o0 -> steps_shrink fn o0 d ->
  exists K, 0 <= K /\ forall n o calls B m,
  reachable n o -> tuned_like o0 d o -> 0 <= B ->
  (forall k, alen (r_y (calls k)) = n /\ alen (r_yd (calls k)) = n) ->
  (forall k, (m <= k)%nat -> disturbed_by B d (closed_loop fn calls k o) (calls k)) ->
  forall eps, 0 < eps -> exists N, forall k, (N <= k)%nat ->
  exists y yd, returns fn calls o k y yd
    /\ Rabs (aget y d - aget (p_goal_y (o_base o)) d) <= K * B + eps
    /\ Rabs (aget yd d) <= K * B + eps.
Proof.
  intros fn o0 d Hx Hdt Hi Hst.
  set (al := aget (o_alpha_y o0) d). set (be := aget (o_beta_y o0) d).
  set (tau := o_execution_time o0) in *. set (dt := o_dt o0) in *. set (int_dt := o_int_dt o0) in *.
  assert (Hfn : uses_rk4 fn \/ uses_euler fn) by (destruct fn; unfold uses_rk4, uses_euler; auto).
  assert (Hcore : exists K, 0 <= K /\ forall a d f dist g B M t0 s,
    disturbed_args a d f dist g al be tau (o_p_gain o0) B -> (forall k, a_int_dt (a k) = int_dt) ->
    phase_ok f -> 0 <= B -> 0 <= M ->
    (forall z, 0 <= z -> Rabs (dist z) <= M * z) -> 0 <= t0 ->
    (forall k, run_step_function fn (a k) (t0 + INR k * dt) (t0 + INR (S k) * dt) (s k) = Ok (s (S k))) ->
    eventually_below (fun k => fst (s k) d - g) (K * B)
    /\ eventually_below (fun k => snd (s k) d) (K * B)).
  { destruct Hfn as [Hfn|Hfn].
    - assert (Hsh : rk4_shrinks dt (al / tau) (al * be / tau ^ 2)) by (destruct Hfn as [-> | ->]; exact Hst).
      destruct (rk4_disturbed_run_all dt al be tau (o_p_gain o0) Hdt Hx Hsh) as (K & HK & H).
      exists K. split; auto. intros a d' f dist g B M t0 s HD _ Hph HB HM Hdist _ Hs.
      apply (H a d' f dist g B M t0 s HD Hph HB HM Hdist). intros k. specialize (Hs k).
      destruct Hfn as [-> | ->]; cbn [run_step_function] in Hs.
      + now injection Hs.
      + rewrite rk4_cython_eq in Hs. now injection Hs.
    - assert (Hsh : equal_parts dt int_dt /\ euler_shrinks (Rmin dt int_dt) (al / tau) (al * be / tau ^ 2))
        by (destruct Hfn as [-> | ->]; exact Hst).
      destruct Hsh as [Hep Hsh].
      destruct (euler_disturbed_run_all dt int_dt (Rmin dt int_dt) al be tau (o_p_gain o0) Hdt Hi Hx
        (parts_length _ _ Hdt Hi Hep) Hsh) as (K & HK & H).
      exists K. split; auto. intros a d' f dist g B M t0 s HD Hint Hph HB HM Hdist Ht0 Hs.
      apply (H fn a d' f dist g B M t0 s Hfn HD Hint Hph HB HM Hdist Ht0 Hs). }
  destruct Hcore as (K & HK & H). exists K. split; auto.
  intros n o calls B m Hreach (T1 & T2 & T3 & T4 & T5 & T6) HB Hlen Hdis.
  pose proof (reachable_phase_ok n o Hreach) as Hph.
  destruct (closed_loop_states n o fn d calls B m Hreach) as (M & t0 & a & s & Ht0 & HD & Hint & Hstep & Hret); auto.
  { rewrite T1. exact Hx. } { rewrite T2. exact Hdt. } { rewrite T3. exact Hi. }
  assert (HnW : (0 < ft_n (o_forcing_term o))%nat) by apply Hph.
  destruct (disturbance_bound (step_args o None vzero) d HnW) as [MM [HM0 HM]].
  rewrite T1, T4, T5, T6 in HD. rewrite T2 in Hstep. rewrite T3 in Hint.
  destruct (H a d _ _ _ B MM t0 s HD Hint Hph HB HM0 HM Ht0 Hstep) as [HE1 HE2].
  intros eps He. destruct (HE1 eps He) as [N1 HN1]. destruct (HE2 eps He) as [N2 HN2].
  exists (M + Nat.max N1 N2)%nat. intros k Hk.
  set (j := (k - M)%nat). replace k with (M + j)%nat by (unfold j; lia).
  destruct (Hret j) as (y & yd & R & Es).
  exists y, yd. split; [exact R|].
  specialize (HN1 (S j) ltac:(unfold j; lia)). specialize (HN2 (S j) ltac:(unfold j; lia)).
  cbv beta in HN1, HN2. rewrite Es in HN1, HN2. split; [exact HN1|exact HN2].
Qed.

(** Disturbances that fade away do not keep the DMP from reaching its goal. *)
Corollary C94_fading_all_gains : forall n o fn d calls,
  reachable n o -> 0 < o_execution_time o -> 0 < o_dt o -> 0 < o_int_dt o ->
  (d < n)%nat -> steps_shrink fn o d ->
  (forall k, alen (r_y (calls k)) = n /\ alen (r_yd (calls k)) = n) ->
  (forall B, 0 < B -> exists m, forall k, (m <= k)%nat ->
     disturbed_by B d (closed_loop fn calls k o) (calls k)) ->
  forall eps, 0 < eps -> exists N, forall k, (N <= k)%nat ->
  exists y yd, returns fn calls o k y yd
    /\ Rabs (aget y d - aget (p_goal_y (o_base o)) d) < eps /\ Rabs (aget yd d) < eps.
Proof.
  intros n o fn d calls Hr Hx Hdt Hi Hd Hst Hlen Hf eps He.
  destruct (C94_bounded_all_gains fn o d Hx Hdt Hi Hst) as (G & HG & HK).
  assert (HB : 0 < eps / (2 * (G + 1))).
  { apply Rmult_lt_0_compat; auto. apply Rinv_0_lt_compat. lra. }
  destruct (Hf _ HB) as [m Hm].
  assert (HT : tuned_like o d o) by (unfold tuned_like; repeat split).
  destruct (HK n o calls _ m Hr HT (Rlt_le _ _ HB) Hlen Hm (eps / 4)) as [N HN]; [lra|].
  exists N. intros k Hk. destruct (HN k Hk) as (y & yd & R & H1 & H2).
  exists y, yd. split; auto.
  assert (HGB : G * (eps / (2 * (G + 1))) <= eps / 2).
  { apply Rle_trans with ((G + 1) * (eps / (2 * (G + 1)))).
    - apply Rmult_le_compat_r; lra.
    - apply Req_le. field. lra. }
  split; lra.
Qed.

(** An overdamped DMP (alpha = 25, beta = 4) whose sensor is wrong by 1/2 and with
    a coupling term that depends on the velocity. *)
Example C94_all_gains_satisfiable : exists o calls, reachable 1 o /\ 0 < o_execution_time o /\ 0 < o_dt o
  /\ 0 < o_int_dt o /\ steps_shrink RK4 o 0 /\ steps_shrink Euler_cython o 0 /\ ~ stable RK4 o 0
  /\ tuned_like o 0 o
  /\ (forall k, alen (r_y (calls k)) = 1%nat /\ alen (r_yd (calls k)) = 1%nat)
  /\ (forall k, disturbed_by 1 0 (closed_loop Euler_cython calls k o) (calls k))
  /\ (forall k, aget (p_current_y (o_base (closed_loop Euler_cython calls k o))) 0%nat
                - aget (r_y (calls k)) 0%nat = 1/2).
Proof.
  destruct (ex_new_ok 1 25 4) as (f & o & E & Ef & Eo).
  assert (Hr : reachable 1 o) by (eapply ex_reachable; eauto).
  set (c := fun (_ v : vec) => ((fun _ => 1/4) : vec, (fun d => sin (v d)) : vec)).
  set (h := fun (_ : nat) (o : dmp) =>
    {| r_y := one (aget (p_current_y (o_base o)) 0%nat - 1/2); r_yd := one 0; r_coupling := Some c |}).
  destruct (feedback_calls Euler_cython h o) as [calls Hcalls].
  exists o, calls. split; [exact Hr|].
  split; [rewrite Eo; cbn; lra|]. split; [rewrite Eo; cbn; lra|]. split; [rewrite Eo; cbn; lra|].
  assert (Ec : dmp_damping o 0 = 25) by (rewrite Eo; unfold dmp_damping; cbn; field).
  assert (Ek : dmp_stiffness o 0 = 25 * 4) by (rewrite Eo; unfold dmp_stiffness; cbn; field).
  assert (Edt : o_dt o = 1/100) by (rewrite Eo; reflexivity).
  assert (Edi : o_int_dt o = 1/1000) by (rewrite Eo; reflexivity).
  assert (Hp : equal_parts (1/100) (1/1000)) by (right; exists 10%nat; simpl; lra).
  destruct C100_overdamped as [H1 H2].
  split. { unfold steps_shrink. cbv zeta. rewrite Ec, Ek, Edt. exact H1. }
  split. { unfold steps_shrink. cbv zeta. rewrite Ec, Ek, Edt, Edi. rewrite (Rmin_right (1/100) (1/1000)) by lra. auto. }
  split. { rewrite Eo; unfold stable; cbn; intros (H & _); lra. }
  split. { unfold tuned_like. repeat split. }
  split; [intros k; rewrite Hcalls; cbn; auto|].
  split.
  { intros k. rewrite Hcalls. unfold disturbed_by, h. cbn [r_y r_coupling one aget].
    split.
    - unfold one; cbn. match goal with |- Rabs (?p - (?p - _)) <= _ =>
        replace (p - (p - 1/2)) with (1/2) by lra end.
      rewrite Rabs_pos_eq; lra.
    - intros y v. cbn. rewrite Rabs_pos_eq by lra. split; [lra|].
      pose proof (SIN_bound (v 0%nat)). apply Rabs_le. lra. }
  intros k. rewrite (Hcalls k). cbn. lra.
Qed.
