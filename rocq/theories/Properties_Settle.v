(** C131: the time after which a DMP stays near its goal.  Final statements. *)
From Coq Require Import Reals ZArith List Arith Bool Lia Lra Psatz FunctionalExtensionality.
From Verif Require Import M_Prelude M_Canonical M_Forcing M_Dmp M_Base M_Matrix M_DmpObject M_Ridge
  S_Loops S_Dmp S_Stability P_Loops P_Canonical P_Forcing P_DmpStep P_Converge P_DmpObject P_Stability P_Rate
  Properties_Dmp Properties_DmpObject Properties_DmpState Properties_Goal Properties_Equivariance
  Properties_Stability Properties_ContinuityAll Properties_Rate Properties_SpringSettle.
Import ListNotations.
Open Scope R_scope.
Set Bullet Behavior "Strict Subproofs".

(** ** C131 *)
(** For every tolerance [eps]: all positions that [open_loop] returns for times with
    [lam t >= ln (K D / eps)] are within [eps] of the goal. *)
Theorem C131_settles : forall fn o d lam,
  0 < o_execution_time o -> 0 < o_dt o -> 0 < o_int_dt o -> 0 <= lam -> decays_at lam fn o d ->
  exists K, 0 <= K /\ forall n o1 W run_t ts ys eps,
  reachable n o1 -> same_settings o o1 -> gains_like o d o1 -> weights_up_to W d o1 -> 0 < eps ->
  dmp_open_loop run_t None (Some fn) o1 = Ok (ts, ys) ->
  let D := Rabs (aget (p_start_y (o_base o1)) d - aget (p_goal_y (o_base o1)) d) + W in
  forall k, (k < length ys)%nat -> ln (K * D / eps) <= lam * nth k ts 0 ->
  Rabs (nth k ys vzero d - aget (p_goal_y (o_base o1)) d) <= eps.
Proof.
  intros fn o d lam Hx Hdt Hi Hl Hd.
  destruct (C131_rate fn o d lam Hx Hdt Hi Hl Hd) as [K HK].
  exists (Rmax K 0). split; [apply Rmax_r|].
  intros n o1 W run_t ts ys eps Hr HS HG HW He Ho D k Hk Ht.
  destruct (HK n o1 W run_t ts ys Hr HS HG HW Ho) as [_ B]. specialize (B k Hk). fold D in B.
  assert (HD : 0 <= D).
  { unfold D. pose proof (Rabs_pos (aget (p_start_y (o_base o1)) d - aget (p_goal_y (o_base o1)) d)).
    destruct HW as [HW _]. lra. }
  pose proof (decay_below (Rmax K 0) D eps lam (nth k ts 0) (Rmax_r _ _) HD He Ht) as HB.
  eapply Rle_trans; [exact B|]. eapply Rle_trans; [|exact HB].
  apply Rmult_le_compat_r; [left; apply exp_pos|]. apply Rmult_le_compat_r; [exact HD|apply Rmax_l].
Qed.

(** With the default gains and the Runge-Kutta integrators the factor 100 costs one execution time: the
    distance is below [eps] at every returned time [t >= m execution_time] once [K D <= 100^m eps]. *)
Theorem C131_settles_default : forall n o fn d,
  reachable n o -> 0 < o_execution_time o -> 0 < o_dt o -> o_dt o <= o_execution_time o / 10 -> 0 < o_int_dt o ->
  uses_rk4 fn -> ft_goal_t (o_forcing_term o) = o_execution_time o ->
  aget (o_alpha_y o) d = 25 -> aget (o_beta_y o) d = 25 / 4 ->
  exists K, 0 <= K /\ forall n o1 W run_t ts ys eps m,
  reachable n o1 -> same_settings o o1 -> gains_like o d o1 -> weights_up_to W d o1 -> 0 < eps ->
  dmp_open_loop run_t None (Some fn) o1 = Ok (ts, ys) ->
  K * (Rabs (aget (p_start_y (o_base o1)) d - aget (p_goal_y (o_base o1)) d) + W) <= 100 ^ m * eps ->
  forall k, (k < length ys)%nat -> INR m * o_execution_time o <= nth k ts 0 ->
  Rabs (nth k ys vzero d - aget (p_goal_y (o_base o1)) d) <= eps.
Proof.
  intros n o fn d Hr Hx Hdt Hle Hi Hfn HG Ha Hb.
  pose proof (C131_hundredth n o fn d Hr Hx Hdt Hle Hfn HG Ha Hb) as Hd.
  assert (Hln : 0 < ln 100) by (rewrite <- ln_1; apply ln_increasing; lra).
  assert (Hl : 0 < ln 100 / o_execution_time o) by now apply Rdiv_lt_0_compat.
  destruct (C131_settles fn o d _ Hx Hdt Hi (Rlt_le _ _ Hl) Hd) as (K & HK0 & HK).
  exists K. split; [exact HK0|].
  intros n1 o1 W run_t ts ys eps m Hr1 HS HGa HW He Ho HB k Hk Ht.
  apply (HK n1 o1 W run_t ts ys eps Hr1 HS HGa HW He Ho k Hk).
  set (Q := K * (Rabs (aget (p_start_y (o_base o1)) d - aget (p_goal_y (o_base o1)) d) + W)) in *.
  assert (HT : INR m * ln 100 <= ln 100 / o_execution_time o * nth k ts 0).
  { replace (INR m * ln 100) with (ln 100 / o_execution_time o * (INR m * o_execution_time o)) by (field; lra).
    apply Rmult_le_compat_l; lra. }
  eapply Rle_trans; [|exact HT].
  assert (HQ : 0 <= Q).
  { unfold Q. apply Rmult_le_pos; [exact HK0|]. destruct HW as [HW _].
    pose proof (Rabs_pos (aget (p_start_y (o_base o1)) d - aget (p_goal_y (o_base o1)) d)). lra. }
  assert (Hpw : 0 < 100 ^ m) by (apply pow_lt; lra).
  destruct (Rle_lt_or_eq_dec _ _ HQ) as [HQ'|HQ'].
  - assert (Hq : Q / eps <= 100 ^ m).
    { apply Rmult_le_reg_r with eps; [exact He|]. unfold Rdiv. rewrite Rmult_assoc, Rinv_l by lra. lra. }
    assert (Hq0 : 0 < Q / eps) by now apply Rdiv_lt_0_compat.
    assert (Ep : ln (100 ^ m) = INR m * ln 100).
    { clear. induction m as [|m IH]; [simpl; rewrite ln_1; ring|].
      cbn [pow]. rewrite ln_mult, IH, S_INR by (try apply pow_lt; lra). ring. }
    rewrite <- Ep. destruct Hq as [Hq| ->]; [left; now apply ln_increasing|lra].
  - rewrite <- HQ'. unfold Rdiv. rewrite Rmult_0_l.
    replace (ln 0) with 0.
    + apply Rmult_le_pos; [apply pos_INR|lra].
    + unfold ln. destruct (Rlt_dec 0 0) as [Z|Z]; [exfalso; lra|reflexivity].
Qed.

(** The default DMP of C131 with another goal. *)
Example C131_settles_satisfiable : exists o, reachable 1 o /\ aget (p_start_y (o_base o)) 0%nat <> aget (p_goal_y (o_base o)) 0%nat
  /\ exists K, 0 <= K /\ forall n o1 W run_t ts ys eps,
     reachable n o1 -> same_settings o o1 -> gains_like o 0 o1 -> weights_up_to W 0 o1 -> 0 < eps ->
     dmp_open_loop run_t None (Some RK4) o1 = Ok (ts, ys) ->
     forall k, (k < length ys)%nat ->
     ln (K * (Rabs (aget (p_start_y (o_base o1)) 0%nat - aget (p_goal_y (o_base o1)) 0%nat) + W) / eps)
       <= ln 100 / o_execution_time o * nth k ts 0 ->
     Rabs (nth k ys vzero 0%nat - aget (p_goal_y (o_base o1)) 0%nat) <= eps.
Proof.
  destruct C131_satisfiable as (o & Hr & Hx & Hdt & Hi & Hd & Hl & _ & _ & _ & _ & Hne).
  exists o. split; [exact Hr|]. split; [exact Hne|].
  exact (C131_settles RK4 o 0 _ Hx Hdt Hi (Rlt_le _ _ Hl) Hd).
Qed.
