(** C131 for DMPWithFinalVelocity.  Final statements. *)
From Coq Require Import Reals ZArith List Arith Bool Lia Lra Psatz FunctionalExtensionality.
From Coquelicot Require Import Complex.
From Verif Require Import M_Prelude M_Canonical M_Forcing M_Dmp M_Base M_DmpObject M_FinalVelocity
  S_Loops S_Dmp S_Stability P_Loops P_Canonical P_Forcing P_DmpStep P_DmpScale P_DmpLinear P_Converge
  P_DmpObject P_Disturbed P_FinalVelocity P_Continuity P_Stability P_Bounded P_Rate Properties_Forcing Properties_Dmp
  Properties_DmpObject Properties_DmpState Properties_Goal Properties_FinalVelocity Properties_Equivariance
  Properties_Stability Properties_ContinuityAll Properties_FinalVelocityObject Properties_Rate.
Import ListNotations.
Open Scope R_scope.
Set Bullet Behavior "Strict Subproofs".

(** ** Proofs *)
Lemma fv_phase_decays n o lam t : fv_reachable n o -> lam * ft_goal_t (o_forcing_term o) <= ln 100 ->
  0 <= t -> 0 < ft_goal_t (o_forcing_term o) /\ ft_n (o_forcing_term o) = o_n_weights_per_dim o
  /\ 0 <= ft_phase (o_forcing_term o) t <= exp (- lam * t).
Proof.
  intros Hr Hl Ht. destruct (fv_ft n o (fv_reachable_ok n o Hr)) as (j & f & w & E & Ew).
  pose proof (forcing_term_init_n _ _ _ _ _ _ _ _ E) as (N & _ & St & _ & Az & _ & Hsg & _).
  split; [exact Hsg|]. split; [rewrite Ew; cbn [set_ft_weights ft_n]; exact N|].
  set (G := ft_goal_t (o_forcing_term o)) in *.
  assert (Ea : ft_alpha_z (o_forcing_term o) = ln 100)
    by (rewrite Ew; cbn [set_ft_weights ft_alpha_z]; rewrite Az; apply ln_hundredth).
  assert (Es : ft_start_t (o_forcing_term o) = 0)
    by (rewrite Ew; cbn [set_ft_weights ft_start_t]; exact St).
  assert (Ep : ft_phase (o_forcing_term o) t = exp (- (ln 100 * t / G))).
  { unfold ft_phase, phase. cbv zeta. f_equal. rewrite Ea, Es, !Rminus_0_r. fold G. field. lra. }
  rewrite Ep. split; [left; apply exp_pos|].
  assert (H : - (ln 100 * t / G) <= - lam * t).
  { replace (- (ln 100 * t / G)) with (- (ln 100 * / G) * t) by (field; lra).
    apply Rmult_le_compat_r; auto. apply Ropp_le_contravar.
    apply Rmult_le_reg_r with G; auto. rewrite Rmult_assoc, Rinv_l by lra. lra. }
  destruct (Rle_lt_or_eq_dec _ _ H) as [H'| ->]; [|lra]. left. now apply exp_increasing.
Qed.

(** ** C131 *)
(** After the execution time, whatever happened before: from the state that was reached then the
    distance to the goal and the velocity shrink with the same rate. *)
Theorem C131_final_velocity : forall o0 d lam,
  0 < o_execution_time o0 -> 0 < o_dt o0 -> 0 < o_int_dt o0 -> 0 <= lam -> decays_at lam Euler o0 d ->
  exists K, forall n o W m y yd o1 y1 yd1,
  fv_reachable n o -> same_settings o0 o -> gains_like o0 d o -> weights_up_to W d o ->
  (0 < m)%nat -> fv_n_steps None m y yd o = (o1, Ok (y1, yd1)) ->
  o_execution_time o + float_eps < p_t (o_base o1) ->
  forall k, exists o2 y2 yd2, fv_n_steps None k y1 yd1 o1 = (o2, Ok (y2, yd2))
  /\ let D := Rabs (aget y1 d - aget (p_goal_y (o_base o)) d) + Rabs (aget yd1 d) + W in
     Rabs (aget y2 d - aget (p_goal_y (o_base o)) d) <= K * D * exp (- lam * (INR k * o_dt o))
     /\ Rabs (aget yd2 d) <= K * D * exp (- lam * (INR k * o_dt o)).
Proof.
  intros o0 d lam Hx Hdt Hi Hl (Hph & Hep & Hg). cbv zeta in Hg.
  set (c := dmp_damping o0 d) in *. set (kk := dmp_stiffness o0 d) in *.
  set (h := Rmin (o_dt o0) (o_int_dt o0)) in *. set (tau := o_execution_time o0) in *.
  destruct (equal_tiles (o_dt o0) (o_int_dt o0) h Hdt Hi (parts_length _ _ Hdt Hi Hep)) as (q & Hq & Eq & Hh & Htl).
  destruct (euler_rate h c kk (exp (- lam * h)) (exp_pos _) Hg) as (K & HK & H).
  set (u := / tau ^ 2).
  assert (Hu : 0 < u) by (apply Rinv_0_lt_compat, pow_lt; exact Hx).
  exists (K * (1 + u)). intros n o W m y yd o1 y1 yd1 Hr (S1 & S2 & S3 & S4 & S5 & S6) (EA & EB) (HW0 & HW) Hm E1 Hlate k.
  fold tau in S1. pose proof float_eps_pos as Hfe.
  destruct m as [|m0]; [lia|].
  destruct (fv_n_steps_run m0 o y yd) as (o1' & y1' & yd1' & E1' & P1 & T1 & I1 & C1 & D1); try lra.
  rewrite E1 in E1'. injection E1' as <- <- <-.
  pose proof P1 as (Q1 & Q2 & Q3 & Q4 & Q5 & Q6 & Q7 & Q8 & Q9 & Q10 & Q11 & Q12 & Q13 & Q14
                    & Q15 & Q16 & Q17).
  set (a := fv_open_loop_step_args o1 None). set (t0 := p_t (o_base o1)) in *.
  set (b := without_smoothing a). set (dt := o_dt o0) in *.
  assert (Htot : forall k s, exists l,
     tiles (t0 + INR k * dt) (t0 + INR (S k) * dt) (o_int_dt o0) l
     /\ dmp_step_euler_with_constraints a (t0 + INR k * dt) (t0 + INR (S k) * dt) s
        = Ok (exec_substeps (euler_body b) l s)).
  { intros j s. pose proof (pos_INR j).
    assert (Pk : 0 <= INR j * dt) by (apply Rmult_le_pos; lra).
    destruct (fv_step_total a (t0 + INR j * dt) (t0 + INR (S j) * dt) s) as (l & Hl' & E);
      try (cbn; rewrite ?Q1, ?Q4; lra); [rewrite S_INR; cbn; lra|rewrite S_INR; lra|].
    assert (Ei : a_int_dt a = o_int_dt o0) by (cbn; rewrite Q4; exact S3).
    rewrite Ei in Hl'. exists l. split; [exact Hl'|]. rewrite E. f_equal. apply exec_substeps_ext.
    intros c0 h0 s0 Hin. destruct (tiles_inside _ _ _ _ _ _ Hl' Hin) as [[Hc _] [Hh0 _]].
    apply fv_body_after_goal; [repeat split| |lra]. cbn. rewrite Q1. lra. }
  set (x := (aget y1, aget yd1)).
  assert (Hrun : forall j, run_seq (dmp_step_euler_with_constraints a) t0 dt x j = Ok (substates b t0 h x (j * q))).
  { induction j as [|j IH]; [reflexivity|]. cbn [run_seq]. rewrite IH. cbn [bind].
    destruct (Htot j (substates b t0 h x (j * q))) as (l & Hl' & ->).
    apply Htl in Hl'; [|rewrite S_INR; ring]. subst l. f_equal.
    rewrite (substates_exec b t0 h x q).
    - f_equal. lia.
    - rewrite mult_INR, Eq. ring. }
  destruct (fv_n_steps_follow None o1 k o1 y1 yd1) with (s := substates b t0 h x (k * q))
    as (o2 & y2 & yd2 & R1 & R2 & R3).
  { apply same_params_refl. }
  { rewrite norm_id by auto. exact C1. }
  { rewrite norm_id by auto. exact D1. }
  { rewrite Q2, S2. apply Hrun. }
  exists o2, y2, yd2. split; [exact R1|]. intros D.
  set (g := aget (p_goal_y (o_base o)) d) in *.
  assert (Hgb : a_goal_y b d = g) by (cbn; now rewrite Q15).
  assert (Hda : damping b d = c).
  { unfold damping, c, dmp_damping. cbn. rewrite Q8, Q1, EA, S1. now rewrite Rminus_0_r. }
  assert (Hka : stiffness b d = kk).
  { unfold stiffness, kk, dmp_stiffness. cbn -[pow]. rewrite Q8, Q9, Q1, EA, EB, S1. now rewrite Rminus_0_r. }
  assert (Htau : a_goal_t b - a_start_t b = tau) by (cbn; rewrite Q1, S1; ring).
  assert (Hft : a_forcing_term b = o_forcing_term o) by (cbn; exact Q7).
  assert (Fb : free b) by (repeat split).
  assert (Hne : a_goal_t b <> a_start_t b) by (intro Z; rewrite Z in Htau; lra).
  pose proof (Rabs_pos (aget y1 d - g)) as HP1. pose proof (Rabs_pos (aget yd1 d)) as HP2.
  assert (HD : 0 <= D) by (unfold D; lra).
  assert (HDu : 0 <= u * D) by (apply Rmult_le_pos; lra).
  assert (HuW : 0 <= u * W <= u * D).
  { split; [apply Rmult_le_pos; lra|]. apply Rmult_le_compat_l; [lra|]. unfold D. lra. }
  replace (INR k * o_dt o) with (INR (k * q) * h) by (rewrite mult_INR, S2, Eq; ring).
  rewrite exp_pow, (Rmult_assoc K (1 + u) D).
  apply (f_equal (fun s : vec * vec => (fst s d, snd s d))) in R2. cbn [fst snd] in R2. injection R2 as R2a R2b.
  rewrite R2a, R2b.
  apply (H (fun i => fst (substates b t0 h x i) d - g) (fun i => snd (substates b t0 h x i) d)
    (fun i => disturbance b (ft_phase (a_forcing_term b) (t0 + INR (S i) * h)) d / tau ^ 2) ((1 + u) * D)).
  - intros i. cbn [substates]. destruct (substates b t0 h x i) as [p v].
    destruct (euler_two b (t0 + INR (S i) * h) h p v d Fb Hne) as [Z _].
    rewrite Hda, Hka, Hgb, Htau in Z. exact Z.
  - intros i. cbn [substates]. destruct (substates b t0 h x i) as [p v].
    destruct (euler_two b (t0 + INR (S i) * h) h p v d Fb Hne) as [_ Z]. rewrite Hgb in Z. exact Z.
  - cbn [substates fst x]. rewrite Rmult_plus_distr_r, Rmult_1_l. unfold D at 1. lra.
  - cbn [substates snd x]. rewrite Rmult_plus_distr_r, Rmult_1_l. unfold D at 1. lra.
  - intros i. rewrite Hft. set (t := t0 + INR (S i) * h).
    assert (Hti : INR i * h <= t /\ 0 <= t).
    { unfold t. rewrite S_INR. pose proof (pos_INR i). assert (0 <= INR i * h) by (apply Rmult_le_pos; lra). split; lra. }
    destruct (fv_phase_decays n o lam t Hr) as (_ & N & Hz0 & Hz1); [rewrite S6; exact Hph|apply Hti|].
    set (z := ft_phase (o_forcing_term o) t) in *.
    assert (HF : Rabs (disturbance b z d) <= z * W).
    { unfold disturbance. rewrite Hft. cbn [b without_smoothing a_smooth_scaling]. rewrite Rminus_0_r.
      eapply Rle_trans; [apply ft_forces_bound with (M := W)|].
      - apply (fv_phase_ok n o (fv_reachable_ok n o Hr)).
      - rewrite N. exact HW.
      - rewrite Rabs_pos_eq by lra. lra. }
    assert (Hz2 : z <= exp (- lam * h) ^ i).
    { eapply Rle_trans; [exact Hz1|]. rewrite <- exp_pow.
      assert (- lam * t <= - lam * (INR i * h)) by (assert (lam * (INR i * h) <= lam * t) by (apply Rmult_le_compat_l; lra); lra).
      destruct (Rle_lt_or_eq_dec (- lam * t) (- lam * (INR i * h))) as [Z|Z]; auto; [left; now apply exp_increasing|rewrite Z; lra]. }
    unfold Rdiv. fold u. rewrite Rabs_mult, (Rabs_pos_eq u) by lra.
    apply Rle_trans with (z * W * u); [apply Rmult_le_compat_r; lra|].
    apply Rle_trans with (u * W * exp (- lam * h) ^ i).
    + replace (z * W * u) with (u * W * z) by ring. apply Rmult_le_compat_l; lra.
    + apply Rmult_le_compat_r; [left; apply pow_lt, exp_pos|]. lra.
Qed.

(** Whenever the steps shrink at all (the condition of C101) there is a positive rate. *)
Theorem C131_final_velocity_exponential : forall n o d,
  fv_reachable n o -> 0 < o_execution_time o -> 0 < o_dt o -> 0 < o_int_dt o ->
  steps_shrink Euler o d -> exists lam, 0 < lam /\ decays_at lam Euler o d.
Proof.
  intros n o d Hr Hx Hdt Hi [Hep Hs].
  assert (Hln : 0 < ln 100) by (rewrite <- ln_1; apply ln_increasing; lra).
  destruct (fv_phase_decays n o 0 0 Hr) as (HG & _); try lra.
  set (G := ft_goal_t (o_forcing_term o)) in *.
  set (c := dmp_damping o d) in *. set (kk := dmp_stiffness o d) in *. set (h := Rmin (o_dt o) (o_int_dt o)) in *.
  assert (Hh : 0 < h) by (unfold h; now apply Rmin_pos).
  destruct (quadratic_roots (2 - h * c - h ^ 2 * kk) (1 - h * c)) as (m1 & m2 & Ht & Hp).
  assert (H1 : Cmod m1 < 1) by (apply Hs; unfold euler_growth; apply (root_of _ _ m1 m2 _ Ht Hp); auto).
  assert (H2 : Cmod m2 < 1) by (apply Hs; unfold euler_growth; apply (root_of _ _ m1 m2 _ Ht Hp); auto).
  set (m := Rmax (Cmod m1) (Cmod m2)).
  assert (Hm : 0 <= m < 1).
  { unfold m, Rmax. pose proof (Cmod_ge_0 m1). pose proof (Cmod_ge_0 m2). destruct (Rle_dec _ _); lra. }
  set (l0 := - ln ((1 + m) / 2) / h).
  assert (Hl0 : 0 < l0).
  { unfold l0. apply Rdiv_lt_0_compat; auto.
    assert (ln ((1 + m) / 2) < ln 1) by (apply ln_increasing; lra). rewrite ln_1 in *. lra. }
  exists (Rmin l0 (ln 100 / G)). split; [apply Rmin_pos; auto; now apply Rdiv_lt_0_compat|].
  split; [|split; [exact Hep|]].
  - fold G. apply Rle_trans with (ln 100 / G * G); [apply Rmult_le_compat_r; [lra|apply Rmin_r]|].
    right. field. lra.
  - cbv zeta. fold c kk h. intros mu Hmu. apply Rle_lt_trans with m.
    + apply (root_of _ _ m1 m2 mu Ht Hp) in Hmu. destruct Hmu as [-> | ->]; [apply Rmax_l|apply Rmax_r].
    + apply Rlt_le_trans with (exp (- l0 * h)).
      * replace (- l0 * h) with (ln ((1 + m) / 2)) by (unfold l0; field; lra). rewrite exp_ln by lra. lra.
      * destruct (Rle_lt_or_eq_dec _ _ (Rmin_l l0 (ln 100 / G))) as [Z|Z]; [|rewrite Z; lra].
        left. apply exp_increasing. nra.
Qed.

(** A DMP that arrives with velocity 2 at its goal 7 and has weights 1: it swings past the goal and comes back. *)
Example C131_final_velocity_satisfiable : exists o lam, fv_reachable 1 o /\ aget (p_goal_y (o_base o)) 0%nat = 7
  /\ aget (p_goal_yd (o_base o)) 0%nat = 2 /\ 0 < lam /\ decays_at lam Euler o 0 /\ same_settings o o /\ gains_like o 0 o
  /\ weights_up_to 1 0 o
  /\ forall y yd, exists K m o1 y1 yd1, fv_n_steps None m y yd o = (o1, Ok (y1, yd1)) /\ o_execution_time o + float_eps < p_t (o_base o1)
  /\ forall k, exists o2 y2 yd2, fv_n_steps None k y1 yd1 o1 = (o2, Ok (y2, yd2))
     /\ Rabs (aget y2 0%nat - 7) <= K * exp (- lam * (INR k * (1/100))).
Proof.
  destruct (C101_satisfiable 1) as (o & Hr & X1 & X2 & X3 & _ & G7 & Hv & Hw & _ & Hst & _).
  assert (P1 : 0 < o_execution_time o) by lra. assert (P2 : 0 < o_dt o) by lra. assert (P3 : 0 < o_int_dt o) by lra.
  destruct (C131_final_velocity_exponential 1 o 0 Hr P1 P2 P3 Hst) as (lam & Hl & Hd).
  assert (Hw1 : weights_up_to 1 0 o) by (split; [lra|]; intros i Hi; rewrite Hw, Rabs_R1 by exact Hi; lra).
  exists o, lam. repeat (split; [solve [assumption | repeat split]|]).
  intros y yd.
  destruct (C131_final_velocity o 0 lam P1 P2 P3 ltac:(lra) Hd) as [K HK].
  destruct (clock_steps (p_t (o_base o) - o_execution_time o - float_eps - o_dt o) (o_dt o) P2) as [k0 Hk0].
  destruct (fv_n_steps_run k0 o y yd P1 P2 P3) as (o1 & y1 & yd1 & E1 & _ & T1 & _).
  assert (Hlate : o_execution_time o + float_eps < p_t (o_base o1)) by (rewrite T1, S_INR in *; lra).
  exists (K * (Rabs (aget y1 0%nat - 7) + Rabs (aget yd1 0%nat) + 1)), (S k0), o1, y1, yd1.
  split; [exact E1|]. split; [exact Hlate|]. intros k.
  destruct (HK 1%nat o 1 (S k0) y yd o1 y1 yd1 Hr ltac:(repeat split) ltac:(repeat split) Hw1 ltac:(lia) E1 Hlate k)
    as (o2 & y2 & yd2 & E2 & B & _).
  exists o2, y2, yd2. split; [exact E2|]. rewrite G7, X2 in B. exact B.
Qed.
