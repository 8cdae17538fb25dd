(** Two runs of DMPs with the same gains and step lengths: the distance of their
    states is bounded by the distance of their data (C95). *)
From Coq Require Import Reals ZArith List Lia Lra Psatz FunctionalExtensionality.
From Coquelicot Require Import Coquelicot.
From Verif Require Import M_Prelude M_Canonical M_Forcing M_Dmp S_Dmp
  S_Loops P_Loops P_Canonical P_Forcing P_DmpStep P_DmpScale P_DmpLinear P_Converge P_Disturbed.
Import ListNotations.
Open Scope R_scope.
Set Bullet Behavior "Strict Subproofs".

Lemma contraction_bounded (n : nat -> R) (r b : R) :
  0 <= r < 1 -> 0 <= b -> 0 <= n 0%nat ->
  (forall k, n (S k) <= r * n k + b) -> forall k, n k <= n 0%nat + b / (1 - r).
Proof.
  intros Hr Hb H0 Hrec.
  assert (Hq : 0 <= b / (1 - r)) by (apply Rmult_le_pos; [lra|apply Rlt_le, Rinv_0_lt_compat; lra]).
  induction k as [|k IH]; [lra|].
  eapply Rle_trans; [apply Hrec|].
  assert (E : b = (1 - r) * (b / (1 - r))) by (field; lra).
  set (q := b / (1 - r)) in *.
  assert (r * n k <= r * (n 0%nat + q)) by (apply Rmult_le_compat_l; lra).
  assert (0 <= (1 - r) * n 0%nat) by (apply Rmult_le_pos; lra). nra.
Qed.

(** Two sets of arguments that agree in gains and phase in dimension [d]. *)
Record twin_args (a1 a2 : dmp_args) (d : nat) (al be tau U : R) : Prop := {
  tw_free : free a1 /\ free a2;
  tw_start : a_start_t a1 = 0 /\ a_start_t a2 = 0;
  tw_goal_t : a_goal_t a1 = tau /\ a_goal_t a2 = tau;
  tw_alpha : a_alpha_y a1 d = al /\ a_alpha_y a2 d = al;
  tw_beta : a_beta_y a1 d = be /\ a_beta_y a2 d = be;
  tw_int_dt : a_int_dt a1 = a_int_dt a2;
  tw_dist : forall t, 0 <= t ->
    Rabs (disturbance a1 (ft_phase (a_forcing_term a1) t) d
          - disturbance a2 (ft_phase (a_forcing_term a2) t) d) / tau ^ 2 <= U }.

Section Twins.
Variables (a1 a2 : dmp_args) (d : nat) (al be tau U : R).
Hypothesis TW : twin_args a1 a2 d al be tau U.
Hypothesis Htau : 0 < tau.
Hypothesis Hcd : al = 4 * be.
Let k := al / (2 * tau).

(** Distance of the states relative to the goals. *)
Definition gap_e (s1 s2 : vec * vec) : R :=
  (fst s1 d - a_goal_y a1 d) - (fst s2 d - a_goal_y a2 d).
Definition gap_w (s1 s2 : vec * vec) : R := (snd s1 d - snd s2 d) + k * gap_e s1 s2.

Lemma dist_gap t : 0 <= t ->
  Rabs (disturbance a1 (ft_phase (a_forcing_term a1) t) d / tau ^ 2
        - disturbance a2 (ft_phase (a_forcing_term a2) t) d / tau ^ 2) <= U.
Proof.
  intros Ht. eapply Rle_trans; [|apply (tw_dist _ _ _ _ _ _ _ TW t Ht)].
  rewrite <- Rabs_div_pos by nra. apply Req_le. f_equal. field. lra.
Qed.

Lemma rk4_gap lt t s1 s2 : 0 <= t -> 0 < t - lt -> 0 < k * (t - lt) < 3 ->
  let h := t - lt in
  let r := Rabs (rk4_factor (k * h)) in
  let s1' := dmp_step_rk4 a1 lt t s1 in
  let s2' := dmp_step_rk4 a2 lt t s2 in
  Rabs (gap_w s1' s2') <= r * Rabs (gap_w s1 s2) + 6 * h * U
  /\ Rabs (gap_e s1' s2') <= r * Rabs (gap_e s1 s2) + (13 * h * Rabs (gap_w s1 s2) + 3 * h ^ 2 * U).
Proof.
  intros Ht Hh Hx h r s1' s2'.
  destruct TW as [[F1 F2] [S1 S2] [G1 G2] [A1 A2] [B1 B2] _ _].
  destruct s1 as [y1 v1], s2 as [y2 v2].
  pose proof (rk4_triangular a1 lt t y1 v1 d F1 ltac:(lra) ltac:(congruence)) as T1.
  pose proof (rk4_triangular a2 lt t y2 v2 d F2 ltac:(lra) ltac:(congruence)) as T2.
  cbv zeta in T1, T2. rewrite S1, G1, A1, Rminus_0_r in T1. rewrite S2, G2, A2, Rminus_0_r in T2.
  fold k h in T1, T2.
  change (dmp_step_rk4 a1 lt t (y1, v1)) with s1' in T1.
  change (dmp_step_rk4 a2 lt t (y2, v2)) with s2' in T2.
  pose proof (dist_gap t Ht) as U0.
  pose proof (dist_gap (t + / 2 * h) ltac:(unfold h; lra)) as U1.
  pose proof (dist_gap (t + h) ltac:(unfold h; lra)) as U2.
  set (p0 := disturbance a1 (ft_phase (a_forcing_term a1) t) d / tau ^ 2) in *.
  set (p1 := disturbance a1 (ft_phase (a_forcing_term a1) (t + / 2 * h)) d / tau ^ 2) in *.
  set (p2 := disturbance a1 (ft_phase (a_forcing_term a1) (t + h)) d / tau ^ 2) in *.
  set (q0 := disturbance a2 (ft_phase (a_forcing_term a2) t) d / tau ^ 2) in *.
  set (q1 := disturbance a2 (ft_phase (a_forcing_term a2) (t + / 2 * h)) d / tau ^ 2) in *.
  set (q2 := disturbance a2 (ft_phase (a_forcing_term a2) (t + h)) d / tau ^ 2) in *.
  fold h in Hh, Hx. set (x := k * h) in *.
  clearbody p0 p1 p2 q0 q1 q2.
  destruct T1 as [W1 E1], T2 as [W2 E2].
  assert (HU0 : 0 <= U) by (eapply Rle_trans; [apply Rabs_pos|exact U0]).
  assert (Hx2 : 0 <= x ^ 2 <= 9) by (split; [apply pow_le; lra|nra]).
  assert (Hx3 : 0 <= x ^ 3 <= 27).
  { split; [apply pow_le; lra|]. replace (x ^ 3) with (x * x ^ 2) by ring. nra. }
  assert (Hbd : forall c b uu, - b <= c <= b -> Rabs uu <= U -> Rabs (c * uu) <= b * U).
  { intros c b uu Hc Hu. rewrite Rabs_mult. apply Rmult_le_compat; try apply Rabs_pos; auto.
    now apply Rabs_le_between. }
  clearbody s1' s2'.
  assert (Ew : gap_w s1' s2' = rk4_factor x * gap_w (y1, v1) (y2, v2)
     + h / 6 * ((1 - x + x ^ 2 / 2 - x ^ 3 / 4) * (p0 - q0) + (4 - 2 * x + x ^ 2 / 2) * (p1 - q1) + (p2 - q2))).
  { replace (gap_w s1' s2') with ((snd s1' d + k * (fst s1' d - a_goal_y a1 d))
       - (snd s2' d + k * (fst s2' d - a_goal_y a2 d))) by (unfold gap_w, gap_e; ring).
    rewrite W1, W2. unfold gap_w, gap_e. cbn [fst snd]. ring. }
  assert (Ee : gap_e s1' s2' = rk4_factor x * gap_e (y1, v1) (y2, v2)
     + (h * (1 - x + x ^ 2 / 2 - x ^ 3 / 6) * gap_w (y1, v1) (y2, v2)
     + h ^ 2 / 6 * ((1 - x + 3 / 4 * x ^ 2) * (p0 - q0) + (2 - x) * (p1 - q1)))).
  { unfold gap_e at 1. rewrite E1, E2. unfold gap_w, gap_e. cbn [fst snd]. ring. }
  split.
  - rewrite Ew. eapply Rle_trans; [apply Rabs_triang|]. rewrite Rabs_mult. fold r.
    apply Rplus_le_compat_l. rewrite Rabs_mult, (Rabs_pos_eq (h / 6)) by lra.
    apply Rle_trans with (h / 6 * (36 * U)); [|apply Req_le; field].
    apply Rmult_le_compat_l; [lra|].
    pose proof (Hbd (1 - x + x ^ 2 / 2 - x ^ 3 / 4) (61 / 4) (p0 - q0) ltac:(lra) U0) as B0.
    pose proof (Hbd (4 - 2 * x + x ^ 2 / 2) (29 / 2) (p1 - q1) ltac:(lra) U1) as B1'.
    eapply Rle_trans; [apply Rabs_triang|].
    eapply Rle_trans; [apply Rplus_le_compat_r, Rabs_triang|]. lra.
  - rewrite Ee. eapply Rle_trans; [apply Rabs_triang|]. rewrite Rabs_mult. fold r.
    apply Rplus_le_compat_l. eapply Rle_trans; [apply Rabs_triang|].
    apply Rplus_le_compat.
    + rewrite !Rabs_mult, (Rabs_pos_eq h) by lra. apply Rmult_le_compat_r; [apply Rabs_pos|].
      assert (Hc : Rabs (1 - x + x ^ 2 / 2 - x ^ 3 / 6) <= 13) by (apply Rabs_le_between; lra).
      rewrite (Rmult_comm 13). apply Rmult_le_compat_l; lra.
    + assert (Hh2 : 0 < h ^ 2) by (apply pow_lt; lra).
      rewrite Rabs_mult, (Rabs_pos_eq (h ^ 2 / 6)) by lra.
      apply Rle_trans with (h ^ 2 / 6 * (18 * U)); [|apply Req_le; field].
      apply Rmult_le_compat_l; [lra|].
      pose proof (Hbd (1 - x + 3 / 4 * x ^ 2) (43 / 4) (p0 - q0) ltac:(lra) U0) as B0.
      pose proof (Hbd (2 - x) 5 (p1 - q1) ltac:(lra) U1) as B1'.
      eapply Rle_trans; [apply Rabs_triang|]. lra.
Qed.

Definition gap_norm (s1 s2 : vec * vec) : R := euler_norm k (gap_e s1 s2) (snd s1 d - snd s2 d).

Lemma euler_body_explicit a c h (y v : vec) : free a -> a_start_t a = 0 -> a_goal_t a = tau ->
  a_alpha_y a d = al -> a_beta_y a d = be ->
  let v' := v d + h * (- k ^ 2 * (y d - a_goal_y a d) - 2 * k * v d
                       + disturbance a (ft_phase (a_forcing_term a) c) d / tau ^ 2) in
  snd (euler_body a c h (y, v)) d = v'
  /\ fst (euler_body a c h (y, v)) d = y d + h * v'.
Proof.
  intros F S G A B v'.
  assert (Hb : a_beta_y a d = k * tau / 2).
  { unfold k. rewrite B, Hcd. field. lra. }
  assert (Ha : a_alpha_y a d = 2 * k * tau) by (unfold k; rewrite A; field; lra).
  set (z := ft_phase (a_forcing_term a) c) in *.
  assert (Hacc : acc_of a h y v z (ft_forces (a_forcing_term a) z) d
     = - k ^ 2 * (y d - a_goal_y a d) - 2 * k * v d + disturbance a z d / tau ^ 2).
  { rewrite acc_of_free by (auto; lra). rewrite Hb, Ha, S, G, Rminus_0_r. field. lra. }
  unfold euler_body. cbv zeta. fold z.
  change (dmp_acc _ _ _ _ _ _ _ _ _ _ _ _ _)
    with (acc_of a h y v z (ft_forces (a_forcing_term a) z)).
  rewrite (proj1 F). cbn [fst snd]. unfold vadd, vscale. rewrite Hacc. auto.
Qed.

Hypothesis Hal : 0 < al.

Lemma Hk : 0 < k.
Proof. unfold k. apply Rmult_lt_0_compat; auto. apply Rinv_0_lt_compat. lra. Qed.

Lemma euler_gap c h s1 s2 : 0 <= c -> 0 < h -> k * h <= 1 / 2 ->
  gap_norm (euler_body a1 c h s1) (euler_body a2 c h s2)
  <= (1 - k * h / 2) * gap_norm s1 s2 + 3 * h * U.
Proof.
  intros Hc Hh Hx. destruct TW as [[F1 F2] [S1 S2] [G1 G2] [A1 A2] [B1 B2] _ _].
  destruct s1 as [y1 v1], s2 as [y2 v2].
  destruct (euler_body_explicit a1 c h y1 v1 F1 S1 G1 A1 B1) as [V1 Y1].
  destruct (euler_body_explicit a2 c h y2 v2 F2 S2 G2 A2 B2) as [V2 Y2].
  pose proof (dist_gap c Hc) as HU.
  unfold gap_norm, gap_e. rewrite V1, Y1, V2, Y2. cbn [fst snd].
  set (p := disturbance a1 (ft_phase (a_forcing_term a1) c) d / tau ^ 2) in *.
  set (q := disturbance a2 (ft_phase (a_forcing_term a2) c) d / tau ^ 2) in *.
  clearbody p q.
  pose proof (euler_norm_step k h ((y1 d - a_goal_y a1 d) - (y2 d - a_goal_y a2 d)) (v1 d - v2 d) (p - q)
    Hk Hh Hx) as HN. cbv zeta in HN.
  eapply Rle_trans; [|eapply Rle_trans; [exact HN|]].
  - apply Req_le. f_equal; ring.
  - apply Rplus_le_compat_l. apply Rmult_le_compat_l; lra.
Qed.

Lemma euler_substeps_gap : forall l lt t H s1 s2, 0 <= U -> 0 <= lt -> k * H <= 1 / 2 -> tiles lt t H l ->
  gap_norm (exec_substeps (euler_body a1) l s1) (exec_substeps (euler_body a2) l s2)
  <= exp (- (k * (t - lt) / 2)) * gap_norm s1 s2 + 3 * (t - lt) * U.
Proof.
  pose proof Hk as Hk.
  induction l as [|[c h] l IH]; intros lt t H s1 s2 HU0 Hlt HH Hti.
  - simpl in Hti. subst t. replace (- (k * (lt - lt) / 2)) with 0 by field. rewrite exp_0.
    unfold exec_substeps. simpl. lra.
  - simpl in Hti. destruct Hti as (Hh & -> & _ & Hti).
    change (exec_substeps (euler_body a1) ((lt + h, h) :: l) s1)
      with (exec_substeps (euler_body a1) l (euler_body a1 (lt + h) h s1)).
    change (exec_substeps (euler_body a2) ((lt + h, h) :: l) s2)
      with (exec_substeps (euler_body a2) l (euler_body a2 (lt + h) h s2)).
    eapply Rle_trans; [apply (IH (lt + h) t H); auto; lra|].
    assert (Hstep := euler_gap (lt + h) h s1 s2 ltac:(lra) (proj1 Hh)).
    assert (HHh : k * h <= 1 / 2) by (assert (k * h <= k * H) by nra; lra).
    specialize (Hstep HHh).
    pose proof (tiles_le _ _ _ _ Hti) as Hle.
    set (N := gap_norm s1 s2) in *.
    assert (HN : 0 <= N) by apply euler_norm_nonneg.
    pose proof (one_minus_le_exp (k * h / 2)) as He.
    pose proof (exp_pos (- (k * h / 2))).
    assert (He2 : exp (- (k * (t - (lt + h)) / 2)) <= 1).
    { rewrite <- exp_0. destruct (Req_dec t (lt + h)) as [->|Hne].
      - replace (- (k * (lt + h - (lt + h)) / 2)) with 0 by field. lra.
      - apply Rlt_le, exp_increasing. nra. }
    pose proof (exp_pos (- (k * (t - (lt + h)) / 2))) as Hpp.
    replace (exp (- (k * (t - lt) / 2)))
      with (exp (- (k * (t - (lt + h)) / 2)) * exp (- (k * h / 2)))
      by (rewrite <- exp_plus; f_equal; field).
    set (p := exp (- (k * (t - (lt + h)) / 2))) in *.
    set (q := exp (- (k * h / 2))) in *.
    assert (p * gap_norm (euler_body a1 (lt + h) h s1) (euler_body a2 (lt + h) h s2)
       <= p * (q * N + 3 * h * U)).
    { apply Rmult_le_compat_l; [lra|]. eapply Rle_trans; [exact Hstep|].
      apply Rplus_le_compat_r. apply Rmult_le_compat_r; auto. }
    assert (0 <= 3 * h * U) by (apply Rmult_le_pos; lra).
    assert (p * (3 * h * U) <= 3 * h * U) by nra.
    nra.
Qed.

(** *** Whole runs *)
Lemma twin_U : 0 <= U.
Proof.
  eapply Rle_trans; [|apply (dist_gap 0); lra]. apply Rabs_pos.
Qed.

Lemma rk4_run_gap dt s1 s2 : 0 < dt ->
  k * dt < 3 -> Rabs (rk4_factor (k * dt)) < 1 ->
  (forall j, s1 (S j) = dmp_step_rk4 a1 (0 + INR j * dt) (0 + INR (S j) * dt) (s1 j)) ->
  (forall j, s2 (S j) = dmp_step_rk4 a2 (0 + INR j * dt) (0 + INR (S j) * dt) (s2 j)) ->
  let r := Rabs (rk4_factor (k * dt)) in
  let W := Rabs (gap_w (s1 0%nat) (s2 0%nat)) + 6 * dt * U / (1 - r) in
  forall j, Rabs (gap_e (s1 j) (s2 j))
            <= Rabs (gap_e (s1 0%nat) (s2 0%nat)) + (13 * dt * W + 3 * dt ^ 2 * U) / (1 - r).
Proof.
  intros Hdt Hx3 HR H1 H2 r W. pose proof twin_U as HU. pose proof Hk as Hk.
  assert (Hr : 0 <= r < 1) by (split; [apply Rabs_pos|exact HR]).
  assert (Hx0 : 0 < k * dt) by nra.
  assert (Hstep : forall j,
     Rabs (gap_w (s1 (S j)) (s2 (S j))) <= r * Rabs (gap_w (s1 j) (s2 j)) + 6 * dt * U
     /\ Rabs (gap_e (s1 (S j)) (s2 (S j))) <= r * Rabs (gap_e (s1 j) (s2 j))
          + (13 * dt * Rabs (gap_w (s1 j) (s2 j)) + 3 * dt ^ 2 * U)).
  { intros j. rewrite H1, H2.
    assert (Eh : 0 + INR (S j) * dt - (0 + INR j * dt) = dt) by (rewrite S_INR; ring).
    pose proof (pos_INR (S j)).
    pose proof (rk4_gap (0 + INR j * dt) (0 + INR (S j) * dt) (s1 j) (s2 j)) as G.
    cbv zeta in G. rewrite Eh in G. apply G; auto. nra. }
  assert (HW : forall j, Rabs (gap_w (s1 j) (s2 j)) <= W).
  { intros j. apply (contraction_bounded (fun j => Rabs (gap_w (s1 j) (s2 j))) r (6 * dt * U) Hr).
    - apply Rmult_le_pos; lra.
    - apply Rabs_pos.
    - intros i. apply Hstep. }
  intros j.
  apply (contraction_bounded (fun j => Rabs (gap_e (s1 j) (s2 j))) r (13 * dt * W + 3 * dt ^ 2 * U) Hr).
  - assert (0 <= W) by (eapply Rle_trans; [apply Rabs_pos|apply (HW 0%nat)]).
    assert (0 <= dt ^ 2) by (apply pow_le; lra).
    apply Rplus_le_le_0_compat; apply Rmult_le_pos; lra.
  - apply Rabs_pos.
  - intros i. destruct (Hstep i) as [_ He]. specialize (HW i).
    assert (13 * dt * Rabs (gap_w (s1 i) (s2 i)) <= 13 * dt * W) by (apply Rmult_le_compat_l; lra).
    lra.
Qed.

Lemma euler_run_gap dt s1 s2 : 0 < dt ->
  k * a_int_dt a1 <= 1 / 2 ->
  (forall j, exists l, tiles (0 + INR j * dt) (0 + INR (S j) * dt) (a_int_dt a1) l
     /\ s1 (S j) = exec_substeps (euler_body a1) l (s1 j)
     /\ s2 (S j) = exec_substeps (euler_body a2) l (s2 j)) ->
  let q := exp (- (k * dt / 2)) in
  forall j, gap_norm (s1 j) (s2 j) <= gap_norm (s1 0%nat) (s2 0%nat) + 3 * dt * U / (1 - q).
Proof.
  intros Hdt Hx Hs q. pose proof twin_U as HU. pose proof Hk as Hk.
  assert (Hq : 0 <= q < 1).
  { unfold q. split; [apply Rlt_le, exp_pos|]. rewrite <- exp_0. apply exp_increasing. nra. }
  apply (contraction_bounded (fun j => gap_norm (s1 j) (s2 j)) q (3 * dt * U) Hq).
  - apply Rmult_le_pos; lra.
  - apply euler_norm_nonneg.
  - intros j. destruct (Hs j) as (l & Hl & E1 & E2). rewrite E1, E2.
    pose proof (pos_INR j).
    eapply Rle_trans; [apply (euler_substeps_gap l (0 + INR j * dt) (0 + INR (S j) * dt) (a_int_dt a1) (s1 j) (s2 j) HU); auto; nra|].
    replace (0 + INR (S j) * dt - (0 + INR j * dt)) with dt by (rewrite S_INR; ring). fold q. lra.
Qed.
End Twins.

(** Both runs use the same sub-steps. *)
Lemma run_seq_euler_twin fn a1 a2 dt x1 x2 :
  fn = Euler \/ fn = Euler_cython ->
  free a1 -> free a2 -> 0 < a_int_dt a1 -> a_int_dt a1 = a_int_dt a2 ->
  a_start_t a1 = 0 -> a_start_t a2 = 0 -> 0 < a_goal_t a1 -> 0 < a_goal_t a2 -> 0 < dt ->
  exists s1 s2, s1 0%nat = x1 /\ s2 0%nat = x2
  /\ (forall k, exists l, tiles (0 + INR k * dt) (0 + INR (S k) * dt) (a_int_dt a1) l
        /\ s1 (S k) = exec_substeps (euler_body a1) l (s1 k)
        /\ s2 (S k) = exec_substeps (euler_body a2) l (s2 k))
  /\ (forall k, run_seq (run_step_function fn a1) 0 dt x1 k = Ok (s1 k))
  /\ (forall k, run_seq (run_step_function fn a2) 0 dt x2 k = Ok (s2 k)).
Proof.
  intros Hfn F1 F2 Hi Ei S1 S2 G1 G2 Hdt.
  assert (Htot : forall k, exists l,
     tiles (0 + INR k * dt) (0 + INR (S k) * dt) (a_int_dt a1) l
     /\ forall a s, (a = a1 \/ a = a2) ->
        run_step_function fn a (0 + INR k * dt) (0 + INR (S k) * dt) s
        = Ok (exec_substeps (euler_body a) l s)).
  { intros k. pose proof (pos_INR k).
    destruct (substeps_tiles (0 + INR k * dt) (0 + INR (S k) * dt) (a_int_dt a1) Hi) as [l [Hti Hl']].
    { rewrite S_INR. nra. }
    exists l. split; auto. intros a s Ha.
    assert (Hf : free a) by (destruct Ha as [-> | ->]; auto).
    assert (Hs0 : a_start_t a = 0) by (destruct Ha as [-> | ->]; auto).
    assert (Hg0 : 0 < a_goal_t a) by (destruct Ha as [-> | ->]; auto).
    assert (Hia : a_int_dt a = a_int_dt a1) by (destruct Ha as [-> | ->]; auto).
    assert (E : dmp_step_euler a (0 + INR k * dt) (0 + INR (S k) * dt) s
                = Ok (exec_substeps (euler_body a) l s)).
    { unfold dmp_step_euler. destruct (Rle_dec (a_goal_t a) (a_start_t a)); [lra|].
      destruct (Rle_dec _ (a_start_t a)) as [Hle|]; [rewrite Hs0, S_INR in Hle; nra|].
      rewrite Hia. apply Hl'. }
    destruct Hfn as [-> | ->]; cbn [run_step_function]; auto.
    rewrite euler_steps_agree; auto.
    - rewrite Hia. exact Hi.
    - rewrite Hs0, S_INR. nra.
    - destruct Hf as (H1 & _ & _). congruence.
    - intros _ dd. unfold precomputed_cd. destruct Hf as (_ & -> & _). reflexivity. }
  set (sq := fun a x => fix s k := match k with
    | O => x
    | S k' => match run_step_function fn a (0 + INR k' * dt) (0 + INR (S k') * dt) (s k') with
              | Ok y => y | Err _ => s k' end end).
  assert (HS : forall a x k, sq a x (S k) = match run_step_function fn a (0 + INR k * dt) (0 + INR (S k) * dt) (sq a x k)
      with Ok y => y | Err _ => sq a x k end) by reflexivity.
  exists (sq a1 x1), (sq a2 x2). split; [reflexivity|]. split; [reflexivity|]. split.
  - intros k. destruct (Htot k) as [l [Hl E]]. exists l. split; auto.
    rewrite !HS, !E by auto. auto.
  - split; induction k as [|k IH]; try reflexivity; cbn [run_seq]; rewrite IH; cbn [bind];
      destruct (Htot k) as [l [Hl E]]; rewrite HS, E by auto; reflexivity.
Qed.

(** *** The list of states of a run *)
Lemma run_steps_seq step st dt (s : nat -> vec * vec) :
  (forall k, step (st + INR k * dt) (st + INR (S k) * dt) (s k) = Ok (s (S k))) ->
  forall n k, run_steps step (st + INR k * dt) (map (fun i => st + INR i * dt) (seq (S k) n)) (s k)
              = Ok (map s (seq (S k) n)).
Proof.
  intros Hs. induction n as [|n IH]; intros k; [reflexivity|].
  cbn [seq map run_steps]. rewrite Hs. cbn [bind]. rewrite (IH (S k)). reflexivity.
Qed.

Lemma open_loop_run_map step st rt dt y v (s : nat -> vec * vec) :
  (forall k, run_seq step st dt (y, v) k = Ok (s k)) ->
  open_loop_run step st rt dt y v
  = match arange st (rt + dt) dt with
    | [] => Err IndexError
    | ts => Ok (ts, map s (seq 0 (length ts)))
    end.
Proof.
  intros Hs. unfold open_loop_run, arange.
  destruct (arange_len st (rt + dt) dt) as [|n]; [reflexivity|]. cbn [seq map length].
  assert (E0 : s 0%nat = (y, v)) by (specialize (Hs 0%nat); cbn in Hs; congruence).
  assert (Hstep : forall k, step (st + INR k * dt) (st + INR (S k) * dt) (s k) = Ok (s (S k))).
  { intros k. pose proof (Hs (S k)) as H. cbn [run_seq] in H. rewrite Hs in H. exact H. }
  rewrite <- E0, (run_steps_seq step st dt s Hstep n 0). cbn [bind].
  rewrite map_length, seq_length, E0. reflexivity.
Qed.
