(** Runs whose goal is moved before every step (C133). *)
From Coq Require Import Reals ZArith List Lia Lra Psatz FunctionalExtensionality.
From Coquelicot Require Import Complex.
From Verif Require Import M_Prelude M_Canonical M_Forcing M_Dmp S_Loops S_Dmp S_Stability
  P_Loops P_Canonical P_Forcing P_DmpStep P_DmpScale P_DmpLinear P_Converge P_Disturbed P_Stability P_Bounded
  P_DisturbedAll.
Import ListNotations.
Open Scope R_scope.
Set Bullet Behavior "Strict Subproofs".

(** The arguments of step [k]: undisturbed, with the goal [g k]. *)
Record moving_args (a : nat -> dmp_args) (d : nat) (f : forcing_term) (g : nat -> R) (al be tau M : R) : Prop := {
  mo_pre : forall k, a_precomputed (a k) = None;
  mo_start : forall k, a_start_t (a k) = 0;
  mo_goal_t : forall k, a_goal_t (a k) = tau;
  mo_alpha : forall k, a_alpha_y (a k) d = al;
  mo_beta : forall k, a_beta_y (a k) d = be;
  mo_goal : forall k, a_goal_y (a k) d = g k;
  mo_ft : forall k, a_forcing_term (a k) = f;
  mo_dist : forall k z, 0 <= z -> Rabs (disturbance (a k) z d) <= M * z;
  mo_te : forall k, tracking_error_or_zero (a_tracking_error (a k)) d = 0;
  mo_coupling : forall k, a_coupling_term (a k) = None }.

Lemma phase_below f M tau t0 dt : phase_ok f -> 0 < dt -> 0 < tau -> 0 <= M ->
  let b := fun k => M / tau ^ 2 * ft_phase f (t0 + INR k * dt) in
  vanishes b /\ (forall k, 0 <= b k)
  /\ (forall k c x, t0 + INR k * dt <= c -> Rabs x <= M * ft_phase f c -> Rabs x / tau ^ 2 <= b k).
Proof.
  intros Hph Hdt Htau HM b.
  destruct (phase_input f (fun z => M * z) M tau t0 dt Hph Hdt Htau HM) as (H1 & H2 & H3).
  { intros z Hz. rewrite Rabs_pos_eq; [lra|now apply Rmult_le_pos]. }
  split; [exact H1|]. split; [exact H2|]. intros k c x Hc Hx.
  apply Rle_trans with (2 := H3 k c Hc). apply Rmult_le_compat_r; [apply Rlt_le, Rinv_0_lt_compat; nra|].
  rewrite (Rabs_pos_eq (M * _)); [exact Hx|]. apply Rmult_le_pos; auto. apply Rlt_le, ft_phase_pos.
Qed.

Lemma rk4_moving_run dt al be tau : 0 < dt -> 0 < tau ->
  rk4_shrinks dt (al / tau) (al * be / tau ^ 2) ->
  exists K, 0 <= K /\ forall a d f g D M t0 s,
  moving_args a d f g al be tau M -> phase_ok f -> 0 <= D -> 0 <= M ->
  eventually_below (fun k => g k - g (S k)) D ->
  (forall k, s (S k) = dmp_step_rk4 (a k) (t0 + INR k * dt) (t0 + INR (S k) * dt) (s k)) ->
  eventually_below (fun k => fst (s k) d - g k) (K * D)
  /\ eventually_below (fun k => snd (s k) d) (K * D).
Proof.
  intros Hdt Htau Hsh. set (c := al / tau) in *. set (kk := al * be / tau ^ 2) in *.
  destruct (rk4_eventually dt c kk Hsh) as (K & HK & H). exists K. split; auto.
  set (Z := stage_factor dt c kk).
  assert (Ht2 : 0 < tau ^ 2) by nra.
  assert (HZ : 0 <= Z ^ 3).
  { apply pow_le; unfold Z, stage_factor; pose proof (Rabs_pos (dt * c)). pose proof (Rabs_pos (dt ^ 2 * kk)). lra. }
  intros a d f g D M t0 s A Hph HD HM Hg Hs. destruct A as [m_pre m_start m_goal_t m_al m_be m_goal m_ft m_dist m_te m_c].
  destruct (phase_below f M tau t0 dt Hph Hdt Htau HM) as (Hbv & Hb0 & Hb).
  set (b := fun k => M / tau ^ 2 * ft_phase f (t0 + INR k * dt)) in *.
  change (forall k, 0 <= b k) in Hb0.
  change (forall k c x, t0 + INR k * dt <= c -> Rabs x <= M * ft_phase f c -> Rabs x / tau ^ 2 <= b k) in Hb.
  assert (Hstep : forall k, exists pq,
     Rabs (fst pq) <= dt ^ 2 * Z ^ 3 * b k /\ Rabs (snd pq) <= 2 * dt * Z ^ 3 * b k
     /\ fst (s (S k)) d - g k = ra dt c kk * (fst (s k) d - g k) + rb dt c kk * dt * snd (s k) d + fst pq
     /\ snd (s (S k)) d = - rb dt c kk * dt * kk * (fst (s k) d - g k)
          + (ra dt c kk - rb dt c kk * dt * c) * snd (s k) d + snd pq).
  { intros k. rewrite Hs. destruct (s k) as [y v] eqn:Es. cbn [fst snd].
    pose proof (rk4_inputs (a k) (t0 + INR k * dt) (t0 + INR (S k) * dt) y v d (b k) 0) as HT.
    cbv zeta in HT. unfold damping, stiffness in HT.
    rewrite m_goal_t, m_start, m_al, m_be, m_goal, m_ft in HT.
    rewrite Rminus_0_r in HT. fold c kk in HT.
    replace (t0 + INR (S k) * dt - (t0 + INR k * dt)) with dt in HT by (rewrite S_INR; ring).
    fold Z in HT. destruct HT as (p & q & HT); auto.
    - intros Y V z Hz. unfold coupling_acc. rewrite m_c, m_te. unfold vzero.
      replace (disturbance (a k) (ft_phase f z) d + 0 + a_p_gain (a k) * 0 / dt)
        with (disturbance (a k) (ft_phase f z) d) by (field; lra).
      rewrite Rabs_div_pos by auto. apply Hb with z; [rewrite S_INR in Hz; lra|].
      apply m_dist. apply Rlt_le, ft_phase_pos.
    - intros Y V. unfold coupling_vel. rewrite m_c. unfold vzero, Rdiv. rewrite Rmult_0_l, Rabs_R0. lra.
    - exists (p, q). rewrite Rplus_0_r in HT. exact HT. }
  set (pq := fun k => (fst (s (S k)) d - g k - (ra dt c kk * (fst (s k) d - g k) + rb dt c kk * dt * snd (s k) d),
    snd (s (S k)) d - (- rb dt c kk * dt * kk * (fst (s k) d - g k) + (ra dt c kk - rb dt c kk * dt * c) * snd (s k) d))).
  assert (Hpq : forall k, Rabs (fst (pq k)) <= dt ^ 2 * Z ^ 3 * b k /\ Rabs (snd (pq k)) <= 2 * dt * Z ^ 3 * b k).
  { intros k. destruct (Hstep k) as ((p & q) & P1 & P2 & P3 & P4). unfold pq. cbn [fst snd] in *.
    rewrite P3, P4.
    split; [refine (Rle_trans _ _ _ _ P1)|refine (Rle_trans _ _ _ _ P2)]; right; f_equal; ring. }
  assert (Hvan : forall w u, 0 <= w -> (forall k, Rabs (u k) <= w * b k) -> eventually_below u 0).
  { intros w u Hw Hu. apply (eventually_below_le _ (fun k => w * b k)).
    - intros k. rewrite (Rabs_pos_eq (w * b k)); [apply Hu|]. apply Rmult_le_pos; auto.
    - rewrite <- (Rmult_0_r w). apply eventually_below_scal; auto. now apply eventually_below_vanishes. }
  assert (W1 : 0 <= dt ^ 2 * Z ^ 3) by (apply Rmult_le_pos; nra).
  assert (W2 : 0 <= 2 * dt * Z ^ 3) by (apply Rmult_le_pos; lra).
  apply (H (fun k => fst (s k) d - g k) (fun k => snd (s k) d) (fun k => fst (pq k) + (g k - g (S k)))
           (fun k => snd (pq k)) D); auto.
  - intros k. unfold pq. cbn [fst snd]. ring.
  - intros k. unfold pq. cbn [fst snd]. ring.
  - rewrite <- (Rplus_0_l D). apply eventually_below_plus; [|exact Hg].
    apply (Hvan _ _ W1). intros k. apply Hpq.
  - apply (eventually_below_mono _ 0); auto. apply (Hvan _ _ W2). intros k. apply Hpq.
Qed.

Lemma euler_moving_run dt int_dt h al be tau : 0 < dt -> 0 < int_dt -> 0 < tau ->
  substep_length dt int_dt h -> euler_shrinks h (al / tau) (al * be / tau ^ 2) ->
  exists K, 0 <= K /\ forall fn a d f g D M t0 s,
  fn = Euler \/ fn = Euler_cython ->
  moving_args a d f g al be tau M -> (forall k, a_int_dt (a k) = int_dt) ->
  phase_ok f -> 0 <= D -> 0 <= M -> 0 <= t0 ->
  eventually_below (fun k => g k - g (S k)) D ->
  (forall k, run_step_function fn (a k) (t0 + INR k * dt) (t0 + INR (S k) * dt) (s k) = Ok (s (S k))) ->
  eventually_below (fun k => fst (s k) d - g k) (K * D)
  /\ eventually_below (fun k => snd (s k) d) (K * D).
Proof.
  intros Hdt Hi Htau Hsub Hsh. set (c := al / tau) in *. set (kk := al * be / tau ^ 2) in *.
  destruct (equal_tiles dt int_dt h Hdt Hi Hsub) as (m & Hm & Em & Hh & Htl).
  destruct (euler_eventually h c kk Hsh) as (K & HK & H). exists K. split; auto.
  assert (Ht2 : 0 < tau ^ 2) by nra.
  intros fn a d f g D M t0 s Hfn A Hint Hph HD HM Ht0 Hg Hs.
  destruct A as [m_pre m_start m_goal_t m_al m_be m_goal m_ft m_dist m_te m_c].
  destruct (phase_below f M tau t0 h Hph Hh Htau HM) as (Hbv & Hb0 & Hb).
  set (b := fun k => M / tau ^ 2 * ft_phase f (t0 + INR k * h)) in *.
  change (forall k, 0 <= b k) in Hb0.
  change (forall k c x, t0 + INR k * h <= c -> Rabs x <= M * ft_phase f c -> Rabs x / tau ^ 2 <= b k) in Hb.
  set (r := all_substates (fun k => euler_fn_body fn (a k)) m t0 h (s 0%nat)).
  assert (Er : forall k, s k = r (k * m)%nat).
  { induction k as [|k IH]; [reflexivity|].
    pose proof (pos_INR k) as HIk.
    destruct (euler_fn_disturbed fn (a k) (t0 + INR k * dt) (t0 + INR (S k) * dt) (s k)) as (l & Hl & E); auto.
    { rewrite Hint; auto. } { rewrite m_start, m_goal_t; auto. }
    { rewrite m_start, S_INR. nra. } { rewrite S_INR. lra. }
    rewrite Hint in Hl. apply Htl in Hl; [|rewrite S_INR; ring].
    rewrite Hs in E. injection E as ->. rewrite IH. subst l.
    replace (t0 + INR k * dt) with (t0 + INR (k * m) * h) by (rewrite mult_INR, Em; ring).
    unfold r. rewrite (all_substates_step (fun k => euler_fn_body fn (a k)) m t0 h (s 0%nat) k m) by lia.
    f_equal. lia. }
  set (G := fun j => g (j / m)%nat).
  assert (HG : eventually_below (fun j => G j - G (S j)) D).
  { intros eps He. destruct (Hg eps He) as [N HN]. exists (N * m)%nat. intros j Hj. unfold G.
    assert (Hq : (N <= j / m)%nat) by (apply Nat.div_le_lower_bound; lia).
    assert (Hq' : (S j / m = j / m \/ S j / m = S (j / m))%nat).
    { pose proof (Nat.div_le_mono j (S j) m ltac:(lia) ltac:(lia)).
      assert (S j / m <= S (j / m))%nat; [|lia].
      apply Nat.div_le_upper_bound; [lia|]. pose proof (Nat.div_mod j m ltac:(lia)).
      pose proof (Nat.mod_upper_bound j m ltac:(lia)). nia. }
    destruct Hq' as [-> | ->].
    - replace (g (j / m)%nat - g (j / m)%nat) with 0 by ring. rewrite Rabs_R0. lra.
    - apply HN. exact Hq. }
  assert (Hstep : forall j, exists pq,
     Rabs (fst pq) <= h ^ 2 * b j /\ Rabs (snd pq) <= h * b j
     /\ fst (r (S j)) d - G j = (1 - h ^ 2 * kk) * (fst (r j) d - G j) + h * (1 - h * c) * snd (r j) d + fst pq
     /\ snd (r (S j)) d = - h * kk * (fst (r j) d - G j) + (1 - h * c) * snd (r j) d + snd pq).
  { intros j. unfold G. set (k := (j / m)%nat).
    change (r (S j)) with (euler_fn_body fn (a k) (t0 + INR (S j) * h) h (r j)).
    pose proof (euler_inputs fn (a k) (t0 + INR (S j) * h) h (r j) d (b j) 0 Hfn (m_pre k)) as HT.
    cbv zeta in HT. unfold damping, stiffness in HT.
    rewrite m_goal_t, m_start, m_al, m_be, m_goal, m_ft in HT.
    rewrite Rminus_0_r in HT. fold c kk in HT.
    destruct HT as (p & q & HT); auto.
    - intros Y V. unfold coupling_acc. rewrite m_c. unfold vzero. rewrite Rplus_0_r, Rabs_div_pos by auto.
      apply Hb with (t0 + INR (S j) * h); [rewrite S_INR; nra|]. apply m_dist. apply Rlt_le, ft_phase_pos.
    - intros Y V. unfold coupling_vel. rewrite m_c, m_te. unfold vzero, Rdiv.
      rewrite Rmult_0_r, !Rmult_0_l, Rabs_R0. lra.
    - exists (p, q). rewrite Rmult_0_r, !Rplus_0_r in HT. exact HT. }
  set (pq := fun k => (fst (r (S k)) d - G k - ((1 - h ^ 2 * kk) * (fst (r k) d - G k) + h * (1 - h * c) * snd (r k) d),
    snd (r (S k)) d - (- h * kk * (fst (r k) d - G k) + (1 - h * c) * snd (r k) d))).
  assert (Hpq : forall k, Rabs (fst (pq k)) <= h ^ 2 * b k /\ Rabs (snd (pq k)) <= h * b k).
  { intros k. destruct (Hstep k) as ((p & q) & P1 & P2 & P3 & P4). unfold pq. cbn [fst snd] in *.
    rewrite P3, P4.
    split; [refine (Rle_trans _ _ _ _ P1)|refine (Rle_trans _ _ _ _ P2)]; right; f_equal; ring. }
  assert (Hvan : forall w u, 0 <= w -> (forall k, Rabs (u k) <= w * b k) -> eventually_below u 0).
  { intros w u Hw Hu. apply (eventually_below_le _ (fun k => w * b k)).
    - intros k. rewrite (Rabs_pos_eq (w * b k)); [apply Hu|]. apply Rmult_le_pos; auto.
    - rewrite <- (Rmult_0_r w). apply eventually_below_scal; auto. now apply eventually_below_vanishes. }
  assert (HR : eventually_below (fun j => fst (r j) d - G j) (K * D)
               /\ eventually_below (fun j => snd (r j) d) (K * D)).
  { apply (H _ _ (fun k => fst (pq k) + (G k - G (S k))) (fun k => snd (pq k)) D); auto.
    - intros k. unfold pq. cbn [fst snd]. ring.
    - intros k. unfold pq. cbn [fst snd]. ring.
    - rewrite <- (Rplus_0_l D). apply eventually_below_plus; [|exact HG].
      apply (Hvan (h ^ 2)); [nra|]. intros k. apply Hpq.
    - apply (eventually_below_mono _ 0); auto. apply (Hvan h); [lra|]. intros k. apply Hpq. }
  destruct HR as [R1 R2]. split; intros eps He.
  - destruct (R1 eps He) as [N HN]. exists N. intros k Hk. rewrite Er.
    specialize (HN (k * m)%nat ltac:(nia)). unfold G in HN. now rewrite Nat.div_mul in HN by lia.
  - destruct (R2 eps He) as [N HN]. exists N. intros k Hk. rewrite Er. apply HN. nia.
Qed.
