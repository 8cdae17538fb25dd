(** Runs in which every step begins at a measured state (C94 for CartesianDMP). *)
From Coq Require Import Reals ZArith List Lia Lra Psatz FunctionalExtensionality.
From Coquelicot Require Import Complex.
From Verif Require Import M_Prelude M_Canonical M_Forcing M_Dmp S_Loops S_Dmp S_Stability
  P_Loops P_Canonical P_Forcing P_DmpStep P_DmpScale P_DmpLinear P_Converge P_Disturbed P_Stability P_Bounded
  P_DisturbedAll P_Moving.
Import ListNotations.
Open Scope R_scope.
Set Bullet Behavior "Strict Subproofs".

(** Step [k] begins at [x k] and returns [s (S k)]. *)
Lemma rk4_sensed_run dt al be tau : 0 < dt -> 0 < tau ->
  rk4_shrinks dt (al / tau) (al * be / tau ^ 2) ->
  exists K, 0 <= K /\ forall a d f g B M t0 s x,
  moving_args a d f (fun _ => g) al be tau M -> phase_ok f -> 0 <= B -> 0 <= M ->
  eventually_below (fun k => fst (x (S k)) d - fst (s (S k)) d) B ->
  eventually_below (fun k => snd (x (S k)) d - snd (s (S k)) d) B ->
  (forall k, s (S k) = dmp_step_rk4 (a k) (t0 + INR k * dt) (t0 + INR (S k) * dt) (x k)) ->
  eventually_below (fun k => fst (x k) d - g) (K * B)
  /\ eventually_below (fun k => snd (x k) d) (K * B).
Proof.
  intros Hdt Htau Hsh. set (c := al / tau) in *. set (kk := al * be / tau ^ 2) in *.
  destruct (rk4_eventually dt c kk Hsh) as (K & HK & H). exists K. split; auto.
  set (Z := stage_factor dt c kk).
  assert (Ht2 : 0 < tau ^ 2) by nra.
  intros a d f g B M t0 s x A Hph HB HM Hp Hv Hs.
  destruct A as [m_pre m_start m_goal_t m_al m_be m_goal m_ft m_dist m_te m_c].
  destruct (phase_below f M tau t0 dt Hph Hdt Htau HM) as (Hbv & Hb0 & Hb).
  set (b := fun k => M / tau ^ 2 * ft_phase f (t0 + INR k * dt)) in *.
  change (forall k, 0 <= b k) in Hb0.
  change (forall k c x, t0 + INR k * dt <= c -> Rabs x <= M * ft_phase f c -> Rabs x / tau ^ 2 <= b k) in Hb.
  assert (HZ : 0 <= Z ^ 3).
  { apply pow_le. unfold Z, stage_factor.
    pose proof (Rabs_pos (dt * c)). pose proof (Rabs_pos (dt ^ 2 * kk)). lra. }
  assert (Hstep : forall k, exists pq,
     Rabs (fst pq) <= dt ^ 2 * Z ^ 3 * b k /\ Rabs (snd pq) <= 2 * dt * Z ^ 3 * b k
     /\ fst (s (S k)) d - g = ra dt c kk * (fst (x k) d - g) + rb dt c kk * dt * snd (x k) d + fst pq
     /\ snd (s (S k)) d = - rb dt c kk * dt * kk * (fst (x k) d - g)
          + (ra dt c kk - rb dt c kk * dt * c) * snd (x k) d + snd pq).
  { intros k. rewrite Hs. destruct (x k) as [y v] eqn:Es. cbn [fst snd].
    pose proof (rk4_inputs (a k) (t0 + INR k * dt) (t0 + INR (S k) * dt) y v d (b k) 0) as HT.
    cbv zeta in HT. unfold damping, stiffness in HT.
    rewrite m_goal_t, m_start, m_al, m_be, m_goal, m_ft in HT.
    rewrite Rminus_0_r in HT. fold c kk in HT.
    replace (t0 + INR (S k) * dt - (t0 + INR k * dt)) with dt in HT by (rewrite S_INR; ring).
    fold Z in HT. destruct HT as (p & q & HT); auto.
    - intros Y V z Hz. unfold coupling_acc. rewrite m_c, m_te. unfold vzero.
      replace (disturbance (a k) (ft_phase f z) d + 0 + a_p_gain (a k) * 0 / dt)
        with (disturbance (a k) (ft_phase f z) d) by (field; lra).
      rewrite Rabs_div_pos by auto. apply Hb with z; [rewrite S_INR in Hz; lra|].
      apply m_dist. apply Rlt_le, ft_phase_pos.
    - intros Y V. unfold coupling_vel. rewrite m_c. unfold vzero, Rdiv. rewrite Rmult_0_l, Rabs_R0. lra.
    - exists (p, q). rewrite Rplus_0_r in HT. exact HT. }
  set (pq := fun k => (fst (s (S k)) d - g - (ra dt c kk * (fst (x k) d - g) + rb dt c kk * dt * snd (x k) d),
    snd (s (S k)) d - (- rb dt c kk * dt * kk * (fst (x k) d - g) + (ra dt c kk - rb dt c kk * dt * c) * snd (x k) d))).
  assert (Hpq : forall k, Rabs (fst (pq k)) <= dt ^ 2 * Z ^ 3 * b k /\ Rabs (snd (pq k)) <= 2 * dt * Z ^ 3 * b k).
  { intros k. destruct (Hstep k) as ((p & q) & P1 & P2 & P3 & P4). unfold pq. cbn [fst snd] in *.
    rewrite P3, P4.
    split; [refine (Rle_trans _ _ _ _ P1)|refine (Rle_trans _ _ _ _ P2)]; right; f_equal; ring. }
  assert (Hvan : forall w u, 0 <= w -> (forall k, Rabs (u k) <= w * b k) -> eventually_below u 0).
  { intros w u Hw Hu. apply (eventually_below_le _ (fun k => w * b k)).
    - intros k. rewrite (Rabs_pos_eq (w * b k)); [apply Hu|]. apply Rmult_le_pos; auto.
    - rewrite <- (Rmult_0_r w). apply eventually_below_scal; auto. now apply eventually_below_vanishes. }
  assert (W1 : 0 <= dt ^ 2 * Z ^ 3) by (apply Rmult_le_pos; nra).
  assert (W2 : 0 <= 2 * dt * Z ^ 3) by (apply Rmult_le_pos; lra).
  apply (H (fun k => fst (x k) d - g) (fun k => snd (x k) d)
           (fun k => fst (pq k) + (fst (x (S k)) d - fst (s (S k)) d))
           (fun k => snd (pq k) + (snd (x (S k)) d - snd (s (S k)) d)) B); auto.
  - intros k. unfold pq. cbn [fst snd]. ring.
  - intros k. unfold pq. cbn [fst snd]. ring.
  - rewrite <- (Rplus_0_l B). apply eventually_below_plus; [|exact Hp].
    apply (Hvan _ _ W1). intros k. apply Hpq.
  - rewrite <- (Rplus_0_l B). apply eventually_below_plus; [|exact Hv].
    apply (Hvan _ _ W2). intros k. apply Hpq.
Qed.

(** The states between the measurements: sub-step [j] belongs to step [j / m]. *)
Definition between (body : nat -> R -> R -> vec * vec -> vec * vec) (m : nat) (t0 h : R) (x : nat -> vec * vec) (j : nat)
  : vec * vec :=
  exec_substeps (body (j / m)%nat)
    (map (fun i => (t0 + INR (j / m * m) * h + INR i * h, h)) (seq 1 (j mod m))) (x (j / m)%nat).

Lemma between_next body m t0 h x j : (0 < m)%nat ->
  body (j / m)%nat (t0 + INR (S j) * h) h (between body m t0 h x j)
  = exec_substeps (body (j / m)%nat)
      (map (fun i => (t0 + INR (j / m * m) * h + INR i * h, h)) (seq 1 (S (j mod m)))) (x (j / m)%nat).
Proof.
  intros Hm. rewrite seq_S, map_app. unfold exec_substeps. rewrite fold_left_app.
  cbn [map fold_left fst snd]. unfold between, exec_substeps. f_equal.
  replace (1 + j mod m)%nat with (S (j mod m)) by lia.
  pose proof (Nat.div_mod j m ltac:(lia)) as E.
  replace (INR (S j)) with (INR (j / m * m) + INR (S (j mod m))); [ring|].
  rewrite <- plus_INR. f_equal. lia.
Qed.

Lemma euler_sensed_run dt int_dt h al be tau : 0 < dt -> 0 < int_dt -> 0 < tau ->
  substep_length dt int_dt h -> euler_shrinks h (al / tau) (al * be / tau ^ 2) ->
  exists K, 0 <= K /\ forall fn a d f g B M t0 s x,
  fn = Euler \/ fn = Euler_cython ->
  moving_args a d f (fun _ => g) al be tau M -> (forall k, a_int_dt (a k) = int_dt) ->
  phase_ok f -> 0 <= B -> 0 <= M -> 0 <= t0 ->
  eventually_below (fun k => fst (x (S k)) d - fst (s (S k)) d) B ->
  eventually_below (fun k => snd (x (S k)) d - snd (s (S k)) d) B ->
  (forall k, run_step_function fn (a k) (t0 + INR k * dt) (t0 + INR (S k) * dt) (x k) = Ok (s (S k))) ->
  eventually_below (fun k => fst (x k) d - g) (K * B)
  /\ eventually_below (fun k => snd (x k) d) (K * B).
Proof.
  intros Hdt Hi Htau Hsub Hsh. set (c := al / tau) in *. set (kk := al * be / tau ^ 2) in *.
  destruct (equal_tiles dt int_dt h Hdt Hi Hsub) as (m & Hm & Em & Hh & Htl).
  destruct (euler_eventually h c kk Hsh) as (K & HK & H). exists K. split; auto.
  assert (Ht2 : 0 < tau ^ 2) by nra.
  intros fn a d f g B M t0 s x Hfn A Hint Hph HB HM Ht0 Hp Hv Hs.
  destruct A as [m_pre m_start m_goal_t m_al m_be m_goal m_ft m_dist m_te m_c].
  destruct (phase_below f M tau t0 h Hph Hh Htau HM) as (Hbv & Hb0 & Hb).
  set (b := fun k => M / tau ^ 2 * ft_phase f (t0 + INR k * h)) in *.
  change (forall k, 0 <= b k) in Hb0.
  change (forall k c x, t0 + INR k * h <= c -> Rabs x <= M * ft_phase f c -> Rabs x / tau ^ 2 <= b k) in Hb.
  set (body := fun k => euler_fn_body fn (a k)).
  set (r := between body m t0 h x).
  assert (Er : forall k, x k = r (k * m)%nat).
  { intros k. unfold r, between. rewrite Nat.div_mul, Nat.mod_mul by lia. reflexivity. }
  assert (Es : forall k, s (S k) = exec_substeps (body k)
      (map (fun i => (t0 + INR (k * m) * h + INR i * h, h)) (seq 1 m)) (x k)).
  { intros k. pose proof (pos_INR k) as HIk.
    destruct (euler_fn_disturbed fn (a k) (t0 + INR k * dt) (t0 + INR (S k) * dt) (x k)) as (l & Hl & E); auto.
    { rewrite Hint; auto. } { rewrite m_start, m_goal_t; auto. }
    { rewrite m_start, S_INR. nra. } { rewrite S_INR. lra. }
    rewrite Hint in Hl. apply Htl in Hl; [|rewrite S_INR; ring].
    rewrite Hs in E. injection E as ->. subst l.
    replace (t0 + INR k * dt) with (t0 + INR (k * m) * h) by (rewrite mult_INR, Em; ring). reflexivity. }
  (* What the measurements add after sub-step [j]. *)
  set (w := fun j => let z := body (j / m)%nat (t0 + INR (S j) * h) h (r j) in
     (fst (r (S j)) d - fst z d, snd (r (S j)) d - snd z d)).
  assert (Hw : forall j, w j = (0, 0) \/ (S (j / m) * m = S j)%nat /\
     w j = (fst (x (S (j / m))) d - fst (s (S (j / m))) d, snd (x (S (j / m))) d - snd (s (S (j / m))) d)).
  { intros j. pose proof (between_next body m t0 h x j Hm) as Hz. fold r in Hz.
    unfold w. cbv zeta. rewrite Hz. clear Hz.
    pose proof (Nat.div_mod j m ltac:(lia)) as E. pose proof (Nat.mod_upper_bound j m ltac:(lia)) as U.
    destruct (Nat.eq_dec (S (j mod m)) m) as [El|El].
    - right. assert (E1 : (S (j / m) * m = S j)%nat) by nia. split; [exact E1|].
      rewrite El, <- Es, Er, E1. reflexivity.
    - left. unfold r, between.
      assert (E1 : (S j / m = j / m)%nat) by (symmetry; apply Nat.div_unique with (S (j mod m)); lia).
      assert (E2 : (S j mod m = S (j mod m))%nat) by (symmetry; apply Nat.mod_unique with (j / m)%nat; lia).
      rewrite E1, E2. f_equal; ring. }
  assert (Hw12 : eventually_below (fun j => fst (w j)) B /\ eventually_below (fun j => snd (w j)) B).
  { split; intros eps He; [destruct (Hp eps He) as [N HN]|destruct (Hv eps He) as [N HN]]; exists (N * m)%nat; intros j Hj;
    (assert (Hq : (N <= j / m)%nat) by (apply Nat.div_le_lower_bound; lia));
    destruct (Hw j) as [E|[_ E]]; rewrite E; cbn [fst snd]; try (rewrite Rabs_R0; lra); apply HN; exact Hq. }
  destruct Hw12 as [Hw1 Hw2].
  assert (Hstep : forall j, exists pq,
     Rabs (fst pq) <= h ^ 2 * b j /\ Rabs (snd pq) <= h * b j
     /\ fst (r (S j)) d - g = (1 - h ^ 2 * kk) * (fst (r j) d - g) + h * (1 - h * c) * snd (r j) d + fst pq + fst (w j)
     /\ snd (r (S j)) d = - h * kk * (fst (r j) d - g) + (1 - h * c) * snd (r j) d + snd pq + snd (w j)).
  { intros j. unfold w. cbv zeta. set (k := (j / m)%nat). unfold body. cbn [fst snd].
    pose proof (euler_inputs fn (a k) (t0 + INR (S j) * h) h (r j) d (b j) 0 Hfn (m_pre k)) as HT.
    cbv zeta in HT. unfold damping, stiffness in HT.
    rewrite m_goal_t, m_start, m_al, m_be, m_goal, m_ft in HT.
    rewrite Rminus_0_r in HT. fold c kk in HT.
    destruct HT as (p & q & HT); auto.
    - intros Y V. unfold coupling_acc. rewrite m_c. unfold vzero. rewrite Rplus_0_r, Rabs_div_pos by auto.
      apply Hb with (t0 + INR (S j) * h); [rewrite S_INR; nra|]. apply m_dist. apply Rlt_le, ft_phase_pos.
    - intros Y V. unfold coupling_vel. rewrite m_c, m_te. unfold vzero, Rdiv.
      rewrite Rmult_0_r, !Rmult_0_l, Rabs_R0. lra.
    - rewrite Rmult_0_r, !Rplus_0_r in HT. cbv beta in HT. destruct HT as (P1 & P2 & P3 & P4).
      exists (p, q). change (fst (p, q)) with p. change (snd (p, q)) with q. split; [exact P1|]. split; [exact P2|]. split.
      + transitivity (fst (euler_fn_body fn (a k) (t0 + INR (S j) * h) h (r j)) d - g
          + (fst (r (S j)) d - fst (euler_fn_body fn (a k) (t0 + INR (S j) * h) h (r j)) d)); [ring|].
        f_equal. exact P3.
      + transitivity (snd (euler_fn_body fn (a k) (t0 + INR (S j) * h) h (r j)) d
          + (snd (r (S j)) d - snd (euler_fn_body fn (a k) (t0 + INR (S j) * h) h (r j)) d)); [ring|].
        f_equal. exact P4. }
  set (pq := fun k => (fst (r (S k)) d - g - ((1 - h ^ 2 * kk) * (fst (r k) d - g) + h * (1 - h * c) * snd (r k) d) - fst (w k),
    snd (r (S k)) d - (- h * kk * (fst (r k) d - g) + (1 - h * c) * snd (r k) d) - snd (w k))).
  assert (Hpq : forall k, Rabs (fst (pq k)) <= h ^ 2 * b k /\ Rabs (snd (pq k)) <= h * b k).
  { intros k. destruct (Hstep k) as ((p & q) & P1 & P2 & P3 & P4). unfold pq. cbn [fst snd] in *.
    rewrite P3, P4.
    split; [refine (Rle_trans _ _ _ _ P1)|refine (Rle_trans _ _ _ _ P2)]; right; f_equal; ring. }
  assert (Hvan : forall w u, 0 <= w -> (forall k, Rabs (u k) <= w * b k) -> eventually_below u 0).
  { intros w0 u Hw0 Hu. apply (eventually_below_le _ (fun k => w0 * b k)).
    - intros k. rewrite (Rabs_pos_eq (w0 * b k)); [apply Hu|]. apply Rmult_le_pos; auto.
    - rewrite <- (Rmult_0_r w0). apply eventually_below_scal; auto. now apply eventually_below_vanishes. }
  assert (HR : eventually_below (fun j => fst (r j) d - g) (K * B)
               /\ eventually_below (fun j => snd (r j) d) (K * B)).
  { apply (H _ _ (fun k => fst (pq k) + fst (w k)) (fun k => snd (pq k) + snd (w k)) B); auto.
    - intros k. unfold pq. cbn [fst snd]. ring.
    - intros k. unfold pq. cbn [fst snd]. ring.
    - rewrite <- (Rplus_0_l B). apply eventually_below_plus; [|exact Hw1].
      apply (Hvan (h ^ 2)); [nra|]. intros k. apply Hpq.
    - rewrite <- (Rplus_0_l B). apply eventually_below_plus; [|exact Hw2].
      apply (Hvan h); [lra|]. intros k. apply Hpq. }
  destruct HR as [R1 R2]. split; intros eps He.
  - destruct (R1 eps He) as [N HN]. exists N. intros k Hk. rewrite Er. apply HN. nia.
  - destruct (R2 eps He) as [N HN]. exists N. intros k Hk. rewrite Er. apply HN. nia.
Qed.
