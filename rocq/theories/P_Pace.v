(** Runs whose goal moves at a constant speed (C140). *)
From Coq Require Import Reals ZArith List Lia Lra Psatz FunctionalExtensionality.
From Coquelicot Require Import Complex.
From Verif Require Import M_Prelude M_Canonical M_Forcing M_Dmp S_Loops S_Dmp S_Stability
  P_Loops P_Canonical P_Forcing P_DmpStep P_DmpScale P_DmpLinear P_Converge P_Disturbed P_Stability P_Bounded
  P_DisturbedAll P_Moving.
Import ListNotations.
Open Scope R_scope.
Set Bullet Behavior "Strict Subproofs".

(** A linear map of the plane that leaves only 0 where it is. *)
Lemma only_zero_fixed m11 m12 m21 m22 :
  (forall x y, m11 * x + m12 * y = x -> m21 * x + m22 * y = y -> x = 0 /\ y = 0) ->
  (1 - m11) * (1 - m22) - m12 * m21 <> 0.
Proof.
  intros H E.
  destruct (H m12 (1 - m11)) as [E1 E2]; [ring|lra|].
  destruct (H (1 - m22) m21) as [E3 E4]; [lra|ring|].
  destruct (H 1 0) as [E5 _]; lra.
Qed.

Lemma unique_pace m11 m12 m21 m22 D :
  (forall x y, m11 * x + m12 * y = x -> m21 * x + m22 * y = y -> x = 0 /\ y = 0) ->
  exists e v, (m11 * e + m12 * v = e + D /\ m21 * e + m22 * v = v)
  /\ forall e' v', m11 * e' + m12 * v' = e' + D -> m21 * e' + m22 * v' = v' -> e' = e /\ v' = v.
Proof.
  intros H. pose proof (only_zero_fixed _ _ _ _ H) as Hd. set (det := (1 - m11) * (1 - m22) - m12 * m21) in *.
  exists (- D * (1 - m22) / det), (- D * m21 / det). split.
  - split; unfold det in *; field; auto.
  - intros e' v' E1 E2.
    assert (F1 : m11 * (- D * (1 - m22) / det) + m12 * (- D * m21 / det) = - D * (1 - m22) / det + D)
      by (unfold det in *; field; auto).
    assert (F2 : m21 * (- D * (1 - m22) / det) + m22 * (- D * m21 / det) = - D * m21 / det)
      by (unfold det in *; field; auto).
    destruct (H (e' - - D * (1 - m22) / det) (v' - - D * m21 / det)) as [G1 G2]; lra.
Qed.

Lemma eventually_zero x : eventually_below (fun _ => x) 0 -> x = 0.
Proof.
  intros H. destruct (Req_dec x 0) as [|Hx]; auto. exfalso.
  destruct (H (Rabs x / 2)) as [N HN].
  - apply Rabs_pos_lt in Hx. lra.
  - specialize (HN N (le_n N)). apply Rabs_pos_lt in Hx. lra.
Qed.

Lemma rk4_pace_run dt al be tau : 0 < dt -> 0 < tau ->
  rk4_shrinks dt (al / tau) (al * be / tau ^ 2) ->
  forall e v D, ra dt (al / tau) (al * be / tau ^ 2) * e + rb dt (al / tau) (al * be / tau ^ 2) * dt * v = e + D ->
  - rb dt (al / tau) (al * be / tau ^ 2) * dt * (al * be / tau ^ 2) * e
    + (ra dt (al / tau) (al * be / tau ^ 2) - rb dt (al / tau) (al * be / tau ^ 2) * dt * (al / tau)) * v = v ->
  forall a d f g M t0 s,
  moving_args a d f g al be tau M -> phase_ok f -> 0 <= M ->
  eventually_below (fun k => g (S k) - g k - D) 0 ->
  (forall k, s (S k) = dmp_step_rk4 (a k) (t0 + INR k * dt) (t0 + INR (S k) * dt) (s k)) ->
  eventually_below (fun k => fst (s k) d - g k - e) 0
  /\ eventually_below (fun k => snd (s k) d - v) 0.
Proof.
  intros Hdt Htau Hsh. set (c := al / tau) in *. set (kk := al * be / tau ^ 2) in *.
  destruct (rk4_eventually dt c kk Hsh) as (K & HK & H).
  intros ee vv D Hp1 Hp2.
  set (Z := stage_factor dt c kk).
  assert (Ht2 : 0 < tau ^ 2) by nra.
  assert (HZ : 0 <= Z ^ 3).
  { apply pow_le; unfold Z, stage_factor; pose proof (Rabs_pos (dt * c)). pose proof (Rabs_pos (dt ^ 2 * kk)). lra. }
  intros a d f g M t0 s A Hph HM Hg Hs. destruct A as [m_pre m_start m_goal_t m_al m_be m_goal m_ft m_dist m_te m_c].
  destruct (phase_below f M tau t0 dt Hph Hdt Htau HM) as (Hbv & Hb0 & Hb).
  set (b := fun k => M / tau ^ 2 * ft_phase f (t0 + INR k * dt)) in *.
  change (forall k, 0 <= b k) in Hb0.
  change (forall k c x, t0 + INR k * dt <= c -> Rabs x <= M * ft_phase f c -> Rabs x / tau ^ 2 <= b k) in Hb.
  assert (Hstep : forall k, exists pq,
     Rabs (fst pq) <= dt ^ 2 * Z ^ 3 * b k /\ Rabs (snd pq) <= 2 * dt * Z ^ 3 * b k
     /\ fst (s (S k)) d - g k = ra dt c kk * (fst (s k) d - g k) + rb dt c kk * dt * snd (s k) d + fst pq
     /\ snd (s (S k)) d = - rb dt c kk * dt * kk * (fst (s k) d - g k)
          + (ra dt c kk - rb dt c kk * dt * c) * snd (s k) d + snd pq).
  { intros k. rewrite Hs. destruct (s k) as [y v] eqn:Es. cbn [fst snd].
    pose proof (rk4_inputs (a k) (t0 + INR k * dt) (t0 + INR (S k) * dt) y v d (b k) 0) as HT.
    cbv zeta in HT. unfold damping, stiffness in HT.
    rewrite m_goal_t, m_start, m_al, m_be, m_goal, m_ft in HT.
    rewrite Rminus_0_r in HT. fold c kk in HT.
    replace (t0 + INR (S k) * dt - (t0 + INR k * dt)) with dt in HT by (rewrite S_INR; ring).
    fold Z in HT. destruct HT as (p & q & HT); auto.
    - intros Y V z Hz. unfold coupling_acc. rewrite m_c, m_te. unfold vzero.
      replace (disturbance (a k) (ft_phase f z) d + 0 + a_p_gain (a k) * 0 / dt)
        with (disturbance (a k) (ft_phase f z) d) by (field; lra).
      rewrite Rabs_div_pos by auto. apply Hb with z; [rewrite S_INR in Hz; lra|].
      apply m_dist. apply Rlt_le, ft_phase_pos.
    - intros Y V. unfold coupling_vel. rewrite m_c. unfold vzero, Rdiv. rewrite Rmult_0_l, Rabs_R0. lra.
    - exists (p, q). rewrite Rplus_0_r in HT. exact HT. }
  set (pq := fun k => (fst (s (S k)) d - g k - (ra dt c kk * (fst (s k) d - g k) + rb dt c kk * dt * snd (s k) d),
    snd (s (S k)) d - (- rb dt c kk * dt * kk * (fst (s k) d - g k) + (ra dt c kk - rb dt c kk * dt * c) * snd (s k) d))).
  assert (Hpq : forall k, Rabs (fst (pq k)) <= dt ^ 2 * Z ^ 3 * b k /\ Rabs (snd (pq k)) <= 2 * dt * Z ^ 3 * b k).
  { intros k. destruct (Hstep k) as ((p & q) & P1 & P2 & P3 & P4). unfold pq. cbn [fst snd] in *.
    rewrite P3, P4.
    split; [refine (Rle_trans _ _ _ _ P1)|refine (Rle_trans _ _ _ _ P2)]; right; f_equal; ring. }
  assert (Hvan : forall w u, 0 <= w -> (forall k, Rabs (u k) <= w * b k) -> eventually_below u 0).
  { intros w u Hw Hu. apply (eventually_below_le _ (fun k => w * b k)).
    - intros k. rewrite (Rabs_pos_eq (w * b k)); [apply Hu|]. apply Rmult_le_pos; auto.
    - rewrite <- (Rmult_0_r w). apply eventually_below_scal; auto. now apply eventually_below_vanishes. }
  assert (W1 : 0 <= dt ^ 2 * Z ^ 3) by (apply Rmult_le_pos; nra).
  assert (W2 : 0 <= 2 * dt * Z ^ 3) by (apply Rmult_le_pos; lra).
  rewrite <- (Rmult_0_r K).
  apply (H (fun k => fst (s k) d - g k - ee) (fun k => snd (s k) d - vv) (fun k => fst (pq k) + - (g (S k) - g k - D))
           (fun k => snd (pq k)) 0); [lra| | | |].
  - intros k. unfold pq. cbn [fst snd]. lra.
  - intros k. unfold pq. cbn [fst snd]. lra.
  - rewrite <- (Rplus_0_l 0). apply eventually_below_plus; [apply (Hvan _ _ W1); intros k; apply Hpq|].
    apply (eventually_below_le _ (fun k => g (S k) - g k - D)); [|exact Hg]. intros k. rewrite Rabs_Ropp. lra.
  - apply (Hvan _ _ W2). intros k. apply Hpq.
Qed.

(** One sub-step of the Euler method for a spring. *)
Definition esub (h c k : R) (x : R * R) : R * R :=
  ((1 - h ^ 2 * k) * fst x + h * (1 - h * c) * snd x, - h * k * fst x + (1 - h * c) * snd x).

Lemma euler_pace_run dt int_dt h al be tau : 0 < dt -> 0 < int_dt -> 0 < tau ->
  substep_length dt int_dt h -> euler_shrinks h (al / tau) (al * be / tau ^ 2) ->
  forall n e v D, (0 < n)%nat -> dt = INR n * h ->
  Nat.iter n (esub h (al / tau) (al * be / tau ^ 2)) (e, v) = (e + D, v) ->
  forall fn a d f g M t0 s,
  fn = Euler \/ fn = Euler_cython ->
  moving_args a d f g al be tau M -> (forall k, a_int_dt (a k) = int_dt) ->
  phase_ok f -> 0 <= M -> 0 <= t0 ->
  eventually_below (fun k => g (S k) - g k - D) 0 ->
  (forall k, run_step_function fn (a k) (t0 + INR k * dt) (t0 + INR (S k) * dt) (s k) = Ok (s (S k))) ->
  eventually_below (fun k => fst (s k) d - g k - e) 0
  /\ eventually_below (fun k => snd (s k) d - v) 0.
Proof.
  intros Hdt Hi Htau Hsub Hsh. set (c := al / tau) in *. set (kk := al * be / tau ^ 2) in *.
  destruct (equal_tiles dt int_dt h Hdt Hi Hsub) as (m & Hm & Em & Hh & Htl).
  destruct (euler_eventually h c kk Hsh) as (K & HK & H).
  intros n ee vv D Hn En Hpace.
  assert (n = m) as -> by (apply INR_eq, (Rmult_eq_reg_r h); lra). clear Hn En.
  assert (Ht2 : 0 < tau ^ 2) by nra.
  intros fn a d f g M t0 s Hfn A Hint Hph HM Ht0 Hg Hs.
  destruct A as [m_pre m_start m_goal_t m_al m_be m_goal m_ft m_dist m_te m_c].
  destruct (phase_below f M tau t0 h Hph Hh Htau HM) as (Hbv & Hb0 & Hb).
  set (b := fun k => M / tau ^ 2 * ft_phase f (t0 + INR k * h)) in *.
  change (forall k, 0 <= b k) in Hb0.
  change (forall k c x, t0 + INR k * h <= c -> Rabs x <= M * ft_phase f c -> Rabs x / tau ^ 2 <= b k) in Hb.
  set (r := all_substates (fun k => euler_fn_body fn (a k)) m t0 h (s 0%nat)).
  assert (Er : forall k, s k = r (k * m)%nat).
  { induction k as [|k IH]; [reflexivity|].
    pose proof (pos_INR k) as HIk.
    destruct (euler_fn_disturbed fn (a k) (t0 + INR k * dt) (t0 + INR (S k) * dt) (s k)) as (l & Hl & E); auto.
    { rewrite Hint; auto. } { rewrite m_start, m_goal_t; auto. }
    { rewrite m_start, S_INR. nra. } { rewrite S_INR. lra. }
    rewrite Hint in Hl. apply Htl in Hl; [|rewrite S_INR; ring].
    rewrite Hs in E. injection E as ->. rewrite IH. subst l.
    replace (t0 + INR k * dt) with (t0 + INR (k * m) * h) by (rewrite mult_INR, Em; ring).
    unfold r. rewrite (all_substates_step (fun k => euler_fn_body fn (a k)) m t0 h (s 0%nat) k m) by lia.
    f_equal. lia. }
  set (G := fun j => g (j / m)%nat).
  set (z := fun j => Nat.iter (j mod m) (esub h c kk) (ee, vv)).
  set (u := fun j => if Nat.eqb (S (j mod m)) m then g (S (j / m)) - g (j / m)%nat - D else 0).
  assert (Hu : eventually_below (fun j => - u j) 0).
  { intros eps He. destruct (Hg eps He) as [N HN]. exists (N * m)%nat. intros j Hj. unfold u.
    assert (Hq : (N <= j / m)%nat) by (apply Nat.div_le_lower_bound; lia). rewrite Rabs_Ropp.
    destruct (Nat.eqb _ _); [now apply HN|]. rewrite Rabs_R0. lra. }
  assert (Hz : forall j, G (S j) + fst (z (S j)) = G j + fst (esub h c kk (z j)) + u j
                         /\ snd (z (S j)) = snd (esub h c kk (z j))).
  { intros j. pose proof (Nat.div_mod j m ltac:(lia)) as E. pose proof (Nat.mod_upper_bound j m ltac:(lia)) as U.
    assert (Ez : esub h c kk (z j) = Nat.iter (S (j mod m)) (esub h c kk) (ee, vv)) by reflexivity.
    rewrite Ez. unfold G, u, z. destruct (Nat.eqb_spec (S (j mod m)) m) as [El|El].
    - assert (E1 : (S j = S (j / m) * m)%nat) by nia. rewrite El, Hpace, E1, Nat.div_mul, Nat.mod_mul by lia.
      cbn. split; ring.
    - assert (E1 : (S j / m = j / m)%nat) by (symmetry; apply Nat.div_unique with (S (j mod m)); lia).
      assert (E2 : (S j mod m = S (j mod m))%nat) by (symmetry; apply Nat.mod_unique with (j / m)%nat; lia).
      rewrite E1, E2. split; [ring|reflexivity]. }
  assert (Hstep : forall j, exists pq,
     Rabs (fst pq) <= h ^ 2 * b j /\ Rabs (snd pq) <= h * b j
     /\ fst (r (S j)) d - G j = (1 - h ^ 2 * kk) * (fst (r j) d - G j) + h * (1 - h * c) * snd (r j) d + fst pq
     /\ snd (r (S j)) d = - h * kk * (fst (r j) d - G j) + (1 - h * c) * snd (r j) d + snd pq).
  { intros j. unfold G. set (k := (j / m)%nat).
    change (r (S j)) with (euler_fn_body fn (a k) (t0 + INR (S j) * h) h (r j)).
    pose proof (euler_inputs fn (a k) (t0 + INR (S j) * h) h (r j) d (b j) 0 Hfn (m_pre k)) as HT.
    cbv zeta in HT. unfold damping, stiffness in HT.
    rewrite m_goal_t, m_start, m_al, m_be, m_goal, m_ft in HT.
    rewrite Rminus_0_r in HT. fold c kk in HT.
    destruct HT as (p & q & HT); auto.
    - intros Y V. unfold coupling_acc. rewrite m_c. unfold vzero. rewrite Rplus_0_r, Rabs_div_pos by auto.
      apply Hb with (t0 + INR (S j) * h); [rewrite S_INR; nra|]. apply m_dist. apply Rlt_le, ft_phase_pos.
    - intros Y V. unfold coupling_vel. rewrite m_c, m_te. unfold vzero, Rdiv.
      rewrite Rmult_0_r, !Rmult_0_l, Rabs_R0. lra.
    - exists (p, q). rewrite Rmult_0_r, !Rplus_0_r in HT. exact HT. }
  set (pq := fun k => (fst (r (S k)) d - G k - ((1 - h ^ 2 * kk) * (fst (r k) d - G k) + h * (1 - h * c) * snd (r k) d),
    snd (r (S k)) d - (- h * kk * (fst (r k) d - G k) + (1 - h * c) * snd (r k) d))).
  assert (Hpq : forall k, Rabs (fst (pq k)) <= h ^ 2 * b k /\ Rabs (snd (pq k)) <= h * b k).
  { intros k. destruct (Hstep k) as ((p & q) & P1 & P2 & P3 & P4). unfold pq. cbn [fst snd] in *.
    rewrite P3, P4.
    split; [refine (Rle_trans _ _ _ _ P1)|refine (Rle_trans _ _ _ _ P2)]; right; f_equal; ring. }
  assert (Hvan : forall w u, 0 <= w -> (forall k, Rabs (u k) <= w * b k) -> eventually_below u 0).
  { intros w0 u0 Hw Hu0. apply (eventually_below_le _ (fun k => w0 * b k)).
    - intros k. rewrite (Rabs_pos_eq (w0 * b k)); [apply Hu0|]. apply Rmult_le_pos; auto.
    - rewrite <- (Rmult_0_r w0). apply eventually_below_scal; auto. now apply eventually_below_vanishes. }
  assert (HR : eventually_below (fun j => fst (r j) d - G j - fst (z j)) 0
               /\ eventually_below (fun j => snd (r j) d - snd (z j)) 0).
  { rewrite <- (Rmult_0_r K).
    apply (H _ _ (fun k => fst (pq k) + - u k) (fun k => snd (pq k)) 0); [lra| | | |].
    - intros k. destruct (Hz k) as [Z1 Z2]. unfold pq, esub in *. cbn [fst snd] in *. lra.
    - intros k. destruct (Hz k) as [Z1 Z2]. unfold pq, esub in *. cbn [fst snd] in *. lra.
    - rewrite <- (Rplus_0_l 0). apply eventually_below_plus; [|exact Hu].
      apply (Hvan (h ^ 2)); [nra|]. intros k. apply Hpq.
    - apply (Hvan h); [lra|]. intros k. apply Hpq. }
  assert (Ez : forall k, z (k * m)%nat = (ee, vv)) by (intros k; unfold z; rewrite Nat.mod_mul by lia; reflexivity).
  destruct HR as [R1 R2]. split; intros eps He.
  - destruct (R1 eps He) as [N HN]. exists N. intros k Hk. rewrite Er.
    specialize (HN (k * m)%nat ltac:(nia)). rewrite Ez in HN. unfold G in HN. now rewrite Nat.div_mul in HN by lia.
  - destruct (R2 eps He) as [N HN]. exists N. intros k Hk. rewrite Er.
    specialize (HN (k * m)%nat ltac:(nia)). rewrite Ez in HN. exact HN.
Qed.
