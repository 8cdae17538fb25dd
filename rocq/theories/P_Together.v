(** Two runs with different goals, weights and beginnings (C141). *)
From Coq Require Import Reals ZArith List Lia Lra Psatz FunctionalExtensionality.
From Coquelicot Require Import Complex.
From Verif Require Import M_Prelude M_Canonical M_Forcing M_Dmp S_Loops S_Dmp S_Stability
  P_Loops P_Canonical P_Forcing P_DmpStep P_DmpScale P_DmpLinear P_Converge P_Disturbed P_Stability P_Bounded
  P_DisturbedAll P_Moving Properties_Dmp Properties_Stability.
Import ListNotations.
Open Scope R_scope.
Set Bullet Behavior "Strict Subproofs".

Lemma fading (b u : nat -> R) w : vanishes b -> (forall k, 0 <= b k) -> 0 <= w -> (forall k, Rabs (u k) <= w * b k) ->
  eventually_below u 0.
Proof.
  intros Hbv Hb0 Hw Hu. apply (eventually_below_le _ (fun k => w * b k)).
  - intros k. rewrite (Rabs_pos_eq (w * b k)); [apply Hu|]. apply Rmult_le_pos; auto.
  - rewrite <- (Rmult_0_r w). apply eventually_below_scal; auto. now apply eventually_below_vanishes.
Qed.

(** A run is a linear recursion whose inputs fade away. *)
Lemma rk4_linear_run dt al be tau a d f g M t0 s : 0 < dt -> 0 < tau ->
  let c := al / tau in let kk := al * be / tau ^ 2 in
  moving_args a d f g al be tau M -> phase_ok f -> 0 <= M ->
  (forall k, s (S k) = dmp_step_rk4 (a k) (t0 + INR k * dt) (t0 + INR (S k) * dt) (s k)) ->
  exists p q, eventually_below p 0 /\ eventually_below q 0
  /\ (forall k, fst (s (S k)) d = g k + ra dt c kk * (fst (s k) d - g k) + rb dt c kk * dt * snd (s k) d + p k)
  /\ (forall k, snd (s (S k)) d = - rb dt c kk * dt * kk * (fst (s k) d - g k)
          + (ra dt c kk - rb dt c kk * dt * c) * snd (s k) d + q k).
Proof.
  intros Hdt Htau c kk A Hph HM Hs.
  set (Z := stage_factor dt c kk).
  assert (Ht2 : 0 < tau ^ 2) by nra.
  assert (HZ : 0 <= Z ^ 3).
  { apply pow_le; unfold Z, stage_factor; pose proof (Rabs_pos (dt * c)). pose proof (Rabs_pos (dt ^ 2 * kk)). lra. }
  destruct A as [m_pre m_start m_goal_t m_al m_be m_goal m_ft m_dist m_te m_c].
  destruct (phase_below f M tau t0 dt Hph Hdt Htau HM) as (Hbv & Hb0 & Hb).
  set (b := fun k => M / tau ^ 2 * ft_phase f (t0 + INR k * dt)) in *.
  change (forall k, 0 <= b k) in Hb0.
  change (forall k c x, t0 + INR k * dt <= c -> Rabs x <= M * ft_phase f c -> Rabs x / tau ^ 2 <= b k) in Hb.
  assert (Hstep : forall k, exists pq,
     Rabs (fst pq) <= dt ^ 2 * Z ^ 3 * b k /\ Rabs (snd pq) <= 2 * dt * Z ^ 3 * b k
     /\ fst (s (S k)) d - g k = ra dt c kk * (fst (s k) d - g k) + rb dt c kk * dt * snd (s k) d + fst pq
     /\ snd (s (S k)) d = - rb dt c kk * dt * kk * (fst (s k) d - g k)
          + (ra dt c kk - rb dt c kk * dt * c) * snd (s k) d + snd pq).
  { intros k. rewrite Hs. destruct (s k) as [y v] eqn:Es. cbn [fst snd].
    pose proof (rk4_inputs (a k) (t0 + INR k * dt) (t0 + INR (S k) * dt) y v d (b k) 0) as HT.
    cbv zeta in HT. unfold damping, stiffness in HT.
    rewrite m_goal_t, m_start, m_al, m_be, m_goal, m_ft in HT.
    rewrite Rminus_0_r in HT. fold c kk in HT.
    replace (t0 + INR (S k) * dt - (t0 + INR k * dt)) with dt in HT by (rewrite S_INR; ring).
    fold Z in HT. destruct HT as (p & q & HT); auto.
    - intros Y V z Hz. unfold coupling_acc. rewrite m_c, m_te. unfold vzero.
      replace (disturbance (a k) (ft_phase f z) d + 0 + a_p_gain (a k) * 0 / dt)
        with (disturbance (a k) (ft_phase f z) d) by (field; lra).
      rewrite Rabs_div_pos by auto. apply Hb with z; [rewrite S_INR in Hz; lra|].
      apply m_dist. apply Rlt_le, ft_phase_pos.
    - intros Y V. unfold coupling_vel. rewrite m_c. unfold vzero, Rdiv. rewrite Rmult_0_l, Rabs_R0. lra.
    - exists (p, q). rewrite Rplus_0_r in HT. exact HT. }
  set (pq := fun k => (fst (s (S k)) d - g k - (ra dt c kk * (fst (s k) d - g k) + rb dt c kk * dt * snd (s k) d),
    snd (s (S k)) d - (- rb dt c kk * dt * kk * (fst (s k) d - g k) + (ra dt c kk - rb dt c kk * dt * c) * snd (s k) d))).
  assert (Hpq : forall k, Rabs (fst (pq k)) <= dt ^ 2 * Z ^ 3 * b k /\ Rabs (snd (pq k)) <= 2 * dt * Z ^ 3 * b k).
  { intros k. destruct (Hstep k) as ((p & q) & P1 & P2 & P3 & P4). unfold pq. cbn [fst snd] in *.
    rewrite P3, P4.
    split; [refine (Rle_trans _ _ _ _ P1)|refine (Rle_trans _ _ _ _ P2)]; right; f_equal; ring. }
  assert (W1 : 0 <= dt ^ 2 * Z ^ 3) by (apply Rmult_le_pos; nra).
  assert (W2 : 0 <= 2 * dt * Z ^ 3) by (apply Rmult_le_pos; lra).
  exists (fun k => fst (pq k)), (fun k => snd (pq k)).
  split; [apply (fading b _ _ Hbv Hb0 W1); intros k; apply Hpq|].
  split; [apply (fading b _ _ Hbv Hb0 W2); intros k; apply Hpq|].
  split; intros k; unfold pq; cbn [fst snd]; ring.
Qed.

Lemma euler_linear_run dt int_dt h al be tau : 0 < dt -> 0 < int_dt -> 0 < tau ->
  substep_length dt int_dt h ->
  let c := al / tau in let kk := al * be / tau ^ 2 in
  exists m, (0 < m)%nat /\ forall fn a d f g M t0 s,
  fn = Euler \/ fn = Euler_cython ->
  moving_args a d f g al be tau M -> (forall k, a_int_dt (a k) = int_dt) ->
  phase_ok f -> 0 <= M -> 0 <= t0 ->
  (forall k, run_step_function fn (a k) (t0 + INR k * dt) (t0 + INR (S k) * dt) (s k) = Ok (s (S k))) ->
  exists r p q, eventually_below p 0 /\ eventually_below q 0 /\ (forall k, s k = r (k * m)%nat)
  /\ (forall j, fst (r (S j)) d = g (j / m)%nat + (1 - h ^ 2 * kk) * (fst (r j) d - g (j / m)%nat)
        + h * (1 - h * c) * snd (r j) d + p j)
  /\ (forall j, snd (r (S j)) d = - h * kk * (fst (r j) d - g (j / m)%nat) + (1 - h * c) * snd (r j) d + q j).
Proof.
  intros Hdt Hi Htau Hsub c kk.
  destruct (equal_tiles dt int_dt h Hdt Hi Hsub) as (m & Hm & Em & Hh & Htl).
  exists m. split; [exact Hm|].
  assert (Ht2 : 0 < tau ^ 2) by nra.
  intros fn a d f g M t0 s Hfn A Hint Hph HM Ht0 Hs.
  destruct A as [m_pre m_start m_goal_t m_al m_be m_goal m_ft m_dist m_te m_c].
  destruct (phase_below f M tau t0 h Hph Hh Htau HM) as (Hbv & Hb0 & Hb).
  set (b := fun k => M / tau ^ 2 * ft_phase f (t0 + INR k * h)) in *.
  change (forall k, 0 <= b k) in Hb0.
  change (forall k c x, t0 + INR k * h <= c -> Rabs x <= M * ft_phase f c -> Rabs x / tau ^ 2 <= b k) in Hb.
  set (r := all_substates (fun k => euler_fn_body fn (a k)) m t0 h (s 0%nat)).
  assert (Er : forall k, s k = r (k * m)%nat).
  { induction k as [|k IH]; [reflexivity|].
    pose proof (pos_INR k) as HIk.
    destruct (euler_fn_disturbed fn (a k) (t0 + INR k * dt) (t0 + INR (S k) * dt) (s k)) as (l & Hl & E); auto.
    { rewrite Hint; auto. } { rewrite m_start, m_goal_t; auto. }
    { rewrite m_start, S_INR. nra. } { rewrite S_INR. lra. }
    rewrite Hint in Hl. apply Htl in Hl; [|rewrite S_INR; ring].
    rewrite Hs in E. injection E as ->. rewrite IH. subst l.
    replace (t0 + INR k * dt) with (t0 + INR (k * m) * h) by (rewrite mult_INR, Em; ring).
    unfold r. rewrite (all_substates_step (fun k => euler_fn_body fn (a k)) m t0 h (s 0%nat) k m) by lia.
    f_equal. lia. }
  set (G := fun j => g (j / m)%nat).
  assert (Hstep : forall j, exists pq,
     Rabs (fst pq) <= h ^ 2 * b j /\ Rabs (snd pq) <= h * b j
     /\ fst (r (S j)) d - G j = (1 - h ^ 2 * kk) * (fst (r j) d - G j) + h * (1 - h * c) * snd (r j) d + fst pq
     /\ snd (r (S j)) d = - h * kk * (fst (r j) d - G j) + (1 - h * c) * snd (r j) d + snd pq).
  { intros j. unfold G. set (k := (j / m)%nat).
    change (r (S j)) with (euler_fn_body fn (a k) (t0 + INR (S j) * h) h (r j)).
    pose proof (euler_inputs fn (a k) (t0 + INR (S j) * h) h (r j) d (b j) 0 Hfn (m_pre k)) as HT.
    cbv zeta in HT. unfold damping, stiffness in HT.
    rewrite m_goal_t, m_start, m_al, m_be, m_goal, m_ft in HT.
    rewrite Rminus_0_r in HT. fold c kk in HT.
    destruct HT as (p & q & HT); auto.
    - intros Y V. unfold coupling_acc. rewrite m_c. unfold vzero. rewrite Rplus_0_r, Rabs_div_pos by auto.
      apply Hb with (t0 + INR (S j) * h); [rewrite S_INR; nra|]. apply m_dist. apply Rlt_le, ft_phase_pos.
    - intros Y V. unfold coupling_vel. rewrite m_c, m_te. unfold vzero, Rdiv.
      rewrite Rmult_0_r, !Rmult_0_l, Rabs_R0. lra.
    - exists (p, q). rewrite Rmult_0_r, !Rplus_0_r in HT. exact HT. }
  set (pq := fun k => (fst (r (S k)) d - G k - ((1 - h ^ 2 * kk) * (fst (r k) d - G k) + h * (1 - h * c) * snd (r k) d),
    snd (r (S k)) d - (- h * kk * (fst (r k) d - G k) + (1 - h * c) * snd (r k) d))).
  assert (Hpq : forall k, Rabs (fst (pq k)) <= h ^ 2 * b k /\ Rabs (snd (pq k)) <= h * b k).
  { intros k. destruct (Hstep k) as ((p & q) & P1 & P2 & P3 & P4). unfold pq. cbn [fst snd] in *.
    rewrite P3, P4.
    split; [refine (Rle_trans _ _ _ _ P1)|refine (Rle_trans _ _ _ _ P2)]; right; f_equal; ring. }
  exists r, (fun k => fst (pq k)), (fun k => snd (pq k)).
  split; [apply (fading b _ (h ^ 2) Hbv Hb0); [nra|intros k; apply Hpq]|].
  split; [apply (fading b _ h Hbv Hb0); [lra|intros k; apply Hpq]|].
  split; [exact Er|]. split; intros k; unfold pq, G; cbn [fst snd]; ring.
Qed.

Lemma difference_fades (p p' w : nat -> R) L D : 0 <= L -> 0 <= D -> eventually_below p 0 -> eventually_below p' 0 ->
  (forall j, Rabs (w j) <= L) -> forall u, eventually_below u D ->
  eventually_below (fun j => p j - p' j + w j * u j) (L * D).
Proof.
  intros HL HD H1 H2 Hw u Hu e He.
  destruct (H1 (e / 4) ltac:(lra)) as [N1 HN1]. destruct (H2 (e / 4) ltac:(lra)) as [N2 HN2].
  assert (He3 : 0 < e / (2 * (L + 1))) by (apply Rmult_lt_0_compat; [lra|apply Rinv_0_lt_compat; lra]).
  destruct (Hu _ He3) as [N3 HN3].
  exists (N1 + N2 + N3)%nat. intros j Hj.
  specialize (HN1 j ltac:(lia)). specialize (HN2 j ltac:(lia)). specialize (HN3 j ltac:(lia)). specialize (Hw j).
  unfold Rminus. eapply Rle_trans; [apply Rabs_triang|]. 
  assert (U1 : Rabs (p j + - p' j) <= e / 2).
  { eapply Rle_trans; [apply Rabs_triang|]. rewrite Rabs_Ropp. lra. }
  assert (U2 : Rabs (w j * u j) <= L * D + e / 2).
  { rewrite Rabs_mult. apply Rle_trans with (L * (D + e / (2 * (L + 1)))).
    - apply Rmult_le_compat; auto using Rabs_pos.
    - assert (HE : (L + 1) * (e / (2 * (L + 1))) = e / 2) by (field; lra). nra. }
  lra.
Qed.

Lemma pair_run : forall fn dt int_dt al be tau, 0 < dt -> 0 < int_dt -> 0 < tau ->
  match fn with
  | RK4 | RK4_cython => rk4_shrinks dt (al / tau) (al * be / tau ^ 2)
  | Euler | Euler_cython => equal_parts dt int_dt
      /\ euler_shrinks (Rmin dt int_dt) (al / tau) (al * be / tau ^ 2)
  end ->
  exists K, 0 <= K /\ forall a a' d f f' g g' M M' t0 t0' s s' D,
  moving_args a d f g al be tau M -> moving_args a' d f' g' al be tau M' ->
  (forall k, a_int_dt (a k) = int_dt) -> (forall k, a_int_dt (a' k) = int_dt) ->
  phase_ok f -> phase_ok f' -> 0 <= M -> 0 <= M' -> 0 <= t0 -> 0 <= t0' -> 0 <= D ->
  eventually_below (fun k => g k - g' k) D ->
  (forall k, run_step_function fn (a k) (t0 + INR k * dt) (t0 + INR (S k) * dt) (s k) = Ok (s (S k))) ->
  (forall k, run_step_function fn (a' k) (t0' + INR k * dt) (t0' + INR (S k) * dt) (s' k) = Ok (s' (S k))) ->
  eventually_below (fun k => fst (s k) d - fst (s' k) d) (K * D)
  /\ eventually_below (fun k => snd (s k) d - snd (s' k) d) (K * D).
Proof.
  intros fn dt int_dt al be tau Hdt Hi Htau Hst.
  set (c := al / tau) in *. set (kk := al * be / tau ^ 2) in *.
  assert (Hfn : uses_rk4 fn \/ uses_euler fn) by (destruct fn; unfold uses_rk4, uses_euler; auto).
  destruct Hfn as [Hfn|Hfn].
  - assert (Hsh : rk4_shrinks dt c kk) by (destruct Hfn as [-> | ->]; exact Hst).
    destruct (rk4_eventually dt c kk Hsh) as (K & HK & H).
    set (L := Rabs (1 - ra dt c kk) + Rabs (rb dt c kk * dt * kk)).
    pose proof (Rabs_pos (1 - ra dt c kk)) as L1. pose proof (Rabs_pos (rb dt c kk * dt * kk)) as L2.
    assert (HL : 0 <= L) by (unfold L; lra).
    exists (K * L). split; [now apply Rmult_le_pos|].
    intros a a' d f f' g g' M M' t0 t0' s s' D A A' _ _ Hf Hf' HM HM' _ _ HD Hg Hs Hs'.
    assert (HS : forall k, s (S k) = dmp_step_rk4 (a k) (t0 + INR k * dt) (t0 + INR (S k) * dt) (s k)).
    { intros k. specialize (Hs k). destruct Hfn as [-> | ->]; cbn [run_step_function] in Hs; [|rewrite rk4_cython_eq in Hs];
        now injection Hs. }
    assert (HS' : forall k, s' (S k) = dmp_step_rk4 (a' k) (t0' + INR k * dt) (t0' + INR (S k) * dt) (s' k)).
    { intros k. specialize (Hs' k). destruct Hfn as [-> | ->]; cbn [run_step_function] in Hs'; [|rewrite rk4_cython_eq in Hs'];
        now injection Hs'. }
    destruct (rk4_linear_run dt al be tau a d f g M t0 s Hdt Htau A Hf HM HS) as (p & q & P1 & P2 & P3 & P4).
    destruct (rk4_linear_run dt al be tau a' d f' g' M' t0' s' Hdt Htau A' Hf' HM' HS') as (p' & q' & P1' & P2' & P3' & P4').
    fold c kk in P3, P4, P3', P4'.
    rewrite Rmult_assoc.
    apply (H _ _ (fun j => p j - p' j + (1 - ra dt c kk) * (g j - g' j))
                 (fun j => q j - q' j + (rb dt c kk * dt * kk) * (g j - g' j)) (L * D)).
    + now apply Rmult_le_pos.
    + intros j. rewrite P3, P3'. ring.
    + intros j. rewrite P4, P4'. ring.
    + apply difference_fades; auto. intros _. unfold L. lra.
    + apply difference_fades; auto. intros _. unfold L. lra.
  - set (h := Rmin dt int_dt) in *.
    assert (Hsh : equal_parts dt int_dt /\ euler_shrinks h c kk) by (destruct Hfn as [-> | ->]; exact Hst).
    destruct Hsh as [Hep Hsh].
    destruct (euler_eventually h c kk Hsh) as (K & HK & H).
    destruct (euler_linear_run dt int_dt h al be tau Hdt Hi Htau (parts_length _ _ Hdt Hi Hep)) as (m & Hm & HR). fold c kk in HR.
    set (L := Rabs (h ^ 2 * kk) + Rabs (h * kk)).
    pose proof (Rabs_pos (h ^ 2 * kk)) as L1. pose proof (Rabs_pos (h * kk)) as L2.
    assert (HL : 0 <= L) by (unfold L; lra).
    exists (K * L). split; [now apply Rmult_le_pos|].
    intros a a' d f f' g g' M M' t0 t0' s s' D A A' Hint Hint' Hf Hf' HM HM' Ht Ht' HD Hg Hs Hs'.
    destruct (HR fn a d f g M t0 s Hfn A Hint Hf HM Ht Hs) as (r & p & q & P1 & P2 & Er & P3 & P4).
    destruct (HR fn a' d f' g' M' t0' s' Hfn A' Hint' Hf' HM' Ht' Hs') as (r' & p' & q' & P1' & P2' & Er' & P3' & P4').
    assert (HG : eventually_below (fun j => g (j / m)%nat - g' (j / m)%nat) D).
    { intros eps He. destruct (Hg eps He) as [N HN]. exists (N * m)%nat. intros j Hj.
      apply HN. apply Nat.div_le_lower_bound; lia. }
    assert (HE : eventually_below (fun j => fst (r j) d - fst (r' j) d) (K * (L * D))
                 /\ eventually_below (fun j => snd (r j) d - snd (r' j) d) (K * (L * D))).
    { apply (H _ _ (fun j => p j - p' j + (h ^ 2 * kk) * (g (j / m)%nat - g' (j / m)%nat))
                 (fun j => q j - q' j + (h * kk) * (g (j / m)%nat - g' (j / m)%nat)) (L * D)).
      + now apply Rmult_le_pos.
      + intros j. rewrite P3, P3'. ring.
      + intros j. rewrite P4, P4'. ring.
      + apply (difference_fades p p' (fun _ => h ^ 2 * kk)); auto. intros _. unfold L. lra.
      + apply (difference_fades q q' (fun _ => h * kk)); auto. intros _. unfold L. lra. }
    destruct HE as [E1 E2]. rewrite Rmult_assoc. split; intros eps He.
    + destruct (E1 eps He) as [N HN]. exists N. intros k Hk. rewrite Er, Er'. apply HN. nia.
    + destruct (E2 eps He) as [N HN]. exists N. intros k Hk. rewrite Er, Er'. apply HN. nia.
Qed.
