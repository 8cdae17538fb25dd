(** Three runs, the goals of one of which are combined from the goals of the others (C142). *)
From Coq Require Import Reals ZArith List Lia Lra Psatz FunctionalExtensionality.
From Coquelicot Require Import Complex.
From Verif Require Import M_Prelude M_Canonical M_Forcing M_Dmp S_Loops S_Dmp S_Stability
  P_Loops P_Canonical P_Forcing P_DmpStep P_DmpScale P_DmpLinear P_Converge P_Disturbed P_Stability P_Bounded
  P_DisturbedAll P_Moving P_Together Properties_Dmp Properties_Stability.
Import ListNotations.
Open Scope R_scope.
Set Bullet Behavior "Strict Subproofs".

Lemma combination_fades x z p q : eventually_below p 0 -> eventually_below q 0 ->
  eventually_below (fun j => x * p j + z * q j) 0.
Proof.
  intros Hp Hq e He.
  pose proof (Rabs_pos x) as Hx. pose proof (Rabs_pos z) as Hz.
  assert (E1 : 0 < e / (2 * (Rabs x + 1))) by (apply Rdiv_lt_0_compat; lra).
  assert (E2 : 0 < e / (2 * (Rabs z + 1))) by (apply Rdiv_lt_0_compat; lra).
  destruct (Hp _ E1) as [N1 HN1]. destruct (Hq _ E2) as [N2 HN2].
  exists (N1 + N2)%nat. intros j Hj. specialize (HN1 j ltac:(lia)). specialize (HN2 j ltac:(lia)).
  eapply Rle_trans; [apply Rabs_triang|]. rewrite !Rabs_mult.
  assert (F1 : (Rabs x + 1) * (e / (2 * (Rabs x + 1))) = e / 2) by (field; lra).
  assert (F2 : (Rabs z + 1) * (e / (2 * (Rabs z + 1))) = e / 2) by (field; lra).
  pose proof (Rabs_pos (p j)). pose proof (Rabs_pos (q j)). nra.
Qed.

Lemma triple_run : forall fn dt int_dt al be tau, 0 < dt -> 0 < int_dt -> 0 < tau ->
  match fn with
  | RK4 | RK4_cython => rk4_shrinks dt (al / tau) (al * be / tau ^ 2)
  | Euler | Euler_cython => equal_parts dt int_dt
      /\ euler_shrinks (Rmin dt int_dt) (al / tau) (al * be / tau ^ 2)
  end ->
  exists K, 0 <= K /\ forall x z a a' a2 d f f' f2 g g' g2 M M' M2 t0 t0' t2 s s' s2 D,
  moving_args a d f g al be tau M -> moving_args a' d f' g' al be tau M' -> moving_args a2 d f2 g2 al be tau M2 ->
  (forall k, a_int_dt (a k) = int_dt) -> (forall k, a_int_dt (a' k) = int_dt) -> (forall k, a_int_dt (a2 k) = int_dt) ->
  phase_ok f -> phase_ok f' -> phase_ok f2 -> 0 <= M -> 0 <= M' -> 0 <= M2 -> 0 <= t0 -> 0 <= t0' -> 0 <= t2 -> 0 <= D ->
  eventually_below (fun k => x * g k + z * g' k - g2 k) D ->
  (forall k, run_step_function fn (a k) (t0 + INR k * dt) (t0 + INR (S k) * dt) (s k) = Ok (s (S k))) ->
  (forall k, run_step_function fn (a' k) (t0' + INR k * dt) (t0' + INR (S k) * dt) (s' k) = Ok (s' (S k))) ->
  (forall k, run_step_function fn (a2 k) (t2 + INR k * dt) (t2 + INR (S k) * dt) (s2 k) = Ok (s2 (S k))) ->
  eventually_below (fun k => x * fst (s k) d + z * fst (s' k) d - fst (s2 k) d) (K * D)
  /\ eventually_below (fun k => x * snd (s k) d + z * snd (s' k) d - snd (s2 k) d) (K * D).
Proof.
  intros fn dt int_dt al be tau Hdt Hi Htau Hst.
  set (c := al / tau) in *. set (kk := al * be / tau ^ 2) in *.
  assert (Hfn : uses_rk4 fn \/ uses_euler fn) by (destruct fn; unfold uses_rk4, uses_euler; auto).
  destruct Hfn as [Hfn|Hfn].
  - assert (Hsh : rk4_shrinks dt c kk) by (destruct Hfn as [-> | ->]; exact Hst).
    destruct (rk4_eventually dt c kk Hsh) as (K & HK & H).
    set (L := Rabs (1 - ra dt c kk) + Rabs (rb dt c kk * dt * kk)).
    pose proof (Rabs_pos (1 - ra dt c kk)) as L1. pose proof (Rabs_pos (rb dt c kk * dt * kk)) as L2.
    assert (HL : 0 <= L) by (unfold L; lra).
    exists (K * L). split; [now apply Rmult_le_pos|].
    intros x z a a' a2 d f f' f2 g g' g2 M M' M2 t0 t0' t2 s s' s2 D A A' A2 _ _ _ Hf Hf' Hf2 HM HM' HM2 _ _ _ HD Hg Hs Hs' Hs2.
    assert (HS : forall b t s, (forall k, run_step_function fn (b k) (t + INR k * dt) (t + INR (S k) * dt) (s k) = Ok (s (S k))) ->
      forall k, s (S k) = dmp_step_rk4 (b k) (t + INR k * dt) (t + INR (S k) * dt) (s k)).
    { intros b t u Hu k. specialize (Hu k). destruct Hfn as [-> | ->]; cbn [run_step_function] in Hu; [|rewrite rk4_cython_eq in Hu];
        now injection Hu. }
    destruct (rk4_linear_run dt al be tau a d f g M t0 s Hdt Htau A Hf HM (HS _ _ _ Hs)) as (p & q & P1 & P2 & P3 & P4).
    destruct (rk4_linear_run dt al be tau a' d f' g' M' t0' s' Hdt Htau A' Hf' HM' (HS _ _ _ Hs')) as (p' & q' & P1' & P2' & P3' & P4').
    destruct (rk4_linear_run dt al be tau a2 d f2 g2 M2 t2 s2 Hdt Htau A2 Hf2 HM2 (HS _ _ _ Hs2)) as (p2 & q2 & Q1 & Q2 & Q3 & Q4).
    fold c kk in P3, P4, P3', P4', Q3, Q4.
    rewrite Rmult_assoc.
    apply (H _ _ (fun j => x * p j + z * p' j - p2 j + (1 - ra dt c kk) * (x * g j + z * g' j - g2 j))
                 (fun j => x * q j + z * q' j - q2 j + (rb dt c kk * dt * kk) * (x * g j + z * g' j - g2 j)) (L * D)).
    + now apply Rmult_le_pos.
    + intros j. rewrite P3, P3', Q3. ring.
    + intros j. rewrite P4, P4', Q4. ring.
    + apply (difference_fades (fun j => x * p j + z * p' j) p2 (fun _ => 1 - ra dt c kk)); auto using combination_fades.
      intros _. unfold L. lra.
    + apply (difference_fades (fun j => x * q j + z * q' j) q2 (fun _ => rb dt c kk * dt * kk)); auto using combination_fades.
      intros _. unfold L. lra.
  - set (h := Rmin dt int_dt) in *.
    assert (Hsh : equal_parts dt int_dt /\ euler_shrinks h c kk) by (destruct Hfn as [-> | ->]; exact Hst).
    destruct Hsh as [Hep Hsh].
    destruct (euler_eventually h c kk Hsh) as (K & HK & H).
    destruct (euler_linear_run dt int_dt h al be tau Hdt Hi Htau (parts_length _ _ Hdt Hi Hep)) as (m & Hm & HR). fold c kk in HR.
    set (L := Rabs (h ^ 2 * kk) + Rabs (h * kk)).
    pose proof (Rabs_pos (h ^ 2 * kk)) as L1. pose proof (Rabs_pos (h * kk)) as L2.
    assert (HL : 0 <= L) by (unfold L; lra).
    exists (K * L). split; [now apply Rmult_le_pos|].
    intros x z a a' a2 d f f' f2 g g' g2 M M' M2 t0 t0' t2 s s' s2 D A A' A2 Hint Hint' Hint2 Hf Hf' Hf2 HM HM' HM2
      Ht Ht' Ht2 HD Hg Hs Hs' Hs2.
    destruct (HR fn a d f g M t0 s Hfn A Hint Hf HM Ht Hs) as (r & p & q & P1 & P2 & Er & P3 & P4).
    destruct (HR fn a' d f' g' M' t0' s' Hfn A' Hint' Hf' HM' Ht' Hs') as (r' & p' & q' & P1' & P2' & Er' & P3' & P4').
    destruct (HR fn a2 d f2 g2 M2 t2 s2 Hfn A2 Hint2 Hf2 HM2 Ht2 Hs2) as (r2 & p2 & q2 & Q1 & Q2 & Er2 & Q3 & Q4).
    set (u := fun j => x * g (j / m)%nat + z * g' (j / m)%nat - g2 (j / m)%nat).
    assert (HG : eventually_below u D).
    { intros eps He. destruct (Hg eps He) as [N HN]. exists (N * m)%nat. intros j Hj.
      apply HN. apply Nat.div_le_lower_bound; lia. }
    assert (HE : eventually_below (fun j => x * fst (r j) d + z * fst (r' j) d - fst (r2 j) d) (K * (L * D))
                 /\ eventually_below (fun j => x * snd (r j) d + z * snd (r' j) d - snd (r2 j) d) (K * (L * D))).
    { apply (H _ _ (fun j => x * p j + z * p' j - p2 j + (h ^ 2 * kk) * u j)
                 (fun j => x * q j + z * q' j - q2 j + (h * kk) * u j) (L * D)).
      + now apply Rmult_le_pos.
      + intros j. rewrite P3, P3', Q3. unfold u. ring.
      + intros j. rewrite P4, P4', Q4. unfold u. ring.
      + apply (difference_fades (fun j => x * p j + z * p' j) p2 (fun _ => h ^ 2 * kk)); auto using combination_fades.
        intros _. unfold L. lra.
      + apply (difference_fades (fun j => x * q j + z * q' j) q2 (fun _ => h * kk)); auto using combination_fades.
        intros _. unfold L. lra. }
    destruct HE as [E1 E2]. rewrite Rmult_assoc. split; intros eps He.
    + destruct (E1 eps He) as [N HN]. exists N. intros k Hk. rewrite Er, Er', Er2. apply HN. nia.
    + destruct (E2 eps He) as [N HN]. exists N. intros k Hk. rewrite Er, Er', Er2. apply HN. nia.
Qed.
