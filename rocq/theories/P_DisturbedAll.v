(** Disturbed runs for all gains: what the integrators do to a bounded input. *)
From Coq Require Import Reals ZArith List Lia Lra Psatz FunctionalExtensionality.
From Coquelicot Require Import Complex.
From Verif Require Import M_Prelude M_Canonical M_Forcing M_Dmp S_Loops S_Dmp S_Stability
  P_Loops P_Canonical P_Forcing P_DmpStep P_DmpScale P_DmpLinear P_Converge P_Disturbed P_Stability P_Bounded.
Import ListNotations.
Open Scope R_scope.
Set Bullet Behavior "Strict Subproofs".

(** ** Two linear recursions *)
Lemma two_eventually m11 m12 m21 m22 l1 l2 :
  (l1 + l2 = RtoC (m11 + m22))%C -> (l1 * l2 = RtoC (m11 * m22 - m12 * m21))%C ->
  Cmod l1 < 1 -> Cmod l2 < 1 ->
  exists K, 0 <= K /\ forall (e v p q : nat -> R) (B : R), 0 <= B ->
  (forall k, e (S k) = m11 * e k + m12 * v k + p k) ->
  (forall k, v (S k) = m21 * e k + m22 * v k + q k) ->
  eventually_below p B -> eventually_below q B ->
  eventually_below e (K * B) /\ eventually_below v (K * B).
Proof.
  intros Ht Hd H1 H2. destruct (two_bounded m11 m12 m21 m22 l1 l2 Ht Hd H1 H2) as (K & HK & HBd).
  exists K. split; auto. intros e v p q B HB He Hv Hp Hq.
  assert (G : forall eps, 0 < eps -> exists N, forall k, (N <= k)%nat ->
    Rabs (e k) <= K * B + eps /\ Rabs (v k) <= K * B + eps).
  { intros eps Heps. set (ep := eps / (2 * (K + 1))).
    assert (Hep : 0 < ep) by (apply Rdiv_lt_0_compat; lra).
    assert (EK : K * ep <= eps / 2).
    { apply Rle_trans with ((K + 1) * ep); [apply Rmult_le_compat_r; lra|]. right. unfold ep. field. lra. }
    destruct (Hp ep Hep) as [N1 HN1]. destruct (Hq ep Hep) as [N2 HN2].
    set (N := Nat.max N1 N2).
    set (F := fix F k := match k with
      | O => (0, 0)
      | S k => (m11 * fst (F k) + m12 * snd (F k) + p (N + k)%nat,
                m21 * fst (F k) + m22 * snd (F k) + q (N + k)%nat)
      end).
    assert (FB : forall k, Rabs (fst (F k)) <= K * (B + ep) /\ Rabs (snd (F k)) <= K * (B + ep)).
    { apply (HBd (fun k => fst (F k)) (fun k => snd (F k)) (fun k => p (N + k)%nat) (fun k => q (N + k)%nat));
        try (intros; reflexivity).
      - cbn. rewrite Rabs_R0. lra.
      - cbn. rewrite Rabs_R0. lra.
      - intros k. apply HN1. unfold N. lia.
      - intros k. apply HN2. unfold N. lia. }
    assert (V : vanishes (fun k => e (N + k)%nat - fst (F k)) /\ vanishes (fun k => v (N + k)%nat - snd (F k))).
    { apply (two_vanish m11 m12 m21 m22 l1 l2 Ht Hd _ _ (fun _ => 0) (fun _ => 0)); auto.
      - intros k. replace (N + S k)%nat with (S (N + k)) by lia. rewrite He. cbn [F fst snd]. fold F. ring.
      - intros k. replace (N + S k)%nat with (S (N + k)) by lia. rewrite Hv. cbn [F fst snd]. fold F. ring.
      - intros x Hx. exists 0%nat. intros. rewrite Rabs_R0. auto.
      - intros x Hx. exists 0%nat. intros. rewrite Rabs_R0. auto. }
    destruct V as [V1 V2]. destruct (V1 (eps / 2)) as [M1 HM1]; [lra|]. destruct (V2 (eps / 2)) as [M2 HM2]; [lra|].
    exists (N + Nat.max M1 M2)%nat. intros k Hk.
    set (j := (k - N)%nat). replace k with (N + j)%nat by (unfold j; lia).
    specialize (HM1 j ltac:(unfold j; lia)). specialize (HM2 j ltac:(unfold j; lia)). cbv beta in HM1, HM2.
    destruct (FB j) as [F1 F2]. split.
    - replace (e (N + j)%nat) with ((e (N + j)%nat - fst (F j)) + fst (F j)) by ring.
      eapply Rle_trans; [apply Rabs_triang|]. lra.
    - replace (v (N + j)%nat) with ((v (N + j)%nat - snd (F j)) + snd (F j)) by ring.
      eapply Rle_trans; [apply Rabs_triang|]. lra. }
  split; intros eps Heps; destruct (G eps Heps) as [N HN]; exists N; intros k Hk; apply HN; auto.
Qed.

Lemma rk4_eventually h c k : rk4_shrinks h c k ->
  exists K, 0 <= K /\ forall (e v p q : nat -> R) (B : R), 0 <= B ->
  (forall j, e (S j) = ra h c k * e j + rb h c k * h * v j + p j) ->
  (forall j, v (S j) = - rb h c k * h * k * e j + (ra h c k - rb h c k * h * c) * v j + q j) ->
  eventually_below p B -> eventually_below q B ->
  eventually_below e (K * B) /\ eventually_below v (K * B).
Proof.
  intros Hst. destruct (quadratic_roots (- c) k) as (mu1 & mu2 & Hs & Hpr).
  destruct (rk4_eigenvalues h c k mu1 mu2 Hs Hpr) as [Ht Hd].
  apply (rk4_shrinks_roots h c k mu1 mu2 Hs Hpr) in Hst. destruct Hst as [H1 H2].
  exact (two_eventually _ _ _ _ _ _ Ht Hd H1 H2).
Qed.

Lemma euler_eventually h c k : euler_shrinks h c k ->
  exists K, 0 <= K /\ forall (e v p q : nat -> R) (B : R), 0 <= B ->
  (forall j, e (S j) = (1 - h ^ 2 * k) * e j + h * (1 - h * c) * v j + p j) ->
  (forall j, v (S j) = - h * k * e j + (1 - h * c) * v j + q j) ->
  eventually_below p B -> eventually_below q B ->
  eventually_below e (K * B) /\ eventually_below v (K * B).
Proof.
  intros Hst.
  destruct (quadratic_roots (2 - h * c - h ^ 2 * k) (1 - h * c)) as (l1 & l2 & Ht & Hp).
  apply (two_eventually (1 - h ^ 2 * k) (h * (1 - h * c)) (- h * k) (1 - h * c) l1 l2).
  - rewrite Ht. f_equal. ring.
  - rewrite Hp. f_equal. ring.
  - apply Hst. unfold euler_growth. apply (root_of _ _ l1 l2 _ Ht Hp); auto.
  - apply Hst. unfold euler_growth. apply (root_of _ _ l1 l2 _ Ht Hp); auto.
Qed.

(** ** One step *)
Lemma abs_lin c x b u : Rabs c <= b -> Rabs x <= u -> Rabs (c * x) <= b * u.
Proof. intros Hc Hx. rewrite Rabs_mult. apply Rmult_le_compat; auto; apply Rabs_pos. Qed.

Lemma abs_plus x y a b : Rabs x <= a -> Rabs y <= b -> Rabs (x + y) <= a + b.
Proof. intros Hx Hy. eapply Rle_trans; [apply Rabs_triang|]. lra. Qed.

Definition stage_factor (h c k : R) : R := 1 + Rabs (h * c) + Rabs (h ^ 2 * k).

Lemma rk4_inputs a lt t y v d U C :
  a_precomputed a = None -> a_start_t a < a_goal_t a ->
  let tau := a_goal_t a - a_start_t a in
  let h := t - lt in
  let c := damping a d in let k := stiffness a d in
  let Z := stage_factor h c k in
  0 < h ->
  (forall Y V z, t <= z ->
     Rabs ((disturbance a (ft_phase (a_forcing_term a) z) d + coupling_acc a Y V d
       + a_p_gain a * tracking_error_or_zero (a_tracking_error a) d / h) / tau ^ 2) <= U) ->
  (forall Y V, Rabs (coupling_vel a Y V d / tau) <= C) ->
  let e := y d - a_goal_y a d in
  let s' := dmp_step_rk4 a lt t (y, v) in
  exists p q, Rabs p <= h ^ 2 * Z ^ 3 * U /\ Rabs q <= 2 * h * Z ^ 3 * U + C
  /\ fst s' d - a_goal_y a d = ra h c k * e + rb h c k * h * v d + p
  /\ snd s' d = - rb h c k * h * k * e + (ra h c k - rb h c k * h * c) * v d + q.
Proof.
  intros Hp Ht tau h c k Z Hh HU HC e s'.
  assert (Htau : tau <> 0) by (unfold tau; lra).
  set (u := fun Y V z => (disturbance a (ft_phase (a_forcing_term a) z) d + coupling_acc a Y V d
       + a_p_gain a * tracking_error_or_zero (a_tracking_error a) d / h) / tau ^ 2) in *.
  assert (Hacc : forall Y V z, acc_of a h Y V (ft_phase (a_forcing_term a) z)
       (ft_forces (a_forcing_term a) (ft_phase (a_forcing_term a) z)) d
     = - k * (Y d - a_goal_y a d) - c * V d + u Y V z).
  { intros. rewrite acc_of_disturbed by (auto; lra). reflexivity. }
  set (K0 := acc_of a h y v (ft_phase (a_forcing_term a) t)
       (ft_forces (a_forcing_term a) (ft_phase (a_forcing_term a) t))).
  set (C1 := vadd v (vscale (/ 2 * h) K0)).
  set (Y1 := vadd y (vscale (/ 2 * h) v)).
  set (K1 := acc_of a h Y1 C1 (ft_phase (a_forcing_term a) (t + / 2 * h))
       (ft_forces (a_forcing_term a) (ft_phase (a_forcing_term a) (t + / 2 * h)))).
  set (C2 := vadd v (vscale (/ 2 * h) K1)).
  set (Y2 := vadd y (vscale (/ 2 * h) C1)).
  set (K2 := acc_of a h Y2 C2 (ft_phase (a_forcing_term a) (t + / 2 * h))
       (ft_forces (a_forcing_term a) (ft_phase (a_forcing_term a) (t + / 2 * h)))).
  set (C3 := vadd v (vscale h K2)).
  set (Y3 := vadd y (vscale h C2)).
  set (K3 := acc_of a h Y3 C3 (ft_phase (a_forcing_term a) (t + h))
       (ft_forces (a_forcing_term a) (ft_phase (a_forcing_term a) (t + h)))).
  assert (E : exists q, Rabs q <= C
     /\ fst s' d = y d + h * (v d + h / 6 * (K0 d + K1 d + K2 d))
     /\ snd s' d = v d + h / 6 * (K0 d + 2 * K1 d + 2 * K2 d + K3 d) + q).
  { unfold s', dmp_step_rk4.
    destruct (a_coupling_term a) as [cc|] eqn:Ec; cbn [fst snd].
    - match goal with |- context [cc ?Y ?V] => pose proof (HC Y V) as HCq;
        exists (fst (cc Y V) d / tau) end.
      unfold coupling_vel in HCq. rewrite Ec in HCq. split; [exact HCq|].
      unfold vadd at 1, vdivs at 1. rewrite <- Ec. split; reflexivity.
    - exists 0. split.
      + rewrite Rabs_R0. specialize (HC y v). pose proof (Rabs_pos (coupling_vel a y v d / tau)). lra.
      + rewrite Rplus_0_r. rewrite <- Ec. split; reflexivity. }
  destruct E as (q & Hq & Ey & Ev).
  pose proof (Hacc y v t) as A0. fold K0 in A0.
  pose proof (Hacc Y1 C1 (t + / 2 * h)) as A1. fold K1 in A1.
  pose proof (Hacc Y2 C2 (t + / 2 * h)) as A2. fold K2 in A2.
  pose proof (Hacc Y3 C3 (t + h)) as A3. fold K3 in A3.
  assert (U0 : Rabs (u y v t) <= U) by (apply HU; lra).
  assert (U1 : Rabs (u Y1 C1 (t + / 2 * h)) <= U) by (apply HU; lra).
  assert (U2 : Rabs (u Y2 C2 (t + / 2 * h)) <= U) by (apply HU; lra).
  assert (U3 : Rabs (u Y3 C3 (t + h)) <= U) by (apply HU; lra).
  set (u0 := u y v t) in *. set (u1 := u Y1 C1 (t + / 2 * h)) in *.
  set (u2 := u Y2 C2 (t + / 2 * h)) in *. set (u3 := u Y3 C3 (t + h)) in *.
  assert (HU0 : 0 <= U) by (eapply Rle_trans; [apply Rabs_pos|exact U0]).
  clearbody u0 u1 u2 u3.
  assert (C1d : C1 d = v d + / 2 * h * K0 d) by reflexivity.
  assert (C2d : C2 d = v d + / 2 * h * K1 d) by reflexivity.
  assert (C3d : C3 d = v d + h * K2 d) by reflexivity.
  assert (Y1d : Y1 d = y d + / 2 * h * v d) by reflexivity.
  assert (Y2d : Y2 d = y d + / 2 * h * C1 d) by reflexivity.
  assert (Y3d : Y3 d = y d + h * C2 d) by reflexivity.
  set (g := a_goal_y a d) in *.
  set (x := h * c) in *. set (z := h ^ 2 * k) in *.
  set (i1 := - (/ 2 * x) * u0 + u1).
  set (i2 := - (/ 4 * z) * u0 + (- (/ 2 * x) * i1 + u2)).
  set (i3 := - (/ 2 * z) * i1 + (- x * i2 + u3)).
  pose proof (Rabs_pos x) as Hx. pose proof (Rabs_pos z) as Hz.
  assert (HZ : 1 <= Z) by (unfold Z, stage_factor; fold x z; lra).
  assert (HxZ : Rabs x <= Z - 1) by (unfold Z, stage_factor; fold x z; lra).
  assert (HzZ : Rabs z <= Z - 1) by (unfold Z, stage_factor; fold x z; lra).
  assert (Hm : forall r w : R, 0 <= r <= 1 -> Rabs w <= Z - 1 -> Rabs (- (r * w)) <= Z - 1).
  { intros r w Hr Hw. rewrite Rabs_Ropp, Rabs_mult, Rabs_pos_eq by lra. pose proof (Rabs_pos w). nra. }
  assert (B1 : Rabs i1 <= Z * U).
  { unfold i1. eapply Rle_trans; [apply abs_plus; [apply abs_lin; [apply (Hm (/2) x); lra|exact U0]|exact U1]|]. nra. }
  assert (B2 : Rabs i2 <= 2 * Z ^ 2 * U).
  { unfold i2. eapply Rle_trans; [apply abs_plus; [apply abs_lin; [apply (Hm (/4) z); lra|exact U0]|
      apply abs_plus; [apply abs_lin; [apply (Hm (/2) x); lra|exact B1]|exact U2]]|].
    replace ((Z - 1) * U + ((Z - 1) * (Z * U) + U)) with (Z ^ 2 * U) by ring.
    assert (0 <= Z ^ 2 * U) by (apply Rmult_le_pos; [apply pow_le; lra|auto]). lra. }
  assert (HxZ' : Rabs (- x) <= Z - 1) by now rewrite Rabs_Ropp.
  assert (HZ2 : 0 <= Z ^ 2 * U) by (apply Rmult_le_pos; [apply pow_le; lra|auto]).
  assert (HZ3 : Z ^ 2 * U <= Z ^ 3 * U).
  { replace (Z ^ 3 * U) with (Z * (Z ^ 2 * U)) by ring. nra. }
  assert (HZ1 : Z * U <= Z ^ 2 * U) by (replace (Z ^ 2 * U) with (Z * (Z * U)) by ring; nra).
  assert (HZ0 : U <= Z * U) by nra.
  assert (B3 : Rabs i3 <= 2 * Z ^ 3 * U).
  { unfold i3. eapply Rle_trans; [apply abs_plus; [apply abs_lin; [apply (Hm (/2) z); lra|exact B1]|
      apply abs_plus; [apply abs_lin; [exact HxZ'|exact B2]|exact U3]]|].
    replace ((Z - 1) * (Z * U) + ((Z - 1) * (2 * Z ^ 2 * U) + U))
      with (2 * (Z ^ 3 * U) - Z ^ 2 * U - Z * U + U) by ring. lra. }
  exists (h ^ 2 / 6 * (u0 + i1 + i2)), (h / 6 * (u0 + 2 * i1 + 2 * i2 + i3) + q).
  assert (Hh2 : 0 <= h ^ 2 / 6) by nra.
  split.
  { rewrite Rabs_mult, (Rabs_pos_eq (h ^ 2 / 6)) by auto.
    apply Rle_trans with (h ^ 2 / 6 * (6 * (Z ^ 3 * U))); [|right; field].
    apply Rmult_le_compat_l; auto.
    eapply Rle_trans; [apply abs_plus; [apply abs_plus; [exact U0|exact B1]|exact B2]|]. lra. }
  split.
  { apply abs_plus; auto. rewrite Rabs_mult, (Rabs_pos_eq (h / 6)) by lra.
    apply Rle_trans with (h / 6 * (12 * (Z ^ 3 * U))); [|right; field].
    apply Rmult_le_compat_l; [lra|].
    assert (R2 : Rabs 2 <= 2) by (rewrite Rabs_pos_eq; lra).
    eapply Rle_trans; [apply abs_plus; [apply abs_plus; [apply abs_plus; [exact U0|apply abs_lin; [exact R2|exact B1]]
      |apply abs_lin; [exact R2|exact B2]]|exact B3]|]. lra. }
  unfold e, i3, i2, i1, ra, rb. split.
  - rewrite Ey. rewrite A2, Y2d, C2d, A1, Y1d, C1d, A0. unfold x, z. field.
  - rewrite Ev. rewrite A3, Y3d, C3d, A2, Y2d, C2d, A1, Y1d, C1d, A0. unfold x, z. field.
Qed.

Lemma euler_inputs fn a c' h s d U C :
  fn = Euler \/ fn = Euler_cython ->
  a_precomputed a = None -> a_start_t a < a_goal_t a ->
  let tau := a_goal_t a - a_start_t a in
  let c := damping a d in let k := stiffness a d in
  0 < h ->
  (forall Y V, Rabs ((disturbance a (ft_phase (a_forcing_term a) c') d + coupling_acc a Y V d) / tau ^ 2) <= U) ->
  (forall Y V, Rabs (a_p_gain a * tracking_error_or_zero (a_tracking_error a) d / tau ^ 2)
     + Rabs (coupling_vel a Y V d / tau) <= C) ->
  let e := fst s d - a_goal_y a d in let v := snd s d in
  let s' := euler_fn_body fn a c' h s in
  exists p q, Rabs p <= h ^ 2 * U + h * C /\ Rabs q <= h * U + C
  /\ fst s' d - a_goal_y a d = (1 - h ^ 2 * k) * e + h * (1 - h * c) * v + p
  /\ snd s' d = - h * k * e + (1 - h * c) * v + q.
Proof.
  intros Hfn Hp Ht tau c k Hh HU HC. destruct s as [y v]. cbn [fst snd].
  assert (Htau : 0 < tau) by (unfold tau; lra).
  set (z := ft_phase (a_forcing_term a) c') in *.
  set (p := a_p_gain a * tracking_error_or_zero (a_tracking_error a) d / tau ^ 2) in *.
  specialize (HU y v). set (u := (disturbance a z d + coupling_acc a y v d) / tau ^ 2) in *.
  assert (Hacc : acc_of a h y v z (ft_forces (a_forcing_term a) z) d
     = - k * (y d - a_goal_y a d) - c * v d + (u + p / h)).
  { rewrite acc_of_disturbed by (auto; lra). fold tau. unfold k, c, stiffness, damping. fold tau.
    unfold u, p. field. lra. }
  assert (HhU : h * Rabs u <= h * U) by (apply Rmult_le_compat_l; lra).
  destruct Hfn as [-> | ->]; cbn [euler_fn_body].
  - assert (E : exists q, Rabs p + Rabs q <= C
       /\ fst (euler_body a c' h (y, v)) d = y d + h * (v d + h * (- k * (y d - a_goal_y a d) - c * v d + (u + p / h)))
       /\ snd (euler_body a c' h (y, v)) d = v d + h * (- k * (y d - a_goal_y a d) - c * v d + (u + p / h)) + q).
    { unfold euler_body. cbv zeta. fold z.
      change (dmp_acc _ _ _ _ _ _ _ _ _ _ _ _ _)
        with (acc_of a h y v z (ft_forces (a_forcing_term a) z)).
      set (A := acc_of a h y v z (ft_forces (a_forcing_term a) z)) in *.
      destruct (a_coupling_term a) as [cc|] eqn:Ec; cbn [fst snd].
      - set (yd1 := vadd v (vscale h A)). set (y1 := vadd y (vscale h yd1)).
        exists (fst (cc y1 yd1) d / tau). split.
        + specialize (HC y1 yd1). unfold coupling_vel in HC. rewrite Ec in HC. exact HC.
        + rewrite <- Hacc. fold A. split; [unfold y1, yd1, vadd, vscale; ring|].
          unfold vadd at 1, vdivs. fold tau. reflexivity.
      - exists 0. split.
        + specialize (HC y v). unfold coupling_vel in HC. rewrite Ec in HC. unfold vzero in HC.
          replace (0 / tau) with 0 in HC by (field; lra). exact HC.
        + rewrite <- Hacc. unfold vadd, vscale. split; ring. }
    destruct E as (q & Hq & Ey & Ev).
    exists (h ^ 2 * u + h * p), (h * u + p + q).
    pose proof (Rabs_pos p). pose proof (Rabs_pos q).
    split; [|split; [|split]].
    + apply abs_plus.
      * rewrite Rabs_mult, Rabs_pos_eq by (apply pow_le; lra). apply Rmult_le_compat_l; auto. apply pow_le; lra.
      * rewrite Rabs_mult, Rabs_pos_eq by lra. apply Rmult_le_compat_l; lra.
    + rewrite Rplus_assoc. apply abs_plus.
      * rewrite Rabs_mult, Rabs_pos_eq by lra. exact HhU.
      * eapply Rle_trans; [apply Rabs_triang|]. exact Hq.
    + rewrite Ey. field. lra.
    + rewrite Ev. field. lra.
  - set (q := coupling_vel a y v d / tau).
    specialize (HC y v). fold q in HC.
    set (v1 := v d + h * (- k * (y d - a_goal_y a d) - c * v d + (u + (p + q) / h))).
    assert (Ev : snd (euler_cython_body a c' h (y, v)) d = v1).
    { unfold euler_cython_body, v1, q, coupling_vel, u, p, coupling_acc, disturbance, k, c, stiffness, damping.
      fold z. rewrite Hp.
      destruct (a_coupling_term a) as [cc|]; destruct (a_tracking_error a);
        try (destruct (cc y v) as [cd cdd] eqn:Ecc); cbn [fst snd tracking_error_or_zero];
        fold tau; unfold vzero; destruct (a_smooth_scaling a); field; lra. }
    assert (Ey : fst (euler_cython_body a c' h (y, v)) d = y d + h * v1).
    { rewrite <- Ev. unfold euler_cython_body.
      destruct (a_coupling_term a) as [cc|]; [destruct (cc y v)|rewrite Hp]; cbn [fst snd]; ring. }
    pose proof (Rabs_pos p). pose proof (Rabs_pos q). pose proof (Rabs_triang p q).
    exists (h ^ 2 * u + h * (p + q)), (h * u + (p + q)).
    split; [|split; [|split]].
    + apply abs_plus.
      * rewrite Rabs_mult, Rabs_pos_eq by (apply pow_le; lra). apply Rmult_le_compat_l; auto. apply pow_le; lra.
      * rewrite Rabs_mult, Rabs_pos_eq by lra. apply Rmult_le_compat_l; lra.
    + apply abs_plus.
      * rewrite Rabs_mult, Rabs_pos_eq by lra. exact HhU.
      * lra.
    + rewrite Ey. unfold v1. field. lra.
    + rewrite Ev. unfold v1. field. lra.
Qed.

(** ** Runs *)
Lemma rk4_disturbed_run_all dt al be tau pg : 0 < dt -> 0 < tau ->
  rk4_shrinks dt (al / tau) (al * be / tau ^ 2) ->
  exists K, 0 <= K /\ forall a d f dist g B M t0 s,
  disturbed_args a d f dist g al be tau pg B ->
  phase_ok f -> 0 <= B -> 0 <= M ->
  (forall z, 0 <= z -> Rabs (dist z) <= M * z) ->
  (forall k, s (S k) = dmp_step_rk4 (a k) (t0 + INR k * dt) (t0 + INR (S k) * dt) (s k)) ->
  eventually_below (fun k => fst (s k) d - g) (K * B)
  /\ eventually_below (fun k => snd (s k) d) (K * B).
Proof.
  intros Hdt Htau Hsh. set (c := al / tau) in *. set (kk := al * be / tau ^ 2) in *.
  destruct (rk4_eventually dt c kk Hsh) as (K & HK & H).
  set (u1 := (1 + Rabs pg / dt) / tau ^ 2). set (Z := stage_factor dt c kk).
  assert (Ht2 : 0 < tau ^ 2) by nra.
  assert (Hti : 0 < / tau) by now apply Rinv_0_lt_compat.
  assert (Hu1 : 0 <= u1).
  { unfold u1. apply Rmult_le_pos; [|apply Rlt_le, Rinv_0_lt_compat; auto].
    assert (0 <= Rabs pg / dt) by (apply Rmult_le_pos; [apply Rabs_pos|apply Rlt_le, Rinv_0_lt_compat; auto]).
    lra. }
  assert (HZ : 0 <= Z ^ 3).
  { apply pow_le; unfold Z, stage_factor; pose proof (Rabs_pos (dt * c)). pose proof (Rabs_pos (dt ^ 2 * kk)). lra. }
  assert (Hd2 : 0 <= dt ^ 2) by nra. assert (Hd1 : 0 <= 2 * dt) by lra.
  assert (Pos3 : forall x y z, 0 <= x -> 0 <= y -> 0 <= z -> 0 <= x * y * z)
    by (intros; apply Rmult_le_pos; [apply Rmult_le_pos; auto|auto]).
  set (m := dt ^ 2 * Z ^ 3 * u1 + (2 * dt * Z ^ 3 * u1 + / tau)).
  assert (Hm1 : 0 <= dt ^ 2 * Z ^ 3 * u1) by (apply Pos3; auto).
  assert (Hm2 : 0 <= 2 * dt * Z ^ 3 * u1) by (apply Pos3; auto).
  exists (K * m). split; [apply Rmult_le_pos; unfold m; lra|].
  intros a d f dist g B M t0 s A Hph HB HM Hdist Hs. destruct A as [da_pre da_start da_goal_t da_alpha da_beta da_goal da_ft da_dist da_p da_te da_coupling].
  destruct (phase_input f dist M tau t0 dt Hph Hdt Htau HM Hdist) as (Hbv & Hb0 & Hb).
  set (b := fun k => M / tau ^ 2 * ft_phase f (t0 + INR k * dt)) in *.
  change (forall k, 0 <= b k) in Hb0.
  change (forall k c, t0 + INR k * dt <= c -> Rabs (dist (ft_phase f c)) / tau ^ 2 <= b k) in Hb.
  set (U := fun k => b k + u1 * B).
  assert (HU1 : 0 <= u1 * B) by now apply Rmult_le_pos.
  assert (HU : eventually_below U (0 + u1 * B)).
  { apply eventually_below_plus; [now apply eventually_below_vanishes|]. now apply eventually_below_const. }
  rewrite Rplus_0_l in HU.
  assert (Hstep : forall k, exists pq,
     Rabs (fst pq) <= dt ^ 2 * Z ^ 3 * U k /\ Rabs (snd pq) <= 2 * dt * Z ^ 3 * U k + B / tau
     /\ fst (s (S k)) d - g = ra dt c kk * (fst (s k) d - g) + rb dt c kk * dt * snd (s k) d + fst pq
     /\ snd (s (S k)) d = - rb dt c kk * dt * kk * (fst (s k) d - g)
          + (ra dt c kk - rb dt c kk * dt * c) * snd (s k) d + snd pq).
  { intros k. rewrite Hs. destruct (s k) as [y v] eqn:Es. cbn [fst snd].
    pose proof (rk4_inputs (a k) (t0 + INR k * dt) (t0 + INR (S k) * dt) y v d (U k) (B / tau)) as HT.
    cbv zeta in HT. unfold damping, stiffness in HT.
    rewrite da_goal_t, da_start, da_alpha, da_beta, da_goal, da_ft, da_p in HT.
    rewrite Rminus_0_r in HT. fold c kk in HT.
    replace (t0 + INR (S k) * dt - (t0 + INR k * dt)) with dt in HT by (rewrite S_INR; ring).
    fold Z in HT. destruct HT as (p & q & HT); auto.
    - intros Y V z Hz.
      rewrite da_dist, Rabs_div_pos by auto.
      assert (H1 : Rabs (dist (ft_phase f z)) / tau ^ 2 <= b k).
      { apply Hb. rewrite S_INR in Hz. lra. }
      pose proof (coupling_acc_bound (a k) Y V B d HB (da_coupling k)) as H2.
      specialize (da_te k). set (te := tracking_error_or_zero (a_tracking_error (a k)) d) in *.
      assert (H3 : Rabs (pg * te / dt) <= Rabs pg / dt * B).
      { rewrite Rabs_div_pos, Rabs_mult by auto.
        replace (Rabs pg / dt * B) with (Rabs pg * B / dt) by (field; lra).
        apply Rmult_le_compat_r; [apply Rlt_le, Rinv_0_lt_compat; auto|].
        apply Rmult_le_compat_l; [apply Rabs_pos|auto]. }
      assert (H4 : Rabs (dist (ft_phase f z) + coupling_acc (a k) Y V d + pg * te / dt)
          <= Rabs (dist (ft_phase f z)) + (1 + Rabs pg / dt) * B).
      { eapply Rle_trans; [apply Rabs_triang|].
        eapply Rle_trans; [apply Rplus_le_compat_r, Rabs_triang|]. lra. }
      apply Rle_trans with ((Rabs (dist (ft_phase f z)) + (1 + Rabs pg / dt) * B) / tau ^ 2).
      + apply Rmult_le_compat_r; [apply Rlt_le, Rinv_0_lt_compat; auto|auto].
      + unfold U, u1.
        replace ((Rabs (dist (ft_phase f z)) + (1 + Rabs pg / dt) * B) / tau ^ 2)
          with (Rabs (dist (ft_phase f z)) / tau ^ 2 + (1 + Rabs pg / dt) / tau ^ 2 * B) by (field; lra).
        lra.
    - intros Y V. rewrite Rabs_div_pos by auto.
      apply Rmult_le_compat_r; [apply Rlt_le, Rinv_0_lt_compat; auto|].
      apply coupling_vel_bound; auto.
    - exists (p, q). exact HT. }
  set (pq := fun k => (fst (s (S k)) d - g - (ra dt c kk * (fst (s k) d - g) + rb dt c kk * dt * snd (s k) d),
    snd (s (S k)) d - (- rb dt c kk * dt * kk * (fst (s k) d - g) + (ra dt c kk - rb dt c kk * dt * c) * snd (s k) d))).
  assert (Hpq : forall k, Rabs (fst (pq k)) <= dt ^ 2 * Z ^ 3 * U k
     /\ Rabs (snd (pq k)) <= 2 * dt * Z ^ 3 * U k + B / tau).
  { intros k. destruct (Hstep k) as ((p & q) & P1 & P2 & P3 & P4). unfold pq. cbn [fst snd] in *.
    rewrite P3, P4.
    split; [refine (Rle_trans _ _ _ _ P1)|refine (Rle_trans _ _ _ _ P2)]; right; f_equal; ring. }
  rewrite Rmult_assoc.
  assert (HUab : forall k, 0 <= U k) by (intros k; unfold U; specialize (Hb0 k); lra).
  apply (H (fun k => fst (s k) d - g) (fun k => snd (s k) d) (fun k => fst (pq k)) (fun k => snd (pq k)) (m * B)).
  - apply Rmult_le_pos; auto. unfold m. lra.
  - intros k. unfold pq. cbn [fst snd]. ring.
  - intros k. unfold pq. cbn [fst snd]. ring.
  - apply (eventually_below_mono _ (dt ^ 2 * Z ^ 3 * (u1 * B))).
    { unfold m. assert (0 <= (2 * dt * Z ^ 3 * u1 + / tau) * B) by (apply Rmult_le_pos; lra). lra. }
    apply (eventually_below_le _ (fun k => dt ^ 2 * Z ^ 3 * U k)).
    + intros k. rewrite (Rabs_pos_eq (dt ^ 2 * Z ^ 3 * U k)).
      * apply Hpq.
      * apply Pos3; auto.
    + apply eventually_below_scal; auto. apply Rmult_le_pos; auto; nra.
  - apply (eventually_below_mono _ (2 * dt * Z ^ 3 * (u1 * B) + B / tau)).
    { unfold m. assert (0 <= dt ^ 2 * Z ^ 3 * u1 * B) by (apply Rmult_le_pos; lra).
      unfold Rdiv. lra. }
    assert (HBt : 0 <= B / tau) by (apply Rmult_le_pos; lra).
    apply (eventually_below_le _ (fun k => 2 * dt * Z ^ 3 * U k + B / tau)).
    + intros k. rewrite (Rabs_pos_eq (2 * dt * Z ^ 3 * U k + B / tau)).
      * apply Hpq.
      * assert (0 <= 2 * dt * Z ^ 3 * U k) by (apply Pos3; auto). lra.
    + apply eventually_below_plus.
      * apply eventually_below_scal; auto. apply Rmult_le_pos; auto; lra.
      * now apply eventually_below_const.
Qed.

(** All sub-steps of all steps, each with the arguments of its step. *)
Fixpoint all_substates (body : nat -> R -> R -> vec * vec -> vec * vec) (m : nat) (t0 h : R) (x : vec * vec) (j : nat)
  : vec * vec :=
  match j with
  | O => x
  | S j => body (j / m)%nat (t0 + INR (S j) * h) h (all_substates body m t0 h x j)
  end.

Lemma all_substates_step body m t0 h x k : forall n, (n <= m)%nat -> (0 < m)%nat ->
  exec_substeps (body k) (map (fun i => (t0 + INR (k * m) * h + INR i * h, h)) (seq 1 n))
    (all_substates body m t0 h x (k * m))
  = all_substates body m t0 h x (k * m + n).
Proof.
  induction n as [|n IH]; intros Hn Hm; [now rewrite Nat.add_0_r|].
  rewrite seq_S, map_app. unfold exec_substeps in *. rewrite fold_left_app, IH by lia.
  cbn [map fold_left fst snd]. replace (k * m + S n)%nat with (S (k * m + n)) by lia. cbn [all_substates].
  replace ((k * m + n) / m)%nat with k.
  - f_equal. replace (1 + n)%nat with (S n) by lia. rewrite !S_INR, plus_INR. ring.
  - rewrite Nat.add_comm, Nat.div_add by lia. rewrite Nat.div_small by lia. reflexivity.
Qed.

Lemma euler_disturbed_run_all dt int_dt h al be tau pg : 0 < dt -> 0 < int_dt -> 0 < tau ->
  substep_length dt int_dt h -> euler_shrinks h (al / tau) (al * be / tau ^ 2) ->
  exists K, 0 <= K /\ forall fn a d f dist g B M t0 s,
  fn = Euler \/ fn = Euler_cython ->
  disturbed_args a d f dist g al be tau pg B -> (forall k, a_int_dt (a k) = int_dt) ->
  phase_ok f -> 0 <= B -> 0 <= M ->
  (forall z, 0 <= z -> Rabs (dist z) <= M * z) -> 0 <= t0 ->
  (forall k, run_step_function fn (a k) (t0 + INR k * dt) (t0 + INR (S k) * dt) (s k) = Ok (s (S k))) ->
  eventually_below (fun k => fst (s k) d - g) (K * B)
  /\ eventually_below (fun k => snd (s k) d) (K * B).
Proof.
  intros Hdt Hi Htau Hsub Hsh. set (c := al / tau) in *. set (kk := al * be / tau ^ 2) in *.
  destruct (equal_tiles dt int_dt h Hdt Hi Hsub) as (m & Hm & Em & Hh & Htl).
  destruct (euler_eventually h c kk Hsh) as (K & HK & H).
  assert (Ht2 : 0 < tau ^ 2) by nra.
  assert (Hti : 0 < / tau) by now apply Rinv_0_lt_compat.
  assert (Ht2i : 0 < / tau ^ 2) by now apply Rinv_0_lt_compat.
  set (c1 := Rabs pg / tau ^ 2 + / tau).
  assert (Hc1 : 0 <= c1).
  { unfold c1. assert (0 <= Rabs pg / tau ^ 2) by (apply Rmult_le_pos; [apply Rabs_pos|lra]). lra. }
  set (w := (h ^ 2 * / tau ^ 2 + h * c1) + (h * / tau ^ 2 + c1)).
  assert (W1 : 0 <= h ^ 2 * / tau ^ 2) by (apply Rmult_le_pos; nra).
  assert (W2 : 0 <= h * c1) by (apply Rmult_le_pos; lra).
  assert (W3 : 0 <= h * / tau ^ 2) by (apply Rmult_le_pos; lra).
  exists (K * w). split; [apply Rmult_le_pos; unfold w; lra|].
  intros fn a d f dist g B M t0 s Hfn A Hint Hph HB HM Hdist Ht0 Hs. destruct A as [da_pre da_start da_goal_t da_alpha da_beta da_goal da_ft da_dist da_p da_te da_coupling].
  destruct (phase_input f dist M tau t0 h Hph Hh Htau HM Hdist) as (Hbv & Hb0 & Hb).
  set (b := fun k => M / tau ^ 2 * ft_phase f (t0 + INR k * h)) in *.
  change (forall k, 0 <= b k) in Hb0.
  change (forall k c, t0 + INR k * h <= c -> Rabs (dist (ft_phase f c)) / tau ^ 2 <= b k) in Hb.
  set (U := fun k => b k + B / tau ^ 2).
  assert (HB2 : 0 <= B / tau ^ 2) by (apply Rmult_le_pos; lra).
  assert (HU : eventually_below U (0 + B / tau ^ 2)).
  { apply eventually_below_plus; [now apply eventually_below_vanishes|]. now apply eventually_below_const. }
  rewrite Rplus_0_l in HU.
  set (r := all_substates (fun k => euler_fn_body fn (a k)) m t0 h (s 0%nat)).
  assert (Er : forall k, s k = r (k * m)%nat).
  { induction k as [|k IH]; [reflexivity|].
    pose proof (pos_INR k) as HIk.
    destruct (euler_fn_disturbed fn (a k) (t0 + INR k * dt) (t0 + INR (S k) * dt) (s k)) as (l & Hl & E); auto.
    { rewrite Hint; auto. } { rewrite da_start, da_goal_t; auto. }
    { rewrite da_start, S_INR. nra. } { rewrite S_INR. lra. }
    rewrite Hint in Hl. apply Htl in Hl; [|rewrite S_INR; ring].
    rewrite Hs in E. injection E as ->. rewrite IH. subst l.
    replace (t0 + INR k * dt) with (t0 + INR (k * m) * h) by (rewrite mult_INR, Em; ring).
    unfold r. rewrite (all_substates_step (fun k => euler_fn_body fn (a k)) m t0 h (s 0%nat) k m) by lia.
    f_equal. lia. }
  assert (Hstep : forall j, exists pq,
     Rabs (fst pq) <= h ^ 2 * U j + h * (c1 * B) /\ Rabs (snd pq) <= h * U j + c1 * B
     /\ fst (r (S j)) d - g = (1 - h ^ 2 * kk) * (fst (r j) d - g) + h * (1 - h * c) * snd (r j) d + fst pq
     /\ snd (r (S j)) d = - h * kk * (fst (r j) d - g) + (1 - h * c) * snd (r j) d + snd pq).
  { intros j. set (k := (j / m)%nat).
    change (r (S j)) with (euler_fn_body fn (a k) (t0 + INR (S j) * h) h (r j)).
    pose proof (euler_inputs fn (a k) (t0 + INR (S j) * h) h (r j) d (U j) (c1 * B) Hfn (da_pre k)) as HT.
    cbv zeta in HT. unfold damping, stiffness in HT.
    rewrite da_goal_t, da_start, da_alpha, da_beta, da_goal, da_ft, da_p in HT.
    rewrite Rminus_0_r in HT. fold c kk in HT.
    destruct HT as (p & q & HT); auto.
    - intros Y V. rewrite da_dist, Rabs_div_pos by auto.
      pose proof (coupling_acc_bound (a k) Y V B d HB (da_coupling k)) as H2.
      assert (H1 : Rabs (dist (ft_phase f (t0 + INR (S j) * h))) / tau ^ 2 <= b j).
      { apply Hb. rewrite S_INR. nra. }
      apply Rle_trans with ((Rabs (dist (ft_phase f (t0 + INR (S j) * h))) + B) / tau ^ 2).
      + apply Rmult_le_compat_r; [lra|].
        eapply Rle_trans; [apply Rabs_triang|]. lra.
      + unfold U. unfold Rdiv in *. lra.
    - intros Y V. rewrite !Rabs_div_pos, Rabs_mult by auto.
      pose proof (coupling_vel_bound (a k) Y V B d HB (da_coupling k)) as H2.
      specialize (da_te k). set (te := tracking_error_or_zero (a_tracking_error (a k)) d) in *.
      unfold c1. replace ((Rabs pg / tau ^ 2 + / tau) * B) with (Rabs pg * B / tau ^ 2 + B / tau) by (field; lra).
      apply Rplus_le_compat.
      + apply Rmult_le_compat_r; [lra|].
        apply Rmult_le_compat_l; [apply Rabs_pos|auto].
      + apply Rmult_le_compat_r; [lra|auto].
    - exists (p, q). exact HT. }
  set (pq := fun k => (fst (r (S k)) d - g - ((1 - h ^ 2 * kk) * (fst (r k) d - g) + h * (1 - h * c) * snd (r k) d),
    snd (r (S k)) d - (- h * kk * (fst (r k) d - g) + (1 - h * c) * snd (r k) d))).
  assert (Hpq : forall k, Rabs (fst (pq k)) <= h ^ 2 * U k + h * (c1 * B)
     /\ Rabs (snd (pq k)) <= h * U k + c1 * B).
  { intros k. destruct (Hstep k) as ((p & q) & P1 & P2 & P3 & P4). unfold pq. cbn [fst snd] in *.
    rewrite P3, P4.
    split; [refine (Rle_trans _ _ _ _ P1)|refine (Rle_trans _ _ _ _ P2)]; right; f_equal; ring. }
  assert (HUab : forall k, 0 <= U k) by (intros k; unfold U; specialize (Hb0 k); lra).
  assert (Hc1B : 0 <= c1 * B) by now apply Rmult_le_pos.
  assert (HR : eventually_below (fun j => fst (r j) d - g) (K * (w * B))
               /\ eventually_below (fun j => snd (r j) d) (K * (w * B))).
  { apply (H _ _ (fun k => fst (pq k)) (fun k => snd (pq k)) (w * B)).
    - apply Rmult_le_pos; auto. unfold w. lra.
    - intros k. unfold pq. cbn [fst snd]. ring.
    - intros k. unfold pq. cbn [fst snd]. ring.
    - apply (eventually_below_mono _ (h ^ 2 * (B / tau ^ 2) + h * (c1 * B))).
      { unfold w. assert (0 <= (h * / tau ^ 2 + c1) * B) by (apply Rmult_le_pos; lra). unfold Rdiv. lra. }
      apply (eventually_below_le _ (fun k => h ^ 2 * U k + h * (c1 * B))).
      + intros k. rewrite (Rabs_pos_eq (h ^ 2 * U k + h * (c1 * B))).
        * apply Hpq.
        * assert (0 <= h ^ 2 * U k) by (apply Rmult_le_pos; auto; nra).
          assert (0 <= h * (c1 * B)) by (apply Rmult_le_pos; lra). lra.
      + apply eventually_below_plus.
        * apply eventually_below_scal; auto. nra.
        * apply eventually_below_const. apply Rmult_le_pos; lra.
    - apply (eventually_below_mono _ (h * (B / tau ^ 2) + c1 * B)).
      { unfold w. assert (0 <= (h ^ 2 * / tau ^ 2 + h * c1) * B) by (apply Rmult_le_pos; lra). unfold Rdiv. lra. }
      apply (eventually_below_le _ (fun k => h * U k + c1 * B)).
      + intros k. rewrite (Rabs_pos_eq (h * U k + c1 * B)).
        * apply Hpq.
        * assert (0 <= h * U k) by (apply Rmult_le_pos; auto; lra). lra.
      + apply eventually_below_plus.
        * apply eventually_below_scal; auto. lra.
        * now apply eventually_below_const. }
  rewrite Rmult_assoc. destruct HR as [R1 R2]. split; intros eps He.
  - destruct (R1 eps He) as [N HN]. exists N. intros k Hk. rewrite Er. apply HN. nia.
  - destruct (R2 eps He) as [N HN]. exists N. intros k Hk. rewrite Er. apply HN. nia.
Qed.
