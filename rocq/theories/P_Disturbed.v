(** A DMP under disturbances: one step of each integrator with any coupling
    term and any tracking error (C94). *)
From Coq Require Import Reals ZArith List Lia Lra Psatz FunctionalExtensionality.
From Coquelicot Require Import Coquelicot.
From Verif Require Import M_Prelude M_Canonical M_Forcing M_Dmp S_Dmp
  S_Loops P_Loops P_Canonical P_Forcing P_DmpStep P_DmpScale P_DmpLinear P_Converge.
Import ListNotations.
Open Scope R_scope.
Set Bullet Behavior "Strict Subproofs".

(** ** Eventual bounds *)
Definition eventually_below (u : nat -> R) (b : R) : Prop :=
  forall eps, 0 < eps -> exists N, forall k, (N <= k)%nat -> Rabs (u k) <= b + eps.

Lemma eventually_below_le u v b : (forall k, Rabs (u k) <= Rabs (v k)) ->
  eventually_below v b -> eventually_below u b.
Proof.
  intros H Hv eps He. destruct (Hv eps He) as [N HN]. exists N. intros k Hk.
  specialize (H k). specialize (HN k Hk). lra.
Qed.

Lemma eventually_below_plus u v a b :
  eventually_below u a -> eventually_below v b ->
  eventually_below (fun k => u k + v k) (a + b).
Proof.
  intros Hu Hv eps He. destruct (Hu (eps / 2)) as [N HN]; [lra|].
  destruct (Hv (eps / 2)) as [M HM]; [lra|].
  exists (Nat.max N M). intros k Hk. specialize (HN k ltac:(lia)). specialize (HM k ltac:(lia)).
  pose proof (Rabs_triang (u k) (v k)). lra.
Qed.

Lemma eventually_below_scal c u b : 0 <= c ->
  eventually_below u b -> eventually_below (fun k => c * u k) (c * b).
Proof.
  intros Hc Hu eps He. destruct (Hu (eps / (c + 1))) as [N HN].
  { apply Rmult_lt_0_compat; auto. apply Rinv_0_lt_compat. lra. }
  exists N. intros k Hk. specialize (HN k Hk). rewrite Rabs_mult, (Rabs_pos_eq c) by auto.
  assert (E : c * (eps / (c + 1)) <= eps).
  { apply Rle_trans with ((c + 1) * (eps / (c + 1))).
    - apply Rmult_le_compat_r; [|lra]. apply Rmult_le_pos; [lra|].
      apply Rlt_le, Rinv_0_lt_compat. lra.
    - apply Req_le. field. lra. }
  apply Rle_trans with (c * (b + eps / (c + 1))); [|lra].
  apply Rmult_le_compat_l; auto.
Qed.

Lemma eventually_below_const b : 0 <= b -> eventually_below (fun _ => b) b.
Proof. intros Hb eps He. exists 0%nat. intros. rewrite Rabs_pos_eq by auto. lra. Qed.

Lemma eventually_below_vanishes u : vanishes u -> eventually_below u 0.
Proof. intros H eps He. destruct (H eps He) as [N HN]. exists N. intros k Hk. specialize (HN k Hk). lra. Qed.

Lemma eventually_below_mono u a b : a <= b -> eventually_below u a -> eventually_below u b.
Proof. intros Hab H eps He. destruct (H eps He) as [N HN]. exists N. intros k Hk. specialize (HN k Hk). lra. Qed.

Lemma eventually_below_contraction (n b : nat -> R) (r c : R) :
  0 <= r < 1 ->
  (forall k, Rabs (n (S k)) <= r * Rabs (n k) + b k) ->
  eventually_below b c ->
  eventually_below n (c / (1 - r)).
Proof.
  intros Hr Hrec Hb eps He.
  destruct (Hb ((1 - r) * (eps / 2))) as [K HK]; [nra|].
  assert (Hc0 : 0 < 1 - r) by lra.
  set (L := c / (1 - r)). assert (HL : c = L * (1 - r)) by (unfold L; field; lra).
  assert (Hj : forall j, Rabs (n (K + j)%nat) <= r ^ j * (Rabs (n K) - L - eps / 2) + L + eps / 2).
  { induction j as [|j IH].
    - rewrite Nat.add_0_r. simpl. lra.
    - replace (K + S j)%nat with (S (K + j)) by lia.
      specialize (Hrec (K + j)%nat). specialize (HK (K + j)%nat ltac:(lia)).
      pose proof (Rle_abs (b (K + j)%nat)).
      simpl. set (p := r ^ j) in *. set (m := Rabs (n (K + j)%nat)) in *.
      set (q := Rabs (n K)) in *.
      assert (r * m <= r * (p * (q - L - eps / 2) + L + eps / 2)) by (apply Rmult_le_compat_l; lra).
      rewrite HL in HK. nra. }
  destruct (pow_vanishes r Hr (Rabs (n K) - L - eps / 2) (eps / 2)) as [J HJ]; [lra|].
  exists (K + J)%nat. intros k Hk.
  replace k with (K + (k - K))%nat by lia.
  specialize (Hj (k - K)%nat). specialize (HJ (k - K)%nat ltac:(lia)). lra.
Qed.

(** ** The disturbance of one acceleration *)
(** The arguments differ from undisturbed ones by a coupling term and a
    tracking error. *)
Definition bounded_coupling (B : R) (d : nat) (c : option coupling) : Prop :=
  match c with
  | None => True
  | Some c => forall y v, Rabs (fst (c y v) d) <= B /\ Rabs (snd (c y v) d) <= B
  end.

Definition coupling_acc (a : dmp_args) (Y V : vec) : vec :=
  match a_coupling_term a with Some c => snd (c Y V) | None => vzero end.
Definition coupling_vel (a : dmp_args) (Y V : vec) : vec :=
  match a_coupling_term a with Some c => fst (c Y V) | None => vzero end.

Lemma coupling_acc_bound a Y V B d : 0 <= B -> bounded_coupling B d (a_coupling_term a) ->
  Rabs (coupling_acc a Y V d) <= B.
Proof.
  intros HB H. unfold coupling_acc, bounded_coupling in *. destruct (a_coupling_term a).
  - apply H.
  - unfold vzero. rewrite Rabs_R0. auto.
Qed.
Lemma coupling_vel_bound a Y V B d : 0 <= B -> bounded_coupling B d (a_coupling_term a) ->
  Rabs (coupling_vel a Y V d) <= B.
Proof.
  intros HB H. unfold coupling_vel, bounded_coupling in *. destruct (a_coupling_term a).
  - apply H.
  - unfold vzero. rewrite Rabs_R0. auto.
Qed.

Lemma acc_of_disturbed a h Y V z d :
  a_precomputed a = None -> a_goal_t a <> a_start_t a ->
  let tau := a_goal_t a - a_start_t a in
  acc_of a h Y V z (ft_forces (a_forcing_term a) z) d
  = - (a_alpha_y a d * a_beta_y a d / tau ^ 2) * (Y d - a_goal_y a d)
    - a_alpha_y a d / tau * V d
    + (disturbance a z d + coupling_acc a Y V d
       + a_p_gain a * tracking_error_or_zero (a_tracking_error a) d / h) / tau ^ 2.
Proof.
  intros Hp Ht tau. unfold acc_of, dmp_acc, disturbance, precomputed_cdd, coupling_acc.
  rewrite Hp. fold tau.
  set (T := a_p_gain a * tracking_error_or_zero (a_tracking_error a) d / h).
  assert (tau <> 0) by (unfold tau; lra).
  destruct (a_coupling_term a); destruct (a_smooth_scaling a); unfold vzero; field; auto.
Qed.

(** ** RK4 *)
Lemma Rabs_le_between x b : - b <= x <= b -> Rabs x <= b.
Proof. intros. apply Rabs_le. lra. Qed.

Lemma rk4_disturbed a lt t y v d U C :
  a_precomputed a = None -> a_start_t a < a_goal_t a -> a_alpha_y a d = 4 * a_beta_y a d ->
  let tau := a_goal_t a - a_start_t a in
  let h := t - lt in
  let k := a_alpha_y a d / (2 * tau) in
  let x := k * h in
  0 < h -> 0 < x < 3 ->
  (forall Y V z, t <= z ->
     Rabs ((disturbance a (ft_phase (a_forcing_term a) z) d + coupling_acc a Y V d
       + a_p_gain a * tracking_error_or_zero (a_tracking_error a) d / h) / tau ^ 2) <= U) ->
  (forall Y V, Rabs (coupling_vel a Y V d / tau) <= C) ->
  let e := y d - a_goal_y a d in
  let w := v d + k * e in
  let s' := dmp_step_rk4 a lt t (y, v) in
  let e' := fst s' d - a_goal_y a d in
  let w' := snd s' d + k * e' in
  Rabs w' <= Rabs (rk4_factor x) * Rabs w + (6 * h * U + C)
  /\ Rabs e' <= Rabs (rk4_factor x) * Rabs e + (13 * h * Rabs w + 3 * h ^ 2 * U).
Proof.
  intros Hp Ht Hcd tau h k x Hh Hx HU HC e w s' e' w'.
  assert (Htau : tau <> 0) by (unfold tau; lra).
  assert (Hb : a_beta_y a d = k * tau / 2).
  { unfold k. rewrite Hcd. field. auto. }
  assert (Ha : a_alpha_y a d = 2 * k * tau) by (unfold k; field; auto).
  set (u := fun Y V z => (disturbance a (ft_phase (a_forcing_term a) z) d + coupling_acc a Y V d
       + a_p_gain a * tracking_error_or_zero (a_tracking_error a) d / h) / tau ^ 2) in *.
  assert (Hacc : forall Y V z, acc_of a h Y V (ft_phase (a_forcing_term a) z)
       (ft_forces (a_forcing_term a) (ft_phase (a_forcing_term a) z)) d
     = - k ^ 2 * (Y d - a_goal_y a d) - 2 * k * V d + u Y V z).
  { intros. rewrite acc_of_disturbed by (auto; lra). fold tau. fold (u Y V z). rewrite Hb, Ha.
    field. auto. }
  (* the accelerations of the four stages *)
  set (K0 := acc_of a h y v (ft_phase (a_forcing_term a) t)
       (ft_forces (a_forcing_term a) (ft_phase (a_forcing_term a) t))).
  set (C1 := vadd v (vscale (/ 2 * h) K0)).
  set (Y1 := vadd y (vscale (/ 2 * h) v)).
  set (K1 := acc_of a h Y1 C1 (ft_phase (a_forcing_term a) (t + / 2 * h))
       (ft_forces (a_forcing_term a) (ft_phase (a_forcing_term a) (t + / 2 * h)))).
  set (C2 := vadd v (vscale (/ 2 * h) K1)).
  set (Y2 := vadd y (vscale (/ 2 * h) C1)).
  set (K2 := acc_of a h Y2 C2 (ft_phase (a_forcing_term a) (t + / 2 * h))
       (ft_forces (a_forcing_term a) (ft_phase (a_forcing_term a) (t + / 2 * h)))).
  set (C3 := vadd v (vscale h K2)).
  set (Y3 := vadd y (vscale h C2)).
  set (K3 := acc_of a h Y3 C3 (ft_phase (a_forcing_term a) (t + h))
       (ft_forces (a_forcing_term a) (ft_phase (a_forcing_term a) (t + h)))).
  assert (E : exists q, Rabs q <= C
     /\ fst s' d = y d + h * (v d + h / 6 * (K0 d + K1 d + K2 d))
     /\ snd s' d = v d + h / 6 * (K0 d + 2 * K1 d + 2 * K2 d + K3 d) + q).
  { unfold s', dmp_step_rk4.
    destruct (a_coupling_term a) as [c|] eqn:Ec; cbn [fst snd].
    - match goal with |- context [c ?Y ?V] => pose proof (HC Y V) as HCq;
        exists (fst (c Y V) d / tau) end.
      unfold coupling_vel in HCq. rewrite Ec in HCq. split; [exact HCq|].
      unfold vadd at 1, vdivs at 1. rewrite <- Ec. split; reflexivity.
    - exists 0. split.
      + rewrite Rabs_R0. specialize (HC y v). pose proof (Rabs_pos (coupling_vel a y v d / tau)). lra.
      + rewrite Rplus_0_r. rewrite <- Ec. split; reflexivity. }
  destruct E as (q & Hq & Ey & Ev).
  pose proof (Hacc y v t) as A0. fold K0 in A0.
  pose proof (Hacc Y1 C1 (t + / 2 * h)) as A1. fold K1 in A1.
  pose proof (Hacc Y2 C2 (t + / 2 * h)) as A2. fold K2 in A2.
  pose proof (Hacc Y3 C3 (t + h)) as A3. fold K3 in A3.
  assert (U0 : Rabs (u y v t) <= U) by (apply HU; lra).
  assert (U1 : Rabs (u Y1 C1 (t + / 2 * h)) <= U) by (apply HU; lra).
  assert (U2 : Rabs (u Y2 C2 (t + / 2 * h)) <= U) by (apply HU; lra).
  assert (U3 : Rabs (u Y3 C3 (t + h)) <= U) by (apply HU; lra).
  set (u0 := u y v t) in *. set (u1 := u Y1 C1 (t + / 2 * h)) in *.
  set (u2 := u Y2 C2 (t + / 2 * h)) in *. set (u3 := u Y3 C3 (t + h)) in *.
  assert (HU0 : 0 <= U) by (eapply Rle_trans; [apply Rabs_pos|exact U0]).
  clearbody u0 u1 u2 u3.
  assert (C1d : C1 d = v d + / 2 * h * K0 d) by reflexivity.
  assert (C2d : C2 d = v d + / 2 * h * K1 d) by reflexivity.
  assert (C3d : C3 d = v d + h * K2 d) by reflexivity.
  assert (Y1d : Y1 d = y d + / 2 * h * v d) by reflexivity.
  assert (Y2d : Y2 d = y d + / 2 * h * C1 d) by reflexivity.
  assert (Y3d : Y3 d = y d + h * C2 d) by reflexivity.
  set (g := a_goal_y a d) in *.
  assert (Ew : w' = rk4_factor x * w
     + (h / 6 * ((1 - x + x ^ 2 / 2 - x ^ 3 / 4) * u0 + (2 - x + x ^ 2 / 2) * u1
                 + (2 - x) * u2 + u3) + q)).
  { unfold w', e', w, e. rewrite Ey, Ev. unfold rk4_factor, x.
    rewrite A3, Y3d, C3d, A2, Y2d, C2d, A1, Y1d, C1d, A0. field. }
  assert (Ee : e' = rk4_factor x * e + (h * (1 - x + x ^ 2 / 2 - x ^ 3 / 6) * w
     + h ^ 2 / 6 * ((1 - x + 3 / 4 * x ^ 2) * u0 + (1 - x) * u1 + u2))).
  { unfold w', e', w, e. rewrite Ey. unfold rk4_factor, x.
    rewrite A2, Y2d, C2d, A1, Y1d, C1d, A0. field. }
  assert (Hx2 : 0 <= x ^ 2 <= 9) by (split; [apply pow_le; lra|nra]).
  assert (Hx3 : 0 <= x ^ 3 <= 27).
  { split; [apply pow_le; lra|]. replace (x ^ 3) with (x * x ^ 2) by ring. nra. }
  assert (Hbd : forall c b uu, - b <= c <= b -> Rabs uu <= U -> Rabs (c * uu) <= b * U).
  { intros c b uu Hc Hu. rewrite Rabs_mult. apply Rmult_le_compat; try apply Rabs_pos; auto.
    now apply Rabs_le_between. }
  split.
  - rewrite Ew. eapply Rle_trans; [apply Rabs_triang|]. rewrite Rabs_mult.
    apply Rplus_le_compat_l. eapply Rle_trans; [apply Rabs_triang|].
    apply Rplus_le_compat; auto. rewrite Rabs_mult, (Rabs_pos_eq (h / 6)) by lra.
    apply Rle_trans with (h / 6 * (31 * U)); [|nra].
    apply Rmult_le_compat_l; [lra|].
    pose proof (Hbd (1 - x + x ^ 2 / 2 - x ^ 3 / 4) (61 / 4) u0 ltac:(lra) U0) as B0.
    pose proof (Hbd (2 - x + x ^ 2 / 2) (19 / 2) u1 ltac:(lra) U1) as B1.
    pose proof (Hbd (2 - x) 5 u2 ltac:(lra) U2) as B2.
    eapply Rle_trans; [apply Rabs_triang|].
    eapply Rle_trans; [apply Rplus_le_compat_r, Rabs_triang|].
    eapply Rle_trans; [apply Rplus_le_compat_r, Rplus_le_compat_r, Rabs_triang|]. lra.
  - rewrite Ee. eapply Rle_trans; [apply Rabs_triang|]. rewrite Rabs_mult.
    apply Rplus_le_compat_l. eapply Rle_trans; [apply Rabs_triang|].
    apply Rplus_le_compat.
    + rewrite !Rabs_mult, (Rabs_pos_eq h) by lra. apply Rmult_le_compat_r; [apply Rabs_pos|].
      assert (Rabs (1 - x + x ^ 2 / 2 - x ^ 3 / 6) <= 13) by (apply Rabs_le_between; lra). nra.
    + rewrite Rabs_mult, (Rabs_pos_eq (h ^ 2 / 6)) by nra.
      apply Rle_trans with (h ^ 2 / 6 * (16 * U)); [|nra].
      apply Rmult_le_compat_l; [nra|].
      pose proof (Hbd (1 - x + 3 / 4 * x ^ 2) (43 / 4) u0 ltac:(lra) U0) as B0.
      pose proof (Hbd (1 - x) 4 u1 ltac:(lra) U1) as B1.
      eapply Rle_trans; [apply Rabs_triang|].
      eapply Rle_trans; [apply Rplus_le_compat_r, Rabs_triang|]. lra.
Qed.

(** ** Euler *)
Lemma euler_norm_kick k e v q : euler_norm k e (v + q) <= euler_norm k e v + 2 * Rabs q.
Proof.
  unfold euler_norm. pose proof (Rabs_pos q).
  pose proof (Rmax_l (Rabs (k * e)) (2 * Rabs (v + k * e))).
  pose proof (Rmax_r (Rabs (k * e)) (2 * Rabs (v + k * e))).
  apply Rmax_lub; [lra|].
  replace (v + q + k * e) with ((v + k * e) + q) by ring.
  pose proof (Rabs_triang (v + k * e) q). lra.
Qed.

Definition euler_fn_body (fn : step_function) : dmp_args -> R -> R -> vec * vec -> vec * vec :=
  match fn with Euler_cython => euler_cython_body | _ => euler_body end.

(** [U] bounds forcing and coupling accelerations, [C] the velocity jumps (the
    tracking error is divided by the length of the sub-step and multiplied by
    it again). *)
Lemma euler_body_disturbed fn a c h s d U C :
  fn = Euler \/ fn = Euler_cython ->
  a_precomputed a = None -> a_start_t a < a_goal_t a ->
  a_alpha_y a d = 4 * a_beta_y a d -> 0 < a_alpha_y a d ->
  let tau := a_goal_t a - a_start_t a in
  let k := a_alpha_y a d / (2 * tau) in
  0 < h -> k * h <= 1 / 2 ->
  (forall Y V, Rabs ((disturbance a (ft_phase (a_forcing_term a) c) d + coupling_acc a Y V d) / tau ^ 2) <= U) ->
  (forall Y V, Rabs (a_p_gain a * tracking_error_or_zero (a_tracking_error a) d / tau ^ 2)
     + Rabs (coupling_vel a Y V d / tau) <= C) ->
  st_norm k (a_goal_y a) d (euler_fn_body fn a c h s)
  <= (1 - k * h / 2) * st_norm k (a_goal_y a) d s + (3 * h * U + 3 * C).
Proof.
  intros Hfn Hp Ht Hcd Hal tau k Hh Hx HU HC. destruct s as [y v].
  assert (Htau : 0 < tau) by (unfold tau; lra).
  assert (Hb : a_beta_y a d = k * tau / 2).
  { unfold k. rewrite Hcd. field. lra. }
  assert (Ha : a_alpha_y a d = 2 * k * tau) by (unfold k; field; lra).
  assert (Hk : 0 < k).
  { unfold k. apply Rmult_lt_0_compat; auto. apply Rinv_0_lt_compat. lra. }
  set (z := ft_phase (a_forcing_term a) c) in *.
  set (p := a_p_gain a * tracking_error_or_zero (a_tracking_error a) d / tau ^ 2) in *.
  specialize (HU y v). set (u := (disturbance a z d + coupling_acc a y v d) / tau ^ 2) in *.
  assert (Hacc : acc_of a h y v z (ft_forces (a_forcing_term a) z) d
     = - k ^ 2 * (y d - a_goal_y a d) - 2 * k * v d + (u + p / h)).
  { rewrite acc_of_disturbed by (auto; lra). fold tau. rewrite Hb, Ha. unfold u, p. field. lra. }
  destruct Hfn as [-> | ->]; cbn [euler_fn_body].
  - (* Python: the velocity coupling follows the position update *)
    set (v1 := v d + h * (- k ^ 2 * (y d - a_goal_y a d) - 2 * k * v d + (u + p / h))).
    set (e1 := y d - a_goal_y a d + h * v1).
    assert (E : exists q, Rabs p + Rabs q <= C
       /\ st_norm k (a_goal_y a) d (euler_body a c h (y, v)) = euler_norm k e1 (v1 + q)).
    { unfold euler_body, st_norm. cbv zeta. fold z.
      change (dmp_acc _ _ _ _ _ _ _ _ _ _ _ _ _)
        with (acc_of a h y v z (ft_forces (a_forcing_term a) z)).
      set (A := acc_of a h y v z (ft_forces (a_forcing_term a) z)) in *.
      destruct (a_coupling_term a) as [cc|] eqn:Ec; cbn [fst snd].
      - set (yd1 := vadd v (vscale h A)). set (y1 := vadd y (vscale h yd1)).
        exists (fst (cc y1 yd1) d / tau). split.
        + specialize (HC y1 yd1). unfold coupling_vel in HC. rewrite Ec in HC. exact HC.
        + assert (E1 : yd1 d = v1) by (unfold yd1, v1, vadd, vscale; now rewrite Hacc).
          f_equal.
          * unfold y1, e1, vadd, vscale. rewrite E1. ring.
          * unfold vadd at 1, vdivs. now rewrite E1.
      - exists 0. split.
        + specialize (HC y v). unfold coupling_vel in HC. rewrite Ec in HC. unfold vzero in HC.
          replace (0 / tau) with 0 in HC by (field; lra). exact HC.
        + unfold vadd, vscale. rewrite Hacc. fold v1. unfold e1. f_equal; ring. }
    destruct E as (q & Hq & ->).
    eapply Rle_trans; [apply euler_norm_kick|].
    pose proof (euler_norm_step k h (y d - a_goal_y a d) (v d) (u + p / h) Hk Hh Hx) as HN.
    cbv zeta in HN. fold v1 in HN. fold e1 in HN.
    unfold st_norm. cbn [fst snd].
    assert (H1 : 3 * h * Rabs (u + p / h) <= 3 * h * U + 3 * Rabs p).
    { pose proof (Rabs_triang u (p / h)) as HT.
      assert (Eph : h * Rabs (p / h) = Rabs p).
      { unfold Rdiv. rewrite Rabs_mult, Rabs_inv, (Rabs_pos_eq h) by lra. field. lra. }
      assert (h * Rabs (u + p / h) <= h * (Rabs u + Rabs (p / h))) by (apply Rmult_le_compat_l; lra).
      assert (h * Rabs u <= h * U) by (apply Rmult_le_compat_l; lra).
      lra. }
    pose proof (Rabs_pos q). lra.
  - (* Cython: the velocity coupling precedes the position update *)
    set (q := coupling_vel a y v d / tau).
    specialize (HC y v). fold q in HC.
    set (v1 := v d + h * (- k ^ 2 * (y d - a_goal_y a d) - 2 * k * v d + (u + (p + q) / h))).
    set (e1 := y d - a_goal_y a d + h * v1).
    assert (E : st_norm k (a_goal_y a) d (euler_cython_body a c h (y, v)) = euler_norm k e1 v1).
    { assert (Ev : snd (euler_cython_body a c h (y, v)) d = v1).
      { unfold euler_cython_body, v1, q, coupling_vel, u, p, coupling_acc, disturbance.
        fold z. rewrite Hp.
        destruct (a_coupling_term a) as [cc|]; destruct (a_tracking_error a);
          try (destruct (cc y v) as [cd cdd] eqn:Ecc); cbn [fst snd tracking_error_or_zero];
          fold tau; unfold vzero; destruct (a_smooth_scaling a); rewrite Ha, Hb; field; lra. }
      unfold st_norm. rewrite Ev. f_equal.
      unfold e1. rewrite <- Ev. unfold euler_cython_body.
      destruct (a_coupling_term a) as [cc|]; [destruct (cc y v)|rewrite Hp]; cbn [fst snd]; ring. }
    rewrite E.
    pose proof (euler_norm_step k h (y d - a_goal_y a d) (v d) (u + (p + q) / h) Hk Hh Hx) as HN.
    cbv zeta in HN. fold v1 in HN. fold e1 in HN.
    unfold st_norm. cbn [fst snd].
    assert (H1 : 3 * h * Rabs (u + (p + q) / h) <= 3 * h * U + 3 * (Rabs p + Rabs q)).
    { pose proof (Rabs_triang u ((p + q) / h)) as HT.
      assert (Eph : h * Rabs ((p + q) / h) = Rabs (p + q)).
      { unfold Rdiv. rewrite Rabs_mult, Rabs_inv, (Rabs_pos_eq h) by lra. field. lra. }
      pose proof (Rabs_triang p q).
      assert (h * Rabs (u + (p + q) / h) <= h * (Rabs u + Rabs ((p + q) / h)))
        by (apply Rmult_le_compat_l; lra).
      assert (h * Rabs u <= h * U) by (apply Rmult_le_compat_l; lra).
      lra. }
    lra.
Qed.

Lemma euler_substeps_disturbed fn a d U C :
  fn = Euler \/ fn = Euler_cython ->
  a_precomputed a = None -> a_start_t a < a_goal_t a ->
  a_alpha_y a d = 4 * a_beta_y a d -> 0 < a_alpha_y a d ->
  let tau := a_goal_t a - a_start_t a in
  let k := a_alpha_y a d / (2 * tau) in
  0 <= U ->
  (forall Y V, Rabs (a_p_gain a * tracking_error_or_zero (a_tracking_error a) d / tau ^ 2)
     + Rabs (coupling_vel a Y V d / tau) <= C) ->
  forall l lt t H s, k * H <= 1 / 2 -> tiles lt t H l ->
  (forall Y V c, lt <= c ->
     Rabs ((disturbance a (ft_phase (a_forcing_term a) c) d + coupling_acc a Y V d) / tau ^ 2) <= U) ->
  st_norm k (a_goal_y a) d (exec_substeps (euler_fn_body fn a) l s)
  <= exp (- (k * (t - lt) / 2)) * st_norm k (a_goal_y a) d s
     + (3 * (t - lt) * U + 3 * INR (length l) * C).
Proof.
  intros Hfn Hp Ht Hcd Hal tau k HU0 HC.
  assert (Htau : 0 < tau) by (unfold tau; lra).
  assert (Hk : 0 < k).
  { unfold k. apply Rmult_lt_0_compat; auto. apply Rinv_0_lt_compat. lra. }
  assert (HC0 : 0 <= C).
  { specialize (HC vzero vzero). eapply Rle_trans; [|exact HC].
    apply Rplus_le_le_0_compat; apply Rabs_pos. }
  induction l as [|[c h] l IH]; intros lt t H s HH Hti HU.
  - simpl in Hti. subst t. replace (- (k * (lt - lt) / 2)) with 0 by field. rewrite exp_0.
    unfold exec_substeps. simpl. lra.
  - simpl in Hti. destruct Hti as (Hh & -> & _ & Hti).
    change (exec_substeps (euler_fn_body fn a) ((lt + h, h) :: l) s)
      with (exec_substeps (euler_fn_body fn a) l (euler_fn_body fn a (lt + h) h s)).
    eapply Rle_trans; [apply (IH (lt + h) t H); auto; intros; apply HU; lra|].
    assert (Hstep : st_norm k (a_goal_y a) d (euler_fn_body fn a (lt + h) h s)
       <= (1 - k * h / 2) * st_norm k (a_goal_y a) d s + (3 * h * U + 3 * C)).
    { apply euler_body_disturbed; auto; try lra.
      - fold tau. fold k. assert (k * h <= k * H) by nra. lra.
      - intros. apply HU. lra. }
    pose proof (tiles_le _ _ _ _ Hti) as Hle.
    set (N := st_norm k (a_goal_y a) d s) in *.
    assert (HN : 0 <= N) by apply euler_norm_nonneg.
    pose proof (one_minus_le_exp (k * h / 2)) as He.
    pose proof (exp_pos (- (k * h / 2))).
    assert (He2 : exp (- (k * (t - (lt + h)) / 2)) <= 1).
    { rewrite <- exp_0. destruct (Req_dec t (lt + h)) as [->|Hne].
      - replace (- (k * (lt + h - (lt + h)) / 2)) with 0 by field. lra.
      - apply Rlt_le, exp_increasing. nra. }
    pose proof (exp_pos (- (k * (t - (lt + h)) / 2))) as Hpp.
    replace (exp (- (k * (t - lt) / 2)))
      with (exp (- (k * (t - (lt + h)) / 2)) * exp (- (k * h / 2)))
      by (rewrite <- exp_plus; f_equal; field).
    set (p := exp (- (k * (t - (lt + h)) / 2))) in *.
    set (q := exp (- (k * h / 2))) in *.
    assert (p * st_norm k (a_goal_y a) d (euler_fn_body fn a (lt + h) h s)
       <= p * (q * N + (3 * h * U + 3 * C))).
    { apply Rmult_le_compat_l; [lra|]. eapply Rle_trans; [exact Hstep|].
      apply Rplus_le_compat_r. apply Rmult_le_compat_r; auto. }
    assert (0 <= 3 * h * U + 3 * C) by (assert (0 <= 3 * h * U) by (apply Rmult_le_pos; lra); lra).
    assert (p * (3 * h * U + 3 * C) <= 3 * h * U + 3 * C) by nra.
    cbn [length]. rewrite S_INR. nra.
Qed.

Lemma euler_fn_disturbed fn a lt t s :
  fn = Euler \/ fn = Euler_cython ->
  0 < a_int_dt a -> a_start_t a < a_goal_t a -> a_start_t a < t -> lt <= t ->
  exists l, tiles lt t (a_int_dt a) l
    /\ run_step_function fn a lt t s = Ok (exec_substeps (euler_fn_body fn a) l s).
Proof.
  intros Hfn Hi Ht Hs Hl.
  destruct (substeps_tiles lt t (a_int_dt a) Hi Hl) as [l [Hti Hl']].
  exists l. split; auto.
  destruct Hfn as [-> | ->]; cbn [run_step_function euler_fn_body].
  - unfold dmp_step_euler. destruct (Rle_dec (a_goal_t a) (a_start_t a)); [lra|].
    destruct (Rle_dec t (a_start_t a)); [lra|]. apply Hl'.
  - unfold dmp_step_euler_cython. destruct (Rle_dec (a_goal_t a) (a_start_t a)); [lra|].
    destruct (Rle_dec t (a_start_t a)); [lra|]. apply Hl'.
Qed.

(** ** Infinite disturbed runs *)
(** Arguments that differ from step to step in coupling term and tracking error
    only, both bounded by [B] in dimension [d]. *)
Record disturbed_args (a : nat -> dmp_args) (d : nat) (f : forcing_term) (dist : R -> R)
    (g al be tau p : R) (B : R) : Prop := {
  da_pre : forall k, a_precomputed (a k) = None;
  da_start : forall k, a_start_t (a k) = 0;
  da_goal_t : forall k, a_goal_t (a k) = tau;
  da_alpha : forall k, a_alpha_y (a k) d = al;
  da_beta : forall k, a_beta_y (a k) d = be;
  da_goal : forall k, a_goal_y (a k) d = g;
  da_ft : forall k, a_forcing_term (a k) = f;
  da_dist : forall k z, disturbance (a k) z d = dist z;
  da_p : forall k, a_p_gain (a k) = p;
  da_te : forall k, Rabs (tracking_error_or_zero (a_tracking_error (a k)) d) <= B;
  da_coupling : forall k, bounded_coupling B d (a_coupling_term (a k)) }.

(** Sensitivity of the integrators: eventual deviation per unit of disturbance. *)
Definition rk4_gain (al tau dt p : R) : R :=
  let k := al / (2 * tau) in
  let r := Rabs (rk4_factor (k * dt)) in
  let u := (1 + Rabs p / dt) / tau ^ 2 in
  let w := (6 * dt * u + / tau) / (1 - r) in
  let e := (13 * dt * w + 3 * dt ^ 2 * u) / (1 - r) in
  e + w + k * e.

Definition euler_gain (al tau dt int_dt p : R) : R :=
  let k := al / (2 * tau) in
  let q := exp (- (k * dt / 2)) in
  let m := dt / int_dt + 1 in
  let n := (3 * dt * / tau ^ 2 + 3 * m * (Rabs p / tau ^ 2 + / tau)) / (1 - q) in
  n / k + 2 * n.

Lemma Rabs_div_pos x c : 0 < c -> Rabs (x / c) = Rabs x / c.
Proof. intros Hc. unfold Rdiv. now rewrite Rabs_mult, Rabs_inv, (Rabs_pos_eq c) by lra. Qed.

Lemma phase_input f dist M tau t0 dt :
  phase_ok f -> 0 < dt -> 0 < tau -> 0 <= M ->
  (forall z, 0 <= z -> Rabs (dist z) <= M * z) ->
  let b := fun k => M / tau ^ 2 * ft_phase f (t0 + INR k * dt) in
  vanishes b /\ (forall k, 0 <= b k)
  /\ (forall k c, t0 + INR k * dt <= c -> Rabs (dist (ft_phase f c)) / tau ^ 2 <= b k).
Proof.
  intros Hp Hdt Htau HM Hd b.
  assert (Ht2 : 0 < tau ^ 2) by nra.
  assert (HMt : 0 <= M / tau ^ 2) by (apply Rmult_le_pos; auto; apply Rlt_le, Rinv_0_lt_compat; auto).
  split; [|split].
  - apply vanishes_scal. now apply phase_grid_vanishes.
  - intros k. unfold b. apply Rmult_le_pos; auto. apply Rlt_le, ft_phase_pos.
  - intros k c Hc. unfold b.
    pose proof (ft_phase_pos f c) as Hpos.
    pose proof (ft_phase_decreasing f _ _ Hp Hc) as Hdec.
    specialize (Hd (ft_phase f c) ltac:(lra)).
    apply Rle_trans with (M * ft_phase f (t0 + INR k * dt) / tau ^ 2).
    + apply Rmult_le_compat_r; [apply Rlt_le, Rinv_0_lt_compat; auto|]. nra.
    + apply Req_le. field. lra.
Qed.

Lemma rk4_stable_below x : x ^ 3 - 4 * x ^ 2 + 12 * x - 24 < 0 -> x < 3.
Proof.
  intros Hx. destruct (Rlt_le_dec x 3); auto. exfalso.
  assert (H1 : 0 <= (x - 3) * (x * x)) by (apply Rmult_le_pos; nra).
  assert (H2 : 0 <= (x - 3) * x) by (apply Rmult_le_pos; lra).
  replace (x ^ 3 - 4 * x ^ 2 + 12 * x - 24)
    with ((x - 3) * (x * x) - (x - 3) * x + 9 * x - 24) in Hx by ring.
  assert (H3 : (x - 3) * x <= (x - 3) * (x * x)) by (apply Rmult_le_compat_l; nra). lra.
Qed.

Lemma rk4_disturbed_run a d f dist g al be tau p B M t0 dt s :
  disturbed_args a d f dist g al be tau p B ->
  phase_ok f -> 0 < dt -> 0 < tau -> 0 <= B -> al = 4 * be -> 0 <= M ->
  (forall z, 0 <= z -> Rabs (dist z) <= M * z) ->
  (let x := al / (2 * tau) * dt in 0 < x /\ x ^ 3 - 4 * x ^ 2 + 12 * x - 24 < 0) ->
  (forall k, s (S k) = dmp_step_rk4 (a k) (t0 + INR k * dt) (t0 + INR (S k) * dt) (s k)) ->
  eventually_below (fun k => fst (s k) d - g) (rk4_gain al tau dt p * B)
  /\ eventually_below (fun k => snd (s k) d) (rk4_gain al tau dt p * B).
Proof.
  intros A Hph Hdt Htau HB Hcd HM Hdist Hx Hs. destruct A.
  set (kk := al / (2 * tau)) in *. set (x := kk * dt) in *. cbv zeta in Hx. destruct Hx as [Hx0 Hx].
  pose proof (rk4_stable_below x Hx) as Hx3.
  assert (HR : Rabs (rk4_factor x) < 1) by (now apply rk4_factor_stable).
  assert (HR0 : 0 <= Rabs (rk4_factor x) < 1) by (split; [apply Rabs_pos|auto]).
  assert (Ht2 : 0 < tau ^ 2) by nra.
  assert (Hk : 0 < kk).
  { destruct (Rlt_le_dec 0 kk); auto. exfalso. unfold x in Hx0. nra. }
  destruct (phase_input f dist M tau t0 dt Hph Hdt Htau HM Hdist) as (Hbv & Hb0 & Hb).
  set (b := fun k => M / tau ^ 2 * ft_phase f (t0 + INR k * dt)) in *.
  change (forall k, 0 <= b k) in Hb0.
  change (forall k c, t0 + INR k * dt <= c -> Rabs (dist (ft_phase f c)) / tau ^ 2 <= b k) in Hb.
  set (u1 := (1 + Rabs p / dt) / tau ^ 2).
  assert (Hu1 : 0 <= u1).
  { unfold u1. apply Rmult_le_pos; [|apply Rlt_le, Rinv_0_lt_compat; auto].
    assert (0 <= Rabs p / dt) by (apply Rmult_le_pos; [apply Rabs_pos|apply Rlt_le, Rinv_0_lt_compat; auto]).
    lra. }
  set (U := fun k => b k + u1 * B).
  assert (HUk : forall k, eventually_below U (0 + u1 * B) /\ 0 <= U k).
  { intros k. split.
    - apply eventually_below_plus; [now apply eventually_below_vanishes|].
      apply eventually_below_const. now apply Rmult_le_pos.
    - unfold U. specialize (Hb0 k). assert (0 <= u1 * B) by now apply Rmult_le_pos. lra. }
  set (e := fun k => fst (s k) d - g). set (w := fun k => snd (s k) d + kk * e k).
  assert (Hrec : forall k,
     Rabs (w (S k)) <= Rabs (rk4_factor x) * Rabs (w k) + (6 * dt * U k + B / tau)
     /\ Rabs (e (S k)) <= Rabs (rk4_factor x) * Rabs (e k) + (13 * dt * Rabs (w k) + 3 * dt ^ 2 * U k)).
  { intros k. unfold w, e. rewrite Hs. destruct (s k) as [y v] eqn:Es. cbn [fst snd].
    pose proof (rk4_disturbed (a k) (t0 + INR k * dt) (t0 + INR (S k) * dt) y v d (U k) (B / tau)) as HT.
    cbv zeta in HT. rewrite da_goal_t0, da_start0, da_alpha0, da_beta0, da_goal0, da_ft0, da_p0 in HT.
    rewrite Rminus_0_r in HT. fold kk in HT.
    replace (t0 + INR (S k) * dt - (t0 + INR k * dt)) with dt in HT by (rewrite S_INR; ring).
    fold x in HT. apply HT; auto; clear HT.
    - intros Y V z Hz.
      rewrite da_dist0, Rabs_div_pos by auto.
      assert (H1 : Rabs (dist (ft_phase f z)) / tau ^ 2 <= b k).
      { apply Hb. rewrite S_INR in Hz. lra. }
      pose proof (coupling_acc_bound (a k) Y V B d HB (da_coupling0 k)) as H2.
      specialize (da_te0 k). set (te := tracking_error_or_zero (a_tracking_error (a k)) d) in *.
      assert (H3 : Rabs (p * te / dt) <= Rabs p / dt * B).
      { rewrite Rabs_div_pos, Rabs_mult by auto.
        replace (Rabs p / dt * B) with (Rabs p * B / dt) by (field; lra).
        apply Rmult_le_compat_r; [apply Rlt_le, Rinv_0_lt_compat; auto|].
        apply Rmult_le_compat_l; [apply Rabs_pos|auto]. }
      assert (H4 : Rabs (dist (ft_phase f z) + coupling_acc (a k) Y V d + p * te / dt)
          <= Rabs (dist (ft_phase f z)) + (1 + Rabs p / dt) * B).
      { eapply Rle_trans; [apply Rabs_triang|].
        eapply Rle_trans; [apply Rplus_le_compat_r, Rabs_triang|]. lra. }
      apply Rle_trans with ((Rabs (dist (ft_phase f z)) + (1 + Rabs p / dt) * B) / tau ^ 2).
      + apply Rmult_le_compat_r; [apply Rlt_le, Rinv_0_lt_compat; auto|auto].
      + unfold U, u1.
        replace ((Rabs (dist (ft_phase f z)) + (1 + Rabs p / dt) * B) / tau ^ 2)
          with (Rabs (dist (ft_phase f z)) / tau ^ 2 + (1 + Rabs p / dt) / tau ^ 2 * B) by (field; lra).
        lra.
    - intros Y V. rewrite Rabs_div_pos by auto.
      apply Rmult_le_compat_r; [apply Rlt_le, Rinv_0_lt_compat; auto|].
      apply coupling_vel_bound; auto. }
  destruct (HUk 0%nat) as [HU _].
  set (W := (6 * dt * u1 + / tau) / (1 - Rabs (rk4_factor x))).
  set (Eg := (13 * dt * W + 3 * dt ^ 2 * u1) / (1 - Rabs (rk4_factor x))).
  assert (Htau' : 0 < / tau) by now apply Rinv_0_lt_compat.
  assert (Hw : eventually_below w (W * B)).
  { replace (W * B) with ((6 * dt * (0 + u1 * B) + B / tau) / (1 - Rabs (rk4_factor x)))
      by (unfold W; field; lra).
    apply (eventually_below_contraction w (fun k => 6 * dt * U k + B / tau)); auto.
    - intros k. apply Hrec.
    - apply eventually_below_plus.
      + apply (eventually_below_scal (6 * dt) U); auto. lra.
      + apply eventually_below_const. apply Rmult_le_pos; lra. }
  assert (He : eventually_below e (Eg * B)).
  { replace (Eg * B) with ((13 * dt * (W * B) + 3 * dt ^ 2 * (0 + u1 * B)) / (1 - Rabs (rk4_factor x)))
      by (unfold Eg; field; lra).
    apply (eventually_below_contraction e (fun k => 13 * dt * Rabs (w k) + 3 * dt ^ 2 * U k)); auto.
    - intros k. apply Hrec.
    - apply eventually_below_plus.
      + apply (eventually_below_scal (13 * dt) (fun k => Rabs (w k))); [lra|].
        apply (eventually_below_le _ w); auto. intros. rewrite Rabs_Rabsolu. lra.
      + apply (eventually_below_scal (3 * dt ^ 2) U); auto. nra. }
  assert (HW0 : 0 <= W).
  { unfold W. apply Rmult_le_pos; [|apply Rlt_le, Rinv_0_lt_compat; lra].
    assert (0 <= 6 * dt * u1) by (apply Rmult_le_pos; lra). lra. }
  assert (HE0 : 0 <= Eg).
  { unfold Eg. apply Rmult_le_pos; [|apply Rlt_le, Rinv_0_lt_compat; lra].
    assert (0 <= 13 * dt * W) by (apply Rmult_le_pos; lra).
    assert (0 <= 3 * dt ^ 2 * u1) by (apply Rmult_le_pos; nra). lra. }
  assert (EG : rk4_gain al tau dt p = Eg + W + kk * Eg) by reflexivity.
  assert (0 <= kk * Eg) by (apply Rmult_le_pos; lra).
  rewrite EG. split.
  - apply (eventually_below_mono _ (Eg * B)); auto. apply Rmult_le_compat_r; lra.
  - apply (eventually_below_mono _ (W * B + kk * (Eg * B))).
    { replace (W * B + kk * (Eg * B)) with ((W + kk * Eg) * B) by ring.
      apply Rmult_le_compat_r; lra. }
    apply (eventually_below_le _ (fun k => Rabs (w k) + kk * Rabs (e k))).
    + intros k. rewrite (Rabs_pos_eq (Rabs (w k) + kk * Rabs (e k))).
      * replace (snd (s k) d) with (w k - kk * e k) by (unfold w; ring).
        eapply Rle_trans; [apply Rabs_triang|]. rewrite Rabs_Ropp, Rabs_mult, (Rabs_pos_eq kk) by lra. lra.
      * pose proof (Rabs_pos (w k)). assert (0 <= kk * Rabs (e k)) by (apply Rmult_le_pos; [lra|apply Rabs_pos]).
        lra.
    + apply (eventually_below_plus (fun k => Rabs (w k)) (fun k => kk * Rabs (e k))).
      * apply (eventually_below_le _ w); auto. intros. rewrite Rabs_Rabsolu. lra.
      * apply (eventually_below_scal kk (fun k => Rabs (e k))); [lra|].
        apply (eventually_below_le _ e); auto. intros. rewrite Rabs_Rabsolu. lra.
Qed.

Lemma euler_disturbed_run fn a d f dist g al be tau p B M t0 dt int_dt s :
  fn = Euler \/ fn = Euler_cython ->
  disturbed_args a d f dist g al be tau p B -> (forall k, a_int_dt (a k) = int_dt) ->
  phase_ok f -> 0 < dt -> 0 < tau -> 0 < int_dt -> 0 <= B -> al = 4 * be -> 0 < al -> 0 <= M ->
  (forall z, 0 <= z -> Rabs (dist z) <= M * z) ->
  al * int_dt <= tau -> 0 <= t0 ->
  (forall k, run_step_function fn (a k) (t0 + INR k * dt) (t0 + INR (S k) * dt) (s k) = Ok (s (S k))) ->
  eventually_below (fun k => fst (s k) d - g) (euler_gain al tau dt int_dt p * B)
  /\ eventually_below (fun k => snd (s k) d) (euler_gain al tau dt int_dt p * B).
Proof.
  intros Hfn A Hint Hph Hdt Htau Hi HB Hcd Hal HM Hdist Hst Ht0 Hs. destruct A.
  set (kk := al / (2 * tau)) in *.
  assert (Ht2 : 0 < tau ^ 2) by nra.
  assert (Hk : 0 < kk).
  { unfold kk. apply Rmult_lt_0_compat; auto. apply Rinv_0_lt_compat. lra. }
  assert (Hx : kk * int_dt <= 1 / 2).
  { assert (E : kk * int_dt * (2 * tau) = al * int_dt) by (unfold kk; field; lra). nra. }
  destruct (phase_input f dist M tau t0 dt Hph Hdt Htau HM Hdist) as (Hbv & Hb0 & Hb).
  set (b := fun k => M / tau ^ 2 * ft_phase f (t0 + INR k * dt)) in *.
  change (forall k, 0 <= b k) in Hb0.
  change (forall k c, t0 + INR k * dt <= c -> Rabs (dist (ft_phase f c)) / tau ^ 2 <= b k) in Hb.
  set (U := fun k => b k + B / tau ^ 2).
  assert (HB2 : 0 <= B / tau ^ 2) by (apply Rmult_le_pos; auto; apply Rlt_le, Rinv_0_lt_compat; auto).
  assert (HU : eventually_below U (0 + B / tau ^ 2)).
  { apply eventually_below_plus; [now apply eventually_below_vanishes|]. now apply eventually_below_const. }
  set (c1 := Rabs p / tau ^ 2 + / tau).
  assert (Hc1 : 0 <= c1).
  { unfold c1. assert (0 <= Rabs p / tau ^ 2)
      by (apply Rmult_le_pos; [apply Rabs_pos|apply Rlt_le, Rinv_0_lt_compat; auto]).
    assert (0 < / tau) by now apply Rinv_0_lt_compat. lra. }
  set (m := dt / int_dt + 1).
  assert (Hm : 0 <= m).
  { unfold m. assert (0 < dt / int_dt) by (apply Rmult_lt_0_compat; auto; now apply Rinv_0_lt_compat). lra. }
  set (q := exp (- (kk * dt / 2))).
  assert (Hq : 0 <= q < 1).
  { unfold q. split; [apply Rlt_le, exp_pos|]. rewrite <- exp_0. apply exp_increasing. nra. }
  set (N := fun k => euler_norm kk (fst (s k) d - g) (snd (s k) d)).
  assert (HN0 : forall k, 0 <= N k) by (intros; apply euler_norm_nonneg).
  assert (Hrec : forall k, N (S k) <= q * N k + (3 * dt * U k + 3 * m * (c1 * B))).
  { intros k.
    assert (HIk : 0 <= INR k) by apply pos_INR.
    destruct (euler_fn_disturbed fn (a k) (t0 + INR k * dt) (t0 + INR (S k) * dt) (s k)) as (l & Hl & E); auto.
    { rewrite Hint; auto. } { rewrite da_start0, da_goal_t0; auto. }
    { rewrite da_start0, S_INR. nra. } { rewrite S_INR. lra. }
    assert (Es : s (S k) = exec_substeps (euler_fn_body fn (a k)) l (s k)).
    { specialize (Hs k). rewrite E in Hs. now injection Hs. }
    rewrite Hint in Hl.
    pose proof (euler_substeps_disturbed fn (a k) d (U k) (c1 * B) Hfn (da_pre0 k)) as HT.
    cbv zeta in HT. rewrite da_goal_t0, da_start0, da_alpha0, da_beta0, da_ft0, da_p0 in HT.
    rewrite Rminus_0_r in HT. fold kk in HT.
    specialize (HT ltac:(auto) Hcd Hal).
    assert (HUk : 0 <= U k) by (unfold U; specialize (Hb0 k); lra).
    specialize (HT HUk).
    assert (HCk : forall Y V, Rabs (p * tracking_error_or_zero (a_tracking_error (a k)) d / tau ^ 2)
       + Rabs (coupling_vel (a k) Y V d / tau) <= c1 * B).
    { intros Y V. rewrite !Rabs_div_pos, Rabs_mult by auto.
      pose proof (coupling_vel_bound (a k) Y V B d HB (da_coupling0 k)) as H2.
      specialize (da_te0 k). set (te := tracking_error_or_zero (a_tracking_error (a k)) d) in *.
      unfold c1. replace ((Rabs p / tau ^ 2 + / tau) * B) with (Rabs p * B / tau ^ 2 + B / tau) by (field; lra).
      apply Rplus_le_compat.
      - apply Rmult_le_compat_r; [apply Rlt_le, Rinv_0_lt_compat; auto|].
        apply Rmult_le_compat_l; [apply Rabs_pos|auto].
      - apply Rmult_le_compat_r; [apply Rlt_le, Rinv_0_lt_compat; auto|auto]. }
    specialize (HT HCk l (t0 + INR k * dt) (t0 + INR (S k) * dt) int_dt (s k) Hx Hl).
    assert (HUc : forall Y V c, t0 + INR k * dt <= c ->
       Rabs ((disturbance (a k) (ft_phase f c) d + coupling_acc (a k) Y V d) / tau ^ 2) <= U k).
    { intros Y V c Hc. rewrite da_dist0, Rabs_div_pos by auto.
      pose proof (coupling_acc_bound (a k) Y V B d HB (da_coupling0 k)) as H2.
      specialize (Hb k c Hc).
      apply Rle_trans with ((Rabs (dist (ft_phase f c)) + B) / tau ^ 2).
      - apply Rmult_le_compat_r; [apply Rlt_le, Rinv_0_lt_compat; auto|].
        eapply Rle_trans; [apply Rabs_triang|]. lra.
      - unfold U. unfold Rdiv in *. lra. }
    specialize (HT HUc).
    replace (t0 + INR (S k) * dt - (t0 + INR k * dt)) with dt in HT by (rewrite S_INR; ring).
    fold q in HT. unfold N, st_norm in *. rewrite Es. rewrite da_goal0 in HT.
    eapply Rle_trans; [exact HT|]. apply Rplus_le_compat_l, Rplus_le_compat_l.
    apply Rmult_le_compat_r; [apply Rmult_le_pos; lra|].
    apply Rmult_le_compat_l; [lra|]. unfold m.
    destruct l as [|ch l]; [cbn [length INR]; fold m; exact Hm|].
    apply tiles_count in Hl; [|discriminate].
    replace (t0 + INR (S k) * dt - (t0 + INR k * dt)) with dt in Hl by (rewrite S_INR; ring).
    set (L := INR (length (ch :: l))) in *.
    assert (Ed : dt = dt / int_dt * int_dt) by (field; lra).
    apply Rnot_lt_le. intros Hlt.
    assert (dt / int_dt * int_dt < (L - 1) * int_dt) by (apply Rmult_lt_compat_r; lra). lra. }
  set (n := (3 * dt * / tau ^ 2 + 3 * m * c1) / (1 - q)).
  assert (HNe : eventually_below N (n * B)).
  { replace (n * B) with ((3 * dt * (0 + B / tau ^ 2) + 3 * m * (c1 * B)) / (1 - q))
      by (unfold n; field; lra).
    apply (eventually_below_contraction N (fun k => 3 * dt * U k + 3 * m * (c1 * B))); auto.
    - intros k. rewrite !(Rabs_pos_eq (N _)) by apply HN0. apply Hrec.
    - apply eventually_below_plus.
      + apply (eventually_below_scal (3 * dt) U); auto. lra.
      + apply eventually_below_const. repeat apply Rmult_le_pos; lra. }
  assert (Hn0 : 0 <= n).
  { unfold n. apply Rmult_le_pos; [|apply Rlt_le, Rinv_0_lt_compat; lra].
    assert (0 <= 3 * dt * / tau ^ 2)
      by (apply Rmult_le_pos; [lra|apply Rlt_le, Rinv_0_lt_compat; auto]).
    assert (0 <= 3 * m * c1) by (repeat apply Rmult_le_pos; lra). lra. }
  assert (EG : euler_gain al tau dt int_dt p = n / kk + 2 * n) by reflexivity.
  assert (Hkinv : 0 < / kk) by now apply Rinv_0_lt_compat.
  assert (Hnk : 0 <= n / kk) by (apply Rmult_le_pos; lra).
  rewrite EG.
  assert (Hke : forall k, Rabs (kk * (fst (s k) d - g)) <= N k) by (intros; apply Rmax_l).
  split.
  - apply (eventually_below_mono _ (/ kk * (n * B))).
    { replace (/ kk * (n * B)) with (n / kk * B) by (unfold Rdiv; ring). apply Rmult_le_compat_r; lra. }
    apply (eventually_below_le _ (fun k => / kk * N k)).
    + intros k. specialize (Hke k). rewrite Rabs_mult, (Rabs_pos_eq kk) in Hke by lra.
      rewrite (Rabs_pos_eq (/ kk * N k)) by (apply Rmult_le_pos; [lra|apply HN0]).
      apply Rmult_le_reg_l with kk; auto. rewrite <- Rmult_assoc, Rinv_r, Rmult_1_l by lra. exact Hke.
    + apply (eventually_below_scal (/ kk) N); auto. lra.
  - apply (eventually_below_mono _ (2 * (n * B))).
    { replace (2 * (n * B)) with (2 * n * B) by ring. apply Rmult_le_compat_r; lra. }
    apply (eventually_below_le _ (fun k => 2 * N k)).
    + intros k. rewrite (Rabs_pos_eq (2 * N k)) by (specialize (HN0 k); lra).
      assert (2 * Rabs (snd (s k) d + kk * (fst (s k) d - g)) <= N k) by apply Rmax_r.
      specialize (Hke k).
      replace (snd (s k) d) with ((snd (s k) d + kk * (fst (s k) d - g)) - kk * (fst (s k) d - g)) by ring.
      eapply Rle_trans; [apply Rabs_triang|]. rewrite Rabs_Ropp. specialize (HN0 k). lra.
    + apply (eventually_below_scal 2 N); auto. lra.
Qed.
