(** Proofs about movements whose components are coupled by a distance term (C102). *)
From Coq Require Import Reals ZArith List Lia Lra Psatz FunctionalExtensionality.
From Coquelicot Require Import Complex.
From Verif Require Import M_Prelude M_Canonical M_Forcing M_Dmp M_Base M_DmpObject
  S_Loops S_Dmp S_Stability S_Coupled P_Loops P_Canonical P_Forcing P_DmpStep P_DmpScale P_DmpLinear
  P_Converge P_Stability.
Import ListNotations.
Open Scope R_scope.
Set Bullet Behavior "Strict Subproofs".

Lemma ra_rk h c k : ra h c k = rk_a (h * c) (h ^ 2 * k).
Proof. unfold ra, rk_a, rk_s. field. Qed.
Lemma rb_rk h c k : rb h c k = rk_b (h * c) (h ^ 2 * k).
Proof. unfold rb, rk_b. field. Qed.

(** ** Runs as sequences of integration steps *)
Definition step1 (fn : step_function) (a : dmp_args) (t h : R) (s : vec * vec) : vec * vec :=
  match fn with
  | RK4 | RK4_cython => dmp_step_rk4 a (t - h) t s
  | Euler => euler_body a t h s
  | Euler_cython => euler_cython_body a t h s
  end.

Fixpoint bodies (B : R -> R -> vec * vec -> vec * vec) (t0 h : R) (x : vec * vec) (j : nat) : vec * vec :=
  match j with
  | O => x
  | S j => B (t0 + INR (S j) * h) h (bodies B t0 h x j)
  end.

Lemma bodies_exec B t0 h x : forall n lt j,
  lt = t0 + INR j * h ->
  exec_substeps B (map (fun i => (lt + INR i * h, h)) (seq 1 n)) (bodies B t0 h x j)
  = bodies B t0 h x (j + n).
Proof.
  induction n as [|n IH]; intros lt j Hlt; [now rewrite Nat.add_0_r|].
  rewrite seq_S, map_app. unfold exec_substeps in *. rewrite fold_left_app, (IH lt j Hlt).
  cbn [map fold_left fst snd]. replace (j + S n)%nat with (S (j + n)) by lia. cbn [bodies].
  f_equal. rewrite Hlt. replace (1 + n)%nat with (S n) by lia.
  replace (S (j + n)) with (j + S n)%nat by lia. rewrite plus_INR. ring.
Qed.

(** The length of the integration steps. *)
Definition part (fn : step_function) (dt int_dt : R) : R :=
  match fn with RK4 | RK4_cython => dt | Euler | Euler_cython => Rmin dt int_dt end.

Definition parts_ok (fn : step_function) (dt int_dt : R) : Prop :=
  match fn with
  | RK4 | RK4_cython => True
  | Euler | Euler_cython => dt <= int_dt \/ exists n, dt = INR n * int_dt
  end.

Lemma run_bodies fn a t0 dt x :
  a_start_t a < a_goal_t a -> 0 < dt -> 0 < a_int_dt a -> a_start_t a <= t0 ->
  parts_ok fn dt (a_int_dt a) ->
  let h := part fn dt (a_int_dt a) in
  0 < h /\ exists n, (0 < n)%nat /\ forall k,
  run_seq (run_step_function fn a) t0 dt x k = Ok (bodies (step1 fn a) t0 h x (k * n)).
Proof.
  intros Ht Hdt Hi Ht0 Hp h.
  assert (Hrk : fn = RK4 \/ fn = RK4_cython ->
    0 < h /\ exists n, (0 < n)%nat /\ forall k,
    run_seq (run_step_function fn a) t0 dt x k = Ok (bodies (step1 fn a) t0 h x (k * n))).
  { intros Hfn. assert (Eh : h = dt) by (unfold h; destruct Hfn; subst fn; reflexivity).
    rewrite Eh. split; [exact Hdt|]. exists 1%nat. split; [lia|].
    induction k as [|k IH]; [reflexivity|]. cbn [run_seq]. rewrite IH. cbn [bind].
    replace (S k * 1)%nat with (S (k * 1)) by lia. cbn [bodies].
    replace (k * 1)%nat with k in * by lia.
    replace (t0 + INR k * dt) with (t0 + INR (S k) * dt - dt) by (rewrite S_INR; ring).
    destruct Hfn; subst fn; cbn [run_step_function step1]; [reflexivity|].
    now rewrite rk4_cython_eq. }
  assert (Heu : forall B,
    (forall lt t s, a_start_t a < t -> lt <= t -> exists l, tiles lt t (a_int_dt a) l
       /\ run_step_function fn a lt t s = Ok (exec_substeps B l s)) ->
    h = Rmin dt (a_int_dt a) -> (dt <= a_int_dt a \/ exists n, dt = INR n * a_int_dt a) ->
    0 < h /\ exists n, (0 < n)%nat /\ forall k,
    run_seq (run_step_function fn a) t0 dt x k = Ok (bodies B t0 h x (k * n))).
  { intros B HB Eh Heq.
    assert (Hl : substep_length dt (a_int_dt a) h).
    { rewrite Eh. destruct Heq as [H|[n En]].
      - left. split; auto. now apply Rmin_left.
      - right. split; [|eauto]. apply Rmin_right.
        destruct n as [|n]; [simpl in En; lra|]. rewrite S_INR in En. pose proof (pos_INR n). nra. }
    destruct (equal_tiles dt (a_int_dt a) h Hdt Hi Hl) as (n & Hn & En & Hh0 & Htl).
    split; [auto|]. exists n. split; [auto|].
    induction k as [|k IH]; [reflexivity|]. cbn [run_seq]. rewrite IH. cbn [bind].
    pose proof (pos_INR k).
    destruct (HB (t0 + INR k * dt) (t0 + INR (S k) * dt) (bodies B t0 h x (k * n))) as (l & Hl' & ->).
    { rewrite S_INR. nra. } { rewrite S_INR. nra. }
    apply Htl in Hl'; [|rewrite S_INR; ring]. subst l.
    rewrite (bodies_exec B t0 h x n).
    - do 2 f_equal. lia.
    - rewrite mult_INR, En. ring. }
  destruct fn; auto.
  - apply (Heu (euler_body a)); auto. intros lt t s H1 H2.
    destruct (substeps_tiles lt t (a_int_dt a) Hi H2) as [l [Hti Hl]]. exists l. split; auto.
    cbn [run_step_function]. unfold dmp_step_euler.
    destruct (Rle_dec (a_goal_t a) (a_start_t a)); [lra|].
    destruct (Rle_dec t (a_start_t a)); [lra|]. apply Hl.
  - apply (Heu (euler_cython_body a)); auto. intros lt t s H1 H2.
    destruct (substeps_tiles lt t (a_int_dt a) Hi H2) as [l [Hti Hl]]. exists l. split; auto.
    cbn [run_step_function]. unfold dmp_step_euler_cython.
    destruct (Rle_dec (a_goal_t a) (a_start_t a)); [lra|]. cbv zeta.
    destruct (Rle_dec t (a_start_t a)); [lra|]. apply Hl.
Qed.

(** ** Linear combinations of two components *)
Section Pair.
Variables (i j : nat) (wi wj : R).
Definition lin (x : vec) : R := wi * x i + wj * x j.

(** A Runge-Kutta step in one combination of two components. *)
Lemma rk4_lin2 (acc : vec -> vec -> R -> vec -> vec) h Z0 Z1 Z2 F0 F1 F2 y v (m k c u0 u1 u2 : R) :
  (forall Y V, lin (acc Y V Z0 F0) = m - k * lin Y - c * lin V + u0) ->
  (forall Y V, lin (acc Y V Z1 F1) = m - k * lin Y - c * lin V + u1) ->
  (forall Y V, lin (acc Y V Z2 F2) = m - k * lin Y - c * lin V + u2) ->
  let x := h * c in let q := h ^ 2 * k in
  let s' := rk4_of acc h Z0 Z1 Z2 F0 F1 F2 y v in
  lin (fst s') = rk_a x q * lin y + rk_b x q * h * lin v + h ^ 2 * rk_s x q * m
    + (h ^ 2 / 6 * (1 - x / 2 + (x ^ 2 - q) / 4) * u0 + h ^ 2 / 6 * (2 - x / 2) * u1 + 0 * u2)
  /\ lin (snd s') = - rk_b x q * h * k * lin y + (rk_a x q - rk_b x q * h * c) * lin v + h * rk_b x q * m
    + (h / 6 * (1 - x + (x ^ 2 - q) / 2 + (2 * x * q - x ^ 3) / 4) * u0
       + h / 6 * (4 - 2 * x + (x ^ 2 - q) / 2) * u1 + h / 6 * u2).
Proof.
  intros H0 H1 H2 x q s'. unfold s', rk4_of. cbv zeta. cbn [fst snd].
  set (K0 := acc y v Z0 F0) in *.
  set (K1 := acc (vadd y (vscale (/ 2 * h) v)) (vadd v (vscale (/ 2 * h) K0)) Z1 F1) in *.
  set (K2 := acc (vadd y (vscale (/ 2 * h) (vadd v (vscale (/ 2 * h) K0))))
               (vadd v (vscale (/ 2 * h) K1)) Z1 F1) in *.
  set (K3 := acc (vadd y (vscale h (vadd v (vscale (/ 2 * h) K1)))) (vadd v (vscale h K2)) Z2 F2) in *.
  assert (L : forall r u w, lin (vadd u (vscale r w)) = lin u + r * lin w)
    by (intros; unfold lin, vadd, vscale; ring).
  assert (E0 : lin K0 = m - k * lin y - c * lin v + u0) by apply H0.
  assert (E1 : lin K1 = m - k * (lin y + / 2 * h * lin v) - c * (lin v + / 2 * h * lin K0) + u1)
    by (rewrite <- !L; apply H1).
  assert (E2 : lin K2 = m - k * (lin y + / 2 * h * (lin v + / 2 * h * lin K0))
                        - c * (lin v + / 2 * h * lin K1) + u1)
    by (rewrite <- !L; apply H1).
  assert (E3 : lin K3 = m - k * (lin y + h * (lin v + / 2 * h * lin K1)) - c * (lin v + h * lin K2) + u2)
    by (rewrite <- !L; apply H2).
  clearbody K0 K1 K2 K3. clear H0 H1 H2.
  split.
  - transitivity (lin y + h * (lin v + h / 6 * (lin K0 + lin K1 + lin K2))); [unfold lin; ring|].
    rewrite E2, E1, E0. unfold rk_a, rk_b, rk_s, x, q. field.
  - transitivity (lin v + h / 6 * (lin K0 + 2 * lin K1 + 2 * lin K2 + lin K3)); [unfold lin; ring|].
    rewrite E3, E2, E1, E0. unfold rk_a, rk_b, rk_s, x, q. field.
Qed.
End Pair.

Section Coupled.
Variables (a : dmp_args) (cpl : coupling) (i j : nat) (l0 l1 ga gb dist : R).
Hypothesis Hc : a_coupling_term a = Some cpl.
Hypothesis Hte : a_tracking_error a = None.
Hypothesis Ht : a_goal_t a <> a_start_t a.
Hypothesis Hal : a_alpha_y a i = a_alpha_y a j.
Hypothesis Hbe : a_beta_y a i = a_beta_y a j.
Hypothesis Hsp : distance_spring cpl i j l0 l1 ga gb dist.

Let tau := a_goal_t a - a_start_t a.
Let al := a_alpha_y a j.
Let be := a_beta_y a j.
Let cc := al / tau.

Lemma tau_nz : tau <> 0.
Proof. unfold tau. lra. Qed.

(** The constant, the stiffness and the disturbance of a combination of the two
    components; [q] is the share of the coupling. *)
Definition cstiff (q : R) : R := (al * be + q * gb) / tau ^ 2.
Definition cconst (wi wj q : R) : R := (al * be * lin i j wi wj (a_goal_y a) + q * gb * dist) / tau ^ 2.
Definition cdist (wi wj : R) (t : R) : R :=
  let z := ft_phase (a_forcing_term a) t in
  (wi * disturbance a z i + wj * disturbance a z j) / tau ^ 2.

(** [wi], [wj] such that the coupling acts on the combination by [q pull] with
    [pull = dist - lin y]: the displacement; or not at all: the weighted sum. *)
Definition fits (wi wj q : R) : Prop :=
  forall y, - wi * l0 * (dist - (y j - y i)) + wj * l1 * (dist - (y j - y i)) = q * (dist - lin i j wi wj y).

Lemma fits_displacement : fits (-1) 1 (l0 + l1).
Proof. intros y. unfold lin. ring. Qed.
Lemma fits_sum : fits l1 l0 0.
Proof. intros y. ring. Qed.

Lemma acc_lin wi wj q h Y V t : fits wi wj q ->
  lin i j wi wj (acc_of a h Y V (ft_phase (a_forcing_term a) t) (ft_forces (a_forcing_term a) (ft_phase (a_forcing_term a) t)))
  = cconst wi wj q - cstiff q * lin i j wi wj Y - cc * lin i j wi wj V + cdist wi wj t.
Proof.
  intros Hf. unfold acc_of, dmp_acc. rewrite Hc, Hte.
  unfold tracking_error_or_zero, vzero. fold tau.
  destruct (Hsp Y V) as (_ & _ & Ei & Ej). cbv zeta in Ei, Ej.
  specialize (Hf Y).
  unfold lin at 1. cbv beta. rewrite Ei, Ej, Hal, Hbe. fold al be.
  replace (a_p_gain a * 0 / h) with 0 by (unfold Rdiv; ring).
  unfold cconst, cstiff, cdist, cc. cbv zeta.
  set (z := ft_phase (a_forcing_term a) t).
  set (pull := dist - (Y j - Y i)) in *.
  assert (E : q * gb * dist = gb * (- wi * l0 * pull + wj * l1 * pull) + q * gb * lin i j wi wj Y)
    by (rewrite Hf; ring).
  rewrite E. clear E Hf.
  unfold disturbance. rewrite Hal, Hbe. fold al be.
  pose proof tau_nz. unfold lin.
  destruct (a_smooth_scaling a); field; auto.
Qed.

(** One integration step. *)
Definition upd (fn : step_function) (h k m p X w up uq : R) : R * R :=
  match fn with
  | RK4 | RK4_cython =>
      let x := h * cc in let q := h ^ 2 * k in
      let X' := rk_a x q * X + rk_b x q * h * w + h ^ 2 * rk_s x q * m + up in
      let w1 := - rk_b x q * h * k * X + (rk_a x q - rk_b x q * h * cc) * w + h * rk_b x q * m + uq in
      (X', w1 + p * (dist - X'))
  | Euler =>
      let w1 := w + h * (m - k * X - cc * w + uq) in
      let X' := X + h * w1 in
      (X', w1 + p * (dist - X'))
  | Euler_cython =>
      let w1 := w + h * (m - k * X - cc * w + uq) + p * (dist - X) in
      (X + h * w1, w1)
  end.

(** The inputs that the forcing terms cause. *)
Definition inp (fn : step_function) (h k wi wj t : R) : R :=
  match fn with
  | RK4 | RK4_cython =>
      let x := h * cc in let q := h ^ 2 * k in
      h ^ 2 / 6 * (1 - x / 2 + (x ^ 2 - q) / 4) * cdist wi wj t
      + h ^ 2 / 6 * (2 - x / 2) * cdist wi wj (t + / 2 * h) + 0 * cdist wi wj (t + h)
  | _ => 0
  end.
Definition inq (fn : step_function) (h k wi wj t : R) : R :=
  match fn with
  | RK4 | RK4_cython =>
      let x := h * cc in let q := h ^ 2 * k in
      h / 6 * (1 - x + (x ^ 2 - q) / 2 + (2 * x * q - x ^ 3) / 4) * cdist wi wj t
       + h / 6 * (4 - 2 * x + (x ^ 2 - q) / 2) * cdist wi wj (t + / 2 * h) + h / 6 * cdist wi wj (t + h)
  | _ => cdist wi wj t
  end.

Lemma step1_lin fn wi wj q t h y v : fits wi wj q ->
  (lin i j wi wj (fst (step1 fn a t h (y, v))), lin i j wi wj (snd (step1 fn a t h (y, v))))
  = upd fn h (cstiff q) (cconst wi wj q) (q * ga / tau) (lin i j wi wj y) (lin i j wi wj v)
      (inp fn h (cstiff q) wi wj t) (inq fn h (cstiff q) wi wj t).
Proof.
  intros Hf. pose proof tau_nz as Hn.
  assert (Hkick : forall Y V, lin i j wi wj (vdivs (fst (cpl Y V)) tau)
            = q * ga / tau * (dist - lin i j wi wj Y)).
  { intros Y V. destruct (Hsp Y V) as (Ei & Ej & _). cbv zeta in Ei, Ej. specialize (Hf Y).
    unfold lin at 1, vdivs. rewrite Ei, Ej.
    replace (q * ga / tau * (dist - lin i j wi wj Y)) with (ga / tau * (q * (dist - lin i j wi wj Y)))
      by (field; auto).
    rewrite <- Hf. field. auto. }
  assert (L : forall u w, lin i j wi wj (vadd u w) = lin i j wi wj u + lin i j wi wj w)
    by (intros; unfold lin, vadd; ring).
  assert (Lr : forall r w, lin i j wi wj (vscale r w) = r * lin i j wi wj w)
    by (intros; unfold lin, vscale; ring).
  assert (Hrk : (lin i j wi wj (fst (dmp_step_rk4 a (t - h) t (y, v))),
                 lin i j wi wj (snd (dmp_step_rk4 a (t - h) t (y, v))))
    = upd RK4 h (cstiff q) (cconst wi wj q) (q * ga / tau) (lin i j wi wj y) (lin i j wi wj v)
      (inp RK4 h (cstiff q) wi wj t) (inq RK4 h (cstiff q) wi wj t)).
  { set (f := a_forcing_term a).
    assert (E : dmp_step_rk4 a (t - h) t (y, v)
      = let s' := rk4_of (acc_of a h) h (ft_phase f t) (ft_phase f (t + / 2 * h)) (ft_phase f (t + h))
          (ft_forces f (ft_phase f t)) (ft_forces f (ft_phase f (t + / 2 * h)))
          (ft_forces f (ft_phase f (t + h))) y v in
        (fst s', vadd (snd s') (vdivs (fst (cpl (fst s') (snd s'))) tau))).
    { unfold dmp_step_rk4. cbv zeta. replace (t - (t - h)) with h by ring.
      unfold rk4_of, acc_of. rewrite Hc. reflexivity. }
    rewrite E. cbv zeta. cbn [fst snd].
    destruct (rk4_lin2 i j wi wj (acc_of a h) h (ft_phase f t) (ft_phase f (t + / 2 * h)) (ft_phase f (t + h))
          (ft_forces f (ft_phase f t)) (ft_forces f (ft_phase f (t + / 2 * h)))
          (ft_forces f (ft_phase f (t + h))) y v (cconst wi wj q) (cstiff q) cc
          (cdist wi wj t) (cdist wi wj (t + / 2 * h)) (cdist wi wj (t + h))) as [E1 E2];
      try (intros; now apply acc_lin).
    cbv zeta in E1, E2. rewrite L, Hkick, E1, E2. unfold upd, inp, inq. cbv zeta. reflexivity. }
  assert (Hac := acc_lin wi wj q h y v t Hf).
  destruct fn; cbn [step1].
  - exact Hrk.
  - unfold euler_body. cbv zeta. rewrite Hc. cbn [fst snd].
    assert (EA : dmp_acc y v (precomputed_cdd a) (a_alpha_y a) (a_beta_y a) (a_goal_y a) (a_start_y a)
        (ft_phase (a_forcing_term a) t) (a_goal_t a - a_start_t a)
        (ft_forces (a_forcing_term a) (ft_phase (a_forcing_term a) t)) (Some cpl)
        (fun d => a_p_gain a * tracking_error_or_zero (a_tracking_error a) d / h) (a_smooth_scaling a)
      = acc_of a h y v (ft_phase (a_forcing_term a) t) (ft_forces (a_forcing_term a) (ft_phase (a_forcing_term a) t)))
      by (unfold acc_of; now rewrite Hc).
    rewrite EA. fold tau. set (A := acc_of _ _ _ _ _ _) in *.
    unfold upd, inp, inq. rewrite L with (u := vadd v (vscale h A)). rewrite Hkick.
    rewrite !L, !Lr, !L, !Lr, Hac. reflexivity.
  - exact Hrk.
  - unfold euler_cython_body. cbv zeta. rewrite Hc, Hte. fold tau.
    destruct (cpl y v) as [cd cdd] eqn:Ec. cbn [fst snd].
    specialize (Hkick y v). rewrite Ec in Hkick. cbn [fst] in Hkick.
    set (A := acc_of _ _ _ _ _ _) in Hac.
    assert (EA : forall d, A d
      = (a_alpha_y a d * (a_beta_y a d * (a_goal_y a d - y d) - tau * v d
          - (if a_smooth_scaling a then a_beta_y a d * (a_goal_y a d - a_start_y a d)
               * ft_phase (a_forcing_term a) t else 0))
          + ft_forces (a_forcing_term a) (ft_phase (a_forcing_term a) t) d + cdd d) / tau ^ 2).
    { intros d. unfold A, acc_of, dmp_acc. rewrite Hc, Hte, Ec. fold tau.
      unfold tracking_error_or_zero, vzero. cbn [snd]. unfold Rdiv. ring. }
    unfold upd, inp, inq.
    assert (E2 : lin i j wi wj (fun d => v d + (h * A d + cd d / tau))
      = lin i j wi wj v + h * (cconst wi wj q - cstiff q * lin i j wi wj y - cc * lin i j wi wj v + cdist wi wj t)
        + q * ga / tau * (dist - lin i j wi wj y)).
    { rewrite <- Hac, <- Hkick. unfold lin, vdivs. ring. }
    f_equal.
    + transitivity (lin i j wi wj y + h * lin i j wi wj (fun d => v d + (h * A d + cd d / tau))).
      * unfold lin. rewrite !EA. ring.
      * rewrite E2. reflexivity.
    + rewrite <- E2. unfold lin. rewrite !EA. ring.
Qed.

(** ** Sequences *)
Hypothesis Hph : phase_ok (a_forcing_term a).

Lemma cdist_vanishes wi wj t0 h r : 0 < h -> 0 <= r ->
  vanishes (fun n => cdist wi wj (t0 + INR (S n) * h + r)).
Proof.
  intros Hh Hr.
  destruct (disturbance_bound a i (proj1 Hph)) as [Bi [Bi0 HBi]].
  destruct (disturbance_bound a j (proj1 Hph)) as [Bj [Bj0 HBj]].
  assert (Hv : forall d B, 0 <= B -> (forall z, 0 <= z -> Rabs (disturbance a z d) <= B * z) ->
    vanishes (fun n => disturbance a (ft_phase (a_forcing_term a) (t0 + INR (S n) * h + r)) d / tau ^ 2)).
  { intros d B B0 HB. apply (vanishes_le _ (fun n => B / tau ^ 2 * ft_phase (a_forcing_term a) (t0 + INR n * h))).
    - intros n. apply dist_input_bound; auto. rewrite S_INR. lra.
    - apply vanishes_scal. now apply phase_grid_vanishes. }
  apply (vanishes_ext (fun n => wi * (disturbance a (ft_phase (a_forcing_term a) (t0 + INR (S n) * h + r)) i / tau ^ 2)
    + wj * (disturbance a (ft_phase (a_forcing_term a) (t0 + INR (S n) * h + r)) j / tau ^ 2))).
  - intros n. unfold cdist. cbv zeta. pose proof tau_nz. field. auto.
  - apply vanishes_plus; apply vanishes_scal; eauto.
Qed.

Lemma inputs_vanish fn wi wj k t0 h : 0 < h ->
  vanishes (fun n => inp fn h k wi wj (t0 + INR (S n) * h))
  /\ vanishes (fun n => inq fn h k wi wj (t0 + INR (S n) * h)).
Proof.
  intros Hh.
  assert (H0 : vanishes (fun n => cdist wi wj (t0 + INR (S n) * h))).
  { eapply vanishes_ext; [|apply (cdist_vanishes wi wj t0 h 0); lra]. intros n. cbv beta. f_equal. ring. }
  pose proof (cdist_vanishes wi wj t0 h (/ 2 * h) Hh ltac:(lra)) as H1.
  pose proof (cdist_vanishes wi wj t0 h h Hh ltac:(lra)) as H2.
  assert (Hz : vanishes (fun _ : nat => 0)).
  { intros eps He. exists 0%nat. intros. rewrite Rabs_R0. auto. }
  destruct fn; unfold inp, inq; cbv zeta; split; auto; repeat apply vanishes_plus; apply vanishes_scal; auto.
Qed.

(** The state of rest of the recurrence [upd]. *)
Definition Delta (fn : step_function) (h k p : R) : R :=
  h ^ 2 * k * weight_goal fn h cc k + h * p * weight_kick fn h cc k.
Definition restX (fn : step_function) (h k m p : R) : R :=
  (h ^ 2 * weight_goal fn h cc k * m + h * p * weight_kick fn h cc k * dist) / Delta fn h k p.
Definition restw (fn : step_function) (h k m p : R) : R :=
  h ^ 2 * left_over fn h cc k * p * (k * dist - m) / Delta fn h k p.

Lemma Delta_eq fn h k p : Delta fn h k p = 1 - pair_sum fn h cc k p + pair_product fn h cc k.
Proof.
  unfold Delta, pair_sum, pair_product, weight_goal, weight_kick.
  destruct fn; cbv zeta; unfold rk_a; ring.
Qed.

Lemma upd_vanishes fn h k m p (X w up uq : nat -> R) :
  pair_settles fn h cc k p ->
  (forall n, (X (S n), w (S n)) = upd fn h k m p (X n) (w n) (up n) (uq n)) ->
  vanishes up -> vanishes uq ->
  vanishes (fun n => X n - restX fn h k m p) /\ vanishes (fun n => w n - restw fn h k m p).
Proof.
  intros [Hp Hs] Hrec Hup Huq.
  assert (HD : Delta fn h k p <> 0).
  { rewrite Delta_eq. apply Rabs_def2 in Hs. lra. }
  destruct (quadratic_roots (pair_sum fn h cc k p) (pair_product fn h cc k)) as (m1 & m2 & Et & Ed).
  destruct (roots_inside _ _ _ _ Et Ed) as [_ Hin].
  destruct (Hin (conj Hp Hs)) as [R1 R2]. clear Hin.
  set (Xs := restX fn h k m p). set (ws := restw fn h k m p).
  assert (Hfix : upd fn h k m p Xs ws 0 0 = (Xs, ws)).
  { unfold Xs, ws, restX, restw. unfold Delta in *.
    destruct fn; unfold upd, weight_goal, weight_kick, left_over in *; cbv zeta in *;
      f_equal; unfold rk_a; field; intros HE; apply HD; rewrite <- HE; ring. }
  pose proof (fun n => f_equal fst (Hrec n)) as Hrec1. pose proof (fun n => f_equal snd (Hrec n)) as Hrec2.
  pose proof (f_equal fst Hfix) as Hfix1. pose proof (f_equal snd Hfix) as Hfix2.
  change (forall n, X (S n) = fst (upd fn h k m p (X n) (w n) (up n) (uq n))) in Hrec1.
  change (forall n, w (S n) = snd (upd fn h k m p (X n) (w n) (up n) (uq n))) in Hrec2.
  change (fst (upd fn h k m p Xs ws 0 0) = Xs) in Hfix1. change (snd (upd fn h k m p Xs ws 0 0) = ws) in Hfix2. clear Hrec Hfix. clearbody Xs ws.
  destruct fn.
  - apply (two_vanish (rk_a (h * cc) (h ^ 2 * k)) (rk_b (h * cc) (h ^ 2 * k) * h)
      (- rk_b (h * cc) (h ^ 2 * k) * h * k - p * rk_a (h * cc) (h ^ 2 * k))
      (rk_a (h * cc) (h ^ 2 * k) - rk_b (h * cc) (h ^ 2 * k) * h * cc - p * (rk_b (h * cc) (h ^ 2 * k) * h)) m1 m2)
      with (p := up) (q := fun n => uq n + (- p) * up n); auto.
    + rewrite Et. f_equal. unfold pair_sum, weight_kick. cbv zeta. ring.
    + rewrite Ed. f_equal. unfold pair_product. cbv zeta. ring.
    + intros n. rewrite (Hrec1 n). rewrite <- Hfix1 at 1. unfold upd. cbv zeta. cbn [fst snd]. ring.
    + intros n. rewrite (Hrec2 n). rewrite <- Hfix2 at 1. unfold upd. cbv zeta. cbn [fst snd]. ring.
    + apply vanishes_plus; auto. now apply vanishes_scal.
  - apply (two_vanish (1 - h ^ 2 * k) (h * (1 - h * cc)) (- h * k - p * (1 - h ^ 2 * k))
      (1 - h * cc - p * (h * (1 - h * cc))) m1 m2)
      with (p := fun n => h ^ 2 * uq n) (q := fun n => h * uq n + (- p * h ^ 2) * uq n); auto.
    + rewrite Et. f_equal. unfold pair_sum, weight_kick. ring.
    + rewrite Ed. f_equal. unfold pair_product. ring.
    + intros n. rewrite (Hrec1 n). rewrite <- Hfix1 at 1. unfold upd. cbv zeta. cbn [fst snd]. ring.
    + intros n. rewrite (Hrec2 n). rewrite <- Hfix2 at 1. unfold upd. cbv zeta. cbn [fst snd]. ring.
    + now apply vanishes_scal.
    + apply vanishes_plus; now apply vanishes_scal.
  - apply (two_vanish (rk_a (h * cc) (h ^ 2 * k)) (rk_b (h * cc) (h ^ 2 * k) * h)
      (- rk_b (h * cc) (h ^ 2 * k) * h * k - p * rk_a (h * cc) (h ^ 2 * k))
      (rk_a (h * cc) (h ^ 2 * k) - rk_b (h * cc) (h ^ 2 * k) * h * cc - p * (rk_b (h * cc) (h ^ 2 * k) * h)) m1 m2)
      with (p := up) (q := fun n => uq n + (- p) * up n); auto.
    + rewrite Et. f_equal. unfold pair_sum, weight_kick. cbv zeta. ring.
    + rewrite Ed. f_equal. unfold pair_product. cbv zeta. ring.
    + intros n. rewrite (Hrec1 n). rewrite <- Hfix1 at 1. unfold upd. cbv zeta. cbn [fst snd]. ring.
    + intros n. rewrite (Hrec2 n). rewrite <- Hfix2 at 1. unfold upd. cbv zeta. cbn [fst snd]. ring.
    + apply vanishes_plus; auto. now apply vanishes_scal.
  - apply (two_vanish (1 - h * (h * k + p)) (h * (1 - h * cc)) (- (h * k + p)) (1 - h * cc) m1 m2)
      with (p := fun n => h ^ 2 * uq n) (q := fun n => h * uq n); auto.
    + rewrite Et. f_equal. unfold pair_sum, weight_kick. ring.
    + rewrite Ed. f_equal. unfold pair_product. ring.
    + intros n. rewrite (Hrec1 n). rewrite <- Hfix1 at 1. unfold upd. cbv zeta. cbn [fst snd]. ring.
    + intros n. rewrite (Hrec2 n). rewrite <- Hfix2 at 1. unfold upd. cbv zeta. cbn [fst snd]. ring.
    + now apply vanishes_scal.
    + now apply vanishes_scal.
Qed.

Lemma bodies_lin fn wi wj q t0 h x : fits wi wj q -> 0 < h ->
  pair_settles fn h cc (cstiff q) (q * ga / tau) ->
  let k := cstiff q in let m := cconst wi wj q in let p := q * ga / tau in
  vanishes (fun n => lin i j wi wj (fst (bodies (step1 fn a) t0 h x n)) - restX fn h k m p)
  /\ vanishes (fun n => lin i j wi wj (snd (bodies (step1 fn a) t0 h x n)) - restw fn h k m p).
Proof.
  intros Hf Hh Hst k m p.
  destruct (inputs_vanish fn wi wj k t0 h Hh) as [Hup Huq].
  apply (upd_vanishes fn h k m p (fun n => lin i j wi wj (fst (bodies (step1 fn a) t0 h x n)))
    (fun n => lin i j wi wj (snd (bodies (step1 fn a) t0 h x n))) _ _ Hst) with (2 := Hup) (3 := Huq).
  intros n. cbn [bodies]. destruct (bodies (step1 fn a) t0 h x n) as [y v].
  apply (step1_lin fn wi wj q _ h y v Hf).
Qed.
End Coupled.
