(** C140: behind a goal that moves at a constant speed a DMP ends up at a constant
    distance and with a constant velocity.  Final statements. *)
From Coq Require Import Reals ZArith List Lia Lra Psatz FunctionalExtensionality.
From Verif Require Import M_Prelude M_Canonical M_Forcing M_Dmp M_Base M_DmpObject
  S_Loops S_Dmp S_Stability P_Loops P_Canonical P_Forcing P_DmpStep P_DmpScale P_DmpLinear P_Converge
  P_DmpObject P_Disturbed P_Stability P_Bounded P_DisturbedAll P_Moving P_Pace Properties_Forcing Properties_Dmp
  Properties_DmpObject Properties_DmpState Properties_Goal Properties_Stability Properties_Robust
  Properties_RobustAll Properties_Moving.
Import ListNotations.
Open Scope R_scope.
Set Bullet Behavior "Strict Subproofs".

(** ** Specification *)
(** A damped spring x'' = - k x - c x' without forcing term: one step of the classical
    Runge-Kutta method and one of the Euler method that uses the new velocity. *)
Definition spring_rk4 (h c k : R) (s : R * R) : R * R :=
  let acc x v := - k * x - c * v in
  let (x, v) := s in
  let a1 := acc x v in
  let v2 := v + h / 2 * a1 in
  let a2 := acc (x + h / 2 * v) v2 in
  let v3 := v + h / 2 * a2 in
  let a3 := acc (x + h / 2 * v2) v3 in
  let v4 := v + h * a3 in
  let a4 := acc (x + h * v3) v4 in
  (x + h / 6 * (v + 2 * v2 + 2 * v3 + v4), v + h / 6 * (a1 + 2 * a2 + 2 * a3 + a4)).
Definition spring_euler (h c k : R) (s : R * R) : R * R :=
  let (x, v) := s in
  let v' := v + h * (- k * x - c * v) in (x + h * v', v').

(** A goal jumps ahead by [D].  If the spring was at [x] from the goal (negative: behind it) and had
    the velocity [v] before the jump, it is at [x] from the goal again and has the velocity [v] again
    after the step that follows the jump. *)
Definition keeps_pace (fn : step_function) (o : dmp) (d : nat) (D x v : R) : Prop :=
  let c := dmp_damping o d in let k := dmp_stiffness o d in
  match fn with
  | RK4 | RK4_cython => spring_rk4 (o_dt o) c k (x - D, v) = (x, v)
  | Euler | Euler_cython =>
      let h := Rmin (o_dt o) (o_int_dt o) in
      exists n, INR n * h = o_dt o /\ Nat.iter n (spring_euler h c k) (x - D, v) = (x, v)
  end.

(** The goal moves by [D] per step, at least in the long run. *)
Definition moves_by (goals : nat -> arr) (d : nat) (D : R) : Prop :=
  forall eps, 0 < eps -> exists N, forall k, (N <= k)%nat ->
    Rabs (aget (goals (S k)) d - aget (goals k) d - D) <= eps.

(** ** Proofs *)
Lemma spring_rk4_eq h c k x v :
  spring_rk4 h c k (x, v) = (ra h c k * x + rb h c k * h * v, - rb h c k * h * k * x + (ra h c k - rb h c k * h * c) * v).
Proof. unfold spring_rk4, ra, rb. f_equal; field. Qed.

Lemma spring_euler_eq h c k s : spring_euler h c k s = esub h c k s.
Proof. destruct s as [x v]. unfold spring_euler, esub. cbn [fst snd]. f_equal; ring. Qed.

Lemma spring_iter_eq h c k n s : Nat.iter n (spring_euler h c k) s = Nat.iter n (esub h c k) s.
Proof. induction n as [|n IH]; [reflexivity|]. cbn [Nat.iter nat_rect]. change (spring_euler h c k (Nat.iter n (spring_euler h c k) s) = esub h c k (Nat.iter n (esub h c k) s)). now rewrite IH, spring_euler_eq. Qed.

Lemma esub_iter_linear h c k n : exists p q r u, forall s,
  Nat.iter n (esub h c k) s = (p * fst s + q * snd s, r * fst s + u * snd s).
Proof.
  induction n as [|n (p & q & r & u & IH)].
  - exists 1, 0, 0, 1. intros [x v]. cbn. f_equal; ring.
  - exists ((1 - h ^ 2 * k) * p + h * (1 - h * c) * r), ((1 - h ^ 2 * k) * q + h * (1 - h * c) * u),
      (- h * k * p + (1 - h * c) * r), (- h * k * q + (1 - h * c) * u).
    intros s. change (Nat.iter (S n) (esub h c k) s) with (esub h c k (Nat.iter n (esub h c k) s)).
    rewrite IH. unfold esub. cbn [fst snd]. f_equal; ring.
Qed.

Lemma rk4_only_zero h c k x v : rk4_shrinks h c k ->
  ra h c k * x + rb h c k * h * v = x -> - rb h c k * h * k * x + (ra h c k - rb h c k * h * c) * v = v -> x = 0 /\ v = 0.
Proof.
  intros Hs E1 E2. destruct (rk4_eventually h c k Hs) as (K & HK & H).
  destruct (H (fun _ => x) (fun _ => v) (fun _ => 0) (fun _ => 0) 0) as [H1 H2]; try lra.
  - intros _. lra.
  - intros _. lra.
  - intros e He. exists 0%nat. intros. rewrite Rabs_R0. lra.
  - intros e He. exists 0%nat. intros. rewrite Rabs_R0. lra.
  - rewrite Rmult_0_r in H1, H2. split; now apply eventually_zero.
Qed.

Lemma iter_plus {A} (f : A -> A) n m s : Nat.iter (n + m) f s = Nat.iter n f (Nat.iter m f s).
Proof. induction n as [|n IH]; [reflexivity|]. cbn [Nat.add]. exact (f_equal f IH). Qed.

Lemma iter_again {A} (f : A -> A) n j s : Nat.iter n f s = s -> Nat.iter (j * n) f s = s.
Proof.
  intros E. induction j as [|j IH]; [reflexivity|]. cbn [Nat.mul]. rewrite iter_plus, IH. exact E.
Qed.

Lemma euler_only_zero h c k n s : (0 < n)%nat -> euler_shrinks h c k -> Nat.iter n (esub h c k) s = s -> s = (0, 0).
Proof.
  intros Hn Hs E. destruct (euler_eventually h c k Hs) as (K & HK & H).
  destruct (H (fun j => fst (Nat.iter j (esub h c k) s)) (fun j => snd (Nat.iter j (esub h c k) s))
    (fun _ => 0) (fun _ => 0) 0) as [H1 H2]; try lra.
  - intros j. change (Nat.iter (S j) (esub h c k) s) with (esub h c k (Nat.iter j (esub h c k) s)). unfold esub at 1. cbn [fst]. ring.
  - intros j. change (Nat.iter (S j) (esub h c k) s) with (esub h c k (Nat.iter j (esub h c k) s)). unfold esub at 1. cbn [snd]. ring.
  - intros e He. exists 0%nat. intros. rewrite Rabs_R0. lra.
  - intros e He. exists 0%nat. intros. rewrite Rabs_R0. lra.
  - rewrite Rmult_0_r in H1, H2.
    assert (Hs0 : forall f : R * R -> R, eventually_below (fun j => f (Nat.iter j (esub h c k) s)) 0 -> f s = 0).
    { intros f Hf. apply eventually_zero. intros e He. destruct (Hf e He) as [N HN]. exists N. intros j Hj.
      specialize (HN (j * n)%nat ltac:(nia)). rewrite iter_again in HN by exact E. exact HN. }
    rewrite (surjective_pairing s). f_equal; [apply (Hs0 fst)|apply (Hs0 snd)]; assumption.
Qed.

Lemma equal_parts_count dt int_dt : 0 < dt -> 0 < int_dt -> equal_parts dt int_dt ->
  exists n, (0 < n)%nat /\ dt = INR n * Rmin dt int_dt.
Proof.
  intros Hdt Hi Hep. destruct (equal_tiles dt int_dt (Rmin dt int_dt) Hdt Hi (parts_length _ _ Hdt Hi Hep)) as (n & Hn & En & _).
  eauto.
Qed.

Lemma pace_limit fn o d goals y yd D x v :
  phase_ok (o_forcing_term o) -> shapes_ok o ->
  0 < o_execution_time o -> 0 < o_dt o -> 0 < o_int_dt o -> steps_shrink fn o d ->
  alen y = p_n_dims (o_base o) -> alen yd = p_n_dims (o_base o) -> (forall k, alen (goals k) = p_n_dims (o_base o)) ->
  moves_by goals d D -> o_smooth_scaling o = false \/ bounded_goals goals d -> keeps_pace fn o d D x v ->
  forall eps, 0 < eps -> exists N, forall k, (N <= k)%nat ->
  exists o' y' yd', chase fn goals (S k) y yd o = (o', Ok (y', yd'))
    /\ Rabs (aget y' d - aget (goals k) d - x) <= eps /\ Rabs (aget yd' d - v) <= eps.
Proof.
  intros Hph Hsh Hx Hdt Hi Hst Ly Lyd Lg' Hmv Hsm Hkp.
  assert (Hrun : running o) by (unfold running; auto).
  destruct (chase_states fn o goals d y yd Hph Hsh Hrun Ly Lyd Lg' Hsm) as (k0 & M & t0 & a & s & HM & Ht0 & HA & Hint & Hs & Hret).
  set (g := fun k => aget (goals (S (k0 + k))) d) in *.
  assert (Hg : eventually_below (fun k => g (S k) - g k - D) 0).
  { intros e He. destruct (Hmv e He) as [N HN]. exists N. intros k Hk. unfold g. rewrite Rplus_0_l.
    replace (k0 + S k)%nat with (S (k0 + k)) by lia. apply HN. lia. }
  assert (HE : eventually_below (fun k => fst (s k) d - g k - (x - D)) 0 /\ eventually_below (fun k => snd (s k) d - v) 0).
  { unfold keeps_pace in Hkp. cbv zeta in Hkp. unfold steps_shrink in Hst. cbv zeta in Hst.
    unfold dmp_damping, dmp_stiffness in *.
    assert (Hfn : uses_rk4 fn \/ uses_euler fn) by (destruct fn; unfold uses_rk4, uses_euler; auto).
    destruct Hfn as [Hfn|Hfn].
    - assert (Hs' : forall k, s (S k) = dmp_step_rk4 (a k) (t0 + INR k * o_dt o) (t0 + INR (S k) * o_dt o) (s k)).
      { intros k. specialize (Hs k). destruct Hfn as [-> | ->]; cbn [run_step_function] in Hs; [|rewrite rk4_cython_eq in Hs];
          now injection Hs. }
      destruct Hfn as [-> | ->]; rewrite spring_rk4_eq in Hkp;
        assert (E1 := f_equal fst Hkp); assert (E2 := f_equal snd Hkp); cbn [fst snd] in E1, E2;
        (eapply rk4_pace_run with (D := D);
           [exact Hdt|exact Hx|exact Hst|rewrite E1; ring|exact E2|exact HA|exact Hph|exact HM|exact Hg|exact Hs']).
    - assert (Hst' : equal_parts (o_dt o) (o_int_dt o)
        /\ euler_shrinks (Rmin (o_dt o) (o_int_dt o)) (aget (o_alpha_y o) d / o_execution_time o)
             (aget (o_alpha_y o) d * aget (o_beta_y o) d / o_execution_time o ^ 2)) by (destruct Hfn as [-> | ->]; exact Hst).
      assert (Hkp' : exists n, INR n * Rmin (o_dt o) (o_int_dt o) = o_dt o
        /\ Nat.iter n (spring_euler (Rmin (o_dt o) (o_int_dt o)) (aget (o_alpha_y o) d / o_execution_time o)
             (aget (o_alpha_y o) d * aget (o_beta_y o) d / o_execution_time o ^ 2)) (x - D, v) = (x, v))
        by (destruct Hfn as [-> | ->]; exact Hkp).
      destruct Hst' as [Hep Hs'], Hkp' as (m & Em & Ek). rewrite spring_iter_eq in Ek.
      eapply euler_pace_run with (D := D) (n := m);
        [exact Hdt|exact Hi|exact Hx|exact (parts_length _ _ Hdt Hi Hep)|exact Hs'| | | |exact Hfn|exact HA|exact Hint
        |exact Hph|exact HM|exact Ht0|exact Hg|exact Hs].
      + destruct m; [simpl in Em; lra|lia].
      + auto.
      + rewrite Ek. f_equal. ring. }
  destruct HE as [HE1 HE2]. intros eps He.
  destruct (HE1 (eps / 2) ltac:(lra)) as [N1 HN1]. destruct (HE2 eps He) as [N2 HN2].
  destruct (Hmv (eps / 2) ltac:(lra)) as [N3 HN3].
  exists (k0 + N1 + N2 + N3)%nat. intros k Hk.
  set (j := (k - k0)%nat). assert (Ek : k = (k0 + j)%nat) by (unfold j; lia).
  destruct (Hret j) as (o' & y' & yd' & E & Es). exists o', y', yd'. rewrite Ek. split; [exact E|].
  specialize (HN1 j ltac:(unfold j; lia)). specialize (HN2 j ltac:(unfold j; lia)).
  specialize (HN3 (k0 + j)%nat ltac:(lia)).
  unfold g in HN1, HN2. rewrite Es in HN1, HN2. cbn [fst snd] in HN1, HN2. split.
  - replace (aget y' d - aget (goals (k0 + j)%nat) d - x) with
      ((aget y' d - aget (goals (S (k0 + j))) d - (x - D))
       + (aget (goals (S (k0 + j))) d - aget (goals (k0 + j)%nat) d - D)) by ring.
    eapply Rle_trans; [apply Rabs_triang|]. lra.
  - lra.
Qed.

(** ** C140 *)
(** There is exactly one way to keep pace with a goal. *)
Theorem C140_pace : forall fn o d D,
  0 < o_execution_time o -> 0 < o_dt o -> 0 < o_int_dt o -> steps_shrink fn o d ->
  exists x v, keeps_pace fn o d D x v
  /\ forall x' v', keeps_pace fn o d D x' v' -> x' = x /\ v' = v.
Proof.
  intros fn o d D Hx Hdt Hi Hst.
  assert (HR : forall c k, rk4_shrinks (o_dt o) c k -> exists x v, spring_rk4 (o_dt o) c k (x - D, v) = (x, v)
     /\ forall x' v', spring_rk4 (o_dt o) c k (x' - D, v') = (x', v') -> x' = x /\ v' = v).
  { intros c k Hs.
    destruct (unique_pace _ _ _ _ D (fun x v => rk4_only_zero (o_dt o) c k x v Hs)) as (e & v & (E1 & E2) & U).
    exists (e + D), v. split.
    - rewrite spring_rk4_eq. replace (e + D - D) with e by ring. now rewrite E1, E2.
    - intros x' v' E. rewrite spring_rk4_eq in E. injection E as F1 F2.
      destruct (U (x' - D) v') as [G1 G2]; [lra|lra|]. lra. }
  assert (HE : forall c k, equal_parts (o_dt o) (o_int_dt o) -> euler_shrinks (Rmin (o_dt o) (o_int_dt o)) c k ->
     let h := Rmin (o_dt o) (o_int_dt o) in
     exists x v, (exists n, INR n * h = o_dt o /\ Nat.iter n (spring_euler h c k) (x - D, v) = (x, v))
     /\ forall x' v', (exists n, INR n * h = o_dt o /\ Nat.iter n (spring_euler h c k) (x' - D, v') = (x', v'))
        -> x' = x /\ v' = v).
  { intros c k Hep Hs h. destruct (equal_parts_count _ _ Hdt Hi Hep) as (n & Hn & En). fold h in En, Hs.
    assert (Hh : 0 < h) by (apply Rmin_pos; auto).
    destruct (esub_iter_linear h c k n) as (p & q & r & u & L).
    destruct (unique_pace p q r u D) as (e & v & (E1 & E2) & U).
    { intros x v E1 E2. assert (E : (x, v) = (0, 0)); [|injection E; auto].
      apply (euler_only_zero h c k n); auto. rewrite L. cbn [fst snd]. now rewrite E1, E2. }
    exists (e + D), v. split.
    - exists n. split; [auto|]. rewrite spring_iter_eq, L. cbn [fst snd]. replace (e + D - D) with e by ring.
      now rewrite E1, E2.
    - intros x' v' (n' & En' & E).
      assert (n' = n) as -> by (apply INR_eq, (Rmult_eq_reg_r h); lra).
      rewrite spring_iter_eq, L in E. cbn [fst snd] in E. injection E as F1 F2.
      destruct (U (x' - D) v') as [G1 G2]; [lra|lra|]. lra. }
  unfold keeps_pace, steps_shrink in *. destruct fn; auto; destruct Hst; auto.
Qed.

(** Whatever the history, the weights and the beginning: the DMP ends up keeping pace with the goal.
    [y'] and [yd'] are returned by the step that follows the jump to [goals k]. *)
Theorem C140_limit : forall fn n o d goals y yd D x v,
  reachable n o -> 0 < o_execution_time o -> 0 < o_dt o -> 0 < o_int_dt o -> steps_shrink fn o d ->
  alen y = n -> alen yd = n -> (forall k, alen (goals k) = n) ->
  moves_by goals d D -> o_smooth_scaling o = false \/ bounded_goals goals d -> keeps_pace fn o d D x v ->
  forall eps, 0 < eps -> exists N, forall k, (N <= k)%nat ->
  exists o' y' yd', chase fn goals (S k) y yd o = (o', Ok (y', yd'))
    /\ Rabs (aget y' d - aget (goals k) d - x) <= eps /\ Rabs (aget yd' d - v) <= eps.
Proof.
  intros fn n o d goals y yd D x v Hr Hx Hdt Hi Hst Ly Lyd Lg Hmv Hsm Hkp.
  destruct (reachable_shapes n o Hr) as [Hsh Hn].
  apply pace_limit with (D := D); auto; try (intros; rewrite Hn; auto; fail). now apply (reachable_phase_ok n).
Qed.

(** One Euler step per call: the velocity is that of the goal, and right after the goal has jumped the DMP
    is [tau / beta] times this velocity behind it, as a solution of the differential equation would be. *)
Theorem C140_euler_lag : forall fn o d D, uses_euler fn ->
  0 < o_execution_time o -> 0 < o_dt o <= o_int_dt o ->
  aget (o_alpha_y o) d <> 0 -> aget (o_beta_y o) d <> 0 ->
  keeps_pace fn o d D (D - o_execution_time o / aget (o_beta_y o) d * (D / o_dt o)) (D / o_dt o).
Proof.
  intros fn o d D Hfn Hx [Hdt Hle] Ha Hb. unfold keeps_pace. cbv zeta. rewrite Rmin_left by exact Hle.
  assert (H : forall x v, x - D = - (o_execution_time o / aget (o_beta_y o) d * (D / o_dt o)) -> v = D / o_dt o ->
    exists n, INR n * o_dt o = o_dt o
      /\ Nat.iter n (spring_euler (o_dt o) (dmp_damping o d) (dmp_stiffness o d)) (x - D, v) = (x, v)).
  { intros x v E1 E2. exists 1%nat. split; [simpl; ring|]. cbn [Nat.iter nat_rect]. unfold spring_euler.
    rewrite E1, E2. unfold dmp_damping, dmp_stiffness.
    assert (F : x = D - o_execution_time o / aget (o_beta_y o) d * (D / o_dt o)) by lra. rewrite F.
    f_equal; field; repeat split; lra. }
  destruct Hfn as [-> | ->]; apply H; ring.
Qed.

(** The overdamped DMP of C133 and a goal that moves by 1/10 in every step. *)
Example C140_satisfiable : exists o, reachable 1 o /\ 0 < o_execution_time o /\ 0 < o_dt o /\ 0 < o_int_dt o
  /\ steps_shrink RK4 o 0 /\ steps_shrink Euler_cython o 0 /\ o_smooth_scaling o = false
  /\ (let goals := fun k => one (INR k / 10) in (forall k, alen (goals k) = 1%nat) /\ moves_by goals 0 (1/10))
  /\ (exists x v, keeps_pace RK4 o 0 (1/10) x v) /\ (exists x v, keeps_pace Euler_cython o 0 (1/10) x v).
Proof.
  destruct C133_satisfiable as (o & H1 & H2 & H3 & H4 & H5 & H6 & _ & H8 & _).
  exists o. repeat (split; [assumption|]). split; [|split].
  - split; [reflexivity|]. intros e He. exists 0%nat. intros k _. unfold one. cbn [aget]. rewrite S_INR.
    replace ((INR k + 1) / 10 - INR k / 10 - 1/10) with 0 by field. rewrite Rabs_R0. lra.
  - destruct (C140_pace RK4 o 0 (1/10)) as (x & v & H & _); eauto.
  - destruct (C140_pace Euler_cython o 0 (1/10)) as (x & v & H & _); eauto.
Qed.
