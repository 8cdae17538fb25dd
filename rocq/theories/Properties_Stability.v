(** C100: exactly which step lengths let a movement reach its goal.
    Final statements. *)
From Coq Require Import Reals ZArith List Lia Lra Psatz FunctionalExtensionality.
From Coquelicot Require Import Complex.
From Verif Require Import M_Prelude M_Canonical M_Forcing M_Dmp M_Base M_DmpObject M_SpringDamper
  S_Loops S_Dmp S_Stability P_Loops P_Canonical P_Forcing P_DmpStep P_DmpScale P_DmpLinear P_Converge
  P_DmpObject P_Stability Properties_Forcing Properties_Dmp Properties_DmpObject Properties_DmpState
  Properties_Goal Properties_SpringDamper.
Import ListNotations.
Open Scope R_scope.
Set Bullet Behavior "Strict Subproofs".

(** ** Specification *)
(** Dimension [d] of a DMP without forcing term is a spring with this damping and
    this stiffness: tau^2 y'' = alpha (beta (g - y) - tau y'). *)
Definition dmp_damping (o : dmp) (d : nat) : R := aget (o_alpha_y o) d / o_execution_time o.
Definition dmp_stiffness (o : dmp) (d : nat) : R :=
  aget (o_alpha_y o) d * aget (o_beta_y o) d / o_execution_time o ^ 2.

(** The Euler integrators divide a step into equal parts: it is not longer than
    [int_dt], or a multiple of it. *)
Definition equal_parts (dt int_dt : R) : Prop := dt <= int_dt \/ exists n, dt = INR n * int_dt.

(** One integration step makes every motion of the spring smaller. *)
Definition steps_shrink (fn : step_function) (o : dmp) (d : nat) : Prop :=
  let c := dmp_damping o d in let k := dmp_stiffness o d in
  match fn with
  | RK4 | RK4_cython => rk4_shrinks (o_dt o) c k
  | Euler | Euler_cython =>
      equal_parts (o_dt o) (o_int_dt o) /\ euler_shrinks (Rmin (o_dt o) (o_int_dt o)) c k
  end.

(** ** Proofs *)
Lemma parts_length dt int_dt : 0 < dt -> 0 < int_dt -> equal_parts dt int_dt ->
  substep_length dt int_dt (Rmin dt int_dt).
Proof.
  intros Hdt Hi [H|[n En]].
  - left. split; auto. now apply Rmin_left.
  - right. split; [|eauto]. apply Rmin_right.
    destruct n as [|n]; [simpl in En; lra|]. rewrite S_INR in En. pose proof (pos_INR n). nra.
Qed.

Lemma run_seq_fn_rk4 fn a t0 dt x : uses_rk4 fn ->
  exists s, s 0%nat = x
  /\ (forall k, s (S k) = dmp_step_rk4 a (t0 + INR k * dt) (t0 + INR (S k) * dt) (s k))
  /\ forall k, run_seq (run_step_function fn a) t0 dt x k = Ok (s k).
Proof.
  intros Hfn. destruct (run_seq_rk4 a t0 dt x) as (s & H0 & HS & Hr). exists s.
  split; auto. split; auto. intros k. rewrite <- Hr. destruct Hfn as [-> | ->]; [reflexivity|].
  f_equal. do 3 (apply functional_extensionality; intro). cbn. now rewrite rk4_cython_eq.
Qed.

(** A run of the step function with constant arguments. *)
Lemma run_reaches fn a t0 dt x d :
  free a -> a_start_t a < a_goal_t a -> phase_ok (a_forcing_term a) -> 0 < dt -> 0 < a_int_dt a ->
  a_start_t a <= t0 ->
  match fn with
  | RK4 | RK4_cython => rk4_shrinks dt (damping a d) (stiffness a d)
  | Euler | Euler_cython => equal_parts dt (a_int_dt a)
      /\ euler_shrinks (Rmin dt (a_int_dt a)) (damping a d) (stiffness a d)
  end ->
  exists s, s 0%nat = x
    /\ (forall k, run_seq (run_step_function fn a) t0 dt x k = Ok (s k))
    /\ vanishes (fun k => fst (s k) d - a_goal_y a d) /\ vanishes (fun k => snd (s k) d).
Proof.
  intros Hf Ht Hp Hdt Hi Ht0 Hst.
  assert (Hfn : uses_rk4 fn \/ uses_euler fn) by (destruct fn; unfold uses_rk4, uses_euler; auto).
  destruct Hfn as [Hfn|Hfn].
  - destruct (run_seq_fn_rk4 fn a t0 dt x Hfn) as (s & H0 & HS & Hr). exists s.
    split; auto. split; auto. apply (rk4_reaches a t0 dt x); auto; [lra|].
    destruct Hfn as [-> | ->]; exact Hst.
  - destruct (run_seq_euler fn a t0 dt x) as (s & H0 & HS & Hr); auto. exists s.
    split; auto. split; auto.
    assert (Hst' : equal_parts dt (a_int_dt a)
      /\ euler_shrinks (Rmin dt (a_int_dt a)) (damping a d) (stiffness a d))
      by (destruct Hfn as [-> | ->]; exact Hst).
    destruct Hst' as [He Hs]. apply (euler_reaches a t0 dt _ x) with (5 := Hi)
      (6 := parts_length _ _ Hdt Hi He); auto. lra.
Qed.

Lemma run_necessary fn a t0 dt x d :
  free a -> a_start_t a < a_goal_t a -> 0 < dt -> 0 < a_int_dt a -> a_start_t a <= t0 ->
  (uses_euler fn -> equal_parts dt (a_int_dt a)) ->
  a_smooth_scaling a = false ->
  (forall i, (i < ft_n (a_forcing_term a))%nat -> ft_weights (a_forcing_term a) d i = 0) ->
  stiffness a d <> 0 -> fst x d <> a_goal_y a d -> snd x d = 0 ->
  exists s, s 0%nat = x
    /\ (forall k, run_seq (run_step_function fn a) t0 dt x k = Ok (s k))
    /\ ((forall eps, 0 < eps -> exists j, Rabs (fst (s j) d - a_goal_y a d) < eps
                                          /\ Rabs (snd (s j) d) < eps) ->
        match fn with
        | RK4 | RK4_cython => rk4_shrinks dt (damping a d) (stiffness a d)
        | Euler | Euler_cython => equal_parts dt (a_int_dt a)
            /\ euler_shrinks (Rmin dt (a_int_dt a)) (damping a d) (stiffness a d)
        end).
Proof.
  intros Hf Ht Hdt Hi Ht0 He Hsm Hw Hk Hx Hv.
  assert (Hfn : uses_rk4 fn \/ uses_euler fn) by (destruct fn; unfold uses_rk4, uses_euler; auto).
  destruct Hfn as [Hfn|Hfn].
  - destruct (run_seq_fn_rk4 fn a t0 dt x Hfn) as (s & H0 & HS & Hr). exists s.
    split; auto. split; auto. intros Hsmall.
    assert (H : rk4_shrinks dt (damping a d) (stiffness a d)).
    { apply (rk4_necessary a t0 dt x) with (s := s); auto. lra. }
    destruct Hfn as [-> | ->]; exact H.
  - destruct (run_seq_euler fn a t0 dt x) as (s & H0 & HS & Hr); auto. exists s.
    split; auto. split; auto. intros Hsmall. specialize (He Hfn).
    assert (H : euler_shrinks (Rmin dt (a_int_dt a)) (damping a d) (stiffness a d)).
    { apply (euler_necessary a t0 dt _ x) with (5 := parts_length _ _ Hdt Hi He) (s := s); auto. lra. }
    destruct Hfn as [-> | ->]; auto.
Qed.

(** ** C100 *)
(** Any positive or negative gains, weights, history and first state: if the step
    length makes the motions of the spring smaller, repeated steps end at the
    current goal, at rest. *)
Theorem C100_reaches_goal : forall n o fn d y yd,
  reachable n o -> 0 < o_execution_time o -> 0 < o_dt o -> 0 < o_int_dt o ->
  (d < n)%nat -> alen y = n -> alen yd = n ->
  steps_shrink fn o d ->
  forall eps, 0 < eps -> exists N, forall k, (N <= k)%nat ->
  exists o' y' yd',
    n_steps_open_loop None (Some fn) k y yd o = (o', Ok (y', yd'))
    /\ Rabs (aget y' d - aget (p_goal_y (o_base o)) d) < eps /\ Rabs (aget yd' d) < eps.
Proof.
  intros n o fn d y yd Hr Hx Hdt Hi _ Ly Lyd Hst eps Heps.
  destruct (reachable_shapes n o Hr) as [Hsh Hn].
  pose proof (reachable_phase_ok n o Hr) as Hph.
  destruct (clock_steps (p_t (o_base o)) (o_dt o) Hdt) as [k0 Hk0].
  destruct (n_steps_total fn k0 o y yd Hsh (conj Hx (conj Hdt Hi)) ltac:(congruence) ltac:(congruence))
    as (o1 & y1 & yd1 & E1 & P1 & S1 & T1 & I1 & C1 & D1 & L1 & M1).
  pose proof (running_same _ _ P1 (conj Hx (conj Hdt Hi))) as (Hx1 & Hdt1 & Hi1).
  assert (Ht1 : 0 <= p_t (o_base o1)) by lra.
  pose proof P1 as (Q1 & Q2 & Q3 & Q4 & Q5 & Q6 & Q7 & Q8 & Q9 & Q10 & Q11 & Q12 & Q13 & Q14
                    & Q15 & Q16 & Q17).
  set (a := open_loop_step_args o1 None).
  assert (Hda : damping a d = dmp_damping o d).
  { unfold damping, dmp_damping. cbn. rewrite Q8, Q1. now rewrite Rminus_0_r. }
  assert (Hka : stiffness a d = dmp_stiffness o d).
  { unfold stiffness, dmp_stiffness. cbn -[pow]. rewrite Q8, Q9, Q1. now rewrite Rminus_0_r. }
  destruct (run_reaches fn a (p_t (o_base o1)) (o_dt o1) (aget y1, aget yd1) d)
    as (s & Hs0 & Hrun & Hv1 & Hv2); auto.
  { repeat split. }
  { cbn. rewrite Q7. exact Hph. }
  { rewrite Hda, Hka. change (a_int_dt a) with (o_int_dt o1). rewrite Q2, Q4. exact Hst. }
  destruct (Hv1 eps Heps) as [N1 HN1]. destruct (Hv2 eps Heps) as [N2 HN2].
  exists (S k0 + Nat.max N1 N2)%nat. intros k Hk.
  set (j := (k - S k0)%nat). replace k with (S k0 + j)%nat by (unfold j; lia).
  destruct (n_steps_follow fn None o1 j o1 y1 yd1 S1 (same_params_refl o1) Hdt1 Ht1)
    with (s := s j) as (o2 & y2 & yd2 & R1 & R2 & R3); auto; try congruence.
  - rewrite norm_id by auto. exact C1.
  - rewrite norm_id by auto. exact D1.
  - exists o2, y2, yd2. split; [rewrite (n_steps_app _ _ _ _ _ _ _ _ _ _ E1); exact R1|].
    specialize (HN1 j ltac:(unfold j; lia)). specialize (HN2 j ltac:(unfold j; lia)).
    rewrite <- R2 in HN1, HN2. cbn in HN1, HN2. rewrite Q15 in HN1. auto.
Qed.

(** The condition is necessary: a DMP with zero weights that starts at rest away
    from its goal comes arbitrarily close to rest at the goal only if the step
    length makes the motions of the spring smaller. *)
Theorem C100_exact : forall n o fn d,
  reachable n o -> 0 < o_execution_time o -> 0 < o_dt o -> 0 < o_int_dt o -> (d < n)%nat ->
  0 < aget (o_alpha_y o) d -> 0 < aget (o_beta_y o) d ->
  (uses_euler fn -> equal_parts (o_dt o) (o_int_dt o)) ->
  o_smooth_scaling o = false ->
  (forall i, (i < ft_n (o_forcing_term o))%nat -> ft_weights (o_forcing_term o) d i = 0) ->
  aget (p_start_y (o_base o)) d <> aget (p_goal_y (o_base o)) d ->
  aget (p_start_yd (o_base o)) d = 0 ->
  (steps_shrink fn o d <->
   forall eps, 0 < eps -> exists k o' y' yd',
     n_steps_open_loop None (Some fn) k (p_start_y (o_base o)) (p_start_yd (o_base o)) (dmp_reset o)
       = (o', Ok (y', yd'))
     /\ Rabs (aget y' d - aget (p_goal_y (o_base o)) d) < eps /\ Rabs (aget yd' d) < eps).
Proof.
  intros n o fn d Hr Hx Hdt Hi Hd Hal Hbe He Hsm Hw Hne Hv0.
  destruct (reachable_shapes n o Hr) as [Hsh Hn].
  pose proof Hsh as Hsh'. split_shapes Hsh'.
  split.
  - intros Hst eps Heps.
    destruct (C100_reaches_goal n (dmp_reset o) fn d (p_start_y (o_base o)) (p_start_yd (o_base o)))
      with (eps := eps) as [N HN]; auto; try congruence.
    { apply (reachable_exec n CReset o); auto. }
    exists N. apply (HN N). lia.
  - intros Hsmall.
    set (a := open_loop_step_args o None).
    assert (Hda : damping a d = dmp_damping o d).
    { unfold damping, dmp_damping. cbn. now rewrite Rminus_0_r. }
    assert (Hka : stiffness a d = dmp_stiffness o d).
    { unfold stiffness, dmp_stiffness. cbn -[pow]. now rewrite Rminus_0_r. }
    destruct (run_necessary fn a 0 (o_dt o) (aget (p_start_y (o_base o)), aget (p_start_yd (o_base o))) d)
      as (s & Hs0 & Hrun & Hnec); auto.
    { repeat split. }
    { cbn. lra. }
    { rewrite Hka. unfold dmp_stiffness. apply Rgt_not_eq.
      apply Rdiv_lt_0_compat; [nra|apply pow_lt; auto]. }
    unfold steps_shrink. cbv zeta. rewrite <- Hda, <- Hka. apply Hnec.
    intros eps Heps. destruct (Hsmall eps Heps) as (k & o' & y' & yd' & E & Hc1 & Hc2).
    destruct (n_steps_follow fn None o k (dmp_reset o) (p_start_y (o_base o)) (p_start_yd (o_base o)))
      with (s := s k) as (o2 & y2 & yd2 & R1 & R2 & R3); auto; try congruence.
    + unfold same_params; simpl; repeat split.
    + simpl. lra.
    + unfold norm. simpl. destruct (o_initialized o); reflexivity.
    + unfold norm. simpl. destruct (o_initialized o); reflexivity.
    + exists k. rewrite E in R1. injection R1 as -> -> ->. rewrite <- R2. cbn [fst snd]. auto.
Qed.

(** ** The limits in numbers *)
(** The Euler integrators, for every positive damping and stiffness. *)
Theorem C100_euler_limit : forall h c k, 0 < h -> 0 < c -> 0 < k ->
  (euler_shrinks h c k <-> h ^ 2 * k + 2 * (h * c) < 4).
Proof. exact euler_shrinks_iff. Qed.

Lemma rk4_growth_real x :
  rk4_growth (RtoC x) = RtoC (1 + x + x ^ 2 / 2 + x ^ 3 / 6 + x ^ 4 / 24).
Proof.
  unfold rk4_growth. replace (x ^ 2) with (x * x) by ring. replace (x ^ 3) with (x * x * x) by ring.
  replace (x ^ 4) with (x * x * x * x) by ring.
  rewrite !RtoC_plus, !RtoC_div, !RtoC_mult by lra. reflexivity.
Qed.

Lemma rk4_real x : 0 < x ->
  (Cmod (rk4_growth (RtoC (- x))) < 1 <-> x ^ 3 - 4 * x ^ 2 + 12 * x - 24 < 0).
Proof.
  intros Hx. rewrite rk4_growth_real, Cmod_R.
  set (q := x ^ 3 - 4 * x ^ 2 + 12 * x - 24).
  assert (E : 1 + - x + (- x) ^ 2 / 2 + (- x) ^ 3 / 6 + (- x) ^ 4 / 24 = 1 + x * q / 24)
    by (unfold q; field).
  rewrite E.
  assert (Hpos : 0 < 1 + x * q / 24).
  { replace (1 + x * q / 24) with (((x ^ 2 - 2 * x) ^ 2 + 8 * (x - 3 / 2) ^ 2 + 6) / 24)
      by (unfold q; field).
    pose proof (pow2_ge_0 (x ^ 2 - 2 * x)). pose proof (pow2_ge_0 (x - 3 / 2)). lra. }
  rewrite Rabs_pos_eq by lra. split; intros H; clearbody q; nra.
Qed.

(** The Runge-Kutta integrators, for a spring that does not oscillate: the faster
    of its two real rates counts. *)
Theorem C100_rk4_limit : forall h c k, 0 < h -> 0 < c -> 0 < k -> 4 * k <= c ^ 2 ->
  let x := h * (c + sqrt (c ^ 2 - 4 * k)) / 2 in
  (rk4_shrinks h c k <-> x ^ 3 - 4 * x ^ 2 + 12 * x - 24 < 0).
Proof.
  intros h c k Hh Hc Hk Hd x.
  set (s := sqrt (c ^ 2 - 4 * k)) in *.
  assert (Hs : s * s = c ^ 2 - 4 * k) by (apply sqrt_sqrt; lra).
  assert (Hs0 : 0 <= s) by apply sqrt_pos.
  assert (Hsc : s < c) by nra.
  rewrite (rk4_shrinks_roots h c k (RtoC (- (c + s) / 2)) (RtoC (- (c - s) / 2))).
  2: { rewrite <- RtoC_plus. f_equal. field. }
  2: { rewrite <- RtoC_mult. f_equal. nra. }
  rewrite <- !RtoC_mult.
  replace (h * (- (c + s) / 2)) with (- x) by (unfold x; field).
  replace (h * (- (c - s) / 2)) with (- (h * (c - s) / 2)) by field.
  assert (Hy : 0 < h * (c - s) / 2) by nra.
  set (y := h * (c - s) / 2) in *.
  assert (Hyx : y <= x) by (unfold y, x; nra).
  clearbody x y.
  rewrite !rk4_real by lra. split; [tauto|]. intros H. split; auto.
  assert (E : (x ^ 3 - 4 * x ^ 2 + 12 * x - 24) - (y ^ 3 - 4 * y ^ 2 + 12 * y - 24)
    = (x - y) * ((x + y / 2 - 2) ^ 2 + 3 / 4 * (y - 4 / 3) ^ 2 + 20 / 3)) by field.
  pose proof (pow2_ge_0 (x + y / 2 - 2)). pose proof (pow2_ge_0 (y - 4 / 3)).
  assert (0 <= (x - y) * ((x + y / 2 - 2) ^ 2 + 3 / 4 * (y - 4 / 3) ^ 2 + 20 / 3)).
  { apply Rmult_le_pos; lra. }
  lra.
Qed.

(** ** Spring-damper systems *)
Lemma sd_run o x : let c := match s_c o with Some c => c | None => 2 * sqrt (s_k o) end in
  let t0 := p_t (s_base o) in
  c <> 0 -> 0 < s_dt o -> 0 < s_int_dt o -> forall j,
  run_seq (spring_damper_step (aget (p_goal_y (s_base o))) (s_k o) (s_c o) None None (s_int_dt o))
    t0 (s_dt o) x j
  = run_seq (run_step_function Euler
      (sd_dmp (t0 - 1) (s_k o) c (s_int_dt o) (aget (p_goal_y (s_base o))))) t0 (s_dt o) x j.
Proof.
  intros c t0 Hc Hdt Hi. induction j as [|j IH]; [reflexivity|]. cbn [run_seq]. rewrite IH.
  destruct (run_seq (run_step_function Euler _) _ _ _ j) as [s|]; [|reflexivity].
  cbn [bind run_step_function].
  pose proof (pos_INR j).
  apply (C46_dmp_without_forcing_term _ _ (s_c o)); auto.
  - rewrite S_INR. nra.
  - rewrite S_INR. nra.
Qed.

Lemma sd_damping t0 k c i g d : damping (sd_dmp t0 k c i g) d = c.
Proof. unfold damping. cbn. field. lra. Qed.
Lemma sd_stiffness t0 k c i g d : c <> 0 -> stiffness (sd_dmp t0 k c i g) d = k.
Proof. intros Hc. unfold stiffness. cbn -[pow]. field. split; first [lra | exact Hc]. Qed.

(** From every state, for all positive [k] and [c] (the default is critical
    damping): repeated steps end at rest at the goal if
    h^2 k + 2 h c < 4, where h is the length of the parts of a step; if the start
    is at rest away from the goal, only then. *)
Theorem C100_spring_damper : forall o n y yd d,
  let c := match s_c o with Some c => c | None => 2 * sqrt (s_k o) end in
  let h := Rmin (s_dt o) (s_int_dt o) in
  sd_shapes o n -> alen y = n -> alen yd = n ->
  0 < s_k o -> 0 < c -> 0 < s_dt o -> 0 < s_int_dt o -> equal_parts (s_dt o) (s_int_dt o) ->
  (h ^ 2 * s_k o + 2 * (h * c) < 4 ->
   forall eps, 0 < eps -> exists N, forall j, (N <= j)%nat ->
   exists o' y' yd', sd_n_steps None j y yd o = (o', Ok (y', yd'))
   /\ Rabs (aget y' d - aget (p_goal_y (s_base o)) d) < eps /\ Rabs (aget yd' d) < eps)
  /\
  (aget y d <> aget (p_goal_y (s_base o)) d -> aget yd d = 0 ->
   (forall eps, 0 < eps -> exists j o' y' yd', sd_n_steps None j y yd o = (o', Ok (y', yd'))
    /\ Rabs (aget y' d - aget (p_goal_y (s_base o)) d) < eps /\ Rabs (aget yd' d) < eps) ->
   h ^ 2 * s_k o + 2 * (h * c) < 4).
Proof.
  intros o n y yd d c h Hsh Hy Hyd Hk Hc Hdt Hi He.
  assert (Hh : 0 < h) by (unfold h; now apply Rmin_pos).
  assert (Hc0 : c <> 0) by lra.
  pose proof (sd_run o (aget y, aget yd) Hc0 Hdt Hi) as Hrun. fold c in Hrun.
  set (t0 := p_t (s_base o)) in *. set (g := aget (p_goal_y (s_base o))) in *.
  set (a := sd_dmp (t0 - 1) (s_k o) c (s_int_dt o) g) in *.
  assert (Hd : damping a d = c) by apply sd_damping.
  assert (Hs : stiffness a d = s_k o) by now apply sd_stiffness.
  assert (Hfree : free a) by (repeat split).
  assert (Ht : a_start_t a < a_goal_t a) by (cbn; lra).
  assert (Hle : a_start_t a <= t0) by (cbn; lra).
  assert (Hph : phase_ok (a_forcing_term a)) by (unfold phase_ok; cbn; repeat split; try lra; lia).
  split.
  - intros Hlim eps Heps.
    destruct (run_reaches Euler a t0 (s_dt o) (aget y, aget yd) d) as (s & _ & Hr & H1 & H2); auto.
    { split; [exact He|]. rewrite Hd, Hs. apply euler_shrinks_iff; auto. }
    destruct (H1 eps Heps) as [N1 HN1]. destruct (H2 eps Heps) as [N2 HN2].
    exists (Nat.max N1 N2). intros j Hj.
    destruct (sd_n_steps_seq None j o n y yd) as (o' & s' & Hr' & Hn & _); auto.
    eexists _, _, _. split; [exact Hn|]. cbn [aget].
    fold t0 g in Hr'. rewrite Hrun, Hr in Hr'. injection Hr' as <-.
    split; [apply HN1|apply HN2]; lia.
  - intros Hne Hv Hsmall.
    destruct (run_necessary Euler a t0 (s_dt o) (aget y, aget yd) d) as (s & _ & Hr & Hnec); auto.
    { rewrite Hs. lra. }
    destruct Hnec as [_ Hsh'].
    + intros eps Heps. destruct (Hsmall eps Heps) as (j & o1 & y1 & yd1 & E & A1 & A2).
      destruct (sd_n_steps_seq None j o n y yd) as (o' & s' & Hr' & Hn & _); auto.
      rewrite E in Hn. injection Hn as -> -> ->. cbn [aget] in A1, A2.
      fold t0 g in Hr'. rewrite Hrun, Hr in Hr'. injection Hr' as <-. exists j. auto.
    + rewrite Hd, Hs in Hsh'. apply euler_shrinks_iff in Hsh'; auto.
Qed.

(** ** Examples *)
(** Gains that are not critically damped: alpha = 25, beta = 4 (rates -20 and -5);
    and alpha = 500, beta = 1, with which the Euler integrators reach the goal with
    int_dt = 1/1000, and the Runge-Kutta integrators with dt = 1/100 do not. *)
Example C100_satisfiable : forall alpha beta, 0 < alpha -> 0 < beta ->
  exists o, reachable 1 o /\ 0 < o_execution_time o /\ o_dt o = 1/100 /\ o_int_dt o = 1/1000
  /\ dmp_damping o 0 = alpha /\ dmp_stiffness o 0 = alpha * beta
  /\ 0 < aget (o_alpha_y o) 0%nat /\ 0 < aget (o_beta_y o) 0%nat
  /\ equal_parts (o_dt o) (o_int_dt o) /\ o_smooth_scaling o = false
  /\ (forall i, ft_weights (o_forcing_term o) 0 i = 0)
  /\ aget (p_start_y (o_base o)) 0%nat <> aget (p_goal_y (o_base o)) 0%nat
  /\ aget (p_start_yd (o_base o)) 0%nat = 0.
Proof.
  intros alpha beta Ha Hb.
  destruct (ex_new_ok 1 alpha beta) as (f & o0 & E & Ef & Eo).
  assert (Hr : reachable 1 o0) by (eapply ex_reachable; eauto).
  destruct (reachable_shapes 1 o0 Hr) as [Hsh Hn].
  set (g := CConfigure {| c_t := Some (3/100); c_start_y := None; c_start_yd := None;
                   c_start_ydd := None; c_goal_y := Some (one 7); c_goal_yd := None; c_goal_ydd := None |}).
  exists (fst (exec g o0)).
  split; [now apply reachable_exec|].
  assert (E1 : fst (exec g o0) = with_base (set_goal_y (one 7) (set_t (3/100) (o_base o0))) o0).
  { unfold g. cbn [exec]. unfold dmp_configure, configure. cbn -[Nat.eqb].
    unfold check_1d_array_length. rewrite Hn. reflexivity. }
  rewrite E1, Eo. unfold dmp_damping, dmp_stiffness, equal_parts. cbn -[pow INR].
  assert (Hf : forall i, ft_weights f 0 i = 0).
  { intros i. unfold forcing_term_init in Ef.
    repeat (destruct (Rle_dec _ _); try discriminate). cbn in Ef. injection Ef as <-. reflexivity. }
  repeat split; auto; try lra; try field.
  right. exists 10%nat. simpl. lra.
Qed.

Example C100_overdamped : rk4_shrinks (1/100) 25 (25 * 4) /\ euler_shrinks (1/1000) 25 (25 * 4).
Proof.
  split.
  - apply C100_rk4_limit; try lra.
    replace (25 ^ 2 - 4 * (25 * 4)) with (15 * 15) by ring. rewrite sqrt_square by lra. lra.
  - apply C100_euler_limit; lra.
Qed.

Example C100_too_stiff : ~ rk4_shrinks (1/100) 500 (500 * 1) /\ euler_shrinks (1/1000) 500 (500 * 1).
Proof.
  split.
  - intros H. apply C100_rk4_limit in H; try lra. cbv zeta in H.
    set (s := sqrt (500 ^ 2 - 4 * (500 * 1))) in *.
    assert (Hs : 100 < s).
    { unfold s. replace 100 with (sqrt (100 * 100)) by (apply sqrt_square; lra).
      apply sqrt_lt_1; lra. }
    clearbody s. set (x := 1 / 100 * (500 + s) / 2) in *. assert (3 < x) by (unfold x; lra).
    clearbody x.
    replace (x ^ 3 - 4 * x ^ 2 + 12 * x - 24) with ((x - 3) * ((x - 1 / 2) ^ 2 + 35 / 4) + 3) in H by field.
    pose proof (pow2_ge_0 (x - 1 / 2)).
    assert (0 <= (x - 3) * ((x - 1 / 2) ^ 2 + 35 / 4)) by (apply Rmult_le_pos; lra). lra.
  - apply C100_euler_limit; lra.
Qed.

(** The gains a DMP has by default (alpha = 25, beta = 25/4) with execution time
    tau: the Runge-Kutta integrators need dt / tau < 0.2228..., the Euler
    integrators, for steps not longer than int_dt, h / tau < 0.0663... *)
Theorem C100_default_gains : forall tau h, 0 < tau -> 0 < h ->
  (h <= 2785 / 12500 * tau -> rk4_shrinks h (25 / tau) (25 * (25/4) / tau ^ 2))
  /\ (2786 / 12500 * tau <= h -> ~ rk4_shrinks h (25 / tau) (25 * (25/4) / tau ^ 2))
  /\ (h <= 828 / 12500 * tau -> euler_shrinks h (25 / tau) (25 * (25/4) / tau ^ 2))
  /\ (829 / 12500 * tau <= h -> ~ euler_shrinks h (25 / tau) (25 * (25/4) / tau ^ 2)).
Proof.
  intros tau h Ht Hh. set (c := 25 / tau).
  assert (Ek : 25 * (25/4) / tau ^ 2 = c ^ 2 / 4) by (unfold c; field; lra).
  rewrite Ek.
  assert (Hc : 0 < c) by (unfold c; apply Rdiv_lt_0_compat; lra).
  assert (Hk : 0 < c ^ 2 / 4) by (apply Rdiv_lt_0_compat; [now apply pow_lt|lra]).
  set (x := h * c / 2).
  assert (Ex : x = h / tau * (25 / 2)) by (unfold x, c; field; lra).
  assert (Hr : h = (h / tau) * tau) by (field; lra).
  assert (Hx0 : 0 < x) by (unfold x; apply Rdiv_lt_0_compat; [now apply Rmult_lt_0_compat|lra]).
  assert (Erk : rk4_shrinks h c (c ^ 2 / 4) <-> x ^ 3 - 4 * x ^ 2 + 12 * x - 24 < 0).
  { rewrite C100_rk4_limit by (auto; lra).
    replace (c ^ 2 - 4 * (c ^ 2 / 4)) with 0 by field. rewrite sqrt_0, Rplus_0_r. reflexivity. }
  assert (Eeu : euler_shrinks h c (c ^ 2 / 4) <-> x ^ 2 + 4 * x < 4).
  { rewrite C100_euler_limit by auto. unfold x.
    replace ((h * c / 2) ^ 2 + 4 * (h * c / 2)) with (h ^ 2 * (c ^ 2 / 4) + 2 * (h * c)) by field.
    reflexivity. }
  rewrite Erk, Eeu. clear Erk Eeu.
  assert (Hlo : forall u, h <= u * tau -> x <= u * (25/2)) 
    by (intros u Hu; rewrite Ex; rewrite Hr in Hu; apply Rmult_le_reg_r in Hu; lra).
  assert (Hhi : forall u, u * tau <= h -> u * (25/2) <= x)
    by (intros u Hu; rewrite Ex; rewrite Hr in Hu; apply Rmult_le_reg_r in Hu; lra).
  clearbody x. clear Ex Hr Ek Hk Hc. clear c.
  assert (Hq : forall b, x ^ 3 - 4 * x ^ 2 + 12 * x - 24 - (b ^ 3 - 4 * b ^ 2 + 12 * b - 24)
    = (x - b) * ((x + b / 2 - 2) ^ 2 + 3 / 4 * (b - 4 / 3) ^ 2 + 20 / 3)) by (intros; field).
  assert (Hp : forall b, 0 < (x + b / 2 - 2) ^ 2 + 3 / 4 * (b - 4 / 3) ^ 2 + 20 / 3).
  { intros b. pose proof (pow2_ge_0 (x + b / 2 - 2)). pose proof (pow2_ge_0 (b - 4 / 3)). lra. }
  repeat split; intros H.
  - apply Hlo in H. specialize (Hq (2785/1000)). specialize (Hp (2785/1000)).
    assert (0 <= (2785/1000 - x) * ((x + 2785/1000 / 2 - 2) ^ 2 + 3 / 4 * (2785/1000 - 4 / 3) ^ 2 + 20 / 3))
      by (apply Rmult_le_pos; lra). lra.
  - apply Hhi in H. specialize (Hq (2786/1000)). specialize (Hp (2786/1000)).
    assert (0 <= (x - 2786/1000) * ((x + 2786/1000 / 2 - 2) ^ 2 + 3 / 4 * (2786/1000 - 4 / 3) ^ 2 + 20 / 3))
      by (apply Rmult_le_pos; lra). lra.
  - apply Hlo in H. assert (0 <= (828/1000 - x) * (x + 828/1000)) by (apply Rmult_le_pos; lra). lra.
  - apply Hhi in H. assert (0 <= (x - 829/1000) * (x + 829/1000)) by (apply Rmult_le_pos; lra). lra.
Qed.
