(** C31.  Final statements. *)
From Coq Require Import Reals ZArith List Arith Lia Lra Psatz FunctionalExtensionality.
From Coquelicot Require Import Coquelicot.
From Verif Require Import M_Prelude M_Canonical M_Forcing M_Dmp M_Base M_SpringDamper
  M_StateFollowing S_Loops P_Loops P_Canonical P_Forcing P_DmpStep P_DmpScale P_DmpLinear
  P_Converge P_Runs Properties_SpringDamper.
Import ListNotations.
Open Scope R_scope.
Set Bullet Behavior "Strict Subproofs".

(** ** Construction *)
Theorem C31_constructor_errors : forall jc jw n goal_t start_t overlap alpha_z,
  ((exists f, sf_forcing_init jc jw n goal_t start_t overlap alpha_z = Ok f)
   <-> (1 <= n)%nat /\ start_t < goal_t /\ 0 < overlap)
  /\ ((exists e, sf_forcing_init jc jw n goal_t start_t overlap alpha_z = Err e) ->
      sf_forcing_init jc jw n goal_t start_t overlap alpha_z = Err ValueError).
Proof.
  intros. unfold sf_forcing_init. destruct (Nat.leb_spec n 0).
  - split; [|reflexivity]. split; [intros [? [=]]|lia].
  - destruct (Rle_dec goal_t start_t).
    + split; [|reflexivity]. split; [intros [? [=]]|lra].
    + destruct (Rle_dec overlap 0).
      * split; [|reflexivity]. split; [intros [? [=]]|lra].
      * destruct (sf_init_rbfs _ _ _ _ _ _ _) as [c w]. split.
        -- split; [intros; repeat split; [lia|lra|lra]|eauto].
        -- intros [e [=]].
Qed.

Lemma sf_init_spec jc jw n goal_t start_t overlap alpha_z f :
  sf_forcing_init jc jw n goal_t start_t overlap alpha_z = Ok f ->
  sf_n f = n /\ sf_goal_t f = goal_t /\ sf_start_t f = start_t /\ sf_alpha_z f = alpha_z
  /\ (forall j, (j < n)%nat -> sf_centers f j
       = phase (center_time start_t ((goal_t - start_t) / INR n) j) alpha_z goal_t start_t)
  /\ (forall j, (j < n - 1)%nat ->
       sf_widths f j = - ln overlap / (sf_centers f (S j) - sf_centers f j) ^ 2)
  /\ ((2 <= n)%nat -> sf_widths f (n - 1)%nat = sf_widths f (n - 2)%nat)
  /\ (n = 1%nat -> sf_widths f 0%nat = jw 0%nat).
Proof.
  intros E. unfold sf_forcing_init in E. destruct (Nat.leb_spec n 0); [discriminate|].
  destruct (Rle_dec goal_t start_t); [discriminate|].
  destruct (Rle_dec overlap 0); [discriminate|].
  unfold sf_init_rbfs in E.
  pose proof (init_loop_inv jc jw alpha_z goal_t start_t (- ln overlap)
                ((goal_t - start_t) / INR n) (n - 1)) as H1.
  destruct (fold_left _ _ _) as [c w]. destruct H1 as (Hc & Hw & Hj).
  assert (f = {| sf_n := n; sf_goal_t := goal_t; sf_start_t := start_t; sf_overlap := overlap;
          sf_alpha_z := alpha_z; sf_viapoints := fun _ _ => 0;
          sf_centers := c; sf_widths := upd w (n - 1)%nat (w (n - 2)%nat) |}) as -> by congruence.
  cbn [sf_n sf_goal_t sf_start_t sf_alpha_z sf_centers sf_widths]. clear E.
  repeat split.
  - intros j Hjn. apply Hc. lia.
  - intros j Hjn. rewrite upd_other by lia. now apply Hw.
  - intros H2. rewrite upd_same, upd_other by lia. reflexivity.
  - intros ->. simpl. unfold upd. simpl. now rewrite Hj by lia.
Qed.

(** From two via-points on, centers and widths are well defined: nothing is left
    of what [np.empty] returned, centers decrease strictly from 1, widths are
    positive and neighbouring basis functions overlap as requested. *)
Theorem C31_basis_partial : forall jc jw n goal_t overlap alpha_z f,
  sf_forcing_init jc jw n goal_t 0 overlap alpha_z = Ok f ->
  (2 <= n)%nat -> 0 < overlap < 1 -> 0 < alpha_z ->
  (forall jc' jw' f', sf_forcing_init jc' jw' n goal_t 0 overlap alpha_z = Ok f' ->
     forall i, (i < n)%nat -> sf_centers f i = sf_centers f' i /\ sf_widths f i = sf_widths f' i)
  /\ sf_centers f 0%nat = 1
  /\ (forall i j, (i < j < n)%nat -> sf_centers f j < sf_centers f i)
  /\ (forall i, (i < n)%nat -> 0 < sf_widths f i)
  /\ (forall i, (i < n - 1)%nat ->
        exp (- sf_widths f i * (sf_centers f (i + 1)%nat - sf_centers f i) ^ 2) = overlap).
Proof.
  intros jc jw n goal_t overlap alpha_z f E Hn Ho Ha.
  assert (Hg : 0 < goal_t) by (apply (C31_constructor_errors jc jw n goal_t 0 overlap alpha_z); eauto).
  destruct (sf_init_spec _ _ _ _ _ _ _ _ E) as (_ & _ & _ & _ & Hc & Hw & Hl & _).
  assert (HC : forall i, (i < n)%nat -> sf_centers f i = exp (- alpha_z * (INR i / INR n))).
  { intros i Hi. rewrite Hc by auto. unfold phase, center_time. f_equal.
    assert (0 < INR n) by (apply lt_0_INR; lia).
    destruct (Nat.eqb_spec i 0) as [->|]; simpl; field; lra. }
  assert (Hn0 : 0 < INR n) by (apply lt_0_INR; lia).
  assert (Hdec : forall i j, (i < j < n)%nat -> sf_centers f j < sf_centers f i).
  { intros i j Hij. rewrite !HC by lia. apply exp_increasing.
    assert (INR i < INR j) by (apply lt_INR; lia).
    assert (INR i / INR n < INR j / INR n)
      by (apply Rmult_lt_compat_r; [apply Rinv_0_lt_compat; lra|lra]). nra. }
  assert (Hlo : 0 < - ln overlap).
  { assert (ln overlap < ln 1) by (apply ln_increasing; lra). rewrite ln_1 in *. lra. }
  assert (Hwp : forall i, (i < n - 1)%nat -> 0 < sf_widths f i).
  { intros i Hi. rewrite Hw by auto. apply Rmult_lt_0_compat; auto. apply Rinv_0_lt_compat.
    assert (sf_centers f (S i) < sf_centers f i) by (apply Hdec; lia). nra. }
  split.
  { intros jc' jw' f' E' i Hi.
    destruct (sf_init_spec _ _ _ _ _ _ _ _ E') as (_ & _ & _ & _ & Hc' & Hw' & Hl' & _).
    assert (Hcc : forall i, (i < n)%nat -> sf_centers f i = sf_centers f' i)
      by (intros; rewrite Hc, Hc'; auto).
    split; auto.
    assert (HW : forall i, (i < n - 1)%nat -> sf_widths f i = sf_widths f' i)
      by (intros; rewrite Hw, Hw', !Hcc by lia; auto).
    destruct (Nat.eq_dec i (n - 1)) as [->|]; [|apply HW; lia].
    rewrite Hl, Hl' by auto. apply HW. lia. }
  split. { rewrite HC by lia. simpl. unfold Rdiv. rewrite Rmult_0_l, Rmult_0_r. apply exp_0. }
  split; [exact Hdec|]. split.
  - intros i Hi. destruct (Nat.eq_dec i (n - 1)) as [->|]; [rewrite Hl by auto|]; apply Hwp; lia.
  - intros i Hi. rewrite Hw by auto. replace (i + 1)%nat with (S i) by lia.
    replace (_ * _) with (ln overlap); [apply exp_ln; lra|].
    assert (sf_centers f (S i) < sf_centers f i) by (apply Hdec; lia). field. lra.
Qed.

(** "The constructor initialises every width" fails for a single via-point. *)
Theorem C31_width_uninitialised_refuted : forall junk, exists f,
  sf_forcing_init vzero (fun _ => junk) 1 1 0 (1 / 10) 1 = Ok f /\ sf_widths f 0%nat = junk.
Proof.
  intros junk.
  destruct (proj2 (proj1 (C31_constructor_errors vzero (fun _ => junk) 1 1 0 (1/10) 1)))
    as [f E]; [repeat split; [lia|lra|lra]|].
  exists f. split; auto.
  destruct (sf_init_spec _ _ _ _ _ _ _ _ E) as (_ & _ & _ & _ & _ & _ & _ & H). now apply H.
Qed.

(** ** Activations *)
Theorem C31_activations : forall f t, (1 <= sf_n f)%nat ->
  (forall i, (i < sf_n f)%nat -> 0 < sf_call f t i <= 1) /\ rsum (sf_n f) (sf_call f t) = 1.
Proof.
  intros f t Hn. unfold sf_call.
  set (a := activations _ _ _ _).
  assert (Hp : forall i, 0 < a i) by (intros; apply activations_pos; lia).
  assert (Hs : rsum (sf_n f) a = 1) by (apply activations_sum; lia).
  split; auto. intros i Hi. split; auto. rewrite <- Hs.
  clear Hs Hn. clearbody a. induction (sf_n f) as [|n IH]; [lia|]. simpl.
  assert (0 <= rsum n a).
  { apply rsum_nonneg. intros j _. left. apply Hp. }
  destruct (Nat.eq_dec i n) as [->|]; [lra|]. specialize (IH ltac:(lia)). specialize (Hp n). lra.
Qed.

(** ** The acceleration *)
(** The attractor: the convex combination of the via-points. *)
Definition attractor (f : sf_forcing) (t : R) (d : nat) : R :=
  rsum (sf_n f) (fun i => sf_viapoints f i d * sf_call f t i).

(** One integration step of length [h] to time [t] moves the velocity by [h]
    times the acceleration of the spring-damper with target [attractor t] (and
    the position by [h] times the new velocity); the target lies between the
    smallest and the largest via-point in every dimension. *)
Theorem C31_spring_damper_towards_attractor : forall a t h y v d,
  (1 <= sf_n (sa_forcing a))%nat -> sa_start_t a < sa_goal_t a ->
  sa_coupling a = None -> sa_precomputed a = None ->
  let tau := (sa_goal_t a - sa_start_t a) / 2 in
  let g := attractor (sa_forcing a) t d in
  let acc := sa_alpha_y a d * (sa_beta_y a d * (g - y d) - tau * v d) / tau ^ 2 in
  snd (sf_body a t h (y, v)) d = v d + h * acc
  /\ fst (sf_body a t h (y, v)) d = y d + h * (v d + h * acc)
  /\ forall lo hi, (forall i, (i < sf_n (sa_forcing a))%nat -> lo <= sf_viapoints (sa_forcing a) i d <= hi)
     -> lo <= g <= hi.
Proof.
  intros a t h y v d Hn Ht Hc Hp tau g acc.
  destruct (C31_activations (sa_forcing a) t Hn) as [Hpos Hsum].
  assert (Hv : snd (sf_body a t h (y, v)) d = v d + h * acc).
  { unfold sf_body. rewrite Hc, Hp. cbn [snd]. unfold vzero.
    rewrite (rsum_ext _ _ (fun i => (sa_alpha_y a d / (/ 2 * (sa_goal_t a - sa_start_t a)) ^ 2)
       * (sa_beta_y a d * (sf_viapoints (sa_forcing a) i d * sf_call (sa_forcing a) t i)
          + (- (sa_beta_y a d * y d + / 2 * (sa_goal_t a - sa_start_t a) * v d))
            * sf_call (sa_forcing a) t i))).
    - rewrite rsum_scal, rsum_plus, !rsum_scal, Hsum.
      unfold acc, tau, g, attractor. field. lra.
    - intros i Hi. field. lra. }
  split; [exact Hv|]. split.
  - rewrite <- Hv. unfold sf_body. rewrite Hc, Hp. reflexivity.
  - intros lo hi Hb. unfold g, attractor.
    apply convex_bounds; auto. intros i Hi. left. now apply Hpos.
Qed.

(** ** All via-points equal *)
Lemma sf_body_common a p t h s : (1 <= sf_n (sa_forcing a))%nat -> sa_start_t a < sa_goal_t a ->
  sa_coupling a = None -> sa_precomputed a = None ->
  (forall i d, (i < sf_n (sa_forcing a))%nat -> sf_viapoints (sa_forcing a) i d = p d) ->
  let tau := (sa_goal_t a - sa_start_t a) / 2 in
  sf_body a t h s
  = (let v := fun d => snd s d + h * (sa_alpha_y a d * (sa_beta_y a d * (p d - fst s d)
                 - tau * snd s d) / tau ^ 2) in
     (fun d => fst s d + h * v d, v)).
Proof.
  intros Hn Ht Hc Hp Hv tau. destruct s as [y v].
  destruct (C31_activations (sa_forcing a) t Hn) as [_ Hsum].
  assert (Hat : forall d, attractor (sa_forcing a) t d = p d).
  { intros d. unfold attractor.
    rewrite (rsum_ext _ _ (fun i => p d * sf_call (sa_forcing a) t i)).
    - rewrite rsum_scal, Hsum. ring.
    - intros i Hi. rewrite Hv by auto. ring. }
  rewrite (surjective_pairing (sf_body a t h (y, v))). cbv zeta. cbn [fst snd].
  f_equal; apply functional_extensionality; intro d;
    destruct (C31_spring_damper_towards_attractor a t h y v d Hn Ht Hc Hp) as (A & B & _);
    cbv zeta in A, B; rewrite Hat in A, B; [exact B|exact A].
Qed.

(** A DMP with half the execution time and no forcing term. *)
Definition sf_as_dmp (a : sf_args) (p : vec) : dmp_args :=
  {| a_goal_y := p; a_goal_yd := vzero; a_goal_ydd := vzero;
     a_start_y := vzero; a_start_yd := vzero; a_start_ydd := vzero;
     a_goal_t := (sa_goal_t a - sa_start_t a) / 2; a_start_t := 0;
     a_alpha_y := sa_alpha_y a; a_beta_y := sa_beta_y a;
     a_forcing_term := no_force; a_coupling_term := None; a_precomputed := None;
     a_int_dt := sa_int_dt a; a_p_gain := 0; a_tracking_error := None; a_smooth_scaling := false |}.

Lemma sf_body_euler a p t h s : (1 <= sf_n (sa_forcing a))%nat -> sa_start_t a < sa_goal_t a ->
  sa_coupling a = None -> sa_precomputed a = None ->
  (forall i d, (i < sf_n (sa_forcing a))%nat -> sf_viapoints (sa_forcing a) i d = p d) ->
  0 < h -> sf_body a t h s = euler_body (sf_as_dmp a p) t h s.
Proof.
  intros Hn Ht Hc Hp Hv Hh. rewrite (sf_body_common a p) by auto. destruct s as [y v]. cbv zeta.
  unfold euler_body, dmp_acc, precomputed_cdd.
  cbn [sf_as_dmp a_goal_y a_goal_t a_start_t a_alpha_y a_beta_y a_forcing_term a_coupling_term
    a_precomputed a_p_gain a_tracking_error a_smooth_scaling a_start_y tracking_error_or_zero fst snd].
  assert (Ef : ft_forces no_force (ft_phase no_force t) = vzero).
  { apply functional_extensionality; intro d. unfold ft_forces, no_force, vzero. simpl. ring. }
  rewrite Ef. unfold vadd, vscale, vzero. set (tau := (sa_goal_t a - sa_start_t a) / 2).
  assert (Htau : 0 < tau) by (unfold tau; lra). clearbody tau.
  assert (Ev : forall d, v d + h * (sa_alpha_y a d * (sa_beta_y a d * (p d - y d) - tau * v d) / tau ^ 2)
    = v d + h * ((sa_alpha_y a d * (sa_beta_y a d * (p d - y d) - (tau - 0) * v d - 0) + 0 + 0 + 0 * 0 / h)
                 / (tau - 0) ^ 2)).
  { intros d. replace (tau - 0) with tau by ring. field. lra. }
  f_equal; apply functional_extensionality; intro d.
  - f_equal. f_equal. apply Ev.
  - apply Ev.
Qed.

(** The common via-point is an equilibrium. *)
Theorem C31_equilibrium : forall a p last_t t r,
  (1 <= sf_n (sa_forcing a))%nat -> sa_start_t a < sa_goal_t a ->
  sa_coupling a = None -> sa_precomputed a = None -> 0 < sa_int_dt a -> last_t <= t ->
  (forall i d, (i < sf_n (sa_forcing a))%nat -> sf_viapoints (sa_forcing a) i d = p d) ->
  sf_step_fn a last_t t (p, vzero) = r -> r = Ok (p, vzero).
Proof.
  intros a p lt t r Hn Ht Hc Hp Hi Hle Hv <-. unfold sf_step_fn.
  destruct (Rle_dec (sa_goal_t a) (sa_start_t a)); [lra|].
  destruct (Rle_dec t (sa_start_t a)); [reflexivity|].
  destruct (substeps_tiles lt t (sa_int_dt a) Hi Hle) as [l [_ Hs]]. rewrite Hs. f_equal.
  clear Hs. induction l as [|[c h] l IH]; [reflexivity|].
  unfold exec_substeps in *. cbn [fold_left fst snd].
  match goal with |- fold_left _ l ?x = _ => replace x with (p, vzero); [exact IH|] end.
  rewrite (sf_body_common a p) by auto. cbv zeta. cbn [fst snd].
  f_equal; apply functional_extensionality; intro d; unfold vzero; field; lra.
Qed.

(** ** The loop of open_loop *)
Lemma sf_loop_spec a dt run_t : forall fuel t s ts l, sf_loop fuel a dt run_t t s = Ok (ts, l) ->
  length l = length ts
  /\ (forall k, (k < length ts)%nat -> nth_error ts k = Some (t + INR (S k) * dt)
       /\ t + INR k * dt < run_t
       /\ exists s', nth_error l k = Some s' /\ run_seq (sf_step_fn a) t dt s (S k) = Ok s')
  /\ run_t <= t + INR (length ts) * dt.
Proof.
  induction fuel as [|fuel IH]; intros t s ts l E; cbn [sf_loop] in E.
  - destruct (Rlt_dec t run_t); [discriminate|].
    assert (ts = []) as -> by congruence. assert (l = []) as -> by congruence.
    simpl. repeat split; try lia. lra.
  - destruct (Rlt_dec t run_t) as [Hlt|Hlt].
    2:{ assert (ts = []) as -> by congruence. assert (l = []) as -> by congruence.
        simpl. repeat split; try lia. lra. }
    destruct (sf_step_fn a t (t + dt) s) as [s1|] eqn:E1; [|discriminate]. cbn [bind] in E.
    destruct (sf_loop fuel a dt run_t (t + dt) s1) as [[ts1 l1]|] eqn:E2; [|discriminate].
    cbn [bind fst snd] in E.
    assert (ts = (t + dt) :: ts1) as -> by congruence. assert (l = s1 :: l1) as -> by congruence.
    destruct (IH _ _ _ _ E2) as (H1 & H2 & H3).
    assert (E1' : sf_step_fn a (t + INR 0 * dt) (t + INR 1 * dt) s = Ok s1).
    { replace (t + INR 0 * dt) with t by (simpl; ring).
      replace (t + INR 1 * dt) with (t + dt) by (simpl; ring). exact E1. }
    split; [simpl; congruence|]. split.
    + intros [|k] Hk.
      * simpl nth_error. split; [f_equal; simpl; ring|]. split; [simpl; lra|].
        exists s1. split; [reflexivity|exact E1'].
      * simpl in Hk. destruct (H2 k ltac:(lia)) as (A & B & s' & C & D).
        simpl nth_error. split; [rewrite A, (S_INR (S k)); f_equal; ring|].
        split; [rewrite S_INR; lra|]. exists s'. split; auto. rewrite run_seq_shift, E1'. exact D.
    + cbn [length]. rewrite S_INR. lra.
Qed.

Lemma sf_loop_total a dt run_t : 0 < dt ->
  (forall lt t s, lt < t -> exists s', sf_step_fn a lt t s = Ok s') ->
  forall fuel t s, (run_t - t) / dt <= INR fuel -> exists ts l, sf_loop fuel a dt run_t t s = Ok (ts, l).
Proof.
  intros Hdt Htot. induction fuel as [|fuel IH]; intros t s Hf; cbn [sf_loop].
  - destruct (Rlt_dec t run_t) as [H|]; [|eauto]. exfalso. simpl in Hf.
    assert (0 < (run_t - t) / dt) by (apply Rdiv_lt_0_compat; lra). lra.
  - destruct (Rlt_dec t run_t) as [H|]; [|eauto].
    destruct (Htot t (t + dt) s ltac:(lra)) as [s' ->]. cbn [bind].
    destruct (IH (t + dt) s') as (ts & l & ->).
    + rewrite S_INR in Hf. replace ((run_t - (t + dt)) / dt) with ((run_t - t) / dt - 1) by (field; lra).
      lra.
    + cbn [bind]. eauto.
Qed.

Lemma sf_step_fn_total a lt t s : sa_start_t a < sa_goal_t a -> 0 < sa_int_dt a -> lt <= t ->
  exists s', sf_step_fn a lt t s = Ok s'.
Proof.
  intros H Hi Hl. unfold sf_step_fn. destruct (Rle_dec _ _); [lra|].
  destruct (Rle_dec t _); [eauto|].
  destruct (substeps_tiles lt t (sa_int_dt a) Hi Hl) as [l [_ Hs]]. rewrite Hs. eauto.
Qed.

(** [open_loop] terminates; its times are the multiples of [dt] up to the first
    one that is not below the run time, its first state is the start state, and
    state [k] is the result of [k] steps. *)
Theorem C31_open_loop : forall o ct run_t,
  0 < f_execution_time o -> 0 < f_dt o -> 0 < f_int_dt o ->
  let rt := match run_t with Some x => x | None => f_execution_time o end in
  exists ts ys, sf_open_loop run_t ct o = Ok (ts, ys)
  /\ length ys = length ts
  /\ (forall k, (k < length ts)%nat -> nth_error ts k = Some (INR k * f_dt o)
        /\ ((k + 1 < length ts)%nat -> INR k * f_dt o < rt)
        /\ exists s, nth_error ys k = Some (fst s)
           /\ run_seq (sf_step_fn (sf_object_args ct o)) 0 (f_dt o)
                (aget (p_start_y (f_base o)), vzero) k = Ok s)
  /\ rt <= INR (length ts - 1) * f_dt o.
Proof.
  intros o ct run_t Hx Hdt Hi rt. set (a := sf_object_args ct o).
  set (s0 := (aget (p_start_y (f_base o)), vzero)).
  destruct (sf_loop_total a (f_dt o) rt Hdt) with (fuel := Z.to_nat (up ((rt - 0) / f_dt o)))
    (t := 0) (s := s0) as (ts & l & E).
  - intros lt t s H. apply sf_step_fn_total; simpl; lra.
  - destruct (archimed ((rt - 0) / f_dt o)) as [HA _].
    destruct (Z.le_gt_cases 0 (up ((rt - 0) / f_dt o))).
    + rewrite INR_IZR_INZ, Z2Nat.id by auto. lra.
    + assert (up ((rt - 0) / f_dt o) <= 0)%Z by lia. apply IZR_le in H0.
      pose proof (pos_INR (Z.to_nat (up ((rt - 0) / f_dt o)))). lra.
  - destruct (sf_loop_spec a (f_dt o) rt _ _ _ _ _ E) as (H1 & H2 & H3).
    exists (0 :: ts), (map fst (s0 :: l)). split.
    + unfold sf_open_loop, sf_open_loop_fn. fold a.
      change (sa_goal_t a) with (f_execution_time o). change (sa_start_t a) with 0. fold rt s0.
      rewrite E. reflexivity.
    + split; [rewrite map_length; simpl; congruence|]. split.
      * intros [|k] Hk.
        -- simpl. split; [f_equal; ring|]. split.
           ++ intros Hk1. destruct (H2 0%nat) as (_ & B & _); [lia|]. simpl in B. lra.
           ++ exists s0. auto.
        -- simpl in Hk. destruct (H2 k ltac:(lia)) as (A & B & s' & C & D).
           cbn [nth_error map]. split; [rewrite A; f_equal; ring|]. split.
           ++ simpl length. intros Hk1. destruct (H2 (S k)) as (_ & B' & _); [lia|]. lra.
           ++ exists s'. split; [|exact D]. now rewrite nth_error_map, C.
      * simpl length. rewrite Nat.sub_succ, Nat.sub_0_r. lra.
Qed.

(** ** Convergence to a common via-point *)
Theorem C31_converges : forall o p d,
  (1 <= sf_n (f_forcing o))%nat -> 0 < f_execution_time o -> 0 < f_dt o -> 0 < f_int_dt o ->
  (forall i d, (i < sf_n (f_forcing o))%nat -> sf_viapoints (f_forcing o) i d = p d) ->
  aget (f_alpha_y o) d = 4 * aget (f_beta_y o) d -> 0 < aget (f_alpha_y o) d ->
  aget (f_alpha_y o) d * f_int_dt o <= f_execution_time o / 2 ->
  forall eps, 0 < eps -> exists N, forall run_t ts ys k y,
    sf_open_loop run_t None o = Ok (ts, ys) -> (N <= k)%nat -> nth_error ys k = Some y ->
    Rabs (y d - p d) < eps.
Proof.
  intros o p d Hn Hx Hdt Hi Hv Hcd Hal Hst eps He.
  set (a := sf_object_args None o). set (dt := f_dt o) in *.
  set (x0 := (aget (p_start_y (f_base o)), vzero) : vec * vec).
  assert (Htot : forall lt t s, lt <= t -> 0 < t -> exists l, tiles lt t (f_int_dt o) l
     /\ sf_step_fn a lt t s = Ok (exec_substeps (euler_body (sf_as_dmp a p)) l s)).
  { intros lt t s Hl Ht. destruct (substeps_tiles lt t (f_int_dt o) Hi Hl) as [l [Htl Hs]].
    exists l. split; auto. unfold sf_step_fn. change (sa_goal_t a) with (f_execution_time o).
    change (sa_start_t a) with 0. change (sa_int_dt a) with (f_int_dt o).
    destruct (Rle_dec _ _); [lra|]. destruct (Rle_dec t 0); [lra|]. rewrite Hs. f_equal.
    eapply exec_substeps_ext_pos; [exact Htl|]. intros c h s' Hh.
    apply sf_body_euler; auto. }
  set (s := fix s k := match k with
    | O => x0
    | S k' => match sf_step_fn a (0 + INR k' * dt) (0 + INR (S k') * dt) (s k') with
              | Ok y => y | Err _ => s k' end end).
  assert (Hgrid : forall k, 0 + INR k * dt <= 0 + INR (S k) * dt /\ 0 < 0 + INR (S k) * dt).
  { intros k. pose proof (pos_INR k). rewrite S_INR. split; nra. }
  assert (HsS : forall k, exists l, tiles (0 + INR k * dt) (0 + INR (S k) * dt) (f_int_dt o) l
        /\ s (S k) = exec_substeps (euler_body (sf_as_dmp a p)) l (s k)).
  { intros k. destruct (Hgrid k).
    destruct (Htot (0 + INR k * dt) (0 + INR (S k) * dt) (s k)) as [l [Hl E]]; auto.
    exists l. split; auto. cbn [s]. fold s. now rewrite E. }
  assert (Hrun : forall k, run_seq (sf_step_fn a) 0 dt x0 k = Ok (s k)).
  { induction k as [|k IH]; [reflexivity|]. cbn [run_seq]. rewrite IH. cbn [bind].
    destruct (Hgrid k).
    destruct (Htot (0 + INR k * dt) (0 + INR (S k) * dt) (s k)) as [l [Hl E]]; auto.
    cbn [s]. fold s. now rewrite E. }
  destruct (euler_converges (sf_as_dmp a p) 0 dt x0) with (d := d) (s := s) as [H1 _]; auto.
  - repeat split.
  - simpl. lra.
  - unfold phase_ok. simpl. repeat split; try lra; lia.
  - simpl. lra.
  - destruct (H1 eps He) as [N HN]. exists N. intros run_t ts ys k y E Hk Hy.
    destruct (C31_open_loop o None run_t Hx Hdt Hi) as (ts' & ys' & E' & Hl & Hk' & _).
    assert (ts' = ts) as -> by congruence. assert (ys' = ys) as -> by congruence.
    destruct (Hk' k) as (_ & _ & s' & Hs1 & Hs2).
    { rewrite <- Hl. apply nth_error_Some. congruence. }
    fold a dt x0 in Hs2. rewrite Hrun in Hs2.
    assert (s k = s') as Ess by congruence.
    assert (y = fst s') as -> by congruence. rewrite <- Ess. now apply HN.
Qed.

(** ** The configured goal has no effect *)
Theorem C31_goal_ignored : forall o p run_t ct y yd,
  let o' := sf_with_base (set_goal_y p (f_base o)) o in
  sf_open_loop run_t ct o' = sf_open_loop run_t ct o
  /\ snd (sf_step y yd ct o') = snd (sf_step y yd ct o).
Proof.
  intros o p run_t ct y yd o'. split; [reflexivity|].
  unfold sf_step, o'. cbn [sf_with_base f_base set_goal_y p_n_dims p_t f_dt].
  destruct (negb _); [reflexivity|]. destruct (negb _); [reflexivity|].
  cbn [set_t set_last_t p_current_y p_current_yd].
  destruct (assign_slice _ y); [|reflexivity]. destruct (assign_slice _ yd); [|reflexivity].
  change (sf_object_args ct _) with (sf_object_args ct o).
  destruct (sf_step_fn _ _ _ _) as [[? ?]|]; reflexivity.
Qed.

Example C31_satisfiable : forall jc jw, exists f,
  sf_forcing_init jc jw 10 1 0 (1/10) (ln 100) = Ok f /\ (2 <= sf_n f)%nat.
Proof.
  intros jc jw. destruct (proj2 (proj1 (C31_constructor_errors jc jw 10 1 0 (1/10) (ln 100))))
    as [f E]; [repeat split; [lia|lra|lra]|].
  exists f. split; auto. apply sf_init_spec in E. destruct E as (-> & _). lia.
Qed.

(** A constructor call with default gains whose result, with all via-points set to
    one point, meets the hypotheses of [C31_converges]. *)
Example C31_converges_satisfiable : exists o0 o,
  sf_new (vzero, vzero) 2 1 (1/100) 10 (1/1000) {| shape := []; data := fun _ => 25 |}
    {| shape := []; data := fun _ => 25/4 |} = Ok o0
  /\ o = {| f_base := f_base o0; f_execution_time := f_execution_time o0; f_dt := f_dt o0;
            f_int_dt := f_int_dt o0; f_alpha_y := f_alpha_y o0; f_beta_y := f_beta_y o0;
            f_forcing := set_viapoints (fun _ _ => 3) (f_forcing o0) |}
  /\ (1 <= sf_n (f_forcing o))%nat
  /\ 0 < f_execution_time o /\ 0 < f_dt o /\ 0 < f_int_dt o
  /\ (forall i d, sf_viapoints (f_forcing o) i d = 3)
  /\ aget (f_alpha_y o) 0%nat = 4 * aget (f_beta_y o) 0%nat /\ 0 < aget (f_alpha_y o) 0%nat
  /\ aget (f_alpha_y o) 0%nat * f_int_dt o <= f_execution_time o / 2.
Proof.
  assert (Ea : exists z, canonical_system_alpha (1 / 100) 1 0 = Ok z).
  { unfold canonical_system_alpha. repeat (destruct (Rle_dec _ _); [lra|]). eauto. }
  destruct Ea as [z Ea].
  destruct (proj2 (proj1 (C31_constructor_errors vzero vzero 10 1 0 (1/10) z)))
    as [f E]; [repeat split; [lia|lra|lra]|].
  eexists. eexists. split.
  - unfold sf_new. rewrite Ea. cbn [bind fst snd ensure_1d_array shape data Nat.eqb].
    rewrite E. reflexivity.
  - split; [reflexivity|].
    pose proof (sf_init_spec _ _ _ _ _ _ _ _ E) as (Hn & _).
    cbn [f_forcing set_viapoints sf_n f_execution_time f_dt f_int_dt f_alpha_y f_beta_y aget sf_viapoints].
    repeat split; try lia; try lra.
Qed.
