(** C123: the movements of a state-following DMP approximate the solution of its differential
    equation.  Final statements. *)
From Coq Require Import Reals ZArith List Arith Bool Lia Lra Psatz FunctionalExtensionality.
From Coquelicot Require Import Coquelicot.
From Verif Require Import M_Prelude M_Canonical M_Forcing M_Dmp M_Base M_SpringDamper M_StateFollowing M_StateObject
  S_Loops P_Loops P_Canonical P_Forcing P_DmpStep P_DmpScale P_DmpLinear P_DmpAffine P_Runs
  P_Converge S_Stability P_Stability P_Bounded P_Coupled P_Ode P_OdeSolution Properties_Ode Properties_Stability
  Properties_StateFollowing Properties_StateRest Properties_StateFrames.
Import ListNotations.
Open Scope R_scope.
Set Bullet Behavior "Strict Subproofs".

(** ** Specification *)
(** The equation of dimension [d] from the time [t0] of the clock on; [t] is the time that has
    passed since.  The movement is pulled to the weighted mean of the via-points ([attractor],
    the weights are those that the forcing term returns, see C31), and the time constant is half
    the execution time. *)
Definition state_equation (o : sf_dmp) (d : nat) (t0 T : R) (y v : R -> R) : Prop :=
  let tau := f_execution_time o / 2 in
  forall t, 0 <= t <= T ->
    is_derive y t (v t)
    /\ is_derive v t (aget (f_alpha_y o) d * (aget (f_beta_y o) d * (attractor (f_forcing o) (t0 + t) d - y t)
                                              - tau * v t) / tau ^ 2).

(** Objects with the same equation; [dt], [int_dt] and everything that belongs to the other
    dimensions may differ. *)
Definition same_state_equation (nv d : nat) (o o' : sf_dmp) : Prop :=
  f_execution_time o' = f_execution_time o
  /\ aget (f_alpha_y o') d = aget (f_alpha_y o) d /\ aget (f_beta_y o') d = aget (f_beta_y o) d
  /\ forall i, (i < nv)%nat -> sf_viapoints (f_forcing o') i d = sf_viapoints (f_forcing o) i d.

(** ** Proofs *)
Lemma timed_error p q g u t0 T y v : 0 <= T -> lipb 0 (2 * T) (fun t => u (t0 + t)) ->
  (forall t, 0 <= t <= T -> is_derive y t (v t) /\ is_derive v t (rhs p q g (fun t => u (t0 + t)) t (y t) (v t))) ->
  exists C, 0 <= C /\
  forall (body : R -> R -> vec * vec -> vec * vec) (s : nat -> vec * vec) dt int d,
  (forall t h (Y V : vec), 0 < h ->
     let V' := V d + h * rhs p q g u t (Y d) (V d) in
     snd (body t h (Y, V)) d = V' /\ fst (body t h (Y, V)) d = Y d + h * V') ->
  0 < dt -> 0 < int -> fst (s 0%nat) d = y 0 -> snd (s 0%nat) d = v 0 ->
  (forall k, exists l, tiles (t0 + INR k * dt) (t0 + INR (S k) * dt) int l /\ s (S k) = exec_substeps body l (s k)) ->
  forall k, INR k * dt <= T ->
  Rabs (fst (s k) d - y (INR k * dt)) + Rabs (snd (s k) d - v (INR k * dt)) <= C * Rmin dt int.
Proof.
  intros HT HU HE. set (w := fun t => u (t0 + t)) in *.
  assert (HY : forall t, 0 <= t <= T -> is_derive y t (v t)) by (intros; apply HE; auto).
  assert (HV : forall t, 0 <= t <= T -> is_derive v t (rhs p q g w t (y t) (v t))) by (intros; apply HE; auto).
  destruct (euler_consistent p q g T w y v HT HU HY HV) as (M1 & HM1 & CE).
  destruct (one_step p q g T w y v HT HU HY HV M1 HM1) as (K1 & C1 & HK1 & HC1 & OE).
  exists (C1 * T * exp (K1 * T)). pose proof (exp_pos (K1 * T)) as PE.
  split; [apply Rmult_le_pos; [apply Rmult_le_pos; auto|lra]|].
  intros body s dt int d Hbody Hdt Hint E0 E0' Hstep.
  set (H := Rmin dt int). assert (PH : 0 < H) by (unfold H; apply Rmin_glb_lt; auto).
  set (I := fun t (s : vec * vec) => P_Ode.err y v (t - t0) (fst s d) (snd s d) <= C1 * H * (t - t0) * exp (K1 * (t - t0))).
  assert (Runs : forall j, INR j * dt <= T -> I (t0 + INR j * dt) (s j)).
  { induction j as [|j IH]; intros HjT.
    - unfold I. cbn [INR]. replace (t0 + 0 * dt - t0) with 0 by ring.
      unfold P_Ode.err. rewrite E0, E0', !Rminus_eq_0, Rabs_R0. lra.
    - assert (Ed : (t0 + INR (S j) * dt) - (t0 + INR j * dt) = dt) by (rewrite S_INR; ring).
      assert (HjT' : INR j * dt <= T) by lra. specialize (IH HjT').
      assert (Pj : 0 <= INR j * dt) by (apply Rmult_le_pos; [apply pos_INR|lra]).
      destruct (Hstep j) as (l & Hl & ->).
      set (a := t0 + INR j * dt) in *. set (b := t0 + INR (S j) * dt) in *.
      destruct (tiles_min _ _ _ _ Hl) as [Hl' | ->]; [|cbn in Hl; lra].
      rewrite Ed in Hl'. fold H in Hl'.
      apply (exec_substeps_inv I body l a b H); auto.
      intros t h [Y V] Ht Hh Htb HI. unfold I in *. cbn [fst snd] in HI.
      replace (t + h - t0) with ((t - t0) + h) by ring.
      assert (HbT : b - t0 <= T) by (unfold b; lra). assert (Ha : 0 <= a - t0) by (unfold a; lra).
      apply (gronwall_invariant K1 C1 H (t - t0) h (P_Ode.err y v (t - t0) (Y d) (V d))); auto; try lra.
      { apply err_nonneg. }
      apply OE; auto; try lra.
      pose proof (CE (t - t0) h (Y d) (V d) ltac:(lra) (proj1 Hh) ltac:(lra)) as X. cbv zeta in X.
      destruct (Hbody (t + h) h Y V (proj1 Hh)) as [-> ->].
      unfold rhs, w in *. replace (t0 + (t - t0 + h)) with (t + h) in X by ring. exact X. }
  intros j HjT. specialize (Runs j HjT). unfold I in Runs. replace (t0 + INR j * dt - t0) with (INR j * dt) in Runs by ring.
  set (t := INR j * dt) in *. assert (Pt : 0 <= t) by (apply Rmult_le_pos; [apply pos_INR|lra]).
  change (Rabs (fst (s j) d - y t) + Rabs (snd (s j) d - v t)) with (P_Ode.err y v t (fst (s j) d) (snd (s j) d)).
  eapply Rle_trans; [exact Runs|].
  assert (HX : exp (K1 * t) <= exp (K1 * T)).
  { destruct (Rle_lt_or_eq_dec (K1 * t) (K1 * T)) as [L| ->]; [apply Rmult_le_compat_l; auto| |lra].
    apply Rlt_le, exp_increasing; auto. }
  replace (C1 * T * exp (K1 * T) * H) with (C1 * H * (T * exp (K1 * T))) by ring.
  rewrite (Rmult_assoc (C1 * H)). apply Rmult_le_compat_l; [apply Rmult_le_pos; lra|].
  pose proof (exp_pos (K1 * t)). apply Rmult_le_compat; lra.
Qed.

(** The forcing term of a DMP with the basis functions of the state-following one. *)
Definition as_forcing_term (f : sf_forcing) : forcing_term :=
  {| ft_n := sf_n f; ft_goal_t := sf_goal_t f; ft_start_t := sf_start_t f; ft_overlap := sf_overlap f;
     ft_alpha_z := sf_alpha_z f; ft_centers := sf_centers f; ft_widths := sf_widths f;
     ft_weights := fun d i => sf_viapoints f i d |}.

Lemma lipb_attractor a b f d : (0 < sf_n f)%nat -> lipb a b (fun t => attractor f t d).
Proof.
  intros Hn.
  apply (lipb_ext a b (fun t => / ft_phase (as_forcing_term f) t * ft_forces (as_forcing_term f) (ft_phase (as_forcing_term f) t) d)).
  { intros t. unfold ft_forces, attractor, sf_call, as_forcing_term, ft_phase. cbn [ft_n ft_weights ft_centers ft_widths ft_alpha_z ft_goal_t ft_start_t].
    rewrite <- Rmult_assoc, Rinv_l, Rmult_1_l; [reflexivity|]. apply Rgt_not_eq. apply exp_pos. }
  apply lipb_mult; [|now apply lipb_forces].
  apply lipb_inv; [apply lipb_phase|].
  apply exp_below.
  apply (lipb_ext _ _ (fun t => (- sf_alpha_z f / (sf_goal_t f - sf_start_t f)) * (t - sf_start_t f)));
    [intros; cbn; unfold Rdiv; ring|].
  apply lipb_scal, lipb_minus; [apply lipb_id|apply lipb_const].
Qed.

Lemma lipb_shift a b c f : lipb (c + a) (c + b) f -> lipb a b (fun t => f (c + t)).
Proof.
  intros (L & HL & B & Lp). exists L. split; auto. split.
  - intros t Ht. apply B. lra.
  - intros s t Hs Ht. replace (s - t) with ((c + s) - (c + t)) by ring. apply Lp; lra.
Qed.

(** The input of the equation, and the equation in the form of [rhs]. *)
Definition pull (o : sf_dmp) (d : nat) (t : R) : R := sf_stiffness o d * attractor (f_forcing o) t d.

Lemma state_equation_rhs o d t0 T y v : 0 < f_execution_time o ->
  (state_equation o d t0 T y v <->
   forall t, 0 <= t <= T -> is_derive y t (v t)
     /\ is_derive v t (rhs (sf_stiffness o d) (sf_damping o d) 0 (fun t => pull o d (t0 + t)) t (y t) (v t))).
Proof.
  intros Hx. unfold state_equation. cbv zeta.
  assert (E : forall t, aget (f_alpha_y o) d * (aget (f_beta_y o) d * (attractor (f_forcing o) (t0 + t) d - y t)
      - f_execution_time o / 2 * v t) / (f_execution_time o / 2) ^ 2
    = rhs (sf_stiffness o d) (sf_damping o d) 0 (fun t => pull o d (t0 + t)) t (y t) (v t)).
  { intros t. unfold rhs, pull, sf_stiffness, sf_damping. field. lra. }
  split; intros H t Ht; destruct (H t Ht); rewrite ?E in *; auto.
Qed.

Lemma same_pull n n' nv o o' d t : sf_reachable n nv o -> sf_reachable n' nv o' -> same_state_equation nv d o o' ->
  sf_stiffness o' d = sf_stiffness o d /\ sf_damping o' d = sf_damping o d /\ pull o' d t = pull o d t.
Proof.
  intros Hr Hr' (S1 & S2 & S3 & S4). pose proof (sf_reachable_ok _ _ _ Hr) as K. pose proof (sf_reachable_ok _ _ _ Hr') as K'.
  pose proof K as (_ & _ & _ & _ & _ & _ & _ & _ & En & _). pose proof K' as (_ & _ & _ & _ & _ & _ & _ & _ & En' & _).
  assert (E1 : sf_stiffness o' d = sf_stiffness o d) by (unfold sf_stiffness; congruence).
  split; auto. split; [unfold sf_damping; congruence|]. unfold pull, attractor. rewrite E1, En, En'. f_equal.
  apply rsum_ext. intros i Hi. rewrite S4 by auto. f_equal.
  pose proof (sf_call_same n n' nv 1 o o' t i ltac:(lra) K K' ltac:(lra) Hi) as X. now rewrite Rmult_1_l in X.
Qed.

Lemma sf_run_error n nv o d t0 T y v : sf_reachable n nv o -> 0 <= T -> 0 <= t0 -> state_equation o d t0 T y v ->
  exists C, 0 <= C /\
  forall n' o' (x : vec * vec) k s, sf_reachable n' nv o' -> same_state_equation nv d o o' -> 0 < f_dt o' -> 0 < f_int_dt o' ->
  fst x d = y 0 -> snd x d = v 0 -> INR k * f_dt o' <= T ->
  run_seq (sf_step_fn (sf_object_args None o')) t0 (f_dt o') x k = Ok s ->
  Rabs (fst s d - y (INR k * f_dt o')) + Rabs (snd s d - v (INR k * f_dt o')) <= C * Rmin (f_dt o') (f_int_dt o').
Proof.
  intros Hr HT Ht0 HE. pose proof (sf_reachable_ok _ _ _ Hr) as K.
  pose proof K as (_ & _ & _ & _ & _ & _ & Hx & Hn & En & _).
  pose proof (proj1 (state_equation_rhs o d t0 T y v Hx) HE) as HE'. clear HE. rename HE' into HE.
  destruct (timed_error (sf_stiffness o d) (sf_damping o d) 0 (pull o d) t0 T y v HT) as (C & PC & HC); auto.
  { apply lipb_shift. apply lipb_scal. apply lipb_attractor. lia. }
  exists C. split; auto. intros n' o' x k s Hr' HS Hdt Hi E0 E0' Hk Er.
  pose proof (sf_reachable_ok _ _ _ Hr') as (_ & _ & _ & _ & _ & _ & Hx' & _ & En' & _).
  set (a := sf_object_args None o') in *.
  set (z := fun j => match run_seq (sf_step_fn a) t0 (f_dt o') x j with Ok s => s | Err _ => x end).
  assert (Z : forall j, run_seq (sf_step_fn a) t0 (f_dt o') x j = Ok (z j)
     /\ exists l, tiles (t0 + INR j * f_dt o') (t0 + INR (S j) * f_dt o') (f_int_dt o') l
        /\ z (S j) = exec_substeps (sf_body a) l (z j)).
  { assert (G : forall j sj, run_seq (sf_step_fn a) t0 (f_dt o') x j = Ok sj ->
       exists l, tiles (t0 + INR j * f_dt o') (t0 + INR (S j) * f_dt o') (f_int_dt o') l
        /\ run_seq (sf_step_fn a) t0 (f_dt o') x (S j) = Ok (exec_substeps (sf_body a) l sj)).
    { intros j sj Ej. cbn [run_seq]. rewrite Ej. cbn [bind]. unfold sf_step_fn.
      change (sa_goal_t a) with (f_execution_time o'). change (sa_start_t a) with 0. change (sa_int_dt a) with (f_int_dt o').
      destruct (Rle_dec (f_execution_time o') 0); [lra|].
      assert (Pj : 0 <= INR j * f_dt o') by (apply Rmult_le_pos; [apply pos_INR|lra]).
      assert (Es : INR (S j) * f_dt o' = INR j * f_dt o' + f_dt o') by (rewrite S_INR; ring).
      destruct (Rle_dec (t0 + INR (S j) * f_dt o') 0); [lra|].
      destruct (substeps_tiles (t0 + INR j * f_dt o') (t0 + INR (S j) * f_dt o') (f_int_dt o') Hi ltac:(lra)) as (l & Hl & EL).
      exists l. split; auto. }
    assert (O : forall j, run_seq (sf_step_fn a) t0 (f_dt o') x j = Ok (z j)).
    { induction j as [|j IH]; [reflexivity|]. destruct (G j _ IH) as (l & _ & E). unfold z. now rewrite E. }
    intros j. split; [apply O|]. destruct (G j _ (O j)) as (l & Hl & E). exists l. split; auto. rewrite O in E. congruence. }
  assert (s = z k) as ->. { destruct (Z k) as [E _]. congruence. }
  apply (HC (sf_body a) z (f_dt o') (f_int_dt o') d); auto.
  - intros t h Y V Hh. destruct (C31_spring_damper_towards_attractor a t h Y V d) as (Q1 & Q2 & _);
      [cbn; lia|exact Hx'|reflexivity|reflexivity|]. cbv zeta in Q1, Q2 |- *.
    destruct (same_pull n n' nv o o' d t Hr Hr' HS) as (P1 & P2 & P3).
    rewrite <- P1, <- P2. unfold rhs. rewrite <- P3. unfold pull, sf_stiffness, sf_damping.
    split; (etransitivity; [first [exact Q1|exact Q2]|]);
      change (sa_goal_t a) with (f_execution_time o'); change (sa_start_t a) with 0;
      change (sa_alpha_y a) with (aget (f_alpha_y o')); change (sa_beta_y a) with (aget (f_beta_y o'));
      change (sa_forcing a) with (f_forcing o'); field; lra.
  - intros j. apply Z.
Qed.

(** ** C123 *)
(** The equation has a solution from every state, at every time of the clock. *)
Theorem C123_solution : forall n nv o d t0 y0 v0, sf_reachable n nv o ->
  exists y v, y 0 = y0 /\ v 0 = v0 /\ forall T, state_equation o d t0 T y v.
Proof.
  intros n nv o d t0 y0 v0 Hr. pose proof (sf_reachable_ok _ _ _ Hr) as (_ & _ & _ & _ & _ & _ & Hx & Hn & En & _).
  destruct (solution_exists (sf_stiffness o d) (sf_damping o d) 0 (fun t => pull o d (t0 + t)) y0 v0) as (y & v & H0 & H1 & H2).
  { intros t. apply lipb_continuous. intros x z. apply lipb_shift. apply lipb_scal. apply lipb_attractor. lia. }
  exists y, v. split; auto. split; auto. intros T. apply state_equation_rhs; auto.
Qed.

(** Repeated [step] calls, from every history and from every state: positions and velocities. *)
Theorem C123_steps : forall n nv o d t0 T y v, sf_reachable n nv o -> 0 <= T -> 0 <= t0 -> state_equation o d t0 T y v ->
  exists C, 0 <= C /\
  forall n' o' z zd k, sf_reachable n' nv o' -> same_state_equation nv d o o' -> p_t (f_base o') = t0 ->
  0 < f_dt o' -> 0 < f_int_dt o' -> alen z = n' -> alen zd = n' -> aget z d = y 0 -> aget zd d = v 0 ->
  let t := INR k * f_dt o' in t <= T ->
  exists o1 z' zd', sf_n_steps k z zd o' = (o1, Ok (z', zd'))
    /\ Rabs (aget z' d - y t) + Rabs (aget zd' d - v t) <= C * Rmin (f_dt o') (f_int_dt o').
Proof.
  intros n nv o d t0 T y v Hr HT Ht0 HE.
  destruct (sf_run_error n nv o d t0 T y v Hr HT Ht0 HE) as (C & PC & HC). exists C. split; auto.
  intros n' o' z zd k Hr' HS Et Hdt Hi Lz Lzd E0 E0' t Hk.
  pose proof (sf_reachable_ok _ _ _ Hr') as K'. pose proof K' as (_ & _ & _ & _ & _ & _ & Hx' & _).
  destruct (sf_n_steps_seq n' k o' z zd) as (o1 & s & R1 & E1 & _); auto.
  { now apply (sf_ok_shapes n' nv). } { repeat split; auto. }
  exists o1, {| alen := n'; aget := fst s |}, {| alen := n'; aget := snd s |}. split; [exact E1|]. cbn [aget].
  apply (HC n' o' (aget z, aget zd) k s); auto. now rewrite <- Et.
Qed.

(** [open_loop]: the positions are those of the only solution from the start at rest. *)
Theorem C123_open_loop : forall n nv o d T, sf_reachable n nv o -> 0 <= T ->
  exists y v, y 0 = aget (p_start_y (f_base o)) d /\ v 0 = 0 /\ state_equation o d 0 T y v
  /\ (forall y' v', y' 0 = aget (p_start_y (f_base o)) d -> v' 0 = 0 -> state_equation o d 0 T y' v' ->
        forall t, 0 <= t <= T -> y' t = y t)
  /\ exists C, 0 <= C /\
     forall n' o' run_t ts ys, sf_reachable n' nv o' -> same_state_equation nv d o o' ->
     aget (p_start_y (f_base o')) d = aget (p_start_y (f_base o)) d -> 0 < f_dt o' -> 0 < f_int_dt o' ->
     sf_open_loop run_t None o' = Ok (ts, ys) ->
     length ys = length ts /\
     forall k, (k < length ts)%nat -> nth k ts 0 <= T ->
       Rabs (nth k ys vzero d - y (nth k ts 0)) <= C * Rmin (f_dt o') (f_int_dt o').
Proof.
  intros n nv o d T Hr HT.
  assert (Main : forall y v T, 0 <= T -> y 0 = aget (p_start_y (f_base o)) d -> v 0 = 0 -> state_equation o d 0 T y v ->
     exists C, 0 <= C /\
     forall n' o' run_t ts ys, sf_reachable n' nv o' -> same_state_equation nv d o o' ->
     aget (p_start_y (f_base o')) d = aget (p_start_y (f_base o)) d -> 0 < f_dt o' -> 0 < f_int_dt o' ->
     sf_open_loop run_t None o' = Ok (ts, ys) ->
     length ys = length ts /\
     forall k, (k < length ts)%nat -> nth k ts 0 <= T ->
       Rabs (nth k ys vzero d - y (nth k ts 0)) <= C * Rmin (f_dt o') (f_int_dt o')).
  { clear T HT. intros y v T HT Y0 V0 HE. destruct (sf_run_error n nv o d 0 T y v Hr HT ltac:(lra) HE) as (C & PC & HC).
    exists C. split; auto. intros n' o' run_t ts ys Hr' HS Es Hdt Hi EO.
    pose proof (sf_reachable_ok _ _ _ Hr') as (_ & _ & _ & _ & _ & _ & Hx' & _).
    destruct (C31_open_loop o' None run_t Hx' Hdt Hi) as (ts' & ys' & EO' & HL & Hk & _).
    rewrite EO in EO'. injection EO' as <- <-. split; auto. intros k Hkl HkT.
    destruct (Hk k Hkl) as (Et & _ & s & Ey & Er).
    rewrite (nth_error_nth _ _ _ Et) in *. rewrite (nth_error_nth _ _ _ Ey).
    pose proof (HC n' o' (aget (p_start_y (f_base o')), vzero) k s Hr' HS Hdt Hi ltac:(cbn [fst]; congruence) (eq_sym V0) HkT Er) as B.
    pose proof (Rabs_pos (snd s d - v (INR k * f_dt o'))). lra. }
  destruct (C123_solution n nv o d 0 (aget (p_start_y (f_base o)) d) 0 Hr) as (y & v & Y0 & V0 & HE).
  exists y, v. split; auto. split; auto. split; auto. split; [|now apply (Main y v)].
  intros y' v' Y0' V0' HE' t Ht. destruct (Rle_lt_or_eq_dec 0 t (proj1 Ht)) as [Pt| <-]; [|congruence].
  destruct (Main y v T HT Y0 V0 (HE T)) as (C & PC & HC). destruct (Main y' v' T HT Y0' V0' HE') as (C' & PC' & HC').
  assert (HB : forall N, (0 < N)%nat -> Rabs (y' t - y t) <= (C + C') * t / INR N).
  { intros N HN. assert (PN : 0 < INR N) by (apply lt_0_INR; auto).
    set (dt := t / INR N). assert (Hdt : 0 < dt) by (apply Rmult_lt_0_compat; auto; apply Rinv_0_lt_compat; auto).
    assert (EN : INR N * dt = t) by (unfold dt; field; lra).
    set (o' := sf_set_int_dt dt (sf_set_dt dt o)).
    assert (Hr' : sf_reachable n nv o') by (apply sr_int_dt, sr_dt; auto).
    assert (HS : same_state_equation nv d o o') by (repeat split; auto).
    pose proof (sf_reachable_ok _ _ _ Hr') as (_ & _ & _ & _ & _ & _ & Hx' & _).
    destruct (C31_open_loop o' None (Some t) Hx' Hdt Hdt) as (ts & ys & EO & HL & Hk & Hend).
    change (f_dt o') with dt in *. cbv zeta in Hend.
    assert (HNl : (N < length ts)%nat).
    { rewrite <- EN in Hend. apply Rmult_le_reg_r in Hend; auto. apply INR_le in Hend. lia. }
    destruct (HC n o' (Some t) ts ys Hr' HS eq_refl Hdt Hdt EO) as [_ B1].
    destruct (HC' n o' (Some t) ts ys Hr' HS eq_refl Hdt Hdt EO) as [_ B2].
    specialize (B1 N HNl). specialize (B2 N HNl).
    rewrite (nth_error_nth _ _ _ (proj1 (Hk N HNl))), EN in B1, B2.
    change (f_dt o') with dt in *. change (f_int_dt o') with dt in *. rewrite Rmin_left in B1, B2 by lra.
    specialize (B1 ltac:(lra)). specialize (B2 ltac:(lra)).
    replace ((C + C') * t / INR N) with (C * dt + C' * dt) by (unfold dt; field; lra).
    replace (y' t - y t) with ((nth N ys vzero d - y t) + - (nth N ys vzero d - y' t)) by ring.
    eapply Rle_trans; [apply Rabs_triang|]. rewrite Rabs_Ropp. lra. }
  apply Rminus_diag_uniq. destruct (Req_dec (y' t - y t) 0) as [E|E]; auto. exfalso.
  pose proof (Rabs_pos_lt _ E) as PE. set (e := Rabs (y' t - y t)) in *.
  destruct (archimed_cor1 (e / ((C + C') * t + 1))) as (N & HN & PN).
  { apply Rdiv_lt_0_compat; auto. assert (0 <= (C + C') * t) by (apply Rmult_le_pos; lra). lra. }
  specialize (HB N PN). assert (P : 0 <= (C + C') * t) by (apply Rmult_le_pos; lra).
  assert (PI : 0 < / INR N) by (apply Rinv_0_lt_compat, lt_0_INR; auto).
  assert (X : ((C + C') * t + 1) * / INR N < e).
  { apply Rmult_lt_reg_r with (/ ((C + C') * t + 1)); [apply Rinv_0_lt_compat; lra|].
    replace (((C + C') * t + 1) * / INR N * / ((C + C') * t + 1)) with (/ INR N); [exact HN|].
    assert (0 < INR N) by (apply lt_0_INR; auto). field. split; lra. }
  unfold Rdiv in HB. lra.
Qed.

(** Eight via-points on a line and runs with any time steps. *)
Example C123_satisfiable : forall h hi T, 0 < h -> 0 < hi -> 0 < T ->
  exists o o' ts ys, sf_reachable 1 8 o /\ sf_viapoints (f_forcing o) 3%nat 0%nat = 3
  /\ sf_reachable 1 8 o' /\ same_state_equation 8 0 o o' /\ p_t (f_base o') = 0
  /\ aget (p_start_y (f_base o')) 0%nat = aget (p_start_y (f_base o)) 0%nat
  /\ f_dt o' = h /\ f_int_dt o' = hi /\ sf_open_loop (Some T) None o' = Ok (ts, ys) /\ T <= nth (length ts - 1) ts 0.
Proof.
  intros h hi T Hh Hhi HT.
  assert (Ea : exists z, canonical_system_alpha (1 / 100) 1 0 = Ok z).
  { unfold canonical_system_alpha. repeat (destruct (Rle_dec _ _); [lra|]). eauto. }
  destruct Ea as [z Ea].
  destruct (proj2 (proj1 (C31_constructor_errors vzero vzero 8 1 0 (1/10) z))) as [f E]; [repeat split; [lia|lra|lra]|].
  assert (E' : exists o, sf_new (vzero, vzero) 1 1 (1/100) 8 (1/1000) {| shape := []; data := fun _ => 25 |}
      {| shape := []; data := fun _ => 25/4 |} = Ok o /\ p_t (f_base o) = 0).
  { eexists. split; [unfold sf_new; rewrite Ea; cbn [bind fst snd ensure_1d_array shape data Nat.eqb]; rewrite E; reflexivity|]. reflexivity. }
  destruct E' as (o1 & E' & Et).
  set (o := sf_set_viapoints (fun i _ => INR i) o1).
  assert (Hr : sf_reachable 1 8 o) by (apply sr_viapoints; eapply sr_new; exact E').
  set (o' := sf_set_int_dt hi (sf_set_dt h o)).
  assert (Hr' : sf_reachable 1 8 o') by (apply sr_int_dt, sr_dt; auto).
  pose proof (sf_reachable_ok _ _ _ Hr') as (_ & _ & _ & _ & _ & _ & Hx' & _).
  destruct (C31_open_loop o' None (Some T) Hx' Hh Hhi) as (ts & ys & EO & HL & Hk & Hend).
  exists o, o', ts, ys. split; auto. split; [cbn; lra|]. split; auto. split; [repeat split; auto|]. split; [exact Et|].
  split; auto. split; auto. split; auto. split; [exact EO|].
  assert (Hl : (length ts - 1 < length ts)%nat).
  { destruct (length ts); [|lia]. cbn in Hend. lra. }
  rewrite (nth_error_nth _ _ _ (proj1 (Hk _ Hl))). exact Hend.
Qed.
