(** C112: where a state-following movement comes to rest.  Final statements. *)
From Coq Require Import Reals ZArith List Arith Lia Lra Psatz FunctionalExtensionality.
From Coquelicot Require Import Coquelicot.
From Verif Require Import M_Prelude M_Canonical M_Forcing M_Dmp M_Base M_SpringDamper M_StateFollowing M_StateObject
  S_Loops S_Stability P_Loops P_Canonical P_Forcing P_DmpStep P_DmpScale P_DmpLinear P_Converge P_Runs
  P_Stability P_Coupled Properties_SpringDamper Properties_StateFollowing Properties_Goal Properties_Stability.
Import ListNotations.
Open Scope R_scope.
Set Bullet Behavior "Strict Subproofs".

(** ** Specification *)
(** All objects a user can get: a constructor call followed by any calls and
    assignments, also calls that raise. *)
Inductive sf_reachable (n nv : nat) : sf_dmp -> Prop :=
| sr_new : forall junk x dt int_dt al be o,
    sf_new junk n x dt nv int_dt al be = Ok o -> sf_reachable n nv o
| sr_configure : forall c o, sf_reachable n nv o -> sf_reachable n nv (fst (sf_configure c o))
| sr_reset : forall o, sf_reachable n nv o -> sf_reachable n nv (sf_reset o)
| sr_step : forall y yd c o, sf_reachable n nv o -> sf_reachable n nv (fst (sf_step y yd c o))
| sr_dt : forall dt o, sf_reachable n nv o -> sf_reachable n nv (sf_set_dt dt o)
| sr_int_dt : forall int_dt o, sf_reachable n nv o -> sf_reachable n nv (sf_set_int_dt int_dt o)
| sr_viapoints : forall v o, sf_reachable n nv o -> sf_reachable n nv (sf_set_viapoints v o).

(** The share that each via-point but the last has in the place of rest, relative to
    the last one. *)
Definition share (nv : nat) : R :=
  let q := Rpower (1 / 100) (1 / INR nv) in Rpower (1 / 10) ((1 + q) / (1 - q)).

(** The place of rest: the mean of the via-points with these weights. *)
Definition place_of_rest (nv : nat) (v : nat -> R) : R :=
  (share nv * rsum (nv - 1) v + v (nv - 1)%nat) / (share nv * INR (nv - 1) + 1).

(** Damping and stiffness of dimension [d]: the time constant is half the duration. *)
Definition sf_damping (o : sf_dmp) (d : nat) : R := aget (f_alpha_y o) d / (f_execution_time o / 2).
Definition sf_stiffness (o : sf_dmp) (d : nat) : R :=
  aget (f_alpha_y o) d * aget (f_beta_y o) d / (f_execution_time o / 2) ^ 2.

(** The limit for the length of the integration steps. *)
Definition short_steps (o : sf_dmp) (d : nat) : Prop :=
  let h := Rmin (f_dt o) (f_int_dt o) in
  h ^ 2 * sf_stiffness o d + 2 * (h * sf_damping o d) < 4.

(** Repeated calls of [step], each with the state that the one before returned,
    come to rest at [p] in dimension [d]. *)
Definition rests_at (o : sf_dmp) (y yd : arr) (d : nat) (p : R) : Prop :=
  forall eps, 0 < eps -> exists N, forall k, (N <= k)%nat -> exists o' y' yd',
    sf_n_steps k y yd o = (o', Ok (y', yd')) /\ Rabs (aget y' d - p) < eps /\ Rabs (aget yd' d) < eps.

(** ** Proofs *)
(** *** Invariants of histories *)
Definition sf_ok (n nv : nat) (o : sf_dmp) : Prop :=
  let f := f_forcing o in
  let q := Rpower (1 / 100) (1 / INR nv) in
  p_n_dims (f_base o) = n /\ p_n_vel_dims (f_base o) = n
  /\ alen (p_start_y (f_base o)) = n /\ alen (p_start_yd (f_base o)) = n
  /\ alen (p_current_y (f_base o)) = n /\ alen (p_current_yd (f_base o)) = n
  /\ 0 < f_execution_time o /\ (1 <= nv)%nat /\ sf_n f = nv
  /\ sf_goal_t f = f_execution_time o /\ sf_start_t f = 0 /\ sf_alpha_z f = - ln (1 / 100)
  /\ (forall j, (j < nv)%nat -> sf_centers f j = q ^ j)
  /\ (forall j, (j < nv - 1)%nat -> sf_widths f j = - ln (1 / 10) / (sf_centers f (S j) - sf_centers f j) ^ 2)
  /\ ((2 <= nv)%nat -> sf_widths f (nv - 1)%nat = sf_widths f (nv - 2)%nat).

Lemma sf_new_ok junk n x dt nv int_dt al be o : sf_new junk n x dt nv int_dt al be = Ok o -> sf_ok n nv o.
Proof.
  unfold sf_new, canonical_system_alpha. destruct (Rle_dec (1/100) 0); [discriminate|].
  destruct (Rle_dec x 0) as [Hx|Hx]; cbn [bind]; [discriminate|].
  destruct (ensure_1d_array al n) as [a|] eqn:Ea; cbn [bind]; [|discriminate].
  destruct (ensure_1d_array be n) as [b|] eqn:Eb; cbn [bind]; [|discriminate].
  destruct (sf_forcing_init _ _ _ _ _ _ _) as [f|] eqn:Ef; cbn [bind]; [|discriminate].
  intros E. injection E as <-.
  pose proof (proj1 (proj1 (C31_constructor_errors _ _ _ _ _ _ _)) (ex_intro _ f Ef)) as (Hn & _ & _).
  destruct (sf_init_spec _ _ _ _ _ _ _ _ Ef) as (E1 & E2 & E3 & E4 & Hc & Hw & Hl & _).
  unfold sf_ok. cbn [f_base f_forcing f_execution_time ptp_init p_n_dims p_n_vel_dims p_start_y p_start_yd
    p_current_y p_current_yd zeros alen].
  repeat (split; [first [reflexivity | assumption | lra]|]).
  split.
  - intros j Hj. rewrite Hc by auto.
    assert (0 < INR nv) by (apply lt_0_INR; lia).
    rewrite <- Rpower_pow by apply exp_pos. rewrite Rpower_mult. unfold phase, center_time, Rpower.
    f_equal. destruct (Nat.eqb_spec j 0) as [->|]; simpl; field; lra.
  - split; [exact Hw|exact Hl].
Qed.

Lemma configure_lengths c p : p_n_dims p = p_n_vel_dims p ->
  alen (p_start_y p) = p_n_dims p -> alen (p_start_yd p) = p_n_dims p ->
  let p' := fst (configure c p) in
  p_n_dims p' = p_n_dims p /\ p_n_vel_dims p' = p_n_vel_dims p
  /\ alen (p_start_y p') = p_n_dims p /\ alen (p_start_yd p') = p_n_dims p
  /\ p_current_y p' = p_current_y p /\ p_current_yd p' = p_current_yd p.
Proof.
  intros H1 H2 H3. unfold configure, configure_block, check_1d_array_length, and_then.
  destruct c as [ct sy syd sydd gy gyd gydd].
  destruct ct, sy as [a1|], syd as [a2|], sydd as [a3|], gy as [a4|], gyd as [a5|], gydd as [a6|];
  cbn [c_t c_start_y c_start_yd c_start_ydd c_goal_y c_goal_yd c_goal_ydd];
  repeat match goal with
  | |- context [Nat.eqb ?a ?b] => destruct (Nat.eqb_spec a b); cbn [negb fst]
  end; cbn in *; repeat split; congruence.
Qed.

Lemma sf_reachable_ok n nv o : sf_reachable n nv o -> sf_ok n nv o.
Proof.
  induction 1 as [junk x dt int_dt al be o E|c o Hr IH|o Hr IH|y yd c o Hr IH|dt o Hr IH|i o Hr IH|v o Hr IH].
  - eapply sf_new_ok; eauto.
  - destruct IH as (H1 & H2 & H3 & H4 & H5 & H6 & H).
    destruct (configure_lengths c (f_base o)) as (C1 & C2 & C3 & C4 & C5 & C6); try congruence.
    unfold sf_configure. destruct (configure c (f_base o)) as [p e]. cbn [fst] in *.
    unfold sf_ok. cbn [sf_with_base f_base f_forcing f_execution_time].
    split; [congruence|]. split; [congruence|]. split; [congruence|]. split; [congruence|].
    split; [congruence|]. split; [congruence|]. exact H.
  - destruct IH as (H1 & H2 & H3 & H4 & H5 & H6 & H). unfold sf_ok, sf_reset. cbn. auto 10.
  - destruct IH as (H1 & H2 & H3 & H4 & H5 & H6 & H).
    unfold sf_step. destruct (Nat.eqb_spec (alen y) (p_n_dims (f_base o))) as [Ey|]; cbn [negb fst];
      [|now repeat split].
    destruct (Nat.eqb_spec (alen yd) (p_n_dims (f_base o))) as [Eyd|]; cbn [negb fst]; [|now repeat split].
    cbn [set_t set_last_t p_current_y p_current_yd]. unfold assign_slice.
    rewrite H5, H6, Ey, Eyd, H1, Nat.eqb_refl.
    destruct (sf_step_fn _ _ _ _) as [[y1 v1]|]; unfold sf_ok; cbn; rewrite ?Ey, ?Eyd, ?H1; repeat (split; [first [assumption|congruence]|]); exact H.
  - destruct IH as (H1 & H2 & H3 & H4 & H5 & H6 & H). unfold sf_ok. cbn. auto 10.
  - destruct IH as (H1 & H2 & H3 & H4 & H5 & H6 & H). unfold sf_ok. cbn. auto 10.
  - destruct IH as (H1 & H2 & H3 & H4 & H5 & H6 & H). unfold sf_ok. cbn. auto 10.
Qed.

(** *** Repeated steps *)
Definition sf_shapes (n : nat) (o : sf_dmp) : Prop :=
  p_n_dims (f_base o) = n /\ alen (p_current_y (f_base o)) = n /\ alen (p_current_yd (f_base o)) = n.
Definition sf_running (o : sf_dmp) : Prop := 0 < f_execution_time o /\ 0 < f_dt o /\ 0 < f_int_dt o.

Lemma sf_n_steps_seq n : forall k o y yd, sf_shapes n o -> sf_running o -> alen y = n -> alen yd = n ->
  exists o' s, run_seq (sf_step_fn (sf_object_args None o)) (p_t (f_base o)) (f_dt o) (aget y, aget yd) k = Ok s
  /\ sf_n_steps k y yd o = (o', Ok ({| alen := n; aget := fst s |}, {| alen := n; aget := snd s |}))
  /\ sf_shapes n o' /\ p_t (f_base o') = p_t (f_base o) + INR k * f_dt o
  /\ o' = sf_with_base (f_base o') o.
Proof.
  induction k as [|k IH]; intros o y yd Hs Hr Hy Hyd.
  - exists o, (aget y, aget yd). split; [reflexivity|]. split.
    + simpl. destruct y, yd; simpl in *; subst; reflexivity.
    + split; [exact Hs|]. split; [simpl; ring|]. destruct o; reflexivity.
  - pose proof Hs as (S1 & S2 & S3). pose proof Hr as (R1 & R2 & R3).
    set (t0 := p_t (f_base o)).
    destruct (sf_step_fn_total (sf_object_args None o) t0 (t0 + f_dt o) (aget y, aget yd)) as [[y1 v1] Es];
      [exact R1|exact R3|lra|].
    set (p1 := set_current {| alen := alen y; aget := y1 |} {| alen := alen yd; aget := v1 |}
      (set_t (t0 + f_dt o) (set_last_t (Some t0) (f_base o)))).
    assert (E : sf_step y yd None o = (sf_with_base p1 o,
      Ok ({| alen := alen y; aget := y1 |}, {| alen := alen yd; aget := v1 |}))).
    { unfold sf_step. rewrite Hy, Hyd, S1, Nat.eqb_refl. cbn [negb set_t set_last_t p_current_y p_current_yd].
      unfold assign_slice. rewrite S2, S3, Hy, Hyd, Nat.eqb_refl. fold t0. rewrite Es. unfold p1.
      now rewrite Hy, Hyd. }
    destruct (IH (sf_with_base p1 o) {| alen := alen y; aget := y1 |} {| alen := alen yd; aget := v1 |})
      as (o' & s' & I1 & I2 & I3 & I4 & I5); auto.
    { unfold sf_shapes. cbn. repeat split; congruence. }
    exists o', s'. rewrite run_seq_shift.
    fold t0. replace (t0 + INR 0 * f_dt o) with t0 by (simpl; ring).
    replace (t0 + INR 1 * f_dt o) with (t0 + f_dt o) by (simpl; ring).
    rewrite Es. cbn [bind]. split; [exact I1|]. split; [cbn [sf_n_steps]; rewrite E; exact I2|].
    split; [exact I3|]. split; [rewrite I4; cbn -[INR]; rewrite S_INR; unfold t0; ring|].
    rewrite I5 at 1. reflexivity.
Qed.

Lemma sf_n_steps_app : forall j k o y yd o1 y1 yd1,
  sf_n_steps j y yd o = (o1, Ok (y1, yd1)) -> sf_n_steps (j + k) y yd o = sf_n_steps k y1 yd1 o1.
Proof.
  induction j as [|j IH]; intros k o y yd o1 y1 yd1 E; cbn [sf_n_steps Nat.add] in *.
  - injection E as <- <- <-. reflexivity.
  - destruct (sf_step y yd None o) as [o2 [[y2 yd2]|]]; [eauto|discriminate].
Qed.

(** *** Integration steps of equal length *)
Lemma sf_run_bodies a t0 dt x : sa_start_t a < sa_goal_t a -> 0 < dt -> 0 < sa_int_dt a -> sa_start_t a <= t0 ->
  equal_parts dt (sa_int_dt a) ->
  let h := Rmin dt (sa_int_dt a) in
  0 < h /\ exists m, (0 < m)%nat /\ dt = INR m * h /\ forall k,
  run_seq (sf_step_fn a) t0 dt x k = Ok (bodies (sf_body a) t0 h x (k * m)).
Proof.
  intros Ht Hdt Hi Ht0 Heq h.
  pose proof (parts_length dt (sa_int_dt a) Hdt Hi Heq) as Hl. fold h in Hl.
  destruct (equal_tiles dt (sa_int_dt a) h Hdt Hi Hl) as (m & Hm & Em & Hh0 & Htl).
  split; [auto|]. exists m. split; [auto|]. split; [exact Em|].
  induction k as [|k IH]; [reflexivity|]. cbn [run_seq]. rewrite IH. cbn [bind].
  pose proof (pos_INR k).
  assert (H1 : t0 + INR k * dt <= t0 + INR (S k) * dt) by (rewrite S_INR; nra).
  assert (H2 : sa_start_t a < t0 + INR (S k) * dt) by (rewrite S_INR; nra).
  destruct (substeps_tiles _ _ (sa_int_dt a) Hi H1) as [l [Htt Hss]].
  unfold sf_step_fn. destruct (Rle_dec _ _); [lra|]. destruct (Rle_dec _ _); [lra|].
  rewrite Hss. f_equal. apply Htl in Htt; [|rewrite S_INR; ring]. subst l.
  rewrite (bodies_exec (sf_body a) t0 h x m).
  - f_equal. lia.
  - rewrite mult_INR, Em. ring.
Qed.

(** *** The attractor at late times *)
Definition attractor_at (f : sf_forcing) (z : R) (d : nat) : R :=
  rsum (sf_n f) (fun i => sf_viapoints f i d * activations (sf_n f) (sf_centers f) (sf_widths f) z i).

Lemma rsum_continuous n (g : nat -> R -> R) z : (forall i, (i < n)%nat -> continuous (g i) z) ->
  continuous (fun x => rsum n (fun i => g i x)) z.
Proof.
  induction n as [|n IH]; intros H; simpl.
  - apply continuous_const.
  - apply (continuous_plus (fun x => rsum n (fun i => g i x)) (g n)); [apply IH; auto|auto].
Qed.

Lemma rbf_continuous c w i z : continuous (fun x => rbf c w x i) z.
Proof. apply (ex_derive_continuous (fun x => rbf c w x i)). unfold rbf. auto_derive. auto. Qed.

Lemma attractor_continuous f d z : (1 <= sf_n f)%nat -> continuous (fun x => attractor_at f x d) z.
Proof.
  intros Hn. unfold attractor_at. apply rsum_continuous. intros i Hi.
  apply (continuous_mult (fun _ => sf_viapoints f i d) (fun x => activations _ _ _ x i)); [apply continuous_const|].
  unfold activations, Rdiv.
  apply (continuous_mult (fun x => rbf _ _ x i) (fun x => / rsum _ (rbf _ _ x))); [apply rbf_continuous|].
  apply continuous_comp with (f := fun x => rsum (sf_n f) (rbf (sf_centers f) (sf_widths f) x)) (g := Rinv).
  - apply (rsum_continuous (sf_n f) (fun i x => rbf (sf_centers f) (sf_widths f) x i)). intros. apply rbf_continuous.
  - apply continuity_pt_filterlim, continuity_pt_inv; [apply continuity_pt_id|].
    apply Rgt_not_eq. apply rsum_pos; [lia|]. intros. apply exp_pos.
Qed.

Lemma root_between nv : (1 <= nv)%nat -> 0 < Rpower (1 / 100) (1 / INR nv) < 1.
Proof.
  intros Hn. assert (0 < INR nv) by (apply lt_0_INR; lia). split; [apply exp_pos|].
  unfold Rpower. apply Rlt_le_trans with (exp 0); [apply exp_increasing|right; apply exp_0].
  assert (ln (1 / 100) < 0) by (rewrite <- ln_1; apply ln_increasing; lra).
  assert (0 < 1 / INR nv) by (apply Rdiv_lt_0_compat; lra).
  assert (0 < 1 / INR nv * - ln (1 / 100)) by (apply Rmult_lt_0_compat; lra). lra.
Qed.

Lemma share_pos nv : 0 < share nv.
Proof. apply exp_pos. Qed.

Lemma attractor_end n nv o d : sf_ok n nv o ->
  attractor_at (f_forcing o) 0 d = place_of_rest nv (fun i => sf_viapoints (f_forcing o) i d).
Proof.
  intros (_ & _ & _ & _ & _ & _ & _ & Hn & En & _ & _ & _ & Hc & Hw & Hl).
  set (f := f_forcing o) in *. set (q := Rpower (1 / 100) (1 / INR nv)) in *.
  pose proof (root_between nv Hn) as Hq. fold q in Hq.
  set (L := - ln (1 / 10)).
  set (E2 := exp (- L * q ^ 2 / (1 - q) ^ 2)).
  set (v := fun i => sf_viapoints f i d).
  unfold attractor_at. rewrite En. destruct nv as [|m]; [lia|].
  unfold place_of_rest. replace (S m - 1)%nat with m in * by lia.
  destruct (Nat.eq_dec m 0) as [->|Hm].
  { cbn [rsum]. unfold activations. cbn [rsum]. fold (v 0%nat). simpl INR.
    assert (0 < rbf (sf_centers f) (sf_widths f) 0 0) by apply exp_pos. field. lra. }
  assert (R1 : forall i, (i < m)%nat -> rbf (sf_centers f) (sf_widths f) 0 i = share (S m) * E2).
  { intros i Hi. unfold rbf. rewrite Hw, !Hc by lia. fold L. unfold share, E2. fold q. unfold Rpower.
    rewrite <- exp_plus. f_equal. unfold L. simpl.
    assert (q ^ i <> 0) by (apply pow_nonzero; lra).
    field. repeat split; auto; try (apply Rgt_not_eq; lra).
    replace (q * q ^ i - q ^ i) with (- ((1 - q) * q ^ i)) by ring.
    apply Ropp_neq_0_compat, Rmult_integral_contrapositive_currified; auto; apply Rgt_not_eq; lra. }
  assert (R2 : rbf (sf_centers f) (sf_widths f) 0 m = E2).
  { unfold rbf. rewrite Hl by lia. replace (S m - 2)%nat with (m - 1)%nat by lia.
    rewrite Hw by lia. replace (S (m - 1)) with m by lia. rewrite !Hc by lia. unfold E2. f_equal.
    assert (Em : q ^ m = q * q ^ (m - 1)) by (rewrite tech_pow_Rmult; f_equal; lia).
    rewrite Em. assert (q ^ (m - 1) <> 0) by (apply pow_nonzero; lra).
    set (Q := q ^ (m - 1)) in *. unfold L. field. repeat split; auto; try (apply Rgt_not_eq; lra).
    replace (q * Q - Q) with (- ((1 - q) * Q)) by ring.
    apply Ropp_neq_0_compat, Rmult_integral_contrapositive_currified; auto; apply Rgt_not_eq; lra. }
  assert (HE : 0 < E2) by apply exp_pos. pose proof (share_pos (S m)) as Hs.
  assert (Hsum : rsum (S m) (rbf (sf_centers f) (sf_widths f) 0) = E2 * (share (S m) * INR m + 1)).
  { cbn [rsum]. rewrite R2, (rsum_ext m _ (fun _ => share (S m) * E2 * 1)) by (intros; rewrite R1 by auto; ring).
    rewrite rsum_scal.
    assert (Hone : forall k, rsum k (fun _ => 1) = INR k).
    { induction k as [|k IH]; [reflexivity|]. rewrite S_INR. cbn [rsum]. now rewrite IH. }
    rewrite Hone. ring. }
  assert (Hd : 0 < share (S m) * INR m + 1) by (pose proof (pos_INR m); nra).
  cbn [rsum]. unfold activations. rewrite Hsum, R2. fold (v m).
  rewrite (rsum_ext m _ (fun i => share (S m) / (share (S m) * INR m + 1) * v i)).
  - rewrite rsum_scal. fold v. field. lra.
  - intros i Hi. rewrite R1 by auto. fold (v i). field. lra.
Qed.

Lemma attractor_phase f t d : attractor f t d
  = attractor_at f (phase t (sf_alpha_z f) (sf_goal_t f) (sf_start_t f)) d.
Proof. reflexivity. Qed.

Lemma attractor_vanishes n nv o d t0 h : sf_ok n nv o -> 0 < h ->
  vanishes (fun j => attractor (f_forcing o) (t0 + INR (S j) * h) d
                     - place_of_rest nv (fun i => sf_viapoints (f_forcing o) i d)).
Proof.
  intros Hok Hh. rewrite <- (attractor_end n nv o d Hok).
  destruct Hok as (_ & _ & _ & _ & _ & _ & Hx & Hn & En & Eg & Es & Ea & _).
  set (f := f_forcing o) in *.
  pose (ft := {| ft_n := 1; ft_goal_t := sf_goal_t f; ft_start_t := sf_start_t f; ft_overlap := 0;
    ft_alpha_z := sf_alpha_z f; ft_weights := fun _ _ => 0; ft_centers := vzero; ft_widths := vzero |}).
  assert (Hph : vanishes (fun k => ft_phase ft (t0 + h + INR k * h))).
  { apply phase_grid_vanishes; [|exact Hh]. unfold phase_ok, ft. cbn. split; [lia|]. split; [lra|].
    rewrite Ea. assert (ln (1 / 100) < 0) by (rewrite <- ln_1; apply ln_increasing; lra). lra. }
  apply vanishes_lim in Hph.
  assert (Hc : continuity_pt (fun z => attractor_at f z d) 0).
  { apply continuity_pt_filterlim. apply (attractor_continuous f d 0). lia. }
  pose proof (is_lim_seq_continuous _ _ _ Hc Hph) as Hl. apply vanishes_lim.
  apply (is_lim_seq_ext (fun j => attractor_at f (ft_phase ft (t0 + h + INR j * h)) d - attractor_at f 0 d)).
  - intros j. rewrite attractor_phase. unfold ft_phase, ft. cbn [ft_alpha_z ft_goal_t ft_start_t].
    do 3 f_equal. rewrite S_INR. ring.
  - pose proof (is_lim_seq_minus' _ (fun _ => attractor_at f 0 d) _ (attractor_at f 0 d) Hl
      (is_lim_seq_const (attractor_at f 0 d))) as Hm. cbv beta in Hm.
    replace (attractor_at f 0 d - attractor_at f 0 d) with 0 in Hm by ring. exact Hm.
Qed.

(** ** C112 *)
(** Whatever was called before, from every state, a state-following DMP comes to rest
    at a fixed mean of its via-points, if the integration steps are short enough. *)
Theorem C112_comes_to_rest : forall n nv o y yd d,
  sf_reachable n nv o -> 0 < f_dt o -> 0 < f_int_dt o -> equal_parts (f_dt o) (f_int_dt o) ->
  (d < n)%nat -> 0 < aget (f_alpha_y o) d -> 0 < aget (f_beta_y o) d -> short_steps o d ->
  alen y = n -> alen yd = n ->
  rests_at o y yd d (place_of_rest nv (fun i => sf_viapoints (f_forcing o) i d)).
Proof.
  intros n nv o y yd d Hr Hdt Hi Heq _ Hal Hbe Hsh Ly Lyd eps Heps.
  pose proof (sf_reachable_ok n nv o Hr) as Hok.
  pose proof Hok as (H1 & _ & _ & _ & H5 & H6 & Hx & Hn & En & _).
  assert (Hrun : sf_running o) by (repeat split; auto).
  destruct (clock_steps (p_t (f_base o)) (f_dt o) Hdt) as [k0 Hk0].
  destruct (sf_n_steps_seq n (S k0) o y yd) as (o1 & s1 & _ & E1 & S1 & T1 & B1); auto.
  { repeat split; auto. }
  assert (Hrun1 : sf_running o1) by (rewrite B1; exact Hrun).
  set (a := sf_object_args None o1).
  assert (Ea : a = sf_object_args None o) by (unfold a; rewrite B1; reflexivity).
  assert (Hpos : 0 <= p_t (f_base o1)) by lra.
  assert (Edt : f_dt o1 = f_dt o) by (rewrite B1; reflexivity).
  destruct (sf_run_bodies a (p_t (f_base o1)) (f_dt o1) s1) as (Hh & m & Hm & _ & Hb).
  { rewrite Ea. exact Hx. } { lra. } { rewrite Ea. exact Hi. } { exact Hpos. } { rewrite Ea, Edt. exact Heq. }
  set (h := Rmin (f_dt o1) (sa_int_dt a)) in *.
  assert (Eh : h = Rmin (f_dt o) (f_int_dt o)) by (unfold h; rewrite Ea, Edt; reflexivity).
  set (rest := place_of_rest nv (fun i => sf_viapoints (f_forcing o) i d)).
  set (r := bodies (sf_body a) (p_t (f_base o1)) h s1) in *.
  assert (Htau : 0 < f_execution_time o / 2) by lra.
  assert (Hc0 : 0 < sf_damping o d) by (unfold sf_damping; apply Rdiv_lt_0_compat; auto).
  assert (Hk1 : 0 < sf_stiffness o d).
  { unfold sf_stiffness. apply Rdiv_lt_0_compat; [now apply Rmult_lt_0_compat|]. now apply pow_lt. }
  assert (Hv : vanishes (fun j => fst (r j) d - rest) /\ vanishes (fun j => snd (r j) d)).
  { assert (Hst : euler_shrinks h (sf_damping o d) (sf_stiffness o d)).
    { apply euler_shrinks_iff; auto. rewrite Eh. exact Hsh. }
    assert (A1 : (1 <= sf_n (sa_forcing a))%nat) by (rewrite Ea; cbn; lia).
    assert (A2 : sa_start_t a < sa_goal_t a) by (rewrite Ea; exact Hx).
    assert (A3 : sa_coupling a = None) by (rewrite Ea; reflexivity).
    assert (A4 : sa_precomputed a = None) by (rewrite Ea; reflexivity).
    assert (Hbody : forall j, let '(y1, v1) := r j in
      snd (r (S j)) d = v1 d + h * (- sf_stiffness o d * (y1 d - rest) - sf_damping o d * v1 d
        + sf_stiffness o d * (attractor (f_forcing o) (p_t (f_base o1) + INR (S j) * h) d - rest))
      /\ fst (r (S j)) d = y1 d + h * snd (r (S j)) d).
    { intros j. unfold r. cbn [bodies]. fold r. destruct (r j) as [y1 v1].
      destruct (C31_spring_damper_towards_attractor a (p_t (f_base o1) + INR (S j) * h) h y1 v1 d)
        as (Q1 & Q2 & _); [exact A1|exact A2|exact A3|exact A4|].
      cbv zeta in Q1, Q2. split.
      - etransitivity; [exact Q1|]. rewrite Ea.
        cbn [sf_object_args sa_goal_t sa_start_t sa_alpha_y sa_beta_y sa_forcing]. unfold sf_damping, sf_stiffness.
        field. lra.
      - etransitivity; [exact Q2|]. do 2 f_equal. symmetry. exact Q1. }
    apply (euler_vanish h (sf_damping o d) (sf_stiffness o d)) with
      (u := fun j => sf_stiffness o d * (attractor (f_forcing o) (p_t (f_base o1) + INR (S j) * h) d - rest)); auto.
    - intros j. specialize (Hbody j). destruct (r j) as [y1 v1]. apply Hbody.
    - intros j. specialize (Hbody j). destruct (r j) as [y1 v1]. destruct Hbody as [_ ->]. cbn [fst]. ring.
    - apply vanishes_scal. apply (attractor_vanishes n nv); auto. }
  destruct Hv as [V1 V2]. destruct (V1 eps Heps) as [N1 HN1]. destruct (V2 eps Heps) as [N2 HN2].
  exists (S k0 + (N1 + N2))%nat. intros k Hk.
  set (j := (k - S k0)%nat). replace k with (S k0 + j)%nat by (unfold j; lia).
  rewrite (sf_n_steps_app _ _ _ _ _ _ _ _ E1).
  destruct (sf_n_steps_seq n j o1 {| alen := n; aget := fst s1 |} {| alen := n; aget := snd s1 |})
    as (o2 & s2 & R2 & E2 & _); auto.
  exists o2, {| alen := n; aget := fst s2 |}, {| alen := n; aget := snd s2 |}. split; [exact E2|].
  cbn [aget] in *. rewrite <- surjective_pairing in R2. fold a in R2. rewrite Hb in R2. injection R2 as <-.
  split; [apply HN1|apply HN2]; unfold j; nia.
Qed.

(** The condition on the step length is necessary: a movement with equal via-points that
    starts at rest away from them comes arbitrarily close to rest there only if the
    integration steps are short enough. *)
Theorem C112_exact : forall n nv o y yd d p,
  sf_reachable n nv o -> 0 < f_dt o -> 0 < f_int_dt o -> equal_parts (f_dt o) (f_int_dt o) ->
  (d < n)%nat -> 0 < aget (f_alpha_y o) d -> 0 < aget (f_beta_y o) d ->
  alen y = n -> alen yd = n -> 0 <= p_t (f_base o) ->
  (forall i, (i < nv)%nat -> sf_viapoints (f_forcing o) i d = p) -> aget y d <> p -> aget yd d = 0 ->
  (forall eps, 0 < eps -> exists k o' y' yd',
     sf_n_steps k y yd o = (o', Ok (y', yd')) /\ Rabs (aget y' d - p) < eps /\ Rabs (aget yd' d) < eps) ->
  short_steps o d.
Proof.
  intros n nv o y yd d p Hr Hdt Hi Heq _ Hal Hbe Ly Lyd Hpos Hv Hy Hyd Hclose.
  pose proof (sf_reachable_ok n nv o Hr) as Hok.
  pose proof Hok as (H1 & _ & _ & _ & H5 & H6 & Hx & Hn & En & _).
  assert (Hrun : sf_running o) by (repeat split; auto).
  set (a := sf_object_args None o).
  destruct (sf_run_bodies a (p_t (f_base o)) (f_dt o) (aget y, aget yd)) as (Hh & m & Hm & _ & Hb); auto.
  set (h := Rmin (f_dt o) (sa_int_dt a)) in *.
  set (r := bodies (sf_body a) (p_t (f_base o)) h (aget y, aget yd)) in *.
  assert (Htau : 0 < f_execution_time o / 2) by lra.
  assert (Hc0 : 0 < sf_damping o d) by (unfold sf_damping; apply Rdiv_lt_0_compat; auto).
  assert (Hk1 : 0 < sf_stiffness o d).
  { unfold sf_stiffness. apply Rdiv_lt_0_compat; [now apply Rmult_lt_0_compat|]. now apply pow_lt. }
  assert (Hat : forall t, attractor (f_forcing o) t d = p).
  { intros t. destruct (C31_activations (f_forcing o) t) as [_ Hs]; [lia|]. unfold attractor.
    rewrite (rsum_ext _ _ (fun i => p * sf_call (f_forcing o) t i)) by (intros i Hi'; rewrite Hv by lia; ring).
    rewrite rsum_scal, Hs. ring. }
  apply euler_shrinks_iff; auto.
  assert (Hbody : forall j, let '(y1, v1) := r j in
    snd (r (S j)) d = v1 d + h * (- sf_stiffness o d * (y1 d - p) - sf_damping o d * v1 d)
    /\ fst (r (S j)) d = y1 d + h * snd (r (S j)) d).
  { intros j. unfold r. cbn [bodies]. fold r. destruct (r j) as [y1 v1].
    destruct (C31_spring_damper_towards_attractor a (p_t (f_base o) + INR (S j) * h) h y1 v1 d)
      as (Q1 & Q2 & _); [cbn; lia|exact Hx|reflexivity|reflexivity|].
    cbv zeta in Q1, Q2. change (sa_forcing a) with (f_forcing o) in Q1, Q2. rewrite Hat in Q1, Q2. split.
    - etransitivity; [exact Q1|]. unfold a.
      cbn [sf_object_args sa_goal_t sa_start_t sa_alpha_y sa_beta_y sa_forcing]. unfold sf_damping, sf_stiffness.
      field. lra.
    - etransitivity; [exact Q2|]. do 2 f_equal. symmetry. exact Q1. }
  apply (euler_must_shrink h (sf_damping o d) (sf_stiffness o d) (fun j => fst (r j) d - p) (fun j => snd (r j) d)).
  - apply Rgt_not_eq. exact Hh.
  - apply Rgt_not_eq. exact Hk1.
  - intros j. specialize (Hbody j). destruct (r j) as [y1 v1]. apply Hbody.
  - intros j. specialize (Hbody j). destruct (r j) as [y1 v1]. destruct Hbody as [_ ->]. cbn [fst]. ring.
  - unfold r. change (aget y d - p <> 0). now apply Rminus_eq_contra.
  - exact Hyd.
  - intros eps Heps. destruct (Hclose eps Heps) as (k & o' & y' & yd' & E & B).
    destruct (sf_n_steps_seq n k o y yd) as (o2 & s2 & R2 & E2 & _); auto.
    { repeat split; auto. }
    exists (k * m)%nat. fold a in R2. rewrite Hb in R2. injection R2 as R2. rewrite R2.
    rewrite E in E2. injection E2 as _ -> ->. exact B.
Qed.

(** *** How far the place of rest is from the last via-point *)
Lemma tanh_below x : 0 < x -> 1 - exp (- (2 * x)) <= x * (1 + exp (- (2 * x))).
Proof.
  intros Hx.
  set (f := fun x => x * (1 + exp (- (2 * x))) - (1 - exp (- (2 * x)))).
  set (f' := fun x => 1 - exp (- (2 * x)) * (1 + 2 * x)).
  destruct (MVT_cor2 f f' 0 x Hx) as (c & E & Hc).
  { intros c _. apply is_derive_Reals. unfold f, f'. auto_derive; auto. ring. }
  assert (F0 : f 0 = 0) by (unfold f; rewrite Rmult_0_r, Ropp_0, exp_0; ring).
  assert (F1 : 0 <= f' c).
  { unfold f'. pose proof (exp_ineq1_le (2 * c)) as H. rewrite exp_Ropp.
    pose proof (exp_pos (2 * c)). apply Rmult_le_reg_l with (exp (2 * c)); auto.
    replace (exp (2 * c) * (1 - / exp (2 * c) * (1 + 2 * c))) with (exp (2 * c) - (1 + 2 * c)) by (field; lra). lra. }
  assert (0 <= f x); [|unfold f in *; lra].
  rewrite F0, Rminus_0_r, Rminus_0_r in E. rewrite E. apply Rmult_le_pos; lra.
Qed.

Lemma share_small nv : (1 <= nv)%nat -> share nv <= exp (- INR nv).
Proof.
  intros Hn. assert (HN : 0 < INR nv) by (apply lt_0_INR; lia).
  pose proof (root_between nv Hn) as Hq. unfold share. cbv zeta.
  set (q := Rpower (1 / 100) (1 / INR nv)) in *.
  assert (H10 : 0 < ln 10) by (rewrite <- ln_1; apply ln_increasing; lra).
  set (x := ln 10 / INR nv).
  assert (Hx : 0 < x) by (apply Rdiv_lt_0_compat; lra).
  assert (L10 : ln (1 / 10) = - ln 10) by (unfold Rdiv; rewrite Rmult_1_l, ln_Rinv; lra).
  assert (L100 : ln (1 / 100) = - (2 * ln 10)).
  { replace (1 / 100) with ((1 / 10) * (1 / 10)) by lra. rewrite ln_mult by lra. rewrite L10. ring. }
  assert (Eq : q = exp (- (2 * x))).
  { unfold q, Rpower. f_equal. rewrite L100. unfold x. field. lra. }
  pose proof (tanh_below x Hx) as Ht. rewrite <- Eq in Ht.
  unfold Rpower. rewrite L10.
  assert (Hb : INR nv <= (1 + q) / (1 - q) * ln 10).
  { replace (ln 10) with (x * INR nv) by (unfold x; field; lra).
    replace ((1 + q) / (1 - q) * (x * INR nv)) with (x * (1 + q) / (1 - q) * INR nv) by (field; lra).
    rewrite <- (Rmult_1_l (INR nv)) at 1. apply Rmult_le_compat_r; [lra|].
    apply Rmult_le_reg_r with (1 - q); [lra|].
    unfold Rdiv. rewrite Rmult_assoc, Rinv_l by lra. lra. }
  assert (- INR nv >= (1 + q) / (1 - q) * - ln 10) by lra.
  destruct (Rle_lt_or_eq_dec ((1 + q) / (1 - q) * - ln 10) (- INR nv) ltac:(lra)) as [H2|H2].
  - left. now apply exp_increasing.
  - right. now rewrite H2.
Qed.

(** The movement ends near the last via-point, the nearer the more via-points there are. *)
Theorem C112_near_last : forall nv v M, (1 <= nv)%nat ->
  (forall i, (i < nv)%nat -> Rabs (v i - v (nv - 1)%nat) <= M) ->
  Rabs (place_of_rest nv v - v (nv - 1)%nat) <= INR (nv - 1) * exp (- INR nv) * M.
Proof.
  intros nv v M Hn HM. pose proof (share_small nv Hn) as Hs. pose proof (share_pos nv) as Hp.
  assert (HM0 : 0 <= M) by (eapply Rle_trans; [apply Rabs_pos|apply (HM 0%nat); lia]).
  unfold place_of_rest. set (m := (nv - 1)%nat) in *. set (l := v m) in *. set (s := share nv) in *.
  pose proof (pos_INR m) as Hm.
  assert (Hd : 1 <= s * INR m + 1) by nra.
  assert (Esum : rsum m v = rsum m (fun i => v i - l) + INR m * l).
  { clearbody l. clear. generalize m. intros k. induction k as [|k IH]; [simpl; ring|]. cbn [rsum]. rewrite IH, S_INR. ring. }
  replace ((s * rsum m v + l) / (s * INR m + 1) - l) with (s * rsum m (fun i => v i - l) / (s * INR m + 1))
    by (rewrite Esum; field; lra).
  assert (Hab : Rabs (rsum m (fun i => v i - l)) <= INR m * M).
  { assert (Hi : forall i, (i < m)%nat -> Rabs (v i - l) <= M) by (intros i Hi; apply HM; unfold m in Hi; lia).
    clearbody l. clear - Hi. revert Hi. generalize m. intros k. induction k as [|k IH]; intros Hi; [simpl; rewrite Rabs_R0; lra|].
    cbn [rsum]. rewrite S_INR. eapply Rle_trans; [apply Rabs_triang|].
    specialize (IH (fun i H => Hi i ltac:(lia))). specialize (Hi k ltac:(lia)). lra. }
  unfold Rdiv. rewrite !Rabs_mult, (Rabs_pos_eq s) by lra.
  rewrite (Rabs_pos_eq (/ (s * INR m + 1))) by (left; apply Rinv_0_lt_compat; lra).
  assert (Hi1 : / (s * INR m + 1) <= 1) by (rewrite <- Rinv_1; apply Rinv_le_contravar; lra).
  apply Rle_trans with (s * (INR m * M) * 1).
  - apply Rmult_le_compat; auto.
    + apply Rmult_le_pos; [lra|apply Rabs_pos].
    + left. apply Rinv_0_lt_compat. lra.
    + apply Rmult_le_compat_l; lra.
  - replace (INR m * exp (- INR nv) * M) with (exp (- INR nv) * (INR m * M)) by ring.
    rewrite Rmult_1_r. apply Rmult_le_compat_r; [apply Rmult_le_pos; lra|exact Hs].
Qed.

Lemma share_two : 1 / 20 < share 2 < 7 / 100.
Proof.
  assert (Eq : Rpower (1 / 100) (1 / INR 2) = 1 / 10).
  { replace (1 / INR 2) with (/ 2) by (simpl; lra). rewrite Rpower_sqrt by lra.
    replace (1 / 100) with ((1 / 10) * (1 / 10)) by lra. apply sqrt_square. lra. }
  unfold share. rewrite Eq. cbv zeta. replace ((1 + 1 / 10) / (1 - 1 / 10)) with (11 / 9) by lra.
  unfold Rpower.
  assert (L : 11 * ln (1 / 10) = ln ((1 / 10) ^ 11)) by (rewrite ln_pow by lra; f_equal; simpl; ring).
  split.
  - assert (L9 : 9 * ln (1 / 20) = ln ((1 / 20) ^ 9)) by (rewrite ln_pow by lra; f_equal; simpl; ring).
    assert (ln ((1 / 20) ^ 9) < ln ((1 / 10) ^ 11)) by (apply ln_increasing; [apply pow_lt; lra|simpl; lra]).
    rewrite <- (exp_ln (1 / 20)) at 1 by lra. apply exp_increasing. lra.
  - assert (L9 : 9 * ln (7 / 100) = ln ((7 / 100) ^ 9)) by (rewrite ln_pow by lra; f_equal; simpl; ring).
    assert (ln ((1 / 10) ^ 11) < ln ((7 / 100) ^ 9)) by (apply ln_increasing; [apply pow_lt; lra|simpl; lra]).
    rewrite <- (exp_ln (7 / 100)) at 1 by lra. apply exp_increasing. lra.
Qed.

(** A movement with the default settings and [nv] via-points. *)
Lemma sf_example nv v : (1 <= nv)%nat -> exists o, sf_reachable 1 nv o
  /\ f_execution_time o = 1 /\ f_dt o = 1 / 100 /\ f_int_dt o = 1 / 1000
  /\ (forall d, aget (f_alpha_y o) d = 25) /\ (forall d, aget (f_beta_y o) d = 25 / 4)
  /\ sf_viapoints (f_forcing o) = v.
Proof.
  intros Hn.
  assert (E : exists o, sf_new (vzero, vzero) 1 1 (1/100) nv (1/1000) {| shape := []; data := fun _ => 25 |}
    {| shape := []; data := fun _ => 25/4 |} = Ok o
    /\ f_execution_time o = 1 /\ f_dt o = 1 / 100 /\ f_int_dt o = 1 / 1000
    /\ (forall d, aget (f_alpha_y o) d = 25) /\ (forall d, aget (f_beta_y o) d = 25 / 4)).
  { assert (Ea : exists z, canonical_system_alpha (1 / 100) 1 0 = Ok z).
    { unfold canonical_system_alpha. repeat (destruct (Rle_dec _ _); [lra|]). eauto. }
    destruct Ea as [z Ea].
    destruct (proj2 (proj1 (C31_constructor_errors vzero vzero nv 1 0 (1/10) z)))
      as [f E]; [repeat split; [lia|lra|lra]|].
    eexists. split; [unfold sf_new; rewrite Ea; cbn [bind fst snd ensure_1d_array shape data Nat.eqb]; rewrite E; reflexivity|].
    cbn. repeat split. }
  destruct E as (o & E & E1 & E2 & E3 & E4 & E5).
  exists (sf_set_viapoints v o). split; [apply sr_viapoints; eapply sr_new; exact E|].
  cbn. auto 10.
Qed.

(** "The movement ends at the last via-point" is false: with two via-points 0 and 1 the
    movement ends, from every state, more than 4 % before the second one. *)
Theorem C112_last_viapoint_refuted : exists o p, sf_reachable 1 2 o
  /\ f_execution_time o = 1 /\ f_dt o = 1 / 100 /\ f_int_dt o = 1 / 1000
  /\ (forall d, aget (f_alpha_y o) d = 25) /\ (forall d, aget (f_beta_y o) d = 25 / 4)
  /\ sf_viapoints (f_forcing o) 0%nat 0%nat = 0 /\ sf_viapoints (f_forcing o) 1%nat 0%nat = 1
  /\ 93 / 100 < p < 96 / 100
  /\ forall y yd, alen y = 1%nat -> alen yd = 1%nat -> rests_at o y yd 0 p /\ ~ rests_at o y yd 0 1.
Proof.
  destruct (sf_example 2 (fun i _ => if Nat.eqb i 0 then 0 else 1)) as (o & Hr & E1 & E2 & E3 & E4 & E5 & E6); [lia|].
  exists o, (place_of_rest 2 (fun i => sf_viapoints (f_forcing o) i 0%nat)).
  split; [exact Hr|]. repeat (split; [assumption|]). rewrite E6. cbn [Nat.eqb].
  split; [reflexivity|]. split; [reflexivity|].
  assert (Hp : 93 / 100 < place_of_rest 2 (fun i => if Nat.eqb i 0 then 0 else 1) < 96 / 100).
  { pose proof share_two as Hs. unfold place_of_rest. cbn [Nat.sub rsum Nat.eqb INR].
    set (s := share 2) in *.
    replace ((s * (0 + 0) + 1) / (s * 1 + 1)) with (1 / (1 + s)) by (field; lra).
    split; apply Rmult_lt_reg_r with (1 + s); try lra; unfold Rdiv; rewrite ?Rmult_assoc, ?Rinv_l by lra; lra. }
  split; [exact Hp|]. intros y yd Ly Lyd.
  assert (Hrest : rests_at o y yd 0 (place_of_rest 2 (fun i => if Nat.eqb i 0 then 0 else 1))).
  { pose proof (C112_comes_to_rest 1 2 o y yd 0 Hr) as H. rewrite E6 in H.
    apply H; auto; try lra.
    - right. exists 10%nat. rewrite E2, E3. simpl. lra.
    - rewrite E4. lra.
    - rewrite E5. lra.
    - unfold short_steps, sf_stiffness, sf_damping. rewrite E1, E2, E3, E4, E5.
      rewrite Rmin_right by lra. lra. }
  split; [exact Hrest|]. intros H1.
  destruct (Hrest (1 / 100) ltac:(lra)) as [N1 HN1]. destruct (H1 (1 / 100) ltac:(lra)) as [N2 HN2].
  destruct (HN1 (N1 + N2)%nat ltac:(lia)) as (o1 & y1 & yd1 & A1 & A2 & _).
  destruct (HN2 (N1 + N2)%nat ltac:(lia)) as (o2 & y2 & yd2 & B1 & B2 & _).
  rewrite A1 in B1. injection B1 as <- <- <-.
  apply Rabs_def2 in A2. apply Rabs_def2 in B2. lra.
Qed.

Example C112_satisfiable : exists o, sf_reachable 1 8 o /\ 0 < f_dt o /\ 0 < f_int_dt o
  /\ equal_parts (f_dt o) (f_int_dt o) /\ 0 < aget (f_alpha_y o) 0%nat /\ 0 < aget (f_beta_y o) 0%nat
  /\ short_steps o 0 /\ sf_viapoints (f_forcing o) 3%nat 0%nat = 3.
Proof.
  destruct (sf_example 8 (fun i _ => INR i)) as (o & Hr & E1 & E2 & E3 & E4 & E5 & E6); [lia|].
  exists o. split; [exact Hr|]. split; [lra|]. split; [lra|].
  split; [right; exists 10%nat; rewrite E2, E3; simpl; lra|].
  split; [rewrite E4; lra|]. split; [rewrite E5; lra|].
  split; [|rewrite E6; simpl; lra].
  unfold short_steps, sf_stiffness, sf_damping. rewrite E1, E2, E3, E4, E5. rewrite Rmin_right by lra. lra.
Qed.
