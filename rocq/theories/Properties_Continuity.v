(** C95: movements depend continuously on start, goal, weights and
    demonstrations.  Final statements. *)
From Coq Require Import Reals ZArith List Lia Lra Psatz FunctionalExtensionality.
From Verif Require Import M_Prelude M_Canonical M_Forcing M_Dmp M_Base M_Matrix M_DmpObject M_Ridge
  S_Loops S_Dmp P_Loops P_Canonical P_Forcing P_DmpStep P_DmpScale P_DmpLinear P_Converge
  P_DmpObject P_DmpAffine P_Disturbed P_Continuity Properties_Forcing Properties_Dmp Properties_DmpObject
  Properties_Goal Properties_Equivariance.
Import ListNotations.
Open Scope R_scope.
Set Bullet Behavior "Strict Subproofs".

(** ** Specification *)
(** Start, goal and weights of the objects differ by at most [D] in dimension [d]. *)
Definition data_within (D : R) (d : nat) (o o' : dmp) : Prop :=
  Rabs (aget (p_start_y (o_base o')) d - aget (p_start_y (o_base o)) d) <= D
  /\ Rabs (aget (p_goal_y (o_base o')) d - aget (p_goal_y (o_base o)) d) <= D
  /\ forall i, (i < o_n_weights_per_dim o)%nat ->
       Rabs (ft_weights (o_forcing_term o') d i - ft_weights (o_forcing_term o) d i) <= D.

(** Both calls of [open_loop] raise the same exception or give trajectories at
    the same times that differ by at most [E] in dimension [d] at each time. *)
Definition movements_within (E : R) (d : nat) (r r' : res (list R * list vec)) : Prop :=
  match r, r' with
  | Ok (ts, ys), Ok (ts', ys') =>
      ts' = ts /\ length ys' = length ys
      /\ forall k, (k < length ys)%nat -> Rabs (nth k ys' vzero d - nth k ys vzero d) <= E
  | Err e, Err e' => e' = e
  | _, _ => False
  end.

(** ** Proofs *)
Definition rk4_lip (al tau dt : R) : R :=
  let k := al / (2 * tau) in
  let r := Rabs (rk4_factor (k * dt)) in
  let u := (1 + al ^ 2 / 2) / tau ^ 2 in
  3 + (13 * dt * (2 * k + 6 * dt * u / (1 - r)) + 3 * dt ^ 2 * u) / (1 - r).

Definition euler_lip (al tau dt : R) : R :=
  let k := al / (2 * tau) in
  let q := exp (- (k * dt / 2)) in
  let u := (1 + al ^ 2 / 2) / tau ^ 2 in
  1 + (4 * k + 3 * dt * u / (1 - q)) / k.

Definition lip_constant (fn : step_function) (al tau dt : R) : R :=
  match fn with
  | RK4 | RK4_cython => rk4_lip al tau dt
  | Euler | Euler_cython => euler_lip al tau dt
  end.

Lemma settings_basis n n' o o' : reachable n o -> reachable n' o' -> same_settings o o' ->
  let f := o_forcing_term o in let f' := o_forcing_term o' in
  ft_n f = o_n_weights_per_dim o /\ ft_n f' = o_n_weights_per_dim o
  /\ (forall t, ft_phase f' t = ft_phase f t)
  /\ forall i, (i < o_n_weights_per_dim o)%nat ->
       ft_centers f' i = ft_centers f i /\ ft_widths f' i = ft_widths f i.
Proof.
  intros Hr Hr' (S1 & S2 & S3 & S4 & S5 & S6) f f'.
  destruct (reachable_ft n o Hr) as (j & g & w & Eg & Ef).
  destruct (reachable_ft n' o' Hr') as (j' & g' & w' & Eg' & Ef').
  rewrite S4, S6 in Eg'.
  pose proof (forcing_term_init_n _ _ _ _ _ _ _ _ Eg) as (N & G & St & _ & Az & _).
  pose proof (forcing_term_init_n _ _ _ _ _ _ _ _ Eg') as (N' & G' & St' & _ & Az' & _).
  unfold f, f'. rewrite Ef, Ef'. unfold ft_phase.
  cbn [set_ft_weights ft_n ft_alpha_z ft_goal_t ft_start_t ft_centers ft_widths].
  split; [congruence|]. split; [congruence|]. split; [intros; congruence|].
  intros i Hi. apply (C02_fully_initialised _ _ _ _ _ _ _ _ _ _ _ Eg' Eg i Hi).
Qed.

Lemma phase_le_1 n o t : reachable n o -> 0 <= t -> ft_phase (o_forcing_term o) t <= 1.
Proof.
  intros Hr Ht. pose proof (reachable_phase_ok n o Hr) as Hp.
  destruct (reachable_ft n o Hr) as (j & g & w & Eg & Ef).
  pose proof (forcing_term_init_n _ _ _ _ _ _ _ _ Eg) as (_ & _ & St & _).
  apply Rle_trans with (ft_phase (o_forcing_term o) 0).
  - now apply ft_phase_decreasing.
  - unfold ft_phase. replace (ft_start_t (o_forcing_term o)) with 0 by (rewrite Ef; cbn; auto).
    rewrite phase_start. lra.
Qed.

Lemma twins n n' o o' d D : reachable n o -> reachable n' o' -> same_settings o o' ->
  0 < o_execution_time o -> 0 < aget (o_alpha_y o) d -> aget (o_alpha_y o) d = 4 * aget (o_beta_y o) d ->
  aget (o_alpha_y o') d = aget (o_alpha_y o) d -> aget (o_beta_y o') d = aget (o_beta_y o) d ->
  data_within D d o o' ->
  twin_args (open_loop_step_args o' None) (open_loop_step_args o None) d (aget (o_alpha_y o) d)
    (aget (o_beta_y o) d) (o_execution_time o)
    ((1 + aget (o_alpha_y o) d ^ 2 / 2) / o_execution_time o ^ 2 * D).
Proof.
  intros Hr Hr' HS Ht Hal Hcd Ea Eb (HY & HG & HW).
  destruct (settings_basis n n' o o' Hr Hr' HS) as (N & N' & HP & HB).
  pose proof HS as (S1 & S2 & S3 & S4 & S5 & S6).
  assert (HD : 0 <= D) by (eapply Rle_trans; [apply Rabs_pos|exact HY]).
  split; cbn [open_loop_step_args a_start_t a_goal_t a_alpha_y a_beta_y a_int_dt a_forcing_term]; auto.
  - split; unfold free; cbn; auto.
  - intros t Htt. rewrite HP.
    pose proof (phase_le_1 n o t Hr Htt) as Hz1. pose proof (ft_phase_pos (o_forcing_term o) t) as Hz0.
    set (z := ft_phase (o_forcing_term o) t) in *. clearbody z.
    assert (EF : ft_forces (o_forcing_term o') z d - ft_forces (o_forcing_term o) z d
                 = ft_forces (set_ft_weights (fun d i => ft_weights (o_forcing_term o') d i
                      - ft_weights (o_forcing_term o) d i) (o_forcing_term o)) z d).
    { unfold ft_forces. cbn [set_ft_weights ft_n ft_weights ft_centers ft_widths]. rewrite N', N.
      rewrite <- Rmult_minus_distr_l, <- rsum_minus. f_equal. apply rsum_ext. intros i Hi.
      rewrite (activations_ext _ _ _ _ _ z i Hi HB). ring. }
    assert (HF : Rabs (ft_forces (o_forcing_term o') z d - ft_forces (o_forcing_term o) z d) <= D).
    { rewrite EF. eapply Rle_trans; [apply ft_forces_bound with (M := D)|].
      - cbn. apply (reachable_phase_ok n o Hr).
      - cbn. rewrite N. exact HW.
      - rewrite Rabs_pos_eq by lra. nra. }
    assert (Et2 : 0 < o_execution_time o ^ 2) by (apply pow_lt; lra).
    replace ((1 + aget (o_alpha_y o) d ^ 2 / 2) / o_execution_time o ^ 2 * D)
      with ((1 + aget (o_alpha_y o) d ^ 2 / 2) * D / o_execution_time o ^ 2) by (field; lra).
    apply Rmult_le_compat_r; [apply Rlt_le, Rinv_0_lt_compat; lra|].
    unfold disturbance. cbn [open_loop_step_args a_forcing_term a_smooth_scaling a_alpha_y a_beta_y
      a_goal_y a_start_y]. rewrite S5, Ea, Eb.
    set (F' := ft_forces (o_forcing_term o') z d) in *. set (F := ft_forces (o_forcing_term o) z d) in *.
    set (al := aget (o_alpha_y o) d) in *. set (be := aget (o_beta_y o) d) in *.
    set (y' := aget (p_start_y (o_base o')) d) in *. set (y := aget (p_start_y (o_base o)) d) in *.
    set (g' := aget (p_goal_y (o_base o')) d) in *. set (g := aget (p_goal_y (o_base o)) d) in *.
    clearbody F F' y y' g g'.
    assert (Hal2 : 0 <= al ^ 2 / 2) by (assert (0 < al ^ 2) by (apply pow_lt; lra); lra).
    destruct (o_smooth_scaling o).
    + replace (F' - al * be * (g' - y') * z - (F - al * be * (g - y) * z))
        with ((F' - F) + - ((al * be) * (((g' - g) - (y' - y)) * z))) by ring.
      eapply Rle_trans; [apply Rabs_triang|]. rewrite Rabs_Ropp, (Rabs_mult (al * be)).
      rewrite (Rabs_pos_eq (al * be)) by nra. rewrite Rabs_mult, (Rabs_pos_eq z) by lra.
      assert (Hgy : Rabs (g' - g - (y' - y)) <= 2 * D).
      { unfold Rminus at 1. eapply Rle_trans; [apply Rabs_triang|]. rewrite Rabs_Ropp. lra. }
      assert (H1 : Rabs (g' - g - (y' - y)) * z <= 2 * D * 1)
        by (apply Rmult_le_compat; try apply Rabs_pos; lra).
      replace (al * be) with (al ^ 2 / 4) by (rewrite Hcd at 1; unfold al in *; rewrite Hcd; field).
      apply Rle_trans with (D + al ^ 2 / 4 * (2 * D * 1)).
      * apply Rplus_le_compat; auto. apply Rmult_le_compat_l; lra.
      * apply Req_le. field.
    + replace (F' - 0 - (F - 0)) with (F' - F) by ring. nra.
Qed.

Lemma states_within fn n n' o o' d D : reachable n o -> reachable n' o' -> same_settings o o' ->
  0 < o_execution_time o -> 0 < o_dt o -> 0 < o_int_dt o -> stable fn o d ->
  aget (o_alpha_y o') d = aget (o_alpha_y o) d -> aget (o_beta_y o') d = aget (o_beta_y o) d ->
  data_within D d o o' ->
  exists s s' : nat -> vec * vec,
    (forall k, run_seq (run_step_function fn (open_loop_step_args o None)) 0 (o_dt o)
                 (aget (p_start_y (o_base o)), vzero) k = Ok (s k))
    /\ (forall k, run_seq (run_step_function fn (open_loop_step_args o' None)) 0 (o_dt o)
                 (aget (p_start_y (o_base o')), vzero) k = Ok (s' k))
    /\ forall k, Rabs (fst (s' k) d - fst (s k) d)
                 <= lip_constant fn (aget (o_alpha_y o) d) (o_execution_time o) (o_dt o) * D.
Proof.
  intros Hr Hr' HS Ht Hdt Hi (Hcd & Hal & Hrk & Heu) Ea Eb HD.
  pose proof (twins n n' o o' d D Hr Hr' HS Ht Hal Hcd Ea Eb HD) as TW.
  pose proof HD as (HY & HG & _).
  assert (HD0 : 0 <= D) by (eapply Rle_trans; [apply Rabs_pos|exact HY]).
  pose proof HS as (S1 & S2 & S3 & S4 & S5 & S6).
  set (a := open_loop_step_args o None) in *. set (a' := open_loop_step_args o' None) in *.
  set (al := aget (o_alpha_y o) d) in *. set (tau := o_execution_time o) in *.
  set (be := aget (o_beta_y o) d) in *. set (dt := o_dt o) in *.
  set (y := aget (p_start_y (o_base o))) in *. set (y' := aget (p_start_y (o_base o'))) in *.
  set (U := (1 + al ^ 2 / 2) / tau ^ 2 * D) in *.
  set (u := (1 + al ^ 2 / 2) / tau ^ 2) in *.
  assert (Hk : 0 < al / (2 * tau)).
  { apply Rmult_lt_0_compat; auto. apply Rinv_0_lt_compat. lra. }
  set (k := al / (2 * tau)) in *.
  assert (He0 : Rabs ((y' d - a_goal_y a' d) - (y d - a_goal_y a d)) <= 2 * D).
  { cbn [a a' open_loop_step_args a_goal_y].
    set (g' := aget (p_goal_y (o_base o')) d) in *. set (g := aget (p_goal_y (o_base o)) d) in *.
    replace (y' d - g' - (y d - g)) with ((y' d - y d) + - (g' - g)) by ring.
    eapply Rle_trans; [apply Rabs_triang|]. rewrite Rabs_Ropp. lra. }
  assert (Hend : forall (s s' : vec * vec) E, Rabs (gap_e a' a d s' s) <= E ->
     Rabs (fst s' d - fst s d) <= E + D).
  { intros s s' E H. unfold gap_e in H.
    replace (fst s' d - fst s d)
      with ((fst s' d - a_goal_y a' d - (fst s d - a_goal_y a d)) + (a_goal_y a' d - a_goal_y a d)) by ring.
    eapply Rle_trans; [apply Rabs_triang|]. apply Rplus_le_compat; auto. }
  assert (Hfn : uses_rk4 fn \/ uses_euler fn) by (destruct fn; unfold uses_rk4, uses_euler; auto).
  destruct Hfn as [Hfn|Hfn].
  - destruct (run_seq_rk4 a 0 dt (y, vzero)) as (s & E0 & Es & Er).
    destruct (run_seq_rk4 a' 0 dt (y', vzero)) as (s' & E0' & Es' & Er').
    exists s, s'.
    assert (Efn : forall a, run_step_function fn a = run_step_function RK4 a).
    { intros b. destruct Hfn as [-> | ->]; [reflexivity|].
      apply functional_extensionality; intro. apply functional_extensionality; intro.
      apply functional_extensionality; intro. cbn [run_step_function]. now rewrite rk4_cython_eq. }
    rewrite !Efn. split; auto. split; auto. intros j.
    assert (Ex : al * dt / (2 * tau) = k * dt) by (unfold k; field; lra).
    specialize (Hrk Hfn). cbv zeta in Hrk. fold al tau dt in Hrk. rewrite Ex in Hrk.
    assert (Hx0 : 0 < k * dt) by nra.
    pose proof (rk4_stable_below _ Hrk) as Hx3. pose proof (rk4_factor_stable _ Hx0 Hrk) as HR.
    pose proof (rk4_run_gap a' a d al be tau U TW Ht Hcd Hal dt s' s Hdt Hx3 HR Es' Es j) as HH.
    cbv zeta in HH. fold k in HH. rewrite E0, E0' in HH.
    set (r := Rabs (rk4_factor (k * dt))) in *.
    assert (HE0 : Rabs (gap_e a' a d (y', vzero) (y, vzero)) <= 2 * D) by exact He0.
    assert (HW0 : Rabs (gap_w a' a d al tau (y', vzero) (y, vzero)) <= 2 * k * D).
    { unfold gap_w. cbn [fst snd]. unfold vzero at 1 2. fold k.
      replace (0 - 0 + k * gap_e a' a d (y', vzero) (y, vzero))
        with (k * gap_e a' a d (y', vzero) (y, vzero)) by ring.
      rewrite Rabs_mult, (Rabs_pos_eq k) by lra. nra. }
    set (e0 := Rabs (gap_e a' a d (y', vzero) (y, vzero))) in *.
    set (w0 := Rabs (gap_w a' a d al tau (y', vzero) (y, vzero))) in *.
    apply Hend in HH.
    eapply Rle_trans; [exact HH|].
    replace (lip_constant fn al tau dt) with (rk4_lip al tau dt)
      by (destruct Hfn as [-> | ->]; reflexivity).
    unfold rk4_lip. cbv zeta. fold k. fold r. fold u. change U with (u * D).
    assert (Hir : 0 < / (1 - r)) by (apply Rinv_0_lt_compat; lra).
    unfold Rdiv. set (ir := / (1 - r)) in *.
    assert (H1 : 13 * dt * (w0 + 6 * dt * (u * D) * ir) <= 13 * dt * ((2 * k + 6 * dt * u * ir) * D)).
    { apply Rmult_le_compat_l; [lra|]. nra. }
    assert (H2 : (13 * dt * (w0 + 6 * dt * (u * D) * ir) + 3 * dt ^ 2 * (u * D)) * ir
       <= (13 * dt * ((2 * k + 6 * dt * u * ir) * D) + 3 * dt ^ 2 * (u * D)) * ir).
    { apply Rmult_le_compat_r; lra. }
    lra.
  - destruct (run_seq_euler_twin fn a' a dt (y', vzero) (y, vzero) Hfn) as (s' & s & E0' & E0 & Es & Er' & Er);
      unfold a, a'; cbn [open_loop_step_args a_int_dt a_start_t a_goal_t]; auto;
      try (unfold free; cbn; auto; fail); try (rewrite S3; exact Hi); try (rewrite S1; exact Ht).
    exists s, s'. split; auto. split; auto. intros j.
    specialize (Heu Hfn). fold al tau in Heu.
    assert (Hx : k * a_int_dt a' <= 1 / 2).
    { cbn [a' open_loop_step_args a_int_dt]. rewrite S3. unfold k.
      apply Rmult_le_reg_r with (2 * tau); [lra|].
      replace (al / (2 * tau) * o_int_dt o * (2 * tau)) with (al * o_int_dt o) by (field; lra). lra. }
    pose proof (euler_run_gap a' a d al be tau U TW Ht Hcd Hal dt s' s Hdt Hx Es j) as HH.
    cbv zeta in HH. fold k in HH. rewrite E0, E0' in HH.
    assert (HN0 : gap_norm a' a d al tau (y', vzero) (y, vzero) <= 4 * k * D).
    { unfold gap_norm, euler_norm. fold k. cbn [snd]. unfold vzero at 3 4.
      assert (HE0 : Rabs (gap_e a' a d (y', vzero) (y, vzero)) <= 2 * D) by exact He0.
      set (e := gap_e a' a d (y', vzero) (y, vzero)) in *.
      replace (0 - 0 + k * e) with (k * e) by ring.
      rewrite Rabs_mult, (Rabs_pos_eq k) by lra. apply Rmax_lub; nra. }
    assert (HE : k * Rabs (gap_e a' a d (s' j) (s j)) <= gap_norm a' a d al tau (s' j) (s j)).
    { unfold gap_norm, euler_norm. fold k. eapply Rle_trans; [|apply Rmax_l].
      rewrite Rabs_mult, (Rabs_pos_eq k) by lra. lra. }
    replace (lip_constant fn al tau dt) with (euler_lip al tau dt)
      by (destruct Hfn as [-> | ->]; reflexivity).
    unfold euler_lip. cbv zeta. fold k. fold u. set (q := exp (- (k * dt / 2))) in *.
    replace ((1 + (4 * k + 3 * dt * u / (1 - q)) / k) * D)
      with ((4 * k + 3 * dt * u / (1 - q)) * D / k + D) by (unfold Rdiv; ring).
    apply Hend. apply Rmult_le_reg_l with k; auto.
    eapply Rle_trans; [exact HE|]. eapply Rle_trans; [exact HH|].
    set (X := 4 * k + 3 * dt * u / (1 - q)).
    replace (k * (X * D / k)) with (X * D) by (field; lra).
    unfold X. change U with (u * D). unfold Rdiv. nra.
Qed.

(** ** C95 *)
(** Any two objects with the same settings, whatever happened to them before:
    movements are as close as their data, with a factor that depends on
    integrator, gain and timing only, and not on the length of the movement. *)
Theorem C95_data : exists K : step_function -> R -> R -> R -> R,
  forall fn n n' o o' d D run_t,
  reachable n o -> reachable n' o' -> same_settings o o' ->
  0 < o_execution_time o -> 0 < o_dt o -> 0 < o_int_dt o -> (d < n)%nat -> (d < n')%nat ->
  stable fn o d ->
  aget (o_alpha_y o') d = aget (o_alpha_y o) d -> aget (o_beta_y o') d = aget (o_beta_y o) d ->
  data_within D d o o' ->
  movements_within (K fn (aget (o_alpha_y o) d) (o_execution_time o) (o_dt o) * D) d
    (dmp_open_loop run_t None (Some fn) o) (dmp_open_loop run_t None (Some fn) o').
Proof.
  exists lip_constant. intros fn n n' o o' d D run_t Hr Hr' HS Ht Hdt Hi _ _ Hst Ea Eb HD.
  destruct (states_within fn n n' o o' d D Hr Hr' HS Ht Hdt Hi Hst Ea Eb HD) as (s & s' & E & E' & HB).
  destruct HS as (S1 & S2 & _).
  unfold dmp_open_loop. rewrite S1, S2.
  set (rt := match run_t with Some x => x | None => o_execution_time o end).
  rewrite (open_loop_run_map _ 0 rt (o_dt o) _ _ s E), (open_loop_run_map _ 0 rt (o_dt o) _ _ s' E').
  destruct (arange 0 (rt + o_dt o) (o_dt o)) as [|t ts] eqn:Ea'; [reflexivity|].
  unfold bind, movements_within. cbn [fst snd].
  split; [reflexivity|]. rewrite !map_length, !seq_length. split; [reflexivity|].
  intros k Hk. set (m := length (t :: ts)) in *.
  assert (EN : forall q : nat -> vec * vec, nth k (map fst (map q (seq 0 m))) vzero = fst (q k)).
  { intros q. rewrite map_map. rewrite nth_indep with (d' := fst (q 0%nat)).
    - rewrite (map_nth (fun x => fst (q x))), seq_nth by auto. reflexivity.
    - now rewrite map_length, seq_length. }
  rewrite !EN. apply HB.
Qed.

(** *** Lipschitz functions of one column of a demonstration with [m] steps *)
Definition lip (m : nat) (P : vec -> R) : Prop :=
  exists L, 0 <= L /\ forall y y' D, (forall i, (i < m)%nat -> Rabs (y' i - y i) <= D) -> 0 <= D ->
    Rabs (P y' - P y) <= L * D.

Lemma lip_at m i : (i < m)%nat -> lip m (fun y => y i).
Proof. intros Hi. exists 1. split; [lra|]. intros y y' D H _. rewrite Rmult_1_l. auto. Qed.

Lemma lip_const m c : lip m (fun _ => c).
Proof.
  exists 0. split; [lra|]. intros y y' D _ HD. unfold Rminus. rewrite Rplus_opp_r, Rabs_R0. lra.
Qed.

Lemma lip_plus m P Q : lip m P -> lip m Q -> lip m (fun y => P y + Q y).
Proof.
  intros (L & HL & HP) (M & HM & HQ). exists (L + M). split; [lra|]. intros y y' D H HD.
  replace (P y' + Q y' - (P y + Q y)) with ((P y' - P y) + (Q y' - Q y)) by ring.
  eapply Rle_trans; [apply Rabs_triang|]. specialize (HP y y' D H HD). specialize (HQ y y' D H HD). lra.
Qed.

Lemma lip_scal m c P : lip m P -> lip m (fun y => c * P y).
Proof.
  intros (L & HL & HP). exists (Rabs c * L). split; [apply Rmult_le_pos; auto; apply Rabs_pos|].
  intros y y' D H HD. rewrite <- Rmult_minus_distr_l, Rabs_mult, Rmult_assoc.
  apply Rmult_le_compat_l; [apply Rabs_pos|]. auto.
Qed.

Lemma lip_ext m P Q : (forall y, P y = Q y) -> lip m P -> lip m Q.
Proof. intros H (L & HL & HP). exists L. split; auto. intros. rewrite <- !H. auto. Qed.

Lemma lip_minus m P Q : lip m P -> lip m Q -> lip m (fun y => P y - Q y).
Proof.
  intros HP HQ. apply (lip_ext _ (fun y => P y + (-1) * Q y)); [intros; ring|].
  apply lip_plus; auto. now apply lip_scal.
Qed.

Lemma lip_rsum m n (P : nat -> vec -> R) : (forall t, (t < n)%nat -> lip m (P t)) ->
  lip m (fun y => rsum n (fun t => P t y)).
Proof.
  induction n as [|n IH]; intros H; [apply (lip_const m 0)|]. cbn [rsum].
  apply lip_plus; auto.
Qed.

Lemma lip_family m n (P : nat -> vec -> R) : (forall i, (i < n)%nat -> lip m (P i)) ->
  exists L, 0 <= L /\ forall i, (i < n)%nat ->
    forall y y' D, (forall i, (i < m)%nat -> Rabs (y' i - y i) <= D) -> 0 <= D ->
    Rabs (P i y' - P i y) <= L * D.
Proof.
  induction n as [|n IH]; intros H; [exists 0; split; [lra|]; intros; lia|].
  destruct IH as (L & HL & HP); [auto|]. destruct (H n) as (M & HM & HQ); [lia|].
  exists (L + M). split; [lra|]. intros i Hi y y' D Hy HD.
  destruct (Nat.eq_dec i n) as [->|].
  - specialize (HQ y y' D Hy HD). nra.
  - specialize (HP i ltac:(lia) y y' D Hy HD). nra.
Qed.

Lemma lip_gradient m (P : nat -> vec -> R) t : (2 <= m)%nat -> (t < m)%nat ->
  (forall i, (i < m)%nat -> lip m (P i)) ->
  lip m (fun y => np_gradient m (fun k => P k y) t).
Proof.
  intros Hm Ht H. unfold np_gradient.
  destruct (Nat.eqb_spec t 0); [apply lip_minus; apply H; lia|].
  destruct (Nat.eqb_spec t (m - 1)); [apply lip_minus; apply H; lia|].
  apply (lip_ext _ (fun y => / 2 * (P (t + 1)%nat y - P (t - 1)%nat y))); [intros; field|].
  apply lip_scal, lip_minus; apply H; lia.
Qed.

(** The force at step [t] as a function of the positions in dimension [d]. *)
Definition force_of m T al be az allow sm (d t : nat) (y : vec) : R :=
  match determine_forces m T (fun k _ => y k) al be az allow sm with
  | Ok df => df_F df t d
  | Err _ => 0
  end.

Lemma force_of_eq m T Y al be az allow sm df t d :
  determine_forces m T Y al be az allow sm = Ok df ->
  df_F df t d = force_of m T al be az allow sm d t (fun k => Y k d).
Proof.
  unfold force_of, determine_forces. destruct (Nat.ltb m 2); [discriminate|].
  intros E. injection E as <-. reflexivity.
Qed.

Lemma lip_forces m T al be az allow sm d t : (2 <= m)%nat -> (t < m)%nat ->
  lip m (force_of m T al be az allow sm d t).
Proof.
  intros Hm Ht.
  set (V := fun t (y : vec) => demo_velocity m T (fun k _ => y k) allow t d).
  assert (HV : forall t, (t < m)%nat -> lip m (V t)).
  { intros j Hj. unfold V, demo_velocity. destruct (_ && _)%bool; [apply lip_const|].
    apply (lip_ext _ (fun y => / np_gradient m T j * np_gradient m (fun k => y k) j));
      [intros; unfold Rdiv; ring|].
    apply lip_scal. apply (lip_gradient m (fun k y => y k)); auto. intros; now apply lip_at. }
  set (A := fun y : vec => demo_acceleration m T (demo_velocity m T (fun k _ => y k) allow) t d).
  assert (HA : lip m A).
  { unfold A, demo_acceleration. destruct (Nat.eqb t (m - 1)); [apply lip_const|].
    apply (lip_ext _ (fun y => / np_gradient m T t * np_gradient m (fun k => V k y) t));
      [intros; unfold Rdiv; rewrite Rmult_comm; reflexivity|].
    apply lip_scal, lip_gradient; auto. }
  set (S := fun y : vec => if sm then be d * (y (m - 1)%nat - y 0%nat)
                 * phase (T t) az (T (m - 1)%nat) (T 0%nat) else 0).
  assert (HS : lip m S).
  { unfold S. destruct sm; [|apply lip_const].
    set (z := phase _ _ _ _). apply (lip_ext _ (fun y => (be d * z) * (y (m - 1)%nat - y 0%nat)));
      [intros; ring|].
    apply lip_scal, lip_minus; apply lip_at; lia. }
  set (tau := T (m - 1)%nat - T 0%nat).
  apply (lip_ext _ (fun y => tau ^ 2 * A y - al d * (be d * (y (m - 1)%nat - y t) - V t y * tau - S y))).
  - intros y. unfold force_of, determine_forces. destruct (Nat.ltb_spec m 2); [lia|]. reflexivity.
  - apply lip_minus; [now apply lip_scal|]. apply lip_scal. apply lip_minus; auto. apply lip_minus.
    + apply lip_scal, lip_minus; apply lip_at; lia.
    + apply (lip_ext _ (fun y => tau * V t y)); [intros; ring|]. apply lip_scal; auto.
Qed.

(** *** Demonstrations *)
Lemma imitate_reachable n o junk dm lam allow : reachable n o -> reachable n (imitate junk dm lam allow o).
Proof.
  intros H. pose proof (reachable_exec n (CImitate junk ridge_regression dm lam allow) o H) as H1.
  unfold imitate. cbn [exec] in H1. destruct (dmp_imitate_method _ _ _ _ _ _). exact H1.
Qed.

Lemma movements_within_trans E E' d r r' r'' :
  movements_within E d r r' -> movements_within E' d r' r'' -> movements_within (E + E') d r r''.
Proof.
  unfold movements_within. destruct r as [[ts ys]|e], r' as [[ts' ys']|e'], r'' as [[ts'' ys'']|e''];
    try tauto; [|congruence].
  intros (-> & L & H) (-> & L' & H'). split; auto. split; [congruence|]. intros k Hk.
  specialize (H k Hk). specialize (H' k ltac:(lia)).
  replace (nth k ys'' vzero d - nth k ys vzero d)
    with ((nth k ys' vzero d - nth k ys vzero d) + (nth k ys'' vzero d - nth k ys' vzero d)) by ring.
  eapply Rle_trans; [apply Rabs_triang|]. lra.
Qed.

Lemma junk_irrelevant n o d junk junk' dm lam allow fn run_t :
  reachable n o -> 0 < o_int_dt o -> 0 <= lam -> demonstrates n dm -> (d < n)%nat ->
  movements_within 0 d (dmp_open_loop run_t None fn (imitate junk dm lam allow o))
    (dmp_open_loop run_t None fn (imitate junk' dm lam allow o)).
Proof.
  intros Hr Hi Hlam Hd Hdn.
  pose proof (C91_dimensions n n o o d junk junk' dm dm lam allow fn run_t Hr Hr) as H.
  assert (HS : same_settings o o) by (unfold same_settings; repeat split).
  specialize (H HS Hi Hlam Hd Hd Hdn Hdn eq_refl eq_refl eq_refl (fun _ => eq_refl) (fun _ _ => eq_refl)).
  unfold movements_within.
  destruct (dmp_open_loop run_t None fn (imitate junk dm lam allow o)) as [[ts ys]|],
    (dmp_open_loop run_t None fn (imitate junk' dm lam allow o)) as [[ts' ys']|]; auto.
  destruct H as (-> & L & H). split; auto. split; auto. intros k Hk. rewrite H by auto.
  unfold Rminus. rewrite Rplus_opp_r, Rabs_R0. lra.
Qed.

(** If movements are as close as start, goal and weights up to the factor [K0], then
    learned movements are as close as the demonstrations up to some factor. *)
Lemma demonstrations_within n o fn d m T lam allow K0 :
  (forall o1 o2 D run_t, reachable n o1 -> reachable n o2 -> same_settings o o1 -> same_settings o1 o2 ->
     o_alpha_y o1 = o_alpha_y o -> o_beta_y o1 = o_beta_y o -> o_alpha_y o2 = o_alpha_y o -> o_beta_y o2 = o_beta_y o ->
     data_within D d o1 o2 ->
     movements_within (K0 * D) d (dmp_open_loop run_t None (Some fn) o1) (dmp_open_loop run_t None (Some fn) o2)) ->
  reachable n o -> 0 < o_int_dt o -> (d < n)%nat ->
  0 <= lam -> (2 <= m)%nat -> (forall t, (S t < m)%nat -> T t < T (S t)) ->
  exists K, forall junk junk' dm dm' D run_t,
  demonstrates n dm -> demonstrates n dm' -> d_n dm = m -> d_n dm' = m ->
  (forall t, d_T dm t = T t) -> (forall t, d_T dm' t = T t) ->
  (forall t, (t < m)%nat -> Rabs (d_Y dm' t d - d_Y dm t d) <= D) ->
  movements_within (K * D) d
    (dmp_open_loop run_t None (Some fn) (imitate junk dm lam allow o))
    (dmp_open_loop run_t None (Some fn) (imitate junk' dm' lam allow o)).
Proof.
  intros HK0 Hr Hi Hd Hlam Hm HT.
  set (j0 := (vzero, vzero)).
  assert (HT0 : T 0%nat < T (m - 1)%nat).
  { assert (G : forall k, (0 < k)%nat -> (k < m)%nat -> T 0%nat < T k).
    { induction k as [|k IH]; intros H0 Hk; [lia|]. destruct (Nat.eq_dec k 0) as [->|]; [auto|].
      apply Rlt_trans with (T k); [apply IH; lia|auto]. }
    apply G; lia. }
  set (dm0 := {| d_n := m; d_T := T; d_rows := m; d_dims := n; d_Y := fun _ => vzero |}).
  assert (Hd0 : demonstrates n dm0) by (unfold demonstrates; cbn; auto).
  destruct (imitated n o j0 dm0 lam allow Hr Hlam Hd0) as (f & _ & _ & _ & Ef & _).
  cbn [dm0 d_n d_T] in Ef.
  set (al := aget (o_alpha_y o)) in *. set (be := aget (o_beta_y o)) in *.
  set (sm := o_smooth_scaling o) in *. set (nw := o_n_weights_per_dim o) in *.
  set (X := design_matrix f T (m - 1)).
  set (W := fun (i : nat) (y : vec) => ridge_regression nw m X
     (fun t _ => force_of m T al be (- ln (1/100)) allow sm d t y) lam d i).
  destruct (lip_family m nw W) as (L & HL & HW).
  { intros i Hin. unfold W, ridge_regression, mT, mmul at 1. apply lip_rsum. intros t Ht.
    apply lip_scal. now apply lip_forces. }
  exists (K0 * (1 + L)).
  intros junk junk' dm dm' D run_t Hdm Hdm' En En' ET ET' HY.
  assert (HD : 0 <= D) by (eapply Rle_trans; [apply Rabs_pos|apply (HY 0%nat); lia]).
  assert (EV : forall q, demonstrates n q -> d_n q = m -> (forall t, d_T q t = T t) ->
     let o1 := imitate j0 q lam allow o in
     o_execution_time o1 = o_execution_time o /\ o_dt o1 = o_dt o /\ o_int_dt o1 = o_int_dt o
     /\ o_n_weights_per_dim o1 = nw /\ o_smooth_scaling o1 = sm
     /\ ft_goal_t (o_forcing_term o1) = ft_goal_t (o_forcing_term o)
     /\ o_alpha_y o1 = o_alpha_y o /\ o_beta_y o1 = o_beta_y o
     /\ aget (p_start_y (o_base o1)) d = d_Y q 0%nat d
     /\ aget (p_goal_y (o_base o1)) d = d_Y q (m - 1)%nat d
     /\ forall i, ft_weights (o_forcing_term o1) d i = W i (fun k => d_Y q k d)).
  { intros q Hq Eq ETq o1.
    assert (ETf : d_T q = T) by (apply functional_extensionality; auto).
    destruct (imitated n o j0 q lam allow Hr Hlam Hq) as (g & df & _ & Edf & Eg & Ew & w & Eo).
    rewrite Eq, ETf in Edf, Eg, Ew. fold al be sm in Edf. fold nw in Ew, Eg.
    assert (g = f) by congruence. subst g. fold X in Ew.
    unfold o1. rewrite Eo at 1 2 3 4 5 6 7 8 9 10. cbn. rewrite Eq.
    repeat (split; [reflexivity|]). intros i. rewrite Ew by auto. unfold W.
    unfold ridge_regression, mT, mmul. apply rsum_ext. intros t Ht. f_equal.
    now apply force_of_eq. }
  destruct (EV dm Hdm En ET) as (A1 & A2 & A3 & A4 & A5 & A6 & A7 & A8 & A9 & A10 & A11).
  destruct (EV dm' Hdm' En' ET') as (B1 & B2 & B3 & B4 & B5 & B6 & B7 & B8 & B9 & B10 & B11).
  pose proof (junk_irrelevant n o d junk j0 dm lam allow (Some fn) run_t Hr Hi Hlam Hdm Hd) as J1.
  pose proof (junk_irrelevant n o d j0 junk' dm' lam allow (Some fn) run_t Hr Hi Hlam Hdm' Hd) as J2.
  set (o1 := imitate j0 dm lam allow o) in *. set (o2 := imitate j0 dm' lam allow o) in *.
  assert (HM : movements_within (K0 * ((1 + L) * D)) d
     (dmp_open_loop run_t None (Some fn) o1) (dmp_open_loop run_t None (Some fn) o2)).
  { apply HK0; auto; try (apply imitate_reachable; auto).
    - unfold same_settings. unfold nw, sm in A4, A5. repeat split; congruence.
    - unfold same_settings. repeat split; congruence.
    - assert (HLD : D <= (1 + L) * D) by nra.
      unfold data_within. rewrite A9, A10, B9, B10.
      split; [eapply Rle_trans; [apply HY; lia|auto]|].
      split; [eapply Rle_trans; [apply HY; lia|auto]|].
      intros i Hin. rewrite A4 in Hin. rewrite A11, B11.
      eapply Rle_trans; [apply (HW i Hin _ _ D); auto|]. nra. }
  pose proof (movements_within_trans _ _ _ _ _ _ (movements_within_trans _ _ _ _ _ _ J1 HM) J2) as H.
  replace (K0 * (1 + L) * D)
    with (0 + K0 * ((1 + L) * D) + 0) by ring.
  exact H.
Qed.

(** Small errors in demonstrations (at the same times) cause small changes of
    the learned movement: the factor depends on the object, the times and the
    regularization coefficient, and not on the demonstrated positions nor on
    the length of the movement. *)
Theorem C95_demonstrations : forall n o fn d m T lam allow,
  reachable n o -> 0 < o_execution_time o -> 0 < o_dt o -> 0 < o_int_dt o -> (d < n)%nat ->
  stable fn o d -> 0 <= lam -> (2 <= m)%nat -> (forall t, (S t < m)%nat -> T t < T (S t)) ->
  exists K, forall junk junk' dm dm' D run_t,
  demonstrates n dm -> demonstrates n dm' -> d_n dm = m -> d_n dm' = m ->
  (forall t, d_T dm t = T t) -> (forall t, d_T dm' t = T t) ->
  (forall t, (t < m)%nat -> Rabs (d_Y dm' t d - d_Y dm t d) <= D) ->
  movements_within (K * D) d
    (dmp_open_loop run_t None (Some fn) (imitate junk dm lam allow o))
    (dmp_open_loop run_t None (Some fn) (imitate junk' dm' lam allow o)).
Proof.
  intros n o fn d m T lam allow Hr Hx Hdt Hi Hd Hst Hlam Hm HT.
  destruct C95_data as [K0 HK0].
  apply (demonstrations_within n o fn d m T lam allow (K0 fn (aget (o_alpha_y o) d) (o_execution_time o) (o_dt o))); auto.
  intros o1 o2 D run_t Hr1 Hr2 HS HS' A1 B1 A2 B2 HD.
  pose proof HS as (S1 & S2 & S3 & S4 & S5 & S6).
  rewrite <- A1, <- S1, <- S2. apply (HK0 fn n n); auto; try congruence.
  destruct Hst as (H1 & H2 & H3 & H4). unfold stable. rewrite A1, B1, S1, S2, S3. auto.
Qed.

(** Two DMPs with the default gains and one weight that differs by 1/10, and
    two demonstrations that differ by 1/100. *)
Example C95_satisfiable : exists o o', reachable 1 o /\ reachable 1 o' /\ same_settings o o'
  /\ 0 < o_execution_time o /\ 0 < o_dt o /\ 0 < o_int_dt o
  /\ stable RK4 o 0 /\ stable Euler o 0
  /\ aget (o_alpha_y o') 0%nat = aget (o_alpha_y o) 0%nat
  /\ aget (o_beta_y o') 0%nat = aget (o_beta_y o) 0%nat
  /\ data_within (1/10) 0 o o'
  /\ ft_weights (o_forcing_term o') 0%nat 1%nat = ft_weights (o_forcing_term o) 0%nat 1%nat + 1/10
  /\ let dm := fun x => {| d_n := 3; d_T := INR; d_rows := 3; d_dims := 1; d_Y := fun t _ => INR t + x |} in
     demonstrates 1 (dm 0) /\ demonstrates 1 (dm (1/100))
     /\ forall t, Rabs (d_Y (dm (1/100)) t 0%nat - d_Y (dm 0) t 0%nat) <= 1/100.
Proof.
  destruct (ex_new_ok 1 25 (25/4)) as (f & o & E & Ef & Eo).
  assert (Hr : reachable 1 o) by (eapply ex_reachable; eauto).
  pose proof (forcing_term_init_n _ _ _ _ _ _ _ _ Ef) as (N & G & _).
  set (w := {| alen := 2; aget := fun k => if Nat.eqb k 1 then ft_weights f 0%nat 1%nat + 1/10
                                          else ft_weights f 0%nat 0%nat |}).
  set (o' := fst (exec (CSetWeights w) o)).
  assert (Hr' : reachable 1 o') by now apply reachable_exec.
  exists o, o'. split; auto. split; auto.
  assert (E' : o' = with_forcing_term (o_forcing_term o') o /\
     ft_goal_t (o_forcing_term o') = ft_goal_t f /\
     (ft_weights (o_forcing_term o') 0%nat 0%nat = ft_weights f 0%nat 0%nat) /\
     (ft_weights (o_forcing_term o') 0%nat 1%nat = ft_weights f 0%nat 1%nat + 1/10)).
  { unfold o'. rewrite Eo. cbn [exec]. unfold dmp_set_weights, reshape. cbn. rewrite N. cbn. repeat split. }
  destruct E' as (E1 & E2 & E3 & E4). clearbody o'.
  split; [rewrite E1, Eo; unfold same_settings; cbn; repeat split; auto|].
  split; [rewrite Eo; cbn; lra|]. split; [rewrite Eo; cbn; lra|]. split; [rewrite Eo; cbn; lra|].
  split; [rewrite Eo; unfold stable; cbn; repeat split; intros; unfold uses_rk4, uses_euler in *; lra|].
  split; [rewrite Eo; unfold stable; cbn; repeat split; intros; unfold uses_rk4, uses_euler in *; lra|].
  split; [rewrite E1, Eo; reflexivity|]. split; [rewrite E1, Eo; reflexivity|].
  split.
  { split; [|split].
    - rewrite E1, Eo. cbn. unfold Rminus. rewrite Rplus_opp_r, Rabs_R0. lra.
    - rewrite E1, Eo. cbn. unfold Rminus. rewrite Rplus_opp_r, Rabs_R0. lra.
    - rewrite Eo. cbn [o_n_weights_per_dim o_forcing_term]. intros [|[|i]] Hi; [| |lia].
      + rewrite E3. unfold Rminus. rewrite Rplus_opp_r, Rabs_R0. lra.
      + rewrite E4. match goal with |- Rabs (?a + ?b - ?a) <= _ => replace (a + b - a) with b by ring end.
        rewrite Rabs_pos_eq; lra. }
  split; [rewrite Eo; exact E4|].
  split; [unfold demonstrates; cbn; repeat split; lra|].
  split; [unfold demonstrates; cbn; repeat split; lra|].
  intros t. cbn. match goal with |- Rabs (?a + ?b - (?a + ?c)) <= _ => replace (a + b - (a + c)) with b by ring end.
  rewrite Rabs_pos_eq; lra.
Qed.
