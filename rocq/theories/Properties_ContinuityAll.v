(** C95 for all gains: movements depend continuously on start, goal, weights and
    demonstrations whenever the steps of the integrator make the motions of the
    spring smaller (the exact condition of C100).  Final statements. *)
From Coq Require Import Reals ZArith List Lia Lra Psatz FunctionalExtensionality.
From Verif Require Import M_Prelude M_Canonical M_Forcing M_Dmp M_Base M_Matrix M_DmpObject M_Ridge
  S_Loops S_Dmp S_Stability P_Loops P_Canonical P_Forcing P_DmpStep P_DmpScale P_DmpLinear P_Converge
  P_DmpObject P_DmpAffine P_Disturbed P_Continuity P_Stability P_Bounded Properties_Forcing Properties_Dmp
  Properties_DmpObject Properties_Goal Properties_Equivariance Properties_Continuity Properties_Stability.
Import ListNotations.
Open Scope R_scope.
Set Bullet Behavior "Strict Subproofs".

(** ** Specification *)
(** Both objects have the gains of [o] in dimension [d]. *)
Definition gains_like (o : dmp) (d : nat) (o' : dmp) : Prop :=
  aget (o_alpha_y o') d = aget (o_alpha_y o) d /\ aget (o_beta_y o') d = aget (o_beta_y o) d.

(** ** Proofs *)
Lemma twins_all n n' o o' d D : reachable n o -> reachable n' o' -> same_settings o o' ->
  0 < o_execution_time o ->
  aget (o_alpha_y o') d = aget (o_alpha_y o) d -> aget (o_beta_y o') d = aget (o_beta_y o) d ->
  data_within D d o o' ->
  twin_args (open_loop_step_args o' None) (open_loop_step_args o None) d (aget (o_alpha_y o) d)
    (aget (o_beta_y o) d) (o_execution_time o)
    ((1 + 2 * Rabs (aget (o_alpha_y o) d * aget (o_beta_y o) d)) / o_execution_time o ^ 2 * D).
Proof.
  intros Hr Hr' HS Ht Ea Eb (HY & HG & HW).
  destruct (settings_basis n n' o o' Hr Hr' HS) as (N & N' & HP & HB).
  pose proof HS as (S1 & S2 & S3 & S4 & S5 & S6).
  assert (HD : 0 <= D) by (eapply Rle_trans; [apply Rabs_pos|exact HY]).
  split; cbn [open_loop_step_args a_start_t a_goal_t a_alpha_y a_beta_y a_int_dt a_forcing_term]; auto.
  - split; unfold free; cbn; auto.
  - intros t Htt. rewrite HP.
    pose proof (phase_le_1 n o t Hr Htt) as Hz1. pose proof (ft_phase_pos (o_forcing_term o) t) as Hz0.
    set (z := ft_phase (o_forcing_term o) t) in *. clearbody z.
    assert (EF : ft_forces (o_forcing_term o') z d - ft_forces (o_forcing_term o) z d
                 = ft_forces (set_ft_weights (fun d i => ft_weights (o_forcing_term o') d i
                      - ft_weights (o_forcing_term o) d i) (o_forcing_term o)) z d).
    { unfold ft_forces. cbn [set_ft_weights ft_n ft_weights ft_centers ft_widths]. rewrite N', N.
      rewrite <- Rmult_minus_distr_l, <- rsum_minus. f_equal. apply rsum_ext. intros i Hi.
      rewrite (activations_ext _ _ _ _ _ z i Hi HB). ring. }
    assert (HF : Rabs (ft_forces (o_forcing_term o') z d - ft_forces (o_forcing_term o) z d) <= D).
    { rewrite EF. eapply Rle_trans; [apply ft_forces_bound with (M := D)|].
      - cbn. apply (reachable_phase_ok n o Hr).
      - cbn. rewrite N. exact HW.
      - rewrite Rabs_pos_eq by lra. nra. }
    assert (Et2 : 0 < o_execution_time o ^ 2) by (apply pow_lt; lra).
    set (ab := aget (o_alpha_y o) d * aget (o_beta_y o) d).
    replace ((1 + 2 * Rabs ab) / o_execution_time o ^ 2 * D)
      with ((1 + 2 * Rabs ab) * D / o_execution_time o ^ 2) by (field; lra).
    apply Rmult_le_compat_r; [apply Rlt_le, Rinv_0_lt_compat; lra|].
    unfold disturbance. cbn [open_loop_step_args a_forcing_term a_smooth_scaling a_alpha_y a_beta_y
      a_goal_y a_start_y]. rewrite S5, Ea, Eb. fold ab.
    set (F' := ft_forces (o_forcing_term o') z d) in *. set (F := ft_forces (o_forcing_term o) z d) in *.
    set (y' := aget (p_start_y (o_base o')) d) in *. set (y := aget (p_start_y (o_base o)) d) in *.
    set (g' := aget (p_goal_y (o_base o')) d) in *. set (g := aget (p_goal_y (o_base o)) d) in *.
    clearbody F F' y y' g g' ab. pose proof (Rabs_pos ab) as Hab.
    destruct (o_smooth_scaling o).
    + replace (F' - ab * (g' - y') * z - (F - ab * (g - y) * z))
        with ((F' - F) + - (ab * (((g' - g) - (y' - y)) * z))) by ring.
      eapply Rle_trans; [apply Rabs_triang|]. rewrite Rabs_Ropp, (Rabs_mult ab).
      rewrite Rabs_mult, (Rabs_pos_eq z) by lra.
      assert (Hgy : Rabs (g' - g - (y' - y)) <= 2 * D).
      { unfold Rminus at 1. eapply Rle_trans; [apply Rabs_triang|]. rewrite Rabs_Ropp. lra. }
      assert (H1 : Rabs (g' - g - (y' - y)) * z <= 2 * D * 1)
        by (apply Rmult_le_compat; try apply Rabs_pos; lra).
      apply Rle_trans with (D + Rabs ab * (2 * D * 1)).
      * apply Rplus_le_compat; auto. apply Rmult_le_compat_l; lra.
      * apply Req_le. ring.
    + replace (F' - 0 - (F - 0)) with (F' - F) by ring. nra.
Qed.

Lemma three_inputs c0 c1 c2 x0 x1 x2 U : Rabs x0 <= U -> Rabs x1 <= U -> Rabs x2 <= U ->
  Rabs (c0 * x0 + c1 * x1 + c2 * x2) <= (Rabs c0 + Rabs c1 + Rabs c2) * U.
Proof.
  intros H0 H1 H2. eapply Rle_trans; [apply Rabs_triang|]. rewrite !Rmult_plus_distr_r.
  apply Rplus_le_compat; [eapply Rle_trans; [apply Rabs_triang|]; apply Rplus_le_compat|];
    rewrite Rabs_mult; apply Rmult_le_compat_l; auto; apply Rabs_pos.
Qed.

(** Two runs of RK4 stay close. *)
Lemma twin_rk4 dt al be tau : 0 < tau -> 0 < dt -> rk4_shrinks dt (al / tau) (al * be / tau ^ 2) ->
  exists K, 0 <= K /\ forall a1 a2 d U E s1 s2,
  twin_args a1 a2 d al be tau U ->
  (forall k, s1 (S k) = dmp_step_rk4 a1 (0 + INR k * dt) (0 + INR (S k) * dt) (s1 k)) ->
  (forall k, s2 (S k) = dmp_step_rk4 a2 (0 + INR k * dt) (0 + INR (S k) * dt) (s2 k)) ->
  Rabs (gap_e a1 a2 d (s1 0%nat) (s2 0%nat)) <= E -> Rabs (snd (s1 0%nat) d - snd (s2 0%nat) d) <= E ->
  forall k, Rabs (gap_e a1 a2 d (s1 k) (s2 k)) <= K * (E + U)
    /\ Rabs (snd (s1 k) d - snd (s2 k) d) <= K * (E + U).
Proof.
  intros Ht Hdt Hsh. set (c := al / tau) in *. set (kk := al * be / tau ^ 2) in *.
  destruct (rk4_bounded dt c kk Hsh) as (K & HK & H).
  set (p0 := dt ^ 2 / 6 * (1 - dt * c / 2 + ((dt * c) ^ 2 - dt ^ 2 * kk) / 4)).
  set (p1 := dt ^ 2 / 6 * (2 - dt * c / 2)).
  set (q0 := dt / 6 * (1 - dt * c + ((dt * c) ^ 2 - dt ^ 2 * kk) / 2
                + (2 * (dt * c) * (dt ^ 2 * kk) - (dt * c) ^ 3) / 4)).
  set (q1 := dt / 6 * (4 - 2 * (dt * c) + ((dt * c) ^ 2 - dt ^ 2 * kk) / 2)).
  set (q2 := dt / 6).
  set (M := 1 + (Rabs p0 + Rabs p1 + Rabs 0) + (Rabs q0 + Rabs q1 + Rabs q2)).
  pose proof (Rabs_pos p0). pose proof (Rabs_pos p1). pose proof (Rabs_pos 0). pose proof (Rabs_pos q0).
  pose proof (Rabs_pos q1). pose proof (Rabs_pos q2).
  exists (K * M). split; [apply Rmult_le_pos; unfold M; lra|].
  intros a1 a2 d U E s1 s2 TW R1 R2 HE HV j.
  assert (HE0 : 0 <= E) by (eapply Rle_trans; [apply Rabs_pos|exact HE]).
  assert (HU0 : 0 <= U) by (eapply Rle_trans; [apply Rabs_pos|apply (dist_gap a1 a2 d al be tau U TW Ht 0); lra]).
  pose proof (tw_free _ _ _ _ _ _ _ TW) as [F1 F2]. pose proof (tw_start _ _ _ _ _ _ _ TW) as [T1 T2].
  pose proof (tw_goal_t _ _ _ _ _ _ _ TW) as [G1 G2]. pose proof (tw_alpha _ _ _ _ _ _ _ TW) as [A1 A2].
  pose proof (tw_beta _ _ _ _ _ _ _ TW) as [B1 B2].
  set (u := fun a t => disturbance a (ft_phase (a_forcing_term a) t) d / tau ^ 2).
  set (tm := fun k => 0 + INR (S k) * dt).
  assert (Htm : forall k, 0 <= tm k) by (intro; unfold tm; pose proof (pos_INR (S k)); nra).
  assert (Hu : forall t, 0 <= t -> Rabs (u a1 t - u a2 t) <= U)
    by (intros; apply (dist_gap a1 a2 d al be tau U TW Ht); auto).
  assert (Hone : forall a s, (a = a1 \/ a = a2) ->
     (forall k, s (S k) = dmp_step_rk4 a (0 + INR k * dt) (0 + INR (S k) * dt) (s k)) ->
     forall k, let e := fst (s k) d - a_goal_y a d in let v := snd (s k) d in
     let x0 := u a (tm k) in let x1 := u a (tm k + / 2 * dt) in let x2 := u a (tm k + dt) in
     fst (s (S k)) d - a_goal_y a d = ra dt c kk * e + rb dt c kk * dt * v + (p0 * x0 + p1 * x1 + 0 * x2)
     /\ snd (s (S k)) d = - rb dt c kk * dt * kk * e + (ra dt c kk - rb dt c kk * dt * c) * v
          + (q0 * x0 + q1 * x1 + q2 * x2)).
  { intros a s Ha Rs k. cbv zeta. rewrite Rs. destruct (s k) as [y v].
    assert (Fa : free a) by (destruct Ha as [-> | ->]; auto).
    assert (Ga : a_goal_t a - a_start_t a = tau) by (destruct Ha as [-> | ->]; lra).
    assert (Da : damping a d = c).
    { unfold damping. rewrite Ga. destruct Ha as [-> | ->]; [rewrite A1|rewrite A2]; reflexivity. }
    assert (Ka : stiffness a d = kk).
    { unfold stiffness. rewrite Ga. destruct Ha as [-> | ->]; [rewrite A1, B1|rewrite A2, B2]; reflexivity. }
    pose proof (rk4_two a (0 + INR k * dt) (0 + INR (S k) * dt) y v d Fa ltac:(lra)) as Z.
    cbv zeta in Z. rewrite Da, Ka, Ga in Z.
    replace (0 + INR (S k) * dt - (0 + INR k * dt)) with dt in Z by (rewrite S_INR; ring).
    exact Z. }
  pose proof (Hone a1 s1 (or_introl eq_refl) R1) as O1.
  pose proof (Hone a2 s2 (or_intror eq_refl) R2) as O2. clear Hone.
  assert (HB : forall x, x <= M * (E + U) -> x <= M * (E + U)) by auto.
  assert (Hin : forall k, Rabs (u a1 (tm k) - u a2 (tm k)) <= U
     /\ Rabs (u a1 (tm k + / 2 * dt) - u a2 (tm k + / 2 * dt)) <= U
     /\ Rabs (u a1 (tm k + dt) - u a2 (tm k + dt)) <= U).
  { intros k. specialize (Htm k). repeat split; apply Hu; lra. }
  rewrite !Rmult_assoc.
  apply (H (fun k => gap_e a1 a2 d (s1 k) (s2 k)) (fun k => snd (s1 k) d - snd (s2 k) d)
    (fun k => p0 * (u a1 (tm k) - u a2 (tm k)) + p1 * (u a1 (tm k + / 2 * dt) - u a2 (tm k + / 2 * dt))
              + 0 * (u a1 (tm k + dt) - u a2 (tm k + dt)))
    (fun k => q0 * (u a1 (tm k) - u a2 (tm k)) + q1 * (u a1 (tm k + / 2 * dt) - u a2 (tm k + / 2 * dt))
              + q2 * (u a1 (tm k + dt) - u a2 (tm k + dt)))
    (M * (E + U))).
  - intros k. unfold gap_e. destruct (O1 k) as [-> _]. destruct (O2 k) as [-> _]. ring.
  - intros k. unfold gap_e. destruct (O1 k) as [_ ->]. destruct (O2 k) as [_ ->]. ring.
  - eapply Rle_trans; [exact HE|]. unfold M. nra.
  - eapply Rle_trans; [exact HV|]. unfold M. nra.
  - intros k. destruct (Hin k) as (I0 & I1 & I2). eapply Rle_trans; [apply three_inputs; eauto|].
    unfold M. nra.
  - intros k. destruct (Hin k) as (I0 & I1 & I2). eapply Rle_trans; [apply three_inputs; eauto|].
    unfold M. nra.
Qed.

(** Two runs of Euler with the same sub-steps stay close. *)
Lemma twin_euler h al be tau : 0 < tau -> 0 < h -> euler_shrinks h (al / tau) (al * be / tau ^ 2) ->
  exists K, 0 <= K /\ forall a1 a2 d U E x1 x2,
  twin_args a1 a2 d al be tau U ->
  Rabs (gap_e a1 a2 d x1 x2) <= E -> Rabs (snd x1 d - snd x2 d) <= E ->
  forall j, Rabs (gap_e a1 a2 d (substates a1 0 h x1 j) (substates a2 0 h x2 j)) <= K * (E + U)
    /\ Rabs (snd (substates a1 0 h x1 j) d - snd (substates a2 0 h x2 j) d) <= K * (E + U).
Proof.
  intros Ht Hh Hsh. set (c := al / tau) in *. set (kk := al * be / tau ^ 2) in *.
  destruct (euler_bounded h c kk Hsh) as (K & HK & H).
  exists K. split; auto. intros a1 a2 d U E x1 x2 TW HE HV.
  assert (HE0 : 0 <= E) by (eapply Rle_trans; [apply Rabs_pos|exact HE]).
  assert (HU0 : 0 <= U) by (eapply Rle_trans; [apply Rabs_pos|apply (dist_gap a1 a2 d al be tau U TW Ht 0); lra]).
  pose proof (tw_free _ _ _ _ _ _ _ TW) as [F1 F2]. pose proof (tw_start _ _ _ _ _ _ _ TW) as [T1 T2].
  pose proof (tw_goal_t _ _ _ _ _ _ _ TW) as [G1 G2]. pose proof (tw_alpha _ _ _ _ _ _ _ TW) as [A1 A2].
  pose proof (tw_beta _ _ _ _ _ _ _ TW) as [B1 B2].
  set (u := fun a t => disturbance a (ft_phase (a_forcing_term a) t) d / tau ^ 2).
  set (r1 := substates a1 0 h x1). set (r2 := substates a2 0 h x2).
  assert (Hone : forall a x, (a = a1 \/ a = a2) -> forall k, let s := substates a 0 h x in
     snd (s (S k)) d = snd (s k) d + h * (- kk * (fst (s k) d - a_goal_y a d) - c * snd (s k) d
        + u a (0 + INR (S k) * h))
     /\ fst (s (S k)) d - a_goal_y a d = (fst (s k) d - a_goal_y a d) + h * snd (s (S k)) d).
  { intros a x Ha k. cbv zeta.
    assert (Fa : free a) by (destruct Ha as [-> | ->]; auto).
    assert (Ga : a_goal_t a - a_start_t a = tau) by (destruct Ha as [-> | ->]; lra).
    assert (Da : damping a d = c).
    { unfold damping. rewrite Ga. destruct Ha as [-> | ->]; [rewrite A1|rewrite A2]; reflexivity. }
    assert (Ka : stiffness a d = kk).
    { unfold stiffness. rewrite Ga. destruct Ha as [-> | ->]; [rewrite A1, B1|rewrite A2, B2]; reflexivity. }
    change (substates a 0 h x (S k)) with (euler_body a (0 + INR (S k) * h) h (substates a 0 h x k)).
    destruct (substates a 0 h x k) as [y v].
    pose proof (euler_two a (0 + INR (S k) * h) h y v d Fa ltac:(lra)) as Z.
    cbv zeta in Z. rewrite Da, Ka, Ga in Z. exact Z. }
  pose proof (Hone a1 x1 (or_introl eq_refl)) as O1. pose proof (Hone a2 x2 (or_intror eq_refl)) as O2.
  cbv zeta in O1, O2. fold r1 in O1. fold r2 in O2. clear Hone.
  apply (H (fun k => gap_e a1 a2 d (r1 k) (r2 k)) (fun k => snd (r1 k) d - snd (r2 k) d)
    (fun k => u a1 (0 + INR (S k) * h) - u a2 (0 + INR (S k) * h))).
  - intros k. unfold gap_e. destruct (O1 k) as [-> _]. destruct (O2 k) as [-> _]. ring.
  - intros k. unfold gap_e. destruct (O1 k) as [_ ->]. destruct (O2 k) as [_ ->]. ring.
  - change (Rabs (gap_e a1 a2 d x1 x2) <= E + U). lra.
  - change (Rabs (snd x1 d - snd x2 d) <= E + U). lra.
  - intros k. eapply Rle_trans; [apply (dist_gap a1 a2 d al be tau U TW Ht)|lra].
    pose proof (pos_INR (S k)). nra.
Qed.

Lemma states_within_all fn o d : 0 < o_execution_time o -> 0 < o_dt o -> 0 < o_int_dt o ->
  steps_shrink fn o d ->
  exists K, forall n n' o1 o2 D, reachable n o1 -> reachable n' o2 -> same_settings o o1 -> same_settings o1 o2 ->
  gains_like o d o1 -> gains_like o d o2 -> data_within D d o1 o2 ->
  exists s s' : nat -> vec * vec,
    (forall k, run_seq (run_step_function fn (open_loop_step_args o1 None)) 0 (o_dt o)
                 (aget (p_start_y (o_base o1)), vzero) k = Ok (s k))
    /\ (forall k, run_seq (run_step_function fn (open_loop_step_args o2 None)) 0 (o_dt o)
                 (aget (p_start_y (o_base o2)), vzero) k = Ok (s' k))
    /\ forall k, Rabs (fst (s' k) d - fst (s k) d) <= K * D /\ Rabs (snd (s' k) d - snd (s k) d) <= K * D.
Proof.
  intros Ht Hdt Hi Hst.
  set (al := aget (o_alpha_y o) d). set (be := aget (o_beta_y o) d).
  set (tau := o_execution_time o) in *. set (dt := o_dt o) in *.
  set (u := (1 + 2 * Rabs (al * be)) / tau ^ 2).
  assert (Hu0 : 0 <= u).
  { apply Rmult_le_pos; [pose proof (Rabs_pos (al * be)); lra|].
    apply Rlt_le, Rinv_0_lt_compat, pow_lt. auto. }
  assert (Hfn : uses_rk4 fn \/ uses_euler fn) by (destruct fn; unfold uses_rk4, uses_euler; auto).
  assert (Hcore : exists K, 0 <= K /\ forall n n' o1 o2 D, reachable n o1 -> reachable n' o2 ->
    same_settings o o1 -> same_settings o1 o2 -> gains_like o d o1 -> gains_like o d o2 ->
    data_within D d o1 o2 ->
    exists s s' : nat -> vec * vec,
    (forall k, run_seq (run_step_function fn (open_loop_step_args o1 None)) 0 dt
                 (aget (p_start_y (o_base o1)), vzero) k = Ok (s k))
    /\ (forall k, run_seq (run_step_function fn (open_loop_step_args o2 None)) 0 dt
                 (aget (p_start_y (o_base o2)), vzero) k = Ok (s' k))
    /\ forall k, Rabs (gap_e (open_loop_step_args o2 None) (open_loop_step_args o1 None) d (s' k) (s k))
         <= K * (2 * D + u * D) /\ Rabs (snd (s' k) d - snd (s k) d) <= K * (2 * D + u * D)).
  { assert (Hpre : forall n n' o1 o2 D, reachable n o1 -> reachable n' o2 ->
      same_settings o o1 -> same_settings o1 o2 -> gains_like o d o1 -> gains_like o d o2 ->
      data_within D d o1 o2 ->
      twin_args (open_loop_step_args o2 None) (open_loop_step_args o1 None) d al be tau (u * D)
      /\ Rabs (gap_e (open_loop_step_args o2 None) (open_loop_step_args o1 None) d
           (aget (p_start_y (o_base o2)), vzero) (aget (p_start_y (o_base o1)), vzero)) <= 2 * D
      /\ Rabs (snd (aget (p_start_y (o_base o2)), vzero) d - snd (aget (p_start_y (o_base o1)), vzero) d) <= 2 * D
      /\ o_int_dt o1 = o_int_dt o /\ o_int_dt o2 = o_int_dt o
      /\ o_execution_time o1 = tau /\ o_execution_time o2 = tau).
    { intros n n' o1 o2 D Hr Hr' HS HS' (EA & EB) (EA' & EB') HD.
      pose proof HS as (S1 & S2 & S3 & _). pose proof HS' as (S1' & S2' & S3' & _).
      assert (TW : twin_args (open_loop_step_args o2 None) (open_loop_step_args o1 None) d
         (aget (o_alpha_y o1) d) (aget (o_beta_y o1) d) (o_execution_time o1)
         ((1 + 2 * Rabs (aget (o_alpha_y o1) d * aget (o_beta_y o1) d)) / o_execution_time o1 ^ 2 * D)).
      { apply (twins_all n n'); auto; try congruence. rewrite S1. exact Ht. }
      rewrite EA, EB, S1 in TW. split; [exact TW|].
      destruct HD as (HY & HG & _).
      assert (HD0 : 0 <= D) by (eapply Rle_trans; [apply Rabs_pos|exact HY]).
      split; [|split; [|repeat split; unfold tau; congruence]].
      - unfold gap_e. cbn [open_loop_step_args a_goal_y fst].
        match goal with |- Rabs (?a - ?b - (?c - ?e)) <= _ =>
          replace (a - b - (c - e)) with ((a - c) + - (b - e)) by ring end.
        eapply Rle_trans; [apply Rabs_triang|]. rewrite Rabs_Ropp. lra.
      - cbn [snd]. unfold vzero. rewrite Rminus_0_r, Rabs_R0. lra. }
    destruct Hfn as [Hfn|Hfn].
    - assert (Hsh : rk4_shrinks dt (al / tau) (al * be / tau ^ 2)) by (destruct Hfn as [-> | ->]; exact Hst).
      destruct (twin_rk4 dt al be tau Ht Hdt Hsh) as (K & HK & H).
      exists K. split; auto. intros n n' o1 o2 D Hr Hr' HS HS' HG1 HG2 HD.
      destruct (Hpre n n' o1 o2 D Hr Hr' HS HS' HG1 HG2 HD) as (TW & HE & HV & _).
      destruct (run_seq_fn_rk4 fn (open_loop_step_args o1 None) 0 dt
                  (aget (p_start_y (o_base o1)), vzero) Hfn) as (s & E0 & Es & Er).
      destruct (run_seq_fn_rk4 fn (open_loop_step_args o2 None) 0 dt
                  (aget (p_start_y (o_base o2)), vzero) Hfn) as (s' & E0' & Es' & Er').
      exists s, s'. split; auto. split; auto.
      apply (H _ _ d (u * D) (2 * D) s' s TW Es' Es); rewrite E0, E0'; auto.
    - assert (Hsh : equal_parts dt (o_int_dt o)
        /\ euler_shrinks (Rmin dt (o_int_dt o)) (al / tau) (al * be / tau ^ 2))
        by (destruct Hfn as [-> | ->]; exact Hst).
      destruct Hsh as [Hep Hsh]. set (h := Rmin dt (o_int_dt o)) in *.
      destruct (equal_tiles dt (o_int_dt o) h Hdt Hi (parts_length _ _ Hdt Hi Hep)) as (m & Hm & Em & Hh & Htl).
      destruct (twin_euler h al be tau Ht Hh Hsh) as (K & HK & H).
      exists K. split; auto. intros n n' o1 o2 D Hr Hr' HS HS' HG1 HG2 HD.
      destruct (Hpre n n' o1 o2 D Hr Hr' HS HS' HG1 HG2 HD) as (TW & HE & HV & I1 & I2 & X1 & X2).
      set (a1 := open_loop_step_args o1 None) in *. set (a2 := open_loop_step_args o2 None) in *.
      set (x1 := (aget (p_start_y (o_base o1)), vzero)) in *.
      set (x2 := (aget (p_start_y (o_base o2)), vzero)) in *.
      assert (Ai1 : a_int_dt a1 = o_int_dt o) by exact I1.
      assert (Ai2 : a_int_dt a2 = o_int_dt o) by exact I2.
      destruct (run_seq_euler fn a1 0 dt x1) as (s & E0 & Es & Er); auto.
      { apply TW. } { now rewrite Ai1. } { cbn. rewrite X1. exact Ht. } { cbn. lra. }
      destruct (run_seq_euler fn a2 0 dt x2) as (s' & E0' & Es' & Er'); auto.
      { apply TW. } { now rewrite Ai2. } { cbn. rewrite X2. exact Ht. } { cbn. lra. }
      assert (Hsub : forall a x s, a_int_dt a = o_int_dt o -> s 0%nat = x ->
        (forall k, exists l, tiles (0 + INR k * dt) (0 + INR (S k) * dt) (a_int_dt a) l
           /\ s (S k) = exec_substeps (euler_body a) l (s k)) ->
        forall k, s k = substates a 0 h x (k * m)).
      { intros a x q Ei Q0 Qs. induction k as [|k IH]; [exact Q0|].
        destruct (Qs k) as (l & Hl & ->). rewrite Ei in Hl.
        apply Htl in Hl; [|rewrite S_INR; ring]. subst l. rewrite IH.
        rewrite (substates_exec a 0 h x m).
        - f_equal. lia.
        - rewrite mult_INR, Em. ring. }
      exists s, s'. split; auto. split; auto. intros k.
      rewrite (Hsub a1 x1 s Ai1 E0 Es k), (Hsub a2 x2 s' Ai2 E0' Es' k).
      apply (H a2 a1 d (u * D) (2 * D) x2 x1 TW HE HV). }
  destruct Hcore as (K & HK & H).
  exists (K * (2 + u) + 1). intros n n' o1 o2 D Hr Hr' HS HS' HG1 HG2 HD.
  destruct (H n n' o1 o2 D Hr Hr' HS HS' HG1 HG2 HD) as (s & s' & Er & Er' & HB).
  exists s, s'. split; auto. split; auto. intros k. destruct (HB k) as [B1 B2].
  destruct HD as (HY & HG & _).
  assert (HD0 : 0 <= D) by (eapply Rle_trans; [apply Rabs_pos|exact HY]).
  split; [|nra]. unfold gap_e in B1. cbn [open_loop_step_args a_goal_y] in B1.
  set (g2 := aget (p_goal_y (o_base o2)) d) in *. set (g1 := aget (p_goal_y (o_base o1)) d) in *.
  replace (fst (s' k) d - fst (s k) d) with ((fst (s' k) d - g2 - (fst (s k) d - g1)) + (g2 - g1)) by ring.
  eapply Rle_trans; [apply Rabs_triang|]. nra.
Qed.

(** ** C95 *)
(** Any gains, and any two objects with the settings and gains of [o], whatever
    happened to them before: if the steps of the integrator make the motions of the
    spring smaller, movements are as close as their data, with a factor that does
    not depend on the data nor on the length of the movement. *)
Theorem C95_data_all_gains : forall fn o d,
  0 < o_execution_time o -> 0 < o_dt o -> 0 < o_int_dt o -> steps_shrink fn o d ->
  exists K, forall n n' o1 o2 D run_t,
  reachable n o1 -> reachable n' o2 -> same_settings o o1 -> same_settings o1 o2 ->
  gains_like o d o1 -> gains_like o d o2 ->
  data_within D d o1 o2 ->
  movements_within (K * D) d
    (dmp_open_loop run_t None (Some fn) o1) (dmp_open_loop run_t None (Some fn) o2).
Proof.
  intros fn o d Ht Hdt Hi Hst.
  destruct (states_within_all fn o d Ht Hdt Hi Hst) as (K & HK). exists K.
  intros n n' o1 o2 D run_t Hr Hr' HS HS' HG1 HG2 HD.
  destruct (HK n n' o1 o2 D Hr Hr' HS HS' HG1 HG2 HD) as (s & s' & E & E' & HB).
  destruct HS as (S1 & S2 & _). destruct HS' as (S1' & S2' & _).
  unfold dmp_open_loop. rewrite S1', S2', S1, S2.
  set (rt := match run_t with Some x => x | None => o_execution_time o end).
  rewrite (open_loop_run_map _ 0 rt (o_dt o) _ _ s E), (open_loop_run_map _ 0 rt (o_dt o) _ _ s' E').
  destruct (arange 0 (rt + o_dt o) (o_dt o)) as [|t ts] eqn:Ea'; [reflexivity|].
  unfold bind, movements_within. cbn [fst snd].
  split; [reflexivity|]. rewrite !map_length, !seq_length. split; [reflexivity|].
  intros k Hk. set (m := length (t :: ts)) in *.
  assert (EN : forall q : nat -> vec * vec, nth k (map fst (map q (seq 0 m))) vzero = fst (q k)).
  { intros q. rewrite map_map. rewrite nth_indep with (d' := fst (q 0%nat)).
    - rewrite (map_nth (fun x => fst (q x))), seq_nth by auto. reflexivity.
    - now rewrite map_length, seq_length. }
  rewrite !EN. apply HB.
Qed.

(** The same for movements that are learned from two demonstrations at the same times. *)
Theorem C95_demonstrations_all_gains : forall n o fn d m T lam allow,
  reachable n o -> 0 < o_execution_time o -> 0 < o_dt o -> 0 < o_int_dt o -> (d < n)%nat ->
  steps_shrink fn o d -> 0 <= lam -> (2 <= m)%nat -> (forall t, (S t < m)%nat -> T t < T (S t)) ->
  exists K, forall junk junk' dm dm' D run_t,
  demonstrates n dm -> demonstrates n dm' -> d_n dm = m -> d_n dm' = m ->
  (forall t, d_T dm t = T t) -> (forall t, d_T dm' t = T t) ->
  (forall t, (t < m)%nat -> Rabs (d_Y dm' t d - d_Y dm t d) <= D) ->
  movements_within (K * D) d
    (dmp_open_loop run_t None (Some fn) (imitate junk dm lam allow o))
    (dmp_open_loop run_t None (Some fn) (imitate junk' dm' lam allow o)).
Proof.
  intros n o fn d m T lam allow Hr Hx Hdt Hi Hd Hst Hlam Hm HT.
  destruct (C95_data_all_gains fn o d Hx Hdt Hi Hst) as [K0 HK0].
  apply (demonstrations_within n o fn d m T lam allow K0); auto.
  intros o1 o2 D run_t Hr1 Hr2 HS HS' A1 B1 A2 B2 HD.
  apply (HK0 n n); auto; unfold gains_like; split; congruence.
Qed.

(** Two overdamped DMPs (alpha = 25, beta = 4) and one weight that differs by 1/10. *)
Example C95_all_gains_satisfiable : exists o o', reachable 1 o /\ reachable 1 o' /\ same_settings o o'
  /\ 0 < o_execution_time o /\ 0 < o_dt o /\ 0 < o_int_dt o
  /\ steps_shrink RK4 o 0 /\ steps_shrink Euler o 0 /\ steps_shrink Euler_cython o 0
  /\ ~ stable RK4 o 0
  /\ gains_like o 0 o /\ gains_like o 0 o'
  /\ data_within (1/10) 0 o o'
  /\ ft_weights (o_forcing_term o') 0%nat 1%nat = ft_weights (o_forcing_term o) 0%nat 1%nat + 1/10.
Proof.
  destruct (ex_new_ok 1 25 4) as (f & o & E & Ef & Eo).
  assert (Hr : reachable 1 o) by (eapply ex_reachable; eauto).
  pose proof (forcing_term_init_n _ _ _ _ _ _ _ _ Ef) as (N & G & _).
  set (w := {| alen := 2; aget := fun k => if Nat.eqb k 1 then ft_weights f 0%nat 1%nat + 1/10
                                          else ft_weights f 0%nat 0%nat |}).
  set (o' := fst (exec (CSetWeights w) o)).
  assert (Hr' : reachable 1 o') by now apply reachable_exec.
  exists o, o'. split; auto. split; auto.
  assert (E' : o' = with_forcing_term (o_forcing_term o') o /\
     ft_goal_t (o_forcing_term o') = ft_goal_t f /\
     (ft_weights (o_forcing_term o') 0%nat 0%nat = ft_weights f 0%nat 0%nat) /\
     (ft_weights (o_forcing_term o') 0%nat 1%nat = ft_weights f 0%nat 1%nat + 1/10)).
  { unfold o'. rewrite Eo. cbn [exec]. unfold dmp_set_weights, reshape. cbn. rewrite N. cbn. repeat split. }
  destruct E' as (E1 & E2 & E3 & E4). clearbody o'.
  split; [rewrite E1, Eo; unfold same_settings; cbn; repeat split; auto|].
  split; [rewrite Eo; cbn; lra|]. split; [rewrite Eo; cbn; lra|]. split; [rewrite Eo; cbn; lra|].
  assert (Ec : dmp_damping o 0 = 25) by (rewrite Eo; unfold dmp_damping; cbn; field).
  assert (Ek : dmp_stiffness o 0 = 25 * 4) by (rewrite Eo; unfold dmp_stiffness; cbn; field).
  assert (Edt : o_dt o = 1/100) by (rewrite Eo; reflexivity).
  assert (Edi : o_int_dt o = 1/1000) by (rewrite Eo; reflexivity).
  assert (Hp : equal_parts (1/100) (1/1000)) by (right; exists 10%nat; simpl; lra).
  destruct C100_overdamped as [H1 H2].
  unfold steps_shrink. cbv zeta. rewrite Ec, Ek, Edt, Edi. rewrite (Rmin_right (1/100) (1/1000)) by lra.
  split; [exact H1|]. split; [split; auto|]. split; [split; auto|].
  split; [rewrite Eo; unfold stable; cbn; intros (H & _); lra|].
  split; [split; reflexivity|]. split; [rewrite E1, Eo; split; reflexivity|].
  split.
  { split; [|split].
    - rewrite E1, Eo. cbn. unfold Rminus. rewrite Rplus_opp_r, Rabs_R0. lra.
    - rewrite E1, Eo. cbn. unfold Rminus. rewrite Rplus_opp_r, Rabs_R0. lra.
    - rewrite Eo. cbn [o_n_weights_per_dim o_forcing_term]. intros [|[|i]] Hi; [| |lia].
      + rewrite E3. unfold Rminus. rewrite Rplus_opp_r, Rabs_R0. lra.
      + rewrite E4. match goal with |- Rabs (?a + ?b - ?a) <= _ => replace (a + b - a) with b by ring end.
        rewrite Rabs_pos_eq; lra. }
  rewrite Eo; exact E4.
Qed.
