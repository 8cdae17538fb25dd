(** C29, C30 and the DMPWithFinalVelocity part of C13, C18, C19.  Final statements. *)
From Coq Require Import Reals List Arith Lia Lra Psatz FunctionalExtensionality.
From Coquelicot Require Import Coquelicot.
From Verif Require Import M_Prelude M_Canonical M_Forcing M_Dmp M_Base M_DmpObject M_Linalg
  M_FinalVelocity S_Loops S_Dmp P_Loops P_Canonical P_Forcing P_DmpStep P_DmpScale P_DmpLinear
  P_Runs P_Converge P_DmpObject P_FinalVelocity Properties_Forcing Properties_Dmp Properties_DmpObject
  Properties_DmpState.
Import ListNotations.
Open Scope R_scope.
Set Bullet Behavior "Strict Subproofs".

(** ** C29 *)
(** [poly5 c] is the polynomial with coefficients [c 0, ..., c 5];
    [meets p t y yd ydd]: value and first two derivatives of [p] at [t]. *)
Definition meets (p : R -> R) (t y yd ydd : R) : Prop :=
  p t = y /\ is_derive p t yd /\ is_derive (Derive p) t ydd.

Definition pos3 (x : vec * vec * vec) : vec := fst (fst x).
Definition vel3 (x : vec * vec * vec) : vec := snd (fst x).
Definition acc3 (x : vec * vec * vec) : vec := snd x.

Lemma Derive_poly5 c t : Derive (poly5 c) t = rsum 6 (fun j => constraint_row 1 t j * c j).
Proof. apply is_derive_unique, poly5_derive. Qed.

Lemma poly5_meets c t : meets (poly5 c) t (poly5 c t)
  (rsum 6 (fun j => constraint_row 1 t j * c j)) (rsum 6 (fun j => constraint_row 2 t j * c j)).
Proof.
  split; [reflexivity|]. split; [apply poly5_derive|].
  apply (is_derive_ext (fun s => rsum 6 (fun j => constraint_row 1 s j * c j))).
  - intros s. symmetry. apply Derive_poly5.
  - apply poly5_derive2.
Qed.

Lemma meets_unique p t y yd ydd y' yd' ydd' :
  meets p t y yd ydd -> meets p t y' yd' ydd' -> y = y' /\ yd = yd' /\ ydd = ydd'.
Proof.
  intros (A & B & C) (A' & B' & C'). split; [congruence|]. split.
  - apply is_derive_unique in B, B'. congruence.
  - apply is_derive_unique in C, C'. congruence.
Qed.

Theorem C29_goal_trajectory :
  forall start_t goal_t start_y start_yd start_ydd goal_y goal_yd goal_ydd, start_t < goal_t ->
  exists coefficients,
  solve_constraints start_t goal_t start_y start_yd start_ydd goal_y goal_yd goal_ydd
    = Ok coefficients
  /\ let g := fun t => apply_constraints t goal_y goal_t coefficients in
  (* boundary conditions *)
  (forall d, pos3 (g start_t) d = start_y d /\ vel3 (g start_t) d = start_yd d
     /\ acc3 (g start_t) d = start_ydd d)
  /\ (forall d, pos3 (g goal_t) d = goal_y d /\ vel3 (g goal_t) d = goal_yd d
     /\ acc3 (g goal_t) d = goal_ydd d)
  (* up to the goal time it is a polynomial of degree five with its derivatives *)
  /\ (forall t d, t <= goal_t ->
        meets (poly5 (fun j => coefficients j d)) t (pos3 (g t) d) (vel3 (g t) d) (acc3 (g t) d))
  (* the only one *)
  /\ (forall c d, meets (poly5 c) start_t (start_y d) (start_yd d) (start_ydd d) ->
        meets (poly5 c) goal_t (goal_y d) (goal_yd d) (goal_ydd d) ->
        forall t, t <= goal_t -> poly5 c t = pos3 (g t) d)
  (* later it rests at the goal *)
  /\ (forall t, goal_t + float_eps < t -> g t = (goal_y, vzero, vzero)).
Proof.
  intros t0 t1 y0 y0d y0dd y1 y1d y1dd Ht.
  rewrite solve_constraints_ok by lra. eexists. split; [reflexivity|].
  set (B := fun j d => quintic t0 t1 (y0 d) (y0d d) (y0dd d) (y1 d) (y1d d) (y1dd d) j).
  cbv zeta. pose proof float_eps_pos as He.
  destruct (quintic_solves t0 t1 y0 y0d y0dd y1 y1d y1dd) as [HS _]; [lra|].
  assert (Hin : forall t, t <= t1 -> apply_constraints t y1 t1 B
     = (fun d => rsum 6 (fun j => constraint_row 0 t j * B j d),
        fun d => rsum 6 (fun j => constraint_row 1 t j * B j d),
        fun d => rsum 6 (fun j => constraint_row 2 t j * B j d))).
  { intros t H. unfold apply_constraints. destruct (Rlt_dec (t1 + float_eps) t); [lra|reflexivity]. }
  split; [|split; [|split; [|split]]].
  - intros d. rewrite Hin by lra.
    exact (conj (HS 0%nat d ltac:(lia)) (conj (HS 1%nat d ltac:(lia)) (HS 2%nat d ltac:(lia)))).
  - intros d. rewrite Hin by lra.
    exact (conj (HS 3%nat d ltac:(lia)) (conj (HS 4%nat d ltac:(lia)) (HS 5%nat d ltac:(lia)))).
  - intros t d H. rewrite Hin by lra. cbn [pos3 vel3 acc3 fst snd].
    pose proof (poly5_meets (fun j => B j d) t) as M. rewrite <- poly5_row in M. exact M.
  - intros c d M0 M1 t H. rewrite Hin by lra. cbn [pos3 fst snd]. rewrite poly5_row.
    destruct (meets_unique _ _ _ _ _ _ _ _ (poly5_meets c t0) M0) as (A0 & A1 & A2).
    destruct (meets_unique _ _ _ _ _ _ _ _ (poly5_meets c t1) M1) as (A3 & A4 & A5).
    rewrite <- (poly5_row c t0) in A0. rewrite <- (poly5_row c t1) in A3.
    unfold poly5. apply rsum_ext. intros j Hj. f_equal.
    rewrite <- (quintic_unique t0 t1 c ltac:(lra) j Hj). unfold B.
    rewrite <- A0, <- A1, <- A2, <- A3, <- A4, <- A5. reflexivity.
  - intros t H. unfold apply_constraints. destruct (Rlt_dec (t1 + float_eps) t); [reflexivity|lra].
Qed.

(** Equal start and goal times are rejected. *)
Theorem C29_equal_times : forall t y0 y0d y0dd y1 y1d y1dd,
  solve_constraints t t y0 y0d y0dd y1 y1d y1dd = Err LinAlgError.
Proof. intros. apply np_linalg_solve_singular, constraint_singular. Qed.

(** A trajectory that passes the goal 1 with velocity 2. *)
Example C29_satisfiable : exists B,
  solve_constraints 0 1 vzero vzero vzero (fun _ => 1) (fun _ => 2) vzero = Ok B
  /\ pos3 (apply_constraints 0 (fun _ => 1) 1 B) 0%nat = 0
  /\ pos3 (apply_constraints 1 (fun _ => 1) 1 B) 0%nat = 1
  /\ vel3 (apply_constraints 1 (fun _ => 1) 1 B) 0%nat = 2
  /\ vel3 (apply_constraints 2 (fun _ => 1) 1 B) 0%nat = 0.
Proof.
  destruct (C29_goal_trajectory 0 1 vzero vzero vzero (fun _ => 1) (fun _ => 2) vzero)
    as (B & E & H1 & H2 & _ & _ & H5); [lra|].
  exists B. split; [exact E|]. destruct (H1 0%nat) as (A & _). destruct (H2 0%nat) as (A1 & A2 & _).
  repeat split; auto. rewrite H5; [reflexivity|]. unfold float_eps. lra.
Qed.

(** ** C30 *)
(** The acceleration of the transformation system (the one integrated by
    [step]) with the learned forces, at the demonstrated position and velocity
    and time, for the start, goal and times of the demonstration. *)
Theorem C30_forces_reproduce_acceleration :
  forall n T Y alpha_y beta_y df,
  fv_determine_forces n T Y alpha_y beta_y true = Ok df ->
  let last := (n - 1)%nat in
  exists coefficients,
  solve_constraints (T 0%nat) (T last) (Y 0%nat) (df_Yd df 0%nat) (df_Ydd df 0%nat)
    (Y last) (df_Yd df last) (df_Ydd df last) = Ok coefficients
  /\ forall t d, let '(g, gd, gdd) := apply_constraints (T t) (Y last) (T last) coefficients in
     fv_acc (Y t) (df_Yd df t) alpha_y beta_y g gd gdd (T last - T 0%nat) (df_F df t) vzero d
     = df_Ydd df t d.
Proof.
  intros n T Y alpha_y beta_y df H last. unfold fv_determine_forces in H. cbn [negb] in H.
  destruct (Nat.eqb_spec n 0); [discriminate|]. fold last in H.
  destruct (Req_dec (T 0%nat) (T last)) as [E|Hne].
  { unfold solve_constraints in H. rewrite E, np_linalg_solve_singular in H; [discriminate|].
    apply constraint_singular. }
  rewrite solve_constraints_ok in H by auto. cbn [bind] in H. inversion H; subst df. clear H.
  cbn [df_F df_Yd df_Ydd]. rewrite solve_constraints_ok by auto. eexists. split; [reflexivity|].
  intros t d. destruct (apply_constraints _ _ _ _) as [[g gd] gdd]. unfold fv_acc, vzero.
  field. lra.
Qed.

(** When it is rejected. *)
Theorem C30_accepted : forall n T Y alpha_y beta_y, 
  ((1 <= n)%nat /\ T 0%nat <> T (n - 1)%nat
   <-> exists df, fv_determine_forces n T Y alpha_y beta_y true = Ok df).
Proof.
  intros. unfold fv_determine_forces. cbn [negb]. destruct (Nat.eqb_spec n 0) as [->|Hn].
  - split; [lia|]. intros [df [=]].
  - split.
    + intros [_ H]. rewrite solve_constraints_ok by auto. cbn [bind]. eauto.
    + intros [df H]. split; [lia|]. intros E. unfold solve_constraints in H.
      rewrite E, np_linalg_solve_singular in H; [discriminate|]. apply constraint_singular.
Qed.

(** Demonstrated velocities and accelerations are backward differences; both are
    zero at the first sample. *)
Theorem C30_differences : forall n T Y alpha_y beta_y df,
  fv_determine_forces n T Y alpha_y beta_y true = Ok df ->
  (forall d, df_Yd df 0%nat d = 0 /\ df_Ydd df 0%nat d = 0)
  /\ (forall t d, df_Yd df (S t) d = (Y (S t) d - Y t d) / (T (S t) - T t)
      /\ df_Ydd df (S t) d = (df_Yd df (S t) d - df_Yd df t d) / (T (S t) - T t)).
Proof.
  intros n T Y alpha_y beta_y df H. unfold fv_determine_forces in H. cbn [negb] in H.
  destruct (Nat.eqb_spec n 0); [discriminate|].
  destruct (solve_constraints _ _ _ _ _ _ _ _); [|discriminate].
  cbn [bind] in H. inversion H; subst df. cbn [df_Yd df_Ydd]. split; intros; split; reflexivity.
Qed.

Example C30_satisfiable : exists df,
  fv_determine_forces 3 INR (fun t _ => INR t ^ 2) (fun _ => 25) (fun _ => 25/4) true = Ok df.
Proof. apply C30_accepted. split; [lia|]. simpl. lra. Qed.

(** ** C13 for DMPWithFinalVelocity *)
Lemma fv_step_total a lt t s : a_start_t a < a_goal_t a -> 0 < a_int_dt a ->
  a_start_t a < t -> lt <= t ->
  exists l, tiles lt t (a_int_dt a) l
  /\ dmp_step_euler_with_constraints a lt t s
     = Ok (exec_substeps (fv_body a (fun j d => quintic (a_start_t a) (a_goal_t a) (a_start_y a d)
         (a_start_yd a d) (a_start_ydd a d) (a_goal_y a d) (a_goal_yd a d) (a_goal_ydd a d) j)) l s).
Proof.
  intros Ht Hi H1 H2. destruct (substeps_tiles lt t (a_int_dt a) Hi H2) as [l [Hl E]].
  exists l. split; auto. unfold dmp_step_euler_with_constraints.
  destruct (Rle_dec (a_goal_t a) (a_start_t a)); [lra|].
  destruct (Rle_dec t (a_start_t a)); [lra|].
  rewrite solve_constraints_ok by lra. cbn [bind]. apply E.
Qed.

Lemma exec_substeps_ext {S} (b b' : R -> R -> S -> S) l : forall s,
  (forall c h s, In (c, h) l -> b c h s = b' c h s) -> exec_substeps b l s = exec_substeps b' l s.
Proof.
  induction l as [|[c h] l IH]; intros s H; [reflexivity|].
  unfold exec_substeps. simpl. rewrite H by (simpl; auto). apply IH. intros; apply H; simpl; auto.
Qed.

(** Every position and velocity of a run longer than any bound approaches the
    goal with zero velocity (also when a final velocity was configured: after
    the goal time the DMP settles at the goal). *)
Theorem C13_final_velocity_converges :
  forall o d, phase_ok (o_forcing_term o) -> 0 < o_execution_time o -> 0 < o_dt o -> 0 < o_int_dt o ->
  aget (o_alpha_y o) d = 4 * aget (o_beta_y o) d -> 0 < aget (o_alpha_y o) d ->
  aget (o_alpha_y o) d * o_int_dt o <= o_execution_time o ->
  forall eps, 0 < eps -> exists N, forall run_t ts l,
    open_loop_run (dmp_step_euler_with_constraints (fv_open_loop_step_args o None))
      0 run_t (o_dt o) (aget (p_start_y (o_base o))) (aget (p_start_yd (o_base o))) = Ok (ts, l) ->
    forall k y v, (N <= k)%nat -> nth_error l k = Some (y, v) ->
      Rabs (y d - aget (p_goal_y (o_base o)) d) < eps /\ Rabs (v d) < eps.
Proof.
  intros o d Hp Hx Hdt Hi Hcd Hal Hst eps He.
  set (a := fv_open_loop_step_args o None). set (dt := o_dt o) in *.
  set (x0 := (aget (p_start_y (o_base o)), aget (p_start_yd (o_base o)))).
  set (B := fun j d => quintic (a_start_t a) (a_goal_t a) (a_start_y a d)
         (a_start_yd a d) (a_start_ydd a d) (a_goal_y a d) (a_goal_yd a d) (a_goal_ydd a d) j).
  assert (Htot : forall k s, exists l,
     tiles (0 + INR k * dt) (0 + INR (S k) * dt) (a_int_dt a) l
     /\ dmp_step_euler_with_constraints a (0 + INR k * dt) (0 + INR (S k) * dt) s
        = Ok (exec_substeps (fv_body a B) l s)).
  { intros k s. pose proof (pos_INR k). apply fv_step_total; try (simpl; lra); rewrite S_INR;
      simpl; nra. }
  set (s := fix s k := match k with
    | O => x0
    | S k' => match dmp_step_euler_with_constraints a (0 + INR k' * dt) (0 + INR (S k') * dt) (s k') with
              | Ok y => y | Err _ => s k' end end).
  assert (HsS : forall k, exists l, tiles (0 + INR k * dt) (0 + INR (S k) * dt) (a_int_dt a) l
        /\ s (S k) = exec_substeps (fv_body a B) l (s k)).
  { intros k. destruct (Htot k (s k)) as [l [Hl E]]. exists l. split; auto.
    change (s (S k)) with (match dmp_step_euler_with_constraints a (0 + INR k * dt)
      (0 + INR (S k) * dt) (s k) with Ok y => y | Err _ => s k end). now rewrite E. }
  assert (Hrun : forall k, run_seq (dmp_step_euler_with_constraints a) 0 dt x0 k = Ok (s k)).
  { induction k as [|k IH]; [reflexivity|]. cbn [run_seq]. rewrite IH. cbn [bind].
    change (s (S k)) with (match dmp_step_euler_with_constraints a (0 + INR k * dt)
      (0 + INR (S k) * dt) (s k) with Ok y => y | Err _ => s k end).
    destruct (Htot k (s k)) as [l [Hl E]]. now rewrite E. }
  (* from step K on, the run is an ordinary Euler run *)
  set (K := Z.to_nat (up ((o_execution_time o + float_eps) / dt))).
  assert (HK : o_execution_time o + float_eps < INR K * dt).
  { pose proof float_eps_pos. destruct (archimed ((o_execution_time o + float_eps) / dt)) as [HA _].
    assert (0 < (o_execution_time o + float_eps) / dt) by (apply Rdiv_lt_0_compat; lra).
    assert (Hz : (0 <= up ((o_execution_time o + float_eps) / dt))%Z)
      by (apply le_IZR; lra).
    unfold K. rewrite INR_IZR_INZ, Z2Nat.id by auto.
    apply Rmult_lt_reg_r with (/ dt); [now apply Rinv_0_lt_compat|].
    rewrite Rmult_assoc, Rinv_r, Rmult_1_r by lra. exact HA. }
  assert (Hfree : free a) by (repeat split).
  assert (Hc : vanishes (fun k => fst (s (K + k)%nat) d - a_goal_y a d)
               /\ vanishes (fun k => snd (s (K + k)%nat) d)).
  { apply (euler_converges (without_smoothing a) (INR K * dt) dt (s K) Hfree
             ltac:(simpl; lra) Hp Hdt d Hcd Hal ltac:(simpl; lra) (fun k => s (K + k)%nat)).
    - now rewrite Nat.add_0_r.
    - intros k. destruct (HsS (K + k)%nat) as [l [Hl E]]. exists l.
      replace (INR K * dt + INR k * dt) with (0 + INR (K + k) * dt) by (rewrite plus_INR; ring).
      replace (INR K * dt + INR (S k) * dt) with (0 + INR (S (K + k)) * dt)
        by (rewrite !S_INR, plus_INR; ring).
      split; [exact Hl|]. rewrite Nat.add_succ_r, E. apply exec_substeps_ext.
      intros c h s0 Hin. destruct (tiles_inside _ _ _ _ _ _ Hl Hin) as [[Hc _] [Hh _]].
      apply fv_body_after_goal; auto; [|lra]. simpl.
      rewrite plus_INR in Hc. pose proof (pos_INR k). assert (0 <= INR k * dt) by nra. lra. }
  destruct Hc as [Hc1 Hc2].
  destruct (Hc1 eps He) as [N1 HN1]. destruct (Hc2 eps He) as [N2 HN2].
  exists (K + Nat.max N1 N2)%nat. intros run_t ts l E k y v Hk Hn.
  pose proof (open_loop_run_seq _ _ _ _ _ _ _ _ E) as [Hlen Hs].
  assert (Hk' : (k < length ts)%nat).
  { rewrite <- Hlen. apply nth_error_Some. congruence. }
  destruct (Hs k Hk') as [_ [s' [Hs1 Hs2]]]. fold a dt x0 in Hs2. rewrite Hrun in Hs2.
  specialize (HN1 (k - K)%nat ltac:(lia)). specialize (HN2 (k - K)%nat ltac:(lia)).
  replace (K + (k - K))%nat with k in HN1, HN2 by lia.
  assert (s k = (y, v)) as Hss by congruence. rewrite Hss in HN1, HN2. auto.
Qed.

(** ** C18 for DMPWithFinalVelocity: no restriction on the start velocity *)
Lemma fv_args_equiv a a' c h s B :
  (forall d, a_p_gain a' * tracking_error_or_zero (a_tracking_error a') d
             = a_p_gain a * tracking_error_or_zero (a_tracking_error a) d) ->
  a_goal_y a' = a_goal_y a -> a_goal_t a' = a_goal_t a -> a_start_t a' = a_start_t a ->
  a_alpha_y a' = a_alpha_y a -> a_beta_y a' = a_beta_y a ->
  a_forcing_term a' = a_forcing_term a -> a_coupling_term a' = a_coupling_term a ->
  a_precomputed a' = a_precomputed a ->
  fv_body a' B c h s = fv_body a B c h s.
Proof.
  intros Ht E1 E2 E3 E4 E5 E6 E7 E8. destruct s as [y v]. unfold fv_body. cbv zeta.
  rewrite E1, E2, E3, E4, E5, E6, E7, E8.
  assert (Et : (fun d => a_p_gain a' * tracking_error_or_zero (a_tracking_error a') d / h)
     = (fun d => a_p_gain a * tracking_error_or_zero (a_tracking_error a) d / h))
    by (apply functional_extensionality; intro; now rewrite Ht).
  destruct (match a_coupling_term a with Some c0 => c0 y v | None => (vzero, vzero) end) as [cd cdd].
  destruct (match a_precomputed a with
            | Some (pd, pdd) => (vadd cd pd, vadd cdd pdd) | None => (cd, cdd) end) as [cd' cdd'].
  destruct (apply_constraints _ _ _ _) as [[g gd] gdd].
  assert (Es : (fun d => cdd' d + a_p_gain a' * tracking_error_or_zero (a_tracking_error a') d / h)
     = (fun d => cdd' d + a_p_gain a * tracking_error_or_zero (a_tracking_error a) d / h))
    by (apply functional_extensionality; intro; now rewrite Ht).
  now rewrite Es.
Qed.

Lemma fv_step_args o0 o c y lt t s : same_params o0 o ->
  dmp_step_euler_with_constraints (step_args o c (vsub y y)) lt t s
  = dmp_step_euler_with_constraints (fv_open_loop_step_args o0 c) lt t s.
Proof.
  intros (P1 & P2 & P3 & P4 & P5 & P6 & P7 & P8 & P9 & P10 & P11 & P12 & P13 & P14
                    & P15 & P16 & P17).
  unfold dmp_step_euler_with_constraints. simpl.
  rewrite P1, P4, P12, P13, P14, P15, P16, P17.
  destruct (Rle_dec (o_execution_time o0) 0); [reflexivity|].
  destruct (Rle_dec t 0); [reflexivity|].
  destruct (solve_constraints _ _ _ _ _ _ _ _) as [B|]; [|reflexivity]. cbn [bind].
  apply substeps_body_ext. intros c' h' s'.
  apply fv_args_equiv; simpl; auto; try congruence.
  intros d. unfold vsub, vzero. ring.
Qed.

Lemma fv_n_steps_follow c o0 : forall k o y yd,
  same_params o0 o ->
  p_current_y (o_base (norm o)) = y -> p_current_yd (o_base (norm o)) = yd ->
  forall s, run_seq (dmp_step_euler_with_constraints (fv_open_loop_step_args o0 c))
              (p_t (o_base o)) (o_dt o0) (aget y, aget yd) k = Ok s ->
  exists o' y' yd', fv_n_steps c k y yd o = (o', Ok (y', yd'))
    /\ (aget y', aget yd') = s /\ p_t (o_base o') = p_t (o_base o) + INR k * o_dt o0.
Proof.
  induction k as [|k IH]; intros o y yd Hp Ey Eyd s Hs.
  - simpl in Hs. injection Hs as <-. exists o, y, yd. simpl. repeat split. ring.
  - rewrite run_seq_shift in Hs. cbn [fv_n_steps].
    assert (Hdt : o_dt o = o_dt o0) by (destruct Hp as (_ & -> & _); auto).
    set (t0 := p_t (o_base o)) in *.
    replace (t0 + INR 0 * o_dt o0) with t0 in Hs by (simpl; ring).
    replace (t0 + INR 1 * o_dt o0) with (t0 + o_dt o0) in Hs by (simpl; ring).
    assert (Ef : fv_step y yd c o
      = match dmp_step_euler_with_constraints
                (step_args (tick (norm o)) c (vsub (aget y) (aget y)))
                t0 (t0 + o_dt o0) (aget y, aget yd) with
        | Err e => (tick (norm o), Err e)
        | Ok (y', yd') =>
            (with_base (set_current {| alen := alen y; aget := y' |} {| alen := alen yd; aget := yd' |}
                      (o_base (tick (norm o)))) (tick (norm o)),
             Ok ({| alen := alen y; aget := y' |}, {| alen := alen yd; aget := yd' |}))
        end).
    { rewrite <- Ey, <- Eyd, <- Hdt. unfold fv_step, t0, norm, tick.
      destruct o as [p ini x dt nw idt pg sm f al be]. destruct ini; reflexivity. }
    rewrite Ef.
    assert (Hp' : same_params o0 (tick (norm o)))
      by (eapply same_params_trans; [exact Hp|]; eapply same_params_trans;
          [apply norm_params|apply tick_params]).
    rewrite (fv_step_args o0 _ c (aget y) t0 (t0 + o_dt o0) (aget y, aget yd) Hp').
    destruct (dmp_step_euler_with_constraints (fv_open_loop_step_args o0 c) t0 (t0 + o_dt o0)
       (aget y, aget yd)) as [[y1 v1]|] eqn:E; [|discriminate].
    cbn [bind] in Hs.
    set (o1 := with_base _ _).
    assert (Et : p_t (o_base o1) = t0 + o_dt o0).
    { unfold o1; simpl.
      assert (p_t (o_base (norm o)) = t0) as -> by (unfold norm; destruct (o_initialized o); auto).
      assert (o_dt (norm o) = o_dt o) as -> by (unfold norm; destruct (o_initialized o); auto).
      now rewrite Hdt. }
    destruct (IH o1 {| alen := alen y; aget := y1 |} {| alen := alen yd; aget := v1 |})
      with (s := s) as (o' & y' & yd' & R1 & R2 & R3).
    + eapply same_params_trans; [exact Hp'|]. unfold same_params, o1; simpl; repeat split.
    + rewrite norm_id; [reflexivity|]. unfold o1. simpl. apply norm_initialized.
    + rewrite norm_id; [reflexivity|]. unfold o1. simpl. apply norm_initialized.
    + rewrite Et. exact Hs.
    + exists o', y', yd'. split; [exact R1|]. split; [exact R2|]. rewrite R3, S_INR, Et. ring.
Qed.

Theorem C18_final_velocity_open_loop_is_repeated_step :
  forall o c run_t ts ys, fv_open_loop run_t c o = Ok (ts, ys) ->
  forall k, (k < length ys)%nat ->
  exists o' y yd,
    fv_n_steps c k (p_start_y (o_base o)) (p_start_yd (o_base o)) (dmp_reset o) = (o', Ok (y, yd))
    /\ aget y = nth k ys vzero /\ p_t (o_base o') = nth k ts 0.
Proof.
  intros o c run_t ts ys E k Hk.
  unfold fv_open_loop in E.
  destruct (open_loop_run _ _ _ _ _ _) as [[ts' l]|] eqn:Eo; [|discriminate].
  cbn [bind fst snd] in E. injection E as <- <-. rewrite map_length in Hk.
  pose proof (open_loop_run_seq _ _ _ _ _ _ _ _ Eo) as [Hlen Hs].
  destruct (Hs k) as (Hts & s & Hl & Hrun); [lia|].
  destruct (fv_n_steps_follow c o k (dmp_reset o) (p_start_y (o_base o)) (p_start_yd (o_base o)))
    with (s := s) as (o' & y & yd & R1 & R2 & R3).
  - unfold same_params; simpl; repeat split.
  - unfold norm. simpl. destruct (o_initialized o); reflexivity.
  - unfold norm. simpl. destruct (o_initialized o); reflexivity.
  - exact Hrun.
  - exists o', y, yd. split; [exact R1|]. split.
    + rewrite (nth_indep _ _ (fst (vzero, vzero))) by (rewrite map_length; lia).
      rewrite map_nth. rewrite (nth_error_nth _ _ _ Hl). rewrite <- R2. reflexivity.
    + rewrite R3. simpl. rewrite (nth_error_nth _ _ _ Hts). ring.
Qed.

Theorem C19_final_velocity : forall o run_t c ts ys,
  0 < o_dt o -> fv_open_loop run_t c o = Ok (ts, ys) ->
  let rt := match run_t with Some x => x | None => o_execution_time o end in
  length ys = length ts /\ (0 < length ts)%nat
  /\ (forall k, (k < length ts)%nat -> nth k ts 0 = INR k * o_dt o)
  /\ rt <= last ts 0 < rt + o_dt o
  /\ hd_error ys = Some (aget (p_start_y (o_base o))).
Proof.
  intros o run_t c ts ys Hdt E rt.
  unfold fv_open_loop in E. fold rt in E.
  destruct (open_loop_run _ _ _ _ _ _) as [[ts' l]|] eqn:Eo; [|discriminate].
  cbn [bind fst snd] in E. injection E as <- <-.
  apply C19_time_grid in Eo; auto. destruct Eo as (A & B & C & D & F).
  rewrite map_length. repeat split; auto; try apply D.
  - intros k Hk. rewrite C by auto. ring.
  - destruct l; [discriminate|]. simpl in *. injection F as ->. reflexivity.
Qed.

(** These runs exist: with positive times [open_loop] succeeds for every run time. *)
Theorem C19_final_velocity_runs_exist : forall o run_t c,
  0 < o_execution_time o -> 0 < o_dt o -> 0 < o_int_dt o ->
  0 < (match run_t with Some x => x | None => o_execution_time o end) ->
  exists ts ys, fv_open_loop run_t c o = Ok (ts, ys) /\ (length ys >= 2)%nat.
Proof.
  intros o run_t c Hx Hdt Hi Hr. unfold fv_open_loop.
  destruct (open_loop_total (dmp_step_euler_with_constraints (fv_open_loop_step_args o c))
    (match run_t with Some x => x | None => o_execution_time o end) (o_dt o)
    (aget (p_start_y (o_base o))) (aget (p_start_yd (o_base o)))) as (ts & l & E & Hl); auto.
  - lra.
  - intros t0 t s H0 H1.
    destruct (fv_step_total (fv_open_loop_step_args o c) t0 t s) as (l & _ & E); simpl; auto; try lra.
    eexists; exact E.
  - rewrite E. cbn [bind fst snd]. eexists _, _. split; [reflexivity|].
    rewrite map_length. destruct Hl; auto. lra.
Qed.

(** A constructed object meets the hypotheses of the theorems above. *)
Example C13_final_velocity_satisfiable :
  exists o, fv_new (vzero, vzero) 2 1 (1/100) 2 (1/1000) 0
    {| shape := []; data := fun _ => 25 |} {| shape := []; data := fun _ => 25/4 |} = Ok o
  /\ phase_ok (o_forcing_term o) /\ 0 < o_execution_time o /\ 0 < o_dt o /\ 0 < o_int_dt o
  /\ aget (o_alpha_y o) 1%nat = 4 * aget (o_beta_y o) 1%nat
  /\ aget (o_alpha_y o) 1%nat * o_int_dt o <= o_execution_time o.
Proof.
  destruct (ex_new_ok 2 25 (25/4)) as (f & o & E & Ef & Eo).
  exists o. split; [exact E|]. rewrite Eo. simpl. unfold phase_ok.
  assert (Hl : 0 < - ln (1/100)).
  { assert (ln (1/100) < ln 1) by (apply ln_increasing; lra). rewrite ln_1 in H. lra. }
  unfold forcing_term_init in Ef. repeat (destruct (Rle_dec _ _); try discriminate). cbn in Ef.
  injection Ef as <-. simpl. repeat split; try lra; try lia.
Qed.
