(** C99: rounding errors do not accumulate.  Final statements. *)
From Coq Require Import Reals ZArith List Bool Lia Lra Psatz.
From Flocq Require Import Core.Core IEEE754.BinarySingleNaN.
From Verif Require Import M_Float S_Float P_Float M_FloatDmp P_FloatDmp.
From Verif Require Import M_Prelude M_Canonical M_Forcing M_Dmp S_FloatDmp P_FloatRun
  P_Canonical P_Forcing Properties_Forcing Properties_Dmp.
Import ListNotations.
Open Scope R_scope.
Set Bullet Behavior "Strict Subproofs".

(** Both Runge-Kutta integrators, any number of steps of any lengths between
    [xmin] and 1/6 time constants [1 / k] of the critically damped system: if the
    computed forces are accurate to [delta] (in units of the spring), then the
    positions and velocities computed in double precision are finite and stay
    within fixed distances of the exactly computed ones.  The distances do not
    depend on the number of steps.  [W] bounds the velocity and the distance to
    the goal in these units, the forces and the size of the goal. *)
Theorem C99_rounding_errors_do_not_accumulate : forall fn A a d W delta xmin t0 ts (sf : fvec * fvec) (s : vec * vec),
  let k := a_alpha_y a d / (2 * a_goal_t a) in
  let spring := a_alpha_y a d * a_goal_t a / 2 in
  same_arguments A a d -> a_beta_y a d = a_alpha_y a d / 4 ->
  ordinary (a_alpha_y a d) -> ordinary (a_goal_t a) -> ordinary W ->
  bpow radix2 (-35) <= xmin -> 0 <= delta <= W / 36 ->
  k * Rabs (a_goal_y a d) <= W ->
  Rabs (snd s d + k * (fst s d - a_goal_y a d)) + / 2 * Rabs (k * (fst s d - a_goal_y a d)) <= W ->
  is_double (fst sf d) (fst s d) -> is_double (snd sf d) (snd s d) ->
  each_step (fun l t => is_finite l = true /\ is_finite t = true
                        /\ xmin <= k * (B2R t - B2R l) <= / 6
                        /\ forces_close A a d (spring * (W / 6)) (spring * delta) l t) t0 ts ->
  let distance := 6 * delta + bpow radix2 (-38) * W / xmin in
  exists states,
    M_Prelude.run_steps (run_step_function (exact_step fn) a) (B2R t0) (map B2R ts) s = Ok states
    /\ Forall2 (fun (sf : fvec * fvec) (s : vec * vec) => is_finite (fst sf d) = true /\ is_finite (snd sf d) = true
                 /\ Rabs (B2R (fst sf d) - fst s d) <= 2 / k * distance
                 /\ Rabs (B2R (snd sf d) - snd s d) <= 3 * distance)
         (run_steps_f (double_step fn A) t0 ts sf) states.
Proof.
  intros fn A a d W delta xmin t0 ts sf s k spring HA Hbe Wal Wtau WW Hxm Hd Hg HE [Fy Ey] [Fv Ev] HS distance.
  pose proof (k_pos a d Wal Wtau) as Pk. fold k in Pk.
  pose proof (D_bound W delta xmin WW Hxm) as DB.
  pose proof (D_small W delta xmin WW Hxm Hd) as DS.
  destruct (run_close fn A a d W delta xmin HA Hbe Wal Wtau WW Hxm Hd Hg ts t0 sf s) as (states & E & H).
  - exact HS.
  - unfold state_ok. split; [exact Fy|]. split; [exact Fv|]. split; [exact HE|].
    rewrite Ey, Ev, !Rminus_diag_eq, Rmult_0_r, energy_zero by auto. apply DS.
  - exists states. split; [exact E|]. clear E HS.
    induction H as [|sf' s' lf l H _ IH]; constructor; [|exact IH].
    destruct (close_values a d W delta xmin Wal Wtau sf' s' H) as (F1 & F2 & B1 & B2).
    repeat split; auto.
    + apply Rle_trans with (1 := B1). fold k. apply Rmult_le_compat_l; [|exact DB].
      unfold Rdiv. apply Rmult_le_pos; [lra|]. left. now apply Rinv_0_lt_compat.
    + apply Rle_trans with (1 := B2). apply Rmult_le_compat_l; [lra|exact DB].
Qed.

(** ** Example: a movement from 0 to 1 in one second with a learned force, 128 steps
    per second, for as long as one likes *)

(** The double next to a real number. *)
Definition to_double (r : R) : f64 :=
  binary_normalize 53 1024 _ _ mode_NE
    (Raux.Ztrunc (scaled_mantissa radix2 (FLT_exp (-1074) 53) (nearest r)))
    (cexp radix2 (FLT_exp (-1074) 53) (nearest r)) false.

Lemma to_double_ok r : Rabs r <= 1 -> is_double (to_double r) (nearest r) /\ Rabs (nearest r - r) <= u64.
Proof.
  intros Hr. assert (W1 : within 1000 1).
  { split; [apply Rle_trans with (bpow radix2 0)|apply Rle_trans with (bpow radix2 0)];
      try (apply bpow_le; lia); cbn; lra. }
  pose proof (round_err r 1 W1 Hr) as RE. rewrite Rmult_1_r in RE. split; [|exact RE].
  assert (Hf : fmt (nearest r)).
  { unfold nearest. apply generic_format_round; [apply valid64|apply valid_rnd_N]. }
  assert (E : F2R (Float radix2 (Raux.Ztrunc (scaled_mantissa radix2 fexp (nearest r))) (cexp radix2 fexp (nearest r)))
              = nearest r) by (unfold generic_format in Hf; symmetry; exact Hf).
  pose proof (binary_normalize_correct 53 1024 _ _ mode_NE
    (Raux.Ztrunc (scaled_mantissa radix2 fexp (nearest r))) (cexp radix2 fexp (nearest r)) false) as H.
  cbv zeta in H. rewrite E in H.
  change (SpecFloat.fexp 53 1024) with fexp in H. change (round_mode mode_NE) with ZnearestE in H.
  fold (nearest (nearest r)) in H. rewrite (nearest_fmt _ Hf) in H.
  rewrite Rlt_bool_true in H.
  - destruct H as (H1 & H2 & _). split; [exact H2|exact H1].
  - pose proof u64_small. apply Rle_lt_trans with (bpow radix2 1); [|apply bpow_lt; lia].
    change (bpow radix2 1) with 2. apply Rabs_le_inv in RE. apply Rabs_le_inv in Hr. apply Rabs_le. lra.
Qed.

(** The double [i / 128]. *)
Definition tick (i : nat) : f64 := fdiv (fZ (Z.of_nat i)) (fZ 128).

Lemma double_256 m z : (Z.abs m < 2 ^ 53)%Z -> z = IZR m * / 256 -> nearest z = z.
Proof.
  intros Hm ->. apply nearest_fmt. apply generic_format_FLT. exists (Float radix2 m (-8)).
  - unfold F2R. cbn. lra.
  - exact Hm.
  - cbn. lia.
Qed.

Lemma small_256 m : (Z.abs m < 2 ^ 53)%Z -> Rabs (IZR m * / 256) <= bpow radix2 1023.
Proof.
  intros H. apply Rle_trans with (bpow radix2 53); [|apply bpow_le; lia].
  rewrite Rabs_mult, (Rabs_pos_eq (/ 256)), <- abs_IZR by lra.
  assert (IZR (Z.abs m) <= IZR (2 ^ 53)) by (apply IZR_le; lia).
  assert (0 <= IZR (Z.abs m)) by (apply IZR_le; lia).
  change (bpow radix2 53) with (IZR (2 ^ 53)). nra.
Qed.

Lemma tick_ok i : (Z.of_nat i < 2 ^ 50)%Z -> is_double (tick i) (IZR (2 * Z.of_nat i) * / 256).
Proof.
  intros Hi. destruct (fZ_ok (Z.of_nat i)) as [E F]; [lia|]. destruct (fZ_ok 128) as [E1 F1]; [cbn; lia|].
  assert (EQ : B2R (fZ (Z.of_nat i)) / B2R (fZ 128) = IZR (2 * Z.of_nat i) * / 256).
  { rewrite E, E1, mult_IZR. field. }
  destruct (fdiv_ok (fZ (Z.of_nat i)) (fZ 128)) as [H1 H2]; auto.
  - rewrite E1. lra.
  - rewrite EQ. apply small_256. lia.
  - split; [exact H2|]. unfold tick. rewrite H1, EQ. apply (double_256 (2 * Z.of_nat i)); [lia|reflexivity].
Qed.

(** Forces as an ideal C library computes them. *)
Definition ex_double_args : dmp_args_f :=
  {| fa_goal_y := fun _ => fZ 1; fa_goal_t := fZ 1; fa_start_t := fZ 0;
     fa_alpha_y := fun _ => fZ 25; fa_beta_y := fun _ => fdiv (fZ 25) (fZ 4);
     fa_forces := fun T d => to_double (force_at (ex_args 1 25 (25 / 4) None None) (B2R T) d);
     fa_pow2 := fun z => to_double ((B2R z) ^ 2) |}.

Lemma ex_force T d : 0 <= T -> Rabs (force_at (ex_args 1 25 (25 / 4) None None) T d) <= 1.
Proof.
  intros HT. unfold force_at. set (f := a_forcing_term _).
  apply Rle_trans with (1 := C04_bounded f (ft_phase f T) d 1 ltac:(cbn; lia)
                              ltac:(intros; cbn; rewrite Rabs_R1; lra)).
  rewrite Rmult_1_r, Rabs_pos_eq by (left; apply phase_pos).
  unfold f, ft_phase, phase. cbn [ft_alpha_z ft_goal_t ft_start_t a_forcing_term ex_args ex_ft]. apply Rle_trans with (exp 0); [apply exp_le; lra|rewrite exp_0; lra].
Qed.

Lemma ex_force_close Tf T d : is_double Tf T -> 0 <= T ->
  force_close ex_double_args (ex_args 1 25 (25 / 4) None None) d (25 * 1 / 2 * (24 / 6))
    (25 * 1 / 2 * bpow radix2 (-53)) Tf T.
Proof.
  intros [F E] HT. unfold force_close. cbn [fa_forces ex_double_args]. rewrite E.
  pose proof (ex_force T d HT) as HB.
  destruct (to_double_ok _ HB) as [[F1 E1] HE]. rewrite E1. split; [exact F1|].
  split; [lra|]. apply Rle_trans with (1 := HE). unfold u64. pose proof (bpow_gt_0 radix2 (-53)). lra.
Qed.

Example C99_satisfiable : forall n, (Z.of_nat n < 2 ^ 40)%Z ->
  let a := ex_args 1 25 (25 / 4) None None in
  let A := ex_double_args in
  same_arguments A a 0 /\ a_beta_y a 0%nat = a_alpha_y a 0%nat / 4
  /\ ordinary (a_alpha_y a 0%nat) /\ ordinary (a_goal_t a) /\ ordinary 24
  /\ bpow radix2 (-35) <= 25 / 256 /\ 0 <= bpow radix2 (-53) <= 24 / 36
  /\ 25 / (2 * 1) * Rabs 1 <= 24
  /\ Rabs (0 + 25 / (2 * 1) * (0 - 1)) + / 2 * Rabs (25 / (2 * 1) * (0 - 1)) <= 24
  /\ is_double fzero 0
  /\ each_step (fun l t => is_finite l = true /\ is_finite t = true
         /\ 25 / 256 <= 25 / (2 * 1) * (B2R t - B2R l) <= / 6
         /\ forces_close A a 0 (25 * 1 / 2 * (24 / 6)) (25 * 1 / 2 * bpow radix2 (-53)) l t)
       (tick 0) (map tick (seq 1 n)).
Proof.
  intros n Hn a A.
  assert (O : forall r, 1 <= r <= 32 -> ordinary r).
  { intros r Hr. split.
    - apply Rle_trans with (bpow radix2 0); [apply bpow_le; lia|cbn; lra].
    - apply Rle_trans with (bpow radix2 5); [cbn; lra|apply bpow_le; lia]. }
  assert (Z1 : is_double (fZ 1) 1) by (split; apply (fZ_ok 1); cbn; lia).
  assert (Z25 : is_double (fZ 25) 25) by (split; apply (fZ_ok 25); cbn; lia).
  assert (Z4 : is_double (fZ 4) 4) by (split; apply (fZ_ok 4); cbn; lia).
  assert (Z0 : is_double (fZ 0) 0) by (split; apply (fZ_ok 0); cbn; lia).
  assert (A1 : Rabs (25 / (2 * 1) * (0 - 1)) = 25 / 2) by (rewrite Rabs_left; lra).
  assert (P53 : 0 < bpow radix2 (-53) <= / 1000000) by (split; [apply u64_pos|apply u64_small]).
  split.
  { unfold a, A. constructor; cbn [fa_goal_y fa_alpha_y fa_beta_y fa_goal_t fa_start_t fa_pow2 ex_double_args ex_args
      a_goal_y a_alpha_y a_beta_y a_goal_t a_start_t a_coupling_term a_precomputed a_tracking_error
      a_smooth_scaling]; auto.
    - destruct Z25 as [F E], Z4 as [F4 E4].
      assert (EQ : B2R (fZ 25) / B2R (fZ 4) = IZR 1600 * / 256) by (rewrite E, E4; field).
      destruct (fdiv_ok (fZ 25) (fZ 4)) as [H1 H2]; auto; [rewrite E4; lra| |].
      + rewrite EQ. apply small_256. cbn. lia.
      + split; [exact H2|]. rewrite H1, EQ, (double_256 1600); [field|cbn; lia|reflexivity].
    - intros z [_ Ez]. rewrite Ez. replace (1 ^ 2) with 1 by ring.
      destruct (to_double_ok 1) as [[_ E] _]; [rewrite Rabs_R1; lra|]. rewrite E.
      rewrite (double_256 256); [|cbn; lia|field].
      rewrite Rminus_diag_eq, Rabs_R0 by reflexivity. pose proof (bpow_gt_0 radix2 (-52)). lra. }
  split; [cbn; lra|]. split; [apply O; cbn; lra|]. split; [apply O; cbn; lra|]. split; [apply O; lra|].
  split; [apply Rle_trans with (bpow radix2 (-4)); [apply bpow_le; lia|cbn; lra]|].
  split; [lra|]. split; [rewrite Rabs_R1; lra|]. split; [rewrite A1, Rplus_0_l, A1; lra|]. split; [exact Z0|].
  assert (G : forall m i, (Z.of_nat (i + m) < 2 ^ 41)%Z ->
    each_step (fun l t => is_finite l = true /\ is_finite t = true
         /\ 25 / 256 <= 25 / (2 * 1) * (B2R t - B2R l) <= / 6
         /\ forces_close A a 0 (25 * 1 / 2 * (24 / 6)) (25 * 1 / 2 * bpow radix2 (-53)) l t)
       (tick i) (map tick (seq (S i) m))).
  { intros m. induction m as [|m IH]; intros i Hi; cbn [seq map each_step]; auto.
    split; [|apply IH; lia].
    destruct (tick_ok i) as [Fi Ei]; [lia|]. destruct (tick_ok (S i)) as [Fs Es]; [lia|].
    set (zi := Z.of_nat i) in *. replace (Z.of_nat (S i)) with (zi + 1)%Z in * by lia.
    assert (Hzi : (0 <= zi < 2 ^ 41)%Z) by lia.
    assert (Eh : B2R (tick (S i)) - B2R (tick i) = / 128).
    { rewrite Ei, Es, !mult_IZR, plus_IZR. field. }
    split; [exact Fi|]. split; [exact Fs|]. split; [rewrite Eh; lra|].
    destruct (fsub_ok (tick (S i)) (tick i)) as [D1 D2]; auto.
    { rewrite Eh. replace (/ 128) with (IZR 2 * / 256) by field. apply small_256. cbn. lia. }
    rewrite Eh, (double_256 2) in D1; [|cbn; lia|field].
    destruct fhalf_ok as [Hh Fh].
    assert (E2 : / 2 * / 128 = IZR 1 * / 256) by field.
    destruct (fmul_ok fhalf (fsub (tick (S i)) (tick i))) as [M1 M2]; auto.
    { rewrite Hh, D1, E2. apply small_256. cbn. lia. }
    rewrite Hh, D1, (double_256 1) in M1; [|cbn; lia|exact E2].
    assert (E3 : B2R (tick (S i)) + / 2 * / 128 = IZR (2 * zi + 3) * / 256).
    { rewrite Es, !plus_IZR, !mult_IZR, plus_IZR. field. }
    assert (E4 : B2R (tick (S i)) + / 128 = IZR (2 * zi + 4) * / 256).
    { rewrite Es, !plus_IZR, !mult_IZR, plus_IZR. field. }
    assert (Pz : forall c, (0 <= c)%Z -> 0 <= IZR (2 * zi + c) * / 256).
    { intros c Hc. assert (0 <= IZR (2 * zi + c)) by (apply IZR_le; lia). lra. }
    unfold forces_close. cbv zeta. rewrite Eh. split; [|split]; apply ex_force_close.
    - split; auto.
    - rewrite Es. replace (2 * (zi + 1))%Z with (2 * zi + 2)%Z by lia. apply Pz. lia.
    - destruct (fadd_ok (tick (S i)) (fmul fhalf (fsub (tick (S i)) (tick i)))) as [P1 P2]; auto.
      { rewrite M1, E3. apply small_256. lia. }
      split; [exact P2|]. rewrite P1, M1, (double_256 (2 * zi + 3)); [reflexivity|lia|exact E3].
    - rewrite E3. apply Pz. lia.
    - destruct (fadd_ok (tick (S i)) (fsub (tick (S i)) (tick i))) as [P1 P2]; auto.
      { rewrite D1, E4. apply small_256. lia. }
      split; [exact P2|]. rewrite P1, D1, (double_256 (2 * zi + 4)); [reflexivity|lia|exact E4].
    - rewrite E4. apply Pz. lia. }
  apply G. lia.
Qed.

(** For this movement the positions are accurate to 2e-10 after every step. *)
Example C99_accuracy : forall n, (Z.of_nat n < 2 ^ 40)%Z ->
  exists states,
    M_Prelude.run_steps (run_step_function RK4_cython (ex_args 1 25 (25 / 4) None None)) (B2R (tick 0))
      (map B2R (map tick (seq 1 n))) (vzero, vzero) = Ok states
    /\ Forall2 (fun (sf : fvec * fvec) (s : vec * vec) =>
                  Rabs (B2R (fst sf 0%nat) - fst s 0%nat) <= 2 / 10 ^ 10)
         (run_steps_f (rk4_cython_f ex_double_args) (tick 0) (map tick (seq 1 n))
            (fun _ => fzero, fun _ => fzero)) states.
Proof.
  intros n Hn. destruct (C99_satisfiable n Hn) as (S1 & S2 & S3 & S4 & S5 & S6 & S7 & S8 & S9 & S10 & S11).
  destruct (C99_rounding_errors_do_not_accumulate RK4_compiled _ _ _ _ _ _ (tick 0) (map tick (seq 1 n))
     (fun _ => fzero, fun _ => fzero) (vzero, vzero) S1 S2 S3 S4 S5 S6 S7 S8 S9 S10 S10 S11) as (states & E & H).
  exists states. split; [exact E|]. clear E S11.
  change (rk4_cython_f ex_double_args) with (double_step RK4_compiled ex_double_args).
  induction H as [|sf' s' lf l (_ & _ & H & _) _ IH]; constructor; [|exact IH].
  apply Rle_trans with (1 := H). cbn [a_alpha_y a_goal_t ex_args].
  assert (B53 : bpow radix2 (-53) <= / 1000000000000000) by (cbn; lra).
  assert (B38 : bpow radix2 (-38) <= / 274000000000) by (cbn; lra).
  cbn [pow]. lra.
Qed.
