(** C68: times and sample counts in IEEE double precision. *)
From Coq Require Import Reals ZArith List Bool Lia Lra.
From Verif Require Import M_Prelude.
From Flocq Require Import Core.Core IEEE754.BinarySingleNaN.
From Verif Require Import M_Float S_Float P_Float.
Import ListNotations.
Open Scope R_scope.
Set Bullet Behavior "Strict Subproofs".

(** ** The sub-step loop *)

(** The loop ends whenever [int_dt] is not below one unit in the last place of [t]
    (for times after zero).  Every sub-step has a positive length of at most
    [int_dt], the times increase, and the last one is [t] or the next double.
    Missing from the full claim: smaller [int_dt], for which it is false. *)
Theorem C68_substeps_terminate_partial : forall (S : Type) (body : f64 -> f64 -> S -> S) last_t t int_dt s,
  is_finite last_t = true -> is_finite t = true -> is_finite int_dt = true ->
  0 <= B2R last_t < B2R t -> B2R t <= bpow radix2 1022 -> 0 < B2R int_dt ->
  B2R t * bpow radix2 (-52) <= B2R int_dt ->
  exists fuel end_t steps,
    substeps_f fuel last_t t int_dt body s = Ok (end_t, run_steps body steps s) /\
    is_finite end_t = true /\ B2R t <= B2R end_t <= next_double (B2R t) /\
    Forall (fun p => is_finite (snd p) = true /\ 0 < B2R (snd p) <= B2R int_dt) steps /\
    increasing (B2R last_t) (map (fun p => B2R (fst p)) steps) /\
    end_t = last (map fst steps) last_t.
Proof.
  intros S body last_t t int_dt s Fl Ft Fi Hl Hb Hi Hu.
  assert (HU : ulp radix2 (FLT_exp (-1074) 53) (B2R t) <= B2R int_dt).
  { destruct (Rle_or_lt (bpow radix2 (-1022)) (B2R t)) as [G|G].
    - pose proof (ulp_FLT_le radix2 (-1074) 53 (B2R t)) as U. rewrite Rabs_pos_eq in U by lra.
      apply Rle_trans with (2 := Hu). apply U. exact G.
    - rewrite ulp_FLT_small.
      + now apply pos_ge_eta.
      + exact prec_gt_0_53.
      + rewrite Rabs_pos_eq by lra. apply Rlt_trans with (1 := G). apply bpow_lt. lia. }
  pose proof (bpow_gt_0 radix2 (-1074)) as Pe.
  set (k := Z.to_nat (up ((B2R t - B2R last_t) / bpow radix2 (-1074)))).
  destruct (substeps_terminate S body t int_dt Ft Fi Hb Hi HU k last_t s Fl) as (ct & steps & H).
  - pose proof (ulp_ge_eta (B2R t)). unfold next_double. rewrite succ_eq_pos by lra. lra.
  - unfold k. rewrite INR_IZR_INZ, Z2Nat.id.
    + destruct (archimed ((B2R t - B2R last_t) / bpow radix2 (-1074))) as [A _].
      apply (Rmult_lt_compat_r (bpow radix2 (-1074))) in A; [|exact Pe].
      unfold Rdiv in A at 1. rewrite Rmult_assoc, Rinv_l in A by lra. lra.
    + apply le_IZR. destruct (archimed ((B2R t - B2R last_t) / bpow radix2 (-1074))) as [A _].
      assert (0 < (B2R t - B2R last_t) / bpow radix2 (-1074)) by (apply Rdiv_lt_0_compat; lra). lra.
  - exists k, ct, steps. exact H.
Qed.

(** The loop never ends when [int_dt] is positive but below [2 ** -54] times the
    time at which it starts: the sum is rounded back to [current_t]. *)
Theorem C68_substeps_hang_refuted : forall (S : Type) (body : f64 -> f64 -> S -> S) last_t t int_dt s,
  is_finite last_t = true -> is_finite t = true -> is_finite int_dt = true ->
  0 <= B2R last_t < B2R t -> B2R t <= bpow radix2 1022 ->
  0 < B2R int_dt < B2R last_t * bpow radix2 (-54) ->
  forall fuel, substeps_f fuel last_t t int_dt body s = Err OutOfFuel.
Proof.
  intros S body last_t t int_dt s Fl Ft Fi Hl Hb Hi fuel.
  apply substeps_diverge; try assumption; try lra.
  pose proof (ulp_FLT_gt radix2 (-1074) 53 (B2R last_t)) as U. rewrite Rabs_pos_eq in U by lra.
  replace (bpow radix2 (-54)) with (/ 2 * bpow radix2 (-53)) in Hi; [cbn [Z.opp] in U; lra|].
  change (-53)%Z with (-54 + 1)%Z. rewrite bpow_plus. change (bpow radix2 1) with 2. lra.
Qed.

(** ** The times of an open loop run *)

(** When [run_t] is [n] times [dt] exactly and the next multiple is a double, the
    grid that starts at zero has the [n + 1] times [i * dt], rounded, and none is
    beyond [run_t], which is the last one.  Missing: decimal multiples, for which the
    claim is false. *)
Theorem C68_grid_exact_partial : forall (n : nat) run_t dt,
  is_finite run_t = true -> is_finite dt = true -> 0 < B2R dt ->
  (Z.of_nat n < 2 ^ 53)%Z ->
  B2R run_t = INR n * B2R dt ->
  generic_format radix2 (FLT_exp (-1074) 53) (INR (S n) * B2R dt) ->
  INR (S n) * B2R dt <= bpow radix2 1022 ->
  let T := open_loop_times_f (fZ 0) run_t dt in
  length T = S n /\
  (forall i, (i <= n)%nat -> is_finite (nth i T dt) = true /\
     B2R (nth i T dt) = nearest (INR i * B2R dt) /\ B2R (nth i T dt) <= B2R run_t) /\
  B2R (nth n T dt) = B2R run_t.
Proof.
  intros n run_t dt Fr Fd Hd Hn Er Hf Hb T.
  destruct (fZ_ok 0 ltac:(lia)) as [E0 F0].
  pose proof (pos_INR n) as Pn. rewrite S_INR in *.
  assert (B1022 : bpow radix2 1022 <= bpow radix2 1023) by (apply bpow_le; lia).
  assert (Hrn : 0 <= INR n * B2R dt) by (apply Rmult_le_pos; lra).
  destruct (fadd_ok run_t dt Fr Fd) as [Es Fs]; [rewrite Er, Rabs_pos_eq; lra|].
  assert (Es' : B2R (fadd run_t dt) = (INR n + 1) * B2R dt).
  { rewrite Es, Er. replace (INR n * B2R dt + B2R dt) with ((INR n + 1) * B2R dt) by ring. now apply nearest_fmt. }
  destruct (fsub_ok (fadd run_t dt) (fZ 0) Fs F0) as [Eq0 Fq0].
  { rewrite E0, Es', Rminus_0_r, Rabs_pos_eq; lra. }
  rewrite E0, Es', Rminus_0_r, (nearest_fmt _ Hf) in Eq0.
  assert (Q : (INR n + 1) * B2R dt / B2R dt = IZR (Z.of_nat (S n))).
  { unfold Rdiv. rewrite Rmult_assoc, Rinv_r by lra. rewrite <- INR_IZR_INZ, S_INR. ring. }
  assert (Zn : (Z.abs (Z.of_nat (S n)) <= 2 ^ 53)%Z) by lia.
  destruct (fdiv_ok (fsub (fadd run_t dt) (fZ 0)) dt Fq0) as [Eq Fq]; [lra| |].
  { rewrite Eq0, Q, <- abs_IZR. apply Rle_trans with (IZR (2 ^ 53)); [now apply IZR_le|].
    change (IZR (2 ^ 53)) with (bpow radix2 53). apply bpow_le. lia. }
  rewrite Eq0, Q, (nearest_fmt _ (fmt_IZR _ Zn)) in Eq.
  assert (L : length T = S n).
  { unfold T, open_loop_times_f, arange_f, arange_f_len. rewrite map_length, seq_length.
    rewrite (fceil_exact _ _ Fq Eq Zn). lia. }
  assert (V : forall i, (i <= n)%nat -> is_finite (nth i T dt) = true /\ B2R (nth i T dt) = nearest (INR i * B2R dt)).
  { intros i Hi. apply grid_value; try assumption.
    - unfold T, open_loop_times_f, arange_f in L. rewrite map_length, seq_length in L. rewrite L. lia.
    - lia.
    - apply Rle_trans with (2 := Hb). apply Rmult_le_compat_r; [lra|]. apply le_INR in Hi. lra. }
  split; [exact L|].
  assert (Vn : nearest (INR n * B2R dt) = B2R run_t) by (rewrite <- Er; apply nearest_fmt, fmt_B2R).
  split.
  - intros i Hi. destruct (V i Hi) as [V1 V2]. split; [exact V1|]. split; [exact V2|].
    rewrite V2, <- Vn. apply nearest_le. apply Rmult_le_compat_r; [lra|]. now apply le_INR.
  - destruct (V n (Nat.le_refl n)) as [_ V2]. now rewrite V2.
Qed.

(** Whatever the rounding, no time is beyond [run_t + dt] by more than the relative
    error [2 ** -50]: at most about one extra sample. *)
Theorem C68_grid_bound_partial : forall run_t dt,
  is_finite run_t = true -> is_finite dt = true ->
  bpow radix2 (-1000) <= B2R dt <= bpow radix2 1000 -> 0 <= B2R run_t <= bpow radix2 1000 ->
  B2R run_t <= B2R dt * bpow radix2 50 ->
  forall x, In x (open_loop_times_f (fZ 0) run_t dt) ->
  is_finite x = true /\ 0 <= B2R x <= (B2R run_t + B2R dt) * (1 + bpow radix2 (-50)).
Proof.
  intros run_t dt Fr Fd Hd Hr Hn x Hx.
  destruct (fZ_ok 0 ltac:(lia)) as [E0 F0].
  set (u := bpow radix2 (-53)).
  assert (Hu : 0 < u <= 1 / 8).
  { unfold u. split; [apply bpow_gt_0|]. change (1 / 8) with (1 / bpow radix2 3).
    apply Rle_trans with (bpow radix2 (-3)); [apply bpow_le; lia|]. cbn. lra. }
  assert (H8 : bpow radix2 (-50) = 8 * u).
  { unfold u. change (-50)%Z with (3 + -53)%Z. rewrite bpow_plus. reflexivity. }
  pose proof (bpow_gt_0 radix2 (-1000)) as P0.
  assert (Pd : 0 < B2R dt) by lra.
  assert (Bm : bpow radix2 (-1022) <= bpow radix2 (-1000)) by (apply bpow_le; lia).
  assert (B1 : bpow radix2 1000 + bpow radix2 1000 = bpow radix2 1001).
  { change 1001%Z with (1000 + 1)%Z. rewrite bpow_plus. change (bpow radix2 1) with 2. ring. }
  assert (B2 : bpow radix2 1001 + bpow radix2 1001 = bpow radix2 1002).
  { change 1002%Z with (1001 + 1)%Z. rewrite bpow_plus. change (bpow radix2 1) with 2. ring. }
  assert (B3 : bpow radix2 1002 <= bpow radix2 1022) by (apply bpow_le; lia).
  assert (B4 : bpow radix2 1022 <= bpow radix2 1023) by (apply bpow_le; lia).
  pose proof (bpow_gt_0 radix2 1000) as P1.
  destruct (fadd_ok run_t dt Fr Fd) as [Es Fs]; [rewrite Rabs_pos_eq; lra|].
  assert (Sl : B2R dt <= B2R (fadd run_t dt)) by (rewrite Es; apply nearest_ge_fmt; [apply fmt_B2R|lra]).
  assert (Su : B2R (fadd run_t dt) <= (B2R run_t + B2R dt) * (1 + u)) by (rewrite Es; apply nearest_rel; lra).
  destruct (fsub_ok (fadd run_t dt) (fZ 0) Fs F0) as [Eq0 Fq0].
  { rewrite E0, Rminus_0_r, Rabs_pos_eq; [nra|lra]. }
  rewrite E0, Rminus_0_r, (nearest_fmt _ (fmt_B2R _)) in Eq0.
  set (s := B2R (fadd run_t dt)) in *.
  assert (B50 : bpow radix2 52 = 4 * bpow radix2 50).
  { change 52%Z with (2 + 50)%Z. rewrite bpow_plus. reflexivity. }
  assert (P50 : 1024 <= bpow radix2 50) by (change 1024 with (bpow radix2 10); apply bpow_le; lia).
  assert (Q1 : 1 <= s / B2R dt).
  { apply Rmult_le_reg_r with (B2R dt); [exact Pd|]. unfold Rdiv. rewrite Rmult_assoc, Rinv_l by lra. lra. }
  assert (Q2 : s / B2R dt <= (bpow radix2 50 + 1) * (1 + u)).
  { apply Rmult_le_reg_r with (B2R dt); [exact Pd|]. unfold Rdiv. rewrite Rmult_assoc, Rinv_l by lra. nra. }
  assert (Q3 : (bpow radix2 50 + 1) * (1 + u) * (1 + u) <= bpow radix2 52) by (rewrite B50; nra).
  destruct (fdiv_ok (fsub (fadd run_t dt) (fZ 0)) dt Fq0) as [Eq Fq]; [lra| |].
  { rewrite Eq0. rewrite Rabs_pos_eq by lra. apply Rle_trans with (bpow radix2 52); [nra|apply bpow_le; lia]. }
  rewrite Eq0 in Eq.
  assert (Qr : nearest (s / B2R dt) <= s / B2R dt * (1 + u)).
  { apply nearest_rel. apply Rle_trans with (2 := Q1). change 1 with (bpow radix2 0). apply bpow_le. lia. }
  assert (Qp : 0 <= nearest (s / B2R dt)) by (apply nearest_ge_fmt; [apply generic_format_0|lra]).
  destruct (fceil_lt _ Fq) as [C1 C2]; [rewrite Eq; nra|]. rewrite Eq in C2.
  apply In_nth with (d := dt) in Hx. destruct Hx as (i & Hi & <-).
  unfold open_loop_times_f in *. unfold arange_f in Hi. rewrite map_length, seq_length in Hi.
  assert (Hi' := Hi). unfold arange_f_len in Hi'.
  assert (Zi : (Z.of_nat i + 1 <= fceil (fdiv (fsub (fadd run_t dt) (fZ 0)) dt))%Z) by lia.
  apply IZR_le in Zi. rewrite plus_IZR, <- INR_IZR_INZ in Zi.
  pose proof (pos_INR i) as Pi.
  assert (HiB : INR i * B2R dt <= (B2R run_t + B2R dt) * (1 + u) * (1 + u)).
  { apply Rle_trans with (s / B2R dt * (1 + u) * B2R dt).
    - apply Rmult_le_compat_r; lra.
    - replace (s / B2R dt * (1 + u) * B2R dt) with (s * (1 + u)) by (field; lra).
      apply Rmult_le_compat_r; lra. }
  destruct (grid_value (fadd run_t dt) dt i dt Fd Pd Hi) as [G1 G2]; [lia|nra|].
  split; [exact G1|]. rewrite G2, H8.
  assert (Pi' : 0 <= INR i * B2R dt) by (apply Rmult_le_pos; lra).
  split; [apply nearest_ge_fmt; [apply generic_format_0|exact Pi']|].
  destruct i as [|i].
  - cbn [INR]. rewrite Rmult_0_l, nearest_fmt by apply generic_format_0. nra.
  - assert (R1 : nearest (INR (S i) * B2R dt) <= INR (S i) * B2R dt * (1 + u)).
    { apply nearest_rel. rewrite S_INR. pose proof (pos_INR i).
      assert (0 <= INR i * B2R dt) by (apply Rmult_le_pos; lra). lra. }
    apply Rle_trans with (1 := R1).
    apply Rle_trans with ((B2R run_t + B2R dt) * (1 + u) * (1 + u) * (1 + u)).
    + apply Rmult_le_compat_r; lra.
    + rewrite !Rmult_assoc. apply Rmult_le_compat_l; [lra|]. nra.
Qed.

(** The double of a decimal fraction. *)
Definition decimal (m d : Z) : f64 := fdiv (fZ m) (fZ d).

Lemma decimal_ok m d : (0 <= m <= 1000)%Z -> (1 <= d <= 1000)%Z -> double_of (IZR m / IZR d) (decimal m d).
Proof.
  intros Hm Hd. unfold double_of, decimal.
  destruct (fZ_ok m ltac:(lia)) as [Em Fm]. destruct (fZ_ok d ltac:(lia)) as [Ed _].
  assert (D : 1 <= IZR d) by (apply (IZR_le 1); lia).
  assert (M : 0 <= IZR m <= 1000) by (split; apply IZR_le; lia).
  destruct (fdiv_ok (fZ m) (fZ d) Fm) as [E F].
  - rewrite Ed. lra.
  - rewrite Em, Ed. assert (0 <= IZR m / IZR d <= IZR m).
    { split; [unfold Rdiv; apply Rmult_le_pos; [lra|left; apply Rinv_0_lt_compat; lra]|].
      apply Rmult_le_reg_r with (IZR d); [lra|]. unfold Rdiv. rewrite Rmult_assoc, Rinv_l by lra. nra. }
    rewrite Rabs_pos_eq by lra. apply Rle_trans with 1024; [lra|].
    change 1024 with (bpow radix2 10). apply bpow_le. lia.
  - rewrite Em, Ed in E. now split.
Qed.

(** With [dt = 0.1] and [run_t = 11 * dt = 1.1] the grid has thirteen times and ends
    after 1.2, one step beyond [run_t]. *)
Theorem C68_grid_decimal_refuted : exists run_t dt x,
  double_of (11 / 10) run_t /\ double_of (1 / 10) dt /\
  length (open_loop_times_f (fZ 0) run_t dt) = 13%nat /\
  In x (open_loop_times_f (fZ 0) run_t dt) /\ B2R x > 12 / 10.
Proof.
  exists (decimal 11 10), (decimal 1 10), (nth 12 (open_loop_times_f (fZ 0) (decimal 11 10) (decimal 1 10)) (fZ 0)).
  split; [apply (decimal_ok 11 10); lia|]. split; [apply (decimal_ok 1 10); lia|].
  assert (L : length (open_loop_times_f (fZ 0) (decimal 11 10) (decimal 1 10)) = 13%nat) by (vm_compute; reflexivity).
  split; [exact L|]. split; [apply nth_In; rewrite L; lia|].
  set (x := nth 12 _ _).
  assert (E : B2SF x = SpecFloat.S754_finite false 5404319552844596 (-52)) by (vm_compute; reflexivity).
  clearbody x. destruct x as [ | | |sg m e pf]; cbn in E; try discriminate. injection E as -> -> ->.
  cbn [B2R]. unfold F2R. cbn -[IZR]. lra.
Qed.

(** ** Minimum jerk *)

(** [generate_minimum_jerk([0], [1], execution_time=0.7, dt=0.1)] returns seven
    samples instead of the documented eight (the quotient is rounded to a number below
    seven) and ends below 0.97 instead of at the
    goal; with [execution_time=0.8] there are nine samples as documented, but the
    last one is below 0.98. *)
Theorem C68_minimum_jerk_refuted : exists seven eight dt,
  double_of (7 / 10) seven /\ double_of (8 / 10) eight /\ double_of (1 / 10) dt /\
  (exists X, generate_minimum_jerk_f (fZ 0) (fZ 1) seven dt = X /\ length X = 7%nat /\
     B2R (fst (fst (last X (fZ 1, fZ 0, fZ 0)))) < 97 / 100) /\
  (exists X, generate_minimum_jerk_f (fZ 0) (fZ 1) eight dt = X /\ length X = 9%nat /\
     B2R (fst (fst (last X (fZ 1, fZ 0, fZ 0)))) < 98 / 100).
Proof.
  exists (decimal 7 10), (decimal 8 10), (decimal 1 10).
  split; [apply (decimal_ok 7 10); lia|]. split; [apply (decimal_ok 8 10); lia|].
  split; [apply (decimal_ok 1 10); lia|].
  split; (eexists; split; [reflexivity|]; split; [vm_compute; reflexivity|]).
  - set (x := fst _).
    assert (E : B2SF x = SpecFloat.S754_finite false 8687499281193088 (-53)) by (vm_compute; reflexivity).
    clearbody x. destruct x as [ | | |sg m e pf]; cbn in E; try discriminate. injection E as -> -> ->.
    cbn [B2R]. unfold F2R. cbn -[IZR]. lra.
  - set (x := fst _).
    assert (E : B2SF x = SpecFloat.S754_finite false 8797654725163808 (-53)) by (vm_compute; reflexivity).
    clearbody x. destruct x as [ | | |sg m e pf]; cbn in E; try discriminate. injection E as -> -> ->.
    cbn [B2R]. unfold F2R. cbn -[IZR]. lra.
Qed.

(** ** The hypotheses can be met *)

Ltac value x :=
  let v := eval vm_compute in (B2SF x) in
  let E := fresh in
  assert (E : B2SF x = v) by (vm_compute; reflexivity);
  clearbody x; destruct x as [ | | |? ? ? ?]; cbn in E; try discriminate; injection E as -> -> ->;
  cbn [B2R]; unfold F2R; cbn -[IZR]; lra.

(** The default [int_dt = 0.001] and a control step of 0.01 after ten seconds. *)
Example C68_satisfiable : exists last_t t int_dt,
  double_of 10 last_t /\ double_of (1001 / 100) t /\ double_of (1 / 1000) int_dt /\
  exists fuel r, substeps_f fuel last_t t int_dt (fun _ _ n => S n) O = Ok r.
Proof.
  assert (D10 : double_of 10 (fZ 10)).
  { destruct (fZ_ok 10 ltac:(lia)) as [E F]. split; [exact F|]. rewrite E. symmetry.
    apply nearest_fmt, fmt_IZR. lia. }
  exists (fZ 10), (fdiv (fZ 1001) (fZ 100)), (decimal 1 1000).
  split; [exact D10|].
  assert (D : double_of (1001 / 100) (fdiv (fZ 1001) (fZ 100))).
  { destruct (fZ_ok 1001 ltac:(lia)) as [E F]. destruct (fZ_ok 100 ltac:(lia)) as [E' _].
    destruct (fdiv_ok (fZ 1001) (fZ 100) F) as [G1 G2].
    - rewrite E'. lra.
    - rewrite E, E', Rabs_pos_eq by lra. apply Rle_trans with (bpow radix2 10); [cbn; lra|apply bpow_le; lia].
    - rewrite E, E' in G1. now split. }
  split; [exact D|]. split; [apply (decimal_ok 1 1000); lia|].
  assert (HT : 1000 / 100 < B2R (fdiv (fZ 1001) (fZ 100)) <= bpow radix2 4).
  { set (x := fdiv (fZ 1001) (fZ 100)).
    value x. }
  assert (HI : / 2048 < B2R (decimal 1 1000)).
  { set (x := decimal 1 1000).
    value x. }
  destruct (fZ_ok 10 ltac:(lia)) as [E10 F10].
  destruct (C68_substeps_terminate_partial nat (fun _ _ n => S n) (fZ 10) (fdiv (fZ 1001) (fZ 100)) (decimal 1 1000) O)
    as (k & e & st & H & _).
  - exact F10.
  - apply D.
  - apply (decimal_ok 1 1000); lia.
  - rewrite E10. lra.
  - apply Rle_trans with (1 := proj2 HT). apply bpow_le. lia.
  - lra.
  - apply Rle_trans with (bpow radix2 4 * bpow radix2 (-52)).
    + apply Rmult_le_compat_r; [apply bpow_ge_0|lra].
    + rewrite <- bpow_plus. apply Rle_trans with (bpow radix2 (-11)); [apply bpow_le; lia|].
      change (bpow radix2 (-11)) with (/ 2048). lra.
  - now exists k, (e, run_steps (fun _ _ n => S n) st O).
Qed.

(** A sub-step of [2 ** -60] seconds from one second on: the loop hangs.  A grid of
    steps of one eighth of a second: exact. *)
Example C68_hang_satisfiable : exists int_dt, 0 < B2R int_dt /\
  forall fuel, substeps_f fuel (fZ 1) (fZ 2) int_dt (fun _ _ n => S n) O = Err OutOfFuel.
Proof.
  set (x := fdiv (fZ 1) (fZ (2 ^ 53))). set (y := fdiv x (fZ 128)).
  assert (HY : is_finite y = true /\ B2R y = bpow radix2 (-60)).
  { assert (F : is_finite y = true) by (vm_compute; reflexivity).
    split; [exact F|]. clear F. value y. }
  destruct HY as [F E].
  destruct (fZ_ok 1 ltac:(lia)) as [E1 F1]. destruct (fZ_ok 2 ltac:(lia)) as [E2 F2].
  exists y. rewrite E. split; [apply bpow_gt_0|]. intros fuel.
  apply C68_substeps_hang_refuted; try assumption.
  - rewrite E1, E2. lra.
  - rewrite E2. change 2 with (bpow radix2 1). apply bpow_le. lia.
  - rewrite E, E1, Rmult_1_l. split; [apply bpow_gt_0|]. apply bpow_lt. lia.
Qed.

Example C68_grid_satisfiable : length (open_loop_times_f (fZ 0) (fZ 2) (decimal 1 8)) = 17%nat.
Proof.
  assert (HD : is_finite (decimal 1 8) = true /\ B2R (decimal 1 8) = 1 / 8).
  { set (y := decimal 1 8). assert (F : is_finite y = true) by (vm_compute; reflexivity).
    split; [exact F|]. clear F. value y. }
  destruct HD as [F E]. destruct (fZ_ok 2 ltac:(lia)) as [E2 F2].
  refine (proj1 (C68_grid_exact_partial 16 (fZ 2) (decimal 1 8) F2 F _ _ _ _ _)).
  - rewrite E. lra.
  - lia.
  - rewrite E, E2. cbn. lra.
  - rewrite E. replace (INR 17 * (1 / 8)) with (F2R (Float radix2 17 (-3))).
    + apply generic_format_FLT. exists (Float radix2 17 (-3)); [reflexivity|cbn; lia|cbn; lia].
    + unfold F2R. cbn. lra.
  - rewrite E. apply Rle_trans with (bpow radix2 2); [cbn; lra|apply bpow_le; lia].
Qed.
