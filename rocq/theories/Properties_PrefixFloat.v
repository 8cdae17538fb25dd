(** C132 in IEEE double precision. *)
From Coq Require Import Reals ZArith List Bool Lia Lra.
From Verif Require Import M_Prelude.
From Flocq Require Import Core.Core IEEE754.BinarySingleNaN.
From Verif Require Import M_Float M_FloatDmp S_Float P_Float.
Import ListNotations.
Open Scope R_scope.
Set Bullet Behavior "Strict Subproofs".

(** ** Specification *)
(** The times of a run in floats, and its rows: the first one is the start. *)
Definition double_times (run_t dt : f64) : list f64 := open_loop_times_f (fZ 0) run_t dt.
Definition double_rows (step : f64 -> f64 -> fvec * fvec -> fvec * fvec) (run_t dt : f64) (s : fvec * fvec)
    : list (fvec * fvec) :=
  match double_times run_t dt with
  | [] => []
  | t0 :: ts => s :: run_steps_f step t0 ts s
  end.

(** ** Proofs *)
Lemma fceil_ge (x : f64) : is_finite x = true -> 0 <= B2R x <= bpow radix2 52 -> B2R x <= IZR (fceil x).
Proof.
  intros Fx Hx.
  assert (E : Btrunc x = Zfloor (B2R x)).
  { apply eq_IZR. pose proof (trunc_ok x) as H. unfold fint in H. rewrite H. now rewrite Ztrunc_floor. }
  pose proof (Zfloor_lb (B2R x)) as L. pose proof (Zfloor_ub (B2R x)) as U.
  assert (Hz : (0 <= Zfloor (B2R x) <= 2 ^ 52)%Z).
  { split.
    - apply Zfloor_lub. exact (proj1 Hx).
    - apply le_IZR. change (IZR (2 ^ 52)) with (bpow radix2 52). lra. }
  unfold fceil. cbv zeta. rewrite E.
  destruct (fZ_ok (Zfloor (B2R x)) ltac:(lia)) as [E0 F0].
  destruct (flt (fZ (Zfloor (B2R x))) x) eqn:C.
  - rewrite plus_IZR. lra.
  - apply flt_false in C; [|assumption|assumption]. rewrite E0 in C. exact C.
Qed.

Lemma fceil_mono (x y : f64) : is_finite x = true -> is_finite y = true ->
  0 <= B2R x -> B2R x <= B2R y -> B2R y <= bpow radix2 52 -> (fceil x <= fceil y)%Z.
Proof.
  intros Fx Fy H0 Hxy Hy.
  destruct (fceil_lt x Fx ltac:(lra)) as [_ H1]. pose proof (fceil_ge y Fy ltac:(lra)) as H2.
  assert (IZR (fceil x) < IZR (fceil y + 1)) by (rewrite plus_IZR; lra).
  apply lt_IZR in H. lia.
Qed.

(** The quotient whose ceiling is the number of times. *)
Lemma quotient_ok (run_t dt : f64) : is_finite run_t = true -> is_finite dt = true ->
  bpow radix2 (-1000) <= B2R dt <= bpow radix2 1000 -> 0 <= B2R run_t <= bpow radix2 1000 ->
  B2R run_t <= B2R dt * bpow radix2 50 ->
  let q := fdiv (fsub (fadd run_t dt) (fZ 0)) dt in
  is_finite q = true /\ B2R q = nearest (nearest (B2R run_t + B2R dt) / B2R dt) /\ 0 <= B2R q <= bpow radix2 52.
Proof.
  intros Fr Fd Hd Hr Hn q.
  destruct (fZ_ok 0 ltac:(lia)) as [E0 F0].
  pose proof (bpow_gt_0 radix2 (-1000)) as P0.
  assert (Pd : 0 < B2R dt) by lra.
  assert (B1 : bpow radix2 1000 + bpow radix2 1000 = bpow radix2 1001).
  { change 1001%Z with (1000 + 1)%Z. rewrite bpow_plus. change (bpow radix2 1) with 2. ring. }
  assert (B4 : bpow radix2 1001 <= bpow radix2 1023) by (apply bpow_le; lia).
  assert (B5 : bpow radix2 51 <= bpow radix2 52) by (apply bpow_le; lia).
  assert (B6 : bpow radix2 52 <= bpow radix2 1023) by (apply bpow_le; lia).
  assert (B7 : 1 <= bpow radix2 50) by (change 1 with (bpow radix2 0); apply bpow_le; lia).
  assert (B8 : bpow radix2 51 = 2 * bpow radix2 50).
  { change 51%Z with (50 + 1)%Z. rewrite bpow_plus. change (bpow radix2 1) with 2. ring. }
  assert (B9 : bpow radix2 52 = 2 * bpow radix2 51).
  { change 52%Z with (51 + 1)%Z. rewrite bpow_plus. change (bpow radix2 1) with 2. ring. }
  destruct (fadd_ok run_t dt Fr Fd) as [Es Fs]; [rewrite Rabs_pos_eq; lra|].
  assert (Sl : B2R dt <= B2R (fadd run_t dt)) by (rewrite Es; apply nearest_ge_fmt; [apply fmt_B2R|lra]).
  assert (Su : B2R (fadd run_t dt) <= bpow radix2 1001).
  { rewrite Es. apply nearest_le_fmt; [apply fmt_bpow; lia|lra]. }
  assert (Sq : B2R (fadd run_t dt) <= B2R dt * bpow radix2 51).
  { rewrite Es. apply Rle_trans with ((B2R run_t + B2R dt) * (1 + bpow radix2 (-53))).
    - apply nearest_rel. apply Rle_trans with (bpow radix2 (-1000)); [apply bpow_le; lia|lra].
    - assert (Hu : bpow radix2 (-53) <= 1 / 8).
      { apply Rle_trans with (bpow radix2 (-3)); [apply bpow_le; lia|]. cbn. lra. }
      pose proof (bpow_gt_0 radix2 (-53)). rewrite B8.
      assert (B10 : 8 <= bpow radix2 50) by (change 8 with (bpow radix2 3); apply bpow_le; lia).
      apply Rle_trans with ((B2R dt * bpow radix2 50 + B2R dt) * (1 + 1 / 8)).
      + apply Rmult_le_compat; lra.
      + nra. }
  destruct (fsub_ok (fadd run_t dt) (fZ 0) Fs F0) as [Eq0 Fq0].
  { rewrite E0, Rminus_0_r, Rabs_pos_eq; lra. }
  rewrite E0, Rminus_0_r, (nearest_fmt _ (fmt_B2R _)) in Eq0.
  assert (Hq : 0 <= B2R (fadd run_t dt) / B2R dt <= bpow radix2 51).
  { split.
    - apply Rmult_le_pos; [lra|left; now apply Rinv_0_lt_compat].
    - apply Rmult_le_reg_r with (B2R dt); [exact Pd|]. unfold Rdiv. rewrite Rmult_assoc, Rinv_l by lra. lra. }
  destruct (fdiv_ok (fsub (fadd run_t dt) (fZ 0)) dt Fq0) as [E1 F1]; [lra|rewrite Eq0, Rabs_pos_eq; lra|].
  fold q in E1, F1. split; [exact F1|]. rewrite E1, Eq0. split; [now rewrite Es|].
  split; [apply nearest_ge_fmt; [apply generic_format_0|lra]|apply nearest_le_fmt; [apply fmt_bpow; lia|lra]].
Qed.

Lemma run_steps_f_app step ts2 : forall ts1 t s, exists more,
  run_steps_f step t (ts1 ++ ts2) s = run_steps_f step t ts1 s ++ more.
Proof.
  induction ts1 as [|t1 ts1 IH]; intros t s; [now exists (run_steps_f step t ts2 s)|].
  cbn [app run_steps_f]. destruct (IH t1 (step t t1 s)) as [more E]. exists more. cbv zeta. now rewrite E.
Qed.

Lemma length_run_steps_f step : forall ts t s, length (run_steps_f step t ts s) = length ts.
Proof. induction ts as [|t1 ts IH]; intros t s; [reflexivity|]. cbn [run_steps_f length]. cbv zeta. cbn. now rewrite IH. Qed.

(** ** C132 *)
(** In double precision: for every step function (all roundings of its computations
    included), the times and the rows of the shorter run are the first times and rows
    of the longer one, bit for bit. *)
Theorem C132_double_precision : forall step (a b dt : f64) s,
  is_finite a = true -> is_finite b = true -> is_finite dt = true ->
  bpow radix2 (-1000) <= B2R dt <= bpow radix2 1000 ->
  0 <= B2R a <= B2R b -> B2R b <= bpow radix2 1000 -> B2R b <= B2R dt * bpow radix2 50 ->
  length (double_rows step a dt s) = length (double_times a dt)
  /\ (1 <= length (double_times a dt))%nat
  /\ exists later_ts later_rows,
       double_times b dt = double_times a dt ++ later_ts
       /\ double_rows step b dt s = double_rows step a dt s ++ later_rows.
Proof.
  intros step a b dt s Fa Fb Fd Hd Hab Hb Hn.
  destruct (quotient_ok a dt Fa Fd Hd) as (F1 & E1 & B1); [lra|lra|].
  destruct (quotient_ok b dt Fb Fd Hd) as (F2 & E2 & B2); [lra|lra|].
  assert (P0 : 0 < B2R dt) by (pose proof (bpow_gt_0 radix2 (-1000)); lra).
  assert (Hle : B2R (fdiv (fsub (fadd a dt) (fZ 0)) dt) <= B2R (fdiv (fsub (fadd b dt) (fZ 0)) dt)).
  { rewrite E1, E2. apply nearest_le. unfold Rdiv. apply Rmult_le_compat_r.
    - left. now apply Rinv_0_lt_compat.
    - apply nearest_le. lra. }
  pose proof (fceil_mono _ _ F1 F2 (proj1 B1) Hle (proj2 B2)) as Hc.
  assert (Hl : (arange_f_len (fZ 0) (fadd a dt) dt <= arange_f_len (fZ 0) (fadd b dt) dt)%nat)
    by (unfold arange_f_len; lia).
  assert (Hpos : (1 <= arange_f_len (fZ 0) (fadd a dt) dt)%nat).
  { unfold arange_f_len. pose proof (fceil_ge _ F1 B1) as G.
    assert (1 <= B2R (fdiv (fsub (fadd a dt) (fZ 0)) dt)).
    { rewrite E1. apply nearest_ge_fmt; [change 1 with (bpow radix2 0); apply fmt_bpow; lia|].
      apply Rmult_le_reg_r with (B2R dt); [exact P0|]. unfold Rdiv. rewrite Rmult_assoc, Rinv_l by lra. rewrite Rmult_1_r, Rmult_1_l.
      apply nearest_ge_fmt; [apply fmt_B2R|lra]. }
    assert (1 <= fceil (fdiv (fsub (fadd a dt) (fZ 0)) dt))%Z by (apply le_IZR, Rle_trans with (2 := G); assumption). lia. }
  assert (Ht : exists later, double_times b dt = double_times a dt ++ later).
  { unfold double_times, open_loop_times_f, arange_f. cbv zeta.
    set (n := arange_f_len (fZ 0) (fadd a dt) dt) in *. set (m := arange_f_len (fZ 0) (fadd b dt) dt) in *.
    replace m with (n + (m - n))%nat by lia. rewrite seq_app, map_app. eauto. }
  assert (Hlen : length (double_times a dt) = arange_f_len (fZ 0) (fadd a dt) dt).
  { unfold double_times, open_loop_times_f, arange_f. cbv zeta. now rewrite map_length, seq_length. }
  split; [|split; [lia|]].
  - unfold double_rows. destruct (double_times a dt); [reflexivity|]. cbn [length]. now rewrite length_run_steps_f.
  - destruct Ht as [later Ht]. unfold double_rows. rewrite Ht.
    rewrite <- Hlen in Hpos. clear Hlen. destruct (double_times a dt) as [|t0 ts]; [cbn in Hpos; lia|]. cbn [app].
    destruct (run_steps_f_app step later ts t0 s) as [more ->]. now exists later, more.
Qed.

(** [dt = 2 ** -4], [run_t = 1] and [run_t = 2]. *)
Example C132_double_satisfiable : let dt := fdiv (fZ 1) (fZ 16) in
  is_finite (fZ 1) = true /\ is_finite (fZ 2) = true /\ is_finite dt = true
  /\ bpow radix2 (-1000) <= B2R dt <= bpow radix2 1000
  /\ 0 <= B2R (fZ 1) <= B2R (fZ 2) /\ B2R (fZ 2) <= bpow radix2 1000
  /\ B2R (fZ 2) <= B2R dt * bpow radix2 50
  /\ length (double_times (fZ 1) dt) = 17%nat /\ length (double_times (fZ 2) dt) = 33%nat.
Proof.
  cbv zeta. destruct (fZ_ok 1 ltac:(lia)) as [E1 F1]. destruct (fZ_ok 2 ltac:(lia)) as [E2 F2].
  destruct (fZ_ok 16 ltac:(lia)) as [E3 F3].
  assert (Ed : B2R (fdiv (fZ 1) (fZ 16)) = bpow radix2 (-4) /\ is_finite (fdiv (fZ 1) (fZ 16)) = true).
  { destruct (fdiv_ok (fZ 1) (fZ 16) F1) as [E F]; [lra| |].
    - rewrite E1, E3. replace (1 / 16) with (bpow radix2 (-4)) by (cbn; lra).
      rewrite Rabs_pos_eq by (left; apply bpow_gt_0). apply bpow_le. lia.
    - rewrite E1, E3 in E. split; [|exact F]. rewrite E. replace (1 / 16) with (bpow radix2 (-4)) by (cbn; lra).
      apply nearest_fmt, fmt_bpow. lia. }
  destruct Ed as [Ed Fd]. rewrite Ed, E1, E2.
  split; [exact F1|]. split; [exact F2|]. split; [exact Fd|].
  split; [split; apply bpow_le; lia|]. split; [lra|].
  split; [change 2 with (bpow radix2 1); apply bpow_le; lia|].
  split; [change 2 with (bpow radix2 1); rewrite <- bpow_plus; apply bpow_le; lia|].
  split; vm_compute; reflexivity.
Qed.
