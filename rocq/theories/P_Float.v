(** Lemmas about the double precision model. *)
From Coq Require Import Reals ZArith List Bool Lia Lra.
From Verif Require Import M_Prelude.
From Flocq Require Import Core.Core IEEE754.BinarySingleNaN.
From Verif Require Import M_Float S_Float.
Import ListNotations.
Open Scope R_scope.
Set Bullet Behavior "Strict Subproofs".

Notation fexp := (FLT_exp (-1074) 53).
Notation fmt := (generic_format radix2 fexp).
Notation ulp2 := (ulp radix2 fexp).

Lemma valid64 : Valid_exp fexp.
Proof. apply FLT_exp_valid, prec_gt_0_53. Qed.
Lemma not_FTZ64 : Exp_not_FTZ fexp.
Proof. apply @monotone_exp_not_FTZ; [exact valid64|apply FLT_exp_monotone]. Qed.
#[local] Existing Instances valid64 not_FTZ64.

Lemma big_lt : bpow radix2 1023 < bpow radix2 1024.
Proof. apply bpow_lt. lia. Qed.

Lemma fmt_B2R (x : f64) : fmt (B2R x).
Proof. apply (generic_format_B2R 53 1024). Qed.

Lemma fmt_bpow e : (-1074 <= e)%Z -> fmt (bpow radix2 e).
Proof. intros H. apply generic_format_FLT_bpow; [exact prec_gt_0_53|exact H]. Qed.

Lemma nearest_le x y : x <= y -> nearest x <= nearest y.
Proof. intros H. unfold nearest. apply round_le; [apply FLT_exp_valid, prec_gt_0_53| |exact H]. apply valid_rnd_N. Qed.

Lemma nearest_fmt x : fmt x -> nearest x = x.
Proof. intros H. unfold nearest. apply round_generic; [apply valid_rnd_N|exact H]. Qed.

Lemma nearest_le_fmt x y : fmt y -> x <= y -> nearest x <= y.
Proof. intros Hy H. rewrite <- (nearest_fmt y Hy). now apply nearest_le. Qed.

Lemma nearest_ge_fmt x y : fmt x -> x <= y -> x <= nearest y.
Proof. intros Hy H. rewrite <- (nearest_fmt x Hy) at 1. now apply nearest_le. Qed.

Lemma nearest_err x : Rabs (nearest x - x) <= / 2 * ulp2 x.
Proof. unfold nearest. apply error_le_half_ulp. apply FLT_exp_valid, prec_gt_0_53. Qed.

Lemma fadd_ok (x y : f64) : is_finite x = true -> is_finite y = true ->
  Rabs (B2R x + B2R y) <= bpow radix2 1023 ->
  B2R (fadd x y) = nearest (B2R x + B2R y) /\ is_finite (fadd x y) = true.
Proof.
  intros Hx Hy Hb. pose proof (Bplus_correct 53 1024 _ _ mode_NE x y Hx Hy) as H.
  change (SpecFloat.fexp 53 1024) with fexp in H. change (round_mode mode_NE) with ZnearestE in H.
  fold (nearest (B2R x + B2R y)) in H.
  rewrite Rlt_bool_true in H.
  - destruct H as (H1 & H2 & _). now split.
  - apply Rle_lt_trans with (2 := big_lt). apply Rabs_le. apply Rabs_le_inv in Hb.
    split; [apply nearest_ge_fmt|apply nearest_le_fmt]; try lra.
    + apply generic_format_opp, fmt_bpow. lia.
    + apply fmt_bpow. lia.
Qed.

Lemma fsub_ok (x y : f64) : is_finite x = true -> is_finite y = true ->
  Rabs (B2R x - B2R y) <= bpow radix2 1023 ->
  B2R (fsub x y) = nearest (B2R x - B2R y) /\ is_finite (fsub x y) = true.
Proof.
  intros Hx Hy Hb. pose proof (Bminus_correct 53 1024 _ _ mode_NE x y Hx Hy) as H.
  change (SpecFloat.fexp 53 1024) with fexp in H. change (round_mode mode_NE) with ZnearestE in H.
  fold (nearest (B2R x - B2R y)) in H.
  rewrite Rlt_bool_true in H.
  - destruct H as (H1 & H2 & _). now split.
  - apply Rle_lt_trans with (2 := big_lt). apply Rabs_le. apply Rabs_le_inv in Hb.
    split; [apply nearest_ge_fmt|apply nearest_le_fmt]; try lra.
    + apply generic_format_opp, fmt_bpow. lia.
    + apply fmt_bpow. lia.
Qed.

Lemma fmul_ok (x y : f64) : is_finite x = true -> is_finite y = true ->
  Rabs (B2R x * B2R y) <= bpow radix2 1023 ->
  B2R (fmul x y) = nearest (B2R x * B2R y) /\ is_finite (fmul x y) = true.
Proof.
  intros Hx Hy Hb. pose proof (Bmult_correct 53 1024 _ _ mode_NE x y) as H.
  change (SpecFloat.fexp 53 1024) with fexp in H. change (round_mode mode_NE) with ZnearestE in H.
  fold (nearest (B2R x * B2R y)) in H.
  rewrite Rlt_bool_true in H.
  - destruct H as (H1 & H2 & _). rewrite Hx, Hy in H2. now split.
  - apply Rle_lt_trans with (2 := big_lt). apply Rabs_le. apply Rabs_le_inv in Hb.
    split; [apply nearest_ge_fmt|apply nearest_le_fmt]; try lra.
    + apply generic_format_opp, fmt_bpow. lia.
    + apply fmt_bpow. lia.
Qed.

Lemma fdiv_ok (x y : f64) : is_finite x = true -> B2R y <> 0 ->
  Rabs (B2R x / B2R y) <= bpow radix2 1023 ->
  B2R (fdiv x y) = nearest (B2R x / B2R y) /\ is_finite (fdiv x y) = true.
Proof.
  intros Hx Hy Hb. pose proof (Bdiv_correct 53 1024 _ _ mode_NE x y Hy) as H.
  change (SpecFloat.fexp 53 1024) with fexp in H. change (round_mode mode_NE) with ZnearestE in H.
  fold (nearest (B2R x / B2R y)) in H.
  rewrite Rlt_bool_true in H.
  - destruct H as (H1 & H2 & _). rewrite Hx in H2. now split.
  - apply Rle_lt_trans with (2 := big_lt). apply Rabs_le. apply Rabs_le_inv in Hb.
    split; [apply nearest_ge_fmt|apply nearest_le_fmt]; try lra.
    + apply generic_format_opp, fmt_bpow. lia.
    + apply fmt_bpow. lia.
Qed.

Lemma fmt_IZR z : (Z.abs z <= 2 ^ 53)%Z -> fmt (IZR z).
Proof.
  intros H. destruct (Z.eq_dec (Z.abs z) (2 ^ 53)) as [E|N].
  - assert (z = 2 ^ 53 \/ z = - 2 ^ 53)%Z as [->| ->] by lia.
    + apply (fmt_bpow 53). lia.
    + rewrite opp_IZR. apply generic_format_opp, (fmt_bpow 53). lia.
  - apply generic_format_FLT. exists (Float radix2 z 0).
    + unfold F2R. cbn. ring.
    + cbn. lia.
    + cbn. lia.
Qed.

Lemma fZ_ok z : (Z.abs z <= 2 ^ 53)%Z -> B2R (fZ z) = IZR z /\ is_finite (fZ z) = true.
Proof.
  intros Hz. pose proof (binary_normalize_correct 53 1024 _ _ mode_NE z 0 false) as H. cbv zeta in H.
  change (SpecFloat.fexp 53 1024) with fexp in H. change (round_mode mode_NE) with ZnearestE in H.
  assert (E : F2R (Float radix2 z 0) = IZR z) by (unfold F2R; cbn; ring).
  rewrite E in H. fold (nearest (IZR z)) in H. rewrite (nearest_fmt _ (fmt_IZR z Hz)) in H.
  rewrite Rlt_bool_true in H.
  - destruct H as (H1 & H2 & _). now split.
  - rewrite <- abs_IZR. apply Rle_lt_trans with (IZR (2 ^ 53)); [now apply IZR_le|].
    change (IZR (2 ^ 53)) with (bpow radix2 53). apply bpow_lt. lia.
Qed.

Lemma flt_ok (x y : f64) : is_finite x = true -> is_finite y = true ->
  flt x y = true <-> B2R x < B2R y.
Proof.
  intros Hx Hy. unfold flt. rewrite (Bltb_correct 53 1024 x y Hx Hy).
  destruct (Rlt_bool_spec (B2R x) (B2R y)); split; intros; try lra; try easy.
Qed.

Lemma flt_false (x y : f64) : is_finite x = true -> is_finite y = true ->
  flt x y = false <-> B2R y <= B2R x.
Proof.
  intros Hx Hy. unfold flt. rewrite (Bltb_correct 53 1024 x y Hx Hy).
  destruct (Rlt_bool_spec (B2R x) (B2R y)); split; intros; try lra; try easy.
Qed.

(** ** The sub-step loop *)

Lemma ulp_ge_eta x : bpow radix2 (-1074) <= ulp2 x.
Proof.
  rewrite <- (ulp_FLT_0 radix2 (-1074) 53). apply ulp_ge_ulp_0; [exact valid64|exact not_FTZ64].
Qed.

Lemma pos_ge_eta (x : f64) : 0 < B2R x -> bpow radix2 (-1074) <= B2R x.
Proof.
  intros H. pose proof (ulp_ge_eta 0) as _.
  assert (Hs : succ radix2 fexp 0 <= B2R x).
  { apply succ_le_lt; [apply FLT_exp_valid, prec_gt_0_53|apply generic_format_0|apply fmt_B2R|exact H]. }
  rewrite succ_0, ulp_FLT_0 in Hs by exact prec_gt_0_53. exact Hs.
Qed.

Lemma ulp_mono x y : 0 <= x <= y -> ulp2 x <= ulp2 y.
Proof.
  intros H. apply ulp_le; [apply FLT_exp_valid, prec_gt_0_53|apply FLT_exp_monotone|].
  rewrite !Rabs_pos_eq by lra. lra.
Qed.

(** One iteration of the loop. *)
Lemma substep (ct t int_dt : f64) : is_finite ct = true -> is_finite t = true -> is_finite int_dt = true ->
  0 <= B2R ct < B2R t -> B2R t <= bpow radix2 1022 -> 0 < B2R int_dt ->
  let dt := if flt (fsub t ct) int_dt then fsub t ct else int_dt in
  is_finite dt = true /\ is_finite (fadd ct dt) = true /\ 0 < B2R dt <= B2R int_dt /\
  B2R (fadd ct dt) = nearest (B2R ct + B2R dt) /\
  B2R ct <= B2R (fadd ct dt) <= next_double (B2R t) /\
  (ulp2 (B2R ct) <= B2R int_dt -> next_double (B2R ct) <= B2R (fadd ct dt)).
Proof.
  intros Fc Ft Fi Hc Hb Hi dt.
  assert (HS : forall x, 0 <= x -> next_double x = x + ulp2 x).
  { intros x Hx. unfold next_double. now apply succ_eq_pos. }
  assert (B : bpow radix2 1022 + bpow radix2 1022 = bpow radix2 1023).
  { change 1023%Z with (1022 + 1)%Z. rewrite bpow_plus. change (bpow radix2 1) with 2. ring. }
  pose proof (bpow_gt_0 radix2 1022) as P.
  destruct (fsub_ok t ct Ft Fc) as [Es Fs]; [rewrite Rabs_pos_eq; lra|].
  assert (Hgap : ulp2 (B2R ct) <= B2R t - B2R ct).
  { assert (succ radix2 fexp (B2R ct) <= B2R t).
    { apply succ_le_lt; [apply FLT_exp_valid, prec_gt_0_53|apply fmt_B2R|apply fmt_B2R|lra]. }
    rewrite succ_eq_pos in H by lra. lra. }
  assert (Hulp : fmt (ulp2 (B2R ct))).
  { apply generic_format_ulp; [exact valid64|exact not_FTZ64]. }
  assert (Hsub : ulp2 (B2R ct) <= B2R (fsub t ct)) by (rewrite Es; now apply nearest_ge_fmt).
  pose proof (ulp_ge_eta (B2R ct)) as He. pose proof (bpow_gt_0 radix2 (-1074)) as Pe.
  assert (Hsub' : B2R (fsub t ct) <= bpow radix2 1022).
  { rewrite Es. apply nearest_le_fmt; [apply fmt_bpow; lia|lra]. }
  assert (Hup : B2R (fsub t ct) <= B2R t - B2R ct + / 2 * ulp2 (B2R t)).
  { rewrite Es. pose proof (nearest_err (B2R t - B2R ct)) as E. apply Rabs_le_inv in E.
    pose proof (ulp_mono (B2R t - B2R ct) (B2R t) ltac:(lra)). lra. }
  assert (Hdt : is_finite dt = true /\ 0 < B2R dt <= B2R int_dt /\ B2R dt <= B2R (fsub t ct) /\
                (ulp2 (B2R ct) <= B2R int_dt -> ulp2 (B2R ct) <= B2R dt)).
  { unfold dt. destruct (flt (fsub t ct) int_dt) eqn:E.
    - apply flt_ok in E; [|assumption|assumption]. repeat split; try assumption; lra.
    - apply flt_false in E; [|assumption|assumption]. repeat split; try assumption; lra. }
  destruct Hdt as (Fd & Hd & Hd' & Hd'').
  destruct (fadd_ok ct dt Fc Fd) as [Ea Fa]; [rewrite Rabs_pos_eq; lra|].
  split; [exact Fd|]. split; [exact Fa|]. split; [exact Hd|]. split; [exact Ea|].
  pose proof (ulp_ge_eta (B2R t)) as He'.
  split.
  - rewrite Ea. split.
    + apply nearest_ge_fmt; [apply fmt_B2R|lra].
    + apply nearest_le_fmt.
      * apply generic_format_succ; [apply FLT_exp_valid, prec_gt_0_53|apply fmt_B2R].
      * rewrite HS by lra. lra.
  - intros Hu. rewrite Ea. apply nearest_ge_fmt.
    + apply generic_format_succ; [apply FLT_exp_valid, prec_gt_0_53|apply fmt_B2R].
    + rewrite HS by lra. specialize (Hd'' Hu). lra.
Qed.

(** The times after the sub-steps increase strictly. *)
Fixpoint increasing (t0 : R) (l : list R) : Prop :=
  match l with [] => True | t :: l => t0 < t /\ increasing t l end.

Lemma last_cons {A} (l : list A) (a d : A) : last l a = last (a :: l) d.
Proof.
  revert a d. induction l as [|b l IH]; intros a d; [reflexivity|].
  cbn [last] in *. destruct l as [|c l]; [reflexivity|]. rewrite <- (IH b a). now rewrite <- (IH b d).
Qed.

Lemma substeps_terminate (S : Type) (body : f64 -> f64 -> S -> S) (t int_dt : f64) :
  is_finite t = true -> is_finite int_dt = true -> B2R t <= bpow radix2 1022 ->
  0 < B2R int_dt -> ulp2 (B2R t) <= B2R int_dt ->
  forall k ct s, is_finite ct = true -> 0 <= B2R ct <= next_double (B2R t) ->
  B2R t - B2R ct <= INR k * bpow radix2 (-1074) ->
  exists ct' steps, substeps_f k ct t int_dt body s = Ok (ct', run_steps body steps s) /\
    is_finite ct' = true /\ B2R t <= B2R ct' <= next_double (B2R t) /\
    Forall (fun p => is_finite (snd p) = true /\ 0 < B2R (snd p) <= B2R int_dt) steps /\
    increasing (B2R ct) (map (fun p => B2R (fst p)) steps) /\
    ct' = last (map fst steps) ct.
Proof.
  intros Ft Fi Hb Hi Hu. induction k as [|k IH]; intros ct s Fc Hc Hk.
  - cbn [INR] in Hk. cbn [substeps_f].
    assert (E : flt ct t = false) by (apply flt_false; [assumption|assumption|lra]).
    rewrite E. exists ct, []. cbn. repeat split; try assumption; try lra. constructor.
  - cbn [substeps_f]. destruct (flt ct t) eqn:E.
    + apply flt_ok in E; [|assumption|assumption].
      destruct (substep ct t int_dt Fc Ft Fi ltac:(lra) Hb Hi) as (Fd & Fa & Hd & _ & Hr & Hp).
      set (dt := if flt (fsub t ct) int_dt then fsub t ct else int_dt) in *.
      pose proof (ulp_mono (B2R ct) (B2R t) ltac:(lra)) as Hm.
      specialize (Hp ltac:(lra)). unfold next_double at 1 in Hp. rewrite succ_eq_pos in Hp by lra.
      pose proof (ulp_ge_eta (B2R ct)) as He. pose proof (bpow_gt_0 radix2 (-1074)) as Pe.
      destruct (IH (fadd ct dt) (body (fadd ct dt) dt s) Fa ltac:(lra)) as (ct' & steps & R1 & R2 & R3 & R4 & R5 & R6).
      { rewrite S_INR in Hk. lra. }
      exists ct', ((fadd ct dt, dt) :: steps).
      split; [exact R1|]. split; [exact R2|]. split; [exact R3|].
      split; [constructor; [split; [exact Fd|exact Hd]|exact R4]|].
      split.
      * cbn. split; [lra|exact R5].
      * rewrite R6. cbn [map fst]. apply last_cons.
    + apply flt_false in E; [|assumption|assumption].
      exists ct, []. cbn. repeat split; try assumption; try lra. constructor.
Qed.

Lemma substeps_diverge (S : Type) (body : f64 -> f64 -> S -> S) (ct t int_dt : f64) :
  is_finite ct = true -> is_finite t = true -> is_finite int_dt = true ->
  0 <= B2R ct < B2R t -> B2R t <= bpow radix2 1022 -> 0 < B2R int_dt ->
  B2R int_dt < / 2 * ulp2 (B2R ct) ->
  forall k s, substeps_f k ct t int_dt body s = Err OutOfFuel.
Proof.
  intros Fc Ft Fi Hc Hb Hi Hu.
  (* the state is the same real number; the induction carries any such double *)
  assert (forall k c s, is_finite c = true -> B2R c = B2R ct -> substeps_f k c t int_dt body s = Err OutOfFuel) as G.
  { induction k as [|k IH]; intros c s Fc' Ec; cbn [substeps_f].
    - replace (flt c t) with true; [reflexivity|]. symmetry. apply flt_ok; [assumption|assumption|lra].
    - replace (flt c t) with true; [|symmetry; apply flt_ok; [assumption|assumption|lra]].
      destruct (substep c t int_dt Fc' Ft Fi ltac:(lra) Hb Hi) as (Fd1 & Fa1 & Hd1 & Ea1 & Hr1 & _).
      apply IH; [exact Fa1|]. rewrite <- Ec.
      apply Rle_antisym; [|lra]. rewrite Ea1. unfold nearest.
      apply round_N_le_midp; [apply FLT_exp_valid, prec_gt_0_53|apply fmt_B2R|].
      rewrite succ_eq_pos by lra. rewrite Ec in *. lra. }
  intros k s. now apply G.
Qed.

(** ** Grids *)

Lemma trunc_ok (x : f64) : IZR (fint x) = IZR (Ztrunc (B2R x)).
Proof.
  unfold fint. rewrite (Btrunc_correct 53 1024 _ x). unfold round, F2R, scaled_mantissa, cexp, FIX_exp. cbn.
  now rewrite Rmult_1_r, Rmult_1_r.
Qed.

Lemma fceil_exact (x : f64) z : is_finite x = true -> B2R x = IZR z -> (Z.abs z <= 2 ^ 53)%Z -> fceil x = z.
Proof.
  intros Fx Ex Hz. unfold fceil.
  assert (E : Btrunc x = z).
  { apply eq_IZR. pose proof (trunc_ok x) as H. unfold fint in H. rewrite H, Ex. now rewrite Ztrunc_IZR. }
  cbv zeta. rewrite E. destruct (fZ_ok z Hz) as [E0 F0].
  replace (flt (fZ z) x) with false; [reflexivity|]. symmetry. apply flt_false; [assumption|assumption|lra].
Qed.

Lemma fceil_lt (x : f64) : is_finite x = true -> 0 <= B2R x <= bpow radix2 52 ->
  (0 <= fceil x <= 2 ^ 53)%Z /\ IZR (fceil x) - 1 < B2R x.
Proof.
  intros Fx Hx.
  assert (E : Btrunc x = Zfloor (B2R x)).
  { apply eq_IZR. pose proof (trunc_ok x) as H. unfold fint in H. rewrite H. now rewrite Ztrunc_floor. }
  pose proof (Zfloor_lb (B2R x)) as L. pose proof (Zfloor_ub (B2R x)) as U.
  assert (Hz : (0 <= Zfloor (B2R x) <= 2 ^ 52)%Z).
  { split.
    - apply Zfloor_lub. exact (proj1 Hx).
    - apply le_IZR. change (IZR (2 ^ 52)) with (bpow radix2 52). lra. }
  unfold fceil. cbv zeta. rewrite E.
  destruct (fZ_ok (Zfloor (B2R x)) ltac:(lia)) as [E0 F0].
  destruct (flt (fZ (Zfloor (B2R x))) x) eqn:C.
  - apply flt_ok in C; [|assumption|assumption]. rewrite E0 in C. split; [lia|]. rewrite plus_IZR. lra.
  - split; [lia|]. lra.
Qed.

Lemma grid_value stop (dt : f64) i d : is_finite dt = true -> 0 < B2R dt ->
  (i < arange_f_len (fZ 0) stop dt)%nat -> (Z.of_nat i <= 2 ^ 53)%Z -> INR i * B2R dt <= bpow radix2 1022 ->
  is_finite (nth i (arange_f (fZ 0) stop dt) d) = true /\
  B2R (nth i (arange_f (fZ 0) stop dt) d) = nearest (INR i * B2R dt).
Proof.
  intros Fd Hd Hi Hz Hb. destruct (fZ_ok 0 ltac:(lia)) as [E0 F0].
  assert (B1022 : bpow radix2 1022 <= bpow radix2 1023) by (apply bpow_le; lia).
  unfold arange_f. cbv zeta.
  set (f := fun i0 : nat => _).
  assert (N : nth i (map f (seq 0 (arange_f_len (fZ 0) stop dt))) d = f i).
  { rewrite nth_indep with (d' := f O) by (rewrite map_length, seq_length; exact Hi).
    now rewrite map_nth, seq_nth by exact Hi. }
  rewrite N. clear N.
  destruct i as [|i].
  - change (f O) with (fZ 0). rewrite E0. split; [exact F0|]. cbn [INR]. rewrite Rmult_0_l. symmetry. apply nearest_fmt, generic_format_0.
  - assert (Hle : B2R dt <= bpow radix2 1022).
    { rewrite S_INR in Hb. pose proof (pos_INR i).
      assert (0 <= INR i * B2R dt) by (apply Rmult_le_pos; lra). lra. }
    destruct (fadd_ok (fZ 0) dt F0 Fd) as [E1 F1]; [rewrite E0, Rabs_pos_eq; lra|].
    rewrite E0, Rplus_0_l, (nearest_fmt _ (fmt_B2R dt)) in E1.
    destruct (fsub_ok (fadd (fZ 0) dt) (fZ 0) F1 F0) as [E2 F2]; [rewrite E1, E0, Rabs_pos_eq; lra|].
    rewrite E1, E0, Rminus_0_r, (nearest_fmt _ (fmt_B2R dt)) in E2.
    destruct i as [|i].
    + cbn [f]. split; [exact F1|]. rewrite E1. cbn [INR]. rewrite Rmult_1_l. symmetry. apply nearest_fmt, fmt_B2R.
    + set (k := S (S i)) in *. destruct (fZ_ok (Z.of_nat k) ltac:(lia)) as [Ek Fk].
      rewrite <- INR_IZR_INZ in Ek.
      assert (Hp : 0 <= INR k * B2R dt) by (apply Rmult_le_pos; [apply pos_INR|lra]).
      destruct (fmul_ok (fZ (Z.of_nat k)) (fsub (fadd (fZ 0) dt) (fZ 0)) Fk F2) as [E3 F3].
      { rewrite Ek, E2, Rabs_pos_eq; lra. }
      rewrite Ek, E2 in E3.
      assert (Hn : 0 <= nearest (INR k * B2R dt) <= bpow radix2 1022).
      { split; [apply nearest_ge_fmt; [apply generic_format_0|lra]|apply nearest_le_fmt; [apply fmt_bpow; lia|lra]]. }
      destruct (fadd_ok (fZ 0) (fmul (fZ (Z.of_nat k)) (fsub (fadd (fZ 0) dt) (fZ 0))) F0 F3) as [E4 F4].
      { rewrite E0, E3, Rabs_pos_eq; lra. }
      change (f k) with (fadd (fZ 0) (fmul (fZ (Z.of_nat k)) (fsub (fadd (fZ 0) dt) (fZ 0)))).
      split; [exact F4|]. rewrite E4, E0, Rplus_0_l. rewrite (nearest_fmt _ (fmt_B2R _)). exact E3.
Qed.

(** Relative error of rounding in the normal range. *)
Lemma nearest_rel x : bpow radix2 (-1022) <= x -> nearest x <= x * (1 + bpow radix2 (-53)).
Proof.
  intros H. assert (0 < x) by (pose proof (bpow_gt_0 radix2 (-1022)); lra).
  pose proof (nearest_err x) as E. apply Rabs_le_inv in E.
  pose proof (ulp_FLT_le radix2 (-1074) 53 x) as U. rewrite Rabs_pos_eq in U by lra.
  specialize (U H).
  replace (bpow radix2 (1 - 53)) with (2 * bpow radix2 (-53)) in U; [lra|].
  change (1 - 53)%Z with (-53 + 1)%Z. rewrite bpow_plus. change (bpow radix2 1) with 2. ring.
Qed.
