(** Double precision and exact runs of the Runge-Kutta integrators compared. *)
From Coq Require Import Reals ZArith List Bool Lia Lra Psatz.
From Flocq Require Import Core.Core IEEE754.BinarySingleNaN.
From Verif Require Import M_Float S_Float P_Float M_FloatDmp P_FloatDmp.
From Verif Require Import M_Prelude M_Canonical M_Forcing M_Dmp S_FloatDmp.
Import ListNotations.
Open Scope R_scope.
Set Bullet Behavior "Strict Subproofs".

Section Exact.
Variables (a : dmp_args) (last_t t : R) (y v : vec) (d : nat) (al tau : R).
Hypothesis Hc : a_coupling_term a = None.
Hypothesis Hp : a_precomputed a = None.
Hypothesis Ht : a_tracking_error a = None.
Hypothesis Hs : a_smooth_scaling a = false.
Hypothesis Eal : a_alpha_y a d = al.
Hypothesis Ebe : a_beta_y a d = al / 4.
Hypothesis Etau : a_goal_t a - a_start_t a = tau.
Hypothesis Pal : 0 < al.
Hypothesis Ptau : 0 < tau.
Hypothesis Hh : 0 < t - last_t.
Let k := al / (2 * tau).
Let g := a_goal_y a d.
Let h := t - last_t.
Let x := k * h.

Lemma exact_stages : exists k0 c1 q1 k1 c2 q2 k2 c3 q3 k3,
  rk4_stages x (k * (y d - g)) (v d) (force_at a t d / (k * tau ^ 2))
    (force_at a (t + / 2 * h) d / (k * tau ^ 2)) (force_at a (t + h) d / (k * tau ^ 2)) 0
    k0 c1 q1 k1 c2 q2 k2 c3 q3 k3
  /\ (let s' := dmp_step_rk4_cython a last_t t (y, v) in
      k * (fst s' d - g) = k * (y d - g) + x * (v d + 2 * c1 + 2 * c2 + c3) / 6
      /\ snd s' d = v d + x * (k0 + 2 * k1 + 2 * k2 + k3) / 6)
  /\ (let s' := dmp_step_rk4 a last_t t (y, v) in
      k * (fst s' d - g) = k * (y d - g) + x * (v d + x / 6 * (k0 + k1 + k2))
      /\ snd s' d = v d + x * (k0 + 2 * k1 + 2 * k2 + k3) / 6).
Proof.
  assert (Pk : 0 < k) by (unfold k, Rdiv; apply Rmult_lt_0_compat; [lra|apply Rinv_0_lt_compat; lra]).
  assert (Nk : k <> 0) by lra. assert (Nt : tau <> 0) by lra. assert (Nh : h <> 0) by (unfold h; lra).
  assert (Ea : al = 2 * k * tau) by (unfold k; field; lra).
  set (q := k * (y d - g)).
  set (f0 := force_at a t d / (k * tau ^ 2)). set (f1 := force_at a (t + / 2 * h) d / (k * tau ^ 2)).
  set (f2 := force_at a (t + h) d / (k * tau ^ 2)).
  pose (k0 := - q - 2 * v d + f0). pose (c1 := v d + x / 2 * k0). pose (q1 := q + x / 2 * v d).
  pose (k1 := - q1 - 2 * c1 + f1). pose (c2 := v d + x / 2 * k1). pose (q2 := q + x / 2 * c1).
  pose (k2 := - q2 - 2 * c2 + f1). pose (c3 := v d + x * k2). pose (q3 := q + x * c2).
  pose (k3 := - q3 - 2 * c3 + f2).
  exists k0, c1, q1, k1, c2, q2, k2, c3, q3, k3.
  assert (Z : forall z, Rabs (z - z) <= 0) by (intros z; rewrite Rminus_diag_eq, Rabs_R0; lra).
  split; [|split].
  - unfold rk4_stages. repeat split; apply Z.
  - unfold dmp_step_rk4_cython, dmp_acc_cython, precomputed_cdd. cbv zeta.
    rewrite Hc, Hp, Ht, Hs. cbn [fst snd]. unfold vadd, vscale, vzero. cbv beta.
    rewrite Eal, Ebe, Etau, Ea. fold g h.
    unfold k3, q3, c3, k2, q2, c2, k1, q1, c1, k0, q, f0, f1, f2, x, force_at.
    split; field; lra.
  - unfold dmp_step_rk4, dmp_acc, precomputed_cdd, tracking_error_or_zero. cbv zeta.
    rewrite Hc, Hp, Ht, Hs. cbn [fst snd]. unfold vadd, vscale, vzero. cbv beta.
    rewrite Eal, Ebe, Etau, Ea. fold g h.
    unfold k3, q3, c3, k2, q2, c2, k1, q1, c1, k0, q, f0, f1, f2, x, force_at.
    split; field; repeat split; assumption.
Qed.
End Exact.

Lemma energy_zero : energy 0 0 = 0.
Proof. unfold energy. rewrite Rplus_0_r, Rabs_R0. ring. Qed.

Section Run.
Variables (fn : rk4_function) (A : dmp_args_f) (a : dmp_args) (d : nat) (W delta xmin : R).
Let al := a_alpha_y a d.
Let tau := a_goal_t a.
Let k := al / (2 * tau).
Let g := a_goal_y a d.
Let S := 16 * W.
Let r := 50 * (u64 * S).
Let D := 6 * delta + 30 * r / xmin.
Hypothesis HA : same_arguments A a d.
Hypothesis Hbe : a_beta_y a d = al / 4.
Hypothesis Wal : ordinary al.
Hypothesis Wtau : ordinary tau.
Hypothesis WW : ordinary W.
Hypothesis Hxmin : bpow radix2 (-35) <= xmin.
Hypothesis Hdelta : 0 <= delta <= W / 36.
Hypothesis Hg : k * Rabs g <= W.

Definition step_ok (l t : f64) : Prop :=
  is_finite l = true /\ is_finite t = true
  /\ xmin <= k * (B2R t - B2R l) <= / 6
  /\ forces_close A a d (al * tau / 2 * (W / 6)) (al * tau / 2 * delta) l t.

Definition state_ok (sf : fvec * fvec) (s : vec * vec) : Prop :=
  is_finite (fst sf d) = true /\ is_finite (snd sf d) = true
  /\ energy (k * (fst s d - g)) (snd s d) <= W
  /\ energy (k * (B2R (fst sf d) - fst s d)) (B2R (snd sf d) - snd s d) <= D.

Lemma k_pos : 0 < k.
Proof. exact (within_pos _ _ (P_FloatDmp.Wa al tau Wal Wtau)). Qed.

Lemma D_small : 0 <= D <= W / 3.
Proof.
  assert (PW : 0 < W) by exact (within_pos 100 _ WW).
  assert (Pm : 0 < bpow radix2 (-35)) by apply bpow_gt_0.
  assert (Hr : 30 * r / xmin <= W / 6).
  { unfold Rdiv. apply Rmult_le_reg_r with xmin; [lra|]. rewrite Rmult_assoc, Rinv_l, Rmult_1_r by lra.
    apply Rle_trans with (W * / 6 * bpow radix2 (-35)); [|apply Rmult_le_compat_l; lra].
    unfold r, S, u64. replace (-53)%Z with (-35 + -18)%Z by lia. rewrite bpow_plus.
    assert (bpow radix2 (-18) <= / 262144) by (clear; cbn; lra).
    assert (0 < bpow radix2 (-18)) by apply bpow_gt_0.
    set (P := bpow radix2 (-35)) in *. set (Q := bpow radix2 (-18)) in *.
    assert (P * Q <= P * (/ 262144)) by (apply Rmult_le_compat_l; lra).
    assert (W * (P * Q) <= W * (P * / 262144)) by (apply Rmult_le_compat_l; lra). clearbody P Q. nra. }
  assert (0 <= 30 * r / xmin).
  { unfold r, S, Rdiv. pose proof u64_pos. assert (0 < / xmin) by (apply Rinv_0_lt_compat; lra).
    apply Rmult_le_pos; [|lra]. nra. }
  unfold D. lra.
Qed.

Lemma run_step_ok l t sf s : step_ok l t -> state_ok sf s ->
  exists s', run_step_function (exact_step fn) a (B2R l) (B2R t) s = Ok s'
             /\ state_ok (double_step fn A l t sf) s'.
Proof.
  intros (Fl & Ft & Hx & (FF0 & B0 & C0) & (FF1 & B1 & C1) & (FF2 & B2 & C2)) (Fy & Fv & HE & HD).
  cbv zeta in *. destruct sf as [sy sv], s as [y v]. cbn [fst snd] in *.
  destruct HA as [[Fg Eg] [Fal Eal] [Fbe Ebe] [Fgt Egt] [[Fst Est] Est'] Hpow [Hc [Hp [Hte Hss]]]].
  fold g in Eg. fold al in Eal. fold tau in Egt. rewrite Hbe in Ebe.
  assert (PW : 0 < W) by exact (within_pos 100 _ WW).
  assert (Pal : 0 < al) by exact (within_pos 100 _ Wal).
  assert (Pt : 0 < tau) by exact (within_pos 100 _ Wtau).
  pose proof k_pos as Pk. pose proof D_small as HDs.
  assert (Pm : 0 < bpow radix2 (-35)) by apply bpow_gt_0.
  assert (Px : 0 < xmin) by lra.
  assert (Ph : 0 < B2R t - B2R l).
  { apply Rmult_lt_reg_l with k; auto. rewrite Rmult_0_r. lra. }
  assert (Est2 : a_goal_t a - a_start_t a = tau) by (rewrite Est'; unfold tau; ring).
  destruct (exact_stages a (B2R l) (B2R t) y v d al tau Hc Hp Hte Hss eq_refl Hbe Est2 Pal Pt Ph)
    as (k0' & c1' & q1' & k1' & c2' & q2' & k2' & c3' & q3' & k3' & ES & EC & EP). cbv zeta in EC, EP.
  fold k g in ES, EC, EP.
  assert (Ekt : k * tau ^ 2 = al * tau / 2) by (unfold k; field; lra).
  assert (Pkt : 0 < al * tau / 2) by nra.
  rewrite Ekt in ES.
  set (x := k * (B2R t - B2R l)) in *.
  assert (Hx' : 0 <= x <= / 6) by lra.
  (* magnitudes *)
  destruct (energy_bounds (k * (y d - g)) (v d)) as [My Mv].
  destruct (energy_bounds (k * (B2R (sy d) - y d)) (B2R (sv d) - v d)) as [Dy Dv].
  assert (Hy : Rabs (k * (B2R (sy d) - g)) <= S / 4).
  { replace (k * (B2R (sy d) - g)) with (k * (y d - g) + k * (B2R (sy d) - y d)) by ring.
    apply Rle_trans with (1 := Rabs_triang _ _). unfold S. lra. }
  assert (Hv : Rabs (B2R (sv d)) <= S / 4).
  { replace (B2R (sv d)) with (v d + (B2R (sv d) - v d)) by ring.
    apply Rle_trans with (1 := Rabs_triang _ _). unfold S. lra. }
  assert (Hkg : Rabs (k * B2R (fa_goal_y A d)) <= S / 4).
  { rewrite Eg, Rabs_mult, (Rabs_pos_eq k) by lra. unfold S. lra. }
  assert (FD : forall z B, 0 <= B -> Rabs z <= al * tau / 2 * B -> Rabs (z / (al * tau / 2)) <= B).
  { intros z B HB Hz. unfold Rdiv at 1. rewrite Rabs_mult, (Rabs_pos_eq (/ _))
      by (left; now apply Rinv_0_lt_compat).
    apply Rmult_le_reg_r with (al * tau / 2); auto. rewrite Rmult_assoc, Rinv_l, Rmult_1_r by lra. lra. }
  assert (FB : forall z w, Rabs w <= al * tau / 2 * (W / 6) -> Rabs (z - w) <= al * tau / 2 * delta ->
               Rabs (z / (al * tau / 2)) <= S / 2).
  { intros z w Hw Hzw. apply Rle_trans with (W / 6 + delta); [|unfold S; lra].
    apply FD; [lra|]. replace z with (w + (z - w)) by ring. apply Rle_trans with (1 := Rabs_triang _ _). lra. }
  assert (WS : within 110 S).
  { unfold S. apply (within_weaken (6 + 100)); [lia|]. apply within_mul; auto. apply within_const. lra. }
  assert (Wh : within 300 (B2R t - B2R l)).
  { replace (B2R t - B2R l) with (x * / k) by (unfold x; field; lra).
    apply (within_weaken (35 + 206)); [lia|]. apply within_mul.
    - split; [change (- (35))%Z with (-35)%Z; lra|]. apply Rle_trans with (1 := proj2 Hx').
      apply Rle_trans with (bpow radix2 0); [clear; cbn; lra|]. apply bpow_le. lia.
    - apply within_inv. exact (P_FloatDmp.Wa al tau Wal Wtau). }
  assert (Btau : tau <= bpow radix2 100) by apply Wtau.
  destruct (fsub_ok (fa_goal_t A) (fa_start_t A)) as [Etf Ftf]; auto.
  { rewrite Egt, Est, Rminus_0_r, Rabs_pos_eq by lra. apply Rle_trans with (1 := Btau). apply bpow_le. lia. }
  rewrite Est, Rminus_0_r, (nearest_fmt _ (fmt_B2R _)), Egt in Etf.
  assert (Hsq := Hpow _ (conj Ftf Etf)). fold tau in Hsq.
  assert (E52 : bpow radix2 (-52) = 2 * u64).
  { unfold u64. change (-52)%Z with (-53 + 1)%Z. rewrite bpow_plus. change (bpow radix2 1) with 2. ring. }
  rewrite E52 in Hsq.
  destruct (step_close A d l t (sy d) (sv d) al tau S Fg Fal Fbe Ftf Eal Ebe Etf Wal Wtau WS Hsq Ft Fl Fy Fv Wh)
    as (k0 & c1 & q1 & k1 & c2 & q2 & k2 & c3 & q3 & k3 & FS & FC & FP).
  1: { exact (proj2 Hx'). }
  1: { fold k. now rewrite Eg. }
  1: { exact Hv. }
  1: { exact Hkg. }
  1: { exact FF0. }
  1: { exact FF1. }
  1: { exact FF2. }
  1: { fold k. rewrite Ekt. now apply (FB _ _ B0). }
  1: { fold k. rewrite Ekt. now apply (FB _ _ B1). }
  1: { fold k. rewrite Ekt. now apply (FB _ _ B2). }
  fold k r in FS, FC, FP. rewrite Eg, Ekt in FS. rewrite Eg in FC, FP. fold x in FS, FC, FP.
  specialize (FC sy sv eq_refl eq_refl). specialize (FP sy sv eq_refl eq_refl). cbv zeta in FC, FP.
  assert (GD : forall z w, Rabs (z - w) <= al * tau / 2 * delta ->
               Rabs (z / (al * tau / 2) - w / (al * tau / 2)) <= delta).
  { intros z w H. replace (_ - _) with ((z - w) / (al * tau / 2)) by (field; lra). apply FD; lra. }
  assert (Hr0 : 0 <= r) by (unfold r, S; pose proof u64_pos; nra).
  assert (Z : rk4_stages x 0 0 0 0 0 0 0 0 0 0 0 0 0 0 0 0).
  { assert (Z0 : forall z, z = 0 -> Rabs z <= 0) by (intros z ->; rewrite Rabs_R0; lra).
    unfold rk4_stages. repeat split; apply Z0; ring. }
  assert (ND : forall z, Rabs z <= al * tau / 2 * (W / 6) -> Rabs (z / (al * tau / 2) - 0) <= W / 6).
  { intros z H. rewrite Rminus_0_r. apply FD; lra. }
  assert (Zr : forall z w, z = w -> Rabs (z - w) <= 0) by (intros z w ->; rewrite Rminus_diag_eq, Rabs_R0; lra).
  assert (Final : forall y' v' yf vf,
     snd (y', v') = v d + x * (k0' + 2 * k1' + 2 * k2' + k3') / 6 ->
     Rabs (vf - (B2R (sv d) + x * (k0 + 2 * k1 + 2 * k2 + k3) / 6)) <= r ->
     (Rabs (k * (yf - g) - (k * (B2R (sy d) - g) + x * (B2R (sv d) + 2 * c1 + 2 * c2 + c3) / 6)) <= r
      /\ k * (y' - g) = k * (y d - g) + x * (v d + 2 * c1' + 2 * c2' + c3') / 6
      \/ Rabs (k * (yf - g) - (k * (B2R (sy d) - g) + x * (B2R (sv d) + x / 6 * (k0 + k1 + k2)))) <= r
      /\ k * (y' - g) = k * (y d - g) + x * (v d + x / 6 * (k0' + k1' + k2'))) ->
     energy (k * (y' - g)) v' <= W /\ energy (k * (yf - y')) (vf - v') <= D).
  { intros y' v' yf vf Ev Hvf Hyf. cbn [snd] in Ev. split.
    - pose proof (compare_stages x _ _ _ _ _ 0 _ _ _ _ _ _ _ _ _ _ _ _ _ _ _ _ _ _ _ _ _ _ _ _ _ (W / 6)
        (k * (y' - g)) v' 0 0 Hx' ES Z (ND _ B0) (ND _ B1) (ND _ B2) (Zr _ _ Ev)) as CMP.
      rewrite !Rminus_0_r in CMP.
      assert (C := CMP ltac:(field)). clear CMP.
      assert (C' : energy (k * (y' - g)) v'
                   <= (1 - x / 3) * energy (k * (y d - g)) (v d) + 10 * 0 + 2 * (x * (W / 6))).
      { apply C. destruct Hyf as [[_ E]|[_ E]]; [left|right]; (split; [now apply Zr|field]). }
      assert ((1 - x / 3) * energy (k * (y d - g)) (v d) <= (1 - x / 3) * W) by (apply Rmult_le_compat_l; lra).
      lra.
    - pose proof (compare_stages x _ _ _ _ _ r _ _ _ _ _ _ _ _ _ _ _ _ _ _ _ _ _ _ _ _ _ _ _ _ _ delta
        (k * (yf - g)) vf (k * (y' - g)) v' Hx' FS ES (GD _ _ C0) (GD _ _ C1) (GD _ _ C2) Hvf Ev Hyf) as CMP.
      replace (k * (yf - g) - k * (y' - g)) with (k * (yf - y')) in CMP by ring.
      replace (k * (B2R (sy d) - g) - k * (y d - g)) with (k * (B2R (sy d) - y d)) in CMP by ring.
      assert ((1 - x / 3) * energy (k * (B2R (sy d) - y d)) (B2R (sv d) - v d) <= (1 - x / 3) * D)
        by (apply Rmult_le_compat_l; lra).
      assert (10 * r <= x / 3 * (30 * r / xmin)).
      { replace (x / 3 * (30 * r / xmin)) with (10 * r * (x * / xmin)) by (field; lra).
        assert (1 <= x * / xmin).
        { apply Rmult_le_reg_r with xmin; auto. rewrite Rmult_assoc, Rinv_l, Rmult_1_r by lra. lra. }
        nra. }
      unfold D in *. lra. }
  destruct fn; cbn [exact_step run_step_function double_step].
  - exists (dmp_step_rk4 a (B2R l) (B2R t) (y, v)). split; [reflexivity|].
    destruct FP as (FP1 & FP2 & FP3 & FP4), EP as [EP1 EP2].
    unfold state_ok. split; [exact FP1|]. split; [exact FP2|].
    apply Final; [exact EP2|exact FP4|]. right. split; [exact FP3|exact EP1].
  - exists (dmp_step_rk4_cython a (B2R l) (B2R t) (y, v)). split; [reflexivity|].
    destruct FC as (FP1 & FP2 & FP3 & FP4), EC as [EP1 EP2].
    unfold state_ok. split; [exact FP1|]. split; [exact FP2|].
    apply Final; [exact EP2|exact FP4|]. left. split; [exact FP3|exact EP1].
Qed.

Lemma run_close ts : forall t0 sf s, each_step step_ok t0 ts -> state_ok sf s ->
  exists l, M_Prelude.run_steps (run_step_function (exact_step fn) a) (B2R t0) (map (B2R (prec := 53) (emax := 1024)) ts) s = Ok l
            /\ Forall2 state_ok (run_steps_f (double_step fn A) t0 ts sf) l.
Proof.
  induction ts as [|t ts IH]; intros t0 sf s H Hs; cbn [map M_Prelude.run_steps run_steps_f].
  - exists []. split; [reflexivity|constructor].
  - cbn in H. destruct H as [H1 H2]. destruct (run_step_ok t0 t sf s H1 Hs) as (s' & E & Hs').
    destruct (IH t _ _ H2 Hs') as (l & El & Hl).
    exists (s' :: l). rewrite E. cbn [bind]. rewrite El. split; [reflexivity|]. constructor; auto.
Qed.

Lemma close_values sf s : state_ok sf s ->
  is_finite (fst sf d) = true /\ is_finite (snd sf d) = true
  /\ Rabs (B2R (fst sf d) - fst s d) <= 2 / k * D
  /\ Rabs (B2R (snd sf d) - snd s d) <= 3 * D.
Proof.
  intros (F1 & F2 & _ & HD). repeat split; auto.
  - destruct (energy_bounds (k * (B2R (fst sf d) - fst s d)) (B2R (snd sf d) - snd s d)) as [H _].
    pose proof k_pos as Pk. rewrite Rabs_mult, (Rabs_pos_eq k) in H by lra.
    apply Rmult_le_reg_l with k; auto. apply Rle_trans with (1 := H).
    replace (k * (2 / k * D)) with (2 * D) by (field; lra). lra.
  - destruct (energy_bounds (k * (B2R (fst sf d) - fst s d)) (B2R (snd sf d) - snd s d)) as [_ H]. lra.
Qed.

Lemma D_bound : D <= 6 * delta + bpow radix2 (-38) * W / xmin.
Proof.
  assert (PW : 0 < W) by exact (within_pos 100 _ WW).
  assert (Pm : 0 < bpow radix2 (-35)) by apply bpow_gt_0.
  unfold D. apply Rplus_le_compat_l. unfold Rdiv. apply Rmult_le_compat_r.
  - left. apply Rinv_0_lt_compat. lra.
  - unfold r, S, u64. replace (-38)%Z with (-53 + 15)%Z by lia. rewrite bpow_plus.
    change (bpow radix2 15) with 32768. pose proof (bpow_gt_0 radix2 (-53)). nra.
Qed.
End Run.
