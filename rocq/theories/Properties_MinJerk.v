(** C47, C48, C49.  Final statements. *)
From Coq Require Import Reals ZArith List Arith Lia Lra Psatz FunctionalExtensionality.
From Coquelicot Require Import Coquelicot.
From Verif Require Import M_Prelude M_Base M_MinJerk P_MinJerk.
Import ListNotations.
Open Scope R_scope.
Set Bullet Behavior "Strict Subproofs".

(** ** C47 *)
(** Samples [0..N-1] of a trajectory with [N] whole periods are those of the
    minimum-jerk quintic of duration [execution_time - dt]; sample [N] repeats
    sample [N-1]. *)
Theorem C47_samples : forall start goal execution_time dt,
  alen start = alen goal -> 0 < dt -> 2 * dt <= execution_time ->
  exists N l,
    INR N * dt <= execution_time < (INR N + 1) * dt
    /\ generate_minimum_jerk start goal execution_time dt = Ok l
    /\ length l = S N
    /\ nth_error l N = nth_error l (N - 1)
    /\ forall k, (k < N)%nat -> exists x xd xdd, nth_error l k = Some (x, xd, xdd)
       /\ forall d,
         let D := execution_time - dt in
         let u := INR k * dt / D in
         let a := aget goal d - aget start d in
         x d = aget start d + a * (10 * u ^ 3 - 15 * u ^ 4 + 6 * u ^ 5)
         /\ xd d = a * (30 * u ^ 2 - 60 * u ^ 3 + 30 * u ^ 4) / D
         /\ xdd d = a * (60 * u - 180 * u ^ 2 + 120 * u ^ 3) / D ^ 2.
Proof.
  intros start goal T dt Hl Hdt HT.
  destruct (periods T dt Hdt ltac:(lra)) as [HP _].
  destruct (generate_minimum_jerk_closed start goal T dt Hl Hdt ltac:(lra)) as (l & E & Hlen & Hn).
  set (N := Z.to_nat (Ztrunc (T / dt))) in *. exists N, l.
  assert (H2 : (2 <= N)%nat).
  { rewrite S_INR in HP. assert (1 < INR N) by nra. change 1 with (INR 1) in H.
    apply INR_lt in H. lia. }
  rewrite S_INR in HP. split; [exact HP|]. split; [exact E|]. split; [exact Hlen|].
  destruct (le_dec 2 N); [|lia]. split.
  - rewrite !Hn by lia. rewrite Nat.min_r, Nat.min_l by lia. reflexivity.
  - intros k Hk. rewrite Hn by lia. rewrite Nat.min_l by lia.
    eexists _, _, _. split; [reflexivity|]. intros d. cbv zeta.
    repeat split; reflexivity.
Qed.

(** The quintic and its first three derivatives in time minimise the integral
    of the squared jerk among all curves with the same end points that start and
    end at rest. *)
Theorem C47_minimum_jerk : forall start goal execution_time dt,
  alen start = alen goal -> 0 < dt -> 2 * dt <= execution_time ->
  exists N l, generate_minimum_jerk start goal execution_time dt = Ok l /\ length l = S N
  /\ let D := execution_time - dt in
  forall d, exists c c1 c2 c3 : R -> R,
    (forall t, is_derive c t (c1 t) /\ is_derive c1 t (c2 t) /\ is_derive c2 t (c3 t)
       /\ continuous c3 t)
    /\ c 0 = aget start d /\ c1 0 = 0 /\ c2 0 = 0
    /\ c D = aget goal d /\ c1 D = 0 /\ c2 D = 0
    /\ (forall k x xd xdd, (k < N)%nat -> nth_error l k = Some (x, xd, xdd) ->
         x d = c (INR k * dt) /\ xd d = c1 (INR k * dt) /\ xdd d = c2 (INR k * dt))
    /\ (forall f f1 f2 f3 : R -> R,
         (forall t, 0 <= t <= D -> is_derive f t (f1 t) /\ is_derive f1 t (f2 t)
            /\ is_derive f2 t (f3 t) /\ continuous f3 t) ->
         f 0 = aget start d -> f1 0 = 0 -> f2 0 = 0 ->
         f D = aget goal d -> f1 D = 0 -> f2 D = 0 ->
         RInt (fun t => c3 t ^ 2) 0 D <= RInt (fun t => f3 t ^ 2) 0 D).
Proof.
  intros start goal T dt Hl Hdt HT.
  destruct (C47_samples start goal T dt Hl Hdt HT) as (N & l & _ & E & Hlen & _ & Hs).
  exists N, l. split; [exact E|]. split; [exact Hlen|]. intros D d.
  assert (HD : 0 < D) by (unfold D; lra). assert (HD0 : D <> 0) by lra.
  set (a := aget goal d - aget start d).
  exists (fun t => aget start d + a * mj (t / D)), (fun t => a * mj1 (t / D) / D),
    (fun t => a * mj2 (t / D) / D ^ 2), (fun t => a * mj3 (t / D) / D ^ 3).
  assert (H0 : forall x, 0 / x = 0) by (intros; unfold Rdiv; ring).
  assert (H1 : D / D = 1) by (field; auto).
  split.
  { intros t. split; [now apply mj_t_derive|]. split; [now apply mj1_t_derive|].
    split; [now apply mj2_t_derive|]. eapply continuous_of_derive, mj3_t_derive; auto. }
  rewrite !H0, !H1.
  split; [rewrite mj_0; ring|]. split; [unfold mj1; field; auto|]. split; [unfold mj2; field; auto|].
  split; [rewrite mj_1; unfold a; ring|]. split; [unfold mj1; field; auto|].
  split; [unfold mj2; field; auto|]. split.
  - intros k x xd xdd Hk Hn. destruct (Hs k Hk) as (x' & xd' & xdd' & Hn' & Hd).
    rewrite Hn in Hn'. injection Hn' as <- <- <-. exact (Hd d).
  - intros f f1 f2 f3 Hf F0 F10 F20 FD F1D F2D.
    now apply (jerk_optimal (aget start d) (aget goal d) D f f1 f2 f3).
Qed.

(** Whatever the times, all samples lie on the segment from start to goal, in order. *)
Theorem C47_segment : forall start goal execution_time dt,
  alen start = alen goal -> 0 < dt -> 0 <= execution_time ->
  exists l (lambda : nat -> R), generate_minimum_jerk start goal execution_time dt = Ok l
  /\ (forall k, 0 <= lambda k <= 1) /\ (forall j k, (j <= k)%nat -> lambda j <= lambda k)
  /\ forall k x xd xdd d, nth_error l k = Some (x, xd, xdd) ->
     x d = aget start d + lambda k * (aget goal d - aget start d).
Proof.
  intros start goal T dt Hl Hdt HT.
  destruct (periods T dt Hdt HT) as [HP _].
  destruct (generate_minimum_jerk_closed start goal T dt Hl Hdt HT) as (l & E & Hlen & Hn).
  set (N := Z.to_nat (Ztrunc (T / dt))) in *.
  destruct (le_dec 2 N) as [H2|H2].
  - assert (HNr : 2 <= INR N) by (apply (le_INR 2); auto).
    assert (HD : 0 < T - dt) by nra.
    exists l, (fun k => mj (INR (Nat.min k (N - 1)) * dt / (T - dt))). split; [exact E|].
    split; [|split].
    + intros k. apply mj_range.
      assert (INR (Nat.min k (N - 1)) <= INR (N - 1)) by (apply le_INR; lia).
      rewrite (minus_INR N 1) in H by lia. simpl (INR 1) in H.
      pose proof (pos_INR (Nat.min k (N - 1))).
      split.
      * apply Rmult_le_pos; [nra|]. left. now apply Rinv_0_lt_compat.
      * apply Rmult_le_reg_r with (T - dt); auto. unfold Rdiv. rewrite Rmult_assoc, Rinv_l by lra. nra.
    + intros j k Hjk. apply mj_mono. unfold Rdiv. apply Rmult_le_compat_r.
      * left. now apply Rinv_0_lt_compat.
      * apply Rmult_le_compat_r; [lra|]. apply le_INR. lia.
    + intros k x xd xdd d Hk.
      assert (k < length l)%nat by (apply nth_error_Some; congruence).
      rewrite Hn in Hk by lia. unfold mj_sample in Hk.
      assert (x = fun d => aget start d + (aget goal d - aget start d)
         * mj (INR (Nat.min k (N - 1)) * dt / (T - dt))) as -> by congruence. ring.
  - exists l, (fun _ => 0). split; [exact E|]. repeat split; intros; try lra.
    assert (k < length l)%nat by (apply nth_error_Some; congruence).
    rewrite Hn in H by lia. assert (x = aget start) as -> by congruence. ring.
Qed.

(** What is rejected. *)
Theorem C47_errors : forall start goal execution_time dt,
  (alen start <> alen goal -> generate_minimum_jerk start goal execution_time dt = Err ValueError)
  /\ (alen start = alen goal -> generate_minimum_jerk start goal execution_time 0
        = Err ZeroDivisionError).
Proof.
  intros. unfold generate_minimum_jerk. split; intros H.
  - apply Nat.eqb_neq in H. now rewrite H.
  - rewrite H, Nat.eqb_refl. cbn [negb]. destruct (Req_EM_T 0 0); [reflexivity|lra].
Qed.

Definition ex_zero : arr := {| alen := 1; aget := fun _ => 0 |}.
Definition ex_one : arr := {| alen := 1; aget := fun _ => 1 |}.

(** Half way after half of the shortened duration. *)
Example C47_satisfiable : exists l x xd xdd,
  generate_minimum_jerk ex_zero ex_one 1 (1/5) = Ok l /\ nth_error l 2 = Some (x, xd, xdd)
  /\ x 0%nat = 1/2 /\ length l = 6%nat.
Proof.
  destruct (C47_samples ex_zero ex_one 1 (1/5) eq_refl ltac:(lra) ltac:(lra))
    as (N & l & HN & E & Hl & _ & Hs).
  assert (N = 5)%nat as ->.
  { assert (INR N <= INR 5) by (simpl; lra). assert (INR 4 < INR N) by (simpl; lra).
    apply INR_le in H. apply INR_lt in H0. lia. }
  destruct (Hs 2%nat) as (x & xd & xdd & Hn & Hd); [lia|].
  exists l, x, xd, xdd. split; [exact E|]. split; [exact Hn|]. split; [|exact Hl].
  destruct (Hd 0%nat) as (-> & _). simpl. field.
Qed.

(** ** C48 *)
(** The full property ("the last sample is the goal at rest") holds in a
    coordinate that has to move exactly when the execution time is a whole number
    [N >= 2] of periods. *)
Theorem C48_reaches_goal_partial : forall start goal execution_time dt,
  alen start = alen goal -> 0 < dt -> 0 <= execution_time ->
  exists l x xd xdd, generate_minimum_jerk start goal execution_time dt = Ok l
  /\ nth_error l (length l - 1) = Some (x, xd, xdd)
  /\ (forall d, aget start d <> aget goal d ->
       ((exists N, (2 <= N)%nat /\ execution_time = INR N * dt) <-> x d = aget goal d))
  /\ ((exists N, (2 <= N)%nat /\ execution_time = INR N * dt) ->
       forall d, x d = aget goal d /\ xd d = 0 /\ xdd d = 0).
Proof.
  intros start goal T dt Hl Hdt HT.
  destruct (periods T dt Hdt HT) as [HP _].
  destruct (generate_minimum_jerk_closed start goal T dt Hl Hdt HT) as (l & E & Hlen & Hn).
  set (N := Z.to_nat (Ztrunc (T / dt))) in *.
  assert (HNu : forall M, T = INR M * dt -> M = N).
  { intros M HM. rewrite HM in HP. rewrite S_INR in HP.
    assert (INR N <= INR M) by nra. assert (INR M < INR (S N)) by (rewrite S_INR; nra).
    apply INR_le in H. apply INR_lt in H0. lia. }
  assert (Hlast : nth_error l (length l - 1) = nth_error l N) by (rewrite Hlen; f_equal; lia).
  rewrite (Hn N) in Hlast by lia. rewrite Nat.min_r in Hlast by lia.
  destruct (le_dec 2 N) as [H2|H2].
  - assert (HNr : 2 <= INR N) by (apply (le_INR 2); auto).
    assert (HD : 0 < T - dt) by nra.
    assert (Hu1 : T = INR N * dt -> INR (N - 1) * dt / (T - dt) = 1).
    { intros ET. rewrite minus_INR by lia. simpl (INR 1).
      replace ((INR N - 1) * dt) with (T - dt) by lra. field. lra. }
    eexists l, _, _, _. split; [exact E|]. split; [exact Hlast|]. split.
    + intros d Hd. split.
      * intros (M & HM & ET). rewrite (HNu M ET) in ET. rewrite Hu1 by auto. rewrite mj_1. ring.
      * intros Hx. exists N. split; auto.
        destruct (Req_dec (INR (N - 1) * dt / (T - dt)) 1) as [H1|H1].
        -- assert (INR (N - 1) * dt = T - dt).
           { apply (f_equal (fun z => z * (T - dt))) in H1. unfold Rdiv in H1.
             rewrite Rmult_assoc, Rinv_l in H1 by lra. lra. }
           rewrite minus_INR in H by lia. simpl in H. lra.
        -- exfalso. pose proof (mj_lt_1 (INR (N - 1) * dt / (T - dt))).
           assert (mj (INR (N - 1) * dt / (T - dt)) = 1).
           { apply (Rmult_eq_reg_l (aget goal d - aget start d)); lra. }
           assert (0 <= INR (N - 1) * dt / (T - dt) < 1); [|lra].
           pose proof (pos_INR (N - 1)). split.
           ++ apply Rmult_le_pos; [nra|]. left. now apply Rinv_0_lt_compat.
           ++ assert (INR (N - 1) * dt / (T - dt) <= 1); [|lra].
              apply Rmult_le_reg_r with (T - dt); auto. unfold Rdiv.
              rewrite Rmult_assoc, Rinv_l by lra. rewrite minus_INR by lia. simpl. nra.
    + intros (M & HM & ET) d. rewrite (HNu M ET) in ET. rewrite Hu1 by auto.
      rewrite mj_1. unfold mj1, mj2. repeat split; [ring| |]; field; lra.
  - eexists l, _, _, _. split; [exact E|]. split; [exact Hlast|]. split.
    + intros d Hd. split; [|congruence]. intros (M & HM & ET). rewrite (HNu M ET) in HM. lia.
    + intros (M & HM & ET). rewrite (HNu M ET) in HM. lia.
Qed.

(** It does not hold in general: with [dt = 3/10] and [execution_time = 1] the
    last sample is short of the goal, and with [execution_time = dt] the
    trajectory does not leave its start. *)
Theorem C48_reaches_goal_refuted :
  (exists l x xd xdd, generate_minimum_jerk ex_zero ex_one 1 (3/10) = Ok l
    /\ nth_error l (length l - 1) = Some (x, xd, xdd) /\ x 0%nat <> aget ex_one 0%nat)
  /\ (exists l x xd xdd, generate_minimum_jerk ex_zero ex_one 1 1 = Ok l
    /\ nth_error l (length l - 1) = Some (x, xd, xdd) /\ x 0%nat <> aget ex_one 0%nat).
Proof.
  split.
  - destruct (C48_reaches_goal_partial ex_zero ex_one 1 (3/10) eq_refl ltac:(lra) ltac:(lra))
      as (l & x & xd & xdd & E & Hn & H & _).
    exists l, x, xd, xdd. split; [exact E|]. split; [exact Hn|]. intros Hx.
    apply (H 0%nat) in Hx; [|simpl; lra]. destruct Hx as (N & _ & EN).
    assert (INR N < INR 4) by (simpl; lra). assert (INR 3 < INR N) by (simpl; lra).
    apply INR_lt in H0, H1. lia.
  - destruct (C48_reaches_goal_partial ex_zero ex_one 1 1 eq_refl ltac:(lra) ltac:(lra))
      as (l & x & xd & xdd & E & Hn & H & _).
    exists l, x, xd, xdd. split; [exact E|]. split; [exact Hn|]. intros Hx.
    apply (H 0%nat) in Hx; [|simpl; lra]. destruct Hx as (N & HN & EN).
    apply le_INR in HN. simpl in HN. lra.
Qed.

Example C48_satisfiable : exists N, (2 <= N)%nat /\ 1 = INR N * (1/5).
Proof. exists 5%nat. split; [lia|]. simpl. lra. Qed.

(** ** C49 *)
(** Histories of calls without [reset]. *)
Inductive mjt_op := MStep (last_y last_yd : arr) | MConfigure (c : configure_args).

(** The results of the [step] calls of a history. *)
Fixpoint step_results (ops : list mjt_op) (o : mjt) : list (res (arr * arr)) :=
  match ops with
  | [] => []
  | MStep a b :: ops => let '(o', r) := mjt_step a b o in r :: step_results ops o'
  | MConfigure c :: ops => step_results ops (fst (mjt_configure c o))
  end.

Definition steps_in (ops : list mjt_op) : nat :=
  length (filter (fun op => match op with MStep _ _ => true | _ => false end) ops).

(** What call [i] is expected to return. *)
Definition playback (n_dims : nat) (X : list sample) (i : nat) : res (arr * arr) :=
  match nth_error X i with
  | Some (x, xd, _) => Ok ({| alen := n_dims; aget := x |}, {| alen := n_dims; aget := xd |})
  | None => Err IndexError
  end.

Lemma configure_block_dims x n f p : (forall a p, p_n_dims (f a p) = p_n_dims p) ->
  p_n_dims (fst (configure_block x n f p)) = p_n_dims p.
Proof.
  intros Hf. unfold configure_block. destruct x; [|reflexivity].
  destruct (check_1d_array_length _ _); simpl; auto.
Qed.

Lemma and_then_dims r f n : p_n_dims (fst r) = n -> (forall p, p_n_dims (fst (f p)) = p_n_dims p) ->
  p_n_dims (fst (and_then r f)) = n.
Proof. destruct r as [p [e|]]; simpl; intros H Hf; auto. now rewrite Hf. Qed.

Lemma configure_dims c p : p_n_dims (fst (configure c p)) = p_n_dims p.
Proof.
  unfold configure. cbv zeta.
  repeat (apply and_then_dims; [rewrite configure_block_dims by reflexivity;
     try reflexivity; destruct (c_t c); reflexivity|intros ?]).
  now rewrite configure_block_dims.
Qed.

Lemma playback_from ops : forall o X, j_initialized o = true -> j_X o = Some X ->
  (j_step_idx o <= length X)%nat ->
  step_results ops o = map (fun i => playback (p_n_dims (j_base o)) X
      (Nat.min (j_step_idx o + i) (length X))) (seq 0 (steps_in ops)).
Proof.
  induction ops as [|[a b|c] ops IH]; intros o X Hi HX Hle; [reflexivity| |].
  - cbn [step_results]. unfold steps_in. cbn [filter length seq map].
    rewrite <- seq_shift, map_map.
    unfold mjt_step. rewrite Hi. cbv zeta. rewrite HX.
    destruct (nth_error X (j_step_idx o)) as [[[x xd] xdd]|] eqn:En.
    + assert (j_step_idx o < length X)%nat by (apply nth_error_Some; congruence).
      cbv iota beta. f_equal.
      * rewrite Nat.add_0_r, Nat.min_l by lia. unfold playback. now rewrite En.
      * rewrite (IH _ X) by (simpl; auto; lia). apply map_ext. intros i.
        cbn [j_base j_step_idx p_n_dims set_current]. do 2 f_equal. lia.
    + apply nth_error_None in En. cbv iota beta. f_equal.
      * rewrite Nat.min_r by lia. unfold playback.
        rewrite (proj2 (nth_error_None X (length X))) by lia. reflexivity.
      * rewrite (IH o X) by auto. apply map_ext. intros i. f_equal. lia.
  - cbn [step_results]. unfold steps_in. cbn [filter].
    unfold mjt_configure. pose proof (configure_dims c (j_base o)) as Hd.
    destruct (configure c (j_base o)) as [p e]. cbn [fst] in *.
    rewrite (IH _ X) by auto. cbn [j_base j_step_idx]. now rewrite Hd.
Qed.

(** After a reset, whatever happened before ([o] is arbitrary) and whatever is
    configured between the calls, call [i] of [step] returns sample [i] of the
    trajectory between the start and the goal in effect at the first call; later
    calls raise IndexError. *)
Theorem C49_playback : forall o a b ops X,
  generate_minimum_jerk (p_start_y (j_base o)) (p_goal_y (j_base o)) (j_execution_time o) (j_dt o)
    = Ok X ->
  step_results (MStep a b :: ops) (mjt_reset o)
  = map (playback (p_n_dims (j_base o)) X) (seq 0 (1 + steps_in ops)).
Proof.
  intros o a b ops X HX.
  assert (Hne : exists x xd xdd X', X = (x, xd, xdd) :: X').
  { unfold generate_minimum_jerk in HX. destruct (negb _); [discriminate|].
    destruct (Req_EM_T _ _); [discriminate|]. destruct (Z_lt_dec _ _); [discriminate|].
    destruct (Z_lt_dec _ _); [discriminate|]. injection HX as <-. eauto. }
  cbn [step_results]. unfold mjt_step, mjt_reset.
  cbn [j_initialized j_base j_execution_time j_dt j_step_idx j_X bind].
  destruct Hne as (x & xd & xdd & X' & ->).
  match goal with |- context [bind ?g _] =>
    replace g with (Ok ((x, xd, xdd) :: X')) by (symmetry; exact HX) end.
  cbn [bind j_X j_step_idx j_base nth_error j_execution_time j_dt j_initialized].
  change (1 + steps_in ops)%nat with (S (steps_in ops)). cbn [seq map].
  rewrite <- seq_shift, map_map. apply f_equal2; [reflexivity|].
  rewrite (playback_from _ _ ((x, xd, xdd) :: X')) by (simpl; auto; lia).
  apply map_ext. intros i. cbn [j_base j_step_idx p_n_dims set_current].
  set (Y := ((x, xd, xdd) :: X') : list sample). change (1 + i)%nat with (S i).
  unfold playback. destruct (Nat.lt_ge_cases (S i) (length Y)) as [H|H].
  - rewrite Nat.min_l by lia. reflexivity.
  - rewrite Nat.min_r by lia.
    rewrite (proj2 (nth_error_None Y (length Y))) by lia.
    rewrite (proj2 (nth_error_None Y (S i))) by lia. reflexivity.
Qed.

(** A call beyond the last sample leaves the object as it was. *)
Theorem C49_beyond_the_end : forall o a b o' X,
  j_initialized o = true -> j_X o = Some X -> mjt_step a b o = (o', Err IndexError) -> o' = o.
Proof.
  intros o a b o' X Hi HX H. unfold mjt_step in H. rewrite Hi, HX in H.
  destruct (nth_error X (j_step_idx o)) as [[[x xd] xdd]|]; [discriminate|]. congruence.
Qed.

(** A rejected first step leaves the object as it was. *)
Theorem C49_rejected_first_step : forall o a b e,
  j_initialized o = false ->
  generate_minimum_jerk (p_start_y (j_base o)) (p_goal_y (j_base o)) (j_execution_time o) (j_dt o)
    = Err e -> mjt_step a b o = (o, Err e).
Proof. intros o a b e Hi H. unfold mjt_step. rewrite Hi, H. reflexivity. Qed.

Example C49_satisfiable : exists X,
  generate_minimum_jerk (p_start_y (j_base (mjt_new 1 1 (1/5))))
    (p_goal_y (j_base (mjt_new 1 1 (1/5)))) 1 (1/5) = Ok X /\ length X = 6%nat.
Proof.
  destruct (C47_samples (zeros 1) (zeros 1) 1 (1/5) eq_refl ltac:(lra) ltac:(lra))
    as (N & l & HN & E & Hl & _ & Hs).
  assert (N = 5)%nat as ->.
  { assert (INR N <= INR 5) by (simpl; lra). assert (INR 4 < INR N) by (simpl; lra).
    apply INR_le in H. apply INR_lt in H0. lia. }
  exists l. auto.
Qed.
