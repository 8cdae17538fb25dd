(** Open-loop runs exist whenever the step function is defined. *)
From Coq Require Import Reals List Arith Lia Lra Psatz.
From Verif Require Import M_Prelude M_Canonical M_Forcing M_Dmp S_Loops P_Loops P_DmpStep P_DmpScale.
Import ListNotations.
Open Scope R_scope.

Lemma run_steps_total {S} (step : R -> R -> S -> res S) : (forall t0 t s, t0 < t -> 0 < t -> exists s', step t0 t s = Ok s') ->
  forall ts t0 s, 0 <= t0 ->
  (forall i, (i < length ts)%nat -> nth i (t0 :: ts) 0 < nth i ts 0) ->
  exists l, run_steps step t0 ts s = Ok l.
Proof.
  intros Htot. induction ts as [|t ts IH]; intros t0 s H0 Hmono; [simpl; eauto|].
  assert (Hlt' : t0 < t) by (apply (Hmono 0%nat); simpl; lia).
  destruct (Htot t0 t s) as [s' Es]; [lra|lra|].
  destruct (IH t s') as [l El]; [lra| |].
  { intros i Hi'. apply (Hmono (Datatypes.S i)). simpl. lia. }
  exists (s' :: l). cbn [run_steps]. rewrite Es. cbn [bind]. now rewrite El.
Qed.

Lemma open_loop_total step run_t dt y0 v0 : 0 < dt -> 0 <= run_t ->
  (forall t0 t s, t0 < t -> 0 < t -> exists s', step t0 t s = Ok s') ->
  exists ts l, open_loop_run step 0 run_t dt y0 v0 = Ok (ts, l)
    /\ ((length l >= 2)%nat \/ run_t = 0).
Proof.
  intros Hdt Hr Htot.
  assert (Hlt : 0 < run_t + dt) by lra.
  pose proof (arange_len_spec 0 (run_t + dt) dt Hdt Hlt) as [Hn Hb]. cbv zeta in Hb.
  unfold open_loop_run, arange.
  destruct (arange_len 0 (run_t + dt) dt) as [|n] eqn:En; [lia|].
  simpl seq. cbn [map].
  destruct (run_steps_total step Htot
     (map (fun i => 0 + INR i * dt) (seq 1 n)) (0 + INR 0 * dt) (y0, v0)) as [l El].
  - simpl. lra.
  - intros i Hi'. rewrite map_length, seq_length in Hi'.
    change (0 + INR 0 * dt :: map (fun i0 => 0 + INR i0 * dt) (seq 1 n))
      with (map (fun i0 => 0 + INR i0 * dt) (seq 0 (S n))).
    rewrite !(nth_indep _ 0 (0 + INR 0 * dt)) by (rewrite map_length, seq_length; lia).
    rewrite !(map_nth (fun i0 => 0 + INR i0 * dt)), !seq_nth by lia.
    rewrite !plus_INR. simpl (INR 1). simpl (INR 0). nra.
  - rewrite El. cbn [bind]. eexists _, _. split; [reflexivity|].
    apply run_steps_length in El. rewrite map_length, seq_length in El. simpl. rewrite El.
    destruct n as [|n]; [|left; lia]. right. simpl in Hb. lra.
Qed.
