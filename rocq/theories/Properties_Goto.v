(** C117: going to a pose with the simulated UR5.  Final statements. *)
From Coq Require Import Reals List Arith Bool Lia Lra ZArith.
From Verif Require Import M_Prelude M_Base M_Quaternion M_Rigid S_Rotation P_Quaternion P_Rigid P_MinJerk M_Simulation
  Properties_Simulation.
Import ListNotations.
Set Bullet Behavior "Strict Subproofs".
Open Scope R_scope.

(** [k] steps of the simulation lead from [w] through the connected states [ws 0], ... to
    [ws k]. *)
Definition simulated {W} (b : bullet W) (k : nat) (w w' : W) (ws : nat -> W) : Prop :=
  ws 0%nat = w /\ ws k = w'
  /\ forall i, (i < k)%nat -> b_connected b (ws i) = true /\ ws (S i) = b_exec b StepSimulation (ws i).

Lemma sim_loop_simulated {W} (b : bullet W) n : forall s, exists k ws, (k <= n)%nat
  /\ simulated b k (s_w s) (s_w (sim_loop b n s)) ws
  /\ s_log (sim_loop b n s) = s_log s ++ repeat StepSimulation k
  /\ ((k < n)%nat -> b_connected b (ws k) = false).
Proof.
  induction n as [|n IH]; intros s.
  - exists 0%nat, (fun _ => s_w s). split; [lia|]. split; [|split; [cbn; now rewrite app_nil_r|lia]].
    split; [reflexivity|]. split; [reflexivity|]. lia.
  - cbn [sim_loop]. destruct (b_connected b (s_w s)) eqn:E.
    + destruct (IH (send b StepSimulation s)) as (k & ws & Hk & (H0 & H1 & H2) & Hl & Hc).
      exists (S k), (fun i => match i with O => s_w s | S i => ws i end). split; [lia|].
      split; [split; [reflexivity|split; [exact H1|]]|split].
      * intros [|i] Hi; [split; [exact E|exact H0]|]. apply H2. lia.
      * rewrite Hl. cbn [send s_log repeat]. now rewrite <- app_assoc.
      * intros Hi. apply Hc. lia.
    + exists 0%nat, (fun _ => s_w s). split; [lia|].
      split; [|split; [cbn; now rewrite app_nil_r|auto]]. split; [reflexivity|]. split; [reflexivity|]. lia.
Qed.

(** [goto_ee_state] sends the solution of the inverse kinematics as the target of position
    control, and then nothing but steps of the simulation, for the waiting time rounded down
    to whole steps, or until the connection is lost. *)
Theorem C117_goto : forall W (b : bullet W) dt pose wait_time s s', 0 < dt -> 0 <= wait_time ->
  goto_ee_state b dt pose wait_time s = (s', Ok tt) ->
  exists target q n k ws, ik_target b pose = Ok target
  /\ b_ik b (s_w s) (fst target) (snd target) = Some q
  /\ INR n * dt <= wait_time < INR (S n) * dt /\ (k <= n)%nat
  /\ s_log s' = s_log s ++ SetPosition q :: repeat StepSimulation k
  /\ simulated b k (b_exec b (SetPosition q) (s_w s)) (s_w s') ws
  /\ ((k < n)%nat -> b_connected b (ws k) = false).
Proof.
  intros W b dt pose wt s s' Hdt Hw E. unfold goto_ee_state, inverse_kinematics in E.
  destruct (ik_target b pose) as [[pos rot]|] eqn:Ei; cbn [bind] in E; [|discriminate].
  destruct (b_ik b (s_w s) pos rot) as [q|] eqn:Eq; [|discriminate].
  destruct (Req_EM_T dt 0); [lra|]. injection E as <-.
  destruct (sim_loop_simulated b (n_steps dt wt) (send b (SetPosition q) s)) as (k & ws & Hk & Hs & Hl & Hc).
  exists (pos, rot), q, (n_steps dt wt), k, ws. split; [reflexivity|]. split; [exact Eq|].
  split; [now apply n_steps_bounds|]. split; [exact Hk|].
  split; [|split; [exact Hs|exact Hc]]. rewrite Hl. cbn [send s_log]. now rewrite <- app_assoc.
Qed.

(** A pose without a solution, or with too few values, is refused before anything is sent;
    every pose with a solution is accepted. *)
Theorem C117_refused : forall W (b : bullet W) dt pose wait_time s s' e, dt <> 0 ->
  goto_ee_state b dt pose wait_time s = (s', Err e) ->
  s' = s /\ ((alen pose < 4)%nat
             \/ exists target, ik_target b pose = Ok target /\ b_ik b (s_w s) (fst target) (snd target) = None).
Proof.
  intros W b dt pose wt s s' e Hdt E. unfold goto_ee_state, inverse_kinematics in E.
  destruct (ik_target b pose) as [[pos rot]|e'] eqn:Ei; cbn [bind] in E.
  - destruct (b_ik b (s_w s) pos rot) as [q|] eqn:Eq.
    + destruct (Req_EM_T dt 0); [lra|discriminate].
    + injection E as <- <-. split; [reflexivity|]. right. exists (pos, rot). auto.
  - injection E as <- <-. split; [reflexivity|]. left.
    unfold ik_target, pybullet_pose in Ei. cbv zeta in Ei. cbn [slice_from alen] in Ei.
    destruct (Nat.eqb_spec (alen pose - 3) 0); [lia|discriminate].
Qed.

Theorem C117_completes : forall W (b : bullet W) dt pose wait_time s, dt <> 0 -> (4 <= alen pose)%nat ->
  (forall w pos rot, b_ik b w pos rot <> None) ->
  exists s', goto_ee_state b dt pose wait_time s = (s', Ok tt).
Proof.
  intros W b dt pose wt s Hdt Hp Hik. unfold goto_ee_state, inverse_kinematics, ik_target, pybullet_pose.
  cbv zeta. cbn [slice_from alen]. destruct (Nat.eqb_spec (alen pose - 3) 0); [lia|]. cbn [bind].
  destruct (multiplyTransforms _ _) as [pos rot]. pose proof (Hik (s_w s) pos rot).
  destruct (b_ik b (s_w s) pos rot); [|congruence]. destruct (Req_EM_T dt 0); [lra|]. eauto.
Qed.

(** Without a connection [step] raises AssertionError and sends nothing, while
    [goto_ee_state] returns as if the pose had been reached. *)
Theorem C117_disconnected : forall W (b : bullet W) dt pose wait_time s s',
  (forall w, b_connected b w = false) -> goto_ee_state b dt pose wait_time s = (s', Ok tt) ->
  sim_step b s' = (s', Err AssertionError) /\ exists q, s_log s' = s_log s ++ [SetPosition q].
Proof.
  intros W b dt pose wt s s' Hc E. split; [unfold sim_step; now rewrite Hc|].
  unfold goto_ee_state in E. destruct (inverse_kinematics b s pose) as [q|]; [|discriminate].
  destruct (Req_EM_T dt 0); [discriminate|]. injection E as <-. exists q.
  destruct (n_steps dt wt); cbn [sim_loop send s_log s_w]; rewrite ?Hc; reflexivity.
Qed.

(** A connection that is lost after two steps. *)
Example C117_satisfiable : exists (b : bullet nat) s' q,
  goto_ee_state b (1/2) half_turn 3 {| s_w := 0%nat; s_log := [] |} = (s', Ok tt)
  /\ s_log s' = [SetPosition q; StepSimulation; StepSimulation].
Proof.
  set (b := {| b_base := (arr_v3 v3_zero, arr_xyzw q_one); b_link := fun _ => (zeros 3, arr_xyzw q_one, zeros 3);
            b_ik := fun _ _ _ => Some (zeros 6); b_joints := fun _ => zeros 6;
            b_exec := fun c w => match c with StepSimulation => S w | _ => w end;
            b_connected := fun w => Nat.ltb w 2 |}).
  destruct (C117_completes nat b (1/2) half_turn 3 {| s_w := 0%nat; s_log := [] |}) as [s' E];
    [lra|cbn; lia|discriminate|].
  destruct (C117_goto nat b (1/2) half_turn 3 _ s' ltac:(lra) ltac:(lra) E)
    as (target & q & n & k & ws & _ & _ & Hn & Hk & Hl & (H0 & H1 & H2) & Hc).
  assert (n = 6)%nat as ->.
  { destruct Hn as [A B]. assert (INR n <= INR 6) by (simpl; lra). assert (INR 6 < INR (S n)) by (simpl (INR 6); lra).
    apply INR_le in H. apply INR_lt in H3. lia. }
  assert (Hw : forall i, (i <= k)%nat -> ws i = i).
  { induction i as [|i IH]; intros Hi; [exact H0|]. destruct (H2 i ltac:(lia)) as [_ ->]. cbn. now rewrite IH by lia. }
  assert (k = 2)%nat as ->.
  { destruct (lt_eq_lt_dec k 2) as [[L|L]|L]; [|exact L|].
    - specialize (Hc ltac:(lia)). rewrite Hw in Hc by lia. cbn [b b_connected] in Hc. apply Nat.ltb_ge in Hc. lia.
    - destruct (H2 2%nat ltac:(lia)) as [X _]. rewrite Hw in X by lia. discriminate. }
  exists b, s', q. split; [exact E|exact Hl].
Qed.
