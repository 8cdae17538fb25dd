(** Proofs about M_RH5.v: which clients a method touches. *)
From Coq Require Import Reals List Arith Bool Lia Lra ZArith String.
From Verif Require Import M_Prelude M_Base M_Quaternion M_Rigid M_Simulation M_Robot M_RH5.
Import ListNotations.
Set Bullet Behavior "Strict Subproofs".
Local Open Scope R_scope.

Section Local.
Context {W : Type} (e : engine W).

(** A method that reads and changes only the clients in [own]. *)
Definition local (own : nat -> Prop) {A} (m : prog (W:=W) A) : Prop :=
  forall w w' a, m w = (w', a) ->
  (forall c, ~ own c -> w_client w' c = w_client w c) /\ w_next w' = w_next w
  /\ exists l, w_log w' = w_log w ++ l /\ Forall (fun x => own (fst x)) l
  /\ forall v, (forall c, own c -> w_client v c = w_client w c) ->
       exists v', m v = (v', a) /\ (forall c, own c -> w_client v' c = w_client w' c)
       /\ w_log v' = w_log v ++ l.

Lemma local_lift own {A} (r : res A) : local own (lift r).
Proof.
  intros w w' a E. injection E as <- <-. split; [reflexivity|]. split; [reflexivity|]. exists [].
  rewrite app_nil_r. repeat split; auto. intros v Hv. exists v. rewrite app_nil_r. repeat split; auto.
Qed.

Lemma local_ret own {A} (x : A) : local own (ret x).
Proof. exact (local_lift own (Ok x)). Qed.

Lemma local_raise own {A} (x : exn) : local own (raise (A:=A) x).
Proof. exact (local_lift own (Err x)). Qed.

Lemma local_ask (own : nat -> Prop) {A} c (f : W -> A) : own c -> local own (ask c f).
Proof.
  intros Hc w w' a E. injection E as <- <-. split; [reflexivity|]. split; [reflexivity|]. exists [].
  rewrite app_nil_r. repeat split; auto. intros v Hv. exists v. unfold ask. rewrite (Hv c Hc), app_nil_r. repeat split; auto.
Qed.

Lemma local_request (own : nat -> Prop) c r : own c -> local own (request_ e c r).
Proof.
  intros Hc w w' a E. injection E as <- <-. cbn [w_client w_next w_log].
  split.
  { intros k Hk. unfold upd. destruct (Nat.eqb_spec k c); [subst; contradiction|reflexivity]. }
  split; [reflexivity|]. exists [(c, r)]. split; [reflexivity|]. split; [constructor; auto|].
  intros v Hv. eexists. split; [reflexivity|]. cbn [w_client w_log]. split; [|reflexivity].
  intros k Hk. unfold upd. destruct (Nat.eqb k c); [now rewrite (Hv c Hc)|now apply Hv].
Qed.

Lemma local_then own {A B} (m : prog A) (f : A -> prog B) :
  local own m -> (forall x, local own (f x)) -> local own (then_ m f).
Proof.
  intros Hm Hf w w' a E. unfold then_ in E. destruct (m w) as [w1 [x|x]] eqn:E1.
  - destruct (Hm _ _ _ E1) as (F1 & N1 & l1 & L1 & O1 & R1). destruct (Hf _ _ _ _ E) as (F2 & N2 & l2 & L2 & O2 & R2).
    split; [intros c Hc; now rewrite F2, F1|]. split; [now rewrite N2|]. exists (l1 ++ l2).
    split; [now rewrite L2, L1, app_assoc|]. split; [now apply Forall_app|].
    intros v Hv. destruct (R1 v Hv) as (v1 & Ev1 & Hv1 & Lv1). destruct (R2 v1 Hv1) as (v2 & Ev2 & Hv2 & Lv2).
    exists v2. unfold then_. rewrite Ev1. split; [exact Ev2|]. split; [exact Hv2|]. now rewrite Lv2, Lv1, app_assoc.
  - injection E as <- <-. destruct (Hm _ _ _ E1) as (F1 & N1 & l1 & L1 & O1 & R1).
    split; [exact F1|]. split; [exact N1|]. exists l1. split; [exact L1|]. split; [exact O1|].
    intros v Hv. destruct (R1 v Hv) as (v1 & Ev1 & Hv1 & Lv1). exists v1. unfold then_. rewrite Ev1. auto.
Qed.

Lemma local_weaken (own own' : nat -> Prop) {A} (m : prog A) :
  (forall c, own c -> own' c) -> local own m -> local own' m.
Proof.
  intros Hi Hm w w' a E. destruct (Hm _ _ _ E) as (F & N & l & L & O & R1).
  split; [intros c Hc; apply F; auto|]. split; [exact N|]. exists l. split; [exact L|].
  split; [eapply Forall_impl; [|exact O]; auto|].
  intros v Hv. destruct (R1 v (fun c Hc => Hv c (Hi c Hc))) as (v' & Ev & Hv' & Lv).
  exists v'. split; [exact Ev|]. split; [|exact Lv]. intros c Hc.
  (* inside [own] by locality, outside both are unchanged *)
  destruct (Hm _ _ _ Ev) as (Fv & _).
  destruct (Classical_Prop.classic (own c)) as [Ho|Ho]; [now apply Hv'|].
  rewrite (Fv c Ho), (F c Ho). now apply Hv.
Qed.

Ltac local_step :=
  match goal with
  | |- local _ (then_ _ _) => apply local_then; [|intros ?]
  | |- local _ (lift _) => apply local_lift
  | |- local _ (ret _) => apply local_ret
  | |- local _ (raise _) => apply local_raise
  | |- local _ (ask _ _) => apply local_ask; auto
  | |- local _ (request_ _ _ _) => apply local_request; auto
  | |- local _ (if ?b then _ else _) => destruct b
  | |- local _ (match ?x with _ => _ end) => destruct x
  | |- local _ (let '_ := ?x in _) => destruct x
  end.

Lemma local_motor (own : nat -> Prop) c b pc js t : own c -> local own (motor e c b pc js t).
Proof. intros Hc. unfold motor. repeat local_step. Qed.

Lemma local_client_step (own : nat -> Prop) c : own c -> local own (client_step e c).
Proof. intros Hc. unfold client_step. repeat local_step. Qed.

Lemma local_client_loop (own : nat -> Prop) n c : own c -> local own (client_loop e n c).
Proof. intros Hc. induction n as [|n IH]; cbn [client_loop]; repeat local_step; auto. Qed.

Lemma local_goto_loop (own : nat -> Prop) n k q eps : own (c_client k) -> local own (goto_loop e n k q eps).
Proof. intros Hc. induction n as [|n IH]; cbn [goto_loop]; repeat local_step; auto. Qed.

Lemma local_goto_joint_state (own : nat -> Prop) k q n eps :
  own (c_client k) -> local own (goto_joint_state e k q n eps).
Proof. intros Hc. unfold goto_joint_state. apply local_then; [now apply local_motor|]. intros _. now apply local_goto_loop. Qed.

Lemma local_chain_ik (own : nat -> Prop) k p q : own (c_client k) -> local own (chain_ik e k p q).
Proof.
  intros Hc. unfold chain_ik. apply local_then.
  - destruct q; [now apply local_goto_joint_state|apply local_ret].
  - intros _. repeat local_step.
Qed.

(** The clients of an RH5Simulation. *)
Definition rh5_clients (r : rh5) (c : nat) : Prop :=
  c = r_client r \/ c = c_client (r_left_ik r) \/ c = c_client (r_right_ik r).

Lemma local_rh5_ik r p : local (rh5_clients r) (rh5_inverse_kinematics e r p).
Proof.
  unfold rh5_inverse_kinematics, rh5_clients.
  repeat first [apply local_chain_ik; solve [auto] | local_step]; auto.
Qed.

Lemma local_rh5_set_joints r q pc : local (fun c => c = r_client r) (rh5_set_desired_joint_state e r q pc).
Proof.
  unfold rh5_set_desired_joint_state, rh5_split. apply local_then; [now apply local_motor|]. intros _. now apply local_motor.
Qed.

Lemma local_rh5_get_joints r : local (fun c => c = r_client r) (rh5_get_joint_state e r).
Proof. unfold rh5_get_joint_state. now apply local_ask. Qed.

Lemma local_rh5_get_ee r rv : local (fun c => c = r_client r) (rh5_get_ee_state e r rv).
Proof. unfold rh5_get_ee_state. repeat local_step. Qed.

Lemma rh5_client_own r c : c = r_client r -> rh5_clients r c.
Proof. now left. Qed.

Lemma local_rh5_set_ee r p pc : local (rh5_clients r) (rh5_set_desired_ee_state e r p pc).
Proof.
  unfold rh5_set_desired_ee_state. apply local_then; [apply local_rh5_ik|]. intros q. destruct pc.
  - eapply local_weaken; [apply rh5_client_own|apply local_rh5_set_joints].
  - apply local_then; [eapply local_weaken; [apply rh5_client_own|apply local_rh5_get_joints]|].
    intros [last_q ?]. eapply local_weaken; [apply rh5_client_own|apply local_rh5_set_joints].
Qed.

Lemma local_rh5_goto r p t : local (rh5_clients r) (rh5_goto_ee_state e r p t).
Proof.
  unfold rh5_goto_ee_state. apply local_then; [apply local_rh5_ik|]. intros q.
  apply local_then; [eapply local_weaken; [apply rh5_client_own|apply local_rh5_set_joints]|]. intros _.
  destruct (Req_EM_T (r_dt r) 0); [apply local_raise|]. apply local_client_loop. now left.
Qed.

Lemma local_rh5_stop r : local (rh5_clients r) (rh5_stop e r).
Proof.
  unfold rh5_stop. apply local_then; [eapply local_weaken; [apply rh5_client_own|apply local_rh5_get_ee]|]. intros p.
  apply local_then; [apply local_rh5_goto|]. intros _. apply local_client_step. now left.
Qed.

Context {S : Type} (step : arr -> arr -> S -> S * res (arr * arr)).

Lemma local_rh5_cartesian_loop r cl n : forall p v h st,
  local (rh5_clients r) (rh5_cartesian_loop e step n r cl p v h st).
Proof.
  induction n as [|n IH]; intros p v h st; cbn [rh5_cartesian_loop]; [apply local_ret|].
  assert (G : local (rh5_clients r) (rh5_get_ee_state e r false))
    by (eapply local_weaken; [apply rh5_client_own|apply local_rh5_get_ee]).
  apply local_then; [destruct cl; [exact G|apply local_ret]|]. intros lp.
  destruct (step lp v st) as [st' pv]. apply local_then; [apply local_lift|]. intros [p' v'].
  apply local_then; [apply local_rh5_set_ee|]. intros _.
  apply local_then; [apply local_client_step; now left|]. intros _.
  apply local_then; [exact G|]. intros mp. apply IH.
Qed.

Lemma local_rh5_step_through r p v x cl st :
  local (rh5_clients r) (rh5_step_through_cartesian e step r p v x cl st).
Proof.
  unfold rh5_step_through_cartesian.
  apply local_then; [eapply local_weaken; [apply rh5_client_own|apply local_rh5_get_ee]|]. intros p0.
  destruct (Req_EM_T (r_dt r) 0); [apply local_raise|].
  apply local_then; [apply local_rh5_cartesian_loop|]. intros sh.
  apply local_then; [apply local_rh5_stop|]. intros _. apply local_ret.
Qed.

Lemma local_rh5_call r c : local (rh5_clients r) (rh5_call e step r c).
Proof.
  destruct c; cbn [rh5_call]; unfold answer_; (apply local_then; [|intros ?; apply local_ret]).
  - apply local_client_step. now left.
  - apply local_client_loop. now left.
  - apply local_rh5_ik.
  - eapply local_weaken; [apply rh5_client_own|apply local_rh5_get_joints].
  - eapply local_weaken; [apply rh5_client_own|apply local_rh5_set_joints].
  - eapply local_weaken; [apply rh5_client_own|apply local_rh5_get_ee].
  - apply local_rh5_set_ee.
  - apply local_rh5_stop.
  - apply local_rh5_goto.
  - apply local_rh5_step_through.
Qed.

End Local.
