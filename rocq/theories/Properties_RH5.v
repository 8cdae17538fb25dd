(** C85, C86: several simulations at once, and the two-armed robot (testing/simulation.py). *)
From Coq Require Import Reals List Arith Bool Lia Lra ZArith String.
From Verif Require Import M_Prelude M_Base M_Quaternion M_Rigid S_Rotation P_Quaternion P_Rigid P_MinJerk M_Simulation M_Robot
  Properties_Simulation M_RH5 P_RH5.
Import ListNotations.
Set Bullet Behavior "Strict Subproofs".
Local Open Scope R_scope.

(* compare programs without running them *)
Local Strategy 1000 [then_].

Lemma then_ok {W A B} (m : prog (W:=W) A) (f : A -> prog B) w w' b : then_ m f w = (w', Ok b) ->
  exists w1 x, m w = (w1, Ok x) /\ f x w1 = (w', Ok b).
Proof. unfold then_. destruct (m w) as [w1 [x|x]]; [eauto|discriminate]. Qed.

Lemma upd_same {W} (f : nat -> W) c s : upd f c s c = s.
Proof. unfold upd. now rewrite Nat.eqb_refl. Qed.

Lemma then_run {W A B} (m : prog (W:=W) A) (f : A -> prog B) w w1 x y : m w = (w1, Ok x) -> f x w1 = y -> then_ m f w = y.
Proof. unfold then_. now intros -> ->. Qed.
Lemma ask_ok {W A} c (f : W -> A) w w' x : ask c f w = (w', Ok x) -> w' = w /\ x = f (w_client w c).
Proof. unfold ask. intros H. now injection H as <- <-. Qed.
Lemma lift_ok {W A} (r : res A) (w w' : world W) x : lift r w = (w', Ok x) -> w' = w /\ r = Ok x.
Proof. unfold lift. intros H. now injection H as <- <-. Qed.
Lemma ret_ok {W A} (y : A) (w w' : world W) x : ret y w = (w', Ok x) -> w' = w /\ x = y.
Proof. unfold ret. intros H. now injection H as <- <-. Qed.

Ltac inv_then H := let w1 := fresh "w" in let x := fresh "x" in let E := fresh "E" in
  apply then_ok in H; destruct H as (w1 & x & E & H).

(** ** C85: simulations do not interfere *)

(** Several RH5Simulations, used in any order. *)
Fixpoint run {W S} (e : engine W) (step : arr -> arr -> S -> S * res (arr * arr)) (sims : nat -> rh5)
    (schedule : list (nat * call (S:=S))) (w : world W) : world W * list (nat * res (answer (S:=S))) :=
  match schedule with
  | [] => (w, [])
  | (i, c) :: schedule =>
      let '(w, a) := rh5_call e step (sims i) c w in
      let '(w, l) := run e step sims schedule w in (w, (i, a) :: l)
  end.

(** For every schedule of calls (also failing ones), each simulation gives the answers, and its
    clients end in the states, of a run in which it is used alone. *)
Theorem C85_rh5_independent : forall W S (e : engine W) (step : arr -> arr -> S -> S * res (arr * arr)) sims schedule w,
  (forall i j c, rh5_clients (sims i) c -> rh5_clients (sims j) c -> i = j) ->
  forall i,
  let alone := filter (fun x => Nat.eqb (fst x) i) schedule in
  filter (fun x => Nat.eqb (fst x) i) (snd (run e step sims schedule w)) = snd (run e step sims alone w)
  /\ forall c, rh5_clients (sims i) c ->
     w_client (fst (run e step sims schedule w)) c = w_client (fst (run e step sims alone w)) c.
Proof.
  intros W S e step sims schedule w Hd i alone. subst alone.
  assert (G : forall v, (forall c, rh5_clients (sims i) c -> w_client v c = w_client w c) ->
    filter (fun x => Nat.eqb (fst x) i) (snd (run e step sims schedule w))
    = snd (run e step sims (filter (fun x => Nat.eqb (fst x) i) schedule) v)
    /\ forall c, rh5_clients (sims i) c -> w_client (fst (run e step sims schedule w)) c
       = w_client (fst (run e step sims (filter (fun x => Nat.eqb (fst x) i) schedule) v)) c).
  { revert w. induction schedule as [|[j cl] l IH]; intros w v Hv; cbn [run filter fst snd].
    - split; [reflexivity|]. intros c Hc. symmetry. now apply Hv.
    - destruct (rh5_call e step (sims j) cl w) as [w1 a] eqn:E.
      destruct (local_rh5_call e step (sims j) cl w w1 a E) as (F & _ & lg & _ & _ & Rw).
      destruct (Nat.eqb_spec j i) as [->|Hji].
      + destruct (Rw v Hv) as (v1 & Ev & Hv1 & _). cbn [run]. rewrite Ev.
        specialize (IH w1 v1 Hv1). destruct (run e step sims l w1) as [w2 l2].
        destruct (run e step sims (filter _ l) v1) as [v2 l3]. cbn [fst snd filter] in *. rewrite Nat.eqb_refl.
        destruct IH as [IH1 IH2]. split; [now rewrite IH1|exact IH2].
      + assert (Hv1 : forall c, rh5_clients (sims i) c -> w_client v c = w_client w1 c).
        { intros c Hc. rewrite F; [now apply Hv|]. intros Hc'. apply Hji. now apply (Hd j i c). }
        specialize (IH w1 v Hv1). destruct (run e step sims l w1) as [w2 l2]. cbn [fst snd filter] in *.
        destruct (Nat.eqb_spec j i); [contradiction|]. exact IH. }
  apply G. reflexivity.
Qed.

(** What a method leaves alone. *)
Theorem C85_rh5_own_clients : forall W S (e : engine W) (step : arr -> arr -> S -> S * res (arr * arr)) r cl w w' a,
  rh5_call e step r cl w = (w', a) ->
  (forall c, ~ rh5_clients r c -> w_client w' c = w_client w c)
  /\ exists requests, w_log w' = w_log w ++ requests /\ Forall (fun x => rh5_clients r (fst x)) requests.
Proof.
  intros W S e step r cl w w' a E. destruct (local_rh5_call e step r cl w w' a E) as (F & _ & l & L & O & _).
  split; [exact F|]. exists l. now split.
Qed.

(** Constructing simulations. *)
Definition new_or_view (n : nat) (x : nat * request) : Prop :=
  (n <= fst x)%nat \/ fst x = 0%nat /\ (snd x = Visualizer \/ snd x = SearchPath).

(** The part of a construction that concerns clients below [n]. *)
Definition constructs {W} (n : nat) {A} (m : prog (W:=W) A) : Prop := forall w w' a, m w = (w', a) ->
  (n <= w_next w)%nat -> (w_next w <= w_next w')%nat
  /\ (forall c, (c < n)%nat -> c <> 0%nat -> w_client w' c = w_client w c)
  /\ exists l, w_log w' = w_log w ++ l /\ Forall (new_or_view n) l.

Section Construct.
Context {W : Type} (e : engine W) (n : nat).

Lemma constructs_lift {A} (r : res A) : constructs n (lift (W:=W) r).
Proof.
  intros w w' a E _. injection E as <- <-. split; [lia|]. split; [reflexivity|]. exists []. rewrite app_nil_r. auto.
Qed.
Lemma constructs_ask {A} c (f : W -> A) : constructs n (ask c f).
Proof.
  intros w w' a E _. injection E as <- <-. split; [lia|]. split; [reflexivity|]. exists []. rewrite app_nil_r. auto.
Qed.
Lemma constructs_then {A B} (m : prog (W:=W) A) (f : A -> prog B) :
  constructs n m -> (forall x, constructs n (f x)) -> constructs n (then_ m f).
Proof.
  intros Hm Hf w w' a E Hn. unfold then_ in E. destruct (m w) as [w1 [x|x]] eqn:E1.
  - destruct (Hm _ _ _ E1 Hn) as (N1 & F1 & l1 & L1 & O1). destruct (Hf _ _ _ _ E ltac:(lia)) as (N2 & F2 & l2 & L2 & O2).
    split; [lia|]. split; [intros c Hc Hc0; now rewrite F2, F1|]. exists (l1 ++ l2).
    split; [now rewrite L2, L1, app_assoc|now apply Forall_app].
  - injection E as <- <-. exact (Hm _ _ _ E1 Hn).
Qed.
Lemma constructs_request c r : new_or_view n (c, r) -> constructs n (request_ e c r).
Proof.
  intros Hc w w' a E _. injection E as <- <-. cbn [w_next w_client w_log]. split; [lia|]. split.
  - intros k Hk Hk0. unfold upd. destruct (Nat.eqb_spec k c); [|reflexivity]. subst.
    destruct Hc as [Hc|[Hc _]]; cbn [fst] in Hc; lia.
  - exists [(c, r)]. auto.
Qed.
Lemma constructs_connect_then {B} (f : nat -> prog B) :
  (forall c, (n <= c)%nat -> constructs n (f c)) -> constructs n (then_ (connect e) f).
Proof.
  intros Hf w w' a E Hn. unfold then_, connect in E.
  destruct (Hf (w_next w) Hn _ _ _ E) as (N & F & l & L & O); cbn [w_next w_client w_log] in *; [lia|].
  split; [lia|]. split; [|exists l; now split]. intros c Hc Hc0. rewrite F by assumption. unfold upd.
  destruct (Nat.eqb_spec c (w_next w)); [lia|reflexivity].
Qed.
Lemma constructs_load c path pos : (n <= c)%nat -> constructs n (load e c path pos).
Proof.
  intros Hc. unfold load. apply constructs_then; [apply constructs_ask|]. intros b.
  apply constructs_then; [apply constructs_request; now left|]. intros _. apply (constructs_lift (Ok b)).
Qed.
Lemma constructs_chain ee js path : constructs n (chain_new e ee js path).
Proof.
  unfold chain_new. apply constructs_connect_then. intros c Hc.
  apply constructs_then; [apply constructs_request; now left|]. intros _.
  apply constructs_then; [apply constructs_request; now left|]. intros _.
  apply constructs_then; [now apply constructs_load|]. intros b.
  apply constructs_then; [apply constructs_ask|]. intros i.
  apply constructs_then; [apply constructs_lift|]. intros [[ids links] ik].
  apply constructs_then; [apply constructs_lift|]. intros x1.
  apply constructs_then; [apply constructs_lift|]. intros x2.
  apply constructs_then; [apply constructs_lift|]. intros x3.
  apply (constructs_lift (Ok _)).
Qed.
Lemma constructs_simulation_then {B} dt rt (f : nat -> prog B) :
  (forall c, (n <= c)%nat -> constructs n (f c)) -> constructs n (then_ (simulation_new e dt rt) f).
Proof.
  intros Hf.
  assert (H : constructs n (then_ (connect e) (fun c =>
     then_ (then_ (request_ e 0 Visualizer) (fun _ => then_ (request_ e 0 Visualizer) (fun _ =>
     then_ (request_ e 0 Visualizer) (fun _ => then_ (request_ e c ResetSimulation) (fun _ =>
     then_ (request_ e c (SetTimeStep dt)) (fun _ => then_ (request_ e c (SetRealTime rt)) (fun _ =>
     then_ (request_ e c SetGravity) (fun _ => ret c)))))))) f))).
  { apply constructs_connect_then. intros c Hc. intros w w' a E Hn.
    assert (G : constructs n (then_ (request_ e 0 Visualizer) (fun _ => then_ (request_ e 0 Visualizer) (fun _ =>
     then_ (request_ e 0 Visualizer) (fun _ => then_ (request_ e c ResetSimulation) (fun _ =>
     then_ (request_ e c (SetTimeStep dt)) (fun _ => then_ (request_ e c (SetRealTime rt)) (fun _ =>
     then_ (request_ e c SetGravity) (fun _ => f c))))))))).
    { repeat (apply constructs_then; [apply constructs_request; unfold new_or_view; cbn [fst snd]; auto|intros _]). now apply Hf. }
    apply (G w w' a); assumption. }
  intros w w' a E Hn. apply (H w w' a); assumption.
Qed.
End Construct.

Lemma connect_ok {W} (e : engine W) w w' c : connect e w = (w', Ok c) -> c = w_next w /\ w_next w' = S (w_next w).
Proof. unfold connect. intros H. injection H as <- <-. auto. Qed.

Lemma next_request {W} (e : engine W) c r w w' a : request_ e c r w = (w', a) -> w_next w' = w_next w.
Proof. unfold request_. intros H. injection H as <- _. reflexivity. Qed.

Lemma next_load {W} (e : engine W) c p q w w' a : load e c p q w = (w', Ok a) -> w_next w' = w_next w.
Proof. unfold load. intros H. inv_then H. inv_then H. apply ask_ok in E. destruct E as [-> _]. apply next_request in E0. apply ret_ok in H. destruct H as [-> _]. exact E0. Qed.

Lemma chain_new_client {W} (e : engine W) ee js p w w' k : chain_new e ee js p w = (w', Ok k) ->
  c_client k = w_next w /\ w_next w' = S (w_next w).
Proof.
  unfold chain_new. intros H. inv_then H. apply connect_ok in E. destruct E as [-> N].
  inv_then H. apply next_request in E. inv_then H. apply next_request in E0. inv_then H. apply next_load in E1.
  inv_then H. apply ask_ok in E2. destruct E2 as [-> _]. inv_then H. apply lift_ok in E2. destruct E2 as [-> _]. match goal with y : (list _ * list _ * list _)%type |- _ => destruct y as [[ids links] ik] end.
  inv_then H. apply lift_ok in E2. destruct E2 as [-> _]. inv_then H. apply lift_ok in E2. destruct E2 as [-> _]. inv_then H. apply lift_ok in E2. destruct E2 as [-> _].
  apply ret_ok in H. destruct H as [-> ->]. cbn [c_client]. split; [reflexivity|]. congruence.
Qed.

Lemma simulation_new_client {W} (e : engine W) dt rt w w' c : simulation_new e dt rt w = (w', Ok c) ->
  c = w_next w /\ w_next w' = S (w_next w).
Proof.
  unfold simulation_new. intros H. inv_then H. apply connect_ok in E. destruct E as [-> N].
  inv_then H. apply next_request in E. inv_then H. apply next_request in E0. inv_then H. apply next_request in E1.
  inv_then H. apply next_request in E2. inv_then H. apply next_request in E3. inv_then H. apply next_request in E4.
  inv_then H. apply next_request in E5. apply ret_ok in H. destruct H as [-> ->]. split; [reflexivity|]. congruence.
Qed.

(** A new RH5Simulation has three clients of its own; other clients keep their states, except
    that client 0 gets the settings of the viewer and the search path. *)
Theorem C85_rh5_new : forall W (e : engine W) dt rt lf rf lj rj up lp rp w w' r,
  rh5_new e dt rt lf rf lj rj up lp rp w = (w', Ok r) ->
  let n := w_next w in
  r_client r = n /\ c_client (r_left_ik r) = (n + 1)%nat /\ c_client (r_right_ik r) = (n + 2)%nat
  /\ w_next w' = (n + 3)%nat
  /\ (forall c, (c < n)%nat -> c <> 0%nat -> w_client w' c = w_client w c)
  /\ exists requests, w_log w' = w_log w ++ requests
     /\ Forall (fun x => (n <= fst x)%nat \/ fst x = 0%nat /\ (snd x = Visualizer \/ snd x = SearchPath)) requests.
Proof.
  intros W e dt rt lf rf lj rj up lp rp w w' r H n.
  assert (C : constructs n (rh5_new e dt rt lf rf lj rj up lp rp)).
  { unfold rh5_new. apply constructs_simulation_then. intros c Hc.
    apply constructs_then; [apply constructs_request; right; auto|]. intros _.
    apply constructs_then; [now apply constructs_load|]. intros _.
    apply constructs_then; [now apply constructs_load|]. intros b.
    apply constructs_then; [apply constructs_ask|]. intros i.
    apply constructs_then; [apply constructs_lift|]. intros [[ids links] ik].
    apply constructs_then; [apply constructs_lift|]. intros x1.
    apply constructs_then; [apply constructs_lift|]. intros x2.
    apply constructs_then; [apply constructs_lift|]. intros x3.
    apply constructs_then; [apply constructs_lift|]. intros x4.
    apply constructs_then; [apply constructs_chain|]. intros x5.
    apply constructs_then; [apply constructs_chain|]. intros x6.
    apply (constructs_lift n (Ok _)). }
  destruct (C w w' (Ok r) H ltac:(subst n; lia)) as (_ & F & l & L & O).
  unfold rh5_new in H. inv_then H. apply simulation_new_client in E. destruct E as [-> N].
  inv_then H. apply next_request in E. inv_then H. apply next_load in E0. inv_then H. apply next_load in E1.
  inv_then H. apply ask_ok in E2. destruct E2 as [-> _]. inv_then H. apply lift_ok in E2. destruct E2 as [-> _]. match goal with y : (list _ * list _ * list _)%type |- _ => destruct y as [[ids links] ik] end.
  inv_then H. apply lift_ok in E2. destruct E2 as [-> _]. inv_then H. apply lift_ok in E2. destruct E2 as [-> _]. inv_then H. apply lift_ok in E2. destruct E2 as [-> _]. inv_then H. apply lift_ok in E2. destruct E2 as [-> _].
  inv_then H. apply chain_new_client in E2. destruct E2 as [A1 A2].
  inv_then H. apply chain_new_client in E2. destruct E2 as [B1 B2].
  apply ret_ok in H. destruct H as [-> ->]. cbn [r_client r_left_ik r_right_ik]. subst n.
  split; [reflexivity|]. split; [rewrite A1; lia|]. split; [rewrite B1; lia|]. split; [lia|].
  split; [exact F|]. exists l. now split.
Qed.

Lemma ur5_new_client {W} (e : engine W) dt rt w w' u : ur5_new e dt rt w = (w', Ok u) ->
  u_client u = w_next w /\ w_next w' = S (w_next w).
Proof.
  intros H. unfold ur5_new in H. inv_then H. apply simulation_new_client in E. destruct E as [-> N].
  inv_then H. apply next_request in E. inv_then H. apply next_load in E0. inv_then H. apply next_load in E1.
  inv_then H. apply ask_ok in E2. destruct E2 as [-> _]. apply ret_ok in H. destruct H as [-> ->]. cbn [u_client].
  split; [reflexivity|]. congruence.
Qed.

(** UR5Simulation: motor commands and questions go to client 0, whatever the simulation's own
    client is. *)
Theorem C85_ur5_first : forall W (e : engine W) dt rt w w' u q pc,
  ur5_new e dt rt w = (w', Ok u) -> w_next w = 0%nat -> alen q = List.length (firstn 6 (u_joints u)) ->
  e_connected e (e_exec e (Motor (u_body u) pc (firstn 6 (u_joints u)) q) (w_client w' 0%nat)) = true ->
  forall w2, w2 = fst (then_ (ur5_set_desired_joint_state e u q pc) (fun _ => client_step e (u_client u)) w') ->
  w_client w2 0%nat = e_exec e Advance (e_exec e (Motor (u_body u) pc (firstn 6 (u_joints u)) q) (w_client w' 0%nat)).
Proof.
  intros W e dt rt w w' u q pc H Hn Hq Hc w2 ->.
  assert (U : u_client u = 0%nat).
  { destruct (ur5_new_client _ _ _ _ _ _ H) as [-> _]. exact Hn. }
  unfold then_, ur5_set_desired_joint_state, motor. rewrite Hq, Nat.eqb_refl. rewrite U.
  unfold request_ at 1. cbn [fst]. unfold client_step, then_, ask. cbn [w_client]. unfold upd at 1. rewrite Nat.eqb_refl, Hc.
  unfold request_. cbn [fst w_client]. unfold upd. rewrite !Nat.eqb_refl. reflexivity.
Qed.

(** So a second one does not advance its robot: after any commands, its steps leave what it
    reports unchanged. *)
Theorem C85_ur5_second_refuted : forall W (e : engine W) dt rt w w' u,
  ur5_new e dt rt w = (w', Ok u) -> (0 < w_next w)%nat ->
  (forall n w2, snd (ur5_get_joint_state e u (fst (client_loop e n (u_client u) w2))) = snd (ur5_get_joint_state e u w2))
  /\ forall q pc w2 w3, ur5_set_desired_joint_state e u q pc w2 = (w3, Ok tt) ->
     w_log w3 = w_log w2 ++ [(0%nat, Motor (u_body u) pc (firstn 6 (u_joints u)) q)] /\ u_client u <> 0%nat.
Proof.
  intros W e dt rt w w' u H Hn.
  assert (U : u_client u <> 0%nat).
  { destruct (ur5_new_client _ _ _ _ _ _ H) as [-> _]. lia. }
  split.
  - intros n w2. destruct (client_loop e n (u_client u) w2) as [w3 a] eqn:E.
    destruct (local_client_loop e (fun c => c = u_client u) n (u_client u) eq_refl _ _ _ E) as (F & _).
    cbn [fst]. unfold ur5_get_joint_state, ask. cbn [snd]. rewrite F by (intros X; now apply U). reflexivity.
  - intros q pc w2 w3 E. split; [|exact U]. unfold ur5_set_desired_joint_state, motor in E.
    destruct (Nat.eqb _ _); [|discriminate]. injection E as <-. reflexivity.
Qed.

(** ** C86: the two-armed robot *)

(** The requests to the robot itself, not to the chains used for inverse kinematics. *)
Definition robot_log {W} (r : rh5) (w : world W) : list request :=
  map snd (filter (fun x => Nat.eqb (fst x) (r_client r)) (w_log w)).

Definition separate (r : rh5) : Prop :=
  c_client (r_left_ik r) <> r_client r /\ c_client (r_right_ik r) <> r_client r
  /\ c_client (r_left_ik r) <> c_client (r_right_ik r).

Lemma local_ik_chains {W} (e : engine W) r p w w' a :
  rh5_inverse_kinematics e r p w = (w', a) ->
  exists l, w_log w' = w_log w ++ l
  /\ Forall (fun x => fst x = c_client (r_left_ik r) \/ fst x = c_client (r_right_ik r)) l
  /\ forall c, c <> c_client (r_left_ik r) -> c <> c_client (r_right_ik r) -> w_client w' c = w_client w c.
Proof.
  unfold rh5_inverse_kinematics, then_, ask. intros H.
  destruct (chain_ik e (r_left_ik r) (slice_to 7 p) _ w) as [w1 a1] eqn:E1.
  destruct (local_chain_ik e (fun c => c = c_client (r_left_ik r)) _ _ _ eq_refl _ _ _ E1) as (F1 & _ & l1 & L1 & O1 & _).
  destruct a1 as [lft|x].
  - destruct (chain_ik e (r_right_ik r) (slice_from 7 p) _ w1) as [w2 a2] eqn:E2.
    destruct (local_chain_ik e (fun c => c = c_client (r_right_ik r)) _ _ _ eq_refl _ _ _ E2) as (F2 & _ & l2 & L2 & O2 & _).
    exists (l1 ++ l2). assert (w' = w2) by (destruct a2; now injection H as <- _). subst w2.
    rewrite L2, L1, app_assoc. split; [reflexivity|]. split.
    + apply Forall_app. split; [eapply Forall_impl; [|exact O1]|eapply Forall_impl; [|exact O2]]; cbn; auto.
    + intros c H1 H2. now rewrite F2, F1.
  - injection H as <- _. exists l1. split; [exact L1|]. split; [eapply Forall_impl; [|exact O1]; cbn; auto|]. intros. now apply F1.
Qed.

Lemma filter_none {A} (f : A -> bool) l : Forall (fun x => f x = false) l -> filter f l = [].
Proof. induction 1 as [|x l H _ IH]; cbn; [reflexivity|]. now rewrite H. Qed.

(** Inverse kinematics does not touch the robot. *)
Theorem C86_ik_leaves_robot : forall W (e : engine W) r p w w' a, separate r ->
  rh5_inverse_kinematics e r p w = (w', a) ->
  w_client w' (r_client r) = w_client w (r_client r) /\ robot_log r w' = robot_log r w.
Proof.
  intros W e r p w w' a (H1 & H2 & _) E. destruct (local_ik_chains e r p w w' a E) as (l & L & O & F).
  split; [apply F; congruence|]. unfold robot_log. rewrite L, filter_app, map_app.
  rewrite (filter_none _ l), app_nil_r; [reflexivity|]. eapply Forall_impl; [|exact O]. intros [c q]. cbn. intros H.
  apply Nat.eqb_neq. destruct H; congruence.
Qed.

(** The first seven numbers decide about the left arm, the others about the right one. *)
Lemma ik_ok {W} (e : engine W) r p w w' q : rh5_inverse_kinematics e r p w = (w', Ok q) ->
  exists w1 lft rgt,
    chain_ik e (r_left_ik r) (slice_to 7 p) (Some (joint_positions e (w_client w (r_client r)) (r_body r) (r_left_joints r))) w = (w1, Ok lft)
  /\ chain_ik e (r_right_ik r) (slice_from 7 p) (Some (joint_positions e (w_client w1 (r_client r)) (r_body r) (r_right_joints r))) w1 = (w', Ok rgt)
  /\ q = rh5_join (List.length (r_left_joints r)) (arr_of lft) (arr_of rgt).
Proof.
  unfold rh5_inverse_kinematics. intros H. inv_then H. injection E as <- <-. inv_then H. inv_then H. injection E0 as <- <-.
  inv_then H. injection H as <- <-. eauto 10.
Qed.

Lemma pybullet_pose_ext a b : same_arr a b -> match pybullet_pose a, pybullet_pose b with
  | Ok (p, q), Ok (p', q') => same_arr p p' /\ same_arr q q' | Err x, Err y => x = y | _, _ => False end.
Proof.
  intros [L G]. unfold pybullet_pose. cbn [slice_from alen]. rewrite <- L.
  destruct (Nat.eqb_spec (alen a - 3) 0); [reflexivity|]. unfold same_arr. cbn [hstack slice_to slice_from singleton alen aget].
  rewrite <- L. split; (split; [reflexivity|]); intros k Hk.
  - apply G. lia.
  - destruct (Nat.ltb_spec k (alen a - 3 - 1)); apply G; lia.
Qed.

(** Equal results of inverse kinematics for poses with equal entries (PyBullet sees only the
    entries of an array). *)
Definition reads_entries {W} (e : engine W) : Prop := forall s body link p p' q q', same_arr p p' -> same_arr q q' ->
  e_ik e s body link p q = e_ik e s body link p' q'.

Theorem C86_left_arm : forall W (e : engine W) r p p' w w1 w2 q q', reads_entries e -> separate r ->
  List.length (c_q (r_left_ik r)) = List.length (r_left_joints r) ->
  alen p = 14%nat -> alen p' = 14%nat -> (forall k, (k < 7)%nat -> aget p k = aget p' k) ->
  rh5_inverse_kinematics e r p w = (w1, Ok q) -> rh5_inverse_kinematics e r p' w = (w2, Ok q') ->
  forall k, (k < List.length (r_left_joints r))%nat -> aget q k = aget q' k.
Proof.
  intros W e r p p' w w1 w2 q q' He Hs Hl Hp Hp' G E E' k Hk.
  destruct (ik_ok _ _ _ _ _ _ E) as (wa & lft & rgt & A & _ & ->).
  destruct (ik_ok _ _ _ _ _ _ E') as (wb & lft' & rgt' & B & _ & ->).
  cbn [rh5_join aget]. destruct (Nat.ltb_spec k (List.length (r_left_joints r))); [|lia].
  enough (lft = lft') by now subst.
  unfold chain_ik in A, B. inv_then A. inv_then B. rewrite E0 in E1. injection E1 as <- <-. clear E0.
  assert (S : same_arr (slice_to 7 p) (slice_to 7 p')).
  { split; cbn [slice_to alen aget]; [congruence|]. intros j Hj. apply G. lia. }
  apply pybullet_pose_ext in S. inv_then A. inv_then B. injection E0 as <- E0. injection E1 as <- E1.
  destruct x0 as [a b]. destruct x1 as [a' b']. rewrite E0, E1 in S. destruct S as [S1 S2].
  inv_then A. inv_then B. injection E2 as <- <-. injection E3 as <- <-. rewrite (He _ _ _ _ _ _ _ S1 S2) in A.
  destruct (e_ik e _ _ _ a' b'); [|discriminate]. unfold lift in A, B. congruence.
Qed.

Lemma take_indices_length q l : forall x, take_indices q l = Ok x -> List.length x = List.length l.
Proof.
  induction l as [|i l IH]; cbn [take_indices]; intros x H; [injection H as <-; reflexivity|].
  destruct (Nat.ltb i (alen q)); [|discriminate]. destruct (take_indices q l) as [y|]; [|discriminate].
  cbn [bind] in H. injection H as <-. cbn [List.length]. now rewrite (IH y eq_refl).
Qed.

Lemma chain_ik_length {W} (e : engine W) k p q w w' l : chain_ik e k p q w = (w', Ok l) -> List.length l = List.length (c_q k).
Proof.
  unfold chain_ik. intros H. inv_then H. inv_then H. destruct x0. inv_then H. destruct x0 as [qq|]; [|discriminate].
  injection H as _ H. now apply take_indices_length in H.
Qed.

Theorem C86_right_arm : forall W (e : engine W) r p p' w w1 w2 q q', reads_entries e -> separate r ->
  alen p = 14%nat -> alen p' = 14%nat -> (forall k, (7 <= k < 14)%nat -> aget p k = aget p' k) ->
  rh5_inverse_kinematics e r p w = (w1, Ok q) -> rh5_inverse_kinematics e r p' w = (w2, Ok q') ->
  forall k, (List.length (r_left_joints r) <= k)%nat -> aget q k = aget q' k.
Proof.
  intros W e r p p' w w1 w2 q q' He (Hs1 & Hs2 & Hs3) Hp Hp' G E E' k Hk.
  destruct (ik_ok _ _ _ _ _ _ E) as (wa & lft & rgt & A1 & A & ->).
  destruct (ik_ok _ _ _ _ _ _ E') as (wb & lft' & rgt' & B1 & B & ->).
  cbn [rh5_join aget]. destruct (Nat.ltb_spec k (List.length (r_left_joints r))); [lia|].
  enough (rgt = rgt') by now subst.
  destruct (local_chain_ik e (fun c => c = c_client (r_left_ik r)) _ _ _ eq_refl _ _ _ A1) as (FA & _).
  destruct (local_chain_ik e (fun c => c = c_client (r_left_ik r)) _ _ _ eq_refl _ _ _ B1) as (FB & _).
  rewrite (FA (r_client r)) in A by congruence. rewrite (FB (r_client r)) in B by congruence.
  unfold chain_ik in A, B. inv_then A. inv_then B.
  destruct (local_goto_joint_state e (fun c => c = c_client (r_right_ik r)) _ _ _ _ eq_refl _ _ _ E0) as (_ & _ & l & _ & _ & Rw).
  destruct (Rw wb) as (v & Ev & Hv & _).
  { intros c ->. rewrite (FA _), (FB _) by congruence. reflexivity. }
  rewrite Ev in E1. injection E1 as <- _.
  assert (S : same_arr (slice_from 7 p) (slice_from 7 p')).
  { split; cbn [slice_from alen aget]; [congruence|]. intros j Hj. apply G. lia. }
  apply pybullet_pose_ext in S. inv_then A. inv_then B. injection E1 as <- E1. injection E2 as <- E2.
  destruct x1 as [a b]. destruct x2 as [a' b']. rewrite E1, E2 in S. destruct S as [S1 S2].
  inv_then A. inv_then B. injection E3 as <- <-. injection E4 as <- <-. rewrite (He _ _ _ _ _ _ _ S1 S2) in A.
  rewrite (Hv (c_client (r_right_ik r)) eq_refl) in B.
  destruct (e_ik e _ _ _ a' b'); [|discriminate]. unfold lift in A, B. congruence.
Qed.

(** Moving a chain: one position command, then at most the given number of steps, and fewer
    only when the joint angles are reached. *)
Definition squared_error (a b : arr) : R :=
  fold_right Rplus 0 (map (fun k => (aget a k - aget b k) * (aget a k - aget b k)) (seq 0 (alen a))).

Lemma distance_squared a b eps : 0 < eps -> distance a b < eps -> squared_error a b < eps * eps.
Proof.
  intros He H. unfold distance in H.
  assert (E : fold_right Rplus 0 (map (fun k => (aget a k - aget b k) ^ 2) (seq 0 (alen a))) = squared_error a b).
  { unfold squared_error. f_equal. apply map_ext. intros k. ring. }
  rewrite E in H.
  assert (N : 0 <= squared_error a b).
  { unfold squared_error. clear. induction (seq 0 (alen a)) as [|k l IH]; cbn [map fold_right]; [lra|].
    pose proof (Rle_0_sqr (aget a k - aget b k)) as Q. unfold Rsqr in Q. lra. }
  rewrite <- (sqrt_sqrt _ N). pose proof (sqrt_pos (squared_error a b)). nra.
Qed.

Lemma goto_loop_spec {W} (e : engine W) k q eps n : forall w w' a, goto_loop e n k q eps w = (w', a) ->
  a = Ok tt /\ exists m, (m <= n)%nat /\ (1 <= n -> 1 <= m)%nat
  /\ w_log w' = w_log w ++ repeat (c_client k, Advance) m
  /\ (m = n \/ distance q (joint_positions e (w_client w' (c_client k)) (c_body k) (c_joints k)) < eps).
Proof.
  induction n as [|n IH]; intros w w' a E; cbn [goto_loop] in E.
  - injection E as <- <-. split; [reflexivity|]. exists 0%nat. cbn [repeat]. rewrite app_nil_r. repeat split; auto.
  - unfold then_, request_, ask in E. cbn [w_client] in E. rewrite upd_same in E.
    destruct (Rlt_dec _ eps) as [H|H].
    + injection E as <- <-. split; [reflexivity|]. exists 1%nat. cbn [w_log repeat w_client]. unfold upd. rewrite Nat.eqb_refl.
      split; [lia|]. split; [lia|]. split; [reflexivity|]. now right.
    + destruct (IH _ _ _ E) as (-> & m & Hm & _ & L & D). split; [reflexivity|]. exists (S m). cbn [w_log] in L.
      rewrite <- app_assoc in L. split; [lia|]. split; [lia|]. split; [exact L|]. destruct D as [->|D]; [now left|now right].
Qed.

Theorem C86_goto_joint_state : forall W (e : engine W) k q n eps w w' a, 0 < eps ->
  alen q = List.length (c_joints k) -> goto_joint_state e k q n eps w = (w', a) ->
  a = Ok tt /\ exists m, (m <= n)%nat /\ (1 <= n -> 1 <= m)%nat
  /\ w_log w' = w_log w ++ (c_client k, Motor (c_body k) true (c_joints k) q) :: repeat (c_client k, Advance) m
  /\ (m = n \/ squared_error q (joint_positions e (w_client w' (c_client k)) (c_body k) (c_joints k)) < eps * eps).
Proof.
  intros W e k q n eps w w' a He Hq E. unfold goto_joint_state, motor in E. rewrite Hq, Nat.eqb_refl in E.
  unfold then_ at 1 in E. unfold request_ in E at 1. destruct (goto_loop_spec _ _ _ _ _ _ _ _ E) as (-> & m & H1 & H2 & L & D).
  split; [reflexivity|]. exists m. cbn [w_log] in L. rewrite <- app_assoc in L. split; [exact H1|]. split; [exact H2|].
  split; [exact L|]. destruct D as [D|D]; [now left|right]. now apply distance_squared.
Qed.

(** Commands for all joints: the left arm gets the first ones, the right arm the others. *)
Theorem C86_joint_command : forall W (e : engine W) r q pc w,
  alen q = (List.length (r_left_joints r) + List.length (r_right_joints r))%nat ->
  exists w' left right, rh5_set_desired_joint_state e r q pc w = (w', Ok tt)
  /\ w_log w' = w_log w ++ [(r_client r, Motor (r_body r) pc (r_left_joints r) left);
                            (r_client r, Motor (r_body r) pc (r_right_joints r) right)]
  /\ alen left = List.length (r_left_joints r) /\ alen right = List.length (r_right_joints r)
  /\ (forall k, (k < alen left)%nat -> aget left k = aget q k)
  /\ (forall k, (k < alen right)%nat -> aget right k = aget q (List.length (r_left_joints r) + k)%nat).
Proof.
  intros W e r q pc w Hq. unfold rh5_set_desired_joint_state, rh5_split, then_, motor. cbn [alen]. rewrite Hq.
  replace (Nat.min _ _) with (List.length (r_left_joints r)) by lia. rewrite Nat.eqb_refl.
  unfold request_ at 1.
  replace (List.length (r_left_joints r) + List.length (r_right_joints r) - List.length (r_left_joints r))%nat
    with (List.length (r_right_joints r)) by lia. rewrite Nat.eqb_refl. unfold request_.
  eexists. eexists. eexists. split; [reflexivity|]. cbn [w_log]. rewrite <- app_assoc. cbn [app].
  split; [reflexivity|]. cbn [alen aget]. repeat split; auto.
Qed.

(** A vector that does not fit is refused, but not before the left arm got its command. *)
Theorem C86_joint_command_refuted : forall W (e : engine W) r q pc w,
  (List.length (r_left_joints r) <= alen q)%nat ->
  alen q <> (List.length (r_left_joints r) + List.length (r_right_joints r))%nat ->
  exists w' left, rh5_set_desired_joint_state e r q pc w = (w', Err ValueError)
  /\ w_log w' = w_log w ++ [(r_client r, Motor (r_body r) pc (r_left_joints r) left)].
Proof.
  intros W e r q pc w H1 H2. unfold rh5_set_desired_joint_state, rh5_split, then_, motor. cbn [alen].
  replace (Nat.min _ _) with (List.length (r_left_joints r)) by lia. rewrite Nat.eqb_refl.
  unfold request_ at 1. destruct (Nat.eqb_spec (alen q - List.length (r_left_joints r)) (List.length (r_right_joints r))); [lia|].
  unfold raise. eexists. eexists. split; [reflexivity|]. reflexivity.
Qed.

(** A desired pose: the joints get the velocities that reach the inverse kinematics solution
    within one time step (or the solution itself), left arm first. *)
Definition robot_ok (r : rh5) : Prop :=
  separate r /\ List.length (c_q (r_left_ik r)) = List.length (r_left_joints r)
  /\ List.length (c_q (r_right_ik r)) = List.length (r_right_joints r).

Lemma ik_length {W} (e : engine W) r p w w' q : robot_ok r -> rh5_inverse_kinematics e r p w = (w', Ok q) ->
  alen q = (List.length (r_left_joints r) + List.length (r_right_joints r))%nat.
Proof.
  intros (_ & H1 & H2) E. destruct (ik_ok _ _ _ _ _ _ E) as (w1 & lft & rgt & A & B & ->).
  apply chain_ik_length in A, B. cbn [rh5_join arr_of alen]. lia.
Qed.

Lemma robot_log_app {W} r (w w' : world W) l : w_log w' = w_log w ++ l ->
  robot_log r w' = robot_log r w ++ map snd (filter (fun x => Nat.eqb (fst x) (r_client r)) l).
Proof. intros H. unfold robot_log. now rewrite H, filter_app, map_app. Qed.

Theorem C86_pose_command : forall W (e : engine W) r p (pc : bool) w w', robot_ok r -> r_dt r <> 0 ->
  rh5_set_desired_ee_state e r p pc w = (w', Ok tt) ->
  exists w1 q left right, rh5_inverse_kinematics e r p w = (w1, Ok q)
  /\ alen q = (List.length (r_left_joints r) + List.length (r_right_joints r))%nat
  /\ robot_log r w' = robot_log r w ++ [Motor (r_body r) pc (r_left_joints r) left; Motor (r_body r) pc (r_right_joints r) right]
  /\ alen left = List.length (r_left_joints r) /\ alen right = List.length (r_right_joints r)
  /\ (forall k, (k < alen left)%nat ->
        if pc then aget left k = aget q k
        else aget left k * r_dt r = aget q k - fst (e_joint e (w_client w (r_client r)) (r_body r) (nth k (r_left_joints r) 0%nat)))
  /\ (forall k, (k < alen right)%nat ->
        if pc then aget right k = aget q (List.length (r_left_joints r) + k)%nat
        else aget right k * r_dt r = aget q (List.length (r_left_joints r) + k)%nat
               - fst (e_joint e (w_client w (r_client r)) (r_body r) (nth k (r_right_joints r) 0%nat))).
Proof.
  intros W e r p pc w w' Ho Hdt E. unfold rh5_set_desired_ee_state in E. inv_then E. rename x into q.
  pose proof (ik_length _ _ _ _ _ _ Ho E0) as Lq. destruct Ho as (Hs & _).
  destruct (C86_ik_leaves_robot _ _ _ _ _ _ _ Hs E0) as [Wq Rq]. exists w0, q.
  destruct pc.
  - destruct (C86_joint_command W e r q true w0 Lq) as (w2 & l & rr & E2 & L & Ll & Lr & Gl & Gr).
    rewrite E in E2. injection E2 as <-. exists l, rr. split; [exact E0|]. split; [exact Lq|].
    split; [|split; [exact Ll|split; [exact Lr|split; assumption]]].
    apply robot_log_app with (r := r) in L. cbn [filter fst] in L. rewrite Nat.eqb_refl in L. cbn [map snd] in L. now rewrite L, Rq.
  - inv_then E. destruct x as [last_q last_qd]. injection E1 as <- <- <-.
    pose (v := {| alen := alen q; aget := fun k => (aget q k -
       aget (joint_positions e (w_client w0 (r_client r)) (r_body r) (r_left_joints r ++ r_right_joints r)) k) / r_dt r |}).
    destruct (C86_joint_command W e r v false w0 Lq) as (w2 & l & rr & E2 & L & Ll & Lr & Gl & Gr).
    unfold v in E2. rewrite E in E2. injection E2 as <-. exists l, rr. split; [exact E0|]. split; [exact Lq|].
    split.
    { apply robot_log_app with (r := r) in L. cbn [filter fst] in L. rewrite Nat.eqb_refl in L. cbn [map snd] in L. now rewrite L, Rq. }
    split; [exact Ll|]. split; [exact Lr|]. split; intros k Hk.
    + rewrite Gl by exact Hk. unfold v. cbn [aget joint_positions]. rewrite app_nth1 by lia. rewrite Wq. field. exact Hdt.
    + rewrite Gr by exact Hk. unfold v. cbn [aget joint_positions]. rewrite app_nth2 by lia.
      replace (List.length (r_left_joints r) + k - List.length (r_left_joints r))%nat with k by lia. rewrite Wq. field. exact Hdt.
Qed.

(** The reported state: the poses of the left and the right link. *)
Theorem C86_ee_state : forall W (e : engine W) r w A B,
  represents_pb (e_link e (w_client w (r_client r)) (r_body r) (r_left_link r)) A ->
  represents_pb (e_link e (w_client w (r_client r)) (r_body r) (r_right_link r)) B ->
  exists p, rh5_get_ee_state e r false w = (w, Ok p) /\ alen p = 14%nat
  /\ represents (slice_to 7 p) A /\ represents (slice_from 7 p) B.
Proof.
  intros W e r w A B HA HB.
  assert (H1 : represents_pb (zeros 3, arr_xyzw q_one) rigid_one).
  { unfold represents_pb. cbn [fst snd zeros arr_xyzw alen aget]. split; [reflexivity|]. split; [reflexivity|].
    split; [unfold unit_quat; cbn; ring|]. unfold rigid_one. f_equal. unfold xyzw. cbn. unfold m3_one. f_equal; ring. }
  pose proof (invert_represents _ _ H1) as Hi. fold rh5_inv_base_pose in Hi.
  assert (E1 : pt_invert rigid_one = rigid_one).
  { unfold pt_invert, rigid_one. cbn [r_rot r_pos]. f_equal. apply v3_eq; cbn; ring. }
  rewrite E1 in Hi.
  pose proof (multiply_represents _ _ _ _ HA Hi) as MA. pose proof (multiply_represents _ _ _ _ HB Hi) as MB.
  rewrite rigid_mul_1_r in MA, MB.
  destruct (pytransform_pose_represents _ _ MA) as (pa & Ea & Ra). destruct (pytransform_pose_represents _ _ MB) as (pb & Eb & Rb).
  unfold rh5_get_ee_state, then_, ask, lift.
  destruct (multiplyTransforms (e_link e _ _ (r_left_link r)) rh5_inv_base_pose) as [lp lr]. cbn [fst snd] in Ea. rewrite Ea.
  destruct (multiplyTransforms (e_link e _ _ (r_right_link r)) rh5_inv_base_pose) as [rp rr]. cbn [fst snd] in Eb. rewrite Eb.
  eexists. split; [reflexivity|]. destruct Ra as (La & Ua & ->). destruct Rb as (Lb & Ub & ->).
  cbn [hstack alen]. rewrite La, Lb. split; [reflexivity|]. unfold represents. cbn [slice_to slice_from hstack alen aget].
  rewrite La, Lb. cbn [Nat.min Nat.add Nat.sub]. unfold quat_of, v3_of in *. cbn [Nat.ltb Nat.leb Nat.add Nat.sub] in *. auto.
Qed.

Lemma rh5_get_ee_pure {W} (e : engine W) r rv w w' a : rh5_get_ee_state e r rv w = (w', a) -> w' = w.
Proof.
  unfold rh5_get_ee_state, then_, ask, lift. destruct (multiplyTransforms (e_link e _ _ (r_left_link r)) _) as [lp lr].
  destruct (pytransform_pose lp lr); [|intros H; now injection H as <- _].
  destruct (multiplyTransforms (e_link e _ _ (r_right_link r)) _) as [rp rr].
  destruct (pytransform_pose rp rr); [|intros H; now injection H as <- _].
  destruct rv; intros H; now injection H as <- _.
Qed.

(** Velocities are not available. *)
Theorem C86_velocity_refuted : forall W (e : engine W) r w A B,
  represents_pb (e_link e (w_client w (r_client r)) (r_body r) (r_left_link r)) A ->
  represents_pb (e_link e (w_client w (r_client r)) (r_body r) (r_right_link r)) B ->
  rh5_get_ee_state e r true w = (w, Err NotImplementedError).
Proof.
  intros W e r w A B HA HB. destruct (C86_ee_state W e r w A B HA HB) as (p & E & _).
  unfold rh5_get_ee_state, then_, ask, lift in *.
  destruct (multiplyTransforms (e_link e _ _ (r_left_link r)) _) as [lp lr].
  destruct (pytransform_pose lp lr); [|discriminate].
  destruct (multiplyTransforms (e_link e _ _ (r_right_link r)) _) as [rp rr].
  destruct (pytransform_pose rp rr); [reflexivity|discriminate].
Qed.

(** Stepping through a movement. *)
Section Run.
Context {W : Type} (e : engine W) {S : Type} (step : arr -> arr -> S -> S * res (arr * arr)) (r : rh5) (closed : bool).

Lemma rh5_loop_spec n : forall p v h st w w' st' h' pose0,
  rh5_get_ee_state e r false w = (w, Ok pose0) ->
  rh5_cartesian_loop e step n r closed p v h st w = (w', Ok (st', h')) ->
  exists ps vs mps sts, List.length ps = n /\ List.length vs = n /\ List.length mps = n
  /\ h_desired_p h' = h_desired_p h ++ ps /\ h_p h' = h_p h ++ mps
  /\ h_desired_v h' = h_desired_v h ++ vs /\ h_v h' = h_v h ++ vs
  /\ sts 0%nat = st /\ sts n = st'
  /\ forall k, (k < n)%nat ->
       step (nth k (if closed then pose0 :: mps else p :: ps) (zeros 0)) (nth k (v :: vs) (zeros 0)) (sts k)
       = (sts (Datatypes.S k), Ok (nth k ps (zeros 0), nth k vs (zeros 0))).
Proof.
  induction n as [|n IH]; intros p v h st w w' st' h' pose0 E0 E; cbn [rh5_cartesian_loop] in E.
  - injection E as <- <- <-. exists [], [], [], (fun _ => st). rewrite !app_nil_r. repeat split; auto. lia.
  - inv_then E. assert (x = (if closed then pose0 else p) /\ w0 = w) as [-> ->].
    { destruct closed; [rewrite E0 in E1; injection E1 as <- <-; auto|injection E1 as <- <-; auto]. }
    destruct (step (if closed then pose0 else p) v st) as [st1 pv] eqn:Es. inv_then E. injection E2 as <- ->. destruct x as [p1 v1].
    inv_then E. inv_then E. inv_then E. pose proof (rh5_get_ee_pure _ _ _ _ _ _ E4) as ->.
    destruct (IH _ _ _ _ _ _ _ _ _ E4 E) as (ps & vs & mps & sts & L1 & L2 & L3 & A & B & C & D & S0 & Sn & H).
    cbn [h_desired_p h_p h_desired_v h_v] in *.
    exists (p1 :: ps), (v1 :: vs), (x1 :: mps), (fun k => match k with O => st | Datatypes.S k => sts k end).
    rewrite <- app_assoc in A, B, C, D. cbn [List.length app] in *.
    repeat split; auto. intros [|k] Hk.
    + cbn [nth]. rewrite S0. destruct closed; exact Es.
    + specialize (H k ltac:(lia)). destruct closed; cbn [nth] in *; exact H.
Qed.

End Run.

(** The run has one entry per control cycle and the initial one; each desired state is what
    [step] returned for the previous desired state, or for the measured pose in closed loop. *)
Theorem C86_run : forall W (e : engine W) S (step : arr -> arr -> S -> S * res (arr * arr)) r p v x (closed : bool) st w w' st' h,
  0 < r_dt r -> 0 <= x ->
  rh5_step_through_cartesian e step r p v x closed st w = (w', Ok (st', h)) ->
  exists n sts, INR n * r_dt r <= x < INR (Datatypes.S n) * r_dt r
  /\ List.length (h_desired_p h) = Datatypes.S n /\ List.length (h_p h) = Datatypes.S n
  /\ List.length (h_desired_v h) = Datatypes.S n /\ List.length (h_v h) = Datatypes.S n
  /\ nth 0 (h_desired_p h) (zeros 0) = p /\ nth 0 (h_desired_v h) (zeros 0) = v
  /\ rh5_get_ee_state e r false w = (w, Ok (nth 0 (h_p h) (zeros 0)))
  /\ sts 0%nat = st /\ sts n = st'
  /\ forall k, (k < n)%nat ->
       step (nth k (if closed then h_p h else h_desired_p h) (zeros 0)) (nth k (h_desired_v h) (zeros 0)) (sts k)
       = (sts (Datatypes.S k), Ok (nth (Datatypes.S k) (h_desired_p h) (zeros 0), nth (Datatypes.S k) (h_desired_v h) (zeros 0))).
Proof.
  intros W e S step r p v x closed st w w' st' h Hd Hx E. unfold rh5_step_through_cartesian in E. inv_then E.
  pose proof (rh5_get_ee_pure _ _ _ _ _ _ E0) as ->. destruct (Req_EM_T (r_dt r) 0); [lra|]. inv_then E. inv_then E.
  injection E as <- ->.
  destruct (rh5_loop_spec e step r closed _ _ _ _ _ _ _ _ _ _ E0 E1) as (ps & vs & mps & sts & L1 & L2 & L3 & A & B & C & D & S0 & Sn & H).
  cbn [h_desired_p h_p h_desired_v h_v app] in *. exists (n_steps (r_dt r) x), sts. rewrite A, B, C, D. cbn [List.length nth].
  split; [now apply n_steps_bounds|]. repeat split; auto.
Qed.

(** The recorded velocities are the desired ones, after a first entry of zeros: they do not
    depend on what the robot does. *)
Theorem C86_velocities_refuted : forall W (e : engine W) S (step : arr -> arr -> S -> S * res (arr * arr)) r p v x (closed : bool) st w w' st' h,
  0 < r_dt r -> 0 <= x ->
  rh5_step_through_cartesian e step r p v x closed st w = (w', Ok (st', h)) ->
  exists vs, h_desired_v h = v :: vs /\ h_v h = zeros 12 :: vs.
Proof.
  intros W e S step r p v x closed st w w' st' h Hd Hx E. unfold rh5_step_through_cartesian in E. inv_then E.
  pose proof (rh5_get_ee_pure _ _ _ _ _ _ E0) as ->. destruct (Req_EM_T (r_dt r) 0); [lra|]. inv_then E. inv_then E.
  injection E as <- ->.
  destruct (rh5_loop_spec e step r closed _ _ _ _ _ _ _ _ _ _ E0 E1) as (ps & vs & mps & sts & L1 & L2 & L3 & A & B & C & D & S0 & Sn & H).
  cbn [h_desired_v h_v app] in *. eauto.
Qed.

(** Stopping: the robot is sent to the joint angles that inverse kinematics gives for its
    current pose, and the simulation goes on for a second and one step. *)
Lemma client_loop_log {W} (e : engine W) c n : forall w w' a, client_loop e n c w = (w', a) ->
  a = Ok tt /\ exists m, (m <= n)%nat /\ w_log w' = w_log w ++ repeat (c, Advance) m
  /\ (m = n \/ e_connected e (w_client w' c) = false).
Proof.
  induction n as [|n IH]; intros w w' a E; cbn [client_loop] in E.
  - injection E as <- <-. split; [reflexivity|]. exists 0%nat. cbn [repeat]. rewrite app_nil_r. auto.
  - unfold then_, ask in E. destruct (e_connected e (w_client w c)) eqn:Ec.
    + unfold request_ in E. destruct (IH _ _ _ E) as (-> & m & Hm & L & D). split; [reflexivity|]. exists (S m).
      cbn [w_log] in L. rewrite <- app_assoc in L. split; [lia|]. split; [exact L|]. destruct D as [->|D]; auto.
    + injection E as <- <-. split; [reflexivity|]. exists 0%nat. cbn [repeat]. rewrite app_nil_r. repeat split; auto. lia.
Qed.

Lemma filter_repeat_own (r : rh5) m : map snd (filter (fun x : nat * request => Nat.eqb (fst x) (r_client r)) (repeat (r_client r, Advance) m))
  = repeat Advance m.
Proof. induction m as [|m IH]; cbn [repeat filter fst map snd]; [reflexivity|]. rewrite Nat.eqb_refl. cbn [map snd]. now rewrite IH. Qed.

Theorem C86_stop : forall W (e : engine W) r w w', robot_ok r -> 0 < r_dt r ->
  rh5_stop e r w = (w', Ok tt) ->
  exists pose w1 q left right n, rh5_get_ee_state e r false w = (w, Ok pose)
  /\ rh5_inverse_kinematics e r pose w = (w1, Ok q)
  /\ (forall k, (k < alen left)%nat -> aget left k = aget q k)
  /\ (forall k, (k < alen right)%nat -> aget right k = aget q (alen left + k)%nat)
  /\ INR n * r_dt r <= 1 < INR (S n) * r_dt r
  /\ robot_log r w' = robot_log r w ++ [Motor (r_body r) true (r_left_joints r) left; Motor (r_body r) true (r_right_joints r) right]
       ++ repeat Advance (S n).
Proof.
  intros W e r w w' Ho Hd E. unfold rh5_stop in E. inv_then E. pose proof (rh5_get_ee_pure _ _ _ _ _ _ E0) as ->.
  inv_then E. unfold rh5_goto_ee_state in E1. inv_then E1. inv_then E1. rename x1 into q.
  pose proof (ik_length _ _ _ _ _ _ Ho E2) as Lq. destruct Ho as (Hs & _).
  destruct (C86_ik_leaves_robot _ _ _ _ _ _ _ Hs E2) as [_ Rq].
  destruct (C86_joint_command W e r q true w1 Lq) as (w3 & l & rr & E4 & L & Ll & Lr & Gl & Gr).
  rewrite E3 in E4. injection E4 as <-. destruct x2.
  destruct (Req_EM_T (r_dt r) 0); [lra|]. destruct (client_loop_log _ _ _ _ _ _ E1) as (_ & m & Hm & L2 & D).
  unfold client_step, then_, ask in E. destruct (e_connected e (w_client w0 (r_client r))) eqn:Ec; [|discriminate].
  destruct D as [->|D]; [|congruence]. injection E as <-.
  exists x, w1, q, l, rr, (n_steps (r_dt r) 1). split; [exact E0|]. split; [exact E2|]. split; [exact Gl|].
  split; [now rewrite Ll|]. split; [apply n_steps_bounds; lra|].
  assert (L3 : w_log {| w_client := upd (w_client w0) (r_client r) (e_exec e Advance (w_client w0 (r_client r))); w_next := w_next w0;
                 w_log := w_log w0 ++ [(r_client r, Advance)] |} = w_log w1 ++
     ([(r_client r, Motor (r_body r) true (r_left_joints r) l); (r_client r, Motor (r_body r) true (r_right_joints r) rr)]
      ++ repeat (r_client r, Advance) (S (n_steps (r_dt r) 1)))).
  { cbn [w_log]. rewrite L2, L, <- !app_assoc. f_equal. f_equal.
    change (repeat (r_client r, Advance) (S (n_steps (r_dt r) 1))) with ((r_client r, Advance) :: repeat (r_client r, Advance) (n_steps (r_dt r) 1)).
    now rewrite repeat_cons. }
  apply robot_log_app with (r := r) in L3. rewrite L3, Rq. f_equal. rewrite filter_app, map_app.
  cbn [filter fst]. rewrite Nat.eqb_refl. cbn [map snd]. now rewrite filter_repeat_own.
Qed.

(** Inverse kinematics depends on earlier calls: the chain moves towards the robot's joint
    angles for at most 50 steps, so the same question can get another answer.  Here a joint
    moves by one unit per step, and the solver returns the configuration it finds. *)
Definition slow_engine : engine nat :=
  {| e_fresh := 0%nat; e_joint := fun s _ _ => (INR s, 0); e_link := fun _ _ _ => (zeros 3, arr_xyzw q_one);
     e_ik := fun s _ _ _ _ => Some {| alen := 1; aget := fun _ => INR s |};
     e_bodies := fun _ => 0%nat; e_info := fun _ _ => (""%string, []);
     e_exec := fun c s => match c with Advance => S s | _ => s end; e_connected := fun _ => true |}.

Definition slow_chain (c : nat) : chain := {| c_client := c; c_body := 0; c_joints := [0%nat]; c_ee := 0; c_q := [0%nat] |}.
Definition slow_rh5 : rh5 :=
  {| r_client := 0; r_dt := 1; r_body := 0; r_left_joints := [0%nat]; r_right_joints := [0%nat]; r_left_link := 0; r_right_link := 0;
     r_left_ik := slow_chain 1; r_right_ik := slow_chain 2 |}.
Definition slow_world (a b : nat) : world nat :=
  {| w_client := fun c => match c with 0 => 200 | 1 => a | _ => b end%nat; w_next := 3; w_log := [] |}.

Lemma slow_goto c q n : aget q 0%nat = 200 -> alen q = 1%nat -> forall w, (w_client w c + n < 200)%nat ->
  exists l, goto_loop slow_engine n (slow_chain c) q (1 / 1000) w
    = ({| w_client := upd (w_client w) c (w_client w c + n)%nat; w_next := w_next w; w_log := w_log w ++ l |}, Ok tt).
Proof.
  intros Hq Hl. induction n as [|n IH]; intros w Hw; cbn [goto_loop slow_chain c_client].
  - exists []. rewrite app_nil_r, Nat.add_0_r. unfold ret. f_equal. destruct w as [f nx lg]. cbn [w_client w_next w_log]. f_equal.
    apply FunctionalExtensionality.functional_extensionality. intros k. unfold upd. destruct (Nat.eqb_spec k c); [now subst|reflexivity].
  - unfold then_, ask. destruct (request_ slow_engine c Advance w) as [w1 a1] eqn:E1. injection E1 as <- <-.
    cbn [w_client w_next w_log]. rewrite upd_same. cbn [e_exec slow_engine].
    destruct (Rlt_dec _ _) as [H|H].
    + exfalso. apply distance_squared in H; [|lra]. unfold squared_error in H. rewrite Hl in H. cbn [seq map fold_right] in H.
      rewrite Hq in H. unfold joint_positions in H. cbn [c_joints c_body slow_chain aget e_joint slow_engine fst] in H.
      assert (G : INR (S (w_client w c)) <= 199) by (replace 199 with (INR 199) by (cbn; ring); apply le_INR; lia). nra.
    + destruct (IH {| w_client := upd (w_client w) c (S (w_client w c)); w_next := w_next w; w_log := w_log w ++ [(c, Advance)] |}) as (l & El).
      { cbn [w_client]. rewrite upd_same. lia. }
      fold (slow_chain c) in *. rewrite El. cbn [w_client w_next w_log]. rewrite upd_same, <- app_assoc. eexists. f_equal. f_equal.
      apply FunctionalExtensionality.functional_extensionality. intros k. unfold upd. destruct (Nat.eqb_spec k c); [lia|reflexivity].
Qed.

Lemma slow_chain_ik c p w : alen p = 7%nat -> (w_client w c + 50 < 200)%nat ->
  exists l, chain_ik slow_engine (slow_chain c) p (Some {| alen := 1; aget := fun _ => 200 |}) w
  = ({| w_client := upd (w_client w) c (w_client w c + 50)%nat; w_next := w_next w; w_log := w_log w ++ l |}, Ok [INR (w_client w c + 50)]).
Proof.
  intros Hp Hw. unfold chain_ik, goto_joint_state, motor. cbn [slow_chain c_client c_body c_joints alen List.length Nat.eqb].
  destruct (slow_goto c {| alen := 1; aget := fun _ => 200 |} 50 eq_refl eq_refl
    {| w_client := w_client w; w_next := w_next w; w_log := w_log w ++ [(c, Motor 0 true [0%nat] {| alen := 1; aget := fun _ => 200 |})] |} Hw) as (l & E).
  assert (U : request_ slow_engine c (Motor 0 true [0%nat] {| alen := 1; aget := fun _ => 200 |}) w
     = ({| w_client := w_client w; w_next := w_next w; w_log := w_log w ++ [(c, Motor 0 true [0%nat] {| alen := 1; aget := fun _ => 200 |})] |}, Ok tt)).
  { unfold request_. f_equal. f_equal. apply FunctionalExtensionality.functional_extensionality. intros k. unfold upd.
    destruct (Nat.eqb_spec k c); [now subst|reflexivity]. }
  unfold then_. rewrite U. fold (slow_chain c). rewrite E. unfold lift, pybullet_pose. cbn [slice_from alen]. rewrite Hp. cbn [Nat.sub Nat.eqb].
  unfold ask. cbn [c_client c_body c_ee c_q slow_chain w_client e_ik slow_engine take_indices alen]. rewrite upd_same.
  cbn [Nat.ltb Nat.leb bind aget w_next w_log]. rewrite <- app_assoc. eexists. reflexivity.
Qed.

Lemma slow_ik p a b w : alen p = 14%nat -> (a < 150)%nat -> (b < 150)%nat ->
  w_client w 0%nat = 200%nat -> w_client w 1%nat = a -> w_client w 2%nat = b ->
  exists w' q, rh5_inverse_kinematics slow_engine slow_rh5 p w = (w', Ok q)
  /\ w_client w' 0%nat = 200%nat /\ w_client w' 1%nat = (a + 50)%nat /\ w_client w' 2%nat = (b + 50)%nat
  /\ aget q 0%nat = INR (a + 50) /\ aget q 1%nat = INR (b + 50).
Proof.
  intros Hp Ha Hb H0 H1 H2. unfold rh5_inverse_kinematics, then_.
  unfold ask at 1. cbn [slow_rh5 r_client r_body r_left_joints r_right_joints r_left_ik r_right_ik]. unfold ask.
  assert (J : forall s : nat, s = 200%nat -> joint_positions slow_engine s 0 [0%nat] = {| alen := 1; aget := fun _ => 200 |}).
  { intros s ->. unfold joint_positions. cbn [List.length e_joint slow_engine fst]. f_equal.
    apply FunctionalExtensionality.functional_extensionality. intros k. rewrite INR_IZR_INZ. reflexivity. }
  rewrite (J _ H0).
  destruct (slow_chain_ik 1 (slice_to 7 p) w) as (l1 & E1); [cbn [slice_to alen]; lia|lia|]. rewrite E1. cbn [w_client].
  destruct (slow_chain_ik 2 (slice_from 7 p) {| w_client := upd (w_client w) 1 (w_client w 1%nat + 50)%nat; w_next := w_next w; w_log := w_log w ++ l1 |}) as (l2 & E2);
    [cbn [slice_from alen]; lia|cbn [w_client]; unfold upd; cbn [Nat.eqb]; lia|].
  rewrite J by (unfold upd; cbn [Nat.eqb]; exact H0). rewrite E2. unfold ret. eexists. eexists. split; [reflexivity|].
  cbn [w_client]. unfold upd. cbn [Nat.eqb]. rewrite H0, H1, H2. repeat split; reflexivity.
Qed.

Theorem C86_history_refuted : exists W (e : engine W) r w p w1 q1 w2 q2, robot_ok r
  /\ rh5_inverse_kinematics e r p w = (w1, Ok q1) /\ rh5_inverse_kinematics e r p w1 = (w2, Ok q2)
  /\ w_client w1 (r_client r) = w_client w (r_client r) /\ aget q1 0%nat <> aget q2 0%nat.
Proof.
  destruct (slow_ik (zeros 14) 0 0 (slow_world 0 0)) as (w1 & q1 & E1 & A0 & A1 & A2 & Q1 & _); [reflexivity|lia|lia|reflexivity..|].
  destruct (slow_ik (zeros 14) 50 50 w1) as (w2 & q2 & E2 & B0 & B1 & B2 & Q2 & _); [reflexivity|lia|lia|auto..|].
  exists nat, slow_engine, slow_rh5, (slow_world 0 0), (zeros 14), w1, q1, w2, q2.
  split; [repeat split; cbn; lia|]. split; [exact E1|]. split; [exact E2|]. split; [exact A0|].
  rewrite Q1, Q2. intros H. apply INR_eq in H. lia.
Qed.

(** ** The hypotheses can be met *)

(** A robot with one joint per arm whose joints follow position commands at once. *)
Definition toy_joints : list joint_info :=
  [{| j_name := "L"; j_type := 0; j_child := "LTCP"; j_parent := -1 |};
   {| j_name := "R"; j_type := 0; j_child := "RTCP"; j_parent := -1 |}]%string.
Definition toy_engine : engine (nat * R) :=
  {| e_fresh := (0%nat, 0); e_joint := fun s _ _ => (snd s, 0); e_link := fun _ _ _ => (zeros 3, arr_xyzw q_one);
     e_ik := fun _ _ _ p _ => Some {| alen := 2; aget := fun _ => if Nat.ltb 0 (alen p) then aget p 0%nat else 0 |};
     e_bodies := fst; e_info := fun _ _ => ("base"%string, toy_joints);
     e_exec := fun c s => match c with LoadURDF _ _ => (S (fst s), snd s) | ResetSimulation => (0%nat, snd s) | Motor _ true _ t => (fst s, aget t 0%nat) | _ => s end;
     e_connected := fun _ => true |}.
Definition no_clients : world (nat * R) := {| w_client := fun _ => (0%nat, 0); w_next := 0; w_log := [] |}.

Notation toy_new := (rh5_new toy_engine 1 false "LTCP" "RTCP" ["L"%string] ["R"%string] "rh5.urdf" "left.urdf" "right.urdf").

(** Programs that succeed. *)
Definition succeeds {W A} (m : prog (W:=W) A) (w : world W) (Q : world W -> A -> Prop) : Prop :=
  exists w' x, m w = (w', Ok x) /\ Q w' x.
Lemma succeeds_then {W A B} (m : prog (W:=W) A) (f : A -> prog B) w Q :
  succeeds m w (fun w1 x => succeeds (f x) w1 Q) -> succeeds (then_ m f) w Q.
Proof. intros (w1 & x & E & w2 & y & E2 & H). exists w2, y. split; [|exact H]. eapply then_run; eassumption. Qed.
Lemma succeeds_request {W} (e : engine W) c r w (Q : world W -> unit -> Prop) : (forall w', w_next w' = w_next w -> Q w' tt) -> succeeds (request_ e c r) w Q.
Proof. intros H. eexists. eexists. split; [reflexivity|]. now apply H. Qed.
Lemma succeeds_connect {W} (e : engine W) w (Q : world W -> nat -> Prop) : (forall w', Q w' (w_next w)) -> succeeds (connect e) w Q.
Proof. intros H. eexists. eexists. split; [reflexivity|]. apply H. Qed.
Lemma succeeds_load {W} (e : engine W) c p q w (Q : world W -> nat -> Prop) : (forall w' b, Q w' b) -> succeeds (load e c p q) w Q.
Proof. intros H. eexists. eexists. split; [reflexivity|]. apply H. Qed.
Lemma succeeds_ask {W A} c (f : W -> A) w (Q : world W -> A -> Prop) : Q w (f (w_client w c)) -> succeeds (ask c f) w Q.
Proof. intros H. eexists. eexists. split; [reflexivity|]. exact H. Qed.
Lemma succeeds_lift {W A} (x : A) (w : world W) (Q : world W -> A -> Prop) r : r = Ok x -> Q w x -> succeeds (lift r) w Q.
Proof. intros -> H. eexists. eexists. split; [reflexivity|]. exact H. Qed.
Lemma succeeds_ret {W A} (x : A) (w : world W) (Q : world W -> A -> Prop) : Q w x -> succeeds (ret x) w Q.
Proof. intros H. eexists. eexists. split; [reflexivity|]. exact H. Qed.

Ltac succ := cbv beta iota; lazymatch goal with
  | |- succeeds (then_ _ _) _ _ => apply succeeds_then
  | |- succeeds (request_ _ _ _) _ _ => apply succeeds_request; intros ? _
  | |- succeeds (load _ _ _ _) _ _ => apply succeeds_load; intros ? ?
  | |- succeeds (connect _) _ _ => apply succeeds_connect; intros ?
  | |- succeeds (ask _ _) _ _ => apply succeeds_ask
  | |- succeeds (ret _) _ _ => apply succeeds_ret
  | |- succeeds (lift _) _ _ => eapply succeeds_lift; [reflexivity|]
  end.

Lemma toy_chain ee jn i path w : (ee, jn, i) = ("LTCP", "L", 0%nat)%string \/ (ee, jn, i) = ("RTCP", "R", 1%nat)%string ->
  succeeds (chain_new toy_engine ee [jn] path) w (fun _ k => c_joints k = [i] /\ c_q k = [i]).
Proof.
  intros H. unfold chain_new. destruct H as [H|H]; injection H as -> -> ->.
  all: do 8 succ; cbn [e_info toy_engine fst snd]; repeat succ; auto.
Qed.

Lemma toy_simulation dt rt w : succeeds (simulation_new toy_engine dt rt) w (fun _ _ => True).
Proof. unfold simulation_new. repeat succ. exact I. Qed.

Lemma toy_new_ok w : exists w' r, toy_new w = (w', Ok r) /\ r_left_joints r = [0%nat] /\ r_right_joints r = [1%nat]
  /\ c_q (r_left_ik r) = [0%nat] /\ c_q (r_right_ik r) = [1%nat] /\ r_dt r = 1
  /\ c_joints (r_left_ik r) = [0%nat] /\ c_joints (r_right_ik r) = [1%nat].
Proof.
  change (succeeds toy_new w (fun _ r => r_left_joints r = [0%nat] /\ r_right_joints r = [1%nat]
  /\ c_q (r_left_ik r) = [0%nat] /\ c_q (r_right_ik r) = [1%nat] /\ r_dt r = 1
  /\ c_joints (r_left_ik r) = [0%nat] /\ c_joints (r_right_ik r) = [1%nat])).
  unfold rh5_new. apply succeeds_then.
  destruct (toy_simulation 1 false w) as (w0 & c & E0 & _). exists w0, c. split; [exact E0|].
  do 8 succ. cbn [e_info toy_engine fst snd]. do 10 succ. apply succeeds_then.
  edestruct (toy_chain "LTCP" "L" 0 "left.urdf") as (w1 & k1 & E1 & A1 & B1); [now left|]. exists w1, k1. split; [exact E1|].
  apply succeeds_then.
  edestruct (toy_chain "RTCP" "R" 1 "right.urdf") as (w2 & k2 & E2 & A2 & B2); [now right|]. exists w2, k2. split; [exact E2|].
  apply succeeds_ret. cbn [r_left_joints r_right_joints r_left_ik r_right_ik r_dt]. repeat split; assumption.
Qed.

Lemma toy_ur5_ok w : exists w' u, ur5_new toy_engine 1 false w = (w', Ok u).
Proof.
  assert (H : succeeds (ur5_new toy_engine 1 false) w (fun _ _ => True)).
  { unfold ur5_new. apply succeeds_then. destruct (toy_simulation 1 false w) as (w0 & c & E0 & _). exists w0, c. split; [exact E0|].
    repeat succ. exact I. }
  destruct H as (w' & u & E & _). eauto.
Qed.

Example C85_satisfiable : exists w1 r1 w2 r2,
  toy_new no_clients = (w1, Ok r1) /\ toy_new w1 = (w2, Ok r2)
  /\ (forall c, rh5_clients r1 c -> rh5_clients r2 c -> False)
  /\ (exists w3 u w4 u', ur5_new toy_engine 1 false no_clients = (w3, Ok u) /\ ur5_new toy_engine 1 false w3 = (w4, Ok u')
      /\ (0 < w_next w3)%nat).
Proof.
  destruct (toy_new_ok no_clients) as (w1 & r1 & E1 & _). destruct (toy_new_ok w1) as (w2 & r2 & E2 & _).
  exists w1, r1, w2, r2. split; [exact E1|]. split; [exact E2|]. split.
  - destruct (C85_rh5_new _ _ _ _ _ _ _ _ _ _ _ _ _ _ E1) as (A1 & A2 & A3 & A4 & _).
    destruct (C85_rh5_new _ _ _ _ _ _ _ _ _ _ _ _ _ _ E2) as (B1 & B2 & B3 & _).
    unfold rh5_clients. intros c H1 H2. lia.
  - destruct (toy_ur5_ok no_clients) as (w3 & u & E3). destruct (toy_ur5_ok w3) as (w4 & u' & E4).
    exists w3, u, w4, u'. split; [exact E3|]. split; [exact E4|]. destruct (ur5_new_client _ _ _ _ _ _ E3) as [_ ->]. lia.
Qed.

Lemma toy_link s b l : represents_pb (e_link toy_engine s b l) rigid_one.
Proof.
  unfold represents_pb. cbn [e_link toy_engine fst snd zeros arr_xyzw alen aget]. split; [reflexivity|]. split; [reflexivity|].
  split; [unfold unit_quat; cbn; ring|]. unfold rigid_one. f_equal. unfold xyzw. cbn. unfold m3_one. f_equal; ring.
Qed.

Lemma toy_chain_ik k p q i w : c_q k = [i] -> (i < 2)%nat -> alen p = 7%nat -> alen q = List.length (c_joints k) -> exists w',
  chain_ik toy_engine k p (Some q) w = (w', Ok [aget p 0%nat]).
Proof.
  intros Hq Hi Hp Hl. unfold chain_ik. assert (He : 0 < 1 / 1000) by lra.
  destruct (goto_joint_state toy_engine k q 50 (1 / 1000) w) as [w1 a] eqn:E.
  destruct (C86_goto_joint_state _ _ _ _ _ _ _ _ _ He Hl E) as (-> & _).
  eexists. eapply then_run; [exact E|]. unfold lift, pybullet_pose. cbn [slice_from alen]. rewrite Hp. cbn [Nat.sub Nat.eqb].
  eapply then_run; [reflexivity|]. eapply then_run; [reflexivity|]. cbn [e_ik toy_engine]. rewrite Hq. cbn [take_indices alen].
  destruct (Nat.ltb_spec i 2); [|lia]. cbn [bind aget slice_to alen]. rewrite Hp. reflexivity.
Qed.

Example C86_satisfiable : exists w1 r, toy_new no_clients = (w1, Ok r) /\ robot_ok r /\ reads_entries toy_engine
  /\ 0 < r_dt r
  /\ represents_pb (e_link toy_engine (w_client w1 (r_client r)) (r_body r) (r_left_link r)) rigid_one
  /\ represents_pb (e_link toy_engine (w_client w1 (r_client r)) (r_body r) (r_right_link r)) rigid_one
  /\ (exists w2 q, rh5_inverse_kinematics toy_engine r {| alen := 14; aget := INR |} w1 = (w2, Ok q)
       /\ alen q = 2%nat /\ aget q 0%nat = 0 /\ aget q 1%nat = 7).
Proof.
  destruct (toy_new_ok no_clients) as (w1 & r & E & Jl & Jr & Ql & Qr & D & Cl & Cr).
  destruct (C85_rh5_new _ _ _ _ _ _ _ _ _ _ _ _ _ _ E) as (A1 & A2 & A3 & _).
  exists w1, r. split; [exact E|]. split.
  { unfold robot_ok, separate. rewrite Ql, Qr, Jl, Jr. repeat split; lia. }
  split.
  { intros s b l p p' q q' [Hl Hp] _. cbn [e_ik toy_engine]. rewrite <- Hl. destruct (Nat.ltb_spec 0 (alen p)); [|reflexivity]. now rewrite (Hp 0%nat). }
  split; [rewrite D; lra|]. split; [apply toy_link|]. split; [apply toy_link|].
  unfold rh5_inverse_kinematics.
  destruct (toy_chain_ik (r_left_ik r) (slice_to 7 {| alen := 14; aget := INR |})
     (joint_positions toy_engine (w_client w1 (r_client r)) (r_body r) (r_left_joints r)) 0 w1 Ql ltac:(lia) eq_refl) as (wa & Ea).
  { cbn [joint_positions alen]. now rewrite Jl, Cl. }
  destruct (toy_chain_ik (r_right_ik r) (slice_from 7 {| alen := 14; aget := INR |})
     (joint_positions toy_engine (w_client wa (r_client r)) (r_body r) (r_right_joints r)) 1 wa Qr ltac:(lia) eq_refl) as (wb & Eb).
  { cbn [joint_positions alen]. now rewrite Jr, Cr. }
  eexists. eexists. split.
  - eapply then_run; [reflexivity|]. eapply then_run; [exact Ea|]. eapply then_run; [reflexivity|]. eapply then_run; [exact Eb|]. reflexivity.
  - rewrite Jl. cbn. repeat split; ring.
Qed.
