(** C86: what the constructor of RH5Simulation (testing/simulation.py) finds out about the robot. *)
From Coq Require Import Reals List Arith Bool Lia Lra ZArith String.
From Verif Require Import M_Prelude M_Base M_Robot Properties_Robot M_RH5 P_RH5 Properties_RH5.
Import ListNotations.
Set Bullet Behavior "Strict Subproofs".
Local Open Scope R_scope.
Local Strategy 1000 [then_].

(** How PyBullet counts bodies. *)
Definition counts_bodies {W} (e : engine W) : Prop := forall s,
  e_bodies e (e_exec e ResetSimulation s) = 0%nat
  /\ (forall path pos, e_bodies e (e_exec e (LoadURDF path pos) s) = S (e_bodies e s))
  /\ (forall q, match q with ResetSimulation | LoadURDF _ _ => True
                | _ => e_bodies e (e_exec e q s) = e_bodies e s end).

(** Joints are the joints with these names. *)
Definition named (robot : list joint_info) (joints : list nat) (names : list string) : Prop :=
  map (fun i => option_map j_name (nth_error robot i)) joints = map Some names.
(** A link is the link with this name (of the joint with the same index). *)
Definition link_named (robot : list joint_info) (link : Z) (name : string) : Prop :=
  exists i j, nth_error robot i = Some j /\ j_child j = name /\ link = Z.of_nat i.
(** Positions in the result of inverse kinematics, which lists the movable joints in order. *)
Definition solution_named (robot : list joint_info) (positions : list nat) (names : list string) : Prop :=
  map (fun i => option_map j_name (nth_error (filter movable robot) i)) positions = map Some names.

Lemma numbered_get (l : list string) : forall i0 s i, dict_get String.eqb s (numbered i0 l) = Ok i ->
  (i0 <= i)%nat /\ nth_error l (i - i0) = Some s.
Proof.
  induction l as [|x l IH]; intros i0 s i H; cbn in H; [discriminate|].
  destruct (String.eqb_spec x s) as [->|].
  - injection H as <-. rewrite Nat.sub_diag. auto.
  - destruct (IH _ _ _ H) as [H1 H2]. split; [lia|]. replace (i - i0)%nat with (S (i - S i0)) by lia. exact H2.
Qed.

Lemma numbered_get_all robot l : forall names idx, l = map j_name robot ->
  dict_get_all String.eqb names (numbered 0 l) = Ok idx -> named robot idx names.
Proof.
  unfold named. induction names as [|x names IH]; intros idx El H; cbn [dict_get_all] in H; [now injection H as <-|].
  destruct (dict_get String.eqb x (numbered 0 l)) as [i|] eqn:E; cbn [bind] in H; [|discriminate].
  destruct (dict_get_all String.eqb names (numbered 0 l)) as [l'|] eqn:E'; cbn [bind] in H; [|discriminate].
  injection H as <-. cbn [map]. f_equal; [|now apply IH].
  apply numbered_get in E. destruct E as [_ E]. rewrite Nat.sub_0_r in E. subst l. rewrite <- E. symmetry. apply nth_error_map.
Qed.

Lemma link_get base robot name link : 
  dict_get link_name_eqb (Str name)
    ((Bytes base, (-1)%Z) :: map (fun x => (Str (fst x), Z.of_nat (snd x))) (numbered 0 (map j_child robot))) = Ok link ->
  link_named robot link name.
Proof.
  cbn [dict_get link_name_eqb]. intros H.
  assert (G : forall l i0, dict_get link_name_eqb (Str name) (map (fun x => (Str (fst x), Z.of_nat (snd x))) (numbered i0 l)) = Ok link ->
     exists i, nth_error l i = Some name /\ link = Z.of_nat (i0 + i)).
  { induction l as [|x l IH]; intros i0 E; cbn in E; [discriminate|]. destruct (String.eqb_spec x name) as [->|].
    - injection E as <-. exists 0%nat. rewrite Nat.add_0_r. auto.
    - destruct (IH _ E) as (i & E1 & ->). exists (S i). split; [exact E1|]. f_equal. lia. }
  destruct (G _ _ H) as (i & E & ->). rewrite nth_error_map in E.
  destruct (nth_error robot i) as [j|] eqn:Ej; cbn in E; [|discriminate]. injection E as <-. exists i, j. auto.
Qed.

Lemma upd_other {W} (f : nat -> W) c s k : k <> c -> upd f c s k = f k.
Proof. intros H. unfold upd. now destruct (Nat.eqb_spec k c). Qed.

Lemma request_client {W} (e : engine W) c r w w' a : request_ e c r w = (w', a) ->
  w_client w' c = e_exec e r (w_client w c) /\ (forall k, k <> c -> w_client w' k = w_client w k).
Proof.
  unfold request_. intros H. injection H as <- _. cbn [w_client]. split; [apply upd_same|intros k Hk; now apply upd_other].
Qed.
Lemma load_client {W} (e : engine W) c p q w w' b : load e c p q w = (w', Ok b) ->
  b = e_bodies e (w_client w c) /\ w_client w' c = e_exec e (LoadURDF p q) (w_client w c)
  /\ (forall k, k <> c -> w_client w' k = w_client w k).
Proof.
  unfold load. intros H. inv_then H. apply ask_ok in E. destruct E as [-> ->]. inv_then H. apply request_client in E.
  apply ret_ok in H. destruct H as [-> ->]. destruct E. auto.
Qed.

Lemma chain_names {W} (e : engine W) ee js p w w' k : counts_bodies e -> chain_new e ee js p w = (w', Ok k) ->
  c_body k = 0%nat /\ e_bodies e (w_client w' (c_client k)) = 1%nat
  /\ (let robot := snd (e_info e (w_client w' (c_client k)) 0) in well_formed robot ->
      named robot (c_joints k) js /\ link_named robot (c_ee k) ee /\ solution_named robot (c_q k) js)
  /\ forall c, (c < w_next w)%nat -> w_client w' c = w_client w c.
Proof.
  intros Hb H. unfold chain_new in H. inv_then H. unfold connect in E. injection E as <- <-.
  inv_then H. apply request_client in E. inv_then H. apply request_client in E0. inv_then H. apply load_client in E1.
  destruct E as [R1 F1], E0 as [R2 F2], E1 as (B & R3 & F3). cbn [w_client] in R1, F1. rewrite upd_same in R1.
  inv_then H. apply ask_ok in E. destruct E as [-> ->]. inv_then H. apply lift_ok in E. destruct E as [-> A].
  match goal with y : (list _ * list _ * list _)%type |- _ => destruct y as [[ids links] ik] end.
  inv_then H. apply lift_ok in E. destruct E as [-> E1]. inv_then H. apply lift_ok in E. destruct E as [-> E2].
  inv_then H. apply lift_ok in E. destruct E as [-> E3].
  apply ret_ok in H. destruct H as [-> ->]. cbn [c_body c_client c_joints c_ee c_q].
  assert (B0 : e_bodies e (w_client w1 (w_next w)) = 0%nat).
  { rewrite R2. destruct (Hb (w_client w0 (w_next w))) as (_ & _ & Hq). rewrite (Hq (SetTimeStep 1)). rewrite R1. apply Hb. }
  rewrite B0 in B. subst. split; [reflexivity|]. split.
  { rewrite R3. destruct (Hb (w_client w1 (w_next w))) as (_ & Hl & _). now rewrite Hl, B0. }
  split.
  { set (robot := snd (e_info e (w_client w2 (w_next w)) 0)) in *. intros Hw.
    pose proof (analyze_robot_closed (fst (e_info e (w_client w2 (w_next w)) 0)) robot Hw) as Ec. rewrite Ec in A. injection A as <- <- <-. split; [now apply (numbered_get_all _ _ _ _ eq_refl) in E1|].
    split; [now apply link_get in E2|]. unfold solution_named.
    now apply (numbered_get_all (filter movable robot) _ _ _ eq_refl) in E3. }
  intros c Hc. rewrite F3, F2, F1 by lia. apply upd_other. lia.
Qed.

(** The simulation commands the joints with the given names of the robot that it loaded (body 1;
    the plane is body 0), reads the links with the given names, and each chain refers to the same
    names in its own model (body 0 of its client).  The states of the clients are those after the
    construction. *)
Theorem C86_names : forall W (e : engine W) dt rt lf rf lj rj up lp rp w w' r, counts_bodies e ->
  rh5_new e dt rt lf rf lj rj up lp rp w = (w', Ok r) ->
  let robot_of k := snd (e_info e (w_client w' (c_client k)) (c_body k)) in
  r_dt r = dt /\ r_body r = 1%nat /\ c_body (r_left_ik r) = 0%nat /\ c_body (r_right_ik r) = 0%nat
  /\ e_bodies e (w_client w' (r_client r)) = 2%nat
  /\ e_bodies e (w_client w' (c_client (r_left_ik r))) = 1%nat
  /\ e_bodies e (w_client w' (c_client (r_right_ik r))) = 1%nat
  /\ (let robot := snd (e_info e (w_client w' (r_client r)) 1) in well_formed robot ->
      named robot (r_left_joints r) lj /\ named robot (r_right_joints r) rj
      /\ link_named robot (r_left_link r) lf /\ link_named robot (r_right_link r) rf)
  /\ (well_formed (robot_of (r_left_ik r)) ->
      named (robot_of (r_left_ik r)) (c_joints (r_left_ik r)) lj
      /\ link_named (robot_of (r_left_ik r)) (c_ee (r_left_ik r)) lf
      /\ solution_named (robot_of (r_left_ik r)) (c_q (r_left_ik r)) lj)
  /\ (well_formed (robot_of (r_right_ik r)) ->
      named (robot_of (r_right_ik r)) (c_joints (r_right_ik r)) rj
      /\ link_named (robot_of (r_right_ik r)) (c_ee (r_right_ik r)) rf
      /\ solution_named (robot_of (r_right_ik r)) (c_q (r_right_ik r)) rj).
Proof.
  intros W e dt rt lf rf lj rj up lp rp w w' r Hb H robot_of. unfold rh5_new in H. inv_then H.
  assert (Es := E). apply simulation_new_client in E. destruct E as [-> N].
  assert (B0 : e_bodies e (w_client w0 (w_next w)) = 0%nat).
  { unfold simulation_new in Es. inv_then Es. unfold connect in E. injection E as <- <-.
    inv_then Es. inv_then Es. inv_then Es. inv_then Es. inv_then Es. inv_then Es. inv_then Es.
    apply ret_ok in Es. destruct Es as [-> _].
    apply request_client in E2, E3, E4, E5. destruct E2 as [E2 _], E3 as [E3 _], E4 as [E4 _], E5 as [E5 _].
    rewrite E5, (proj2 (proj2 (Hb _)) SetGravity). rewrite E4, (proj2 (proj2 (Hb _)) (SetRealTime rt)).
    rewrite E3, (proj2 (proj2 (Hb _)) (SetTimeStep dt)). rewrite E2. apply Hb. }
  inv_then H. assert (NE := next_request _ _ _ _ _ _ E). apply request_client in E. destruct E as [E Eo].
  assert (B1 : e_bodies e (w_client w1 (w_next w)) = 0%nat).
  { destruct (Nat.eq_dec (w_next w) 0) as [H0|H0].
    - rewrite H0 in *. rewrite E, (proj2 (proj2 (Hb _)) SearchPath). exact B0.
    - now rewrite Eo. }
  inv_then H. assert (NL := next_load _ _ _ _ _ _ _ E0). apply load_client in E0. destruct E0 as (_ & R1 & _).
  inv_then H. assert (NL2 := next_load _ _ _ _ _ _ _ E0). apply load_client in E0. destruct E0 as (Eb & R2 & _).
  assert (B2 : e_bodies e (w_client w2 (w_next w)) = 1%nat) by (rewrite R1, (proj1 (proj2 (Hb _))); now rewrite B1).
  assert (B3 : e_bodies e (w_client w3 (w_next w)) = 2%nat) by (rewrite R2, (proj1 (proj2 (Hb _))); now rewrite B2).
  rewrite B2 in Eb. subst.
  inv_then H. apply ask_ok in E0. destruct E0 as [-> ->]. inv_then H. apply lift_ok in E0. destruct E0 as [-> A].
  match goal with y : (list _ * list _ * list _)%type |- _ => destruct y as [[ids links] ik] end.
  inv_then H. apply lift_ok in E0. destruct E0 as [-> J1]. inv_then H. apply lift_ok in E0. destruct E0 as [-> J2].
  inv_then H. apply lift_ok in E0. destruct E0 as [-> L1]. inv_then H. apply lift_ok in E0. destruct E0 as [-> L2].
  inv_then H. assert (C1 := chain_new_client _ _ _ _ _ _ _ E0). apply (chain_names e _ _ _ _ _ _ Hb) in E0. destruct E0 as (P1 & P2 & P3 & P4).
  inv_then H. assert (C2 := chain_new_client _ _ _ _ _ _ _ E0). apply (chain_names e _ _ _ _ _ _ Hb) in E0. destruct E0 as (Q1 & Q2 & Q3 & Q4).
  apply ret_ok in H. destruct H as [-> ->].
  cbn [r_dt r_body r_left_ik r_right_ik r_client r_left_joints r_right_joints r_left_link r_right_link] in *.
  assert (EC : w_client w5 (w_next w) = w_client w3 (w_next w)) by (rewrite Q4, P4 by lia; reflexivity).
  assert (EL : forall c, c = c_client x5 -> w_client w5 c = w_client w4 c) by (intros c ->; apply Q4; lia).
  split; [reflexivity|]. split; [reflexivity|]. split; [exact P1|]. split; [exact Q1|].
  split; [now rewrite EC|]. split; [now rewrite EL|]. split; [exact Q2|]. split.
  { rewrite EC. set (robot := snd (e_info e (w_client w3 (w_next w)) 1)) in *. intros Hw.
    pose proof (analyze_robot_closed (fst (e_info e (w_client w3 (w_next w)) 1)) robot Hw) as Ec. rewrite Ec in A. injection A as <- <- <-.
    split; [now apply (numbered_get_all _ _ _ _ eq_refl) in J1|]. split; [now apply (numbered_get_all _ _ _ _ eq_refl) in J2|].
    split; [now apply link_get in L1|now apply link_get in L2]. }
  unfold robot_of. rewrite P1, Q1. rewrite EL by reflexivity. split; [exact P3|exact Q3].
Qed.

(** [get_joint_state] reads positions and velocities of the left arm, then of the right arm. *)
Theorem C86_joint_state : forall W (e : engine W) r w, exists q qd,
  rh5_get_joint_state e r w = (w, Ok (q, qd))
  /\ alen q = (List.length (r_left_joints r) + List.length (r_right_joints r))%nat /\ alen qd = alen q
  /\ (forall k j, nth_error (r_left_joints r) k = Some j ->
        (aget q k, aget qd k) = e_joint e (w_client w (r_client r)) (r_body r) j)
  /\ (forall k j, nth_error (r_right_joints r) k = Some j ->
        (aget q (List.length (r_left_joints r) + k)%nat, aget qd (List.length (r_left_joints r) + k)%nat)
        = e_joint e (w_client w (r_client r)) (r_body r) j).
Proof.
  intros W e r w. eexists _, _. split; [reflexivity|].
  cbn [joint_positions joint_velocities alen aget]. rewrite app_length. split; [reflexivity|]. split; [reflexivity|].
  split; intros k j Hj.
  - assert (Hk : (k < List.length (r_left_joints r))%nat) by (apply nth_error_Some; congruence).
    rewrite app_nth1 by exact Hk. rewrite (nth_error_nth _ _ _ Hj). now destruct (e_joint e _ _ j).
  - rewrite app_nth2_plus. rewrite (nth_error_nth _ _ _ Hj). now destruct (e_joint e _ _ j).
Qed.

Example C86_names_satisfiable : counts_bodies toy_engine
  /\ (exists w1 r, toy_new no_clients = (w1, Ok r)) /\ (forall s b, well_formed (snd (e_info toy_engine s b))).
Proof.
  split.
  { intros s. split; [reflexivity|]. split; [reflexivity|]. intros []; try reflexivity; auto. now destruct position_control. }
  split.
  { destruct (toy_new_ok no_clients) as (w1 & r & E & _). eauto. }
  intros s b. cbn [e_info toy_engine snd]. constructor; cbn.
  - repeat constructor; cbn; intuition discriminate.
  - repeat constructor; cbn; intuition discriminate.
  - intros [|[|i]] j E; cbn in E; try (injection E as <-; cbn; lia). destruct i; discriminate.
  - intros j [<-|[<-|[]]]; cbn; lia.
Qed.
