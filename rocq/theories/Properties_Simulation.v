(** C67, C73, C74, C76: testing/simulation.py. *)
From Coq Require Import Reals List Arith Bool Lia Lra ZArith.
From Verif Require Import M_Prelude M_Base M_Dmp M_DmpObject M_Quaternion M_Rigid S_Rotation P_Quaternion P_Rigid P_MinJerk M_Simulation.
Import ListNotations.
Set Bullet Behavior "Strict Subproofs".
Open Scope R_scope.

(** Arrays with the same entries. *)
Definition same_arr (a b : arr) : Prop := alen a = alen b /\ forall k, (k < alen a)%nat -> aget a k = aget b k.

(** ** C67 *)

(** The conversion moves the scalar part of the quaternion to the end and back. *)
Theorem C67_convention : forall pose, alen pose = 7%nat ->
  exists pos rot, pybullet_pose pose = Ok (pos, rot) /\ alen pos = 3%nat /\ alen rot = 4%nat
  /\ v3_of (aget pos) = v3_of (aget pose)
  /\ xyzw (aget rot) = quat_of (fun k => aget pose (3 + k)%nat).
Proof.
  intros pose H. unfold pybullet_pose. cbv zeta. cbn [slice_from alen]. rewrite H. cbn [Nat.sub Nat.eqb].
  eexists. eexists. split; [reflexivity|]. cbn [slice_to slice_from hstack singleton alen aget]. rewrite H.
  split; [reflexivity|]. split; [reflexivity|]. split; [reflexivity|]. reflexivity.
Qed.

Theorem C67_there_and_back : forall pose, (4 <= alen pose)%nat ->
  exists pos rot pose', pybullet_pose pose = Ok (pos, rot) /\ pytransform_pose pos rot = Ok pose'
  /\ same_arr pose' pose.
Proof.
  intros pose H. unfold pybullet_pose. cbv zeta. cbn [slice_from alen].
  destruct (Nat.eqb_spec (alen pose - 3) 0); [lia|].
  eexists. eexists. eexists. split; [reflexivity|]. unfold pytransform_pose.
  cbn [hstack slice_from slice_to singleton alen aget].
  destruct (Nat.eqb_spec (alen pose - 3 - 1 + 1) 0); [lia|]. split; [reflexivity|].
  unfold same_arr. cbn [hstack slice_from slice_to singleton alen aget]. split; [lia|]. intros k Hk.
  replace (Nat.min 3 (alen pose)) with 3%nat by lia.
  destruct (Nat.ltb_spec k (3 + 1)).
  - destruct (Nat.ltb_spec k 3); [reflexivity|].
    destruct (Nat.ltb_spec (alen pose - 3 - 1 + 1 - 1) (alen pose - 3 - 1)); [lia|]. f_equal. lia.
  - destruct (Nat.ltb_spec (k - (3 + 1)) (alen pose - 3 - 1)); [|lia]. f_equal. lia.
Qed.

Theorem C67_back_and_there : forall pos rot, alen pos = 3%nat -> (1 <= alen rot)%nat ->
  exists pose pos' rot', pytransform_pose pos rot = Ok pose /\ pybullet_pose pose = Ok (pos', rot')
  /\ same_arr pos' pos /\ same_arr rot' rot.
Proof.
  intros pos rot Hp Hr. unfold pytransform_pose. destruct (Nat.eqb_spec (alen rot) 0); [lia|].
  eexists. eexists. eexists. split; [reflexivity|]. unfold pybullet_pose. cbv zeta.
  cbn [hstack slice_from slice_to singleton alen aget]. rewrite Hp.
  destruct (Nat.eqb_spec (3 + 1 + Nat.min (alen rot - 1) (alen rot) - 3) 0); [lia|].
  split; [reflexivity|]. unfold same_arr. cbn [hstack slice_from slice_to singleton alen aget]. rewrite Hp.
  split; (split; [lia|]); intros k Hk.
  - destruct (Nat.ltb_spec k (3 + 1)); [|lia]. destruct (Nat.ltb_spec k 3); [reflexivity|lia].
  - destruct (Nat.ltb_spec k (3 + 1 + Nat.min (alen rot - 1) (alen rot) - 3 - 1)).
    + destruct (Nat.ltb_spec (3 + (1 + k)) (3 + 1)); [lia|]. f_equal. lia.
    + destruct (Nat.ltb_spec (3 + 0) (3 + 1)); [|lia]. destruct (Nat.ltb_spec (3 + 0) 3); [lia|]. f_equal. lia.
Qed.

Example C67_satisfiable : exists pos rot,
  pybullet_pose {| alen := 7; aget := INR |} = Ok (pos, rot) /\ aget rot 3%nat = 3 /\ aget rot 0%nat = 4.
Proof. eexists. eexists. split; [reflexivity|]. cbn. split; lra. Qed.

(** ** C73: frames *)

(** A transformation as position and quaternion; the two signs of the quaternion are the same
    rotation. *)
Definition represents (pose : arr) (t : rigid) : Prop :=
  alen pose = 7%nat /\ unit_quat (quat_of (fun k => aget pose (3 + k)%nat))
  /\ t = Rigid (matrix_of_unit (quat_of (fun k => aget pose (3 + k)%nat))) (v3_of (aget pose)).

(** The same for the pair that PyBullet uses. *)
Definition represents_pb (a : arr * arr) (t : rigid) : Prop :=
  alen (fst a) = 3%nat /\ alen (snd a) = 4%nat /\ unit_quat (xyzw (aget (snd a)))
  /\ t = Rigid (matrix_of_unit (xyzw (aget (snd a)))) (v3_of (aget (fst a))).

Lemma represents_pb_transform a t : represents_pb a t -> pb_transform a = t /\ is_rigid t.
Proof.
  intros (_ & _ & Hu & ->). split.
  - unfold pb_transform, pt_transform_from_pq. now rewrite pr_matrix_unit.
  - unfold is_rigid. cbn [r_rot]. now apply matrix_rotation.
Qed.

Lemma pb_pose_represents t : is_rigid t -> represents_pb (pb_pose t) t.
Proof.
  intros H. destruct (quaternion_from_matrix_correct _ H) as [Hu Hm].
  unfold pb_pose, pt_pq_from_transform. unfold represents_pb. cbn [fst snd arr_v3 arr_xyzw alen aget].
  assert (E : xyzw (fun k => match k with 0 => qx (pr_quaternion_from_matrix (r_rot t))
      | 1 => qy (pr_quaternion_from_matrix (r_rot t)) | 2 => qz (pr_quaternion_from_matrix (r_rot t))
      | _ => qw (pr_quaternion_from_matrix (r_rot t)) end%nat) = pr_quaternion_from_matrix (r_rot t)).
  { unfold xyzw. now destruct (pr_quaternion_from_matrix (r_rot t)). }
  rewrite E. repeat split; auto. rewrite Hm. destruct t as [r p]. cbn. f_equal. now destruct p.
Qed.

Lemma multiply_represents a b s t : represents_pb a s -> represents_pb b t ->
  represents_pb (multiplyTransforms a b) (rigid_mul s t).
Proof.
  intros Ha Hb. destruct (represents_pb_transform _ _ Ha) as [Ea Ra]. destruct (represents_pb_transform _ _ Hb) as [Eb Rb].
  unfold multiplyTransforms. rewrite Ea, Eb. apply pb_pose_represents. now apply is_rigid_mul.
Qed.

Lemma invert_represents a s : represents_pb a s -> represents_pb (invertTransform a) (pt_invert s).
Proof.
  intros Ha. destruct (represents_pb_transform _ _ Ha) as [Ea Ra]. unfold invertTransform. rewrite Ea.
  apply pb_pose_represents. now apply is_rigid_invert.
Qed.

Lemma pybullet_pose_represents pose t : represents pose t ->
  exists a, pybullet_pose pose = Ok a /\ represents_pb a t.
Proof.
  intros (Hl & Hu & ->). destruct (C67_convention pose Hl) as (pos & rot & E & L1 & L2 & P & Q).
  exists (pos, rot). split; [exact E|]. unfold represents_pb. cbn [fst snd]. rewrite P, Q. auto.
Qed.

Lemma pytransform_pose_represents a t : represents_pb a t ->
  exists pose, pytransform_pose (fst a) (snd a) = Ok pose /\ represents pose t.
Proof.
  destruct a as [pos rot]. intros (L1 & L2 & Hu & ->). cbn [fst snd] in *. unfold pytransform_pose. rewrite L2. cbn [Nat.eqb].
  eexists. split; [reflexivity|]. unfold represents.
  cbn [hstack slice_to singleton alen aget]. rewrite L1, L2. cbn [Nat.sub Nat.min Nat.add].
  split; [reflexivity|].
  assert (E : quat_of (fun k => if (3 + k <? 4)%nat then if (3 + k <? 3)%nat then aget pos (3 + k)%nat else aget rot 3%nat
                      else aget rot (3 + k - 4)%nat) = xyzw (aget rot)) by reflexivity.
  split; [exact Hu|]. f_equal.
Qed.

(** What is asked for and what is reported fit together: when the link has the pose that
    inverse kinematics asked for, [get_ee_state] returns the commanded pose, for every base. *)
Theorem C73_round_trip : forall W (b : bullet W) base ee2robot X,
  represents_pb (b_base b) base -> represents ee2robot X ->
  exists target, ik_target b ee2robot = Ok target
  /\ forall s vel, b_link b (s_w s) = (fst target, snd target, vel) ->
     exists pose v, get_ee_state b s = Ok (pose, v) /\ represents pose X.
Proof.
  intros W b base ee X Hb Hx. destruct (pybullet_pose_represents _ _ Hx) as (a & Ea & Ra).
  unfold ik_target. rewrite Ea. cbn [bind]. eexists. split; [reflexivity|]. intros s vel Hl.
  pose proof (multiply_represents _ _ _ _ Ra Hb) as Rt.
  pose proof (invert_represents _ _ Hb) as Ri.
  pose proof (multiply_represents _ _ _ _ Rt Ri) as Rp.
  unfold get_ee_state. rewrite Hl. unfold inv_base_pose. rewrite <- surjective_pairing.
  destruct (multiplyTransforms (multiplyTransforms a (b_base b)) (invertTransform (b_base b))) as [p r].
  destruct (multiplyTransforms (vel, arr_xyzw q_one) (invertTransform (b_base b))) as [v ?].
  destruct (pytransform_pose_represents _ _ Rp) as (pose & Ep & Rpose). cbn [fst snd] in Ep. rewrite Ep. cbn [bind].
  eexists. eexists. split; [reflexivity|].
  destruct (represents_pb_transform _ _ Hb) as [_ Rb].
  rewrite rigid_mul_assoc, rigid_inv_r, rigid_mul_1_r in Rpose by exact Rb. exact Rpose.
Qed.

(** With the base at the origin of the world, poses are in the frame of the robot. *)
Theorem C73_base_at_origin_partial : forall W (b : bullet W) ee2robot X,
  represents_pb (b_base b) rigid_one -> represents ee2robot X ->
  (exists target, ik_target b ee2robot = Ok target /\ represents_pb target (rigid_mul rigid_one X))
  /\ forall s link vel T, b_link b (s_w s) = (fst link, snd link, vel) -> represents_pb link T ->
     exists pose v, get_ee_state b s = Ok (pose, v) /\ represents pose (rigid_mul (pt_invert rigid_one) T)
     /\ v3_of (aget v) = v3_of (aget vel) /\ forall k, (k < 3)%nat -> aget v (3 + k)%nat = 0.
Proof.
  intros W b ee X Hb Hx. split.
  - destruct (pybullet_pose_represents _ _ Hx) as (a & Ea & Ra). unfold ik_target. rewrite Ea. cbn [bind].
    eexists. split; [reflexivity|]. rewrite rigid_mul_1_l, <- (rigid_mul_1_r X). now apply multiply_represents.
  - intros s link vel T Hl HT. pose proof (invert_represents _ _ Hb) as Ri.
    assert (E1 : pt_invert rigid_one = rigid_one).
    { unfold pt_invert, rigid_one. cbn [r_rot r_pos]. f_equal. apply v3_eq; cbn; ring. }
    rewrite E1 in *. unfold get_ee_state, inv_base_pose. rewrite Hl, <- surjective_pairing.
    pose proof (multiply_represents _ _ _ _ HT Ri) as Rp. rewrite rigid_mul_1_r in Rp.
    destruct (represents_pb_transform _ _ Ri) as [Ei _].
    assert (Ev : v3_of (aget (fst (multiplyTransforms (vel, arr_xyzw q_one) (invertTransform (b_base b))))) = v3_of (aget vel)).
    { unfold multiplyTransforms. rewrite Ei, rigid_mul_1_r. unfold pb_transform, pb_pose, pt_pq_from_transform. reflexivity. }
    assert (El : alen (fst (multiplyTransforms (vel, arr_xyzw q_one) (invertTransform (b_base b)))) = 3%nat) by reflexivity.
    destruct (multiplyTransforms (vel, arr_xyzw q_one) (invertTransform (b_base b))) as [v r'].
    destruct (pytransform_pose_represents _ _ Rp) as (pose & Ep & Rpose).
    destruct (multiplyTransforms link (invertTransform (b_base b))) as [p r]. cbn [fst snd] in *. rewrite Ep. cbn [bind].
    eexists. eexists. split; [reflexivity|]. rewrite rigid_mul_1_l. split; [exact Rpose|].
    split.
    + unfold v3_of in *. cbn [hstack alen aget]. rewrite El. cbn [Nat.ltb Nat.leb]. exact Ev.
    + intros k Hk. cbn [hstack alen aget]. rewrite El. destruct (Nat.ltb_spec (3 + k) 3); [lia|]. reflexivity.
Qed.

(** Otherwise they are not: the world pose of a pose X in the frame of a base B is B X, but
    inverse kinematics is asked for X B; and the linear velocity of a robot at rest is not 0. *)
Definition shifted_base : arr * arr := (arr_v3 (V3 1 0 0), arr_xyzw q_one).
Definition half_turn : arr := {| alen := 7; aget := fun k => if Nat.eqb k 6 then 1 else 0 |}.

Lemma shifted_base_represents : represents_pb shifted_base (Rigid m3_one (V3 1 0 0)).
Proof.
  unfold represents_pb, shifted_base. cbn [fst snd arr_v3 arr_xyzw alen aget].
  split; [reflexivity|]. split; [reflexivity|]. split; [unfold unit_quat; cbn; ring|].
  f_equal. unfold xyzw. cbn. unfold m3_one. f_equal; ring.
Qed.

Lemma half_turn_represents : represents half_turn (Rigid (M3 (-1) 0 0 0 (-1) 0 0 0 1) v3_zero).
Proof.
  unfold represents, half_turn. cbn [alen aget]. split; [reflexivity|]. split; [unfold unit_quat; cbn; ring|].
  f_equal. cbn. f_equal; ring.
Qed.

Theorem C73_robot_frame_refuted : forall W (b : bullet W), b_base b = shifted_base ->
  exists target, ik_target b half_turn = Ok target
  /\ ~ represents_pb target (rigid_mul (Rigid m3_one (V3 1 0 0)) (Rigid (M3 (-1) 0 0 0 (-1) 0 0 0 1) v3_zero)).
Proof.
  intros W b Hb. destruct (pybullet_pose_represents _ _ half_turn_represents) as (a & Ea & Ra).
  unfold ik_target. rewrite Ea, Hb. cbn [bind]. eexists. split; [reflexivity|].
  pose proof (multiply_represents _ _ _ _ Ra shifted_base_represents) as Rt.
  intros (_ & _ & _ & H). destruct Rt as (_ & _ & _ & H').
  rewrite <- H in H'. apply (f_equal r_pos) in H'. apply (f_equal v3x) in H'. cbn in H'. lra.
Qed.

Theorem C73_velocity_refuted : forall W (b : bullet W) s link T, b_base b = shifted_base ->
  represents_pb link T -> b_link b (s_w s) = (fst link, snd link, zeros 3) ->
  exists pose v, get_ee_state b s = Ok (pose, v) /\ aget v 0%nat = -1.
Proof.
  intros W b s link T Hb HT Hl. pose proof (invert_represents _ _ shifted_base_represents) as Ri.
  rewrite <- Hb in Ri. unfold get_ee_state, inv_base_pose. rewrite Hl, <- surjective_pairing.
  pose proof (multiply_represents _ _ _ _ HT Ri) as Rp.
  destruct (represents_pb_transform _ _ Ri) as [Ei _].
  assert (Ev : aget (fst (multiplyTransforms (zeros 3, arr_xyzw q_one) (invertTransform (b_base b)))) 0%nat = -1).
  { unfold multiplyTransforms. rewrite Ei. unfold pb_transform, pb_pose, pt_pq_from_transform, pt_transform_from_pq.
    cbn [fst snd]. rewrite pr_matrix_unit by (unfold unit_quat; cbn; ring). cbn. unfold vzero. ring. }
  destruct (multiplyTransforms (zeros 3, arr_xyzw q_one) (invertTransform (b_base b))) as [v r'] eqn:Em.
  assert (El : alen v = 3%nat) by (injection Em as <- _; reflexivity).
  destruct (pytransform_pose_represents _ _ Rp) as (pose & Ep & Rpose).
  destruct (multiplyTransforms link (invertTransform (b_base b))) as [p r]. cbn [fst snd] in *. rewrite Ep. cbn [bind].
  eexists. eexists. split; [reflexivity|]. cbn [hstack aget alen]. rewrite El. exact Ev.
Qed.

Example C73_satisfiable : exists (b : bullet nat) s vel target,
  b_base b = shifted_base /\ ik_target b half_turn = Ok target /\ b_link b (s_w s) = (fst target, snd target, vel).
Proof.
  destruct (pybullet_pose_represents _ _ half_turn_represents) as (a & Ea & Ra).
  exists {| b_base := shifted_base;
            b_link := fun _ => (fst (multiplyTransforms a shifted_base), snd (multiplyTransforms a shifted_base), zeros 3);
            b_ik := fun _ _ _ => None; b_joints := fun _ => zeros 6; b_exec := fun _ w => w; b_connected := fun _ => true |}.
  exists {| s_w := 0%nat; s_log := [] |}, (zeros 3), (multiplyTransforms a shifted_base).
  split; [reflexivity|]. split; [|reflexivity]. unfold ik_target. rewrite Ea. reflexivity.
Qed.

(** ** C74: stepping through a movement *)

Lemma mockup_loop_spec (S : Type) (step : arr -> arr -> S -> S * res (arr * arr)) n : forall p v h st st' h',
  mockup_loop step n p v h st = (st', Ok h') ->
  exists ps vs sts, length ps = n /\ length vs = n
  /\ h_desired_p h' = h_desired_p h ++ ps /\ h_p h' = h_p h ++ ps
  /\ h_desired_v h' = h_desired_v h ++ vs /\ h_v h' = h_v h ++ vs
  /\ sts 0%nat = st /\ sts n = st'
  /\ forall k, (k < n)%nat -> step (nth k (p :: ps) (zeros 0)) (nth k (v :: vs) (zeros 0)) (sts k)
                              = (sts (Datatypes.S k), Ok (nth k ps (zeros 0), nth k vs (zeros 0))).
Proof.
  induction n as [|n IH]; intros p v h st st' h' E; cbn [mockup_loop] in E.
  - injection E as <- <-. exists [], [], (fun _ => st). rewrite !app_nil_r. repeat split; auto. lia.
  - destruct (step p v st) as [st1 [[p1 v1]|e]] eqn:Es; [|discriminate].
    destruct (IH _ _ _ _ _ _ E) as (ps & vs & sts & L1 & L2 & A & B & C & D & S0 & Sn & H).
    cbn [h_desired_p h_p h_desired_v h_v] in *.
    exists (p1 :: ps), (v1 :: vs), (fun k => match k with O => st | Datatypes.S k => sts k end).
    rewrite <- app_assoc in A, B, C, D. cbn [length app] in *.
    repeat split; auto. intros [|k] Hk.
    + cbn [nth]. rewrite S0. exact Es.
    + specialize (H k ltac:(lia)). cbn [nth] in *. exact H.
Qed.

Lemma n_steps_bounds dt x : 0 < dt -> 0 <= x -> INR (n_steps dt x) * dt <= x < INR (S (n_steps dt x)) * dt.
Proof. intros Hd Hx. unfold n_steps. now apply periods. Qed.

(** SimulationMockup: as many steps as fit into the execution time; the recorded states are
    the given one and the results of [step], each called with the previous ones; the executed
    states are the desired ones.  For every class of movement primitives. *)
Theorem C74_mockup : forall S (step : arr -> arr -> S -> S * res (arr * arr)) dt last_p last_v x st st' h,
  0 < dt -> 0 <= x ->
  mockup_step_through_cartesian dt step last_p last_v x st = (st', Ok h) ->
  exists n sts, INR n * dt <= x < INR (Datatypes.S n) * dt
  /\ length (h_desired_p h) = Datatypes.S n /\ length (h_desired_v h) = Datatypes.S n
  /\ h_p h = h_desired_p h /\ h_v h = h_desired_v h
  /\ nth 0 (h_desired_p h) (zeros 0) = last_p /\ nth 0 (h_desired_v h) (zeros 0) = last_v
  /\ sts 0%nat = st /\ sts n = st'
  /\ forall k, (k < n)%nat ->
       step (nth k (h_desired_p h) (zeros 0)) (nth k (h_desired_v h) (zeros 0)) (sts k)
       = (sts (Datatypes.S k), Ok (nth (Datatypes.S k) (h_desired_p h) (zeros 0),
                                   nth (Datatypes.S k) (h_desired_v h) (zeros 0))).
Proof.
  intros S step dt p v x st st' h Hd Hx E. unfold mockup_step_through_cartesian in E.
  destruct (Req_EM_T dt 0); [lra|].
  destruct (mockup_loop_spec _ _ _ _ _ _ _ _ _ E) as (ps & vs & sts & L1 & L2 & A & B & C & D & S0 & Sn & H).
  cbn [h_desired_p h_p h_desired_v h_v app] in *.
  exists (n_steps dt x), sts. rewrite A, B, C, D. cbn [length nth].
  split; [now apply n_steps_bounds|]. repeat split; auto.
Qed.

(** With a DMP it is the same as [n_steps_open_loop]. *)
Theorem C74_mockup_dmp : forall c fn dt last_p last_v x o o' h, 0 < dt -> 0 <= x ->
  mockup_step_through_cartesian dt (fun y yd o => dmp_step y yd c fn o) last_p last_v x o = (o', Ok h) ->
  exists n, INR n * dt <= x < INR (S n) * dt
  /\ length (h_p h) = S n /\ length (h_v h) = S n
  /\ forall k, (k <= n)%nat -> exists ok,
       n_steps_open_loop c fn k last_p last_v o = (ok, Ok (nth k (h_p h) (zeros 0), nth k (h_v h) (zeros 0))).
Proof.
  intros c fn dt p v x o o' h Hd Hx E.
  destruct (C74_mockup _ _ _ _ _ _ _ _ _ Hd Hx E) as (n & sts & Hn & L1 & L2 & E1 & E2 & P0 & V0 & S0 & Sn & H).
  exists n. rewrite E1, E2. split; [exact Hn|]. split; [exact L1|]. split; [exact L2|].
  intros k Hk.
  assert (G : forall j i, (i + j <= n)%nat ->
     n_steps_open_loop c fn j (nth i (h_desired_p h) (zeros 0)) (nth i (h_desired_v h) (zeros 0)) (sts i)
     = (sts (i + j)%nat, Ok (nth (i + j) (h_desired_p h) (zeros 0), nth (i + j) (h_desired_v h) (zeros 0)))).
  { induction j as [|j IH]; intros i Hi; cbn [n_steps_open_loop].
    - now rewrite Nat.add_0_r.
    - rewrite (H i) by lia. rewrite IH by lia. now rewrite Nat.add_succ_comm. }
  specialize (G k 0%nat Hk). rewrite P0, V0, S0 in G. cbn [Nat.add] in G. eexists. exact G.
Qed.

Lemma get_ee_state_ok {W : Type} (b : bullet W) s : exists p v, get_ee_state b s = Ok (p, v).
Proof.
  unfold get_ee_state. destruct (b_link b (s_w s)) as [[pos rot] vel].
  destruct (multiplyTransforms (vel, arr_xyzw q_one) (inv_base_pose b)) as [v' ?].
  destruct (multiplyTransforms (pos, rot) (inv_base_pose b)) as [p' r'] eqn:Em.
  assert (alen r' = 4%nat) by (injection Em as <- <-; reflexivity).
  unfold pytransform_pose. rewrite H. cbn [Nat.eqb bind]. eauto.
Qed.

Section Robot.
Context {W : Type} (b : bullet W) (dt : R) {S : Type} (step : arr -> arr -> S -> S * res (arr * arr)).

(** One control cycle, from outside: the movement primitive is asked for the next state, the
    joints get the velocity that reaches the inverse kinematics solution within one time step,
    and the simulation advances. *)
Definition control_cycle (closed_loop : bool) (last_p last_v p v : arr) (s s' : sim W) (st st' : S) : Prop :=
  (exists p_in v_in, (if closed_loop then get_ee_state b s = Ok (p_in, v_in) else p_in = last_p)
     /\ step p_in last_v st = (st', Ok (p, v)))
  /\ exists q qd, inverse_kinematics b s p = Ok q /\ alen qd = alen q
     /\ (forall k, aget qd k * dt = aget q k - aget (b_joints b (s_w s)) k)
     /\ s_log s' = s_log s ++ [SetVelocity qd; StepSimulation]
     /\ s_w s' = b_exec b StepSimulation (b_exec b (SetVelocity qd) (s_w s)).

Lemma cartesian_loop_spec (Hdt : dt <> 0) n : forall closed p v h s st s' st' h',
  cartesian_loop b dt step n closed p v h s st = (s', st', Ok h') ->
  exists ps vs mps mvs sims sts, length ps = n /\ length vs = n /\ length mps = n /\ length mvs = n
  /\ h_desired_p h' = h_desired_p h ++ ps /\ h_p h' = h_p h ++ mps
  /\ h_desired_v h' = h_desired_v h ++ vs /\ h_v h' = h_v h ++ mvs
  /\ sims 0%nat = s /\ sims n = s' /\ sts 0%nat = st /\ sts n = st'
  /\ forall k, (k < n)%nat ->
      control_cycle closed (nth k (p :: ps) (zeros 0)) (nth k (v :: vs) (zeros 0))
        (nth k ps (zeros 0)) (nth k vs (zeros 0)) (sims k) (sims (Datatypes.S k)) (sts k) (sts (Datatypes.S k))
      /\ get_ee_state b (sims (Datatypes.S k)) = Ok (nth k mps (zeros 0), nth k mvs (zeros 0)).
Proof.
  induction n as [|n IH]; intros closed p v h s st s' st' h' E; cbn [cartesian_loop] in E.
  - injection E as <- <- <-. exists [], [], [], [], (fun _ => s), (fun _ => st).
    rewrite !app_nil_r. repeat split; auto; lia.
  - destruct (if closed then _ else _) as [pin|] eqn:Ein; [|discriminate].
    destruct (step pin v st) as [st1 [[p1 v1]|]] eqn:Es; [|discriminate].
    unfold set_desired_ee_state in E. destruct (inverse_kinematics b s p1) as [q|] eqn:Eq; [|discriminate].
    unfold sim_step in E. destruct (b_connected b _) in E; [|discriminate].
    match type of E with context [get_ee_state b ?x] => set (s1 := x) in *;
      destruct (get_ee_state b s1) as [[mp mv]|] eqn:Eg; [|discriminate] end.
    destruct (IH _ _ _ _ _ _ _ _ _ E) as (ps & vs & mps & mvs & sims & sts & L1 & L2 & L3 & L4 & A & B & C & D & S0 & Sn & T0 & Tn & H).
    cbn [h_desired_p h_p h_desired_v h_v] in *. rewrite <- app_assoc in A, B, C, D. cbn [app] in *.
    exists (p1 :: ps), (v1 :: vs), (mp :: mps), (mv :: mvs),
      (fun k => match k with O => s | Datatypes.S k => sims k end),
      (fun k => match k with O => st | Datatypes.S k => sts k end).
    cbn [length]. repeat match goal with |- _ /\ _ => split end; auto.
    intros [|k] Hk.
    + cbn [nth]. rewrite S0, T0. split; [|exact Eg]. split.
      * exists pin. destruct closed.
        -- destruct (get_ee_state b s) as [[a c]|]; [|discriminate]. cbn in Ein. injection Ein as <-. exists c. auto.
        -- injection Ein as <-. exists v. auto.
      * exists q. eexists. split; [exact Eq|]. split; [|split; [|split]].
        4: reflexivity.
        3: { unfold s1, send. cbn [s_log]. rewrite <- app_assoc. reflexivity. }
        -- reflexivity.
        -- intros k. cbn [aget]. field. exact Hdt.
    + specialize (H k ltac:(lia)). cbn [nth] in *. exact H.
Qed.

(** UR5Simulation: every entry of the result is accounted for, and the last commands stop the
    robot. *)
Theorem C74_ur5 : forall n_joints closed last_p last_v x s st s' st' h, 0 < dt -> 0 <= x ->
  ur5_step_through_cartesian b dt step n_joints last_p last_v x closed s st = (s', st', Ok h) ->
  exists n sims sts, INR n * dt <= x < INR (Datatypes.S n) * dt
  /\ length (h_desired_p h) = Datatypes.S n /\ length (h_p h) = Datatypes.S n
  /\ length (h_desired_v h) = Datatypes.S n /\ length (h_v h) = Datatypes.S n
  /\ nth 0 (h_desired_p h) (zeros 0) = last_p /\ nth 0 (h_desired_v h) (zeros 0) = last_v
  /\ sims 0%nat = s /\ sts 0%nat = st /\ sts n = st'
  /\ (forall k, (k <= n)%nat -> get_ee_state b (sims k) = Ok (nth k (h_p h) (zeros 0), nth k (h_v h) (zeros 0)))
  /\ (forall k, (k < n)%nat ->
       control_cycle closed (nth k (h_desired_p h) (zeros 0)) (nth k (h_desired_v h) (zeros 0))
         (nth (Datatypes.S k) (h_desired_p h) (zeros 0)) (nth (Datatypes.S k) (h_desired_v h) (zeros 0))
         (sims k) (sims (Datatypes.S k)) (sts k) (sts (Datatypes.S k)))
  /\ s_log s' = s_log (sims n) ++ [SetVelocity (zeros n_joints); StepSimulation].
Proof.
  intros nj closed p v x s st s' st' h Hd Hx E. unfold ur5_step_through_cartesian in E.
  destruct (get_ee_state b s) as [[p0 v0]|] eqn:E0; [|discriminate].
  destruct (Req_EM_T dt 0) as [|Hdt]; [lra|].
  destruct (cartesian_loop b dt step (n_steps dt x) closed p v _ s st) as [[s1 st1] [h1|]] eqn:El; [|discriminate].
  destruct (cartesian_loop_spec Hdt _ _ _ _ _ _ _ _ _ _ El) as
    (ps & vs & mps & mvs & sims & sts & L1 & L2 & L3 & L4 & A & B & C & D & S0 & Sn & T0 & Tn & H).
  unfold stop, sim_step in E. destruct (b_connected b _) in E; [|discriminate]. injection E as <- <- <-.
  cbn [h_desired_p h_p h_desired_v h_v app] in *.
  exists (n_steps dt x), sims, sts. rewrite A, B, C, D. cbn [length].
  split; [now apply n_steps_bounds|].
  repeat match goal with |- _ /\ _ => split end; auto.
  - intros [|k] Hk; cbn [nth]; [now rewrite S0|]. now destruct (H k ltac:(lia)).
  - intros k Hk. now destruct (H k Hk).
  - unfold send. cbn [s_log]. rewrite Sn, <- app_assoc. reflexivity.
Qed.

(** It does complete when the simulation stays connected, every inverse kinematics problem
    has a solution, poses are well formed and the movement primitive does not raise. *)
Theorem C74_ur5_completes : forall n_joints closed last_p last_v x s st, dt <> 0 ->
  (forall w, b_connected b w = true) ->
  (forall w pos rot, b_ik b w pos rot <> None) ->
  (forall y yd st, exists st' p v, step y yd st = (st', Ok (p, v)) /\ (4 <= alen p)%nat) ->
  exists s' st' h,
  ur5_step_through_cartesian b dt step n_joints last_p last_v x closed s st = (s', st', Ok h).
Proof.
  intros nj closed p v x s st Hdt Hc Hik Hs.
  assert (Hq : forall s p, (4 <= alen p)%nat -> exists q, inverse_kinematics b s p = Ok q).
  { intros s0 p0 Hp. unfold inverse_kinematics, ik_target, pybullet_pose. cbv zeta. cbn [slice_from alen].
    destruct (Nat.eqb_spec (alen p0 - 3) 0); [lia|]. cbn [bind].
    destruct (multiplyTransforms _ _) as [pos rot]. specialize (Hik (s_w s0) pos rot).
    destruct (b_ik b (s_w s0) pos rot); [eauto|contradiction]. }
  assert (HL : forall n p v h s st, exists s' st' h', cartesian_loop b dt step n closed p v h s st = (s', st', Ok h')).
  { induction n as [|n IH]; intros p0 v0 h0 s0 st0; cbn [cartesian_loop]; [eauto|].
    destruct (get_ee_state_ok b s0) as (g1 & g2 & Eg).
    assert (Ei : exists pin, (if closed then bind (get_ee_state b s0) (fun x => Ok (fst x)) else Ok p0) = Ok pin)
      by (destruct closed; [rewrite Eg; cbn; eauto|eauto]).
    destruct Ei as [pin ->]. destruct (Hs pin v0 st0) as (st1 & p1 & v1 & -> & Hp).
    unfold set_desired_ee_state. destruct (Hq s0 p1 Hp) as [q ->].
    unfold sim_step. rewrite Hc.
    match goal with |- context [get_ee_state b ?x] => destruct (get_ee_state_ok b x) as (m1 & m2 & ->) end. apply IH. }
  unfold ur5_step_through_cartesian. destruct (get_ee_state_ok b s) as (p0 & v0 & ->). destruct (Req_EM_T dt 0); [contradiction|].
  match goal with |- context [cartesian_loop _ _ _ ?n _ ?p ?v ?h ?s ?st] =>
    destruct (HL n p v h s st) as (s1 & st1 & h1 & ->) end.
  unfold stop, sim_step. rewrite Hc. eauto.
Qed.
End Robot.

(** When a step raises during the run, the robot is not stopped: the last velocity command
    stays in force. *)
Theorem C74_stopped_refuted :
  exists (b : bullet nat) (step : arr -> arr -> nat -> nat * res (arr * arr)) s' st' e qd,
    ur5_step_through_cartesian b 1 step 6 half_turn (zeros 6) 2 false {| s_w := 0%nat; s_log := [] |} 0%nat
    = (s', st', Err e)
    /\ s_log s' = [SetVelocity qd; StepSimulation] /\ aget qd 0%nat <> 0.
Proof.
  exists {| b_base := (arr_v3 v3_zero, arr_xyzw q_one); b_link := fun _ => (zeros 3, arr_xyzw q_one, zeros 3);
            b_ik := fun _ _ _ => Some {| alen := 6; aget := fun _ => 1 |}; b_joints := fun _ => zeros 6;
            b_exec := fun _ w => w; b_connected := fun _ => true |}.
  exists (fun _ _ k => match k with O => (1%nat, Ok (half_turn, zeros 6)) | _ => (k, Err ValueError) end).
  unfold ur5_step_through_cartesian.
  assert (E : n_steps 1 2 = 2%nat).
  { unfold n_steps. replace (2 / 1) with (IZR 2) by field. unfold Ztrunc. destruct (Rlt_dec (IZR 2) 0); [lra|].
    rewrite (Int_part_unique (IZR 2) 2) by lra. reflexivity. }
  rewrite E.
  match goal with |- context [get_ee_state ?b ?s] => destruct (get_ee_state_ok b s) as (p0 & v0 & ->) end.
  destruct (Req_EM_T 1 0); [lra|]. cbn [cartesian_loop].
  unfold set_desired_ee_state, inverse_kinematics, ik_target, pybullet_pose.
  cbn [slice_from half_turn alen Nat.sub Nat.eqb bind b_base].
  destruct (multiplyTransforms _ _) as [tp tr]. cbn [b_ik b_joints]. unfold sim_step at 1. cbn [b_connected].
  match goal with |- context [get_ee_state ?b ?s] => destruct (get_ee_state_ok b s) as (p1 & v1 & ->) end.
  eexists. eexists. eexists. eexists. split; [reflexivity|]. cbn [send s_log app]. split; [reflexivity|].
  cbn [aget zeros]. unfold vzero. lra.
Qed.

(** ** C76: drawing *)
Definition segment_between (a c : rigid) (w : R) (l : line) : Prop :=
  l_from l = r_pos a /\ l_to l = r_pos c /\ l_width l = w.

(** The frame of a transformation is drawn as three lines from its origin to the images of
    the points at distance [s] on the axes. *)
Theorem C76_frame : forall T s lw,
  map l_from (draw_transform T s lw) = [r_pos T; r_pos T; r_pos T]
  /\ map l_to (draw_transform T s lw) = [pt_point T (V3 s 0 0); pt_point T (V3 0 s 0); pt_point T (V3 0 0 s)]
  /\ map l_rgb (draw_transform T s lw) = [(1, 0, 0); (0, 1, 0); (0, 0, 1)]%nat
  /\ map l_width (draw_transform T s lw) = [lw; lw; lw].
Proof.
  intros [r p] s lw. cbn. repeat split. unfold pt_point. cbn.
  f_equal; [|f_equal; [|f_equal]]; apply v3_eq; cbn; ring.
Qed.

Theorem C76_trajectory : forall A2Bs n_key_frames s lw, A2Bs <> [] -> (2 <= n_key_frames)%nat ->
  exists lines frames segments, draw_trajectory A2Bs n_key_frames s lw = Ok lines
  /\ lines = flat_map (fun k => draw_transform (nth k A2Bs rigid_one) s 1) frames ++ segments
  /\ length frames = n_key_frames /\ nth 0 frames 1%nat = 0%nat
  /\ last frames 0%nat = (length A2Bs - 1)%nat
  /\ (forall k, (S k < n_key_frames)%nat -> (nth k frames 0 <= nth (S k) frames 0)%nat)
  /\ Forall (fun k => (k < length A2Bs)%nat) frames
  /\ length segments = (length A2Bs - 1)%nat
  /\ forall k, (S k < length A2Bs)%nat -> exists l, nth_error segments k = Some l
       /\ segment_between (nth k A2Bs rigid_one) (nth (S k) A2Bs rigid_one) lw l.
Proof.
  intros A n s lw HA Hn. destruct A as [|a0 A]; [contradiction|].
  set (L := a0 :: A). set (m := (length L - 1)%nat).
  exists (flat_map (fun k => draw_transform (nth k L rigid_one) s 1) (linspace_int m n)
          ++ map (fun idx => {| l_from := r_pos (nth idx L rigid_one); l_to := r_pos (nth (idx + 1) L rigid_one);
                                l_rgb := (0, 0, 0)%nat; l_width := lw |}) (seq 0 m)),
    (linspace_int m n),
    (map (fun idx => {| l_from := r_pos (nth idx L rigid_one); l_to := r_pos (nth (idx + 1) L rigid_one);
                        l_rgb := (0, 0, 0)%nat; l_width := lw |}) (seq 0 m)).
  assert (Hlen : length L = S m) by (unfold m, L; cbn [length]; lia).
  assert (Hidx : Forall (fun k => (k < length L)%nat) (linspace_int m n)).
  { unfold linspace_int. apply Forall_forall. intros k Hk. apply in_map_iff in Hk. destruct Hk as (j & <- & Hj).
    apply in_seq in Hj. rewrite Hlen. destruct (Nat.eqb_spec n 1); [lia|].
    apply Nat.lt_succ_r. apply Nat.div_le_upper_bound; nia. }
  assert (Hdef : forall k, (k < length L)%nat -> nth k L a0 = nth k L rigid_one)
    by (intros k Hk; now apply nth_indep).
  assert (Hn_th : forall k, (k < n)%nat -> nth k (linspace_int m n) 0%nat = (k * m / (n - 1))%nat).
  { intros k Hk. unfold linspace_int.
    match goal with |- nth k (map ?g _) _ = _ => set (f := g) end.
    rewrite (nth_indep (map f (seq 0 n)) 0%nat (f 0%nat)) by (rewrite map_length, seq_length; lia).
    rewrite map_nth, seq_nth by lia. unfold f. destruct (Nat.eqb_spec n 1); [lia|]. reflexivity. }
  assert (Hll : length (linspace_int m n) = n) by (unfold linspace_int; now rewrite map_length, seq_length).
  split; [|split; [reflexivity|]].
  - transitivity (Ok (flat_map (fun idx => draw_transform (nth idx L a0) s 1) (linspace_int m n)
      ++ map (fun idx => {| l_from := r_pos (nth idx L a0); l_to := r_pos (nth (idx + 1) L a0);
                            l_rgb := (0, 0, 0)%nat; l_width := lw |}) (seq 0 m))); [reflexivity|].
    f_equal. f_equal.
    + rewrite !flat_map_concat_map. f_equal. apply map_ext_in. intros k Hk. rewrite Forall_forall in Hidx. now rewrite Hdef by auto.
    + apply map_ext_in. intros k Hk. apply in_seq in Hk. rewrite !Hdef by lia. reflexivity.
  - split; [exact Hll|]. split.
    { rewrite (nth_indep _ 1%nat 0%nat) by lia. rewrite Hn_th by lia. cbn [Nat.mul]. apply Nat.div_0_l. lia. }
    split.
    { assert (Hlast : forall l : list nat, l <> [] -> last l 0%nat = nth (length l - 1) l 0%nat).
      { clear. induction l as [|x l IH]; [contradiction|]. intros _. destruct l as [|y l]; [reflexivity|].
        change (last (x :: y :: l) 0%nat) with (last (y :: l) 0%nat). rewrite IH by discriminate.
        cbn [length]. rewrite !Nat.sub_succ, !Nat.sub_0_r. reflexivity. }
      rewrite Hlast by (intros E; rewrite E in Hll; cbn in Hll; lia). rewrite Hll, Hn_th by lia.
      rewrite Nat.mul_comm, Nat.div_mul by lia. reflexivity. }
    split; [intros k Hk; rewrite !Hn_th by lia; apply Nat.div_le_mono; nia|].
    split; [exact Hidx|]. split; [rewrite map_length, seq_length; reflexivity|].
    intros k Hk. eexists. split.
    + apply map_nth_error. rewrite nth_error_nth' with (d := 0%nat) by (rewrite seq_length; lia).
      rewrite seq_nth by lia. reflexivity.
    + unfold segment_between. cbn. rewrite Nat.add_1_r. auto.
Qed.

(** The line width is not used for the frames, although the documentation describes it for
    the whole drawing. *)
Theorem C76_line_width_refuted : exists A2Bs lines l, draw_trajectory A2Bs 1 1 5 = Ok lines /\ In l lines /\ l_width l <> 5.
Proof.
  exists [rigid_one]. eexists. eexists. split; [reflexivity|]. cbn. split; [left; reflexivity|]. cbn. lra.
Qed.

(** With a single key frame only the first pose is drawn; an empty trajectory is rejected. *)
Theorem C76_boundaries : forall s lw,
  draw_trajectory [] 10 s lw = Err IndexError
  /\ forall a c, exists segments, draw_trajectory [a; c] 1 s lw = Ok (draw_transform a s 1 ++ segments) /\ length segments = 1%nat.
Proof.
  intros s lw. split; [reflexivity|]. intros a c. eexists. split; [reflexivity|reflexivity].
Qed.

Example C74_satisfiable : exists (b : bullet nat) s' st' h,
  ur5_step_through_cartesian b (1/2) (fun y yd (k : nat) => (S k, Ok (half_turn, yd))) 6 half_turn (zeros 6) 3 true
    {| s_w := 0%nat; s_log := [] |} 0%nat = (s', st', Ok h)
  /\ length (h_p h) = 7%nat.
Proof.
  set (b := {| b_base := (arr_v3 v3_zero, arr_xyzw q_one); b_link := fun _ => (zeros 3, arr_xyzw q_one, zeros 3);
            b_ik := fun _ _ _ => Some {| alen := 6; aget := fun _ => 1 |}; b_joints := fun _ => zeros 6;
            b_exec := fun _ w => S w; b_connected := fun _ => true |}).
  destruct (C74_ur5_completes b (1/2) (fun y yd (k : nat) => (S k, Ok (half_turn, yd))) 6 true half_turn (zeros 6) 3
     {| s_w := 0%nat; s_log := [] |} 0%nat) as (s' & st' & h & E); try (intros; cbn; congruence); try lra.
  { intros y yd st. exists (S st), half_turn, yd. split; [reflexivity|]. cbn. lia. }
  exists b, s', st', h. split; [exact E|].
  destruct (C74_ur5 b (1/2) _ _ _ _ _ 3 _ _ _ _ _ ltac:(lra) ltac:(lra) E) as (n & sims & sts & Hn & _ & L & _).
  rewrite L. f_equal. rewrite S_INR in Hn. destruct Hn.
  assert (A : INR n <= INR 6) by (cbn; lra). assert (B : INR 5 < INR n) by (cbn; lra).
  apply INR_le in A. apply INR_lt in B. lia.
Qed.
