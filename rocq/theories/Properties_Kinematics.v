(** C58, C59, C71: joint limits and forward kinematics. *)
From Coq Require Import Reals List String Bool Arith Lia Lra FunctionalExtensionality.
From Verif Require Import M_Prelude M_Quaternion S_Rotation P_Quaternion M_Rigid S_Rigid P_Rigid M_Kinematics.
Import ListNotations.
Open Scope R_scope.
Set Bullet Behavior "Strict Subproofs".

(** ** Specification *)
Definition in_limits (l : limits) (v : R) : Prop :=
  (forall lo, lim_lo l = Some lo -> lo <= v) /\ (forall hi, lim_hi l = Some hi -> v <= hi).

(** [v'] is the value within the limits that is closest to [v]. *)
Definition nearest (l : limits) (v v' : R) : Prop :=
  in_limits l v' /\ forall x, in_limits l x -> Rabs (v - v') <= Rabs (v - x).

(** The limits of a joint leave at least one value. *)
Definition consistent (l : limits) : Prop := exists v, in_limits l v.

Definition joint_limits_consistent (m : manager) : Prop :=
  forall n j, tm_joints m n = Some j -> consistent (j_limits j).

(** ** Clipping *)
Lemma clip_in l v : consistent l -> in_limits l (clip l v).
Proof.
  intros [x [H1 H2]]. destruct l as [[lo|] [hi|]]; unfold in_limits, clip in *; cbn [lim_lo lim_hi] in *; split; intros b E;
    try discriminate; injection E as <-.
  - specialize (H1 lo eq_refl). specialize (H2 hi eq_refl). apply Rmin_glb; [apply Rmax_r|lra].
  - apply Rmin_r.
  - apply Rmax_r.
  - apply Rmin_r.
Qed.

Lemma clip_id l v : in_limits l v -> clip l v = v.
Proof.
  intros [H1 H2]. destruct l as [[lo|] [hi|]]; unfold clip; cbn [lim_lo lim_hi] in *; auto.
  - rewrite Rmax_left by auto. apply Rmin_left; auto.
  - now apply Rmax_left; auto.
  - apply Rmin_left; auto.
Qed.

Lemma clip_nearest l v : consistent l -> nearest l v (clip l v).
Proof.
  intros Hc. split; [now apply clip_in|]. intros x [H1 H2].
  destruct l as [[lo|] [hi|]]; unfold clip; cbn [lim_lo lim_hi] in *;
    repeat match goal with H : forall b, Some ?a = Some b -> _ |- _ => specialize (H a eq_refl) end;
    unfold Rmin, Rmax; repeat destruct (Rle_dec _ _); unfold Rabs; repeat destruct (Rcase_abs _); lra.
Qed.

Lemma nearest_clip l v v' : nearest l v v' -> clip l v = v'.
Proof.
  intros [Hin Hn]. assert (Hc : consistent l) by now exists v'.
  destruct (clip_nearest l v Hc) as [Hin' Hn'].
  assert (E : Rabs (v - clip l v) = Rabs (v - v')) by (apply Rle_antisym; auto).
  (* two points of an interval at the same distance: their middle is closer *)
  assert (Hm : in_limits l ((clip l v + v') / 2)).
  { destruct Hin as [A1 A2], Hin' as [B1 B2]. split; intros b Eb.
    - specialize (A1 b Eb). specialize (B1 b Eb). lra.
    - specialize (A2 b Eb). specialize (B2 b Eb). lra. }
  specialize (Hn _ Hm). revert E Hn. set (x := clip l v). clearbody x.
  unfold Rabs. repeat destruct (Rcase_abs _); lra.
Qed.

(** ** What a sequence of joint values changes *)
Fixpoint assigned (m : manager) (names : list string) (q : list R) (a b : string) : option rigid :=
  match names, q with
  | n :: names', v :: q' =>
      match assigned m names' q' a b with
      | Some t => Some t
      | None =>
          match tm_joints m n with
          | Some j => if String.eqb a (j_from j) && String.eqb b (j_to j)
                      then Some (rigid_mul (j_child2parent j) (joint_matrix j (clip (j_limits j) v))) else None
          | None => None
          end
      end
  | _, _ => None
  end.

Lemma manager_ext m m' : tm_nodes m = tm_nodes m' -> tm_joints m = tm_joints m' -> tm_path m = tm_path m' ->
  (forall a b, tm_transforms m a b = tm_transforms m' a b) -> m = m'.
Proof.
  destruct m, m'; cbn. intros -> -> -> H. f_equal. extensionality a. extensionality b. apply H.
Qed.

Lemma assigned_joints m m' names : tm_joints m = tm_joints m' -> forall q a b, assigned m names q a b = assigned m' names q a b.
Proof.
  intros E. induction names as [|n names IH]; intros [|v q] a b; cbn [assigned]; auto.
  rewrite IH, E. reflexivity.
Qed.

Lemma set_joints_spec names : forall m q m', set_joints m names q = Ok m' ->
  tm_nodes m' = tm_nodes m /\ tm_joints m' = tm_joints m /\ tm_path m' = tm_path m
  /\ (forall a b, tm_transforms m' a b = match assigned m names q a b with Some t => Some t | None => tm_transforms m a b end)
  /\ (List.length names <= List.length q)%nat /\ (forall n, In n names -> tm_joints m n <> None).
Proof.
  induction names as [|n names IH]; intros m q m' E; cbn [set_joints] in E.
  - injection E as <-. repeat split; auto; cbn; lia || tauto || idtac.
  - destruct q as [|v q]; [discriminate|]. unfold set_joint in E.
    destruct (tm_joints m n) as [j|] eqn:Ej; [|discriminate]. cbn [bind] in E.
    destruct (IH _ _ _ E) as (H1 & H2 & H3 & H4 & H5 & H6). cbn [set_transform tm_nodes tm_joints tm_path] in *.
    split; [exact H1|]. split; [exact H2|]. split; [exact H3|]. split; [|split].
    + intros a b. rewrite H4. cbn [assigned]. rewrite Ej.
      rewrite (assigned_joints _ m) by reflexivity.
      destruct (assigned m names q a b); [reflexivity|]. cbn [set_transform tm_transforms].
      destruct (String.eqb a (j_from j) && String.eqb b (j_to j)); reflexivity.
    + cbn; lia.
    + intros x [<-|Hx]; [congruence|]. auto.
Qed.

Lemma set_joints_ok names : forall m q, (List.length names <= List.length q)%nat -> (forall n, In n names -> tm_joints m n <> None) ->
  exists m', set_joints m names q = Ok m'.
Proof.
  induction names as [|n names IH]; intros m q Hl Hn; cbn [set_joints]; [eauto|].
  destruct q as [|v q]; [cbn in Hl; lia|]. unfold set_joint.
  destruct (tm_joints m n) as [j|] eqn:Ej; [|elim (Hn n); auto; now left]. cbn [bind].
  apply IH; [cbn in Hl; lia|]. intros x Hx. cbn. apply Hn. now right.
Qed.

(** The error does not depend on the values. *)
Lemma set_joints_err names : forall m q e, set_joints m names q = Err e ->
  forall m2 q2, tm_joints m2 = tm_joints m -> List.length q2 = List.length q -> set_joints m2 names q2 = Err e.
Proof.
  induction names as [|n names IH]; intros m q e E m2 q2 Ej El; cbn [set_joints] in *; [discriminate|].
  destruct q as [|v q], q2 as [|v2 q2]; try discriminate; [exact E|].
  unfold set_joint in *. rewrite Ej. destruct (tm_joints m n) as [j|]; cbn [bind] in *; [|exact E].
  eapply IH; [exact E| |]; [exact Ej|]. cbn in El. lia.
Qed.

(** ** C58 *)

(** Joint vectors have the same effect as the nearest ones within the limits. *)
Theorem C58_clipped : forall c m q q',
  List.length q' = List.length q ->
  (forall i n j, nth_error (ch_joint_names c) i = Some n -> tm_joints m n = Some j -> (i < List.length q)%nat ->
     nearest (j_limits j) (nth i q 0) (nth i q' 0)) ->
  forward c m q' = forward c m q.
Proof.
  intros c m q q' Hl H.
  assert (E : set_joints m (ch_joint_names c) q' = set_joints m (ch_joint_names c) q).
  { revert m q q' Hl H. induction (ch_joint_names c) as [|n names IH]; intros m q q' Hl H; cbn [set_joints]; [reflexivity|].
    destruct q as [|v q], q' as [|v' q']; try discriminate; [reflexivity|]. unfold set_joint.
    destruct (tm_joints m n) as [j|] eqn:Ej; [|reflexivity]. cbn [bind].
    assert (N := H 0%nat n j eq_refl Ej ltac:(cbn; lia)). cbn [nth] in N.
    rewrite (nearest_clip _ _ _ N), (clip_id _ v') by apply N.
    apply IH; [cbn in Hl; lia|]. intros i n' j' Hn Hj Hi. cbn [set_transform tm_joints] in Hj.
    apply (H (S i) n' j'); auto. cbn; lia. }
  unfold forward. now rewrite E.
Qed.

(** Such a vector exists if the limits are consistent. *)
Theorem C58_nearest_exists : forall l v, consistent l -> exists v', nearest l v v'.
Proof. intros l v H. exists (clip l v). now apply clip_nearest. Qed.

(** The joint values in effect: every joint stands at some value. *)
Definition configured (m : manager) (value : string -> R) : Prop :=
  forall n j, tm_joints m n = Some j ->
  tm_transforms m (j_from j) (j_to j) = Some (rigid_mul (j_child2parent j) (joint_matrix j (value n))).

(** Every joint connects its own pair of frames. *)
Definition separate_joints (m : manager) : Prop :=
  forall n n' j j', tm_joints m n = Some j -> tm_joints m n' = Some j' ->
  j_from j = j_from j' -> j_to j = j_to j' -> n = n'.

(** After a call of [forward] all joints stand at values; those of the chain at values
    within the limits, which are the nearest to the given ones, those of other joints are
    unchanged. *)
Theorem C58_in_limits : forall c m q value m' t,
  separate_joints m -> joint_limits_consistent m -> configured m value ->
  forward c m q = Ok (m', t) ->
  exists value', configured m' value'
  /\ (forall n, ~ In n (ch_joint_names c) -> value' n = value n)
  /\ (forall n j, In n (ch_joint_names c) -> tm_joints m n = Some j -> in_limits (j_limits j) (value' n))
  /\ (NoDup (ch_joint_names c) -> forall i n j, nth_error (ch_joint_names c) i = Some n -> tm_joints m n = Some j ->
        nearest (j_limits j) (nth i q 0) (value' n)).
Proof.
  intros c m q value m' t Hsep Hcon Hconf E. unfold forward in E.
  destruct (set_joints m (ch_joint_names c) q) as [m1|] eqn:E1; [|discriminate]. cbn [bind] in E.
  destruct (get_ee2base _ _ _) as [t1|]; [|discriminate]. cbn [bind] in E. injection E as -> _.
  revert m q value Hsep Hcon Hconf E1. induction (ch_joint_names c) as [|n names IH]; intros m q value Hsep Hcon Hconf E1.
  - cbn [set_joints] in E1. injection E1 as ->. exists value. split; [exact Hconf|]. split; [auto|].
    split; [intros n j []|]. intros _ [|i] n j; discriminate.
  - cbn [set_joints] in E1. destruct q as [|v q]; [discriminate|]. unfold set_joint in E1.
    destruct (tm_joints m n) as [j|] eqn:Ej; [|discriminate]. cbn [bind] in E1.
    set (T := rigid_mul _ _) in E1. set (m1 := set_transform m (j_from j) (j_to j) T) in E1.
    set (val1 := fun x => if String.eqb x n then clip (j_limits j) v else value x).
    assert (Hconf1 : configured m1 val1).
    { intros n2 j2 E2. unfold m1, val1. cbn [set_transform tm_transforms].
      destruct (String.eqb_spec n2 n) as [->|Hne].
      - change (tm_joints m n = Some j2) in E2. rewrite Ej in E2. injection E2 as <-.
        rewrite !String.eqb_refl. reflexivity.
      - destruct (String.eqb_spec (j_from j2) (j_from j)) as [Ef|]; cbn [andb]; [|now apply Hconf].
        destruct (String.eqb_spec (j_to j2) (j_to j)) as [Et|]; [|now apply Hconf].
        elim Hne. now apply (Hsep n2 n j2 j). }
    destruct (IH m1 q val1 Hsep Hcon Hconf1 E1) as (value' & H1 & H2 & H3 & H4).
    exists value'. split; [exact H1|]. split; [|split].
    + intros x Hx. rewrite H2 by (intros Hin; apply Hx; now right). unfold val1.
      destruct (String.eqb_spec x n) as [->|]; [|reflexivity]. elim Hx. now left.
    + intros x jx [<-|Hx] Ejx.
      * destruct (in_dec string_dec n names) as [Hin|Hin]; [now apply H3|].
        rewrite H2 by exact Hin. unfold val1. rewrite String.eqb_refl. rewrite Ej in Ejx. injection Ejx as <-.
        apply clip_in. now apply (Hcon n).
      * now apply H3.
    + intros Hnd i x jx Hi Ejx. inversion_clear Hnd as [|? ? Hnin Hnd'].
      destruct i as [|i]; cbn [nth_error nth] in *.
      * injection Hi as <-. rewrite H2 by exact Hnin. unfold val1. rewrite String.eqb_refl.
        rewrite Ej in Ejx. injection Ejx as <-. apply clip_nearest. now apply (Hcon n).
      * now apply H4.
Qed.

(** The limits that a chain uses for inverse kinematics are within those of the robot. *)
Theorem C58_chain_limits : forall m names base ee c i n j v,
  create_chain m names base ee = Ok c -> nth_error names i = Some n -> tm_joints m n = Some j ->
  fst (nth i (ch_joint_limits c) (0, 0)) <= v <= snd (nth i (ch_joint_limits c) (0, 0)) ->
  in_limits (j_limits j) v.
Proof.
  intros m names base ee c i n j v E Hi Ej Hv. unfold create_chain in E.
  destruct (joint_limits_of m names) as [ls|] eqn:El; [|discriminate]. cbn [bind] in E.
  destruct (index_of ee _); [|discriminate]. cbn [bind] in E. destruct (index_of base _); [|discriminate].
  cbn [bind] in E. injection E as <-. cbn [ch_joint_limits] in Hv.
  assert (N : nth i ls (0, 0) = finite_limits (j_limits j)).
  { clear Hv. revert i ls El Hi. induction names as [|x names IH]; intros i ls El Hi; [destruct i; discriminate|].
    cbn [joint_limits_of] in El. destruct (tm_joints m x) as [jx|] eqn:Ex; [|discriminate].
    destruct (joint_limits_of m names) as [ls'|]; [|discriminate]. cbn [bind] in El. injection El as <-.
    destruct i as [|i]; cbn [nth_error nth] in *.
    - injection Hi as ->. rewrite Ej in Ex. now injection Ex as ->.
    - now apply IH. }
  rewrite N in Hv. unfold finite_limits in Hv. split; intros b Eb; rewrite Eb in Hv; cbn [fst snd] in Hv; lra.
Qed.

(** ** C59 *)
Lemma fast_matrix_axis_angle u th : fast_matrix_from_axis_angle u th = Rigid (axis_angle_matrix u th) v3_zero.
Proof. destruct u. unfold fast_matrix_from_axis_angle. f_equal. Qed.

Lemma axis_quat_add u a b : unit_v3 u -> hamilton (axis_quat u a) (axis_quat u b) = axis_quat u (a + b).
Proof.
  destruct u as [x y z]. unfold unit_v3. cbn [v3x v3y v3z]. intros H.
  unfold axis_quat, hamilton. cbn [qw qx qy qz v3x v3y v3z].
  replace ((a + b) / 2) with (a / 2 + b / 2) by field. rewrite cos_plus, sin_plus.
  set (ca := cos (a / 2)). set (sa := sin (a / 2)). set (cb := cos (b / 2)). set (sb := sin (b / 2)).
  f_equal; try ring.
  transitivity (ca * cb - (x ^ 2 + y ^ 2 + z ^ 2) * (sa * sb)); [ring|]. rewrite H. ring.
Qed.

(** Rotations of a joint compose by adding the angles; they leave the axis where it is. *)
Theorem C59_rotations_compose : forall axis a b, unit_v3 axis ->
  rigid_mul (fast_matrix_from_axis_angle axis a) (fast_matrix_from_axis_angle axis b)
  = fast_matrix_from_axis_angle axis (a + b)
  /\ fast_matrix_from_axis_angle axis 0 = rigid_one
  /\ pt_point (fast_matrix_from_axis_angle axis a) axis = axis.
Proof.
  intros u a b Hu. rewrite !fast_matrix_axis_angle. split; [|split].
  - unfold rigid_mul. cbn [r_rot r_pos]. f_equal.
    + rewrite !axis_angle_matrix_quat by auto. rewrite <- matrix_hamilton by auto using axis_quat_unit.
      now rewrite axis_quat_add.
    + apply v3_eq; cbn; ring.
  - destruct u. unfold rigid_one, m3_one. cbn. rewrite cos_0, sin_0. f_equal. f_equal; ring.
  - unfold pt_point. cbn [r_rot r_pos]. rewrite axis_angle_matrix_rodrigues. destruct u as [x y z].
    unfold unit_v3 in Hu. cbn [v3x v3y v3z] in Hu. unfold rodrigues. apply v3_eq; unfold v3_dot; cbn -[pow];
      set (ca := cos a); set (sa := sin a); clearbody ca sa.
    + transitivity (x * (ca + (1 - ca) * (x ^ 2 + y ^ 2 + z ^ 2))); [ring|rewrite Hu; ring].
    + transitivity (y * (ca + (1 - ca) * (x ^ 2 + y ^ 2 + z ^ 2))); [ring|rewrite Hu; ring].
    + transitivity (z * (ca + (1 - ca) * (x ^ 2 + y ^ 2 + z ^ 2))); [ring|rewrite Hu; ring].
Qed.

Lemma point_mul b a p : pt_point (rigid_mul b a) p = pt_point b (pt_point a p).
Proof. destruct p. apply v3_eq; unfold pt_point, rigid_mul; cbn; ring. Qed.

(** Setting a joint moves the points of its child frame: a revolute joint rotates
    them about its axis, a prismatic joint shifts them along its axis, by the
    value within the limits that is nearest to the requested one.  Nothing else
    changes. *)
Theorem C59_joint_motion : forall m n j v v', tm_joints m n = Some j -> nearest (j_limits j) v v' ->
  exists m' t, set_joint m n v = Ok m' /\ tm_transforms m' (j_from j) (j_to j) = Some t
  /\ (forall p, pt_point t p = pt_point (j_child2parent j)
        (if String.eqb (j_type j) "revolute" then rodrigues (j_axis j) v' p
         else V3 (v3x p + v' * v3x (j_axis j)) (v3y p + v' * v3y (j_axis j)) (v3z p + v' * v3z (j_axis j))))
  /\ (forall a b, (a, b) <> (j_from j, j_to j) -> tm_transforms m' a b = tm_transforms m a b)
  /\ tm_nodes m' = tm_nodes m /\ tm_joints m' = tm_joints m /\ tm_path m' = tm_path m.
Proof.
  intros m n j v v' Ej Hn. unfold set_joint. rewrite Ej, (nearest_clip _ _ _ Hn). eexists _, _.
  split; [reflexivity|]. cbn [set_transform tm_transforms tm_nodes tm_joints tm_path].
  rewrite !String.eqb_refl. cbn [andb]. split; [reflexivity|]. split; [|split; [|auto]].
  - intros p. rewrite point_mul. f_equal. unfold joint_matrix. destruct (String.eqb (j_type j) "revolute").
    + rewrite fast_matrix_axis_angle. unfold pt_point. cbn [r_rot r_pos]. rewrite axis_angle_matrix_rodrigues.
      apply v3_eq; cbn; ring.
    + destruct p. apply v3_eq; unfold pt_point; cbn; ring.
  - intros a b Hab. destruct (String.eqb_spec a (j_from j)) as [->|]; [|reflexivity].
    destruct (String.eqb_spec b (j_to j)) as [->|]; [contradiction|reflexivity].
Qed.

Definition rigid_robot (m : manager) : Prop :=
  (forall a b t, tm_transforms m a b = Some t -> is_rigid t)
  /\ (forall n j, tm_joints m n = Some j -> is_rigid (j_child2parent j) /\ unit_v3 (j_axis j)).

(** Consecutive frames of the path from end effector to base are connected. *)
Fixpoint connected (m : manager) (path : list string) : Prop :=
  match path with
  | a :: ((b :: _) as rest) =>
      (tm_transforms m a b <> None \/ tm_transforms m b a <> None) /\ connected m rest
  | _ => True
  end.

Lemma is_rigid_joint j v : unit_v3 (j_axis j) -> is_rigid (joint_matrix j v).
Proof.
  intros H. unfold joint_matrix. destruct (String.eqb _ _).
  - rewrite fast_matrix_axis_angle. unfold is_rigid. cbn [r_rot].
    rewrite axis_angle_matrix_quat by auto. apply matrix_rotation. now apply axis_quat_unit.
  - apply rotation_one.
Qed.

Lemma set_joints_rigid names : forall m q m', rigid_robot m -> set_joints m names q = Ok m' -> rigid_robot m'.
Proof.
  induction names as [|n names IH]; intros m q m' Hr E; cbn [set_joints] in E.
  - injection E as <-. exact Hr.
  - destruct q as [|v q]; [discriminate|]. unfold set_joint in E.
    destruct (tm_joints m n) as [j|] eqn:Ej; [|discriminate]. cbn [bind] in E.
    refine (IH _ _ _ _ E). destruct Hr as [H1 H2]. split; [|exact H2].
    intros a b t. cbn [set_transform tm_transforms]. destruct (String.eqb a _ && String.eqb b _).
    + intros [= <-]. apply is_rigid_mul; [apply (H2 n j Ej)|apply is_rigid_joint, (H2 n j Ej)].
    + apply H1.
Qed.

Lemma get_transform_rigid m a b t : rigid_robot m -> get_transform m a b = Ok t -> is_rigid t.
Proof.
  intros [H _] E. unfold get_transform in E.
  destruct (tm_transforms m a b) as [x|] eqn:E1; [injection E as <-; eauto|].
  destruct (tm_transforms m b a) as [x|] eqn:E2; [|discriminate]. injection E as <-. apply is_rigid_invert. eauto.
Qed.

Lemma path_transform_rigid m path : rigid_robot m -> forall acc t, is_rigid acc ->
  path_transform m acc path = Ok t -> is_rigid t.
Proof.
  intros Hr. induction path as [|a [|b rest] IH]; intros acc t Ha E; cbn [path_transform] in E; try (now injection E as <-).
  destruct (get_transform m a b) as [x|] eqn:Ex; [|discriminate]. cbn [bind] in E.
  refine (IH _ _ _ E). apply is_rigid_mul; [|exact Ha]. eapply get_transform_rigid; eauto.
Qed.

(** [forward] returns a rigid transformation and leaves all transformations rigid. *)
Theorem C59_rigid : forall c m q m' t, rigid_robot m -> forward c m q = Ok (m', t) ->
  is_rigid t /\ rigid_robot m'.
Proof.
  intros c m q m' t Hr E. unfold forward in E.
  destruct (set_joints m _ q) as [m1|] eqn:E1; [|discriminate]. cbn [bind] in E.
  destruct (get_ee2base m1 _ _) as [t1|] eqn:E2; [|discriminate]. cbn [bind] in E. injection E as <- <-.
  assert (Hr1 := set_joints_rigid _ _ _ _ Hr E1). split; [|exact Hr1].
  refine (path_transform_rigid m1 _ Hr1 rigid_one t1 _ E2). apply rotation_one.
Qed.

Lemma connected_mono m m' path : (forall a b, tm_transforms m a b <> None -> tm_transforms m' a b <> None) ->
  connected m path -> connected m' path.
Proof.
  intros H. induction path as [|a [|b rest] IH]; cbn [connected]; auto.
  intros [[Hc|Hc] Hr]; (split; [|exact (IH Hr)]); [left|right]; now apply H.
Qed.

Lemma path_transform_ok m path : connected m path -> forall acc, exists t, path_transform m acc path = Ok t.
Proof.
  induction path as [|a [|b rest] IH]; intros Hc acc; cbn [path_transform]; eauto.
  destruct Hc as [Hc Hr]. unfold get_transform.
  destruct (tm_transforms m a b) as [x|]; cbn [bind]; [now apply IH|].
  destruct (tm_transforms m b a) as [x|]; cbn [bind]; [now apply IH|]. destruct Hc; congruence.
Qed.

(** It succeeds for every vector with enough entries. *)
Theorem C59_total : forall c m q,
  connected m (tm_path m (ch_ee_index c) (ch_base_index c)) ->
  (forall n, In n (ch_joint_names c) -> tm_joints m n <> None) -> (n_joints c <= List.length q)%nat ->
  exists m' t, forward c m q = Ok (m', t).
Proof.
  intros c m q Hc Hn Hl. unfold forward.
  destruct (set_joints_ok (ch_joint_names c) m q Hl Hn) as [m' E]. rewrite E. cbn [bind].
  destruct (set_joints_spec _ _ _ _ E) as (_ & _ & Hp & Ht & _).
  unfold get_ee2base. rewrite Hp.
  destruct (path_transform_ok m' (tm_path m (ch_ee_index c) (ch_base_index c))) with (acc := rigid_one) as [t Et].
  - apply connected_mono with (m := m); [|exact Hc]. intros a b Hab. rewrite Ht. destruct (assigned _ _ _ _ _); congruence.
  - rewrite Et. cbn [bind]. eauto.
Qed.

(** The result maps coordinates through the frames of the path one after the other. *)
Inductive carries (m : manager) : list string -> v3 -> v3 -> Prop :=
| carries_one : forall a p, carries m [a] p p
| carries_down : forall a b rest t p p', tm_transforms m a b = Some t ->
    carries m (b :: rest) (pt_point t p) p' -> carries m (a :: b :: rest) p p'
| carries_up : forall a b rest t p p0 p', tm_transforms m a b = None -> tm_transforms m b a = Some t ->
    pt_point t p0 = p -> carries m (b :: rest) p0 p' -> carries m (a :: b :: rest) p p'.

Lemma pt_point_mul b a p : pt_point (rigid_mul b a) p = pt_point b (pt_point a p).
Proof. destruct a as [ra pa], b as [rb pb]. unfold pt_point, rigid_mul. cbn [r_rot r_pos]. rewrite m3_app_mul, m3_app_add. apply v3_eq; cbn; ring. Qed.
Lemma pt_point_one p : pt_point rigid_one p = p.
Proof. destruct p. apply v3_eq; cbn; ring. Qed.

Theorem C59_carries : forall c m q m' t a path, rigid_robot m -> tm_path m (ch_ee_index c) (ch_base_index c) = a :: path ->
  forward c m q = Ok (m', t) -> forall p, carries m' (a :: path) p (pt_point t p).
Proof.
  intros c m q m' t a path Hr Hp E p. assert (Hr' := proj2 (C59_rigid c m q m' t Hr E)). unfold forward in E.
  destruct (set_joints m _ q) as [m1|] eqn:E1; [|discriminate]. cbn [bind] in E.
  destruct (get_ee2base m1 _ _) as [t1|] eqn:E2; [|discriminate]. cbn [bind] in E. injection E as -> ->.
  destruct (set_joints_spec _ _ _ _ E1) as (_ & _ & Hp' & _).
  unfold get_ee2base in E2. rewrite Hp', Hp in E2.
  assert (G : forall path a acc p, path_transform m' acc (a :: path) = Ok t -> carries m' (a :: path) (pt_point acc p) (pt_point t p)).
  { clear - Hr'. induction path as [|b rest IH]; intros a acc p E; cbn [path_transform] in E.
    - injection E as <-. constructor.
    - unfold get_transform in E. destruct (tm_transforms m' a b) as [x|] eqn:Ex; cbn [bind] in E.
      + econstructor; [exact Ex|]. rewrite <- pt_point_mul. now apply IH.
      + destruct (tm_transforms m' b a) as [x|] eqn:Ex'; cbn [bind] in E; [|discriminate].
        eapply carries_up; [exact Ex|exact Ex'| |exact (IH _ _ p E)].
        unfold pt_concat. rewrite pt_point_mul, <- pt_point_mul, rigid_inv_r, pt_point_one; [reflexivity|].
        now apply (proj1 Hr' b a). }
  rewrite <- (pt_point_one p) at 1. now apply G.
Qed.

(** ** C71 *)

(** The result of [forward] alone. *)
Definition pose_of (c : chain) (m : manager) (q : list R) : res rigid := rmap snd (forward c m q).

(** [n] moves a pair of frames that are neighbours on the path. *)
Fixpoint neighbours (path : list string) (a b : string) : Prop :=
  match path with
  | x :: ((y :: _) as rest) => (x = a /\ y = b) \/ neighbours rest a b
  | _ => False
  end.

Lemma path_transform_ext m m' path : (forall a b, neighbours path a b -> get_transform m a b = get_transform m' a b) ->
  forall acc, path_transform m acc path = path_transform m' acc path.
Proof.
  induction path as [|a [|b rest] IH]; intros H acc; cbn [path_transform]; auto.
  rewrite (H a b) by (left; auto). destruct (get_transform m' a b); cbn [bind]; auto.
  apply IH. intros x y Hxy. apply H. now right.
Qed.

Lemma assigned_none m names : forall q q2 a b, List.length q = List.length q2 ->
  assigned m names q a b = None -> assigned m names q2 a b = None.
Proof.
  induction names as [|n names IH]; intros [|v q] [|v2 q2] a b Hl E; try discriminate; auto.
  cbn [assigned] in *. destruct (assigned m names q a b) eqn:E1; [discriminate|].
  rewrite (IH q q2) by (cbn in Hl; auto; lia). destruct (tm_joints m n) as [j|]; [|reflexivity].
  destruct (_ && _); [discriminate|reflexivity].
Qed.

Lemma assigned_in m names : forall q a b t, assigned m names q a b = Some t ->
  exists n j, In n names /\ tm_joints m n = Some j /\ a = j_from j /\ b = j_to j.
Proof.
  induction names as [|n names IH]; intros [|v q] a b t E; try discriminate. cbn [assigned] in E.
  destruct (assigned m names q a b) eqn:E1.
  - destruct (IH _ _ _ _ E1) as (n' & j & H1 & H2). exists n', j. split; [now right|exact H2].
  - destruct (tm_joints m n) as [j|] eqn:Ej; [|discriminate].
    destruct (String.eqb_spec a (j_from j)); [|discriminate]. destruct (String.eqb_spec b (j_to j)); [|discriminate].
    exists n, j. split; [now left|]. auto.
Qed.

Lemma assigned_some m names q : forall n j, In n names -> tm_joints m n = Some j -> (List.length names <= List.length q)%nat ->
  assigned m names q (j_from j) (j_to j) <> None.
Proof.
  revert q. induction names as [|x names IH]; intros [|v q] n j Hin Ej Hl; try (now destruct Hin); try (cbn in Hl; lia).
  cbn [assigned]. destruct (assigned m names q (j_from j) (j_to j)) eqn:E1; [discriminate|].
  destruct Hin as [->|Hin].
  - rewrite Ej, !String.eqb_refl. discriminate.
  - elim (IH q n j Hin Ej); [cbn in Hl; lia|exact E1].
Qed.

(** Calls of [forward] on other chains of the robot have no influence on the result if
    they only move joints of this chain or joints that are not on its path. *)
Theorem C71_history_partial : forall c c' m q' m1 t1 q,
  forward c' m q' = Ok (m1, t1) ->
  (forall n j, In n (ch_joint_names c') -> tm_joints m n = Some j -> In n (ch_joint_names c)
     \/ (~ neighbours (tm_path m (ch_ee_index c) (ch_base_index c)) (j_from j) (j_to j)
         /\ ~ neighbours (tm_path m (ch_ee_index c) (ch_base_index c)) (j_to j) (j_from j))) ->
  pose_of c m1 q = pose_of c m q.
Proof.
  intros c c' m q' m1 t1 q E H. unfold forward in E.
  destruct (set_joints m _ q') as [m1'|] eqn:E1; [|discriminate]. cbn [bind] in E.
  destruct (get_ee2base m1' _ _) as [t0|]; [|discriminate]. cbn [bind] in E. injection E as -> _.
  destruct (set_joints_spec _ _ _ _ E1) as (_ & Hj & Hp & Ht & _).
  unfold pose_of, forward.
  destruct (set_joints m (ch_joint_names c) q) as [m2|e] eqn:E2.
  - destruct (set_joints_spec _ _ _ _ E2) as (_ & Hj2 & Hp2 & Ht2 & Hl & Hn).
    destruct (set_joints_ok (ch_joint_names c) m1 q Hl) as [m3 E3]; [now rewrite Hj|]. rewrite E3. cbn [bind].
    destruct (set_joints_spec _ _ _ _ E3) as (_ & Hj3 & Hp3 & Ht3 & _).
    assert (G : get_ee2base m3 (ch_ee_index c) (ch_base_index c) = get_ee2base m2 (ch_ee_index c) (ch_base_index c)).
    { unfold get_ee2base. rewrite Hp3, Hp, Hp2. apply path_transform_ext.
      assert (K : forall a b, (neighbours (tm_path m (ch_ee_index c) (ch_base_index c)) a b
          \/ neighbours (tm_path m (ch_ee_index c) (ch_base_index c)) b a) -> tm_transforms m3 a b = tm_transforms m2 a b).
      { intros a b Hab. rewrite Ht3, Ht2. rewrite (assigned_joints m1 m) by exact Hj.
        destruct (assigned m (ch_joint_names c) q a b) eqn:E4; [reflexivity|]. rewrite Ht.
        destruct (assigned m (ch_joint_names c') q' a b) as [x|] eqn:E5; [|reflexivity].
        destruct (assigned_in _ _ _ _ _ _ E5) as (n & j & Hin & Ej & -> & ->).
        destruct (H n j Hin Ej) as [Hin'|[N1 N2]]; [|tauto].
        elim (assigned_some m (ch_joint_names c) q n j Hin' Ej Hl E4). }
      intros a b Hab. unfold get_transform. rewrite !K by auto. reflexivity. }
    rewrite G. destruct (get_ee2base m2 _ _); reflexivity.
  - rewrite (set_joints_err _ _ _ _ E2 m1 q Hj eq_refl). reflexivity.
Qed.

(** In particular for earlier calls on the same chain. *)
Corollary C71_same_chain_partial : forall c m q' m1 t1 q,
  forward c m q' = Ok (m1, t1) -> pose_of c m1 q = pose_of c m q.
Proof. intros c m q' m1 t1 q E. eapply C71_history_partial; [exact E|]. intros; now left. Qed.

(** Trajectories: the poses are those of the single calls. *)
Theorem C71_trajectory_partial : forall c m Q m' H, forward_trajectory c m Q = Ok (m', H) ->
  List.length H = List.length Q /\ forall i q, nth_error Q i = Some q -> exists t, nth_error H i = Some t /\ pose_of c m q = Ok t.
Proof.
  intros c m Q. revert m. induction Q as [|q Q IH]; intros m m' H E; cbn [forward_trajectory] in E.
  - injection E as <- <-. split; [reflexivity|]. intros [|i] q; discriminate.
  - destruct (forward c m q) as [[m1 t]|] eqn:E1; [|discriminate]. cbn [bind fst snd] in E.
    destruct (forward_trajectory c m1 Q) as [[m2 H']|] eqn:E2; [|discriminate]. cbn [bind fst snd] in E.
    injection E as <- <-. destruct (IH _ _ _ E2) as [Hl Hn]. split; [cbn; now rewrite Hl|].
    intros [|i] q2 Hi; cbn [nth_error] in *.
    + injection Hi as <-. exists t. split; [reflexivity|]. unfold pose_of. now rewrite E1.
    + destruct (Hn i q2 Hi) as (t2 & H1 & H2). exists t2. split; [exact H1|].
      now rewrite <- (C71_same_chain_partial c m q m1 t q2 E1).
Qed.

(** ** A robot with two joints, a revolute and a prismatic one, base - link - tool. *)
Local Open Scope string_scope.
Local Open Scope R_scope.

Definition ex_joint1 : joint :=
  {| j_from := "link"; j_to := "base"; j_child2parent := Rigid m3_one (V3 0 0 1); j_axis := V3 0 0 1;
     j_limits := {| lim_lo := None; lim_hi := None |}; j_type := "revolute" |}.
Definition ex_joint2 : joint :=
  {| j_from := "tool"; j_to := "link"; j_child2parent := rigid_one; j_axis := V3 1 0 0;
     j_limits := {| lim_lo := Some 0; lim_hi := Some 1 |}; j_type := "prismatic" |}.
Definition ex_robot : manager :=
  {| tm_nodes := ["base"; "link"; "tool"]%string;
     tm_joints := fun n => if String.eqb n "j1" then Some ex_joint1
                           else if String.eqb n "j2" then Some ex_joint2 else None;
     tm_transforms := fun a b =>
       if String.eqb a "link" && String.eqb b "base" then Some (rigid_mul (j_child2parent ex_joint1) (joint_matrix ex_joint1 0))
       else if String.eqb a "tool" && String.eqb b "link" then Some (rigid_mul (j_child2parent ex_joint2) (joint_matrix ex_joint2 0))
       else None;
     tm_path := fun i j => match i, j with
                           | 2, 0 => ["tool"; "link"; "base"] | 0, 2 => ["base"; "link"; "tool"]
                           | _, _ => [] end%nat%string |}.
Definition ex_chain : chain :=
  {| ch_joint_names := ["j1"; "j2"]%string; ch_joint_limits := [(- PI, PI); (0, 1)]; ch_ee_index := 2; ch_base_index := 0 |}.

Lemma ex_robot_joints n j : tm_joints ex_robot n = Some j -> (n = "j1" /\ j = ex_joint1) \/ (n = "j2" /\ j = ex_joint2).
Proof.
  cbn. destruct (String.eqb_spec n "j1"); [intros [= <-]; auto|].
  destruct (String.eqb_spec n "j2"); [intros [= <-]; auto|discriminate].
Qed.

Lemma ex_rigid : rigid_robot ex_robot.
Proof.
  assert (R1 : is_rigid (rigid_mul (j_child2parent ex_joint1) (joint_matrix ex_joint1 0))).
  { apply is_rigid_mul; [apply rotation_one|apply is_rigid_joint]. unfold unit_v3; cbn; ring. }
  assert (R2 : is_rigid (rigid_mul (j_child2parent ex_joint2) (joint_matrix ex_joint2 0))).
  { apply is_rigid_mul; [apply rotation_one|apply is_rigid_joint]. unfold unit_v3; cbn; ring. }
  split.
  - intros a b t. cbn [ex_robot tm_transforms].
    destruct (String.eqb a "link" && String.eqb b "base"); [intros [= <-]; exact R1|].
    destruct (String.eqb a "tool" && String.eqb b "link"); [intros [= <-]; exact R2|discriminate].
  - intros n j Hj. destruct (ex_robot_joints n j Hj) as [[_ ->]|[_ ->]]; (split; [apply rotation_one|unfold unit_v3; cbn; ring]).
Qed.

Example C58_satisfiable :
  create_chain ex_robot ["j1"; "j2"]%string "base" "tool" = Ok ex_chain
  /\ separate_joints ex_robot /\ joint_limits_consistent ex_robot /\ configured ex_robot (fun _ => 0)
  /\ (exists m' t, forward ex_chain ex_robot [4; 7] = Ok (m', t))
  /\ nearest (j_limits ex_joint2) 7 1.
Proof.
  split; [reflexivity|]. split; [|split; [|split; [|split]]].
  - intros n n' j j' H1 H2 E1 E2. destruct (ex_robot_joints _ _ H1) as [[-> ->]|[-> ->]], (ex_robot_joints _ _ H2) as [[-> ->]|[-> ->]];
      reflexivity || discriminate.
  - intros n j H. destruct (ex_robot_joints _ _ H) as [[-> ->]|[-> ->]]; exists 0; split; cbn; intros b E; try discriminate; injection E as <-; lra.
  - intros n j H. destruct (ex_robot_joints _ _ H) as [[-> ->]|[-> ->]]; reflexivity.
  - apply C59_total; cbn; auto.
    + repeat split; left; discriminate.
    + intros n [<-|[<-|[]]]; cbn; discriminate.
  - replace 1 with (clip (j_limits ex_joint2) 7); [apply clip_nearest; exists 0; split; cbn; intros b [= <-]; lra|].
    cbn. rewrite Rmax_left, Rmin_right by lra. reflexivity.
Qed.

Example C59_satisfiable : rigid_robot ex_robot
  /\ connected ex_robot (tm_path ex_robot (ch_ee_index ex_chain) (ch_base_index ex_chain)).
Proof. split; [apply ex_rigid|]. cbn. repeat split; left; discriminate. Qed.

(** C71 fails for chains that leave out a joint on their path: moving it through another
    chain of the same robot changes the result. *)
Theorem C71_other_chain_refuted :
  exists m c c' q' m1 t1 q, create_chain m ["j2"]%string "base" "tool" = Ok c
  /\ create_chain m ["j1"]%string "base" "link" = Ok c'
  /\ forward c' m q' = Ok (m1, t1) /\ pose_of c m1 q <> pose_of c m q.
Proof.
  exists ex_robot. do 2 eexists. exists [PI]. do 2 eexists. exists [1].
  split; [reflexivity|]. split; [reflexivity|]. split; [reflexivity|].
  unfold pose_of, forward. cbn -[PI]. rewrite Rmax_left, Rmin_left by lra.
  intros E. injection E as E _. revert E. rewrite cos_PI, sin_PI, cos_0, sin_0. lra.
Qed.
