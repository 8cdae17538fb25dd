(** C75: testing/simulation.py, indices of joints and links. *)
From Coq Require Import Reals List Arith Bool Lia Lra ZArith String.
From Verif Require Import M_Prelude M_Base M_Robot.
Import ListNotations.
Set Bullet Behavior "Strict Subproofs".
Local Open Scope string_scope.
Local Open Scope nat_scope.

Definition movable (j : joint_info) : bool := negb (Z.eqb (j_type j) 4).

(** A robot as PyBullet describes it: names are unique, joint i moves link i, whose parent is the
    base (-1) or a link with a smaller index, and the type is a known one. *)
Record well_formed (robot : list joint_info) : Prop := {
  wf_names : NoDup (map j_name robot);
  wf_links : NoDup (map j_child robot);
  wf_parent : forall i j, nth_error robot i = Some j -> (-1 <= j_parent j < Z.of_nat i)%Z;
  wf_type : forall j, In j robot -> (0 <= j_type j <= 4)%Z
}.

Definition rank (robot : list joint_info) (i : nat) : nat := List.length (filter movable (firstn i robot)).

(** *** Closed forms *)
Fixpoint numbered {A} (i : nat) (l : list A) : list (A * nat) :=
  match l with [] => [] | x :: l => (x, i) :: numbered (S i) l end.

Lemma dict_set_new {K V} (eqb : K -> K -> bool) k (v : V) d :
  existsb (fun x => eqb (fst x) k) d = false -> dict_set eqb k v d = (d ++ [(k, v)])%list.
Proof.
  induction d as [|[k' v'] d IH]; cbn; [reflexivity|]. intros H. apply orb_false_iff in H. destruct H as [H1 H2].
  rewrite H1. now rewrite IH.
Qed.

Lemma numbered_app {A} (l m : list A) : forall i, numbered i (l ++ m)%list = (numbered i l ++ numbered (i + List.length l) m)%list.
Proof.
  induction l as [|x l IH]; intros i; cbn; [now rewrite Nat.add_0_r|]. rewrite IH. now rewrite Nat.add_succ_comm.
Qed.

Lemma numbered_fst {A} (l : list A) : forall i, map fst (numbered i l) = l.
Proof. induction l; intros i; cbn; [reflexivity|]. now rewrite IHl. Qed.

Lemma existsb_string_fst {V} (k : string) (d : list (string * V)) :
  ~ In k (map fst d) -> existsb (fun x => String.eqb (fst x) k) d = false.
Proof.
  induction d as [|[k' v] d IH]; cbn; [reflexivity|]. intros H. apply orb_false_iff. split.
  - apply String.eqb_neq. intros ->. apply H. now left.
  - apply IH. intros Hin. apply H. now right.
Qed.

Definition links_of (base : string) (children : list string) : list (Z * link_name) :=
  ((-1)%Z, Bytes base) :: map (fun x => (Z.of_nat (snd x), Str (fst x))) (numbered 0 children).

Definition after (base : string) (pre : list joint_info) : analysis :=
  {| last_link_idx := Z.of_nat (List.length pre) - 1;
     link_id_to_link_name := links_of base (map j_child pre);
     joint_name_to_joint_id := numbered 0 (map j_name pre);
     joint_name_to_joint_idx_ik := numbered 0 (map j_name (filter movable pre));
     joint_idx_ik := List.length (filter movable pre) |}.

Lemma numbered_snd {A} (l : list A) : forall i x, In x (numbered i l) -> i <= snd x < i + List.length l.
Proof.
  induction l as [|y l IH]; intros i x; cbn; [contradiction|]. intros [<-|H]; [cbn; lia|]. specialize (IH _ _ H). lia.
Qed.

Lemma joint_type_known z : (0 <= z <= 4)%Z -> exists k, joint_type z = Ok k /\ is_fixed k = (z =? 4)%Z.
Proof.
  intros H. assert (z = 0 \/ z = 1 \/ z = 2 \/ z = 3 \/ z = 4)%Z as [->|[->|[->|[->| ->]]]] by lia; eexists; split; reflexivity.
Qed.

Lemma analyze_joint_after base pre j :
  ~ In (j_name j) (map j_name pre) -> ~ In (j_child j) (map j_child pre) ->
  (-1 <= j_parent j <= Z.of_nat (List.length pre))%Z -> (0 <= j_type j <= 4)%Z ->
  analyze_joint (List.length pre) j (after base pre) = Ok (after base (pre ++ [j])%list).
Proof.
  intros Hn Hc Hp Ht. unfold analyze_joint.
  assert (E1 : existsb (fun x => link_name_eqb (snd x) (Str (j_child j))) (link_id_to_link_name (after base pre)) = false).
  { cbn [after link_id_to_link_name links_of existsb snd link_name_eqb orb].
    revert Hc. generalize 0 as i. induction (map j_child pre) as [|c l IH]; intros i Hc; cbn; [reflexivity|].
    apply orb_false_iff. split; [apply String.eqb_neq; intros ->; apply Hc; now left|]. apply IH. intros H. apply Hc. now right. }
  rewrite E1. cbn [last_link_idx after].
  assert (EL : dict_set Z.eqb (Z.of_nat (List.length pre) - 1 + 1)%Z (Str (j_child j)) (links_of base (map j_child pre))
             = links_of base (map j_child (pre ++ [j])%list)).
  { rewrite dict_set_new.
    - unfold links_of. rewrite map_app, numbered_app, map_app, map_length. cbn. repeat f_equal. lia.
    - match goal with |- ?x = false => destruct x eqn:Ex end; [|reflexivity]. exfalso. apply existsb_exists in Ex. destruct Ex as ((z & l) & Hin & He).
      apply Z.eqb_eq in He. cbn [fst] in He. destruct Hin as [Hin|Hin]; [injection Hin as <- <-; lia|].
      apply in_map_iff in Hin. destruct Hin as (x & Ex & Hx). injection Ex as <- <-.
      apply numbered_snd in Hx. rewrite map_length in Hx. lia. }
  cbn [link_id_to_link_name after]. rewrite EL.
  assert (EP : dict_has Z.eqb (j_parent j) (links_of base (map j_child (pre ++ [j])%list)) = true).
  { unfold dict_has. apply existsb_exists. unfold links_of.
    destruct (Z.eq_dec (j_parent j) (-1)) as [->|Hne]; [eexists; split; [left; reflexivity|reflexivity]|].
    assert (Hlt : (Z.to_nat (j_parent j) < List.length (map j_child (pre ++ [j])%list))%nat)
      by (rewrite map_length, app_length; cbn; lia).
    assert (G : forall (l : list string) i k, (k < List.length l)%nat -> exists c, In (c, i + k)%nat (numbered i l)).
    { clear. induction l as [|c l IH]; intros i k Hk; cbn in Hk; [lia|]. destruct k as [|k].
      - exists c. left. now rewrite Nat.add_0_r.
      - destruct (IH (S i) k ltac:(lia)) as [c' Hc']. exists c'. right. now rewrite Nat.add_succ_comm in Hc'. }
    destruct (G _ 0%nat _ Hlt) as [c Hc']. exists (Z.of_nat (Z.to_nat (j_parent j)), Str c). split.
    - right. apply in_map_iff. exists (c, Z.to_nat (j_parent j)). split; [reflexivity|exact Hc'].
    - cbn [fst]. apply Z.eqb_eq. lia. }
  rewrite EP. cbn [negb].
  assert (EI : dict_set String.eqb (j_name j) (List.length pre) (joint_name_to_joint_id (after base pre))
             = numbered 0 (map j_name (pre ++ [j])%list)).
  { cbn [after joint_name_to_joint_id]. rewrite dict_set_new.
    - rewrite map_app, numbered_app, map_length. reflexivity.
    - apply existsb_string_fst. now rewrite numbered_fst. }
  rewrite EI. destruct (joint_type_known _ Ht) as (k & -> & Ek). cbn [bind]. f_equal.
  assert (Em : movable j = negb (is_fixed k)) by (unfold movable; now rewrite Ek).
  unfold after at 3. unfold after. rewrite filter_app, !app_length. cbn [filter List.length]. rewrite Em.
  destruct (is_fixed k); cbn [negb List.length joint_name_to_joint_idx_ik joint_idx_ik].
  - rewrite app_nil_r, Nat.add_0_r. f_equal. lia.
  - f_equal; [lia| |lia]. rewrite dict_set_new.
    + rewrite map_app, numbered_app, map_length. reflexivity.
    + apply existsb_string_fst. rewrite numbered_fst. intros Hin. apply Hn.
      apply in_map_iff in Hin. destruct Hin as (x & <- & Hx). apply filter_In in Hx. apply in_map. tauto.
Qed.

Lemma analyze_joints_after base : forall robot pre, well_formed (pre ++ robot)%list ->
  analyze_joints (List.length pre) robot (after base pre) = Ok (after base (pre ++ robot)%list).
Proof.
  induction robot as [|j robot IH]; intros pre Hw; cbn [analyze_joints]; [now rewrite app_nil_r|].
  assert (Hw' := Hw). destruct Hw' as [W1 W2 W3 W4]. rewrite !map_app in W1, W2. cbn [map] in W1, W2.
  rewrite analyze_joint_after.
  - cbn [bind]. specialize (IH (pre ++ [j])%list). rewrite app_length, Nat.add_1_r in IH. rewrite <- app_assoc in IH.
    apply IH. exact Hw.
  - apply NoDup_remove_2 in W1. intros H. apply W1. apply in_or_app. now left.
  - apply NoDup_remove_2 in W2. intros H. apply W2. apply in_or_app. now left.
  - specialize (W3 (List.length pre) j). rewrite nth_error_app2 in W3 by lia. rewrite Nat.sub_diag in W3. specialize (W3 eq_refl). lia.
  - apply W4. apply in_or_app. right. now left.
Qed.

Lemma dict_get_numbered (l : list string) : NoDup l -> forall i k s, nth_error l k = Some s ->
  dict_get String.eqb s (numbered i l) = Ok (i + k).
Proof.
  induction 1 as [|x l Hx Hl IH]; intros i k s E; [now destruct k|]. cbn. destruct k as [|k].
  - injection E as ->. rewrite String.eqb_refl. now rewrite Nat.add_0_r.
  - cbn in E. destruct (String.eqb_spec x s) as [->|].
    + exfalso. apply Hx. eapply nth_error_In; exact E.
    + rewrite (IH (S i) k s E). now rewrite Nat.add_succ_comm.
Qed.

Lemma dict_get_missing {V} (s : string) (d : list (string * V)) : ~ In s (map fst d) -> dict_get String.eqb s d = Err KeyError.
Proof.
  induction d as [|[k v] d IH]; cbn; [reflexivity|]. intros H. destruct (String.eqb_spec k s) as [->|]; [|apply IH]; intuition.
Qed.

Lemma invert_links base children : NoDup children ->
  fold_left (fun d x => dict_set link_name_eqb (snd x) (fst x) d) (links_of base children) []
  = (Bytes base, (-1)%Z) :: map (fun x => (Str (fst x), Z.of_nat (snd x))) (numbered 0 children).
Proof.
  intros H. unfold links_of. cbn [fold_left dict_set snd fst].
  assert (G : forall l i d, NoDup l -> (forall s, In s l -> existsb (fun x => link_name_eqb (fst x) (Str s)) d = false) ->
    fold_left (fun d x => dict_set link_name_eqb (snd x) (fst x) d) (map (fun x => (Z.of_nat (snd x), Str (fst x))) (numbered i l)) d
    = (d ++ map (fun x => (Str (fst x), Z.of_nat (snd x))) (numbered i l))%list).
  { induction l as [|c l IH]; intros i d Hn Hd; cbn [numbered map fold_left snd fst]; [now rewrite app_nil_r|].
    inversion Hn as [|? ? Hc Hl]; subst. rewrite dict_set_new by (apply Hd; now left).
    rewrite IH; [now rewrite <- app_assoc|exact Hl|]. intros s Hs. rewrite existsb_app. rewrite Hd by (now right). cbn.
    rewrite orb_false_r. apply String.eqb_neq. intros ->. contradiction. }
  rewrite G; [reflexivity|exact H|]. intros s _. reflexivity.
Qed.

Lemma analyze_robot_closed base robot : well_formed robot ->
  analyze_robot base robot = Ok (numbered 0 (map j_name robot),
    (Bytes base, (-1)%Z) :: map (fun x => (Str (fst x), Z.of_nat (snd x))) (numbered 0 (map j_child robot)),
    numbered 0 (map j_name (filter movable robot))).
Proof.
  intros H. unfold analyze_robot.
  change {| last_link_idx := -1; link_id_to_link_name := [((-1)%Z, Bytes base)];
            joint_name_to_joint_id := []; joint_name_to_joint_idx_ik := []; joint_idx_ik := 0 |} with (after base []).
  change 0%nat with (List.length (@nil joint_info)) at 1.
  rewrite (analyze_joints_after base robot []) by exact H. cbn [bind app]. unfold after.
  cbn [joint_name_to_joint_id link_id_to_link_name joint_name_to_joint_idx_ik].
  rewrite invert_links; [reflexivity|]. apply (wf_links _ H).
Qed.

Lemma filter_nodup {A B} (f : A -> B) p (l : list A) : NoDup (map f l) -> NoDup (map f (filter p l)).
Proof.
  induction l as [|x l IH]; cbn; [auto|]. intros H. inversion H as [|? ? H1 H2]; subst. destruct (p x); [|auto].
  cbn. constructor; [|auto]. intros Hin. apply H1. apply in_map_iff in Hin. destruct Hin as (y & E & Hy).
  apply filter_In in Hy. rewrite <- E. apply in_map. tauto.
Qed.

Lemma filter_rank {A} p (l : list A) : forall i x, nth_error l i = Some x -> p x = true ->
  nth_error (filter p l) (List.length (filter p (firstn i l))) = Some x.
Proof.
  induction l as [|y l IH]; intros i x E Hp; [now destruct i|]. destruct i as [|i].
  - injection E as ->. cbn. now rewrite Hp.
  - cbn [firstn filter]. destruct (p y); cbn; apply IH; auto.
Qed.

(** *** The properties *)

(** For every robot: the index of a joint, of the link it moves, and its position in the
    result of inverse kinematics (the number of movable joints before it; fixed joints have
    none). *)
Theorem C75_indices : forall base robot, well_formed robot ->
  exists ids links ik, analyze_robot base robot = Ok (ids, links, ik)
  /\ forall i j, nth_error robot i = Some j ->
     dict_get String.eqb (j_name j) ids = Ok i
     /\ dict_get link_name_eqb (Str (j_child j)) links = Ok (Z.of_nat i)
     /\ dict_get String.eqb (j_name j) ik = if movable j then Ok (rank robot i) else Err KeyError.
Proof.
  intros base robot H. rewrite (analyze_robot_closed base robot H). do 3 eexists. split; [reflexivity|].
  intros i j Hj. split; [|split].
  - apply (dict_get_numbered _ (wf_names _ H) 0). now apply map_nth_error.
  - cbn [dict_get link_name_eqb].
    assert (G : forall l, NoDup l -> forall i0 k s, nth_error l k = Some s ->
      dict_get link_name_eqb (Str s) (map (fun x => (Str (fst x), Z.of_nat (snd x))) (numbered i0 l)) = Ok (Z.of_nat (i0 + k))).
    { induction 1 as [|x l Hx Hl IH]; intros i0 k s E; [now destruct k|]. cbn. destruct k as [|k].
      - injection E as ->. rewrite String.eqb_refl. now rewrite Nat.add_0_r.
      - cbn in E. destruct (String.eqb_spec x s) as [->|].
        + exfalso. apply Hx. eapply nth_error_In; exact E.
        + rewrite (IH (S i0) k s E). now rewrite Nat.add_succ_comm. }
    apply (G _ (wf_links _ H) 0). now apply map_nth_error.
  - destruct (movable j) eqn:Em.
    + apply (dict_get_numbered _ (filter_nodup _ _ _ (wf_names _ H)) 0). apply map_nth_error. now apply filter_rank.
    + apply dict_get_missing. rewrite numbered_fst. intros Hin. apply in_map_iff in Hin. destruct Hin as (x & En & Hx).
      apply filter_In in Hx. destruct Hx as [Hx Hm]. destruct (In_nth_error _ _ Hx) as [m Hm'].
      assert (m = i).
      { eapply (NoDup_nth_error (map j_name robot)); [apply (wf_names _ H)|rewrite map_length; apply nth_error_Some; congruence|].
        rewrite (map_nth_error _ _ _ Hm'), (map_nth_error _ _ _ Hj). now rewrite En. }
      subst m. congruence.
Qed.

(** Inverse kinematics returns one value per movable joint, in the order of the joints
    (PyBullet's contract); the chain returns those of its joints, in the requested order,
    whatever other joints the robot has. *)
Theorem C75_chain : forall base robot joints (solution : joint_info -> R) q chain, well_formed robot ->
  alen q = List.length (filter movable robot) ->
  (forall i j, nth_error robot i = Some j -> movable j = true -> aget q (rank robot i) = solution j) ->
  Forall (fun j => In j robot /\ movable j = true) chain -> joints = map j_name chain ->
  chain_inverse base robot joints q = Ok (map solution chain).
Proof.
  intros base robot joints solution q chain Hw Hq Hs Hc ->. unfold chain_inverse.
  destruct (C75_indices base robot Hw) as (ids & links & ik & -> & H). cbn [bind].
  assert (G : exists idx, dict_get_all String.eqb (map j_name chain) ik = Ok idx /\ take_indices q idx = Ok (map solution chain)).
  { induction Hc as [|j chain [Hin Hm] Hc IH]; [exists []; split; reflexivity|].
    destruct IH as (idx & E1 & E2). destruct (In_nth_error _ _ Hin) as [i Hi].
    destruct (H i j Hi) as (_ & _ & Hk). rewrite Hm in Hk. exists (rank robot i :: idx). cbn [map dict_get_all].
    rewrite Hk. cbn [bind]. rewrite E1. cbn [bind]. split; [reflexivity|]. cbn [take_indices].
    assert (Hlt : rank robot i < alen q).
    { rewrite Hq. apply nth_error_Some. unfold rank. rewrite (filter_rank movable robot i j Hi Hm). discriminate. }
    apply Nat.ltb_lt in Hlt. rewrite Hlt, E2. cbn [bind]. now rewrite (Hs i j Hi Hm). }
  destruct G as (idx & -> & E). cbn [bind]. exact E.
Qed.

(** The base link cannot be found under its name. *)
Theorem C75_base_link_refuted : forall base robot, well_formed robot -> ~ In base (map j_child robot) ->
  exists ids links ik, analyze_robot base robot = Ok (ids, links, ik)
  /\ dict_get link_name_eqb (Str base) links = Err KeyError
  /\ dict_get link_name_eqb (Bytes base) links = Ok (-1)%Z.
Proof.
  intros base robot H Hb. rewrite (analyze_robot_closed base robot H). do 3 eexists. split; [reflexivity|].
  split; [|cbn; now rewrite String.eqb_refl]. cbn [dict_get link_name_eqb].
  revert Hb. generalize 0 as i. induction (map j_child robot) as [|c l IH]; intros i Hb; cbn; [reflexivity|].
  destruct (String.eqb_spec c base) as [->|]; [exfalso; apply Hb; now left|]. apply IH. intros Hi. apply Hb. now right.
Qed.

(** Names that are not unique: the last joint with a name counts. *)
Lemma dict_get_set {V} k k' (v : V) d :
  dict_get String.eqb k' (dict_set String.eqb k v d)
  = if String.eqb k k' then Ok v else dict_get String.eqb k' d.
Proof.
  induction d as [|[k0 v0] d IH]; cbn [dict_set dict_get].
  - reflexivity.
  - destruct (String.eqb_spec k0 k) as [->|N].
    + cbn [dict_get]. destruct (String.eqb k k'); reflexivity.
    + cbn [dict_get]. rewrite IH. destruct (String.eqb_spec k0 k') as [->|]; [|reflexivity].
      destruct (String.eqb_spec k k') as [->|]; [now contradiction N|reflexivity].
Qed.

Lemma analyze_joint_get i0 j a a' name : analyze_joint i0 j a = Ok a' ->
  dict_get String.eqb name (joint_name_to_joint_id a')
    = (if String.eqb (j_name j) name then Ok i0 else dict_get String.eqb name (joint_name_to_joint_id a))
  /\ dict_get String.eqb name (joint_name_to_joint_idx_ik a')
    = (if movable j && String.eqb (j_name j) name then Ok (joint_idx_ik a)
       else dict_get String.eqb name (joint_name_to_joint_idx_ik a))
  /\ joint_idx_ik a' = joint_idx_ik a + (if movable j then 1 else 0).
Proof.
  unfold analyze_joint. destruct (existsb _ _); (destruct (negb _); [discriminate|]);
    unfold joint_type, movable; destruct (j_type j) as [|p|p]; try discriminate;
    try (destruct p as [p|p|]; try discriminate; try (destruct p as [p|p|]; try discriminate;
      try (destruct p as [p|p|]; try discriminate)));
    cbn [bind is_fixed]; intros E; injection E as <-;
    cbn [joint_name_to_joint_id joint_name_to_joint_idx_ik joint_idx_ik Z.eqb Pos.eqb negb andb];
    rewrite ?dict_get_set; repeat split; lia.
Qed.

Lemma analyze_joints_get name : forall robot i0 a a', analyze_joints i0 robot a = Ok a' ->
  (~ In name (map j_name robot) ->
     dict_get String.eqb name (joint_name_to_joint_id a') = dict_get String.eqb name (joint_name_to_joint_id a))
  /\ (~ In name (map j_name (filter movable robot)) ->
     dict_get String.eqb name (joint_name_to_joint_idx_ik a') = dict_get String.eqb name (joint_name_to_joint_idx_ik a))
  /\ (forall i j, nth_error robot i = Some j -> j_name j = name ->
       (~ In name (map j_name (skipn (S i) robot)) ->
          dict_get String.eqb name (joint_name_to_joint_id a') = Ok (i0 + i))
       /\ (movable j = true -> ~ In name (map j_name (filter movable (skipn (S i) robot))) ->
          dict_get String.eqb name (joint_name_to_joint_idx_ik a') = Ok (joint_idx_ik a + rank robot i))).
Proof.
  induction robot as [|j0 robot IH]; intros i0 a a' E.
  - cbn in E. injection E as <-. repeat split; auto; destruct i; discriminate.
  - cbn [analyze_joints] in E. destruct (analyze_joint i0 j0 a) as [a1|e] eqn:E1; [|discriminate]. cbn [bind] in E.
    destruct (analyze_joint_get i0 j0 a a1 name E1) as (G1 & G2 & G3).
    destruct (IH (S i0) a1 a' E) as (H1 & H2 & H3). split; [|split].
    + cbn [map In]. intros N. rewrite H1 by tauto. rewrite G1.
      destruct (String.eqb_spec (j_name j0) name); [tauto|reflexivity].
    + cbn [filter]. intros N. rewrite H2, G2.
      * destruct (movable j0); [|reflexivity]. cbn [map In andb] in *.
        destruct (String.eqb_spec (j_name j0) name); [tauto|reflexivity].
      * destruct (movable j0); [|exact N]. cbn [map In] in N. tauto.
    + intros [|i] j Hj Hn; cbn [nth_error skipn] in *.
      * injection Hj as ->. split.
        { intros N. rewrite H1 by exact N. rewrite G1, Hn, String.eqb_refl. f_equal. lia. }
        { intros Hm N. rewrite H2 by exact N. rewrite G2, Hm, Hn, String.eqb_refl. cbn [andb]. f_equal.
          unfold rank. cbn. lia. }
      * destruct (H3 i j Hj Hn) as [K1 K2]. split.
        { intros N. rewrite K1 by exact N. f_equal. lia. }
        { intros Hm N. rewrite K2 by auto. f_equal. rewrite G3. unfold rank. cbn [firstn filter].
          destruct (movable j0); cbn [List.length]; lia. }
Qed.

Theorem C75_repeated_names : forall base robot ids links ik, analyze_robot base robot = Ok (ids, links, ik) ->
  forall i j, nth_error robot i = Some j ->
  (~ In (j_name j) (map j_name (skipn (S i) robot)) -> dict_get String.eqb (j_name j) ids = Ok i)
  /\ (movable j = true -> ~ In (j_name j) (map j_name (filter movable (skipn (S i) robot))) ->
      dict_get String.eqb (j_name j) ik = Ok (rank robot i)).
Proof.
  intros base robot ids links ik E i j Hj. unfold analyze_robot in E.
  destruct (analyze_joints 0 robot _) as [a|e] eqn:Ea; [|discriminate]. cbn [bind] in E. injection E as <- <- <-.
  destruct (analyze_joints_get (j_name j) robot 0 _ _ Ea) as (_ & _ & H).
  exact (H i j Hj eq_refl).
Qed.

(** A robot with two joints of the same name. *)
Example C75_repeated_satisfiable :
  let robot := [{| j_name := "a"; j_type := 0; j_child := "l1"; j_parent := -1 |};
                {| j_name := "b"; j_type := 0; j_child := "l2"; j_parent := 0 |};
                {| j_name := "a"; j_type := 1; j_child := "l3"; j_parent := 1 |}]%Z in
  exists links, analyze_robot "base" robot = Ok ([("a", 2); ("b", 1)], links, [("a", 2); ("b", 1)]).
Proof. eexists. reflexivity. Qed.

(** Both arms of RH5Simulation: what inverse kinematics puts together,
    [set_desired_joint_state] takes apart. *)
Theorem C75_arms : forall left right, let n := alen left in
  let '(l, r) := rh5_split n (rh5_join n left right) in
  alen l = alen left /\ alen r = alen right
  /\ (forall k, k < alen left -> aget l k = aget left k)
  /\ (forall k, k < alen right -> aget r k = aget right k).
Proof.
  intros left right n. unfold rh5_split, rh5_join. cbn [alen aget]. unfold n. split; [lia|]. split; [lia|]. split; intros k Hk.
  - destruct (Nat.ltb_spec k (alen left)); [reflexivity|lia].
  - destruct (Nat.ltb_spec (alen left + k) (alen left)); [lia|]. f_equal. lia.
Qed.

Example C75_satisfiable :
  let robot := [{| j_name := "a"; j_type := 0; j_child := "l1"; j_parent := -1 |};
                {| j_name := "b"; j_type := 4; j_child := "l2"; j_parent := 0 |};
                {| j_name := "c"; j_type := 1; j_child := "l3"; j_parent := 1 |}]%Z in
  well_formed robot
  /\ chain_inverse "base" robot ["c"; "a"] {| alen := 2; aget := INR |} = Ok [1%R; 0%R].
Proof.
  cbv zeta. split; [|reflexivity]. constructor.
  - repeat constructor; cbn; intuition discriminate.
  - repeat constructor; cbn; intuition discriminate.
  - intros [|[|[|[|i]]]] j E; cbn in E; try discriminate; injection E as <-; cbn; lia.
  - intros j [<-|[<-|[<-|[]]]]; cbn; lia.
Qed.
