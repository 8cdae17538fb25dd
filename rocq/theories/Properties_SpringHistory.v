(** C124: spring-dampers can be used after every sequence of calls, rejected ones included, and
    their next step depends on the history only through what the attributes say.  Final
    statements. *)
From Coq Require Import Reals ZArith List Arith Bool Lia Lra.
From Verif Require Import M_Prelude M_Dmp M_Base M_SpringDamper M_Quaternion M_Cartesian
  S_Loops P_Loops P_Converge P_DmpObject Properties_SpringDamper Properties_Cartesian Properties_IO
  Properties_Orientation.
Import ListNotations.
Open Scope R_scope.
Set Bullet Behavior "Strict Subproofs".

(** ** Specification: histories *)
(** [dt], [k], [c] and [int_dt] are public attributes that may be assigned at any time. *)
Definition spring_attributes (dt k : R) (c : option R) (int_dt : R) (o : spring_damper) : spring_damper :=
  {| s_base := s_base o; s_dt := dt; s_k := k; s_c := c; s_int_dt := int_dt; s_initialized := s_initialized o |}.

(** Every call may be rejected: [configure] and [step] take arrays of any length. *)
Inductive spring_history (step : arr -> arr -> spring_damper -> spring_damper -> Prop) (new : spring_damper -> Prop)
    : spring_damper -> Prop :=
| sh_new o : new o -> spring_history step new o
| sh_configure c o : spring_history step new o -> spring_history step new (fst (sd_configure c o))
| sh_reset o : spring_history step new o -> spring_history step new (sd_reset o)
| sh_attributes dt k c int_dt o : spring_history step new o -> spring_history step new (spring_attributes dt k c int_dt o)
| sh_step y yd o o' : spring_history step new o -> step y yd o o' -> spring_history step new o'.

(** SpringDamper with [n] dimensions and SpringDamperOrientation. *)
Definition position_history (n : nat) : spring_damper -> Prop :=
  spring_history (fun y yd o o' => exists ct, o' = fst (sd_step y yd ct o))
    (fun o => exists dt k c int_dt, o = sd_new n dt k c int_dt).
Definition orientation_history : spring_damper -> Prop :=
  spring_history (fun y yd o o' => exists ct, o' = fst (sdo_step y yd ct o))
    (fun o => exists dt k c int_dt, o = sdo_new dt k c int_dt).

(** What the next step may depend on. *)
Definition same_settings (o1 o2 : spring_damper) : Prop :=
  s_dt o1 = s_dt o2 /\ s_k o1 = s_k o2 /\ s_c o1 = s_c o2 /\ s_int_dt o1 = s_int_dt o2
  /\ p_goal_y (s_base o1) = p_goal_y (s_base o2) /\ p_t (s_base o1) = p_t (s_base o2).

(** ** Proofs *)
Lemma configure_ptp_shapes n m c p : ptp_shapes n m p -> ptp_shapes n m (fst (configure c p)).
Proof.
  assert (G : forall c p, ptp_shapes n m p -> configure_valid c p -> ptp_shapes n m (configured c p)).
  { intros c0 p0 (H1 & H2 & H3 & H4 & H5 & H6 & H7 & H8 & H9 & H10) (V1 & V2 & V3 & V4 & V5 & V6).
    unfold ptp_shapes; simpl. rewrite H1, H2 in *.
    destruct (c_start_y c0), (c_start_yd c0), (c_start_ydd c0), (c_goal_y c0), (c_goal_yd c0), (c_goal_ydd c0);
      simpl in *; repeat split; auto. }
  intros H. destruct (configure_cases c p) as [[V ->] | [_ (k & _ & V & _ & ->)]]; cbn [fst]; auto.
Qed.

Lemma assign_slice_len t v x : assign_slice t v = Ok x -> alen x = alen t.
Proof.
  unfold assign_slice. destruct (Nat.eqb_spec (alen v) (alen t)); [intros E; injection E as <-; auto|].
  destruct (Nat.eqb _ _); [intros E; injection E as <-; reflexivity|discriminate].
Qed.

Lemma set_current_shapes n m y yd p : ptp_shapes n m p -> alen y = n -> alen yd = m -> ptp_shapes n m (set_current y yd p).
Proof. unfold ptp_shapes. cbn. tauto. Qed.

Ltac step_shapes_tac H :=
  let p := fresh "p" in
  match goal with |- context [if s_initialized ?o then ?a else ?b] => set (p := if s_initialized o then a else b) end;
  let P := fresh "P" in
  assert (P : ptp_shapes _ _ p) by (unfold p; destruct (s_initialized _); [exact H|apply set_current_shapes; [exact H|apply H|apply H]]);
  destruct (assign_slice (p_current_y p) _) as [a|] eqn:Ea; [|exact P];
  apply assign_slice_len in Ea; cbn [p_current_yd set_current s_base sd_with];
  destruct (assign_slice (p_current_yd p) _) as [b|] eqn:Eb;
  [apply assign_slice_len in Eb
  |cbn [fst s_base sd_with]; apply set_current_shapes; [exact P|rewrite Ea; apply P|apply P]].

Lemma sd_step_shapes n m y yd ct o : ptp_shapes n m (s_base o) -> ptp_shapes n m (s_base (fst (sd_step y yd ct o))).
Proof.
  intros H. unfold sd_step. cbv zeta. step_shapes_tac H.
  destruct (spring_damper_step _ _ _ _ _ _ _ _ _) as [[y' v']|]; cbn [fst s_base sd_with];
    (apply set_current_shapes; [exact P|cbn [alen]; rewrite Ea; apply P|cbn [alen]; rewrite Eb; apply P]).
Qed.

Lemma sdo_step_shapes n m y yd ct o : ptp_shapes n m (s_base o) -> ptp_shapes n m (s_base (fst (sdo_step y yd ct o))).
Proof.
  intros H. unfold sdo_step. cbv zeta. step_shapes_tac H.
  destruct (spring_damper_step_quaternion _ _ _ _ _ _ _ _ _) as [[y' v']|]; cbn [fst s_base sd_with];
    (apply set_current_shapes; [exact P|cbn [alen]; rewrite Ea; apply P|cbn [alen]; rewrite Eb; apply P]).
Qed.

Lemma history_shapes n m step new o : spring_history step new o ->
  (forall o, new o -> ptp_shapes n m (s_base o)) ->
  (forall y yd o o', step y yd o o' -> ptp_shapes n m (s_base o) -> ptp_shapes n m (s_base o')) ->
  ptp_shapes n m (s_base o).
Proof.
  intros H HN HS. induction H; auto.
  - unfold sd_configure. pose proof (configure_ptp_shapes n m c (s_base o) IHspring_history) as X.
    destruct (configure c (s_base o)) as [p e]. exact X.
  - eapply HS; eauto.
Qed.

Lemma position_shapes n o : position_history n o -> ptp_shapes n n (s_base o).
Proof.
  intros H. eapply history_shapes; [exact H| |].
  - intros o1 (dt & k & c & i & ->). repeat split.
  - intros y yd o1 o2 (ct & ->). apply sd_step_shapes.
Qed.

Lemma orientation_shapes o : orientation_history o -> ptp_shapes 4 3 (s_base o).
Proof.
  intros H. eapply history_shapes; [exact H| |].
  - intros o1 (dt & k & c & i & ->). repeat split.
  - intros y yd o1 o2 (ct & ->). apply sdo_step_shapes.
Qed.

(** ** C124 *)
(** After every history, arrays of the right length are accepted and lead to arrays of the right
    length; two objects with the same attributes, goal and clock answer the same, whatever was
    done with them before. *)
Theorem C124_positions : forall n o y yd ct, position_history n o -> alen y = n -> alen yd = n ->
  0 < s_dt o -> 0 < s_int_dt o ->
  exists o' y' yd', sd_step y yd ct o = (o', Ok (y', yd')) /\ alen y' = n /\ alen yd' = n
  /\ position_history n o'
  /\ (forall o2, position_history n o2 -> same_settings o o2 -> snd (sd_step y yd ct o2) = Ok (y', yd')).
Proof.
  intros n o y yd ct Hh Ly Lv Hdt Hi.
  assert (G : forall o, position_history n o -> 0 < s_dt o -> 0 < s_int_dt o -> exists s o',
     spring_damper_step (aget (p_goal_y (s_base o))) (s_k o) (s_c o) ct None (s_int_dt o)
      (p_t (s_base o)) (p_t (s_base o) + s_dt o) (aget y, aget yd) = Ok s
     /\ sd_step y yd ct o = (o', Ok ({| alen := n; aget := fst s |}, {| alen := n; aget := snd s |}))).
  { clear o Hh Hdt Hi. intros o Hh Hdt Hi. destruct (position_shapes n o Hh) as (_ & _ & S3 & S4 & _ & _ & _ & _ & S9 & S10).
    destruct (sd_step_eq o y yd ct) as (s & o' & E1 & E2 & _); try congruence; auto.
    exists s, o'. split; auto. now rewrite Ly, Lv in E2. }
  destruct (G o Hh Hdt Hi) as (s & o' & E1 & E2).
  do 3 eexists. split; [exact E2|]. split; [reflexivity|]. split; [reflexivity|]. split.
  - eapply sh_step; [exact Hh|]. exists ct. now rewrite E2.
  - intros o2 Hh2 (A1 & A2 & A3 & A4 & A5 & A6).
    destruct (G o2 Hh2 ltac:(rewrite <- A1; auto) ltac:(rewrite <- A4; auto)) as (s2 & o2' & F1 & F2).
    rewrite F2. cbn [snd]. rewrite <- A1, <- A2, <- A3, <- A4, <- A5, <- A6 in F1. rewrite E1 in F1. now injection F1 as <-.
Qed.

Theorem C124_orientations : forall o y yd ct, orientation_history o -> alen y = 4%nat -> alen yd = 3%nat ->
  0 < s_dt o -> 0 < s_int_dt o ->
  exists o' y' yd', sdo_step y yd ct o = (o', Ok (y', yd')) /\ alen y' = 4%nat /\ alen yd' = 3%nat
  /\ orientation_history o'
  /\ (forall o2, orientation_history o2 -> same_settings o o2 -> snd (sdo_step y yd ct o2) = Ok (y', yd')).
Proof.
  intros o y yd ct Hh Ly Lv Hdt Hi.
  assert (G : forall o, orientation_history o -> 0 < s_dt o -> 0 < s_int_dt o -> exists s o',
     spring_damper_step_quaternion (quat_of (aget (p_goal_y (s_base o)))) (s_k o) (s_c o) ct None (s_int_dt o)
      (p_t (s_base o)) (p_t (s_base o) + s_dt o) (quat_of (aget y), v3_of (aget yd)) = Ok s
     /\ sdo_step y yd ct o = (o', Ok ({| alen := 4; aget := vec_of_quat (fst s) |}, {| alen := 3; aget := vec_of_v3 (snd s) |}))).
  { clear o Hh Hdt Hi. intros o Hh Hdt Hi. destruct (orientation_shapes o Hh) as (_ & _ & S3 & S4 & _ & _ & _ & _ & S9 & S10).
    assert (E : exists q w, spring_damper_step_quaternion (quat_of (aget (p_goal_y (s_base o)))) (s_k o) (s_c o) ct None (s_int_dt o)
      (p_t (s_base o)) (p_t (s_base o) + s_dt o) (quat_of (aget y), v3_of (aget yd)) = Ok (q, w)).
    { unfold spring_damper_step_quaternion.
      destruct (substeps_tiles (p_t (s_base o)) (p_t (s_base o) + s_dt o) (s_int_dt o) Hi ltac:(lra)) as [l [_ Hs]].
      rewrite Hs. destruct (exec_substeps _ l _) as [q w]. eauto. }
    destruct E as (q & w & E). exists (q, w).
    destruct (sdo_step_intro y yd ct o q w (conj S3 (conj S4 (conj S9 S10))) Ly Lv E) as (o' & E2 & _).
    exists o'. split; auto. }
  destruct (G o Hh Hdt Hi) as (s & o' & E1 & E2).
  do 3 eexists. split; [exact E2|]. split; [reflexivity|]. split; [reflexivity|]. split.
  - eapply sh_step; [exact Hh|]. exists ct. now rewrite E2.
  - intros o2 Hh2 (A1 & A2 & A3 & A4 & A5 & A6).
    destruct (G o2 Hh2 ltac:(rewrite <- A1; auto) ltac:(rewrite <- A4; auto)) as (s2 & o2' & F1 & F2).
    rewrite F2. cbn [snd]. rewrite <- A1, <- A2, <- A3, <- A4, <- A5, <- A6 in F1. rewrite E1 in F1. now injection F1 as <-.
Qed.

(** Arrays of a wrong length are rejected with a ValueError, except that a single number is taken
    for all dimensions; the clock moves although the step is rejected. *)
Lemma slice_wrong t v : alen v <> alen t -> alen v <> 1%nat -> assign_slice t v = Err ValueError.
Proof.
  intros H1 H2. unfold assign_slice. destruct (Nat.eqb_spec (alen v) (alen t)); [lia|].
  destruct (Nat.eqb_spec (alen v) 1); [lia|reflexivity].
Qed.

Theorem C124_rejected : forall n o y yd ct, position_history n o -> (1 <= n)%nat ->
  alen y <> n /\ alen y <> 1%nat \/ alen y = n /\ alen yd <> n /\ alen yd <> 1%nat ->
  exists o', sd_step y yd ct o = (o', Err ValueError)
  /\ p_t (s_base o') = p_t (s_base o) + s_dt o /\ p_goal_y (s_base o') = p_goal_y (s_base o)
  /\ (p_current_y (s_base o') = y \/ alen y <> n).
Proof.
  intros n o y yd ct Hh Hn HB. destruct (position_shapes n o Hh) as (_ & _ & S3 & S4 & _ & _ & _ & _ & S9 & S10).
  unfold sd_step. cbv zeta.
  match goal with |- context [if s_initialized o then ?a else ?b] => set (p := if s_initialized o then a else b) end.
  assert (Pt : p_t p = p_t (s_base o) + s_dt o) by (unfold p; destruct (s_initialized o); reflexivity).
  assert (Pg : p_goal_y p = p_goal_y (s_base o)) by (unfold p; destruct (s_initialized o); reflexivity).
  assert (Py : alen (p_current_y p) = n /\ alen (p_current_yd p) = n) by (unfold p; destruct (s_initialized o); cbn; auto).
  destruct Py as [Py Pv]. destruct HB as [[B1 B2]|[B1 [B2 B3]]].
  - rewrite slice_wrong by congruence. eexists. split; [reflexivity|]. cbn. auto.
  - unfold assign_slice at 1. rewrite Py, B1, Nat.eqb_refl. cbn [p_current_yd set_current].
    rewrite slice_wrong by congruence. eexists. split; [reflexivity|]. cbn. auto.
Qed.

(** The lengths that C46, C93 and C121 ask for are those of every object. *)
Theorem C124_shapes : (forall n o, position_history n o -> sd_shapes o n)
  /\ (forall o, orientation_history o -> sdo_shapes o).
Proof.
  split.
  - intros n o H. pose proof (position_shapes n o H). unfold sd_shapes, ptp_shapes in *. tauto.
  - intros o H. pose proof (orientation_shapes o H). unfold sdo_shapes, ptp_shapes in *. tauto.
Qed.

(** A movement of a two-dimensional spring-damper after a rejected step and a rejected
    configuration. *)
Example C124_satisfiable : exists o, position_history 2 o /\ p_t (s_base o) = 1/10 /\ 0 < s_dt o /\ 0 < s_int_dt o
  /\ aget (p_goal_y (s_base o)) 1%nat = 1.
Proof.
  set (o0 := sd_new 2 (1/10) 4 None (1/1000)).
  set (o1 := fst (sd_configure {| c_t := None; c_start_y := None; c_start_yd := None; c_start_ydd := None;
     c_goal_y := Some {| alen := 2; aget := INR |}; c_goal_yd := Some {| alen := 3; aget := INR |}; c_goal_ydd := None |} o0)).
  exists (fst (sd_step {| alen := 3; aget := INR |} {| alen := 2; aget := INR |} None o1)).
  split.
  { eapply sh_step; [apply sh_configure, sh_new; repeat eexists|]. exists None. reflexivity. }
  cbn. repeat split; lra.
Qed.

Example C124_orientation_satisfiable : exists o, orientation_history o /\ 0 < s_dt o /\ 0 < s_int_dt o
  /\ quat_of (aget (p_goal_y (s_base o))) = Q4 0 1 0 0.
Proof.
  exists (fst (sd_configure {| c_t := None; c_start_y := None; c_start_yd := None; c_start_ydd := None;
     c_goal_y := Some {| alen := 4; aget := vec_of_quat (Q4 0 1 0 0) |}; c_goal_yd := None; c_goal_ydd := None |}
     (sdo_new (1/10) 4 None (1/1000)))).
  split; [apply sh_configure, sh_new; repeat eexists|]. cbn. repeat split; lra.
Qed.
