(** C81: files that are being written when the program is interrupted. *)
From Coq Require Import Reals ZArith List String Ascii Arith Bool Lia Lra.
From Verif Require Import M_Prelude M_Base M_SpringDamper M_IO M_IOClasses M_Files S_Json S_IO P_Files Properties_IO.
Import ListNotations.
Local Open Scope string_scope.
Local Open Scope list_scope.
Local Open Scope nat_scope.
Set Bullet Behavior "Strict Subproofs".

(** [write_json] interrupted after any number [k] of steps: the file is untouched, or it
    does not contain a JSON document (so that [read_json] raises), or it has been written
    completely. *)
Theorem C81_json_interrupted : forall nf obj old k, literal_numbers nf ->
  let steps := fst (write_json nf obj) in
  let e := snd (write_json nf obj) in
  let f := run_steps (firstn k steps) old in
  (f = old /\ (k = 0 \/ steps = []))
  \/ (exists t, f = Some t /\ ~ json_document t)
  \/ (e = None /\ List.length steps <= k /\ exists t, f = Some t /\ json_document t).
Proof.
  intros nf obj old k Hn steps e f. unfold f, e, steps, write_json.
  destruct (recursive_to_dict obj false) as [d|x]; [|left; rewrite firstn_nil; auto].
  pose proof (fun p q => emit_dict_prefix nf d p q Hn) as HP.
  pose proof (emit_good nf (VDict d) Hn) as [_ HG].
  destruct (json_emit nf (VDict d)) as [t x]. cbn [fst snd] in *.
  destruct k as [|k]; [left; auto|]. right.
  cbn [firstn]. rewrite firstn_map, run_write.
  destruct (Nat.leb_spec (List.length t) k) as [Hk|Hk].
  - rewrite firstn_all2 by exact Hk. destruct x as [x|].
    + left. exists t. split; auto. intros D. destruct (HP t [] (eq_sym (app_nil_r t)) D) as [_ E]. discriminate.
    + right. split; auto. split; [cbn; rewrite map_length; lia|]. exists t. split; auto. apply value_document. auto.
  - left. exists (firstn k t). split; auto. intros D.
    destruct (HP (firstn k t) (skipn k t) (eq_sym (firstn_skipn k t)) D) as [E _].
    apply (f_equal (@List.length ascii)) in E. rewrite skipn_length in E. cbn in E. lia.
Qed.

(** Without interruption and exception: the file contains one JSON document, whatever was
    there before; C57 says what it is read back as. *)
Theorem C81_json_completed : forall nf obj old, literal_numbers nf ->
  snd (write_json nf obj) = None ->
  exists t, (forall old', run_steps (fst (write_json nf obj)) old' = Some t) /\ json_document t
    /\ run_steps (fst (write_json nf obj)) old = Some t.
Proof.
  intros nf obj old Hn. unfold write_json. destruct (recursive_to_dict obj false) as [d|x]; [|discriminate].
  pose proof (emit_good nf (VDict d) Hn) as [_ HG]. destruct (json_emit nf (VDict d)) as [t x]. cbn [fst snd] in *.
  intros ->. exists t. split; [intro; apply run_write|]. split; [apply value_document; auto|apply run_write].
Qed.

(** [write_json] accepts exactly the objects for which C57 says what the file contains. *)
Lemma emit_none_iff nf v : snd (json_emit nf v) = None <-> exists v', json_file v = Ok v'.
Proof.
  assert (R : forall l, Forall (fun v => snd (json_emit nf v) = None <-> exists v', json_file v = Ok v') l ->
     (snd (emit_rest nf l) = None <-> exists l', (fix all l := match l with
                   | [] => Ok []
                   | x :: l => bind (json_file x) (fun x => bind (all l) (fun l => Ok (x :: l)))
                   end) l = Ok l')).
  { induction 1 as [|x l Hx _ IH]; [split; eauto|]. cbn [emit_rest]. split.
    - intros E. apply then_none in E. destruct E as (_ & E & _). apply then_none in E. destruct E as (E1 & E2 & _).
      apply Hx in E1. apply IH in E2. destruct E1 as [v' ->], E2 as [l' ->]. cbn. eauto.
    - intros [l' E]. destruct (json_file x) as [v'|]; [|discriminate]. cbn [bind] in E.
      match type of E with bind ?a _ = _ => destruct a as [l''|]; [|discriminate] end.
      unfold then_emit. cbn [out snd fst]. assert (E1 : snd (json_emit nf x) = None) by (apply Hx; eauto).
      rewrite E1. cbn [snd]. apply IH. eauto. }
  assert (L : forall l, Forall (fun v => snd (json_emit nf v) = None <-> exists v', json_file v = Ok v') l ->
     (snd (json_emit nf (VList l)) = None <-> exists v', json_file (VList l) = Ok v')).
  { intros l Hl. destruct l as [|x l]; [cbn; split; eauto|].
    assert (R' := R (x :: l) Hl). rewrite emit_list. split.
    - intros E. apply then_none in E. destruct E as (_ & E & _). rewrite then_assoc in E.
      apply then_none in E. destruct E as (E & _).
      assert (E' : snd (emit_rest nf (x :: l)) = None) by (cbn [emit_rest]; unfold then_emit at 1; cbn [out snd]; exact E).
      apply R' in E'. destruct E' as [l' E']. cbn [json_file]. rewrite E'. cbn. eauto.
    - intros [v' E]. cbn [json_file] in E.
      match type of E with rmap _ ?a = _ => destruct a as [l''|] eqn:EA; [|discriminate] end.
      assert (E' : snd (emit_rest nf (x :: l)) = None) by (apply R'; eauto).
      cbn [emit_rest] in E'. apply then_none in E'. destruct E' as (_ & E' & _).
      apply then_none_intro; [reflexivity|]. rewrite then_assoc. apply then_none_intro; [exact E'|reflexivity]. }
  induction v using value_induction; try (cbn; split; eauto; fail).
  - now apply L.
  - change (json_emit nf (VTuple l)) with (json_emit nf (VList l)).
    change (json_file (VTuple l)) with (json_file (VList l)). now apply L.
  - cbn. split; [discriminate|intros [? ?]; discriminate].
  - assert (R' : forall d, Forall (fun kv => snd (json_emit nf (snd kv)) = None <-> exists v', json_file (snd kv) = Ok v') d ->
     (snd (emit_members nf d) = None <-> exists d', (fix all (d : dict) := match d with
                   | [] => Ok []
                   | (k, x) :: d => bind (json_file x) (fun x => bind (all d) (fun d => Ok ((k, x) :: d)))
                   end) d = Ok d')).
    { induction 1 as [|[k x] d' Hx _ IH]; [split; eauto|]. cbn [emit_members snd] in *. split.
      - intros E. apply then_none in E. destruct E as (_ & E & _). apply then_none in E. destruct E as (_ & E & _).
        apply then_none in E. destruct E as (_ & E & _). apply then_none in E. destruct E as (E1 & E2 & _).
        apply Hx in E1. apply IH in E2. destruct E1 as [v' ->], E2 as [l' ->]. cbn. eauto.
      - intros [l' E]. destruct (json_file x) as [v'|]; [|discriminate]. cbn [bind] in E.
        match type of E with bind ?a _ = _ => destruct a as [l''|]; [|discriminate] end.
        unfold then_emit. cbn [out snd fst]. assert (E1 : snd (json_emit nf x) = None) by (apply Hx; eauto).
        rewrite E1. cbn [snd]. apply IH. eauto. }
    specialize (R' d H). destruct d as [|[k x] d]; [cbn; split; eauto|].
    rewrite emit_dict_body. split.
    + intros E. apply then_none in E. destruct E as (_ & E & _). apply then_none in E. destruct E as (E & _).
      assert (E' : snd (emit_members nf ((k, x) :: d)) = None)
        by (cbn [emit_members]; unfold then_emit at 1; cbn [out snd]; exact E).
      apply R' in E'. destruct E' as [l' E']. cbn [json_file]. rewrite E'. cbn. eauto.
    + intros [v' E]. cbn [json_file] in E.
      match type of E with rmap _ ?a = _ => destruct a as [l''|] eqn:EA; [|discriminate] end.
      assert (E' : snd (emit_members nf ((k, x) :: d)) = None) by (apply R'; eauto).
      cbn [emit_members] in E'. apply then_none in E'. destruct E' as (_ & E' & _).
      apply then_none_intro; [reflexivity|]. apply then_none_intro; [exact E'|reflexivity].
  - cbn. split; [discriminate|intros [? ?]; discriminate].
Qed.

Theorem C81_json_accepted : forall nf obj,
  snd (write_json nf obj) = None <->
  exists v, bind (recursive_to_dict obj false) (fun export => json_file (VDict export)) = Ok v.
Proof.
  intros nf obj. unfold write_json. destruct (recursive_to_dict obj false) as [d|x]; cbn [bind].
  - rewrite <- (emit_none_iff nf). destruct (json_emit nf (VDict d)). reflexivity.
  - split; [discriminate|intros [v E]; discriminate].
Qed.

(** An object that cannot be converted to a document leaves the file alone. *)
Theorem C81_unconvertible : forall nf obj old k e, recursive_to_dict obj false = Err e ->
  snd (write_json nf obj) = Some e /\ run_steps (firstn k (fst (write_json nf obj))) old = old.
Proof. intros nf obj old k e E. unfold write_json. rewrite E. cbn. rewrite firstn_nil. auto. Qed.

(** The previous content is gone as soon as the file is opened: for every object that is
    written, the first step leaves an empty file. *)
Theorem C81_old_content_refuted : forall nf obj t, literal_numbers nf ->
  snd (write_json nf obj) = None -> json_document t ->
  exists k, k <= List.length (fst (write_json nf obj))
    /\ run_steps (firstn k (fst (write_json nf obj))) (Some t) = Some []
    /\ ~ json_document [].
Proof.
  intros nf obj t Hn E Ht. unfold write_json in *. destruct (recursive_to_dict obj false) as [d|x]; [|discriminate].
  destruct (json_emit nf (VDict d)) as [u x]. exists 1. cbn. split; [lia|]. split; [reflexivity|].
  intros D. apply document_scan in D. tauto.
Qed.

(** Also without interruption: an object with a list of arrays is converted but raises
    TypeError while it is written, and the previous content is lost. *)
Theorem C81_unencodable_refuted : forall nf t a, literal_numbers nf -> json_document t ->
  let obj := VObj "module" "Class" [("trajectories", VList [VArray a])] in
  snd (write_json nf obj) = Some TypeError
  /\ exists t', run_steps (fst (write_json nf obj)) (Some t) = Some t' /\ ~ json_document t'.
Proof.
  intros nf t a Hn Ht obj.
  assert (E : snd (write_json nf obj) = Some TypeError) by reflexivity.
  split; [exact E|].
  destruct (C81_json_interrupted nf obj (Some t) (List.length (fst (write_json nf obj))) Hn) as [[_ [H|H]]|[H|[H _]]].
  - discriminate H.
  - discriminate H.
  - rewrite firstn_all in H. exact H.
  - rewrite E in H. discriminate H.
Qed.

(** YAML: the first entries of the document are a document.  As long as the module or
    the class is missing, reading raises. *)
Theorem C81_yaml_header : forall env entries, (dget "module" entries = None \/ dget "class" entries = None) ->
  exists e, read_yaml_entries env entries = Err e.
Proof.
  intros env entries H. unfold read_yaml_entries. destruct entries as [|kv l]; [cbn; eauto|].
  set (d := kv :: l) in *. clearbody d.
  destruct (yaml_file (VDict d)) as [v|e] eqn:E; cbn [bind]; [|eauto].
  cbn [yaml_file] in E.
  match type of E with rmap _ (?g d) = _ => set (all := g) in E end.
  assert (K : forall k d d', all d = Ok d' -> dget k d = None -> dget k d' = None).
  { intros k. induction d0 as [|[k' x] d0 IH]; intros d' E0 Hk.
    - cbn in E0. injection E0 as <-. reflexivity.
    - cbn in E0. destruct (yaml_file x) as [x'|]; [|discriminate]. cbn [bind] in E0.
      fold all in E0. destruct (all d0) as [d1|] eqn:E1; [|discriminate]. cbn [bind] in E0. injection E0 as <-.
      cbn [dget] in *. destruct (String.eqb k k'); [discriminate|]. eauto. }
  destruct (all d) as [d'|] eqn:E1; [|discriminate]. cbn in E. injection E as <-.
  unfold dict_to_object.
  assert (Hrem : forall k k' (d : dict), k <> k' -> dget k d = None -> dget k (dremove k' d) = None).
  { intros k k' d0 Hne. induction d0 as [|[k2 x] d0 IH]; intros Hk; [reflexivity|].
    cbn [dget dremove] in *. destruct (String.eqb_spec k k2); [discriminate|].
    destruct (String.eqb_spec k' k2); [auto|]. cbn [dget]. destruct (String.eqb_spec k k2); [congruence|]. auto. }
  destruct H as [H|H]; apply (K _ _ _ E1) in H.
  - rewrite H. eauto.
  - destruct (dget "module" d') as [[ | | | |s| | | | | | ]|]; eauto. destruct (env s) as [m|]; eauto.
    rewrite (Hrem "class" "module" d') by (discriminate || exact H). eauto.
Qed.

(** After that, an interrupted file is read without any error as another object: a
    spring-damper that starts at 1 comes back with start position 0. *)
Theorem C81_yaml_interrupted_refuted :
  let env := ex_modules "movement_primitives.spring_damper" "SpringDamper" class_SpringDamper in
  let base := ptp_init 1 1 in
  forall o, s_base o = {| p_n_dims := 1; p_n_vel_dims := 1; p_t := p_t base; p_last_t := p_last_t base;
      p_start_y := {| alen := 1; aget := fun _ => 1%R |}; p_start_yd := p_start_yd base;
      p_start_ydd := p_start_ydd base; p_goal_y := p_goal_y base; p_goal_yd := p_goal_yd base;
      p_goal_ydd := p_goal_ydd base; p_current_y := p_current_y base; p_current_yd := p_current_yd base |} ->
  let obj := VObj "movement_primitives.spring_damper" "SpringDamper" (sd_attrs (VFloat (s_k o)) (vlast (s_c o)) o) in
  exists entries k obj',
    yaml_entries obj = Ok entries /\ k < List.length entries
    /\ read_yaml_entries env (firstn k entries) = Ok obj' /\ ~ same_value true obj obj'.
Proof.
  intros env base o Eb obj.
  assert (exists entries d', yaml_entries obj = Ok entries /\ 14 < List.length entries
     /\ read_yaml_entries env (firstn 14 entries) = Ok (VObj "movement_primitives.spring_damper" "SpringDamper" d')
     /\ dget "start_y" d' = Some (varr 1 (fun _ => 0%R))) as (entries & d' & E1 & E2 & E3 & E4).
  { unfold obj, sd_attrs. rewrite Eb. destruct (s_c o); eexists; eexists;
      (split; [reflexivity|]; split; [cbn; lia|]; split; [reflexivity|reflexivity]). }
  exists entries, 14, (VObj "movement_primitives.spring_damper" "SpringDamper" d').
  repeat (split; [assumption|]). intros H. inversion H as [| | | |m c d d1 H1 H2]; subst.
  - discriminate.
  - destruct (H1 "start_y" (varr 1 (fun _ => 1%R))) as (v' & Ev & Hv).
    { unfold sd_attrs. rewrite Eb. reflexivity. }
    rewrite E4 in Ev. injection Ev as <-. unfold varr in Hv. cbn [seq map] in Hv.
    inversion Hv; [|lra]. discriminate.
Qed.

(** Numbers as words, and an object for which all of this applies. *)
Definition ex_numbers : number_format := {| float_text := fun _ => chars "0.5"; int_text := fun _ => chars "7" |}.
Example C81_satisfiable : literal_numbers ex_numbers
  /\ snd (write_json ex_numbers (VObj "movement_primitives.spring_damper" "SpringDamper"
       (sd_attrs (VFloat 1) VNone (sd_new 1 (1/100) 1 None (1/1000))))) = None
  /\ json_document (chars "{""a"": [1, true]}")
  /\ (exists e, recursive_to_dict (VObj "module" "Class" [("weights", VDict [])]) false = Err e)
  /\ (exists o, p_start_y (s_base o) = {| alen := 1; aget := fun _ => 1%R |}).
Proof.
  split.
  { split; intros; apply literal_check; (discriminate || reflexivity). }
  split; [reflexivity|]. split.
  { apply value_document.
    pose proof (emit_good ex_numbers (VDict [("a", VList [VInt 1; VBool true])])) as [_ G].
    { split; intros; apply literal_check; (discriminate || reflexivity). }
    apply (jv_object (chars """a"": [1, true]")).
    apply (jm_one [] (chars """a""") [] (chars "[1, true]") [" "%char]); try (constructor; fail).
    - apply (js_string ["a"%char]). apply sb_char; [discriminate|discriminate|constructor].
    - apply (jv_array (chars "1, true")). apply (je_more [] ["1"%char] [] (chars " true")); try (constructor; fail).
      + apply jv_literal; [discriminate|]. apply literal_check; (discriminate || reflexivity).
      + apply (je_one [" "%char] (chars "true") []); try (constructor; fail).
        * constructor; [cbn; auto|constructor].
        * apply jv_literal; [discriminate|]. apply literal_check; (discriminate || reflexivity).
    - constructor; [cbn; auto|constructor]. }
  split; [cbn; eauto|].
  exists {| s_base := {| p_n_dims := 1; p_n_vel_dims := 1; p_t := 0; p_last_t := None;
      p_start_y := {| alen := 1; aget := fun _ => 1%R |}; p_start_yd := zeros 1;
      p_start_ydd := zeros 1; p_goal_y := zeros 1; p_goal_yd := zeros 1;
      p_goal_ydd := zeros 1; p_current_y := zeros 1; p_current_yd := zeros 1 |};
     s_dt := 1; s_k := 1; s_c := None; s_int_dt := 1; s_initialized := false |}.
  reflexivity.
Qed.
