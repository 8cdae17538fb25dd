(** Proofs about the model of io.py (M_IO.v). *)
From Coq Require Import Reals ZArith List String Arith Bool Lia.
From Verif Require Import M_Prelude M_IO S_IO.
Import ListNotations.
Set Bullet Behavior "Strict Subproofs".
Local Open Scope string_scope.

(** ** Dictionaries *)
Lemma dget_dset k k' v d : dget k (dset k' v d) = if String.eqb k k' then Some v else dget k d.
Proof.
  induction d as [|[k1 v1] d IH]; cbn [dset dget].
  - reflexivity.
  - destruct (String.eqb_spec k' k1) as [->|H']; cbn [dget].
    + destruct (String.eqb_spec k k1); reflexivity.
    + rewrite IH. destruct (String.eqb_spec k k1) as [->|H]; [|reflexivity].
      destruct (String.eqb_spec k1 k'); [congruence|reflexivity].
Qed.

Lemma dget_in k d : dget k d <> None <-> In k (map fst d).
Proof.
  induction d as [|[k1 v1] d IH]; cbn; [intuition|].
  destruct (String.eqb_spec k k1) as [->|H]; [intuition congruence|].
  rewrite IH. intuition congruence.
Qed.

Lemma dget_none k d : ~ In k (map fst d) -> dget k d = None.
Proof.
  intros H. destruct (dget k d) eqn:E; [|reflexivity]. exfalso. apply H. apply dget_in. congruence.
Qed.

Lemma dget_some_in k v d : dget k d = Some v -> In (k, v) d.
Proof.
  induction d as [|[k1 v1] d IH]; cbn; [discriminate|].
  destruct (String.eqb_spec k k1) as [->|H]; [intros E; injection E as ->; now left|].
  intros E. right. auto.
Qed.

Lemma in_dget k v d : NoDup (map fst d) -> In (k, v) d -> dget k d = Some v.
Proof.
  induction d as [|[k1 v1] d IH]; cbn; [intuition|]. intros Hn [E|E]; inversion Hn; subst.
  - injection E as -> ->. now rewrite String.eqb_refl.
  - destruct (String.eqb_spec k k1) as [->|H]; [|auto].
    exfalso. apply H1. change k1 with (fst (k1, v)). now apply in_map.
Qed.

Lemma dset_fresh k v d : ~ In k (map fst d) -> dset k v d = (d ++ [(k, v)])%list.
Proof.
  induction d as [|[k1 v1] d IH]; cbn; [reflexivity|]. intros H.
  destruct (String.eqb_spec k k1) as [->|H1]; [intuition|]. f_equal. apply IH. intuition.
Qed.

Lemma dremove_keys k d : NoDup (map fst d) -> NoDup (map fst (dremove k d))
  /\ (forall k', In k' (map fst (dremove k d)) <-> In k' (map fst d) /\ k' <> k)
  /\ (forall k' v, In (k', v) (dremove k d) <-> In (k', v) d /\ k' <> k).
Proof.
  induction d as [|[k1 v1] d IH]; cbn; intros Hn.
  - repeat split; intuition.
  - inversion Hn as [|x l Hx Hl]; subst. destruct (IH Hl) as (A & B & C).
    destruct (String.eqb_spec k k1) as [->|H1].
    + split; [exact Hl|]. split.
      * intros k'. split; [|intuition congruence]. intros Hi. split; [now right|]. intros ->. contradiction.
      * intros k' v. split; [|intuition congruence]. intros Hi. split; [now right|]. intros ->.
        apply Hx. change k1 with (fst (k1, v)). now apply in_map.
    + cbn. split; [constructor; auto; rewrite B; intuition|]. split.
      * intros k'. rewrite B. intuition congruence.
      * intros k' v. rewrite C. intuition congruence.
Qed.

Lemma dget_dremove k k' d : NoDup (map fst d) ->
  dget k (dremove k' d) = if String.eqb k k' then None else dget k d.
Proof.
  intros Hn. destruct (dremove_keys k' d Hn) as (A & B & C).
  destruct (String.eqb_spec k k') as [->|H].
  - apply dget_none. rewrite B. intuition.
  - destruct (dget k d) as [v|] eqn:E.
    + apply in_dget; auto. apply C. split; auto. now apply dget_some_in.
    + apply dget_none. rewrite B. intros [Hi _]. apply dget_in in Hi. congruence.
Qed.

(** ** Arrays *)
Lemma chunks_length {A} n size (l : list A) : List.length (chunks n size l) = n.
Proof. revert l. induction n; cbn; auto. Qed.

Lemma np_shape_tolist sh : Forall (fun n => (1 <= n)%nat) sh -> forall flat, np_shape (tolist sh flat) = sh.
Proof.
  induction 1 as [|n sh Hn Hsh IH]; intros flat.
  - cbn. destruct flat as [|[z|x] l]; reflexivity.
  - destruct n as [|n]; [lia|]. cbn. rewrite map_length, chunks_length, IH. reflexivity.
Qed.

Lemma np_leaves_tolist sh : forall flat, List.length flat = prod sh -> np_leaves sh (tolist sh flat) = Ok flat.
Proof.
  induction sh as [|n sh IH]; intros flat Hl.
  - cbn in Hl. destruct flat as [|x [|y l]]; try discriminate. destruct x; reflexivity.
  - cbn [tolist np_leaves]. rewrite map_length, chunks_length, Nat.eqb_refl. cbn [prod] in Hl.
    revert flat Hl. induction n as [|n IHn]; intros flat Hl.
    + cbn in *. destruct flat; [reflexivity|discriminate].
    + cbn [chunks map bind_all].
      rewrite IH by (rewrite firstn_length; cbn [Nat.mul] in Hl; lia). cbn [bind].
      rewrite IHn by (rewrite skipn_length; cbn [Nat.mul] in Hl; lia). cbn [bind].
      now rewrite firstn_skipn.
Qed.

Lemma common_type_same l :
  Forall (fun x => is_float x = true) l \/ Forall (fun x => is_float x = false) l -> common_type l = l.
Proof.
  unfold common_type. intros [H|H].
  - destruct (existsb is_float l); [|reflexivity].
    induction H as [|x l Hx Hl IH]; [reflexivity|]. cbn. rewrite IH. now destruct x.
  - destruct (existsb is_float l) eqn:E; [|reflexivity]. exfalso.
    apply existsb_exists in E. destruct E as (x & Hi & Hx). rewrite Forall_forall in H.
    rewrite (H x Hi) in Hx. discriminate.
Qed.

Lemma np_array_tolist a : plain_array a -> np_array (tolist (nd_shape a) (nd_flat a)) = Ok a.
Proof.
  intros (_ & Hp & Hl & Ht). unfold np_array. rewrite np_shape_tolist by auto.
  rewrite np_leaves_tolist by auto. cbn [bind]. rewrite common_type_same by auto. now destruct a.
Qed.

(** ** Files *)
Definition file (f : format) : value -> res value := match f with JSON => json_file | YAML => yaml_file end.

Lemma file_list f (g : value -> value) l :
  (forall x, In x l -> file f x = Ok (g x)) -> file f (VList l) = Ok (VList (map g l)).
Proof.
  intros H. destruct f; cbn [file json_file yaml_file].
  - assert (E : (fix all l := match l with
                   | [] => Ok []
                   | x :: l => bind (json_file x) (fun x => bind (all l) (fun l => Ok (x :: l)))
                   end) l = Ok (map g l)); [|now rewrite E].
    induction l as [|x l IH]; [reflexivity|]. cbn [map].
    pose proof (H x (or_introl eq_refl)) as Hx. cbn [file] in Hx. rewrite Hx. cbn [bind].
    rewrite IH by (intros; apply H; now right). reflexivity.
  - assert (E : (fix all l := match l with
                   | [] => Ok []
                   | x :: l => bind (yaml_file x) (fun x => bind (all l) (fun l => Ok (x :: l)))
                   end) l = Ok (map g l)); [|now rewrite E].
    induction l as [|x l IH]; [reflexivity|]. cbn [map].
    pose proof (H x (or_introl eq_refl)) as Hx. cbn [file] in Hx. rewrite Hx. cbn [bind].
    rewrite IH by (intros; apply H; now right). reflexivity.
Qed.

Lemma file_dict f {A} (e w : A -> value) (d : list (string * A)) :
  (forall k x, In (k, x) d -> file f (e x) = Ok (w x)) ->
  file f (VDict (map (fun kv => (fst kv, e (snd kv))) d)) = Ok (VDict (map (fun kv => (fst kv, w (snd kv))) d)).
Proof.
  intros H. destruct f; cbn [file json_file yaml_file].
  - match goal with |- rmap VDict ?x = _ => assert (E : x = Ok (map (fun kv => (fst kv, w (snd kv))) d)) end; [|now rewrite E].
    induction d as [|[k x] d IH]; [reflexivity|]. cbn [map fst snd].
    pose proof (H k x (or_introl eq_refl)) as Hx. cbn [file] in Hx. rewrite Hx. cbn [bind].
    rewrite IH by (intros; eapply H; right; eassumption). reflexivity.
  - match goal with |- rmap VDict ?x = _ => assert (E : x = Ok (map (fun kv => (fst kv, w (snd kv))) d)) end; [|now rewrite E].
    induction d as [|[k x] d IH]; [reflexivity|]. cbn [map fst snd].
    pose proof (H k x (or_introl eq_refl)) as Hx. cbn [file] in Hx. rewrite Hx. cbn [bind].
    rewrite IH by (intros; eapply H; right; eassumption). reflexivity.
Qed.

Lemma file_tolist f sh : forall flat, file f (tolist sh flat) = Ok (tolist sh flat).
Proof.
  induction sh as [|n sh IH]; intros flat.
  - cbn. destruct flat as [|[z|x] l]; now destruct f.
  - cbn [tolist]. rewrite (file_list f (fun x => x)).
    + now rewrite map_id.
    + intros x Hx. apply in_map_iff in Hx. destruct Hx as (c & <- & _). apply IH.
Qed.

Lemma file_basic f v : basic v = true -> (forall x, v <> VNpFloat x) -> file f v = Ok v.
Proof. intros Hb Hn. destruct v; try discriminate; try (now destruct f). exfalso. now apply (Hn x). Qed.

Lemma file_plain f : forall v, plain_list v -> file f v = Ok v.
Proof.
  fix IH 2. intros v H. destruct H as [v Hb Hn|l Hl].
  - now apply file_basic.
  - assert (G : forall x, In x l -> file f x = Ok x).
    { revert l Hl. fix IHl 2. intros l Hl x Hx. destruct Hl as [|y l Hy Hl]; [contradiction|].
      destruct Hx as [<-|Hx]; [exact (IH y Hy)|exact (IHl l Hl x Hx)]. }
    rewrite (file_list f (fun x => x)) by exact G. now rewrite map_id.
Qed.

(** ** Writing *)
Definition export_attr (b : bool) (v : value) : res value :=
  match v with
  | VTuple t => Ok (if b then VList t else v)
  | VArray a => Ok (tolist (nd_shape a) (nd_flat a))
  | VObj _ _ _ | VDict _ => rmap VDict (recursive_to_dict v false)
  | _ => Ok v
  end.

Fixpoint to_dict_loop (b : bool) (l result : dict) : res dict :=
  match l with
  | [] => Ok result
  | (k, v) :: l => bind (export_attr b v) (fun e => to_dict_loop b l (dset k e result))
  end.

Lemma to_dict_unfold m c d b :
  recursive_to_dict (VObj m c d) b = to_dict_loop b d [("module", VStr m); ("class", VStr c)].
Proof.
  cbn [recursive_to_dict]. generalize [("module", VStr m); ("class", VStr c)] as r.
  induction d as [|[k v] d IH]; intros r; [reflexivity|]. cbn [to_dict_loop].
  destruct v; cbn [export_attr bind]; try (rewrite <- IH; reflexivity).
  - cbn. reflexivity.
  - destruct (recursive_to_dict (VObj module class d0) false); cbn [rmap bind]; [|reflexivity].
    rewrite <- IH. reflexivity.
Qed.

Fixpoint exported (v : value) : value :=
  match v with
  | VArray a => tolist (nd_shape a) (nd_flat a)
  | VObj m c d =>
      VDict (("module", VStr m) :: ("class", VStr c)
             :: map (fun kv => (fst kv, exported (snd kv))) d)
  | v => v
  end.

Lemma to_dict_loop_ok b d : forall r,
  (forall k v, In (k, v) d -> export_attr b v = Ok (exported v)) ->
  NoDup (map fst d) -> (forall k, In k (map fst d) -> ~ In k (map fst r)) ->
  to_dict_loop b d r = Ok (r ++ map (fun kv => (fst kv, exported (snd kv))) d)%list.
Proof.
  induction d as [|[k v] d IH]; intros r He Hn Hr; cbn [to_dict_loop map fst snd].
  - now rewrite app_nil_r.
  - rewrite (He k v) by (now left). cbn [bind]. rewrite dset_fresh by (apply Hr; now left).
    inversion Hn as [|x l Hx Hl]; subst. rewrite IH; auto.
    + rewrite <- app_assoc. reflexivity.
    + intros k' v' H'. eapply He. right. eassumption.
    + intros k' H'. rewrite map_app, in_app_iff. cbn. intros [H|[H|[]]].
      * eapply Hr; [right; exact H'|exact H].
      * subst. contradiction.
Qed.

(** ** Reading *)
Definition restore_attr (cur : option value) (v : value) : res value :=
  if basic v then Ok v
  else match v with
  | VList _ | VTuple _ =>
      match cur with
      | None => Err KeyError
      | Some (VArray _) => rmap VArray (np_array v)
      | Some _ => Ok v
      end
  | _ => match cur with
         | None => Err AttributeError
         | Some sub => recursive_from_dict sub v
         end
  end.

Fixpoint from_dict_loop (l attrs : dict) : res dict :=
  match l with
  | [] => Ok attrs
  | (k, v) :: l => bind (restore_attr (dget k attrs) v) (fun w => from_dict_loop l (dset k w attrs))
  end.

Lemma from_dict_unfold m c l : forall attrs,
  recursive_from_dict (VObj m c attrs) (VDict l) = rmap (VObj m c) (from_dict_loop l attrs).
Proof.
  cbn [recursive_from_dict].
  induction l as [|[k v] l IH]; intros attrs; [reflexivity|]. cbn [from_dict_loop].
  unfold restore_attr. destruct (basic v) eqn:Eb; cbn [bind]; [now rewrite <- IH|].
  destruct v; try discriminate.
  - destruct (dget k attrs) as [u|]; cbn [bind]; [|reflexivity].
    destruct u; cbn [bind]; try (now rewrite <- IH).
    destruct (np_array (VList l0)); cbn [bind rmap]; [|reflexivity]. now rewrite <- IH.
  - destruct (dget k attrs) as [u|]; cbn [bind]; [|reflexivity].
    destruct u; cbn [bind]; try (now rewrite <- IH).
    destruct (np_array (VTuple l0)); cbn [bind rmap]; [|reflexivity]. now rewrite <- IH.
  - destruct (dget k attrs) as [u|]; reflexivity.
  - destruct (dget k attrs) as [u|]; cbn [bind]; [|reflexivity].
    destruct (recursive_from_dict u (VDict d)); cbn [bind rmap]; [|reflexivity]. now rewrite <- IH.
  - destruct (dget k attrs) as [u|]; reflexivity.
Qed.

Lemma from_dict_loop_ok (Q : string -> value -> Prop) l : forall attrs,
  NoDup (map fst l) ->
  (forall k v, In (k, v) l -> exists w, restore_attr (dget k attrs) v = Ok w /\ Q k w) ->
  exists attrs', from_dict_loop l attrs = Ok attrs'
    /\ (forall k, In k (map fst l) -> exists w, dget k attrs' = Some w /\ Q k w)
    /\ (forall k, ~ In k (map fst l) -> dget k attrs' = dget k attrs).
Proof.
  induction l as [|[k v] l IH]; intros attrs Hn H; cbn [from_dict_loop].
  - exists attrs. cbn. intuition.
  - destruct (H k v (or_introl eq_refl)) as (w & Ew & Hw). rewrite Ew. cbn [bind].
    inversion Hn as [|x l' Hx Hl]; subst.
    destruct (IH (dset k w attrs) Hl) as (attrs' & E & A & B).
    { intros k' v' Hi. rewrite dget_dset. destruct (String.eqb_spec k' k) as [->|Hk].
      - exfalso. apply Hx. change k with (fst (k, v')). now apply in_map.
      - apply H. now right. }
    exists attrs'. split; [exact E|]. split.
    + cbn. intros k' [<-|Hk]; [|auto].
      exists w. split; [|exact Hw]. rewrite B by exact Hx. rewrite dget_dset. now rewrite String.eqb_refl.
    + cbn. intros k' Hk. rewrite B by intuition. rewrite dget_dset.
      destruct (String.eqb_spec k' k) as [->|]; [intuition|reflexivity].
Qed.

Lemma keys_map {A} (g : A -> value) (d : list (string * A)) :
  map fst (map (fun kv => (fst kv, g (snd kv))) d) = map fst d.
Proof. rewrite map_map. reflexivity. Qed.

(** ** One attribute *)
Lemma storable_attr f fresh v : storable f fresh v ->
  (forall b, export_attr b v = Ok (exported v))
  /\ file f (exported v) = Ok (written v)
  /\ exists w, restore_attr fresh (written v) = Ok w /\ same_value false v w.
Proof.
  induction 1 as [fresh v Hb Hy|fresh l Hp Hf|a0 a Ha|m c d0 d Hn Hm Hc Hd Hs IH].
  - destruct v; try discriminate; (split; [reflexivity|]); (split; [destruct f; try reflexivity|]);
      try (eexists; split; [reflexivity|]; constructor; reflexivity).
    exfalso. now apply (Hy eq_refl x).
  - split; [reflexivity|]. split; [now apply file_plain|].
    exists (VList l). split; [|apply same_list]. cbn. destruct fresh; try reflexivity. exfalso. now apply (Hf a).
  - split; [reflexivity|]. split; [apply file_tolist|].
    exists (VArray a). split; [|apply same_array]. cbn [written].
    pose proof (np_array_tolist a Ha) as E. destruct Ha as (H0 & _).
    destruct (nd_shape a) as [|n sh]; [contradiction|]. cbn [tolist] in *.
    unfold restore_attr. cbn [basic]. rewrite E. reflexivity.
  - split; [intros b; cbn [export_attr]; rewrite to_dict_unfold, to_dict_loop_ok; auto; [intros k v Hi; apply (IH k v Hi)|]|].
    { intros k Hk. cbn. intros [<-|[<-|[]]]; contradiction. }
    split.
    { cbn [exported written].
      change (("module", VStr m) :: ("class", VStr c) :: map (fun kv : string * value => (fst kv, exported (snd kv))) d)
        with (map (fun kv : string * value => (fst kv, exported (snd kv))) (("module", VStr m) :: ("class", VStr c) :: d)).
      rewrite (file_dict f exported written); [reflexivity|].
      intros k v [E|[E|Hi]].
      - injection E as <- <-. now destruct f.
      - injection E as <- <-. now destruct f.
      - apply (IH k v Hi). }
    cbn [written]. unfold restore_attr. cbn [basic].
    rewrite from_dict_unfold. cbn [from_dict_loop]. unfold restore_attr at 1 2. cbn [basic bind].
    set (d1 := dset "class" (VStr c) (dset "module" (VStr m) d0)).
    assert (G : forall k, In k (map fst d) -> dget k d1 = dget k d0).
    { intros k Hk. unfold d1. rewrite !dget_dset.
      destruct (String.eqb_spec k "class") as [->|]; [contradiction|].
      destruct (String.eqb_spec k "module") as [->|]; [contradiction|reflexivity]. }
    destruct (from_dict_loop_ok (fun k w => exists v, dget k d = Some v /\ same_value false v w)
                (map (fun kv => (fst kv, written (snd kv))) d) d1) as (d' & E & A & B).
    { now rewrite keys_map. }
    { intros k v Hi. apply in_map_iff in Hi. destruct Hi as ([k1 v1] & E & Hi). cbn in E. injection E as <- <-.
      destruct (IH k1 v1 Hi) as (_ & _ & w & Ew & Hw).
      rewrite G by (change k1 with (fst (k1, v1)); now apply in_map).
      exists w. split; [exact Ew|]. exists v1. split; [now apply in_dget|exact Hw]. }
    rewrite E. cbn [rmap]. exists (VObj m c d'). split; [reflexivity|].
    rewrite keys_map in A, B. apply same_object.
    + intros k v Hk. destruct (A k) as (w & Ew & v0 & Ev & Hw).
      { apply dget_in. congruence. }
      exists w. split; [exact Ew|]. congruence.
    + intros k v' Hk' Hk. split; [reflexivity|].
      assert (Hnin : ~ In k (map fst d)) by (intros Hi; apply dget_in in Hi; contradiction).
      rewrite B in Hk' by exact Hnin. unfold d1 in Hk'. rewrite !dget_dset in Hk'.
      destruct (String.eqb_spec k "class") as [->|]; [right; split; congruence|].
      destruct (String.eqb_spec k "module") as [->|]; [left; split; congruence|].
      exfalso. apply (Hd k); congruence.
Qed.

(** ** Constructor arguments *)
Lemma flat_map_ext_in' {A B} (g h : A -> list B) l :
  (forall x, In x l -> g x = h x) -> flat_map g l = flat_map h l.
Proof. induction l; cbn; intros H; [reflexivity|]. rewrite H, IHl; auto. Qed.

Lemma split_args_ok args : forall (d kw : dict),
  NoDup (map fst d) -> NoDup args -> (forall a, In a args -> ~ In a (map fst kw)) ->
  let '(kwargs, rest) := split_args args d kw in
  kwargs = (kw ++ flat_map (fun a => match dget a d with Some v => [(a, v)] | None => [] end) args)%list
  /\ NoDup (map fst rest)
  /\ (forall k v, In (k, v) rest <-> In (k, v) d /\ ~ In k args).
Proof.
  induction args as [|a args IH]; intros d kw Hd Ha Hk; cbn [split_args flat_map].
  - rewrite app_nil_r. cbn. intuition.
  - inversion Ha as [|x l Hx Hl]; subst.
    destruct (dget a d) as [v|] eqn:E.
    + destruct (dremove_keys a d Hd) as (A & B & C).
      specialize (IH (dremove a d) (dset a v kw) A Hl).
      rewrite dset_fresh in IH |- * by (apply Hk; now left).
      destruct (split_args args (dremove a d) (kw ++ [(a, v)])%list) as [kwargs rest].
      destruct IH as (E1 & N1 & I1).
      { intros a' Ha' Hi. rewrite map_app, in_app_iff in Hi. cbn in Hi.
        destruct Hi as [Hi|[Hi|[]]]; [eapply Hk; [right; exact Ha'|exact Hi]|]. subst. contradiction. }
      split; [|split; [exact N1|]].
      * rewrite E1, <- app_assoc. cbn [app]. f_equal. f_equal.
        apply flat_map_ext_in'. intros a' Ha'. rewrite dget_dremove by exact Hd.
        destruct (String.eqb_spec a' a) as [->|]; [contradiction|reflexivity].
      * intros k w. rewrite I1, C. cbn. intuition congruence.
    + specialize (IH d kw Hd Hl).
      destruct (split_args args d kw) as [kwargs rest]. destruct IH as (E1 & N1 & I1).
      { intros a' Ha'. apply Hk. now right. }
      split; [exact E1|]. split; [exact N1|]. intros k w. rewrite I1. cbn. split; [|intuition].
      intros [Hi Hni]. split; [exact Hi|]. intros [<-|Hin]; [|contradiction].
      apply in_dget in Hi; auto. congruence.
Qed.

Lemma kwargs_written args (d : dict) :
  flat_map (fun a => match dget a (map (fun kv => (fst kv, written (snd kv))) d) with
                     | Some v => [(a, v)] | None => [] end) args
  = stored_kwargs args d.
Proof.
  unfold stored_kwargs. apply flat_map_ext_in'. intros a _.
  assert (E : dget a (map (fun kv => (fst kv, written (snd kv))) d)
              = match dget a d with Some v => Some (written v) | None => None end).
  { induction d as [|[k v] d IH]; [reflexivity|]. cbn. now destruct (String.eqb a k). }
  rewrite E. now destruct (dget a d).
Qed.

(** ** Whole objects *)
Lemma round_trip_ok f env m c d cd clazz d0 :
  env m = Some cd -> cd c = Some clazz -> NoDup (c_args clazz) ->
  NoDup (map fst d) -> ~ In "module" (map fst d) -> ~ In "class" (map fst d) ->
  c_new clazz (stored_kwargs (c_args clazz) d) = Ok d0 ->
  (forall k, dget k d0 <> None -> dget k d <> None) ->
  (forall k v, In (k, v) d -> storable f (dget k d0) v) ->
  (forall k v, In (k, v) d -> In k (c_args clazz) -> exists v', dget k d0 = Some v' /\ same_value false v v') ->
  exists obj', round_trip f env (VObj m c d) = Ok obj' /\ same_value true (VObj m c d) obj'.
Proof.
  intros Em Ec Ha Hn Hm Hc Enew Hdom Hs Harg.
  assert (S1 : forall k v, In (k, v) d -> _) by (intros k v Hi; exact (storable_attr f _ _ (Hs k v Hi))).
  assert (Ew : forall b, recursive_to_dict (VObj m c d) b
               = Ok ([("module", VStr m); ("class", VStr c)] ++ map (fun kv => (fst kv, exported (snd kv))) d)%list).
  { intros b. rewrite to_dict_unfold, to_dict_loop_ok; auto.
    - intros k v Hi. apply (S1 k v Hi).
    - intros k Hk. cbn. intros [<-|[<-|[]]]; contradiction. }
  assert (Ef : file f (VDict ([("module", VStr m); ("class", VStr c)] ++ map (fun kv => (fst kv, exported (snd kv))) d)%list)
               = Ok (VDict (("module", VStr m) :: ("class", VStr c) :: map (fun kv => (fst kv, written (snd kv))) d))).
  { change ([("module", VStr m); ("class", VStr c)] ++ map (fun kv => (fst kv, exported (snd kv))) d)%list
      with (map (fun kv : string * value => (fst kv, exported (snd kv))) (("module", VStr m) :: ("class", VStr c) :: d)).
    rewrite (file_dict f exported written); [reflexivity|].
    intros k v [E|[E|Hi]].
    - injection E as <- <-. now destruct f.
    - injection E as <- <-. now destruct f.
    - apply (S1 k v Hi). }
  assert (Er : round_trip f env (VObj m c d)
     = dict_to_object env (VDict (("module", VStr m) :: ("class", VStr c) :: map (fun kv => (fst kv, written (snd kv))) d))).
  { destruct f; cbn [round_trip]; unfold json_round_trip, yaml_round_trip; rewrite Ew; cbn [bind];
      cbn [file] in Ef; rewrite Ef; reflexivity. }
  rewrite Er. unfold dict_to_object.
  change (dget "module" (("module", VStr m) :: ?x)) with (Some (VStr m)).
  cbn [dget dremove String.eqb Ascii.eqb Bool.eqb]. rewrite Em, Ec.
  set (wd := map (fun kv => (fst kv, written (snd kv))) d).
  assert (Nw : NoDup (map fst wd)) by (unfold wd; rewrite keys_map; exact Hn).
  pose proof (split_args_ok (c_args clazz) wd [] Nw Ha ltac:(cbn; intuition)) as Hsp.
  destruct (split_args (c_args clazz) wd []) as [kwargs rest].
  destruct Hsp as (Ek & Nr & Ir). cbn [app] in Ek. unfold wd in Ek. rewrite kwargs_written in Ek.
  rewrite Ek, Enew. cbn [bind]. rewrite from_dict_unfold.
  destruct (from_dict_loop_ok (fun k w => exists v, dget k d = Some v /\ same_value false v w) rest d0 Nr)
    as (d' & E & A & B).
  { intros k w Hi. apply Ir in Hi. destruct Hi as [Hi _]. unfold wd in Hi. apply in_map_iff in Hi.
    destruct Hi as ([k1 v1] & E & Hi). cbn in E. injection E as <- <-.
    destruct (S1 k1 v1 Hi) as (_ & _ & w & E1 & H1). exists w. split; [exact E1|].
    exists v1. split; [now apply in_dget|exact H1]. }
  rewrite E. cbn [rmap]. eexists. split; [reflexivity|].
  assert (Rk : forall k, In k (map fst rest) <-> In k (map fst d) /\ ~ In k (c_args clazz)).
  { intros k. split.
    - intros Hi. apply in_map_iff in Hi. destruct Hi as ([k1 v1] & <- & Hi). apply Ir in Hi.
      destruct Hi as [Hi Hni]. split; [|exact Hni]. unfold wd in Hi. rewrite <- (keys_map written d).
      now apply in_map.
    - intros [Hi Hni]. rewrite <- (keys_map written d) in Hi. apply in_map_iff in Hi.
      destruct Hi as ([k1 v1] & <- & Hi). apply in_map. apply Ir. auto. }
  constructor.
  - intros k v Hk. destruct (in_dec string_dec k (c_args clazz)) as [Hin|Hnin].
    + destruct (Harg k v (dget_some_in _ _ _ Hk) Hin) as (v' & E' & H').
      exists v'. split; [|exact H']. rewrite B; [exact E'|]. rewrite Rk. intuition.
    + destruct (A k) as (w & E1 & v0 & E0 & H0).
      { apply Rk. split; [|exact Hnin]. apply dget_in. congruence. }
      exists w. split; [exact E1|]. congruence.
  - intros k v' Hk' Hk. exfalso.
    rewrite B in Hk'; [apply (Hdom k); congruence|].
    rewrite Rk. intros [Hi _]. apply dget_in in Hi. contradiction.
Qed.
