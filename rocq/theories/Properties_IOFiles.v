(** C130: what reading a file does when parts of it are missing.  Final statements. *)
From Coq Require Import Reals ZArith List String Arith Bool Lia Lra FunctionalExtensionality.
From Verif Require Import M_Prelude M_Canonical M_Forcing M_Dmp M_Base M_DmpObject M_FinalVelocity
  M_StateFollowing M_SpringDamper M_MinJerk M_Quaternion M_Cartesian M_Dual M_Matrix M_ProMP M_IO M_IOClasses
  S_IO P_IO Properties_IO.
Import ListNotations.
Set Bullet Behavior "Strict Subproofs".
Local Open Scope string_scope.
Local Open Scope R_scope.

(** ** Specification *)
(** The constructors of the library with the default values that their signatures
    and docstrings give: module, name, constructor, optional arguments and
    required arguments. *)
Definition gains : list (string * value) := [("alpha_y", VFloat 25); ("beta_y", VFloat (25 / 4))].
Definition timing : list (string * value) := [("dt", VFloat (1 / 100)); ("int_dt", VFloat (1 / 1000))].
Definition documented (junk junk2 : vec * vec) : list (pyclass * list (string * value) * list string) :=
  [(class_DMP junk, [("execution_time", VFloat 1); ("n_weights_per_dim", VInt 10); ("p_gain", VFloat 0);
                     ("smooth_scaling", VBool false)] ++ timing ++ gains, ["n_dims"]);
   (class_DMPWithFinalVelocity junk, [("execution_time", VFloat 1); ("n_weights_per_dim", VInt 10);
                     ("p_gain", VFloat 0)] ++ timing ++ gains, ["n_dims"]);
   (class_CartesianDMP junk junk2, [("execution_time", VFloat 1); ("n_weights_per_dim", VInt 10);
                     ("smooth_scaling", VBool false)] ++ timing ++ gains, []);
   (class_DualCartesianDMP junk, [("execution_time", VFloat 1); ("n_weights_per_dim", VInt 10);
                     ("p_gain", VFloat 0); ("smooth_scaling", VBool false)] ++ timing ++ gains, []);
   (class_StateFollowingDMP junk, ("n_viapoints", VInt 10) :: timing ++ gains, ["n_dims"; "execution_time"]);
   (class_ProMP, [("n_weights_per_dim", VInt 10)], ["n_dims"]);
   (class_SpringDamper, [("k", VFloat 1); ("c", VNone)] ++ timing, ["n_dims"]);
   (class_MinimumJerkTrajectory, [("dt", VFloat (1 / 100))], ["n_dims"; "execution_time"]);
   (class_ForcingTerm junk, [],
      ["n_dims"; "n_weights_per_dim"; "goal_t"; "start_t"; "overlap"; "alpha_z"])]%list.

(** A file that names the class [c] of the module [m] of the library. *)
Definition names_class (env : modules) (clazz : pyclass) (d : dict) : Prop :=
  exists m c cd, dget "module" d = Some (VStr m) /\ dget "class" d = Some (VStr c)
    /\ env m = Some cd /\ cd c = Some clazz.

(** ** Proofs *)
Lemma dget_app k d e : dget k (d ++ e)%list = match dget k d with Some v => Some v | None => dget k e end.
Proof.
  induction d as [|[k1 v1] d IH]; [reflexivity|]. cbn. destruct (String.eqb k k1); auto.
Qed.
Lemma dremove_app k d e : dget k d <> None -> dremove k (d ++ e)%list = (dremove k d ++ e)%list.
Proof.
  induction d as [|[k1 v1] d IH]; cbn; [congruence|]. destruct (String.eqb k k1); auto.
  intros H. cbn. now rewrite IH.
Qed.
Lemma dremove_last k v d : dget k d = None -> dremove k (d ++ [(k, v)])%list = d.
Proof.
  induction d as [|[k1 v1] d IH]; cbn; [now rewrite String.eqb_refl|].
  destruct (String.eqb k k1); [discriminate|]. intros H. now rewrite IH.
Qed.

Definition agree (k : string) (v : value) (kw kw' : dict) : Prop :=
  forall j, dget j kw' = if String.eqb j k then Some v else dget j kw.

Lemma split_agree args k v : forall d kw kw', agree k v kw kw' -> ~ In k args ->
  snd (split_args args d kw') = snd (split_args args d kw)
  /\ agree k v (fst (split_args args d kw)) (fst (split_args args d kw')).
Proof.
  induction args as [|a args IH]; intros d kw kw' HA Hk; cbn [split_args]; [split; auto|].
  destruct (dget a d) as [x|]; [|apply IH; cbn in Hk; intuition].
  apply IH; [|cbn in Hk; intuition].
  intros j. rewrite !dget_dset, HA. cbn in Hk.
  destruct (String.eqb_spec j a) as [->|]; [|reflexivity].
  destruct (String.eqb_spec a k) as [->|]; [tauto|reflexivity].
Qed.

Lemma split_none k args : forall d kw, NoDup (map fst d) -> dget k d = None -> dget k kw = None ->
  dget k (fst (split_args args d kw)) = None.
Proof.
  induction args as [|a args IH]; intros d kw Hn Hd Hkw; cbn [split_args]; auto.
  destruct (dget a d) as [x|] eqn:E; [|auto]. apply IH.
  - now apply dremove_keys.
  - rewrite dget_dremove by auto. destruct (String.eqb k a); auto.
  - rewrite dget_dset. destruct (String.eqb_spec k a) as [->|]; [congruence|auto].
Qed.

Lemma split_added args k v : forall d kw kw', NoDup (map fst d) ->
  dget k d = None -> dget k kw = None -> (forall j, dget j kw' = dget j kw) ->
  NoDup args -> In k args ->
  snd (split_args args (d ++ [(k, v)])%list kw') = snd (split_args args d kw)
  /\ agree k v (fst (split_args args d kw)) (fst (split_args args (d ++ [(k, v)])%list kw'))
  /\ dget k (fst (split_args args d kw)) = None.
Proof.
  pose proof split_none as HK.
  induction args as [|a args IH]; intros d kw kw' Hn Hd Hkw HE Ha Hk; [destruct Hk|].
  inversion_clear Ha as [|? ? Ha1 Ha2]. cbn [split_args]. rewrite dget_app.
  destruct (String.eqb_spec a k) as [->|Hne].
  - rewrite Hd. cbn [dget]. rewrite String.eqb_refl, dremove_last by auto.
    destruct (split_agree args k v d kw (dset k v kw')) as [S1 S2]; auto.
    intros j. rewrite dget_dset, HE. reflexivity.
  - assert (Hk' : In k args) by (destruct Hk; [congruence|auto]).
    cbn [dget]. rewrite (proj2 (String.eqb_neq a k)) by auto.
    destruct (dget a d) as [x|] eqn:E.
    + rewrite dremove_app by congruence. apply IH; auto.
      * now apply dremove_keys.
      * rewrite dget_dremove by auto. destruct (String.eqb k a); auto.
      * rewrite dget_dset. destruct (String.eqb_spec k a) as [->|]; [congruence|auto].
      * intros j. rewrite !dget_dset. destruct (String.eqb j a); auto.
    + apply IH; auto.
Qed.

(** The constructors read their arguments by name. *)
Definition by_name (clazz : pyclass) : Prop :=
  forall kw kw', (forall k, dget k kw = dget k kw') -> c_new clazz kw = c_new clazz kw'.
Definition has_default (clazz : pyclass) (k : string) (v : value) : Prop :=
  forall kw, dget k kw = None -> c_new clazz (dset k v kw) = c_new clazz kw.

Lemma read_added env clazz d k v : names_class env clazz d -> NoDup (map fst d) ->
  by_name clazz -> has_default clazz k v -> NoDup (c_args clazz) -> In k (c_args clazz) ->
  k <> "module" -> k <> "class" -> dget k d = None ->
  dict_to_object env (VDict (d ++ [(k, v)])%list) = dict_to_object env (VDict d).
Proof.
  intros (m & c & cd & Em & Ec & Ecd & Ecl) Hn HB HD Ha Hk H1 H2 Hd. unfold dict_to_object.
  rewrite dget_app, Em, Ecd.
  rewrite dremove_app by congruence. rewrite dget_app, dget_dremove by auto.
  cbn [String.eqb Ascii.eqb Bool.eqb]. rewrite Ec, Ecl.
  assert (Hn1 : NoDup (map fst (dremove "module" d))) by now apply dremove_keys.
  assert (E1 : dget "class" (dremove "module" d) <> None).
  { rewrite dget_dremove by auto. cbn [String.eqb Ascii.eqb Bool.eqb]. congruence. }
  rewrite dremove_app by auto.
  set (d1 := dremove "class" (dremove "module" d)).
  destruct (split_added (c_args clazz) k v d1 [] []) as (S1 & S2 & S3); auto.
  { unfold d1. now apply dremove_keys. }
  { unfold d1. rewrite !dget_dremove by auto.
    destruct (String.eqb_spec k "class"); [congruence|]. destruct (String.eqb_spec k "module"); [congruence|]. auto. }
  destruct (split_args (c_args clazz) d1 []) as [kw rest].
  destruct (split_args (c_args clazz) (d1 ++ [(k, v)])%list []) as [kw' rest']. cbn [fst snd] in *. subst rest'.
  rewrite (HB kw' (dset k v kw)); [rewrite HD by auto; reflexivity|].
  intros j. rewrite S2, dget_dset. reflexivity.
Qed.

Lemma arg_dset {A} (f : value -> res A) dflt a k v kw : a <> k -> arg f dflt a (dset k v kw) = arg f dflt a kw.
Proof.
  intros H. unfold arg. rewrite dget_dset. destruct (String.eqb_spec a k); [congruence|reflexivity].
Qed.
Lemma arg_default {A} (f : value -> res A) x k v kw : dget k kw = None -> f v = Ok x ->
  arg f (Some x) k (dset k v kw) = arg f (Some x) k kw.
Proof. intros H E. unfold arg. rewrite dget_dset, String.eqb_refl, H. auto. Qed.
Lemma arg_ext {A} (f : value -> res A) dflt a kw kw' : (forall k, dget k kw = dget k kw') ->
  arg f dflt a kw = arg f dflt a kw'.
Proof. intros H. unfold arg. now rewrite H. Qed.

Lemma documented_by_name j1 j2 p : In p (documented j1 j2) -> by_name (fst (fst p)).
Proof.
  intros H kw kw' HE. unfold documented in H. cbn [In app] in H.
  repeat (destruct H as [<-|H]);
    try (cbn [fst c_new class_DMP class_DMPWithFinalVelocity class_CartesianDMP class_DualCartesianDMP
           class_StateFollowingDMP class_ProMP class_SpringDamper class_MinimumJerkTrajectory class_ForcingTerm];
         repeat match goal with |- context [arg ?f ?d ?a kw] => rewrite (arg_ext f d a kw kw' HE) end;
         reflexivity).
  destruct H.
Qed.

Lemma scalar_gain x n : ensure_1d_array {| shape := []; data := fun i => nth i [x] 0 |} n
  = ensure_1d_array (scalar x) n.
Proof. reflexivity. Qed.

Lemma arg_gain x k kw : arg asarray (Some (scalar x)) k (dset k (VFloat x) kw)
  = Ok {| shape := []; data := fun i => nth i [x] 0 |}.
Proof. unfold arg. rewrite dget_dset, String.eqb_refl. reflexivity. Qed.
Lemma arg_no_gain x k kw : dget k kw = None -> arg asarray (Some (scalar x)) k kw = Ok (scalar x).
Proof. intros H. unfold arg. now rewrite H. Qed.

Lemma documented_defaults j1 j2 p k v : In p (documented j1 j2) -> In (k, v) (snd (fst p)) ->
  has_default (fst (fst p)) k v.
Proof.
  intros H Hk kw Hn. unfold documented, timing, gains in H. cbn [In app] in H.
  repeat (destruct H as [<-|H]);
    try (cbn [fst snd In] in Hk; repeat (destruct Hk as [Hk|Hk]; [injection Hk as <- <-|]); try (now destruct Hk);
         cbn [fst c_new class_DMP class_DMPWithFinalVelocity class_CartesianDMP class_DualCartesianDMP
           class_StateFollowingDMP class_ProMP class_SpringDamper class_MinimumJerkTrajectory class_ForcingTerm];
         repeat match goal with |- context [arg ?f ?d ?a (dset ?k ?v kw)] =>
           rewrite (arg_dset f d a k v kw) by congruence end;
         first [rewrite arg_default by (auto; reflexivity); reflexivity
               |rewrite arg_gain, (arg_no_gain _ _ _ Hn); reflexivity]).
  destruct H.
Qed.

(** ** Statements *)
(** An argument of the constructor that is missing in the file takes the
    documented default. *)
Theorem C130_defaults : forall env j1 j2 clazz optional required d k v,
  In (clazz, optional, required) (documented j1 j2) -> names_class env clazz d -> NoDup (map fst d) ->
  In (k, v) optional -> dget k d = None ->
  dict_to_object env (VDict (d ++ [(k, v)])%list) = dict_to_object env (VDict d).
Proof.
  intros env j1 j2 clazz optional required d k v Hp Hc Hn Hk Hd.
  assert (Hs : NoDup (c_args clazz) /\ In k (c_args clazz) /\ k <> "module" /\ k <> "class").
  { unfold documented, timing, gains in Hp. cbn [In app] in Hp.
    repeat (destruct Hp as [Hp|Hp]); try (now destruct Hp);
      injection Hp as <- <- <-; (split; [apply nodup_strings_ok; reflexivity|]);
      cbn [In] in Hk; repeat (destruct Hk as [Hk|Hk]; [injection Hk as <- <-; cbn; intuition congruence|]);
      destruct Hk. }
  destruct Hs as (Ha & Hi & H1 & H2).
  apply (read_added env clazz); auto.
  - exact (documented_by_name j1 j2 _ Hp).
  - exact (documented_defaults j1 j2 (clazz, optional, required) k v Hp Hk).
Qed.

(** A file without a required argument is rejected. *)
Theorem C130_required : forall env j1 j2 clazz optional required d k,
  In (clazz, optional, required) (documented j1 j2) -> names_class env clazz d -> NoDup (map fst d) ->
  In k required -> dget k d = None ->
  exists e, dict_to_object env (VDict d) = Err e.
Proof.
  intros env j1 j2 clazz optional required d k Hp (m & c & cd & Em & Ec & Ecd & Ecl) Hn Hk Hd.
  unfold dict_to_object. rewrite Em, Ecd. rewrite dget_dremove by auto.
  cbn [String.eqb Ascii.eqb Bool.eqb]. rewrite Ec, Ecl.
  assert (HN : dget k (fst (split_args (c_args clazz) (dremove "class" (dremove "module" d)) [])) = None).
  { assert (Hn1 : NoDup (map fst (dremove "module" d))) by now apply dremove_keys.
    assert (Hn2 : NoDup (map fst (dremove "class" (dremove "module" d)))) by now apply dremove_keys.
    apply split_none; auto. rewrite !dget_dremove by auto.
    destruct (String.eqb k "class"); auto. destruct (String.eqb k "module"); auto. }
  destruct (split_args _ _ _) as [kw rest]. cbn [fst] in HN.
  assert (HE : exists e, c_new clazz kw = Err e); [|destruct HE as [e ->]; exists e; reflexivity].
  assert (HR : forall A f a, a = k -> @arg A f None a kw = Err TypeError).
  { intros A f a ->. unfold arg. now rewrite HN. }
  unfold documented, timing, gains in Hp. cbn [In app] in Hp.
  repeat (destruct Hp as [Hp|Hp]); try (now destruct Hp);
    injection Hp as <- <- <-; cbn [In] in Hk; repeat (destruct Hk as [Hk|Hk]); try (now destruct Hk);
    cbn [c_new class_DMP class_DMPWithFinalVelocity class_CartesianDMP class_DualCartesianDMP
           class_StateFollowingDMP class_ProMP class_SpringDamper class_MinimumJerkTrajectory class_ForcingTerm];
    repeat match goal with
    | |- context [arg ?f None ?a kw] =>
        (rewrite (HR _ f a Hk) || destruct (arg f None a kw)); cbn [bind]; try (eexists; reflexivity)
    end.
Qed.

(** Which exception tells what is missing. *)
Theorem C130_reported : forall env d, NoDup (map fst d) ->
  (dget "module" d = None -> dict_to_object env (VDict d) = Err KeyError)
  /\ (forall m, dget "module" d = Some (VStr m) ->
        (env m = None -> dict_to_object env (VDict d) = Err ImportError)
        /\ forall cd, env m = Some cd ->
             (dget "class" d = None -> dict_to_object env (VDict d) = Err KeyError)
             /\ forall c, dget "class" d = Some (VStr c) -> cd c = None ->
                  dict_to_object env (VDict d) = Err ImportError).
Proof.
  intros env d Hn. unfold dict_to_object. split; [intros ->; reflexivity|].
  intros m ->. split; [intros ->; reflexivity|]. intros cd ->.
  rewrite dget_dremove by auto. cbn [String.eqb Ascii.eqb Bool.eqb].
  split; [intros ->; reflexivity|]. intros c -> ->. reflexivity.
Qed.

(** A file of a ProMP with two dimensions and nothing else can be read; without
    the number of dimensions it cannot. *)
Example C130_satisfiable : exists env d,
  In (class_ProMP, [("n_weights_per_dim", VInt 10)], ["n_dims"]) (documented (vzero, vzero) (vzero, vzero))
  /\ names_class env class_ProMP d /\ NoDup (map fst d) /\ dget "n_weights_per_dim" d = None
  /\ (exists obj, dict_to_object env (VDict d) = Ok (VObj "movement_primitives.promp" "ProMP" obj)
        /\ dget "n_weights" obj = Some (VInt 20))
  /\ names_class env class_ProMP (dremove "n_dims" d) /\ dget "n_dims" (dremove "n_dims" d) = None.
Proof.
  exists (fun m => if String.eqb m "movement_primitives.promp"
                   then Some (fun c => if String.eqb c "ProMP" then Some class_ProMP else None) else None).
  exists [("module", VStr "movement_primitives.promp"); ("class", VStr "ProMP"); ("n_dims", VInt 2)].
  split; [cbn; tauto|].
  split; [repeat eexists; reflexivity|]. split; [apply nodup_strings_ok; reflexivity|].
  split; [reflexivity|]. split; [eexists; split; reflexivity|].
  split; [repeat eexists; reflexivity|reflexivity].
Qed.
