(** What "the same object" means after reading a file (C57). *)
From Coq Require Import Reals ZArith List String Bool.
From Verif Require Import M_Prelude M_IO.
Import ListNotations.
Local Open Scope string_scope.

(** Equal class and equal attributes, hierarchically.  A numpy float may come back as the
    Python float with the same value.  Objects that are attributes of other objects may have
    gained two attributes "module" and "class": this is what [_recursive_from_dict] does. *)
Inductive same_value (top : bool) : value -> value -> Prop :=
| same_basic v : basic v = true -> same_value top v v
| same_float x : same_value top (VNpFloat x) (VFloat x)
| same_list l : same_value top (VList l) (VList l)
| same_array a : same_value top (VArray a) (VArray a)
| same_object m c d d' :
    (forall k v, dget k d = Some v -> exists v', dget k d' = Some v' /\ same_value false v v') ->
    (forall k v', dget k d' = Some v' -> dget k d = None ->
       top = false /\ (k = "module" /\ v' = VStr m \/ k = "class" /\ v' = VStr c)) ->
    same_value top (VObj m c d) (VObj m c d').

(** A numpy array that nested lists can represent: at least one dimension, no dimension of
    size 0, as many entries as the shape says and all of the same type. *)
Definition plain_array (a : nparray) : Prop :=
  nd_shape a <> [] /\ Forall (fun n => (1 <= n)%nat) (nd_shape a)
  /\ List.length (nd_flat a) = prod (nd_shape a)
  /\ (Forall (fun x => is_float x = true) (nd_flat a) \/ Forall (fun x => is_float x = false) (nd_flat a)).

Inductive format := JSON | YAML.
Definition round_trip (f : format) : modules -> value -> res value :=
  match f with JSON => json_round_trip | YAML => yaml_round_trip end.

(** Nested lists of basic values; numpy floats are only numbers to JSON if they are
    attributes. *)
Inductive plain_list : value -> Prop :=
| plain_basic v : basic v = true -> (forall x, v <> VNpFloat x) -> plain_list v
| plain_nested l : Forall plain_list l -> plain_list (VList l).

(** [storable f fresh v]: an attribute with value [v] can be stored in a file of format [f]
    and restored in an object whose constructor has set the attribute to [fresh] (or not at
    all: [None]). *)
Inductive storable (f : format) : option value -> value -> Prop :=
| storable_basic fresh v : basic v = true -> (f = YAML -> forall x, v <> VNpFloat x) -> storable f fresh v
| storable_list fresh l : plain_list (VList l) -> (forall a, fresh <> VArray a) ->
    storable f (Some fresh) (VList l)
| storable_array a0 a : plain_array a -> storable f (Some (VArray a0)) (VArray a)
| storable_object m c d0 d :
    NoDup (map fst d) -> ~ In "module" (map fst d) -> ~ In "class" (map fst d) ->
    (forall k, dget k d0 <> None -> dget k d <> None) ->
    (forall k v, In (k, v) d -> storable f (dget k d0) v) ->
    storable f (Some (VObj m c d0)) (VObj m c d).

(** The document that represents a value in the file. *)
Fixpoint written (v : value) : value :=
  match v with
  | VNpFloat x => VFloat x
  | VArray a => tolist (nd_shape a) (nd_flat a)
  | VObj m c d =>
      VDict (("module", VStr m) :: ("class", VStr c)
             :: map (fun kv => (fst kv, written (snd kv))) d)
  | v => v
  end.

(** The keyword arguments that [_dict_to_object] passes to the constructor: the stored
    attributes that have the name of an argument. *)
Definition stored_kwargs (args : list string) (d : dict) : dict :=
  flat_map (fun a => match dget a d with Some v => [(a, written v)] | None => [] end) args.
