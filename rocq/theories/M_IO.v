(** Model of io.py: writing objects to and reading them from JSON and YAML files.
    Pickle ([write_pickle], [read_pickle]) is Python's own serialisation and not modelled. *)
From Coq Require Import Reals ZArith List String Ascii Arith Bool.
From Verif Require Import M_Prelude.
Import ListNotations.
Local Open Scope string_scope.
Local Open Scope R_scope.

(** Entries of numpy arrays: integers or floats (all of one type in one array). *)
Inductive num := NInt (z : Z) | NFloat (x : R).
Record nparray := { nd_shape : list nat; nd_flat : list num }.

(** Python values.  [VNpFloat] is a scalar of type numpy.float64, which is a subclass of
    float; other numpy scalars are not modelled.  [VObj] is an instance of a custom class with
    its module, class name and [__dict__]. *)
Inductive value :=
| VInt (z : Z) | VFloat (x : R) | VNpFloat (x : R) | VBool (b : bool) | VStr (s : string) | VNone
| VList (l : list value) | VTuple (l : list value)
| VArray (a : nparray)
| VDict (d : list (string * value))
| VObj (module class : string) (d : list (string * value)).

Definition dict := list (string * value).

(** Dictionaries in insertion order: [d.get(k)], [d[k] = v] and [d.pop(k)]. *)
Fixpoint dget (k : string) (d : dict) : option value :=
  match d with
  | [] => None
  | (k', v) :: d => if String.eqb k k' then Some v else dget k d
  end.
Fixpoint dset (k : string) (v : value) (d : dict) : dict :=
  match d with
  | [] => [(k, v)]
  | (k', v') :: d => if String.eqb k k' then (k', v) :: d else (k', v') :: dset k v d
  end.
Fixpoint dremove (k : string) (d : dict) : dict :=
  match d with
  | [] => []
  | (k', v') :: d => if String.eqb k k' then d else (k', v') :: dremove k d
  end.

(** io.py:13 [basic_types]. *)
Definition basic (v : value) : bool :=
  match v with
  | VInt _ | VFloat _ | VNpFloat _ | VBool _ | VStr _ | VNone => true
  | _ => false
  end.

(** ** numpy: [a.tolist()] and [np.array(l)] *)
Definition value_of_num (x : num) : value := match x with NInt z => VInt z | NFloat r => VFloat r end.

Fixpoint prod (sh : list nat) : nat := match sh with [] => 1%nat | n :: sh => (n * prod sh)%nat end.

Fixpoint chunks {A} (n size : nat) (l : list A) : list (list A) :=
  match n with
  | O => []
  | S n => firstn size l :: chunks n size (skipn size l)
  end.

(** [tolist]: nested lists; an array of shape () gives a scalar. *)
Fixpoint tolist (sh : list nat) (flat : list num) : value :=
  match sh with
  | [] => match flat with x :: _ => value_of_num x | [] => VNone end
  | n :: sh => VList (map (tolist sh) (chunks n (prod sh) flat))
  end.

(** [np.array] of nested lists or tuples: the shape is read off the first entries, all rows
    must have that shape (ValueError otherwise); integers are converted when there is a
    float.  Entries that are not numbers (numpy makes arrays of strings or objects of them)
    are not modelled and rejected with TypeError. *)
Fixpoint np_shape (v : value) : list nat :=
  match v with
  | VList [] | VTuple [] => [0%nat]
  | VList (x :: l) | VTuple (x :: l) => S (List.length l) :: np_shape x
  | _ => []
  end.
Fixpoint bind_all {A B} (f : A -> res (list B)) (l : list A) : res (list B) :=
  match l with
  | [] => Ok []
  | x :: l => bind (f x) (fun a => bind (bind_all f l) (fun b => Ok (a ++ b)%list))
  end.
Fixpoint np_leaves (sh : list nat) (v : value) : res (list num) :=
  match sh, v with
  | [], VInt z => Ok [NInt z]
  | [], (VFloat x | VNpFloat x) => Ok [NFloat x]
  | [], (VList _ | VTuple _) => Err ValueError
  | [], _ => Err TypeError
  | n :: sh, (VList l | VTuple l) =>
      if Nat.eqb (List.length l) n then bind_all (np_leaves sh) l else Err ValueError
  | _ :: _, _ => Err ValueError
  end.
Definition is_float (x : num) : bool := match x with NFloat _ => true | NInt _ => false end.
Definition to_float (x : num) : num := match x with NFloat r => NFloat r | NInt z => NFloat (IZR z) end.
Definition common_type (l : list num) : list num := if existsb is_float l then map to_float l else l.
Definition np_array (v : value) : res nparray :=
  bind (np_leaves (np_shape v) v) (fun l =>
    Ok {| nd_shape := np_shape v; nd_flat := common_type l |}).

(** ** The files *)
(** What [json.load] returns for what [json.dump] wrote: the same tree, with tuples turned
    into lists and numpy floats into floats ([float.__repr__] and its inverse are exact).
    Anything else than basic types, lists, tuples and dictionaries raises TypeError. *)
Fixpoint json_file (v : value) : res value :=
  match v with
  | VNpFloat x => Ok (VFloat x)
  | VList l | VTuple l =>
      rmap VList ((fix all l := match l with
                   | [] => Ok []
                   | x :: l => bind (json_file x) (fun x => bind (all l) (fun l => Ok (x :: l)))
                   end) l)
  | VDict d =>
      rmap VDict ((fix all (d : dict) := match d with
                   | [] => Ok []
                   | (k, x) :: d => bind (json_file x) (fun x => bind (all d) (fun d => Ok ((k, x) :: d)))
                   end) d)
  | VArray _ | VObj _ _ _ => Err TypeError
  | v => Ok v
  end.

(** The same for [yaml.dump] and [yaml.safe_load].  [yaml.dump] writes tuples, numpy floats
    and objects with Python-specific tags, which [safe_load] refuses
    (yaml.constructor.ConstructorError, represented by ValueError). *)
Fixpoint yaml_file (v : value) : res value :=
  match v with
  | VList l =>
      rmap VList ((fix all l := match l with
                   | [] => Ok []
                   | x :: l => bind (yaml_file x) (fun x => bind (all l) (fun l => Ok (x :: l)))
                   end) l)
  | VDict d =>
      rmap VDict ((fix all (d : dict) := match d with
                   | [] => Ok []
                   | (k, x) :: d => bind (yaml_file x) (fun x => bind (all d) (fun d => Ok ((k, x) :: d)))
                   end) d)
  | VNpFloat _ | VTuple _ | VArray _ | VObj _ _ _ => Err ValueError
  | v => Ok v
  end.

(** ** io.py *)

(** io.py:119-130 [_recursive_to_dict].  Only objects have the attributes [__module__],
    [__class__.__name__] and [__dict__]; the nested call does not pass [convert_tuple] on. *)
Fixpoint recursive_to_dict (obj : value) (convert_tuple : bool) : res dict :=
  match obj with
  | VObj module class attrs =>
      (fix loop (l : dict) (result : dict) : res dict :=
         match l with
         | [] => Ok result                                                     (* 130 *)
         | (k, v) :: l =>
             match v with
             | VTuple t => loop l (dset k (if convert_tuple then VList t else v) result)  (* 122-125 *)
             | VList _ => loop l (dset k v result)                             (* 124-125 *)
             | VArray a => loop l (dset k (tolist (nd_shape a) (nd_flat a)) result) (* 126-127 *)
             | VObj _ _ _ | VDict _ =>
                 bind (recursive_to_dict v false) (fun d => loop l (dset k (VDict d) result)) (* 128-129 *)
             | _ => loop l (dset k v result)                                   (* 124-125 *)
             end
         end) attrs [("module", VStr module); ("class", VStr class)]           (* 120 *)
  | _ => Err AttributeError
  end.

(** io.py:133-143 [_recursive_from_dict].  [setattr] on a plain attribute; the attributes of
    basic values, lists and arrays cannot be set (AttributeError). *)
Fixpoint recursive_from_dict (obj : value) (export : value) : res value :=
  match export with
  | VDict export =>
      (fix loop (l : dict) (obj : value) : res value :=
         match l with
         | [] => Ok obj
         | (k, v) :: l =>
             match obj with
             | VObj m c attrs =>
                 if basic v then loop l (VObj m c (dset k v attrs))            (* 135-136 *)
                 else match v with
                 | VList _ | VTuple _ =>
                     match dget k attrs with                                   (* 138 *)
                     | None => Err KeyError
                     | Some (VArray _) =>
                         bind (np_array v) (fun a => loop l (VObj m c (dset k (VArray a) attrs))) (* 139 *)
                     | Some _ => loop l (VObj m c (dset k v attrs))            (* 140-141 *)
                     end
                 | _ =>
                     match dget k attrs with                                   (* 143 *)
                     | None => Err AttributeError
                     | Some sub =>
                         bind (recursive_from_dict sub v) (fun sub => loop l (VObj m c (dset k sub attrs)))
                     end
                 end
             | _ => Err AttributeError
             end
         end) export obj
  | _ => Err AttributeError
  end.

(** A class as [_dict_to_object] sees it: the names of the constructor's arguments
    ([inspect.getfullargspec(...).args] without [self]) and the [__dict__] of a new object. *)
Record pyclass := { c_args : list string; c_new : dict -> res dict }.

(** The importable modules and their classes. *)
Definition modules := string -> option (string -> option pyclass).

(** io.py:155-159: [ctor_kwargs] and the rest of [export]. *)
Fixpoint split_args (args : list string) (export kwargs : dict) : dict * dict :=
  match args with
  | [] => (kwargs, export)
  | arg :: args =>
      match dget arg export with
      | Some v => split_args args (dremove arg export) (dset arg v kwargs)
      | None => split_args args export kwargs
      end
  end.

(** io.py:146-163 [_dict_to_object]. *)
Definition dict_to_object (env : modules) (export : value) : res value :=
  match export with
  | VDict export =>
      match dget "module" export with                                          (* 147 *)
      | None => Err KeyError
      | Some (VStr module_name) =>
          let export := dremove "module" export in
          match env module_name with                                           (* 148 *)
          | None => Err ImportError
          | Some class_dict =>
              match dget "class" export with                                   (* 150 *)
              | None => Err KeyError
              | Some (VStr class_name) =>
                  let export := dremove "class" export in
                  match class_dict class_name with                             (* 151-153 *)
                  | None => Err ImportError
                  | Some clazz =>
                      let '(kwargs, export) := split_args (c_args clazz) export [] in (* 155-159 *)
                      bind (c_new clazz kwargs) (fun attrs =>                  (* 160 *)
                      recursive_from_dict (VObj module_name class_name attrs) (VDict export)) (* 162-163 *)
                  end
              | Some _ => Err TypeError
              end
          end
      | Some _ => Err TypeError
      end
  | _ => Err AttributeError
  end.

(** io.py:84-98 [write_json] followed by io.py:101-116 [read_json]; likewise 49-63 and
    66-81 for YAML. *)
Definition json_round_trip (env : modules) (obj : value) : res value :=
  bind (recursive_to_dict obj false) (fun export =>
  bind (json_file (VDict export)) (dict_to_object env)).
Definition yaml_round_trip (env : modules) (obj : value) : res value :=
  bind (recursive_to_dict obj true) (fun export =>
  bind (yaml_file (VDict export)) (dict_to_object env)).
