(** Model of what io.py does to the file: the text written by [write_json], character by
    character, with the exceptions of the encoder in the middle of the text, and the
    entries written by [write_yaml].  M_IO models what a complete file contains. *)
From Coq Require Import Reals ZArith List String Ascii Arith Bool.
From Verif Require Import M_Prelude M_IO.
Import ListNotations.
Local Open Scope string_scope.
Local Open Scope list_scope.

Definition text := list ascii.
Definition chars (s : string) : text := list_ascii_of_string s.

(** ** json.dump *)

(** [float.__repr__] and [int.__repr__]. *)
Record number_format := { float_text : R -> text; int_text : Z -> text }.

Definition hex_digit (n : nat) : ascii := nth n (chars "0123456789abcdef") "0"%char.

(** json.encoder.encode_basestring_ascii: the quotes, the backslash and everything outside
    of the printable ASCII characters are escaped.  Characters are bytes here: those
    beyond 255 (four hexadecimal digits, or a pair of them) are not modelled. *)
Definition escape_char (c : ascii) : text :=
  let n := nat_of_ascii c in
  if Nat.eqb n 34 then chars "\" ++ [c]
  else if Nat.eqb n 92 then chars "\" ++ [c]
  else if Nat.eqb n 10 then chars "\n"
  else if Nat.eqb n 13 then chars "\r"
  else if Nat.eqb n 9 then chars "\t"
  else if Nat.eqb n 12 then chars "\f"
  else if Nat.eqb n 8 then chars "\b"
  else if (32 <=? n)%nat && (n <=? 126)%nat then [c]
  else chars "\u00" ++ [hex_digit (n / 16); hex_digit (n mod 16)].
Definition quote : ascii := ascii_of_nat 34.
Definition json_string_text (s : string) : text :=
  quote :: flat_map escape_char (chars s) ++ [quote].

(** json.encoder._make_iterencode with the default separators: what has been written when
    the encoder finishes ([None]) or raises. *)
Definition emission := (text * option exn)%type.
Definition then_emit (a : emission) (b : emission) : emission :=
  match snd a with
  | Some e => a
  | None => (fst a ++ fst b, snd b)
  end.
Definition out (s : string) : emission := (chars s, None).

Fixpoint json_emit (f : number_format) (v : value) : emission :=
  match v with
  | VInt z => (int_text f z, None)
  | VFloat x | VNpFloat x => (float_text f x, None)
  | VBool b => out (if b then "true" else "false")
  | VStr s => (json_string_text s, None)
  | VNone => out "null"
  | VList [] | VTuple [] => out "[]"
  | VList (x :: l) | VTuple (x :: l) =>
      then_emit (out "[")
        (then_emit (json_emit f x)
           (then_emit ((fix rest (l : list value) : emission :=
                          match l with
                          | [] => ([], None)
                          | x :: l => then_emit (out ", ") (then_emit (json_emit f x) (rest l))
                          end) l)
              (out "]")))
  | VDict [] => out "{}"
  | VDict ((k, x) :: d) =>
      then_emit (out "{")
        (then_emit (json_string_text k, None)
           (then_emit (out ": ")
              (then_emit (json_emit f x)
                 (then_emit ((fix rest (d : dict) : emission :=
                                match d with
                                | [] => ([], None)
                                | (k, x) :: d =>
                                    then_emit (out ", ")
                                      (then_emit (json_string_text k, None)
                                         (then_emit (out ": ") (then_emit (json_emit f x) (rest d))))
                                end) d)
                    (out "}")))))
  | VArray _ | VObj _ _ _ => ([], Some TypeError)
  end.

(** ** The file *)

(** One step on the disk: [open(filename, "w")] creates or empties the file, then the
    characters arrive one by one.  (How many arrive at a time depends on the buffers of
    Python and the operating system; a crash can happen between any two of them.) *)
Inductive fstep := Truncate | Put (c : ascii).
Definition file := option text.
Definition do_step (f : file) (s : fstep) : file :=
  match s with
  | Truncate => Some []
  | Put c => Some (match f with Some t => t | None => [] end ++ [c])
  end.
Definition run_steps (l : list fstep) (f : file) : file := fold_left do_step l f.

(** io.py:84-98 [write_json]: the steps and the exception at the end.  The document is
    built before the file is opened. *)
Definition write_json (f : number_format) (obj : value) : list fstep * option exn :=
  match recursive_to_dict obj false with                                       (* 96 *)
  | Err e => ([], Some e)
  | Ok export =>
      let '(t, e) := json_emit f (VDict export) in
      (Truncate :: map Put t, e)                                               (* 97-98 *)
  end.

(** ** yaml.dump *)

(** yaml.dump writes the keys of a dictionary in sorted order. *)
Fixpoint insert_key (kv : string * value) (d : dict) : dict :=
  match d with
  | [] => [kv]
  | kv' :: d' => if String.leb (fst kv) (fst kv') then kv :: d else kv' :: insert_key kv d'
  end.
Fixpoint sort_keys (d : dict) : dict :=
  match d with
  | [] => []
  | kv :: d => insert_key kv (sort_keys d)
  end.

(** io.py:49-63 [write_yaml] interrupted after [k] entries of the document.  In block
    style every entry begins on a line of its own, and the lines of the first [k] entries
    are a document with these entries.  (The file can also break off within an entry;
    that is not modelled.) *)
Definition yaml_entries (obj : value) : res dict :=
  bind (recursive_to_dict obj true) (fun export => Ok (sort_keys export)).

(** io.py:66-81 [read_yaml] of such a file; an empty file is the document None. *)
Definition read_yaml_entries (env : modules) (entries : dict) : res value :=
  match entries with
  | [] => dict_to_object env VNone
  | _ => bind (yaml_file (VDict entries)) (dict_to_object env)
  end.
