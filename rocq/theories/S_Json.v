(** JSON documents: the grammar of RFC 8259, extended by what Python's decoder accepts
    (NaN and Infinity) and widened for literals and strings: any word of letters, digits,
    signs and dots is taken as a literal, any escaped character is allowed, so that every
    text Python's decoder accepts is a document here. *)
From Coq Require Import List String Ascii Arith Bool.
From Verif Require Import M_Files.
Import ListNotations.

Definition is_space (c : ascii) : Prop := In (nat_of_ascii c) [32; 9; 10; 13].
Definition spaces (t : list ascii) : Prop := Forall is_space t.

(** Letters, digits, plus, minus and the dot. *)
Definition is_literal (c : ascii) : Prop :=
  let n := nat_of_ascii c in
  48 <= n <= 57 \/ 65 <= n <= 90 \/ 97 <= n <= 122 \/ In n [43; 45; 46].

Definition c_quote := ascii_of_nat 34.
Definition c_backslash := ascii_of_nat 92.

(** The characters of a string between its quotes. *)
Inductive string_body : list ascii -> Prop :=
| sb_nil : string_body []
| sb_char c t : c <> c_quote -> c <> c_backslash -> string_body t -> string_body (c :: t)
| sb_escape c t : string_body t -> string_body (c_backslash :: c :: t).

Inductive json_string : list ascii -> Prop :=
| js_string t : string_body t -> json_string (c_quote :: t ++ [c_quote]).

Inductive json_value : list ascii -> Prop :=
| jv_literal t : t <> [] -> Forall is_literal t -> json_value t
| jv_string t : json_string t -> json_value t
| jv_array_empty w : spaces w -> json_value (["["%char] ++ w ++ ["]"%char])
| jv_array t : json_elements t -> json_value (["["%char] ++ t ++ ["]"%char])
| jv_object_empty w : spaces w -> json_value (["{"%char] ++ w ++ ["}"%char])
| jv_object t : json_members t -> json_value (["{"%char] ++ t ++ ["}"%char])
with json_elements : list ascii -> Prop :=
| je_one w v w' : spaces w -> json_value v -> spaces w' -> json_elements (w ++ v ++ w')
| je_more w v w' t : spaces w -> json_value v -> spaces w' -> json_elements t ->
    json_elements (w ++ v ++ w' ++ [","%char] ++ t)
with json_members : list ascii -> Prop :=
| jm_one w k w' v w'' : spaces w -> json_string k -> spaces w' -> json_value v -> spaces w'' ->
    forall w''', spaces w''' -> json_members (w ++ k ++ w' ++ [":"%char] ++ w'' ++ v ++ w''')
| jm_more w k w' v w'' w''' t : spaces w -> json_string k -> spaces w' -> spaces w'' -> json_value v ->
    spaces w''' -> json_members t ->
    json_members (w ++ k ++ w' ++ [":"%char] ++ w'' ++ v ++ w''' ++ [","%char] ++ t).

Definition json_document (t : list ascii) : Prop :=
  exists w v w', spaces w /\ json_value v /\ spaces w' /\ t = w ++ v ++ w'.

(** Numbers are written as literals. *)
Definition literal (t : list ascii) : Prop := t <> [] /\ Forall is_literal t.
Definition literal_numbers (f : number_format) : Prop :=
  (forall x, literal (float_text f x)) /\ (forall z, literal (int_text f z)).
