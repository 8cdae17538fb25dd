(** Facts about the text of JSON documents: every prefix of a written document that is not
    the whole document is inside of an open brace. *)
From Coq Require Import Reals ZArith List String Ascii Arith Bool Lia.
From Verif Require Import M_Prelude M_IO M_Files S_Json.
Import ListNotations.
Local Open Scope string_scope.
Local Open Scope list_scope.
Local Open Scope nat_scope.
Set Bullet Behavior "Strict Subproofs".

(** A scanner that counts open brackets outside of strings. *)
Inductive mode := Out | Ins | Esc.
Definition scan1 (s : nat * mode) (c : ascii) : nat * mode :=
  let '(d, m) := s in
  match m with
  | Esc => (d, Ins)
  | Ins => if Ascii.eqb c c_quote then (d, Out) else if Ascii.eqb c c_backslash then (d, Esc) else (d, Ins)
  | Out => if Ascii.eqb c c_quote then (d, Ins)
           else if Ascii.eqb c "["%char || Ascii.eqb c "{"%char then (S d, Out)
           else if Ascii.eqb c "]"%char || Ascii.eqb c "}"%char then (pred d, Out) else (d, Out)
  end.
Definition scan (s : nat * mode) (t : list ascii) : nat * mode := fold_left scan1 t s.

Lemma scan_app s a b : scan s (a ++ b) = scan (scan s a) b.
Proof. apply fold_left_app. Qed.
Lemma scan_cons s c t : scan s (c :: t) = scan (scan1 s c) t.
Proof. reflexivity. Qed.

Definition closed (t : text) := forall d, scan (d, Out) t = (d, Out).
Definition above (t : text) := forall d p q, t = p ++ q -> d <= fst (scan (d, Out) p).

Definition neutral (c : ascii) := forall d, scan1 (d, Out) c = (d, Out).

Lemma neutral_by_code c : (forall n, In n [34; 91; 93; 123; 125] -> nat_of_ascii c <> n) -> neutral c.
Proof.
  intros H d. unfold scan1.
  assert (E : forall x, In (nat_of_ascii x) [34; 91; 93; 123; 125] -> Ascii.eqb c x = false).
  { intros x Hx. destruct (Ascii.eqb_spec c x) as [->|]; auto. exfalso. eapply H; eauto. }
  rewrite !E; [reflexivity|..]; cbn; tauto.
Qed.

Lemma space_neutral c : is_space c -> neutral c.
Proof.
  unfold is_space. intros H. apply neutral_by_code. intros n Hn E. rewrite E in H.
  cbn in H, Hn. intuition lia.
Qed.
Lemma literal_neutral c : is_literal c -> neutral c.
Proof.
  unfold is_literal. intros H. apply neutral_by_code. intros n Hn E. rewrite E in H.
  cbn in H, Hn. intuition lia.
Qed.

Lemma neutral_scan t d : Forall neutral t -> scan (d, Out) t = (d, Out).
Proof. induction 1; [reflexivity|]. rewrite scan_cons, H. exact IHForall. Qed.
Lemma neutral_closed t : Forall neutral t -> closed t.
Proof. intros H d. now apply neutral_scan. Qed.
Lemma neutral_above t : Forall neutral t -> above t.
Proof.
  intros H d p q E. subst t. apply Forall_app in H. rewrite neutral_scan; [cbn; lia|tauto].
Qed.

Lemma Forall_imp {A} (P Q : A -> Prop) l : (forall x, P x -> Q x) -> Forall P l -> Forall Q l.
Proof. induction 2; auto. Qed.
Lemma spaces_closed t : spaces t -> closed t.
Proof. intros H. apply neutral_closed. eapply Forall_imp; [apply space_neutral|exact H]. Qed.
Lemma literal_closed t : Forall is_literal t -> closed t.
Proof. intros H. apply neutral_closed. eapply Forall_imp; [apply literal_neutral|exact H]. Qed.

Lemma closed_app a b : closed a -> closed b -> closed (a ++ b).
Proof. intros Ha Hb d. now rewrite scan_app, Ha, Hb. Qed.

Lemma prefix_app (a b p q : text) : a ++ b = p ++ q ->
  (exists r, a = p ++ r) \/ (exists r, p = a ++ r /\ b = r ++ q).
Proof.
  revert p. induction a as [|x a IH]; intros p E.
  - right. exists p. auto.
  - destruct p as [|y p]; [left; exists (x :: a); reflexivity|].
    cbn in E. injection E as -> E. destruct (IH p E) as [[r ->]|[r [-> ->]]]; [left|right]; exists r; auto.
Qed.

Lemma above_app a b : above a -> closed a -> above b -> above (a ++ b).
Proof.
  intros Ha Hc Hb d p q E. destruct (prefix_app _ _ _ _ E) as [[r Er]|[r [-> Eb]]].
  - eauto.
  - rewrite scan_app, Hc. eauto.
Qed.

Lemma scan_in_body t d u : string_body t -> scan (d, Ins) (t ++ u) = scan (d, Ins) u.
Proof.
  induction 1 as [|c t Hq Hb _ IH|c t _ IH]; cbn [app]; [reflexivity| |].
  - rewrite scan_cons. cbn [scan1]. destruct (Ascii.eqb_spec c c_quote); [contradiction|].
    destruct (Ascii.eqb_spec c c_backslash); [contradiction|]. exact IH.
  - rewrite !scan_cons. cbn [scan1].
    destruct (Ascii.eqb_spec c_backslash c_quote) as [E|]; [discriminate E|].
    destruct (Ascii.eqb_spec c_backslash c_backslash) as [E|]; [|congruence]. exact IH.
Qed.

Lemma json_string_closed t : json_string t -> closed t.
Proof.
  intros [b Hb] d. rewrite scan_cons. unfold scan1 at 1.
  destruct (Ascii.eqb_spec c_quote c_quote); [|congruence].
  rewrite scan_in_body by exact Hb. reflexivity.
Qed.

(** Inside of a string the depth stays. *)
Lemma body_prefix_depth t : string_body t -> forall d p q, t = p ++ q -> fst (scan (d, Ins) p) = d.
Proof.
  induction 1 as [|c t Hq Hb Ht IH|c t Ht IH]; intros d p q E.
  - destruct p; [reflexivity|discriminate].
  - destruct p as [|c' p]; [reflexivity|]. injection E as <- E. rewrite scan_cons. cbn [scan1].
    destruct (Ascii.eqb_spec c c_quote); [contradiction|].
    destruct (Ascii.eqb_spec c c_backslash); [contradiction|]. eauto.
  - destruct p as [|c1 p]; [reflexivity|]. injection E as <- E.
    destruct p as [|c2 p]; [reflexivity|]. injection E as <- E. rewrite !scan_cons. cbn [scan1].
    destruct (Ascii.eqb_spec c_backslash c_quote) as [E'|]; [discriminate E'|].
    destruct (Ascii.eqb_spec c_backslash c_backslash) as [E'|]; [|congruence]. eauto.
Qed.

Lemma json_string_above t : json_string t -> above t.
Proof.
  intros [b Hb] d p q E. destruct p as [|c p]; [cbn; lia|]. injection E as <- E.
  rewrite scan_cons. unfold scan1. destruct (Ascii.eqb_spec c_quote c_quote); [|congruence].
  destruct (prefix_app _ _ _ _ E) as [[r Er]|[r [-> Er]]].
  - rewrite (body_prefix_depth b Hb d p r Er). lia.
  - destruct r as [|c r].
    + rewrite (body_prefix_depth b Hb d (b ++ []) []) by now rewrite !app_nil_r. lia.
    + injection Er as <- Er. destruct r; [|discriminate]. rewrite scan_in_body by exact Hb. cbn. lia.
Qed.

Definition opening (c : ascii) := c = "["%char \/ c = "{"%char.
Definition closing (c : ascii) := c = "]"%char \/ c = "}"%char.
Lemma scan_opening c d : opening c -> scan1 (d, Out) c = (S d, Out).
Proof. intros [-> | ->]; reflexivity. Qed.
Lemma scan_closing c d : closing c -> scan1 (S d, Out) c = (d, Out).
Proof. intros [-> | ->]; reflexivity. Qed.

Lemma closed_brackets o c t : opening o -> closing c -> closed t -> closed (o :: t ++ [c]).
Proof.
  intros Ho Hc Ht d. rewrite scan_cons, scan_opening, scan_app, Ht by exact Ho.
  unfold scan. cbn [fold_left]. now rewrite scan_closing.
Qed.

(** ** Documents *)
Scheme json_value_mut := Induction for json_value Sort Prop
  with json_elements_mut := Induction for json_elements Sort Prop
  with json_members_mut := Induction for json_members Sort Prop.

Lemma comma_closed : closed [","%char]. Proof. intro d. reflexivity. Qed.
Lemma colon_closed : closed [":"%char]. Proof. intro d. reflexivity. Qed.

Lemma json_value_closed t : json_value t -> closed t.
Proof.
  intros H. induction H using json_value_mut with
    (P0 := fun t _ => closed t) (P1 := fun t _ => closed t);
    cbn [app]; auto using json_string_closed, literal_closed;
    try (apply closed_brackets; [now (left + right)|now (left + right)|auto using spaces_closed]);
    repeat apply closed_app; auto using spaces_closed, json_string_closed, comma_closed, colon_closed;
    try (change (closed ([","%char] ++ t)); apply closed_app; auto using comma_closed).
Qed.

(** ** What the encoder writes *)

Section value_induction.
  Variable P : value -> Prop.
  Hypothesis HInt : forall z, P (VInt z).
  Hypothesis HFloat : forall x, P (VFloat x).
  Hypothesis HNp : forall x, P (VNpFloat x).
  Hypothesis HBool : forall b, P (VBool b).
  Hypothesis HStr : forall s, P (VStr s).
  Hypothesis HNone : P VNone.
  Hypothesis HList : forall l, Forall P l -> P (VList l).
  Hypothesis HTuple : forall l, Forall P l -> P (VTuple l).
  Hypothesis HArray : forall a, P (VArray a).
  Hypothesis HDict : forall d, Forall (fun kv => P (snd kv)) d -> P (VDict d).
  Hypothesis HObj : forall m c d, P (VObj m c d).
  Fixpoint value_induction (v : value) : P v :=
    match v with
    | VInt z => HInt z | VFloat x => HFloat x | VNpFloat x => HNp x | VBool b => HBool b
    | VStr s => HStr s | VNone => HNone
    | VList l => HList l ((fix all l := match l return Forall P l with
                            | [] => Forall_nil _
                            | x :: l => Forall_cons _ (value_induction x) (all l) end) l)
    | VTuple l => HTuple l ((fix all l := match l return Forall P l with
                            | [] => Forall_nil _
                            | x :: l => Forall_cons _ (value_induction x) (all l) end) l)
    | VArray a => HArray a
    | VDict d => HDict d ((fix all d := match d return Forall (fun kv => P (snd kv)) d with
                            | [] => Forall_nil _
                            | kv :: d => Forall_cons _ (value_induction (snd kv)) (all d) end) d)
    | VObj m c d => HObj m c d
    end.
End value_induction.

Fixpoint emit_rest (f : number_format) (l : list value) : emission :=
  match l with
  | [] => ([], None)
  | x :: l => then_emit (out ", ") (then_emit (json_emit f x) (emit_rest f l))
  end.
Fixpoint emit_members (f : number_format) (d : dict) : emission :=
  match d with
  | [] => ([], None)
  | (k, x) :: d =>
      then_emit (out ", ")
        (then_emit (json_string_text k, None) (then_emit (out ": ") (then_emit (json_emit f x) (emit_members f d))))
  end.

Lemma emit_list f x l : json_emit f (VList (x :: l)) =
  then_emit (out "[") (then_emit (json_emit f x) (then_emit (emit_rest f l) (out "]"))).
Proof.
  cbn [json_emit]. do 3 f_equal. induction l as [|y l IH]; [reflexivity|].
  cbn [emit_rest]. now rewrite <- IH.
Qed.
Lemma emit_tuple f l : json_emit f (VTuple l) = json_emit f (VList l).
Proof. reflexivity. Qed.
Lemma emit_dict f k x d : json_emit f (VDict ((k, x) :: d)) =
  then_emit (out "{") (then_emit (json_string_text k, None) (then_emit (out ": ")
    (then_emit (json_emit f x) (then_emit (emit_members f d) (out "}"))))).
Proof.
  cbn [json_emit]. do 5 f_equal. induction d as [|[k' y] d IH]; [reflexivity|].
  cbn [emit_members]. now rewrite <- IH.
Qed.

Lemma then_assoc a b c : then_emit a (then_emit b c) = then_emit (then_emit a b) c.
Proof.
  unfold then_emit. destruct a as [ta [ea|]], b as [tb [eb|]]; cbn; auto. now rewrite app_assoc.
Qed.
Lemma then_none a b : snd (then_emit a b) = None -> snd a = None /\ snd b = None
  /\ fst (then_emit a b) = fst a ++ fst b.
Proof. unfold then_emit. destruct a as [ta [ea|]]; cbn; [discriminate|auto]. Qed.

Lemma then_none_intro a b : snd a = None -> snd b = None -> snd (then_emit a b) = None.
Proof. unfold then_emit. intros -> H. exact H. Qed.

Definition fine (e : emission) := above (fst e) /\ (snd e = None -> closed (fst e)).
Lemma fine_then a b : fine a -> fine b -> fine (then_emit a b).
Proof.
  intros [A1 A2] [B1 B2]. unfold fine, then_emit. destruct a as [ta [ea|]]; cbn in *; auto.
  split; [apply above_app; auto|]. intros E. apply closed_app; auto.
Qed.

Lemma above_single c : neutral c -> above [c].
Proof. intros H. apply neutral_above. auto. Qed.
Lemma above_opening o t : opening o -> above t -> above (o :: t).
Proof.
  intros Ho H d p q E. destruct p as [|c p]; [cbn; lia|]. injection E as <- E.
  rewrite scan_cons, scan_opening by exact Ho. specialize (H (S d) p q E). lia.
Qed.
Lemma above_brackets o c t : opening o -> closing c -> above t -> closed t -> above (o :: t ++ [c]).
Proof.
  intros Ho Hc H Ht d p q E. destruct p as [|x p]; [cbn; lia|]. injection E as <- E.
  rewrite scan_cons, scan_opening by exact Ho.
  destruct (prefix_app _ _ _ _ E) as [[r Er]|[r [-> Er]]].
  - specialize (H (S d) p r Er). lia.
  - rewrite scan_app, Ht. destruct r as [|y r]; [cbn; lia|]. injection Er as <- Er.
    destruct r; [|discriminate]. unfold scan. cbn [fold_left]. rewrite scan_closing by exact Hc. cbn. lia.
Qed.
Lemma fine_brackets o c e : opening o -> closing c -> fine e ->
  fine (then_emit ([o], None) (then_emit e ([c], None))).
Proof.
  intros Ho Hc [E1 E2]. unfold fine, then_emit. destruct e as [t [x|]]; cbn in *.
  - split; [now apply above_opening|discriminate].
  - split; [apply above_brackets; auto|]. intros _. apply closed_brackets; auto.
Qed.

Lemma escape_body c : forall t, string_body t -> string_body (escape_char c ++ t).
Proof.
  intros t Ht. unfold escape_char.
  assert (Q : forall x u, nat_of_ascii x <> 34 -> nat_of_ascii x <> 92 -> string_body u -> string_body (x :: u)).
  { intros x u H1 H2 Hu. apply sb_char; auto; intros ->; [now apply H1|now apply H2]. }
  destruct (Nat.eqb_spec (nat_of_ascii c) 34). { cbn. now apply (sb_escape c). }
  destruct (Nat.eqb_spec (nat_of_ascii c) 92). { cbn. now apply (sb_escape c). }
  destruct (Nat.eqb_spec (nat_of_ascii c) 10). { cbn. now apply (sb_escape "n"%char). }
  destruct (Nat.eqb_spec (nat_of_ascii c) 13). { cbn. now apply (sb_escape "r"%char). }
  destruct (Nat.eqb_spec (nat_of_ascii c) 9). { cbn. now apply (sb_escape "t"%char). }
  destruct (Nat.eqb_spec (nat_of_ascii c) 12). { cbn. now apply (sb_escape "f"%char). }
  destruct (Nat.eqb_spec (nat_of_ascii c) 8). { cbn. now apply (sb_escape "b"%char). }
  destruct (_ && _)%bool. { cbn. auto. }
  assert (X : forall k, nat_of_ascii (hex_digit k) <> 34 /\ nat_of_ascii (hex_digit k) <> 92).
  { intros k. unfold hex_digit.
    do 16 (destruct k as [|k]; [split; discriminate|]).
    rewrite nth_overflow by (cbn; lia). split; discriminate. }
  cbn -[hex_digit Nat.div Nat.modulo]. apply (sb_escape "u"%char).
  apply Q; [discriminate|discriminate|]. apply Q; [discriminate|discriminate|].
  apply Q; try apply X. apply Q; try apply X. exact Ht.
Qed.

Lemma json_string_text_ok s : json_string (json_string_text s).
Proof.
  unfold json_string_text. apply (js_string (flat_map escape_char (chars s))).
  induction (chars s) as [|c t IH]; cbn [flat_map]; [constructor|]. now apply escape_body.
Qed.

Lemma comma_space_fine : fine (out ", ").
Proof.
  split; [apply neutral_above|intros _; apply neutral_closed]; repeat constructor; intro d; reflexivity.
Qed.
Lemma colon_space_fine : fine (out ": ").
Proof.
  split; [apply neutral_above|intros _; apply neutral_closed]; repeat constructor; intro d; reflexivity.
Qed.
Lemma string_fine s : fine (json_string_text s, None).
Proof.
  split; [apply json_string_above, json_string_text_ok|]. intros _. apply json_string_closed, json_string_text_ok.
Qed.

Definition good (e : emission) := above (fst e) /\ (snd e = None -> json_value (fst e)).
Lemma good_fine e : good e -> fine e.
Proof. intros [A B]. split; auto. intros E. apply json_value_closed; auto. Qed.

Lemma good_literal t : literal t -> good (t, None).
Proof.
  intros [H1 H2]. split.
  - apply neutral_above. eapply Forall_imp; [apply literal_neutral|exact H2].
  - intros _. now apply jv_literal.
Qed.

Lemma rest_fine f l : Forall (fun v => good (json_emit f v)) l -> fine (emit_rest f l).
Proof.
  induction 1 as [|x l Hx _ IH]; cbn [emit_rest].
  - split; [intros d p q E; destruct p; [cbn; lia|discriminate]|]. intros _ d. reflexivity.
  - apply fine_then; [apply comma_space_fine|]. apply fine_then; [apply good_fine, Hx|apply IH].
Qed.
Lemma rest_elements f l : Forall (fun v => good (json_emit f v)) l -> snd (emit_rest f l) = None ->
  forall w v, spaces w -> json_value v -> json_elements (w ++ v ++ fst (emit_rest f l)).
Proof.
  induction 1 as [|x l [_ Hx] _ IH]; intros E w v Hw Hv; cbn [emit_rest] in *.
  - cbn. apply je_one; auto. constructor.
  - apply then_none in E. destruct E as (_ & E & ->). apply then_none in E. destruct E as (E1 & E2 & ->).
    apply (je_more w v [] ([" "%char] ++ _)); auto; [constructor|].
    apply IH; auto. constructor; [|constructor]. cbn. auto.
Qed.
Lemma members_fine f d : Forall (fun kv => good (json_emit f (snd kv))) d -> fine (emit_members f d).
Proof.
  induction 1 as [|[k x] l Hx _ IH]; cbn [emit_members].
  - split; [intros n p q E; destruct p; [cbn; lia|discriminate]|]. intros _ n. reflexivity.
  - apply fine_then; [apply comma_space_fine|]. apply fine_then; [apply string_fine|].
    apply fine_then; [apply colon_space_fine|]. apply fine_then; [apply good_fine, Hx|apply IH].
Qed.
Lemma members_members f d : Forall (fun kv => good (json_emit f (snd kv))) d -> snd (emit_members f d) = None ->
  forall w k v, spaces w -> json_string k -> json_value v ->
  json_members (w ++ k ++ chars ": " ++ v ++ fst (emit_members f d)).
Proof.
  induction 1 as [|[k' x] l [_ Hx] _ IH]; intros E w k v Hw Hk Hv; cbn [emit_members] in *.
  - cbn [fst]. apply (jm_one w k [] v [" "%char] Hw Hk (Forall_nil _) Hv).
    + constructor; [|constructor]. cbn. auto.
    + constructor.
  - apply then_none in E. destruct E as (_ & E & ->). apply then_none in E. destruct E as (_ & E & ->).
    apply then_none in E. destruct E as (_ & E & ->). apply then_none in E. destruct E as (E1 & E2 & ->).
    apply (jm_more w k [] v [" "%char] [] ([" "%char] ++ _)); auto; try (constructor; fail).
    + constructor; [|constructor]. cbn. auto.
    + apply IH; auto; [|apply json_string_text_ok]. constructor; [|constructor]. cbn. auto.
Qed.

Definition dict_body (f : number_format) (k : string) (x : value) (d : dict) : emission :=
  then_emit (json_string_text k, None) (then_emit (out ": ") (then_emit (json_emit f x) (emit_members f d))).
Lemma emit_dict_body f k x d : json_emit f (VDict ((k, x) :: d)) =
  then_emit (out "{") (then_emit (dict_body f k x d) (out "}")).
Proof. rewrite emit_dict. unfold dict_body. now rewrite <- !then_assoc. Qed.
Lemma dict_body_fine f k x d : good (json_emit f x) -> Forall (fun kv => good (json_emit f (snd kv))) d ->
  fine (dict_body f k x d).
Proof.
  intros Hx Hd. apply fine_then; [apply string_fine|]. apply fine_then; [apply colon_space_fine|].
  apply fine_then; [now apply good_fine|now apply members_fine].
Qed.
Lemma dict_body_members f k x d : good (json_emit f x) -> Forall (fun kv => good (json_emit f (snd kv))) d ->
  snd (dict_body f k x d) = None -> json_members (fst (dict_body f k x d)).
Proof.
  intros [_ Hx] Hd E. unfold dict_body in *. apply then_none in E. destruct E as (_ & E & ->).
  apply then_none in E. destruct E as (_ & E & ->). apply then_none in E. destruct E as (E1 & E2 & ->).
  apply (members_members f d Hd E2 []); auto; [constructor|apply json_string_text_ok].
Qed.

Definition literalb (c : ascii) : bool :=
  let n := nat_of_ascii c in
  ((48 <=? n) && (n <=? 57) || (65 <=? n) && (n <=? 90) || (97 <=? n) && (n <=? 122)
   || (n =? 43) || (n =? 45) || (n =? 46))%bool.
Lemma literal_check t : t <> [] -> forallb literalb t = true -> literal t.
Proof.
  intros Hn H. split; auto. apply Forall_forall. intros c Hc. rewrite forallb_forall in H. specialize (H c Hc).
  unfold literalb in H. unfold is_literal. cbn [In].
  repeat rewrite orb_true_iff in H. repeat rewrite andb_true_iff in H.
  rewrite !Nat.leb_le, !Nat.eqb_eq in H. lia.
Qed.

Lemma emit_good f v : literal_numbers f -> good (json_emit f v).
Proof.
  intros [HF HI].
  assert (L : forall l, Forall (fun v => good (json_emit f v)) l -> good (json_emit f (VList l))).
  { intros l Hl. destruct l as [|x l].
    - split; [apply (above_brackets "[" "]" []); try (now (left + right))|].
      + intros d p q E. destruct p; [cbn; lia|discriminate].
      + intro d. reflexivity.
      + intros _. apply (jv_array_empty []). constructor.
    - inversion_clear Hl as [|? ? Hx Hl']. rewrite emit_list, (then_assoc (json_emit f x)). split.
      + apply (fine_brackets "[" "]"); try (now (left + right)).
        apply fine_then; [now apply good_fine|now apply rest_fine].
      + intros E. apply then_none in E. destruct E as (_ & E & ->). apply then_none in E. destruct E as (E & _ & ->).
        apply then_none in E. destruct E as (E1 & E2 & ->).
        apply jv_array. apply (rest_elements f l Hl' E2 []); [constructor|]. now apply Hx. }
  induction v using value_induction.
  - cbn [json_emit]. now apply good_literal.
  - cbn [json_emit]. now apply good_literal.
  - cbn [json_emit]. now apply good_literal.
  - cbn [json_emit]. destruct b; apply good_literal; apply literal_check; (discriminate || reflexivity).
  - split; [apply json_string_above, json_string_text_ok|]. intros _. apply jv_string, json_string_text_ok.
  - cbn [json_emit]. apply good_literal; apply literal_check; [discriminate|reflexivity].
  - now apply L.
  - rewrite emit_tuple. now apply L.
  - split; [intros d p q E; destruct p; [cbn; lia|discriminate]|discriminate].
  - destruct d as [|[k x] d].
    + split; [apply (above_brackets "{" "}" []); try (now (left + right))|].
      * intros d p q E. destruct p; [cbn; lia|discriminate].
      * intro d. reflexivity.
      * intros _. apply (jv_object_empty []). constructor.
    + inversion_clear H as [|? ? Hx Hd]. cbn [snd] in Hx. rewrite emit_dict_body. split.
      * apply (fine_brackets "{" "}"); try (now (left + right)). now apply dict_body_fine.
      * intros E. apply then_none in E. destruct E as (_ & E & ->). apply then_none in E. destruct E as (E & _ & ->).
        apply jv_object. now apply dict_body_members.
  - split; [intros d' p q E; destruct p; [cbn; lia|discriminate]|discriminate].
Qed.

(** ** Documents that break off *)
Lemma json_value_nonempty t : json_value t -> t <> [].
Proof. intros H E. subst. inversion H as [| ? H' | | | |]; subst; try congruence; inversion H'. Qed.

Lemma document_scan t : json_document t -> t <> [] /\ scan (0, Out) t = (0, Out).
Proof.
  intros (w & v & w' & Hw & Hv & Hw' & ->). split.
  - apply json_value_nonempty in Hv. destruct w; [|discriminate]. destruct v; [congruence|discriminate].
  - rewrite !scan_app, (spaces_closed w Hw), (json_value_closed v Hv), (spaces_closed w' Hw'). reflexivity.
Qed.

Lemma value_document t : json_value t -> json_document t.
Proof. intros H. exists [], t, []. repeat split; auto; try constructor. now rewrite app_nil_r. Qed.

(** What is written of a dictionary: the whole text is a document, everything else is not. *)
Lemma emit_dict_prefix f d p q : literal_numbers f -> fst (json_emit f (VDict d)) = p ++ q ->
  json_document p -> q = [] /\ snd (json_emit f (VDict d)) = None.
Proof.
  intros Hf E Hp. apply document_scan in Hp. destruct Hp as [Hne Hs].
  assert (K : forall e, fine e -> fst (then_emit (out "{") (then_emit e (out "}"))) = p ++ q ->
     q = [] /\ snd (then_emit (out "{") (then_emit e (out "}"))) = None).
  { intros e [E1 E2] EE. destruct p as [|c p]; [congruence|]. destruct e as [t [x|]]; cbn in E1, E2, EE |- *.
    - exfalso. injection EE as <- EE. change (scan (1, Out) p = (0, Out)) in Hs.
      specialize (E1 1 p q EE). rewrite Hs in E1. cbn in E1. lia.
    - injection EE as <- EE. change (scan (1, Out) p = (0, Out)) in Hs.
      destruct (prefix_app _ _ _ _ EE) as [[r Er]|[r [-> Er]]].
      + specialize (E1 1 p r Er). rewrite Hs in E1. cbn in E1. lia.
      + destruct r as [|y r].
        * rewrite app_nil_r in Hs. rewrite E2 in Hs by reflexivity. discriminate.
        * injection Er as <- Er. apply eq_sym, app_eq_nil in Er. tauto. }
  assert (G : forall v, good (json_emit f v)) by (intro; now apply emit_good).
  destruct d as [|[k x] d].
  - apply (K ([], None)); auto. split; [intros n a b E'; destruct a; [cbn; lia|discriminate]|]. intros _ n. reflexivity.
  - rewrite emit_dict_body in *. apply K; auto. apply dict_body_fine; auto.
    apply Forall_forall. intros. apply G.
Qed.

Lemma run_puts t f : run_steps (map Put t) f = match t with [] => f | _ =>
  Some (match f with Some u => u | None => [] end ++ t) end.
Proof.
  revert f. induction t as [|c t IH]; intros f; [reflexivity|].
  cbn [map run_steps fold_left]. unfold run_steps in IH. rewrite IH. cbn [do_step].
  destruct t; [reflexivity|]. now rewrite <- app_assoc.
Qed.
Lemma run_write t f : run_steps (Truncate :: map Put t) f = Some t.
Proof.
  unfold run_steps. cbn [fold_left do_step]. change (fold_left do_step (map Put t) (Some []))
    with (run_steps (map Put t) (Some [])). rewrite run_puts. now destruct t.
Qed.
