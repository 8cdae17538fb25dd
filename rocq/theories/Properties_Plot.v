(** C83 and C84: what reaches which panel of a figure, and which geometries are shown. *)
From Coq Require Import Reals ZArith List String Arith Bool Lia Lra.
From Verif Require Import M_Prelude M_Plot.
Import ListNotations.
Local Open Scope nat_scope.
Set Bullet Behavior "Strict Subproofs".

(** ** Specification *)

(** Row and column of a panel, counted from 0 from the top left. *)
Definition panel_row (a : axes) : nat := (ax_k a - 1) / ax_w a.
Definition panel_col (a : axes) : nat := (ax_k a - 1) mod ax_w a.

Definition axes_eq_dec (a b : axes) : {a = b} + {a <> b}.
Proof. decide equality; apply Nat.eq_dec. Defined.

(** What one panel has received, in order. *)
Definition received (l : log axes) (a : axes) : list command :=
  map snd (filter (fun e => if axes_eq_dec (fst e) a then true else false) l).

(** Column [i] of a table. *)
Definition values (a : table) (i : nat) : list R := map (fun t => cell a t i) (seq 0 (rows a)).

(** The position of dimension [i]: along the rows, or with [transpose] along the columns. *)
Definition wanted_row (h w : nat) (transpose : bool) (i : nat) := if transpose then i mod h else i / w.
Definition wanted_col (h w : nat) (transpose : bool) (i : nat) := if transpose then i / h else i mod w.

(** The times on the horizontal axis and its name. *)
Definition times (n : nat) (t : option (list R)) : list R :=
  match t with Some ts => ts | None => map INR (seq 0 n) end.
Definition time_name (t : option (list R)) : string :=
  match t with Some _ => "Time [s]"%string | None => "Step"%string end.

(** The layout of a panel: title, name or no ticks, limits. *)
Definition layout (h w : nat) (transpose : bool) (titles : list string) (name : string) (ts : list R) (i : nat)
  : list command :=
  [Title (nth i titles (default_title i));
   if wanted_row h w transpose i =? h - 1 then XLabel name else NoXTicks;
   XLim (nth 0 ts 0%R) (last ts 0%R)].

(** The mean and one band per factor; the label goes to the first band. *)
Definition bands (ts : list R) (label color : option string) (alpha : R) (m s : table) (i : nat) (factors : list R)
  : list command :=
  map (fun p => Band ts (map (fun t => (cell m t i - snd p * cell s t i)%R) (seq 0 (rows m)))
                        (map (fun t => (cell m t i + snd p * cell s t i)%R) (seq 0 (rows m)))
                        (fst p) color alpha)
      (combine (label :: repeat None (List.length factors)) factors).
Definition dashes (ts : list R) (label color : option string) (m s : table) (i : nat) (factors : list R)
  : list command :=
  flat_map (fun p => [Line ts (map (fun t => (cell m t i - snd p * cell s t i)%R) (seq 0 (rows m))) (fst p) color true;
                      Line ts (map (fun t => (cell m t i + snd p * cell s t i)%R) (seq 0 (rows m))) None color true])
      (combine (label :: repeat None (List.length factors)) factors).

(** ** Helper facts *)
Lemma dbind_ok {A B C} (l : log A) (b : B) (f : B -> drawing A C) :
  dbind (l, Ok b) f = (l ++ fst (f b), snd (f b)).
Proof. reflexivity. Qed.

Lemma dbind_ret {A B C} (b : B) (f : B -> drawing A C) : dbind (ret b) f = f b.
Proof. unfold dbind, ret. cbn. now destruct (f b). Qed.

Lemma for_range_ok {A} n (body : nat -> drawing A unit) ev :
  (forall i, i < n -> body i = (ev i, Ok tt)) -> for_range n body = (flat_map ev (seq 0 n), Ok tt).
Proof.
  induction n as [|n IH]; intros H; [reflexivity|]. cbn [for_range]. rewrite IH by (intros; apply H; lia).
  rewrite dbind_ok, H by lia. cbn [fst snd]. rewrite seq_S, flat_map_app. cbn [flat_map Nat.add].
  now rewrite app_nil_r.
Qed.

Lemma for_range_err {A} n (body : nat -> drawing A unit) ev k e l :
  k < n -> (forall i, i < k -> body i = (ev i, Ok tt)) -> body k = (l, Err e) ->
  for_range n body = (flat_map ev (seq 0 k) ++ l, Err e).
Proof.
  intros Hk H He. induction n as [|n IH]; [lia|]. cbn [for_range].
  destruct (Nat.eq_dec k n) as [->|Hne].
  - rewrite (for_range_ok n body ev H), dbind_ok, He. reflexivity.
  - rewrite IH by lia. reflexivity.
Qed.

Lemma received_app l l' a : received (l ++ l') a = received l a ++ received l' a.
Proof. unfold received. now rewrite filter_app, map_app. Qed.

Definition on (a : axes) (cs : list command) : log axes := map (pair a) cs.

Lemma received_on a b cs : received (on a cs) b = if axes_eq_dec a b then cs else [].
Proof.
  unfold received, on. induction cs as [|c cs IH]; [now destruct (axes_eq_dec a b)|].
  cbn [map filter fst]. destruct (axes_eq_dec a b); [|exact IH]. cbn [map snd]. now rewrite IH.
Qed.

Lemma received_loop (ax : nat -> axes) cs n i :
  (forall j, j < n -> ax j = ax i -> j = i) -> i < n ->
  received (flat_map (fun j => on (ax j) (cs j)) (seq 0 n)) (ax i) = cs i.
Proof.
  intros Hinj. assert (G : forall m, m <= n ->
    received (flat_map (fun j => on (ax j) (cs j)) (seq 0 m)) (ax i) = if i <? m then cs i else []).
  { induction m as [|m IH]; intros Hm; [reflexivity|].
    rewrite seq_S, flat_map_app, received_app, IH by lia. cbn [flat_map Nat.add]. rewrite app_nil_r, received_on.
    destruct (axes_eq_dec (ax m) (ax i)) as [E|E].
    - apply Hinj in E; [|lia]. subst m. rewrite Nat.ltb_irrefl.
      replace (i <? S i) with true by (symmetry; apply Nat.ltb_lt; lia). reflexivity.
    - destruct (Nat.ltb_spec i m); destruct (Nat.ltb_spec i (S m)); try lia; rewrite ?app_nil_r; try reflexivity.
      assert (i = m) by lia. congruence. }
  intros Hi. rewrite G by lia. now replace (i <? n) with true by (symmetry; apply Nat.ltb_lt; lia).
Qed.

(** ** Panels *)
Definition ax_of h w transpose i := {| ax_h := h; ax_w := w; ax_k := 1 + dim_index h w transpose i |}.

Lemma dim_index_bound h w tr i : 1 <= h -> 1 <= w -> i < h * w -> dim_index h w tr i < h * w.
Proof.
  intros Hh Hw Hi. unfold dim_index. destruct tr; [|exact Hi].
  pose proof (Nat.mod_upper_bound i h ltac:(lia)).
  assert (i / h < w) by (apply Nat.div_lt_upper_bound; lia). nia.
Qed.

Lemma create_axes_ok n h w tr : 1 <= h -> 1 <= w -> n <= h * w ->
  create_axes n (h, w) tr = Ok (map (ax_of h w tr) (seq 0 n)).
Proof.
  intros Hh Hw Hn. unfold create_axes.
  replace (h =? 0) with false by (symmetry; apply Nat.eqb_neq; lia). rewrite andb_false_r, andb_false_l.
  assert (G : forall i, In i (seq 0 n) -> i < h * w) by (intros i Hi; apply in_seq in Hi; lia).
  induction (seq 0 n) as [|i l IH]; [reflexivity|]. cbn [map]. rewrite IH by (intros; apply G; cbn; auto).
  unfold subplot. pose proof (dim_index_bound h w tr i Hh Hw (G i (or_introl eq_refl))) as Hb.
  replace (1 <=? h) with true by (symmetry; apply Nat.leb_le; lia).
  replace (1 <=? w) with true by (symmetry; apply Nat.leb_le; lia).
  replace (1 + dim_index h w tr i <=? h * w) with true by (symmetry; apply Nat.leb_le; lia).
  reflexivity.
Qed.

Lemma ax_of_row h w tr i : 1 <= h -> 1 <= w -> i < h * w -> panel_row (ax_of h w tr i) = wanted_row h w tr i.
Proof.
  intros Hh Hw Hi. unfold panel_row, wanted_row, ax_of, dim_index. cbn [ax_k ax_w].
  destruct tr; rewrite Nat.add_comm, Nat.add_sub; [|reflexivity].
  rewrite Nat.div_add_l by lia. rewrite (Nat.div_small (i / h)) by (apply Nat.div_lt_upper_bound; lia). lia.
Qed.

Lemma ax_of_col h w tr i : 1 <= h -> 1 <= w -> i < h * w -> panel_col (ax_of h w tr i) = wanted_col h w tr i.
Proof.
  intros Hh Hw Hi. unfold panel_col, wanted_col, ax_of, dim_index. cbn [ax_k ax_w].
  destruct tr; rewrite Nat.add_comm, Nat.add_sub; [|reflexivity].
  rewrite Nat.add_comm, Nat.mod_add by lia. apply Nat.mod_small. apply Nat.div_lt_upper_bound; lia.
Qed.

Lemma wanted_inj h w tr i j : 1 <= h -> 1 <= w ->
  wanted_row h w tr i = wanted_row h w tr j -> wanted_col h w tr i = wanted_col h w tr j -> i = j.
Proof.
  intros Hh Hw. unfold wanted_row, wanted_col. destruct tr; intros E1 E2.
  - rewrite (Nat.div_mod i h), (Nat.div_mod j h) by lia. now rewrite E1, E2.
  - rewrite (Nat.div_mod i w), (Nat.div_mod j w) by lia. now rewrite E1, E2.
Qed.

Lemma ax_of_inj h w tr i j : 1 <= h -> 1 <= w -> i < h * w -> j < h * w -> ax_of h w tr i = ax_of h w tr j -> i = j.
Proof.
  intros Hh Hw Hi Hj E. apply (wanted_inj h w tr); auto.
  - rewrite <- !ax_of_row by auto. now rewrite E.
  - rewrite <- !ax_of_col by auto. now rewrite E.
Qed.

Lemma NoDup_app_one {A} (l : list A) a : NoDup l -> ~ In a l -> NoDup (l ++ [a]).
Proof.
  induction 1 as [|x l Hx _ IH]; intros Ha; cbn; constructor; auto; try constructor.
  - rewrite in_app_iff. cbn in *. intuition.
  - apply IH. cbn in Ha. intuition.
Qed.

(** Every dimension has a panel of its own, in the order of the rows or, with [transpose],
    of the columns. *)
Theorem C83_panels : forall n h w transpose, 1 <= h -> 1 <= w -> n <= h * w ->
  exists l, create_axes n (h, w) transpose = Ok l /\ List.length l = n /\ NoDup l
    /\ forall i, i < n -> exists a, nth_error l i = Some a
         /\ ax_h a = h /\ ax_w a = w /\ 1 <= ax_k a <= h * w
         /\ panel_row a = wanted_row h w transpose i /\ panel_col a = wanted_col h w transpose i.
Proof.
  intros n h w tr Hh Hw Hn. exists (map (ax_of h w tr) (seq 0 n)). split; [now apply create_axes_ok|].
  split; [now rewrite map_length, seq_length|]. split.
  - assert (G : forall m, m <= h * w -> NoDup (map (ax_of h w tr) (seq 0 m))).
    { induction m as [|m IH]; intros Hm; [constructor|]. rewrite seq_S, map_app. cbn [map Nat.add].
      apply NoDup_app_one; [apply IH; lia|]. intros H. apply in_map_iff in H. destruct H as (j & E & Hj).
      apply in_seq in Hj. apply ax_of_inj in E; lia. }
    now apply G.
  - intros i Hi. exists (ax_of h w tr i). split.
    { rewrite nth_error_map. rewrite nth_error_nth' with (d := 0) by (rewrite seq_length; lia).
      now rewrite seq_nth by lia. }
    split; [reflexivity|]. split; [reflexivity|].
    pose proof (dim_index_bound h w tr i Hh Hw ltac:(lia)).
    split; [cbn [ax_of ax_k]; lia|]. split; [apply ax_of_row|apply ax_of_col]; auto; lia.
Qed.

Lemma create_axes_err n h w tr k : 1 <= h -> k < n -> h * w < 1 + dim_index h w tr k ->
  create_axes n (h, w) tr = Err ValueError.
Proof.
  intros Hh Hk Hb. unfold create_axes.
  replace (h =? 0) with false by (symmetry; apply Nat.eqb_neq; lia). rewrite andb_false_r, andb_false_l.
  assert (G : In k (seq 0 n)) by (apply in_seq; lia).
  induction (seq 0 n) as [|i l IH]; [destruct G|].
  destruct (Nat.eq_dec i k) as [->|Hne].
  - unfold subplot. replace (1 + dim_index h w tr k <=? h * w) with false by (symmetry; apply Nat.leb_gt; lia).
    rewrite andb_false_r. reflexivity.
  - rewrite IH by (destruct G; [contradiction|assumption]).
    unfold subplot. destruct (_ && _); reflexivity.
Qed.

(** More dimensions than panels raise ValueError. *)
Theorem C83_too_many : forall n h w, 1 <= h -> h * w < n ->
  create_axes n (h, w) false = Err ValueError.
Proof. intros n h w Hh Hn. apply (create_axes_err n h w false (h * w)); auto. Qed.

(** With [transpose] they do not: dimension h * w is drawn on top of dimension 1. *)
Theorem C83_too_many_refuted : forall h w, 2 <= h -> 1 <= w ->
  exists l, create_axes (S (h * w)) (h, w) true = Ok l /\ List.length l = S (h * w)
    /\ exists a, nth_error l 1 = Some a /\ nth_error l (h * w) = Some a.
Proof.
  intros h w Hh Hw. exists (map (ax_of h w true) (seq 0 (S (h * w)))).
  assert (Hd : dim_index h w true (h * w) = w).
  { unfold dim_index. rewrite (Nat.mul_comm h w), Nat.mod_mul, Nat.div_mul by lia. lia. }
  split; [|split; [now rewrite map_length, seq_length|]].
  - unfold create_axes.
    replace (h =? 0) with false by (symmetry; apply Nat.eqb_neq; lia). rewrite andb_false_r, andb_false_l.
    assert (G : forall i, In i (seq 0 (S (h * w))) -> dim_index h w true i < h * w).
    { intros i Hi. apply in_seq in Hi. destruct (Nat.eq_dec i (h * w)) as [->|]; [rewrite Hd; nia|].
      apply dim_index_bound; lia. }
    induction (seq 0 (S (h * w))) as [|i l IH]; [reflexivity|]. cbn [map].
    rewrite IH by (intros; apply G; cbn; auto).
    pose proof (G i (or_introl eq_refl)). unfold subplot.
    replace (1 <=? h) with true by (symmetry; apply Nat.leb_le; lia).
    replace (1 <=? w) with true by (symmetry; apply Nat.leb_le; lia).
    replace (1 + dim_index h w true i <=? h * w) with true by (symmetry; apply Nat.leb_le; lia).
    reflexivity.
  - exists (ax_of h w true 1). rewrite !nth_error_map.
    rewrite !nth_error_nth' with (d := 0) by (rewrite seq_length; nia).
    rewrite !seq_nth by nia. cbn [option_map Nat.add]. split; [reflexivity|].
    unfold ax_of. rewrite Hd. unfold dim_index. rewrite Nat.mod_1_l, Nat.div_1_l by lia. do 3 f_equal. lia.
Qed.

(** ** Trajectories *)
Lemma flat_map_singleton {A B} (f : A -> B) l : flat_map (fun x => [f x]) l = map f l.
Proof. induction l; cbn; congruence. Qed.

Lemma for_range_axes (l : list axes) n m (body : nat -> drawing axes unit) cs : m <= n -> n <= List.length l ->
  (forall i a, i < n -> nth_error l i = Some a -> body i = (on a (cs i), Ok tt)) ->
  for_range m body = (flat_map (fun p => on (snd p) (cs (fst p))) (combine (seq 0 m) l), Ok tt).
Proof.
  intros Hm Hl Hb. induction m as [|m IH]; [reflexivity|]. cbn [for_range]. rewrite IH by lia.
  destruct (nth_error l m) as [a|] eqn:Ea; [|apply nth_error_None in Ea; lia].
  rewrite dbind_ok, (Hb m a) by (auto; lia). cbn [fst snd]. f_equal.
  rewrite seq_S. cbn [Nat.add].
  assert (E : combine (seq 0 m ++ [m]) l = combine (seq 0 m) l ++ [(m, a)]).
  { assert (Gs : forall s q, nth_error q (List.length s) = Some a ->
      combine (s ++ [m]) q = combine s q ++ [(m, a)]).
    { induction s as [|x s IHs]; intros [|y q] Hq; try discriminate; cbn in *.
      - injection Hq as ->. destruct q; reflexivity.
      - now rewrite IHs. }
    apply Gs. now rewrite seq_length. }
  rewrite E, flat_map_app. cbn [flat_map fst snd]. now rewrite app_nil_r.
Qed.

Lemma item_ax h w tr n i : i < n -> @item axes axes (map (ax_of h w tr) (seq 0 n)) i = ret (ax_of h w tr i).
Proof.
  intros Hi. unfold item. rewrite nth_error_map. rewrite nth_error_nth' with (d := 0) by (rewrite seq_length; lia).
  now rewrite seq_nth by lia.
Qed.

Lemma bottom_row h w i : 1 <= h -> 1 <= w -> i < h * w ->
  ((1 <=? Z.of_nat (h * w) - Z.of_nat i)%Z && (Z.of_nat (h * w) - Z.of_nat i <=? Z.of_nat w)%Z)
  = (i / w =? h - 1).
Proof.
  intros Hh Hw Hi. replace (1 <=? Z.of_nat (h * w) - Z.of_nat i)%Z with true by (symmetry; apply Z.leb_le; lia).
  cbn [andb]. pose proof (Nat.div_mod i w ltac:(lia)) as E. pose proof (Nat.mod_upper_bound i w ltac:(lia)).
  assert (i / w < h) by (apply Nat.div_lt_upper_bound; lia).
  apply eq_true_iff_eq. rewrite Z.leb_le, Nat.eqb_eq. split; intros H2; nia.
Qed.

Lemma last_default {A} (l : list A) a b : l <> [] -> last l a = last l b.
Proof. induction l as [|x [|y l] IH]; intros H; [congruence|reflexivity|]. apply IH. discriminate. Qed.

Lemma layout_ok h w tr titles name ts n : 1 <= h -> 1 <= w -> n <= h * w -> ts <> [] ->
  dbind (ends ts) (fun lim => layout_axes (map (ax_of h w tr) (seq 0 n)) n (h, w) name lim tr titles)
  = (flat_map (fun i => on (ax_of h w tr i) (layout h w tr titles name ts i)) (seq 0 n), Ok tt).
Proof.
  intros Hh Hw Hn Hts. unfold ends. destruct ts as [|x ts]; [congruence|]. rewrite dbind_ret.
  unfold layout_axes. apply for_range_ok. intros i Hi. rewrite item_ax, dbind_ret by exact Hi.
  unfold issue at 1. rewrite dbind_ok.
  assert (T : match nth_error titles i with Some s => s | None => default_title i end = nth i titles (default_title i)).
  { clear. revert i. generalize (default_title). intros f i. generalize (f i). intros d.
    revert i. induction titles; intros [|i]; cbn; auto. }
  rewrite T. clear T.
  replace (h =? 0) with false by (symmetry; apply Nat.eqb_neq; lia). rewrite andb_false_r.
  rewrite bottom_row by lia. rewrite (last_default (x :: ts) x 0%R) by discriminate.
  unfold layout, wanted_row, on, issue. destruct tr; cbn [negb andb].
  - destruct (i mod h =? h - 1); reflexivity.
  - destruct (i / w =? h - 1); reflexivity.
Qed.

Definition shape_of (n : nat) (s : option (nat * nat)) : nat * nat := match s with Some p => p | None => (n, 1) end.

(** Without axes: every panel receives the curve of its dimension over the times that were
    given (or the step numbers) and its layout, and nothing else. *)
Theorem C83_trajectory : forall traj t label shape transpose titles color,
  let n := cols traj in let (h, w) := shape_of n shape in
  1 <= h -> 1 <= w -> n <= h * w -> 1 <= rows traj -> List.length (times (rows traj) t) = rows traj ->
  exists drawn l, plot_trajectory_in_rows traj t label None shape transpose titles color = (drawn, Ok l)
    /\ create_axes n (h, w) transpose = Ok l
    /\ (forall a c, In (a, c) drawn -> In a l)
    /\ forall i a, nth_error l i = Some a ->
         received drawn a = Line (times (rows traj) t) (values traj i) label color false
           :: layout h w transpose titles (time_name t) (times (rows traj) t) i.
Proof.
  intros traj t label shape tr titles color n.
  destruct (shape_of n shape) as [h w] eqn:ES. intros Hh Hw Hn Hr HT.
  set (l := map (ax_of h w tr) (seq 0 n)).
  assert (HL : create_axes n (h, w) tr = Ok l) by now apply create_axes_ok.
  set (xs := times (rows traj) t) in *.
  exists (flat_map (fun i => on (ax_of h w tr i) [Line xs (values traj i) label color false]) (seq 0 n)
       ++ flat_map (fun i => on (ax_of h w tr i) (layout h w tr titles (time_name t) xs i)) (seq 0 n)), l.
  split; [|split; [exact HL|split]].
  - unfold plot_trajectory_in_rows. fold n. unfold shape_of in ES. rewrite ES, HL.
    rewrite dbind_ok. cbn [app].
    change (match t with Some ts => ts | None => steps (rows traj) end) with xs.
    change (match t with Some _ => "Time [s]"%string | None => "Step"%string end) with (time_name t).
    rewrite (for_range_ok n _ (fun i => on (ax_of h w tr i) [Line xs (values traj i) label color false])).
    + rewrite dbind_ok. unfold l. rewrite (layout_ok h w tr titles (time_name t) xs n Hh Hw Hn).
      * rewrite dbind_ok. cbn [fst snd ret app]. now rewrite app_nil_r.
      * intros E. rewrite E in HT. cbn in HT. lia.
    + intros i Hi. unfold l. rewrite item_ax, dbind_ret by exact Hi. unfold column.
      replace (i <? cols traj) with true by (symmetry; apply Nat.ltb_lt; exact Hi). rewrite dbind_ret.
      unfold ax_plot. rewrite HT, map_length, seq_length, Nat.eqb_refl. reflexivity.
  - intros a c H. unfold l. apply in_app_or in H. destruct H as [H|H]; apply in_flat_map in H;
      destruct H as (i & Hi & H); unfold on in H; apply in_map_iff in H; destruct H as (x & E & _);
      injection E as <- _; now apply in_map.
  - intros i a Ha. unfold l in Ha. rewrite nth_error_map in Ha.
    destruct (nth_error (seq 0 n) i) as [j|] eqn:Ej; [|discriminate]. injection Ha as <-.
    assert (Hi : i < n) by (rewrite <- (seq_length n 0); apply nth_error_Some; congruence).
    rewrite nth_error_nth' with (d := 0) in Ej by (rewrite seq_length; lia).
    rewrite seq_nth in Ej by lia. injection Ej as <-.
    rewrite received_app. cbn [Nat.add].
    rewrite !received_loop; [reflexivity| | | |]; try exact Hi; intros j Hj E;
      apply (ax_of_inj h w tr) in E; auto; lia.
Qed.

(** With axes: they are drawn on in their order, nothing else is changed and they are
    returned. *)
Theorem C83_given_axes : forall traj t label l shape transpose titles color,
  cols traj <= List.length l -> List.length (times (rows traj) t) = rows traj ->
  plot_trajectory_in_rows traj t label (Some l) shape transpose titles color
  = (map (fun p => (snd p, Line (times (rows traj) t) (values traj (fst p)) label color false))
       (combine (seq 0 (cols traj)) l), Ok l).
Proof.
  intros traj t label l shape tr titles color Hl HT. unfold plot_trajectory_in_rows.
  set (n := cols traj) in *. rewrite dbind_ok. cbn [app].
  change (match t with Some ts => ts | None => steps (rows traj) end) with (times (rows traj) t).
  set (xs := times (rows traj) t) in *.
  rewrite (for_range_axes l n n _ (fun i => [Line xs (values traj i) label color false]));
    [rewrite dbind_ok; cbn [fst snd dbind ret app]; rewrite app_nil_r; unfold on; cbn [map]; now rewrite <- flat_map_singleton|lia|exact Hl|].
  intros i a Hi Ha. unfold item. rewrite Ha, dbind_ret. unfold column.
  replace (i <? cols traj) with true by (symmetry; apply Nat.ltb_lt; exact Hi). rewrite dbind_ret.
  unfold ax_plot. rewrite HT, map_length, seq_length, Nat.eqb_refl. reflexivity.
Qed.

(** Too few axes, or a time vector of another length, raise. *)
Theorem C83_too_few_axes : forall traj t label l shape transpose titles color,
  List.length l < cols traj -> List.length (times (rows traj) t) = rows traj ->
  snd (plot_trajectory_in_rows traj t label (Some l) shape transpose titles color) = Err IndexError.
Proof.
  intros traj t label l shape tr titles color Hl HT. unfold plot_trajectory_in_rows.
  rewrite dbind_ok. cbn [app].
  change (match t with Some ts => ts | None => steps (rows traj) end) with (times (rows traj) t).
  match goal with |- context [for_range ?n ?b] =>
    rewrite (for_range_err n b (fun i => match nth_error l i with
       | Some a => [(a, Line (times (rows traj) t) (values traj i) label color false)] | None => [] end)
       (List.length l) IndexError []) end.
  - reflexivity.
  - exact Hl.
  - intros i Hi. destruct (nth_error l i) as [a|] eqn:Ea; [|apply nth_error_None in Ea; lia].
    unfold item. rewrite Ea, dbind_ret. unfold column.
    replace (i <? cols traj) with true by (symmetry; apply Nat.ltb_lt; lia). rewrite dbind_ret.
    unfold ax_plot. rewrite HT, map_length, seq_length, Nat.eqb_refl. reflexivity.
  - unfold item. destruct (nth_error l (List.length l)) eqn:E; [|reflexivity].
    exfalso. assert (List.length l < List.length l) by (apply nth_error_Some; congruence). lia.
Qed.

Theorem C83_wrong_times : forall traj ts label axs shape transpose titles color,
  List.length ts <> rows traj -> 1 <= cols traj ->
  exists e, snd (plot_trajectory_in_rows traj (Some ts) label axs shape transpose titles color) = Err e.
Proof.
  intros traj ts label axs shape tr titles color HT Hc. unfold plot_trajectory_in_rows.
  match goal with |- context [dbind ([], ?m) _] => destruct m as [l|e] end; [|now exists e].
  rewrite dbind_ok. cbn [app snd].
  match goal with |- context [for_range ?n ?b] =>
    assert (G : exists q e, for_range n b = (q, Err e)) end.
  { destruct l as [|a l].
    - eexists _, _. apply (for_range_err _ _ (fun _ => []) 0 IndexError []); [lia|intros; lia|reflexivity].
    - eexists _, _. apply (for_range_err _ _ (fun _ => []) 0 ValueError []); [lia|intros; lia|].
      cbn [item nth_error]. rewrite dbind_ret. unfold column.
      replace (0 <? cols traj) with true by (symmetry; apply Nat.ltb_lt; lia). rewrite dbind_ret.
      unfold ax_plot. rewrite map_length, seq_length.
      replace (List.length ts =? rows traj) with false by (symmetry; apply Nat.eqb_neq; exact HT). reflexivity. }
  destruct G as (q & e & ->). now exists e.
Qed.

(** The name of the horizontal axis appears in the last row of the grid only: when no
    dimension reaches it, no panel has it, and no panel has ticks. *)
Theorem C83_bottom_refuted : forall traj t label h w (transpose : bool) titles color,
  let n := cols traj in
  2 <= h -> 1 <= w -> 1 <= n -> n <= (if transpose then h - 1 else (h - 1) * w) ->
  1 <= rows traj -> List.length (times (rows traj) t) = rows traj ->
  exists drawn l, plot_trajectory_in_rows traj t label None (Some (h, w)) transpose titles color = (drawn, Ok l)
    /\ List.length l = n
    /\ (forall a, In a l -> In NoXTicks (received drawn a))
    /\ (forall a s, ~ In (a, XLabel s) drawn).
Proof.
  intros traj t label h w tr titles color n Hh Hw H1 Hn Hr HT.
  assert (Hn' : n <= h * w) by (destruct tr; nia).
  destruct (C83_trajectory traj t label (Some (h, w)) tr titles color) as (drawn & l & E & EL & Hin & HC);
    auto; try lia.
  exists drawn, l. split; [exact E|].
  destruct (C83_panels n h w tr) as (l' & EL' & Hlen & _ & HP); auto; try lia.
  fold n in EL. rewrite EL in EL'. injection EL' as <-. split; [exact Hlen|].
  assert (HB : forall i, i < n -> (wanted_row h w tr i =? h - 1) = false).
  { intros i Hi. apply Nat.eqb_neq. unfold wanted_row. destruct tr.
    - rewrite Nat.mod_small by lia. lia.
    - assert (i / w < h - 1) by (apply Nat.div_lt_upper_bound; nia). lia. }
  split.
  - intros a Ha. apply In_nth_error in Ha. destruct Ha as [i Hi].
    assert (i < n) by (rewrite <- Hlen; apply nth_error_Some; congruence).
    rewrite (HC i a Hi). unfold layout. rewrite HB by assumption. cbn; auto.
  - intros a s Hs. pose proof (Hin _ _ Hs) as Ha. apply In_nth_error in Ha. destruct Ha as [i Hi].
    assert (i < n) by (rewrite <- Hlen; apply nth_error_Some; congruence).
    assert (In (XLabel s) (received drawn a)).
    { unfold received. apply in_map_iff. exists (a, XLabel s). split; [reflexivity|].
      apply filter_In. split; [exact Hs|]. cbn. now destruct (axes_eq_dec a a). }
    rewrite (HC i a Hi) in H0. unfold layout in H0. rewrite HB in H0 by assumption.
    cbn in H0. intuition discriminate.
Qed.

(** ** Distributions *)
Lemma for_each_ok {A B} (l : list B) k (body : nat -> B -> drawing A unit) ev :
  (forall j x, nth_error l j = Some x -> body (k + j) x = (ev (k + j) x, Ok tt)) ->
  for_each l k body = (flat_map (fun p => ev (fst p) (snd p)) (combine (seq k (List.length l)) l), Ok tt).
Proof.
  revert k. induction l as [|x l IH]; intros k H; [reflexivity|]. cbn [for_each].
  pose proof (H 0 x eq_refl) as H0. rewrite Nat.add_0_r in H0. rewrite H0, dbind_ok.
  rewrite IH.
  - reflexivity.
  - intros j y Hj. specialize (H (S j) y Hj). now rewrite Nat.add_succ_r in H.
Qed.

Lemma offset_values {A} s f m d i : rows d = rows m ->
  @offset A s f (values m i) (values d i)
  = ret (map (fun t => (cell m t i + s * (f * cell d t i))%R) (seq 0 (rows m))).
Proof.
  intros Hr. unfold offset, values. rewrite !map_length, !seq_length, Hr, Nat.eqb_refl. unfold ret. do 2 f_equal.
  induction (seq 0 (rows m)) as [|t l IH]; [reflexivity|]. cbn. now rewrite IH.
Qed.

Lemma combine_repeat {A B} (a : A) n (l : list B) : List.length l <= n -> combine (repeat a n) l = map (pair a) l.
Proof.
  revert n. induction l as [|x l IH]; intros n H; [destruct n; reflexivity|].
  destruct n as [|n]; cbn in *; [lia|]. now rewrite IH by lia.
Qed.

Lemma labels_first {A} (g : option string -> R -> list A) label l k :
  flat_map (fun p => g (if fst p =? 0 then label else None) (snd p)) (combine (seq k (List.length l)) l)
  = flat_map (fun p => g (fst p) (snd p))
      (combine ((if k =? 0 then label else None) :: repeat None (List.length l)) l).
Proof.
  assert (G : forall l k, flat_map (fun p => g (if fst p =? 0 then label else None) (snd p)) (combine (seq (S k) (List.length l)) l)
     = flat_map (fun p => g (fst p) (snd p)) (combine (repeat None (List.length l)) l)).
  { clear. induction l as [|x l IH]; intros k; [reflexivity|]. cbn [List.length seq combine repeat flat_map fst snd Nat.eqb].
    now rewrite IH. }
  destruct l as [|x l]; [reflexivity|].
  cbn [List.length seq combine flat_map fst snd]. f_equal. rewrite G.
  now rewrite !combine_repeat by (cbn; lia).
Qed.

(** What one dimension of a distribution sends to its panel. *)
Definition curves (fill : bool) (ts : list R) (label color : option string) (alpha : R) (m s : table) (factors : list R)
    (i : nat) : list command :=
  Line ts (values m i) None color false
  :: (if fill then bands ts label color alpha m s i factors else dashes ts label color m s i factors).

Lemma on_flat_map a (g : option string * R -> list command) l :
  flat_map (fun p => on a (g p)) l = on a (flat_map g l).
Proof. unfold on. induction l as [|x l IH]; [reflexivity|]. cbn. now rewrite map_app, IH. Qed.

Lemma dist_body a xs label color al m s factors fill i :
  i < cols m -> i < cols s -> rows s = rows m -> List.length xs = rows m ->
  (fill = false -> color <> None) ->
  dbind (column m i) (fun mc =>
    dbind (ax_plot a xs mc None color false) (fun _ =>
    for_each factors 0 (fun f_idx f =>
      let lab := if f_idx =? 0 then label else None in
      dbind (column s i) (fun d =>
      dbind (offset (-1) f mc d) (fun lo =>
      dbind (if fill
             then dbind (offset 1 f mc d) (fun hi => ax_fill_between a xs lo hi lab color al)
             else dbind (ax_plot_fmt a xs lo color lab) (fun _ =>
                  dbind (offset 1 f mc d) (fun hi => ax_plot_fmt a xs hi color None)))
      (fun _ => ret tt))))))
  = (on a (curves fill xs label color al m s factors i), Ok tt).
Proof.
  intros Hm Hs Hr Hx Hc. unfold column at 1. apply Nat.ltb_lt in Hm, Hs. rewrite Hm, dbind_ret. fold (values m i).
  unfold ax_plot at 1. unfold values at 1. rewrite map_length, seq_length, Hx, Nat.eqb_refl.
  unfold issue at 1. rewrite dbind_ok.
  set (g := fun (lab : option string) (f : R) =>
     let lo := map (fun t => (cell m t i - f * cell s t i)%R) (seq 0 (rows m)) in
     let hi := map (fun t => (cell m t i + f * cell s t i)%R) (seq 0 (rows m)) in
     on a (if fill then [Band xs lo hi lab color al] else [Line xs lo lab color true; Line xs hi None color true])).
  rewrite (for_each_ok factors 0 _ (fun k f => g (if k =? 0 then label else None) f)).
  - cbn [fst snd]. unfold curves, on. f_equal. cbn [map app]. f_equal.
    rewrite (labels_first g label factors 0). cbn [Nat.eqb]. unfold g.
    rewrite (on_flat_map a (fun p => if fill then [Band xs
          (map (fun t => (cell m t i - snd p * cell s t i)%R) (seq 0 (rows m)))
          (map (fun t => (cell m t i + snd p * cell s t i)%R) (seq 0 (rows m))) (fst p) color al]
        else [Line xs (map (fun t => (cell m t i - snd p * cell s t i)%R) (seq 0 (rows m))) (fst p) color true;
              Line xs (map (fun t => (cell m t i + snd p * cell s t i)%R) (seq 0 (rows m))) None color true])).
    unfold on. f_equal. destruct fill; [|reflexivity]. unfold bands. now rewrite flat_map_singleton.
  - intros j f _. cbn [Nat.add]. unfold column. rewrite Hs, dbind_ret. fold (values s i).
    rewrite !offset_values by exact Hr. rewrite !dbind_ret.
    assert (E1 : map (fun t => (cell m t i + -1 * (f * cell s t i))%R) (seq 0 (rows m))
       = map (fun t => (cell m t i - f * cell s t i)%R) (seq 0 (rows m))) by (apply map_ext; intros; ring).
    assert (E2 : map (fun t => (cell m t i + 1 * (f * cell s t i))%R) (seq 0 (rows m))
       = map (fun t => (cell m t i + f * cell s t i)%R) (seq 0 (rows m))) by (apply map_ext; intros; ring).
    rewrite E1, E2. unfold g. cbv zeta. destruct fill.
    + unfold ax_fill_between. rewrite !map_length, !seq_length, Hx, Nat.eqb_refl. reflexivity.
    + destruct color as [c|]; [|exfalso; now apply Hc]. unfold ax_plot_fmt, ax_plot.
      rewrite !map_length, !seq_length, Hx, Nat.eqb_refl. reflexivity.
Qed.

(** Without axes: every panel receives the mean, one band of [factor] standard deviations
    to either side per factor, and its layout. *)
Theorem C83_distribution : forall mean std t label factors fill shape transpose titles color alpha,
  let n := cols mean in let (h, w) := shape_of n shape in
  1 <= h -> 1 <= w -> n <= h * w -> 1 <= rows mean -> List.length (times (rows mean) t) = rows mean ->
  cols std = cols mean -> rows std = rows mean -> (fill = false -> color <> None) ->
  exists drawn l,
    plot_distribution_in_rows mean std t label None factors fill shape transpose titles color alpha = (drawn, Ok l)
    /\ create_axes n (h, w) transpose = Ok l
    /\ (forall a c, In (a, c) drawn -> In a l)
    /\ forall i a, nth_error l i = Some a ->
         received drawn a =
           (Line (times (rows mean) t) (values mean i) None color false
            :: (if fill then bands (times (rows mean) t) label color
                               (match alpha with Some x => x | None => (1/10)%R end) mean std i factors
                else dashes (times (rows mean) t) label color mean std i factors))
           ++ layout h w transpose titles (time_name t) (times (rows mean) t) i.
Proof.
  intros m s t label factors fill shape tr titles color alpha n.
  destruct (shape_of n shape) as [h w] eqn:ES. intros Hh Hw Hn Hr HT Hcs Hrs Hfc.
  set (l := map (ax_of h w tr) (seq 0 n)).
  assert (HL : create_axes n (h, w) tr = Ok l) by now apply create_axes_ok.
  set (xs := times (rows m) t) in *.
  set (al := match alpha with Some x => x | None => (1/10)%R end).
  exists (flat_map (fun i => on (ax_of h w tr i) (curves fill xs label color al m s factors i)) (seq 0 n)
       ++ flat_map (fun i => on (ax_of h w tr i) (layout h w tr titles (time_name t) xs i)) (seq 0 n)), l.
  split; [|split; [exact HL|split]].
  - unfold plot_distribution_in_rows. fold n. unfold shape_of in ES. rewrite ES, HL.
    rewrite dbind_ok. cbn [app].
    replace (match t with None => steps (rows m) | Some ts => ts end) with xs by (now destruct t).
    replace (match t with None => "Step"%string | Some _ => "Time [s]"%string end) with (time_name t) by (now destruct t).
    fold al.
    rewrite (for_range_ok n _ (fun i => on (ax_of h w tr i) (curves fill xs label color al m s factors i))).
    + rewrite dbind_ok. unfold l. rewrite (layout_ok h w tr titles (time_name t) xs n Hh Hw Hn).
      * rewrite dbind_ok. cbn [fst snd ret app]. now rewrite app_nil_r.
      * intros E. rewrite E in HT. cbn in HT. lia.
    + intros i Hi. unfold l. rewrite item_ax, dbind_ret by exact Hi. apply dist_body; auto; lia.
  - intros a c H. unfold l. apply in_app_or in H. destruct H as [H|H]; apply in_flat_map in H;
      destruct H as (i & Hi & H); unfold on in H; apply in_map_iff in H; destruct H as (x & E & _);
      injection E as <- _; now apply in_map.
  - intros i a Ha. unfold l in Ha. rewrite nth_error_map in Ha.
    destruct (nth_error (seq 0 n) i) as [j|] eqn:Ej; [|discriminate]. injection Ha as <-.
    assert (Hi : i < n) by (rewrite <- (seq_length n 0); apply nth_error_Some; congruence).
    rewrite nth_error_nth' with (d := 0) in Ej by (rewrite seq_length; lia).
    rewrite seq_nth in Ej by lia. injection Ej as <-.
    rewrite received_app. cbn [Nat.add].
    rewrite !received_loop; [reflexivity| | | |]; try exact Hi; intros j Hj E;
      apply (ax_of_inj h w tr) in E; auto; lia.
Qed.

(** With axes: the curves are drawn on them in their order and nothing else changes. *)
Theorem C83_distribution_given_axes : forall mean std t label l factors fill shape transpose titles color alpha,
  cols mean <= List.length l -> List.length (times (rows mean) t) = rows mean ->
  cols std = cols mean -> rows std = rows mean -> (fill = false -> color <> None) ->
  plot_distribution_in_rows mean std t label (Some l) factors fill shape transpose titles color alpha
  = (flat_map (fun p => map (pair (snd p))
        (Line (times (rows mean) t) (values mean (fst p)) None color false
         :: (if fill then bands (times (rows mean) t) label color
                            (match alpha with Some x => x | None => (1/10)%R end) mean std (fst p) factors
             else dashes (times (rows mean) t) label color mean std (fst p) factors)))
       (combine (seq 0 (cols mean)) l), Ok l).
Proof.
  intros m s t label l factors fill shape tr titles color alpha Hl HT Hcs Hrs Hfc.
  unfold plot_distribution_in_rows. set (n := cols m) in *. rewrite dbind_ok. cbn [app].
  replace (match t with None => steps (rows m) | Some ts => ts end) with (times (rows m) t) by (now destruct t).
  set (xs := times (rows m) t) in *.
  set (al := match alpha with Some x => x | None => (1/10)%R end).
  rewrite (for_range_axes l n n _ (curves fill xs label color al m s factors));
    [rewrite dbind_ok; cbn [fst snd dbind ret app]; now rewrite app_nil_r|lia|exact Hl|].
  intros i a Hi Ha. unfold item. rewrite Ha, dbind_ret. apply dist_body; auto; lia.
Qed.

(** With lines instead of areas and without a colour, the call fails for every
    distribution: None is passed as a format string. *)
Theorem C83_dashed_refuted : forall mean std t label f factors shape transpose titles alpha,
  let n := cols mean in let (h, w) := shape_of n shape in
  1 <= h -> 1 <= w -> 1 <= n -> n <= h * w -> List.length (times (rows mean) t) = rows mean ->
  cols std = cols mean -> rows std = rows mean ->
  snd (plot_distribution_in_rows mean std t label None (f :: factors) false shape transpose titles None alpha)
  = Err ValueError.
Proof.
  intros m s t label f factors shape tr titles alpha n.
  destruct (shape_of n shape) as [h w] eqn:ES. intros Hh Hw H1 Hn HT Hcs Hrs.
  unfold plot_distribution_in_rows. fold n. unfold shape_of in ES. rewrite ES, create_axes_ok by assumption.
  rewrite dbind_ok. cbn [app].
  replace (match t with None => steps (rows m) | Some ts => ts end) with (times (rows m) t) by (now destruct t).
  match goal with |- context [for_range ?k ?b] =>
    rewrite (for_range_err k b (fun _ => []) 0 ValueError [(ax_of h w tr 0, Line (times (rows m) t) (values m 0) None None false)]) end.
  - reflexivity.
  - lia.
  - intros; lia.
  - rewrite item_ax, dbind_ret by lia. unfold column at 1.
    replace (0 <? cols m) with true by (symmetry; apply Nat.ltb_lt; lia). rewrite dbind_ret. fold (values m 0).
    unfold ax_plot. unfold values at 1. rewrite map_length, seq_length, HT, Nat.eqb_refl.
    unfold issue. rewrite dbind_ok. cbn [for_each]. unfold column.
    replace (0 <? cols s) with true by (symmetry; apply Nat.ltb_lt; lia). rewrite dbind_ret. fold (values s 0).
    rewrite !offset_values by exact Hrs. rewrite dbind_ret. reflexivity.
Qed.

(** ** Examples *)
Definition ex_table : table := {| rows := 3; cols := 5; cell := fun t i => INR (t + i) |}.
Example C83_satisfiable :
  (exists l, create_axes 5 (3, 2) true = Ok l)
  /\ List.length (times (rows ex_table) (Some [0; 1/2; 1]%R)) = rows ex_table
  /\ (exists drawn l a, plot_trajectory_in_rows ex_table None None None (Some (3, 2)) true ["x"; "y"]%string None = (drawn, Ok l)
        /\ nth_error l 2 = Some a /\ panel_row a = 2 /\ panel_col a = 0
        /\ received drawn a = [Line (times 3 None) (values ex_table 2) None None false;
                               Title "Dimension #2"; XLabel "Step"; XLim 0 (1 + 1)])
  /\ (let n := cols ex_table in 1 <= n /\ n <= (4 - 1) * 2).
Proof.
  split; [eexists; reflexivity|]. split; [reflexivity|]. split; [|cbn; lia].
  eexists _, _, _. split; [reflexivity|]. split; [reflexivity|]. split; [reflexivity|]. split; [reflexivity|].
  reflexivity.
Qed.

(** ** Point clouds *)

(** The figure gets the point cloud that is returned, with one colour per point. *)
Theorem C84_pointcloud : forall fig points color k,
  let (fig', p) := plot_pointcloud fig points color k in
  fig' = fig ++ [p] /\ List.length (pc_colors p) = List.length (pc_points p) /\ Forall (eq color) (pc_colors p).
Proof.
  intros fig points color k. unfold plot_pointcloud.
  assert (HE : forall A B (q : list A) (r : list B) d s, List.length q = List.length r ->
     List.length (every_from d s q) = List.length (every_from d s r)).
  { intros A B q. induction q as [|x q IH]; intros [|y r] d s E; try discriminate; [reflexivity|].
    cbn in *. injection E as E. destruct s; cbn; auto. }
  assert (HF : forall q d s, Forall (eq color) q -> Forall (eq color) (every_from d s q)).
  { induction q as [|x q IH]; intros d s H; [constructor|]. inversion H; subst. cbn.
    destruct s; [constructor|]; auto. }
  assert (H0 : List.length (map (fun _ : nat => color) (seq 0 (List.length points))) = List.length points)
    by (now rewrite map_length, seq_length).
  assert (H1 : Forall (eq color) (map (fun _ : nat => color) (seq 0 (List.length points)))).
  { apply Forall_forall. intros x Hx. apply in_map_iff in Hx. now destruct Hx as (? & <- & _). }
  split; [reflexivity|]. destruct (1 <? k)%Z; cbn [pc_colors pc_points uniform_down_sample]; split; auto.
Qed.

(** Downsampling keeps the points 0, k, 2k, ...; a factor of 1 or less keeps them all. *)
Theorem C84_downsample : forall fig points color k,
  let p := snd (plot_pointcloud fig points color k) in
  ((k <= 1)%Z -> pc_points p = points)
  /\ ((1 < k)%Z -> forall j, nth_error (pc_points p) j = nth_error points (j * Z.to_nat k)).
Proof.
  intros fig points color k. unfold plot_pointcloud. cbn [snd]. split; intros Hk.
  - replace (1 <? k)%Z with false by (symmetry; apply Z.ltb_ge; lia). reflexivity.
  - replace (1 <? k)%Z with true by (symmetry; apply Z.ltb_lt; lia). cbn [uniform_down_sample pc_points].
    assert (Hd : 1 < Z.to_nat k) by lia. set (d := Z.to_nat k) in *. clearbody d.
    assert (G : forall l s j, s < d -> nth_error (every_from d s l) j = @nth_error (R * R * R) l (s + j * d)).
    { induction l as [|x l IH]; intros s j Hs.
      - cbn [every_from]. now rewrite !(proj2 (nth_error_None _ _)) by (cbn; lia).
      - cbn [every_from]. destruct s as [|s].
        + destruct j as [|j]; [reflexivity|]. cbn [nth_error]. rewrite IH by lia.
          replace (0 + S j * d) with (S (d - 1 + j * d)) by nia. reflexivity.
        + rewrite IH by lia. reflexivity. }
    intros j. now rewrite G by lia.
Qed.

(** ** ToggleGeometry *)

(** After any history, a key stroke (two or more events) without a modifier shows the
    geometry and one with a modifier hides it. *)
Theorem C84_stroke : forall s history modifier n, 2 <= n ->
  tg_visible (toggle_run s (history ++ repeat modifier n)) = negb modifier.
Proof.
  intros s history modifier n Hn. unfold toggle_run. rewrite fold_left_app.
  generalize (fold_left (fun s m => fst (toggle_call s m)) history s). clear s. intros s.
  destruct n as [|[|n]]; [lia|lia|]. clear Hn. cbn [repeat fold_left].
  set (s2 := fst (toggle_call (fst (toggle_call s modifier)) modifier)).
  assert (H : tg_visible s2 = negb modifier).
  { unfold s2. destruct s as [[|] [|]], modifier; reflexivity. }
  clearbody s2. revert s2 H. induction n as [|n IH]; intros s2 H; [exact H|].
  cbn [repeat fold_left]. apply IH. destruct s2 as [[|] v], modifier; cbn in *; auto.
Qed.

(** It does not toggle: without a modifier the geometry stays visible whatever is pressed. *)
Theorem C84_toggle_refuted : forall n, tg_visible (toggle_run toggle_new (repeat false n)) = true.
Proof.
  intros n. assert (G : forall s, tg_visible s = true -> tg_visible (toggle_run s (repeat false n)) = true).
  { unfold toggle_run. induction n as [|n IH]; intros s H; [exact H|]. cbn [repeat fold_left]. apply IH.
    destruct s as [[|] v]; cbn in *; auto. }
  apply G. reflexivity.
Qed.

(** What every event does: of the first, third, ... event only one without modifier counts (it
    shows the geometry), of the second, fourth, ... only one with modifier (it hides it). *)
Theorem C84_events : forall history modifier,
  tg_visible (toggle_run toggle_new []) = true
  /\ tg_visible (toggle_run toggle_new (history ++ [modifier]))
     = if Nat.even (List.length history)
       then (if modifier then tg_visible (toggle_run toggle_new history) else true)
       else (if modifier then false else tg_visible (toggle_run toggle_new history)).
Proof.
  intros history modifier. split; [reflexivity|].
  assert (S1 : forall h m, toggle_run toggle_new (h ++ [m]) = fst (toggle_call (toggle_run toggle_new h) m))
    by (intros h m; unfold toggle_run; now rewrite fold_left_app).
  assert (G : forall h, tg_show (toggle_run toggle_new h) = Nat.even (List.length h)).
  { induction h as [|m h IH] using rev_ind; [reflexivity|].
    rewrite S1, app_length. unfold toggle_call. cbn [fst tg_show List.length].
    rewrite IH, Nat.add_1_r, Nat.even_succ, <- Nat.negb_even. reflexivity. }
  specialize (G history). rewrite S1. unfold toggle_call. cbn [fst tg_visible]. rewrite G.
  destruct (Nat.even (List.length history)), modifier; reflexivity.
Qed.

(** A single event can do nothing at all, depending on how many came before. *)
Theorem C84_event_refuted : exists s s' m, (exists h, s = toggle_run toggle_new h) /\ (exists h, s' = toggle_run toggle_new h)
  /\ tg_visible s = tg_visible s'
  /\ tg_visible (fst (toggle_call s m)) <> tg_visible (fst (toggle_call s' m)).
Proof.
  exists toggle_new, (toggle_run toggle_new [false]), true. split; [now exists []|]. split; [now exists [false]|].
  split; [reflexivity|]. discriminate.
Qed.

Example C84_satisfiable :
  tg_visible (toggle_run toggle_new ([true; false; true] ++ repeat true 2)) = false
  /\ pc_points (snd (plot_pointcloud [] [(0, 0, 0); (1, 0, 0); (2, 0, 0)]%R (1, 0, 0)%R 2)) = [(0, 0, 0); (2, 0, 0)]%R.
Proof. split; reflexivity. Qed.
