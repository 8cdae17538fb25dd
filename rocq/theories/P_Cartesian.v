(** Proofs about the quaternion step functions. *)
From Coq Require Import Reals List Arith Lia Lra Psatz FunctionalExtensionality.
From Verif Require Import M_Prelude M_Canonical M_Forcing M_Dmp M_Base M_DmpObject M_SpringDamper
  M_Quaternion M_Cartesian S_Loops S_Rotation P_Loops P_Quaternion P_Converge.
Import ListNotations.
Open Scope R_scope.

(** ** Runs *)
Lemma run_steps_rel {S S' : Type} (rel : S -> S' -> Prop)
    (step : R -> R -> S -> res S) (step' : R -> R -> S' -> res S') :
  (forall a b s s', rel s s' ->
     match step a b s, step' a b s' with
     | Ok x, Ok x' => rel x x'
     | Err e, Err e' => e = e'
     | _, _ => False
     end) ->
  forall ts t0 s s', rel s s' ->
  match run_steps step t0 ts s, run_steps step' t0 ts s' with
  | Ok l, Ok l' => Forall2 rel l l'
  | Err e, Err e' => e = e'
  | _, _ => False
  end.
Proof.
  intros H. induction ts as [|t ts IH]; intros t0 s s' Hs; simpl; [constructor|].
  specialize (H t0 t s s' Hs).
  destruct (step t0 t s) as [x|], (step' t0 t s') as [x'|]; simpl; try tauto.
  specialize (IH t x x' H).
  destruct (run_steps step t ts x), (run_steps step' t ts x'); simpl; try tauto. now constructor.
Qed.

Lemma run_on_grid_rel {S S' : Type} (rel : S -> S' -> Prop)
    (step : R -> R -> S -> res S) (step' : R -> R -> S' -> res S') t0 run_t dt s s' :
  (forall a b s s', rel s s' ->
     match step a b s, step' a b s' with
     | Ok x, Ok x' => rel x x'
     | Err e, Err e' => e = e'
     | _, _ => False
     end) ->
  rel s s' ->
  match run_on_grid step t0 run_t dt s, run_on_grid step' t0 run_t dt s' with
  | Ok (ts, l), Ok (ts', l') => ts = ts' /\ Forall2 rel l l'
  | Err e, Err e' => e = e'
  | _, _ => False
  end.
Proof.
  intros H Hs. unfold run_on_grid. destruct (arange t0 (run_t + dt) dt) as [|a ts]; [reflexivity|].
  pose proof (run_steps_rel rel step step' H ts a s s' Hs) as HR.
  destruct (run_steps step a ts s), (run_steps step' a ts s'); simpl; try tauto.
  split; auto.
Qed.

Lemma run_on_grid_inv {S : Type} (I : S -> Prop) (step : R -> R -> S -> res S) t0 run_t dt s ts l :
  (forall a b s s', I s -> step a b s = Ok s' -> I s') -> I s ->
  run_on_grid step t0 run_t dt s = Ok (ts, l) -> Forall I l.
Proof.
  intros H Hs E. unfold run_on_grid in E. destruct (arange t0 (run_t + dt) dt) as [|a ts']; [discriminate|].
  destruct (run_steps step a ts' s) as [l'|] eqn:Er; [|discriminate].
  cbn [bind] in E. injection E as <- <-. constructor; auto. eapply run_steps_inv; eauto.
Qed.

Lemma run_on_grid_seq {A : Type} (step : R -> R -> A -> res A) start_t run_t dt x ts l :
  run_on_grid step start_t run_t dt x = Ok (ts, l) ->
  length l = length ts
  /\ forall k, (k < length ts)%nat ->
     nth_error ts k = Some (start_t + INR k * dt)
     /\ exists s, nth_error l k = Some s /\ run_seq step start_t dt x k = Ok s.
Proof.
  unfold run_on_grid, arange.
  destruct (arange_len start_t (run_t + dt) dt) as [|n] eqn:En; [discriminate|].
  simpl seq. cbn [map].
  set (t0 := start_t + INR 0 * dt). assert (Et : t0 = start_t) by (unfold t0; simpl; ring).
  destruct (run_steps step t0 (map (fun i => start_t + INR i * dt) (seq 1 n)) x)
    as [l'|] eqn:E; [|discriminate]. cbn [bind].
  intros H. inversion H; subst ts l. clear H. clearbody t0. subst t0.
  split.
  { apply run_steps_length in E. simpl. now rewrite E. }
  intros k Hk. simpl in Hk. rewrite map_length, seq_length in Hk.
  destruct k as [|k].
  - simpl. split; [f_equal; ring|]. eauto.
  - cbn [nth_error]. split.
    + rewrite nth_error_map, (nth_error_nth' _ 0%nat) by (rewrite seq_length; lia).
      rewrite seq_nth by lia. reflexivity.
    + destruct (run_steps_run_seq step dt n start_t x l' E k) as [s Hs]; [lia|]. eauto.
Qed.

Lemma Forall2_map_eq {A B} (f : A -> B) (rel : A -> B -> Prop) l l' :
  (forall a b, rel a b -> b = f a) -> Forall2 rel l l' -> l' = map f l.
Proof. intros H. induction 1; simpl; [reflexivity|]. f_equal; auto. Qed.

(** ** Unit quaternions *)
Lemma i_mul_exp_unit i a y : unit_quat y -> unit_quat (i_mul i (i_exp i a) y).
Proof.
  intros Hy. pose proof (i_exp_unit i a). rewrite i_mul_unit by auto. now apply hamilton_unit.
Qed.

Lemma q_body_unit i a c d s : unit_quat (fst s) -> unit_quat (fst (q_body i a c d s)).
Proof.
  destruct s as [y yd]. intros Hy. unfold q_body. destruct (q_coupling i a y yd) as [cd cdd].
  cbn [fst]. now apply i_mul_exp_unit.
Qed.

Lemma q_step_unit i a lt t s s' : unit_quat (fst s) ->
  (i = Cython -> unit_quat (g_start_y a)) -> q_step i a lt t s = Ok s' -> unit_quat (fst s').
Proof.
  intros Hs Hst E. destruct i; simpl in E.
  - destruct (Rle_dec _ _); [discriminate|]. destruct (Rle_dec _ _); [congruence|].
    eapply (substeps_inv (fun s => unit_quat (fst s))); [|exact Hs|exact E].
    intros; now apply q_body_unit.
  - revert E. eapply (substeps_inv (fun s => unit_quat (fst s))).
    + intros; now apply q_body_unit.
    + destruct (Rle_dec _ _); [now apply Hst|exact Hs].
Qed.

Lemma sdq_body_unit g k c ct p cur d s : unit_quat (fst s) ->
  unit_quat (fst (sdq_body g k c ct p cur d s)).
Proof.
  destruct s as [y yd]. intros Hy. unfold sdq_body.
  destruct (match ct with Some ct => ct y yd | None => _ end) as [cd cdd].
  destruct (match p with Some _ => _ | None => _ end) as [cd' cdd'].
  cbn [fst]. apply (i_mul_exp_unit Python). exact Hy.
Qed.

(** ** Relative rotations *)
Lemma q_error_unit i p q : unit_quat p -> unit_quat q ->
  q_error i p q = i_log i (hamilton p (cy_conj q)).
Proof.
  intros Hp Hq. unfold q_error. rewrite i_conj_unit by auto. rewrite i_mul_unit; auto using cy_conj_unit.
Qed.

Lemma q_error_right i p q r : unit_quat p -> unit_quat q -> unit_quat r ->
  q_error i (hamilton p r) (hamilton q r) = q_error i p q.
Proof.
  intros Hp Hq Hr. rewrite !q_error_unit by auto using hamilton_unit. f_equal.
  rewrite conj_hamilton, hamilton_assoc, <- (hamilton_assoc r), conj_r, hamilton_one_l; auto.
Qed.

Lemma q_error_self i p : unit_quat p -> q_error i p p = v3_zero.
Proof. intros Hp. rewrite q_error_unit, conj_r, log_one; auto. Qed.

Lemma log_neg_one i : i_log i (q_neg q_one) = v3_zero.
Proof.
  destruct (log_neg i q_one one_unit) as [H _]. rewrite H; [apply log_one|]. simpl. lra.
Qed.

Lemma neg_hamilton_l p q : hamilton (q_neg p) q = q_neg (hamilton p q).
Proof. apply quat_eq; simpl; ring. Qed.
Lemma neg_hamilton_r p q : hamilton p (q_neg q) = q_neg (hamilton p q).
Proof. apply quat_eq; simpl; ring. Qed.
Lemma conj_neg p : cy_conj (q_neg p) = q_neg (cy_conj p).
Proof. apply quat_eq; simpl; ring. Qed.
Lemma neg_neg p : q_neg (q_neg p) = p.
Proof. apply quat_eq; simpl; ring. Qed.

(** ** Conjugation by a rotation *)
Lemma rotate_scale r c v : rotate r (v3_scale c v) = v3_scale c (rotate r v).
Proof. destruct r. apply v3_eq; simpl; ring. Qed.
Lemma rotate_add r a b : rotate r (v3_add a b) = v3_add (rotate r a) (rotate r b).
Proof. destruct r. apply v3_eq; simpl; ring. Qed.
Lemma rotate_sub r a b : rotate r (v3_sub a b) = v3_sub (rotate r a) (rotate r b).
Proof. destruct r. apply v3_eq; simpl; ring. Qed.
Lemma rotate_zero r : rotate r v3_zero = v3_zero.
Proof. destruct r. apply v3_eq; simpl; ring. Qed.

Lemma rotate_norm r v : unit_quat r -> v3_norm (rotate r v) = v3_norm v.
Proof.
  intros Hr. rewrite rotate_rotate_h by auto. unfold v3_norm. f_equal.
  destruct r as [w x y z], v as [a b c]. unfold unit_quat in Hr. cbn [qw qx qy qz] in Hr.
  transitivity ((w ^ 2 + x ^ 2 + y ^ 2 + z ^ 2) ^ 2 * (a * a + b * b + c * c)).
  - simpl. ring.
  - rewrite Hr. simpl. ring.
Qed.

Lemma rotate_unit r u : unit_quat r -> unit_v3 u -> unit_v3 (rotate r u).
Proof. intros Hr Hu. apply unit_v3_norm. rewrite rotate_norm by auto. now apply unit_v3_norm. Qed.

Definition conjugated (r p : quat) : quat := hamilton r (hamilton p (cy_conj r)).

Lemma conjugated_w r p : unit_quat r -> qw (conjugated r p) = qw p.
Proof.
  intros Hr. destruct r as [w x y z], p as [a b c d]. unfold unit_quat in Hr. cbn [qw qx qy qz] in Hr.
  transitivity ((w ^ 2 + x ^ 2 + y ^ 2 + z ^ 2) * a).
  - unfold conjugated. simpl. ring.
  - rewrite Hr. simpl. ring.
Qed.

Lemma conjugated_v r p : unit_quat r -> vpart (conjugated r p) = rotate r (vpart p).
Proof.
  intros Hr. rewrite rotate_rotate_h by auto. destruct r as [w x y z], p as [a b c d].
  unfold vpart, conjugated. apply v3_eq; simpl; ring.
Qed.

Lemma conjugated_unit r p : unit_quat r -> unit_quat p -> unit_quat (conjugated r p).
Proof. intros Hr Hp. unfold conjugated. auto using hamilton_unit, cy_conj_unit. Qed.

Lemma conjugated_neg r p : conjugated r (q_neg p) = q_neg (conjugated r p).
Proof. unfold conjugated. now rewrite neg_hamilton_l, neg_hamilton_r. Qed.

Lemma log_conjugated i r p : unit_quat r -> unit_quat p ->
  i_log i (conjugated r p) = rotate r (i_log i p).
Proof.
  intros Hr Hp. rewrite !i_log_unit by auto using conjugated_unit.
  rewrite conjugated_v, conjugated_w, rotate_norm by auto.
  destruct (Rlt_dec _ _); [now rewrite rotate_zero|now rewrite rotate_scale].
Qed.

Lemma axis_quat_conjugated r u th : unit_quat r ->
  axis_quat (rotate r u) th = conjugated r (axis_quat u th).
Proof.
  intros Hr. pose proof (conjugated_w r (axis_quat u th) Hr) as Hw.
  pose proof (conjugated_v r (axis_quat u th) Hr) as Hv.
  assert (E : vpart (axis_quat u th) = v3_scale (sin (th / 2)) u) by (apply v3_eq; simpl; ring).
  rewrite E, rotate_scale in Hv.
  set (k := conjugated r (axis_quat u th)) in *. clearbody k. destruct k as [a b c d].
  unfold vpart in Hv. cbn [qw qx qy qz] in *. injection Hv as -> -> ->. rewrite Hw.
  apply quat_eq; simpl; ring.
Qed.

Lemma exp_conjugated i r v : unit_quat r -> i_exp i (rotate r v) = conjugated r (i_exp i v).
Proof.
  intros Hr. destruct (v3_polar v) as (u & Hu & E). rewrite E, rotate_scale.
  pose proof (v3_norm_pos v) as Hp. pose proof (rotate_unit r u Hr Hu).
  destruct i; simpl.
  - rewrite !pr_exp_axis by auto. now apply axis_quat_conjugated.
  - rewrite !cy_exp_axis by auto. now apply axis_quat_conjugated.
Qed.

Lemma q_error_left i p q r : unit_quat p -> unit_quat q -> unit_quat r ->
  q_error i (hamilton r p) (hamilton r q) = rotate r (q_error i p q).
Proof.
  intros Hp Hq Hr. rewrite !q_error_unit by auto using hamilton_unit.
  rewrite <- log_conjugated by auto using hamilton_unit, cy_conj_unit. f_equal.
  unfold conjugated. rewrite conj_hamilton, !hamilton_assoc. reflexivity.
Qed.

Lemma conjugated_mul r p y : unit_quat r -> hamilton (conjugated r p) (hamilton r y) = hamilton r (hamilton p y).
Proof.
  intros Hr. unfold conjugated. rewrite !hamilton_assoc.
  rewrite <- (hamilton_assoc (cy_conj r) r y), conj_l, hamilton_one_l by auto. reflexivity.
Qed.

(** ** Zero forces *)
Lemma zero_weights_forces f z : (forall d i, (i < ft_n f)%nat -> ft_weights f d i = 0) ->
  ft_forces f z = vzero.
Proof.
  intros H. apply functional_extensionality; intro d. unfold ft_forces, vzero.
  rewrite (rsum_0 (ft_n f)); [ring|]. intros i Hi. rewrite H by auto. ring.
Qed.
