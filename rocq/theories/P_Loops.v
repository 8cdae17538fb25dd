(** Facts about the loops and sums of M_Prelude. *)
From Coq Require Import Reals ZArith List Lia Lra Psatz.
From Verif Require Import M_Prelude S_Loops.
Import ListNotations.
Open Scope R_scope.

(** ** Finite sums *)
Lemma rsum_ext n f g : (forall i, (i < n)%nat -> f i = g i) -> rsum n f = rsum n g.
Proof.
  induction n as [|n IH]; simpl; intros H; [reflexivity|].
  rewrite IH, (H n); auto.
Qed.

Lemma rsum_plus n f g : rsum n (fun i => f i + g i) = rsum n f + rsum n g.
Proof. induction n as [|n IH]; simpl; [lra|rewrite IH; lra]. Qed.

Lemma rsum_minus n f g : rsum n (fun i => f i - g i) = rsum n f - rsum n g.
Proof. induction n as [|n IH]; simpl; [lra|rewrite IH; lra]. Qed.

Lemma rsum_scal n c f : rsum n (fun i => c * f i) = c * rsum n f.
Proof. induction n as [|n IH]; simpl; [lra|rewrite IH; lra]. Qed.

Lemma rsum_scal_r n c f : rsum n (fun i => f i * c) = rsum n f * c.
Proof. induction n as [|n IH]; simpl; [lra|rewrite IH; lra]. Qed.

Lemma rsum_div n c f : rsum n (fun i => f i / c) = rsum n f / c.
Proof. unfold Rdiv. apply rsum_scal_r. Qed.

Lemma rsum_0 n f : (forall i, (i < n)%nat -> f i = 0) -> rsum n f = 0.
Proof.
  induction n as [|n IH]; simpl; intros H; [reflexivity|].
  rewrite IH, (H n); auto; lra.
Qed.

Lemma rsum_const n c : rsum n (fun _ => c) = INR n * c.
Proof. induction n as [|n IH]; [simpl; lra|]. rewrite S_INR. simpl. rewrite IH. lra. Qed.

Lemma rsum_le n f g : (forall i, (i < n)%nat -> f i <= g i) -> rsum n f <= rsum n g.
Proof.
  induction n as [|n IH]; simpl; intros H; [lra|].
  assert (rsum n f <= rsum n g) by (apply IH; auto).
  assert (f n <= g n) by auto. lra.
Qed.

Lemma rsum_nonneg n f : (forall i, (i < n)%nat -> 0 <= f i) -> 0 <= rsum n f.
Proof.
  intros H. rewrite <- (rsum_0 n (fun _ => 0)) by auto. now apply rsum_le.
Qed.

Lemma rsum_pos n f :
  (0 < n)%nat -> (forall i, (i < n)%nat -> 0 < f i) -> 0 < rsum n f.
Proof.
  intros Hn H. destruct n as [|n]; [lia|]. simpl.
  assert (0 <= rsum n f) by (apply rsum_nonneg; intros; apply Rlt_le; auto).
  assert (0 < f n) by auto. lra.
Qed.

Lemma rsum_Rabs n f : Rabs (rsum n f) <= rsum n (fun i => Rabs (f i)).
Proof.
  induction n as [|n IH]; simpl; [rewrite Rabs_R0; lra|].
  eapply Rle_trans; [apply Rabs_triang|]. lra.
Qed.

Lemma rsum_swap n m (f : nat -> nat -> R) :
  rsum n (fun i => rsum m (fun j => f i j)) = rsum m (fun j => rsum n (fun i => f i j)).
Proof.
  induction n as [|n IH]; simpl.
  - now rewrite rsum_0.
  - rewrite IH. now rewrite <- rsum_plus.
Qed.

(** ** Ceiling *)
Lemma Zceil_bounds x : IZR (Zceil x) - 1 < x <= IZR (Zceil x).
Proof.
  unfold Zceil. rewrite opp_IZR.
  destruct (base_Int_part (- x)) as [H1 H2]. lra.
Qed.

Lemma Zceil_unique x z : IZR z - 1 < x <= IZR z -> Zceil x = z.
Proof.
  intros H. pose proof (Zceil_bounds x) as H'.
  assert (IZR (Zceil x) < IZR z + 1) by lra.
  assert (IZR z < IZR (Zceil x) + 1) by lra.
  rewrite <- plus_IZR in *. apply lt_IZR in H0, H1. lia.
Qed.

(** ** Sub-step loop *)

Lemma substeps_tiles_fuel : forall fuel cur t h,
  0 < h -> cur <= t -> t - cur <= INR fuel * h ->
  exists l, tiles cur t h l
    /\ (forall (S : Type) (body : R -> R -> S -> S) s,
          substeps fuel cur t h body s = Ok (exec_substeps body l s)).
Proof.
  induction fuel as [|fuel IH]; intros cur t h Hh Hle Hf.
  - simpl in Hf. exists []. split; [simpl; lra|].
    intros S body s. simpl. destruct (Rlt_dec cur t); [lra|reflexivity].
  - rewrite S_INR in Hf.
    destruct (Rlt_dec cur t) as [Hlt|Hge].
    + destruct (Rlt_dec (t - cur) h) as [Hs|Hs].
      * exists [(t, t - cur)]. split.
        { simpl. repeat split; try lra. congruence. }
        intros S body s. simpl.
        destruct (Rlt_dec cur t); [|lra]. destruct (Rlt_dec (t - cur) h); [|lra].
        replace (cur + (t - cur)) with t by ring.
        destruct fuel; simpl; destruct (Rlt_dec t t); try lra; reflexivity.
      * destruct (IH (cur + h) t h) as [l [Ht Hl]]; try lra.
        exists ((cur + h, h) :: l). split.
        { simpl. repeat split; auto; lra. }
        intros S body s. simpl.
        destruct (Rlt_dec cur t); [|lra]. destruct (Rlt_dec (t - cur) h); [lra|].
        now rewrite Hl.
    + exists []. split; [simpl; lra|].
      intros S body s. simpl. destruct (Rlt_dec cur t); [lra|reflexivity].
Qed.

Lemma substeps_fuel_enough a b h :
  0 < h -> a <= b -> b - a <= INR (substeps_fuel a b h) * h.
Proof.
  intros Hh Hab. unfold substeps_fuel.
  destruct (archimed ((b - a) / h)) as [H1 _].
  assert (0 <= (b - a) / h) by (apply Rmult_le_pos; [lra|apply Rlt_le, Rinv_0_lt_compat; lra]).
  assert (0 < up ((b - a) / h))%Z by (apply lt_IZR; lra).
  rewrite INR_IZR_INZ, Z2Nat.id by lia.
  apply Rmult_gt_compat_r with (r := h) in H1; [|lra].
  unfold Rdiv in H1. rewrite Rmult_assoc, Rinv_l, Rmult_1_r in H1 by lra. lra.
Qed.

Lemma substeps_tiles a b h :
  0 < h -> a <= b ->
  exists l, tiles a b h l
    /\ (forall (S : Type) (body : R -> R -> S -> S) s,
          substeps (substeps_fuel a b h) a b h body s = Ok (exec_substeps body l s)).
Proof.
  intros Hh Hab. apply substeps_tiles_fuel; auto. now apply substeps_fuel_enough.
Qed.

(** The list of sub-steps is determined by [tiles]. *)
Lemma tiles_le a b h l : tiles a b h l -> a <= b.
Proof.
  revert a. induction l as [|[c d] l IH]; simpl; intros a H; [lra|].
  destruct H as (Hd & -> & _ & H). apply IH in H. lra.
Qed.

Lemma tiles_count a b h l :
  tiles a b h l -> l <> [] ->
  (INR (length l) - 1) * h < b - a <= INR (length l) * h.
Proof.
  revert a. induction l as [|[c d] l IH]; intros a H Hne; [congruence|].
  simpl in H. destruct H as (Hd & -> & Hh & H).
  destruct l as [|p l].
  - simpl in H. simpl. subst. nra.
  - assert (Hd' : d = h) by (apply Hh; congruence). subst d.
    apply IH in H; [|congruence].
    change (length ((a + h, h) :: p :: l)) with (S (length (p :: l))).
    rewrite S_INR. set (m := INR (length (p :: l))) in *. nra.
Qed.

Lemma tiles_sum a b h l :
  tiles a b h l -> fold_right Rplus 0 (map snd l) = b - a.
Proof.
  revert a. induction l as [|[c d] l IH]; simpl; intros a H; [lra|].
  destruct H as (Hd & -> & _ & H). rewrite (IH _ H). lra.
Qed.

Lemma tiles_inside a b h l c d :
  tiles a b h l -> In (c, d) l -> a < c <= b /\ 0 < d <= h.
Proof.
  revert a. induction l as [|[c' d'] l IH]; simpl; intros a H Hin; [tauto|].
  destruct H as (Hd & -> & _ & H). pose proof (tiles_le _ _ _ _ H).
  destruct Hin as [E|Hin].
  - inversion E; subst; lra.
  - destruct (IH _ H Hin). lra.
Qed.

Lemma substeps_diverges : forall (S : Type) (body : R -> R -> S -> S) fuel cur t h s,
  h <= 0 -> cur < t -> substeps fuel cur t h body s = Err OutOfFuel.
Proof.
  intros S body. induction fuel as [|fuel IH]; intros cur t h s Hh Hlt; simpl;
    (destruct (Rlt_dec cur t); [|lra]); [reflexivity|].
  destruct (Rlt_dec (t - cur) h); [lra|]. apply IH; lra.
Qed.

(** Two loops whose bodies preserve a relation end in related states. *)
Lemma substeps_rel {S S' : Type} (rel : S -> S' -> Prop)
    (body : R -> R -> S -> S) (body' : R -> R -> S' -> S') :
  (forall c d s s', 0 < d -> rel s s' -> rel (body c d s) (body' c d s')) ->
  forall fuel a b h s s', 0 < h -> rel s s' ->
  match substeps fuel a b h body s, substeps fuel a b h body' s' with
  | Ok x, Ok x' => rel x x'
  | Err e, Err e' => e = e'
  | _, _ => False
  end.
Proof.
  intros Hb. induction fuel as [|fuel IH]; intros a b h s s' Hh Hs; simpl;
    destruct (Rlt_dec a b); auto.
  apply IH; auto. apply Hb; auto. destruct (Rlt_dec (b - a) h); lra.
Qed.

Lemma substeps_ext {S : Type} (body body' : R -> R -> S -> S) :
  (forall c d s, 0 < d -> body c d s = body' c d s) ->
  forall fuel a b h s, 0 < h ->
  substeps fuel a b h body s = substeps fuel a b h body' s.
Proof.
  intros Hb. induction fuel as [|fuel IH]; intros a b h s Hh; simpl;
    destruct (Rlt_dec a b); auto.
  rewrite Hb; auto. destruct (Rlt_dec (b - a) h); lra.
Qed.

(** An invariant of the body is an invariant of the loop. *)
Lemma substeps_inv {S : Type} (I : S -> Prop) (body : R -> R -> S -> S) :
  (forall c d s, I s -> I (body c d s)) ->
  forall fuel a b h s s', I s -> substeps fuel a b h body s = Ok s' -> I s'.
Proof.
  intros Hb. induction fuel as [|fuel IH]; intros a b h s s' Hs; simpl;
    destruct (Rlt_dec a b); try congruence.
  apply IH. now apply Hb.
Qed.

(** Invariants that may use that the sub-step length is positive. *)
Lemma substeps_inv_pos {S : Type} (I : S -> Prop) (body : R -> R -> S -> S) :
  (forall c d s, 0 < d -> I s -> I (body c d s)) ->
  forall fuel a b h s s', 0 < h -> I s -> substeps fuel a b h body s = Ok s' -> I s'.
Proof.
  intros Hb. induction fuel as [|fuel IH]; intros a b h s s' Hh Hs; simpl;
    destruct (Rlt_dec a b); try congruence.
  apply IH; auto. apply Hb; auto. destruct (Rlt_dec (b - a) h); lra.
Qed.

(** ** Time grids *)
Lemma arange_len_spec start stop step :
  0 < step -> start < stop ->
  let n := arange_len start stop step in
  (0 < n)%nat /\ (INR n - 1) * step < stop - start <= INR n * step.
Proof.
  intros Hs Hlt n. unfold n, arange_len.
  pose proof (Zceil_bounds ((stop - start) / step)) as [H1 H2].
  assert (Hp : 0 < (stop - start) / step)
    by (apply Rmult_lt_0_compat; [lra|apply Rinv_0_lt_compat; lra]).
  assert (0 < Zceil ((stop - start) / step))%Z by (apply lt_IZR; lra).
  split; [lia|]. rewrite INR_IZR_INZ, Z2Nat.id by lia.
  assert (E : stop - start = (stop - start) / step * step) by (field; lra).
  rewrite E at 2 3. set (q := (stop - start) / step) in *.
  split; [apply Rmult_lt_compat_r|apply Rmult_le_compat_r]; lra.
Qed.

Lemma arange_nth start stop step i d :
  (i < arange_len start stop step)%nat ->
  nth i (arange start stop step) d = start + INR i * step.
Proof.
  intros H. unfold arange.
  rewrite nth_indep with (d' := start + INR 0 * step) by (rewrite map_length, seq_length; auto).
  rewrite (map_nth (fun i => start + INR i * step)). now rewrite seq_nth.
Qed.

Lemma arange_length start stop step :
  length (arange start stop step) = arange_len start stop step.
Proof. unfold arange. now rewrite map_length, seq_length. Qed.

Lemma run_steps_length {S} (step : R -> R -> S -> res S) : forall ts t0 s l,
  run_steps step t0 ts s = Ok l -> length l = length ts.
Proof.
  induction ts as [|t ts IH]; simpl; intros t0 s l H; [now inversion H|].
  unfold bind in H. destruct (step t0 t s) as [s'|]; [|discriminate].
  destruct (run_steps step t ts s') eqn:E; [|discriminate].
  inversion H; subst. simpl. now rewrite (IH _ _ _ E).
Qed.

Lemma run_steps_inv {S} (I : S -> Prop) (step : R -> R -> S -> res S) :
  (forall a b s s', I s -> step a b s = Ok s' -> I s') ->
  forall ts t0 s l, I s -> run_steps step t0 ts s = Ok l -> Forall I l.
Proof.
  intros Hs. induction ts as [|t ts IH]; simpl; intros t0 s l Hi H.
  - inversion H; constructor.
  - unfold bind in H. destruct (step t0 t s) as [s'|] eqn:E1; [|discriminate].
    destruct (run_steps step t ts s') eqn:E; [|discriminate].
    inversion H; subst. assert (Hi' : I s') by (eapply Hs; eassumption).
    constructor; [exact Hi'|]. eapply IH; eassumption.
Qed.
