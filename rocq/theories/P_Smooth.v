(** Functions with a given number of derivatives, and Taylor's formula for chains of
    derivatives. *)
From Coq Require Import Reals Lia Lra Psatz.
From Coquelicot Require Import Coquelicot.
From Verif Require Import M_Prelude.
Open Scope R_scope.
Set Bullet Behavior "Strict Subproofs".

(** [f] has [n] derivatives everywhere. *)
Fixpoint smooth (n : nat) (f : R -> R) : Prop :=
  match n with
  | O => True
  | S n => exists f', (forall t, is_derive f t (f' t)) /\ smooth n f'
  end.

Lemma smooth_ext n : forall f g, (forall t, f t = g t) -> smooth n f -> smooth n g.
Proof.
  destruct n as [|n]; intros f g E H; [exact I|]. destruct H as (f' & D & S). exists f'. split; auto.
  intros t. apply is_derive_ext with f; auto.
Qed.

Lemma smooth_pred n : forall f, smooth (S n) f -> smooth n f.
Proof.
  induction n as [|n IH]; intros f H; [exact I|]. destruct H as (f' & D & S).
  exists f'. split; auto.
Qed.

Lemma smooth_const n c : smooth n (fun _ => c).
Proof.
  revert c. induction n as [|n IH]; intros c; [exact I|]. exists (fun _ => 0). split; auto.
  intros t. apply @is_derive_const.
Qed.

Lemma smooth_id n : smooth n (fun t => t).
Proof.
  destruct n as [|n]; [exact I|]. exists (fun _ => 1). split; [|apply smooth_const].
  intros t. apply @is_derive_id.
Qed.

Lemma smooth_plus n : forall f g, smooth n f -> smooth n g -> smooth n (fun t => f t + g t).
Proof.
  induction n as [|n IH]; intros f g Hf Hg; [exact I|].
  destruct Hf as (f' & Df & Sf), Hg as (g' & Dg & Sg).
  exists (fun t => f' t + g' t). split; auto. intros t. apply (is_derive_plus f g); auto.
Qed.

Lemma smooth_mult n : forall f g, smooth n f -> smooth n g -> smooth n (fun t => f t * g t).
Proof.
  induction n as [|n IH]; intros f g Hf Hg; [exact I|].
  pose proof (smooth_pred n f Hf) as Pf. pose proof (smooth_pred n g Hg) as Pg.
  destruct Hf as (f' & Df & Sf), Hg as (g' & Dg & Sg).
  exists (fun t => f' t * g t + f t * g' t). split; [|apply smooth_plus; auto].
  intros t. apply (is_derive_mult f g t (f' t) (g' t)); auto. intros; apply Rmult_comm.
Qed.

Lemma smooth_scal n c f : smooth n f -> smooth n (fun t => c * f t).
Proof. intros H. apply (smooth_mult n (fun _ => c) f); auto. apply smooth_const. Qed.

Lemma smooth_exp n : forall f, smooth n f -> smooth n (fun t => exp (f t)).
Proof.
  induction n as [|n IH]; intros f Hf; [exact I|].
  pose proof (IH f (smooth_pred n f Hf)) as P. destruct Hf as (f' & Df & Sf).
  exists (fun t => f' t * exp (f t)). split; [|apply smooth_mult; auto].
  intros t. apply (is_derive_comp exp f); auto. apply is_derive_Reals, derivable_pt_lim_exp.
Qed.

Lemma smooth_inv n : forall f, (forall t, f t <> 0) -> smooth n f -> smooth n (fun t => / f t).
Proof.
  induction n as [|n IH]; intros f H0 Hf; [exact I|].
  pose proof (IH f H0 (smooth_pred n f Hf)) as P. destruct Hf as (f' & Df & Sf).
  exists (fun t => -1 * f' t * (/ f t * / f t)).
  split; [|apply smooth_mult; [apply smooth_scal; auto|apply smooth_mult; auto]].
  intros t. evar_last; [apply (is_derive_inv f t (f' t)); auto|]. field. apply H0.
Qed.

Lemma smooth_minus n f g : smooth n f -> smooth n g -> smooth n (fun t => f t - g t).
Proof.
  intros Hf Hg. apply smooth_ext with (fun t => f t + -1 * g t); [intros; ring|].
  apply smooth_plus; auto. now apply smooth_scal.
Qed.

Lemma smooth_rsum n m (f : nat -> R -> R) : (forall i, smooth n (f i)) ->
  smooth n (fun t => rsum m (fun i => f i t)).
Proof.
  intros H. induction m as [|m IH]; [apply (smooth_const n 0)|]. cbn [rsum]. now apply smooth_plus.
Qed.

(** ** Monotonicity and Taylor's formula *)
Lemma derive_nonneg_le (f f' : R -> R) a b : a <= b -> (forall s, a <= s <= b -> is_derive f s (f' s)) ->
  (forall s, a <= s <= b -> 0 <= f' s) -> f a <= f b.
Proof.
  intros Hab Hd Hp. destruct Hab as [Hab| ->]; [|lra].
  destruct (MVT_gen f a b f') as (c & Hc & E).
  - rewrite Rmin_left, Rmax_right by lra. intros x Hx. apply Hd. lra.
  - rewrite Rmin_left, Rmax_right by lra. intros x Hx. apply derivable_continuous_pt. exists (f' x).
    apply is_derive_Reals. auto.
  - rewrite Rmin_left, Rmax_right in Hc by lra. specialize (Hp c Hc).
    assert (0 <= f' c * (b - a)) by (apply Rmult_le_pos; lra). lra.
Qed.

(** Integrating an error bound. *)
Lemma taylor_up (f f' P Q : R -> R) B t h k : 0 <= h ->
  (forall s, t <= s <= t + h -> is_derive f s (f' s)) ->
  (forall s, t <= s <= t + h -> is_derive P s (Q s)) ->
  f t = P t ->
  (forall s, t <= s <= t + h -> Rabs (f' s - Q s) <= B * (s - t) ^ k) ->
  forall s, t <= s <= t + h -> Rabs (f s - P s) <= B / INR (S k) * (s - t) ^ S k.
Proof.
  intros Hh Df DP E0 Hb s Hs.
  assert (HS : INR (S k) <> 0) by (apply not_0_INR; lia).
  assert (DB : forall s, is_derive (fun s => B / INR (S k) * (s - t) ^ S k) s (B * (s - t) ^ k)).
  { intros x.
    evar_last.
    - apply (is_derive_scal (fun s => (s - t) ^ S k) x (B / INR (S k))).
      apply (is_derive_pow (fun s => s - t) (S k) x 1). auto_derive; auto; ring.
    - change (Nat.pred (S k)) with k. field. auto. }
  assert (G : forall sg, sg = 1 \/ sg = -1 ->
     0 <= B / INR (S k) * (s - t) ^ S k + sg * (f s - P s)).
  { intros sg Hsg.
    assert (L := derive_nonneg_le (fun s => B / INR (S k) * (s - t) ^ S k + sg * (f s - P s))
       (fun s => B * (s - t) ^ k + sg * (f' s - Q s)) t s ltac:(lra)).
    cbv beta in L. rewrite E0 in L.
    replace (B / INR (S k) * (t - t) ^ S k + sg * (P t - P t)) with 0 in L.
    2:{ replace (t - t) with 0 by ring. rewrite pow_i by lia. ring. }
    apply L.
    - intros x Hx. apply (is_derive_plus (fun s => B / INR (S k) * (s - t) ^ S k) (fun s => sg * (f s - P s)));
        [apply DB|].
      apply (is_derive_scal (fun s => f s - P s) x sg (f' x - Q x)).
      apply (is_derive_minus f P); [apply Df|apply DP]; lra.
    - intros x Hx. specialize (Hb x ltac:(lra)).
      pose proof (Rle_abs (f' x - Q x)). pose proof (Rle_abs (- (f' x - Q x))) as H2. rewrite Rabs_Ropp in H2.
      destruct Hsg as [-> | ->]; lra. }
  pose proof (G 1 (or_introl eq_refl)). pose proof (G (-1) (or_intror eq_refl)).
  apply Rabs_le. lra.
Qed.

(** Taylor's formula of orders 0 to 4 along a chain of derivatives. *)
Lemma taylor0 (f f1 : R -> R) B t h : 0 <= h ->
  (forall s, t <= s <= t + h -> is_derive f s (f1 s)) ->
  (forall s, t <= s <= t + h -> Rabs (f1 s) <= B) ->
  forall s, t <= s <= t + h -> Rabs (f s - f t) <= B * (s - t).
Proof.
  intros Hh D HB s Hs.
  pose proof (taylor_up f f1 (fun _ => f t) (fun _ => 0) B t h 0 Hh D) as H.
  cbn [INR pow] in H. replace (B * (s - t)) with (B / 1 * ((s - t) * 1)) by field.
  apply H; auto.
  - intros x Hx. apply @is_derive_const.
  - intros x Hx. rewrite Rminus_0_r, Rmult_1_r. auto.
Qed.

Lemma taylor1 (f f1 f2 : R -> R) B t h : 0 <= h ->
  (forall s, t <= s <= t + h -> is_derive f s (f1 s)) ->
  (forall s, t <= s <= t + h -> is_derive f1 s (f2 s)) ->
  (forall s, t <= s <= t + h -> Rabs (f2 s) <= B) ->
  forall s, t <= s <= t + h ->
  Rabs (f s - (f t + (s - t) * f1 t)) <= B / 2 * (s - t) ^ 2.
Proof.
  intros Hh D D1 HB s Hs.
  pose proof (taylor0 f1 f2 B t h Hh D1 HB) as HT.
  pose proof (taylor_up f f1 (fun s => f t + (s - t) * f1 t) (fun _ => f1 t) B t h 1 Hh D) as H.
  replace (INR 2) with 2 in H by (simpl; lra). apply H; auto.
  - intros x Hx. auto_derive; auto. ring.
  - ring.
  - intros x Hx. rewrite pow_1. auto.
Qed.

Lemma taylor2 (f f1 f2 f3 : R -> R) B t h : 0 <= h ->
  (forall s, t <= s <= t + h -> is_derive f s (f1 s)) ->
  (forall s, t <= s <= t + h -> is_derive f1 s (f2 s)) ->
  (forall s, t <= s <= t + h -> is_derive f2 s (f3 s)) ->
  (forall s, t <= s <= t + h -> Rabs (f3 s) <= B) ->
  forall s, t <= s <= t + h ->
  Rabs (f s - (f t + (s - t) * f1 t + (s - t) ^ 2 / 2 * f2 t)) <= B / 6 * (s - t) ^ 3.
Proof.
  intros Hh D D1 D2 HB s Hs.
  pose proof (taylor1 f1 f2 f3 B t h Hh D1 D2 HB) as HT.
  pose proof (taylor_up f f1 (fun s => f t + (s - t) * f1 t + (s - t) ^ 2 / 2 * f2 t)
     (fun s => f1 t + (s - t) * f2 t) (B / 2) t h 2 Hh D) as H.
  replace (B / 2 / INR 3) with (B / 6) in H by (simpl; field). apply H; auto.
  - intros x Hx. auto_derive; auto. field.
  - field.
Qed.

Lemma taylor3 (f f1 f2 f3 f4 : R -> R) B t h : 0 <= h ->
  (forall s, t <= s <= t + h -> is_derive f s (f1 s)) ->
  (forall s, t <= s <= t + h -> is_derive f1 s (f2 s)) ->
  (forall s, t <= s <= t + h -> is_derive f2 s (f3 s)) ->
  (forall s, t <= s <= t + h -> is_derive f3 s (f4 s)) ->
  (forall s, t <= s <= t + h -> Rabs (f4 s) <= B) ->
  forall s, t <= s <= t + h ->
  Rabs (f s - (f t + (s - t) * f1 t + (s - t) ^ 2 / 2 * f2 t + (s - t) ^ 3 / 6 * f3 t))
    <= B / 24 * (s - t) ^ 4.
Proof.
  intros Hh D D1 D2 D3 HB s Hs.
  pose proof (taylor2 f1 f2 f3 f4 B t h Hh D1 D2 D3 HB) as HT.
  pose proof (taylor_up f f1 (fun s => f t + (s - t) * f1 t + (s - t) ^ 2 / 2 * f2 t + (s - t) ^ 3 / 6 * f3 t)
     (fun s => f1 t + (s - t) * f2 t + (s - t) ^ 2 / 2 * f3 t) (B / 6) t h 3 Hh D) as H.
  replace (B / 6 / INR 4) with (B / 24) in H by (simpl; field). apply H; auto.
  - intros x Hx. auto_derive; auto. field.
  - field.
Qed.

Lemma taylor4 (f f1 f2 f3 f4 f5 : R -> R) B t h : 0 <= h ->
  (forall s, t <= s <= t + h -> is_derive f s (f1 s)) ->
  (forall s, t <= s <= t + h -> is_derive f1 s (f2 s)) ->
  (forall s, t <= s <= t + h -> is_derive f2 s (f3 s)) ->
  (forall s, t <= s <= t + h -> is_derive f3 s (f4 s)) ->
  (forall s, t <= s <= t + h -> is_derive f4 s (f5 s)) ->
  (forall s, t <= s <= t + h -> Rabs (f5 s) <= B) ->
  forall s, t <= s <= t + h ->
  Rabs (f s - (f t + (s - t) * f1 t + (s - t) ^ 2 / 2 * f2 t + (s - t) ^ 3 / 6 * f3 t
               + (s - t) ^ 4 / 24 * f4 t)) <= B / 120 * (s - t) ^ 5.
Proof.
  intros Hh D D1 D2 D3 D4 HB s Hs.
  pose proof (taylor3 f1 f2 f3 f4 f5 B t h Hh D1 D2 D3 D4 HB) as HT.
  pose proof (taylor_up f f1 (fun s => f t + (s - t) * f1 t + (s - t) ^ 2 / 2 * f2 t + (s - t) ^ 3 / 6 * f3 t
       + (s - t) ^ 4 / 24 * f4 t)
     (fun s => f1 t + (s - t) * f2 t + (s - t) ^ 2 / 2 * f3 t + (s - t) ^ 3 / 6 * f4 t) (B / 24) t h 4 Hh D) as H.
  replace (B / 24 / INR 5) with (B / 120) in H by (simpl; field). apply H; auto.
  - intros x Hx. auto_derive; auto. field.
  - field.
Qed.

(** ** Uniform bounds *)
(** [f] is bounded on the indices with [D]. *)
Definition bd {I : Type} (D : I -> Prop) (f : I -> R) : Prop :=
  exists C, 0 <= C /\ forall i, D i -> Rabs (f i) <= C.

Lemma bd_const {I} (D : I -> Prop) c : bd D (fun _ => c).
Proof. exists (Rabs c). split; [apply Rabs_pos|]. intros. apply Rle_refl. Qed.

Lemma bd_plus {I} (D : I -> Prop) f g : bd D f -> bd D g -> bd D (fun i => f i + g i).
Proof.
  intros (B & HB & Hf) (C & HC & Hg). exists (B + C). split; [lra|]. intros i Hi.
  eapply Rle_trans; [apply Rabs_triang|]. specialize (Hf i Hi). specialize (Hg i Hi). lra.
Qed.

Lemma bd_mult {I} (D : I -> Prop) f g : bd D f -> bd D g -> bd D (fun i => f i * g i).
Proof.
  intros (B & HB & Hf) (C & HC & Hg). exists (B * C). split; [apply Rmult_le_pos; auto|]. intros i Hi.
  rewrite Rabs_mult. apply Rmult_le_compat; auto; apply Rabs_pos.
Qed.

Lemma bd_opp {I} (D : I -> Prop) f : bd D f -> bd D (fun i => - f i).
Proof. intros (B & HB & Hf). exists B. split; auto. intros i Hi. rewrite Rabs_Ropp. auto. Qed.

Lemma bd_minus {I} (D : I -> Prop) f g : bd D f -> bd D g -> bd D (fun i => f i - g i).
Proof. intros Hf Hg. unfold Rminus. apply bd_plus; auto. now apply bd_opp. Qed.

Lemma bd_pow {I} (D : I -> Prop) f n : bd D f -> bd D (fun i => f i ^ n).
Proof.
  intros Hf. induction n as [|n IH]; [apply (bd_const D 1)|]. cbn [pow]. now apply bd_mult.
Qed.

Ltac bound := repeat first [assumption | apply bd_const | apply bd_plus | apply bd_minus | apply bd_mult
  | apply bd_opp | apply bd_pow].
