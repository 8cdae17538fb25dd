(** Reasoning about the array-level model of dmp_fast.pyx. *)
From Coq Require Import ZArith Reals List Arith Bool Lia Lra.
From Verif Require Import M_Prelude M_Base M_Forcing M_Dmp M_Quaternion M_Cython.
Import ListNotations.
Open Scope R_scope.
Set Bullet Behavior "Strict Subproofs".

(** [tri r x Q]: [x] does not leave its arrays; if it returns, the result satisfies
    [Q]; it may raise an exception only if [r]. *)
Definition tri {A} (r : Prop) (x : cres A) (Q : A -> Prop) : Prop :=
  match x with Done a => Q a | Raised _ => r | Wild => False end.

Lemma tri_bind {A B} r (x : cres A) (f : A -> cres B) Q :
  tri r x (fun a => tri r (f a) Q) -> tri r (cbind x f) Q.
Proof. destruct x; cbn; auto. Qed.

Lemma tri_done {A} r (a : A) (Q : A -> Prop) : Q a -> tri r (Done a) Q.
Proof. auto. Qed.

Lemma tri_raised {A} (r : Prop) e (Q : A -> Prop) : r -> tri r (Raised e) Q.
Proof. auto. Qed.

Lemma tri_weaken {A} (r : Prop) (x : cres A) (P Q : A -> Prop) :
  tri r x P -> (forall a, P a -> Q a) -> tri r x Q.
Proof. destruct x; cbn; auto. Qed.

Lemma tri_rd r a i (Q : R -> Prop) : (i < alen a)%nat -> Q (aget a i) -> tri r (c_rd a i) Q.
Proof. intros H HQ. unfold c_rd. apply Nat.ltb_lt in H. now rewrite H. Qed.

Lemma tri_wr r a i x (Q : arr -> Prop) : (i < alen a)%nat ->
  Q {| alen := alen a; aget := upd (aget a) i x |} -> tri r (c_wr a i x) Q.
Proof. intros H HQ. unfold c_wr. apply Nat.ltb_lt in H. now rewrite H. Qed.

Lemma tri_prd (r : Prop) a i (Q : R -> Prop) : (~ r -> (i < alen a)%nat) ->
  ((i < alen a)%nat -> Q (aget a i)) -> r \/ ~ r -> tri r (p_rd a i) Q.
Proof.
  intros H HQ [Hr | Hr]; unfold p_rd; destruct (Nat.ltb_spec i (alen a)) as [Hi | Hi]; cbn; auto.
  specialize (H Hr). lia.
Qed.

Lemma tri_for {A S} r (I : list A -> S -> Prop) (body : A -> S -> cres S) (Q : S -> Prop) : forall l s,
  I l s -> (forall x l' s, I (x :: l') s -> tri r (body x s) (I l')) -> (forall s, I [] s -> Q s) ->
  tri r (c_for l body s) Q.
Proof.
  induction l as [| x l IH]; intros s HI Hb HQ; cbn [c_for].
  - now apply tri_done, HQ.
  - apply tri_bind. eapply tri_weaken; [apply (Hb x l s HI) |]. intros s' Hs'. now apply IH.
Qed.

(** A loop over [0 .. n-1] with an invariant indexed by the number of rounds. *)
Lemma tri_for_seq {S} r (I : nat -> S -> Prop) (body : nat -> S -> cres S) (Q : S -> Prop) n : forall s,
  I 0%nat s -> (forall d s, (d < n)%nat -> I d s -> tri r (body d s) (I (Datatypes.S d))) ->
  (forall s, I n s -> Q s) -> tri r (c_for (seq 0 n) body s) Q.
Proof.
  intros s H0 Hb HQ.
  apply (tri_for r (fun l s => exists d, (d <= n)%nat /\ l = seq d (n - d) /\ I d s)).
  - exists 0%nat. rewrite Nat.sub_0_r. auto with arith.
  - intros d l s' (d' & Hd & El & HI).
    destruct (n - d')%nat as [| m] eqn:Em; [discriminate |].
    cbn [seq] in El. injection El as -> ->.
    eapply tri_weaken; [apply Hb; [lia | assumption] |].
    intros s'' Hs''. exists (Datatypes.S d'). repeat split; auto; try lia.
    f_equal; lia.
  - intros s' (d & Hd & El & HI). apply HQ.
    assert (E : (n - d)%nat = 0%nat) by (destruct (n - d)%nat; [reflexivity | discriminate]).
    replace n with d by lia. assumption.
Qed.

Lemma tri_substeps {S} (r : Prop) (I : R -> S -> Prop) (body : R -> R -> S -> cres S) (t h : R) : forall fuel ct s,
  r -> I ct s -> (forall ct dt s, I ct s -> tri r (body (ct + dt) dt s) (I (ct + dt))) ->
  tri r (c_substeps fuel ct t h body s) (fun s => exists ct, I ct s).
Proof.
  induction fuel as [| fuel IH]; intros ct s Hr HI Hb; cbn [c_substeps];
    destruct (Rlt_dec ct t); try (now apply tri_done; exists ct).
  - now apply tri_raised.
  - apply tri_bind. eapply tri_weaken; [apply Hb; exact HI |]. intros s' Hs'. now apply IH.
Qed.

(** The loop with a body that succeeds computes what [substeps] computes. *)
Lemma c_substeps_refines {S S'} (Rel : S -> S' -> Prop) (body : R -> R -> S -> S)
    (cbody : R -> R -> S' -> cres S') (t h : R) : forall fuel ct s s',
  Rel s s' ->
  (forall ct dt s s', Rel s s' -> tri False (cbody ct dt s') (fun x => Rel (body ct dt s) x)) ->
  match substeps fuel ct t h body s with
  | Ok x => tri False (c_substeps fuel ct t h cbody s') (fun x' => Rel x x')
  | Err e => c_substeps fuel ct t h cbody s' = Raised e
  end.
Proof.
  induction fuel as [| fuel IH]; intros ct s s' HR Hb; cbn [substeps c_substeps];
    destruct (Rlt_dec ct t) as [Hlt | Hge]; try (now apply tri_done); try reflexivity.
  set (dt := if Rlt_dec (t - ct) h then t - ct else h).
  specialize (Hb (ct + dt) dt s s' HR) as Hstep.
  destruct (cbody (ct + dt) dt s') as [x' | e |]; cbn in Hstep; try contradiction.
  cbn [cbind]. apply IH; auto.
Qed.

(** numpy operations *)
Lemma tri_op (r : Prop) f a b (Q : arr -> Prop) : r ->
  (forall c, (alen c = alen a \/ alen c = alen b) -> Q c) -> tri r (np_op f a b) Q.
Proof.
  intros Hr HQ. unfold np_op.
  destruct (Nat.eqb (alen a) (alen b)); [apply HQ; auto |].
  destruct (Nat.eqb (alen a) 1); [apply HQ; auto |].
  destruct (Nat.eqb (alen b) 1); [apply HQ; auto |]. assumption.
Qed.

Lemma tri_op_eq r f a b (Q : arr -> Prop) : alen a = alen b ->
  Q {| alen := alen a; aget := fun i => f (aget a i) (aget b i) |} -> tri r (np_op f a b) Q.
Proof. intros H HQ. unfold np_op. apply Nat.eqb_eq in H. now rewrite H. Qed.

Lemma tri_assign (r : Prop) a b (Q : arr -> Prop) : r ->
  (forall c, alen c = alen a -> Q c) -> tri r (np_assign a b) Q.
Proof.
  intros Hr HQ. unfold np_assign.
  destruct (Nat.eqb (alen b) (alen a)); [now apply HQ |].
  destruct (Nat.eqb (alen b) 1); [now apply HQ |]. assumption.
Qed.

Lemma tri_assign_eq r a b (Q : arr -> Prop) : alen b = alen a ->
  Q {| alen := alen a; aget := aget b |} -> tri r (np_assign a b) Q.
Proof. intros H HQ. unfold np_assign. apply Nat.eqb_eq in H. now rewrite H. Qed.

Lemma tri_assign_nd (r : Prop) a b (Q : arr -> Prop) : r ->
  (forall c, alen c = alen a -> Q c) -> tri r (np_assign_nd a b) Q.
Proof.
  intros Hr HQ. unfold np_assign_nd.
  destruct (strip_ones (shape b)) as [| n [| m l]]; [now apply HQ | | assumption].
  destruct (Nat.eqb n (alen a)); [now apply HQ | assumption].
Qed.

Lemma tri_iadd (r : Prop) a b (Q : arr -> Prop) : r ->
  (forall c, alen c = alen a -> Q c) -> tri r (np_iadd a b) Q.
Proof.
  intros Hr HQ. unfold np_iadd.
  destruct (Nat.eqb (alen b) (alen a)); [now apply HQ |].
  destruct (Nat.eqb (alen b) 1); [now apply HQ |]. assumption.
Qed.

Lemma tri_iadd_eq r a b (Q : arr -> Prop) : alen b = alen a ->
  Q {| alen := alen a; aget := fun i => aget a i + aget b i |} -> tri r (np_iadd a b) Q.
Proof. intros H HQ. unfold np_iadd. apply Nat.eqb_eq in H. now rewrite H. Qed.

Lemma tri_iadd_nd (r : Prop) a b (Q : arr -> Prop) : r ->
  (forall c, alen c = alen a -> Q c) -> tri r (np_iadd_nd a b) Q.
Proof.
  intros Hr HQ. unfold np_iadd_nd.
  destruct (shape b) as [| n [| m l]]; [now apply HQ | now apply tri_iadd | assumption].
Qed.

Lemma tri_set_slice (r : Prop) i j a b (Q : arr -> Prop) : r ->
  (forall c, alen c = alen a -> Q c) -> tri r (np_set_slice i j a b) Q.
Proof. intros Hr HQ. apply tri_bind, tri_assign; auto. intros c _. now apply HQ. Qed.

Lemma tri_of_res {A} (r : Prop) (x : res A) (Q : A -> Prop) : r ->
  (forall a, x = Ok a -> Q a) -> tri r (of_res x) Q.
Proof. intros Hr HQ. destruct x; cbn; auto. Qed.

(** *** Safety: no access outside the arrays *)
Definition safe_coupling (c : cy_coupling) : Prop := forall y yd, c y yd <> Wild.

Lemma tri_coupling c y yd (Q : ndarray * ndarray -> Prop) : safe_coupling c -> (forall x, Q x) ->
  tri True (c y yd) Q.
Proof. intros Hc HQ. specialize (Hc y yd). destruct (c y yd); cbn; auto. Qed.

Definition coupling_ok (k : cy_args) : Prop :=
  match k_coupling_term k with Some c => safe_coupling c | None => True end.

Lemma tri_safe {A} (x : cres A) Q : tri True x Q -> x <> Wild.
Proof. now destruct x. Qed.

Lemma safe_tri {A} (x : cres A) : x <> Wild -> tri True x (fun _ => True).
Proof. destruct x; cbn; auto. Qed.

Lemma tri_restart k t s (Q : arr * arr -> Prop) :
  (forall s', alen (fst s') = alen (fst s) -> alen (snd s') = alen (snd s) -> Q s') ->
  tri True (c_restart k t s) Q.
Proof.
  intros HQ. unfold c_restart. destruct (Rle_dec t (k_start_t k)); [| now apply tri_done, HQ].
  apply tri_bind, tri_assign; [exact I |]. intros y Hy.
  apply tri_bind, tri_assign; [exact I |]. intros yd Hyd.
  now apply tri_done, HQ.
Qed.

Lemma tri_couple k n junk dt s (Q : arr * arr -> Prop) : coupling_ok k ->
  (forall cd cdd, alen cd = n -> alen cdd = n -> Q (cd, cdd)) -> tri True (c_couple k n junk dt s) Q.
Proof.
  intros Hc HQ. unfold c_couple. cbv zeta. apply tri_bind.
  apply (tri_weaken True _ (fun p => alen (fst p) = n /\ alen (snd p) = n)).
  - unfold coupling_ok in Hc. destruct (k_coupling_term k) as [c |]; [| destruct (k_precomputed k) as [[x xd] |]].
    + apply tri_bind, tri_coupling; [assumption |]. intros [x xd].
      apply tri_bind, tri_assign_nd; [exact I |]. intros cd Hcd.
      apply tri_bind, tri_assign_nd; [exact I |]. intros cdd Hcdd. now apply tri_done.
    + apply tri_bind, tri_assign_nd; [exact I |]. intros cd Hcd.
      apply tri_bind, tri_assign_nd; [exact I |]. intros cdd Hcdd. now apply tri_done.
    + now apply tri_done.
  - intros [cd cdd] [H1 H2]. cbn [fst snd] in H1, H2.
    destruct (k_tracking_error k); [| now apply tri_done, HQ].
    apply tri_bind, tri_iadd; [exact I |]. intros cdd' H'. apply tri_done, HQ; congruence.
Qed.

(** The lengths that the compiled Euler step relies on. *)
Definition euler_fits (k : cy_args) (n m : nat) : Prop :=
  (n <= alen (k_goal_y k))%nat /\ (n <= alen (k_alpha_y k))%nat /\ (n <= alen (k_beta_y k))%nat
  /\ (n <= m)%nat /\ (k_smooth_scaling k = true -> (n <= alen (k_start_y k))%nat).

Ltac rd := apply tri_bind; apply tri_rd; [cbn [alen np_map np_empty zeros]; lia |].
Ltac wr := apply tri_bind; apply tri_wr; [cbn [alen np_map np_empty zeros]; lia |].

Lemma euler_cell_safe k et dt z f cd cdd n m d s :
  euler_fits k n m -> alen f = n -> alen cd = n -> alen cdd = n -> (d < n)%nat ->
  (alen (fst (fst s)) = n /\ alen (snd (fst s)) = m /\ alen (snd s) = n) ->
  tri True (c_euler_cell k et dt z f cd cdd d s)
    (fun s => alen (fst (fst s)) = n /\ alen (snd (fst s)) = m /\ alen (snd s) = n).
Proof.
  intros (F1 & F2 & F3 & F4 & F5) Hf Hcd Hcdd Hd. destruct s as [[y yd] ydd]. cbn [fst snd].
  intros (H1 & H2 & H3). unfold c_euler_cell. cbv beta iota.
  apply tri_bind. apply (tri_weaken True _ (fun _ => True)).
  { destruct (k_smooth_scaling k); [| now apply tri_done].
    specialize (F5 eq_refl). do 3 rd. now apply tri_done. }
  intros smoothing _. do 7 rd. wr. do 3 rd. wr. do 2 rd. wr. apply tri_done. cbn [fst snd alen]. auto.
Qed.

Lemma euler_body_safe junk k ct dt n m s : coupling_ok k -> euler_fits k n m ->
  alen (fst s) = n -> alen (snd s) = m ->
  tri True (c_euler_body junk k ct dt s) (fun s => alen (fst s) = n /\ alen (snd s) = m).
Proof.
  intros Hc Hfit H1 H2. unfold c_euler_body. cbv zeta. rewrite H1.
  apply tri_bind, tri_couple; [assumption |]. intros cd cdd Hcd Hcdd. cbv beta iota.
  apply tri_bind, tri_of_res; [exact I |]. intros z _.
  apply tri_bind, tri_of_res; [exact I |]. intros force _.
  apply tri_bind, tri_assign_nd; [exact I |]. intros f Hf. cbn [alen np_empty] in Hf.
  apply tri_bind.
  apply (tri_for_seq True (fun _ s => alen (fst (fst s)) = n /\ alen (snd (fst s)) = m /\ alen (snd s) = n)).
  - cbn [fst snd alen np_empty]. auto.
  - intros d s' Hd Hs'. now apply euler_cell_safe.
  - intros [[y yd] ydd] (E1 & E2 & E3). apply tri_done. cbn [fst snd] in *. auto.
Qed.

Lemma euler_safe junk k last_t t s : coupling_ok k -> euler_fits k (alen (fst s)) (alen (snd s)) ->
  tri True (c_dmp_step junk k last_t t s) (fun x => alen (fst x) = alen (fst s) /\ alen (snd x) = alen (snd s)).
Proof.
  intros Hc Hfit. unfold c_dmp_step. destruct (Rle_dec _ _); [exact I |].
  apply tri_bind, tri_restart. intros s' H1 H2. eapply tri_weaken.
  - apply (tri_substeps True (fun _ x => alen (fst x) = alen (fst s) /\ alen (snd x) = alen (snd s))); auto.
    intros ct dt x [X1 X2]. now apply euler_body_safe.
  - intros x [_ H]. exact H.
Qed.

(** The RK4 step is safe whatever the lengths of the arrays. *)
Lemma prd_true a i (Q : R -> Prop) : ((i < alen a)%nat -> Q (aget a i)) -> tri True (p_rd a i) Q.
Proof. intros H. apply tri_prd; [tauto | assumption | now left]. Qed.

Ltac prd := apply tri_bind; apply prd_true; intros ?.

Lemma acc_safe junk k Y V cdd z et f tdd (Q : arr * arr -> Prop) : coupling_ok k ->
  (forall cdd' Ydd, alen Ydd = alen Y -> (alen Y <= alen V)%nat -> Q (cdd', Ydd)) ->
  tri True (c_dmp_acc junk k Y V cdd z et f tdd) Q.
Proof.
  intros Hc HQ. unfold c_dmp_acc. apply tri_bind. apply (tri_weaken True _ (fun _ => True)).
  { unfold coupling_ok in Hc. destruct (k_coupling_term k) as [c |]; [| now apply tri_done].
    apply tri_bind, tri_coupling; [assumption |]. intros [x xd]. apply tri_assign_nd; auto. }
  intros cdd' _. cbv zeta. apply tri_bind.
  apply (tri_for_seq True (fun d s => alen s = alen Y /\ (d <= alen V)%nat)).
  - split; [reflexivity | lia].
  - intros d s Hd [Hs Hv]. apply tri_bind. apply (tri_weaken True _ (fun _ => True)).
    { destruct (k_smooth_scaling k); [| now apply tri_done]. do 3 prd. now apply tri_done. }
    intros sm _. do 8 prd. destruct (Req_EM_T et 0); [exact I|]. unfold p_wr. rewrite (proj2 (Nat.ltb_lt _ _)) by lia.
    cbn. split; [assumption | lia].
  - intros Ydd [H1 H2]. apply tri_done. now apply HQ.
Qed.

Lemma rk4_safe junk k last_t t s : coupling_ok k ->
  (forall a b, fo_phase_array (k_forcing_term k) a = Ok b -> (alen a <= alen b)%nat) ->
  tri True (c_dmp_step_rk4 junk k last_t t s) (fun x => alen (fst x) = alen (fst s) /\ alen (snd x) = alen (snd s)).
Proof.
  intros Hc HZ. destruct s as [y yd]. unfold c_dmp_step_rk4. cbv zeta. cbn [fst snd].
  apply tri_bind. apply (tri_weaken True _ (fun _ => True)).
  { destruct (k_precomputed k) as [[x xd] |]; [| now apply tri_done]. now apply tri_iadd_nd. }
  intros cd _. apply tri_bind. apply (tri_weaken True _ (fun _ => True)).
  { destruct (k_precomputed k) as [[x xd] |]; [| now apply tri_done]. now apply tri_iadd_nd. }
  intros cdd _. apply tri_bind, tri_of_res; [exact I |]. intros Z EZ. apply HZ in EZ. cbn [alen] in EZ.
  apply tri_bind, tri_of_res; [exact I |]. intros F _.
  assert (HF : forall j (Q : arr -> Prop), (forall a, Q a) -> tri True (column F j) Q).
  { intros j Q HQ. destruct F as [[rows cols] x]. unfold column. destruct (Nat.ltb j cols); cbn; auto. }
  Ltac acc Hc Hz HF := rd; apply tri_bind, HF; intros ?f; apply tri_bind, acc_safe; [exact Hc |].
  acc Hc EZ HF. intros cdd0 K0 E0 L0. cbv beta iota.
  apply tri_bind, tri_op; [exact I |]. intros C1 E1. cbn [alen np_map] in E1.
  apply tri_bind, tri_op; [exact I |]. intros Y1 EY1. cbn [alen np_map] in EY1.
  acc Hc EZ HF. intros cdd1 K1 EK1 L1. cbv beta iota.
  apply tri_bind, tri_op; [exact I |]. intros C2 E2. cbn [alen np_map] in E2.
  apply tri_bind, tri_op; [exact I |]. intros Y2 EY2. cbn [alen np_map] in EY2.
  acc Hc EZ HF. intros cdd2 K2 EK2 L2. cbv beta iota.
  apply tri_bind, tri_op; [exact I |]. intros C3 E3. cbn [alen np_map] in E3.
  apply tri_bind, tri_op; [exact I |]. intros Y3 EY3. cbn [alen np_map] in EY3.
  acc Hc EZ HF. intros cdd3 K3 EK3 L3. cbv beta iota.
  set (n := alen y) in *. set (m := alen yd) in *.
  assert (G : (n <= m /\ n <= alen C1 /\ n <= alen C2 /\ n <= alen C3 /\ n <= alen K0 /\ n <= alen K1
               /\ n <= alen K2 /\ n <= alen K3)%nat) by lia.
  destruct G as (G1 & G2 & G3 & G4 & G5 & G6 & G7 & G8).
  apply tri_bind.
  apply (tri_for_seq True (fun _ s => alen (fst s) = n /\ alen (snd s) = m)).
  - split; reflexivity.
  - intros d [y' yd'] Hd [H1 H2]. cbn [fst snd] in H1, H2. do 5 rd. wr. do 5 rd. wr.
    apply tri_done. cbn [fst snd alen]. auto.
  - intros [y' yd'] [H1 H2]. cbv beta iota. unfold coupling_ok in Hc.
    destruct (k_coupling_term k) as [c |]; [| apply tri_done; now split].
    apply tri_bind, tri_coupling; [assumption |]. intros [x xd].
    apply tri_bind, tri_assign_nd; [exact I |]. intros cd' _.
    apply tri_bind, tri_iadd; [exact I |]. intros yd'' E. apply tri_done. cbn [fst snd] in *. split; congruence.
Qed.

(** *** Quaternions *)
Definition q_at (a : arr) : quat := quat_of (aget a).
Definition v_at (a : arr) : v3 := v3_of (aget a).

(** An array with four given entries. *)
Definition is4 (a : arr) (w x y z : R) : Prop :=
  alen a = 4%nat /\ aget a 0%nat = w /\ aget a 1%nat = x /\ aget a 2%nat = y /\ aget a 3%nat = z.

Lemma tri_rd4 r a w x y z i (Q : R -> Prop) : is4 a w x y z -> (i < 4)%nat -> Q (nth i [w; x; y; z] 0) ->
  tri r (c_rd a i) Q.
Proof.
  intros (H & <- & <- & <- & <-) Hi HQ. apply tri_rd; [lia |].
  destruct i as [| [| [| [| i]]]]; try exact HQ. lia.
Qed.

Lemma tri_wr4 r a w x y z i v (Q : arr -> Prop) : is4 a w x y z -> (i < 4)%nat ->
  (forall b, is4 b (if Nat.eqb i 0 then v else w) (if Nat.eqb i 1 then v else x)
               (if Nat.eqb i 2 then v else y) (if Nat.eqb i 3 then v else z) -> Q b) ->
  tri r (c_wr a i v) Q.
Proof.
  intros (H & <- & <- & <- & <-) Hi HQ. apply tri_wr; [lia |]. apply HQ.
  unfold is4. cbn [alen aget]. unfold upd. rewrite H.
  destruct i as [| [| [| [| i]]]]; cbn [Nat.eqb]; auto; lia.
Qed.

Ltac rd4 H := apply tri_bind; eapply tri_rd4; [exact H | lia |]; cbn [nth].
Ltac wr4 H b H' := eapply tri_wr4; [exact H | lia |]; cbn [Nat.eqb]; intros b H'.

Lemma concat_spec (r : Prop) junk a b : (4 <= alen a)%nat -> (4 <= alen b)%nat ->
  tri r (c_concatenate_quaternions junk a b)
    (fun c => alen c = 4%nat /\ q_at c = cy_mul (q_at a) (q_at b)).
Proof.
  intros Ha Hb. unfold c_concatenate_quaternions. cbv zeta.
  assert (H0 : is4 (np_empty junk 4) (junk 0%nat) (junk 1%nat) (junk 2%nat) (junk 3%nat))
    by (repeat split).
  do 2 rd. apply tri_bind. wr4 H0 a1 H1. do 4 rd. apply tri_bind. wr4 H1 a2 H2.
  do 4 rd. apply tri_bind. wr4 H2 a3 H3. do 4 rd. apply tri_bind. wr4 H3 a4 H4. clear H0 H1 H2 H3.
  cbn [seq]. apply tri_bind. cbn [c_for].
  apply tri_bind. rd4 H4. do 2 rd. apply tri_bind. wr4 H4 b1 H5. rd4 H5. do 4 rd. wr4 H5 b2 H6.
  apply tri_bind. rd4 H6. do 2 rd. apply tri_bind. wr4 H6 b3 H7. rd4 H7. do 4 rd. wr4 H7 b4 H8.
  apply tri_bind. rd4 H8. do 2 rd. apply tri_bind. wr4 H8 b5 H9. rd4 H9. do 4 rd. wr4 H9 b6 H10.
  clear H4 H5 H6 H7 H8 H9. apply tri_done. do 4 rd4 H10.
  match type of H10 with is4 _ ?w ?x ?y ?z => set (N := sqrt (w * w + x * x + y * y + z * z)) in * end.
  apply tri_bind. rd4 H10. wr4 H10 r1 H11. apply tri_bind. rd4 H11. wr4 H11 r2 H12.
  apply tri_bind. rd4 H12. wr4 H12 r3 H13.
  apply tri_bind. rd4 H13. wr4 H13 r4 H14. apply tri_done. destruct H14 as (E & E0 & E1 & E2 & E3). split; [exact E |].
  unfold q_at, cy_mul, quat_of. rewrite E0, E1, E2, E3. unfold q_divs.
  assert (EN : N = q_norm (hamilton (Q4 (aget a 0%nat) (aget a 1%nat) (aget a 2%nat) (aget a 3%nat))
                     (Q4 (aget b 0%nat) (aget b 1%nat) (aget b 2%nat) (aget b 3%nat)))).
  { unfold N, q_norm, hamilton. cbn [qw qx qy qz]. f_equal; ring. }
  rewrite EN. unfold hamilton. cbn [qw qx qy qz]. f_equal; f_equal; ring.
Qed.

Lemma conj_spec (r : Prop) a : (4 <= alen a)%nat ->
  tri r (c_q_conj a) (fun c => alen c = 4%nat /\ q_at c = cy_conj (q_at a)).
Proof. intros Ha. unfold c_q_conj. do 4 rd. apply tri_done. split; reflexivity. Qed.

Lemma exp_spec (r : Prop) junk a : (3 <= alen a)%nat ->
  tri r (c_quaternion_from_compact_axis_angle junk a)
    (fun c => alen c = 4%nat /\ q_at c = cy_exp (v_at a)).
Proof.
  intros Ha. unfold c_quaternion_from_compact_axis_angle. cbv zeta. do 3 rd.
  unfold cy_exp, v_at, v3_norm, v3_of. cbn [v3x v3y v3z].
  destruct (Req_EM_T _ 0); [apply tri_done; split; reflexivity |].
  wr. rd. wr. rd. wr. rd. apply tri_wr; [cbn [alen np_empty]; lia |]. split; reflexivity.
Qed.

Lemma log_spec (r : Prop) a : (4 <= alen a)%nat ->
  tri r (c_compact_axis_angle_from_quaternion a)
    (fun c => (alen c = 3%nat \/ alen c = (alen a - 1)%nat) /\ v_at c = cy_log (q_at a)).
Proof.
  intros Ha. unfold c_compact_axis_angle_from_quaternion. cbv zeta. do 3 rd.
  unfold cy_log, q_at, quat_of. cbn [qw qx qy qz].
  destruct (Rlt_dec _ (/ 10 ^ 32)); [apply tri_done; split; [left |]; reflexivity |].
  do 2 rd. apply tri_done. split; [right; cbn [alen np_map np_slice]; lia |]. reflexivity.
Qed.

Lemma error_spec (r : Prop) junk p q : (4 <= alen p)%nat -> (4 <= alen q)%nat ->
  tri r (c_rotation_error junk p q)
    (fun c => alen c = 3%nat /\ v_at c = cy_log (cy_mul (q_at p) (cy_conj (q_at q)))).
Proof.
  intros Hp Hq. unfold c_rotation_error. apply tri_bind.
  eapply tri_weaken; [now apply conj_spec |]. intros c [Hc Ec].
  apply tri_bind. eapply tri_weaken; [apply concat_spec; lia |]. intros e [He Ee].
  eapply tri_weaken; [apply log_spec; lia |]. intros l [Hl El]. split; [lia |].
  now rewrite El, Ee, Ec.
Qed.

(** The lengths that the compiled quaternion step relies on. *)
Definition quaternion_fits (k : cy_args) (n m : nat) : Prop :=
  (4 <= alen (k_goal_y k))%nat /\ (4 <= n)%nat /\ (3 <= m)%nat
  /\ (k_smooth_scaling k = true -> (4 <= alen (k_start_y k))%nat).

Lemma rotation_acc_safe k al be e yd sm f cdd (Q : arr -> Prop) : (forall x, Q x) ->
  tri True (c_rotation_acc k al be e yd sm f cdd) Q.
Proof.
  intros HQ. unfold c_rotation_acc. cbv zeta.
  do 6 (apply tri_bind, tri_op; [exact I |]; intros ? _). apply tri_done, HQ.
Qed.

Lemma quaternion_body_safe junk k ct dt n m s : coupling_ok k -> quaternion_fits k n m ->
  alen (fst s) = n -> alen (snd s) = m ->
  tri True (c_quaternion_body junk k ct dt s) (fun s => alen (fst s) = n /\ alen (snd s) = m).
Proof.
  intros Hc (F1 & F2 & F3 & F4) H1 H2. destruct s as [y yd]. cbn [fst snd] in H1, H2.
  unfold c_quaternion_body. cbv zeta.
  apply tri_bind. apply (tri_weaken True _ (fun _ => True)).
  { unfold coupling_ok in Hc. destruct (k_coupling_term k) as [c |]; [| destruct (k_precomputed k) as [[x xd] |]].
    - apply tri_bind, tri_coupling; [assumption |]. intros [x xd].
      do 2 (apply tri_bind, tri_assign_nd; [exact I |]; intros ? _). exact I.
    - do 2 (apply tri_bind, tri_assign_nd; [exact I |]; intros ? _). exact I.
    - exact I. }
  intros [cd cdd] _. cbv beta iota.
  apply tri_bind, tri_of_res; [exact I |]. intros z _.
  apply tri_bind, tri_of_res; [exact I |]. intros force _.
  apply tri_bind, tri_assign_nd; [exact I |]. intros f _.
  apply tri_bind. apply (tri_weaken True _ (fun _ => True)).
  { destruct (k_smooth_scaling k); [| exact I]. specialize (F4 eq_refl).
    apply tri_bind. eapply tri_weaken; [now apply error_spec |]. intros g _.
    apply tri_bind, tri_op; [exact I |]. intros x _. now apply tri_assign. }
  intros sm _. apply tri_bind. eapply tri_weaken; [apply error_spec; [assumption | lia] |]. intros e _.
  apply tri_bind, rotation_acc_safe. intros x.
  apply tri_bind, tri_assign; [exact I |]. intros ydd _.
  apply tri_bind, tri_op; [exact I |]. intros x' _.
  apply tri_bind, tri_iadd; [exact I |]. intros yd' Hyd'.
  apply tri_bind. eapply tri_weaken; [apply exp_spec; cbn [alen np_map]; lia |]. intros q [Hq _].
  apply tri_bind. eapply tri_weaken; [apply concat_spec; lia |]. intros q' [Hq' _].
  apply tri_bind, tri_assign; [exact I |]. intros y' Hy'. apply tri_done. cbn [fst snd]. split; congruence.
Qed.

Lemma quaternion_safe junk k last_t t s : coupling_ok k ->
  quaternion_fits k (alen (fst s)) (alen (snd s)) ->
  tri True (c_dmp_step_quaternion junk k last_t t s) (fun x => alen (fst x) = alen (fst s) /\ alen (snd x) = alen (snd s)).
Proof.
  intros Hc Hfit. unfold c_dmp_step_quaternion.
  apply tri_bind, tri_restart. intros s' H1 H2. eapply tri_weaken.
  - apply (tri_substeps True (fun _ x => alen (fst x) = alen (fst s) /\ alen (snd x) = alen (snd s))); auto.
    intros ct dt x [X1 X2]. now apply quaternion_body_safe.
  - intros x [_ H]. exact H.
Qed.

(** *** Two arms *)
Definition dual_fits (k : cy_args) (n m : nat) : Prop :=
  (14 <= alen (k_goal_y k))%nat /\ (14 <= n)%nat /\ (12 <= m)%nat
  /\ (9 <= alen (k_alpha_y k))%nat /\ (9 <= alen (k_beta_y k))%nat
  /\ (k_smooth_scaling k = true -> (14 <= alen (k_start_y k))%nat /\ (10 <= alen (k_beta_y k))%nat)
  /\ match k_tracking_error k with
     | Some te => (14 <= alen te)%nat
     | None => True
     end.

Lemma feedback_safe k dt cdd m (Q : arr -> Prop) : (12 <= m)%nat -> alen cdd = m ->
  match k_tracking_error k with Some te => (14 <= alen te)%nat | None => True end ->
  (forall c, alen c = m -> Q c) -> tri True (c_dual_feedback k dt cdd) Q.
Proof.
  intros Hm Hc Ht HQ. unfold c_dual_feedback. destruct (k_tracking_error k) as [te |]; [| now apply tri_done, HQ].
  apply tri_bind. apply (tri_weaken True _ (fun c => alen c = m)).
  - unfold POS_INDICES. cbn [c_for].
    do 6 (apply tri_bind; rd; prd; apply tri_wr; [cbn [alen np_map np_slice]; lia |]; cbv beta).
    apply tri_done. cbn [alen]. assumption.
  - intros c Hc'. unfold ORN_SLICES. cbn [c_for].
    do 2 (apply tri_bind; apply tri_bind; eapply tri_weaken; [apply log_spec; cbn [alen np_slice]; lia |];
          intros ? _; apply tri_bind, tri_iadd; [exact I |]; intros ? _;
          apply tri_set_slice; [exact I |]; intros ? ?).
    apply tri_done, HQ. congruence.
Qed.

Lemma position_safe k et dt z f cd cdd n m i s : dual_fits k n m -> In i POS_INDICES ->
  alen f = m -> alen cd = m -> alen cdd = m ->
  (alen (fst (fst s)) = n /\ alen (snd (fst s)) = m /\ alen (snd s) = m) ->
  tri True (c_dual_position k et dt z f cd cdd i s)
    (fun s => alen (fst (fst s)) = n /\ alen (snd (fst s)) = m /\ alen (snd s) = m).
Proof.
  intros (F1 & F2 & F3 & F4 & F5 & F6 & _) Hi Hf Hcd Hcdd. destruct s as [[y yd] ydd]. cbn [fst snd].
  intros (H1 & H2 & H3). destruct i as [p v].
  assert (B : (p <= 9 /\ v <= 8)%nat).
  { unfold POS_INDICES in Hi. cbn [In] in Hi.
    repeat (destruct Hi as [Hi | Hi]; [injection Hi as <- <-; lia |]). contradiction. }
  unfold c_dual_position. cbv beta iota.
  apply tri_bind. apply (tri_weaken True _ (fun _ => True)).
  { destruct (k_smooth_scaling k); [| exact I]. destruct (F6 eq_refl). do 3 rd. now apply tri_done. }
  intros sm _. do 7 rd. wr. do 3 rd. wr. do 2 rd. wr. apply tri_done. cbn [fst snd alen]. auto.
Qed.

Lemma orientation_safe junk k et dt z f cd cdd n m i s : dual_fits k n m -> In i ORN_SLICES ->
  (alen (fst (fst s)) = n /\ alen (snd (fst s)) = m /\ alen (snd s) = m) ->
  tri True (c_dual_orientation junk k et dt z f cd cdd i s)
    (fun s => alen (fst (fst s)) = n /\ alen (snd (fst s)) = m /\ alen (snd s) = m).
Proof.
  intros (F1 & F2 & F3 & F4 & F5 & F6 & _) Hi. destruct s as [[y yd] ydd]. cbn [fst snd].
  intros (H1 & H2 & H3). destruct i as [[o1 o2] [v1 v2]].
  assert (B : (o2 = o1 + 4 /\ o2 <= 14 /\ v2 = v1 + 3 /\ v2 <= 12)%nat).
  { unfold ORN_SLICES in Hi. cbn [In] in Hi.
    repeat (destruct Hi as [Hi | Hi]; [injection Hi as <- <- <- <-; lia |]). contradiction. }
  unfold c_dual_orientation. cbv beta iota zeta.
  apply tri_bind. apply (tri_weaken True _ (fun _ => True)).
  { destruct (k_smooth_scaling k); [| exact I]. destruct (F6 eq_refl).
    apply tri_bind. eapply tri_weaken; [apply error_spec; cbn [alen np_slice]; lia |]. intros g _.
    apply tri_bind, tri_op; [exact I |]. intros x _. now apply tri_assign. }
  intros sm _.
  apply tri_bind. eapply tri_weaken; [apply error_spec; cbn [alen np_slice]; lia |]. intros e _.
  apply tri_bind, rotation_acc_safe. intros x.
  apply tri_bind, tri_set_slice; [exact I |]. intros ydd' Hydd'.
  apply tri_bind, tri_op; [exact I |]. intros x' _.
  apply tri_bind, tri_iadd; [exact I |]. intros x'' _.
  apply tri_bind, tri_set_slice; [exact I |]. intros yd' Hyd'.
  apply tri_bind. eapply tri_weaken; [apply exp_spec; cbn [alen np_map np_slice]; lia |]. intros q [Hq _].
  apply tri_bind. eapply tri_weaken; [apply concat_spec; cbn [alen np_slice]; lia |]. intros q' _.
  apply tri_bind, tri_set_slice; [exact I |]. intros y' Hy'.
  apply tri_done. cbn [fst snd]. repeat split; congruence.
Qed.

Lemma dual_body_safe junk k ct dt n m s : coupling_ok k -> dual_fits k n m ->
  alen (fst s) = n -> alen (snd s) = m ->
  tri True (c_dual_body junk k ct dt s) (fun s => alen (fst s) = n /\ alen (snd s) = m).
Proof.
  intros Hc F H1 H2. destruct s as [y yd]. cbn [fst snd] in H1, H2.
  unfold c_dual_body. cbv zeta. rewrite H2.
  apply tri_bind. apply (tri_weaken True _ (fun p => alen (fst p) = m /\ alen (snd p) = m)).
  { unfold coupling_ok in Hc. destruct (k_coupling_term k) as [c |]; [| split; reflexivity].
    apply tri_bind, tri_coupling; [assumption |]. intros [x xd].
    apply tri_bind, tri_assign_nd; [exact I |]. intros cd Hcd.
    apply tri_bind, tri_assign_nd; [exact I |]. intros cdd Hcdd. now apply tri_done. }
  intros [cd cdd] [Hcd Hcdd]. cbn [fst snd] in Hcd, Hcdd. cbv beta iota.
  apply tri_bind, tri_of_res; [exact I |]. intros z _.
  apply tri_bind, tri_of_res; [exact I |]. intros force _.
  apply tri_bind, tri_assign_nd; [exact I |]. intros f Hf. cbn [alen np_empty] in Hf.
  apply tri_bind. apply (feedback_safe k dt cdd m); [unfold dual_fits in F; lia | assumption | apply F |].
  intros cdd' Hcdd'.
  set (P := fun s : arr * arr * arr => alen (fst (fst s)) = n /\ alen (snd (fst s)) = m /\ alen (snd s) = m).
  apply tri_bind.
  apply (tri_for True (fun l s => incl l POS_INDICES /\ P s)).
  - split; [apply incl_refl |]. unfold P. cbn [fst snd alen np_empty]. auto.
  - intros i l s [Hl Hs]. eapply tri_weaken; [apply (position_safe _ _ _ _ _ _ _ n m); auto; apply Hl; now left |].
    intros s' Hs'. split; [| exact Hs']. intros j Hj. apply Hl. now right.
  - intros s [_ Hs]. apply tri_bind.
    apply (tri_for True (fun l s => incl l ORN_SLICES /\ P s)).
    + split; [apply incl_refl | assumption].
    + intros i l s' [Hl Hs']. eapply tri_weaken; [apply (orientation_safe _ _ _ _ _ _ _ _ n m); auto; apply Hl; now left |].
      intros s'' Hs''. split; [| exact Hs'']. intros j Hj. apply Hl. now right.
    + intros [[y' yd'] ydd'] [_ (E1 & E2 & E3)]. apply tri_done. cbn [fst snd] in *. auto.
Qed.

Lemma dual_safe junk k last_t t s : coupling_ok k ->
  dual_fits k (alen (fst s)) (alen (snd s)) ->
  tri True (c_dmp_step_dual_cartesian junk k last_t t s) (fun x => alen (fst x) = alen (fst s) /\ alen (snd x) = alen (snd s)).
Proof.
  intros Hc Hfit. unfold c_dmp_step_dual_cartesian.
  apply tri_bind, tri_restart. intros s' H1 H2. eapply tri_weaken.
  - apply (tri_substeps True (fun _ x => alen (fst x) = alen (fst s) /\ alen (snd x) = alen (snd s))); auto.
    intros ct dt x [X1 X2]. now apply dual_body_safe.
  - intros x [_ H]. exact H.
Qed.

(** *** The Euler step with arrays that are too short *)

Lemma c_rd_done a i x : c_rd a i = Done x -> (i < alen a)%nat.
Proof. unfold c_rd. destruct (Nat.ltb_spec i (alen a)); [auto | discriminate]. Qed.

Lemma cbind_done {A B} (x : cres A) (f : A -> cres B) y : cbind x f = Done y ->
  exists x', x = Done x' /\ f x' = Done y.
Proof. destruct x; cbn; try discriminate. eauto. Qed.

Lemma c_wr_done a i x b : c_wr a i x = Done b -> alen b = alen a.
Proof. unfold c_wr. destruct (Nat.ltb i (alen a)); [| discriminate]. now intros [= <-]. Qed.

Ltac unbind H := let x := fresh "x" in let E := fresh "E" in
  apply cbind_done in H; destruct H as (x & E & H).

Lemma euler_cell_done k et dt z f cd cdd d s s' : c_euler_cell k et dt z f cd cdd d s = Done s' ->
  alen (snd (fst s')) = alen (snd (fst s))
  /\ (d < alen (k_goal_y k))%nat /\ (d < alen (k_alpha_y k))%nat /\ (d < alen (k_beta_y k))%nat
  /\ (d < alen (snd (fst s)))%nat /\ (k_smooth_scaling k = true -> (d < alen (k_start_y k))%nat).
Proof.
  destruct s as [[y yd] ydd]. unfold c_euler_cell. cbn [fst snd]. intros H.
  do 16 unbind H. injection H as <-. cbn [fst snd].
  repeat match goal with E : c_rd _ _ = Done _ |- _ => apply c_rd_done in E end.
  repeat match goal with E : c_wr _ _ _ = Done _ |- _ => apply c_wr_done in E end.
  repeat split; try assumption.
  intros Hs. rewrite Hs in E. do 3 unbind E. now apply c_rd_done in E17.
Qed.

Definition noraise {A} (x : cres A) : Prop := match x with Raised _ => False | _ => True end.

Lemma noraise_bind {A B} (x : cres A) (f : A -> cres B) :
  noraise x -> (forall x', noraise (f x')) -> noraise (cbind x f).
Proof. destruct x; cbn; auto. Qed.
Lemma noraise_rd a i : noraise (c_rd a i).
Proof. unfold c_rd. now destruct (Nat.ltb i (alen a)). Qed.
Lemma noraise_wr a i x : noraise (c_wr a i x).
Proof. unfold c_wr. now destruct (Nat.ltb i (alen a)). Qed.

Lemma euler_cell_noraise k et dt z f cd cdd d s : noraise (c_euler_cell k et dt z f cd cdd d s).
Proof.
  destruct s as [[y yd] ydd]. unfold c_euler_cell.
  apply noraise_bind; [destruct (k_smooth_scaling k); [| exact I] |];
    repeat (try (intros ?); apply noraise_bind; [first [apply noraise_rd | apply noraise_wr] |]); intros ?; exact I.
Qed.

Lemma for_noraise {A S} (body : A -> S -> cres S) : (forall x s, noraise (body x s)) ->
  forall l s, noraise (c_for l body s).
Proof. intros Hb. induction l as [| x l IH]; intros s; cbn [c_for]; [exact I |]. now apply noraise_bind. Qed.

Lemma euler_loop_done k et dt z f cd cdd l : forall s s',
  c_for l (c_euler_cell k et dt z f cd cdd) s = Done s' ->
  forall d, In d l -> (d < alen (k_goal_y k))%nat /\ (d < alen (k_alpha_y k))%nat /\ (d < alen (k_beta_y k))%nat
    /\ (d < alen (snd (fst s)))%nat /\ (k_smooth_scaling k = true -> (d < alen (k_start_y k))%nat).
Proof.
  induction l as [| x l IH]; intros s s' H d Hd; [contradiction |]. cbn [c_for] in H.
  apply cbind_done in H. destruct H as (s1 & E & H). apply euler_cell_done in E. destruct E as [El E].
  destruct Hd as [-> | Hd]; [exact E |]. specialize (IH _ _ H _ Hd). now rewrite El in IH.
Qed.

Lemma euler_body_short junk k f ct dt n m s : k_coupling_term k = None -> k_precomputed k = None ->
  k_tracking_error k = None -> k_forcing_term k = ft_object n f ->
  alen (fst s) = n -> alen (snd s) = m -> ~ euler_fits k n m -> c_euler_body junk k ct dt s = Wild.
Proof.
  intros E1 E2 E3 E4 H1 H2 Hn. unfold c_euler_body, c_couple. cbv zeta. rewrite E1, E2, E3, E4, H1.
  cbn [cbind ft_object fo_phase fo_forces of_res]. set (z := ft_phase f ct).
  assert (exists fa, np_assign_nd (np_empty junk n)
     (np_squeeze {| shape := [n; 1%nat]; data := ft_forces f z |}) = Done fa) as [fa ->].
  { unfold np_assign_nd, np_squeeze. cbn [shape data filter Nat.eqb negb].
    destruct n as [| [| n']]; cbn [Nat.eqb negb strip_ones np_empty alen]; try rewrite Nat.eqb_refl; eauto. }
  cbn [cbind].
  match goal with |- context [c_for ?l ?b ?s0] =>
    pose proof (for_noraise b (fun d x => euler_cell_noraise _ _ _ _ _ _ _ d x) l s0) as N;
    assert (D := fun s' (H : c_for l b s0 = Done s') => euler_loop_done _ _ _ _ _ _ _ _ _ _ H);
    destruct (c_for l b s0) as [s' | e |] eqn:E end; [| contradiction | reflexivity].
  exfalso. apply Hn. specialize (D s' eq_refl). cbn [fst snd] in D. rewrite H2 in D.
  destruct n as [| n]; [unfold euler_fits; repeat split; intros; lia |].
  specialize (D n ltac:(apply in_seq; lia)). unfold euler_fits.
  destruct D as (D1 & D2 & D3 & D4 & D5). repeat split; try lia. intros Hs. specialize (D5 Hs). lia.
Qed.

Lemma substeps_fuel_pos last_t t h : last_t < t -> 0 < h ->
  exists fuel, substeps_fuel last_t t h = Datatypes.S fuel.
Proof.
  intros Hl Hh. unfold substeps_fuel. assert (0 < (t - last_t) / h) by (apply Rdiv_lt_0_compat; lra).
  pose proof (archimed ((t - last_t) / h)) as [A _].
  assert (0 < up ((t - last_t) / h))%Z by (apply lt_IZR; lra).
  exists (pred (Z.to_nat (up ((t - last_t) / h)))). lia.
Qed.

Lemma euler_short junk k f last_t t s : k_coupling_term k = None -> k_precomputed k = None ->
  k_tracking_error k = None -> k_forcing_term k = ft_object (alen (fst s)) f ->
  k_start_t k < k_goal_t k -> k_start_t k < t -> last_t < t -> 0 < k_int_dt k ->
  ~ euler_fits k (alen (fst s)) (alen (snd s)) -> c_dmp_step junk k last_t t s = Wild.
Proof.
  intros E1 E2 E3 E4 H1 H2 H3 H4 Hn. unfold c_dmp_step, c_restart.
  destruct (Rle_dec (k_goal_t k) (k_start_t k)); [lra |].
  destruct (Rle_dec t (k_start_t k)); [lra |]. cbn [cbind].
  destruct (substeps_fuel_pos last_t t (k_int_dt k)) as [fuel ->]; [assumption.. |].
  cbn [c_substeps]. destruct (Rlt_dec last_t t); [| lra].
  now rewrite (euler_body_short junk k f _ _ _ _ s E1 E2 E3 E4 eq_refl eq_refl Hn).
Qed.
