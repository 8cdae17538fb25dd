(** Lemmas about arrays in the heap. *)
From Coq Require Import Reals List Arith Bool Lia FunctionalExtensionality.
From Verif Require Import M_Prelude M_Heap S_Heap.
Import ListNotations.
Open Scope R_scope.
Set Bullet Behavior "Strict Subproofs".

(** Two heaps agree on a buffer. *)
Definition same_buf (h h' : heap) (b : nat) : Prop := forall j, h_data h' b j = h_data h b j.

Lemma read_same h h' v : same_buf h h' (v_buf v) -> read h' v = read h v.
Proof. intros H. apply functional_extensionality. intros i. unfold read. now rewrite H. Qed.

Lemma write_other h v x b : b <> v_buf v -> same_buf h (write h v x) b.
Proof. intros H j. cbn. now replace (Nat.eqb b (v_buf v)) with false by (symmetry; now apply Nat.eqb_neq). Qed.

Lemma alloc_other h n x h' v b : alloc h n x = (h', v) -> b <> h_next h -> same_buf h h' b.
Proof. intros [= <- <-] H j. cbn. now replace (Nat.eqb b (h_next h)) with false by (symmetry; now apply Nat.eqb_neq). Qed.

Definition trunc (n : nat) (x : vec) : vec := fun i => if Nat.ltb i n then x i else 0.

Lemma read_write h v x : read (write h v x) v = trunc (v_len v) x.
Proof.
  apply functional_extensionality. intros i. unfold read, write, trunc. cbn [h_data].
  destruct (Nat.ltb_spec i (v_len v)); [|reflexivity]. rewrite Nat.eqb_refl.
  replace (Nat.leb (v_off v) (v_off v + i)) with true by (symmetry; apply Nat.leb_le; lia).
  replace (Nat.ltb (v_off v + i) (v_off v + v_len v)) with true by (symmetry; apply Nat.ltb_lt; lia).
  cbn [andb]. f_equal. lia.
Qed.

Lemma read_alloc h n x h' v : alloc h n x = (h', v) -> read h' v = trunc n x.
Proof.
  intros [= <- <-]. apply functional_extensionality. intros i. unfold read, trunc. cbn [h_data v_buf v_off v_len].
  now rewrite Nat.eqb_refl.
Qed.

Lemma trunc_read h v : trunc (v_len v) (read h v) = read h v.
Proof. apply functional_extensionality. intros i. unfold trunc, read. now destruct (Nat.ltb i (v_len v)). Qed.

Lemma read_copy h v h' v' : copy h v = (h', v') -> read h' v' = read h v.
Proof. intros H. rewrite (read_alloc _ _ _ _ _ H). apply trunc_read. Qed.

(** ** The invariant of all histories with a class that returns copies *)

Definition params (o : hobj) : list view :=
  [o_start_y o; o_start_yd o; o_start_ydd o; o_goal_y o; o_goal_yd o; o_goal_ydd o].
Definition privates (o : hobj) : list view := [o_current_y o; o_current_yd o; o_weights o].

Record inv (k : klass) (w : world) : Prop := {
  inv_caller : forall b, In b (w_caller w) -> (b < h_next (w_heap w))%nat;
  inv_params : forall v, In v (params (w_obj w)) -> (v_buf v < h_next (w_heap w))%nat;
  inv_privates : forall v, In v (privates (w_obj w)) ->
    (v_buf v < h_next (w_heap w))%nat /\ ~ In (v_buf v) (w_caller w) /\
    forall u, In u (params (w_obj w)) -> v_buf u <> v_buf v;
  inv_distinct : NoDup (map v_buf (privates (w_obj w)));
  inv_lens : v_len (o_start_y (w_obj w)) = k_n k /\ v_len (o_start_yd (w_obj w)) = k_nv k /\
             v_len (o_current_y (w_obj w)) = k_n k /\ v_len (o_current_yd (w_obj w)) = k_nv k /\
             v_len (o_weights (w_obj w)) = k_nw k
}.

Lemma inv_new k h h' o : new_obj k h = (h', o) ->
  inv k {| w_heap := h'; w_obj := o; w_caller := seq 0 (h_next h) |}.
Proof.
  intros [= <- <-]. split; cbn [w_heap w_obj w_caller h_next].
  - intros b Hb. apply in_seq in Hb. lia.
  - intros v Hv. cbn in Hv. decompose [or] Hv; subst; cbn; lia.
  - intros v Hv. cbn in Hv. decompose [or] Hv; try tauto; subst; cbn [v_buf];
      (split; [lia|]; split; [rewrite in_seq; lia|]; intros u Hu; cbn in Hu; decompose [or] Hu; subst; cbn; lia).
  - cbn. repeat constructor; cbn; lia.
  - cbn. repeat split.
Qed.

(** [configure] stores the arguments or keeps the old arrays. *)
Lemma assign_spec n a old v ok : assign n a old = (v, ok) ->
  (v = old \/ (a = Some v /\ v_len v = n)).
Proof.
  unfold assign. destruct a as [u|]; [|intros [= <- _]; now left].
  destruct (Nat.eqb_spec (v_len u) n); intros [= <- _]; [now right|now left].
Qed.

Lemma configure_spec k c o o' ok : configure k c o = (o', ok) ->
  privates o' = privates o /\ o_initialized o' = o_initialized o /\
  (forall v, In v (params o') -> In v (params o) \/ In v (config_views c)) /\
  (v_len (o_start_y o) = k_n k -> v_len (o_start_y o') = k_n k) /\
  (v_len (o_start_yd o) = k_nv k -> v_len (o_start_yd o') = k_nv k).
Proof.
  unfold configure.
  assert (G : forall (b : bool) n a old v ok, (if b then assign n a old else (old, false)) = (v, ok) ->
              v = old \/ (a = Some v /\ v_len v = n)).
  { intros [] n a old v ok0; [apply assign_spec|]. intros [= <- _]. now left. }
  destruct (assign (k_n k) (f_start_y c) (o_start_y o)) as [v1 b1] eqn:E1. apply assign_spec in E1.
  destruct (if b1 then _ else _) as [v2 b2] eqn:E2. apply G in E2.
  destruct (if b2 then _ else _) as [v3 b3] eqn:E3. apply G in E3.
  destruct (if b3 then _ else _) as [v4 b4] eqn:E4. apply G in E4.
  destruct (if b4 then _ else _) as [v5 b5] eqn:E5. apply G in E5.
  destruct (if b5 then _ else _) as [v6 b6] eqn:E6. apply G in E6.
  intros [= <- _]. split; [reflexivity|]. split; [reflexivity|]. split.
  - intros v Hv. cbn in Hv.
    assert (F : forall x, In x [f_start_y c; f_start_yd c; f_start_ydd c; f_goal_y c; f_goal_yd c; f_goal_ydd c] ->
                x = Some v -> In v (config_views c)).
    { intros x Hx ->. unfold config_views. apply in_flat_map. exists (Some v). split; [exact Hx|]. cbn. now left. }
    decompose [or] Hv; subst; try tauto.
    + destruct E1 as [->|[E1 _]]; [left; cbn; tauto|right; eapply F; [|exact E1]; cbn; tauto].
    + destruct E2 as [->|[E2 _]]; [left; cbn; tauto|right; eapply F; [|exact E2]; cbn; tauto].
    + destruct E3 as [->|[E3 _]]; [left; cbn; tauto|right; eapply F; [|exact E3]; cbn; tauto].
    + destruct E4 as [->|[E4 _]]; [left; cbn; tauto|right; eapply F; [|exact E4]; cbn; tauto].
    + destruct E5 as [->|[E5 _]]; [left; cbn; tauto|right; eapply F; [|exact E5]; cbn; tauto].
    + destruct E6 as [->|[E6 _]]; [left; cbn; tauto|right; eapply F; [|exact E6]; cbn; tauto].
  - cbn. split; intros H.
    + destruct E1 as [->|[_ E1]]; assumption.
    + destruct E2 as [->|[_ E2]]; assumption.
Qed.

(** Allocation of an array that becomes the caller's, or stays unknown. *)
Lemma inv_alloc k w n x h v cs : inv k w -> alloc (w_heap w) n x = (h, v) ->
  (forall b, In b cs -> In b (w_caller w) \/ b = v_buf v) ->
  inv k {| w_heap := h; w_obj := w_obj w; w_caller := cs |}.
Proof.
  intros I [= <- <-] Hcs. destruct I as [I1 I2 I3 I4 I5].
  split; cbn [w_heap w_obj w_caller h_next v_buf] in *.
  - intros b Hb. destruct (Hcs b Hb) as [H| ->]; [apply I1 in H|]; lia.
  - intros u Hu. apply I2 in Hu. lia.
  - intros u Hu. destruct (I3 u Hu) as (A & B & C). split; [lia|]. split; [|exact C].
    intros Hb. destruct (Hcs _ Hb) as [H|H]; [tauto|lia].
  - exact I4.
  - exact I5.
Qed.

Lemma inv_write k w v x : inv k w ->
  inv k {| w_heap := write (w_heap w) v x; w_obj := w_obj w; w_caller := w_caller w |}.
Proof. intros [I1 I2 I3 I4 I5]. now split. Qed.

Lemma inv_time k w t l : inv k w -> inv k {| w_heap := w_heap w; w_obj := set_time t l (w_obj w); w_caller := w_caller w |}.
Proof. intros [I1 I2 I3 I4 I5]. now split. Qed.

(** Start is copied to current. *)
Lemma inv_copies k w h1 y h2 yd i : inv k w ->
  copy (w_heap w) (o_start_y (w_obj w)) = (h1, y) -> copy h1 (o_start_yd (w_obj w)) = (h2, yd) ->
  inv k {| w_heap := h2; w_obj := set_currents y yd i (w_obj w); w_caller := w_caller w |}.
Proof.
  intros [I1 I2 I3 I4 I5] [= <- <-] [= <- <-].
  split; cbn [w_heap w_obj w_caller h_next v_buf set_currents] in *.
  - intros b Hb. apply I1 in Hb. lia.
  - intros u Hu. apply I2 in Hu. lia.
  - intros u Hu. cbn in Hu. decompose [or] Hu; try tauto; subst; cbn [v_buf].
    + split; [lia|]. split; [intros H; apply I1 in H; lia|]. intros u Hu'. apply I2 in Hu'. lia.
    + split; [lia|]. split; [intros H; apply I1 in H; lia|]. intros u Hu'. apply I2 in Hu'. lia.
    + destruct (I3 (o_weights (w_obj w))) as (A & B & C); [cbn; tauto|].
      cbn. split; [lia|]. split; [exact B|exact C].
  - cbn. destruct (I3 (o_weights (w_obj w))) as (A & _ & _); [cbn; tauto|].
    repeat constructor; cbn; lia.
  - cbn. tauto.
Qed.

Lemma set_currents_time t l y yd i o : set_currents y yd i (set_time t l o) = set_time t l (set_currents y yd i o).
Proof. reflexivity. Qed.

(** Decomposition of [step]. *)
Lemma step_spec k last_y last_yd h o h' o' y yd : k_returns_copies k = true ->
  step k last_y last_yd h o = (h', o', Some (y, yd)) ->
  exists h1 o1 h3,
    v_len last_y = k_n k /\ v_len last_yd = k_nv k /\
    (if k_lazy_init k && negb (o_initialized o) then
       exists ha cy hb cyd, copy h (o_start_y o) = (ha, cy) /\ copy ha (o_start_yd o) = (hb, cyd) /\
         h1 = hb /\ o1 = set_time (o_t o + k_dt k) (Some (o_t o)) (set_currents cy cyd true o)
     else h1 = h /\ o1 = set_time (o_t o + k_dt k) (Some (o_t o)) o) /\
    o' = o1 /\
    (let r := k_integrate k (o_t o) (o_t o + k_dt k) (contents_of h1 o1) (read h1 last_y) (read h1 last_yd) in
     exists hc, copy (write (write h1 (o_current_y o1) (fst r)) (o_current_yd o1) (snd r)) (o_current_y o1) = (hc, y) /\
       h3 = hc /\ copy hc (o_current_yd o1) = (h', yd)).
Proof.
  intros Hk. unfold step.
  destruct (Nat.eqb_spec (v_len last_y) (k_n k)) as [L1|]; [|cbn; discriminate].
  destruct (Nat.eqb_spec (v_len last_yd) (k_nv k)) as [L2|]; [|cbn; discriminate].
  cbn [andb negb]. rewrite Hk. cbv zeta.
  change (o_initialized (set_time (o_t o + k_dt k) (Some (o_t o)) o)) with (o_initialized o).
  destruct (k_lazy_init k && negb (o_initialized o)) eqn:EL.
  - change (o_start_y (set_time (o_t o + k_dt k) (Some (o_t o)) o)) with (o_start_y o).
    change (o_start_yd (set_time (o_t o + k_dt k) (Some (o_t o)) o)) with (o_start_yd o).
    destruct (copy h (o_start_y o)) as [ha cy] eqn:Ea. destruct (copy ha (o_start_yd o)) as [hb cyd] eqn:Eb.
    rewrite set_currents_time.
    set (o1 := set_time _ _ _).
    destruct (k_integrate k (o_t o) (o_t o + k_dt k) (contents_of hb o1) (read hb last_y) (read hb last_yd)) as [y1 yd1] eqn:Ei.
    destruct (copy (write (write hb _ y1) _ yd1) _) as [hc ry] eqn:Ec.
    destruct (copy hc _) as [hd ryd] eqn:Ed. intros [= <- <- <- <-].
    exists hb, o1, hc. split; [exact L1|]. split; [exact L2|]. split; [exists ha, cy, hb, cyd; repeat split; assumption|].
    split; [reflexivity|]. rewrite Ei. exists hc. cbn [fst snd]. repeat split; assumption.
  - set (o1 := set_time _ _ _).
    destruct (k_integrate k (o_t o) (o_t o + k_dt k) (contents_of h o1) (read h last_y) (read h last_yd)) as [y1 yd1] eqn:Ei.
    destruct (copy (write (write h _ y1) _ yd1) _) as [hc ry] eqn:Ec.
    destruct (copy hc _) as [hd ryd] eqn:Ed. intros [= <- <- <- <-].
    exists h, o1, hc. split; [exact L1|]. split; [exact L2|]. split; [now split|].
    split; [reflexivity|]. rewrite Ei. exists hc. cbn [fst snd]. repeat split; assumption.
Qed.

Lemma step_fails k last_y last_yd h o h' o' : step k last_y last_yd h o = (h', o', None) -> h' = h /\ o' = o.
Proof.
  unfold step. destruct (negb _); [intros [= <- <-]; now split|].
  cbv zeta. destruct (k_lazy_init k && _).
  - destruct (copy h _) as [ha cy]. destruct (copy ha _) as [hb cyd].
    destruct (k_integrate _ _ _ _ _ _) as [a b]. destruct (k_returns_copies k); [|discriminate].
    destruct (copy _ _) as [hc ry]. destruct (copy hc _) as [hd ryd]. discriminate.
  - destruct (k_integrate _ _ _ _ _ _) as [a b]. destruct (k_returns_copies k); [|discriminate].
    destruct (copy _ _) as [hc ry]. destruct (copy hc _) as [hd ryd]. discriminate.
Qed.

Lemma copy_other h v h' v' b : copy h v = (h', v') -> (b < h_next h)%nat -> same_buf h h' b.
Proof. intros E H. eapply alloc_other; [exact E|]. lia. Qed.
Lemma copy_next h v h' v' : copy h v = (h', v') -> h_next h' = S (h_next h) /\ v_buf v' = h_next h /\ v_len v' = v_len v.
Proof. intros [= <- <-]. repeat split. Qed.

Lemma same_trans h h1 h2 b : same_buf h h1 b -> same_buf h1 h2 b -> same_buf h h2 b.
Proof. intros A B j. now rewrite B, A. Qed.

(** A method call keeps the invariant and changes no array of the caller. *)
Lemma call_inv k w w' : k_returns_copies k = true -> inv k w -> call k w w' ->
  inv k w' /\ (forall b, In b (w_caller w) -> same_buf (w_heap w) (w_heap w') b) /\
  incl (w_caller w) (w_caller w').
Proof.
  intros Hk I Hc.
  assert (SR : forall h b, same_buf h h b) by (intros h b j; reflexivity).
  destruct Hc as [w c o' ok Hf E|w ly lyd h' o' y yd Hly Hlyd E|w ly lyd h' o' Hly Hlyd E|w h' o' E|w h' v E
                 |w v h' ok Hv E|w run h' v E|w n Y vel h' o' HY E]; cbn [w_heap w_obj w_caller].
  - split; [|split; [intros; apply SR|apply incl_refl]].
    destruct (configure_spec _ _ _ _ _ E) as (P & _ & Q & L1 & L2). destruct I as [I1 I2 I3 I4 I5].
    rewrite Forall_forall in Hf.
    split; cbn [w_heap w_obj w_caller].
    + exact I1.
    + intros v Hv. destruct (Q v Hv) as [H|H]; [now apply I2|]. apply Hf in H. apply H.
    + rewrite P. intros v Hv. destruct (I3 v Hv) as (A & B & C). split; [exact A|]. split; [exact B|].
      intros u Hu. destruct (Q u Hu) as [H|H]; [now apply C|]. apply Hf in H. destruct H as [H _].
      intros Eq. apply B. now rewrite <- Eq.
    + now rewrite P.
    + unfold privates in P. injection P as P1 P2 P3. rewrite P1, P2, P3. tauto.
  - destruct (step_spec _ _ _ _ _ _ _ _ _ Hk E) as (h1 & o1 & h3 & _ & _ & Hi & -> & (hc & Ec & -> & Ed)).
    set (r := k_integrate k _ _ _ _ _) in *.
    assert (I' : inv k {| w_heap := h1; w_obj := o1; w_caller := w_caller w |} /\
                 (forall b, In b (w_caller w) -> same_buf (w_heap w) h1 b)).
    { destruct (k_lazy_init k && negb (o_initialized (w_obj w))).
      - destruct Hi as (ha & cy & hb & cyd & Ea & Eb & -> & ->). split.
        + apply (inv_time k {| w_heap := hb; w_obj := set_currents cy cyd true (w_obj w); w_caller := w_caller w |}).
          eapply inv_copies; eassumption.
        + intros b Hb. pose proof (inv_caller _ _ I b Hb) as Hb'. eapply same_trans; eapply copy_other; try eassumption.
          destruct (copy_next _ _ _ _ Ea) as (-> & _). lia.
      - destruct Hi as (-> & ->). split; [now apply inv_time|]. intros; apply SR. }
    destruct I' as [I1 S1]. clear Hi.
    pose proof (inv_write _ _ (o_current_y o1) (fst r) I1) as I2. cbn [w_heap w_obj w_caller] in I2.
    pose proof (inv_write _ _ (o_current_yd o1) (snd r) I2) as I3. cbn [w_heap w_obj w_caller] in I3.
    unfold copy in Ec, Ed.
    pose proof (inv_alloc k _ _ _ _ _ (v_buf y :: w_caller w) I3 Ec) as I4. cbn [w_obj w_caller] in I4.
    specialize (I4 ltac:(cbn; intros b [<-|]; tauto)).
    pose proof (inv_alloc k _ _ _ _ _ (v_buf y :: v_buf yd :: w_caller w) I4 Ed) as I5. cbn [w_obj w_caller] in I5.
    specialize (I5 ltac:(cbn; intros b [<-|[<-|]]; tauto)).
    split; [exact I5|]. split; [|intros b Hb; cbn; tauto].
    intros b Hb. apply same_trans with h1; [now apply S1|].
    assert (Hby : b <> v_buf (o_current_y o1)).
    { intros ->. destruct (inv_privates _ _ I1 (o_current_y o1)) as (_ & N & _); [cbn; tauto|]. now apply N. }
    assert (Hbyd : b <> v_buf (o_current_yd o1)).
    { intros ->. destruct (inv_privates _ _ I1 (o_current_yd o1)) as (_ & N & _); [cbn; tauto|]. now apply N. }
    apply same_trans with (write h1 (o_current_y o1) (fst r)); [now apply write_other|].
    apply same_trans with (write (write h1 (o_current_y o1) (fst r)) (o_current_yd o1) (snd r)); [now apply write_other|].
    pose proof (inv_caller _ _ I1 b Hb) as Hlt. cbn [w_heap] in Hlt.
    eapply same_trans; [eapply (alloc_other _ _ _ _ _ _ Ec)|eapply (alloc_other _ _ _ _ _ _ Ed)].
    + cbn. lia.
    + injection Ec as <- _. cbn. lia.
  - destruct (step_fails _ _ _ _ _ _ _ E) as [-> ->]. split; [destruct w; exact I|].
    split; [intros; apply SR|apply incl_refl].
  - unfold reset in E. destruct (k_reset_copies k).
    + destruct (copy _ _) as [ha cy] eqn:Ea. destruct (copy ha _) as [hb cyd] eqn:Eb. injection E as <- <-.
      split; [|split; [|apply incl_refl]].
      * rewrite set_currents_time.
        apply (inv_time k {| w_heap := hb; w_obj := set_currents cy cyd _ (w_obj w); w_caller := w_caller w |}).
        eapply inv_copies; eassumption.
      * intros b Hb. pose proof (inv_caller _ _ I b Hb). eapply same_trans; eapply copy_other; try eassumption.
        destruct (copy_next _ _ _ _ Ea) as (-> & _). lia.
    + injection E as <- <-. split; [now apply inv_time|]. split; [intros; apply SR|apply incl_refl].
  - unfold get_weights in E. destruct (k_weights_view k).
    + injection E as <- <-. split; [destruct w; exact I|]. split; [intros; apply SR|apply incl_refl].
    + split; [|split].
      * eapply inv_alloc; [exact I|exact E|]. cbn. intros b [<-|]; tauto.
      * intros b Hb. eapply copy_other; [exact E|]. now apply (inv_caller _ _ I).
      * intros b Hb. cbn. tauto.
  - unfold set_weights in E. destruct (Nat.eqb (v_len v) (k_nw k)); injection E as <- _.
    + split; [now apply inv_write|]. split; [|apply incl_refl]. intros b Hb. apply write_other. intros ->.
      destruct (inv_privates _ _ I (o_weights (w_obj w))) as (_ & N & _); [cbn; tauto|]. now apply N.
    + split; [destruct w; exact I|]. split; [intros; apply SR|apply incl_refl].
  - unfold open_loop in E. destruct (run _) as [n x]. split; [|split].
    + eapply inv_alloc; [exact I|exact E|]. cbn. intros b [<-|]; tauto.
    + intros b Hb. eapply alloc_other; [exact E|]. pose proof (inv_caller _ _ I b Hb). lia.
    + intros b Hb. cbn. tauto.
  - unfold imitate in E.
    set (h1 := write (w_heap w) (o_weights (w_obj w)) _) in E.
    assert (I1 : inv k {| w_heap := h1; w_obj := w_obj w; w_caller := w_caller w |}) by now apply inv_write.
    assert (S1 : forall b, In b (w_caller w) -> same_buf (w_heap w) h1 b).
    { intros b Hb. apply write_other. intros ->.
      destruct (inv_privates _ _ I (o_weights (w_obj w))) as (_ & N & _); [cbn; tauto|]. now apply N. }
    destruct HY as [HY HY'].
    (* reconfiguration with arrays of the caller or new unknown arrays *)
    assert (G : forall w2 c o2 ok2, inv k w2 -> configure k c (w_obj w2) = (o2, ok2) ->
      (forall v, In v (config_views c) -> (v_buf v < h_next (w_heap w2))%nat /\
         forall u, In u (privates (w_obj w2)) -> v_buf v <> v_buf u) ->
      inv k {| w_heap := w_heap w2; w_obj := o2; w_caller := w_caller w2 |}).
    { clear. intros w2 c o2 ok2 [J1 J2 J3 J4 J5] E Hc.
      destruct (configure_spec _ _ _ _ _ E) as (P & _ & Q & L1 & L2).
      split; cbn [w_heap w_obj w_caller].
      - exact J1.
      - intros v Hv. destruct (Q v Hv) as [H|H]; [now apply J2|]. apply Hc in H. apply H.
      - rewrite P. intros v Hv. destruct (J3 v Hv) as (A & B & C). split; [exact A|]. split; [exact B|].
        intros u Hu. destruct (Q u Hu) as [H|H]; [now apply C|]. apply Hc in H. now apply H.
      - now rewrite P.
      - unfold privates in P. injection P as P1 P2 P3. rewrite P1, P2, P3. tauto. }
    assert (NP : forall u, In u (privates (w_obj w)) -> v_buf Y <> v_buf u).
    { intros u Hu Eq. destruct (inv_privates _ _ I u Hu) as (_ & N & _). apply N. now rewrite <- Eq. }
    destruct (k_imitates_velocities k).
    + destruct (alloc h1 (n * k_nv k) vel) as [h2 Yd] eqn:E2. destruct (alloc h2 (n * k_nv k) vel) as [h3 Ydd] eqn:E3.
      pose proof (inv_alloc k _ _ _ _ _ (w_caller w) I1 E2 ltac:(tauto)) as I2. cbn [w_obj w_caller] in I2.
      pose proof (inv_alloc k _ _ _ _ _ (w_caller w) I2 E3 ltac:(tauto)) as I3. cbn [w_obj w_caller] in I3.
      match type of E with (_, fst (configure k ?c _)) = _ => set (cf := c) in E end.
      destruct (configure k cf (w_obj w)) as [o2 ok2] eqn:EC. cbn [fst] in E. injection E as <- <-.
      injection E2 as <- <-. injection E3 as <- <-.
      split; [|split; [|apply incl_refl]].
      * eapply (G _ cf o2 ok2 I3); [exact EC|]. cbn [w_heap w_obj h_next].
        assert (LP : forall u, In u (privates (w_obj w)) -> (v_buf u < h_next (w_heap w))%nat).
        { intros u Hu. now destruct (inv_privates _ _ I u Hu). }
        intros v Hv. cbn in Hv. decompose [or] Hv; try tauto; subst; cbn [row v_buf];
          try (split; [cbn; lia|exact NP]); (split; [cbn; lia|intros u Hu; apply LP in Hu; cbn; lia]).
      * intros b Hb. apply same_trans with h1; [now apply S1|].
        pose proof (inv_caller _ _ I b Hb) as Hlt.
        intros j. cbn. replace (Nat.eqb b (S (h_next (w_heap w)))) with false by (symmetry; apply Nat.eqb_neq; lia).
        now replace (Nat.eqb b (h_next (w_heap w))) with false by (symmetry; apply Nat.eqb_neq; lia).
    + match type of E with (_, fst (configure k ?c _)) = _ => set (cf := c) in E end.
      destruct (configure k cf (w_obj w)) as [o2 ok2] eqn:EC. cbn [fst] in E. injection E as <- <-.
      split; [|split; [exact S1|apply incl_refl]].
      eapply (G _ cf o2 ok2 I1); [exact EC|]. cbn [w_heap w_obj h_next].
      intros v Hv. cbn in Hv. decompose [or] Hv; try tauto; subst; cbn [row v_buf]; (split; [exact HY'|exact NP]).
Qed.

Lemma caller_inv k w w' : inv k w -> caller_action w w' -> inv k w'.
Proof.
  intros I Hc. destruct Hc as [w n x h v E|w v x Hv|w v x Hv].
  - eapply inv_alloc; [exact I|exact E|]. cbn. intros b [<-|]; tauto.
  - now apply inv_write.
  - now apply inv_write.
Qed.

Lemma history_inv k w : k_returns_copies k = true -> history k w -> inv k w.
Proof.
  intros Hk H. induction H as [h h' o E|w w' H IH Hc|w w' H IH Hc].
  - now apply inv_new.
  - now apply (call_inv k w w' Hk IH).
  - now apply (caller_inv k w w').
Qed.

Lemma calls_same k w w' : k_returns_copies k = true -> inv k w -> calls k w w' ->
  inv k w' /\ forall b, In b (w_caller w) -> same_buf (w_heap w) (w_heap w') b.
Proof.
  intros Hk I H. induction H as [w|w w1 w2 Hc H IH|w n x h v w2 E H IH].
  - split; [exact I|]. intros b _ j. reflexivity.
  - destruct (call_inv k w w1 Hk I Hc) as (I1 & S1 & N1). destruct (IH I1) as (I2 & S2).
    split; [exact I2|]. intros b Hb. eapply same_trans; [now apply S1|]. apply S2. now apply N1.
  - destruct (IH ltac:(eapply inv_alloc; [exact I|exact E|]; cbn; intros b [<-|]; tauto)) as (I2 & S2).
    split; [exact I2|]. intros b Hb. cbn [w_heap w_caller] in S2.
    eapply same_trans; [eapply alloc_other; [exact E|]|apply S2; cbn; tauto].
    pose proof (inv_caller _ _ I b Hb). lia.
Qed.
