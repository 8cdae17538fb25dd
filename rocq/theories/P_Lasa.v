From Coq Require Import Reals List Arith ZArith Bool String Permutation Sorting.Sorted Lia Lra Ascii.
From Verif Require Import M_Prelude M_Lasa S_Lasa.
Import ListNotations.
Open Scope R_scope.
Set Bullet Behavior "Strict Subproofs".

(** ** The download *)
Section Download.
Variable a : archive.
Hypothesis a_nodup : NoDup (map fst a).
Hypothesis a_nonempty : a <> [].

Definition want := map (fun f : string * content => (fst f, Some (snd f))) a.

(** A directory with files of the archive only, those in [done] complete. *)
Definition part (done : archive) (d : dir) : Prop :=
  NoDup (map fst d) /\ (forall n, In n (map fst d) -> In n (map fst a)) /\
  (forall n c, In (n, c) done -> In (n, Some c) d).

Definition root_ok (done : archive) (s : fs) : Prop :=
  match f_root s with
  | None => done = []
  | Some i => (i < f_next s)%nat /\ part done (f_dirs s i)
  end.

Definition lasa_ok (s : fs) : Prop :=
  match f_lasa s with
  | None => True
  | Some i => (i < f_next s)%nat /\ complete a (f_dirs s i) /\ f_root s <> Some i
  end.

Definition inv (s : fs) : Prop := root_ok [] s /\ lasa_ok s.

Definition pinv (network : bool) (s : fs) (p : proc) : Prop :=
  match p with
  | Check => inv s
  | Fetch => inv s /\ f_lasa s = None
  | Extract rest => f_lasa s = None /\ exists done, a = done ++ rest /\ root_ok done s
  | Writing i n c rest =>
      f_lasa s = None /\ f_root s = Some i /\ (i < f_next s)%nat /\
      exists done, a = done ++ (n, c) :: rest /\ part done (f_dirs s i) /\ In n (map fst (f_dirs s i))
  | Rename => f_lasa s = None /\ root_ok a s
  | Reading => inv s /\ f_lasa s <> None
  | Done d => inv s /\ complete a d
  | Failed => inv s /\ network = false
  end.

Lemma part_weaken done d : part done d -> part [] d.
Proof. intros [H1 [H2 _]]. split; [|split]; auto. intros n c []. Qed.

Lemma root_weaken done s : root_ok done s -> root_ok [] s.
Proof.
  unfold root_ok. destruct (f_root s); [|auto]. intros [H1 H2]. split; auto. eapply part_weaken; eauto.
Qed.

Lemma pinv_inv network s p : pinv network s p -> inv s.
Proof.
  destruct p; cbn [pinv]; unfold inv, lasa_ok; try tauto.
  - intros [H1 [done [_ H2]]]. rewrite H1. split; [eapply root_weaken; eauto | exact I].
  - intros [H1 [H2 [H3 [done [_ [H4 _]]]]]]. rewrite H1. split; [|exact I].
    unfold root_ok. rewrite H2. split; auto. eapply part_weaken; eauto.
  - intros [H1 H2]. rewrite H1. split; [eapply root_weaken; eauto | exact I].
Qed.

Lemma names_filter n (d : dir) x :
  In x (map fst (filter (fun f => negb (String.eqb (fst f) n)) d)) <-> In x (map fst d) /\ x <> n.
Proof.
  rewrite !in_map_iff. split.
  - intros [[m c] [H1 H2]]. apply filter_In in H2. destruct H2 as [H2 H3]. cbn in *. subst m.
    apply negb_true_iff, String.eqb_neq in H3. split; auto. exists (x, c). auto.
  - intros [[[m c] [H1 H2]] H3]. cbn in H1. subst m. exists (x, c). split; auto.
    apply filter_In. split; auto. cbn. apply negb_true_iff, String.eqb_neq. auto.
Qed.

Lemma set_file_nodup d n c : NoDup (map fst d) -> NoDup (map fst (set_file d n c)).
Proof.
  intro H. unfold set_file. cbn [map fst]. constructor.
  - rewrite names_filter. tauto.
  - induction d as [|[m e] d IH]; cbn; [constructor|].
    inversion H; subst. destruct (String.eqb m n); cbn; auto.
    constructor; auto. fold (filter (fun f : string * option content => negb (String.eqb (fst f) n)) d).
    rewrite names_filter. tauto.
Qed.

Lemma set_file_names d n c x : In x (map fst (set_file d n c)) <-> x = n \/ In x (map fst d).
Proof.
  unfold set_file. cbn [map fst In]. rewrite names_filter.
  destruct (string_dec x n); intuition congruence.
Qed.

Lemma set_file_other d n c m e : m <> n -> In (m, e) d -> In (m, e) (set_file d n c).
Proof.
  intros H1 H2. right. apply filter_In. split; auto. cbn. apply negb_true_iff, String.eqb_neq. auto.
Qed.

Lemma part_complete d : part a d -> complete a d.
Proof.
  intros [H1 [H2 H3]]. unfold complete. fold want.
  apply NoDup_Permutation.
  - eapply NoDup_map_inv; eauto.
  - unfold want. eapply (NoDup_map_inv fst). rewrite map_map. cbn. exact a_nodup.
  - assert (L : forall x, In x want -> In x d).
    { intros [n e] H. unfold want in H. apply in_map_iff in H. destruct H as [[m c] [E H]].
      cbn in E. inversion E; subst. auto. }
    intros [n e]. split; [|auto]. intro H.
    assert (Hn : In n (map fst a)) by (apply H2; apply in_map_iff; exists (n, e); auto).
    apply in_map_iff in Hn. destruct Hn as [[m c] [E Hn]]. cbn in E. subst m.
    assert (e = Some c).
    { specialize (H3 n c Hn). clear - H H3 H1.
      induction d as [|[m x] d IH]; [destruct H|]. inversion H1; subst.
      destruct H as [H|H], H3 as [H3|H3].
      - congruence.
      - inversion H; subst. exfalso. apply H4. apply in_map_iff. exists (n, Some c). auto.
      - inversion H3; subst. exfalso. apply H4. apply in_map_iff. exists (n, e). auto.
      - auto. }
    subst e. unfold want. apply in_map_iff. exists (n, c). auto.
Qed.

Lemma name_not_done done n c rest x e : a = done ++ (n, c) :: rest -> In (x, e) done -> x <> n.
Proof.
  intros E H ->. rewrite E, map_app in a_nodup. cbn in a_nodup.
  apply NoDup_remove_2 in a_nodup. apply a_nodup. apply in_or_app. left.
  apply in_map_iff. exists (n, e). auto.
Qed.

Lemma name_in done n c rest : a = done ++ (n, c) :: rest -> In n (map fst a).
Proof.
  intro E. rewrite E, map_app. apply in_or_app. right. left. reflexivity.
Qed.

Lemma step_inv network s p :
  pinv network s p -> pinv network (fst (proc_step a network s p)) (snd (proc_step a network s p)).
Proof.
  destruct p as [| |[|[n c] rest]|i n c rest| | |d|]; cbn [pinv proc_step].
  - intro H. destruct (f_lasa s) eqn:E; cbn [fst snd pinv]; rewrite E; split; auto; congruence.
  - intros [H1 H2]. destruct network; cbn [fst snd pinv]; auto.
    split; auto. exists []. split; auto. exact (proj1 H1).
  - intros [H1 [done [H2 H3]]]. rewrite app_nil_r in H2. subst done. cbn [fst snd pinv]. auto.
  - intros [H1 [done [H2 H3]]].
    assert (M : exists s' i, make_root s = (s', i) /\ f_lasa s' = None /\ f_root s' = Some i /\
              (i < f_next s')%nat /\ part done (f_dirs s' i)).
    { unfold make_root. unfold root_ok in H3. destruct (f_root s) as [i|] eqn:R.
      - exists s, i. intuition.
      - eexists; eexists. split; [reflexivity|]. cbn [f_lasa f_root f_next f_dirs].
        rewrite Nat.eqb_refl. subst done. split; [auto|]. split; [auto|]. split; [lia|].
        split; [constructor|]. split; [intros ? []|intros ? ? []]. }
    destruct M as [s' [i [M1 [M2 [M3 [M4 [M5 [M6 M7]]]]]]]]. rewrite M1. cbn [fst snd pinv].
    cbn [set_dir f_lasa f_root f_next f_dirs]. rewrite Nat.eqb_refl.
    split; [auto|]. split; [auto|]. split; [auto|]. exists done. split; [auto|]. split.
    + split; [apply set_file_nodup; auto|]. split.
      * intros x Hx. apply set_file_names in Hx. destruct Hx as [->|Hx]; auto. eapply name_in; eauto.
      * intros x e Hx. apply set_file_other; auto. eapply name_not_done; eauto.
    + apply set_file_names. auto.
  - intros [H1 [H2 [H3 [done [H4 [[H5 [H6 H7]] H8]]]]]]. cbn [fst snd pinv].
    cbn [set_dir f_lasa]. split; [auto|]. exists (done ++ [(n, c)]). rewrite <- app_assoc. split; [exact H4|].
    unfold root_ok. cbn [set_dir f_root f_next f_dirs]. rewrite H2, Nat.eqb_refl. split; [auto|].
    split; [apply set_file_nodup; auto|]. split.
    + intros x Hx. apply set_file_names in Hx. destruct Hx as [->|Hx]; auto.
    + intros x e Hx. apply in_app_or in Hx. destruct Hx as [Hx|[Hx|[]]].
      * apply set_file_other; auto. eapply name_not_done; eauto.
      * inversion Hx; subst. left. reflexivity.
  - intros [H1 H2]. rewrite H1. unfold root_ok in H2. destruct (f_root s) as [i|] eqn:R; [|congruence].
    cbn [fst snd pinv f_lasa]. split; [|congruence]. destruct H2 as [H2 H3]. split.
    + reflexivity.
    + unfold lasa_ok. cbn. split; auto. split; [apply part_complete; auto|discriminate].
  - intros [H1 H2]. destruct (f_lasa s) as [i|] eqn:E; [|congruence]. cbn [fst snd pinv].
    split; auto. destruct H1 as [_ H1]. unfold lasa_ok in H1. rewrite E in H1. tauto.
  - auto.
  - auto.
Qed.

Lemma steps_inv network n s p :
  pinv network s p -> pinv network (fst (proc_steps a network n s p)) (snd (proc_steps a network n s p)).
Proof.
  revert s p. induction n as [|n IH]; intros s p H; cbn [proc_steps]; auto.
  apply step_inv in H. destruct (proc_step a network s p) as [s' p']. auto.
Qed.

Lemma after_runs_inv s : after_runs a s -> inv s.
Proof.
  induction 1.
  - split; [reflexivity|exact I].
  - eapply pinv_inv. apply steps_inv. exact IHafter_runs.
Qed.

Definition measure (p : proc) : nat :=
  match p with
  | Check => 2 * List.length a + 4
  | Fetch => 2 * List.length a + 3
  | Extract rest => 2 * List.length rest + 2
  | Writing _ _ _ rest => 2 * List.length rest + 3
  | Rename => 1 | Reading => 0 | Done _ => 0 | Failed => 0
  end%nat.

Lemma steps_done n s p :
  pinv true s p -> (measure p < n)%nat -> exists d, snd (proc_steps a true n s p) = Done d /\ complete a d.
Proof.
  revert s p. induction n as [|n IH]; intros s p H Hm; [lia|]. cbn [proc_steps].
  pose proof (step_inv _ _ _ H) as H'.
  destruct (proc_step a true s p) as [s' p'] eqn:E. cbn [fst snd] in H'.
  destruct p as [| |[|[m c] rest]|i m c rest| | |d|]; cbn [proc_step] in E; cbn [measure List.length] in Hm.
  - apply IH; auto. inversion E; subst s' p'. destruct (f_lasa s); cbn [measure]; lia.
  - apply IH; auto. inversion E; subst s' p'. cbn [measure]. lia.
  - apply IH; auto. inversion E; subst s' p'. cbn [measure]. lia.
  - apply IH; auto. destruct (make_root s). inversion E; subst s' p'. cbn [measure]. lia.
  - apply IH; auto. inversion E; subst s' p'. cbn [measure]. lia.
  - apply IH; auto. cbn [pinv] in H. destruct H as [H1 H2]. rewrite H1 in E.
    unfold root_ok in H2. destruct (f_root s); [|congruence]. inversion E; subst s' p'. cbn [measure]. lia.
  - cbn [pinv] in H. destruct (f_lasa s) eqn:L; [|tauto].
    inversion E; subst. cbn [pinv] in H'. destruct H' as [_ H'].
    exists (f_dirs s' n0). split; auto. clear. induction n; cbn; auto.
  - inversion E; subst. cbn [pinv] in H. exists d. split; [|tauto].
    clear. induction n; cbn; auto.
  - cbn [pinv] in H. destruct H. discriminate.
Qed.
End Download.

(** ** Strings *)
Lemma string_leb_trans x y z : String.leb x y = true -> String.leb y z = true -> String.leb x z = true.
Proof.
  unfold String.leb. revert y z. induction x as [|a x IH]; intros [|b y] [|c z]; cbn; try discriminate; auto.
  rewrite !(fun u v => eq_refl : Ascii.compare u v = N.compare (N_of_ascii u) (N_of_ascii v)).
  intros H1 H2.
  destruct (N.compare_spec (N_of_ascii a) (N_of_ascii b)) as [E1|E1|E1]; try discriminate;
  destruct (N.compare_spec (N_of_ascii b) (N_of_ascii c)) as [E2|E2|E2]; try discriminate;
  destruct (N.compare_spec (N_of_ascii a) (N_of_ascii c)) as [E3|E3|E3]; try lia; auto.
  eapply IH; eauto.
Qed.

Lemma string_leb_refl x : String.leb x x = true.
Proof. unfold String.leb. destruct (String.compare x x) eqn:E; auto.
  pose proof (String.compare_antisym x x) as H. rewrite E in H. discriminate.
Qed.

Lemma string_leb_total x y : String.leb x y = false -> String.leb y x = true.
Proof.
  unfold String.leb. rewrite (String.compare_antisym y x). destruct (String.compare x y); cbn; congruence.
Qed.

Lemma string_leb_antisym x y : String.leb x y = true -> String.leb y x = true -> x = y.
Proof.
  unfold String.leb. rewrite (String.compare_antisym y x).
  destruct (String.compare x y) eqn:E; cbn; try discriminate. intros _ _.
  apply String.compare_eq_iff. exact E.
Qed.

Lemma insert_perm x l : Permutation (insert_name x l) (x :: l).
Proof.
  induction l as [|y l IH]; cbn; auto. destruct (String.leb x y); auto.
  rewrite IH. apply perm_swap.
Qed.

Lemma sort_perm l : Permutation (sort_names l) l.
Proof. induction l as [|x l IH]; cbn; auto. rewrite insert_perm, IH. reflexivity. Qed.

Definition le_str (x y : string) : Prop := String.leb x y = true.

Lemma insert_sorted x l : StronglySorted le_str l -> StronglySorted le_str (insert_name x l).
Proof.
  induction l as [|y l IH]; cbn; intro H.
  - constructor; constructor.
  - destruct (String.leb x y) eqn:E.
    + constructor; auto. constructor; auto. inversion H; subst.
      eapply Forall_impl; [|eauto]. cbn. intros z Hz. eapply string_leb_trans; eauto.
    + inversion H; subst. constructor; [auto|].
      rewrite Forall_forall in *. intros z Hz.
      apply (Permutation_in _ (insert_perm x l)) in Hz. destruct Hz as [->|Hz]; auto.
      apply string_leb_total. exact E.
Qed.

Lemma sort_sorted l : StronglySorted le_str (sort_names l).
Proof. induction l; cbn; [constructor|]. apply insert_sorted. auto. Qed.

Lemma sorted_unique l m :
  StronglySorted le_str l -> StronglySorted le_str m -> Permutation l m -> l = m.
Proof.
  revert m. induction l as [|x l IH]; intros m H1 H2 P.
  - apply Permutation_nil in P. auto.
  - destruct m as [|y m]; [symmetry in P; apply Permutation_nil in P; discriminate|].
    inversion H1; inversion H2; subst. rewrite Forall_forall in *.
    assert (x = y).
    { assert (Ix : In x (y :: m)) by (eapply Permutation_in; [exact P|left; auto]).
      assert (Iy : In y (x :: l)) by (eapply Permutation_in; [symmetry; exact P|left; auto]).
      destruct Ix as [E|Ix]; [auto|]. destruct Iy as [E|Iy]; [auto|].
      apply string_leb_antisym; [apply H4 | apply H8]; auto. }
    subst y. f_equal. apply IH; auto. eapply Permutation_cons_inv; eauto.
Qed.
