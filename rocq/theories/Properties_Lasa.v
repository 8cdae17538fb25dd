(** C77, C78: the LASA data set. *)
From Coq Require Import Reals List Arith ZArith Bool String Permutation Lia Lra.
From Verif Require Import M_Prelude M_Lasa S_Lasa P_Lasa.
Import ListNotations.
Open Scope R_scope.
Set Bullet Behavior "Strict Subproofs".

(** ** C77: the loaded demonstrations *)

Lemma transpose021_ok l n m :
  l <> [] -> (forall x, In x l -> fst x = (n, m)) ->
  transpose021 l = Ok {| a3_shape := (List.length l, m, n);
                         a3 := fun d i k => snd (nth d l (0%nat, 0%nat, fun _ _ => 0)) k i |}.
Proof.
  intros H1 H2. destruct l as [|[[n' m'] f] l]; [congruence|]. unfold transpose021.
  assert (E := H2 _ (or_introl eq_refl)). cbn in E. inversion E; subst n' m'.
  replace (forallb _ _) with true; [reflexivity|]. symmetry. apply forallb_forall.
  intros [[u v] g] Hx. specialize (H2 _ Hx). cbn in *. inversion H2. rewrite !Nat.eqb_refl. reflexivity.
Qed.

Lemma nth_map3 {B} (f : demo -> nat * nat * B) l d dflt d0 :
  (d < List.length l)%nat -> snd (nth d (map f l) dflt) = snd (f (nth d l d0)).
Proof.
  intro H. rewrite (nth_indep _ dflt (f d0)) by (rewrite map_length; exact H).
  rewrite map_nth. reflexivity.
Qed.

(** Demonstrations of equal shape are returned with their positions, velocities and
    accelerations at the right places: [X[d, i, k]] is dimension [k] of demonstration
    [d] at step [i].  The time step is the recorded one of the first demonstration. *)
Theorem C77_arrays : forall demos n m d0,
  demos <> [] -> (forall d, In d demos -> d_dims d = n /\ d_steps d = m) ->
  exists T X Xd Xdd dt,
    load_lasa_demos demos = Ok (T, X, Xd, Xdd, dt) /\
    a3_shape X = (List.length demos, m, n) /\
    a3_shape Xd = (List.length demos, m, n) /\
    a3_shape Xdd = (List.length demos, m, n) /\
    dt = d_dt (nth 0 demos d0) /\
    forall d i k, (d < List.length demos)%nat ->
      a3 X d i k = d_pos (nth d demos d0) k i /\
      a3 Xd d i k = d_vel (nth d demos d0) k i /\
      a3 Xdd d i k = d_acc (nth d demos d0) k i.
Proof.
  intros demos n m d0 Hne Hs.
  unfold load_lasa_demos, convert_demonstrations. rewrite !map_map. cbn [fst snd].
  rewrite (transpose021_ok (map (fun x => (d_dims x, d_steps x, d_pos x)) demos) n m);
    [|destruct demos; cbn; congruence
     |intros x Hx; apply in_map_iff in Hx; destruct Hx as [y [<- Hy]]; cbn;
      destruct (Hs y Hy) as [-> ->]; reflexivity].
  rewrite (transpose021_ok (map (fun x => (d_dims x, d_steps x, d_vel x)) demos) n m);
    [|destruct demos; cbn; congruence
     |intros x Hx; apply in_map_iff in Hx; destruct Hx as [y [<- Hy]]; cbn;
      destruct (Hs y Hy) as [-> ->]; reflexivity].
  rewrite (transpose021_ok (map (fun x => (d_dims x, d_steps x, d_acc x)) demos) n m);
    [|destruct demos; cbn; congruence
     |intros x Hx; apply in_map_iff in Hx; destruct Hx as [y [<- Hy]]; cbn;
      destruct (Hs y Hy) as [-> ->]; reflexivity].
  cbn [bind]. destruct demos as [|e demos]; [congruence|]. cbn [rmap].
  do 5 eexists. split; [reflexivity|]. cbn [a3_shape a3]. rewrite !map_length.
  do 3 (split; [reflexivity|]). split; [reflexivity|].
  intros d i k Hd. split; [|split].
  - rewrite (nth_map3 (fun x => (d_dims x, d_steps x, d_pos x)) (e :: demos) d _ d0) by exact Hd. reflexivity.
  - rewrite (nth_map3 (fun x => (d_dims x, d_steps x, d_vel x)) (e :: demos) d _ d0) by exact Hd. reflexivity.
  - rewrite (nth_map3 (fun x => (d_dims x, d_steps x, d_acc x)) (e :: demos) d _ d0) by exact Hd. reflexivity.
Qed.

(** Demonstrations of different lengths are rejected. *)
Theorem C77_ragged : forall demos d e,
  In d demos -> In e demos -> d_steps d <> d_steps e -> load_lasa_demos demos = Err ValueError.
Proof.
  intros demos d e Hd He Hne. unfold load_lasa_demos, convert_demonstrations. rewrite !map_map. cbn [fst snd].
  destruct demos as [|d1 demos]; [destruct Hd|].
  set (f := fun x => (d_dims x, d_steps x, d_pos x)).
  assert (E : transpose021 (map f (d1 :: demos)) = Err ValueError); [|rewrite E; reflexivity].
  unfold transpose021. cbn [map]. unfold f at 1. cbn [map].
  destruct (forallb _ _) eqn:F; [exfalso|reflexivity].
  rewrite forallb_forall in F.
  assert (G : forall x, In x (d1 :: demos) -> d_steps x = d_steps d1).
  { intros x Hx. specialize (F (f x)). cbn [f fst snd] in F.
    assert (I : In (f x) (f d1 :: map f demos)) by (apply (in_map f (d1 :: demos)); exact Hx).
    specialize (F I). apply andb_true_iff in F. destruct F as [_ F]. apply Nat.eqb_eq in F. exact F. }
  apply Hne. rewrite (G d Hd), (G e He). reflexivity.
Qed.

(** All rows of the returned times are the same, start at zero, increase and end
    at the number of steps. *)
Theorem C77_times_partial : forall demos T X Xd Xdd dt,
  load_lasa_demos demos = Ok (T, X, Xd, Xdd, dt) ->
  let m := snd (fst (a3_shape X)) in
  (2 <= m)%nat ->
  forall d, T d 0%nat = 0 /\ T d (m - 1)%nat = INR m /\
    (forall e i, T d i = T e i) /\ (forall i, T d i < T d (S i)).
Proof.
  intros demos T X Xd Xdd dt H m Hm d. unfold load_lasa_demos in H.
  destruct (convert_demonstrations demos) as [[[[X' Xd'] Xdd'] dt']|]; [|discriminate].
  cbn in H. inversion H; subst. clear H. unfold lasa_times. fold m. unfold linspace0.
  destruct m as [|[|m']] eqn:E; [lia|lia|].
  replace (S (S m') - 1)%nat with (S m') by lia.
  assert (P : 0 < INR (S m')) by (apply lt_0_INR; lia).
  assert (Q : 0 < INR (S (S m')) / INR (S m')).
  { apply Rdiv_lt_0_compat; [apply lt_0_INR; lia|exact P]. }
  split; [cbn; lra|]. split; [field; lra|]. split; [reflexivity|].
  intro i. apply Rmult_lt_compat_r; [exact Q|apply lt_INR; lia].
Qed.

(** The times are not spaced by the returned time step: whenever the recorded step is
    at most one, as in the data set, no two consecutive times are that far apart. *)
Theorem C77_times_refuted : forall demos T X Xd Xdd dt,
  load_lasa_demos demos = Ok (T, X, Xd, Xdd, dt) ->
  let m := snd (fst (a3_shape X)) in
  (2 <= m)%nat -> dt <= 1 ->
  (forall d i, T d (S i) - T d i = INR m / INR (m - 1)) /\
  forall d, ~ spaced (T d) m dt.
Proof.
  intros demos T X Xd Xdd dt H m Hm Hdt. unfold load_lasa_demos in H.
  destruct (convert_demonstrations demos) as [[[[X' Xd'] Xdd'] dt']|]; [|discriminate].
  cbn in H. inversion H; subst. clear H. unfold lasa_times. fold m. unfold linspace0.
  destruct m as [|[|m']] eqn:E; [lia|lia|].
  replace (S (S m') - 1)%nat with (S m') by lia.
  assert (P : 0 < INR (S m')) by (apply lt_0_INR; lia).
  assert (S1 : forall i, INR (S i) * (INR (S (S m')) / INR (S m')) - INR i * (INR (S (S m')) / INR (S m'))
                         = INR (S (S m')) / INR (S m')).
  { intro i. rewrite (S_INR i). ring. }
  split; [intros _ i; apply S1|].
  intros _ Sp. specialize (Sp 0%nat ltac:(lia)). cbv beta in Sp. rewrite (S1 0%nat) in Sp.
  assert (1 < INR (S (S m')) / INR (S m')).
  { apply Rmult_lt_reg_r with (INR (S m')); [exact P|]. unfold Rdiv.
    rewrite Rmult_assoc, Rinv_l, Rmult_1_r, Rmult_1_l by lra. apply lt_INR. lia. }
  lra.
Qed.

(** The shape of an index does not depend on the order in which the operating system
    lists the files; indices from zero on enumerate the files in alphabetical order,
    each exactly once, and all others are rejected. *)
Theorem C77_choice : forall listing listing' i,
  Permutation listing listing' -> choose_file listing i = choose_file listing' i.
Proof.
  intros l l' i H. unfold choose_file.
  replace (sort_names l') with (sort_names l); [reflexivity|].
  apply sorted_unique; try apply sort_sorted. rewrite !sort_perm. exact H.
Qed.

Theorem C77_choice_enumerates : forall listing,
  NoDup listing ->
  (forall f, In f listing <->
     exists i, (0 <= i < Z.of_nat (List.length listing))%Z /\ rmap fst (choose_file listing i) = Ok f) /\
  (forall i j f g, (0 <= i)%Z -> (i < j)%Z ->
     rmap fst (choose_file listing i) = Ok f -> rmap fst (choose_file listing j) = Ok g ->
     String.leb f g = true /\ f <> g) /\
  (forall i, (Z.of_nat (List.length listing) <= i)%Z -> choose_file listing i = Err IndexError).
Proof.
  intros l N.
  assert (L : List.length (sort_names l) = List.length l) by (apply Permutation_length, sort_perm).
  assert (K : forall i f, (0 <= i)%Z -> (rmap fst (choose_file l i) = Ok f <->
            (i < Z.of_nat (List.length l))%Z /\ nth (Z.to_nat i) (sort_names l) EmptyString = f)).
  { intros i f Hi. unfold choose_file. rewrite L.
    replace (Z.ltb i 0) with false by (symmetry; apply Z.ltb_ge; exact Hi).
    replace (Z.leb 0 i) with true by (symmetry; apply Z.leb_le; exact Hi). cbn [andb].
    destruct (Z.ltb_spec i (Z.of_nat (List.length l))).
    - cbn. split; [intro E; inversion E; auto|intros [_ <-]; reflexivity].
    - cbn. split; [discriminate|intros [? _]; lia]. }
  split; [|split].
  - intro f. split.
    + intro Hf. apply (Permutation_in f (Permutation_sym (sort_perm l))) in Hf.
      apply (In_nth _ _ EmptyString) in Hf. destruct Hf as [k [Hk E]]. rewrite L in Hk.
      exists (Z.of_nat k). split; [lia|]. apply K; [lia|]. rewrite Nat2Z.id. split; [lia|exact E].
    + intros [i [Hi E]]. apply K in E; [|lia]. destruct E as [_ <-].
      apply (Permutation_in _ (sort_perm l)). apply nth_In. rewrite L. lia.
  - intros i j f g Hi Hij Ef Eg. apply K in Ef; [|lia]. apply K in Eg; [|lia].
    destruct Ef as [Bi <-], Eg as [Bj <-]. split.
    + assert (S := sort_sorted l). revert S.
      assert (B : (Z.to_nat i < Z.to_nat j < List.length (sort_names l))%nat) by lia. revert B.
      generalize (Z.to_nat i), (Z.to_nat j), (sort_names l). clear.
      intros a b s. revert a b. induction s as [|x s IH]; intros a b B S; [cbn in B; lia|].
      inversion S; subst. destruct b; [lia|]. destruct a; cbn [nth].
      * rewrite Forall_forall in *. apply H2. apply nth_In. cbn in B. lia.
      * apply IH; auto. cbn in B. lia.
    + intro E. assert (N' : NoDup (sort_names l)).
      { eapply Permutation_NoDup; [symmetry; apply sort_perm|exact N]. }
      rewrite (NoDup_nth _ EmptyString) in N'. specialize (N' (Z.to_nat i) (Z.to_nat j)).
      rewrite L in N'. specialize (N' ltac:(lia) ltac:(lia) E). lia.
  - intros i Hi. unfold choose_file. rewrite L.
    replace (Z.ltb i 0) with false by (symmetry; apply Z.ltb_ge; lia).
    replace (Z.ltb i _) with false by (symmetry; apply Z.ltb_ge; lia).
    rewrite andb_false_r. reflexivity.
Qed.

(** Negative indices count from the end. *)
Theorem C77_choice_negative : forall listing i, (i < 0)%Z ->
  choose_file listing i
  = if Z.leb 0 (Z.of_nat (List.length listing) + i) then choose_file listing (Z.of_nat (List.length listing) + i)
    else Err IndexError.
Proof.
  intros l i Hi.
  assert (L : List.length (sort_names l) = List.length l) by (apply Permutation_length, sort_perm).
  unfold choose_file. rewrite L.
  replace (Z.ltb i 0) with true by (symmetry; apply Z.ltb_lt; exact Hi).
  set (n := Z.of_nat (List.length l)).
  destruct (Z.leb_spec 0 (n + i)%Z) as [H|H].
  - replace (Z.ltb (n + i) 0) with false by (symmetry; apply Z.ltb_ge; exact H).
    replace (Z.leb 0 (n + i)) with true by (symmetry; apply Z.leb_le; exact H). reflexivity.
  - cbn [andb]. reflexivity.
Qed.

Example C77_satisfiable :
  let d := {| d_dims := 2; d_steps := 3; d_pos := fun k i => INR (k + i); d_t := fun i => INR i;
              d_vel := fun _ _ => 1; d_acc := fun _ _ => 0; d_dt := 1 / 100 |} in
  [d; d] <> [] /\ (forall e, In e [d; d] -> d_dims e = 2%nat /\ d_steps e = 3%nat) /\
  (exists T X Xd Xdd dt, load_lasa_demos [d; d] = Ok (T, X, Xd, Xdd, dt) /\
     (2 <= snd (fst (a3_shape X)))%nat /\ dt <= 1).
Proof.
  cbn zeta. split; [congruence|]. split; [intros e [<-|[<-|[]]]; auto|].
  do 5 eexists. split; [reflexivity|]. cbn. split; [lia|lra].
Qed.

(** ** C78: interrupted downloads *)

(** However many earlier calls failed or were killed, at whatever point, the next call
    that runs to its end with a working network reads a complete data set. *)
Theorem C78_recovers : forall a s n,
  NoDup (map fst a) -> a <> [] ->
  after_runs a s -> (2 * List.length a + 4 < n)%nat ->
  exists d, snd (proc_steps a true n s Check) = Done d /\ complete a d.
Proof.
  intros a s n H1 H2 H3 Hn. apply steps_done; auto.
  - cbn [pinv]. apply after_runs_inv; auto.
Qed.

(** No call, with or without network, ever reads an incomplete data set, and once the
    data set is there, calls need no network and leave it as it is. *)
Theorem C78_never_incomplete : forall a s network n d,
  NoDup (map fst a) -> a <> [] -> after_runs a s ->
  snd (proc_steps a network n s Check) = Done d -> complete a d.
Proof.
  intros a s network n d H1 H2 H3 H4.
  assert (H := steps_inv a H1 H2 network n s Check (after_runs_inv a H1 H2 s H3)).
  rewrite H4 in H. exact (proj2 H).
Qed.

Theorem C78_downloads_once : forall a s i n,
  f_lasa s = Some i ->
  proc_steps a false (2 + n) s Check = (s, Done (f_dirs s i)).
Proof.
  intros a s i n H. cbn [plus proc_steps proc_step]. rewrite H. cbn [proc_steps proc_step]. rewrite H.
  induction n; cbn; auto.
Qed.

(** Two calls at the same time: the first renames the directory while the second has
    just opened a file in it; if the second is then killed, the file stays incomplete
    and every later call, however long it runs, reads the damaged data set. *)
Theorem C78_concurrent_refuted :
  exists a schedule, NoDup (map fst a) /\ a <> [] /\
  forall s p q, interleaved a schedule no_data Check Check = (s, p, q) ->
    forall n network, exists d,
      proc_steps a network (2 + n) s Check = (s, Done d) /\ ~ complete a d.
Proof.
  exists [("a"%string, "A"%string); ("b"%string, "B"%string)].
  exists [true; false; true; false; true; true; true; true; true; false; true].
  split; [|split].
  - cbn. constructor; [intros [H|[]]; discriminate|]. constructor; [intros []|constructor].
  - congruence.
  - intros s p q H. vm_compute in H. inversion H; subst. clear H.
    intros n network.
    eexists. split.
    + cbn [plus proc_steps proc_step f_lasa f_dirs].
      instantiate (1 := [("a"%string, None); ("b"%string, Some "B"%string)]).
      induction n; [reflexivity|]. cbn [proc_steps proc_step]. exact IHn.
    + intro C. unfold complete in C. cbn in C.
      assert (I := Permutation_in _ C (or_introl eq_refl)). cbn in I.
      destruct I as [I|[I|[]]]; discriminate.
Qed.

(** Even if nobody is killed, the second of two concurrent first calls fails. *)
Theorem C78_concurrent_failure_refuted :
  exists a schedule d, NoDup (map fst a) /\ a <> [] /\
    snd (fst (interleaved a schedule no_data Check Check)) = Done d /\ complete a d /\
    snd (interleaved a schedule no_data Check Check) = Failed.
Proof.
  exists [("a"%string, "A"%string); ("b"%string, "B"%string)].
  exists ([false] ++ repeat true 9 ++ repeat false 8).
  exists [("b"%string, Some "B"%string); ("a"%string, Some "A"%string)].
  split; [|split; [|split; [|split]]].
  - cbn. constructor; [intros [H|[]]; discriminate|]. constructor; [intros []|constructor].
  - congruence.
  - vm_compute. reflexivity.
  - apply perm_swap.
  - vm_compute. reflexivity.
Qed.

Example C78_satisfiable :
  let a := [("a"%string, "A"%string); ("b"%string, "B"%string)] in
  NoDup (map fst a) /\ a <> [] /\
  exists s, after_runs a s /\ f_root s <> None /\ f_lasa s = None.
Proof.
  cbn zeta. split; [|split].
  - cbn. constructor; [intros [H|[]]; discriminate|]. constructor; [intros []|constructor].
  - congruence.
  - eexists. split; [exact (AR_run _ _ true 5 (AR_start _))|]. vm_compute. split; congruence.
Qed.
