(** C127: results do not depend on what uninitialised memory contained.  Final statements. *)
From Coq Require Import Reals List Arith Lia Lra Bool FunctionalExtensionality.
From Verif Require Import M_Prelude M_Canonical M_Forcing M_Dmp M_Base M_DmpObject M_FinalVelocity
  M_SpringDamper M_Quaternion M_Cartesian M_Dual M_StateFollowing M_StateObject M_Matrix M_Ridge
  S_Attributes S_Memory P_Forcing P_Loops P_Matrix P_Memory Properties_StateFollowing.
Import ListNotations.
Open Scope R_scope.
Set Bullet Behavior "Strict Subproofs".

Lemma both_rmap {A} (g : A -> A) (P : A -> A -> Prop) r r' : rmap g r = rmap g r' ->
  (forall o o', g o = g o' -> P o o') -> both P r r'.
Proof. destruct r, r'; cbn; intros H HP; try discriminate H; [apply HP|]; congruence. Qed.

(** ** The regression of the library *)
Lemma ridge_reads_arrays : reads_arrays ridge_regression.
Proof.
  intros n m X X' F lam H. unfold ridge_regression.
  replace (crop n m X) with (crop n m X'); auto.
  apply functional_extensionality; intros i. apply functional_extensionality; intros t. unfold crop.
  destruct (Nat.ltb_spec i n), (Nat.ltb_spec t m); cbn; auto. symmetry. auto.
Qed.

(** ** DMP and DMPWithFinalVelocity *)
Lemma exec_nf c o : N (exec c (o_nf o)) = N (exec c o).
Proof.
  destruct c; cbn [exec].
  - rewrite configure_nf. destruct (dmp_configure c o) as [o1 r]. unfold N; cbn. now rewrite o_nf_nf.
  - unfold N; cbn. f_equal. unfold dmp_reset, o_nf; cbn. now rewrite nf_nf.
  - rewrite step_nf. destruct (dmp_step _ _ _ _ o) as [o1 r]. unfold N; cbn. now rewrite o_nf_nf.
  - rewrite open_loop_nf. unfold N; cbn [fst snd]. now rewrite o_nf_nf.
  - rewrite imitate_method_nf. destruct (dmp_imitate_method _ _ _ _ _ o) as [o1 r]. unfold N; cbn. now rewrite o_nf_nf.
  - unfold N; cbn [fst snd]. now rewrite o_nf_nf.
  - rewrite set_weights_nf. destruct (dmp_set_weights w o) as [o1 r]. unfold N; cbn. now rewrite o_nf_nf.
  - pose proof (set_time_nf junk junk x o) as E.
    destruct (dmp_set_execution_time junk x (o_nf o)) as [o1 r], (dmp_set_execution_time junk x o) as [o2 r2].
    unfold N in *; cbn in *. congruence.
  - unfold N; cbn. f_equal. unfold o_nf; cbn. now rewrite nf_nf.
  - unfold N; cbn. f_equal. unfold o_nf; cbn. now rewrite nf_nf.
Qed.

Lemma exec_same c c' o o' : same_call c c' -> o_nf o = o_nf o' -> N (exec c o) = N (exec c' o').
Proof.
  intros Hc Ho. rewrite <- (exec_nf c o), Ho, exec_nf. destruct Hc as [c|j j' reg dm lam al Hr|j j' x]; auto.
  - cbn [exec]. now rewrite (imitate_method_junk j j').
  - cbn [exec].
    assert (E : N (dmp_set_execution_time j x o') = N (dmp_set_execution_time j' x o')).
    { rewrite <- (set_time_nf j j x o'). apply set_time_nf. }
    destruct (dmp_set_execution_time j x o') as [o1 r], (dmp_set_execution_time j' x o') as [o2 r2].
    unfold N in *; cbn in *. congruence.
Qed.

Lemma exec_all_same cs : forall cs' o o', Forall2 same_call cs cs' -> o_nf o = o_nf o' ->
  snd (exec_all cs o) = snd (exec_all cs' o').
Proof.
  induction cs as [|c cs IH]; intros cs' o o' H Ho; inversion H as [|? c' ? cs'' Hc Hcs]; subst; auto.
  cbn [exec_all]. pose proof (exec_same c c' o o' Hc Ho) as E.
  destruct (exec c o) as [o1 x1], (exec c' o') as [o2 x2]. unfold N in E; cbn in E.
  assert (E1 : o_nf o1 = o_nf o2) by congruence. specialize (IH cs'' o1 o2 Hcs E1).
  destruct (exec_all cs o1), (exec_all cs'' o2). cbn in *. congruence.
Qed.

Lemma fv_exec_nf c o : N (fv_exec c (o_nf o)) = N (fv_exec c o).
Proof.
  destruct c; cbn [fv_exec]; try apply exec_nf.
  - rewrite fv_step_nf. destruct (fv_step _ _ _ o) as [o1 r]. unfold N; cbn. now rewrite o_nf_nf.
  - rewrite fv_open_loop_nf. unfold N; cbn [fst snd]. now rewrite o_nf_nf.
  - rewrite fv_imitate_nf. destruct (fv_imitate _ _ _ _ o) as [o1 r]. unfold N; cbn. now rewrite o_nf_nf.
Qed.
Lemma fv_exec_same c c' o o' : same_fv_call c c' -> o_nf o = o_nf o' -> N (fv_exec c o) = N (fv_exec c' o').
Proof.
  intros Hc Ho. rewrite <- (fv_exec_nf c o), Ho, fv_exec_nf. destruct Hc as [c|j j' reg dm lam Hr|j j' x]; auto.
  - cbn [fv_exec]. now rewrite (fv_imitate_junk j j').
  - cbn [fv_exec]. apply exec_same; auto. constructor.
Qed.
Lemma fv_exec_all_same cs : forall cs' o o', Forall2 same_fv_call cs cs' -> o_nf o = o_nf o' ->
  snd (fv_exec_all cs o) = snd (fv_exec_all cs' o').
Proof.
  induction cs as [|c cs IH]; intros cs' o o' H Ho; inversion H as [|? c' ? cs'' Hc Hcs]; subst; auto.
  cbn [fv_exec_all]. pose proof (fv_exec_same c c' o o' Hc Ho) as E.
  destruct (fv_exec c o) as [o1 x1], (fv_exec c' o') as [o2 x2]. unfold N in E; cbn in E.
  assert (E1 : o_nf o1 = o_nf o2) by congruence. specialize (IH cs'' o1 o2 Hcs E1).
  destruct (fv_exec_all cs o1), (fv_exec_all cs'' o2). cbn in *. congruence.
Qed.

(** Two runs of the same program with a DMP, from the constructor on, give the same
    results call by call, whatever the memory contained in each of them. *)
Theorem C127_dmp : forall junk junk' n x dt nw int_dt p_gain sm al be cs cs',
  Forall2 same_call cs cs' ->
  both (fun o o' => snd (exec_all cs o) = snd (exec_all cs' o'))
    (dmp_new junk n x dt nw int_dt p_gain sm al be) (dmp_new junk' n x dt nw int_dt p_gain sm al be).
Proof. intros. eapply both_rmap; [apply new_nf|]. intros o o' E. now apply exec_all_same. Qed.

Theorem C127_final_velocity : forall junk junk' n x dt nw int_dt p_gain al be cs cs',
  Forall2 same_fv_call cs cs' ->
  both (fun o o' => snd (fv_exec_all cs o) = snd (fv_exec_all cs' o'))
    (fv_new junk n x dt nw int_dt p_gain al be) (fv_new junk' n x dt nw int_dt p_gain al be).
Proof. intros. eapply both_rmap; [apply new_nf|]. intros o o' E. now apply fv_exec_all_same. Qed.

(** ** CartesianDMP *)
Lemma k_nf_exec c o : k_nf (cart_exec c (k_nf o)) = k_nf (cart_exec c o).
Proof.
  destruct c; cbn [cart_exec].
  - rewrite cart_configure_nf. apply k_nf_nf.
  - unfold cart_reset, k_nf; cbn. now rewrite !nf_nf.
  - rewrite cart_step_nf. apply k_nf_nf.
  - rewrite cart_imitate_nf. apply k_nf_nf.
  - rewrite cart_set_weights_nf. apply k_nf_nf.
  - pose proof (cart_set_time_nf junk_pos junk_rot junk_pos junk_rot x o) as E.
    unfold K in E. congruence.
  - unfold k_nf; cbn. now rewrite !nf_nf.
  - unfold k_nf; cbn. now rewrite !nf_nf.
Qed.

Lemma k_nf_same c c' o o' : same_cart_call c c' -> k_nf o = k_nf o' -> k_nf (cart_exec c o) = k_nf (cart_exec c' o').
Proof.
  intros Hc Ho. rewrite <- (k_nf_exec c o), Ho, k_nf_exec.
  destruct Hc as [c|jp jr jp' jr' reg dm lam al Hr|jp jr jp' jr' x]; auto; cbn [cart_exec].
  - now rewrite (cart_imitate_junk jp jr jp' jr').
  - pose proof (cart_set_time_nf jp jr jp jr x o') as E. pose proof (cart_set_time_nf jp jr jp' jr' x o') as E'.
    unfold K in *. congruence.
Qed.

Lemma k_nf_answers o o' : k_nf o = k_nf o' -> cart_same_answers o o'.
Proof.
  intros H. unfold cart_same_answers.
  split; [change (k_base (k_nf o) = k_base (k_nf o')); congruence|].
  split; [change (cart_get_weights (k_nf o) = cart_get_weights (k_nf o')); congruence|].
  split; [intros; rewrite <- cart_open_loop_nf, H; apply cart_open_loop_nf|].
  split; [intros; pose proof (cart_step_nf y yd c fn i o) as E; pose proof (cart_step_nf y yd c fn i o') as E';
    unfold K in *; rewrite H in E; congruence|].
  split; [intros; pose proof (cart_configure_nf c o) as E; pose proof (cart_configure_nf c o') as E';
    unfold K in *; rewrite H in E; congruence|].
  split; [intros; pose proof (cart_set_weights_nf w o) as E; pose proof (cart_set_weights_nf w o') as E';
    unfold K in *; rewrite H in E; congruence|].
  split.
  - intros. pose proof (cart_set_time_nf jp jr jp jr x o) as E.
    pose proof (cart_set_time_nf jp jr jp' jr' x o') as E'.
    rewrite H in E. unfold K in *. congruence.
  - intros jp jr jp' jr' reg dm lam al Hr. rewrite (cart_imitate_junk jp jr jp' jr') by auto.
    pose proof (cart_imitate_nf jp' jr' reg dm lam al o) as E. pose proof (cart_imitate_nf jp' jr' reg dm lam al o') as E'.
    unfold K in *; rewrite H in E; congruence.
Qed.

Theorem C127_cartesian : forall jp jr jp' jr' x dt nw int_dt sm al be cs cs',
  Forall2 same_cart_call cs cs' ->
  both (fun o o' => cart_same_answers (fold_left (fun o c => cart_exec c o) cs o)
                                      (fold_left (fun o c => cart_exec c o) cs' o'))
    (cart_new jp jr x dt nw int_dt sm al be) (cart_new jp' jr' x dt nw int_dt sm al be).
Proof.
  intros jp jr jp' jr' x dt nw int_dt sm al be cs cs' H. eapply both_rmap; [apply cart_new_nf|].
  revert cs' H. induction cs as [|c cs IH]; intros cs' H o o' E;
    inversion H as [|? c' ? cs'' Hc Hcs]; subst; cbn [fold_left].
  - now apply k_nf_answers.
  - apply IH; auto. now apply k_nf_same.
Qed.

(** ** DualCartesianDMP *)
Lemma dual_nf_exec c o : o_nf (dual_exec c (o_nf o)) = o_nf (dual_exec c o).
Proof.
  destruct c; cbn [dual_exec].
  - rewrite configure_nf. apply o_nf_nf.
  - unfold dmp_reset, o_nf; cbn. now rewrite nf_nf.
  - rewrite dual_step_nf. apply o_nf_nf.
  - rewrite dual_open_loop_nf. apply o_nf_nf.
  - rewrite dual_imitate_nf. apply o_nf_nf.
  - rewrite dual_set_weights_nf. apply o_nf_nf.
  - pose proof (set_time_nf junk junk x o) as E. unfold N in E. congruence.
  - unfold o_nf; cbn. now rewrite nf_nf.
  - unfold o_nf; cbn. now rewrite nf_nf.
Qed.

Lemma dual_nf_same c c' o o' : same_dual_call c c' -> o_nf o = o_nf o' -> o_nf (dual_exec c o) = o_nf (dual_exec c' o').
Proof.
  intros Hc Ho. rewrite <- (dual_nf_exec c o), Ho, dual_nf_exec.
  destruct Hc as [c|a b c d a' b' c' d' reg dm lam al Hr|j j' x]; auto; cbn [dual_exec].
  - now rewrite (dual_imitate_junk a b c d a' b' c' d').
  - pose proof (set_time_nf j j x o') as E. pose proof (set_time_nf j j' x o') as E'.
    unfold N in *. congruence.
Qed.

Lemma dual_nf_answers o o' : o_nf o = o_nf o' -> dual_same_answers o o'.
Proof.
  intros H. unfold dual_same_answers.
  split; [change (o_base (o_nf o) = o_base (o_nf o')); congruence|].
  split; [change (dual_get_weights (o_nf o) = dual_get_weights (o_nf o')); congruence|].
  split; [intros; pose proof (dual_open_loop_nf run_t ct i cs o) as E; pose proof (dual_open_loop_nf run_t ct i cs o') as E';
    unfold N3 in *; rewrite H in E; congruence|].
  split; [intros; pose proof (dual_step_nf y yd ct i cs o) as E; pose proof (dual_step_nf y yd ct i cs o') as E';
    unfold N3 in *; rewrite H in E; split; congruence|].
  split; [intros; pose proof (configure_nf c o) as E; pose proof (configure_nf c o') as E';
    unfold N in *; rewrite H in E; congruence|].
  split; [intros; pose proof (dual_set_weights_nf w o) as E; pose proof (dual_set_weights_nf w o') as E';
    unfold N in *; rewrite H in E; congruence|].
  split.
  - intros. pose proof (set_time_nf j j x o) as E. pose proof (set_time_nf j j' x o') as E'.
    rewrite H in E. unfold N in *. congruence.
  - intros a b c d a' b' c' d' reg dm lam al Hr. rewrite (dual_imitate_junk a b c d a' b' c' d') by auto.
    pose proof (dual_imitate_nf a' b' c' d' reg dm lam al o) as E.
    pose proof (dual_imitate_nf a' b' c' d' reg dm lam al o') as E'.
    unfold N in *; rewrite H in E; congruence.
Qed.

Theorem C127_dual : forall junk junk' x dt nw int_dt p_gain sm al be cs cs',
  Forall2 same_dual_call cs cs' ->
  both (fun o o' => dual_same_answers (fold_left (fun o c => dual_exec c o) cs o)
                                      (fold_left (fun o c => dual_exec c o) cs' o'))
    (dual_new junk x dt nw int_dt p_gain sm al be) (dual_new junk' x dt nw int_dt p_gain sm al be).
Proof.
  intros junk junk' x dt nw int_dt pg sm al be cs cs' H. eapply both_rmap; [apply dual_new_nf|].
  revert cs' H. induction cs as [|c cs IH]; intros cs' H o o' E;
    inversion H as [|? c' ? cs'' Hc Hcs]; subst; cbn [fold_left].
  - now apply dual_nf_answers.
  - apply IH; auto. now apply dual_nf_same.
Qed.

(** ** StateFollowingDMP *)
Lemma sf_forcing_init_nf jc jw jc' jw' n g s ov al :
  rmap s_nf (sf_forcing_init jc jw n g s ov al) = rmap s_nf (sf_forcing_init jc' jw' n g s ov al).
Proof.
  destruct (sf_forcing_init jc jw n g s ov al) as [f|e] eqn:E; destruct (sf_forcing_init jc' jw' n g s ov al) as [f'|e'] eqn:E';
    cbn [rmap].
  - destruct (sf_init_spec _ _ _ _ _ _ _ _ E) as (N1 & N2 & N3 & N4 & C & W & L & _).
    destruct (sf_init_spec _ _ _ _ _ _ _ _ E') as (N1' & N2' & N3' & N4' & C' & W' & L' & _).
    assert (EC : forall j, (j < n)%nat -> sf_centers f j = sf_centers f' j) by (intros j Hj; now rewrite C, C').
    assert (EW0 : forall j, (j < n - 1)%nat -> sf_widths f j = sf_widths f' j).
    { intros j Hj. rewrite W, W' by auto. now rewrite !EC by lia. }
    assert (Eo : sf_overlap f = sf_overlap f' /\ sf_viapoints f = sf_viapoints f').
    { revert E E'. unfold sf_forcing_init. destruct (Nat.leb n 0), (Rle_dec g s), (Rle_dec ov 0); try discriminate.
      destruct (sf_init_rbfs jc jw _ _ _ _ _), (sf_init_rbfs jc' jw' _ _ _ _ _). intros [= <-] [= <-]. auto. }
    destruct Eo as [Eo Ev].
    f_equal. unfold s_nf. rewrite N1, N2, N3, N4, N1', N2', N3', N4', Eo, Ev, (clip_eq n _ _ EC).
    destruct (Nat.eqb_spec n 1) as [Hn|Hn]; auto.
    rewrite (clip_eq n (sf_widths f) (sf_widths f')); auto.
    intros j Hj. destruct (Nat.eq_dec j (n - 1)) as [->|]; [rewrite L, L' by lia|]; apply EW0; lia.
  - exfalso. revert E E'. unfold sf_forcing_init.
    destruct (Nat.leb n 0), (Rle_dec g s), (Rle_dec ov 0); try discriminate.
    destruct (sf_init_rbfs jc jw _ _ _ _ _), (sf_init_rbfs jc' jw' _ _ _ _ _). discriminate.
  - exfalso. revert E E'. unfold sf_forcing_init.
    destruct (Nat.leb n 0), (Rle_dec g s), (Rle_dec ov 0); try discriminate.
    destruct (sf_init_rbfs jc jw _ _ _ _ _), (sf_init_rbfs jc' jw' _ _ _ _ _). discriminate.
  - f_equal. revert E E'. unfold sf_forcing_init.
    destruct (Nat.leb n 0), (Rle_dec g s), (Rle_dec ov 0); try congruence.
    destruct (sf_init_rbfs jc jw _ _ _ _ _), (sf_init_rbfs jc' jw' _ _ _ _ _). discriminate.
Qed.

Lemma sf_new_nf j j' n x dt nv int_dt al be :
  rmap f_nf (sf_new j n x dt nv int_dt al be) = rmap f_nf (sf_new j' n x dt nv int_dt al be).
Proof.
  unfold sf_new. destruct (canonical_system_alpha _ _ _) as [az|]; cbn [bind]; auto.
  destruct (ensure_1d_array al n); cbn [bind]; auto. destruct (ensure_1d_array be n); cbn [bind]; auto.
  pose proof (sf_forcing_init_nf (fst j) (snd j) (fst j') (snd j') nv x 0 (1 / 10) az) as E.
  destruct (sf_forcing_init (fst j) (snd j) nv x 0 (1 / 10) az) as [f|e],
    (sf_forcing_init (fst j') (snd j') nv x 0 (1 / 10) az) as [f'|e']; cbn [rmap bind] in *; try discriminate E.
  - f_equal. assert (E1 : s_nf f = s_nf f') by congruence. unfold f_nf, sf_with. cbn. now rewrite E1.
  - congruence.
Qed.

Lemma sf_apply_nf q o : f_nf (sf_apply q (f_nf o)) = f_nf (sf_apply q o).
Proof.
  destruct q; cbn [sf_apply].
  - rewrite sf_configure_nf. apply f_nf_nf.
  - unfold sf_reset, f_nf, sf_with; cbn. now rewrite s_nf_nf.
  - rewrite sf_step_nf. apply f_nf_nf.
  - unfold sf_set_dt, f_nf, sf_with; cbn. now rewrite s_nf_nf.
  - unfold sf_set_int_dt, f_nf, sf_with; cbn. now rewrite s_nf_nf.
  - unfold sf_set_viapoints, f_nf, sf_with.
    change (s_nf (set_viapoints v (s_nf (f_forcing o)))) with (s_nf (s_nf (set_viapoints v (f_forcing o)))).
    cbn [f_base f_execution_time f_dt f_int_dt f_alpha_y f_beta_y f_forcing].
    change (set_viapoints v (s_nf (f_forcing o))) with (s_nf (set_viapoints v (f_forcing o))). now rewrite s_nf_nf.
Qed.

(** Also with a single via-point, whose width is never initialised. *)
Theorem C127_state_following : forall junk junk' n x dt nv int_dt al be qs,
  both (fun o o' => sf_same_answers (fold_left (fun o q => sf_apply q o) qs o)
                                    (fold_left (fun o q => sf_apply q o) qs o'))
    (sf_new junk n x dt nv int_dt al be) (sf_new junk' n x dt nv int_dt al be).
Proof.
  intros junk junk' n x dt nv int_dt al be qs. eapply both_rmap; [apply sf_new_nf|].
  induction qs as [|q qs IH]; intros o o' H; cbn [fold_left].
  - unfold sf_same_answers.
    split; [change (f_base (f_nf o) = f_base (f_nf o')); congruence|].
    split; [intros; rewrite <- sf_open_loop_nf, H; apply sf_open_loop_nf|].
    split; [intros; pose proof (sf_step_nf y yd c o) as E; pose proof (sf_step_nf y yd c o') as E'; rewrite H in E; congruence|].
    intros; pose proof (sf_configure_nf c o) as E; pose proof (sf_configure_nf c o') as E'; rewrite H in E; congruence.
  - apply IH. now rewrite <- (sf_apply_nf q o), H, sf_apply_nf.
Qed.

(** The attributes do depend on it for a single via-point: two equal constructor calls
    give objects with different [forcing_term.widths]. *)
Theorem C127_attributes_refuted : exists junk junk' o o' al be,
  sf_new junk 1 1 (1 / 100) 1 (1 / 1000) al be = Ok o /\ sf_new junk' 1 1 (1 / 100) 1 (1 / 1000) al be = Ok o'
  /\ sf_n (f_forcing o) = 1%nat /\ sf_widths (f_forcing o) 0%nat <> sf_widths (f_forcing o') 0%nat.
Proof.
  set (g := {| shape := []; data := fun _ => 25 |}).
  assert (H : forall w, exists o, sf_new (vzero, fun _ => w) 1 1 (1 / 100) 1 (1 / 1000) g g = Ok o
      /\ sf_n (f_forcing o) = 1%nat /\ sf_widths (f_forcing o) 0%nat = w).
  { intros w. unfold sf_new, canonical_system_alpha.
    destruct (Rle_dec _ _); [lra|]. destruct (Rle_dec _ _); [lra|]. cbn [bind fst snd].
    destruct (proj2 (proj1 (C31_constructor_errors vzero (fun _ => w) 1 1 0 (1 / 10) (- ln (1 / 100)))))
      as [f E]; [repeat split; [lia|lra|lra]|].
    change (ensure_1d_array g 1) with (@Ok arr {| alen := 1; aget := fun _ => 25 |}). cbn [bind].
    rewrite E. cbn [bind]. destruct (sf_init_spec _ _ _ _ _ _ _ _ E) as (Hn & _ & _ & _ & _ & _ & _ & Hw).
    eexists. split; [reflexivity|]. cbn. auto. }
  destruct (H 1) as (o & E & Hn & Hw), (H 2) as (o' & E' & Hn' & Hw').
  exists (vzero, fun _ => 1), (vzero, fun _ => 2), o, o', g, g.
  split; [exact E|]. split; [exact E'|]. split; [exact Hn|]. rewrite Hw, Hw'. lra.
Qed.

(** Two runs with different memory contents: the constructor succeeds, and the program
    imitates, changes the execution time, computes a trajectory and takes a step. *)
Example C127_satisfiable : exists junk junk' cs cs' o o' g,
  junk <> junk' /\ cs <> cs' /\ Forall2 same_call cs cs' /\ length cs = 4%nat
  /\ dmp_new junk 2 1 (1 / 100) 10 (1 / 1000) 0 true g g = Ok o
  /\ dmp_new junk' 2 1 (1 / 100) 10 (1 / 1000) 0 true g g = Ok o'
  /\ ft_centers (o_forcing_term o) 10%nat <> ft_centers (o_forcing_term o') 10%nat.
Proof.
  set (g := {| shape := []; data := fun _ => 25 |}).
  set (j := ((fun _ => 1) : vec, vzero)). set (j' := ((fun _ => 2) : vec, vzero)).
  set (dm := {| d_n := 3; d_T := fun i => INR i; d_rows := 3; d_dims := 2; d_Y := fun t _ => INR t |}).
  set (y := {| alen := 2; aget := vzero |}).
  assert (Hj : j <> j').
  { intros E. assert (Hc : fst j 0%nat = fst j' 0%nat) by now rewrite E. cbn in Hc. lra. }
  exists j, j', [CImitate j ridge_regression dm 0 false; CSetExecutionTime j 2; COpenLoop None None (Some RK4);
      CStep y y None (Some Euler)],
    [CImitate j' ridge_regression dm 0 false; CSetExecutionTime j' 2; COpenLoop None None (Some RK4);
      CStep y y None (Some Euler)].
  assert (H : forall w, exists o, dmp_new ((fun _ => w) : vec, vzero) 2 1 (1 / 100) 10 (1 / 1000) 0 true g g = Ok o
      /\ ft_centers (o_forcing_term o) 10%nat = w).
  { intros w. unfold dmp_new, init_forcing_term, canonical_system_alpha.
    destruct (Rle_dec _ _); [lra|]. destruct (Rle_dec _ _); [lra|]. cbn [bind fst snd].
    unfold forcing_term_init. cbn [Nat.leb]. destruct (Rle_dec _ _); [lra|]. destruct (Rle_dec _ _); [lra|].
    eexists. split; [reflexivity|]. cbn. reflexivity. }
  destruct (H 1) as (o & E & Ec), (H 2) as (o' & E' & Ec').
  exists o, o', g. split; [exact Hj|]. split; [congruence|].
  split. { repeat constructor. apply ridge_reads_arrays. }
  split; [reflexivity|]. split; [exact E|]. split; [exact E'|]. rewrite Ec, Ec'. lra.
Qed.
