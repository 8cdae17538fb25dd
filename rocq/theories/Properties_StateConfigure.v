(** C23: what [configure] stores, for all classes, and what it rejects, for StateFollowingDMP. *)
From Coq Require Import Reals List Arith Lia Lra.
From Verif Require Import M_Prelude M_Canonical M_Forcing M_Dmp M_Base M_DmpObject M_SpringDamper M_StateFollowing M_StateObject
  M_Quaternion M_Cartesian M_MinJerk
  S_Loops P_DmpObject Properties_DmpState Properties_StateRest.
Import ListNotations.
Set Bullet Behavior "Strict Subproofs".
Open Scope R_scope.

(** After every history, [configure] raises ValueError exactly if one of the arrays has the
    wrong length.  Otherwise the given arrays and the given time are stored, and nothing else
    changes. *)
Theorem C23_state_following : forall n nv o c, sf_reachable n nv o ->
  let p := f_base o in
  let o' := fst (sf_configure c o) in let p' := f_base o' in
  let stored x old new := new = match x with Some a => a | None => old end in
  (snd (sf_configure c o) = None \/ snd (sf_configure c o) = Some ValueError)
  /\ (snd (sf_configure c o) = Some ValueError
      <-> (bad_length (c_start_y c) n \/ bad_length (c_start_yd c) n \/ bad_length (c_start_ydd c) n
           \/ bad_length (c_goal_y c) n \/ bad_length (c_goal_yd c) n \/ bad_length (c_goal_ydd c) n))
  /\ (snd (sf_configure c o) = None ->
      stored (c_start_y c) (p_start_y p) (p_start_y p') /\ stored (c_start_yd c) (p_start_yd p) (p_start_yd p')
      /\ stored (c_start_ydd c) (p_start_ydd p) (p_start_ydd p') /\ stored (c_goal_y c) (p_goal_y p) (p_goal_y p')
      /\ stored (c_goal_yd c) (p_goal_yd p) (p_goal_yd p') /\ stored (c_goal_ydd c) (p_goal_ydd p) (p_goal_ydd p')
      /\ p_t p' = match c_t c with Some t => t | None => p_t p end)
  /\ p_last_t p' = p_last_t p /\ p_current_y p' = p_current_y p /\ p_current_yd p' = p_current_yd p
  /\ f_execution_time o' = f_execution_time o /\ f_dt o' = f_dt o /\ f_int_dt o' = f_int_dt o
  /\ f_alpha_y o' = f_alpha_y o /\ f_beta_y o' = f_beta_y o /\ f_forcing o' = f_forcing o.
Proof.
  intros n nv o c Hr p o' p' stored.
  destruct (sf_reachable_ok n nv o Hr) as (H1 & H2 & _).
  assert (Hbad : forall x, ~ arr_fits x n <-> bad_length x n).
  { intros [a|]; unfold bad_length; simpl.
    - split; [intros; exists a; auto|]. intros (b & [= ->] & H); auto.
    - split; [tauto|]. intros (b & [=] & _). }
  assert (HV : configure_valid c p <-> arr_fits (c_start_y c) n /\ arr_fits (c_start_yd c) n /\ arr_fits (c_start_ydd c) n
     /\ arr_fits (c_goal_y c) n /\ arr_fits (c_goal_yd c) n /\ arr_fits (c_goal_ydd c) n).
  { unfold configure_valid, p. rewrite ?H1, ?H2. tauto. }
  subst o' p'. unfold sf_configure. fold p.
  destruct (configure_cases c p) as [[V ->] | [V (k & _ & _ & _ & ->)]]; cbn [fst snd sf_with_base f_base];
    rewrite HV in V; rewrite <- !Hbad.
  - split; [auto|]. split; [split; [discriminate|tauto]|]. unfold stored. cbn. repeat split; reflexivity.
  - split; [auto|]. split.
    + split; [intros _|auto].
      destruct (arr_fits_dec (c_start_y c) n), (arr_fits_dec (c_start_yd c) n),
        (arr_fits_dec (c_start_ydd c) n), (arr_fits_dec (c_goal_y c) n),
        (arr_fits_dec (c_goal_yd c) n), (arr_fits_dec (c_goal_ydd c) n); tauto.
    + split; [discriminate|]. cbn. repeat split; reflexivity.
Qed.

(** A call of [configure] that succeeds stores what it was given and leaves all other
    attributes as they were, whatever the state of the object is. *)
Definition stored (x : option arr) (old new : arr) : Prop := new = match x with Some a => a | None => old end.

Definition stores_arguments (c : configure_args) (p p' : ptp) : Prop :=
  stored (c_start_y c) (p_start_y p) (p_start_y p') /\ stored (c_start_yd c) (p_start_yd p) (p_start_yd p')
  /\ stored (c_start_ydd c) (p_start_ydd p) (p_start_ydd p') /\ stored (c_goal_y c) (p_goal_y p) (p_goal_y p')
  /\ stored (c_goal_yd c) (p_goal_yd p) (p_goal_yd p') /\ stored (c_goal_ydd c) (p_goal_ydd p) (p_goal_ydd p')
  /\ p_t p' = match c_t c with Some t => t | None => p_t p end
  /\ p_n_dims p' = p_n_dims p /\ p_n_vel_dims p' = p_n_vel_dims p /\ p_last_t p' = p_last_t p
  /\ p_current_y p' = p_current_y p /\ p_current_yd p' = p_current_yd p.

Lemma configure_stores c p : snd (configure c p) = None -> stores_arguments c p (fst (configure c p)).
Proof.
  destruct (configure_cases c p) as [[V ->] | [V (k & _ & _ & _ & ->)]]; [|discriminate].
  intros _. unfold stores_arguments, stored. cbn. repeat split; reflexivity.
Qed.

Theorem C23_configure_stores : forall c,
  (forall o, snd (dmp_configure c o) = Ok tt ->
     stores_arguments c (o_base o) (o_base (fst (dmp_configure c o)))
     /\ fst (dmp_configure c o) = with_base (o_base (fst (dmp_configure c o))) o)
  /\ (forall o, snd (cart_configure c o) = Ok tt ->
     stores_arguments c (k_base o) (k_base (fst (cart_configure c o)))
     /\ fst (cart_configure c o) = cart_with_base (k_base (fst (cart_configure c o))) o)
  /\ (forall o, snd (sf_configure c o) = None ->
     stores_arguments c (f_base o) (f_base (fst (sf_configure c o)))
     /\ fst (sf_configure c o) = sf_with_base (f_base (fst (sf_configure c o))) o)
  /\ (forall o, snd (sd_configure c o) = Ok tt ->
     stores_arguments c (s_base o) (s_base (fst (sd_configure c o)))
     /\ fst (sd_configure c o) = sd_with (s_base (fst (sd_configure c o))) (s_initialized o) o)
  /\ (forall o, snd (mjt_configure c o) = Ok tt ->
     let o' := fst (mjt_configure c o) in
     stores_arguments c (j_base o) (j_base o')
     /\ j_X o' = j_X o /\ j_execution_time o' = j_execution_time o /\ j_dt o' = j_dt o
     /\ j_step_idx o' = j_step_idx o /\ j_initialized o' = j_initialized o).
Proof.
  intros c. split; [|split; [|split; [|split]]]; intros o.
  - unfold dmp_configure. pose proof (configure_stores c (o_base o)) as H.
    destruct (configure c (o_base o)) as [p [e|]]; cbn [fst snd] in *; [discriminate|]. intros _. split; [now apply H|reflexivity].
  - unfold cart_configure. pose proof (configure_stores c (k_base o)) as H.
    destruct (configure c (k_base o)) as [p [e|]]; cbn [fst snd] in *; [discriminate|]. intros _. split; [now apply H|reflexivity].
  - unfold sf_configure. pose proof (configure_stores c (f_base o)) as H.
    destruct (configure c (f_base o)) as [p [e|]]; cbn [fst snd] in *; [discriminate|]. intros _. split; [now apply H|reflexivity].
  - unfold sd_configure. pose proof (configure_stores c (s_base o)) as H.
    destruct (configure c (s_base o)) as [p [e|]]; cbn [fst snd] in *; [discriminate|]. intros _. split; [now apply H|reflexivity].
  - unfold mjt_configure. pose proof (configure_stores c (j_base o)) as H.
    destruct (configure c (j_base o)) as [p [e|]]; cbn [fst snd] in *; [discriminate|]. intros _. split; [now apply H|]. repeat split.
Qed.

(** A start of the right length is stored, one of a wrong length is rejected. *)
Example C23_state_following_satisfiable : forall junk : vec * vec, exists o, sf_reachable 2 3 o
  /\ snd (sf_configure (conf_start (Some {| alen := 2; aget := fun _ => 5 |}) None) o) = None
  /\ aget (p_start_y (f_base (fst (sf_configure (conf_start (Some {| alen := 2; aget := fun _ => 5 |}) None) o)))) 1%nat = 5
  /\ snd (sf_configure (conf_start (Some {| alen := 3; aget := fun _ => 5 |}) None) o) = Some ValueError.
Proof.
  intros junk.
  assert (E : exists o, sf_new junk 2 1 (1/100) 3 (1/1000) {| shape := []; data := fun _ => 25 |} {| shape := []; data := fun _ => 25/4 |} = Ok o
     /\ p_n_dims (f_base o) = 2%nat).
  { unfold sf_new, canonical_system_alpha. destruct (Rle_dec (1/100) 0); [lra|]. destruct (Rle_dec 1 0); [lra|]. cbn [bind].
    unfold ensure_1d_array, sf_forcing_init. cbn [shape bind Nat.eqb Nat.leb]. destruct (Rle_dec 1 0); [lra|].
    destruct (Rle_dec (1/10) 0); [lra|]. destruct (sf_init_rbfs _ _ _ _ _ _ _). cbn [bind].
    eexists. split; reflexivity. }
  destruct E as (o & E & En). exists o. split; [eapply sr_new; exact E|].
  unfold sf_configure, conf_start, configure. cbn [c_t c_start_y c_start_yd c_start_ydd c_goal_y c_goal_yd c_goal_ydd configure_block and_then].
  unfold check_1d_array_length. cbn [alen]. rewrite En. cbn. auto.
Qed.
