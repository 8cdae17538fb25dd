(** Lemmas about the DMP object (M_DmpObject.v). *)
From Coq Require Import Reals List Arith Lia Lra Bool FunctionalExtensionality.
From Verif Require Import M_Prelude M_Canonical M_Forcing M_Dmp M_Base M_DmpObject
  S_Loops S_Dmp P_Loops P_Canonical P_Forcing P_DmpStep P_DmpScale P_DmpLinear P_Converge.
Import ListNotations.
Open Scope R_scope.
Set Bullet Behavior "Strict Subproofs".

(** Two argument records that a step function cannot tell apart. *)
Record args_equiv (a a' : dmp_args) : Prop := {
  ae_goal_y : a_goal_y a' = a_goal_y a;
  ae_start_y : a_start_y a' = a_start_y a;
  ae_goal_t : a_goal_t a' = a_goal_t a;
  ae_start_t : a_start_t a' = a_start_t a;
  ae_alpha : a_alpha_y a' = a_alpha_y a;
  ae_beta : a_beta_y a' = a_beta_y a;
  ae_phase : ft_phase (a_forcing_term a') = ft_phase (a_forcing_term a);
  ae_forces : ft_forces (a_forcing_term a') = ft_forces (a_forcing_term a);
  ae_coupling : a_coupling_term a' = a_coupling_term a;
  ae_pre : a_precomputed a' = a_precomputed a;
  ae_int_dt : a_int_dt a' = a_int_dt a;
  ae_smooth : a_smooth_scaling a' = a_smooth_scaling a;
  ae_te : forall d, a_p_gain a' * tracking_error_or_zero (a_tracking_error a') d
                    = a_p_gain a * tracking_error_or_zero (a_tracking_error a) d
}.

Lemma args_equiv_tdd a a' h : args_equiv a a' ->
  (fun d => a_p_gain a' * tracking_error_or_zero (a_tracking_error a') d / h)
  = (fun d => a_p_gain a * tracking_error_or_zero (a_tracking_error a) d / h).
Proof. intros H. vext. now rewrite (ae_te _ _ H). Qed.

Lemma rk4_args_equiv a a' lt t s : args_equiv a a' ->
  dmp_step_rk4 a' lt t s = dmp_step_rk4 a lt t s.
Proof.
  intros H. unfold dmp_step_rk4, precomputed_cdd. cbv zeta.
  rewrite (args_equiv_tdd _ _ (t - lt) H).
  rewrite (ae_goal_y _ _ H), (ae_start_y _ _ H), (ae_goal_t _ _ H), (ae_start_t _ _ H),
    (ae_alpha _ _ H), (ae_beta _ _ H), (ae_phase _ _ H), (ae_forces _ _ H), (ae_coupling _ _ H), (ae_pre _ _ H),
    (ae_smooth _ _ H). reflexivity.
Qed.

Lemma euler_body_args_equiv a a' c h s : args_equiv a a' ->
  euler_body a' c h s = euler_body a c h s.
Proof.
  intros H. unfold euler_body, precomputed_cdd. cbv zeta.
  rewrite (args_equiv_tdd _ _ h H).
  rewrite (ae_goal_y _ _ H), (ae_start_y _ _ H), (ae_goal_t _ _ H), (ae_start_t _ _ H),
    (ae_alpha _ _ H), (ae_beta _ _ H), (ae_phase _ _ H), (ae_forces _ _ H), (ae_coupling _ _ H), (ae_pre _ _ H),
    (ae_smooth _ _ H). reflexivity.
Qed.

Lemma euler_cython_body_args_equiv a a' c h s : args_equiv a a' ->
  euler_cython_body a' c h s = euler_cython_body a c h s.
Proof.
  intros H. unfold euler_cython_body. cbv zeta.
  rewrite (ae_goal_y _ _ H), (ae_start_y _ _ H), (ae_goal_t _ _ H), (ae_start_t _ _ H),
    (ae_alpha _ _ H), (ae_beta _ _ H), (ae_phase _ _ H), (ae_forces _ _ H), (ae_coupling _ _ H), (ae_pre _ _ H),
    (ae_smooth _ _ H).
  destruct s as [y v].
  destruct (match a_coupling_term a with
    | Some c0 => c0 y v
    | None => match a_precomputed a with Some p => p | None => (vzero, vzero) end
    end) as [cd cdd].
  pose proof (ae_te _ _ H) as Ht.
  assert (Et : match a_tracking_error a' with
     | Some te => fun d : nat => cdd d + a_p_gain a' * te d / h
     | None => cdd
     end = match a_tracking_error a with
     | Some te => fun d : nat => cdd d + a_p_gain a * te d / h
     | None => cdd
     end).
  { destruct (a_tracking_error a'), (a_tracking_error a); simpl in Ht; vext;
      specialize (Ht x); unfold vzero in Ht; (rewrite Ht || rewrite <- Ht || idtac);
      unfold Rdiv; ring. }
  now rewrite Et.
Qed.

Lemma substeps_body_ext {S} (b b' : R -> R -> S -> S) fuel c t h s :
  (forall c h s, b' c h s = b c h s) -> substeps fuel c t h b' s = substeps fuel c t h b s.
Proof.
  intros E. assert (b' = b) as ->; auto.
  repeat (apply functional_extensionality; intro). apply E.
Qed.

Lemma step_args_equiv fn a a' lt t s : args_equiv a a' ->
  (a_start_yd a' = a_start_yd a \/ a_start_t a < t) ->
  run_step_function fn a' lt t s = run_step_function fn a lt t s.
Proof.
  intros H Hs. destruct fn; cbn [run_step_function].
  - f_equal. now apply rk4_args_equiv.
  - unfold dmp_step_euler.
    rewrite (ae_goal_t _ _ H), (ae_start_t _ _ H), (ae_int_dt _ _ H).
    rewrite (substeps_body_ext (euler_body a) (euler_body a')); auto.
    intros. now apply euler_body_args_equiv.
  - rewrite !rk4_cython_eq. f_equal. now apply rk4_args_equiv.
  - unfold dmp_step_euler_cython.
    rewrite (ae_goal_t _ _ H), (ae_start_t _ _ H), (ae_int_dt _ _ H), (ae_start_y _ _ H).
    rewrite (substeps_body_ext (euler_cython_body a) (euler_cython_body a'))
      by (intros; now apply euler_cython_body_args_equiv).
    destruct (Rle_dec t (a_start_t a)); auto.
    destruct Hs as [-> | Hs]; auto. lra.
Qed.

(** ** Shapes *)
Definition shapes_ok (o : dmp) : Prop :=
  let p := o_base o in
  p_n_vel_dims p = p_n_dims p
  /\ alen (p_start_y p) = p_n_dims p /\ alen (p_start_yd p) = p_n_dims p
  /\ alen (p_start_ydd p) = p_n_dims p
  /\ alen (p_goal_y p) = p_n_dims p /\ alen (p_goal_yd p) = p_n_dims p
  /\ alen (p_goal_ydd p) = p_n_dims p
  /\ alen (p_current_y p) = p_n_dims p /\ alen (p_current_yd p) = p_n_dims p
  /\ alen (o_alpha_y o) = p_n_dims p /\ alen (o_beta_y o) = p_n_dims p
  /\ ft_n (o_forcing_term o) = o_n_weights_per_dim o /\ (2 <= o_n_weights_per_dim o)%nat.

Lemma ensure_1d_array_len v n a : ensure_1d_array v n = Ok a -> alen a = n.
Proof.
  unfold ensure_1d_array.
  destruct (shape v) as [|[|[|k]] [|m l]]; cbn -[Nat.eqb]; try discriminate;
    match goal with |- context [Nat.eqb ?x ?y] => destruct (Nat.eqb_spec x y) end;
    try discriminate; intros H; inversion H; subst; auto.
Qed.

Lemma init_forcing_term_inv junk n x f : init_forcing_term junk n x = Ok f ->
  (2 <= n)%nat /\ 0 < x
  /\ forcing_term_init (fst junk) (snd junk) n x 0 (8/10) (- ln (1/100)) = Ok f.
Proof.
  unfold init_forcing_term, canonical_system_alpha.
  destruct (Rle_dec (1 / 100) 0); [lra|].
  destruct (Rle_dec x 0); [discriminate|]. cbn [bind]. intros H.
  repeat split; auto; [|lra].
  unfold forcing_term_init in H. destruct (Nat.leb_spec n 1); [discriminate|]. lia.
Qed.

Lemma init_forcing_term_accepts junk n x : (2 <= n)%nat -> 0 < x ->
  exists f, init_forcing_term junk n x = Ok f.
Proof.
  intros Hn Hx. unfold init_forcing_term, canonical_system_alpha.
  destruct (Rle_dec (1 / 100) 0); [lra|].
  destruct (Rle_dec x 0); [lra|]. cbn [bind].
  destruct (forcing_term_init_ok (fst junk) (snd junk) n x 0 (8/10) (- ln (1/100)) Hn Hx ltac:(lra))
    as [f [E _]]. eauto.
Qed.

Lemma init_forcing_term_rejects junk n x : x <= 0 -> init_forcing_term junk n x = Err ValueError.
Proof.
  intros. unfold init_forcing_term, canonical_system_alpha.
  destruct (Rle_dec (1 / 100) 0); [lra|]. destruct (Rle_dec x 0); [reflexivity|lra].
Qed.

Lemma forcing_term_init_n jc jw n g s ov al f :
  forcing_term_init jc jw n g s ov al = Ok f ->
  ft_n f = n /\ ft_goal_t f = g /\ ft_start_t f = s /\ ft_overlap f = ov /\ ft_alpha_z f = al
  /\ (2 <= n)%nat /\ s < g /\ 0 < ov.
Proof.
  unfold forcing_term_init. destruct (Nat.leb_spec n 1); [discriminate|].
  destruct (Rle_dec g s); [discriminate|]. destruct (Rle_dec ov 0); [discriminate|].
  destruct (init_rbfs jc jw n al g s ov). intros H0; inversion H0; simpl.
  repeat split; auto; try lia; lra.
Qed.

Lemma dmp_new_shapes junk n x dt nw idt pg ss al be o :
  dmp_new junk n x dt nw idt pg ss al be = Ok o -> shapes_ok o /\ p_n_dims (o_base o) = n.
Proof.
  unfold dmp_new. destruct (init_forcing_term junk nw x) as [f|] eqn:Ef; [|discriminate].
  cbn [bind]. destruct (ensure_1d_array al n) as [a|] eqn:Ea; [|discriminate].
  cbn [bind]. destruct (ensure_1d_array be n) as [b|] eqn:Eb; [|discriminate].
  cbn [bind]. intros H; inversion H; subst o. clear H.
  apply ensure_1d_array_len in Ea, Eb. apply init_forcing_term_inv in Ef.
  destruct Ef as (Hn & Hx & Ef). apply forcing_term_init_n in Ef.
  unfold shapes_ok; simpl. intuition.
Qed.

(** [configure] as a whole *)
Definition arr_fits (x : option arr) (n : nat) : Prop :=
  match x with Some a => alen a = n | None => True end.

Definition configure_valid (c : configure_args) (p : ptp) : Prop :=
  arr_fits (c_start_y c) (p_n_dims p) /\ arr_fits (c_start_yd c) (p_n_vel_dims p)
  /\ arr_fits (c_start_ydd c) (p_n_vel_dims p)
  /\ arr_fits (c_goal_y c) (p_n_dims p) /\ arr_fits (c_goal_yd c) (p_n_vel_dims p)
  /\ arr_fits (c_goal_ydd c) (p_n_vel_dims p).

Definition given (x : option arr) (old : arr) : arr :=
  match x with Some a => a | None => old end.

Definition configured (c : configure_args) (p : ptp) : ptp :=
  {| p_n_dims := p_n_dims p; p_n_vel_dims := p_n_vel_dims p;
     p_t := match c_t c with Some t => t | None => p_t p end;
     p_last_t := p_last_t p;
     p_start_y := given (c_start_y c) (p_start_y p);
     p_start_yd := given (c_start_yd c) (p_start_yd p);
     p_start_ydd := given (c_start_ydd c) (p_start_ydd p);
     p_goal_y := given (c_goal_y c) (p_goal_y p);
     p_goal_yd := given (c_goal_yd c) (p_goal_yd p);
     p_goal_ydd := given (c_goal_ydd c) (p_goal_ydd p);
     p_current_y := p_current_y p; p_current_yd := p_current_yd p |}.

Lemma check_len_cases a n :
  (alen a = n /\ check_1d_array_length a n = None)
  \/ (alen a <> n /\ check_1d_array_length a n = Some ValueError).
Proof. unfold check_1d_array_length. destruct (Nat.eqb_spec (alen a) n); auto. Qed.

Lemma configure_block_ok x n f p : arr_fits x n ->
  configure_block x n f p = (match x with Some a => f a p | None => p end, None).
Proof.
  destruct x as [a|]; simpl; auto. intros <-. unfold check_1d_array_length.
  now rewrite Nat.eqb_refl.
Qed.

Lemma configure_block_err x n f p : ~ arr_fits x n ->
  configure_block x n f p = (p, Some ValueError).
Proof.
  destruct x as [a|]; simpl; [|tauto]. intros H. unfold check_1d_array_length.
  destruct (Nat.eqb_spec (alen a) n); [tauto|auto].
Qed.

Lemma arr_fits_dec x n : {arr_fits x n} + {~ arr_fits x n}.
Proof. destruct x; simpl; [apply Nat.eq_dec|left; auto]. Qed.

Lemma and_then_ok p f : and_then (p, None) f = f p.
Proof. reflexivity. Qed.
Lemma and_then_err p e f : and_then (p, Some e) f = (p, Some e).
Proof. reflexivity. Qed.

Definition set_opt (f : arr -> ptp -> ptp) (x : option arr) (p : ptp) : ptp :=
  match x with Some a => f a p | None => p end.

Lemma block_ok x n f p : arr_fits x n -> configure_block x n f p = (set_opt f x p, None).
Proof. apply configure_block_ok. Qed.

Lemma set_opt_dims f x p :
  (forall a p, p_n_dims (f a p) = p_n_dims p) -> p_n_dims (set_opt f x p) = p_n_dims p.
Proof. destruct x; simpl; auto. Qed.
Lemma set_opt_vdims f x p :
  (forall a p, p_n_vel_dims (f a p) = p_n_vel_dims p) ->
  p_n_vel_dims (set_opt f x p) = p_n_vel_dims p.
Proof. destruct x; simpl; auto. Qed.

Definition set_t_opt (x : option R) (p : ptp) : ptp :=
  match x with Some t => set_t t p | None => p end.
Lemma set_t_opt_dims x p : p_n_dims (set_t_opt x p) = p_n_dims p
  /\ p_n_vel_dims (set_t_opt x p) = p_n_vel_dims p.
Proof. destruct x; auto. Qed.

Ltac dims := rewrite ?set_opt_dims, ?set_opt_vdims, ?(proj1 (set_t_opt_dims _ _)),
  ?(proj2 (set_t_opt_dims _ _)) by reflexivity.

(** Outcome of [configure]: the leading valid arguments are assigned; with [k]
    of the six arrays valid in order, the [k]-th block raises. *)
Definition drop_from (k : nat) (c : configure_args) : configure_args :=
  {| c_t := c_t c;
     c_start_y := if Nat.ltb 0 k then c_start_y c else None;
     c_start_yd := if Nat.ltb 1 k then c_start_yd c else None;
     c_start_ydd := if Nat.ltb 2 k then c_start_ydd c else None;
     c_goal_y := if Nat.ltb 3 k then c_goal_y c else None;
     c_goal_yd := if Nat.ltb 4 k then c_goal_yd c else None;
     c_goal_ydd := if Nat.ltb 5 k then c_goal_ydd c else None |}.

Lemma configured_as_sets c p :
  configured c p
  = set_opt set_goal_ydd (c_goal_ydd c) (set_opt set_goal_yd (c_goal_yd c)
      (set_opt set_goal_y (c_goal_y c) (set_opt set_start_ydd (c_start_ydd c)
      (set_opt set_start_yd (c_start_yd c) (set_opt set_start_y (c_start_y c)
      (set_t_opt (c_t c) p)))))).
Proof.
  destruct c as [[?|] [?|] [?|] [?|] [?|] [?|] [?|]], p; reflexivity.
Qed.

Lemma configure_cases c p :
  (configure_valid c p /\ configure c p = (configured c p, None))
  \/ (~ configure_valid c p
      /\ exists k, (k < 6)%nat /\ configure_valid (drop_from k c) p
           /\ ~ configure_valid (drop_from (S k) c) p
           /\ configure c p = (configured (drop_from k c) p, Some ValueError)).
Proof.
  unfold configure. fold (set_t_opt (c_t c) p).
  set (p0 := set_t_opt (c_t c) p).
  assert (D : p_n_dims p0 = p_n_dims p /\ p_n_vel_dims p0 = p_n_vel_dims p)
    by apply set_t_opt_dims.
  destruct D as [D1 D2]. rewrite D1.
  destruct (arr_fits_dec (c_start_y c) (p_n_dims p)) as [H1|H1].
  2: { right. split; [unfold configure_valid; tauto|]. exists 0%nat. split; [lia|].
       rewrite configure_block_err, and_then_err, configured_as_sets by auto.
       unfold configure_valid, drop_from; simpl. tauto. }
  rewrite block_ok, and_then_ok by auto. dims. rewrite D2.
  destruct (arr_fits_dec (c_start_yd c) (p_n_vel_dims p)) as [H2|H2].
  2: { right. split; [unfold configure_valid; tauto|]. exists 1%nat. split; [lia|].
       rewrite configure_block_err, and_then_err, configured_as_sets by auto.
       unfold configure_valid, drop_from; simpl. tauto. }
  rewrite block_ok, and_then_ok by auto. dims. rewrite D2.
  destruct (arr_fits_dec (c_start_ydd c) (p_n_vel_dims p)) as [H3|H3].
  2: { right. split; [unfold configure_valid; tauto|]. exists 2%nat. split; [lia|].
       rewrite configure_block_err, and_then_err, configured_as_sets by auto.
       unfold configure_valid, drop_from; simpl. tauto. }
  rewrite block_ok, and_then_ok by auto. dims. rewrite D1.
  destruct (arr_fits_dec (c_goal_y c) (p_n_dims p)) as [H4|H4].
  2: { right. split; [unfold configure_valid; tauto|]. exists 3%nat. split; [lia|].
       rewrite configure_block_err, and_then_err, configured_as_sets by auto.
       unfold configure_valid, drop_from; simpl. tauto. }
  rewrite block_ok, and_then_ok by auto. dims. rewrite D2.
  destruct (arr_fits_dec (c_goal_yd c) (p_n_vel_dims p)) as [H5|H5].
  2: { right. split; [unfold configure_valid; tauto|]. exists 4%nat. split; [lia|].
       rewrite configure_block_err, and_then_err, configured_as_sets by auto.
       unfold configure_valid, drop_from; simpl. tauto. }
  rewrite block_ok, and_then_ok by auto. dims. rewrite D2.
  destruct (arr_fits_dec (c_goal_ydd c) (p_n_vel_dims p)) as [H6|H6].
  2: { right. split; [unfold configure_valid; tauto|]. exists 5%nat. split; [lia|].
       rewrite configure_block_err, configured_as_sets by auto.
       unfold configure_valid, drop_from; simpl. tauto. }
  left. split; [unfold configure_valid; tauto|].
  rewrite block_ok by auto. now rewrite configured_as_sets.
Qed.

Lemma configured_shapes c o : shapes_ok o -> configure_valid c (o_base o) ->
  shapes_ok (with_base (configured c (o_base o)) o).
Proof.
  intros (H0 & H1 & H2 & H3 & H4 & H5 & H6 & H7 & H8 & H9 & H10 & H11 & H12)
    (V1 & V2 & V3 & V4 & V5 & V6).
  unfold shapes_ok; simpl. rewrite H0 in *.
  destruct (c_start_y c), (c_start_yd c), (c_start_ydd c), (c_goal_y c), (c_goal_yd c),
    (c_goal_ydd c); simpl in *; repeat split; auto.
Qed.

Lemma dmp_configure_shapes c o : shapes_ok o ->
  shapes_ok (fst (dmp_configure c o))
  /\ p_n_dims (o_base (fst (dmp_configure c o))) = p_n_dims (o_base o).
Proof.
  intros H. unfold dmp_configure.
  destruct (configure_cases c (o_base o)) as [[V ->] | [_ (k & _ & V & _ & ->)]]; simpl;
    split; auto; now apply configured_shapes.
Qed.

Ltac split_shapes H :=
  destruct H as (H0 & H1 & H2 & H3 & H4 & H5 & H6 & H7 & H8 & H9 & H10 & H11 & H12).

Lemma step_shapes y yd c fn o : shapes_ok o ->
  shapes_ok (fst (dmp_step y yd c fn o))
  /\ p_n_dims (o_base (fst (dmp_step y yd c fn o))) = p_n_dims (o_base o).
Proof.
  intros H. unfold dmp_step. destruct fn as [fn|]; [|auto].
  destruct (Nat.eqb_spec (alen y) (p_n_dims (o_base o))); simpl; [|auto].
  destruct (Nat.eqb_spec (alen yd) (p_n_dims (o_base o))); simpl; [|auto].
  split_shapes H.
  destruct (o_initialized o) eqn:Ei;
  match goal with |- context [run_step_function ?f ?a ?t0 ?t1 ?s] =>
    destruct (run_step_function f a t0 t1 s) as [[y1 yd1]|] end;
  unfold shapes_ok; simpl; repeat split; auto.
Qed.

Lemma imitate_method_shapes j reg dm lam al o : shapes_ok o ->
  shapes_ok (fst (dmp_imitate_method j reg dm lam al o))
  /\ p_n_dims (o_base (fst (dmp_imitate_method j reg dm lam al o))) = p_n_dims (o_base o).
Proof.
  intros H. unfold dmp_imitate_method.
  destruct (dmp_imitate _ _ _ _ _ _ _ _ _ _ _ _) as [[[w sy] gy]|]; simpl; [|auto].
  destruct (Nat.eqb (d_dims dm) (p_n_dims (o_base o))); simpl; [|auto].
  set (o1 := with_forcing_term _ o).
  assert (H' : shapes_ok o1) by (split_shapes H; unfold shapes_ok; simpl; repeat split; auto).
  destruct (dmp_configure_shapes
    {| c_t := None; c_start_y := Some {| alen := d_dims dm; aget := sy |};
       c_start_yd := None; c_start_ydd := None;
       c_goal_y := Some {| alen := d_dims dm; aget := gy |};
       c_goal_yd := None; c_goal_ydd := None |} o1 H') as [A B]. auto.
Qed.

Lemma exec_shapes c o : shapes_ok o ->
  shapes_ok (fst (exec c o)) /\ p_n_dims (o_base (fst (exec c o))) = p_n_dims (o_base o).
Proof.
  intros H. destruct c; simpl.
  - pose proof (dmp_configure_shapes c o H) as [A B].
    destruct (dmp_configure c o); simpl in *; auto.
  - split_shapes H. unfold shapes_ok; simpl. repeat split; auto.
  - pose proof (step_shapes last_y last_yd c fn o H) as [A B].
    destruct (dmp_step last_y last_yd c fn o); simpl in *; auto.
  - auto.
  - pose proof (imitate_method_shapes junk regress dm lam allow o H) as [A B].
    destruct (dmp_imitate_method junk regress dm lam allow o); simpl in *; auto.
  - auto.
  - unfold dmp_set_weights. destruct (reshape _ _ _); simpl; auto.
  - unfold dmp_set_execution_time. cbn [o_n_weights_per_dim with_execution_time].
    destruct (init_forcing_term junk (o_n_weights_per_dim o) x) as [f|] eqn:E.
    + apply init_forcing_term_inv in E. destruct E as (_ & _ & E).
      apply forcing_term_init_n in E. destruct E as (E & _).
      split_shapes H. unfold shapes_ok; simpl. repeat split; auto.
    + split_shapes H. unfold shapes_ok; simpl. repeat split; auto.
  - split_shapes H. unfold shapes_ok; simpl. repeat split; auto.
  - split_shapes H. unfold shapes_ok; simpl. repeat split; auto.
Qed.

Lemma exec_all_shapes cs : forall o, shapes_ok o ->
  shapes_ok (fst (exec_all cs o)) /\ p_n_dims (o_base (fst (exec_all cs o))) = p_n_dims (o_base o).
Proof.
  induction cs as [|c cs IH]; intros o H; [simpl; auto|].
  cbn [exec_all]. destruct (exec_shapes c o H) as [A B].
  destruct (exec c o) as [o1 x]. simpl in A, B.
  destruct (IH o1 A) as [A' B']. destruct (exec_all cs o1) as [o2 xs]. simpl in *.
  split; auto. congruence.
Qed.

(** ** ravel / reshape *)
Lemma reshape_ravel n m w : exists w',
  reshape (ravel n m w) n m = Ok w'
  /\ forall d i, (i < m)%nat -> w' d i = w d i.
Proof.
  unfold reshape, ravel. simpl. rewrite Nat.eqb_refl. eexists. split; [reflexivity|].
  intros d i Hi. simpl.
  f_equal; rewrite Nat.add_comm.
  - rewrite Nat.div_add by lia. rewrite Nat.div_small by lia. lia.
  - rewrite Nat.mod_add by lia. now rewrite Nat.mod_small by lia.
Qed.

Lemma ravel_reshape n m a w : (0 < m)%nat -> reshape a n m = Ok w ->
  alen (ravel n m w) = alen a /\ forall k, aget (ravel n m w) k = aget a k.
Proof.
  unfold reshape. intros Hm. destruct (Nat.eqb_spec (alen a) (n * m)); [|discriminate].
  intros H; inversion H. subst w. split; [now simpl|]. intros k. simpl.
  f_equal. rewrite (Nat.div_mod k m) at 3 by lia. lia.
Qed.

(** ** [dmp_step] in normal form *)
(** What the first lines of [step] make of an object that was not stepped yet. *)
Definition norm (o : dmp) : dmp :=
  if o_initialized o then o
  else with_initialized true
         (with_base (set_current (p_start_y (o_base o)) (p_start_yd (o_base o)) (o_base o)) o).
Definition tick (o : dmp) : dmp :=
  with_base (set_t (p_t (o_base o) + o_dt o) (set_last_t (Some (p_t (o_base o))) (o_base o))) o.

Lemma dmp_step_eq y yd c fn o :
  alen y = p_n_dims (o_base o) -> alen yd = p_n_dims (o_base o) ->
  dmp_step y yd c (Some fn) o
  = let o1 := tick (norm o) in
    let cy := p_current_y (o_base o1) in
    let cyd := p_current_yd (o_base o1) in
    match run_step_function fn (step_args o1 c (vsub (aget cy) (aget y)))
            (p_t (o_base o)) (p_t (o_base o) + o_dt o) (aget cy, aget cyd) with
    | Err e => (o1, Err e)
    | Ok (y', yd') =>
        (with_base (set_current {| alen := alen cy; aget := y' |} {| alen := alen cyd; aget := yd' |}
                      (o_base o1)) o1,
         Ok ({| alen := alen cy; aget := y' |}, {| alen := alen cyd; aget := yd' |}))
    end.
Proof.
  intros Hy Hyd. unfold dmp_step. rewrite Hy, Hyd, Nat.eqb_refl. cbn [negb].
  unfold norm, tick. destruct o as [p ini x dt nw idt pg sm f al be].
  destruct ini; cbn; reflexivity.
Qed.

Lemma dmp_step_invalid y yd c fn o :
  fn = None \/ alen y <> p_n_dims (o_base o) \/ alen yd <> p_n_dims (o_base o) ->
  exists e, dmp_step y yd c fn o = (o, Err e).
Proof.
  intros H. unfold dmp_step. destruct fn; [|eauto].
  destruct (Nat.eqb_spec (alen y) (p_n_dims (o_base o))); cbn [negb]; [|eauto].
  destruct (Nat.eqb_spec (alen yd) (p_n_dims (o_base o))); cbn [negb]; [|eauto].
  destruct H as [H|[H|H]]; congruence.
Qed.

Lemma step_valid_dec y yd (fn : option step_function) n :
  {f | fn = Some f /\ alen y = n /\ alen yd = n}
  + {fn = None \/ alen y <> n \/ alen yd <> n}.
Proof.
  destruct fn as [f|]; [|right; auto].
  destruct (Nat.eq_dec (alen y) n); [|right; auto].
  destruct (Nat.eq_dec (alen yd) n); [|right; auto].
  left. exists f. auto.
Qed.

(** [step] changes only the clock, the current state and the flag. *)
Definition same_params (o o' : dmp) : Prop :=
  o_execution_time o' = o_execution_time o /\ o_dt o' = o_dt o
  /\ o_n_weights_per_dim o' = o_n_weights_per_dim o /\ o_int_dt o' = o_int_dt o
  /\ o_p_gain o' = o_p_gain o /\ o_smooth_scaling o' = o_smooth_scaling o
  /\ o_forcing_term o' = o_forcing_term o /\ o_alpha_y o' = o_alpha_y o
  /\ o_beta_y o' = o_beta_y o
  /\ p_n_dims (o_base o') = p_n_dims (o_base o)
  /\ p_n_vel_dims (o_base o') = p_n_vel_dims (o_base o)
  /\ p_start_y (o_base o') = p_start_y (o_base o) /\ p_start_yd (o_base o') = p_start_yd (o_base o)
  /\ p_start_ydd (o_base o') = p_start_ydd (o_base o)
  /\ p_goal_y (o_base o') = p_goal_y (o_base o) /\ p_goal_yd (o_base o') = p_goal_yd (o_base o)
  /\ p_goal_ydd (o_base o') = p_goal_ydd (o_base o).

Lemma same_params_refl o : same_params o o.
Proof. unfold same_params. repeat split. Qed.

Lemma same_params_trans o o' o'' : same_params o o' -> same_params o' o'' -> same_params o o''.
Proof. unfold same_params. intuition congruence. Qed.

Lemma norm_params o : same_params o (norm o).
Proof. unfold norm. destruct (o_initialized o); unfold same_params; simpl; repeat split. Qed.

Lemma tick_params o : same_params o (tick o).
Proof. unfold same_params; simpl; repeat split. Qed.

Lemma dmp_step_params y yd c fn o : same_params o (fst (dmp_step y yd c fn o)).
Proof.
  destruct (step_valid_dec y yd fn (p_n_dims (o_base o))) as [(f & -> & Hy & Hyd) | H].
  - rewrite dmp_step_eq by auto. cbv zeta.
    pose proof (same_params_trans _ _ _ (norm_params o) (tick_params (norm o))) as H.
    destruct (run_step_function _ _ _ _ _) as [[y' yd']|]; simpl; auto.
  - destruct (dmp_step_invalid y yd c fn o H) as [e ->]. apply same_params_refl.
Qed.

(** The forcing term of a reachable object is the one built for the last
    accepted execution time, with other weights. *)
Definition ft_built (o : dmp) : Prop :=
  exists junk x f w, init_forcing_term junk (o_n_weights_per_dim o) x = Ok f
    /\ o_forcing_term o = set_ft_weights w f.

Lemma ft_built_same o o' : o_n_weights_per_dim o' = o_n_weights_per_dim o ->
  o_forcing_term o' = o_forcing_term o -> ft_built o -> ft_built o'.
Proof. intros E1 E2 (j & x & f & w & A & B). exists j, x, f, w. rewrite E1, E2. auto. Qed.

Lemma ft_built_weights o w : ft_built o ->
  ft_built (with_forcing_term (set_ft_weights w (o_forcing_term o)) o).
Proof.
  intros (j & x & f & w' & A & B). exists j, x, f, w. simpl. split; auto.
  rewrite B. reflexivity.
Qed.

Lemma dmp_configure_params c o :
  o_n_weights_per_dim (fst (dmp_configure c o)) = o_n_weights_per_dim o
  /\ o_forcing_term (fst (dmp_configure c o)) = o_forcing_term o.
Proof. unfold dmp_configure. destruct (configure c (o_base o)) as [p [e|]]; auto. Qed.

Lemma exec_ft_built c o : ft_built o -> ft_built (fst (exec c o)).
Proof.
  intros H. destruct c; simpl; auto.
  - destruct (dmp_configure_params c o) as [A B].
    destruct (dmp_configure c o) as [o1 r]; simpl in *. eapply ft_built_same; eauto.
  - pose proof (dmp_step_params last_y last_yd c fn o) as (_ & _ & A & _ & _ & _ & B & _).
    destruct (dmp_step last_y last_yd c fn o) as [o1 r]; simpl in *. eapply ft_built_same; eauto.
  - unfold dmp_imitate_method.
    destruct (dmp_imitate _ _ _ _ _ _ _ _ _ _ _ _) as [[[w sy] gy]|]; simpl; auto.
    destruct (negb _); simpl; auto.
    match goal with |- context [dmp_configure ?c ?o] =>
      destruct (dmp_configure_params c o) as [A B]; destruct (dmp_configure c o) as [o1 r] end.
    apply (ft_built_same (with_forcing_term (set_ft_weights w (o_forcing_term o)) o)); auto.
    now apply ft_built_weights.
  - unfold dmp_set_weights. destruct (reshape _ _ _); simpl; auto. now apply ft_built_weights.
  - unfold dmp_set_execution_time. cbn [o_n_weights_per_dim with_execution_time].
    destruct (init_forcing_term junk (o_n_weights_per_dim o) x) as [f|] eqn:E; simpl.
    + exists junk, x, f. eexists. split; [exact E|]. reflexivity.
    + eapply ft_built_same; [| |exact H]; reflexivity.
Qed.

Lemma exec_all_ft_built cs : forall o, ft_built o -> ft_built (fst (exec_all cs o)).
Proof.
  induction cs as [|c cs IH]; intros o H; [exact H|]. cbn [exec_all].
  pose proof (exec_ft_built c o H) as H1. destruct (exec c o) as [o1 x]. simpl in H1.
  pose proof (IH o1 H1). now destruct (exec_all cs o1).
Qed.

Lemma dmp_new_ft_built junk n x dt nw idt pg ss al be o :
  dmp_new junk n x dt nw idt pg ss al be = Ok o -> ft_built o.
Proof.
  unfold dmp_new. destruct (init_forcing_term junk nw x) as [f|] eqn:Ef; [|discriminate].
  cbn [bind]. destruct (ensure_1d_array al n) as [a|] eqn:Ea; [|discriminate].
  cbn [bind]. destruct (ensure_1d_array be n) as [b|] eqn:Eb; [|discriminate].
  cbn [bind]. intros H; inversion H; subst o. clear H.
  exists junk, x, f, (ft_weights f). simpl. split; auto. now destruct f.
Qed.
