(** Every history of a CartesianDMP has a history of a three-dimensional DMP that
    agrees with it in the positions.  Lemmas for Properties_CartesianHistory.v. *)
From Coq Require Import Reals List Arith Lia Lra Psatz FunctionalExtensionality.
From Verif Require Import M_Prelude M_Canonical M_Forcing M_Dmp M_Base M_DmpObject M_SpringDamper
  M_Quaternion M_Cartesian S_Loops S_Rotation S_Attributes P_Loops P_Canonical P_DmpStep P_DmpObject P_Converge
  P_Quaternion P_Cartesian P_Components Properties_Dmp Properties_DmpObject
  Properties_CartesianObject Properties_Attributes.
Import ListNotations.
Open Scope R_scope.
Set Bullet Behavior "Strict Subproofs".

(** The demonstrated positions. *)
Definition positions (dm : demo) : demo :=
  {| d_n := d_n dm; d_T := d_T dm; d_rows := d_rows dm; d_dims := 3;
     d_Y := fun t => slice 0 3 (d_Y dm t) |}.

(** The attributes of PointToPointMovement. *)
Record base_twin (p q : ptp) : Prop := {
  bt_dims : p_n_dims p = 7%nat; bt_vels : p_n_vel_dims p = 6%nat;
  bt_dims3 : p_n_dims q = 3%nat; bt_vels3 : p_n_vel_dims q = 3%nat;
  bt_t : p_t q = p_t p;
  bt_start : same3 (aget (p_start_y p)) (aget (p_start_y q));
  bt_start_yd : same3 (aget (p_start_yd p)) (aget (p_start_yd q));
  bt_goal : same3 (aget (p_goal_y p)) (aget (p_goal_y q))
}.

Record twin (o : cart) (d : dmp) : Prop := {
  tw_base : base_twin (k_base o) (o_base d);
  tw_time : o_execution_time d = k_execution_time o;
  tw_dt : o_dt d = k_dt o;
  tw_n : o_n_weights_per_dim d = k_n o;
  tw_ft_n : ft_n (k_fpos o) = k_n o;
  tw_int_dt : o_int_dt d = k_int_dt o;
  tw_gain : o_p_gain d = 0;
  tw_smooth : o_smooth_scaling d = k_smooth o;
  tw_ft : exists w, o_forcing_term d = set_ft_weights w (k_fpos o)
            /\ forall r i, (i < k_n o)%nat -> w r i = ft_weights (k_fpos o) r i;
  tw_alpha : aget (o_alpha_y d) = slice 0 3 (aget (k_alpha o));
  tw_beta : aget (o_beta_y d) = slice 0 3 (aget (k_beta o))
}.

Lemma set_ft_weights_forces f w z : (forall r i, (i < ft_n f)%nat -> w r i = ft_weights f r i) ->
  ft_forces (set_ft_weights w f) z = ft_forces f z.
Proof.
  intros H. unfold ft_forces. apply functional_extensionality. intros r.
  cbn [set_ft_weights ft_n ft_weights ft_centers ft_widths]. f_equal. apply rsum_ext.
  intros i Hi. now rewrite H.
Qed.

Lemma same3_of_slice u v : v = slice 0 3 u -> same3 u v.
Proof. intros -> j Hj. now apply slice3. Qed.

Lemma twin_position_part o d : twin o d -> position_part o d.
Proof.
  intros H. destruct H as [[] ? ? ? ? ? ? ? (w & Ew & Hw) ? ?].
  constructor; auto using same3_of_slice.
  - intros t. rewrite Ew. reflexivity.
  - intros z. rewrite Ew, set_ft_weights_forces; [intros j _; reflexivity|].
    intros r i Hi. apply Hw. congruence.
Qed.

(** *** [configure] *)
Definition cut (n : nat) (a : arr) : arr :=
  {| alen := if Nat.eqb (alen a) n then 3 else 4; aget := aget a |}.
Definition cut_args (c : configure_args) : configure_args :=
  {| c_t := c_t c; c_start_y := option_map (cut 7) (c_start_y c);
     c_start_yd := option_map (cut 6) (c_start_yd c); c_start_ydd := option_map (cut 6) (c_start_ydd c);
     c_goal_y := option_map (cut 7) (c_goal_y c); c_goal_yd := option_map (cut 6) (c_goal_yd c);
     c_goal_ydd := option_map (cut 6) (c_goal_ydd c) |}.

Definition steps_twin (r r' : ptp * option exn) : Prop := base_twin (fst r) (fst r') /\ snd r = snd r'.

Lemma block_twin x n n3 f g p q : (n = 7 \/ n = 6)%nat -> n3 = 3%nat -> base_twin p q ->
  (forall a, base_twin (f a p) (g (cut n a) q)) ->
  steps_twin (configure_block x n f p) (configure_block (option_map (cut n) x) n3 g q).
Proof.
  intros Hn -> H Hf. destruct x as [a|]; cbn; [|split; auto].
  unfold check_1d_array_length. cbn [cut alen].
  destruct (Nat.eqb_spec (alen a) n) as [E|E]; cbn; split; cbn; auto.
Qed.

Lemma and_then_twin r r' f f' : steps_twin r r' ->
  (forall p q, base_twin p q -> steps_twin (f p) (f' q)) -> steps_twin (and_then r f) (and_then r' f').
Proof.
  intros [H E] Hf. destruct r as [p e], r' as [q e']. cbn in *. subst e'.
  destruct e; cbn; [split; auto|]. now apply Hf.
Qed.

Lemma configure_twin c p q : base_twin p q -> steps_twin (configure c p) (configure (cut_args c) q).
Proof.
  intros H. unfold configure, cut_args.
  cbn [c_t c_start_y c_start_yd c_start_ydd c_goal_y c_goal_yd c_goal_ydd].
  assert (H1 : base_twin match c_t c with Some t => set_t t p | None => p end
                         match c_t c with Some t => set_t t q | None => q end).
  { destruct (c_t c); auto. destruct H; constructor; auto. }
  clear H. revert H1.
  generalize (match c_t c with Some t => set_t t p | None => p end) as p1,
             (match c_t c with Some t => set_t t q | None => q end) as q1.
  intros p1 q1 H1.
  apply and_then_twin; [|intros p2 q2 H2].
  { rewrite (bt_dims _ _ H1). apply block_twin; auto; [apply H1|].
    intros a. destruct H1; constructor; auto. intros j _; reflexivity. }
  apply and_then_twin; [|intros p3 q3 H3].
  { rewrite (bt_vels _ _ H2). apply block_twin; auto; [apply H2|].
    intros a. destruct H2; constructor; auto. intros j _; reflexivity. }
  apply and_then_twin; [|intros p4 q4 H4].
  { rewrite (bt_vels _ _ H3). apply block_twin; auto; [apply H3|].
    intros a. destruct H3; constructor; auto. }
  apply and_then_twin; [|intros p5 q5 H5].
  { rewrite (bt_dims _ _ H4). apply block_twin; auto; [apply H4|].
    intros a. destruct H4; constructor; auto. intros j _; reflexivity. }
  apply and_then_twin; [|intros p6 q6 H6].
  { rewrite (bt_vels _ _ H5). apply block_twin; auto; [apply H5|].
    intros a. destruct H5; constructor; auto. }
  rewrite (bt_vels _ _ H6). apply block_twin; auto; [apply H6|].
  intros a. destruct H6; constructor; auto.
Qed.

Lemma twin_base o d p q : twin o d -> base_twin p q -> twin (cart_with_base p o) (with_base q d).
Proof. intros H Hb. destruct H. constructor; auto. Qed.

Lemma cart_configure_twin c o d : twin o d ->
  twin (fst (cart_configure c o)) (fst (dmp_configure (cut_args c) d)).
Proof.
  intros H. unfold cart_configure, dmp_configure.
  destruct (configure_twin c _ _ (tw_base _ _ H)) as [A _].
  destruct (configure c (k_base o)), (configure (cut_args c) (o_base d)). cbn in *. now apply twin_base.
Qed.

(** *** [imitate] *)
Lemma dmp_imitate_dims j reg dm nw lam al be ov az allow sm w s g :
  dmp_imitate j reg 3 dm nw lam al be ov az allow sm = Ok (w, s, g) ->
  s = d_Y dm 0%nat /\ g = d_Y dm (d_n dm - 1)%nat.
Proof.
  unfold dmp_imitate. destruct (Rlt_dec lam 0); [discriminate|].
  destruct (Nat.eqb (d_n dm) 0); [discriminate|]. cbv zeta.
  destruct (forcing_term_init _ _ _ _ _ _ _); [|discriminate]. cbn [bind].
  destruct (negb _); [discriminate|]. destruct (negb _ && negb _)%bool; [discriminate|].
  destruct (determine_forces _ _ _ _ _ _ _ _); [|discriminate]. cbn [bind]. intros [= _ <- <-]. auto.
Qed.

Lemma twin_weights o d w w' : twin o d -> (forall r i, (i < k_n o)%nat -> w' r i = w r i) ->
  twin (cart_with_fpos (set_ft_weights w (k_fpos o)) o)
       (with_forcing_term (set_ft_weights w' (o_forcing_term d)) d).
Proof.
  intros H Hw. destruct H as [? ? ? ? ? ? ? ? (v & Ev & _) ? ?]. constructor; auto.
  exists w'. cbn. rewrite Ev. split; auto.
Qed.

Lemma twin_frot o d f : twin o d -> twin (cart_with_frot f o) d.
Proof. intros H. destruct H. constructor; auto. Qed.

Lemma imitate_twin jp jr reg dm lam al o d : twin o d ->
  snd (cart_imitate jp jr reg dm lam al o) = Ok tt ->
  twin (fst (cart_imitate jp jr reg dm lam al o))
       (fst (dmp_imitate_method jp reg (positions dm) lam al d)).
Proof.
  intros H. unfold cart_imitate, dmp_imitate_method.
  destruct (negb _); [discriminate|]. cbv zeta. fold (positions dm).
  rewrite (bt_dims3 _ _ (tw_base _ _ H)), (tw_n _ _ H), (tw_alpha _ _ H), (tw_beta _ _ H), (tw_smooth _ _ H).
  replace (ft_overlap (o_forcing_term d)) with (ft_overlap (k_fpos o))
    by (destruct (tw_ft _ _ H) as (w & -> & _); reflexivity).
  replace (ft_alpha_z (o_forcing_term d)) with (ft_alpha_z (k_fpos o))
    by (destruct (tw_ft _ _ H) as (w & -> & _); reflexivity).
  destruct (dmp_imitate _ _ _ _ _ _ _ _ _ _ _ _) as [[[w s] g]|] eqn:E; [|discriminate].
  apply dmp_imitate_dims in E. destruct E as [-> ->].
  cbn [positions d_dims Nat.eqb negb d_Y d_n].
  destruct (dmp_quaternion_imitation _ _ _ _ _ _ _ _ _ _ _ _ _) as [w2|] eqn:E2; [|discriminate].
  intros _.
  match goal with |- twin (fst (cart_configure ?c ?o1)) (fst (dmp_configure ?c3 ?d1)) =>
    assert (Ht : twin o1 d1) by (apply twin_frot, twin_weights; auto);
    pose proof (cart_configure_twin c o1 d1 Ht) as C
  end.
  revert C. unfold cart_configure, dmp_configure, configure, cut_args, configure_block, check_1d_array_length.
  cbn [c_t c_start_y c_start_yd c_start_ydd c_goal_y c_goal_yd c_goal_ydd option_map cut alen Nat.eqb].
  cbn [o_base with_forcing_term].
  rewrite (bt_dims3 _ _ (tw_base _ _ H)).
  cbn [and_then set_start_y set_goal_y p_n_dims Nat.eqb]. rewrite (bt_dims3 _ _ (tw_base _ _ H)).
  cbn [and_then set_start_y set_goal_y p_n_dims Nat.eqb fst].
  intros C. destruct C as [[] ? ? ? ? ? ? ? ? ? ?]. constructor; auto.
  constructor; auto.
  - intros j Hj. cbn. rewrite slice3 by auto. specialize (bt_start0 j Hj). cbn in bt_start0. auto.
  - intros j Hj. cbn. rewrite slice3 by auto. specialize (bt_goal0 j Hj). cbn in bt_goal0. auto.
Qed.

Lemma set_weights_twin w w' o d : twin o d -> (2 <= k_n o)%nat ->
  (forall r i, (i < k_n o)%nat -> aget w' (r * k_n o + i)%nat = w r i) -> alen w' = (3 * k_n o)%nat ->
  twin (cart_with_fpos (set_ft_weights w (k_fpos o)) o) (fst (exec (CSetWeights w') d)).
Proof.
  intros H Hn Hw Hl. cbn [exec]. unfold dmp_set_weights, reshape.
  rewrite (bt_dims3 _ _ (tw_base _ _ H)).
  replace (ft_n (o_forcing_term d)) with (k_n o)
    by (destruct (tw_ft _ _ H) as (v & -> & _); symmetry; apply (tw_ft_n _ _ H)).
  rewrite Hl, Nat.eqb_refl. cbn [fst]. apply twin_weights; auto.
Qed.

(** *** Histories *)
Definition stand_in (o : cart) : Prop := exists d, reachable 3 d /\ twin o d.

Lemma stand_in_new jp jr x dt n idt sm al be o : cart_new jp jr x dt n idt sm al be = Ok o ->
  stand_in o /\ (2 <= k_n o)%nat.
Proof.
  intros E. apply cart_new_inv in E.
  destruct E as (fp & fr & a & b & E1 & _ & Ea & Eb & ->).
  apply init_forcing_term_inv in E1 as F. destruct F as (Hn & _ & F). apply forcing_term_init_n in F.
  split; [|exact Hn].
  set (g v := {| shape := [3%nat]; data := slice 0 3 (aget v) |}).
  assert (Eg : forall v, ensure_1d_array (g v) 3 = Ok {| alen := 3; aget := slice 0 3 (aget v) |}) by reflexivity.
  eexists. split.
  - exists jp, x, dt, n, idt, 0, sm, (g a), (g b). eexists. exists []. split.
    + unfold dmp_new. rewrite E1. cbn [bind]. rewrite !Eg. cbn [bind]. reflexivity.
    + cbn [exec_all fst]. reflexivity.
  - constructor; cbn; auto.
    + constructor; cbn; auto; intros j Hj; reflexivity.
    + apply F.
    + exists (ft_weights fp). split; [destruct fp; reflexivity|auto].
Qed.

Lemma stand_in_exec c o : (2 <= k_n o)%nat -> stand_in o -> stand_in (cart_exec c o).
Proof.
  intros Hn (d & Hr & H). destruct c; cbn [cart_exec].
  - exists (fst (exec (CConfigure (cut_args c)) d)). split; [now apply reachable_exec|].
    cbn [exec]. pose proof (cart_configure_twin c o d H) as C.
    destruct (dmp_configure (cut_args c) d). exact C.
  - exists (fst (exec CReset d)). split; [now apply reachable_exec|]. cbn [exec fst].
    apply twin_base; auto. destruct (tw_base _ _ H). constructor; auto.
  - assert (G : forall p, base_twin p (o_base d) \/ base_twin p (set_t (p_t (k_base o) + k_dt o) (o_base d)) ->
       stand_in (cart_with_base p o)).
    { intros p [Hp|Hp].
      - exists d. split; auto. replace d with (with_base (o_base d) d) by (destruct d; reflexivity).
        now apply twin_base.
      - set (ct := {| c_t := Some (p_t (k_base o) + k_dt o); c_start_y := None; c_start_yd := None;
          c_start_ydd := None; c_goal_y := None; c_goal_yd := None; c_goal_ydd := None |}).
        exists (fst (exec (CConfigure ct) d)). split; [now apply reachable_exec|].
        cbn. now apply twin_base. }
    assert (G0 : stand_in o) by (exists d; auto).
    assert (G1 : forall t y yd, t = p_t (k_base o) + k_dt o -> stand_in (cart_with_base (set_current y yd
       (set_t t (set_last_t (Some (p_t (k_base o))) (k_base o)))) o)).
    { intros t y yd ->. apply G. right. destruct (tw_base _ _ H). constructor; auto. }
    assert (G2 : stand_in (cart_with_base (set_t (p_t (k_base o) + k_dt o) (set_last_t (Some (p_t (k_base o))) (k_base o))) o)).
    { apply G. right. destruct (tw_base _ _ H). constructor; auto. }
    unfold cart_step. destruct (negb _); [exact G0|]. destruct (negb _); [exact G0|]. cbv zeta.
    destruct (assign_slice _ _) as [y|]; [|exact G2].
    destruct (assign_slice _ _) as [yd|]; [|apply (G1 _ _ _ eq_refl)].
    destruct (run_step_function _ _ _ _ _) as [[yp ydp]|]; [|apply (G1 _ _ _ eq_refl)].
    destruct (q_step _ _ _ _ _) as [[q w]|]; apply (G1 _ _ _ eq_refl).
  - destruct (snd (cart_imitate junk_pos junk_rot regress dm lam allow o)) as [[]|e] eqn:E.
    + exists (fst (exec (CImitate junk_pos regress (positions dm) lam allow) d)).
      split; [now apply reachable_exec|]. cbn [exec].
      pose proof (imitate_twin _ _ _ _ _ _ _ _ H E) as T.
      destruct (dmp_imitate_method junk_pos regress (positions dm) lam allow d). exact T.
    + revert E. unfold cart_imitate. destruct (negb _); [intros _; exists d; auto|]. cbv zeta.
      destruct (dmp_imitate _ _ _ _ _ _ _ _ _ _ _ _) as [[[w s] g]|] eqn:E1; [|intros _; exists d; auto].
      destruct (dmp_quaternion_imitation _ _ _ _ _ _ _ _ _ _ _ _ _) as [w2|].
      * unfold cart_configure, configure, configure_block, check_1d_array_length.
        cbn [c_t c_start_y c_start_yd c_start_ydd c_goal_y c_goal_yd c_goal_ydd alen k_base cart_with_frot cart_with_fpos].
        rewrite (bt_dims _ _ (tw_base _ _ H)). cbn. rewrite (bt_dims _ _ (tw_base _ _ H)). cbn. discriminate.
      * intros _. cbn [fst]. set (w3 := ravel 3 (k_n o) w).
        exists (fst (exec (CSetWeights w3) d)). split; [now apply reachable_exec|].
        apply set_weights_twin; auto. intros r i Hi. unfold w3. cbn [ravel aget].
        rewrite Nat.div_add_l, Nat.div_small, Nat.add_0_r by lia.
        rewrite Nat.add_comm, Nat.mod_add, Nat.mod_small by lia. reflexivity.
  - unfold cart_set_weights. cbv zeta.
    assert (G : forall wp, assign_rows {| alen := Nat.min (alen w) (3 * k_n o); aget := aget w |} (k_n o) = Ok wp ->
      exists d', reachable 3 d' /\ twin (cart_with_fpos (set_ft_weights wp (k_fpos o)) o) d').
    { intros wp. unfold assign_rows. cbn [alen aget].
      destruct (negb _); [discriminate|]. destruct (Nat.eqb _ 3).
      - intros [= <-]. exists (fst (exec (CSetWeights {| alen := 3 * k_n o; aget := aget w |}) d)).
        split; [now apply reachable_exec|]. now apply set_weights_twin.
      - destruct (Nat.eqb _ 1); [|discriminate]. intros [= <-].
        exists (fst (exec (CSetWeights {| alen := 3 * k_n o; aget := fun k => aget w (k mod k_n o)%nat |}) d)).
        split; [now apply reachable_exec|]. apply set_weights_twin; auto.
        intros r i Hi. cbn [aget]. rewrite Nat.add_comm, Nat.mod_add, Nat.mod_small by lia. reflexivity. }
    destruct (assign_rows _ _) as [wp|] eqn:Ep; [|exists d; auto].
    destruct (G wp eq_refl) as (d' & Hr' & H'). clear G Ep. exists d'. split; auto.
    destruct (assign_rows _ _) as [wr|]; cbn [fst]; [|exact H']. now apply twin_frot.
  - exists (fst (exec (CSetExecutionTime junk_pos x) d)). split; [now apply reachable_exec|].
    cbn [exec]. unfold cart_set_execution_time, dmp_set_execution_time. cbv zeta.
    cbn [k_n cart_with_time o_n_weights_per_dim with_execution_time]. rewrite (tw_n _ _ H).
    destruct (init_forcing_term junk_pos (k_n o) x) as [fp|] eqn:E1.
    + destruct (init_forcing_term_inv _ _ _ _ E1) as (H2 & Hx & F). apply forcing_term_init_n in F.
      destruct (init_forcing_term_accepts junk_rot (k_n o) x H2 Hx) as [fr E2]. rewrite E2. cbn [fst].
      destruct H as [? ? ? ? ? ? ? ? (v & Ev & Hv) ? ?]. constructor; auto.
      * apply F.
      * exists v. cbn. rewrite Ev. cbn. auto.
    + cbn [fst]. destruct H. constructor; auto.
  - exists (fst (exec (CSetDt x) d)). split; [now apply reachable_exec|]. destruct H. constructor; auto.
  - exists (fst (exec (CSetIntDt x) d)). split; [now apply reachable_exec|]. destruct H. constructor; auto.
Qed.

Lemma cart_exec_n c o : k_n (cart_exec c o) = k_n o.
Proof.
  destruct c; cbn [cart_exec]; auto.
  - unfold cart_configure. destruct (configure _ _). reflexivity.
  - unfold cart_step. destruct (negb _); auto. destruct (negb _); auto. cbv zeta.
    destruct (assign_slice _ _); auto. destruct (assign_slice _ _); auto.
    destruct (run_step_function _ _ _ _ _) as [[? ?]|]; auto. destruct (q_step _ _ _ _ _) as [[? ?]|]; auto.
  - unfold cart_imitate. destruct (negb _); auto. cbv zeta.
    destruct (dmp_imitate _ _ _ _ _ _ _ _ _ _ _ _) as [[[? ?] ?]|]; auto.
    destruct (dmp_quaternion_imitation _ _ _ _ _ _ _ _ _ _ _ _ _); auto.
    unfold cart_configure. destruct (configure _ _). reflexivity.
  - unfold cart_set_weights. cbv zeta. destruct (assign_rows _ _); auto. destruct (assign_rows _ _); auto.
  - unfold cart_set_execution_time. cbv zeta.
    destruct (init_forcing_term _ _ _); auto. destruct (init_forcing_term _ _ _); auto.
Qed.

Lemma cart_made_stand_in o : cart_made o -> stand_in o /\ (2 <= k_n o)%nat.
Proof.
  intros (jp & jr & x & dt & n & idt & sm & al & be & o0 & cs & E & ->).
  apply stand_in_new in E. revert o0 E. unfold cart_history.
  induction cs as [|c cs IH]; intros o0 [H Hn]; [auto|]. cbn [fold_left]. apply IH.
  split; [now apply stand_in_exec|now rewrite cart_exec_n].
Qed.
