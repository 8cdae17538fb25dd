(** C37, C27, C69 (CartesianDMP objects).  Final statements. *)
From Coq Require Import Reals List Arith Lia Lra Psatz FunctionalExtensionality.
From Verif Require Import M_Prelude M_Canonical M_Forcing M_Dmp M_Base M_DmpObject M_SpringDamper
  M_Quaternion M_Cartesian S_Loops S_Rotation P_Loops P_Canonical P_DmpStep P_DmpObject P_Converge
  P_Quaternion P_Cartesian P_Components Properties_Dmp Properties_SpringDamper Properties_Cartesian.
Import ListNotations.
Open Scope R_scope.
Set Bullet Behavior "Strict Subproofs".

(** ** C37 *)
(** The first three components of two vectors agree. *)
Definition same3 (u v : vec) : Prop := forall j, (j < 3)%nat -> v j = u j.

(** [d] is a three-dimensional DMP object with the clock, durations, gains, start,
    goal and position weights of the CartesianDMP object [o]. *)
Record position_part (o : cart) (d : dmp) : Prop := {
  pp_dims : p_n_dims (o_base d) = 3%nat;
  pp_t : p_t (o_base d) = p_t (k_base o);
  pp_time : o_execution_time d = k_execution_time o;
  pp_dt : o_dt d = k_dt o;
  pp_int_dt : o_int_dt d = k_int_dt o;
  pp_gain : o_p_gain d = 0;
  pp_smooth : o_smooth_scaling d = k_smooth o;
  pp_phase : forall t, ft_phase (o_forcing_term d) t = ft_phase (k_fpos o) t;
  pp_forces : forall z, same3 (ft_forces (k_fpos o) z) (ft_forces (o_forcing_term d) z);
  pp_alpha : same3 (aget (k_alpha o)) (aget (o_alpha_y d));
  pp_beta : same3 (aget (k_beta o)) (aget (o_beta_y d));
  pp_start : same3 (aget (p_start_y (k_base o))) (aget (p_start_y (o_base d)));
  pp_start_yd : same3 (aget (p_start_yd (k_base o))) (aget (p_start_yd (o_base d)));
  pp_goal : same3 (aget (p_goal_y (k_base o))) (aget (p_goal_y (o_base d)))
}.

(** The DMP object [d] continues from the position and linear velocity in [y], [yd]. *)
Definition at_state (d : dmp) (y yd : arr) : Prop :=
  let p := o_base d in
  let cy := if o_initialized d then p_current_y p else p_start_y p in
  let cyd := if o_initialized d then p_current_yd p else p_start_yd p in
  same3 (aget y) (aget cy) /\ same3 (aget yd) (aget cyd) /\ alen cy = 3%nat /\ alen cyd = 3%nat.

(** [y[:3]] *)
Definition first3 (y : arr) : arr := {| alen := 3; aget := aget y |}.

(** Two coupling terms (or none) that agree on the first three components, when
    called with arguments that agree on the first three components. *)
Definition same_coupling3 (c c' : option coupling) : Prop :=
  match c, c' with
  | None, None => True
  | Some c, Some c' => forall y y' v v', same3 y y' -> same3 v v' ->
      same3 (fst (c y v)) (fst (c' y' v')) /\ same3 (snd (c y v)) (snd (c' y' v'))
  | _, _ => False
  end.

Lemma slice3 v j : (j < 3)%nat -> slice 0 3 v j = v j.
Proof. intros H. unfold slice. destruct (Nat.ltb_spec j 3); [reflexivity|lia]. Qed.

Definition lt3 (j : nat) : Prop := (j < 3)%nat.
Definition id3 (j : nat) : nat := j.

Lemma same3_slice u v : same3 u v -> veq lt3 id3 (slice 0 3 u) v.
Proof. intros H j Hj. rewrite slice3 by exact Hj. now apply H. Qed.

Lemma pose3 y q j : (j < 3)%nat -> aget (pose y q) j = y j.
Proof. intros H. unfold pose. cbn [aget]. destruct (Nat.ltb_spec j 3); [reflexivity|lia]. Qed.
Lemma twist3 y q j : (j < 3)%nat -> aget (twist y q) j = y j.
Proof. intros H. unfold twist. cbn [aget]. destruct (Nat.ltb_spec j 3); [reflexivity|lia]. Qed.

Lemma position_part_agree o d c c3 te : position_part o d -> same_coupling3 (option_map fst c) c3 ->
  agree_on lt3 id3 (cart_pos_args o c) (step_args d c3 te).
Proof.
  intros H Hc. destruct H. constructor; cbn [cart_pos_args step_args a_goal_y a_start_y a_goal_t a_start_t
    a_alpha_y a_beta_y a_forcing_term a_coupling_term a_precomputed a_int_dt a_smooth_scaling
    a_p_gain a_tracking_error]; auto using same3_slice.
  intros j _. rewrite pp_gain0. ring.
Qed.

Lemma position_part_same o d o' d' : position_part o d -> same_cart o o' -> same_params d d' ->
  p_t (o_base d') = p_t (k_base o') -> position_part o' d'.
Proof.
  intros H Ho Hd Ht. destruct H.
  destruct Ho as (A1 & A2 & A3 & A4 & A5 & A6 & A7 & A8 & A9 & A10 & A11 & A12 & A13 & A14 & A15).
  destruct Hd as (B1 & B2 & B3 & B4 & B5 & B6 & B7 & B8 & B9 & B10 & B11 & B12 & B13 & B14 & B15 & B16 & B17).
  constructor; try congruence; intros; rewrite ?B7, ?A6, ?B8, ?B9, ?A8, ?A9, ?B12, ?A10, ?B13, ?A11, ?B15, ?A13; auto.
Qed.

Lemma at_state_norm d y yd : at_state d y yd ->
  same3 (aget y) (aget (p_current_y (o_base (norm d))))
  /\ same3 (aget yd) (aget (p_current_yd (o_base (norm d))))
  /\ alen (p_current_y (o_base (norm d))) = 3%nat /\ alen (p_current_yd (o_base (norm d))) = 3%nat.
Proof. unfold at_state, norm. destruct (o_initialized d); cbn; auto. Qed.

(** The positions and linear velocities after any number of calls of
    CartesianDMP.step (feeding back the returned state) are those of the
    three-dimensional DMP, for all step functions and whatever the orientation part
    of the object and of the state is. *)
Theorem C37_position_is_dmp : forall n fn i c c3 o d y yd y3 yd3 o' y' yd',
  alen (p_current_y (k_base o)) = 7%nat -> alen (p_current_yd (k_base o)) = 6%nat ->
  position_part o d -> at_state d y yd -> same_coupling3 (option_map fst c) c3 ->
  alen y3 = 3%nat -> alen yd3 = 3%nat -> same3 (aget y) (aget y3) -> same3 (aget yd) (aget yd3) ->
  cart_n_steps c fn i n y yd o = (o', Ok (y', yd')) ->
  exists d' y3' yd3', n_steps_open_loop c3 (Some fn) n y3 yd3 d = (d', Ok (y3', yd3'))
    /\ same3 (aget y') (aget y3') /\ same3 (aget yd') (aget yd3').
Proof.
  induction n as [|n IH];
    intros fn i c c3 o d y yd y3 yd3 o' y' yd' H7 H6 Hpp Hat Hc Hl3 Hld3 Hy3 Hyd3 E.
  - simpl in E. injection E as <- <- <-. exists d, y3, yd3. auto.
  - cbn [cart_n_steps] in E. destruct (cart_step y yd c fn i o) as [o1 [[y1 yd1]|]] eqn:E1; [|discriminate].
    destruct (cart_step_ok _ _ _ _ _ _ _ _ _ E1 H7 H6)
      as (yp & ydp & q & w & Ep & Eq & -> & -> & Hsame & Ht & H7' & H6').
    cbn [n_steps_open_loop]. rewrite dmp_step_eq by (rewrite (pp_dims _ _ Hpp); auto). cbv zeta.
    destruct (at_state_norm _ _ _ Hat) as (N1 & N2 & N3 & N4).
    pose proof (norm_params d) as Hnp. pose proof (tick_params (norm d)) as Htp.
    assert (Htn : p_t (o_base (norm d)) = p_t (o_base d)) by (unfold norm; destruct (o_initialized d); reflexivity).
    assert (Hpn : position_part o (norm d)).
    { eapply position_part_same; [exact Hpp| |exact Hnp|rewrite Htn; apply (pp_t _ _ Hpp)].
      unfold same_cart; repeat split. }
    change (p_current_y (o_base (tick (norm d)))) with (p_current_y (o_base (norm d))).
    change (p_current_yd (o_base (tick (norm d)))) with (p_current_yd (o_base (norm d))).
    set (te := vsub _ _).
    change (step_args (tick (norm d)) c3 te) with (step_args (norm d) c3 te).
    rewrite (pp_t _ _ Hpp), (pp_dt _ _ Hpp).
    pose proof (step_on lt3 id3 fn (cart_pos_args o c) (step_args (norm d) c3 te)
      (p_t (k_base o)) (p_t (k_base o) + k_dt o)
      (slice 0 3 (aget y), slice 0 3 (aget yd))
      (aget (p_current_y (o_base (norm d))), aget (p_current_yd (o_base (norm d))))) as HS.
    unfold res_on in HS.
    rewrite Ep in HS.
    assert (HS' := HS (position_part_agree _ _ _ _ te Hpn Hc)). clear HS.
    cbn [cart_pos_args a_start_t a_start_yd step_args] in HS'.
    specialize (HS' (fun _ => same3_slice _ _ (pp_start_yd _ _ Hpn))).
    specialize (HS' (conj (same3_slice _ _ N1) (same3_slice _ _ N2))).
    destruct (run_step_function fn (step_args (norm d) c3 te) _ _ _) as [[yp' ydp']|]; [|contradiction].
    destruct HS' as [S1 S2]. change (same3 yp yp') in S1. change (same3 ydp ydp') in S2.
    set (d1 := with_base _ _).
    assert (Hs1 : same_params d d1).
    { eapply same_params_trans; [exact Hnp|]. unfold d1, same_params; cbn; repeat split. }
    eapply (IH fn i c c3 o1 d1); [exact H7'|exact H6'| | |exact Hc| | | | |exact E].
    + eapply position_part_same; [exact Hpp|exact Hsame|exact Hs1|].
      unfold d1. cbn. rewrite Ht, Htn.
      replace (o_dt (norm d)) with (o_dt d) by (destruct Hnp as (_ & -> & _); reflexivity).
      now rewrite (pp_t _ _ Hpp), (pp_dt _ _ Hpp).
    + unfold at_state, d1. cbn [o_initialized with_base tick].
      assert (Hi : o_initialized (norm d) = true) by (unfold norm; destruct (o_initialized d) eqn:X; auto).
      cbn [o_base p_current_y p_current_yd set_current with_base tick]. rewrite Hi.
      cbn [o_base p_current_y p_current_yd set_current with_base tick aget alen].
      rewrite N3, N4. repeat split; intros j Hj; rewrite ?pose3, ?twist3 by auto; auto.
    + exact N3.
    + exact N4.
    + intros j Hj. cbn [aget]. rewrite pose3 by auto. apply (S1 j Hj).
    + intros j Hj. cbn [aget]. rewrite twist3 by auto. apply (S2 j Hj).
Qed.

(** The trajectory of open_loop: same times, same positions. *)
Theorem C37_open_loop_position_is_dmp : forall run_t fn i c c3 o d ts ys,
  position_part o d -> same_coupling3 (option_map fst c) c3 ->
  cart_open_loop run_t c (Some fn) (Some i) o = Ok (ts, ys) ->
  exists ys3, dmp_open_loop run_t c3 (Some fn) d = Ok (ts, ys3)
    /\ Forall2 (fun y y3 => same3 (aget y) y3) ys ys3.
Proof.
  intros run_t fn i c c3 o d ts ys Hpp Hc E. unfold cart_open_loop in E. cbv zeta in E.
  set (rt := match run_t with Some x => x | None => k_execution_time o end) in *.
  destruct (open_loop_run _ _ _ _ _ _) as [[tp lp]|] eqn:Ep; [|discriminate]. cbn [bind] in E.
  destruct (q_open_loop _ _ _ _) as [[tr lr]|] eqn:Er; [|discriminate].
  cbn [bind fst snd] in E. injection E as <- <-.
  unfold dmp_open_loop. rewrite (pp_time _ _ Hpp), (pp_dt _ _ Hpp). fold rt.
  pose proof (run_on_grid_rel (same_on lt3 id3)
    (run_step_function fn (cart_pos_open_args o c))
    (run_step_function fn (open_loop_step_args d c3)) 0 rt (k_dt o)
    (a_start_y (cart_pos_open_args o c), vzero) (aget (p_start_y (o_base d)), vzero)) as HR.
  change (open_loop_run (run_step_function fn (cart_pos_open_args o c)) 0 rt (k_dt o)
            (a_start_y (cart_pos_open_args o c)) vzero)
    with (run_on_grid (run_step_function fn (cart_pos_open_args o c)) 0 rt (k_dt o)
            (a_start_y (cart_pos_open_args o c), vzero)) in Ep.
  change (open_loop_run (run_step_function fn (open_loop_step_args d c3)) 0 rt (k_dt o)
            (aget (p_start_y (o_base d))) vzero)
    with (run_on_grid (run_step_function fn (open_loop_step_args d c3)) 0 rt (k_dt o)
            (aget (p_start_y (o_base d)), vzero)).
  rewrite Ep in HR.
  destruct (run_on_grid (run_step_function fn (open_loop_step_args d c3)) _ _ _ _) as [[t3 l3]|];
    cbv beta iota in HR.
  - destruct HR as [<- HF].
    + intros a b s s' Hs. apply step_on; auto; [|intros _ j _; reflexivity].
      destruct Hpp. constructor; cbn [cart_pos_open_args cart_pos_args open_loop_step_args a_goal_y
        a_start_y a_goal_t a_start_t
        a_alpha_y a_beta_y a_forcing_term a_coupling_term a_precomputed a_int_dt a_smooth_scaling
        a_p_gain a_tracking_error]; auto using same3_slice.
    + split; [|intros j _; reflexivity]. cbn. apply same3_slice, (pp_start _ _ Hpp).
    + exists (map fst l3). split; [reflexivity|].
      assert (Hlen : length lp = length lr).
      { destruct (run_on_grid_seq _ _ _ _ _ _ _ Ep) as [L1 _].
        unfold q_open_loop in Er.
        destruct (run_on_grid_seq _ _ _ _ _ _ _ Er) as [L2 _].
        rewrite L1, L2. unfold run_on_grid in Ep, Er.
        change (g_start_t (cart_rot_open_args o c)) with 0 in Er.
        destruct (arange 0 (rt + k_dt o) (k_dt o)); [discriminate|].
        destruct (run_steps _ _ _ _); [|discriminate]. cbn [bind] in Ep.
        destruct (run_steps _ _ _ _) in Er; [|discriminate]. cbn [bind] in Er. congruence. }
      clear Ep Er. revert lr Hlen. induction HF as [|[y v] [y' v'] lp l3 [Hy _] HF IH]; intros lr Hlen.
      * constructor.
      * destruct lr as [|r lr]; [discriminate|]. cbn [combine map]. constructor.
        -- intros j Hj. cbn [fst snd] in *. rewrite pose3 by auto. apply (Hy j Hj).
        -- apply IH. simpl in Hlen. congruence.
  - exfalso. apply HR.
    + intros a b s s' Hs. apply step_on; auto; [|intros _ j _; reflexivity].
      destruct Hpp. constructor; cbn [cart_pos_open_args cart_pos_args open_loop_step_args a_goal_y
        a_start_y a_goal_t a_start_t
        a_alpha_y a_beta_y a_forcing_term a_coupling_term a_precomputed a_int_dt a_smooth_scaling
        a_p_gain a_tracking_error]; auto using same3_slice.
    + split; [|intros j _; reflexivity]. cbn. apply same3_slice, (pp_start _ _ Hpp).
Qed.

(** Two objects whose orientation parts agree; everything about positions may differ. *)
Record same_orientation_part (o o2 : cart) : Prop := {
  op_t : p_t (k_base o2) = p_t (k_base o);
  op_time : k_execution_time o2 = k_execution_time o;
  op_dt : k_dt o2 = k_dt o; op_int_dt : k_int_dt o2 = k_int_dt o;
  op_smooth : k_smooth o2 = k_smooth o;
  op_frot : k_frot o2 = k_frot o;
  op_alpha : angular (k_alpha o2) = angular (k_alpha o);
  op_beta : angular (k_beta o2) = angular (k_beta o);
  op_start : orientation (p_start_y (k_base o2)) = orientation (p_start_y (k_base o));
  op_start_yd : angular (p_start_yd (k_base o2)) = angular (p_start_yd (k_base o));
  op_goal : orientation (p_goal_y (k_base o2)) = orientation (p_goal_y (k_base o))
}.

Lemma rot_args_eq o o2 c c2 : same_orientation_part o o2 -> option_map snd c2 = option_map snd c ->
  cart_rot_args o2 c2 = cart_rot_args o c.
Proof.
  intros [] Hc. unfold cart_rot_args.
  change (v3_of (slice 3 3 (aget (k_alpha ?x)))) with (angular (k_alpha x)).
  change (v3_of (slice 3 3 (aget (k_beta ?x)))) with (angular (k_beta x)).
  change (v3_of (slice 3 3 (aget (p_start_yd (k_base ?x))))) with (angular (p_start_yd (k_base x))).
  change (quat_of (slice 3 4 (aget (p_start_y (k_base ?x))))) with (orientation (p_start_y (k_base x))).
  change (quat_of (slice 3 4 (aget (p_goal_y (k_base ?x))))) with (orientation (p_goal_y (k_base x))).
  congruence.
Qed.

Lemma same_orientation_part_step o o2 o' o2' : same_orientation_part o o2 ->
  same_cart o o' -> same_cart o2 o2' -> p_t (k_base o2') = p_t (k_base o') ->
  same_orientation_part o' o2'.
Proof.
  intros [] A B Ht.
  destruct A as (A1 & A2 & A3 & A4 & A5 & A6 & A7 & A8 & A9 & A10 & A11 & A12 & A13 & A14 & A15).
  destruct B as (B1 & B2 & B3 & B4 & B5 & B6 & B7 & B8 & B9 & B10 & B11 & B12 & B13 & B14 & B15).
  constructor; congruence.
Qed.

(** The orientations and angular velocities do not depend on anything that belongs
    to the positions: weights, gains, start, goal, state, step function, coupling. *)
Theorem C37_orientation_independent : forall n fn fn2 i c c2 o o2 y yd y2 yd2 o' y' yd' o2' y2' yd2',
  alen (p_current_y (k_base o)) = 7%nat -> alen (p_current_yd (k_base o)) = 6%nat ->
  alen (p_current_y (k_base o2)) = 7%nat -> alen (p_current_yd (k_base o2)) = 6%nat ->
  same_orientation_part o o2 -> option_map snd c2 = option_map snd c ->
  orientation y2 = orientation y -> angular yd2 = angular yd ->
  cart_n_steps c fn i n y yd o = (o', Ok (y', yd')) ->
  cart_n_steps c2 fn2 i n y2 yd2 o2 = (o2', Ok (y2', yd2')) ->
  orientation y2' = orientation y' /\ angular yd2' = angular yd'.
Proof.
  induction n as [|n IH];
    intros fn fn2 i c c2 o o2 y yd y2 yd2 o' y' yd' o2' y2' yd2' H7 H6 G7 G6 Hsp Hc Hq Hw E F.
  - simpl in E, F. injection E as <- <- <-. injection F as <- <- <-. auto.
  - cbn [cart_n_steps] in E, F.
    destruct (cart_step y yd c fn i o) as [o1 [[y1 yd1]|]] eqn:E1; [|discriminate].
    destruct (cart_step y2 yd2 c2 fn2 i o2) as [o3 [[y3 yd3]|]] eqn:F1; [|discriminate].
    destruct (cart_step_ok _ _ _ _ _ _ _ _ _ E1 H7 H6)
      as (yp & ydp & q & w & Ep & Eq & -> & -> & Hsame & Ht & H7' & H6').
    destruct (cart_step_ok _ _ _ _ _ _ _ _ _ F1 G7 G6)
      as (yp3 & ydp3 & q3 & w3 & Ep3 & Eq3 & -> & -> & Hsame3 & Ht3 & G7' & G6').
    rewrite (rot_args_eq _ _ _ _ Hsp Hc), (op_t _ _ Hsp), (op_dt _ _ Hsp), Hq, Hw, Eq in Eq3.
    injection Eq3 as <- <-.
    eapply (IH fn fn2 i c c2 o1 o3); [exact H7'|exact H6'|exact G7'|exact G6'| |exact Hc| | |exact E|exact F].
    + apply (same_orientation_part_step o o2); auto. rewrite Ht3, Ht, (op_t _ _ Hsp), (op_dt _ _ Hsp). reflexivity.
    + now rewrite !orientation_pose.
    + now rewrite !angular_twist.
Qed.

Theorem C37_open_loop_orientation_independent : forall run_t fn fn2 i c c2 o o2 ts ys ts2 ys2,
  same_orientation_part o o2 -> option_map snd c2 = option_map snd c ->
  cart_open_loop run_t c (Some fn) (Some i) o = Ok (ts, ys) ->
  cart_open_loop run_t c2 (Some fn2) (Some i) o2 = Ok (ts2, ys2) ->
  ts2 = ts /\ map orientation ys2 = map orientation ys.
Proof.
  assert (HL : forall run_t fn i c o ts ys,
    cart_open_loop run_t c (Some fn) (Some i) o = Ok (ts, ys) ->
    exists l, q_open_loop i (cart_rot_open_args o c) (k_dt o)
      (match run_t with Some x => x | None => k_execution_time o end) = Ok (ts, l)
      /\ map orientation ys = map fst l).
  { intros run_t fn i c o ts ys E. unfold cart_open_loop in E. cbv zeta in E.
    set (rt := match run_t with Some x => x | None => k_execution_time o end) in *.
    destruct (open_loop_run _ _ _ _ _ _) as [[tp lp]|] eqn:Ep; [|discriminate]. cbn [bind] in E.
    destruct (q_open_loop _ _ _ _) as [[tr lr]|] eqn:Er; [|discriminate].
    cbn [bind fst snd] in E. injection E as <- <-. exists lr.
    change (open_loop_run (run_step_function fn (cart_pos_open_args o c)) 0 rt (k_dt o)
            (a_start_y (cart_pos_open_args o c)) vzero)
      with (run_on_grid (run_step_function fn (cart_pos_open_args o c)) 0 rt (k_dt o)
            (a_start_y (cart_pos_open_args o c), vzero)) in Ep.
    destruct (run_on_grid_seq _ _ _ _ _ _ _ Ep) as [L1 _].
    destruct (run_on_grid_seq _ _ _ _ _ _ _ Er) as [L2 _].
    assert (Htt : tp = tr).
    { unfold q_open_loop, run_on_grid in Ep, Er.
      change (g_start_t (cart_rot_open_args o c)) with 0 in Er.
      destruct (arange 0 (rt + k_dt o) (k_dt o)); [discriminate|].
      destruct (run_steps _ _ _ _); [|discriminate]. cbn [bind] in Ep.
      destruct (run_steps _ _ _ _) in Er; [|discriminate]. cbn [bind] in Er. congruence. }
    split; [congruence|]. rewrite Htt in L1. rewrite <- L2 in L1. clear -L1.
    revert lr L1. induction lp as [|p lp IH]; intros [|r lr] L; try discriminate; [reflexivity|].
    cbn [combine map fst snd]. rewrite orientation_pose, IH; [reflexivity|]. simpl in L. congruence. }
  intros run_t fn fn2 i c c2 o o2 ts ys ts2 ys2 Hsp Hc E F.
  apply HL in E. apply HL in F. destruct E as (l & E & ->). destruct F as (l2 & F & ->).
  assert (Ha : cart_rot_open_args o2 c2 = cart_rot_open_args o c).
  { unfold cart_rot_open_args. rewrite (rot_args_eq _ _ _ _ Hsp Hc). destruct Hsp. congruence. }
  rewrite Ha, (op_dt _ _ Hsp) in F.
  destruct run_t; [|rewrite (op_time _ _ Hsp) in F]; rewrite E in F; injection F as <- <-; auto.
Qed.

(** Two objects that agree in clock and parameters give the same results, however
    different their current states and earlier clock values are. *)
Theorem C37_no_memory : forall y yd c fn i o o2,
  alen (p_current_y (k_base o)) = 7%nat -> alen (p_current_yd (k_base o)) = 6%nat ->
  alen (p_current_y (k_base o2)) = 7%nat -> alen (p_current_yd (k_base o2)) = 6%nat ->
  same_cart o o2 -> p_t (k_base o2) = p_t (k_base o) ->
  snd (cart_step y yd c fn i o2) = snd (cart_step y yd c fn i o).
Proof.
  intros y yd c fn i o o2 H7 H6 G7 G6 H Ht. unfold cart_step.
  destruct (Nat.eqb_spec (alen y) 7) as [Hy|]; cbn [negb]; [|reflexivity].
  destruct (Nat.eqb_spec (alen yd) 6) as [Hyd|]; cbn [negb]; [|reflexivity]. cbv zeta.
  unfold assign_slice. cbn [set_t set_last_t p_current_y p_current_yd].
  rewrite Hy, Hyd, H7, H6, G7, G6, !Nat.eqb_refl.
  change (cart_pos_args (cart_with_base (set_current y yd (set_t ?a (set_last_t ?b (k_base ?x)))) (cart_with_base ?d ?x)) c)
    with (cart_pos_args x c).
  change (cart_rot_args (cart_with_base (set_current y yd (set_t ?a (set_last_t ?b (k_base ?x)))) (cart_with_base ?d ?x)) c)
    with (cart_rot_args x c).
  destruct H as (A1 & A2 & A3 & A4 & A5 & A6 & A7 & A8 & A9 & A10 & A11 & A12 & A13 & A14 & A15).
  assert (cart_pos_args o2 c = cart_pos_args o c) as -> by (unfold cart_pos_args; congruence).
  assert (cart_rot_args o2 c = cart_rot_args o c) as -> by (unfold cart_rot_args; congruence).
  rewrite Ht, A2.
  destruct (run_step_function _ _ _ _ _) as [[? ?]|]; [|reflexivity].
  destruct (q_step _ _ _ _ _) as [[? ?]|]; reflexivity.
Qed.

(** ** Reachable objects *)
(** Everything that can be done with a CartesianDMP object; failed calls included. *)
Inductive cart_reachable : cart -> Prop :=
| cr_new : forall jp jr x dt n int_dt sm al be o,
    cart_new jp jr x dt n int_dt sm al be = Ok o -> cart_reachable o
| cr_configure : forall c o, cart_reachable o -> cart_reachable (fst (cart_configure c o))
| cr_reset : forall o, cart_reachable o -> cart_reachable (cart_reset o)
| cr_step : forall y yd c fn i o, cart_reachable o -> cart_reachable (fst (cart_step y yd c fn i o))
| cr_imitate : forall jp jr reg dm lam al o, cart_reachable o ->
    cart_reachable (fst (cart_imitate jp jr reg dm lam al o))
| cr_set_weights : forall w o, cart_reachable o -> cart_reachable (fst (cart_set_weights w o))
| cr_set_execution_time : forall jp jr x o, cart_reachable o ->
    cart_reachable (fst (cart_set_execution_time jp jr x o)).

Definition cart_shapes (o : cart) : Prop :=
  let p := k_base o in
  p_n_dims p = 7%nat /\ p_n_vel_dims p = 6%nat
  /\ alen (p_start_y p) = 7%nat /\ alen (p_start_yd p) = 6%nat /\ alen (p_start_ydd p) = 6%nat
  /\ alen (p_goal_y p) = 7%nat /\ alen (p_goal_yd p) = 6%nat /\ alen (p_goal_ydd p) = 6%nat
  /\ alen (p_current_y p) = 7%nat /\ alen (p_current_yd p) = 6%nat
  /\ alen (k_alpha o) = 6%nat /\ alen (k_beta o) = 6%nat /\ (2 <= k_n o)%nat.

Lemma configured_cart_shapes c o : cart_shapes o -> configure_valid c (k_base o) ->
  cart_shapes (cart_with_base (configured c (k_base o)) o).
Proof.
  intros (H0 & H0' & H1 & H2 & H3 & H4 & H5 & H6 & H7 & H8 & H9 & H10 & H11) (V1 & V2 & V3 & V4 & V5 & V6).
  unfold cart_shapes; simpl. rewrite H0, H0' in *.
  destruct (c_start_y c), (c_start_yd c), (c_start_ydd c), (c_goal_y c), (c_goal_yd c),
    (c_goal_ydd c); simpl in *; repeat split; auto.
Qed.

Lemma cart_configure_shapes c o : cart_shapes o -> cart_shapes (fst (cart_configure c o)).
Proof.
  intros H. unfold cart_configure.
  destruct (configure_cases c (k_base o)) as [[V ->] | [_ (k & _ & V & _ & ->)]]; simpl;
    now apply configured_cart_shapes.
Qed.

(** C23 for CartesianDMP: poses have 7, velocities 6 components in every state that
    any sequence of calls, failed ones included, can lead to. *)
Theorem C23_cartesian_shapes : forall o, cart_reachable o -> cart_shapes o.
Proof.
  intros o H. induction H.
  - unfold cart_new in H.
    destruct (init_forcing_term jp n x) as [fp|] eqn:E1; [|discriminate]. cbn [bind] in H.
    destruct (init_forcing_term jr n x) as [fr|]; [|discriminate]. cbn [bind] in H.
    destruct (ensure_1d_array al 6) as [a|] eqn:E2; [|discriminate]. cbn [bind] in H.
    destruct (ensure_1d_array be 6) as [b|] eqn:E3; [|discriminate]. cbn [bind] in H.
    injection H as <-. apply ensure_1d_array_len in E2. apply ensure_1d_array_len in E3.
    apply init_forcing_term_inv in E1. destruct E1 as (_ & E1 & E4).
    apply forcing_term_init_n in E4.
    unfold cart_shapes. cbn. repeat split; auto; try tauto.
  - now apply cart_configure_shapes.
  - destruct IHcart_reachable as (H0 & H0' & H1 & H2 & H3 & H4 & H5 & H6 & H7 & H8 & H9 & H10 & H11).
    unfold cart_shapes; cbn. repeat split; auto.
  - destruct IHcart_reachable as (H0 & H0' & H1 & H2 & H3 & H4 & H5 & H6 & H7 & H8 & H9 & H10 & H11).
    unfold cart_step. destruct (Nat.eqb_spec (alen y) 7) as [Hy|]; cbn [negb fst];
      [|unfold cart_shapes; repeat split; auto].
    destruct (Nat.eqb_spec (alen yd) 6) as [Hyd|]; cbn [negb fst];
      [|unfold cart_shapes; repeat split; auto].
    cbv zeta. unfold assign_slice. cbn [set_t set_last_t p_current_y p_current_yd].
    rewrite Hy, Hyd, H7, H8, !Nat.eqb_refl.
    destruct (run_step_function _ _ _ _ _) as [[? ?]|];
      [|unfold cart_shapes; cbn; repeat split; auto].
    destruct (q_step _ _ _ _ _) as [[? ?]|]; unfold cart_shapes; cbn; repeat split; auto.
  - unfold cart_imitate. destruct (negb _); [exact IHcart_reachable|].
    destruct (dmp_imitate _ _ _ _ _ _ _ _ _ _ _ _) as [[[w ?] ?]|]; [|exact IHcart_reachable].
    cbv zeta. destruct (dmp_quaternion_imitation _ _ _ _ _ _ _ _ _ _ _ _ _);
      [apply cart_configure_shapes|]; exact IHcart_reachable.
  - unfold cart_set_weights. destruct (assign_rows _ _); [|exact IHcart_reachable].
    cbv zeta. destruct (assign_rows _ _); exact IHcart_reachable.
  - unfold cart_set_execution_time. cbv zeta.
    destruct (init_forcing_term _ _ _); [|exact IHcart_reachable].
    destruct (init_forcing_term _ _ _); exact IHcart_reachable.
Qed.

(** ** C27 *)
(** The index of weight [i] of dimension [d]. *)
Lemma assign_rows_three w n r : (0 < n)%nat -> alen w = (3 * n)%nat -> assign_rows w n = Ok r ->
  forall k, aget (ravel 3 n r) k = aget w k.
Proof.
  intros Hn Hl E k. unfold assign_rows in E. rewrite Hl in E.
  rewrite Nat.mod_mul, Nat.div_mul in E by lia. cbn in E. injection E as <-.
  cbn [ravel aget]. f_equal. rewrite (Nat.div_mod k n) at 3 by lia. lia.
Qed.

Lemma assign_rows_ok w n : (0 < n)%nat ->
  (exists r, assign_rows w n = Ok r) <-> (alen w = 3 * n \/ alen w = n)%nat.
Proof.
  intros Hn. unfold assign_rows.
  destruct (Nat.eqb_spec (alen w mod n) 0) as [Hm|Hm]; cbn [negb].
  - assert (Hd : alen w = (alen w / n * n)%nat) by (rewrite (Nat.div_mod (alen w) n) at 1; lia).
    destruct (Nat.eqb_spec (alen w / n) 3) as [H3|H3].
    + split; [|eauto]. intros _. left. lia.
    + destruct (Nat.eqb_spec (alen w / n) 1) as [H1|H1].
      * split; [|eauto]. intros _. right. lia.
      * split; [intros [r E]; discriminate|].
        intros [E|E]; rewrite E in *.
        -- rewrite Nat.div_mul in H3 by lia. lia.
        -- rewrite Nat.div_same in H1 by lia. lia.
  - split; [intros [r E]; discriminate|].
    intros [E|E]; rewrite E in Hm.
    + rewrite Nat.mod_mul in Hm by lia. lia.
    + rewrite Nat.mod_same in Hm by lia. lia.
Qed.

Lemma assign_rows_err w n e : assign_rows w n = Err e -> e = ValueError.
Proof.
  unfold assign_rows. destruct (negb _); [congruence|].
  destruct (Nat.eqb _ _); [discriminate|]. destruct (Nat.eqb _ _); [discriminate|congruence].
Qed.

(** set_weights(w) with the right length succeeds, changes nothing but the weights,
    and get_weights() then returns [w]. *)
Theorem C27_round_trip : forall w o, cart_reachable o -> alen w = (6 * k_n o)%nat ->
  exists o', cart_set_weights w o = (o', Ok tt)
  /\ alen (cart_get_weights o') = alen w
  /\ (forall k, (k < alen w)%nat -> aget (cart_get_weights o') k = aget w k)
  /\ k_base o' = k_base o /\ k_execution_time o' = k_execution_time o /\ k_dt o' = k_dt o
  /\ k_n o' = k_n o /\ k_int_dt o' = k_int_dt o /\ k_smooth o' = k_smooth o
  /\ k_alpha o' = k_alpha o /\ k_beta o' = k_beta o
  /\ ft_centers (k_fpos o') = ft_centers (k_fpos o) /\ ft_widths (k_fpos o') = ft_widths (k_fpos o)
  /\ ft_centers (k_frot o') = ft_centers (k_frot o) /\ ft_widths (k_frot o') = ft_widths (k_frot o).
Proof.
  intros w o Hr Hl.
  assert (Hn : (2 <= k_n o)%nat) by apply (C23_cartesian_shapes o Hr).
  unfold cart_set_weights. cbv zeta.
  set (wp := {| alen := Nat.min (alen w) (3 * k_n o); aget := aget w |}).
  set (wr := {| alen := alen w - 3 * k_n o; aget := fun k => aget w (3 * k_n o + k)%nat |}).
  assert (Hp : alen wp = (3 * k_n o)%nat) by (unfold wp; cbn [alen]; lia).
  assert (Hq : alen wr = (3 * k_n o)%nat) by (unfold wr; cbn [alen]; lia).
  assert (Hn0 : (0 < k_n o)%nat) by lia.
  destruct (proj2 (assign_rows_ok wp _ Hn0) (or_introl Hp)) as [rp Ep].
  destruct (proj2 (assign_rows_ok wr _ Hn0) (or_introl Hq)) as [rr Er].
  rewrite Ep, Er. eexists. split; [reflexivity|].
  split; [cbn; rewrite Hl; lia|]. split.
  - intros k Hk. unfold cart_get_weights. cbn [aget k_n k_fpos k_frot cart_with_frot cart_with_fpos set_ft_weights ft_weights].
    destruct (Nat.ltb_spec k (3 * k_n o)).
    + now rewrite (assign_rows_three wp _ rp) by auto.
    + rewrite (assign_rows_three wr _ rr) by auto. unfold wr. cbn [aget]. f_equal. lia.
  - repeat split.
Qed.

(** set_weights(get_weights()) keeps every weight. *)
Theorem C27_get_set : forall o, cart_reachable o ->
  exists o', cart_set_weights (cart_get_weights o) o = (o', Ok tt)
  /\ forall d i, (d < 3)%nat -> (i < k_n o)%nat ->
     ft_weights (k_fpos o') d i = ft_weights (k_fpos o) d i
     /\ ft_weights (k_frot o') d i = ft_weights (k_frot o) d i.
Proof.
  intros o Hr.
  assert (Hn : (2 <= k_n o)%nat) by apply (C23_cartesian_shapes o Hr).
  destruct (C27_round_trip (cart_get_weights o) o Hr) as (o' & E & _ & Hk & _ & _ & _ & Hn' & _);
    [cbn; lia|].
  exists o'. split; [exact E|]. intros d i Hd Hi.
  assert (Hdiv : ((d * k_n o + i) / k_n o = d)%nat)
    by (symmetry; apply (Nat.div_unique _ _ _ i); nia).
  assert (Hmod : ((d * k_n o + i) mod k_n o = i)%nat)
    by (symmetry; apply (Nat.mod_unique _ _ d); nia).
  assert (Hb : (d * k_n o + i < 3 * k_n o)%nat) by nia.
  split.
  - specialize (Hk (d * k_n o + i)%nat). cbn [alen cart_get_weights] in Hk.
    specialize (Hk ltac:(lia)). unfold cart_get_weights in Hk. cbn [aget] in Hk. rewrite Hn' in Hk.
    destruct (Nat.ltb_spec (d * k_n o + i) (3 * k_n o)); [|lia].
    cbn [ravel aget] in Hk. now rewrite Hdiv, Hmod in Hk.
  - specialize (Hk (3 * k_n o + (d * k_n o + i))%nat). cbn [alen cart_get_weights] in Hk.
    specialize (Hk ltac:(lia)). unfold cart_get_weights in Hk. cbn [aget] in Hk. rewrite Hn' in Hk.
    destruct (Nat.ltb_spec (3 * k_n o + (d * k_n o + i)) (3 * k_n o)); [lia|].
    replace (3 * k_n o + (d * k_n o + i) - 3 * k_n o)%nat with (d * k_n o + i)%nat in Hk by lia.
    cbn [ravel aget] in Hk. now rewrite Hdiv, Hmod in Hk.
Qed.

(** Exactly two lengths are accepted; every other raises ValueError. *)
Theorem C27_accepted_lengths_partial : forall w o, cart_reachable o ->
  (snd (cart_set_weights w o) = Ok tt <-> (alen w = 6 * k_n o \/ alen w = 4 * k_n o)%nat)
  /\ (snd (cart_set_weights w o) <> Ok tt -> snd (cart_set_weights w o) = Err ValueError).
Proof.
  intros w o Hr.
  assert (Hn : (2 <= k_n o)%nat) by apply (C23_cartesian_shapes o Hr).
  assert (Hn0 : (0 < k_n o)%nat) by lia.
  unfold cart_set_weights. cbv zeta.
  set (wp := {| alen := Nat.min (alen w) (3 * k_n o); aget := aget w |}).
  set (wr := {| alen := alen w - 3 * k_n o; aget := fun k => aget w (3 * k_n o + k)%nat |}).
  pose proof (assign_rows_ok wp _ Hn0) as HP. pose proof (assign_rows_ok wr _ Hn0) as HQ.
  assert (Hp : alen wp = Nat.min (alen w) (3 * k_n o)) by reflexivity.
  assert (Hq : alen wr = (alen w - 3 * k_n o)%nat) by reflexivity.
  clearbody wp wr. rewrite Hp in HP. rewrite Hq in HQ.
  destruct (assign_rows wp (k_n o)) as [rp|e] eqn:Ep.
  - destruct (assign_rows wr (k_n o)) as [rr|e] eqn:Er; cbn [snd].
    + split; [|congruence]. split; [intros _|reflexivity].
      assert (HQ1 := proj1 HQ (ex_intro _ rr eq_refl)). lia.
    + apply assign_rows_err in Er. subst e. split; [|reflexivity].
      split; [discriminate|]. intros H. exfalso.
      destruct (proj2 HQ) as [r Hrr]; [lia|discriminate].
  - cbn [snd]. apply assign_rows_err in Ep. subst e. split; [|reflexivity].
    split; [discriminate|]. intros H. exfalso.
    destruct (proj2 HP) as [r Hrr]; [lia|discriminate].
Qed.

(** Vectors of length [4 * n_weights_per_dim] are wrongly accepted: the last
    [n_weights_per_dim] entries become the weights of all three rotation axes. *)
Theorem C27_short_vector_refuted : forall w o, cart_reachable o -> alen w = (4 * k_n o)%nat ->
  exists o', cart_set_weights w o = (o', Ok tt)
  /\ alen (cart_get_weights o') <> alen w
  /\ forall d i, (d < 3)%nat -> (i < k_n o)%nat ->
     ft_weights (k_frot o') d i = aget w (3 * k_n o + i)%nat.
Proof.
  intros w o Hr Hl.
  assert (Hn : (2 <= k_n o)%nat) by apply (C23_cartesian_shapes o Hr).
  unfold cart_set_weights, assign_rows. cbv zeta. cbn [alen aget].
  replace (Nat.min (alen w) (3 * k_n o)) with (3 * k_n o)%nat by lia.
  replace (alen w - 3 * k_n o)%nat with (1 * k_n o)%nat by lia.
  rewrite !Nat.mod_mul, !Nat.div_mul by lia. cbn [negb Nat.eqb].
  eexists. split; [reflexivity|]. split; [cbn; rewrite Hl; lia|].
  intros d i Hd Hi. reflexivity.
Qed.

(** A rejected vector may have changed the position weights: length [3 * n]. *)
Theorem C27_rejected_not_atomic_refuted : forall w o, cart_reachable o -> alen w = (3 * k_n o)%nat ->
  exists o', cart_set_weights w o = (o', Err ValueError)
  /\ forall d i, (d < 3)%nat -> (i < k_n o)%nat ->
     ft_weights (k_fpos o') d i = aget w (d * k_n o + i)%nat.
Proof.
  intros w o Hr Hl.
  assert (Hn : (2 <= k_n o)%nat) by apply (C23_cartesian_shapes o Hr).
  unfold cart_set_weights, assign_rows. cbv zeta. cbn [alen aget].
  replace (Nat.min (alen w) (3 * k_n o)) with (3 * k_n o)%nat by lia.
  replace (alen w - 3 * k_n o)%nat with (0 * k_n o)%nat by lia.
  rewrite !Nat.mod_mul, !Nat.div_mul by lia. cbn [negb Nat.eqb].
  eexists. split; [reflexivity|]. intros d i Hd Hi. reflexivity.
Qed.

(** ** C69 *)
Lemma cart_step_intro y yd c fn i o yp ydp q w :
  alen y = 7%nat -> alen yd = 6%nat ->
  alen (p_current_y (k_base o)) = 7%nat -> alen (p_current_yd (k_base o)) = 6%nat ->
  run_step_function fn (cart_pos_args o c) (p_t (k_base o)) (p_t (k_base o) + k_dt o)
      (slice 0 3 (aget y), slice 0 3 (aget yd)) = Ok (yp, ydp) ->
  q_step i (cart_rot_args o c) (p_t (k_base o)) (p_t (k_base o) + k_dt o)
         (orientation y, angular yd) = Ok (q, w) ->
  exists o', cart_step y yd c fn i o = (o', Ok (pose yp q, twist ydp w)).
Proof.
  intros Hy Hyd H7 H6 Ep Eq. unfold cart_step. rewrite Hy, Hyd. cbn [Nat.eqb negb]. cbv zeta.
  cbn [set_t set_last_t p_current_y p_current_yd].
  unfold assign_slice. rewrite Hy, Hyd, H7, H6. cbn [Nat.eqb].
  change (cart_pos_args (cart_with_base _ _) c) with (cart_pos_args o c).
  change (cart_rot_args (cart_with_base _ _) c) with (cart_rot_args o c).
  rewrite Ep. change (quat_of (slice 3 4 (aget y))) with (orientation y).
  change (v3_of (slice 3 3 (aget yd))) with (angular yd).
  rewrite Eq. eexists; reflexivity.
Qed.

(** Orientation steps after the start do not depend on the start velocity. *)
Lemma rot_open_args_step i o c lt t s : 0 < t ->
  q_step i (cart_rot_args o c) lt t s = q_step i (cart_rot_open_args o c) lt t s.
Proof.
  intros Ht. unfold q_step. destruct i.
  - reflexivity.
  - change (g_start_t (cart_rot_args o c)) with 0. change (g_start_t (cart_rot_open_args o c)) with 0.
    destruct (Rle_dec t 0); [lra|]. reflexivity.
Qed.

Lemma cart_follow fn i c o0 : same_coupling3 (option_map fst c) (option_map fst c) -> 0 < k_dt o0 ->
  forall k o y yd sp sr sp' sr',
  same_cart o0 o -> 0 <= p_t (k_base o) ->
  alen (p_current_y (k_base o)) = 7%nat -> alen (p_current_yd (k_base o)) = 6%nat ->
  alen y = 7%nat -> alen yd = 6%nat ->
  same3 (aget y) (fst sp) -> same3 (aget yd) (snd sp) -> sr = (orientation y, angular yd) ->
  run_seq (run_step_function fn (cart_pos_open_args o0 c)) (p_t (k_base o)) (k_dt o0) sp k = Ok sp' ->
  run_seq (q_step i (cart_rot_open_args o0 c)) (p_t (k_base o)) (k_dt o0) sr k = Ok sr' ->
  exists o' y' yd', cart_n_steps c fn i k y yd o = (o', Ok (y', yd'))
    /\ same3 (aget y') (fst sp') /\ same3 (aget yd') (snd sp')
    /\ sr' = (orientation y', angular yd')
    /\ p_t (k_base o') = p_t (k_base o) + INR k * k_dt o0.
Proof.
  intros Hc Hdt. induction k as [|k IH];
    intros o y yd sp sr sp' sr' Hs Ht H7 H6 Ly Lyd Hp Hv Hr Ep Er.
  - simpl in Ep, Er. injection Ep as <-. injection Er as <-. exists o, y, yd. simpl.
    repeat split; auto. ring.
  - rewrite run_seq_shift in Ep. rewrite run_seq_shift in Er.
    set (t0 := p_t (k_base o)) in *.
    replace (t0 + INR 0 * k_dt o0) with t0 in Ep, Er by (simpl; ring).
    replace (t0 + INR 1 * k_dt o0) with (t0 + k_dt o0) in Ep, Er by (simpl; ring).
    destruct (run_step_function _ _ _ _ sp) as [sp1|] eqn:Ep1; [|discriminate].
    destruct (q_step _ _ _ _ sr) as [sr1|] eqn:Er1; [|discriminate]. cbn [bind] in Ep, Er.
    pose proof Hs as (A1 & A2 & A3 & A4 & A5 & A6 & A7 & A8 & A9 & A10 & A11 & A12 & A13 & A14 & A15).
    assert (Ero : cart_rot_open_args o c = cart_rot_open_args o0 c).
    { unfold cart_rot_open_args, cart_rot_args. congruence. }
    rewrite <- Ero, <- rot_open_args_step, Hr in Er1 by lra.
    pose proof (step_on lt3 id3 fn (cart_pos_open_args o0 c) (cart_pos_args o c) t0 (t0 + k_dt o0) sp
      (slice 0 3 (aget y), slice 0 3 (aget yd))) as HS.
    unfold res_on in HS. rewrite Ep1 in HS.
    assert (HS' : match run_step_function fn (cart_pos_args o c) t0 (t0 + k_dt o0)
                    (slice 0 3 (aget y), slice 0 3 (aget yd)) with
                  | Ok x' => same_on lt3 id3 sp1 x' | Err _ => False end).
    { apply HS.
      - constructor; cbn [cart_pos_open_args cart_pos_args a_goal_y
        a_start_y a_goal_t a_start_t
        a_alpha_y a_beta_y a_forcing_term a_coupling_term a_precomputed a_int_dt a_smooth_scaling
        a_p_gain a_tracking_error]; try congruence;
          try (rewrite ?A8, ?A9, ?A10, ?A13; intros j _; reflexivity);
          try (intros; rewrite ?A6; reflexivity); try (intros z j _; now rewrite A6); exact Hc.
      - cbn [cart_pos_open_args a_start_t]. lra.
      - split; cbn [fst snd]; intros j Hj; rewrite slice3 by auto; symmetry; auto. }
    clear HS. destruct (run_step_function fn (cart_pos_args o c) _ _ _) as [[yp ydp]|] eqn:Ecp; [|contradiction].
    destruct HS' as [S1 S2]. cbn [fst snd] in S1, S2.
    rewrite <- A2 in Ecp, Er1. destruct sr1 as [q w].
    destruct (cart_step_intro y yd c fn i o yp ydp q w) as [o1 Eo]; auto.
    cbn [cart_n_steps]. rewrite Eo.
    destruct (cart_step_ok _ _ _ _ _ _ _ _ _ Eo H7 H6)
      as (yp' & ydp' & q' & w' & _ & _ & _ & _ & Hsame & Ht1 & H7' & H6').
    assert (Et : p_t (k_base o1) = t0 + k_dt o0) by (rewrite Ht1, A2; reflexivity).
    destruct (IH o1 (pose yp q) (twist ydp w) sp1 (q, w) sp' sr') as (o' & y' & yd' & R1 & R2 & R3 & R4 & R5);
      auto.
    + destruct Hsame as (B1 & B2 & B3 & B4 & B5 & B6 & B7 & B8 & B9 & B10 & B11 & B12 & B13 & B14 & B15).
      unfold same_cart. repeat split; congruence.
    + rewrite Et. lra.
    + intros j Hj. rewrite pose3 by auto. symmetry. apply (S1 j Hj).
    + intros j Hj. rewrite twist3 by auto. symmetry. apply (S2 j Hj).
    + now rewrite orientation_pose, angular_twist.
    + now rewrite Et.
    + now rewrite Et.
    + exists o', y', yd'. repeat split; auto. rewrite R5, Et, S_INR. ring.
Qed.

(** After [reset], [k] calls of [step] starting at the start pose with zero velocity,
    each with the state returned by the previous one, give time and pose of sample
    [k] of [open_loop], for every step function, weights, gains, history and every
    coupling term that looks only at the first three components of what the position
    step passes to it. *)
Theorem C69_open_loop_is_repeated_step : forall o fn i c run_t ts ys,
  cart_reachable o -> 0 < k_dt o -> same_coupling3 (option_map fst c) (option_map fst c) ->
  cart_open_loop run_t c (Some fn) (Some i) o = Ok (ts, ys) ->
  forall k, (k < length ys)%nat ->
  exists o' y yd,
    cart_n_steps c fn i k (p_start_y (k_base o)) (zeros 6) (cart_reset o) = (o', Ok (y, yd))
    /\ same3 (aget y) (aget (nth k ys (zeros 7)))
    /\ orientation (nth k ys (zeros 7)) = orientation y
    /\ p_t (k_base o') = nth k ts 0.
Proof.
  intros o fn i c run_t ts ys Hr Hdt Hc E k Hk.
  destruct (C23_cartesian_shapes o Hr) as (H0 & H0' & H1 & H2 & H3 & H4 & H5 & H6 & H7 & H8 & H9 & H10 & H11).
  unfold cart_open_loop in E. cbv zeta in E.
  set (rt := match run_t with Some x => x | None => k_execution_time o end) in *.
  destruct (open_loop_run _ _ _ _ _ _) as [[tp lp]|] eqn:Ep; [|discriminate]. cbn [bind] in E.
  destruct (q_open_loop _ _ _ _) as [[tr lr]|] eqn:Er; [|discriminate].
  cbn [bind fst snd] in E. injection E as <- <-.
  rewrite map_length, combine_length in Hk.
  destruct (open_loop_run_seq _ _ _ _ _ _ _ _ Ep) as [L1 Hp].
  destruct (run_on_grid_seq _ _ _ _ _ _ _ Er) as [L2 Hq].
  destruct (Hp k) as (Ht & sp & Hlp & Hrp); [lia|].
  destruct (Hq k) as (_ & sr & Hlr & Hrr); [lia|].
  destruct (cart_follow fn i c o Hc Hdt k (cart_reset o) (p_start_y (k_base o)) (zeros 6)
    (a_start_y (cart_pos_open_args o c), vzero) (g_start_y (cart_rot_open_args o c), v3_zero) sp sr)
    as (o' & y & yd & R1 & R2 & R3 & R4 & R5); auto.
  - unfold same_cart; repeat split.
  - simpl. lra.
  - intros j Hj. cbn [fst cart_pos_open_args cart_pos_args a_start_y]. now rewrite slice3.
  - intros j Hj. reflexivity.
  - exists o', y, yd. split; [exact R1|].
    assert (Hn : nth k (map (fun x => pose (fst (fst x)) (fst (snd x))) (combine lp lr)) (zeros 7)
                 = pose (fst sp) (fst sr)).
    { apply nth_error_nth.
      assert (Hcomb : nth_error (combine lp lr) k = Some (sp, sr)).
      { clear -Hlp Hlr. revert lp lr Hlp Hlr.
        induction k as [|k IH]; intros [|a lp] [|b lr] H1 H2; try discriminate; cbn in *.
        - congruence.
        - auto. }
      now rewrite nth_error_map, Hcomb. }
    rewrite Hn. split; [|split].
    + intros j Hj. rewrite pose3 by auto. now apply R2.
    + rewrite orientation_pose, R4. reflexivity.
    + rewrite R5. simpl. rewrite (nth_error_nth _ _ _ Ht). ring.
Qed.

(** The times of the trajectory and its first pose. *)
Theorem C69_time_grid : forall o fn i c run_t ts ys,
  0 < k_dt o -> cart_open_loop run_t c (Some fn) (Some i) o = Ok (ts, ys) ->
  let rt := match run_t with Some x => x | None => k_execution_time o end in
  length ys = length ts /\ (0 < length ts)%nat
  /\ (forall k, (k < length ts)%nat -> nth k ts 0 = INR k * k_dt o)
  /\ rt <= last ts 0 < rt + k_dt o
  /\ forall j, (j < 7)%nat -> aget (nth 0 ys (zeros 7)) j = aget (p_start_y (k_base o)) j.
Proof.
  intros o fn i c run_t ts ys Hdt E rt. unfold cart_open_loop in E. cbv zeta in E. fold rt in E.
  destruct (open_loop_run _ _ _ _ _ _) as [[tp lp]|] eqn:Ep; [|discriminate]. cbn [bind] in E.
  destruct (q_open_loop _ _ _ _) as [[tr lr]|] eqn:Er; [|discriminate].
  cbn [bind fst snd] in E. injection E as <- <-.
  pose proof (open_loop_run_seq _ _ _ _ _ _ _ _ Ep) as [L1 Hp].
  destruct (run_on_grid_seq _ _ _ _ _ _ _ Er) as [L2 Hq].
  pose proof (C19_time_grid _ _ _ _ _ _ _ _ Hdt Ep) as (A & B & C & D & F).
  assert (Htt : tr = tp).
  { unfold open_loop_run, q_open_loop, run_on_grid in Ep, Er.
    change (g_start_t (cart_rot_open_args o c)) with 0 in Er.
    destruct (arange 0 (rt + k_dt o) (k_dt o)); [discriminate|].
    destruct (run_steps _ _ _ _) in Ep; [|discriminate]. cbn [bind] in Ep.
    destruct (run_steps _ _ _ _) in Er; [|discriminate]. cbn [bind] in Er. congruence. }
  subst tr. split; [rewrite map_length, combine_length; lia|]. split; [exact B|].
  split; [intros k Hk; rewrite C by auto; ring|]. split; [exact D|].
  intros j Hj.
  destruct (Hp 0%nat B) as (_ & sp & Hsp & Rp). destruct (Hq 0%nat B) as (_ & sr & Hsr & Rr).
  simpl in Rp, Rr. injection Rp as <-. injection Rr as <-.
  destruct lp as [|p0 lp]; [discriminate|]. destruct lr as [|r0 lr]; [discriminate|].
  simpl in Hsp, Hsr. injection Hsp as ->. injection Hsr as ->.
  cbn [combine map nth fst snd]. unfold pose. cbn [aget].
  destruct (Nat.ltb_spec j 3).
  - cbn [cart_pos_open_args cart_pos_args a_start_y]. now rewrite slice3.
  - do 7 (destruct j as [|j]; [first [lia|reflexivity]|]). lia.
Qed.

(** ** Runs exist *)
Lemma step_function_total fn a lt t s : a_start_t a < a_goal_t a -> 0 < a_int_dt a -> lt <= t ->
  exists s', run_step_function fn a lt t s = Ok s'.
Proof.
  intros Hg Hi Ht. destruct fn; cbn [run_step_function]; [eauto| |eauto|].
  - unfold dmp_step_euler. destruct (Rle_dec _ _); [lra|]. destruct (Rle_dec _ _); [eauto|].
    destruct (substeps_tiles lt t (a_int_dt a) Hi Ht) as (l & _ & Hl). rewrite Hl. eauto.
  - unfold dmp_step_euler_cython. destruct (Rle_dec _ _); [lra|].
    destruct (substeps_tiles lt t (a_int_dt a) Hi Ht) as (l & _ & Hl).
    destruct (Rle_dec _ _); rewrite Hl; eauto.
Qed.

Lemma q_step_total i a lt t s : g_start_t a < g_goal_t a -> 0 < g_int_dt a -> lt <= t ->
  exists s', q_step i a lt t s = Ok s'.
Proof.
  intros Hg Hi Ht. destruct (substeps_tiles lt t (g_int_dt a) Hi Ht) as (l & _ & Hl).
  destruct i; unfold q_step.
  - destruct (Rle_dec _ _); [lra|]. destruct (Rle_dec _ _); [eauto|]. rewrite Hl. eauto.
  - rewrite Hl. eauto.
Qed.

Theorem C37_runs_exist : forall c fn i n y yd o,
  alen (p_current_y (k_base o)) = 7%nat -> alen (p_current_yd (k_base o)) = 6%nat ->
  alen y = 7%nat -> alen yd = 6%nat -> 0 < k_execution_time o -> 0 < k_int_dt o -> 0 <= k_dt o ->
  exists o' y' yd', cart_n_steps c fn i n y yd o = (o', Ok (y', yd')).
Proof.
  intros c fn i. induction n as [|n IH]; intros y yd o H7 H6 Hy Hyd Hx Hi Hdt.
  - simpl. eauto.
  - destruct (step_function_total fn (cart_pos_args o c) (p_t (k_base o)) (p_t (k_base o) + k_dt o)
      (slice 0 3 (aget y), slice 0 3 (aget yd))) as [[yp ydp] Ep]; [exact Hx|exact Hi|lra|].
    destruct (q_step_total i (cart_rot_args o c) (p_t (k_base o)) (p_t (k_base o) + k_dt o)
      (orientation y, angular yd)) as [[q w] Eq]; [exact Hx|exact Hi|lra|].
    destruct (cart_step_intro y yd c fn i o yp ydp q w) as [o1 Eo]; auto.
    cbn [cart_n_steps]. rewrite Eo.
    destruct (cart_step_ok _ _ _ _ _ _ _ _ _ Eo H7 H6)
      as (yp' & ydp' & q' & w' & _ & _ & _ & _ & Hsame & Ht1 & H7' & H6').
    destruct Hsame as (B1 & B2 & B3 & B4 & _).
    apply IH; auto; congruence.
Qed.

Theorem C69_runs_exist : forall o c fn i run_t,
  0 < k_execution_time o -> 0 < k_int_dt o -> 0 < k_dt o ->
  match run_t with Some x => 0 <= x | None => True end ->
  exists ts ys, cart_open_loop run_t c (Some fn) (Some i) o = Ok (ts, ys).
Proof.
  intros o c fn i run_t Hx Hi Hdt Hrt. unfold cart_open_loop. cbv zeta.
  set (rt := match run_t with Some x => x | None => k_execution_time o end).
  assert (Hrt0 : 0 <= rt) by (unfold rt; destruct run_t; [exact Hrt|lra]).
  assert (HT : forall (A : Type) (step : R -> R -> A -> res A) s,
    (forall lt t s, lt <= t -> exists s', step lt t s = Ok s') ->
    exists ts l, run_on_grid step 0 rt (k_dt o) s = Ok (ts, l)).
  { intros A step s Hs. unfold run_on_grid, arange.
    assert (Hlt : 0 < rt + k_dt o) by lra.
    pose proof (arange_len_spec 0 (rt + k_dt o) (k_dt o) Hdt Hlt) as [Hn _].
    destruct (arange_len 0 (rt + k_dt o) (k_dt o)) as [|n]; [lia|]. simpl seq. cbn [map].
    assert (HR : forall m k t0 s, t0 <= 0 + INR k * k_dt o ->
       exists l, run_steps step t0 (map (fun i => 0 + INR i * k_dt o) (seq k m)) s = Ok l).
    { induction m as [|m IH]; intros k t0 s0 Ht0; [simpl; eauto|].
      cbn [seq map run_steps]. destruct (Hs t0 (0 + INR k * k_dt o) s0 Ht0) as [s1 E1].
      rewrite E1. cbn [bind].
      destruct (IH (S k) (0 + INR k * k_dt o) s1) as [l El]; [rewrite S_INR; nra|].
      rewrite El. cbn [bind]. eauto. }
    destruct (HR n 1%nat (0 + INR 0 * k_dt o) s) as [l El]; [simpl; lra|].
    rewrite El. cbn [bind]. eauto. }
  destruct (HT _ (run_step_function fn (cart_pos_open_args o c)) (a_start_y (cart_pos_open_args o c), vzero))
    as (tp & lp & Ep).
  { intros. apply step_function_total; auto. }
  change (open_loop_run (run_step_function fn (cart_pos_open_args o c)) 0 rt (k_dt o)
            (a_start_y (cart_pos_open_args o c)) vzero)
    with (run_on_grid (run_step_function fn (cart_pos_open_args o c)) 0 rt (k_dt o)
            (a_start_y (cart_pos_open_args o c), vzero)).
  rewrite Ep. cbn [bind].
  destruct (HT _ (q_step i (cart_rot_open_args o c)) (g_start_y (cart_rot_open_args o c), v3_zero))
    as (tr & lr & Er).
  { intros. apply q_step_total; auto. }
  unfold q_open_loop. change (g_start_t (cart_rot_open_args o c)) with 0. rewrite Er. cbn [bind]. eauto.
Qed.

(** ** Examples *)
(** The three-dimensional DMP of an object, in the state [y], [yd]. *)
Definition position_dmp (o : cart) (y yd : arr) : dmp :=
  let p := k_base o in
  {| o_base := {| p_n_dims := 3; p_n_vel_dims := 3; p_t := p_t p; p_last_t := None;
                  p_start_y := first3 (p_start_y p); p_start_yd := first3 (p_start_yd p);
                  p_start_ydd := first3 (p_start_ydd p); p_goal_y := first3 (p_goal_y p);
                  p_goal_yd := first3 (p_goal_yd p); p_goal_ydd := first3 (p_goal_ydd p);
                  p_current_y := first3 y; p_current_yd := first3 yd |};
     o_initialized := true; o_execution_time := k_execution_time o; o_dt := k_dt o;
     o_n_weights_per_dim := k_n o; o_int_dt := k_int_dt o; o_p_gain := 0;
     o_smooth_scaling := k_smooth o; o_forcing_term := k_fpos o;
     o_alpha_y := first3 (k_alpha o); o_beta_y := first3 (k_beta o) |}.

(** A new object, configured with a start pose and a goal pose (a half turn about the
    x axis), then given weights. *)
Definition ex_conf : configure_args :=
  {| c_t := None;
     c_start_y := Some {| alen := 7; aget := fun j => if Nat.eqb j 3 then 1 else 0 |};
     c_start_yd := None; c_start_ydd := None;
     c_goal_y := Some {| alen := 7; aget := fun j => if Nat.ltb j 3 then 1 else if Nat.eqb j 4 then 1 else 0 |};
     c_goal_yd := None; c_goal_ydd := None |}.
Definition ex_weights : arr := {| alen := 12; aget := INR |}.

Lemma ex_cart_ok : exists o, cart_reachable o /\ k_execution_time o = 1 /\ k_dt o = 1/100
  /\ k_int_dt o = 1/1000 /\ k_n o = 2%nat /\ aget (p_start_y (k_base o)) 3%nat = 1
  /\ aget (p_goal_y (k_base o)) 4%nat = 1 /\ ft_weights (k_frot o) 2%nat 1%nat = 11.
Proof.
  destruct (init_forcing_term_accepts (vzero, vzero) 2 1) as [f Ef]; [lia|lra|].
  assert (E : exists o, cart_new (vzero, vzero) (vzero, vzero) 1 (1/100) 2 (1/1000) true
    {| shape := []; data := fun _ => 25 |} {| shape := []; data := fun _ => 25/4 |} = Ok o
    /\ k_execution_time o = 1 /\ k_dt o = 1/100 /\ k_int_dt o = 1/1000 /\ k_n o = 2%nat
    /\ k_base o = ptp_init 7 6).
  { unfold cart_new. rewrite Ef. cbn [bind]. unfold ensure_1d_array. cbn -[Nat.eqb].
    eexists. split; [reflexivity|]. cbn. auto. }
  destruct E as (o & E & E1 & E2 & E3 & E4 & E5).
  set (o1 := fst (cart_configure ex_conf o)).
  assert (R1 : cart_reachable o1) by (apply cr_configure; eapply cr_new; eauto).
  assert (B1 : o1 = cart_with_base (configured ex_conf (k_base o)) o).
  { unfold o1, cart_configure. rewrite E5. reflexivity. }
  assert (N1 : k_n o1 = 2%nat) by (rewrite B1; exact E4).
  destruct (C27_round_trip ex_weights o1 R1) as (o2 & S & _ & Hg & Hb & Hx & Hdt & Hn & Hi & _).
  { rewrite N1. reflexivity. }
  exists o2. split.
  { change o2 with (fst (o2, Ok tt : res unit)). rewrite <- S. now apply cr_set_weights. }
  rewrite Hb, Hx, Hdt, Hi, Hn, B1. cbn.
  repeat split; auto.
  specialize (Hg 11%nat ltac:(cbn; lia)). unfold cart_get_weights in Hg. rewrite Hn, N1 in Hg.
  cbn [Nat.mul Nat.add aget Nat.ltb Nat.leb Nat.sub] in Hg.
  change (11 - 6)%nat with 5%nat in Hg. cbn [ravel aget] in Hg.
  change (5 / 2)%nat with 2%nat in Hg. change (5 mod 2)%nat with 1%nat in Hg.
  rewrite Hg. cbn. lra.
Qed.

Lemma position_dmp_part o y yd : position_part o (position_dmp o y yd) /\ at_state (position_dmp o y yd) y yd.
Proof.
  split; [constructor; intros; cbn; auto; intros j Hj; reflexivity|].
  unfold at_state. cbn. repeat split.
Qed.

Example C37_satisfiable : exists o d o' y' yd' ts ys,
  cart_reachable o /\ position_part o d /\ at_state d (p_start_y (k_base o)) (zeros 6)
  /\ cart_n_steps None Euler Cython 100 (p_start_y (k_base o)) (zeros 6) o = (o', Ok (y', yd'))
  /\ cart_open_loop None None (Some RK4) (Some Python) o = Ok (ts, ys)
  /\ aget (p_goal_y (k_base o)) 4%nat = 1 /\ ft_weights (k_frot o) 2%nat 1%nat = 11.
Proof.
  destruct ex_cart_ok as (o & Hr & Hx & Hdt & Hi & Hn & Hs & Hg & Hw).
  destruct (C23_cartesian_shapes o Hr) as (H0 & H0' & H1 & H2 & H3 & H4 & H5 & H6 & H7 & H8 & H9 & H10 & H11).
  destruct (C37_runs_exist None Euler Cython 100 (p_start_y (k_base o)) (zeros 6) o)
    as (o' & y' & yd' & E); auto; try lra.
  destruct (C69_runs_exist o None RK4 Python None) as (ts & ys & E2); auto; try lra.
  exists o, (position_dmp o (p_start_y (k_base o)) (zeros 6)), o', y', yd', ts, ys.
  pose proof (position_dmp_part o (p_start_y (k_base o)) (zeros 6)) as [P1 P2].
  split; [exact Hr|]. split; [exact P1|]. split; [exact P2|]. split; [exact E|]. split; [exact E2|]. auto.
Qed.

Example C27_satisfiable : exists o, cart_reachable o /\ alen ex_weights = (6 * k_n o)%nat.
Proof.
  destruct ex_cart_ok as (o & Hr & Hx & Hdt & Hi & Hn & _). exists o. split; [exact Hr|].
  rewrite Hn. reflexivity.
Qed.

Example C69_satisfiable : exists o ts ys, cart_reachable o /\ 0 < k_dt o
  /\ cart_open_loop None None (Some RK4) (Some Cython) o = Ok (ts, ys) /\ (100 < length ys)%nat.
Proof.
  destruct ex_cart_ok as (o & Hr & Hx & Hdt & Hi & Hn & _).
  destruct (C69_runs_exist o None RK4 Cython None) as (ts & ys & E); auto; try lra.
  exists o, ts, ys. split; [exact Hr|]. split; [lra|]. split; [exact E|].
  destruct (C69_time_grid o RK4 Cython None None ts ys) as (L & B & T & D & _); auto; [lra|].
  cbv zeta in D. rewrite L.
  assert (Hg : forall (l : list R) d, l <> [] -> last l d = nth (length l - 1) l d).
  { induction l as [|x [|y' l'] IH]; intros d Hne; [congruence|reflexivity|].
    change (last (x :: y' :: l') d) with (last (y' :: l') d).
    rewrite IH by congruence. simpl. now rewrite Nat.sub_0_r. }
  rewrite Hg in D by (destruct ts; simpl in *; [lia|congruence]).
  rewrite T in D by lia. rewrite Hdt, Hx in D. rewrite minus_INR in D by lia. simpl (INR 1) in D.
  apply INR_lt. replace (INR 100) with 100 by (rewrite INR_IZR_INZ; reflexivity). lra.
Qed.

(** The hypotheses of C33: unit start orientation, and a run of 100 steps. *)
Example C33_satisfiable : exists o o' y' yd',
  cart_reachable o /\ alen (p_current_y (k_base o)) = 7%nat /\ alen (p_current_yd (k_base o)) = 6%nat
  /\ unit_quat (orientation (p_start_y (k_base o)))
  /\ cart_n_steps None RK4 Python 100 (p_start_y (k_base o)) (zeros 6) o = (o', Ok (y', yd')).
Proof.
  destruct (init_forcing_term_accepts (vzero, vzero) 2 1) as [f Ef]; [lia|lra|].
  assert (E : exists o, cart_new (vzero, vzero) (vzero, vzero) 1 (1/100) 2 (1/1000) true
    {| shape := []; data := fun _ => 25 |} {| shape := []; data := fun _ => 25/4 |} = Ok o
    /\ k_execution_time o = 1 /\ k_dt o = 1/100 /\ k_int_dt o = 1/1000 /\ k_base o = ptp_init 7 6).
  { unfold cart_new. rewrite Ef. cbn [bind]. unfold ensure_1d_array. cbn -[Nat.eqb].
    eexists. split; [reflexivity|]. cbn. auto. }
  destruct E as (o & E & E1 & E2 & E3 & E5).
  set (o1 := fst (cart_configure ex_conf o)).
  assert (R1 : cart_reachable o1) by (apply cr_configure; eapply cr_new; eauto).
  assert (B1 : o1 = cart_with_base (configured ex_conf (k_base o)) o).
  { unfold o1, cart_configure. rewrite E5. reflexivity. }
  destruct (C23_cartesian_shapes o1 R1) as (H0 & H0' & H1 & H2 & H3 & H4 & H5 & H6 & H7 & H8 & H9 & H10 & H11).
  destruct (C37_runs_exist None RK4 Python 100 (p_start_y (k_base o1)) (zeros 6) o1)
    as (o' & y' & yd' & En); auto; try (rewrite B1; cbn; lra).
  exists o1, o', y', yd'. split; [exact R1|]. split; [exact H7|]. split; [exact H8|].
  split; [|exact En]. rewrite B1, E5. unfold unit_quat, orientation. cbn. ring.
Qed.
