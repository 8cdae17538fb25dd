(** C133 for CartesianDMP: the hand follows a goal pose that is moved before every step.
    Final statements. *)
From Coq Require Import Reals ZArith List Arith Bool Lia Lra Psatz FunctionalExtensionality.
From Verif Require Import M_Prelude M_Canonical M_Forcing M_Dmp M_Base M_DmpObject M_Ridge M_SpringDamper
  M_Quaternion M_Cartesian S_Loops S_Dmp S_Attributes S_Stability P_Loops P_Forcing P_DmpStep P_Stability P_CartesianHistory
  P_Cartesian P_DmpObject P_Components P_Disturbed
  Properties_Forcing Properties_Dmp Properties_DmpObject Properties_DmpState Properties_Goal Properties_Equivariance Properties_Continuity
  Properties_Stability Properties_ContinuityAll Properties_Cartesian Properties_CartesianObject Properties_Attributes
  Properties_CartesianHistory Properties_CartesianMore Properties_RobustAll Properties_Moving.
Import ListNotations.
Open Scope R_scope.
Set Bullet Behavior "Strict Subproofs".

(** ** Specification *)
(** As [chase] in Properties_Moving.v: [k] rounds of [configure(goal_y=...)] with a pose and
    [step] from the state that was returned last. *)
Fixpoint cart_chase (fn : step_function) (i : impl) (goals : nat -> arr) (k : nat) (y yd : arr) (o : cart)
  : cart * res (arr * arr) :=
  match k with
  | O => (o, Ok (y, yd))
  | S k =>
      match cart_chase fn i goals k y yd o with
      | (o, Ok (y, yd)) =>
          match cart_configure (goal_only (goals k)) o with
          | (o, Ok _) => cart_step y yd None fn i o
          | (o, Err e) => (o, Err e)
          end
      | (o, Err e) => (o, Err e)
      end
  end.

(** ** Proofs *)
Lemma cart_exec_shapes c o : cart_shapes o -> cart_shapes (cart_exec c o).
Proof.
  intros H. destruct c; cbn [cart_exec].
  - now apply cart_configure_shapes.
  - destruct H as (H0 & H0' & H1 & H2 & H3 & H4 & H5 & H6 & H7 & H8 & H9 & H10 & H11).
    unfold cart_shapes; cbn. repeat split; auto.
  - destruct H as (H0 & H0' & H1 & H2 & H3 & H4 & H5 & H6 & H7 & H8 & H9 & H10 & H11).
    unfold cart_step. destruct (Nat.eqb_spec (alen last_y) 7) as [Hy|]; cbn [negb fst];
      [|unfold cart_shapes; repeat split; auto].
    destruct (Nat.eqb_spec (alen last_yd) 6) as [Hyd|]; cbn [negb fst];
      [|unfold cart_shapes; repeat split; auto].
    cbv zeta. unfold assign_slice. cbn [set_t set_last_t p_current_y p_current_yd].
    rewrite Hy, Hyd, H7, H8, !Nat.eqb_refl.
    destruct (run_step_function _ _ _ _ _) as [[? ?]|];
      [|unfold cart_shapes; cbn; repeat split; auto].
    destruct (q_step _ _ _ _ _) as [[? ?]|]; unfold cart_shapes; cbn; repeat split; auto.
  - unfold cart_imitate. destruct (negb _); [exact H|].
    destruct (dmp_imitate _ _ _ _ _ _ _ _ _ _ _ _) as [[[w ?] ?]|]; [|exact H].
    cbv zeta. destruct (dmp_quaternion_imitation _ _ _ _ _ _ _ _ _ _ _ _ _);
      [apply cart_configure_shapes|]; exact H.
  - unfold cart_set_weights. destruct (assign_rows _ _); [|exact H].
    cbv zeta. destruct (assign_rows _ _); exact H.
  - unfold cart_set_execution_time. cbv zeta.
    destruct (init_forcing_term _ _ _); [|exact H].
    destruct (init_forcing_term _ _ _); exact H.
  - exact H.
  - exact H.
Qed.
Lemma cart_made_shapes o : cart_made o -> cart_shapes o.
Proof.
  intros (jp & jr & x & dt & n & idt & sm & al & be & o0 & cs & E & ->).
  assert (H := C23_cartesian_shapes o0 (cr_new _ _ _ _ _ _ _ _ _ _ E)).
  clear E. unfold cart_history. revert o0 H. induction cs as [|c cs IH]; intros o0 H; [exact H|].
  cbn [fold_left]. apply IH. now apply cart_exec_shapes.
Qed.

Definition cart_goal_to (g : arr) (o : cart) : cart := cart_with_base (set_goal_y g (k_base o)) o.
Lemma cart_configure_goal g o : alen g = 7%nat -> p_n_dims (k_base o) = 7%nat ->
  cart_configure (goal_only g) o = (cart_goal_to g o, Ok tt).
Proof.
  intros Lg H7. unfold cart_configure, configure. cbn -[Nat.eqb].
  unfold check_1d_array_length. rewrite Lg, H7, Nat.eqb_refl. reflexivity.
Qed.
Lemma position_part_goal o d g : position_part o d -> position_part (cart_goal_to g o) (goal_to (first3 g) d).
Proof. intros []. constructor; auto. intros j _. reflexivity. Qed.
Lemma at_state_goal d y yd g : at_state d y yd -> at_state (goal_to g d) y yd.
Proof. exact (fun H => H). Qed.

(** One step of both. *)
Lemma cart_step_part fn i o d y yd y3 yd3 :
  cart_shapes o -> 0 < k_execution_time o -> 0 < k_dt o -> 0 < k_int_dt o ->
  alen y = 7%nat -> alen yd = 6%nat ->
  position_part o d -> at_state d y yd -> alen y3 = 3%nat -> alen yd3 = 3%nat ->
  exists o' y' yd' d' y3' yd3',
    cart_step y yd None fn i o = (o', Ok (y', yd')) /\ dmp_step y3 yd3 None (Some fn) d = (d', Ok (y3', yd3'))
    /\ same_cart o o' /\ cart_shapes o' /\ alen y' = 7%nat /\ alen yd' = 6%nat
    /\ position_part o' d' /\ at_state d' y' yd' /\ alen y3' = 3%nat /\ alen yd3' = 3%nat
    /\ same3 (aget y') (aget y3') /\ same3 (aget yd') (aget yd3').
Proof.
  intros Hsh Hx Hdt Hi Ly Lyd Hpp Hat Hl3 Hld3.
  assert (H7 : alen (p_current_y (k_base o)) = 7%nat) by apply Hsh.
  assert (H6 : alen (p_current_yd (k_base o)) = 6%nat) by apply Hsh.
  destruct (step_function_total fn (cart_pos_args o None) (p_t (k_base o)) (p_t (k_base o) + k_dt o)
      (slice 0 3 (aget y), slice 0 3 (aget yd))) as [[yp0 ydp0] Ep0]; [exact Hx|exact Hi|lra|].
  destruct (q_step_total i (cart_rot_args o None) (p_t (k_base o)) (p_t (k_base o) + k_dt o)
      (orientation y, angular yd)) as [[q0 w0] Eq0]; [exact Hx|exact Hi|lra|].
  destruct (cart_step_intro y yd None fn i o yp0 ydp0 q0 w0) as [o1 E1]; auto. clear Ep0 Eq0.
  destruct (cart_step_ok _ _ _ _ _ _ _ _ _ E1 H7 H6)
      as (yp & ydp & q & w & Ep & Eq & E2 & E3 & Hsame & Ht & H7' & H6').
  rewrite E2, E3 in E1. clear E2 E3 yp0 ydp0 q0 w0.
  assert (Hs1' : cart_shapes o1).
  { pose proof (cart_exec_shapes (KStep y yd None fn i) o Hsh) as X. cbn [cart_exec] in X. rewrite E1 in X. exact X. }
  exists o1, (pose yp q), (twist ydp w).
  rewrite dmp_step_eq by (rewrite (pp_dims _ _ Hpp); auto). cbv zeta.
  destruct (at_state_norm _ _ _ Hat) as (N1 & N2 & N3 & N4).
  pose proof (norm_params d) as Hnp. pose proof (tick_params (norm d)) as Htp.
  assert (Htn : p_t (o_base (norm d)) = p_t (o_base d)) by (unfold norm; destruct (o_initialized d); reflexivity).
  assert (Hpn : position_part o (norm d)).
  { eapply position_part_same; [exact Hpp| |exact Hnp|rewrite Htn; apply (pp_t _ _ Hpp)].
    unfold same_cart; repeat split. }
  change (p_current_y (o_base (tick (norm d)))) with (p_current_y (o_base (norm d))).
  change (p_current_yd (o_base (tick (norm d)))) with (p_current_yd (o_base (norm d))).
  set (te := vsub _ _).
  change (step_args (tick (norm d)) None te) with (step_args (norm d) None te).
  rewrite (pp_t _ _ Hpp), (pp_dt _ _ Hpp).
  pose proof (step_on lt3 id3 fn (cart_pos_args o None) (step_args (norm d) None te)
      (p_t (k_base o)) (p_t (k_base o) + k_dt o)
      (slice 0 3 (aget y), slice 0 3 (aget yd))
      (aget (p_current_y (o_base (norm d))), aget (p_current_yd (o_base (norm d))))) as HS.
  unfold res_on in HS.
  rewrite Ep in HS.
  assert (HS' := HS (position_part_agree o (norm d) None None te Hpn I)). clear HS.
  cbn [cart_pos_args a_start_t a_start_yd step_args] in HS'.
  specialize (HS' (fun _ => same3_slice _ _ (pp_start_yd _ _ Hpn))).
  specialize (HS' (conj (same3_slice _ _ N1) (same3_slice _ _ N2))).
  destruct (run_step_function fn (step_args (norm d) None te) _ _ _) as [[yp' ydp']|]; [|contradiction].
  destruct HS' as [S1 S2]. change (same3 yp yp') in S1. change (same3 ydp ydp') in S2.
  set (d1 := with_base _ _).
  assert (Hs1 : same_params d d1).
  { eapply same_params_trans; [exact Hnp|]. unfold d1, same_params; cbn; repeat split. }
  eexists d1, _, _. split; [exact E1|]. split; [reflexivity|]. split; [exact Hsame|]. split; [exact Hs1'|].
  split; [reflexivity|]. split; [reflexivity|].
  split.
  { eapply position_part_same; [exact Hpp|exact Hsame|exact Hs1|].
    unfold d1. cbn. rewrite Ht, Htn.
    replace (o_dt (norm d)) with (o_dt d) by (destruct Hnp as (_ & -> & _); reflexivity).
    now rewrite (pp_t _ _ Hpp), (pp_dt _ _ Hpp). }
  split.
  { unfold at_state, d1. cbn [o_initialized with_base tick].
    assert (Hin : o_initialized (norm d) = true) by (unfold norm; destruct (o_initialized d) eqn:X; auto).
    cbn [o_base p_current_y p_current_yd set_current with_base tick]. rewrite Hin.
    cbn [o_base p_current_y p_current_yd set_current with_base tick aget alen].
    rewrite N3, N4. repeat split; intros j Hj; rewrite ?pose3, ?twist3 by auto; auto. }
  split; [exact N3|]. split; [exact N4|]. split.
  - intros j Hj. cbn [aget]. rewrite pose3 by auto. apply (S1 j Hj).
  - intros j Hj. cbn [aget]. rewrite twist3 by auto. apply (S2 j Hj).
Qed.

Lemma cart_chase_part fn i goals o d y yd :
  cart_shapes o -> 0 < k_execution_time o -> 0 < k_dt o -> 0 < k_int_dt o ->
  alen y = 7%nat -> alen yd = 6%nat -> (forall k, alen (goals k) = 7%nat) ->
  position_part o d -> at_state d y yd ->
  forall k, exists o' y' yd' d' y3' yd3',
    cart_chase fn i goals k y yd o = (o', Ok (y', yd'))
    /\ chase fn (fun k => first3 (goals k)) k (first3 y) (first3 yd) d = (d', Ok (y3', yd3'))
    /\ cart_shapes o' /\ k_execution_time o' = k_execution_time o /\ k_dt o' = k_dt o /\ k_int_dt o' = k_int_dt o
    /\ alen y' = 7%nat /\ alen yd' = 6%nat
    /\ position_part o' d' /\ at_state d' y' yd' /\ alen y3' = 3%nat /\ alen yd3' = 3%nat
    /\ same3 (aget y') (aget y3') /\ same3 (aget yd') (aget yd3').
Proof.
  intros Hsh Hx Hdt Hi Ly Lyd Lg Hpp Hat. induction k as [|k IH].
  - exists o, y, yd, d, (first3 y), (first3 yd). cbn [cart_chase chase].
    repeat (split; [reflexivity||assumption|]). split; intros j _; reflexivity.
  - destruct IH as (o1 & y1 & v1 & d1 & y3 & v3 & E & E3 & S1 & X1 & X2 & X3 & L1 & L2 & P1 & A1 & L3 & L4 & Q1 & Q2).
    cbn [cart_chase chase]. rewrite E, E3.
    rewrite cart_configure_goal by (auto; apply S1).
    rewrite configure_goal by (rewrite (pp_dims _ _ P1); reflexivity).
    destruct (cart_step_part fn i (cart_goal_to (goals k) o1) (goal_to (first3 (goals k)) d1) y1 v1 y3 v3)
      as (o2 & y2 & v2 & d2 & z3 & w3 & F & F3 & Sm & S2 & M1 & M2 & P2 & A2 & M3 & M4 & R1 & R2);
      auto using position_part_goal; cbn; try (now rewrite ?X1, ?X2, ?X3).
    { pose proof (cart_exec_shapes (KConfigure (goal_only (goals k))) o1 S1) as X. cbn [cart_exec] in X.
      rewrite cart_configure_goal in X by (auto; apply S1). exact X. }
    exists o2, y2, v2, d2, z3, w3.
    destruct Sm as (B1 & B2 & _ & B4 & _). cbn in B1, B2, B4.
    split; [exact F|]. split; [exact F3|]. split; [exact S2|].
    split; [congruence|]. split; [congruence|]. split; [congruence|]. auto 10.
Qed.

(** ** C133 *)
(** The number [K] depends on the integrator, the gains and the step lengths only; the
    orientations of the goals and the orientation of the hand do not matter. *)
Theorem C133_cartesian : forall fn o0 j, cart_made o0 -> (j < 3)%nat ->
  0 < k_execution_time o0 -> 0 < k_dt o0 -> 0 < k_int_dt o0 -> position_steps_shrink fn o0 j ->
  exists K, 0 <= K /\ forall i o goals y yd D,
  cart_made o -> same_position_settings j o0 o -> 0 <= D ->
  alen y = 7%nat -> alen yd = 6%nat -> (forall k, alen (goals k) = 7%nat) ->
  slow goals j D -> k_smooth o = false \/ bounded_goals goals j ->
  forall eps, 0 < eps -> exists N, forall k, (N <= k)%nat ->
  exists o' y' yd', cart_chase fn i goals (S k) y yd o = (o', Ok (y', yd'))
    /\ Rabs (aget y' j - aget (goals k) j) <= K * D + eps
    /\ Rabs (aget yd' j) <= K * D + eps.
Proof.
  intros fn o0 j Hm0 Hj P1 P2 P3 Hst.
  destruct (cart_made_stand_in o0 Hm0) as [(d0 & Hr0 & Hd0) _].
  destruct (bounded_lag fn d0 j) as (K & HK & H);
    rewrite ?(tw_time _ _ Hd0), ?(tw_dt _ _ Hd0), ?(tw_int_dt _ _ Hd0); auto; [now apply (twin_shrinks fn o0)|].
  exists K. split; [exact HK|]. intros i o goals y yd D Hm S HD Ly Lyd Lg Hslow Hsm eps He.
  destruct (cart_made_stand_in o Hm) as [(d & Hr & Hd) _].
  destruct S as (E1 & E2 & E3 & E4 & E5 & E6 & E7 & E8).
  destruct (reachable_shapes 3 d Hr) as [Hsh Hn].
  set (d1 := {| o_base := set_current (first3 y) (first3 yd) (o_base d); o_initialized := true;
                o_execution_time := o_execution_time d; o_dt := o_dt d; o_n_weights_per_dim := o_n_weights_per_dim d;
                o_int_dt := o_int_dt d; o_p_gain := o_p_gain d; o_smooth_scaling := o_smooth_scaling d;
                o_forcing_term := o_forcing_term d; o_alpha_y := o_alpha_y d; o_beta_y := o_beta_y d |}).
  assert (Hpp : position_part o d1) by (destruct (twin_position_part o d Hd); constructor; auto).
  assert (Hat : at_state d1 y yd) by (unfold at_state, d1; cbn; repeat split; intros u _; reflexivity).
  assert (Hsh1 : shapes_ok d1) by (unfold shapes_ok, d1 in *; cbn in *; intuition).
  assert (Ln : 3%nat = p_n_dims (o_base d1)) by (symmetry; exact Hn).
  destruct (H d1 (fun k => first3 (goals k)) (first3 y) (first3 yd) D) with (eps := eps) as [N HN]; auto.
  - apply (reachable_phase_ok 3 d Hr).
  - unfold tuned_like, d1. cbn.
    rewrite (tw_time _ _ Hd), (tw_dt _ _ Hd), (tw_int_dt _ _ Hd), (tw_gain _ _ Hd),
      (tw_time _ _ Hd0), (tw_dt _ _ Hd0), (tw_int_dt _ _ Hd0), (tw_gain _ _ Hd0),
      (twin_alpha o d j Hd), (twin_beta o d j Hd), (twin_alpha o0 d0 j Hd0), (twin_beta o0 d0 j Hd0) by auto. auto 10.
  - cbn. rewrite (tw_smooth _ _ Hd). exact Hsm.
  - exists N. intros k Hk. destruct (HN k Hk) as (d2 & y3 & v3 & F & B1 & B2).
    destruct (cart_chase_part fn i goals o d1 y yd (cart_made_shapes o Hm)) with (k := Datatypes.S k)
      as (o2 & y2 & v2 & d3 & z3 & w3 & G & G3 & _ & _ & _ & _ & _ & _ & _ & _ & _ & _ & R1 & R2);
      try congruence; auto.
    rewrite F in G3. injection G3 as <- <- <-.
    exists o2, y2, v2. split; [exact G|]. rewrite <- (R1 j Hj), <- (R2 j Hj). cbn [first3 aget] in B1. auto.
Qed.

(** A hand that follows a goal that comes to rest. *)
Corollary C133_cartesian_settling_goal : forall fn i o j goals y yd, cart_made o -> (j < 3)%nat ->
  0 < k_execution_time o -> 0 < k_dt o -> 0 < k_int_dt o -> position_steps_shrink fn o j ->
  alen y = 7%nat -> alen yd = 6%nat -> (forall k, alen (goals k) = 7%nat) ->
  slow goals j 0 -> k_smooth o = false \/ bounded_goals goals j ->
  forall eps, 0 < eps -> exists N, forall k, (N <= k)%nat ->
  exists o' y' yd', cart_chase fn i goals (S k) y yd o = (o', Ok (y', yd'))
    /\ Rabs (aget y' j - aget (goals k) j) <= eps /\ Rabs (aget yd' j) <= eps.
Proof.
  intros fn i o j goals y yd Hm Hj P1 P2 P3 Hst Ly Lyd Lg Hs Hsm eps He.
  destruct (C133_cartesian fn o j Hm Hj P1 P2 P3 Hst) as (K & HK & H).
  assert (HT : same_position_settings j o o) by (unfold same_position_settings; repeat split).
  destruct (H i o goals y yd 0 Hm HT ltac:(lra) Ly Lyd Lg Hs Hsm eps He) as [N HN].
  exists N. intros k Hk. destruct (HN k Hk) as (o' & y' & yd' & E & B1 & B2).
  exists o', y', yd'. split; [exact E|]. lra.
Qed.

(** A CartesianDMP that is not critically damped, and a goal that swings in all components. *)
Example C133_cartesian_satisfiable : exists o, cart_made o
  /\ 0 < k_execution_time o /\ 0 < k_dt o /\ 0 < k_int_dt o
  /\ position_steps_shrink RK4 o 1 /\ position_steps_shrink Euler o 1 /\ same_position_settings 1 o o
  /\ let goals k := {| alen := 7; aget := fun _ => if Nat.even k then 1 else -1 |} in
     (forall k, alen (goals k) = 7%nat) /\ slow goals 1 2 /\ bounded_goals goals 1.
Proof.
  destruct C104_more_satisfiable as (o & o' & ts & ys & ts' & ys' & H1 & H2 & H3 & H4 & H5 & H6 & H7 & H8 & H9 & _).
  exists o. repeat (split; [assumption|]).
  intros goals. split; [reflexivity|]. split.
  - intros e He. exists 0%nat. intros k _. unfold goals. cbn [aget].
    destruct (Nat.even (S k)), (Nat.even k); apply Rabs_le; lra.
  - exists 1. intros k. unfold goals. cbn [aget]. destruct (Nat.even k); apply Rabs_le; lra.
Qed.
