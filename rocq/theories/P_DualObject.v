(** The class DualCartesianDMP: shapes, steps, the loop of [open_loop]. *)
From Coq Require Import Reals List Arith Bool Lia Lra ZArith FunctionalExtensionality.
From Verif Require Import M_Prelude M_Canonical M_Forcing M_Dmp M_Base M_DmpObject M_SpringDamper
  M_Quaternion M_Cartesian M_Dual S_Loops S_Rotation P_Loops P_Quaternion P_Cartesian P_DmpObject
  P_Components P_Dual.
Import ListNotations.
Open Scope R_scope.
Set Bullet Behavior "Strict Subproofs".

(** Objects a program can obtain by creating a DualCartesianDMP and calling its
    methods, with any coupling terms. *)
Inductive dual_reachable : dmp -> Prop :=
| dr_new : forall j x dt n int_dt pg sm al be o,
    dual_new j x dt n int_dt pg sm al be = Ok o -> dual_reachable o
| dr_configure : forall c o, dual_reachable o -> dual_reachable (fst (dmp_configure c o))
| dr_reset : forall o, dual_reachable o -> dual_reachable (dmp_reset o)
| dr_step : forall (CS : Type) y yd ct i (cs : CS) o, dual_reachable o ->
    dual_reachable (fst (fst (dual_step y yd ct i cs o)))
| dr_open_loop : forall (CS : Type) rt ct i (cs : CS) o, dual_reachable o ->
    dual_reachable (fst (fst (dual_open_loop rt ct i cs o)))
| dr_imitate : forall a b c d reg dm lam al o, dual_reachable o ->
    dual_reachable (fst (dual_imitate a b c d reg dm lam al o))
| dr_set_weights : forall w o, dual_reachable o -> dual_reachable (fst (dual_set_weights w o))
| dr_set_execution_time : forall j x o, dual_reachable o ->
    dual_reachable (fst (dmp_set_execution_time j x o))
| dr_set_dt : forall x o, dual_reachable o -> dual_reachable (with_dt x o)
| dr_set_int_dt : forall x o, dual_reachable o -> dual_reachable (with_int_dt x o).

Definition dual_shapes (o : dmp) : Prop :=
  let p := o_base o in
  p_n_dims p = 14%nat /\ p_n_vel_dims p = 12%nat
  /\ alen (p_start_y p) = 14%nat /\ alen (p_start_yd p) = 12%nat /\ alen (p_start_ydd p) = 12%nat
  /\ alen (p_goal_y p) = 14%nat /\ alen (p_goal_yd p) = 12%nat /\ alen (p_goal_ydd p) = 12%nat
  /\ alen (p_current_y p) = 14%nat /\ alen (p_current_yd p) = 12%nat
  /\ alen (o_alpha_y o) = 12%nat /\ alen (o_beta_y o) = 12%nat
  /\ ft_n (o_forcing_term o) = o_n_weights_per_dim o /\ (2 <= o_n_weights_per_dim o)%nat.

(** The pose with which [step] compares [last_y]. *)
Definition remembered (o : dmp) : arr :=
  if o_initialized o then p_current_y (o_base o) else p_start_y (o_base o).

Lemma dual_step_eq {CS} y yd ct i (cs : CS) o : dual_shapes o -> alen y = 14%nat -> alen yd = 12%nat ->
  dual_step y yd ct i cs o
  = let te := dual_tracking_error (aget (remembered o)) (aget y) in
    let o1 := with_initialized true (with_base (set_current y yd (o_base (tick o))) o) in
    match dual_step_function i (dual_args o te) ct (p_t (o_base o)) (p_t (o_base o) + o_dt o)
            (aget y, aget yd) cs with
    | Err e => (o1, cs, Err e)
    | Ok ((y', yd'), cs) =>
        let y' := {| alen := 14; aget := y' |} in
        let yd' := {| alen := 12; aget := yd' |} in
        (with_base (set_current y' yd' (o_base o1)) o1, cs, Ok (y', yd'))
    end.
Proof.
  intros (D1 & D2 & D3 & D4 & D5 & D6 & D7 & D8 & D9 & D10 & D11 & D12 & D13 & D14) Hy Hyd.
  destruct o as [[nd nv t lt sy syd sydd gy gyd gydd cy cyd] ini x dt n idt pg sm f al be].
  cbn in *. unfold dual_step. rewrite Hy, Hyd. cbn [Nat.eqb negb]. cbv zeta.
  destruct ini; cbn [o_initialized with_base o_base set_t set_last_t set_current p_current_y p_current_yd
    p_start_y p_start_yd with_initialized p_t o_dt tick remembered];
  unfold assign_slice; cbn [alen]; rewrite Hy, Hyd; rewrite ?D3, ?D4, ?D9, ?D10; cbn [Nat.eqb];
  unfold remembered; cbn [o_initialized o_base p_current_y p_start_y].
  all: unfold dual_args, step_args; cbn [with_base o_base set_current p_goal_y p_goal_yd p_goal_ydd
    p_start_y p_start_yd p_start_ydd o_execution_time o_alpha_y o_beta_y o_forcing_term o_int_dt o_p_gain
    o_smooth_scaling with_initialized set_t set_last_t].
  all: destruct (dual_step_function _ _ _ _ _ _ _) as [[[y' yd'] cs']|e]; rewrite ?Hy, ?Hyd; reflexivity.
Qed.

Lemma dual_step_lengths {CS} y yd ct i (cs : CS) o o' cs' r :
  dual_step y yd ct i cs o = (o', cs', Ok r) -> alen y = 14%nat /\ alen yd = 12%nat.
Proof.
  unfold dual_step. intros E.
  destruct (Nat.eqb_spec (alen y) 14) as [Hy|]; [|discriminate].
  destruct (Nat.eqb_spec (alen yd) 12) as [Hyd|]; [|discriminate]. auto.
Qed.

Lemma same_params_shapes o o' : same_params o o' -> dual_shapes o ->
  alen (p_current_y (o_base o')) = 14%nat -> alen (p_current_yd (o_base o')) = 12%nat -> dual_shapes o'.
Proof.
  intros (A1 & A2 & A3 & A4 & A5 & A6 & A7 & A8 & A9 & A10 & A11 & A12 & A13 & A14 & A15 & A16 & A17) H H1 H2.
  unfold dual_shapes in *. cbv zeta in *.
  rewrite A10, A11, A12, A13, A14, A15, A16, A17, A8, A9, A7, A3. tauto.
Qed.

(** What a successful call of [step] computes. *)
Lemma dual_step_ok {CS} y yd ct i (cs : CS) o o' cs' y' yd' :
  dual_step y yd ct i cs o = (o', cs', Ok (y', yd')) -> dual_shapes o ->
  alen y = 14%nat /\ alen yd = 12%nat
  /\ dual_step_function i (dual_args o (dual_tracking_error (aget (remembered o)) (aget y))) ct
       (p_t (o_base o)) (p_t (o_base o) + o_dt o) (aget y, aget yd) cs = Ok ((aget y', aget yd'), cs')
  /\ alen y' = 14%nat /\ alen yd' = 12%nat
  /\ same_params o o' /\ p_t (o_base o') = p_t (o_base o) + o_dt o
  /\ o_initialized o' = true /\ p_current_y (o_base o') = y' /\ p_current_yd (o_base o') = yd'
  /\ dual_shapes o'.
Proof.
  intros E Hs. destruct (dual_step_lengths _ _ _ _ _ _ _ _ _ E) as [Hy Hyd].
  rewrite dual_step_eq in E by auto. cbv zeta in E.
  destruct (dual_step_function _ _ _ _ _ _ _) as [[[y1 yd1] cs1]|] eqn:Ef; [|discriminate].
  injection E as <- <- <- <-. cbn [alen aget].
  assert (Hp : same_params o (with_base
   (set_current {| alen := 14; aget := y1 |} {| alen := 12; aget := yd1 |}
      (o_base (with_initialized true (with_base (set_current y yd (o_base (tick o))) o))))
   (with_initialized true (with_base (set_current y yd (o_base (tick o))) o)))).
  { unfold same_params. cbn. repeat split. }
  repeat (split; [first [assumption | reflexivity]|]).
  eapply same_params_shapes; [exact Hp|exact Hs|reflexivity|reflexivity].
Qed.

Lemma dual_step_shapes {CS} y yd ct i (cs : CS) o : dual_shapes o ->
  dual_shapes (fst (fst (dual_step y yd ct i cs o))) /\ same_params o (fst (fst (dual_step y yd ct i cs o))).
Proof.
  intros Hs. destruct (Nat.eqb_spec (alen y) 14) as [Hy|Hy].
  2:{ unfold dual_step. apply Nat.eqb_neq in Hy. rewrite Hy. cbn. auto using same_params_refl. }
  destruct (Nat.eqb_spec (alen yd) 12) as [Hyd|Hyd].
  2:{ unfold dual_step. apply Nat.eqb_neq in Hyd. rewrite Hy, Hyd. cbn. auto using same_params_refl. }
  rewrite dual_step_eq by auto. cbv zeta.
  destruct (dual_step_function _ _ _ _ _ _ _) as [[[y1 yd1] cs1]|] eqn:Ef; cbn [fst];
    match goal with |- _ /\ ?P => assert (Hp : P) by (unfold same_params; cbn; repeat split) end;
    (split; [|exact Hp]); (eapply same_params_shapes; [exact Hp|exact Hs| |]); cbn; auto.
Qed.

Lemma dual_go_shapes {CS} rt ct i : forall fuel y yd (cs : CS) o, dual_shapes o ->
  dual_shapes (fst (fst (dual_open_loop_go fuel rt ct i y yd cs o)))
  /\ same_params o (fst (fst (dual_open_loop_go fuel rt ct i y yd cs o))).
Proof.
  induction fuel as [|fuel IH]; intros y yd cs o Hs; cbn [dual_open_loop_go];
    (destruct (Rlt_dec _ _); [|cbn; auto using same_params_refl]).
  - cbn. auto using same_params_refl.
  - pose proof (dual_step_shapes y yd ct i cs o Hs) as [H1 H2].
    destruct (dual_step y yd ct i cs o) as [[o1 cs1] [[y1 yd1]|e]]; cbn [fst] in H1, H2; [|cbn; auto].
    destruct (IH y1 yd1 cs1 o1 H1) as [H3 H4].
    destruct (dual_open_loop_go fuel rt ct i y1 yd1 cs1 o1) as [[o2 cs2] [[ts ys]|e]]; cbn [fst] in *;
      eauto using same_params_trans.
Qed.

Lemma dual_open_loop_shapes {CS} rt ct i (cs : CS) o : dual_shapes o ->
  dual_shapes (fst (fst (dual_open_loop rt ct i cs o)))
  /\ same_params o (fst (fst (dual_open_loop rt ct i cs o))).
Proof.
  intros Hs. unfold dual_open_loop. destruct i as [i|]; [|cbn; auto using same_params_refl]. cbv zeta.
  set (r := match rt with Some x => x | None => o_execution_time o end).
  set (o1 := with_base (set_t 0 (o_base o)) o).
  assert (H1 : same_params o o1) by (unfold same_params; cbn; repeat split).
  assert (H2 : dual_shapes o1) by exact Hs.
  destruct (dual_go_shapes r ct i (dual_fuel r (o_dt o1)) (p_start_y (o_base o1)) (p_start_yd (o_base o1)) cs o1 H2)
    as [H3 H4].
  destruct (dual_open_loop_go _ _ _ _ _ _ _ _) as [[o2 cs2] [[ts ys]|e]]; cbn [fst] in *.
  - split; [exact H3|]. apply (same_params_trans o o1); [exact H1|]. apply (same_params_trans o1 o2); [exact H4|].
    unfold same_params; cbn; repeat split.
  - split; [exact H3|]. exact (same_params_trans _ _ _ H1 H4).
Qed.

Lemma dual_configure_shapes c o : dual_shapes o -> dual_shapes (fst (dmp_configure c o)).
Proof.
  intros H. unfold dmp_configure.
  assert (HC : forall c, configure_valid c (o_base o) -> dual_shapes (with_base (configured c (o_base o)) o)).
  { clear c. intros c (V1 & V2 & V3 & V4 & V5 & V6).
    destruct H as (D1 & D2 & D3 & D4 & D5 & D6 & D7 & D8 & D9 & D10 & D11 & D12 & D13 & D14).
    unfold dual_shapes; simpl. rewrite D1, D2 in *.
    destruct (c_start_y c), (c_start_yd c), (c_start_ydd c), (c_goal_y c), (c_goal_yd c),
      (c_goal_ydd c); simpl in *; repeat split; auto. }
  destruct (configure_cases c (o_base o)) as [[V ->] | [_ (k & _ & V & _ & ->)]]; simpl; now apply HC.
Qed.

Lemma dual_weights_shapes w o : dual_shapes o ->
  dual_shapes (with_forcing_term (set_ft_weights w (o_forcing_term o)) o).
Proof. exact (fun H => H). Qed.

Theorem dual_reachable_shapes o : dual_reachable o -> dual_shapes o.
Proof.
  intros H. induction H.
  - unfold dual_new in H.
    destruct (init_forcing_term j n x) as [fp|] eqn:E1; [|discriminate]. cbn [bind] in H.
    destruct (ensure_1d_array al 12) as [a|] eqn:E2; [|discriminate]. cbn [bind] in H.
    destruct (ensure_1d_array be 12) as [b|] eqn:E3; [|discriminate]. cbn [bind] in H.
    injection H as <-. apply ensure_1d_array_len in E2. apply ensure_1d_array_len in E3.
    apply init_forcing_term_inv in E1. destruct E1 as (_ & E1 & E4).
    apply forcing_term_init_n in E4.
    unfold dual_shapes. cbn. repeat split; auto; try tauto.
  - now apply dual_configure_shapes.
  - destruct IHdual_reachable as (D1 & D2 & D3 & D4 & D5 & D6 & D7 & D8 & D9 & D10 & D11 & D12 & D13 & D14).
    unfold dual_shapes; cbn. repeat split; auto.
  - now apply dual_step_shapes.
  - now apply dual_open_loop_shapes.
  - unfold dual_imitate. destruct (negb _); [exact IHdual_reachable|]. cbv zeta.
    repeat match goal with |- context [match ?x with Ok _ => _ | Err _ => _ end] =>
      destruct x; [|exact IHdual_reachable] end.
    apply dual_configure_shapes. exact IHdual_reachable.
  - unfold dual_set_weights. destruct (reshape _ _ _); [|exact IHdual_reachable].
    exact IHdual_reachable.
  - unfold dmp_set_execution_time. cbv zeta.
    destruct (init_forcing_term _ _ _) as [f|] eqn:E; [|exact IHdual_reachable].
    destruct IHdual_reachable as (D1 & D2 & D3 & D4 & D5 & D6 & D7 & D8 & D9 & D10 & D11 & D12 & D13 & D14).
    apply init_forcing_term_inv in E. destruct E as (_ & E1 & E4). apply forcing_term_init_n in E4.
    unfold dual_shapes. cbn in *. repeat split; auto. tauto.
  - exact IHdual_reachable.
  - exact IHdual_reachable.
Qed.

(** ** Runs *)
Lemma dual_step_function_total {CS} i a (ct : option (stateful_coupling CS)) lt t s cs :
  0 < a_int_dt a -> lt <= t -> exists s' cs', dual_step_function i a ct lt t s cs = Ok (s', cs').
Proof.
  intros Hi Ht. unfold dual_step_function.
  destruct (substeps_tiles lt t (a_int_dt a) Hi Ht) as (l & _ & Hl). rewrite Hl. cbn [rmap]. eauto.
Qed.

Lemma dual_step_total {CS} y yd ct i (cs : CS) o : dual_shapes o -> alen y = 14%nat -> alen yd = 12%nat ->
  0 < o_int_dt o -> 0 <= o_dt o ->
  exists o' cs' y' yd', dual_step y yd ct i cs o = (o', cs', Ok (y', yd')).
Proof.
  intros Hs Hy Hyd Hi Hdt. rewrite dual_step_eq by auto. cbv zeta.
  destruct (dual_step_function_total i (dual_args o (dual_tracking_error (aget (remembered o)) (aget y))) ct
    (p_t (o_base o)) (p_t (o_base o) + o_dt o) (aget y, aget yd) cs) as ([y' yd'] & cs' & E).
  { exact Hi. } { lra. }
  rewrite E. eauto 6.
Qed.

Lemma dual_n_steps_total {CS} ct i : forall n y yd (cs : CS) o, dual_shapes o -> alen y = 14%nat -> alen yd = 12%nat ->
  0 < o_int_dt o -> 0 <= o_dt o ->
  exists o' cs' y' yd', dual_n_steps ct i n y yd cs o = (o', cs', Ok (y', yd')).
Proof.
  induction n as [|n IH]; intros y yd cs o Hs Hy Hyd Hi Hdt; [cbn; eauto 6|].
  destruct (dual_step_total y yd ct i cs o Hs Hy Hyd Hi Hdt) as (o1 & cs1 & y1 & yd1 & E).
  cbn [dual_n_steps]. rewrite E.
  destruct (dual_step_ok _ _ _ _ _ _ _ _ _ _ E Hs) as (_ & _ & _ & L1 & L2 & Hp & _ & _ & _ & _ & Hs1).
  destruct Hp as (A1 & A2 & A3 & A4 & _). apply IH; auto; congruence.
Qed.

(** The loop of [open_loop]: [n] steps as long as the clock is below [run_t]. *)
Lemma dual_go_spec {CS} rt ct i : forall fuel y yd (cs : CS) o o' cs' ts ys, dual_shapes o ->
  dual_open_loop_go fuel rt ct i y yd cs o = (o', cs', Ok (ts, ys)) ->
  length ts = length ys
  /\ (forall k, (k < length ts)%nat ->
        nth k ts 0 = p_t (o_base o) + INR (S k) * o_dt o
        /\ p_t (o_base o) + INR k * o_dt o < rt
        /\ exists o1 cs1 y1 yd1, dual_n_steps ct i (S k) y yd cs o = (o1, cs1, Ok (y1, yd1))
             /\ nth_error ys k = Some y1)
  /\ rt <= p_t (o_base o) + INR (length ts) * o_dt o
  /\ (exists y1 yd1, dual_n_steps ct i (length ts) y yd cs o = (o', cs', Ok (y1, yd1)))
  /\ same_params o o' /\ dual_shapes o'.
Proof.
  induction fuel as [|fuel IH]; intros y yd cs o o' cs' ts ys Hs E; cbn [dual_open_loop_go] in E.
  - destruct (Rlt_dec _ _); [discriminate|]. injection E as <- <- <- <-. cbn.
    split; [reflexivity|]. split; [intros; lia|]. split; [lra|]. split; [eauto|].
    split; [apply same_params_refl|exact Hs].
  - destruct (Rlt_dec _ _) as [Hlt|].
    2:{ injection E as <- <- <- <-. cbn.
        split; [reflexivity|]. split; [intros; lia|]. split; [lra|]. split; [eauto|].
        split; [apply same_params_refl|exact Hs]. }
    destruct (dual_step y yd ct i cs o) as [[o1 cs1] [[y1 yd1]|e]] eqn:E1; [|discriminate].
    destruct (dual_step_ok _ _ _ _ _ _ _ _ _ _ E1 Hs) as (L1 & L2 & Ef & L3 & L4 & Hp & Ht & _ & _ & _ & Hs1).
    destruct (dual_open_loop_go fuel rt ct i y1 yd1 cs1 o1) as [[o2 cs2] [[ts1 ys1]|e]] eqn:E2; [|discriminate].
    injection E as <- <- <- <-.
    destruct (IH _ _ _ _ _ _ _ _ Hs1 E2) as (I1 & I2 & I3 & I4 & I5 & I6).
    pose proof Hp as (A1 & A2 & _). rewrite Ht, A2 in *.
    cbn [length]. split; [congruence|]. split; [|split; [|split; [|split]]].
    + intros [|k] Hk.
      * cbn [nth nth_error]. split; [cbn; lra|]. split; [cbn; lra|].
        exists o1, cs1, y1, yd1. cbn [dual_n_steps]. rewrite E1. auto.
      * cbn [nth nth_error]. destruct (I2 k) as (J1 & J2 & o3 & cs3 & y3 & yd3 & J3 & J4); [lia|].
        split; [rewrite J1, (S_INR (S k)); lra|]. split; [rewrite S_INR; lra|].
        exists o3, cs3, y3, yd3. split; [|exact J4].
        change (dual_n_steps ct i (S (S k)) y yd cs o) with
          (match dual_step y yd ct i cs o with
           | (o, cs, Err e) => (o, cs, Err e)
           | (o, cs, Ok (y, yd)) => dual_n_steps ct i (S k) y yd cs o end).
        rewrite E1. exact J3.
    + rewrite S_INR. lra.
    + destruct I4 as (y3 & yd3 & I4). exists y3, yd3. cbn [dual_n_steps]. rewrite E1. exact I4.
    + exact (same_params_trans _ _ _ Hp I5).
    + exact I6.
Qed.

Lemma dual_go_total {CS} rt ct i : forall fuel y yd (cs : CS) o, dual_shapes o -> alen y = 14%nat ->
  alen yd = 12%nat -> 0 < o_int_dt o -> 0 < o_dt o -> rt <= p_t (o_base o) + INR fuel * o_dt o ->
  exists o' cs' ts ys, dual_open_loop_go fuel rt ct i y yd cs o = (o', cs', Ok (ts, ys)).
Proof.
  induction fuel as [|fuel IH]; intros y yd cs o Hs Hy Hyd Hi Hdt Hf; cbn [dual_open_loop_go].
  - cbn in Hf. destruct (Rlt_dec _ _); [lra|]. eauto 6.
  - destruct (Rlt_dec _ _); [|eauto 6].
    destruct (dual_step_total y yd ct i cs o) as (o1 & cs1 & y1 & yd1 & E); auto; [lra|]. rewrite E.
    destruct (dual_step_ok _ _ _ _ _ _ _ _ _ _ E Hs) as (_ & _ & _ & L1 & L2 & Hp & Ht & _ & _ & _ & Hs1).
    pose proof Hp as (A1 & A2 & A3 & A4 & _).
    destruct (IH y1 yd1 cs1 o1) as (o2 & cs2 & ts & ys & E2); auto; try congruence.
    + rewrite Ht, A2. rewrite S_INR in Hf. lra.
    + rewrite E2. eauto 6.
Qed.

Lemma dual_fuel_enough rt dt : 0 < dt -> rt <= INR (dual_fuel rt dt) * dt.
Proof.
  intros Hd. unfold dual_fuel. destruct (Rle_dec rt 0) as [H0|H0].
  - pose proof (pos_INR (Z.to_nat (up (rt / dt)))). nra.
  - destruct (archimed (rt / dt)) as [H1 _].
    assert (0 < rt / dt) by (apply Rdiv_lt_0_compat; lra).
    assert (0 < up (rt / dt))%Z by (apply lt_IZR; lra).
    rewrite INR_IZR_INZ, Z2Nat.id by lia.
    apply Rlt_le. apply Rmult_lt_reg_r with (/ dt); [now apply Rinv_0_lt_compat|].
    rewrite Rmult_assoc, Rinv_r, Rmult_1_r by lra. exact H1.
Qed.
