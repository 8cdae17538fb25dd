(** C110: a two-armed movement is learned and played back by a DualCartesianDMP as each
    arm would be by a CartesianDMP of its own.  Final statements. *)
From Coq Require Import Reals ZArith List Arith Bool Lia Lra Psatz FunctionalExtensionality.
From Coquelicot Require Import Coquelicot.
From Verif Require Import M_Prelude M_Canonical M_Forcing M_Dmp M_Base M_DmpObject M_Ridge M_SpringDamper
  M_Quaternion M_Cartesian M_Dual S_Loops S_Rotation S_Frames S_Turning S_Attributes P_Loops P_Canonical P_Forcing
  P_DmpObject P_Quaternion P_Cartesian P_Components P_Dual P_DualObject P_Reproduction P_Orient P_Turning
  Properties_Forcing Properties_DmpObject Properties_Goal Properties_Reproduction Properties_Equivariance
  Properties_Cartesian Properties_CartesianObject Properties_DualObject Properties_DualArm Properties_DualRuns
  Properties_Attributes Properties_Orientation Properties_CartesianHistory Properties_Frames P_TurningRun P_TurningLearn Properties_PoseReproduction.
Import ListNotations.
Open Scope R_scope.
Set Bullet Behavior "Strict Subproofs".

(** ** Specification *)
(** The initial velocity of the arm is zero (it is unless [configure] sets it). *)
Definition arm_starts_at_rest (arm : nat) (o : dmp) : Prop :=
  forall j, (j < 6)%nat -> aget (p_start_yd (o_base o)) (6 * arm + j)%nat = 0.

(** ** Proofs *)
Lemma dual_ft_made o : dual_reachable o ->
  exists g, ft_made (o_n_weights_per_dim o) g (o_forcing_term o).
Proof.
  intros H. induction H.
  - unfold dual_new in H.
    destruct (init_forcing_term j n x) as [fp|] eqn:E1; [|discriminate]. cbn [bind] in H.
    destruct (ensure_1d_array al 12) as [a|] eqn:E2; [|discriminate]. cbn [bind] in H.
    destruct (ensure_1d_array be 12) as [b|] eqn:E3; [|discriminate]. cbn [bind] in H.
    injection H as <-. apply init_forcing_term_inv in E1. destruct E1 as (_ & _ & E1).
    exists x, j, fp, (ft_weights fp). split; [exact E1|]. cbn. now destruct fp.
  - unfold dmp_configure. destruct (configure _ _). exact IHdual_reachable.
  - exact IHdual_reachable.
  - destruct (dual_step_shapes y yd ct i cs o (dual_reachable_shapes o H)) as (_ & _ & _ & A & _ & _ & _ & B & _).
    now rewrite A, B.
  - destruct (dual_open_loop_shapes rt ct i cs o (dual_reachable_shapes o H)) as (_ & _ & _ & A & _ & _ & _ & B & _).
    now rewrite A, B.
  - destruct IHdual_reachable as (g & M). exists g.
    unfold dual_imitate. destruct (negb _); [exact M|]. cbv zeta.
    destruct (rmap _ _); [|exact M]. destruct (dmp_quaternion_imitation _ _ _ _ _ _ _ _ _ _ _ _ _);
      [|cbn; now apply ft_made_weights].
    destruct (rmap _ _); [|cbn; now do 2 apply ft_made_weights].
    destruct (dmp_quaternion_imitation _ _ _ _ _ _ _ _ _ _ _ _ _); [|cbn; now do 3 apply ft_made_weights].
    unfold dmp_configure. destruct (configure _ _). cbn. now do 4 apply ft_made_weights.
  - destruct IHdual_reachable as (g & M). exists g.
    unfold dual_set_weights. destruct (reshape _ _ _); [|exact M]. cbn. now apply ft_made_weights.
  - unfold dmp_set_execution_time. cbv zeta.
    destruct (init_forcing_term _ _ _) as [f|] eqn:E; [|exact IHdual_reachable].
    apply init_forcing_term_inv in E. destruct E as (_ & _ & E). exists x, j, f. eexists. split; [exact E|reflexivity].
  - exact IHdual_reachable.
  - exact IHdual_reachable.
Qed.

(** Every arm has a twin: a CartesianDMP with the same settings that can be made with
    the constructor, [configure] and [set_weights]. *)
Lemma arm_made arm o : (arm <= 1)%nat -> dual_reachable o ->
  ft_goal_t (o_forcing_term o) = o_execution_time o ->
  exists k, cart_made k /\ cart_reachable k /\ arm_of arm o k /\ k_n k = o_n_weights_per_dim o
    /\ ft_overlap (k_fpos k) = ft_overlap (o_forcing_term o) /\ ft_overlap (k_frot k) = ft_overlap (o_forcing_term o).
Proof.
  intros Ha Hr Hg. destruct (dual_ft_made o Hr) as (g & j & f0 & w & E & Ef).
  pose proof (dual_reachable_shapes o Hr) as Hs.
  set (n := o_n_weights_per_dim o) in *. set (x := o_execution_time o) in *.
  assert (Eg : g = x).
  { pose proof (forcing_term_init_n _ _ _ _ _ _ _ _ E) as (_ & F & _). rewrite Ef in Hg. cbn in Hg. congruence. }
  subst g.
  assert (Hn : (2 <= n)%nat /\ 0 < x).
  { unfold forcing_term_init in E. destruct (Nat.leb_spec n 1); [discriminate|].
    destruct (Rle_dec x 0); [discriminate|]. split; [lia|lra]. }
  destruct Hn as [Hn Hx].
  assert (EI : init_forcing_term j n x = Ok f0).
  { unfold init_forcing_term, canonical_system_alpha. destruct (Rle_dec (1 / 100) 0); [lra|].
    destruct (Rle_dec x 0); [lra|]. cbn [bind]. 
    match goal with |- forcing_term_init _ _ _ _ _ _ ?a = _ => replace a with (- ln (1/100)) end; [exact E|].
    field. }
  set (part := fun (off len : nat) (a : arr) => {| alen := len; aget := fun i => aget a (off + i)%nat |}).
  set (k0 := {| k_base := ptp_init 7 6; k_execution_time := x; k_dt := o_dt o;
        k_n := n; k_int_dt := o_int_dt o; k_smooth := o_smooth_scaling o;
        k_fpos := f0; k_frot := f0; k_alpha := part (6 * arm)%nat 6%nat (o_alpha_y o);
        k_beta := part (6 * arm)%nat 6%nat (o_beta_y o) |}).
  assert (Enew : cart_new j j x (o_dt o) n (o_int_dt o) (o_smooth_scaling o)
      {| shape := [6%nat]; data := fun i => aget (o_alpha_y o) (6 * arm + i)%nat |}
      {| shape := [6%nat]; data := fun i => aget (o_beta_y o) (6 * arm + i)%nat |} = Ok k0).
  { unfold cart_new. rewrite EI. cbn [bind]. reflexivity. }
  set (c := {| c_t := Some (p_t (o_base o)); c_start_y := Some (part (7 * arm)%nat 7%nat (p_start_y (o_base o)));
     c_start_yd := None; c_start_ydd := None; c_goal_y := Some (part (7 * arm)%nat 7%nat (p_goal_y (o_base o)));
     c_goal_yd := None; c_goal_ydd := None |}).
  set (W := {| alen := (6 * n)%nat; aget := fun i => w (6 * arm + i / n)%nat (i mod n)%nat |}).
  set (k := cart_history [KConfigure c; KSetWeights W] k0).
  set (k1 := fst (cart_configure c k0)).
  assert (Ek : k = cart_with_frot (set_ft_weights (fun d i => aget W (3 * n + (d * n + i))%nat) f0)
      (cart_with_fpos (set_ft_weights (fun d i => aget W (d * n + i)%nat) f0) k1)).
  { unfold k. cbn [cart_history fold_left cart_exec]. fold k1. unfold cart_set_weights. cbv zeta.
    change (k_n k1) with n. unfold assign_rows. cbn [W alen].
    replace (Nat.min (6 * n) (3 * n)) with (3 * n)%nat by lia. replace (6 * n - 3 * n)%nat with (3 * n)%nat by lia.
    rewrite !Nat.mod_mul, !Nat.div_mul by lia. reflexivity. }
  exists k. split; [|split; [|split; [|split; [|split]]]].
  - do 9 eexists. exists k0, [KConfigure c; KSetWeights W]. split; [exact Enew|reflexivity].
  - unfold k. cbn [cart_history fold_left cart_exec]. apply cr_set_weights, cr_configure. eapply cr_new; exact Enew.
  - rewrite Ek. pose proof (forcing_term_init_n _ _ _ _ _ _ _ _ E) as (Fn & _).
    assert (D : forall d i, (d < 6)%nat -> (i < n)%nat -> aget W (d * n + i)%nat = w (6 * arm + d)%nat i).
    { intros d i Hd Hi. cbn [W aget]. rewrite Nat.div_add_l, Nat.div_small by lia.
      replace (d * n + i)%nat with (i + d * n)%nat by lia. rewrite Nat.mod_add, Nat.mod_small by lia.
      now rewrite Nat.add_0_r. }
    constructor; try reflexivity.
    + rewrite Ef. constructor; try reflexivity. cbn [set_ft_weights ft_weights ft_n cart_with_frot cart_with_fpos k_fpos].
      rewrite Fn. intros d i Hd Hi. apply D; lia.
    + rewrite Ef. constructor; try reflexivity. cbn [set_ft_weights ft_weights ft_n cart_with_frot cart_with_fpos k_frot].
      rewrite Fn. intros d i Hd Hi. replace (3 * n + (d * n + i))%nat with ((3 + d) * n + i)%nat by lia.
      rewrite D by lia. f_equal. lia.
  - now rewrite Ek.
  - rewrite Ek, Ef. reflexivity.
  - rewrite Ek, Ef. reflexivity.
Qed.

Lemma arm_reset arm o k : arm_of arm o k -> arm_of arm (at_time_zero o) (cart_reset k).
Proof. intros []. constructor; auto. Qed.

(** Playing back. *)
Lemma arm_runs arm fn i rt o k o' u u' ts ys : (arm <= 1)%nat -> euler_function fn -> dual_reachable o ->
  cart_reachable k -> arm_of arm o k -> o_p_gain o = 0 -> beta_index_irrelevant arm o -> arm_starts_at_rest arm o ->
  0 < o_dt o -> 0 < o_int_dt o -> 0 < o_execution_time o ->
  match rt with Some x => 0 <= x | None => True end ->
  dual_open_loop (CS := unit) rt None (Some i) u o = (o', u', Ok (ts, ys)) ->
  length ys = length ts /\
  exists ys', cart_open_loop rt None (Some fn) (Some i) k = Ok (ts, ys')
  /\ length ys' = length ts
  /\ forall n, (n < length ts)%nat -> arm_pose arm (nth n ys (zeros 14)) (nth n ys' (zeros 7)).
Proof.
  intros Ha Hfn Hr Hk HA Hg Hb H0 Hdt Hi Hx Hrt E.
  pose proof (dual_reachable_shapes o Hr) as Hs.
  destruct (dual_open_loop_spec _ _ _ _ _ _ _ _ _ Hs E) as (n & L1 & L2 & T1 & T2 & T3 & HP & _).
  split; [congruence|].
  pose proof HA as [_ Ex Ed Ei _ _ _ _ _ _ _].
  destruct (C69_runs_exist k None fn i rt) as (ts' & ys' & EC); rewrite ?Ex, ?Ed, ?Ei; auto.
  destruct (C69_time_grid k fn i None rt ts' ys') as (G1 & G2 & G3 & G4 & _); [now rewrite Ed|exact EC|].
  rewrite Ex in G4. rewrite Ed in G3, G4. cbv zeta in *.
  set (r := match rt with Some x => x | None => o_execution_time o end) in *.
  assert (GL : last ts' 0 = INR (length ts' - 1) * o_dt o).
  { rewrite <- G3 by lia. clear - G2. destruct ts' as [|a l]; [cbn in G2; lia|]. clear G2.
    revert a. induction l as [|b l IH]; intros a; [reflexivity|]. cbn [last] in *. rewrite IH. cbn. now rewrite Nat.sub_0_r. }
  rewrite GL in G4.
  assert (EL : length ts' = S n).
  { set (m := (length ts' - 1)%nat) in *. assert (m = n); [|lia].
    destruct (Nat.lt_trichotomy m n) as [C|[C|C]]; auto.
    - specialize (T2 m C). lra.
    - assert (INR n + 1 <= INR m) by (rewrite <- S_INR; apply le_INR; lia). nra. }
  assert (Ets : ts' = ts).
  { apply (nth_ext _ _ 0 0); [congruence|]. intros j Hj. rewrite G3 by lia. rewrite T1 by lia. reflexivity. }
  subst ts'. exists ys'. split; [exact EC|]. split; [exact G1|].
  intros m Hm. destruct (HP m ltac:(lia)) as (o1 & cs1 & y1 & yd1 & EN & En).
  rewrite (nth_error_nth _ _ (zeros 14) En).
  destruct (C23_cartesian_shapes k Hk) as (S1 & S2 & S3 & S4 & S5 & S6 & S7 & S8 & S9 & S10 & S11).
  destruct (C69_open_loop_is_repeated_step k fn i None rt ts ys' Hk) with (k := m) as (k' & y' & yd' & EK & P1 & P2 & _);
    [now rewrite Ed|exact I|exact EC|lia|].
  destruct (C39_arm_is_cartesian_dmp arm fn i m (p_start_y (o_base o)) (p_start_yd (o_base o)) (p_start_y (k_base k))
     (zeros 6) (at_time_zero o) (cart_reset k) o1 y1 yd1 u cs1) as (k2 & y2 & yd2 & EK2 & Q & _); auto.
  - now apply arm_reset.
  - cbn. lra.
  - intros j Hj. now apply (ao_start arm o k HA).
  - intros j Hj. rewrite H0 by auto. reflexivity.
  - rewrite EK in EK2. injection EK2 as <- <- <-.
    intros j Hj. rewrite <- (Q j Hj).
    destruct j as [|[|[|j]]]; [apply P1; lia|apply P1; lia|apply P1; lia|].
    unfold orientation in P2. injection P2 as Q1 Q2 Q3 Q4.
    destruct j as [|[|[|[|]]]]; auto; lia.
Qed.

(** Learning. *)
Lemma dual_imitate_keeps jl jlr jr jrr reg dm lam al o o' : dual_reachable o ->
  dual_imitate jl jlr jr jrr reg dm lam al o = (o', Ok tt) ->
  d_dims dm = 14%nat /\ dual_reachable o' /\ o_execution_time o' = o_execution_time o /\ o_dt o' = o_dt o
  /\ o_int_dt o' = o_int_dt o /\ o_p_gain o' = o_p_gain o /\ o_smooth_scaling o' = o_smooth_scaling o
  /\ o_beta_y o' = o_beta_y o /\ p_start_yd (o_base o') = p_start_yd (o_base o).
Proof.
  intros Hr E. pose proof (dual_reachable_shapes o Hr) as (D1 & D2 & _).
  assert (Hr' : dual_reachable o').
  { replace o' with (fst (dual_imitate jl jlr jr jrr reg dm lam al o)) by now rewrite E. now apply dr_imitate. }
  unfold dual_imitate in E. destruct (Nat.eqb_spec (d_dims dm) 14) as [Hd|]; [|discriminate].
  cbn [negb] in E. cbv zeta in E.
  destruct (rmap _ (dmp_imitate jl _ _ _ _ _ _ _ _ _ _ _)) as [wl|] eqn:E1; [|discriminate].
  destruct (dmp_quaternion_imitation jlr _ _ _ _ _ _ _ _ _ _ _ _) as [wlr|] eqn:E2; [|discriminate].
  destruct (rmap _ (dmp_imitate jr _ _ _ _ _ _ _ _ _ _ _)) as [wr|] eqn:E3; [|discriminate].
  destruct (dmp_quaternion_imitation jrr _ _ _ _ _ _ _ _ _ _ _ _) as [wrr|] eqn:E4; [|discriminate].
  match type of E with dmp_configure ?c ?x = _ => set (C := c) in E; set (X := x) in E end.
  assert (EX : o' = with_base (configured C (o_base X)) X).
  { unfold dmp_configure, configure in E. cbn [C c_t c_start_y c_start_yd c_start_ydd c_goal_y c_goal_yd c_goal_ydd
      configure_block] in E. change (o_base X) with (o_base o) in *.
    cbn [alen set_start_y p_n_dims set_goal_y] in E. rewrite D1 in E. cbn [Nat.eqb negb] in E.
    cbn in E. rewrite D1 in E. cbn in E. now injection E as <-. }
  rewrite EX. rewrite EX in Hr'. repeat split; auto.
Qed.

(** The columns of one arm. *)
Definition hand (arm : nat) (y : vec) : vec := fun j => y (7 * arm + j)%nat.
Definition hand_demo (arm : nat) (dm : demo) : demo :=
  {| d_n := d_n dm; d_T := d_T dm; d_rows := d_rows dm; d_dims := 7; d_Y := fun t => hand arm (d_Y dm t) |}.

Lemma arm_learns arm jl jlr jr jrr reg dm lam al o o' : (arm <= 1)%nat -> dual_reachable o ->
  ft_goal_t (o_forcing_term o) = o_execution_time o ->
  dual_imitate jl jlr jr jrr reg dm lam al o = (o', Ok tt) ->
  exists k k' jp jq, cart_made k /\ cart_reachable k /\ arm_of arm o k /\ k_n k = o_n_weights_per_dim o
    /\ cart_imitate jp jq reg (hand_demo arm dm) lam al k = (k', Ok tt) /\ cart_reachable k' /\ arm_of arm o' k'.
Proof.
  intros Ha Hr Hg E. pose proof (dual_reachable_shapes o Hr) as Hs.
  destruct (arm_made arm o Ha Hr Hg) as (k & Hm & Hk & HA & Hn & O1 & O2).
  pose proof (C23_cartesian_shapes k Hk) as (S1 & _).
  destruct (C39_imitate arm jl jlr jr jrr reg dm lam al o o' k Ha Hs HA Hn S1 O1 O2 E) as (k' & EK & HA').
  set (jp := if Nat.eqb arm 0 then jl else jr) in *. set (jq := if Nat.eqb arm 0 then jlr else jrr) in *.
  assert (X : exists k2, cart_imitate jp jq reg (hand_demo arm dm) lam al k = (k2, Ok tt) /\ arm_of arm o' k2).
  { unfold cart_imitate in *. cbn [demo_columns hand_demo d_dims Nat.eqb negb d_n d_T d_rows d_Y] in *. cbv zeta in *.
    replace (fun t => slice 0 3 (slice (7 * arm) 7 (d_Y dm t))) with (fun t => slice 0 3 (hand arm (d_Y dm t))) in EK
      by (apply functional_extensionality; intros t; apply functional_extensionality; intros j; unfold slice, hand;
          destruct (Nat.ltb_spec j 3); auto; destruct (Nat.ltb_spec (0 + j) 7); auto; lia).
    replace (fun t => quat_of (slice 3 4 (slice (7 * arm) 7 (d_Y dm t))))
      with (fun t => quat_of (slice 3 4 (hand arm (d_Y dm t)))) in EK by (apply functional_extensionality; reflexivity).
    destruct (dmp_imitate _ _ _ _ _ _ _ _ _ _ _ _) as [[[w0 w1] w2]|]; [|discriminate].
    destruct (dmp_quaternion_imitation _ _ _ _ _ _ _ _ _ _ _ _ _); [|discriminate].
    unfold cart_configure, configure in *.
    cbn [c_t c_start_y c_start_yd c_start_ydd c_goal_y c_goal_yd c_goal_ydd configure_block
      cart_with_frot cart_with_fpos k_base alen] in *.
    rewrite S1 in *. unfold check_1d_array_length in *. cbn [alen Nat.eqb and_then] in *.
    cbn [set_start_y set_goal_y p_n_dims] in *. rewrite ?S1 in *. cbn [alen Nat.eqb and_then] in *.
    eexists. split; [reflexivity|]. injection EK as <-. destruct HA' as [Z1 Z2 Z3 Z4 Z5 Z6 Z7 Z8 Z9 Z10 Z11]. constructor; auto.
    - intros j Hj. rewrite <- Z10 by auto. cbn. unfold slice, hand. destruct (Nat.ltb_spec j 7); auto; lia.
    - intros j Hj. rewrite <- Z11 by auto. cbn. unfold slice, hand. destruct (Nat.ltb_spec j 7); auto; lia. }
  destruct X as (k2 & E2 & HA2). exists k, k2, jp, jq. repeat split; auto; try apply HA; try apply HA2.
  replace k2 with (fst (cart_imitate jp jq reg (hand_demo arm dm) lam al k)) by now rewrite E2. now apply cr_imitate.
Qed.

(** ** C110 *)
(** Every arm of a DualCartesianDMP without tracking-error feedback has a twin: a
    CartesianDMP object with the settings of the arm that, whatever demonstration both
    learn from, plays back the movement of the arm. *)
Theorem C110_arm_learns_alone : forall arm fn jl jlr jr jrr reg dm lam al o o', (arm <= 1)%nat -> euler_function fn ->
  dual_reachable o -> ft_goal_t (o_forcing_term o) = o_execution_time o -> o_p_gain o = 0 ->
  beta_index_irrelevant arm o -> arm_starts_at_rest arm o -> 0 < o_dt o -> 0 < o_int_dt o -> 0 < o_execution_time o ->
  dual_imitate jl jlr jr jrr reg dm lam al o = (o', Ok tt) ->
  exists k k' jp jq, cart_made k /\ arm_of arm o k
  /\ cart_imitate jp jq reg (hand_demo arm dm) lam al k = (k', Ok tt)
  /\ forall rt i o2 u u' ts ys, match rt with Some x => 0 <= x | None => True end ->
     dual_open_loop (CS := unit) rt None (Some i) u o' = (o2, u', Ok (ts, ys)) ->
     length ys = length ts /\
     exists ys', cart_open_loop rt None (Some fn) (Some i) k' = Ok (ts, ys') /\ length ys' = length ts
     /\ forall n, (n < length ts)%nat -> arm_pose arm (nth n ys (zeros 14)) (nth n ys' (zeros 7)).
Proof.
  intros arm fn jl jlr jr jrr reg dm lam al o o' Ha Hfn Hr Hg Hp Hb H0 Hdt Hi Hx E.
  destruct (arm_learns arm _ _ _ _ _ _ _ _ _ _ Ha Hr Hg E) as (k & k' & jp & jq & Hm & Hk & HA & Hn & EK & Hk' & HA').
  destruct (dual_imitate_keeps _ _ _ _ _ _ _ _ _ _ Hr E) as (Hd & Hr' & X1 & X2 & X3 & X4 & X5 & X6 & X7).
  exists k, k', jp, jq. split; [exact Hm|]. split; [exact HA|]. split; [exact EK|].
  intros rt i o2 u u' ts ys Hrt EO. apply (arm_runs arm fn i rt o' k' o2 u u' ts ys); auto; try congruence.
  - unfold beta_index_irrelevant in *. now rewrite X5, X6.
  - unfold arm_starts_at_rest in *. now rewrite X7.
Qed.

Definition dual_turn_force_with (o : dmp) (wts : nat -> nat -> R) (t : R) : v3 :=
  let f := ft_call (set_ft_weights wts (o_forcing_term o)) t in V3 (f 0%nat) (f 1%nat) (f 2%nat).

Definition arm_gains (arm : nat) (g : arr) (p : vec) (r : v3) : Prop :=
  (forall d, (d < 3)%nat -> aget g (6 * arm + d)%nat = p d)
  /\ V3 (aget g (6 * arm + 3)%nat) (aget g (6 * arm + 4)%nat) (aget g (6 * arm + 5)%nat) = r.

(** The recorded movement of a hand is reproduced by the arm that learned it, whatever
    the other arm does. *)
Theorem C110_poses : forall arm tau alp bep al be smooth y v b q w a e delta, (arm <= 1)%nat -> 0 < tau -> 0 < delta ->
  (forall d, (d < 3)%nat -> smooth_motion tau (y d) (v d) (b d)) ->
  turning_motion tau q w a -> short_turns tau delta q e ->
  exists C, 0 <= C /\
  forall o o' o2 N jl jlr jr jrr dm lam allow i wp wr eps u u' ts ys, dual_reachable o ->
  o_execution_time o = tau -> ft_goal_t (o_forcing_term o) = tau ->
  arm_gains arm (o_alpha_y o) alp al -> arm_gains arm (o_beta_y o) bep be -> o_smooth_scaling o = smooth ->
  o_p_gain o = 0 -> beta_index_irrelevant arm o -> arm_starts_at_rest arm o ->
  (2 <= N)%nat -> demonstrates 14 dm ->
  (forall d, (d < 3)%nat -> recorded tau N d (y d) (hand_demo arm dm)) -> recorded_turns tau N q (hand_demo arm dm) ->
  0 <= lam -> (allow = true \/ w tau = v3_zero /\ forall d, (d < 3)%nat -> v d tau = 0) ->
  o_dt o = tau / INR N -> o_dt o <= o_int_dt o ->
  (forall t, 0 <= t <= tau ->
     (forall d, (d < 3)%nat ->
        Rabs (required_force tau (alp d) (bep d) smooth (y d) (v d) (b d) t - force_with o d (wp d) t) <= eps)
     /\ v3_norm (v3_sub (required_torque tau al be smooth e w a t) (dual_turn_force_with o wr t)) <= eps) ->
  dual_imitate jl jlr jr jrr ridge_regression dm lam allow o = (o', Ok tt) ->
  dual_open_loop (CS := unit) None None (Some i) u o' = (o2, u', Ok (ts, ys)) ->
  length ys = length ts /\
  forall k, (k < length ts)%nat -> nth k ts 0 <= tau ->
    let bound := C * (sqrt (o_dt o) + eps
        + sqrt (lam * o_dt o * (squared_turn_weights (o_n_weights_per_dim o) wp
                                + squared_turn_weights (o_n_weights_per_dim o) wr))
        + / 10 ^ 7 / o_dt o ^ 2) in
    let pose := hand arm (aget (nth k ys (zeros 14))) in
    (forall d, (d < 3)%nat -> Rabs (pose d - y d (nth k ts 0)) <= bound)
    /\ unit_quat (attitude pose)
    /\ angle_between (attitude pose) (q (nth k ts 0)) <= bound.
Proof.
  intros arm tau alp bep al be smooth y v b q w a e delta Ha Htau Hdel Hsm Htm Hst.
  destruct (C109_poses tau alp bep al be smooth y v b q w a e delta Htau Hdel Hsm Htm Hst) as (C & HC & H).
  exists C. split; [exact HC|].
  intros o o' o2 N jl jlr jr jrr dm lam allow i wp wr eps u u' ts ys Hr Ex Hg Hga Hgb Es Hp Hb H0 HN Hd Hrec Hrt Hlam
    Hal Edt Hint Heps EI EO.
  assert (Hdt : 0 < o_dt o).
  { rewrite Edt. apply Rdiv_lt_0_compat; auto. apply lt_0_INR. lia. }
  assert (Hg2 : ft_goal_t (o_forcing_term o) = o_execution_time o) by congruence.
  destruct (arm_learns arm _ _ _ _ _ _ _ _ _ _ Ha Hr Hg2 EI) as (k & k' & jp & jq & Hm & Hk & HA & Hn & EK & Hk' & HA').
  destruct (dual_imitate_keeps _ _ _ _ _ _ _ _ _ _ Hr EI) as (_ & Hr' & X1 & X2 & X3 & X4 & X5 & X6 & X7).
  destruct (arm_runs arm Euler i None o' k' o2 u u' ts ys) as (L1 & ys' & EC & L2 & P); auto; try congruence;
    try (rewrite ?X1, ?X2, ?X3; lra).
  { now left. }
  { unfold beta_index_irrelevant in *. now rewrite X5, X6. }
  { unfold arm_starts_at_rest in *. now rewrite X7. }
  split; [exact L1|].
  pose proof HA as [_ Kx Kd Ki Ks Kp Kr Ka Kb _ _].
  assert (FC : forall wts t off g, three_rows off (o_forcing_term o) g ->
    ft_call (set_ft_weights wts g) t = ft_call (set_ft_weights wts (o_forcing_term o)) t).
  { intros wts t off g [T1 T2 T3 T4 T5 T6 _]. unfold ft_call, ft_phase, ft_forces.
    cbn [set_ft_weights ft_n ft_centers ft_widths ft_alpha_z ft_goal_t ft_start_t ft_weights].
    now rewrite T1, T2, T3, T4, T5, T6. }
  destruct (H k k' N jp jq (hand_demo arm dm) lam allow Euler i wp wr eps ts ys') as [_ B]; auto; try congruence.
  - destruct Kp. congruence.
  - intros d Hd3. destruct Hga as [Ga _], Hgb as [Gb _]. rewrite Ka, Kb by lia. auto.
  - unfold turn_gains. rewrite !Ka by lia. apply Hga.
  - unfold turn_gains. rewrite !Kb by lia. apply Hgb.
  - destruct Hd as (D1 & D2 & D3). split; [exact D1|split; [exact D2|reflexivity]].
  - intros t Ht. destruct (Heps t Ht) as [A1 A2]. split.
    + intros d Hd3. unfold position_force_with. rewrite (FC _ t _ _ Kp). now apply A1.
    + unfold turn_force_with. rewrite (FC _ t _ _ Kr). exact A2.
  - intros m Hm' Hmt. specialize (B m Hm' Hmt). cbv zeta in B. rewrite Kd, Hn in B. cbv zeta.
    specialize (P m Hm').
    assert (EA : attitude (aget (nth m ys' (zeros 7))) = attitude (hand arm (aget (nth m ys (zeros 14))))).
    { unfold attitude, hand. rewrite !P by lia. reflexivity. }
    rewrite <- EA. destruct B as [B1 B2]. split; [|exact B2].
    intros d Hd3. unfold hand. rewrite <- P by lia. now apply B1.
Qed.

(** ** Frames *)
(** Two DualCartesianDMPs with the same timing, number of weights and scaling. *)
Definition same_dual_settings (o o' : dmp) : Prop :=
  o_execution_time o' = o_execution_time o /\ o_dt o' = o_dt o /\ o_int_dt o' = o_int_dt o
  /\ o_n_weights_per_dim o' = o_n_weights_per_dim o /\ o_smooth_scaling o' = o_smooth_scaling o.

(** The gains of one arm. *)
Definition gains_of_arm (arm : nat) (g : arr) : arr := {| alen := 6; aget := fun j => aget g (6 * arm + j)%nat |}.

(** In [dm'] the hand has the poses of [dm], seen from another frame and for another
    tool, [s] times slower. *)
Definition hand_reframed (arm : nat) (l : quat) (p : v3) (r : quat) (s : R) (dm dm' : demo) : Prop :=
  d_n dm' = d_n dm /\ (forall t, d_T dm' t = s * d_T dm t)
  /\ forall t j, (j < 7)%nat -> hand arm (d_Y dm' t) j = reframed l p r (hand arm (d_Y dm t)) j.

Lemma cart_imitate_columns jp jr reg dm1 dm2 lam al k k1 : cart_reachable k ->
  d_n dm2 = d_n dm1 -> d_T dm2 = d_T dm1 -> d_rows dm2 = d_rows dm1 -> d_dims dm2 = d_dims dm1 ->
  (forall t j, (j < 7)%nat -> d_Y dm2 t j = d_Y dm1 t j) ->
  cart_imitate jp jr reg dm1 lam al k = (k1, Ok tt) ->
  exists k2, cart_imitate jp jr reg dm2 lam al k = (k2, Ok tt) /\ cart_reachable k2
    /\ forall arm o, arm_of arm o k1 -> arm_of arm o k2.
Proof.
  intros Hk En ET Er Ed EY E. pose proof (C23_cartesian_shapes k Hk) as (S1 & _).
  assert (X : exists k2, cart_imitate jp jr reg dm2 lam al k = (k2, Ok tt)
    /\ forall arm o, arm_of arm o k1 -> arm_of arm o k2).
  { unfold cart_imitate in *. rewrite Ed. destruct (negb _); [discriminate|]. cbv zeta in *.
    rewrite En, ET, Er.
    replace (fun t => slice 0 3 (d_Y dm2 t)) with (fun t => slice 0 3 (d_Y dm1 t))
      by (apply functional_extensionality; intros t; apply functional_extensionality; intros j; unfold slice;
          destruct (Nat.ltb_spec j 3); auto; rewrite EY by lia; reflexivity).
    replace (fun t => quat_of (slice 3 4 (d_Y dm2 t))) with (fun t => quat_of (slice 3 4 (d_Y dm1 t)))
      by (apply functional_extensionality; intros t; unfold quat_of, slice; cbn [Nat.ltb Nat.leb Nat.add];
          rewrite !EY by lia; reflexivity).
    destruct (dmp_imitate _ _ _ _ _ _ _ _ _ _ _ _) as [[[w0 w1] w2]|]; [|discriminate].
    destruct (dmp_quaternion_imitation _ _ _ _ _ _ _ _ _ _ _ _ _); [|discriminate].
    unfold cart_configure, configure in *.
    cbn [c_t c_start_y c_start_yd c_start_ydd c_goal_y c_goal_yd c_goal_ydd configure_block
      cart_with_frot cart_with_fpos k_base alen] in *.
    rewrite S1 in *. unfold check_1d_array_length in *. cbn [alen] in *.
    destruct (Nat.eqb _ 7); cbn [and_then] in *; [|discriminate].
    cbn [set_start_y set_goal_y p_n_dims] in *. rewrite ?S1 in *. cbn [alen] in *.
    destruct (Nat.eqb _ 7); cbn [and_then] in *; [|discriminate].
    eexists. split; [reflexivity|]. injection E as <-. intros arm o [Z1 Z2 Z3 Z4 Z5 Z6 Z7 Z8 Z9 Z10 Z11].
    constructor; auto.
    - intros j Hj. rewrite <- Z10 by auto. cbn. now apply EY.
    - intros j Hj. rewrite <- Z11 by auto. cbn. now apply EY. }
  destruct X as (k2 & E2 & H2). exists k2. split; [exact E2|]. split; [|exact H2].
  replace k2 with (fst (cart_imitate jp jr reg dm2 lam al k)) by now rewrite E2. now apply cr_imitate.
Qed.

Lemma reframed_ext l p r y y' j : (forall i, (i < 7)%nat -> y' i = y i) -> reframed l p r y' j = reframed l p r y j.
Proof. intros H. unfold reframed, place, attitude. now rewrite !H by lia. Qed.

(** An arm learns the same movement from a demonstration in which its hand is described
    in another world frame, for another tool orientation or at another speed, whatever
    the other arm does. *)
Theorem C110_frames : forall arm l p r s o o1 o' o1' o2 o2' jl jlr jr jrr jl' jlr' jr' jrr' dm dm' lam allow run_t i
    u u1 u' u1' ts ys ts' ys', (arm <= 1)%nat ->
  dual_reachable o -> dual_reachable o' -> same_dual_settings o o' ->
  ft_goal_t (o_forcing_term o) = o_execution_time o -> ft_goal_t (o_forcing_term o') = o_execution_time o' ->
  o_p_gain o = 0 -> o_p_gain o' = 0 -> beta_index_irrelevant arm o -> beta_index_irrelevant arm o' ->
  arm_starts_at_rest arm o -> arm_starts_at_rest arm o' ->
  0 < o_dt o -> 0 < o_int_dt o -> match run_t with Some x => 0 <= x | None => True end -> 0 <= lam ->
  unit_quat l -> unit_quat r -> 0 < s -> (s = 1 \/ d_T dm 0%nat = 0) ->
  demonstrates 14 dm -> demonstrates 14 dm' -> unit_orientations (hand_demo arm dm) ->
  hand_reframed arm l p r s dm dm' ->
  gains_fit l (gains_of_arm arm (o_alpha_y o')) (gains_of_arm arm (o_alpha_y o)) ->
  gains_fit l (gains_of_arm arm (o_beta_y o')) (gains_of_arm arm (o_beta_y o)) ->
  dual_imitate jl jlr jr jrr ridge_regression dm lam allow o = (o1, Ok tt) ->
  dual_imitate jl' jlr' jr' jrr' ridge_regression dm' lam allow o' = (o1', Ok tt) ->
  dual_open_loop (CS := unit) run_t None (Some i) u o1 = (o2, u1, Ok (ts, ys)) ->
  dual_open_loop (CS := unit) run_t None (Some i) u' o1' = (o2', u1', Ok (ts', ys')) ->
  ts' = ts /\ length ys' = length ys
  /\ forall n j, (n < length ys)%nat -> (j < 7)%nat ->
     hand arm (aget (nth n ys' (zeros 14))) j = reframed l p r (hand arm (aget (nth n ys (zeros 14)))) j.
Proof.
  intros arm l p r s o o1 o' o1' o2 o2' jl jlr jr jrr jl' jlr' jr' jrr' dm dm' lam allow run_t i u u1 u' u1' ts ys ts' ys'
    Ha Hr Hr' (S1 & S2 & S3 & S4 & S5) Hg Hg' Hp Hp' Hb Hb' H0 H0' Hdt Hi Hrt Hlam Hl Hq Hs Hs0 Hd Hd' HU (F1 & F2 & F3)
    Ga Gb EI EI' EO EO'.
  assert (Hx : 0 < o_execution_time o).
  { destruct (dual_ft_made o Hr) as (g & jj & f0 & ww & Eg & Ef). rewrite <- Hg, Ef. cbn.
    pose proof (forcing_term_init_n _ _ _ _ _ _ _ _ Eg) as (_ & -> & _).
    unfold forcing_term_init in Eg. destruct (Nat.leb _ 1); [discriminate|]. destruct (Rle_dec g 0); [discriminate|]. lra. }
  destruct (arm_learns arm _ _ _ _ _ _ _ _ _ _ Ha Hr Hg EI) as (k & k1 & jp & jq & Hm & Hk & HA & Hn & EK & Hk1 & HA1).
  destruct (arm_learns arm _ _ _ _ _ _ _ _ _ _ Ha Hr' Hg' EI')
    as (k' & k1' & jp' & jq' & Hm' & Hk' & HA' & Hn' & EK' & Hk1' & HA1').
  destruct (dual_imitate_keeps _ _ _ _ _ _ _ _ _ _ Hr EI) as (_ & Hr1 & X1 & X2 & X3 & X4 & X5 & X6 & X7).
  destruct (dual_imitate_keeps _ _ _ _ _ _ _ _ _ _ Hr' EI') as (_ & Hr1' & Y1 & Y2 & Y3 & Y4 & Y5 & Y6 & Y7).
  destruct (cart_imitate_columns jp' jq' ridge_regression (hand_demo arm dm') (reframed_demo l p r s (hand_demo arm dm))
     lam allow k' k1' Hk' ltac:(cbn; congruence) ltac:(cbn; apply functional_extensionality; intros; symmetry; apply F2)
     ltac:(destruct Hd as (_ & D1 & _), Hd' as (_ & D2 & _); cbn; congruence) eq_refl
     ltac:(intros t j Hj; cbn; symmetry; now apply F3) EK') as (k2' & EK2 & Hk2 & HB).
  specialize (HB arm o1' HA1').
  destruct (arm_runs arm Euler i run_t o1 k1 o2 u u1 ts ys) as (L1 & zs & EC & L2 & P); auto; try congruence.
  { now left. }
  { unfold beta_index_irrelevant in *. now rewrite X5, X6. }
  { unfold arm_starts_at_rest in *. now rewrite X7. }
  destruct (arm_runs arm Euler i run_t o1' k2' o2' u' u1' ts' ys') as (L1' & zs' & EC' & L2' & P'); auto; try congruence.
  { now left. }
  { unfold beta_index_irrelevant in *. now rewrite Y5, Y6. }
  { unfold arm_starts_at_rest in *. now rewrite Y7. }
  pose proof HA as [_ Kx Kd Ki Ks Kp Kr Ka Kb _ _]. pose proof HA' as [_ Kx' Kd' Ki' Ks' Kp' Kr' Ka' Kb' _ _].
  assert (G : forall g g' kg kg', gains_fit l (gains_of_arm arm g') (gains_of_arm arm g) ->
     (forall j, (j < 6)%nat -> aget kg j = aget g (6 * arm + j)%nat) ->
     (forall j, (j < 6)%nat -> aget kg' j = aget g' (6 * arm + j)%nat) -> gains_fit l kg' kg).
  { intros g g' kg kg' H E1 E2 d e Hd3 He3 Hne. rewrite !E1, !E2 by lia. now apply H. }
  destruct (C106_frames l p r s k k' jp jq jp' jq' (hand_demo arm dm) lam allow run_t (Some Euler) (Some i) Hm Hm')
    as (_ & _ & T); auto; try congruence.
  - unfold same_cart_settings. destruct Kp, Kp'. repeat split; congruence.
  - destruct Hd as (D1 & D2 & D3). split; [exact D1|split; [exact D2|reflexivity]].
  - now apply (G _ _ _ _ Ga).
  - now apply (G _ _ _ _ Gb).
  - unfold learn in T. rewrite EK, EK2 in T. cbn [fst] in T. rewrite EC, EC' in T. destruct T as (Et & El & T).
    subst ts'. split; [reflexivity|]. split; [congruence|].
    intros n j Hnn Hj. unfold hand at 1. rewrite <- (P' n) by lia. rewrite T by lia.
    apply reframed_ext. intros m Hm7. apply P; [lia|exact Hm7].
Qed.

(** Learning never fails for a demonstration of the right shape. *)
Theorem C110_always_learns : forall jl jlr jr jrr reg dm lam al o, dual_reachable o -> 0 <= lam -> demonstrates 14 dm ->
  exists o', dual_imitate jl jlr jr jrr reg dm lam al o = (o', Ok tt).
Proof.
  intros jl jlr jr jrr reg dm lam al o Hr Hlam (HT & Hrows & H14).
  destruct (dual_ft_made o Hr) as (g & jj & f0 & ww & Eg & Ef).
  pose proof (dual_reachable_shapes o Hr) as (D1 & D2 & _).
  pose proof (forcing_term_init_n _ _ _ _ _ _ _ _ Eg) as (_ & _ & _ & Fo & _ & Hn & _).
  assert (Hd : (2 <= d_n dm)%nat) by (destruct (d_n dm) as [|[|k]]; simpl in HT; try lra; lia).
  assert (Hf : forall j al', exists f', forcing_term_init (fst j) (snd j) (o_n_weights_per_dim o) (d_T dm (d_n dm - 1)%nat)
     (d_T dm 0%nat) (8/10) al' = Ok f').
  { intros j al'. destruct (forcing_term_init_ok (fst j) (snd j) (o_n_weights_per_dim o) (d_T dm (d_n dm - 1)%nat)
      (d_T dm 0%nat) (8/10) al' Hn HT ltac:(lra)) as (f' & E & _). eauto. }
  assert (Eo : ft_overlap (o_forcing_term o) = 8/10) by (rewrite Ef; exact Fo).
  unfold dual_imitate. rewrite H14. cbn [Nat.eqb negb]. cbv zeta. rewrite Eo.
  assert (Hpos : forall junk arm a b az, exists W, rmap (fun r => fst (fst r))
      (dmp_imitate junk reg 3 (demo_columns (7 * arm) 3 dm) (o_n_weights_per_dim o) lam a b (8/10) az al
         (o_smooth_scaling o)) = Ok W).
  { intros j arm a b az. unfold dmp_imitate. cbn [demo_columns d_n d_T d_rows d_dims].
    destruct (Rlt_dec lam 0); [lra|]. destruct (Nat.eqb_spec (d_n dm) 0); [lia|]. cbv zeta.
    destruct (Hf j az) as [f' ->]. cbn [bind]. rewrite Hrows, Nat.eqb_refl. cbn [negb Nat.eqb andb].
    unfold determine_forces. destruct (Nat.ltb_spec (d_n dm) 2); [lia|]. cbn [bind rmap]. eauto. }
  assert (Hrot : forall junk Q a b az, exists W,
      dmp_quaternion_imitation junk reg (d_n dm) (d_T dm) Q (o_n_weights_per_dim o) lam a b (8/10) az al
        (o_smooth_scaling o) = Ok W).
  { intros j Q a b az. unfold dmp_quaternion_imitation.
    destruct (Rlt_dec lam 0); [lra|]. destruct (Nat.eqb_spec (d_n dm) 0); [lia|]. cbv zeta.
    destruct (Hf j az) as [f' ->]. cbn [bind].
    unfold determine_forces_quaternion. destruct (Nat.ltb_spec (d_n dm) 2); [lia|]. cbn [bind]. eauto. }
  match goal with |- context [rmap _ (dmp_imitate jl _ _ (demo_columns (7 * ?m) _ _) _ _ ?a ?b _ ?z _ _)] =>
    destruct (Hpos jl m a b z) as [W1 ->] end.
  match goal with |- context [dmp_quaternion_imitation jlr _ _ _ ?q _ _ ?a ?b _ ?z _ _] =>
    destruct (Hrot jlr q a b z) as [W2 ->] end.
  match goal with |- context [rmap _ (dmp_imitate jr _ _ (demo_columns (7 * ?m) _ _) _ _ ?a ?b _ ?z _ _)] =>
    destruct (Hpos jr m a b z) as [W3 ->] end.
  match goal with |- context [dmp_quaternion_imitation jrr _ _ _ ?q _ _ ?a ?b _ ?z _ _] =>
    destruct (Hrot jrr q a b z) as [W4 ->] end.
  unfold dmp_configure, configure. cbn [c_t c_start_y c_start_yd c_start_ydd c_goal_y c_goal_yd c_goal_ydd
      configure_block with_forcing_term o_base]. rewrite D1. cbn. rewrite D1. cbn. eauto.
Qed.

(** An object with the default gains and two hands that both move along the diagonal of
    the workspace while they turn about the x axis, with any number of samples. *)
Example C110_satisfiable : forall arm N, (arm <= 1)%nat -> (5 <= N)%nat ->
  let y := fun t => t ^ 2 in let v := fun t => 2 * t in let b := fun _ : R => 2 in
  let q := fun t => axis_quat (V3 1 0 0) (t ^ 2) in
  let w := fun t => V3 (2 * t) 0 0 in let a := fun _ : R => V3 2 0 0 in
  let e := fun t => V3 (1 - t ^ 2) 0 0 in
  let al := V3 25 25 25 in let be := V3 (25/4) (25/4) (25/4) in
  smooth_motion 1 y v b /\ turning_motion 1 q w a /\ short_turns 1 2 q e
  /\ exists o o' o2 dm ts ys, dual_reachable o /\ o_execution_time o = 1 /\ ft_goal_t (o_forcing_term o) = 1
     /\ arm_gains arm (o_alpha_y o) (fun _ => 25) al /\ arm_gains arm (o_beta_y o) (fun _ => 25/4) be
     /\ o_smooth_scaling o = false /\ o_p_gain o = 0 /\ beta_index_irrelevant arm o /\ arm_starts_at_rest arm o
     /\ demonstrates 14 dm /\ (forall d, (d < 3)%nat -> recorded 1 N d y (hand_demo arm dm))
     /\ recorded_turns 1 N q (hand_demo arm dm)
     /\ o_dt o = 1 / INR N /\ o_dt o <= o_int_dt o
     /\ (forall t, 0 <= t <= 1 ->
          (forall d, (d < 3)%nat ->
            Rabs (required_force 1 25 (25/4) false y v b t - force_with o d vzero t) <= 209)
          /\ v3_norm (v3_sub (required_torque 1 al be false e w a t) (dual_turn_force_with o (fun _ => vzero) t)) <= 209)
     /\ dual_imitate (vzero, vzero) (vzero, vzero) (vzero, vzero) (vzero, vzero) ridge_regression dm 0 true o = (o', Ok tt)
     /\ dual_open_loop (CS := unit) None None (Some Python) tt o' = (o2, tt, Ok (ts, ys)).
Proof.
  intros arm N Ha HN y v b q w a e al be.
  destruct (C109_satisfiable N HN) as (H1 & H2 & H3 & k0 & k0' & dm0 & ts0 & ys0 & Hm & _ & _ & _ & _ & _ & _ & _ & _ & _ & _ & _ & HF & _).
  fold y v b in H1. fold q w a in H2. fold q e in H3. cbv zeta in HF.
  split; [exact H1|]. split; [exact H2|]. split; [exact H3|]. clear H1 H2 H3.
  assert (PN : 5 <= INR N) by (replace 5 with (INR 5) by (simpl; lra); now apply le_INR).
  assert (Ph : 0 < 1 / INR N) by (apply Rdiv_lt_0_compat; lra).
  assert (Ux : unit_v3 (V3 1 0 0)) by (unfold unit_v3; cbn; ring).
  destruct (dual_example 1 (1 / INR N) (1 / INR N) 0 false (fun _ => 25) (fun _ => 25/4) vzero vzero)
    as (o & Hr & O1 & O2 & O3 & O4 & O5 & O6 & O7 & O8 & O9 & O10 & O11 & O12 & O13 & O14 & O15 & _); [lra|].
  set (P := fun k => aget (pose (fun _ => y (INR k * (1 / INR N))) (q (INR k * (1 / INR N))))).
  set (dm := {| d_n := S N; d_T := fun k => INR k * (1 / INR N); d_rows := S N; d_dims := 14;
     d_Y := fun k j => if Nat.ltb j 7 then P k j else P k (j - 7)%nat |}).
  assert (EH : forall k j, (j < 7)%nat -> hand arm (d_Y dm k) j = P k j).
  { intros k j Hj. unfold hand. cbn [dm d_Y]. destruct (arm_dec arm Ha) as [-> | ->].
    - replace (7 * 0 + j)%nat with j by lia. destruct (Nat.ltb_spec j 7); [reflexivity|lia].
    - destruct (Nat.ltb_spec (7 * 1 + j) 7); [lia|]. now replace (7 * 1 + j - 7)%nat with j by lia. }
  assert (Hd : demonstrates 14 dm).
  { split; [|split; reflexivity]. cbn [dm d_T d_n]. replace (S N - 1)%nat with N by lia. simpl (INR 0). rewrite Rmult_0_l.
    apply Rmult_lt_0_compat; lra. }
  destruct (C110_always_learns (vzero, vzero) (vzero, vzero) (vzero, vzero) (vzero, vzero) ridge_regression dm 0 true o
    Hr ltac:(lra) Hd) as (o' & EI).
  destruct (dual_imitate_keeps _ _ _ _ _ _ _ _ _ _ Hr EI) as (_ & Hr' & X1 & X2 & X3 & _).
  destruct (C69_dual_runs_exist unit None None tt o' Hr') as [R1 _]; [rewrite X2, O2; lra|rewrite X3, O3; lra|].
  destruct (R1 Python) as (o2 & [] & ts & ys & EO).
  exists o, o', o2, dm, ts, ys.
  split; [exact Hr|]. split; [exact O1|]. split; [exact O15|].
  split; [unfold arm_gains; rewrite O6; split; reflexivity|].
  split; [unfold arm_gains; rewrite O7; split; reflexivity|].
  split; [exact O5|]. split; [exact O4|]. split; [right; left; exact O5|].
  split; [intros j Hj; rewrite O10; reflexivity|]. split; [exact Hd|].
  split.
  { intros d Hd3. unfold recorded. cbn [hand_demo d_n d_T d_Y]. repeat split; auto. intros k Hk. rewrite EH by lia.
    unfold P. cbn [pose aget]. destruct (Nat.ltb_spec d 3); [reflexivity|lia]. }
  split.
  { unfold recorded_turns. cbn [hand_demo d_n d_T d_Y]. split; [reflexivity|]. split; [reflexivity|]. intros k Hk.
    assert (EA : attitude (hand arm (d_Y dm k)) = q (INR k * (1 / INR N))).
    { unfold attitude. rewrite !EH by lia. unfold P. cbn. reflexivity. }
    rewrite EA. split; [apply axis_quat_unit; auto|reflexivity]. }
  split; [exact O2|]. split; [rewrite O2, O3; lra|]. split; [|split; [exact EI|exact EO]].
  assert (Z : forall f t j, ft_call (set_ft_weights (fun _ => vzero) f) t j = 0).
  { intros f t j. unfold ft_call, ft_forces. cbn [set_ft_weights ft_weights].
    rewrite (rsum_ext _ _ (fun _ => 0)) by (intros; unfold vzero; ring). rewrite rsum_const. ring. }
  intros t Ht. destruct (HF t Ht) as [F1 F2]. split.
  - intros d Hd3. specialize (F1 d Hd3). unfold force_with, position_force_with in *. rewrite Z in *. exact F1.
  - unfold dual_turn_force_with, turn_force_with in *. cbv zeta in *. rewrite !Z in *. exact F2.
Qed.

(** Any frame and any tool, for hands that move along a line while they turn. *)
Example C110_frames_satisfiable : forall arm l p r s, (arm <= 1)%nat -> unit_quat l -> unit_quat r -> 0 < s ->
  exists o o1 o1' o2 o2' dm dm' ts ys ts' ys', dual_reachable o /\ same_dual_settings o o
  /\ ft_goal_t (o_forcing_term o) = o_execution_time o /\ o_p_gain o = 0 /\ beta_index_irrelevant arm o
  /\ arm_starts_at_rest arm o /\ 0 < o_dt o /\ 0 < o_int_dt o /\ d_T dm 0%nat = 0
  /\ demonstrates 14 dm /\ demonstrates 14 dm' /\ unit_orientations (hand_demo arm dm)
  /\ hand_reframed arm l p r s dm dm'
  /\ gains_fit l (gains_of_arm arm (o_alpha_y o)) (gains_of_arm arm (o_alpha_y o))
  /\ gains_fit l (gains_of_arm arm (o_beta_y o)) (gains_of_arm arm (o_beta_y o))
  /\ dual_imitate (vzero, vzero) (vzero, vzero) (vzero, vzero) (vzero, vzero) ridge_regression dm 0 true o = (o1, Ok tt)
  /\ dual_imitate (vzero, vzero) (vzero, vzero) (vzero, vzero) (vzero, vzero) ridge_regression dm' 0 true o = (o1', Ok tt)
  /\ dual_open_loop (CS := unit) None None (Some Python) tt o1 = (o2, tt, Ok (ts, ys))
  /\ dual_open_loop (CS := unit) None None (Some Python) tt o1' = (o2', tt, Ok (ts', ys')).
Proof.
  intros arm l p r s Ha Hl Hr Hs.
  destruct (dual_example 1 (1 / 10) (1 / 10) 0 true (fun _ => 25) (fun _ => 25/4) vzero vzero)
    as (o & Ho & O1 & O2 & O3 & O4 & O5 & O6 & O7 & O8 & O9 & O10 & O11 & O12 & O13 & O14 & O15 & _); [lra|].
  set (P := fun k => aget (pose (fun _ => INR k) (axis_quat (V3 1 0 0) (INR k / 10)))).
  set (two := fun (A : nat -> vec) (k : nat) (j : nat) => if Nat.ltb j 7 then A k j else A k (j - 7)%nat).
  set (dm := {| d_n := 11; d_T := fun k => INR k / 10; d_rows := 11; d_dims := 14; d_Y := two P |}).
  set (dm' := {| d_n := 11; d_T := fun k => s * (INR k / 10); d_rows := 11; d_dims := 14;
     d_Y := two (fun k => reframed l p r (P k)) |}).
  assert (EH : forall A k j, (j < 7)%nat -> hand arm (two A k) j = A k j).
  { intros A k j Hj. unfold hand, two. destruct (arm_dec arm Ha) as [-> | ->].
    - replace (7 * 0 + j)%nat with j by lia. destruct (Nat.ltb_spec j 7); [reflexivity|lia].
    - destruct (Nat.ltb_spec (7 * 1 + j) 7); [lia|]. now replace (7 * 1 + j - 7)%nat with j by lia. }
  assert (E10 : INR 10 = 10) by (simpl; lra).
  assert (Hd : demonstrates 14 dm).
  { split; [|split; reflexivity]. unfold dm, d_T, d_n. change (11 - 1)%nat with 10%nat. rewrite E10. simpl (INR 0). lra. }
  assert (Hd' : demonstrates 14 dm').
  { split; [|split; reflexivity]. unfold dm', d_T, d_n. change (11 - 1)%nat with 10%nat. rewrite E10. simpl (INR 0). nra. }
  pose (z := (vzero, vzero)).
  destruct (C110_always_learns z z z z ridge_regression dm 0 true o Ho ltac:(lra) Hd) as (o1 & EI).
  destruct (C110_always_learns z z z z ridge_regression dm' 0 true o Ho ltac:(lra) Hd') as (o1' & EI').
  destruct (dual_imitate_keeps _ _ _ _ _ _ _ _ _ _ Ho EI) as (_ & Hr1 & _ & X2 & X3 & _).
  destruct (dual_imitate_keeps _ _ _ _ _ _ _ _ _ _ Ho EI') as (_ & Hr1' & _ & Y2 & Y3 & _).
  destruct (C69_dual_runs_exist unit None None tt o1 Hr1) as [R1 _]; [rewrite X2, O2; lra|rewrite X3, O3; lra|].
  destruct (C69_dual_runs_exist unit None None tt o1' Hr1') as [R1' _]; [rewrite Y2, O2; lra|rewrite Y3, O3; lra|].
  destruct (R1 Python) as (o2 & [] & ts & ys & EO). destruct (R1' Python) as (o2' & [] & ts' & ys' & EO').
  exists o, o1, o1', o2, o2', dm, dm', ts, ys, ts', ys'.
  split; [exact Ho|]. split; [repeat split|]. split; [congruence|]. split; [exact O4|].
  split; [right; right; intros; rewrite O7; reflexivity|]. split; [intros j Hj; rewrite O10; reflexivity|].
  split; [lra|]. split; [lra|]. split; [cbn; lra|]. split; [exact Hd|]. split; [exact Hd'|].
  split.
  { intros t _. cbn [hand_demo d_Y dm]. unfold attitude. rewrite !EH by lia.
    change (unit_quat (axis_quat (V3 1 0 0) (INR t / 10))). apply axis_quat_unit. unfold unit_v3. cbn. ring. }
  split.
  { split; [reflexivity|]. split; [reflexivity|]. intros t j Hj. cbn [dm dm' d_Y]. rewrite EH by lia.
    symmetry. apply reframed_ext. intros i Hi. now apply EH. }
  split; [intros d e _ _ _; unfold gains_of_arm; cbn [aget]; rewrite O6; auto|].
  split; [intros d e _ _ _; unfold gains_of_arm; cbn [aget]; rewrite O7; auto|].
  auto.
Qed.
