(** C137: exchanging two coupled systems.  Final statements. *)
From Coq Require Import Reals List Arith Bool Lia Lra FunctionalExtensionality.
From Verif Require Import M_Prelude M_Canonical M_Forcing M_Dmp M_Base M_DmpObject M_Quaternion M_Ridge M_Cartesian
  M_Dual M_Rigid M_Coupling S_Loops S_Rotation S_Rigid S_Frames P_Loops P_Canonical P_Forcing P_Quaternion P_Cartesian P_Rigid P_Components
  P_Dual P_DmpObject P_DualObject P_DmpAffine P_DmpScale P_Frames Properties_Forcing Properties_Cartesian Properties_Coupling
  Properties_PoseCoupling Properties_DualObject Properties_DualRuns Properties_CoupledRuns Properties_Frames
  Properties_DmpObject Properties_Equivariance Properties_DualReproduction Properties_ObstacleFrames Properties_DualFrames.
Import ListNotations.
Open Scope R_scope.
Set Bullet Behavior "Strict Subproofs".

(** ** Specification *)
(** The leader and follower settings, exchanged. *)
Definition exchanged_spring (sp : spring) : spring :=
  {| sp_lf0 := sp_lf1 sp; sp_lf1 := sp_lf0 sp; sp_k := sp_k sp; sp_c1 := sp_c1 sp; sp_c2 := sp_c2 sp |}.

(** In [y'] the left arm has the pose that the right arm has in [y], and the other way
    round; the same for velocities (or accelerations, or weights). *)
Definition exchanged_poses (y y' : vec) : Prop := forall arm, (arm <= 1)%nat ->
  arm_p arm y' = arm_p (1 - arm) y /\ arm_q arm y' = arm_q (1 - arm) y.
Definition exchanged_velocities (v v' : vec) : Prop := forall arm, (arm <= 1)%nat ->
  arm_v arm v' = arm_v (1 - arm) v /\ arm_w arm v' = arm_w (1 - arm) v.

(** The coupling term [c'] treats each arm as [c] treats the other one. *)
Definition exchanged_term {CS} (c c' : stateful_coupling CS) : Prop := forall cs y y' v v',
  proper y -> exchanged_poses y y' -> exchanged_velocities v v' ->
  let '(cs1, (cd, cdd)) := c cs y v in
  let '(cs1', (cd', cdd')) := c' cs y' v' in
  cs1' = cs1 /\ exchanged_velocities cd cd' /\ exchanged_velocities cdd cdd'.
Definition exchanged_terms {CS} (c c' : option (stateful_coupling CS)) : Prop :=
  match c, c' with None, None => True | Some c, Some c' => exchanged_term c c' | _, _ => False end.

Definition exchanged_runs (r r' : res (list R * list arr)) : Prop :=
  match r, r' with
  | Ok (ts, ys), Ok (ts', ys') => ts' = ts /\ length ys' = length ys
      /\ forall k, (k < length ys)%nat -> exchanged_poses (aget (nth k ys (zeros 14))) (aget (nth k ys' (zeros 14)))
  | Err e, Err e' => e' = e
  | _, _ => False
  end.

(** The demonstration with the columns of the arms exchanged. *)
Definition exchanged_demo (dm dm' : demo) : Prop :=
  d_n dm' = d_n dm /\ d_T dm' = d_T dm /\ d_rows dm' = d_rows dm /\ d_dims dm' = d_dims dm
  /\ forall t, (t < d_n dm)%nat -> proper (d_Y dm t) /\ exchanged_poses (d_Y dm t) (d_Y dm' t).

(** ** The distance of two arms *)
Theorem C137_distance : forall sp desired_distance,
  exchanged_term (stateless (dual_distance_coupling sp desired_distance))
                 (stateless (dual_distance_coupling (exchanged_spring sp) desired_distance)).
Proof.
  intros sp dd cs y y' v v' Hp H Hv. unfold stateless, dual_distance_coupling, spring_forces.
  rewrite !v3_of_slice. cbv zeta. cbn [fst snd exchanged_spring sp_lf0 sp_lf1 sp_k sp_c1 sp_c2].
  change (entries 0 y') with (arm_p 0 y'). change (entries 7 y') with (arm_p 1 y').
  change (entries 0 y) with (arm_p 0 y). change (entries 7 y) with (arm_p 1 y).
  destruct (H 0%nat ltac:(lia)) as [-> _], (H 1%nat ltac:(lia)) as [-> _]. cbn [Nat.sub].
  set (a := arm_p 0 y). set (b := arm_p 1 y).
  assert (E : v3_sub b a = v3_scale (-1) (v3_sub a b)) by (apply v3_eq; cbn; ring). rewrite E.
  set (u := v3_sub a b). assert (N : v3_norm (v3_scale (-1) u) = v3_norm u).
  { unfold v3_norm. f_equal. cbn. ring. }
  rewrite N. set (F := v3_scale (sp_k sp) (v3_sub (v3_divs (v3_scale (Rabs dd) u) (v3_norm u)) u)).
  assert (EF : v3_scale (sp_k sp) (v3_sub (v3_divs (v3_scale (Rabs dd) (v3_scale (-1) u)) (v3_norm u)) (v3_scale (-1) u))
             = v3_scale (-1) F) by (unfold F; apply v3_eq; cbn; unfold Rdiv; ring).
  rewrite EF.
  assert (D : forall w, v3_scale (-1) (v3_scale (-1) w) = w) by (intros w; apply v3_eq; cbn; ring).
  rewrite !D. split; [reflexivity|]. generalize (v3_scale (-1) F). intros G.
  assert (X : forall A B z, exchanged_velocities (vec12 A z B z) (vec12 B z A z)).
  { intros [] [] [] arm Ha. destruct (arm_dec arm Ha) as [-> | ->]; split; reflexivity. }
  split; apply X.
Qed.

(** ** Runs *)
Lemma turn_nothing v : rotate q_one v = v.
Proof. apply v3_eq; cbn; ring. Qed.
Lemma shift_nothing v : v3_add v3_zero v = v.
Proof. apply v3_eq; cbn; ring. Qed.
Lemma multiply_nothing q : hamilton q_one q = q.
Proof. apply quat_eq; cbn; ring. Qed.
Lemma unit_one : unit_quat q_one.
Proof. unfold unit_quat; cbn; ring. Qed.

Definition pair_exchanged {CS} (x x' : (vec * vec) * vec * CS) : Prop :=
  snd x' = snd x /\ forall arm, (arm <= 1)%nat -> state_moved q_one v3_zero (arm_proj (1 - arm) x) (arm_proj arm x').

Lemma state_same arm y v c y' v' c' (CS : Type) (cs cs' : CS) : (arm <= 1)%nat ->
  state_moved q_one v3_zero (arm_proj (1 - arm) ((y, v), c, cs)) (arm_proj arm ((y', v'), c', cs')) <->
  ((arm_p arm y' = arm_p (1 - arm) y /\ arm_q arm y' = arm_q (1 - arm) y)
   /\ (arm_v arm v' = arm_v (1 - arm) v /\ arm_w arm v' = arm_w (1 - arm) v)
   /\ (arm_v arm c' = arm_v (1 - arm) c /\ arm_w arm c' = arm_w (1 - arm) c) /\ unit_quat (arm_q (1 - arm) y)).
Proof.
  intros Ha. split.
  - intros [A B C D E F G]. cbn [arm_proj as_p as_q as_v as_w as_c as_cw] in *.
    rewrite ?turn_nothing, ?shift_nothing, ?multiply_nothing in *. auto 10.
  - intros ([A B] & [C D] & [E F] & G). constructor; cbn [arm_proj as_p as_q as_v as_w as_c as_cw];
      rewrite ?turn_nothing, ?shift_nothing, ?multiply_nothing; auto.
Qed.

Lemma dual_body_exchanged {CS} i a a' (c c' : option (stateful_coupling CS)) cur dt x x' :
  (forall arm, (arm <= 1)%nat -> arm_moved q_one v3_zero (arm_params (1 - arm) a) (arm_params arm a')) ->
  exchanged_terms c c' ->
  pair_exchanged x x' -> pair_exchanged (dual_body i a c cur dt x) (dual_body i a' c' cur dt x').
Proof.
  intros Ha Hc [Es Hx]. destruct x as [[[y yd] cdd] cs], x' as [[[y' yd'] cdd'] cs']. cbn [snd] in Es. subst cs'.
  assert (HX : forall arm, (arm <= 1)%nat -> _) by (intros arm H; exact (proj1 (state_same arm y yd cdd y' yd' cdd' CS cs cs H) (Hx arm H))).
  assert (Hp : proper y).
  { split; [exact (sm_unit _ _ _ _ (Hx 1%nat ltac:(lia)))|exact (sm_unit _ _ _ _ (Hx 0%nat ltac:(lia)))]. }
  assert (Hy : exchanged_poses y y') by (intros arm H; apply (HX arm H)).
  assert (Hv : exchanged_velocities yd yd') by (intros arm H; apply (HX arm H)).
  assert (Hd : exchanged_velocities cdd cdd') by (intros arm H; apply (HX arm H)).
  assert (Z : exchanged_velocities vzero vzero).
  { intros arm Hle. destruct (arm_dec arm Hle) as [-> | ->]; split; reflexivity. }
  assert (HC : exchanged_velocities (fst (match c with Some c => snd (c cs y yd)
                      | None => (vzero, match i with Python => cdd | Cython => vzero end) end))
                (fst (match c' with Some c => snd (c cs y' yd')
                      | None => (vzero, match i with Python => cdd' | Cython => vzero end) end))
     /\ exchanged_velocities (snd (match c with Some c => snd (c cs y yd)
                      | None => (vzero, match i with Python => cdd | Cython => vzero end) end))
                (snd (match c' with Some c => snd (c cs y' yd')
                      | None => (vzero, match i with Python => cdd' | Cython => vzero end) end))
     /\ snd (dual_body i a' c' cur dt ((y', yd'), cdd', cs)) = snd (dual_body i a c cur dt ((y, yd), cdd, cs))).
  { unfold dual_body. destruct c as [c|], c' as [c'|]; cbn in Hc; try tauto.
    - specialize (Hc cs y y' yd yd' Hp Hy Hv). destruct (c cs y yd) as [cs1 [cd1 cdd1]], (c' cs y' yd') as [cs2 [cd2 cdd2]].
      cbn [fst snd]. destruct Hc as (A & B & C). auto.
    - cbn [fst snd]. split; [exact Z|]. split; [destruct i; auto|reflexivity]. }
  destruct HC as (C1 & C2 & C3). split; [exact C3|].
  intros arm H. assert (H1 : (1 - arm <= 1)%nat) by lia. rewrite !dual_body_arm by auto. cbv zeta.
  destruct (match c with Some c => _ | None => _ end) as [cd1 cdd1]. destruct (match c' with Some c => _ | None => _ end) as [cd2 cdd2].
  cbn [fst snd] in C1, C2. destruct (C1 arm H) as [-> ->], (C2 arm H) as [-> ->].
  rewrite <- (turn_nothing (arm_v (1 - arm) cd1)) at 2. rewrite <- (turn_nothing (arm_w (1 - arm) cd1)) at 2.
  rewrite <- (turn_nothing (arm_v (1 - arm) cdd1)) at 2. rewrite <- (turn_nothing (arm_w (1 - arm) cdd1)) at 2.
  apply arm_step_moved; auto using unit_one.
Qed.

Lemma dual_step_function_exchanged {CS} i a a' (c c' : option (stateful_coupling CS)) lt t y yd y' yd' cs : 
  (forall arm, (arm <= 1)%nat -> arm_moved q_one v3_zero (arm_params (1 - arm) a) (arm_params arm a')) -> exchanged_terms c c' ->
  proper y -> exchanged_poses y y' -> exchanged_velocities yd yd' ->
  match dual_step_function i a c lt t (y, yd) cs, dual_step_function i a' c' lt t (y', yd') cs with
  | Ok ((y1, yd1), cs1), Ok ((y2, yd2), cs2) => cs2 = cs1 /\ proper y1 /\ exchanged_poses y1 y2 /\ exchanged_velocities yd1 yd2
  | Err e, Err e' => e = e'
  | _, _ => False
  end.
Proof.
  intros Ha Hc Hp Hy Hv. unfold dual_step_function.
  assert (E1 : a_start_t a' = a_start_t a) by exact (am_start_t _ _ _ _ (Ha 0%nat ltac:(lia))).
  assert (E2 : a_int_dt a' = a_int_dt a) by exact (am_int_dt _ _ _ _ (Ha 0%nat ltac:(lia))).
  rewrite E1, E2.
  set (s0 := if Rle_dec t (a_start_t a) then (a_start_y a, a_start_yd a) else (y, yd)).
  set (s0' := if Rle_dec t (a_start_t a) then (a_start_y a', a_start_yd a') else (y', yd')).
  assert (H0 : pair_exchanged (s0, vzero, cs) (s0', vzero, cs)).
  { split; [reflexivity|]. intros arm H. assert (H1 : (1 - arm <= 1)%nat) by lia.
    assert (Z : arm_v arm vzero = arm_v (1 - arm) vzero /\ arm_w arm vzero = arm_w (1 - arm) vzero)
      by (destruct (arm_dec arm H) as [-> | ->]; split; reflexivity).
    unfold s0, s0'. destruct (Rle_dec t (a_start_t a)); apply state_same; auto.
    - specialize (Ha arm H). destruct Ha. cbn [arm_params ap_start ap_start_q ap_start_v ap_start_w] in *.
      rewrite ?turn_nothing, ?shift_nothing, ?multiply_nothing in *. tauto.
    - split; [now apply Hy|]. split; [now apply Hv|]. split; [exact Z|].
      destruct Hp. destruct (arm_dec arm H) as [-> | ->]; assumption. }
  pose proof (substeps_rel_any (pair_exchanged) (dual_body i a c) (dual_body i a' c')
    (fun c0 d x x' Hx => dual_body_exchanged i a a' c c' c0 d x x' Ha Hc Hx)
    (substeps_fuel lt t (a_int_dt a)) lt t (a_int_dt a) _ _ H0) as HR.
  destruct (substeps _ _ _ _ (dual_body i a c) _) as [[[[y1 yd1] cdd1] c1]|e];
    destruct (substeps _ _ _ _ (dual_body i a' c') _) as [[[[y2 yd2] cdd2] c2]|e2]; try tauto; cbn [rmap fst snd].
  destruct HR as [HE HR]. cbn in HE. split; [exact HE|]. split.
  - split; [exact (sm_unit _ _ _ _ (HR 1%nat ltac:(lia)))|exact (sm_unit _ _ _ _ (HR 0%nat ltac:(lia)))].
  - split; intros arm H; apply (proj1 (state_same arm _ _ _ _ _ _ CS _ _ H) (HR arm H)).
Qed.

(** ** Objects *)
(** [o'] is the DualCartesianDMP [o] with start, goal, start velocities and weights of
    the arms exchanged. *)
Record dual_exchanged (o o' : dmp) : Prop := {
  de_start : exchanged_poses (aget (p_start_y (o_base o))) (aget (p_start_y (o_base o')));
  de_goal : exchanged_poses (aget (p_goal_y (o_base o))) (aget (p_goal_y (o_base o')));
  de_velocity : exchanged_velocities (aget (p_start_yd (o_base o))) (aget (p_start_yd (o_base o')));
  de_weights : forall i, (i < o_n_weights_per_dim o)%nat ->
    exchanged_velocities (fun d => ft_weights (o_forcing_term o) d i) (fun d => ft_weights (o_forcing_term o') d i) }.

Lemma forces_exchanged f f' z :
  ft_n f' = ft_n f ->
  (forall i, (i < ft_n f)%nat -> ft_centers f' i = ft_centers f i /\ ft_widths f' i = ft_widths f i) ->
  (forall i, (i < ft_n f)%nat -> exchanged_velocities (fun d => ft_weights f d i) (fun d => ft_weights f' d i)) ->
  ft_goal_t f' = ft_goal_t f -> ft_start_t f' = ft_start_t f -> ft_alpha_z f' = ft_alpha_z f ->
  exchanged_velocities (ft_forces f z) (ft_forces f' z).
Proof.
  intros En Hb Hw Eg Es Ea arm Ha.
  set (block off (g : forcing_term) := set_ft_weights (fun d i => ft_weights g (off + d)%nat i) g).
  assert (K : forall off off', (forall i, (i < ft_n f)%nat ->
      v3_of (fun d => ft_weights f' (off' + d)%nat i) = v3_of (fun d => ft_weights f (off + d)%nat i)) ->
     v3_of (ft_forces (block off' f') z) = v3_of (ft_forces (block off f) z)).
  { intros off off' H. rewrite <- (turn_nothing (v3_of (ft_forces (block off f) z))).
    apply drel_rotate. apply ft_forces_aff. unfold ft_aff, block. cbn.
    repeat split; auto; try (now apply Hb). intros i Hi. apply drel_rotate. rewrite turn_nothing. now apply H. }
  split.
  - destruct (arm_dec arm Ha) as [-> | ->]; [apply (K 6%nat 0%nat)|apply (K 0%nat 6%nat)]; intros i Hi; destruct (Hw i Hi _ Ha) as [X _]; exact X.
  - destruct (arm_dec arm Ha) as [-> | ->]; [apply (K 9%nat 3%nat)|apply (K 3%nat 9%nat)]; intros i Hi; destruct (Hw i Hi _ Ha) as [_ X]; exact X.
Qed.

Lemma args_exchanged ka kb o o' te te' : dual_reachable o -> dual_reachable o' -> same_dual_settings o o' ->
  ft_goal_t (o_forcing_term o') = ft_goal_t (o_forcing_term o) -> o_p_gain o = 0 -> o_p_gain o' = 0 ->
  uniform_gains ka kb o -> uniform_gains ka kb o' -> goal_and_start_proper o -> dual_exchanged o o' ->
  forall arm, (arm <= 1)%nat -> arm_moved q_one v3_zero (arm_params (1 - arm) (dual_args o te)) (arm_params arm (dual_args o' te')).
Proof.
  intros Hr Hr' (S1 & S2 & S3 & S4 & S5) Eg G G' U U' [Q1 Q2] [M1 M2 M3 M4] arm Ha.
  destruct (dual_ft_made o Hr) as (g & j & f & w & E0 & Ek). destruct (dual_ft_made o' Hr') as (g' & j' & f' & w' & E0' & Ek').
  pose proof (forcing_term_init_n _ _ _ _ _ _ _ _ E0) as (N1 & N2 & N3 & N4 & N5 & _).
  pose proof (forcing_term_init_n _ _ _ _ _ _ _ _ E0') as (R1 & R2 & R3 & R4 & R5 & _).
  assert (Egg : g' = g) by (rewrite Ek, Ek' in Eg; cbn in Eg; congruence). rewrite Egg, S4 in E0'. rewrite Egg in R2.
  assert (HF : forall z, exchanged_velocities (ft_forces (o_forcing_term o) z) (ft_forces (o_forcing_term o') z)).
  { intros z. apply forces_exchanged; rewrite ?Ek, ?Ek'; cbn; try congruence.
    - intros i Hi. rewrite N1 in Hi. destruct (C02_fully_initialised _ _ _ _ _ _ _ _ _ _ _ E0' E0 i Hi). auto.
    - rewrite N1. intros i Hi. specialize (M4 i Hi). rewrite Ek, Ek' in M4. exact M4. }
  assert (HG : forall d, (d < 12)%nat -> aget (o_alpha_y o) d = ka /\ aget (o_beta_y o) d = kb
      /\ aget (o_alpha_y o') d = ka /\ aget (o_beta_y o') d = kb)
    by (intros d Hd; destruct (U d Hd), (U' d Hd); auto).
  constructor; cbn [arm_params ap_goal ap_goal_q ap_start ap_start_q ap_start_v ap_start_w ap_alpha ap_alpha_w ap_beta
    ap_beta_s ap_beta_w ap_f ap_fw ap_phase ap_goal_t ap_start_t ap_int_dt ap_smooth ap_gain ap_te dual_args step_args
    a_goal_y a_start_y a_start_yd a_alpha_y a_beta_y a_forcing_term a_goal_t a_start_t a_int_dt a_smooth_scaling a_p_gain];
    rewrite ?turn_nothing, ?shift_nothing, ?multiply_nothing;
    try (now apply M1); try (now apply M2); try (now apply M3); auto.
  - replace (arm_v arm (aget (o_alpha_y o'))) with (V3 ka ka ka); [replace (arm_v (1 - arm) (aget (o_alpha_y o))) with (V3 ka ka ka)|];
      [apply turns_uniform|..]; unfold arm_v; f_equal; symmetry; apply HG; lia.
  - replace (arm_w arm (aget (o_alpha_y o'))) with (V3 ka ka ka); [replace (arm_w (1 - arm) (aget (o_alpha_y o))) with (V3 ka ka ka)|];
      [apply turns_uniform|..]; unfold arm_w, v3_of, slice; cbn [Nat.ltb Nat.leb]; f_equal; symmetry; apply HG; lia.
  - replace (arm_v arm (aget (o_beta_y o'))) with (V3 kb kb kb); [replace (arm_v (1 - arm) (aget (o_beta_y o))) with (V3 kb kb kb)|];
      [apply turns_uniform|..]; unfold arm_v; f_equal; symmetry; apply HG; lia.
  - replace (arm_p arm (aget (o_beta_y o'))) with (V3 kb kb kb); [replace (arm_p (1 - arm) (aget (o_beta_y o))) with (V3 kb kb kb)|];
      [apply turns_uniform|..]; unfold arm_p; f_equal; symmetry; apply HG; lia.
  - replace (arm_w arm (aget (o_beta_y o'))) with (V3 kb kb kb); [replace (arm_w (1 - arm) (aget (o_beta_y o))) with (V3 kb kb kb)|];
      [apply turns_uniform|..]; unfold arm_w, v3_of, slice; cbn [Nat.ltb Nat.leb]; f_equal; symmetry; apply HG; lia.
  - intros z. rewrite turn_nothing. now apply HF.
  - intros z. rewrite turn_nothing. now apply HF.
  - intros t. rewrite Ek, Ek'. unfold ft_phase. cbn [set_ft_weights ft_goal_t ft_start_t ft_alpha_z].
    now rewrite N2, N3, N5, R2, R3, R5.
  - destruct Q1, Q2. destruct (arm_dec arm Ha) as [-> | ->]; split; assumption.
Qed.

Lemma dual_go_exchanged {CS} rt i (c c' : option (stateful_coupling CS)) (o0 o0' : dmp) : 
  o_dt o0' = o_dt o0 -> o_p_gain o0 = 0 -> o_p_gain o0' = 0 ->
  (forall te te' arm, (arm <= 1)%nat -> arm_moved q_one v3_zero (arm_params (1 - arm) (dual_args o0 te)) (arm_params arm (dual_args o0' te'))) ->
  exchanged_terms c c' ->
  forall fuel y yd y' yd' (cs : CS) o o',
  dual_shapes o -> dual_shapes o' -> same_params o0 o -> same_params o0' o' -> p_t (o_base o') = p_t (o_base o) ->
  alen y = 14%nat -> alen yd = 12%nat -> alen y' = 14%nat -> alen yd' = 12%nat ->
  proper (aget y) -> exchanged_poses (aget y) (aget y') -> exchanged_velocities (aget yd) (aget yd') ->
  exchanged_runs (snd (dual_open_loop_go fuel rt c i y yd cs o)) (snd (dual_open_loop_go fuel rt c' i y' yd' cs o')).
Proof.
  intros Hdt Hg Hg' HA Hc. induction fuel as [|fuel IH]; intros y yd y' yd' cs o o' Hs Hs' Hp Hp' Ht Ly Lyd Ly' Lyd' Hu Hy Hv;
    cbn [dual_open_loop_go]; rewrite Ht; (destruct (Rlt_dec (p_t (o_base o)) rt); [|split; [auto|split; [auto|cbn; intros; lia]]]);
    [reflexivity|].
  assert (D : o_dt o = o_dt o0) by apply Hp. assert (D' : o_dt o' = o_dt o0) by (rewrite <- Hdt; apply Hp').
  destruct (dual_step y yd c i cs o) as [[o1 c1] r1] eqn:E1.
  destruct (dual_step y' yd' c' i cs o') as [[o3 c3] r3] eqn:E3.
  assert (HR : match r1, r3 with
    | Ok (y1, yd1), Ok (y3, yd3) => c3 = c1 /\ proper (aget y1) /\ exchanged_poses (aget y1) (aget y3) /\ exchanged_velocities (aget yd1) (aget yd3)
    | Err e, Err e2 => e = e2
    | _, _ => False end).
  { rewrite dual_step_eq in E1, E3 by auto. cbv zeta in E1, E3.
    set (te := dual_tracking_error (aget (remembered o)) (aget y)) in *.
    set (te' := dual_tracking_error (aget (remembered o')) (aget y')) in *.
    rewrite (dual_step_function_no_gain i o0 o te) in E1 by auto.
    rewrite (dual_step_function_no_gain i o0' o' te') in E3 by auto.
    rewrite Ht, D' in E3. rewrite D in E1.
    pose proof (dual_step_function_exchanged i (dual_args o0 te) (dual_args o0' te') c c' (p_t (o_base o)) (p_t (o_base o) + o_dt o0)
      (aget y) (aget yd) (aget y') (aget yd') cs (HA te te') Hc Hu Hy Hv) as H.
    destruct (dual_step_function i (dual_args o0 te) c _ _ _ _) as [[[a b] ca]|e];
    destruct (dual_step_function i (dual_args o0' te') c' _ _ _ _) as [[[a' b'] ca']|e']; try tauto;
    injection E1 as <- <- <-; injection E3 as <- <- <-; auto. }
  destruct r1 as [[y1 yd1]|e]; destruct r3 as [[y3 yd3]|e3]; try tauto; [|cbn; congruence].
  destruct (dual_step_ok _ _ _ _ _ _ _ _ _ _ E1 Hs) as (_ & _ & _ & L1 & L2 & P1 & T1 & _ & _ & _ & Hs1).
  destruct (dual_step_ok _ _ _ _ _ _ _ _ _ _ E3 Hs') as (_ & _ & _ & L3 & L4 & P3 & T3 & _ & _ & _ & Hs3).
  destruct HR as (-> & U1 & M1 & M2).
  assert (T : p_t (o_base o3) = p_t (o_base o1)) by congruence.
  specialize (IH y1 yd1 y3 yd3 c1 o1 o3 Hs1 Hs3 (same_params_trans _ _ _ Hp P1) (same_params_trans _ _ _ Hp' P3) T L1 L2 L3 L4 U1 M1 M2).
  destruct (dual_open_loop_go fuel rt c i y1 yd1 c1 o1) as [[oa ca] [[ts ys]|ea]];
  destruct (dual_open_loop_go fuel rt c' i y3 yd3 c1 o3) as [[ob cb] [[ts2 ys2]|eb]]; cbn in IH |- *; try tauto.
  destruct IH as (-> & L & IH). split; [now rewrite T|]. split; [now rewrite L|].
  intros [|k] Hk; [exact M1|]. apply IH. lia.
Qed.

(** The run of the exchanged pair of arms is the run of the pair, with the arms
    exchanged. *)
Theorem C137_runs : forall (CS : Type) ka kb o o' (c c' : option (stateful_coupling CS)) run_t i cs,
  dual_reachable o -> dual_reachable o' -> same_dual_settings o o' ->
  ft_goal_t (o_forcing_term o') = ft_goal_t (o_forcing_term o) -> o_p_gain o = 0 -> o_p_gain o' = 0 ->
  uniform_gains ka kb o -> uniform_gains ka kb o' -> goal_and_start_proper o ->
  dual_exchanged o o' -> exchanged_terms c c' ->
  exchanged_runs (snd (dual_open_loop run_t c i cs o)) (snd (dual_open_loop run_t c' i cs o')).
Proof.
  intros CS ka kb o o' c c' run_t i cs Hr Hr' HS Eg G G' U U' HQ HM Hc.
  destruct i as [i|]; [|reflexivity].
  pose proof (args_exchanged ka kb o o') as HA. unfold dual_open_loop. cbv zeta.
  pose proof HS as (S1 & S2 & _). cbn [o_dt with_base]. rewrite S1, S2.
  set (rt := match run_t with Some x => x | None => o_execution_time o end).
  pose proof (dual_reachable_shapes o Hr) as Hs. pose proof (dual_reachable_shapes o' Hr') as Hs'.
  pose proof Hs as (_ & _ & La & Lb & _). pose proof Hs' as (_ & _ & La' & Lb' & _).
  pose proof (dual_go_exchanged rt i c c' o o' S2 G G'
    (fun te te' => HA te te' Hr Hr' HS Eg G G' U U' HQ HM) Hc (dual_fuel rt (o_dt o))
    (p_start_y (o_base o)) (p_start_yd (o_base o)) (p_start_y (o_base o')) (p_start_yd (o_base o')) cs
    (with_base (set_t 0 (o_base o)) o) (with_base (set_t 0 (o_base o')) o') Hs Hs'
    ltac:(unfold same_params; cbn; auto 20) ltac:(unfold same_params; cbn; auto 20) eq_refl La Lb La' Lb'
    (proj1 HQ) (de_start _ _ HM) (de_velocity _ _ HM)) as H.
  cbn [o_base with_base set_t p_start_y p_start_yd] in *.
  destruct (dual_open_loop_go _ rt c i _ _ cs _) as [[oa ca] [[ts ys]|ea]];
  destruct (dual_open_loop_go _ rt c' i _ _ cs _) as [[ob cb] [[ts2 ys2]|eb]]; cbn in H |- *; try tauto.
  destruct H as (-> & L & H). split; [reflexivity|]. split; [now rewrite L|].
  intros [|k] Hk; [exact (de_start _ _ HM)|]. apply H. lia.
Qed.

(** A pair of arms that learned from the exchanged demonstration moves as the pair that
    learned from the original one, with the arms exchanged. *)
Theorem C137_learned : forall (CS : Type) ka kb o o' o1 o1' (c c' : option (stateful_coupling CS))
    jl jlr jr jrr jl' jlr' jr' jrr' dm dm' lam allow run_t i cs,
  dual_reachable o -> dual_reachable o' -> same_dual_settings o o' ->
  ft_goal_t (o_forcing_term o') = ft_goal_t (o_forcing_term o) -> o_p_gain o = 0 -> o_p_gain o' = 0 ->
  uniform_gains ka kb o -> uniform_gains ka kb o' ->
  exchanged_velocities (aget (p_start_yd (o_base o))) (aget (p_start_yd (o_base o'))) ->
  demonstrates 14 dm -> exchanged_demo dm dm' -> exchanged_terms c c' ->
  dual_imitate jl jlr jr jrr ridge_regression dm lam allow o = (o1, Ok tt) ->
  dual_imitate jl' jlr' jr' jrr' ridge_regression dm' lam allow o' = (o1', Ok tt) ->
  exchanged_runs (snd (dual_open_loop run_t c i cs o1)) (snd (dual_open_loop run_t c' i cs o1')).
Proof.
  intros CS ka kb o o' o1 o1' c c' jl jlr jr jrr jl' jlr' jr' jrr' dm dm' lam allow run_t i cs Hr Hr' HS Eg G G' U U' HV
    Hd (M1 & M2 & M3 & M4 & M5) Hc E E'.
  destruct (dual_imitate_keeps _ _ _ _ _ _ _ _ _ _ Hr E) as (_ & Hr1 & X1 & X2 & X3 & X4 & X5 & X6 & X7).
  destruct (dual_imitate_keeps _ _ _ _ _ _ _ _ _ _ Hr' E') as (_ & Hr1' & Y1 & Y2 & Y3 & Y4 & Y5 & Y6 & Y7).
  destruct (dual_imitated _ _ _ _ _ _ _ _ _ Hr E) as (wl & wlr & wr & wrr & P & Q & W & B1 & B2 & B3 & B4 & B5).
  destruct (dual_imitated _ _ _ _ _ _ _ _ _ Hr' E') as (wl' & wlr' & wr' & wrr' & P' & Q' & W' & B1' & B2' & B3' & B4' & B5').
  assert (HT : d_T dm 0%nat < d_T dm (d_n dm - 1)%nat) by apply Hd.
  assert (Hn2 : (2 <= d_n dm)%nat) by (destruct (d_n dm) as [|[|k]]; simpl in HT; try lra; lia).
  pose proof HS as (S1 & S2 & S3 & S4 & S5).
  destruct (dual_ft_made o Hr) as (g & j & f & w & E0 & Ek). destruct (dual_ft_made o' Hr') as (g' & j' & f' & w' & E0' & Ek').
  pose proof (forcing_term_init_n _ _ _ _ _ _ _ _ E0) as (N1 & N2 & N3 & N4 & N5 & _).
  pose proof (forcing_term_init_n _ _ _ _ _ _ _ _ E0') as (R1 & R2 & R3 & R4 & R5 & _).
  assert (Ov : ft_overlap (o_forcing_term o') = ft_overlap (o_forcing_term o)) by (rewrite Ek, Ek'; cbn; congruence).
  assert (Az : ft_alpha_z (o_forcing_term o') = ft_alpha_z (o_forcing_term o)) by (rewrite Ek, Ek'; cbn; congruence).
  assert (HG : forall d, (d < 12)%nat -> aget (o_alpha_y o) d = ka /\ aget (o_beta_y o) d = kb
      /\ aget (o_alpha_y o') d = ka /\ aget (o_beta_y o') d = kb)
    by (intros d Hdd; destruct (U d Hdd), (U' d Hdd); auto).
  apply (C137_runs CS ka kb); auto; try congruence.
  - unfold same_dual_settings. repeat split; congruence.
  - intros d Hdd. destruct (HG d Hdd) as (? & ? & ? & ?). rewrite B3, X6. auto.
  - intros d Hdd. destruct (HG d Hdd) as (? & ? & ? & ?). rewrite B3', Y6. auto.
  - split; [rewrite B1|rewrite B2]; apply M5; lia.
  - constructor.
    + rewrite B1, B1'. apply M5. lia.
    + rewrite B2, B2', M1. apply M5. lia.
    + now rewrite X7, Y7.
    + intros q _ arm Ha. assert (Ha1 : (1 - arm <= 1)%nat) by lia.
      destruct (W (1 - arm)%nat q Ha1) as [-> ->], (W' arm q Ha) as [-> ->].
      specialize (P (1 - arm)%nat Ha1). specialize (P' arm Ha). specialize (Q (1 - arm)%nat Ha1). specialize (Q' arm Ha).
      rewrite S4, S5, Ov, Az in P', Q'. rewrite M1, M2 in Q'. split.
      * rewrite <- (turn_nothing (v3_of (fun d => (if Nat.eqb (1 - arm) 0 then wl else wr) d q))).
        refine (position_weights q_one v3_zero _ _ _ _ _ _ _ _ _ _ ka kb _ _ _ _ _ _ _ _ _ _ P P' q).
        -- exact M1.
        -- exact M2.
        -- intros d Hdd. unfold slice. destruct (Nat.ltb_spec d 3); [|lia].
           destruct (HG (6 * arm + d)%nat ltac:(lia)) as (_ & _ & ? & ?), (HG (6 * (1 - arm) + d)%nat ltac:(lia)) as (? & ? & _ & _). auto.
        -- intros t Ht. rewrite turn_nothing, shift_nothing. cbn [demo_columns d_n d_Y] in *.
           destruct (M5 t Ht) as [_ MM]. destruct (MM arm Ha) as [MP _].
           destruct (arm_dec arm Ha) as [-> | ->]; exact MP.
      * rewrite <- (turn_nothing (v3_of (fun d => (if Nat.eqb (1 - arm) 0 then wlr else wrr) d q))).
        refine (orientation_weights q_one _ _ _ _ _ _ _ _ _ _ _ _ ka kb _ _ _ _ _ _ unit_one _ _ _ _ _ _ Q Q' q).
        -- unfold arm_w, v3_of, slice. cbn [Nat.ltb Nat.leb]. f_equal; apply HG; lia.
        -- unfold arm_w, v3_of, slice. cbn [Nat.ltb Nat.leb]. f_equal; apply HG; lia.
        -- unfold arm_w, v3_of, slice. cbn [Nat.ltb Nat.leb]. f_equal; apply HG; lia.
        -- unfold arm_w, v3_of, slice. cbn [Nat.ltb Nat.leb]. f_equal; apply HG; lia.
        -- intros t Ht. destruct (M5 t Ht) as [[? ?] _]. destruct (arm_dec arm Ha) as [-> | ->]; assumption.
        -- intros t Ht. rewrite multiply_nothing. destruct (M5 t Ht) as [_ MM]. now apply (MM arm Ha).
Qed.

(** ** Two coupled positions *)
(** The first and the second half of an array of [2 m] entries, exchanged. *)
Definition exchange (m : nat) (d e : nat) : R := if Nat.eqb e (if Nat.ltb d m then d + m else d - m) then 1 else 0.

(** CouplingTermPos1DToPos1D and CouplingTermPos3DToPos3D: the distance to the other
    one is the opposite distance. *)
Theorem C137_positions_1d : forall sp desired,
  moved_coupling 2 (exchange 1) vzero (pos1d_coupling sp desired) (pos1d_coupling (exchanged_spring sp) (- desired)).
Proof.
  intros sp desired y' y v' v Hy Hv d Hd.
  pose proof (Hy 0%nat ltac:(lia)) as K0. pose proof (Hy 1%nat ltac:(lia)) as K1.
  clear Hy Hv. unfold affine, exchange, vzero in *. cbn in K0, K1.
  unfold pos1d_coupling. cbn [fst snd exchanged_spring sp_lf0 sp_lf1 sp_k sp_c1 sp_c2]. rewrite K0, K1.
  destruct d as [|[|d]]; try lia; unfold vec2, vzero; cbn; split; ring.
Qed.

Theorem C137_positions_3d : forall sp desired,
  moved_coupling 6 (exchange 3) vzero (pos3d_coupling sp desired)
    (pos3d_coupling (exchanged_spring sp) (v3_scale (-1) desired)).
Proof.
  intros sp desired y' y v' v Hy Hv d Hd.
  pose proof (Hy 0%nat ltac:(lia)) as K0. pose proof (Hy 1%nat ltac:(lia)) as K1. pose proof (Hy 2%nat ltac:(lia)) as K2.
  pose proof (Hy 3%nat ltac:(lia)) as K3. pose proof (Hy 4%nat ltac:(lia)) as K4. pose proof (Hy 5%nat ltac:(lia)) as K5.
  clear Hy Hv. unfold affine, exchange, vzero in *. cbn in K0, K1, K2, K3, K4, K5.
  unfold pos3d_coupling, spring_forces, v3_of, slice.
  cbn [fst snd Nat.ltb Nat.leb Nat.add exchanged_spring sp_lf0 sp_lf1 sp_k sp_c1 sp_c2].
  rewrite K0, K1, K2, K3, K4, K5. clear K0 K1 K2 K3 K4 K5.
  destruct desired as [d0 d1 d2].
  destruct d as [|[|[|[|[|[|d]]]]]]; try lia; unfold vec6, vec_of_v3, vzero; cbn; split; ring.
Qed.

(** One DMP that moves two coupled positions: learned from the exchanged demonstration,
    it makes the exchanged movement. *)
Theorem C137_positions_run : forall sp desired o o' junk junk' dm lam allow fn run_t,
  reachable 6 o -> reachable 6 o' -> same_settings o o' -> 0 < o_int_dt o -> 0 <= lam -> demonstrates 6 dm ->
  (forall d e, (d < 6)%nat -> (e < 6)%nat ->
    aget (o_alpha_y o') d = aget (o_alpha_y o) e /\ aget (o_beta_y o') d = aget (o_beta_y o) e) ->
  moved_runs 6 (exchange 3) vzero
    (dmp_open_loop run_t (Some (pos3d_coupling sp desired)) fn (imitate junk dm lam allow o))
    (dmp_open_loop run_t (Some (pos3d_coupling (exchanged_spring sp) (v3_scale (-1) desired))) fn
       (imitate junk' (mapped 6 6 (exchange 3) vzero dm) lam allow o')).
Proof. intros. apply C135_coupling; auto. apply C137_positions_3d. Qed.

(** Two hands one unit apart that move along a line while they turn, the left one faster
    than the right one, held at the distance 1 by a term in which only the second arm gives
    way, and the same with the arms exchanged; two coupled positions. *)
Example C137_satisfiable :
  exists o o1 o1' dm dm', dual_reachable o /\ same_dual_settings o o /\ o_p_gain o = 0
  /\ uniform_gains 25 (25/4) o
  /\ exchanged_velocities (aget (p_start_yd (o_base o))) (aget (p_start_yd (o_base o)))
  /\ demonstrates 14 dm /\ exchanged_demo dm dm' /\ arm_p 0 (d_Y dm 3%nat) <> arm_p 1 (d_Y dm 3%nat)
  /\ sp_lf0 follow <> sp_lf1 follow
  /\ exchanged_terms (Some (stateless (dual_distance_coupling follow 1)))
                     (Some (stateless (dual_distance_coupling (exchanged_spring follow) 1)))
  /\ dual_imitate (vzero, vzero) (vzero, vzero) (vzero, vzero) (vzero, vzero) ridge_regression dm 0 true o = (o1, Ok tt)
  /\ dual_imitate (vzero, vzero) (vzero, vzero) (vzero, vzero) (vzero, vzero) ridge_regression dm' 0 true o = (o1', Ok tt)
  /\ (exists ts ys, snd (dual_open_loop None (Some (stateless (dual_distance_coupling follow 1))) (Some Python) tt o1) = Ok (ts, ys))
  /\ affine 6 (exchange 3) vzero INR 1%nat = 4 /\ affine 6 (exchange 3) vzero INR 4%nat = 1
  /\ exists o, reachable 6 o /\ same_settings o o /\ 0 < o_int_dt o
     /\ (forall d e, aget (o_alpha_y o) d = aget (o_alpha_y o) e /\ aget (o_beta_y o) d = aget (o_beta_y o) e)
     /\ demonstrates 6 {| d_n := 3; d_T := INR; d_rows := 3; d_dims := 6; d_Y := fun t d => INR (t * d) |}.
Proof.
  destruct (dual_example 1 (1 / 10) (1 / 10) 0 true (fun _ => 25) (fun _ => 25/4) vzero vzero)
    as (o & Ho & O1 & O2 & O3 & O4 & O5 & O6 & O7 & O8 & O9 & O10 & O11 & O12 & O13 & O14 & O15 & _); [lra|].
  set (A := fun (k : nat) => axis_quat (V3 1 0 0) (INR k / 10)).
  set (L := fun (k : nat) => V3 (2 * INR k) 0 0). set (S := fun (k : nat) => V3 (INR k) 1 0).
  set (two := fun (a b : v3) (q : quat) (j : nat) =>
     if Nat.ltb j 7 then aget (pose (vec_of_v3 a) q) j else aget (pose (vec_of_v3 b) q) (j - 7)%nat).
  set (dm := {| d_n := 11; d_T := fun k => INR k / 10; d_rows := 11; d_dims := 14; d_Y := fun k => two (L k) (S k) (A k) |}).
  set (dm' := {| d_n := 11; d_T := fun k => INR k / 10; d_rows := 11; d_dims := 14; d_Y := fun k => two (S k) (L k) (A k) |}).
  assert (T2 : forall a b q, arm_p 0 (two a b q) = a /\ arm_p 1 (two a b q) = b /\ arm_q 0 (two a b q) = q /\ arm_q 1 (two a b q) = q).
  { intros [] [] []. repeat split. }
  assert (UA : forall k, unit_quat (A k)) by (intros; apply axis_quat_unit; unfold unit_v3; cbn; ring).
  assert (E10 : INR 10 = 10) by (simpl; lra).
  assert (Hd : demonstrates 14 dm).
  { split; [|split; reflexivity]. unfold dm, d_T, d_n. change (11 - 1)%nat with 10%nat. rewrite E10. simpl (INR 0). lra. }
  assert (Hd' : demonstrates 14 dm').
  { split; [|split; reflexivity]. unfold dm', d_T, d_n. change (11 - 1)%nat with 10%nat. rewrite E10. simpl (INR 0). lra. }
  assert (HM : forall t, proper (d_Y dm t) /\ exchanged_poses (d_Y dm t) (d_Y dm' t)).
  { intros t. cbn [dm dm' d_Y]. destruct (T2 (L t) (S t) (A t)) as (P0 & P1 & Q0 & Q1).
    destruct (T2 (S t) (L t) (A t)) as (P0' & P1' & Q0' & Q1').
    split.
    - split; [change (unit_quat (arm_q 0 (two (L t) (S t) (A t))))|change (unit_quat (arm_q 1 (two (L t) (S t) (A t))))];
        rewrite ?Q0, ?Q1; apply UA.
    - intros arm Ha. destruct (arm_dec arm Ha) as [-> | ->]; cbn [Nat.sub]; rewrite ?P0, ?P1, ?Q0, ?Q1, ?P0', ?P1', ?Q0', ?Q1'; auto. }
  pose (z := (vzero, vzero)).
  destruct (C110_always_learns z z z z ridge_regression dm 0 true o Ho ltac:(lra) Hd) as (o1 & EI).
  destruct (C110_always_learns z z z z ridge_regression dm' 0 true o Ho ltac:(lra) Hd') as (o1' & EI').
  destruct (dual_imitate_keeps _ _ _ _ _ _ _ _ _ _ Ho EI) as (_ & Hr1 & _ & X2 & X3 & _).
  destruct (C69_dual_runs_exist unit None (Some (stateless (dual_distance_coupling follow 1))) tt o1 Hr1) as [R1 _];
    [rewrite X2, O2; lra|rewrite X3, O3; lra|].
  destruct (R1 Python) as (o2 & [] & ts & ys & EO).
  exists o, o1, o1', dm, dm'.
  split; [exact Ho|]. split; [repeat split|]. split; [exact O4|].
  split; [intros d _; rewrite O6, O7; auto|].
  split.
  { rewrite O10. intros arm Ha. destruct (arm_dec arm Ha) as [-> | ->]; split; reflexivity. }
  split; [exact Hd|]. split; [split; [reflexivity|]; split; [reflexivity|]; split; [reflexivity|]; split; [reflexivity|]; intros; apply HM|].
  split.
  { cbn [dm d_Y]. destruct (T2 (L 3%nat) (S 3%nat) (A 3%nat)) as (-> & -> & _). unfold L, S. intros H. injection H. lra. }
  split; [cbn; lra|]. split; [apply C137_distance|].
  split; [exact EI|]. split; [exact EI'|]. split; [exists ts, ys; now rewrite EO|].
  split; [unfold affine, exchange, vzero; cbn; lra|]. split; [unfold affine, exchange, vzero; cbn; lra|].
  destruct (ex_new_ok 6 25 (25/4)) as (f & o5 & E & Ef & Eo).
  assert (Hr : reachable 6 o5) by (eapply ex_reachable; eauto).
  exists o5. split; [exact Hr|]. split; [repeat split|]. rewrite Eo. cbn.
  split; [lra|]. split; [intros; split; reflexivity|]. unfold demonstrates. cbn. repeat split; lra.
Qed.
