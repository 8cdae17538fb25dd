(** C39: an arm of a DualCartesianDMP is a CartesianDMP.  Final statements. *)
From Coq Require Import Reals List Arith Bool Lia Lra ZArith FunctionalExtensionality.
From Verif Require Import M_Prelude M_Canonical M_Forcing M_Dmp M_Base M_DmpObject M_SpringDamper
  M_Quaternion M_Cartesian M_Dual S_Loops S_Rotation P_Loops P_Quaternion P_Cartesian P_DmpObject
  P_Components P_Dual P_DualObject Properties_Cartesian Properties_CartesianObject Properties_DualObject.
Import ListNotations.
Open Scope R_scope.
Set Bullet Behavior "Strict Subproofs".

(** [g] has the basis functions of [f] and rows [off], [off+1], [off+2] of its weights. *)
Record three_rows (off : nat) (f g : forcing_term) : Prop := {
  tr_n : ft_n g = ft_n f; tr_centers : ft_centers g = ft_centers f; tr_widths : ft_widths g = ft_widths f;
  tr_alpha_z : ft_alpha_z g = ft_alpha_z f; tr_goal_t : ft_goal_t g = ft_goal_t f;
  tr_start_t : ft_start_t g = ft_start_t f;
  tr_weights : forall j k, (j < 3)%nat -> (k < ft_n f)%nat -> ft_weights g j k = ft_weights f (off + j)%nat k
}.

(** The CartesianDMP object [k] has start, goal, gains, weights and times of one arm of
    the DualCartesianDMP object [o]. *)
Record arm_of (arm : nat) (o : dmp) (k : cart) : Prop := {
  ao_t : p_t (k_base k) = p_t (o_base o);
  ao_time : k_execution_time k = o_execution_time o;
  ao_dt : k_dt k = o_dt o; ao_int_dt : k_int_dt k = o_int_dt o; ao_smooth : k_smooth k = o_smooth_scaling o;
  ao_pos : three_rows (6 * arm) (o_forcing_term o) (k_fpos k);
  ao_rot : three_rows (6 * arm + 3) (o_forcing_term o) (k_frot k);
  ao_alpha : forall j, (j < 6)%nat -> aget (k_alpha k) j = aget (o_alpha_y o) (6 * arm + j)%nat;
  ao_beta : forall j, (j < 6)%nat -> aget (k_beta k) j = aget (o_beta_y o) (6 * arm + j)%nat;
  ao_start : forall j, (j < 7)%nat -> aget (p_start_y (k_base k)) j = aget (p_start_y (o_base o)) (7 * arm + j)%nat;
  ao_goal : forall j, (j < 7)%nat -> aget (p_goal_y (k_base k)) j = aget (p_goal_y (o_base o)) (7 * arm + j)%nat
}.

(** Pose [y] of 14 and pose [k] of 7 components agree for one arm; velocities likewise. *)
Definition arm_pose (arm : nat) (y k : arr) : Prop :=
  forall j, (j < 7)%nat -> aget k j = aget y (7 * arm + j)%nat.
Definition arm_twist (arm : nat) (v k : arr) : Prop :=
  forall j, (j < 6)%nat -> aget k j = aget v (6 * arm + j)%nat.

(** The code reads [beta_y] at a wrong index in the smooth scaling term of the right
    arm; the entries involved are equal for the default and for every scalar gain. *)
Definition beta_index_irrelevant (arm : nat) (o : dmp) : Prop :=
  arm = 0%nat \/ o_smooth_scaling o = false
  \/ forall j, (j < 3)%nat -> aget (o_beta_y o) (7 + j)%nat = aget (o_beta_y o) (6 + j)%nat.

Lemma three_rows_forces off f g z j : three_rows off f g -> (j < 3)%nat ->
  ft_forces g z j = ft_forces f z (off + j)%nat.
Proof.
  intros [] Hj. unfold ft_forces. rewrite tr_n0, tr_centers0, tr_widths0. f_equal.
  apply rsum_ext. intros k Hk. now rewrite tr_weights0.
Qed.
Lemma three_rows_phase off f g t : three_rows off f g -> ft_phase g t = ft_phase f t.
Proof. intros []. unfold ft_phase. now rewrite tr_alpha_z0, tr_goal_t0, tr_start_t0. Qed.

(** What [arm_params] contains, written with the attributes of [k]. *)
Lemma arm_of_params arm o k te : (arm <= 1)%nat -> arm_of arm o k -> o_p_gain o = 0 -> beta_index_irrelevant arm o ->
  let P := arm_params arm (dual_args o te) in
  let A := cart_pos_args k None in let G := cart_rot_args k None in
  ap_goal P = v3_of (a_goal_y A) /\ ap_start P = v3_of (a_start_y A)
  /\ ap_alpha P = v3_of (a_alpha_y A) /\ ap_beta P = v3_of (a_beta_y A)
  /\ (ap_smooth P = true -> ap_beta_s P = v3_of (a_beta_y A))
  /\ (forall z, ap_f P z = v3_of (ft_forces (a_forcing_term A) z))
  /\ (forall t, ap_phase P t = ft_phase (a_forcing_term A) t)
  /\ ap_goal_t P = a_goal_t A /\ ap_start_t P = a_start_t A /\ ap_int_dt P = a_int_dt A
  /\ ap_smooth P = a_smooth_scaling A /\ ap_gain P = 0
  /\ ap_goal_q P = g_goal_y G /\ ap_start_q P = g_start_y G
  /\ ap_alpha_w P = g_alpha_y G /\ ap_beta_w P = g_beta_y G
  /\ (forall z, ap_fw P z = v3_of (ft_forces (g_forcing_term G) z))
  /\ (forall t, ap_phase P t = ft_phase (g_forcing_term G) t)
  /\ g_goal_t G = a_goal_t A /\ g_start_t G = a_start_t A /\ g_int_dt G = a_int_dt A
  /\ g_smooth_scaling G = a_smooth_scaling A.
Proof.
  intros Ha HA Hg Hb P A G. destruct HA.
  assert (N3 : forall (u v : vec) off, (forall j, (j < 3)%nat -> u j = v (off + j)%nat) ->
    v3_of u = V3 (v off) (v (off + 1)%nat) (v (off + 2)%nat)).
  { intros u v off H. unfold v3_of. rewrite (H 0%nat), (H 1%nat), (H 2%nat) by lia. now rewrite Nat.add_0_r. }
  cbn [P A G arm_params dual_args step_args cart_pos_args cart_rot_args
    ap_goal ap_start ap_alpha ap_beta ap_smooth ap_beta_s ap_f ap_phase ap_goal_t ap_start_t ap_int_dt ap_gain
    ap_goal_q ap_start_q ap_alpha_w ap_beta_w ap_fw a_goal_y a_start_y a_alpha_y a_beta_y a_forcing_term a_goal_t
    a_start_t a_int_dt a_smooth_scaling a_p_gain g_goal_y g_start_y g_alpha_y g_beta_y g_forcing_term g_goal_t
    g_start_t g_int_dt g_smooth_scaling].
  assert (F7 : forall (u v : arr), (forall j, (j < 7)%nat -> aget u j = aget v (7 * arm + j)%nat) ->
    v3_of (slice 0 3 (aget u)) = arm_p arm (aget v) /\ quat_of (slice 3 4 (aget u)) = arm_q arm (aget v)).
  { intros u v H. unfold v3_of, quat_of, arm_p, arm_q, slice. cbn [Nat.ltb Nat.leb Nat.add].
    rewrite (H 0%nat), (H 1%nat), (H 2%nat), (H 3%nat), (H 4%nat), (H 5%nat), (H 6%nat) by lia.
    destruct (arm_dec arm Ha) as [-> | ->]; split; reflexivity. }
  assert (F6 : forall (u v : arr), (forall j, (j < 6)%nat -> aget u j = aget v (6 * arm + j)%nat) ->
    v3_of (slice 0 3 (aget u)) = arm_v arm (aget v) /\ v3_of (slice 3 3 (aget u)) = arm_w arm (aget v)).
  { intros u v H. unfold v3_of, arm_v, arm_w, slice. cbn [Nat.ltb Nat.leb Nat.add].
    rewrite (H 0%nat), (H 1%nat), (H 2%nat), (H 3%nat), (H 4%nat), (H 5%nat) by lia.
    destruct (arm_dec arm Ha) as [-> | ->]; split; reflexivity. }
  destruct (F7 _ _ ao_start0) as [S1 S2]. destruct (F7 _ _ ao_goal0) as [G1 G2].
  destruct (F6 _ _ ao_alpha0) as [A1 A2]. destruct (F6 _ _ ao_beta0) as [B1 B2].
  assert (H6 : forall z, arm_v arm (ft_forces (o_forcing_term o) z) = v3_of (ft_forces (k_fpos k) z)
     /\ arm_w arm (ft_forces (o_forcing_term o) z) = v3_of (ft_forces (k_frot k) z)).
  { intros z. split; unfold v3_of, arm_v, arm_w, v3_of, slice; cbn [Nat.ltb Nat.leb Nat.add].
    - rewrite !(three_rows_forces _ _ _ z _ ao_pos0) by lia. destruct (arm_dec arm Ha) as [-> | ->]; reflexivity.
    - rewrite !(three_rows_forces _ _ _ z _ ao_rot0) by lia. destruct (arm_dec arm Ha) as [-> | ->]; reflexivity. }
  rewrite S1, S2, G1, G2, A1, A2, B1, B2.
  repeat split; auto.
  - intros Hsm. destruct Hb as [-> | [Hb | Hb]]; [reflexivity|congruence|].
    destruct (arm_dec arm Ha) as [-> | ->]; [reflexivity|]. unfold arm_p, arm_v. cbn.
    pose proof (Hb 0%nat ltac:(lia)) as E0. pose proof (Hb 1%nat ltac:(lia)) as E1.
    pose proof (Hb 2%nat ltac:(lia)) as E2. cbn in E0, E1, E2. congruence.
  - intros z. apply H6.
  - intros t. symmetry. now apply (three_rows_phase _ _ _ t ao_pos0).
  - intros z. apply H6.
  - intros t. symmetry. now apply (three_rows_phase _ _ _ t ao_rot0).
Qed.

Lemma v3_of_eq (u v : vec) : (forall j, (j < 3)%nat -> u j = v j) -> v3_of u = v3_of v.
Proof. intros H. unfold v3_of. now rewrite (H 0%nat), (H 1%nat), (H 2%nat) by lia. Qed.

(** One integration step: positions. *)
Lemma arm_pos_body {CS} arm o k te i (cython : bool) cur d (x : (vec * vec) * vec * CS) s :
  (arm <= 1)%nat -> arm_of arm o k -> o_p_gain o = 0 -> beta_index_irrelevant arm o ->
  as_c (arm_proj arm x) = v3_zero /\ as_p (arm_proj arm x) = v3_of (fst s) /\ as_v (arm_proj arm x) = v3_of (snd s) ->
  let x' := dual_body i (dual_args o te) None cur d x in
  let s' := (if cython then euler_cython_body else euler_body) (cart_pos_args k None) cur d s in
  as_c (arm_proj arm x') = v3_zero /\ as_p (arm_proj arm x') = v3_of (fst s') /\ as_v (arm_proj arm x') = v3_of (snd s').
Proof.
  intros Ha HA Hg Hb (Hc & Hp & Hv) x' s'. unfold x'. rewrite dual_body_arm_none by auto. cbv zeta.
  set (A := arm_proj arm x) in *. clearbody A. clear x x'.
  destruct (arm_of_params arm o k te Ha HA Hg Hb)
    as (E1 & E2 & E3 & E4 & E5 & E6 & E7 & E8 & E9 & E10 & E11 & E12 & _).
  set (P := arm_params arm (dual_args o te)) in *. set (B := cart_pos_args k None) in *.
  assert (Hct : a_coupling_term B = None) by reflexivity.
  assert (Hpr : a_precomputed B = None) by reflexivity.
  assert (Hte : a_tracking_error B = None) by reflexivity.
  assert (Hpg : a_p_gain B = 0) by reflexivity.
  assert (HteP : exists t q, ap_te P = Some (t, q)) by (do 2 eexists; reflexivity).
  destruct HteP as (tp & tq & HteP).
  clearbody P B. destruct s as [y yd]. cbn [fst snd] in Hp, Hv.
  unfold arm_step. cbn [as_c as_p as_v]. rewrite HteP, E1, E2, E3, E4, E6, E7, E8, E9, E12, Hp, Hv.
  assert (Hsm : (if ap_smooth P
     then v3_mul (v3_mul (ap_beta_s P) (v3_sub (v3_of (a_goal_y B)) (v3_of (a_start_y B))))
        (V3 (ft_phase (a_forcing_term B) cur) (ft_phase (a_forcing_term B) cur) (ft_phase (a_forcing_term B) cur))
     else v3_zero)
     = v3_of (fun j => if a_smooth_scaling B then a_beta_y B j * (a_goal_y B j - a_start_y B j)
          * ft_phase (a_forcing_term B) cur else 0)).
  { destruct (ap_smooth P) eqn:Es; rewrite <- E11.
    - rewrite E5 by reflexivity. reflexivity.
    - reflexivity. }
  rewrite Hsm.
  assert (Hc0 : match i with Python => as_c A | Cython => v3_zero end = v3_zero) by (destruct i; auto).
  rewrite Hc0.
  assert (Hfb : v3_divs (v3_scale 0 tp) d = v3_zero) by (destruct tp; apply v3_eq; simpl; unfold Rdiv; ring).
  rewrite Hfb. split; [apply v3_eq; simpl; ring|].
  assert (HE : fst s' = fun j => y j + d * snd s' j).
  { unfold s'. destruct cython; unfold euler_cython_body, euler_body; rewrite Hct; [rewrite Hpr|]; reflexivity. }
  assert (HV : snd s' = fun j => yd j + d * ((a_alpha_y B j * (a_beta_y B j * (a_goal_y B j - y j)
        - (a_goal_t B - a_start_t B) * yd j
        - (if a_smooth_scaling B then a_beta_y B j * (a_goal_y B j - a_start_y B j)
             * ft_phase (a_forcing_term B) cur else 0))
        + ft_forces (a_forcing_term B) (ft_phase (a_forcing_term B) cur) j) / (a_goal_t B - a_start_t B) ^ 2)).
  { unfold s'. apply functional_extensionality; intros j.
    destruct cython; unfold euler_cython_body, euler_body; rewrite Hct; cbn [snd].
    - rewrite Hpr, Hte. cbv beta iota zeta delta [vzero Rdiv snd]. ring.
    - unfold vadd, vscale, dmp_acc, precomputed_cdd. rewrite Hpr, Hte, Hpg. unfold tracking_error_or_zero, vzero, Rdiv. ring. }
  rewrite HE. rewrite HV. clear.
  split; apply v3_eq; simpl; unfold Rdiv; ring.
Qed.

(** One integration step: orientations. *)
Lemma arm_rot_body {CS} arm o k te i cur d (x : (vec * vec) * vec * CS) s :
  (arm <= 1)%nat -> arm_of arm o k -> o_p_gain o = 0 -> beta_index_irrelevant arm o ->
  as_cw (arm_proj arm x) = v3_zero /\ as_q (arm_proj arm x) = fst s /\ as_w (arm_proj arm x) = snd s ->
  let x' := dual_body i (dual_args o te) None cur d x in
  let s' := q_body i (cart_rot_args k None) cur d s in
  as_cw (arm_proj arm x') = v3_zero /\ as_q (arm_proj arm x') = fst s' /\ as_w (arm_proj arm x') = snd s'.
Proof.
  intros Ha HA Hg Hb (Hc & Hp & Hv) x' s'. unfold x'. rewrite dual_body_arm_none by auto. cbv zeta.
  set (A := arm_proj arm x) in *. clearbody A. clear x x'.
  destruct (arm_of_params arm o k te Ha HA Hg Hb)
    as (E1 & E2 & E3 & E4 & E5 & E6 & E7 & E8 & E9 & E10 & E11 & E12 & F1 & F2 & F3 & F4 & F5 & F6 & F7 & F8 & F9 & F10).
  set (P := arm_params arm (dual_args o te)) in *. set (B := cart_rot_args k None) in *.
  assert (Hct : q_coupling i B (fst s) (snd s) = (v3_zero, v3_zero)) by (destruct i; reflexivity).
  assert (HteP : exists t q, ap_te P = Some (t, q)) by (do 2 eexists; reflexivity).
  destruct HteP as (tp & tq & HteP).
  clearbody P B. destruct s as [y yd]. cbn [fst snd] in *.
  unfold arm_step. cbn [as_cw as_q as_w].
  rewrite HteP, F1, F2, F3, F4, F5, F6, E8, E9, E11, E12, Hp, Hv, <- F7, <- F8, <- F10.
  assert (Hc0 : match i with Python => as_cw A | Cython => v3_zero end = v3_zero) by (destruct i; auto).
  rewrite Hc0.
  assert (Hfb : v3_divs (v3_scale 0 (i_log i tq)) d = v3_zero)
    by (destruct (i_log i tq); apply v3_eq; simpl; unfold Rdiv; ring).
  rewrite Hfb.
  assert (Hz : v3_add v3_zero v3_zero = v3_zero) by (apply v3_eq; simpl; ring).
  rewrite Hz. split; [reflexivity|].
  unfold s', q_body. rewrite Hct. cbn [fst snd]. split; reflexivity.
Qed.

Definition euler_function (fn : step_function) : Prop := fn = Euler \/ fn = Euler_cython.

Lemma dual_step_function_cart arm o k te i fn y yd y' yd' yk ydk u u' :
  (arm <= 1)%nat -> euler_function fn -> arm_of arm o k -> o_p_gain o = 0 -> beta_index_irrelevant arm o ->
  0 <= p_t (o_base o) -> 0 < o_dt o -> 0 < o_execution_time o ->
  arm_pose arm y yk -> arm_twist arm yd ydk ->
  dual_step_function (CS := unit) i (dual_args o te) None (p_t (o_base o)) (p_t (o_base o) + o_dt o)
    (aget y, aget yd) u = Ok ((y', yd'), u') ->
  exists yp ydp q w,
    run_step_function fn (cart_pos_args k None) (p_t (k_base k)) (p_t (k_base k) + k_dt k)
      (slice 0 3 (aget yk), slice 0 3 (aget ydk)) = Ok (yp, ydp)
    /\ q_step i (cart_rot_args k None) (p_t (k_base k)) (p_t (k_base k) + k_dt k)
         (orientation yk, angular ydk) = Ok (q, w)
    /\ arm_p arm y' = v3_of yp /\ arm_v arm yd' = v3_of ydp /\ arm_q arm y' = q /\ arm_w arm yd' = w.
Proof.
  intros Ha Hfn HA Hg Hb Ht Hdt Hx Hy Hyd E.
  rewrite (ao_t _ _ _ HA), (ao_dt _ _ _ HA). unfold dual_step_function in E.
  change (a_start_t (dual_args o te)) with 0 in E. change (a_int_dt (dual_args o te)) with (o_int_dt o) in E.
  destruct (Rle_dec (p_t (o_base o) + o_dt o) 0); [lra|].
  destruct (substeps _ _ _ _ _ _) as [x|] eqn:Ex; [|discriminate]. cbn [rmap] in E. injection E as Exy Exu.
  set (x0 := ((aget y, aget yd), vzero, u)) in *.
  assert (Y0 : as_p (arm_proj arm x0) = v3_of (slice 0 3 (aget yk)) /\ as_v (arm_proj arm x0) = v3_of (slice 0 3 (aget ydk))
    /\ as_q (arm_proj arm x0) = orientation yk /\ as_w (arm_proj arm x0) = angular ydk).
  { unfold x0, arm_proj. cbn [as_p as_v as_q as_w]. unfold v3_of, slice, orientation, angular, arm_p, arm_v, arm_q, arm_w.
    cbn [Nat.ltb Nat.leb Nat.add].
    rewrite (Hy 0%nat), (Hy 1%nat), (Hy 2%nat), (Hy 3%nat), (Hy 4%nat), (Hy 5%nat), (Hy 6%nat) by lia.
    rewrite (Hyd 0%nat), (Hyd 1%nat), (Hyd 2%nat), (Hyd 3%nat), (Hyd 4%nat), (Hyd 5%nat) by lia.
    destruct (arm_dec arm Ha) as [-> | ->]; repeat split; reflexivity. }
  destruct Y0 as (Y1 & Y2 & Y3 & Y4).
  assert (Z0 : as_c (arm_proj arm x0) = v3_zero /\ as_cw (arm_proj arm x0) = v3_zero) by (split; reflexivity).
  destruct Z0 as [Z1 Z2].
  set (fuel := substeps_fuel (p_t (o_base o)) (p_t (o_base o) + o_dt o) (o_int_dt o)) in *.
  set (cy := match fn with Euler_cython => true | _ => false end).
  pose proof (substeps_rel_any (fun (x : (vec * vec) * vec * unit) (s : vec * vec) =>
      as_c (arm_proj arm x) = v3_zero /\ as_p (arm_proj arm x) = v3_of (fst s) /\ as_v (arm_proj arm x) = v3_of (snd s))
     (dual_body i (dual_args o te) None) ((if cy then euler_cython_body else euler_body) (cart_pos_args k None))
     (fun c d x s => arm_pos_body arm o k te i cy c d x s Ha HA Hg Hb)
     fuel (p_t (o_base o)) (p_t (o_base o) + o_dt o) (o_int_dt o) x0 (slice 0 3 (aget yk), slice 0 3 (aget ydk))
     (conj Z1 (conj Y1 Y2))) as RP.
  pose proof (substeps_rel_any (fun (x : (vec * vec) * vec * unit) (s : quat * v3) =>
      as_cw (arm_proj arm x) = v3_zero /\ as_q (arm_proj arm x) = fst s /\ as_w (arm_proj arm x) = snd s)
     (dual_body i (dual_args o te) None) (q_body i (cart_rot_args k None))
     (fun c d x s => arm_rot_body arm o k te i c d x s Ha HA Hg Hb)
     fuel (p_t (o_base o)) (p_t (o_base o) + o_dt o) (o_int_dt o) x0 (orientation yk, angular ydk)
     (conj Z2 (conj Y3 Y4))) as RR.
  rewrite Ex in RP, RR.
  destruct (substeps fuel _ _ _ ((if cy then euler_cython_body else euler_body) _) _) as [[yp ydp]|] eqn:EP; [|tauto].
  destruct (substeps fuel _ _ _ (q_body i _) _) as [[q w]|] eqn:EQ; [|tauto].
  destruct RP as (_ & P1 & P2). destruct RR as (_ & P3 & P4).
  exists yp, ydp, q, w.
  assert (Q : arm_p arm y' = as_p (arm_proj arm x) /\ arm_v arm yd' = as_v (arm_proj arm x)
     /\ arm_q arm y' = as_q (arm_proj arm x) /\ arm_w arm yd' = as_w (arm_proj arm x)).
  { destruct x as [[[a b] c] d]. cbn in Exy. injection Exy as -> ->. repeat split; reflexivity. }
  destruct Q as (Q1 & Q2 & Q3 & Q4). rewrite Q1, Q2, Q3, Q4. cbn [fst snd] in *.
  split; [|split; [|tauto]].
  - unfold cy in EP. destruct Hfn as [-> | ->]; unfold run_step_function, dmp_step_euler, dmp_step_euler_cython;
      change (a_goal_t (cart_pos_args k None)) with (k_execution_time k); change (a_start_t (cart_pos_args k None)) with 0;
      change (a_int_dt (cart_pos_args k None)) with (k_int_dt k); rewrite (ao_time _ _ _ HA), (ao_int_dt _ _ _ HA);
      (destruct (Rle_dec (o_execution_time o) 0); [lra|]);
      (destruct (Rle_dec (p_t (o_base o) + o_dt o) 0); [lra|]); exact EP.
  - unfold q_step. change (g_goal_t (cart_rot_args k None)) with (k_execution_time k).
    change (g_start_t (cart_rot_args k None)) with 0. change (g_int_dt (cart_rot_args k None)) with (k_int_dt k).
    rewrite (ao_time _ _ _ HA), (ao_int_dt _ _ _ HA).
    destruct i; (destruct (Rle_dec (o_execution_time o) 0); [lra|]);
      (destruct (Rle_dec (p_t (o_base o) + o_dt o) 0); [lra|]); exact EQ.
Qed.

Lemma arm_of_step arm o k o' k' : arm_of arm o k -> same_params o o' -> same_cart k k' ->
  p_t (k_base k') = p_t (o_base o') -> arm_of arm o' k'.
Proof.
  intros [] (A1 & A2 & A3 & A4 & A5 & A6 & A7 & A8 & A9 & A10 & A11 & A12 & A13 & A14 & A15 & A16 & A17)
    (B1 & B2 & B3 & B4 & B5 & B6 & B7 & B8 & B9 & B10 & B11 & B12 & B13 & B14 & B15) Ht.
  constructor; rewrite ?A1, ?A2, ?A4, ?A6, ?A7, ?A8, ?A9, ?A12, ?A15, ?B1, ?B2, ?B4, ?B5, ?B6, ?B7, ?B8, ?B9, ?B10, ?B13; auto.
Qed.

(** Without coupling term and without tracking-error feedback ([p_gain = 0]), pose and
    velocity of one arm after any number of steps of a DualCartesianDMP are the pose and
    velocity after the same number of steps of a CartesianDMP that has the start, goal,
    gains and weights of that arm (with either Euler implementation and the quaternion
    step of the same implementation). *)
Theorem C39_arm_is_cartesian_dmp : forall arm fn i n y yd yk ydk o k o' y' yd' u u',
  (arm <= 1)%nat -> euler_function fn -> dual_shapes o ->
  alen (p_current_y (k_base k)) = 7%nat -> alen (p_current_yd (k_base k)) = 6%nat ->
  alen yk = 7%nat -> alen ydk = 6%nat ->
  arm_of arm o k -> o_p_gain o = 0 -> beta_index_irrelevant arm o ->
  0 <= p_t (o_base o) -> 0 < o_dt o -> 0 < o_execution_time o ->
  arm_pose arm y yk -> arm_twist arm yd ydk ->
  dual_n_steps (CS := unit) None i n y yd u o = (o', u', Ok (y', yd')) ->
  exists k' yk' ydk', cart_n_steps None fn i n yk ydk k = (k', Ok (yk', ydk'))
    /\ arm_pose arm y' yk' /\ arm_twist arm yd' ydk'.
Proof.
  intros arm fn i n. induction n as [|n IH];
    intros y yd yk ydk o k o' y' yd' u u' Ha Hfn Hs H7 H6 L7 L6 HA Hg Hb Ht Hdt Hx Hy Hyd E.
  - cbn in E. injection E as <- <- <- <-. exists k, yk, ydk. repeat split; auto.
  - cbn [dual_n_steps] in E.
    destruct (dual_step y yd None i u o) as [[o1 u1] [[y1 yd1]|e]] eqn:E1; [|discriminate].
    destruct (dual_step_ok _ _ _ _ _ _ _ _ _ _ E1 Hs)
      as (L1 & L2 & Ef & L3 & L4 & Hp & Htt & Hini & Hc & _ & Hs1).
    destruct (dual_step_function_cart arm o k _ i fn y yd _ _ yk ydk _ _ Ha Hfn HA Hg Hb Ht Hdt Hx Hy Hyd Ef)
      as (yp & ydp & q & w & EP & EQ & P1 & P2 & P3 & P4).
    destruct (cart_step_intro yk ydk None fn i k yp ydp q w L7 L6 H7 H6 EP EQ) as [k1 Ek].
    destruct (cart_step_ok _ _ _ _ _ _ _ _ _ Ek H7 H6)
      as (yp2 & ydp2 & q2 & w2 & _ & _ & _ & _ & Hsame & Ht2 & H7' & H6').
    cbn [cart_n_steps]. rewrite Ek.
    pose proof Hp as (A1 & A2 & A3 & A4 & A5 & A6 & A7 & A8 & A9 & _).
    eapply (IH y1 yd1 (pose yp q) (twist ydp w) o1 k1); try assumption; try reflexivity.
    + apply (arm_of_step arm o k); auto. rewrite Ht2, Htt. now rewrite (ao_t _ _ _ HA), (ao_dt _ _ _ HA).
    + congruence.
    + unfold beta_index_irrelevant in *. rewrite A6, A9. exact Hb.
    + rewrite Htt. lra.
    + congruence.
    + congruence.
    + intros j Hj. unfold arm_p, arm_q, v3_of, quat_of, slice in *. injection P1 as P1a P1b P1c. subst q.
      destruct (arm_dec arm Ha) as [-> | ->]; cbn in *;
        do 7 (destruct j as [|j]; [cbn; congruence|]); lia.
    + intros j Hj. unfold arm_v, arm_w, v3_of, slice in *. injection P2 as P2a P2b P2c. subst w.
      destruct (arm_dec arm Ha) as [-> | ->]; cbn in *;
        do 6 (destruct j as [|j]; [cbn; congruence|]); lia.
    + exact E.
Qed.

(** ** Learning from one demonstration *)
Lemma slice_slice off len len2 (v : vec) : (len2 <= len)%nat -> slice 0 len2 (slice off len v) = slice off len2 v.
Proof.
  intros H. apply functional_extensionality; intros j. unfold slice. cbn [Nat.add].
  destruct (Nat.ltb_spec j len2); [|reflexivity]. destruct (Nat.ltb_spec j len); [reflexivity|lia].
Qed.

Lemma slice_ext off (u v : vec) len : (forall j, (j < len)%nat -> u j = v (off + j)%nat) ->
  slice 0 len u = slice off len v.
Proof.
  intros H. apply functional_extensionality; intros j. unfold slice. cbn [Nat.add].
  destruct (Nat.ltb_spec j len); [now apply H|reflexivity].
Qed.

(** [imitate] gives each arm the weights, the start and the goal that
    CartesianDMP.imitate learns from the seven columns of that arm. *)
Theorem C39_imitate : forall arm jl jlr jr jrr regress dm lam al o o' k,
  (arm <= 1)%nat -> dual_shapes o -> arm_of arm o k -> k_n k = o_n_weights_per_dim o ->
  p_n_dims (k_base k) = 7%nat ->
  ft_overlap (k_fpos k) = ft_overlap (o_forcing_term o) -> ft_overlap (k_frot k) = ft_overlap (o_forcing_term o) ->
  dual_imitate jl jlr jr jrr regress dm lam al o = (o', Ok tt) ->
  exists k', cart_imitate (if Nat.eqb arm 0 then jl else jr) (if Nat.eqb arm 0 then jlr else jrr) regress
               (demo_columns (7 * arm) 7 dm) lam al k = (k', Ok tt)
    /\ arm_of arm o' k'.
Proof.
  intros arm jl jlr jr jrr regress dm lam al o o' k Ha Hs HA Hn H7 Hop Hor E.
  unfold dual_imitate in E. destruct (Nat.eqb_spec (d_dims dm) 14) as [Hd|]; [|discriminate].
  cbn [negb] in E. cbv zeta in E.
  destruct (rmap _ (dmp_imitate jl _ _ _ _ _ _ _ _ _ _ _)) as [wl|] eqn:E1; [|discriminate].
  destruct (dmp_quaternion_imitation jlr _ _ _ _ _ _ _ _ _ _ _ _) as [wlr|] eqn:E2; [|discriminate].
  destruct (rmap _ (dmp_imitate jr _ _ _ _ _ _ _ _ _ _ _)) as [wr|] eqn:E3; [|discriminate].
  destruct (dmp_quaternion_imitation jrr _ _ _ _ _ _ _ _ _ _ _ _) as [wrr|] eqn:E4; [|discriminate].
  match type of E with dmp_configure ?c ?x = _ => set (C := c) in E; set (X := x) in E end.
  pose proof Hs as (D1 & D2 & _).
  assert (EX : o' = with_base (configured C (o_base X)) X).
  { unfold dmp_configure, configure in E. cbn [C c_t c_start_y c_start_yd c_start_ydd c_goal_y c_goal_yd c_goal_ydd
      configure_block] in E. change (o_base X) with (o_base o) in *.
    cbn [alen set_start_y p_n_dims set_goal_y] in E. rewrite D1 in E. cbn [Nat.eqb negb] in E.
    cbn in E. rewrite D1 in E. cbn in E. now injection E as <-. }
  set (jp := if Nat.eqb arm 0 then jl else jr). set (jq := if Nat.eqb arm 0 then jlr else jrr).
  set (wp := if Nat.eqb arm 0 then wl else wr). set (wq := if Nat.eqb arm 0 then wlr else wrr).
  assert (Ep : rmap (fun r => fst (fst r)) (dmp_imitate jp regress 3 (demo_columns (7 * arm) 3 dm) (o_n_weights_per_dim o) lam
      (slice (6 * arm) 3 (aget (o_alpha_y o))) (slice (6 * arm) 3 (aget (o_beta_y o)))
      (ft_overlap (o_forcing_term o)) (ft_alpha_z (o_forcing_term o)) al (o_smooth_scaling o)) = Ok wp).
  { unfold jp, wp. destruct (arm_dec arm Ha) as [-> | ->]; [exact E1|exact E3]. }
  assert (Eq : dmp_quaternion_imitation jq regress (d_n dm) (d_T dm) (fun t => arm_q arm (d_Y dm t))
      (o_n_weights_per_dim o) lam (arm_w arm (aget (o_alpha_y o))) (arm_w arm (aget (o_beta_y o)))
      (ft_overlap (o_forcing_term o)) (ft_alpha_z (o_forcing_term o)) al (o_smooth_scaling o) = Ok wq).
  { unfold jq, wq. destruct (arm_dec arm Ha) as [-> | ->]; [exact E2|exact E4]. }
  clear E1 E2 E3 E4.
  unfold cart_imitate. cbn [demo_columns d_dims Nat.eqb negb d_n d_T d_rows d_Y]. cbv zeta.
  destruct HA.
  rewrite Hn, Hop, (tr_alpha_z _ _ _ ao_pos0), ao_smooth0.
  replace (fun t : nat => slice 0 3 (slice (7 * arm) 7 (d_Y dm t)))
    with (fun t : nat => slice (7 * arm) 3 (d_Y dm t))
    by (apply functional_extensionality; intros t; now rewrite slice_slice by lia).
  rewrite (slice_ext (6 * arm) (aget (k_alpha k)) (aget (o_alpha_y o))) by (intros; apply ao_alpha0; lia).
  rewrite (slice_ext (6 * arm) (aget (k_beta k)) (aget (o_beta_y o))) by (intros; apply ao_beta0; lia).
  unfold demo_columns in Ep.
  destruct (dmp_imitate jp _ _ _ _ _ _ _ _ _ _ _) as [[[w0 w1] w2]|]; [|discriminate].
  cbn [rmap fst] in Ep. injection Ep as ->.
  cbn [cart_with_fpos k_frot k_n k_smooth k_alpha k_beta].
  rewrite Hn, Hor, (tr_alpha_z _ _ _ ao_rot0), ao_smooth0.
  assert (Q1 : (fun t : nat => quat_of (slice 3 4 (slice (7 * arm) 7 (d_Y dm t)))) = (fun t => arm_q arm (d_Y dm t))).
  { apply functional_extensionality; intros t. destruct (arm_dec arm Ha) as [-> | ->]; reflexivity. }
  assert (Q2 : v3_of (slice 3 3 (aget (k_alpha k))) = arm_w arm (aget (o_alpha_y o))).
  { unfold v3_of, slice, arm_w, v3_of, slice. cbn [Nat.ltb Nat.leb Nat.add]. rewrite !ao_alpha0 by lia.
    destruct (arm_dec arm Ha) as [-> | ->]; reflexivity. }
  assert (Q3 : v3_of (slice 3 3 (aget (k_beta k))) = arm_w arm (aget (o_beta_y o))).
  { unfold v3_of, slice, arm_w, v3_of, slice. cbn [Nat.ltb Nat.leb Nat.add]. rewrite !ao_beta0 by lia.
    destruct (arm_dec arm Ha) as [-> | ->]; reflexivity. }
  rewrite Q1, Q2, Q3, Eq.
  unfold cart_configure, configure.
  cbn [c_t c_start_y c_start_yd c_start_ydd c_goal_y c_goal_yd c_goal_ydd configure_block
    cart_with_frot cart_with_fpos k_base alen].
  rewrite H7. unfold check_1d_array_length. cbn [alen Nat.eqb and_then]. cbn [set_start_y set_goal_y p_n_dims]. rewrite ?H7.
  cbn [alen Nat.eqb and_then].
  eexists. split; [reflexivity|].
  rewrite EX. clear E EX.
  constructor; try assumption.
  - destruct ao_pos0. constructor; auto. intros j n Hj _. cbn. unfold assign_three_rows, wp.
    destruct (arm_dec arm Ha) as [-> | ->]; do 3 (destruct j as [|j]; [reflexivity|]); lia.
  - destruct ao_rot0. constructor; auto. intros j n Hj _. cbn. unfold assign_three_rows, wq.
    destruct (arm_dec arm Ha) as [-> | ->]; do 3 (destruct j as [|j]; [reflexivity|]); lia.
  - intros j Hj. cbn. unfold slice. destruct (Nat.ltb_spec j 7); [reflexivity|lia].
  - intros j Hj. cbn. unfold slice. destruct (Nat.ltb_spec j 7); [reflexivity|lia].
Qed.
