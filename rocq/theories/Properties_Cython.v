(** C89: memory safety and correctness of the compiled step functions.  [Wild] stands for
    an access outside an array (dmp_fast.pyx is compiled without bounds checks). *)
From Coq Require Import Reals List Arith Bool Lia Lra.
From Verif Require Import M_Prelude M_Base M_Forcing M_Dmp M_DmpObject M_Quaternion M_Cartesian M_Dual M_Rigid
  M_Coupling M_Cython
  P_DmpObject P_DualObject P_Cython P_CythonValues P_CythonRotation
  Properties_DmpObject Properties_DmpState Properties_CartesianObject Properties_DualObject Properties_DualRuns
  Properties_DualExamples.
Import ListNotations.
Open Scope R_scope.
Set Bullet Behavior "Strict Subproofs".

(** *** Direct calls *)

(** The RK4 step never leaves its arrays, whatever the lengths of the arrays that are
    passed in, as long as [phase] returns as many phases as it was given times. *)
Theorem C89_rk4_any_lengths : forall junk k last_t t s,
  (forall c, k_coupling_term k = Some c -> forall y yd, c y yd <> Wild) ->
  (forall a b, fo_phase_array (k_forcing_term k) a = Ok b -> (alen a <= alen b)%nat) ->
  c_dmp_step_rk4 junk k last_t t s <> Wild.
Proof.
  intros junk k last_t t s Hc HZ. eapply tri_safe. apply rk4_safe; [| exact HZ].
  unfold coupling_ok, safe_coupling. destruct (k_coupling_term k) as [c |]; [| exact I]. now apply Hc.
Qed.

(** The Euler step relies on the lengths of the arrays: it leaves them exactly if one of
    [goal_y], [alpha_y], [beta_y], [current_yd] (and [start_y] with smooth scaling) is
    shorter than [current_y]. *)
Theorem C89_euler_lengths : forall junk k f last_t t y yd,
  k_coupling_term k = None -> k_precomputed k = None -> k_tracking_error k = None ->
  k_forcing_term k = ft_object (alen y) f ->
  k_start_t k < k_goal_t k -> k_start_t k < t -> last_t < t -> 0 < k_int_dt k ->
  (c_dmp_step junk k last_t t (y, yd) = Wild <->
   (alen (k_goal_y k) < alen y \/ alen (k_alpha_y k) < alen y \/ alen (k_beta_y k) < alen y
    \/ alen yd < alen y \/ (k_smooth_scaling k = true /\ alen (k_start_y k) < alen y))%nat).
Proof.
  intros junk k f last_t t y yd E1 E2 E3 E4 H1 H2 H3 H4. split.
  - intros H.
    assert (D : (~ euler_fits k (alen y) (alen yd))).
    { intros F. refine (tri_safe _ _ (euler_safe junk k last_t t (y, yd) _ F) H). unfold coupling_ok. now rewrite E1. }
    unfold euler_fits in D. destruct (k_smooth_scaling k).
    + destruct (le_lt_dec (alen y) (alen (k_start_y k))); [| tauto].
      assert (~ (alen y <= alen (k_goal_y k) /\ alen y <= alen (k_alpha_y k) /\ alen y <= alen (k_beta_y k)
        /\ alen y <= alen yd)%nat) by tauto. lia.
    + assert (~ (alen y <= alen (k_goal_y k) /\ alen y <= alen (k_alpha_y k) /\ alen y <= alen (k_beta_y k)
        /\ alen y <= alen yd)%nat) by (intros (A & B & C & D'); apply D; repeat split; auto; discriminate). lia.
  - intros H. apply (euler_short junk k f last_t t (y, yd)); auto. cbn [fst snd].
    intros (F1 & F2 & F3 & F4 & F5). destruct H as [H | [H | [H | [H | [Hs H]]]]]; try lia.
    specialize (F5 Hs). lia.
Qed.

(** *** Objects *)

Lemma run_safe (step : R -> R -> arr * arr -> cres (arr * arr)) n m :
  (forall last_t t s, alen (fst s) = n -> alen (snd s) = m ->
     tri True (step last_t t s) (fun x => alen (fst x) = n /\ alen (snd x) = m)) ->
  forall ts s, alen (fst s) = n -> alen (snd s) = m -> c_run step ts s <> Wild.
Proof.
  intros Hs ts s H1 H2. apply (tri_safe _ (fun x => alen (fst x) = n /\ alen (snd x) = m)).
  revert s H1 H2. induction ts as [| [a b] ts IH]; intros s H1 H2; cbn [c_run].
  - apply tri_done. auto.
  - apply tri_bind. eapply tri_weaken; [now apply Hs |]. intros x [X1 X2]. now apply IH.
Qed.

(** No sequence of steps of a DMP object leaves the arrays: any object that the
    interface produces, any times, any coupling term that is itself safe, any tracking
    error. *)
Theorem C89_dmp : forall n o junk c start_yd te ts y yd,
  reachable n o -> alen y = n -> alen yd = n ->
  (forall f, c = Some f -> forall y yd, f y yd <> Wild) ->
  c_run (c_dmp_step junk (cy_object_args n o c start_yd te)) ts (y, yd) <> Wild
  /\ c_run (c_dmp_step_rk4 junk (cy_object_args n o c start_yd te)) ts (y, yd) <> Wild.
Proof.
  intros n o junk c start_yd te ts y yd Hr Hy Hyd Hc.
  destruct (reachable_shapes n o Hr) as [Hs Hn]. split_shapes Hs. rewrite Hn in *.
  assert (K : coupling_ok (cy_object_args n o c start_yd te)).
  { unfold coupling_ok, safe_coupling. cbn [k_coupling_term cy_object_args]. destruct c; [now apply Hc | exact I]. }
  split; apply (run_safe _ n n); try assumption; intros last_t t s L1 L2.
  - eapply tri_weaken; [apply euler_safe; [exact K |]; rewrite L1, L2; unfold euler_fits; cbn; lia |].
    intros x. now rewrite L1, L2.
  - eapply tri_weaken; [apply rk4_safe; [exact K |] | intros x; now rewrite L1, L2]. cbn. intros a b [= <-]. reflexivity.
Qed.

(** The same for the two parts of a CartesianDMP. *)
Theorem C89_cartesian : forall o junk c start_yd ts y yd,
  cart_reachable o -> alen y = 7%nat -> alen yd = 6%nat ->
  (forall f, c = Some f -> forall y yd, f y yd <> Wild) ->
  c_run (c_dmp_step junk (cy_cart_position_args o c start_yd)) ts (np_slice 0 3 y, np_slice 0 3 yd) <> Wild
  /\ c_run (c_dmp_step_rk4 junk (cy_cart_position_args o c start_yd)) ts (np_slice 0 3 y, np_slice 0 3 yd) <> Wild
  /\ c_run (c_dmp_step_quaternion junk (cy_cart_orientation_args o c start_yd)) ts (from 3 y, from 3 yd) <> Wild.
Proof.
  intros o junk c start_yd ts y yd Hr Hy Hyd Hc.
  destruct (C23_cartesian_shapes o Hr) as (H0 & H0' & H1 & H2 & H3 & H4 & H5 & H6 & H7 & H8 & H9 & H10 & H11).
  assert (K : forall k, k_coupling_term k = c -> coupling_ok k).
  { intros k E. unfold coupling_ok, safe_coupling. rewrite E. destruct c; [now apply Hc | exact I]. }
  repeat split.
  - apply (run_safe _ 3 3); cbn [fst snd np_slice alen]; rewrite ?Hy, ?Hyd; auto. intros last_t t s L1 L2.
    eapply tri_weaken; [apply euler_safe; [now apply K |] | intros x; now rewrite L1, L2].
    rewrite L1, L2. unfold euler_fits. cbn [k_goal_y k_start_y k_alpha_y k_beta_y cy_cart_position_args np_slice alen].
    lia.
  - apply (run_safe _ 3 3); cbn [fst snd np_slice alen]; rewrite ?Hy, ?Hyd; auto. intros last_t t s L1 L2.
    eapply tri_weaken; [apply rk4_safe; [now apply K |] | intros x; now rewrite L1, L2]. cbn. intros a b [= <-]. reflexivity.
  - apply (run_safe _ 4 3); cbn [fst snd from np_slice alen]; rewrite ?Hy, ?Hyd; auto. intros last_t t s L1 L2.
    eapply tri_weaken; [apply quaternion_safe; [now apply K |] | intros x; now rewrite L1, L2].
    rewrite L1, L2. unfold quaternion_fits.
    cbn [k_goal_y k_start_y k_alpha_y k_beta_y cy_cart_orientation_args from np_slice alen]. lia.
Qed.

(** The same for a DualCartesianDMP. *)
Theorem C89_dual : forall o junk c start_yd te ts y yd,
  dual_reachable o -> alen y = 14%nat -> alen yd = 12%nat ->
  match te with Some e => alen e = 14%nat | None => True end ->
  (forall f, c = Some f -> forall y yd, f y yd <> Wild) ->
  c_run (c_dmp_step_dual_cartesian junk (cy_object_args 12 o c start_yd te)) ts (y, yd) <> Wild.
Proof.
  intros o junk c start_yd te ts y yd Hr Hy Hyd Ht Hc.
  destruct (C23_dual_shapes o Hr) as (H0 & H0' & H1 & H2 & H3 & H4 & H5 & H6 & H7 & H8 & H9 & H10 & H11).
  apply (run_safe _ 14 12); try assumption. intros last_t t s L1 L2.
  eapply tri_weaken; [apply dual_safe | intros x; now rewrite L1, L2].
  - unfold coupling_ok, safe_coupling. cbn [k_coupling_term cy_object_args]. destruct c; [now apply Hc | exact I].
  - rewrite L1, L2. unfold dual_fits.
    cbn [k_goal_y k_start_y k_alpha_y k_beta_y k_tracking_error k_smooth_scaling cy_object_args].
    rewrite H9, H10, H4, H1. repeat split; auto with arith; try lia. destruct te; [lia | exact I].
Qed.

(** *** Values *)

(** The array programs compute what the value-level models compute, exceptions included.
    [agree n a v]: the array [a] has [n] entries, those of [v]. *)
Theorem C89_euler_values : forall junk n a last_t t y yd u v,
  (forall c, a_coupling_term a = Some c -> respects n n c) ->
  agree n y u -> agree n yd v ->
  match dmp_step_euler_cython a last_t t (u, v) with
  | Ok (u', v') => exists y' yd', c_dmp_step junk (cy_of n a) last_t t (y, yd) = Done (y', yd')
      /\ agree n y' u' /\ agree n yd' v'
  | Err e => c_dmp_step junk (cy_of n a) last_t t (y, yd) = Raised e
  end.
Proof.
  intros junk n a last_t t y yd u v Hc H1 H2.
  pose proof (euler_values n a Hc junk last_t t (u, v) (y, yd) (conj H1 H2)) as H.
  destruct (dmp_step_euler_cython a last_t t (u, v)) as [[u' v'] | e]; [| exact H].
  destruct H as ([y' yd'] & E & G1 & G2). eauto.
Qed.

Theorem C89_rk4_values : forall junk n a last_t t y yd u v,
  a_goal_t a <> a_start_t a ->
  (forall c, a_coupling_term a = Some c -> respects n n c) ->
  agree n y u -> agree n yd v ->
  let '(u', v') := dmp_step_rk4_cython a last_t t (u, v) in
  exists y' yd', c_dmp_step_rk4 junk (cy_of n a) last_t t (y, yd) = Done (y', yd')
      /\ agree n y' u' /\ agree n yd' v'.
Proof.
  intros junk n a last_t t y yd u v Hne Hc H1 H2.
  pose proof (rk4_values n a Hc junk last_t t (u, v) (y, yd) Hne (conj H1 H2)) as H.
  destruct (dmp_step_rk4_cython a last_t t (u, v)) as [u' v'].
  destruct H as ([y' yd'] & E & G1 & G2). eauto.
Qed.

(** The acceleration of the compiled RK4 step is the one place where the compiled code checks a
    division: a movement without duration raises ZeroDivisionError, where the Euler step raises
    ValueError (C89_euler_values) and the other integrators divide by zero. *)
Theorem C89_rk4_no_duration : forall junk n a last_t t y yd,
  (0 < n)%nat -> a_goal_t a = a_start_t a ->
  alen y = n -> alen yd = n ->
  c_dmp_step_rk4 junk (cy_of n a) last_t t (y, yd) = Raised ZeroDivisionError.
Proof.
  intros junk n a last_t t y yd Hn He Hy Hyd. now apply rk4_no_duration.
Qed.

Theorem C89_quaternion_values : forall junk a last_t t y yd q w,
  alen y = 4%nat -> alen yd = 3%nat -> quat_of (aget y) = q -> v3_of (aget yd) = w ->
  match q_step Cython a last_t t (q, w) with
  | Ok (q', w') => exists y' yd',
      c_dmp_step_quaternion junk (cy_of_quaternion a) last_t t (y, yd) = Done (y', yd')
      /\ alen y' = 4%nat /\ alen yd' = 3%nat /\ quat_of (aget y') = q' /\ v3_of (aget yd') = w'
  | Err e => c_dmp_step_quaternion junk (cy_of_quaternion a) last_t t (y, yd) = Raised e
  end.
Proof.
  intros junk a last_t t y yd q w H1 H2 H3 H4.
  pose proof (quaternion_values junk a last_t t (q, w) (y, yd) (conj (conj H1 H3) (conj H2 H4))) as H.
  destruct (q_step Cython a last_t t (q, w)) as [[q' w'] | e]; [| exact H].
  destruct H as ([y' yd'] & E & [G1 G2] & [G3 G4]). exists y', yd'. repeat split; assumption.
Qed.

Theorem C89_dual_values : forall junk a c last_t t y yd u v,
  match c with Some c => respects 14 12 c | None => True end ->
  agree 14 y u -> agree 12 yd v ->
  match dual_step_function Cython a (option_map stateless c) last_t t (u, v) tt with
  | Ok ((u', v'), _) => exists y' yd',
      c_dmp_step_dual_cartesian junk (cy_of_dual a c) last_t t (y, yd) = Done (y', yd')
      /\ agree 14 y' u' /\ agree 12 yd' v'
  | Err e => c_dmp_step_dual_cartesian junk (cy_of_dual a c) last_t t (y, yd) = Raised e
  end.
Proof.
  intros junk a c last_t t y yd u v Hc H1 H2.
  pose proof (dual_values a c Hc junk last_t t (u, v) (y, yd) H1 H2) as H.
  destruct (dual_step_function _ _ _ _ _ _ _) as [[[u' v'] []] | e]; [| exact H].
  destruct H as ([y' yd'] & E & G1 & G2). eauto.
Qed.

(** *** Obstacle avoidance *)

(** [CouplingTermObstacleAvoidance2D(obstacle, fast=True)] stays within its arrays if the
    velocity has at least two entries. *)
Theorem C89_obstacle : forall obstacle gamma beta y yd,
  (2 <= alen obstacle)%nat -> (2 <= alen yd)%nat -> c_obstacle_coupling obstacle gamma beta y yd <> Wild.
Proof.
  intros ob gamma beta y yd Ho Hyd. apply (tri_safe _ (fun _ => True)).
  unfold c_obstacle_coupling, c_obstacle_avoidance_acceleration_2d.
  apply tri_bind. apply tri_bind. unfold np_op.
  assert (G : forall d, (2 <= alen d)%nat -> tri True
    (a <- c_rd d 0;; b <- c_rd yd 1;; c <- c_rd d 1;; d' <- c_rd yd 0;;
     (let r := a * b - c * d' in
      let r := if Req_EM_T r 0 then r else r * (1 / 2 * PI / Rabs r) in
      R3 <- c_matrix_from_compact_axis_angle (list_arr [0; 0; r]);;
      (let m i j := nth j (nth i R3 []) 0 in
       a <- c_rd d 0;; b <- c_rd yd 0;; c <- c_rd d 1;; d <- c_rd yd 1;;
       (let theta_nom := a * b + c * d in
        let obstacle_diff_norm := sqrt (a * a + c * c) in
        let yd_norm := sqrt (b * b + d * d) in
        let theta := acos (theta_nom / (obstacle_diff_norm * yd_norm + / 10 ^ 10)) in
        if Nat.eqb (alen yd) 2 then
          let rotated := list_arr [m 0%nat 0%nat * aget yd 0%nat + m 0%nat 1%nat * aget yd 1%nat;
                                   m 1%nat 0%nat * aget yd 0%nat + m 1%nat 1%nat * aget yd 1%nat] in
          Done (np_map (fun e => gamma * e * (theta * exp (- beta * theta))) rotated)
        else Raised ValueError))))
    (fun cdd => tri True (Done (nd1 (zeros (alen cdd)), nd1 cdd)) (fun _ => True))).
  { intros d Hd. do 4 (apply tri_bind, tri_rd; [lia |]). cbv zeta.
    apply tri_bind. apply (tri_weaken True _ (fun _ => True)).
    - unfold c_matrix_from_compact_axis_angle. cbv zeta. destruct (Req_EM_T _ _); [exact I |].
      do 3 (apply tri_bind, tri_rd; [cbn; lia |]). exact I.
    - intros R3 _. do 4 (apply tri_bind, tri_rd; [lia |]). destruct (Nat.eqb (alen yd) 2); exact I. }
  destruct (Nat.eqb_spec (alen ob) (alen y)); [apply tri_done, G; assumption |].
  destruct (Nat.eqb_spec (alen ob) 1); [lia |].
  destruct (Nat.eqb_spec (alen y) 1); [| exact I]. apply tri_done, G. assumption.
Qed.

(** The array code computes the rotation matrix of a rotation vector ... *)
Theorem C89_rotation_matrix_values : forall r v, agree 3 r (vec_of_v3 v) ->
  let M := matrix_from_compact_axis_angle v in
  c_matrix_from_compact_axis_angle r
  = Done [[m00 M; m01 M; m02 M]; [m10 M; m11 M; m12 M]; [m20 M; m21 M; m22 M]].
Proof.
  intros r [x y z] [L H] M.
  pose proof (H 0%nat ltac:(lia)) as H0. pose proof (H 1%nat ltac:(lia)) as H1.
  pose proof (H 2%nat ltac:(lia)) as H2. cbn in H0, H1, H2.
  unfold M, c_matrix_from_compact_axis_angle, matrix_from_compact_axis_angle.
  assert (E : sqrt (rsum (alen r) (fun i => aget r i * aget r i)) = v3_norm (V3 x y z)).
  { rewrite L. cbn. rewrite H0, H1, H2. unfold v3_norm. f_equal. cbn. ring. }
  rewrite E. cbv zeta. destruct (Req_EM_T (v3_norm (V3 x y z)) 0) as [_|_]; [reflexivity|].
  unfold c_rd. rewrite L. cbn [Nat.ltb Nat.leb cbind]. rewrite H0, H1, H2.
  unfold axis_angle_matrix. cbn. reflexivity.
Qed.

(** ... and, for arrays of two entries, the acceleration of the other theorems (C44, C45,
    C63). *)
Theorem C89_obstacle_values : forall obstacle gamma beta y yd,
  alen obstacle = 2%nat -> alen y = 2%nat -> alen yd = 2%nat ->
  exists cd cdd, c_obstacle_coupling obstacle gamma beta y yd = Done (nd1 cd, nd1 cdd)
  /\ let c := obstacle_2d_coupling Cython (aget obstacle 0%nat, aget obstacle 1%nat) gamma beta
                (aget y) (aget yd) in
     agree 2 cd (fst c) /\ agree 2 cdd (snd c).
Proof.
  intros ob gamma beta y yd Ho Hy Hyd.
  unfold c_obstacle_coupling, c_obstacle_avoidance_acceleration_2d, np_op.
  rewrite Ho, Hy. cbn [Nat.eqb cbind]. unfold c_rd. cbn [alen aget]. rewrite Hyd.
  cbn [Nat.ltb Nat.leb cbind]. cbv zeta.
  unfold obstacle_2d_coupling, obstacle_2d, obstacle_2d_cython. cbn [fst snd].
  set (r := if Req_EM_T _ 0 then _ else _).
  rewrite (C89_rotation_matrix_values _ (V3 0 0 r)).
  2:{ split; [reflexivity|]. intros [|[|[|i]]] Hi; try reflexivity. lia. }
  cbn [cbind Nat.eqb]. cbv zeta. cbn [cbind].
  eexists _, _. split; [reflexivity|]. split.
  - split; [reflexivity|]. reflexivity.
  - split; [reflexivity|]. intros [|[|i]] Hi; [| |lia]; reflexivity.
Qed.

(** A DMP with one dimension and this coupling term: the step reads the second entry of
    a velocity that has only one.  (The version without [fast] raises ValueError when it
    reshapes the velocity to rows of two entries.) *)
Theorem C89_obstacle_refuted : forall o junk obstacle gamma beta start_yd te last_t t y yd,
  reachable 1 o -> 0 < o_execution_time o -> 0 < o_int_dt o -> 0 < t -> last_t < t ->
  alen obstacle = 2%nat -> alen y = 1%nat -> alen yd = 1%nat ->
  c_dmp_step junk (cy_object_args 1 o (Some (c_obstacle_coupling obstacle gamma beta)) start_yd te) last_t t (y, yd)
  = Wild.
Proof.
  intros o junk ob gamma beta start_yd te last_t t y yd Hr Hx Hh Ht Hl Ho Hy Hyd.
  unfold c_dmp_step, c_restart. cbn [k_goal_t k_start_t cy_object_args M_Cython.k_int_dt].
  destruct (Rle_dec _ _); [lra |]. destruct (Rle_dec _ _); [lra |]. cbn [cbind].
  destruct (substeps_fuel_pos last_t t (o_int_dt o)) as [fuel ->]; [lra.. |].
  cbn [c_substeps]. destruct (Rlt_dec last_t t); [| lra].
  unfold c_euler_body, c_couple. cbn [k_coupling_term cy_object_args fst snd].
  unfold c_obstacle_coupling, c_obstacle_avoidance_acceleration_2d, np_op. rewrite Ho, Hy. cbn [Nat.eqb cbind].
  unfold c_rd. cbn [alen]. rewrite ?Ho, ?Hyd. reflexivity.
Qed.

(** *** The step of an object, in arrays and in values *)
Lemma of_vec_eta n a : alen a = n -> of_vec n (aget a) = a.
Proof. intros <-. now destruct a. Qed.

(** With the arrays of a DMP object the compiled functions compute what [DMP.step] was
    shown to compute in the other theorems (C09, C10, C13, C18, ...). *)
Theorem C89_object_values : forall n o c te junk last_t t y yd u v,
  reachable n o -> alen te = n -> (forall f, c = Some f -> respects n n f) -> agree n y u -> agree n yd v ->
  let k := cy_object_args n o (option_map (coupling_object n) c) (p_start_yd (o_base o)) (Some te) in
  let result fn r :=
    match run_step_function fn (step_args o c (aget te)) last_t t (u, v) with
    | Ok (u', v') => exists y' yd', r = Done (y', yd') /\ agree n y' u' /\ agree n yd' v'
    | Err e => r = Raised e
    end in
  result Euler_cython (c_dmp_step junk k last_t t (y, yd))
  /\ (o_execution_time o <> 0 -> result RK4_cython (c_dmp_step_rk4 junk k last_t t (y, yd))).
Proof.
  intros n o c te junk last_t t y yd u v Hr Ht Hc H1 H2 k result.
  destruct (reachable_shapes n o Hr) as [Hs Hn]. unfold shapes_ok in Hs. rewrite Hn in Hs.
  destruct Hs as (S0 & S1 & S2 & S3 & S4 & S5 & S6 & S7 & S8 & S9 & S10 & S11 & S12).
  assert (E : k = cy_of n (step_args o c (aget te))).
  { unfold k, cy_object_args, cy_of. cbn [step_args a_goal_y a_start_y a_start_yd a_goal_t a_start_t a_alpha_y a_beta_y
      a_forcing_term a_coupling_term a_precomputed a_int_dt a_p_gain a_tracking_error a_smooth_scaling option_map].
    rewrite !of_vec_eta by assumption. reflexivity. }
  unfold result. rewrite E. split.
  - apply C89_euler_values; assumption.
  - intros Hx.
    pose proof (C89_rk4_values junk n (step_args o c (aget te)) last_t t y yd u v Hx Hc H1 H2) as H.
    cbn [run_step_function].
    destruct (dmp_step_rk4_cython _ _ _ _) as [u' v']. exact H.
Qed.

(** *** Examples *)

(** A two-dimensional DMP, its arrays, and a coupling term in the sense of the theorems. *)
Example C89_satisfiable : exists o, reachable 2 o
  /\ agree 2 (of_vec 2 (fun i => INR i)) (fun i => INR i)
  /\ respects 2 2 (fun y yd => (vscale 2 y, vscale 3 yd))
  /\ (forall y yd, coupling_object 2 (fun y yd => (vscale 2 y, vscale 3 yd)) y yd <> Wild)
  /\ 0 < o_execution_time o /\ 0 < o_int_dt o.
Proof.
  destruct (ex_new_ok 2 25 (25/4)) as (f & o & E & Ef & Eo).
  exists o. split; [eapply ex_reachable; eauto |]. split; [apply agree_of_vec |]. split.
  - intros y y' yd yd' H1 H2 i Hi. unfold vscale. cbn [fst snd]. now rewrite H1, H2 by lia.
  - split; [discriminate |]. rewrite Eo. cbn. lra.
Qed.

Example C89_cartesian_satisfiable : exists o, cart_reachable o.
Proof. destruct ex_cart_ok as (o & Hr & _). now exists o. Qed.

Example C89_dual_satisfiable : exists o, dual_reachable o.
Proof.
  destruct (dual_example 1 1 1 0 false (fun _ => 1) (fun _ => 1) at_origin at_origin) as (o & Hr & _); [lra |].
  now exists o.
Qed.

(** The hypotheses of the refutation. *)
Example C89_obstacle_refuted_satisfiable : exists o, reachable 1 o /\ 0 < o_execution_time o /\ 0 < o_int_dt o
  /\ alen (of_vec 2 vzero) = 2%nat /\ alen (zeros 1) = 1%nat.
Proof.
  destruct (ex_new_ok 1 25 (25/4)) as (f & o & E & Ef & Eo).
  exists o. split; [eapply ex_reachable; eauto |]. rewrite Eo. cbn. repeat split; lra.
Qed.
