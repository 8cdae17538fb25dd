(** C33, C34, C35, C36 (CartesianDMP and SpringDamperOrientation).  Final statements. *)
From Coq Require Import Reals List Arith Lia Lra Psatz FunctionalExtensionality.
From Verif Require Import M_Prelude M_Canonical M_Forcing M_Dmp M_Base M_DmpObject M_SpringDamper
  M_Quaternion M_Cartesian S_Loops S_Rotation P_Loops P_Canonical P_Quaternion P_Cartesian
  Properties_Dmp Properties_SpringDamper.
Import ListNotations.
Open Scope R_scope.
Set Bullet Behavior "Strict Subproofs".

(** The orientation in a pose array. *)
Definition orientation (y : arr) : quat := Q4 (aget y 3%nat) (aget y 4%nat) (aget y 5%nat) (aget y 6%nat).
(** The angular velocity in a velocity array. *)
Definition angular (v : arr) : v3 := V3 (aget v 3%nat) (aget v 4%nat) (aget v 5%nat).

(** ** C33 *)
(** One call of the orientation step function, any arguments and coupling term.
    The Cython version returns the start orientation for [t <= start_t]. *)
Theorem C33_step : forall i a last_t t y yd y' yd',
  unit_quat y -> (i = Cython -> unit_quat (g_start_y a)) ->
  q_step i a last_t t (y, yd) = Ok (y', yd') -> unit_quat y'.
Proof. intros i a lt t y yd y' yd' Hy Hs E. exact (q_step_unit i a lt t (y, yd) (y', yd') Hy Hs E). Qed.

(** dmp_open_loop_quaternion. *)
Theorem C33_open_loop : forall i a dt run_t ts l,
  unit_quat (g_start_y a) -> q_open_loop i a dt run_t = Ok (ts, l) ->
  Forall (fun s => unit_quat (fst s)) l.
Proof.
  intros i a dt run_t ts l Hs E. unfold q_open_loop in E.
  eapply (run_on_grid_inv (fun s => unit_quat (fst s))); [| |exact E]; [|exact Hs].
  intros; eapply q_step_unit; eauto.
Qed.

Lemma orientation_pose y q : orientation (pose y q) = q.
Proof. destruct q; reflexivity. Qed.
Lemma angular_twist y w : angular (twist y w) = w.
Proof. destruct w; reflexivity. Qed.

(** The parameters of an object that [step] does not change. *)
Definition same_cart (o o' : cart) : Prop :=
  k_execution_time o' = k_execution_time o /\ k_dt o' = k_dt o /\ k_n o' = k_n o
  /\ k_int_dt o' = k_int_dt o /\ k_smooth o' = k_smooth o /\ k_fpos o' = k_fpos o
  /\ k_frot o' = k_frot o /\ k_alpha o' = k_alpha o /\ k_beta o' = k_beta o
  /\ p_start_y (k_base o') = p_start_y (k_base o) /\ p_start_yd (k_base o') = p_start_yd (k_base o)
  /\ p_start_ydd (k_base o') = p_start_ydd (k_base o)
  /\ p_goal_y (k_base o') = p_goal_y (k_base o) /\ p_goal_yd (k_base o') = p_goal_yd (k_base o)
  /\ p_goal_ydd (k_base o') = p_goal_ydd (k_base o).

(** What a successful call of [step] computes. *)
Lemma cart_step_ok y yd c fn i o o' y' yd' :
  cart_step y yd c fn i o = (o', Ok (y', yd')) ->
  (alen (p_current_y (k_base o)) = 7)%nat -> (alen (p_current_yd (k_base o)) = 6)%nat ->
  exists yp ydp q w,
    run_step_function fn (cart_pos_args o c) (p_t (k_base o)) (p_t (k_base o) + k_dt o)
      (slice 0 3 (aget y), slice 0 3 (aget yd)) = Ok (yp, ydp)
    /\ q_step i (cart_rot_args o c) (p_t (k_base o)) (p_t (k_base o) + k_dt o)
         (orientation y, angular yd) = Ok (q, w)
    /\ y' = pose yp q /\ yd' = twist ydp w /\ same_cart o o'
    /\ p_t (k_base o') = p_t (k_base o) + k_dt o
    /\ alen (p_current_y (k_base o')) = 7%nat /\ alen (p_current_yd (k_base o')) = 6%nat.
Proof.
  intros E H7 H6. unfold cart_step in E.
  destruct (Nat.eqb_spec (alen y) 7) as [Hy|]; [|discriminate].
  destruct (Nat.eqb_spec (alen yd) 6) as [Hyd|]; [|discriminate]. cbn [negb] in E. cbv zeta in E.
  cbn [set_t set_last_t p_current_y p_current_yd] in E.
  unfold assign_slice in E. rewrite Hy, Hyd, H7, H6, !Nat.eqb_refl in E.
  change (cart_pos_args (cart_with_base _ _) c) with (cart_pos_args o c) in E.
  change (cart_rot_args (cart_with_base _ _) c) with (cart_rot_args o c) in E.
  destruct (run_step_function _ _ _ _ _) as [[yp ydp]|] eqn:E1; [|discriminate].
  change (quat_of (slice 3 4 (aget y))) with (orientation y) in E.
  change (v3_of (slice 3 3 (aget yd))) with (angular yd) in E.
  destruct (q_step _ _ _ _ _) as [[q w]|] eqn:E2; [|discriminate].
  injection E as <- <- <-. exists yp, ydp, q, w.
  split; [reflexivity|]. split; [reflexivity|]. split; [reflexivity|]. split; [reflexivity|].
  unfold same_cart. cbn. repeat split.
Qed.

(** Any number of steps of CartesianDMP from any state of the object, with any
    weights, gains, goal and coupling term. *)
Theorem C33_cartesian_steps : forall c fn i n y yd o o' y' yd',
  alen (p_current_y (k_base o)) = 7%nat -> alen (p_current_yd (k_base o)) = 6%nat ->
  unit_quat (orientation y) -> unit_quat (orientation (p_start_y (k_base o))) ->
  cart_n_steps c fn i n y yd o = (o', Ok (y', yd')) -> unit_quat (orientation y').
Proof.
  intros c fn i. induction n as [|n IH]; intros y yd o o' y' yd' H7 H6 Hy Hs E.
  - simpl in E. congruence.
  - cbn [cart_n_steps] in E. destruct (cart_step y yd c fn i o) as [o1 [[y1 yd1]|]] eqn:E1; [|discriminate].
    destruct (cart_step_ok _ _ _ _ _ _ _ _ _ E1 H7 H6)
      as (yp & ydp & q & w & Ep & Eq & -> & -> & Hsame & Ht & H7' & H6').
    apply IH in E; auto.
    + rewrite orientation_pose. exact (q_step_unit i (cart_rot_args o c) _ _ (orientation y, angular yd) (q, w) Hy (fun _ => Hs) Eq).
    + destruct Hsame as (_ & _ & _ & _ & _ & _ & _ & _ & _ & -> & _). exact Hs.
Qed.

Theorem C33_cartesian_open_loop : forall run_t c fn i o ts ys,
  unit_quat (orientation (p_start_y (k_base o))) ->
  cart_open_loop run_t c fn i o = Ok (ts, ys) -> Forall (fun y => unit_quat (orientation y)) ys.
Proof.
  intros run_t c [fn|] i o ts ys Hs E; [|discriminate]. unfold cart_open_loop in E. cbv zeta in E.
  destruct (open_loop_run _ _ _ _ _ _) as [rp|]; [|discriminate]. cbn [bind] in E.
  destruct i as [i|]; [|discriminate].
  destruct (q_open_loop _ _ _ _) as [[tr lr]|] eqn:Eq; [|discriminate].
  cbn [bind fst snd] in E. injection E as <- <-.
  apply C33_open_loop in Eq; [|exact Hs].
  apply Forall_forall. intros y Hin. apply in_map_iff in Hin. destruct Hin as ([p q] & <- & Hin).
  apply in_combine_r in Hin. rewrite orientation_pose.
  rewrite Forall_forall in Eq. apply (Eq q Hin).
Qed.

(** SpringDamperOrientation: any number of steps, any state, coupling and gains. *)
Fixpoint sdo_n_steps (ct : option qcoupling) (n : nat) (y yd : arr) (o : spring_damper)
    : spring_damper * res (arr * arr) :=
  match n with
  | O => (o, Ok (y, yd))
  | S n => match sdo_step y yd ct o with
           | (o, Err e) => (o, Err e)
           | (o, Ok (y, yd)) => sdo_n_steps ct n y yd o
           end
  end.

Lemma sd_quat_step_unit g k c ct p int_dt lt t s s' : unit_quat (fst s) ->
  spring_damper_step_quaternion g k c ct p int_dt lt t s = Ok s' -> unit_quat (fst s').
Proof.
  intros Hs E. unfold spring_damper_step_quaternion in E.
  eapply (substeps_inv (fun s => unit_quat (fst s))); [|exact Hs|exact E].
  intros; now apply sdq_body_unit.
Qed.

Lemma sdo_step_ok y yd ct o o' y' yd' :
  sdo_step y yd ct o = (o', Ok (y', yd')) -> alen y = alen (p_current_y (s_base o)) ->
  alen yd = alen (p_current_yd (s_base o)) ->
  alen (p_start_y (s_base o)) = alen (p_current_y (s_base o)) ->
  alen (p_start_yd (s_base o)) = alen (p_current_yd (s_base o)) ->
  exists q w, spring_damper_step_quaternion (quat_of (aget (p_goal_y (s_base o)))) (s_k o) (s_c o) ct None
      (s_int_dt o) (p_t (s_base o)) (p_t (s_base o) + s_dt o)
      (quat_of (aget y), v3_of (aget yd)) = Ok (q, w)
  /\ y' = {| alen := alen y; aget := vec_of_quat q |}
  /\ yd' = {| alen := alen yd; aget := vec_of_v3 w |}
  /\ alen (p_current_y (s_base o')) = alen y /\ alen (p_current_yd (s_base o')) = alen yd
  /\ p_start_y (s_base o') = p_start_y (s_base o) /\ p_start_yd (s_base o') = p_start_yd (s_base o)
  /\ p_goal_y (s_base o') = p_goal_y (s_base o) /\ s_k o' = s_k o /\ s_c o' = s_c o
  /\ s_int_dt o' = s_int_dt o /\ s_dt o' = s_dt o /\ p_t (s_base o') = p_t (s_base o) + s_dt o.
Proof.
  intros E Hy Hyd H1 H2. unfold sdo_step in E. cbv zeta in E.
  set (p := if s_initialized o then _ else _) in E.
  assert (E1 : assign_slice (p_current_y p) y = Ok y).
  { unfold assign_slice. replace (alen (p_current_y p)) with (alen y); [now rewrite Nat.eqb_refl|].
    unfold p. destruct (s_initialized o); simpl; congruence. }
  assert (E2 : assign_slice (p_current_yd p) yd = Ok yd).
  { unfold assign_slice. replace (alen (p_current_yd p)) with (alen yd); [now rewrite Nat.eqb_refl|].
    unfold p. destruct (s_initialized o); simpl; congruence. }
  rewrite E1, E2 in E. cbn [sd_with s_k s_c s_int_dt] in E.
  assert (E3 : p_goal_y p = p_goal_y (s_base o)) by (unfold p; destruct (s_initialized o); reflexivity).
  rewrite E3 in E.
  destruct (spring_damper_step_quaternion _ _ _ _ _ _ _ _ _) as [[q w]|] eqn:Es; [|discriminate].
  injection E as <- <- <-. exists q, w.
  split; [reflexivity|]. split; [reflexivity|]. split; [reflexivity|].
  unfold p. destruct (s_initialized o); cbn; repeat split.
Qed.

Theorem C33_spring_damper_steps : forall ct n y yd o o' y' yd',
  alen y = alen (p_current_y (s_base o)) -> alen yd = alen (p_current_yd (s_base o)) ->
  alen (p_start_y (s_base o)) = alen (p_current_y (s_base o)) ->
  alen (p_start_yd (s_base o)) = alen (p_current_yd (s_base o)) ->
  unit_quat (quat_of (aget y)) ->
  sdo_n_steps ct n y yd o = (o', Ok (y', yd')) -> unit_quat (quat_of (aget y')).
Proof.
  intros ct. induction n as [|n IH]; intros y yd o o' y' yd' H1 H2 H3 H4 Hy E.
  - simpl in E. congruence.
  - cbn [sdo_n_steps] in E. destruct (sdo_step y yd ct o) as [o1 [[y1 yd1]|]] eqn:E1; [|discriminate].
    destruct (sdo_step_ok _ _ _ _ _ _ _ E1 H1 H2 H3 H4)
      as (q & w & Eq & -> & -> & A1 & A2 & A3 & A4 & _).
    apply IH in E; auto; try (cbn [alen]; congruence).
    cbn [aget]. destruct q as [a b c d]. exact (sd_quat_step_unit _ _ _ _ _ _ _ _ (_, _) (_, _) Hy Eq).
Qed.

Theorem C33_spring_damper_open_loop : forall run_t ct o ts ys,
  unit_quat (quat_of (aget (p_start_y (s_base o)))) ->
  sdo_open_loop run_t ct o = Ok (ts, ys) -> Forall unit_quat ys.
Proof.
  intros run_t ct o ts ys Hs E. unfold sdo_open_loop in E.
  destruct (spring_damper_open_loop_quaternion _ _ _ _ _ _ _ _) as [[t l]|] eqn:E1; [|discriminate].
  cbn [rmap fst snd] in E. injection E as <- <-.
  unfold spring_damper_open_loop_quaternion in E1.
  eapply (run_on_grid_inv (fun s => unit_quat (fst s))) in E1; [|intros; eapply sd_quat_step_unit; eauto|exact Hs].
  apply Forall_map. exact E1.
Qed.

(** ** C34 *)
(** The same arguments with start and goal orientation multiplied by [r]. *)
Definition right_multiplied (r : quat) (a : qargs) : qargs :=
  {| g_goal_y := hamilton (g_goal_y a) r; g_start_y := hamilton (g_start_y a) r;
     g_start_yd := g_start_yd a; g_goal_t := g_goal_t a; g_start_t := g_start_t a;
     g_alpha_y := g_alpha_y a; g_beta_y := g_beta_y a; g_forcing_term := g_forcing_term a;
     g_coupling_term := g_coupling_term a; g_precomputed := g_precomputed a;
     g_int_dt := g_int_dt a; g_smooth_scaling := g_smooth_scaling a |}.
(** From the left, the angular velocities are rotated, too. *)
Definition left_multiplied (r : quat) (a : qargs) : qargs :=
  {| g_goal_y := hamilton r (g_goal_y a); g_start_y := hamilton r (g_start_y a);
     g_start_yd := rotate r (g_start_yd a); g_goal_t := g_goal_t a; g_start_t := g_start_t a;
     g_alpha_y := g_alpha_y a; g_beta_y := g_beta_y a; g_forcing_term := g_forcing_term a;
     g_coupling_term := g_coupling_term a; g_precomputed := g_precomputed a;
     g_int_dt := g_int_dt a; g_smooth_scaling := g_smooth_scaling a |}.
Definition with_goal (g : quat) (a : qargs) : qargs :=
  {| g_goal_y := g; g_start_y := g_start_y a;
     g_start_yd := g_start_yd a; g_goal_t := g_goal_t a; g_start_t := g_start_t a;
     g_alpha_y := g_alpha_y a; g_beta_y := g_beta_y a; g_forcing_term := g_forcing_term a;
     g_coupling_term := g_coupling_term a; g_precomputed := g_precomputed a;
     g_int_dt := g_int_dt a; g_smooth_scaling := g_smooth_scaling a |}.

Lemma q_acc_right i r a z f cdd y yd : unit_quat r -> unit_quat (g_goal_y a) ->
  unit_quat (g_start_y a) -> unit_quat y ->
  q_acc i (right_multiplied r a) z f cdd (hamilton y r) yd = q_acc i a z f cdd y yd.
Proof.
  intros Hr Hg Hs Hy. unfold q_acc.
  cbn [right_multiplied g_goal_y g_start_y g_goal_t g_start_t g_alpha_y g_beta_y g_smooth_scaling].
  now rewrite !q_error_right by auto.
Qed.

Lemma q_body_right i r a cur d y yd : unit_quat r -> unit_quat (g_goal_y a) ->
  unit_quat (g_start_y a) -> unit_quat y -> g_coupling_term a = None ->
  q_body i (right_multiplied r a) cur d (hamilton y r, yd)
  = (hamilton (fst (q_body i a cur d (y, yd))) r, snd (q_body i a cur d (y, yd))).
Proof.
  intros Hr Hg Hs Hy Hc. unfold q_body.
  assert (Ec : q_coupling i (right_multiplied r a) (hamilton y r) yd = q_coupling i a y yd).
  { unfold q_coupling, right_multiplied. cbn [g_coupling_term g_precomputed]. now rewrite Hc. }
  rewrite Ec. destruct (q_coupling i a y yd) as [cd cdd]. rewrite q_acc_right by auto.
  cbn [right_multiplied g_forcing_term g_goal_t g_start_t fst snd].
  set (f := v3_of _). set (v := v3_add yd _).
  f_equal. rewrite !i_mul_unit by auto using hamilton_unit, i_exp_unit. now rewrite hamilton_assoc.
Qed.

Lemma q_step_right_rel i r a lt t y yd : 0 < g_int_dt a -> unit_quat r -> unit_quat (g_goal_y a) ->
  unit_quat (g_start_y a) -> unit_quat y -> g_coupling_term a = None ->
  match q_step i a lt t (y, yd), q_step i (right_multiplied r a) lt t (hamilton y r, yd) with
  | Ok x, Ok x' => unit_quat (fst x) /\ x' = (hamilton (fst x) r, snd x)
  | Err e, Err e' => e = e'
  | _, _ => False
  end.
Proof.
  intros Hi Hr Hg Hs Hy Hc.
  assert (HB : forall s s', unit_quat (fst s) /\ s' = (hamilton (fst s) r, snd s) ->
    match substeps (substeps_fuel lt t (g_int_dt a)) lt t (g_int_dt a) (q_body i a) s,
          substeps (substeps_fuel lt t (g_int_dt a)) lt t (g_int_dt a)
            (q_body i (right_multiplied r a)) s' with
    | Ok x, Ok x' => unit_quat (fst x) /\ x' = (hamilton (fst x) r, snd x)
    | Err e, Err e' => e = e'
    | _, _ => False
    end).
  { intros s s' Hss.
    apply (substeps_rel (fun s s' => unit_quat (fst s) /\ s' = (hamilton (fst s) r, snd s))); auto.
    clear s s' Hss. intros c d [p v] s' _ [Hp ->]. split; [now apply q_body_unit|].
    apply q_body_right; auto. }
  destruct i; unfold q_step; cbn [right_multiplied g_goal_t g_start_t g_int_dt g_start_y g_start_yd].
  - destruct (Rle_dec _ _); [reflexivity|]. destruct (Rle_dec _ _); [split; auto|].
    apply HB. auto.
  - destruct (Rle_dec _ _); apply HB; auto.
Qed.

(** Multiplication from the right (a change of the frame that is moved) is an
    exact symmetry, for all weights, gains and precomputed couplings. *)
Theorem C34_right_multiplication : forall i r a last_t t y yd,
  0 < g_int_dt a -> unit_quat r -> unit_quat (g_goal_y a) -> unit_quat (g_start_y a) ->
  unit_quat y -> g_coupling_term a = None ->
  q_step i (right_multiplied r a) last_t t (hamilton y r, yd)
  = rmap (fun s => (hamilton (fst s) r, snd s)) (q_step i a last_t t (y, yd)).
Proof.
  intros i r a lt t y yd Hi Hr Hg Hs Hy Hc.
  pose proof (q_step_right_rel i r a lt t y yd Hi Hr Hg Hs Hy Hc) as H.
  destruct (q_step i a lt t (y, yd)), (q_step i (right_multiplied r a) lt t (hamilton y r, yd)); simpl.
  - destruct H as [_ ->]. reflexivity.
  - tauto.
  - tauto.
  - congruence.
Qed.

Theorem C34_right_multiplication_open_loop : forall i r a dt run_t,
  0 < g_int_dt a -> unit_quat r -> unit_quat (g_goal_y a) -> unit_quat (g_start_y a) ->
  g_coupling_term a = None ->
  q_open_loop i (right_multiplied r a) dt run_t
  = rmap (fun p => (fst p, map (fun s => (hamilton (fst s) r, snd s)) (snd p)))
      (q_open_loop i a dt run_t).
Proof.
  intros i r a dt run_t Hi Hr Hg Hs Hc. unfold q_open_loop. cbn [right_multiplied g_start_t g_start_y].
  pose proof (run_on_grid_rel (fun s s' => unit_quat (fst s) /\ s' = (hamilton (fst s) r, snd s))
    (q_step i a) (q_step i (right_multiplied r a)) (g_start_t a) run_t dt
    (g_start_y a, v3_zero) (hamilton (g_start_y a) r, v3_zero)) as H.
  destruct (run_on_grid (q_step i a) _ _ _ _) as [[ts l]|],
    (run_on_grid (q_step i (right_multiplied r a)) _ _ _ _) as [[ts' l']|]; cbn [rmap fst snd].
  - destruct H as [<- H]; [|split; auto|].
    + intros t0 t1 [y v] s' [Hy ->]. apply q_step_right_rel; auto.
    + do 2 f_equal. eapply Forall2_map_eq; [|exact H]. now intros s s' [_ ->].
  - exfalso. apply H; [|split; auto]. intros t0 t1 [y v] s' [Hy ->]. apply q_step_right_rel; auto.
  - exfalso. apply H; [|split; auto]. intros t0 t1 [y v] s' [Hy ->]. apply q_step_right_rel; auto.
  - f_equal. symmetry. apply H; [|split; auto].
    intros t0 t1 [y v] s' [Hy ->]. apply q_step_right_rel; auto.
Qed.

(** Multiplication from the left (a change of the world frame) is a symmetry if
    the gains are isotropic and there is no forcing and no coupling. *)
Definition isotropic (v : v3) : Prop := v3x v = v3y v /\ v3y v = v3z v.

Lemma isotropic_mul v x : isotropic v -> v3_mul v x = v3_scale (v3x v) x.
Proof. intros [H1 H2]. apply v3_eq; simpl; congruence. Qed.
Lemma isotropic_scale c v : isotropic v -> isotropic (v3_scale c v).
Proof. intros [H1 H2]. split; simpl; congruence. Qed.
Lemma rotate_divs r v c : rotate r (v3_divs v c) = v3_divs (rotate r v) c.
Proof. rewrite !v3_divs_scale. apply rotate_scale. Qed.

Lemma q_acc_left i r a z y yd : unit_quat r -> unit_quat (g_goal_y a) ->
  unit_quat (g_start_y a) -> unit_quat y -> isotropic (g_alpha_y a) -> isotropic (g_beta_y a) ->
  q_acc i (left_multiplied r a) z v3_zero v3_zero (hamilton r y) (rotate r yd)
  = rotate r (q_acc i a z v3_zero v3_zero y yd).
Proof.
  intros Hr Hg Hs Hy Ha Hb. unfold q_acc.
  cbn [left_multiplied g_goal_y g_start_y g_goal_t g_start_t g_alpha_y g_beta_y g_smooth_scaling].
  rewrite !q_error_left by auto.
  rewrite rotate_divs, !rotate_add, rotate_zero. do 2 f_equal. f_equal.
  rewrite !(isotropic_mul (g_alpha_y a)), !(isotropic_mul (g_beta_y a)) by auto.
  rewrite rotate_scale, !rotate_sub, !rotate_scale. do 2 f_equal.
  destruct (g_smooth_scaling a); [|now rewrite rotate_zero].
  rewrite !(isotropic_mul (v3_scale z (g_beta_y a))) by now apply isotropic_scale.
  now rewrite rotate_scale.
Qed.

Lemma q_body_left i r a cur d y yd : unit_quat r -> unit_quat (g_goal_y a) ->
  unit_quat (g_start_y a) -> unit_quat y -> isotropic (g_alpha_y a) -> isotropic (g_beta_y a) ->
  g_coupling_term a = None -> g_precomputed a = None ->
  (forall d i, (i < ft_n (g_forcing_term a))%nat -> ft_weights (g_forcing_term a) d i = 0) ->
  q_body i (left_multiplied r a) cur d (hamilton r y, rotate r yd)
  = (hamilton r (fst (q_body i a cur d (y, yd))), rotate r (snd (q_body i a cur d (y, yd)))).
Proof.
  intros Hr Hg Hs Hy Ha Hb Hc Hp Hw. unfold q_body.
  assert (Ec : q_coupling i (left_multiplied r a) (hamilton r y) (rotate r yd) = (v3_zero, v3_zero)).
  { unfold q_coupling, left_multiplied. cbn [g_coupling_term g_precomputed]. rewrite Hc, Hp.
    now destruct i. }
  assert (Ec' : q_coupling i a y yd = (v3_zero, v3_zero)).
  { unfold q_coupling. rewrite Hc, Hp. now destruct i. }
  rewrite Ec, Ec'. cbn [left_multiplied g_forcing_term g_goal_t g_start_t fst snd].
  rewrite !(zero_weights_forces (g_forcing_term a)) by auto.
  change (v3_of vzero) with v3_zero. rewrite q_acc_left by auto.
  set (acc := q_acc i a _ _ _ y yd).
  assert (Ev : v3_add (rotate r yd) (v3_add (v3_scale d (rotate r acc))
      (v3_divs v3_zero (g_goal_t a - g_start_t a)))
    = rotate r (v3_add yd (v3_add (v3_scale d acc) (v3_divs v3_zero (g_goal_t a - g_start_t a))))).
  { now rewrite !rotate_add, !rotate_divs, !rotate_scale, rotate_zero. }
  rewrite Ev. set (v := v3_add yd _). f_equal.
  rewrite !i_mul_unit by auto using hamilton_unit, i_exp_unit.
  rewrite <- rotate_scale, exp_conjugated by auto. now apply conjugated_mul.
Qed.

Theorem C34_left_multiplication_partial : forall i r a last_t t y yd,
  0 < g_int_dt a -> unit_quat r -> unit_quat (g_goal_y a) -> unit_quat (g_start_y a) ->
  unit_quat y -> g_coupling_term a = None -> g_precomputed a = None ->
  isotropic (g_alpha_y a) -> isotropic (g_beta_y a) ->
  (forall d i, (i < ft_n (g_forcing_term a))%nat -> ft_weights (g_forcing_term a) d i = 0) ->
  q_step i (left_multiplied r a) last_t t (hamilton r y, rotate r yd)
  = rmap (fun s => (hamilton r (fst s), rotate r (snd s))) (q_step i a last_t t (y, yd)).
Proof.
  intros i r a lt t y yd Hi Hr Hg Hs Hy Hc Hp Ha Hb Hw.
  set (rel := fun s s' : quat * v3 => unit_quat (fst s) /\ s' = (hamilton r (fst s), rotate r (snd s))).
  assert (HB : forall s, unit_quat (fst s) ->
    substeps (substeps_fuel lt t (g_int_dt a)) lt t (g_int_dt a)
            (q_body i (left_multiplied r a)) (hamilton r (fst s), rotate r (snd s))
    = rmap (fun s => (hamilton r (fst s), rotate r (snd s)))
       (substeps (substeps_fuel lt t (g_int_dt a)) lt t (g_int_dt a) (q_body i a) s)).
  { intros s Hss.
    pose proof (substeps_rel rel (q_body i a) (q_body i (left_multiplied r a))) as H.
    specialize (fun H1 => H H1 (substeps_fuel lt t (g_int_dt a)) lt t (g_int_dt a) s
      (hamilton r (fst s), rotate r (snd s)) Hi).
    destruct (substeps _ lt t _ (q_body i a) s),
      (substeps _ lt t _ (q_body i (left_multiplied r a)) _); cbn [rmap].
    - f_equal. apply H; [|split; auto]. intros c d [p v] s' _ [Hp' ->].
      split; [now apply q_body_unit|]. now apply q_body_left.
    - exfalso. apply H; [|split; auto]. intros c d [p v] s' _ [Hp' ->].
      split; [now apply q_body_unit|]. now apply q_body_left.
    - exfalso. apply H; [|split; auto]. intros c d [p v] s' _ [Hp' ->].
      split; [now apply q_body_unit|]. now apply q_body_left.
    - f_equal. symmetry. apply H; [|split; auto]. intros c d [p v] s' _ [Hp' ->].
      split; [now apply q_body_unit|]. now apply q_body_left. }
  destruct i; unfold q_step; cbn [left_multiplied g_goal_t g_start_t g_int_dt g_start_y g_start_yd].
  - destruct (Rle_dec _ _); [reflexivity|]. destruct (Rle_dec _ _); [reflexivity|].
    exact (HB (y, yd) Hy).
  - destruct (Rle_dec _ _).
    + exact (HB (g_start_y a, g_start_yd a) Hs).
    + exact (HB (y, yd) Hy).
Qed.

(** With different gains per axis it is not a symmetry: a rotation by 90 degrees
    about x, gains (1, 2, 1), world frame turned by 90 degrees about z. *)
Definition ex_axis_x : v3 := V3 1 0 0.
Definition ex_turn : quat := axis_quat (V3 0 0 1) (PI / 2).
Definition ex_anisotropic : qargs :=
  {| g_goal_y := axis_quat ex_axis_x (PI / 2); g_start_y := q_one; g_start_yd := v3_zero;
     g_goal_t := 1; g_start_t := 0; g_alpha_y := V3 1 1 1; g_beta_y := V3 1 2 1;
     g_forcing_term := no_force; g_coupling_term := None; g_precomputed := None;
     g_int_dt := 1; g_smooth_scaling := false |}.

Lemma ex_log i : i_log i (axis_quat ex_axis_x (PI / 2)) = V3 (PI / 2) 0 0.
Proof.
  pose proof PI_RGT_0.
  assert (Hu : unit_v3 ex_axis_x) by (unfold unit_v3; simpl; ring).
  assert (Hn : v3_norm (v3_scale (PI / 2) ex_axis_x) = PI / 2).
  { rewrite v3_norm_scale, (proj1 (unit_v3_norm _) Hu), Rmult_1_r, Rabs_pos_eq; lra. }
  assert (E : i_exp i (v3_scale (PI / 2) ex_axis_x) = axis_quat ex_axis_x (PI / 2)).
  { destruct i; simpl; [rewrite pr_exp_small by lra|]; now apply cy_exp_axis. }
  rewrite <- E, log_exp by lra. rewrite Hn. destruct (Rlt_dec _ _) as [H1|_].
  - exfalso. replace (PI / 2 / 2) with (PI / 4) in H1 by field. rewrite sin_PI4 in H1.
    assert (1 < sqrt 2) by (rewrite <- sqrt_1 at 1; apply sqrt_lt_1; lra).
    assert (sqrt 2 ^ 2 = 2) by (apply pow2_sqrt; lra).
    assert (/ 2 < 1 / sqrt 2).
    { apply Rmult_lt_reg_r with (sqrt 2); [lra|]. unfold Rdiv. rewrite Rmult_assoc, Rinv_l; nra. }
    assert (log_threshold i < / 2).
    { destruct i; simpl; apply Rinv_lt_contravar; lra. }
    lra.
  - apply v3_eq; simpl; lra.
Qed.

Theorem C34_left_multiplication_refuted : forall i,
  unit_quat ex_turn /\ unit_quat (g_goal_y ex_anisotropic) /\ 0 < g_int_dt ex_anisotropic
  /\ (forall d j, ft_weights (g_forcing_term ex_anisotropic) d j = 0)
  /\ rmap fst (q_step i (left_multiplied ex_turn ex_anisotropic) 0 1 (hamilton ex_turn q_one, v3_zero))
     <> rmap (fun s => hamilton ex_turn (fst s)) (q_step i ex_anisotropic 0 1 (q_one, v3_zero)).
Proof.
  intros i. pose proof PI_RGT_0 as Hpi.
  assert (Hz : unit_v3 (V3 0 0 1)) by (unfold unit_v3; simpl; ring).
  assert (Hx : unit_v3 ex_axis_x) by (unfold unit_v3; simpl; ring).
  assert (Hy : unit_v3 (V3 0 1 0)) by (unfold unit_v3; simpl; ring).
  assert (Hr : unit_quat ex_turn) by now apply axis_quat_unit.
  assert (Hg : unit_quat (g_goal_y ex_anisotropic)) by now apply axis_quat_unit.
  split; [exact Hr|]. split; [exact Hg|]. split; [simpl; lra|]. split; [reflexivity|].
  pose proof one_unit as H1.
  assert (EL : q_error i (g_goal_y ex_anisotropic) q_one = V3 (PI / 2) 0 0).
  { rewrite q_error_unit by auto. replace (cy_conj q_one) with q_one by (apply quat_eq; simpl; ring).
    rewrite hamilton_one_r. apply ex_log. }
  assert (ER : q_error i (hamilton ex_turn (g_goal_y ex_anisotropic)) (hamilton ex_turn q_one)
               = V3 0 (PI / 2) 0).
  { rewrite q_error_left, EL by auto. unfold ex_turn. rewrite rotate_axis by auto.
    unfold rodrigues. rewrite cos_PI2, sin_PI2. unfold cross, v3_dot, v3_add, v3_scale.
    cbn [v3x v3y v3z]. apply v3_eq; cbn [v3x v3y v3z]; field. }
  assert (EB : forall a y, g_goal_t a = 1 -> g_start_t a = 0 -> g_coupling_term a = None ->
    g_precomputed a = None -> g_int_dt a = 1 -> g_smooth_scaling a = false -> g_forcing_term a = no_force ->
    q_step i a 0 1 (y, v3_zero)
    = Ok (i_mul i (i_exp i (v3_mul (g_alpha_y a) (v3_mul (g_beta_y a) (q_error i (g_goal_y a) y)))) y,
          v3_mul (g_alpha_y a) (v3_mul (g_beta_y a) (q_error i (g_goal_y a) y)))).
  { intros a y Ht Ht0 Hc Hp Hi Hsm Hf.
    assert (EE : q_body i a 1 1 (y, v3_zero)
      = (i_mul i (i_exp i (v3_mul (g_alpha_y a) (v3_mul (g_beta_y a) (q_error i (g_goal_y a) y)))) y,
          v3_mul (g_alpha_y a) (v3_mul (g_beta_y a) (q_error i (g_goal_y a) y)))).
    { unfold q_body. assert (q_coupling i a y v3_zero = (v3_zero, v3_zero)) as ->.
      { unfold q_coupling. rewrite Hc, Hp. now destruct i. }
      rewrite Hf, (zero_weights_forces no_force) by reflexivity. unfold q_acc. rewrite Ht, Ht0, Hsm.
      set (e := q_error i (g_goal_y a) y).
      assert (Ev : v3_add v3_zero (v3_add (v3_scale 1 (v3_divs (v3_add (v3_add (v3_mul (g_alpha_y a)
        (v3_sub (v3_sub (v3_mul (g_beta_y a) e) (v3_scale (1 - 0) v3_zero)) v3_zero)) (v3_of vzero)) v3_zero)
        ((1 - 0) ^ 2))) (v3_divs v3_zero (1 - 0))) = v3_mul (g_alpha_y a) (v3_mul (g_beta_y a) e)).
      { apply v3_eq; simpl; unfold vzero; field. }
      rewrite Ev.
      assert (E1s : forall v, v3_scale 1 v = v) by (intros; apply v3_eq; simpl; ring).
      now rewrite E1s. }
    unfold q_step. rewrite Ht, Ht0, Hi. destruct i.
    - destruct (Rle_dec 1 0); [lra|]. rewrite one_substep by lra. f_equal. exact EE.
    - destruct (Rle_dec 1 0); [lra|]. rewrite one_substep by lra. f_equal. exact EE. }
  rewrite !EB by reflexivity. cbn [rmap fst].
  cbn [left_multiplied g_goal_y g_alpha_y g_beta_y].
  change (g_alpha_y ex_anisotropic) with (V3 1 1 1). change (g_beta_y ex_anisotropic) with (V3 1 2 1).
  rewrite ER, EL. intros E. injection E as E.
  rewrite !i_mul_unit in E by auto using hamilton_unit, i_exp_unit.
  rewrite !hamilton_one_r in E.
  replace (v3_mul (V3 1 1 1) (v3_mul (V3 1 2 1) (V3 0 (PI / 2) 0))) with (v3_scale PI (V3 0 1 0)) in E
    by (apply v3_eq; simpl; field).
  replace (v3_mul (V3 1 1 1) (v3_mul (V3 1 2 1) (V3 (PI / 2) 0 0))) with (v3_scale (PI / 2) ex_axis_x) in E
    by (apply v3_eq; simpl; field).
  assert (E1 : forall u th, unit_v3 u -> 0 <= th <= PI -> i_exp i (v3_scale th u) = axis_quat u th).
  { intros u th Hu Hth. destruct i; simpl; [|now apply cy_exp_axis].
    rewrite pr_exp_small; [now apply cy_exp_axis|].
    rewrite v3_norm_scale, (proj1 (unit_v3_norm _) Hu), Rmult_1_r, Rabs_pos_eq; lra. }
  rewrite !E1 in E by (auto; lra).
  unfold ex_turn, axis_quat, ex_axis_x, hamilton in E. cbn [v3x v3y v3z qw qx qy qz] in E.
  injection E as Ew Ex Ey Ez.
  rewrite cos_PI2, sin_PI2 in *. replace (PI / 2 / 2) with (PI / 4) in * by field.
  rewrite cos_PI4, sin_PI4 in *.
  assert (0 < 1 / sqrt 2) by (apply Rdiv_lt_0_compat; [lra|apply sqrt_lt_R0; lra]).
  nra.
Qed.

(** *** Double cover *)
(** Whether the rotation from [q] to [p] has angle exactly pi. *)
Definition half_turn (p q : quat) : Prop := qw (hamilton p (cy_conj q)) = 0.

Lemma q_error_neg_goal i p q : unit_quat p -> unit_quat q -> ~ half_turn p q ->
  q_error i (q_neg p) q = q_error i p q.
Proof.
  intros Hp Hq Hh. rewrite !q_error_unit by auto using unit_neg. rewrite neg_hamilton_l.
  apply log_neg; auto using hamilton_unit, cy_conj_unit.
Qed.

Lemma q_body_neg_goal i a cur d y yd : unit_quat (g_goal_y a) -> unit_quat (g_start_y a) ->
  unit_quat y -> ~ half_turn (g_goal_y a) y ->
  (g_smooth_scaling a = true -> ~ half_turn (g_goal_y a) (g_start_y a)) ->
  q_body i (with_goal (q_neg (g_goal_y a)) a) cur d (y, yd) = q_body i a cur d (y, yd).
Proof.
  intros Hg Hs Hy H1 H2. unfold q_body.
  change (q_coupling i (with_goal (q_neg (g_goal_y a)) a) y yd) with (q_coupling i a y yd).
  destruct (q_coupling i a y yd) as [cd cdd].
  assert (E : forall z f, q_acc i (with_goal (q_neg (g_goal_y a)) a) z f cdd y yd = q_acc i a z f cdd y yd).
  { intros z f. unfold q_acc.
    cbn [with_goal g_goal_y g_start_y g_goal_t g_start_t g_alpha_y g_beta_y g_smooth_scaling].
    rewrite q_error_neg_goal by auto.
    destruct (g_smooth_scaling a); [|reflexivity]. now rewrite q_error_neg_goal by auto. }
  cbn [with_goal g_forcing_term g_goal_t g_start_t]. now rewrite E.
Qed.

Lemma exec_substeps_unit i a l : forall s, unit_quat (fst s) ->
  unit_quat (fst (exec_substeps (q_body i a) l s)).
Proof.
  induction l as [|[c d] l IH]; intros s Hs; [exact Hs|].
  unfold exec_substeps. simpl. apply IH. now apply q_body_unit.
Qed.

Lemma neg_goal_substeps i a : unit_quat (g_goal_y a) -> unit_quat (g_start_y a) ->
  (g_smooth_scaling a = true -> ~ half_turn (g_goal_y a) (g_start_y a)) ->
  forall l s, unit_quat (fst s) ->
  exec_substeps (q_body i (with_goal (q_neg (g_goal_y a)) a)) l s = exec_substeps (q_body i a) l s
  \/ exists l1 l2, l = l1 ++ l2 /\ half_turn (g_goal_y a) (fst (exec_substeps (q_body i a) l1 s)).
Proof.
  intros Hg Hs Hh. induction l as [|[c d] l IH]; intros s Hu; [left; reflexivity|].
  destruct (Req_dec (qw (hamilton (g_goal_y a) (cy_conj (fst s)))) 0) as [H0|H0].
  - right. exists [], ((c, d) :: l). split; [reflexivity|]. exact H0.
  - destruct s as [y yd]. unfold exec_substeps at 1 2. cbn [fold_left fst snd].
    rewrite q_body_neg_goal by auto.
    destruct (IH (q_body i a c d (y, yd))) as [E|(l1 & l2 & -> & E)].
    + now apply q_body_unit.
    + left. exact E.
    + right. exists ((c, d) :: l1), l2. split; [reflexivity|]. exact E.
Qed.

(** Replacing the goal [q] by [-q] gives the same result, unless a half turn
    remains from the start (with smooth scaling) or at the beginning of one of
    the integration steps. *)
Theorem C34_goal_double_cover : forall i a last_t t y yd,
  0 < g_int_dt a -> last_t <= t -> g_start_t a < t -> unit_quat (g_goal_y a) -> unit_quat (g_start_y a) -> unit_quat y ->
  q_step i (with_goal (q_neg (g_goal_y a)) a) last_t t (y, yd) = q_step i a last_t t (y, yd)
  \/ half_turn (g_goal_y a) (g_start_y a)
  \/ exists done rest, tiles last_t t (g_int_dt a) (done ++ rest)
       /\ half_turn (g_goal_y a) (fst (exec_substeps (q_body i a) done (y, yd))).
Proof.
  intros i a lt t y yd Hi Hlt Ht0 Hg Hs Hy.
  destruct (Req_dec (qw (hamilton (g_goal_y a) (cy_conj (g_start_y a)))) 0) as [H0|H0]; [auto|].
  destruct (substeps_tiles lt t (g_int_dt a) Hi Hlt) as [l [Ht Hl]].
  pose proof (neg_goal_substeps i a Hg Hs (fun _ => H0)) as HN.
  destruct i; unfold q_step; cbn [with_goal g_goal_t g_start_t g_int_dt g_start_y g_start_yd].
  - destruct (Rle_dec _ _); [auto|]. destruct (Rle_dec _ _); [auto|]. rewrite !Hl.
    destruct (HN l (y, yd) Hy) as [E|(l1 & l2 & -> & E)]; [left; f_equal; exact E|].
    right; right. exists l1, l2. auto.
  - destruct (Rle_dec _ _) as [Hle|]; [lra|].
    rewrite !Hl. destruct (HN l (y, yd) Hy) as [E|(l1 & l2 & -> & E)]; [left; f_equal; exact E|].
    right; right. exists l1, l2. auto.
Qed.

(** The state may be represented by [q] or [-q] as well. *)
Lemma q_body_neg_state i a cur d y yd : unit_quat (g_goal_y a) -> unit_quat y ->
  ~ half_turn (g_goal_y a) y -> g_coupling_term a = None ->
  q_body i a cur d (q_neg y, yd) = (q_neg (fst (q_body i a cur d (y, yd))), snd (q_body i a cur d (y, yd))).
Proof.
  intros Hg Hy H1 Hc. unfold q_body.
  assert (Ec : q_coupling i a (q_neg y) yd = q_coupling i a y yd) by (unfold q_coupling; now rewrite Hc).
  rewrite Ec. destruct (q_coupling i a y yd) as [cd cdd].
  assert (Ee : q_error i (g_goal_y a) (q_neg y) = q_error i (g_goal_y a) y).
  { rewrite !q_error_unit by auto using unit_neg. rewrite conj_neg, neg_hamilton_r.
    apply log_neg; auto using hamilton_unit, cy_conj_unit. }
  assert (E : forall z f, q_acc i a z f cdd (q_neg y) yd = q_acc i a z f cdd y yd)
    by (intros; unfold q_acc; now rewrite Ee).
  rewrite E. cbn [fst snd]. f_equal.
  rewrite !i_mul_unit by auto using unit_neg, i_exp_unit. apply neg_hamilton_r.
Qed.

Theorem C34_state_double_cover : forall i a last_t t y yd,
  0 < g_int_dt a -> last_t <= t -> g_start_t a < t -> unit_quat (g_goal_y a) -> unit_quat y ->
  g_coupling_term a = None ->
  q_step i a last_t t (q_neg y, yd)
  = rmap (fun s => (q_neg (fst s), snd s)) (q_step i a last_t t (y, yd))
  \/ exists done rest, tiles last_t t (g_int_dt a) (done ++ rest)
       /\ half_turn (g_goal_y a) (fst (exec_substeps (q_body i a) done (y, yd))).
Proof.
  intros i a lt t y yd Hi Hlt Ht0 Hg Hy Hc.
  destruct (substeps_tiles lt t (g_int_dt a) Hi Hlt) as [l [Ht Hl]].
  assert (HN : forall l s, unit_quat (fst s) ->
    exec_substeps (q_body i a) l (q_neg (fst s), snd s)
    = (q_neg (fst (exec_substeps (q_body i a) l s)), snd (exec_substeps (q_body i a) l s))
    \/ exists l1 l2, l = l1 ++ l2 /\ half_turn (g_goal_y a) (fst (exec_substeps (q_body i a) l1 s))).
  { clear l Ht Hl Hy y yd. induction l as [|[c d] l IH]; intros s Hu; [left; reflexivity|].
    destruct (Req_dec (qw (hamilton (g_goal_y a) (cy_conj (fst s)))) 0) as [H0|H0].
    - right. exists [], ((c, d) :: l). split; [reflexivity|]. exact H0.
    - destruct s as [y yd]. unfold exec_substeps at 1 2 3. cbn [fold_left fst snd].
      rewrite q_body_neg_state by auto.
      destruct (IH (q_body i a c d (y, yd))) as [E|(l1 & l2 & -> & E)].
      + now apply q_body_unit.
      + left. exact E.
      + right. exists ((c, d) :: l1), l2. split; [reflexivity|]. exact E. }
  destruct i; unfold q_step.
  - destruct (Rle_dec _ _); [auto|]. destruct (Rle_dec _ _); [lra|]. rewrite !Hl. cbn [rmap].
    destruct (HN l (y, yd) Hy) as [E|(l1 & l2 & -> & E)]; [left; f_equal; exact E|].
    right. exists l1, l2. auto.
  - destruct (Rle_dec _ _); [lra|]. rewrite !Hl. cbn [rmap].
    destruct (HN l (y, yd) Hy) as [E|(l1 & l2 & -> & E)]; [left; f_equal; exact E|].
    right. exists l1, l2. auto.
Qed.

(** A case with a forcing term: a quarter turn, gains (25, 6.25), turned frame. *)
Definition ex_quarter : qargs :=
  {| g_goal_y := axis_quat ex_axis_x (PI / 2); g_start_y := q_one; g_start_yd := v3_zero;
     g_goal_t := 1; g_start_t := 0; g_alpha_y := V3 25 25 25; g_beta_y := V3 (25/4) (25/4) (25/4);
     g_forcing_term := no_force; g_coupling_term := None; g_precomputed := None;
     g_int_dt := / 1000; g_smooth_scaling := true |}.
Example C34_satisfiable :
  0 < g_int_dt ex_quarter /\ unit_quat ex_turn /\ unit_quat (g_goal_y ex_quarter)
  /\ unit_quat (g_start_y ex_quarter) /\ g_coupling_term ex_quarter = None
  /\ isotropic (g_alpha_y ex_quarter) /\ isotropic (g_beta_y ex_quarter)
  /\ ~ half_turn (g_goal_y ex_quarter) (g_start_y ex_quarter)
  /\ q_error Python (g_goal_y ex_quarter) (g_start_y ex_quarter) <> v3_zero.
Proof.
  pose proof PI_RGT_0.
  assert (Hz : unit_v3 (V3 0 0 1)) by (unfold unit_v3; simpl; ring).
  assert (Hx : unit_v3 ex_axis_x) by (unfold unit_v3; simpl; ring).
  repeat split; try (apply axis_quat_unit; auto); try apply one_unit; try (simpl; lra).
  - unfold half_turn. simpl. replace (PI / 2 / 2) with (PI / 4) by field. rewrite cos_PI4.
    assert (0 < 1 / sqrt 2) by (apply Rdiv_lt_0_compat; [lra|apply sqrt_lt_R0; lra]).
    intros E. nra.
  - rewrite q_error_unit by (try apply one_unit; now apply axis_quat_unit).
    replace (hamilton _ _) with (axis_quat ex_axis_x (PI / 2)).
    + rewrite ex_log. intros E. injection E as E. lra.
    + simpl g_start_y. replace (cy_conj q_one) with q_one by (apply quat_eq; simpl; ring).
      now rewrite hamilton_one_r.
Qed.

(** ** C35 *)
(** With zero weights and no coupling, the goal at rest is a fixed point of every
    step; with smooth scaling only if the start is the goal (up to the sign). *)
Lemma q_body_at_goal i a cur d : unit_quat (g_goal_y a) ->
  g_coupling_term a = None -> g_precomputed a = None ->
  (forall d i, (i < ft_n (g_forcing_term a))%nat -> ft_weights (g_forcing_term a) d i = 0) ->
  (g_smooth_scaling a = true -> g_start_y a = g_goal_y a \/ g_start_y a = q_neg (g_goal_y a)) ->
  q_body i a cur d (g_goal_y a, v3_zero) = (g_goal_y a, v3_zero).
Proof.
  intros Hg Hc Hp Hw Hsm. unfold q_body.
  assert (q_coupling i a (g_goal_y a) v3_zero = (v3_zero, v3_zero)) as ->.
  { unfold q_coupling. rewrite Hc, Hp. now destruct i. }
  rewrite zero_weights_forces by auto. change (v3_of vzero) with v3_zero.
  assert (Ea : forall z, q_acc i a z v3_zero v3_zero (g_goal_y a) v3_zero = v3_zero).
  { intros z. unfold q_acc. rewrite q_error_self by auto.
    assert (Es : (if g_smooth_scaling a
       then v3_mul (v3_scale z (g_beta_y a)) (q_error i (g_goal_y a) (g_start_y a)) else v3_zero) = v3_zero).
    { destruct (g_smooth_scaling a); [|reflexivity].
      assert (q_error i (g_goal_y a) (g_start_y a) = v3_zero) as ->.
      { destruct Hsm as [E|E]; auto; rewrite E; [now apply q_error_self|].
        rewrite q_error_unit by auto using unit_neg.
        rewrite conj_neg, neg_hamilton_r, conj_r by auto. apply log_neg_one. }
      apply v3_eq; simpl; ring. }
    rewrite Es. apply v3_eq; simpl; unfold Rdiv; ring. }
  rewrite Ea.
  assert (Ev : v3_add v3_zero (v3_add (v3_scale d v3_zero) (v3_divs v3_zero (g_goal_t a - g_start_t a)))
    = v3_zero) by (apply v3_eq; simpl; unfold Rdiv; ring).
  rewrite Ev. assert (Ed : v3_scale d v3_zero = v3_zero) by (apply v3_eq; simpl; ring).
  rewrite Ed, i_exp_zero, i_mul_unit, hamilton_one_l by auto using one_unit. reflexivity.
Qed.

Theorem C35_goal_is_equilibrium : forall i a last_t t,
  0 < g_int_dt a -> last_t <= t -> g_start_t a < g_goal_t a -> g_start_t a < t ->
  unit_quat (g_goal_y a) -> g_coupling_term a = None -> g_precomputed a = None ->
  (forall d i, (i < ft_n (g_forcing_term a))%nat -> ft_weights (g_forcing_term a) d i = 0) ->
  (g_smooth_scaling a = true -> g_start_y a = g_goal_y a \/ g_start_y a = q_neg (g_goal_y a)) ->
  q_step i a last_t t (g_goal_y a, v3_zero) = Ok (g_goal_y a, v3_zero).
Proof.
  intros i a lt t Hi Hlt Hgt Ht Hg Hc Hp Hw Hsm.
  destruct (substeps_tiles lt t (g_int_dt a) Hi Hlt) as [l [Htl Hl]].
  assert (HE : exec_substeps (q_body i a) l (g_goal_y a, v3_zero) = (g_goal_y a, v3_zero)).
  { clear Htl Hl. induction l as [|[c d] l IH]; [reflexivity|].
    unfold exec_substeps. cbn [fold_left fst snd]. rewrite q_body_at_goal by auto. exact IH. }
  destruct i; unfold q_step.
  - destruct (Rle_dec _ _); [lra|]. destruct (Rle_dec _ _); [lra|]. rewrite Hl. now f_equal.
  - destruct (Rle_dec _ _); [lra|]. rewrite Hl. now f_equal.
Qed.

(** For CartesianDMP: the orientation stays at the goal for any number of steps,
    whatever the position does. *)
Theorem C35_cartesian : forall fn i n y yd o o' y' yd',
  alen (p_current_y (k_base o)) = 7%nat -> alen (p_current_yd (k_base o)) = 6%nat ->
  0 < k_int_dt o -> 0 < k_dt o -> 0 < k_execution_time o -> 0 <= p_t (k_base o) ->
  unit_quat (orientation (p_goal_y (k_base o))) ->
  (forall d j, (j < ft_n (k_frot o))%nat -> ft_weights (k_frot o) d j = 0) ->
  (k_smooth o = true -> orientation (p_start_y (k_base o)) = orientation (p_goal_y (k_base o))) ->
  orientation y = orientation (p_goal_y (k_base o)) -> angular yd = v3_zero ->
  cart_n_steps None fn i n y yd o = (o', Ok (y', yd')) ->
  orientation y' = orientation (p_goal_y (k_base o)) /\ angular yd' = v3_zero.
Proof.
  intros fn i. induction n as [|n IH]; intros y yd o o' y' yd' H7 H6 Hi Hdt Hx Ht Hg Hw Hsm Hy Hyd E.
  - simpl in E. injection E as <- <- <-. auto.
  - cbn [cart_n_steps] in E. destruct (cart_step y yd None fn i o) as [o1 [[y1 yd1]|]] eqn:E1; [|discriminate].
    destruct (cart_step_ok _ _ _ _ _ _ _ _ _ E1 H7 H6)
      as (yp & ydp & q & w & Ep & Eq & -> & -> & Hsame & Ht' & H7' & H6').
    assert (EE : q_step i (cart_rot_args o None) (p_t (k_base o)) (p_t (k_base o) + k_dt o)
       (orientation (p_goal_y (k_base o)), v3_zero) = Ok (orientation (p_goal_y (k_base o)), v3_zero)).
    { apply (C35_goal_is_equilibrium i (cart_rot_args o None)); try (simpl; lra); auto. }
    rewrite Hy, Hyd, EE in Eq. injection Eq as <- <-.
    destruct Hsame as (S1 & S2 & S3 & S4 & S5 & S6 & S7 & S8 & S9 & S10 & S11 & S12 & S13 & _).
    rewrite <- S13. eapply IH; [exact H7'|exact H6'| | | | | | | | | |exact E];
      rewrite ?S1, ?S2, ?S4, ?S5, ?S7, ?S10, ?S13; auto; try lra.
Qed.

(** SpringDamperOrientation. *)
Theorem C46_orientation_equilibrium : forall n o y yd o' y' yd',
  alen y = alen (p_current_y (s_base o)) -> alen yd = alen (p_current_yd (s_base o)) ->
  alen (p_start_y (s_base o)) = alen (p_current_y (s_base o)) ->
  alen (p_start_yd (s_base o)) = alen (p_current_yd (s_base o)) ->
  0 < s_dt o -> 0 < s_int_dt o ->
  unit_quat (quat_of (aget (p_goal_y (s_base o)))) ->
  quat_of (aget y) = quat_of (aget (p_goal_y (s_base o))) -> v3_of (aget yd) = v3_zero ->
  sdo_n_steps None n y yd o = (o', Ok (y', yd')) ->
  quat_of (aget y') = quat_of (aget (p_goal_y (s_base o))) /\ v3_of (aget yd') = v3_zero.
Proof.
  induction n as [|n IH]; intros o y yd o' y' yd' H1 H2 H3 H4 Hdt Hi Hg Hy Hyd E.
  - simpl in E. injection E as <- <- <-. auto.
  - cbn [sdo_n_steps] in E. destruct (sdo_step y yd None o) as [o1 [[y1 yd1]|]] eqn:E1; [|discriminate].
    destruct (sdo_step_ok _ _ _ _ _ _ _ E1 H1 H2 H3 H4)
      as (q & w & Eq & -> & -> & A1 & A2 & A3 & A4 & A5 & A6 & A7 & A8 & A9 & A10).
    set (g := quat_of (aget (p_goal_y (s_base o)))) in *.
    assert (EE : spring_damper_step_quaternion g (s_k o) (s_c o) None None (s_int_dt o)
      (p_t (s_base o)) (p_t (s_base o) + s_dt o) (g, v3_zero) = Ok (g, v3_zero)).
    { unfold spring_damper_step_quaternion.
      destruct (substeps_tiles (p_t (s_base o)) (p_t (s_base o) + s_dt o) (s_int_dt o) Hi ltac:(lra))
        as [l [_ Hl]]. rewrite Hl. f_equal. clear Hl.
      induction l as [|[c d] l IHl]; [reflexivity|]. unfold exec_substeps. cbn [fold_left fst snd].
      assert (Eb : forall c d, sdq_body g (s_k o) (default_critically_damped_c (s_c o) (s_k o)) None None c d
        (g, v3_zero) = (g, v3_zero)).
      { clear - Hg. intros c d. unfold sdq_body. rewrite q_error_self by auto.
        assert (Ev : v3_add v3_zero (v3_add (v3_scale d (v3_add (v3_sub (v3_scale (s_k o) v3_zero)
          (v3_scale (default_critically_damped_c (s_c o) (s_k o)) v3_zero)) v3_zero)) v3_zero) = v3_zero)
          by (apply v3_eq; simpl; ring).
        rewrite Ev. assert (Ed : v3_scale d v3_zero = v3_zero) by (apply v3_eq; simpl; ring).
        rewrite Ed. change (pr_exp v3_zero) with (i_exp Python v3_zero). rewrite i_exp_zero.
        unfold pr_mul. now rewrite hamilton_one_l. }
      rewrite Eb. exact IHl. }
    rewrite Hy, Hyd, EE in Eq. injection Eq as <- <-.
    unfold g. rewrite <- A5. eapply IH; [| | | | | | | | |exact E]; cbn [alen aget]; try congruence.
    + rewrite A5. exact Hg.
    + rewrite A5. fold g. destruct g; reflexivity.
    + reflexivity.
Qed.

(** The hypotheses are met, and with smooth scaling the condition on the start is
    needed: [ex_quarter] leaves its goal. *)
Theorem C35_smooth_scaling_refuted : forall i,
  unit_quat (g_goal_y ex_quarter) /\ g_smooth_scaling ex_quarter = true
  /\ (forall d j, ft_weights (g_forcing_term ex_quarter) d j = 0)
  /\ exists s, q_step i ex_quarter 0 (/ 1000) (g_goal_y ex_quarter, v3_zero) = Ok s /\ snd s <> v3_zero.
Proof.
  intros i. pose proof PI_RGT_0 as Hpi.
  assert (Hx : unit_v3 ex_axis_x) by (unfold unit_v3; simpl; ring).
  assert (Hg : unit_quat (g_goal_y ex_quarter)) by now apply axis_quat_unit.
  split; [exact Hg|]. split; [reflexivity|]. split; [reflexivity|].
  exists (q_body i ex_quarter (/ 1000) (/ 1000) (g_goal_y ex_quarter, v3_zero)). split.
  - destruct i; unfold q_step; cbn [ex_quarter g_goal_t g_start_t g_int_dt].
    + destruct (Rle_dec 1 0); [lra|]. destruct (Rle_dec _ _); [lra|]. apply one_substep; lra.
    + destruct (Rle_dec _ _); [lra|]. apply one_substep; lra.
  - unfold q_body.
    assert (q_coupling i ex_quarter (g_goal_y ex_quarter) v3_zero = (v3_zero, v3_zero)) as ->
      by (now destruct i).
    change (g_forcing_term ex_quarter) with no_force.
    rewrite zero_weights_forces by reflexivity. cbn [snd]. unfold q_acc.
    rewrite q_error_self by auto.
    assert (El : q_error i (g_goal_y ex_quarter) (g_start_y ex_quarter) = V3 (PI / 2) 0 0).
    { rewrite q_error_unit by (try apply one_unit; auto).
      simpl g_start_y. replace (cy_conj q_one) with q_one by (apply quat_eq; simpl; ring).
      rewrite hamilton_one_r. apply ex_log. }
    rewrite El. set (z := ft_phase no_force (/ 1000)).
    assert (Hz : 0 < z) by (unfold z, ft_phase; apply phase_pos).
    intros E. apply (f_equal v3x) in E. cbn in E. unfold vzero in E.
    assert (25 * (25 / 4 * 0 - (1 - 0) * 0 - z * (25 / 4) * (PI / 2)) < 0) by nra. nra.
Qed.

Example C35_satisfiable :
  unit_quat (g_goal_y ex_anisotropic) /\ g_smooth_scaling ex_anisotropic = false
  /\ g_start_y ex_anisotropic <> g_goal_y ex_anisotropic
  /\ 0 < g_int_dt ex_anisotropic /\ g_start_t ex_anisotropic < g_goal_t ex_anisotropic.
Proof.
  assert (Hx : unit_v3 ex_axis_x) by (unfold unit_v3; simpl; ring).
  split; [now apply axis_quat_unit|]. split; [reflexivity|]. split; [|simpl; lra].
  simpl. unfold q_one, axis_quat, ex_axis_x. intros E. injection E as _ E _ _.
  replace (PI / 2 / 2) with (PI / 4) in E by field. cbn in E. rewrite sin_PI4 in E.
  assert (0 < 1 / sqrt 2) by (apply Rdiv_lt_0_compat; [lra|apply sqrt_lt_R0; lra]). nra.
Qed.

(** ** C36 *)
(** At every demonstrated orientation and angular velocity, the transformation
    system driven by the computed forces has the demonstrated angular
    acceleration. *)
Theorem C36_forces_reproduce_acceleration :
  forall n T Y alpha_y beta_y alpha_z allow smooth qf f ct pre int_dt v0,
  determine_forces_quaternion n T Y alpha_y beta_y alpha_z allow smooth = Ok qf ->
  T 0%nat <> T (n - 1)%nat ->
  forall t,
  q_acc Python
    {| g_goal_y := Y (n - 1)%nat; g_start_y := Y 0%nat; g_start_yd := v0;
       g_goal_t := T (n - 1)%nat; g_start_t := T 0%nat; g_alpha_y := alpha_y; g_beta_y := beta_y;
       g_forcing_term := f; g_coupling_term := ct; g_precomputed := pre;
       g_int_dt := int_dt; g_smooth_scaling := smooth |}
    (phase (T t) alpha_z (T (n - 1)%nat) (T 0%nat)) (qf_F qf t) v3_zero (Y t) (qf_Yd qf t)
  = qf_Ydd qf t.
Proof.
  intros n T Y al be az allow smooth qf f ct pre int_dt v0 E HT t.
  unfold determine_forces_quaternion in E. destruct (Nat.ltb n 2); [discriminate|].
  injection E as <-. cbn [qf_F qf_Yd qf_Ydd]. unfold q_acc.
  cbn [g_goal_y g_start_y g_goal_t g_start_t g_alpha_y g_beta_y g_smooth_scaling].
  set (tau := T (n - 1)%nat - T 0%nat). assert (Htau : tau <> 0) by (unfold tau; lra).
  set (A := if Nat.eqb t (n - 1) then _ else _). set (V := if (negb allow && _)%bool then v3_zero else _).
  set (S := if smooth then _ else _). 
  unfold q_error, i_log, i_mul, i_conj.
  set (e := pr_log (pr_mul (Y (n - 1)%nat) (pr_conj (Y t)))).
  clearbody A V S e. apply v3_eq; cbn [v3_divs v3_add v3_sub v3_mul v3_scale v3_zero v3x v3y v3z]; field; auto.
Qed.

(** They are the only ones. *)
Theorem C36_forces_unique :
  forall n T Y alpha_y beta_y alpha_z allow smooth qf f ct pre int_dt v0 F,
  determine_forces_quaternion n T Y alpha_y beta_y alpha_z allow smooth = Ok qf ->
  T 0%nat <> T (n - 1)%nat ->
  forall t,
  q_acc Python
    {| g_goal_y := Y (n - 1)%nat; g_start_y := Y 0%nat; g_start_yd := v0;
       g_goal_t := T (n - 1)%nat; g_start_t := T 0%nat; g_alpha_y := alpha_y; g_beta_y := beta_y;
       g_forcing_term := f; g_coupling_term := ct; g_precomputed := pre;
       g_int_dt := int_dt; g_smooth_scaling := smooth |}
    (phase (T t) alpha_z (T (n - 1)%nat) (T 0%nat)) F v3_zero (Y t) (qf_Yd qf t)
  = qf_Ydd qf t -> F = qf_F qf t.
Proof.
  intros n T Y al be az allow smooth qf f ct pre int_dt v0 F E HT t HF.
  rewrite <- (C36_forces_reproduce_acceleration n T Y al be az allow smooth qf f ct pre int_dt v0 E HT t) in HF.
  unfold q_acc in HF.
  cbn [g_goal_y g_start_y g_goal_t g_start_t g_alpha_y g_beta_y g_smooth_scaling] in HF.
  set (tau := T (n - 1)%nat - T 0%nat) in *. assert (Htau : tau <> 0) by (unfold tau; lra).
  set (M := v3_mul al _) in HF. clearbody M. unfold v3_divs, v3_add, v3_zero in HF. cbn [v3x v3y v3z] in HF.
  assert (Hd : forall x y, x / tau ^ 2 = y / tau ^ 2 -> x = y).
  { intros x y H. apply (f_equal (fun u => u * tau ^ 2)) in H. unfold Rdiv in H.
    rewrite !Rmult_assoc, !Rinv_l, !Rmult_1_r in H by (apply pow_nonzero; auto). exact H. }
  injection HF as H1 H2 H3. apply Hd in H1, H2, H3. apply v3_eq; lra.
Qed.

(** The demonstrated angular velocity is the rotation vector between neighbouring
    samples divided by the time between them, zero at the end unless a final
    velocity is allowed; the angular acceleration is its central difference. *)
Theorem C36_finite_differences :
  forall n T Y alpha_y beta_y alpha_z allow smooth qf,
  determine_forces_quaternion n T Y alpha_y beta_y alpha_z allow smooth = Ok qf ->
  (2 <= n)%nat
  /\ (forall t, (0 < t < n - 1)%nat -> T (t + 1)%nat <> T (t - 1)%nat ->
        v3_scale (T (t + 1)%nat - T (t - 1)%nat) (qf_Yd qf t)
        = q_error Python (Y (t + 1)%nat) (Y (t - 1)%nat)
        /\ v3_scale (T (t + 1)%nat - T (t - 1)%nat) (qf_Ydd qf t)
           = v3_sub (qf_Yd qf (t + 1)%nat) (qf_Yd qf (t - 1)%nat))
  /\ ((2 < n)%nat -> T 1%nat <> T 0%nat ->
       v3_scale (T 1%nat - T 0%nat) (qf_Yd qf 0%nat) = q_error Python (Y 1%nat) (Y 0%nat))
  /\ qf_Ydd qf (n - 1)%nat = v3_zero
  /\ (allow = false -> qf_Yd qf (n - 1)%nat = v3_zero).
Proof.
  intros n T Y al be az allow smooth qf E.
  unfold determine_forces_quaternion in E. destruct (Nat.ltb_spec n 2); [discriminate|].
  injection E as <-. cbn [qf_F qf_Yd qf_Ydd]. split; [auto|].
  assert (Hl : Nat.eqb (n - 1) (n - 1) = true) by apply Nat.eqb_refl.
  split; [|split; [|split]].
  - intros t Ht HT.
    assert (Et : Nat.eqb t (n - 1) = false) by (apply Nat.eqb_neq; lia).
    assert (E0 : Nat.eqb t 0 = false) by (apply Nat.eqb_neq; lia).
    rewrite Et, Bool.andb_false_r. unfold pr_quaternion_gradient, np_gradient. rewrite Et, E0.
    set (V := fun k : nat => if (negb allow && Nat.eqb k (n - 1))%bool then v3_zero
      else v3_divs (pr_quaternion_gradient n Y k) (np_gradient n T k)).
    split.
    + unfold q_error, i_log, i_mul, i_conj. set (L := pr_log _). clearbody L.
      apply v3_eq; simpl; field; lra.
    + change (if negb allow && Nat.eqb (t + 1) (n - 1) then v3_zero else _)%bool with (V (t + 1)%nat).
      change (if negb allow && Nat.eqb (t - 1) (n - 1) then v3_zero else _)%bool with (V (t - 1)%nat).
      clearbody V. apply v3_eq; simpl; field; lra.
  - intros Hn HT. assert (E0 : Nat.eqb 0 (n - 1) = false) by (apply Nat.eqb_neq; lia).
    rewrite E0, Bool.andb_false_r. unfold pr_quaternion_gradient, np_gradient. cbn [Nat.eqb].
    unfold q_error, i_log, i_mul, i_conj. set (L := pr_log _). clearbody L.
    apply v3_eq; simpl; field; lra.
  - now rewrite Hl.
  - intros ->. now rewrite Hl.
Qed.

Example C36_satisfiable : exists qf,
  determine_forces_quaternion 3 (fun t => INR t / 2)
    (fun t => axis_quat ex_axis_x (INR t * (PI / 4))) (V3 25 25 25) (V3 (25/4) (25/4) (25/4)) 4 false true = Ok qf
  /\ qf_Yd qf 1%nat <> v3_zero.
Proof.
  eexists. split; [reflexivity|].
  cbn [qf_Yd Nat.eqb Nat.sub negb andb pr_quaternion_gradient].
  assert (Hx : unit_v3 ex_axis_x) by (unfold unit_v3; simpl; ring).
  pose proof PI_RGT_0.
  change (pr_log (pr_mul (axis_quat ex_axis_x (INR (1 + 1) * (PI / 4)))
     (pr_conj (axis_quat ex_axis_x (INR 0 * (PI / 4))))))
   with (q_error Python (axis_quat ex_axis_x (INR (1 + 1) * (PI / 4))) (axis_quat ex_axis_x (INR 0 * (PI / 4)))).
  replace (INR (1 + 1) * (PI / 4)) with (PI / 2) by (simpl; field).
  replace (INR 0 * (PI / 4)) with 0 by (simpl; ring).
  replace (axis_quat ex_axis_x 0) with q_one.
  2: { unfold axis_quat, ex_axis_x. replace (0 / 2) with 0 by field. rewrite cos_0, sin_0.
       apply quat_eq; simpl; ring. }
  rewrite q_error_unit by (try apply one_unit; now apply axis_quat_unit).
  replace (cy_conj q_one) with q_one by (apply quat_eq; simpl; ring).
  rewrite hamilton_one_r. change pr_log with (i_log Python). rewrite ex_log.
  intros E. apply (f_equal v3x) in E. cbn in E. unfold np_gradient in E. cbn in E.
  assert (H1 : PI / 2 / 2 / (((1 + 1) / 2 - 0 / 2) / 2) = PI / 2) by field.
  rewrite H1 in E. lra.
Qed.
