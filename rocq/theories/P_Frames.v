(** Orientation steps and orientation imitation commute with changes of the world
    frame and of the tool frame (C106). *)
From Coq Require Import Reals ZArith List Lia Lra Psatz FunctionalExtensionality.
From Verif Require Import M_Prelude M_Canonical M_Forcing M_Dmp M_Base M_Matrix M_DmpObject M_Ridge
  M_SpringDamper M_Quaternion M_Cartesian S_Loops S_Dmp S_Rotation S_Frames P_Loops P_Canonical P_Forcing
  P_DmpStep P_DmpScale P_DmpLinear P_Matrix P_Quaternion P_Cartesian P_DmpAffine P_Components
  Properties_Equivariance Properties_Cartesian.
Import ListNotations.
Open Scope R_scope.
Set Bullet Behavior "Strict Subproofs".

Lemma rotation_matrix_spec l v d : (d < 3)%nat ->
  vec_of_v3 (rotate l v) d = rsum 3 (fun e => rotation_matrix l d e * vec_of_v3 v e).
Proof.
  intros Hd. unfold rotation_matrix. destruct l as [w x y z], v as [a b c].
  destruct d as [|[|[|d]]]; try lia; cbn; ring.
Qed.

Definition in3 (d : nat) : Prop := (d < 3)%nat.

Lemma vec_of_v3_of u d : (d < 3)%nat -> vec_of_v3 (v3_of u) d = u d.
Proof. intros H. destruct d as [|[|[|d]]]; try lia; reflexivity. Qed.
Lemma v3_of_vec_of v : v3_of (vec_of_v3 v) = v.
Proof. destruct v; reflexivity. Qed.

Lemma lmap_rotate l u d : (d < 3)%nat -> lmap 3 (rotation_matrix l) u d = vec_of_v3 (rotate l (v3_of u)) d.
Proof.
  intros Hd. rewrite rotation_matrix_spec by auto. unfold lmap. apply rsum_ext. intros e He.
  now rewrite vec_of_v3_of.
Qed.

Lemma drel_rotate l u' u : drel 3 (rotation_matrix l) in3 u' u <-> v3_of u' = rotate l (v3_of u).
Proof.
  split; intros H.
  - unfold v3_of at 1. rewrite !H by (unfold in3; lia). rewrite !lmap_rotate by lia.
    destruct (rotate l (v3_of u)); reflexivity.
  - intros d Hd. rewrite lmap_rotate, <- H by auto. symmetry. now apply vec_of_v3_of.
Qed.

(** Gains that do not distinguish the axes mixed by [l]. *)
Definition turns (l : quat) (g' g : v3) : Prop := forall x, v3_mul g' (rotate l x) = rotate l (v3_mul g x).

Lemma grel_turns l g' g : grel 3 (rotation_matrix l) in3 g' g -> turns l (v3_of g') (v3_of g).
Proof.
  intros H x.
  assert (D : drel 3 (rotation_matrix l) in3 (vec_of_v3 (rotate l x)) (vec_of_v3 x)).
  { apply drel_rotate. now rewrite !v3_of_vec_of. }
  apply (grel_mult 3 _ _ _ _ _ _ H) in D. apply drel_rotate in D.
  destruct x, (rotate l _); exact D.
Qed.

Definition refr (l r q : quat) : quat := hamilton (hamilton l q) r.

Lemma refr_unit l r q : unit_quat l -> unit_quat r -> unit_quat q -> unit_quat (refr l r q).
Proof. intros. unfold refr. auto using hamilton_unit. Qed.

Lemma q_error_refr i l r p q : unit_quat l -> unit_quat r -> unit_quat p -> unit_quat q ->
  q_error i (refr l r p) (refr l r q) = rotate l (q_error i p q).
Proof.
  intros. unfold refr. rewrite q_error_right by auto using hamilton_unit. now apply q_error_left.
Qed.

(** ** Steps *)
Record qargs_rel (l r : quat) (a' a : qargs) : Prop := {
  qr_goal_y : g_goal_y a' = refr l r (g_goal_y a);
  qr_start_y : g_start_y a' = refr l r (g_start_y a);
  qr_start_yd : g_start_yd a' = rotate l (g_start_yd a);
  qr_goal_t : g_goal_t a' = g_goal_t a;
  qr_start_t : g_start_t a' = g_start_t a;
  qr_alpha : turns l (g_alpha_y a') (g_alpha_y a);
  qr_beta : turns l (g_beta_y a') (g_beta_y a);
  qr_phase : forall t, ft_phase (g_forcing_term a') t = ft_phase (g_forcing_term a) t;
  qr_forces : forall z, v3_of (ft_forces (g_forcing_term a') z) = rotate l (v3_of (ft_forces (g_forcing_term a) z));
  qr_c' : g_coupling_term a' = None; qr_c : g_coupling_term a = None;
  qr_p' : g_precomputed a' = None; qr_p : g_precomputed a = None;
  qr_int_dt : g_int_dt a' = g_int_dt a;
  qr_smooth : g_smooth_scaling a' = g_smooth_scaling a
}.

Definition st_refr (l r : quat) (s s' : quat * v3) : Prop :=
  unit_quat (fst s) /\ s' = (refr l r (fst s), rotate l (snd s)).

Section Steps.
Variables (l r : quat) (a' a : qargs).
Hypotheses (Hl : unit_quat l) (Hr : unit_quat r) (Hg : unit_quat (g_goal_y a)) (Hs : unit_quat (g_start_y a)).
Hypothesis H : qargs_rel l r a' a.

Lemma q_acc_refr i z f y yd : unit_quat y ->
  q_acc i a' z (rotate l f) v3_zero (refr l r y) (rotate l yd)
  = rotate l (q_acc i a z f v3_zero y yd).
Proof.
  intros Hy. unfold q_acc.
  rewrite (qr_goal_y _ _ _ _ H), (qr_start_y _ _ _ _ H), (qr_goal_t _ _ _ _ H), (qr_start_t _ _ _ _ H), (qr_smooth _ _ _ _ H).
  rewrite !q_error_refr by auto.
  rewrite rotate_divs, !rotate_add, rotate_zero. do 3 f_equal.
  rewrite (qr_beta _ _ _ _ H), <- rotate_scale, <- rotate_sub.
  destruct (g_smooth_scaling a).
  - assert (E : v3_mul (v3_scale z (g_beta_y a')) (rotate l (q_error i (g_goal_y a) (g_start_y a)))
       = rotate l (v3_mul (v3_scale z (g_beta_y a)) (q_error i (g_goal_y a) (g_start_y a)))).
    { assert (M : forall g x, v3_mul (v3_scale z g) x = v3_scale z (v3_mul g x))
        by (intros g x; apply v3_eq; cbn; ring).
      now rewrite !M, (qr_beta _ _ _ _ H), rotate_scale. }
    now rewrite E, <- rotate_sub, (qr_alpha _ _ _ _ H).
  - rewrite <- (rotate_zero l) at 1. now rewrite <- rotate_sub, (qr_alpha _ _ _ _ H).
Qed.

Lemma q_body_refr i cur d s s' : st_refr l r s s' -> st_refr l r (q_body i a cur d s) (q_body i a' cur d s').
Proof.
  intros [Hy ->]. split; [now apply q_body_unit|]. destruct s as [y yd]. cbn [fst snd] in *.
  unfold q_body, q_coupling.
  rewrite (qr_c' _ _ _ _ H), (qr_c _ _ _ _ H), (qr_p' _ _ _ _ H), (qr_p _ _ _ _ H), (qr_phase _ _ _ _ H), (qr_forces _ _ _ _ H).
  assert (E : match i with Python => (v3_zero, v3_zero) | Cython => (v3_zero, v3_zero) end = (v3_zero, v3_zero))
    by now destruct i.
  rewrite !E. rewrite q_acc_refr by auto. rewrite (qr_goal_t _ _ _ _ H), (qr_start_t _ _ _ _ H). cbn [fst snd].
  set (acc := q_acc i a _ _ _ y yd).
  assert (Ev : v3_add (rotate l yd) (v3_add (v3_scale d (rotate l acc))
      (v3_divs v3_zero (g_goal_t a - g_start_t a)))
    = rotate l (v3_add yd (v3_add (v3_scale d acc) (v3_divs v3_zero (g_goal_t a - g_start_t a))))).
  { now rewrite !rotate_add, !rotate_divs, !rotate_scale, rotate_zero. }
  rewrite Ev. set (v := v3_add yd _). f_equal.
  rewrite !i_mul_unit by auto using hamilton_unit, i_exp_unit, refr_unit.
  rewrite <- rotate_scale, exp_conjugated by auto. unfold refr.
  rewrite <- hamilton_assoc. f_equal. now apply conjugated_mul.
Qed.

Lemma q_step_refr i lt t s s' : 0 < g_int_dt a -> st_refr l r s s' ->
  match q_step i a lt t s, q_step i a' lt t s' with
  | Ok x, Ok x' => st_refr l r x x'
  | Err e, Err e' => e = e'
  | _, _ => False
  end.
Proof.
  intros Hi HS.
  assert (HB : forall s s', st_refr l r s s' ->
    match substeps (substeps_fuel lt t (g_int_dt a)) lt t (g_int_dt a) (q_body i a) s,
          substeps (substeps_fuel lt t (g_int_dt a)) lt t (g_int_dt a) (q_body i a') s' with
    | Ok x, Ok x' => st_refr l r x x'
    | Err e, Err e' => e = e'
    | _, _ => False
    end).
  { intros x x' Hx. apply substeps_rel_any; auto. intros. now apply q_body_refr. }
  unfold q_step.
  rewrite (qr_start_y _ _ _ _ H), (qr_start_yd _ _ _ _ H), (qr_goal_t _ _ _ _ H), (qr_start_t _ _ _ _ H), (qr_int_dt _ _ _ _ H).
  destruct i.
  - destruct (Rle_dec _ _); [reflexivity|]. destruct (Rle_dec _ _); [exact HS|]. now apply HB.
  - destruct (Rle_dec _ _); apply HB; auto. split; auto.
Qed.

Lemma q_open_loop_refr i dt run_t : 0 < g_int_dt a ->
  res_rel (fun x x' => fst x' = fst x /\ Forall2 (st_refr l r) (snd x) (snd x'))
    (q_open_loop i a dt run_t) (q_open_loop i a' dt run_t).
Proof.
  intros Hi. unfold q_open_loop. rewrite (qr_start_t _ _ _ _ H), (qr_start_y _ _ _ _ H).
  pose proof (run_on_grid_rel (st_refr l r) (q_step i a) (q_step i a') (g_start_t a) run_t dt
    (g_start_y a, v3_zero) (refr l r (g_start_y a), v3_zero)) as HG.
  specialize (HG (fun t0 t1 s s' => q_step_refr i t0 t1 s s' Hi)).
  assert (H0 : st_refr l r (g_start_y a, v3_zero) (refr l r (g_start_y a), v3_zero)).
  { split; cbn; auto. now rewrite rotate_zero. }
  specialize (HG H0). clear H0.
  destruct (run_on_grid (q_step i a) _ _ _ _) as [[ts x]|], (run_on_grid (q_step i a') _ _ _ _) as [[ts' x']|];
    cbn; auto. destruct HG; auto.
Qed.
End Steps.

(** ** Imitation *)
Lemma np_gradient_rotate l n (V V' : nat -> v3) t : (t < n)%nat -> (2 <= n)%nat ->
  (forall k, (k < n)%nat -> V' k = rotate l (V k)) ->
  V3 (np_gradient n (fun k => v3x (V' k)) t) (np_gradient n (fun k => v3y (V' k)) t) (np_gradient n (fun k => v3z (V' k)) t)
  = rotate l (V3 (np_gradient n (fun k => v3x (V k)) t) (np_gradient n (fun k => v3y (V k)) t) (np_gradient n (fun k => v3z (V k)) t)).
Proof.
  intros Ht Hn HV. unfold np_gradient. destruct l as [w x y z].
  destruct (Nat.eqb_spec t 0); [|destruct (Nat.eqb_spec t (n - 1))];
    rewrite !HV by lia; apply v3_eq; cbn; field.
Qed.

Lemma pr_gradient_error n Q t : pr_quaternion_gradient n Q t
  = if Nat.eqb t 0 then q_error Python (Q 1%nat) (Q 0%nat)
    else if Nat.eqb t (n - 1) then q_error Python (Q (n - 1)%nat) (Q (n - 2)%nat)
    else v3_divs (q_error Python (Q (t + 1)%nat) (Q (t - 1)%nat)) 2.
Proof. reflexivity. Qed.

Lemma forces_refr l r s n T Y Y' al' al be' be az allow sm qf' qf :
  unit_quat l -> unit_quat r -> 0 < s -> (forall t, (t < n)%nat -> unit_quat (Y t)) ->
  (forall t, (t < n)%nat -> Y' t = refr l r (Y t)) -> turns l al' al -> turns l be' be ->
  determine_forces_quaternion n T Y al be az allow sm = Ok qf ->
  determine_forces_quaternion n (fun t => s * T t) Y' al' be' az allow sm = Ok qf' ->
  forall t, (t < n)%nat -> qf_F qf' t = rotate l (qf_F qf t).
Proof.
  intros Hl Hr Hs HU HY Ha Hb E E' t Ht. unfold determine_forces_quaternion in E, E'.
  destruct (Nat.ltb_spec n 2) as [|Hn]; [discriminate|].
  assert (EI : forall x y : qforces, Ok x = Ok y -> y = x) by congruence.
  apply EI in E, E'. subst qf qf'. cbv zeta. cbn [qf_F].
  set (Yd := fun t => if (negb allow && Nat.eqb t (n - 1))%bool then v3_zero
                      else v3_divs (pr_quaternion_gradient n Y t) (np_gradient n T t)).
  set (Yd' := fun t => if (negb allow && Nat.eqb t (n - 1))%bool then v3_zero
                      else v3_divs (pr_quaternion_gradient n Y' t) (np_gradient n (fun t => s * T t) t)).
  assert (EV : forall k, (k < n)%nat -> Yd' k = rotate l (v3_scale (/ s) (Yd k))).
  { intros k Hk. unfold Yd', Yd. destruct (_ && _)%bool.
    - rewrite rotate_scale, rotate_zero. apply v3_eq; cbn; ring.
    - rewrite rotate_scale, rotate_divs, np_gradient_scale, !pr_gradient_error.
      assert (M : forall u, v3_divs u (s * np_gradient n T k) = v3_scale (/ s) (v3_divs u (np_gradient n T k)))
        by (intros u; apply v3_eq; cbn; unfold Rdiv; rewrite Rinv_mult; ring).
      rewrite M. do 2 f_equal.
      destruct (Nat.eqb_spec k 0); [|destruct (Nat.eqb_spec k (n - 1))]; rewrite !HY by lia;
        rewrite q_error_refr by (auto; apply HU; lia); auto.
      now rewrite rotate_divs. }
  match goal with |- context [v3_scale ((T (n - 1)%nat - T 0%nat) ^ 2) ?X] => set (A := X) end.
  match goal with |- context [v3_scale ((s * T (n - 1)%nat - s * T 0%nat) ^ 2) ?X] => set (A' := X) end.
  assert (EA : A' = rotate l (v3_scale (/ s * / s) A)).
  { unfold A', A. destruct (Nat.eqb t (n - 1)).
    - rewrite rotate_scale, rotate_zero. apply v3_eq; cbn; ring.
    - pose proof (np_gradient_rotate l n (fun k => v3_scale (/ s) (Yd k)) Yd' t Ht Hn EV) as G.
      set (gr := fun (W : nat -> v3) => V3 (np_gradient n (fun k => v3x (W k)) t)
                   (np_gradient n (fun k => v3y (W k)) t) (np_gradient n (fun k => v3z (W k)) t)).
      change (v3_divs (gr Yd') (np_gradient n (fun t => s * T t) t)
              = rotate l (v3_scale (/ s * / s) (v3_divs (gr Yd) (np_gradient n T t)))).
      unfold gr at 1. rewrite G, rotate_scale, rotate_divs. rewrite np_gradient_scale. unfold gr.
      cbn [v3x v3y v3z v3_scale]. rewrite !np_gradient_scale.
      assert (Z : forall g a b c, rotate l (V3 (g * a) (g * b) (g * c)) = v3_scale g (rotate l (V3 a b c)))
        by (intros; rewrite <- rotate_scale; reflexivity).
      rewrite Z. unfold v3_divs, v3_scale, Rdiv; cbn [v3x v3y v3z]. rewrite !Rinv_mult. apply v3_eq; cbn [v3x v3y v3z]; ring. }
  match goal with |- context [v3_scale (s * T (n - 1)%nat - s * T 0%nat) ?X] => change X with (Yd' t) end.
  match goal with |- context [v3_scale (T (n - 1)%nat - T 0%nat) ?X] => change X with (Yd t) end.
  rewrite EA, (EV t Ht). rewrite (HY t), (HY 0%nat), (HY (n - 1)%nat) by lia.
  rewrite !q_error_refr by (auto; apply HU; lia).
  rewrite phase_scaled by auto. rewrite rotate_sub. f_equal.
  { rewrite !rotate_scale. apply v3_eq; cbn [v3x v3y v3z v3_scale]; field; lra. }
  rewrite <- Ha. f_equal. rewrite !rotate_sub. f_equal; [f_equal|].
  - apply Hb.
  - rewrite !rotate_scale. apply v3_eq; cbn [v3x v3y v3z v3_scale]; field; lra.
  - destruct sm; [|now rewrite rotate_zero].
    assert (M : forall z g x, v3_mul (v3_scale z g) x = v3_scale z (v3_mul g x))
        by (intros z g x; apply v3_eq; cbn; ring).
    now rewrite !M, rotate_scale, Hb.
Qed.
