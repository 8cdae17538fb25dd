(** Proofs about the element types of arrays (M_Dtype.v). *)
From Coq Require Import Reals ZArith List Arith Bool Lia Lra FunctionalExtensionality.
From Verif Require Import M_Prelude M_Canonical M_Forcing M_Dmp M_Base M_DmpObject
  M_SpringDamper M_Quaternion M_Cartesian M_Dtype P_Loops P_Quaternion S_Rotation.
Import ListNotations.
Open Scope R_scope.
Set Bullet Behavior "Strict Subproofs".

Lemma store_float x : store Float64 x = x.
Proof. reflexivity. Qed.

Lemma determine_forces_float n T Y al be az a sm :
  determine_forces_typed Float64 n T Y al be az a sm = determine_forces n T Y al be az a sm.
Proof. reflexivity. Qed.

Lemma dmp_imitate_float junk reg n dm nw lam al be ov az a sm :
  dmp_imitate_typed Float64 junk reg n dm nw lam al be ov az a sm
  = dmp_imitate junk reg n dm nw lam al be ov az a sm.
Proof. reflexivity. Qed.

(** Configure: the values do not depend on the dtypes. *)
Lemma block_fst x d n f g (p : ptp * dtypes) :
  fst (fst (configure_block_typed x d n f g p)) = fst (configure_block x n f (fst p))
  /\ snd (configure_block_typed x d n f g p) = snd (configure_block x n f (fst p)).
Proof.
  unfold configure_block_typed, configure_block. destruct x as [a|]; [|auto].
  destruct (check_1d_array_length a n); auto.
Qed.

Lemma and_then_fst r r' f f' :
  fst (fst r) = fst r' -> snd r = snd r' ->
  (forall p, fst (fst (f p)) = fst (f' (fst p)) /\ snd (f p) = snd (f' (fst p))) ->
  fst (fst (and_then_typed r f)) = fst (and_then r' f')
  /\ snd (and_then_typed r f) = snd (and_then r' f').
Proof.
  intros H1 H2 H. destruct r as [p [e|]], r' as [p' [e'|]]; simpl in *; try discriminate; subst.
  - injection H2 as ->. auto.
  - apply H.
Qed.

Lemma configure_fst c ct p :
  fst (fst (configure_typed c ct p)) = fst (configure c (fst p))
  /\ snd (configure_typed c ct p) = snd (configure c (fst p)).
Proof.
  unfold configure_typed, configure. cbv zeta. cbn [fst snd].
  repeat (apply and_then_fst; [apply block_fst|apply block_fst|intro]).
  apply block_fst.
Qed.

(** Invariants on dtypes through configure. *)
Section Preserve.
  Variable P : dtypes -> Prop.
  Lemma block_types x d n f g (p : ptp * dtypes) :
    P (snd p) -> (forall ty, P ty -> x <> None -> P (g d ty)) ->
    P (snd (fst (configure_block_typed x d n f g p))).
  Proof.
    intros H H1. unfold configure_block_typed. destruct x as [a|]; [|exact H].
    destruct (check_1d_array_length a n); [exact H|]. simpl. apply H1; [exact H|discriminate].
  Qed.
  Lemma and_then_types r f :
    P (snd (fst r)) -> (forall p, P (snd p) -> P (snd (fst (f p)))) ->
    P (snd (fst (and_then_typed r f))).
  Proof. intros H H1. destruct r as [p [e|]]; simpl in *; auto. Qed.

  Lemma configure_types_inv c ct p :
    P (snd p) ->
    (forall ty, P ty -> c_start_y c <> None -> P (ty_set_start_y (ct_start_y ct) ty)) ->
    (forall ty, P ty -> c_start_yd c <> None -> P (ty_set_start_yd (ct_start_yd ct) ty)) ->
    (forall ty, P ty -> c_start_ydd c <> None -> P (ty_set_start_ydd (ct_start_ydd ct) ty)) ->
    (forall ty, P ty -> c_goal_y c <> None -> P (ty_set_goal_y (ct_goal_y ct) ty)) ->
    (forall ty, P ty -> c_goal_yd c <> None -> P (ty_set_goal_yd (ct_goal_yd ct) ty)) ->
    (forall ty, P ty -> c_goal_ydd c <> None -> P (ty_set_goal_ydd (ct_goal_ydd ct) ty)) ->
    P (snd (fst (configure_typed c ct p))).
  Proof.
    intros H H1 H2 H3 H4 H5 H6. unfold configure_typed. cbv zeta.
    apply and_then_types; [apply block_types; auto|intros q Hq].
    apply and_then_types; [apply block_types; auto|intros q1 Hq1].
    apply and_then_types; [apply block_types; auto|intros q2 Hq2].
    apply and_then_types; [apply block_types; auto|intros q3 Hq3].
    apply and_then_types; [apply block_types; auto|intros q4 Hq4].
    apply block_types; auto.
  Qed.
End Preserve.

Lemma configure_method_fst c ct o :
  fst (fst (configure_method_typed c ct o)) = fst (dmp_configure c (fst o))
  /\ snd (configure_method_typed c ct o) = snd (dmp_configure c (fst o)).
Proof.
  unfold configure_method_typed, dmp_configure.
  destruct (configure_fst c ct (o_base (fst o), snd o)) as [A B].
  destruct (configure_typed c ct (o_base (fst o), snd o)) as [[p ty] e].
  cbn [fst snd] in *. destruct (configure c (o_base (fst o))) as [p' e']. cbn [fst snd] in *.
  subst. auto.
Qed.

(** What the state arrays must be for the step functions to behave as with floats. *)
Definition state_float (ty : dtypes) : Prop :=
  ty_start_y ty = Float64 /\ ty_start_yd ty = Float64
  /\ ty_current_y ty = Float64 /\ ty_current_yd ty = Float64.
Definition all_float (ty : dtypes) : Prop := ty = float_types.

Definition runs_as_float (fn : step_function) (ty : arg_types) : Prop :=
  match fn with
  | RK4 | Euler => at_current_y ty = Float64 /\ at_current_yd ty = Float64
  | _ => accepted_by_cython ty = true
  end.

Lemma run_typed_same fn ty a lt t s :
  runs_as_float fn ty ->
  run_step_function_typed fn ty a lt t s = of_res s (run_step_function fn a lt t s).
Proof.
  destruct fn; cbn [runs_as_float run_step_function_typed run_step_function].
  - intros [A B]. unfold rk4_typed. rewrite A, B. reflexivity.
  - intros [A B]. unfold euler_typed. rewrite A, B. reflexivity.
  - intros ->. reflexivity.
  - intros ->. reflexivity.
Qed.

Lemma to_of_res s r : to_res (of_res s r) = r.
Proof. destruct r; reflexivity. Qed.

Lemma open_loop_typed_same rt c fn o ty :
  (forall f, fn = Some f -> runs_as_float f (open_loop_arg_types ty)) ->
  open_loop_typed rt c fn (o, ty) = dmp_open_loop rt c fn o.
Proof.
  intros H. unfold open_loop_typed, dmp_open_loop. destruct fn as [f|]; [|reflexivity].
  specialize (H f eq_refl). f_equal. unfold open_loop_run.
  destruct (arange 0 _ (o_dt o)) as [|t0 ts]; [reflexivity|]. f_equal.
  generalize (aget (p_start_y (o_base o)), vzero) as s. revert t0.
  induction ts as [|t ts IH]; intros t0 s; [reflexivity|].
  cbn [run_steps]. rewrite run_typed_same by exact H. rewrite to_of_res.
  destruct (run_step_function f _ t0 t s) as [s'|e]; [|reflexivity]. cbn [bind].
  now rewrite IH.
Qed.

Lemma arr_eta (a : arr) : {| alen := alen a; aget := aget a |} = a.
Proof. now destruct a. Qed.
Lemma set_current_same p : set_current (p_current_y p) (p_current_yd p) p = p.
Proof. now destruct p. Qed.
Lemma with_base_same o : with_base (o_base o) o = o.
Proof. now destruct o. Qed.

Lemma step_typed_same y yd c fn o ty :
  (forall f, fn = Some f ->
     runs_as_float f (step_arg_types (if o_initialized o then ty
                        else ty_set_current (ty_start_y ty) (ty_start_yd ty) ty))) ->
  fst (fst (step_typed y yd c fn (o, ty))) = fst (dmp_step y yd c fn o)
  /\ snd (step_typed y yd c fn (o, ty)) = snd (dmp_step y yd c fn o).
Proof.
  intros H. unfold step_typed, dmp_step. destruct fn as [f|]; [|auto].
  specialize (H f eq_refl).
  destruct (negb (Nat.eqb (alen y) _)); [auto|]. destruct (negb (Nat.eqb (alen yd) _)); [auto|].
  cbv zeta. rewrite run_typed_same by exact H.
  change (o_initialized (with_base (set_t (p_t (o_base o) + o_dt o)
            (set_last_t (Some (p_t (o_base o))) (o_base o))) o)) with (o_initialized o).
  set (o1 := if o_initialized o then _ else _).
  destruct (run_step_function f _ _ _ _) as [[y' yd']|e] eqn:E; cbn [of_res fst snd]; [auto|].
  split; [|reflexivity]. rewrite !arr_eta, set_current_same. apply with_base_same.
Qed.

Lemma step_typed_types y yd c fn o ty :
  let ty' := snd (fst (step_typed y yd c fn (o, ty))) in
  ty' = ty \/ ty' = ty_set_current (ty_start_y ty) (ty_start_yd ty) ty.
Proof.
  unfold step_typed. destruct fn as [f|]; [|auto].
  destruct (negb (Nat.eqb (alen y) _)); [auto|]. destruct (negb (Nat.eqb (alen yd) _)); [auto|].
  cbv zeta. destruct (run_step_function_typed _ _ _ _ _ _) as [[y' yd'] e]. cbn [fst snd].
  destruct (o_initialized o); auto.
Qed.

Lemma imitate_typed_same j reg dm lam al o ty :
  fst (fst (imitate_typed Float64 j reg dm lam al (o, ty))) = fst (dmp_imitate_method j reg dm lam al o)
  /\ snd (imitate_typed Float64 j reg dm lam al (o, ty)) = snd (dmp_imitate_method j reg dm lam al o).
Proof.
  unfold imitate_typed, dmp_imitate_method. rewrite dmp_imitate_float.
  destruct (dmp_imitate _ _ _ _ _ _ _ _ _ _ _ _) as [[[w s] g]|e]; [|auto].
  destruct (negb _); [auto|].
  match goal with |- context [configure_method_typed ?c ?ct ?o] =>
    exact (configure_method_fst c ct o) end.
Qed.

Section Histories.
  (** [I]: dtypes of the arrays kept by the object; [A]: calls. *)
  Variable I : dtypes -> Prop.
  Variable A : tcall -> Prop.
  Hypothesis I_current : forall ty, I ty -> I (ty_set_current (ty_start_y ty) (ty_start_yd ty) ty).
  Hypothesis A_configure : forall c ct p, A (TConfigure c ct) -> I (snd p) ->
    I (snd (fst (configure_typed c ct p))).
  Hypothesis A_configure_f : forall c p, I (snd p) -> I (snd (fst (configure_typed c float_configure p))).
  Hypothesis A_imitate : forall dy j reg dm lam al, A (TImitate dy j reg dm lam al) -> dy = Float64.
  Hypothesis A_step : forall y yd c fn ty, A (TCall (CStep y yd c (Some fn))) -> I ty ->
    runs_as_float fn (step_arg_types ty).
  Hypothesis A_open : forall rt c fn ty, A (TCall (COpenLoop rt c (Some fn))) -> I ty ->
    runs_as_float fn (open_loop_arg_types ty).

  Lemma imitate_types j reg dm lam al o ty :
    I ty -> I (snd (fst (imitate_typed Float64 j reg dm lam al (o, ty)))).
  Proof.
    intros H. unfold imitate_typed.
    destruct (dmp_imitate_typed _ _ _ _ _ _ _ _ _ _ _ _ _) as [[[w s] g]|e]; [|exact H].
    destruct (negb _); [exact H|]. unfold configure_method_typed.
    match goal with |- context [configure_typed ?c ?ct ?p] =>
      pose proof (A_configure_f c p H) as HH; unfold float_configure in HH;
      destruct (configure_typed c ct p) as [[q ty'] e] end.
    exact HH.
  Qed.

  Lemma configure_method_types c ct o ty :
    (forall p, I (snd p) -> I (snd (fst (configure_typed c ct p)))) ->
    I ty -> I (snd (fst (configure_method_typed c ct (o, ty)))).
  Proof.
    intros HH H. unfold configure_method_typed.
    specialize (HH (o_base o, ty) H). cbn [fst snd].
    destruct (configure_typed c ct _) as [[q ty'] e]. exact HH.
  Qed.

  Lemma exec_same c o ty : A c -> I ty ->
    fst (fst (exec_typed c (o, ty))) = fst (exec (untyped c) o)
    /\ snd (exec_typed c (o, ty)) = snd (exec (untyped c) o)
    /\ I (snd (fst (exec_typed c (o, ty)))).
  Proof.
    intros HA HI. destruct c as [c ct|dy j reg dm lam al|c]; cbn [exec_typed untyped exec].
    - destruct (configure_method_fst c ct (o, ty)) as [E1 E2].
      pose proof (configure_method_types c ct o ty (fun p => A_configure c ct p HA) HI) as E3.
      destruct (configure_method_typed c ct (o, ty)) as [[o1 ty1] r]. cbn [fst snd] in *.
      destruct (dmp_configure c o) as [o2 r2]. cbn [fst snd] in *. now subst.
    - pose proof (A_imitate _ _ _ _ _ _ HA) as ->.
      destruct (imitate_typed_same j reg dm lam al o ty) as [E1 E2].
      pose proof (imitate_types j reg dm lam al o ty HI) as E3.
      destruct (imitate_typed Float64 j reg dm lam al (o, ty)) as [[o1 ty1] r]. cbn [fst snd] in *.
      destruct (dmp_imitate_method j reg dm lam al o) as [o2 r2]. cbn [fst snd] in *. now subst.
    - destruct c as [c| |y yd c fn|rt c fn|j reg dm lam al| |w|j x|x|x]; cbn [exec].
      + destruct (configure_method_fst c float_configure (o, ty)) as [E1 E2].
        pose proof (configure_method_types c float_configure o ty (A_configure_f c) HI) as E3.
        destruct (configure_method_typed c float_configure (o, ty)) as [[o1 ty1] r]. cbn [fst snd] in *.
        destruct (dmp_configure c o) as [o2 r2]. cbn [fst snd] in *. now subst.
      + cbn [fst snd reset_typed]. auto.
      + assert (Hf : forall f, fn = Some f ->
           runs_as_float f (step_arg_types (if o_initialized o then ty
              else ty_set_current (ty_start_y ty) (ty_start_yd ty) ty))).
        { intros f ->. destruct (o_initialized o); eapply A_step; eauto. }
        destruct (step_typed_same y yd c fn o ty Hf) as [E1 E2].
        pose proof (step_typed_types y yd c fn o ty) as E3. cbv zeta in E3.
        destruct (step_typed y yd c fn (o, ty)) as [[o1 ty1] r]. cbn [fst snd] in *.
        destruct (dmp_step y yd c fn o) as [o2 r2]. cbn [fst snd] in *. subst.
        repeat split; auto. destruct E3 as [->| ->]; auto.
      + cbn [fst snd]. repeat split; auto. rewrite open_loop_typed_same; [reflexivity|].
        intros f ->. eapply A_open; eauto.
      + destruct (imitate_typed_same j reg dm lam al o ty) as [E1 E2].
        pose proof (imitate_types j reg dm lam al o ty HI) as E3.
        destruct (imitate_typed Float64 j reg dm lam al (o, ty)) as [[o1 ty1] r]. cbn [fst snd] in *.
        destruct (dmp_imitate_method j reg dm lam al o) as [o2 r2]. cbn [fst snd] in *. now subst.
      + cbn. auto.
      + cbn [fst snd]. destruct (dmp_set_weights w o) as [o2 r2]. cbn. auto.
      + cbn [fst snd]. destruct (dmp_set_execution_time j x o) as [o2 r2]. cbn. auto.
      + cbn. auto.
      + cbn. auto.
  Qed.

  Lemma exec_all_same cs : forall o ty, Forall A cs -> I ty ->
    fst (fst (exec_all_typed cs (o, ty))) = fst (exec_all (map untyped cs) o)
    /\ snd (exec_all_typed cs (o, ty)) = snd (exec_all (map untyped cs) o)
    /\ I (snd (fst (exec_all_typed cs (o, ty)))).
  Proof.
    induction cs as [|c cs IH]; intros o ty HA HI; cbn [exec_all_typed exec_all map].
    - auto.
    - inversion HA as [|? ? H1 H2]; subst.
      destruct (exec_same c o ty H1 HI) as (E1 & E2 & E3).
      destruct (exec_typed c (o, ty)) as [[o1 ty1] x]. cbn [fst snd] in *.
      destruct (exec (untyped c) o) as [o2 x2]. cbn [fst snd] in *. subst o1 x.
      destruct (IH o2 ty1 H2 E3) as (F1 & F2 & F3).
      destruct (exec_all_typed cs (o2, ty1)) as [[o3 ty3] xs]. cbn [fst snd] in *.
      destruct (exec_all (map untyped cs) o2) as [o4 xs4]. cbn [fst snd] in *. subst. auto.
  Qed.
End Histories.

(** ** Truncation *)
Lemma Ztrunc_int z : Ztrunc (IZR z) = z.
Proof.
  unfold Ztrunc, Zceil. destruct (Rlt_dec _ _).
  - rewrite <- opp_IZR. rewrite (Int_part_unique _ (- z)); [lia|]. lra.
  - apply Int_part_unique. lra.
Qed.
Lemma store_int d z : store d (IZR z) = IZR z.
Proof. destruct d; [|reflexivity]. simpl. now rewrite Ztrunc_int. Qed.

Lemma Ztrunc_small x : -1 < x < 1 -> Ztrunc x = 0%Z.
Proof.
  intros H. unfold Ztrunc, Zceil. destruct (Rlt_dec x 0).
  - rewrite (Int_part_unique _ 0); [reflexivity|]. lra.
  - apply Int_part_unique. lra.
Qed.
Lemma store_small x : Rabs x < 1 -> store Int64 x = 0.
Proof. intros H. simpl. apply Rabs_def2 in H. rewrite Ztrunc_small by lra. reflexivity. Qed.

(** ** Quaternions with integer components *)
Definition q_zero : quat := Q4 0 0 0 0.
Definition int_quat (q : quat) : Prop := q_store Int64 q = q.

Lemma store_unit_component x : Rabs x <= 1 -> store Int64 x = x \/ Rabs x < 1.
Proof.
  intros H. destruct (Rlt_dec (Rabs x) 1); [auto|]. left.
  assert (E : Rabs x = 1) by lra. unfold Rabs in E. destruct (Rcase_abs x).
  - replace x with (IZR (-1)) by lra. apply store_int.
  - replace x with (IZR 1) by lra. apply store_int.
Qed.

Lemma abs_le_1 x : x ^ 2 <= 1 -> Rabs x <= 1.
Proof. intros H. apply Rabs_le. nra. Qed.
Lemma abs_lt_1 x : Rabs x < 1 -> x ^ 2 < 1.
Proof. intros H. apply Rabs_def2 in H. nra. Qed.

Lemma abs_one_sq x : Rabs x <= 1 -> ~ Rabs x < 1 -> x ^ 2 = 1.
Proof.
  intros H H1. assert (E : Rabs x = 1) by lra. rewrite <- pow2_abs, E. ring.
Qed.

Lemma zero_sq x : x ^ 2 <= 0 -> x = 0.
Proof. intros H. nra. Qed.

Lemma store_zero d : store d 0 = 0.
Proof. exact (store_int d 0). Qed.

Lemma truncated_unit q : unit_quat q -> int_quat q \/ q_store Int64 q = q_zero.
Proof.
  intros H. unfold unit_quat in H. destruct q as [w x y z]. cbn [qw qx qy qz] in H.
  pose proof (pow2_ge_0 w) as Hw. pose proof (pow2_ge_0 x) as Hx.
  pose proof (pow2_ge_0 y) as Hy. pose proof (pow2_ge_0 z) as Hz.
  assert (Aw : Rabs w <= 1) by (apply abs_le_1; lra).
  assert (Ax : Rabs x <= 1) by (apply abs_le_1; lra).
  assert (Ay : Rabs y <= 1) by (apply abs_le_1; lra).
  assert (Az : Rabs z <= 1) by (apply abs_le_1; lra).
  unfold int_quat, q_store, q_zero. cbn [qw qx qy qz].
  destruct (Rlt_dec (Rabs w) 1) as [Lw|Lw].
  2:{ left. pose proof (abs_one_sq w Aw Lw).
      rewrite (zero_sq x), (zero_sq y), (zero_sq z) by lra. rewrite store_zero.
      destruct (store_unit_component w Aw) as [->|]; [reflexivity|contradiction]. }
  destruct (Rlt_dec (Rabs x) 1) as [Lx|Lx].
  2:{ left. pose proof (abs_one_sq x Ax Lx).
      rewrite (zero_sq w), (zero_sq y), (zero_sq z) by lra. rewrite store_zero.
      destruct (store_unit_component x Ax) as [->|]; [reflexivity|contradiction]. }
  destruct (Rlt_dec (Rabs y) 1) as [Ly|Ly].
  2:{ left. pose proof (abs_one_sq y Ay Ly).
      rewrite (zero_sq w), (zero_sq x), (zero_sq z) by lra. rewrite store_zero.
      destruct (store_unit_component y Ay) as [->|]; [reflexivity|contradiction]. }
  destruct (Rlt_dec (Rabs z) 1) as [Lz|Lz].
  2:{ left. pose proof (abs_one_sq z Az Lz).
      rewrite (zero_sq w), (zero_sq x), (zero_sq y) by lra. rewrite store_zero.
      destruct (store_unit_component z Az) as [->|]; [reflexivity|contradiction]. }
  right. now rewrite !store_small.
Qed.

Lemma hamilton_zero p : hamilton p q_zero = q_zero.
Proof. unfold hamilton, q_zero. cbn [qw qx qy qz]. f_equal; ring. Qed.

Lemma q_store_zero d : q_store d q_zero = q_zero.
Proof. unfold q_store, q_zero. cbn [qw qx qy qz]. now rewrite store_zero. Qed.

Lemma body_zero d g k c ct ct' h w :
  fst (sdq_body_typed d g k c ct ct' h (q_zero, w)) = q_zero.
Proof.
  unfold sdq_body_typed. cbn [fst]. unfold sdq_body.
  destruct (match ct with Some f => f q_zero w | None => (v3_zero, v3_zero) end) as [cd cdd].
  cbn [fst]. unfold pr_mul. rewrite hamilton_zero. apply q_store_zero.
Qed.
