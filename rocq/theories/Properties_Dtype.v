(** C98: arrays of integers instead of arrays of floats. *)
From Coq Require Import Reals ZArith List Arith Bool Lia Lra Sorted FunctionalExtensionality.
From Verif Require Import M_Prelude M_Canonical M_Forcing M_Dmp M_Base M_DmpObject
  M_SpringDamper M_Quaternion M_Cartesian M_Dtype P_Loops P_Quaternion P_Cartesian S_Rotation S_Loops P_Dtype Properties_Cartesian Properties_DmpObject.
Import ListNotations.
Open Scope R_scope.
Set Bullet Behavior "Strict Subproofs".

(** ** Specification *)

(** Every array that the call passes holds floats. *)
Definition passes_floats (c : tcall) : Prop :=
  match c with
  | TConfigure c ct =>
      (c_start_y c <> None -> ct_start_y ct = Float64)
      /\ (c_start_yd c <> None -> ct_start_yd ct = Float64)
      /\ (c_start_ydd c <> None -> ct_start_ydd ct = Float64)
      /\ (c_goal_y c <> None -> ct_goal_y ct = Float64)
      /\ (c_goal_yd c <> None -> ct_goal_yd ct = Float64)
      /\ (c_goal_ydd c <> None -> ct_goal_ydd ct = Float64)
  | TImitate dy _ _ _ _ _ => dy = Float64
  | TCall _ => True
  end.

Definition python_integrator (fn : option step_function) : Prop :=
  match fn with Some RK4_cython | Some Euler_cython => False | _ => True end.

(** Start positions, start velocities and demonstrations hold floats (goals and
    accelerations may hold integers), and only the Python integrators are used. *)
Definition starts_with_floats (c : tcall) : Prop :=
  match c with
  | TConfigure c ct =>
      (c_start_y c <> None -> ct_start_y ct = Float64)
      /\ (c_start_yd c <> None -> ct_start_yd ct = Float64)
  | TImitate dy _ _ _ _ _ => dy = Float64
  | TCall (CStep _ _ _ fn) | TCall (COpenLoop _ _ fn) => python_integrator fn
  | TCall _ => True
  end.

(** An array of the given dtype can hold these values. *)
Definition can_hold (d : dtype) (a : arr) : Prop :=
  d = Int64 -> forall i, exists z, aget a i = IZR z.
Definition can_hold_opt (d : dtype) (a : option arr) : Prop :=
  match a with Some a => can_hold d a | None => True end.
Definition well_typed (c : tcall) : Prop :=
  match c with
  | TConfigure c ct =>
      can_hold_opt (ct_start_y ct) (c_start_y c) /\ can_hold_opt (ct_start_yd ct) (c_start_yd c)
      /\ can_hold_opt (ct_start_ydd ct) (c_start_ydd c) /\ can_hold_opt (ct_goal_y ct) (c_goal_y c)
      /\ can_hold_opt (ct_goal_yd ct) (c_goal_yd c) /\ can_hold_opt (ct_goal_ydd ct) (c_goal_ydd c)
  | TImitate dy _ _ dm _ _ => forall t, can_hold dy {| alen := d_dims dm; aget := d_Y dm t |}
  | TCall _ => True
  end.

(** The exception that an integrator raises when it is given integers. *)
Definition raised_by (fn : step_function) : exn :=
  match fn with RK4 | Euler => TypeError | RK4_cython | Euler_cython => ValueError end.

Definition integer_quat (q : quat) : Prop :=
  exists a b c d, q = Q4 (IZR a) (IZR b) (IZR c) (IZR d).

(** ** Arrays of floats: the types make no difference *)
Theorem C98_arrays_of_floats cs o :
  Forall passes_floats cs ->
  fst (fst (exec_all_typed cs (o, float_types))) = fst (exec_all (map untyped cs) o)
  /\ snd (exec_all_typed cs (o, float_types)) = snd (exec_all (map untyped cs) o).
Proof.
  intros H.
  destruct (exec_all_same (fun ty => ty = float_types) passes_floats) with (cs := cs) (o := o) (ty := float_types)
    as (E1 & E2 & _); auto.
  - intros ty ->. reflexivity.
  - intros c ct p (H1 & H2 & H3 & H4 & H5 & H6) Hp.
    apply (configure_types_inv (fun ty => ty = float_types)); auto; intros ty ->.
    + intros X. now rewrite (H1 X).
    + intros X. now rewrite (H2 X).
    + intros X. now rewrite (H3 X).
    + intros X. now rewrite (H4 X).
    + intros X. now rewrite (H5 X).
    + intros X. now rewrite (H6 X).
  - intros c p Hp. apply (configure_types_inv (fun ty => ty = float_types)); auto; intros ty -> _; reflexivity.
  - intros y yd c fn ty _ ->. destruct fn; cbn; auto.
  - intros rt c fn ty _ ->. destruct fn; cbn; auto.
Qed.

(** Integer goals (and accelerations) make no difference for the Python integrators. *)
Theorem C98_integer_goals cs o :
  Forall starts_with_floats cs ->
  fst (fst (exec_all_typed cs (o, float_types))) = fst (exec_all (map untyped cs) o)
  /\ snd (exec_all_typed cs (o, float_types)) = snd (exec_all (map untyped cs) o).
Proof.
  intros H.
  destruct (exec_all_same state_float starts_with_floats) with (cs := cs) (o := o) (ty := float_types)
    as (E1 & E2 & _); auto.
  - intros ty (A & B & C & D). now repeat split.
  - intros c ct p (H1 & H2) Hp.
    apply (configure_types_inv state_float); auto; intros ty (A & B & C & D) X;
      repeat split; cbn; auto.
  - intros c p Hp. apply (configure_types_inv state_float); auto; intros ty (A & B & C & D) X;
      repeat split; cbn; auto.
  - intros y yd c fn ty Hf (A & B & C & D). destruct fn; cbn in *; auto; contradiction.
  - intros rt c fn ty Hf (A & B & C & D). destruct fn; cbn in *; auto; contradiction.
  - repeat split.
Qed.

(** ** Integer starts *)
Lemma grid_two run dt : 0 < dt -> 0 < run ->
  exists ts, arange 0 (run + dt) dt = 0 :: dt :: ts.
Proof.
  intros Hdt Hrun.
  destruct (arange_len_spec 0 (run + dt) dt Hdt ltac:(lra)) as [_ [_ H2]].
  assert (L : (2 <= arange_len 0 (run + dt) dt)%nat).
  { apply INR_le. apply Rnot_lt_le. intros HH. simpl in HH.
    assert (arange_len 0 (run + dt) dt < 2)%nat by (apply INR_lt; simpl; lra).
    assert (INR (arange_len 0 (run + dt) dt) <= 1)
      by (replace 1 with (INR 1) by reflexivity; apply le_INR; lia).
    assert (INR (arange_len 0 (run + dt) dt) * dt <= 1 * dt) by (apply Rmult_le_compat_r; lra).
    lra. }
  unfold arange. destruct (arange_len 0 (run + dt) dt) as [|[|n]]; [lia|lia|].
  cbn [seq map]. exists (map (fun i => 0 + INR i * dt) (seq 2 n)). simpl INR.
  f_equal; [ring|]. f_equal. ring.
Qed.

(** An integer start makes [open_loop] raise: a TypeError from the Python
    integrators, a ValueError from the compiled ones. *)
Theorem C98_integer_start rt coup fn o ty :
  ty_start_y ty = Int64 -> 0 < o_dt o -> 0 < o_execution_time o ->
  0 < match rt with Some x => x | None => o_execution_time o end ->
  open_loop_typed rt coup (Some fn) (o, ty) = Err (raised_by fn).
Proof.
  intros Hty Hdt Hex Hrun. unfold open_loop_typed, open_loop_run.
  destruct (grid_two _ _ Hdt Hrun) as [ts ->].
  cbn [run_steps].
  assert (E : forall s, to_res (run_step_function_typed fn (open_loop_arg_types ty)
     (open_loop_step_args o coup) 0 (o_dt o) s) = Err (raised_by fn)).
  { intros s. destruct fn; cbn [run_step_function_typed raised_by].
    - unfold rk4_typed. cbn [open_loop_arg_types at_current_y]. rewrite Hty. reflexivity.
    - unfold euler_typed. cbn [open_loop_arg_types at_current_y at_current_yd]. rewrite Hty.
      cbn [is_int orb open_loop_step_args a_goal_t a_start_t].
      destruct (Rle_dec (o_execution_time o) 0); [lra|].
      destruct (Rle_dec (o_dt o) 0); [lra|]. destruct (Rlt_dec 0 (o_dt o)); [reflexivity|lra].
    - unfold accepted_by_cython. cbn [open_loop_arg_types at_current_y]. rewrite Hty. reflexivity.
    - unfold accepted_by_cython. cbn [open_loop_arg_types at_current_y]. rewrite Hty. reflexivity. }
  rewrite E. reflexivity.
Qed.

(** An integer goal makes [open_loop] raise with the compiled (default) integrators. *)
Theorem C98_integer_goal_compiled rt coup fn o ty :
  ty_goal_y ty = Int64 -> fn = RK4_cython \/ fn = Euler_cython -> 0 < o_dt o ->
  0 < match rt with Some x => x | None => o_execution_time o end ->
  open_loop_typed rt coup (Some fn) (o, ty) = Err ValueError.
Proof.
  intros Hty Hfn Hdt Hrun. unfold open_loop_typed, open_loop_run.
  destruct (grid_two _ _ Hdt Hrun) as [ts ->]. cbn [run_steps].
  assert (E : accepted_by_cython (open_loop_arg_types ty) = false).
  { unfold accepted_by_cython. cbn [open_loop_arg_types at_current_y at_current_yd at_goal_y at_start_y
      at_start_yd at_start_ydd at_goal_yd at_goal_ydd]. rewrite Hty. cbn.
    now destruct (ty_start_y ty). }
  destruct Hfn as [-> | ->]; cbn [run_step_function_typed]; rewrite E; reflexivity.
Qed.

(** The first [step] from an integer start raises as well; the clock has already been
    advanced and the position is still the start. *)
Theorem C98_integer_start_step y yd coup fn o ty o' ty' r :
  ty_start_y ty = Int64 -> o_initialized o = false ->
  alen y = p_n_dims (o_base o) -> alen yd = p_n_dims (o_base o) ->
  0 < o_execution_time o -> 0 <= p_t (o_base o) -> 0 < o_dt o ->
  step_typed y yd coup (Some fn) (o, ty) = ((o', ty'), r) ->
  r = Err (raised_by fn)
  /\ p_t (o_base o') = p_t (o_base o) + o_dt o
  /\ p_current_y (o_base o') = p_start_y (o_base o).
Proof.
  intros Hty Hini Hy Hyd Hex Ht Hdt. unfold step_typed.
  rewrite Hy, Hyd, Nat.eqb_refl. cbn [negb]. cbv zeta. rewrite Hini.
  set (o1 := with_initialized true _).
  set (ty1 := ty_set_current (ty_start_y ty) (ty_start_yd ty) ty).
  assert (Ec : p_current_y (o_base o1) = p_start_y (o_base o)) by reflexivity.
  assert (Et : p_t (o_base o1) = p_t (o_base o) + o_dt o) by reflexivity.
  assert (Ei : is_int (at_current_y (step_arg_types ty1)) = true)
    by (unfold ty1; cbn; now rewrite Hty).
  set (a := step_args o1 coup _).
  assert (E : forall s, exists yd', run_step_function_typed fn (step_arg_types ty1) a
     (p_t (o_base o)) (p_t (o_base o) + o_dt o) s = ((fst s, yd'), Some (raised_by fn))).
  { intros [s1 s2]. destruct fn; cbn [run_step_function_typed raised_by].
    - unfold rk4_typed. rewrite Ei. eexists. reflexivity.
    - unfold euler_typed. rewrite Ei. cbn [orb].
      change (a_goal_t a) with (o_execution_time o). change (a_start_t a) with 0.
      destruct (Rle_dec (o_execution_time o) 0); [lra|].
      destruct (Rle_dec (p_t (o_base o) + o_dt o) 0); [lra|].
      destruct (Rlt_dec (p_t (o_base o)) (p_t (o_base o) + o_dt o)); [|lra].
      destruct (is_int (at_current_yd (step_arg_types ty1))); eexists; reflexivity.
    - unfold accepted_by_cython. rewrite Ei. eexists. reflexivity.
    - unfold accepted_by_cython. rewrite Ei. eexists. reflexivity. }
  destruct (E (aget (p_current_y (o_base o1)), aget (p_current_yd (o_base o1)))) as [yd' ->].
  intros EE. injection EE as <- <- <-. split; [reflexivity|]. split; [exact Et|].
  cbn [with_base o_base set_current p_current_y fst]. rewrite arr_eta. exact Ec.
Qed.

(** With the compiled integrators, an integer array in any of the six attributes of start
    and goal makes every [step] raise: the clock has advanced, the state has not. *)
Theorem C98_integer_array_step y yd coup fn o ty o' ty' r :
  In Int64 [ty_start_y ty; ty_start_yd ty; ty_start_ydd ty; ty_goal_y ty; ty_goal_yd ty; ty_goal_ydd ty] ->
  fn = RK4_cython \/ fn = Euler_cython -> o_initialized o = true ->
  alen y = p_n_dims (o_base o) -> alen yd = p_n_dims (o_base o) ->
  step_typed y yd coup (Some fn) (o, ty) = ((o', ty'), r) ->
  r = Err ValueError /\ p_t (o_base o') = p_t (o_base o) + o_dt o
  /\ p_current_y (o_base o') = p_current_y (o_base o) /\ p_current_yd (o_base o') = p_current_yd (o_base o).
Proof.
  intros Hin Hfn Hini Hy Hyd. unfold step_typed. rewrite Hy, Hyd, Nat.eqb_refl. cbn [negb]. cbv zeta. rewrite Hini.
  assert (E : accepted_by_cython (step_arg_types ty) = false).
  { unfold accepted_by_cython, step_arg_types. cbn.
    destruct ty as [t1 t2 t3 t4 t5 t6 t7 t8]; cbn in *.
    destruct Hin as [->|[->|[->|[->|[->|[->|[]]]]]]]; cbn; rewrite ?Bool.orb_true_r; reflexivity. }
  assert (ER : forall a t0 t1 s, run_step_function_typed fn (step_arg_types ty) a t0 t1 s = (s, Some ValueError)).
  { intros. destruct Hfn as [-> | ->]; cbn [run_step_function_typed]; rewrite E; reflexivity. }
  rewrite ER. intros EE. injection EE as <- <- <-. split; [reflexivity|]. split; [reflexivity|].
  cbn. rewrite !arr_eta. auto.
Qed.

(** ** Integer demonstrations *)

(** After [reset] the state is a copy of the start, so that a step from an integer start
    raises whatever happened before. *)
Theorem C98_reset_integer_start y yd coup fn o ty o' ty' r :
  ty_start_y ty = Int64 ->
  alen y = p_n_dims (o_base o) -> alen yd = p_n_dims (o_base o) ->
  0 < o_execution_time o -> 0 < o_dt o ->
  step_typed y yd coup (Some fn) (fst (exec_typed (TCall CReset) (o, ty))) = ((o', ty'), r) ->
  r = Err (raised_by fn) /\ p_t (o_base o') = o_dt o
  /\ p_current_y (o_base o') = p_start_y (o_base o).
Proof.
  intros Hty Hy Hyd Hex Hdt E.
  destruct (o_initialized o) eqn:Hini.
  2: { cbn [exec_typed fst] in E. unfold reset_typed in E. cbn [fst snd] in E.
    destruct (C98_integer_start_step y yd coup fn (dmp_reset o)
      (ty_set_current (ty_start_y ty) (ty_start_yd ty) ty) o' ty' r) as (H1 & H2 & H3); auto.
    - cbn. lra.
    - split; [exact H1|]. split; [rewrite H2; cbn; ring|]. rewrite H3. reflexivity. }
  revert E. cbn [exec_typed fst]. unfold reset_typed. cbn [fst snd]. unfold step_typed.
  change (p_n_dims (o_base (dmp_reset o))) with (p_n_dims (o_base o)).
  rewrite Hy, Hyd, Nat.eqb_refl. cbn [negb]. cbv zeta.
  change (o_initialized (dmp_reset o)) with (o_initialized o). rewrite Hini.
  change (p_t (o_base (dmp_reset o))) with 0. change (o_dt (dmp_reset o)) with (o_dt o).
  set (o1 := with_base _ (dmp_reset o)).
  set (ty1 := ty_set_current (ty_start_y ty) (ty_start_yd ty) ty).
  assert (Ec : p_current_y (o_base o1) = p_start_y (o_base o)) by reflexivity.
  assert (Ei : is_int (at_current_y (step_arg_types ty1)) = true)
    by (unfold ty1; cbn; now rewrite Hty).
  set (a := step_args o1 coup _).
  assert (E : forall s, exists yd', run_step_function_typed fn (step_arg_types ty1) a
     0 (0 + o_dt o) s = ((fst s, yd'), Some (raised_by fn))).
  { intros [s1 s2]. destruct fn; cbn [run_step_function_typed raised_by].
    - unfold rk4_typed. rewrite Ei. eexists. reflexivity.
    - unfold euler_typed. rewrite Ei. cbn [orb].
      change (a_goal_t a) with (o_execution_time o). change (a_start_t a) with 0.
      destruct (Rle_dec (o_execution_time o) 0); [lra|].
      destruct (Rle_dec (0 + o_dt o) 0); [lra|].
      destruct (Rlt_dec 0 (0 + o_dt o)); [|lra].
      destruct (is_int (at_current_yd (step_arg_types ty1))); eexists; reflexivity.
    - unfold accepted_by_cython. rewrite Ei. eexists. reflexivity.
    - unfold accepted_by_cython. rewrite Ei. eexists. reflexivity. }
  destruct (E (aget (p_current_y (o_base o1)), aget (p_current_yd (o_base o1)))) as [yd' ->].
  intros EE. injection EE as <- <- <-. split; [reflexivity|].
  split; [cbn; ring|].
  cbn [with_base o_base set_current p_current_y fst]. rewrite arr_eta. exact Ec.
Qed.

(** A DMP that has learned from a demonstration of integers has a goal of integers, too: replacing
    the start by an array of floats does not help the compiled integrators. *)
Theorem C98_learned_goal junk regress dm lam allow o ty o1 :
  imitate_typed Int64 junk regress dm lam allow (o, ty) = (o1, Ok tt) ->
  0 < o_dt o -> 0 < o_execution_time o ->
  forall start o2 rt coup fn, 0 < match rt with Some x => x | None => o_execution_time o end ->
     configure_method_typed {| c_t := None; c_start_y := Some start; c_start_yd := None; c_start_ydd := None;
        c_goal_y := None; c_goal_yd := None; c_goal_ydd := None |} float_configure o1 = (o2, Ok tt) ->
     fn = RK4_cython \/ fn = Euler_cython ->
     open_loop_typed rt coup (Some fn) o2 = Err ValueError.
Proof.
  intros E Hdt Hx. unfold imitate_typed in E.
  destruct (dmp_imitate_typed _ _ _ _ _ _ _ _ _ _ _ _ _) as [[[w sy] gy]|e]; [|discriminate].
  destruct (negb (Nat.eqb (d_dims dm) (p_n_dims (o_base o)))) eqn:Ed; [discriminate|].
  apply Bool.negb_false_iff in Ed.
  unfold configure_method_typed, configure_typed in E.
  cbn [c_t c_start_y c_start_yd c_start_ydd c_goal_y c_goal_yd c_goal_ydd fst snd configure_block_typed
       and_then_typed] in E.
  unfold check_1d_array_length in E. cbn [alen] in E.
  change (p_n_dims (o_base (with_forcing_term (set_ft_weights w (o_forcing_term o)) o)))
    with (p_n_dims (o_base o)) in E.
  rewrite Ed in E. cbn -[Nat.eqb] in E. rewrite Ed in E. cbn -[Nat.eqb] in E.
  injection E as <-.
  intros start o2 rt coup fn Hr E2 Hfn.
  unfold configure_method_typed, configure_typed in E2. cbn -[Nat.eqb] in E2.
  unfold check_1d_array_length in E2.
  destruct (Nat.eqb (alen start) (p_n_dims (o_base o))) eqn:Es; cbn -[Nat.eqb] in E2; [|discriminate].
  injection E2 as <-. apply C98_integer_goal_compiled; auto.
Qed.

(** A slow demonstration (all velocities below 1 per unit of time) of integers is
    learned as if it stood still at each of its points: velocities and accelerations
    are rounded to zero. *)
Theorem C98_slow_integer_demonstration n T Y al be az allow sm :
  (2 <= n)%nat ->
  (forall t d, (t < n)%nat -> Rabs (demo_velocity n T Y allow t d) < 1) ->
  exists df, determine_forces_typed Int64 n T Y al be az allow sm = Ok df
  /\ forall t d, (t < n)%nat ->
       df_Yd df t d = 0 /\ df_Ydd df t d = 0
       /\ df_F df t d = - al d * (be d * (Y (n - 1)%nat d - Y t d)
            - (if sm then be d * (Y (n - 1)%nat d - Y 0%nat d)
                            * phase (T t) az (T (n - 1)%nat) (T 0%nat) else 0)).
Proof.
  intros Hn Hv. unfold determine_forces_typed.
  destruct (Nat.ltb n 2) eqn:E; [apply Nat.ltb_lt in E; lia|]. eexists. split; [reflexivity|].
  intros t d Ht. cbn [df_Yd df_Ydd df_F].
  assert (V : forall t, (t < n)%nat -> demo_velocity_typed Int64 n T Y allow t d = 0).
  { intros t' Ht'. unfold demo_velocity_typed. apply store_small, Hv, Ht'. }
  assert (A : demo_acceleration_typed Int64 n T (demo_velocity_typed Int64 n T Y allow) t d = 0).
  { unfold demo_acceleration_typed, demo_acceleration.
    destruct (Nat.eqb t (n - 1)) eqn:Et; [apply store_zero|]. apply Nat.eqb_neq in Et.
    assert (G : np_gradient n (fun k => demo_velocity_typed Int64 n T Y allow k d) t = 0).
    { unfold np_gradient. destruct (Nat.eqb t 0) eqn:E0.
      - rewrite !V by lia. ring.
      - apply Nat.eqb_neq in E0. destruct (Nat.eqb t (n - 1)) eqn:E1.
        + rewrite !V by lia. ring.
        + rewrite !V by lia. lra. }
    rewrite G. unfold Rdiv. rewrite Rmult_0_l. apply store_zero. }
  rewrite A, (V t Ht). split; [reflexivity|]. split; [reflexivity|].
  destruct sm; ring.
Qed.

(** When all velocities and accelerations happen to be integers nothing is lost. *)
Theorem C98_integer_velocities n T Y al be az allow sm :
  (2 <= n)%nat ->
  (forall t d, exists z, demo_velocity n T Y allow t d = IZR z) ->
  (forall t d, exists z, demo_acceleration n T (demo_velocity n T Y allow) t d = IZR z) ->
  determine_forces_typed Int64 n T Y al be az allow sm = determine_forces n T Y al be az allow sm.
Proof.
  intros Hn Hv Ha. unfold determine_forces_typed, determine_forces.
  assert (V : demo_velocity_typed Int64 n T Y allow = demo_velocity n T Y allow).
  { extensionality t. extensionality d. unfold demo_velocity_typed.
    destruct (Hv t d) as [z ->]. apply store_int. }
  rewrite V.
  assert (A : demo_acceleration_typed Int64 n T (demo_velocity n T Y allow)
              = demo_acceleration n T (demo_velocity n T Y allow)).
  { extensionality t. extensionality d. unfold demo_acceleration_typed.
    destruct (Ha t d) as [z ->]. apply store_int. }
  rewrite A. reflexivity.
Qed.

(** In general the forces that are learned from the same numbers differ. *)
Theorem C98_integer_demonstration_refuted :
  exists n T (Y : nat -> vec) al be az df df',
    (forall t d, exists z, Y t d = IZR z)
    /\ determine_forces_typed Int64 n T Y al be az false false = Ok df
    /\ determine_forces_typed Float64 n T Y al be az false false = Ok df'
    /\ df_F df 0%nat 0%nat = - 25 /\ df_F df' 0%nat 0%nat = - 23.
Proof.
  exists 3%nat, INR, (fun t _ => if Nat.eqb t 2 then 1 else 0), (fun _ => 25), (fun _ => 1), 1.
  unfold determine_forces_typed. cbn [Nat.ltb Nat.leb]. eexists. eexists.
  split; [|split; [reflexivity|split; [reflexivity|]]].
  - intros t d. destruct (Nat.eqb t 2); [exists 1%Z|exists 0%Z]; reflexivity.
  - cbn [df_F].
    assert (V0 : demo_velocity_typed Int64 3 INR (fun t _ => if Nat.eqb t 2 then 1 else 0) false 0%nat 0%nat = 0).
    { unfold demo_velocity_typed. apply store_small. unfold demo_velocity, np_gradient. simpl.
      replace ((0 - 0) / (1 - 0)) with 0 by lra. rewrite Rabs_R0. lra. }
    assert (V1 : demo_velocity_typed Int64 3 INR (fun t _ => if Nat.eqb t 2 then 1 else 0) false 1%nat 0%nat = 0).
    { unfold demo_velocity_typed. apply store_small. unfold demo_velocity, np_gradient. simpl.
      replace ((1 - 0) / 2 / ((1 + 1 - 0) / 2)) with (/ 2) by lra. rewrite Rabs_pos_eq; lra. }
    assert (A : demo_acceleration_typed Int64 3 INR
       (demo_velocity_typed Int64 3 INR (fun t _ => if Nat.eqb t 2 then 1 else 0) false) 0%nat 0%nat = 0).
    { unfold demo_acceleration_typed, demo_acceleration, np_gradient.
      cbn [Nat.eqb Nat.sub]. rewrite V0, V1. simpl INR.
      replace ((0 - 0) / (1 - 0)) with 0 by lra. apply store_zero. }
    assert (V0' : demo_velocity_typed Float64 3 INR (fun t _ => if Nat.eqb t 2 then 1 else 0) false 0%nat 0%nat = 0).
    { unfold demo_velocity_typed, store, demo_velocity, np_gradient. simpl. lra. }
    assert (V1' : demo_velocity_typed Float64 3 INR (fun t _ => if Nat.eqb t 2 then 1 else 0) false 1%nat 0%nat = / 2).
    { unfold demo_velocity_typed, store, demo_velocity, np_gradient. simpl. lra. }
    assert (A' : demo_acceleration_typed Float64 3 INR
       (demo_velocity_typed Float64 3 INR (fun t _ => if Nat.eqb t 2 then 1 else 0) false) 0%nat 0%nat = / 2).
    { unfold demo_acceleration_typed, demo_acceleration, np_gradient, store.
      cbn [Nat.eqb Nat.sub]. rewrite V0', V1'. simpl INR. lra. }
    rewrite A, V0, A', V0'. cbn [Nat.sub Nat.eqb]. simpl INR. split; lra.
Qed.

(** After learning from integers the movement cannot be executed. *)
Theorem C98_learned_from_integers j reg dm lam allow o ty o' ty' rt coup fn :
  imitate_typed Int64 j reg dm lam allow (o, ty) = ((o', ty'), Ok tt) ->
  0 < o_dt o -> 0 < o_execution_time o ->
  0 < match rt with Some x => x | None => o_execution_time o end ->
  open_loop_typed rt coup (Some fn) (o', ty') = Err (raised_by fn).
Proof.
  intros E Hdt Hex Hrun.
  assert (H : ty_start_y ty' = Int64 /\ o_dt o' = o_dt o /\ o_execution_time o' = o_execution_time o).
  { unfold imitate_typed in E.
    destruct (dmp_imitate_typed _ _ _ _ _ _ _ _ _ _ _ _ _) as [[[w s] g]|e]; [|discriminate].
    destruct (negb _) eqn:Ed; [discriminate|].
    unfold configure_method_typed, configure_typed, configure_block_typed, check_1d_array_length in E.
    cbn -[Nat.eqb] in E.
    apply negb_false_iff in Ed. rewrite Ed in E. cbn -[Nat.eqb] in E. rewrite Ed in E.
    cbn in E. injection E as <- <-. cbn. auto. }
  destruct H as (H1 & H2 & H3).
  apply C98_integer_start; try rewrite H2; try rewrite H3; auto.
Qed.

(** ** The property fails in general: two histories that pass the same numbers to the
    same methods, once as floats and once as integers, are distinguishable, for every
    object whose movement takes time. *)
Theorem C98_same_results_refuted o :
  0 < o_dt o -> 0 < o_execution_time o ->
  exists cs cs', map untyped cs = map untyped cs' /\ Forall well_typed cs /\ Forall well_typed cs'
    /\ snd (exec_all_typed cs (o, float_types)) <> snd (exec_all_typed cs' (o, float_types)).
Proof.
  intros Hdt Hex.
  set (c := {| c_t := None; c_start_y := Some (zeros (p_n_dims (o_base o))); c_start_yd := None;
               c_start_ydd := None; c_goal_y := None; c_goal_yd := None; c_goal_ydd := None |}).
  set (cti := {| ct_start_y := Int64; ct_start_yd := Float64; ct_start_ydd := Float64;
                 ct_goal_y := Float64; ct_goal_yd := Float64; ct_goal_ydd := Float64 |}).
  exists [TConfigure c float_configure; TCall (COpenLoop None None (Some RK4))],
         [TConfigure c cti; TCall (COpenLoop None None (Some RK4))].
  split; [reflexivity|].
  assert (Hz : forall i, exists z, aget (zeros (p_n_dims (o_base o))) i = IZR z)
    by (intros; now exists 0%Z).
  split; [|split].
  - repeat constructor; cbn; unfold can_hold; intros; discriminate.
  - repeat constructor; cbn; unfold can_hold; auto; intros; discriminate.
  - cbn [exec_all_typed exec_typed].
    unfold configure_method_typed, configure_typed, configure_block_typed, check_1d_array_length.
    cbn -[Nat.eqb open_loop_typed]. rewrite !Nat.eqb_refl. cbn -[open_loop_typed].
    set (o1 := with_base _ o).
    pose proof (C98_integer_start None None RK4 o1 (ty_set_start_y Int64 float_types)
      eq_refl Hdt Hex Hex) as EI.
    cbn -[open_loop_typed] in EI. cbn -[open_loop_typed]. rewrite EI.
    rewrite open_loop_typed_same by (intros f Hf; injection Hf as <-; cbn; auto).
    unfold dmp_open_loop, open_loop_run.
    destruct (grid_two (o_execution_time o1) (o_dt o1) Hdt Hex) as [ts ->].
    cbn [run_steps run_step_function].
    assert (R : forall ts t s, exists l, run_steps (fun lt t s => Ok (dmp_step_rk4 (open_loop_step_args o1 None) lt t s)) t ts s = Ok l).
    { induction ts0 as [|t1 ts1 IH]; intros t s; cbn [run_steps]; [now exists []|].
      cbn [bind]. destruct (IH t1 (dmp_step_rk4 (open_loop_step_args o1 None) t t1 s)) as [l ->].
      now eexists. }
    cbn [bind]. destruct (R ts (o_dt o1) (dmp_step_rk4 (open_loop_step_args o1 None) 0 (o_dt o1)
       (aget (p_start_y (o_base o1)), vzero))) as [l El].
    unfold run_step_function. rewrite El. cbn. discriminate.
Qed.

(** ** Spring-damper systems *)
Theorem C98_spring_damper_floats run_t coup o :
  sd_open_loop_typed Float64 run_t coup o = sd_open_loop run_t coup o.
Proof. reflexivity. Qed.

Theorem C98_spring_damper_integer_start run_t coup o :
  0 < s_dt o -> 0 < run_t -> sd_open_loop_typed Int64 run_t coup o = Err TypeError.
Proof.
  intros Hdt Hrun. unfold sd_open_loop_typed, open_loop_run.
  destruct (grid_two _ _ Hdt Hrun) as [ts ->]. cbn [run_steps].
  unfold spring_damper_step_typed at 1. cbn [is_int].
  destruct (Rlt_dec 0 (s_dt o)); [reflexivity|lra].
Qed.

Theorem C98_orientation_floats run_t coup o :
  sdo_open_loop_typed Float64 run_t coup o = sdo_open_loop run_t coup o.
Proof.
  unfold sdo_open_loop_typed, sdo_open_loop, spring_damper_open_loop_quaternion. f_equal.
  assert (E : spring_damper_step_quaternion_typed Float64 (quat_of (aget (p_goal_y (s_base o))))
     (s_k o) (s_c o) coup (s_int_dt o)
     = spring_damper_step_quaternion (quat_of (aget (p_goal_y (s_base o)))) (s_k o) (s_c o) coup None (s_int_dt o)).
  { extensionality lt. extensionality t. extensionality s.
    unfold spring_damper_step_quaternion_typed, spring_damper_step_quaternion.
    assert (B : forall g k c, sdq_body_typed Float64 g k c coup = sdq_body g k c coup None).
    { intros g k c. extensionality ct. extensionality h. extensionality x.
      unfold sdq_body_typed, q_store, store. cbv zeta.
      destruct (sdq_body g k c coup None ct h x) as [[a b c0 d] w]. reflexivity. }
    now rewrite B. }
  now rewrite E.
Qed.

Lemma int_quat_iff q : int_quat q <-> integer_quat q.
Proof.
  split.
  - intros H. exists (Ztrunc (qw q)), (Ztrunc (qx q)), (Ztrunc (qy q)), (Ztrunc (qz q)).
    symmetry. exact H.
  - intros (a & b & c & d & ->). unfold int_quat, q_store. cbn [qw qx qy qz]. now rewrite !store_int.
Qed.

Lemma integer_hamilton p q : integer_quat p -> integer_quat q -> integer_quat (hamilton p q).
Proof.
  intros (a & b & c & d & ->) (a' & b' & c' & d' & ->).
  unfold hamilton. cbn [qw qx qy qz].
  rewrite <- !mult_IZR, <- !minus_IZR, <- !plus_IZR. repeat eexists.
Qed.

Lemma integer_conj q : integer_quat q -> integer_quat (cy_conj q).
Proof.
  intros (a & b & c & d & ->). unfold cy_conj. cbn [qw qx qy qz].
  rewrite <- !opp_IZR. repeat eexists.
Qed.

Lemma unit_conj q : unit_quat q -> unit_quat (cy_conj q).
Proof. unfold unit_quat, cy_conj. cbn [qw qx qy qz]. intros H. nra. Qed.

(** From an integer start every orientation is one of the eight integer quaternions of
    length 1 or the zero quaternion; the movement never comes near any other
    orientation, whatever the goal, the gains and the coupling are. *)
Theorem C98_orientation_integer_start run_t coup o ts ys :
  unit_quat (quat_of (aget (p_start_y (s_base o)))) ->
  integer_quat (quat_of (aget (p_start_y (s_base o)))) ->
  sdo_open_loop_typed Int64 run_t coup o = Ok (ts, ys) ->
  Forall (fun q => (unit_quat q /\ integer_quat q) \/ q = Q4 0 0 0 0) ys.
Proof.
  intros Hu Hi E. unfold sdo_open_loop_typed in E.
  destruct (run_on_grid _ _ _ _ _) as [[tr lr]|] eqn:Er; [|discriminate].
  cbn [rmap fst snd] in E. injection E as <- <-.
  apply (run_on_grid_inv (fun s => (unit_quat (fst s) /\ integer_quat (fst s)) \/ fst s = Q4 0 0 0 0)) in Er.
  - apply Forall_forall. intros q Hq. apply in_map_iff in Hq. destruct Hq as (s & <- & Hs).
    rewrite Forall_forall in Er. apply Er, Hs.
  - intros lt t s s' Hs Est. unfold spring_damper_step_quaternion_typed in Est.
    revert Hs Est. apply (substeps_inv (fun s => (unit_quat (fst s) /\ integer_quat (fst s)) \/ fst s = Q4 0 0 0 0)).
    intros ct h [y w] [[H1 H2]|H1]; cbn [fst] in *.
    + unfold sdq_body_typed. cbv zeta. cbn [fst].
      pose proof (sdq_body_unit (quat_of (aget (p_goal_y (s_base o)))) (s_k o)
        (default_critically_damped_c (s_c o) (s_k o)) coup None ct h (y, w) H1) as Hb.
      destruct (truncated_unit _ Hb) as [Hq|Hq].
      * left. rewrite Hq. split; [exact Hb|]. now apply int_quat_iff.
      * right. exact Hq.
    + right. rewrite H1. apply body_zero.
  - left. auto.
Qed.

(** When the goal differs from the start, the very first sub-step loses the
    orientation: without a coupling term all orientations after the first are zero. *)
Theorem C98_orientation_lost run_t o :
  let start := quat_of (aget (p_start_y (s_base o))) in
  let e := q_error Python (quat_of (aget (p_goal_y (s_base o)))) start in
  let h := Rmin (s_dt o) (s_int_dt o) in
  unit_quat start -> integer_quat start ->
  0 < s_dt o -> 0 < s_int_dt o -> 0 < run_t -> 0 < s_k o ->
  0 < v3_norm e -> s_k o * h ^ 2 * v3_norm e < PI ->
  exists ts n, sdo_open_loop_typed Int64 run_t None o = Ok (0 :: s_dt o :: ts, start :: repeat (Q4 0 0 0 0) (S n)).
Proof.
  intros start e h Hu Hi Hdt Hint Hrun Hk He Hs.
  set (g := quat_of (aget (p_goal_y (s_base o)))) in *.
  set (c := default_critically_damped_c (s_c o) (s_k o)).
  set (bd := sdq_body_typed Int64 g (s_k o) c None).
  (* a zero state stays zero, and steps succeed *)
  assert (Z : forall lt t s, lt <= t -> fst s = q_zero ->
     exists s', spring_damper_step_quaternion_typed Int64 g (s_k o) (s_c o) None (s_int_dt o) lt t s = Ok s'
       /\ fst s' = q_zero).
  { intros lt t s Hlt Hz. unfold spring_damper_step_quaternion_typed. fold c bd.
    destruct (substeps_tiles lt t (s_int_dt o) Hint Hlt) as (l & _ & El).
    specialize (El _ bd s). eexists. split; [exact El|].
    revert El. generalize (exec_substeps bd l s). intros s'. revert Hz.
    apply (substeps_inv (fun s => fst s = q_zero)). intros ct d [y w] Hy. cbn [fst] in Hy. subst y.
    apply body_zero. }
  assert (First : exists s', spring_damper_step_quaternion_typed Int64 g (s_k o) (s_c o) None (s_int_dt o)
     0 (s_dt o) (start, v3_zero) = Ok s' /\ fst s' = q_zero).
  { unfold spring_damper_step_quaternion_typed. fold c bd.
    destruct (substeps_tiles 0 (s_dt o) (s_int_dt o) Hint ltac:(lra)) as (l & _ & El).
    specialize (El _ bd (start, v3_zero)). eexists. split; [exact El|].
    revert El. generalize (exec_substeps bd l (start, v3_zero)). intros s'.
    set (F := substeps_fuel 0 (s_dt o) (s_int_dt o)). clearbody F. destruct F as [|F]; cbn [substeps].
    { destruct (Rlt_dec 0 (s_dt o)); [discriminate|lra]. }
    destruct (Rlt_dec 0 (s_dt o)); [|lra].
    set (d := if Rlt_dec _ _ then _ else _).
    assert (Ed : d = h).
    { unfold d, h, Rmin. destruct (Rlt_dec _ _), (Rle_dec _ _); lra. }
    rewrite Ed.
    apply (substeps_inv (fun s => fst s = q_zero)).
    - intros ct d' [y w] Hy. cbn [fst] in Hy. subst y. apply body_zero.
    - (* first sub-step *)
      unfold bd, sdq_body_typed. cbv zeta. cbn [fst].
      unfold sdq_body. cbn [fst snd]. fold e. unfold pr_mul.
      set (v := v3_scale h _).
      assert (Ev : v = v3_scale (s_k o * h ^ 2) e).
      { unfold v. apply v3_eq; simpl; ring. }
      assert (Hh : 0 < h) by (unfold h, Rmin; destruct (Rle_dec _ _); lra).
      assert (Hn : v3_norm v = s_k o * h ^ 2 * v3_norm e).
      { rewrite Ev, v3_norm_scale, Rabs_pos_eq; [reflexivity|]. nra. }
      set (th := v3_norm v). assert (Hth : 0 < th < PI).
      { unfold th. rewrite Hn. split; [|exact Hs].
        apply Rmult_lt_0_compat; [|exact He]. apply Rmult_lt_0_compat; [exact Hk|]. nra. }
      destruct (v3_polar v) as (u & Huu & Ep). fold th in Ep.
      assert (Ex : pr_exp v = axis_quat u th).
      { rewrite pr_exp_small by (fold th; lra). rewrite Ep. now apply cy_exp_axis. }
      assert (Hw : 0 < cos (th / 2) < 1).
      { split; [apply cos_gt_0; lra|]. rewrite <- cos_0. apply cos_decreasing_1; lra. }
      assert (Hq : unit_quat (hamilton (pr_exp v) start)).
      { apply hamilton_unit; [|exact Hu]. rewrite Ex. now apply axis_quat_unit. }
      destruct (truncated_unit _ Hq) as [Hint'|]; [|assumption]. exfalso.
      apply int_quat_iff in Hint'.
      assert (Hp : integer_quat (pr_exp v)).
      { replace (pr_exp v) with (hamilton (hamilton (pr_exp v) start) (cy_conj start)).
        - apply integer_hamilton; [exact Hint'|]. now apply integer_conj.
        - rewrite hamilton_assoc, conj_r by exact Hu. apply hamilton_one_r. }
      rewrite Ex in Hp. destruct Hp as (a & b & c' & d' & Eq). injection Eq as Eq _ _ _.
      rewrite Eq in Hw. destruct Hw as [W1 W2]. apply lt_IZR in W1, W2. lia. }
  assert (Rest : forall (rest : list R) t s, StronglySorted Rle (t :: rest) -> fst s = q_zero ->
     exists l, run_steps (spring_damper_step_quaternion_typed Int64 g (s_k o) (s_c o) None (s_int_dt o)) t rest s = Ok l
       /\ map fst l = repeat q_zero (length rest)).
  { induction rest as [|t1 rest IH]; intros t s Hsort Hz; cbn [run_steps]; [now exists []|].
    inversion Hsort as [|? ? S1 S2]; subst. inversion S2 as [|? ? S3 S4]; subst.
    destruct (Z t t1 s S3 Hz) as (s' & -> & Hz'). cbn [bind].
    destruct (IH t1 s' S1 Hz') as (l & -> & El). cbn [bind]. eexists. split; [reflexivity|].
    cbn [map length repeat]. now rewrite Hz', El. }
  unfold sdo_open_loop_typed, run_on_grid. fold g start.
  destruct (grid_two _ _ Hdt Hrun) as [ts Hts]. rewrite Hts.
  assert (Sorted : StronglySorted Rle (s_dt o :: ts)).
  { assert (SS : forall n k, StronglySorted Rle (map (fun i => 0 + INR i * s_dt o) (seq k n))).
    { induction n as [|n IH]; intros k; cbn [seq map]; constructor; [apply IH|].
      apply Forall_forall. intros x Hx. apply in_map_iff in Hx. destruct Hx as (i & <- & Hin).
      apply in_seq in Hin. assert (INR k <= INR i) by (apply le_INR; lia). nra. }
    specialize (SS (arange_len 0 (run_t + s_dt o) (s_dt o)) 0%nat).
    unfold arange in Hts. rewrite Hts in SS. now inversion SS. }
  cbn [run_steps]. destruct First as (s1 & -> & Hs1). cbn [bind].
  destruct (Rest ts (s_dt o) s1 Sorted Hs1) as (l & -> & El). cbn [bind rmap fst snd map].
  exists ts, (length ts). rewrite Hs1, El. reflexivity.
Qed.

(** ** Concrete cases *)
Definition ex_orientation : spring_damper :=
  let o := sdo_new (1/100) 1 None (1/1000) in
  sd_with (set_goal_y {| alen := 4; aget := vec_of_quat (axis_quat ex_axis_x (PI / 2)) |}
             (set_start_y {| alen := 4; aget := vec_of_quat q_one |} (s_base o))) false o.

(** A quarter turn about x from the identity, given as integers: lost. *)
Example C98_orientation_satisfiable : exists ts n,
  sdo_open_loop_typed Int64 1 None ex_orientation
  = Ok (0 :: 1/100 :: ts, q_one :: repeat (Q4 0 0 0 0) (S n)).
Proof.
  pose proof PI_RGT_0 as Hpi.
  assert (Ee : q_error Python (axis_quat ex_axis_x (PI / 2)) q_one = V3 (PI / 2) 0 0).
  { unfold q_error. replace (i_mul Python (axis_quat ex_axis_x (PI / 2)) (i_conj Python q_one))
      with (axis_quat ex_axis_x (PI / 2)); [apply ex_log|].
    cbn [i_mul i_conj]. unfold pr_mul, pr_conj, pr_check_quaternion.
    assert (N : q_norm q_one = 1).
    { unfold q_norm, q_one. cbn [qw qx qy qz]. replace (1 * 1 + 0 * 0 + 0 * 0 + 0 * 0) with 1 by ring.
      apply sqrt_1. }
    rewrite N. destruct (Req_EM_T 1 0); [lra|].
    replace (cy_conj (q_divs q_one 1)) with q_one; [symmetry; apply hamilton_one_r|].
    unfold cy_conj, q_divs, q_one. cbn [qw qx qy qz]. f_equal; field. }
  assert (En : v3_norm (V3 (PI / 2) 0 0) = PI / 2).
  { unfold v3_norm. cbn [v3x v3y v3z].
    replace (PI / 2 * (PI / 2) + 0 * 0 + 0 * 0) with ((PI / 2) * (PI / 2)) by ring.
    apply sqrt_square. lra. }
  apply (C98_orientation_lost 1 ex_orientation); cbn -[q_error axis_quat v3_norm Rmin].
  - unfold unit_quat, quat_of, vec_of_quat, q_one. cbn. ring.
  - exists 1%Z, 0%Z, 0%Z, 0%Z. reflexivity.
  - lra.
  - lra.
  - lra.
  - lra.
  - change (0 < v3_norm (q_error Python (axis_quat ex_axis_x (PI / 2)) q_one)). rewrite Ee, En. lra.
  - change (1 * Rmin (1/100) (1/1000) ^ 2
            * v3_norm (q_error Python (axis_quat ex_axis_x (PI / 2)) q_one) < PI).
    rewrite Ee, En.
    assert (Rmin (1/100) (1/1000) = 1/1000) as -> by (unfold Rmin; destruct (Rle_dec _ _); lra). lra.
Qed.

(** A constructed DMP, configured with an integer start, then executed with the
    default integrator. *)
Example C98_satisfiable : forall o, ex_new 2 25 (25/4) = Ok o ->
  let c := {| c_t := None; c_start_y := Some {| alen := 2; aget := fun i => INR i |};
              c_start_yd := None; c_start_ydd := None; c_goal_y := None; c_goal_yd := None;
              c_goal_ydd := None |} in
  let ct := {| ct_start_y := Int64; ct_start_yd := Float64; ct_start_ydd := Float64;
               ct_goal_y := Float64; ct_goal_yd := Float64; ct_goal_ydd := Float64 |} in
  well_typed (TConfigure c ct)
  /\ snd (exec_all_typed [TConfigure c ct; TCall (COpenLoop None None (Some RK4_cython))] (o, float_types))
     = [ONone; ORaised ValueError].
Proof.
  intros o E c ct. destruct (ex_new_ok 2 25 (25/4)) as (f & o' & E' & _ & Eo).
  rewrite E in E'. injection E' as <-. split.
  - repeat split; cbn; auto. intros _ i. exists (Z.of_nat i). apply INR_IZR_INZ.
  - cbn [exec_all_typed exec_typed].
    unfold configure_method_typed, configure_typed, configure_block_typed, check_1d_array_length.
    rewrite Eo. cbn -[open_loop_typed]. rewrite C98_integer_start; cbn; auto; lra.
Qed.

(** The demonstration 0, 0, 1 at the times 0, 1, 2 is slow. *)
Example C98_slow_satisfiable :
  forall t d, (t < 3)%nat ->
  Rabs (demo_velocity 3 INR (fun t _ => if Nat.eqb t 2 then 1 else 0) false t d) < 1.
Proof.
  intros t d Ht. unfold demo_velocity, np_gradient.
  destruct t as [|[|[|t]]]; [| | |lia]; cbn [Nat.eqb Nat.sub Nat.add negb andb]; simpl INR.
  - replace ((0 - 0) / (1 - 0)) with 0 by lra. rewrite Rabs_R0. lra.
  - replace ((1 - 0) / 2 / ((1 + 1 - 0) / 2)) with (/ 2) by lra. rewrite Rabs_pos_eq; lra.
  - rewrite Rabs_R0. lra.
Qed.
