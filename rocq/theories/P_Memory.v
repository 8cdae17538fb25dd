(** Proofs for C127: objects up to the entries of [centers] and [widths] that no
    numpy array has. *)
From Coq Require Import Reals List Arith Lia Lra Bool FunctionalExtensionality.
From Verif Require Import M_Prelude M_Canonical M_Forcing M_Dmp M_Base M_DmpObject M_FinalVelocity
  M_SpringDamper M_Quaternion M_Cartesian M_Dual M_StateFollowing M_StateObject
  S_Attributes S_Memory P_Forcing P_Loops.
Import ListNotations.
Open Scope R_scope.
Set Bullet Behavior "Strict Subproofs".

Definition clip (n : nat) (v : vec) : vec := fun i => if Nat.ltb i n then v i else 0.
Lemma clip_clip n v : clip n (clip n v) = clip n v.
Proof. apply functional_extensionality; intros i. unfold clip. now destruct (Nat.ltb i n). Qed.
Lemma clip_in n v i : (i < n)%nat -> clip n v i = v i.
Proof. intros H. unfold clip. now rewrite (proj2 (Nat.ltb_lt i n) H). Qed.
Lemma clip_eq n v v' : (forall i, (i < n)%nat -> v i = v' i) -> clip n v = clip n v'.
Proof.
  intros H. apply functional_extensionality; intros i. unfold clip.
  destruct (Nat.ltb_spec i n); auto.
Qed.

(** ** Forcing terms *)
Definition nf (f : forcing_term) : forcing_term :=
  {| ft_n := ft_n f; ft_goal_t := ft_goal_t f; ft_start_t := ft_start_t f;
     ft_overlap := ft_overlap f; ft_alpha_z := ft_alpha_z f; ft_weights := ft_weights f;
     ft_centers := clip (ft_n f) (ft_centers f); ft_widths := clip (ft_n f) (ft_widths f) |}.

Lemma nf_nf f : nf (nf f) = nf f.
Proof. unfold nf; cbn. now rewrite !clip_clip. Qed.
Lemma phase_nf f t : ft_phase (nf f) t = ft_phase f t.
Proof. reflexivity. Qed.
Lemma forces_nf f z : ft_forces (nf f) z = ft_forces f z.
Proof.
  apply functional_extensionality; intros d. apply ft_forces_ext; cbn; auto; intros i Hi; now apply clip_in.
Qed.
Lemma nf_set_weights w f : nf (set_ft_weights w f) = set_ft_weights w (nf f).
Proof. reflexivity. Qed.

Lemma init_nf jc jw jc' jw' n g s ov al :
  rmap nf (forcing_term_init jc jw n g s ov al) = rmap nf (forcing_term_init jc' jw' n g s ov al).
Proof.
  destruct (le_lt_dec n 1) as [H1|H1]; [now rewrite !forcing_term_init_rejects by auto|].
  destruct (Rle_dec g s) as [H2|H2]; [now rewrite !forcing_term_init_rejects by auto|].
  destruct (Rle_dec ov 0) as [H3|H3]; [now rewrite !forcing_term_init_rejects by auto|].
  destruct (forcing_term_init_ok jc jw n g s ov al) as (f & -> & N1 & N2 & N3 & N4 & N5 & N6 & C & W & L); [lia|lra|lra|].
  destruct (forcing_term_init_ok jc' jw' n g s ov al) as (f' & -> & N1' & N2' & N3' & N4' & N5' & N6' & C' & W' & L');
    [lia|lra|lra|].
  cbn. f_equal. unfold nf. rewrite N1, N2, N3, N4, N5, N1', N2', N3', N4', N5'.
  assert (EC : forall j, (j < n)%nat -> ft_centers f j = ft_centers f' j).
  { intros j Hj. now rewrite C, C'. }
  assert (EW0 : forall j, (j < n - 1)%nat -> ft_widths f j = ft_widths f' j).
  { intros j Hj. rewrite W, W' by auto. now rewrite !EC by lia. }
  assert (EW : forall j, (j < n)%nat -> ft_widths f j = ft_widths f' j).
  { intros j Hj. destruct (Nat.eq_dec j (n - 1)) as [->|]; [rewrite L, L'|]; apply EW0; lia. }
  rewrite (clip_eq n _ _ EC), (clip_eq n _ _ EW).
  replace (ft_weights f) with (ft_weights f'); auto.
  apply functional_extensionality; intros d. apply functional_extensionality; intros i. now rewrite N6, N6'.
Qed.

Lemma init_forcing_term_nf j j' n x :
  rmap nf (init_forcing_term j n x) = rmap nf (init_forcing_term j' n x).
Proof.
  unfold init_forcing_term. destruct (canonical_system_alpha _ _ _); cbn; auto. apply init_nf.
Qed.

Lemma nf_res_cases (a b : res forcing_term) : rmap nf a = rmap nf b ->
  (exists e, a = Err e /\ b = Err e) \/ (exists f f', a = Ok f /\ b = Ok f' /\ nf f = nf f').
Proof.
  destruct a as [f|e], b as [f'|e']; cbn; intros H; try discriminate H.
  - right. exists f, f'. repeat split; auto. congruence.
  - left. exists e. split; congruence.
Qed.

Lemma nf_eq_design f f' T last i j : nf f = nf f' -> (i < ft_n f)%nat ->
  design_matrix f T last i j = design_matrix f' T last i j.
Proof.
  intros H Hi.
  assert (E : forall g, (i < ft_n g)%nat -> design_matrix g T last i j = design_matrix (nf g) T last i j).
  { intros g Hg. unfold design_matrix, activations. cbn. f_equal. unfold Rdiv. f_equal.
    - unfold rbf. now rewrite !clip_in.
    - f_equal. apply rsum_ext. intros k Hk. unfold rbf. now rewrite !clip_in. }
  rewrite (E f Hi), H. symmetry. apply E.
  assert (ft_n f = ft_n f') by (change (ft_n (nf f) = ft_n (nf f')); now rewrite H). lia.
Qed.

(** ** Step functions *)
Definition a_nf (a : dmp_args) : dmp_args :=
  {| a_goal_y := a_goal_y a; a_goal_yd := a_goal_yd a; a_goal_ydd := a_goal_ydd a;
     a_start_y := a_start_y a; a_start_yd := a_start_yd a; a_start_ydd := a_start_ydd a;
     a_goal_t := a_goal_t a; a_start_t := a_start_t a;
     a_alpha_y := a_alpha_y a; a_beta_y := a_beta_y a;
     a_forcing_term := nf (a_forcing_term a);
     a_coupling_term := a_coupling_term a; a_precomputed := a_precomputed a;
     a_int_dt := a_int_dt a; a_p_gain := a_p_gain a; a_tracking_error := a_tracking_error a;
     a_smooth_scaling := a_smooth_scaling a |}.

Ltac body_nf := apply functional_extensionality; intros ?c; apply functional_extensionality; intros ?h;
  apply functional_extensionality; intros ?s.

Lemma euler_body_nf a : euler_body (a_nf a) = euler_body a.
Proof. body_nf. unfold euler_body. cbn [a_nf a_forcing_term]. rewrite forces_nf. reflexivity. Qed.
Lemma euler_cython_body_nf a : euler_cython_body (a_nf a) = euler_cython_body a.
Proof. body_nf. unfold euler_cython_body. cbn [a_nf a_forcing_term]. rewrite forces_nf. reflexivity. Qed.
Lemma fv_body_nf a k : fv_body (a_nf a) k = fv_body a k.
Proof. body_nf. unfold fv_body. cbn [a_nf a_forcing_term]. rewrite forces_nf. reflexivity. Qed.
Lemma dual_body_nf {CS} i a (ct : option (stateful_coupling CS)) : dual_body i (a_nf a) ct = dual_body i a ct.
Proof. body_nf. unfold dual_body. cbn [a_nf a_forcing_term]. rewrite forces_nf. reflexivity. Qed.

Lemma run_nf fn a : run_step_function fn (a_nf a) = run_step_function fn a.
Proof.
  body_nf. destruct fn; cbn [run_step_function].
  - unfold dmp_step_rk4. cbn [a_nf a_forcing_term]. rewrite !forces_nf. reflexivity.
  - unfold dmp_step_euler. now rewrite euler_body_nf.
  - unfold dmp_step_rk4_cython. cbn [a_nf a_forcing_term]. rewrite !forces_nf. reflexivity.
  - unfold dmp_step_euler_cython. now rewrite euler_cython_body_nf.
Qed.

Lemma fv_run_nf a : dmp_step_euler_with_constraints (a_nf a) = dmp_step_euler_with_constraints a.
Proof.
  body_nf. unfold dmp_step_euler_with_constraints. cbn [a_nf a_goal_t a_start_t a_start_y a_start_yd a_start_ydd
    a_goal_y a_goal_yd a_goal_ydd a_int_dt].
  destruct (Rle_dec _ _); auto. destruct (Rle_dec _ _); auto.
  destruct (solve_constraints _ _ _ _ _ _ _ _); cbn; auto. now rewrite fv_body_nf.
Qed.

Lemma dual_run_nf {CS} i a (ct : option (stateful_coupling CS)) last_t t s cs :
  dual_step_function i (a_nf a) ct last_t t s cs = dual_step_function i a ct last_t t s cs.
Proof. unfold dual_step_function. now rewrite dual_body_nf. Qed.

Definition g_nf (a : qargs) : qargs :=
  {| g_goal_y := g_goal_y a; g_start_y := g_start_y a; g_start_yd := g_start_yd a;
     g_goal_t := g_goal_t a; g_start_t := g_start_t a; g_alpha_y := g_alpha_y a; g_beta_y := g_beta_y a;
     g_forcing_term := nf (g_forcing_term a); g_coupling_term := g_coupling_term a;
     g_precomputed := g_precomputed a; g_int_dt := g_int_dt a; g_smooth_scaling := g_smooth_scaling a |}.

Lemma q_body_nf i a : q_body i (g_nf a) = q_body i a.
Proof.
  body_nf. unfold q_body. cbn [g_nf g_forcing_term]. rewrite forces_nf.
  destruct s as [y yd]. change (q_coupling i (g_nf a) y yd) with (q_coupling i a y yd). reflexivity.
Qed.
Lemma q_step_nf i a : q_step i (g_nf a) = q_step i a.
Proof. body_nf. unfold q_step. now rewrite !q_body_nf. Qed.

(** ** Imitation *)
Lemma regress_nf (reg : regression) f f' T last n m F lam : reads_arrays reg -> nf f = nf f' -> ft_n f = n ->
  reg n m (fun i t => design_matrix f T last i t) F lam = reg n m (fun i t => design_matrix f' T last i t) F lam.
Proof. intros H E N. apply H. intros i t Hi Ht. apply nf_eq_design; auto. now rewrite N. Qed.

Lemma init_n jc jw n g s ov al f : forcing_term_init jc jw n g s ov al = Ok f -> ft_n f = n.
Proof.
  unfold forcing_term_init. destruct (Nat.leb n 1), (Rle_dec g s), (Rle_dec ov 0); try discriminate.
  destruct (init_rbfs _ _ _ _ _ _ _). now intros [= <-].
Qed.

Lemma dmp_imitate_nf j j' reg nd dm n lam al be ov az av ss : reads_arrays reg ->
  dmp_imitate j reg nd dm n lam al be ov az av ss = dmp_imitate j' reg nd dm n lam al be ov az av ss.
Proof.
  intros H. unfold dmp_imitate. destruct (Rlt_dec lam 0); auto. destruct (Nat.eqb (d_n dm) 0); auto.
  destruct (nf_res_cases _ _ (init_nf (fst j) (snd j) (fst j') (snd j') n (d_T dm (d_n dm - 1)%nat) (d_T dm 0%nat) ov az))
    as [(e & -> & ->)|(f & f' & E & -> & Ef)]; auto.
  rewrite E. cbn [bind]. destruct (negb _); auto. destruct (_ && _)%bool; auto.
  destruct (determine_forces _ _ _ _ _ _ _ _); cbn [bind]; auto.
  rewrite (regress_nf reg f f'); eauto using init_n.
Qed.

Lemma fv_dmp_imitate_nf j j' reg nd dm n lam al be ov az : reads_arrays reg ->
  fv_dmp_imitate j reg nd dm n lam al be ov az = fv_dmp_imitate j' reg nd dm n lam al be ov az.
Proof.
  intros H. unfold fv_dmp_imitate. destruct (Rlt_dec lam 0); auto. destruct (Nat.eqb (d_n dm) 0); auto.
  destruct (nf_res_cases _ _ (init_nf (fst j) (snd j) (fst j') (snd j') n (d_T dm (d_n dm - 1)%nat) (d_T dm 0%nat) ov az))
    as [(e & -> & ->)|(f & f' & E & -> & Ef)]; auto.
  rewrite E. cbn [bind]. destruct (Nat.eqb (d_rows dm) 0); auto. destruct (negb _); auto. destruct (_ && _)%bool; auto.
  destruct (fv_determine_forces _ _ _ _ _ _); cbn [bind]; auto.
  rewrite (regress_nf reg f f'); eauto using init_n.
Qed.

Lemma quaternion_imitation_nf j j' reg m T Y n lam al be ov az av ss : reads_arrays reg ->
  dmp_quaternion_imitation j reg m T Y n lam al be ov az av ss
  = dmp_quaternion_imitation j' reg m T Y n lam al be ov az av ss.
Proof.
  intros H. unfold dmp_quaternion_imitation. destruct (Rlt_dec lam 0); auto. destruct (Nat.eqb m 0); auto.
  destruct (nf_res_cases _ _ (init_nf (fst j) (snd j) (fst j') (snd j') n (T (m - 1)%nat) (T 0%nat) ov az))
    as [(e & -> & ->)|(f & f' & E & -> & Ef)]; auto.
  rewrite E. cbn [bind].
  destruct (determine_forces_quaternion _ _ _ _ _ _ _ _); cbn [bind]; auto.
  rewrite (regress_nf reg f f'); eauto using init_n.
Qed.

(** ** DMP objects *)
Definition o_nf (o : dmp) : dmp := with_forcing_term (nf (o_forcing_term o)) o.
Definition N {A} (p : dmp * A) : dmp * A := (o_nf (fst p), snd p).

Lemma o_nf_nf o : o_nf (o_nf o) = o_nf o.
Proof. unfold o_nf. cbn. now rewrite nf_nf. Qed.

Lemma configure_nf c o : dmp_configure c (o_nf o) = N (dmp_configure c o).
Proof. unfold dmp_configure. cbn. destruct (configure c (o_base o)). reflexivity. Qed.

Lemma set_time_nf j j' x o : N (dmp_set_execution_time j x (o_nf o)) = N (dmp_set_execution_time j' x o).
Proof.
  unfold dmp_set_execution_time. cbn.
  destruct (nf_res_cases _ _ (init_forcing_term_nf j j' (o_n_weights_per_dim o) x))
    as [(e & -> & ->)|(f & f' & -> & -> & Ef)].
  - unfold N; cbn. f_equal. unfold o_nf; cbn. now rewrite nf_nf.
  - unfold N; cbn. unfold o_nf; cbn. now rewrite !nf_set_weights, Ef.
Qed.

Lemma step_args_nf o c te : step_args (o_nf o) c te = a_nf (step_args o c te).
Proof. reflexivity. Qed.

Lemma step_nf y yd c fn o : dmp_step y yd c fn (o_nf o) = N (dmp_step y yd c fn o).
Proof.
  unfold dmp_step. destruct fn as [fn|]; [|reflexivity].
  cbn [o_nf with_forcing_term o_base o_dt o_initialized].
  destruct (negb _); [reflexivity|]. destruct (negb _); [reflexivity|].
  set (o1 := with_base (set_t (p_t (o_base o) + o_dt o) (set_last_t (Some (p_t (o_base o))) (o_base o))) o).
  change (with_base (set_t (p_t (o_base o) + o_dt o) (set_last_t (Some (p_t (o_base o))) (o_base o))) (o_nf o))
    with (o_nf o1).
  set (o2 := if o_initialized o1 then o1 else with_initialized true
        (with_base (set_current (p_start_y (o_base o1)) (p_start_yd (o_base o1)) (o_base o1)) o1)).
  replace (if o_initialized (o_nf o1) then o_nf o1 else with_initialized true
        (with_base (set_current (p_start_y (o_base (o_nf o1))) (p_start_yd (o_base (o_nf o1))) (o_base (o_nf o1))) (o_nf o1)))
    with (o_nf o2) by (unfold o2; cbn [o_nf with_forcing_term o_initialized]; destruct (o_initialized o1); reflexivity).
  cbv zeta. rewrite step_args_nf, run_nf. cbn [o_nf with_forcing_term o_base].
  destruct (run_step_function _ _ _ _ _) as [[y' yd']|]; reflexivity.
Qed.

Lemma fv_step_nf y yd c o : fv_step y yd c (o_nf o) = N (fv_step y yd c o).
Proof.
  unfold fv_step.
  cbn [o_nf with_forcing_term o_base o_dt o_initialized].
  set (o1 := with_base (set_t (p_t (o_base o) + o_dt o) (set_last_t (Some (p_t (o_base o))) (o_base o))) o).
  change (with_base (set_t (p_t (o_base o) + o_dt o) (set_last_t (Some (p_t (o_base o))) (o_base o))) (o_nf o))
    with (o_nf o1).
  set (o2 := if o_initialized o1 then o1 else with_initialized true
        (with_base (set_current (p_start_y (o_base o1)) (p_start_yd (o_base o1)) (o_base o1)) o1)).
  replace (if o_initialized (o_nf o1) then o_nf o1 else with_initialized true
        (with_base (set_current (p_start_y (o_base (o_nf o1))) (p_start_yd (o_base (o_nf o1))) (o_base (o_nf o1))) (o_nf o1)))
    with (o_nf o2) by (unfold o2; cbn [o_nf with_forcing_term o_initialized]; destruct (o_initialized o1); reflexivity).
  cbv zeta. rewrite step_args_nf, fv_run_nf. cbn [o_nf with_forcing_term o_base].
  destruct (dmp_step_euler_with_constraints _ _ _ _) as [[y' yd']|]; reflexivity.
Qed.

Lemma open_loop_nf rt c fn o : dmp_open_loop rt c fn (o_nf o) = dmp_open_loop rt c fn o.
Proof.
  unfold dmp_open_loop. destruct fn as [fn|]; auto.
  change (open_loop_step_args (o_nf o) c) with (a_nf (open_loop_step_args o c)). now rewrite run_nf.
Qed.
Lemma fv_open_loop_nf rt c o : fv_open_loop rt c (o_nf o) = fv_open_loop rt c o.
Proof.
  unfold fv_open_loop.
  change (fv_open_loop_step_args (o_nf o) c) with (a_nf (fv_open_loop_step_args o c)). now rewrite fv_run_nf.
Qed.

Lemma imitate_method_nf j reg dm lam al o :
  dmp_imitate_method j reg dm lam al (o_nf o) = N (dmp_imitate_method j reg dm lam al o).
Proof.
  unfold dmp_imitate_method. cbn [o_nf with_forcing_term o_base o_n_weights_per_dim o_alpha_y o_beta_y
    o_forcing_term o_smooth_scaling nf ft_overlap ft_alpha_z].
  destruct (dmp_imitate _ _ _ _ _ _ _ _ _ _ _ _) as [[[w sy] gy]|]; [|reflexivity].
  destruct (negb _); [reflexivity|].
  match goal with |- dmp_configure ?k ?x = N (dmp_configure _ ?y) => change x with (o_nf y) end.
  apply configure_nf.
Qed.
Lemma imitate_method_junk j j' reg dm lam al o : reads_arrays reg ->
  dmp_imitate_method j reg dm lam al o = dmp_imitate_method j' reg dm lam al o.
Proof. intros H. unfold dmp_imitate_method. now rewrite (dmp_imitate_nf j j'). Qed.

Lemma fv_imitate_nf j reg dm lam o : fv_imitate j reg dm lam (o_nf o) = N (fv_imitate j reg dm lam o).
Proof.
  unfold fv_imitate. cbn [o_nf with_forcing_term o_base o_n_weights_per_dim o_alpha_y o_beta_y
    o_forcing_term o_smooth_scaling nf ft_overlap ft_alpha_z].
  destruct (fv_dmp_imitate _ _ _ _ _ _ _ _ _ _) as [[[w [[sy syd] sydd]] [[gy gyd] gydd]]|]; [|reflexivity].
  destruct (negb _); [reflexivity|].
  match goal with |- dmp_configure ?k ?x = N (dmp_configure _ ?y) => change x with (o_nf y) end.
  apply configure_nf.
Qed.
Lemma fv_imitate_junk j j' reg dm lam o : reads_arrays reg ->
  fv_imitate j reg dm lam o = fv_imitate j' reg dm lam o.
Proof. intros H. unfold fv_imitate. now rewrite (fv_dmp_imitate_nf j j'). Qed.

Lemma set_weights_nf w o : dmp_set_weights w (o_nf o) = N (dmp_set_weights w o).
Proof. unfold dmp_set_weights. cbn. destruct (reshape _ _ _); reflexivity. Qed.

Lemma new_nf j j' n x dt nw int_dt pg sm al be :
  rmap o_nf (dmp_new j n x dt nw int_dt pg sm al be) = rmap o_nf (dmp_new j' n x dt nw int_dt pg sm al be).
Proof.
  unfold dmp_new.
  destruct (nf_res_cases _ _ (init_forcing_term_nf j j' nw x)) as [(e & -> & ->)|(f & f' & -> & -> & Ef)]; auto.
  cbn [bind]. destruct (ensure_1d_array al n); cbn; auto. destruct (ensure_1d_array be n); cbn; auto.
  f_equal. unfold o_nf; cbn. now rewrite Ef.
Qed.

(** ** DualCartesianDMP *)
Lemma dual_new_nf j j' x dt nw int_dt pg sm al be :
  rmap o_nf (dual_new j x dt nw int_dt pg sm al be) = rmap o_nf (dual_new j' x dt nw int_dt pg sm al be).
Proof.
  unfold dual_new.
  destruct (nf_res_cases _ _ (init_forcing_term_nf j j' nw x)) as [(e & -> & ->)|(f & f' & -> & -> & Ef)]; auto.
  cbn [bind]. destruct (ensure_1d_array al 12); cbn; auto. destruct (ensure_1d_array be 12); cbn; auto.
  f_equal. unfold o_nf; cbn. now rewrite Ef.
Qed.

Definition N3 {A B} (p : dmp * A * B) : dmp * A * B := (o_nf (fst (fst p)), snd (fst p), snd p).

Lemma dual_step_nf {CS} y yd (ct : option (stateful_coupling CS)) i cs o :
  dual_step y yd ct i cs (o_nf o) = N3 (dual_step y yd ct i cs o).
Proof.
  unfold dual_step.
  cbn [o_nf with_forcing_term o_base o_dt o_initialized].
  destruct (negb _); [reflexivity|]. destruct (negb _); [reflexivity|].
  set (o1 := with_base (set_t (p_t (o_base o) + o_dt o) (set_last_t (Some (p_t (o_base o))) (o_base o))) o).
  change (with_base (set_t (p_t (o_base o) + o_dt o) (set_last_t (Some (p_t (o_base o))) (o_base o))) (o_nf o))
    with (o_nf o1).
  set (o2 := if o_initialized o1 then o1 else with_initialized true
        (with_base (set_current (p_start_y (o_base o1)) (p_start_yd (o_base o1)) (o_base o1)) o1)).
  replace (if o_initialized (o_nf o1) then o_nf o1 else with_initialized true
        (with_base (set_current (p_start_y (o_base (o_nf o1))) (p_start_yd (o_base (o_nf o1))) (o_base (o_nf o1))) (o_nf o1)))
    with (o_nf o2) by (unfold o2; cbn [o_nf with_forcing_term o_initialized]; destruct (o_initialized o1); reflexivity).
  cbv zeta. cbn [o_nf with_forcing_term o_base].
  destruct (assign_slice _ y) as [y'|]; [|reflexivity].
  destruct (assign_slice _ yd) as [yd'|]; [|reflexivity].
  set (te := dual_tracking_error _ _). set (o3 := with_base (set_current y' yd' (o_base o2)) o2).
  match goal with |- match dual_step_function _ (dual_args ?x te) _ _ _ _ _ with _ => _ end = _ =>
    change (dual_args x te) with (a_nf (dual_args o3 te)) end.
  rewrite dual_run_nf.
  destruct (dual_step_function _ _ _ _ _ _ _) as [[[y'' yd''] cs']|]; reflexivity.
Qed.

Lemma dual_go_nf {CS} fuel rt (ct : option (stateful_coupling CS)) i : forall y yd cs o,
  dual_open_loop_go fuel rt ct i y yd cs (o_nf o) = N3 (dual_open_loop_go fuel rt ct i y yd cs o).
Proof.
  induction fuel as [|fuel IH]; intros; cbn [dual_open_loop_go];
    change (p_t (o_base (o_nf o))) with (p_t (o_base o)); destruct (Rlt_dec _ _); try reflexivity.
  rewrite dual_step_nf. destruct (dual_step y yd ct i cs o) as [[o1 cs1] [[y1 yd1]|e]]; [|reflexivity].
  unfold N3 at 1. cbn [fst snd]. rewrite IH.
  destruct (dual_open_loop_go fuel rt ct i y1 yd1 cs1 o1) as [[o2 cs2] [[ts ys]|e]]; reflexivity.
Qed.

Lemma dual_open_loop_nf {CS} rt (ct : option (stateful_coupling CS)) i cs o :
  dual_open_loop rt ct i cs (o_nf o) = N3 (dual_open_loop rt ct i cs o).
Proof.
  unfold dual_open_loop. destruct i as [i|]; [|reflexivity].
  cbv zeta. change (with_base (set_t 0 (o_base (o_nf o))) (o_nf o)) with (o_nf (with_base (set_t 0 (o_base o)) o)).
  rewrite dual_go_nf.
  change (o_dt (o_nf (with_base (set_t 0 (o_base o)) o))) with (o_dt (with_base (set_t 0 (o_base o)) o)).
  change (o_base (o_nf (with_base (set_t 0 (o_base o)) o))) with (o_base (with_base (set_t 0 (o_base o)) o)).
  change (o_execution_time (o_nf o)) with (o_execution_time o).
  destruct (dual_open_loop_go _ _ _ _ _ _ _ _) as [[o2 cs2] [[ts ys]|e]]; reflexivity.
Qed.

Lemma dual_set_weights_nf w o : dual_set_weights w (o_nf o) = N (dual_set_weights w o).
Proof. unfold dual_set_weights. cbn. destruct (reshape _ _ _); reflexivity. Qed.

Lemma dual_imitate_junk a b c d a' b' c' d' reg dm lam al o : reads_arrays reg ->
  dual_imitate a b c d reg dm lam al o = dual_imitate a' b' c' d' reg dm lam al o.
Proof.
  intros H. unfold dual_imitate. cbv zeta.
  rewrite (dmp_imitate_nf a a'), (dmp_imitate_nf c c'), (quaternion_imitation_nf b b'),
    (quaternion_imitation_nf d d') by auto. reflexivity.
Qed.

Lemma dual_imitate_nf a b c d reg dm lam al o :
  dual_imitate a b c d reg dm lam al (o_nf o) = N (dual_imitate a b c d reg dm lam al o).
Proof.
  unfold dual_imitate. cbv zeta.
  cbn [o_nf with_forcing_term o_base o_n_weights_per_dim o_alpha_y o_beta_y
    o_forcing_term o_smooth_scaling nf ft_overlap ft_alpha_z ft_weights].
  destruct (negb _); [reflexivity|].
  destruct (rmap _ _); [|reflexivity].
  destruct (dmp_quaternion_imitation _ _ _ _ _ _ _ _ _ _ _ _ _); [|reflexivity].
  destruct (rmap _ _); [|reflexivity].
  destruct (dmp_quaternion_imitation _ _ _ _ _ _ _ _ _ _ _ _ _); [|reflexivity].
  match goal with |- dmp_configure ?k ?x = N (dmp_configure _ ?y) => change x with (o_nf y) end.
  apply configure_nf.
Qed.

(** ** CartesianDMP *)
Definition k_nf (o : cart) : cart := cart_with_frot (nf (k_frot o)) (cart_with_fpos (nf (k_fpos o)) o).
Definition K {A} (p : cart * A) : cart * A := (k_nf (fst p), snd p).

Lemma k_nf_nf o : k_nf (k_nf o) = k_nf o.
Proof. unfold k_nf. cbn. now rewrite !nf_nf. Qed.

Lemma cart_new_nf jp jr jp' jr' x dt nw int_dt sm al be :
  rmap k_nf (cart_new jp jr x dt nw int_dt sm al be) = rmap k_nf (cart_new jp' jr' x dt nw int_dt sm al be).
Proof.
  unfold cart_new.
  destruct (nf_res_cases _ _ (init_forcing_term_nf jp jp' nw x)) as [(e & -> & ->)|(f & f' & -> & -> & Ef)]; auto.
  destruct (nf_res_cases _ _ (init_forcing_term_nf jr jr' nw x)) as [(e & -> & ->)|(g & g' & -> & -> & Eg)]; auto.
  cbn [bind]. destruct (ensure_1d_array al 6); cbn; auto. destruct (ensure_1d_array be 6); cbn; auto.
  f_equal. unfold k_nf; cbn. now rewrite Ef, Eg.
Qed.

Lemma cart_configure_nf c o : cart_configure c (k_nf o) = K (cart_configure c o).
Proof. unfold cart_configure. cbn. destruct (configure c (k_base o)). reflexivity. Qed.

Lemma cart_set_time_nf jp jr jp' jr' x o :
  K (cart_set_execution_time jp jr x (k_nf o)) = K (cart_set_execution_time jp' jr' x o).
Proof.
  unfold cart_set_execution_time. cbn.
  destruct (nf_res_cases _ _ (init_forcing_term_nf jp jp' (k_n o) x)) as [(e & -> & ->)|(f & f' & -> & -> & Ef)].
  - unfold K; cbn. f_equal. unfold k_nf; cbn. now rewrite !nf_nf.
  - destruct (nf_res_cases _ _ (init_forcing_term_nf jr jr' (k_n o) x)) as [(e & -> & ->)|(g & g' & -> & -> & Eg)].
    + unfold K; cbn. f_equal. unfold k_nf; cbn. now rewrite Ef, !nf_nf.
    + unfold K; cbn. unfold k_nf; cbn. now rewrite !nf_set_weights, Ef, Eg.
Qed.

Lemma cart_step_nf y yd c fn i o : cart_step y yd c fn i (k_nf o) = K (cart_step y yd c fn i o).
Proof.
  unfold cart_step. destruct (negb _); [reflexivity|]. destruct (negb _); [reflexivity|].
  cbv zeta. cbn [k_nf cart_with_frot cart_with_fpos k_base k_dt].
  destruct (assign_slice _ y) as [y'|]; [|reflexivity].
  destruct (assign_slice _ yd) as [yd'|]; [|reflexivity].
  set (p := set_t _ _). set (o1 := cart_with_base (set_current y' yd' p) (cart_with_base p o)).
  match goal with |- match run_step_function fn (cart_pos_args ?x c) _ _ _ with _ => _ end = _ => change x with (k_nf o1) end.
  change (cart_pos_args (k_nf o1) c) with (a_nf (cart_pos_args o1 c)).
  change (cart_rot_args (k_nf o1) c) with (g_nf (cart_rot_args o1 c)).
  rewrite run_nf, q_step_nf.
  destruct (run_step_function _ _ _ _ _) as [[yp ydp]|]; [|reflexivity].
  destruct (q_step _ _ _ _ _) as [[q w]|]; reflexivity.
Qed.

Lemma cart_open_loop_nf rt c fn i o : cart_open_loop rt c fn i (k_nf o) = cart_open_loop rt c fn i o.
Proof.
  unfold cart_open_loop. destruct fn as [fn|]; auto. cbv zeta.
  change (cart_pos_open_args (k_nf o) c) with (a_nf (cart_pos_open_args o c)).
  change (cart_rot_open_args (k_nf o) c) with (g_nf (cart_rot_open_args o c)).
  rewrite run_nf. unfold q_open_loop. destruct i; [rewrite q_step_nf|]; reflexivity.
Qed.

Lemma cart_imitate_junk jp jr jp' jr' reg dm lam al o : reads_arrays reg ->
  cart_imitate jp jr reg dm lam al o = cart_imitate jp' jr' reg dm lam al o.
Proof.
  intros H. unfold cart_imitate. cbv zeta. rewrite (dmp_imitate_nf jp jp') by auto.
  destruct (negb _); auto. destruct (dmp_imitate _ _ _ _ _ _ _ _ _ _ _ _) as [[[w sy] gy]|]; auto.
  now rewrite (quaternion_imitation_nf jr jr').
Qed.

Lemma cart_imitate_nf jp jr reg dm lam al o :
  cart_imitate jp jr reg dm lam al (k_nf o) = K (cart_imitate jp jr reg dm lam al o).
Proof.
  unfold cart_imitate. cbv zeta.
  cbn [k_nf cart_with_frot cart_with_fpos k_base k_n k_alpha k_beta k_fpos k_frot k_smooth nf ft_overlap ft_alpha_z].
  destruct (negb _); [reflexivity|].
  destruct (dmp_imitate _ _ _ _ _ _ _ _ _ _ _ _) as [[[w sy] gy]|]; [|reflexivity].
  destruct (dmp_quaternion_imitation _ _ _ _ _ _ _ _ _ _ _ _ _); [|reflexivity].
  match goal with |- cart_configure ?k ?x = K (cart_configure _ ?y) => change x with (k_nf y) end.
  apply cart_configure_nf.
Qed.

Lemma cart_set_weights_nf w o : cart_set_weights w (k_nf o) = K (cart_set_weights w o).
Proof.
  unfold cart_set_weights. cbn [k_nf cart_with_frot cart_with_fpos k_n]. cbv zeta.
  destruct (assign_rows _ _); [|reflexivity]. destruct (assign_rows _ _); reflexivity.
Qed.

(** ** StateFollowingDMP *)
(** The width of a single basis function is not initialised either, and not needed. *)
Definition s_nf (f : sf_forcing) : sf_forcing :=
  {| sf_n := sf_n f; sf_goal_t := sf_goal_t f; sf_start_t := sf_start_t f;
     sf_overlap := sf_overlap f; sf_alpha_z := sf_alpha_z f; sf_viapoints := sf_viapoints f;
     sf_centers := clip (sf_n f) (sf_centers f);
     sf_widths := if Nat.eqb (sf_n f) 1 then vzero else clip (sf_n f) (sf_widths f) |}.

Lemma s_nf_nf f : s_nf (s_nf f) = s_nf f.
Proof.
  unfold s_nf; cbn [sf_n sf_goal_t sf_start_t sf_overlap sf_alpha_z sf_viapoints sf_centers sf_widths].
  destruct (Nat.eqb (sf_n f) 1); now rewrite !clip_clip.
Qed.

Lemma sf_call_nf f t i : (i < sf_n f)%nat -> sf_call (s_nf f) t i = sf_call f t i.
Proof.
  intros Hi. unfold sf_call. cbn. set (z := phase _ _ _ _). unfold activations.
  destruct (Nat.eqb_spec (sf_n f) 1) as [E|E].
  - rewrite E in *. assert (i = 0%nat) as -> by lia. cbn [rsum]. unfold rbf.
    rewrite !Rplus_0_l. unfold Rdiv. rewrite !Rinv_r; auto; apply Rgt_not_eq, exp_pos.
  - unfold Rdiv. f_equal.
    + unfold rbf. now rewrite !clip_in.
    + f_equal. apply rsum_ext. intros k Hk. unfold rbf. now rewrite !clip_in.
Qed.

Definition sa_nf (a : sf_args) : sf_args :=
  {| sa_goal_t := sa_goal_t a; sa_start_t := sa_start_t a; sa_alpha_y := sa_alpha_y a; sa_beta_y := sa_beta_y a;
     sa_forcing := s_nf (sa_forcing a); sa_coupling := sa_coupling a; sa_precomputed := sa_precomputed a;
     sa_int_dt := sa_int_dt a |}.

Lemma sf_body_nf a : sf_body (sa_nf a) = sf_body a.
Proof.
  body_nf. unfold sf_body. destruct s as [y yd]. cbn [sa_nf sa_forcing sa_goal_t sa_start_t sa_coupling sa_precomputed
    sa_alpha_y sa_beta_y s_nf sf_n sf_viapoints].
  fold (s_nf (sa_forcing a)).
  destruct (match sa_coupling a with Some c0 => c0 y yd | None => (vzero, vzero) end) as [cd cdd].
  destruct (match sa_precomputed a with Some (pd, pdd) => (vadd cd pd, vadd cdd pdd) | None => (cd, cdd) end) as [cd' cdd'].
  assert (E : forall (g : vec -> R -> R) d,
    rsum (sf_n (sa_forcing a)) (fun i => sf_call (s_nf (sa_forcing a)) c i * sa_alpha_y a d
        * (sa_beta_y a d * (sf_viapoints (sa_forcing a) i d - y d) - / 2 * (sa_goal_t a - sa_start_t a) * yd d)
      / (/ 2 * (sa_goal_t a - sa_start_t a)) ^ 2)
    = rsum (sf_n (sa_forcing a)) (fun i => sf_call (sa_forcing a) c i * sa_alpha_y a d
        * (sa_beta_y a d * (sf_viapoints (sa_forcing a) i d - y d) - / 2 * (sa_goal_t a - sa_start_t a) * yd d)
      / (/ 2 * (sa_goal_t a - sa_start_t a)) ^ 2)).
  { intros g d. apply rsum_ext. intros i Hi. now rewrite sf_call_nf. }
  cbv zeta. f_equal; apply functional_extensionality; intros d; rewrite (E (fun _ x => x)); reflexivity.
Qed.

Lemma sf_step_fn_nf a : sf_step_fn (sa_nf a) = sf_step_fn a.
Proof. body_nf. unfold sf_step_fn. now rewrite sf_body_nf. Qed.
Lemma sf_loop_nf a dt rt : forall fuel t s, sf_loop fuel (sa_nf a) dt rt t s = sf_loop fuel a dt rt t s.
Proof.
  induction fuel as [|fuel IH]; intros; cbn [sf_loop]; destruct (Rlt_dec t rt); auto.
  rewrite sf_step_fn_nf. destruct (sf_step_fn a t (t + dt) s); cbn; auto. now rewrite IH.
Qed.
Lemma sf_open_loop_fn_nf a dt sy rt : sf_open_loop_fn (sa_nf a) dt sy rt = sf_open_loop_fn a dt sy rt.
Proof. unfold sf_open_loop_fn. now rewrite sf_loop_nf. Qed.

Definition f_nf (o : sf_dmp) : sf_dmp := sf_with (f_dt o) (f_int_dt o) (s_nf (f_forcing o)) o.
Lemma f_nf_nf o : f_nf (f_nf o) = f_nf o.
Proof. unfold f_nf, sf_with. cbn. now rewrite s_nf_nf. Qed.

Lemma sf_step_nf y yd c o : sf_step y yd c (f_nf o) = (f_nf (fst (sf_step y yd c o)), snd (sf_step y yd c o)).
Proof.
  unfold sf_step. cbn [f_nf sf_with f_base f_dt].
  destruct (negb _); [reflexivity|]. destruct (negb _); [reflexivity|]. cbv zeta.
  change (sf_object_args c (sf_with (f_dt o) (f_int_dt o) (s_nf (f_forcing o)) o)) with (sa_nf (sf_object_args c o)).
  change (sf_object_args c (f_nf o)) with (sa_nf (sf_object_args c o)). rewrite sf_step_fn_nf.
  destruct (assign_slice _ y); [|reflexivity]. destruct (assign_slice _ yd); [|reflexivity].
  destruct (sf_step_fn _ _ _ _) as [[y' yd']|]; reflexivity.
Qed.

Lemma sf_open_loop_nf rt c o : sf_open_loop rt c (f_nf o) = sf_open_loop rt c o.
Proof.
  unfold sf_open_loop. change (sf_object_args c (f_nf o)) with (sa_nf (sf_object_args c o)).
  now rewrite sf_open_loop_fn_nf.
Qed.
Lemma sf_configure_nf c o : sf_configure c (f_nf o) = (f_nf (fst (sf_configure c o)), snd (sf_configure c o)).
Proof. unfold sf_configure. cbn [f_nf sf_with f_base]. destruct (configure c (f_base o)). reflexivity. Qed.
