(** C96: movements approximate the solution of the DMP's differential equation.
    Final statements. *)
From Coq Require Import Reals ZArith List Lia Lra Psatz FunctionalExtensionality.
From Coquelicot Require Import Coquelicot.
From Verif Require Import M_Prelude M_Canonical M_Forcing M_Dmp M_Base M_DmpObject
  S_Loops S_Dmp P_Loops P_Canonical P_Forcing P_DmpStep P_DmpScale P_DmpLinear P_Converge
  P_DmpObject P_DmpAffine P_Continuity P_Ode P_OdeSolution Properties_Forcing Properties_Dmp
  Properties_DmpObject Properties_Goal Properties_Equivariance Properties_Continuity.
Import ListNotations.
Open Scope R_scope.
Set Bullet Behavior "Strict Subproofs".

(** ** Specification *)
(** The differential equation that a DMP stands for, in dimension [d]:
    tau^2 y'' = alpha (beta (g - y) - tau y' - smoothing) + f(t), from the start at rest;
    f is the forcing term of the object as a function of time. *)
Definition dmp_equation (o : dmp) (d : nat) (y v : R -> R) : Prop :=
  let tau := o_execution_time o in
  let alpha := aget (o_alpha_y o) d in
  let beta := aget (o_beta_y o) d in
  let goal := aget (p_goal_y (o_base o)) d in
  let start := aget (p_start_y (o_base o)) d in
  y 0 = start /\ v 0 = 0 /\
  forall t, 0 <= t ->
    is_derive y t (v t)
    /\ is_derive v t
         ((alpha * (beta * (goal - y t) - tau * v t
                    - (if o_smooth_scaling o
                       then beta * (goal - start) * ft_phase (o_forcing_term o) t else 0))
           + ft_call (o_forcing_term o) t d) / tau ^ 2).

(** Objects with the same differential equation in dimension [d]; [dt] and
    [int_dt] may differ. *)
Definition same_equation (d : nat) (o o' : dmp) : Prop :=
  o_execution_time o' = o_execution_time o
  /\ o_n_weights_per_dim o' = o_n_weights_per_dim o
  /\ o_smooth_scaling o' = o_smooth_scaling o
  /\ ft_goal_t (o_forcing_term o') = ft_goal_t (o_forcing_term o)
  /\ aget (o_alpha_y o') d = aget (o_alpha_y o) d
  /\ aget (o_beta_y o') d = aget (o_beta_y o) d
  /\ aget (p_start_y (o_base o')) d = aget (p_start_y (o_base o)) d
  /\ aget (p_goal_y (o_base o')) d = aget (p_goal_y (o_base o)) d
  /\ forall i, (i < o_n_weights_per_dim o)%nat ->
       ft_weights (o_forcing_term o') d i = ft_weights (o_forcing_term o) d i.

(** The length of one integration step. *)
Definition step_length (fn : step_function) (o : dmp) : R :=
  match fn with
  | RK4 | RK4_cython => o_dt o
  | Euler | Euler_cython => Rmin (o_dt o) (o_int_dt o)
  end.

(** ** Proofs *)
Lemma lipb_rsum a b n (f : nat -> R -> R) : (forall i, lipb a b (f i)) ->
  lipb a b (fun t => rsum n (fun i => f i t)).
Proof.
  intros H. induction n as [|n IH]; [apply (lipb_const a b 0)|]. cbn [rsum]. now apply lipb_plus.
Qed.

Lemma lipb_phase a b f : lipb a b (ft_phase f).
Proof.
  unfold ft_phase, phase. cbv zeta. apply lipb_exp.
  apply (lipb_ext _ _ (fun t => (- ft_alpha_z f / (ft_goal_t f - ft_start_t f)) * (t - ft_start_t f)));
    [intros; unfold Rdiv; ring|].
  apply lipb_scal, lipb_minus; [apply lipb_id|apply lipb_const].
Qed.

Lemma lipb_rbf a b f i : lipb a b (fun t => rbf (ft_centers f) (ft_widths f) (ft_phase f t) i).
Proof.
  unfold rbf. apply lipb_exp.
  apply (lipb_ext _ _ (fun t => - ft_widths f i
     * ((ft_phase f t - ft_centers f i) * (ft_phase f t - ft_centers f i)))); [intros; ring|].
  assert (H : lipb a b (fun t => ft_phase f t - ft_centers f i))
    by (apply lipb_minus; [apply lipb_phase|apply lipb_const]).
  apply lipb_scal. now apply lipb_mult.
Qed.

Lemma exp_below a b f : lipb a b f -> exists m, 0 < m /\ forall t, a <= t <= b -> m <= exp (f t).
Proof.
  intros (L & HL & B & _). exists (exp (- L)). split; [apply exp_pos|]. intros t Ht.
  specialize (B t Ht). assert (H : - L <= f t) by (pose proof (Rle_abs (- f t)); rewrite Rabs_Ropp in *; lra).
  destruct H as [H| ->]; [apply Rlt_le, exp_increasing; auto|apply Rle_refl].
Qed.

Lemma rbf_below a b f i : exists m, 0 < m /\
  forall t, a <= t <= b -> m <= rbf (ft_centers f) (ft_widths f) (ft_phase f t) i.
Proof.
  unfold rbf. apply exp_below.
  apply (lipb_ext _ _ (fun t => - ft_widths f i
     * ((ft_phase f t - ft_centers f i) * (ft_phase f t - ft_centers f i)))); [intros; ring|].
  assert (H : lipb a b (fun t => ft_phase f t - ft_centers f i))
    by (apply lipb_minus; [apply lipb_phase|apply lipb_const]).
  apply lipb_scal. now apply lipb_mult.
Qed.

Lemma lipb_forces a b f d : (0 < ft_n f)%nat -> lipb a b (fun t => ft_forces f (ft_phase f t) d).
Proof.
  intros Hn. unfold ft_forces. apply lipb_mult; [apply lipb_phase|].
  apply (lipb_rsum a b (ft_n f) (fun i t => ft_weights f d i
     * activations (ft_n f) (ft_centers f) (ft_widths f) (ft_phase f t) i)).
  intros i. apply lipb_scal. unfold activations, Rdiv. apply lipb_mult; [apply lipb_rbf|].
  apply (lipb_inv a b (fun t => rsum (ft_n f) (rbf (ft_centers f) (ft_widths f) (ft_phase f t)))).
  - apply (lipb_rsum a b (ft_n f) (fun k t => rbf (ft_centers f) (ft_widths f) (ft_phase f t) k)).
    intros k. apply lipb_rbf.
  - destruct (rbf_below a b f 0%nat) as (m & Hm & H). exists m. split; auto.
    intros t Ht. specialize (H t Ht). destruct (ft_n f) as [|k]; [lia|].
    clear Hn. induction k as [|k IH]; cbn [rsum] in *; [lra|].
    assert (0 < rbf (ft_centers f) (ft_widths f) (ft_phase f t) (S k)) by apply exp_pos. lra.
Qed.

(** The input of the equation. *)
Definition input (a : dmp_args) (d : nat) (t : R) : R :=
  disturbance a (ft_phase (a_forcing_term a) t) d / (a_goal_t a - a_start_t a) ^ 2.

Lemma lipb_input x y a d : (0 < ft_n (a_forcing_term a))%nat -> lipb x y (input a d).
Proof.
  intros Hn. unfold input, disturbance.
  apply (lipb_ext _ _ (fun t => / (a_goal_t a - a_start_t a) ^ 2
    * (ft_forces (a_forcing_term a) (ft_phase (a_forcing_term a) t) d
       - (if a_smooth_scaling a then a_alpha_y a d * a_beta_y a d * (a_goal_y a d - a_start_y a d) else 0)
         * ft_phase (a_forcing_term a) t))).
  { intros t. unfold Rdiv. destruct (a_smooth_scaling a); ring. }
  apply lipb_scal, lipb_minus; [now apply lipb_forces|]. apply lipb_scal, lipb_phase.
Qed.

(** Coefficients. *)
Definition stiff (a : dmp_args) (d : nat) : R := a_alpha_y a d * a_beta_y a d / (a_goal_t a - a_start_t a) ^ 2.
Definition damp (a : dmp_args) (d : nat) : R := a_alpha_y a d / (a_goal_t a - a_start_t a).

Lemma acc_rhs a h Y V t d : free a -> a_goal_t a <> a_start_t a ->
  acc_of a h Y V (ft_phase (a_forcing_term a) t)
    (ft_forces (a_forcing_term a) (ft_phase (a_forcing_term a) t)) d
  = rhs (stiff a d) (damp a d) (a_goal_y a d) (input a d) t (Y d) (V d).
Proof.
  intros F H. rewrite acc_of_free by auto. unfold rhs, stiff, damp, input. field. lra.
Qed.

Lemma euler_rhs a c h (y v : vec) d : free a -> a_goal_t a <> a_start_t a ->
  let v' := v d + h * rhs (stiff a d) (damp a d) (a_goal_y a d) (input a d) c (y d) (v d) in
  snd (euler_body a c h (y, v)) d = v' /\ fst (euler_body a c h (y, v)) d = y d + h * v'.
Proof.
  intros F H v'. unfold euler_body. cbv zeta.
  change (dmp_acc _ _ _ _ _ _ _ _ _ _ _ _ _)
    with (acc_of a h y v (ft_phase (a_forcing_term a) c)
            (ft_forces (a_forcing_term a) (ft_phase (a_forcing_term a) c))).
  rewrite (proj1 F). cbn [fst snd]. unfold vadd, vscale. rewrite acc_rhs by auto. auto.
Qed.

Lemma rk4_rhs a lt t (y v : vec) d : free a -> a_goal_t a <> a_start_t a ->
  let h := t - lt in
  let f (s Y V : R) := stiff a d * (a_goal_y a d - Y) - damp a d * V + input a d s in
  let Y := y d in let V := v d in
  let K0 := f t Y V in
  let C1 := V + h / 2 * K0 in
  let K1 := f (t + / 2 * h) (Y + h / 2 * V) C1 in
  let C2 := V + h / 2 * K1 in
  let K2 := f (t + / 2 * h) (Y + h / 2 * C1) C2 in
  let C3 := V + h * K2 in
  let K3 := f (t + h) (Y + h * C2) C3 in
  fst (dmp_step_rk4 a lt t (y, v)) d = Y + h * (V + h / 6 * (K0 + K1 + K2))
  /\ snd (dmp_step_rk4 a lt t (y, v)) d = V + h / 6 * (K0 + 2 * K1 + 2 * K2 + K3).
Proof.
  intros F H h f Y V K0 C1 K1 C2 K2 C3 K3.
  rewrite rk4_as_rk4_of by apply F. fold h. cbv zeta. unfold rk4_of. cbv zeta. cbn [fst snd].
  unfold vadd, vscale. repeat (rewrite !acc_rhs by auto; cbv beta).
  unfold K3, C3, K2, C2, K1, C1, K0, f, Y, V, rhs. split; field.
Qed.

Lemma exec_substeps_inv {S} (I : R -> S -> Prop) body : forall l a b h s,
  (forall t k s, a <= t -> 0 < k <= h -> t + k <= b -> I t s -> I (t + k) (body (t + k) k s)) ->
  tiles a b h l -> I a s -> I b (exec_substeps body l s).
Proof.
  induction l as [|[c k] l IH]; intros a b h s Hb Hl Hs; simpl in *.
  - now subst.
  - destruct Hl as (Hk & -> & _ & Hl). pose proof (tiles_le _ _ _ _ Hl).
    apply (IH (a + k) b h); auto.
    + intros; apply Hb; auto; lra.
    + apply Hb; auto; lra.
Qed.

Lemma tiles_min a b h l : tiles a b h l -> tiles a b (Rmin (b - a) h) l \/ l = [].
Proof.
  intros H. destruct l as [|[c k] [|x l]]; auto; left; simpl in *.
  - destruct H as (Hk & -> & _ & E). repeat split; try tauto; try congruence. 
    unfold Rmin. destruct (Rle_dec (b - a) h); lra.
  - destruct H as (Hk & -> & Hh & H). destruct x as [c' k'].
    destruct H as (Hk' & -> & Hh' & H). pose proof (tiles_le _ _ _ _ H) as Hle.
    assert (E : k = h) by (apply Hh; congruence).
    assert (EM : Rmin (b - a) h = h) by (apply Rmin_right; lra).
    rewrite EM. repeat split; auto; try lra.
Qed.

Section Run.
Variables (p q g : R) (u : R -> R) (d : nat) (T : R) (y v : R -> R).
Hypothesis HT : 0 <= T.
Hypothesis HU : lipb 0 (2 * T) u.
Hypothesis HY : forall t, 0 <= t <= T -> is_derive y t (v t).
Hypothesis HV : forall t, 0 <= t <= T -> is_derive v t (rhs p q g u t (y t) (v t)).

(** Arguments with these coefficients and this input. *)
Definition has_equation (a : dmp_args) : Prop :=
  free a /\ a_goal_t a <> a_start_t a /\ stiff a d = p /\ damp a d = q /\ a_goal_y a d = g
  /\ forall t, input a d t = u t.

Lemma run_error : exists C, 0 <= C /\
  forall a (s : nat -> vec * vec) dt H, has_equation a ->
  0 < dt -> 0 < H -> fst (s 0%nat) d = y 0 -> snd (s 0%nat) d = v 0 ->
  ((forall k, s (S k) = dmp_step_rk4 a (0 + INR k * dt) (0 + INR (S k) * dt) (s k)) /\ H = dt
   \/ (exists i, 0 < i /\ H = Rmin dt i /\ forall k, exists l,
         tiles (0 + INR k * dt) (0 + INR (S k) * dt) i l /\ s (S k) = exec_substeps (euler_body a) l (s k))) ->
  forall k, INR k * dt <= T -> Rabs (fst (s k) d - y (INR k * dt)) <= C * H.
Proof.
  destruct (euler_consistent p q g T u y v HT HU HY HV) as (M1 & HM1 & CE).
  destruct (rk4_consistent p q g T u y v HT HU HY HV) as (M2 & HM2 & CR).
  destruct (one_step p q g T u y v HT HU HY HV M1 HM1) as (K1 & C1 & HK1 & HC1 & OE).
  destruct (one_step p q g T u y v HT HU HY HV M2 HM2) as (K2 & C2 & HK2 & HC2 & OR).
  exists (C1 * T * exp (K1 * T) + C2 * T * exp (K2 * T)).
  assert (HA1 : 0 <= C1 * T * exp (K1 * T))
    by (apply Rmult_le_pos; [apply Rmult_le_pos; auto|apply Rlt_le, exp_pos]).
  assert (HA2 : 0 <= C2 * T * exp (K2 * T))
    by (apply Rmult_le_pos; [apply Rmult_le_pos; auto|apply Rlt_le, exp_pos]).
  split; [lra|]. intros a s dt H (F & Hne & Ep & Eq & Eg & Eu) Hdt HH E0 E0' Hcase k Hk.
  assert (Eu' : input a d = u) by (apply functional_extensionality; auto).
  assert (Hend : forall K C N t, 0 <= K -> 0 <= C -> 0 <= t <= T -> N <= C * H * t * exp (K * t) ->
     N <= C * T * exp (K * T) * H).
  { intros K C N t HK HC Ht HNN. eapply Rle_trans; [exact HNN|].
    replace (C * T * exp (K * T) * H) with ((C * H) * (T * exp (K * T))) by ring.
    rewrite Rmult_assoc. apply Rmult_le_compat_l; [apply Rmult_le_pos; lra|].
    apply Rmult_le_compat; try lra; [apply Rlt_le, exp_pos|].
    assert (HKt : K * t <= K * T) by (apply Rmult_le_compat_l; lra).
    destruct HKt as [HKt| ->]; [apply Rlt_le, exp_increasing; auto|apply Rle_refl]. }
  assert (Hek : forall K C t Y V, 0 <= K -> 0 <= C -> 0 <= t <= T ->
     err y v t Y V <= C * H * t * exp (K * t) -> Rabs (Y - y t) <= C * T * exp (K * T) * H).
  { intros K C t Y V HK HC Ht HE. apply (Hend K C) with (t := t); auto.
    unfold err in HE. pose proof (Rabs_pos (V - v t)). lra. }
  destruct Hcase as [(Hstep & ->)|(i & Hi & EH & Hstep)].
  - apply Rle_trans with (C2 * T * exp (K2 * T) * dt);
      [|apply Rmult_le_compat_r; lra].
    apply (Hek K2 C2 (INR k * dt) _ (snd (s k) d)); auto.
    { split; auto. apply Rmult_le_pos; [apply pos_INR|lra]. }
    induction k as [|k IH].
    + rewrite Rmult_0_l. unfold err. rewrite E0, E0', !Rminus_eq_0, Rabs_R0. lra.
    + rewrite S_INR in *. pose proof (pos_INR k) as Pk.
      assert (Pkd : 0 <= INR k * dt) by (apply Rmult_le_pos; lra).
      assert (Hk' : INR k * dt <= T) by nra. specialize (IH Hk').
      replace ((INR k + 1) * dt) with (INR k * dt + dt) in * by ring.
      set (t := INR k * dt) in *.
      rewrite (Hstep k). rewrite S_INR. replace (0 + (INR k + 1) * dt) with (t + dt) by (unfold t; ring).
      replace (0 + INR k * dt) with t by (unfold t; ring).
      destruct (s k) as [Yv Vv]. cbn [fst snd] in IH.
      pose proof (rk4_rhs a t (t + dt) Yv Vv d F Hne) as RR. cbv zeta in RR. rewrite Ep, Eq, Eg, Eu' in RR.
      replace (t + dt - t) with dt in RR by ring.
      destruct RR as [RY RV].
      apply (gronwall_invariant K2 C2 dt t dt (err y v t (Yv d) (Vv d))); auto; try lra.
      { apply err_nonneg. }
      apply OR; auto. rewrite RY, RV.
      apply (CR t dt (Yv d) (Vv d) (t + dt) (t + dt + / 2 * dt) (t + dt + dt)); auto; lra.
  - apply Rle_trans with (C1 * T * exp (K1 * T) * H);
      [|apply Rmult_le_compat_r; lra].
    apply (Hek K1 C1 (INR k * dt) _ (snd (s k) d)); auto.
    { split; auto. apply Rmult_le_pos; [apply pos_INR|lra]. }
    induction k as [|k IH].
    + rewrite Rmult_0_l. unfold err. rewrite E0, E0', !Rminus_eq_0, Rabs_R0. lra.
    + rewrite S_INR in *. pose proof (pos_INR k) as Pk.
      assert (Pkd : 0 <= INR k * dt) by (apply Rmult_le_pos; lra).
      assert (Hk' : INR k * dt <= T) by nra. specialize (IH Hk').
      destruct (Hstep k) as (l & Hl & ->). rewrite S_INR in Hl.
      replace (0 + (INR k + 1) * dt) with ((INR k + 1) * dt) in Hl by ring.
      replace (0 + INR k * dt) with (INR k * dt) in Hl by ring.
      set (I := fun t (s : vec * vec) => err y v t (fst s d) (snd s d) <= C1 * H * t * exp (K1 * t)).
      change (I ((INR k + 1) * dt) (exec_substeps (euler_body a) l (s k))).
      assert (Hl' : tiles (INR k * dt) ((INR k + 1) * dt) H l).
      { destruct (tiles_min _ _ _ _ Hl) as [Hm|Hm].
        - replace ((INR k + 1) * dt - INR k * dt) with dt in Hm by ring. now rewrite EH.
        - subst l. simpl in Hl. nra. }
      apply (exec_substeps_inv I (euler_body a) l (INR k * dt) ((INR k + 1) * dt) H); auto.
      intros t h [Yv Vv] Ht Hh Hth HI. unfold I in *. cbn [fst snd] in HI.
      pose proof (euler_rhs a (t + h) h Yv Vv d F Hne) as RR. cbv zeta in RR.
      rewrite Ep, Eq, Eg, Eu' in RR. destruct RR as [RV RY].
      apply (gronwall_invariant K1 C1 H t h (err y v t (Yv d) (Vv d))); auto; try lra.
      { apply err_nonneg. }
      apply OE; auto; try lra. rewrite RY, RV. apply CE; lra.
Qed.

End Run.

Lemma equation_rhs n o d y v : reachable n o -> 0 < o_execution_time o ->
  let a := open_loop_step_args o None in
  dmp_equation o d y v <->
  y 0 = aget (p_start_y (o_base o)) d /\ v 0 = 0 /\ forall t, 0 <= t -> is_derive y t (v t)
  /\ is_derive v t (rhs (stiff a d) (damp a d) (a_goal_y a d) (input a d) t (y t) (v t)).
Proof.
  intros Hr Ht a. unfold dmp_equation.
  assert (E : forall t, (aget (o_alpha_y o) d * (aget (o_beta_y o) d * (aget (p_goal_y (o_base o)) d - y t)
        - o_execution_time o * v t - (if o_smooth_scaling o
            then aget (o_beta_y o) d * (aget (p_goal_y (o_base o)) d - aget (p_start_y (o_base o)) d)
                 * ft_phase (o_forcing_term o) t else 0))
        + ft_call (o_forcing_term o) t d) / o_execution_time o ^ 2
     = rhs (stiff a d) (damp a d) (a_goal_y a d) (input a d) t (y t) (v t)).
  { intros t. unfold rhs, stiff, damp, input, disturbance, ft_call, a.
    cbn [open_loop_step_args a_alpha_y a_beta_y a_goal_t a_start_t a_goal_y a_start_y a_forcing_term
      a_smooth_scaling]. rewrite Rminus_0_r. destruct (o_smooth_scaling o); field; lra. }
  cbv zeta. split; intros (H0 & H1 & H2); (split; [auto|split; [auto|]]); intros t Htt;
    destruct (H2 t Htt) as (D1 & D2); (split; [exact D1|]);
    [rewrite <- E|rewrite E]; exact D2.
Qed.

Lemma same_equation_forces n n' o o' d : reachable n o -> reachable n' o' -> same_equation d o o' ->
  (forall t, ft_phase (o_forcing_term o') t = ft_phase (o_forcing_term o) t)
  /\ forall t, ft_call (o_forcing_term o') t d = ft_call (o_forcing_term o) t d.
Proof.
  intros Hr Hr' (S1 & S2 & S3 & S4 & S5 & S6 & S7 & S8 & S9).
  destruct (reachable_ft n o Hr) as (j & g & w & Eg & Ef).
  destruct (reachable_ft n' o' Hr') as (j' & g' & w' & Eg' & Ef').
  rewrite S2, S4 in Eg'.
  pose proof (forcing_term_init_n _ _ _ _ _ _ _ _ Eg) as (N & G & St & _ & Az & _).
  pose proof (forcing_term_init_n _ _ _ _ _ _ _ _ Eg') as (N' & G' & St' & _ & Az' & _).
  assert (HP : forall t, ft_phase (o_forcing_term o') t = ft_phase (o_forcing_term o) t).
  { intros t. rewrite Ef, Ef'. unfold ft_phase.
    cbn [set_ft_weights ft_n ft_alpha_z ft_goal_t ft_start_t]. congruence. }
  split; auto. intros t. unfold ft_call. rewrite HP. set (z := ft_phase (o_forcing_term o) t). clearbody z.
  unfold ft_forces. rewrite Ef, Ef' in *. cbn [set_ft_weights ft_n ft_weights ft_centers ft_widths] in *.
  rewrite N', N. f_equal. apply rsum_ext. intros i Hi. rewrite (S9 i Hi). f_equal.
  apply activations_ext; auto. intros k Hk.
  apply (C02_fully_initialised _ _ _ _ _ _ _ _ _ _ _ Eg' Eg k Hk).
Qed.

Lemma reachable_n n o : reachable n o -> (0 < ft_n (o_forcing_term o))%nat.
Proof. intros H. apply (reachable_phase_ok n o H). Qed.

(** ** C96 *)
(** The equation has exactly one solution, for all gains, weights, start and goal. *)
Theorem C96_solution : forall n o d, reachable n o -> 0 < o_execution_time o ->
  (exists y v, dmp_equation o d y v)
  /\ forall y1 v1 y2 v2, dmp_equation o d y1 v1 -> dmp_equation o d y2 v2 ->
       forall t, 0 <= t -> y1 t = y2 t.
Proof.
  intros n o d Hr Ht. set (a := open_loop_step_args o None).
  assert (Hn : (0 < ft_n (a_forcing_term a))%nat) by (apply (reachable_n n o Hr)).
  split.
  - destruct (solution_exists (stiff a d) (damp a d) (a_goal_y a d) (input a d)
                (aget (p_start_y (o_base o)) d) 0) as (y & v & H0 & H1 & H2).
    { intros t. apply lipb_continuous. intros x z. now apply lipb_input. }
    exists y, v. apply (equation_rhs n o d y v Hr Ht). split; auto.
  - intros y1 v1 y2 v2 E1 E2 t Htt.
    apply (equation_rhs n o d y1 v1 Hr Ht) in E1. apply (equation_rhs n o d y2 v2 Hr Ht) in E2.
    destruct E1 as (A0 & A1 & A2), E2 as (B0 & B1 & B2).
    destruct Htt as [Htt| <-]; [|congruence].
    assert (F : free a) by (unfold free; cbn; auto).
    pose proof (lipb_input 0 (2 * t) a d Hn) as HU.
    destruct (run_error (stiff a d) (damp a d) (a_goal_y a d) (input a d) d t y1 v1 ltac:(lra) HU)
      as (C1 & HC1 & R1).
    { intros s Hs. apply A2; lra. } { intros s Hs. apply A2; lra. }
    destruct (run_error (stiff a d) (damp a d) (a_goal_y a d) (input a d) d t y2 v2 ltac:(lra) HU)
      as (C2 & HC2 & R2).
    { intros s Hs. apply B2; lra. } { intros s Hs. apply B2; lra. }
    assert (HEa : has_equation (stiff a d) (damp a d) (a_goal_y a d) (input a d) d a).
    { unfold has_equation. repeat split; auto; try apply F. cbn. lra. }
    assert (HB : forall N, (0 < N)%nat -> Rabs (y1 t - y2 t) <= (C1 + C2) * t / INR N).
    { intros N HN. assert (PN : 0 < INR N) by (apply lt_0_INR; auto).
      set (dt := t / INR N). assert (Hdt : 0 < dt) by (apply Rmult_lt_0_compat; auto; apply Rinv_0_lt_compat; auto).
      assert (EN : INR N * dt = t) by (unfold dt; field; lra).
      destruct (run_seq_rk4 a 0 dt (aget (p_start_y (o_base o)), vzero)) as (s & E0 & Es & _).
      assert (G1 := R1 a s dt dt HEa Hdt Hdt). assert (G2 := R2 a s dt dt HEa Hdt Hdt).
      rewrite E0 in G1, G2. cbn [fst snd] in G1, G2.
      specialize (G1 (eq_sym A0) (eq_sym A1) (or_introl (conj Es eq_refl)) N ltac:(lra)).
      specialize (G2 (eq_sym B0) (eq_sym B1) (or_introl (conj Es eq_refl)) N ltac:(lra)).
      rewrite EN in G1, G2.
      replace (y1 t - y2 t) with (- (fst (s N) d - y1 t) + (fst (s N) d - y2 t)) by ring.
      eapply Rle_trans; [apply Rabs_triang|]. rewrite Rabs_Ropp.
      replace ((C1 + C2) * t / INR N) with (C1 * dt + C2 * dt) by (unfold dt; field; lra). lra. }
    destruct (Req_dec (y1 t) (y2 t)) as [|Hd]; auto. exfalso.
    assert (Hp : 0 < Rabs (y1 t - y2 t)) by (apply Rabs_pos_lt; lra).
    set (D := Rabs (y1 t - y2 t)) in *.
    destruct (archimed ((C1 + C2) * t / D)) as [Ha _].
    assert (Hq : 0 <= (C1 + C2) * t / D).
    { apply Rmult_le_pos; [apply Rmult_le_pos; lra|apply Rlt_le, Rinv_0_lt_compat; auto]. }
    assert (Hz : (0 < up ((C1 + C2) * t / D))%Z) by (apply lt_IZR; lra).
    specialize (HB (Z.to_nat (up ((C1 + C2) * t / D))) ltac:(lia)).
    rewrite INR_IZR_INZ, Z2Nat.id in HB by lia.
    set (U := IZR (up ((C1 + C2) * t / D))) in *.
    assert (PU : 0 < U) by lra.
    apply Rmult_le_compat_r with (r := U) in HB; [|lra].
    replace ((C1 + C2) * t / U * U) with ((C1 + C2) * t) in HB by (field; lra).
    apply Rmult_gt_compat_r with (r := D) in Ha; auto.
    replace ((C1 + C2) * t / D * D) with ((C1 + C2) * t) in Ha by (field; lra). lra.
Qed.

(** Every movement with the same equation, whatever the integrator and the step
    lengths, is within [C * step length] of the solution up to time [T]; [C]
    depends on neither. *)
Theorem C96_converges : forall n o d y v T, reachable n o -> 0 < o_execution_time o -> 0 <= T ->
  dmp_equation o d y v ->
  exists C, 0 <= C /\
  forall n' o' fn run_t ts ys, reachable n' o' -> same_equation d o o' -> 0 < o_dt o' -> 0 < o_int_dt o' ->
  dmp_open_loop run_t None (Some fn) o' = Ok (ts, ys) ->
  length ys = length ts /\
  forall k, (k < length ts)%nat -> nth k ts 0 <= T ->
    Rabs (nth k ys vzero d - y (nth k ts 0)) <= C * step_length fn o'.
Proof.
  intros n o d y v T Hr Ht HT HE. set (a := open_loop_step_args o None).
  pose proof HE as HE0. apply (equation_rhs n o d y v Hr Ht) in HE0. destruct HE0 as (E0 & E1 & E2).
  fold a in E2.
  assert (Hn : (0 < ft_n (a_forcing_term a))%nat) by (apply (reachable_n n o Hr)).
  assert (F : free a) by (unfold free; cbn; auto).
  pose proof (lipb_input 0 (2 * T) a d Hn) as HU.
  destruct (run_error (stiff a d) (damp a d) (a_goal_y a d) (input a d) d T y v HT HU) as (C & HC & RE).
  { intros s Hs. apply E2; lra. } { intros s Hs. apply E2; lra. }
  exists C. split; auto. intros n' o' fn run_t ts ys Hr' HS Hdt Hi HO.
  set (a' := open_loop_step_args o' None).
  assert (Ht' : 0 < o_execution_time o') by (rewrite (proj1 HS); auto).
  assert (HEa : has_equation (stiff a d) (damp a d) (a_goal_y a d) (input a d) d a').
  { destruct (same_equation_forces n n' o o' d Hr Hr' HS) as (HP & HF).
    destruct HS as (S1 & S2 & S3 & S4 & S5 & S6 & S7 & S8 & S9).
    unfold has_equation. split; [unfold free; cbn; auto|].
    unfold stiff, damp, input, disturbance, a, a'.
    cbn [open_loop_step_args a_alpha_y a_beta_y a_goal_t a_start_t a_goal_y a_start_y a_forcing_term
      a_smooth_scaling]. rewrite S1, S3, S5, S6, S7, S8.
    split; [lra|]. split; auto. split; auto. split; auto. intros t.
    specialize (HF t). unfold ft_call in HF. rewrite HF, HP. reflexivity. }
  assert (Hstart : aget (p_start_y (o_base o')) d = y 0).
  { destruct HS as (_ & _ & _ & _ & _ & _ & S7 & _). congruence. }
  assert (Hruns : exists s : nat -> vec * vec,
     (forall k, run_seq (run_step_function fn a') 0 (o_dt o') (aget (p_start_y (o_base o')), vzero) k = Ok (s k))
     /\ forall k, INR k * o_dt o' <= T -> Rabs (fst (s k) d - y (INR k * o_dt o')) <= C * step_length fn o').
  { assert (Hfn : uses_rk4 fn \/ uses_euler fn) by (destruct fn; unfold uses_rk4, uses_euler; auto).
    destruct Hfn as [Hfn|Hfn].
    - destruct (run_seq_rk4 a' 0 (o_dt o') (aget (p_start_y (o_base o')), vzero)) as (s & Z0 & Zs & Zr).
      exists s. split.
      + destruct Hfn as [-> | ->]; auto. intros k. rewrite <- Zr.
        assert (Efn : run_step_function RK4_cython a' = run_step_function RK4 a').
        { apply functional_extensionality; intro. apply functional_extensionality; intro.
          apply functional_extensionality; intro. cbn [run_step_function]. now rewrite rk4_cython_eq. }
        now rewrite Efn.
      + replace (step_length fn o') with (o_dt o') by (destruct Hfn as [-> | ->]; reflexivity).
        apply (RE a' s (o_dt o') (o_dt o') HEa); auto; rewrite Z0; cbn [fst snd]; auto.
    - destruct (run_seq_euler fn a' 0 (o_dt o') (aget (p_start_y (o_base o')), vzero)) as (s & Z0 & Zs & Zr); auto;
        try (unfold free; cbn; auto; fail); try (cbn; lra).
      exists s. split; auto.
      replace (step_length fn o') with (Rmin (o_dt o') (o_int_dt o')) by (destruct Hfn as [-> | ->]; reflexivity).
      apply (RE a' s (o_dt o') (Rmin (o_dt o') (o_int_dt o')) HEa); auto.
      + apply Rmin_pos; auto.
      + rewrite Z0. auto.
      + rewrite Z0. auto.
      + right. exists (o_int_dt o'). auto. }
  destruct Hruns as (s & Hs & HB).
  unfold dmp_open_loop in HO. fold a' in HO.
  rewrite (open_loop_run_map _ 0 _ (o_dt o') _ _ s Hs) in HO.
  set (rt := match run_t with Some x => x | None => o_execution_time o' end) in HO.
  destruct (arange 0 (rt + o_dt o') (o_dt o')) as [|t0 ts0] eqn:Ea; [discriminate|].
  unfold bind in HO. cbn [fst snd] in HO. injection HO as <- <-.
  set (m := length (t0 :: ts0)) in *.
  change (fst (s 0%nat) :: map fst (map s (seq 1 (length ts0)))) with (map fst (map s (seq 0 m))).
  split; [now rewrite !map_length, seq_length|]. intros k Hk HkT.
  assert (Enth : nth k (t0 :: ts0) 0 = INR k * o_dt o').
  { rewrite <- Ea. rewrite arange_nth; [ring|]. rewrite <- arange_length, Ea. exact Hk. }
  rewrite Enth in *.
  replace (nth k (map fst (map s (seq 0 m))) vzero) with (fst (s k)); [apply HB; auto|].
  rewrite map_map. rewrite nth_indep with (d' := fst (s 0%nat)) by (rewrite map_length, seq_length; auto).
  rewrite (map_nth (fun x => fst (s x))), seq_nth by auto. reflexivity.
Qed.

(** Two movements with the same equation, any two integrators and step lengths:
    at the same time they differ by at most a constant times the step lengths. *)
Theorem C96_integrators : forall n o d T, reachable n o -> 0 < o_execution_time o -> 0 <= T ->
  exists C, 0 <= C /\
  forall n1 o1 fn1 run1 ts1 ys1 n2 o2 fn2 run2 ts2 ys2,
  reachable n1 o1 -> same_equation d o o1 -> 0 < o_dt o1 -> 0 < o_int_dt o1 ->
  reachable n2 o2 -> same_equation d o o2 -> 0 < o_dt o2 -> 0 < o_int_dt o2 ->
  dmp_open_loop run1 None (Some fn1) o1 = Ok (ts1, ys1) ->
  dmp_open_loop run2 None (Some fn2) o2 = Ok (ts2, ys2) ->
  forall k1 k2, (k1 < length ts1)%nat -> (k2 < length ts2)%nat ->
    nth k1 ts1 0 = nth k2 ts2 0 -> nth k1 ts1 0 <= T ->
    Rabs (nth k1 ys1 vzero d - nth k2 ys2 vzero d) <= C * (step_length fn1 o1 + step_length fn2 o2).
Proof.
  intros n o d T Hr Ht HT. destruct (C96_solution n o d Hr Ht) as ((y & v & HE) & _).
  destruct (C96_converges n o d y v T Hr Ht HT HE) as (C & HC & H).
  exists C. split; auto. intros n1 o1 fn1 run1 ts1 ys1 n2 o2 fn2 run2 ts2 ys2
    R1 S1 D1 I1 R2 S2 D2 I2 O1 O2 k1 k2 K1 K2 Et HT1.
  destruct (H n1 o1 fn1 run1 ts1 ys1 R1 S1 D1 I1 O1) as (_ & H1).
  destruct (H n2 o2 fn2 run2 ts2 ys2 R2 S2 D2 I2 O2) as (_ & H2).
  specialize (H1 k1 K1 HT1). specialize (H2 k2 K2 ltac:(lra)). rewrite <- Et in H2.
  set (z := y (nth k1 ts1 0)) in *.
  replace (nth k1 ys1 vzero d - nth k2 ys2 vzero d)
    with ((nth k1 ys1 vzero d - z) + - (nth k2 ys2 vzero d - z)) by ring.
  eapply Rle_trans; [apply Rabs_triang|]. rewrite Rabs_Ropp. lra.
Qed.

(** An object with weights that are not zero and whose goal differs from its
    start, and for every step length an object with the same equation. *)
Example C96_satisfiable : exists o, reachable 1 o /\ 0 < o_execution_time o
  /\ aget (p_start_y (o_base o)) 0%nat = 0 /\ aget (p_goal_y (o_base o)) 0%nat = 2
  /\ ft_weights (o_forcing_term o) 0%nat 1%nat = 4
  /\ forall h, 0 < h -> exists o', reachable 1 o' /\ same_equation 0 o o'
       /\ o_dt o' = h /\ o_int_dt o' = h
       /\ forall fn, step_length fn o' = h
                     /\ exists ts ys, dmp_open_loop None None (Some fn) o' = Ok (ts, ys).
Proof.
  destruct (ex_new_ok 1 25 (25/4)) as (f & o & E & Ef & Eo).
  assert (Hr : reachable 1 o) by (eapply ex_reachable; eauto).
  pose proof (forcing_term_init_n _ _ _ _ _ _ _ _ Ef) as (N & G & _).
  set (o1 := fst (exec (CSetWeights {| alen := 2; aget := fun k => 3 + INR k |}) o)).
  set (o2 := fst (exec (CConfigure {| c_t := None; c_start_y := None; c_start_yd := None; c_start_ydd := None;
                 c_goal_y := Some {| alen := 1; aget := fun _ => 2 |};
                 c_goal_yd := None; c_goal_ydd := None |}) o1)).
  assert (Hr2 : reachable 1 o2) by (unfold o2, o1; now do 2 apply reachable_exec).
  exists o2. split; auto.
  assert (E2 : o_execution_time o2 = 1 /\ aget (p_start_y (o_base o2)) 0%nat = 0
     /\ aget (p_goal_y (o_base o2)) 0%nat = 2 /\ ft_weights (o_forcing_term o2) 0%nat 1%nat = 4).
  { unfold o2, o1. rewrite Eo. cbn [exec]. unfold dmp_set_weights, reshape. cbn. rewrite N. cbn.
    repeat split. lra. }
  destruct E2 as (E1 & E2 & E3 & E4). split; [lra|]. do 3 (split; auto).
  intros h Hh. exists (fst (exec (CSetIntDt h) (fst (exec (CSetDt h) o2)))).
  split; [now do 2 apply reachable_exec|]. cbn [exec fst].
  split; [unfold same_equation; cbn; repeat split; auto|]. split; [reflexivity|]. split; [reflexivity|].
  intros fn. split.
  - destruct fn; cbn; auto; apply Rmin_left; lra.
  - set (o' := with_int_dt h (with_dt h o2)).
    destruct (C13_runs_exist fn (o_forcing_term o') (o_execution_time o') (aget (p_start_y (o_base o')))
      vzero (aget (p_goal_y (o_base o'))) (aget (o_alpha_y o')) (aget (o_beta_y o')) (o_int_dt o') (o_dt o')
      (o_smooth_scaling o') (o_execution_time o')) as (ts & l & El & _).
    1-4: change (o_execution_time o') with (o_execution_time o2); change (o_dt o') with h;
         change (o_int_dt o') with h; lra.
    change (open_loop_args (o_forcing_term o') (o_execution_time o') (aget (p_start_y (o_base o')))
      (aget (p_goal_y (o_base o'))) (aget (o_alpha_y o')) (aget (o_beta_y o')) (o_int_dt o')
      (o_smooth_scaling o')) with (open_loop_step_args o' None) in El.
    exists ts, (map fst l). unfold dmp_open_loop. now rewrite El.
Qed.
