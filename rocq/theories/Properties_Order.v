(** C105: the order of accuracy of the Runge-Kutta step functions.  Final statements. *)
From Coq Require Import Reals ZArith List Lia Lra Psatz FunctionalExtensionality.
From Coquelicot Require Import Coquelicot.
From Verif Require Import M_Prelude M_Canonical M_Forcing M_Dmp M_Base M_DmpObject
  S_Loops S_Dmp P_Loops P_Canonical P_Forcing P_DmpStep P_DmpScale P_DmpLinear P_Converge
  P_DmpObject P_DmpAffine P_Continuity P_Ode P_OdeSolution P_Smooth P_Order
  Properties_Forcing Properties_Dmp
  Properties_DmpObject Properties_Goal Properties_Equivariance Properties_Continuity Properties_Ode.
Import ListNotations.
Open Scope R_scope.
Set Bullet Behavior "Strict Subproofs".

(** ** Specification *)
(** The differential equation of a DMP in dimension [d] whose phase and forcing term run
    ahead of the time by [a]; for [a = 0] it is the DMP's equation, see
    [Properties_Ode.dmp_equation]. *)
Definition equation_ahead (a : R) (o : dmp) (d : nat) (y v : R -> R) : Prop :=
  let tau := o_execution_time o in
  let alpha := aget (o_alpha_y o) d in
  let beta := aget (o_beta_y o) d in
  let goal := aget (p_goal_y (o_base o)) d in
  let start := aget (p_start_y (o_base o)) d in
  y 0 = start /\ v 0 = 0 /\
  forall t, 0 <= t ->
    is_derive y t (v t)
    /\ is_derive v t
         ((alpha * (beta * (goal - y t) - tau * v t
                    - (if o_smooth_scaling o
                       then beta * (goal - start) * ft_phase (o_forcing_term o) (t + a) else 0))
           + ft_call (o_forcing_term o) (t + a) d) / tau ^ 2).

(** The step functions that use the Runge-Kutta method. *)
Definition runge_kutta (fn : step_function) : Prop := fn = RK4 \/ fn = RK4_cython.

(** ** Proofs *)
Lemma smooth_phase n f : smooth n (ft_phase f).
Proof.
  unfold ft_phase, phase. cbv zeta. apply smooth_exp.
  apply smooth_ext with (fun t => (- ft_alpha_z f / (ft_goal_t f - ft_start_t f)) * (t - ft_start_t f));
    [intros; unfold Rdiv; ring|].
  apply smooth_scal, smooth_minus; [apply smooth_id|apply smooth_const].
Qed.

Lemma smooth_rbf n f i : smooth n (fun t => rbf (ft_centers f) (ft_widths f) (ft_phase f t) i).
Proof.
  unfold rbf. apply smooth_exp.
  apply smooth_ext with (fun t => - ft_widths f i
     * ((ft_phase f t - ft_centers f i) * (ft_phase f t - ft_centers f i))); [intros; ring|].
  assert (H : smooth n (fun t => ft_phase f t - ft_centers f i))
    by (apply smooth_minus; [apply smooth_phase|apply smooth_const]).
  apply smooth_scal. now apply smooth_mult.
Qed.

Lemma smooth_forces n f d : (0 < ft_n f)%nat -> smooth n (fun t => ft_forces f (ft_phase f t) d).
Proof.
  intros Hn. unfold ft_forces. apply smooth_mult; [apply smooth_phase|].
  apply (smooth_rsum n (ft_n f) (fun i t => ft_weights f d i
     * activations (ft_n f) (ft_centers f) (ft_widths f) (ft_phase f t) i)).
  intros i. apply smooth_scal. unfold activations, Rdiv. apply smooth_mult; [apply smooth_rbf|].
  apply (smooth_inv n (fun t => rsum (ft_n f) (rbf (ft_centers f) (ft_widths f) (ft_phase f t)))).
  - intros t. apply Rgt_not_eq.
    assert (P : forall k, 0 < rbf (ft_centers f) (ft_widths f) (ft_phase f t) k) by (intros; apply exp_pos).
    destruct (ft_n f) as [|k]; [lia|]. clear Hn. induction k as [|k IH]; cbn [rsum] in *.
    + specialize (P 0%nat). lra.
    + specialize (P (S k)). lra.
  - apply (smooth_rsum n (ft_n f) (fun k t => rbf (ft_centers f) (ft_widths f) (ft_phase f t) k)).
    intros k. apply smooth_rbf.
Qed.

Lemma smooth_input n a d : (0 < ft_n (a_forcing_term a))%nat -> smooth n (input a d).
Proof.
  intros Hn. unfold input, disturbance.
  apply smooth_ext with (fun t => / (a_goal_t a - a_start_t a) ^ 2
    * (ft_forces (a_forcing_term a) (ft_phase (a_forcing_term a) t) d
       - (if a_smooth_scaling a then a_alpha_y a d * a_beta_y a d * (a_goal_y a d - a_start_y a d) else 0)
         * ft_phase (a_forcing_term a) t)).
  { intros t. unfold Rdiv. destruct (a_smooth_scaling a); ring. }
  apply smooth_scal, smooth_minus; [now apply smooth_forces|]. apply smooth_scal, smooth_phase.
Qed.

(** The movement of a Runge-Kutta step function as a recursion in one dimension. *)
Lemma rk4_movement n o d fn run_t ts ys : reachable n o -> 0 < o_execution_time o -> 0 < o_dt o ->
  runge_kutta fn -> dmp_open_loop run_t None (Some fn) o = Ok (ts, ys) ->
  let a := open_loop_step_args o None in
  exists s : nat -> R * R, s 0%nat = (aget (p_start_y (o_base o)) d, 0)
  /\ (forall k, let h := o_dt o in s (S k) = rk4_map (stiff a d) (damp a d) (a_goal_y a d) h
        (input a d (INR k * h + h)) (input a d (INR k * h + h + h / 2)) (input a d (INR k * h + h + h))
        (fst (s k)) (snd (s k)))
  /\ length ys = length ts
  /\ forall k, (k < length ts)%nat -> nth k ts 0 = INR k * o_dt o /\ nth k ys vzero d = fst (s k).
Proof.
  intros Hr Ht Hdt Hfn HO a.
  destruct (run_seq_rk4 a 0 (o_dt o) (aget (p_start_y (o_base o)), vzero)) as (s & Z0 & Zs & Zr).
  exists (fun k => (fst (s k) d, snd (s k) d)).
  split; [rewrite Z0; reflexivity|]. split.
  { intros k h. rewrite (Zs k). cbn [fst snd]. rewrite S_INR.
    replace (0 + (INR k + 1) * o_dt o) with (INR k * h + h) by (unfold h; ring).
    replace (0 + INR k * o_dt o) with (INR k * h) by (unfold h; ring).
    destruct (s k) as [Y V]. cbn [fst snd].
    assert (F : free a) by (unfold free; cbn; auto).
    assert (Hne : a_goal_t a <> a_start_t a) by (cbn; lra).
    pose proof (rk4_rhs a (INR k * h) (INR k * h + h) Y V d F Hne) as RR. cbv zeta in RR.
    replace (INR k * h + h - INR k * h) with h in RR by ring.
    replace (INR k * h + h + / 2 * h) with (INR k * h + h + h / 2) in RR by field.
    destruct RR as [RY RV]. rewrite RY, RV. reflexivity. }
  assert (Hs : forall k, run_seq (run_step_function fn a) 0 (o_dt o) (aget (p_start_y (o_base o)), vzero) k = Ok (s k)).
  { destruct Hfn as [-> | ->]; auto. intros k. rewrite <- Zr.
    assert (Efn : run_step_function RK4_cython a = run_step_function RK4 a).
    { apply functional_extensionality; intro. apply functional_extensionality; intro.
      apply functional_extensionality; intro. cbn [run_step_function]. now rewrite rk4_cython_eq. }
    now rewrite Efn. }
  unfold dmp_open_loop in HO. fold a in HO.
  rewrite (open_loop_run_map _ 0 _ (o_dt o) _ _ s Hs) in HO.
  set (rt := match run_t with Some x => x | None => o_execution_time o end) in HO.
  destruct (arange 0 (rt + o_dt o) (o_dt o)) as [|t0 ts0] eqn:Ea; [discriminate|].
  unfold bind in HO. cbn [fst snd] in HO. injection HO as <- <-.
  set (m := length (t0 :: ts0)) in *.
  change (fst (s 0%nat) :: map fst (map s (seq 1 (length ts0)))) with (map fst (map s (seq 0 m))).
  split; [now rewrite !map_length, seq_length|]. intros k Hk. split.
  - rewrite <- Ea. rewrite arange_nth; [ring|]. rewrite <- arange_length, Ea. exact Hk.
  - rewrite map_map. rewrite nth_indep with (d' := fst (s 0%nat)) by (rewrite map_length, seq_length; auto).
    rewrite (map_nth (fun x => fst (s x))), seq_nth by auto. reflexivity.
Qed.

Lemma ahead_rhs n o d y v b : reachable n o -> 0 < o_execution_time o ->
  let a := open_loop_step_args o None in
  equation_ahead b o d y v <->
  y 0 = aget (p_start_y (o_base o)) d /\ v 0 = 0 /\ forall t, 0 <= t -> is_derive y t (v t)
  /\ is_derive v t (stiff a d * (a_goal_y a d - y t) - damp a d * v t + input a d (t + b)).
Proof.
  intros Hr Ht a. unfold equation_ahead.
  assert (E : forall t, (aget (o_alpha_y o) d * (aget (o_beta_y o) d * (aget (p_goal_y (o_base o)) d - y t)
        - o_execution_time o * v t - (if o_smooth_scaling o
            then aget (o_beta_y o) d * (aget (p_goal_y (o_base o)) d - aget (p_start_y (o_base o)) d)
                 * ft_phase (o_forcing_term o) (t + b) else 0))
        + ft_call (o_forcing_term o) (t + b) d) / o_execution_time o ^ 2
     = stiff a d * (a_goal_y a d - y t) - damp a d * v t + input a d (t + b)).
  { intros t. unfold stiff, damp, input, disturbance, ft_call, a.
    cbn [open_loop_step_args a_alpha_y a_beta_y a_goal_t a_start_t a_goal_y a_start_y a_forcing_term
      a_smooth_scaling]. rewrite Rminus_0_r. destruct (o_smooth_scaling o); field; lra. }
  cbv zeta. split; intros (H0 & H1 & H2); (split; [auto|split; [auto|]]); intros t Htt;
    destruct (H2 t Htt) as (E1 & E2); (split; [exact E1|]);
    [rewrite <- E|rewrite E]; exact E2.
Qed.

Lemma same_coefficients n n' o o' d : reachable n o -> reachable n' o' -> same_equation d o o' ->
  let a := open_loop_step_args o None in let a' := open_loop_step_args o' None in
  stiff a' d = stiff a d /\ damp a' d = damp a d /\ a_goal_y a' d = a_goal_y a d
  /\ input a' d = input a d /\ aget (p_start_y (o_base o')) d = aget (p_start_y (o_base o)) d.
Proof.
  intros Hr Hr' HS a a'.
  destruct (same_equation_forces n n' o o' d Hr Hr' HS) as (HP & HF).
  destruct HS as (S1 & S2 & S3 & S4 & S5 & S6 & S7 & S8 & S9).
  unfold stiff, damp, input, disturbance, a, a'.
  cbn [open_loop_step_args a_alpha_y a_beta_y a_goal_t a_start_t a_goal_y a_start_y a_forcing_term
    a_smooth_scaling]. rewrite S1, S3, S5, S6, S7, S8.
  repeat split; auto. apply functional_extensionality. intros t.
  specialize (HF t). unfold ft_call in HF. rewrite HF, HP. reflexivity.
Qed.

(** ** C105 *)
(** For every amount by which the forcing term may run ahead there is a solution. *)
Theorem C105_solution : forall n o d a, reachable n o -> 0 < o_execution_time o ->
  exists y v, equation_ahead a o d y v.
Proof.
  intros n o d b Hr Ht. set (a := open_loop_step_args o None).
  assert (Hn : (0 < ft_n (a_forcing_term a))%nat) by (apply (reachable_n n o Hr)).
  destruct (solution_exists (stiff a d) (damp a d) (a_goal_y a d) (fun t => input a d (t + b))
              (aget (p_start_y (o_base o)) d) 0) as (y & v & H0 & H1 & H2).
  { intros t. apply (continuous_comp (fun t => t + b) (input a d)).
    - apply (ex_derive_continuous (fun t => t + b)). auto_derive. auto.
    - apply lipb_continuous. intros x z. now apply lipb_input. }
  exists y, v. apply (ahead_rhs n o d y v b Hr Ht). split; auto. split; auto.
  intros t _. apply H2.
Qed.

(** The Runge-Kutta step functions are of fourth order for the equation in which the
    forcing term runs ahead by one time step. *)
Theorem C105_fourth_order_ahead : forall n o d T, reachable n o -> 0 < o_execution_time o -> 0 <= T ->
  exists C, 0 <= C /\
  forall n' o' fn run_t ts ys y v, reachable n' o' -> same_equation d o o' -> 0 < o_dt o' ->
  runge_kutta fn -> dmp_open_loop run_t None (Some fn) o' = Ok (ts, ys) ->
  equation_ahead (o_dt o') o d y v ->
  length ys = length ts /\
  forall k, (k < length ts)%nat -> nth k ts 0 <= T ->
    Rabs (nth k ys vzero d - y (nth k ts 0)) <= C * o_dt o' ^ 4.
Proof.
  intros n o d T Hr Ht HT. set (a := open_loop_step_args o None).
  assert (Hn : (0 < ft_n (a_forcing_term a))%nat) by (apply (reachable_n n o Hr)).
  destruct (smooth_input 5 a d Hn) as (u1 & D0 & u2 & D1 & u3 & D2 & u4 & D3 & u5 & D4 & _).
  destruct (run_order (stiff a d) (damp a d) (a_goal_y a d) T (aget (p_start_y (o_base o)) d)
    (input a d) u1 u2 u3 u4 HT D0 D1 D2 D3 (ex_intro _ u5 D4)) as (C & HC & HR).
  exists C. split; auto. intros n' o' fn run_t ts ys y v Hr' HS Hdt Hfn HO HE.
  assert (Ht' : 0 < o_execution_time o') by (rewrite (proj1 HS); auto).
  destruct (rk4_movement n' o' d fn run_t ts ys Hr' Ht' Hdt Hfn HO) as (s & S0 & Ss & HL & Hk).
  destruct (same_coefficients n n' o o' d Hr Hr' HS) as (E1 & E2 & E3 & E4 & E5).
  cbv zeta in Ss. rewrite E1, E2, E3, E4 in Ss. rewrite E5 in S0. fold a in Ss.
  apply (ahead_rhs n o d y v _ Hr Ht) in HE. fold a in HE. destruct HE as (F0 & F1 & F2).
  split; auto. intros k Hkl HkT. destruct (Hk k Hkl) as (Et & Ey). rewrite Et, Ey in *.
  set (h := o_dt o') in *.
  assert (Hh4 : 0 <= C * h ^ 4) by (apply Rmult_le_pos; auto; apply pow_le; lra).
  destruct k as [|k].
  - rewrite S0. cbn [INR fst]. rewrite Rmult_0_l, F0, Rminus_eq_0, Rabs_R0. auto.
  - apply (HR h y v h s); auto.
    + rewrite S_INR in HkT. pose proof (pos_INR k). nra.
    + repeat split; auto; apply F2; lra.
Qed.

(** Without a forcing term they are of fourth order for the DMP's equation. *)
Theorem C105_fourth_order_unforced : forall n o d y v T, reachable n o -> 0 < o_execution_time o -> 0 <= T ->
  (forall i, (i < o_n_weights_per_dim o)%nat -> ft_weights (o_forcing_term o) d i = 0) ->
  o_smooth_scaling o = false \/ aget (p_goal_y (o_base o)) d = aget (p_start_y (o_base o)) d ->
  dmp_equation o d y v ->
  exists C, 0 <= C /\
  forall n' o' fn run_t ts ys, reachable n' o' -> same_equation d o o' -> 0 < o_dt o' ->
  runge_kutta fn -> dmp_open_loop run_t None (Some fn) o' = Ok (ts, ys) ->
  length ys = length ts /\
  forall k, (k < length ts)%nat -> nth k ts 0 <= T ->
    Rabs (nth k ys vzero d - y (nth k ts 0)) <= C * o_dt o' ^ 4.
Proof.
  intros n o d y v T Hr Ht HT Hw Hs HE.
  destruct (C105_fourth_order_ahead n o d T Hr Ht HT) as (C & HC & H). exists C. split; auto.
  intros n' o' fn run_t ts ys Hr' HS Hdt Hfn HO. apply (H n' o' fn run_t ts ys y v); auto.
  assert (Ef : forall t, ft_call (o_forcing_term o) t d = 0).
  { intros t. unfold ft_call. rewrite (C04_constant_weights _ _ _ 0); [ring|apply (reachable_n n o Hr)|].
    destruct (reachable_ft n o Hr) as (j & g & w & Eg & Ef).
    pose proof (forcing_term_init_n _ _ _ _ _ _ _ _ Eg) as (N & _).
    intros i Hi. apply Hw. rewrite Ef in Hi. cbn [set_ft_weights ft_n] in Hi. now rewrite <- N. }
  destruct HE as (E0 & E1 & E2). unfold equation_ahead. split; auto. split; auto.
  intros t Htt. destruct (E2 t Htt) as (G1 & G2). split; auto.
  rewrite Ef in *. replace (if o_smooth_scaling o
    then aget (o_beta_y o) d * (aget (p_goal_y (o_base o)) d - aget (p_start_y (o_base o)) d)
         * ft_phase (o_forcing_term o) (t + o_dt o') else 0)
   with (if o_smooth_scaling o
    then aget (o_beta_y o) d * (aget (p_goal_y (o_base o)) d - aget (p_start_y (o_base o)) d)
         * ft_phase (o_forcing_term o) t else 0); auto.
  destruct Hs as [-> |E]; auto. rewrite E, Rminus_eq_0. destruct (o_smooth_scaling o); ring.
Qed.

(** A critically damped equation with an input that is at least [m] ends up at least
    [m * phi] away. *)
Lemma pushed_away lam T m (e e' w : R -> R) : 0 < lam -> 0 < T -> 0 < m ->
  e 0 = 0 -> e' 0 = 0 ->
  (forall t, 0 <= t <= T -> is_derive e t (e' t)) ->
  (forall t, 0 <= t <= T -> is_derive e' t (- lam ^ 2 * e t - 2 * lam * e' t + w t)) ->
  (forall t, 0 <= t <= T -> m <= w t) ->
  m * ((1 - exp (- lam * T) * (1 + lam * T)) / lam ^ 2) <= e T.
Proof.
  intros Hl HT Hm E0 E0' De De' Hw.
  set (phi := fun t => (1 - exp (- lam * t) * (1 + lam * t)) / lam ^ 2).
  set (phi' := fun t => t * exp (- lam * t)).
  assert (Dphi : forall t, is_derive phi t (phi' t)).
  { intros t. unfold phi, phi'. auto_derive; auto. field. lra. }
  assert (Dphi' : forall t, is_derive phi' t (exp (- lam * t) * (1 - lam * t))).
  { intros t. unfold phi'. auto_derive; auto. ring. }
  set (E := fun t => e t - m * phi t). set (E' := fun t => e' t - m * phi' t).
  assert (DE : forall t, 0 <= t <= T -> is_derive E t (E' t)).
  { intros t Ht. apply (is_derive_minus e (fun t => m * phi t)); auto.
    apply (is_derive_scal phi t m (phi' t)); auto. }
  assert (DE' : forall t, 0 <= t <= T -> is_derive E' t (- lam ^ 2 * E t - 2 * lam * E' t + (w t - m))).
  { intros t Ht. evar_last.
    { apply (is_derive_minus e' (fun t => m * phi' t)); [apply De'; auto|].
      apply (is_derive_scal phi' t m); apply Dphi'. }
    unfold minus, plus, opp; simpl. unfold E, E', phi, phi'. field. lra. }
  assert (Dexp : forall t, is_derive (fun t => exp (lam * t)) t (lam * exp (lam * t))).
  { intros t. auto_derive; auto. ring. }
  assert (P0 : phi 0 = 0) by (unfold phi; rewrite !Rmult_0_r, exp_0; field; lra).
  assert (P0' : phi' 0 = 0) by (unfold phi'; ring).
  assert (G1 : forall t, 0 <= t <= T -> 0 <= exp (lam * t) * (E' t + lam * E t)).
  { intros t Ht.
    assert (L := derive_nonneg_le (fun t => exp (lam * t) * (E' t + lam * E t))
      (fun t => exp (lam * t) * (w t - m)) 0 t ltac:(lra)). cbv beta in L.
    replace (exp (lam * 0) * (E' 0 + lam * E 0)) with 0 in L
      by (unfold E, E'; rewrite E0, E0', P0, P0'; ring).
    apply L.
    - intros s Hs. evar_last.
      { apply (is_derive_mult (fun t => exp (lam * t)) (fun t => E' t + lam * E t));
          [apply Dexp| |intros; apply Rmult_comm].
        apply (is_derive_plus E' (fun t => lam * E t)); [apply DE'; lra|].
        apply (is_derive_scal E s lam), DE; lra. }
      unfold plus, mult; simpl. ring.
    - intros s Hs. apply Rmult_le_pos; [apply Rlt_le, exp_pos|]. specialize (Hw s ltac:(lra)). lra. }
  assert (G2 : 0 <= exp (lam * T) * E T).
  { assert (L := derive_nonneg_le (fun t => exp (lam * t) * E t)
      (fun t => exp (lam * t) * (E' t + lam * E t)) 0 T ltac:(lra)). cbv beta in L.
    replace (exp (lam * 0) * E 0) with 0 in L by (unfold E; rewrite E0, P0; ring).
    apply L; [|exact G1]. intros s Hs. evar_last.
    { apply (is_derive_mult (fun t => exp (lam * t)) E); [apply Dexp|apply DE; lra|intros; apply Rmult_comm]. }
    unfold plus, mult; simpl. ring. }
  assert (HE : 0 <= E T).
  { apply Rmult_le_reg_l with (exp (lam * T)); [apply exp_pos|]. lra. }
  unfold E, phi in HE. lra.
Qed.

(** The claim that they are of higher order than the first for the DMP's equation fails:
    for every critically damped DMP with equal weights, except those for which the forcing
    term and the smoothing cancel, and at every time, the error is at least proportional to
    the time step. *)
Theorem C105_first_order_refuted : forall n o d y v c T, reachable n o -> 0 < o_execution_time o -> 0 < T ->
  0 < aget (o_alpha_y o) d -> aget (o_beta_y o) d = aget (o_alpha_y o) d / 4 ->
  (forall i, (i < o_n_weights_per_dim o)%nat -> ft_weights (o_forcing_term o) d i = c) ->
  c <> (if o_smooth_scaling o
        then aget (o_alpha_y o) d * aget (o_beta_y o) d
             * (aget (p_goal_y (o_base o)) d - aget (p_start_y (o_base o)) d) else 0) ->
  dmp_equation o d y v ->
  exists m H, 0 < m /\ 0 < H /\
  forall n' o' fn run_t ts ys, reachable n' o' -> same_equation d o o' -> 0 < o_dt o' <= H ->
  runge_kutta fn -> dmp_open_loop run_t None (Some fn) o' = Ok (ts, ys) ->
  forall k, (k < length ts)%nat -> nth k ts 0 = T ->
    m * o_dt o' <= Rabs (nth k ys vzero d - y T).
Proof.
  intros n o d y v c T Hr Ht HT Hal Hbe Hw Hc HE.
  set (a := open_loop_step_args o None).
  destruct (C105_fourth_order_ahead n o d T Hr Ht ltac:(lra)) as (C & HC & HR).
  apply (equation_rhs n o d y v Hr Ht) in HE. fold a in HE. destruct HE as (Y0 & V0 & HY).
  set (tau := o_execution_time o) in *. set (al := aget (o_alpha_y o) d) in *.
  set (lam := al / (2 * tau)).
  assert (Hlam : 0 < lam) by (apply Rmult_lt_0_compat; auto; apply Rinv_0_lt_compat; lra).
  set (z := ft_phase (o_forcing_term o)).
  set (S := if o_smooth_scaling o then al * aget (o_beta_y o) d
             * (aget (p_goal_y (o_base o)) d - aget (p_start_y (o_base o)) d) else 0) in *.
  set (A := (c - S) / tau ^ 2).
  assert (HA : A <> 0).
  { unfold A, Rdiv. apply Rmult_integral_contrapositive_currified; [lra|].
    apply Rinv_neq_0_compat, pow_nonzero. lra. }
  assert (Hp : phase_ok (o_forcing_term o)) by (apply (reachable_phase_ok n o Hr)).
  assert (Hw' : forall i, (i < ft_n (o_forcing_term o))%nat -> ft_weights (o_forcing_term o) d i = c).
  { destruct (reachable_ft n o Hr) as (j & g & w & Eg & Ef).
    pose proof (forcing_term_init_n _ _ _ _ _ _ _ _ Eg) as (N & _).
    intros i Hi. apply Hw. rewrite Ef in Hi. cbn [set_ft_weights ft_n] in Hi. now rewrite <- N. }
  assert (Ein : forall t, input a d t = A * z t).
  { intros t. unfold input, disturbance, a.
    cbn [open_loop_step_args a_alpha_y a_beta_y a_goal_t a_start_t a_goal_y a_start_y a_forcing_term
      a_smooth_scaling]. rewrite (C04_constant_weights _ _ _ c) by (auto; apply Hp).
    fold tau al z. unfold A, S. rewrite Rminus_0_r. destruct (o_smooth_scaling o); field; lra. }
  assert (Es : stiff a d = lam ^ 2).
  { unfold stiff, a, lam. cbn [open_loop_step_args a_alpha_y a_beta_y a_goal_t a_start_t].
    rewrite Hbe. fold al tau. field. lra. }
  assert (Ed : damp a d = 2 * lam).
  { unfold damp, a, lam. cbn [open_loop_step_args a_alpha_y a_beta_y a_goal_t a_start_t].
    fold al tau. field. lra. }
  (* the phase falls *)
  set (kap := ft_alpha_z (o_forcing_term o) / (ft_goal_t (o_forcing_term o) - ft_start_t (o_forcing_term o))).
  assert (Hkap : 0 < kap).
  { destruct Hp as (_ & Hp1 & Hp2). apply Rmult_lt_0_compat; auto. apply Rinv_0_lt_compat. lra. }
  assert (Ez : forall t s, z (t + s) = z t * exp (- kap * s)).
  { intros t s. unfold z, ft_phase, phase. cbv zeta. rewrite <- exp_plus. f_equal. unfold kap.
    destruct Hp as (_ & Hp1 & Hp2). field. lra. }
  assert (Hz0 : forall t, 0 < z t) by (intros; apply exp_pos).
  assert (Hfall : forall t h, 0 <= t <= T -> 0 < h <= 1 ->
     z T * kap * exp (- kap) * h <= z t - z (t + h)).
  { intros t h Htt Hh. rewrite (Ez t h).
    assert (Hxe : kap * h * exp (- kap * h) <= 1 - exp (- kap * h)).
    { assert (EX : exp (- kap * h) * exp (kap * h) = 1) by (rewrite <- exp_plus, <- exp_0; f_equal; ring).
      pose proof (exp_ineq1_le (kap * h)) as EI. pose proof (exp_pos (- kap * h)) as EP.
      assert (exp (- kap * h) * (1 + kap * h) <= exp (- kap * h) * exp (kap * h))
        by (apply Rmult_le_compat_l; lra). lra. }
    assert (Hek : exp (- kap) <= exp (- kap * h)).
    { assert (HK : - kap <= - kap * h) by nra.
      destruct HK as [HK|HK]; [apply Rlt_le, exp_increasing; auto|rewrite <- HK; apply Rle_refl]. }
    assert (HzT : z T <= z t).
    { replace T with (t + (T - t)) by ring. rewrite Ez.
      assert (exp (- kap * (T - t)) <= 1).
      { rewrite <- exp_0. assert (HK : - kap * (T - t) <= 0) by nra.
        destruct HK as [HK| ->]; [apply Rlt_le, exp_increasing; auto|apply Rle_refl]. }
      pose proof (Hz0 t). nra. }
    pose proof (Hz0 T) as P1. pose proof (exp_pos (- kap)) as P2.
    assert (Hkh : 0 <= kap * h) by nra.
    replace (z t - z t * exp (- kap * h)) with (z t * (1 - exp (- kap * h))) by ring.
    replace (z T * kap * exp (- kap) * h) with (z T * (kap * h * exp (- kap))) by ring.
    apply Rmult_le_compat; try lra; [apply Rmult_le_pos; lra|].
    eapply Rle_trans; [|exact Hxe]. apply Rmult_le_compat_l; auto. }
  set (m0 := Rabs A * (z T * kap * exp (- kap))).
  assert (Hm0 : 0 < m0).
  { apply Rmult_lt_0_compat; [apply Rabs_pos_lt; auto|].
    apply Rmult_lt_0_compat; [apply Rmult_lt_0_compat; auto|apply exp_pos]. }
  set (phi := (1 - exp (- lam * T) * (1 + lam * T)) / lam ^ 2).
  assert (Hphi : 0 < phi).
  { apply Rmult_lt_0_compat; [|apply Rinv_0_lt_compat, pow_lt; auto].
    assert (EX : exp (- lam * T) * exp (lam * T) = 1) by (rewrite <- exp_plus, <- exp_0; f_equal; ring).
    assert (HlT : 0 < lam * T) by (apply Rmult_lt_0_compat; auto).
    pose proof (exp_ineq1 (lam * T) ltac:(lra)) as EI. pose proof (exp_pos (- lam * T)) as EP.
    assert (exp (- lam * T) * (1 + lam * T) < exp (- lam * T) * exp (lam * T))
      by (apply Rmult_lt_compat_l; lra). lra. }
  assert (Hmp : 0 < m0 * phi) by (apply Rmult_lt_0_compat; auto).
  set (H := Rmin 1 (m0 * phi / (2 * (C + 1)))).
  assert (HH : 0 < H).
  { apply Rmin_pos; [lra|]. apply Rmult_lt_0_compat; auto. apply Rinv_0_lt_compat. lra. }
  exists (m0 * phi / 2), H. split; [lra|]. split; auto.
  intros n' o' fn run_t ts ys Hr' HS Hdt Hfn HO k Hk EkT.
  set (h := o_dt o') in *.
  assert (Hh1 : h <= 1) by (pose proof (Rmin_l 1 (m0 * phi / (2 * (C + 1)))); unfold H in *; lra).
  assert (Hh2 : h <= m0 * phi / (2 * (C + 1)))
    by (pose proof (Rmin_r 1 (m0 * phi / (2 * (C + 1)))); unfold H in *; lra).
  destruct (C105_solution n o d h Hr Ht) as (x & w & HX).
  destruct (HR n' o' fn run_t ts ys x w Hr' HS ltac:(fold h; lra) Hfn HO HX) as (_ & HB).
  specialize (HB k Hk ltac:(lra)). rewrite EkT in HB. fold h in HB.
  apply (ahead_rhs n o d x w h Hr Ht) in HX. fold a in HX. destruct HX as (X0 & W0 & HX).
  (* the two solutions *)
  set (sg := if Rle_dec 0 A then 1 else -1).
  assert (HsgA : sg * A = Rabs A).
  { unfold sg. destruct (Rle_dec 0 A); [rewrite Rabs_pos_eq; lra|rewrite Rabs_left; lra]. }
  assert (Hgap : m0 * h * phi <= sg * (y T - x T)).
  { apply (pushed_away lam T (m0 * h) (fun t => sg * (y t - x t)) (fun t => sg * (v t - w t))
       (fun t => sg * (input a d t - input a d (t + h)))); auto.
    - apply Rmult_lt_0_compat; lra.
    - rewrite Y0, X0. ring.
    - rewrite V0, W0. ring.
    - intros t Htt. apply (is_derive_scal (fun t => y t - x t) t sg).
      apply (is_derive_minus y x); [apply HY|apply HX]; lra.
    - intros t Htt. evar_last.
      { apply (is_derive_scal (fun t => v t - w t) t sg).
        apply (is_derive_minus v w); [apply HY|apply HX]; lra. }
      unfold minus, plus, opp; simpl. unfold rhs. rewrite Es, Ed. ring.
    - intros t Htt. rewrite !Ein. replace (sg * (A * z t - A * z (t + h))) with (sg * A * (z t - z (t + h))) by ring.
      rewrite HsgA. unfold m0. rewrite Rmult_assoc. apply Rmult_le_compat_l; [apply Rabs_pos|].
      apply Hfall; lra. }
  assert (Habs : m0 * h * phi <= Rabs (y T - x T)).
  { eapply Rle_trans; [exact Hgap|]. eapply Rle_trans; [apply Rle_abs|]. rewrite Rabs_mult.
    unfold sg. destruct (Rle_dec 0 A); [rewrite Rabs_R1|rewrite Rabs_m1]; lra. }
  assert (Hsmall : C * h ^ 4 <= m0 * phi / 2 * h).
  { assert (H1 : C * h <= m0 * phi / 2).
    { apply Rle_trans with ((C + 1) * h); [nra|].
      apply Rmult_le_compat_l with (r := C + 1) in Hh2; [|lra].
      replace ((C + 1) * (m0 * phi / (2 * (C + 1)))) with (m0 * phi / 2) in Hh2 by (field; lra). exact Hh2. }
    assert (H3 : h ^ 3 <= h).
    { replace (h ^ 3) with (h * (h * h)) by ring. assert (h * h <= 1) by nra. nra. }
    replace (C * h ^ 4) with (C * h * h ^ 3) by ring. apply Rmult_le_compat; try lra.
    - apply Rmult_le_pos; lra.
    - apply pow_le; lra. }
  set (r := nth k ys vzero d) in *.
  assert (TR : Rabs (y T - x T) <= Rabs (r - y T) + Rabs (r - x T)).
  { replace (y T - x T) with (- (r - y T) + (r - x T)) by ring. eapply Rle_trans; [apply Rabs_triang|].
    rewrite Rabs_Ropp. lra. }
  lra.
Qed.

(** For every weight [c] a DMP with the default gains, all weights [c] and a goal away from
    the start, and for every number of steps [N] an object with the same equation whose
    movement reaches time 1 after [N] steps. *)
Example C105_satisfiable : forall c, exists o, reachable 1 o /\ o_execution_time o = 1
  /\ aget (o_alpha_y o) 0%nat = 25 /\ aget (o_beta_y o) 0%nat = 25 / 4 /\ o_smooth_scaling o = false
  /\ aget (p_start_y (o_base o)) 0%nat = 0 /\ aget (p_goal_y (o_base o)) 0%nat = 2
  /\ (forall i, (i < o_n_weights_per_dim o)%nat -> ft_weights (o_forcing_term o) 0%nat i = c)
  /\ forall N fn, (0 < N)%nat -> exists o' ts ys, reachable 1 o' /\ same_equation 0 o o'
       /\ o_dt o' = / INR N /\ dmp_open_loop None None (Some fn) o' = Ok (ts, ys)
       /\ (N < length ts)%nat /\ nth N ts 0 = 1.
Proof.
  intros c.
  destruct (ex_new_ok 1 25 (25/4)) as (f & o & E & Ef & Eo).
  assert (Hr : reachable 1 o) by (eapply ex_reachable; eauto).
  pose proof (forcing_term_init_n _ _ _ _ _ _ _ _ Ef) as (N & G & _).
  set (o1 := fst (exec (CSetWeights {| alen := 2; aget := fun k => c |}) o)).
  set (o2 := fst (exec (CConfigure {| c_t := None; c_start_y := None; c_start_yd := None; c_start_ydd := None;
                 c_goal_y := Some {| alen := 1; aget := fun _ => 2 |};
                 c_goal_yd := None; c_goal_ydd := None |}) o1)).
  assert (Hr2 : reachable 1 o2) by (unfold o2, o1; now do 2 apply reachable_exec).
  exists o2. split; auto.
  assert (E2 : o_execution_time o2 = 1 /\ aget (o_alpha_y o2) 0%nat = 25 /\ aget (o_beta_y o2) 0%nat = 25 / 4
     /\ o_smooth_scaling o2 = false /\ aget (p_start_y (o_base o2)) 0%nat = 0
     /\ aget (p_goal_y (o_base o2)) 0%nat = 2
     /\ (forall i, (i < o_n_weights_per_dim o2)%nat -> ft_weights (o_forcing_term o2) 0%nat i = c)).
  { unfold o2, o1. rewrite Eo. cbn [exec]. unfold dmp_set_weights, reshape. cbn. rewrite N. cbn.
    repeat split; auto. }
  destruct E2 as (E1 & E2 & E3 & E4 & E5 & E6 & E7). do 7 (split; auto).
  intros M fn HM. set (h := / INR M).
  assert (PM : 0 < INR M) by (apply lt_0_INR; auto).
  assert (Hh : 0 < h) by (apply Rinv_0_lt_compat; auto).
  assert (EMh : INR M * h = 1) by (unfold h; field; lra).
  set (o' := with_int_dt h (with_dt h o2)).
  assert (Hr' : reachable 1 o').
  { change (reachable 1 (fst (exec (CSetIntDt h) (fst (exec (CSetDt h) o2))))). now do 2 apply reachable_exec. }
  destruct (C13_runs_exist fn (o_forcing_term o') (o_execution_time o') (aget (p_start_y (o_base o')))
    vzero (aget (p_goal_y (o_base o'))) (aget (o_alpha_y o')) (aget (o_beta_y o')) (o_int_dt o') (o_dt o')
    (o_smooth_scaling o') (o_execution_time o')) as (ts & l & El & _).
  1-4: change (o_execution_time o') with (o_execution_time o2); change (o_dt o') with h;
       change (o_int_dt o') with h; lra.
  change (open_loop_args (o_forcing_term o') (o_execution_time o') (aget (p_start_y (o_base o')))
    (aget (p_goal_y (o_base o'))) (aget (o_alpha_y o')) (aget (o_beta_y o')) (o_int_dt o')
    (o_smooth_scaling o')) with (open_loop_step_args o' None) in El.
  exists o', ts, (map fst l). split; auto.
  split; [unfold same_equation; cbn; repeat split; auto|]. split; [reflexivity|].
  split; [unfold dmp_open_loop; now rewrite El|].
  apply C19_time_grid in El; [|change (o_dt o') with h; auto]. destruct El as (_ & Hpos & Hn & Hl & _).
  assert (Hg : forall (l : list R) d, l <> [] -> last l d = nth (length l - 1) l d).
  { induction l0 as [|x [|y' l'] IH]; intros d Hne; [congruence|reflexivity|].
    change (last (x :: y' :: l') d) with (last (y' :: l') d).
    rewrite IH by congruence. simpl. now rewrite Nat.sub_0_r. }
  rewrite Hg in Hl by (destruct ts; simpl in *; [lia|congruence]).
  rewrite Hn in Hl by lia. rewrite minus_INR in Hl by lia. simpl (INR 1) in Hl.
  change (o_dt o') with h in *. change (o_execution_time o') with (o_execution_time o2) in Hl. rewrite E1 in Hl.
  assert (HML : (M < length ts)%nat).
  { apply INR_lt. destruct Hl as [Hl _].
    assert (H1 : INR M * h <= (INR (length ts) - 1) * h) by lra.
    apply Rmult_le_reg_r in H1; auto. lra. }
  split; auto. rewrite Hn by auto. lra.
Qed.
