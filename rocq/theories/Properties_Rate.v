(** C131: how fast a movement approaches its goal.  Final statements. *)
From Coq Require Import Reals ZArith List Lia Lra Psatz FunctionalExtensionality.
From Coquelicot Require Import Complex.
From Verif Require Import M_Prelude M_Canonical M_Forcing M_Dmp M_Base M_Matrix M_DmpObject M_Ridge
  S_Loops S_Dmp S_Stability P_Loops P_Canonical P_Forcing P_DmpStep P_DmpScale P_DmpLinear P_Converge
  P_DmpObject P_DmpAffine P_Disturbed P_Continuity P_Stability P_Bounded P_Rate Properties_Forcing Properties_Dmp
  Properties_DmpObject Properties_DmpState Properties_Goal Properties_Equivariance Properties_Continuity
  Properties_Stability Properties_ContinuityAll.
Import ListNotations.
Open Scope R_scope.
Set Bullet Behavior "Strict Subproofs".

(** ** Specification *)
(** One step of the integrator shrinks every motion of the spring more than the
    factor exp(- lam dt), and the phase, which is 1/100 after the time
    [execution_time] for which the basis functions were made, decays at least as
    fast as exp(- lam t). *)
Definition decays_at (lam : R) (fn : step_function) (o : dmp) (d : nat) : Prop :=
  let c := dmp_damping o d in let k := dmp_stiffness o d in
  lam * ft_goal_t (o_forcing_term o) <= ln 100
  /\ match fn with
     | RK4 | RK4_cython =>
         forall l, rate c k l -> Cmod (rk4_growth (RtoC (o_dt o) * l)%C) < exp (- lam * o_dt o)
     | Euler | Euler_cython =>
         equal_parts (o_dt o) (o_int_dt o)
         /\ let h := Rmin (o_dt o) (o_int_dt o) in
            forall mu, euler_growth h c k mu -> Cmod mu < exp (- lam * h)
     end.

(** No weight of dimension [d] is larger than [W]. *)
Definition weights_up_to (W : R) (d : nat) (o : dmp) : Prop :=
  0 <= W /\ forall i, (i < o_n_weights_per_dim o)%nat -> Rabs (ft_weights (o_forcing_term o) d i) <= W.

(** ** Proofs *)
Lemma ln_hundredth : - ln (1 / 100) = ln 100.
Proof. unfold Rdiv. rewrite Rmult_1_l, ln_Rinv by lra. ring. Qed.

Lemma reachable_phase n o : reachable n o -> 0 < ft_goal_t (o_forcing_term o)
  /\ ft_n (o_forcing_term o) = o_n_weights_per_dim o
  /\ forall t, ft_phase (o_forcing_term o) t = exp (- (ln 100 * t / ft_goal_t (o_forcing_term o))).
Proof.
  intros Hr. destruct (reachable_ft n o Hr) as (j & f & w & E & Ew).
  pose proof (forcing_term_init_n _ _ _ _ _ _ _ _ E) as (N & G & St & _ & Az & _ & Hsg & _).
  split; [exact Hsg|]. split; [rewrite Ew; cbn [set_ft_weights ft_n]; exact N|].
  intros t. unfold ft_phase, phase. cbv zeta. f_equal.
  assert (Ea : ft_alpha_z (o_forcing_term o) = ln 100)
    by (rewrite Ew; cbn [set_ft_weights ft_alpha_z]; rewrite Az; apply ln_hundredth).
  assert (Es : ft_start_t (o_forcing_term o) = 0)
    by (rewrite Ew; cbn [set_ft_weights ft_start_t]; exact St).
  rewrite Ea, Es, !Rminus_0_r. field. lra.
Qed.

Lemma reachable_phase_decays n o lam t : reachable n o -> lam * ft_goal_t (o_forcing_term o) <= ln 100 ->
  0 <= t -> 0 <= ft_phase (o_forcing_term o) t <= exp (- lam * t).
Proof.
  intros Hr Hl Ht. destruct (reachable_phase n o Hr) as (Hg & _ & ->).
  split; [left; apply exp_pos|].
  set (G := ft_goal_t (o_forcing_term o)) in *.
  assert (H : - (ln 100 * t / G) <= - lam * t).
  { replace (- (ln 100 * t / G)) with (- (ln 100 * / G) * t) by (field; lra).
    apply Rmult_le_compat_r; auto. apply Ropp_le_contravar.
    apply Rmult_le_reg_r with G; auto. rewrite Rmult_assoc, Rinv_l by lra. lra. }
  destruct (Rle_lt_or_eq_dec _ _ H) as [H'| ->]; [|lra]. left. now apply exp_increasing.
Qed.

Lemma object_input_decays n o lam d W : reachable n o -> 0 < o_execution_time o ->
  lam * ft_goal_t (o_forcing_term o) <= ln 100 -> weights_up_to W d o ->
  input_decays (open_loop_step_args o None) d lam
    ((1 + Rabs (aget (o_alpha_y o) d * aget (o_beta_y o) d)) / o_execution_time o ^ 2
     * (Rabs (aget (p_start_y (o_base o)) d - aget (p_goal_y (o_base o)) d) + W)).
Proof.
  intros Hr Hx Hl (HW0 & HW) t Ht.
  cbn [open_loop_step_args a_goal_t a_start_t a_forcing_term]. rewrite Rminus_0_r.
  destruct (reachable_phase_decays n o lam t Hr Hl Ht) as [Hz0 Hz1].
  set (z := ft_phase (o_forcing_term o) t) in *. clearbody z.
  destruct (reachable_phase n o Hr) as (_ & N & _).
  assert (HF : Rabs (ft_forces (o_forcing_term o) z d) <= z * W).
  { eapply Rle_trans; [apply ft_forces_bound with (M := W)|].
    - apply (reachable_phase_ok n o Hr).
    - rewrite N. exact HW.
    - rewrite Rabs_pos_eq by lra. lra. }
  assert (Et2 : 0 < o_execution_time o ^ 2) by (apply pow_lt; lra).
  unfold disturbance. cbn [open_loop_step_args a_forcing_term a_smooth_scaling a_alpha_y a_beta_y
      a_goal_y a_start_y].
  set (ab := aget (o_alpha_y o) d * aget (o_beta_y o) d).
  set (F := ft_forces (o_forcing_term o) z d) in *.
  set (y := aget (p_start_y (o_base o)) d). set (g := aget (p_goal_y (o_base o)) d).
  clearbody F y g ab.
  assert (HD : Rabs (F - (if o_smooth_scaling o then ab * (g - y) * z else 0))
     <= (1 + Rabs ab) * (Rabs (y - g) + W) * exp (- lam * t)).
  { pose proof (Rabs_pos ab) as Ha. pose proof (Rabs_pos (y - g)) as Hy.
    apply Rle_trans with (z * W + Rabs ab * Rabs (y - g) * z).
    - eapply Rle_trans; [apply Rabs_triang|]. apply Rplus_le_compat; auto. rewrite Rabs_Ropp.
      destruct (o_smooth_scaling o).
      + rewrite !Rabs_mult, (Rabs_pos_eq z), (Rabs_minus_sym g y) by lra. lra.
      + rewrite Rabs_R0. apply Rmult_le_pos; auto. apply Rmult_le_pos; lra.
    - apply Rle_trans with ((1 + Rabs ab) * (Rabs (y - g) + W) * z).
      + assert (0 <= Rabs ab * W * z) by (apply Rmult_le_pos; auto; apply Rmult_le_pos; lra).
        assert (0 <= Rabs (y - g) * z) by (apply Rmult_le_pos; lra). nra.
      + apply Rmult_le_compat_l; auto. apply Rmult_le_pos; lra. }
  rewrite Rabs_div_pos by lra.
  replace ((1 + Rabs ab) / o_execution_time o ^ 2 * (Rabs (y - g) + W) * exp (- lam * t))
    with ((1 + Rabs ab) * (Rabs (y - g) + W) * exp (- lam * t) / o_execution_time o ^ 2) by (field; lra).
  apply Rmult_le_compat_r; [left; now apply Rinv_0_lt_compat|]. exact HD.
Qed.

(** The states of a movement, from any first velocity. *)
Lemma states_decay fn o d lam : 0 < o_execution_time o -> 0 < o_dt o -> 0 < o_int_dt o -> 0 <= lam ->
  decays_at lam fn o d ->
  exists K, 0 <= K /\ forall n o1 W v, reachable n o1 -> same_settings o o1 -> gains_like o d o1 ->
  weights_up_to W d o1 ->
  exists s : nat -> vec * vec,
    (forall k, run_seq (run_step_function fn (open_loop_step_args o1 None)) 0 (o_dt o)
                 (aget (p_start_y (o_base o1)), v) k = Ok (s k))
    /\ forall k,
       let D := Rabs (aget (p_start_y (o_base o1)) d - aget (p_goal_y (o_base o1)) d) + Rabs (v d) + W in
       Rabs (fst (s k) d - aget (p_goal_y (o_base o1)) d) <= K * D * exp (- lam * (INR k * o_dt o))
       /\ Rabs (snd (s k) d) <= K * D * exp (- lam * (INR k * o_dt o)).
Proof.
  intros Hx Hdt Hi Hl (Hph & Hst).
  set (c := dmp_damping o d) in *. set (kk := dmp_stiffness o d) in *.
  set (u := (1 + Rabs (aget (o_alpha_y o) d * aget (o_beta_y o) d)) / o_execution_time o ^ 2).
  assert (Hu0 : 0 <= u).
  { apply Rmult_le_pos; [pose proof (Rabs_pos (aget (o_alpha_y o) d * aget (o_beta_y o) d)); lra|].
    apply Rlt_le, Rinv_0_lt_compat, pow_lt. auto. }
  assert (Hpre : forall n o1 W v, reachable n o1 -> same_settings o o1 -> gains_like o d o1 ->
    weights_up_to W d o1 -> let a := open_loop_step_args o1 None in
    let D := Rabs (aget (p_start_y (o_base o1)) d - aget (p_goal_y (o_base o1)) d) + Rabs (v d) + W in
    free a /\ a_start_t a < a_goal_t a /\ damping a d = c /\ stiffness a d = kk
    /\ a_int_dt a = o_int_dt o
    /\ input_decays a d lam ((1 + u) * D)
    /\ Rabs (aget (p_start_y (o_base o1)) d - a_goal_y a d) <= (1 + u) * D /\ Rabs (v d) <= (1 + u) * D).
  { intros n o1 W v Hr (S1 & S2 & S3 & S4 & S5 & S6) (EA & EB) HW a D.
    split; [repeat split|]. split; [cbn; lra|].
    split; [unfold damping, c, dmp_damping, a; cbn; now rewrite EA, S1, Rminus_0_r|].
    split; [unfold stiffness, kk, dmp_stiffness, a; cbn -[pow]; now rewrite EA, EB, S1, Rminus_0_r|].
    split; [exact S3|].
    pose proof (proj1 HW) as HW0. pose proof (Rabs_pos (v d)) as Hv.
    pose proof (Rabs_pos (aget (p_start_y (o_base o1)) d - aget (p_goal_y (o_base o1)) d)) as Hy.
    split; [|split; [cbn; unfold D; nra|unfold D; nra]].
    intros t Ht. eapply Rle_trans; [apply (object_input_decays n o1 lam d W); auto; [lra|]|].
    - rewrite S6. exact Hph.
    - rewrite EA, EB, S1. fold u. apply Rmult_le_compat_r; [left; apply exp_pos|].
      unfold D. nra. }
  assert (Hfn : uses_rk4 fn \/ uses_euler fn) by (destruct fn; unfold uses_rk4, uses_euler; auto).
  destruct Hfn as [Hfn|Hfn].
  - assert (Hg : forall l, rate c kk l -> Cmod (rk4_growth (RtoC (o_dt o) * l)%C) < exp (- lam * o_dt o))
      by (destruct Hfn as [-> | ->]; exact Hst).
    destruct (rk4_run_rate (o_dt o) c kk lam Hdt Hl Hg) as (K & HK & H).
    exists (K * (1 + u)). split; [apply Rmult_le_pos; lra|].
    intros n o1 W v Hr HS HG HW.
    destruct (Hpre n o1 W v Hr HS HG HW) as (Fa & Ta & Da & Ka & _ & Ha & He & Hv).
    destruct (run_seq_fn_rk4 fn (open_loop_step_args o1 None) 0 (o_dt o)
                (aget (p_start_y (o_base o1)), v) Hfn) as (s & E0 & Es & Er).
    exists s. split; auto. intros k D.
    rewrite (Rmult_assoc K (1 + u) D).
    apply (H _ d _ s Fa Ta Da Ka Ha Es); rewrite E0; auto.
  - assert (Hg : equal_parts (o_dt o) (o_int_dt o)
      /\ forall mu, euler_growth (Rmin (o_dt o) (o_int_dt o)) c kk mu
           -> Cmod mu < exp (- lam * Rmin (o_dt o) (o_int_dt o)))
      by (destruct Hfn as [-> | ->]; exact Hst).
    destruct Hg as [Hep Hg]. set (h := Rmin (o_dt o) (o_int_dt o)) in *.
    destruct (equal_tiles (o_dt o) (o_int_dt o) h Hdt Hi (parts_length _ _ Hdt Hi Hep))
      as (m & Hm & Em & Hh & Htl).
    destruct (euler_run_rate h c kk lam Hh Hl Hg) as (K & HK & H).
    exists (K * (1 + u)). split; [apply Rmult_le_pos; lra|].
    intros n o1 W v Hr HS HG HW.
    destruct (Hpre n o1 W v Hr HS HG HW) as (Fa & Ta & Da & Ka & Ia & Ha & He & Hv).
    set (a := open_loop_step_args o1 None) in *. set (x := (aget (p_start_y (o_base o1)), v)).
    destruct (run_seq_euler fn a 0 (o_dt o) x) as (s & E0 & Es & Er); auto.
    { now rewrite Ia. } { cbn. lra. }
    assert (Hsub : forall k, s k = substates a 0 h x (k * m)).
    { induction k as [|k IH]; [exact E0|].
      destruct (Es k) as (l & Hl' & ->). rewrite Ia in Hl'.
      apply Htl in Hl'; [|rewrite S_INR; ring]. subst l. rewrite IH.
      rewrite (substates_exec a 0 h x m).
      - f_equal. lia.
      - rewrite mult_INR, Em. ring. }
    exists s. split; auto. intros k D. rewrite Hsub.
    rewrite (Rmult_assoc K (1 + u) D).
    replace (INR k * o_dt o) with (INR (k * m) * h) by (rewrite mult_INR, Em; ring).
    apply (H a d _ x Fa Ta Da Ka Ha He Hv).
Qed.

(** ** C131 *)
(** Whatever the weights, the start, the goal and the history of the object: along
    the whole movement the distance to the goal is at most the distance of the
    start and the size of the weights, times a factor that only depends on the
    settings, times exp(- lam t). *)
Theorem C131_rate : forall fn o d lam,
  0 < o_execution_time o -> 0 < o_dt o -> 0 < o_int_dt o -> 0 <= lam -> decays_at lam fn o d ->
  exists K, forall n o1 W run_t ts ys,
  reachable n o1 -> same_settings o o1 -> gains_like o d o1 -> weights_up_to W d o1 ->
  dmp_open_loop run_t None (Some fn) o1 = Ok (ts, ys) ->
  length ys = length ts
  /\ forall k, (k < length ys)%nat ->
  Rabs (nth k ys vzero d - aget (p_goal_y (o_base o1)) d)
  <= K * (Rabs (aget (p_start_y (o_base o1)) d - aget (p_goal_y (o_base o1)) d) + W)
     * exp (- lam * nth k ts 0).
Proof.
  intros fn o d lam Hx Hdt Hi Hl Hd.
  destruct (states_decay fn o d lam Hx Hdt Hi Hl Hd) as (K & HK0 & HK). exists K.
  intros n o1 W run_t ts ys Hr HS HG HW.
  destruct (HK n o1 W vzero Hr HS HG HW) as (s & Er & HB).
  destruct HS as (S1 & S2 & _).
  unfold dmp_open_loop. rewrite S1, S2.
  set (rt := match run_t with Some x => x | None => o_execution_time o end).
  rewrite (open_loop_run_map _ 0 rt (o_dt o) _ _ s Er).
  pose proof (arange_nth 0 (rt + o_dt o) (o_dt o)) as Hn. rewrite <- arange_length in Hn.
  destruct (arange 0 (rt + o_dt o) (o_dt o)) as [|t ts'] eqn:Ea'; [discriminate|].
  set (m := length (t :: ts')) in *.
  assert (Hlen : length (t :: ts') = m) by reflexivity. clearbody m. set (tt' := t :: ts') in *. clearbody tt'.
  unfold bind. cbn [fst snd]. intros E. injection E as <- <-.
  rewrite !map_length, !seq_length. split; [auto|].
  intros k Hk. rewrite Hlen in Hk |- *.
  assert (EN : nth k (map fst (map s (seq 0 m))) vzero = fst (s k)).
  { rewrite map_map. rewrite nth_indep with (d' := fst (s 0%nat)).
    - rewrite (map_nth (fun x => fst (s x))), seq_nth by lia. reflexivity.
    - rewrite map_length, seq_length. lia. }
  rewrite EN. destruct (HB k) as [H1 _]. cbv zeta in H1. unfold vzero in H1 at 1. rewrite Rabs_R0, Rplus_0_r in H1.
  rewrite Hn by exact Hk. rewrite Rplus_0_l. exact H1.
Qed.

(** The same for a movement that is executed step by step after [reset], from any
    start velocity; the velocity decays as fast as the distance. *)
Theorem C131_steps : forall fn o d lam,
  0 < o_execution_time o -> 0 < o_dt o -> 0 < o_int_dt o -> 0 <= lam -> decays_at lam fn o d ->
  exists K, forall n o1 W k,
  reachable n o1 -> same_settings o o1 -> gains_like o d o1 -> weights_up_to W d o1 ->
  exists o' y' yd',
    n_steps_open_loop None (Some fn) k (p_start_y (o_base o1)) (p_start_yd (o_base o1)) (dmp_reset o1)
      = (o', Ok (y', yd'))
    /\ let D := Rabs (aget (p_start_y (o_base o1)) d - aget (p_goal_y (o_base o1)) d)
                + Rabs (aget (p_start_yd (o_base o1)) d) + W in
       Rabs (aget y' d - aget (p_goal_y (o_base o1)) d) <= K * D * exp (- lam * (INR k * o_dt o))
       /\ Rabs (aget yd' d) <= K * D * exp (- lam * (INR k * o_dt o)).
Proof.
  intros fn o d lam Hx Hdt Hi Hl Hd.
  destruct (states_decay fn o d lam Hx Hdt Hi Hl Hd) as (K & HK0 & HK). exists K.
  intros n o1 W k Hr HS HG HW.
  destruct (HK n o1 W (aget (p_start_yd (o_base o1))) Hr HS HG HW) as (s & Er & HB).
  destruct HS as (S1 & S2 & _).
  destruct (reachable_shapes n o1 Hr) as [Hsh Hn].
  pose proof Hsh as Hsh'. split_shapes Hsh'.
  destruct (n_steps_follow fn None o1 k (dmp_reset o1) (p_start_y (o_base o1)) (p_start_yd (o_base o1)))
    with (s := s k) as (o2 & y2 & yd2 & R1 & R2 & R3); auto; try congruence.
  - unfold same_params; simpl; repeat split.
  - simpl. lra.
  - unfold norm. simpl. destruct (o_initialized o1); reflexivity.
  - unfold norm. simpl. destruct (o_initialized o1); reflexivity.
  - rewrite S2. exact (Er k).
  - exists o2, y2, yd2. split; [exact R1|]. intros D. destruct (HB k) as [B1 B2].
    rewrite <- R2 in B1, B2. cbn [fst snd] in B1, B2. auto.
Qed.

(** Every movement that reaches its goal at all (the exact condition of C100)
    reaches it exponentially fast. *)
Theorem C131_always_exponential : forall n o fn d,
  reachable n o -> 0 < o_execution_time o -> 0 < o_dt o -> 0 < o_int_dt o ->
  steps_shrink fn o d -> exists lam, 0 < lam /\ decays_at lam fn o d.
Proof.
  intros n o fn d Hr Hx Hdt Hi Hst.
  destruct (reachable_phase n o Hr) as (HG & _ & _).
  set (G := ft_goal_t (o_forcing_term o)) in *.
  set (c := dmp_damping o d) in *. set (kk := dmp_stiffness o d) in *.
  assert (Hln : 0 < ln 100) by (rewrite <- ln_1; apply ln_increasing; lra).
  (* a rate for a step of length h whose largest factor is m *)
  assert (Hpick : forall h m, 0 < h -> 0 <= m < 1 ->
    exists lam, 0 < lam /\ lam * G <= ln 100 /\ m < exp (- lam * h)).
  { intros h m Hh Hm. set (l0 := - ln ((1 + m) / 2) / h).
    assert (Hl0 : 0 < l0).
    { unfold l0. apply Rdiv_lt_0_compat; auto.
      assert (ln ((1 + m) / 2) < ln 1) by (apply ln_increasing; lra). rewrite ln_1 in *. lra. }
    exists (Rmin l0 (ln 100 / G)). split; [apply Rmin_pos; auto; now apply Rdiv_lt_0_compat|]. split.
    - apply Rle_trans with (ln 100 / G * G); [apply Rmult_le_compat_r; [lra|apply Rmin_r]|].
      right. field. lra.
    - apply Rlt_le_trans with (exp (- l0 * h)).
      + replace (- l0 * h) with (ln ((1 + m) / 2)) by (unfold l0; field; lra). rewrite exp_ln by lra. lra.
      + destruct (Rle_lt_or_eq_dec _ _ (Rmin_l l0 (ln 100 / G))) as [H|H]; [|rewrite H; lra].
        left. apply exp_increasing. nra. }
  assert (Hmax : forall a b, 0 <= a < 1 -> 0 <= b < 1 -> 0 <= Rmax a b < 1)
    by (intros; unfold Rmax; destruct (Rle_dec a b); lra).
  assert (Hfn : uses_rk4 fn \/ uses_euler fn) by (destruct fn; unfold uses_rk4, uses_euler; auto).
  destruct Hfn as [Hfn|Hfn].
  - assert (Hs : rk4_shrinks (o_dt o) c kk) by (destruct Hfn as [-> | ->]; exact Hst).
    destruct (quadratic_roots (- c) kk) as (m1 & m2 & Ht & Hp).
    pose proof (proj1 (rk4_shrinks_roots (o_dt o) c kk m1 m2 Ht Hp) Hs) as [H1 H2].
    destruct (Hpick (o_dt o) (Rmax (Cmod (rk4_growth (RtoC (o_dt o) * m1)%C))
      (Cmod (rk4_growth (RtoC (o_dt o) * m2)%C))) Hdt) as (lam & L1 & L2 & L3).
    { apply Hmax; (split; [apply Cmod_ge_0|auto]). }
    exists lam. split; auto. split; auto. fold c kk.
    assert (Hall : forall l, rate c kk l -> Cmod (rk4_growth (RtoC (o_dt o) * l)%C) < exp (- lam * o_dt o)).
    { intros l Hl. assert (E : l = m1 \/ l = m2).
      { apply (root_of _ _ m1 m2 l Ht Hp). rewrite RtoC_opp. unfold rate in Hl. rewrite <- Hl. ring. }
      destruct E as [-> | ->]; (eapply Rle_lt_trans; [|exact L3]); [apply Rmax_l|apply Rmax_r]. }
    destruct Hfn as [-> | ->]; exact Hall.
  - assert (Hs : equal_parts (o_dt o) (o_int_dt o) /\ euler_shrinks (Rmin (o_dt o) (o_int_dt o)) c kk)
      by (destruct Hfn as [-> | ->]; exact Hst).
    destruct Hs as [Hep Hs]. set (h := Rmin (o_dt o) (o_int_dt o)) in *.
    assert (Hh : 0 < h) by (unfold h; now apply Rmin_pos).
    destruct (quadratic_roots (2 - h * c - h ^ 2 * kk) (1 - h * c)) as (m1 & m2 & Ht & Hp).
    assert (H1 : Cmod m1 < 1) by (apply Hs; unfold euler_growth; apply (root_of _ _ m1 m2 _ Ht Hp); auto).
    assert (H2 : Cmod m2 < 1) by (apply Hs; unfold euler_growth; apply (root_of _ _ m1 m2 _ Ht Hp); auto).
    destruct (Hpick h (Rmax (Cmod m1) (Cmod m2)) Hh) as (lam & L1 & L2 & L3).
    { apply Hmax; (split; [apply Cmod_ge_0|auto]). }
    exists lam. split; auto. split; auto. fold c kk h.
    assert (Hall : forall mu, euler_growth h c kk mu -> Cmod mu < exp (- lam * h)).
    { intros l Hl. apply (root_of _ _ m1 m2 l Ht Hp) in Hl.
      destruct Hl as [-> | ->]; (eapply Rle_lt_trans; [|exact L3]); [apply Rmax_l|apply Rmax_r]. }
    destruct Hfn as [-> | ->]; split; auto.
Qed.

Lemma ln_100_le_5 : ln 100 <= 5.
Proof.
  rewrite <- (ln_exp 5). left. apply ln_increasing; [lra|].
  assert (H : 1 + 1 / 8 <= exp (1 / 8)) by (left; apply exp_ineq1; lra).
  apply Rlt_le_trans with ((1 + 1 / 8) ^ 40); [lra|].
  apply Rle_trans with (exp (1 / 8) ^ 40); [apply pow_incr; lra|].
  assert (E : exp (1 / 8) = exp (- (- 1) * (1 / 8))) by (f_equal; lra).
  rewrite E, <- exp_pow. right. f_equal. simpl INR. lra.
Qed.

(** With the default gains, the Runge-Kutta integrators and a step of at most a
    tenth of the execution time, every further execution time brings the movement
    100 times closer to its goal. *)
Theorem C131_hundredth : forall n o fn d,
  reachable n o -> 0 < o_execution_time o -> 0 < o_dt o -> o_dt o <= o_execution_time o / 10 ->
  uses_rk4 fn ->
  ft_goal_t (o_forcing_term o) = o_execution_time o ->
  aget (o_alpha_y o) d = 25 -> aget (o_beta_y o) d = 25 / 4 ->
  decays_at (ln 100 / o_execution_time o) fn o d.
Proof.
  intros n o fn d Hr Hx Hdt Hle Hfn HG Ha Hb.
  set (tau := o_execution_time o) in *. set (dt := o_dt o) in *.
  split; [rewrite HG; right; field; lra|].
  assert (Hall : forall l, rate (dmp_damping o d) (dmp_stiffness o d) l ->
     Cmod (rk4_growth (RtoC dt * l)%C) < exp (- (ln 100 / tau) * dt)).
  { intros l Hl.
    assert (El : l = RtoC (- (25 / 2 / tau))).
    { assert (Hw : (RtoC (- (25 / 2 / tau)) + RtoC (- (25 / 2 / tau)) = RtoC (- dmp_damping o d))%C).
      { rewrite <- RtoC_plus. f_equal. unfold dmp_damping. rewrite Ha. fold tau. field. lra. }
      assert (Hp : (RtoC (- (25 / 2 / tau)) * RtoC (- (25 / 2 / tau)) = RtoC (dmp_stiffness o d))%C).
      { rewrite <- RtoC_mult. f_equal. unfold dmp_stiffness. rewrite Ha, Hb. fold tau. field. lra. }
      destruct (proj1 (root_of _ _ _ _ l Hw Hp)) as [E|E]; auto.
      rewrite RtoC_opp. unfold rate in Hl. rewrite <- Hl. ring. }
    subst l. rewrite <- RtoC_mult, rk4_growth_real, Cmod_R.
    set (x := dt / tau * (25 / 2)).
    assert (Hr1 : 0 < dt / tau) by (now apply Rdiv_lt_0_compat).
    assert (Hr2 : dt / tau <= 1 / 10).
    { apply Rmult_le_reg_r with tau; auto. unfold Rdiv at 1. rewrite Rmult_assoc, Rinv_l by lra. lra. }
    assert (Hx0 : 0 < x <= 5 / 4) by (unfold x; lra).
    replace (dt * - (25 / 2 / tau)) with (- x) by (unfold x; field; lra).
    assert (Hlow : 1 - 4 / 10 * x <= exp (- (ln 100 / tau) * dt)).
    { replace (- (ln 100 / tau) * dt) with (- (ln 100 * (dt / tau))) by (field; lra).
      pose proof ln_100_le_5.
      assert (Hb' : ln 100 * (dt / tau) <= 4 / 10 * x).
      { unfold x. replace (4 / 10 * (dt / tau * (25 / 2))) with (5 * (dt / tau)) by lra.
        apply Rmult_le_compat_r; lra. }
      assert (Hne : 0 < ln 100 * (dt / tau)).
      { apply Rmult_lt_0_compat; [|exact Hr1]. rewrite <- ln_1. apply ln_increasing; lra. }
      pose proof (exp_ineq1 (- (ln 100 * (dt / tau))) ltac:(lra)). lra. }
    eapply Rlt_le_trans; [|exact Hlow].
    replace (1 + - x + (- x) ^ 2 / 2 + (- x) ^ 3 / 6 + (- x) ^ 4 / 24)
      with (1 - x + x ^ 2 / 2 - x ^ 3 / 6 + x ^ 4 / 24) by field.
    assert (Hp : 0 <= 1 - x + x ^ 2 / 2 - x ^ 3 / 6 + x ^ 4 / 24).
    { replace (1 - x + x ^ 2 / 2 - x ^ 3 / 6 + x ^ 4 / 24)
        with (((x ^ 2 - 2 * x) ^ 2 + 8 * (x - 3 / 2) ^ 2 + 6) / 24) by field.
      pose proof (pow2_ge_0 (x ^ 2 - 2 * x)). pose proof (pow2_ge_0 (x - 3 / 2)). lra. }
    rewrite Rabs_pos_eq by exact Hp.
    assert (Hq : 0 < x * (6 / 10 - x / 2 + x ^ 2 / 6 - x ^ 3 / 24)).
    { apply Rmult_lt_0_compat; [lra|].
      assert (0 <= x ^ 2 * (5 / 4 - x)) by (apply Rmult_le_pos; [apply pow2_ge_0|lra]). nra. }
    lra. }
  destruct Hfn as [-> | ->]; exact Hall.
Qed.

(** The default DMP with another goal; all hypotheses hold, and the rate is positive. *)
Example C131_satisfiable : exists o, reachable 1 o
  /\ 0 < o_execution_time o /\ 0 < o_dt o /\ 0 < o_int_dt o
  /\ decays_at (ln 100 / o_execution_time o) RK4 o 0 /\ 0 < ln 100 / o_execution_time o
  /\ steps_shrink Euler o 0
  /\ same_settings o o /\ gains_like o 0 o /\ weights_up_to 0 0 o
  /\ aget (p_start_y (o_base o)) 0%nat <> aget (p_goal_y (o_base o)) 0%nat.
Proof.
  destruct (ex_new_ok 1 25 (25 / 4)) as (f & o0 & E & Ef & Eo).
  assert (Hr : reachable 1 o0) by (eapply ex_reachable; eauto).
  pose proof (forcing_term_init_n _ _ _ _ _ _ _ _ Ef) as (N & G & _).
  destruct (reachable_shapes 1 o0 Hr) as [Hsh Hn].
  set (g := CConfigure {| c_t := Some (3/100); c_start_y := None; c_start_yd := None;
                   c_start_ydd := None; c_goal_y := Some (one 7); c_goal_yd := None; c_goal_ydd := None |}).
  assert (E1 : fst (exec g o0) = with_base (set_goal_y (one 7) (set_t (3/100) (o_base o0))) o0).
  { unfold g. cbn [exec]. unfold dmp_configure, configure. cbn -[Nat.eqb].
    unfold check_1d_array_length. rewrite Hn. reflexivity. }
  exists (fst (exec g o0)).
  assert (Hr1 : reachable 1 (fst (exec g o0))) by (now apply reachable_exec).
  split; [exact Hr1|].
  assert (Hdec : decays_at (ln 100 / o_execution_time (fst (exec g o0))) RK4 (fst (exec g o0)) 0).
  { apply (C131_hundredth 1); auto; try (rewrite E1, Eo; cbn; first [lra|exact G]); now left. }
  assert (Hw : forall i, ft_weights f 0 i = 0).
  { intros i. unfold forcing_term_init in Ef.
    repeat (destruct (Rle_dec _ _); try discriminate). cbn in Ef. injection Ef as <-. reflexivity. }
  rewrite E1, Eo in *. clear E1.
  split; [cbn; lra|]. split; [cbn; lra|]. split; [cbn; lra|]. split; [exact Hdec|].
  split; [cbn; unfold Rdiv; rewrite Rinv_1, Rmult_1_r, <- ln_1; apply ln_increasing; lra|].
  split.
  { split; [right; exists 10%nat; cbn -[INR]; simpl; lra|].
    unfold dmp_damping, dmp_stiffness. cbn -[pow]. rewrite Rmin_right by lra.
    apply euler_shrinks_iff; lra. }
  split; [repeat split|]. split; [repeat split|].
  split; [split; [lra|]; intros i _; cbn; rewrite Hw, Rabs_R0; lra|].
  cbn -[vzero]. unfold vzero. intro H. lra.
Qed.
