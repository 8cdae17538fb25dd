(** C115: damped movements without forcing term never overshoot their goal.
    Final statements. *)
From Coq Require Import Reals ZArith List Arith Lia Lra Psatz FunctionalExtensionality.
From Coquelicot Require Import Coquelicot.
From Verif Require Import M_Prelude M_Canonical M_Forcing M_Dmp M_Base M_DmpObject M_SpringDamper M_Cartesian
  S_Loops S_Dmp S_Stability P_Loops P_Canonical P_Forcing P_DmpStep P_DmpScale P_DmpLinear P_Converge
  P_Runs P_DmpObject P_Continuity P_Stability P_CartesianHistory Properties_Forcing Properties_Dmp Properties_DmpObject Properties_DmpState
  Properties_Goal Properties_SpringDamper Properties_Attributes Properties_CartesianHistory Properties_Stability.
Import ListNotations.
Open Scope R_scope.
Set Bullet Behavior "Strict Subproofs".

(** ** Specification *)
(** The velocity [v] at [y] does not point away from the goal [g] and is not larger than
    [rate] times the distance to it.  Every position at rest is an example. *)
Definition on_the_way (rate g y v : R) : Prop :=
  (y - g) * v <= 0 /\ Rabs v <= rate * Rabs (y - g).

(** [y'] is on the same side of the goal as [y], not further away from it, and not at the
    goal unless [y] is. *)
Definition not_past (g y y' : R) : Prop :=
  0 <= (y - g) * (y' - g) /\ Rabs (y' - g) <= Rabs (y - g) /\ (y <> g -> y' <> g).

(** ** One step *)
Definition cone (w e v : R) : Prop := 0 <= e /\ v <= 0 /\ 0 <= v + w * e.

Lemma euler_cone w c k h e v : 0 < w -> k = w ^ 2 -> 2 * w <= c -> 0 < h -> h * c <= 1 -> cone w e v ->
  let v' := v + h * (- k * e - c * v) in let e' := e + h * v' in
  cone w e' v' /\ e' <= e /\ e <= (1 + h * w) * e'.
Proof.
  intros Hw -> Hc Hh Hs (He & Hv & Hp) v' e'.
  assert (Hhw : 0 < h * w) by now apply Rmult_lt_0_compat.
  assert (V1 : v' <= 0).
  { unfold v'. assert (0 <= h * w ^ 2 * e) by (apply Rmult_le_pos; [nra|lra]).
    assert (v * (1 - h * c) <= 0) by nra. lra. }
  assert (Key : 0 <= v' * (1 + h * w) + w * e).
  { unfold v'. set (p := v + w * e) in *. replace v with (p - w * e) by (unfold p; ring).
    replace ((p - w * e + h * (- w ^ 2 * e - c * (p - w * e))) * (1 + h * w) + w * e)
      with ((1 - h * c) * (1 + h * w) * p
            + w * e * (h * (c - 2 * w) + h * w * (h * (c - w)))) by ring.
    assert (0 <= (1 - h * c) * (1 + h * w)) by (apply Rmult_le_pos; lra).
    assert (0 <= h * (c - 2 * w)) by (apply Rmult_le_pos; lra).
    assert (0 <= h * w * (h * (c - w))) by (apply Rmult_le_pos; [lra|apply Rmult_le_pos; lra]).
    assert (0 <= w * e) by (apply Rmult_le_pos; lra).
    assert (0 <= (1 - h * c) * (1 + h * w) * p) by (apply Rmult_le_pos; lra).
    assert (0 <= w * e * (h * (c - 2 * w) + h * w * (h * (c - w)))) by (apply Rmult_le_pos; lra).
    lra. }
  assert (E1 : e <= (1 + h * w) * e').
  { unfold e'. assert (0 <= h * (v' * (1 + h * w) + w * e)) by (apply Rmult_le_pos; lra). nra. }
  assert (E0 : 0 <= e') by nra.
  assert (E2 : e' <= e) by (unfold e'; nra).
  split; [|split; [exact E2|exact E1]]. split; [exact E0|]. split; [exact V1|].
  unfold e'. nra.
Qed.

Lemma forward_cone w c k h e v : 0 < w -> k = w ^ 2 -> 2 * w <= c -> 0 < h -> h * (c - w) <= 1 -> cone w e v ->
  cone w (e + h * v) (v + h * (- k * e - c * v)) /\ e + h * v <= e.
Proof.
  intros Hw -> Hc Hh Hs (He & Hv & Hp).
  assert (Hhw : 0 < h * w) by now apply Rmult_lt_0_compat.
  assert (Hww : h * w <= 1) by (assert (0 <= h * (c - 2 * w)) by (apply Rmult_le_pos; lra); lra).
  assert (Q : 0 <= w * e) by (apply Rmult_le_pos; lra).
  set (p := v + w * e) in *. replace v with (p - w * e) by (unfold p; ring).
  assert (Hpv : p <= w * e) by (unfold p; lra).
  assert (A0 : 0 <= h * (c - 2 * w)) by (apply Rmult_le_pos; lra).
  split; [|unfold p; nra]. split; [|split].
  - replace (e + h * (p - w * e)) with (h * p + (1 - h * w) * e) by ring.
    assert (0 <= h * p) by (apply Rmult_le_pos; lra).
    assert (0 <= (1 - h * w) * e) by (apply Rmult_le_pos; lra). lra.
  - replace (p - w * e + h * (- w ^ 2 * e - c * (p - w * e)))
      with (- ((w * e - p) * (1 - h * (c - w)) + h * w * p)) by ring.
    assert (0 <= (w * e - p) * (1 - h * (c - w))) by (apply Rmult_le_pos; lra).
    assert (0 <= h * w * p) by (apply Rmult_le_pos; lra). lra.
  - replace (p - w * e + h * (- w ^ 2 * e - c * (p - w * e)) + w * (e + h * (p - w * e)))
      with (p * (1 - h * (c - w)) + w * e * (h * (c - 2 * w))) by ring.
    assert (0 <= p * (1 - h * (c - w))) by (apply Rmult_le_pos; lra).
    assert (0 <= w * e * (h * (c - 2 * w))) by (apply Rmult_le_pos; lra). lra.
Qed.

(** The Runge-Kutta step is a sum of repeated Euler steps with positive factors. *)
Lemma rk4_cone w c k h e v : 0 < w -> k = w ^ 2 -> 2 * w <= c -> 0 < h -> h * (c - w) <= 1 -> cone w e v ->
  let e' := ra h c k * e + rb h c k * h * v in
  let v' := - rb h c k * h * k * e + (ra h c k - rb h c k * h * c) * v in
  cone w e' v' /\ e' <= e /\ 3 / 8 * e <= e'.
Proof.
  intros Hw Hk Hc Hh Hs H0 e' v'.
  set (F := fun x : R * R => (fst x + h * snd x, snd x + h * (- k * fst x - c * snd x))).
  assert (HF : forall x, cone w (fst x) (snd x) -> cone w (fst (F x)) (snd (F x)) /\ fst (F x) <= fst x).
  { intros [a b] Hx. apply (forward_cone w c k h a b); auto. }
  set (x0 := (e, v)). destruct (HF x0 H0) as [H1 D1]. set (x1 := F x0) in *.
  destruct (HF x1 H1) as [H2 D2]. set (x2 := F x1) in *. destruct (HF x2 H2) as [H3 D3].
  set (x3 := F x2) in *. destruct (HF x3 H3) as [H4 D4]. set (x4 := F x3) in *.
  assert (Ee : e' = 3 / 8 * fst x0 + / 3 * fst x1 + / 4 * fst x2 + / 24 * fst x4).
  { unfold e', x4, x3, x2, x1, x0, F, ra, rb. cbn [fst snd]. field. }
  assert (Ev : v' = 3 / 8 * snd x0 + / 3 * snd x1 + / 4 * snd x2 + / 24 * snd x4).
  { unfold v', x4, x3, x2, x1, x0, F, ra, rb. cbn [fst snd]. field. }
  clearbody e' v' x1 x2 x3 x4. unfold cone in *. cbn [fst snd x0] in *.
  destruct H0 as (? & ? & ?), H1 as (? & ? & ?), H2 as (? & ? & ?), H4 as (? & ? & ?).
  rewrite Ee, Ev. repeat split; lra.
Qed.

(** Both sides of the goal. *)
Lemma on_the_way_cone w g y v : 0 < w -> (on_the_way w g y v <-> cone w (y - g) v \/ cone w (g - y) (- v)).
Proof.
  intros Hw. unfold on_the_way, cone. split.
  - intros [H1 H2]. destruct (Rle_dec 0 (y - g)) as [He|He].
    + left. rewrite (Rabs_right (y - g)) in H2 by lra. apply Rabs_le_between in H2.
      split; [lra|]. split; [|lra]. destruct (Rle_dec v 0); [lra|].
      assert (y - g = 0) by nra. rewrite H in H2. lra.
    + right. rewrite (Rabs_left (y - g)) in H2 by lra. apply Rabs_le_between in H2.
      split; [lra|]. split; [|lra]. destruct (Rle_dec 0 v); [lra|]. nra.
  - intros [(H1 & H2 & H3)|(H1 & H2 & H3)].
    + split; [nra|]. rewrite (Rabs_right (y - g)), (Rabs_left1 v) by lra. lra.
    + split; [nra|]. rewrite (Rabs_left1 (y - g)), (Rabs_right v) by lra. lra.
Qed.

(** From one step inside the cone to the specification. *)
Lemma one_step (w : R) (T : R * R -> R * R) g y v y' v' r : 0 < w -> 0 < r ->
  (forall e v, T (- e, - v) = (- fst (T (e, v)), - snd (T (e, v)))) ->
  (forall e v, cone w e v -> cone w (fst (T (e, v))) (snd (T (e, v)))
     /\ fst (T (e, v)) <= e /\ r * e <= fst (T (e, v))) ->
  (y' - g, v') = T (y - g, v) -> on_the_way w g y v ->
  on_the_way w g y' v' /\ not_past g y y'.
Proof.
  intros Hw Hr Todd Tc E H. apply on_the_way_cone in H; auto. rewrite on_the_way_cone by auto.
  unfold not_past. destruct H as [H|H].
  - destruct (Tc _ _ H) as (H1 & H2 & H3). rewrite <- E in H1, H2, H3. cbn [fst snd] in *.
    split; [auto|]. destruct H as (H & _). destruct H1 as (H1 & _).
    split; [nra|]. split; [rewrite !Rabs_right; lra|]. intros Hy. assert (0 < y - g) by lra. nra.
  - destruct (Tc _ _ H) as (H1 & H2 & H3).
    assert (E' : T (g - y, - v) = (g - y', - v')).
    { replace (g - y) with (- (y - g)) by ring. rewrite Todd, <- E. cbn [fst snd]. f_equal. ring. }
    rewrite E' in H1, H2, H3. cbn [fst snd] in *.
    split; [auto|]. destruct H as (H & _). destruct H1 as (H1 & _).
    split; [nra|]. split; [rewrite !Rabs_left1; lra|]. intros Hy. assert (0 < g - y) by lra. nra.
Qed.

Lemma not_past_refl g y : not_past g y y.
Proof. unfold not_past. split; [apply Rle_0_sqr|]. split; [lra|auto]. Qed.
Lemma not_past_trans g x y z : not_past g x y -> not_past g y z -> not_past g x z.
Proof.
  intros (A1 & A2 & A3) (B1 & B2 & B3). split; [|split; [lra|auto]].
  destruct (Req_dec y g) as [->|Hy].
  - assert (z = g); [|subst; nra]. rewrite Rminus_eq_0, Rabs_R0 in B2.
    pose proof (Rabs_pos (z - g)). assert (Rabs (z - g) = 0) by lra. apply Rabs_eq_0 in H0. lra.
  - assert (0 < (y - g) * (y - g)) by (apply Rsqr_pos_lt; lra).
    assert (0 <= (x - g) * (z - g) * ((y - g) * (y - g))).
    { replace ((x - g) * (z - g) * ((y - g) * (y - g))) with ((x - g) * (y - g) * ((y - g) * (z - g))) by ring.
      now apply Rmult_le_pos. }
    apply Rmult_le_reg_r with ((y - g) * (y - g)); lra.
Qed.

(** ** The step functions *)
(** The damping is critical or stronger and the steps are short enough. *)
Definition short_steps (fn : step_function) (dt int_dt c k : R) : Prop :=
  match fn with
  | RK4 | RK4_cython => dt * (c - sqrt k) <= 1
  | Euler | Euler_cython => int_dt * c <= 1
  end.

Section Steps.
Variable a : dmp_args.
Variable d : nat.
Let c := damping a d.
Let k := stiffness a d.
Let w := sqrt k.
Hypothesis Hfree : free a.
Hypothesis Htime : a_start_t a < a_goal_t a.
Hypothesis Hsm : a_smooth_scaling a = false.
Hypothesis Hweights : forall i, (i < ft_n (a_forcing_term a))%nat -> ft_weights (a_forcing_term a) d i = 0.
Hypothesis Hk : 0 < k.
Hypothesis Hc : 2 * sqrt k <= c.

Lemma w_pos : 0 < w. Proof. apply sqrt_lt_R0, Hk. Qed.
Lemma w_square : k = w ^ 2. Proof. unfold w. rewrite <- Rsqr_pow2, Rsqr_sqrt; lra. Qed.

Lemma rk4_on_the_way lt t s : lt < t -> (t - lt) * (c - w) <= 1 ->
  on_the_way w (a_goal_y a d) (fst s d) (snd s d) ->
  on_the_way w (a_goal_y a d) (fst (dmp_step_rk4 a lt t s) d) (snd (dmp_step_rk4 a lt t s) d)
  /\ not_past (a_goal_y a d) (fst s d) (fst (dmp_step_rk4 a lt t s) d).
Proof.
  intros Ht Hs H. destruct s as [y v]. set (h := t - lt) in *.
  apply (one_step w (fun x => (ra h c k * fst x + rb h c k * h * snd x,
    - rb h c k * h * k * fst x + (ra h c k - rb h c k * h * c) * snd x))
    (a_goal_y a d) (y d) (v d) _ _ (3 / 8) w_pos); [lra| | | |exact H].
  - intros e u. cbn [fst snd]. f_equal; ring.
  - intros e u Hx. cbn [fst snd]. apply (rk4_cone w c k h e u w_pos w_square Hc); auto. unfold h. lra.
  - destruct (rk4_two a lt t y v d Hfree ltac:(lra)) as [T1 T2]. rewrite !no_disturbance in T1, T2 by auto.
    fold h c k in T1, T2. cbn [fst snd]. refine (eq_trans (f_equal2 pair T1 T2) _). apply (f_equal2 pair); field; lra.
Qed.

Lemma euler_body_on_the_way ct h s : 0 < h -> h * c <= 1 ->
  on_the_way w (a_goal_y a d) (fst s d) (snd s d) ->
  on_the_way w (a_goal_y a d) (fst (euler_body a ct h s) d) (snd (euler_body a ct h s) d)
  /\ not_past (a_goal_y a d) (fst s d) (fst (euler_body a ct h s) d).
Proof.
  intros Hh Hs H. destruct s as [y v]. pose proof w_pos as Hw.
  assert (Hhw : 0 < 1 + h * w) by nra.
  apply (one_step w (fun x => (fst x + h * (snd x + h * (- k * fst x - c * snd x)),
    snd x + h * (- k * fst x - c * snd x)))
    (a_goal_y a d) (y d) (v d) _ _ (/ (1 + h * w)) w_pos); [now apply Rinv_0_lt_compat| | | |exact H].
  - intros e u. cbn [fst snd]. f_equal; ring.
  - intros e u Hx. cbn [fst snd].
    destruct (euler_cone w c k h e u w_pos w_square Hc Hh Hs Hx) as (A & B & D).
    split; [exact A|]. split; [exact B|].
    apply Rmult_le_reg_l with (1 + h * w); [lra|]. rewrite <- Rmult_assoc, Rinv_r, Rmult_1_l by lra. exact D.
  - destruct (euler_two a ct h y v d Hfree ltac:(lra)) as [T1 T2]. rewrite !no_disturbance in T1 by auto.
    fold c k in T1. cbn [fst snd] in *. rewrite T1 in T2. refine (eq_trans (f_equal2 pair T2 T1) _). apply (f_equal2 pair); field; lra.
Qed.

Lemma euler_substeps_on_the_way H l : forall lt t s, tiles lt t H l -> H * c <= 1 -> 0 <= c ->
  on_the_way w (a_goal_y a d) (fst s d) (snd s d) ->
  on_the_way w (a_goal_y a d) (fst (exec_substeps (euler_body a) l s) d) (snd (exec_substeps (euler_body a) l s) d)
  /\ not_past (a_goal_y a d) (fst s d) (fst (exec_substeps (euler_body a) l s) d).
Proof.
  induction l as [|[ct h] l IH]; intros lt t s Ht Hs Hc0 H0; [split; [exact H0|apply not_past_refl]|].
  simpl in Ht. destruct Ht as (Hh & -> & _ & Ht). unfold exec_substeps. cbn [fold_left fst snd].
  destruct (euler_body_on_the_way (lt + h) h s) as [A B]; [lra| |exact H0|].
  { apply Rle_trans with (H * c); [|exact Hs]. apply Rmult_le_compat_r; lra. }
  destruct (IH _ _ _ Ht Hs Hc0 A) as [A' B'].
  split; [exact A'|]. eapply not_past_trans; [exact B|exact B'].
Qed.

Lemma run_on_the_way fn t0 dt x : a_start_t a <= t0 -> 0 < dt -> 0 < a_int_dt a ->
  short_steps fn dt (a_int_dt a) c k -> on_the_way w (a_goal_y a d) (fst x d) (snd x d) ->
  exists s, s 0%nat = x
  /\ (forall j, run_seq (run_step_function fn a) t0 dt x j = Ok (s j))
  /\ (forall j, on_the_way w (a_goal_y a d) (fst (s j) d) (snd (s j) d))
  /\ (forall i j, (i <= j)%nat -> not_past (a_goal_y a d) (fst (s i) d) (fst (s j) d)).
Proof.
  intros Ht0 Hdt Hi Hs H.
  assert (Hc0 : 0 <= c) by (pose proof w_pos; unfold w in *; lra).
  assert (Hstep : exists s, s 0%nat = x
    /\ (forall j, run_seq (run_step_function fn a) t0 dt x j = Ok (s j))
    /\ forall j, on_the_way w (a_goal_y a d) (fst (s j) d) (snd (s j) d) ->
       on_the_way w (a_goal_y a d) (fst (s (S j)) d) (snd (s (S j)) d)
       /\ not_past (a_goal_y a d) (fst (s j) d) (fst (s (S j)) d)).
  { assert (Hfn : uses_rk4 fn \/ uses_euler fn) by (destruct fn; unfold uses_rk4, uses_euler; auto).
    destruct Hfn as [Hfn|Hfn].
    - destruct (run_seq_fn_rk4 fn a t0 dt x Hfn) as (s & H0 & HS & Hr). exists s.
      split; auto. split; auto. intros j Hj. rewrite HS. apply rk4_on_the_way; auto.
      + rewrite S_INR. lra.
      + replace (t0 + INR (S j) * dt - (t0 + INR j * dt)) with dt by (rewrite S_INR; ring).
        destruct Hfn as [-> | ->]; exact Hs.
    - destruct (run_seq_euler fn a t0 dt x) as (s & H0 & HS & Hr); auto. exists s.
      split; auto. split; auto. intros j Hj. destruct (HS j) as (l & Hl & ->).
      eapply euler_substeps_on_the_way; eauto. destruct Hfn as [-> | ->]; exact Hs. }
  destruct Hstep as (s & H0 & Hr & Hj). exists s. split; [exact H0|]. split; [exact Hr|].
  assert (Hall : forall j, on_the_way w (a_goal_y a d) (fst (s j) d) (snd (s j) d)).
  { induction j as [|j IH]; [now rewrite H0|]. now apply Hj. }
  split; [exact Hall|]. intros i j Hij. induction Hij as [|j Hij IH]; [apply not_past_refl|].
  eapply not_past_trans; [exact IH|]. now apply Hj.
Qed.
End Steps.

Lemma dmp_run_on_the_way o fn d x : 0 < o_execution_time o -> 0 < o_dt o -> 0 < o_int_dt o ->
  0 < aget (o_beta_y o) d -> 4 * aget (o_beta_y o) d <= aget (o_alpha_y o) d ->
  o_smooth_scaling o = false ->
  (forall i, (i < ft_n (o_forcing_term o))%nat -> ft_weights (o_forcing_term o) d i = 0) ->
  short_steps fn (o_dt o) (o_int_dt o) (dmp_damping o d) (dmp_stiffness o d) ->
  let g := aget (p_goal_y (o_base o)) d in
  on_the_way (sqrt (dmp_stiffness o d)) g (fst x d) (snd x d) ->
  exists s, s 0%nat = x
  /\ (forall j, run_seq (run_step_function fn (open_loop_step_args o None)) 0 (o_dt o) x j = Ok (s j))
  /\ (forall j, on_the_way (sqrt (dmp_stiffness o d)) g (fst (s j) d) (snd (s j) d))
  /\ (forall i j, (i <= j)%nat -> not_past g (fst (s i) d) (fst (s j) d)).
Proof.
  intros Hx Hdt Hi Hb Hab Hsm Hw Hs g H.
  set (a := open_loop_step_args o None).
  assert (Hda : damping a d = dmp_damping o d).
  { unfold damping, dmp_damping. cbn. now rewrite Rminus_0_r. }
  assert (Hka : stiffness a d = dmp_stiffness o d).
  { unfold stiffness, dmp_stiffness. cbn -[pow]. now rewrite Rminus_0_r. }
  assert (Hk : 0 < dmp_stiffness o d).
  { unfold dmp_stiffness. apply Rdiv_lt_0_compat; [nra|apply pow_lt; auto]. }
  assert (Hc : 2 * sqrt (dmp_stiffness o d) <= dmp_damping o d).
  { assert (Hp : 0 <= dmp_damping o d).
    { unfold dmp_damping. apply Rmult_le_pos; [lra|]. left. now apply Rinv_0_lt_compat. }
    pose proof (sqrt_pos (dmp_stiffness o d)) as Q. pose proof (sqrt_sqrt (dmp_stiffness o d) ltac:(lra)) as Q2.
    assert (4 * dmp_stiffness o d <= dmp_damping o d * dmp_damping o d).
    { unfold dmp_stiffness, dmp_damping.
      replace (4 * (aget (o_alpha_y o) d * aget (o_beta_y o) d / o_execution_time o ^ 2))
        with ((4 * aget (o_beta_y o) d) * aget (o_alpha_y o) d * / o_execution_time o ^ 2) by (field; lra).
      replace (aget (o_alpha_y o) d / o_execution_time o * (aget (o_alpha_y o) d / o_execution_time o))
        with (aget (o_alpha_y o) d * aget (o_alpha_y o) d * / o_execution_time o ^ 2) by (field; lra).
      apply Rmult_le_compat_r; [left; apply Rinv_0_lt_compat, pow_lt; auto|]. apply Rmult_le_compat_r; lra. }
    nra. }
  destruct (run_on_the_way a d) with (fn := fn) (t0 := 0) (dt := o_dt o) (x := x)
    as (s & Hz0 & Hrun & A & B); auto.
  { repeat split. }
  { rewrite Hka. exact Hk. }
  { rewrite Hka, Hda. exact Hc. }
  { cbn. lra. }
  { rewrite Hka, Hda. exact Hs. }
  { rewrite Hka. exact H. }
  rewrite Hka in A. eauto 6.
Qed.

(** ** C115 *)
(** A DMP in a dimension with zero weights and 4 beta <= alpha, however it was built and
    used: repeated steps from the start keep it on its side of the goal, never increase the
    distance and never turn around. *)
Theorem C115_dmp : forall n o fn d,
  reachable n o -> 0 < o_execution_time o -> 0 < o_dt o -> 0 < o_int_dt o ->
  0 < aget (o_beta_y o) d -> 4 * aget (o_beta_y o) d <= aget (o_alpha_y o) d ->
  o_smooth_scaling o = false ->
  (forall i, (i < ft_n (o_forcing_term o))%nat -> ft_weights (o_forcing_term o) d i = 0) ->
  let g := aget (p_goal_y (o_base o)) d in
  let rate := sqrt (dmp_stiffness o d) in
  short_steps fn (o_dt o) (o_int_dt o) (dmp_damping o d) (dmp_stiffness o d) ->
  on_the_way rate g (aget (p_start_y (o_base o)) d) (aget (p_start_yd (o_base o)) d) ->
  exists s : nat -> dmp * (arr * arr),
    (forall j, n_steps_open_loop None (Some fn) j (p_start_y (o_base o)) (p_start_yd (o_base o)) (dmp_reset o)
       = (fst (s j), Ok (snd (s j))))
    /\ (forall j, on_the_way rate g (aget (fst (snd (s j))) d) (aget (snd (snd (s j))) d))
    /\ (forall i j, (i <= j)%nat -> not_past g (aget (fst (snd (s i))) d) (aget (fst (snd (s j))) d)).
Proof.
  intros n o fn d Hr Hx Hdt Hi Hb Hab Hsm Hw g rate Hs H.
  destruct (reachable_shapes n o Hr) as [Hsh Hn].
  pose proof Hsh as Hsh'. split_shapes Hsh'.
  destruct (dmp_run_on_the_way o fn d (aget (p_start_y (o_base o)), aget (p_start_yd (o_base o))))
    as (s & Hz0 & Hrun & A & B); auto.
  assert (F : forall j, exists o' y' yd', n_steps_open_loop None (Some fn) j (p_start_y (o_base o))
     (p_start_yd (o_base o)) (dmp_reset o) = (o', Ok (y', yd')) /\ (aget y', aget yd') = s j).
  { intros j. destruct (n_steps_follow fn None o j (dmp_reset o) (p_start_y (o_base o)) (p_start_yd (o_base o)))
      with (s := s j) as (o2 & y2 & yd2 & R1 & R2 & R3); auto; try congruence.
    + unfold same_params; simpl; repeat split.
    + simpl. lra.
    + unfold norm. simpl. destruct (o_initialized o); reflexivity.
    + unfold norm. simpl. destruct (o_initialized o); reflexivity.
    + eauto 6. }
  exists (fun j => match n_steps_open_loop None (Some fn) j (p_start_y (o_base o)) (p_start_yd (o_base o)) (dmp_reset o)
    with (o', Ok x) => (o', x) | (o', Err _) => (o', (zeros 0, zeros 0)) end).
  split; [|split].
  - intros j. destruct (F j) as (o' & y' & yd' & -> & _). reflexivity.
  - intros j. destruct (F j) as (o' & y' & yd' & -> & E). cbn [fst snd]. specialize (A j). rewrite <- E in A. exact A.
  - intros i j Hij. destruct (F i) as (o' & y' & yd' & -> & E). destruct (F j) as (o2 & y2 & yd2 & -> & E2).
    cbn [fst snd]. specialize (B i j Hij). rewrite <- E, <- E2 in B. exact B.
Qed.

(** The positions [open_loop] returns.  It starts at rest, whatever the velocity of the
    start is (C18). *)
Theorem C115_open_loop : forall o fn d run_t ts ys,
  0 < o_execution_time o -> 0 < o_dt o -> 0 < o_int_dt o ->
  0 < aget (o_beta_y o) d -> 4 * aget (o_beta_y o) d <= aget (o_alpha_y o) d ->
  o_smooth_scaling o = false ->
  (forall i, (i < ft_n (o_forcing_term o))%nat -> ft_weights (o_forcing_term o) d i = 0) ->
  let g := aget (p_goal_y (o_base o)) d in
  short_steps fn (o_dt o) (o_int_dt o) (dmp_damping o d) (dmp_stiffness o d) ->
  dmp_open_loop run_t None (Some fn) o = Ok (ts, ys) ->
  (0 < length ys)%nat /\ nth 0 ys vzero d = aget (p_start_y (o_base o)) d
  /\ forall i j, (i <= j)%nat -> (j < length ys)%nat -> not_past g (nth i ys vzero d) (nth j ys vzero d).
Proof.
  intros o fn d run_t ts ys Hx Hdt Hi Hb Hab Hsm Hw g Hs E.
  destruct (dmp_run_on_the_way o fn d (aget (p_start_y (o_base o)), vzero)) as (s & Hz0 & Hrun & _ & B); auto.
  { cbn [fst snd]. unfold vzero, on_the_way. rewrite Rabs_R0. split; [lra|].
    apply Rmult_le_pos; [apply sqrt_pos|apply Rabs_pos]. }
  unfold dmp_open_loop in E.
  destruct (open_loop_run _ _ _ _ _ _) as [[ts' l]|] eqn:Eo; [|discriminate].
  cbn [bind fst snd] in E. injection E as <- <-.
  rewrite (open_loop_run_map _ _ _ _ _ _ _ Hrun) in Eo.
  destruct (arange _ _ _) as [|t ts2] eqn:Et; [discriminate|].
  assert (l = map s (seq 0 (length (t :: ts2)))) as -> by (injection Eo as _ <-; reflexivity).
  assert (N : forall i, (i < length (t :: ts2))%nat ->
    nth i (map fst (map s (seq 0 (length (t :: ts2))))) vzero = fst (s i)).
  { intros i Hi'. change vzero with (fst (vzero, vzero)). rewrite map_nth.
    rewrite (nth_indep _ _ (s 0%nat)) by (rewrite map_length, seq_length; exact Hi').
    rewrite map_nth, seq_nth by exact Hi'. reflexivity. }
  rewrite !map_length, seq_length. split; [cbn [length]; lia|]. split.
  - rewrite N by (cbn [length]; lia). now rewrite Hz0.
  - intros i j Hij Hj. rewrite !N by lia. auto.
Qed.

(** The positions of a CartesianDMP. *)
Theorem C115_cartesian_positions : forall o fn i d run_t ts ys, cart_made o -> (d < 3)%nat ->
  0 < k_execution_time o -> 0 < k_dt o -> 0 < k_int_dt o ->
  0 < aget (k_beta o) d -> 4 * aget (k_beta o) d <= aget (k_alpha o) d ->
  k_smooth o = false -> (forall i, (i < k_n o)%nat -> ft_weights (k_fpos o) d i = 0) ->
  let g := aget (p_goal_y (k_base o)) d in
  let tau := k_execution_time o in
  short_steps fn (k_dt o) (k_int_dt o) (aget (k_alpha o) d / tau) (aget (k_alpha o) d * aget (k_beta o) d / tau ^ 2) ->
  cart_open_loop run_t None (Some fn) (Some i) o = Ok (ts, ys) ->
  aget (nth 0 ys (zeros 7)) d = aget (p_start_y (k_base o)) d
  /\ forall i j, (i <= j)%nat -> (j < length ys)%nat ->
     not_past g (aget (nth i ys (zeros 7)) d) (aget (nth j ys (zeros 7)) d).
Proof.
  intros o fn i d run_t ts ys Hm Hd Hx Hdt Hi Hb Hab Hsm Hw g tau Hs E.
  destruct (cart_made_stand_in o Hm) as [(q & Hr & Hq) _].
  destruct (twin_open_loop _ _ _ _ _ _ _ Hq E) as (ys3 & E3 & HL & HN).
  destruct (C115_open_loop q fn d run_t ts ys3) as (L & A & B);
    rewrite ?(tw_time _ _ Hq), ?(tw_dt _ _ Hq), ?(tw_int_dt _ _ Hq), ?(tw_smooth _ _ Hq),
      ?(twin_alpha _ _ d Hq Hd), ?(twin_beta _ _ d Hq Hd); auto.
  { intros j Hj. destruct (tw_ft _ _ Hq) as (w & Ew & Hww).
    rewrite Ew in Hj. cbn in Hj. rewrite (tw_ft_n _ _ Hq) in Hj. rewrite (twin_w _ _ d Hq) by auto. auto. }
  { unfold dmp_damping, dmp_stiffness.
    rewrite (tw_time _ _ Hq), (twin_alpha _ _ d Hq Hd), (twin_beta _ _ d Hq Hd). exact Hs. }
  rewrite (twin_goal _ _ d Hq Hd) in B. rewrite (twin_start _ _ d Hq Hd) in A.
  split.
  - rewrite <- HN by lia. exact A.
  - intros k j Hkj Hj. rewrite <- !HN by lia. apply B; lia.
Qed.

(** A spring-damper system with critical damping (the default) or stronger damping, from
    every state on the way to the goal. *)
Theorem C115_spring_damper : forall o n y yd d,
  let c := match s_c o with Some c => c | None => 2 * sqrt (s_k o) end in
  let g := aget (p_goal_y (s_base o)) d in
  sd_shapes o n -> alen y = n -> alen yd = n ->
  0 < s_k o -> 2 * sqrt (s_k o) <= c -> 0 < s_dt o -> 0 < s_int_dt o -> s_int_dt o * c <= 1 ->
  on_the_way (sqrt (s_k o)) g (aget y d) (aget yd d) ->
  exists s : nat -> spring_damper * (arr * arr),
    (forall j, sd_n_steps None j y yd o = (fst (s j), Ok (snd (s j))))
    /\ (forall j, on_the_way (sqrt (s_k o)) g (aget (fst (snd (s j))) d) (aget (snd (snd (s j))) d))
    /\ (forall i j, (i <= j)%nat -> not_past g (aget (fst (snd (s i))) d) (aget (fst (snd (s j))) d)).
Proof.
  intros o n y yd d c g Hsh Hy Hyd Hk Hc Hdt Hi Hs H.
  assert (Hw : 0 < sqrt (s_k o)) by now apply sqrt_lt_R0.
  assert (Hc0 : c <> 0) by lra.
  pose proof (sd_run o (aget y, aget yd) Hc0 Hdt Hi) as Hrun. fold c in Hrun.
  set (t0 := p_t (s_base o)) in *. set (gv := aget (p_goal_y (s_base o))) in *.
  set (a := sd_dmp (t0 - 1) (s_k o) c (s_int_dt o) gv) in *.
  assert (Hd : damping a d = c) by apply sd_damping.
  assert (Hst : stiffness a d = s_k o) by now apply sd_stiffness.
  destruct (run_on_the_way a d) with (fn := Euler) (t0 := t0) (dt := s_dt o) (x := (aget y, aget yd))
    as (s & H0 & Hr & A & B); auto.
  { repeat split. }
  { cbn. lra. }
  { rewrite Hst. exact Hk. }
  { rewrite Hst, Hd. exact Hc. }
  { cbn. lra. }
  { rewrite Hst, Hd. exact Hs. }
  { rewrite Hst. exact H. }
  rewrite Hst in A.
  assert (F : forall j, exists o' y' yd', sd_n_steps None j y yd o = (o', Ok (y', yd'))
     /\ (aget y', aget yd') = s j).
  { intros j. destruct (sd_n_steps_seq None j o n y yd) as (o' & s' & Hr' & Hn & _); auto.
    fold t0 gv in Hr'. rewrite Hrun, Hr in Hr'. injection Hr' as <-.
    eexists _, _, _. split; [exact Hn|]. cbn. now destruct (s j). }
  exists (fun j => match sd_n_steps None j y yd o
    with (o', Ok x) => (o', x) | (o', Err _) => (o', (zeros 0, zeros 0)) end).
  split; [|split].
  - intros j. destruct (F j) as (o' & y' & yd' & -> & _). reflexivity.
  - intros j. destruct (F j) as (o' & y' & yd' & -> & E). cbn [fst snd]. specialize (A j). rewrite <- E in A. exact A.
  - intros i j Hij. destruct (F i) as (o' & y' & yd' & -> & E). destruct (F j) as (o2 & y2 & yd2 & -> & E2).
    cbn [fst snd]. specialize (B i j Hij). rewrite <- E, <- E2 in B. exact B.
Qed.

(** A step that is too long overshoots: critically damped spring-damper with k = 1, the
    default, but int_dt = dt = 2. *)
Theorem C115_long_step : exists o y yd o' y' yd',
  sd_shapes o 1 /\ alen y = 1%nat /\ alen yd = 1%nat /\ s_k o = 1 /\ s_c o = None /\ 0 < s_dt o /\ 0 < s_int_dt o
  /\ aget yd 0%nat = 0 /\ sd_step y yd None o = (o', Ok (y', yd'))
  /\ ~ not_past (aget (p_goal_y (s_base o)) 0%nat) (aget y 0%nat) (aget y' 0%nat).
Proof.
  set (o := sd_new 1 2 1 None 2). set (y := {| alen := 1; aget := fun _ => 1 |}). set (yd := zeros 1).
  destruct (sd_step_eq o y yd None) as (s & o' & Es & E & _); try reflexivity; try (cbn; lra).
  exists o, y, yd, o', {| alen := 1; aget := fst s |}, {| alen := 1; aget := snd s |}.
  split; [repeat split|]. do 4 (split; [reflexivity|]). split; [cbn; lra|]. split; [cbn; lra|].
  split; [reflexivity|]. split; [exact E|].
  assert (F : fst s 0%nat = -3).
  { cbn in Es. unfold spring_damper_step, default_critically_damped_c in Es.
    destruct (substeps_tiles 0 (0 + 2) 2 ltac:(lra) ltac:(lra)) as [l [Ht Hs]]. rewrite Hs in Es.
    rewrite (tiles_single 2 0 (0 + 2) l ltac:(lra) Ht) in Es. injection Es as <-.
    unfold exec_substeps. cbn. rewrite sqrt_1. unfold vzero. ring. }
  intros (N & _). cbn in N. rewrite F in N. unfold vzero in N. lra.
Qed.

(** The default gains and step lengths satisfy the conditions, for execution time 1. *)
Example C115_satisfiable : exists o, reachable 1 o /\ 0 < o_execution_time o /\ 0 < o_dt o /\ 0 < o_int_dt o
  /\ 0 < aget (o_beta_y o) 0%nat /\ 4 * aget (o_beta_y o) 0%nat <= aget (o_alpha_y o) 0%nat
  /\ o_smooth_scaling o = false /\ (forall i, ft_weights (o_forcing_term o) 0 i = 0)
  /\ (forall fn, short_steps fn (o_dt o) (o_int_dt o) (dmp_damping o 0) (dmp_stiffness o 0))
  /\ aget (p_start_y (o_base o)) 0%nat <> aget (p_goal_y (o_base o)) 0%nat
  /\ on_the_way (sqrt (dmp_stiffness o 0)) (aget (p_goal_y (o_base o)) 0%nat)
       (aget (p_start_y (o_base o)) 0%nat) (aget (p_start_yd (o_base o)) 0%nat).
Proof.
  destruct (C100_satisfiable 25 (25 / 4) ltac:(lra) ltac:(lra))
    as (o & Hr & Hx & Hdt & Hi & Hc & Hk & Ha & Hb & _ & Hs & Hw & Hne & Hv).
  exists o. rewrite Hdt, Hi, Hc, Hk, Hv. split; [exact Hr|]. split; [exact Hx|]. split; [lra|]. split; [lra|].
  split; [exact Hb|]. split.
  { unfold dmp_damping, dmp_stiffness in *. set (al := aget (o_alpha_y o) 0%nat) in *.
    set (be := aget (o_beta_y o) 0%nat) in *. set (x := o_execution_time o) in *.
    assert (al = 25 * x) by (rewrite <- Hc; field; lra).
    assert (al * be = 25 * (25 / 4) * x ^ 2) by (rewrite <- Hk; field; lra).
    assert (be = 25 / 4 * x) by (apply (Rmult_eq_reg_l al); [rewrite H0, H; ring|lra]). lra. }
  split; [exact Hs|]. split; [exact Hw|]. split.
  { pose proof (sqrt_pos (25 * (25 / 4))). intros []; cbn; lra. }
  split; [exact Hne|]. unfold on_the_way. rewrite Rabs_R0. split; [lra|].
  apply Rmult_le_pos; [apply sqrt_pos|apply Rabs_pos].
Qed.
