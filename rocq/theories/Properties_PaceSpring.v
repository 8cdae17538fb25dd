(** C140 for SpringDamper.  Final statements. *)
From Coq Require Import Reals ZArith List Arith Bool Lia Lra Psatz FunctionalExtensionality.
From Verif Require Import M_Prelude M_Canonical M_Forcing M_Dmp M_Base M_DmpObject M_SpringDamper S_Loops S_Dmp S_Stability
  P_Loops P_Forcing P_DmpStep P_DmpLinear P_Converge P_DmpObject P_Disturbed P_Stability P_Bounded P_DisturbedAll P_Moving P_Pace
  Properties_SpringDamper Properties_IO Properties_Goal Properties_Stability Properties_SpringHistory Properties_Moving
  Properties_MovingSpring Properties_Pace.
Import ListNotations.
Open Scope R_scope.
Set Bullet Behavior "Strict Subproofs".

(** ** Specification *)
(** As [keeps_pace] in Properties_Pace.v; the default of the damping is critical. *)
Definition spring_keeps_pace (o : spring_damper) (D x v : R) : Prop :=
  let c := match s_c o with Some c => c | None => 2 * sqrt (s_k o) end in
  let h := Rmin (s_dt o) (s_int_dt o) in
  exists n, INR n * h = s_dt o /\ Nat.iter n (spring_euler h c (s_k o)) (x - D, v) = (x, v).

(** The integrator shrinks the motion of the spring; see C100. *)
Definition spring_shrinks (o : spring_damper) : Prop :=
  let c := match s_c o with Some c => c | None => 2 * sqrt (s_k o) end in
  let h := Rmin (s_dt o) (s_int_dt o) in
  0 < s_k o /\ 0 < c /\ 0 < s_dt o /\ 0 < s_int_dt o /\ equal_parts (s_dt o) (s_int_dt o)
  /\ h ^ 2 * s_k o + 2 * (h * c) < 4.

(** ** C140 *)
Theorem C140_spring_pace : forall o D, spring_shrinks o ->
  exists x v, spring_keeps_pace o D x v
  /\ forall x' v', spring_keeps_pace o D x' v' -> x' = x /\ v' = v.
Proof.
  intros o D (Hk & Hc & Hdt & Hi & Hep & Hlim). unfold spring_keeps_pace. cbv zeta.
  set (c := match s_c o with Some c => c | None => 2 * sqrt (s_k o) end) in *. set (k := s_k o) in *.
  set (h := Rmin (s_dt o) (s_int_dt o)) in *.
  assert (Hh : 0 < h) by (apply Rmin_pos; auto).
  assert (Hsh : euler_shrinks h c k) by now apply euler_shrinks_iff.
  destruct (equal_parts_count _ _ Hdt Hi Hep) as (n & Hn & En). fold h in En.
  destruct (esub_iter_linear h c k n) as (p & q & r & u & L).
  destruct (unique_pace p q r u D) as (e & v & (E1 & E2) & U).
  { intros x v E1 E2. assert (E : (x, v) = (0, 0)); [|injection E; auto].
    apply (euler_only_zero h c k n); auto. rewrite L. cbn [fst snd]. now rewrite E1, E2. }
  exists (e + D), v. split.
  - exists n. split; [auto|]. rewrite spring_iter_eq, L. cbn [fst snd]. replace (e + D - D) with e by ring.
    now rewrite E1, E2.
  - intros x' v' (n' & En' & E).
    assert (n' = n) as -> by (apply INR_eq, (Rmult_eq_reg_r h); lra).
    rewrite spring_iter_eq, L in E. cbn [fst snd] in E. injection E as F1 F2.
    destruct (U (x' - D) v') as [G1 G2]; [lra|lra|]. lra.
Qed.

(** Whatever the history and the beginning: the spring ends up keeping pace with the goal. *)
Theorem C140_spring_limit : forall n o goals y yd d D x v,
  position_history n o -> spring_shrinks o ->
  alen y = n -> alen yd = n -> (forall j, alen (goals j) = n) -> moves_by goals d D -> spring_keeps_pace o D x v ->
  forall eps, 0 < eps -> exists N, forall j, (N <= j)%nat ->
  exists o' y' yd', chase_spring goals (S j) y yd o = (o', Ok (y', yd'))
    /\ Rabs (aget y' d - aget (goals j) d - x) <= eps /\ Rabs (aget yd' d - v) <= eps.
Proof.
  assert (Main : forall k c_arg dt int_dt,
    let c := match c_arg with Some c => c | None => 2 * sqrt k end in
    let h := Rmin dt int_dt in
    0 < k -> 0 < c -> 0 < dt -> 0 < int_dt -> equal_parts dt int_dt -> h ^ 2 * k + 2 * (h * c) < 4 ->
    forall D x v m, INR m * h = dt -> Nat.iter m (spring_euler h c k) (x - D, v) = (x, v) ->
    forall n o goals y yd d,
    position_history n o -> s_k o = k -> s_c o = c_arg -> s_dt o = dt -> s_int_dt o = int_dt ->
    alen y = n -> alen yd = n -> (forall j, alen (goals j) = n) -> moves_by goals d D ->
    forall eps, 0 < eps -> exists N, forall j, (N <= j)%nat ->
    exists o' y' yd', chase_spring goals (S j) y yd o = (o', Ok (y', yd'))
      /\ Rabs (aget y' d - aget (goals j) d - x) <= eps /\ Rabs (aget yd' d - v) <= eps).
  2:{ intros n o goals y yd d D x v Hh (Hk & Hc & Hdt & Hi & Hep & Hlim) Ly Lyd Lg Hmv (m & Em & Ek).
      exact (Main _ _ _ _ Hk Hc Hdt Hi Hep Hlim D x v m Em Ek n o goals y yd d Hh eq_refl eq_refl eq_refl eq_refl Ly Lyd Lg Hmv). }
  intros k c_arg dt int_dt c h Hk Hc Hdt Hi Hep Hlim.
  assert (Hh : 0 < h) by (unfold h; now apply Rmin_pos).
  assert (Hsh : euler_shrinks h (c / 1) (c * (k / c) / 1 ^ 2)).
  { replace (c / 1) with c by field. replace (c * (k / c) / 1 ^ 2) with k by (field; lra).
    now apply euler_shrinks_iff. }
  intros D x v m Em Ekp.
  assert (Hm : (0 < m)%nat) by (destruct m; [simpl in Em; lra|lia]).
  assert (Hpace : Nat.iter m (esub h (c / 1) (c * (k / c) / 1 ^ 2)) (x - D, v) = (x - D + D, v)).
  { replace (c / 1) with c by field. replace (c * (k / c) / 1 ^ 2) with k by (field; lra).
    rewrite <- spring_iter_eq, Ekp. f_equal. ring. }
  intros n o goals y yd d Hhist Ek Ec Edt Ei Ly Lyd Lg Hmv.
  pose proof (position_shapes n o Hhist) as Hshape.
  set (P := fun j (r : spring_damper * res (arr * arr)) => exists ok yk ydk, r = (ok, Ok (yk, ydk))
     /\ ptp_shapes n n (s_base ok) /\ spring_like o ok /\ alen yk = n /\ alen ydk = n
     /\ p_t (s_base ok) = p_t (s_base o) + INR j * s_dt o).
  assert (HP : forall j, P j (chase_spring goals j y yd o)).
  { induction j as [|j IH].
    - exists o, y, yd. split; [reflexivity|]. split; [exact Hshape|]. split; [unfold spring_like; auto|].
      split; [exact Ly|]. split; [exact Lyd|]. simpl. ring.
    - destruct IH as (ok & yk & ydk & E & A1 & A2 & A3 & A4 & A5).
      destruct (chase_spring_step n goals o y yd j ok yk ydk) as (ok' & yk' & ydk' & E' & B); auto; try lra.
      exists ok', yk', ydk'. tauto. }
  set (st := fun j => match snd (chase_spring goals j y yd o) with
                      | Ok (y, yd) => (aget y, aget yd) | Err _ => (vzero, vzero) end).
  assert (Hst : forall j, spring_damper_step (aget (goals j)) k c_arg None None int_dt
       (p_t (s_base o) + INR j * dt) (p_t (s_base o) + INR (S j) * dt) (st j) = Ok (st (S j))).
  { intros j. destruct (HP j) as (ok & yk & ydk & E & A1 & A2 & A3 & A4 & A5).
    destruct (chase_spring_step n goals o y yd j ok yk ydk) as (ok' & yk' & ydk' & E' & _ & _ & _ & _ & _ & Es); auto; try lra.
    unfold st. rewrite E, E'. cbn [snd]. rewrite Ek, Ec, Edt, Ei in Es. exact Es. }
  destruct (clock_steps (p_t (s_base o)) dt Hdt) as [k0 Hk0].
  set (t0 := p_t (s_base o) + INR (S k0) * dt).
  set (g := fun j => aget (goals (S k0 + j)%nat) d).
  set (a := fun j => sd_dmp 0 k c int_dt (aget (goals (S k0 + j)%nat))).
  destruct (euler_pace_run dt int_dt h c (k / c) 1 Hdt Hi ltac:(lra) (parts_length _ _ Hdt Hi Hep) Hsh m (x - D) v D Hm ltac:(lra) Hpace
    Euler a d no_force g 0 t0 (fun j => st (S k0 + j)%nat)) as [HE1 HE2]; auto; try lra.
  { split; intros j; cbn; try reflexivity.
    - lra.
    - intros z Hz. unfold disturbance. cbn [a sd_dmp a_forcing_term a_smooth_scaling].
      assert (Ef : ft_forces no_force z d = 0) by (unfold ft_forces, no_force; simpl; ring).
      rewrite Ef, Rminus_0_r, Rabs_R0. lra. }
  { unfold phase_ok, no_force. cbn. split; [lia|]. lra. }
  { intros e He. destruct (Hmv e He) as [N HN]. exists N. intros j Hj. unfold g. rewrite Rplus_0_l.
    replace (S k0 + S j)%nat with (S (S k0 + j)) by lia. apply HN. lia. }
  { intros j. cbn [run_step_function].
    pose proof (pos_INR j). pose proof (C46_dmp_without_forcing_term (aget (goals (S k0 + j)%nat)) k c_arg int_dt
      (t0 + INR j * dt) (t0 + INR (S j) * dt) (st (S k0 + j)%nat)) as HC. cbv zeta in HC. fold c in HC.
    unfold a. rewrite <- HC; auto; try lra; try (rewrite S_INR; unfold t0 in *; nra).
    replace (t0 + INR j * dt) with (p_t (s_base o) + INR (S k0 + j) * dt) by (unfold t0; rewrite plus_INR; ring).
    replace (t0 + INR (S j) * dt) with (p_t (s_base o) + INR (S (S k0 + j)) * dt)
      by (unfold t0; rewrite (S_INR (S k0 + j)), plus_INR, (S_INR j); ring).
    replace (S k0 + S j)%nat with (S (S k0 + j)) by lia. apply Hst. }
  intros eps He.
  destruct (HE1 (eps / 2) ltac:(lra)) as [N1 HN1]. destruct (HE2 eps He) as [N2 HN2].
  destruct (Hmv (eps / 2) ltac:(lra)) as [N3 HN3].
  exists (S k0 + N1 + N2 + N3)%nat. intros j Hj.
  destruct (HP (S j)) as (ok & yk & ydk & E & _).
  exists ok, yk, ydk. split; [exact E|].
  set (m' := (S j - S k0)%nat). assert (Em' : (S k0 + m' = S j)%nat) by (unfold m'; lia).
  specialize (HN1 m' ltac:(unfold m'; lia)). specialize (HN2 m' ltac:(unfold m'; lia)).
  specialize (HN3 j ltac:(lia)). unfold g in HN1. cbv beta in HN1, HN2. rewrite Em' in HN1, HN2.
  assert (Es : st (S j) = (aget yk, aget ydk)) by (unfold st; rewrite E; reflexivity).
  rewrite Es in HN1, HN2. cbn [fst snd] in HN1, HN2. split; [|lra].
  replace (aget yk d - aget (goals j) d - x) with
    ((aget yk d - aget (goals (S j)) d - (x - D)) + (aget (goals (S j)) d - aget (goals j) d - D)) by ring.
  eapply Rle_trans; [apply Rabs_triang|]. lra.
Qed.

(** One Euler step per call: the velocity is that of the goal, and right after the goal has jumped the spring
    is behind it by [c / k] times this velocity, by [2 / sqrt k] times it with the default damping. *)
Theorem C140_spring_lag : forall o D, 0 < s_k o -> 0 < s_dt o <= s_int_dt o ->
  let c := match s_c o with Some c => c | None => 2 * sqrt (s_k o) end in
  spring_keeps_pace o D (D - c / s_k o * (D / s_dt o)) (D / s_dt o).
Proof.
  intros o D Hk [Hdt Hle] c. unfold spring_keeps_pace. cbv zeta. fold c. rewrite Rmin_left by exact Hle.
  exists 1%nat. split; [simpl; ring|]. cbn [Nat.iter nat_rect]. unfold spring_euler. f_equal; field; lra.
Qed.
Corollary C140_spring_lag_default : forall o D, 0 < s_k o -> 0 < s_dt o <= s_int_dt o -> s_c o = None ->
  spring_keeps_pace o D (D - 2 / sqrt (s_k o) * (D / s_dt o)) (D / s_dt o).
Proof.
  intros o D Hk Hdt Hc. pose proof (C140_spring_lag o D Hk Hdt) as H. cbv zeta in H. rewrite Hc in H.
  pose proof (sqrt_lt_R0 _ Hk) as Hs.
  replace (2 / sqrt (s_k o)) with (2 * sqrt (s_k o) / s_k o); [exact H|].
  rewrite <- (sqrt_sqrt (s_k o)) at 2 by lra. field. lra.
Qed.

(** A critically damped spring after a rejected call, and a goal that moves by 1/10 per step. *)
Example C140_spring_satisfiable : exists o, position_history 2 o /\ spring_shrinks o
  /\ (let goals k := {| alen := 2; aget := fun _ => INR k / 10 |} in
      (forall k, alen (goals k) = 2%nat) /\ moves_by goals 1 (1/10))
  /\ exists x v, spring_keeps_pace o (1/10) x v.
Proof.
  destruct C133_spring_satisfiable as (o & H1 & H2 & H3 & H4 & H5 & H6 & H7).
  assert (Hs : sqrt 4 = 2) by (replace 4 with (2 * 2) by ring; apply sqrt_square; lra).
  assert (Sh : spring_shrinks o).
  { unfold spring_shrinks. rewrite H2, H3, H4, H5. repeat (split; [first [assumption|rewrite ?Hs; lra]|]). exact H7. }
  exists o. split; [exact H1|]. split; [exact Sh|]. split.
  - split; [reflexivity|]. intros e He. exists 0%nat. intros k _. cbn [aget]. rewrite S_INR.
    replace ((INR k + 1) / 10 - INR k / 10 - 1/10) with 0 by field. rewrite Rabs_R0. lra.
  - destruct (C140_spring_pace o (1/10) Sh) as (x & v & H & _). eauto.
Qed.
