(** C133 for SpringDamper.  Final statements. *)
From Coq Require Import Reals ZArith List Arith Bool Lia Lra Psatz FunctionalExtensionality.
From Verif Require Import M_Prelude M_Canonical M_Forcing M_Dmp M_Base M_DmpObject M_SpringDamper S_Loops S_Dmp S_Stability
  P_Loops P_Forcing P_DmpStep P_DmpLinear P_Converge P_DmpObject P_Disturbed P_Stability P_Bounded P_DisturbedAll P_Moving
  Properties_SpringDamper Properties_IO Properties_Goal Properties_Stability Properties_SpringHistory Properties_Moving.
Import ListNotations.
Open Scope R_scope.
Set Bullet Behavior "Strict Subproofs".

(** ** Specification *)
(** As [chase] in Properties_Moving.v. *)
Fixpoint chase_spring (goals : nat -> arr) (k : nat) (y yd : arr) (o : spring_damper)
  : spring_damper * res (arr * arr) :=
  match k with
  | O => (o, Ok (y, yd))
  | S k =>
      match chase_spring goals k y yd o with
      | (o, Ok (y, yd)) =>
          match sd_configure (goal_only (goals k)) o with
          | (o, Ok _) => sd_step y yd None o
          | (o, Err e) => (o, Err e)
          end
      | (o, Err e) => (o, Err e)
      end
  end.

(** ** Proofs *)
Definition spring_to (g : arr) (o : spring_damper) : spring_damper :=
  sd_with (set_goal_y g (s_base o)) (s_initialized o) o.

Lemma spring_configure_goal g o : alen g = p_n_dims (s_base o) ->
  sd_configure (goal_only g) o = (spring_to g o, Ok tt).
Proof.
  intros Lg. unfold sd_configure, configure. cbn -[Nat.eqb].
  unfold check_1d_array_length. rewrite Lg, Nat.eqb_refl. reflexivity.
Qed.

Definition spring_like (o o' : spring_damper) : Prop :=
  s_dt o' = s_dt o /\ s_k o' = s_k o /\ s_c o' = s_c o /\ s_int_dt o' = s_int_dt o.

Lemma chase_spring_step n goals o y yd k ok yk ydk : 0 < s_dt o -> 0 < s_int_dt o ->
  alen (goals k) = n ->
  chase_spring goals k y yd o = (ok, Ok (yk, ydk)) -> ptp_shapes n n (s_base ok) -> spring_like o ok ->
  alen yk = n -> alen ydk = n -> p_t (s_base ok) = p_t (s_base o) + INR k * s_dt o ->
  exists ok' yk' ydk', chase_spring goals (S k) y yd o = (ok', Ok (yk', ydk'))
  /\ ptp_shapes n n (s_base ok') /\ spring_like o ok'
  /\ alen yk' = n /\ alen ydk' = n /\ p_t (s_base ok') = p_t (s_base o) + INR (S k) * s_dt o
  /\ spring_damper_step (aget (goals k)) (s_k o) (s_c o) None None (s_int_dt o)
       (p_t (s_base o) + INR k * s_dt o) (p_t (s_base o) + INR (S k) * s_dt o) (aget yk, aget ydk)
     = Ok (aget yk', aget ydk').
Proof.
  intros Hdt Hi Lg E Hsh (E1 & E2 & E3 & E4) Ly Lyd Ht.
  assert (Hn : p_n_dims (s_base ok) = n) by apply Hsh.
  set (og := spring_to (goals k) ok).
  assert (Hsg : ptp_shapes n n (s_base og)).
  { unfold og, spring_to, ptp_shapes in *. cbn. tauto. }
  assert (HA : alen (p_current_y (s_base og)) = n /\ alen (p_current_yd (s_base og)) = n
    /\ alen (p_start_y (s_base og)) = n /\ alen (p_start_yd (s_base og)) = n)
    by (unfold ptp_shapes in Hsg; tauto).
  destruct HA as (A1 & A2 & A3 & A4).
  destruct (sd_step_eq og yk ydk None) as (s & o' & Es & Eo & Et & F1 & F2 & F3 & F4 & _); try congruence.
  { cbn. congruence. } { cbn. congruence. }
  exists o', {| alen := alen yk; aget := fst s |}, {| alen := alen ydk; aget := snd s |}.
  split. { cbn [chase_spring]. rewrite E, spring_configure_goal by congruence. exact Eo. }
  split. { replace o' with (fst (sd_step yk ydk None og)) by (rewrite Eo; reflexivity). now apply sd_step_shapes. }
  split. { unfold spring_like. rewrite F1, F2, F3, F4. cbn. auto. }
  split; [exact Ly|]. split; [exact Lyd|].
  change (p_t (s_base og)) with (p_t (s_base ok)) in *. change (s_dt og) with (s_dt ok) in *.
  split. { rewrite Et, Ht, E1, S_INR. ring. }
  cbn [og spring_to sd_with s_k s_c s_int_dt s_base set_goal_y p_goal_y] in Es.
  rewrite E1, E2, E3, E4, Ht in Es.
  replace (p_t (s_base o) + INR (S k) * s_dt o) with (p_t (s_base o) + INR k * s_dt o + s_dt o)
    by (rewrite S_INR; ring).
  rewrite Es. destruct s. reflexivity.
Qed.

(** ** C133 *)
(** [K] depends on the stiffness, the damping and the step lengths only. *)
Theorem C133_spring_damper : forall k c_arg dt int_dt,
  let c := match c_arg with Some c => c | None => 2 * sqrt k end in
  let h := Rmin dt int_dt in
  0 < k -> 0 < c -> 0 < dt -> 0 < int_dt -> equal_parts dt int_dt -> h ^ 2 * k + 2 * (h * c) < 4 ->
  exists K, 0 <= K /\ forall n o goals y yd d D,
  position_history n o -> s_k o = k -> s_c o = c_arg -> s_dt o = dt -> s_int_dt o = int_dt -> 0 <= D ->
  alen y = n -> alen yd = n -> (forall j, alen (goals j) = n) -> slow goals d D ->
  forall eps, 0 < eps -> exists N, forall j, (N <= j)%nat ->
  exists o' y' yd', chase_spring goals (S j) y yd o = (o', Ok (y', yd'))
    /\ Rabs (aget y' d - aget (goals j) d) <= K * D + eps
    /\ Rabs (aget yd' d) <= K * D + eps.
Proof.
  intros k c_arg dt int_dt c h Hk Hc Hdt Hi Hep Hlim.
  assert (Hh : 0 < h) by (unfold h; now apply Rmin_pos).
  assert (Hsh : euler_shrinks h (c / 1) (c * (k / c) / 1 ^ 2)).
  { replace (c / 1) with c by field. replace (c * (k / c) / 1 ^ 2) with k by (field; lra).
    now apply euler_shrinks_iff. }
  destruct (euler_moving_run dt int_dt h c (k / c) 1 Hdt Hi ltac:(lra) (parts_length _ _ Hdt Hi Hep) Hsh)
    as (K & HK & H).
  exists (K + 1). split; [lra|].
  intros n o goals y yd d D Hhist Ek Ec Edt Ei HD Ly Lyd Lg Hslow.
  pose proof (position_shapes n o Hhist) as Hshape.
  set (P := fun j (r : spring_damper * res (arr * arr)) => exists ok yk ydk, r = (ok, Ok (yk, ydk))
     /\ ptp_shapes n n (s_base ok) /\ spring_like o ok /\ alen yk = n /\ alen ydk = n
     /\ p_t (s_base ok) = p_t (s_base o) + INR j * s_dt o).
  assert (HP : forall j, P j (chase_spring goals j y yd o)).
  { induction j as [|j IH].
    - exists o, y, yd. split; [reflexivity|]. split; [exact Hshape|]. split; [unfold spring_like; auto|].
      split; [exact Ly|]. split; [exact Lyd|]. simpl. ring.
    - destruct IH as (ok & yk & ydk & E & A1 & A2 & A3 & A4 & A5).
      destruct (chase_spring_step n goals o y yd j ok yk ydk) as (ok' & yk' & ydk' & E' & B); auto; try lra.
      exists ok', yk', ydk'. tauto. }
  set (st := fun j => match snd (chase_spring goals j y yd o) with
                      | Ok (y, yd) => (aget y, aget yd) | Err _ => (vzero, vzero) end).
  assert (Hst : forall j, spring_damper_step (aget (goals j)) k c_arg None None int_dt
       (p_t (s_base o) + INR j * dt) (p_t (s_base o) + INR (S j) * dt) (st j) = Ok (st (S j))).
  { intros j. destruct (HP j) as (ok & yk & ydk & E & A1 & A2 & A3 & A4 & A5).
    destruct (chase_spring_step n goals o y yd j ok yk ydk) as (ok' & yk' & ydk' & E' & _ & _ & _ & _ & _ & Es); auto; try lra.
    unfold st. rewrite E, E'. cbn [snd]. rewrite Ek, Ec, Edt, Ei in Es. exact Es. }
  destruct (clock_steps (p_t (s_base o)) dt Hdt) as [k0 Hk0].
  set (t0 := p_t (s_base o) + INR (S k0) * dt).
  set (g := fun j => aget (goals (S k0 + j)%nat) d).
  set (a := fun j => sd_dmp 0 k c int_dt (aget (goals (S k0 + j)%nat))).
  destruct (H Euler a d no_force g D 0 t0 (fun j => st (S k0 + j)%nat)) as [HE1 HE2]; auto; try lra.
  { split; intros j; cbn; try reflexivity.
    - lra.
    - intros z Hz. unfold disturbance. cbn [a sd_dmp a_forcing_term a_smooth_scaling].
      assert (Ef : ft_forces no_force z d = 0) by (unfold ft_forces, no_force; simpl; ring).
      rewrite Ef, Rminus_0_r, Rabs_R0. lra. }
  { unfold phase_ok, no_force. cbn. split; [lia|]. lra. }
  { intros e He. destruct (Hslow e He) as [N HN]. exists N. intros j Hj. unfold g.
    rewrite Rabs_minus_sym. replace (S k0 + S j)%nat with (S (S k0 + j)) by lia. apply HN. lia. }
  { intros j. cbn [run_step_function].
    pose proof (pos_INR j). pose proof (C46_dmp_without_forcing_term (aget (goals (S k0 + j)%nat)) k c_arg int_dt
      (t0 + INR j * dt) (t0 + INR (S j) * dt) (st (S k0 + j)%nat)) as HC. cbv zeta in HC. fold c in HC.
    unfold a. rewrite <- HC; auto; try lra; try (rewrite S_INR; unfold t0 in *; nra).
    replace (t0 + INR j * dt) with (p_t (s_base o) + INR (S k0 + j) * dt) by (unfold t0; rewrite plus_INR; ring).
    replace (t0 + INR (S j) * dt) with (p_t (s_base o) + INR (S (S k0 + j)) * dt)
      by (unfold t0; rewrite (S_INR (S k0 + j)), plus_INR, (S_INR j); ring).
    replace (S k0 + S j)%nat with (S (S k0 + j)) by lia. apply Hst. }
  intros eps He.
  destruct (HE1 (eps / 2) ltac:(lra)) as [N1 HN1]. destruct (HE2 eps He) as [N2 HN2].
  destruct (Hslow (eps / 2) ltac:(lra)) as [N3 HN3].
  exists (S k0 + N1 + N2 + N3)%nat. intros j Hj.
  destruct (HP (S j)) as (ok & yk & ydk & E & _).
  exists ok, yk, ydk. split; [exact E|].
  set (m := (S j - S k0)%nat). assert (Em : (S k0 + m = S j)%nat) by (unfold m; lia).
  specialize (HN1 m ltac:(unfold m; lia)). specialize (HN2 m ltac:(unfold m; lia)).
  specialize (HN3 j ltac:(lia)). unfold g in HN1. cbv beta in HN1, HN2. rewrite Em in HN1, HN2.
  assert (Es : st (S j) = (aget yk, aget ydk)) by (unfold st; rewrite E; reflexivity).
  rewrite Es in HN1, HN2. cbn [fst snd] in HN1, HN2. split; [|lra].
  replace (aget yk d - aget (goals j) d) with
    ((aget yk d - aget (goals (S j)) d) + (aget (goals (S j)) d - aget (goals j) d)) by ring.
  eapply Rle_trans; [apply Rabs_triang|]. lra.
Qed.

(** A critically damped spring after a rejected call. *)
Example C133_spring_satisfiable : exists o, position_history 2 o /\ s_k o = 4 /\ s_c o = None
  /\ s_dt o = 1/10 /\ s_int_dt o = 1/1000 /\ equal_parts (1/10) (1/1000)
  /\ (let h := Rmin (1/10) (1/1000) in h ^ 2 * 4 + 2 * (h * (2 * sqrt 4)) < 4).
Proof.
  exists (fst (sd_configure (goal_only {| alen := 3; aget := INR |}) (sd_new 2 (1/10) 4 None (1/1000)))).
  split. { apply sh_configure, sh_new. eauto. }
  repeat (split; [reflexivity|]).
  split. { right. exists 100%nat. simpl. lra. }
  cbv zeta. rewrite Rmin_right by lra. replace 4 with (2 * 2) by ring. rewrite sqrt_square by lra. lra.
Qed.
