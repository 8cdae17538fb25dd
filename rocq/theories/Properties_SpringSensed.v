(** C94 for SpringDamper: wrong measurements cause bounded deviations.  Final statements. *)
From Coq Require Import Reals ZArith List Arith Bool Lia Lra Psatz FunctionalExtensionality.
From Verif Require Import M_Prelude M_Canonical M_Forcing M_Dmp M_Base M_DmpObject M_SpringDamper S_Loops S_Dmp S_Stability
  P_Loops P_Forcing P_DmpStep P_DmpLinear P_Converge P_DmpObject P_Disturbed P_Stability P_Bounded P_DisturbedAll P_Moving P_Pace
  P_Sensed Properties_SpringDamper Properties_IO Properties_Goal Properties_Stability Properties_SpringHistory Properties_Moving
  Properties_MovingSpring Properties_PaceSpring.
Import ListNotations.
Open Scope R_scope.
Set Bullet Behavior "Strict Subproofs".

(** ** Specification *)
(** The object after [k] calls of [step]; call [k] is given the measured position [ys k] and the
    measured velocity [yds k]. *)
Fixpoint spring_loop (ys yds : nat -> arr) (k : nat) (o : spring_damper) : spring_damper :=
  match k with
  | O => o
  | S k => fst (sd_step (ys k) (yds k) None (spring_loop ys yds k o))
  end.

(** Call [k] returns the position [y] and the velocity [yd]. *)
Definition spring_returns (ys yds : nat -> arr) (o : spring_damper) (k : nat) (y yd : arr) : Prop :=
  snd (sd_step (ys k) (yds k) None (spring_loop ys yds k o)) = Ok (y, yd).

(** From call [m] on the position and the velocity measured in dimension [d] differ from those returned
    by the call before by at most [B]. *)
Definition spring_measured_within (B : R) (d m : nat) (ys yds : nat -> arr) (o : spring_damper) : Prop :=
  forall k y yd, (m <= k)%nat -> spring_returns ys yds o k y yd ->
    Rabs (aget (ys (S k)) d - aget y d) <= B /\ Rabs (aget (yds (S k)) d - aget yd d) <= B.

(** ** Proofs *)
Lemma spring_loop_info n ys yds o : ptp_shapes n n (s_base o) -> 0 < s_dt o -> 0 < s_int_dt o ->
  (forall k, alen (ys k) = n /\ alen (yds k) = n) ->
  forall k, let ok := spring_loop ys yds k o in
    ptp_shapes n n (s_base ok) /\ spring_like o ok /\ p_t (s_base ok) = p_t (s_base o) + INR k * s_dt o
    /\ p_goal_y (s_base ok) = p_goal_y (s_base o)
    /\ exists s, spring_damper_step (aget (p_goal_y (s_base o))) (s_k o) (s_c o) None None (s_int_dt o)
         (p_t (s_base o) + INR k * s_dt o) (p_t (s_base o) + INR (S k) * s_dt o) (aget (ys k), aget (yds k)) = Ok s
       /\ spring_returns ys yds o k {| alen := n; aget := fst s |} {| alen := n; aget := snd s |}.
Proof.
  intros Hsh Hdt Hi Hl.
  assert (Hone : forall k ok, ptp_shapes n n (s_base ok) -> spring_like o ok ->
     p_t (s_base ok) = p_t (s_base o) + INR k * s_dt o -> p_goal_y (s_base ok) = p_goal_y (s_base o) ->
     exists s o', spring_damper_step (aget (p_goal_y (s_base o))) (s_k o) (s_c o) None None (s_int_dt o)
         (p_t (s_base o) + INR k * s_dt o) (p_t (s_base o) + INR (S k) * s_dt o) (aget (ys k), aget (yds k)) = Ok s
       /\ sd_step (ys k) (yds k) None ok = (o', Ok ({| alen := n; aget := fst s |}, {| alen := n; aget := snd s |}))
       /\ ptp_shapes n n (s_base o') /\ spring_like o o'
       /\ p_t (s_base o') = p_t (s_base o) + INR (S k) * s_dt o /\ p_goal_y (s_base o') = p_goal_y (s_base o)).
  { intros k ok S1 (E1 & E2 & E3 & E4) T1 G1. destruct (Hl k) as [Ly Lyd].
    assert (HA : alen (p_current_y (s_base ok)) = n /\ alen (p_current_yd (s_base ok)) = n
      /\ alen (p_start_y (s_base ok)) = n /\ alen (p_start_yd (s_base ok)) = n)
      by (unfold ptp_shapes in S1; tauto).
    destruct HA as (A1 & A2 & A3 & A4).
    destruct (sd_step_eq ok (ys k) (yds k) None) as (s & o' & Es & Eo & Et & F1 & F2 & F3 & F4 & F5 & _); try congruence.
    exists s, o'. rewrite Ly, Lyd in Eo.
    replace (p_t (s_base o) + INR (S k) * s_dt o) with (p_t (s_base o) + INR k * s_dt o + s_dt o) by (rewrite S_INR; ring).
    split; [now rewrite G1, E1, E2, E3, E4, T1 in Es|]. split; [exact Eo|].
    split. { replace o' with (fst (sd_step (ys k) (yds k) None ok)) by (rewrite Eo; reflexivity). now apply sd_step_shapes. }
    split. { unfold spring_like. rewrite F1, F2, F3, F4. auto. }
    split; [now rewrite Et, T1, E1|congruence]. }
  assert (Hall : forall k, let ok := spring_loop ys yds k o in
    ptp_shapes n n (s_base ok) /\ spring_like o ok /\ p_t (s_base ok) = p_t (s_base o) + INR k * s_dt o
    /\ p_goal_y (s_base ok) = p_goal_y (s_base o)).
  { induction k as [|k (S1 & L1 & T1 & G1)].
    - cbn. split; [exact Hsh|]. split; [unfold spring_like; auto|]. split; [ring|reflexivity].
    - destruct (Hone k _ S1 L1 T1 G1) as (s & o' & _ & E & S2 & L2 & T2 & G2).
      cbn [spring_loop]. rewrite E. cbn [fst]. cbv zeta. auto. }
  intros k. destruct (Hall k) as (S1 & L1 & T1 & G1). cbv zeta.
  split; [exact S1|]. split; [exact L1|]. split; [exact T1|]. split; [exact G1|].
  destruct (Hone k _ S1 L1 T1 G1) as (s & o' & Es & E & _). exists s. split; [exact Es|].
  unfold spring_returns. now rewrite E.
Qed.

(** ** C94 *)
(** [K] depends on the stiffness, the damping and the step lengths only. *)
Theorem C94_spring : forall o0, spring_shrinks o0 ->
  exists K, 0 <= K /\ forall n o ys yds d B m,
  position_history n o -> spring_like o0 o -> 0 <= B ->
  (forall k, alen (ys k) = n /\ alen (yds k) = n) ->
  spring_measured_within B d m ys yds o ->
  forall eps, 0 < eps -> exists N, forall k, (N <= k)%nat ->
  exists y yd, spring_returns ys yds o k y yd
    /\ Rabs (aget y d - aget (p_goal_y (s_base o)) d) <= K * B + eps
    /\ Rabs (aget yd d) <= K * B + eps.
Proof.
  intros o0 (Hk & Hc & Hdt & Hi & Hep & Hlim).
  set (c := match s_c o0 with Some c => c | None => 2 * sqrt (s_k o0) end) in *.
  set (k := s_k o0) in *. set (dt := s_dt o0) in *. set (int_dt := s_int_dt o0) in *.
  set (h := Rmin dt int_dt) in *.
  assert (Hh : 0 < h) by (unfold h; now apply Rmin_pos).
  assert (Hsh : euler_shrinks h (c / 1) (c * (k / c) / 1 ^ 2)).
  { replace (c / 1) with c by field. replace (c * (k / c) / 1 ^ 2) with k by (field; lra).
    now apply euler_shrinks_iff. }
  destruct (euler_sensed_run dt int_dt h c (k / c) 1 Hdt Hi ltac:(lra) (parts_length _ _ Hdt Hi Hep) Hsh) as (K & HK & H).
  exists (K + 1). split; [lra|].
  intros n o ys yds d B m Hhist (E1 & E2 & E3 & E4) HB Hl Hme.
  fold dt in E1. fold k in E2. fold int_dt in E4.
  pose proof (spring_loop_info n ys yds o (position_shapes n o Hhist)) as Hinfo.
  rewrite E1, E2, E3, E4 in Hinfo. specialize (Hinfo Hdt Hi Hl).
  destruct (clock_steps (p_t (s_base o)) dt Hdt) as [k0 Hk0].
  set (t0 := p_t (s_base o) + INR (S k0) * dt) in *.
  set (q := fun j => (S k0 + j)%nat).
  set (x := fun j => (aget (ys (q j)), aget (yds (q j)))).
  set (a := fun _ : nat => sd_dmp 0 k c int_dt (aget (p_goal_y (s_base o)))).
  set (s := fun j => match j with
     | O => (vzero, vzero)
     | S j => match run_step_function Euler (a j) (t0 + INR j * dt) (t0 + INR (S j) * dt) (x j) with
              | Ok z => z | Err _ => (vzero, vzero) end
     end).
  assert (Ht : forall j, p_t (s_base o) + INR (q j) * dt = t0 + INR j * dt).
  { intros j. unfold q, t0. rewrite plus_INR. ring. }
  assert (Hs : forall j,
     run_step_function Euler (a j) (t0 + INR j * dt) (t0 + INR (S j) * dt) (x j) = Ok (s (S j))
     /\ spring_returns ys yds o (q j) {| alen := n; aget := fst (s (S j)) |} {| alen := n; aget := snd (s (S j)) |}).
  { intros j. destruct (Hinfo (q j)) as (_ & _ & _ & _ & z & R1 & R2).
    rewrite Ht in R1. replace (S (q j)) with (q (S j)) in R1 by (unfold q; lia). rewrite Ht in R1.
    fold (x j) in R1.
    assert (Ez : run_step_function Euler (a j) (t0 + INR j * dt) (t0 + INR (S j) * dt) (x j) = Ok z).
    { cbn [run_step_function]. pose proof (pos_INR j).
      pose proof (C46_dmp_without_forcing_term (aget (p_goal_y (s_base o))) k (s_c o0) int_dt
        (t0 + INR j * dt) (t0 + INR (S j) * dt) (x j)) as HC. cbv zeta in HC. fold c in HC.
      unfold a. rewrite <- HC; auto; try lra; rewrite S_INR; nra. }
    assert (Es : s (S j) = z) by (unfold s; now rewrite Ez).
    rewrite Es. split; [exact Ez|exact R2]. }
  assert (Hpos : forall j, (m <= j)%nat ->
     Rabs (fst (x (S j)) d - fst (s (S j)) d) <= B /\ Rabs (snd (x (S j)) d - snd (s (S j)) d) <= B).
  { intros j Hj. destruct (Hs j) as [_ R].
    destruct (Hme (q j) _ _ ltac:(unfold q; lia) R) as [B1 B2]. cbn [aget] in B1, B2.
    unfold x. cbn [fst snd]. replace (q (S j)) with (S (q j)) by (unfold q; lia). auto. }
  destruct (H Euler a d no_force (aget (p_goal_y (s_base o)) d) B 0 t0 s x) as [R1 R2]; auto; try lra.
  - split; intros j; cbn; try reflexivity.
    + lra.
    + intros z Hz. unfold disturbance. cbn [a sd_dmp a_forcing_term a_smooth_scaling].
      assert (Ef : ft_forces no_force z d = 0) by (unfold ft_forces, no_force; simpl; ring).
      rewrite Ef, Rminus_0_r, Rabs_R0. lra.
  - unfold phase_ok, no_force. cbn. split; [lia|]. lra.
  - intros eps He. exists m. intros j Hj. refine (Rle_trans _ _ _ (proj1 (Hpos j Hj)) _). lra.
  - intros eps He. exists m. intros j Hj. refine (Rle_trans _ _ _ (proj2 (Hpos j Hj)) _). lra.
  - intros j. apply Hs.
  - intros eps He. destruct (R1 eps He) as [N1 HN1]. destruct (R2 eps He) as [N2 HN2].
    exists (q (m + Nat.max N1 N2)%nat). intros j Hj.
    set (j' := (j - S k0)%nat). assert (Ej : j = q j') by (unfold q, j' in *; lia).
    assert (Hj' : (m + Nat.max N1 N2 <= j')%nat) by (unfold q, j' in *; lia).
    destruct (Hs j') as [_ R]. rewrite Ej.
    eexists _, _. split; [exact R|]. cbn [aget].
    destruct (Hpos j' ltac:(lia)) as [B1 B2].
    specialize (HN1 (S j') ltac:(lia)). specialize (HN2 (S j') ltac:(lia)). cbv beta in HN1, HN2.
    assert (Hcl : forall x s g, Rabs (x - s) <= B -> Rabs (x - g) <= K * B + eps -> Rabs (s - g) <= (K + 1) * B + eps).
    { intros x1 s1 g1 U1 U2. replace (s1 - g1) with (- (x1 - s1) + (x1 - g1)) by ring.
      eapply Rle_trans; [apply Rabs_triang|]. rewrite Rabs_Ropp. lra. }
    split; [exact (Hcl _ _ _ B1 HN1)|].
    rewrite <- (Rminus_0_r (snd (s (S j')) d)). apply (Hcl _ _ _ B2). rewrite Rminus_0_r. exact HN2.
Qed.

(** Measurement errors that fade away do not keep the spring from reaching its goal. *)
Corollary C94_spring_fading : forall n o d ys yds, position_history n o -> spring_shrinks o ->
  (forall k, alen (ys k) = n /\ alen (yds k) = n) ->
  (forall B, 0 < B -> exists m, spring_measured_within B d m ys yds o) ->
  forall eps, 0 < eps -> exists N, forall k, (N <= k)%nat ->
  exists y yd, spring_returns ys yds o k y yd
    /\ Rabs (aget y d - aget (p_goal_y (s_base o)) d) <= eps /\ Rabs (aget yd d) <= eps.
Proof.
  intros n o d ys yds Hh Hsh Hl Hf eps He.
  destruct (C94_spring o Hsh) as (K & HK & H).
  assert (HB : 0 < eps / (2 * (K + 1))).
  { apply Rmult_lt_0_compat; auto. apply Rinv_0_lt_compat. lra. }
  destruct (Hf _ HB) as [m Hm].
  assert (HT : spring_like o o) by (unfold spring_like; auto).
  destruct (H n o ys yds d _ m Hh HT (Rlt_le _ _ HB) Hl Hm (eps / 2)) as [N HN]; [lra|].
  exists N. intros k Hk. destruct (HN k Hk) as (y & yd & R & H1 & H2). exists y, yd. split; auto.
  assert (HGB : K * (eps / (2 * (K + 1))) <= eps / 2).
  { apply Rle_trans with ((K + 1) * (eps / (2 * (K + 1)))).
    - apply Rmult_le_compat_r; lra.
    - apply Req_le. field. lra. }
  split; lra.
Qed.

(** A critically damped spring whose position is always measured 1/2 too large. *)
Example C94_spring_satisfiable : exists o ys yds, position_history 2 o /\ spring_shrinks o /\ spring_like o o
  /\ (forall k, alen (ys k) = 2%nat /\ alen (yds k) = 2%nat)
  /\ spring_measured_within (1/2) 1 0 ys yds o
  /\ forall k y yd, spring_returns ys yds o k y yd -> aget (ys (S k)) 1%nat - aget y 1%nat = 1/2.
Proof.
  destruct C140_spring_satisfiable as (o & Hh & Hsh & _).
  pose (two := fun f => {| alen := 2; aget := f |}).
  pose (ret := fun r : spring_damper * res (arr * arr) =>
    match snd r with Ok (y, yd) => (two (fun d => aget y d + 1/2), two (aget yd)) | Err _ => (two vzero, two vzero) end).
  pose (os := fix os k : spring_damper * (arr * arr) := match k with
    | O => (o, (two vzero, two vzero))
    | S k => let '(ob, (y, yd)) := os k in let r := sd_step y yd None ob in (fst r, ret r) end).
  pose (ys := fun k => fst (snd (os k))). pose (yds := fun k => snd (snd (os k))).
  assert (Eo : forall k, spring_loop ys yds k o = fst (os k)).
  { induction k as [|k IH]; [reflexivity|]. cbn [spring_loop]. rewrite IH. unfold ys, yds. cbn [os].
    destruct (os k) as [ob [y yd]]. reflexivity. }
  assert (Es : forall k, (ys (S k), yds (S k)) = ret (sd_step (ys k) (yds k) None (spring_loop ys yds k o))).
  { intros k. rewrite Eo. unfold ys, yds. cbn [os]. destruct (os k) as [ob [y yd]]. cbn [fst snd].
    symmetry. apply surjective_pairing. }
  assert (HE : forall k y yd, spring_returns ys yds o k y yd ->
     ys (S k) = two (fun d => aget y d + 1/2) /\ yds (S k) = two (aget yd)).
  { intros k y yd Hr. specialize (Es k). unfold spring_returns in Hr. unfold ret in Es. rewrite Hr in Es.
    split; [exact (f_equal fst Es)|exact (f_equal snd Es)]. }
  exists o, ys, yds. split; [exact Hh|]. split; [exact Hsh|]. split; [unfold spring_like; auto|]. split.
  { intros [|k]; [split; reflexivity|]. specialize (Es k). unfold ret in Es.
    destruct (snd (sd_step _ _ _ _)) as [[y yd]|];
      rewrite (f_equal fst Es : ys (S k) = _), (f_equal snd Es : yds (S k) = _); split; reflexivity. }
  split.
  - intros k y yd _ Hr. destruct (HE k y yd Hr) as [-> ->]. cbn [two aget]. split.
    + replace (aget y 1%nat + 1/2 - aget y 1%nat) with (1/2) by ring. rewrite Rabs_pos_eq; lra.
    + rewrite Rminus_eq_0, Rabs_R0. lra.
  - intros k y yd Hr. destruct (HE k y yd Hr) as [-> _]. cbn [two aget]. ring.
Qed.
