(** C94 for CartesianDMP: wrong measurements of the hand cause bounded deviations.
    Final statements. *)
From Coq Require Import Reals ZArith List Arith Bool Lia Lra Psatz FunctionalExtensionality.
From Verif Require Import M_Prelude M_Canonical M_Forcing M_Dmp M_Base M_DmpObject M_Ridge M_SpringDamper
  M_Quaternion M_Cartesian S_Loops S_Dmp S_Attributes S_Stability P_Loops P_Forcing P_DmpStep P_Converge P_Stability P_CartesianHistory
  P_Cartesian P_DmpObject P_Components P_Disturbed P_DisturbedAll P_Moving P_Sensed
  Properties_Forcing Properties_Dmp Properties_DmpObject Properties_DmpState Properties_Goal Properties_Equivariance Properties_Continuity
  Properties_Stability Properties_ContinuityAll Properties_Cartesian Properties_CartesianObject Properties_Attributes
  Properties_CartesianHistory Properties_CartesianMore Properties_RobustAll Properties_Moving Properties_CartesianMoving.
Import ListNotations.
Open Scope R_scope.
Set Bullet Behavior "Strict Subproofs".

(** ** Specification *)
(** The object after [k] calls of [step]; call [k] is given the measured pose [ms k] and the
    measured velocity [vs k]. *)
Fixpoint sensed (fn : step_function) (i : impl) (ms vs : nat -> arr) (k : nat) (o : cart) : cart :=
  match k with
  | O => o
  | S k => let o' := sensed fn i ms vs k o in fst (cart_step (ms k) (vs k) None fn i o')
  end.

(** Call [k] returns the pose [y] and the velocity [yd]. *)
Definition sensed_returns (fn : step_function) (i : impl) (ms vs : nat -> arr) (o : cart) (k : nat) (y yd : arr) : Prop :=
  snd (cart_step (ms k) (vs k) None fn i (sensed fn i ms vs k o)) = Ok (y, yd).

(** From call [m] on the position and the velocity that are measured in component [j] differ from those
    returned by the call before by at most [B]. *)
Definition sensor_within (B : R) (j m : nat) (fn : step_function) (i : impl) (ms vs : nat -> arr) (o : cart) : Prop :=
  forall k y yd, (m <= k)%nat -> sensed_returns fn i ms vs o k y yd ->
    Rabs (aget (ms (S k)) j - aget y j) <= B /\ Rabs (aget (vs (S k)) j - aget yd j) <= B.

(** ** Proofs *)
Lemma slice03 (v : vec) j : (j < 3)%nat -> slice 0 3 v j = v j.
Proof. intros Hj. unfold slice. now apply Nat.ltb_lt in Hj as ->. Qed.

Lemma close_by x s g K B eps : Rabs (x - s) <= B -> Rabs (x - g) <= K * B + eps -> Rabs (s - g) <= (K + 1) * B + eps.
Proof.
  intros H1 H2. replace (s - g) with (- (x - s) + (x - g)) by ring.
  eapply Rle_trans; [apply Rabs_triang|]. rewrite Rabs_Ropp. lra.
Qed.

Lemma same_cart_args o o' c : same_cart o o' -> cart_pos_args o' c = cart_pos_args o c.
Proof.
  intros (H1 & H2 & H3 & H4 & H5 & H6 & H7 & H8 & H9 & H10 & H11 & H12 & H13 & H14 & H15).
  unfold cart_pos_args. congruence.
Qed.

Lemma cart_phase_ok o : cart_made o -> phase_ok (k_fpos o).
Proof.
  intros Hm. destruct (cart_made_stand_in o Hm) as [(d & Hr & Hd) _].
  pose proof (reachable_phase_ok 3 d Hr) as H. destruct (tw_ft _ _ Hd) as (w & E & _).
  rewrite E in H. exact H.
Qed.

Lemma sensed_info fn i ms vs o :
  cart_shapes o -> 0 < k_execution_time o -> 0 < k_dt o -> 0 < k_int_dt o ->
  (forall k, alen (ms k) = 7%nat /\ alen (vs k) = 6%nat) ->
  forall k, cart_shapes (sensed fn i ms vs k o) /\ same_cart o (sensed fn i ms vs k o)
    /\ p_t (k_base (sensed fn i ms vs k o)) = p_t (k_base o) + INR k * k_dt o
    /\ exists yp ydp q w,
      sensed_returns fn i ms vs o k (pose yp q) (twist ydp w)
      /\ run_step_function fn (cart_pos_args o None) (p_t (k_base o) + INR k * k_dt o)
           (p_t (k_base o) + INR (S k) * k_dt o) (slice 0 3 (aget (ms k)), slice 0 3 (aget (vs k))) = Ok (yp, ydp).
Proof.
  intros Hsh Hx Hdt Hi Hl.
  assert (Hone : forall k o1, cart_shapes o1 -> same_cart o o1 ->
     p_t (k_base o1) = p_t (k_base o) + INR k * k_dt o ->
     exists o2 yp ydp q w, cart_step (ms k) (vs k) None fn i o1 = (o2, Ok (pose yp q, twist ydp w))
     /\ run_step_function fn (cart_pos_args o None) (p_t (k_base o) + INR k * k_dt o)
           (p_t (k_base o) + INR (S k) * k_dt o) (slice 0 3 (aget (ms k)), slice 0 3 (aget (vs k))) = Ok (yp, ydp)
     /\ cart_shapes o2 /\ same_cart o o2 /\ p_t (k_base o2) = p_t (k_base o) + INR (S k) * k_dt o).
  { intros k o1 S1 C1 T1. destruct (Hl k) as [Ly Lyd].
    assert (H7 : alen (p_current_y (k_base o1)) = 7%nat) by apply S1.
    assert (H6 : alen (p_current_yd (k_base o1)) = 6%nat) by apply S1.
    pose proof C1 as (X1 & X2 & _ & X4 & _).
    destruct (step_function_total fn (cart_pos_args o1 None) (p_t (k_base o1)) (p_t (k_base o1) + k_dt o1)
      (slice 0 3 (aget (ms k)), slice 0 3 (aget (vs k)))) as [[yp0 ydp0] Ep0];
      [cbn; lra|cbn; lra|lra|].
    destruct (q_step_total i (cart_rot_args o1 None) (p_t (k_base o1)) (p_t (k_base o1) + k_dt o1)
      (orientation (ms k), angular (vs k))) as [[q0 w0] Eq0]; [cbn; lra|cbn; lra|lra|].
    destruct (cart_step_intro (ms k) (vs k) None fn i o1 yp0 ydp0 q0 w0) as [o2 E]; auto.
    destruct (cart_step_ok _ _ _ _ _ _ _ _ _ E H7 H6) as (_ & _ & _ & _ & _ & _ & _ & _ & C2 & T2 & _).
    exists o2, yp0, ydp0, q0, w0. split; [exact E|]. rewrite T1, X2 in T2, Ep0.
    replace (p_t (k_base o) + INR (S k) * k_dt o) with (p_t (k_base o) + INR k * k_dt o + k_dt o) by (rewrite S_INR; ring).
    split; [now rewrite <- (same_cart_args o o1 None C1)|]. split; [|split; [|exact T2]].
    - pose proof (cart_exec_shapes (KStep (ms k) (vs k) None fn i) o1 S1) as X. cbn [cart_exec] in X. rewrite E in X. exact X.
    - unfold same_cart in *. repeat match goal with H : _ /\ _ |- _ => destruct H end. repeat split; congruence. }
  assert (Hall : forall k, cart_shapes (sensed fn i ms vs k o) /\ same_cart o (sensed fn i ms vs k o)
    /\ p_t (k_base (sensed fn i ms vs k o)) = p_t (k_base o) + INR k * k_dt o).
  { induction k as [|k (S1 & C1 & T1)].
    - cbn [sensed]. split; [exact Hsh|]. split; [unfold same_cart; repeat split|]. simpl. ring.
    - destruct (Hone k _ S1 C1 T1) as (o2 & yp & ydp & q & w & E & _ & S2 & C2 & T2).
      cbn [sensed]. cbv zeta. rewrite E. cbn [fst]. auto. }
  intros k. destruct (Hall k) as (S1 & C1 & T1). split; [exact S1|]. split; [exact C1|]. split; [exact T1|].
  destruct (Hone k _ S1 C1 T1) as (o2 & yp & ydp & q & w & E & R & _).
  exists yp, ydp, q, w. split; [|exact R]. unfold sensed_returns. now rewrite E.
Qed.

(** ** C94 *)
(** The number [K] depends on the integrator, the gains and the step lengths only; the measured
    orientations do not matter. *)
Theorem C94_cartesian : forall fn o0 j, (j < 3)%nat ->
  0 < k_execution_time o0 -> 0 < k_dt o0 -> 0 < k_int_dt o0 -> position_steps_shrink fn o0 j ->
  exists K, 0 <= K /\ forall i o ms vs B m,
  cart_made o -> same_position_settings j o0 o -> 0 <= B ->
  (forall k, alen (ms k) = 7%nat /\ alen (vs k) = 6%nat) ->
  sensor_within B j m fn i ms vs o ->
  forall eps, 0 < eps -> exists N, forall k, (N <= k)%nat ->
  exists y yd, sensed_returns fn i ms vs o k y yd
    /\ Rabs (aget y j - aget (p_goal_y (k_base o)) j) <= K * B + eps
    /\ Rabs (aget yd j) <= K * B + eps.
Proof.
  intros fn o0 j Hj Hx Hdt Hi Hst.
  set (al := aget (k_alpha o0) j). set (be := aget (k_beta o0) j).
  set (tau := k_execution_time o0) in *. set (dt := k_dt o0) in *. set (int_dt := k_int_dt o0) in *.
  assert (Hfn : uses_rk4 fn \/ uses_euler fn) by (destruct fn; unfold uses_rk4, uses_euler; auto).
  assert (Hcore : exists K, 0 <= K /\ forall a d f g B M t0 s x,
    moving_args a d f (fun _ => g) al be tau M -> (forall k, a_int_dt (a k) = int_dt) ->
    phase_ok f -> 0 <= B -> 0 <= M -> 0 <= t0 ->
    eventually_below (fun k => fst (x (S k)) d - fst (s (S k)) d) B ->
    eventually_below (fun k => snd (x (S k)) d - snd (s (S k)) d) B ->
    (forall k, run_step_function fn (a k) (t0 + INR k * dt) (t0 + INR (S k) * dt) (x k) = Ok (s (S k))) ->
    eventually_below (fun k => fst (x k) d - g) (K * B)
    /\ eventually_below (fun k => snd (x k) d) (K * B)).
  { destruct Hfn as [Hfn|Hfn].
    - assert (Hsh : rk4_shrinks dt (al / tau) (al * be / tau ^ 2)) by (destruct Hfn as [-> | ->]; exact Hst).
      destruct (rk4_sensed_run dt al be tau Hdt Hx Hsh) as (K & HK & H).
      exists K. split; auto. intros a d' f g D M t0 s x A _ Hph HD HM _ Hp Hv Hs.
      apply (H a d' f g D M t0 s x A Hph HD HM Hp Hv). intros k. specialize (Hs k).
      destruct Hfn as [-> | ->]; cbn [run_step_function] in Hs.
      + now injection Hs.
      + rewrite rk4_cython_eq in Hs. now injection Hs.
    - assert (Hsh : equal_parts dt int_dt /\ euler_shrinks (Rmin dt int_dt) (al / tau) (al * be / tau ^ 2))
        by (destruct Hfn as [-> | ->]; exact Hst).
      destruct Hsh as [Hep Hsh].
      destruct (euler_sensed_run dt int_dt (Rmin dt int_dt) al be tau Hdt Hi Hx
        (parts_length _ _ Hdt Hi Hep) Hsh) as (K & HK & H).
      exists K. split; auto. intros a d' f g D M t0 s x A Hint Hph HD HM Ht0 Hp Hv Hs.
      apply (H fn a d' f g D M t0 s x Hfn A Hint Hph HD HM Ht0 Hp Hv Hs). }
  destruct Hcore as (K & HK & H). exists (K + 1). split; [lra|].
  intros i o ms vs B m Hm (E1 & E2 & E3 & E4 & E5 & E6 & E7 & E8) HB Hl Hse.
  fold tau in E1. fold dt in E2. fold int_dt in E3. fold al in E7. fold be in E8.
  pose proof (cart_phase_ok o Hm) as Hph.
  pose proof (sensed_info fn i ms vs o (cart_made_shapes o Hm)) as Hinfo.
  rewrite E1, E2, E3 in Hinfo. specialize (Hinfo Hx Hdt Hi Hl).
  destruct (clock_steps (p_t (k_base o)) dt Hdt) as [k0 Hk0].
  destruct (disturbance_bound (cart_pos_args o None) j (proj1 Hph)) as [MM [HM0 HM]].
  set (t0 := p_t (k_base o) + INR (S k0) * dt).
  set (q := fun k => (S k0 + k)%nat).
  set (x := fun k => (slice 0 3 (aget (ms (q k))), slice 0 3 (aget (vs (q k))))).
  set (s := fun k => match k with
     | O => (vzero, vzero)
     | S k => match run_step_function fn (cart_pos_args o None) (t0 + INR k * dt) (t0 + INR (S k) * dt) (x k) with
              | Ok z => z | Err _ => (vzero, vzero) end
     end).
  assert (Ht : forall k, p_t (k_base o) + INR (q k) * dt = t0 + INR k * dt).
  { intros k. unfold q, t0. rewrite plus_INR. ring. }
  assert (Hs : forall k, exists qq w,
     run_step_function fn (cart_pos_args o None) (t0 + INR k * dt) (t0 + INR (S k) * dt) (x k) = Ok (s (S k))
     /\ sensed_returns fn i ms vs o (q k) (pose (fst (s (S k))) qq) (twist (snd (s (S k))) w)).
  { intros k. destruct (Hinfo (q k)) as (_ & _ & _ & yp & ydp & qq & w & R1 & R2).
    exists qq, w. rewrite Ht in R2. replace (S (q k)) with (q (S k)) in R2 by (unfold q; lia). rewrite Ht in R2.
    fold (x k) in R2. assert (Es : s (S k) = (yp, ydp)) by (unfold s; now rewrite R2).
    rewrite Es. split; [exact R2|exact R1]. }
  assert (Hpos : forall k, (m <= k)%nat ->
     Rabs (fst (x (S k)) j - fst (s (S k)) j) <= B /\ Rabs (snd (x (S k)) j - snd (s (S k)) j) <= B).
  { intros k Hk. destruct (Hs k) as (qq & w & _ & R).
    destruct (Hse (q k) _ _ ltac:(unfold q; lia) R) as [B1 B2].
    rewrite pose3 in B1 by auto. rewrite twist3 in B2 by auto.
    unfold x. cbn [fst snd]. replace (q (S k)) with (S (q k)) by (unfold q; lia).
    rewrite !slice03 by auto. auto. }
  destruct (H (fun _ => cart_pos_args o None) j (k_fpos o) (aget (p_goal_y (k_base o)) j) B MM t0 s x) as [R1 R2]; auto.
  - constructor; intros; cbn; rewrite ?slice03 by auto; auto.
  - intros eps He. exists m. intros k Hk. refine (Rle_trans _ _ _ (proj1 (Hpos k Hk)) _). lra.
  - intros eps He. exists m. intros k Hk. refine (Rle_trans _ _ _ (proj2 (Hpos k Hk)) _). lra.
  - intros k. destruct (Hs k) as (_ & _ & R & _). exact R.
  - intros eps He. destruct (R1 eps He) as [N1 HN1]. destruct (R2 eps He) as [N2 HN2].
    exists (q (m + Nat.max N1 N2)%nat). intros k Hk.
    set (k' := (k - S k0)%nat). assert (Ek : k = q k') by (unfold q, k' in *; lia).
    assert (Hk' : (m + Nat.max N1 N2 <= k')%nat) by (unfold q, k' in *; lia).
    destruct (Hs k') as (qq & w & _ & R). rewrite Ek.
    eexists _, _. split; [exact R|]. rewrite pose3, twist3 by auto.
    destruct (Hpos k' ltac:(lia)) as [B1 B2].
    specialize (HN1 (S k') ltac:(lia)). specialize (HN2 (S k') ltac:(lia)). cbv beta in HN1, HN2.
    split; [exact (close_by _ _ _ _ _ _ B1 HN1)|].
    rewrite <- (Rminus_0_r (snd (s (S k')) j)). apply (close_by _ _ _ _ _ _ B2). rewrite Rminus_0_r. exact HN2.
Qed.

(** Measurement errors that fade away do not keep the hand from reaching its goal. *)
Corollary C94_cartesian_fading : forall fn i o j ms vs, cart_made o -> (j < 3)%nat ->
  0 < k_execution_time o -> 0 < k_dt o -> 0 < k_int_dt o -> position_steps_shrink fn o j ->
  (forall k, alen (ms k) = 7%nat /\ alen (vs k) = 6%nat) ->
  (forall B, 0 < B -> exists m, sensor_within B j m fn i ms vs o) ->
  forall eps, 0 < eps -> exists N, forall k, (N <= k)%nat ->
  exists y yd, sensed_returns fn i ms vs o k y yd
    /\ Rabs (aget y j - aget (p_goal_y (k_base o)) j) <= eps /\ Rabs (aget yd j) <= eps.
Proof.
  intros fn i o j ms vs Hm Hj Hx Hdt Hi Hst Hl Hf eps He.
  destruct (C94_cartesian fn o j Hj Hx Hdt Hi Hst) as (K & HK & H).
  assert (HB : 0 < eps / (2 * (K + 1))).
  { apply Rmult_lt_0_compat; auto. apply Rinv_0_lt_compat. lra. }
  destruct (Hf _ HB) as [m Hse].
  assert (HT : same_position_settings j o o) by (unfold same_position_settings; repeat split).
  destruct (H i o ms vs _ m Hm HT (Rlt_le _ _ HB) Hl Hse (eps / 2)) as [N HN]; [lra|].
  exists N. intros k Hk. destruct (HN k Hk) as (y & yd & R & H1 & H2). exists y, yd. split; auto.
  assert (HGB : K * (eps / (2 * (K + 1))) <= eps / 2).
  { apply Rle_trans with ((K + 1) * (eps / (2 * (K + 1)))).
    - apply Rmult_le_compat_r; lra.
    - apply Req_le. field. lra. }
  split; lra.
Qed.

(** A CartesianDMP that is not critically damped, whose positions are always measured 1/2 too
    large and whose velocities are measured as they are. *)
Example C94_cartesian_satisfiable : exists o ms vs, cart_made o
  /\ 0 < k_execution_time o /\ 0 < k_dt o /\ 0 < k_int_dt o
  /\ position_steps_shrink RK4 o 1 /\ position_steps_shrink Euler o 1 /\ same_position_settings 1 o o
  /\ (forall k, alen (ms k) = 7%nat /\ alen (vs k) = 6%nat)
  /\ sensor_within (1/2) 1 0 Euler Python ms vs o
  /\ (forall k y yd, sensed_returns Euler Python ms vs o k y yd -> aget (ms (S k)) 1%nat - aget y 1%nat = 1/2).
Proof.
  destruct C104_more_satisfiable as (o & o' & ts & ys & ts' & ys' & H1 & H2 & H3 & H4 & H5 & H6 & H7 & H8 & H9 & _).
  set (look := fun o : cart => {| alen := 7; aget := fun d => aget (p_current_y (k_base o)) d + 1/2 |}).
  set (feel := fun o : cart => {| alen := 6; aget := aget (p_current_yd (k_base o)) |}).
  set (os := fix os k := match k with O => o | S k => fst (cart_step (look (os k)) (feel (os k)) None Euler Python (os k)) end).
  set (ms := fun k => look (os k)). set (vs := fun k => feel (os k)).
  assert (E : forall k, sensed Euler Python ms vs k o = os k).
  { induction k as [|k IH]; [reflexivity|]. cbn [sensed]. cbv zeta. rewrite IH. reflexivity. }
  assert (Hl : forall k, alen (ms k) = 7%nat /\ alen (vs k) = 6%nat) by (intros; split; reflexivity).
  assert (HC : forall k y yd, sensed_returns Euler Python ms vs o k y yd ->
     aget (p_current_y (k_base (os (S k)))) 1%nat = aget y 1%nat
     /\ aget (p_current_yd (k_base (os (S k)))) 1%nat = aget yd 1%nat).
  { intros k y yd Hr. unfold sensed_returns in Hr. rewrite E in Hr.
    change (os (S k)) with (fst (cart_step (ms k) (vs k) None Euler Python (os k))).
    destruct (cart_step (ms k) (vs k) None Euler Python (os k)) as [o2 r] eqn:Ec. cbn [fst snd] in *. subst r.
    unfold cart_step in Ec. cbn -[run_step_function q_step assign_slice] in Ec.
    destruct (assign_slice _ _); [|discriminate]. destruct (assign_slice _ _); [|discriminate].
    destruct (run_step_function _ _ _ _ _) as [[? ?]|]; [|discriminate].
    destruct (q_step _ _ _ _ _) as [[? ?]|]; [|discriminate].
    injection Ec as <- <- <-. split; reflexivity. }
  exists o, ms, vs. repeat (split; [assumption|]). split.
  - intros k y yd _ Hr. destruct (HC k y yd Hr) as [C1 C2]. unfold ms, vs, look, feel. cbn [aget].
    rewrite C1, C2. split; apply Rabs_le; lra.
  - intros k y yd Hr. destruct (HC k y yd Hr) as [C1 _]. unfold ms, look. cbn [aget]. rewrite C1. lra.
Qed.
