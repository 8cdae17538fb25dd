(** C114: limits, symmetry, frames and units of time of minimum-jerk movements.
    Final statements. *)
From Coq Require Import Reals ZArith List Arith Lia Lra Psatz FunctionalExtensionality.
From Coquelicot Require Import Coquelicot.
From Verif Require Import M_Prelude M_Base M_MinJerk S_Loops P_Loops P_MinJerk Properties_MinJerk.
Import ListNotations.
Open Scope R_scope.
Set Bullet Behavior "Strict Subproofs".

(** ** Limits *)
Lemma mj1_peak u : 0 <= u <= 1 -> mj1 u <= 15 / 8.
Proof.
  intros H. unfold mj1. replace (_ + _) with (30 * (u * (1 - u)) ^ 2) by ring.
  assert (0 <= u * (1 - u)) by (apply Rmult_le_pos; lra).
  assert (u * (1 - u) <= / 4) by (pose proof (pow2_ge_0 (u - / 2)); nra).
  assert ((u * (1 - u)) ^ 2 <= (/ 4) ^ 2) by (apply pow_incr; lra). lra.
Qed.

Lemma mj2_peak u : 0 <= u <= 1 -> Rabs (mj2 u) <= 10 / sqrt 3.
Proof.
  intros H. assert (S3 : 0 < sqrt 3) by (apply sqrt_lt_R0; lra).
  assert (P : 0 <= 10 / sqrt 3).
  { apply Rmult_le_pos; [lra|]. left. now apply Rinv_0_lt_compat. }
  rewrite <- (Rabs_right (10 / sqrt 3)) by lra. apply Rsqr_le_abs_0.
  replace (Rsqr (10 / sqrt 3)) with (100 / 3).
  2:{ unfold Rsqr. rewrite <- (sqrt_sqrt 3) at 1 by lra. field. lra. }
  set (p := u * (1 - u)).
  assert (0 <= p) by (apply Rmult_le_pos; lra).
  replace (Rsqr (mj2 u)) with (3600 * (p ^ 2 * (1 - 4 * p))) by (unfold Rsqr, mj2, p; ring).
  assert (0 <= 4 * (p - / 6) ^ 2 * (p + / 12)).
  { apply Rmult_le_pos; [|lra]. pose proof (pow2_ge_0 (p - / 6)). lra. }
  nra.
Qed.

(** The velocities point to the goal or are zero; velocities, accelerations and the
    distances between consecutive samples are bounded by the known limits of the
    minimum-jerk curve of duration [execution_time - dt]. *)
Theorem C114_limits : forall start goal execution_time dt,
  alen start = alen goal -> 0 < dt -> 0 <= execution_time ->
  exists l, generate_minimum_jerk start goal execution_time dt = Ok l
  /\ forall k x xd xdd d, nth_error l k = Some (x, xd, xdd) ->
     let D := execution_time - dt in
     let distance := Rabs (aget goal d - aget start d) in
     0 <= xd d * (aget goal d - aget start d)
     /\ Rabs (xd d) * D <= 15 / 8 * distance
     /\ Rabs (xdd d) * D ^ 2 <= 10 / sqrt 3 * distance
     /\ forall x' xd' xdd', nth_error l (S k) = Some (x', xd', xdd') ->
        Rabs (x' d - x d) * D <= 15 / 8 * distance * dt.
Proof.
  intros start goal T dt Hl Hdt HT.
  destruct (periods T dt Hdt HT) as [HP _].
  destruct (generate_minimum_jerk_closed start goal T dt Hl Hdt HT) as (l & E & Hlen & Hn).
  set (N := Z.to_nat (Ztrunc (T / dt))) in *.
  assert (S3 : 0 < 10 / sqrt 3).
  { apply Rmult_lt_0_compat; [lra|]. apply Rinv_0_lt_compat, sqrt_lt_R0. lra. }
  exists l. split; [exact E|]. intros k x xd xdd d Hk D distance.
  assert (Kl : (k < length l)%nat) by (apply nth_error_Some; congruence).
  rewrite Hn in Hk by lia.
  assert (Dist : 0 <= distance) by apply Rabs_pos.
  destruct (le_dec 2 N) as [H2|H2].
  - assert (HNr : 2 <= INR N) by (apply (le_INR 2); auto).
    assert (HD : 0 < D) by (unfold D; nra).
    assert (U : forall j, 0 <= INR (Nat.min j (N - 1)) * dt / D <= 1).
    { intros j. assert (I : INR (Nat.min j (N - 1)) <= INR (N - 1)) by (apply le_INR; lia).
      rewrite (minus_INR N 1) in I by lia. simpl (INR 1) in I.
      pose proof (pos_INR (Nat.min j (N - 1))). split.
      - apply Rmult_le_pos; [nra|]. left. now apply Rinv_0_lt_compat.
      - apply Rmult_le_reg_r with D; auto. unfold Rdiv. rewrite Rmult_assoc, Rinv_l by lra. unfold D in *. nra. }
    unfold mj_sample in Hk. fold D in Hk.
    set (u := INR (Nat.min k (N - 1)) * dt / D) in *.
    assert (x = fun d => aget start d + (aget goal d - aget start d) * mj u) as -> by congruence.
    assert (xd = fun d => (aget goal d - aget start d) * mj1 u / D) as -> by congruence.
    assert (xdd = fun d => (aget goal d - aget start d) * mj2 u / D ^ 2) as -> by congruence.
    set (a := aget goal d - aget start d) in *.
    pose proof (U k) as Uk. fold u in Uk. pose proof (mj1_nonneg u) as M1. pose proof (mj1_peak u Uk) as P1.
    pose proof (mj2_peak u Uk) as P2.
    assert (ID : 0 < / D) by now apply Rinv_0_lt_compat.
    split; [|split; [|split]].
    + replace (a * mj1 u / D * a) with (Rsqr a * mj1 u * / D) by (unfold Rsqr; field; lra).
      pose proof (Rle_0_sqr a). apply Rmult_le_pos; [apply Rmult_le_pos|]; lra.
    + replace (a * mj1 u / D) with (a * (mj1 u * / D)) by (field; lra).
      rewrite Rabs_mult, (Rabs_right (mj1 u * / D)) by (apply Rle_ge, Rmult_le_pos; lra).
      replace (Rabs a * (mj1 u * / D) * D) with (mj1 u * Rabs a) by (field; lra).
      apply Rmult_le_compat_r; assumption.
    + assert (D ^ 2 > 0) by nra.
      replace (a * mj2 u / D ^ 2) with (mj2 u * (a * / D ^ 2)) by (field; lra).
      rewrite !Rabs_mult, (Rabs_right (/ D ^ 2)) by (left; now apply Rinv_0_lt_compat).
      replace (Rabs (mj2 u) * (Rabs a * / D ^ 2) * D ^ 2) with (Rabs (mj2 u) * Rabs a) by (field; lra).
      apply Rmult_le_compat_r; assumption.
    + intros x' xd' xdd' Hk'.
      assert (Kl' : (S k < length l)%nat) by (apply nth_error_Some; congruence).
      rewrite Hn in Hk' by lia. unfold mj_sample in Hk'. fold D in Hk'.
      set (u' := INR (Nat.min (S k) (N - 1)) * dt / D) in *.
      assert (x' = fun d => aget start d + (aget goal d - aget start d) * mj u') as -> by congruence.
      fold a. replace (aget start d + a * mj u' - (aget start d + a * mj u)) with (a * (mj u' - mj u)) by ring.
      assert (Uu : u <= u' /\ u' - u <= dt / D).
      { unfold u, u'. assert (Q : (Nat.min k (N - 1) <= Nat.min (S k) (N - 1) <= S (Nat.min k (N - 1)))%nat) by lia.
        destruct Q as [Q1 Q2]. apply le_INR in Q1, Q2. rewrite S_INR in Q2. split.
        - unfold Rdiv. apply Rmult_le_compat_r; [lra|]. apply Rmult_le_compat_r; lra.
        - unfold Rdiv. rewrite <- Rmult_minus_distr_r. apply Rmult_le_compat_r; [lra|]. nra. }
      destruct Uu as [Uu1 Uu2]. pose proof (U (S k)) as Uk'. fold u' in Uk'.
      assert (Step : 0 <= mj u' - mj u <= 15 / 8 * (dt / D)).
      { pose proof (mj_mono u u' Uu1). split; [lra|].
        destruct (MVT_gen mj u u' mj1) as [c [Hc Ec]].
        - intros z _. apply mj_derive.
        - intros z _. apply derivable_continuous_pt. exists (mj1 z). apply is_derive_Reals, mj_derive.
        - rewrite Ec. rewrite Rmin_left, Rmax_right in Hc by lra.
          pose proof (mj1_peak c ltac:(lra)). pose proof (mj1_nonneg c).
          apply Rmult_le_compat; lra. }
      rewrite Rabs_mult, (Rabs_right (mj u' - mj u)) by lra. fold distance.
      apply Rle_trans with (distance * (15 / 8 * (dt / D)) * D).
      * apply Rmult_le_compat_r; [lra|]. apply Rmult_le_compat_l; lra.
      * right. field. lra.
  - assert (xd = vzero) as -> by congruence. assert (xdd = vzero) as -> by congruence.
    assert (x = aget start) as -> by congruence. unfold vzero. rewrite Rabs_R0.
    split; [lra|]. split; [lra|]. split; [nra|].
    intros x' xd' xdd' Hk'.
    assert (Kl' : (S k < length l)%nat) by (apply nth_error_Some; congruence).
    rewrite Hn in Hk' by lia. assert (x' = aget start) as -> by congruence.
    rewrite Rminus_eq_0, Rabs_R0. nra.
Qed.

(** The velocity limit is attained: half way, at the midpoint, with no acceleration. *)
Theorem C114_peak : forall start goal dt M,
  alen start = alen goal -> 0 < dt -> (1 <= M)%nat ->
  exists l x xd xdd, generate_minimum_jerk start goal (INR (2 * M + 1) * dt) dt = Ok l
  /\ nth_error l M = Some (x, xd, xdd)
  /\ forall d, x d = (aget start d + aget goal d) / 2
     /\ xd d * (INR (2 * M) * dt) = 15 / 8 * (aget goal d - aget start d)
     /\ xdd d = 0.
Proof.
  intros start goal dt M Hl Hdt HM.
  assert (HMr : 1 <= INR M) by (apply (le_INR 1); auto).
  assert (E1 : INR (2 * M + 1) = 2 * INR M + 1) by (rewrite plus_INR, mult_INR; simpl; ring).
  assert (E2 : INR (2 * M) = 2 * INR M) by (rewrite mult_INR; simpl; ring).
  destruct (C47_samples start goal (INR (2 * M + 1) * dt) dt Hl Hdt) as (N & l & HN & E & Hlen & _ & Hs).
  { rewrite E1. nra. }
  assert (N = 2 * M + 1)%nat as ->.
  { destruct HN as [A B]. apply Rmult_le_reg_r in A; auto. apply Rmult_lt_reg_r in B; auto.
    rewrite <- S_INR in B. apply INR_le in A. apply INR_lt in B. lia. }
  destruct (Hs M ltac:(lia)) as (x & xd & xdd & Hx & H).
  exists l, x, xd, xdd. split; [exact E|]. split; [exact Hx|]. intros d.
  destruct (H d) as (H1 & H2 & H3). cbv zeta in H1, H2, H3.
  assert (U : INR M * dt / (INR (2 * M + 1) * dt - dt) = / 2).
  { rewrite E1. field. nra. }
  rewrite U in H1, H2, H3. rewrite H1, H2, H3, E1, E2. split; [field|]. split; [field; nra|field; nra].
Qed.

(** The way to the goal mirrors the way from the start: the samples before the last
    repeated one, read backwards, belong to the movement from the goal to the start. *)
Theorem C114_symmetric : forall start goal dt N,
  alen start = alen goal -> 0 < dt -> (2 <= N)%nat ->
  exists l, generate_minimum_jerk start goal (INR N * dt) dt = Ok l
  /\ forall k x xd xdd x' xd' xdd', (k < N)%nat ->
     nth_error l k = Some (x, xd, xdd) -> nth_error l (N - 1 - k) = Some (x', xd', xdd') ->
     forall d, x' d - aget start d = aget goal d - x d /\ xd' d = xd d /\ xdd' d = - xdd d.
Proof.
  intros start goal dt N Hl Hdt HN.
  assert (HNr : 2 <= INR N) by (apply (le_INR 2); auto).
  destruct (C47_samples start goal (INR N * dt) dt Hl Hdt) as (N' & l & HN' & E & Hlen & _ & Hs); [nra|].
  assert (N' = N)%nat as ->.
  { destruct HN' as [A B]. apply Rmult_le_reg_r in A; auto. apply Rmult_lt_reg_r in B; auto.
    rewrite <- S_INR in B. apply INR_le in A. apply INR_lt in B. lia. }
  exists l. split; [exact E|]. intros k x xd xdd x' xd' xdd' Hk Ek Ek' d.
  destruct (Hs k Hk) as (y & yd & ydd & Ey & Hy).
  destruct (Hs (N - 1 - k)%nat ltac:(lia)) as (z & zd & zdd & Ez & Hz).
  rewrite Ek in Ey. injection Ey as <- <- <-. rewrite Ek' in Ez. injection Ez as <- <- <-.
  destruct (Hy d) as (Y1 & Y2 & Y3). destruct (Hz d) as (Z1 & Z2 & Z3). cbv zeta in *.
  set (u := INR k * dt / (INR N * dt - dt)) in *.
  assert (U : INR (N - 1 - k) * dt / (INR N * dt - dt) = 1 - u).
  { unfold u. rewrite !minus_INR by lia. simpl (INR 1). field. nra. }
  rewrite U in Z1, Z2, Z3. rewrite Y1, Y2, Y3, Z1, Z2, Z3. split; [ring|]. split.
  - f_equal. ring.
  - unfold Rdiv. rewrite Ropp_mult_distr_l. f_equal. ring.
Qed.

(** ** Frames and units of time *)
(** [p'] is the image of the position [p] under the affine map of [n] to [n']
    dimensions with matrix [A] and offset [b]; [v'] is the image of the derivative [v] if
    the derivative is taken in units of time that make it [r] times smaller. *)
Definition position_image (n n' : nat) (A : nat -> nat -> R) (b p p' : vec) : Prop :=
  forall e, (e < n')%nat -> p' e = b e + rsum n (fun d => A e d * p d).
Definition derivative_image (n n' : nat) (A : nat -> nat -> R) (r : R) (v v' : vec) : Prop :=
  forall e, (e < n')%nat -> v' e = rsum n (fun d => A e d * v d) / r.
Definition sample_image (n n' : nat) (A : nat -> nat -> R) (b : vec) (s : R) (x x' : sample) : Prop :=
  let '(p, v, a) := x in let '(p', v', a') := x' in
  position_image n n' A b p p' /\ derivative_image n n' A s v v' /\ derivative_image n n' A (s ^ 2) a a'.

Lemma min_jerk_update_image n n' A b s g g' tau dt x x' : 0 < s -> 0 < tau ->
  position_image n n' A b g g' -> sample_image n n' A b s x x' ->
  sample_image n n' A b s (min_jerk_update g tau dt x) (min_jerk_update g' (s * tau) (s * dt) x').
Proof.
  intros Hs Ht Hg. destruct x as [[p v] a], x' as [[p' v'] a']. intros (Hp & Hv & Ha).
  unfold min_jerk_update, sample_image. cbv zeta.
  assert (Lin : forall (f : vec) (c1 c2 c3 c4 : R) e,
    (forall d, f d = c1 * g d + c2 * p d + c3 * v d + c4 * a d) ->
    rsum n (fun d => A e d * f d) = c1 * rsum n (fun d => A e d * g d) + c2 * rsum n (fun d => A e d * p d)
      + c3 * rsum n (fun d => A e d * v d) + c4 * rsum n (fun d => A e d * a d)).
  { intros f c1 c2 c3 c4 e Hf. rewrite <- !rsum_scal, <- !rsum_plus. apply rsum_ext. intros d _. rewrite Hf. ring. }
  split; [|split]; intros e He; rewrite (Hg e He), (Hp e He), (Hv e He), (Ha e He).
  - match goal with |- _ = b e + rsum n (fun d => A e d * @?f d) => rewrite (Lin f (6 / tau ^ 5 * dt ^ 5 - 15 / tau ^ 4 * dt ^ 4 + 10 / tau ^ 3 * dt ^ 3)
      (- (6 / tau ^ 5 * dt ^ 5 - 15 / tau ^ 4 * dt ^ 4 + 10 / tau ^ 3 * dt ^ 3) + 1)
      (- 3 * tau / tau ^ 5 * dt ^ 5 + 8 * tau / tau ^ 4 * dt ^ 4 - 6 * tau / tau ^ 3 * dt ^ 3 + dt)
      (- / 2 * tau ^ 2 / tau ^ 5 * dt ^ 5 + 3 / 2 * tau ^ 2 / tau ^ 4 * dt ^ 4
        - 3 / 2 * tau ^ 2 / tau ^ 3 * dt ^ 3 + / 2 * dt ^ 2) e) end.
    + field. lra.
    + intros d. field. lra.
  - match goal with |- _ = rsum n (fun d => A e d * @?f d) / s => rewrite (Lin f (30 / tau ^ 5 * dt ^ 4 - 60 / tau ^ 4 * dt ^ 3 + 30 / tau ^ 3 * dt ^ 2)
      (- (30 / tau ^ 5 * dt ^ 4 - 60 / tau ^ 4 * dt ^ 3 + 30 / tau ^ 3 * dt ^ 2))
      (- 15 * tau / tau ^ 5 * dt ^ 4 + 32 * tau / tau ^ 4 * dt ^ 3 - 18 * tau / tau ^ 3 * dt ^ 2 + 1)
      (- 5 / 2 * tau ^ 2 / tau ^ 5 * dt ^ 4 + 6 * tau ^ 2 / tau ^ 4 * dt ^ 3
        - 9 / 2 * tau ^ 2 / tau ^ 3 * dt ^ 2 + dt) e) end.
    + field. lra.
    + intros d. field. lra.
  - match goal with |- _ = rsum n (fun d => A e d * @?f d) / s ^ 2 => rewrite (Lin f (120 / tau ^ 5 * dt ^ 3 - 180 / tau ^ 4 * dt ^ 2 + 60 / tau ^ 3 * dt)
      (- (120 / tau ^ 5 * dt ^ 3 - 180 / tau ^ 4 * dt ^ 2 + 60 / tau ^ 3 * dt))
      (- 60 * tau / tau ^ 5 * dt ^ 3 + 96 * tau / tau ^ 4 * dt ^ 2 - 36 * tau / tau ^ 3 * dt)
      (- 10 * tau ^ 2 / tau ^ 5 * dt ^ 3 + 18 * tau ^ 2 / tau ^ 4 * dt ^ 2
        - 9 * tau ^ 2 / tau ^ 3 * dt + 1) e) end.
    + field. lra.
    + intros d. field. lra.
Qed.

Lemma min_jerk_loop_image n n' A b s g g' T dt : 0 < s -> 0 < dt -> position_image n n' A b g g' ->
  forall m t x x', sample_image n n' A b s x x' ->
  Forall2 (sample_image n n' A b s) (min_jerk_loop g T dt t m x)
    (min_jerk_loop g' (s * T) (s * dt) t m x').
Proof.
  intros Hs Hdt Hg. induction m as [|m IH]; intros t x x' Hx; [constructor|].
  cbn [min_jerk_loop].
  replace (s * T - INR t * (s * dt)) with (s * (T - INR t * dt)) by ring.
  set (tau := T - INR t * dt).
  assert (H : sample_image n n' A b s (if Rle_dec dt tau then min_jerk_update g tau dt x else x)
    (if Rle_dec (s * dt) (s * tau) then min_jerk_update g' (s * tau) (s * dt) x' else x')).
  { destruct (Rle_dec dt tau) as [H|H], (Rle_dec (s * dt) (s * tau)) as [H'|H'].
    - apply min_jerk_update_image; auto. lra.
    - exfalso. apply H'. apply Rmult_le_compat_l; lra.
    - exfalso. apply H. now apply Rmult_le_reg_l in H'.
    - exact Hx. }
  constructor; [exact H|]. apply IH, H.
Qed.

(** A linear image of zero. *)
Lemma derivative_image_0 n n' A r : derivative_image n n' A r vzero vzero.
Proof.
  intros e _. unfold vzero. rewrite (rsum_ext _ _ (fun _ => 0)) by (intros; ring).
  rewrite rsum_0 by auto. unfold Rdiv. ring.
Qed.

(** What two results have in common: the same error, or related values. *)
Definition related {X : Type} (P : X -> X -> Prop) (r r' : res X) : Prop :=
  match r, r' with
  | Ok x, Ok x' => P x x'
  | Err e, Err e' => e = e'
  | _, _ => False
  end.

Lemma generate_image n n' A b s start goal start' goal' T dt : 0 < s -> 0 < dt ->
  (alen start = alen goal <-> alen start' = alen goal') ->
  position_image n n' A b (aget start) (aget start') -> position_image n n' A b (aget goal) (aget goal') ->
  related (Forall2 (sample_image n n' A b s)) (generate_minimum_jerk start goal T dt)
    (generate_minimum_jerk start' goal' (s * T) (s * dt)).
Proof.
  intros Hs Hdt Hl Hst Hg. unfold generate_minimum_jerk.
  assert (E : (alen start =? alen goal)%nat = (alen start' =? alen goal')%nat).
  { destruct (Nat.eqb_spec (alen start) (alen goal)), (Nat.eqb_spec (alen start') (alen goal')); tauto. }
  rewrite <- E. destruct (negb _); [reflexivity|].
  destruct (Req_EM_T dt 0); [lra|]. destruct (Req_EM_T (s * dt) 0); [nra|].
  replace (s * T / (s * dt)) with (T / dt) by (field; lra).
  cbv zeta. destruct (Z_lt_dec _ 0); [reflexivity|]. destruct (Z_lt_dec _ 1); [reflexivity|].
  assert (H : sample_image n n' A b s (aget start, vzero, vzero) (aget start', vzero, vzero)).
  { split; [exact Hst|]. split; apply derivative_image_0. }
  constructor; [exact H|]. now apply min_jerk_loop_image.
Qed.

(** Start and goal in other coordinates, with the times in another unit, give the same
    movement in these coordinates and this unit. *)
Theorem C114_frames : forall n n' A b s start goal start' goal' execution_time dt,
  0 < s -> 0 < dt ->
  alen start = n -> alen goal = n -> alen start' = n' -> alen goal' = n' ->
  position_image n n' A b (aget start) (aget start') -> position_image n n' A b (aget goal) (aget goal') ->
  related (Forall2 (sample_image n n' A b s)) (generate_minimum_jerk start goal execution_time dt)
    (generate_minimum_jerk start' goal' (s * execution_time) (s * dt)).
Proof. intros. apply generate_image; auto. split; congruence. Qed.

(** ** Objects *)
(** The calls on an object. *)
Inductive call := CStep (last_y last_yd : arr) | CReset | CConfigure (c : configure_args).

(** What a call returns: [reset] and [configure] return nothing. *)
Definition apply_call (c : call) (o : mjt) : mjt * res (option (arr * arr)) :=
  match c with
  | CStep y yd => let '(o, r) := mjt_step y yd o in (o, bind r (fun p => Ok (Some p)))
  | CReset => (mjt_reset o, Ok None)
  | CConfigure c => let '(o, r) := mjt_configure c o in (o, bind r (fun _ => Ok None))
  end.

Fixpoint apply_calls (cs : list call) (o : mjt) : list (res (option (arr * arr))) :=
  match cs with
  | [] => []
  | c :: cs => let '(o, r) := apply_call c o in r :: apply_calls cs o
  end.

(** The second argument is the first in the other coordinates: both are missing, or both
    have or do not have the length of their object's dimension. *)
Definition argument_image (n n' : nat) (P : vec -> vec -> Prop) (x x' : option arr) : Prop :=
  match x, x' with
  | None, None => True
  | Some a, Some a' => (alen a = n <-> alen a' = n') /\ P (aget a) (aget a')
  | _, _ => False
  end.

(** The second call is the first in the other coordinates; [step] ignores its arguments. *)
Definition call_image (n n' : nat) (A : nat -> nat -> R) (b : vec) (s : R) (c c' : call) : Prop :=
  match c, c' with
  | CStep _ _, CStep _ _ => True
  | CReset, CReset => True
  | CConfigure c, CConfigure c' =>
      argument_image n n' (position_image n n' A b) (c_start_y c) (c_start_y c')
      /\ argument_image n n' (derivative_image n n' A s) (c_start_yd c) (c_start_yd c')
      /\ argument_image n n' (derivative_image n n' A (s ^ 2)) (c_start_ydd c) (c_start_ydd c')
      /\ argument_image n n' (position_image n n' A b) (c_goal_y c) (c_goal_y c')
      /\ argument_image n n' (derivative_image n n' A s) (c_goal_yd c) (c_goal_yd c')
      /\ argument_image n n' (derivative_image n n' A (s ^ 2)) (c_goal_ydd c) (c_goal_ydd c')
  | _, _ => False
  end.

Definition result_image (n n' : nat) (A : nat -> nat -> R) (b : vec) (s : R)
    (r r' : option (arr * arr)) : Prop :=
  match r, r' with
  | None, None => True
  | Some (y, yd), Some (y', yd') =>
      alen y = n /\ alen yd = n /\ alen y' = n' /\ alen yd' = n'
      /\ position_image n n' A b (aget y) (aget y') /\ derivative_image n n' A s (aget yd) (aget yd')
  | _, _ => False
  end.

(** Two objects in corresponding states. *)
Record object_image (n n' : nat) (A : nat -> nat -> R) (b : vec) (s : R) (o o' : mjt) : Prop := {
  oi_n : p_n_dims (j_base o) = n; oi_v : p_n_vel_dims (j_base o) = n;
  oi_n' : p_n_dims (j_base o') = n'; oi_v' : p_n_vel_dims (j_base o') = n';
  oi_start : alen (p_start_y (j_base o)) = n /\ alen (p_start_y (j_base o')) = n'
    /\ position_image n n' A b (aget (p_start_y (j_base o))) (aget (p_start_y (j_base o')));
  oi_goal : alen (p_goal_y (j_base o)) = n /\ alen (p_goal_y (j_base o')) = n'
    /\ position_image n n' A b (aget (p_goal_y (j_base o))) (aget (p_goal_y (j_base o')));
  oi_time : j_execution_time o' = s * j_execution_time o;
  oi_dt : j_dt o' = s * j_dt o; oi_pos : 0 < j_dt o;
  oi_idx : j_step_idx o' = j_step_idx o;
  oi_init : j_initialized o' = j_initialized o;
  oi_X : match j_X o, j_X o' with
         | None, None => True
         | Some X, Some X' => Forall2 (sample_image n n' A b s) X X'
         | _, _ => False
         end
}.

(** The parts of the object [configure] can change. *)
Definition base_image (n n' : nat) (A : nat -> nat -> R) (b : vec) (p p' : ptp) : Prop :=
  p_n_dims p = n /\ p_n_vel_dims p = n /\ p_n_dims p' = n' /\ p_n_vel_dims p' = n'
  /\ (alen (p_start_y p) = n /\ alen (p_start_y p') = n'
      /\ position_image n n' A b (aget (p_start_y p)) (aget (p_start_y p')))
  /\ (alen (p_goal_y p) = n /\ alen (p_goal_y p') = n'
      /\ position_image n n' A b (aget (p_goal_y p)) (aget (p_goal_y p'))).

Lemma block_image n n' A b P x x' f f' p p' : argument_image n n' P x x' -> base_image n n' A b p p' ->
  (forall a a', alen a = n -> alen a' = n' -> P (aget a) (aget a') -> base_image n n' A b (f a p) (f' a' p')) ->
  base_image n n' A b (fst (configure_block x n f p)) (fst (configure_block x' n' f' p'))
  /\ snd (configure_block x n f p) = snd (configure_block x' n' f' p').
Proof.
  intros Hx Hp Hf. unfold configure_block, argument_image in *.
  destruct x as [a|], x' as [a'|]; try tauto.
  destruct Hx as [Hl Hx]. unfold check_1d_array_length.
  destruct (Nat.eqb_spec (alen a) n) as [E|E], (Nat.eqb_spec (alen a') n') as [E'|E']; cbn; try tauto.
  split; [|reflexivity]. now apply Hf.
Qed.

Lemma and_then_image n n' A b r r' f f' :
  base_image n n' A b (fst r) (fst r') -> snd r = snd r' ->
  (forall p p', base_image n n' A b p p' ->
     base_image n n' A b (fst (f p)) (fst (f' p')) /\ snd (f p) = snd (f' p')) ->
  base_image n n' A b (fst (and_then r f)) (fst (and_then r' f')) /\ snd (and_then r f) = snd (and_then r' f').
Proof.
  destruct r as [p e], r' as [p' e']. cbn [fst snd]. intros Hp <- Hf. destruct e; cbn; auto.
Qed.

Lemma configure_image n n' A b s c c' p p' : call_image n n' A b s (CConfigure c) (CConfigure c') ->
  base_image n n' A b p p' ->
  base_image n n' A b (fst (configure c p)) (fst (configure c' p')) /\ snd (configure c p) = snd (configure c' p').
Proof.
  intros (C1 & C2 & C3 & C4 & C5 & C6) H. unfold configure. cbv zeta.
  set (q := match c_t c with Some t => set_t t p | None => p end).
  set (q' := match c_t c' with Some t => set_t t p' | None => p' end).
  assert (Hq : base_image n n' A b q q').
  { unfold q, q'. destruct (c_t c), (c_t c'); exact H. }
  clearbody q q'. clear H.
  assert (D : forall p p', base_image n n' A b p p' ->
    p_n_dims p = n /\ p_n_vel_dims p = n /\ p_n_dims p' = n' /\ p_n_vel_dims p' = n').
  { intros ? ? (? & ? & ? & ? & _). auto. }
  assert (B : forall P x x' f f' p p', argument_image n n' P x x' -> base_image n n' A b p p' ->
    (forall a a', alen a = n -> alen a' = n' -> P (aget a) (aget a') -> base_image n n' A b (f a p) (f' a' p')) ->
    (base_image n n' A b (fst (configure_block x (p_n_dims p) f p)) (fst (configure_block x' (p_n_dims p') f' p'))
     /\ snd (configure_block x (p_n_dims p) f p) = snd (configure_block x' (p_n_dims p') f' p'))
    /\ (base_image n n' A b (fst (configure_block x (p_n_vel_dims p) f p)) (fst (configure_block x' (p_n_vel_dims p') f' p'))
     /\ snd (configure_block x (p_n_vel_dims p) f p) = snd (configure_block x' (p_n_vel_dims p') f' p'))).
  { intros P x x' f f' r r' Hx Hr Hf. destruct (D _ _ Hr) as (-> & -> & -> & ->).
    split; now apply block_image with (P := P). }
  destruct (B _ _ _ set_start_y set_start_y _ _ C1 Hq) as [Q _];
    [intros a a' La La' Ha; destruct Hq as (? & ? & ? & ? & ? & ?); repeat split; cbn; tauto|].
  apply and_then_image; [apply Q..|].
  clear q q' Hq Q. intros q q' Hq. destruct (B _ _ _ set_start_yd set_start_yd _ _ C2 Hq) as [_ Q];
    [intros a a' La La' Ha; destruct Hq as (? & ? & ? & ? & ? & ?); repeat split; cbn; tauto|].
  apply and_then_image; [apply Q..|].
  clear q q' Hq Q. intros q q' Hq. destruct (B _ _ _ set_start_ydd set_start_ydd _ _ C3 Hq) as [_ Q];
    [intros a a' La La' Ha; destruct Hq as (? & ? & ? & ? & ? & ?); repeat split; cbn; tauto|].
  apply and_then_image; [apply Q..|].
  clear q q' Hq Q. intros q q' Hq. destruct (B _ _ _ set_goal_y set_goal_y _ _ C4 Hq) as [Q _];
    [intros a a' La La' Ha; destruct Hq as (? & ? & ? & ? & ? & ?); repeat split; cbn; tauto|].
  apply and_then_image; [apply Q..|].
  clear q q' Hq Q. intros q q' Hq. destruct (B _ _ _ set_goal_yd set_goal_yd _ _ C5 Hq) as [_ Q];
    [intros a a' La La' Ha; destruct Hq as (? & ? & ? & ? & ? & ?); repeat split; cbn; tauto|].
  apply and_then_image; [apply Q..|].
  clear q q' Hq Q. intros q q' Hq.
  apply (B _ _ _ _ _ _ _ C6 Hq).
  intros a a' La La' Ha; destruct Hq as (? & ? & ? & ? & ? & ?); repeat split; cbn; tauto.
Qed.

Lemma object_base n n' A b s o o' : object_image n n' A b s o o' -> base_image n n' A b (j_base o) (j_base o').
Proof. intros []. unfold base_image. tauto. Qed.

Lemma Forall2_nth {X Y : Type} (P : X -> Y -> Prop) l l' : Forall2 P l l' -> forall k,
  match nth_error l k, nth_error l' k with
  | Some x, Some x' => P x x'
  | None, None => True
  | _, _ => False
  end.
Proof.
  induction 1 as [|x x' l l' Hx Hl IH]; intros [|k]; cbn; auto. apply IH.
Qed.

Lemma apply_call_image n n' A b s c c' o o' : 0 < s -> call_image n n' A b s c c' ->
  object_image n n' A b s o o' ->
  object_image n n' A b s (fst (apply_call c o)) (fst (apply_call c' o'))
  /\ related (result_image n n' A b s) (snd (apply_call c o)) (snd (apply_call c' o')).
Proof.
  intros Hs Hc Ho. pose proof (object_base _ _ _ _ _ _ _ Ho) as Hb.
  destruct Ho as [N V N' V' S G T D P I J X].
  destruct c as [y yd| |c], c' as [y' yd'| |c']; try contradiction; cbn [apply_call].
  - unfold mjt_step. rewrite J. destruct (j_initialized o) eqn:Ji.
    + destruct (j_X o) as [Z|] eqn:EX, (j_X o') as [Z'|] eqn:EX'; try contradiction; cbn.
      2:{ split; [|reflexivity]. constructor; rewrite ?EX, ?EX'; try assumption; congruence. }
      pose proof (Forall2_nth _ _ _ X (j_step_idx o)) as Hn. rewrite I.
      destruct (nth_error Z (j_step_idx o)) as [[[x xd] xdd]|],
        (nth_error Z' (j_step_idx o)) as [[[x' xd'] xdd']|]; try contradiction; cbn.
      * split.
        -- constructor; cbn; rewrite ?EX, ?EX'; try assumption; congruence.
        -- destruct Hn as (H1 & H2 & _). tauto.
      * split; [|reflexivity]. constructor; rewrite ?EX, ?EX'; try assumption; congruence.
    + assert (Q := generate_image n n' A b s (p_start_y (j_base o)) (p_goal_y (j_base o))
        (p_start_y (j_base o')) (p_goal_y (j_base o')) (j_execution_time o) (j_dt o) Hs P
        ltac:(split; intros _; [transitivity n'|transitivity n]; try tauto; symmetry; tauto)
        ltac:(tauto) ltac:(tauto)).
      rewrite <- T, <- D in Q.
      destruct (generate_minimum_jerk _ _ (j_execution_time o) _) as [Z|e],
        (generate_minimum_jerk _ _ (j_execution_time o') _) as [Z'|e']; cbn in Q; try contradiction; cbn [bind].
      * cbn [j_X j_step_idx j_base j_execution_time j_dt j_initialized].
        pose proof (Forall2_nth _ _ _ Q (j_step_idx o)) as Hn. rewrite I.
        destruct (nth_error Z (j_step_idx o)) as [[[x xd] xdd]|],
          (nth_error Z' (j_step_idx o)) as [[[x' xd'] xdd']|]; try contradiction; cbn.
        -- split; [constructor; cbn; try assumption; reflexivity|]. destruct Hn as (H1 & H2 & _). tauto.
        -- split; [|reflexivity]. constructor; cbn; try assumption; reflexivity.
      * split; [|exact Q]. constructor; cbn; try assumption; congruence.
  - split; [|reflexivity]. constructor; cbn; try assumption; reflexivity.
  - unfold mjt_configure.
    destruct (configure_image n n' A b s c c' _ _ Hc Hb) as [Hp He].
    destruct (configure c (j_base o)) as [p e], (configure c' (j_base o')) as [p' e'].
    cbn [fst snd] in *. subst e'. split.
    + destruct Hp as (? & ? & ? & ? & ? & ?). constructor; cbn; assumption.
    + destruct e; reflexivity.
Qed.

(** Two objects in corresponding states, after corresponding calls, return corresponding
    results or raise the same exception, call after call. *)
Theorem C114_histories : forall n n' A b s o o' cs cs', 0 < s ->
  object_image n n' A b s o o' -> Forall2 (call_image n n' A b s) cs cs' ->
  Forall2 (related (result_image n n' A b s)) (apply_calls cs o) (apply_calls cs' o').
Proof.
  intros n n' A b s o o' cs cs' Hs Ho H. revert o o' Ho.
  induction H as [|c c' cs cs' Hc H IH]; intros o o' Ho; [constructor|].
  cbn [apply_calls]. destruct (apply_call_image n n' A b s c c' o o' Hs Hc Ho) as [H1 H2].
  destruct (apply_call c o) as [q r], (apply_call c' o') as [q' r']. cbn [fst snd] in *.
  constructor; auto.
Qed.

(** New objects correspond if the map has no offset, and whatever the map as soon as start
    and goal are configured. *)
Theorem C114_new : forall n n' A s execution_time dt, 0 < dt ->
  object_image n n' A (fun _ => 0) s (mjt_new n execution_time dt) (mjt_new n' (s * execution_time) (s * dt)).
Proof.
  intros n n' A s T dt Hdt.
  assert (Z : position_image n n' A (fun _ => 0) (fun _ => 0) (fun _ => 0)).
  { intros e _. rewrite (rsum_ext _ _ (fun _ => 0)) by (intros; ring). rewrite rsum_0 by auto. ring. }
  constructor; cbn; auto.
Qed.

Theorem C114_configured : forall n n' A b s execution_time dt start goal start' goal', 0 < dt ->
  alen start = n -> alen goal = n -> alen start' = n' -> alen goal' = n' ->
  position_image n n' A b (aget start) (aget start') -> position_image n n' A b (aget goal) (aget goal') ->
  let c start goal := {| c_t := None; c_start_y := Some start; c_start_yd := None; c_start_ydd := None;
                         c_goal_y := Some goal; c_goal_yd := None; c_goal_ydd := None |} in
  object_image n n' A b s (fst (mjt_configure (c start goal) (mjt_new n execution_time dt)))
    (fst (mjt_configure (c start' goal') (mjt_new n' (s * execution_time) (s * dt)))).
Proof.
  intros n n' A b s T dt start goal start' goal' Hdt L1 L2 L3 L4 P1 P2 c.
  unfold mjt_configure, configure, c, and_then, configure_block, check_1d_array_length, mjt_new, ptp_init.
  cbn. rewrite L1, L3, !Nat.eqb_refl. cbn. rewrite L2, L4, !Nat.eqb_refl. cbn.
  constructor; cbn; auto.
Qed.

(** A movement along the x-axis, and the movement three times as slow along the diagonal of
    a plane, two units above the origin. *)
Example C114_satisfiable : exists A b start goal start' goal' l l' x xd xdd x' xd' xdd',
  position_image 1 2 A b (aget start) (aget start') /\ position_image 1 2 A b (aget goal) (aget goal')
  /\ generate_minimum_jerk start goal 1 (1 / 5) = Ok l
  /\ generate_minimum_jerk start' goal' (3 * 1) (3 * (1 / 5)) = Ok l'
  /\ nth_error l 2 = Some (x, xd, xdd) /\ nth_error l' 2 = Some (x', xd', xdd')
  /\ x 0%nat = 1 / 2 /\ x' 0%nat = 1 / 2 /\ x' 1%nat = 5 / 2
  /\ xd 0%nat = 75 / 32 /\ xd' 0%nat = 25 / 32 /\ xd' 1%nat = 25 / 32.
Proof.
  set (A := fun _ _ : nat => 1). set (b := fun e : nat => if (e =? 1)%nat then 2 else 0).
  set (st := {| alen := 2; aget := fun e => if (e =? 1)%nat then 2 else 0 |}).
  set (go := {| alen := 2; aget := fun e => if (e =? 1)%nat then 3 else 1 |}).
  assert (P1 : position_image 1 2 A b (aget ex_zero) (aget st)).
  { intros e He. unfold A, b, st. cbn. destruct (e =? 1)%nat; lra. }
  assert (P2 : position_image 1 2 A b (aget ex_one) (aget go)).
  { intros e He. unfold A, b, go. cbn. destruct (e =? 1)%nat; lra. }
  pose proof (C114_frames 1 2 A b 3 ex_zero ex_one st go 1 (1 / 5) ltac:(lra) ltac:(lra)
    eq_refl eq_refl eq_refl eq_refl P1 P2) as R.
  destruct (C114_peak ex_zero ex_one (1 / 5) 2 eq_refl ltac:(lra) ltac:(lia)) as (l & x & xd & xdd & E & Hn & H).
  replace (INR (2 * 2 + 1) * (1 / 5)) with 1 in E by (simpl; field).
  rewrite E in R. destruct (generate_minimum_jerk st go _ _) as [l'|] eqn:E'; [|contradiction].
  cbn [related] in R. pose proof (Forall2_nth _ _ _ R 2) as Q. rewrite Hn in Q.
  destruct (nth_error l' 2) as [[[x' xd'] xdd']|] eqn:Hn'; [|contradiction].
  destruct Q as (Q1 & Q2 & _). destruct (H 0%nat) as (H1 & H2 & _). cbn in H1.
  assert (V : xd 0%nat = 75 / 32).
  { cbn [aget ex_zero ex_one] in H2. replace (INR (2 * 2)) with 4 in H2 by (simpl; ring). lra. }
  exists A, b, ex_zero, ex_one, st, go, l, l', x, xd, xdd, x', xd', xdd'.
  pose proof (Q1 0%nat ltac:(lia)) as A0. pose proof (Q1 1%nat ltac:(lia)) as A1.
  pose proof (Q2 0%nat ltac:(lia)) as B0. pose proof (Q2 1%nat ltac:(lia)) as B1.
  cbn in A0, A1, B0, B1. unfold A, b in *. cbn in A0, A1, B0, B1.
  repeat split; auto; lra.
Qed.
