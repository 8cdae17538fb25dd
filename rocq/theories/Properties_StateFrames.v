(** C113: frames, durations, dimensions and histories of state-following movements.
    Final statements. *)
From Coq Require Import Reals ZArith List Arith Lia Lra Psatz FunctionalExtensionality.
From Coquelicot Require Import Coquelicot.
From Verif Require Import M_Prelude M_Canonical M_Forcing M_Dmp M_Base M_SpringDamper M_StateFollowing M_StateObject
  S_Loops P_Loops P_Canonical P_Forcing P_DmpStep P_DmpScale P_DmpLinear P_DmpAffine P_Runs
  P_Converge S_Stability P_Stability P_Bounded P_Coupled Properties_Stability Properties_StateFollowing Properties_StateRest.
Import ListNotations.
Open Scope R_scope.
Set Bullet Behavior "Strict Subproofs".

(** ** Specification *)
(** [p'] is the image of the position [p] under the affine map of [n] to [n']
    dimensions with matrix [A] and offset [b]. *)
Definition affine_image (n n' : nat) (A : nat -> nat -> R) (b p p' : vec) : Prop :=
  forall e, (e < n')%nat -> p' e = b e + rsum n (fun d => A e d * p d).

(** [v'] is the image of the velocity [v] if time passes [s] times as slowly. *)
Definition velocity_image (n n' : nat) (A : nat -> nat -> R) (s : R) (v v' : vec) : Prop :=
  forall e, (e < n')%nat -> v' e = rsum n (fun d => A e d * v d) / s.

(** The second movement has the via-points of the first in other coordinates, and takes
    [s] times as long.  Only dimensions with the same gains are mixed. *)
Record same_movement (n n' nv : nat) (A : nat -> nat -> R) (b : vec) (s : R) (o o' : sf_dmp) : Prop := {
  sm_reach : sf_reachable n nv o;
  sm_reach' : sf_reachable n' nv o';
  sm_time : f_execution_time o' = s * f_execution_time o;
  sm_dt : f_dt o' = s * f_dt o;
  sm_int_dt : f_int_dt o' = s * f_int_dt o;
  sm_gains : forall e d, (e < n')%nat -> (d < n)%nat -> A e d <> 0 ->
    aget (f_alpha_y o') e = aget (f_alpha_y o) d /\ aget (f_beta_y o') e = aget (f_beta_y o) d;
  sm_viapoints : forall i, (i < nv)%nat ->
    affine_image n n' A b (sf_viapoints (f_forcing o) i) (sf_viapoints (f_forcing o') i)
}.

(** ** Proofs *)
Lemma sf_call_same n n' nv s o o' t i : 0 < s -> sf_ok n nv o -> sf_ok n' nv o' ->
  f_execution_time o' = s * f_execution_time o -> (i < nv)%nat ->
  sf_call (f_forcing o') (s * t) i = sf_call (f_forcing o) t i.
Proof.
  intros Hs (_ & _ & _ & _ & _ & _ & Hx & Hn & En & Eg & Es & Ea & Ec & Ew & El)
    (_ & _ & _ & _ & _ & _ & _ & _ & En' & Eg' & Es' & Ea' & Ec' & Ew' & El') Et Hi.
  unfold sf_call. rewrite En, En', Eg, Eg', Es, Es', Ea, Ea', Et.
  assert (Ep : phase (s * t) (- ln (1 / 100)) (s * f_execution_time o) 0 = phase t (- ln (1 / 100)) (f_execution_time o) 0).
  { unfold phase. f_equal. field. lra. }
  rewrite Ep. destruct (Nat.eq_dec nv 1) as [->|Hne].
  - (* one via-point: its weight is 1 *)
    assert (i = 0)%nat as -> by lia.
    set (z := phase _ _ _ _).
    pose proof (activations_sum 1 (sf_centers (f_forcing o)) (sf_widths (f_forcing o)) z ltac:(lia)) as S1.
    pose proof (activations_sum 1 (sf_centers (f_forcing o')) (sf_widths (f_forcing o')) z ltac:(lia)) as S2.
    cbn [rsum] in S1, S2. lra.
  - apply activations_ext; [exact Hi|]. intros j Hj. split; [rewrite Ec, Ec' by auto; reflexivity|].
    assert (W : forall j, (j < nv - 1)%nat -> sf_widths (f_forcing o') j = sf_widths (f_forcing o) j).
    { intros k Hk. rewrite Ew, Ew' by auto. rewrite !Ec, !Ec' by lia. reflexivity. }
    destruct (Nat.eq_dec j (nv - 1)) as [->|]; [rewrite El, El' by lia|]; apply W; lia.
Qed.

Lemma attractor_image n n' nv A b s o o' t e : 0 < s -> same_movement n n' nv A b s o o' -> (e < n')%nat ->
  attractor (f_forcing o') (s * t) e = b e + rsum n (fun d => A e d * attractor (f_forcing o) t d).
Proof.
  intros Hs H He. destruct H as [R R' T _ _ _ V].
  pose proof (sf_reachable_ok _ _ _ R) as K. pose proof (sf_reachable_ok _ _ _ R') as K'.
  pose proof K as (_ & _ & _ & _ & _ & _ & _ & Hn & En & _). pose proof K' as (_ & _ & _ & _ & _ & _ & _ & _ & En' & _).
  destruct (C31_activations (f_forcing o) t) as [_ Hsum]; [lia|].
  unfold attractor. rewrite En in *. rewrite En'.
  rewrite (rsum_ext _ _ (fun i => b e * sf_call (f_forcing o) t i
    + rsum n (fun d => A e d * (sf_viapoints (f_forcing o) i d * sf_call (f_forcing o) t i)))).
  - rewrite rsum_plus, rsum_scal, Hsum, rsum_swap, Rmult_1_r. f_equal.
    apply rsum_ext. intros d _. now rewrite rsum_scal.
  - intros i Hi. rewrite (sf_call_same n n' nv s o o') by auto. rewrite (V i Hi e He).
    rewrite Rmult_plus_distr_r. f_equal. rewrite Rmult_comm, <- rsum_scal.
    apply rsum_ext. intros d _. ring.
Qed.

Definition state_image n n' A b s (x x' : vec * vec) : Prop :=
  affine_image n n' A b (fst x) (fst x') /\ velocity_image n n' A s (snd x) (snd x').

Lemma sf_body_image n n' nv A b s o o' t h x x' : 0 < s -> same_movement n n' nv A b s o o' ->
  state_image n n' A b s x x' ->
  state_image n n' A b s (sf_body (sf_object_args None o) t h x) (sf_body (sf_object_args None o') (s * t) (s * h) x').
Proof.
  intros Hs H [Hy Hv]. destruct x as [y v], x' as [y' v']. cbn [fst snd] in Hy, Hv.
  pose proof (sf_reachable_ok _ _ _ (sm_reach _ _ _ _ _ _ _ _ H)) as K.
  pose proof (sf_reachable_ok _ _ _ (sm_reach' _ _ _ _ _ _ _ _ H)) as K'.
  pose proof K as (_ & _ & _ & _ & _ & _ & Hx & Hn & En & _).
  pose proof K' as (_ & _ & _ & _ & _ & _ & Hx' & _ & En' & _).
  set (acc := fun d => aget (f_alpha_y o) d * (aget (f_beta_y o) d * (attractor (f_forcing o) t d - y d)
    - (f_execution_time o - 0) / 2 * v d) / ((f_execution_time o - 0) / 2) ^ 2).
  set (acc' := fun e => aget (f_alpha_y o') e * (aget (f_beta_y o') e * (attractor (f_forcing o') (s * t) e - y' e)
    - (f_execution_time o' - 0) / 2 * v' e) / ((f_execution_time o' - 0) / 2) ^ 2).
  assert (B : forall d, snd (sf_body (sf_object_args None o) t h (y, v)) d = v d + h * acc d
    /\ fst (sf_body (sf_object_args None o) t h (y, v)) d = y d + h * (v d + h * acc d)).
  { intros d. destruct (C31_spring_damper_towards_attractor (sf_object_args None o) t h y v d) as (Q1 & Q2 & _);
      [cbn; lia|exact Hx|reflexivity|reflexivity|]. split; [exact Q1|exact Q2]. }
  assert (B' : forall e, snd (sf_body (sf_object_args None o') (s * t) (s * h) (y', v')) e = v' e + s * h * acc' e
    /\ fst (sf_body (sf_object_args None o') (s * t) (s * h) (y', v')) e = y' e + s * h * (v' e + s * h * acc' e)).
  { intros e. destruct (C31_spring_damper_towards_attractor (sf_object_args None o') (s * t) (s * h) y' v' e) as (Q1 & Q2 & _);
      [cbn; lia|exact Hx'|reflexivity|reflexivity|]. split; [exact Q1|exact Q2]. }
  assert (Acc : forall e, (e < n')%nat -> acc' e
    = rsum n (fun d => A e d * acc d) / s ^ 2).
  { intros e He. unfold acc'. rewrite (attractor_image n n' nv A b s o o' t e Hs H He), (Hy e He), (Hv e He).
    rewrite (sm_time _ _ _ _ _ _ _ _ H).
    set (al := aget (f_alpha_y o') e). set (be := aget (f_beta_y o') e). set (x := f_execution_time o) in *.
    rewrite (rsum_ext n (fun d => A e d * acc d) (fun d =>
      (al * be / (x / 2) ^ 2) * (A e d * attractor (f_forcing o) t d) + (- (al * be / (x / 2) ^ 2)) * (A e d * y d)
      + (- (al / (x / 2))) * (A e d * v d))).
    - rewrite !rsum_plus, !rsum_scal. field. split; lra.
    - intros d Hd. destruct (Req_dec (A e d) 0) as [->|Hne]; [ring|].
      destruct (sm_gains _ _ _ _ _ _ _ _ H e d He Hd Hne) as [Ea Eb]. unfold acc, al, be. rewrite Ea, Eb.
      fold x. field. lra. }
  split.
  - intros e He. destruct (B' e) as (_ & Q). rewrite Acc in Q by auto. rewrite Q, (Hy e He), (Hv e He).
    rewrite (rsum_ext n (fun d => A e d * fst (sf_body (sf_object_args None o) t h (y, v)) d)
      (fun d => A e d * y d + (h * (A e d * v d) + h ^ 2 * (A e d * acc d)))).
    + rewrite !rsum_plus, !rsum_scal. field. lra.
    + intros d _. destruct (B d) as (_ & Q'). rewrite Q'. ring.
  - intros e He. destruct (B' e) as (Q & _). rewrite Acc in Q by auto. cbn [snd] in *. rewrite Q, (Hv e He).
    rewrite (rsum_ext n (fun d => A e d * snd (sf_body (sf_object_args None o) t h (y, v)) d)
      (fun d => A e d * v d + h * (A e d * acc d))).
    + rewrite !rsum_plus, !rsum_scal. field. lra.
    + intros d _. destruct (B d) as (Q' & _). rewrite Q'. ring.
Qed.

Lemma sf_step_fn_image n n' nv A b s o o' lt t x x' : 0 < s -> 0 < f_int_dt o -> same_movement n n' nv A b s o o' ->
  state_image n n' A b s x x' ->
  res_rel (state_image n n' A b s) (sf_step_fn (sf_object_args None o) lt t x)
    (sf_step_fn (sf_object_args None o') (s * lt) (s * t) x').
Proof.
  intros Hs Hi H Hx. unfold sf_step_fn. cbn [sf_object_args sa_goal_t sa_start_t sa_int_dt].
  fold (sf_object_args None o). fold (sf_object_args None o').
  pose proof (sf_reachable_ok _ _ _ (sm_reach _ _ _ _ _ _ _ _ H)) as (_ & _ & _ & _ & _ & _ & Hx0 & _).
  rewrite (sm_time _ _ _ _ _ _ _ _ H), (sm_int_dt _ _ _ _ _ _ _ _ H).
  assert (0 < s * f_execution_time o) by nra.
  destruct (Rle_dec (f_execution_time o) 0); [lra|]. destruct (Rle_dec (s * f_execution_time o) 0); [lra|].
  destruct (Rle_dec t 0), (Rle_dec (s * t) 0); try (exfalso; nra); [exact Hx|].
  rewrite substeps_fuel_scale by lra. apply substeps_scale; auto.
  intros c d z z' _ Hz. now apply (sf_body_image n n' nv).
Qed.

Lemma run_seq_image n n' nv A b s o o' t0 x x' : 0 < s -> 0 < f_int_dt o -> same_movement n n' nv A b s o o' ->
  state_image n n' A b s x x' -> forall k,
  res_rel (state_image n n' A b s) (run_seq (sf_step_fn (sf_object_args None o)) t0 (f_dt o) x k)
    (run_seq (sf_step_fn (sf_object_args None o')) (s * t0) (s * f_dt o) x' k).
Proof.
  intros Hs Hi H Hx. induction k as [|k IH]; [exact Hx|]. cbn [run_seq].
  apply (res_rel_bind _ _ _ _ _ _ IH). intros z z' Hz.
  replace (s * t0 + INR k * (s * f_dt o)) with (s * (t0 + INR k * f_dt o)) by ring.
  replace (s * t0 + INR (S k) * (s * f_dt o)) with (s * (t0 + INR (S k) * f_dt o)) by ring.
  now apply (sf_step_fn_image n n' nv).
Qed.

Lemma sf_ok_shapes n nv o : sf_ok n nv o -> sf_shapes n o.
Proof. intros (H1 & _ & _ & _ & H5 & H6 & _). repeat split; auto. Qed.

(** ** Theorems *)
(** Repeated steps: whatever happened to the two objects before, if their clocks agree
    and they get the same state in their coordinates, they return the same states in
    their coordinates. *)
Theorem C113_steps : forall n n' nv A b s o o' y yd y' yd' k,
  0 < s -> same_movement n n' nv A b s o o' -> 0 < f_dt o -> 0 < f_int_dt o ->
  p_t (f_base o') = s * p_t (f_base o) ->
  alen y = n -> alen yd = n -> alen y' = n' -> alen yd' = n' ->
  affine_image n n' A b (aget y) (aget y') -> velocity_image n n' A s (aget yd) (aget yd') ->
  exists o1 o1' z zd z' zd',
    sf_n_steps k y yd o = (o1, Ok (z, zd)) /\ sf_n_steps k y' yd' o' = (o1', Ok (z', zd'))
    /\ alen z = n /\ alen zd = n /\ alen z' = n' /\ alen zd' = n'
    /\ affine_image n n' A b (aget z) (aget z') /\ velocity_image n n' A s (aget zd) (aget zd')
    /\ p_t (f_base o1') = s * p_t (f_base o1).
Proof.
  intros n n' nv A b s o o' y yd y' yd' k Hs H Hdt Hi Ht Ly Lyd Ly' Lyd' Hy Hyd.
  pose proof (sf_reachable_ok _ _ _ (sm_reach _ _ _ _ _ _ _ _ H)) as K.
  pose proof (sf_reachable_ok _ _ _ (sm_reach' _ _ _ _ _ _ _ _ H)) as K'.
  pose proof K as (_ & _ & _ & _ & _ & _ & Hx & _). pose proof K' as (_ & _ & _ & _ & _ & _ & Hx' & _).
  assert (Hdt' : 0 < f_dt o') by (rewrite (sm_dt _ _ _ _ _ _ _ _ H); nra).
  assert (Hi' : 0 < f_int_dt o') by (rewrite (sm_int_dt _ _ _ _ _ _ _ _ H); nra).
  destruct (sf_n_steps_seq n k o y yd) as (o1 & z & R1 & E1 & _ & T1 & _); auto.
  { now apply (sf_ok_shapes n nv). } { repeat split; auto. }
  destruct (sf_n_steps_seq n' k o' y' yd') as (o1' & z' & R1' & E1' & _ & T1' & _); auto.
  { now apply (sf_ok_shapes n' nv). } { repeat split; auto. }
  pose proof (run_seq_image n n' nv A b s o o' (p_t (f_base o)) (aget y, aget yd) (aget y', aget yd') Hs Hi H
    (conj Hy Hyd) k) as Hr.
  rewrite <- Ht, <- (sm_dt _ _ _ _ _ _ _ _ H), R1, R1' in Hr. destruct Hr as [Hr1 Hr2].
  exists o1, o1', {| alen := n; aget := fst z |}, {| alen := n; aget := snd z |},
    {| alen := n'; aget := fst z' |}, {| alen := n'; aget := snd z' |}.
  repeat (split; [first [assumption|reflexivity]|]).
  rewrite T1, T1', Ht, (sm_dt _ _ _ _ _ _ _ _ H). ring.
Qed.

(** [open_loop]: the times are [s] times as late and the positions are the images. *)
Theorem C113_open_loop : forall n n' nv A b s o o' run_t,
  0 < s -> same_movement n n' nv A b s o o' -> 0 < f_dt o -> 0 < f_int_dt o ->
  affine_image n n' A b (aget (p_start_y (f_base o))) (aget (p_start_y (f_base o'))) ->
  exists ts ys ys',
    sf_open_loop run_t None o = Ok (ts, ys)
    /\ sf_open_loop (option_map (Rmult s) run_t) None o' = Ok (map (Rmult s) ts, ys')
    /\ Forall2 (affine_image n n' A b) ys ys'.
Proof.
  intros n n' nv A b s o o' run_t Hs H Hdt Hi Hy.
  pose proof (sf_reachable_ok _ _ _ (sm_reach _ _ _ _ _ _ _ _ H)) as (_ & _ & _ & _ & _ & _ & Hx & _).
  destruct (C31_open_loop o None run_t Hx Hdt Hi) as (ts & ys & E & _).
  exists ts, ys. unfold sf_open_loop, sf_open_loop_fn in *.
  cbn [sf_object_args sa_goal_t sa_start_t] in *.
  fold (sf_object_args None o) in *. fold (sf_object_args None o').
  rewrite (sm_time _ _ _ _ _ _ _ _ H), (sm_dt _ _ _ _ _ _ _ _ H).
  set (rt := match run_t with Some x => x | None => f_execution_time o end) in *.
  replace (match option_map (Rmult s) run_t with Some x => x | None => s * f_execution_time o end) with (s * rt)
    by (unfold rt; destruct run_t; reflexivity).
  replace ((s * rt - 0) / (s * f_dt o)) with ((rt - 0) / f_dt o) by (field; lra).
  set (x0 := (aget (p_start_y (f_base o)), vzero)) in *. set (x0' := (aget (p_start_y (f_base o')), vzero)).
  assert (H0 : state_image n n' A b s x0 x0').
  { split; [exact Hy|]. intros e He. unfold x0, x0', vzero. cbn [snd].
    rewrite (rsum_0 n) by (intros; ring). field. lra. }
  assert (L : forall fuel t x x', state_image n n' A b s x x' ->
    res_rel (fun r r' => fst r' = map (Rmult s) (fst r) /\ Forall2 (state_image n n' A b s) (snd r) (snd r'))
      (sf_loop fuel (sf_object_args None o) (f_dt o) rt t x)
      (sf_loop fuel (sf_object_args None o') (s * f_dt o) (s * rt) (s * t) x')).
  { induction fuel as [|fuel IH]; intros t x x' Hxx; cbn [sf_loop]; rewrite Rlt_dec_scale by auto.
    - destruct (Rlt_dec t rt); cbn; auto.
    - destruct (Rlt_dec t rt); [|cbn; auto].
      replace (s * t + s * f_dt o) with (s * (t + f_dt o)) by ring.
      apply (res_rel_bind (state_image n n' A b s)); [now apply (sf_step_fn_image n n' nv)|].
      intros z z' Hz. eapply res_rel_bind; [apply IH; exact Hz|].
      intros [r1 r2] [r1' r2'] [Hr1 Hr2]. cbn [fst snd] in *. cbn. split; [now rewrite Hr1|]. constructor; auto. }
  specialize (L (Z.to_nat (up ((rt - 0) / f_dt o))) 0 x0 x0' H0). rewrite Rmult_0_r in L.
  destruct (sf_loop _ (sf_object_args None o) _ _ _ _) as [[r1 r2]|]; [|discriminate].
  destruct (sf_loop _ (sf_object_args None o') _ _ _ _) as [[r1' r2']|]; [|contradiction].
  destruct L as [L1 L2]. cbn [fst snd bind rmap] in *. injection E as <- <-.
  exists (map fst (x0' :: r2')). split; [reflexivity|]. split.
  - cbn [map]. rewrite Rmult_0_r. now rewrite <- L1.
  - cbn [map]. constructor; [apply H0|]. clear - L2. induction L2 as [|x x' l l' Hx _ IH]; cbn; constructor; auto.
    apply Hx.
Qed.

(** [open_loop] is what repeated calls of [step] give after [reset], beginning at the start
    position with velocity zero. *)
Theorem C113_open_loop_is_repeated_step : forall n nv o run_t yd,
  sf_reachable n nv o -> 0 < f_dt o -> 0 < f_int_dt o -> alen yd = n -> (forall d, aget yd d = 0) ->
  exists ts ys, sf_open_loop run_t None o = Ok (ts, ys)
  /\ length ts = length ys
  /\ forall k, (k < length ys)%nat -> exists o' y' yd',
       sf_n_steps k (p_start_y (f_base o)) yd (sf_reset o) = (o', Ok (y', yd'))
       /\ aget y' = nth k ys vzero /\ p_t (f_base o') = nth k ts 0.
Proof.
  intros n nv o run_t yd Hr Hdt Hi Ly Hyd.
  pose proof (sf_reachable_ok _ _ _ Hr) as K. pose proof K as (_ & _ & Ls & _ & _ & _ & Hx & _).
  destruct (C31_open_loop o None run_t Hx Hdt Hi) as (ts & ys & E & El & Hk & _).
  exists ts, ys. split; [exact E|]. split; [auto|]. intros k Hlt. rewrite El in Hlt.
  destruct (Hk k Hlt) as (Et & _ & x & Ex & Rx).
  destruct (sf_n_steps_seq n k (sf_reset o) (p_start_y (f_base o)) yd) as (o1 & z & R1 & E1 & _ & T1 & _); auto.
  { apply (sf_ok_shapes n nv). apply sf_reachable_ok. now constructor. }
  { repeat split; auto. }
  exists o1, {| alen := n; aget := fst z |}, {| alen := n; aget := snd z |}. split; [exact E1|].
  replace (aget yd) with vzero in R1 by (extensionality d; now rewrite Hyd).
  assert (z = x) as ->.
  { assert (Ok z = Ok x); [|congruence]. rewrite <- R1, <- Rx. reflexivity. }
  split.
  - cbn [aget]. symmetry. erewrite nth_error_nth; [reflexivity|exact Ex].
  - rewrite T1. erewrite nth_error_nth by exact Et. cbn. ring.
Qed.

(** Everything a step returns is determined by the parameters, the clock and the state
    that is passed; start, goal and earlier states have no effect. *)
Corollary C113_memoryless : forall n nv o o' y yd k,
  sf_reachable n nv o -> sf_reachable n nv o' ->
  f_execution_time o' = f_execution_time o -> f_dt o' = f_dt o -> f_int_dt o' = f_int_dt o ->
  (forall d, (d < n)%nat -> aget (f_alpha_y o') d = aget (f_alpha_y o) d /\ aget (f_beta_y o') d = aget (f_beta_y o) d) ->
  (forall i d, (i < nv)%nat -> (d < n)%nat -> sf_viapoints (f_forcing o') i d = sf_viapoints (f_forcing o) i d) ->
  p_t (f_base o') = p_t (f_base o) -> 0 < f_dt o -> 0 < f_int_dt o -> alen y = n -> alen yd = n ->
  exists o1 o1' z zd z' zd',
    sf_n_steps k y yd o = (o1, Ok (z, zd)) /\ sf_n_steps k y yd o' = (o1', Ok (z', zd'))
    /\ forall d, (d < n)%nat -> aget z' d = aget z d /\ aget zd' d = aget zd d.
Proof.
  intros n nv o o' y yd k Hr Hr' Ex Ed Ei Hg Hv Ht Hdt Hi Ly Lyd.
  set (I := fun e d : nat => if Nat.eqb e d then 1 else 0).
  assert (EI : forall e p, (e < n)%nat -> rsum n (fun d => I e d * p d) = p e).
  { intros e p He. unfold I. clear - He. induction n as [|m IH]; [lia|]. cbn [rsum].
    destruct (Nat.eq_dec e m) as [->|Hne].
    - rewrite Nat.eqb_refl, rsum_0; [ring|]. intros j Hj.
      replace (Nat.eqb m j) with false by (symmetry; apply Nat.eqb_neq; lia). ring.
    - rewrite IH by lia. replace (Nat.eqb e m) with false by (symmetry; apply Nat.eqb_neq; lia). ring. }
  destruct (C113_steps n n nv I vzero 1 o o' y yd y yd k) as (o1 & o1' & z & zd & z' & zd' & E & E' & _ & _ & _ & _ & Hz & Hzd & _);
    auto; try lra.
  - split; auto; try lra.
    + intros e d He Hd Hne. unfold I in Hne. destruct (Nat.eqb_spec e d) as [->|]; [auto|lra].
    + intros i Hi0 e He. rewrite EI by auto. unfold vzero. rewrite Hv by auto. ring.
  - intros e He. rewrite EI by auto. unfold vzero. ring.
  - intros e He. rewrite EI by auto. field.
  - exists o1, o1', z, zd, z', zd'. split; [exact E|]. split; [exact E'|]. intros d Hd.
    specialize (Hz d Hd). specialize (Hzd d Hd). rewrite EI in Hz, Hzd by auto. unfold vzero in Hz.
    split; [rewrite Hz; ring|rewrite Hzd; field].
Qed.

(** Small changes have small effects for ever: if via-points, positions and velocities of
    two movements differ by at most [D] in one dimension, then all later states differ by
    at most [K D], where [K] depends on nothing but gains, duration and step lengths. *)
Theorem C113_sensitivity : forall al be x dt int_dt,
  0 < al -> 0 < be -> 0 < x -> 0 < dt -> 0 < int_dt -> equal_parts dt int_dt ->
  (let h := Rmin dt int_dt in h ^ 2 * (al * be / (x / 2) ^ 2) + 2 * (h * (al / (x / 2))) < 4) ->
  exists K, forall n n' nv o o' d D y yd y' yd' k,
  sf_reachable n nv o -> sf_reachable n' nv o' ->
  f_execution_time o = x -> f_execution_time o' = x -> f_dt o = dt -> f_dt o' = dt ->
  f_int_dt o = int_dt -> f_int_dt o' = int_dt ->
  aget (f_alpha_y o) d = al -> aget (f_alpha_y o') d = al ->
  aget (f_beta_y o) d = be -> aget (f_beta_y o') d = be ->
  p_t (f_base o') = p_t (f_base o) -> 0 <= p_t (f_base o) ->
  alen y = n -> alen yd = n -> alen y' = n' -> alen yd' = n' ->
  (forall i, (i < nv)%nat -> Rabs (sf_viapoints (f_forcing o') i d - sf_viapoints (f_forcing o) i d) <= D) ->
  Rabs (aget y' d - aget y d) <= D -> Rabs (aget yd' d - aget yd d) <= D ->
  exists o1 o1' z zd z' zd',
    sf_n_steps k y yd o = (o1, Ok (z, zd)) /\ sf_n_steps k y' yd' o' = (o1', Ok (z', zd'))
    /\ Rabs (aget z' d - aget z d) <= K * D /\ Rabs (aget zd' d - aget zd d) <= K * D.
Proof.
  intros al be x dt int_dt Hal Hbe Hx Hdt Hi Heq Hsh. cbv zeta in Hsh.
  set (kk := al * be / (x / 2) ^ 2) in *. set (c := al / (x / 2)) in *. set (h := Rmin dt int_dt) in *.
  assert (Hh : 0 < h) by (unfold h; now apply Rmin_pos).
  assert (Hc : 0 < c) by (unfold c; apply Rdiv_lt_0_compat; lra).
  assert (Hk : 0 < kk).
  { unfold kk. apply Rdiv_lt_0_compat; [now apply Rmult_lt_0_compat|]. apply pow_lt. lra. }
  destruct (euler_bounded h c kk) as (K & HK & HB); [now apply euler_shrinks_iff|].
  exists (K * (1 + kk)).
  intros n n' nv o o' d D y yd y' yd' k Hr Hr' X X' DT DT' I I' A A' B B' Et Et0 Ly Lyd Ly' Lyd' HV Hy Hyd.
  assert (HD : 0 <= D) by (eapply Rle_trans; [apply Rabs_pos|exact Hy]).
  pose proof (sf_reachable_ok _ _ _ Hr) as Q. pose proof (sf_reachable_ok _ _ _ Hr') as Q'.
  pose proof Q as (_ & _ & _ & _ & _ & _ & _ & Hn & En & _). pose proof Q' as (_ & _ & _ & _ & _ & _ & _ & _ & En' & _).
  destruct (sf_n_steps_seq n k o y yd) as (o1 & z & R1 & E1 & _); auto.
  { now apply (sf_ok_shapes n nv). } { unfold sf_running. rewrite X, DT, I. auto. }
  destruct (sf_n_steps_seq n' k o' y' yd') as (o1' & z' & R1' & E1' & _); auto.
  { now apply (sf_ok_shapes n' nv). } { unfold sf_running. rewrite X', DT', I'. auto. }
  exists o1, o1', {| alen := n; aget := fst z |}, {| alen := n; aget := snd z |},
    {| alen := n'; aget := fst z' |}, {| alen := n'; aget := snd z' |}.
  split; [exact E1|]. split; [exact E1'|]. cbn [aget].
  set (a := sf_object_args None o) in *. set (a' := sf_object_args None o') in *.
  rewrite DT in R1. rewrite DT', Et in R1'. set (t0 := p_t (f_base o)) in *.
  assert (Ei : sa_int_dt a = int_dt) by exact I. assert (Ei' : sa_int_dt a' = int_dt) by exact I'.
  destruct (sf_run_bodies a t0 dt (aget y, aget yd)) as (_ & m & _ & Em & Hb).
  { change (0 < f_execution_time o). lra. } { lra. } { lra. } { exact Et0. } { now rewrite Ei. }
  destruct (sf_run_bodies a' t0 dt (aget y', aget yd')) as (_ & m' & _ & Em' & Hb').
  { change (0 < f_execution_time o'). lra. } { lra. } { lra. } { exact Et0. } { now rewrite Ei'. }
  rewrite Ei in Hb, Em. rewrite Ei' in Hb', Em'. fold h in Hb, Hb', Em, Em'.
  assert (m' = m) as ->.
  { apply INR_eq. apply Rmult_eq_reg_r with h; [congruence|lra]. }
  set (r := bodies (sf_body a) t0 h (aget y, aget yd)) in *.
  set (r' := bodies (sf_body a') t0 h (aget y', aget yd')) in *.
  rewrite Hb in R1. rewrite Hb' in R1'. injection R1 as R1. injection R1' as R1'.
  assert (St : forall oo yy vv tt, sf_n (f_forcing oo) = nv -> f_execution_time oo = x ->
    aget (f_alpha_y oo) d = al -> aget (f_beta_y oo) d = be ->
    snd (sf_body (sf_object_args None oo) tt h (yy, vv)) d
      = vv d + h * (kk * (attractor (f_forcing oo) tt d - yy d) - c * vv d)
    /\ fst (sf_body (sf_object_args None oo) tt h (yy, vv)) d
      = yy d + h * snd (sf_body (sf_object_args None oo) tt h (yy, vv)) d).
  { intros oo yy vv tt N1 N2 N3 N4.
    destruct (C31_spring_damper_towards_attractor (sf_object_args None oo) tt h yy vv d) as (Q1 & Q2 & _);
      [cbn; lia|change (0 < f_execution_time oo); lra|reflexivity|reflexivity|].
    cbv zeta in Q1, Q2. split.
    - etransitivity; [exact Q1|]. cbn [sf_object_args sa_goal_t sa_start_t sa_alpha_y sa_beta_y sa_forcing].
      rewrite N2, N3, N4. unfold kk, c. field. lra.
    - etransitivity; [exact Q2|]. apply f_equal. apply f_equal. symmetry. exact Q1. }
  assert (HA : forall tt, Rabs (attractor (f_forcing o') tt d - attractor (f_forcing o) tt d) <= D).
  { intros tt. destruct (C31_activations (f_forcing o) tt) as [Hp Hs]; [lia|].
    unfold attractor. rewrite En in *. rewrite En'.
    rewrite (rsum_ext _ (fun i => sf_viapoints (f_forcing o') i d * sf_call (f_forcing o') tt i)
      (fun i => sf_viapoints (f_forcing o) i d * sf_call (f_forcing o) tt i
        + (sf_viapoints (f_forcing o') i d - sf_viapoints (f_forcing o) i d) * sf_call (f_forcing o) tt i)).
    - rewrite rsum_plus. match goal with |- Rabs (?u + ?w - ?u) <= _ => replace (u + w - u) with w by ring end.
      apply Rabs_le. apply convex_bounds; auto.
      + intros i Hi0. left. now apply Hp.
      + intros i Hi0. specialize (HV i Hi0). apply Rabs_le_between in HV. exact HV.
    - intros i Hi0. pose proof (sf_call_same n n' nv 1 o o' tt i Rlt_0_1 Q Q' ltac:(lra) Hi0) as Ec.
      rewrite Rmult_1_l in Ec. rewrite Ec. ring. }
  assert (G : forall j, Rabs (fst (r' j) d - fst (r j) d) <= K * ((1 + kk) * D)
    /\ Rabs (snd (r' j) d - snd (r j) d) <= K * ((1 + kk) * D)).
  { apply (HB (fun j => fst (r' j) d - fst (r j) d) (fun j => snd (r' j) d - snd (r j) d)
      (fun j => kk * (attractor (f_forcing o') (t0 + INR (S j) * h) d - attractor (f_forcing o) (t0 + INR (S j) * h) d))).
    - intros j. unfold r, r'. cbn [bodies]. fold r r'. destruct (r j) as [y1 v1], (r' j) as [y1' v1'].
      destruct (St o y1 v1 (t0 + INR (S j) * h)) as [S1 _]; auto.
      destruct (St o' y1' v1' (t0 + INR (S j) * h)) as [S1' _]; auto.
      fold a in S1. fold a' in S1'. rewrite S1, S1'. cbn [fst snd]. ring.
    - intros j. unfold r, r'. cbn [bodies]. fold r r'. destruct (r j) as [y1 v1], (r' j) as [y1' v1'].
      destruct (St o y1 v1 (t0 + INR (S j) * h)) as [_ S1]; auto.
      destruct (St o' y1' v1' (t0 + INR (S j) * h)) as [_ S1']; auto.
      fold a in S1. fold a' in S1'. rewrite S1, S1'. cbn [fst snd]. ring.
    - change (Rabs (aget y' d - aget y d) <= (1 + kk) * D). nra.
    - change (Rabs (aget yd' d - aget yd d) <= (1 + kk) * D). nra.
    - intros j. rewrite Rabs_mult, (Rabs_pos_eq kk) by lra.
      specialize (HA (t0 + INR (S j) * h)). nra. }
  destruct (G (k * m)%nat) as [G1 G2]. rewrite R1, R1' in G1. rewrite R1, R1' in G2.
  rewrite (Rmult_assoc K). auto.
Qed.

Example C113_satisfiable : exists o o', same_movement 1 2 8 (fun e _ => INR (S e)) (fun _ => 7) 3 o o'
  /\ 0 < f_dt o /\ 0 < f_int_dt o /\ sf_viapoints (f_forcing o') 3%nat 1%nat = 13.
Proof.
  assert (Ex : forall n x, 0 < x -> exists o, sf_reachable n 8 o /\ f_execution_time o = x
    /\ f_dt o = x / 100 /\ f_int_dt o = x / 1000
    /\ (forall d, aget (f_alpha_y o) d = 25) /\ (forall d, aget (f_beta_y o) d = 25 / 4)).
  { intros n x Hx.
    assert (Ea : exists z, canonical_system_alpha (1 / 100) x 0 = Ok z).
    { unfold canonical_system_alpha. repeat (destruct (Rle_dec _ _); [lra|]). eauto. }
    destruct Ea as [z Ea].
    destruct (proj2 (proj1 (C31_constructor_errors vzero vzero 8 x 0 (1/10) z)))
      as [f E]; [repeat split; [lia|lra|lra]|].
    assert (E' : exists o, sf_new (vzero, vzero) n x (x/100) 8 (x/1000) {| shape := []; data := fun _ => 25 |}
      {| shape := []; data := fun _ => 25/4 |} = Ok o /\ f_execution_time o = x
      /\ f_dt o = x / 100 /\ f_int_dt o = x / 1000
      /\ (forall d, aget (f_alpha_y o) d = 25) /\ (forall d, aget (f_beta_y o) d = 25 / 4)).
    { eexists. split; [unfold sf_new; rewrite Ea; cbn [bind fst snd ensure_1d_array shape data Nat.eqb]; rewrite Nat.eqb_refl, E; reflexivity|].
      cbn. repeat split. }
    destruct E' as (o & E' & H). exists o. split; [eapply sr_new; exact E'|exact H]. }
  destruct (Ex 1%nat 1) as (o & R & E1 & E2 & E3 & E4 & E5); [lra|].
  destruct (Ex 2%nat 3) as (o' & R' & E1' & E2' & E3' & E4' & E5'); [lra|].
  exists (sf_set_viapoints (fun i _ => INR i) o), (sf_set_viapoints (fun i e => 7 + INR (S e) * INR i) o').
  split; [split|].
  - now apply sr_viapoints.
  - now apply sr_viapoints.
  - cbn. lra.
  - cbn. lra.
  - cbn. lra.
  - intros e d _ _ _. cbn. rewrite E4, E5, E4', E5'. auto.
  - intros i _ e _. cbn [sf_set_viapoints sf_with f_forcing set_viapoints sf_viapoints rsum]. ring.
  - cbn [sf_set_viapoints sf_with f_forcing set_viapoints sf_viapoints f_dt f_int_dt].
    split; [lra|]. split; [lra|]. simpl. lra.
Qed.
