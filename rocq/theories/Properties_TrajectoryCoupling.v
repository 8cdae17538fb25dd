(** C126: a coupling term that was learned from a demonstration asks for the demonstrated
    relative poses at the right times.  Final statements. *)
From Coq Require Import Reals List Arith Bool Lia Lra ZArith FunctionalExtensionality.
From Verif Require Import M_Prelude M_Canonical M_Forcing M_Dmp M_Base M_DmpObject M_Quaternion M_Cartesian M_Dual M_Rigid
  M_Coupling S_Loops S_Rotation S_Rigid P_Loops P_Canonical P_Quaternion P_Cartesian P_DmpObject P_Rigid
  P_Components P_Dual P_DualObject Properties_Cartesian Properties_CartesianObject Properties_DualObject
  Properties_DualArm Properties_DualRuns Properties_Coupling Properties_PoseCoupling
  Properties_PoseError Properties_CoupledRuns.
Import ListNotations.
Open Scope R_scope.
Set Bullet Behavior "Strict Subproofs".

(** ** Specification *)
(** A coupling term with a clock that also writes down at which readings of its clock it
    was asked. *)
Definition logged (ct : stateful_coupling R) : stateful_coupling (R * list R) := fun s y yd =>
  let '(t, c) := ct (fst s) y yd in ((t, snd s ++ [fst s]), c).

(** A step of length [dt] consists of [m] integration steps. *)
Definition takes (m : nat) (dt int_dt : R) : Prop := (INR m - 1) * int_dt < dt <= INR m * int_dt.

(** The relative pose of the arms. *)
Definition relative (y : vec) : rigid := rigid_mul (pt_invert (left_pose y)) (right_pose y).

(** The cosine of the angle between two orientations. *)
Definition cos_angle (a b : mat3) : R := (m3_trace (m3_mul (m3_T a) b) - 1) / 2.

(** ** Proofs: the clock *)
Lemma tiles_takes h : forall l a b, 0 < h -> a < b -> tiles a b h l -> takes (length l) (b - a) h.
Proof.
  unfold takes. induction l as [|[c k] l IH]; intros a b Hh Hab Hl; simpl in Hl; [lra|].
  destruct Hl as (Hk & -> & Hf & Hl). cbn [length]. rewrite S_INR.
  destruct l as [|x l].
  - simpl in Hl. simpl. lra.
  - rewrite (Hf ltac:(discriminate)) in *. pose proof (tiles_le _ _ _ _ Hl) as Hle.
    destruct (Req_dec (a + h) b) as [E|E].
    + exfalso. destruct x as [c' k']. simpl in Hl. destruct Hl as (Hk' & -> & _ & Hl).
      pose proof (tiles_le _ _ _ _ Hl). lra.
    + specialize (IH (a + h) b Hh ltac:(lra) Hl). lra.
Qed.

Lemma takes_unique m m' dt h : 0 < h -> takes m dt h -> takes m' dt h -> m = m'.
Proof.
  unfold takes. intros Hh [A B] [A' B'].
  assert (INR m < INR m' + 1) by nra. assert (INR m' < INR m + 1) by nra.
  rewrite <- S_INR in *. apply INR_lt in H, H0. lia.
Qed.

Lemma body_logged i a (ct : stateful_coupling R) c d s cdd t l :
  dual_body i a (Some (logged ct)) c d (s, cdd, (t, l))
  = let x := dual_body i a (Some ct) c d (s, cdd, t) in (fst x, (snd x, l ++ [t])).
Proof.
  unfold dual_body, logged. destruct s as [y yd]. cbn [fst snd].
  destruct (ct t y yd) as [t' [cd cdd']]. reflexivity.
Qed.

Lemma body_clock i a (ct : stateful_coupling R) cdt c d s cdd t : (forall t y yd, fst (ct t y yd) = t + cdt) ->
  snd (dual_body i a (Some ct) c d (s, cdd, t)) = t + cdt.
Proof.
  intros H. unfold dual_body. destruct s as [y yd]. specialize (H t y yd).
  destruct (ct t y yd) as [t' [cd cdd']]. exact H.
Qed.

Lemma substeps_clock i a (ct : stateful_coupling R) cdt : (forall t y yd, fst (ct t y yd) = t + cdt) ->
  forall l s cdd t lg,
  let x := exec_substeps (dual_body i a (Some ct)) l (s, cdd, t) in
  exec_substeps (dual_body i a (Some (logged ct))) l (s, cdd, (t, lg))
  = (fst x, (snd x, lg ++ map (fun j => t + INR j * cdt) (seq 0 (length l))))
  /\ snd x = t + INR (length l) * cdt.
Proof.
  intros Hc. induction l as [|[c d] l IH]; intros s cdd t lg x.
  - unfold x. simpl. rewrite app_nil_r. split; [reflexivity|ring].
  - assert (EC : forall S (b : R -> R -> S -> S) s, exec_substeps b ((c, d) :: l) s = exec_substeps b l (b c d s))
      by reflexivity.
    unfold x. rewrite !EC, body_logged. cbv zeta.
    pose proof (body_clock i a ct cdt c d s cdd t Hc) as E.
    destruct (dual_body i a (Some ct) c d (s, cdd, t)) as [[s' cdd'] t']. cbn [fst snd] in *. subst t'.
    destruct (IH s' cdd' (t + cdt) (lg ++ [t])) as [IH1 IH2]. rewrite IH1, IH2.
    split.
    + rewrite <- app_assoc. repeat f_equal. cbn [length seq map app INR]. rewrite Rmult_0_l, Rplus_0_r. f_equal.
      rewrite <- seq_shift, map_map. apply map_ext. intros j. rewrite S_INR. ring.
    + cbn [length]. rewrite S_INR. ring.
Qed.

Lemma step_clock (ct : stateful_coupling R) cdt i y yd t lg o m : (forall t y yd, fst (ct t y yd) = t + cdt) ->
  dual_shapes o -> 0 < o_dt o -> 0 < o_int_dt o -> takes m (o_dt o) (o_int_dt o) ->
  alen y = 14%nat -> alen yd = 12%nat ->
  exists o' y' yd',
    dual_step y yd (Some ct) i t o = (o', t + INR m * cdt, Ok (y', yd'))
    /\ dual_step y yd (Some (logged ct)) i (t, lg) o
       = (o', (t + INR m * cdt, lg ++ map (fun j => t + INR j * cdt) (seq 0 m)), Ok (y', yd')).
Proof.
  intros Hc Hs Hdt Hi Hm Ly Lyd. rewrite !dual_step_eq by auto. cbv zeta.
  set (te := dual_tracking_error _ _). set (a := dual_args o te).
  unfold dual_step_function. change (a_int_dt a) with (o_int_dt o).
  destruct (substeps_tiles (p_t (o_base o)) (p_t (o_base o) + o_dt o) (o_int_dt o) Hi) as (l & Hl & HE); [lra|].
  rewrite !HE.
  assert (Em : length l = m).
  { apply (takes_unique _ _ (o_dt o) (o_int_dt o)); auto.
    apply tiles_takes in Hl; auto; [|lra]. replace (p_t (o_base o) + o_dt o - p_t (o_base o)) with (o_dt o) in Hl by ring.
    exact Hl. }
  set (s0 := if Rle_dec _ _ then _ else _).
  destruct (substeps_clock i a ct cdt Hc l s0 vzero t lg) as [E1 E2]. rewrite E1, Em in *.
  destruct (exec_substeps (dual_body i a (Some ct)) l (s0, vzero, t)) as [[[y' yd'] cdd'] t'].
  cbn [rmap fst snd] in *. subst t'. eexists _, _, _. split; reflexivity.
Qed.

(** ** C126 *)
(** The clock of the coupling term advances by its [dt] in each integration step: a step
    of the movement consists of [m] integration steps, so that the demonstrated
    relative pose is looked up at 0, dt', 2 dt', ... and the clock shows [k * m * dt']
    after [k] steps of the movement. *)
Theorem C126_clock : forall sp cp co n T Y offset dt' i k y yd o m,
  dual_reachable o -> 0 < o_dt o -> 0 < o_int_dt o -> takes m (o_dt o) (o_int_dt o) ->
  alen y = 14%nat -> alen yd = 12%nat ->
  let ct := trajectory_coupling sp cp co n T Y offset dt' in
  exists o' r,
    dual_n_steps (Some ct) i k y yd trajectory_start o = (o', INR (k * m) * dt', Ok r)
    /\ dual_n_steps (Some (logged ct)) i k y yd (trajectory_start, []) o
       = (o', (INR (k * m) * dt', map (fun j => INR j * dt') (seq 0 (k * m))), Ok r)
    /\ p_t (o_base o') = p_t (o_base o) + INR k * o_dt o.
Proof.
  intros sp cp co n T Y offset dt' i k y yd o m Hr Hdt Hi Hm Ly Lyd ct.
  assert (Hc : forall t y yd, fst (ct t y yd) = t + dt') by reflexivity.
  assert (G : forall k y yd t lg o, dual_shapes o -> 0 < o_dt o -> 0 < o_int_dt o -> takes m (o_dt o) (o_int_dt o) ->
    alen y = 14%nat -> alen yd = 12%nat ->
    exists o' r,
    dual_n_steps (Some ct) i k y yd t o = (o', t + INR (k * m) * dt', Ok r)
    /\ dual_n_steps (Some (logged ct)) i k y yd (t, lg) o
       = (o', (t + INR (k * m) * dt', lg ++ map (fun j => t + INR j * dt') (seq 0 (k * m))), Ok r)
    /\ p_t (o_base o') = p_t (o_base o) + INR k * o_dt o).
  { clear k y yd o Hr Hdt Hi Hm Ly Lyd. induction k as [|k IH]; intros y yd t lg o Hs Hdt Hi Hm Ly Lyd.
    - exists o, (y, yd). cbn [dual_n_steps Nat.mul INR seq map]. rewrite app_nil_r, !Rmult_0_l, !Rplus_0_r. auto.
    - destruct (step_clock ct dt' i y yd t lg o m Hc Hs Hdt Hi Hm Ly Lyd) as (o1 & y1 & yd1 & E1 & E2).
      destruct (dual_step_ok _ _ _ _ _ _ _ _ _ _ E1 Hs) as (_ & _ & _ & L1 & L2 & P & Ht & _ & _ & _ & Hs1).
      pose proof P as (_ & A2 & A3 & A4 & _).
      assert (D1 : o_dt o1 = o_dt o) by (destruct P as (A & B & C & D & _); congruence).
      assert (D2 : o_int_dt o1 = o_int_dt o) by (unfold same_params in P; intuition congruence).
      cbn [dual_n_steps]. rewrite E1, E2.
      destruct (IH y1 yd1 (t + INR m * dt') (lg ++ map (fun j => t + INR j * dt') (seq 0 m)) o1)
        as (o' & r & F1 & F2 & F3); try rewrite D1; try rewrite D2; auto.
      exists o', r. rewrite F1, F2, F3, Ht, D1. cbn [Nat.mul].
      replace (t + INR m * dt' + INR (k * m) * dt') with (t + INR (m + k * m) * dt')
        by (rewrite (plus_INR m (k * m)); ring).
      split; [reflexivity|]. split; [|rewrite S_INR; ring].
      rewrite <- app_assoc. repeat f_equal.
      rewrite seq_app, map_app. f_equal. cbn [Nat.add].
      rewrite <- (Nat.add_0_r m) at 2.
      assert (Q : forall c s, seq (m + s) c = map (fun j => (m + j)%nat) (seq s c)).
      { induction c as [|c IHc]; intros s; [reflexivity|]. cbn [seq map]. f_equal.
        rewrite <- IHc. now rewrite Nat.add_succ_r. }
      rewrite Q, map_map. apply map_ext. intros j. rewrite (plus_INR m j). ring. }
  destruct (G k y yd trajectory_start [] o (dual_reachable_shapes o Hr) Hdt Hi Hm Ly Lyd) as (o' & r & F1 & F2 & F3).
  exists o', r. rewrite F1, F2. unfold trajectory_start. rewrite Rplus_0_l. cbn [app].
  split; [reflexivity|]. split; [|exact F3].
  rewrite (map_ext (fun j => 0 + INR j * dt') (fun j => INR j * dt')) by (intros; ring). reflexivity.
Qed.

(** If the [dt] of the coupling term is the length of the integration steps, the
    demonstration is looked up at the beginning of each integration step, in the time of
    the movement. *)
Theorem C126_in_time : forall sp cp co n T Y offset dt' i k y yd o m,
  dual_reachable o -> 0 < o_dt o -> 0 < o_int_dt o -> takes m (o_dt o) (o_int_dt o) ->
  alen y = 14%nat -> alen yd = 12%nat -> o_dt o = INR m * dt' -> p_t (o_base o) = 0 ->
  let ct := trajectory_coupling sp cp co n T Y offset dt' in
  exists o' r, dual_n_steps (Some ct) i k y yd trajectory_start o = (o', p_t (o_base o'), Ok r).
Proof.
  intros sp cp co n T Y offset dt' i k y yd o m Hr Hdt Hi Hm Ly Lyd E Ht ct.
  destruct (C126_clock sp cp co n T Y offset dt' i k y yd o m Hr Hdt Hi Hm Ly Lyd) as (o' & r & F1 & _ & F3).
  exists o', r. unfold ct. rewrite F1, F3, Ht, E, mult_INR.
  replace (0 + INR k * (INR m * dt')) with (INR k * INR m * dt') by ring. reflexivity.
Qed.

(** With the [dt] of the movement (as in the example of the repository) and an
    [int_dt] that is [m] times smaller, the clock runs [m] times too fast. *)
Theorem C126_dt_refuted : forall m, (2 <= m)%nat -> exists o, dual_reachable o /\ 0 < o_dt o
  /\ o_dt o = INR m * o_int_dt o
  /\ forall sp cp co n T Y offset i k y yd, alen y = 14%nat -> alen yd = 12%nat ->
     let ct := trajectory_coupling sp cp co n T Y offset (o_dt o) in
     exists o' t' r, dual_n_steps (Some ct) i k y yd trajectory_start o = (o', t', Ok r)
       /\ p_t (o_base o') = INR k * o_dt o /\ t' = INR m * p_t (o_base o').
Proof.
  intros m Hm. pose proof (le_INR _ _ Hm) as HM. cbn in HM.
  assert (Hi : 0 < / (100 * INR m)) by (apply Rinv_0_lt_compat; lra).
  destruct (dual_example 1 (1/100) (/ (100 * INR m)) 0 false (fun _ => 1) (fun _ => 1) at_origin at_origin)
    as (o & Hr & E1 & E2 & E3 & E4 & E5 & E6 & E7 & E8 & E9 & E10 & E11 & _); [lra|].
  exists o. split; auto. rewrite E2, E3. split; [lra|]. split; [field; lra|].
  intros sp cp co n T Y offset i k y yd Ly Lyd.
  destruct (C126_clock sp cp co n T Y offset (1/100) i k y yd o m Hr ltac:(lra) ltac:(lra))
    as (o' & r & F1 & _ & F3); auto.
  { unfold takes. rewrite E2, E3. assert (INR m * / (100 * INR m) = 1/100) by (field; lra). lra. }
  exists o', (INR (k * m) * (1/100)), r. split; [exact F1|]. rewrite F3, E11, E2, mult_INR. split; ring.
Qed.

(** ** Proofs: the desired pose *)
Definition q_mix (u : R) (a b : quat) : quat :=
  Q4 ((1 - u) * qw a + u * qw b) ((1 - u) * qx a + u * qx b) ((1 - u) * qy a + u * qy b) ((1 - u) * qz a + u * qz b).
Definition q_plus (a b : quat) : quat := Q4 (qw a + qw b) (qx a + qx b) (qy a + qy b) (qz a + qz b).

Lemma searchsorted_between n T j t : (forall a b, (a < b)%nat -> (b < n)%nat -> T a < T b) -> (S j < n)%nat ->
  T j < t <= T (S j) -> searchsorted n T t = S j.
Proof.
  intros HT Hj Ht. unfold searchsorted.
  assert (H : forall m, (m <= n)%nat ->
    length (filter (fun i => if Rlt_dec (T i) t then true else false) (seq 0 m)) = Nat.min m (S j)).
  { induction m as [|m IH]; intros Hm; [reflexivity|].
    rewrite seq_S, filter_app, app_length, IH by lia. cbn [Nat.add filter].
    destruct (Rlt_dec (T m) t) as [H|H].
    - assert (m < S j)%nat; [|cbn [length]; lia]. destruct (Nat.lt_trichotomy m (S j)) as [|[C|C]]; [auto|subst m; lra|].
      pose proof (HT (S j) m C ltac:(lia)). lra.
    - assert (S j <= m)%nat; [|cbn [length]; lia]. destruct (Nat.lt_trichotomy m j) as [C|[C|C]]; [|subst m; lra|lia].
      pose proof (HT m j C ltac:(lia)). lra. }
  rewrite H by lia. lia.
Qed.

Lemma interp1d_between n T Y j u : (forall a b, (a < b)%nat -> (b < n)%nat -> T a < T b) -> (S j < n)%nat ->
  0 <= u <= 1 -> interp1d n T Y ((1 - u) * T j + u * T (S j)) = (1 - u) * Y j + u * Y (S j).
Proof.
  intros HT Hj Hu. pose proof (HT j (S j) ltac:(lia) Hj) as Hlt.
  destruct (Req_dec u 0) as [->|Hn].
  - replace ((1 - 0) * T j + 0 * T (S j)) with (T j) by ring. rewrite interp1d_sample by (auto; lia). ring.
  - unfold interp1d. rewrite (searchsorted_between n T j) by (auto; nra).
    replace (Nat.min (n - 1) (Nat.max 1 (S j))) with (S j) by lia. replace (S j - 1)%nat with j by lia.
    field. lra.
Qed.

Lemma desired_pose sp cp co n T Y offset dt j u y yd : (forall a b, (a < b)%nat -> (b < n)%nat -> T a < T b) ->
  (S j < n)%nat -> 0 <= u <= 1 -> proper (Y j) -> proper (Y (S j)) ->
  let t := (1 - u) * T j + u * T (S j) in
  trajectory_coupling sp cp co n T Y offset dt t y yd
  = (t + dt, pose_coupling sp cp co
      (Rigid (pr_matrix_from_quaternion
                (q_plus (q_mix u (pr_quaternion_from_matrix (r_rot (relative (Y j))))
                                 (pr_quaternion_from_matrix (r_rot (relative (Y (S j))))))
                        (orientation_of 3 offset)))
             (v3_add (v3_add (v3_scale (1 - u) (r_pos (relative (Y j)))) (v3_scale u (r_pos (relative (Y (S j))))))
                     (entries 0 offset))) y yd).
Proof.
  intros HT Hj Hu Hp Hp' t. unfold trajectory_coupling. apply f_equal. unfold pose_coupling.
  assert (ED : forall D D', D = D' -> couple_distance sp cp co D y yd = couple_distance sp cp co D' y yd)
    by (intros; now subst).
  apply ED. unfold pt_transform_from_pq.
  assert (E : forall d, interp1d n T (fun k => pq7 (right2left_pq (Y k)) d) t
    = (1 - u) * pq7 (r_pos (relative (Y j)), pr_quaternion_from_matrix (r_rot (relative (Y j)))) d
      + u * pq7 (r_pos (relative (Y (S j))), pr_quaternion_from_matrix (r_rot (relative (Y (S j))))) d).
  { intros d. unfold t. rewrite interp1d_between by auto. rewrite !right2left_eq by auto. reflexivity. }
  f_equal.
  - f_equal. apply quat_eq; unfold quat_of, slice; cbn [qw qx qy qz q_plus q_mix orientation_of Nat.add];
      rewrite E; reflexivity.
  - apply v3_eq; unfold v3_of, slice, entries; cbn [v3x v3y v3z v3_add v3_scale Nat.add]; rewrite E; reflexivity.
Qed.

Lemma cos_angle_qdot a b : rotation a -> rotation b ->
  cos_angle a b = 2 * qdot (pr_quaternion_from_matrix a) (pr_quaternion_from_matrix b) ^ 2 - 1.
Proof.
  intros Ha Hb. destruct (quaternion_from_matrix_correct _ Ha) as [Ua Ea].
  destruct (quaternion_from_matrix_correct _ Hb) as [Ub Eb].
  pose proof (trace_between _ _ Ua Ub) as T. cbv zeta in T. rewrite Ea, Eb in T. exact T.
Qed.

Lemma relative_rigid y : proper y -> is_rigid (relative y).
Proof. intros H. apply is_rigid_mul; [apply is_rigid_invert, left_rigid|apply right_rigid]; auto. Qed.

(** A normalised mix of two unit quaternions in the same half space lies between them. *)
Lemma mix_between a b u : unit_quat a -> unit_quat b -> 0 < qdot a b -> 0 <= u <= 1 ->
  let q := pr_check_quaternion (q_mix u a b) in
  unit_quat q /\ qdot a b <= qdot a q /\ qdot a b <= qdot b q.
Proof.
  intros Ha Hb Hd Hu q.
  assert (Hd1 : qdot a b <= 1).
  { pose proof (qdot_range a b Ha Hb) as H. pose proof (Rle_abs (qdot a b)). lra. }
  assert (En : n2 (q_mix u a b) = (1 - u) ^ 2 + 2 * u * (1 - u) * qdot a b + u ^ 2).
  { unfold unit_quat in *. unfold n2, q_mix, qdot. cbn [qw qx qy qz].
    transitivity ((1 - u) ^ 2 * (qw a ^ 2 + qx a ^ 2 + qy a ^ 2 + qz a ^ 2)
      + 2 * u * (1 - u) * (qw a * qw b + qx a * qx b + qy a * qy b + qz a * qz b)
      + u ^ 2 * (qw b ^ 2 + qx b ^ 2 + qy b ^ 2 + qz b ^ 2)); [ring|]. rewrite Ha, Hb. ring. }
  assert (Hu2 : 0 <= u * (1 - u)) by nra.
  assert (N0 : 0 < n2 (q_mix u a b)).
  { rewrite En. destruct (Rle_dec u (1/2)); nra. }
  assert (N1 : n2 (q_mix u a b) <= 1) by (rewrite En; nra).
  set (N := q_norm (q_mix u a b)).
  assert (EN : N = sqrt (n2 (q_mix u a b))) by apply q_norm_n2.
  assert (P0 : 0 < N) by (rewrite EN; now apply sqrt_lt_R0).
  assert (P1 : N <= 1) by (rewrite EN, <- sqrt_1; now apply sqrt_le_1_alt).
  assert (Eq : q = q_divs (q_mix u a b) N).
  { unfold q, pr_check_quaternion. fold N. destruct (Req_EM_T N 0); [lra|reflexivity]. }
  rewrite Eq. split; [apply normalised_unit; lra|].
  assert (G : forall x, qdot a b <= x -> qdot a b <= x / N).
  { intros x Hx. apply (Rmult_le_reg_r N); auto. replace (x / N * N) with x by (field; lra). nra. }
  split.
  - replace (qdot a (q_divs (q_mix u a b) N)) with (((1 - u) + u * qdot a b) / N).
    + apply G. nra.
    + unfold unit_quat in Ha. unfold qdot, q_divs, q_mix. cbn [qw qx qy qz].
      transitivity (((1 - u) * (qw a ^ 2 + qx a ^ 2 + qy a ^ 2 + qz a ^ 2)
        + u * (qw a * qw b + qx a * qx b + qy a * qy b + qz a * qz b)) / N); [rewrite Ha|]; field; lra.
  - replace (qdot b (q_divs (q_mix u a b) N)) with (((1 - u) * qdot a b + u) / N).
    + apply G. nra.
    + unfold unit_quat in Hb. unfold qdot, q_divs, q_mix. cbn [qw qx qy qz].
      transitivity (((1 - u) * (qw a * qw b + qx a * qx b + qy a * qy b + qz a * qz b)
        + u * (qw b ^ 2 + qx b ^ 2 + qy b ^ 2 + qz b ^ 2)) / N); [rewrite Hb|]; field; lra.
Qed.

Lemma q_plus_zero q o : orientation_of 3 o = Q4 0 0 0 0 -> q_plus q (orientation_of 3 o) = q.
Proof. intros ->. destruct q. apply quat_eq; cbn; ring. Qed.

(** Between two samples whose relative orientations differ by less than a quarter turn
    from no rotation, the coupling term asks for a relative pose between the two demonstrated relative
    poses: the position is interpolated linearly and the orientation is not further away
    from the two orientations than they are from each other. *)
Theorem C126_between : forall sp cp co n T Y offset dt j u,
  (forall a b, (a < b)%nat -> (b < n)%nat -> T a < T b) -> (S j < n)%nat -> 0 <= u <= 1 ->
  proper (Y j) -> proper (Y (S j)) -> orientation_of 3 offset = Q4 0 0 0 0 ->
  let a := relative (Y j) in let b := relative (Y (S j)) in
  0 < cos_angle m3_one (r_rot a) -> 0 < cos_angle m3_one (r_rot b) ->
  let t := (1 - u) * T j + u * T (S j) in
  exists D, is_rigid D
    /\ (forall y yd, trajectory_coupling sp cp co n T Y offset dt t y yd = (t + dt, pose_coupling sp cp co D y yd))
    /\ r_pos D = v3_add (v3_add (v3_scale (1 - u) (r_pos a)) (v3_scale u (r_pos b))) (entries 0 offset)
    /\ cos_angle (r_rot a) (r_rot b) <= cos_angle (r_rot a) (r_rot D)
    /\ cos_angle (r_rot a) (r_rot b) <= cos_angle (r_rot b) (r_rot D).
Proof.
  intros sp cp co n T Y offset dt j u HT Hj Hu Hp Hp' Ho a b Wa Wb t.
  pose proof (relative_rigid _ Hp) as Ra. fold a in Ra. pose proof (relative_rigid _ Hp') as Rb. fold b in Rb.
  unfold is_rigid in *.
  destruct (quaternion_from_matrix_correct _ Ra) as [Ua Ea]. destruct (quaternion_from_matrix_correct _ Rb) as [Ub Eb].
  set (qa := pr_quaternion_from_matrix (r_rot a)) in *. set (qb := pr_quaternion_from_matrix (r_rot b)) in *.
  assert (W : forall q, unit_quat q -> 0 < cos_angle m3_one (matrix_of_unit q) ->
    pr_quaternion_from_matrix (matrix_of_unit q) = q -> 1/2 < qw q ^ 2 /\ 0 < qw q).
  { intros q Uq Hq Fq. assert (Hw : 1/2 < qw q ^ 2).
    { unfold cos_angle, m3_trace in Hq. destruct q as [w x y z]. unfold unit_quat in Uq. cbn in *. lra. }
    split; auto. rewrite <- Fq. unfold pr_quaternion_from_matrix.
    assert (Ht : 0 < m3_trace (matrix_of_unit q)).
    { unfold m3_trace. destruct q as [w x y z]. unfold unit_quat in Uq. cbn in *. lra. }
    cbv zeta. destruct (Rlt_dec 0 _); [|contradiction]. cbn [qw].
    pose proof (sqrt_lt_R0 (1 + m3_trace (matrix_of_unit q)) ltac:(lra)). lra. }
  destruct (W qa) as [Wa2 Wa0]; [auto|now rewrite Ea|now rewrite Ea|].
  destruct (W qb) as [Wb2 Wb0]; [auto|now rewrite Eb|now rewrite Eb|].
  assert (Hd : 0 < qdot qa qb).
  { clearbody qa qb. clear - Ua Ub Wa2 Wa0 Wb2 Wb0. unfold unit_quat, qdot in *.
    destruct qa as [w x y z], qb as [w' x' y' z']. cbn [qw qx qy qz] in *.
    assert (L : (x * x' + y * y' + z * z') ^ 2 <= (x ^ 2 + y ^ 2 + z ^ 2) * (x' ^ 2 + y' ^ 2 + z' ^ 2)).
    { assert (0 <= (x * y' - y * x') ^ 2 + (x * z' - z * x') ^ 2 + (y * z' - z * y') ^ 2)
        by (pose proof (pow2_ge_0 (x * y' - y * x')); pose proof (pow2_ge_0 (x * z' - z * x'));
            pose proof (pow2_ge_0 (y * z' - z * y')); lra). lra. }
    set (v := x * x' + y * y' + z * z') in *.
    assert (Q : v ^ 2 < (w * w') ^ 2).
    { assert (A : x ^ 2 + y ^ 2 + z ^ 2 = 1 - w ^ 2) by lra. assert (B : x' ^ 2 + y' ^ 2 + z' ^ 2 = 1 - w' ^ 2) by lra.
      rewrite A, B in L. replace ((w * w') ^ 2) with (w ^ 2 * w' ^ 2) by ring. nra. }
    assert (P : 0 < w * w') by (now apply Rmult_lt_0_compat).
    replace (w * w' + x * x' + y * y' + z * z') with (w * w' + v) by (unfold v; ring).
    destruct (Rlt_dec 0 (w * w' + v)) as [|C]; auto. exfalso. nra. }
  destruct (mix_between qa qb u Ua Ub Hd Hu) as (Um & M1 & M2).
  set (q := pr_check_quaternion (q_mix u qa qb)) in *.
  assert (Rq : rotation (matrix_of_unit q)) by now apply matrix_rotation.
  exists (Rigid (matrix_of_unit q) (v3_add (v3_add (v3_scale (1 - u) (r_pos a)) (v3_scale u (r_pos b))) (entries 0 offset))).
  split; [exact Rq|]. split; [|split; [reflexivity|]].
  - intros y yd. unfold t. rewrite desired_pose by auto. rewrite q_plus_zero by auto. reflexivity.
  - cbn [r_rot].
    assert (C : forall x z, unit_quat x -> unit_quat z -> cos_angle (matrix_of_unit x) (matrix_of_unit z) = 2 * qdot x z ^ 2 - 1).
    { intros x z Ux Uz. exact (trace_between x z Ux Uz). }
    rewrite <- Ea, <- Eb, !C by auto. split; nra.
Qed.

(** At the time of a sample, an offset of the position is added to the demonstrated
    relative position. *)
Theorem C126_offset_position : forall sp cp co n T Y offset dt j y yd,
  (2 <= n)%nat -> (forall a b, (a < b)%nat -> (b < n)%nat -> T a < T b) -> (forall k, (k < n)%nat -> proper (Y k)) ->
  (j < n)%nat -> proper y -> orientation_of 3 offset = Q4 0 0 0 0 ->
  r_rot (relative y) = r_rot (relative (Y j)) ->
  r_pos (relative y) = v3_add (r_pos (relative (Y j))) (entries 0 offset) ->
  let '(t', (cd, _)) := trajectory_coupling sp cp co n T Y offset dt (T j) y yd in
  t' = T j + dt
  /\ entries 0 cd = v3_zero /\ entries 3 cd = v3_zero /\ entries 6 cd = v3_zero /\ entries 9 cd = v3_zero.
Proof.
  intros sp cp co n T Y offset dt j y yd Hn HT HY Hj Hp Ho Hr Hv.
  pose proof (HY j Hj) as Hpj. pose proof (relative_rigid _ Hpj) as Rj.
  destruct (quaternion_from_matrix_correct _ Rj) as [U E].
  assert (Et : trajectory_coupling sp cp co n T Y offset dt (T j) y yd
    = (T j + dt, pose_coupling sp cp co (relative y) y yd)).
  { assert (Er : Rigid (r_rot (relative (Y j))) (v3_add (r_pos (relative (Y j))) (entries 0 offset)) = relative y).
    { rewrite <- Hr, <- Hv. now destruct (relative y). }
    rewrite <- Er. destruct j as [|j].
    - pose proof (desired_pose sp cp co n T Y offset dt 0 0 y yd HT ltac:(lia) ltac:(lra) Hpj (HY 1%nat ltac:(lia))) as D.
      cbv zeta in D. replace ((1 - 0) * T 0%nat + 0 * T 1%nat) with (T 0%nat) in D by ring.
      rewrite D, q_plus_zero by auto.
      match goal with |- context [q_mix 0 ?a ?b] => replace (q_mix 0 a b) with a by (apply quat_eq; cbn; ring) end.
      rewrite pr_matrix_unit, E by auto.
      match goal with |- context [v3_add (v3_scale (1 - 0) ?a) (v3_scale 0 ?b)] =>
        replace (v3_add (v3_scale (1 - 0) a) (v3_scale 0 b)) with a by (apply v3_eq; cbn; ring) end.
      reflexivity.
    - pose proof (desired_pose sp cp co n T Y offset dt j 1 y yd HT Hj ltac:(lra) (HY j ltac:(lia)) Hpj) as D.
      cbv zeta in D. replace ((1 - 1) * T j + 1 * T (S j)) with (T (S j)) in D by ring.
      rewrite D, q_plus_zero by auto.
      match goal with |- context [q_mix 1 ?a ?b] => replace (q_mix 1 a b) with b by (apply quat_eq; cbn; ring) end.
      rewrite pr_matrix_unit, E by auto.
      match goal with |- context [v3_add (v3_scale (1 - 1) ?a) (v3_scale 1 ?b)] =>
        replace (v3_add (v3_scale (1 - 1) a) (v3_scale 1 b)) with b by (apply v3_eq; cbn; ring) end.
      reflexivity. }
  rewrite Et. pose proof (C43_at_rest sp cp co (relative y) y yd (relative_rigid y Hp) Hp) as H.
  destruct (pose_coupling sp cp co (relative y) y yd) as [cd cdd]. split; [reflexivity|].
  destruct H as (H & _); [now apply relative_pose|exact H].
Qed.

Lemma check_angle a q : unit_quat a -> n2 q <> 0 ->
  cos_angle (matrix_of_unit a) (pr_matrix_from_quaternion q) = 2 * qdot a q ^ 2 / n2 q - 1.
Proof.
  intros Ha Hq. unfold pr_matrix_from_quaternion, pr_check_quaternion.
  assert (N : 0 < q_norm q) by (rewrite q_norm_n2; apply sqrt_lt_R0; pose proof (n2_nonneg q); lra).
  destruct (Req_EM_T (q_norm q) 0) as [C|_]; [lra|].
  pose proof (trace_between a _ Ha (normalised_unit q Hq)) as E. cbv zeta in E. unfold cos_angle, m3_trace. rewrite E.
  assert (Q : qdot a (q_divs q (q_norm q)) = qdot a q / q_norm q) by (unfold qdot, q_divs; cbn; field; lra).
  assert (N2 : q_norm q ^ 2 = n2 q).
  { rewrite q_norm_n2. pose proof (sqrt_sqrt (n2 q) (n2_nonneg q)). simpl. lra. }
  rewrite Q. replace ((qdot a q / q_norm q) ^ 2) with (qdot a q ^ 2 / q_norm q ^ 2) by (field; lra). rewrite N2. field. auto.
Qed.

(** Both arms at the origin, the right arm turned about the x axis. *)
Definition turned (w x : R) : vec := fun d => if Nat.eqb d 3 then 1 else if Nat.eqb d 10 then w else if Nat.eqb d 11 then x else 0.

Lemma turned_proper w x : w ^ 2 + x ^ 2 = 1 -> proper (turned w x).
Proof. intros H. unfold proper, unit_quat, orientation_of, turned. cbn [Nat.eqb Nat.add qw qx qy qz]. split; lra. Qed.

Lemma turned_relative w x : relative (turned w x) = Rigid (matrix_of_unit (Q4 w x 0 0)) v3_zero.
Proof.
  unfold relative, rigid_mul, pt_invert, left_pose, right_pose, orientation_of, turned, entries.
  cbn [Nat.eqb Nat.add r_rot r_pos]. f_equal; [apply m3_eq|apply v3_eq]; cbn; ring.
Qed.

(** With the pose "no offset" (position 0 and the quaternion of no rotation) as offset,
    the coupling term does not ask for the demonstrated relative orientation: here it
    is a quarter turn away from it. *)
Theorem C126_offset_refuted : exists Y : nat -> vec, (forall k, proper (Y k))
  /\ forall offset, entries 0 offset = v3_zero -> orientation_of 3 offset = q_one ->
  forall sp cp co dt, exists D, is_rigid D
    /\ (forall y yd, trajectory_coupling sp cp co 2 INR Y offset dt (INR 0) y yd = (INR 0 + dt, pose_coupling sp cp co D y yd))
    /\ cos_angle (r_rot (relative (Y 0%nat))) (r_rot D) = 0.
Proof.
  exists (fun _ => turned 0 1). split; [intros; apply turned_proper; ring|]. intros offset Eo1 Eo2 sp cp co dt.
  assert (Hp : proper (turned 0 1)) by (apply turned_proper; ring).
  assert (Eq : pr_quaternion_from_matrix (r_rot (relative (turned 0 1))) = Q4 0 1 0 0).
  { rewrite turned_relative. cbn [r_rot]. unfold pr_quaternion_from_matrix, m3_trace, matrix_of_unit. cbn.
    destruct (Rlt_dec 0 _); [lra|]. destruct (Rlt_dec _ _); [|lra]. try (destruct (Rlt_dec _ _); [|lra]).
    match goal with |- context [sqrt ?x] => replace x with (2 * 2) by ring end. rewrite sqrt_square by lra.
    apply quat_eq; cbn; field. }
  eexists. split; [|split].
  2:{ intros y yd. pose proof (desired_pose sp cp co 2 INR (fun _ => turned 0 1) offset dt 0 0 y yd
        ltac:(intros; now apply lt_INR) ltac:(lia) ltac:(lra) Hp Hp) as D.
      cbv zeta in D. replace ((1 - 0) * INR 0 + 0 * INR 1) with (INR 0) in D by (simpl; ring). exact D. }
  - cbv beta. rewrite Eq, Eo2. unfold is_rigid. cbn [r_rot].
    match goal with |- context [pr_matrix_from_quaternion ?q] => set (q0 := q) end.
    assert (N : n2 q0 <> 0) by (unfold q0, n2; cbn; lra).
    unfold pr_matrix_from_quaternion, pr_check_quaternion.
    destruct (Req_EM_T (q_norm q0) 0) as [C|_]; [|now apply matrix_rotation, normalised_unit].
    rewrite q_norm_n2 in C. apply sqrt_eq_0 in C; [contradiction|apply n2_nonneg].
  - cbv beta. rewrite Eq, Eo2. cbn [r_rot]. rewrite turned_relative. cbn [r_rot].
    rewrite check_angle.
    + unfold qdot, n2. cbn. field.
    + unfold unit_quat. cbn. ring.
    + unfold n2. cbn. lra.
Qed.

(** Between two demonstrated relative orientations that are close to each other, the
    coupling term can ask for an orientation that is almost a half turn away from both:
    the quaternions are interpolated although they have opposite signs. *)
Theorem C126_sign_refuted : exists Y : nat -> vec, (forall k, proper (Y k))
  /\ cos_angle (r_rot (relative (Y 0%nat))) (r_rot (relative (Y 1%nat))) > 95/100
  /\ forall sp cp co dt, exists D, is_rigid D
    /\ (forall y yd, trajectory_coupling sp cp co 2 INR Y vzero dt (1/2) y yd = (1/2 + dt, pose_coupling sp cp co D y yd))
    /\ cos_angle (r_rot (relative (Y 0%nat))) (r_rot D) < -98/100
    /\ cos_angle (r_rot (relative (Y 1%nat))) (r_rot D) < -98/100.
Proof.
  pose (Y := fun k : nat => match k with O => turned (3/5) (-4/5) | _ => turned (8/17) (-15/17) end).
  exists Y. assert (HY : forall k, proper (Y k)) by (intros [|k]; apply turned_proper; field).
  split; [exact HY|].
  assert (R0 : relative (Y 0%nat) = Rigid (matrix_of_unit (Q4 (3/5) (-4/5) 0 0)) v3_zero) by apply turned_relative.
  assert (R1 : relative (Y 1%nat) = Rigid (matrix_of_unit (Q4 (8/17) (-15/17) 0 0)) v3_zero) by apply turned_relative.
  assert (E0 : pr_quaternion_from_matrix (r_rot (relative (Y 0%nat))) = Q4 (3/5) (-4/5) 0 0).
  { rewrite R0. cbn [r_rot]. unfold pr_quaternion_from_matrix, m3_trace, matrix_of_unit. cbn.
    destruct (Rlt_dec 0 _) as [_|C]; [|lra].
    match goal with |- context [sqrt ?x] => replace x with (6/5 * (6/5)) by field end. rewrite sqrt_square by lra.
    apply quat_eq; cbn; field. }
  assert (E1 : pr_quaternion_from_matrix (r_rot (relative (Y 1%nat))) = Q4 (-8/17) (15/17) 0 0).
  { rewrite R1. cbn [r_rot]. unfold pr_quaternion_from_matrix, m3_trace, matrix_of_unit. cbn.
    destruct (Rlt_dec 0 _); [lra|]. destruct (Rlt_dec _ _); [|lra]. try (destruct (Rlt_dec _ _); [|lra]).
    match goal with |- context [sqrt ?x] => replace x with (30/17 * (30/17)) by field end. rewrite sqrt_square by lra.
    apply quat_eq; cbn; field. }
  split.
  { rewrite R0, R1. cbn [r_rot].
    pose proof (trace_between (Q4 (3/5) (-4/5) 0 0) (Q4 (8/17) (-15/17) 0 0)) as T. cbv zeta in T.
    unfold cos_angle, m3_trace. rewrite T; unfold qdot, unit_quat; cbn; lra. }
  intros sp cp co dt. eexists. split; [|split].
  2:{ intros y yd. pose proof (desired_pose sp cp co 2 INR Y vzero dt 0 (1/2) y yd
        ltac:(intros; now apply lt_INR) ltac:(lia) ltac:(lra) (HY _) (HY _)) as D.
      cbv zeta in D. replace ((1 - 1/2) * INR 0 + 1/2 * INR 1) with (1/2) in D by (simpl; field). exact D. }
  - cbv beta. rewrite E0, E1. unfold is_rigid. cbn [r_rot].
    match goal with |- context [pr_matrix_from_quaternion ?q] => set (q0 := q) end.
    assert (N : n2 q0 <> 0) by (unfold q0, n2, vzero; cbn; lra).
    unfold pr_matrix_from_quaternion, pr_check_quaternion.
    destruct (Req_EM_T (q_norm q0) 0) as [C|_]; [|now apply matrix_rotation, normalised_unit].
    rewrite q_norm_n2 in C. apply sqrt_eq_0 in C; [contradiction|apply n2_nonneg].
  - cbv beta. rewrite E0, E1. cbn [r_rot]. rewrite R0, R1. cbn [r_rot].
    match goal with |- context [pr_matrix_from_quaternion ?q] => set (q0 := q) end.
    assert (N : n2 q0 = 170 / 28900) by (unfold q0, n2, vzero; cbn; field).
    rewrite !check_angle by (rewrite ?N; unfold unit_quat; cbn; lra). rewrite N.
    split; unfold q0, qdot, vzero; cbn; lra.
Qed.

(** A movement with 100 steps, each of which consists of ten integration steps, and a
    coupling term with the length of the integration steps; a demonstration with two
    relative orientations that are less than a quarter turn. *)
Example C126_satisfiable : exists o, dual_reachable o /\ o_dt o = 1/100 /\ o_int_dt o = 1/1000
  /\ takes 10 (o_dt o) (o_int_dt o) /\ o_dt o = INR 10 * (1/1000) /\ p_t (o_base o) = 0
  /\ proper (turned (4/5) (3/5)) /\ proper (turned (12/13) (-5/13))
  /\ 0 < cos_angle m3_one (r_rot (relative (turned (4/5) (3/5))))
  /\ 0 < cos_angle m3_one (r_rot (relative (turned (12/13) (-5/13)))).
Proof.
  destruct (dual_example 1 (1/100) (1/1000) 0 false (fun _ => 1) (fun _ => 1) at_origin at_origin)
    as (o & Hr & E1 & E2 & E3 & E4 & E5 & E6 & E7 & E8 & E9 & E10 & E11 & _); [lra|].
  exists o. rewrite E2, E3, E11. repeat split; auto; try (apply turned_proper; field).
  - unfold takes. simpl. lra.
  - simpl. lra.
  - simpl. lra.
  - rewrite turned_relative. unfold cos_angle, m3_trace. cbn. lra.
  - rewrite turned_relative. unfold cos_angle, m3_trace. cbn. lra.
Qed.
