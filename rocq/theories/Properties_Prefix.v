(** C132: a longer run begins with the shorter one.  Final statements. *)
From Coq Require Import Reals ZArith List Arith Lia Lra.
From Verif Require Import M_Prelude M_Canonical M_Forcing M_Dmp M_Base M_Matrix M_DmpObject M_FinalVelocity
  M_Quaternion M_SpringDamper M_StateFollowing M_Cartesian M_Dual S_Loops S_Dmp P_Loops P_DmpStep P_DualObject
  P_DmpObject Properties_DmpObject Properties_FinalVelocity Properties_SpringDamper Properties_SpringOde
  Properties_StateFollowing Properties_CartesianObject Properties_DualObject Properties_DualExamples
  Properties_SpringHistory Properties_DualRuns.
Import ListNotations.
Open Scope R_scope.
Set Bullet Behavior "Strict Subproofs".

(** ** Specification *)
(** The run [long] is the run [short], which ends at the time [a], continued: whenever
    [long] is returned, so is [short], with one row for each time; the first rows of
    [long] are the rows of [short], and all other rows of [long] belong to times that
    are at least one period later than [a]. *)
Definition continues {A} (a dt : R) (short long : res (list R * list A)) : Prop :=
  forall ts' ys', long = Ok (ts', ys') ->
  exists ts ys later_ts later_ys,
    short = Ok (ts, ys) /\ length ys = length ts
    /\ ts' = ts ++ later_ts /\ ys' = ys ++ later_ys
    /\ (forall t, In t later_ts -> a + dt <= t).

(** The time at which a run ends: [run_t], or the execution time. *)
Definition end_of (execution_time : R) (run_t : option R) : R :=
  match run_t with Some x => x | None => execution_time end.

(** ** Proofs *)
Lemma arange_len_mono a b dt : 0 < dt -> - dt < a -> a <= b ->
  (arange_len 0 (a + dt) dt <= arange_len 0 (b + dt) dt)%nat.
Proof.
  intros Hdt Ha Hab.
  destruct (arange_len_spec 0 (a + dt) dt Hdt ltac:(lra)) as (_ & H1 & _).
  destruct (arange_len_spec 0 (b + dt) dt Hdt ltac:(lra)) as (_ & _ & H2).
  assert (H : INR (arange_len 0 (a + dt) dt) - 1 < INR (arange_len 0 (b + dt) dt)).
  { apply Rmult_lt_reg_r with dt; lra. }
  assert (H' : INR (arange_len 0 (a + dt) dt) < INR (S (arange_len 0 (b + dt) dt))) by (rewrite S_INR; lra).
  apply INR_lt in H'. lia.
Qed.

Lemma arange_split a b dt : 0 < dt -> - dt < a -> a <= b ->
  exists later, arange 0 (b + dt) dt = arange 0 (a + dt) dt ++ later
    /\ forall t, In t later -> a + dt <= t.
Proof.
  intros Hdt Ha Hab. pose proof (arange_len_mono a b dt Hdt Ha Hab) as Hl.
  destruct (arange_len_spec 0 (a + dt) dt Hdt ltac:(lra)) as (_ & _ & H2).
  set (n := arange_len 0 (a + dt) dt) in *. set (m := arange_len 0 (b + dt) dt) in *.
  exists (map (fun i => 0 + INR i * dt) (seq n (m - n))). split.
  - unfold arange. fold n m. rewrite <- map_app. f_equal.
    replace m with (n + (m - n))%nat at 1 by lia. now rewrite seq_app.
  - intros t Ht. apply in_map_iff in Ht. destruct Ht as (i & <- & Hi). apply in_seq in Hi.
    assert (INR n <= INR i) by (apply le_INR; lia). nra.
Qed.

Lemma run_steps_app {A} (step : R -> R -> A -> res A) ts2 : forall ts1 t s l,
  run_steps step t (ts1 ++ ts2) s = Ok l ->
  exists l1 l2, run_steps step t ts1 s = Ok l1 /\ length l1 = length ts1 /\ l = l1 ++ l2.
Proof.
  induction ts1 as [|t1 ts1 IH]; intros t s l E.
  - exists [], l. auto.
  - cbn [app run_steps] in *. destruct (step t t1 s) as [s1|]; [|discriminate]. cbn [bind] in *.
    destruct (run_steps step t1 (ts1 ++ ts2) s1) as [l'|] eqn:E1; [|discriminate]. cbn [bind] in E.
    destruct (IH _ _ _ E1) as (l1 & l2 & -> & Hl & ->). cbn [bind].
    exists (s1 :: l1), l2. split; [reflexivity|]. cbn. split; congruence.
Qed.

Lemma grid_continues {A} (step : R -> R -> A -> res A) a b dt s : 0 < dt -> - dt < a -> a <= b ->
  continues a dt (run_on_grid step 0 a dt s) (run_on_grid step 0 b dt s).
Proof.
  intros Hdt Ha Hab ts' ys' E. unfold run_on_grid in *.
  destruct (arange_split a b dt Hdt Ha Hab) as (later & Es & Hlater). rewrite Es in E.
  destruct (arange 0 (a + dt) dt) as [|t0 ts] eqn:Ea.
  { destruct (arange_len_spec 0 (a + dt) dt Hdt ltac:(lra)) as (Hp & _).
    rewrite <- arange_length, Ea in Hp. cbn in Hp. lia. }
  cbn [app] in E. destruct (run_steps step t0 (ts ++ later) s) as [l|] eqn:E1; [|discriminate].
  cbn [bind] in E. destruct (run_steps_app _ _ _ _ _ _ E1) as (l1 & l2 & -> & Hl & ->).
  cbn [bind]. exists (t0 :: ts), (s :: l1), later, l2.
  assert (ts' = t0 :: ts ++ later) as -> by congruence. assert (ys' = s :: l1 ++ l2) as -> by congruence.
  split; [reflexivity|]. cbn. repeat split; auto.
Qed.

Lemma grid_times {A} (step : R -> R -> A -> res A) t0 rt dt s ts l :
  run_on_grid step t0 rt dt s = Ok (ts, l) -> ts = arange t0 (rt + dt) dt.
Proof.
  intros H. unfold run_on_grid in H. destruct (arange _ _ _) as [|u us]; [discriminate|].
  destruct (run_steps _ _ _ _); [|discriminate]. cbn [bind] in H. congruence.
Qed.

Lemma open_loop_run_grid step a b c y v : open_loop_run step a b c y v = run_on_grid step a b c (y, v).
Proof. reflexivity. Qed.

Lemma continues_rows {A B} (f : A -> B) a dt short long : continues a dt short long ->
  continues a dt (bind short (fun r => Ok (fst r, map f (snd r)))) (bind long (fun r => Ok (fst r, map f (snd r)))).
Proof.
  intros H ts' ys' E. destruct long as [[ts1 ys1]|]; [|discriminate]. cbn [bind fst snd] in E.
  destruct (H _ _ eq_refl) as (ts & ys & lt & ly & -> & Hl & -> & -> & Hlt).
  cbn [bind fst snd]. exists ts, (map f ys), lt, (map f ly).
  assert (ts' = ts ++ lt) as -> by congruence. assert (ys' = map f (ys ++ ly)) as -> by congruence.
  rewrite map_length, map_app. auto.
Qed.

Lemma continues_rmap {A B} (f : A -> B) a dt short long : continues a dt short long ->
  continues a dt (rmap (fun r => (fst r, map f (snd r))) short) (rmap (fun r => (fst r, map f (snd r))) long).
Proof. exact (continues_rows f a dt short long). Qed.

Lemma combine_app_same {A B} : forall (l1 : list A) (m1 : list B) l2 m2, length l1 = length m1 ->
  combine (l1 ++ l2) (m1 ++ m2) = combine l1 m1 ++ combine l2 m2.
Proof. induction l1; destruct m1; cbn; intros; try discriminate; auto. rewrite IHl1; auto. Qed.

Lemma sf_loop_continues a dt ra rb : 0 < dt -> ra <= rb -> forall fb fa t s ts' l',
  (ra - t) / dt <= INR fa ->
  sf_loop fb a dt rb t s = Ok (ts', l') ->
  exists ts l lts ll, sf_loop fa a dt ra t s = Ok (ts, l) /\ length l = length ts
    /\ ts' = ts ++ lts /\ l' = l ++ ll /\ (forall t, In t lts -> ra + dt <= t).
Proof.
  intros Hdt Hab. induction fb as [|fb IH]; intros fa t s ts' l' Hf E.
  - cbn [sf_loop] in E. destruct (Rlt_dec t rb); [discriminate|].
    assert (ts' = []) as -> by congruence. assert (l' = []) as -> by congruence.
    exists [], [], [], []. repeat split; [|intros ? []].
    destruct fa; cbn [sf_loop]; destruct (Rlt_dec t ra); auto; lra.
  - destruct (Rlt_dec t ra) as [Hlt|Hge].
    + destruct fa as [|fa].
      { exfalso. cbn in Hf. unfold Rdiv in Hf. pose proof (Rinv_0_lt_compat dt Hdt). nra. }
      cbn [sf_loop] in *. destruct (Rlt_dec t rb); [|lra]. destruct (Rlt_dec t ra); [|lra].
      destruct (sf_step_fn a t (t + dt) s) as [s1|]; [|discriminate]. cbn [bind] in *.
      destruct (sf_loop fb a dt rb (t + dt) s1) as [[ts1 l1]|] eqn:E1; [|discriminate]. cbn [bind fst snd] in E.
      destruct (IH fa (t + dt) s1 ts1 l1) as (ts & l & lts & ll & -> & Hl & -> & -> & Hlt').
      { rewrite S_INR in Hf. replace ((ra - (t + dt)) / dt) with ((ra - t) / dt - 1) by (field; lra). lra. }
      { exact E1. }
      cbn [bind fst snd]. exists ((t + dt) :: ts), (s1 :: l), lts, ll. split; [reflexivity|].
      split; [cbn; congruence|]. split; [cbn; congruence|]. split; [cbn; congruence|exact Hlt'].
    + exists [], [], ts', l'. repeat split.
      * destruct fa; cbn [sf_loop]; destruct (Rlt_dec t ra); auto; lra.
      * intros u Hu. destruct (sf_loop_spec _ _ _ _ _ _ _ _ E) as (_ & Hs & _).
        destruct (In_nth_error _ _ Hu) as (k & Hk).
        destruct (Hs k) as (Hk' & _); [apply nth_error_Some; congruence|].
        assert (Eu : u = t + INR (S k) * dt) by congruence. rewrite Eu, S_INR. pose proof (pos_INR k). nra.
Qed.

Lemma up_enough x : x <= INR (Z.to_nat (up x)).
Proof.
  destruct (archimed x) as [H _]. destruct (Z_le_dec 0 (up x)) as [Hz|Hz].
  - rewrite INR_IZR_INZ, Z2Nat.id by lia. lra.
  - pose proof (pos_INR (Z.to_nat (up x))). assert (IZR (up x) <= 0) by (apply IZR_le; lia). lra.
Qed.

Lemma dual_go_continues {CS} ra rb (ct : option (stateful_coupling CS)) i : ra <= rb ->
  forall fb fa y yd cs o o' cs' ts' ys', dual_shapes o -> 0 < o_dt o ->
  ra <= p_t (o_base o) + INR fa * o_dt o ->
  dual_open_loop_go fb rb ct i y yd cs o = (o', cs', Ok (ts', ys')) ->
  exists o1 cs1 ts ys lts lys, dual_open_loop_go fa ra ct i y yd cs o = (o1, cs1, Ok (ts, ys))
    /\ length ys = length ts /\ ts' = ts ++ lts /\ ys' = ys ++ lys /\ (forall t, In t lts -> ra + o_dt o <= t).
Proof.
  intros Hab. induction fb as [|fb IH]; intros fa y yd cs o o' cs' ts' ys' Hs Hdt Hf E.
  - cbn [dual_open_loop_go] in E. destruct (Rlt_dec _ _); [discriminate|]. injection E as <- <- <- <-.
    exists o, cs, [], [], [], []. repeat split; [|intros ? []].
    destruct fa; cbn [dual_open_loop_go]; destruct (Rlt_dec _ _); auto; lra.
  - destruct (Rlt_dec (p_t (o_base o)) ra) as [Hlt|Hge].
    + destruct fa as [|fa]; [cbn in Hf; lra|].
      cbn [dual_open_loop_go] in *. destruct (Rlt_dec _ rb); [|lra]. destruct (Rlt_dec _ ra); [|lra].
      destruct (dual_step y yd ct i cs o) as [[o1 cs1] [[y1 yd1]|e]] eqn:E1; [|discriminate].
      destruct (dual_step_ok _ _ _ _ _ _ _ _ _ _ E1 Hs) as (L1 & L2 & Ef & L3 & L4 & Hp & Ht & _ & _ & _ & Hs1).
      destruct (dual_open_loop_go fb rb ct i y1 yd1 cs1 o1) as [[o2 cs2] [[ts1 ys1]|e]] eqn:E2; [|discriminate].
      injection E as <- <- <- <-. pose proof Hp as (A1 & A2 & _).
      destruct (IH fa y1 yd1 cs1 o1 o2 cs2 ts1 ys1 Hs1) as (o3 & cs3 & ts & ys & lts & lys & -> & Hl & -> & -> & Hlt').
      { now rewrite A2. }
      { rewrite Ht, A2. rewrite S_INR in Hf. lra. }
      { exact E2. }
      exists o3, cs3, (p_t (o_base o1) :: ts), (y1 :: ys), lts, lys. split; [reflexivity|].
      split; [cbn; congruence|]. split; [reflexivity|]. split; [reflexivity|].
      intros u Hu. rewrite <- A2. auto.
    + exists o, cs, [], [], ts', ys'. repeat split.
      * destruct fa; cbn [dual_open_loop_go]; destruct (Rlt_dec _ ra); auto; lra.
      * intros u Hu. destruct (dual_go_spec _ _ _ _ _ _ _ _ _ _ _ _ Hs E) as (_ & Hn & _).
        destruct (In_nth _ _ 0 Hu) as (k & Hk & Eu). destruct (Hn k Hk) as (Hk' & _).
        rewrite Eu in Hk'. rewrite Hk', S_INR. pose proof (pos_INR k). nra.
Qed.

(** ** C132 *)
(** DMP. *)
Theorem C132_dmp : forall ra rb c fn o, 0 < o_dt o ->
  - o_dt o < end_of (o_execution_time o) ra <= end_of (o_execution_time o) rb ->
  continues (end_of (o_execution_time o) ra) (o_dt o) (dmp_open_loop ra c fn o) (dmp_open_loop rb c fn o).
Proof.
  intros ra rb c fn o Hdt [H1 H2]. destruct fn as [fn|]; [|intros ts' ys' E; discriminate].
  unfold dmp_open_loop. cbv zeta. apply continues_rows. rewrite !open_loop_run_grid.
  now apply grid_continues.
Qed.

(** DMPWithFinalVelocity. *)
Theorem C132_final_velocity : forall ra rb c o, 0 < o_dt o ->
  - o_dt o < end_of (o_execution_time o) ra <= end_of (o_execution_time o) rb ->
  continues (end_of (o_execution_time o) ra) (o_dt o) (fv_open_loop ra c o) (fv_open_loop rb c o).
Proof.
  intros ra rb c o Hdt [H1 H2]. unfold fv_open_loop. cbv zeta. apply continues_rows.
  rewrite !open_loop_run_grid. now apply grid_continues.
Qed.

(** CartesianDMP: the poses. *)
Theorem C132_cartesian : forall ra rb c fn i o, 0 < k_dt o ->
  - k_dt o < end_of (k_execution_time o) ra <= end_of (k_execution_time o) rb ->
  continues (end_of (k_execution_time o) ra) (k_dt o) (cart_open_loop ra c fn i o) (cart_open_loop rb c fn i o).
Proof.
  intros ra rb c fn i o Hdt [H1 H2] ts' ys' E. unfold cart_open_loop in *.
  destruct fn as [fn|]; [|discriminate]. cbv zeta in *.
  fold (end_of (k_execution_time o) ra) (end_of (k_execution_time o) rb) in *.
  rewrite open_loop_run_grid in *. unfold q_open_loop in *.
  destruct (run_on_grid (run_step_function fn (cart_pos_open_args o c)) 0 (end_of (k_execution_time o) rb) (k_dt o)
    (a_start_y (cart_pos_open_args o c), vzero)) as [[tp yp]|] eqn:Ep; [|discriminate]. cbn [bind] in E.
  destruct i as [i|]; [|discriminate].
  replace (g_start_t (cart_rot_open_args o c)) with 0 in * by reflexivity.
  destruct (run_on_grid (q_step i (cart_rot_open_args o c)) 0 (end_of (k_execution_time o) rb) (k_dt o)
    (g_start_y (cart_rot_open_args o c), v3_zero)) as [[tr yr]|] eqn:Er; [|discriminate].
  cbn [bind fst snd] in E.
  destruct (grid_continues _ _ _ _ _ Hdt H1 H2 _ _ Ep) as (t1 & y1 & lt1 & ly1 & Eq1 & L1 & E1 & F1 & G1).
  destruct (grid_continues _ _ _ _ _ Hdt H1 H2 _ _ Er) as (t2 & y2 & lt2 & ly2 & Eq2 & L2 & E2 & F2 & G2).
  rewrite Eq1. cbn [bind]. rewrite Eq2. cbn [bind fst snd].
  assert (Et : t1 = t2) by (rewrite (grid_times _ _ _ _ _ _ _ Eq1), (grid_times _ _ _ _ _ _ _ Eq2); reflexivity).
  subst t2.
  exists t1, (map (fun x => pose (fst (fst x)) (fst (snd x))) (combine y1 y2)), lt1,
    (map (fun x => pose (fst (fst x)) (fst (snd x))) (combine ly1 ly2)).
  split; [reflexivity|]. split; [rewrite map_length, combine_length; lia|].
  assert (ts' = tp) as -> by congruence. split; [exact E1|].
  split; [|exact G1].
  assert (ys' = map (fun x => pose (fst (fst x)) (fst (snd x))) (combine yp yr)) as -> by congruence.
  rewrite F1, F2, combine_app_same by lia. now rewrite map_app.
Qed.

(** DualCartesianDMP, with a coupling term that may have a state of its own. *)
Theorem C132_dual : forall (CS : Type) ra rb (ct : option (stateful_coupling CS)) i cs o, dual_reachable o ->
  0 < o_dt o -> end_of (o_execution_time o) ra <= end_of (o_execution_time o) rb ->
  continues (end_of (o_execution_time o) ra) (o_dt o)
    (snd (dual_open_loop ra ct i cs o)) (snd (dual_open_loop rb ct i cs o)).
Proof.
  intros CS ra rb ct i cs o Hr Hdt Hab ts' ys' E. apply dual_reachable_shapes in Hr.
  unfold dual_open_loop in *. destruct i as [i|]; [|discriminate]. cbv zeta in *.
  fold (end_of (o_execution_time o) ra) (end_of (o_execution_time o) rb) in *.
  set (o0 := with_base (set_t 0 (o_base o)) o) in *.
  destruct (dual_open_loop_go (dual_fuel (end_of (o_execution_time o) rb) (o_dt o0)) _ _ _ _ _ _ _)
    as [[o1 cs1] [[ts1 ys1]|e]] eqn:E1; [|discriminate].
  cbn [snd] in E.
  destruct (dual_go_continues _ _ _ _ Hab _ (dual_fuel (end_of (o_execution_time o) ra) (o_dt o0)) _ _ _ o0 _ _ _ _ Hr Hdt
    ltac:(cbn; rewrite Rplus_0_l; now apply dual_fuel_enough) E1)
    as (o2 & cs2 & ts & ys & lts & lys & E2 & Hl & -> & -> & Hlt).
  rewrite E2. cbn [snd]. exists (0 :: ts), (p_start_y (o_base o0) :: ys), lts, lys.
  split; [reflexivity|]. split; [cbn; congruence|]. split; [cbn in *; congruence|]. split; [cbn in *; congruence|].
  exact Hlt.
Qed.

(** StateFollowingDMP. *)
Theorem C132_state_following : forall ra rb c o, 0 < f_dt o ->
  end_of (f_execution_time o) ra <= end_of (f_execution_time o) rb ->
  continues (end_of (f_execution_time o) ra) (f_dt o) (sf_open_loop ra c o) (sf_open_loop rb c o).
Proof.
  intros ra rb c o Hdt Hab. unfold sf_open_loop. apply continues_rmap. intros ts' ys' E.
  unfold sf_open_loop_fn in *. cbv zeta in *.
  change (M_StateFollowing.sa_goal_t (sf_object_args c o)) with (f_execution_time o) in *.
  fold (end_of (f_execution_time o) ra) (end_of (f_execution_time o) rb) in *.
  destruct (sf_loop (Z.to_nat (up ((end_of (f_execution_time o) rb - _) / _))) _ _ _ _ _) as [[ts1 l1]|] eqn:E1; [|discriminate].
  cbn [bind fst snd] in E.
  destruct (sf_loop_continues _ _ _ _ Hdt Hab _
    (Z.to_nat (up ((end_of (f_execution_time o) ra - M_StateFollowing.sa_start_t (sf_object_args c o)) / f_dt o))) _ _ _ _
    ltac:(apply up_enough) E1) as (ts & l & lts & ll & E2 & Hl & -> & -> & Hlt).
  rewrite E2. cbn [bind fst snd].
  eexists _, _, lts, ll. split; [reflexivity|]. split; [cbn; congruence|].
  split; [cbn in *; congruence|]. split; [cbn in *; congruence|]. exact Hlt.
Qed.

(** SpringDamper and SpringDamperOrientation. *)
Theorem C132_spring_damper : forall a b c o, 0 < s_dt o -> - s_dt o < a <= b ->
  continues a (s_dt o) (sd_open_loop a c o) (sd_open_loop b c o).
Proof.
  intros a b c o Hdt [Ha Hab]. unfold sd_open_loop, spring_damper_open_loop.
  apply continues_rmap. rewrite !open_loop_run_grid. now apply grid_continues.
Qed.

Theorem C132_spring_damper_orientation : forall a b c o, 0 < s_dt o -> - s_dt o < a <= b ->
  continues a (s_dt o) (sdo_open_loop a c o) (sdo_open_loop b c o).
Proof.
  intros a b c o Hdt [Ha Hab]. unfold sdo_open_loop, spring_damper_open_loop_quaternion.
  apply continues_rmap. now apply grid_continues.
Qed.

(** A CartesianDMP that runs for twice its execution time, and a DualCartesianDMP: both
    runs return, and the longer one has later rows. *)
Example C132_satisfiable : exists o d ts ys d' ts' ys',
  cart_reachable o /\ 0 < k_dt o /\ - k_dt o < end_of (k_execution_time o) None <= end_of (k_execution_time o) (Some 2)
  /\ cart_open_loop (Some 2) None (Some RK4) (Some Cython) o = Ok (ts, ys)
  /\ (exists t, In t ts /\ end_of (k_execution_time o) None + k_dt o <= t)
  /\ dual_reachable d /\ 0 < o_dt d
  /\ end_of (o_execution_time d) None <= end_of (o_execution_time d) (Some 3)
  /\ dual_open_loop (CS := unit) (Some 3) None (Some Python) tt d = (d', tt, Ok (ts', ys')).
Proof.
  destruct ex_cart_ok as (o & Hr & Hx & Hdt & Hi & Hn & _).
  destruct (C69_runs_exist o None RK4 Cython (Some 2)) as (ts & ys & E); try lra.
  destruct (dual_example 1 (1/10) (1/100) 1 true (fun _ => 1) (fun _ => 1) at_origin turned)
    as (d & Gr & G1 & G2 & G3 & G4 & _); [lra|].
  destruct (C69_dual_runs_exist unit (Some 3) None tt d Gr) as [T _]; [lra|lra|].
  destruct (T Python) as (d' & [] & ts' & ys' & EE).
  exists o, d, ts, ys, d', ts', ys'. cbn [end_of].
  destruct (C69_time_grid o RK4 Cython None (Some 2) ts ys) as (L & B & Tg & D & _); auto; [lra|].
  cbv zeta in D.
  split; [auto|]. split; [lra|]. split; [lra|]. split; [exact E|]. split.
  - exists (last ts 0). split; [|lra].
    destruct ts as [|t0 ts0]; [cbn in *; lia|]. destruct (exists_last (l := t0 :: ts0)) as (l1 & x & ->); [discriminate|].
    rewrite last_last. apply in_or_app. right. now left.
  - split; [exact Gr|]. split; [lra|]. split; [lra|exact EE].
Qed.
