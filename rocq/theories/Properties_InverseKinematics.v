(** C60, C61, C72: inverse kinematics with restarts and along trajectories.

    All theorems hold for every behaviour of the numerical solver and of the random number
    generator: these are the argument [w]. *)
From Coq Require Import Reals List String Bool Arith Lia Lra.
From Verif Require Import M_Prelude M_Quaternion M_Rigid S_Rigid P_Rigid M_Kinematics Properties_Kinematics Properties_PoseError.
Import ListNotations.
Open Scope R_scope.
Set Bullet Behavior "Strict Subproofs".

(** ** The best candidate *)

(** [q] is the first of the candidates with the smallest error. *)
Definition first_best (cs : list (list R * R)) (q : list R) : Prop :=
  exists i e, nth_error cs i = Some (q, e)
  /\ (forall j q' e', nth_error cs j = Some (q', e') -> e <= e')
  /\ (forall j q' e', (j < i)%nat -> nth_error cs j = Some (q', e') -> e < e').

Lemma best_spec cs : forall q e, first_best ((q, e) :: cs) (best q e cs).
Proof.
  induction cs as [|[q1 e1] cs IH]; intros q e; cbn [best].
  - exists 0%nat, e. split; [reflexivity|]. split.
    + intros [|[|j]] q' e' E; try discriminate. injection E as _ <-. lra.
    + intros j q' e' Hj. lia.
  - destruct (Rlt_dec e1 e) as [Hlt|Hge].
    + destruct (IH q1 e1) as (i & eb & H1 & H2 & H3). exists (S i), eb. split; [exact H1|]. split.
      * intros [|j] q' e' E; [|now apply (H2 j q')]. injection E as _ <-.
        specialize (H2 0%nat q1 e1 eq_refl). lra.
      * intros [|j] q' e' Hj E; [|apply (H3 j q'); auto; lia]. injection E as _ <-.
        specialize (H2 0%nat q1 e1 eq_refl). lra.
    + destruct (IH q e) as (i & eb & H1 & H2 & H3). destruct i as [|i].
      * injection H1 as H1 <-. exists 0%nat, e. rewrite <- H1. split; [reflexivity|]. split; [|intros; lia].
        intros [|[|j]] q' e' E.
        -- injection E as _ <-. lra.
        -- injection E as _ <-. lra.
        -- now apply (H2 (S j) q').
      * exists (S (S i)), eb. split; [exact H1|]. split.
        -- intros [|[|j]] q' e' E.
           ++ injection E as _ <-. apply (H2 0%nat q e eq_refl).
           ++ injection E as _ <-. specialize (H2 0%nat q e eq_refl). lra.
           ++ now apply (H2 (S j) q').
        -- intros [|[|j]] q' e' Hj E.
           ++ injection E as _ <-. apply (H3 0%nat q e); [lia|reflexivity].
           ++ injection E as _ <-. assert (eb < e) by (apply (H3 0%nat q e); [lia|reflexivity]). lra.
           ++ apply (H3 (S j) q'); auto. lia.
Qed.

(** ** C60 *)

(** The candidates that were tried: at least one and at most [n]; the i-th is the result
    of the solver for the i-th initial guess [start i]; all but the last miss the
    tolerance, and if there are fewer than [n] then the last one does not. *)
Definition tried (n : nat) (tolerance : R) (result : nat -> list R * R) (cs : list (list R * R)) : Prop :=
  (1 <= List.length cs <= n)%nat
  /\ (forall i, (i < List.length cs)%nat -> nth_error cs i = Some (result i))
  /\ (forall i, (S i < List.length cs)%nat -> tolerance < snd (result i))
  /\ ((List.length cs < n)%nat -> snd (result (List.length cs - 1)%nat) <= tolerance).

Lemma tried_one n tol f : snd (f 0%nat) <= tol -> tried (S n) tol f [f 0%nat].
Proof.
  intros H. split; [cbn; lia|]. split; [|split].
  - intros [|i] Hi; [reflexivity|cbn in Hi; lia].
  - intros i Hi. cbn in Hi. lia.
  - intros _. exact H.
Qed.

Lemma tried_last tol f : tried 1 tol f [f 0%nat].
Proof.
  split; [cbn; lia|]. split; [|split].
  - intros [|i] Hi; [reflexivity|cbn in Hi; lia].
  - intros i Hi. cbn in Hi. lia.
  - cbn. lia.
Qed.

Lemma tried_cons n tol f cs : tol < snd (f 0%nat) -> tried n tol (fun i => f (S i)) cs -> tried (S n) tol f (f 0%nat :: cs).
Proof.
  intros H ((A1 & A2) & B & C & D). split; [cbn; lia|]. split; [|split].
  - intros [|i] Hi; [reflexivity|]. cbn in *. apply B. lia.
  - intros [|i] Hi; [exact H|]. cbn in Hi. apply C. lia.
  - cbn. intros Hl. specialize (D ltac:(lia)). replace (List.length cs - 0)%nat with (S (List.length cs - 1)) by lia. exact D.
Qed.

Lemma tried_ext n tol f g cs : (forall i, f i = g i) -> tried n tol f cs -> tried n tol g cs.
Proof.
  intros H (A & B & C & D). split; [exact A|]. split; [|split].
  - intros i Hi. rewrite <- H. auto.
  - intros i Hi. rewrite <- H. auto.
  - intros Hl. rewrite <- H. auto.
Qed.

(** The i-th initial guess of [inverse_with_random_restarts]. *)
Definition global_start (w : world) (c : chain) (k : clock) (i : nat) : list R :=
  scale_sample (w_rand w (ck_rand k + i) (List.length (ch_joint_limits c))) (ch_joint_limits c).

Lemma restarts_tried w c desired tol solver ow pw n : forall k k' cs,
  restarts w c desired (S n) tol solver ow pw k = (k', cs) ->
  tried (S n) tol (fun i => w_minimize w (ck_minimize k + i) desired (global_start w c k i) (ch_joint_limits c) solver ow pw) cs
  /\ ck_minimize k' = (ck_minimize k + List.length cs)%nat /\ ck_rand k' = (ck_rand k + List.length cs)%nat.
Proof.
  induction n as [|n IH]; intros k k' cs E.
  - cbn [restarts sample_joints_uniform inverse ck_minimize ck_rand] in E.
    replace (ck_minimize k) with (ck_minimize k + 0)%nat in E at 2 by lia.
    destruct (w_minimize w _ desired _ _ _ _ _) as [q e] eqn:E1 in E.
    assert (R0 : w_minimize w (ck_minimize k + 0) desired (global_start w c k 0) (ch_joint_limits c) solver ow pw = (q, e)).
    { rewrite <- E1. unfold global_start. rewrite !Nat.add_0_r. reflexivity. }
    assert (E' : (k', cs) = ({| ck_minimize := S (ck_minimize k); ck_rand := S (ck_rand k) |}, [(q, e)]))
      by (destruct (Rle_dec e tol); now symmetry).
    injection E' as -> ->. rewrite <- R0. split; [apply (tried_last tol (fun i => w_minimize w (ck_minimize k + i) desired (global_start w c k i) _ solver ow pw))|].
    cbn. split; lia.
  - remember (S n) as n'. cbn [restarts sample_joints_uniform inverse ck_minimize ck_rand] in E.
    destruct (w_minimize w _ desired _ _ _ _ _) as [q e] eqn:E1 in E.
    assert (R0 : w_minimize w (ck_minimize k + 0) desired (global_start w c k 0) (ch_joint_limits c) solver ow pw = (q, e)).
    { rewrite <- E1. unfold global_start. rewrite !Nat.add_0_r. reflexivity. }
    destruct (Rle_dec e tol) as [Hle|Hgt].
    + injection E as <- <-. rewrite <- R0.
      split; [|cbn; split; lia].
      apply (tried_one n' tol (fun i => w_minimize w (ck_minimize k + i) desired (global_start w c k i) _ solver ow pw)).
      cbv beta. rewrite R0. exact Hle.
    + destruct (restarts w c desired n' tol solver ow pw _) as [k3 cs'] eqn:E2. injection E as <- <-.
      subst n'. destruct (IH _ _ _ E2) as (H1 & H2 & H3). cbn [ck_minimize ck_rand] in H2, H3.
      rewrite <- R0. split; [|cbn [List.length]; split; lia].
      apply (tried_cons (S n) tol (fun i => w_minimize w (ck_minimize k + i) desired (global_start w c k i) _ solver ow pw)).
      * cbv beta. rewrite R0. cbn. lra.
      * refine (tried_ext _ _ _ _ _ _ H1). intros i. cbv beta. cbn [ck_minimize]. unfold global_start. cbn [ck_rand].
        replace (ck_minimize k + S i)%nat with (S (ck_minimize k) + i)%nat by lia.
        replace (ck_rand k + S i)%nat with (S (ck_rand k) + i)%nat by lia. reflexivity.
Qed.

Lemma best_candidate_spec cs : cs <> [] -> exists q, best_candidate cs = Ok q /\ first_best cs q.
Proof.
  destruct cs as [|[q e] cs]; [contradiction|]. intros _. exists (best q e cs). split; [reflexivity|apply best_spec].
Qed.

Theorem C60_best : forall w c k desired n_restarts tolerance solver ow pw, (1 <= n_restarts)%nat ->
  exists k' q cs,
    inverse_with_random_restarts w c k desired n_restarts tolerance solver ow pw = Ok (k', q)
    /\ tried n_restarts tolerance
         (fun i => w_minimize w (ck_minimize k + i) desired (global_start w c k i) (ch_joint_limits c) solver ow pw) cs
    /\ first_best cs q.
Proof.
  intros w c k desired n tol solver ow pw Hn. destruct n as [|n]; [lia|].
  unfold inverse_with_random_restarts. cbn [Nat.ltb Nat.leb].
  destruct (restarts w c desired (S n) tol solver ow pw k) as [k' cs] eqn:E.
  destruct (restarts_tried _ _ _ _ _ _ _ _ _ _ _ E) as (H & _).
  destruct (best_candidate_spec cs) as (q & Hq & Hb).
  { destruct H as [Hl _]. intros ->. cbn in Hl. lia. }
  exists k', q, cs. rewrite Hq. cbn [bind]. auto.
Qed.

(** The initial guesses lie within the joint limits. *)
Theorem C60_guesses_in_limits : forall w c k i j, (forall k n, List.length (w_rand w k n) = n) ->
  (forall k n x, In x (w_rand w k n) -> 0 <= x <= 1) ->
  (j < List.length (ch_joint_limits c))%nat ->
  fst (nth j (ch_joint_limits c) (0, 0)) <= snd (nth j (ch_joint_limits c) (0, 0)) ->
  fst (nth j (ch_joint_limits c) (0, 0)) <= nth j (global_start w c k i) 0 <= snd (nth j (ch_joint_limits c) (0, 0)).
Proof.
  intros w c k i j Hl Hr Hj Hb. unfold global_start, scale_sample.
  set (r := w_rand w _ _). set (ls := ch_joint_limits c) in *.
  assert (Lr : List.length r = List.length ls) by apply Hl.
  assert (Hin : 0 <= nth j r 0 <= 1) by (apply (Hr (ck_rand k + i)%nat (List.length ls)), nth_In; fold r; lia).
  set (f := fun rb : R * (R * R) => fst rb * (snd (snd rb) - fst (snd rb)) + fst (snd rb)).
  rewrite (nth_indep _ 0 (f (0, (0, 0)))) by (rewrite map_length, combine_length; lia).
  rewrite map_nth, combine_nth by lia. unfold f. cbn [fst snd].
  set (lo := fst (nth j ls (0, 0))) in *. set (hi := snd (nth j ls (0, 0))) in *. nra.
Qed.

(** With a solver that reports the pose error of its results, the result has the smallest
    pose error of all candidates, and it meets the tolerance if any candidate does. *)
Definition honest (w : world) (c : chain) (m : manager) : Prop :=
  forall k d q0 b s ow pw, ee_pose_error c m (fst (w_minimize w k d q0 b s ow pw)) d ow pw
                           = Ok (snd (w_minimize w k d q0 b s ow pw)).

Corollary C60_smallest_error : forall w c m k desired n_restarts tolerance solver ow pw, (1 <= n_restarts)%nat ->
  honest w c m ->
  exists k' q cs e,
    inverse_with_random_restarts w c k desired n_restarts tolerance solver ow pw = Ok (k', q)
    /\ ee_pose_error c m q desired ow pw = Ok e
    /\ (forall q' e', In (q', e') cs -> ee_pose_error c m q' desired ow pw = Ok e' /\ e <= e')
    /\ ((List.length cs < n_restarts)%nat -> e <= tolerance).
Proof.
  intros w c m k desired n tol solver ow pw Hn Hh.
  destruct (C60_best w c k desired n tol solver ow pw Hn) as (k' & q & cs & E & (Hl & Hr & _ & Hd) & i & e & Hi & Hmin & _).
  exists k', q, cs, e. split; [exact E|].
  assert (Hc : forall q' e', In (q', e') cs -> ee_pose_error c m q' desired ow pw = Ok e' /\ e <= e').
  { intros q' e' Hin. destruct (In_nth_error _ _ Hin) as [j Hj].
    split; [|now apply (Hmin j q')].
    assert (Hjl : (j < List.length cs)%nat) by (apply nth_error_Some; congruence).
    rewrite (Hr j Hjl) in Hj. injection Hj as Hj.
    pose proof (Hh (ck_minimize k + j)%nat desired (global_start w c k j) (ch_joint_limits c) solver ow pw) as Hx.
    rewrite Hj in Hx. exact Hx. }
  split; [apply (Hc q e), (nth_error_In _ _ Hi)|]. split; [exact Hc|].
  intros Hlt. specialize (Hd Hlt).
  destruct (w_minimize w (ck_minimize k + (List.length cs - 1)) desired (global_start w c k (List.length cs - 1))
              (ch_joint_limits c) solver ow pw) as [ql el] eqn:El.
  cbn [snd] in Hd. apply Rle_trans with el; [|exact Hd].
  apply (Hmin (List.length cs - 1)%nat ql). rewrite Hr by lia. now rewrite El.
Qed.

(** The local variant keeps the best candidate, too. *)
Lemma local_restarts_shape w c desired bounds tol solver ow pw n : forall q k k' cs,
  local_restarts w c desired bounds q (S n) tol solver ow pw k = (k', cs) ->
  exists result start, tried (S n) tol result cs /\ start 0%nat = q
  /\ (forall i, result i = w_minimize w (ck_minimize k + i) desired (start i) (ch_joint_limits c) solver ow pw)
  /\ (forall i, start (S i) = scale_sample (w_rand w (ck_rand k + i) (List.length bounds)) bounds)
  /\ ck_minimize k' = (ck_minimize k + List.length cs)%nat.
Proof.
  induction n as [|n IH]; intros q k k' cs E.
  - set (start := fun i => match i with O => q | S i => scale_sample (w_rand w (ck_rand k + i) (List.length bounds)) bounds end).
    set (result := fun i => w_minimize w (ck_minimize k + i) desired (start i) (ch_joint_limits c) solver ow pw).
    exists result, start. cbn [local_restarts sample_joints_uniform inverse ck_minimize ck_rand] in E.
    assert (R0 : result 0%nat = w_minimize w (ck_minimize k) desired q (ch_joint_limits c) solver ow pw).
    { unfold result. now rewrite Nat.add_0_r. }
    rewrite <- R0 in E. destruct (result 0%nat) as [q1 e] eqn:E1.
    assert (Ec : cs = [result 0%nat] /\ ck_minimize k' = S (ck_minimize k)).
    { rewrite E1. destruct (Rle_dec e tol); injection E as <- <-; auto. }
    destruct Ec as [-> Hk]. split; [apply tried_last|]. split; [reflexivity|]. split; [reflexivity|]. split; [reflexivity|].
    rewrite Hk. cbn. lia.
  - remember (S n) as n'. cbn [local_restarts sample_joints_uniform inverse ck_minimize ck_rand] in E.
    destruct (w_minimize w (ck_minimize k) desired q (ch_joint_limits c) solver ow pw) as [q1 e] eqn:E1.
    destruct (Rle_dec e tol) as [Hle|Hgt].
    + injection E as <- <-.
      set (start := fun i => match i with O => q | S i => scale_sample (w_rand w (ck_rand k + i) (List.length bounds)) bounds end).
      set (result := fun i => w_minimize w (ck_minimize k + i) desired (start i) (ch_joint_limits c) solver ow pw).
      exists result, start.
      assert (R0 : result 0%nat = (q1, e)) by (unfold result; now rewrite Nat.add_0_r).
      rewrite <- R0. split; [apply tried_one; rewrite R0; exact Hle|]. repeat split; auto. cbn. lia.
    + destruct (local_restarts w c desired bounds _ n' tol solver ow pw _) as [k3 cs'] eqn:E2. injection E as <- <-.
      subst n'. destruct (IH _ _ _ _ E2) as (result & start & H1 & H2 & H3 & H4 & H5). cbn [ck_minimize ck_rand] in *.
      exists (fun i => match i with O => (q1, e) | S i => result i end), (fun i => match i with O => q | S i => start i end).
      split; [|split; [reflexivity|split; [|split]]].
      * apply (tried_cons (S n) tol (fun i => match i with O => (q1, e) | S i => result i end)); [cbn; lra|exact H1].
      * intros [|i]; [now rewrite Nat.add_0_r|]. rewrite H3. f_equal. lia.
      * intros [|i]; [rewrite H2, Nat.add_0_r; reflexivity|]. rewrite H4. replace (ck_rand k + S i)%nat with (S (ck_rand k) + i)%nat by lia. reflexivity.
      * rewrite H5. cbn. lia.
Qed.

Theorem C60_local_best : forall w c k desired q0 interval n_restarts tolerance solver ow pw, (1 <= n_restarts)%nat ->
  exists k' q cs result start,
    local_inverse_with_random_restarts w c k desired q0 interval n_restarts tolerance solver ow pw = Ok (k', q)
    /\ tried n_restarts tolerance result cs /\ first_best cs q
    /\ start 0%nat = q0
    /\ (forall i, result i = w_minimize w (ck_minimize k + i) desired (start i) (ch_joint_limits c) solver ow pw)
    /\ (forall i, start (S i) = scale_sample (w_rand w (ck_rand k + i) (List.length q0)) (local_bounds q0 interval)).
Proof.
  intros w c k desired q0 interval n tol solver ow pw Hn. destruct n as [|n]; [lia|].
  unfold local_inverse_with_random_restarts. cbn [Nat.ltb Nat.leb].
  destruct (local_restarts w c desired (local_bounds q0 interval) q0 (S n) tol solver ow pw k) as [k' cs] eqn:E.
  destruct (local_restarts_shape _ _ _ _ _ _ _ _ _ _ _ _ _ E) as (result & start & H & H2 & H3 & H4 & _).
  destruct (best_candidate_spec cs) as (q & Hq & Hb).
  { destruct H as [Hl _]. intros ->. cbn in Hl. lia. }
  exists k', q, cs, result, start. rewrite Hq. cbn [bind].
  split; [reflexivity|]. split; [exact H|]. split; [exact Hb|]. split; [exact H2|]. split; [exact H3|].
  intros i. rewrite H4. unfold local_bounds at 1. now rewrite map_length.
Qed.

(** ** C61 *)

Definition within (q : list R) (bounds : list (R * R)) : Prop :=
  Forall2 (fun v b => fst b <= v <= snd b) q bounds.

(** A solver that returns values within the bounds it is given, if these are consistent. *)
Definition respects_bounds (w : world) : Prop :=
  forall k d q0 b s ow pw, Forall (fun b => fst b <= snd b) b -> within (fst (w_minimize w k d q0 b s ow pw)) b.

(** Neighbouring configurations differ by at most [interval] per joint. *)
Definition local (interval : R) (q q' : list R) : Prop := Forall2 (fun a b => Rabs (b - a) <= interval) q q'.

Fixpoint chained {A} (P : A -> A -> Prop) (x : A) (l : list A) : Prop :=
  match l with [] => True | y :: l' => P x y /\ chained P y l' end.

Lemma within_local interval q : forall q', within q' (local_bounds q interval) -> local interval q q'.
Proof.
  unfold local_bounds. induction q as [|a q IH]; intros q' H; inversion_clear H; constructor.
  - cbn [fst snd] in *. apply Rabs_le. lra.
  - now apply IH.
Qed.

Lemma local_bounds_ok q interval : 0 <= interval -> Forall (fun b => fst b <= snd b) (local_bounds q interval).
Proof. intros H. apply Forall_map. induction q; constructor; cbn; auto; lra. Qed.

(** The full statement needs both of the following for both values of [random_restarts].
    Without random restarts, consecutive configurations are close to each other. *)
Theorem C61_local_partial : forall w c k H initial interval solver ow pw q Q,
  0 <= interval -> respects_bounds w ->
  inverse_trajectory w c k H initial interval false solver ow pw = Ok (q :: Q) ->
  List.length Q = (List.length H - 1)%nat /\ chained (local interval) q Q.
Proof.
  intros w c k H initial interval solver ow pw q Q Hi Hr E. unfold inverse_trajectory in E.
  destruct H as [|h H]; [discriminate|].
  destruct (match initial with Some _ => _ | None => _ end) as [[k1 q1]|]; [|discriminate]. cbn [bind fst snd] in E.
  destruct (inverse_steps _ _ _ _ _ _ _ _ _ _) as [Q'|] eqn:E1; [|discriminate]. cbn [bind] in E. injection E as -> ->.
  cbn [List.length]. rewrite Nat.sub_succ, Nat.sub_0_r.
  revert k1 q Q E1. induction H as [|h' H IH]; intros k1 q Q E1; cbn [inverse_steps] in E1.
  - injection E1 as <-. cbn. auto.
  - cbn [inverse] in E1. destruct (w_minimize w _ h' q _ _ _ _) as [q2 e2] eqn:E2. cbn [bind fst snd] in E1.
    destruct (inverse_steps _ _ _ H _ _ _ _ _ _) as [Q'|] eqn:E3; [|discriminate]. cbn [bind] in E1. injection E1 as <-.
    destruct (IH _ _ _ E3) as [H1 H2]. split; [cbn; now rewrite H1|]. cbn [chained]. split; [|exact H2].
    apply within_local. pose proof (Hr (ck_minimize k1) h' q (local_bounds q interval) solver ow pw (local_bounds_ok q interval Hi)) as X.
    now rewrite E2 in X.
Qed.

Lemma local_within interval q : forall q', local interval q q' -> within q' (local_bounds q interval).
Proof.
  unfold local_bounds. induction q as [|a q IH]; intros q' H; inversion_clear H as [|? b ? l Hb Hl]; constructor.
  - cbn [fst snd]. unfold Rabs in Hb. destruct (Rcase_abs (b - a)); lra.
  - now apply IH.
Qed.

(** Conversely nothing within the interval is excluded: a solver that finds the
    solution of a pose whenever it is within the bounds finds a trajectory of
    solutions that starts within the joint limits and whose steps are at most
    [interval]. *)
Theorem C61_complete : forall w c k (solution : rigid -> list R) h H q0 interval solver ow pw,
  (forall k d q0 b s ow pw, within (solution d) b -> fst (w_minimize w k d q0 b s ow pw) = solution d) ->
  within (solution h) (ch_joint_limits c) -> chained (local interval) (solution h) (map solution H) ->
  inverse_trajectory w c k (h :: H) (Some q0) interval false solver ow pw = Ok (map solution (h :: H)).
Proof.
  intros w c k sol h H q0 interval solver ow pw Hw Hh Hc. unfold inverse_trajectory. cbn [inverse].
  pose proof (Hw (ck_minimize k) h q0 (ch_joint_limits c) solver ow pw Hh) as X.
  destruct (w_minimize w _ h q0 _ _ _ _) as [q e]. cbn [fst] in X. subst q. cbn [bind fst snd].
  match goal with |- context [inverse_steps w c ?k1] => generalize k1 end. intros k1.
  assert (G : inverse_steps w c k1 H (sol h) interval false solver ow pw = Ok (map sol H)).
  { clear Hh. revert h k1 Hc. induction H as [|h' H IH]; intros h k1 Hc; [reflexivity|].
    cbn [map chained] in Hc. destruct Hc as [H1 H2]. cbn [inverse_steps inverse].
    pose proof (Hw (ck_minimize k1) h' (sol h) (local_bounds (sol h) interval) solver ow pw (local_within _ _ _ H1)) as X.
    destruct (w_minimize w _ h' (sol h) _ _ _ _) as [q e']. cbn [fst] in X. subst q. cbn [bind fst snd].
    rewrite (IH h') by exact H2. reflexivity. }
  rewrite G. reflexivity.
Qed.

Lemma first_best_in cs q : first_best cs q -> exists e, In (q, e) cs.
Proof. intros (i & e & H & _). exists e. eapply nth_error_In; eauto. Qed.

Lemma tried_in n tol result cs x : tried n tol result cs -> In x cs -> exists i, x = result i.
Proof.
  intros (_ & H & _) Hin. destruct (In_nth_error _ _ Hin) as [i Hi]. exists i.
  assert (Hl : (i < List.length cs)%nat) by (apply nth_error_Some; congruence).
  rewrite (H i Hl) in Hi. now injection Hi as <-.
Qed.

(** With random restarts, and for the first step in any case, the joint limits are respected. *)
Theorem C61_limits_partial : forall w c k H initial interval random_restarts solver ow pw q Q,
  Forall (fun b => fst b <= snd b) (ch_joint_limits c) -> respects_bounds w ->
  inverse_trajectory w c k H initial interval random_restarts solver ow pw = Ok (q :: Q) ->
  within q (ch_joint_limits c) /\ (random_restarts = true -> Forall (fun q => within q (ch_joint_limits c)) Q).
Proof.
  intros w c k H initial interval rr solver ow pw q Q Hb Hr E. unfold inverse_trajectory in E.
  destruct H as [|h H]; [discriminate|].
  destruct (match initial with Some _ => _ | None => _ end) as [[k1 q1]|] eqn:E0; [|discriminate]. cbn [bind fst snd] in E.
  destruct (inverse_steps _ _ _ _ _ _ _ _ _ _) as [Q'|] eqn:E1; [|discriminate]. cbn [bind] in E. injection E as -> ->.
  split.
  - destruct initial as [q0|].
    + cbn [inverse] in E0. destruct (w_minimize w _ h q0 _ _ _ _) as [q2 e2] eqn:E2. injection E0 as _ <-.
      pose proof (Hr (ck_minimize k) h q0 (ch_joint_limits c) solver ow pw Hb) as X. now rewrite E2 in X.
    + destruct (C60_best w c k h 10 (1/1000) "SLSQP" ow pw ltac:(lia)) as (k' & q' & cs & E2 & Ht & Hf).
      rewrite E2 in E0. injection E0 as _ <-. destruct (first_best_in _ _ Hf) as [e He].
      destruct (tried_in _ _ _ _ _ Ht He) as [i Hi].
      pose proof (Hr (ck_minimize k + i)%nat h (global_start w c k i) (ch_joint_limits c) "SLSQP"%string ow pw Hb) as X.
      rewrite <- Hi in X. exact X.
  - intros ->. clear E0. revert k1 q Q E1. induction H as [|h' H IH]; intros k1 q Q E1; cbn [inverse_steps] in E1.
    + injection E1 as <-. constructor.
    + destruct (C60_local_best w c k1 h' q interval 10 (1/1000) "SLSQP" ow pw ltac:(lia))
        as (k' & q' & cs & result & start & E2 & Ht & Hf & _ & Hres & _).
      rewrite E2 in E1. cbn [bind fst snd] in E1.
      destruct (inverse_steps _ _ _ H _ _ _ _ _ _) as [Q'|] eqn:E3; [|discriminate]. cbn [bind] in E1. injection E1 as <-.
      constructor; [|eapply IH; eauto]. destruct (first_best_in _ _ Hf) as [e He].
      destruct (tried_in _ _ _ _ _ Ht He) as [i Hi]. rewrite Hres in Hi.
      pose proof (Hr (ck_minimize k1 + i)%nat h' (start i) (ch_joint_limits c) "SLSQP"%string ow pw Hb) as X.
      rewrite <- Hi in X. exact X.
Qed.

(** A solver that alternates between the ends of the bounds it is given. *)
Definition ex_world : world :=
  {| w_minimize := fun k d q0 b s ow pw => (map (if Nat.even k then fst else snd) b, 0);
     w_rand := fun k n => repeat (1/2) n |}.

Lemma ex_world_respects : respects_bounds ex_world.
Proof.
  intros k d q0 b s ow pw H. cbn [ex_world w_minimize fst].
  induction H as [|x l Hx H IH]; [constructor|]. cbn [map]. constructor; [|exact IH].
  destruct (Nat.even k); lra.
Qed.

(** With random restarts (the default), consecutive configurations need not be close. *)
Theorem C61_local_refuted :
  exists w c k H initial interval q Q, 0 < interval /\ respects_bounds w
  /\ create_chain ex_robot ["j1"; "j2"]%string "base" "tool" = Ok c
  /\ inverse_trajectory w c k H (Some initial) interval true "SLSQP" 1 1 = Ok (q :: Q)
  /\ ~ chained (local interval) q Q.
Proof.
  exists ex_world, ex_chain, {| ck_minimize := 0; ck_rand := 0 |}, [rigid_one; rigid_one], [0; 0], (1/2).
  do 2 eexists. split; [lra|]. split; [apply ex_world_respects|]. split; [reflexivity|]. split.
  - unfold inverse_trajectory. cbn [inverse ex_world w_minimize ck_minimize ck_rand Nat.even bind fst snd inverse_steps].
    unfold local_inverse_with_random_restarts.
    cbn [Nat.ltb Nat.leb local_restarts inverse ex_world w_minimize ck_minimize ck_rand].
    destruct (Rle_dec 0 (1/1000)) as [_|N]; [|lra]. cbn. reflexivity.
  - cbn [chained map ex_chain ch_joint_limits fst snd]. intros [Hl _]. inversion_clear Hl as [|? ? ? ? _ Hl'].
    inversion_clear Hl' as [|? ? ? ? Hl _]. revert Hl. rewrite Rminus_0_r, Rabs_R1. lra.
Qed.

(** Without random restarts, the joint limits need not be respected. *)
Theorem C61_limits_refuted :
  exists w c k H initial interval q Q, 0 < interval /\ respects_bounds w
  /\ create_chain ex_robot ["j1"; "j2"]%string "base" "tool" = Ok c
  /\ within initial (ch_joint_limits c)
  /\ inverse_trajectory w c k H (Some initial) interval false "SLSQP" 1 1 = Ok (q :: Q)
  /\ ~ Forall (fun q => within q (ch_joint_limits c)) Q.
Proof.
  exists ex_world, ex_chain, {| ck_minimize := 1; ck_rand := 0 |}, [rigid_one; rigid_one; rigid_one], [0; 1], (3/2).
  do 2 eexists. split; [lra|]. split; [apply ex_world_respects|]. split; [reflexivity|]. split; [|split].
  - pose proof PI_RGT_0. repeat constructor; cbn; lra.
  - unfold inverse_trajectory. cbn [inverse ex_world w_minimize ck_minimize ck_rand Nat.even bind fst snd inverse_steps].
    reflexivity.
  - cbn [map ex_chain ch_joint_limits fst snd local_bounds]. intros Hf. inversion_clear Hf as [|? ? Hw _].
    inversion_clear Hw as [|? ? ? ? _ Hw']. inversion_clear Hw' as [|? ? ? ? Hl _]. cbn [fst snd] in Hl. lra.
Qed.

Example C60_satisfiable : respects_bounds ex_world /\ (forall k n, List.length (w_rand ex_world k n) = n)
  /\ (forall k n x, In x (w_rand ex_world k n) -> 0 <= x <= 1)
  /\ Forall (fun b => fst b <= snd b) (ch_joint_limits ex_chain).
Proof.
  split; [apply ex_world_respects|]. split; [intros; apply repeat_length|]. split.
  - intros k n x H. apply repeat_spec in H. lra.
  - pose proof PI_RGT_0. repeat constructor; cbn; lra.
Qed.

(** ** C72: the solver that the caller asks for is the one that is used *)

(** Two worlds agree for a solver. *)
Definition agree_for (solver : string) (w w' : world) : Prop :=
  (forall k d q0 b ow pw, w_minimize w k d q0 b solver ow pw = w_minimize w' k d q0 b solver ow pw)
  /\ (forall k n, w_rand w k n = w_rand w' k n).

Theorem C72_solver_partial : forall w w' c k H initial interval solver ow pw, agree_for solver w w' ->
  inverse_trajectory w c k H (Some initial) interval false solver ow pw
  = inverse_trajectory w' c k H (Some initial) interval false solver ow pw.
Proof.
  intros w w' c k H initial interval solver ow pw [Hm _]. unfold inverse_trajectory. destruct H as [|h H]; [reflexivity|].
  cbn [inverse]. rewrite Hm. destruct (w_minimize w' _ h initial _ _ _ _) as [q e]. cbn [bind fst snd].
  assert (E : forall H k q, inverse_steps w c k H q interval false solver ow pw = inverse_steps w' c k H q interval false solver ow pw).
  { clear - Hm. induction H as [|h H IH]; intros k q; cbn [inverse_steps inverse]; [reflexivity|].
    rewrite Hm. destruct (w_minimize w' _ h q _ _ _ _) as [q2 e2]. cbn [bind fst snd]. now rewrite IH. }
  now rewrite E.
Qed.

Lemma restarts_agree w w' c h tol solver ow pw : agree_for solver w w' -> forall n k,
  restarts w c h n tol solver ow pw k = restarts w' c h n tol solver ow pw k.
Proof.
  intros [Hm Hr]. induction n as [|n IH]; intros k; cbn [restarts sample_joints_uniform inverse]; [reflexivity|].
  rewrite Hr, Hm. destruct (w_minimize w' _ h _ _ _ _ _) as [q e]. now rewrite IH.
Qed.

Theorem C72_restarts : forall w w' c k desired n_restarts tolerance solver ow pw, agree_for solver w w' ->
  inverse_with_random_restarts w c k desired n_restarts tolerance solver ow pw
  = inverse_with_random_restarts w' c k desired n_restarts tolerance solver ow pw.
Proof. intros. unfold inverse_with_random_restarts. now rewrite (restarts_agree w w'). Qed.

(** With random restarts (the default), or without initial joint angles, another solver
    than the requested one is used. *)
Definition ex_other : world :=
  {| w_minimize := fun k d q0 b s ow pw => (map (if String.eqb s "SLSQP" then fst else snd) b, 0);
     w_rand := fun k n => repeat (1/2) n |}.
Definition ex_other' : world :=
  {| w_minimize := fun k d q0 b s ow pw => (map snd b, 0); w_rand := fun k n => repeat (1/2) n |}.

Theorem C72_ignored_refuted :
  exists w w' c k H, agree_for "L-BFGS-B" w w'
  /\ inverse_trajectory w c k H (Some [0; 0]) 1 true "L-BFGS-B" 1 1
     <> inverse_trajectory w' c k H (Some [0; 0]) 1 true "L-BFGS-B" 1 1
  /\ inverse_trajectory w c k H None 1 false "L-BFGS-B" 1 1
     <> inverse_trajectory w' c k H None 1 false "L-BFGS-B" 1 1.
Proof.
  exists ex_other, ex_other', ex_chain, {| ck_minimize := 0; ck_rand := 0 |}, [rigid_one; rigid_one].
  split; [split; reflexivity|].
  assert (HPI := PI_RGT_0).
  split; intros E; unfold inverse_trajectory in E.
  - cbn [inverse ex_other ex_other' w_minimize ck_minimize ck_rand bind fst snd inverse_steps String.eqb Ascii.eqb Bool.eqb] in E.
    unfold local_inverse_with_random_restarts in E.
    cbn [Nat.ltb Nat.leb local_restarts inverse ex_other ex_other' w_minimize ck_minimize ck_rand] in E.
    destruct (Rle_dec 0 (1/1000)) as [_|N]; [|lra]. cbn in E. injection E as E _. lra.
  - unfold inverse_with_random_restarts in E.
    cbn [Nat.ltb Nat.leb restarts sample_joints_uniform inverse ex_other ex_other' w_minimize ck_minimize ck_rand] in E.
    destruct (Rle_dec 0 (1/1000)) as [_|N]; [|lra]. cbn in E. injection E as E _. lra.
Qed.
