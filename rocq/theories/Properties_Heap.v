(** C64: arrays returned by or passed to a movement primitive are not changed by its
    methods.  C79: what happens when the caller changes arrays that they passed in. *)
From Coq Require Import Reals List Arith Bool Lia Lra FunctionalExtensionality.
From Verif Require Import M_Prelude M_Heap S_Heap P_Heap.
Import ListNotations.
Open Scope R_scope.
Set Bullet Behavior "Strict Subproofs".

(** The classes of the library except StateFollowingDMP and MinimumJerkTrajectory. *)
Inductive copying_class : klass -> Prop :=
| cc_dmp n nw dt f g : copying_class (class_dmp n nw dt f g)
| cc_final n nw dt f g : copying_class (class_dmp_final_velocity n nw dt f g)
| cc_cartesian nw dt f g : copying_class (class_cartesian nw dt f g)
| cc_dual nw dt f g : copying_class (class_dual nw dt f g)
| cc_spring n nv dt f : copying_class (class_spring n nv dt f).

Lemma copying k : copying_class k -> k_returns_copies k = true.
Proof. now intros []. Qed.

(** ** C64 *)

(** After any history, any number of further method calls leaves every array that
    the caller holds as it is: arrays passed to the methods and arrays returned by
    earlier steps. *)
Theorem C64_snapshots : forall k w w' v, copying_class k -> history k w -> calls k w w' ->
  of_caller w v -> read (w_heap w') v = read (w_heap w) v.
Proof.
  intros k w w' v Hk H Hc [Hv _]. pose proof (copying k Hk) as Hr.
  destruct (calls_same k w w' Hr (history_inv k w Hr H) Hc) as [_ S]. now apply read_same, S.
Qed.

(** [step] returns new arrays, which hold the new state.  Contents behave as if all
    arrays were values: start, goal and weights stay, the state before the first step
    is the start state, and the new state is the result of the integrator. *)
Theorem C64_step_result : forall k w last_y last_yd h' o' y yd, copying_class k -> history k w ->
  of_caller w last_y -> of_caller w last_yd ->
  step k last_y last_yd (w_heap w) (w_obj w) = (h', o', Some (y, yd)) ->
  let c := contents_of (w_heap w) (w_obj w) in
  let first := negb (o_initialized (w_obj w)) in
  let c1 := {| c_start_y := c_start_y c; c_start_yd := c_start_yd c; c_start_ydd := c_start_ydd c;
               c_goal_y := c_goal_y c; c_goal_yd := c_goal_yd c; c_goal_ydd := c_goal_ydd c;
               c_current_y := if first then c_start_y c else c_current_y c;
               c_current_yd := if first then c_start_yd c else c_current_yd c;
               c_weights := c_weights c |} in
  let r := k_integrate k (o_t (w_obj w)) (o_t (w_obj w) + k_dt k) c1
             (read (w_heap w) last_y) (read (w_heap w) last_yd) in
  (h_next (w_heap w) <= v_buf y)%nat /\ (h_next (w_heap w) <= v_buf yd)%nat /\ v_buf y <> v_buf yd /\
  read h' y = trunc (k_n k) (fst r) /\ read h' yd = trunc (k_nv k) (snd r) /\
  o_t o' = o_t (w_obj w) + k_dt k /\ o_initialized o' = true /\
  contents_of h' o' =
    {| c_start_y := c_start_y c; c_start_yd := c_start_yd c; c_start_ydd := c_start_ydd c;
       c_goal_y := c_goal_y c; c_goal_yd := c_goal_yd c; c_goal_ydd := c_goal_ydd c;
       c_current_y := trunc (k_n k) (fst r); c_current_yd := trunc (k_nv k) (snd r);
       c_weights := c_weights c |}.
Proof.
  intros k w ly lyd h' o' y yd Hcl H Hly Hlyd E. pose proof (copying k Hcl) as Hk.
  pose proof (history_inv k w Hk H) as I.
  assert (Hlazy : k_lazy_init k = true) by (now destruct Hcl).
  destruct (step_spec _ _ _ _ _ _ _ _ _ Hk E) as (h1 & o1 & h3 & _ & _ & Hi & -> & (hc & Ec & -> & Ed)).
  rewrite Hlazy in Hi. cbn [andb] in Hi.
  assert (G : inv k {| w_heap := h1; w_obj := o1; w_caller := w_caller w |} /\
    (h_next (w_heap w) <= h_next h1)%nat /\
    o_t o1 = o_t (w_obj w) + k_dt k /\ o_initialized o1 = true /\
    params o1 = params (w_obj w) /\ o_weights o1 = o_weights (w_obj w) /\
    (forall b, (b < h_next (w_heap w))%nat -> same_buf (w_heap w) h1 b) /\
    read h1 (o_current_y o1) = (if negb (o_initialized (w_obj w)) then read (w_heap w) (o_start_y (w_obj w))
                                else read (w_heap w) (o_current_y (w_obj w))) /\
    read h1 (o_current_yd o1) = (if negb (o_initialized (w_obj w)) then read (w_heap w) (o_start_yd (w_obj w))
                                else read (w_heap w) (o_current_yd (w_obj w)))).
  { destruct (negb (o_initialized (w_obj w))) eqn:Einit.
    - destruct Hi as (ha & cy & hb & cyd & Ea & Eb & -> & ->).
      destruct (copy_next _ _ _ _ Ea) as (Na & Va & _). destruct (copy_next _ _ _ _ Eb) as (Nb & Vb & _).
      split.
      { apply (inv_time k {| w_heap := hb; w_obj := set_currents cy cyd true (w_obj w); w_caller := w_caller w |}).
        eapply inv_copies; eassumption. }
      split; [lia|]. do 4 (split; [reflexivity|]).
      split; [intros b Hb; eapply same_trans; eapply copy_other; try eassumption; lia|].
      cbn [set_time set_currents o_current_y o_current_yd]. split.
      + rewrite (read_same ha hb) by (eapply copy_other; [exact Eb|]; lia). exact (read_copy _ _ _ _ Ea).
      + rewrite (read_copy _ _ _ _ Eb). apply read_same. eapply copy_other; [exact Ea|].
        apply (inv_params _ _ I). cbn. tauto.
    - destruct Hi as (-> & ->). apply negb_false_iff in Einit.
      split; [now apply inv_time|]. split; [lia|]. split; [reflexivity|]. split; [exact Einit|].
      do 2 (split; [reflexivity|]). split; [intros b _ j; reflexivity|]. now split. }
  destruct G as (I1 & N1 & T1 & In1 & P1 & W1 & S1 & C1 & C2). clear Hi.
  assert (EC : contents_of h1 o1 =
    {| c_start_y := read (w_heap w) (o_start_y (w_obj w)); c_start_yd := read (w_heap w) (o_start_yd (w_obj w));
       c_start_ydd := read (w_heap w) (o_start_ydd (w_obj w)); c_goal_y := read (w_heap w) (o_goal_y (w_obj w));
       c_goal_yd := read (w_heap w) (o_goal_yd (w_obj w)); c_goal_ydd := read (w_heap w) (o_goal_ydd (w_obj w));
       c_current_y := if negb (o_initialized (w_obj w)) then read (w_heap w) (o_start_y (w_obj w))
                      else read (w_heap w) (o_current_y (w_obj w));
       c_current_yd := if negb (o_initialized (w_obj w)) then read (w_heap w) (o_start_yd (w_obj w))
                      else read (w_heap w) (o_current_yd (w_obj w));
       c_weights := read (w_heap w) (o_weights (w_obj w)) |}).
  { unfold contents_of. rewrite C1, C2, W1. unfold params in P1. injection P1 as -> -> -> -> -> ->.
    f_equal; apply read_same, S1.
    1-6: apply (inv_params _ _ I); cbn; tauto.
    apply (inv_privates _ _ I). cbn. tauto. }
  cbv zeta. cbn [contents_of c_start_y c_start_yd c_start_ydd c_goal_y c_goal_yd c_goal_ydd c_current_y c_current_yd c_weights].
  rewrite EC in Ec.
  rewrite (read_same (w_heap w) h1 ly) in Ec by (apply S1; apply Hly).
  rewrite (read_same (w_heap w) h1 lyd) in Ec by (apply S1; apply Hlyd).
  set (r := k_integrate k _ _ _ _ _) in *.
  set (h2 := write (write h1 (o_current_y o1) (fst r)) (o_current_yd o1) (snd r)) in *.
  destruct (copy_next _ _ _ _ Ec) as (Nc & Vc & Lc). destruct (copy_next _ _ _ _ Ed) as (Nd & Vd & Ld).
  assert (N2 : h_next h2 = h_next h1) by reflexivity.
  destruct (inv_lens _ _ I1) as (_ & _ & Ly & Lyd & _). cbn [w_obj] in Ly, Lyd.
  assert (D := inv_distinct _ _ I1). cbn in D.
  assert (Dyy : v_buf (o_current_y o1) <> v_buf (o_current_yd o1)).
  { inversion D as [|? ? D1 _]. intros Eq. apply D1. rewrite Eq. now left. }
  assert (Dyw : v_buf (o_current_y o1) <> v_buf (o_weights o1)).
  { inversion D as [|? ? D1 _]. intros Eq. apply D1. rewrite Eq. right. now left. }
  assert (Ddw : v_buf (o_current_yd o1) <> v_buf (o_weights o1)).
  { inversion D as [|? ? _ D2]. inversion D2 as [|? ? D1 _]. intros Eq. apply D1. rewrite Eq. now left. }
  assert (Priv : forall v, In v (privates o1) -> (v_buf v < h_next h1)%nat /\ forall u, In u (params o1) -> v_buf u <> v_buf v).
  { intros v Hv. destruct (inv_privates _ _ I1 v Hv) as (A & _ & B). now split. }
  assert (Ry : read h2 (o_current_y o1) = trunc (k_n k) (fst r)).
  { unfold h2. rewrite (read_same (write h1 (o_current_y o1) (fst r))) by now apply write_other.
    rewrite read_write. now rewrite Ly. }
  assert (Ryd : read h2 (o_current_yd o1) = trunc (k_nv k) (snd r)).
  { unfold h2. rewrite read_write. now rewrite Lyd. }
  assert (Same : forall b, (b < h_next h1)%nat -> same_buf h2 h' b).
  { intros b Hb. eapply same_trans; [eapply copy_other; [exact Ec|lia]|eapply copy_other; [exact Ed|lia]]. }
  assert (By : (v_buf (o_current_y o1) < h_next h1)%nat) by (apply Priv; cbn; tauto).
  assert (Byd : (v_buf (o_current_yd o1) < h_next h1)%nat) by (apply Priv; cbn; tauto).
  split; [lia|]. split; [lia|]. split; [lia|].
  split.
  { rewrite (read_same hc h' y) by (eapply copy_other; [exact Ed|lia]).
    rewrite (read_copy _ _ _ _ Ec). exact Ry. }
  split.
  { rewrite (read_copy _ _ _ _ Ed). rewrite (read_same h2 hc) by (eapply copy_other; [exact Ec|lia]). exact Ryd. }
  split; [exact T1|]. split; [exact In1|].
  unfold contents_of.
  assert (Par : forall v, In v (params o1) -> read h' v = read (w_heap w) v).
  { intros v Hv. assert (Hv' : (v_buf v < h_next (w_heap w))%nat).
    { rewrite P1 in Hv. now apply (inv_params _ _ I). }
    rewrite (read_same h2 h' v) by (apply Same; lia).
    rewrite <- (read_same (w_heap w) h1 v) by now apply S1.
    unfold h2. rewrite (read_same (write h1 (o_current_y o1) (fst r))).
    - apply read_same, write_other. apply (Priv (o_current_y o1)); [cbn; tauto|exact Hv].
    - apply write_other. apply (Priv (o_current_yd o1)); [cbn; tauto|exact Hv]. }
  assert (PI := P1). unfold params in PI. injection PI as A1 A2 A3 A4 A5 A6.
  f_equal.
  1-6: rewrite Par by (unfold params; cbn; tauto); congruence.
  - rewrite (read_same h2 h') by (now apply Same). exact Ry.
  - rewrite (read_same h2 h') by (now apply Same). exact Ryd.
  - rewrite (read_same h2 h') by (apply Same, Priv; cbn; tauto).
    rewrite W1 in *. unfold h2.
    rewrite (read_same (write h1 (o_current_y o1) (fst r))) by (apply write_other; congruence).
    rewrite (read_same h1) by (apply write_other; congruence).
    apply read_same, S1. apply (inv_privates _ _ I). cbn. tauto.
Qed.

(** [reset] of the DMPs: the state is the start state again, in new arrays; start,
    goal and weights stay.  [reset] of the spring-dampers leaves all arrays alone. *)
Inductive resetting_class : klass -> Prop :=
| rc_dmp n nw dt f g : resetting_class (class_dmp n nw dt f g)
| rc_final n nw dt f g : resetting_class (class_dmp_final_velocity n nw dt f g)
| rc_cartesian nw dt f g : resetting_class (class_cartesian nw dt f g)
| rc_dual nw dt f g : resetting_class (class_dual nw dt f g).
Theorem C64_reset_result : forall k w h' o', resetting_class k -> history k w ->
  reset k (w_heap w) (w_obj w) = (h', o') ->
  let c := contents_of (w_heap w) (w_obj w) in
  (h_next (w_heap w) <= v_buf (o_current_y o'))%nat /\ (h_next (w_heap w) <= v_buf (o_current_yd o'))%nat /\
  v_buf (o_current_y o') <> v_buf (o_current_yd o') /\
  o_t o' = 0 /\ o_last_t o' = None /\
  contents_of h' o' =
    {| c_start_y := c_start_y c; c_start_yd := c_start_yd c; c_start_ydd := c_start_ydd c;
       c_goal_y := c_goal_y c; c_goal_yd := c_goal_yd c; c_goal_ydd := c_goal_ydd c;
       c_current_y := c_start_y c; c_current_yd := c_start_yd c; c_weights := c_weights c |}.
Proof.
  intros k w h' o' Hr H E c.
  assert (Hk : k_returns_copies k = true) by (now destruct Hr).
  assert (Hc : k_reset_copies k = true) by (now destruct Hr).
  pose proof (history_inv k w Hk H) as I. unfold reset in E. rewrite Hc in E.
  cbn [set_time o_start_y o_start_yd] in E.
  destruct (copy (w_heap w) (o_start_y (w_obj w))) as [ha y] eqn:Ea.
  destruct (copy ha (o_start_yd (w_obj w))) as [hb yd] eqn:Eb. injection E as <- <-.
  destruct (copy_next _ _ _ _ Ea) as (Na & Va & _). destruct (copy_next _ _ _ _ Eb) as (Nb & Vb & _).
  cbn [set_time set_currents o_current_y o_current_yd o_t o_last_t].
  split; [lia|]. split; [lia|]. split; [lia|]. split; [reflexivity|]. split; [reflexivity|].
  assert (S : forall v, (v_buf v < h_next (w_heap w))%nat -> read hb v = read (w_heap w) v).
  { intros v Hv. apply read_same. eapply same_trans; eapply copy_other; try eassumption; lia. }
  unfold c, contents_of.
  cbn [set_time set_currents o_start_y o_start_yd o_start_ydd o_goal_y o_goal_yd o_goal_ydd o_current_y o_current_yd o_weights
       c_start_y c_start_yd c_start_ydd c_goal_y c_goal_yd c_goal_ydd c_current_y c_current_yd c_weights].
  f_equal.
  1-6: apply S, (inv_params _ _ I); cbn; tauto.
  - rewrite (read_same ha hb) by (eapply copy_other; [exact Eb|]; lia). exact (read_copy _ _ _ _ Ea).
  - rewrite (read_copy _ _ _ _ Eb). apply read_same. eapply copy_other; [exact Ea|].
    apply (inv_params _ _ I). cbn. tauto.
  - apply S, (inv_privates _ _ I). cbn. tauto.
Qed.
Theorem C64_reset_spring : forall n nv dt f h o h' o', reset (class_spring n nv dt f) h o = (h', o') ->
  contents_of h' o' = contents_of h o /\ h' = h /\ o_t o' = 0 /\ o_last_t o' = None.
Proof. intros n nv dt f h o h' o' [= <- <-]. now repeat split. Qed.

(** A step of a precomputed minimum jerk trajectory writes to no existing array and
    returns new ones. *)
Theorem C64_minimum_jerk : forall n generate h o h' o' r,
  min_jerk_step n generate h o = (h', o', r) ->
  (forall v, (v_buf v < h_next h)%nat -> read h' v = read h v) /\
  (forall y yd, r = Some (y, yd) -> (h_next h <= v_buf y)%nat /\ (h_next h <= v_buf yd)%nat /\ v_buf y <> v_buf yd).
Proof.
  intros n generate h o h' o' r. unfold min_jerk_step.
  assert (F : forall h0 rows X Xd, 
    (forall b, (b < h_next h)%nat -> same_buf h h0 b) -> (h_next h <= h_next h0)%nat ->
    (let o := {| m_start_y := m_start_y o; m_goal_y := m_goal_y o; m_traj := Some (rows, X, Xd);
              m_idx := m_idx o; m_current := m_current o |} in
    if Nat.ltb (m_idx o) rows then
    let y := row X n (m_idx o) in let yd := row Xd n (m_idx o) in
    let (h, ry) := copy h0 y in
    let (h, ryd) := copy h yd in
    (h, {| m_start_y := m_start_y o; m_goal_y := m_goal_y o; m_traj := m_traj o;
           m_idx := S (m_idx o); m_current := Some (y, yd) |}, Some (ry, ryd))
    else (h0, o, None)) = (h', o', r) ->
    (forall v, (v_buf v < h_next h)%nat -> read h' v = read h v) /\
    (forall y yd, r = Some (y, yd) -> (h_next h <= v_buf y)%nat /\ (h_next h <= v_buf yd)%nat /\ v_buf y <> v_buf yd)).
  { intros h0 rows X Xd S0 L0. cbv zeta. cbn [m_idx].
    destruct (Nat.ltb (m_idx o) rows).
    - destruct (copy h0 _) as [ha ry] eqn:Ea. destruct (copy ha _) as [hb ryd] eqn:Eb. intros [= <- <- <-].
      destruct (copy_next _ _ _ _ Ea) as (Na & Va & _). destruct (copy_next _ _ _ _ Eb) as (Nb & Vb & _).
      split.
      + intros v Hv. apply read_same. eapply same_trans; [now apply S0|].
        eapply same_trans; eapply copy_other; try eassumption; lia.
      + intros y yd [= <- <-]. lia.
    - intros [= <- <- <-]. split; [|discriminate]. intros v Hv. now apply read_same, S0. }
  destruct (m_traj o) as [[[rows X] Xd]|].
  - apply F; [intros b _ j; reflexivity|lia].
  - destruct (generate _ _) as [[rows x] xd].
    destruct (alloc h (rows * n) x) as [ha X] eqn:Ea. destruct (alloc ha (rows * n) xd) as [hb Xd] eqn:Eb.
    apply F.
    + intros b Hb. injection Ea as <- <-. injection Eb as <- <-.
      intros j. cbn. replace (Nat.eqb b (S (h_next h))) with false by (symmetry; apply Nat.eqb_neq; lia).
      now replace (Nat.eqb b (h_next h)) with false by (symmetry; apply Nat.eqb_neq; lia).
    + injection Ea as <- <-. injection Eb as <- <-. cbn. lia.
Qed.

(** StateFollowingDMP returns its internal arrays: a second step returns the same
    arrays and so replaces the contents of the result of the first. *)
Theorem C64_state_following_refuted : forall n nw dt f h o last_y last_yd last_y' last_yd' h1 o1 y yd h2 o2 y' yd',
  step (class_state_following n nw dt f) last_y last_yd h o = (h1, o1, Some (y, yd)) ->
  step (class_state_following n nw dt f) last_y' last_yd' h1 o1 = (h2, o2, Some (y', yd')) ->
  y' = y /\ yd' = yd /\ read h2 y = read h2 y'.
Proof.
  intros n nw dt f h o ly lyd ly' lyd' h1 o1 y yd h2 o2 y' yd'. unfold step.
  destruct (negb _); [discriminate|]. cbv zeta. cbn [class_state_following k_lazy_init k_integrate k_returns_copies andb].
  destruct (f _ _ _ _ _) as [a b]. intros [= <- <- <- <-].
  destruct (negb _); [discriminate|].
  destruct (f _ _ _ _ _) as [a' b']. intros [= <- <- <- <-]. now repeat split.
Qed.

(** With an integrator that moves along the velocity: the first result changes. *)
Example C64_state_following_witness :
  let k := class_state_following 1 1 1 (fun _ dt _ y yd => (fun i => y i + dt * yd i, yd)) in
  exists w h1 o1 y yd h2 o2 r, history k w /\
  exists u v, of_caller w u /\ of_caller w v /\
  step k u v (w_heap w) (w_obj w) = (h1, o1, Some (y, yd)) /\
  step k u v h1 o1 = (h2, o2, Some r) /\
  read h1 y 0%nat = 1 /\ read h2 y 0%nat = 2.
Proof.
  intros k. set (h0 := {| h_next := 0; h_data := fun _ _ => 0 |}).
  set (u := {| v_buf := 9; v_off := 0; v_len := 1 |}). set (v := {| v_buf := 10; v_off := 0; v_len := 1 |}).
  set (ha := fst (alloc (fst (new_obj k h0)) 1 vzero)).
  set (hb := fst (alloc ha 1 (fun _ => 1))).
  set (w := {| w_heap := hb; w_obj := snd (new_obj k h0); w_caller := [10; 9]%nat |}).
  set (r1 := step k u v (w_heap w) (w_obj w)).
  set (r2 := step k u v (fst (fst r1)) (snd (fst r1))).
  set (cy := o_current_y (w_obj w)). set (cyd := o_current_yd (w_obj w)).
  exists w, (fst (fst r1)), (snd (fst r1)), cy, cyd, (fst (fst r2)), (snd (fst r2)), (cy, cyd).
  split.
  - eapply (history_caller k {| w_heap := ha; w_obj := snd (new_obj k h0); w_caller := [9]%nat |}).
    + eapply (history_caller k {| w_heap := fst (new_obj k h0); w_obj := snd (new_obj k h0); w_caller := [] |}).
      * apply (history_new k h0). reflexivity.
      * exact (caller_alloc {| w_heap := fst (new_obj k h0); w_obj := snd (new_obj k h0); w_caller := [] |} 1 vzero ha u eq_refl).
    + exact (caller_alloc {| w_heap := ha; w_obj := snd (new_obj k h0); w_caller := [9]%nat |} 1 (fun _ => 1) hb v eq_refl).
  - exists u, v. split; [split; cbn; [tauto|lia]|]. split; [split; cbn; [tauto|lia]|].
    split; [reflexivity|]. split; [reflexivity|]. split; cbn; unfold vzero; ring.
Qed.

(** Except for CartesianDMP, [get_weights] returns a view of the weights, which later
    calls of [set_weights] change. *)
Inductive viewing_class : klass -> Prop :=
| vc_dmp n nw dt f g : viewing_class (class_dmp n nw dt f g)
| vc_final n nw dt f g : viewing_class (class_dmp_final_velocity n nw dt f g)
| vc_dual nw dt f g : viewing_class (class_dual nw dt f g).
Theorem C64_get_weights_refuted : forall k h o w h1 o1 v h2, viewing_class k ->
  v_len (o_weights o) = k_nw k ->
  get_weights k h o = (h1, w) ->
  set_weights k v h1 o1 = (h2, true) -> o_weights o1 = o_weights o ->
  read h2 w = read h1 v.
Proof.
  intros k h o w h1 o1 v h2 Hvk Hl. assert (Hk : k_weights_view k = true) by (now destruct Hvk).
  unfold get_weights, set_weights. rewrite Hk. intros [= <- <-].
  destruct (Nat.eqb_spec (v_len v) (k_nw k)) as [L|]; [|discriminate]. intros [= <-] Ew.
  rewrite Ew, read_write, Hl, <- L. apply trunc_read.
Qed.

(** [get_weights] of CartesianDMP returns a new array that holds the weights: later
    calls do not change it, and writing to it does not change the object. *)
Theorem C64_get_weights_cartesian : forall nw dt f g w h' v,
  history (class_cartesian nw dt f g) w ->
  get_weights (class_cartesian nw dt f g) (w_heap w) (w_obj w) = (h', v) ->
  (h_next (w_heap w) <= v_buf v)%nat /\
  read h' v = c_weights (contents_of (w_heap w) (w_obj w)) /\
  contents_of h' (w_obj w) = contents_of (w_heap w) (w_obj w) /\
  (forall x, contents_of (write h' v x) (w_obj w) = contents_of (w_heap w) (w_obj w)) /\
  (forall w', calls (class_cartesian nw dt f g)
     {| w_heap := h'; w_obj := w_obj w; w_caller := v_buf v :: w_caller w |} w' ->
     read (w_heap w') v = c_weights (contents_of (w_heap w) (w_obj w))).
Proof.
  intros nw dt f g w h' v H E.
  assert (I := history_inv (class_cartesian nw dt f g) w eq_refl H). assert (E' := E). unfold get_weights in E'. cbn in E'.
  destruct (copy_next _ _ _ _ E') as (N & V & _).
  assert (R : read h' v = c_weights (contents_of (w_heap w) (w_obj w))) by exact (read_copy _ _ _ _ E').
  assert (S : forall u, (v_buf u < h_next (w_heap w))%nat -> read h' u = read (w_heap w) u).
  { intros u Hu. apply read_same. eapply copy_other; [exact E'|lia]. }
  assert (S2 : forall x u, (v_buf u < h_next (w_heap w))%nat -> read (write h' v x) u = read (w_heap w) u).
  { intros x u Hu. rewrite <- S by assumption. apply read_same, write_other. lia. }
  split; [lia|]. split; [exact R|].
  split; [|split].
  - unfold contents_of. f_equal; apply S; try (apply (inv_params _ _ I); cbn; tauto); apply (inv_privates _ _ I); cbn; tauto.
  - intros x. unfold contents_of.
    f_equal; apply S2; try (apply (inv_params _ _ I); cbn; tauto); apply (inv_privates _ _ I); cbn; tauto.
  - intros w' Hc. rewrite <- R.
    apply (C64_snapshots (class_cartesian nw dt f g)
      {| w_heap := h'; w_obj := w_obj w; w_caller := v_buf v :: w_caller w |} w' v); auto.
    + constructor.
    + eapply (history_call _ w); [exact H|]. exact (call_get_weights (class_cartesian nw dt f g) w h' v E).
    + split; cbn; [tauto|lia].
Qed.

(** ** C79 *)

(** The only arrays of the caller that an object depends on are those that are
    stored as start or goal: writing to any other array of the caller, such as one
    passed to [step] or [set_weights], changes nothing. *)
Theorem C79_others_independent_partial : forall k w v x, copying_class k -> history k w -> of_caller w v ->
  ~ In (v_buf v) (map v_buf (params (w_obj w))) ->
  contents_of (write (w_heap w) v x) (w_obj w) = contents_of (w_heap w) (w_obj w).
Proof.
  intros k w v x Hc H [Hv Hv'] Hn. pose proof (copying k Hc) as Hk. pose proof (history_inv k w Hk H) as I.
  assert (P : forall u, In u (params (w_obj w)) -> read (write (w_heap w) v x) u = read (w_heap w) u).
  { intros u Hu. apply read_same, write_other. intros E. apply Hn. rewrite <- E. now apply in_map. }
  assert (Q : forall u, In u (privates (w_obj w)) -> read (write (w_heap w) v x) u = read (w_heap w) u).
  { intros u Hu. apply read_same, write_other. intros E.
    destruct (inv_privates _ _ I u Hu) as (_ & N & _). apply N. now rewrite E. }
  unfold contents_of. f_equal; try (apply P; cbn; tauto); apply Q; cbn; tauto.
Qed.

(** [configure] stores the array itself: a later write of the caller moves the goal. *)
Theorem C79_configure_refuted : forall k h o o' g x, v_len g = k_n k ->
  configure k {| f_t := None; f_start_y := None; f_start_yd := None; f_start_ydd := None;
                 f_goal_y := Some g; f_goal_yd := None; f_goal_ydd := None |} o = (o', true) ->
  c_goal_y (contents_of h o') = read h g /\
  c_goal_y (contents_of (write h g x) o') = trunc (k_n k) x.
Proof.
  intros k h o o' g x Hl. unfold configure. cbn [f_t f_start_y f_start_yd f_start_ydd f_goal_y f_goal_yd f_goal_ydd assign].
  rewrite Hl, Nat.eqb_refl. intros [= <-]. cbn. split; [reflexivity|]. now rewrite read_write, Hl.
Qed.

(** [imitate] stores the first and the last row of the demonstration as start and
    goal: a later write to the demonstration moves both. *)
Theorem C79_imitate_refuted : forall k n Y vel h o h' o' x, (0 < n)%nat -> v_len Y = (n * k_n k)%nat ->
  imitate k n Y vel h o = (h', o') ->
  c_start_y (contents_of (write h' Y x) o') = trunc (k_n k) x /\
  c_goal_y (contents_of (write h' Y x) o') = trunc (k_n k) (fun i => x ((n - 1) * k_n k + i)%nat).
Proof.
  intros k n Y vel h o h' o' x Hn Hl E.
  assert (G : o_start_y o' = row Y (k_n k) 0 /\ o_goal_y o' = row Y (k_n k) (n - 1)).
  { unfold imitate in E. destruct (k_imitates_velocities k).
    - destruct (alloc _ _ _) as [h2 Yd] eqn:E2. destruct (alloc h2 _ _) as [h3 Ydd] eqn:E3.
      injection E as _ <-. unfold configure, assign. cbn [f_t f_start_y f_start_yd f_start_ydd f_goal_y f_goal_yd f_goal_ydd row v_len].
      rewrite !Nat.eqb_refl. now split.
    - injection E as _ <-. unfold configure, assign. cbn [f_t f_start_y f_start_yd f_start_ydd f_goal_y f_goal_yd f_goal_ydd row v_len].
      rewrite !Nat.eqb_refl. now split. }
  destruct G as [G1 G2]. unfold contents_of. cbn [c_start_y c_goal_y]. rewrite G1, G2.
  assert (R : forall i, (i < n)%nat -> read (write h' Y x) (row Y (k_n k) i) = trunc (k_n k) (fun j => x (i * k_n k + j)%nat)).
  { intros i Hi. apply functional_extensionality. intros j. unfold read, write, trunc, row. cbn [v_len v_buf v_off h_data].
    destruct (Nat.ltb_spec j (k_n k)); [|reflexivity]. rewrite Nat.eqb_refl, Hl.
    assert (i * k_n k + j < n * k_n k)%nat by nia.
    replace (Nat.leb (v_off Y) (v_off Y + i * k_n k + j)) with true by (symmetry; apply Nat.leb_le; lia).
    replace (Nat.ltb (v_off Y + i * k_n k + j) (v_off Y + n * k_n k)) with true by (symmetry; apply Nat.ltb_lt; lia).
    cbn [andb]. f_equal. lia. }
  split.
  - rewrite R by exact Hn. reflexivity.
  - apply R. lia.
Qed.

Lemma triple {A B C} (r : A * B * C) c : snd r = c -> r = (fst (fst r), snd (fst r), c).
Proof. now destruct r as [[a b] d]; cbn; intros ->. Qed.

(** ** A concrete history: a DMP is created, configured with a goal of the caller and
    stepped twice with the results fed back. *)
Example C64_satisfiable :
  let k := class_dmp 1 1 1 (fun _ dt c y yd => (fun i => c_current_y c i + (c_goal_y c i - c_current_y c i) / 2, yd)) (fun _ w _ => w) in
  exists w w' y, copying_class k /\ history k w /\ of_caller w y /\ calls k w w' /\
    read (w_heap w) y 0%nat = 1 / 2 /\ read (w_heap w') y 0%nat = 1 / 2 /\
    c_current_y (contents_of (w_heap w') (w_obj w')) 0%nat = 3 / 4.
Proof.
  intros k. set (h0 := {| h_next := 0; h_data := fun _ _ => 0 |}).
  set (g := {| v_buf := 9; v_off := 0; v_len := 1 |}). set (z := {| v_buf := 10; v_off := 0; v_len := 1 |}).
  set (ha := fst (alloc (fst (new_obj k h0)) 1 (fun _ => 1))).
  set (hb := fst (alloc ha 1 vzero)).
  set (cf := {| f_t := None; f_start_y := None; f_start_yd := None; f_start_ydd := None;
                f_goal_y := Some g; f_goal_yd := None; f_goal_ydd := None |}).
  set (o1 := fst (configure k cf (snd (new_obj k h0)))).
  set (w1 := {| w_heap := hb; w_obj := o1; w_caller := [10; 9]%nat |}).
  set (r1 := step k z z hb o1).
  set (y := {| v_buf := 13; v_off := 0; v_len := 1 |}). set (yd := {| v_buf := 14; v_off := 0; v_len := 1 |}).
  set (w2 := {| w_heap := fst (fst r1); w_obj := snd (fst r1); w_caller := [13; 14; 10; 9]%nat |}).
  set (r2 := step k y yd (fst (fst r1)) (snd (fst r1))).
  set (w3 := {| w_heap := fst (fst r2); w_obj := snd (fst r2); w_caller := [15; 16; 13; 14; 10; 9]%nat |}).
  exists w2, w3, y. split; [constructor|]. split.
  - apply (history_call k w1 w2).
    + apply (history_call k {| w_heap := hb; w_obj := snd (new_obj k h0); w_caller := [10; 9]%nat |}).
      * eapply (history_caller k {| w_heap := ha; w_obj := snd (new_obj k h0); w_caller := [9]%nat |}).
        -- eapply (history_caller k {| w_heap := fst (new_obj k h0); w_obj := snd (new_obj k h0); w_caller := [] |}).
           ++ apply (history_new k h0). reflexivity.
           ++ exact (caller_alloc {| w_heap := fst (new_obj k h0); w_obj := snd (new_obj k h0); w_caller := [] |} 1 (fun _ => 1) ha g eq_refl).
        -- exact (caller_alloc {| w_heap := ha; w_obj := snd (new_obj k h0); w_caller := [9]%nat |} 1 vzero hb z eq_refl).
      * apply (call_configure k {| w_heap := hb; w_obj := snd (new_obj k h0); w_caller := [10; 9]%nat |} cf o1 true).
        -- change (config_views cf) with [g]. constructor; [|constructor]. split; cbn; [tauto|lia].
        -- reflexivity.
    + apply (call_step k w1 z z (fst (fst r1)) (snd (fst r1)) y yd).
      * split; cbn; [tauto|lia].
      * split; cbn; [tauto|lia].
      * apply triple. reflexivity.
  - split; [split; cbn; [tauto|lia]|]. split.
    + eapply calls_call; [|constructor].
      apply (call_step k w2 y yd (fst (fst r2)) (snd (fst r2)) {| v_buf := 15; v_off := 0; v_len := 1 |} {| v_buf := 16; v_off := 0; v_len := 1 |}).
      * split; cbn; [tauto|lia].
      * split; cbn; [tauto|lia].
      * apply triple. reflexivity.
    + split; [|split]; cbn; unfold vzero; lra.
Qed.
