(** The array-level quaternion and dual-arm steps compute what the value-level models
    compute. *)
From Coq Require Import Reals List Arith Bool Lia Lra.
From Verif Require Import M_Prelude M_Base M_Forcing M_Dmp M_Quaternion M_Cartesian M_Dual M_Cython
  P_Cython P_CythonValues.
Import ListNotations.
Open Scope R_scope.
Set Bullet Behavior "Strict Subproofs".

(** An array of three (four) entries that holds a vector (quaternion). *)
Definition at3 (a : arr) (v : v3) : Prop := alen a = 3%nat /\ v_at a = v.
Definition at4 (a : arr) (q : quat) : Prop := alen a = 4%nat /\ q_at a = q.

Lemma at3_of v : at3 (of_vec 3 (vec_of_v3 v)) v.
Proof. split; [reflexivity |]. now destruct v. Qed.
Lemma at4_of q : at4 (of_vec 4 (vec_of_quat q)) q.
Proof. split; [reflexivity |]. now destruct q. Qed.
Lemma at3_zeros : at3 (zeros 3) v3_zero.
Proof. split; reflexivity. Qed.

Lemma at3_map a v f : at3 a v -> at3 (np_map f a) (V3 (f (v3x v)) (f (v3y v)) (f (v3z v))).
Proof. intros [H <-]. split; [assumption | reflexivity]. Qed.

Lemma at3_op r f a b u v (Q : arr -> Prop) : at3 a u -> at3 b v ->
  (forall c, at3 c (V3 (f (v3x u) (v3x v)) (f (v3y u) (v3y v)) (f (v3z u) (v3z v))) -> Q c) ->
  tri r (np_op f a b) Q.
Proof.
  intros [H1 <-] [H2 <-] HQ. apply tri_op_eq; [congruence |]. apply HQ. split; [assumption | reflexivity].
Qed.

Lemma at3_iadd r a b u v (Q : arr -> Prop) : at3 a u -> at3 b v ->
  (forall c, at3 c (v3_add u v) -> Q c) -> tri r (np_iadd a b) Q.
Proof.
  intros [H1 <-] [H2 <-] HQ. apply tri_iadd_eq; [congruence |]. apply HQ. split; [assumption | reflexivity].
Qed.

Lemma at3_assign r a b v (Q : arr -> Prop) : alen a = 3%nat -> at3 b v ->
  (forall c, at3 c v -> Q c) -> tri r (np_assign a b) Q.
Proof. intros H [H2 <-] HQ. apply tri_assign_eq; [congruence |]. apply HQ. split; [assumption | reflexivity]. Qed.

Lemma at4_assign r a b v (Q : arr -> Prop) : alen a = 4%nat -> at4 b v ->
  (forall c, at4 c v -> Q c) -> tri r (np_assign a b) Q.
Proof. intros H [H2 <-] HQ. apply tri_assign_eq; [congruence |]. apply HQ. split; [assumption | reflexivity]. Qed.

Lemma agree_at3 a v : agree 3 a v -> at3 a (v3_of v).
Proof. intros [H E]. split; [assumption |]. unfold v_at, v3_of. now rewrite !E by lia. Qed.

Lemma at3_assign_nd r a v (Q : arr -> Prop) : alen a = 3%nat -> (forall c, at3 c v -> Q c) ->
  tri r (np_assign_nd a (nd1 (of_vec 3 (vec_of_v3 v)))) Q.
Proof.
  intros H HQ. apply (agree_assign_nd r 3); [assumption |]. intros c Hc. apply HQ.
  apply agree_at3 in Hc. destruct v. exact Hc.
Qed.

(** The acceleration of an orientation. *)
Definition acc_value (et : R) (alpha beta error yd smoothing f cdd : v3) : v3 :=
  v3_divs (v3_add (v3_add (v3_mul alpha (v3_sub (v3_sub (v3_mul beta error) (v3_scale et yd)) smoothing)) f) cdd)
    (et ^ 2).

Lemma rotation_acc_values k al be e yd sm f cdd xal xbe xe xyd xsm xf xcdd (Q : arr -> Prop) :
  at3 al xal -> at3 be xbe -> at3 e xe -> at3 yd xyd -> at3 sm xsm -> at3 f xf -> at3 cdd xcdd ->
  (forall c, at3 c (acc_value (k_goal_t k - k_start_t k) xal xbe xe xyd xsm xf xcdd) -> Q c) ->
  tri False (c_rotation_acc k al be e yd sm f cdd) Q.
Proof.
  intros H1 H2 H3 H4 H5 H6 H7 HQ. unfold c_rotation_acc. cbv zeta.
  apply tri_bind. eapply at3_op; [exact H2 | exact H3 |]. intros x1 X1.
  apply tri_bind. eapply at3_op; [exact X1 | apply at3_map; exact H4 |]. intros x2 X2.
  apply tri_bind. eapply at3_op; [exact X2 | exact H5 |]. intros x3 X3.
  apply tri_bind. eapply at3_op; [exact H1 | exact X3 |]. intros x4 X4.
  apply tri_bind. eapply at3_op; [exact X4 | exact H6 |]. intros x5 X5.
  apply tri_bind. eapply at3_op; [exact X5 | exact H7 |]. intros x6 X6.
  apply tri_done, HQ. apply (at3_map _ _ (fun e => e / (k_goal_t k - k_start_t k) ^ 2) X6).
Qed.

Lemma error_values junk p q xp xq (Q : arr -> Prop) : at4 p xp -> at4 q xq ->
  (forall c, at3 c (q_error Cython xp xq) -> Q c) -> tri False (c_rotation_error junk p q) Q.
Proof.
  intros [H1 <-] [H2 <-] HQ. eapply tri_weaken; [apply error_spec; lia |]. intros c [Hl Hc].
  apply HQ. split; assumption.
Qed.

Lemma smoothing_values (b : bool) junk k beta z p q xb xp xq (Q : arr -> Prop) :
  at3 beta xb -> at4 p xp -> at4 q xq -> k_smooth_scaling k = b ->
  (forall c, at3 c (if b then v3_mul (v3_scale z xb) (q_error Cython xp xq) else v3_zero) -> Q c) ->
  tri False (if k_smooth_scaling k then
       g <- c_rotation_error junk p q;;
       x <- np_op Rmult (np_map (fun b => b * z) beta) g;;
       np_assign (np_empty junk 3) x
     else Done (zeros 3)) Q.
Proof.
  intros H1 H2 H3 -> HQ. destruct b; [| apply tri_done, HQ, at3_zeros].
  apply tri_bind. eapply error_values; [exact H2 | exact H3 |]. intros g Hg.
  apply tri_bind. eapply at3_op; [apply at3_map; exact H1 | exact Hg |]. intros x Hx.
  eapply at3_assign; [reflexivity | exact Hx |]. intros c Hc. apply HQ.
  cbn [v3x v3y v3z] in Hc. destruct Hc as [Hl Hv]. split; [exact Hl |]. rewrite Hv.
  unfold v3_mul, v3_scale. cbn [v3x v3y v3z]. f_equal; f_equal; ring.
Qed.

(** *** The quaternion step *)
Definition RelQ (s : quat * v3) (s' : arr * arr) : Prop := at4 (fst s') (fst s) /\ at3 (snd s') (snd s).

Lemma quaternion_body_values junk a ct dt s s' : RelQ s s' ->
  tri False (c_quaternion_body junk (cy_of_quaternion a) ct dt s') (fun x => RelQ (q_body Cython a ct dt s) x).
Proof.
  intros [H1 H2]. destruct s as [y yd], s' as [y' yd']. cbn [fst snd] in H1, H2.
  unfold c_quaternion_body, q_body. cbv zeta.
  apply tri_bind. apply (tri_weaken False _ (fun p =>
    at3 (fst p) (fst (q_coupling Cython a y yd)) /\ at3 (snd p) (snd (q_coupling Cython a y yd)))).
  { unfold q_coupling. cbn [k_coupling_term k_precomputed cy_of_quaternion].
    destruct (g_coupling_term a) as [c |]; cbn [option_map].
    - unfold qcoupling_object. destruct H1 as [H1 E1], H2 as [H2 E2]. unfold q_at, v_at in E1, E2. rewrite E1, E2.
      destruct (c y yd) as [x xd]. cbn [cbind].
      apply tri_bind. apply at3_assign_nd; [reflexivity |]. intros cd Hcd.
      apply tri_bind. apply at3_assign_nd; [reflexivity |]. intros cdd Hcdd. apply tri_done. now split.
    - destruct (g_precomputed a) as [[x xd] |]; cbn [option_map fst snd].
      + apply tri_bind. apply at3_assign_nd; [reflexivity |]. intros cd Hcd.
        apply tri_bind. apply at3_assign_nd; [reflexivity |]. intros cdd Hcdd. apply tri_done. now split.
      + apply tri_done. cbn [fst snd]. split; apply at3_zeros. }
  intros [cd cdd] [Hcd Hcdd]. destruct (q_coupling Cython a y yd) as [xcd xcdd]. cbn [fst snd] in Hcd, Hcdd.
  cbv beta iota. cbn [k_forcing_term cy_of_quaternion ft_object fo_phase fo_forces of_res cbind].
  set (z := ft_phase (g_forcing_term a) ct).
  apply tri_bind. apply (agree_forces False 3); [reflexivity |]. intros f Hf. apply agree_at3 in Hf.
  apply tri_bind. eapply (smoothing_values (g_smooth_scaling a) junk (cy_of_quaternion a));
    [apply at3_of | apply at4_of | apply at4_of | reflexivity |]. intros sm Hsm.
  apply tri_bind. eapply error_values; [apply at4_of | exact H1 |]. intros e He.
  apply tri_bind. eapply rotation_acc_values;
    [apply at3_of | apply at3_of | exact He | exact H2 | exact Hsm | exact Hf | exact Hcdd |]. intros x Hx.
  apply tri_bind. eapply at3_assign; [reflexivity | exact Hx |]. intros ydd Hydd.
  apply tri_bind. eapply at3_op; [apply at3_map; exact Hydd | apply at3_map; exact Hcd |]. intros x' Hx'.
  apply tri_bind. eapply at3_iadd; [exact H2 | exact Hx' |]. intros yd2 Hyd2.
  apply tri_bind. pose proof (at3_map _ _ (Rmult dt) Hyd2) as [Hl Hv].
  eapply tri_weaken; [apply exp_spec; lia |]. intros q [Hq Eq]. rewrite Hv in Eq.
  apply tri_bind. eapply tri_weaken; [apply concat_spec; [lia | destruct H1 as [H1 _]; lia] |]. intros q' [Hq' Eq'].
  apply tri_bind. eapply at4_assign; [apply H1 | split; [exact Hq' | exact Eq'] |]. intros y2 Hy2.
  apply tri_done. split; cbn [fst snd].
  - rewrite Eq in Hy2. destruct H1 as [_ H1]. rewrite H1 in Hy2. exact Hy2.
  - exact Hyd2.
Qed.

Lemma quaternion_values junk a last_t t s s' : RelQ s s' ->
  match q_step Cython a last_t t s with
  | Ok x => exists x', c_dmp_step_quaternion junk (cy_of_quaternion a) last_t t s' = Done x' /\ RelQ x x'
  | Err e => c_dmp_step_quaternion junk (cy_of_quaternion a) last_t t s' = Raised e
  end.
Proof.
  intros [H1 H2]. unfold q_step, c_dmp_step_quaternion.
  set (s0 := if Rle_dec t (g_start_t a) then (g_start_y a, g_start_yd a) else s).
  assert (T : tri False (c_restart (cy_of_quaternion a) t s') (fun x => RelQ s0 x)).
  { unfold c_restart, s0. cbn [k_start_t k_start_y k_start_yd cy_of_quaternion].
    destruct (Rle_dec t (g_start_t a)); [| now apply tri_done].
    apply tri_bind. eapply at4_assign; [apply H1 | apply at4_of |]. intros y Hy.
    apply tri_bind. eapply at3_assign; [apply H2 | apply at3_of |]. intros yd Hyd. apply tri_done. now split. }
  destruct (c_restart (cy_of_quaternion a) t s') as [s1 | e |]; cbn [tri] in T; try contradiction. cbn [cbind].
  cbn [k_int_dt cy_of_quaternion].
  pose proof (c_substeps_refines RelQ (q_body Cython a) (c_quaternion_body junk (cy_of_quaternion a)) t (g_int_dt a)
    (substeps_fuel last_t t (g_int_dt a)) last_t s0 s1 T
    (fun ct dt x x' H => quaternion_body_values junk a ct dt x x' H)) as U.
  destruct (substeps _ _ _ _ _ _) as [x | e]; [| exact U].
  destruct (c_substeps _ _ _ _ _ _) as [x' | e |]; cbn [tri] in U; try contradiction. eauto.
Qed.

(** *** The dual-arm step *)

(** The vector [u] with [len] entries from [off] on replaced by those of [w]. *)
Definition splice (off len : nat) (w u : vec) : vec := fun i =>
  if (Nat.leb off i && Nat.ltb i (off + len))%bool then w (i - off)%nat else u i.

Lemma agree_wr_upd r n a v i x (Q : arr -> Prop) : agree n a v -> (i < n)%nat ->
  (forall c, agree n c (upd v i x) -> Q c) -> tri r (c_wr a i x) Q.
Proof.
  intros [H1 H2] Hi HQ. apply tri_wr; [lia |]. apply HQ. split; [exact H1 |].
  intros j Hj. cbn [aget]. unfold upd. destruct (Nat.eqb_spec j i); [reflexivity | now apply H2].
Qed.

Lemma slice3 n a v off : agree n a v -> (off + 3 <= n)%nat ->
  at3 (np_slice off (off + 3) a) (v3_of (slice off 3 v)).
Proof.
  intros [H1 H2] Hn. split; [cbn [np_slice alen]; lia |]. unfold v_at, v3_of, np_slice, slice. cbn [aget Nat.ltb Nat.leb].
  now rewrite !H2 by lia.
Qed.

Lemma slice4 n a v off : agree n a v -> (off + 4 <= n)%nat ->
  at4 (np_slice off (off + 4) a) (quat_of (slice off 4 v)).
Proof.
  intros [H1 H2] Hn. split; [cbn [np_slice alen]; lia |]. unfold q_at, quat_of, np_slice, slice. cbn [aget Nat.ltb Nat.leb].
  now rewrite !H2 by lia.
Qed.

Lemma set_slice3 r n a u off b x (Q : arr -> Prop) : agree n a u -> (off + 3 <= n)%nat -> at3 b x ->
  (forall c, agree n c (splice off 3 (vec_of_v3 x) u) -> Q c) -> tri r (np_set_slice off (off + 3) a b) Q.
Proof.
  intros [H1 H2] Hn [H3 <-] HQ. unfold np_set_slice. apply tri_bind.
  apply tri_assign_eq; [cbn [np_slice alen]; lia |]. apply tri_done, HQ. split; [exact H1 |].
  intros i Hi. cbn [aget alen np_slice]. unfold splice. replace (Nat.min (off + 3) (alen a) - off)%nat with 3%nat by lia.
  destruct (Nat.leb_spec off i), (Nat.ltb_spec i (off + 3)); cbn [andb]; try (now apply H2).
  replace i with (off + (i - off))%nat by lia. remember (i - off)%nat as j. replace (off + j - off)%nat with j by lia.
  destruct j as [| [| [| j]]]; try reflexivity. lia.
Qed.

Lemma set_slice4 r n a u off b x (Q : arr -> Prop) : agree n a u -> (off + 4 <= n)%nat -> at4 b x ->
  (forall c, agree n c (splice off 4 (vec_of_quat x) u) -> Q c) -> tri r (np_set_slice off (off + 4) a b) Q.
Proof.
  intros [H1 H2] Hn [H3 <-] HQ. unfold np_set_slice. apply tri_bind.
  apply tri_assign_eq; [cbn [np_slice alen]; lia |]. apply tri_done, HQ. split; [exact H1 |].
  intros i Hi. cbn [aget alen np_slice]. unfold splice. replace (Nat.min (off + 4) (alen a) - off)%nat with 4%nat by lia.
  destruct (Nat.leb_spec off i), (Nat.ltb_spec i (off + 4)); cbn [andb]; try (now apply H2).
  replace i with (off + (i - off))%nat by lia. remember (i - off)%nat as j. replace (off + j - off)%nat with j by lia.
  destruct j as [| [| [| [| j]]]]; try reflexivity. lia.
Qed.

(** Case analysis on the entries of an array of at most 14 entries. *)
Lemma entries14 (P : nat -> Prop) n : (n <= 14)%nat ->
  (forall i, In i (seq 0 14) -> (i < n)%nat -> P i) -> forall i, (i < n)%nat -> P i.
Proof. intros Hn H i Hi. apply H; [apply in_seq; lia | exact Hi]. Qed.

Ltac entries := apply entries14; [lia |]; intros ? Hentry Hn; cbn [seq In] in Hentry;
  repeat destruct Hentry as [<- | Hentry]; try contradiction; try lia; clear Hn;
  cbn -[Rplus Rmult Rdiv Rminus pow].

Section Dual.
Variable a : dmp_args.
Variable c : option coupling.
Hypothesis Hc : match c with Some c => respects 14 12 c | None => True end.
Let k := cy_of_dual a c.
Let et := a_goal_t a - a_start_t a.

Lemma feedback_values dt cdd x (Q : arr -> Prop) : agree 12 cdd x ->
  (forall d, agree 12 d (vadd x (dual_feedback Cython a dt)) -> Q d) ->
  tri False (c_dual_feedback k dt cdd) Q.
Proof.
  intros H HQ. unfold c_dual_feedback, k, dual_feedback in *. cbn [k_tracking_error k_p_gain cy_of_dual].
  assert ((exists te, a_tracking_error a = Some te) \/ a_tracking_error a = None) as [[te E] | E]
    by (destruct (a_tracking_error a); eauto); rewrite E in *; cbn [option_map] in *.
  2: { apply tri_done, HQ. eapply agree_ext; [exact H |]. intros. unfold vadd, vzero. ring. }
  pose proof (agree_of_vec 14 te) as Ht.
  assert (Hcell : forall p v u, (p < 14)%nat -> (v < 12)%nat -> forall cdd (Q : arr -> Prop), agree 12 cdd u ->
     (forall d, agree 12 d (upd u v (u v + a_p_gain a * te p / dt)) -> Q d) ->
     tri False (x <- c_rd cdd v;; e <- p_rd (of_vec 14 te) p;; c_wr cdd v (x + a_p_gain a * e / dt)) Q).
  { intros p v u Hp Hv d Q' Hd HQ'. apply tri_bind. eapply agree_rd; [exact Hd | exact Hv |].
    apply tri_bind. eapply agree_prd; [exact Ht | exact Hp |]. eapply agree_wr_upd; [exact Hd | exact Hv |]. exact HQ'. }
  assert (Horn : forall o v u, (o + 4 <= 14)%nat -> (v + 3 <= 12)%nat -> forall cdd (Q : arr -> Prop), agree 12 cdd u ->
     (forall d, agree 12 d (splice v 3 (vec_of_v3 (v3_add (v3_of (slice v 3 u))
        (v3_divs (v3_scale (a_p_gain a) (cy_log (quat_of (slice o 4 te)))) dt))) u) -> Q d) ->
     tri False (e <- c_compact_axis_angle_from_quaternion (np_slice o (o + 4) (of_vec 14 te));;
        x <- np_iadd (np_slice v (v + 3) cdd) (np_map (fun e => a_p_gain a * e / dt) e);;
        np_set_slice v (v + 3) cdd x) Q).
  { intros o v u Ho Hv d Q' Hd HQ'. apply tri_bind.
    pose proof (slice4 _ _ _ o Ht Ho) as [S1 S2].
    eapply tri_weaken; [apply log_spec; lia |]. intros e [He Ee]. rewrite S2 in Ee.
    assert (X : at3 e (cy_log (quat_of (slice o 4 te)))) by (split; [lia | exact Ee]).
    apply tri_bind. eapply at3_iadd; [apply (slice3 _ _ _ v Hd Hv) | apply at3_map; exact X |]. intros w Hw.
    eapply set_slice3; [exact Hd | exact Hv | exact Hw |]. exact HQ'. }
  unfold POS_INDICES, ORN_SLICES. cbn [c_for combine].
  apply tri_bind.
  do 6 (apply tri_bind; cbv beta iota; eapply Hcell; [lia | lia | eassumption |];
        clear H; let d := fresh "d" in intros d H).
  apply tri_done. apply tri_bind. cbv beta iota.
  apply (Horn 3%nat 3%nat _ ltac:(lia) ltac:(lia) _ _ H). clear H. intros e H.
  apply tri_bind. cbv beta iota.
  apply (Horn 10%nat 9%nat _ ltac:(lia) ltac:(lia) _ _ H). clear H. intros e' H.
  apply tri_done, HQ. eapply agree_ext; [exact H |].
  unfold arm_q, vadd. entries; try reflexivity; try ring.
Qed.

Section Body.
Variables (dt z : R) (f cd cdd : arr) (xf xcd xcdd y yd : vec).
Hypothesis Hf : agree 12 f xf.
Hypothesis Hcd : agree 12 cd xcd.
Hypothesis Hcdd : agree 12 cdd xcdd.
Let new_v v := yd v + (dt * dual_pos_acc a z xf xcdd y yd v + xcd v / et).
Let new_p p := y p + dt * new_v (pv_of p).
Let new_w arm := v3_add (arm_w arm yd)
      (v3_add (v3_scale dt (dual_rot_acc Cython a arm z xf xcdd y yd)) (v3_divs (arm_w arm xcd) et)).
Let new_q arm := cy_mul (cy_exp (v3_scale dt (new_w arm))) (arm_q arm y).

Lemma position_values p v u w cy cyd cydd (Q : arr * arr * arr -> Prop) :
  agree 14 cy u -> agree 12 cyd w -> alen cydd = 12%nat ->
  (p < 14)%nat -> (v < 12)%nat -> pp_of v = p -> pv_of p = v -> u p = y p -> w v = yd v ->
  (k_smooth_scaling k = true -> (p < 12)%nat) ->
  (forall cy cyd cydd, agree 14 cy (upd u p (new_p p)) -> agree 12 cyd (upd w v (new_v v)) -> alen cydd = 12%nat ->
     Q (cy, cyd, cydd)) ->
  tri False (c_dual_position k et dt z f cd cdd (p, v) (cy, cyd, cydd)) Q.
Proof.
  intros H1 H2 H3 Hp Hv E1 E2 Ep Ev Hs HQ. unfold c_dual_position. cbv beta iota.
  pose proof (agree_of_vec 14 (a_goal_y a)) as Hg.
  pose proof (agree_of_vec 12 (a_beta_y a)) as Hb.
  apply tri_bind. apply (tri_weaken False _ (fun sm => sm =
     if a_smooth_scaling a then a_beta_y a p * (a_goal_y a p - a_start_y a p) * z else 0)).
  { change (k_smooth_scaling k) with (a_smooth_scaling a) in *. destruct (a_smooth_scaling a); [| now apply tri_done].
    apply tri_bind. eapply agree_rd; [exact Hb | now apply Hs |].
    apply tri_bind. eapply agree_rd; [exact Hg | exact Hp |].
    apply tri_bind. eapply agree_rd; [apply (agree_of_vec 14 (a_start_y a)) | exact Hp |]. now apply tri_done. }
  intros sm Hsm.
  apply tri_bind. eapply agree_rd; [apply (agree_of_vec 12 (a_alpha_y a)) | exact Hv |].
  apply tri_bind. eapply agree_rd; [exact Hb | exact Hv |].
  apply tri_bind. eapply agree_rd; [exact Hg | exact Hp |].
  apply tri_bind. eapply agree_rd; [exact H1 | exact Hp |].
  apply tri_bind. eapply agree_rd; [exact H2 | exact Hv |].
  apply tri_bind. eapply agree_rd; [exact Hf | exact Hv |].
  apply tri_bind. eapply agree_rd; [exact Hcdd | exact Hv |].
  apply tri_bind. eapply agree_wr_upd; [split; [exact H3 | reflexivity] | exact Hv |]. intros c1' Hc1.
  apply tri_bind. eapply agree_rd; [exact H2 | exact Hv |].
  apply tri_bind. eapply agree_rd; [exact Hc1 | exact Hv |].
  apply tri_bind. eapply agree_rd; [exact Hcd | exact Hv |].
  assert (EV : w v + (dt * upd (aget cydd) v
     ((a_alpha_y a v * (a_beta_y a v * (a_goal_y a p - u p) - et * w v - sm) + xf v + xcdd v) / et ^ 2) v
     + xcd v / et) = new_v v).
  { unfold new_v, dual_pos_acc. rewrite E1, Ep, Ev, Hsm. unfold upd. rewrite Nat.eqb_refl. reflexivity. }
  cbv beta. rewrite EV.
  apply tri_bind. eapply agree_wr_upd; [exact H2 | exact Hv |]. intros c2' Hc2.
  apply tri_bind. eapply agree_rd; [exact H1 | exact Hp |].
  apply tri_bind. eapply agree_rd; [exact Hc2 | exact Hv |].
  assert (EP : u p + dt * upd w v (new_v v) v = new_p p).
  { unfold new_p, upd. now rewrite Nat.eqb_refl, E2, Ep. }
  cbv beta. rewrite EP.
  apply tri_bind. eapply agree_wr_upd; [exact H1 | exact Hp |]. intros c3' Hc3.
  apply tri_done, HQ; try assumption. apply Hc1.
Qed.

Lemma orientation_values junk arm u w cy cyd cydd (Q : arr * arr * arr -> Prop) :
  agree 14 cy u -> agree 12 cyd w -> alen cydd = 12%nat ->
  (arm < 2)%nat -> arm_q arm u = arm_q arm y -> arm_w arm w = arm_w arm yd ->
  (forall cy cyd cydd, agree 14 cy (splice (3 + 7 * arm) 4 (vec_of_quat (new_q arm)) u) ->
     agree 12 cyd (splice (3 + 6 * arm) 3 (vec_of_v3 (new_w arm)) w) -> alen cydd = 12%nat -> Q (cy, cyd, cydd)) ->
  tri False (c_dual_orientation junk k et dt z f cd cdd
    (((3 + 7 * arm)%nat, (3 + 7 * arm + 4)%nat), ((3 + 6 * arm)%nat, (3 + 6 * arm + 3)%nat)) (cy, cyd, cydd)) Q.
Proof.
  intros H1 H2 H3 Ha Eq Ew HQ. unfold c_dual_orientation. cbv beta iota zeta.
  set (o := (3 + 7 * arm)%nat). set (v := (3 + 6 * arm)%nat).
  assert (Ho : (o + 4 <= 14)%nat) by (unfold o; lia). assert (Hv : (v + 3 <= 12)%nat) by (unfold v; lia).
  pose proof (slice4 _ _ _ o (agree_of_vec 14 (a_goal_y a)) Ho) as Hg.
  pose proof (slice3 _ _ _ v (agree_of_vec 12 (a_beta_y a)) Hv) as Hb.
  apply tri_bind. eapply (smoothing_values (a_smooth_scaling a) junk k);
    [exact Hb | exact Hg | apply (slice4 _ _ _ o (agree_of_vec 14 (a_start_y a)) Ho) | reflexivity |].
  intros sm Hsm.
  apply tri_bind. eapply error_values; [exact Hg | apply (slice4 _ _ _ o H1 Ho) |]. intros e He.
  apply tri_bind. eapply rotation_acc_values;
    [apply (slice3 _ _ _ v (agree_of_vec 12 (a_alpha_y a)) Hv) | exact Hb | exact He | apply (slice3 _ _ _ v H2 Hv)
    | exact Hsm | apply (slice3 _ _ _ v Hf Hv) | apply (slice3 _ _ _ v Hcdd Hv) |]. intros x Hx.
  apply tri_bind. eapply (set_slice3 _ 12 _ (aget cydd)); [split; [exact H3 | reflexivity] | exact Hv | exact Hx |].
  intros r1 Hr1.
  match type of Hx with at3 _ ?acc => set (A := acc) in * end.
  assert (S1 : at3 (np_slice v (v + 3) r1) A).
  { pose proof (slice3 _ _ _ v Hr1 Hv) as [S1 S2]. split; [exact S1 |]. rewrite S2. unfold v3_of, slice.
    cbn [Nat.ltb Nat.leb]. unfold splice.
    rewrite !(proj2 (Nat.leb_le v _)), !(proj2 (Nat.ltb_lt _ (v + 3))) by lia. cbn [andb].
    replace (v + 0 - v)%nat with 0%nat by lia. replace (v + 1 - v)%nat with 1%nat by lia.
    replace (v + 2 - v)%nat with 2%nat by lia. now destruct A. }
  apply tri_bind. eapply at3_op; [apply at3_map; exact S1 | apply at3_map; apply (slice3 _ _ _ v Hcd Hv) |].
  intros x' Hx'.
  apply tri_bind. eapply at3_iadd; [apply (slice3 _ _ _ v H2 Hv) | exact Hx' |]. intros x2 Hx2.
  assert (EW : v3_add (v3_of (slice v 3 w))
             (V3 (dt * v3x A + v3x (v3_of (slice v 3 xcd)) / et)
                 (dt * v3y A + v3y (v3_of (slice v 3 xcd)) / et)
                 (dt * v3z A + v3z (v3_of (slice v 3 xcd)) / et)) = new_w arm).
  { unfold new_w. change (v3_of (slice v 3 w)) with (arm_w arm w). rewrite Ew.
    f_equal. unfold v3_add, v3_scale, v3_divs. cbn [v3x v3y v3z].
    assert (A = dual_rot_acc Cython a arm z xf xcdd y yd) as ->; [| reflexivity].
    unfold A, acc_value, dual_rot_acc. rewrite <- Eq, <- Ew. reflexivity. }
  cbn [v3x v3y v3z] in Hx2. rewrite EW in Hx2.
  apply tri_bind. eapply set_slice3; [exact H2 | exact Hv | exact Hx2 |]. intros r2 Hr2.
  assert (S2 : at3 (np_slice v (v + 3) r2) (new_w arm)).
  { pose proof (slice3 _ _ _ v Hr2 Hv) as [T1 T2]. split; [exact T1 |]. rewrite T2. unfold v3_of, slice.
    cbn [Nat.ltb Nat.leb]. unfold splice.
    rewrite !(proj2 (Nat.leb_le v _)), !(proj2 (Nat.ltb_lt _ (v + 3))) by lia. cbn [andb].
    replace (v + 0 - v)%nat with 0%nat by lia. replace (v + 1 - v)%nat with 1%nat by lia.
    replace (v + 2 - v)%nat with 2%nat by lia. now destruct (new_w arm). }
  apply tri_bind. pose proof (at3_map _ _ (Rmult dt) S2) as [Hl Hw].
  eapply tri_weaken; [apply exp_spec; lia |]. intros q [Hq Eq']. rewrite Hw in Eq'.
  pose proof (slice4 _ _ _ o H1 Ho) as [S3 S4].
  apply tri_bind. eapply tri_weaken; [apply concat_spec; [lia | lia] |]. intros q' [Hq' Eq2].
  rewrite Eq', S4 in Eq2.
  apply tri_bind. eapply set_slice4; [exact H1 | exact Ho | split; [exact Hq' | exact Eq2] |]. intros r3 Hr3.
  change (quat_of (slice o 4 u)) with (arm_q arm u) in Hr3. rewrite Eq in Hr3.
  apply tri_done, HQ; try assumption. apply Hr1.
Qed.

Lemma moves_values junk cy cyd cydd (Q : arr * arr -> Prop) :
  agree 14 cy y -> agree 12 cyd yd -> alen cydd = 12%nat ->
  (forall cy cyd, agree 14 cy (assemble_p y new_p (new_q 0%nat) (new_q 1%nat)) ->
     agree 12 cyd (assemble_v yd new_v (new_w 0%nat) (new_w 1%nat)) -> Q (cy, cyd)) ->
  tri False (
    s <- c_for POS_INDICES (c_dual_position k et dt z f cd cdd) (cy, cyd, cydd);;
    ' (cy, cyd, _) <- c_for ORN_SLICES (c_dual_orientation junk k et dt z f cd cdd) s;;
    Done (cy, cyd)) Q.
Proof.
  intros H1 H2 H3 HQ. unfold POS_INDICES, ORN_SLICES. cbn [c_for combine].
  apply tri_bind.
  do 6 (apply tri_bind;
        eapply position_values; [exact H1 | exact H2 | exact H3 | lia | lia | reflexivity | reflexivity | reflexivity | reflexivity | intros _; lia |];
        clear H1 H2 H3; let d := fresh "d" in let e := fresh "e" in let g := fresh "g" in intros d e g H1 H2 H3).
  apply tri_done. apply tri_bind. apply tri_bind.
  apply (orientation_values junk 0%nat _ _ _ _ _ _ H1 H2 H3); [lia | reflexivity | reflexivity |].
  clear H1 H2 H3. intros r1 r2 r3 H1 H2 H3. apply tri_bind.
  apply (orientation_values junk 1%nat _ _ _ _ _ _ H1 H2 H3); [lia | reflexivity | reflexivity |].
  clear H1 H2 H3. intros r4 r5 r6 H1 H2 H3. apply tri_done. cbv beta iota. apply tri_done, HQ.
  - eapply agree_ext; [exact H1 |]. clear. entries; reflexivity.
  - eapply agree_ext; [exact H2 |]. clear. entries; reflexivity.
Qed.
End Body.

Definition RelD (s : (vec * vec) * vec * unit) (s' : arr * arr) : Prop :=
  agree 14 (fst s') (fst (fst (fst s))) /\ agree 12 (snd s') (snd (fst (fst s))).

Lemma dual_body_values junk ct dt s s' : RelD s s' ->
  tri False (c_dual_body junk k ct dt s') (fun x => RelD (dual_body Cython a (option_map stateless c) ct dt s) x).
Proof.
  intros [H1 H2]. destruct s as [[[y yd] old] []], s' as [y' yd']. cbn [fst snd] in H1, H2.
  unfold c_dual_body, dual_body. cbv zeta. rewrite (proj1 H2).
  set (CC := match c with Some c => c y yd | None => (vzero, vzero) end).
  apply tri_bind. apply (tri_weaken False _ (fun p => agree 12 (fst p) (fst CC) /\ agree 12 (snd p) (snd CC))).
  { unfold k, CC. cbn [k_coupling_term cy_of_dual].
    assert ((exists cc, c = Some cc) \/ c = None) as [[cc E] | E] by (destruct c; eauto); rewrite E in *; cbn [option_map].
    - apply tri_bind. eapply agree_coupling; [exact Hc | exact H1 | exact H2 |]. intros x xd Hx Hxd. cbv beta iota.
      apply tri_bind. apply (agree_assign_nd False 12); [reflexivity |]. intros r1 Hr1.
      apply tri_bind. apply (agree_assign_nd False 12); [reflexivity |]. intros r2 Hr2.
      apply tri_done. cbn [fst snd]. split; eapply agree_ext; eauto.
    - apply tri_done. cbn [fst snd]. split; apply agree_zeros. }
  intros [cd cdd] [Hcd Hcdd]. cbn [fst snd] in Hcd, Hcdd. cbv beta iota.
  replace (match option_map stateless c with Some c0 => c0 tt y yd | None => (tt, (vzero, vzero)) end)
    with (tt, CC) by (unfold CC, stateless; now destruct c).
  destruct CC as [xcd xcdd]. cbn [fst snd] in Hcd, Hcdd.
  cbn [k_forcing_term k cy_of_dual ft_object fo_phase fo_forces of_res cbind].
  unfold k. cbn [k_forcing_term cy_of_dual ft_object fo_phase fo_forces of_res cbind].
  set (z := ft_phase (a_forcing_term a) ct).
  apply tri_bind. apply (agree_forces False 12); [reflexivity |]. intros f Hf.
  apply tri_bind. apply (feedback_values dt cdd xcdd); [exact Hcdd |]. intros cdd2 Hcdd2.
  eapply (moves_values dt z f cd cdd2 _ _ _ y yd Hf Hcd Hcdd2 junk);
    [exact H1 | exact H2 | reflexivity |].
  intros r1 r2 Hr1 Hr2. split; cbn [fst snd]; assumption.
Qed.

Lemma dual_values junk last_t t s s' : agree 14 (fst s') (fst s) -> agree 12 (snd s') (snd s) ->
  match dual_step_function Cython a (option_map stateless c) last_t t s tt with
  | Ok (x, _) => exists x', c_dmp_step_dual_cartesian junk k last_t t s' = Done x'
      /\ agree 14 (fst x') (fst x) /\ agree 12 (snd x') (snd x)
  | Err e => c_dmp_step_dual_cartesian junk k last_t t s' = Raised e
  end.
Proof.
  intros H1 H2. unfold dual_step_function, c_dmp_step_dual_cartesian.
  set (s0 := if Rle_dec t (a_start_t a) then (a_start_y a, a_start_yd a) else s).
  assert (T : tri False (c_restart k t s') (fun x => RelD (s0, vzero, tt) x)).
  { unfold c_restart, s0, k. cbn [k_start_t k_start_y k_start_yd cy_of_dual].
    destruct (Rle_dec t (a_start_t a)); [| now apply tri_done].
    apply tri_bind. eapply (agree_assign False 14); [apply H1 | apply agree_of_vec |]. intros y Hy.
    apply tri_bind. eapply (agree_assign False 12); [apply H2 | apply agree_of_vec |]. intros yd Hyd.
    apply tri_done. now split. }
  destruct (c_restart k t s') as [s1 | e |]; cbn [tri] in T; try contradiction. cbn [cbind].
  unfold k at 1 2. cbn [k_int_dt cy_of_dual].
  pose proof (c_substeps_refines RelD (dual_body Cython a (option_map stateless c)) (c_dual_body junk k) t (a_int_dt a)
    (substeps_fuel last_t t (a_int_dt a)) last_t (s0, vzero, tt) s1 T
    (fun ct dt x x' H => dual_body_values junk ct dt x x' H)) as U.
  destruct (substeps _ _ _ _ _ _) as [[[x xc] []] | e]; cbn [rmap]; [| exact U].
  destruct (c_substeps _ _ _ _ _ _) as [x' | e |]; cbn [tri] in U; try contradiction.
  exists x'. now split.
Qed.

End Dual.
