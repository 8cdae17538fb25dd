(** C42 (distance coupling terms).  Final statements. *)
From Coq Require Import Reals List Arith Bool Lia Lra Psatz FunctionalExtensionality.
From Verif Require Import M_Prelude M_Canonical M_Forcing M_Dmp M_Base M_DmpObject M_Quaternion M_Cartesian M_Dual M_Rigid
  M_Coupling S_Loops S_Rotation P_Loops P_DmpStep P_Quaternion P_Cartesian P_Components Properties_Components.
Import ListNotations.
Open Scope R_scope.
Set Bullet Behavior "Strict Subproofs".

(** Gains for which the spring pulls. *)
Definition admissible (sp : spring) : Prop :=
  0 <= sp_lf0 sp /\ 0 <= sp_lf1 sp /\ 0 <= sp_k sp /\ 0 <= sp_c1 sp /\ 0 <= sp_c2 sp.
Definition effective (sp : spring) : Prop :=
  0 <= sp_lf0 sp /\ 0 <= sp_lf1 sp /\ 0 < sp_lf0 sp + sp_lf1 sp /\ 0 < sp_k sp /\ 0 < sp_c1 sp /\ 0 < sp_c2 sp.

(** ** One-dimensional systems *)

(** They vanish exactly at the desired distance [y1 - y0]. *)
Theorem C42_pos1d_zero : forall sp dd y yd cd cdd, effective sp ->
  pos1d_coupling sp dd y yd = (cd, cdd) ->
  (cd 0%nat = 0 /\ cd 1%nat = 0 <-> y 1%nat - y 0%nat = dd)
  /\ (cdd 0%nat = 0 /\ cdd 1%nat = 0 <-> y 1%nat - y 0%nat = dd).
Proof.
  intros sp dd y yd cd cdd (H0 & H1 & H01 & Hk & Hc1 & Hc2) E. injection E as <- <-. cbn [vec2].
  assert (P1 : 0 < sp_c1 sp * sp_k sp) by nra. assert (P2 : 0 < sp_c2 sp * (sp_c1 sp * sp_k sp)) by nra.
  set (e := - dd - (y 0%nat - y 1%nat)).
  assert (Z : forall a l, 0 < a -> a * l * e = 0 -> l = 0 \/ e = 0).
  { intros a l Ha H. apply Rmult_integral in H. destruct H as [H|H]; [|now right].
    apply Rmult_integral in H. destruct H; [lra|now left]. }
  split; split.
  - intros [A B]. destruct (Z (sp_c1 sp * sp_k sp) (sp_lf0 sp)) as [HA|HA]; [auto|rewrite <- A; unfold e; ring| |unfold e in *; lra].
    destruct (Z (sp_c1 sp * sp_k sp) (sp_lf1 sp)) as [HB|HB]; [auto| |lra|unfold e in *; lra].
    apply Ropp_eq_compat in B. rewrite Ropp_0 in B. rewrite <- B. unfold e. ring.
  - intros HD. unfold e. replace (- dd - (y 0%nat - y 1%nat)) with 0 by lra. split; ring.
  - intros [A B]. destruct (Z (sp_c2 sp * (sp_c1 sp * sp_k sp)) (sp_lf0 sp)) as [HA|HA]; [auto|rewrite <- A; unfold e; ring| |unfold e in *; lra].
    destruct (Z (sp_c2 sp * (sp_c1 sp * sp_k sp)) (sp_lf1 sp)) as [HB|HB]; [auto| |lra|unfold e in *; lra].
    apply Ropp_eq_compat in B. rewrite Ropp_0 in B. rewrite <- B. unfold e. ring.
  - intros HD. unfold e. replace (- dd - (y 0%nat - y 1%nat)) with 0 by lra. split; ring.
Qed.

(** Equal and opposite if both follow; nothing for a leader; towards the desired distance
    [dd] of system 1 from system 0 otherwise (velocities and accelerations). *)
Theorem C42_pos1d_push : forall sp dd y yd cd cdd, admissible sp ->
  pos1d_coupling sp dd y yd = (cd, cdd) ->
  (sp_lf0 sp = sp_lf1 sp -> cd 0%nat = - cd 1%nat /\ cdd 0%nat = - cdd 1%nat)
  /\ (sp_lf0 sp = 0 -> cd 0%nat = 0 /\ cdd 0%nat = 0)
  /\ (sp_lf1 sp = 0 -> cd 1%nat = 0 /\ cdd 1%nat = 0)
  /\ (y 1%nat - y 0%nat <= dd -> cd 0%nat <= 0 <= cd 1%nat /\ cdd 0%nat <= 0 <= cdd 1%nat)
  /\ (dd <= y 1%nat - y 0%nat -> cd 1%nat <= 0 <= cd 0%nat /\ cdd 1%nat <= 0 <= cdd 0%nat)
  /\ (effective sp -> y 1%nat - y 0%nat < dd -> 0 < cd 1%nat - cd 0%nat /\ 0 < cdd 1%nat - cdd 0%nat)
  /\ (effective sp -> dd < y 1%nat - y 0%nat -> cd 1%nat - cd 0%nat < 0 /\ cdd 1%nat - cdd 0%nat < 0).
Proof.
  intros sp dd y yd cd cdd (H0 & H1 & Hk & Hc1 & Hc2) E. injection E as <- <-. cbn [vec2].
  set (e := dd - (y 1%nat - y 0%nat)).
  replace (- dd - (y 0%nat - y 1%nat)) with (- e) by (unfold e; ring).
  pose proof (Rmult_le_pos _ _ Hc1 Hk) as P1. pose proof (Rmult_le_pos _ _ Hc2 P1) as P2.
  pose proof (Rmult_le_pos _ _ P1 H0) as A0. pose proof (Rmult_le_pos _ _ P1 H1) as A1.
  pose proof (Rmult_le_pos _ _ P2 H0) as B0. pose proof (Rmult_le_pos _ _ P2 H1) as B1.
  replace (sp_c1 sp * (sp_k sp * - e) * sp_lf0 sp) with (- (sp_c1 sp * sp_k sp * sp_lf0 sp * e)) by ring.
  replace (sp_c1 sp * - (sp_k sp * - e) * sp_lf1 sp) with (sp_c1 sp * sp_k sp * sp_lf1 sp * e) by ring.
  replace (sp_c2 sp * sp_c1 sp * (sp_k sp * - e) * sp_lf0 sp)
    with (- (sp_c2 sp * (sp_c1 sp * sp_k sp) * sp_lf0 sp * e)) by ring.
  replace (sp_c2 sp * sp_c1 sp * - (sp_k sp * - e) * sp_lf1 sp)
    with (sp_c2 sp * (sp_c1 sp * sp_k sp) * sp_lf1 sp * e) by ring.
  set (p := sp_c1 sp * sp_k sp) in *.
  split; [intros ->; split; ring|]. split; [intros ->; split; ring|]. split; [intros ->; split; ring|].
  split; [|split; [|split]].
  - intros H. assert (He : 0 <= e) by (unfold e; lra).
    pose proof (Rmult_le_pos _ _ A0 He). pose proof (Rmult_le_pos _ _ A1 He).
    pose proof (Rmult_le_pos _ _ B0 He). pose proof (Rmult_le_pos _ _ B1 He). lra.
  - intros H. assert (He : 0 <= - e) by (unfold e; lra).
    pose proof (Rmult_le_pos _ _ A0 He). pose proof (Rmult_le_pos _ _ A1 He).
    pose proof (Rmult_le_pos _ _ B0 He). pose proof (Rmult_le_pos _ _ B1 He). lra.
  - intros (_ & _ & Hl & Hk' & Hc1' & Hc2') H. assert (He : 0 < e) by (unfold e; lra).
    assert (Hp : 0 < p) by (apply Rmult_lt_0_compat; auto).
    pose proof (Rmult_lt_0_compat _ _ (Rmult_lt_0_compat _ _ Hp Hl) He) as Q1.
    pose proof (Rmult_lt_0_compat _ _ Hc2' Q1) as Q2. lra.
  - intros (_ & _ & Hl & Hk' & Hc1' & Hc2') H. assert (He : 0 < - e) by (unfold e; lra).
    assert (Hp : 0 < p) by (apply Rmult_lt_0_compat; auto).
    pose proof (Rmult_lt_0_compat _ _ (Rmult_lt_0_compat _ _ Hp Hl) He) as Q1.
    pose proof (Rmult_lt_0_compat _ _ Hc2' Q1) as Q2. lra.
Qed.

(** ** Three-dimensional systems *)

(** Three entries of an array. *)
Definition entries (off : nat) (v : vec) : v3 := V3 (v off) (v (off + 1)%nat) (v (off + 2)%nat).

Lemma v3_scale_zero_iff a v : v3_scale a v = v3_zero <-> a = 0 \/ v = v3_zero.
Proof.
  split.
  - intros H. destruct (Req_dec a 0) as [|Ha]; [now left|]. right. destruct v as [x y z].
    unfold v3_scale, v3_zero in H. cbn [v3x v3y v3z] in H. injection H as E1 E2 E3.
    apply v3_eq; cbn; apply (Rmult_eq_reg_l a); auto; lra.
  - intros [-> | ->]; apply v3_eq; simpl; ring.
Qed.

Lemma v3_dot_self v : 0 <= v3_dot v v.
Proof. unfold v3_dot. nra. Qed.
Lemma v3_dot_self_pos v : v <> v3_zero -> 0 < v3_dot v v.
Proof.
  intros H. destruct (v3_dot_self v) as [|E]; auto. exfalso. apply H. unfold v3_dot in E.
  apply v3_eq; simpl; nra.
Qed.
Lemma v3_dot_scale a b v : v3_dot (v3_scale a v) (v3_scale b v) = a * b * v3_dot v v.
Proof. unfold v3_dot. simpl. ring. Qed.

(** The four forces of a spring with the force [F12 = k e]. *)
Lemma spring_forces_scale sp (a : R) e :
  spring_forces sp (v3_scale a e)
  = ((v3_scale (sp_lf0 sp * sp_c1 sp * a) e, v3_scale (- (sp_lf1 sp * sp_c1 sp * a)) e),
     (v3_scale (sp_lf0 sp * sp_c2 sp * a) e, v3_scale (- (sp_lf1 sp * sp_c2 sp * a)) e)).
Proof.
  unfold spring_forces. f_equal; f_equal; apply v3_eq; simpl; ring.
Qed.

Lemma entries_vec6 a b : entries 0 (vec6 a b) = a /\ entries 3 (vec6 a b) = b.
Proof. destruct a, b. split; reflexivity. Qed.
Lemma entries_vec12 a b c d :
  entries 0 (vec12 a b c d) = a /\ entries 3 (vec12 a b c d) = b
  /\ entries 6 (vec12 a b c d) = c /\ entries 9 (vec12 a b c d) = d.
Proof. destruct a, b, c, d. repeat split; reflexivity. Qed.

(** Displacement that system 1 (entries 3 to 5) still has to make relative to system 0
    (entries 0 to 2): desired displacement minus actual displacement. *)
Definition missing (dd : v3) (y : vec) : v3 := v3_sub dd (v3_sub (entries 3 y) (entries 0 y)).

Lemma pos3d_eq sp dd y yd : pos3d_coupling sp dd y yd =
  (vec6 (v3_scale (- (sp_lf0 sp * sp_c1 sp * sp_k sp)) (missing dd y)) (v3_scale (sp_lf1 sp * sp_c1 sp * sp_k sp) (missing dd y)),
   vec6 (v3_scale (- (sp_lf0 sp * sp_c2 sp * sp_k sp)) (missing dd y)) (v3_scale (sp_lf1 sp * sp_c2 sp * sp_k sp) (missing dd y))).
Proof.
  unfold pos3d_coupling.
  assert (E : v3_scale (sp_k sp) (v3_sub (v3_scale (-1) dd) (v3_sub (v3_of (slice 0 3 y)) (v3_of (slice 3 3 y))))
            = v3_scale (- sp_k sp) (missing dd y)) by (apply v3_eq; unfold missing, entries, slice; simpl; ring).
  rewrite E, spring_forces_scale. f_equal; f_equal; apply v3_eq; unfold missing, entries; simpl; ring.
Qed.

Theorem C42_pos3d : forall sp dd y yd cd cdd, pos3d_coupling sp dd y yd = (cd, cdd) ->
  (** zero exactly at the desired displacement *)
  (effective sp ->
    (entries 0 cd = v3_zero /\ entries 3 cd = v3_zero <-> v3_sub (entries 3 y) (entries 0 y) = dd)
    /\ (entries 0 cdd = v3_zero /\ entries 3 cdd = v3_zero <-> v3_sub (entries 3 y) (entries 0 y) = dd))
  (** equal and opposite if both follow *)
  /\ (sp_lf0 sp = sp_lf1 sp ->
       entries 0 cd = v3_scale (-1) (entries 3 cd) /\ entries 0 cdd = v3_scale (-1) (entries 3 cdd))
  (** nothing for a leader *)
  /\ (sp_lf0 sp = 0 -> entries 0 cd = v3_zero /\ entries 0 cdd = v3_zero)
  /\ (sp_lf1 sp = 0 -> entries 3 cd = v3_zero /\ entries 3 cdd = v3_zero)
  (** towards the desired displacement *)
  /\ (admissible sp ->
       v3_dot (entries 0 cd) (missing dd y) <= 0 <= v3_dot (entries 3 cd) (missing dd y)
       /\ v3_dot (entries 0 cdd) (missing dd y) <= 0 <= v3_dot (entries 3 cdd) (missing dd y))
  /\ (effective sp -> missing dd y <> v3_zero ->
       0 < v3_dot (v3_sub (entries 3 cd) (entries 0 cd)) (missing dd y)
       /\ 0 < v3_dot (v3_sub (entries 3 cdd) (entries 0 cdd)) (missing dd y)).
Proof.
  intros sp dd y yd cd cdd E. rewrite pos3d_eq in E. injection E as <- <-.
  rewrite !(proj1 (entries_vec6 _ _)), !(proj2 (entries_vec6 _ _)).
  set (e := missing dd y).
  assert (Ee : e = v3_zero <-> v3_sub (entries 3 y) (entries 0 y) = dd).
  { unfold e, missing. split; intros H.
    - apply v3_eq; [apply (f_equal v3x) in H|apply (f_equal v3y) in H|apply (f_equal v3z) in H]; simpl in *; lra.
    - rewrite H. apply v3_eq; simpl; ring. }
  split; [|split; [|split; [|split; [|split]]]].
  - intros (H0 & H1 & H01 & Hk & Hc1 & Hc2). rewrite <- Ee, !v3_scale_zero_iff.
    assert (Z : forall l c, 0 < c -> l * c * sp_k sp = 0 -> l = 0).
    { intros l c Hc HZ. apply Rmult_integral in HZ. destruct HZ as [HZ|]; [|lra].
      apply Rmult_integral in HZ. destruct HZ; lra. }
    split; (split; [|tauto]); intros [[A|A] [B|B]]; auto;
      apply Z in B; auto; apply Ropp_eq_compat in A; rewrite Ropp_involutive, Ropp_0 in A; apply Z in A; auto; lra.
  - intros ->. split; apply v3_eq; simpl; ring.
  - intros ->. split; apply v3_eq; simpl; ring.
  - intros ->. split; apply v3_eq; simpl; ring.
  - intros (H0 & H1 & Hk & Hc1 & Hc2).
    assert (D : forall a, v3_dot (v3_scale a e) e = a * v3_dot e e) by (intros; unfold v3_dot; simpl; ring).
    rewrite !D. pose proof (v3_dot_self e) as He.
    assert (N : forall l c, 0 <= l -> 0 <= c -> 0 <= l * c * sp_k sp * v3_dot e e).
    { intros l c Hl Hc. repeat apply Rmult_le_pos; auto. }
    pose proof (N _ _ H0 Hc1). pose proof (N _ _ H1 Hc1). pose proof (N _ _ H0 Hc2). pose proof (N _ _ H1 Hc2). lra.
  - intros (H0 & H1 & H01 & Hk & Hc1 & Hc2) Hz. apply v3_dot_self_pos in Hz.
    assert (D : forall a b, v3_dot (v3_sub (v3_scale a e) (v3_scale (- b) e)) e = (a + b) * v3_dot e e)
      by (intros; unfold v3_dot; simpl; ring).
    rewrite !D.
    assert (N : forall c, 0 < c -> 0 < (sp_lf1 sp * c * sp_k sp + sp_lf0 sp * c * sp_k sp) * v3_dot e e).
    { intros c Hc. replace (sp_lf1 sp * c * sp_k sp + sp_lf0 sp * c * sp_k sp) with ((sp_lf0 sp + sp_lf1 sp) * c * sp_k sp) by ring.
      repeat apply Rmult_lt_0_compat; auto. }
    split; auto.
Qed.

(** ** Distance of the arms of a DualCartesianDMP *)

Lemma v3_norm_dot v : v3_norm v * v3_norm v = v3_dot v v.
Proof. unfold v3_norm, v3_dot. apply sqrt_sqrt. nra. Qed.

(** [between]: from the right (entries 7 to 9) to the left position (entries 0 to 2). *)
Definition between (y : vec) : v3 := v3_sub (entries 0 y) (entries 7 y).

Theorem C42_dual_distance : forall sp dd y yd cd cdd, entries 0 y <> entries 7 y ->
  dual_distance_coupling sp dd y yd = (cd, cdd) ->
  (** orientations are not touched *)
  (entries 3 cd = v3_zero /\ entries 9 cd = v3_zero /\ entries 3 cdd = v3_zero /\ entries 9 cdd = v3_zero)
  (** zero exactly at the desired distance *)
  /\ (effective sp ->
    (entries 0 cd = v3_zero /\ entries 6 cd = v3_zero <-> v3_norm (between y) = Rabs dd)
    /\ (entries 0 cdd = v3_zero /\ entries 6 cdd = v3_zero <-> v3_norm (between y) = Rabs dd))
  /\ (sp_lf0 sp = sp_lf1 sp ->
       entries 0 cd = v3_scale (-1) (entries 6 cd) /\ entries 0 cdd = v3_scale (-1) (entries 6 cdd))
  /\ (sp_lf0 sp = 0 -> entries 0 cd = v3_zero /\ entries 0 cdd = v3_zero)
  /\ (sp_lf1 sp = 0 -> entries 6 cd = v3_zero /\ entries 6 cdd = v3_zero)
  (** the change of the distance has the sign of (desired - actual distance) *)
  /\ (effective sp -> v3_norm (between y) < Rabs dd ->
       0 < v3_dot (v3_sub (entries 0 cd) (entries 6 cd)) (between y)
       /\ 0 < v3_dot (v3_sub (entries 0 cdd) (entries 6 cdd)) (between y))
  /\ (effective sp -> Rabs dd < v3_norm (between y) ->
       v3_dot (v3_sub (entries 0 cd) (entries 6 cd)) (between y) < 0
       /\ v3_dot (v3_sub (entries 0 cdd) (entries 6 cdd)) (between y) < 0).
Proof.
  intros sp dd y yd cd cdd Hne E.
  set (a := between y). set (n := v3_norm a).
  assert (Ha : a <> v3_zero).
  { intros H. apply Hne. unfold a, between in H.
    apply v3_eq; [apply (f_equal v3x) in H|apply (f_equal v3y) in H|apply (f_equal v3z) in H]; simpl in *; lra. }
  assert (Hn : 0 < n).
  { unfold n. destruct (v3_norm_pos a) as [|H]; auto. exfalso. apply Ha. now apply v3_norm_0. }
  assert (EF : dual_distance_coupling sp dd y yd =
    (vec12 (v3_scale (sp_lf0 sp * sp_c1 sp * (sp_k sp * (Rabs dd - n) / n)) a) v3_zero
           (v3_scale (- (sp_lf1 sp * sp_c1 sp * (sp_k sp * (Rabs dd - n) / n))) a) v3_zero,
     vec12 (v3_scale (sp_lf0 sp * sp_c2 sp * (sp_k sp * (Rabs dd - n) / n)) a) v3_zero
           (v3_scale (- (sp_lf1 sp * sp_c2 sp * (sp_k sp * (Rabs dd - n) / n))) a) v3_zero)).
  { unfold dual_distance_coupling. change (v3_sub (v3_of (slice 0 3 y)) (v3_of (slice 7 3 y))) with a. fold n.
    assert (E1 : v3_scale (sp_k sp) (v3_sub (v3_divs (v3_scale (Rabs dd) a) n) a)
               = v3_scale (sp_k sp * (Rabs dd - n) / n) a) by (apply v3_eq; simpl; field; lra).
    rewrite E1, spring_forces_scale. reflexivity. }
  rewrite EF in E. injection E as <- <-.
  pose proof (entries_vec12 (v3_scale (sp_lf0 sp * sp_c1 sp * (sp_k sp * (Rabs dd - n) / n)) a) v3_zero
           (v3_scale (- (sp_lf1 sp * sp_c1 sp * (sp_k sp * (Rabs dd - n) / n))) a) v3_zero) as (A1 & A2 & A3 & A4).
  pose proof (entries_vec12 (v3_scale (sp_lf0 sp * sp_c2 sp * (sp_k sp * (Rabs dd - n) / n)) a) v3_zero
           (v3_scale (- (sp_lf1 sp * sp_c2 sp * (sp_k sp * (Rabs dd - n) / n))) a) v3_zero) as (B1 & B2 & B3 & B4).
  rewrite A1, A2, A3, A4, B1, B2, B3, B4. clear A1 A2 A3 A4 B1 B2 B3 B4 EF.
  set (s := sp_k sp * (Rabs dd - n) / n).
  assert (Sign : 0 < sp_k sp -> (s = 0 <-> n = Rabs dd) /\ (n < Rabs dd -> 0 < s) /\ (Rabs dd < n -> s < 0)).
  { intros Hk. assert (Es : s * n = sp_k sp * (Rabs dd - n)) by (unfold s; field; lra).
    assert (E2 : s = sp_k sp / n * (Rabs dd - n)) by (unfold s; field; lra).
    assert (0 < sp_k sp / n) by (apply Rdiv_lt_0_compat; auto).
    split; [split|split].
    - intros Hs. rewrite Hs, Rmult_0_l in Es. symmetry in Es. apply Rmult_integral in Es. destruct Es; lra.
    - intros Hq. unfold s. replace (Rabs dd - n) with 0 by lra. unfold Rdiv. ring.
    - intros H1. rewrite E2. apply Rmult_lt_0_compat; lra.
    - intros H1. rewrite E2. assert (0 < sp_k sp / n * (n - Rabs dd)) by (apply Rmult_lt_0_compat; lra). lra. }
  clearbody s.
  assert (Dot : forall c, v3_dot (v3_sub (v3_scale (sp_lf0 sp * c * s) a) (v3_scale (- (sp_lf1 sp * c * s)) a)) a
                = (sp_lf0 sp + sp_lf1 sp) * c * s * v3_dot a a) by (intros; unfold v3_dot; simpl; ring).
  pose proof (v3_dot_self_pos a Ha) as Haa.
  split; [repeat split; reflexivity|]. split; [|split; [|split; [|split; [|split]]]].
  - intros (H0 & H1 & H01 & Hk & Hc1 & Hc2). destruct (Sign Hk) as [S1 _]. fold n. rewrite <- S1, !v3_scale_zero_iff.
    assert (Z : forall l c, 0 < c -> l * c * s = 0 -> l = 0 \/ s = 0).
    { intros l c Hc HZ. apply Rmult_integral in HZ. destruct HZ as [HZ|]; [|now right].
      apply Rmult_integral in HZ. destruct HZ; [now left|lra]. }
    split; (split; [|intros ->; split; left; ring]); intros [[A|A] [B|B]]; try contradiction;
      apply Ropp_eq_compat in B; rewrite Ropp_involutive, Ropp_0 in B; apply Z in A; auto; apply Z in B; auto; destruct A, B; auto; lra.
  - intros ->. split; apply v3_eq; simpl; ring.
  - intros ->. split; apply v3_eq; simpl; ring.
  - intros ->. split; apply v3_eq; simpl; ring.
  - intros (H0 & H1 & H01 & Hk & Hc1 & Hc2) Hlt. destruct (Sign Hk) as (_ & S2 & _). specialize (S2 Hlt).
    rewrite !Dot. split; repeat apply Rmult_lt_0_compat; auto.
  - intros (H0 & H1 & H01 & Hk & Hc1 & Hc2) Hlt. destruct (Sign Hk) as (_ & _ & S3). specialize (S3 Hlt).
    rewrite !Dot.
    assert (N : forall c, 0 < c -> 0 < (sp_lf0 sp + sp_lf1 sp) * c * - s * v3_dot a a)
      by (intros c Hc; repeat apply Rmult_lt_0_compat; lra).
    pose proof (N _ Hc1). pose proof (N _ Hc2). split; lra.
Qed.

(** ** A leader moves as if there were no coupling *)

Definition no_coupling : coupling := fun _ _ => (vzero, vzero).

Lemma vadd_zero_div (v : vec) x : vadd v (vdivs vzero x) = v.
Proof. apply functional_extensionality; intros d. unfold vadd, vdivs, vzero, Rdiv. ring. Qed.

Lemma open_loop_no_coupling run_t fn o : dmp_open_loop run_t (Some no_coupling) (Some fn) o = dmp_open_loop run_t None (Some fn) o.
Proof.
  unfold dmp_open_loop.
  assert (E : run_step_function fn (open_loop_step_args o (Some no_coupling)) = run_step_function fn (open_loop_step_args o None)).
  { apply functional_extensionality; intros lt. apply functional_extensionality; intros t.
    apply functional_extensionality; intros [y yd].
    assert (Z : vadd vzero vzero = vzero) by (apply functional_extensionality; intros d; unfold vadd, vzero; ring).
    destruct fn; cbn [run_step_function].
    - f_equal. unfold dmp_step_rk4. cbv zeta.
      cbn [a_coupling_term open_loop_step_args]. unfold no_coupling at 5. cbn [fst]. rewrite vadd_zero_div. reflexivity.
    - unfold dmp_step_euler. cbn [open_loop_step_args a_goal_t a_start_t a_int_dt].
      replace (euler_body (open_loop_step_args o (Some no_coupling))) with (euler_body (open_loop_step_args o None)); [reflexivity|].
      apply functional_extensionality; intros c. apply functional_extensionality; intros d.
      apply functional_extensionality; intros [y1 yd1].
      unfold euler_body. cbv zeta. cbn [a_coupling_term open_loop_step_args].
      unfold no_coupling at 2. cbn [fst]. rewrite vadd_zero_div. reflexivity.
    - f_equal. unfold dmp_step_rk4_cython. cbv zeta.
      cbn [a_coupling_term open_loop_step_args]. unfold no_coupling at 5. cbn [fst]. rewrite vadd_zero_div.
      unfold precomputed_cdd. cbn [a_precomputed open_loop_step_args]. rewrite Z. reflexivity.
    - reflexivity. }
  now rewrite E.
Qed.

Lemma same_component_refl d o : (d < p_n_dims (o_base o))%nat -> same_component d d o o.
Proof. intros H. constructor; auto. Qed.

(** A two-dimensional DMP coupled by [CouplingTermPos1DToPos1D]: the component of a
    leader moves as without coupling term. *)
Theorem C42_leader_moves_freely : forall sp dd j run_t fn o,
  (j < 2)%nat -> p_n_dims (o_base o) = 2%nat ->
  (if Nat.eqb j 0 then sp_lf0 sp else sp_lf1 sp) = 0 ->
  match dmp_open_loop run_t (Some (pos1d_coupling sp dd)) (Some fn) o, dmp_open_loop run_t None (Some fn) o with
  | Ok (ts, ys), Ok (ts', ys') => ts' = ts /\ map (fun y => y j) ys' = map (fun y => y j) ys
  | Err x, Err x' => x = x'
  | _, _ => False
  end.
Proof.
  intros sp dd j run_t fn o Hj Hn Hl. rewrite <- open_loop_no_coupling.
  apply C70_open_loop; [apply same_component_refl; lia|].
  intros y y' v v' _ _. unfold no_coupling, pos1d_coupling. cbn [fst snd]. unfold vzero.
  destruct j as [|[|j]]; [| |lia]; cbn [Nat.eqb] in Hl; cbn [vec2]; rewrite Hl; split; ring.
Qed.

(** The same for [CouplingTermPos3DToPos3D] and a six-dimensional DMP. *)
Theorem C42_leader_moves_freely_3d : forall sp dd j run_t fn o,
  (j < 6)%nat -> p_n_dims (o_base o) = 6%nat ->
  (if Nat.ltb j 3 then sp_lf0 sp else sp_lf1 sp) = 0 ->
  match dmp_open_loop run_t (Some (pos3d_coupling sp dd)) (Some fn) o, dmp_open_loop run_t None (Some fn) o with
  | Ok (ts, ys), Ok (ts', ys') => ts' = ts /\ map (fun y => y j) ys' = map (fun y => y j) ys
  | Err x, Err x' => x = x'
  | _, _ => False
  end.
Proof.
  intros sp dd j run_t fn o Hj Hn Hl. rewrite <- open_loop_no_coupling.
  apply C70_open_loop; [apply same_component_refl; lia|].
  intros y y' v v' _ _. rewrite pos3d_eq. unfold no_coupling. cbn [fst snd]. unfold vzero.
  do 6 (destruct j as [|j]; [cbn in Hl; cbn; rewrite Hl; split; ring|]). lia.
Qed.

(** Two systems of which only the second follows. *)
Example C42_satisfiable :
  effective {| sp_lf0 := 0; sp_lf1 := 1; sp_k := 1; sp_c1 := 100; sp_c2 := 30 |}
  /\ admissible {| sp_lf0 := 0; sp_lf1 := 1; sp_k := 1; sp_c1 := 100; sp_c2 := 30 |}
  /\ fst (pos1d_coupling {| sp_lf0 := 0; sp_lf1 := 1; sp_k := 1; sp_c1 := 100; sp_c2 := 30 |} 2 (vec2 1 2) vzero) 1%nat = 100
  /\ missing (V3 1 2 3) (fun _ => 0) <> v3_zero
  /\ entries 0 (fun j => INR j) <> entries 7 (fun j => INR j).
Proof.
  unfold effective, admissible. cbn. repeat split; try lra.
  - intros H. apply (f_equal v3x) in H. cbn in H. lra.
  - intros H. apply (f_equal v3x) in H. cbn in H. lra.
Qed.
