(** Convergence of the orientation integrators (C93). *)
From Coq Require Import Reals List Lia Lra Psatz FunctionalExtensionality.
From Verif Require Import M_Prelude M_Canonical M_Forcing M_Dmp M_Quaternion M_Cartesian
  S_Loops S_Rotation P_Loops P_Forcing P_Converge P_Quaternion P_Sphere.
Import ListNotations.
Open Scope R_scope.
Set Bullet Behavior "Strict Subproofs".

(** ** One sub-step decreases the energy *)
(** Angle between the orientations [p] and [q]. *)
Definition err (p q : quat) : R := rot_angle (hamilton p (cy_conj q)).

Lemma err_bound p q : unit_quat p -> unit_quat q -> 0 <= err p q <= PI.
Proof. intros. apply rot_angle_bound, hamilton_unit; auto using cy_conj_unit. Qed.

Lemma i_exp_sign i u : i_exp i u = cy_exp u \/ i_exp i u = q_neg (cy_exp u).
Proof.
  destruct (v3_polar u) as (p & Hp & E). rewrite E.
  rewrite (cy_exp_axis p _ Hp). apply exp_axis_sign; auto using v3_norm_pos.
Qed.

Lemma q_neg_neg q : q_neg (q_neg q) = q.
Proof. apply quat_eq; cbn; ring. Qed.

Lemma err_step i p q u e : unit_quat p -> unit_quat q ->
  cy_exp e = hamilton p (cy_conj q) \/ cy_exp e = q_neg (hamilton p (cy_conj q)) ->
  err p (i_mul i (i_exp i u) q) <= v3_norm (v3_sub e u).
Proof.
  intros Hp Hq He. rewrite i_mul_unit by (auto; apply i_exp_unit).
  assert (E : err p (hamilton (i_exp i u) q) = rot_angle (hamilton (cy_exp e) (cy_conj (cy_exp u)))).
  { unfold err. rewrite conj_hamilton, <- hamilton_assoc.
    assert (N1 : forall a b, hamilton (q_neg a) b = q_neg (hamilton a b))
      by (intros; apply quat_eq; cbn; ring).
    assert (N2 : forall a b, hamilton a (cy_conj (q_neg b)) = q_neg (hamilton a (cy_conj b)))
      by (intros; apply quat_eq; cbn; ring).
    destruct (i_exp_sign i u) as [-> | ->]; destruct He as [-> | ->];
      rewrite ?N2, ?N1, ?rot_angle_neg; reflexivity. }
  rewrite E. apply exp_contracts.
Qed.

Definition energy (b : R) (p q : quat) (v : v3) : R := v3_n2 v + b * err p q ^ 2.

Lemma energy_pos b p q v : 0 <= b -> 0 <= energy b p q v.
Proof. intros. unfold energy. pose proof (v3_n2_pos v). pose proof (pow2_ge_0 (err p q)). nra. Qed.

(** One coordinate: [m] is the disturbance. *)
Lemma energy_coord al b n v e m : 0 < al -> 0 < b -> 0 < n -> n * al <= 1 -> 2 * (n * b) <= al ->
  let v' := v + n * (b * e - al * v + m) in
  v' ^ 2 + b * (e - n * v') ^ 2
    <= v ^ 2 + b * e ^ 2 - n * al * v ^ 2 - n * al / 4 * v' ^ 2 + 4 * n / al * m ^ 2
  /\ v' ^ 2 + b * (e - n * v') ^ 2 <= v ^ 2 + b * e ^ 2 - n * al * v ^ 2 + 2 * n / al * m ^ 2
  /\ n ^ 2 * (b * e) ^ 2 <= 3 * (v' ^ 2 + v ^ 2 + n ^ 2 * m ^ 2).
Proof.
  intros Ha Hb Hn H1 H2 v'.
  assert (E : n * (b * e) = v' - (1 - n * al) * v - n * m) by (unfold v'; ring).
  assert (EV : v' ^ 2 + b * (e - n * v') ^ 2
    = b * e ^ 2 - v' ^ 2 + n ^ 2 * b * v' ^ 2 + 2 * ((1 - n * al) * (v' * v)) + 2 * n * (v' * m)).
  { transitivity (v' ^ 2 + b * e ^ 2 - 2 * v' * (n * (b * e)) + n ^ 2 * b * v' ^ 2); [ring|].
    rewrite E. ring. }
  assert (B1 : 2 * ((1 - n * al) * (v' * v)) <= (1 - n * al) * (v' ^ 2 + v ^ 2)).
  { assert (0 <= (1 - n * al) * (v' - v) ^ 2) by (apply Rmult_le_pos; [lra|apply pow2_ge_0]). lra. }
  assert (B2 : n ^ 2 * b * v' ^ 2 <= n * al / 2 * v' ^ 2).
  { apply Rmult_le_compat_r; [apply pow2_ge_0|]. nra. }
  assert (S1 : 2 * n * (v' * m) <= n * al / 4 * v' ^ 2 + 4 * n / al * m ^ 2).
  { assert (0 <= n / al * (al / 2 * v' - 2 * m) ^ 2).
    { apply Rmult_le_pos; [apply Rmult_le_pos; [lra|apply Rlt_le, Rinv_0_lt_compat; lra]|apply pow2_ge_0]. }
    replace (n / al * (al / 2 * v' - 2 * m) ^ 2)
      with (n * al / 4 * v' ^ 2 + 4 * n / al * m ^ 2 - 2 * n * (v' * m)) in H by (field; lra). lra. }
  assert (S2 : 2 * n * (v' * m) <= n * al / 2 * v' ^ 2 + 2 * n / al * m ^ 2).
  { assert (0 <= n / (2 * al) * (al * v' - 2 * m) ^ 2).
    { apply Rmult_le_pos; [apply Rmult_le_pos; [lra|apply Rlt_le, Rinv_0_lt_compat; lra]|apply pow2_ge_0]. }
    replace (n / (2 * al) * (al * v' - 2 * m) ^ 2)
      with (n * al / 2 * v' ^ 2 + 2 * n / al * m ^ 2 - 2 * n * (v' * m)) in H by (field; lra). lra. }
  rewrite EV. split; [|split].
  - lra.
  - lra.
  - replace (n ^ 2 * (b * e) ^ 2) with ((n * (b * e)) ^ 2) by ring. rewrite E.
    set (w := (1 - n * al) * v). assert (Hw : w ^ 2 <= v ^ 2).
    { unfold w. rewrite Rpow_mult_distr. assert (0 < n * al) by (apply Rmult_lt_0_compat; lra).
      assert (Hq : 0 <= (1 - n * al) ^ 2 <= 1).
      { split; [apply pow2_ge_0|]. rewrite <- (pow1 2). apply pow_incr. lra. }
      pose proof (pow2_ge_0 v). rewrite <- (Rmult_1_l (v ^ 2)) at 2. apply Rmult_le_compat_r; lra. }
    assert (3 * (v' ^ 2 + w ^ 2 + n ^ 2 * m ^ 2) - (v' - w - n * m) ^ 2
      = (v' + w) ^ 2 + (v' + n * m) ^ 2 + (w - n * m) ^ 2) by ring.
    pose proof (pow2_ge_0 (v' + w)). pose proof (pow2_ge_0 (v' + n * m)).
    pose proof (pow2_ge_0 (w - n * m)). lra.
Qed.

Definition excess (K x : R) : R := Rmax 0 (x - K).

Lemma excess_pos K x : 0 <= excess K x.
Proof. apply Rmax_l. Qed.

Lemma excess_le K x : x <= K + excess K x.
Proof. unfold excess. pose proof (Rmax_r 0 (x - K)). lra. Qed.

Lemma excess_step K c c1 p x x' : c <= c1 <= 1 -> 0 <= p ->
  x' - K <= (1 - c1) * (x - K) + p -> excess K x' <= (1 - c) * excess K x + p.
Proof.
  intros Hc Hp H. unfold excess at 1. pose proof (excess_pos K x). pose proof (excess_le K x).
  apply Rmax_lub; nra.
Qed.

(** Energy that may remain: errors below the threshold of the logarithm exert no
    force. *)
Definition rest_energy (i : impl) (al b : R) : R := (b + 4 * (b / al) ^ 2) * (PI * log_threshold i) ^ 2.

Lemma rest_energy_pos i al b : 0 < b -> 0 < al -> 0 <= rest_energy i al b.
Proof.
  intros. unfold rest_energy. apply Rmult_le_pos; [|apply pow2_ge_0].
  pose proof (pow2_ge_0 (b / al)). lra.
Qed.

Lemma energy_step i p q v m al b n M : unit_quat p -> unit_quat q ->
  0 < al -> 0 < b -> 0 < n -> n * al <= 1 -> 2 * (n * b) <= al -> v3_n2 m <= M ->
  let v' := v3_add v (v3_scale n (v3_add (v3_sub (v3_scale b (q_error i p q)) (v3_scale al v)) m)) in
  let q' := i_mul i (i_exp i (v3_scale n v')) q in
  let K := rest_energy i al b in
  excess K (energy b p q' v')
    <= (1 - n ^ 3 * al * b / 16) * excess K (energy b p q v) + n * (5 / al * M).
Proof.
  intros Hp Hq Ha Hb Hn H1 H2 HM v' q' K. pose proof PI_RGT_0 as HP.
  set (d := hamilton p (cy_conj q)).
  assert (Hd : unit_quat d) by (apply hamilton_unit; auto using cy_conj_unit).
  assert (El : q_error i p q = i_log i d).
  { unfold q_error. rewrite i_conj_unit, i_mul_unit by auto using cy_conj_unit. reflexivity. }
  destruct (shortest_vector i d Hd) as (e & He & Hne & Hcase).
  pose proof (err_step i p q (v3_scale n v') e Hp Hq He) as Hstep. fold q' in Hstep.
  assert (Hq' : unit_quat q').
  { unfold q'. rewrite i_mul_unit by (auto; apply i_exp_unit). apply hamilton_unit; auto. apply i_exp_unit. }
  assert (Hr' : err p q' ^ 2 <= v3_n2 (v3_sub e (v3_scale n v'))).
  { rewrite v3_n2_norm. pose proof (err_bound p q' Hp Hq'). apply pow_incr. lra. }
  assert (Hr : err p q ^ 2 = v3_n2 e) by (rewrite v3_n2_norm, Hne; reflexivity).
  set (c := n ^ 3 * al * b / 16).
  assert (Hnb : n ^ 2 * b <= 1 / 2) by nra.
  assert (Hna : 0 < n * al) by nra.
  assert (Hc : 0 <= c /\ c <= n * al / 32).
  { unfold c. replace (n ^ 3 * al * b / 16) with (n * al * (n ^ 2 * b) / 16) by field.
    assert (0 <= n ^ 2 * b) by (apply Rmult_le_pos; [apply pow2_ge_0|lra]). split; nra. }
  assert (HM0 : 0 <= M) by (pose proof (v3_n2_pos m); lra).
  assert (Hia : 0 < / al) by (apply Rinv_0_lt_compat; lra).
  assert (HnM : 0 <= n / al * M).
  { apply Rmult_le_pos; [apply Rmult_le_pos; lra|lra]. }
  pose proof (rest_energy_pos i al b Hb Ha) as HK. fold K in HK.
  assert (HmM : n / al * v3_n2 m <= n / al * M).
  { apply Rmult_le_compat_l; [apply Rmult_le_pos; lra|exact HM]. }
  replace (n * (5 / al * M)) with (5 * (n / al * M)) by (field; lra).
  set (V := energy b p q v) in *. set (V' := energy b p q' v') in *.
  assert (HV : V = v3_n2 v + b * v3_n2 e) by (unfold V, energy; now rewrite Hr).
  assert (HV' : V' <= v3_n2 v' + b * v3_n2 (v3_sub e (v3_scale n v'))) by (unfold V', energy; nra).
  destruct Hcase as [Hout | [Hin Hsmall]].
  - (* the spring acts *)
    assert (G : forall x, v3_n2 x = v3x x ^ 2 + v3y x ^ 2 + v3z x ^ 2)
      by (intros; unfold v3_n2, v3_dot; ring).
    destruct (energy_coord al b n (v3x v) (v3x e) (v3x m) Ha Hb Hn H1 H2) as (X1 & _ & X3).
    destruct (energy_coord al b n (v3y v) (v3y e) (v3y m) Ha Hb Hn H1 H2) as (Y1 & _ & Y3).
    destruct (energy_coord al b n (v3z v) (v3z e) (v3z m) Ha Hb Hn H1 H2) as (Z1 & _ & Z3).
    cbv zeta in *.
    assert (Ex : v3x v + n * (b * v3x e - al * v3x v + v3x m) = v3x v')
      by (unfold v'; rewrite El, Hout; cbn; ring).
    assert (Ey : v3y v + n * (b * v3y e - al * v3y v + v3y m) = v3y v')
      by (unfold v'; rewrite El, Hout; cbn; ring).
    assert (Ez : v3z v + n * (b * v3z e - al * v3z v + v3z m) = v3z v')
      by (unfold v'; rewrite El, Hout; cbn; ring).
    rewrite Ex in X1, X3. rewrite Ey in Y1, Y3. rewrite Ez in Z1, Z3.
    assert (T1 : V' <= V - n * al * v3_n2 v - n * al / 4 * v3_n2 v' + 4 * (n / al * v3_n2 m)).
    { eapply Rle_trans; [exact HV'|]. rewrite HV, !G. cbn [v3_sub v3_scale v3x v3y v3z].
      unfold Rdiv in *. lra. }
    assert (T3 : n ^ 2 * b ^ 2 * v3_n2 e <= 3 * (v3_n2 v' + v3_n2 v + n ^ 2 * v3_n2 m)).
    { rewrite !G. rewrite !Rpow_mult_distr in X3, Y3, Z3. lra. }
    assert (T4 : c * V <= n * al * v3_n2 v + n * al / 4 * v3_n2 v' + n / al * v3_n2 m).
    { rewrite HV. unfold c.
      replace (n ^ 3 * al * b / 16 * (v3_n2 v + b * v3_n2 e))
        with (c * v3_n2 v + n * al / 16 * (n ^ 2 * b ^ 2 * v3_n2 e)) by (unfold c; field).
      apply Rmult_le_compat_l with (r := n * al / 16) in T3; [|lra].
      pose proof (v3_n2_pos v). pose proof (v3_n2_pos v'). pose proof (v3_n2_pos m).
      assert (c * v3_n2 v <= n * al / 32 * v3_n2 v) by (apply Rmult_le_compat_r; lra).
      assert (n * al / 16 * (3 * (n ^ 2 * v3_n2 m)) <= n / al * v3_n2 m).
      { replace (n * al / 16 * (3 * (n ^ 2 * v3_n2 m))) with (3 / 16 * (n / al * ((n * al) ^ 2 * v3_n2 m)))
          by (field; lra).
        assert ((n * al) ^ 2 * v3_n2 m <= 1 * v3_n2 m) by (apply Rmult_le_compat_r; [lra|nra]).
        assert (n / al * ((n * al) ^ 2 * v3_n2 m) <= n / al * (1 * v3_n2 m)).
        { apply Rmult_le_compat_l; [apply Rmult_le_pos; lra|auto]. }
        assert (0 <= n / al * v3_n2 m) by (apply Rmult_le_pos; [apply Rmult_le_pos; lra|lra]). lra. }
      assert (0 <= n * al * v3_n2 v) by (apply Rmult_le_pos; lra).
      assert (0 <= n * al * v3_n2 v') by (apply Rmult_le_pos; lra). lra. }
    assert (0 <= c * K) by (apply Rmult_le_pos; lra).
    apply (excess_step K c c); lra.
  - (* the error is below the threshold *)
    assert (G : forall x, v3_n2 x = v3x x ^ 2 + v3y x ^ 2 + v3z x ^ 2)
      by (intros; unfold v3_n2, v3_dot; ring).
    set (eps := PI * log_threshold i) in *.
    destruct (energy_coord al b n (v3x v) (v3x e) (v3x m - b * v3x e) Ha Hb Hn H1 H2) as (_ & X2 & _).
    destruct (energy_coord al b n (v3y v) (v3y e) (v3y m - b * v3y e) Ha Hb Hn H1 H2) as (_ & Y2 & _).
    destruct (energy_coord al b n (v3z v) (v3z e) (v3z m - b * v3z e) Ha Hb Hn H1 H2) as (_ & Z2 & _).
    cbv zeta in *.
    assert (Ex : v3x v + n * (b * v3x e - al * v3x v + (v3x m - b * v3x e)) = v3x v')
      by (unfold v'; rewrite El, Hin; cbn; ring).
    assert (Ey : v3y v + n * (b * v3y e - al * v3y v + (v3y m - b * v3y e)) = v3y v')
      by (unfold v'; rewrite El, Hin; cbn; ring).
    assert (Ez : v3z v + n * (b * v3z e - al * v3z v + (v3z m - b * v3z e)) = v3z v')
      by (unfold v'; rewrite El, Hin; cbn; ring).
    rewrite Ex in X2. rewrite Ey in Y2. rewrite Ez in Z2.
    set (md := fun x y : R => (x - b * y) ^ 2) in *.
    assert (Hmd : forall x y, (x - b * y) ^ 2 <= 2 * x ^ 2 + 2 * (b ^ 2 * y ^ 2)).
    { intros x y. pose proof (pow2_ge_0 (x + b * y)). lra. }
    assert (Hnn : 0 <= 2 * n / al) by (apply Rmult_le_pos; lra).
    pose proof (Rmult_le_compat_l _ _ _ Hnn (Hmd (v3x m) (v3x e))) as MX.
    pose proof (Rmult_le_compat_l _ _ _ Hnn (Hmd (v3y m) (v3y e))) as MY.
    pose proof (Rmult_le_compat_l _ _ _ Hnn (Hmd (v3z m) (v3z e))) as MZ.
    assert (T1 : V' <= V - n * al * v3_n2 v + 2 * n / al * (2 * v3_n2 m + 2 * (b ^ 2 * v3_n2 e))).
    { eapply Rle_trans; [exact HV'|]. rewrite HV, !G. cbn [v3_sub v3_scale v3x v3y v3z]. lra. }
    assert (Hee : v3_n2 e <= eps ^ 2).
    { rewrite v3_n2_norm. apply pow_incr. split; [apply v3_norm_pos|exact Hsmall]. }
    assert (T2 : V - n * al * v3_n2 v + 2 * n / al * (2 * v3_n2 m + 2 * (b ^ 2 * v3_n2 e))
      = V - n * al * V + n * al * ((b + 4 * (b / al) ^ 2) * v3_n2 e) + 4 * (n / al * v3_n2 m)).
    { rewrite HV. field. lra. }
    assert (T3 : (b + 4 * (b / al) ^ 2) * v3_n2 e <= K).
    { unfold K, rest_energy. fold eps. apply Rmult_le_compat_l; [|exact Hee].
      pose proof (pow2_ge_0 (b / al)). lra. }
    assert (T4 : V' - K <= (1 - n * al) * (V - K) + 4 * (n / al * v3_n2 m)).
    { apply Rmult_le_compat_l with (r := n * al) in T3; [|lra]. lra. }
    apply (excess_step K c (n * al)); lra.
Qed.

(** ** Loops of sub-steps *)
Section Loop.
  Variables (A : Type) (body : R -> R -> A -> A) (M : A -> R) (inv : A -> Prop) (cf : R -> R) (int : R).
  Hypothesis Hint : 0 < int.
  Hypothesis HM : forall s, 0 <= M s.
  Hypothesis Hcf : forall h, 0 < h <= int -> 0 <= cf h.

  Lemma tiles_bound P a0 : forall l a b s,
    (forall c h s, a0 <= c -> 0 < h <= int -> inv s ->
       inv (body c h s) /\ M (body c h s) <= (1 - cf h) * M s + h * P) ->
    a0 <= a -> tiles a b int l -> inv s ->
    inv (exec_substeps body l s) /\ M (exec_substeps body l s) <= M s + (b - a) * P
    /\ (a < b -> M (exec_substeps body l s) <= (1 - cf (Rmin int (b - a))) * M s + (b - a) * P).
  Proof.
    intros l. induction l as [|[c h] l IH]; intros a b s Hb Ha Ht Hi.
    - cbn in Ht. subst b. cbn. split; auto. split; [lra|]. intros; lra.
    - cbn in Ht. destruct Ht as (Hh & -> & Hl & Ht).
      destruct (Hb (a + h) h s ltac:(lra) Hh Hi) as [I1 B1].
      destruct (IH (a + h) b (body (a + h) h s) Hb ltac:(lra) Ht I1) as (I2 & B2 & _).
      change (exec_substeps body ((a + h, h) :: l) s) with (exec_substeps body l (body (a + h) h s)).
      split; auto. pose proof (Hcf h Hh). pose proof (HM s). split; [nra|]. intros Hab.
      assert (E : Rmin int (b - a) = h).
      { destruct l as [|x l'].
        - cbn in Ht. subst b. replace (a + h - a) with h by ring. now rewrite Rmin_right by lra.
        - specialize (Hl ltac:(discriminate)). subst h. apply tiles_le in Ht.
          now rewrite Rmin_left by lra. }
      rewrite E. lra.
  Qed.

  Variables (step : R -> R -> A -> res A) (t0 dt C : R) (z : nat -> R) (s0 : A).
  Hypothesis Hdt : 0 < dt.
  Hypothesis Hstep : forall k s, inv s ->
    let lt := t0 + INR k * dt in let t := t0 + INR (S k) * dt in
    step lt t s = substeps (substeps_fuel lt t int) lt t int body s.
  Hypothesis Hbody : forall k c h s, t0 + INR k * dt <= c -> 0 < h <= int -> inv s ->
    inv (body c h s) /\ M (body c h s) <= (1 - cf h) * M s + h * (C * z k).
  Hypothesis Hc0 : 0 < cf (Rmin int dt) <= 1.
  Hypothesis Hz : vanishes z.
  Hypothesis Hs0 : inv s0.

  Lemma loop_converges : exists s, s 0%nat = s0
    /\ (forall k, run_seq step t0 dt s0 k = Ok (s k))
    /\ (forall k, inv (s k)) /\ vanishes (fun k => M (s k)).
  Proof.
    assert (H1 : forall k s, inv s -> exists s', step (t0 + INR k * dt) (t0 + INR (S k) * dt) s = Ok s'
      /\ inv s' /\ M s' <= (1 - cf (Rmin int dt)) * M s + dt * (C * z k)).
    { intros k s Hi. rewrite (Hstep k s Hi). cbv zeta.
      destruct (substeps_tiles (t0 + INR k * dt) (t0 + INR (S k) * dt) int) as (l & Hl & E); auto.
      { rewrite S_INR. nra. }
      rewrite E. eexists. split; [reflexivity|].
      destruct (tiles_bound (C * z k) (t0 + INR k * dt) l _ _ s (Hbody k) (Rle_refl _) Hl Hi)
        as (I & _ & B).
      replace (t0 + INR (S k) * dt - (t0 + INR k * dt)) with dt in B by (rewrite S_INR; ring).
      split; auto. apply B. rewrite S_INR. lra. }
    set (s := fix s k := match k with O => s0
      | S k' => match step (t0 + INR k' * dt) (t0 + INR (S k') * dt) (s k') with
                | Ok x => x | Err _ => s k' end end).
    assert (HI : forall k, inv (s k)).
    { induction k as [|k IH]; [exact Hs0|]. cbn [s]. fold s.
      destruct (H1 k (s k) IH) as (s' & E & I & _). rewrite E. exact I. }
    assert (HS : forall k, step (t0 + INR k * dt) (t0 + INR (S k) * dt) (s k) = Ok (s (S k))).
    { intros k. cbn [s]. fold s. destruct (H1 k (s k) (HI k)) as (s' & E & _). rewrite E. reflexivity. }
    exists s. split; [reflexivity|]. split; [|split; [exact HI|]].
    - induction k as [|k IH]; [reflexivity|]. cbn [run_seq]. rewrite IH. cbn [bind]. apply HS.
    - intros eps Heps.
      destruct (contraction_vanishes (fun k => M (s k)) (fun k => Rabs (dt * C * z k))
                  (1 - cf (Rmin int dt))) with (eps := eps) as [N HN]; auto; try lra.
      + intros k. destruct (H1 k (s k) (HI k)) as (s' & E & _ & B).
        rewrite HS in E. injection E as <-. eapply Rle_trans; [exact B|].
        apply Rplus_le_compat_l. replace (dt * (C * z k)) with (dt * C * z k) by ring. apply Rle_abs.
      + intros d Hd. destruct (vanishes_scal (dt * C) z Hz d Hd) as [N HN]. exists N. exact HN.
      + exists N. intros k Hk. rewrite Rabs_pos_eq by auto. auto.
  Qed.
End Loop.

(** ** The orientation part of a DMP *)
Definition isotropic (a : qargs) (al be : R) : Prop :=
  g_alpha_y a = V3 al al al /\ g_beta_y a = V3 be be be.
Definition q_free (a : qargs) : Prop := g_coupling_term a = None /\ g_precomputed a = None.

(** Forcing and smoothing term. *)
Definition q_disturbance (i : impl) (a : qargs) (al be z : R) : v3 :=
  v3_sub (v3_of (ft_forces (g_forcing_term a) z))
    (v3_scale al (if g_smooth_scaling a
                  then v3_scale (z * be) (q_error i (g_goal_y a) (g_start_y a)) else v3_zero)).

Lemma q_disturbance_bound i a al be : unit_quat (g_goal_y a) -> unit_quat (g_start_y a) ->
  (0 < ft_n (g_forcing_term a))%nat ->
  exists B, 0 <= B /\ forall z, 0 <= z -> v3_n2 (q_disturbance i a al be z) <= B * z ^ 2.
Proof.
  intros Hg Hs Hn.
  set (w := fun d => ft_weights (g_forcing_term a) d).
  destruct (finite_bound (ft_n (g_forcing_term a)) (w 0%nat)) as [M0 [P0 B0]].
  destruct (finite_bound (ft_n (g_forcing_term a)) (w 1%nat)) as [M1 [P1 B1]].
  destruct (finite_bound (ft_n (g_forcing_term a)) (w 2%nat)) as [M2 [P2 B2]].
  set (e := v3_scale (al * be) (if g_smooth_scaling a then q_error i (g_goal_y a) (g_start_y a) else v3_zero)).
  assert (HC : forall k M z, 0 <= z -> 0 <= M ->
     (forall j, (j < ft_n (g_forcing_term a))%nat -> Rabs (w k j) <= M) ->
     ft_forces (g_forcing_term a) z k ^ 2 <= M ^ 2 * z ^ 2).
  { intros k M z Hz HM HB. pose proof (ft_forces_bound (g_forcing_term a) z k M Hn HB) as HF.
    rewrite (Rabs_pos_eq z) in HF by auto. rewrite <- Rpow_mult_distr, <- (pow2_abs (ft_forces _ _ _)).
    apply pow_incr. split; [apply Rabs_pos|lra]. }
  exists (2 * (M0 ^ 2 + M1 ^ 2 + M2 ^ 2 + v3_n2 e)).
  split. { pose proof (v3_n2_pos e). nra. }
  intros z Hz. pose proof (HC 0%nat M0 z Hz P0 B0). pose proof (HC 1%nat M1 z Hz P1 B1).
  pose proof (HC 2%nat M2 z Hz P2 B2).
  assert (E : q_disturbance i a al be z = v3_sub (v3_of (ft_forces (g_forcing_term a) z)) (v3_scale z e)).
  { unfold q_disturbance, e. f_equal. destruct (g_smooth_scaling a); apply v3_eq; cbn; ring. }
  rewrite E. clear E HC. clearbody e. unfold v3_n2, v3_dot, v3_sub, v3_of, v3_scale. cbn [v3x v3y v3z].
  set (f := ft_forces (g_forcing_term a) z) in *.
  pose proof (pow2_ge_0 (f 0%nat + z * v3x e)). pose proof (pow2_ge_0 (f 1%nat + z * v3y e)).
  pose proof (pow2_ge_0 (f 2%nat + z * v3z e)).
  set (f0 := f 0%nat) in *. set (f1 := f 1%nat) in *. set (f2 := f 2%nat) in *.
  clearbody f0 f1 f2. destruct e as [ex ey ez]. cbn [v3x v3y v3z] in *. lra.
Qed.

Definition q_excess (i : impl) (a : qargs) (al be : R) (s : quat * v3) : R :=
  excess (rest_energy i al (al * be))
    (energy (al * be) (g_goal_y a) (fst s) (v3_scale (g_goal_t a - g_start_t a) (snd s))).

Lemma q_body_step i a al be cur h s :
  q_free a -> isotropic a al be -> g_start_t a < g_goal_t a ->
  let tau := g_goal_t a - g_start_t a in
  let n := h / tau in
  let m := q_disturbance i a al be (ft_phase (g_forcing_term a) cur) in
  let v := v3_scale tau (snd s) in
  let v' := v3_add v (v3_scale n (v3_add (v3_sub (v3_scale (al * be) (q_error i (g_goal_y a) (fst s)))
                                            (v3_scale al v)) m)) in
  v3_scale tau (snd (q_body i a cur h s)) = v'
  /\ fst (q_body i a cur h s) = i_mul i (i_exp i (v3_scale n v')) (fst s).
Proof.
  intros [Hc Hp] [Hal Hbe] Ht tau n m v v'.
  assert (Htau : tau <> 0) by (unfold tau; lra).
  destruct s as [y yd].
  assert (Eq : q_coupling i a y yd = (v3_zero, v3_zero)).
  { unfold q_coupling. rewrite Hc, Hp. destruct i; reflexivity. }
  assert (EV : v3_scale tau (snd (q_body i a cur h (y, yd))) = v').
  { unfold q_body. rewrite Eq. cbn [fst snd]. unfold q_acc. rewrite Hal, Hbe.
    unfold v', v, m, q_disturbance, n. fold tau. cbn [fst snd].
    set (f := v3_of _). set (e := q_error i (g_goal_y a) y).
    set (e2 := q_error i (g_goal_y a) (g_start_y a)).
    destruct (g_smooth_scaling a); apply v3_eq;
      cbn [v3_add v3_sub v3_mul v3_scale v3_divs v3_zero v3x v3y v3z]; field; auto. }
  split; [exact EV|].
  rewrite <- EV.
  assert (EF : fst (q_body i a cur h (y, yd))
    = i_mul i (i_exp i (v3_scale h (snd (q_body i a cur h (y, yd))))) y).
  { unfold q_body. rewrite Eq. reflexivity. }
  rewrite EF. cbn [fst]. do 2 f_equal. rewrite v3_scale_scale. f_equal. unfold n. field. auto.
Qed.

Lemma q_run_converges i a t0 dt s0 al be :
  q_free a -> isotropic a al be -> 0 < al -> 0 < be ->
  g_start_t a < g_goal_t a -> phase_ok (g_forcing_term a) -> 0 < dt -> 0 < g_int_dt a ->
  al * g_int_dt a <= g_goal_t a - g_start_t a ->
  2 * (be * g_int_dt a) <= g_goal_t a - g_start_t a ->
  unit_quat (g_goal_y a) -> unit_quat (g_start_y a) -> unit_quat (fst s0) -> g_start_t a <= t0 ->
  exists s, s 0%nat = s0
    /\ (forall k, run_seq (q_step i a) t0 dt s0 k = Ok (s k))
    /\ (forall k, unit_quat (fst (s k)))
    /\ vanishes (fun k => q_excess i a al be (s k)).
Proof.
  intros Hf Hiso Ha Hb Ht Hph Hdt Hi H1 H2 Hg Hs Hs0 Ht0.
  set (tau := g_goal_t a - g_start_t a) in *.
  assert (Htau : 0 < tau) by (unfold tau; lra).
  assert (Hit : 0 < / tau) by (apply Rinv_0_lt_compat; lra).
  destruct (q_disturbance_bound i a al be Hg Hs (proj1 Hph)) as [B [HB0 HB]].
  set (cf := fun h => (h / tau) ^ 3 * al * (al * be) / 16).
  assert (Hn : forall h, 0 < h <= g_int_dt a -> 0 < h / tau /\ h / tau * al <= 1
                 /\ 2 * (h / tau * (al * be)) <= al).
  { intros h Hh. assert (0 < h / tau) by (apply Rmult_lt_0_compat; lra).
    assert (E : h / tau * tau = h) by (field; lra).
    split; auto. split.
    - apply Rmult_le_reg_r with tau; auto. replace (h / tau * al * tau) with (h / tau * tau * al) by ring.
      rewrite E. nra.
    - apply Rmult_le_reg_r with tau; auto.
      replace (2 * (h / tau * (al * be)) * tau) with (2 * (be * (h / tau * tau)) * al) by ring.
      rewrite E. assert (2 * (be * h) <= tau) by nra. nra. }
  assert (Hcf : forall h, 0 < h <= g_int_dt a -> 0 < cf h <= 1).
  { intros h Hh. destruct (Hn h Hh) as (N1 & N2 & N3). unfold cf. set (n := h / tau) in *.
    assert (0 < n * al) by nra. assert (0 < n * (al * be)) by nra.
    assert (n ^ 2 * (al * be) <= 1 / 2) by nra.
    replace (n ^ 3 * al * (al * be) / 16) with (n * al * (n ^ 2 * (al * be)) / 16) by field.
    assert (0 < n ^ 2 * (al * be)) by nra. split; nra. }
  apply (loop_converges _ (q_body i a) (q_excess i a al be) (fun s => unit_quat (fst s)) cf (g_int_dt a))
    with (C := / tau * (5 / al * B)) (z := fun k => ft_phase (g_forcing_term a) (t0 + INR k * dt)
                                 * ft_phase (g_forcing_term a) (t0 + INR k * dt)); auto.
  - intros. apply excess_pos.
  - intros h Hh. apply Rlt_le, Hcf; auto.
  - intros k s Hu lt t. pose proof (pos_INR k).
    assert (g_start_t a < t) by (unfold t; rewrite S_INR; nra).
    unfold q_step. destruct i.
    + destruct (Rle_dec (g_goal_t a) (g_start_t a)); [lra|].
      destruct (Rle_dec t (g_start_t a)); [lra|reflexivity].
    + destruct (Rle_dec t (g_start_t a)); [lra|reflexivity].
  - intros k c h s Hc Hh Hu.
    destruct (q_body_step i a al be c h s Hf Hiso Ht) as [E1 E2]. fold tau in E1, E2.
    destruct (Hn h Hh) as (N1 & N2 & N3).
    pose proof (ft_phase_decreasing _ _ _ Hph Hc) as Hz.
    pose proof (ft_phase_pos (g_forcing_term a) c) as Hz0.
    set (z1 := ft_phase (g_forcing_term a) c) in *.
    set (z0 := ft_phase (g_forcing_term a) (t0 + INR k * dt)) in *.
    assert (HM : v3_n2 (q_disturbance i a al be z1) <= B * (z0 * z0)).
    { eapply Rle_trans; [apply HB; lra|]. apply Rmult_le_compat_l; auto. nra. }
    split.
    + rewrite E2. rewrite i_mul_unit by (auto; apply i_exp_unit). apply hamilton_unit; auto. apply i_exp_unit.
    + unfold q_excess. fold tau. rewrite E1, E2.
      eapply Rle_trans; [apply (energy_step i _ _ _ _ al (al * be) (h / tau) (B * (z0 * z0))); auto; nra|].
      right. unfold cf. field. lra.
  - apply Hcf. split; [apply Rmin_glb_lt; auto|apply Rmin_l].
  - pose proof (phase_grid_vanishes _ t0 dt Hph Hdt) as HV.
    intros eps Heps. destruct (HV (Rmin eps 1) ltac:(apply Rmin_glb_lt; lra)) as [N HN].
    exists N. intros k Hk. specialize (HN k Hk). rewrite Rabs_mult.
    set (x := Rabs _) in *. assert (0 <= x) by apply Rabs_pos.
    pose proof (Rmin_l eps 1). pose proof (Rmin_r eps 1). nra.
Qed.

(** What remains of the error and of the angular velocity. *)
Lemma excess_small i p q v al be : 0 < al -> 0 < be ->
  excess (rest_energy i al (al * be)) (energy (al * be) p q v)
    < al * be * (be / al) * (PI * log_threshold i) ^ 2 ->
  err p q ^ 2 < (1 + 5 * (be / al)) * (PI * log_threshold i) ^ 2
  /\ v3_n2 v < al * be * (1 + 5 * (be / al)) * (PI * log_threshold i) ^ 2.
Proof.
  intros Ha Hb H. set (e := PI * log_threshold i) in *.
  pose proof (excess_le (rest_energy i al (al * be)) (energy (al * be) p q v)) as HE.
  set (x := excess _ _) in *. unfold energy, rest_energy in HE. fold e in HE.
  pose proof (v3_n2_pos v). pose proof (pow2_ge_0 (err p q)).
  assert (Hab : 0 < al * be) by nra.
  assert (Eb : 4 * (al * be / al) ^ 2 = al * be * (4 * (be / al))) by (field; lra).
  assert (HB : v3_n2 v + al * be * err p q ^ 2 < al * be * (1 + 5 * (be / al)) * e ^ 2).
  { rewrite Eb in HE. lra. }
  assert (0 <= al * be * err p q ^ 2) by nra.
  split; [|lra].
  apply Rmult_lt_reg_l with (al * be); auto. lra.
Qed.
