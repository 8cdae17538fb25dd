(** The equation y'' = p (g - y) - q y' + u(t) has a solution for every continuous
    input and all initial values (variation of constants). *)
From Coq Require Import Reals Lia Lra Psatz.
From Coquelicot Require Import Coquelicot.
From Verif Require Import P_Ode.
Open Scope R_scope.
Set Bullet Behavior "Strict Subproofs".

Lemma lipb_continuous f t : (forall a b, lipb a b f) -> continuous f t.
Proof.
  intros H. destruct (H (t - 1) (t + 1)) as (L & HL & _ & Lf).
  apply continuity_pt_filterlim. intros eps Heps.
  exists (Rmin 1 (eps / (L + 1))).
  assert (Hq : 0 < eps / (L + 1)) by (apply Rmult_lt_0_compat; auto; apply Rinv_0_lt_compat; lra).
  split; [apply Rmin_pos; lra|]. intros x [_ Hx]. simpl in *. unfold R_dist in *.
  assert (H1 : Rabs (x - t) < 1) by (eapply Rlt_le_trans; [exact Hx|apply Rmin_l]).
  assert (H2 : Rabs (x - t) < eps / (L + 1)) by (eapply Rlt_le_trans; [exact Hx|apply Rmin_r]).
  assert (Hin : t - 1 <= x <= t + 1) by (apply Rabs_def2 in H1; lra).
  eapply Rle_lt_trans; [apply Lf; lra|].
  apply Rle_lt_trans with ((L + 1) * Rabs (x - t)); [pose proof (Rabs_pos (x - t)); nra|].
  apply Rmult_lt_reg_r with (/ (L + 1)); [apply Rinv_0_lt_compat; lra|].
  replace ((L + 1) * Rabs (x - t) * / (L + 1)) with (Rabs (x - t)) by (field; lra). exact H2.
Qed.

Lemma is_derive_integral (f : R -> R) t : (forall t, continuous f t) ->
  is_derive (fun b => RInt f 0 b) t (f t).
Proof.
  intros Hf. apply is_derive_RInt with (a := 0); auto.
  exists (mkposreal 1 Rlt_0_1). intros b _. apply RInt_correct, ex_RInt_continuous. auto.
Qed.

Section Variation.
Variables (p q g : R) (u f1 f1' f2 f2' : R -> R).
Hypothesis Hu : forall t, continuous u t.
Hypothesis D1 : forall t, is_derive f1 t (f1' t).
Hypothesis D2 : forall t, is_derive f2 t (f2' t).
Hypothesis D1' : forall t, is_derive f1' t (- p * f1 t - q * f1' t).
Hypothesis D2' : forall t, is_derive f2' t (- p * f2 t - q * f2' t).
Let W t := f1 t * f2' t - f1' t * f2 t.
Hypothesis HW : forall t, W t <> 0.

Lemma cont_of (f df : R -> R) : (forall t, is_derive f t (df t)) -> forall t, continuous f t.
Proof. intros H t. apply (ex_derive_continuous f). exists (df t). apply H. Qed.

Lemma cont_quot (f : R -> R) : (forall t, continuous f t) -> forall t, continuous (fun t => f t * u t / W t) t.
Proof.
  intros Hf t.
  assert (C1 := cont_of f1 f1' D1). assert (C2 := cont_of f2 f2' D2).
  assert (C1' := cont_of f1' _ D1'). assert (C2' := cont_of f2' _ D2').
  apply (continuous_mult (fun t => f t * u t) (fun t => / W t)).
  - apply (continuous_mult f u); auto.
  - apply continuous_Rinv_comp; auto. unfold W.
    apply (continuous_minus (fun t => f1 t * f2' t) (fun t => f1' t * f2 t)).
    + apply (continuous_mult f1 f2'); auto.
    + apply (continuous_mult f1' f2); auto.
Qed.

Lemma variation_of_constants y0 v0 : exists y v : R -> R, y 0 = y0 /\ v 0 = v0
  /\ forall t, is_derive y t (v t) /\ is_derive v t (rhs p q g u t (y t) (v t)).
Proof.
  set (i1 := fun t => f1 t * u t / W t). set (i2 := fun t => f2 t * u t / W t).
  set (J1 := fun t => RInt i1 0 t). set (J2 := fun t => RInt i2 0 t).
  assert (DJ1 : forall t, is_derive J1 t (i1 t)).
  { intros t. apply is_derive_integral, cont_quot, (cont_of f1 f1' D1). }
  assert (DJ2 : forall t, is_derive J2 t (i2 t)).
  { intros t. apply is_derive_integral, cont_quot, (cont_of f2 f2' D2). }
  set (a1 := ((y0 - g) * f2' 0 - v0 * f2 0) / W 0).
  set (a2 := (v0 * f1 0 - (y0 - g) * f1' 0) / W 0).
  set (k1 := fun t => a1 - J2 t). set (k2 := fun t => a2 + J1 t).
  assert (Dk1 : forall t, is_derive k1 t (- i2 t)).
  { intros t. unfold k1. replace (- i2 t) with (minus zero (i2 t)) by (unfold minus, plus, opp, zero; simpl; ring).
    apply (is_derive_minus (fun _ => a1) J2); auto. apply @is_derive_const. }
  assert (Dk2 : forall t, is_derive k2 t (i1 t)).
  { intros t. unfold k2. replace (i1 t) with (plus zero (i1 t)) by (unfold plus, zero; simpl; ring).
    apply (is_derive_plus (fun _ => a2) J1); auto. apply @is_derive_const. }
  assert (Dsum : forall (h1 h1' h2 h2' : R -> R) c t, is_derive h1 t (h1' t) -> is_derive h2 t (h2' t) ->
     is_derive (fun t => c + (k1 t * h1 t + k2 t * h2 t)) t
       (k1 t * h1' t + k2 t * h2' t + (i1 t * h2 t - i2 t * h1 t))).
  { intros h1 h1' h2 h2' c t E1 E2.
    evar_last.
    { apply (is_derive_plus (fun _ => c) (fun t => k1 t * h1 t + k2 t * h2 t)); [apply @is_derive_const|].
      apply (is_derive_plus (fun t => k1 t * h1 t) (fun t => k2 t * h2 t)).
      - apply (is_derive_mult k1 h1 t (- i2 t) (h1' t)); auto. intros; apply Rmult_comm.
      - apply (is_derive_mult k2 h2 t (i1 t) (h2' t)); auto. intros; apply Rmult_comm. }
    unfold plus, zero, mult; simpl. ring. }
  exists (fun t => g + (k1 t * f1 t + k2 t * f2 t)), (fun t => 0 + (k1 t * f1' t + k2 t * f2' t)).
  assert (HJ1 : J1 0 = 0) by (unfold J1; rewrite RInt_point; reflexivity).
  assert (HJ2 : J2 0 = 0) by (unfold J2; rewrite RInt_point; reflexivity).
  pose proof (HW 0) as HW0.
  split; [|split].
  - unfold k1, k2. rewrite HJ1, HJ2. unfold a1, a2, W in *. field. auto.
  - unfold k1, k2. rewrite HJ1, HJ2. unfold a1, a2, W in *. field. auto.
  - intros t. specialize (HW t). split.
    + evar_last; [apply (Dsum f1 f1' f2 f2' g t); auto|].
      unfold i1, i2, W in *. field. auto.
    + evar_last.
      * apply (Dsum f1' (fun t => - p * f1 t - q * f1' t) f2' (fun t => - p * f2 t - q * f2' t) 0 t); auto.
      * unfold rhs, i1, i2, W in *. field. auto.
Qed.

End Variation.

(** ** Existence for all coefficients *)
Lemma solution_exists p q g (u : R -> R) y0 v0 : (forall t, continuous u t) ->
  exists y v : R -> R, y 0 = y0 /\ v 0 = v0
  /\ forall t, is_derive y t (v t) /\ is_derive v t (rhs p q g u t (y t) (v t)).
Proof.
  intros Hu. set (D := q ^ 2 - 4 * p).
  destruct (Rlt_le_dec 0 D) as [HD|HD]; [|destruct HD as [HD|HD]].
  - set (w := sqrt D). assert (Hw : 0 < w) by (apply sqrt_lt_R0; auto).
    assert (Ew : w * w = D) by (apply sqrt_sqrt; lra).
    set (r1 := (- q - w) / 2). set (r2 := (- q + w) / 2).
    assert (E1 : r1 * r1 = - p - q * r1) by (unfold r1, D in *; nra).
    assert (E2 : r2 * r2 = - p - q * r2) by (unfold r2, D in *; nra).
    apply (variation_of_constants p q g u (fun t => exp (r1 * t)) (fun t => r1 * exp (r1 * t))
             (fun t => exp (r2 * t)) (fun t => r2 * exp (r2 * t))); auto.
    + intros t. auto_derive; auto. ring.
    + intros t. auto_derive; auto. ring.
    + intros t. auto_derive; auto.
      replace (r1 * (r1 * 1 * exp (r1 * t))) with (r1 * r1 * exp (r1 * t)) by ring. rewrite E1. ring.
    + intros t. auto_derive; auto.
      replace (r2 * (r2 * 1 * exp (r2 * t))) with (r2 * r2 * exp (r2 * t)) by ring. rewrite E2. ring.
    + intros t. replace (exp (r1 * t) * (r2 * exp (r2 * t)) - r1 * exp (r1 * t) * exp (r2 * t))
        with (w * (exp (r1 * t) * exp (r2 * t))) by (unfold r1, r2; field).
      pose proof (exp_pos (r1 * t)). pose proof (exp_pos (r2 * t)).
      apply Rmult_integral_contrapositive_currified; [lra|].
      apply Rmult_integral_contrapositive_currified; lra.
  - set (w := sqrt (- D) / 2). assert (Hw : 0 < w) by (unfold w; pose proof (sqrt_lt_R0 (- D)); lra).
    assert (Ew : w * w = p - q ^ 2 / 4).
    { unfold w. replace (sqrt (- D) / 2 * (sqrt (- D) / 2)) with (sqrt (- D) * sqrt (- D) / 4) by field.
      rewrite sqrt_sqrt by lra. unfold D. field. }
    set (r := - q / 2).
    assert (Er : r * r = q ^ 2 / 4) by (unfold r; field).
    apply (variation_of_constants p q g u (fun t => exp (r * t) * cos (w * t))
       (fun t => exp (r * t) * (r * cos (w * t) - w * sin (w * t)))
       (fun t => exp (r * t) * sin (w * t))
       (fun t => exp (r * t) * (r * sin (w * t) + w * cos (w * t)))); auto.
    + intros t. auto_derive; auto. ring.
    + intros t. auto_derive; auto. ring.
    + intros t. auto_derive; auto. unfold r in *. nra.
    + intros t. auto_derive; auto. unfold r in *. nra.
    + intros t. set (c := cos (w * t)). set (s := sin (w * t)). set (e := exp (r * t)).
      assert (Ecs : c * c + s * s = 1).
      { pose proof (sin2_cos2 (w * t)) as H. unfold Rsqr in H. fold c s in H. lra. }
      replace (e * c * (e * (r * s + w * c)) - e * (r * c - w * s) * (e * s))
        with (w * (e * e) * (c * c + s * s)) by ring.
      rewrite Ecs. pose proof (exp_pos (r * t)) as He. fold e in He.
      apply Rmult_integral_contrapositive_currified; [|lra].
      apply Rmult_integral_contrapositive_currified; [lra|].
      apply Rmult_integral_contrapositive_currified; lra.
  - set (r := - q / 2).
    assert (Ep : p = r * r) by (unfold r, D in *; nra).
    assert (Eq : q = - 2 * r) by (unfold r; field).
    apply (variation_of_constants p q g u (fun t => exp (r * t)) (fun t => r * exp (r * t))
             (fun t => t * exp (r * t)) (fun t => exp (r * t) + t * (r * exp (r * t)))); auto.
    + intros t. auto_derive; auto. ring.
    + intros t. auto_derive; auto. ring.
    + intros t. auto_derive; auto. rewrite Ep, Eq. ring.
    + intros t. auto_derive; auto. rewrite Ep, Eq. ring.
    + intros t. pose proof (exp_pos (r * t)) as He. set (e := exp (r * t)) in *.
      replace (e * (e + t * (r * e)) - r * e * (t * e)) with (e * e) by ring.
      apply Rmult_integral_contrapositive_currified; lra.
Qed.
