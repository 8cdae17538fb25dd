(** The classical Runge-Kutta method for y'' = p (g - y) - q y' + u(t + a) has order four,
    uniformly in the shift [a] of the input. *)
From Coq Require Import Reals Lia Lra Psatz.
From Coquelicot Require Import Coquelicot.
From Verif Require Import P_Ode P_Smooth.
Open Scope R_scope.
Set Bullet Behavior "Strict Subproofs".

(** One Runge-Kutta step of length [h] with the inputs [U0], [U1], [U2] at its beginning,
    middle and end. *)
Definition rk4_map (p q g h U0 U1 U2 Y V : R) : R * R :=
  let f (U Y V : R) := p * (g - Y) - q * V + U in
  let K0 := f U0 Y V in
  let C1 := V + h / 2 * K0 in
  let K1 := f U1 (Y + h / 2 * V) C1 in
  let C2 := V + h / 2 * K1 in
  let K2 := f U1 (Y + h / 2 * C1) C2 in
  let C3 := V + h * K2 in
  let K3 := f U2 (Y + h * C2) C3 in
  (Y + h * (V + h / 6 * (K0 + K1 + K2)), V + h / 6 * (K0 + 2 * K1 + 2 * K2 + K3)).

(** ** Stability *)
Section Stability.
Variables p q g T : R.
Hypothesis HT : 0 <= T.

Lemma rk4_map_gap : exists K, 0 <= K /\ forall h U0 U1 U2 Y V y v, 0 < h <= T ->
  Rabs (fst (rk4_map p q g h U0 U1 U2 Y V) - fst (rk4_map p q g h U0 U1 U2 y v))
  + Rabs (snd (rk4_map p q g h U0 U1 U2 Y V) - snd (rk4_map p q g h U0 U1 U2 y v))
  <= (1 + h * K) * (Rabs (Y - y) + Rabs (V - v)).
Proof.
  set (D := fun h => 0 < h <= T).
  assert (Hh : bd D (fun h => h)).
  { exists T. split; auto. intros h Hh. rewrite Rabs_pos_eq; unfold D in Hh; lra. }
  set (aVY := fun h => h ^ 0 * ((-1 / 1) * p) + h ^ 1 * ((1 / 2) * p * q)
    + h ^ 2 * ((-1 / 6) * p * q ^ 2 + (1 / 6) * p ^ 2)
    + h ^ 3 * ((1 / 24) * p * q ^ 3 + (-1 / 12) * p ^ 2 * q)).
  set (aVV := fun h => h ^ 0 * ((-1 / 1) * q) + h ^ 1 * ((-1 / 2) * p + (1 / 2) * q ^ 2)
    + h ^ 2 * ((1 / 3) * p * q + (-1 / 6) * q ^ 3)
    + h ^ 3 * ((-1 / 8) * p * q ^ 2 + (1 / 24) * p ^ 2 + (1 / 24) * q ^ 4)).
  set (aYY := fun h => h ^ 1 * ((-1 / 2) * p) + h ^ 2 * ((1 / 6) * p * q)
    + h ^ 3 * ((-1 / 24) * p * q ^ 2 + (1 / 24) * p ^ 2)).
  set (aYV := fun h => h ^ 0 * (1 / 1) + h ^ 1 * ((-1 / 2) * q) + h ^ 2 * ((-1 / 6) * p + (1 / 6) * q ^ 2)
    + h ^ 3 * ((1 / 12) * p * q + (-1 / 24) * q ^ 3)).
  assert (B1 : bd D aVY) by (unfold aVY; bound).
  assert (B2 : bd D aVV) by (unfold aVV; bound).
  assert (B3 : bd D aYY) by (unfold aYY; bound).
  assert (B4 : bd D aYV) by (unfold aYV; bound).
  destruct B1 as (K1 & P1 & B1), B2 as (K2 & P2 & B2), B3 as (K3 & P3 & B3), B4 as (K4 & P4 & B4).
  exists (K1 + K2 + K3 + K4). split; [lra|]. intros h U0 U1 U2 Y V y v H.
  specialize (B1 h H). specialize (B2 h H). specialize (B3 h H). specialize (B4 h H).
  assert (EY : fst (rk4_map p q g h U0 U1 U2 Y V) - fst (rk4_map p q g h U0 U1 U2 y v)
     = (Y - y) + h * (aYY h * (Y - y) + aYV h * (V - v))).
  { unfold rk4_map, aYY, aYV. cbn [fst]. field. }
  assert (EV : snd (rk4_map p q g h U0 U1 U2 Y V) - snd (rk4_map p q g h U0 U1 U2 y v)
     = (V - v) + h * (aVY h * (Y - y) + aVV h * (V - v))).
  { unfold rk4_map, aVY, aVV. cbn [snd]. field. }
  rewrite EY, EV. clearbody aVY aVV aYY aYV. clear EY EV.
  assert (G : forall e A B a b, Rabs A <= a -> Rabs B <= b -> 0 <= a -> 0 <= b ->
     Rabs (e + h * (A * (Y - y) + B * (V - v)))
     <= Rabs e + h * ((a + b) * (Rabs (Y - y) + Rabs (V - v)))).
  { intros e A B a b HA HB Ha Hb. eapply Rle_trans; [apply Rabs_triang|]. apply Rplus_le_compat_l.
    rewrite Rabs_mult, (Rabs_pos_eq h) by lra. apply Rmult_le_compat_l; [lra|].
    eapply Rle_trans; [apply Rabs_triang|]. rewrite !Rabs_mult.
    pose proof (Rabs_pos (Y - y)) as HY. pose proof (Rabs_pos (V - v)) as HV.
    assert (Rabs A * Rabs (Y - y) <= a * Rabs (Y - y)) by (apply Rmult_le_compat_r; auto).
    assert (Rabs B * Rabs (V - v) <= b * Rabs (V - v)) by (apply Rmult_le_compat_r; auto).
    assert (0 <= a * Rabs (V - v)) by (apply Rmult_le_pos; auto).
    assert (0 <= b * Rabs (Y - y)) by (apply Rmult_le_pos; auto). lra. }
  pose proof (G (Y - y) _ _ _ _ B3 B4 P3 P4). pose proof (G (V - v) _ _ _ _ B1 B2 P1 P2). lra.
Qed.
End Stability.

(** ** Solutions *)
Section Order.
Variables (p q g T y0 : R) (u u1 u2 u3 u4 : R -> R).
Hypothesis HT : 0 <= T.
Hypothesis D0 : forall t, is_derive u t (u1 t).
Hypothesis D1 : forall t, is_derive u1 t (u2 t).
Hypothesis D2 : forall t, is_derive u2 t (u3 t).
Hypothesis D3 : forall t, is_derive u3 t (u4 t).
Hypothesis D4 : exists u5, forall t, is_derive u4 t (u5 t).

(** [y] with velocity [v] solves the equation with the input [u (t + a)] up to [T]. *)
Definition solves (a : R) (y v : R -> R) : Prop :=
  y 0 = y0 /\ v 0 = 0
  /\ forall t, 0 <= t <= T -> is_derive y t (v t) /\ is_derive v t (p * (g - y t) - q * v t + u (t + a)).

Record point := { pt_a : R; pt_y : R -> R; pt_v : R -> R; pt_t : R }.
Definition ok (i : point) : Prop :=
  0 <= pt_a i <= T /\ solves (pt_a i) (pt_y i) (pt_v i) /\ 0 <= pt_t i <= T.

Lemma bd_input (f f' : R -> R) : (forall t, is_derive f t (f' t)) -> bd ok (fun i => f (pt_t i + pt_a i)).
Proof.
  intros H. destruct (derive_bounded (2 * T) ltac:(lra) f f' ltac:(auto)) as (B & HB & Hf).
  exists B. split; auto. intros i (Ha & _ & Ht). apply Hf. lra.
Qed.

(** All solutions are bounded by the same constant. *)
Lemma solution_bound : exists B, 0 <= B /\ forall a y v t, 0 <= a <= T -> solves a y v -> 0 <= t <= T ->
  Rabs (y t) <= B /\ Rabs (v t) <= B.
Proof.
  destruct (derive_bounded (2 * T) ltac:(lra) u u1 ltac:(auto)) as (Bu & HBu & Hu).
  set (P := Rabs p). set (Q := Rabs q). set (G := Rabs (p * g) + Bu).
  assert (HP : 0 <= P) by apply Rabs_pos. assert (HQ : 0 <= Q) by apply Rabs_pos.
  assert (HG : 0 <= G) by (unfold G; pose proof (Rabs_pos (p * g)); lra).
  set (K := 2 + 2 * P + 2 * Q + 2 * G).
  set (M := (y0 * y0 + 1) * exp (K * T)).
  assert (HM : 0 <= M) by (apply Rmult_le_pos; [nra|apply Rlt_le, exp_pos]).
  exists (M + 1). split; [lra|]. intros a y v t Ha (E0 & E1 & HS) Ht.
  assert (HN : y t * y t + v t * v t + 1 <= M).
  { assert (L := derive_nonneg_le (fun s => - ((y s * y s + v s * v s + 1) * exp (- K * s)))
      (fun s => - ((2 * (v s * y s) + 2 * (p * (g - y s) - q * v s + u (s + a)) * v s
                    - K * (y s * y s + v s * v s + 1)) * exp (- K * s))) 0 t ltac:(lra)).
    cbv beta in L.
    assert (L' : - ((y 0 * y 0 + v 0 * v 0 + 1) * exp (- K * 0))
                 <= - ((y t * y t + v t * v t + 1) * exp (- K * t))).
    { apply L; clear L.
      - intros s Hs. destruct (HS s ltac:(lra)) as (Dy & Dv).
        evar_last.
        { apply (is_derive_opp (fun s => (y s * y s + v s * v s + 1) * exp (- K * s))).
          apply (is_derive_mult (fun s => y s * y s + v s * v s + 1) (fun s => exp (- K * s)));
            [|auto_derive; auto; reflexivity|intros; apply Rmult_comm].
          apply (is_derive_plus (fun s => y s * y s + v s * v s) (fun _ => 1));
            [|apply @is_derive_const].
          apply (is_derive_plus (fun s => y s * y s) (fun s => v s * v s)).
          - apply (is_derive_mult y y); [exact Dy|exact Dy|intros; apply Rmult_comm].
          - apply (is_derive_mult v v); [exact Dv|exact Dv|intros; apply Rmult_comm]. }
        unfold plus, mult, opp, zero; simpl. ring.
      - intros s Hs. rewrite <- Ropp_mult_distr_l_reverse. apply Rmult_le_pos; [|apply Rlt_le, exp_pos].
        specialize (Hu (s + a) ltac:(lra)).
        pose proof (Rle_abs (p * g)) as A1. pose proof (Rle_abs (- (p * g))) as A1'. rewrite Rabs_Ropp in A1'.
        pose proof (Rle_abs (u (s + a))) as A2. pose proof (Rle_abs (- u (s + a))) as A2'. rewrite Rabs_Ropp in A2'.
        pose proof (Rle_abs p) as A3. pose proof (Rle_abs (- p)) as A3'. rewrite Rabs_Ropp in A3'.
        pose proof (Rle_abs q) as A4. pose proof (Rle_abs (- q)) as A4'. rewrite Rabs_Ropp in A4'.
        fold P in A3, A3'. fold Q in A4, A4'.
        set (Y := y s) in *. set (V := v s) in *. set (w := p * g + u (s + a)).
        assert (Hw : - G <= w <= G) by (unfold w, G; lra).
        replace (p * (g - Y) - q * V + u (s + a)) with (w - p * Y - q * V) by (unfold w; ring).
        set (N := Y * Y + V * V + 1).
        assert (HYY : 0 <= Y * Y) by nra. assert (HVV : 0 <= V * V) by nra.
        assert (B1 : 2 * (V * Y) <= 2 * N) by (unfold N; nra).
        assert (B2 : 2 * (w * V) <= 2 * G * N).
        { assert (w * V <= G * (V * V + 1)).
          { assert (HV1 : V <= V * V + 1 /\ - V <= V * V + 1) by nra.
            destruct (Rle_dec 0 V) as [HV|HV].
            - apply Rle_trans with (G * V); [apply Rmult_le_compat_r; lra|apply Rmult_le_compat_l; lra].
            - replace (w * V) with (- w * - V) by ring.
              apply Rle_trans with (G * - V); [apply Rmult_le_compat_r; lra|apply Rmult_le_compat_l; lra]. }
          unfold N. nra. }
        assert (B3 : - 2 * (p * Y * V) <= 2 * P * N).
        { assert (- (p * (Y * V)) <= P * (Y * Y + V * V)).
          { assert (X1 : - (Y * Y + V * V) <= Y * V <= Y * Y + V * V) by nra.
            destruct (Rle_dec 0 (Y * V)); nra. }
          unfold N. nra. }
        assert (B4 : - 2 * (q * V * V) <= 2 * Q * N).
        { assert (- (q * (V * V)) <= Q * (V * V)) by nra. unfold N. nra. }
        unfold K. nra. }
    rewrite E0, E1, (Rmult_0_r (- K)), exp_0, Rmult_0_r in L'.
    assert (EX : exp (- K * t) * exp (K * t) = 1) by (rewrite <- exp_plus, <- exp_0; f_equal; ring).
    assert (H1 : y t * y t + v t * v t + 1 <= (y0 * y0 + 1) * exp (K * t)).
    { pose proof (exp_pos (K * t)) as Hp. set (N := y t * y t + v t * v t + 1) in *.
      replace N with (N * exp (- K * t) * exp (K * t)) by (rewrite Rmult_assoc, EX; ring).
      apply Rmult_le_compat_r; lra. }
    eapply Rle_trans; [exact H1|]. unfold M. apply Rmult_le_compat_l; [nra|].
    assert (HK : K * t <= K * T) by (apply Rmult_le_compat_l; unfold K in *; lra).
    destruct HK as [HK| ->]; [apply Rlt_le, exp_increasing; auto|apply Rle_refl]. }
  split; apply Rabs_le; nra.
Qed.

(** The derivatives of a solution. *)
Definition w1 (i : point) : R := p * (g - pt_y i (pt_t i)) - q * pt_v i (pt_t i) + u (pt_t i + pt_a i).
Definition w2 (i : point) : R := - p * pt_v i (pt_t i) - q * w1 i + u1 (pt_t i + pt_a i).
Definition w3 (i : point) : R := - p * w1 i - q * w2 i + u2 (pt_t i + pt_a i).
Definition w4 (i : point) : R := - p * w2 i - q * w3 i + u3 (pt_t i + pt_a i).
Definition w5 (i : point) : R := - p * w3 i - q * w4 i + u4 (pt_t i + pt_a i).

Lemma derivatives_bound : exists B, 0 <= B /\ forall i, ok i ->
  Rabs (pt_v i (pt_t i)) <= B /\ Rabs (w1 i) <= B /\ Rabs (w2 i) <= B /\ Rabs (w3 i) <= B
  /\ Rabs (w4 i) <= B /\ Rabs (w5 i) <= B.
Proof.
  destruct solution_bound as (Bs & HBs & Hs).
  assert (By : bd ok (fun i => pt_y i (pt_t i))).
  { exists Bs. split; auto. intros i (Ha & HS & Ht). apply (Hs _ _ _ _ Ha HS Ht). }
  assert (Bv : bd ok (fun i => pt_v i (pt_t i))).
  { exists Bs. split; auto. intros i (Ha & HS & Ht). apply (Hs _ _ _ _ Ha HS Ht). }
  pose proof (bd_input u u1 D0) as B0. pose proof (bd_input u1 u2 D1) as B1.
  pose proof (bd_input u2 u3 D2) as B2. pose proof (bd_input u3 u4 D3) as B3.
  destruct D4 as (u5 & D4'). pose proof (bd_input u4 u5 D4') as B4.
  assert (W1 : bd ok w1) by (unfold w1; bound).
  assert (W2 : bd ok w2) by (unfold w2; bound).
  assert (W3 : bd ok w3) by (unfold w3; bound).
  assert (W4 : bd ok w4) by (unfold w4; bound).
  assert (W5 : bd ok w5) by (unfold w5; bound).
  destruct Bv as (b0 & P0 & H0), W1 as (b1 & P1 & H1), W2 as (b2 & P2 & H2), W3 as (b3 & P3 & H3),
    W4 as (b4 & P4 & H4), W5 as (b5 & P5 & H5).
  exists (b0 + b1 + b2 + b3 + b4 + b5). split; [lra|]. intros i Hi.
  specialize (H0 i Hi). specialize (H1 i Hi). specialize (H2 i Hi). specialize (H3 i Hi).
  specialize (H4 i Hi). specialize (H5 i Hi). repeat split; lra.
Qed.

(** ** The error of one step *)
Lemma local_error : exists M, 0 <= M /\ forall a y v t h, 0 <= a <= T -> solves a y v ->
  0 <= t -> 0 < h -> t + h <= T ->
  let s := rk4_map p q g h (u (t + a)) (u (t + a + h / 2)) (u (t + a + h)) (y t) (v t) in
  Rabs (fst s - y (t + h)) <= h ^ 5 * M /\ Rabs (snd s - v (t + h)) <= h ^ 5 * M.
Proof.
  destruct derivatives_bound as (B & HB & Hd).
  destruct D4 as (u5 & D4').
  destruct (derive_bounded (3 * T) ltac:(lra) u4 u5 ltac:(auto)) as (Bu & HBu & Hu).
  set (b := B + Bu + T). set (I := nat -> R). set (D := fun x : I => forall k, Rabs (x k) <= b).
  assert (HX : forall k, bd D (fun x => x k)).
  { intros k. exists b. split; [unfold b; lra|]. intros x Hx. apply Hx. }
  set (XV := fun x : I => let v := x 0%nat in let v1 := x 1%nat in let v2 := x 2%nat in let v3 := x 3%nat in
     let v4 := x 4%nat in let r1 := x 5%nat in let r2 := x 6%nat in let h := x 7%nat in
     h ^ 0 * ((-5 / 288) * p * q * v2 + (1 / 96) * p * q ^ 2 * v1 + (-1 / 96) * p * v3 + (-1 / 96) * p ^ 2 * v1
       + (-1 / 144) * q * v4 + (1 / 288) * q ^ 2 * v3 + (1 / 96) * q ^ 3 * v2 + (2 / 3) * r1 + (1 / 6) * r2)
     + h ^ 1 * ((-1 / 576) * p * q * v3 + (1 / 576) * p * q ^ 2 * v2 + (-1 / 576) * p * v4
       + (-1 / 576) * p ^ 2 * v2 + (-1 / 3) * q * r1 + (1 / 576) * q ^ 2 * v4 + (1 / 576) * q ^ 3 * v3)
     + h ^ 2 * ((-1 / 12) * p * r1 + (1 / 12) * q ^ 2 * r1)).
  set (XY := fun x : I => let v := x 0%nat in let v1 := x 1%nat in let v2 := x 2%nat in let v3 := x 3%nat in
     let v4 := x 4%nat in let r1 := x 5%nat in let r2 := x 6%nat in let h := x 7%nat in
     h ^ 0 * ((-1 / 96) * p * q * v1 + (1 / 144) * p * v2 + (-1 / 288) * q * v3 + (-1 / 96) * q ^ 2 * v2
       + (1 / 144) * v4)
     + h ^ 1 * ((-1 / 576) * p * q * v2 + (-1 / 576) * q * v4 + (-1 / 576) * q ^ 2 * v3 + (1 / 3) * r1)
     + h ^ 2 * ((-1 / 12) * q * r1)).
  assert (BV : bd D XV) by (unfold XV; cbv zeta; bound; apply HX).
  assert (BY : bd D XY) by (unfold XY; cbv zeta; bound; apply HX).
  destruct BV as (MV & PV & BV), BY as (MY & PY & BY).
  exists (MV + MY + B). split; [lra|]. intros a y v t h Ha HS Ht Hh Hth s.
  set (at_ := fun x => {| pt_a := a; pt_y := y; pt_v := v; pt_t := x |}).
  assert (Hok : forall x, t <= x <= t + h -> ok (at_ x)).
  { intros x Hx. unfold ok, at_. cbn. repeat split; try apply HS; lra. }
  pose proof HS as (_ & _ & HD).
  assert (Du : forall (f f' : R -> R) x, (forall t, is_derive f t (f' t)) ->
     is_derive (fun x => f (x + a)) x (f' (x + a))).
  { intros f f' x Hf. evar_last; [apply (is_derive_comp f (fun x => x + a)); [apply Hf|]|].
    - auto_derive; auto; reflexivity.
    - unfold scal; simpl; unfold mult; simpl. ring. }
  assert (DY : forall x, t <= x <= t + h -> is_derive y x (v x)) by (intros; apply HD; lra).
  assert (DV : forall x, t <= x <= t + h -> is_derive v x (w1 (at_ x))) by (intros; apply HD; lra).
  assert (DW : forall (f f' k k' U U' : R -> R), (forall x, t <= x <= t + h -> is_derive f x (f' x)) ->
     (forall x, t <= x <= t + h -> is_derive k x (k' x)) -> (forall t, is_derive U t (U' t)) ->
     forall x, t <= x <= t + h ->
     is_derive (fun x => - p * f x - q * k x + U (x + a)) x (- p * f' x - q * k' x + U' (x + a))).
  { intros f f' k k' U U' Df Dk DU x Hx.
    apply (is_derive_plus (fun x => - p * f x - q * k x) (fun x => U (x + a))); [|now apply Du].
    apply (is_derive_minus (fun x => - p * f x) (fun x => q * k x));
      [apply (is_derive_scal f x (- p))|apply (is_derive_scal k x q)]; auto. }
  assert (DW1 : forall x, t <= x <= t + h -> is_derive (fun x => w1 (at_ x)) x (w2 (at_ x))).
  { intros x Hx. apply is_derive_ext with (fun x => - p * (y x - g) - q * v x + u (x + a)).
    { intros z. unfold w1, at_; cbn. ring. }
    unfold w2. cbn [at_ pt_a pt_t pt_v].
    apply (DW (fun x => y x - g) v v (fun x => w1 (at_ x)) u u1); auto.
    intros z Hz. evar_last; [apply (is_derive_minus y (fun _ => g)); [apply DY; auto|apply @is_derive_const]|].
    unfold minus, plus, opp, zero; simpl. ring. }
  assert (DW2 : forall x, t <= x <= t + h -> is_derive (fun x => w2 (at_ x)) x (w3 (at_ x))).
  { intros x Hx. apply (DW v (fun x => w1 (at_ x)) (fun x => w1 (at_ x)) (fun x => w2 (at_ x)) u1 u2); auto. }
  assert (DW3 : forall x, t <= x <= t + h -> is_derive (fun x => w3 (at_ x)) x (w4 (at_ x))).
  { intros x Hx. apply (DW (fun x => w1 (at_ x)) (fun x => w2 (at_ x)) (fun x => w2 (at_ x)) (fun x => w3 (at_ x)) u2 u3); auto. }
  assert (DW4 : forall x, t <= x <= t + h -> is_derive (fun x => w4 (at_ x)) x (w5 (at_ x))).
  { intros x Hx. apply (DW (fun x => w2 (at_ x)) (fun x => w3 (at_ x)) (fun x => w3 (at_ x)) (fun x => w4 (at_ x)) u3 u4); auto. }
  (* Taylor formulas of the solution *)
  assert (TV := taylor4 v (fun x => w1 (at_ x)) (fun x => w2 (at_ x)) (fun x => w3 (at_ x)) (fun x => w4 (at_ x))
     (fun x => w5 (at_ x)) B t h ltac:(lra) DV DW1 DW2 DW3 DW4).
  specialize (TV (fun x Hx => proj2 (proj2 (proj2 (proj2 (proj2 (Hd _ (Hok x Hx))))))) (t + h) ltac:(lra)).
  assert (TY := taylor4 y v (fun x => w1 (at_ x)) (fun x => w2 (at_ x)) (fun x => w3 (at_ x)) (fun x => w4 (at_ x))
     B t h ltac:(lra) DY DV DW1 DW2 DW3).
  specialize (TY (fun x Hx => proj1 (proj2 (proj2 (proj2 (proj2 (Hd _ (Hok x Hx))))))) (t + h) ltac:(lra)).
  (* Taylor formulas of the input *)
  assert (TU := fun x => taylor3 u u1 u2 u3 u4 Bu (t + a) h ltac:(lra) (fun s _ => D0 s) (fun s _ => D1 s)
     (fun s _ => D2 s) (fun s _ => D3 s) (fun s Hs => Hu s ltac:(lra)) x).
  assert (T1 := TU (t + a + h / 2) ltac:(lra)). assert (T2 := TU (t + a + h) ltac:(lra)). clear TU.
  replace (t + h - t) with h in TV, TY by ring.
  replace (t + a + h - (t + a)) with h in T2 by ring.
  replace (t + a + h / 2 - (t + a)) with (h / 2) in T1 by field.
  set (U1 := u (t + a + h / 2)) in *. set (U2 := u (t + a + h)) in *.
  set (P1 := u (t + a) + h / 2 * u1 (t + a) + (h / 2) ^ 2 / 2 * u2 (t + a) + (h / 2) ^ 3 / 6 * u3 (t + a)) in *.
  set (P2 := u (t + a) + h * u1 (t + a) + h ^ 2 / 2 * u2 (t + a) + h ^ 3 / 6 * u3 (t + a)) in *.
  set (r1 := (U1 - P1) / h ^ 4). set (r2 := (U2 - P2) / h ^ 4).
  assert (Hh4 : 0 < h ^ 4) by (apply pow_lt; auto).
  assert (Hr : forall e c, Rabs e <= Bu * h ^ 4 * c -> 0 <= c <= 1 -> Rabs (e / h ^ 4) <= b).
  { intros e c He Hc. unfold Rdiv. rewrite Rabs_mult, (Rabs_pos_eq (/ h ^ 4)) by (apply Rlt_le, Rinv_0_lt_compat; auto).
    apply Rmult_le_reg_r with (h ^ 4); auto. rewrite Rmult_assoc, Rinv_l by lra. rewrite Rmult_1_r.
    eapply Rle_trans; [exact He|].
    assert (HBh : 0 <= Bu * h ^ 4) by (apply Rmult_le_pos; lra).
    apply Rle_trans with (Bu * h ^ 4); [nra|]. apply Rmult_le_compat_r; [lra|]. unfold b. lra. }
  assert (R1 : Rabs r1 <= b).
  { apply (Hr _ (/ 384)); [|lra]. eapply Rle_trans; [exact T1|]. apply Req_le. field. }
  assert (R2 : Rabs r2 <= b).
  { apply (Hr _ (/ 24)); [|lra]. eapply Rle_trans; [exact T2|]. apply Req_le. field. }
  assert (EU1 : U1 = P1 + h ^ 4 * r1) by (unfold r1; field; lra).
  assert (EU2 : U2 = P2 + h ^ 4 * r2) by (unfold r2; field; lra).
  destruct (Hd _ (Hok t ltac:(lra))) as (b0 & b1 & b2 & b3 & b4 & b5).
  set (x := fun k => match k with
     | 0%nat => v t | 1%nat => w1 (at_ t) | 2%nat => w2 (at_ t) | 3%nat => w3 (at_ t) | 4%nat => w4 (at_ t)
     | 5%nat => r1 | 6%nat => r2 | _ => h end).
  assert (Dx : D x).
  { assert (Hhb : Rabs h <= b) by (rewrite Rabs_pos_eq by lra; unfold b; lra).
    assert (Hbb : B <= b) by (unfold b; lra). cbn [at_ pt_t pt_v] in b0.
    intros k. do 7 (destruct k as [|k]; [cbn [x]; lra|]). exact Hhb. }
  specialize (BV x Dx). specialize (BY x Dx).
  assert (EV : snd s - (v t + h * w1 (at_ t) + h ^ 2 / 2 * w2 (at_ t) + h ^ 3 / 6 * w3 (at_ t)
                        + h ^ 4 / 24 * w4 (at_ t)) = h ^ 5 * XV x).
  { unfold s. rewrite EU1, EU2. unfold rk4_map, XV, x, P1, P2, w4, w3, w2, w1, at_.
    cbn [snd pt_a pt_t pt_v pt_y]. clearbody r1 r2. field. }
  assert (EY : fst s - (y t + h * v t + h ^ 2 / 2 * w1 (at_ t) + h ^ 3 / 6 * w2 (at_ t)
                        + h ^ 4 / 24 * w3 (at_ t)) = h ^ 5 * XY x).
  { unfold s. rewrite EU1, EU2. unfold rk4_map, XY, x, P1, P2, w4, w3, w2, w1, at_.
    cbn [fst pt_a pt_t pt_v pt_y]. clearbody r1 r2. field. }
  assert (Hh5 : 0 <= h ^ 5) by (apply pow_le; lra).
  assert (HB120 : B / 120 * h ^ 5 <= h ^ 5 * B) by (assert (0 <= h ^ 5 * B) by (apply Rmult_le_pos; auto); lra).
  assert (Gen : forall A0 S X x MX, A0 - S = h ^ 5 * X -> Rabs (x - S) <= B / 120 * h ^ 5 -> Rabs X <= MX ->
     0 <= MX -> MX <= MV + MY -> Rabs (A0 - x) <= h ^ 5 * (MV + MY + B)).
  { intros A0 S X x0 MX E1 E2 E3 E4 E5. replace (A0 - x0) with (h ^ 5 * X + - (x0 - S)) by lra.
    eapply Rle_trans; [apply Rabs_triang|]. rewrite Rabs_Ropp, Rabs_mult, (Rabs_pos_eq (h ^ 5)) by auto.
    assert (h ^ 5 * Rabs X <= h ^ 5 * (MV + MY)) by (apply Rmult_le_compat_l; lra). lra. }
  split.
  - apply (Gen _ _ _ _ MY EY TY BY); lra.
  - apply (Gen _ _ _ _ MV EV TV BV); lra.
Qed.

(** ** The error of a run *)
Lemma run_order : exists C, 0 <= C /\ forall a y v h (s : nat -> R * R), 0 <= a <= T -> solves a y v -> 0 < h ->
  s 0%nat = (y0, 0) ->
  (forall k, s (S k) = rk4_map p q g h (u (INR k * h + a)) (u (INR k * h + a + h / 2)) (u (INR k * h + a + h))
                               (fst (s k)) (snd (s k))) ->
  forall k, INR k * h <= T ->
    Rabs (fst (s k) - y (INR k * h)) <= C * h ^ 4 /\ Rabs (snd (s k) - v (INR k * h)) <= C * h ^ 4.
Proof.
  destruct local_error as (M & HM & HL). destruct (rk4_map_gap p q g T HT) as (K & HK & HG).
  exists (2 * M * T * exp (K * T)).
  assert (HC : 0 <= 2 * M * T * exp (K * T)).
  { apply Rmult_le_pos; [apply Rmult_le_pos; lra|apply Rlt_le, exp_pos]. }
  split; auto. intros a y v h s Ha HS Hh E0 Es.
  assert (G : forall k, INR k * h <= T ->
     err y v (INR k * h) (fst (s k)) (snd (s k)) <= (2 * M * h ^ 3) * h * (INR k * h) * exp (K * (INR k * h))).
  { assert (Hh3 : 0 <= h ^ 3) by (apply pow_le; lra).
    assert (HMh : 0 <= 2 * M * h ^ 3) by (apply Rmult_le_pos; lra).
    induction k as [|k IH]; intros Hk.
    - rewrite E0. cbn [INR fst snd]. rewrite Rmult_0_l. unfold err.
      destruct HS as (-> & -> & _). rewrite !Rminus_eq_0, Rabs_R0. lra.
    - rewrite S_INR in *. pose proof (pos_INR k) as Pk.
      assert (Pkh : 0 <= INR k * h) by (apply Rmult_le_pos; lra).
      replace ((INR k + 1) * h) with (INR k * h + h) in * by ring.
      specialize (IH ltac:(lra)). set (t := INR k * h) in *.
      apply (gronwall_invariant K (2 * M * h ^ 3) h t h (err y v t (fst (s k)) (snd (s k)))); auto; try lra.
      { apply err_nonneg. }
      specialize (HL a y v t h Ha HS Pkh Hh Hk). cbv zeta in HL.
      rewrite (Es k). fold t.
      specialize (HG h (u (t + a)) (u (t + a + h / 2)) (u (t + a + h)) (fst (s k)) (snd (s k)) (y t) (v t) ltac:(lra)).
      set (A := rk4_map p q g h (u (t + a)) (u (t + a + h / 2)) (u (t + a + h)) (fst (s k)) (snd (s k))) in *.
      set (A' := rk4_map p q g h (u (t + a)) (u (t + a + h / 2)) (u (t + a + h)) (y t) (v t)) in *.
      unfold err at 1.
      assert (TY : Rabs (fst A - y (t + h)) <= Rabs (fst A - fst A') + Rabs (fst A' - y (t + h))).
      { replace (fst A - y (t + h)) with ((fst A - fst A') + (fst A' - y (t + h))) by ring. apply Rabs_triang. }
      assert (TV : Rabs (snd A - v (t + h)) <= Rabs (snd A - snd A') + Rabs (snd A' - v (t + h))).
      { replace (snd A - v (t + h)) with ((snd A - snd A') + (snd A' - v (t + h))) by ring. apply Rabs_triang. }
      change (Rabs (fst (s k) - y t) + Rabs (snd (s k) - v t)) with (err y v t (fst (s k)) (snd (s k))) in HG.
      replace (h ^ 2 * (2 * M * h ^ 3)) with (h ^ 5 * M + h ^ 5 * M) by ring. lra. }
  intros k Hk. specialize (G k Hk).
  assert (Pk : 0 <= INR k * h) by (apply Rmult_le_pos; [apply pos_INR|lra]).
  assert (E : err y v (INR k * h) (fst (s k)) (snd (s k)) <= 2 * M * T * exp (K * T) * h ^ 4).
  { eapply Rle_trans; [exact G|].
    replace (2 * M * h ^ 3 * h * (INR k * h) * exp (K * (INR k * h)))
      with ((2 * M * h ^ 4) * ((INR k * h) * exp (K * (INR k * h)))) by ring.
    replace (2 * M * T * exp (K * T) * h ^ 4) with ((2 * M * h ^ 4) * (T * exp (K * T))) by ring.
    apply Rmult_le_compat_l; [apply Rmult_le_pos; [lra|apply pow_le; lra]|].
    apply Rmult_le_compat; auto; [apply Rlt_le, exp_pos|].
    assert (HKk : K * (INR k * h) <= K * T) by (apply Rmult_le_compat_l; lra).
    destruct HKk as [HKk| ->]; [apply Rlt_le, exp_increasing; auto|apply Rle_refl]. }
  unfold err in E. pose proof (Rabs_pos (fst (s k) - y (INR k * h))).
  pose proof (Rabs_pos (snd (s k) - v (INR k * h))). split; lra.
Qed.

End Order.
