(** C131 for SpringDamper.  Final statements. *)
From Coq Require Import Reals ZArith List Arith Bool Lia Lra Psatz FunctionalExtensionality.
From Coquelicot Require Import Complex.
From Verif Require Import M_Prelude M_Canonical M_Forcing M_Dmp M_Base M_DmpObject M_SpringDamper S_Loops S_Dmp S_Stability
  P_Loops P_Forcing P_DmpStep P_DmpLinear P_Converge P_DmpObject P_Disturbed P_Stability P_Rate
  Properties_SpringDamper Properties_Goal Properties_Stability Properties_SpringHistory Properties_Moving Properties_TogetherSpring.
Import ListNotations.
Open Scope R_scope.
Set Bullet Behavior "Strict Subproofs".

(** ** Specification *)
(** The damping constant; without one the spring is critically damped. *)
Definition sd_c (o : spring_damper) : R := match s_c o with Some c => c | None => 2 * sqrt (s_k o) end.

(** Every motion shrinks by more than [exp (- lam * h)] in each part of length [h] of a step. *)
Definition spring_decays_at (lam : R) (o : spring_damper) : Prop :=
  equal_parts (s_dt o) (s_int_dt o)
  /\ let h := Rmin (s_dt o) (s_int_dt o) in
     forall mu, euler_growth h (sd_c o) (s_k o) mu -> Cmod mu < exp (- lam * h).

(** ** Proofs *)
Lemma sd_undisturbed t k c idt g z d : disturbance (sd_dmp t k c idt g) z d = 0.
Proof.
  unfold disturbance. cbn [sd_dmp a_forcing_term a_smooth_scaling].
  assert (Ef : ft_forces no_force z d = 0) by (unfold ft_forces, no_force; simpl; ring).
  rewrite Ef. ring.
Qed.

(** ** C131 *)
(** From every state, after any number of steps. *)
Theorem C131_spring : forall o0 lam, 0 < s_k o0 -> 0 < sd_c o0 -> 0 < s_dt o0 -> 0 < s_int_dt o0 ->
  0 <= lam -> spring_decays_at lam o0 ->
  exists K, forall o n y yd d j, position_history n o -> same_spring o0 o -> alen y = n -> alen yd = n ->
  exists o' y' yd', sd_n_steps None j y yd o = (o', Ok (y', yd'))
  /\ let D := Rabs (aget y d - aget (p_goal_y (s_base o)) d) + Rabs (aget yd d) in
     Rabs (aget y' d - aget (p_goal_y (s_base o)) d) <= K * D * exp (- lam * (INR j * s_dt o))
     /\ Rabs (aget yd' d) <= K * D * exp (- lam * (INR j * s_dt o)).
Proof.
  intros o0 lam Hk Hc Hdt Hi Hl [Hep Hg]. cbv zeta in Hg.
  set (h := Rmin (s_dt o0) (s_int_dt o0)) in *. set (c := sd_c o0) in *.
  destruct (equal_tiles (s_dt o0) (s_int_dt o0) h Hdt Hi (parts_length _ _ Hdt Hi Hep)) as (m & Hm & Em & Hh & Htl).
  destruct (euler_rate h c (s_k o0) (exp (- lam * h)) (exp_pos _) Hg) as (K & HK & H).
  exists K. intros o n y yd d j Hh0 (S1 & S2 & S3 & S4) Ly Lyd.
  assert (Hsh : sd_shapes o n).
  { destruct (position_shapes n o Hh0) as (_ & _ & A1 & A2 & _ & _ & _ & _ & A3 & A4). unfold sd_shapes. auto. }
  assert (Ec : match s_c o with Some c => c | None => 2 * sqrt (s_k o) end = c) by (unfold c, sd_c; now rewrite S1, S2).
  assert (Hc0 : c <> 0) by lra.
  pose proof (sd_run o (aget y, aget yd)) as Hrun. cbv zeta in Hrun. rewrite Ec in Hrun.
  specialize (Hrun Hc0 ltac:(lra) ltac:(lra)).
  set (t0 := p_t (s_base o)) in *. set (g := aget (p_goal_y (s_base o))) in *.
  rewrite S1, S4 in Hrun. set (a := sd_dmp (t0 - 1) (s_k o0) c (s_int_dt o0) g) in *.
  assert (Da : damping a d = c) by apply sd_damping.
  assert (Ka : stiffness a d = s_k o0) by now apply sd_stiffness.
  assert (Fa : free a) by (repeat split).
  set (x := (aget y, aget yd)) in *.
  destruct (run_seq_euler Euler a t0 (s_dt o0) x) as (s & E0 & Es & Er); auto; try (cbn; lra).
  assert (Hsub : forall k, s k = substates a t0 h x (k * m)).
  { induction k as [|k IH]; [exact E0|].
    destruct (Es k) as (l & Hl' & ->). cbn [a sd_dmp a_int_dt] in Hl'.
    apply Htl in Hl'; [|rewrite S_INR; ring]. subst l. rewrite IH.
    rewrite (substates_exec a t0 h x m).
    - f_equal. lia.
    - rewrite mult_INR, Em. ring. }
  destruct (sd_n_steps_seq None j o n y yd) as (o' & s' & Hr' & Hn & _); auto; try lra.
  eexists _, _, _. split; [exact Hn|]. intros D. cbn [aget].
  fold t0 g x in Hr'. rewrite S1, S4, Hrun, S3, Er in Hr'. injection Hr' as <-. rewrite Hsub, S3.
  replace (INR j * s_dt o0) with (INR (j * m) * h) by (rewrite mult_INR, Em; ring).
  rewrite exp_pow.
  pose proof (Rabs_pos (aget y d - g d)). pose proof (Rabs_pos (aget yd d)).
  assert (HD : 0 <= D) by (unfold D; lra).
  apply (H (fun k => fst (substates a t0 h x k) d - g d) (fun k => snd (substates a t0 h x k) d) (fun _ => 0) D).
  - intros i. cbn [substates]. destruct (substates a t0 h x i) as [p v].
    destruct (euler_two a (t0 + INR (S i) * h) h p v d Fa ltac:(cbn; lra)) as [Z _].
    rewrite Da, Ka in Z. unfold a at 2 3 in Z. rewrite sd_undisturbed in Z.
    unfold Rdiv in Z. rewrite Rmult_0_l in Z. exact Z.
  - intros i. cbn [substates]. destruct (substates a t0 h x i) as [p v].
    destruct (euler_two a (t0 + INR (S i) * h) h p v d Fa ltac:(cbn; lra)) as [_ Z]. exact Z.
  - cbn [substates fst x]. unfold D. lra.
  - cbn [substates snd x]. unfold D. lra.
  - intros i. rewrite Rabs_R0. apply Rmult_le_pos; [exact HD|]. left. apply pow_lt, exp_pos.
Qed.

(** Whenever the spring comes to rest at all (the exact condition of C100) there is a positive rate. *)
Theorem C131_spring_exponential : forall o, 0 < s_k o -> 0 < sd_c o -> 0 < s_dt o -> 0 < s_int_dt o ->
  equal_parts (s_dt o) (s_int_dt o) ->
  (let h := Rmin (s_dt o) (s_int_dt o) in h ^ 2 * s_k o + 2 * (h * sd_c o) < 4) ->
  exists lam, 0 < lam /\ spring_decays_at lam o.
Proof.
  intros o Hk Hc Hdt Hi Hep Hlim. cbv zeta in Hlim. unfold spring_decays_at.
  set (h := Rmin (s_dt o) (s_int_dt o)) in *. set (c := sd_c o) in *.
  assert (Hh : 0 < h) by (unfold h; now apply Rmin_pos).
  apply C100_euler_limit in Hlim; auto.
  destruct (quadratic_roots (2 - h * c - h ^ 2 * s_k o) (1 - h * c)) as (m1 & m2 & Ht & Hp).
  assert (H1 : Cmod m1 < 1) by (apply Hlim; unfold euler_growth; apply (root_of _ _ m1 m2 _ Ht Hp); auto).
  assert (H2 : Cmod m2 < 1) by (apply Hlim; unfold euler_growth; apply (root_of _ _ m1 m2 _ Ht Hp); auto).
  set (m := Rmax (Cmod m1) (Cmod m2)).
  assert (Hm : 0 <= m < 1).
  { unfold m, Rmax. pose proof (Cmod_ge_0 m1). pose proof (Cmod_ge_0 m2). destruct (Rle_dec _ _); lra. }
  set (lam := - ln ((1 + m) / 2) / h).
  assert (Hl : 0 < lam).
  { unfold lam. apply Rdiv_lt_0_compat; auto.
    assert (ln ((1 + m) / 2) < ln 1) by (apply ln_increasing; lra). rewrite ln_1 in *. lra. }
  exists lam. split; [exact Hl|]. split; [exact Hep|]. cbv zeta. intros mu Hmu.
  replace (- lam * h) with (ln ((1 + m) / 2)) by (unfold lam; field; lra). rewrite exp_ln by lra.
  apply Rle_lt_trans with m; [|lra].
  apply (root_of _ _ m1 m2 mu Ht Hp) in Hmu. destruct Hmu as [-> | ->]; [apply Rmax_l|apply Rmax_r].
Qed.

(** With the default damping and short steps the rate is known: half of the square root of the
    stiffness, so the bound halves every 2 ln 2 / sqrt k seconds. *)
Theorem C131_spring_default : forall o, 0 < s_k o -> s_c o = None -> 0 < s_dt o -> 0 < s_int_dt o ->
  equal_parts (s_dt o) (s_int_dt o) -> Rmin (s_dt o) (s_int_dt o) * sqrt (s_k o) < 1 / 2 ->
  spring_decays_at (sqrt (s_k o) / 2) o.
Proof.
  intros o Hk Ec Hdt Hi Hep Hs. split; [exact Hep|]. cbv zeta. unfold sd_c. rewrite Ec.
  set (h := Rmin (s_dt o) (s_int_dt o)) in *.
  assert (Hh : 0 < h) by (unfold h; now apply Rmin_pos).
  assert (Hw : 0 < sqrt (s_k o)) by now apply sqrt_lt_R0.
  assert (Ek : s_k o = sqrt (s_k o) * sqrt (s_k o)) by (symmetry; apply sqrt_sqrt; lra).
  set (w := sqrt (s_k o)) in *. rewrite Ek. set (z := h * w) in *.
  assert (Hz : 0 < z) by (unfold z; now apply Rmult_lt_0_compat).
  set (s := sqrt (z ^ 2 + 4 * z)).
  assert (Hs0 : 0 <= s) by apply sqrt_pos.
  assert (Hs2 : s * s = z ^ 2 + 4 * z) by (apply sqrt_sqrt; nra).
  assert (Hs1 : s < 1 + z) by nra.
  intros mu Hmu. unfold euler_growth in Hmu.
  replace (2 - h * (2 * w) - h ^ 2 * (w * w)) with (2 - 2 * z - z ^ 2) in Hmu by (unfold z; ring).
  replace (1 - h * (2 * w)) with (1 - 2 * z) in Hmu by (unfold z; ring).
  replace (- (w / 2) * h) with (- (z / 2)) by (unfold z; field).
  assert (Hzs : z * s < z * (1 + z)) by (apply Rmult_lt_compat_l; auto).
  assert (Hzs0 : 0 <= z * s) by (apply Rmult_le_pos; lra).
  assert (He : 1 - z / 2 <= exp (- (z / 2))) by (pose proof (exp_ineq1_le (- (z / 2))); lra).
  assert (Hzz : z * z < z * (1 / 2)) by (apply Rmult_lt_compat_l; auto).
  apply (root_of _ _ (RtoC ((2 - 2 * z - z ^ 2 + z * s) / 2)) (RtoC ((2 - 2 * z - z ^ 2 - z * s) / 2))) in Hmu.
  - destruct Hmu as [-> | ->]; rewrite Cmod_R, Rabs_pos_eq; lra.
  - rewrite <- RtoC_plus. f_equal. field.
  - rewrite <- RtoC_mult. f_equal.
    replace ((2 - 2 * z - z ^ 2 + z * s) / 2 * ((2 - 2 * z - z ^ 2 - z * s) / 2))
      with (((2 - 2 * z - z ^ 2) ^ 2 - z ^ 2 * (s * s)) / 4) by field.
    rewrite Hs2. field.
Qed.

(** A SpringDamper in three dimensions with the default damping. *)
Example C131_spring_satisfiable : forall y yd : vec, exists o, position_history 3 o /\ s_k o = 4 /\ s_c o = None
  /\ 0 < sd_c o /\ s_dt o = 1/100 /\ s_int_dt o = 1/1000
  /\ aget (p_goal_y (s_base o)) = (fun _ => 1) /\ spring_decays_at 1 o /\ same_spring o o
  /\ exists K, forall j, exists o' y' yd',
     sd_n_steps None j {| alen := 3; aget := y |} {| alen := 3; aget := yd |} o = (o', Ok (y', yd'))
     /\ Rabs (aget y' 1%nat - 1) <= K * (Rabs (y 1%nat - 1) + Rabs (yd 1%nat)) * exp (- 1 * (INR j * (1/100))).
Proof.
  intros y yd.
  set (o := fst (sd_configure (goal_only {| alen := 3; aget := fun _ => 1 |}) (sd_new 3 (1/100) 4 None (1/1000)))).
  assert (E4 : sqrt 4 = 2) by (replace 4 with (2 * 2) by ring; apply sqrt_square; lra).
  assert (Sh : position_history 3 o) by (apply sh_configure, sh_new; eauto).
  assert (Hc : 0 < sd_c o) by (unfold sd_c; cbn; lra).
  assert (Hd : spring_decays_at 1 o).
  { replace 1 with (sqrt (s_k o) / 2) by (cbn; lra).
    apply C131_spring_default; try (cbn; lra); [reflexivity| |].
    - right. exists 10%nat. cbn. lra.
    - cbn. rewrite Rmin_right, E4; lra. }
  exists o. split; [exact Sh|]. split; [reflexivity|]. split; [reflexivity|]. split; [exact Hc|].
  split; [reflexivity|]. split; [reflexivity|]. split; [reflexivity|]. split; [exact Hd|].
  split; [repeat split|].
  destruct (C131_spring o 1) as [K HK]; try (cbn; lra); auto.
  exists K. intros j.
  destruct (HK o 3%nat {| alen := 3; aget := y |} {| alen := 3; aget := yd |} 1%nat j) as (o' & y' & yd' & E & B & _); auto;
    [repeat split|].
  exists o', y', yd'. split; [exact E|]. exact B.
Qed.
