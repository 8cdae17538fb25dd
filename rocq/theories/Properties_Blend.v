(** C134: learning from a blend of demonstrations blends the movements.
    Final statements. *)
From Coq Require Import Reals ZArith List Lia Lra Psatz FunctionalExtensionality.
From Verif Require Import M_Prelude M_Canonical M_Forcing M_Dmp M_Base M_Matrix M_DmpObject M_Ridge
  S_Loops S_Dmp P_Loops P_Canonical P_Forcing P_DmpStep P_DmpScale P_DmpLinear P_Matrix P_Cartesian
  P_DmpObject P_DmpAffine P_ProMP Properties_Forcing Properties_Dmp Properties_DmpObject Properties_Equivariance
  Properties_Continuity.
Import ListNotations.
Open Scope R_scope.
Set Bullet Behavior "Strict Subproofs".

(** ** Specification *)
(** [p] times one demonstration and [q] times another one, sample by sample, at
    the times of the first. *)
Definition blended (p q : R) (dm1 dm2 : demo) : demo :=
  {| d_n := d_n dm1; d_T := d_T dm1; d_rows := d_rows dm1; d_dims := d_dims dm1;
     d_Y := fun t d => p * d_Y dm1 t d + q * d_Y dm2 t d |}.

(** Two demonstrations with samples at the same times. *)
Definition same_times (dm1 dm2 : demo) : Prop :=
  d_n dm2 = d_n dm1 /\ forall t, d_T dm2 t = d_T dm1 t.

(** The third run is, sample by sample, [p] times the first and [q] times the
    second one; or all three raise the same exception. *)
Definition blends_runs (n : nat) (p q : R) (r1 r2 r : res (list R * list vec)) : Prop :=
  match r1, r2, r with
  | Ok (ts1, ys1), Ok (ts2, ys2), Ok (ts, ys) =>
      ts1 = ts /\ ts2 = ts /\ length ys1 = length ys /\ length ys2 = length ys
      /\ forall k, (k < length ys)%nat -> forall d, (d < n)%nat ->
         nth k ys vzero d = p * nth k ys1 vzero d + q * nth k ys2 vzero d
  | Err e1, Err e2, Err e => e1 = e /\ e2 = e
  | _, _, _ => False
  end.

(** [o] has [p] times the start, the goal and the weights of [o1] and [q] times
    those of [o2], and the gains of both. *)
Record blend_of (n : nat) (p q : R) (o1 o2 o : dmp) : Prop := {
  bo_start : forall d, (d < n)%nat -> aget (p_start_y (o_base o)) d
      = p * aget (p_start_y (o_base o1)) d + q * aget (p_start_y (o_base o2)) d;
  bo_goal : forall d, (d < n)%nat -> aget (p_goal_y (o_base o)) d
      = p * aget (p_goal_y (o_base o1)) d + q * aget (p_goal_y (o_base o2)) d;
  bo_weights : forall d i, (d < n)%nat -> (i < o_n_weights_per_dim o)%nat ->
      ft_weights (o_forcing_term o) d i
      = p * ft_weights (o_forcing_term o1) d i + q * ft_weights (o_forcing_term o2) d i;
  bo_gains : forall d, (d < n)%nat ->
      aget (o_alpha_y o1) d = aget (o_alpha_y o) d /\ aget (o_alpha_y o2) d = aget (o_alpha_y o) d
      /\ aget (o_beta_y o1) d = aget (o_beta_y o) d /\ aget (o_beta_y o2) d = aget (o_beta_y o) d }.

(** ** Proofs *)
(** Two movements side by side, in [n + n] dimensions. *)
Definition side (n : nat) (u v : vec) : vec := fun e => if Nat.ltb e n then u e else v (e - n)%nat.

Definition pick (n : nat) (p q : R) (d e : nat) : R :=
  (if Nat.eqb d e then p else 0) + (if Nat.eqb (n + d) e then q else 0).

Lemma pick_side n p q u v d : (d < n)%nat -> lmap (n + n) (pick n p q) (side n u v) d = p * u d + q * v d.
Proof.
  intros Hd. unfold lmap. rewrite rsum_app. f_equal.
  - transitivity (p * rsum n (fun k => (if Nat.eqb d k then 1 else 0) * u k)); [|now rewrite rsum_delta].
    rewrite <- rsum_scal. apply rsum_ext. intros e He. unfold pick, side.
    destruct (Nat.ltb_spec e n); [|lia]. destruct (Nat.eqb_spec (n + d) e); [lia|].
    destruct (Nat.eqb d e); ring.
  - transitivity (q * rsum n (fun k => (if Nat.eqb d k then 1 else 0) * v k)); [|now rewrite rsum_delta].
    rewrite <- rsum_scal. apply rsum_ext. intros e He. unfold pick, side.
    destruct (Nat.ltb_spec (n + e) n); [lia|]. destruct (Nat.eqb_spec d (n + e)); [lia|].
    replace (n + e - n)%nat with e by lia.
    destruct (Nat.eqb_spec (n + d) (n + e)), (Nat.eqb_spec d e); try lia; ring.
Qed.

Lemma pick_grel n p q (g g1 g2 : vec) : (forall d, (d < n)%nat -> g1 d = g d /\ g2 d = g d) ->
  grel (n + n) (pick n p q) (fun d => (d < n)%nat) g (side n g1 g2).
Proof.
  intros H d e Hd He Hne. unfold pick in Hne. unfold side.
  destruct (Nat.eqb_spec d e) as [<-|N1].
  - destruct (Nat.ltb_spec d n); [|lia]. symmetry. now apply H.
  - destruct (Nat.eqb_spec (n + d) e) as [<-|N2]; [|exfalso; lra].
    destruct (Nat.ltb_spec (n + d) n); [lia|]. replace (n + d - n)%nat with d by lia.
    symmetry. now apply H.
Qed.

Lemma pick_drel n p q (u u1 u2 : vec) : (forall d, (d < n)%nat -> u d = p * u1 d + q * u2 d) ->
  drel (n + n) (pick n p q) (fun d => (d < n)%nat) u (side n u1 u2).
Proof. intros H d Hd. rewrite pick_side by auto. now apply H. Qed.

Definition side_args (n : nat) (o1 o2 : dmp) : dmp_args :=
  {| a_goal_y := side n (aget (p_goal_y (o_base o1))) (aget (p_goal_y (o_base o2)));
     a_goal_yd := vzero; a_goal_ydd := vzero;
     a_start_y := side n (aget (p_start_y (o_base o1))) (aget (p_start_y (o_base o2)));
     a_start_yd := vzero; a_start_ydd := vzero;
     a_goal_t := o_execution_time o1; a_start_t := 0;
     a_alpha_y := side n (aget (o_alpha_y o1)) (aget (o_alpha_y o2));
     a_beta_y := side n (aget (o_beta_y o1)) (aget (o_beta_y o2));
     a_forcing_term := set_ft_weights (fun e i => side n (fun d => ft_weights (o_forcing_term o1) d i)
                          (fun d => ft_weights (o_forcing_term o2) d i) e) (o_forcing_term o1);
     a_coupling_term := None; a_precomputed := None;
     a_int_dt := o_int_dt o1; a_p_gain := 0; a_tracking_error := None;
     a_smooth_scaling := o_smooth_scaling o1 |}.

Lemma side_run n p q o1 o2 o fn run_t : reachable n o1 -> reachable n o ->
  same_settings o1 o -> 0 < o_int_dt o1 -> blend_of n p q o1 o2 o ->
  res_rel (fun r' r => fst r' = fst r
      /\ Forall2 (prel (n + n) (pick n p q) vzero (fun d => (d < n)%nat)) (snd r') (map fst (snd r)))
    (dmp_open_loop run_t None (Some fn) o)
    (open_loop_run (run_step_function fn (side_args n o1 o2)) 0
       (match run_t with Some x => x | None => o_execution_time o1 end) (o_dt o1)
       (side n (aget (p_start_y (o_base o1))) (aget (p_start_y (o_base o2)))) vzero).
Proof.
  intros Hr1 Hr (S1 & S2 & S3 & S4 & S5 & S6) Hi [B1 B2 B3 B4].
  unfold dmp_open_loop. rewrite S1, S2.
  set (D := fun d : nat => (d < n)%nat).
  assert (Hz : drel (n + n) (pick n p q) D vzero vzero) by (intros d Hd; symmetry; apply lmap_vzero).
  assert (Hst : prel (n + n) (pick n p q) vzero D (aget (p_start_y (o_base o)))
                 (side n (aget (p_start_y (o_base o1))) (aget (p_start_y (o_base o2))))).
  { apply drel_prel, pick_drel. exact B1. }
  assert (Ha : args_aff (n + n) (pick n p q) vzero D (open_loop_step_args o None) (side_args n o1 o2)).
  { constructor; cbn; auto.
    - apply drel_prel, pick_drel. exact B2.
    - destruct (reachable_ft n o1 Hr1) as (j1 & f1 & w1 & Ef1 & E1).
      destruct (reachable_ft n o Hr) as (j & f & w & Ef & E).
      assert (EN : forall f' j' w' o', forcing_term_init (fst j') (snd j') (o_n_weights_per_dim o')
                   (ft_goal_t (o_forcing_term o')) 0 (8/10) (- ln (1/100)) = Ok f' ->
                  o_forcing_term o' = set_ft_weights w' f' ->
                  ft_n (o_forcing_term o') = o_n_weights_per_dim o' /\ ft_start_t (o_forcing_term o') = 0
                  /\ ft_alpha_z (o_forcing_term o') = - ln (1/100)).
      { intros f' j' w' o' EE EO. pose proof (forcing_term_init_n _ _ _ _ _ _ _ _ EE) as (A1 & A2 & A3 & A4 & A5 & _).
        rewrite EO. cbn. auto. }
      destruct (EN _ _ _ _ Ef1 E1) as (P1 & P2 & P3). destruct (EN _ _ _ _ Ef E) as (Q1 & Q2 & Q3).
      unfold ft_aff. cbn. rewrite P1, P2, P3, Q1, Q2, Q3, S4.
      split; [auto|]. split; [auto|]. split; [auto|]. split; [auto|]. split.
      + intros i Hii. rewrite S4, S6 in Ef. rewrite E, E1. cbn.
        destruct (C02_fully_initialised _ _ _ _ _ _ _ _ _ _ _ Ef Ef1 i Hii). auto.
      + intros i Hii. apply (pick_drel n p q (fun d => ft_weights (o_forcing_term o) d i)
          (fun d => ft_weights (o_forcing_term o1) d i) (fun d => ft_weights (o_forcing_term o2) d i)).
        intros d Hd. apply B3; [exact Hd|rewrite S4; exact Hii].
    - apply pick_grel. intros d Hd. destruct (B4 d Hd) as (? & ? & _). auto.
    - apply pick_grel. intros d Hd. destruct (B4 d Hd) as (_ & _ & ? & ?). auto. }
  set (rt := match run_t with Some x => x | None => o_execution_time o1 end).
  pose proof (open_loop_aff (n + n) (pick n p q) vzero D fn (open_loop_step_args o None) (side_args n o1 o2) 0 rt (o_dt o1)
    (aget (p_start_y (o_base o)), vzero)
    (side n (aget (p_start_y (o_base o1))) (aget (p_start_y (o_base o2))), vzero) Hi Ha (conj Hst Hz)) as HO.
  cbn [fst snd] in HO.
  destruct (open_loop_run (run_step_function fn (open_loop_step_args o None)) 0 rt (o_dt o1)
      (aget (p_start_y (o_base o))) vzero) as [[ts l]|],
    (open_loop_run (run_step_function fn (side_args n o1 o2)) 0 rt (o_dt o1)
       (side n (aget (p_start_y (o_base o1))) (aget (p_start_y (o_base o2)))) vzero) as [[ts' l']|];
    cbn in HO |- *; auto.
  destruct HO as [Et HF]. split; [exact Et|]. clear -HF.
  induction HF as [|x x' l l' [Hx _] _ IH]; cbn; constructor; auto.
Qed.

Lemma prel_pick n p q (y s : vec) d : (d < n)%nat ->
  prel (n + n) (pick n p q) vzero (fun d => (d < n)%nat) y s -> y d = p * s d + q * s (n + d)%nat.
Proof.
  intros Hd H. rewrite (H d Hd).
  replace s with (side n s (fun e => s (n + e)%nat)) at 1.
  - rewrite pick_side by auto. unfold vzero. ring.
  - apply functional_extensionality. intros e. unfold side. destruct (Nat.ltb_spec e n); [auto|].
    f_equal. lia.
Qed.

Lemma forall2_at {A B} (P : A -> B -> Prop) (a : A) (b : B) l l' : Forall2 P l l' ->
  length l = length l' /\ forall k, (k < length l')%nat -> P (nth k l a) (nth k l' b).
Proof.
  induction 1 as [|x y l l' H _ [E IH]]; cbn; [split; [auto|intros; lia]|].
  split; [now rewrite E|]. intros [|k] Hk; auto. apply IH. lia.
Qed.

(** ** C134 *)
(** Superposition: a DMP with [p] times the start, goal and weights of one and
    [q] times those of another DMP moves along [p] times the movement of the one
    and [q] times that of the other. *)
Theorem C134_parameters : forall n p q o1 o2 o fn run_t,
  reachable n o1 -> reachable n o2 -> reachable n o -> same_settings o1 o2 -> same_settings o1 o ->
  0 < o_int_dt o1 -> blend_of n p q o1 o2 o ->
  blends_runs n p q (dmp_open_loop run_t None fn o1) (dmp_open_loop run_t None fn o2)
    (dmp_open_loop run_t None fn o).
Proof.
  intros n p q o1 o2 o fn run_t Hr1 Hr2 Hr HS2 HS Hi HB.
  destruct fn as [fn|]; [|cbn; auto].
  assert (HB1 : blend_of n 1 0 o1 o2 o1).
  { constructor; intros; try ring. destruct (bo_gains _ _ _ _ _ _ HB d H) as (-> & -> & -> & ->). auto. }
  assert (HB2 : blend_of n 0 1 o1 o2 o2).
  { constructor; intros; try ring. destruct (bo_gains _ _ _ _ _ _ HB d H) as (-> & -> & -> & ->). auto. }
  assert (HS1 : same_settings o1 o1) by (repeat split).
  pose proof (side_run n p q o1 o2 o fn run_t Hr1 Hr HS Hi HB) as H.
  pose proof (side_run n 1 0 o1 o2 o1 fn run_t Hr1 Hr1 HS1 Hi HB1) as H1.
  pose proof (side_run n 0 1 o1 o2 o2 fn run_t Hr1 Hr2 HS2 Hi HB2) as H2.
  destruct (open_loop_run _ _ _ _ _ _) as [[tss ls]|];
    destruct (dmp_open_loop run_t None (Some fn) o1) as [[ts1 l1]|];
    destruct (dmp_open_loop run_t None (Some fn) o2) as [[ts2 l2]|];
    destruct (dmp_open_loop run_t None (Some fn) o) as [[ts l]|];
    cbn [res_rel fst snd] in *; try tauto.
  - destruct H as [E F], H1 as [E1 F1], H2 as [E2 F2].
    destruct (forall2_at _ vzero vzero _ _ F) as [L G], (forall2_at _ vzero vzero _ _ F1) as [L1 G1],
      (forall2_at _ vzero vzero _ _ F2) as [L2 G2].
    unfold blends_runs. split; [congruence|]. split; [congruence|]. split; [congruence|]. split; [congruence|].
    intros k Hk d Hd. rewrite L in Hk. specialize (G k Hk). specialize (G1 k Hk). specialize (G2 k Hk).
    rewrite (prel_pick n p q _ _ d Hd G), (prel_pick n 1 0 _ _ d Hd G1), (prel_pick n 0 1 _ _ d Hd G2). ring.
  - cbn. split; congruence.
Qed.

(** Learning is linear, too: the movement learned from [p] times one and [q]
    times another demonstration is [p] times the movement learned from the one
    and [q] times the movement learned from the other. *)
Theorem C134_demonstrations : forall n p q o junk1 junk2 junk dm1 dm2 lam allow fn run_t,
  reachable n o -> 0 < o_int_dt o -> 0 <= lam ->
  demonstrates n dm1 -> demonstrates n dm2 -> same_times dm1 dm2 ->
  accepts junk (blended p q dm1 dm2) lam allow o
  /\ blends_runs n p q (dmp_open_loop run_t None fn (imitate junk1 dm1 lam allow o))
       (dmp_open_loop run_t None fn (imitate junk2 dm2 lam allow o))
       (dmp_open_loop run_t None fn (imitate junk (blended p q dm1 dm2) lam allow o)).
Proof.
  intros n p q o junk1 junk2 junk dm1 dm2 lam allow fn run_t Hr Hi Hlam Hd1 Hd2 [En ET].
  assert (Hd : demonstrates n (blended p q dm1 dm2)) by exact Hd1.
  destruct (imitated n o junk1 dm1 lam allow Hr Hlam Hd1) as (f1 & df1 & _ & Edf1 & Ef1 & Hw1 & w1 & Eo1).
  destruct (imitated n o junk2 dm2 lam allow Hr Hlam Hd2) as (f2 & df2 & _ & Edf2 & Ef2 & Hw2 & w2 & Eo2).
  destruct (imitated n o junk _ lam allow Hr Hlam Hd) as (f & df & HA & Edf & Ef & Hw & w & Eo).
  split; [exact HA|].
  assert (EdT : d_T dm2 = d_T dm1) by (apply functional_extensionality; auto).
  rewrite En, EdT in *. cbn [blended d_n d_T d_Y] in *.
  apply C134_parameters; try (apply imitate_reachable; auto).
  - rewrite Eo1, Eo2. repeat split.
  - rewrite Eo1, Eo. repeat split.
  - rewrite Eo1. exact Hi.
  - constructor.
    + intros d Hd'. rewrite Eo, Eo1, Eo2. reflexivity.
    + intros d Hd'. rewrite Eo, Eo1, Eo2. reflexivity.
    + intros d i Hd' Hi'.
      assert (Hi2 : (i < o_n_weights_per_dim o)%nat).
      { replace (o_n_weights_per_dim (imitate junk (blended p q dm1 dm2) lam allow o))
          with (o_n_weights_per_dim o) in Hi' by (rewrite Eo; reflexivity). exact Hi'. }
      rewrite Hw, Hw1, Hw2 by auto.
      set (m := d_n dm1) in *. set (al := aget (o_alpha_y o)) in *. set (be := aget (o_beta_y o)) in *.
      destruct (determine_forces m (d_T dm1) (fun t => side n (d_Y dm1 t) (d_Y dm2 t)) (side n al al)
        (side n be be) (- ln (1/100)) allow (o_smooth_scaling o)) as [dfs|] eqn:Es.
      2: { unfold determine_forces in Es, Edf. destruct (Nat.ltb_spec m 2); discriminate. }
      assert (HX : forall f', forcing_term_init (fst junk1) (snd junk1) (o_n_weights_per_dim o) (d_T dm1 (m - 1)%nat)
           (d_T dm1 0%nat) (8/10) (- ln (1/100)) = Ok f1 ->
        (exists j, forcing_term_init (fst j) (snd j) (o_n_weights_per_dim o) (d_T dm1 (m - 1)%nat)
           (d_T dm1 0%nat) (8/10) (- ln (1/100)) = Ok f') ->
        forall i t, (i < o_n_weights_per_dim o)%nat -> (t < m)%nat ->
          design_matrix f' (d_T dm1) (m - 1) i t = design_matrix f1 (d_T dm1) (m - 1) i t).
      { intros f' E1 [j E2] i' t Hii Ht.
        pose proof (forcing_term_init_n _ _ _ _ _ _ _ _ E1) as (N1 & _ & _ & _ & Z1 & _).
        pose proof (forcing_term_init_n _ _ _ _ _ _ _ _ E2) as (N2 & _ & _ & _ & Z2 & _).
        unfold design_matrix. rewrite Z1, Z2, N1, N2. f_equal. apply activations_ext; auto.
        intros i0 Hi0. destruct (C02_fully_initialised _ _ _ _ _ _ _ _ _ _ _ E2 E1 i0 Hi0). auto. }
      assert (HR : forall p' q' Y' f' df',
        (forall t d, Y' t d = p' * d_Y dm1 t d + q' * d_Y dm2 t d) ->
        determine_forces m (d_T dm1) Y' al be (- ln (1/100)) allow (o_smooth_scaling o) = Ok df' ->
        (exists j, forcing_term_init (fst j) (snd j) (o_n_weights_per_dim o) (d_T dm1 (m - 1)%nat)
           (d_T dm1 0%nat) (8/10) (- ln (1/100)) = Ok f') ->
        ridge_regression (o_n_weights_per_dim o) m (design_matrix f' (d_T dm1) (m - 1)) (df_F df') lam d i
        = lmap (n + n) (pick n p' q') (fun e => ridge_regression (o_n_weights_per_dim o) m
            (design_matrix f1 (d_T dm1) (m - 1)) (df_F dfs) lam e i) d).
      { intros p' q' Y' f' df' HY' Edf' Ef'.
        apply (ridge_aff (n + n) (pick n p' q') (fun d => (d < n)%nat) _ _ _ _ _ _ lam); auto.
        apply (determine_forces_aff (n + n) (pick n p' q') vzero (fun d => (d < n)%nat) m (d_T dm1) Y'
          (fun t => side n (d_Y dm1 t) (d_Y dm2 t)) al (side n al al) be (side n be be) (- ln (1/100)) allow
          (o_smooth_scaling o)); auto.
        - intros t Ht. apply drel_prel, pick_drel. intros; apply HY'.
        - apply pick_grel. auto.
        - apply pick_grel. auto. }
      set (W := fun e => ridge_regression (o_n_weights_per_dim o) m
            (design_matrix f1 (d_T dm1) (m - 1)) (df_F dfs) lam e i) in *.
      assert (HP : forall p' q', lmap (n + n) (pick n p' q') W d = p' * W d + q' * W (n + d)%nat).
      { intros p' q'. pose proof (prel_pick n p' q' (lmap (n + n) (pick n p' q') W) W d Hd') as HH.
        apply HH. intros d0 _. unfold vzero. ring. }
      rewrite (HR p q _ f df (fun t d => eq_refl) Edf (ex_intro _ junk Ef)).
      rewrite (HR 1 0 (d_Y dm1) f1 df1 ltac:(intros; ring) Edf1 (ex_intro _ junk1 Ef1)).
      rewrite (HR 0 1 (d_Y dm2) f2 df2 ltac:(intros; ring) Edf2 (ex_intro _ junk2 Ef2)).
      rewrite !HP. ring.
    + intros d _. rewrite Eo, Eo1, Eo2. auto.
Qed.

(** A movement halfway between a demonstration and its mirror image: two
    different demonstrations meet the hypotheses and the runs exist. *)
Example C134_satisfiable : exists o, reachable 2 o /\ 0 < o_int_dt o
  /\ let dm1 := {| d_n := 3; d_T := INR; d_rows := 3; d_dims := 2;
                   d_Y := fun t d => if Nat.eqb d 0 then INR t else INR t ^ 2 |} in
     let dm2 := {| d_n := 3; d_T := INR; d_rows := 3; d_dims := 2;
                   d_Y := fun t d => if Nat.eqb d 0 then INR t else 1 - INR t ^ 2 |} in
     demonstrates 2 dm1 /\ demonstrates 2 dm2 /\ same_times dm1 dm2
     /\ d_Y (blended (1/4) (3/4) dm1 dm2) 2%nat 1%nat = -5/4
     /\ exists ts ys, dmp_open_loop None None (Some Euler)
          (imitate (vzero, vzero) (blended (1/4) (3/4) dm1 dm2) 0 false o) = Ok (ts, ys) /\ (1 < length ys)%nat.
Proof.
  destruct (ex_new_ok 2 25 (25/4)) as (f & o & E & Ef & Eo).
  exists o. assert (Hr : reachable 2 o) by (eapply ex_reachable; eauto).
  split; auto. split; [rewrite Eo; cbn; lra|]. cbv zeta.
  set (dm1 := Build_demo _ _ _ _ _). set (dm2 := Build_demo _ _ _ _ _).
  assert (Hd1 : demonstrates 2 dm1) by (unfold demonstrates; cbn; repeat split; lra).
  assert (Hd2 : demonstrates 2 dm2) by (unfold demonstrates; cbn; repeat split; lra).
  split; [exact Hd1|]. split; [exact Hd2|]. split; [split; reflexivity|].
  split; [cbn; lra|].
  set (dm := blended (1/4) (3/4) dm1 dm2). assert (Hd : demonstrates 2 dm) by exact Hd1.
  destruct (imitated 2 o (vzero, vzero) dm 0 false Hr ltac:(lra) Hd) as (? & ? & _ & _ & _ & _ & w & EI).
  rewrite EI. unfold dmp_open_loop. cbn [o_execution_time with_base with_forcing_term o_dt o_base].
  set (o2 := with_base _ _).
  destruct (C13_runs_exist Euler (o_forcing_term o2) (o_execution_time o2) (aget (p_start_y (o_base o2)))
     vzero (aget (p_goal_y (o_base o2))) (aget (o_alpha_y o2)) (aget (o_beta_y o2)) (o_int_dt o2) (o_dt o2)
     (o_smooth_scaling o2) (o_execution_time o2)) as (ts & l & El & Hl);
     try (unfold o2; rewrite Eo; cbn; lra).
  exists ts, (map fst l). split.
  - etransitivity; [exact (f_equal (fun r => bind r _) El)|reflexivity].
  - rewrite map_length. destruct Hl as [Hl|Hl]; [lia|]. exfalso. revert Hl. unfold o2. rewrite Eo. cbn. lra.
Qed.
