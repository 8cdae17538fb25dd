(** C91: imitating a transformed demonstration gives the transformed movement.
    Final statements. *)
From Coq Require Import Reals ZArith List Lia Lra Psatz FunctionalExtensionality.
From Verif Require Import M_Prelude M_Canonical M_Forcing M_Dmp M_Base M_Matrix M_DmpObject M_Ridge
  S_Loops S_Dmp P_Loops P_Canonical P_Forcing P_DmpStep P_DmpScale P_DmpLinear P_Matrix P_Cartesian
  P_DmpObject P_DmpAffine Properties_Forcing Properties_Dmp Properties_DmpObject.
Import ListNotations.
Open Scope R_scope.
Set Bullet Behavior "Strict Subproofs".

(** ** Specification *)
(** The affine map from [n] to any number of dimensions: [b + A y]. *)
Definition affine (n : nat) (A : nat -> nat -> R) (b y : vec) : vec :=
  fun d => b d + rsum n (fun e => A d e * y e).

(** The demonstration seen in other coordinates: every sample is mapped. *)
Definition mapped (n m : nat) (A : nat -> nat -> R) (b : vec) (dm : demo) : demo :=
  {| d_n := d_n dm; d_T := d_T dm; d_rows := d_rows dm; d_dims := m;
     d_Y := fun t => affine n A b (d_Y dm t) |}.

(** The demonstration performed [s] times slower. *)
Definition slower (s : R) (dm : demo) : demo :=
  {| d_n := d_n dm; d_T := fun t => s * d_T dm t; d_rows := d_rows dm; d_dims := d_dims dm;
     d_Y := d_Y dm |}.

(** A demonstration that [imitate] accepts for [n] dimensions. *)
Definition demonstrates (n : nat) (dm : demo) : Prop :=
  d_T dm 0%nat < d_T dm (d_n dm - 1)%nat /\ d_rows dm = d_n dm /\ d_dims dm = n.

(** Two DMPs with the same timing, number of weights per dimension and scaling
    ([ft_goal_t] is the execution time that was last accepted). *)
Definition same_settings (o o' : dmp) : Prop :=
  o_execution_time o' = o_execution_time o /\ o_dt o' = o_dt o /\ o_int_dt o' = o_int_dt o
  /\ o_n_weights_per_dim o' = o_n_weights_per_dim o
  /\ o_smooth_scaling o' = o_smooth_scaling o
  /\ ft_goal_t (o_forcing_term o') = ft_goal_t (o_forcing_term o).

Definition imitate (junk : vec * vec) (dm : demo) (lam : R) (allow : bool) (o : dmp) : dmp :=
  fst (dmp_imitate_method junk ridge_regression dm lam allow o).
Definition accepts (junk : vec * vec) (dm : demo) (lam : R) (allow : bool) (o : dmp) : Prop :=
  snd (dmp_imitate_method junk ridge_regression dm lam allow o) = Ok tt.

(** ** Proofs *)
Lemma reachable_ft n o : reachable n o -> exists j f w,
  forcing_term_init (fst j) (snd j) (o_n_weights_per_dim o) (ft_goal_t (o_forcing_term o)) 0
    (8/10) (- ln (1/100)) = Ok f
  /\ o_forcing_term o = set_ft_weights w f.
Proof.
  intros H. destruct (reachable_ft_built n o H) as (j & x & f & w & E & Ew).
  apply init_forcing_term_inv in E. destruct E as (_ & _ & E).
  exists j, f, w. split; auto. rewrite Ew. cbn [set_ft_weights ft_goal_t].
  pose proof (forcing_term_init_n _ _ _ _ _ _ _ _ E) as (_ & -> & _). exact E.
Qed.

Lemma drel_ext_in n A (D : nat -> Prop) u' u v' v :
  (forall d, D d -> u' d = v' d) -> (forall e, (e < n)%nat -> u e = v e) ->
  drel n A D u' u -> drel n A D v' v.
Proof.
  intros H' H Hu d Hd. rewrite <- H', Hu by auto. unfold lmap. apply rsum_ext. intros. now rewrite H.
Qed.

Lemma np_gradient_scale m s T t : np_gradient m (fun i => s * T i) t = s * np_gradient m T t.
Proof.
  unfold np_gradient. destruct (Nat.eqb t 0); [ring|]. destruct (Nat.eqb t (m - 1)); [ring|]. field.
Qed.

Lemma phase_scaled s t al g st : 0 < s -> phase (s * t) al (s * g) (s * st) = phase t al g st.
Proof.
  intros Hs. replace (s * t) with (s * t + 0) by ring. replace (s * g) with (s * g + 0) by ring.
  replace (s * st) with (s * st + 0) by ring. unfold phase.
  destruct (Req_dec g st) as [->|Hne].
  - replace (s * st + 0 - (s * st + 0)) with 0 by ring. replace (st - st) with 0 by ring.
    unfold Rdiv. rewrite !Rinv_0. f_equal. ring.
  - f_equal. field. split; [lra|]. intros H. apply Hne. nra.
Qed.

(** Forces do not depend on the speed of the demonstration. *)
Lemma determine_forces_slower m s T Y al be az allow sm df df' : 0 < s ->
  T 0%nat < T (m - 1)%nat ->
  determine_forces m T Y al be az allow sm = Ok df ->
  determine_forces m (fun t => s * T t) Y al be az allow sm = Ok df' ->
  df_F df' = df_F df.
Proof.
  intros Hs HT E E'. unfold determine_forces in E, E'.
  destruct (Nat.ltb_spec m 2); [discriminate|]. injection E as <-. injection E' as <-. cbn [df_F].
  apply functional_extensionality; intro t. apply functional_extensionality; intro d.
  rewrite phase_scaled by auto.
  assert (EV : forall t d, demo_velocity m (fun t => s * T t) Y allow t d
                   = / s * demo_velocity m T Y allow t d).
  { intros t' d'. unfold demo_velocity. destruct (_ && _)%bool; [ring|].
    rewrite np_gradient_scale. unfold Rdiv. rewrite Rinv_mult. ring. }
  assert (EA : demo_acceleration m (fun t => s * T t) (demo_velocity m (fun t => s * T t) Y allow) t d
                   = / s ^ 2 * demo_acceleration m T (demo_velocity m T Y allow) t d).
  { unfold demo_acceleration. destruct (Nat.eqb t (m - 1)); [ring|].
    rewrite np_gradient_scale.
    replace (fun k => demo_velocity m (fun t => s * T t) Y allow k d)
      with (fun k => / s * demo_velocity m T Y allow k d)
      by (apply functional_extensionality; intro; symmetry; apply EV).
    rewrite np_gradient_scale. unfold Rdiv. rewrite Rinv_mult.
    replace (/ s ^ 2) with (/ s * / s) by (field; lra). ring. }
  rewrite EA, EV.
  set (v := demo_velocity m T Y allow t d). set (a := demo_acceleration m T _ t d).
  destruct sm; field; lra.
Qed.

(** The weights of the imitated DMP. *)
Lemma imitated n o junk dm lam allow : reachable n o -> 0 <= lam -> demonstrates n dm ->
  exists f df,
    accepts junk dm lam allow o
    /\ determine_forces (d_n dm) (d_T dm) (d_Y dm) (aget (o_alpha_y o)) (aget (o_beta_y o))
         (- ln (1/100)) allow (o_smooth_scaling o) = Ok df
    /\ forcing_term_init (fst junk) (snd junk) (o_n_weights_per_dim o) (d_T dm (d_n dm - 1)%nat)
         (d_T dm 0%nat) (8/10) (- ln (1/100)) = Ok f
    /\ (forall d i, (d < n)%nat -> ft_weights (o_forcing_term (imitate junk dm lam allow o)) d i
         = ridge_regression (o_n_weights_per_dim o) (d_n dm)
             (design_matrix f (d_T dm) (d_n dm - 1)) (df_F df) lam d i)
    /\ exists w, imitate junk dm lam allow o
       = with_base (set_goal_y {| alen := n; aget := d_Y dm (d_n dm - 1)%nat |}
                        (set_start_y {| alen := n; aget := d_Y dm 0%nat |} (o_base o)))
              (with_forcing_term (set_ft_weights w (o_forcing_term o)) o).
Proof.
  intros Hr Hlam (HT & Hrows & Hdims).
  destruct (C16_imitate n o junk ridge_regression dm lam allow Hr Hlam HT Hrows Hdims)
    as (w & df & f & H1 & _ & _ & _ & _ & EV & EA & HF & Hf & Hw & HW & Ho).
  destruct (reachable_ft n o Hr) as (j & f0 & w0 & Ef0 & Eo).
  pose proof (forcing_term_init_n _ _ _ _ _ _ _ _ Ef0) as (_ & _ & _ & Hov & Haz & _).
  assert (Eov : ft_overlap (o_forcing_term o) = 8/10) by (rewrite Eo; exact Hov).
  assert (Eaz : ft_alpha_z (o_forcing_term o) = - ln (1/100)) by (rewrite Eo; exact Haz).
  rewrite Eov, Eaz in Hf.
  assert (Hn2 : (2 <= d_n dm)%nat).
  { destruct (d_n dm) as [|[|k]]; simpl in HT; try lra; lia. }
  exists f. eexists. split; [exact H1|]. split.
  { unfold determine_forces. destruct (Nat.ltb_spec (d_n dm) 2); [lia|]. reflexivity. }
  split; [exact Hf|]. split; [|exists w; exact Ho].
  intros d i Hd. unfold imitate. rewrite HW, Hw. unfold ridge_regression, mT, mmul.
  apply rsum_ext. intros t Ht. f_equal. cbn [df_F].
  rewrite HF by auto. rewrite EA, EV, Eaz. reflexivity.
Qed.

(** The common core: [dm'] is [dm], mapped and [s] times slower. *)
Lemma imitate_core n m o o' A b (D : nat -> Prop) s junk junk' dm dm' lam allow fn run_t :
  reachable n o -> reachable m o' -> same_settings o o' -> 0 < o_int_dt o -> 0 <= lam ->
  demonstrates n dm -> demonstrates m dm' ->
  (forall d, D d -> (d < m)%nat) ->
  grel n A D (aget (o_alpha_y o')) (aget (o_alpha_y o)) ->
  grel n A D (aget (o_beta_y o')) (aget (o_beta_y o)) ->
  0 < s -> (s = 1 \/ d_T dm 0%nat = 0) ->
  d_n dm' = d_n dm -> (forall t, d_T dm' t = s * d_T dm t) ->
  (forall t, (t < d_n dm)%nat -> prel n A b D (d_Y dm' t) (d_Y dm t)) ->
  res_rel (fun r' r => fst r' = fst r /\ Forall2 (prel n A b D) (snd r') (snd r))
    (dmp_open_loop run_t None fn (imitate junk' dm' lam allow o'))
    (dmp_open_loop run_t None fn (imitate junk dm lam allow o)).
Proof.
  intros Hr Hr' (S1 & S2 & S3 & S4 & S5 & S6) Hi Hlam Hd Hd' HD Hal Hbe Hs Hs0 En ET HY.
  destruct (imitated n o junk dm lam allow Hr Hlam Hd) as (f & df & _ & Edf & Ef & Hw & w & Eo).
  destruct (imitated m o' junk' dm' lam allow Hr' Hlam Hd') as (f' & df' & _ & Edf' & Ef' & Hw' & w' & Eo').
  destruct (reachable_ft n o Hr) as (j & f0 & w0 & Ef0 & Eof).
  destruct (reachable_ft m o' Hr') as (j' & f0' & w0' & Ef0' & Eof').
  destruct Hd as (HT & Hrows & Hdims), Hd' as (HT' & Hrows' & Hdims').
  assert (Hn2 : (2 <= d_n dm)%nat).
  { destruct (d_n dm) as [|[|k]]; simpl in HT; try lra; lia. }
  assert (EdT : d_T dm' = fun t => s * d_T dm t) by (apply functional_extensionality; auto).
  rewrite En, EdT, S4, S5 in *.
  (* the same basis during imitation *)
  pose proof (forcing_term_init_n _ _ _ _ _ _ _ _ Ef) as (N1 & G1 & T1 & _ & Z1 & Hnw & _ & Hov).
  pose proof (forcing_term_init_n _ _ _ _ _ _ _ _ Ef') as (N1' & G1' & T1' & _ & Z1' & _).
  assert (HB : forall i, (i < o_n_weights_per_dim o)%nat ->
     ft_centers f' i = ft_centers f i /\ ft_widths f' i = ft_widths f i).
  { intros i Hii. destruct Hs0 as [-> | H0].
    - rewrite !Rmult_1_l in Ef'.
      destruct (C02_fully_initialised _ _ _ _ _ _ _ _ _ _ _ Ef' Ef i Hii). auto.
    - rewrite H0, Rmult_0_r in Ef'. rewrite H0 in Ef, HT.
      assert (Hp : 0 < s * d_T dm (d_n dm - 1)%nat) by nra.
      destruct (forcing_term_init_ok (fst junk) (snd junk) (o_n_weights_per_dim o)
        (s * d_T dm (d_n dm - 1)%nat) 0 (8/10) (- ln (1/100)) Hnw Hp Hov) as (f2 & E2 & _).
      destruct (C02_fully_initialised _ _ _ _ _ _ _ _ _ _ _ Ef' E2 i Hii) as [-> ->].
      destruct (C05_basis_independent_of_duration_partial _ _ _ _ _ _ _ _ _ Ef E2 i Hii) as [-> ->].
      auto. }
  assert (HX : forall i t, (i < o_n_weights_per_dim o)%nat -> (t < d_n dm)%nat ->
     design_matrix f' (fun t => s * d_T dm t) (d_n dm - 1) i t
     = design_matrix f (d_T dm) (d_n dm - 1) i t).
  { intros i t Hii Ht. unfold design_matrix. rewrite Z1', Z1, phase_scaled, N1', N1 by auto.
    f_equal. now apply activations_ext. }
  assert (HF : forall t, (t < d_n dm)%nat -> drel n A D (df_F df' t) (df_F df t)).
  { intros t Ht. destruct (determine_forces (d_n dm) (d_T dm) (d_Y dm') (aget (o_alpha_y o'))
      (aget (o_beta_y o')) (- ln (1/100)) allow (o_smooth_scaling o)) as [df2|] eqn:E2.
    2: { unfold determine_forces in E2. destruct (Nat.ltb_spec (d_n dm) 2); [lia|discriminate]. }
    rewrite (determine_forces_slower _ s _ _ _ _ _ _ _ _ _ Hs HT E2 Edf').
    apply (determine_forces_aff n A b D _ _ _ _ _ _ _ _ _ _ _ _ _ HY Hal Hbe E2 Edf t Ht). }
  assert (HW : forall i, (i < o_n_weights_per_dim o)%nat ->
    drel n A D (fun d => ft_weights (o_forcing_term (imitate junk' dm' lam allow o')) d i)
               (fun d => ft_weights (o_forcing_term (imitate junk dm lam allow o)) d i)).
  { intros i Hii. generalize (ridge_aff n A D _ _ _ _ _ _ lam HX HF i). apply drel_ext_in.
    - intros d Hd. symmetry. apply Hw'. auto.
    - intros e He. symmetry. apply Hw. auto. }
  rewrite Eo, Eo' in *. cbn in HW.
  destruct fn as [fn|]; [|reflexivity].
  unfold dmp_open_loop. cbn [o_execution_time with_base with_forcing_term o_dt o_base].
  rewrite S1, S2.
  assert (Ha : args_aff n A b D
    (open_loop_step_args (with_base (set_goal_y {| alen := m; aget := d_Y dm' (d_n dm - 1)%nat |}
                        (set_start_y {| alen := m; aget := d_Y dm' 0%nat |} (o_base o')))
              (with_forcing_term (set_ft_weights w' (o_forcing_term o')) o')) None)
    (open_loop_step_args (with_base (set_goal_y {| alen := n; aget := d_Y dm (d_n dm - 1)%nat |}
                        (set_start_y {| alen := n; aget := d_Y dm 0%nat |} (o_base o)))
              (with_forcing_term (set_ft_weights w (o_forcing_term o)) o)) None)).
  { constructor; cbn; auto; try (apply HY; lia).
    - intros d Hd. symmetry. apply lmap_vzero.
    - rewrite S6 in Ef0'. unfold ft_aff. rewrite Eof, Eof'. cbn.
      pose proof (forcing_term_init_n _ _ _ _ _ _ _ _ Ef0) as (A1 & A2 & A3 & A4 & A5 & _).
      pose proof (forcing_term_init_n _ _ _ _ _ _ _ _ Ef0') as (B1 & B2 & B3 & B4 & B5 & _).
      rewrite A1, A2, A3, A5, B1, B2, B3, B5, Eof. cbn. rewrite A2.
      repeat split; auto.
      + now destruct (C02_fully_initialised _ _ _ _ _ _ _ _ _ _ _ Ef0' Ef0 i H).
      + now destruct (C02_fully_initialised _ _ _ _ _ _ _ _ _ _ _ Ef0' Ef0 i H). }
  cbn [o_base with_base set_goal_y set_start_y p_start_y aget].
  match type of Ha with args_aff _ _ _ _ ?xx ?yy =>
  pose proof (open_loop_aff n A b D fn xx yy 0
    (match run_t with Some x => x | None => o_execution_time o end)
    (o_dt o) (d_Y dm' 0%nat, vzero) (d_Y dm 0%nat, vzero) Hi Ha) as HO end.
  cbn [fst snd] in HO.
  eapply res_rel_bind.
  - apply HO. split; cbn [fst snd]; [apply HY; lia|]. intros d Hd. symmetry. apply lmap_vzero.
  - intros [ts' l'] [ts l] [E1 E2]. cbn. split; auto.
    clear -E2. cbn in E2. induction E2 as [|x' x l' l [Hp _] _ IH]; constructor; auto.
Qed.

Lemma trajectories {P : vec -> vec -> Prop} (r' r : res (list R * list vec)) :
  res_rel (fun r' r => fst r' = fst r /\ Forall2 P (snd r') (snd r)) r' r ->
  match r, r' with
  | Ok (ts, ys), Ok (ts', ys') =>
      ts' = ts /\ length ys' = length ys
      /\ forall k, (k < length ys)%nat -> P (nth k ys' vzero) (nth k ys vzero)
  | Err e, Err e' => e' = e
  | _, _ => False
  end.
Proof.
  destruct r as [[ts ys]|], r' as [[ts' ys']|]; cbn; auto.
  intros [-> H]. split; auto. split; [clear -H; induction H; cbn; congruence|].
  clear -H. induction H as [|y' y l' l Hy _ IH]; intros [|k] Hk; cbn in *; try lia; auto.
  apply IH. lia.
Qed.

(** ** C91 *)
(** [A] and [b] map positions of [n] to positions of [m] dimensions; a new
    dimension may only combine dimensions that have its gains. *)
Theorem C91_coordinates : forall n m o o' A b junk junk' dm lam allow fn run_t,
  reachable n o -> reachable m o' -> same_settings o o' -> 0 < o_int_dt o -> 0 <= lam ->
  demonstrates n dm ->
  (forall d e, (d < m)%nat -> (e < n)%nat -> A d e <> 0 ->
     aget (o_alpha_y o') d = aget (o_alpha_y o) e /\ aget (o_beta_y o') d = aget (o_beta_y o) e) ->
  accepts junk dm lam allow o
  /\ accepts junk' (mapped n m A b dm) lam allow o'
  /\ match dmp_open_loop run_t None fn (imitate junk dm lam allow o),
           dmp_open_loop run_t None fn (imitate junk' (mapped n m A b dm) lam allow o') with
     | Ok (ts, ys), Ok (ts', ys') =>
         ts' = ts /\ length ys' = length ys
         /\ forall k, (k < length ys)%nat -> forall d, (d < m)%nat ->
            nth k ys' vzero d = affine n A b (nth k ys vzero) d
     | Err e, Err e' => e' = e
     | _, _ => False
     end.
Proof.
  intros n m o o' A b junk junk' dm lam allow fn run_t Hr Hr' HS Hi Hlam Hd Hg.
  assert (Hd' : demonstrates m (mapped n m A b dm)).
  { destruct Hd as (H1 & H2 & _). unfold demonstrates. cbn. auto. }
  split; [destruct (imitated n o junk dm lam allow Hr Hlam Hd) as (? & ? & H & _); exact H|].
  split; [destruct (imitated m o' junk' _ lam allow Hr' Hlam Hd') as (? & ? & H & _); exact H|].
  pose proof (imitate_core n m o o' A b (fun d => (d < m)%nat) 1 junk junk' dm (mapped n m A b dm)
    lam allow fn run_t Hr Hr' HS Hi Hlam Hd Hd') as H.
  apply (@trajectories (prel n A b (fun d => (d < m)%nat))). apply H; auto; try lra.
  - intros d e Hdm He HA. now apply (Hg d e).
  - intros d e Hdm He HA. now apply (Hg d e).
  - intros t. cbn. ring.
  - intros t Ht d Hdm. reflexivity.
Qed.

(** A dimension of the movement is determined by the same dimension of the
    demonstration and its own gains: two objects and two demonstrations that
    agree there move alike there, whatever the other dimensions do. *)
Theorem C91_dimensions : forall n m o o' d junk junk' dm dm' lam allow fn run_t,
  reachable n o -> reachable m o' -> same_settings o o' -> 0 < o_int_dt o -> 0 <= lam ->
  demonstrates n dm -> demonstrates m dm' -> (d < n)%nat -> (d < m)%nat ->
  aget (o_alpha_y o') d = aget (o_alpha_y o) d -> aget (o_beta_y o') d = aget (o_beta_y o) d ->
  d_n dm' = d_n dm -> (forall t, d_T dm' t = d_T dm t) ->
  (forall t, (t < d_n dm)%nat -> d_Y dm' t d = d_Y dm t d) ->
  match dmp_open_loop run_t None fn (imitate junk dm lam allow o),
        dmp_open_loop run_t None fn (imitate junk' dm' lam allow o') with
  | Ok (ts, ys), Ok (ts', ys') =>
      ts' = ts /\ length ys' = length ys
      /\ forall k, (k < length ys)%nat -> nth k ys' vzero d = nth k ys vzero d
  | Err e, Err e' => e' = e
  | _, _ => False
  end.
Proof.
  intros n m o o' d junk junk' dm dm' lam allow fn run_t Hr Hr' HS Hi Hlam Hd Hd' Hn Hm Hal Hbe En ET EY.
  set (A := fun d' e : nat => if Nat.eqb e d' then 1 else 0).
  assert (HA : forall u : vec, lmap n A u d = u d).
  { intros u. unfold lmap, A.
    rewrite <- (rsum_delta n d u Hn). apply rsum_ext. intros e He. cbv beta.
    rewrite Nat.eqb_sym. destruct (Nat.eqb d e); ring. }
  pose proof (imitate_core n m o o' A vzero (fun d' => d' = d) 1 junk junk' dm dm'
    lam allow fn run_t Hr Hr' HS Hi Hlam Hd Hd') as H.
  assert (HG : forall g' g : vec, g' d = g d -> grel n A (fun d' => d' = d) g' g).
  { intros g' g E d' e -> He HAe. unfold A in HAe. destruct (Nat.eqb_spec e d); [congruence|lra]. }
  assert (HH := trajectories _ _ (H ltac:(intros d0 ->; auto) (HG _ _ Hal) (HG _ _ Hbe) ltac:(lra)
    ltac:(auto) En ltac:(intros; rewrite ET; ring)
    ltac:(intros t Ht d' ->; rewrite HA, EY by auto; unfold vzero; ring))).
  destruct (dmp_open_loop run_t None fn (imitate junk dm lam allow o)) as [[ts ys]|],
    (dmp_open_loop run_t None fn (imitate junk' dm' lam allow o')) as [[ts' ys']|]; auto.
  destruct HH as (-> & El & HP). split; auto. split; auto. intros k Hk.
  rewrite (HP k Hk d eq_refl), HA. unfold vzero. ring.
Qed.

(** The speed of the demonstration does not matter: a demonstration from time 0
    on and the same one performed [s] times slower (or faster) are reproduced
    alike. *)
Theorem C91_speed : forall n o s junk junk' dm lam allow fn run_t,
  reachable n o -> 0 < o_int_dt o -> 0 <= lam -> demonstrates n dm -> d_T dm 0%nat = 0 -> 0 < s ->
  accepts junk dm lam allow o
  /\ accepts junk' (slower s dm) lam allow o
  /\ match dmp_open_loop run_t None fn (imitate junk dm lam allow o),
           dmp_open_loop run_t None fn (imitate junk' (slower s dm) lam allow o) with
     | Ok (ts, ys), Ok (ts', ys') =>
         ts' = ts /\ length ys' = length ys
         /\ forall k, (k < length ys)%nat -> forall d, (d < n)%nat ->
            nth k ys' vzero d = nth k ys vzero d
     | Err e, Err e' => e' = e
     | _, _ => False
     end.
Proof.
  intros n o s junk junk' dm lam allow fn run_t Hr Hi Hlam Hd H0 Hs.
  assert (Hd' : demonstrates n (slower s dm)).
  { destruct Hd as (H1 & H2 & H3). unfold demonstrates. cbn. repeat split; auto.
    now apply Rmult_lt_compat_l. }
  split; [destruct (imitated n o junk dm lam allow Hr Hlam Hd) as (? & ? & H & _); exact H|].
  split; [destruct (imitated n o junk' _ lam allow Hr Hlam Hd') as (? & ? & H & _); exact H|].
  set (A := fun d' e : nat => if Nat.eqb d' e then 1 else 0).
  assert (HA : forall (u : vec) d, (d < n)%nat -> lmap n A u d = u d).
  { intros u d Hn. unfold lmap, A. rewrite <- (rsum_delta n d u Hn). apply rsum_ext. intros e He.
    cbv beta. destruct (Nat.eqb d e); ring. }
  assert (HG : forall g : vec, grel n A (fun d' => (d' < n)%nat) g g).
  { intros g d' e Hd1 He HAe. unfold A in HAe. destruct (Nat.eqb_spec d' e); [congruence|lra]. }
  assert (HS : same_settings o o) by (unfold same_settings; repeat split).
  pose proof (trajectories _ _ (imitate_core n n o o A vzero (fun d' => (d' < n)%nat) s junk junk' dm
    (slower s dm) lam allow fn run_t Hr Hr HS Hi Hlam Hd Hd' ltac:(auto) (HG _) (HG _) Hs
    ltac:(auto) eq_refl ltac:(reflexivity)
    ltac:(intros t Ht d Hn; rewrite HA by auto; cbn; unfold vzero; ring))) as HH.
  destruct (dmp_open_loop run_t None fn (imitate junk dm lam allow o)) as [[ts ys]|],
    (dmp_open_loop run_t None fn (imitate junk' (slower s dm) lam allow o)) as [[ts' ys']|]; auto.
  destruct HH as (-> & El & HP). split; auto. split; auto. intros k Hk d Hn.
  rewrite (HP k Hk d Hn), HA by auto. unfold vzero. ring.
Qed.

(** A quarter turn of a demonstration in the plane, and its projection to one
    dimension. *)
Example C91_satisfiable : exists o o1, reachable 2 o /\ reachable 1 o1
  /\ same_settings o o /\ same_settings o o1 /\ 0 < o_int_dt o
  /\ (forall d e, aget (o_alpha_y o) d = aget (o_alpha_y o) e
                  /\ aget (o_beta_y o) d = aget (o_beta_y o) e
                  /\ aget (o_alpha_y o1) d = aget (o_alpha_y o) e
                  /\ aget (o_beta_y o1) d = aget (o_beta_y o) e)
  /\ let dm := {| d_n := 3; d_T := INR; d_rows := 3; d_dims := 2;
                  d_Y := fun t d => if Nat.eqb d 0 then INR t else INR t ^ 2 |} in
     let turn := fun d e : nat => if Nat.eqb d e then 0 else if Nat.eqb d 0 then -1 else 1 in
     demonstrates 2 dm /\ d_T dm 0%nat = 0
     /\ d_Y (mapped 2 2 turn vzero dm) 2%nat 0%nat = -4
     /\ d_Y (mapped 2 2 turn vzero dm) 2%nat 1%nat = 2
     /\ exists ts ys, dmp_open_loop None None (Some Euler) (imitate (vzero, vzero) dm 0 false o)
                      = Ok (ts, ys) /\ (1 < length ys)%nat.
Proof.
  destruct (ex_new_ok 2 25 (25/4)) as (f & o & E & Ef & Eo).
  destruct (ex_new_ok 1 25 (25/4)) as (f1 & o1 & E1 & Ef1 & Eo1).
  exists o, o1. assert (Hr : reachable 2 o) by (eapply ex_reachable; eauto).
  split; auto. split; [eapply ex_reachable; eauto|].
  pose proof (forcing_term_init_n _ _ _ _ _ _ _ _ Ef) as (_ & G & _).
  pose proof (forcing_term_init_n _ _ _ _ _ _ _ _ Ef1) as (_ & G1 & _).
  split; [unfold same_settings; repeat split|].
  split; [unfold same_settings; rewrite Eo, Eo1; cbn; repeat split; congruence|].
  split; [rewrite Eo; cbn; lra|]. split; [intros d e; rewrite Eo, Eo1; cbn; auto|].
  cbv zeta. set (dm := Build_demo _ _ _ _ _).
  assert (Hd : demonstrates 2 dm) by (unfold demonstrates; cbn; repeat split; lra).
  split; [exact Hd|]. split; [reflexivity|].
  split; [unfold mapped, affine, vzero; cbn; lra|].
  split; [unfold mapped, affine, vzero; cbn; lra|].
  destruct (imitated 2 o (vzero, vzero) dm 0 false Hr ltac:(lra) Hd) as (? & ? & _ & _ & _ & _ & w & EI).
  rewrite EI. unfold dmp_open_loop. cbn [o_execution_time with_base with_forcing_term o_dt o_base].
  set (o2 := with_base _ _).
  destruct (C13_runs_exist Euler (o_forcing_term o2) (o_execution_time o2) (aget (p_start_y (o_base o2)))
     vzero (aget (p_goal_y (o_base o2))) (aget (o_alpha_y o2)) (aget (o_beta_y o2)) (o_int_dt o2) (o_dt o2)
     (o_smooth_scaling o2) (o_execution_time o2)) as (ts & l & El & Hl);
     try (unfold o2; rewrite Eo; cbn; lra).
  exists ts, (map fst l). split.
  - etransitivity; [exact (f_equal (fun r => bind r _) El)|reflexivity].
  - rewrite map_length. destruct Hl as [Hl|Hl]; [lia|]. exfalso. revert Hl. unfold o2. rewrite Eo. cbn. lra.
Qed.
