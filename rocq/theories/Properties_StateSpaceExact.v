(** C128: the distribution over trajectories that dmp_to_state_space_distribution.py returns is
    exact for positions. *)
From Coq Require Import Reals List Arith Bool Lia Lra ZArith.
From Verif Require Import M_Prelude M_Canonical M_Forcing M_Dmp M_Base M_DmpObject M_Quaternion M_Cartesian M_Dual
  M_StateSpace M_StateCache S_Loops S_StateSpace P_Loops P_Forcing P_DmpObject P_Dual P_DualObject Properties_DualObject
  Properties_StateSpace P_StateSpaceLin.
Import ListNotations.
Set Bullet Behavior "Strict Subproofs".
Open Scope R_scope.

(** For each step [t] there are numbers [A], [B] and [C 0], ..., [C (n - 1)] - the same for all
    parameter vectors, both hands and the three axes - such that the position is
    [A * start + B * goal + C * weights]. *)
Theorem C128_linear : forall junk i n x dt int_dt t,
  (2 <= n)%nat -> 0 < x -> 0 < dt -> 0 < int_dt ->
  exists A B C, forall p trajectory column, (12 * n + 28 <= alen p)%nat ->
    propagate_point junk i n x dt int_dt p = Ok trajectory ->
    is_position (t * 14 + column)%nat -> (column < 14)%nat -> (t * 14 + column < alen trajectory)%nat ->
    aget trajectory (t * 14 + column)%nat
    = A * aget p (12 * n + column)%nat + B * aget p (12 * n + 14 + column)%nat
      + rsum n (fun j => C j * aget p ((if Nat.ltb column 7 then column else column - 1) * n + j)%nat).
Proof.
  intros junk i n x dt int_dt t Hn Hx Hdt Hi.
  destruct (propagate_point_linear junk i n x dt int_dt Hn Hx Hdt Hi t) as (c & H).
  exists (c_start c), (c_goal c), (c_w c). intros p tr d Hp E Hpos Hd Hlt.
  destruct (H p tr Hp E) as (m & L & _ & _ & Hm).
  assert (Ed : ((t * 14 + d) mod 14 = d)%nat) by (rewrite Nat.add_comm, Nat.mod_add, Nat.mod_small; lia).
  unfold is_position in Hpos. rewrite Ed in Hpos. cbv zeta in Hpos.
  rewrite Hm; [|lia|].
  - unfold ev. f_equal. apply rsum_ext. intros j Hj. unfold pv_of. destruct (Nat.ltb_spec d 7); [reflexivity|].
    now rewrite Nat.sub_1_r.
  - unfold is_pp. rewrite orb_true_iff, andb_true_iff, !Nat.ltb_lt, Nat.leb_le. lia.
Qed.

Lemma propagate_points_forall2 f points l : propagate_points f points = Ok l -> Forall2 (fun p t => f p = Ok t) points l.
Proof.
  revert l. induction points as [|p points IH]; intros l E; cbn [propagate_points] in E.
  - injection E as <-. constructor.
  - destruct (f p) as [t|] eqn:Ef; [|discriminate]. cbn [bind] in E.
    destruct (propagate_points f points); [|discriminate]. cbn [bind] in E. injection E as <-. constructor; auto.
Qed.

Lemma vstack_inv l r : vstack l = Ok r -> r = l.
Proof. unfold vstack. destruct l; [discriminate|]. destruct (forallb _ _); congruence. Qed.

Lemma forall2_nth {A B} (R : A -> B -> Prop) l l' a b : Forall2 R l l' ->
  length l = length l' /\ forall i, (i < length l)%nat -> R (nth i l a) (nth i l' b).
Proof.
  intros H. induction H as [|x y l l' Hxy H [IH1 IH2]]; cbn [length]; [split; [reflexivity|intros; lia]|].
  split; [congruence|]. intros [|i] Hi; cbn [nth]; [exact Hxy|]. apply IH2. lia.
Qed.

Section Exact.
  Context (junk : vec * vec) (i : impl) (n : nat) (x dt int_dt : R).
  Context (Hn : (2 <= n)%nat) (Hx : 0 < x) (Hdt : 0 < dt) (Hi : 0 < int_dt).

  Lemma trajectory_length : exists len, forall p t, (12 * n + 28 <= alen p)%nat ->
    propagate_point junk i n x dt int_dt p = Ok t -> alen t = len.
  Proof.
    destruct (propagate_point_linear junk i n x dt int_dt Hn Hx Hdt Hi 0) as (c & H).
    set (q := zeros (12 * n + 28)).
    destruct (propagate_point_ok junk i n x dt int_dt q Hn Hx Hdt Hi ltac:(cbn; lia)) as
      (? & ? & ? & P & ? & ? & ? & ? & ? & ? & ? & ? & ? & ? & ? & ? & ? & Eq).
    destruct (H q _ ltac:(cbn; lia) Eq) as (m & _ & B & C & _).
    exists (S m * 14)%nat. intros p t Hp Et. destruct (H p t Hp Et) as (m' & A' & B' & C' & _).
    rewrite A'. f_equal. f_equal. destruct (lt_eq_lt_dec m' m) as [[Hlt|]|Hlt]; auto.
    - pose proof (C m' Hlt). lra.
    - pose proof (C' m Hlt). lra.
  Qed.

  Lemma entry_linear k len : is_position k -> (k < len)%nat ->
    exists F, linear_in (12 * n + 29) F /\ forall p t, (12 * n + 28 <= alen p)%nat ->
      propagate_point junk i n x dt int_dt p = Ok t -> alen t = len -> aget t k = F (aget p).
  Proof.
    intros Hk Hlen. set (d := (k mod 14)%nat).
    assert (Hd : is_pp d = true).
    { unfold is_pp. rewrite orb_true_iff, andb_true_iff, !Nat.ltb_lt, Nat.leb_le.
      unfold is_position in Hk. cbv zeta in Hk. fold d in Hk. lia. }
    destruct (propagate_point_linear junk i n x dt int_dt Hn Hx Hdt Hi (k / 14)%nat) as (c & H).
    eexists. split; [exact (linear_ev n c d Hd)|]. intros p t Hp Et Lt.
    destruct (H p t Hp Et) as (m & L & _ & _ & Hm).
    assert (Ek : k = (k / 14 * 14 + d)%nat) by (unfold d; pose proof (Nat.div_mod k 14 ltac:(lia)); lia).
    rewrite Ek at 1. apply Hm; [|exact Hd]. assert (k / 14 < S m)%nat; [|lia].
    apply Nat.div_lt_upper_bound; lia.
  Qed.

  Lemma exact_entries pts rs Tp Tr wm wc len k l :
    Forall (fun p => alen p = 12 * n + 29)%nat pts -> Forall (fun p => alen p = 12 * n + 29)%nat rs ->
    Forall2 (fun p t => propagate_point junk i n x dt int_dt p = Ok t) pts Tp ->
    Forall2 (fun p t => propagate_point junk i n x dt int_dt p = Ok t) rs Tr ->
    (forall p t, (12 * n + 28 <= alen p)%nat -> propagate_point junk i n x dt int_dt p = Ok t -> alen t = len) ->
    (forall a, (a < 12 * n + 29)%nat -> weighted_mean wm pts a = sample_mean rs a) ->
    (forall a b, (a < 12 * n + 29)%nat -> (b < 12 * n + 29)%nat -> weighted_cov wm wc pts a b = sample_cov rs a b) ->
    is_position k -> is_position l -> (k < len)%nat -> (l < len)%nat ->
    weighted_mean wm Tp k = sample_mean Tr k /\ weighted_cov wm wc Tp k l = sample_cov Tr k l.
  Proof.
    intros Ap Ar Fp Fr Hlen Hm Hc Hk Hl Lk Ll.
    destruct (entry_linear k len Hk Lk) as (F & LF & HF). destruct (entry_linear l len Hl Ll) as (G & LG & HG).
    assert (EX : forall (ps Ts : list arr), Forall (fun p => alen p = 12 * n + 29)%nat ps ->
      Forall2 (fun p t => propagate_point junk i n x dt int_dt p = Ok t) ps Ts ->
      length Ts = length ps /\ forall j, (j < length ps)%nat -> entry Ts j k = F (entry ps j) /\ entry Ts j l = G (entry ps j)).
    { intros ps Ts A HFF. destruct (forall2_nth _ _ _ (zeros 0) (zeros 0) HFF) as [E1 E2].
      split; [congruence|]. intros j Hj. specialize (E2 j Hj). rewrite Forall_forall in A.
      pose proof (A _ (nth_In ps (zeros 0) Hj)) as Aj. cbv beta in Aj.
      split; [apply HF|apply HG]; try exact E2; try lia; apply (Hlen (nth j ps (zeros 0)) _ ltac:(lia) E2). }
    destruct (EX pts Tp Ap Fp) as [Lp Ep]. destruct (EX rs Tr Ar Fr) as [Lr Er].
    set (mu := weighted_mean wm pts). set (nu := sample_mean rs).
    assert (Hmu : forall H, linear_in (12 * n + 29) H -> H mu = H nu) by (intros H HH; apply (linear_same _ _ _ _ HH Hm)).
    assert (MP : forall H, linear_in (12 * n + 29) H -> rsum (length pts) (fun j => wm j * H (entry pts j)) = H mu).
    { intros H HH. exact (linear_weighted _ H _ wm (entry pts) HH). }
    assert (MR : forall H, linear_in (12 * n + 29) H -> rsum (length rs) (fun j => H (entry rs j)) / INR (length rs) = H nu).
    { intros H HH. unfold nu. rewrite (linear_same _ H (sample_mean rs)
        (fun a => rsum (length rs) (fun j => / INR (length rs) * entry rs j a)) HH).
      - rewrite <- (linear_weighted _ H _ (fun _ => / INR (length rs)) (entry rs) HH). rewrite rsum_scal. unfold Rdiv. ring.
      - intros a Ha. unfold sample_mean. rewrite rsum_scal. unfold Rdiv. ring. }
    assert (Mk : weighted_mean wm Tp k = F mu).
    { unfold weighted_mean. rewrite Lp, <- MP by exact LF. apply rsum_ext. intros j Hj. now rewrite (proj1 (Ep j Hj)). }
    assert (Ml : weighted_mean wm Tp l = G mu).
    { unfold weighted_mean. rewrite Lp, <- MP by exact LG. apply rsum_ext. intros j Hj. now rewrite (proj2 (Ep j Hj)). }
    assert (Sk : sample_mean Tr k = F nu).
    { unfold sample_mean. rewrite Lr, <- MR by exact LF. f_equal. apply rsum_ext. intros j Hj. exact (proj1 (Er j Hj)). }
    assert (Sl : sample_mean Tr l = G nu).
    { unfold sample_mean. rewrite Lr, <- MR by exact LG. f_equal. apply rsum_ext. intros j Hj. exact (proj2 (Er j Hj)). }
    split; [rewrite Mk, Sk; auto|].
    unfold weighted_cov, sample_cov. rewrite Lp, Lr, Mk, Ml, Sk, Sl.
    pose proof LF as [lf Hlf]. pose proof LG as [lg Hlg].
    rewrite (rsum_ext (length pts) _ (fun j => wc j * ((F (entry pts j) - F mu) * (G (entry pts j) - G mu)))).
    2:{ intros j Hj. destruct (Ep j Hj) as [-> ->]. reflexivity. }
    rewrite (linear_cov _ F G lf lg _ wc (entry pts) mu (sample_cov rs) Hlf Hlg Hc).
    rewrite (rsum_ext (length rs) _ (fun j => (F (entry rs j) - F nu) * (G (entry rs j) - G nu))).
    2:{ intros j Hj. destruct (Er j Hj) as [-> ->]. reflexivity. }
    transitivity (rsum (length rs) (fun j => / (INR (length rs) - 1) * ((F (entry rs j) - F nu) * (G (entry rs j) - G nu)))).
    - symmetry. apply (linear_cov _ F G lf lg _ (fun _ => / (INR (length rs) - 1)) (entry rs) nu (sample_cov rs) Hlf Hlg).
      intros a b Ha Hb. rewrite rsum_scal. unfold sample_cov, Rdiv. fold nu. ring.
    - rewrite rsum_scal. unfold Rdiv. ring.
  Qed.
End Exact.

(** What [estimate_dmp_parameter_distribution] returns. *)
Lemma imitate_ft_n jl jlr jr jrr regress dm lam allow o :
  ft_n (o_forcing_term (fst (dual_imitate jl jlr jr jrr regress dm lam allow o))) = ft_n (o_forcing_term o).
Proof.
  unfold dual_imitate. destruct (negb _); [reflexivity|]. cbv zeta.
  repeat match goal with |- context [match ?x with Ok _ => _ | Err _ => _ end] => destruct x; [|reflexivity] end.
  unfold dmp_configure. destruct (configure _ _) as [p [e|]]; reflexivity.
Qed.

Lemma demonstration_row junk jl jlr jr jrr regress n int_dt dm r :
  demonstration_parameters junk jl jlr jr jrr regress n int_dt dm = Ok (Some r) ->
  (2 <= n)%nat /\ 0 < snd r /\ alen (fst r) = (12 * n + 29)%nat.
Proof.
  unfold demonstration_parameters. destruct (Nat.ltb (d_n dm) 2); [discriminate|]. cbv zeta.
  destruct (Rlt_dec _ _); [discriminate|].
  destruct (ss_dmp _ _ _ _ _) as [o|] eqn:Eo; [|discriminate]. cbn [bind].
  destruct (dual_imitate _ _ _ _ _ _ _ _ _) as [o1 [[]|]] eqn:Ei; [|discriminate].
  intros E. injection E as <-. cbn [fst snd].
  assert (Hdims : d_dims dm = 14%nat).
  { unfold dual_imitate in Ei. destruct (Nat.eqb_spec (d_dims dm) 14) as [Hd|]; [exact Hd|discriminate]. }
  pose proof (imitate_ft_n jl jlr jr jrr regress dm 0 false o) as HF. rewrite Ei in HF. cbn [fst] in HF.
  unfold ss_dmp, dual_new in Eo. destruct (init_forcing_term junk n _) as [f|] eqn:Ef; [|discriminate]. cbn [bind] in Eo.
  destruct (ensure_1d_array _ _) as [al|]; [|discriminate]. cbn [bind] in Eo.
  destruct (ensure_1d_array _ _) as [be|]; [|discriminate]. cbn [bind] in Eo. injection Eo as <-.
  cbn [o_forcing_term] in HF. apply init_forcing_term_inv in Ef. destruct Ef as (A & B & C).
  apply forcing_term_init_n in C. destruct C as [C _]. split; [exact A|]. split; [exact B|].
  cbn [pack_parameters alen dual_get_weights ravel]. rewrite HF, C, Hdims. lia.
Qed.

Lemma estimated_rows junk jl jlr jr jrr regress n int_dt dataset rows x :
  estimate_dmp_parameter_distribution junk jl jlr jr jrr regress n int_dt dataset = Ok (rows, x) ->
  (2 <= n)%nat /\ 0 < x /\ rows <> [] /\ Forall (fun p => alen p = 12 * n + 29)%nat rows.
Proof.
  intros E. destruct (C66_dataset _ _ _ _ _ _ _ _ _ _ _ E) as (Hne & kept & HF & -> & Hx & _).
  assert (HA : Forall (fun r => (2 <= n)%nat /\ 0 < snd r /\ alen (fst r) = (12 * n + 29)%nat) kept).
  { clear -HF. induction HF; constructor; auto. eapply demonstration_row; eassumption. }
  destruct kept as [|r kept]; [contradiction|].
  split; [inversion HA; tauto|]. split; [|split; [exact Hne|]].
  - assert (HS : 0 < fold_right Rplus 0 (map snd (r :: kept))).
    { clear -HA. inversion HA as [|? ? (_ & H & _) HB]; subst. cbn [map fold_right].
      assert (0 <= fold_right Rplus 0 (map snd kept)); [|lra]. clear -HB.
      induction HB as [|? ? (_ & H & _) HB IH]; cbn [map fold_right]; lra. }
    rewrite <- Hx in HS. assert (0 < INR (length (r :: kept))) by (apply lt_0_INR; cbn; lia). nra.
  - clear -HA. induction HA; cbn [map]; constructor; tauto.
Qed.

(** The mean of the returned distribution at a position entry is the mean, over the
    demonstrations, of the movements that the learned DMPs make with the common execution time,
    and its covariance is their sample covariance, for every data set, number of weights, pair
    of time steps, [alpha] and [kappa]. *)
Theorem C128_exact : forall mvn (g : gmr mvn) mean cov a samples x file,
  let junk k := nth k (pr_junk a) (vzero, vzero) in
  let n := pr_n_weights a in
  0 < pr_dt a -> 0 < pr_int_dt a ->
  estimate_dmp_parameter_distribution (junk 0%nat) (junk 1%nat) (junk 2%nat) (junk 3%nat) (junk 4%nat) (pr_regress a)
    n (pr_int_dt a) (pr_dataset a) = Ok (samples, x) ->
  keeps_contract g mean cov (12 * n + 29) (pr_alpha a) (pr_kappa a) samples ->
  exists m replays len,
    propagate g false a file = (file, Ok m)
    /\ Forall2 (fun sample replay =>
         propagate_point (junk 5%nat) (pr_impl a) n x (pr_dt a) (pr_int_dt a) sample = Ok replay
         /\ alen replay = len) samples replays
    /\ forall k l, is_position k -> is_position l -> (k < len)%nat -> (l < len)%nat ->
         mean m k = sample_mean replays k /\ cov m k l = sample_cov replays k l.
Proof.
  intros mvn g mean cov a rows x file junk n Hdt Hi E [G1 G2 (wm & wc & G3 & G4 & G5)].
  destruct (estimated_rows _ _ _ _ _ _ _ _ _ _ _ E) as (Hn & Hx & Hne & HA).
  set (pts := sigma_points g (from_samples g rows) (pr_alpha a) (pr_kappa a)) in *.
  set (dt := pr_dt a) in *. set (int_dt := pr_int_dt a) in *. set (i := pr_impl a).
  destruct (trajectory_length (junk 5%nat) i n x dt int_dt Hn Hx Hdt Hi) as [len Hlen].
  assert (RUN : forall ps, ps <> [] -> Forall (fun p => alen p = 12 * n + 29)%nat ps ->
    exists Ts, propagate_to_state_space (junk 5%nat) i ps n x dt int_dt = Ok Ts
    /\ Forall2 (fun p t => propagate_point (junk 5%nat) i n x dt int_dt p = Ok t) ps Ts).
  { intros ps H1 H2. destruct (C66_propagate (junk 5%nat) i n x dt int_dt ps Hn Hx Hdt Hi H1) as (Ts & ET & _).
    { eapply Forall_impl; [|exact H2]. cbv beta. intros; lia. }
    exists Ts. split; [exact ET|]. unfold propagate_to_state_space in ET.
    destruct (propagate_points _ ps) as [l|] eqn:El; [|discriminate]. cbn [bind] in ET.
    apply vstack_inv in ET. subst. now apply propagate_points_forall2. }
  assert (Hpne : pts <> []) by (intros E0; rewrite E0 in G1; cbn in G1; lia).
  destruct (RUN pts Hpne G2) as (Tp & ETp & FTp). destruct (RUN rows Hne HA) as (Tr & _ & FTr).
  assert (LT : length Tp = (2 * (12 * n + 29) + 1)%nat)
    by (rewrite <- G1; symmetry; exact (proj1 (forall2_nth _ _ _ (zeros 0) (zeros 0) FTp))).
  destruct (G5 Tp LT) as (m & Em & M1 & M2). exists m, Tr, len. split; [|split].
  - unfold propagate, compute_trajectories. cbv zeta. fold junk n dt int_dt i.
    match goal with |- context [bind (estimate_dmp_parameter_distribution ?j0 ?j1 ?j2 ?j3 ?j4 ?r ?q ?d ?ds) ?f] =>
      change (estimate_dmp_parameter_distribution j0 j1 j2 j3 j4 r q d ds) with
        (estimate_dmp_parameter_distribution (junk 0%nat) (junk 1%nat) (junk 2%nat) (junk 3%nat) (junk 4%nat) (pr_regress a)
           n int_dt (pr_dataset a)) end.
    rewrite E. cbn [bind]. fold pts. change (nth 5 (pr_junk a) (vzero, vzero)) with (junk 5%nat). rewrite ETp.
    unfold estimate_state_distribution. cbv zeta. fold n.
    replace (2 * 6 * n + 2 * (2 * 7) + 1)%nat with (12 * n + 29)%nat by lia. now rewrite Em.
  - clear -FTr HA Hlen. induction FTr as [|p t ps ts Hpt H IH]; [constructor|].
    inversion HA; subst. constructor; [|now apply IH]. split; [exact Hpt|]. apply (Hlen p); [lia|exact Hpt].
  - intros k l Hk Hl Lk Ll. rewrite M1, M2.
    exact (exact_entries (junk 5%nat) i n x dt int_dt Hn Hx Hdt Hi pts rows Tp Tr wm wc len k l G2 HA FTp FTr
      Hlen G3 G4 Hk Hl Lk Ll).
Qed.

(** The hypotheses are met: two different demonstrations, and for any two samples sigma points
    with their mean and covariance - the mean, the mean plus and minus the difference of the
    samples, all other points being the mean. *)
Definition ss_demo2 : demo :=
  {| d_n := 3; d_T := INR; d_rows := 3; d_dims := 14;
     d_Y := fun t k => if Nat.eqb k 3 then 1 else if Nat.eqb k 10 then 1 else INR (t * k) + 1 |}.

Definition two_sample_points (D : nat) (samples : list arr) : list arr :=
  map (fun j => {| alen := D; aget := fun a =>
         (entry samples 0 a + entry samples 1 a) / 2
         + (match j with 1%nat => 1 | 2%nat => -1 | _ => 0 end) * (entry samples 0 a - entry samples 1 a) |})
      (seq 0 (2 * D + 1)).
Definition two_sample_wm : vec := fun j => match j with O => 1 | _ => 0 end.
Definition two_sample_wc : vec := fun j => match j with 1%nat => 1/4 | 2%nat => 1/4 | _ => 0 end.

Definition two_sample_gmr (D : nat) : gmr (list arr * (vec * (nat -> nat -> R))) := {|
  from_samples := fun samples => (samples, (vzero, fun _ _ => 0));
  sigma_points := fun m _ _ => two_sample_points D (fst m);
  estimate_from_sigma_points := fun _ t _ _ =>
    match t with
    | Matrix rows => Ok ([], (weighted_mean two_sample_wm rows, weighted_cov two_sample_wm two_sample_wc rows))
    | _ => Err ValueError
    end |}.

Lemma rsum_first3 m f : (3 <= m)%nat -> (forall j, (3 <= j)%nat -> f j = 0) -> rsum m f = f 0%nat + f 1%nat + f 2%nat.
Proof.
  intros Hm Hf. replace m with (3 + (m - 3))%nat by lia. induction (m - 3)%nat as [|k IH].
  - cbn [Nat.add rsum]. ring.
  - replace (3 + S k)%nat with (S (3 + k)) by lia. change (rsum (3 + k) f + f (3 + k)%nat = f 0%nat + f 1%nat + f 2%nat). rewrite IH, (Hf (3 + k)%nat) by lia. ring.
Qed.

Lemma two_sample_gmr_ok D alpha kappa r1 r2 : (1 <= D)%nat ->
  keeps_contract (two_sample_gmr D) (fun m => fst (snd m)) (fun m => snd (snd m)) D alpha kappa [r1; r2].
Proof.
  intros HD. set (samples := [r1; r2]).
  assert (HE : forall j a, (j < 2 * D + 1)%nat -> entry (two_sample_points D samples) j a
    = (aget r1 a + aget r2 a) / 2 + (match j with 1%nat => 1 | 2%nat => -1 | _ => 0 end) * (aget r1 a - aget r2 a)).
  { intros j a Hj. unfold entry at 1, two_sample_points.
    match goal with |- context [map ?f (seq 0 _)] => set (F := f) end.
    rewrite (nth_indep (map F (seq 0 (2 * D + 1))) (zeros 0) (F 0%nat)) by (rewrite map_length, seq_length; exact Hj).
    rewrite (map_nth F), seq_nth by exact Hj. reflexivity. }
  assert (HL : length (two_sample_points D samples) = (2 * D + 1)%nat)
    by (unfold two_sample_points; now rewrite map_length, seq_length).
  assert (HM : forall a, weighted_mean two_sample_wm (two_sample_points D samples) a = (aget r1 a + aget r2 a) / 2).
  { intros a. unfold weighted_mean. rewrite HL.
    rewrite rsum_first3; [|lia|intros [|[|[|j]]] Hj; try lia; apply Rmult_0_l].
    rewrite !HE by lia. cbn. field. }
  assert (HS : forall a, sample_mean samples a = (aget r1 a + aget r2 a) / 2).
  { intros a. unfold sample_mean, samples, entry. cbn. field. }
  constructor; cbn [two_sample_gmr sigma_points from_samples fst].
  - exact HL.
  - apply Forall_forall. intros p Hp. apply in_map_iff in Hp. destruct Hp as (j & <- & _). reflexivity.
  - exists two_sample_wm, two_sample_wc. split; [intros a _; now rewrite HM, HS|]. split.
    + intros a b _ _. unfold weighted_cov. rewrite !HM, HL.
      rewrite rsum_first3; [|lia|intros [|[|[|j]]] Hj; try lia; apply Rmult_0_l].
      rewrite !HE by lia. unfold sample_cov. rewrite !HS. unfold samples, entry. cbn. field.
    + intros rows _. eexists. split; [reflexivity|]. split; reflexivity.
Qed.

Example C128_satisfiable : forall regress i, exists a r1 r2,
  pr_dataset a = [ss_demo; ss_demo2] /\ pr_regress a = regress /\ pr_impl a = i
  /\ estimate_dmp_parameter_distribution (vzero, vzero) (vzero, vzero) (vzero, vzero) (vzero, vzero) (vzero, vzero)
       regress 5 (pr_int_dt a) (pr_dataset a) = Ok ([r1; r2], 2)
  /\ pr_n_weights a = 5%nat /\ 0 < pr_dt a /\ 0 < pr_int_dt a
  /\ aget r1 60%nat = 0 /\ aget r2 60%nat = 1
  /\ keeps_contract (two_sample_gmr 89) (fun m => fst (snd m)) (fun m => snd (snd m)) (12 * 5 + 29)
       (pr_alpha a) (pr_kappa a) [r1; r2].
Proof.
  intros regress i. set (z := (vzero, vzero)).
  destruct (C66_demonstration_accepted z z z z z regress 5 (1/1000) ss_demo) as [_ H];
    try (cbn; lia); try reflexivity; try (cbn [ss_demo d_n d_T Nat.sub]; rewrite !S_INR; cbn [INR]; lra).
  destruct H as (r1 & E1 & L1 & S1 & _); [rewrite ss_demo_diff; lra|].
  destruct (C66_demonstration_accepted z z z z z regress 5 (1/1000) ss_demo2) as [_ H];
    try (cbn; lia); try reflexivity; try (cbn [ss_demo2 d_n d_T Nat.sub]; rewrite !S_INR; cbn [INR]; lra).
  destruct H as (r2 & E2 & L2 & S2 & _); [change (5/1000 <= mean_diff (d_n ss_demo) (d_T ss_demo)); rewrite ss_demo_diff; lra|].
  exists {| pr_dataset := [ss_demo; ss_demo2]; pr_n_weights := 5; pr_alpha := 1/1000; pr_kappa := 10; pr_dt := 1;
            pr_int_dt := 1/1000; pr_regress := regress; pr_impl := i; pr_junk := [] |}, r1, r2.
  cbn [pr_dataset pr_n_weights pr_alpha pr_kappa pr_dt pr_int_dt pr_regress pr_impl].
  split; [reflexivity|]. split; [reflexivity|]. split; [reflexivity|]. split.
  { unfold estimate_dmp_parameter_distribution. cbn [dataset_parameters]. fold z. rewrite E1. cbn [bind]. rewrite E2.
    cbn [bind map fst snd fold_right length].
    f_equal. f_equal. cbn [ss_demo ss_demo2 d_n d_T Nat.sub]. rewrite !S_INR. cbn [INR]. field. }
  split; [reflexivity|]. split; [lra|]. split; [lra|].
  split; [rewrite <- (eq_refl : aget r1 (12 * 5 + 0)%nat = aget r1 60%nat), (S1 0%nat) by lia; cbn; ring|].
  split; [rewrite <- (eq_refl : aget r2 (12 * 5 + 0)%nat = aget r2 60%nat), (S2 0%nat) by lia; cbn; ring|].
  exact (two_sample_gmr_ok 89 _ _ r1 r2 ltac:(lia)).
Qed.
