(** C66: the parameter vectors of dmp_to_state_space_distribution.py. *)
From Coq Require Import Reals List Arith Bool Lia Lra ZArith.
From Verif Require Import M_Prelude M_Canonical M_Forcing M_Dmp M_Base M_DmpObject M_Quaternion M_Cartesian M_Dual
  M_StateSpace S_Loops P_Loops P_Forcing P_DmpObject P_Dual P_DualObject Properties_DualObject Properties_DualExamples.
Import ListNotations.
Set Bullet Behavior "Strict Subproofs".
Open Scope R_scope.

Definition same_array (n : nat) (a b : arr) : Prop :=
  alen a = n /\ alen b = n /\ forall k, (k < n)%nat -> aget a k = aget b k.

(** Weights, start and goal are read back from the vector that was built from them, for every
    number of weights; the vector has as many entries as [estimate_state_distribution]
    assumes (lines 149-151). *)
Theorem C66_unpack : forall n w s g e, alen w = (12 * n)%nat -> alen s = 14%nat -> alen g = 14%nat ->
  alen (pack_parameters w s g e) = (12 * n + 2 * 14 + 1)%nat
  /\ exists w' s' g', unpack_parameters n (pack_parameters w s g e) = Ok (w', s', g')
     /\ same_array (12 * n) w' w /\ same_array 14 s' s /\ same_array 14 g' g.
Proof.
  intros n w s g e Hw Hs Hg.
  assert (HL : alen (pack_parameters w s g e) = (12 * n + 2 * 14 + 1)%nat) by (cbn [pack_parameters alen]; lia).
  split; [exact HL|].
  unfold unpack_parameters. rewrite HL. cbv zeta.
  destruct (Nat.ltb_spec (12 * n + 2 * 14 + 1) (0 + 2 * 6 * n)); [lia|]. cbn [bind].
  destruct (Nat.ltb_spec (12 * n + 2 * 14 + 1) (2 * 6 * n + 2 * 7)); [lia|]. cbn [bind].
  destruct (Nat.ltb_spec (12 * n + 2 * 14 + 1) (2 * 6 * n + 2 * 7 + 2 * 7)); [lia|]. cbn [bind].
  eexists. eexists. eexists. split; [reflexivity|].
  unfold same_array. cbn [alen aget pack_parameters]. rewrite Hw, Hs, Hg.
  repeat split; try lia; intros k Hk.
  - destruct (Nat.ltb_spec (0 + k) (12 * n)); [reflexivity|lia].
  - destruct (Nat.ltb_spec (2 * 6 * n + k) (12 * n)); [lia|].
    destruct (Nat.ltb_spec (2 * 6 * n + k) (12 * n + 14)); [|lia]. f_equal. lia.
  - destruct (Nat.ltb_spec (2 * 6 * n + 2 * 7 + k) (12 * n)); [lia|].
    destruct (Nat.ltb_spec (2 * 6 * n + 2 * 7 + k) (12 * n + 14)); [lia|].
    destruct (Nat.ltb_spec (2 * 6 * n + 2 * 7 + k) (12 * n + 14 + 14)); [|lia]. f_equal. lia.
Qed.

(** A DMP with the given start, goal and weights, at time zero. *)
Record parameterised (n : nat) (execution_time dt int_dt : R) (w s g : vec) (o : dmp) : Prop := {
  pz_reachable : dual_reachable o;
  pz_n : o_n_weights_per_dim o = n;
  pz_time : o_execution_time o = execution_time;
  pz_dt : o_dt o = dt; pz_int_dt : o_int_dt o = int_dt;
  pz_t : p_t (o_base o) = 0;
  pz_start : forall k, (k < 14)%nat -> aget (p_start_y (o_base o)) k = s k;
  pz_start_yd : forall k, (k < 12)%nat -> aget (p_start_yd (o_base o)) k = 0;
  pz_goal : forall k, (k < 14)%nat -> aget (p_goal_y (o_base o)) k = g k;
  pz_weights : forall k, (k < 12 * n)%nat -> aget (dual_get_weights o) k = w k
}.

Lemma ss_dmp_ok junk x dt n int_dt : (2 <= n)%nat -> 0 < x ->
  exists o f al be, ss_dmp junk x dt n int_dt = Ok o /\ init_forcing_term junk n x = Ok f
  /\ o = {| o_base := ptp_init 14 12; o_initialized := false; o_execution_time := x; o_dt := dt;
            o_n_weights_per_dim := n; o_int_dt := int_dt; o_p_gain := 0; o_smooth_scaling := false;
            o_forcing_term := f; o_alpha_y := al; o_beta_y := be |}.
Proof.
  intros Hn Hx. destruct (init_forcing_term_accepts junk n x Hn Hx) as [f Ef].
  unfold ss_dmp, dual_new. rewrite Ef. cbn [bind]. unfold ensure_1d_array, scalar_array. cbn [shape bind].
  do 4 eexists. split; [reflexivity|]. split; [reflexivity|]. reflexivity.
Qed.

(** What [propagate_point] runs, whatever the parameter vector is. *)
Lemma propagate_point_ok junk i n x dt int_dt p : (2 <= n)%nat -> 0 < x -> 0 < dt -> 0 < int_dt ->
  (12 * n + 28 <= alen p)%nat ->
  exists o o' ts P fr al be, parameterised n x dt int_dt (aget p) (fun k => aget p (12 * n + k)%nat)
        (fun k => aget p (12 * n + 14 + k)%nat) o
  /\ o_initialized o = false /\ o_p_gain o = 0 /\ o_smooth_scaling o = false
  /\ init_forcing_term junk n x = Ok fr
  /\ (exists W, o_forcing_term o = set_ft_weights W fr)
  /\ ss_dmp junk x dt n int_dt = Ok {| o_base := ptp_init 14 12; o_initialized := false; o_execution_time := x;
            o_dt := dt; o_n_weights_per_dim := n; o_int_dt := int_dt; o_p_gain := 0; o_smooth_scaling := false;
            o_forcing_term := fr; o_alpha_y := al; o_beta_y := be |}
  /\ o_alpha_y o = al /\ o_beta_y o = be
  /\ dual_open_loop (CS := unit) (Some x) None (Some i) tt o = (o', tt, Ok (ts, P))
  /\ propagate_point junk i n x dt int_dt p = Ok (ravel_rows 14 P).
Proof.
  intros Hn Hx Hdt Hi Hp. unfold propagate_point, unpack_parameters. cbv zeta.
  destruct (Nat.ltb_spec (alen p) (0 + 2 * 6 * n)); [lia|]. cbn [bind].
  destruct (Nat.ltb_spec (alen p) (2 * 6 * n + 2 * 7)); [lia|]. cbn [bind].
  destruct (Nat.ltb_spec (alen p) (2 * 6 * n + 2 * 7 + 2 * 7)); [lia|]. cbn [bind].
  destruct (ss_dmp_ok junk x dt n int_dt Hn Hx) as (o0 & f & al & be & E0 & Ef & Eo). rewrite E0. cbn [bind].
  assert (R0 : dual_reachable o0) by (eapply dr_new; exact E0).
  set (c := {| c_t := None; c_start_y := _; c_start_yd := None; c_start_ydd := None; c_goal_y := _;
               c_goal_yd := None; c_goal_ydd := None |}).
  pose proof (dr_configure c o0 R0) as R1.
  destruct (dmp_configure c o0) as [o1 r] eqn:Ec. cbn [fst] in R1.
  assert (E1 : r = Ok tt /\ o1 = with_base (set_goal_y {| alen := 14; aget := fun k => aget p (2 * 6 * n + 2 * 7 + k)%nat |}
     (set_start_y {| alen := 14; aget := fun k => aget p (2 * 6 * n + k)%nat |} (ptp_init 14 12))) o0).
  { rewrite Eo in Ec |- *. unfold dmp_configure in Ec. cbn in Ec. injection Ec as <- <-. split; reflexivity. }
  destruct E1 as [-> E1].
  set (w := {| alen := (2 * 6 * n)%nat; aget := fun k => aget p (0 + k)%nat |}).
  assert (Fn : ft_n f = n).
  { apply init_forcing_term_inv in Ef. destruct Ef as (_ & _ & Ef). now apply forcing_term_init_n in Ef. }
  assert (N1 : o_n_weights_per_dim o1 = n) by (rewrite E1, Eo; reflexivity).
  assert (F1 : o_forcing_term o1 = f) by (rewrite E1, Eo; reflexivity).
  destruct (C26_dual o1 w R1) as (Hset & _ & _).
  destruct Hset as (Es & El & Ew); [unfold w; cbn [alen]; rewrite N1; lia|].
  pose proof (dr_set_weights w o1 R1) as R2.
  assert (E2 : exists W, fst (dual_set_weights w o1) = with_forcing_term (set_ft_weights W (o_forcing_term o1)) o1).
  { unfold dual_set_weights in Es |- *. destruct (reshape w 12 (ft_n (o_forcing_term o1))) as [W|]; [|discriminate].
    exists W. reflexivity. }
  destruct (dual_set_weights w o1) as [o2 r2]. cbn [fst snd] in *. subst r2. destruct E2 as [W E2].
  assert (D2 : o_dt o2 = dt) by (rewrite E2, E1, Eo; reflexivity).
  assert (I2 : o_int_dt o2 = int_dt) by (rewrite E2, E1, Eo; reflexivity).
  destruct (C69_dual_runs_exist unit (Some x) None tt o2 R2) as [Hrun _]; [lra|lra|].
  destruct (Hrun i) as (o3 & u & ts & P & E3). destruct u. rewrite E3.
  exists o2, o3, ts, P, f, al, be. rewrite Eo in E0.
  split; [|repeat match goal with |- _ /\ _ => split end; try assumption; try reflexivity;
           try (rewrite E2, E1, Eo; reflexivity)].
  - constructor; try assumption.
    all: try (rewrite E2, E1, Eo; reflexivity).
    all: intros k Hk.
    all: try (rewrite Ew by (unfold w; cbn [alen]; lia); reflexivity).
    all: rewrite E2, E1, Eo; cbn; f_equal; lia.
  - exists W. rewrite E2. cbn [with_forcing_term o_forcing_term]. now rewrite F1.
  - now rewrite Eo.
Qed.

(** Each sigma point is propagated by the open loop of a DMP whose start, goal and weights are
    the corresponding entries of the point; one row per point, all of the same length. *)
Theorem C66_propagate : forall junk i n x dt int_dt points,
  (2 <= n)%nat -> 0 < x -> 0 < dt -> 0 < int_dt -> points <> [] ->
  Forall (fun p => (12 * n + 28 <= alen p)%nat) points ->
  exists rows, propagate_to_state_space junk i points n x dt int_dt = Ok rows
  /\ Forall2 (fun p row => exists o o' ts P,
       parameterised n x dt int_dt (aget p) (fun k => aget p (12 * n + k)%nat)
         (fun k => aget p (12 * n + 14 + k)%nat) o
       /\ dual_open_loop (CS := unit) (Some x) None (Some i) tt o = (o', tt, Ok (ts, P))
       /\ row = ravel_rows 14 P) points rows.
Proof.
  intros junk i n x dt int_dt points Hn Hx Hdt Hi Hne Hall.
  assert (E : exists rows, propagate_points (propagate_point junk i n x dt int_dt) points = Ok rows
    /\ Forall2 (fun p row => exists o o' ts P,
       parameterised n x dt int_dt (aget p) (fun k => aget p (12 * n + k)%nat)
         (fun k => aget p (12 * n + 14 + k)%nat) o
       /\ dual_open_loop (CS := unit) (Some x) None (Some i) tt o = (o', tt, Ok (ts, P))
       /\ row = ravel_rows 14 P) points rows).
  { clear Hne. induction Hall as [|p points Hp Hall IH]; [exists []; split; [reflexivity|constructor]|].
    destruct IH as (rows & E & HF).
    destruct (propagate_point_ok junk i n x dt int_dt p Hn Hx Hdt Hi Hp)
      as (o & o' & ts & P & fr & al & be & H1 & _ & _ & _ & _ & _ & _ & _ & _ & H2 & H3).
    exists (ravel_rows 14 P :: rows). cbn [propagate_points]. rewrite H3. cbn [bind]. rewrite E. cbn [bind].
    split; [reflexivity|]. constructor; [|exact HF]. exists o, o', ts, P. auto. }
  destruct E as (rows & E & HF). exists rows. split; [|exact HF].
  unfold propagate_to_state_space. rewrite E. cbn [bind]. unfold vstack.
  assert (HLen : exists m, Forall (fun r => alen r = m) rows).
  { assert (Hone : forall p row, (exists o o' ts P,
       parameterised n x dt int_dt (aget p) (fun k => aget p (12 * n + k)%nat)
         (fun k => aget p (12 * n + 14 + k)%nat) o
       /\ dual_open_loop (CS := unit) (Some x) None (Some i) tt o = (o', tt, Ok (ts, P))
       /\ row = ravel_rows 14 P) -> exists m, alen row = (S m * 14)%nat /\ x <= INR m * dt
         /\ forall k, (k < m)%nat -> INR k * dt < x).
    { intros p row (o & o' & ts & P & Hz & Ho & ->). destruct Hz.
      pose proof (dual_reachable_shapes o pz_reachable0) as Hsh.
      destruct (dual_open_loop_spec _ _ _ _ _ _ _ _ _ Hsh Ho) as (m & L1 & L2 & _ & U & V & _).
      rewrite pz_dt0 in *. exists m. split; [cbn [ravel_rows alen]; rewrite L2; reflexivity|]. auto. }
    destruct rows as [|r0 rows]; [exists 0%nat; constructor|].
    inversion HF as [|p0 r0' l l' H0 HF']; subst.
    destruct (Hone p0 r0 H0) as (m & A & B & C). exists (S m * 14)%nat. constructor; [exact A|].
    clear -HF' Hone A B C. induction HF' as [|p r l l' Hpr HF' IH]; constructor; [|exact IH].
    destruct (Hone p r Hpr) as (m' & A' & B' & C'). rewrite A'. f_equal. f_equal.
    destruct (lt_eq_lt_dec m' m) as [[Hlt|]|Hlt]; auto.
    - pose proof (C m' Hlt). lra.
    - pose proof (C' m Hlt). lra. }
  destruct HLen as [m HLen].
  destruct rows as [|r0 rows]; [inversion HF; subst; contradiction|].
  inversion HLen as [|r l Hr Hl]; subst.
  destruct (forallb (fun x0 => alen x0 =? alen r0) rows) eqn:Eb; [reflexivity|]. exfalso.
  assert (forallb (fun x0 => alen x0 =? alen r0) rows = true); [|congruence].
  apply forallb_forall. intros r Hr. rewrite Forall_forall in Hl. apply Nat.eqb_eq. auto.
Qed.

(** A demonstration that is learned and propagated with its own execution time and time step
    gives the trajectory that the learning DMP itself generates: nothing is lost or mixed up
    between [imitate] and [set_weights]. *)
Theorem C66_demonstration : forall junk jl jlr jr jrr regress i n int_dt dm row x,
  (2 <= n)%nat -> 0 < int_dt ->
  demonstration_parameters junk jl jlr jr jrr regress n int_dt dm = Ok (Some (row, x)) ->
  let dt := mean_diff (d_n dm) (d_T dm) in
  exists o o1 o2 ts P trajectory,
    ss_dmp junk x dt n int_dt = Ok o
    /\ dual_imitate jl jlr jr jrr regress dm 0 false o = (o1, Ok tt)
    /\ dual_open_loop (CS := unit) (Some x) None (Some i) tt o1 = (o2, tt, Ok (ts, P))
    /\ propagate_point junk i n x dt int_dt row = Ok trajectory
    /\ alen trajectory = (length P * 14)%nat
    /\ forall t d, (t < length P)%nat -> (d < 14)%nat ->
         aget trajectory (t * 14 + d)%nat = aget (nth t P (zeros 14)) d.
Proof.
  intros junk jl jlr jr jrr regress i n int_dt dm row x Hn Hi E dt.
  unfold demonstration_parameters in E. destruct (Nat.ltb_spec (d_n dm) 2) as [|Hd2]; [discriminate|].
  fold dt in E. destruct (Rlt_dec dt (5 / 1000)) as [|Hdt]; [discriminate|].
  set (x' := d_T dm (d_n dm - 1)%nat) in *.
  destruct (ss_dmp junk x' dt n int_dt) as [o|] eqn:Eo; [|discriminate]. cbn [bind] in E.
  destruct (dual_imitate jl jlr jr jrr regress dm 0 false o) as [o1 [[]|]] eqn:Ei; [|discriminate].
  injection E as Erow Ex. subst x. fold x' in Erow.
  assert (Hx : 0 < x').
  { unfold ss_dmp, dual_new in Eo. destruct (init_forcing_term junk n x') eqn:Ef; [|discriminate].
    apply init_forcing_term_inv in Ef. tauto. }
  assert (R0 : dual_reachable o) by (eapply dr_new; exact Eo).
  assert (R1 : dual_reachable o1).
  { pose proof (dr_imitate jl jlr jr jrr regress dm 0 false o R0) as R. now rewrite Ei in R. }
  pose proof (dual_reachable_shapes o1 R1) as Hsh1.
  assert (Hdims : d_dims dm = 14%nat).
  { unfold dual_imitate in Ei. destruct (Nat.eqb_spec (d_dims dm) 14) as [Hd|]; [exact Hd|discriminate]. }
  (* what imitate leaves *)
  assert (HI : exists W, o1 = with_base (set_goal_y {| alen := 14; aget := d_Y dm (d_n dm - 1)%nat |}
       (set_start_y {| alen := 14; aget := d_Y dm 0%nat |} (o_base o)))
       (with_forcing_term (set_ft_weights W (o_forcing_term o)) o)).
  { destruct (dual_reachable_shapes o R0) as (D1 & D2 & _).
    unfold dual_imitate in Ei. rewrite Hdims in Ei. cbn [Nat.eqb negb] in Ei. cbv zeta in Ei.
    destruct (rmap _ (dmp_imitate jl _ _ _ _ _ _ _ _ _ _ _)) as [wl|]; [|discriminate].
    destruct (dmp_quaternion_imitation jlr _ _ _ _ _ _ _ _ _ _ _ _) as [wlr|]; [|discriminate].
    destruct (rmap _ (dmp_imitate jr _ _ _ _ _ _ _ _ _ _ _)) as [wr|]; [|discriminate].
    destruct (dmp_quaternion_imitation jrr _ _ _ _ _ _ _ _ _ _ _ _) as [wrr|]; [|discriminate].
    unfold dmp_configure in Ei. cbn [with_forcing_term o_base] in Ei.
    unfold configure in Ei. cbn [c_t c_start_y c_start_yd c_start_ydd c_goal_y c_goal_yd c_goal_ydd configure_block
      and_then] in Ei.
    unfold check_1d_array_length in Ei. cbn [alen] in Ei. rewrite D1 in Ei. cbn [Nat.eqb] in Ei.
    cbn in Ei. rewrite ?D1 in Ei. cbn in Ei. injection Ei as <-. eexists. reflexivity. }
  destruct HI as [W HI].
  destruct (ss_dmp_ok junk x' dt n int_dt Hn Hx) as (o' & f & al & be & Eo' & Ef & Eo'').
  rewrite Eo in Eo'. injection Eo' as <-.
  assert (Fn : ft_n f = n).
  { apply init_forcing_term_inv in Ef. destruct Ef as (_ & _ & Ef'). now apply forcing_term_init_n in Ef'. }
  assert (N1 : o_n_weights_per_dim o1 = n) by (rewrite HI, Eo''; reflexivity).
  assert (Fn1 : ft_n (o_forcing_term o1) = n) by (rewrite HI, Eo''; exact Fn).
  assert (Gl : alen (dual_get_weights o1) = (12 * n)%nat) by (unfold dual_get_weights, ravel; cbn [alen]; now rewrite Fn1).
  rewrite Hdims in Erow.
  destruct (C66_unpack n (dual_get_weights o1) {| alen := 14; aget := d_Y dm 0%nat |}
              {| alen := 14; aget := d_Y dm (d_n dm - 1)%nat |} x' Gl eq_refl eq_refl) as (Lr & _).
  destruct (propagate_point_ok junk i n x' dt int_dt row Hn Hx ltac:(lra) Hi) as
    (q & q' & ts & P & fr & al' & be' & Hz & Qi & Qg & Qs & Qf & (W' & QW) & Q0 & Qa & Qb & Hq & Hp).
  { rewrite <- Erow, Lr. lia. }
  rewrite Eo in Q0. injection Q0 as Q0. rewrite Eo'' in Q0. injection Q0 as <- <- <-.
  destruct Hz.
  assert (Hgw : forall k, (k < 12 * n)%nat -> aget (dual_get_weights q) k = aget (dual_get_weights o1) k).
  { intros k Hk. rewrite pz_weights0 by exact Hk. rewrite <- Erow. cbn [pack_parameters aget]. rewrite Gl.
    destruct (Nat.ltb_spec k (12 * n)); [reflexivity|lia]. }
  assert (Fnq : ft_n (o_forcing_term q) = n) by (rewrite QW; exact Fn).
  assert (Hw : forall d k, (d < 12)%nat -> (k < n)%nat ->
     ft_weights (o_forcing_term q) d k = ft_weights (o_forcing_term o1) d k).
  { intros d k Hd Hk. specialize (Hgw (d * n + k)%nat ltac:(nia)).
    unfold dual_get_weights, ravel in Hgw. cbn [aget] in Hgw. rewrite Fnq, Fn1 in Hgw.
    rewrite Nat.div_add_l, Nat.div_small, Nat.add_0_r in Hgw by lia.
    rewrite Nat.add_comm, Nat.mod_add, Nat.mod_small in Hgw by lia. exact Hgw. }
  assert (SA : forall arm, (arm <= 1)%nat -> same_arm arm o1 q).
  { intros arm Ha. constructor.
    - rewrite pz_t0, HI, Eo''. reflexivity.
    - rewrite pz_time0, HI, Eo''. reflexivity.
    - rewrite pz_dt0, HI, Eo''. reflexivity.
    - rewrite pz_int_dt0, HI, Eo''. reflexivity.
    - rewrite Qg, HI, Eo''. reflexivity.
    - rewrite Qs, HI, Eo''. reflexivity.
    - congruence.
    - rewrite QW, HI, Eo''. reflexivity.
    - rewrite QW, HI, Eo''. reflexivity.
    - rewrite QW, HI, Eo''. reflexivity.
    - rewrite QW, HI, Eo''. reflexivity.
    - rewrite QW, HI, Eo''. reflexivity.
    - intros j k Hj Hk. apply Hw; [lia|]. lia.
    - intros j Hj. rewrite Qa, HI, Eo''. reflexivity.
    - intros j Hj. rewrite Qb, HI, Eo''. reflexivity.
    - intros j Hj. rewrite pz_start0 by lia. rewrite <- Erow. cbn [pack_parameters aget alen]. rewrite Gl.
      destruct (Nat.ltb_spec (12 * n + (7 * arm + j)) (12 * n)); [lia|].
      destruct (Nat.ltb_spec (12 * n + (7 * arm + j)) (12 * n + 14)); [|lia].
      rewrite HI. cbn. f_equal. lia.
    - intros j Hj. rewrite pz_start_yd0 by lia. rewrite HI, Eo''. reflexivity.
    - intros j Hj. rewrite pz_goal0 by lia. rewrite <- Erow. cbn [pack_parameters aget alen]. rewrite Gl.
      destruct (Nat.ltb_spec (12 * n + 14 + (7 * arm + j)) (12 * n)); [lia|].
      destruct (Nat.ltb_spec (12 * n + 14 + (7 * arm + j)) (12 * n + 14)); [lia|].
      destruct (Nat.ltb_spec (12 * n + 14 + (7 * arm + j)) (12 * n + 14 + 14)); [|lia].
      rewrite HI. cbn. f_equal. lia.
    - intros j Hj. unfold remembered. rewrite Qi.
      assert (I1 : o_initialized o1 = false) by (rewrite HI, Eo''; reflexivity). rewrite I1.
      rewrite pz_start0 by lia. rewrite <- Erow. cbn [pack_parameters aget alen]. rewrite Gl.
      destruct (Nat.ltb_spec (12 * n + (7 * arm + j)) (12 * n)); [lia|].
      destruct (Nat.ltb_spec (12 * n + (7 * arm + j)) (12 * n + 14)); [|lia].
      rewrite HI. cbn. f_equal. lia. }
  assert (D1 : o_dt o1 = dt) by (rewrite HI, Eo''; reflexivity).
  assert (Id1 : o_int_dt o1 = int_dt) by (rewrite HI, Eo''; reflexivity).
  destruct (C69_dual_runs_exist unit (Some x') None tt o1 R1) as [Hrun _]; [lra|lra|].
  destruct (Hrun i) as (o2 & u & ts1 & P1 & Er). destruct u.
  exists o, o1, o2, ts1, P1, (ravel_rows 14 P).
  split; [exact Eo|]. split; [exact Ei|]. split; [exact Er|]. split; [exact Hp|].
  destruct (C38_open_loop 0 i (Some x') o1 q o2 q' ts1 P1 ts P tt tt tt tt ltac:(lia) R1 pz_reachable0 (SA 0%nat ltac:(lia))
              ltac:(lra) Er Hq) as [_ F0].
  destruct (C38_open_loop 1 i (Some x') o1 q o2 q' ts1 P1 ts P tt tt tt tt ltac:(lia) R1 pz_reachable0 (SA 1%nat ltac:(lia))
              ltac:(lra) Er Hq) as [_ F1].
  assert (LP : length P1 = length P) by (clear -F0; induction F0; cbn; congruence).
  split; [cbn [ravel_rows alen]; now rewrite LP|].
  intros t d Ht Hd. cbn [ravel_rows aget].
  rewrite Nat.div_add_l, Nat.div_small, Nat.add_0_r by lia.
  rewrite Nat.add_comm, Nat.mod_add, Nat.mod_small by lia.
  assert (HN : forall arm l l', Forall2 (same_pose arm) l l' -> forall t, (t < length l)%nat ->
     same_pose arm (nth t l (zeros 14)) (nth t l' (zeros 14))).
  { intros arm l l' HF. induction HF as [|a b l l' Hab HF IH]; intros [|t'] Ht'; cbn in *; try lia; auto. apply IH. lia. }
  pose proof (HN 0%nat P1 P F0 t Ht) as H0. pose proof (HN 1%nat P1 P F1 t Ht) as H1.
  destruct (le_lt_dec 7 d) as [H7|H7].
  - replace d with (7 * 1 + (d - 7))%nat by lia. apply H1. lia.
  - replace d with (7 * 0 + d)%nat by lia. apply H0. lia.
Qed.

(** Which demonstrations give a row: with T[0] = 0 < T[-1], all that have the right shape and
    whose mean time step is at least 5 ms; those with a smaller mean time step are skipped. *)
Theorem C66_demonstration_accepted : forall junk jl jlr jr jrr regress n int_dt dm,
  (2 <= n)%nat -> (2 <= d_n dm)%nat -> d_rows dm = d_n dm -> d_dims dm = 14%nat ->
  d_T dm 0%nat < d_T dm (d_n dm - 1)%nat -> 0 < d_T dm (d_n dm - 1)%nat ->
  (mean_diff (d_n dm) (d_T dm) < 5 / 1000 ->
     demonstration_parameters junk jl jlr jr jrr regress n int_dt dm = Ok None)
  /\ (5 / 1000 <= mean_diff (d_n dm) (d_T dm) ->
      exists row, demonstration_parameters junk jl jlr jr jrr regress n int_dt dm
                  = Ok (Some (row, d_T dm (d_n dm - 1)%nat))
      /\ alen row = (12 * n + 29)%nat
      /\ (forall k, (k < 14)%nat -> aget row (12 * n + k)%nat = d_Y dm 0%nat k)
      /\ (forall k, (k < 14)%nat -> aget row (12 * n + 14 + k)%nat = d_Y dm (d_n dm - 1)%nat k)
      /\ aget row (12 * n + 28)%nat = d_T dm (d_n dm - 1)%nat).
Proof.
  intros junk jl jlr jr jrr regress n int_dt dm Hn Hd Hr H14 HT Hx. unfold demonstration_parameters.
  destruct (Nat.ltb_spec (d_n dm) 2) as [|_]; [lia|]. cbv zeta.
  destruct (Rlt_dec (mean_diff (d_n dm) (d_T dm)) (5 / 1000)) as [Hlt|Hge];
    split; intros Hc; try reflexivity; try lra.
  set (x := d_T dm (d_n dm - 1)%nat) in *. set (dt := mean_diff (d_n dm) (d_T dm)) in *.
  destruct (ss_dmp_ok junk x dt n int_dt Hn Hx) as (o & f & al & be & Eo & Ef & ->). rewrite Eo. cbn [bind].
  assert (Fi : ft_n f = n /\ ft_overlap f = 8/10).
  { apply init_forcing_term_inv in Ef. destruct Ef as (_ & _ & Ef).
    unfold forcing_term_init in Ef. destruct (Nat.leb n 1); [discriminate|].
    destruct (Rle_dec x 0); [discriminate|]. destruct (Rle_dec (8/10) 0); [discriminate|].
    destruct (init_rbfs _ _ _ _ _ _ _) in Ef. injection Ef as <-. auto. }
  destruct Fi as [Fn Fo].
  assert (Hf : forall j al', exists f', forcing_term_init (fst j) (snd j) n x (d_T dm 0%nat) (8/10) al' = Ok f').
  { intros j al'. destruct (forcing_term_init_ok (fst j) (snd j) n x (d_T dm 0%nat) (8/10) al' Hn HT ltac:(lra))
      as (f' & E & _). eauto. }
  unfold dual_imitate. rewrite H14. cbn [Nat.eqb negb]. cbv zeta.
  cbn [o_alpha_y o_beta_y o_forcing_term o_n_weights_per_dim o_smooth_scaling]. rewrite Fo.
  assert (Hpos : forall junk arm a b az, exists W, rmap (fun r => fst (fst r))
      (dmp_imitate junk regress 3 (demo_columns (7 * arm) 3 dm) n 0 a b (8/10) az false false) = Ok W).
  { intros j arm a b az. unfold dmp_imitate. cbn [demo_columns d_n d_T d_rows d_dims].
    destruct (Rlt_dec 0 0); [lra|]. destruct (Nat.eqb_spec (d_n dm) 0); [lia|]. cbv zeta. fold x.
    destruct (Hf j az) as [f' ->]. cbn [bind]. rewrite Hr, Nat.eqb_refl. cbn [negb Nat.eqb andb].
    unfold determine_forces. destruct (Nat.ltb_spec (d_n dm) 2); [lia|]. cbn [bind rmap]. eauto. }
  assert (Hrot : forall junk Q a b az, exists W,
      dmp_quaternion_imitation junk regress (d_n dm) (d_T dm) Q n 0 a b (8/10) az false false = Ok W).
  { intros j Q a b az. unfold dmp_quaternion_imitation.
    destruct (Rlt_dec 0 0); [lra|]. destruct (Nat.eqb_spec (d_n dm) 0); [lia|]. cbv zeta. fold x.
    destruct (Hf j az) as [f' ->]. cbn [bind].
    unfold determine_forces_quaternion. destruct (Nat.ltb_spec (d_n dm) 2); [lia|]. cbn [bind]. eauto. }
  match goal with |- context [rmap _ (dmp_imitate jl _ _ (demo_columns (7 * ?m) _ _) _ _ ?a ?b _ ?z _ _)] =>
    destruct (Hpos jl m a b z) as [W1 ->] end.
  match goal with |- context [dmp_quaternion_imitation jlr _ _ _ ?q _ _ ?a ?b _ ?z _ _] =>
    destruct (Hrot jlr q a b z) as [W2 ->] end.
  match goal with |- context [rmap _ (dmp_imitate jr _ _ (demo_columns (7 * ?m) _ _) _ _ ?a ?b _ ?z _ _)] =>
    destruct (Hpos jr m a b z) as [W3 ->] end.
  match goal with |- context [dmp_quaternion_imitation jrr _ _ _ ?q _ _ ?a ?b _ ?z _ _] =>
    destruct (Hrot jrr q a b z) as [W4 ->] end.
  match goal with |- context [dmp_configure ?c ?o] => destruct (dmp_configure c o) as [o1 r1] eqn:Ec end.
  cbn in Ec. injection Ec as <- <-.
  eexists. split; [reflexivity|]. cbn [pack_parameters alen aget dual_get_weights ravel o_forcing_term
    set_ft_weights ft_n with_base with_forcing_term]. rewrite Fn.
  split; [lia|].
  split; [|split].
  - intros k Hk. destruct (Nat.ltb_spec (12 * n + k) (12 * n)); [lia|].
    destruct (Nat.ltb_spec (12 * n + k) (12 * n + 14)); [|lia]. f_equal. lia.
  - intros k Hk. destruct (Nat.ltb_spec (12 * n + 14 + k) (12 * n)); [lia|].
    destruct (Nat.ltb_spec (12 * n + 14 + k) (12 * n + 14)); [lia|].
    destruct (Nat.ltb_spec (12 * n + 14 + k) (12 * n + 14 + 14)); [|lia]. f_equal. lia.
  - destruct (Nat.ltb_spec (12 * n + 28) (12 * n)); [lia|].
    destruct (Nat.ltb_spec (12 * n + 28) (12 * n + 14)); [lia|].
    destruct (Nat.ltb_spec (12 * n + 28) (12 * n + 14 + 14)); [lia|]. reflexivity.
Qed.

(** The dataset: one row per demonstration that is not skipped, in the order of the dataset;
    the returned execution time is the mean of theirs. *)
Theorem C66_dataset : forall junk jl jlr jr jrr regress n int_dt dataset rows x,
  estimate_dmp_parameter_distribution junk jl jlr jr jrr regress n int_dt dataset = Ok (rows, x) ->
  rows <> [] /\ exists kept,
    Forall2 (fun dm r => demonstration_parameters junk jl jlr jr jrr regress n int_dt dm = Ok (Some r))
      (filter (fun dm => if Rlt_dec (mean_diff (d_n dm) (d_T dm)) (5 / 1000) then false else true) dataset) kept
    /\ rows = map fst kept /\ x * INR (length kept) = fold_right Rplus 0 (map snd kept)
    /\ Forall2 (fun dm r => snd r = d_T dm (d_n dm - 1)%nat)
      (filter (fun dm => if Rlt_dec (mean_diff (d_n dm) (d_T dm)) (5 / 1000) then false else true) dataset) kept.
Proof.
  intros junk jl jlr jr jrr regress n int_dt dataset rows x E. unfold estimate_dmp_parameter_distribution in E.
  set (f := demonstration_parameters junk jl jlr jr jrr regress n int_dt) in *.
  destruct (dataset_parameters f dataset) as [l|] eqn:El; [|discriminate]. cbn [bind] in E.
  assert (HF : Forall2 (fun dm r => f dm = Ok (Some r))
      (filter (fun dm => if Rlt_dec (mean_diff (d_n dm) (d_T dm)) (5 / 1000) then false else true) dataset) l).
  { clear E. revert l El. induction dataset as [|dm ds IH]; intros l El; cbn [dataset_parameters] in El.
    - injection El as <-. constructor.
    - destruct (f dm) as [r|] eqn:Ef; [|discriminate]. cbn [bind] in El.
      destruct (dataset_parameters f ds) as [l'|]; [|discriminate]. cbn [bind] in El. injection El as <-.
      specialize (IH l' eq_refl). cbn [filter].
      assert (Hr : match r with None => mean_diff (d_n dm) (d_T dm) < 5/1000
                   | Some _ => ~ mean_diff (d_n dm) (d_T dm) < 5/1000 end).
      { unfold f, demonstration_parameters in Ef. destruct (Nat.ltb (d_n dm) 2); [discriminate|]. cbv zeta in Ef.
        destruct (Rlt_dec _ _); [injection Ef as <-; assumption|].
        destruct (ss_dmp _ _ _ _ _); [|discriminate]. cbn [bind] in Ef.
        destruct (dual_imitate _ _ _ _ _ _ _ _ _) as [? [|]]; [|discriminate]. injection Ef as <-. assumption. }
      destruct (Rlt_dec _ _); destruct r; try contradiction; [exact IH|constructor; assumption]. }
  assert (Hsnd : forall dm r, f dm = Ok (Some r) -> snd r = d_T dm (d_n dm - 1)%nat).
  { intros dm r Ef. unfold f, demonstration_parameters in Ef. destruct (Nat.ltb (d_n dm) 2); [discriminate|].
    cbv zeta in Ef. destruct (Rlt_dec _ _); [discriminate|].
    destruct (ss_dmp _ _ _ _ _); [|discriminate]. cbn [bind] in Ef.
    destruct (dual_imitate _ _ _ _ _ _ _ _ _) as [? [|]]; [|discriminate]. injection Ef as <-. reflexivity. }
  destruct l as [|r l]; [discriminate|]. injection E as <- <-.
  split; [discriminate|]. exists (r :: l). split; [exact HF|]. split; [reflexivity|]. split.
  - unfold Rdiv. rewrite Rmult_assoc, Rinv_l by (apply not_0_INR; discriminate). apply Rmult_1_r.
  - revert HF Hsnd. clear. generalize (r :: l). generalize (filter (fun dm => if Rlt_dec (mean_diff (d_n dm) (d_T dm)) (5 / 1000) then false else true) dataset).
    intros a b HF Hs. induction HF; constructor; auto.
Qed.

(** When the mean time step of every demonstration is below 5 ms, all are skipped and the
    call raises ValueError. *)
Theorem C66_all_skipped : forall junk jl jlr jr jrr regress n int_dt dataset,
  Forall (fun dm => (2 <= d_n dm)%nat /\ mean_diff (d_n dm) (d_T dm) < 5 / 1000) dataset ->
  estimate_dmp_parameter_distribution junk jl jlr jr jrr regress n int_dt dataset = Err ValueError.
Proof.
  intros junk jl jlr jr jrr regress n int_dt dataset H. unfold estimate_dmp_parameter_distribution.
  assert (E : dataset_parameters (demonstration_parameters junk jl jlr jr jrr regress n int_dt) dataset = Ok []).
  { induction H as [|dm ds [H1 H2] Hds IH]; [reflexivity|]. cbn [dataset_parameters].
    unfold demonstration_parameters at 1. destruct (Nat.ltb_spec (d_n dm) 2); [lia|]. cbv zeta.
    destruct (Rlt_dec _ _); [|contradiction]. cbn [bind]. rewrite IH. reflexivity. }
  rewrite E. reflexivity.
Qed.

Definition ss_demo : demo :=
  {| d_n := 3; d_T := INR; d_rows := 3; d_dims := 14;
     d_Y := fun t k => if Nat.eqb k 3 then 1 else if Nat.eqb k 10 then 1 else INR (t * k) |}.

Lemma ss_demo_diff : mean_diff (d_n ss_demo) (d_T ss_demo) = 1.
Proof. unfold mean_diff, ss_demo. cbn [d_n d_T Nat.sub rsum]. rewrite !S_INR. cbn [INR]. field. Qed.

(** The hypotheses are met: a demonstration with three steps is accepted, and its row and any
    multiple of it can be propagated. *)
Example C66_satisfiable : forall junk jl jlr jr jrr regress i,
  exists row rows,
    estimate_dmp_parameter_distribution junk jl jlr jr jrr regress 5 (1/1000) [ss_demo; ss_demo] = Ok ([row; row], 2)
    /\ alen row = 89%nat
    /\ propagate_to_state_space junk i [row; pack_parameters row row row 0] 5 2 1 (1/1000) = Ok rows.
Proof.
  intros junk jl jlr jr jrr regress i.
  destruct (C66_demonstration_accepted junk jl jlr jr jrr regress 5 (1/1000) ss_demo) as [_ H];
    try (cbn; lia); try reflexivity; try (cbn [ss_demo d_n d_T Nat.sub]; rewrite !S_INR; cbn [INR]; lra).
  destruct H as (row & E & L & _); [rewrite ss_demo_diff; lra|].
  destruct (C66_propagate junk i 5 2 1 (1/1000) [row; pack_parameters row row row 0]) as (rows & Ep & _);
    try lia; try lra; try discriminate.
  { constructor; [lia|]. constructor; [|constructor]. cbn [pack_parameters alen]. lia. }
  exists row, rows. split; [|split; [lia|exact Ep]].
  unfold estimate_dmp_parameter_distribution. cbn [dataset_parameters]. rewrite E. cbn [bind map fst snd fold_right length].
  f_equal. f_equal. cbn [ss_demo d_n d_T Nat.sub]. rewrite !S_INR. cbn [INR]. field.
Qed.
