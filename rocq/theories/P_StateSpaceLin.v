(** The positions of a trajectory that [propagate_to_state_space] computes depend linearly on
    the parameters. *)
From Coq Require Import Reals List Arith Bool Lia Lra ZArith.
From Verif Require Import M_Prelude M_Canonical M_Forcing M_Dmp M_Base M_DmpObject M_Quaternion M_Cartesian M_Dual
  M_StateSpace S_Loops P_Loops P_Forcing P_DmpObject P_Dual P_DualObject Properties_DualObject Properties_StateSpace.
Import ListNotations.
Set Bullet Behavior "Strict Subproofs".
Open Scope R_scope.

Record coefs := { c_start : R; c_goal : R; c_w : nat -> R }.
Definition ev (n : nat) (c : coefs) (s g : R) (w : vec) : R :=
  c_start c * s + c_goal c * g + rsum n (fun j => c_w c j * w j).

Definition c_add (a b : coefs) := {| c_start := c_start a + c_start b; c_goal := c_goal a + c_goal b;
  c_w := fun j => c_w a j + c_w b j |}.
Definition c_scal (k : R) (a : coefs) := {| c_start := k * c_start a; c_goal := k * c_goal a;
  c_w := fun j => k * c_w a j |}.

Lemma ev_add n a b s g w : ev n (c_add a b) s g w = ev n a s g w + ev n b s g w.
Proof.
  unfold ev, c_add. cbn [c_start c_goal c_w].
  rewrite (rsum_ext n _ (fun j => c_w a j * w j + c_w b j * w j)) by (intros; ring). rewrite rsum_plus. ring.
Qed.
Lemma ev_scal n k a s g w : ev n (c_scal k a) s g w = k * ev n a s g w.
Proof.
  unfold ev, c_scal. cbn [c_start c_goal c_w].
  rewrite (rsum_ext n _ (fun j => k * (c_w a j * w j))) by (intros; ring). rewrite rsum_scal. ring.
Qed.
Definition c_s0 := {| c_start := 1; c_goal := 0; c_w := fun _ => 0 |}.
Definition c_g0 := {| c_start := 0; c_goal := 1; c_w := fun _ => 0 |}.
Definition c_0 := {| c_start := 0; c_goal := 0; c_w := fun _ => 0 |}.
Definition c_f (w : vec) := {| c_start := 0; c_goal := 0; c_w := w |}.
Lemma ev_s0 n s g w : ev n c_s0 s g w = s.
Proof. unfold ev, c_s0. cbn [c_start c_goal c_w]. rewrite rsum_0; [ring|intros; ring]. Qed.
Lemma ev_g0 n s g w : ev n c_g0 s g w = g.
Proof. unfold ev, c_g0. cbn [c_start c_goal c_w]. rewrite rsum_0; [ring|intros; ring]. Qed.
Lemma ev_0 n s g w : ev n c_0 s g w = 0.
Proof. unfold ev, c_0. cbn [c_start c_goal c_w]. rewrite rsum_0; [ring|intros; ring]. Qed.
Lemma ev_f n k s g w : ev n (c_f k) s g w = rsum n (fun j => k j * w j).
Proof. unfold ev, c_f. cbn [c_start c_goal c_w]. ring. Qed.

(** Arguments of the step function as [propagate_to_state_space] passes them, at one position
    entry: start [s], goal [g], weights [w]. *)
Record plain_args (fr : forcing_term) (x int_dt : R) (v : nat) (s g : R) (w : vec) (a : dmp_args) : Prop := {
  pa_goal_t : a_goal_t a = x; pa_start_t : a_start_t a = 0; pa_int_dt : a_int_dt a = int_dt;
  pa_p_gain : a_p_gain a = 0; pa_smooth : a_smooth_scaling a = false;
  pa_alpha : a_alpha_y a v = 25; pa_beta : a_beta_y a v = 25 / 4;
  pa_goal : a_goal_y a (pp_of v) = g; pa_start : a_start_y a (pp_of v) = s; pa_start_yd : a_start_yd a v = 0;
  pa_ft : exists W, a_forcing_term a = set_ft_weights W fr /\ forall j, (j < ft_n fr)%nat -> W v j = w j
}.

Section Linear.
  Context (fr : forcing_term) (x int_dt : R) (i : impl).
  Let n := ft_n fr.

  Definition body_v (cur dt : R) (cy cv : coefs) : coefs :=
    let z := ft_phase fr cur in
    let f := c_f (fun j => z * activations n (ft_centers fr) (ft_widths fr) z j) in
    c_add cv (c_scal (dt / x ^ 2)
      (c_add (c_scal 25 (c_add (c_scal (25 / 4) (c_add c_g0 (c_scal (-1) cy))) (c_scal (- x) cv))) f)).

  Lemma plain_body v s g w a cur dt y yd cdd (cs : unit) cy cv : is_pv v = true ->
    plain_args fr x int_dt v s g w a ->
    y (pp_of v) = ev n cy s g w -> yd v = ev n cv s g w -> cdd v = 0 ->
    exists y1 yd1 cdd1, dual_body i a None cur dt ((y, yd), cdd, cs) = ((y1, yd1), cdd1, cs)
    /\ y1 (pp_of v) = ev n (c_add cy (c_scal dt (body_v cur dt cy cv))) s g w
    /\ yd1 v = ev n (body_v cur dt cy cv) s g w /\ cdd1 v = 0.
  Proof.
    intros Hv Ha Hy Hyd Hc.
    assert (Hpp : is_pp (pp_of v) = true /\ pv_of (pp_of v) = v).
    { unfold is_pv in Hv. apply orb_true_iff in Hv. rewrite andb_true_iff, !Nat.ltb_lt, Nat.leb_le in Hv.
      unfold is_pp, pv_of, pp_of. destruct (Nat.ltb_spec v 6).
      - destruct (Nat.ltb_spec v 3); [|lia]. destruct (Nat.ltb_spec v 7); [|lia]. auto.
      - destruct (Nat.ltb_spec (S v) 3); [lia|]. destruct (Nat.leb_spec 7 (S v)); [|lia].
        destruct (Nat.ltb_spec (S v) 10); [|lia]. destruct (Nat.ltb_spec (S v) 7); [lia|]. auto. }
    destruct Hpp as [Hpp Hpv]. destruct Ha.
    assert (Hfb : dual_feedback i a dt v = 0).
    { unfold dual_feedback. destruct (a_tracking_error a); [|reflexivity].
      unfold assemble_v. rewrite Hv, pa_p_gain0. unfold Rdiv. ring. }
    destruct pa_ft0 as (W & EW & HW).
    assert (Hf : forall z, ft_forces (a_forcing_term a) z v
       = ev n (c_f (fun j => z * activations n (ft_centers fr) (ft_widths fr) z j)) s g w).
    { intros z. rewrite EW, ev_f. unfold ft_forces. cbn [set_ft_weights ft_n ft_weights ft_centers ft_widths].
      fold n. rewrite <- rsum_scal. apply rsum_ext. intros j Hj. rewrite HW by exact Hj. ring. }
    assert (Hph : ft_phase (a_forcing_term a) cur = ft_phase fr cur) by (rewrite EW; reflexivity).
    assert (Hnv : forall cdd', cdd' v = 0 ->
      yd v + (dt * dual_pos_acc a (ft_phase (a_forcing_term a) cur)
                     (ft_forces (a_forcing_term a) (ft_phase (a_forcing_term a) cur)) cdd' y yd v
              + vzero v / (a_goal_t a - a_start_t a)) = ev n (body_v cur dt cy cv) s g w).
    { intros cdd' E0. unfold dual_pos_acc. rewrite Hph, Hf, pa_smooth0, pa_alpha0, pa_beta0, pa_goal0, pa_goal_t0, pa_start_t0, E0, Hy, Hyd.
      unfold body_v. repeat rewrite ?ev_add, ?ev_scal, ?ev_g0. unfold vzero, Rdiv. replace (x - 0) with x by ring. ring. }
    unfold dual_body.
    do 3 eexists. split; [reflexivity|].
    unfold assemble_p, assemble_v. rewrite Hpp, Hpv, Hv.
    assert (E0 : forall c : vec, c v = 0 -> vadd c (dual_feedback i a dt) v = 0)
      by (intros c Ec; unfold vadd; rewrite Ec, Hfb; ring).
    assert (E1 : vadd (match i with Python => cdd | Cython => vzero end) (dual_feedback i a dt) v = 0)
      by (apply E0; destruct i; [exact Hc|reflexivity] || (destruct i; [reflexivity|exact Hc])).
    split; [|split; [|exact E1]].
    - rewrite Hnv by exact E1. rewrite ev_add, ev_scal. now rewrite Hy.
    - now rewrite Hnv by exact E1.
  Qed.

  Lemma plain_substeps : forall fuel cur t cy cv, exists cy1 cv1, forall v s g w a y yd cdd (cs : unit) st,
    is_pv v = true -> plain_args fr x int_dt v s g w a ->
    y (pp_of v) = ev n cy s g w -> yd v = ev n cv s g w -> cdd v = 0 ->
    substeps fuel cur t int_dt (dual_body i a None) ((y, yd), cdd, cs) = Ok st ->
    exists y1 yd1 cdd1, st = ((y1, yd1), cdd1, cs) /\ y1 (pp_of v) = ev n cy1 s g w /\ yd1 v = ev n cv1 s g w.
  Proof.
    induction fuel as [|fuel IH]; intros cur t cy cv.
    - exists cy, cv. intros v s g w a y yd cdd cs st Hv Ha Hy Hyd Hc E. cbn [substeps] in E.
      destruct (Rlt_dec cur t); [discriminate|]. injection E as <-. eauto 10.
    - destruct (Rlt_dec cur t) as [Hlt|Hge].
      2:{ exists cy, cv. intros v s g w a y yd cdd cs st Hv Ha Hy Hyd Hc E. cbn [substeps] in E.
          destruct (Rlt_dec cur t); [contradiction|]. injection E as <-. eauto 10. }
      set (dt := if Rlt_dec (t - cur) int_dt then t - cur else int_dt).
      destruct (IH (cur + dt) t (c_add cy (c_scal dt (body_v (cur + dt) dt cy cv))) (body_v (cur + dt) dt cy cv))
        as (cy1 & cv1 & H).
      exists cy1, cv1. intros v s g w a y yd cdd cs st Hv Ha Hy Hyd Hc E. cbn [substeps] in E.
      destruct (Rlt_dec cur t); [|contradiction]. cbv zeta in E. fold dt in E.
      destruct (plain_body v s g w a (cur + dt) dt y yd cdd cs cy cv Hv Ha Hy Hyd Hc)
        as (y1 & yd1 & cdd1 & E1 & Y1 & V1 & C1).
      rewrite E1 in E. exact (H v s g w a y1 yd1 cdd1 cs st Hv Ha Y1 V1 C1 E).
  Qed.

  Lemma plain_step_function lt t cy cv : exists cy1 cv1, forall v s g w a y yd (cs : unit) y1 yd1 cs1,
    is_pv v = true -> plain_args fr x int_dt v s g w a ->
    y (pp_of v) = ev n cy s g w -> yd v = ev n cv s g w ->
    dual_step_function i a None lt t (y, yd) cs = Ok ((y1, yd1), cs1) ->
    y1 (pp_of v) = ev n cy1 s g w /\ yd1 v = ev n cv1 s g w.
  Proof.
    destruct (plain_substeps (substeps_fuel lt t int_dt) lt t
      (if Rle_dec t 0 then c_s0 else cy) (if Rle_dec t 0 then c_0 else cv)) as (cy1 & cv1 & H).
    exists cy1, cv1. intros v s g w a y yd cs y1 yd1 cs1 Hv Ha Hy Hyd E.
    unfold dual_step_function in E. pose proof Ha as Ha'. destruct Ha'. rewrite pa_start_t0, pa_int_dt0 in E.
    destruct (substeps _ _ _ _ _ _) as [st|] eqn:Es; [|discriminate]. cbn [rmap] in E. injection E as E E'.
    destruct (Rle_dec t 0).
    - destruct (H v s g w a (a_start_y a) (a_start_yd a) vzero cs st Hv Ha) as (y2 & yd2 & cdd2 & -> & A & B); auto.
      + now rewrite ev_s0.
      + now rewrite ev_0.
      + cbn [fst] in E. injection E as <- <-. auto.
    - destruct (H v s g w a y yd vzero cs st Hv Ha) as (y2 & yd2 & cdd2 & -> & A & B); auto.
      cbn [fst] in E. injection E as <- <-. auto.
  Qed.

  (** Objects as [propagate_to_state_space] uses them. *)
  Record plain_dmp (dt : R) (v : nat) (s g : R) (w : vec) (o : dmp) : Prop := {
    pd_shapes : dual_shapes o;
    pd_time : o_execution_time o = x; pd_dt : o_dt o = dt; pd_int_dt : o_int_dt o = int_dt;
    pd_p_gain : o_p_gain o = 0; pd_smooth : o_smooth_scaling o = false;
    pd_alpha : aget (o_alpha_y o) v = 25; pd_beta : aget (o_beta_y o) v = 25 / 4;
    pd_goal : aget (p_goal_y (o_base o)) (pp_of v) = g; pd_start : aget (p_start_y (o_base o)) (pp_of v) = s;
    pd_start_yd : aget (p_start_yd (o_base o)) v = 0;
    pd_ft : exists W, o_forcing_term o = set_ft_weights W fr /\ forall j, (j < n)%nat -> W v j = w j
  }.

  Lemma plain_n_steps dt : forall k t0 cy cv, exists cy1, forall v s g w o (y yd : arr) (cs : unit) o1 cs1 y1 yd1,
    is_pv v = true -> plain_dmp dt v s g w o -> p_t (o_base o) = t0 ->
    aget y (pp_of v) = ev n cy s g w -> aget yd v = ev n cv s g w ->
    dual_n_steps None i k y yd cs o = (o1, cs1, Ok (y1, yd1)) ->
    aget y1 (pp_of v) = ev n cy1 s g w.
  Proof.
    induction k as [|k IH]; intros t0 cy cv.
    - exists cy. intros v s g w o y yd cs o1 cs1 y1 yd1 Hv Ho Ht Hy Hyd E. cbn [dual_n_steps] in E. congruence.
    - destruct (plain_step_function t0 (t0 + dt) cy cv) as (cy2 & cv2 & H2).
      destruct (IH (t0 + dt) cy2 cv2) as (cy1 & H1).
      exists cy1. intros v s g w o y yd cs o1 cs1 y1 yd1 Hv Ho Ht Hy Hyd E. cbn [dual_n_steps] in E.
      destruct (dual_step y yd None i cs o) as [[o2 cs2] [[y2 yd2]|e]] eqn:E2; [|discriminate].
      pose proof Ho as Ho'. destruct Ho'.
      destruct (dual_step_ok _ _ _ _ _ _ _ _ _ _ E2 pd_shapes0) as (L1 & L2 & Ef & L3 & L4 & Hp & Htt & _ & _ & _ & Hs1).
      rewrite Ht, pd_dt0 in *.
      match type of Ef with dual_step_function _ ?a _ _ _ _ _ = _ => assert (Ha : plain_args fr x int_dt v s g w a)
        by (constructor; cbn [dual_args step_args a_goal_t a_start_t a_int_dt a_p_gain a_smooth_scaling a_alpha_y
              a_beta_y a_goal_y a_start_y a_start_yd a_forcing_term]; assumption || reflexivity) end.
      destruct (H2 v s g w _ _ _ _ _ _ _ Hv Ha Hy Hyd Ef) as [A B].
      refine (H1 v s g w o2 y2 yd2 cs2 o1 cs1 y1 yd1 Hv _ Htt A B E).
      destruct Hp as (P1 & P2 & P3 & P4 & P5 & P6 & P7 & P8 & P9 & P10 & P11 & P12 & P13 & P14 & P15 & P16 & P17).
      constructor; try congruence; try exact Hs1. rewrite P7. exact pd_ft0.
  Qed.
End Linear.

Lemma pv_of_pp d : is_pp d = true -> is_pv (pv_of d) = true /\ pp_of (pv_of d) = d /\ (d < 14)%nat /\ (pv_of d < 12)%nat.
Proof.
  unfold is_pp. rewrite orb_true_iff, andb_true_iff, !Nat.ltb_lt, Nat.leb_le. intros H.
  unfold is_pv, pv_of, pp_of. destruct (Nat.ltb_spec d 7).
  - destruct (Nat.ltb_spec d 3); [|lia]. destruct (Nat.ltb_spec d 6); [|lia]. repeat split; lia.
  - destruct d as [|d]; [lia|]. cbn [pred]. destruct (Nat.ltb_spec d 3); [lia|]. destruct (Nat.leb_spec 6 d); [|lia].
    destruct (Nat.ltb_spec d 9); [|lia]. destruct (Nat.ltb_spec d 6); [lia|]. repeat split; lia.
Qed.

Lemma ss_gains junk x dt n int_dt o : ss_dmp junk x dt n int_dt = Ok o ->
  forall v, aget (o_alpha_y o) v = 25 /\ aget (o_beta_y o) v = 25 / 4.
Proof.
  unfold ss_dmp, dual_new. destruct (init_forcing_term junk n x); [|discriminate]. cbn [bind].
  unfold ensure_1d_array, scalar_array. cbn. intros E v. injection E as <-. cbn. auto.
Qed.

(** One trajectory: its length, and the positions of step [t]. *)
Lemma propagate_point_linear junk i n x dt int_dt : (2 <= n)%nat -> 0 < x -> 0 < dt -> 0 < int_dt ->
  forall t, exists c, forall p row, (12 * n + 28 <= alen p)%nat ->
    propagate_point junk i n x dt int_dt p = Ok row ->
    exists m, alen row = (S m * 14)%nat /\ x <= INR m * dt /\ (forall k, (k < m)%nat -> INR k * dt < x)
    /\ ((t <= m)%nat -> forall d, is_pp d = true ->
        aget row (t * 14 + d)%nat = ev n c (aget p (12 * n + d)%nat) (aget p (12 * n + 14 + d)%nat)
                                       (fun j => aget p (pv_of d * n + j)%nat)).
Proof.
  intros Hn Hx Hdt Hi t.
  destruct (init_forcing_term_accepts junk n x Hn Hx) as [fr Efr].
  assert (Fn : ft_n fr = n).
  { pose proof Efr as E. apply init_forcing_term_inv in E. destruct E as (_ & _ & E). now apply forcing_term_init_n in E. }
  destruct (plain_n_steps fr x int_dt i dt t 0 c_s0 c_0) as (c & H). rewrite Fn in H.
  exists c. intros p row Hp E.
  destruct (propagate_point_ok junk i n x dt int_dt p Hn Hx Hdt Hi Hp) as
    (o & o' & ts & P & fr' & al & be & Hz & Qi & Qg & Qs & Qf & (W & QW) & Q0 & Qa & Qb & Hq & Hpp).
  assert (fr' = fr) by congruence. subst fr'.
  rewrite E in Hpp. injection Hpp as ->.
  destruct Hz as [pz_reachable0 pz_n0 pz_time0 pz_dt0 pz_int_dt0 pz_t0 pz_start0 pz_start_yd0 pz_goal0 pz_weights0].
  pose proof (dual_reachable_shapes o pz_reachable0) as Hsh.
  destruct (dual_open_loop_spec _ _ _ _ _ _ _ _ _ Hsh Hq) as (m & L1 & L2 & _ & U & V & HK & _).
  rewrite pz_dt0 in *. exists m. split; [cbn [ravel_rows alen]; now rewrite L2|]. split; [exact V|]. split; [exact U|].
  intros Ht d Hd. destruct (pv_of_pp d Hd) as (Hv & Epp & H14 & H12).
  destruct (HK t Ht) as (o1 & cs1 & y1 & yd1 & E1 & E2).
  cbn [ravel_rows aget]. rewrite Nat.div_add_l, Nat.div_small, Nat.add_0_r by lia.
  rewrite Nat.add_comm, Nat.mod_add, Nat.mod_small by lia.
  rewrite (nth_error_nth _ _ _ E2).
  pose proof (ss_gains _ _ _ _ _ _ Q0 (pv_of d)) as [Ga Gb]. cbn [o_alpha_y o_beta_y] in Ga, Gb.
  rewrite <- Epp at 1.
  refine (H (pv_of d) _ _ _ (at_time_zero o) _ _ tt o1 cs1 y1 yd1 Hv _ _ _ _ E1).
  - constructor; cbn [at_time_zero with_base o_base set_t p_goal_y p_start_y p_start_yd o_execution_time o_dt o_int_dt
      o_p_gain o_smooth_scaling o_alpha_y o_beta_y o_forcing_term]; try assumption; try (rewrite ?Qa, ?Qb; assumption).
    + rewrite Epp, pz_goal0 by exact H14. reflexivity.
    + rewrite Epp, pz_start0 by exact H14. reflexivity.
    + now apply pz_start_yd0.
    + exists W. split; [exact QW|]. intros j Hj. rewrite Fn in Hj.
      specialize (pz_weights0 (pv_of d * n + j)%nat ltac:(nia)). unfold dual_get_weights, ravel in pz_weights0.
      rewrite QW in pz_weights0. cbn [set_ft_weights ft_n ft_weights aget] in pz_weights0. rewrite Fn in pz_weights0.
      rewrite Nat.div_add_l, Nat.div_small, Nat.add_0_r in pz_weights0 by lia.
      rewrite Nat.add_comm, Nat.mod_add, Nat.mod_small in pz_weights0 by lia. rewrite pz_weights0. f_equal. lia.
  - reflexivity.
  - rewrite ev_s0, Epp, pz_start0 by exact H14. reflexivity.
  - rewrite ev_0. now apply pz_start_yd0.
Qed.

(** ** Linear functionals of [D] entries *)
Definition linear_in (D : nat) (F : vec -> R) : Prop := exists l : vec, forall p, F p = rsum D (fun a => l a * p a).

Lemma linear_entry D a : (a < D)%nat -> linear_in D (fun p => p a).
Proof.
  intros Ha. exists (fun b => if Nat.eqb b a then 1 else 0). intros p.
  induction D as [|D IH]; [lia|]. cbn [rsum]. destruct (Nat.eq_dec a D) as [->|Hne].
  - rewrite Nat.eqb_refl. rewrite rsum_0; [ring|]. intros b Hb. destruct (Nat.eqb_spec b D); [lia|ring].
  - rewrite <- IH by lia. destruct (Nat.eqb_spec D a); [lia|ring].
Qed.
Lemma linear_add D F G : linear_in D F -> linear_in D G -> linear_in D (fun p => F p + G p).
Proof.
  intros [l Hl] [g Hg]. exists (fun a => l a + g a). intros p. rewrite Hl, Hg, <- rsum_plus. apply rsum_ext. intros; ring.
Qed.
Lemma linear_scal D k F : linear_in D F -> linear_in D (fun p => k * F p).
Proof.
  intros [l Hl]. exists (fun a => k * l a). intros p. rewrite Hl, <- rsum_scal. apply rsum_ext. intros; ring.
Qed.
Lemma linear_rsum D m (F : nat -> vec -> R) : (forall j, (j < m)%nat -> linear_in D (F j)) ->
  linear_in D (fun p => rsum m (fun j => F j p)).
Proof.
  induction m as [|m IH]; intros H; cbn [rsum].
  - exists (fun _ => 0). intros p. rewrite rsum_0; [reflexivity|intros; ring].
  - apply linear_add; [apply IH; auto|auto].
Qed.

Lemma linear_ev n c d : is_pp d = true ->
  linear_in (12 * n + 29) (fun p => ev n c (p (12 * n + d)%nat) (p (12 * n + 14 + d)%nat) (fun j => p (pv_of d * n + j)%nat)).
Proof.
  intros Hd. destruct (pv_of_pp d Hd) as (_ & _ & H14 & H12). unfold ev.
  apply linear_add; [apply linear_add|].
  - apply linear_scal, (linear_entry _ (12 * n + d)). lia.
  - apply linear_scal, (linear_entry _ (12 * n + 14 + d)). lia.
  - apply linear_rsum. intros j Hj. apply linear_scal, (linear_entry _ (pv_of d * n + j)). nia.
Qed.

(** A linear functional commutes with weighted sums; the weighted covariance of two of them
    is determined by the weighted covariance of the entries. *)
Lemma linear_weighted D F m (w : vec) (p : nat -> vec) : linear_in D F ->
  rsum m (fun i => w i * F (p i)) = F (fun a => rsum m (fun i => w i * p i a)).
Proof.
  intros [l Hl]. rewrite Hl.
  rewrite (rsum_ext m _ (fun i => rsum D (fun a => l a * (w i * p i a)))).
  - rewrite rsum_swap. apply rsum_ext. intros a Ha. now rewrite rsum_scal.
  - intros i Hi. rewrite Hl, <- rsum_scal. apply rsum_ext. intros; ring.
Qed.

Lemma linear_same D F (p q : vec) : linear_in D F -> (forall a, (a < D)%nat -> p a = q a) -> F p = F q.
Proof. intros [l Hl] H. rewrite !Hl. apply rsum_ext. intros a Ha. now rewrite H. Qed.

Lemma linear_cov D F G (l g : vec) m (w : vec) (p : nat -> vec) (mu : vec) (K : nat -> nat -> R) :
  (forall q, F q = rsum D (fun a => l a * q a)) -> (forall q, G q = rsum D (fun b => g b * q b)) ->
  (forall a b, (a < D)%nat -> (b < D)%nat -> rsum m (fun i => w i * ((p i a - mu a) * (p i b - mu b))) = K a b) ->
  rsum m (fun i => w i * ((F (p i) - F mu) * (G (p i) - G mu))) = rsum D (fun a => rsum D (fun b => l a * g b * K a b)).
Proof.
  intros Hl Hg HK.
  rewrite (rsum_ext m _ (fun i => rsum D (fun a => rsum D (fun b => l a * g b * (w i * ((p i a - mu a) * (p i b - mu b))))))).
  - rewrite rsum_swap. apply rsum_ext. intros a Ha. rewrite rsum_swap. apply rsum_ext. intros b Hb.
    rewrite rsum_scal. now rewrite HK.
  - intros i Hi. rewrite !Hl, !Hg, <- !rsum_minus.
    rewrite (rsum_ext D (fun a => rsum D _) (fun a => (l a * p i a - l a * mu a) * (w i * rsum D (fun b => g b * p i b - g b * mu b)))).
    + rewrite rsum_scal_r. ring.
    + intros a Ha. rewrite <- (rsum_scal D (w i)), <- (rsum_scal D). apply rsum_ext. intros b Hb. ring.
Qed.
