(** Linearity of the DMP integrators in start, goal, weights and state (C11),
    equilibria (C12), agreement of the Euler implementations (C09), the
    evaluation times of RK4 (C07). *)
From Coq Require Import Reals ZArith List Lia Lra Psatz FunctionalExtensionality.
From Verif Require Import M_Prelude M_Canonical M_Forcing M_Dmp S_Dmp
  S_Loops P_Loops P_Canonical P_Forcing P_DmpStep P_DmpScale.
Import ListNotations.
Open Scope R_scope.

(** ** Three-way simulation *)
Definition res_rel3 {A B C} (rel : A -> B -> C -> Prop) (x : res A) (y : res B) (z : res C)
    : Prop :=
  match x, y, z with
  | Ok a, Ok b, Ok c => rel a b c
  | Err e, Err e', Err e'' => e = e' /\ e = e''
  | _, _, _ => False
  end.

Lemma substeps_rel3 {S0 S1 S2 : Type} (rel : S0 -> S1 -> S2 -> Prop)
    (b0 : R -> R -> S0 -> S0) (b1 : R -> R -> S1 -> S1) (b2 : R -> R -> S2 -> S2) :
  (forall c d x y z, 0 < d -> rel x y z -> rel (b0 c d x) (b1 c d y) (b2 c d z)) ->
  forall fuel a b h x y z, 0 < h -> rel x y z ->
  res_rel3 rel (substeps fuel a b h b0 x) (substeps fuel a b h b1 y)
    (substeps fuel a b h b2 z).
Proof.
  intros Hb. induction fuel as [|fuel IH]; intros a b h x y z Hh Hx; simpl;
    destruct (Rlt_dec a b); simpl; auto.
  apply IH; auto. apply Hb; auto. destruct (Rlt_dec (b - a) h); lra.
Qed.

Inductive Forall3 {A B C} (rel : A -> B -> C -> Prop) : list A -> list B -> list C -> Prop :=
| Forall3_nil : Forall3 rel [] [] []
| Forall3_cons x y z l l' l'' : rel x y z -> Forall3 rel l l' l'' ->
    Forall3 rel (x :: l) (y :: l') (z :: l'').

Lemma res_rel3_bind {A B C A' B' C'} (P : A -> B -> C -> Prop) (Q : A' -> B' -> C' -> Prop)
    x y z f g h :
  res_rel3 P x y z -> (forall a b c, P a b c -> res_rel3 Q (f a) (g b) (h c)) ->
  res_rel3 Q (bind x f) (bind y g) (bind z h).
Proof. destruct x, y, z; simpl; auto; tauto. Qed.

Lemma run_steps_rel3 {S0 S1 S2 : Type} (rel : S0 -> S1 -> S2 -> Prop) s0 s1 s2 :
  (forall a b x y z, rel x y z -> res_rel3 rel (s0 a b x) (s1 a b y) (s2 a b z)) ->
  forall ts t0 x y z, rel x y z ->
  res_rel3 (Forall3 rel) (run_steps s0 t0 ts x) (run_steps s1 t0 ts y) (run_steps s2 t0 ts z).
Proof.
  intros Hs. induction ts as [|t ts IH]; intros t0 x y z Hx; simpl; [constructor|].
  eapply res_rel3_bind; [apply Hs; exact Hx|]. intros x' y' z' Hx'.
  eapply res_rel3_bind; [apply IH; exact Hx'|]. intros l l' l'' Hl. now constructor.
Qed.

(** ** Linear combinations *)
Definition lrel (ca cb : R) (u u1 u2 : vec) : Prop := forall d, u d = ca * u1 d + cb * u2 d.

Lemma lrel_eq ca cb u u1 u2 : lrel ca cb u u1 u2 <-> u = lin ca cb u1 u2.
Proof. split; [intros H; vext; apply H|intros -> d; reflexivity]. Qed.

Definition st_lin (ca cb : R) (x x1 x2 : vec * vec) : Prop :=
  lrel ca cb (fst x) (fst x1) (fst x2) /\ lrel ca cb (snd x) (snd x1) (snd x2).

Definition ft_lin (ca cb : R) (f f1 f2 : forcing_term) : Prop :=
  (forall g, g = f1 \/ g = f2 ->
     ft_n g = ft_n f /\ ft_goal_t g = ft_goal_t f /\ ft_start_t g = ft_start_t f
     /\ ft_alpha_z g = ft_alpha_z f /\ ft_centers g = ft_centers f /\ ft_widths g = ft_widths f)
  /\ (forall d i, ft_weights f d i = ca * ft_weights f1 d i + cb * ft_weights f2 d i).

Definition same_kind (o o1 o2 : option vec) (ca cb : R) : Prop :=
  match o, o1, o2 with
  | None, None, None => True
  | Some u, Some u1, Some u2 => lrel ca cb u u1 u2
  | _, _, _ => False
  end.
Definition same_kind2 (o o1 o2 : option (vec * vec)) (ca cb : R) : Prop :=
  match o, o1, o2 with
  | None, None, None => True
  | Some u, Some u1, Some u2 => st_lin ca cb u u1 u2
  | _, _, _ => False
  end.

(** [a] is the combination [ca * a1 + cb * a2] of start, goal, weights,
    precomputed coupling and tracking error; all other arguments agree. *)
Record args_lin (ca cb : R) (a a1 a2 : dmp_args) : Prop := {
  al_goal_y : lrel ca cb (a_goal_y a) (a_goal_y a1) (a_goal_y a2);
  al_start_y : lrel ca cb (a_start_y a) (a_start_y a1) (a_start_y a2);
  al_start_yd : lrel ca cb (a_start_yd a) (a_start_yd a1) (a_start_yd a2);
  al_ft : ft_lin ca cb (a_forcing_term a) (a_forcing_term a1) (a_forcing_term a2);
  al_pre : same_kind2 (a_precomputed a) (a_precomputed a1) (a_precomputed a2) ca cb;
  al_te : same_kind (a_tracking_error a) (a_tracking_error a1) (a_tracking_error a2) ca cb;
  al_common : forall b, b = a1 \/ b = a2 ->
     a_goal_t b = a_goal_t a /\ a_start_t b = a_start_t a
     /\ a_alpha_y b = a_alpha_y a /\ a_beta_y b = a_beta_y a
     /\ a_int_dt b = a_int_dt a /\ a_p_gain b = a_p_gain a
     /\ a_smooth_scaling b = a_smooth_scaling a;
  al_coupling : a_coupling_term a = None /\ a_coupling_term a1 = None
     /\ a_coupling_term a2 = None
}.

Lemma lrel_vadd ca cb u u1 u2 v v1 v2 :
  lrel ca cb u u1 u2 -> lrel ca cb v v1 v2 ->
  lrel ca cb (vadd u v) (vadd u1 v1) (vadd u2 v2).
Proof. intros Hu Hv d. unfold vadd. rewrite Hu, Hv. ring. Qed.

Lemma lrel_vscale ca cb k u u1 u2 :
  lrel ca cb u u1 u2 -> lrel ca cb (vscale k u) (vscale k u1) (vscale k u2).
Proof. intros Hu d. unfold vscale. rewrite Hu. ring. Qed.

Lemma ft_phase_lin ca cb f f1 f2 t : ft_lin ca cb f f1 f2 ->
  ft_phase f1 t = ft_phase f t /\ ft_phase f2 t = ft_phase f t.
Proof.
  intros [Hc _]. unfold ft_phase.
  destruct (Hc f1) as (_ & -> & -> & -> & _); auto.
  destruct (Hc f2) as (_ & -> & -> & -> & _); auto.
Qed.

Lemma ft_forces_lin ca cb f f1 f2 z : ft_lin ca cb f f1 f2 ->
  lrel ca cb (ft_forces f z) (ft_forces f1 z) (ft_forces f2 z).
Proof.
  intros [Hc Hw] d. unfold ft_forces.
  destruct (Hc f1) as (-> & _ & _ & _ & -> & ->); auto.
  destruct (Hc f2) as (-> & _ & _ & _ & -> & ->); auto.
  rewrite (rsum_ext _ _ (fun i => ca * (ft_weights f1 d i
      * activations (ft_n f) (ft_centers f) (ft_widths f) z i)
    + cb * (ft_weights f2 d i * activations (ft_n f) (ft_centers f) (ft_widths f) z i)))
    by (intros; rewrite Hw; ring).
  rewrite rsum_plus, !rsum_scal. ring.
Qed.

Lemma pre_cdd_lin ca cb a a1 a2 : args_lin ca cb a a1 a2 ->
  lrel ca cb (precomputed_cdd a) (precomputed_cdd a1) (precomputed_cdd a2)
  /\ lrel ca cb (precomputed_cd a) (precomputed_cd a1) (precomputed_cd a2).
Proof.
  intros H. pose proof (al_pre _ _ _ _ _ H) as Hp. unfold precomputed_cdd, precomputed_cd.
  destruct (a_precomputed a) as [[? ?]|], (a_precomputed a1) as [[? ?]|],
    (a_precomputed a2) as [[? ?]|]; simpl in Hp; try tauto.
  - destruct Hp; auto.
  - split; intros d; unfold vzero; ring.
Qed.

Lemma te_lin ca cb a a1 a2 : args_lin ca cb a a1 a2 ->
  lrel ca cb (tracking_error_or_zero (a_tracking_error a))
    (tracking_error_or_zero (a_tracking_error a1))
    (tracking_error_or_zero (a_tracking_error a2)).
Proof.
  intros H. pose proof (al_te _ _ _ _ _ H) as Hp.
  destruct (a_tracking_error a), (a_tracking_error a1), (a_tracking_error a2); simpl in *;
    try tauto. intros d; unfold vzero; ring.
Qed.

(** [dmp_acc] without coupling object as used by the step functions. *)
Definition acc_of (a : dmp_args) (h : R) (Y V : vec) (z : R) (f : vec) : vec :=
  dmp_acc Y V (precomputed_cdd a) (a_alpha_y a) (a_beta_y a) (a_goal_y a) (a_start_y a)
    z (a_goal_t a - a_start_t a) f (a_coupling_term a)
    (fun d => a_p_gain a * tracking_error_or_zero (a_tracking_error a) d / h)
    (a_smooth_scaling a).

Lemma acc_of_lin ca cb a a1 a2 h z Y Y1 Y2 V V1 V2 f f1 f2 :
  args_lin ca cb a a1 a2 ->
  lrel ca cb Y Y1 Y2 -> lrel ca cb V V1 V2 -> lrel ca cb f f1 f2 ->
  lrel ca cb (acc_of a h Y V z f) (acc_of a1 h Y1 V1 z f1) (acc_of a2 h Y2 V2 z f2).
Proof.
  intros H HY HV Hf d. unfold acc_of, dmp_acc.
  destruct (al_coupling _ _ _ _ _ H) as (-> & -> & ->).
  destruct (al_common _ _ _ _ _ H a1) as (-> & -> & -> & -> & _ & -> & ->); auto.
  destruct (al_common _ _ _ _ _ H a2) as (-> & -> & -> & -> & _ & -> & ->); auto.
  destruct (pre_cdd_lin _ _ _ _ _ H) as [Hp _].
  pose proof (te_lin _ _ _ _ _ H) as Ht.
  rewrite HY, HV, Hf, Hp, Ht, (al_goal_y _ _ _ _ _ H), (al_start_y _ _ _ _ _ H).
  destruct (a_smooth_scaling a); unfold Rdiv; ring.
Qed.

Definition rk4_of (acc : vec -> vec -> R -> vec -> vec) (h : R) (Z0 Z1 Z2 : R) (F0 F1 F2 : vec)
    (y v : vec) : vec * vec :=
  let K0 := acc y v Z0 F0 in
  let C1 := vadd v (vscale (/ 2 * h) K0) in
  let K1 := acc (vadd y (vscale (/ 2 * h) v)) C1 Z1 F1 in
  let C2 := vadd v (vscale (/ 2 * h) K1) in
  let K2 := acc (vadd y (vscale (/ 2 * h) C1)) C2 Z1 F1 in
  let C3 := vadd v (vscale h K2) in
  let K3 := acc (vadd y (vscale h C2)) C3 Z2 F2 in
  (fun d => y d + h * (v d + h / 6 * (K0 d + K1 d + K2 d)),
   fun d => v d + h / 6 * (K0 d + 2 * K1 d + 2 * K2 d + K3 d)).

Lemma rk4_as_rk4_of a lt t y v :
  a_coupling_term a = None ->
  let h := t - lt in
  let z := ft_phase (a_forcing_term a) in
  let f := fun t => ft_forces (a_forcing_term a) (z t) in
  dmp_step_rk4 a lt t (y, v)
  = rk4_of (acc_of a h) h (z t) (z (t + / 2 * h)) (z (t + h)) (f t) (f (t + / 2 * h)) (f (t + h)) y v.
Proof.
  intros Hc h z f. unfold dmp_step_rk4. cbv zeta.
  unfold rk4_of, acc_of. rewrite Hc. reflexivity.
Qed.

Lemma rk4_of_lin ca cb acc acc1 acc2 h Z0 Z1 Z2 F0 F1 F2 F01 F11 F21 F02 F12 F22 y v y1 v1 y2 v2 :
  (forall z Y Y1 Y2 V V1 V2 f f1 f2,
     lrel ca cb Y Y1 Y2 -> lrel ca cb V V1 V2 -> lrel ca cb f f1 f2 ->
     lrel ca cb (acc Y V z f) (acc1 Y1 V1 z f1) (acc2 Y2 V2 z f2)) ->
  lrel ca cb F0 F01 F02 -> lrel ca cb F1 F11 F12 -> lrel ca cb F2 F21 F22 ->
  lrel ca cb y y1 y2 -> lrel ca cb v v1 v2 ->
  st_lin ca cb (rk4_of acc h Z0 Z1 Z2 F0 F1 F2 y v)
    (rk4_of acc1 h Z0 Z1 Z2 F01 F11 F21 y1 v1) (rk4_of acc2 h Z0 Z1 Z2 F02 F12 F22 y2 v2).
Proof.
  intros Ha H0 H1 H2 Hy Hv. unfold rk4_of. cbv zeta.
  pose proof (Ha Z0 _ _ _ _ _ _ _ _ _ Hy Hv H0) as E0.
  set (K0 := acc y v Z0 F0) in *. set (K01 := acc1 y1 v1 Z0 F01) in *.
  set (K02 := acc2 y2 v2 Z0 F02) in *. clearbody K0 K01 K02.
  assert (EC1 := lrel_vadd _ _ _ _ _ _ _ _ Hv (lrel_vscale _ _ (/ 2 * h) _ _ _ E0)).
  pose proof (Ha Z1 _ _ _ _ _ _ _ _ _
    (lrel_vadd _ _ _ _ _ _ _ _ Hy (lrel_vscale _ _ (/ 2 * h) _ _ _ Hv)) EC1 H1) as E1.
  set (K1 := acc _ _ Z1 F1) in E1 |- *. set (K11 := acc1 _ _ Z1 F11) in E1 |- *.
  set (K12 := acc2 _ _ Z1 F12) in E1 |- *. clearbody K1 K11 K12.
  assert (EC2 := lrel_vadd _ _ _ _ _ _ _ _ Hv (lrel_vscale _ _ (/ 2 * h) _ _ _ E1)).
  pose proof (Ha Z1 _ _ _ _ _ _ _ _ _
    (lrel_vadd _ _ _ _ _ _ _ _ Hy (lrel_vscale _ _ (/ 2 * h) _ _ _ EC1)) EC2 H1) as E2.
  set (K2 := acc _ _ Z1 F1) in E2 |- *. set (K21 := acc1 _ _ Z1 F11) in E2 |- *.
  set (K22 := acc2 _ _ Z1 F12) in E2 |- *. clearbody K2 K21 K22.
  assert (EC3 := lrel_vadd _ _ _ _ _ _ _ _ Hv (lrel_vscale _ _ h _ _ _ E2)).
  pose proof (Ha Z2 _ _ _ _ _ _ _ _ _
    (lrel_vadd _ _ _ _ _ _ _ _ Hy (lrel_vscale _ _ h _ _ _ EC2)) EC3 H2) as E3.
  set (K3 := acc _ _ Z2 F2) in E3 |- *. set (K31 := acc1 _ _ Z2 F21) in E3 |- *.
  set (K32 := acc2 _ _ Z2 F22) in E3 |- *. clearbody K3 K31 K32.
  split; intros d; cbn [fst snd].
  - rewrite (Hy d), (Hv d), (E0 d), (E1 d), (E2 d). field.
  - rewrite (Hv d), (E0 d), (E1 d), (E2 d), (E3 d). field.
Qed.

Lemma rk4_lin ca cb a a1 a2 lt t x x1 x2 :
  args_lin ca cb a a1 a2 -> st_lin ca cb x x1 x2 ->
  st_lin ca cb (dmp_step_rk4 a lt t x) (dmp_step_rk4 a1 lt t x1) (dmp_step_rk4 a2 lt t x2).
Proof.
  intros H [Hy Hv]. destruct x as [y v], x1 as [y1 v1], x2 as [y2 v2].
  destruct (al_coupling _ _ _ _ _ H) as (Ec & Ec1 & Ec2).
  rewrite !rk4_as_rk4_of by auto. cbv zeta.
  pose proof (al_ft _ _ _ _ _ H) as Hf.
  rewrite !(proj1 (ft_phase_lin _ _ _ _ _ _ Hf)), !(proj2 (ft_phase_lin _ _ _ _ _ _ Hf)).
  apply rk4_of_lin; auto using ft_forces_lin.
  intros. now apply acc_of_lin.
Qed.

Lemma euler_body_lin ca cb a a1 a2 c h x x1 x2 :
  args_lin ca cb a a1 a2 -> st_lin ca cb x x1 x2 ->
  st_lin ca cb (euler_body a c h x) (euler_body a1 c h x1) (euler_body a2 c h x2).
Proof.
  intros H [Hy Hv]. destruct x as [y v], x1 as [y1 v1], x2 as [y2 v2].
  destruct (al_coupling _ _ _ _ _ H) as (Ec & Ec1 & Ec2).
  pose proof (al_ft _ _ _ _ _ H) as Hf.
  simpl in Hy, Hv. unfold euler_body. cbv zeta.
  rewrite !(proj1 (ft_phase_lin _ _ _ _ _ _ Hf)), !(proj2 (ft_phase_lin _ _ _ _ _ _ Hf)).
  set (z := ft_phase (a_forcing_term a) c).
  pose proof (acc_of_lin _ _ _ _ _ h z _ _ _ _ _ _ _ _ _ H Hy Hv (ft_forces_lin _ _ _ _ _ z Hf))
    as Ha. unfold acc_of in Ha. simpl in Hy, Hv.
  set (A := dmp_acc y v _ _ _ _ _ _ _ _ _ _ _) in *.
  set (A1 := dmp_acc y1 v1 _ _ _ _ _ _ _ _ _ _ _) in *.
  set (A2 := dmp_acc y2 v2 _ _ _ _ _ _ _ _ _ _ _) in *. clearbody A A1 A2.
  rewrite Ec, Ec1, Ec2.
  split; simpl; repeat (apply lrel_vadd || apply lrel_vscale); auto.
Qed.

Lemma euler_cython_body_lin ca cb a a1 a2 c h x x1 x2 :
  args_lin ca cb a a1 a2 -> st_lin ca cb x x1 x2 ->
  st_lin ca cb (euler_cython_body a c h x) (euler_cython_body a1 c h x1)
    (euler_cython_body a2 c h x2).
Proof.
  intros H [Hy Hv]. destruct x as [y v], x1 as [y1 v1], x2 as [y2 v2].
  destruct (al_coupling _ _ _ _ _ H) as (Ec & Ec1 & Ec2).
  pose proof (al_ft _ _ _ _ _ H) as Hf.
  simpl in Hy, Hv. unfold euler_cython_body. cbv zeta.
  rewrite !(proj1 (ft_phase_lin _ _ _ _ _ _ Hf)), !(proj2 (ft_phase_lin _ _ _ _ _ _ Hf)).
  set (z := ft_phase (a_forcing_term a) c).
  pose proof (ft_forces_lin _ _ _ _ _ z Hf) as HF.
  rewrite Ec, Ec1, Ec2.
  assert (E : forall b, match a_precomputed b with Some p => p | None => (vzero, vzero) end
     = (precomputed_cd b, precomputed_cdd b)).
  { intros b. unfold precomputed_cd, precomputed_cdd. destruct (a_precomputed b) as [[? ?]|]; auto. }
  rewrite !E. clear E. destruct (pre_cdd_lin _ _ _ _ _ H) as [Hp Hp'].
  pose proof (al_te _ _ _ _ _ H) as Ht.
  destruct (al_common _ _ _ _ _ H a1) as (-> & -> & -> & -> & _ & -> & ->); auto.
  destruct (al_common _ _ _ _ _ H a2) as (-> & -> & -> & -> & _ & -> & ->); auto.
  pose proof (al_goal_y _ _ _ _ _ H) as Hg. pose proof (al_start_y _ _ _ _ _ H) as Hs.
  destruct (a_tracking_error a), (a_tracking_error a1), (a_tracking_error a2); simpl in Ht;
    try tauto; split; intros d; cbn [fst snd];
    rewrite ?(Hy d), ?(Hv d), ?(HF d), ?(Hp d), ?(Hp' d), ?(Ht d), ?(Hg d), ?(Hs d);
    simpl fst; simpl snd; destruct (a_smooth_scaling a); unfold Rdiv; ring.
Qed.

Lemma step_lin ca cb fn a a1 a2 lt t x x1 x2 :
  0 < a_int_dt a -> args_lin ca cb a a1 a2 -> st_lin ca cb x x1 x2 ->
  res_rel3 (st_lin ca cb) (run_step_function fn a lt t x) (run_step_function fn a1 lt t x1)
    (run_step_function fn a2 lt t x2).
Proof.
  intros Hi H Hx.
  destruct (al_common _ _ _ _ _ H a1) as (G1 & S1 & _ & _ & I1 & _); auto.
  destruct (al_common _ _ _ _ _ H a2) as (G2 & S2 & _ & _ & I2 & _); auto.
  destruct fn; simpl.
  - now apply rk4_lin.
  - unfold dmp_step_euler. rewrite G1, G2, S1, S2, I1, I2.
    destruct (Rle_dec (a_goal_t a) (a_start_t a)); [simpl; auto|].
    destruct (Rle_dec t (a_start_t a)); [simpl; auto|].
    apply substeps_rel3; auto. intros. now apply euler_body_lin.
  - rewrite !rk4_cython_eq. now apply rk4_lin.
  - unfold dmp_step_euler_cython. rewrite G1, G2, S1, S2, I1, I2.
    destruct (Rle_dec (a_goal_t a) (a_start_t a)); [simpl; auto|].
    apply substeps_rel3; auto.
    + intros. now apply euler_cython_body_lin.
    + destruct (Rle_dec t (a_start_t a)); auto.
      split; simpl; [apply (al_start_y _ _ _ _ _ H)|apply (al_start_yd _ _ _ _ _ H)].
Qed.

Lemma open_loop_lin ca cb fn a a1 a2 start_t run_t dt x x1 x2 :
  0 < a_int_dt a -> args_lin ca cb a a1 a2 -> st_lin ca cb x x1 x2 ->
  res_rel3 (fun r r1 r2 => fst r1 = fst r /\ fst r2 = fst r
       /\ Forall3 (st_lin ca cb) (snd r) (snd r1) (snd r2))
    (open_loop_run (run_step_function fn a) start_t run_t dt (fst x) (snd x))
    (open_loop_run (run_step_function fn a1) start_t run_t dt (fst x1) (snd x1))
    (open_loop_run (run_step_function fn a2) start_t run_t dt (fst x2) (snd x2)).
Proof.
  intros Hi H Hx. unfold open_loop_run.
  destruct (arange start_t (run_t + dt) dt) as [|t0 ts]; simpl; [auto|].
  eapply res_rel3_bind.
  - apply (run_steps_rel3 (st_lin ca cb)); [|destruct x, x1, x2; exact Hx].
    intros. now apply step_lin.
  - intros l l1 l2 Hl. simpl. repeat split; auto. constructor; auto.
Qed.

(** ** C12: equilibrium *)
Definition at_rest (a : dmp_args) : Prop :=
  a_coupling_term a = None /\ a_precomputed a = None /\ a_tracking_error a = None
  /\ (forall d i, (i < ft_n (a_forcing_term a))%nat -> ft_weights (a_forcing_term a) d i = 0)
  /\ (a_smooth_scaling a = true -> forall d, a_start_y a d = a_goal_y a d).

Lemma acc_of_at_rest a h z t : at_rest a ->
  acc_of a h (a_goal_y a) vzero z (ft_forces (a_forcing_term a) t) = vzero.
Proof.
  intros (Hc & Hp & Ht & Hw & Hs). vext. unfold acc_of, dmp_acc.
  rewrite Hc. unfold precomputed_cdd. rewrite Hp, Ht. unfold tracking_error_or_zero, vzero.
  assert (E : ft_forces (a_forcing_term a) t x = 0).
  { unfold ft_forces. rewrite rsum_0; [ring|]. intros. rewrite Hw by auto. ring. }
  rewrite E. destruct (a_smooth_scaling a); [rewrite (Hs eq_refl)|]; unfold Rdiv; ring.
Qed.

Lemma vadd_rest u c : vadd u (vscale c vzero) = u.
Proof. vext. unfold vadd, vscale, vzero. ring. Qed.
Lemma vadd_rest0 c : vadd vzero (vscale c vzero) = vzero.
Proof. apply vadd_rest. Qed.

Lemma rk4_at_rest a lt t : at_rest a ->
  dmp_step_rk4 a lt t (a_goal_y a, vzero) = (a_goal_y a, vzero).
Proof.
  intros H. rewrite rk4_as_rk4_of by apply H. cbv zeta. unfold rk4_of. cbv zeta.
  rewrite !acc_of_at_rest, !vadd_rest, ?acc_of_at_rest, ?vadd_rest, ?acc_of_at_rest, ?vadd_rest,
    ?acc_of_at_rest by auto.
  f_equal; vext; unfold vzero; field.
Qed.

Lemma euler_body_at_rest a c h : at_rest a ->
  euler_body a c h (a_goal_y a, vzero) = (a_goal_y a, vzero).
Proof.
  intros H. unfold euler_body. cbv zeta.
  pose proof (acc_of_at_rest a h (ft_phase (a_forcing_term a) c)
    (ft_phase (a_forcing_term a) c) H) as Ha. unfold acc_of in Ha. rewrite Ha.
  destruct H as (-> & _). now rewrite !vadd_rest.
Qed.

Lemma euler_cython_body_at_rest a c h : at_rest a ->
  euler_cython_body a c h (a_goal_y a, vzero) = (a_goal_y a, vzero).
Proof.
  intros (Hc & Hp & Ht & Hw & Hs). unfold euler_cython_body. rewrite Hc, Hp, Ht. cbv zeta.
  assert (E : forall z d, ft_forces (a_forcing_term a) z d = 0).
  { intros. unfold ft_forces. rewrite rsum_0; [ring|]. intros. rewrite Hw by auto. ring. }
  f_equal; vext; unfold vzero; rewrite !E;
    (destruct (a_smooth_scaling a); [rewrite (Hs eq_refl)|]); unfold Rdiv; ring.
Qed.

Lemma exec_substeps_fix {S} (body : R -> R -> S -> S) s :
  (forall c d, body c d s = s) -> forall l, exec_substeps body l s = s.
Proof.
  intros H. induction l as [|p l IH]; [reflexivity|].
  unfold exec_substeps in *. cbn [fold_left]. now rewrite H.
Qed.

Lemma step_at_rest fn a lt t :
  0 < a_int_dt a -> a_start_t a < a_goal_t a -> lt <= t -> at_rest a ->
  (fn = Euler_cython -> a_start_t a < t) ->
  run_step_function fn a lt t (a_goal_y a, vzero) = Ok (a_goal_y a, vzero).
Proof.
  intros Hi Ht Hl H Hcy. destruct fn; cbn [run_step_function].
  - f_equal. now apply rk4_at_rest.
  - unfold dmp_step_euler. destruct (Rle_dec (a_goal_t a) (a_start_t a)); [lra|].
    destruct (Rle_dec t (a_start_t a)); [reflexivity|].
    destruct (substeps_tiles lt t (a_int_dt a) Hi Hl) as [l [_ Hs]]. rewrite Hs. f_equal.
    apply exec_substeps_fix. intros. now apply euler_body_at_rest.
  - rewrite rk4_cython_eq. f_equal. now apply rk4_at_rest.
  - unfold dmp_step_euler_cython. destruct (Rle_dec (a_goal_t a) (a_start_t a)); [lra|].
    destruct (Rle_dec t (a_start_t a)) as [Hle|]; [specialize (Hcy eq_refl); lra|].
    destruct (substeps_tiles lt t (a_int_dt a) Hi Hl) as [l [_ Hs]]. rewrite Hs. f_equal.
    apply exec_substeps_fix. intros. now apply euler_cython_body_at_rest.
Qed.

(** ** C09: the two Euler implementations *)
Lemma euler_bodies_agree a c h s :
  (forall cp, a_coupling_term a = Some cp -> forall y v d, fst (cp y v) d = 0) ->
  (a_coupling_term a = None -> forall d, precomputed_cd a d = 0) ->
  euler_cython_body a c h s = euler_body a c h s.
Proof.
  intros Hc Hp. destruct s as [y v]. unfold euler_cython_body, euler_body, dmp_acc. cbv zeta.
  unfold precomputed_cd in Hp. unfold precomputed_cdd, vadd, vscale, vdivs.
  destruct (a_coupling_term a) as [cp|].
  - specialize (Hc cp eq_refl).
    destruct (cp y v) as [cd cdd] eqn:E. assert (H0 : forall d, cd d = 0).
    { intros. rewrite <- (Hc y v d). now rewrite E. }
    simpl. f_equal; vext; rewrite H0, ?Hc; unfold tracking_error_or_zero, vzero;
      destruct (a_tracking_error a), (a_smooth_scaling a); unfold Rdiv; ring.
  - specialize (Hp eq_refl). destruct (a_precomputed a) as [[cd cdd]|]; simpl in Hp;
    f_equal; vext; rewrite ?Hp; unfold tracking_error_or_zero, vzero;
      destruct (a_tracking_error a), (a_smooth_scaling a); unfold Rdiv; ring.
Qed.

Lemma euler_steps_agree a lt t s :
  0 < a_int_dt a -> a_start_t a < t ->
  (forall cp, a_coupling_term a = Some cp -> forall y v d, fst (cp y v) d = 0) ->
  (a_coupling_term a = None -> forall d, precomputed_cd a d = 0) ->
  dmp_step_euler_cython a lt t s = dmp_step_euler a lt t s.
Proof.
  intros Hi Ht Hc Hp. unfold dmp_step_euler_cython, dmp_step_euler.
  destruct (Rle_dec (a_goal_t a) (a_start_t a)); [reflexivity|].
  destruct (Rle_dec t (a_start_t a)); [lra|].
  apply substeps_ext; auto. intros. now apply euler_bodies_agree.
Qed.
