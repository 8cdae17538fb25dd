(** C120: the arrows of the plotted potential field.  Final statements. *)
From Coq Require Import Reals List Arith Bool String Lra Lia FunctionalExtensionality.
From Verif Require Import M_Prelude M_Canonical M_Forcing M_Dmp M_Base M_DmpObject M_Quaternion M_Coupling.
From Verif Require Import M_PotentialField S_Loops P_Loops P_DmpObject Properties_DmpObject Properties_Obstacle
  Properties_PotentialField.
Import ListNotations.
Set Bullet Behavior "Strict Subproofs".
Open Scope R_scope.

(** ** Specification *)
(** The arrow that matplotlib draws at a point of the grid, in widths of the plot: [scale]
    is documented as the number of data units per unit of length of the arrows. *)
Definition arrow (q : quiver) (i j d : nat) : R :=
  (if Nat.eqb d 0 then qv_u q i j else qv_v q i j) / qv_scale q.

(** The four groups of arrows in their documented colors, at the points of the grid. *)
Definition four_groups (pf : potential_field) (green red yellow black : quiver) : Prop :=
  map qv_color [green; red; yellow; black] = ["g"; "r"; "y"; "k"]%string
  /\ forall q, In q [green; red; yellow; black] -> qv_x q = pf_xx pf /\ qv_y q = pf_yy pf.

(** Somewhere on the grid the combined acceleration is not zero. *)
Definition not_at_rest (pf : potential_field) (n_ticks : nat) : Prop :=
  exists i j d, (i < n_ticks)%nat /\ (j < n_ticks)%nat /\ (d < 2)%nat /\ pf_acc pf i j d <> 0.

(** ** Proofs *)
Lemma max_upto_nonneg n f : 0 <= max_upto n f.
Proof.
  induction n as [|n IH]; simpl; [lra|]. eapply Rle_trans; [exact IH|apply Rmax_l].
Qed.

Lemma max_upto_ge n f i : (i < n)%nat -> f i <= max_upto n f.
Proof.
  induction n as [|n IH]; intros H; [lia|]. simpl.
  destruct (Nat.eq_dec i n) as [->|Hn]; [apply Rmax_r|].
  eapply Rle_trans; [apply IH; lia|apply Rmax_l].
Qed.

Lemma max_upto_attained n f : (forall i, 0 <= f i) -> (0 < n)%nat -> exists i, (i < n)%nat /\ max_upto n f = f i.
Proof.
  intros Hf Hn. induction n as [|n IH]; [lia|]. simpl.
  destruct (Nat.eq_dec n 0) as [->|H].
  - exists 0%nat. split; [lia|]. simpl. apply Rmax_right, Hf.
  - destruct (IH ltac:(lia)) as (i & Hi & E). unfold Rmax. destruct (Rle_dec (max_upto n f) (f n)).
    + exists n. split; [lia|reflexivity].
    + exists i. split; [lia|exact E].
Qed.

Lemma max_upto_scale n f c : 0 <= c -> max_upto n (fun i => f i * c) = max_upto n f * c.
Proof.
  intros Hc. induction n as [|n IH]; simpl; [ring|]. rewrite IH, (Rmult_comm _ c), (Rmult_comm (f n) c).
  rewrite RmaxRmult by auto. ring.
Qed.

Definition largest (pf : potential_field) (n : nat) : R :=
  max_upto n (fun i => max_upto n (fun j => max_upto 2 (fun d => Rabs (pf_acc pf i j d)))).

Lemma largest_scale pf n f :
  max_upto n (fun i => max_upto n (fun j => max_upto 2 (fun d => Rabs (pf_acc pf i j d * f)))) = largest pf n * Rabs f.
Proof.
  unfold largest. pose proof (Rabs_pos f).
  rewrite <- max_upto_scale by auto. f_equal. apply functional_extensionality. intros i.
  rewrite <- max_upto_scale by auto. f_equal. apply functional_extensionality. intros j.
  rewrite <- max_upto_scale by auto. f_equal. apply functional_extensionality. intros d. apply Rabs_mult.
Qed.

Lemma largest_ge pf n i j d : (i < n)%nat -> (j < n)%nat -> (d < 2)%nat -> Rabs (pf_acc pf i j d) <= largest pf n.
Proof.
  intros Hi Hj Hd. unfold largest.
  eapply Rle_trans; [apply (max_upto_ge 2 (fun d => Rabs (pf_acc pf i j d)) d Hd)|].
  eapply Rle_trans; [apply (max_upto_ge n (fun j => max_upto 2 (fun d => Rabs (pf_acc pf i j d))) j Hj)|].
  apply (max_upto_ge n (fun i => max_upto n (fun j => max_upto 2 (fun d => Rabs (pf_acc pf i j d)))) i Hi).
Qed.

Lemma largest_attained pf n : (0 < n)%nat ->
  exists i j d, (i < n)%nat /\ (j < n)%nat /\ (d < 2)%nat /\ Rabs (pf_acc pf i j d) = largest pf n.
Proof.
  intros Hn. unfold largest.
  destruct (max_upto_attained n (fun i => max_upto n (fun j => max_upto 2 (fun d => Rabs (pf_acc pf i j d))))) as (i & Hi & Ei);
    [intros; apply max_upto_nonneg|auto|]. rewrite Ei.
  destruct (max_upto_attained n (fun j => max_upto 2 (fun d => Rabs (pf_acc pf i j d)))) as (j & Hj & Ej);
    [intros; apply max_upto_nonneg|auto|]. rewrite Ej.
  destruct (max_upto_attained 2 (fun d => Rabs (pf_acc pf i j d))) as (d & Hd & Ed);
    [intros; apply Rabs_pos|auto|]. rewrite Ed. exists i, j, d. auto.
Qed.

Lemma largest_pos pf n : not_at_rest pf n -> 0 < largest pf n.
Proof.
  intros (i & j & d & Hi & Hj & Hd & H). pose proof (largest_ge pf n i j d Hi Hj Hd).
  pose proof (Rabs_pos_lt _ H). lra.
Qed.

Lemma potential_sum o xr yr n ob pf : potential_field_2d o xr yr n ob = Ok pf ->
  forall i j d, pf_acc pf i j d = pf_ft pf i j d + pf_ts pf i j d + pf_ct pf i j d.
Proof. unfold potential_field_2d. destruct (negb _); [discriminate|]. intros H. inversion H. reflexivity. Qed.

(** The drawn arrows, for every factor. *)
Lemma plot_arrows o xr yr n ob f pf : potential_field_2d o xr yr n ob = Ok pf -> not_at_rest pf n -> f <> 0 ->
  exists green red yellow black, plot_potential_field_2d o xr yr n ob f = Ok [green; red; yellow; black]
  /\ four_groups pf green red yellow black
  /\ forall i j d, (d < 2)%nat ->
     arrow green i j d = f / Rabs f * (pf_ts pf i j d / (largest pf n * INR n))
     /\ arrow red i j d = f / Rabs f * (pf_ft pf i j d / (largest pf n * INR n))
     /\ arrow yellow i j d = f / Rabs f * (pf_ct pf i j d / (largest pf n * INR n))
     /\ arrow black i j d = f / Rabs f * (pf_acc pf i j d / (largest pf n * INR n)).
Proof.
  intros E Hr Hf. pose proof (largest_pos pf n Hr) as PL. pose proof (Rabs_pos_lt f Hf) as Pf.
  assert (Hn : (0 < n)%nat) by (destruct Hr as (i & _ & _ & Hi & _); lia).
  assert (PN : 0 < INR n) by now apply lt_0_INR.
  unfold plot_potential_field_2d. rewrite E. cbn [bind]. destruct (Nat.eqb_spec n 0); [lia|].
  rewrite largest_scale.
  do 4 eexists. split; [reflexivity|]. split.
  - split; [reflexivity|]. intros q Hq. cbn in Hq. repeat (destruct Hq as [<- | Hq]; [auto|]). contradiction.
  - intros i j d Hd. unfold arrow. cbn [qv_u qv_v qv_scale].
    destruct d as [|[|]]; [| |lia]; cbn [Nat.eqb]; repeat split; field; repeat split; lra.
Qed.

(** ** C120 *)
(** For every DMP, grid and obstacle, and every positive factor: the arrows stand at the
    points of the grid, in the documented colors; all four groups are drawn with the same
    scale, so that the lengths can be compared; the black arrow is the sum of the other
    three; and no black arrow is longer (in x and y) than the distance of two points when
    they fill the width of the plot, and one of them is as long as that. *)
Theorem C120_arrows_partial : forall o x_range y_range n_ticks obstacle exaggerate pf,
  potential_field_2d o x_range y_range n_ticks obstacle = Ok pf -> not_at_rest pf n_ticks -> 0 < exaggerate ->
  exists green red yellow black,
  plot_potential_field_2d o x_range y_range n_ticks obstacle exaggerate = Ok [green; red; yellow; black]
  /\ four_groups pf green red yellow black
  /\ (exists s, 0 < s /\ forall i j d, (d < 2)%nat ->
       arrow green i j d = s * pf_ts pf i j d /\ arrow red i j d = s * pf_ft pf i j d
       /\ arrow yellow i j d = s * pf_ct pf i j d /\ arrow black i j d = s * pf_acc pf i j d
       /\ arrow black i j d = arrow green i j d + arrow red i j d + arrow yellow i j d)
  /\ (forall i j d, (i < n_ticks)%nat -> (j < n_ticks)%nat -> (d < 2)%nat -> Rabs (arrow black i j d) <= 1 / INR n_ticks)
  /\ exists i j d, (i < n_ticks)%nat /\ (j < n_ticks)%nat /\ (d < 2)%nat /\ Rabs (arrow black i j d) = 1 / INR n_ticks.
Proof.
  intros o xr yr n ob f pf E Hr Hf.
  destruct (plot_arrows o xr yr n ob f pf E Hr ltac:(lra)) as (g & r & y & b & EP & HG & HA).
  pose proof (largest_pos pf n Hr) as PL.
  assert (Hn : (0 < n)%nat) by (destruct Hr as (i & _ & _ & Hi & _); lia).
  assert (PN : 0 < INR n) by now apply lt_0_INR.
  assert (E1 : f / Rabs f = 1) by (rewrite Rabs_pos_eq by lra; field; lra). rewrite E1 in HA.
  assert (HB : forall i j d, (d < 2)%nat -> Rabs (arrow b i j d) = Rabs (pf_acc pf i j d) / largest pf n * (1 / INR n)).
  { intros i j d Hd. destruct (HA i j d Hd) as (_ & _ & _ & ->). rewrite Rmult_1_l. unfold Rdiv at 1. rewrite Rabs_mult.
    rewrite (Rabs_pos_eq (/ _)); [field; lra|]. apply Rlt_le, Rinv_0_lt_compat, Rmult_lt_0_compat; auto. }
  exists g, r, y, b. split; [exact EP|]. split; [exact HG|]. split; [|split].
  - exists (/ (largest pf n * INR n)). split; [apply Rinv_0_lt_compat, Rmult_lt_0_compat; auto|].
    intros i j d Hd. destruct (HA i j d Hd) as (-> & -> & -> & ->). rewrite (potential_sum _ _ _ _ _ _ E).
    repeat split; field; lra.
  - intros i j d Hi Hj Hd. rewrite HB by auto. pose proof (largest_ge pf n i j d Hi Hj Hd) as B.
    rewrite <- (Rmult_1_l (1 / INR n)) at 2. apply Rmult_le_compat_r; [apply Rlt_le, Rdiv_lt_0_compat; lra|].
    apply Rmult_le_reg_r with (largest pf n); auto. unfold Rdiv. rewrite Rmult_assoc, Rinv_l by lra. lra.
  - destruct (largest_attained pf n Hn) as (i & j & d & Hi & Hj & Hd & EL). exists i, j, d.
    repeat split; auto. rewrite HB by auto. rewrite EL. field. lra.
Qed.

(** The factor [exaggerate_arrows], by which the arrow sizes should be multiplied, has no
    effect on the plot at all: the scale is computed from the multiplied arrows. *)
Theorem C120_exaggeration_refuted :
  (forall o x_range y_range n_ticks obstacle pf f f',
     potential_field_2d o x_range y_range n_ticks obstacle = Ok pf -> not_at_rest pf n_ticks -> 0 < f -> 0 < f' ->
     exists qs qs', plot_potential_field_2d o x_range y_range n_ticks obstacle f = Ok qs
     /\ plot_potential_field_2d o x_range y_range n_ticks obstacle f' = Ok qs'
     /\ Forall2 (fun q q' => forall i j d, (d < 2)%nat -> arrow q i j d = arrow q' i j d) qs qs')
  /\ ~ (forall o x_range y_range n_ticks obstacle pf f qs qs', reachable 2 o ->
     potential_field_2d o x_range y_range n_ticks obstacle = Ok pf -> not_at_rest pf n_ticks -> 0 < f ->
     plot_potential_field_2d o x_range y_range n_ticks obstacle 1 = Ok qs ->
     plot_potential_field_2d o x_range y_range n_ticks obstacle f = Ok qs' ->
     Forall2 (fun q q' => forall i j d, (d < 2)%nat -> arrow q' i j d = f * arrow q i j d) qs qs').
Proof.
  assert (Main : forall o x_range y_range n_ticks obstacle pf f f',
     potential_field_2d o x_range y_range n_ticks obstacle = Ok pf -> not_at_rest pf n_ticks -> 0 < f -> 0 < f' ->
     exists qs qs', plot_potential_field_2d o x_range y_range n_ticks obstacle f = Ok qs
     /\ plot_potential_field_2d o x_range y_range n_ticks obstacle f' = Ok qs'
     /\ Forall2 (fun q q' => forall i j d, (d < 2)%nat -> arrow q i j d = arrow q' i j d) qs qs').
  { intros o xr yr n ob pf f f' E Hr Hf Hf'.
    destruct (plot_arrows o xr yr n ob f pf E Hr ltac:(lra)) as (g & r & y & b & EP & _ & HA).
    destruct (plot_arrows o xr yr n ob f' pf E Hr ltac:(lra)) as (g' & r' & y' & b' & EP' & _ & HA').
    exists [g; r; y; b], [g'; r'; y'; b']. split; auto. split; auto.
    assert (E1 : f / Rabs f = 1) by (rewrite Rabs_pos_eq by lra; field; lra). rewrite E1 in HA.
    assert (E1' : f' / Rabs f' = 1) by (rewrite Rabs_pos_eq by lra; field; lra). rewrite E1' in HA'.
    repeat constructor; intros i j d Hd; destruct (HA i j d Hd) as (A1 & A2 & A3 & A4);
      destruct (HA' i j d Hd) as (B1 & B2 & B3 & B4); congruence. }
  split; [exact Main|]. intros Claim.
  destruct (ex_new_ok 2 25 (25/4)) as (f & o & E0 & _ & Eo).
  assert (Hr : reachable 2 o) by (eapply ex_reachable; eauto).
  assert (Epf : exists pf, potential_field_2d o (0, 1) (0, 1) 2 None = Ok pf
     /\ pf_acc pf 0%nat 0%nat 0%nat - pf_acc pf 0%nat 1%nat 0%nat = 25 * (25 / 4)).
  { rewrite Eo. unfold potential_field_2d. cbn [o_base p_n_dims Nat.eqb negb ptp_init]. eexists. split; [reflexivity|].
    cbn -[pow ft_phase ft_call Rdiv]. unfold dmp_transformation_system, linspace, vec2, vzero. cbn -[pow ft_phase ft_call Rdiv]. field. }
  destruct Epf as (pf & E & Hd).
  assert (HR : not_at_rest pf 2).
  { destruct (Req_dec (pf_acc pf 0%nat 0%nat 0%nat) 0) as [Z0|Z0]; [|exists 0%nat, 0%nat, 0%nat; repeat split; auto].
    exists 0%nat, 1%nat, 0%nat. repeat split; auto. lra. }
  destruct (Main o (0, 1) (0, 1) 2%nat None pf 1 2 E HR ltac:(lra) ltac:(lra)) as (qs & qs' & E1 & E2 & F1).
  pose proof (Claim o (0, 1) (0, 1) 2%nat None pf 2 qs qs' Hr E HR ltac:(lra) E1 E2) as F2.
  destruct (C120_arrows_partial o (0, 1) (0, 1) 2%nat None 1 pf E HR ltac:(lra))
    as (g & r & y & b & EP & _ & _ & _ & (i & j & d & Hi & Hj & Hdd & EA)).
  rewrite E1 in EP. injection EP as ->.
  inversion F1 as [|? g' ? l1 _ G1]; subst. inversion G1 as [|? r' ? l2 _ G2]; subst.
  inversion G2 as [|? y' ? l3 _ G3]; subst. inversion G3 as [|? b' ? l4 Hb G4]; subst.
  inversion F2 as [|? ? ? ? _ K1]; subst. inversion K1 as [|? ? ? ? _ K2]; subst.
  inversion K2 as [|? ? ? ? _ K3]; subst. inversion K3 as [|? ? ? ? Hb' _]; subst.
  specialize (Hb i j d Hdd). specialize (Hb' i j d Hdd).
  assert (Z : arrow b i j d = 0) by lra. rewrite Z, Rabs_R0 in EA. simpl in EA. lra.
Qed.

(** A default DMP with two dimensions on a grid of two by two points. *)
Example C120_satisfiable : exists o pf qs, reachable 2 o /\ potential_field_2d o (0, 1) (0, 1) 2 None = Ok pf
  /\ not_at_rest pf 2 /\ plot_potential_field_2d o (0, 1) (0, 1) 2 None 25 = Ok qs.
Proof.
  destruct (ex_new_ok 2 25 (25/4)) as (f & o & E0 & _ & Eo).
  assert (Hr : reachable 2 o) by (eapply ex_reachable; eauto).
  assert (Epf : exists pf, potential_field_2d o (0, 1) (0, 1) 2 None = Ok pf
     /\ pf_acc pf 0%nat 0%nat 0%nat - pf_acc pf 0%nat 1%nat 0%nat = 25 * (25 / 4)).
  { rewrite Eo. unfold potential_field_2d. cbn [o_base p_n_dims Nat.eqb negb ptp_init]. eexists. split; [reflexivity|].
    cbn -[pow ft_phase ft_call Rdiv]. unfold dmp_transformation_system, linspace, vec2, vzero. cbn -[pow ft_phase ft_call Rdiv]. field. }
  destruct Epf as (pf & E & Hd).
  assert (HR : not_at_rest pf 2).
  { destruct (Req_dec (pf_acc pf 0%nat 0%nat 0%nat) 0) as [Z0|Z0]; [|exists 0%nat, 0%nat, 0%nat; repeat split; auto].
    exists 0%nat, 1%nat, 0%nat. repeat split; auto. lra. }
  destruct (C120_arrows_partial o (0, 1) (0, 1) 2%nat None 25 pf E HR ltac:(lra)) as (g & r & y & b & EP & _).
  exists o, pf, [g; r; y; b]. auto.
Qed.
