(** C57: the attributes that are stored determine the object.  Together with the
    round-trip theorems in Properties_IO.v: the object read back from a file is
    the object that was written. *)
From Coq Require Import Reals ZArith List String Arith Bool Lia Lra.
From Verif Require Import M_Prelude M_Canonical M_Forcing M_Dmp M_Base M_DmpObject M_FinalVelocity
  M_StateFollowing M_SpringDamper M_MinJerk M_Quaternion M_Cartesian M_Dual M_Matrix M_ProMP M_IO M_IOClasses
  S_IO P_IO P_DmpObject Properties_DmpObject Properties_IO.
Import ListNotations.
Set Bullet Behavior "Strict Subproofs".
Local Open Scope string_scope.
Local Open Scope R_scope.

(** ** Specification: the same object, field by field *)
Definition same_array_values (a b : arr) : Prop :=
  alen a = alen b /\ forall i, (i < alen a)%nat -> aget a i = aget b i.
Definition same_ptp (p q : ptp) : Prop :=
  p_n_dims p = p_n_dims q /\ p_n_vel_dims p = p_n_vel_dims q /\ p_t p = p_t q /\ p_last_t p = p_last_t q
  /\ same_array_values (p_start_y p) (p_start_y q) /\ same_array_values (p_start_yd p) (p_start_yd q)
  /\ same_array_values (p_start_ydd p) (p_start_ydd q)
  /\ same_array_values (p_goal_y p) (p_goal_y q) /\ same_array_values (p_goal_yd p) (p_goal_yd q)
  /\ same_array_values (p_goal_ydd p) (p_goal_ydd q)
  /\ same_array_values (p_current_y p) (p_current_y q) /\ same_array_values (p_current_yd p) (p_current_yd q).
Definition same_forcing (n : nat) (f g : forcing_term) : Prop :=
  ft_n f = ft_n g /\ ft_goal_t f = ft_goal_t g /\ ft_start_t f = ft_start_t g /\ ft_overlap f = ft_overlap g
  /\ ft_alpha_z f = ft_alpha_z g
  /\ (forall d k, (d < n)%nat -> (k < ft_n f)%nat -> ft_weights f d k = ft_weights g d k)
  /\ (forall k, (k < ft_n f)%nat -> ft_centers f k = ft_centers g k /\ ft_widths f k = ft_widths g k).
Definition same_dmp (n : nat) (o o' : dmp) : Prop :=
  same_ptp (o_base o) (o_base o') /\ o_initialized o = o_initialized o'
  /\ o_execution_time o = o_execution_time o' /\ o_dt o = o_dt o'
  /\ o_n_weights_per_dim o = o_n_weights_per_dim o' /\ o_int_dt o = o_int_dt o' /\ o_p_gain o = o_p_gain o'
  /\ o_smooth_scaling o = o_smooth_scaling o' /\ same_forcing n (o_forcing_term o) (o_forcing_term o')
  /\ same_array_values (o_alpha_y o) (o_alpha_y o') /\ same_array_values (o_beta_y o) (o_beta_y o').
Definition same_cart (o o' : cart) : Prop :=
  same_ptp (k_base o) (k_base o') /\ k_execution_time o = k_execution_time o' /\ k_dt o = k_dt o'
  /\ k_n o = k_n o' /\ k_int_dt o = k_int_dt o' /\ k_smooth o = k_smooth o'
  /\ same_forcing 3 (k_fpos o) (k_fpos o') /\ same_forcing 3 (k_frot o) (k_frot o')
  /\ same_array_values (k_alpha o) (k_alpha o') /\ same_array_values (k_beta o) (k_beta o').
Definition same_sf_forcing (n : nat) (f g : sf_forcing) : Prop :=
  sf_n f = sf_n g /\ sf_goal_t f = sf_goal_t g /\ sf_start_t f = sf_start_t g /\ sf_overlap f = sf_overlap g
  /\ sf_alpha_z f = sf_alpha_z g
  /\ (forall k d, (k < sf_n f)%nat -> (d < n)%nat -> sf_viapoints f k d = sf_viapoints g k d)
  /\ (forall k, (k < sf_n f)%nat -> sf_centers f k = sf_centers g k /\ sf_widths f k = sf_widths g k).
Definition same_sf (o o' : sf_dmp) : Prop :=
  same_ptp (f_base o) (f_base o') /\ f_execution_time o = f_execution_time o' /\ f_dt o = f_dt o'
  /\ f_int_dt o = f_int_dt o' /\ same_array_values (f_alpha_y o) (f_alpha_y o')
  /\ same_array_values (f_beta_y o) (f_beta_y o')
  /\ same_sf_forcing (p_n_dims (f_base o)) (f_forcing o) (f_forcing o').
Definition same_promp (o o' : promp) : Prop :=
  pm_n_dims o = pm_n_dims o' /\ pm_n_weights_per_dim o = pm_n_weights_per_dim o'
  /\ pm_n_weights o = pm_n_weights o'
  /\ (forall i, (i < pm_n_weights o)%nat -> pm_weight_mean o i = pm_weight_mean o' i)
  /\ (forall i j, (i < pm_n_weights o)%nat -> (j < pm_n_weights o)%nat -> pm_weight_cov o i j = pm_weight_cov o' i j)
  /\ (forall i, (i < pm_n_weights_per_dim o)%nat -> pm_centers o i = pm_centers o' i).
Definition same_sd (o o' : spring_damper) : Prop :=
  same_ptp (s_base o) (s_base o') /\ s_dt o = s_dt o' /\ s_k o = s_k o' /\ s_c o = s_c o'
  /\ s_int_dt o = s_int_dt o' /\ s_initialized o = s_initialized o'.
Definition same_mjt (o o' : mjt) : Prop :=
  same_ptp (j_base o) (j_base o') /\ j_execution_time o = j_execution_time o' /\ j_dt o = j_dt o'
  /\ j_step_idx o = j_step_idx o' /\ j_initialized o = j_initialized o'
  /\ match j_X o, j_X o' with
     | None, None => True
     | Some l, Some l' => List.length l = List.length l'
        /\ forall i d, (i < List.length l)%nat -> (d < p_n_dims (j_base o))%nat ->
             nth i (map (fun s => fst (fst s) d) l) 0 = nth i (map (fun s => fst (fst s) d) l') 0
             /\ nth i (map (fun s => snd (fst s) d) l) 0 = nth i (map (fun s => snd (fst s) d) l') 0
     | _, _ => False
     end.

(** ** Proofs *)
Lemma both_obj b m c d1 d2 v : same_value b (VObj m c d1) v -> same_value b (VObj m c d2) v ->
  forall k v1 v2, dget k d1 = Some v1 -> dget k d2 = Some v2 ->
  exists x, same_value false v1 x /\ same_value false v2 x.
Proof.
  intros H1 H2 k v1 v2 E1 E2.
  inversion H1 as [v' Hb| | | |m1 c1 d d' F1 _]; subst; [discriminate|].
  inversion H2 as [v' Hb| | | |m2 c2 d d'' F2 _]; subst; [discriminate|].
  destruct (F1 _ _ E1) as (x & Ex & Hx), (F2 _ _ E2) as (x' & Ex' & Hx').
  rewrite Ex in Ex'. injection Ex' as <-. eauto.
Qed.

Definition both (v1 v2 : value) : Prop := exists x, same_value false v1 x /\ same_value false v2 x.
Ltac both_inv H := destruct H as (x & H1 & H2); inversion H1; subst; inversion H2; subst; try discriminate.
Lemma both_nat a b : both (vnat a) (vnat b) -> a = b.
Proof. intros H. both_inv H. unfold vnat in *. apply Nat2Z.inj. congruence. Qed.
Lemma both_float a b : both (VFloat a) (VFloat b) -> a = b.
Proof. intros H. both_inv H. congruence. Qed.
Lemma both_npfloat a b : both (VNpFloat a) (VNpFloat b) -> a = b.
Proof. intros H. both_inv H; congruence. Qed.
Lemma both_mixed a b : both (VFloat a) (VNpFloat b) -> a = b.
Proof. intros H. both_inv H; congruence. Qed.
Lemma both_bool a b : both (VBool a) (VBool b) -> a = b.
Proof. intros H. both_inv H. congruence. Qed.
Lemma both_last a b : both (vlast a) (vlast b) -> a = b.
Proof.
  intros H. destruct a as [a|], b as [b|]; cbn in H.
  - now apply both_float in H as ->.
  - both_inv H.
  - both_inv H.
  - reflexivity.
Qed.
Lemma map_seq_inj (f g : nat -> num) n m : map f (seq 0 n) = map g (seq 0 m) -> n = m /\ forall i, (i < n)%nat -> f i = g i.
Proof.
  intros H. assert (E : n = m) by (apply (f_equal (@List.length num)) in H; now rewrite !map_length, !seq_length in H).
  subst m. split; [reflexivity|]. intros i Hi.
  assert (E := f_equal (fun l => nth i l (f i)) H). cbn in E. rewrite map_nth, seq_nth in E by auto. cbn in E.
  rewrite (nth_indep _ (f i) (g i)) in E by (rewrite map_length, seq_length; auto).
  now rewrite map_nth, seq_nth in E by auto.
Qed.
Lemma both_VArray a b : both (VArray a) (VArray b) -> a = b.
Proof. intros H. both_inv H. congruence. Qed.
Lemma both_arr n m a b : both (varr n a) (varr m b) -> n = m /\ forall i, (i < n)%nat -> a i = b i.
Proof.
  intros H. apply both_VArray in H. apply (f_equal nd_flat) in H. cbn [nd_flat] in H.
  apply map_seq_inj in H as [-> E]. split; [reflexivity|]. intros i Hi. specialize (E i Hi). now injection E.
Qed.
Lemma both_array a b : both (varr (alen a) (aget a)) (varr (alen b) (aget b)) -> same_array_values a b.
Proof. apply both_arr. Qed.
Lemma both_mat n m n' m' a b : both (vmat n m a) (vmat n' m' b) ->
  n = n' /\ m = m' /\ forall i j, (i < n)%nat -> (j < m)%nat -> a i j = b i j.
Proof.
  intros H. apply both_VArray in H. assert (E := f_equal nd_flat H). apply (f_equal nd_shape) in H.
  cbn [nd_flat nd_shape] in E, H. injection H as <- <-. split; [reflexivity|]. split; [reflexivity|]. intros i j Hi Hj.
  apply map_seq_inj in E as [_ E]. assert (E' := E (i * m + j)%nat ltac:(nia)). cbn beta in E'.
  replace ((i * m + j) / m)%nat with i in E' by (symmetry; rewrite Nat.div_add_l by lia; rewrite Nat.div_small by lia; lia).
  replace ((i * m + j) mod m)%nat with j in E' by (symmetry; rewrite Nat.add_comm, Nat.mod_add by lia; apply Nat.mod_small; lia).
  now injection E'.
Qed.
Lemma both_both m c d1 d2 : both (VObj m c d1) (VObj m c d2) ->
  forall k v1 v2, dget k d1 = Some v1 -> dget k d2 = Some v2 -> both v1 v2.
Proof. intros (x & H1 & H2). now apply (both_obj false m c d1 d2 x). Qed.

Lemma both_forcing n n' f g : both (forcing_term_object n f) (forcing_term_object n' g) -> n = n' /\ same_forcing n f g.
Proof.
  intros H. unfold forcing_term_object in H. assert (A := both_both _ _ _ _ H).
  assert (A1 := A "n_weights_per_dim" _ _ eq_refl eq_refl). apply both_nat in A1.
  assert (A2 := A "goal_t" _ _ eq_refl eq_refl). apply both_float in A2.
  assert (A3 := A "start_t" _ _ eq_refl eq_refl). apply both_float in A3.
  assert (A4 := A "overlap" _ _ eq_refl eq_refl). apply both_float in A4.
  assert (A5 := A "alpha_z" _ _ eq_refl eq_refl). apply both_float in A5.
  assert (A6 := A "weights_" _ _ eq_refl eq_refl). apply both_mat in A6. destruct A6 as (E & _ & A6).
  assert (A7 := A "centers" _ _ eq_refl eq_refl). apply both_arr in A7. destruct A7 as [_ A7].
  assert (A8 := A "widths" _ _ eq_refl eq_refl). apply both_arr in A8. destruct A8 as [_ A8].
  split; [exact E|]. repeat split; auto.
Qed.
Lemma both_sf_forcing n n' f g : both (sf_forcing_object n f) (sf_forcing_object n' g) -> same_sf_forcing n f g.
Proof.
  intros H. unfold sf_forcing_object in H. assert (A := both_both _ _ _ _ H).
  assert (A1 := A "n_viapoints" _ _ eq_refl eq_refl). apply both_nat in A1.
  assert (A2 := A "goal_t" _ _ eq_refl eq_refl). apply both_float in A2.
  assert (A3 := A "start_t" _ _ eq_refl eq_refl). apply both_float in A3.
  assert (A4 := A "overlap" _ _ eq_refl eq_refl). apply both_float in A4.
  assert (A5 := A "alpha_z" _ _ eq_refl eq_refl). apply both_float in A5.
  assert (A6 := A "viapoints" _ _ eq_refl eq_refl). apply both_mat in A6. destruct A6 as (_ & _ & A6).
  assert (A7 := A "centers" _ _ eq_refl eq_refl). apply both_arr in A7. destruct A7 as [_ A7].
  assert (A8 := A "widths" _ _ eq_refl eq_refl). apply both_arr in A8. destruct A8 as [_ A8].
  repeat split; auto.
Qed.

Lemma dget_app k d1 d2 : dget k (d1 ++ d2)%list = match dget k d1 with Some v => Some v | None => dget k d2 end.
Proof. induction d1 as [|[k' v] d1 IH]; cbn; [reflexivity|]. destruct (String.eqb k k'); auto. Qed.

Lemma both_ptp d1 d2 p q :
  (forall k v1 v2, dget k (ptp_attrs p ++ d1)%list = Some v1 -> dget k (ptp_attrs q ++ d2)%list = Some v2 -> both v1 v2) ->
  same_ptp p q.
Proof.
  intros A.
  assert (A1 := A "n_dims" _ _ eq_refl eq_refl). apply both_nat in A1.
  assert (A2 := A "n_vel_dims" _ _ eq_refl eq_refl). apply both_nat in A2.
  assert (A3 := A "t" _ _ eq_refl eq_refl). apply both_float in A3.
  assert (A4 := A "last_t" _ _ eq_refl eq_refl). apply both_last in A4.
  assert (B1 := A "start_y" _ _ eq_refl eq_refl). apply both_array in B1.
  assert (B2 := A "start_yd" _ _ eq_refl eq_refl). apply both_array in B2.
  assert (B3 := A "start_ydd" _ _ eq_refl eq_refl). apply both_array in B3.
  assert (B4 := A "goal_y" _ _ eq_refl eq_refl). apply both_array in B4.
  assert (B5 := A "goal_yd" _ _ eq_refl eq_refl). apply both_array in B5.
  assert (B6 := A "goal_ydd" _ _ eq_refl eq_refl). apply both_array in B6.
  assert (B7 := A "current_y" _ _ eq_refl eq_refl). apply both_array in B7.
  assert (B8 := A "current_yd" _ _ eq_refl eq_refl). apply both_array in B8.
  unfold same_ptp. repeat split; try assumption; try (now apply B1); try (now apply B2); try (now apply B3);
    try (now apply B4); try (now apply B5); try (now apply B6); try (now apply B7); try (now apply B8).
Qed.

(** ** C57 *)
(** A value that [same_value] relates to two DMPs (of the class DMP,
    DMPWithFinalVelocity or DualCartesianDMP) relates to one only. *)
Theorem C57_dmp_determined : forall m c tau tau' n n' o o' v,
  tau = VFloat \/ tau = VNpFloat -> tau' = VFloat \/ tau' = VNpFloat ->
  same_value true (VObj m c (dmp_attrs tau n o)) v ->
  same_value true (VObj m c (dmp_attrs tau' n' o')) v -> same_dmp n o o'.
Proof.
  intros m c tau tau' n n' o o' v Ht Ht' H1 H2. assert (A := both_obj _ _ _ _ _ _ H1 H2).
  unfold dmp_attrs in A. split; [now apply (both_ptp _ _ _ _ A)|].
  assert (A1 := A "initialized" _ _ eq_refl eq_refl). apply both_bool in A1.
  assert (A2 := A "_execution_time" _ _ eq_refl eq_refl).
  assert (E2 : o_execution_time o = o_execution_time o').
  { destruct Ht as [->| ->], Ht' as [->| ->].
    - now apply both_float.
    - now apply both_mixed.
    - symmetry. apply both_mixed. destruct A2 as (x & h1 & h2). now exists x.
    - now apply both_npfloat. }
  assert (A3 := A "dt_" _ _ eq_refl eq_refl). apply both_float in A3.
  assert (A4 := A "n_weights_per_dim" _ _ eq_refl eq_refl). apply both_nat in A4.
  assert (A5 := A "int_dt" _ _ eq_refl eq_refl). apply both_float in A5.
  assert (A6 := A "p_gain" _ _ eq_refl eq_refl). apply both_float in A6.
  assert (A7 := A "smooth_scaling" _ _ eq_refl eq_refl). apply both_bool in A7.
  assert (A8 := A "forcing_term" _ _ eq_refl eq_refl). apply both_forcing in A8. destruct A8 as [_ A8].
  assert (A9 := A "alpha_y" _ _ eq_refl eq_refl). apply both_array in A9.
  assert (A10 := A "beta_y" _ _ eq_refl eq_refl). apply both_array in A10.
  exact (conj A1 (conj E2 (conj A3 (conj A4 (conj A5 (conj A6 (conj A7 (conj A8 (conj A9 A10))))))))).
Qed.

Theorem C57_cartesian_determined : forall m c ini ini' o o' v,
  same_value true (VObj m c (cart_attrs ini o)) v ->
  same_value true (VObj m c (cart_attrs ini' o')) v -> ini = ini' /\ same_cart o o'.
Proof.
  intros m c ini ini' o o' v H1 H2. assert (A := both_obj _ _ _ _ _ _ H1 H2).
  unfold cart_attrs in A. assert (A0 := both_ptp _ _ _ _ A).
  assert (A1 := A "initialized" _ _ eq_refl eq_refl). apply both_bool in A1.
  assert (A2 := A "_execution_time" _ _ eq_refl eq_refl). apply both_float in A2.
  assert (A3 := A "dt_" _ _ eq_refl eq_refl). apply both_float in A3.
  assert (A4 := A "n_weights_per_dim" _ _ eq_refl eq_refl). apply both_nat in A4.
  assert (A5 := A "int_dt" _ _ eq_refl eq_refl). apply both_float in A5.
  assert (A6 := A "smooth_scaling" _ _ eq_refl eq_refl). apply both_bool in A6.
  assert (A7 := A "forcing_term_pos" _ _ eq_refl eq_refl). apply both_forcing in A7. destruct A7 as [_ A7].
  assert (A8 := A "forcing_term_rot" _ _ eq_refl eq_refl). apply both_forcing in A8. destruct A8 as [_ A8].
  assert (A9 := A "alpha_y" _ _ eq_refl eq_refl). apply both_array in A9.
  assert (A10 := A "beta_y" _ _ eq_refl eq_refl). apply both_array in A10.
  split; [exact A1|]. exact (conj A0 (conj A2 (conj A3 (conj A4 (conj A5 (conj A6 (conj A7 (conj A8 (conj A9 A10))))))))).
Qed.

Theorem C57_state_following_determined : forall m c ini ini' o o' v,
  same_value true (VObj m c (sf_attrs ini o)) v ->
  same_value true (VObj m c (sf_attrs ini' o')) v -> ini = ini' /\ same_sf o o'.
Proof.
  intros m c ini ini' o o' v H1 H2. assert (A := both_obj _ _ _ _ _ _ H1 H2).
  unfold sf_attrs in A. assert (A0 := both_ptp _ _ _ _ A).
  assert (A1 := A "initialized" _ _ eq_refl eq_refl). apply both_bool in A1.
  assert (A2 := A "execution_time" _ _ eq_refl eq_refl). apply both_float in A2.
  assert (A3 := A "dt_" _ _ eq_refl eq_refl). apply both_float in A3.
  assert (A5 := A "int_dt" _ _ eq_refl eq_refl). apply both_float in A5.
  assert (A7 := A "forcing_term" _ _ eq_refl eq_refl). apply both_sf_forcing in A7.
  assert (A9 := A "alpha_y" _ _ eq_refl eq_refl). apply both_array in A9.
  assert (A10 := A "beta_y" _ _ eq_refl eq_refl). apply both_array in A10.
  split; [exact A1|]. exact (conj A0 (conj A2 (conj A3 (conj A5 (conj A9 (conj A10 A7)))))).
Qed.

Theorem C57_promp_determined : forall m c w w' o o' v,
  same_value true (VObj m c (promp_attrs w o)) v ->
  same_value true (VObj m c (promp_attrs w' o')) v -> w = w' /\ same_promp o o'.
Proof.
  intros m c w w' o o' v H1 H2. assert (A := both_obj _ _ _ _ _ _ H1 H2).
  split.
  - destruct w as [x|], w' as [x'|].
    + assert (A0 := A "variance" _ _ eq_refl eq_refl). apply both_npfloat in A0. now subst.
    + exfalso. inversion H1 as [v' Hb| | | |m1 c1 d d' F1 _]; subst; [discriminate|].
      inversion H2 as [v' Hb| | | |m2 c2 d d'' _ F2]; subst; [discriminate|].
      destruct (F1 "variance" _ eq_refl) as (y & Ey & _). destruct (F2 _ _ Ey eq_refl) as [? _]. discriminate.
    + exfalso. inversion H1 as [v' Hb| | | |m1 c1 d d' _ F1]; subst; [discriminate|].
      inversion H2 as [v' Hb| | | |m2 c2 d d'' F2 _]; subst; [discriminate|].
      destruct (F2 "variance" _ eq_refl) as (y & Ey & _). destruct (F1 _ _ Ey eq_refl) as [? _]. discriminate.
    + reflexivity.
  - unfold promp_attrs in A.
    assert (A1 := A "n_dims" _ _ eq_refl eq_refl). apply both_nat in A1.
    assert (A2 := A "n_weights_per_dim" _ _ eq_refl eq_refl). apply both_nat in A2.
    assert (A3 := A "n_weights" _ _ eq_refl eq_refl). apply both_nat in A3.
    assert (A4 := A "weight_mean" _ _ eq_refl eq_refl). apply both_arr in A4. destruct A4 as [_ A4].
    assert (A5 := A "weight_cov" _ _ eq_refl eq_refl). apply both_mat in A5. destruct A5 as (_ & _ & A5).
    assert (A6 := A "centers" _ _ eq_refl eq_refl). apply both_arr in A6. destruct A6 as [_ A6].
    exact (conj A1 (conj A2 (conj A3 (conj A4 (conj A5 A6))))).
Qed.

Theorem C57_spring_damper_determined : forall m c o o' v,
  same_value true (VObj m c (sd_attrs (VFloat (s_k o)) (vlast (s_c o)) o)) v ->
  same_value true (VObj m c (sd_attrs (VFloat (s_k o')) (vlast (s_c o')) o')) v -> same_sd o o'.
Proof.
  intros m c o o' v H1 H2. assert (A := both_obj _ _ _ _ _ _ H1 H2).
  unfold sd_attrs in A. assert (A0 := both_ptp _ _ _ _ A).
  assert (A1 := A "dt" _ _ eq_refl eq_refl). apply both_float in A1.
  assert (A2 := A "k" _ _ eq_refl eq_refl). apply both_float in A2.
  assert (A3 := A "c" _ _ eq_refl eq_refl). apply both_last in A3.
  assert (A4 := A "int_dt" _ _ eq_refl eq_refl). apply both_float in A4.
  assert (A5 := A "initialized" _ _ eq_refl eq_refl). apply both_bool in A5.
  exact (conj A0 (conj A1 (conj A2 (conj A3 (conj A4 A5))))).
Qed.

Theorem C57_minimum_jerk_determined : forall m c o o' v,
  same_value true (VObj m c (mjt_attrs o)) v ->
  same_value true (VObj m c (mjt_attrs o')) v -> same_mjt o o'.
Proof.
  intros m c o o' v H1 H2. assert (A := both_obj _ _ _ _ _ _ H1 H2).
  unfold mjt_attrs in A. assert (A0 := both_ptp _ _ _ _ A).
  assert (A1 := A "execution_time" _ _ eq_refl eq_refl). apply both_float in A1.
  assert (A2 := A "dt" _ _ eq_refl eq_refl). apply both_float in A2.
  assert (A3 := A "step_idx" _ _ eq_refl eq_refl). apply both_nat in A3.
  assert (A4 := A "initialized" _ _ eq_refl eq_refl). apply both_bool in A4.
  assert (A5 := A "X" _ _ eq_refl eq_refl). assert (A6 := A "Xd" _ _ eq_refl eq_refl).
  split; [exact A0|]. split; [exact A1|]. split; [exact A2|]. split; [exact A3|]. split; [exact A4|].
  destruct (j_X o) as [l|], (j_X o') as [l'|].
  - apply both_mat in A5. destruct A5 as (L & _ & A5). apply both_mat in A6. destruct A6 as (_ & _ & A6).
    split; [exact L|]. intros i d Hi Hd. split; [now apply A5|now apply A6].
  - clear -A5. unfold vmat in A5. both_inv A5.
  - clear -A5. unfold vmat in A5. both_inv A5.
  - exact I.
Qed.

(** With the round trip: every object that the value read back represents is the
    object that was written. *)
Theorem C57_dmp_restored : forall f env junk n o tau, reachable n o -> (1 <= n)%nat ->
  tau = VFloat \/ f = JSON /\ tau = VNpFloat ->
  class_ok env "movement_primitives.dmp._dmp" "DMP" (class_DMP junk) ->
  let obj o := VObj "movement_primitives.dmp._dmp" "DMP" (dmp_attrs tau n o) in
  exists v, round_trip f env (obj o) = Ok v
  /\ forall o', same_value true (obj o') v -> same_dmp n o o'.
Proof.
  intros f env junk n o tau Hr Hn Ht Hc obj.
  destruct (C57_dmp f env junk n o tau Hr Hn Ht Hc) as (v & E & S).
  exists v. split; [exact E|]. intros o' S'.
  assert (T : tau = VFloat \/ tau = VNpFloat) by tauto.
  exact (C57_dmp_determined _ _ tau tau n n o o' v T T S S').
Qed.
Theorem C57_promp_restored : forall f env o variance,
  (1 <= pm_n_dims o)%nat -> (1 <= pm_n_weights_per_dim o)%nat ->
  pm_n_weights o = (pm_n_dims o * pm_n_weights_per_dim o)%nat ->
  f = JSON \/ variance = None ->
  class_ok env "movement_primitives.promp" "ProMP" class_ProMP ->
  let obj w o := VObj "movement_primitives.promp" "ProMP" (promp_attrs w o) in
  exists v, round_trip f env (obj variance o) = Ok v
  /\ forall w o', same_value true (obj w o') v -> variance = w /\ same_promp o o'.
Proof.
  intros f env o variance Hn Hw Hnw Hv Hc obj.
  destruct (C57_promp f env o variance Hn Hw Hnw Hv Hc) as (v & E & S).
  exists v. split; [exact E|]. intros w o' S'. exact (C57_promp_determined _ _ variance w o o' v S S').
Qed.
