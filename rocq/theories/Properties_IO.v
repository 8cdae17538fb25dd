(** C57: writing objects to JSON or YAML files and reading them back. *)
From Coq Require Import Reals ZArith List String Arith Bool Lia Lra.
From Verif Require Import M_Prelude M_Canonical M_Forcing M_Dmp M_Base M_DmpObject M_FinalVelocity
  M_StateFollowing M_SpringDamper M_MinJerk M_Quaternion M_Cartesian M_Dual M_Matrix M_ProMP M_IO M_IOClasses
  S_IO P_IO P_DmpObject P_DualObject Properties_DmpObject Properties_CartesianObject.
Import ListNotations.
Set Bullet Behavior "Strict Subproofs".
Local Open Scope string_scope.
Local Open Scope R_scope.

(** ** Any class, any nesting depth *)
(** For every class and object: if no attribute is called "module" or "class", the
    constructor can be called with the stored attributes that have the names of its
    arguments and sets those attributes to the same values, and every attribute is storable,
    then the object read back is the same.  [storable] (S_IO.v) recurses into attributes that
    are objects themselves. *)
Theorem C57_round_trip : forall f env m c d cd clazz d0,
  env m = Some cd -> cd c = Some clazz -> NoDup (c_args clazz) ->
  NoDup (map fst d) -> ~ In "module" (map fst d) -> ~ In "class" (map fst d) ->
  c_new clazz (stored_kwargs (c_args clazz) d) = Ok d0 ->
  (forall k, dget k d0 <> None -> dget k d <> None) ->
  (forall k v, In (k, v) d -> storable f (dget k d0) v) ->
  (forall k v, In (k, v) d -> In k (c_args clazz) ->
     exists v', dget k d0 = Some v' /\ same_value false v v') ->
  exists obj', round_trip f env (VObj m c d) = Ok obj' /\ same_value true (VObj m c d) obj'.
Proof. exact round_trip_ok. Qed.

(** ** Lemmas for the classes of the library *)
Fixpoint nodup_strings (l : list string) : bool :=
  match l with
  | [] => true
  | x :: l => negb (existsb (String.eqb x) l) && nodup_strings l
  end.
Lemma nodup_strings_ok l : nodup_strings l = true -> NoDup l.
Proof.
  induction l as [|x l IH]; cbn; [constructor|]. intros H. apply andb_prop in H. destruct H as [H1 H2].
  constructor; [|auto]. intros Hi. apply negb_true_iff in H1.
  assert (existsb (String.eqb x) l = true); [|congruence].
  apply existsb_exists. exists x. split; [exact Hi|apply String.eqb_refl].
Qed.

Lemma varr_plain n a : (1 <= n)%nat ->
  plain_array {| nd_shape := [n]; nd_flat := map (fun i => NFloat (a i)) (seq 0 n) |}.
Proof.
  intros Hn. split; [discriminate|]. split; [repeat constructor; auto|]. cbn.
  split; [rewrite map_length, seq_length; lia|]. left. apply Forall_forall. intros x Hx.
  apply in_map_iff in Hx. destruct Hx as (i & <- & _). reflexivity.
Qed.

Lemma vmat_plain n m w : (1 <= n)%nat -> (1 <= m)%nat ->
  plain_array {| nd_shape := [n; m];
                 nd_flat := map (fun i => NFloat (w (i / m)%nat (i mod m)%nat)) (seq 0 (n * m)) |}.
Proof.
  intros Hn Hm. split; [discriminate|]. split; [repeat constructor; auto|]. cbn.
  split; [rewrite map_length, seq_length; lia|]. left. apply Forall_forall. intros x Hx.
  apply in_map_iff in Hx. destruct Hx as (i & <- & _). reflexivity.
Qed.

Lemma ensure_written n a : (1 <= n)%nat ->
  exists nd b, asarray (written (varr n a)) = Ok nd /\ ensure_1d_array nd n = Ok b
  /\ alen b = n /\ forall i, (i < n)%nat -> aget b i = a i.
Proof.
  intros Hn.
  pose proof (np_array_tolist _ (varr_plain n a Hn)) as E. cbn [nd_shape nd_flat] in E.
  unfold asarray. change (written (varr n a)) with (tolist [n] (map (fun i => NFloat (a i)) (seq 0 n))).
  rewrite E. cbn [bind nd_shape nd_flat].
  assert (D : forall i, (i < n)%nat ->
    nth i (map real_of_num (map (fun i0 : nat => NFloat (a i0)) (seq 0 n))) 0 = a i).
  { intros i Hi. rewrite map_map. cbn [real_of_num].
    rewrite nth_indep with (d' := a 0%nat) by (rewrite map_length, seq_length; exact Hi).
    rewrite map_nth, seq_nth by exact Hi. reflexivity. }
  eexists. destruct (Nat.eq_dec n 1) as [->|H1].
  - eexists. split; [reflexivity|]. split; [reflexivity|]. split; [reflexivity|].
    intros i Hi. assert (i = 0%nat) by lia. subst. apply (D 0%nat). lia.
  - eexists. split; [reflexivity|]. unfold ensure_1d_array. cbn [shape data].
    destruct n as [|[|n]]; [lia|lia|]. rewrite Nat.eqb_refl. split; [reflexivity|].
    split; [reflexivity|]. intros i Hi. cbn [aget]. now apply D.
Qed.

Lemma varr_ext n a b : (forall i, (i < n)%nat -> a i = b i) -> varr n a = varr n b.
Proof.
  intros H. unfold varr. do 2 f_equal. apply map_ext_in. intros i Hi. apply in_seq in Hi.
  rewrite H by lia. reflexivity.
Qed.

Lemma nat_of_vnat n : nat_of (vnat n) = Ok n.
Proof. unfold nat_of, vnat. destruct (Z.ltb_spec (Z.of_nat n) 0); [lia|]. now rewrite Nat2Z.id. Qed.

Lemma storable_vnat f fresh n : storable f fresh (vnat n).
Proof. apply storable_basic; [reflexivity|discriminate]. Qed.
Lemma storable_float f fresh x : storable f fresh (VFloat x).
Proof. apply storable_basic; [reflexivity|discriminate]. Qed.
Lemma storable_bool f fresh b : storable f fresh (VBool b).
Proof. apply storable_basic; [reflexivity|discriminate]. Qed.
Lemma storable_vlast f fresh x : storable f fresh (vlast x).
Proof. destruct x; apply storable_basic; try reflexivity; discriminate. Qed.
Lemma storable_varr f m b n a : (1 <= n)%nat -> storable f (Some (varr m b)) (varr n a).
Proof. intros. apply storable_array. now apply varr_plain. Qed.
Lemma storable_vmat f m m' b n n' a : (1 <= n)%nat -> (1 <= n')%nat ->
  storable f (Some (vmat m m' b)) (vmat n n' a).
Proof. intros. apply storable_array. now apply vmat_plain. Qed.

Lemma same_varr n a : same_value false (varr n a) (varr n a).
Proof. apply same_array. Qed.

Ltac in_cases Hi :=
  repeat (destruct Hi as [Hi|Hi]; [injection Hi as <- <-|]); [..|destruct Hi].

Lemma storable_forcing_term f n0 f0 n ft : (1 <= n)%nat -> (1 <= ft_n ft)%nat ->
  storable f (Some (forcing_term_object n0 f0)) (forcing_term_object n ft).
Proof.
  intros Hn Hf. unfold forcing_term_object. apply storable_object.
  - apply nodup_strings_ok. reflexivity.
  - cbn. intuition discriminate.
  - cbn. intuition discriminate.
  - intros k. rewrite !dget_in. cbn [map fst]. auto.
  - intros k v Hi. in_cases Hi; cbn [dget String.eqb Ascii.eqb Bool.eqb];
      first [apply storable_vnat | apply storable_float | now apply storable_varr | now apply storable_vmat].
Qed.

(** ** DMP *)
Definition class_ok (env : modules) (m c : string) (k : pyclass) : Prop :=
  exists cd, env m = Some cd /\ cd c = Some k.

(** Every DMP that a program can construct and use, in both formats; the execution time may
    be a numpy float in JSON. *)
Theorem C57_dmp : forall f env junk n o tau, reachable n o -> (1 <= n)%nat ->
  tau = VFloat \/ f = JSON /\ tau = VNpFloat ->
  class_ok env "movement_primitives.dmp._dmp" "DMP" (class_DMP junk) ->
  let obj := VObj "movement_primitives.dmp._dmp" "DMP" (dmp_attrs tau n o) in
  exists obj', round_trip f env obj = Ok obj' /\ same_value true obj obj'.
Proof.
  intros f env junk n o tau Hr Hn Htau (cd & Em & Ec) obj.
  destruct (reachable_shapes n o Hr) as [(S0 & S1 & S2 & S3 & S4 & S5 & S6 & S7 & S8 & S9 & S10 & S11 & S12) Hd].
  rewrite Hd in *.
  destruct (ensure_written n (aget (o_alpha_y o)) Hn) as (nda & ba & Ea & Ea' & La & Ga).
  destruct (ensure_written n (aget (o_beta_y o)) Hn) as (ndb & bb & Eb & Eb' & Lb & Gb).
  destruct (init_forcing_term_accepts junk (o_n_weights_per_dim o) 1) as [f0 Ef]; [exact S12|lra|].
  unfold obj. eapply C57_round_trip.
  - exact Em.
  - exact Ec.
  - apply nodup_strings_ok. reflexivity.
  - apply nodup_strings_ok. reflexivity.
  - cbn. intuition discriminate.
  - cbn. intuition discriminate.
  - unfold dmp_attrs, ptp_attrs. rewrite S9, S10.
    cbn [c_new class_DMP c_args stored_kwargs flat_map dget app String.eqb Ascii.eqb Bool.eqb].
    cbn [arg dget String.eqb Ascii.eqb Bool.eqb written].
    unfold arg. cbn [dget String.eqb Ascii.eqb Bool.eqb].
    change (written (vnat (p_n_dims (o_base o)))) with (vnat (p_n_dims (o_base o))).
    change (written (vnat (o_n_weights_per_dim o))) with (vnat (o_n_weights_per_dim o)).
    rewrite !nat_of_vnat, Ea, Eb. cbn [bind real_of bool_of written].
    rewrite Hd. unfold dmp_new. rewrite Ef. cbn [bind]. rewrite Ea'. cbn [bind]. rewrite Eb'. cbn [bind].
    reflexivity.
  - intros k. rewrite !dget_in. cbn [map fst dmp_attrs ptp_attrs app]. auto.
  - intros k v Hi. unfold dmp_attrs, ptp_attrs in Hi |- *. cbn [app] in Hi.
    in_cases Hi; cbn [dget String.eqb Ascii.eqb Bool.eqb app];
      try first [apply storable_vnat | apply storable_float | apply storable_bool | apply storable_vlast
            | apply storable_varr; lia | apply storable_forcing_term; lia].
    destruct Htau as [->|[-> ->]]; [apply storable_float|]. apply storable_basic; [reflexivity|discriminate].
  - intros k v Hi Hk. unfold dmp_attrs, ptp_attrs in Hi |- *. cbn [app] in Hi.
    in_cases Hi; cbn [c_args class_DMP] in Hk;
      try (exfalso; cbn in Hk; repeat (destruct Hk as [Hk|Hk]; [discriminate|]); exact Hk);
      cbn [dget String.eqb Ascii.eqb Bool.eqb app o_base p_n_dims ptp_init o_n_weights_per_dim o_int_dt o_p_gain
           o_smooth_scaling o_alpha_y o_beta_y].
    + rewrite Hd. eexists. split; [reflexivity|]. apply same_basic. reflexivity.
    + eexists. split; [reflexivity|]. apply same_basic. reflexivity.
    + eexists. split; [reflexivity|]. apply same_basic. reflexivity.
    + eexists. split; [reflexivity|]. apply same_basic. reflexivity.
    + eexists. split; [reflexivity|]. apply same_basic. reflexivity.
    + rewrite S9, La, (varr_ext n (aget (o_alpha_y o)) (aget ba)) by (intros; symmetry; auto).
      eexists. split; [reflexivity|]. apply same_varr.
    + rewrite S10, Lb, (varr_ext n (aget (o_beta_y o)) (aget bb)) by (intros; symmetry; auto).
      eexists. split; [reflexivity|]. apply same_varr.
Qed.

(** ** The other movement primitives *)
(** DMPs with final velocity: a history of calls keeps the lengths of the arrays
    ([shapes_ok]); the attribute [smooth_scaling] is always false. *)
Theorem C57_final_velocity : forall f env junk n o, shapes_ok o -> p_n_dims (o_base o) = n -> (1 <= n)%nat ->
  o_smooth_scaling o = false ->
  class_ok env "movement_primitives.dmp._dmp_with_final_velocity" "DMPWithFinalVelocity" (class_DMPWithFinalVelocity junk) ->
  let obj := VObj "movement_primitives.dmp._dmp_with_final_velocity" "DMPWithFinalVelocity" (dmp_attrs VFloat n o) in
  exists obj', round_trip f env obj = Ok obj' /\ same_value true obj obj'.
Proof.
  intros f env junk n o Hs Hd Hn Hsm (cd & Em & Ec) obj.
  destruct Hs as (S0 & S1 & S2 & S3 & S4 & S5 & S6 & S7 & S8 & S9 & S10 & S11 & S12).
  rewrite Hd in *.
  destruct (ensure_written n (aget (o_alpha_y o)) Hn) as (nda & ba & Ea & Ea' & La & Ga).
  destruct (ensure_written n (aget (o_beta_y o)) Hn) as (ndb & bb & Eb & Eb' & Lb & Gb).
  destruct (init_forcing_term_accepts junk (o_n_weights_per_dim o) 1) as [f0 Ef]; [exact S12|lra|].
  unfold obj. eapply C57_round_trip.
  - exact Em.
  - exact Ec.
  - apply nodup_strings_ok. reflexivity.
  - apply nodup_strings_ok. reflexivity.
  - cbn. intuition discriminate.
  - cbn. intuition discriminate.
  - unfold dmp_attrs, ptp_attrs. rewrite S9, S10.
    cbn [c_new class_DMPWithFinalVelocity c_args stored_kwargs flat_map dget app String.eqb Ascii.eqb Bool.eqb].
    unfold arg. cbn [dget String.eqb Ascii.eqb Bool.eqb].
    change (written (vnat (p_n_dims (o_base o)))) with (vnat (p_n_dims (o_base o))).
    change (written (vnat (o_n_weights_per_dim o))) with (vnat (o_n_weights_per_dim o)).
    rewrite !nat_of_vnat, Ea, Eb. cbn [bind real_of bool_of written].
    rewrite Hd. unfold fv_new, dmp_new. rewrite Ef. cbn [bind]. rewrite Ea'. cbn [bind]. rewrite Eb'. cbn [bind].
    reflexivity.
  - intros k. rewrite !dget_in. cbn [map fst dmp_attrs ptp_attrs app]. auto.
  - intros k v Hi. unfold dmp_attrs, ptp_attrs in Hi |- *. cbn [app] in Hi.
    in_cases Hi; cbn [dget String.eqb Ascii.eqb Bool.eqb app];
      first [apply storable_vnat | apply storable_float | apply storable_bool | apply storable_vlast
            | apply storable_varr; lia | apply storable_forcing_term; lia].
  - intros k v Hi Hk. unfold dmp_attrs, ptp_attrs in Hi |- *. cbn [app] in Hi.
    in_cases Hi; cbn [c_args class_DMPWithFinalVelocity] in Hk;
      try (exfalso; cbn in Hk; repeat (destruct Hk as [Hk|Hk]; [discriminate|]); exact Hk);
      cbn [dget String.eqb Ascii.eqb Bool.eqb app o_base p_n_dims ptp_init o_n_weights_per_dim o_int_dt o_p_gain
           o_smooth_scaling o_alpha_y o_beta_y].
    + rewrite Hd. eexists. split; [reflexivity|]. apply same_basic. reflexivity.
    + eexists. split; [reflexivity|]. apply same_basic. reflexivity.
    + eexists. split; [reflexivity|]. apply same_basic. reflexivity.
    + eexists. split; [reflexivity|]. apply same_basic. reflexivity.
    + rewrite S9, La, (varr_ext n (aget (o_alpha_y o)) (aget ba)) by (intros; symmetry; auto).
      eexists. split; [reflexivity|]. apply same_varr.
    + rewrite S10, Lb, (varr_ext n (aget (o_beta_y o)) (aget bb)) by (intros; symmetry; auto).
      eexists. split; [reflexivity|]. apply same_varr.
Qed.

(** The lengths of the arrays of objects with [n] positions and [m] velocities. *)
Definition ptp_shapes (n m : nat) (p : ptp) : Prop :=
  p_n_dims p = n /\ p_n_vel_dims p = m
  /\ alen (p_start_y p) = n /\ alen (p_start_yd p) = m /\ alen (p_start_ydd p) = m
  /\ alen (p_goal_y p) = n /\ alen (p_goal_yd p) = m /\ alen (p_goal_ydd p) = m
  /\ alen (p_current_y p) = n /\ alen (p_current_yd p) = m.

Theorem C57_dual_cartesian : forall f env junk o, dual_reachable o ->
  class_ok env "movement_primitives.dmp._dual_cartesian_dmp" "DualCartesianDMP" (class_DualCartesianDMP junk) ->
  let obj := VObj "movement_primitives.dmp._dual_cartesian_dmp" "DualCartesianDMP" (dmp_attrs VFloat 12 o) in
  exists obj', round_trip f env obj = Ok obj' /\ same_value true obj obj'.
Proof.
  intros f env junk o Hr (cd & Em & Ec) obj.
  destruct (dual_reachable_shapes o Hr) as (S0 & S0' & S1 & S2 & S3 & S4 & S5 & S6 & S7 & S8 & S9 & S10 & S11 & S12).
  destruct (ensure_written 12 (aget (o_alpha_y o)) ltac:(lia)) as (nda & ba & Ea & Ea' & La & Ga).
  destruct (ensure_written 12 (aget (o_beta_y o)) ltac:(lia)) as (ndb & bb & Eb & Eb' & Lb & Gb).
  destruct (init_forcing_term_accepts junk (o_n_weights_per_dim o) 1) as [f0 Ef]; [exact S12|lra|].
  unfold obj. eapply C57_round_trip.
  - exact Em.
  - exact Ec.
  - apply nodup_strings_ok. reflexivity.
  - apply nodup_strings_ok. reflexivity.
  - cbn. intuition discriminate.
  - cbn. intuition discriminate.
  - unfold dmp_attrs, ptp_attrs. rewrite S9, S10.
    cbn [c_new class_DualCartesianDMP c_args stored_kwargs flat_map dget app String.eqb Ascii.eqb Bool.eqb].
    unfold arg. cbn [dget String.eqb Ascii.eqb Bool.eqb].
    change (written (vnat (o_n_weights_per_dim o))) with (vnat (o_n_weights_per_dim o)).
    rewrite !nat_of_vnat, Ea, Eb. cbn [bind real_of bool_of written].
    unfold dual_new. rewrite Ef. cbn [bind]. rewrite Ea'. cbn [bind]. rewrite Eb'. cbn [bind].
    reflexivity.
  - intros k. rewrite !dget_in. cbn [map fst dmp_attrs ptp_attrs app]. auto.
  - intros k v Hi. unfold dmp_attrs, ptp_attrs in Hi |- *. cbn [app] in Hi.
    in_cases Hi; cbn [dget String.eqb Ascii.eqb Bool.eqb app];
      first [apply storable_vnat | apply storable_float | apply storable_bool | apply storable_vlast
            | apply storable_varr; lia | apply storable_forcing_term; lia].
  - intros k v Hi Hk. unfold dmp_attrs, ptp_attrs in Hi |- *. cbn [app] in Hi.
    in_cases Hi; cbn [c_args class_DualCartesianDMP] in Hk;
      try (exfalso; cbn in Hk; repeat (destruct Hk as [Hk|Hk]; [discriminate|]); exact Hk);
      cbn [dget String.eqb Ascii.eqb Bool.eqb app o_base p_n_dims ptp_init o_n_weights_per_dim o_int_dt o_p_gain
           o_smooth_scaling o_alpha_y o_beta_y].
    + eexists. split; [reflexivity|]. apply same_basic. reflexivity.
    + eexists. split; [reflexivity|]. apply same_basic. reflexivity.
    + eexists. split; [reflexivity|]. apply same_basic. reflexivity.
    + eexists. split; [reflexivity|]. apply same_basic. reflexivity.
    + rewrite S9, La, (varr_ext 12 (aget (o_alpha_y o)) (aget ba)) by (intros; symmetry; auto).
      eexists. split; [reflexivity|]. apply same_varr.
    + rewrite S10, Lb, (varr_ext 12 (aget (o_beta_y o)) (aget bb)) by (intros; symmetry; auto).
      eexists. split; [reflexivity|]. apply same_varr.
Qed.

Lemma cart_reachable_n o : cart_reachable o -> ft_n (k_fpos o) = k_n o /\ ft_n (k_frot o) = k_n o.
Proof.
  intros H. induction H.
  - unfold cart_new in H.
    destruct (init_forcing_term jp n x) as [fp|] eqn:E1; [|discriminate]. cbn [bind] in H.
    destruct (init_forcing_term jr n x) as [fr|] eqn:E2; [|discriminate]. cbn [bind] in H.
    destruct (ensure_1d_array al 6) as [a|]; [|discriminate]. cbn [bind] in H.
    destruct (ensure_1d_array be 6) as [b|]; [|discriminate]. cbn [bind] in H.
    injection H as <-. cbn.
    apply init_forcing_term_inv in E1. destruct E1 as (_ & _ & E1). apply forcing_term_init_n in E1.
    apply init_forcing_term_inv in E2. destruct E2 as (_ & _ & E2). apply forcing_term_init_n in E2. split; [apply E1|apply E2].
  - unfold cart_configure. destruct (configure c (k_base o)) as [p [e|]]; exact IHcart_reachable.
  - exact IHcart_reachable.
  - unfold cart_step. destruct (negb _); [exact IHcart_reachable|]. destruct (negb _); [exact IHcart_reachable|].
    cbv zeta. destruct (assign_slice _ _); [|exact IHcart_reachable].
    destruct (assign_slice _ _); [|exact IHcart_reachable].
    destruct (run_step_function _ _ _ _ _) as [[? ?]|]; [|exact IHcart_reachable].
    destruct (q_step _ _ _ _ _) as [[? ?]|]; exact IHcart_reachable.
  - unfold cart_imitate. destruct (negb _); [exact IHcart_reachable|].
    destruct (dmp_imitate _ _ _ _ _ _ _ _ _ _ _ _) as [[[w ?] ?]|]; [|exact IHcart_reachable].
    cbv zeta. destruct (dmp_quaternion_imitation _ _ _ _ _ _ _ _ _ _ _ _ _); [|exact IHcart_reachable].
    unfold cart_configure. destruct (configure _ _) as [p [e|]]; exact IHcart_reachable.
  - unfold cart_set_weights. destruct (assign_rows _ _); [|exact IHcart_reachable].
    cbv zeta. destruct (assign_rows _ _); exact IHcart_reachable.
  - unfold cart_set_execution_time. cbv zeta.
    destruct (init_forcing_term jp _ _) eqn:E1; [|exact IHcart_reachable].
    destruct (init_forcing_term jr _ _) eqn:E2;
    apply init_forcing_term_inv in E1; destruct E1 as (_ & _ & E1); apply forcing_term_init_n in E1.
    + apply init_forcing_term_inv in E2; destruct E2 as (_ & _ & E2); apply forcing_term_init_n in E2. cbn. split; [apply E1|apply E2].
    + cbn. intuition.
Qed.

Theorem C57_cartesian : forall f env jp jr o ini, cart_reachable o ->
  class_ok env "movement_primitives.dmp._cartesian_dmp" "CartesianDMP" (class_CartesianDMP jp jr) ->
  let obj := VObj "movement_primitives.dmp._cartesian_dmp" "CartesianDMP" (cart_attrs ini o) in
  exists obj', round_trip f env obj = Ok obj' /\ same_value true obj obj'.
Proof.
  intros f env jp jr o ini Hr (cd & Em & Ec) obj.
  destruct (C23_cartesian_shapes o Hr) as (S0 & S0' & S1 & S2 & S3 & S4 & S5 & S6 & S7 & S8 & S9 & S10 & S12).
  destruct (cart_reachable_n o Hr) as [S11 S11'].
  destruct (ensure_written 6 (aget (k_alpha o)) ltac:(lia)) as (nda & ba & Ea & Ea' & La & Ga).
  destruct (ensure_written 6 (aget (k_beta o)) ltac:(lia)) as (ndb & bb & Eb & Eb' & Lb & Gb).
  destruct (init_forcing_term_accepts jp (k_n o) 1) as [f0 Ef]; [exact S12|lra|].
  destruct (init_forcing_term_accepts jr (k_n o) 1) as [f1 Ef1]; [exact S12|lra|].
  unfold obj. eapply C57_round_trip.
  - exact Em.
  - exact Ec.
  - apply nodup_strings_ok. reflexivity.
  - apply nodup_strings_ok. reflexivity.
  - cbn. intuition discriminate.
  - cbn. intuition discriminate.
  - unfold cart_attrs, ptp_attrs. rewrite S9, S10.
    cbn [c_new class_CartesianDMP c_args stored_kwargs flat_map dget app String.eqb Ascii.eqb Bool.eqb].
    unfold arg. cbn [dget String.eqb Ascii.eqb Bool.eqb].
    change (written (vnat (k_n o))) with (vnat (k_n o)).
    rewrite !nat_of_vnat, Ea, Eb. cbn [bind real_of bool_of written].
    unfold cart_new. rewrite Ef. cbn [bind]. rewrite Ef1. cbn [bind]. rewrite Ea'. cbn [bind]. rewrite Eb'. cbn [bind].
    reflexivity.
  - intros k. rewrite !dget_in. cbn [map fst cart_attrs ptp_attrs app]. auto.
  - intros k v Hi. unfold cart_attrs, ptp_attrs in Hi |- *. cbn [app] in Hi.
    in_cases Hi; cbn [dget String.eqb Ascii.eqb Bool.eqb app];
      first [apply storable_vnat | apply storable_float | apply storable_bool | apply storable_vlast
            | apply storable_varr; lia | apply storable_forcing_term; lia].
  - intros k v Hi Hk. unfold cart_attrs, ptp_attrs in Hi |- *. cbn [app] in Hi.
    in_cases Hi; cbn [c_args class_CartesianDMP] in Hk;
      try (exfalso; cbn in Hk; repeat (destruct Hk as [Hk|Hk]; [discriminate|]); exact Hk);
      cbn [dget String.eqb Ascii.eqb Bool.eqb app k_base p_n_dims ptp_init k_n k_int_dt
           k_smooth k_alpha k_beta].
    + eexists. split; [reflexivity|]. apply same_basic. reflexivity.
    + eexists. split; [reflexivity|]. apply same_basic. reflexivity.
    + eexists. split; [reflexivity|]. apply same_basic. reflexivity.
    + rewrite S9, La, (varr_ext 6 (aget (k_alpha o)) (aget ba)) by (intros; symmetry; auto).
      eexists. split; [reflexivity|]. apply same_varr.
    + rewrite S10, Lb, (varr_ext 6 (aget (k_beta o)) (aget bb)) by (intros; symmetry; auto).
      eexists. split; [reflexivity|]. apply same_varr.
Qed.

Lemma storable_sf_forcing f n0 f0 n ft : (1 <= n)%nat -> (1 <= sf_n ft)%nat ->
  storable f (Some (sf_forcing_object n0 f0)) (sf_forcing_object n ft).
Proof.
  intros Hn Hf. unfold sf_forcing_object. apply storable_object.
  - apply nodup_strings_ok. reflexivity.
  - cbn. intuition discriminate.
  - cbn. intuition discriminate.
  - intros k. rewrite !dget_in. cbn [map fst]. auto.
  - intros k v Hi. in_cases Hi; cbn [dget String.eqb Ascii.eqb Bool.eqb];
      first [apply storable_vnat | apply storable_float | now apply storable_varr | now apply storable_vmat].
Qed.

Theorem C57_state_following : forall f env junk n o ini, ptp_shapes n n (f_base o) -> (1 <= n)%nat ->
  alen (f_alpha_y o) = n -> alen (f_beta_y o) = n -> (1 <= sf_n (f_forcing o))%nat -> 0 < f_execution_time o ->
  class_ok env "movement_primitives.dmp._state_following_dmp" "StateFollowingDMP" (class_StateFollowingDMP junk) ->
  let obj := VObj "movement_primitives.dmp._state_following_dmp" "StateFollowingDMP" (sf_attrs ini o) in
  exists obj', round_trip f env obj = Ok obj' /\ same_value true obj obj'.
Proof.
  intros f env junk n o ini (S0 & S0' & S1 & S2 & S3 & S4 & S5 & S6 & S7 & S8) Hn S9 S10 S11 Htau (cd & Em & Ec) obj.
  destruct (ensure_written n (aget (f_alpha_y o)) Hn) as (nda & ba & Ea & Ea' & La & Ga).
  destruct (ensure_written n (aget (f_beta_y o)) Hn) as (ndb & bb & Eb & Eb' & Lb & Gb).
  assert (Ecs : canonical_system_alpha (1 / 100) (f_execution_time o) 0 = Ok (- ln (1 / 100))).
  { unfold canonical_system_alpha. destruct (Rle_dec (1/100) 0); [lra|].
    destruct (Rle_dec (f_execution_time o) 0); [lra|reflexivity]. }
  assert (exists f0, sf_forcing_init (fst junk) (snd junk) (sf_n (f_forcing o)) (f_execution_time o) 0 (1/10) (- ln (1/100)) = Ok f0
                     /\ sf_n f0 = sf_n (f_forcing o)) as (f0 & Ef & Ef').
  { unfold sf_forcing_init. destruct (Nat.leb_spec (sf_n (f_forcing o)) 0); [lia|].
    destruct (Rle_dec (f_execution_time o) 0); [lra|]. destruct (Rle_dec (1/10) 0); [lra|].
    destruct (sf_init_rbfs _ _ _ _ _ _ _). eexists. split; reflexivity. }
  unfold obj. eapply C57_round_trip.
  - exact Em.
  - exact Ec.
  - apply nodup_strings_ok. reflexivity.
  - apply nodup_strings_ok. reflexivity.
  - cbn. intuition discriminate.
  - cbn. intuition discriminate.
  - unfold sf_attrs, ptp_attrs. rewrite S9, S10.
    cbn [c_new class_StateFollowingDMP c_args stored_kwargs flat_map dget app String.eqb Ascii.eqb Bool.eqb].
    unfold arg. cbn [dget String.eqb Ascii.eqb Bool.eqb].
    change (written (vnat (p_n_dims (f_base o)))) with (vnat (p_n_dims (f_base o))).
    change (written (vnat (sf_n (f_forcing o)))) with (vnat (sf_n (f_forcing o))).
    rewrite !nat_of_vnat, Ea, Eb. cbn [bind real_of bool_of written].
    unfold sf_new. rewrite Ecs. cbn [bind]. rewrite S0, Ea'. cbn [bind]. rewrite Eb'. cbn [bind]. rewrite Ef. cbn [bind].
    reflexivity.
  - intros k. rewrite !dget_in. cbn [map fst sf_attrs ptp_attrs app]. auto.
  - intros k v Hi. unfold sf_attrs, ptp_attrs in Hi |- *. cbn [app] in Hi.
    in_cases Hi; cbn [dget String.eqb Ascii.eqb Bool.eqb app];
      first [apply storable_vnat | apply storable_float | apply storable_bool | apply storable_vlast
            | apply storable_varr; lia | apply storable_sf_forcing; lia].
  - intros k v Hi Hk. unfold sf_attrs, ptp_attrs in Hi |- *. cbn [app] in Hi.
    in_cases Hi; cbn [c_args class_StateFollowingDMP] in Hk;
      try (exfalso; cbn in Hk; repeat (destruct Hk as [Hk|Hk]; [discriminate|]); exact Hk);
      cbn [dget String.eqb Ascii.eqb Bool.eqb app f_base p_n_dims ptp_init f_forcing f_int_dt
           f_execution_time f_alpha_y f_beta_y].
    + rewrite S0. eexists. split; [reflexivity|]. apply same_basic. reflexivity.
    + eexists. split; [reflexivity|]. apply same_basic. reflexivity.
    + rewrite Ef'. eexists. split; [reflexivity|]. apply same_basic. reflexivity.
    + eexists. split; [reflexivity|]. apply same_basic. reflexivity.
    + rewrite S9, La, (varr_ext n (aget (f_alpha_y o)) (aget ba)) by (intros; symmetry; auto).
      eexists. split; [reflexivity|]. apply same_varr.
    + rewrite S10, Lb, (varr_ext n (aget (f_beta_y o)) (aget bb)) by (intros; symmetry; auto).
      eexists. split; [reflexivity|]. apply same_varr.
Qed.

(** ProMPs: always in JSON, in YAML before [imitate]. *)
Theorem C57_promp : forall f env o variance,
  (1 <= pm_n_dims o)%nat -> (1 <= pm_n_weights_per_dim o)%nat ->
  pm_n_weights o = (pm_n_dims o * pm_n_weights_per_dim o)%nat ->
  f = JSON \/ variance = None ->
  class_ok env "movement_primitives.promp" "ProMP" class_ProMP ->
  let obj := VObj "movement_primitives.promp" "ProMP" (promp_attrs variance o) in
  exists obj', round_trip f env obj = Ok obj' /\ same_value true obj obj'.
Proof.
  intros f env o variance Hn Hw Hnw Hv (cd & Em & Ec) obj.
  assert (1 <= pm_n_weights o)%nat by nia.
  unfold obj. eapply C57_round_trip.
  - exact Em.
  - exact Ec.
  - apply nodup_strings_ok. reflexivity.
  - destruct variance; apply nodup_strings_ok; reflexivity.
  - destruct variance; cbn; intuition discriminate.
  - destruct variance; cbn; intuition discriminate.
  - unfold promp_attrs.
    replace (stored_kwargs (c_args class_ProMP) _)
      with [("n_dims", vnat (pm_n_dims o)); ("n_weights_per_dim", vnat (pm_n_weights_per_dim o))]
      by (destruct variance; reflexivity).
    cbn [c_new class_ProMP]. unfold arg. cbn [dget String.eqb Ascii.eqb Bool.eqb].
    rewrite !nat_of_vnat. cbn [bind]. reflexivity.
  - intros k. rewrite !dget_in. destruct variance; cbn; intuition.
  - intros k v Hi. unfold promp_attrs in Hi |- *. apply in_app_or in Hi. destruct Hi as [Hi|Hi].
    + in_cases Hi; cbn [dget String.eqb Ascii.eqb Bool.eqb app];
        first [apply storable_vnat | apply storable_varr; assumption | apply storable_vmat; assumption].
    + destruct variance as [x|]; [|destruct Hi]. in_cases Hi. apply storable_basic; [reflexivity|].
      destruct Hv as [->|Hv]; discriminate.
  - intros k v Hi Hk. unfold promp_attrs in Hi |- *. apply in_app_or in Hi. destruct Hi as [Hi|Hi].
    + in_cases Hi; cbn [c_args class_ProMP] in Hk;
      try (exfalso; cbn in Hk; repeat (destruct Hk as [Hk|Hk]; [discriminate|]); exact Hk);
      cbn [dget String.eqb Ascii.eqb Bool.eqb app promp_new pm_n_dims pm_n_weights_per_dim];
      (eexists; split; [reflexivity|]; apply same_basic; reflexivity).
    + destruct variance as [x|]; [|destruct Hi]. in_cases Hi. exfalso. cbn in Hk. intuition discriminate.
Qed.

(** Spring-dampers with scalar stiffness and damping. *)
Theorem C57_spring_damper : forall f env n o, ptp_shapes n n (s_base o) -> (1 <= n)%nat ->
  class_ok env "movement_primitives.spring_damper" "SpringDamper" class_SpringDamper ->
  let obj := VObj "movement_primitives.spring_damper" "SpringDamper" (sd_attrs (VFloat (s_k o)) (vlast (s_c o)) o) in
  exists obj', round_trip f env obj = Ok obj' /\ same_value true obj obj'.
Proof.
  intros f env n o (S0 & S0' & S1 & S2 & S3 & S4 & S5 & S6 & S7 & S8) Hn (cd & Em & Ec) obj.
  unfold obj. eapply C57_round_trip.
  - exact Em.
  - exact Ec.
  - apply nodup_strings_ok. reflexivity.
  - apply nodup_strings_ok. reflexivity.
  - cbn. intuition discriminate.
  - cbn. intuition discriminate.
  - unfold sd_attrs, ptp_attrs.
    cbn [c_new class_SpringDamper c_args stored_kwargs flat_map dget app String.eqb Ascii.eqb Bool.eqb].
    unfold arg. cbn [dget String.eqb Ascii.eqb Bool.eqb].
    change (written (vnat (p_n_dims (s_base o)))) with (vnat (p_n_dims (s_base o))).
    replace (written (vlast (s_c o))) with (vlast (s_c o)) by (destruct (s_c o); reflexivity).
    rewrite !nat_of_vnat. cbn [bind real_of any_value written]. reflexivity.
  - intros k. rewrite !dget_in. cbn [map fst sd_attrs ptp_attrs app]. auto.
  - intros k v Hi. unfold sd_attrs, ptp_attrs in Hi |- *. cbn [app] in Hi.
    in_cases Hi; cbn [dget String.eqb Ascii.eqb Bool.eqb app];
      first [apply storable_vnat | apply storable_float | apply storable_bool | apply storable_vlast
            | apply storable_varr; lia].
  - intros k v Hi Hk. unfold sd_attrs, ptp_attrs in Hi |- *. cbn [app] in Hi.
    in_cases Hi; cbn [c_args class_SpringDamper] in Hk;
      try (exfalso; cbn in Hk; repeat (destruct Hk as [Hk|Hk]; [discriminate|]); exact Hk);
      cbn [dget String.eqb Ascii.eqb Bool.eqb app s_base p_n_dims ptp_init s_dt s_int_dt sd_new];
      (eexists; split; [reflexivity|]; apply same_basic; try reflexivity; destruct (s_c o); reflexivity).
Qed.

(** Minimum jerk trajectories before the first step. *)
Theorem C57_minimum_jerk : forall f env n o, ptp_shapes n n (j_base o) -> (1 <= n)%nat -> j_X o = None ->
  class_ok env "movement_primitives.minimum_jerk_trajectory" "MinimumJerkTrajectory" class_MinimumJerkTrajectory ->
  let obj := VObj "movement_primitives.minimum_jerk_trajectory" "MinimumJerkTrajectory" (mjt_attrs o) in
  exists obj', round_trip f env obj = Ok obj' /\ same_value true obj obj'.
Proof.
  intros f env n o (S0 & S0' & S1 & S2 & S3 & S4 & S5 & S6 & S7 & S8) Hn HX (cd & Em & Ec) obj.
  unfold obj. eapply C57_round_trip.
  - exact Em.
  - exact Ec.
  - apply nodup_strings_ok. reflexivity.
  - apply nodup_strings_ok. reflexivity.
  - cbn. intuition discriminate.
  - cbn. intuition discriminate.
  - unfold mjt_attrs, ptp_attrs. rewrite HX.
    cbn [c_new class_MinimumJerkTrajectory c_args stored_kwargs flat_map dget app String.eqb Ascii.eqb Bool.eqb].
    unfold arg. cbn [dget String.eqb Ascii.eqb Bool.eqb].
    change (written (vnat (p_n_dims (j_base o)))) with (vnat (p_n_dims (j_base o))).
    rewrite !nat_of_vnat. cbn [bind real_of written]. reflexivity.
  - intros k. rewrite !dget_in. cbn [map fst mjt_attrs ptp_attrs app]. auto.
  - intros k v Hi. unfold mjt_attrs, ptp_attrs in Hi |- *. rewrite HX in Hi. cbn [app] in Hi.
    in_cases Hi; cbn [dget String.eqb Ascii.eqb Bool.eqb app];
      first [apply storable_vnat | apply storable_float | apply storable_bool | apply storable_vlast
            | apply storable_varr; lia | apply storable_basic; [reflexivity|discriminate]].
  - intros k v Hi Hk. unfold mjt_attrs, ptp_attrs in Hi |- *. rewrite HX in Hi. cbn [app] in Hi.
    in_cases Hi; cbn [c_args class_MinimumJerkTrajectory] in Hk;
      try (exfalso; cbn in Hk; repeat (destruct Hk as [Hk|Hk]; [discriminate|]); exact Hk);
      cbn [dget String.eqb Ascii.eqb Bool.eqb app j_base p_n_dims ptp_init j_dt j_execution_time mjt_new];
      (eexists; split; [reflexivity|]; apply same_basic; reflexivity).
Qed.

(** ** What is lost *)
Lemma to_dict_loop_get b : forall l r r' k, to_dict_loop b l r = Ok r' -> ~ In k (map fst l) ->
  dget k r' = dget k r.
Proof.
  induction l as [|[k' v'] l IH]; intros r r' k E Hk; cbn [to_dict_loop] in E.
  - injection E as <-. reflexivity.
  - destruct (export_attr b v') as [e|]; [|discriminate]. cbn [bind] in E. cbn in Hk.
    rewrite (IH _ _ _ E) by intuition. rewrite dget_dset.
    destruct (String.eqb_spec k k') as [->|]; [intuition|reflexivity].
Qed.
Lemma to_dict_loop_attr b : forall l r r' k v, to_dict_loop b l r = Ok r' -> NoDup (map fst l) -> In (k, v) l ->
  exists e, export_attr b v = Ok e /\ dget k r' = Some e.
Proof.
  induction l as [|[k' v'] l IH]; intros r r' k v E Hn Hi; [destruct Hi|]. cbn [to_dict_loop] in E.
  destruct (export_attr b v') as [e|] eqn:Ee; [|discriminate]. cbn [bind] in E.
  inversion Hn as [|x l' Hx Hl]; subst.
  destruct Hi as [Hi|Hi].
  - injection Hi as <- <-. exists e. split; [exact Ee|]. rewrite (to_dict_loop_get _ _ _ _ _ E) by exact Hx.
    rewrite dget_dset. now rewrite String.eqb_refl.
  - eapply IH; eauto.
Qed.

Lemma yaml_dict_fails d k v e : In (k, v) d -> yaml_file v = Err e -> exists e', yaml_file (VDict d) = Err e'.
Proof.
  intros Hi Hv. cbn [yaml_file].
  match goal with |- exists _, rmap VDict ?x = _ => assert (E : exists e', x = Err e') end;
    [|destruct E as [e' ->]; now exists e'].
  induction d as [|[k' v'] d IH]; [destruct Hi|]. destruct Hi as [Hi|Hi].
  - injection Hi as -> ->. rewrite Hv. now exists e.
  - destruct (IH Hi) as [e' E]. rewrite E. destruct (yaml_file v'); cbn [bind]; eauto.
Qed.

(** A numpy scalar among the attributes: the YAML file can be written, but reading it always
    fails, whatever the class is. *)
Theorem C57_yaml_numpy_refuted : forall env m c d k x, NoDup (map fst d) -> In (k, VNpFloat x) d ->
  exists e, yaml_round_trip env (VObj m c d) = Err e.
Proof.
  intros env m c d k x Hn Hi. unfold yaml_round_trip. rewrite to_dict_unfold.
  destruct (to_dict_loop true d _) as [r|e] eqn:E; [|exists e; reflexivity]. cbn [bind].
  destruct (to_dict_loop_attr _ _ _ _ _ _ E Hn Hi) as (e & Ee & Hg). cbn in Ee. injection Ee as <-.
  apply dget_some_in in Hg.
  destruct (yaml_dict_fails r k (VNpFloat x) ValueError Hg eq_refl) as [e ->]. exists e. reflexivity.
Qed.

(** So no ProMP can be stored in YAML after [imitate], and no DMP with
    [execution_time=T[-1]]. *)
Corollary C57_yaml_promp_refuted : forall env o variance,
  exists e, round_trip YAML env (VObj "movement_primitives.promp" "ProMP" (promp_attrs (Some variance) o)) = Err e.
Proof.
  intros. eapply C57_yaml_numpy_refuted with (k := "variance") (x := variance).
  - apply nodup_strings_ok. reflexivity.
  - unfold promp_attrs. apply in_or_app. right. now left.
Qed.
Corollary C57_yaml_execution_time_refuted : forall env n o,
  exists e, round_trip YAML env (VObj "movement_primitives.dmp._dmp" "DMP" (dmp_attrs VNpFloat n o)) = Err e.
Proof.
  intros. eapply C57_yaml_numpy_refuted with (k := "_execution_time").
  - apply nodup_strings_ok. reflexivity.
  - unfold dmp_attrs. apply in_or_app. right. right. left. reflexivity.
Qed.

(** Tuples: at the top level they come back as lists (YAML and JSON), one level below the
    YAML file cannot be read any more, because [_recursive_to_dict] does not pass
    [convert_tuple] to the recursive call. *)
Theorem C57_yaml_nested_tuple_refuted : forall env m c d k m' c' d' k' l,
  NoDup (map fst d) -> NoDup (map fst d') -> In (k, VObj m' c' d') d -> In (k', VTuple l) d' ->
  exists e, yaml_round_trip env (VObj m c d) = Err e.
Proof.
  intros env m c d k m' c' d' k' l Hn Hn' Hi Hi'. unfold yaml_round_trip. rewrite to_dict_unfold.
  destruct (to_dict_loop true d _) as [r|e] eqn:E; [|exists e; reflexivity]. cbn [bind].
  destruct (to_dict_loop_attr _ _ _ _ _ _ E Hn Hi) as (e & Ee & Hg).
  cbn [export_attr] in Ee. rewrite to_dict_unfold in Ee.
  destruct (to_dict_loop false d' _) as [r'|] eqn:E'; [|discriminate]. cbn [rmap] in Ee. injection Ee as <-.
  destruct (to_dict_loop_attr _ _ _ _ _ _ E' Hn' Hi') as (e & Ee & Hg'). cbn in Ee. injection Ee as <-.
  apply dget_some_in in Hg. apply dget_some_in in Hg'.
  destruct (yaml_dict_fails r' k' (VTuple l) ValueError Hg' eq_refl) as [e Hr'].
  destruct (yaml_dict_fails r k (VDict r') e Hg Hr') as [e' ->]. exists e'. reflexivity.
Qed.

(** A forcing term cannot be stored on its own: the number of dimensions, which the
    constructor needs, is not among its attributes. *)
Theorem C57_forcing_term_refuted : forall f env junk n ft,
  class_ok env "movement_primitives.dmp._forcing_term" "ForcingTerm" (class_ForcingTerm junk) ->
  round_trip f env (forcing_term_object n ft) = Err TypeError.
Proof.
  intros f env junk n ft (cd & Em & Ec). unfold forcing_term_object.
  set (d := [("n_weights_per_dim", vnat (ft_n ft)); _; _; _; _; _; _; _; _; _]).
  assert (Hd : forall k v, In (k, v) d -> forall b, export_attr b v = Ok (exported v) /\ file f (exported v) = Ok (exported v)).
  { intros k v Hi b. unfold d in Hi.
    in_cases Hi; (split; [reflexivity|]);
      first [apply (file_tolist f) | destruct f; reflexivity]. }
  assert (E : forall b, recursive_to_dict (VObj "movement_primitives.dmp._forcing_term" "ForcingTerm" d) b
    = Ok (map (fun kv => (fst kv, exported (snd kv)))
            (("module", VStr "movement_primitives.dmp._forcing_term") :: ("class", VStr "ForcingTerm") :: d))).
  { intros b. rewrite to_dict_unfold, to_dict_loop_ok; [reflexivity| | |].
    - intros k v Hi. apply (Hd k v Hi).
    - apply nodup_strings_ok. reflexivity.
    - cbn. intuition (subst; discriminate). }
  assert (Ef : file f (VDict (map (fun kv => (fst kv, exported (snd kv)))
            (("module", VStr "movement_primitives.dmp._forcing_term") :: ("class", VStr "ForcingTerm") :: d)))
    = Ok (VDict (map (fun kv => (fst kv, exported (snd kv)))
            (("module", VStr "movement_primitives.dmp._forcing_term") :: ("class", VStr "ForcingTerm") :: d)))).
  { apply file_dict. intros k v [Hi|[Hi|Hi]].
    - injection Hi as <- <-. now destruct f.
    - injection Hi as <- <-. now destruct f.
    - apply (Hd k v Hi true). }
  destruct f; cbn [round_trip]; unfold json_round_trip, yaml_round_trip; rewrite E; cbn [bind];
    cbn [file] in Ef; rewrite Ef; cbn [bind]; unfold dict_to_object;
    cbn [map fst snd exported dget dremove String.eqb Ascii.eqb Bool.eqb]; rewrite Em, Ec; reflexivity.
Qed.

(** The stiffness of a spring-damper as an array comes back as a list: for every stiffness
    vector of at least one entry the attribute [k] has another type. *)
Definition ex_modules (m c : string) (k : pyclass) : modules :=
  fun m' => if String.eqb m' m then Some (fun c' => if String.eqb c' c then Some k else None) else None.
Lemma ex_class_ok m c k : class_ok (ex_modules m c k) m c k.
Proof. unfold class_ok, ex_modules. rewrite String.eqb_refl. eexists. split; [reflexivity|]. cbv beta. rewrite String.eqb_refl. reflexivity. Qed.

Theorem C57_stiffness_array_refuted : forall f k0 dt int_dt,
  let env := ex_modules "movement_primitives.spring_damper" "SpringDamper" class_SpringDamper in
  let obj := VObj "movement_primitives.spring_damper" "SpringDamper"
               (sd_attrs (varr 1 (fun _ => k0)) VNone (sd_new 1 dt 0 None int_dt)) in
  exists obj', round_trip f env obj = Ok obj' /\ ~ same_value true obj obj'.
Proof.
  intros f k0 dt int_dt env obj.
  assert (exists d', round_trip f env obj = Ok (VObj "movement_primitives.spring_damper" "SpringDamper" d')
                     /\ dget "k" d' = Some (VList [VFloat k0])) as (d' & E & Ek).
  { destruct f; eexists; (split; [reflexivity|reflexivity]). }
  exists (VObj "movement_primitives.spring_damper" "SpringDamper" d'). split; [exact E|]. intros H. inversion H as [| | | |m c d d1 H1 H2]; subst.
  - discriminate.
  - destruct (H1 "k" (varr 1 (fun _ => k0)) eq_refl) as (v' & Ev & Hv). rewrite Ek in Ev. injection Ev as <-.
    inversion Hv; discriminate.
Qed.

(** After a step of a minimum jerk trajectory its samples come back as lists. *)
Theorem C57_minimum_jerk_refuted : forall f s0 s1 execution_time dt,
  let env := ex_modules "movement_primitives.minimum_jerk_trajectory" "MinimumJerkTrajectory" class_MinimumJerkTrajectory in
  let o := {| j_base := ptp_init 1 1; j_X := Some [s0; s1]; j_execution_time := execution_time; j_dt := dt;
              j_step_idx := 1; j_initialized := true |} in
  let obj := VObj "movement_primitives.minimum_jerk_trajectory" "MinimumJerkTrajectory" (mjt_attrs o) in
  exists obj', round_trip f env obj = Ok obj' /\ ~ same_value true obj obj'.
Proof.
  intros f s0 s1 x dt env o obj.
  assert (exists d' l, round_trip f env obj = Ok (VObj "movement_primitives.minimum_jerk_trajectory" "MinimumJerkTrajectory" d')
                     /\ dget "X" d' = Some (VList l)) as (d' & l & E & Ek).
  { destruct f; eexists; eexists; (split; [reflexivity|reflexivity]). }
  eexists. split; [exact E|]. intros H. inversion H as [| | | |m c d d1 H1 H2]; subst.
  - discriminate.
  - destruct (H1 "X" _ eq_refl) as (v' & Ev & Hv). rewrite Ek in Ev. injection Ev as <-.
    inversion Hv; discriminate.
Qed.

(** ** Examples *)
Example C57_satisfiable : exists o, reachable 1 o
  /\ class_ok (ex_modules "movement_primitives.dmp._dmp" "DMP" (class_DMP (vzero, vzero)))
       "movement_primitives.dmp._dmp" "DMP" (class_DMP (vzero, vzero)).
Proof.
  destruct (ex_new_ok 1 25 (25/4)) as (f & o & E & _). exists o. split; [eapply ex_reachable; eauto|apply ex_class_ok].
Qed.
Example C57_promp_satisfiable :
  let o := promp_new 2 5 in (1 <= pm_n_dims o)%nat /\ (1 <= pm_n_weights_per_dim o)%nat
  /\ pm_n_weights o = (pm_n_dims o * pm_n_weights_per_dim o)%nat.
Proof. cbn. repeat split; lia. Qed.
Example C57_spring_damper_satisfiable : ptp_shapes 3 3 (s_base (sd_new 3 (1/100) 1 None (1/1000)))
  /\ ptp_shapes 3 3 (j_base (mjt_new 3 1 (1/100))).
Proof. cbn. repeat split; reflexivity. Qed.
