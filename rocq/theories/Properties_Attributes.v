(** C103: constructors keep what they are given, calls change only their own
    attributes.  Final statements. *)
From Coq Require Import Reals List Arith Bool Lia Lra.
From Verif Require Import M_Prelude M_Canonical M_Forcing M_Dmp M_Base M_DmpObject M_FinalVelocity
  M_SpringDamper M_Quaternion M_Cartesian M_Dual M_StateFollowing M_MinJerk S_Attributes
  P_DmpObject P_DualObject Properties_DmpObject Properties_CartesianObject Properties_DualObject
  Properties_DmpState Properties_FinalVelocityObject.
Import ListNotations.
Open Scope R_scope.
Set Bullet Behavior "Strict Subproofs".

(** ** Calls *)

Lemma same_base_refl a p : same_in_base a p p.
Proof. destruct a; cbn; auto. Qed.
Lemma same_ft_refl a f : same_in_forcing_term a f f.
Proof. destruct a; cbn; auto 10. Qed.
Lemma same_dmp_refl a o : same_in_dmp a o o.
Proof. split; [apply same_base_refl|]. split; [apply same_ft_refl|]. destruct a; auto. Qed.

Lemma same_base_trans a p q r : same_in_base a p q -> same_in_base a q r -> same_in_base a p r.
Proof. destruct a; cbn; intuition congruence. Qed.
Lemma same_ft_trans a f g h :
  same_in_forcing_term a f g -> same_in_forcing_term a g h -> same_in_forcing_term a f h.
Proof. destruct a; cbn; intuition congruence. Qed.
Lemma same_dmp_trans a o o' o'' : same_in_dmp a o o' -> same_in_dmp a o' o'' -> same_in_dmp a o o''.
Proof.
  intros (A1 & A2 & A3) (B1 & B2 & B3).
  split; [eapply same_base_trans; eauto|]. split; [eapply same_ft_trans; eauto|].
  destruct a; intuition congruence.
Qed.
Lemma same_cart_refl a o : same_in_cart a o o.
Proof. split; [apply same_base_refl|]. split; [apply same_ft_refl|]. split; [apply same_ft_refl|]. destruct a; auto. Qed.
Lemma same_cart_trans a o o' o'' : same_in_cart a o o' -> same_in_cart a o' o'' -> same_in_cart a o o''.
Proof.
  intros (A1 & A2 & A3 & A4) (B1 & B2 & B3 & B4).
  split; [eapply same_base_trans; eauto|]. split; [eapply same_ft_trans; eauto|].
  split; [eapply same_ft_trans; eauto|]. destruct a; intuition congruence.
Qed.

Ltac not_in H := exfalso; apply H; cbn; tauto.

Lemma configure_same a c p : ~ In a (changes Configure) -> same_in_base a p (fst (configure c p)).
Proof.
  intros H. destruct (configure_cases c p) as [[_ ->] | [_ (k & _ & _ & _ & ->)]];
    destruct a; cbn; auto; not_in H.
Qed.

Lemma reset_same a p : ~ In a (changes Reset) -> same_in_base a p (ptp_reset p).
Proof. intros H. destruct a; cbn; auto; not_in H. Qed.

Lemma dmp_configure_same a c o : ~ In a (changes Configure) -> same_in_dmp a o (fst (dmp_configure c o)).
Proof.
  intros H. pose proof (configure_same a c (o_base o) H) as Hb.
  unfold dmp_configure. destruct (configure c (o_base o)) as [p e]. cbn in *.
  split; [exact Hb|]. cbn. split; [apply same_ft_refl|]. destruct a; auto.
Qed.

Lemma dmp_reset_same a o : ~ In a (changes Reset) -> same_in_dmp a o (dmp_reset o).
Proof.
  intros H. split; [apply reset_same; auto|]. split; [apply same_ft_refl|]. destruct a; cbn; auto.
Qed.

(** Writing weights, and [step]s that change the clock and the current state. *)
Lemma weights_same a w o : a <> Weights ->
  same_in_dmp a o (with_forcing_term (set_ft_weights w (o_forcing_term o)) o).
Proof.
  intros H. split; [apply same_base_refl|]. split; [|destruct a; cbn; auto].
  destruct a; cbn; auto 10. congruence.
Qed.

Lemma advance_same a t lt y yd ini o : ~ In a (changes Step) ->
  same_in_dmp a o (with_initialized ini (with_base (set_current y yd (set_t t (set_last_t lt (o_base o)))) o)).
Proof.
  intros H. split; [destruct a; cbn; auto; not_in H|]. split; [apply same_ft_refl|].
  destruct a; cbn; auto; not_in H.
Qed.

Lemma set_time_same a j x o : ft_n (o_forcing_term o) = o_n_weights_per_dim o ->
  ~ In a (changes SetExecutionTime) -> same_in_dmp a o (fst (dmp_set_execution_time j x o)).
Proof.
  intros Hn H. unfold dmp_set_execution_time. cbn [o_n_weights_per_dim with_execution_time o_forcing_term].
  destruct (init_forcing_term j (o_n_weights_per_dim o) x) as [f|e] eqn:E; cbn.
  - apply init_forcing_term_inv in E. destruct E as (_ & _ & E). apply forcing_term_init_n in E.
    destruct E as (E & _).
    split; [apply same_base_refl|]. split; [destruct a; cbn; auto; try not_in H; congruence|].
    destruct a; cbn; auto; not_in H.
  - split; [apply same_base_refl|]. split; [apply same_ft_refl|]. destruct a; cbn; auto; not_in H.
Qed.

Lemma dmp_step_same a y yd c fn o : ~ In a (changes Step) -> same_in_dmp a o (fst (dmp_step y yd c fn o)).
Proof.
  intros H. unfold dmp_step. destruct fn as [fn|]; [|apply same_dmp_refl].
  destruct (negb _); [apply same_dmp_refl|]. destruct (negb _); [apply same_dmp_refl|].
  cbv zeta. destruct o as [p ini x dt nw idt pg sm f al be].
  destruct ini; cbn [o_initialized with_base with_initialized o_base];
  destruct (run_step_function _ _ _ _ _) as [[y' yd']|e]; cbn;
  (split; [destruct a; cbn; auto; not_in H|]; split; [apply same_ft_refl|];
   destruct a; cbn; auto; not_in H).
Qed.

Lemma fv_step_same a y yd c o : ~ In a (changes Step) -> same_in_dmp a o (fst (fv_step y yd c o)).
Proof.
  intros H. unfold fv_step.
  cbv zeta. destruct o as [p ini x dt nw idt pg sm f al be].
  destruct ini; cbn [o_initialized with_base with_initialized o_base];
  destruct (dmp_step_euler_with_constraints _ _ _ _) as [[y' yd']|e]; cbn;
  (split; [destruct a; cbn; auto; not_in H|]; split; [apply same_ft_refl|];
   destruct a; cbn; auto; not_in H).
Qed.

Lemma imitate_cases a : ~ In a (changes Imitate) -> a <> Weights /\ ~ In a (changes Configure) \/ a = Clock.
Proof.
  intros H. destruct a; try (not_in H); try (right; reflexivity); left;
    (split; [discriminate|]; cbn; intuition discriminate).
Qed.

Lemma configure_clock s sd sdd g gd gdd p :
  p_t (fst (configure {| c_t := None; c_start_y := s; c_start_yd := sd; c_start_ydd := sdd;
     c_goal_y := g; c_goal_yd := gd; c_goal_ydd := gdd |} p)) = p_t p.
Proof.
  destruct (configure_cases {| c_t := None; c_start_y := s; c_start_yd := sd; c_start_ydd := sdd;
     c_goal_y := g; c_goal_yd := gd; c_goal_ydd := gdd |} p) as [[_ ->] | [_ (k & _ & _ & _ & ->)]]; cbn; auto.
Qed.

Lemma imitate_configure_same a w s sd sdd g gd gdd o : ~ In a (changes Imitate) ->
  same_in_dmp a o
    (fst (dmp_configure {| c_t := None; c_start_y := s; c_start_yd := sd; c_start_ydd := sdd;
            c_goal_y := g; c_goal_yd := gd; c_goal_ydd := gdd |}
       (with_forcing_term (set_ft_weights w (o_forcing_term o)) o))).
Proof.
  intros H. destruct (imitate_cases a H) as [[H1 H2] | ->].
  - eapply same_dmp_trans; [apply weights_same; auto|]. apply dmp_configure_same; auto.
  - pose proof (configure_clock s sd sdd g gd gdd (o_base o)) as C.
    unfold dmp_configure. cbn [with_forcing_term o_base].
    destruct (configure _ (o_base o)) as [p e]. cbn in *. split; auto. cbn. auto.
Qed.

Lemma dmp_imitate_same a j reg dm lam al o : ~ In a (changes Imitate) ->
  same_in_dmp a o (fst (dmp_imitate_method j reg dm lam al o)).
Proof.
  intros H. unfold dmp_imitate_method.
  destruct (dmp_imitate _ _ _ _ _ _ _ _ _ _ _ _) as [[[w s] g]|e]; [|apply same_dmp_refl].
  destruct (negb _); [apply same_dmp_refl|]. now apply imitate_configure_same.
Qed.

Lemma fv_imitate_same a j reg dm lam o : ~ In a (changes Imitate) ->
  same_in_dmp a o (fst (fv_imitate j reg dm lam o)).
Proof.
  intros H. unfold fv_imitate.
  destruct (fv_dmp_imitate _ _ _ _ _ _ _ _ _ _) as [[[w [[s sd] sdd]] [[g gd] gdd]]|e]; [|apply same_dmp_refl].
  destruct (negb _); [apply same_dmp_refl|]. cbv zeta. now apply imitate_configure_same.
Qed.

Lemma set_weights_same a w o : ~ In a (changes SetWeights) -> same_in_dmp a o (fst (dmp_set_weights w o)).
Proof.
  intros H. unfold dmp_set_weights. destruct (reshape _ _ _); [|apply same_dmp_refl].
  apply weights_same. intros ->. not_in H.
Qed.

(** Every call on a DMP, also one that raises an exception, changes only the
    attributes of the table. *)
Theorem C103_dmp : forall n o c a, reachable n o ->
  ~ In a (changes (kind c)) -> same_in_dmp a o (fst (exec c o)).
Proof.
  intros n o c a Hr H. apply reachable_shapes in Hr. destruct Hr as [Hs _].
  assert (Hn : ft_n (o_forcing_term o) = o_n_weights_per_dim o) by (unfold shapes_ok in Hs; tauto).
  destruct c; cbn [kind] in H; unfold exec.
  - pose proof (dmp_configure_same a c o H) as P. destruct (dmp_configure c o). exact P.
  - cbn. now apply dmp_reset_same.
  - pose proof (dmp_step_same a last_y last_yd c fn o H) as P. destruct (dmp_step _ _ _ _ _). exact P.
  - apply same_dmp_refl.
  - pose proof (dmp_imitate_same a junk regress dm lam allow o H) as P.
    destruct (dmp_imitate_method _ _ _ _ _ _). exact P.
  - apply same_dmp_refl.
  - pose proof (set_weights_same a w o H) as P. destruct (dmp_set_weights _ _). exact P.
  - pose proof (set_time_same a junk x o Hn H) as P. destruct (dmp_set_execution_time _ _ _). exact P.
  - cbn. split; [apply same_base_refl|]. split; [apply same_ft_refl|]. destruct a; cbn; auto; not_in H.
  - cbn. split; [apply same_base_refl|]. split; [apply same_ft_refl|]. destruct a; cbn; auto; not_in H.
Qed.

(** The same for DMPWithFinalVelocity. *)
Theorem C103_final_velocity : forall n o c a, fv_reachable n o ->
  ~ In a (changes (fv_kind c)) -> same_in_dmp a o (fst (fv_exec c o)).
Proof.
  intros n o c a Hr H. apply fv_reachable_ok in Hr. destruct Hr as [Hs _].
  assert (Hn : ft_n (o_forcing_term o) = o_n_weights_per_dim o) by (unfold shapes_ok in Hs; tauto).
  destruct c; cbn [fv_kind] in H; unfold fv_exec, exec.
  - pose proof (dmp_configure_same a c o H) as P. destruct (dmp_configure c o). exact P.
  - cbn. now apply dmp_reset_same.
  - pose proof (fv_step_same a last_y last_yd c o H) as P. destruct (fv_step _ _ _ _). exact P.
  - apply same_dmp_refl.
  - pose proof (fv_imitate_same a junk regress dm lam o H) as P.
    destruct (fv_imitate _ _ _ _ _). exact P.
  - apply same_dmp_refl.
  - pose proof (set_weights_same a w o H) as P. destruct (dmp_set_weights _ _). exact P.
  - pose proof (set_time_same a junk x o Hn H) as P. destruct (dmp_set_execution_time _ _ _). exact P.
  - cbn. split; [apply same_base_refl|]. split; [apply same_ft_refl|]. destruct a; cbn; auto; not_in H.
  - cbn. split; [apply same_base_refl|]. split; [apply same_ft_refl|]. destruct a; cbn; auto; not_in H.
Qed.

(** DualCartesianDMP; its [open_loop] changes what [step] changes. *)
Lemma dual_step_same {CS} a y yd ct i (cs : CS) o : ~ In a (changes Step) ->
  same_in_dmp a o (fst (fst (dual_step y yd ct i cs o))).
Proof.
  intros H. unfold dual_step.
  destruct (negb _); [apply same_dmp_refl|]. destruct (negb _); [apply same_dmp_refl|].
  cbv zeta. destruct o as [p ini x dt nw idt pg sm f al be].
  destruct ini; cbn [o_initialized with_base with_initialized o_base];
  (destruct (assign_slice _ _) as [y0|]; [destruct (assign_slice _ _) as [yd0|];
     [destruct (dual_step_function _ _ _ _ _ _ _) as [[[y' yd'] cs']|e]|]|]); cbn;
  (split; [destruct a; cbn; auto; not_in H|]; split; [apply same_ft_refl|];
   destruct a; cbn; auto; not_in H).
Qed.

Lemma dual_go_same {CS} a run_t ct i fuel : forall y yd (cs : CS) o, ~ In a (changes Step) ->
  same_in_dmp a o (fst (fst (dual_open_loop_go fuel run_t ct i y yd cs o))).
Proof.
  induction fuel as [|fuel IH]; intros y yd cs o H; cbn [dual_open_loop_go];
    destruct (Rlt_dec _ _); try apply same_dmp_refl.
  pose proof (dual_step_same a y yd ct i cs o H) as P.
  destruct (dual_step y yd ct i cs o) as [[o1 cs1] [[y1 yd1]|e]]; cbn [fst] in P; [|exact P].
  pose proof (IH y1 yd1 cs1 o1 H) as Q.
  destruct (dual_open_loop_go fuel run_t ct i y1 yd1 cs1 o1) as [[o2 cs2] [[ts ys]|e]]; cbn [fst] in *;
    eapply same_dmp_trans; eauto.
Qed.

Lemma clock_same a t o : ~ In a (changes Step) -> same_in_dmp a o (with_base (set_t t (o_base o)) o).
Proof.
  intros H. split; [destruct a; cbn; auto; not_in H|]. split; [apply same_ft_refl|].
  destruct a; cbn; auto; not_in H.
Qed.

Lemma dual_open_loop_same {CS} a rt ct i (cs : CS) o : ~ In a (changes Step) ->
  same_in_dmp a o (fst (fst (dual_open_loop rt ct i cs o))).
Proof.
  intros H. unfold dual_open_loop. destruct i as [i|]; [|apply same_dmp_refl]. cbv zeta.
  set (o0 := with_base (set_t 0 (o_base o)) o).
  set (rt' := match rt with Some x => x | None => o_execution_time o end).
  pose proof (dual_go_same a rt' ct i (dual_fuel rt' (o_dt o0)) (p_start_y (o_base o0))
                (p_start_yd (o_base o0)) cs o0 H) as P.
  destruct (dual_open_loop_go _ _ _ _ _ _ _ _) as [[o2 cs2] [[ts ys]|e]]; cbn [fst] in *;
    (eapply same_dmp_trans; [apply (clock_same a 0 o H)|]); [|exact P].
  eapply same_dmp_trans; [exact P|]. now apply clock_same.
Qed.

Lemma dual_imitate_same a jl jlr jr jrr reg dm lam al o : ~ In a (changes Imitate) ->
  same_in_dmp a o (fst (dual_imitate jl jlr jr jrr reg dm lam al o)).
Proof.
  intros H. unfold dual_imitate. destruct (negb _); [apply same_dmp_refl|]. cbv zeta.
  assert (Hw : forall w o, same_in_dmp a o (with_forcing_term (set_ft_weights w (o_forcing_term o)) o)).
  { intros. apply weights_same. intros ->. not_in H. }
  destruct (rmap _ _) as [w1|]; [|apply same_dmp_refl].
  set (o1 := with_forcing_term _ o).
  assert (S1 : same_in_dmp a o o1) by apply Hw.
  destruct (dmp_quaternion_imitation _ _ _ _ _ _ _ _ _ _ _ _ _) as [w2|]; [|exact S1].
  set (o2 := with_forcing_term _ o1).
  assert (S2 : same_in_dmp a o o2) by (eapply same_dmp_trans; [exact S1|apply Hw]).
  destruct (rmap _ _) as [w3|]; [|exact S2].
  set (o3 := with_forcing_term _ o2).
  assert (S3 : same_in_dmp a o o3) by (eapply same_dmp_trans; [exact S2|apply Hw]).
  destruct (dmp_quaternion_imitation _ _ _ _ _ _ _ _ _ _ _ _ _) as [w4|]; [|exact S3].
  eapply same_dmp_trans; [exact S3|]. now apply imitate_configure_same.
Qed.

Theorem C103_dual : forall o c a, dual_reachable o ->
  ~ In a (dual_changes c) -> same_in_dmp a o (dual_exec c o).
Proof.
  intros o c a Hr H. apply C23_dual_shapes in Hr.
  assert (Hn : ft_n (o_forcing_term o) = o_n_weights_per_dim o) by (unfold dual_shapes in Hr; tauto).
  destruct c; cbn [dual_changes] in H; unfold dual_exec.
  - now apply dmp_configure_same.
  - now apply dmp_reset_same.
  - now apply dual_step_same.
  - now apply dual_open_loop_same.
  - now apply dual_imitate_same.
  - unfold dual_set_weights. destruct (reshape _ _ _); [|apply same_dmp_refl].
    apply weights_same. intros ->. not_in H.
  - now apply set_time_same.
  - split; [apply same_base_refl|]. split; [apply same_ft_refl|]. destruct a; cbn; auto; not_in H.
  - split; [apply same_base_refl|]. split; [apply same_ft_refl|]. destruct a; cbn; auto; not_in H.
Qed.

(** ** CartesianDMP *)
Definition cart_history (cs : list cart_call) (o : cart) : cart := fold_left (fun o c => cart_exec c o) cs o.
Definition cart_made (o : cart) : Prop :=
  exists jp jr x dt n int_dt sm al be o0 cs,
    cart_new jp jr x dt n int_dt sm al be = Ok o0 /\ o = cart_history cs o0.

Lemma cart_configure_same a c o : ~ In a (changes Configure) -> same_in_cart a o (fst (cart_configure c o)).
Proof.
  intros H. pose proof (configure_same a c (k_base o) H) as Hb.
  unfold cart_configure. destruct (configure c (k_base o)) as [p e]. cbn in *.
  split; [exact Hb|]. cbn. split; [apply same_ft_refl|]. split; [apply same_ft_refl|]. destruct a; auto.
Qed.

Lemma cart_step_same a y yd c fn i o : ~ In a (changes Step) -> same_in_cart a o (fst (cart_step y yd c fn i o)).
Proof.
  intros H. unfold cart_step.
  destruct (negb _); [apply same_cart_refl|]. destruct (negb _); [apply same_cart_refl|].
  cbv zeta.
  assert (G : forall p t lt y yd, p = set_t t (set_last_t lt (k_base o)) \/ p = set_current y yd (set_t t (set_last_t lt (k_base o))) ->
     same_in_cart a o (cart_with_base p o)).
  { intros p t lt y0 yd0 Hp. split; [|split; [apply same_ft_refl|split; [apply same_ft_refl|]]].
    - destruct Hp as [-> | ->]; destruct a; cbn; auto; not_in H.
    - destruct a; cbn; auto. }
  repeat match goal with
  | |- context [match ?r with Ok _ => _ | Err _ => _ end] => destruct r as [?|?]
  | |- context [let '(_, _) := ?r in _] => destruct r as [? ?]
  end; cbn [fst]; unfold cart_with_base; cbn [k_base k_execution_time k_dt k_n k_int_dt k_smooth k_fpos k_frot k_alpha k_beta];
  (split; [destruct a; cbn; auto; not_in H|]; split; [apply same_ft_refl|]; split; [apply same_ft_refl|];
   destruct a; cbn; auto).
Qed.

Lemma cart_weights_same a w w' o : a <> Weights ->
  same_in_cart a o (cart_with_frot (set_ft_weights w' (k_frot o)) (cart_with_fpos (set_ft_weights w (k_fpos o)) o)).
Proof.
  intros H. split; [apply same_base_refl|].
  split; [destruct a; cbn; auto 10; congruence|]. split; [destruct a; cbn; auto 10; congruence|].
  destruct a; cbn; auto.
Qed.
Lemma cart_weights_pos_same a w o : a <> Weights ->
  same_in_cart a o (cart_with_fpos (set_ft_weights w (k_fpos o)) o).
Proof.
  intros H. split; [apply same_base_refl|].
  split; [destruct a; cbn; auto 10; congruence|]. split; [apply same_ft_refl|].
  destruct a; cbn; auto.
Qed.

Lemma cart_imitate_same a jp jr reg dm lam al o : ~ In a (changes Imitate) ->
  same_in_cart a o (fst (cart_imitate jp jr reg dm lam al o)).
Proof.
  intros H. unfold cart_imitate. destruct (negb _); [apply same_cart_refl|]. cbv zeta.
  assert (Hw : a <> Weights) by (intros ->; not_in H).
  destruct (dmp_imitate _ _ _ _ _ _ _ _ _ _ _ _) as [[[w s] g]|e]; [|apply same_cart_refl].
  destruct (dmp_quaternion_imitation _ _ _ _ _ _ _ _ _ _ _ _ _) as [w2|]; [|now apply cart_weights_pos_same].
  cbn [k_frot cart_with_fpos].
  change (Build_cart (k_base o) (k_execution_time o) (k_dt o) (k_n o) (k_int_dt o) (k_smooth o)
    (set_ft_weights w (k_fpos o)) (k_frot o) (k_alpha o) (k_beta o)) with (cart_with_fpos (set_ft_weights w (k_fpos o)) o).
  eapply same_cart_trans; [apply (cart_weights_same a w w2 o Hw)|].
  destruct (imitate_cases a H) as [[H1 H2] | ->].
  - now apply cart_configure_same.
  - unfold cart_configure. cbn [k_base cart_with_frot cart_with_fpos].
    match goal with |- context [configure ?c (k_base o)] =>
      pose proof (configure_clock (c_start_y c) (c_start_yd c) (c_start_ydd c) (c_goal_y c) (c_goal_yd c)
                    (c_goal_ydd c) (k_base o)) as C; cbn in C; destruct (configure c (k_base o)) as [p e] end.
    cbn in *. split; auto. cbn. auto.
Qed.

Lemma cart_set_weights_same a w o : ~ In a (changes SetWeights) -> same_in_cart a o (fst (cart_set_weights w o)).
Proof.
  intros H. assert (Hw : a <> Weights) by (intros ->; not_in H). unfold cart_set_weights. cbv zeta.
  destruct (assign_rows _ _) as [wp|]; [|apply same_cart_refl].
  destruct (assign_rows _ _) as [wr|]; [|now apply cart_weights_pos_same].
  exact (cart_weights_same a wp wr o Hw).
Qed.

Definition cart_n_ok (o : cart) : Prop := ft_n (k_fpos o) = k_n o /\ ft_n (k_frot o) = k_n o.

Lemma cart_set_time_same a jp jr x o : cart_n_ok o -> ~ In a (changes SetExecutionTime) ->
  same_in_cart a o (fst (cart_set_execution_time jp jr x o)).
Proof.
  intros [Np Nr] H. unfold cart_set_execution_time. cbv zeta. cbn [k_n cart_with_time].
  destruct (init_forcing_term jp (k_n o) x) as [fp|] eqn:E1.
  - destruct (init_forcing_term_inv _ _ _ _ E1) as (H2 & Hx & E1').
    destruct (init_forcing_term_accepts jr (k_n o) x H2 Hx) as [fr E2]. rewrite E2.
    destruct (init_forcing_term_inv _ _ _ _ E2) as (_ & _ & E2').
    apply forcing_term_init_n in E1', E2'. destruct E1' as (E1' & _), E2' as (E2' & _).
    split; [apply same_base_refl|].
    split; [destruct a; cbn; auto; try not_in H; congruence|].
    split; [destruct a; cbn; auto; try not_in H; congruence|].
    destruct a; cbn; auto; not_in H.
  - split; [apply same_base_refl|]. split; [apply same_ft_refl|]. split; [apply same_ft_refl|].
    destruct a; cbn; auto; not_in H.
Qed.

Lemma cart_exec_same a c o : cart_n_ok o ->
  ~ In a (changes (cart_kind c)) -> same_in_cart a o (cart_exec c o).
Proof.
  intros Hn H. destruct c; cbn [cart_kind] in H; unfold cart_exec.
  - now apply cart_configure_same.
  - split; [apply reset_same; auto|]. split; [apply same_ft_refl|]. split; [apply same_ft_refl|].
    destruct a; cbn; auto.
  - now apply cart_step_same.
  - now apply cart_imitate_same.
  - now apply cart_set_weights_same.
  - now apply cart_set_time_same.
  - split; [apply same_base_refl|]. split; [apply same_ft_refl|]. split; [apply same_ft_refl|].
    destruct a; cbn; auto; not_in H.
  - split; [apply same_base_refl|]. split; [apply same_ft_refl|]. split; [apply same_ft_refl|].
    destruct a; cbn; auto; not_in H.
Qed.

Lemma cart_exec_n_ok c o : cart_n_ok o -> cart_n_ok (cart_exec c o).
Proof.
  intros Hn. destruct (cart_exec_same WeightCount c o Hn) as (_ & A & B & C).
  - destruct c; cbn; intuition discriminate.
  - cbn in A, B, C. destruct Hn. unfold cart_n_ok. split; congruence.
Qed.

Lemma cart_history_n_ok cs : forall o, cart_n_ok o -> cart_n_ok (cart_history cs o).
Proof.
  induction cs as [|c cs IH]; intros o H; [exact H|]. cbn. apply IH. now apply cart_exec_n_ok.
Qed.

Lemma cart_new_inv jp jr x dt n idt sm al be o : cart_new jp jr x dt n idt sm al be = Ok o ->
  exists fp fr a b, init_forcing_term jp n x = Ok fp /\ init_forcing_term jr n x = Ok fr
    /\ ensure_1d_array al 6 = Ok a /\ ensure_1d_array be 6 = Ok b
    /\ o = {| k_base := ptp_init 7 6; k_execution_time := x; k_dt := dt;
        k_n := n; k_int_dt := idt; k_smooth := sm;
        k_fpos := fp; k_frot := fr; k_alpha := a; k_beta := b |}.
Proof.
  unfold cart_new. destruct (init_forcing_term jp n x) as [fp|] eqn:E1; [|discriminate].
  cbn [bind]. destruct (init_forcing_term jr n x) as [fr|] eqn:E2; [|discriminate].
  cbn [bind]. destruct (ensure_1d_array al 6) as [a|] eqn:Ea; [|discriminate].
  cbn [bind]. destruct (ensure_1d_array be 6) as [b|] eqn:Eb; [|discriminate].
  cbn [bind]. intros E; injection E as <-. exists fp, fr, a, b. auto.
Qed.

Theorem C103_cartesian : forall o c a, cart_made o ->
  ~ In a (changes (cart_kind c)) -> same_in_cart a o (cart_exec c o).
Proof.
  intros o c a (jp & jr & x & dt & n & idt & sm & al & be & o0 & cs & E & ->) H.
  apply cart_exec_same; auto. apply cart_history_n_ok.
  apply cart_new_inv in E. destruct E as (fp & fr & a0 & b0 & E1 & E2 & _ & _ & ->).
  apply init_forcing_term_inv in E1, E2. destruct E1 as (_ & _ & E1), E2 as (_ & _ & E2).
  apply forcing_term_init_n in E1, E2. destruct E1 as (E1 & _), E2 as (E2 & _).
  split; cbn; auto.
Qed.

(** ** The other classes *)
Theorem C103_state_following : forall o a,
  (forall c, ~ In a (changes Configure) -> same_in_sf a o (sf_with_base (fst (configure c (f_base o))) o))
  /\ (~ In a (changes Reset) -> same_in_sf a o (sf_with_base (ptp_reset (f_base o)) o))
  /\ (forall y yd c, ~ In a (changes Step) -> same_in_sf a o (fst (sf_step y yd c o))).
Proof.
  intros o a. split; [|split].
  - intros c H. split; [now apply configure_same|]. destruct a; cbn; auto.
  - intros H. split; [now apply reset_same|]. destruct a; cbn; auto.
  - intros y yd c H. unfold sf_step.
    destruct (negb _). { split; [apply same_base_refl|]. destruct a; cbn; auto. }
    destruct (negb _). { split; [apply same_base_refl|]. destruct a; cbn; auto. }
    cbv zeta.
    repeat match goal with
    | |- context [match ?r with Ok _ => _ | Err _ => _ end] => destruct r as [?|?]
    | |- context [let '(_, _) := ?r in _] => destruct r as [? ?]
    end; cbn [fst]; (split; [destruct a; cbn; auto; not_in H|]; destruct a; cbn; auto; not_in H).
Qed.

(** The [reset] of spring-dampers leaves the current state alone. *)
Theorem C103_spring_damper : forall o a,
  (forall c, ~ In a (changes Configure) -> same_in_sd a o (fst (sd_configure c o)))
  /\ (~ In a [Clock; LastTime] -> same_in_sd a o (sd_reset o))
  /\ (forall y yd c, ~ In a (changes Step) -> same_in_sd a o (fst (sd_step y yd c o)))
  /\ (forall y yd c, ~ In a (changes Step) -> same_in_sd a o (fst (sdo_step y yd c o))).
Proof.
  intros o a. split; [|split; [|split]].
  - intros c H. pose proof (configure_same a c (s_base o) H) as P. unfold sd_configure.
    destruct (configure c (s_base o)). split; [exact P|]. destruct a; cbn; auto.
  - intros H. split; destruct a; cbn; auto; not_in H.
  - intros y yd c H. unfold sd_step. cbv zeta. destruct o as [p dt k cc idt ini].
    destruct ini; cbn [s_initialized sd_with s_base];
    repeat match goal with
    | |- context [match ?r with Ok _ => _ | Err _ => _ end] => destruct r as [?|?]
    | |- context [let '(_, _) := ?r in _] => destruct r as [? ?]
    end; cbn [fst]; (split; [destruct a; cbn; auto; not_in H|]; destruct a; cbn; auto; not_in H).
  - intros y yd c H. unfold sdo_step. cbv zeta. destruct o as [p dt k cc idt ini].
    destruct ini; cbn [s_initialized sd_with s_base];
    repeat match goal with
    | |- context [match ?r with Ok _ => _ | Err _ => _ end] => destruct r as [?|?]
    | |- context [let '(_, _) := ?r in _] => destruct r as [? ?]
    end; cbn [fst]; (split; [destruct a; cbn; auto; not_in H|]; destruct a; cbn; auto; not_in H).
Qed.

(** MinimumJerkTrajectory never moves its clock: [reset] only makes it recompute the
    trajectory, [step] only changes the current state. *)
Theorem C103_minimum_jerk : forall o a,
  (forall c, ~ In a (changes Configure) -> same_in_mjt a o (fst (mjt_configure c o)))
  /\ (~ In a [Initialized] -> same_in_mjt a o (mjt_reset o))
  /\ (forall y yd, ~ In a [CurrentState; Initialized] -> same_in_mjt a o (fst (mjt_step y yd o))).
Proof.
  intros o a. split; [|split].
  - intros c H. pose proof (configure_same a c (j_base o) H) as P. unfold mjt_configure.
    destruct (configure c (j_base o)). split; [exact P|]. destruct a; cbn; auto.
  - intros H. split; [apply same_base_refl|]. destruct a; cbn; auto; not_in H.
  - intros y yd H. unfold mjt_step. cbv zeta. destruct o as [p X x dt idx ini]. cbn [j_initialized].
    destruct ini; [|destruct (generate_minimum_jerk _ _ _ _) as [X'|e]; cbn [bind]];
    cbn [j_X j_step_idx];
    repeat match goal with
    | |- context [match ?r with Some _ => _ | None => _ end] => destruct r as [[[? ?] ?]|] || destruct r
    end; cbn [fst]; (split; [destruct a; cbn; auto; not_in H|]; destruct a; cbn; auto; not_in H).
Qed.

(** ** Histories of calls on a DMP *)

(** An attribute that none of the calls may change has its old value. *)
Theorem C103_history : forall n o cs a, reachable n o ->
  (forall c, In c cs -> ~ In a (changes (kind c))) -> same_in_dmp a o (fst (exec_all cs o)).
Proof.
  intros n o cs a. revert o. induction cs as [|c cs IH]; intros o Hr H; [apply same_dmp_refl|].
  cbn [exec_all]. pose proof (C103_dmp n o c a Hr (H c (or_introl eq_refl))) as P.
  pose proof (reachable_exec n c o Hr) as Hr1.
  destruct (exec c o) as [o1 x]. cbn [fst] in *.
  specialize (IH o1 Hr1 (fun c' Hc => H c' (or_intror Hc))).
  destruct (exec_all cs o1). cbn [fst] in *. eapply same_dmp_trans; eauto.
Qed.

Lemma exec_time c o : o_execution_time (fst (exec c o))
  = match assigns_execution_time c with Some x => x | None => o_execution_time o end.
Proof.
  destruct c; cbn [assigns_execution_time]; try reflexivity.
  - unfold exec. pose proof (dmp_configure_same ExecutionTime c o) as P.
    destruct (dmp_configure c o). apply P. cbn; intuition discriminate.
  - unfold exec. pose proof (dmp_step_same ExecutionTime last_y last_yd c fn o) as P.
    destruct (dmp_step _ _ _ _ _). apply P. cbn; intuition discriminate.
  - unfold exec. pose proof (dmp_imitate_same ExecutionTime junk regress dm lam allow o) as P.
    destruct (dmp_imitate_method _ _ _ _ _ _). apply P. cbn; intuition discriminate.
  - unfold exec. pose proof (set_weights_same ExecutionTime w o) as P.
    destruct (dmp_set_weights _ _). apply P. cbn; intuition discriminate.
  - unfold exec, dmp_set_execution_time. destruct (init_forcing_term _ _ _); reflexivity.
Qed.

Lemma exec_steps n c o : reachable n o ->
  o_dt (fst (exec c o)) = match assigns_dt c with Some x => x | None => o_dt o end
  /\ o_int_dt (fst (exec c o)) = match assigns_int_dt c with Some x => x | None => o_int_dt o end.
Proof.
  intros Hr. split.
  - pose proof (C103_dmp n o c StepLength Hr) as P.
    destruct c; try reflexivity; apply P; cbn; intuition discriminate.
  - pose proof (C103_dmp n o c IntegrationStep Hr) as P.
    destruct c; try reflexivity; apply P; cbn; intuition discriminate.
Qed.

(** The execution time, the step length and the integration step are always the
    ones assigned last; the execution time even if the assignment raised. *)
Theorem C103_last_assigned : forall n o cs, reachable n o ->
  let o' := fst (exec_all cs o) in
  o_execution_time o' = last_assigned assigns_execution_time cs (o_execution_time o)
  /\ o_dt o' = last_assigned assigns_dt cs (o_dt o)
  /\ o_int_dt o' = last_assigned assigns_int_dt cs (o_int_dt o).
Proof.
  intros n o cs. revert o. induction cs as [|c cs IH]; intros o Hr; [cbn; auto|].
  cbn [exec_all]. unfold last_assigned. cbn [fold_left].
  pose proof (exec_time c o) as E1. destruct (exec_steps n c o Hr) as [E2 E3].
  pose proof (reachable_exec n c o Hr) as Hr1.
  destruct (exec c o) as [o1 x]. cbn [fst] in *. specialize (IH o1 Hr1).
  destruct (exec_all cs o1) as [o2 xs]. cbn [fst] in *. unfold last_assigned in IH.
  rewrite <- E1, <- E2, <- E3. exact IH.
Qed.

(** ** Constructors *)
Lemma gains_ok v n : (exists a, ensure_1d_array v n = Ok a) <-> gains_accepted v n.
Proof.
  destruct (C25_ensure_1d_array v n) as (A & B & C). unfold gains_accepted. split.
  - intros [a E].
    destruct (list_eq_dec Nat.eq_dec (shape v) []); auto.
    destruct (list_eq_dec Nat.eq_dec (shape v) [1%nat]); auto.
    destruct (list_eq_dec Nat.eq_dec (shape v) [n]); auto.
    rewrite C in E by auto. discriminate.
  - intros [H|[H|H]].
    + destruct (A (or_introl H)) as (a & E & _). eauto.
    + destruct (A (or_intror H)) as (a & E & _). eauto.
    + destruct (B H) as (a & E & _). eauto.
Qed.

Lemma gains_value v n a : ensure_1d_array v n = Ok a -> gains_denoted v n a.
Proof.
  intros E. assert (Ha : gains_accepted v n) by (apply gains_ok; eauto).
  destruct (C25_ensure_1d_array v n) as (A & B & _). unfold gains_denoted.
  destruct Ha as [H|[H|H]].
  - destruct (A (or_introl H)) as (a' & E' & L & V). rewrite E in E'. injection E' as <-.
    rewrite H. auto.
  - destruct (A (or_intror H)) as (a' & E' & L & V). rewrite E in E'. injection E' as <-.
    rewrite H. auto.
  - destruct (B H) as (a' & E' & L & V). rewrite E in E'. injection E' as <-.
    rewrite H. split; auto. intros d Hd. rewrite V by auto.
    destruct n as [|[|n]]; auto. replace d with 0%nat by lia. auto.
Qed.

Lemma gains_err v n e : ensure_1d_array v n = Err e -> e = ValueError.
Proof.
  unfold ensure_1d_array.
  destruct (shape v) as [|[|[|k]] [|m l]]; cbn -[Nat.eqb]; try congruence;
    match goal with |- context [Nat.eqb ?x ?y] => destruct (Nat.eqb_spec x y) end; congruence.
Qed.

Lemma init_forcing_term_err j n x e : init_forcing_term j n x = Err e -> e = ValueError.
Proof.
  unfold init_forcing_term, canonical_system_alpha. destruct (Rle_dec (1/100) 0); [lra|].
  destruct (Rle_dec x 0); cbn [bind]; [congruence|].
  unfold forcing_term_init. destruct (Nat.leb n 1); [congruence|].
  destruct (Rle_dec x 0); [congruence|]. destruct (Rle_dec (8/10) 0); [congruence|].
  destruct (init_rbfs _ _ _ _ _ _ _). discriminate.
Qed.

Lemma init_forcing_term_new j n x f : init_forcing_term j n x = Ok f -> new_forcing_term n x f.
Proof.
  intros E. apply init_forcing_term_inv in E. destruct E as (Hn & Hx & E).
  pose proof (forcing_term_init_n _ _ _ _ _ _ _ _ E) as (A & B & C & D & F & _).
  unfold new_forcing_term. repeat split; auto.
  - rewrite F, Ropp_involutive, exp_ln; lra.
  - intros d i. unfold forcing_term_init in E.
    destruct (Nat.leb n 1); [discriminate|]. destruct (Rle_dec x 0); [discriminate|].
    destruct (Rle_dec (8/10) 0); [discriminate|].
    destruct (init_rbfs _ _ _ _ _ _ _). injection E as <-. reflexivity.
Qed.

Lemma init_unused n m : unused n m (ptp_init n m).
Proof. unfold unused, zero_arr; cbn. repeat split; auto. Qed.

(** [DMP(...)] is accepted for exactly these arguments, raises ValueError otherwise,
    and the new object has the attributes it was given. *)
Theorem C103_new_dmp : forall junk n x dt nw int_dt p_gain smooth al be,
  let r := dmp_new junk n x dt nw int_dt p_gain smooth al be in
  ((exists o, r = Ok o) <-> 0 < x /\ (2 <= nw)%nat /\ gains_accepted al n /\ gains_accepted be n)
  /\ (forall e, r = Err e -> e = ValueError)
  /\ forall o, r = Ok o ->
     unused n n (o_base o) /\ o_initialized o = false
     /\ o_execution_time o = x /\ o_dt o = dt /\ o_n_weights_per_dim o = nw
     /\ o_int_dt o = int_dt /\ o_p_gain o = p_gain /\ o_smooth_scaling o = smooth
     /\ gains_denoted al n (o_alpha_y o) /\ gains_denoted be n (o_beta_y o)
     /\ new_forcing_term nw x (o_forcing_term o).
Proof.
  intros junk n x dt nw int_dt p_gain smooth al be r.
  unfold r, dmp_new. destruct (init_forcing_term junk nw x) as [f|e] eqn:Ef; cbn [bind].
  2:{ split; [split|split].
      - intros [o E]; discriminate.
      - intros (Hx & Hn & _). destruct (init_forcing_term_accepts junk nw x Hn Hx) as [f E]. congruence.
      - intros e' E. injection E as <-. eapply init_forcing_term_err; eauto.
      - intros o E; discriminate. }
  pose proof (init_forcing_term_inv _ _ _ _ Ef) as (Hn & Hx & _).
  destruct (ensure_1d_array al n) as [a|e] eqn:Ea; cbn [bind].
  2:{ split; [split|split].
      - intros [o E]; discriminate.
      - intros (_ & _ & H & _). apply gains_ok in H. destruct H as [a' E]. congruence.
      - intros e' E. injection E as <-. eapply gains_err; eauto.
      - intros o E; discriminate. }
  destruct (ensure_1d_array be n) as [b|e] eqn:Eb; cbn [bind].
  2:{ split; [split|split].
      - intros [o E]; discriminate.
      - intros (_ & _ & _ & H). apply gains_ok in H. destruct H as [a' E]. congruence.
      - intros e' E. injection E as <-. eapply gains_err; eauto.
      - intros o E; discriminate. }
  split; [split|split].
  - intros _. repeat split; auto; apply gains_ok; eauto.
  - intros _. eauto.
  - discriminate.
  - intros o E. injection E as <-. cbn [o_base o_initialized o_execution_time o_dt o_n_weights_per_dim
      o_int_dt o_p_gain o_smooth_scaling o_forcing_term o_alpha_y o_beta_y].
    split; [apply init_unused|]. repeat split; try apply (gains_value _ _ _ Ea); try apply (gains_value _ _ _ Eb);
      apply (init_forcing_term_new _ _ _ _ Ef).
Qed.

(** [DMPWithFinalVelocity(...)]; no smooth scaling. *)
Theorem C103_new_final_velocity : forall junk n x dt nw int_dt p_gain al be,
  let r := fv_new junk n x dt nw int_dt p_gain al be in
  ((exists o, r = Ok o) <-> 0 < x /\ (2 <= nw)%nat /\ gains_accepted al n /\ gains_accepted be n)
  /\ (forall e, r = Err e -> e = ValueError)
  /\ forall o, r = Ok o ->
     unused n n (o_base o) /\ o_initialized o = false
     /\ o_execution_time o = x /\ o_dt o = dt /\ o_n_weights_per_dim o = nw
     /\ o_int_dt o = int_dt /\ o_p_gain o = p_gain /\ o_smooth_scaling o = false
     /\ gains_denoted al n (o_alpha_y o) /\ gains_denoted be n (o_beta_y o)
     /\ new_forcing_term nw x (o_forcing_term o).
Proof.
  intros. unfold r, fv_new. exact (C103_new_dmp junk n x dt nw int_dt p_gain false al be).
Qed.

(** [DualCartesianDMP(...)]: two poses and two twists. *)
Theorem C103_new_dual : forall junk x dt nw int_dt p_gain smooth al be,
  let r := dual_new junk x dt nw int_dt p_gain smooth al be in
  ((exists o, r = Ok o) <-> 0 < x /\ (2 <= nw)%nat /\ gains_accepted al 12 /\ gains_accepted be 12)
  /\ (forall e, r = Err e -> e = ValueError)
  /\ forall o, r = Ok o ->
     unused 14 12 (o_base o) /\ o_initialized o = false
     /\ o_execution_time o = x /\ o_dt o = dt /\ o_n_weights_per_dim o = nw
     /\ o_int_dt o = int_dt /\ o_p_gain o = p_gain /\ o_smooth_scaling o = smooth
     /\ gains_denoted al 12 (o_alpha_y o) /\ gains_denoted be 12 (o_beta_y o)
     /\ new_forcing_term nw x (o_forcing_term o).
Proof.
  intros junk x dt nw int_dt p_gain smooth al be r.
  unfold r, dual_new. destruct (init_forcing_term junk nw x) as [f|e] eqn:Ef; cbn [bind].
  2:{ split; [split|split].
      - intros [o E]; discriminate.
      - intros (Hx & Hn & _). destruct (init_forcing_term_accepts junk nw x Hn Hx) as [f E]. congruence.
      - intros e' E. injection E as <-. eapply init_forcing_term_err; eauto.
      - intros o E; discriminate. }
  pose proof (init_forcing_term_inv _ _ _ _ Ef) as (Hn & Hx & _).
  destruct (ensure_1d_array al 12) as [a|e] eqn:Ea; cbn [bind].
  2:{ split; [split|split].
      - intros [o E]; discriminate.
      - intros (_ & _ & H & _). apply gains_ok in H. destruct H as [a' E]. congruence.
      - intros e' E. injection E as <-. eapply gains_err; eauto.
      - intros o E; discriminate. }
  destruct (ensure_1d_array be 12) as [b|e] eqn:Eb; cbn [bind].
  2:{ split; [split|split].
      - intros [o E]; discriminate.
      - intros (_ & _ & _ & H). apply gains_ok in H. destruct H as [a' E]. congruence.
      - intros e' E. injection E as <-. eapply gains_err; eauto.
      - intros o E; discriminate. }
  split; [split|split].
  - intros _. repeat split; auto; apply gains_ok; eauto.
  - intros _. eauto.
  - discriminate.
  - intros o E. injection E as <-. cbn [o_base o_initialized o_execution_time o_dt o_n_weights_per_dim
      o_int_dt o_p_gain o_smooth_scaling o_forcing_term o_alpha_y o_beta_y].
    split; [apply init_unused|]. repeat split; try apply (gains_value _ _ _ Ea); try apply (gains_value _ _ _ Eb);
      apply (init_forcing_term_new _ _ _ _ Ef).
Qed.

(** [CartesianDMP(...)]: a pose and a twist; two forcing terms. *)
Theorem C103_new_cartesian : forall jp jr x dt nw int_dt smooth al be,
  let r := cart_new jp jr x dt nw int_dt smooth al be in
  ((exists o, r = Ok o) <-> 0 < x /\ (2 <= nw)%nat /\ gains_accepted al 6 /\ gains_accepted be 6)
  /\ (forall e, r = Err e -> e = ValueError)
  /\ forall o, r = Ok o ->
     unused 7 6 (k_base o)
     /\ k_execution_time o = x /\ k_dt o = dt /\ k_n o = nw
     /\ k_int_dt o = int_dt /\ k_smooth o = smooth
     /\ gains_denoted al 6 (k_alpha o) /\ gains_denoted be 6 (k_beta o)
     /\ new_forcing_term nw x (k_fpos o) /\ new_forcing_term nw x (k_frot o).
Proof.
  intros jp jr x dt nw int_dt smooth al be r.
  unfold r, cart_new. destruct (init_forcing_term jp nw x) as [f|e] eqn:Ef; cbn [bind].
  2:{ split; [split|split].
      - intros [o E]; discriminate.
      - intros (Hx & Hn & _). destruct (init_forcing_term_accepts jp nw x Hn Hx) as [f E]. congruence.
      - intros e' E. injection E as <-. eapply init_forcing_term_err; eauto.
      - intros o E; discriminate. }
  pose proof (init_forcing_term_inv _ _ _ _ Ef) as (Hn & Hx & _).
  destruct (init_forcing_term_accepts jr nw x Hn Hx) as [fr Er]. rewrite Er. cbn [bind].
  destruct (ensure_1d_array al 6) as [a|e] eqn:Ea; cbn [bind].
  2:{ split; [split|split].
      - intros [o E]; discriminate.
      - intros (_ & _ & H & _). apply gains_ok in H. destruct H as [a' E]. congruence.
      - intros e' E. injection E as <-. eapply gains_err; eauto.
      - intros o E; discriminate. }
  destruct (ensure_1d_array be 6) as [b|e] eqn:Eb; cbn [bind].
  2:{ split; [split|split].
      - intros [o E]; discriminate.
      - intros (_ & _ & _ & H). apply gains_ok in H. destruct H as [a' E]. congruence.
      - intros e' E. injection E as <-. eapply gains_err; eauto.
      - intros o E; discriminate. }
  split; [split|split].
  - intros _. repeat split; auto; apply gains_ok; eauto.
  - intros _. eauto.
  - discriminate.
  - intros o E. injection E as <-. cbn [k_base k_execution_time k_dt k_n
      k_int_dt k_smooth k_fpos k_frot k_alpha k_beta].
    split; [apply init_unused|]. repeat split; try apply (gains_value _ _ _ Ea); try apply (gains_value _ _ _ Eb);
      try apply (init_forcing_term_new _ _ _ _ Ef); apply (init_forcing_term_new _ _ _ _ Er).
Qed.

(** [StateFollowingDMP(...)]: one via-point suffices; they are all zero. *)
Theorem C103_new_state_following : forall junk n x dt nv int_dt al be,
  let r := sf_new junk n x dt nv int_dt al be in
  ((exists o, r = Ok o) <-> 0 < x /\ (1 <= nv)%nat /\ gains_accepted al n /\ gains_accepted be n)
  /\ (forall e, r = Err e -> e = ValueError)
  /\ forall o, r = Ok o ->
     unused n n (f_base o)
     /\ f_execution_time o = x /\ f_dt o = dt /\ f_int_dt o = int_dt
     /\ gains_denoted al n (f_alpha_y o) /\ gains_denoted be n (f_beta_y o)
     /\ sf_n (f_forcing o) = nv /\ sf_start_t (f_forcing o) = 0 /\ sf_goal_t (f_forcing o) = x
     /\ exp (- sf_alpha_z (f_forcing o)) = 1 / 100 /\ sf_overlap (f_forcing o) = 1 / 10
     /\ forall i d, sf_viapoints (f_forcing o) i d = 0.
Proof.
  intros junk n x dt nv int_dt al be r. unfold r, sf_new, canonical_system_alpha.
  destruct (Rle_dec (1/100) 0); [lra|].
  destruct (Rle_dec x 0) as [Hx|Hx]; cbn [bind].
  { split; [split|split].
    - intros [o E]; discriminate.
    - intros (H & _). lra.
    - intros e' E. injection E as <-. reflexivity.
    - intros o E; discriminate. }
  destruct (ensure_1d_array al n) as [a|e] eqn:Ea; cbn [bind].
  2:{ split; [split|split].
      - intros [o E]; discriminate.
      - intros (_ & _ & H & _). apply gains_ok in H. destruct H as [a' E]. congruence.
      - intros e' E. injection E as <-. eapply gains_err; eauto.
      - intros o E; discriminate. }
  destruct (ensure_1d_array be n) as [b|e] eqn:Eb; cbn [bind].
  2:{ split; [split|split].
      - intros [o E]; discriminate.
      - intros (_ & _ & _ & H). apply gains_ok in H. destruct H as [a' E]. congruence.
      - intros e' E. injection E as <-. eapply gains_err; eauto.
      - intros o E; discriminate. }
  unfold sf_forcing_init. destruct (Nat.leb_spec nv 0) as [Hn|Hn]; cbn [bind].
  { split; [split|split].
    - intros [o E]; discriminate.
    - intros (_ & H & _). lia.
    - intros e' E. injection E as <-. reflexivity.
    - intros o E; discriminate. }
  destruct (Rle_dec x 0); [lra|]. destruct (Rle_dec (1/10) 0); [lra|].
  destruct (sf_init_rbfs _ _ _ _ _ _ _) as [cs ws]. cbn [bind].
  split; [split|split].
  - intros _. split; [lra|]. split; [lia|]. split; apply gains_ok; eauto.
  - intros _. eauto.
  - discriminate.
  - intros o E. injection E as <-. cbn -[ptp_init].
    split; [apply init_unused|]. repeat split; try apply (gains_value _ _ _ Ea); try apply (gains_value _ _ _ Eb).
    rewrite Ropp_involutive, exp_ln; lra.
Qed.

(** The constructors of the other classes accept everything. *)
Theorem C103_new_others : forall n dt k c int_dt x,
  (let o := sd_new n dt k c int_dt in
   unused n n (s_base o) /\ s_initialized o = false /\ s_dt o = dt /\ s_k o = k /\ s_c o = c
   /\ s_int_dt o = int_dt)
  /\ (let o := sdo_new dt k c int_dt in
      unused 4 3 (s_base o) /\ s_initialized o = false /\ s_dt o = dt /\ s_k o = k /\ s_c o = c
      /\ s_int_dt o = int_dt)
  /\ (let o := mjt_new n x dt in
      unused n n (j_base o) /\ j_initialized o = false /\ j_execution_time o = x /\ j_dt o = dt
      /\ j_X o = None /\ j_step_idx o = 0%nat).
Proof.
  intros. cbn zeta. split; [|split]; (split; [apply init_unused|]; cbn; auto 10).
Qed.

(** The gains, the tracking gain, the scaling, the number of weights and the
    dimensions of a DMP are, after any history, the ones given to the constructor. *)
Theorem C103_fixed_for_life : forall junk n x dt nw int_dt p_gain smooth al be o cs,
  dmp_new junk n x dt nw int_dt p_gain smooth al be = Ok o ->
  let o' := fst (exec_all cs o) in
  p_n_dims (o_base o') = n /\ o_p_gain o' = p_gain /\ o_smooth_scaling o' = smooth
  /\ o_n_weights_per_dim o' = nw /\ ft_n (o_forcing_term o') = nw
  /\ gains_denoted al n (o_alpha_y o') /\ gains_denoted be n (o_beta_y o').
Proof.
  intros junk n x dt nw int_dt p_gain smooth al be o cs E o'.
  assert (Hr : reachable n o).
  { exists junk, x, dt, nw, int_dt, p_gain, smooth, al, be, o, []. auto. }
  destruct (C103_new_dmp junk n x dt nw int_dt p_gain smooth al be) as (_ & _ & H).
  destruct (H o E) as ((Hd & _) & _ & _ & _ & Hw & _ & Hp & Hs & Ha & Hb & (Hf & _)).
  assert (T : forall a, In a [Dimensions; TrackingGain; SmoothScaling; WeightCount; Gains] ->
    same_in_dmp a o o').
  { intros a Ia. apply (C103_history n); auto. intros c _ Ic.
    cbn in Ia. destruct Ia as [<-|[<-|[<-|[<-|[<-|[]]]]]]; destruct c; cbn in Ic; intuition discriminate. }
  destruct (T Dimensions) as ((T1 & _) & _); [cbn; auto|].
  destruct (T TrackingGain) as (_ & _ & T2); [cbn; auto|].
  destruct (T SmoothScaling) as (_ & _ & T3); [cbn; auto|].
  destruct (T WeightCount) as (_ & T4 & T5); [cbn; auto 10|].
  destruct (T Gains) as (_ & _ & T6 & T7); [cbn; auto 10|].
  cbn in T4. rewrite T1, T2, T3, T4, T5, T6, T7. auto 10.
Qed.

(** A DMP with two dimensions, a list of gains and a history. *)
Example C103_satisfiable : exists o,
  dmp_new (vzero, vzero) 2 2 (1/100) 5 (1/1000) 3 true
    {| shape := [2%nat]; data := fun d => 25 + INR d |} {| shape := []; data := fun _ => 6 |} = Ok o
  /\ reachable 2 o /\ aget (o_alpha_y o) 1%nat = 26
  /\ let o' := fst (exec_all [CReset; CSetDt (1/50); CSetExecutionTime (vzero, vzero) 0; CSetDt (1/20)] o) in
     o_dt o' = 1/20 /\ o_execution_time o' = 0 /\ o_p_gain o' = 3.
Proof.
  destruct (C103_new_dmp (vzero, vzero) 2 2 (1/100) 5 (1/1000) 3 true
    {| shape := [2%nat]; data := fun d => 25 + INR d |} {| shape := []; data := fun _ => 6 |}) as (A & _ & C).
  destruct (proj2 A) as [o E].
  { split; [lra|]. split; [lia|]. unfold gains_accepted; cbn. auto. }
  assert (Hr : reachable 2 o).
  { do 9 eexists. exists o, []. split; [exact E|reflexivity]. }
  destruct (C o E) as (_ & _ & X1 & X2 & _ & _ & _ & _ & [_ Hg] & _).
  exists o. split; [exact E|]. split; [exact Hr|].
  split. { rewrite Hg by lia. cbn. lra. }
  set (cs := [CReset; CSetDt (1/50); CSetExecutionTime (vzero, vzero) 0; CSetDt (1/20)]).
  destruct (C103_last_assigned 2 o cs Hr) as (T1 & T2 & _). cbn zeta.
  rewrite T1, T2. split; [reflexivity|]. split; [reflexivity|].
  apply (C103_fixed_for_life _ _ _ _ _ _ _ _ _ _ o cs E).
Qed.
