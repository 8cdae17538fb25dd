(** C116: spring-damper systems do not depend on the frame and the unit of time.  Final
    statements.  [position_image], [derivative_image], [argument_image] and [related] are
    those of C114. *)
From Coq Require Import Reals ZArith List Arith Lia Lra Psatz FunctionalExtensionality.
From Coquelicot Require Import Coquelicot.
From Verif Require Import M_Prelude M_Dmp M_Base M_SpringDamper S_Loops P_Loops P_DmpScale P_Components P_Stability
  Properties_SpringDamper Properties_MinJerkFrames.
Import ListNotations.
Open Scope R_scope.
Set Bullet Behavior "Strict Subproofs".

(** ** Specification *)
(** The coupling term in the other coordinates and the other unit of time. *)
Definition coupling_image (n n' : nat) (A : nat -> nat -> R) (b : vec) (s : R) (ct ct' : option coupling) : Prop :=
  match ct, ct' with
  | None, None => True
  | Some f, Some f' => forall y yd y' yd',
      position_image n n' A b y y' -> derivative_image n n' A s yd yd' ->
      derivative_image n n' A s (fst (f y yd)) (fst (f' y' yd'))
      /\ derivative_image n n' A (s ^ 2) (snd (f y yd)) (snd (f' y' yd'))
  | _, _ => False
  end.

(** A state given to [step]: both have the right length and are images, or neither length
    is acceptable. *)
Definition state_image (n n' : nat) (P : vec -> vec -> Prop) (a a' : arr) : Prop :=
  (alen a = n /\ alen a' = n' /\ P (aget a) (aget a'))
  \/ (alen a <> n /\ alen a <> 1%nat /\ alen a' <> n' /\ alen a' <> 1%nat).

(** The calls on an object. *)
Inductive call :=
| CStep (last_y last_yd : arr) (ct : option coupling)
| CReset
| CConfigure (c : configure_args)
| COpenLoop (run_t : R) (ct : option coupling).

(** What a call returns. *)
Inductive answer :=
| ANone
| AState (y yd : arr)
| AMovement (ts : list R) (ys : list vec).

Definition apply_call (c : call) (o : spring_damper) : spring_damper * res answer :=
  match c with
  | CStep y yd ct => let '(o, r) := sd_step y yd ct o in (o, bind r (fun p => Ok (AState (fst p) (snd p))))
  | CReset => (sd_reset o, Ok ANone)
  | CConfigure c => let '(o, r) := sd_configure c o in (o, bind r (fun _ => Ok ANone))
  | COpenLoop rt ct => (o, bind (sd_open_loop rt ct o) (fun p => Ok (AMovement (fst p) (snd p))))
  end.

Fixpoint apply_calls (cs : list call) (o : spring_damper) : list (res answer) :=
  match cs with
  | [] => []
  | c :: cs => let '(o, r) := apply_call c o in r :: apply_calls cs o
  end.

(** The second call is the first in the other coordinates and the other unit of time. *)
Definition call_image (n n' : nat) (A : nat -> nat -> R) (b : vec) (s : R) (c c' : call) : Prop :=
  match c, c' with
  | CStep y yd ct, CStep y' yd' ct' =>
      state_image n n' (position_image n n' A b) y y' /\ state_image n n' (derivative_image n n' A s) yd yd'
      /\ coupling_image n n' A b s ct ct'
  | CReset, CReset => True
  | CConfigure c, CConfigure c' =>
      c_t c' = option_map (Rmult s) (c_t c)
      /\ argument_image n n' (position_image n n' A b) (c_start_y c) (c_start_y c')
      /\ argument_image n n' (derivative_image n n' A s) (c_start_yd c) (c_start_yd c')
      /\ argument_image n n' (derivative_image n n' A (s ^ 2)) (c_start_ydd c) (c_start_ydd c')
      /\ argument_image n n' (position_image n n' A b) (c_goal_y c) (c_goal_y c')
      /\ argument_image n n' (derivative_image n n' A s) (c_goal_yd c) (c_goal_yd c')
      /\ argument_image n n' (derivative_image n n' A (s ^ 2)) (c_goal_ydd c) (c_goal_ydd c')
  | COpenLoop rt ct, COpenLoop rt' ct' => rt' = s * rt /\ coupling_image n n' A b s ct ct'
  | _, _ => False
  end.

Definition answer_image (n n' : nat) (A : nat -> nat -> R) (b : vec) (s : R) (r r' : answer) : Prop :=
  match r, r' with
  | ANone, ANone => True
  | AState y yd, AState y' yd' =>
      alen y = n /\ alen yd = n /\ alen y' = n' /\ alen yd' = n'
      /\ position_image n n' A b (aget y) (aget y') /\ derivative_image n n' A s (aget yd) (aget yd')
  | AMovement ts ys, AMovement ts' ys' =>
      ts' = map (Rmult s) ts /\ Forall2 (position_image n n' A b) ys ys'
  | _, _ => False
  end.

(** The attributes of the base class in the other coordinates. *)
Record base_image (n n' : nat) (A : nat -> nat -> R) (b : vec) (s : R) (p p' : ptp) : Prop := {
  bi_n : p_n_dims p = n; bi_v : p_n_vel_dims p = n; bi_n' : p_n_dims p' = n'; bi_v' : p_n_vel_dims p' = n';
  bi_t : p_t p' = s * p_t p;
  bi_start : alen (p_start_y p) = n /\ alen (p_start_y p') = n'
    /\ position_image n n' A b (aget (p_start_y p)) (aget (p_start_y p'));
  bi_start_yd : alen (p_start_yd p) = n /\ alen (p_start_yd p') = n';
  bi_goal : alen (p_goal_y p) = n /\ alen (p_goal_y p') = n'
    /\ position_image n n' A b (aget (p_goal_y p)) (aget (p_goal_y p'));
  bi_current : alen (p_current_y p) = n /\ alen (p_current_y p') = n'
    /\ alen (p_current_yd p) = n /\ alen (p_current_yd p') = n'
}.

(** Two objects in corresponding states: stiffness and damping in the other unit of time,
    a default damping stays a default damping. *)
Record object_image (n n' : nat) (A : nat -> nat -> R) (b : vec) (s : R) (o o' : spring_damper) : Prop := {
  oi_base : base_image n n' A b s (s_base o) (s_base o');
  oi_k : s_k o' = s_k o / s ^ 2;
  oi_c : s_c o' = option_map (fun c => c / s) (s_c o);
  oi_dt : s_dt o' = s * s_dt o; oi_int_dt : s_int_dt o' = s * s_int_dt o;
  oi_pos : 0 < s_dt o /\ 0 < s_int_dt o;
  oi_init : s_initialized o' = s_initialized o
}.

(** ** Proofs *)
Definition st_image (n n' : nat) (A : nat -> nat -> R) (b : vec) (s : R) (x x' : vec * vec) : Prop :=
  position_image n n' A b (fst x) (fst x') /\ derivative_image n n' A s (snd x) (snd x').

Lemma damping_image c k s : 0 < s ->
  default_critically_damped_c (option_map (fun c => c / s) c) (k / s ^ 2) = default_critically_damped_c c k / s.
Proof.
  intros Hs. destruct c as [c|]; [reflexivity|]. cbn [option_map default_critically_damped_c].
  rewrite sqrt_div_alt by (apply pow_lt; auto). rewrite sqrt_pow2 by lra. unfold Rdiv. ring.
Qed.

Lemma body_image n n' A b s g g' k c ct ct' t h x x' : 0 < s ->
  position_image n n' A b g g' -> coupling_image n n' A b s ct ct' -> st_image n n' A b s x x' ->
  st_image n n' A b s (sd_body g k c ct None t h x) (sd_body g' (k / s ^ 2) (c / s) ct' None (s * t) (s * h) x').
Proof.
  intros Hs Hg Hct. destruct x as [y v], x' as [y' v']. intros [Hy Hv]. cbn [fst snd] in Hy, Hv.
  assert (Hc : exists cd cdd cd' cdd', match ct with Some f => f y v | None => (vzero, vzero) end = (cd, cdd)
    /\ match ct' with Some f => f y' v' | None => (vzero, vzero) end = (cd', cdd')
    /\ derivative_image n n' A s cd cd' /\ derivative_image n n' A (s ^ 2) cdd cdd').
  { destruct ct as [f|], ct' as [f'|]; try contradiction.
    - destruct (Hct y v y' v' Hy Hv) as [H1 H2]. destruct (f y v) as [cd cdd], (f' y' v') as [cd' cdd'].
      exists cd, cdd, cd', cdd'. auto.
    - exists vzero, vzero, vzero, vzero. repeat split; auto using derivative_image_0. }
  destruct Hc as (cd & cdd & cd' & cdd' & E & E' & H1 & H2).
  unfold sd_body. rewrite E, E'. cbv zeta. cbv iota beta.
  assert (V : derivative_image n n' A s
     (fun d => v d + (h * (k * (g d - y d) - c * v d + cdd d) + cd d))
     (fun d => v' d + (s * h * (k / s ^ 2 * (g' d - y' d) - c / s * v' d + cdd' d) + cd' d))).
  { intros e He. rewrite (Hg e He), (Hy e He), (Hv e He), (H1 e He), (H2 e He).
    rewrite (rsum_ext n (fun d => A e d * (v d + (h * (k * (g d - y d) - c * v d + cdd d) + cd d)))
      (fun d => A e d * v d + (h * (k * (A e d * g d + (-1) * (A e d * y d)) + (- c) * (A e d * v d) + A e d * cdd d)
      + A e d * cd d))) by (intros; ring).
    rewrite !rsum_plus, !rsum_scal, !rsum_plus, !rsum_scal, !rsum_plus, !rsum_scal. field. lra. }
  split; cbn [fst snd]; [|exact V].
  intros e He. rewrite (V e He), (Hy e He).
  rewrite (rsum_ext n (fun d => A e d * (y d + h * (v d + (h * (k * (g d - y d) - c * v d + cdd d) + cd d)))) (fun d => A e d * y d + h * (A e d *
    (v d + (h * (k * (g d - y d) - c * v d + cdd d) + cd d))))) by (intros; ring).
  rewrite !rsum_plus, !rsum_scal. field. lra.
Qed.

Lemma step_image n n' A b s g g' k c ct ct' int_dt lt t x x' : 0 < s -> 0 < int_dt ->
  position_image n n' A b g g' -> coupling_image n n' A b s ct ct' -> st_image n n' A b s x x' ->
  related (st_image n n' A b s) (spring_damper_step g k c ct None int_dt lt t x)
    (spring_damper_step g' (k / s ^ 2) (option_map (fun c => c / s) c) ct' None (s * int_dt) (s * lt) (s * t) x').
Proof.
  intros Hs Hi Hg Hct Hx. unfold spring_damper_step. rewrite damping_image by auto.
  rewrite substeps_fuel_scale by lra.
  apply (substeps_scale (st_image n n' A b s) s); auto.
  intros. now apply body_image.
Qed.

Lemma block_image n n' A b s P x x' f f' p p' : argument_image n n' P x x' -> base_image n n' A b s p p' ->
  (forall a a', alen a = n -> alen a' = n' -> P (aget a) (aget a') -> base_image n n' A b s (f a p) (f' a' p')) ->
  (base_image n n' A b s (fst (configure_block x (p_n_dims p) f p)) (fst (configure_block x' (p_n_dims p') f' p'))
   /\ snd (configure_block x (p_n_dims p) f p) = snd (configure_block x' (p_n_dims p') f' p'))
  /\ (base_image n n' A b s (fst (configure_block x (p_n_vel_dims p) f p)) (fst (configure_block x' (p_n_vel_dims p') f' p'))
   /\ snd (configure_block x (p_n_vel_dims p) f p) = snd (configure_block x' (p_n_vel_dims p') f' p')).
Proof.
  intros Hx Hp Hf. rewrite (bi_n _ _ _ _ _ _ _ Hp), (bi_v _ _ _ _ _ _ _ Hp), (bi_n' _ _ _ _ _ _ _ Hp),
    (bi_v' _ _ _ _ _ _ _ Hp).
  assert (G : base_image n n' A b s (fst (configure_block x n f p)) (fst (configure_block x' n' f' p'))
   /\ snd (configure_block x n f p) = snd (configure_block x' n' f' p')); [|now split].
  unfold configure_block, argument_image in *.
  destruct x as [a|], x' as [a'|]; try tauto.
  destruct Hx as [Hl Hx]. unfold check_1d_array_length.
  destruct (Nat.eqb_spec (alen a) n) as [E|E], (Nat.eqb_spec (alen a') n') as [E'|E']; cbn; try tauto.
  split; [|reflexivity]. now apply Hf.
Qed.

Lemma and_then_image n n' A b s r r' f f' :
  base_image n n' A b s (fst r) (fst r') /\ snd r = snd r' ->
  (forall p p', base_image n n' A b s p p' ->
     base_image n n' A b s (fst (f p)) (fst (f' p')) /\ snd (f p) = snd (f' p')) ->
  base_image n n' A b s (fst (and_then r f)) (fst (and_then r' f')) /\ snd (and_then r f) = snd (and_then r' f').
Proof.
  destruct r as [p e], r' as [p' e']. cbn [fst snd]. intros [Hp <-] Hf. destruct e; cbn; auto.
Qed.

Lemma configure_image n n' A b s c c' p p' : call_image n n' A b s (CConfigure c) (CConfigure c') ->
  base_image n n' A b s p p' ->
  base_image n n' A b s (fst (configure c p)) (fst (configure c' p')) /\ snd (configure c p) = snd (configure c' p').
Proof.
  intros (Ct & C1 & C2 & C3 & C4 & C5 & C6) H. unfold configure. cbv zeta. rewrite Ct.
  set (q := match c_t c with Some t => set_t t p | None => p end).
  set (q' := match option_map (Rmult s) (c_t c) with Some t => set_t t p' | None => p' end).
  assert (Hq : base_image n n' A b s q q').
  { unfold q, q'. destruct (c_t c); [|exact H]. destruct H. constructor; cbn; auto. }
  clearbody q q'. clear H.
  apply and_then_image; [apply (block_image _ _ _ _ _ _ _ _ set_start_y set_start_y _ _ C1 Hq);
    intros a a' La La' Ha; destruct Hq; constructor; cbn; auto|].
  clear q q' Hq. intros q q' Hq.
  apply and_then_image; [apply (block_image _ _ _ _ _ _ _ _ set_start_yd set_start_yd _ _ C2 Hq);
    intros a a' La La' Ha; destruct Hq; constructor; cbn; auto|].
  clear q q' Hq. intros q q' Hq.
  apply and_then_image; [apply (block_image _ _ _ _ _ _ _ _ set_start_ydd set_start_ydd _ _ C3 Hq);
    intros a a' La La' Ha; destruct Hq; constructor; cbn; auto|].
  clear q q' Hq. intros q q' Hq.
  apply and_then_image; [apply (block_image _ _ _ _ _ _ _ _ set_goal_y set_goal_y _ _ C4 Hq);
    intros a a' La La' Ha; destruct Hq; constructor; cbn; auto|].
  clear q q' Hq. intros q q' Hq.
  apply and_then_image; [apply (block_image _ _ _ _ _ _ _ _ set_goal_yd set_goal_yd _ _ C5 Hq);
    intros a a' La La' Ha; destruct Hq; constructor; cbn; auto|].
  clear q q' Hq. intros q q' Hq.
  apply (block_image _ _ _ _ _ _ _ _ set_goal_ydd set_goal_ydd _ _ C6 Hq).
  intros a a' La La' Ha; destruct Hq; constructor; cbn; auto.
Qed.

Lemma assign_image n n' P target target' a a' : alen target = n -> alen target' = n' -> state_image n n' P a a' ->
  (exists r r', assign_slice target a = Ok r /\ assign_slice target' a' = Ok r' /\ alen r = n /\ alen r' = n'
    /\ P (aget r) (aget r'))
  \/ (assign_slice target a = Err ValueError /\ assign_slice target' a' = Err ValueError).
Proof.
  intros L L' [(H1 & H2 & H3)|(H1 & H2 & H3 & H4)]; unfold assign_slice; rewrite L, L'.
  - left. exists a, a'. rewrite H1, H2, !Nat.eqb_refl. auto.
  - right. rewrite (proj2 (Nat.eqb_neq _ _) H1), (proj2 (Nat.eqb_neq _ _) H2), (proj2 (Nat.eqb_neq _ _) H3),
      (proj2 (Nat.eqb_neq _ _) H4). auto.
Qed.

Lemma apply_call_image n n' A b s c c' o o' : 0 < s -> call_image n n' A b s c c' ->
  object_image n n' A b s o o' ->
  object_image n n' A b s (fst (apply_call c o)) (fst (apply_call c' o'))
  /\ related (answer_image n n' A b s) (snd (apply_call c o)) (snd (apply_call c' o')).
Proof.
  intros Hs Hc Ho. pose proof Ho as [B K C D I [P1 P2] J].
  destruct c as [y yd ct| |c|rt ct], c' as [y' yd' ct'| |c'|rt' ct']; try contradiction; cbn [apply_call].
  - destruct Hc as (Hy & Hv & Hct). unfold sd_step. cbv zeta. rewrite J.
    replace (p_t (s_base o') + s_dt o') with (s * (p_t (s_base o) + s_dt o))
      by (rewrite D, (bi_t _ _ _ _ _ _ _ B); ring).
    rewrite (bi_t _ _ _ _ _ _ _ B).
    set (q := if s_initialized o then _ else _). set (q' := if s_initialized o then _ else _).
    assert (Q : base_image n n' A b s q q').
    { unfold q, q'. destruct B. destruct (s_initialized o); constructor; cbn; tauto. }
    clearbody q q'. clear J.
    pose proof (bi_current _ _ _ _ _ _ _ Q) as (L1 & L2 & L3 & L4).
    destruct (assign_image n n' _ _ _ _ _ L1 L2 Hy) as [(r & r' & -> & -> & R1 & R2 & R3)|[-> ->]].
    2:{ cbn [bind fst snd related]. split; [|reflexivity]. constructor; cbn; auto. }
    destruct (assign_image n n' _ _ _ _ _ L3 L4 Hv) as [(w & w' & -> & -> & W1 & W2 & W3)|[-> ->]].
    2:{ cbn [bind fst snd related]. split; [|reflexivity]. constructor; cbn; auto.
        destruct Q; constructor; cbn; tauto. }
    cbn [sd_with s_k s_c s_int_dt]. rewrite K, C, I.
    pose proof (step_image n n' A b s (aget (p_goal_y q)) (aget (p_goal_y q')) (s_k o) (s_c o) ct ct' (s_int_dt o)
      (p_t (s_base o)) (p_t (s_base o) + s_dt o) (aget r, aget w) (aget r', aget w') Hs P2
      ltac:(apply (bi_goal _ _ _ _ _ _ _ Q)) Hct ltac:(split; assumption)) as S.
    destruct (spring_damper_step (aget (p_goal_y q)) _ _ _ _ _ _ _ _) as [[z u]|e],
      (spring_damper_step (aget (p_goal_y q')) _ _ _ _ _ _ _ _) as [[z' u']|e']; cbn [related] in S; try contradiction.
    + destruct S as [S1 S2]. cbn [bind fst snd related answer_image alen aget]. split.
      * constructor; cbn; auto. destruct Q; constructor; cbn; tauto.
      * auto 10.
    + cbn [bind fst snd related]. split; [|exact S]. constructor; cbn; auto. destruct Q; constructor; cbn; tauto.
  - cbn [fst snd related answer_image]. split; [|exact Logic.I]. constructor; cbn; auto.
    destruct B; constructor; cbn; auto. ring.
  - unfold sd_configure. destruct (configure_image n n' A b s c c' _ _ Hc B) as [Hp He].
    destruct (configure c (s_base o)) as [p e], (configure c' (s_base o')) as [p' e'].
    cbn [fst snd] in *. subst e'. split; [constructor; cbn; auto|]. destruct e; reflexivity.
  - destruct Hc as [-> Hct]. cbn [fst snd]. split; [exact Ho|].
    unfold sd_open_loop, spring_damper_open_loop, open_loop_run. rewrite D, K, C, I.
    replace (s * rt + s * s_dt o) with (s * (rt + s_dt o)) by ring.
    replace (arange 0 (s * (rt + s_dt o)) (s * s_dt o)) with (map (Rmult s) (arange 0 (rt + s_dt o) (s_dt o)))
      by (rewrite <- arange_scale by lra; now rewrite Rmult_0_r).
    pose proof (arange_distinct 0 (rt + s_dt o) (s_dt o) ltac:(lra)) as Hd.
    destruct (arange 0 (rt + s_dt o) (s_dt o)) as [|t0 ts]; cbn [map]; [reflexivity|].
    assert (H0 : st_image n n' A b s (aget (p_start_y (s_base o)), vzero) (aget (p_start_y (s_base o')), vzero)).
    { split; cbn [fst snd]; [apply (bi_start _ _ _ _ _ _ _ B)|apply derivative_image_0]. }
    pose proof (run_steps_scale (st_image n n' A b s) s
      (spring_damper_step (aget (p_goal_y (s_base o))) (s_k o) (s_c o) ct None (s_int_dt o))
      (spring_damper_step (aget (p_goal_y (s_base o'))) (s_k o / s ^ 2) (option_map (fun c => c / s) (s_c o)) ct' None
         (s * s_int_dt o))
      ltac:(intros; apply step_image; auto; apply (bi_goal _ _ _ _ _ _ _ B)) ts t0 _ _
      ltac:(intros i Hi; apply (Hd i); cbn; lia) H0) as S.
    destruct (run_steps (spring_damper_step (aget (p_goal_y (s_base o))) _ _ _ _ _) _ _ _) as [l|e],
      (run_steps (spring_damper_step (aget (p_goal_y (s_base o'))) _ _ _ _ _) _ _ _) as [l'|e']; cbn in S;
      try contradiction; cbn; [|exact S].
    split; [reflexivity|]. constructor; [apply H0|].
    clear -S. induction S as [|x x' l l' Hx S IH]; cbn; constructor; auto. apply Hx.
Qed.

(** ** C116 *)
(** Two objects in corresponding states, after corresponding calls, return corresponding
    results or raise the same exception, call after call. *)
Theorem C116_histories : forall n n' A b s o o' cs cs', 0 < s ->
  object_image n n' A b s o o' -> Forall2 (call_image n n' A b s) cs cs' ->
  Forall2 (related (answer_image n n' A b s)) (apply_calls cs o) (apply_calls cs' o').
Proof.
  intros n n' A b s o o' cs cs' Hs Ho H. revert o o' Ho.
  induction H as [|c c' cs cs' Hc H IH]; intros o o' Ho; [constructor|].
  cbn [apply_calls]. destruct (apply_call_image n n' A b s c c' o o' Hs Hc Ho) as [H1 H2].
  destruct (apply_call c o) as [q r], (apply_call c' o') as [q' r']. cbn [fst snd] in *.
  constructor; auto.
Qed.

(** New objects correspond if the map has no offset, and whatever the map as soon as start
    and goal are configured. *)
Theorem C116_new : forall n n' A s dt k c int_dt, 0 < dt -> 0 < int_dt ->
  object_image n n' A (fun _ => 0) s (sd_new n dt k c int_dt)
    (sd_new n' (s * dt) (k / s ^ 2) (option_map (fun c => c / s) c) (s * int_dt)).
Proof.
  intros n n' A s dt k c int_dt Hdt Hi.
  assert (Z : position_image n n' A (fun _ => 0) (fun _ => 0) (fun _ => 0)).
  { intros e _. rewrite (rsum_ext _ _ (fun _ => 0)) by (intros; ring). rewrite rsum_0 by auto. ring. }
  constructor; cbn; auto. constructor; cbn; auto. ring.
Qed.

Theorem C116_configured : forall n n' A b s dt k c int_dt start goal start' goal', 0 < dt -> 0 < int_dt ->
  alen start = n -> alen goal = n -> alen start' = n' -> alen goal' = n' ->
  position_image n n' A b (aget start) (aget start') -> position_image n n' A b (aget goal) (aget goal') ->
  let args start goal := {| c_t := None; c_start_y := Some start; c_start_yd := None; c_start_ydd := None;
                            c_goal_y := Some goal; c_goal_yd := None; c_goal_ydd := None |} in
  object_image n n' A b s (fst (sd_configure (args start goal) (sd_new n dt k c int_dt)))
    (fst (sd_configure (args start' goal')
       (sd_new n' (s * dt) (k / s ^ 2) (option_map (fun c => c / s) c) (s * int_dt)))).
Proof.
  intros n n' A b s dt k c int_dt start goal start' goal' Hdt Hi L1 L2 L3 L4 P1 P2 args.
  unfold sd_configure, configure, args, and_then, configure_block, check_1d_array_length, sd_new, ptp_init.
  cbn. rewrite L1, L3, !Nat.eqb_refl. cbn. rewrite L2, L4, !Nat.eqb_refl. cbn.
  constructor; cbn; auto. constructor; cbn; auto. ring.
Qed.

(** A spring along the x-axis, and the spring three times as slow along the diagonal of a
    plane, two units above the origin: two steps of 1/10 and 3/10 seconds from rest. *)
Example C116_satisfiable : exists A b o o' y cs cs' y1 yd1 y1' yd1' rest rest',
  object_image 1 2 A b 3 o o' /\ s_k o = 25 /\ s_k o' = 25 / 9 /\ s_c o = None /\ s_c o' = None
  /\ Forall2 (call_image 1 2 A b 3) cs cs' /\ cs = [CStep y (zeros 1) None; CReset; CStep y (zeros 2) None; COpenLoop 1 None]
  /\ apply_calls cs o = Ok (AState y1 yd1) :: rest /\ apply_calls cs' o' = Ok (AState y1' yd1') :: rest'
  /\ nth_error rest 1 = Some (Err ValueError) /\ nth_error rest' 1 = Some (Err ValueError)
  /\ aget yd1 0%nat = 5 / 2 /\ aget yd1' 0%nat = 5 / 6 /\ aget yd1' 1%nat = 5 / 6
  /\ aget y1 0%nat = 1 / 4 /\ aget y1' 0%nat = 1 / 4 /\ aget y1' 1%nat = 9 / 4.
Proof.
  set (A := fun _ _ : nat => 1). set (b := fun e : nat => if (e =? 1)%nat then 2 else 0).
  set (args start goal := {| c_t := None; c_start_y := Some start; c_start_yd := None; c_start_ydd := None;
                            c_goal_y := Some goal; c_goal_yd := None; c_goal_ydd := None |}).
  set (g := {| alen := 1; aget := fun _ => 1 |}).
  set (st := {| alen := 2; aget := fun e => if (e =? 1)%nat then 2 else 0 |}).
  set (go := {| alen := 2; aget := fun e => if (e =? 1)%nat then 3 else 1 |}).
  assert (P1 : position_image 1 2 A b (aget (zeros 1)) (aget st)).
  { intros e He. unfold A, b, st. cbn. unfold vzero. destruct (e =? 1)%nat; lra. }
  assert (P2 : position_image 1 2 A b (aget g) (aget go)).
  { intros e He. unfold A, b, go. cbn. destruct (e =? 1)%nat; lra. }
  set (o := fst (sd_configure (args (zeros 1) g) (sd_new 1 (1 / 10) 25 None (1 / 10)))).
  set (o' := fst (sd_configure (args st go) (sd_new 2 (3 * (1 / 10)) (25 / 3 ^ 2) None (3 * (1 / 10))))).
  assert (Ho : object_image 1 2 A b 3 o o').
  { apply (C116_configured 1 2 A b 3 (1 / 10) 25 None (1 / 10) (zeros 1) g st go); auto; lra. }
  set (cs := [CStep (zeros 1) (zeros 1) None; CReset; CStep (zeros 1) (zeros 2) None; COpenLoop 1 None]).
  set (cs' := [CStep st (zeros 2) None; CReset; CStep st (zeros 3) None; COpenLoop (3 * 1) None]).
  assert (Hcs : Forall2 (call_image 1 2 A b 3) cs cs').
  { pose proof (derivative_image_0 1 2 A 3) as Z.
    repeat constructor; cbn; auto; try (left; now auto); right; repeat split; lia. }
  pose proof (C116_histories 1 2 A b 3 o o' cs cs' ltac:(lra) Ho Hcs) as H.
  assert (E : exists y1 yd1 rest, apply_calls cs o = Ok (AState y1 yd1) :: rest
    /\ nth_error rest 1 = Some (Err ValueError) /\ aget y1 0%nat = 1 / 4 /\ aget yd1 0%nat = 5 / 2).
  { destruct (sd_step_eq o (zeros 1) (zeros 1) None)
      as (z & q & Ez & E & _ & _ & _ & _ & _ & _ & Q1 & Q2 & Q3 & Q4); try reflexivity; try (cbn; lra).
    assert (Z : fst z 0%nat = 1 / 4 /\ snd z 0%nat = 5 / 2).
    { cbn in Ez. unfold spring_damper_step in Ez.
      destruct (substeps_tiles 0 (0 + 1 / 10) (1 / 10) ltac:(lra) ltac:(lra)) as [l [Ht Hs]]. rewrite Hs in Ez.
      rewrite (tiles_single (1 / 10) 0 (0 + 1 / 10) l ltac:(lra) Ht) in Ez. injection Ez as <-.
      unfold exec_substeps. cbn. unfold vzero. split; field. }
    assert (N : snd (apply_call (CStep (zeros 1) (zeros 2) None) (sd_reset q)) = Err ValueError).
    { cbn [apply_call]. unfold sd_step. cbv zeta.
      set (p := if s_initialized (sd_reset q) then _ else _).
      assert (L1 : alen (p_current_y p) = 1%nat).
      { unfold p. cbn. destruct (s_initialized q); cbn; rewrite ?Q1, ?Q3; reflexivity. }
      assert (L2 : alen (p_current_yd p) = 1%nat).
      { unfold p. cbn. destruct (s_initialized q); cbn; rewrite ?Q2, ?Q4; reflexivity. }
      clearbody p. unfold assign_slice. rewrite L1. cbn [zeros alen Nat.eqb].
      cbn [sd_with s_base set_current p_current_yd]. rewrite L2. reflexivity. }
    cbn [cs apply_calls]. destruct (apply_call (CStep (zeros 1) (zeros 1) None) o) as [q0 r0] eqn:E0.
    cbn [apply_call] in E0. rewrite E in E0. cbn [bind fst snd] in E0. injection E0 as <- <-.
    change (apply_call CReset q) with (sd_reset q, Ok ANone : res answer). cbv iota beta.
    destruct (apply_call (CStep (zeros 1) (zeros 2) None) (sd_reset q)) as [q2 r2]. cbn [snd] in N. subst r2.
    eexists _, _, _. split; [reflexivity|]. split; [reflexivity|]. exact Z. }
  destruct E as (y1 & yd1 & rest & E & Er & Y & V). rewrite E in H.
  destruct (apply_calls cs' o') as [|r' rest'] eqn:E'; [inversion H|].
  inversion H as [|? ? ? ? H1 H2]; subst; clear H.
  destruct r' as [[|y1' yd1'|]|]; cbn in H1; try contradiction.
  destruct H1 as (_ & _ & _ & _ & H3 & H4).
  exists A, b, o, o', (zeros 1), cs, cs', y1, yd1, y1', yd1', rest, rest'.
  pose proof (Forall2_nth _ _ _ H2 1) as N. rewrite Er in N.
  destruct (nth_error rest' 1) as [[|e]|]; cbn in N; try contradiction. subst e.
  pose proof (H3 0%nat ltac:(lia)) as A0. pose proof (H3 1%nat ltac:(lia)) as A1.
  pose proof (H4 0%nat ltac:(lia)) as B0. pose proof (H4 1%nat ltac:(lia)) as B1.
  cbn in A0, A1, B0, B1. unfold A, b in A0, A1, B0, B1. cbn in A0, A1, B0, B1.
  split; [exact Ho|]. split; [reflexivity|]. split; [cbn; field|]. do 2 (split; [reflexivity|]).
  split; [exact Hcs|]. split; [reflexivity|]. split; [exact E|]. split; [exact E'|].
  split; [exact Er|]. split; [reflexivity|]. repeat split; auto; lra.
Qed.
