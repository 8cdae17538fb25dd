(** C131 for the positions of a CartesianDMP.  Final statements. *)
From Coq Require Import Reals ZArith List Arith Bool Lia Lra Psatz FunctionalExtensionality.
From Coquelicot Require Import Complex.
From Verif Require Import M_Prelude M_Canonical M_Forcing M_Dmp M_Base M_DmpObject M_Ridge M_SpringDamper
  M_Quaternion M_Cartesian S_Loops S_Dmp S_Attributes S_Stability P_Loops P_Forcing P_DmpStep P_Stability P_CartesianHistory P_Cartesian P_DmpObject P_Components
  Properties_Forcing Properties_Dmp Properties_DmpObject Properties_Goal Properties_Equivariance Properties_Continuity
  Properties_Stability Properties_ContinuityAll Properties_CartesianObject Properties_Attributes
  Properties_CartesianHistory Properties_CartesianMore Properties_Rate.
Import ListNotations.
Open Scope R_scope.
Set Bullet Behavior "Strict Subproofs".

(** ** Specification *)
(** As [decays_at] in Properties_Rate.v, for component [j] of the position. *)
Definition position_decays_at (lam : R) (fn : step_function) (o : cart) (j : nat) : Prop :=
  let tau := k_execution_time o in
  let c := aget (k_alpha o) j / tau in let k := aget (k_alpha o) j * aget (k_beta o) j / tau ^ 2 in
  lam * ft_goal_t (k_fpos o) <= ln 100
  /\ match fn with
     | RK4 | RK4_cython =>
         forall l, rate c k l -> Cmod (rk4_growth (RtoC (k_dt o) * l)%C) < exp (- lam * k_dt o)
     | Euler | Euler_cython =>
         equal_parts (k_dt o) (k_int_dt o)
         /\ let h := Rmin (k_dt o) (k_int_dt o) in
            forall mu, euler_growth h c k mu -> Cmod mu < exp (- lam * h)
     end.

(** ** Proofs *)
Lemma twin_decays lam fn o d j : twin o d -> (j < 3)%nat ->
  decays_at lam fn d j <-> position_decays_at lam fn o j.
Proof.
  intros H Hj. unfold position_decays_at, decays_at, dmp_damping, dmp_stiffness.
  now rewrite (twin_alpha o d j H), (twin_beta o d j H), (tw_time _ _ H), (tw_dt _ _ H), (tw_int_dt _ _ H),
    (twin_goal_t _ _ H).
Qed.

(** ** C131 *)
Theorem C131_cartesian : forall fn o0 j lam, cart_made o0 -> (j < 3)%nat ->
  0 < k_execution_time o0 -> 0 < k_dt o0 -> 0 < k_int_dt o0 -> 0 <= lam -> position_decays_at lam fn o0 j ->
  exists K, forall i o W run_t ts ys, cart_made o -> same_position_settings j o0 o ->
  0 <= W -> (forall w, (w < k_n o)%nat -> Rabs (ft_weights (k_fpos o) j w) <= W) ->
  cart_open_loop run_t None (Some fn) (Some i) o = Ok (ts, ys) ->
  length ys = length ts
  /\ forall k, (k < length ys)%nat ->
  Rabs (aget (nth k ys (zeros 7)) j - aget (p_goal_y (k_base o)) j)
  <= K * (Rabs (aget (p_start_y (k_base o)) j - aget (p_goal_y (k_base o)) j) + W)
     * exp (- lam * nth k ts 0).
Proof.
  intros fn o0 j lam Hm0 Hj P1 P2 P3 Hl Hdec.
  destruct (cart_made_stand_in o0 Hm0) as [(d0 & Hr0 & Hd0) _].
  destruct (C131_rate fn d0 j lam) as [K HK];
    rewrite ?(tw_time _ _ Hd0), ?(tw_dt _ _ Hd0), ?(tw_int_dt _ _ Hd0); auto; [now apply (twin_decays lam fn o0)|].
  exists K. intros i o W run_t ts ys Hm S HW0 HW O.
  destruct (cart_made_stand_in o Hm) as [(d & Hr & Hd) _].
  destruct (twin_open_loop _ _ _ _ _ _ _ Hd O) as (y3 & O3 & HL & HN).
  destruct (twin_settings _ _ _ _ j Hd0 Hd Hj S) as [S1 G1].
  destruct (HK 3%nat d W run_t ts y3 Hr S1 G1) as [HL3 HB]; [|exact O3|].
  { split; auto. intros w Hw. rewrite (tw_n _ _ Hd) in Hw. rewrite (twin_w _ _ j Hd) by lia. auto. }
  split; [lia|]. intros k Hk. specialize (HB k ltac:(lia)).
  rewrite (HN k j ltac:(lia) Hj) in HB.
  rewrite (twin_start _ _ j Hd), (twin_goal _ _ j Hd) in HB by auto. exact HB.
Qed.

(** Whenever the steps shrink there is a positive rate. *)
Theorem C131_cartesian_exponential : forall fn o j, cart_made o -> (j < 3)%nat ->
  0 < k_execution_time o -> 0 < k_dt o -> 0 < k_int_dt o -> position_steps_shrink fn o j ->
  exists lam, 0 < lam /\ position_decays_at lam fn o j.
Proof.
  intros fn o j Hm Hj P1 P2 P3 Hst.
  destruct (cart_made_stand_in o Hm) as [(d & Hr & Hd) _].
  destruct (C131_always_exponential 3 d fn j Hr) as (lam & Hl & H);
    rewrite ?(tw_time _ _ Hd), ?(tw_dt _ _ Hd), ?(tw_int_dt _ _ Hd); auto; [now apply (twin_shrinks fn o)|].
  exists lam. split; auto. now apply (twin_decays lam fn o d).
Qed.

(** A CartesianDMP that is not critically damped and has been given start and goal. *)
Example C131_cartesian_satisfiable : exists o ts ys, cart_made o
  /\ 0 < k_execution_time o /\ 0 < k_dt o /\ 0 < k_int_dt o
  /\ (exists lam, 0 < lam /\ position_decays_at lam RK4 o 1)
  /\ (exists lam, 0 < lam /\ position_decays_at lam Euler o 1)
  /\ same_position_settings 1 o o
  /\ (forall w, (w < k_n o)%nat -> Rabs (ft_weights (k_fpos o) 1%nat w) <= 0)
  /\ cart_open_loop None None (Some RK4) (Some Python) o = Ok (ts, ys).
Proof.
  destruct C104_more_satisfiable as (o & o' & ts & ys & ts' & ys' & H1 & H2 & H3 & H4 & H5 & H6 & H7 & H8 & H9
    & H10 & H11 & H12 & H13 & H14 & H15 & H16 & H17).
  exists o, ts, ys. repeat (split; [assumption|]).
  split; [apply C131_cartesian_exponential; auto|]. split; [apply C131_cartesian_exponential; auto|].
  split; [assumption|]. split; [|assumption].
  intros w _. rewrite H14, Rabs_R0. lra.
Qed.
