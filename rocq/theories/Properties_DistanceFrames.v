(** C136 (coupled positions in another frame). *)
From Coq Require Import Reals List Arith Lia Lra.
From Verif Require Import M_Prelude M_Canonical M_Forcing M_Dmp M_Base M_DmpObject M_Quaternion M_Cartesian M_Dual M_Coupling
  M_Ridge P_DmpObject P_DmpLinear P_Quaternion Properties_DmpObject Properties_Equivariance Properties_ObstacleFrames.
Import ListNotations.
Open Scope R_scope.
Set Bullet Behavior "Strict Subproofs".

(** ** Specification *)
(** The map [A], applied to the first and to the second half of an array of [2 m]
    entries; the shift [p] of both halves. *)
Definition twice (m : nat) (A : nat -> nat -> R) (d e : nat) : R :=
  if Nat.eqb (d / m) (e / m) then A (d mod m) (e mod m) else 0.
Definition twice_shift (m : nat) (p : vec) (d : nat) : R := p (d mod m).

(** ** C136 *)
(** CouplingTermPos3DToPos3D: the desired displacement is mapped as a vector. *)
Theorem C136_positions_3d : forall A p sp desired,
  moved_coupling 6 (twice 3 A) (twice_shift 3 p) (pos3d_coupling sp desired)
    (pos3d_coupling sp (v3_of (affine 3 A vzero (vec_of_v3 desired)))).
Proof.
  intros A p sp desired y' y v' v Hy Hv d Hd.
  pose proof (fun k H => Hy k H) as K.
  pose proof (K 0%nat ltac:(lia)) as K0. pose proof (K 1%nat ltac:(lia)) as K1. pose proof (K 2%nat ltac:(lia)) as K2.
  pose proof (K 3%nat ltac:(lia)) as K3. pose proof (K 4%nat ltac:(lia)) as K4. pose proof (K 5%nat ltac:(lia)) as K5.
  clear K Hy Hv. unfold affine, twice, twice_shift in *. cbn in K0, K1, K2, K3, K4, K5.
  unfold pos3d_coupling, spring_forces, v3_of, slice. cbn [fst snd Nat.ltb Nat.leb Nat.add].
  rewrite K0, K1, K2, K3, K4, K5. clear K0 K1 K2 K3 K4 K5.
  destruct desired as [d0 d1 d2].
  destruct d as [|[|[|[|[|[|d]]]]]]; try lia; unfold vec6, vec_of_v3, affine, vzero; cbn; split; ring.
Qed.

(** CouplingTermPos1DToPos1D: the scale may change, the desired distance changes with
    it. *)
Theorem C136_positions_1d : forall A p sp desired,
  moved_coupling 2 (twice 1 A) (twice_shift 1 p) (pos1d_coupling sp desired)
    (pos1d_coupling sp (A 0%nat 0%nat * desired)).
Proof.
  intros A p sp desired y' y v' v Hy Hv d Hd.
  pose proof (Hy 0%nat ltac:(lia)) as K0. pose proof (Hy 1%nat ltac:(lia)) as K1.
  clear Hy Hv. unfold affine, twice, twice_shift in *. cbn in K0, K1.
  unfold pos1d_coupling. cbn [fst snd]. rewrite K0, K1.
  destruct d as [|[|d]]; try lia; unfold vec2, vzero; cbn; split; ring.
Qed.

(** Two coupled positions in one DMP: after imitating the demonstration in the other
    frame, with the desired displacement mapped as a vector, the run is the mapped run. *)
Theorem C136_positions_run : forall A p sp desired o o' junk junk' dm lam allow fn run_t,
  reachable 6 o -> reachable 6 o' -> same_settings o o' -> 0 < o_int_dt o -> 0 <= lam -> demonstrates 6 dm ->
  (forall d e, (d < 6)%nat -> (e < 6)%nat ->
    aget (o_alpha_y o') d = aget (o_alpha_y o) e /\ aget (o_beta_y o') d = aget (o_beta_y o) e) ->
  moved_runs 6 (twice 3 A) (twice_shift 3 p)
    (dmp_open_loop run_t (Some (pos3d_coupling sp desired)) fn (imitate junk dm lam allow o))
    (dmp_open_loop run_t (Some (pos3d_coupling sp (v3_of (affine 3 A vzero (vec_of_v3 desired))))) fn
       (imitate junk' (mapped 6 6 (twice 3 A) (twice_shift 3 p) dm) lam allow o')).
Proof. intros. apply C135_coupling; auto. apply C136_positions_3d. Qed.

Example C136_positions_satisfiable :
  let A := fun d e : nat => match d, e with 0%nat, 1%nat => -1 | 1%nat, 0%nat => 1 | 2%nat, 2%nat => 1 | _, _ => 0 end in
  v3_of (affine 3 A vzero (vec_of_v3 (V3 1 2 3))) = V3 (-2) 1 3
  /\ affine 6 (twice 3 A) (twice_shift 3 INR) INR 4%nat = 4
  /\ exists o, reachable 6 o /\ same_settings o o /\ 0 < o_int_dt o
     /\ (forall d e, aget (o_alpha_y o) d = aget (o_alpha_y o) e /\ aget (o_beta_y o) d = aget (o_beta_y o) e)
     /\ demonstrates 6 {| d_n := 3; d_T := INR; d_rows := 3; d_dims := 6; d_Y := fun t d => INR (t * d) |}.
Proof.
  intros A. split; [unfold affine, A, vzero; apply v3_eq; cbn; ring|]. split; [unfold affine, twice, twice_shift, A; cbn; ring|].
  destruct (ex_new_ok 6 25 (25/4)) as (f & o & E & Ef & Eo).
  assert (Hr : reachable 6 o) by (eapply ex_reachable; eauto).
  exists o. split; [exact Hr|]. split; [repeat split|]. rewrite Eo. cbn.
  split; [lra|]. split; [intros; split; reflexivity|]. unfold demonstrates. cbn. repeat split; lra.
Qed.
