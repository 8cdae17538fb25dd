(** Learning a ProMP with one weight from demonstrations with two steps: closed
    form of one iteration. *)
From Coq Require Import Reals List Arith Bool Lia Lra.
From Verif Require Import M_Prelude M_Base P_Loops M_Matrix P_Matrix M_DmpObject M_Ridge M_ProMP P_ProMP
  Properties_Ridge Properties_ProMP Properties_ProMPImitate Properties_ProMPWeights Properties_ProMPEM.
Import ListNotations.
Open Scope R_scope.
Set Bullet Behavior "Strict Subproofs".

(** The demonstration (y0, y1) at the times 0 and 1. *)
Definition demo2 (y0 y1 : R) : pdemo :=
  {| pd_T := ex_T; pd_rows := 2; pd_Y := fun t _ => if (t =? 0)%nat then y0 else y1 |}.

Definition em1 (y0 y1 : R) (e : em_terms) : Prop :=
  e_RTR e = (y0 - 7/10 * y1) ^ 2 + y1 ^ 2 /\ e_PhiHTR e 0%nat = 3/10 * (y0 - 7/10 * y1) + y1
  /\ e_PhiHTHPhiT e 0%nat 0%nat = 109/100 /\ sized 1 1 (e_PhiHTHPhiT e).

Lemma em1_ok o y0 y1 : is_promp 1 1 o -> exists e T', em_precompute o (demo2 y0 y1) = Ok (e, T') /\ em1 y0 y1 e.
Proof.
  intros Ho. destruct (promp_dims 1 1 o Ho) as (ED & EN & _).
  unfold em_precompute. rewrite rbfs_nd_sequence_ok by (cbn; lia). rewrite ED, EN. cbn [bind demo2 pd_T pd_rows pd_Y ex_T alen Nat.eqb negb fst snd].
  set (H := nd_block_diagonal 2 2 (h_partial 2) 1).
  assert (EH : forall i j, (i < 2)%nat -> (j < 2)%nat -> H i j = h_partial 2 i j).
  { intros i j Hi Hj. exact (nd_block_in 2 2 (h_partial 2) 1 0 i j ltac:(lia) Hi Hj). }
  set (Phi := nd_block_diagonal 1 2 _ 1).
  assert (EP : forall j, (j < 2)%nat -> Phi 0%nat j = 1).
  { intros j Hj. unfold Phi. etransitivity; [exact (nd_block_in 1 2 _ 1 0 0 j ltac:(lia) ltac:(lia) Hj)|].
    rewrite crop_in by lia. assert (G := basis_sum o (rel_time ex_T j)). rewrite EN in G. cbn [rsum] in G.
    rewrite <- G by lia. unfold demo2, pd_T. ring. }
  assert (P00 : h_partial 2 0%nat 0%nat = 1) by (cbn; reflexivity).
  assert (P01 : h_partial 2 0%nat 1%nat = - (7/10)) by (cbn; reflexivity).
  assert (P10 : h_partial 2 1%nat 0%nat = 0) by (cbn; reflexivity).
  assert (P11 : h_partial 2 1%nat 1%nat = 1) by (cbn; reflexivity).
  set (Y := T_ravel 2 1 _).
  assert (Y0 : Y 0%nat = y0) by reflexivity. assert (Y1 : Y 1%nat = y1) by reflexivity.
  set (R := mvec (1 * 2) H Y).
  assert (R0 : R 0%nat = y0 - 7/10 * y1).
  { unfold R, mvec. cbn [rsum Nat.mul Nat.add]. rewrite !EH, P00, P01, Y0, Y1 by lia. lra. }
  assert (R1 : R 1%nat = y1).
  { unfold R, mvec. cbn [rsum Nat.mul Nat.add]. rewrite !EH, P10, P11, Y0, Y1 by lia. lra. }
  set (B := mmul (1 * 2) Phi (mT H)).
  assert (B0 : B 0%nat 0%nat = 3/10).
  { unfold B, mmul, mT. cbn [rsum Nat.mul Nat.add]. rewrite !EH, !EP, P00, P01 by lia. lra. }
  assert (B1 : B 0%nat 1%nat = 1).
  { unfold B, mmul, mT. cbn [rsum Nat.mul Nat.add]. rewrite !EH, !EP, P10, P11 by lia. lra. }
  do 2 eexists. split; [reflexivity|]. unfold em1. cbn [e_RTR e_PhiHTR e_PhiHTHPhiT]. split; [|split; [|split]].
  - unfold dot. cbn [rsum Nat.mul Nat.add]. rewrite R0, R1. lra.
  - unfold mvec at 1. cbn [rsum Nat.mul Nat.add]. rewrite B0, B1, R0, R1. lra.
  - unfold mmul at 1. unfold mT at 1. cbn [rsum Nat.mul Nat.add]. rewrite B0, B1. lra.
  - assert (SB : sized 1 (1 * 2) B).
    { apply (sized_mmul _ (1 * 2)); [exact (sized_nd_block 1 2 _ 1)|]. apply sized_mT. exact (sized_nd_block 2 2 _ 1). }
    apply (sized_mmul _ (1 * 2)); auto. now apply sized_mT.
Qed.

Definition scal1 (x : R) : mat := fun i j => if ((i =? 0) && (j =? 0))%nat%bool then x else 0.
Lemma sized_scal1 x : sized 1 1 (scal1 x).
Proof. intros [|i] [|j] H; cbn; try reflexivity; lia. Qed.
Lemma scal1_eq C : sized 1 1 C -> C = scal1 (C 0%nat 0%nat).
Proof. intros S. apply (mat_ext_sized 1 1); auto using sized_scal1. intros i j Hi Hj. replace i with 0%nat by lia. now replace j with 0%nat by lia. Qed.
Lemma inverse_scal1 c : c <> 0 -> inverse 1 (scal1 c) (scal1 (/ c)).
Proof.
  intros Hc. split; [apply sized_scal1|].
  split; apply (mat_ext_sized 1 1); try (apply (sized_mmul _ 1); apply sized_scal1); try apply sized_eye;
    intros i j Hi Hj; replace i with 0%nat by lia; replace j with 0%nat by lia; unfold mmul, scal1, eye; cbn; field; auto.
Qed.
Lemma pinv_1 C : sized 1 1 C -> C 0%nat 0%nat <> 0 -> np_linalg_pinv 1 1 C = scal1 (/ C 0%nat 0%nat).
Proof. intros S Hc. apply (inverse_pinv 1); auto. rewrite (scal1_eq C S) at 1. now apply inverse_scal1. Qed.

(** Posterior of one demonstration. *)
Definition post_var (v c : R) : R := / (109/100 / v + / c).
Definition post_mean (v c m h : R) : R := post_var v c * (h / v + m / c).
Lemma expectation_1 v m C e y0 y1 : em1 y0 y1 e -> 0 < v -> sized 1 1 C -> 0 < C 0%nat 0%nat ->
  exists mu S, expectation 1 v m C e = Ok (mu, S) /\ S 0%nat 0%nat = post_var v (C 0%nat 0%nat)
   /\ mu 0%nat = post_mean v (C 0%nat 0%nat) (m 0%nat) (e_PhiHTR e 0%nat).
Proof.
  intros (_ & _ & EG & SG) Hv SC Hc. unfold expectation. destruct (Req_EM_T v 0); [lra|].
  rewrite (pinv_1 C) by (auto; lra). set (M := madd _ _).
  assert (SM : sized 1 1 M) by (apply sized_madd; [now apply sized_mscale|apply sized_scal1]).
  assert (EM : M 0%nat 0%nat = 109/100 / v + / C 0%nat 0%nat).
  { unfold M, madd, mscale, scal1. cbn. rewrite EG. unfold Rdiv. ring. }
  assert (0 < / C 0%nat 0%nat) by now apply Rinv_0_lt_compat.
  assert (0 < 109/100 / v) by (apply Rdiv_lt_0_compat; lra).
  rewrite (pinv_1 M) by (auto; lra). do 2 eexists. split; [reflexivity|]. rewrite EM. split; [reflexivity|].
  unfold mvec, vadd, vscale, scal1, post_mean, post_var. cbn. unfold Rdiv. ring.
Qed.

(** One iteration for [k] copies of the same demonstration. *)
Lemma expectation_all_repeat K v m C e p k : expectation K v m C e = Ok p ->
  expectation_all K v m C (repeat e k) = Ok (repeat p k).
Proof. intros E. induction k as [|k IH]; cbn [repeat expectation_all]; [reflexivity|]. rewrite E, IH. reflexivity. Qed.
Lemma lsum_repeat x k : lsum (repeat x k) = INR k * x.
Proof. unfold lsum. induction k as [|k IH]; [cbn; ring|]. cbn [repeat fold_right]. rewrite IH, S_INR. ring. Qed.
Lemma map_repeat' {A B} (f : A -> B) x k : map f (repeat x k) = repeat (f x) k.
Proof. induction k; cbn; congruence. Qed.
Lemma combine_repeat {A B} (x : A) (y : B) k : combine (repeat x k) (repeat y k) = repeat (x, y) k.
Proof. induction k; cbn; congruence. Qed.
Lemma vsum_repeat v k i : vsum (repeat v k) i = INR k * v i.
Proof.
  unfold vsum. induction k as [|k IH]; [cbn; unfold vzero; ring|]. cbn [repeat fold_right]. unfold vadd at 1. rewrite IH, S_INR. ring.
Qed.
Lemma msum_repeat v k i j : msum (repeat v k) i j = INR k * v i j.
Proof.
  unfold msum. induction k as [|k IH]; [cbn; unfold mzero; ring|]. cbn [repeat fold_right]. unfold madd at 1. rewrite IH, S_INR. ring.
Qed.

Definition new_var (k ns : nat) (mu s q h : R) : R :=
  INR k * (109/100 * s + q - 2 * (h * mu) + mu * (109/100 * mu)) / (sqrt (INR k * (mu * mu)) * INR k * INR ns + 2).
Lemma maximization_repeat mu S e k ns y0 y1 : (0 < k)%nat -> em1 y0 y1 e ->
  let st := maximization 1 1 (repeat (mu, S) k) (repeat e k) ns in
  fst (fst st) 0%nat = mu 0%nat /\ snd (fst st) 0%nat 0%nat = S 0%nat 0%nat
  /\ snd st = new_var k ns (mu 0%nat) (S 0%nat 0%nat) (e_RTR e) (e_PhiHTR e 0%nat).
Proof.
  intros Hk (_ & _ & EG & SG). unfold maximization. rewrite !map_repeat', repeat_length, combine_repeat, !map_repeat'. cbn [fst snd].
  assert (Hk' : INR k <> 0) by (apply not_0_INR; lia).
  split; [|split].
  - unfold vscale. rewrite vsum_repeat. field. auto.
  - unfold mscale, madd, vsub, vscale. rewrite !msum_repeat, vsum_repeat. field. auto.
  - rewrite !lsum_repeat. unfold new_var, dot, mmul, mvec. cbn [rsum INR]. rewrite EG. rewrite !Rplus_0_l, !Rmult_1_r. reflexivity.
Qed.

(** The state after one more iteration. *)
Lemma em_step_repeat k ns md e y0 y1 n (m : vec) (C : mat) v : (0 < k)%nat -> em1 y0 y1 e -> 0 < v -> sized 1 1 C -> 0 < C 0%nat 0%nat -> md <= 0 ->
  let c := C 0%nat 0%nat in let s := post_var v c in let mu := post_mean v c (m 0%nat) (e_PhiHTR e 0%nat) in
  exists (m' : vec) (C' : mat), m' 0%nat = mu /\ C' 0%nat 0%nat = s /\ sized 1 1 C'
  /\ em_loop 1 1 ns (S n) md (repeat e k) (m, C, v)
     = em_loop 1 1 ns n md (repeat e k) (m', C', new_var k ns mu s (e_RTR e) (e_PhiHTR e 0%nat)).
Proof.
  intros Hk He Hv SC Hc Hmd c s mu. destruct (expectation_1 v m C e y0 y1 He Hv SC Hc) as (w & S & E & ES & Ew).
  assert (HE := expectation_all_repeat 1 v m C e (w, S) k E).
  destruct (maximization_repeat w S e k ns y0 y1 Hk He) as (M1 & M2 & M3).
  assert (SS : sized 1 1 (snd (fst (maximization 1 1 (repeat (w, S) k) (repeat e k) ns)))).
  { assert (SV : sized 1 1 S /\ vsized 1 w).
    { unfold expectation in E. destruct (Req_EM_T v 0); [lra|]. injection E as <- <-.
      destruct He as (_ & _ & _ & SG).
      assert (SX := np_linalg_pinv_spec 1 1 C SC).
      assert (SM := np_linalg_pinv_spec 1 1 _ (sized_madd 1 1 _ _ (sized_mscale 1 1 (/ v) _ SG) (proj1 SX))).
      split; [apply SM|]. apply vsized_mvec. intros i j Hi. apply SM. auto. }
    destruct SV as [SS SW]. unfold maximization. rewrite !map_repeat'. cbn [fst snd].
    apply sized_mscale. intros i j H. unfold madd. rewrite !msum_repeat, SS by auto. unfold vsub, vscale. rewrite !vsum_repeat.
    destruct H as [H|H]; rewrite (SW _ H); ring. }
  exists (fst (fst (maximization 1 1 (repeat (w, S) k) (repeat e k) ns))), (snd (fst (maximization 1 1 (repeat (w, S) k) (repeat e k) ns))).
  rewrite M1, M2, Ew, ES. split; [reflexivity|]. split; [reflexivity|]. split; [exact SS|].
  cbn [em_loop]. rewrite HE. cbn [bind]. destruct (Rlt_dec _ _) as [HL|HL].
  { exfalso. eapply Rlt_not_le; [exact HL|]. eapply Rle_trans; [exact Hmd|]. apply sqrt_pos. }
  f_equal. destruct (maximization 1 1 (repeat (w, S) k) (repeat e k) ns) as [[a b] d]. cbn [fst snd] in *. rewrite M3, Ew, ES. reflexivity.
Qed.

Lemma em_precompute_all_repeat o d e T k : em_precompute o d = Ok (e, T) ->
  em_precompute_all o (repeat d k) = Ok (repeat e k, repeat T k).
Proof. intros E. induction k as [|k IH]; cbn [repeat em_precompute_all]; [reflexivity|]. rewrite E, IH. reflexivity. Qed.
Lemma rows_repeat y0 y1 k : fold_right Nat.add 0%nat (map pd_rows (repeat (demo2 y0 y1) k)) = (2 * k)%nat.
Proof. induction k as [|k IH]; [reflexivity|]. cbn [repeat map fold_right]. rewrite IH. cbn. lia. Qed.
