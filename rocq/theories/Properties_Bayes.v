(** C90: conditioning a ProMP is Bayesian inference, so the order of the
    conditions is irrelevant. *)
From Coq Require Import Reals List Arith Lia Lra Permutation.
From Verif Require Import M_Prelude M_Base P_Loops M_Matrix P_Matrix M_DmpObject M_Ridge M_ProMP P_ProMP
  P_Conditioning P_Bayes Properties_ProMP Properties_Conditioning.
Import ListNotations.
Open Scope R_scope.
Set Bullet Behavior "Strict Subproofs".

(** ** Specification *)
(** The observation noise as a matrix: a row is repeated by numpy. *)
Definition noise_matrix (c : obs_cov) : mat :=
  match c with NoCov => fun _ _ => 0 | RowCov r => fun _ j => r j | FullCov C => C end.
(** [x^T M x] *)
Definition form (n : nat) (M : mat) (x : vec) : R :=
  rsum n (fun i => rsum n (fun j => x i * M i j * x j)).
(** Position at relative time [s] of the movement with weights [w]: component
    [d] has the weights [d * N, ..., d * N + N - 1]. *)
Definition position (D N : nat) (s : R) (w : vec) : vec :=
  fun d => rsum N (fun k => basis (promp_new D N) s k * w (d * N + k)%nat).
(** The linear form [x . w] minus [v . position w], as weights of [w]. *)
Definition leftover (D N : nat) (s : R) (x v : vec) : vec :=
  fun i => x i - v (i / N)%nat * basis (promp_new D N) s (i mod N)%nat.
(** One call of [condition_position]. *)
Record condition := { cd_t : R; cd_t_max : R; cd_y : vec; cd_cov : obs_cov }.
Fixpoint conditions (l : list condition) (o : promp) : res promp :=
  match l with
  | [] => Ok o
  | q :: l => bind (condition_position o (cd_y q) (cd_cov q) (cd_t q) (cd_t_max q)) (conditions l)
  end.
Definition acceptable (D : nat) (q : condition) : Prop :=
  cd_t_max q <> 0 /\ covariance D (noise_matrix (cd_cov q)).
(** A ProMP as all constructors and setters leave it, with a covariance. *)
Definition proper (D N : nat) (o : promp) : Prop :=
  is_promp D N o /\ sized (D * N) (D * N) (pm_weight_cov o) /\ covariance (D * N) (pm_weight_cov o).

(** ** Proofs *)
Lemma noise_crop D N s c o : covariance D (noise_matrix c) ->
  sized D D (crop D D (noise_matrix c)) /\ psd D (crop D D (noise_matrix c))
  /\ observation D N s c o = madd (crop D D (noise_matrix c))
       (mmul (D * N) (mmul (D * N) (mT (Psi D N s)) (pm_weight_cov o)) (Psi D N s)).
Proof.
  intros [S P]. split; [apply sized_crop|]. split.
  - apply covariance_psd; [apply sized_crop|]. split.
    + intros i j Hi Hj. rewrite !crop_in by auto. auto.
    + intros x. rewrite (rsum_ext D _ (fun i => rsum D (fun j => x i * noise_matrix c i j * x j))); [apply P|].
      intros i Hi. apply rsum_ext. intros j Hj. now rewrite crop_in.
  - destruct c as [|r|C]; cbn [noise_matrix]; try reflexivity.
    unfold observation, add_obs_cov. apply mat_ext; intros i j. unfold madd, crop. destruct (andb _ _); ring.
Qed.

Lemma step_proper D N o q o' : proper D N o -> acceptable D q ->
  condition_position o (cd_y q) (cd_cov q) (cd_t q) (cd_t_max q) = Ok o' -> proper D N o'.
Proof.
  intros (Ho & HS & HC) [Ht Hn] E. split; [now apply (C52_shape D N _ _ _ _ _ _ Ho Ht E)|].
  apply covariance_psd in HC; auto.
  destruct (condition_ok D N _ _ _ _ _ _ Ho Ht E) as (G & HG & ->).
  destruct (noise_crop D N (cd_t q / cd_t_max q) (cd_cov q) o Hn) as (SC & PC & EC). rewrite EC in HG.
  unfold posterior. cbn [from_weight_distribution pm_weight_cov].
  assert (HP := sized_Psi D N (cd_t q / cd_t_max q)).
  split; [now apply (sized_conditioned (D * N) D _ _ (crop D D (noise_matrix (cd_cov q))))|].
  apply psd_covariance. now apply (conditioned_psd (D * N) D _ _ (crop D D (noise_matrix (cd_cov q)))).
Qed.

Lemma swap_ok D N o q1 q2 o' : proper D N o -> acceptable D q1 -> acceptable D q2 ->
  conditions [q1; q2] o = Ok o' -> conditions [q2; q1] o = Ok o'.
Proof.
  intros (Ho & HS & HC) H1 H2 E. apply covariance_psd in HC; auto.
  destruct q1 as [t1 m1 y1 c1], q2 as [t2 m2 y2 c2], H1 as [Hm1 Hn1], H2 as [Hm2 Hn2].
  cbn [cd_t cd_t_max cd_y cd_cov] in *. cbn [conditions cd_t cd_t_max cd_y cd_cov] in *.
  destruct (condition_position o y1 c1 t1 m1) as [o1|] eqn:E1; [|discriminate]. cbn [bind] in E.
  assert (Ho1 := C52_shape D N _ _ _ _ _ _ Ho Hm1 E1).
  destruct (condition_position o1 y2 c2 t2 m2) as [o2|] eqn:E2; [|discriminate]. cbn [bind] in E. injection E as <-.
  destruct (condition_ok D N _ _ _ _ _ _ Ho Hm1 E1) as (G1 & HG1 & Eo1).
  destruct (condition_ok D N _ _ _ _ _ _ Ho1 Hm2 E2) as (G2 & HG2 & Eo2).
  set (s1 := t1 / m1) in *. set (s2 := t2 / m2) in *.
  set (P1 := Psi D N s1). set (P2 := Psi D N s2).
  assert (HP1 : sized (D * N) D P1) by apply sized_Psi. assert (HP2 : sized (D * N) D P2) by apply sized_Psi.
  destruct (noise_crop D N s1 c1 o Hn1) as (SC1 & PC1 & EC1).
  destruct (noise_crop D N s2 c2 o1 Hn2) as (SC2 & PC2 & EC2).
  destruct (noise_crop D N s2 c2 o Hn2) as (_ & _ & EC2').
  set (C1 := crop D D (noise_matrix c1)) in *. set (C2 := crop D D (noise_matrix c2)) in *.
  fold P1 in EC1. fold P2 in EC2, EC2'. rewrite EC1 in HG1. rewrite EC2, Eo1 in HG2.
  unfold posterior in HG2. cbn [from_weight_distribution pm_weight_cov] in HG2. fold P1 in HG2.
  set (W := pm_weight_cov o) in *.
  destruct (E_invertible (D * N) D W P1 P2 C1 C2) with (G1 := G1) (G2 := G2) as (X2 & HX2); auto.
  destruct (F_swapped_invertible (D * N) D W P1 P2 C1 C2) with (G1 := G1) (G2 := G2) (X := X2) as (X1 & HX1); auto.
  rewrite (condition_eq D N) by auto. fold s2. rewrite EC2'. fold W.
  rewrite (np_linalg_inv_ok _ _ _ HX2). cbn [bind].
  set (o1' := posterior D N s2 y2 o X2).
  assert (Ho1' : is_promp D N o1') by (eexists _, _; reflexivity).
  rewrite (condition_eq D N) by auto. fold s1.
  destruct (noise_crop D N s1 c1 o1' Hn1) as (_ & _ & EC1'). fold P1 C1 in EC1'. rewrite EC1'.
  unfold o1' at 1. unfold posterior. cbn [from_weight_distribution pm_weight_cov]. fold P2 W.
  rewrite (np_linalg_inv_ok _ _ _ HX1). cbn [bind]. f_equal. f_equal.
  rewrite Eo2, Eo1. unfold o1', posterior. cbn [from_weight_distribution pm_weight_cov pm_weight_mean].
  fold P1 P2 W. set (mu := pm_weight_mean o).
  f_equal.
  - rewrite !mean_two. f_equal. symmetry. now apply (push_two (D * N) D W P1 P2 C1 C2).
  - apply (mat_act_ext (D * N) (D * N)).
    + apply (sized_conditioned (D * N) D _ _ C1); auto. now apply (sized_conditioned (D * N) D _ _ C2).
    + apply (sized_conditioned (D * N) D _ _ C2); auto. now apply (sized_conditioned (D * N) D _ _ C1).
    + intros x i Hi. rewrite !cov_two. unfold vsub at 1 2. f_equal.
      apply (f_equal (fun v : vec => v i)). symmetry. now apply (push_two (D * N) D W P1 P2 C1 C2).
Qed.

Lemma conditions_app l l' o : conditions (l ++ l') o = bind (conditions l o) (conditions l').
Proof.
  revert o. induction l as [|q l IH]; intros o; [reflexivity|]. cbn [app conditions].
  destruct (condition_position _ _ _ _ _); cbn [bind]; auto.
Qed.

Lemma order_ok D N : forall l l', Permutation l l' -> forall o o', proper D N o -> Forall (acceptable D) l ->
  conditions l o = Ok o' -> conditions l' o = Ok o'.
Proof.
  induction 1 as [|q l l' H IH|q1 q2 l|l l1 l2 H1 IH1 H2 IH2]; intros o o' Ho Hl E.
  - exact E.
  - inversion Hl as [|? ? Hq Hl']; subst. cbn [conditions] in *.
    destruct (condition_position _ _ _ _ _) as [o1|] eqn:E1; [|discriminate]. cbn [bind] in *.
    apply IH; auto. now apply (step_proper D N o q).
  - inversion Hl as [|? ? Hq1 Hl']; subst. inversion Hl' as [|? ? Hq2 Hl'']; subst.
    change (q1 :: q2 :: l) with ([q1; q2] ++ l). change (q2 :: q1 :: l) with ([q2; q1] ++ l) in E.
    rewrite conditions_app in *. destruct (conditions [q2; q1] o) as [o1|] eqn:E1; [|discriminate].
    now rewrite (swap_ok D N o q2 q1 o1).
  - apply IH2; auto. now apply (Permutation_Forall H1).
Qed.

Lemma conditions_err D N l : forall o e, proper D N o -> Forall (acceptable D) l -> conditions l o = Err e -> e = LinAlgError.
Proof.
  induction l as [|q l IH]; intros o e Ho Hl E; [discriminate|].
  inversion Hl as [|? ? Hq Hl']; subst. cbn [conditions] in E.
  destruct (condition_position _ _ _ _ _) as [o1|] eqn:E1; cbn [bind] in E.
  - apply (IH o1); auto. now apply (step_proper D N o q).
  - injection E as ->. destruct Hq as [Ht _]. rewrite (condition_eq D N) in E1 by (auto; apply Ho).
    destruct (np_linalg_inv D _) as [G|] eqn:EG; [discriminate|]. cbn [bind] in E1. injection E1 as ->.
    now apply np_linalg_inv_err in EG.
Qed.

(** ** C90 *)
(** Any number of conditions, in any order: the same ProMP, or the same error. *)
Theorem C90_order : forall D N l l' o, proper D N o -> Forall (acceptable D) l -> Permutation l l' ->
  conditions l o = conditions l' o.
Proof.
  intros D N l l' o Ho Hl Hp.
  assert (Hl' : Forall (acceptable D) l') by now apply (Permutation_Forall Hp).
  destruct (conditions l o) as [o1|e] eqn:E; [now rewrite (order_ok D N l l' Hp o o1)|].
  destruct (conditions l' o) as [o2|e'] eqn:E'.
  - assert (H := order_ok D N l' l (Permutation_sym Hp) o o2 Ho Hl' E'). congruence.
  - now rewrite (conditions_err D N l o e), (conditions_err D N l' o e').
Qed.

(** The via-points may be listed in any order. *)
Definition row_noise (c : option (nat -> vec)) (i : nat) : obs_cov :=
  match c with None => RowCov vzero | Some f => RowCov (f i) end.
Definition via (ts : nat -> R) (y : nat -> vec) (c : option (nat -> vec)) (i : nat) : condition :=
  {| cd_t := ts i; cd_t_max := 1; cd_y := y i; cd_cov := row_noise c i |}.
Lemma via_points_conditions ts y c : forall n idx o,
  via_points_loop idx (map ts (seq idx n)) y c o = conditions (map (via ts y c) (seq idx n)) o.
Proof.
  induction n as [|n IH]; intros idx o; [reflexivity|]. cbn [seq map via_points_loop conditions via cd_t cd_t_max cd_y cd_cov].
  fold (row_noise c idx). destruct (condition_position _ _ _ _ _); cbn [bind]; auto.
Qed.
Theorem C90_via_points : forall D N n (p : nat -> nat) ts y c o, proper D N o ->
  Permutation (map p (seq 0 n)) (seq 0 n) ->
  (forall i, (i < n)%nat -> covariance D (noise_matrix (row_noise c i))) ->
  via_points o (map (fun i => ts (p i)) (seq 0 n)) (fun i => y (p i)) (option_map (fun f i => f (p i)) c)
  = via_points o (map ts (seq 0 n)) y c.
Proof.
  intros D N n p ts y c o Ho Hp Hc. unfold via_points. rewrite !via_points_conditions.
  symmetry. apply (C90_order D N); auto.
  - apply Forall_forall. intros q Hq. apply in_map_iff in Hq. destruct Hq as (i & <- & Hi). apply in_seq in Hi.
    split; [apply R1_neq_R0|]. apply Hc. lia.
  - replace (map (via (fun i => ts (p i)) (fun i => y (p i)) (option_map (fun f i => f (p i)) c)) (seq 0 n))
      with (map (via ts y c) (map p (seq 0 n))).
    + apply Permutation_map. now apply Permutation_sym.
    + rewrite map_map. apply map_ext. intros i. unfold via, row_noise. destruct c; reflexivity.
Qed.

(** The conditioned distribution gives the best linear estimate.  For every
    linear form [x . w] of the weights the new mean is the old one plus [v . (y
    - position of the old mean)], where [v] makes the variance of [x . w - v .
    observation] minimal; the minimal variance is the new one.  Neither the
    prior nor the noise has to be invertible. *)
Theorem C90_best_estimate : forall D N o y c t tm o',
  proper D N o -> covariance D (noise_matrix c) -> tm <> 0 -> condition_position o y c t tm = Ok o' ->
  forall x, exists v,
    dot (D * N) x (pm_weight_mean o')
    = dot (D * N) x (pm_weight_mean o) + rsum D (fun d => v d * (y d - position D N (t / tm) (pm_weight_mean o) d))
    /\ form (D * N) (pm_weight_cov o') x
       = form (D * N) (pm_weight_cov o) (leftover D N (t / tm) x v) + form D (noise_matrix c) v
    /\ forall v', form (D * N) (pm_weight_cov o') x
       <= form (D * N) (pm_weight_cov o) (leftover D N (t / tm) x v') + form D (noise_matrix c) v'.
Proof.
  intros D N o y c t tm o' (Ho & HS & HC) Hn Htm E x. apply covariance_psd in HC; auto.
  destruct (condition_ok D N _ _ _ _ _ _ Ho Htm E) as (G & HG & ->). set (s := t / tm) in *.
  destruct (noise_crop D N s c o Hn) as (SC & PC & EC). rewrite EC in HG.
  set (C := crop D D (noise_matrix c)) in *. set (P := Psi D N s) in *. set (W := pm_weight_cov o) in *.
  assert (HP : sized (D * N) D P) by apply sized_Psi.
  assert (EL : forall v, form (D * N) W (leftover D N s x v) + form D (noise_matrix c) v = spread (D * N) D W P C x v).
  { intros v. unfold spread, form. rewrite <- !quadratic. f_equal.
    - assert (HL : forall i, (i < D * N)%nat -> leftover D N s x v i = vsub x (mvec D P v) i).
      { intros i Hi. unfold leftover, vsub. f_equal.
        assert (N <> 0)%nat by nia.
        assert (Hd : (i / N < D)%nat) by (apply Nat.div_lt_upper_bound; lia).
        assert (Hk : (i mod N < N)%nat) by (apply Nat.mod_upper_bound; lia).
        rewrite (Nat.div_mod i N) at 3 by auto. rewrite (Nat.mul_comm N). unfold P. rewrite Psi_vec by auto. ring. }
      rewrite (mvec_ext _ W _ _ HL). apply dot_ext; auto.
    - apply dot_ext; auto. intros i Hi. apply rsum_ext. intros j Hj. unfold C. now rewrite crop_in. }
  exists (best (D * N) D W P G x).
  unfold posterior. cbn [from_weight_distribution pm_weight_mean pm_weight_cov]. fold P W.
  split; [|split].
  - rewrite dot_vadd_r, (best_mean (D * N) D W P C G) by auto. f_equal. apply rsum_ext. intros d Hd.
    unfold vsub. f_equal. f_equal. unfold P. rewrite Psi_T_vec by auto. reflexivity.
  - unfold form at 1. rewrite <- quadratic, EL. now apply best_cov.
  - intros v'. rewrite EL. unfold form. rewrite <- quadratic, (best_cov (D * N) D W P C) by auto. now apply best_least.
Qed.

(** Bayes' rule.  With an invertible prior covariance (inverse [L]) and an
    invertible noise covariance (inverse [Q]) the exponent of prior density
    times likelihood of the observation is, as a function of the weights, the
    exponent of the normal density with the new mean and covariance plus a
    constant. *)
Theorem C90_bayes : forall D N o y c t tm o' L Q,
  proper D N o -> covariance D (noise_matrix c) -> tm <> 0 -> condition_position o y c t tm = Ok o' ->
  inverse (D * N) (pm_weight_cov o) L -> inverse D (crop D D (noise_matrix c)) Q ->
  exists M const, inverse (D * N) (pm_weight_cov o') M
  /\ (forall w, form (D * N) L (vsub w (pm_weight_mean o)) + form D Q (vsub y (position D N (t / tm) w))
             = form (D * N) M (vsub w (pm_weight_mean o')) + const)
  /\ (forall w, form (D * N) L (vsub (pm_weight_mean o') (pm_weight_mean o))
                  + form D Q (vsub y (position D N (t / tm) (pm_weight_mean o')))
             <= form (D * N) L (vsub w (pm_weight_mean o)) + form D Q (vsub y (position D N (t / tm) w))).
Proof.
  intros D N o y c t tm o' L Q (Ho & HS & HC) Hn Htm E HL HQ. apply covariance_psd in HC; auto.
  destruct (condition_ok D N _ _ _ _ _ _ Ho Htm E) as (G & HG & Eo'). set (s := t / tm) in *.
  destruct (noise_crop D N s c o Hn) as (SC & PC & EC). rewrite EC in HG.
  set (C := crop D D (noise_matrix c)) in *. set (P := Psi D N s) in *. set (W := pm_weight_cov o) in *.
  assert (HP : sized (D * N) D P) by apply sized_Psi.
  set (M := information D P L Q). set (mu := pm_weight_mean o) in *.
  set (r := vsub y (mvec (D * N) (mT P) mu)).
  assert (HM : inverse (D * N) (pm_weight_cov o') M).
  { rewrite Eo'. unfold posterior. cbn [from_weight_distribution pm_weight_cov]. fold P W.
    now apply (information_inverse (D * N) D W P C G). }
  assert (EJ : forall w, form (D * N) L (vsub w mu) + form D Q (vsub y (position D N s w))
             = form (D * N) M (vsub w (pm_weight_mean o')) + dot D r (mvec D G r)).
  { intros w. unfold form. rewrite <- !quadratic.
    assert (H := completed_square (D * N) D W P C G HC PC HG L Q HL HQ (vsub w mu) r). cbv zeta in H.
    assert (EP : forall d, (d < D)%nat -> vsub y (position D N s w) d = vsub r (mvec (D * N) (mT P) (vsub w mu)) d).
    { intros d Hd. unfold r. rewrite mvec_vsub. unfold vsub.
      assert (h : position D N s w d = mvec (D * N) (mT P) w d) by (unfold P; rewrite Psi_T_vec by auto; reflexivity).
      rewrite h. ring. }
    rewrite (mvec_ext D Q _ _ EP), (dot_ext D _ _ _ _ EP (fun i _ => eq_refl)), H. f_equal.
    assert (EM : vsub w (pm_weight_mean o') = vsub (vsub w mu) (mvec (D * N) W (mvec D P (mvec D G r)))).
    { rewrite Eo'. unfold posterior. cbn [from_weight_distribution pm_weight_mean]. fold P W mu r.
      rewrite !mvec_mmul. apply vec_ext. intros i. unfold vsub, vadd. ring. }
    rewrite EM. reflexivity. }
  exists M, (dot D r (mvec D G r)). split; [exact HM|]. split; [exact EJ|].
  intros w. rewrite !EJ. apply Rplus_le_compat_r.
  assert (PM : psd (D * N) M).
  { apply (inverse_psd (D * N) (pm_weight_cov o')); auto.
    - rewrite Eo'. apply (sized_conditioned (D * N) D _ _ C); auto.
    - rewrite Eo'. unfold posterior. cbn [from_weight_distribution pm_weight_cov]. now apply (conditioned_psd (D * N) D _ _ C). }
  unfold form. rewrite <- !quadratic.
  rewrite (dot_zero_l (D * N) (vsub (pm_weight_mean o') (pm_weight_mean o'))) by (intros; unfold vsub; ring).
  apply PM.
Qed.

(** The prior of a new ProMP and one condition after another are such cases. *)
Lemma proper_new D N : proper D N (promp_new D N).
Proof.
  split; [exists vzero, (eye (D * N)); reflexivity|]. split; [apply sized_eye|]. apply psd_covariance, psd_eye.
Qed.
Example C90_satisfiable : exists q1 q2 o1 o2,
  cd_y q1 <> cd_y q2 /\ cd_t q1 <> cd_t q2 /\ Forall (acceptable 1) [q1; q2]
  /\ conditions [q1; q2] (promp_new 1 3) = Ok o2
  /\ conditions [q1] (promp_new 1 3) = Ok o1
  /\ inverse 3 (pm_weight_cov (promp_new 1 3)) (eye 3)
  /\ inverse 1 (crop 1 1 (noise_matrix (cd_cov q1))) (crop 1 1 (fun _ _ => / 4)).
Proof.
  set (c := RowCov (fun _ => 4)).
  set (q1 := {| cd_t := 1/2; cd_t_max := 1; cd_y := fun _ => 5; cd_cov := c |}).
  set (q2 := {| cd_t := 1; cd_t_max := 1; cd_y := fun _ => 7; cd_cov := c |}).
  assert (Hn : covariance 1 (noise_matrix c)).
  { split; [intros i j Hi Hj; reflexivity|]. intros x. cbn. nra. }
  assert (A1 : acceptable 1 q1) by (split; [apply R1_neq_R0|exact Hn]).
  assert (A2 : acceptable 1 q2) by (split; [apply R1_neq_R0|exact Hn]).
  assert (Hstep : forall o y s, proper 1 3 o -> exists o', condition_position o y c s 1 = Ok o').
  { intros o y s (Ho & HS & HC). apply covariance_psd in HC; auto.
    destruct (noise_crop 1 3 (s / 1) c o Hn) as (SC & PC & EC).
    rewrite (condition_eq 1 3) by (auto; apply R1_neq_R0). rewrite EC.
    destruct (symmetric_inverse 1 (madd (crop 1 1 (noise_matrix c))
      (mmul (1 * 3) (mmul (1 * 3) (mT (Psi 1 3 (s / 1))) (pm_weight_cov o)) (Psi 1 3 (s / 1))))) as (G & HG).
    - apply sized_madd; auto. apply (sized_PSP (1 * 3) 1 (pm_weight_cov o)); auto. apply sized_Psi.
    - apply psd_madd with (n := 1%nat); auto. now apply psd_conj.
    - intros x Hx i Hi.
      assert (PP : psd 1 (mmul (1 * 3) (mmul (1 * 3) (mT (Psi 1 3 (s / 1))) (pm_weight_cov o)) (Psi 1 3 (s / 1)))) by now apply psd_conj.
      assert (h := proj2 PP x). assert (h' := Hx 0%nat ltac:(lia)).
      rewrite mvec_madd in h'. unfold vadd in h'. unfold dot in h. cbn [rsum] in h.
      set (m := mvec 1 (mmul _ _ _) x 0%nat) in *.
      assert (e : mvec 1 (crop 1 1 (noise_matrix c)) x 0%nat = 4 * x 0%nat) by (unfold mvec; cbn; ring).
      rewrite e in h'. replace i with 0%nat by lia. nra.
    - rewrite (np_linalg_inv_ok _ _ _ HG). cbn [bind]. eauto. }
  destruct (Hstep (promp_new 1 3) (cd_y q1) (1/2) (proper_new 1 3)) as (o1 & E1).
  assert (P1 : proper 1 3 o1) by (now apply (step_proper 1 3 (promp_new 1 3) q1 o1 (proper_new 1 3) A1)).
  destruct (Hstep o1 (cd_y q2) 1 P1) as (o2 & E2).
  exists q1, q2, o1, o2. split; [|split; [|split; [|split; [|split; [|split]]]]].
  - intros H. apply (f_equal (fun v : vec => v 0%nat)) in H. cbn in H. lra.
  - cbn. lra.
  - auto.
  - unfold conditions. cbn [q1 q2 cd_t cd_t_max cd_y cd_cov]. cbn [q1 cd_y] in E1. rewrite E1. cbn [bind].
    cbn [q2 cd_y] in E2. rewrite E2. reflexivity.
  - unfold conditions. cbn [q1 cd_t cd_t_max cd_y cd_cov]. cbn [q1 cd_y] in E1. rewrite E1. reflexivity.
  - assert (Ee := sized_eye 3). split; [exact Ee|]. split; (apply mmul_eye_l; intros i j Hi; apply Ee; auto).
  - split; [apply sized_crop|].
    split; (apply (mat_ext_sized 1 1); [apply (sized_mmul 1 1 1); apply sized_crop|apply sized_eye|]; intros i j Hi Hj;
      replace i with 0%nat by lia; replace j with 0%nat by lia; unfold mmul, eye; cbn; field).
Qed.

(** In more than one dimension [via_points] takes a row of its covariance
    argument and repeats it: the noise is not a covariance and neither is the
    covariance of the returned ProMP.  Here [y_conditional_cov] is [np.eye(2)]. *)
Theorem C90_row_noise_refuted :
  exists o', via_points (promp_new 2 1) [1/2] (fun _ _ => 0) (Some (fun i j => if (i =? j)%nat then 1 else 0)) = Ok o'
  /\ pm_weight_cov o' 0%nat 1%nat <> pm_weight_cov o' 1%nat 0%nat.
Proof.
  assert (Ho : is_promp 2 1 (promp_new 2 1)) by apply proper_new.
  unfold via_points. cbn [via_points_loop].
  rewrite (condition_eq 2 1) by (auto; apply R1_neq_R0).
  set (s := 1 / 2 / 1).
  assert (EB : basis (promp_new 2 1) s 0%nat = 1).
  { assert (H := basis_sum (promp_new 2 1) s ltac:(cbn; lia)). cbn [pm_n_weights_per_dim promp_new rsum] in H. lra. }
  assert (EP : Psi 2 1 s = eye 2).
  { apply (mat_ext_sized 2 2); [exact (sized_Psi 2 1 s)|apply sized_eye|]. intros i j Hi Hj. unfold Psi.
    replace i with (i * 1 + 0)%nat at 1 by lia. replace j with (j * 1 + 0)%nat at 1 by lia.
    destruct (Nat.eq_dec i j) as [<-|Hne].
    - rewrite nd_block_in, crop_in by lia. rewrite EB. unfold eye.
      destruct (Nat.ltb_spec i 2); [|lia]. now rewrite Nat.eqb_refl.
    - rewrite nd_block_off by lia. unfold eye. destruct (Nat.eqb_spec i j); [contradiction|]. reflexivity. }
  set (c := RowCov _).
  set (G := crop 2 2 (fun i j => match i, j with O, O => 1/2 | S O, O => -1/2 | S O, S O => 1 | _, _ => 0 end)).
  assert (EO : observation 2 1 s c (promp_new 2 1) = madd (crop 2 2 (fun _ j => if (0 =? j)%nat then 1 else 0)) (eye 2)).
  { unfold observation. rewrite EP, mT_eye.
    change (pm_weight_cov (promp_new 2 1)) with (eye 2). change (2 * 1)%nat with 2%nat.
    assert (Ee := sized_eye 2).
    rewrite !mmul_eye_l by (intros i j Hi; apply Ee; auto). reflexivity. }
  assert (HG : inverse 2 (observation 2 1 s c (promp_new 2 1)) G).
  { rewrite EO. split; [apply sized_crop|].
    assert (SO : sized 2 2 (madd (crop 2 2 (fun _ j => if (0 =? j)%nat then 1 else 0)) (eye 2)))
      by (apply sized_madd; [apply sized_crop|apply sized_eye]).
    split; (apply (mat_ext_sized 2 2); [apply (sized_mmul 2 2 2); auto; apply sized_crop|apply sized_eye|];
      intros [|[|i]] [|[|j]] Hi Hj; try lia; unfold mmul, madd, eye, G; cbn; lra). }
  rewrite (np_linalg_inv_ok _ _ _ HG). cbn [bind]. eexists. split; [reflexivity|].
  unfold posterior. cbn [from_weight_distribution pm_weight_cov]. rewrite EP.
  unfold conditioned_cov. rewrite mT_eye.
  change (pm_weight_cov (promp_new 2 1)) with (eye 2). change (2 * 1)%nat with 2%nat.
  assert (Ee := sized_eye 2). assert (SG : sized 2 2 G) by apply sized_crop.
  rewrite !mmul_eye_l by (intros i j Hi; try apply Ee; try apply SG; auto).
  rewrite (mmul_eye_r 2 G) by (intros i j Hj; apply SG; auto).
  rewrite (mmul_eye_r 2 G) by (intros i j Hj; apply SG; auto).
  unfold msub, eye, G. cbn. lra.
Qed.
