(** The array-level programs compute what the value-level models compute. *)
From Coq Require Import Reals List Arith Bool Lia Lra.
From Verif Require Import M_Prelude M_Base M_Forcing M_Dmp M_Quaternion M_Cython P_Cython.
Import ListNotations.
Open Scope R_scope.
Set Bullet Behavior "Strict Subproofs".

(** The array [a] has [n] entries, those of [v]. *)
Definition agree (n : nat) (a : arr) (v : vec) : Prop :=
  alen a = n /\ forall i, (i < n)%nat -> aget a i = v i.

(** A coupling term that only looks at the [n] entries of its arguments. *)
Definition respects (n m : nat) (c : coupling) : Prop := forall y y' yd yd',
  (forall i, (i < n)%nat -> y i = y' i) -> (forall i, (i < m)%nat -> yd i = yd' i) ->
  forall i, (i < m)%nat -> fst (c y yd) i = fst (c y' yd') i /\ snd (c y yd) i = snd (c y' yd') i.

Lemma agree_of_vec n v : agree n (of_vec n v) v.
Proof. split; auto. Qed.

Lemma agree_zeros n : agree n (zeros n) vzero.
Proof. split; auto. Qed.

Lemma agree_ext n a u v : agree n a u -> (forall i, (i < n)%nat -> u i = v i) -> agree n a v.
Proof. intros [H1 H2] H. split; auto. intros i Hi. rewrite H2 by assumption. auto. Qed.

Lemma agree_map n a v f : agree n a v -> agree n (np_map f a) (fun i => f (v i)).
Proof. intros [H1 H2]. split; auto. intros i Hi. cbn [aget np_map]. now rewrite H2. Qed.

Lemma agree_op r n f a b u v (Q : arr -> Prop) : agree n a u -> agree n b v ->
  (forall c, agree n c (fun i => f (u i) (v i)) -> Q c) -> tri r (np_op f a b) Q.
Proof.
  intros [H1 H2] [H3 H4] HQ. apply tri_op_eq; [congruence |]. apply HQ.
  split; auto. intros i Hi. cbn [aget]. now rewrite H2, H4.
Qed.

Lemma agree_iadd r n a b u v (Q : arr -> Prop) : agree n a u -> agree n b v ->
  (forall c, agree n c (fun i => u i + v i) -> Q c) -> tri r (np_iadd a b) Q.
Proof.
  intros [H1 H2] [H3 H4] HQ. apply tri_iadd_eq; [congruence |]. apply HQ.
  split; auto. intros i Hi. cbn [aget]. now rewrite H2, H4.
Qed.

Lemma agree_assign r n a b v (Q : arr -> Prop) : alen a = n -> agree n b v ->
  (forall c, agree n c v -> Q c) -> tri r (np_assign a b) Q.
Proof. intros H [H3 H4] HQ. apply tri_assign_eq; [congruence |]. apply HQ. split; auto. Qed.

Lemma agree_assign_nd r n a v (Q : arr -> Prop) : alen a = n ->
  (forall c, agree n c v -> Q c) -> tri r (np_assign_nd a (nd1 (of_vec n v))) Q.
Proof.
  intros H HQ. unfold np_assign_nd, nd1, of_vec. cbn [shape data alen aget strip_ones].
  destruct n as [| [| n]]; cbn [strip_ones]; rewrite ?H; cbn [Nat.eqb]; try rewrite Nat.eqb_refl; cbn [tri];
    apply HQ; split; auto.
  intros i Hi. cbn [aget]. now replace i with 0%nat by lia.
Qed.

Lemma agree_iadd_nd r n a u v (Q : arr -> Prop) : agree n a u ->
  (forall c, agree n c (fun i => u i + v i) -> Q c) -> tri r (np_iadd_nd a (nd1 (of_vec n v))) Q.
Proof.
  intros H HQ. unfold np_iadd_nd, nd1. cbn [shape data alen of_vec].
  apply (agree_iadd r n a (of_vec n v) u v); auto using agree_of_vec.
Qed.

(** [f[:] = forces.squeeze()] *)
Lemma agree_forces r n a v (Q : arr -> Prop) : alen a = n -> (forall c, agree n c v -> Q c) ->
  tri r (np_assign_nd a (np_squeeze {| shape := [n; 1%nat]; data := v |})) Q.
Proof.
  intros H HQ. unfold np_assign_nd, np_squeeze. cbn [shape data filter Nat.eqb negb].
  destruct n as [| [| n]]; cbn [Nat.eqb negb strip_ones]; rewrite ?H; cbn [Nat.eqb];
    try rewrite Nat.eqb_refl; cbn [tri]; apply HQ; split; auto.
  intros i Hi. cbn [aget]. now replace i with 0%nat by lia.
Qed.

Lemma agree_coupling r n m c y yd u v (Q : ndarray * ndarray -> Prop) : respects n m c ->
  agree n y u -> agree m yd v ->
  (forall x xd, (forall i, (i < m)%nat -> x i = fst (c u v) i) -> (forall i, (i < m)%nat -> xd i = snd (c u v) i) ->
     Q (nd1 (of_vec m x), nd1 (of_vec m xd))) ->
  tri r (coupling_object m c y yd) Q.
Proof.
  intros Hc [H1 H2] [H3 H4] HQ. unfold coupling_object. destruct (c (aget y) (aget yd)) as [x xd] eqn:E.
  cbn [tri]. specialize (Hc _ _ _ _ H2 H4). rewrite E in Hc. cbn [fst snd] in Hc.
  apply HQ; intros i Hi; apply Hc; assumption.
Qed.

Lemma agree_rd r n a v i (Q : R -> Prop) : agree n a v -> (i < n)%nat -> Q (v i) -> tri r (c_rd a i) Q.
Proof. intros [H1 H2] Hi HQ. apply tri_rd; [lia |]. now rewrite H2. Qed.

Lemma agree_prd (r : Prop) n a v i (Q : R -> Prop) : agree n a v -> (i < n)%nat -> Q (v i) -> tri r (p_rd a i) Q.
Proof.
  intros [H1 H2] Hi HQ. unfold p_rd. rewrite (proj2 (Nat.ltb_lt _ _)) by lia. cbn. now rewrite H2.
Qed.

(** Writing entry [i] of an array whose entries below [i] have been replaced. *)
Definition upto (d : nat) (new old : vec) : vec := fun i => if Nat.ltb i d then new i else old i.

Lemma upto_at d new old : upto d new old d = old d.
Proof. unfold upto. now rewrite Nat.ltb_irrefl. Qed.

Lemma agree_upto_full n a new old : agree n a (upto n new old) -> agree n a new.
Proof.
  intros H. eapply agree_ext; [exact H |]. intros i Hi. unfold upto.
  now rewrite (proj2 (Nat.ltb_lt i n) Hi).
Qed.

Lemma agree_wr r n a new old d x (Q : arr -> Prop) : agree n a (upto d new old) -> (d < n)%nat -> x = new d ->
  (forall c, agree n c (upto (S d) new old) -> Q c) -> tri r (c_wr a d x) Q.
Proof.
  intros [H1 H2] Hd -> HQ. apply tri_wr; [lia |]. apply HQ. split; [assumption |].
  intros i Hi. cbn [aget]. unfold upd, upto. destruct (Nat.eqb_spec i d) as [-> | E].
  - now rewrite (proj2 (Nat.ltb_lt d (S d))) by lia.
  - rewrite H2 by assumption. unfold upto.
    destruct (Nat.ltb_spec i d), (Nat.ltb_spec i (S d)); auto; lia.
Qed.

Lemma agree_pwr (r : Prop) n a new old d x (Q : arr -> Prop) : agree n a (upto d new old) -> (d < n)%nat -> x = new d ->
  (forall c, agree n c (upto (S d) new old) -> Q c) -> tri r (p_wr a d x) Q.
Proof.
  intros H Hd E HQ. assert (Hl := proj1 H). pose proof (agree_wr r n a new old d x Q H Hd E HQ) as T.
  unfold c_wr in T. unfold p_wr. now rewrite (proj2 (Nat.ltb_lt _ _)) in * by lia.
Qed.

Lemma agree_upto0 n a new old : agree n a old -> agree n a (upto 0 new old).
Proof. auto. Qed.

(** *** Euler *)
Section Values.
Variables (n : nat) (a : dmp_args).
Hypothesis Hc : forall c, a_coupling_term a = Some c -> respects n n c.

Definition Rel (s : vec * vec) (s' : arr * arr) : Prop := agree n (fst s') (fst s) /\ agree n (snd s') (snd s).

Lemma couple_values junk dt s s' (Q : arr * arr -> Prop) : Rel s s' ->
  (forall cd cdd,
     agree n cd (fst (match a_coupling_term a, a_precomputed a with
                      | Some c, _ => c (fst s) (snd s) | None, Some p => p | None, None => (vzero, vzero) end)) ->
     agree n cdd (let x := snd (match a_coupling_term a, a_precomputed a with
                      | Some c, _ => c (fst s) (snd s) | None, Some p => p | None, None => (vzero, vzero) end) in
                  match a_tracking_error a with
                  | Some te => fun d => x d + a_p_gain a * te d / dt | None => x end) ->
     Q (cd, cdd)) ->
  tri False (c_couple (cy_of n a) n junk dt s') Q.
Proof.
  intros [H1 H2] HQ. unfold c_couple, cy_of. cbn [k_coupling_term k_precomputed k_tracking_error k_p_gain]. cbv zeta.
  apply tri_bind.
  match goal with |- tri _ _ ?G =>
    apply (tri_weaken False _ (fun p => agree n (fst p) (fst (match a_coupling_term a, a_precomputed a with
                      | Some c, _ => c (fst s) (snd s) | None, Some p => p | None, None => (vzero, vzero) end))
           /\ agree n (snd p) (snd (match a_coupling_term a, a_precomputed a with
                      | Some c, _ => c (fst s) (snd s) | None, Some p => p | None, None => (vzero, vzero) end)))) end.
  - destruct (a_coupling_term a) as [c |] eqn:Ec; cbn [option_map].
    + apply tri_bind. eapply agree_coupling; [now apply Hc | exact H1 | exact H2 |]. intros x xd Hx Hxd.
      cbv beta iota. apply tri_bind. apply (agree_assign_nd False n); [reflexivity |]. intros cd Hcd.
      apply tri_bind. apply (agree_assign_nd False n); [reflexivity |]. intros cdd Hcdd.
      apply tri_done. cbn [fst snd]. split; eapply agree_ext; eauto.
    + destruct (a_precomputed a) as [[x xd] |]; cbn [option_map fst snd].
      * apply tri_bind. apply (agree_assign_nd False n); [reflexivity |]. intros cd Hcd.
        apply tri_bind. apply (agree_assign_nd False n); [reflexivity |]. intros cdd Hcdd.
        apply tri_done. now split.
      * apply tri_done. cbn [fst snd]. split; apply agree_zeros.
  - intros [cd cdd] [Hcd Hcdd]. cbn [fst snd] in Hcd, Hcdd. cbv beta iota. cbv zeta in HQ.
    destruct (a_tracking_error a) as [te |]; cbn [option_map].
    + apply tri_bind. eapply (agree_iadd False n); [exact Hcdd | apply agree_map, agree_of_vec |].
      intros c Hcc. apply tri_done. now apply HQ.
    + apply tri_done. now apply HQ.
Qed.

Ltac ard H := apply tri_bind; eapply agree_rd; [exact H | assumption |].

Lemma euler_body_values junk ct dt s s' : Rel s s' ->
  tri False (c_euler_body junk (cy_of n a) ct dt s') (fun x => Rel (euler_cython_body a ct dt s) x).
Proof.
  intros HR. destruct s as [y yd], s' as [y' yd']. unfold c_euler_body. cbv zeta.
  cbn [fst]. assert (El : alen y' = n) by apply HR. rewrite El.
  apply tri_bind. eapply couple_values; [exact HR |]. intros cd cdd Hcd Hcdd. cbn [fst snd] in Hcd, Hcdd.
  unfold euler_cython_body.
  set (cc := match a_coupling_term a, a_precomputed a with
             | Some c, _ => c y yd | None, Some p => p | None, None => (vzero, vzero) end) in *.
  destruct cc as [xcd xcdd]. cbn [fst snd] in Hcd, Hcdd. cbv zeta in Hcdd.
  cbv beta iota zeta. cbn [k_forcing_term cy_of ft_object fo_phase fo_forces of_res cbind].
  apply tri_bind. apply (agree_forces False n); [reflexivity |]. intros f Hf.
  set (z := ft_phase (a_forcing_term a) ct) in *.
  match goal with |- tri _ _ (fun x => Rel (?ny, ?nyd) x) => set (newy := ny); set (newyd := nyd) end.
  destruct HR as [HR1 HR2]. cbn [fst snd] in HR1, HR2.
  apply tri_bind.
  eapply (tri_for_seq False (fun d x =>
    agree n (fst (fst x)) (upto d newy y) /\ agree n (snd (fst x)) (upto d newyd yd) /\ alen (snd x) = n)).
  - cbn [fst snd]. repeat split; try (now apply HR1); try (now apply HR2).
  - intros d [[cy cyd] cydd] Hd. cbn [fst snd]. intros (I1 & I2 & I3). unfold c_euler_cell. cbv beta iota.
    apply tri_bind. apply (tri_weaken False _ (fun sm => sm =
      if a_smooth_scaling a then a_beta_y a d * (a_goal_y a d - a_start_y a d) * z else 0)).
    { cbn [k_smooth_scaling k_beta_y k_goal_y k_start_y cy_of].
      destruct (a_smooth_scaling a); [| now apply tri_done].
      ard (agree_of_vec n (a_beta_y a)). ard (agree_of_vec n (a_goal_y a)). ard (agree_of_vec n (a_start_y a)).
      now apply tri_done. }
    intros sm ->. cbn [k_alpha_y k_beta_y k_goal_y cy_of].
    ard (agree_of_vec n (a_alpha_y a)). ard (agree_of_vec n (a_beta_y a)). ard (agree_of_vec n (a_goal_y a)).
    ard I1. ard I2. ard Hf. ard Hcdd. rewrite !upto_at.
    match goal with |- tri _ (cbind (c_wr _ _ ?e) _) _ => set (acc := e) end.
    apply tri_bind. apply tri_wr; [lia |]. cbv beta. ard I2.
    apply tri_bind. apply tri_rd; [cbn [alen]; lia |]. cbn [aget].
    unfold upd at 1. rewrite Nat.eqb_refl. ard Hcd. rewrite !upto_at.
    apply tri_bind. eapply agree_wr; [exact I2 | exact Hd | reflexivity |]. intros cyd2 I2'.
    ard I1. ard I2'.
    apply tri_bind. eapply agree_wr; [exact I1 | exact Hd | |].
    + rewrite upto_at. unfold newy. f_equal. f_equal. unfold upto.
      now rewrite (proj2 (Nat.ltb_lt d (S d))) by lia.
    + intros cy2 I1'. apply tri_done. cbn [fst snd alen]. auto.
  - intros [[cy cyd] cydd]. cbn [fst snd]. intros (I1 & I2 & I3). apply tri_done.
    split; cbn [fst snd]; eapply agree_upto_full; eassumption.
Qed.

Lemma restart_values t s s' (Q : arr * arr -> Prop) : Rel s s' ->
  (forall s'', Rel (if Rle_dec t (a_start_t a) then (a_start_y a, a_start_yd a) else s) s'' -> Q s'') ->
  tri False (c_restart (cy_of n a) t s') Q.
Proof.
  intros [H1 H2] HQ. unfold c_restart. cbn [k_start_t k_start_y k_start_yd cy_of].
  destruct (Rle_dec t (a_start_t a)).
  - apply tri_bind. apply (agree_assign False n _ _ (a_start_y a)); [apply H1 | apply agree_of_vec |]. intros y Hy.
    apply tri_bind. apply (agree_assign False n _ _ (a_start_yd a)); [apply H2 | apply agree_of_vec |]. intros yd Hyd.
    apply tri_done, HQ. now split.
  - apply tri_done, HQ. now split.
Qed.

Lemma euler_values junk last_t t s s' : Rel s s' ->
  match dmp_step_euler_cython a last_t t s with
  | Ok x => exists x', c_dmp_step junk (cy_of n a) last_t t s' = Done x' /\ Rel x x'
  | Err e => c_dmp_step junk (cy_of n a) last_t t s' = Raised e
  end.
Proof.
  intros HR. unfold dmp_step_euler_cython, c_dmp_step. cbn [k_goal_t k_start_t k_int_dt cy_of].
  destruct (Rle_dec (a_goal_t a) (a_start_t a)); [reflexivity |].
  pose proof (restart_values t s s' (fun s'' =>
    Rel (if Rle_dec t (a_start_t a) then (a_start_y a, a_start_yd a) else s) s'') HR (fun _ H => H)) as T.
  set (s0 := if Rle_dec t (a_start_t a) then (a_start_y a, a_start_yd a) else s) in *.
  destruct (c_restart (cy_of n a) t s') as [s1 | e |]; cbn [tri] in T; try contradiction. cbn [cbind].
  pose proof (c_substeps_refines Rel (euler_cython_body a) (c_euler_body junk (cy_of n a)) t (a_int_dt a)
    (substeps_fuel last_t t (a_int_dt a)) last_t s0 s1 T
    (fun ct dt x x' H => euler_body_values junk ct dt x x' H)) as U.
  destruct (substeps _ _ _ _ _ _) as [x | e]; [| exact U].
  destruct (c_substeps _ _ _ _ _ _) as [x' | e |]; cbn [tri] in U; try contradiction. eauto.
Qed.

(** *** RK4 *)
Ltac pard H := apply tri_bind; eapply agree_prd; [exact H | assumption |].

Lemma acc_values junk Y V u v cdd xcdd z et f xf tdd xtdd (Q : arr * arr -> Prop) :
  et <> 0 -> agree n Y u -> agree n V v -> agree n cdd xcdd -> agree n f xf -> agree n tdd xtdd ->
  (forall cdd' Ydd, alen cdd' = n -> (a_coupling_term a = None -> agree n cdd' xcdd) ->
     agree n Ydd (dmp_acc_cython u v xcdd (a_alpha_y a) (a_beta_y a) (a_goal_y a) (a_start_y a) z et xf
                    (a_coupling_term a) xtdd (a_smooth_scaling a)) -> Q (cdd', Ydd)) ->
  tri False (c_dmp_acc junk (cy_of n a) Y V cdd z et f tdd) Q.
Proof.
  intros Het HY HV Hcdd Hf Ht HQ. unfold c_dmp_acc. cbv zeta.
  set (xc := match a_coupling_term a with Some c => snd (c u v) | None => xcdd end).
  apply tri_bind. apply (tri_weaken False _ (fun c => agree n c xc)).
  { unfold xc. cbn [k_coupling_term cy_of]. destruct (a_coupling_term a) as [c |] eqn:Ec; cbn [option_map].
    - apply tri_bind. eapply agree_coupling; [now apply Hc | exact HY | exact HV |]. intros x xd Hx Hxd.
      cbv beta iota. apply (agree_assign_nd False n); [apply Hcdd |]. intros c' Hc'. eapply agree_ext; eauto.
    - now apply tri_done. }
  intros c' Hc'. assert (El : alen Y = n) by apply HY. rewrite El. apply tri_bind.
  match goal with H : context [dmp_acc_cython ?p1 ?p2 ?p3 ?p4 ?p5 ?p6 ?p7 ?p8 ?p9 ?p10 ?p11 ?p12 ?p13] |- _ =>
    set (new := dmp_acc_cython p1 p2 p3 p4 p5 p6 p7 p8 p9 p10 p11 p12 p13) in H end.
  apply (tri_for_seq False (fun d x => agree n x (upto d new junk))).
  - split; [reflexivity |]. intros i Hi. reflexivity.
  - intros d x Hd Hx. apply tri_bind. apply (tri_weaken False _ (fun sm => sm =
      if a_smooth_scaling a then a_beta_y a d * (a_goal_y a d - a_start_y a d) * z else 0)).
    { cbn [k_smooth_scaling k_beta_y k_goal_y k_start_y cy_of].
      destruct (a_smooth_scaling a); [| now apply tri_done].
      pard (agree_of_vec n (a_beta_y a)). pard (agree_of_vec n (a_goal_y a)). pard (agree_of_vec n (a_start_y a)).
      now apply tri_done. }
    intros sm ->. cbn [k_alpha_y k_beta_y k_goal_y cy_of].
    pard (agree_of_vec n (a_alpha_y a)). pard (agree_of_vec n (a_beta_y a)). pard (agree_of_vec n (a_goal_y a)).
    pard HY. pard HV. pard Hf. pard Hc'. pard Ht.
    destruct (Req_EM_T et 0); [contradiction |].
    eapply agree_pwr; [exact Hx | exact Hd | reflexivity | auto].
  - intros Ydd HYdd. apply tri_done. apply HQ.
    + apply Hc'.
    + intros En. unfold xc in Hc'. now rewrite En in Hc'.
    + now apply (agree_upto_full n Ydd new junk).
Qed.

Lemma rk4_values junk last_t t s s' : a_goal_t a <> a_start_t a -> Rel s s' ->
  exists x', c_dmp_step_rk4 junk (cy_of n a) last_t t s' = Done x'
             /\ Rel (dmp_step_rk4_cython a last_t t s) x'.
Proof.
  intros Hne [HR1 HR2]. destruct s as [y yd], s' as [y' yd']. cbn [fst snd] in HR1, HR2.
  enough (T : tri False (c_dmp_step_rk4 junk (cy_of n a) last_t t (y', yd'))
                (fun x' => Rel (dmp_step_rk4_cython a last_t t (y, yd)) x')).
  { destruct (c_dmp_step_rk4 _ _ _ _ _); cbn [tri] in T; try contradiction. eauto. }
  unfold c_dmp_step_rk4, dmp_step_rk4_cython. cbv zeta.
  assert (El : alen y' = n) by apply HR1. rewrite El.
  apply tri_bind. apply (tri_weaken False _ (fun c => alen c = n)).
  { cbn [k_precomputed cy_of]. destruct (a_precomputed a) as [[x xd] |]; cbn [option_map fst snd]; [| now apply tri_done].
    apply (agree_iadd_nd False n _ vzero); [apply agree_zeros |]. intros c Hcc. apply Hcc. }
  intros cd Hcd. apply tri_bind.
  apply (tri_weaken False _ (fun c => agree n c (vadd vzero (precomputed_cdd a)))).
  { cbn [k_precomputed cy_of]. unfold precomputed_cdd.
    destruct (a_precomputed a) as [[x xd] |]; cbn [option_map fst snd].
    - apply (agree_iadd_nd False n _ vzero); [apply agree_zeros |]. intros c Hcc. exact Hcc.
    - apply tri_done. eapply agree_ext; [apply agree_zeros |]. intros i _. unfold vadd, vzero. ring. }
  intros cdd Hcdd. cbn [k_forcing_term cy_of ft_object fo_phase_array fo_forces_array of_res cbind].
  set (dt := t - last_t). set (dt_2 := / 2 * dt).
  set (xtdd := match a_tracking_error a with Some te => vscale (a_p_gain a / dt) te | None => vzero end).
  match goal with |- context [c_dmp_acc _ _ _ _ _ _ _ _ ?x] => set (tdd := x) end.
  assert (Ht : agree n tdd xtdd).
  { unfold tdd, xtdd. cbn [k_tracking_error k_p_gain cy_of]. destruct (a_tracking_error a); cbn [option_map].
    - apply agree_map, agree_of_vec.
    - apply agree_zeros. }
  cbn [k_goal_t k_start_t cy_of]. set (et := a_goal_t a - a_start_t a).
  assert (Het : et <> 0) by (unfold et; lra).
  set (Z := np_map _ _).
  assert (HZ : forall j, (j < 3)%nat -> c_rd Z j = Done (ft_phase (a_forcing_term a)
                 (match j with O => t | 1%nat => t + dt_2 | _ => t + dt end))).
  { intros j Hj. unfold c_rd, Z. cbn [alen aget np_map]. now rewrite (proj2 (Nat.ltb_lt _ _)) by lia. }
  assert (HF : forall j, (j < 3)%nat -> column (n, alen Z, fun d j => ft_forces (a_forcing_term a) (aget Z j) d) j
                 = Done (of_vec n (ft_forces (a_forcing_term a) (ft_phase (a_forcing_term a)
                     (match j with O => t | 1%nat => t + dt_2 | _ => t + dt end))))).
  { intros j Hj. unfold column. cbn [alen Z np_map]. now rewrite (proj2 (Nat.ltb_lt _ _)) by (unfold Z; cbn; lia). }
  set (Z0 := ft_phase (a_forcing_term a) t) in *. set (Z1 := ft_phase (a_forcing_term a) (t + dt_2)) in *.
  set (Z2 := ft_phase (a_forcing_term a) (t + dt)) in *.
  cbv beta. rewrite (HZ 0%nat), (HF 0%nat) by lia. cbn [cbind]. fold Z0.
  assert (Acc : forall Y V u v c z xf (Q : arr * arr -> Prop), agree n Y u -> agree n V v -> alen c = n ->
     (a_coupling_term a = None -> agree n c (vadd vzero (precomputed_cdd a))) ->
     (forall c' Ydd, alen c' = n -> (a_coupling_term a = None -> agree n c' (vadd vzero (precomputed_cdd a))) ->
        agree n Ydd (dmp_acc_cython u v (vadd vzero (precomputed_cdd a)) (a_alpha_y a) (a_beta_y a) (a_goal_y a)
           (a_start_y a) z et xf (a_coupling_term a) xtdd (a_smooth_scaling a)) -> Q (c', Ydd)) ->
     tri False (c_dmp_acc junk (cy_of n a) Y V c z et (of_vec n xf) tdd) Q).
  { intros Y V u v c z xf Q HY HV Hcl Hcn HQ.
    assert (Dec : (exists cc, a_coupling_term a = Some cc) \/ a_coupling_term a = None)
      by (destruct (a_coupling_term a); eauto).
    destruct Dec as [[cc Ec] | En].
    - apply (acc_values junk Y V u v c (aget c) z et _ xf _ xtdd); auto; [split; auto | apply agree_of_vec |].
      intros c' Ydd H1 H2 H3. apply HQ; auto.
      + rewrite Ec. discriminate.
      + rewrite Ec in H3 |- *. exact H3.
    - apply (acc_values junk Y V u v c (vadd vzero (precomputed_cdd a)) z et _ xf _ xtdd); auto.
      apply agree_of_vec. }
  apply tri_bind. eapply Acc; [exact HR1 | exact HR2 | apply Hcdd | intros _; exact Hcdd |].
  intros cdd0 K0 L0 N0 HK0. set (k0 := dmp_acc_cython _ _ _ _ _ _ _ _ _ _ _ _ _) in HK0. fold k0. cbv beta iota.
  apply tri_bind. eapply (agree_op False n); [exact HR2 | apply agree_map; exact HK0 |]. intros C1 HC1.
  apply tri_bind. eapply (agree_op False n); [exact HR1 | apply agree_map; exact HR2 |]. intros Y1 HY1.
  cbv beta. rewrite (HZ 1%nat), (HF 1%nat) by lia. cbn [cbind]. fold Z1.
  apply tri_bind. eapply Acc; [exact HY1 | exact HC1 | exact L0 | exact N0 |].
  intros cdd1 K1 L1 N1 HK1. cbv beta iota.
  apply tri_bind. eapply (agree_op False n); [exact HR2 | apply agree_map; exact HK1 |]. intros C2 HC2.
  apply tri_bind. eapply (agree_op False n); [exact HR1 | apply agree_map; exact HC1 |]. intros Y2 HY2.
  cbv beta.
  apply tri_bind. eapply Acc; [exact HY2 | exact HC2 | exact L1 | exact N1 |].
  intros cdd2 K2 L2 N2 HK2. cbv beta iota.
  apply tri_bind. eapply (agree_op False n); [exact HR2 | apply agree_map; exact HK2 |]. intros C3 HC3.
  apply tri_bind. eapply (agree_op False n); [exact HR1 | apply agree_map; exact HC2 |]. intros Y3 HY3.
  cbv beta. rewrite (HZ 2%nat), (HF 2%nat) by lia. cbn [cbind]. fold Z2.
  apply tri_bind. eapply Acc; [exact HY3 | exact HC3 | exact L2 | exact N2 |].
  intros cdd3 K3 L3 N3 HK3. cbv beta iota.
  match type of HK1 with agree _ _ ?x => set (k1 := x) in * end.
  match type of HK2 with agree _ _ ?x => set (k2 := x) in * end.
  match type of HK3 with agree _ _ ?x => set (k3 := x) in * end.
  match goal with |- tri _ _ ?P => set (Post := P) end.
  set (newy := fun i => y i + dt * (yd i + 2 * (yd i + dt_2 * k0 i) + 2 * (yd i + dt_2 * k1 i) + (yd i + dt * k2 i)) / 6).
  set (newyd := fun i => yd i + dt * (k0 i + 2 * k1 i + 2 * k2 i + k3 i) / 6).
  assert (HP : forall x', match a_coupling_term a with
      | None => Rel (newy, newyd) x'
      | Some c => Rel (newy, vadd newyd (vdivs (fst (c newy newyd)) et)) x'
      end -> Post x').
  { intros x' H. unfold Post. clear Post. destruct (a_coupling_term a); exact H. }
  clearbody Post. apply tri_bind.
  apply (tri_for_seq False (fun d x => agree n (fst x) (upto d newy y) /\ agree n (snd x) (upto d newyd yd))).
  - cbn [fst snd]. auto using agree_upto0.
  - intros d [cy cyd] Hd. cbn [fst snd]. intros [I1 I2].
    ard I1. ard I2. ard HC1. ard HC2. ard HC3. rewrite !upto_at.
    apply tri_bind. eapply agree_wr; [exact I1 | exact Hd | reflexivity |]. intros cy2 I1'.
    ard I2. ard HK0. ard HK1. ard HK2. ard HK3. rewrite upto_at.
    apply tri_bind. eapply agree_wr; [exact I2 | exact Hd | reflexivity |]. intros cyd2 I2'.
    apply tri_done. now split.
  - intros [cy cyd]. cbn [fst snd]. intros [I1 I2]. apply agree_upto_full in I1. apply agree_upto_full in I2.
    cbn [k_coupling_term cy_of].
    assert (Dec : (exists cc, a_coupling_term a = Some cc) \/ a_coupling_term a = None)
      by (destruct (a_coupling_term a); eauto).
    destruct Dec as [[cc Ec] | En]; [rewrite Ec in HP |- * | rewrite En in HP |- *]; cbn [option_map].
    + apply tri_bind. eapply agree_coupling; [now apply Hc | exact I1 | exact I2 |]. intros x xd Hx _.
      cbv beta iota. apply tri_bind. apply (agree_assign_nd False n); [exact Hcd |]. intros cd' Hcd'.
      apply tri_bind. eapply (agree_iadd False n); [exact I2 | apply agree_map; exact Hcd' |]. intros yd2 Hyd2.
      apply tri_done, HP. split; cbn [fst snd]; [exact I1 |]. eapply agree_ext; [exact Hyd2 |].
      intros i Hi. cbv beta. unfold vadd, vdivs. now rewrite Hx.
    + apply tri_done, HP. now split.
Qed.
End Values.

(** *** RK4 without duration *)
Lemma iadd_nd_ok n x y : alen x = n -> exists z, np_iadd_nd x (nd1 (of_vec n y)) = Done z /\ alen z = n.
Proof.
  intros H. unfold np_iadd_nd, np_iadd, nd1, of_vec. cbn [shape alen aget data].
  rewrite H, Nat.eqb_refl. eexists. split; reflexivity.
Qed.
Lemma assign_nd_ok n x y : alen x = n -> exists z, np_assign_nd x (nd1 (of_vec n y)) = Done z /\ alen z = n.
Proof.
  intros H. unfold np_assign_nd, nd1, of_vec. cbn [shape alen aget data strip_ones].
  destruct n as [|[|n]]; rewrite ?H; cbn; rewrite ?Nat.eqb_refl; eexists; split; reflexivity.
Qed.
Lemma prd_ok n a i : alen a = n -> (i < n)%nat -> p_rd a i = Done (aget a i).
Proof. intros H Hi. unfold p_rd. now rewrite H, (proj2 (Nat.ltb_lt _ _)). Qed.

Lemma acc_no_duration junk n a Y V cdd z f tdd :
  (0 < n)%nat -> alen Y = n -> alen V = n -> alen cdd = n -> alen f = n -> alen tdd = n ->
  c_dmp_acc junk (cy_of n a) Y V cdd z 0 f tdd = Raised ZeroDivisionError.
Proof.
  intros Hn HY HV Hc Hf Ht. unfold c_dmp_acc. cbv zeta.
  assert (E : exists c', match k_coupling_term (cy_of n a) with
          | Some c => ' (_, x) <- c Y V;; np_assign_nd cdd x
          | None => Done cdd end = Done c' /\ alen c' = n).
  { cbn [k_coupling_term cy_of]. destruct (a_coupling_term a) as [c|]; cbn [option_map]; [|eauto].
    unfold coupling_object. destruct (c (aget Y) (aget V)) as [x xd]. cbn [cbind]. now apply assign_nd_ok. }
  destruct E as (c' & -> & Hc'). cbn [cbind]. rewrite HY. destruct n as [|m]; [lia|].
  cbn [seq c_for]. cbn [k_smooth_scaling k_beta_y k_goal_y k_start_y k_alpha_y cy_of].
  rewrite !(prd_ok (S m)) by (cbn; auto with arith). cbn [cbind].
  destruct (a_smooth_scaling a); cbn [cbind]; destruct (Req_EM_T 0 0); cbn [cbind]; congruence.
Qed.

Lemma rk4_no_duration junk n a last_t t y yd : (0 < n)%nat -> a_goal_t a = a_start_t a ->
  alen y = n -> alen yd = n ->
  c_dmp_step_rk4 junk (cy_of n a) last_t t (y, yd) = Raised ZeroDivisionError.
Proof.
  intros Hn He Hy Hyd. unfold c_dmp_step_rk4. cbv zeta. rewrite Hy.
  assert (E : exists c, match k_precomputed (cy_of n a) with
     | Some (x, _) => np_iadd_nd (zeros n) x | None => Done (zeros n) end = Done c).
  { cbn [k_precomputed cy_of]. destruct (a_precomputed a) as [[x xd]|]; cbn [option_map fst snd]; [|eauto].
    destruct (iadd_nd_ok n (zeros n) x eq_refl) as (z & -> & _). eauto. }
  destruct E as (cd & ->). cbn [cbind].
  assert (E : exists c, match k_precomputed (cy_of n a) with
     | Some (_, x) => np_iadd_nd (zeros n) x | None => Done (zeros n) end = Done c /\ alen c = n).
  { cbn [k_precomputed cy_of]. destruct (a_precomputed a) as [[x xd]|]; cbn [option_map fst snd]; [|eauto].
    now apply iadd_nd_ok. }
  destruct E as (cdd & -> & Hcdd). cbn [cbind].
  cbn [k_forcing_term cy_of ft_object fo_phase_array fo_forces_array of_res cbind k_goal_t k_start_t].
  unfold c_rd at 1. cbn [alen np_map Nat.ltb Nat.leb cbind]. unfold column at 1. cbn [Nat.ltb Nat.leb cbind].
  rewrite He, (Rminus_diag_eq (a_start_t a)) by reflexivity.
  rewrite acc_no_duration; auto.
  cbn [k_tracking_error cy_of]. destruct (a_tracking_error a); reflexivity.
Qed.
