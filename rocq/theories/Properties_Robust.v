(** C94: bounded disturbances cause bounded deviations.  Final statements. *)
From Coq Require Import Reals ZArith List Lia Lra Psatz FunctionalExtensionality.
From Verif Require Import M_Prelude M_Canonical M_Forcing M_Dmp M_Base M_DmpObject
  S_Loops S_Dmp P_Loops P_Canonical P_Forcing P_DmpStep P_DmpScale P_DmpLinear P_Converge
  P_DmpObject P_Disturbed Properties_Forcing Properties_Dmp Properties_DmpObject Properties_DmpState
  Properties_Goal.
Import ListNotations.
Open Scope R_scope.
Set Bullet Behavior "Strict Subproofs".

(** ** Specification *)
(** What the caller passes to one call of [step]: the measured state and a
    coupling term (for a coupling term with internal state, the function that
    it computes during this call). *)
Record report := { r_y : arr; r_yd : arr; r_coupling : option coupling }.

(** The object after [k] calls of [step] with these reports. *)
Fixpoint closed_loop (fn : step_function) (calls : nat -> report) (k : nat) (o : dmp) : dmp :=
  match k with
  | O => o
  | S k => fst (dmp_step (r_y (calls k)) (r_yd (calls k)) (r_coupling (calls k)) (Some fn)
                  (closed_loop fn calls k o))
  end.

(** In dimension [d] the measured position differs by at most [B] from the
    position that the DMP has computed last, and the coupling term adds at most
    [B] to the velocity and the acceleration (in the units of the DMP). *)
Definition disturbed_by (B : R) (d : nat) (o : dmp) (r : report) : Prop :=
  Rabs (aget (p_current_y (o_base o)) d - aget (r_y r) d) <= B
  /\ match r_coupling r with
     | None => True
     | Some c => forall y v, Rabs (fst (c y v) d) <= B /\ Rabs (snd (c y v) d) <= B
     end.

(** The state that call number [k] returns. *)
Definition returns (fn : step_function) (calls : nat -> report) (o : dmp) (k : nat) (y yd : arr) : Prop :=
  snd (dmp_step (r_y (calls k)) (r_yd (calls k)) (r_coupling (calls k)) (Some fn)
         (closed_loop fn calls k o)) = Ok (y, yd).

(** ** Proofs *)
Lemma step_total_coupled fn o y yd c : shapes_ok o -> running o ->
  alen y = p_n_dims (o_base o) -> alen yd = p_n_dims (o_base o) ->
  let o' := norm o in
  exists s, run_step_function fn (step_args (tick o') c (vsub (aget (p_current_y (o_base o'))) (aget y)))
         (p_t (o_base o)) (p_t (o_base o) + o_dt o)
         (aget (p_current_y (o_base o')), aget (p_current_yd (o_base o'))) = Ok s
  /\ let o1 := fst (dmp_step y yd c (Some fn) o) in
     same_params o o1 /\ shapes_ok o1 /\ p_t (o_base o1) = p_t (o_base o) + o_dt o
     /\ o_initialized o1 = true
     /\ snd (dmp_step y yd c (Some fn) o) = Ok (p_current_y (o_base o1), p_current_yd (o_base o1))
     /\ s = (aget (p_current_y (o_base o1)), aget (p_current_yd (o_base o1))).
Proof.
  intros Hsh (Hx & Hdt & Hi) Hy Hyd o'.
  pose proof (step_shapes y yd c (Some fn) o Hsh) as [Hsh1 Hn1].
  rewrite dmp_step_eq in * by auto. cbv zeta in *. fold o' in Hsh1, Hn1 |- *.
  destruct (norm_params o) as (Q1 & Q2 & Q3 & Q4 & Q5 & Q6 & Q7 & Q8 & Q9 & Q10 & Q11 & Q12 & Q13 & Q14
                    & Q15 & Q16 & Q17).
  fold o' in Q1, Q2, Q4.
  change (p_current_y (o_base (tick o'))) with (p_current_y (o_base o')) in *.
  change (p_current_yd (o_base (tick o'))) with (p_current_yd (o_base o')) in *.
  set (a := step_args (tick o') c _) in *.
  assert (HT : forall s, exists s', run_step_function fn a (p_t (o_base o)) (p_t (o_base o) + o_dt o) s
                                  = Ok s').
  { intros s. destruct fn; cbn [run_step_function]; eauto.
    - unfold dmp_step_euler.
      destruct (Rle_dec (a_goal_t a) (a_start_t a)) as [H|]; [cbn in H; lra|].
      destruct (Rle_dec _ (a_start_t a)); eauto.
      destruct (substeps_tiles (p_t (o_base o)) (p_t (o_base o) + o_dt o) (a_int_dt a)) as [l [_ Hl]];
        [cbn; lra|lra|]. eexists. apply Hl.
    - unfold dmp_step_euler_cython.
      destruct (Rle_dec (a_goal_t a) (a_start_t a)) as [H|]; [cbn in H; lra|].
      destruct (substeps_tiles (p_t (o_base o)) (p_t (o_base o) + o_dt o) (a_int_dt a)) as [l [_ Hl]];
        [cbn; lra|lra|]. eexists. apply Hl. }
  match goal with |- context [run_step_function fn a ?u ?v ?s] => destruct (HT s) as [[y1 yd1] E] end.
  rewrite E in *. cbn [fst snd] in *.
  exists (y1, yd1). split; [reflexivity|].
  split. { apply (same_params_trans _ o'); [apply norm_params|]. unfold same_params; cbn; repeat split. }
  split; [exact Hsh1|].
  split. { cbn. rewrite Q2. unfold o', norm. destruct (o_initialized o); reflexivity. }
  split. { cbn. apply norm_initialized. }
  split; reflexivity.
Qed.

Lemma closed_loop_info fn calls o : shapes_ok o -> running o ->
  (forall k, alen (r_y (calls k)) = p_n_dims (o_base o) /\ alen (r_yd (calls k)) = p_n_dims (o_base o)) ->
  forall k, let ok := closed_loop fn calls k o in
    same_params o ok /\ shapes_ok ok /\ p_t (o_base ok) = p_t (o_base o) + INR k * o_dt o
    /\ (k <> 0%nat -> o_initialized ok = true).
Proof.
  intros Hsh Hr Hlen. induction k as [|k IH].
  - cbn. split; [apply same_params_refl|]. split; [exact Hsh|]. split; [lra|congruence].
  - destruct IH as (P & S1 & T1 & _). cbn [closed_loop].
    pose proof (proj1 (proj2 P)) as Edt.
    assert (En : p_n_dims (o_base (closed_loop fn calls k o)) = p_n_dims (o_base o)) by apply P.
    destruct (Hlen k) as [L1 L2].
    destruct (step_total_coupled fn (closed_loop fn calls k o) (r_y (calls k)) (r_yd (calls k))
      (r_coupling (calls k)) S1 (running_same _ _ P Hr)) as (s & _ & P2 & S2 & T2 & I2 & _); try congruence.
    split; [eapply same_params_trans; eauto|]. split; [exact S2|].
    split; [rewrite T2, T1, Edt, S_INR; ring|]. intros _. exact I2.
Qed.

Lemma step_args_disturbance o o' c te z d : same_params o o' ->
  disturbance (step_args (tick o') c te) z d = disturbance (step_args o c te) z d.
Proof.
  intros (Q1 & Q2 & Q3 & Q4 & Q5 & Q6 & Q7 & Q8 & Q9 & Q10 & Q11 & Q12 & Q13 & Q14 & Q15 & Q16 & Q17).
  unfold disturbance. cbn. now rewrite Q6, Q7, Q8, Q9, Q12, Q15.
Qed.

(** From some call on, the closed loop is a run of the step function with
    disturbed arguments. *)
Lemma closed_loop_states n o fn d calls B m :
  reachable n o -> 0 < o_execution_time o -> 0 < o_dt o -> 0 < o_int_dt o -> 0 <= B ->
  (forall k, alen (r_y (calls k)) = n /\ alen (r_yd (calls k)) = n) ->
  (forall k, (m <= k)%nat -> disturbed_by B d (closed_loop fn calls k o) (calls k)) ->
  exists M t0 a s, 0 <= t0
  /\ disturbed_args a d (o_forcing_term o) (fun z => disturbance (step_args o None vzero) z d)
       (aget (p_goal_y (o_base o)) d) (aget (o_alpha_y o) d) (aget (o_beta_y o) d) (o_execution_time o)
       (o_p_gain o) B
  /\ (forall k, a_int_dt (a k) = o_int_dt o)
  /\ (forall k, run_step_function fn (a k) (t0 + INR k * o_dt o) (t0 + INR (S k) * o_dt o) (s k) = Ok (s (S k)))
  /\ forall k, exists y yd, returns fn calls o (M + k) y yd /\ s (S k) = (aget y, aget yd).
Proof.
  intros Hreach Hx Hdt Hi HB Hlen Hdis.
  destruct (reachable_shapes n o Hreach) as [Hsh Hn].
  pose proof (reachable_phase_ok n o Hreach) as Hph.
  pose proof (conj Hx (conj Hdt Hi)) as Hrun. fold (running o) in Hrun.
  rewrite <- Hn in Hlen.
  pose proof (closed_loop_info fn calls o Hsh Hrun Hlen) as Hinfo.
  destruct (clock_steps (p_t (o_base o)) (o_dt o) Hdt) as [k0 Hk0].
  set (M := Nat.max m (S k0)).
  set (ob := fun k => closed_loop fn calls (M + k) o).
  set (s := fun k => (aget (p_current_y (o_base (ob k))), aget (p_current_yd (o_base (ob k))))).
  set (te := fun k => vsub (aget (p_current_y (o_base (ob k)))) (aget (r_y (calls (M + k)%nat)))).
  set (a := fun k => step_args (tick (ob k)) (r_coupling (calls (M + k)%nat)) (te k)).
  set (t0 := p_t (o_base o) + INR M * o_dt o).
  set (dist := fun z => disturbance (step_args o None vzero) z d).
  assert (Ht0 : 0 <= t0).
  { unfold t0. apply Rle_trans with (p_t (o_base o) + INR (S k0) * o_dt o); auto.
    apply Rplus_le_compat_l, Rmult_le_compat_r; [lra|]. apply le_INR. unfold M. lia. }
  assert (HP : forall k, same_params o (ob k)) by (intros; apply Hinfo).
  assert (Hstep : forall k,
     run_step_function fn (a k) (t0 + INR k * o_dt o) (t0 + INR (S k) * o_dt o) (s k) = Ok (s (S k))
     /\ returns fn calls o (M + k) (p_current_y (o_base (ob (S k)))) (p_current_yd (o_base (ob (S k))))).
  { intros k. destruct (Hinfo (M + k)%nat) as (P & S1 & T1 & I1). fold (ob k) in P, S1, T1, I1.
    destruct (Hlen (M + k)%nat) as [L1 L2].
    assert (En : p_n_dims (o_base (ob k)) = p_n_dims (o_base o)) by apply P.
    assert (Edt : o_dt (ob k) = o_dt o) by apply P.
    destruct (step_total_coupled fn (ob k) (r_y (calls (M + k)%nat)) (r_yd (calls (M + k)%nat))
      (r_coupling (calls (M + k)%nat)) S1 (running_same _ _ P Hrun)) as (s' & E & _ & _ & _ & _ & R & Es);
      try congruence.
    assert (Ei : o_initialized (ob k) = true) by (apply I1; unfold M; lia).
    rewrite norm_id in E by exact Ei. fold (te k) in E. fold (a k) in E. fold (s k) in E.
    rewrite T1, Edt in E.
    assert (Eo : ob (S k) = fst (dmp_step (r_y (calls (M + k)%nat)) (r_yd (calls (M + k)%nat))
                     (r_coupling (calls (M + k)%nat)) (Some fn) (ob k))).
    { unfold ob. replace (M + S k)%nat with (S (M + k)) by lia. reflexivity. }
    rewrite <- Eo in R, Es. split; [|exact R].
    replace (t0 + INR k * o_dt o) with (p_t (o_base o) + INR (M + k) * o_dt o)
      by (unfold t0; rewrite plus_INR; ring).
    replace (t0 + INR (S k) * o_dt o) with (p_t (o_base o) + INR (M + k) * o_dt o + o_dt o)
      by (unfold t0; rewrite plus_INR, S_INR; ring).
    rewrite E. unfold s. now rewrite Es. }
  assert (HD : disturbed_args a d (o_forcing_term o) dist (aget (p_goal_y (o_base o)) d)
     (aget (o_alpha_y o) d) (aget (o_beta_y o) d) (o_execution_time o) (o_p_gain o) B).
  { split; intros k; cbn; pose proof (HP k) as P;
      destruct P as (Q1 & Q2 & Q3 & Q4 & Q5 & Q6 & Q7 & Q8 & Q9 & Q10 & Q11 & Q12 & Q13 & Q14 & Q15 & Q16 & Q17);
      try congruence.
    - intros z. unfold dist, a. rewrite (step_args_disturbance o) by apply HP. reflexivity.
    - destruct (Hdis (M + k)%nat ltac:(unfold M; lia)) as [H _]. exact H.
    - destruct (Hdis (M + k)%nat ltac:(unfold M; lia)) as [_ H]. exact H. }
  exists M, t0, a, s. split; auto. split; [exact HD|].
  split. { intros k. cbn. apply (HP k). }
  split. { intros k. apply Hstep. }
  intros k. eexists _, _. split; [apply Hstep|]. reflexivity.
Qed.

Definition sensitivity (fn : step_function) (al tau dt int_dt p : R) : R :=
  match fn with
  | RK4 | RK4_cython => rk4_gain al tau dt p
  | Euler | Euler_cython => euler_gain al tau dt int_dt p
  end.

(** ** C94 *)
(** The number [K] depends on nothing but the integrator, the gains and the step
    lengths: not on weights, start, goal, history or kind of disturbance. *)
Theorem C94_bounded : exists K : step_function -> R -> R -> R -> R -> R -> R,
  forall n o fn d calls B m,
  reachable n o -> 0 < o_execution_time o -> 0 < o_dt o -> 0 < o_int_dt o ->
  (d < n)%nat -> stable fn o d -> 0 <= B ->
  (forall k, alen (r_y (calls k)) = n /\ alen (r_yd (calls k)) = n) ->
  (forall k, (m <= k)%nat -> disturbed_by B d (closed_loop fn calls k o) (calls k)) ->
  forall eps, 0 < eps -> exists N, forall k, (N <= k)%nat ->
  exists y yd, returns fn calls o k y yd
    /\ (let dev := K fn (aget (o_alpha_y o) d) (o_execution_time o) (o_dt o) (o_int_dt o) (o_p_gain o) * B in
        Rabs (aget y d - aget (p_goal_y (o_base o)) d) <= dev + eps
        /\ Rabs (aget yd d) <= dev + eps).
Proof.
  exists sensitivity. intros n o fn d calls B m Hreach Hx Hdt Hi _ (Hcd & Hal & Hrk & Heu) HB Hlen Hdis.
  pose proof (reachable_phase_ok n o Hreach) as Hph.
  destruct (closed_loop_states n o fn d calls B m Hreach Hx Hdt Hi HB Hlen Hdis)
    as (M & t0 & a & s & Ht0 & HD & Hint & Hstep & Hret).
  set (dist := fun z => disturbance (step_args o None vzero) z d) in *.
  assert (HnW : (0 < ft_n (o_forcing_term o))%nat) by apply Hph.
  destruct (disturbance_bound (step_args o None vzero) d HnW) as [MM [HM0 HM]].
  set (K := sensitivity fn (aget (o_alpha_y o) d) (o_execution_time o) (o_dt o) (o_int_dt o) (o_p_gain o) * B).
  assert (HE : eventually_below (fun k => fst (s k) d - aget (p_goal_y (o_base o)) d) K
               /\ eventually_below (fun k => snd (s k) d) K).
  { assert (Hfn : uses_rk4 fn \/ uses_euler fn) by (destruct fn; unfold uses_rk4, uses_euler; auto).
    destruct Hfn as [Hfn|Hfn].
    - assert (EK : K = rk4_gain (aget (o_alpha_y o) d) (o_execution_time o) (o_dt o) (o_p_gain o) * B)
        by (unfold K; destruct Hfn as [-> | ->]; reflexivity).
      rewrite EK. apply (rk4_disturbed_run a d (o_forcing_term o) dist _ _ (aget (o_beta_y o) d) _ _ _ MM t0); auto.
      + cbv zeta. specialize (Hrk Hfn). cbv zeta in Hrk.
        set (al := aget (o_alpha_y o) d) in *.
        replace (al / (2 * o_execution_time o) * o_dt o)
          with (al * o_dt o / (2 * o_execution_time o)) by (field; lra).
        split; [|exact Hrk]. apply Rmult_lt_0_compat; [nra|apply Rinv_0_lt_compat; lra].
      + intros k. pose proof (Hstep k) as E. destruct Hfn as [-> | ->]; cbn [run_step_function] in E.
        * now injection E.
        * rewrite rk4_cython_eq in E. now injection E.
    - assert (EK : K = euler_gain (aget (o_alpha_y o) d) (o_execution_time o) (o_dt o) (o_int_dt o) (o_p_gain o) * B)
        by (unfold K; destruct Hfn as [-> | ->]; reflexivity).
      rewrite EK.
      apply (euler_disturbed_run fn a d (o_forcing_term o) dist _ _ (aget (o_beta_y o) d) _ _ _ MM t0); auto. }
  intros eps He. destruct HE as [HE1 HE2].
  destruct (HE1 eps He) as [N1 HN1]. destruct (HE2 eps He) as [N2 HN2].
  exists (M + Nat.max N1 N2)%nat. intros k Hk.
  set (j := (k - M)%nat). replace k with (M + j)%nat by (unfold j; lia).
  destruct (Hret j) as (y & yd & R & Es).
  exists y, yd. split; [exact R|]. cbv zeta. fold K.
  specialize (HN1 (S j) ltac:(unfold j; lia)). specialize (HN2 (S j) ltac:(unfold j; lia)).
  cbv beta in HN1, HN2. rewrite Es in HN1, HN2. split; [exact HN1|exact HN2].
Qed.

(** Disturbances that fade away do not keep the DMP from reaching its goal. *)
Corollary C94_fading : forall n o fn d calls,
  reachable n o -> 0 < o_execution_time o -> 0 < o_dt o -> 0 < o_int_dt o ->
  (d < n)%nat -> stable fn o d ->
  (forall k, alen (r_y (calls k)) = n /\ alen (r_yd (calls k)) = n) ->
  (forall B, 0 < B -> exists m, forall k, (m <= k)%nat ->
     disturbed_by B d (closed_loop fn calls k o) (calls k)) ->
  forall eps, 0 < eps -> exists N, forall k, (N <= k)%nat ->
  exists y yd, returns fn calls o k y yd
    /\ Rabs (aget y d - aget (p_goal_y (o_base o)) d) < eps /\ Rabs (aget yd d) < eps.
Proof.
  intros n o fn d calls Hr Hx Hdt Hi Hd Hst Hlen Hf eps He.
  destruct C94_bounded as [K HK].
  set (G := K fn (aget (o_alpha_y o) d) (o_execution_time o) (o_dt o) (o_int_dt o) (o_p_gain o)) in *.
  pose proof (Rabs_pos G) as HG.
  assert (HB : 0 < eps / (2 * (Rabs G + 1))).
  { apply Rmult_lt_0_compat; auto. apply Rinv_0_lt_compat. lra. }
  destruct (Hf _ HB) as [m Hm].
  destruct (HK n o fn d calls _ m Hr Hx Hdt Hi Hd Hst (Rlt_le _ _ HB) Hlen Hm (eps / 4)) as [N HN]; [lra|].
  exists N. intros k Hk. destruct (HN k Hk) as (y & yd & R & H1 & H2).
  cbv zeta in H1, H2. fold G in H1, H2.
  exists y, yd. split; auto.
  assert (HGB : G * (eps / (2 * (Rabs G + 1))) <= eps / 2).
  { apply Rle_trans with ((Rabs G + 1) * (eps / (2 * (Rabs G + 1)))).
    - apply Rmult_le_compat_r; [lra|]. pose proof (Rle_abs G). lra.
    - apply Req_le. field. lra. }
  split; lra.
Qed.

(** Calls whose reports depend on what the DMP has done so far exist. *)
Lemma feedback_calls fn (h : nat -> dmp -> report) o :
  exists calls, forall k, calls k = h k (closed_loop fn calls k o).
Proof.
  set (os := fix os k := match k with
    | O => o
    | S k => let r := h k (os k) in
             fst (dmp_step (r_y r) (r_yd r) (r_coupling r) (Some fn) (os k))
    end).
  exists (fun k => h k (os k)).
  assert (E : forall k, closed_loop fn (fun k => h k (os k)) k o = os k).
  { induction k as [|k IH]; [reflexivity|]. cbn [closed_loop]. rewrite IH. reflexivity. }
  intros k. now rewrite E.
Qed.

(** A DMP with a tracking-error gain whose sensor is wrong by 1/2, with a
    coupling term that depends on the velocity. *)
Example C94_satisfiable : exists o calls, reachable 1 o /\ 0 < o_execution_time o /\ 0 < o_dt o
  /\ 0 < o_int_dt o /\ o_p_gain o = 2 /\ stable RK4 o 0 /\ stable Euler_cython o 0
  /\ (forall k, alen (r_y (calls k)) = 1%nat /\ alen (r_yd (calls k)) = 1%nat)
  /\ (forall k, disturbed_by 1 0 (closed_loop Euler_cython calls k o) (calls k))
  /\ (forall k, aget (p_current_y (o_base (closed_loop Euler_cython calls k o))) 0%nat
                - aget (r_y (calls k)) 0%nat = 1/2)
  /\ exists c, r_coupling (calls 3%nat) = Some c /\ snd (c vzero (fun _ => PI / 2)) 0%nat = 1.
Proof.
  assert (Hnew : exists f o, dmp_new (vzero, vzero) 1 1 (1/100) 2 (1/1000) 2 true
      {| shape := []; data := fun _ => 25 |} {| shape := []; data := fun _ => 25/4 |} = Ok o
    /\ o = {| o_base := ptp_init 1 1; o_initialized := false; o_execution_time := 1;
            o_dt := 1/100; o_n_weights_per_dim := 2; o_int_dt := 1/1000; o_p_gain := 2;
            o_smooth_scaling := true; o_forcing_term := f;
            o_alpha_y := {| alen := 1; aget := fun _ => 25 |};
            o_beta_y := {| alen := 1; aget := fun _ => 25/4 |} |}).
  { unfold dmp_new. destruct (init_forcing_term_accepts (vzero, vzero) 2 1) as [f Ef]; [lia|lra|].
    rewrite Ef. cbn. eexists _, _. split; reflexivity. }
  destruct Hnew as (f & o & E & Eo).
  assert (Hr : reachable 1 o).
  { exists (vzero, vzero), 1, (1/100), 2%nat, (1/1000), 2, true,
      {| shape := []; data := fun _ => 25 |}, {| shape := []; data := fun _ => 25/4 |}, o, []. auto. }
  set (c := fun (_ v : vec) => ((fun _ => 1/4) : vec, (fun d => sin (v d)) : vec)).
  set (h := fun (_ : nat) (o : dmp) =>
    {| r_y := one (aget (p_current_y (o_base o)) 0%nat - 1/2); r_yd := one 0; r_coupling := Some c |}).
  destruct (feedback_calls Euler_cython h o) as [calls Hcalls].
  exists o, calls. split; [exact Hr|].
  split; [rewrite Eo; cbn; lra|]. split; [rewrite Eo; cbn; lra|]. split; [rewrite Eo; cbn; lra|].
  split; [rewrite Eo; reflexivity|].
  split; [rewrite Eo; unfold stable; cbn; repeat split; intros; unfold uses_rk4, uses_euler in *; lra|].
  split; [rewrite Eo; unfold stable; cbn; repeat split; intros; unfold uses_rk4, uses_euler in *; lra|].
  split; [intros k; rewrite Hcalls; cbn; auto|].
  split.
  { intros k. rewrite Hcalls. unfold disturbed_by, h. cbn [r_y r_coupling one aget].
    split.
    - unfold one; cbn. match goal with |- Rabs (?p - (?p - _)) <= _ =>
        replace (p - (p - 1/2)) with (1/2) by lra end.
      rewrite Rabs_pos_eq; lra.
    - intros y v. cbn. rewrite Rabs_pos_eq by lra. split; [lra|].
      pose proof (SIN_bound (v 0%nat)). apply Rabs_le. lra. }
  split.
  { intros k. rewrite (Hcalls k). cbn. lra. }
  exists c. split; [rewrite Hcalls; reflexivity|]. cbn. apply sin_PI2.
Qed.
