(** Model of promp.py.

    Arrays of times are passed by reference and [T /= np.max(T)] (lines 496,
    558) works in place, so every function that receives [T] also returns its
    content after the call.  Shapes: [weight_mean] has [n_weights] entries and
    [weight_cov] has shape (n_weights, n_weights); [from_weight_distribution]
    does not check this.  When the largest time is 0 numpy continues with NaN
    (division by zero), which the reals do not represent: statements about
    such time arrays are excluded by a hypothesis. *)
From Coq Require Import Reals List Arith Bool.
From Verif Require Import M_Prelude M_Base M_Matrix P_Matrix M_DmpObject M_Ridge.
Import ListNotations.
Open Scope R_scope.

(** promp.py:54-63 attributes ([variance] is created by [imitate]). *)
Record promp := {
  pm_n_dims : nat;
  pm_n_weights_per_dim : nat;
  pm_n_weights : nat;
  pm_weight_mean : vec;
  pm_weight_cov : mat;
  pm_centers : vec
}.

(** [np.linspace(0, 1, n)]. *)
Definition linspace01 (n : nat) : vec := fun i => if (i <? n)%nat then INR i / (INR n - 1) else 0.

(** promp.py:54-63 [__init__]. *)
Definition promp_new (n_dims n_weights_per_dim : nat) : promp :=
  {| pm_n_dims := n_dims;
     pm_n_weights_per_dim := n_weights_per_dim;
     pm_n_weights := n_dims * n_weights_per_dim;
     pm_weight_mean := vzero;
     pm_weight_cov := eye (n_dims * n_weights_per_dim);
     pm_centers := if (n_weights_per_dim =? 1)%nat then vzero else linspace01 n_weights_per_dim |}.

(** promp.py:284-302 [from_weight_distribution]. *)
Definition from_weight_distribution (mean : vec) (cov : mat) (o : promp) : promp :=
  {| pm_n_dims := pm_n_dims o; pm_n_weights_per_dim := pm_n_weights_per_dim o;
     pm_n_weights := pm_n_weights o; pm_weight_mean := mean; pm_weight_cov := cov;
     pm_centers := pm_centers o |}.

(** [full[r0:r1, c0:c1] = partial]. *)
Definition assign_block (full : mat) (r0 r1 c0 c1 : nat) (partial : mat) : mat := fun i j =>
  if ((r0 <=? i) && (i <? r1) && (c0 <=? j) && (j <? c1))%nat%bool
  then partial (i - r0)%nat (j - c0)%nat else full i j.

(** promp.py:606-632 [_nd_block_diagonal] of an array of shape (rows, cols). *)
Definition nd_block_diagonal (rows cols : nat) (partial_1d : mat) (n_dims : nat) : mat :=
  fold_left (fun full_nd j =>
      assign_block full_nd (rows * j) (rows * (j + 1)) (cols * j) (cols * (j + 1)) partial_1d) (* 629-631 *)
    (seq 0 n_dims) mzero.                                            (* 628 *)

(** promp.py:433, 492, 551: width of the basis functions. *)
Definition rbf_h (n : nat) (overlap : R) : R := - 1 / (8 * INR n ^ 2 * ln overlap).

(** promp.py:438, 498: one basis function. *)
Definition gauss (h c t : R) : R := exp (- (t - c) ^ 2 / (2 * h)).

(** promp.py:413-444 [_rbfs_1d_point].  [t / t_max] of Python floats raises
    ZeroDivisionError when [t_max] is 0. *)
Definition rbfs_1d_point (o : promp) (t t_max overlap : R) : res vec :=
  let n := pm_n_weights_per_dim o in
  let h := rbf_h n overlap in                                        (* 433 *)
  if Req_EM_T t_max 0 then Err ZeroDivisionError
  else
    let t := t / t_max in                                            (* 436 *)
    let a k := gauss h (pm_centers o k) t in                         (* 438 *)
    Ok (fun k => if (k <? n)%nat then a k / rsum n a else 0).        (* 439 *)

(** [np.max] of the first [n] entries, n > 0. *)
Fixpoint np_max (n : nat) (v : vec) : R :=
  match n with
  | O => 0
  | S O => v 0%nat
  | S m => Rmax (np_max m v) (v m)
  end.

(** promp.py:495-496, 557-558: the content of [T] after [T /= np.max(T)]. *)
Definition normalize_time (T : arr) : res arr :=
  if Nat.eqb (alen T) 0 then Err ValueError                          (* np.max of an empty array *)
  else Ok {| alen := alen T; aget := fun i => aget T i / np_max (alen T) (aget T) |}.

(** promp.py:467-506 [_rbfs_1d_sequence]: activations and content of [T] afterwards. *)
Definition rbfs_1d_sequence (o : promp) (T : arr) (overlap : R) (normalize : bool) : res (mat * arr) :=
  let n := pm_n_weights_per_dim o in
  let h := rbf_h n overlap in                                        (* 492 *)
  bind (normalize_time T) (fun T =>                                  (* 495-496 *)
  let a k j := gauss h (pm_centers o k) (aget T j) in                (* 498-499 *)
  let a k j := if normalize then a k j / rsum n (fun k => a k j) else a k j in (* 500-501 *)
  Ok (crop n (alen T) a, T)).

(** promp.py:446-465 [_rbfs_nd_sequence]. *)
Definition rbfs_nd_sequence (o : promp) (T : arr) : res (mat * arr) :=
  bind (rbfs_1d_sequence o T (7/10) true) (fun aT =>
  Ok (nd_block_diagonal (pm_n_weights_per_dim o) (alen T) (fst aT) (pm_n_dims o), snd aT)).

(** promp.py:529-570 [_rbfs_derivative_1d_sequence].  [T] is normalised by the
    call in line 553 and once more in line 558. *)
Definition rbfs_derivative_1d_sequence (o : promp) (T : arr) (overlap : R) : res (mat * arr) :=
  let n := pm_n_weights_per_dim o in
  let h := rbf_h n overlap in                                        (* 551 *)
  bind (rbfs_1d_sequence o T overlap false) (fun rT =>               (* 553 *)
  let '(rbfs, T) := rT in
  let rbfs_sum j := rsum n (fun k => rbfs k j) in                    (* 554 *)
  bind (normalize_time T) (fun T =>                                  (* 557-558 *)
  let deriv k j := (pm_centers o k - aget T j) / h * rbfs k j in     (* 560-561 *)
  let deriv_sum j := rsum n (fun k => deriv k j) in                  (* 562 *)
  Ok (crop n (alen T) (fun k j =>
        (deriv k j * rbfs_sum j - rbfs k j * deriv_sum j) / rbfs_sum j ^ 2), T))). (* 563-565 *)

(** promp.py:508-527 [_rbfs_derivative_nd_sequence]. *)
Definition rbfs_derivative_nd_sequence (o : promp) (T : arr) : res (mat * arr) :=
  bind (rbfs_derivative_1d_sequence o T (7/10)) (fun aT =>
  Ok (nd_block_diagonal (pm_n_weights_per_dim o) (alen T) (fst aT) (pm_n_dims o), snd aT)).

(** [v.reshape(n_dims, n_steps).T]: entry (t, d). *)
Definition reshape_T (n_steps : nat) (v : vec) : nat -> vec := fun t d => v (d * n_steps + t)%nat.

(** [Y.T.ravel()] of an array of shape (n_steps, n_dims). *)
Definition T_ravel (n_steps n_dims : nat) (Y : nat -> vec) : vec := fun i =>
  if (i <? n_dims * n_steps)%nat then Y (i mod n_steps)%nat (i / n_steps)%nat else 0.

(** promp.py:91-108 [trajectory_from_weights]; [weights] of a wrong length
    makes [dot] raise ValueError. *)
Definition trajectory_from_weights (o : promp) (T weights : arr) : res ((nat -> vec) * arr) :=
  bind (rbfs_nd_sequence o T) (fun aT =>
  let '(a, T') := aT in
  if negb (Nat.eqb (alen weights) (pm_n_dims o * pm_n_weights_per_dim o)) then Err ValueError
  else Ok (reshape_T (alen T) (mvec (pm_n_dims o * pm_n_weights_per_dim o) (mT a) (aget weights)), T')).

(** promp.py:65-89 [weights] for a demonstration with [rows] rows and
    [n_dims] columns; a wrong number of rows makes [dot] raise ValueError. *)
Definition promp_weights (o : promp) (T : arr) (rows : nat) (Y : nat -> vec) (lmbda : R)
    : res (vec * arr) :=
  bind (rbfs_nd_sequence o T) (fun aT =>
  let '(a, T') := aT in
  let K := (pm_n_dims o * pm_n_weights_per_dim o)%nat in
  let S := (pm_n_dims o * alen T)%nat in
  let activations := mT a in                                         (* 84: (S, K) *)
  if negb (Nat.eqb rows (alen T)) then Err ValueError
  else
    let P := np_linalg_pinv K K (madd (mmul S (mT activations) activations) (mscale lmbda (eye K))) in (* 85-87 *)
    Ok (mvec S (mmul K P (mT activations)) (T_ravel (alen T) (pm_n_dims o) Y), T')). (* 85-89 *)

(** promp.py:163-176 [mean_trajectory]. *)
Definition mean_trajectory (o : promp) (T : arr) : res ((nat -> vec) * arr) :=
  trajectory_from_weights o T {| alen := pm_n_weights o; aget := pm_weight_mean o |}.

(** promp.py:178-192 [cov_trajectory]; 226-240 [cov_velocities]. *)
Definition cov_of (rbfs : promp -> arr -> res (mat * arr)) (o : promp) (T : arr) : res (mat * arr) :=
  let K := (pm_n_dims o * pm_n_weights_per_dim o)%nat in
  bind (rbfs o T) (fun aT =>
  let '(a, T') := aT in
  Ok (mmul K (mmul K (mT a) (pm_weight_cov o)) a, T')).
Definition cov_trajectory := cov_of rbfs_nd_sequence.
Definition cov_velocities := cov_of rbfs_derivative_nd_sequence.

(** promp.py:194-208 [var_trajectory]; 242-256 [var_velocities]. *)
Definition var_of (cov : promp -> arr -> res (mat * arr)) (o : promp) (T : arr)
    : res ((nat -> vec) * arr) :=
  bind (cov o T) (fun cT =>
  Ok (reshape_T (alen T) (fun i => Rmax (fst cT i i) 0), snd cT)).
Definition var_trajectory := var_of cov_trajectory.
Definition var_velocities := var_of cov_velocities.

(** promp.py:210-224 [mean_velocities]. *)
Definition mean_velocities (o : promp) (T : arr) : res ((nat -> vec) * arr) :=
  bind (rbfs_derivative_nd_sequence o T) (fun aT =>
  let '(a, T') := aT in
  Ok (reshape_T (alen T) (mvec (pm_n_dims o * pm_n_weights_per_dim o) (mT a) (pm_weight_mean o)), T')).

(** promp.py:258-282 [sample_trajectories]; [weight_samples] are the values
    drawn by [random_state.multivariate_normal]. *)
Fixpoint sample_loop (o : promp) (T : arr) (weight_samples : list vec) : res (list (nat -> vec) * arr) :=
  match weight_samples with
  | [] => Ok ([], T)
  | w :: ws =>
      bind (trajectory_from_weights o T {| alen := pm_n_weights o; aget := w |}) (fun yT =>
      bind (sample_loop o (snd yT) ws) (fun r => Ok (fst yT :: fst r, snd r)))
  end.
Definition sample_trajectories := sample_loop.

(** The covariance of the observation: absent (0.0), an array with one entry
    or one row that numpy broadcasts over the rows, or a square array. *)
Inductive obs_cov :=
| NoCov
| RowCov (r : vec)
| FullCov (C : mat).
Definition add_obs_cov (n : nat) (c : obs_cov) (M : mat) : mat :=
  match c with
  | NoCov => M
  | RowCov r => madd (crop n n (fun _ j => r j)) M
  | FullCov C => madd (crop n n C) M
  end.

(** promp.py:110-161 [condition_position]. *)
Definition condition_position (o : promp) (y_mean : vec) (y_cov : obs_cov) (t t_max : R) : res promp :=
  let D := pm_n_dims o in
  let N := pm_n_weights_per_dim o in
  let K := (D * N)%nat in
  bind (rbfs_1d_point o t t_max (7/10)) (fun phi =>
  let Psi_t := nd_block_diagonal N 1 (crop N 1 (fun i _ => phi i)) D in (* 143-144 *)
  bind (np_linalg_inv D (add_obs_cov D y_cov
          (mmul K (mmul K (mT Psi_t) (pm_weight_cov o)) Psi_t))) (fun inv => (* 149 *)
  let common_term := mmul D (mmul K (pm_weight_cov o) Psi_t) inv in  (* 148-149 *)
  let weight_mean := vadd (pm_weight_mean o)
        (mvec D common_term (vsub y_mean (mvec K (mT Psi_t) (pm_weight_mean o)))) in (* 152-154 *)
  let weight_cov := msub (pm_weight_cov o)
        (mmul K (mmul D common_term (mT Psi_t)) (pm_weight_cov o)) in (* 156-157 *)
  Ok (from_weight_distribution weight_mean weight_cov (promp_new D N)))). (* 159-161 *)

(** promp.py:635-677 [via_points]: [y_cond] has one row per time and [n_dims]
    columns (or no second axis when n_dims = 1); [y_conditional_cov], if given,
    has the same shape, so that [y_conditional_cov[[idx]]] is one row. *)
Fixpoint via_points_loop (idx : nat) (ts : list R) (y_cond : nat -> vec)
    (y_conditional_cov : option (nat -> vec)) (o : promp) : res promp :=
  match ts with
  | [] => Ok o
  | t_i :: ts =>
      let y_cov := match y_conditional_cov with None => RowCov vzero | Some c => RowCov (c idx) end in
      bind (condition_position o (y_cond idx) y_cov t_i 1)           (* 671-676 *)
           (via_points_loop (S idx) ts y_cond y_conditional_cov)
  end.
Definition via_points (o : promp) (ts : list R) (y_cond : nat -> vec)
    (y_conditional_cov : option (nat -> vec)) : res promp :=
  via_points_loop 0 ts y_cond y_conditional_cov o.

(** ** Learning from demonstrations *)

(** A demonstration: times and an array of shape (rows, n_dims). *)
Record pdemo := { pd_T : arr; pd_rows : nat; pd_Y : nat -> vec }.

(** promp.py:350-352: [H_partial]. *)
Definition h_partial (n_steps : nat) : mat :=
  fold_left (fun H y => fun i j => if ((i =? y) && (j =? y + 1))%nat%bool then - (7/10) else H i j)
    (seq 0 (n_steps - 1)) (eye n_steps).

(** The terms that are constant during expectation-maximization. *)
Record em_terms := { e_n : nat; e_RTR : R; e_PhiHT : mat; e_PhiHTR : vec; e_PhiHTHPhiT : mat }.

(** promp.py:346-393 for one demonstration; also the content of [T] afterwards. *)
Definition em_precompute (o : promp) (d : pdemo) : res (em_terms * arr) :=
  let D := pm_n_dims o in
  let K := (D * pm_n_weights_per_dim o)%nat in
  let n := pd_rows d in
  let S := (D * n)%nat in
  let H := nd_block_diagonal n n (h_partial n) D in                  (* 349-353 *)
  let R := mvec S H (T_ravel n D (pd_Y d)) in                        (* 357-362 *)
  bind (rbfs_nd_sequence o (pd_T d)) (fun aT =>                      (* 377 *)
  if negb (Nat.eqb (alen (pd_T d)) n) then Err ValueError            (* 377: shapes of dot *)
  else
    let PhiHT := mmul S (fst aT) (mT H) in                           (* 377 *)
    Ok ({| e_n := n;
           e_RTR := dot S R R;                                       (* 369 *)
           e_PhiHT := PhiHT;
           e_PhiHTR := mvec S PhiHT R;                               (* 384 *)
           e_PhiHTHPhiT := mmul S PhiHT (mT PhiHT) |},               (* 392 *)
        snd aT)).

Fixpoint em_precompute_all (o : promp) (ds : list pdemo) : res (list em_terms * list arr) :=
  match ds with
  | [] => Ok ([], [])
  | d :: ds =>
      bind (em_precompute o d) (fun p =>
      bind (em_precompute_all o ds) (fun r => Ok (fst p :: fst r, snd p :: snd r)))
  end.

(** promp.py:572-577 [_expectation].  A variance of 0 leads to NaN entries, for
    which [pinv] raises LinAlgError. *)
Definition expectation (K : nat) (variance : R) (mean : vec) (cov : mat) (e : em_terms) : res (vec * mat) :=
  if Req_EM_T variance 0 then Err LinAlgError
  else
    let P := np_linalg_pinv K K cov in
    let cov' := np_linalg_pinv K K (madd (mscale (/ variance) (e_PhiHTHPhiT e)) P) in (* 573-574 *)
    Ok (mvec K cov' (vadd (vscale (/ variance) (e_PhiHTR e)) (mvec K P mean)), cov'). (* 575-576 *)

Fixpoint expectation_all (K : nat) (variance : R) (mean : vec) (cov : mat) (es : list em_terms)
    : res (list (vec * mat)) :=
  match es with
  | [] => Ok []
  | e :: es =>
      bind (expectation K variance mean cov e) (fun m =>
      bind (expectation_all K variance mean cov es) (fun r => Ok (m :: r)))
  end.

Definition vsum (l : list vec) : vec := fold_right vadd vzero l.
Definition msum (l : list mat) : mat := fold_right madd mzero l.
Definition lsum (l : list R) : R := fold_right Rplus 0 l.

(** promp.py:579-602 [_maximization] for at least one demonstration. *)
Definition maximization (n_dims K : nat) (ms : list (vec * mat)) (es : list em_terms) (n_samples : nat)
    : vec * mat * R :=
  let M := INR (length ms) in                                        (* 580 *)
  let weight_mean := vscale (/ M) (vsum (map fst ms)) in             (* 582 *)
  let centered := map (fun m => vsub (fst m) weight_mean) ms in      (* 584 *)
  let weight_cov := mscale (/ M)
     (madd (msum (map (fun c : vec => fun i j => c i * c j) centered)) (msum (map snd ms))) in (* 585 *)
  let variance := lsum (map (fun me =>                               (* 588-598 *)
     let '((mean, cov), e) := me in
     rsum K (fun i => mmul K (e_PhiHTHPhiT e) cov i i)
     + e_RTR e - 2 * dot K (e_PhiHTR e) mean + dot K mean (mvec K (e_PhiHTHPhiT e) mean))
     (combine ms es)) in
  let norm := sqrt (lsum (map (fun m => dot K (fst m) (fst m)) ms)) in
  (weight_mean, weight_cov,
   variance / (norm * M * INR n_dims * INR n_samples + 2)).          (* 601-602 *)

(** promp.py:397-411: the loop over [n_iter] iterations. *)
Fixpoint em_loop (n_dims K n_samples n_iter : nat) (min_delta : R) (es : list em_terms)
    (st : vec * mat * R) : res (vec * mat * R) :=
  match n_iter with
  | O => Ok st
  | S k =>
      let '(mean, cov, variance) := st in
      bind (expectation_all K variance mean cov es) (fun ms =>       (* 400-402 *)
      let st' := maximization n_dims K ms es n_samples in            (* 404-405 *)
      let delta := let v := vsub (fst (fst st')) mean in sqrt (dot K v v) in (* 407 *)
      if Rlt_dec delta min_delta then Ok st'                         (* 410-411 *)
      else em_loop n_dims K n_samples k min_delta es st')
  end.

(** promp.py:304-411 [imitate]: the object, the attribute [variance] and the
    content of the time arrays afterwards. *)
Definition promp_imitate (o : promp) (ds : list pdemo) (n_iter : nat) (min_delta : R)
    : res (promp * R * list arr) :=
  let K := (pm_n_dims o * pm_n_weights_per_dim o)%nat in
  bind (em_precompute_all o ds) (fun p =>
  let n_samples := fold_right Nat.add 0%nat (map pd_rows ds) in      (* 395 *)
  bind (em_loop (pm_n_dims o) K n_samples n_iter min_delta (fst p)
          (pm_weight_mean o, pm_weight_cov o, 1)) (fun st =>         (* 339 *)
  Ok (from_weight_distribution (fst (fst st)) (snd (fst st)) o, snd st, snd p))).
