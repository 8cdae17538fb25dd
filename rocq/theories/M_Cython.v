(** Model of dmp_fast.pyx at the level of array accesses.

    The other model files describe the values that the compiled functions compute.
    This one also describes which array entries they touch.  The functions are
    decorated with [boundscheck(False)] and [wraparound(False)], so that an access
    [a[i]] to a typed array is a plain C memory access: outside the array it is
    undefined behaviour ([Wild] below).  Operations on whole arrays ([a[:] = b],
    [a + b], slices) go through numpy, which checks the shapes and raises.

    All arrays have elements of type double (Cython rejects other types when it
    acquires the buffers) and no two of them overlap.  [int] arithmetic does not
    overflow. *)
From Coq Require Import Reals List Arith Bool.
From Verif Require Import M_Prelude M_Base M_Forcing M_Dmp M_DmpObject M_Quaternion M_Cartesian M_Dual.
Import ListNotations.
Open Scope R_scope.

(** ** What a compiled function can do *)

(** It returns, raises a Python exception, or accesses memory outside an array. *)
Inductive cres (A : Type) : Type :=
| Done (a : A)
| Raised (e : exn)
| Wild.
Arguments Done {A} a.
Arguments Raised {A} e.
Arguments Wild {A}.

Definition cbind {A B} (x : cres A) (f : A -> cres B) : cres B :=
  match x with Done a => f a | Raised e => Raised e | Wild => Wild end.
Notation "x <- e ;; k" := (cbind e (fun x => k))
  (at level 61, e at next level, right associativity).
Notation "' p <- e ;; k" := (cbind e (fun p => k))
  (at level 61, p strict pattern, e at next level, right associativity).

(** A call of Python code, which can only raise. *)
Definition of_res {A} (x : res A) : cres A := match x with Ok a => Done a | Err e => Raised e end.

(** [a[i]] and [a[i] = x] on a typed array with [boundscheck(False)]. *)
Definition c_rd (a : arr) (i : nat) : cres R :=
  if Nat.ltb i (alen a) then Done (aget a i) else Wild.
Definition c_wr (a : arr) (i : nat) (x : R) : cres arr :=
  if Nat.ltb i (alen a) then Done {| alen := alen a; aget := upd (aget a) i x |} else Wild.

(** The same with bounds checks: in functions without the decorators and on
    arrays without an element type. *)
Definition p_rd (a : arr) (i : nat) : cres R :=
  if Nat.ltb i (alen a) then Done (aget a i) else Raised IndexError.
Definition p_wr (a : arr) (i : nat) (x : R) : cres arr :=
  if Nat.ltb i (alen a) then Done {| alen := alen a; aget := upd (aget a) i x |}
  else Raised IndexError.

(** [np.empty(n)] with arbitrary content. *)
Definition np_empty (junk : vec) (n : nat) : arr := {| alen := n; aget := junk |}.

(** [for d in ...: body]. *)
Fixpoint c_for {A S} (l : list A) (body : A -> S -> cres S) (s : S) : cres S :=
  match l with
  | [] => Done s
  | x :: l => s <- body x s;; c_for l body s
  end.

(** ** numpy *)

(** [f(c, a)] for a number and an array; [f(a, b)] for two one-dimensional arrays:
    equal lengths, or one of them has a single entry. *)
Definition np_map (f : R -> R) (a : arr) : arr := {| alen := alen a; aget := fun i => f (aget a i) |}.
Definition np_op (f : R -> R -> R) (a b : arr) : cres arr :=
  if Nat.eqb (alen a) (alen b)
  then Done {| alen := alen a; aget := fun i => f (aget a i) (aget b i) |}
  else if Nat.eqb (alen a) 1
  then Done {| alen := alen b; aget := fun i => f (aget a 0%nat) (aget b i) |}
  else if Nat.eqb (alen b) 1
  then Done {| alen := alen a; aget := fun i => f (aget a i) (aget b 0%nat) |}
  else Raised ValueError.

(** [a[:] = b] for one-dimensional [b]: equal lengths or a single entry in [b]. *)
Definition np_assign (a b : arr) : cres arr :=
  if Nat.eqb (alen b) (alen a) then Done {| alen := alen a; aget := aget b |}
  else if Nat.eqb (alen b) 1 then Done {| alen := alen a; aget := fun _ => aget b 0%nat |}
  else Raised ValueError.

(** [a[:] = b] for [b] of any shape: leading dimensions of length 1 are ignored. *)
Fixpoint strip_ones (s : list nat) : list nat :=
  match s with 1%nat :: s => strip_ones s | _ => s end.
Definition np_assign_nd (a : arr) (b : ndarray) : cres arr :=
  match strip_ones (shape b) with
  | [] => Done {| alen := alen a; aget := fun _ => data b 0%nat |}
  | [n] => if Nat.eqb n (alen a) then Done {| alen := alen a; aget := data b |}
           else Raised ValueError
  | _ => Raised ValueError
  end.

(** [b.squeeze()]: without the dimensions of length 1. *)
Definition np_squeeze (b : ndarray) : ndarray :=
  {| shape := filter (fun n => negb (Nat.eqb n 1)) (shape b); data := data b |}.

(** [a += b] for one-dimensional [b]: the result must have the shape of [a]. *)
Definition np_iadd (a b : arr) : cres arr :=
  if Nat.eqb (alen b) (alen a)
  then Done {| alen := alen a; aget := fun i => aget a i + aget b i |}
  else if Nat.eqb (alen b) 1
  then Done {| alen := alen a; aget := fun i => aget a i + aget b 0%nat |}
  else Raised ValueError.

(** [a += b] for [b] of any shape; here additional dimensions are an error. *)
Definition np_iadd_nd (a : arr) (b : ndarray) : cres arr :=
  match shape b with
  | [] => Done {| alen := alen a; aget := fun i => aget a i + data b 0%nat |}
  | [n] => np_iadd a {| alen := n; aget := data b |}
  | _ => Raised ValueError
  end.

(** [a[start:stop]], which is cut off at the end of the array, and
    [a[start:stop] = b]. *)
Definition np_slice (start stop : nat) (a : arr) : arr :=
  {| alen := (Nat.min stop (alen a) - start)%nat; aget := fun i => aget a (start + i)%nat |}.
Definition np_set_slice (start stop : nat) (a b : arr) : cres arr :=
  s <- np_assign (np_slice start stop a) b;;
  Done {| alen := alen a;
          aget := fun i => if (Nat.leb start i && Nat.ltb i (start + alen s))%bool
                           then aget s (i - start)%nat else aget a i |}.

(** ** Python objects that are passed in *)

(** A forcing term: [phase(t)] and [forcing_term(z)] for a single time and for an
    array of times; in the second case Cython checks that [phase] returned a
    one-dimensional and [forcing_term] a two-dimensional array. *)
Record cy_forcing := {
  fo_phase : R -> res R;
  fo_forces : R -> res ndarray;
  fo_phase_array : arr -> res arr;
  fo_forces_array : arr -> res (nat * nat * (nat -> nat -> R))   (* rows, columns, entries *)
}.

(** A coupling term; [coupling(y, yd)] may itself be compiled code. *)
Definition cy_coupling := arr -> arr -> cres (ndarray * ndarray).

(** Arguments of the step functions that they read.  [goal_yd], [goal_ydd] and
    [start_ydd] are passed but never accessed.  [k_tracking_error] is
    one-dimensional. *)
Record cy_args := {
  k_goal_y : arr; k_start_y : arr; k_start_yd : arr;
  k_goal_t : R; k_start_t : R;
  k_alpha_y : arr; k_beta_y : arr;
  k_forcing_term : cy_forcing;
  k_coupling_term : option cy_coupling;
  k_precomputed : option (ndarray * ndarray);
  k_int_dt : R;
  k_p_gain : R;
  k_tracking_error : option arr;
  k_smooth_scaling : bool
}.

(** The loop [while current_t < t] as in [substeps], with a body that can fail. *)
Fixpoint c_substeps {S : Type} (fuel : nat) (current_t t int_dt : R)
    (body : R -> R -> S -> cres S) (s : S) : cres S :=
  if Rlt_dec current_t t then
    match fuel with
    | O => Raised OutOfFuel
    | Datatypes.S fuel' =>
        let dt := if Rlt_dec (t - current_t) int_dt then t - current_t else int_dt in
        s <- body (current_t + dt) dt s;;
        c_substeps fuel' (current_t + dt) t int_dt body s
    end
  else Done s.

(** dmp_fast.pyx:136-138, 449-451, 589-591: back to the start. *)
Definition c_restart (k : cy_args) (t : R) (s : arr * arr) : cres (arr * arr) :=
  if Rle_dec t (k_start_t k) then
    y <- np_assign (fst s) (k_start_y k);;
    yd <- np_assign (snd s) (k_start_yd k);;
    Done (y, yd)
  else Done s.

(** ** dmp_fast.pyx:51-194 [dmp_step] *)

(** Coupling, lines 164-173.  [cd] and [cdd] (145-146) are overwritten completely
    before they are read. *)
Definition c_couple (k : cy_args) (n_dims : nat) (junk : vec) (dt : R) (s : arr * arr)
    : cres (arr * arr) :=
  let cd := np_empty junk n_dims in                                  (* 145 *)
  let cdd := np_empty junk n_dims in                                 (* 146 *)
  ' (cd, cdd) <-
    match k_coupling_term k, k_precomputed k with
    | Some c, _ =>
        ' (x, xd) <- c (fst s) (snd s);;
        cd <- np_assign_nd cd x;;
        cdd <- np_assign_nd cdd xd;;
        Done (cd, cdd)                                               (* 164-165 *)
    | None, Some (x, xd) =>
        cd <- np_assign_nd cd x;;
        cdd <- np_assign_nd cdd xd;;
        Done (cd, cdd)                                               (* 166-168 *)
    | None, None => Done (zeros n_dims, zeros n_dims)                (* 169-171 *)
    end;;
  match k_tracking_error k with
  | Some te =>
      cdd <- np_iadd cdd (np_map (fun e => k_p_gain k * e / dt) te);; (* 172-173 *)
      Done (cd, cdd)
  | None => Done (cd, cdd)
  end.

(** The body of the loop over the dimensions, lines 178-194; the state consists of
    [current_y], [current_yd] and [current_ydd]. *)
Definition c_euler_cell (k : cy_args) (execution_time dt z : R) (f cd cdd : arr) (d : nat)
    (s : arr * arr * arr) : cres (arr * arr * arr) :=
  let '(current_y, current_yd, current_ydd) := s in
  smoothing <-
    (if k_smooth_scaling k then
       b <- c_rd (k_beta_y k) d;; g <- c_rd (k_goal_y k) d;; y0 <- c_rd (k_start_y k) d;;
       Done (b * (g - y0) * z)                                       (* 179-180 *)
     else Done 0);;                                                  (* 182 *)
  a <- c_rd (k_alpha_y k) d;;
  b <- c_rd (k_beta_y k) d;; g <- c_rd (k_goal_y k) d;; y <- c_rd current_y d;;
  v <- c_rd current_yd d;;
  fd <- c_rd f d;; c <- c_rd cdd d;;
  current_ydd <- c_wr current_ydd d
    ((a * (b * (g - y) - execution_time * v - smoothing) + fd + c) / execution_time ^ 2);; (* 184-192 *)
  v <- c_rd current_yd d;; a <- c_rd current_ydd d;; c <- c_rd cd d;;
  current_yd <- c_wr current_yd d (v + (dt * a + c / execution_time));; (* 193 *)
  y <- c_rd current_y d;; v <- c_rd current_yd d;;
  current_y <- c_wr current_y d (y + dt * v);;                       (* 194 *)
  Done (current_y, current_yd, current_ydd).

(** The body of the outer loop, lines 164-194. *)
Definition c_euler_body (junk : vec) (k : cy_args) (current_t dt : R) (s : arr * arr)
    : cres (arr * arr) :=
  let execution_time := k_goal_t k - k_start_t k in                  (* 140 *)
  let n_dims := alen (fst s) in                                      (* 142 *)
  ' (cd, cdd) <- c_couple k n_dims junk dt s;;                       (* 164-173 *)
  z <- of_res (fo_phase (k_forcing_term k) current_t);;              (* 175 *)
  force <- of_res (fo_forces (k_forcing_term k) z);;
  f <- np_assign_nd (np_empty junk n_dims) (np_squeeze force);;      (* 148, 176 *)
  ' (current_y, current_yd, _) <-
    c_for (seq 0 n_dims) (c_euler_cell k execution_time dt z f cd cdd)
      (fst s, snd s, np_empty junk n_dims);;                         (* 178-194 *)
  Done (current_y, current_yd).

Definition c_dmp_step (junk : vec) (k : cy_args) (last_t t : R) (s : arr * arr)
    : cres (arr * arr) :=
  if Rle_dec (k_goal_t k) (k_start_t k) then Raised ValueError       (* 133-134 *)
  else
    s <- c_restart k t s;;                                           (* 136-138 *)
    c_substeps (substeps_fuel last_t t (k_int_dt k)) last_t t (k_int_dt k)
      (c_euler_body junk k) s.                                       (* 157-194 *)

(** ** dmp_fast.pyx:201-331 [dmp_step_rk4] *)

(** dmp_fast.pyx:334-364 [_dmp_acc].  This function has no decorators: its accesses and
    its division are checked (the other functions have [cdivision(True)]).  It overwrites the array [cdd] of its caller; the result is the
    pair of that array and the accelerations. *)
Definition c_dmp_acc (junk : vec) (k : cy_args) (Y V cdd : arr) (z execution_time : R) (f tdd : arr)
    : cres (arr * arr) :=
  cdd <- match k_coupling_term k with
         | Some c => ' (_, x) <- c Y V;; np_assign_nd cdd x          (* 342-343 *)
         | None => Done cdd
         end;;
  let n_dims := alen Y in                                            (* 345 *)
  Ydd <- c_for (seq 0 n_dims) (fun d Ydd =>
    smoothing <-
      (if k_smooth_scaling k then
         b <- p_rd (k_beta_y k) d;; g <- p_rd (k_goal_y k) d;; y0 <- p_rd (k_start_y k) d;;
         Done (b * (g - y0) * z)                                     (* 350-351 *)
       else Done 0);;                                                (* 353 *)
    a <- p_rd (k_alpha_y k) d;;
    b <- p_rd (k_beta_y k) d;; g <- p_rd (k_goal_y k) d;; y <- p_rd Y d;;
    v <- p_rd V d;;
    fd <- p_rd f d;; c <- p_rd cdd d;; t <- p_rd tdd d;;
    if Req_EM_T execution_time 0 then Raised ZeroDivisionError else
    p_wr Ydd d
      ((a * (b * (g - y) - execution_time * v - smoothing) + fd + c + t) / execution_time ^ 2))
    (np_empty junk n_dims);;                                         (* 346, 349-363 *)
  Done (cdd, Ydd).

(** [F[:, j]]. *)
Definition column (F : nat * nat * (nat -> nat -> R)) (j : nat) : cres arr :=
  let '(rows, cols, x) := F in
  if Nat.ltb j cols then Done {| alen := rows; aget := fun i => x i j |} else Raised IndexError.

Definition c_dmp_step_rk4 (junk : vec) (k : cy_args) (last_t t : R) (s : arr * arr)
    : cres (arr * arr) :=
  let '(current_y, current_yd) := s in
  let n_dims := alen current_y in                                    (* 283 *)
  cd <- match k_precomputed k with
        | Some (x, _) => np_iadd_nd (zeros n_dims) x                 (* 285, 288 *)
        | None => Done (zeros n_dims)
        end;;
  cdd <- match k_precomputed k with
         | Some (_, x) => np_iadd_nd (zeros n_dims) x                (* 286, 289 *)
         | None => Done (zeros n_dims)
         end;;
  let execution_time := k_goal_t k - k_start_t k in                  (* 292 *)
  let dt := t - last_t in                                            (* 293 *)
  let dt_2 := / 2 * dt in                                            (* 294 *)
  let T := {| alen := 3; aget := fun i => match i with
                                          | O => t | 1%nat => t + dt_2 | _ => t + dt end |} in (* 295 *)
  Z <- of_res (fo_phase_array (k_forcing_term k) T);;                (* 296 *)
  F <- of_res (fo_forces_array (k_forcing_term k) Z);;               (* 297 *)
  let tdd := match k_tracking_error k with
             | Some te => np_map (fun e => k_p_gain k / dt * e) te   (* 299-300 *)
             | None => zeros n_dims                                  (* 301-302 *)
             end in
  z <- c_rd Z 0;; f <- column F 0;;
  ' (cdd, K0) <- c_dmp_acc junk k current_y current_yd cdd z execution_time f tdd;; (* 304-307 *)
  C1 <- np_op Rplus current_yd (np_map (Rmult dt_2) K0);;            (* 308 *)
  Y <- np_op Rplus current_y (np_map (Rmult dt_2) current_yd);;
  z <- c_rd Z 1;; f <- column F 1;;
  ' (cdd, K1) <- c_dmp_acc junk k Y C1 cdd z execution_time f tdd;;  (* 309-312 *)
  C2 <- np_op Rplus current_yd (np_map (Rmult dt_2) K1);;            (* 313 *)
  Y <- np_op Rplus current_y (np_map (Rmult dt_2) C1);;
  z <- c_rd Z 1;; f <- column F 1;;
  ' (cdd, K2) <- c_dmp_acc junk k Y C2 cdd z execution_time f tdd;;  (* 314-317 *)
  C3 <- np_op Rplus current_yd (np_map (Rmult dt) K2);;              (* 318 *)
  Y <- np_op Rplus current_y (np_map (Rmult dt) C2);;
  z <- c_rd Z 2;; f <- column F 2;;
  ' (cdd, K3) <- c_dmp_acc junk k Y C3 cdd z execution_time f tdd;;  (* 319-322 *)
  ' (current_y, current_yd) <- c_for (seq 0 n_dims) (fun i s =>
    let '(current_y, current_yd) := s in
    y <- c_rd current_y i;; v <- c_rd current_yd i;;
    c1 <- c_rd C1 i;; c2 <- c_rd C2 i;; c3 <- c_rd C3 i;;
    current_y <- c_wr current_y i (y + dt * (v + 2 * c1 + 2 * c2 + c3) / 6);; (* 326 *)
    v <- c_rd current_yd i;;
    k0 <- c_rd K0 i;; k1 <- c_rd K1 i;; k2 <- c_rd K2 i;; k3 <- c_rd K3 i;;
    current_yd <- c_wr current_yd i (v + dt * (k0 + 2 * k1 + 2 * k2 + k3) / 6);; (* 327 *)
    Done (current_y, current_yd)) (current_y, current_yd);;          (* 325 *)
  match k_coupling_term k with
  | None => Done (current_y, current_yd)
  | Some c =>
      ' (x, _) <- c current_y current_yd;;
      cd <- np_assign_nd cd x;;                                      (* 330 *)
      current_yd <- np_iadd current_yd (np_map (fun e => e / execution_time) cd);; (* 331 *)
      Done (current_y, current_yd)
  end.

(** ** Quaternions *)

(** dmp_fast.pyx:682-715 [concatenate_quaternions]. *)
Definition c_concatenate_quaternions (junk : vec) (q1 q2 : arr) : cres arr :=
  let q12 := np_empty junk 4 in                                      (* 701 *)
  a <- c_rd q1 0;; b <- c_rd q2 0;;
  q12 <- c_wr q12 0 (a * b);;                                        (* 702 *)
  a <- c_rd q1 2;; b <- c_rd q2 3;; c <- c_rd q1 3;; d <- c_rd q2 2;;
  q12 <- c_wr q12 1 (a * b - c * d);;                                (* 704 *)
  a <- c_rd q1 3;; b <- c_rd q2 1;; c <- c_rd q1 1;; d <- c_rd q2 3;;
  q12 <- c_wr q12 2 (a * b - c * d);;                                (* 705 *)
  a <- c_rd q1 1;; b <- c_rd q2 2;; c <- c_rd q1 2;; d <- c_rd q2 1;;
  q12 <- c_wr q12 3 (a * b - c * d);;                                (* 706 *)
  q12 <- c_for (seq 1 3) (fun i q12 =>
    x <- c_rd q12 0;; a <- c_rd q1 i;; b <- c_rd q2 i;;
    q12 <- c_wr q12 0 (x - a * b);;                                  (* 709 *)
    x <- c_rd q12 i;;
    a <- c_rd q1 0;; b <- c_rd q2 i;; c <- c_rd q2 0;; d <- c_rd q1 i;;
    c_wr q12 i (x + (a * b + c * d))) q12;;                          (* 708, 710 *)
  w <- c_rd q12 0;; x <- c_rd q12 1;; y <- c_rd q12 2;; z <- c_rd q12 3;;
  let norm := sqrt (w * w + x * x + y * y + z * z) in                (* 712 *)
  c_for (seq 0 4) (fun i q12 => x <- c_rd q12 i;; c_wr q12 i (x / norm)) q12. (* 713-714 *)

(** dmp_fast.pyx:758-775 [q_conj]; [list_arr] is [np.array] of a list. *)
Definition list_arr (l : list R) : arr := {| alen := length l; aget := fun i => nth i l 0 |}.
Definition c_q_conj (q : arr) : cres arr :=
  w <- c_rd q 0;; x <- c_rd q 1;; y <- c_rd q 2;; z <- c_rd q 3;;
  Done (list_arr [w; - x; - y; - z]).                                (* 775 *)

(** dmp_fast.pyx:722-751 [quaternion_from_compact_axis_angle]. *)
Definition c_quaternion_from_compact_axis_angle (junk : vec) (a : arr) : cres arr :=
  x <- c_rd a 0;; y <- c_rd a 1;; z <- c_rd a 2;;
  let angle := sqrt (x * x + y * y + z * z) in                       (* 737 *)
  if Req_EM_T angle 0 then Done (list_arr [1; 0; 0; 0])              (* 738-739 *)
  else
    let axis := np_map (fun e => e / angle) a in                     (* 742 *)
    let q := np_empty junk 4 in                                      (* 744 *)
    let half_angle := angle / 2 in                                   (* 745 *)
    q <- c_wr q 0 (cos half_angle);;                                 (* 746 *)
    let s := sin half_angle in                                       (* 747 *)
    e <- c_rd axis 0;; q <- c_wr q 1 (s * e);;                       (* 748 *)
    e <- c_rd axis 1;; q <- c_wr q 2 (s * e);;                       (* 749 *)
    e <- c_rd axis 2;; c_wr q 3 (s * e).                             (* 750 *)

(** dmp_fast.pyx:782-806 [compact_axis_angle_from_quaternion]. *)
Definition c_compact_axis_angle_from_quaternion (q : arr) : cres arr :=
  x <- c_rd q 1;; y <- c_rd q 2;; z <- c_rd q 3;;
  let p_norm_sqr := x * x + y * y + z * z in                         (* 798 *)
  if Rlt_dec p_norm_sqr (/ 10 ^ 32) then Done (zeros 3)              (* 799-800 *)
  else
    w <- c_rd q 0;;
    let q_norm := sqrt (w * w + p_norm_sqr) in                       (* 801 *)
    let q_n := np_map (fun e => e / q_norm) q in                     (* 802 *)
    let p_norm := sqrt p_norm_sqr / q_norm in                        (* 803 *)
    w <- c_rd q_n 0;;
    let angle := rmod (2 * acos w + PI) (2 * PI) - PI in             (* 805 *)
    Done (np_map (fun e => e / (p_norm / angle)) (np_slice 1 (alen q_n) q_n)). (* 806 *)

(** ** dmp_fast.pyx:371-505 [dmp_step_quaternion] *)

(** The rotation vector from [q] to [p], lines 489-490 and 495-496. *)
Definition c_rotation_error (junk : vec) (p q : arr) : cres arr :=
  q <- c_q_conj q;;
  e <- c_concatenate_quaternions junk p q;;
  c_compact_axis_angle_from_quaternion e.

(** The right-hand side of lines 493-502 (and 662-671). *)
Definition c_rotation_acc (k : cy_args) (alpha beta error yd smoothing f cdd : arr) : cres arr :=
  let execution_time := k_goal_t k - k_start_t k in
  x <- np_op Rmult beta error;;
  x <- np_op Rminus x (np_map (Rmult execution_time) yd);;
  x <- np_op Rminus x smoothing;;
  x <- np_op Rmult alpha x;;
  x <- np_op Rplus x f;;
  x <- np_op Rplus x cdd;;
  Done (np_map (fun e => e / execution_time ^ 2) x).

Definition c_quaternion_body (junk : vec) (k : cy_args) (current_t dt : R) (s : arr * arr)
    : cres (arr * arr) :=
  let '(current_y, current_yd) := s in
  let execution_time := k_goal_t k - k_start_t k in                  (* 453 *)
  ' (cd, cdd) <-
    match k_coupling_term k, k_precomputed k with
    | Some c, _ =>
        ' (x, xd) <- c current_y current_yd;;
        cd <- np_assign_nd (zeros 3) x;;
        cdd <- np_assign_nd (zeros 3) xd;;
        Done (cd, cdd)                                               (* 479-480 *)
    | None, Some (x, xd) =>
        cd <- np_assign_nd (zeros 3) x;;
        cdd <- np_assign_nd (zeros 3) xd;;
        Done (cd, cdd)                                               (* 481-483 *)
    | None, None => Done (zeros 3, zeros 3)                          (* 457-458 *)
    end;;
  z <- of_res (fo_phase (k_forcing_term k) current_t);;              (* 485 *)
  force <- of_res (fo_forces (k_forcing_term k) z);;
  f <- np_assign_nd (np_empty junk 3) (np_squeeze force);;           (* 460, 486 *)
  smoothing <-
    (if k_smooth_scaling k then
       goal_y_minus_start_y <- c_rotation_error junk (k_goal_y k) (k_start_y k);; (* 489-490 *)
       x <- np_op Rmult (np_map (fun b => b * z) (k_beta_y k)) goal_y_minus_start_y;;
       np_assign (np_empty junk 3) x                                 (* 468, 491 *)
     else Done (zeros 3));;                                          (* 469-470 *)
  error <- c_rotation_error junk (k_goal_y k) current_y;;            (* 495-496 *)
  x <- c_rotation_acc k (k_alpha_y k) (k_beta_y k) error current_yd smoothing f cdd;;
  current_ydd <- np_assign (np_empty junk 3) x;;                     (* 455, 493-502 *)
  x <- np_op Rplus (np_map (Rmult dt) current_ydd) (np_map (fun e => e / execution_time) cd);;
  current_yd <- np_iadd current_yd x;;                               (* 503 *)
  q <- c_quaternion_from_compact_axis_angle junk (np_map (Rmult dt) current_yd);;
  q <- c_concatenate_quaternions junk q current_y;;
  current_y <- np_assign current_y q;;                               (* 504-505 *)
  Done (current_y, current_yd).

Definition c_dmp_step_quaternion (junk : vec) (k : cy_args) (last_t t : R) (s : arr * arr)
    : cres (arr * arr) :=
  s <- c_restart k t s;;                                             (* 449-451 *)
  c_substeps (substeps_fuel last_t t (k_int_dt k)) last_t t (k_int_dt k)
    (c_quaternion_body junk k) s.                                    (* 472-505 *)

(** ** dmp_fast.pyx:512-675 [dmp_step_dual_cartesian] *)

(** POS_INDICES (613-614) and the pairs of slices [ops], [ovs] (635, 657). *)
Definition POS_INDICES : list (nat * nat) := [(0, 0); (1, 1); (2, 2); (7, 6); (8, 7); (9, 8)]%nat.
Definition ORN_SLICES : list ((nat * nat) * (nat * nat)) :=
  [((3, 7), (3, 6)); ((10, 14), (9, 12))]%nat.

(** Lines 632-636.  [tracking_error] has no element type: [tracking_error[pps]] is
    a checked access. *)
Definition c_dual_feedback (k : cy_args) (dt : R) (cdd : arr) : cres arr :=
  match k_tracking_error k with
  | None => Done cdd
  | Some te =>
      cdd <- c_for POS_INDICES (fun i cdd =>
        let '(pps, pvs) := i in
        x <- c_rd cdd pvs;; e <- p_rd te pps;;
        c_wr cdd pvs (x + k_p_gain k * e / dt)) cdd;;                (* 633-634 *)
      c_for ORN_SLICES (fun i cdd =>
        let '((o1, o2), (v1, v2)) := i in
        e <- c_compact_axis_angle_from_quaternion (np_slice o1 o2 te);;
        x <- np_iadd (np_slice v1 v2 cdd) (np_map (fun e => k_p_gain k * e / dt) e);;
        np_set_slice v1 v2 cdd x) cdd                                (* 635-636 *)
  end.

(** Lines 639-654; the state is [current_y], [current_yd], [current_ydd]. *)
Definition c_dual_position (k : cy_args) (execution_time dt z : R) (f cd cdd : arr)
    (i : nat * nat) (s : arr * arr * arr) : cres (arr * arr * arr) :=
  let '(pps, pvs) := i in
  let '(current_y, current_yd, current_ydd) := s in
  smoothing_pos <-
    (if k_smooth_scaling k then
       b <- c_rd (k_beta_y k) pps;; g <- c_rd (k_goal_y k) pps;; y0 <- c_rd (k_start_y k) pps;;
       Done (b * (g - y0) * z)                                       (* 640-641 *)
     else Done 0);;                                                  (* 643 *)
  a <- c_rd (k_alpha_y k) pvs;;
  b <- c_rd (k_beta_y k) pvs;; g <- c_rd (k_goal_y k) pps;; y <- c_rd current_y pps;;
  v <- c_rd current_yd pvs;;
  fd <- c_rd f pvs;; c <- c_rd cdd pvs;;
  current_ydd <- c_wr current_ydd pvs
    ((a * (b * (g - y) - execution_time * v - smoothing_pos) + fd + c) / execution_time ^ 2);; (* 644-652 *)
  v <- c_rd current_yd pvs;; a <- c_rd current_ydd pvs;; c <- c_rd cd pvs;;
  current_yd <- c_wr current_yd pvs (v + (dt * a + c / execution_time));; (* 653 *)
  y <- c_rd current_y pps;; v <- c_rd current_yd pvs;;
  current_y <- c_wr current_y pps (y + dt * v);;                     (* 654 *)
  Done (current_y, current_yd, current_ydd).

(** Lines 657-675. *)
Definition c_dual_orientation (junk : vec) (k : cy_args) (execution_time dt z : R) (f cd cdd : arr)
    (i : (nat * nat) * (nat * nat)) (s : arr * arr * arr) : cres (arr * arr * arr) :=
  let '((o1, o2), (v1, v2)) := i in
  let '(current_y, current_yd, current_ydd) := s in
  let beta := np_slice v1 v2 (k_beta_y k) in
  smoothing_orn <-
    (if k_smooth_scaling k then
       goal_y_minus_start_y <-
         c_rotation_error junk (np_slice o1 o2 (k_goal_y k)) (np_slice o1 o2 (k_start_y k));; (* 659-660 *)
       x <- np_op Rmult (np_map (fun b => b * z) beta) goal_y_minus_start_y;;
       np_assign (np_empty junk 3) x                                 (* 605, 661 *)
     else Done (zeros 3));;                                          (* 606-607 *)
  error <- c_rotation_error junk (np_slice o1 o2 (k_goal_y k)) (np_slice o1 o2 current_y);; (* 664-665 *)
  x <- c_rotation_acc k (np_slice v1 v2 (k_alpha_y k)) beta error (np_slice v1 v2 current_yd)
         smoothing_orn (np_slice v1 v2 f) (np_slice v1 v2 cdd);;
  current_ydd <- np_set_slice v1 v2 current_ydd x;;                  (* 662-671 *)
  x <- np_op Rplus (np_map (Rmult dt) (np_slice v1 v2 current_ydd))
         (np_map (fun e => e / execution_time) (np_slice v1 v2 cd));;
  x <- np_iadd (np_slice v1 v2 current_yd) x;;
  current_yd <- np_set_slice v1 v2 current_yd x;;                    (* 672 *)
  q <- c_quaternion_from_compact_axis_angle junk (np_map (Rmult dt) (np_slice v1 v2 current_yd));;
  q <- c_concatenate_quaternions junk q (np_slice o1 o2 current_y);;
  current_y <- np_set_slice o1 o2 current_y q;;                      (* 673-675 *)
  Done (current_y, current_yd, current_ydd).

Definition c_dual_body (junk : vec) (k : cy_args) (current_t dt : R) (s : arr * arr)
    : cres (arr * arr) :=
  let '(current_y, current_yd) := s in
  let execution_time := k_goal_t k - k_start_t k in                  (* 593 *)
  let n_vel_dims := alen current_yd in                               (* 597 *)
  ' (cd, cdd) <-
    match k_coupling_term k with
    | None => Done (zeros n_vel_dims, zeros n_vel_dims)              (* 624-626 *)
    | Some c =>
        ' (x, xd) <- c current_y current_yd;;
        cd <- np_assign_nd (np_empty junk n_vel_dims) x;;            (* 599 *)
        cdd <- np_assign_nd (np_empty junk n_vel_dims) xd;;          (* 600 *)
        Done (cd, cdd)                                               (* 628 *)
    end;;
  z <- of_res (fo_phase (k_forcing_term k) current_t);;              (* 630 *)
  force <- of_res (fo_forces (k_forcing_term k) z);;
  f <- np_assign_nd (np_empty junk n_vel_dims) (np_squeeze force);;  (* 602, 631 *)
  cdd <- c_dual_feedback k dt cdd;;                                  (* 632-636 *)
  s <- c_for POS_INDICES (c_dual_position k execution_time dt z f cd cdd)
         (current_y, current_yd, np_empty junk n_vel_dims);;         (* 595, 639-654 *)
  ' (current_y, current_yd, _) <-
    c_for ORN_SLICES (c_dual_orientation junk k execution_time dt z f cd cdd) s;; (* 657-675 *)
  Done (current_y, current_yd).

Definition c_dmp_step_dual_cartesian (junk : vec) (k : cy_args) (last_t t : R) (s : arr * arr)
    : cres (arr * arr) :=
  s <- c_restart k t s;;                                             (* 589-591 *)
  c_substeps (substeps_fuel last_t t (k_int_dt k)) last_t t (k_int_dt k)
    (c_dual_body junk k) s.                                          (* 616-675 *)

(** ** Obstacle avoidance *)

(** dmp_fast.pyx:813-833 [matrix_from_compact_axis_angle]; rows of three entries. *)
Definition c_matrix_from_compact_axis_angle (r : arr) : cres (list (list R)) :=
  let theta := sqrt (rsum (alen r) (fun i => aget r i * aget r i)) in (* 814: np.linalg.norm *)
  if Req_EM_T theta 0 then Done [[1; 0; 0]; [0; 1; 0]; [0; 0; 1]]    (* 815-816 *)
  else
    x <- c_rd r 0;; y <- c_rd r 1;; z <- c_rd r 2;;
    let ux := x / theta in let uy := y / theta in let uz := z / theta in (* 817-819 *)
    let c := cos theta in let s := sin theta in let ci := 1 - c in   (* 820-822 *)
    Done [[ci * ux * ux + c; ci * ux * uy - uz * s; ci * ux * uz + uy * s];
          [ci * uy * ux + uz * s; ci * uy * uy + c; ci * uy * uz - ux * s];
          [ci * uz * ux - uy * s; ci * uz * uy + ux * s; ci * uz * uz + c]]. (* 823-833 *)

(** dmp_fast.pyx:840-880 [obstacle_avoidance_acceleration_2d].  [np.dot] raises
    ValueError unless [yd] has two entries. *)
Definition c_obstacle_avoidance_acceleration_2d (y yd obstacle_position : arr) (gamma beta : R)
    : cres arr :=
  obstacle_diff <- np_op Rminus obstacle_position y;;                (* 867 *)
  a <- c_rd obstacle_diff 0;; b <- c_rd yd 1;; c <- c_rd obstacle_diff 1;; d <- c_rd yd 0;;
  let r := a * b - c * d in                                          (* 868 *)
  let r := if Req_EM_T r 0 then r else r * (1/2 * PI / Rabs r) in    (* 869-870 *)
  R3 <- c_matrix_from_compact_axis_angle (list_arr [0; 0; r]);;      (* 871-872 *)
  let m i j := nth j (nth i R3 []) 0 in
  a <- c_rd obstacle_diff 0;; b <- c_rd yd 0;; c <- c_rd obstacle_diff 1;; d <- c_rd yd 1;;
  let theta_nom := a * b + c * d in                                  (* 873 *)
  let obstacle_diff_norm := sqrt (a * a + c * c) in                  (* 874 *)
  let yd_norm := sqrt (b * b + d * d) in                             (* 875 *)
  let theta := acos (theta_nom / (obstacle_diff_norm * yd_norm + / 10 ^ 10)) in (* 876-877 *)
  if Nat.eqb (alen yd) 2 then
    let rotated := list_arr [m 0%nat 0%nat * aget yd 0%nat + m 0%nat 1%nat * aget yd 1%nat;
                             m 1%nat 0%nat * aget yd 0%nat + m 1%nat 1%nat * aget yd 1%nat] in (* 878 *)
    Done (np_map (fun e => gamma * e * (theta * exp (- beta * theta))) rotated) (* 879-880 *)
  else Raised ValueError.

(** dmp/_coupling_terms.py:97-118 [CouplingTermObstacleAvoidance2D.coupling] with
    [fast=True]. *)
Definition nd1 (a : arr) : ndarray := {| shape := [alen a]; data := aget a |}.
Definition c_obstacle_coupling (obstacle_position : arr) (gamma beta : R) : cy_coupling := fun y yd =>
  cdd <- c_obstacle_avoidance_acceleration_2d y yd obstacle_position gamma beta;; (* 116-117 *)
  Done (nd1 (zeros (alen cdd)), nd1 cdd).                            (* 118 *)

(** ** What the classes pass in *)

(** dmp/_forcing_term.py:86-93: [phase] and [forcing_term] of a ForcingTerm with [n]
    rows of weights; for a single phase the forces have shape (n, 1). *)
Definition ft_object (n : nat) (f : forcing_term) : cy_forcing :=
  {| fo_phase := fun t => Ok (ft_phase f t);
     fo_forces := fun z => Ok {| shape := [n; 1%nat]; data := ft_forces f z |};
     fo_phase_array := fun T => Ok (np_map (ft_phase f) T);
     fo_forces_array := fun Z => Ok (n, alen Z, fun d j => ft_forces f (aget Z j) d) |}.

Definition of_vec (n : nat) (v : vec) : arr := {| alen := n; aget := v |}.

(** A coupling term that returns arrays of [n] entries. *)
Definition coupling_object (n : nat) (c : coupling) : cy_coupling := fun y yd =>
  let '(x, xd) := c (aget y) (aget yd) in Done (nd1 (of_vec n x), nd1 (of_vec n xd)).

(** The arguments [a] of a step function as arrays of [n] entries. *)
Definition cy_of (n : nat) (a : dmp_args) : cy_args :=
  {| k_goal_y := of_vec n (a_goal_y a);
     k_start_y := of_vec n (a_start_y a); k_start_yd := of_vec n (a_start_yd a);
     k_goal_t := a_goal_t a; k_start_t := a_start_t a;
     k_alpha_y := of_vec n (a_alpha_y a); k_beta_y := of_vec n (a_beta_y a);
     k_forcing_term := ft_object n (a_forcing_term a);
     k_coupling_term := option_map (coupling_object n) (a_coupling_term a);
     k_precomputed := option_map (fun p => (nd1 (of_vec n (fst p)), nd1 (of_vec n (snd p)))) (a_precomputed a);
     k_int_dt := a_int_dt a; k_p_gain := a_p_gain a;
     k_tracking_error := option_map (of_vec n) (a_tracking_error a);
     k_smooth_scaling := a_smooth_scaling a |}.

(** The same for the quaternion step: arrays of 4 and 3 entries. *)
Definition qcoupling_object (c : qcoupling) : cy_coupling := fun y yd =>
  let '(x, xd) := c (quat_of (aget y)) (v3_of (aget yd)) in
  Done (nd1 (of_vec 3 (vec_of_v3 x)), nd1 (of_vec 3 (vec_of_v3 xd))).
Definition cy_of_quaternion (a : qargs) : cy_args :=
  {| k_goal_y := of_vec 4 (vec_of_quat (g_goal_y a));
     k_start_y := of_vec 4 (vec_of_quat (g_start_y a)); k_start_yd := of_vec 3 (vec_of_v3 (g_start_yd a));
     k_goal_t := g_goal_t a; k_start_t := g_start_t a;
     k_alpha_y := of_vec 3 (vec_of_v3 (g_alpha_y a)); k_beta_y := of_vec 3 (vec_of_v3 (g_beta_y a));
     k_forcing_term := ft_object 3 (g_forcing_term a);
     k_coupling_term := option_map qcoupling_object (g_coupling_term a);
     k_precomputed := option_map (fun p => (nd1 (of_vec 3 (vec_of_v3 (fst p))),
                                            nd1 (of_vec 3 (vec_of_v3 (snd p))))) (g_precomputed a);
     k_int_dt := g_int_dt a; k_p_gain := 0; k_tracking_error := None;
     k_smooth_scaling := g_smooth_scaling a |}.

(** The same for two arms: arrays of 14 and 12 entries. *)
Definition cy_of_dual (a : dmp_args) (c : option coupling) : cy_args :=
  {| k_goal_y := of_vec 14 (a_goal_y a);
     k_start_y := of_vec 14 (a_start_y a); k_start_yd := of_vec 12 (a_start_yd a);
     k_goal_t := a_goal_t a; k_start_t := a_start_t a;
     k_alpha_y := of_vec 12 (a_alpha_y a); k_beta_y := of_vec 12 (a_beta_y a);
     k_forcing_term := ft_object 12 (a_forcing_term a);
     k_coupling_term := option_map (coupling_object 12) c;
     k_precomputed := None;
     k_int_dt := a_int_dt a; k_p_gain := a_p_gain a;
     k_tracking_error := option_map (of_vec 14) (a_tracking_error a);
     k_smooth_scaling := a_smooth_scaling a |}.

(** ** What the objects pass in, as arrays *)

(** _dmp.py:488-504 ([step]; tracking error: 486) and 890-906 ([open_loop]: no start
    velocity, no tracking error), and _dual_cartesian_dmp.py:312-321.  [rows] is the
    number of rows of weights: n_dims, or 12 for two arms. *)
Definition cy_object_args (rows : nat) (o : dmp) (c : option cy_coupling) (start_yd : arr) (te : option arr)
    : cy_args :=
  {| k_goal_y := p_goal_y (o_base o); k_start_y := p_start_y (o_base o); k_start_yd := start_yd;
     k_goal_t := o_execution_time o; k_start_t := 0;
     k_alpha_y := o_alpha_y o; k_beta_y := o_beta_y o;
     k_forcing_term := ft_object rows (o_forcing_term o);
     k_coupling_term := c; k_precomputed := None;
     k_int_dt := o_int_dt o; k_p_gain := o_p_gain o; k_tracking_error := te;
     k_smooth_scaling := o_smooth_scaling o |}.

(** _cartesian_dmp.py:311-321 and 369-377: positions; 322-332 and 385-393:
    orientations. *)
Definition cy_cart_position_args (o : cart) (c : option cy_coupling) (start_yd : arr) : cy_args :=
  let p := k_base o in
  {| k_goal_y := np_slice 0 3 (p_goal_y p); k_start_y := np_slice 0 3 (p_start_y p); k_start_yd := start_yd;
     k_goal_t := k_execution_time o; k_start_t := 0;
     k_alpha_y := np_slice 0 3 (k_alpha o); k_beta_y := np_slice 0 3 (k_beta o);
     k_forcing_term := ft_object 3 (k_fpos o);
     k_coupling_term := c; k_precomputed := None;
     M_Cython.k_int_dt := M_Cartesian.k_int_dt o; k_p_gain := 0; k_tracking_error := None;
     k_smooth_scaling := k_smooth o |}.
Definition from (start : nat) (a : arr) : arr := np_slice start (alen a) a.   (* [a[start:]] *)
Definition cy_cart_orientation_args (o : cart) (c : option cy_coupling) (start_yd : arr) : cy_args :=
  let p := k_base o in
  {| k_goal_y := from 3 (p_goal_y p); k_start_y := from 3 (p_start_y p); k_start_yd := start_yd;
     k_goal_t := k_execution_time o; k_start_t := 0;
     k_alpha_y := from 3 (k_alpha o); k_beta_y := from 3 (k_beta o);
     k_forcing_term := ft_object 3 (k_frot o);
     k_coupling_term := c; k_precomputed := None;
     M_Cython.k_int_dt := M_Cartesian.k_int_dt o; k_p_gain := 0; k_tracking_error := None;
     k_smooth_scaling := k_smooth o |}.

(** Several calls in a row, each from the state that the previous one left; [ts]
    lists the pairs (last_t, t).  A call that raises ends the sequence. *)
Fixpoint c_run (step : R -> R -> arr * arr -> cres (arr * arr)) (ts : list (R * R)) (s : arr * arr)
    : cres (arr * arr) :=
  match ts with
  | [] => Done s
  | (last_t, t) :: ts => s <- step last_t t s;; c_run step ts s
  end.
