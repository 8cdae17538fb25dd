(** Model of the quaternion functions: the Cython versions in dmp_fast.pyx and
    the functions of the library pytransform3d (imported as [pr]) that the Python
    code calls.  The source of pytransform3d is not part of /repo; its functions
    are modelled from their documented behaviour and this is part of the trusted
    base (DESIGN.md). *)
From Coq Require Import Reals ZArith Lra.
From Verif Require Import M_Prelude.
Open Scope R_scope.

(** Arrays of length 3 and 4. *)
Record v3 := V3 { v3x : R; v3y : R; v3z : R }.
Record quat := Q4 { qw : R; qx : R; qy : R; qz : R }.

Definition v3_zero : v3 := V3 0 0 0.
Definition v3_add (a b : v3) : v3 := V3 (v3x a + v3x b) (v3y a + v3y b) (v3z a + v3z b).
Definition v3_sub (a b : v3) : v3 := V3 (v3x a - v3x b) (v3y a - v3y b) (v3z a - v3z b).
Definition v3_mul (a b : v3) : v3 := V3 (v3x a * v3x b) (v3y a * v3y b) (v3z a * v3z b).
Definition v3_scale (c : R) (a : v3) : v3 := V3 (c * v3x a) (c * v3y a) (c * v3z a).
Definition v3_divs (a : v3) (c : R) : v3 := V3 (v3x a / c) (v3y a / c) (v3z a / c).
Definition v3_dot (a b : v3) : R := v3x a * v3x b + v3y a * v3y b + v3z a * v3z b.
Definition v3_norm (a : v3) : R := sqrt (v3x a * v3x a + v3y a * v3y a + v3z a * v3z a).

Definition v3_of (v : vec) : v3 := V3 (v 0%nat) (v 1%nat) (v 2%nat).
Definition vec_of_v3 (a : v3) : vec :=
  fun i => match i with O => v3x a | 1%nat => v3y a | 2%nat => v3z a | _ => 0 end.
Definition quat_of (v : vec) : quat := Q4 (v 0%nat) (v 1%nat) (v 2%nat) (v 3%nat).
Definition vec_of_quat (q : quat) : vec :=
  fun i => match i with O => qw q | 1%nat => qx q | 2%nat => qy q | 3%nat => qz q | _ => 0 end.

Definition q_norm (q : quat) : R :=
  sqrt (qw q * qw q + qx q * qx q + qy q * qy q + qz q * qz q).
Definition q_divs (q : quat) (c : R) : quat := Q4 (qw q / c) (qx q / c) (qy q / c) (qz q / c).
Definition q_neg (q : quat) : quat := Q4 (- qw q) (- qx q) (- qy q) (- qz q).
Definition q_one : quat := Q4 1 0 0 0.

(** Hamilton's product: dmp_fast.pyx:701-710 (and [pr.concatenate_quaternions]). *)
Definition hamilton (p q : quat) : quat :=
  Q4 (qw p * qw q - qx p * qx q - qy p * qy q - qz p * qz q)
     (qy p * qz q - qz p * qy q + (qw p * qx q + qw q * qx p))
     (qz p * qx q - qx p * qz q + (qw p * qy q + qw q * qy p))
     (qx p * qy q - qy p * qx q + (qw p * qz q + qw q * qz p)).

(** dmp_fast.pyx:682-715 [concatenate_quaternions]: the product is normalised. *)
Definition cy_mul (p q : quat) : quat :=
  let q12 := hamilton p q in q_divs q12 (q_norm q12).                (* 712-714 *)

(** dmp_fast.pyx:758-775 [q_conj]. *)
Definition cy_conj (q : quat) : quat := Q4 (qw q) (- qx q) (- qy q) (- qz q).

(** dmp_fast.pyx:722-751 [quaternion_from_compact_axis_angle]. *)
Definition cy_exp (a : v3) : quat :=
  let angle := v3_norm a in                                          (* 737 *)
  if Req_EM_T angle 0 then q_one                                     (* 738-739 *)
  else
    let axis := v3_divs a angle in                                   (* 742 *)
    let half_angle := angle / 2 in                                   (* 745 *)
    let s := sin half_angle in                                       (* 747 *)
    Q4 (cos half_angle) (s * v3x axis) (s * v3y axis) (s * v3z axis). (* 746-750 *)

(** [x % y] for [y > 0]: Python's modulo; for [x >= 0] also C's [fmod], which is
    what [%] on doubles means under [cdivision(True)]. *)
Definition rmod (x y : R) : R := x - y * IZR (Int_part (x / y)).

(** dmp_fast.pyx:782-806 [compact_axis_angle_from_quaternion]. *)
Definition cy_log (q : quat) : v3 :=
  let p_norm_sqr := qx q * qx q + qy q * qy q + qz q * qz q in       (* 798 *)
  if Rlt_dec p_norm_sqr (/ 10 ^ 32) then v3_zero                     (* 799-800 *)
  else
    let n := sqrt (qw q * qw q + p_norm_sqr) in                      (* 801 *)
    let q_n := q_divs q n in                                         (* 802 *)
    let p_norm := sqrt p_norm_sqr / n in                             (* 803 *)
    let angle := rmod (2 * acos (qw q_n) + PI) (2 * PI) - PI in      (* 805 *)
    v3_divs (V3 (qx q_n) (qy q_n) (qz q_n)) (p_norm / angle).        (* 806 *)

(** [pr.check_quaternion(q)] with [unit=True]: normalisation, except for 0. *)
Definition pr_check_quaternion (q : quat) : quat :=
  if Req_EM_T (q_norm q) 0 then q else q_divs q (q_norm q).

(** [pr.q_conj], [pr.concatenate_quaternions] (which does not normalise). *)
Definition pr_conj (q : quat) : quat := cy_conj (pr_check_quaternion q).
Definition pr_mul (p q : quat) : quat := hamilton p q.

(** [pr.norm_angle]: to the interval (-pi, pi]. *)
Definition pr_norm_angle (a : R) : R := - (rmod (PI - a) (2 * PI) - PI).

(** [pr.norm_compact_axis_angle]. *)
Definition pr_norm_compact_axis_angle (a : v3) : v3 :=
  let angle := v3_norm a in
  if Req_EM_T angle 0 then v3_zero
  else v3_scale (pr_norm_angle angle) (v3_divs a angle).

(** [pr.quaternion_from_compact_axis_angle]: normalises the angle first. *)
Definition pr_exp (a : v3) : quat := cy_exp (pr_norm_compact_axis_angle a).

(** [pr.compact_axis_angle_from_quaternion]; vector parts shorter than
    [pr.eps = 1e-7] give the zero rotation. *)
Definition pr_log (q : quat) : v3 :=
  let q := pr_check_quaternion q in
  let vec_norm := v3_norm (V3 (qx q) (qy q) (qz q)) in
  if Rlt_dec vec_norm (/ 10 ^ 7) then v3_zero
  else
    let axis := v3_divs (V3 (qx q) (qy q) (qz q)) vec_norm in
    let w_clamped := Rmax (Rmin (qw q) 1) (-1) in
    v3_scale (pr_norm_angle (2 * acos w_clamped)) axis.

(** [pr.quaternion_gradient(Q)] for [n >= 2] samples: angular velocities by
    central differences inside, one-sided differences at the borders. *)
Definition pr_quaternion_gradient (n : nat) (Q : nat -> quat) : nat -> v3 :=
  fun t =>
    if Nat.eqb t 0 then pr_log (pr_mul (Q 1%nat) (pr_conj (Q 0%nat)))
    else if Nat.eqb t (n - 1)
    then pr_log (pr_mul (Q (n - 1)%nat) (pr_conj (Q (n - 2)%nat)))
    else v3_divs (pr_log (pr_mul (Q (t + 1)%nat) (pr_conj (Q (t - 1)%nat)))) 2.

(** The two implementations, selectable. *)
Inductive impl := Python | Cython.
Definition i_mul (i : impl) := match i with Python => pr_mul | Cython => cy_mul end.
Definition i_conj (i : impl) := match i with Python => pr_conj | Cython => cy_conj end.
Definition i_exp (i : impl) := match i with Python => pr_exp | Cython => cy_exp end.
Definition i_log (i : impl) := match i with Python => pr_log | Cython => cy_log end.
