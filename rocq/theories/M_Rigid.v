(** Model of the functions of the library pytransform3d (imported as [pr] and [pt]) for
    rotation matrices and homogeneous transformation matrices that movement_primitives
    calls.  The source of pytransform3d is not part of /repo; its functions are modelled
    from their documented behaviour and this is part of the trusted base (DESIGN.md). *)
From Coq Require Import Reals.
From Verif Require Import M_Prelude M_Quaternion.
Open Scope R_scope.

(** Arrays of shape (3, 3). *)
Record mat3 := M3 { m00 : R; m01 : R; m02 : R; m10 : R; m11 : R; m12 : R; m20 : R; m21 : R; m22 : R }.

Definition m3_one : mat3 := M3 1 0 0 0 1 0 0 0 1.
Definition m3_mul (a b : mat3) : mat3 :=
  M3 (m00 a * m00 b + m01 a * m10 b + m02 a * m20 b)
     (m00 a * m01 b + m01 a * m11 b + m02 a * m21 b)
     (m00 a * m02 b + m01 a * m12 b + m02 a * m22 b)
     (m10 a * m00 b + m11 a * m10 b + m12 a * m20 b)
     (m10 a * m01 b + m11 a * m11 b + m12 a * m21 b)
     (m10 a * m02 b + m11 a * m12 b + m12 a * m22 b)
     (m20 a * m00 b + m21 a * m10 b + m22 a * m20 b)
     (m20 a * m01 b + m21 a * m11 b + m22 a * m21 b)
     (m20 a * m02 b + m21 a * m12 b + m22 a * m22 b).
Definition m3_T (a : mat3) : mat3 :=
  M3 (m00 a) (m10 a) (m20 a) (m01 a) (m11 a) (m21 a) (m02 a) (m12 a) (m22 a).
Definition m3_app (a : mat3) (v : v3) : v3 :=
  V3 (m00 a * v3x v + m01 a * v3y v + m02 a * v3z v)
     (m10 a * v3x v + m11 a * v3y v + m12 a * v3z v)
     (m20 a * v3x v + m21 a * v3y v + m22 a * v3z v).
Definition m3_trace (a : mat3) : R := m00 a + m11 a + m22 a.

(** Arrays of shape (4, 4) whose last row is (0, 0, 0, 1). *)
Record rigid := Rigid { r_rot : mat3; r_pos : v3 }.

Definition rigid_one : rigid := Rigid m3_one v3_zero.
(** Product of the matrices [b] and [a]; [pt.concat(a, b)] (first [a], then [b]). *)
Definition rigid_mul (b a : rigid) : rigid :=
  Rigid (m3_mul (r_rot b) (r_rot a)) (v3_add (m3_app (r_rot b) (r_pos a)) (r_pos b)).
Definition pt_concat (a b : rigid) : rigid := rigid_mul b a.
(** [pt.invert_transform]: transposes the rotation. *)
Definition pt_invert (a : rigid) : rigid :=
  Rigid (m3_T (r_rot a)) (v3_scale (-1) (m3_app (m3_T (r_rot a)) (r_pos a))).
(** [pt.transform(a, pt.vector_to_direction(v))[:3]]. *)
Definition pt_direction (a : rigid) (v : v3) : v3 := m3_app (r_rot a) v.
(** [pt.transform(a, pt.vector_to_point(v))[:3]]. *)
Definition pt_point (a : rigid) (v : v3) : v3 := v3_add (m3_app (r_rot a) v) (r_pos a).

(** [pr.matrix_from_quaternion]; it normalises the quaternion. *)
Definition matrix_of_unit (q : quat) : mat3 :=
  let '(Q4 w x y z) := q in
  M3 (1 - 2 * (y * y + z * z)) (2 * (x * y - w * z)) (2 * (x * z + w * y))
     (2 * (x * y + w * z)) (1 - 2 * (x * x + z * z)) (2 * (y * z - w * x))
     (2 * (x * z - w * y)) (2 * (y * z + w * x)) (1 - 2 * (x * x + y * y)).
Definition pr_matrix_from_quaternion (q : quat) : mat3 := matrix_of_unit (pr_check_quaternion q).

(** [pr.quaternion_from_matrix], for a rotation matrix (for others it raises or warns). *)
Definition pr_quaternion_from_matrix (a : mat3) : quat :=
  let tr := m3_trace a in
  if Rlt_dec 0 tr then
    let s := sqrt (1 + tr) in
    Q4 (1/2 * s) (1/2 / s * (m21 a - m12 a)) (1/2 / s * (m02 a - m20 a)) (1/2 / s * (m10 a - m01 a))
  else if Rlt_dec (m11 a) (m00 a) then
    if Rlt_dec (m22 a) (m00 a) then
      let s := sqrt (1 + m00 a - m11 a - m22 a) in
      Q4 (1/2 / s * (m21 a - m12 a)) (1/2 * s) (1/2 / s * (m10 a + m01 a)) (1/2 / s * (m02 a + m20 a))
    else
      let s := sqrt (1 + m22 a - m00 a - m11 a) in
      Q4 (1/2 / s * (m10 a - m01 a)) (1/2 / s * (m02 a + m20 a)) (1/2 / s * (m21 a + m12 a)) (1/2 * s)
  else if Rlt_dec (m22 a) (m11 a) then
    let s := sqrt (1 + m11 a - m22 a - m00 a) in
    Q4 (1/2 / s * (m02 a - m20 a)) (1/2 / s * (m10 a + m01 a)) (1/2 * s) (1/2 / s * (m12 a + m21 a))
  else
    let s := sqrt (1 + m22 a - m00 a - m11 a) in
    Q4 (1/2 / s * (m10 a - m01 a)) (1/2 / s * (m02 a + m20 a)) (1/2 / s * (m21 a + m12 a)) (1/2 * s).

(** [pt.transform_from_pq] and [pt.pq_from_transform]; the array of length 7 is given by
    its two parts. *)
Definition pt_transform_from_pq (p : v3) (q : quat) : rigid := Rigid (pr_matrix_from_quaternion q) p.
Definition pt_pq_from_transform (a : rigid) : v3 * quat := (r_pos a, pr_quaternion_from_matrix (r_rot a)).

(** [pr.norm_vector]. *)
Definition pr_norm_vector (v : v3) : v3 :=
  if Req_EM_T (v3_norm v) 0 then v else v3_divs v (v3_norm v).

(** The matrix of a rotation by [theta] about the unit axis [u]: the entries in
    dmp_fast.pyx:820-833, which are also those of [pr.matrix_from_axis_angle]. *)
Definition axis_angle_matrix (u : v3) (theta : R) : mat3 :=
  let '(V3 ux uy uz) := u in
  let c := cos theta in let s := sin theta in let ci := 1 - c in
  M3 (ci * ux * ux + c) (ci * ux * uy - uz * s) (ci * ux * uz + uy * s)
     (ci * uy * ux + uz * s) (ci * uy * uy + c) (ci * uy * uz - ux * s)
     (ci * uz * ux - uy * s) (ci * uz * uy + ux * s) (ci * uz * uz + c).

(** dmp_fast.pyx:813-834 [matrix_from_compact_axis_angle]; also the documented behaviour
    of [pr.matrix_from_compact_axis_angle] and [pbr.matrices_from_compact_axis_angles]. *)
Definition matrix_from_compact_axis_angle (r : v3) : mat3 :=
  let theta := v3_norm r in
  if Req_EM_T theta 0 then m3_one
  else axis_angle_matrix (v3_divs r theta) theta.
