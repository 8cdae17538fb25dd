(** Specification of rotation matrices and rigid transformations. *)
From Coq Require Import Reals.
From Verif Require Import M_Quaternion M_Rigid.
Open Scope R_scope.

Definition m3_det (a : mat3) : R :=
  m00 a * (m11 a * m22 a - m12 a * m21 a)
  - m01 a * (m10 a * m22 a - m12 a * m20 a)
  + m02 a * (m10 a * m21 a - m11 a * m20 a).

(** Orthogonal matrices with determinant 1. *)
Definition rotation (a : mat3) : Prop := m3_mul (m3_T a) a = m3_one /\ m3_det a = 1.
