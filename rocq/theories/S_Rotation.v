(** Specification of rotations, independent of the model of the quaternion code:
    rotation by an angle about a unit axis (Rodrigues' formula), and the rotation
    that a unit quaternion stands for (its rotation matrix). *)
From Coq Require Import Reals.
From Verif Require Import M_Quaternion.
Open Scope R_scope.

Definition unit_quat (q : quat) : Prop := qw q ^ 2 + qx q ^ 2 + qy q ^ 2 + qz q ^ 2 = 1.
Definition unit_v3 (u : v3) : Prop := v3x u ^ 2 + v3y u ^ 2 + v3z u ^ 2 = 1.

Definition cross (a b : v3) : v3 :=
  V3 (v3y a * v3z b - v3z a * v3y b)
     (v3z a * v3x b - v3x a * v3z b)
     (v3x a * v3y b - v3y a * v3x b).

(** Rotation of [v] by [angle] about the unit axis [u]. *)
Definition rodrigues (u : v3) (angle : R) (v : v3) : v3 :=
  v3_add (v3_scale (cos angle) v)
    (v3_add (v3_scale (sin angle) (cross u v))
            (v3_scale ((1 - cos angle) * v3_dot u v) u)).

(** The rotation matrix of the unit quaternion (w, x, y, z), applied to [v]. *)
Definition rotate (q : quat) (v : v3) : v3 :=
  let '(Q4 w x y z) := q in
  V3 ((1 - 2 * (y ^ 2 + z ^ 2)) * v3x v + 2 * (x * y - w * z) * v3y v + 2 * (x * z + w * y) * v3z v)
     (2 * (x * y + w * z) * v3x v + (1 - 2 * (x ^ 2 + z ^ 2)) * v3y v + 2 * (y * z - w * x) * v3z v)
     (2 * (x * z - w * y) * v3x v + 2 * (y * z + w * x) * v3y v + (1 - 2 * (x ^ 2 + y ^ 2)) * v3z v).

(** Length of the vector part below which an implementation of the logarithm
    treats a unit quaternion as no rotation. *)
Definition log_threshold (i : impl) : R :=
  match i with Python => / 10 ^ 7 | Cython => / 10 ^ 16 end.
