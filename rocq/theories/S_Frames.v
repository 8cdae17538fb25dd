(** Specification of poses seen from another coordinate frame (C106). *)
From Coq Require Import Reals List Arith.
From Verif Require Import M_Prelude M_Base M_DmpObject M_Quaternion M_Cartesian S_Rotation.
Open Scope R_scope.

(** Position and orientation of a pose (x, y, z, qw, qx, qy, qz). *)
Definition place (y : vec) : v3 := V3 (y 0%nat) (y 1%nat) (y 2%nat).
Definition attitude (y : vec) : quat := Q4 (y 3%nat) (y 4%nat) (y 5%nat) (y 6%nat).

(** The same pose in another world frame (turned by [l] and shifted by [p]) and for
    another tool (turned by [r] in the hand). *)
Definition reframed (l : quat) (p : v3) (r : quat) (y : vec) : vec :=
  aget (pose (vec_of_v3 (v3_add p (rotate l (place y)))) (hamilton (hamilton l (attitude y)) r)).

(** The demonstration seen like that, and performed [s] times slower. *)
Definition reframed_demo (l : quat) (p : v3) (r : quat) (s : R) (dm : demo) : demo :=
  {| d_n := d_n dm; d_T := fun t => s * d_T dm t; d_rows := d_rows dm; d_dims := d_dims dm;
     d_Y := fun t => reframed l p r (d_Y dm t) |}.

(** Entry ([d], [e]) of the rotation matrix of [q]. *)
Definition rotation_matrix (q : quat) (d e : nat) : R :=
  vec_of_v3 (rotate q (v3_of (fun i => if Nat.eqb i e then 1 else 0))) d.
