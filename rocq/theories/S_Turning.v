(** Specification of turning motions. *)
From Coq Require Import Reals.
From Coquelicot Require Import Coquelicot.
From Verif Require Import M_Quaternion S_Rotation.
Open Scope R_scope.

Definition is_derive_quat (q : R -> quat) (t : R) (d : quat) : Prop :=
  is_derive (fun s => qw (q s)) t (qw d) /\ is_derive (fun s => qx (q s)) t (qx d)
  /\ is_derive (fun s => qy (q s)) t (qy d) /\ is_derive (fun s => qz (q s)) t (qz d).

Definition is_derive_v3 (w : R -> v3) (t : R) (d : v3) : Prop :=
  is_derive (fun s => v3x (w s)) t (v3x d) /\ is_derive (fun s => v3y (w s)) t (v3y d)
  /\ is_derive (fun s => v3z (w s)) t (v3z d).

(** The rate of change of the quaternion [q] of a body that turns with the angular
    velocity [w] (in the fixed frame): half the product of [(0, w)] and [q].  That
    it means what it should is C109_angular_velocity. *)
Definition quat_rate (w : v3) (q : quat) : quat :=
  Q4 (- (v3x w * qx q + v3y w * qy q + v3z w * qz q) / 2)
     ((qw q * v3x w + (v3y w * qz q - v3z w * qy q)) / 2)
     ((qw q * v3y w + (v3z w * qx q - v3x w * qz q)) / 2)
     ((qw q * v3z w + (v3x w * qy q - v3y w * qx q)) / 2).

(** A turning motion from time 0 to [tau]: orientation [q], angular velocity [w],
    angular acceleration [a]; it starts at rest and the angular acceleration does
    not jump. *)
Definition turning_motion (tau : R) (q : R -> quat) (w a : R -> v3) : Prop :=
  w 0 = v3_zero
  /\ (forall t, 0 <= t <= tau ->
        unit_quat (q t) /\ is_derive_quat q t (quat_rate (w t) (q t)) /\ is_derive_v3 w t (a t))
  /\ exists L, 0 <= L /\
     forall s t, 0 <= s <= tau -> 0 <= t <= tau -> v3_norm (v3_sub (a s) (a t)) <= L * Rabs (s - t).

(** The orientation [p] is the orientation [q] turned by the angle [|u|] about the
    axis [u]. *)
Definition turned_by (u : v3) (p q : quat) : Prop :=
  exists axis, unit_v3 axis /\ u = v3_scale (v3_norm u) axis
  /\ forall x, rotate p x = rodrigues axis (v3_norm u) (rotate q x).

(** The forcing term (one entry per axis) that makes the DMP equation of the
    orientation hold for a turning motion at time [t]; [e t] is the rotation vector
    from the orientation at time [t] to the final orientation, [al] and [be] are the
    gains. *)
Definition required_torque (tau : R) (al be : v3) (smooth : bool) (e w a : R -> v3) (t : R) : v3 :=
  v3_sub (v3_scale (tau ^ 2) (a t))
    (v3_mul al
       (v3_sub (v3_sub (v3_mul be (e t)) (v3_scale tau (w t)))
               (if smooth then v3_scale (exp (ln (1/100) * (t / tau))) (v3_mul be (e 0)) else v3_zero))).
