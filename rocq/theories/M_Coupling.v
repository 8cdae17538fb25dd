(** Model of dmp/_coupling_terms.py and of [obstacle_avoidance_acceleration_2d] in
    dmp_fast.pyx.  The parameter [verbose] (printing) is left out. *)
From Coq Require Import Reals List Arith Bool.
From Verif Require Import M_Prelude M_Dmp M_Quaternion M_Cartesian M_Dual M_Rigid.
Import ListNotations.
Open Scope R_scope.

(** The constructor arguments of the distance and pose coupling terms
    (_coupling_terms.py:273-278, 330-335, 381-386, 438-447).  [lf] has two entries. *)
Record spring := { sp_lf0 : R; sp_lf1 : R; sp_k : R; sp_c1 : R; sp_c2 : R }.

(** An array of two entries; an array of six entries from two of three;
    [np.hstack([a, np.zeros(3), b, np.zeros(3)])]; four arrays of three entries. *)
Definition vec2 (a b : R) : vec := fun i => match i with O => a | 1%nat => b | _ => 0 end.
Definition vec6 (a b : v3) : vec := fun i =>
  if Nat.ltb i 3 then vec_of_v3 a i else if Nat.ltb i 6 then vec_of_v3 b (i - 3)%nat else 0.
Definition vec12 (a b c d : v3) : vec := fun i =>
  if Nat.ltb i 6 then vec6 a b i else if Nat.ltb i 12 then vec6 c d (i - 6)%nat else 0.

(** ** Distances *)

(** _coupling_terms.py:280-288 [CouplingTermPos1DToPos1D.coupling]. *)
Definition pos1d_coupling (sp : spring) (desired_distance : R) : coupling := fun y _ =>
  let da := y 0%nat - y 1%nat in                                     (* 281 *)
  let F12 := sp_k sp * (- desired_distance - da) in                  (* 282 *)
  let F21 := - F12 in                                                (* 283 *)
  let C12 := sp_c1 sp * F12 * sp_lf0 sp in                           (* 284 *)
  let C21 := sp_c1 sp * F21 * sp_lf1 sp in                           (* 285 *)
  let C12dot := sp_c2 sp * sp_c1 sp * F12 * sp_lf0 sp in             (* 286 *)
  let C21dot := sp_c2 sp * sp_c1 sp * F21 * sp_lf1 sp in             (* 287 *)
  (vec2 C12 C21, vec2 C12dot C21dot).                                (* 288 *)

(** The forces of two three-dimensional systems: the common part of
    _coupling_terms.py:342-347 and 392-397. *)
Definition spring_forces (sp : spring) (F12 : v3) : (v3 * v3) * (v3 * v3) :=
  let F21 := v3_scale (-1) F12 in
  ((v3_scale (sp_lf0 sp) (v3_scale (sp_c1 sp) F12), v3_scale (sp_lf1 sp) (v3_scale (sp_c1 sp) F21)),
   (v3_scale (sp_lf0 sp) (v3_scale (sp_c2 sp) F12), v3_scale (sp_lf1 sp) (v3_scale (sp_c2 sp) F21))).

(** _coupling_terms.py:337-348 [CouplingTermPos3DToPos3D.coupling]. *)
Definition pos3d_coupling (sp : spring) (desired_distance : v3) : coupling := fun y _ =>
  let da := v3_sub (v3_of (slice 0 3 y)) (v3_of (slice 3 3 y)) in    (* 338 *)
  let F12 := v3_scale (sp_k sp) (v3_sub (v3_scale (-1) desired_distance) da) in (* 342 *)
  let '((C12, C21), (C12dot, C21dot)) := spring_forces sp F12 in     (* 343-347 *)
  (vec6 C12 C21, vec6 C12dot C21dot).                                (* 348 *)

(** _coupling_terms.py:388-399 [CouplingTermDualCartesianDistance.coupling].  If both
    positions are the same, the code divides 0 by 0 and returns NaN; the theorems exclude
    this case. *)
Definition dual_distance_coupling (sp : spring) (desired_distance : R) : coupling := fun y _ =>
  let actual := v3_sub (v3_of (slice 0 3 y)) (v3_of (slice 7 3 y)) in (* 389 *)
  let desired := v3_divs (v3_scale (Rabs desired_distance) actual) (v3_norm actual) in (* 390-391 *)
  let F12 := v3_scale (sp_k sp) (v3_sub desired actual) in           (* 392 *)
  let '((C12, C21), (C12dot, C21dot)) := spring_forces sp F12 in     (* 393-397 *)
  (vec12 C12 v3_zero C21 v3_zero, vec12 C12dot v3_zero C21dot v3_zero). (* 398-399 *)

(** ** Poses *)

(** _coupling_terms.py:519-525 [_right2left_pq]. *)
Definition right2left_pq (y : vec) : v3 * quat :=
  let left2base := pt_transform_from_pq (v3_of (slice 0 3 y)) (arm_q 0 y) in (* 520 *)
  let right2base := pt_transform_from_pq (v3_of (slice 7 3 y)) (arm_q 1 y) in (* 521 *)
  let base2left := pt_invert left2base in                            (* 522 *)
  let right2left := pt_concat right2base base2left in                (* 523 *)
  pt_pq_from_transform right2left.                                   (* 524-525 *)

(** _coupling_terms.py:454-517 [couple_distance]; positions and orientations are coupled
    in the same way. *)
Definition couple_part (sp : spring) (flag : bool) (left2base : rigid) (error vel_left vel_right : v3) :
    (v3 * v3) * (v3 * v3) :=
  let damping := 2 * sqrt (sp_k sp * sp_c2 sp) in                    (* 456 *)
  let F12 := pt_direction left2base (v3_scale (- sp_k sp) error) in  (* 477,480 / 498,501 *)
  let F21 := pt_direction left2base (v3_scale (sp_k sp) error) in    (* 478,481 / 499,502 *)
  let C12 := v3_scale (sp_lf0 sp * sp_c1 sp) F12 in                  (* 483 / 504 *)
  let C21 := v3_scale (sp_lf1 sp * sp_c1 sp) F21 in                  (* 484 / 505 *)
  let C12dot := v3_scale (sp_lf0 sp) (v3_sub (v3_scale (sp_c2 sp) F12) (v3_scale damping vel_left)) in
  let C21dot := v3_scale (sp_lf1 sp) (v3_sub (v3_scale (sp_c2 sp) F21) (v3_scale damping vel_right)) in
                                                                     (* 486-487 / 507-508 *)
  let off v := if flag then v else v3_scale 0 v in                   (* 489-493 / 510-514 *)
  ((off C12, off C21), (off C12dot, off C21dot)).

Definition couple_distance (sp : spring) (couple_position couple_orientation : bool)
    (desired_distance : rigid) : coupling := fun y yd =>
  let left2base := pt_transform_from_pq (v3_of (slice 0 3 y)) (arm_q 0 y) in (* 461 *)
  let '(actual_pos, actual_rot) := right2left_pq y in                (* 462-465 *)
  let '(desired_pos, desired_rot) := pt_pq_from_transform desired_distance in (* 467-469 *)
  let error_pos := v3_sub desired_pos actual_pos in                  (* 476 *)
  let '((C12p, C21p), (C12dp, C21dp)) :=
    couple_part sp couple_position left2base error_pos
      (v3_of (slice 0 3 yd)) (v3_of (slice 6 3 yd)) in
  let error_rot := pr_log (pr_mul desired_rot (pr_conj actual_rot)) in (* 495-497 *)
  let '((C12r, C21r), (C12dr, C21dr)) :=
    couple_part sp couple_orientation left2base error_rot (arm_w 0 yd) (arm_w 1 yd) in
  (vec12 C12p C12r C21p C21r, vec12 C12dp C12dr C21dp C21dr).        (* 516-517 *)

(** _coupling_terms.py:449-452 [CouplingTermDualCartesianPose.coupling]. *)
Definition pose_coupling (sp : spring) (cp co : bool) (desired_distance : rigid) : coupling :=
  couple_distance sp cp co desired_distance.

(** [scipy.interpolate.interp1d(T, Y, fill_value="extrapolate")] for [n >= 2] strictly
    increasing [T] (documented behaviour): linear in the interval with the index
    [clip(searchsorted(T, t), 1, n - 1)]. *)
Definition searchsorted (n : nat) (T : nat -> R) (t : R) : nat :=
  length (filter (fun i => if Rlt_dec (T i) t then true else false) (seq 0 n)).
Definition interp1d (n : nat) (T Y : nat -> R) (t : R) : R :=
  let hi := Nat.min (n - 1) (Nat.max 1 (searchsorted n T t)) in
  let lo := (hi - 1)%nat in
  (Y hi - Y lo) / (T hi - T lo) * (t - T lo) + Y lo.

(** An array of 7 entries from position and quaternion. *)
Definition pq7 (x : v3 * quat) : vec := fun i =>
  if Nat.ltb i 3 then vec_of_v3 (fst x) i else if Nat.ltb i 7 then vec_of_quat (snd x) (i - 3)%nat else 0.

(** _coupling_terms.py:577-598 [CouplingTermDualCartesianTrajectory]: [imitate(T, Y)]
    with [n] samples stores the relative poses and sets [t = 0]; the state of the object
    that [coupling] changes is [t]. *)
Definition trajectory_start : R := 0.                                (* 586 *)
Definition trajectory_coupling (sp : spring) (cp co : bool) (n : nat) (T : nat -> R) (Y : nat -> vec)
    (offset : vec) (dt : R) : stateful_coupling R := fun t y yd =>
  let distance j := pq7 (right2left_pq (Y j)) in                     (* 578-580 *)
  let desired d := interp1d n T (fun j => distance j d) t + offset d in (* 581-585, 589-592 *)
  let desired_distance := pt_transform_from_pq (v3_of (slice 0 3 desired)) (quat_of (slice 3 4 desired)) in
  (t + dt, couple_distance sp cp co desired_distance y yd).          (* 593-598 *)

(** ** Obstacle avoidance *)
Definition obstacle_epsilon : R := / 10 ^ 10.                        (* 9; dmp_fast.pyx:14 *)

(** _coupling_terms.py:198-231 [obstacle_avoidance_acceleration_3d]. *)
Definition v3_cross (a b : v3) : v3 :=
  V3 (v3y a * v3z b - v3z a * v3y b) (v3z a * v3x b - v3x a * v3z b) (v3x a * v3y b - v3y a * v3x b).
Definition obstacle_theta (num n1 n2 : R) : R := acos (num / (n1 * n2 + obstacle_epsilon)).
Definition obstacle_3d (y yd obstacle : v3) (gamma beta : R) : v3 :=
  let diff := v3_sub obstacle y in                                   (* 224 *)
  let r := v3_scale (1/2 * PI) (pr_norm_vector (v3_cross diff yd)) in (* 225 *)
  let M := matrix_from_compact_axis_angle r in                       (* 226 *)
  let theta := obstacle_theta (v3_dot diff yd) (v3_norm diff) (v3_norm yd) in (* 227-229 *)
  v3_scale (exp (- beta * theta)) (v3_scale theta (v3_scale gamma (m3_app M yd))). (* 230 *)

(** Arrays of length 2. *)
Definition v2_norm (a : R * R) : R := sqrt (fst a * fst a + snd a * snd a).

(** _coupling_terms.py:18-65 [obstacle_avoidance_acceleration_2d] for arrays of shape
    (2,); arrays of more dimensions are treated row by row in the same way.  [np.pad]
    adds a third component zero. *)
Definition obstacle_2d_python (y yd obstacle : R * R) (gamma beta : R) : R * R :=
  let diff := (fst obstacle - fst y, snd obstacle - snd y) in        (* 44 *)
  let diff_0 := V3 (fst diff) (snd diff) 0 in                        (* 46-47 *)
  let yd_0 := V3 (fst yd) (snd yd) 0 in                              (* 48 *)
  let r := v3_scale (1/2 * PI) (pr_norm_vector (v3_cross diff_0 yd_0)) in (* 49 *)
  let M := matrix_from_compact_axis_angle r in                       (* 50 *)
  let theta := obstacle_theta (fst diff * fst yd + snd diff * snd yd) (v2_norm diff) (v2_norm yd) in
                                                                     (* 51-58 *)
  let rotated := (m00 M * fst yd + m01 M * snd yd, m10 M * fst yd + m11 M * snd yd) in (* 59-62 *)
  let scale := theta * exp (- beta * theta) in
  (gamma * fst rotated * scale, gamma * snd rotated * scale).        (* 63-65 *)

(** dmp_fast.pyx:840-881 [obstacle_avoidance_acceleration_2d]. *)
Definition obstacle_2d_cython (y yd obstacle : R * R) (gamma beta : R) : R * R :=
  let diff := (fst obstacle - fst y, snd obstacle - snd y) in        (* 867 *)
  let r := fst diff * snd yd - snd diff * fst yd in                  (* 868 *)
  let r := if Req_EM_T r 0 then r else r * (1/2 * PI / Rabs r) in    (* 869-870 *)
  let M := matrix_from_compact_axis_angle (V3 0 0 r) in              (* 871-872 *)
  let theta := obstacle_theta (fst diff * fst yd + snd diff * snd yd) (v2_norm diff) (v2_norm yd) in
                                                                     (* 873-877 *)
  let rotated := (m00 M * fst yd + m01 M * snd yd, m10 M * fst yd + m11 M * snd yd) in (* 878 *)
  let scale := theta * exp (- beta * theta) in
  (gamma * fst rotated * scale, gamma * snd rotated * scale).        (* 879-880 *)

(** _coupling_terms.py:97-118 and 174-195: the [coupling] methods. *)
Definition obstacle_2d (i : impl) := match i with Python => obstacle_2d_python | Cython => obstacle_2d_cython end.
Definition obstacle_2d_coupling (i : impl) (obstacle : R * R) (gamma beta : R) : coupling := fun y yd =>
  let a := obstacle_2d i (y 0%nat, y 1%nat) (yd 0%nat, yd 1%nat) obstacle gamma beta in
  (vzero, vec2 (fst a) (snd a)).
Definition obstacle_3d_coupling (obstacle : v3) (gamma beta : R) : coupling := fun y yd =>
  (vzero, vec_of_v3 (obstacle_3d (v3_of y) (v3_of yd) obstacle gamma beta)).
