(** Model of movement_primitives/kinematics.py.

    Simplifications.
    - Homogeneous matrices have the last row (0, 0, 0, 1), as all transformations of a
      robot description have; they are given by their rotational and translational part
      ([rigid], M_Rigid.v).
    - Parsing of robot descriptions ([load_urdf]) is not modelled: a transformation
      manager is an arbitrary record of frames, joints and transformations.  The graph
      search of pytransform3d ([_shortest_path]) depends on the names of the frames that
      are connected and not on the transformations; its result is the field [tm_path].
    - [scipy.optimize.minimize] and the random number generator are arbitrary functions
      of the number of the call and its arguments ([world]).
    - Printing is left out, with the argument [verbose] that controls it. *)
From Coq Require Import Reals List String Bool Arith.
From Verif Require Import M_Prelude M_Quaternion M_Rigid.
Import ListNotations.
Open Scope R_scope.

(** Joint limits; [None] is an infinite limit. *)
Record limits := { lim_lo : option R; lim_hi : option R }.

(** An entry of the dictionary [_joints]. *)
Record joint := { j_from : string; j_to : string; j_child2parent : rigid; j_axis : v3;
                  j_limits : limits; j_type : string }.

(** The state of a transformation manager: [nodes], [_joints], [transforms]. *)
Record manager := { tm_nodes : list string;
                    tm_joints : string -> option joint;
                    tm_transforms : string -> string -> option rigid;
                    tm_path : nat -> nat -> list string }.

(** kinematics.py:64-92 [_fast_matrix_from_axis_angle]; the rotational part. *)
Definition fast_matrix_from_axis_angle (axis : v3) (angle : R) : rigid :=
  let '(V3 ux uy uz) := axis in
  let c := cos angle in
  let s := sin angle in
  let ci := 1 - c in
  let ciux := ci * ux in
  let ciuy := ci * uy in
  let ciuz := ci * uz in
  Rigid (M3 (ciux * ux + c) (ciux * uy - uz * s) (ciux * uz + uy * s)
            (ciuy * ux + uz * s) (ciuy * uy + c) (ciuy * uz - ux * s)
            (ciuz * ux - uy * s) (ciuz * uy + ux * s) (ciuz * uz + c)) v3_zero.

(** kinematics.py:36 [min(max(value, limits[0]), limits[1])]. *)
Definition clip (l : limits) (value : R) : R :=
  let v := match lim_lo l with Some lo => Rmax value lo | None => value end in
  match lim_hi l with Some hi => Rmin v hi | None => v end.

(** kinematics.py:20-42 [FastUrdfTransformManager.set_joint]. *)
Definition joint_matrix (j : joint) (value : R) : rigid :=
  if String.eqb (j_type j) "revolute" then fast_matrix_from_axis_angle (j_axis j) value
  else Rigid m3_one (v3_scale value (j_axis j)).
Definition set_transform (m : manager) (a b : string) (t : rigid) : manager :=
  {| tm_nodes := tm_nodes m; tm_joints := tm_joints m;
     tm_transforms := fun a' b' => if String.eqb a' a && String.eqb b' b then Some t else tm_transforms m a' b';
     tm_path := tm_path m |}.
Definition set_joint (m : manager) (joint_name : string) (value : R) : res manager :=
  match tm_joints m joint_name with
  | None => Err KeyError
  | Some j =>
      let value := clip (j_limits j) value in
      Ok (set_transform m (j_from j) (j_to j) (rigid_mul (j_child2parent j) (joint_matrix j value)))
  end.

(** [TransformManager._path_transform] of pytransform3d: concatenates the transformations
    between consecutive frames; a transformation that is stored in the opposite direction
    is inverted. *)
Definition get_transform (m : manager) (a b : string) : res rigid :=
  match tm_transforms m a b with
  | Some t => Ok t
  | None => match tm_transforms m b a with
            | Some t => Ok (pt_invert t)
            | None => Err KeyError
            end
  end.
Fixpoint path_transform (m : manager) (acc : rigid) (path : list string) : res rigid :=
  match path with
  | a :: ((b :: _) as rest) =>
      bind (get_transform m a b) (fun t => path_transform m (pt_concat acc t) rest)
  | _ => Ok acc
  end.

(** kinematics.py:44-60 [get_ee2base]. *)
Definition get_ee2base (m : manager) (ee_index base_index : nat) : res rigid :=
  path_transform m rigid_one (tm_path m ee_index base_index).

(** kinematics.py:136-178 [Chain]; the manager is passed separately because chains of the
    same robot share it. *)
Record chain := { ch_joint_names : list string; ch_joint_limits : list (R * R);
                  ch_ee_index : nat; ch_base_index : nat }.

(** [list.index]. *)
Fixpoint index_of (x : string) (l : list string) : res nat :=
  match l with
  | [] => Err ValueError
  | y :: l' => if String.eqb x y then Ok 0%nat else rmap S (index_of x l')
  end.

(** kinematics.py:166-172. *)
Definition finite_limits (l : limits) : R * R :=
  (match lim_lo l with Some lo => lo | None => - PI end, match lim_hi l with Some hi => hi | None => PI end).
Fixpoint joint_limits_of (m : manager) (names : list string) : res (list (R * R)) :=
  match names with
  | [] => Ok []
  | n :: names' =>
      match tm_joints m n with
      | None => Err KeyError
      | Some j => bind (joint_limits_of m names') (fun ls => Ok (finite_limits (j_limits j) :: ls))
      end
  end.

(** kinematics.py:111-133,159-178 [Kinematics.create_chain], [Chain.__init__]. *)
Definition create_chain (m : manager) (joint_names : list string) (base_frame ee_frame : string) : res chain :=
  bind (joint_limits_of m joint_names) (fun ls =>
  bind (index_of ee_frame (tm_nodes m)) (fun ee =>
  bind (index_of base_frame (tm_nodes m)) (fun base =>
  Ok {| ch_joint_names := joint_names; ch_joint_limits := ls; ch_ee_index := ee; ch_base_index := base |}))).

Definition n_joints (c : chain) : nat := List.length (ch_joint_names c).

(** kinematics.py:193-194; an array that is too short raises IndexError. *)
Fixpoint set_joints (m : manager) (names : list string) (q : list R) : res manager :=
  match names, q with
  | [], _ => Ok m
  | n :: names', v :: q' => bind (set_joint m n v) (fun m' => set_joints m' names' q')
  | _ :: _, [] => Err IndexError
  end.

(** kinematics.py:180-195 [Chain.forward]; returns the changed manager, too. *)
Definition forward (c : chain) (m : manager) (joint_angles : list R) : res (manager * rigid) :=
  bind (set_joints m (ch_joint_names c) joint_angles) (fun m' =>
  bind (get_ee2base m' (ch_ee_index c) (ch_base_index c)) (fun t => Ok (m', t))).

(** kinematics.py:402-418 [forward_trajectory]. *)
Fixpoint forward_trajectory (c : chain) (m : manager) (Q : list (list R)) : res (manager * list rigid) :=
  match Q with
  | [] => Ok (m, [])
  | q :: Q' =>
      bind (forward c m q) (fun mt =>
      bind (forward_trajectory c (fst mt) Q') (fun mH => Ok (fst mH, snd mt :: snd mH)))
  end.

(** [np.linalg.inv] of a homogeneous matrix: the inverse of the upper left 3 x 3 matrix by
    cofactors; a singular matrix raises LinAlgError. *)
Definition adjugate (a : mat3) : mat3 :=
  M3 (m11 a * m22 a - m12 a * m21 a) (m02 a * m21 a - m01 a * m22 a) (m01 a * m12 a - m02 a * m11 a)
     (m12 a * m20 a - m10 a * m22 a) (m00 a * m22 a - m02 a * m20 a) (m02 a * m10 a - m00 a * m12 a)
     (m10 a * m21 a - m11 a * m20 a) (m01 a * m20 a - m00 a * m21 a) (m00 a * m11 a - m01 a * m10 a).
Definition determinant (a : mat3) : R :=
  m00 a * m00 (adjugate a) + m01 a * m10 (adjugate a) + m02 a * m20 (adjugate a).
Definition m3_divs (a : mat3) (d : R) : mat3 :=
  M3 (m00 a / d) (m01 a / d) (m02 a / d) (m10 a / d) (m11 a / d) (m12 a / d) (m20 a / d) (m21 a / d) (m22 a / d).
Definition np_linalg_inv4 (a : rigid) : res rigid :=
  let d := determinant (r_rot a) in
  if Req_EM_T d 0 then Err LinAlgError
  else let i := m3_divs (adjugate (r_rot a)) d in
       Ok (Rigid i (v3_scale (-1) (m3_app i (r_pos a)))).

(** [math.acos] outside of [-1, 1]: an exception in Python, NaN in the code compiled by
    numba; the model has an error in both cases. *)
Definition math_acos (x : R) : res R :=
  if Rlt_dec x (-1) then Err ValueError else if Rlt_dec 1 x then Err ValueError else Ok (acos x).

(** kinematics.py:494-505 [pose_dist]. *)
Definition pose_dist (desired actual : rigid) (orientation_weight position_weight : R) : res R :=
  bind (np_linalg_inv4 actual) (fun inv =>
  let d := rigid_mul inv desired in
  let trace := m00 (r_rot d) + m11 (r_rot d) + m22 (r_rot d) in
  bind (math_acos (Rmin ((trace - 1) / 2) 1)) (fun angle =>
  let orientation_error := Rmin angle (2 * PI - angle) in
  let position_error := sqrt (v3x (r_pos d) ^ 2 + v3y (r_pos d) ^ 2 + v3z (r_pos d) ^ 2) in
  Ok (orientation_weight * orientation_error + position_weight * position_error))).

(** kinematics.py:197-223 [ee_pose_error]. *)
Definition ee_pose_error (c : chain) (m : manager) (joint_angles : list R) (desired : rigid)
    (orientation_weight position_weight : R) : res R :=
  bind (forward c m joint_angles) (fun mt => pose_dist desired (snd mt) orientation_weight position_weight).

(** The outside world: the result [(res["x"], res["fun"])] of the k-th call of [minimize]
    for a desired pose, initial guess, bounds, solver and weights, and the k-th array
    drawn from the random number generator. *)
Record world := { w_minimize : nat -> rigid -> list R -> list (R * R) -> string -> R -> R -> list R * R;
                  w_rand : nat -> nat -> list R }.
(** How often the two have been called so far. *)
Record clock := { ck_minimize : nat; ck_rand : nat }.

(** kinematics.py:225-277 [inverse]; returns [res["x"], res["fun"]]. *)
Definition inverse (w : world) (c : chain) (k : clock) (desired : rigid) (initial : list R)
    (bounds : option (list (R * R))) (solver : string) (ow pw : R) : clock * (list R * R) :=
  let bounds := match bounds with None => ch_joint_limits c | Some b => b end in
  ({| ck_minimize := S (ck_minimize k); ck_rand := ck_rand k |},
   w_minimize w (ck_minimize k) desired initial bounds solver ow pw).

(** kinematics.py:396-400 [_sample_joints_uniform]. *)
Definition scale_sample (r : list R) (bounds : list (R * R)) : list R :=
  map (fun rb => fst rb * (snd (snd rb) - fst (snd rb)) + fst (snd rb)) (combine r bounds).
Definition sample_joints_uniform (w : world) (c : chain) (k : clock) (bounds : option (list (R * R)))
    : clock * list R :=
  let bounds := match bounds with None => ch_joint_limits c | Some b => b end in
  ({| ck_minimize := ck_minimize k; ck_rand := S (ck_rand k) |},
   scale_sample (w_rand w (ck_rand k) (List.length bounds)) bounds).

(** [np.argmin]: the first index of the smallest value; then [Q[...]]. *)
Fixpoint best (q : list R) (e : R) (candidates : list (list R * R)) : list R :=
  match candidates with
  | [] => q
  | (q', e') :: cs => if Rlt_dec e' e then best q' e' cs else best q e cs
  end.
Definition best_candidate (candidates : list (list R * R)) : res (list R) :=
  match candidates with
  | [] => Err ValueError                      (* argmin of an empty sequence *)
  | (q, e) :: cs => Ok (best q e cs)
  end.

(** kinematics.py:319-328, the loop; returns the candidates in the order of their
    computation. *)
Fixpoint restarts (w : world) (c : chain) (desired : rigid) (n : nat) (tolerance : R) (solver : string)
    (ow pw : R) (k : clock) : clock * list (list R * R) :=
  match n with
  | O => (k, [])
  | S n' =>
      let '(k1, q0) := sample_joints_uniform w c k None in
      let '(k2, (q, error)) := inverse w c k1 desired q0 None solver ow pw in
      if Rle_dec error tolerance then (k2, [(q, error)])
      else let '(k3, cs) := restarts w c desired n' tolerance solver ow pw k2 in (k3, (q, error) :: cs)
  end.

(** kinematics.py:279-331 [inverse_with_random_restarts]. *)
Definition inverse_with_random_restarts (w : world) (c : chain) (k : clock) (desired : rigid) (n_restarts : nat)
    (tolerance : R) (solver : string) (ow pw : R) : res (clock * list R) :=
  if (n_restarts <? 1)%nat then Err AssertionError
  else let '(k', cs) := restarts w c desired n_restarts tolerance solver ow pw k in
       bind (best_candidate cs) (fun q => Ok (k', q)).

(** kinematics.py:380-382. *)
Definition local_bounds (q : list R) (interval : R) : list (R * R) :=
  map (fun a => (a - interval, a + interval)) q.

(** kinematics.py:384-393, the loop. *)
Fixpoint local_restarts (w : world) (c : chain) (desired : rigid) (bounds : list (R * R)) (q : list R) (n : nat)
    (tolerance : R) (solver : string) (ow pw : R) (k : clock) : clock * list (list R * R) :=
  match n with
  | O => (k, [])
  | S n' =>
      let '(k1, (q1, error)) := inverse w c k desired q None solver ow pw in
      if Rle_dec error tolerance then (k1, [(q1, error)])
      else let '(k2, q2) := sample_joints_uniform w c k1 (Some bounds) in
           let '(k3, cs) := local_restarts w c desired bounds q2 n' tolerance solver ow pw k2 in
           (k3, (q1, error) :: cs)
  end.

(** kinematics.py:333-394 [local_inverse_with_random_restarts]. *)
Definition local_inverse_with_random_restarts (w : world) (c : chain) (k : clock) (desired : rigid)
    (joint_angles : list R) (interval : R) (n_restarts : nat) (tolerance : R) (solver : string) (ow pw : R)
    : res (clock * list R) :=
  if (n_restarts <? 1)%nat then Err AssertionError
  else let '(k', cs) := local_restarts w c desired (local_bounds joint_angles interval) joint_angles n_restarts
                          tolerance solver ow pw k in
       bind (best_candidate cs) (fun q => Ok (k', q)).

(** kinematics.py:474-489, the loop over the steps; [prev] is [Q[t - 1]]. *)
Fixpoint inverse_steps (w : world) (c : chain) (k : clock) (H : list rigid) (prev : list R) (interval : R)
    (random_restarts : bool) (solver : string) (ow pw : R) : res (list (list R)) :=
  match H with
  | [] => Ok []
  | h :: H' =>
      bind (if random_restarts then
              local_inverse_with_random_restarts w c k h prev interval 10 (1/1000) "SLSQP" ow pw
            else
              let '(k', (q, _)) := inverse w c k h prev (Some (local_bounds prev interval)) solver ow pw in
              Ok (k', q)) (fun kq =>
      bind (inverse_steps w c (fst kq) H' (snd kq) interval random_restarts solver ow pw) (fun Q =>
      Ok (snd kq :: Q)))
  end.

(** kinematics.py:420-490 [inverse_trajectory]. *)
Definition inverse_trajectory (w : world) (c : chain) (k : clock) (H : list rigid) (initial : option (list R))
    (interval : R) (random_restarts : bool) (solver : string) (ow pw : R) : res (list (list R)) :=
  match H with
  | [] => Err IndexError                                                           (* H[0] *)
  | h :: H' =>
      bind (match initial with
            | None => inverse_with_random_restarts w c k h 10 (1/1000) "SLSQP" ow pw
            | Some q0 => let '(k', (q, _)) := inverse w c k h q0 None solver ow pw in Ok (k', q)
            end) (fun kq =>
      bind (inverse_steps w c (fst kq) H' (snd kq) interval random_restarts solver ow pw) (fun Q =>
      Ok (snd kq :: Q)))
  end.
