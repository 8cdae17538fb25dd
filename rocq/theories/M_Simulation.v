(** Model of testing/simulation.py: pose conventions, base frames, the control loops of
    UR5Simulation and SimulationMockup, and drawing.  PyBullet itself is a parameter: any
    state type with any behaviour of its commands.  [analyze_robot] is in M_Robot.v. *)
From Coq Require Import Reals List Arith Bool ZArith.
From Verif Require Import M_Prelude M_Base M_Quaternion M_Rigid.
Import ListNotations.
Open Scope R_scope.

(** ** Pose conventions *)

(** Python slices [a[:k]] and [a[k:]] of a one-dimensional array, k >= 0. *)
Definition slice_to (k : nat) (a : arr) : arr := {| alen := Nat.min k (alen a); aget := aget a |}.
Definition slice_from (k : nat) (a : arr) : arr :=
  {| alen := alen a - k; aget := fun j => aget a (k + j)%nat |}.
(** [np.hstack((a, b))]. *)
Definition hstack (a b : arr) : arr :=
  {| alen := alen a + alen b;
     aget := fun k => if Nat.ltb k (alen a) then aget a k else aget b (k - alen a)%nat |}.
Definition singleton (x : R) : arr := {| alen := 1; aget := fun _ => x |}.

(** testing/simulation.py:72-77 [_pybullet_pose]. *)
Definition pybullet_pose (pose : arr) : res (arr * arr) :=
  let pos := slice_to 3 pose in                                      (* 74 *)
  let rot := slice_from 3 pose in                                    (* 75 *)
  if Nat.eqb (alen rot) 0 then Err IndexError else                   (* rot[0] *)
  Ok (pos, hstack (slice_from 1 rot) (singleton (aget rot 0%nat))).  (* 76 *)

(** testing/simulation.py:80-82 [_pytransform_pose]. *)
Definition pytransform_pose (pos rot : arr) : res arr :=
  if Nat.eqb (alen rot) 0 then Err IndexError else                   (* rot[-1] *)
  Ok (hstack (hstack pos (singleton (aget rot (alen rot - 1)%nat)))
             (slice_to (alen rot - 1) rot)).

(** ** PyBullet's transformations (contract)

    A pose of PyBullet is a position and a quaternion with the scalar last.
    [multiplyTransforms(pA, qA, pB, qB)] is the product A B of the transformations, computed
    with rotation matrices (the sign of the resulting quaternion is that of the conversion from
    the matrix); [invertTransform] is the inverse transformation. *)
Definition xyzw (v : vec) : quat := Q4 (v 3%nat) (v 0%nat) (v 1%nat) (v 2%nat).
Definition arr_xyzw (q : quat) : arr :=
  {| alen := 4; aget := fun k => match k with 0 => qx q | 1 => qy q | 2 => qz q | _ => qw q end%nat |}.
Definition arr_v3 (p : v3) : arr := {| alen := 3; aget := vec_of_v3 p |}.

Definition pb_transform (a : arr * arr) : rigid :=
  pt_transform_from_pq (v3_of (aget (fst a))) (xyzw (aget (snd a))).
Definition pb_pose (t : rigid) : arr * arr :=
  let '(p, q) := pt_pq_from_transform t in (arr_v3 p, arr_xyzw q).
Definition multiplyTransforms (a b : arr * arr) : arr * arr := pb_pose (rigid_mul (pb_transform a) (pb_transform b)).
Definition invertTransform (a : arr * arr) : arr * arr := pb_pose (pt_invert (pb_transform a)).

(** ** Simulated robots *)

(** What the methods send to PyBullet and that changes its state. *)
Inductive command :=
| SetVelocity (target : arr)      (* setJointMotorControlArray, VELOCITY_CONTROL *)
| SetPosition (target : arr)      (* setJointMotorControlArray, POSITION_CONTROL *)
| StepSimulation.                 (* stepSimulation *)

(** An instance of PyBullet with one robot.  [b_ik] is None when the solution contains nan. *)
Record bullet (W : Type) := {
  b_base : arr * arr;                          (* getBasePositionAndOrientation *)
  b_link : W -> arr * arr * arr;               (* getLinkState, entries 4, 5, 6 *)
  b_ik : W -> arr -> arr -> option arr;        (* calculateInverseKinematics, the arm's joints *)
  b_joints : W -> arr;                         (* getJointStates, positions *)
  b_exec : command -> W -> W;
  b_connected : W -> bool                      (* isConnected *)
}.
Arguments b_base {W}. Arguments b_link {W}. Arguments b_ik {W}. Arguments b_joints {W}.
Arguments b_exec {W}. Arguments b_connected {W}.

(** State of the simulation and the commands sent so far. *)
Record sim (W : Type) := { s_w : W; s_log : list command }.
Arguments s_w {W}. Arguments s_log {W}.

Section UR5.
Context {W : Type} (b : bullet W) (dt : R).

Definition send (c : command) (s : sim W) : sim W :=
  {| s_w := b_exec b c (s_w s); s_log := s_log s ++ [c] |}.

(** testing/simulation.py:49-52 [step]. *)
Definition sim_step (s : sim W) : sim W * res unit :=
  if b_connected b (s_w s) then (send StepSimulation s, Ok tt) else (s, Err AssertionError).

(** testing/simulation.py:54-69 [sim_loop] with a number of steps. *)
Fixpoint sim_loop (n_steps : nat) (s : sim W) : sim W :=
  match n_steps with
  | O => s
  | S n => if b_connected b (s_w s) then sim_loop n (send StepSimulation s) else s
  end.

(** testing/simulation.py:206-207: base pose and its inverse. *)
Definition inv_base_pose : arr * arr := invertTransform (b_base b).

(** testing/simulation.py:237-239: the pose that [inverse_kinematics] asks for. *)
Definition ik_target (ee2robot : arr) : res (arr * arr) :=
  bind (pybullet_pose ee2robot) (fun pose => Ok (multiplyTransforms pose (b_base b))).

(** testing/simulation.py:224-247 [inverse_kinematics]; the [Exception] of line 246 is
    written ValueError. *)
Definition inverse_kinematics (s : sim W) (ee2robot : arr) : res arr :=
  bind (ik_target ee2robot) (fun '(pos, rot) =>
  match b_ik b (s_w s) pos rot with Some q => Ok q | None => Err ValueError end).

(** testing/simulation.py:280-297 [get_ee_state]: pose and velocity. *)
Definition get_ee_state (s : sim W) : res (arr * arr) :=
  let '(pos, rot, vel) := b_link b (s_w s) in                        (* 281-285, 288 *)
  let '(p, r) := multiplyTransforms (pos, rot) inv_base_pose in      (* 286 *)
  let '(v, _) := multiplyTransforms (vel, arr_xyzw q_one) inv_base_pose in (* 292-293 *)
  bind (pytransform_pose p r) (fun pose => Ok (pose, hstack v (zeros 3))). (* 295 *)

(** testing/simulation.py:299-303 [set_desired_ee_state]; [dt] is not zero here. *)
Definition set_desired_ee_state (ee_state : arr) (s : sim W) : sim W * res unit :=
  match inverse_kinematics s ee_state with                           (* 300 *)
  | Err e => (s, Err e)
  | Ok q =>
      let last_q := b_joints b (s_w s) in                            (* 301 *)
      (send (SetVelocity {| alen := alen q; aget := fun k => (aget q k - aget last_q k) / dt |}) s,
       Ok tt)                                                        (* 302-303 *)
  end.

(** testing/simulation.py:305-310 [stop]. *)
Definition stop (n_ur5_joints : nat) (s : sim W) : sim W * res unit :=
  sim_step (send (SetVelocity (zeros n_ur5_joints)) s).

(** [int(x / dt)] as the number of iterations of a loop over range. *)
Definition n_steps (x : R) : nat := Z.to_nat (Ztrunc (x / dt)).

(** testing/simulation.py:312-318 [goto_ee_state] without text. *)
Definition goto_ee_state (ee_state : arr) (wait_time : R) (s : sim W) : sim W * res unit :=
  match inverse_kinematics s ee_state with
  | Err e => (s, Err e)
  | Ok q => let s := send (SetPosition q) s in
            if Req_EM_T dt 0 then (s, Err ZeroDivisionError)
            else (sim_loop (n_steps wait_time) s, Ok tt)
  end.

(** A steppable object: its state, and the method [step]. *)
Context {S : Type} (step : arr -> arr -> S -> S * res (arr * arr)).

Record history := { h_desired_p : list arr; h_p : list arr; h_desired_v : list arr; h_v : list arr }.

(** testing/simulation.py:327-343, the loop; the lists are built in order. *)
Fixpoint cartesian_loop (n : nat) (closed_loop : bool) (last_p last_v : arr) (h : history)
    (s : sim W) (st : S) : sim W * S * res history :=
  match n with
  | O => (s, st, Ok h)
  | Datatypes.S n =>
      match (if closed_loop then bind (get_ee_state s) (fun x => Ok (fst x)) else Ok last_p) with (* 328-329 *)
      | Err e => (s, st, Err e)
      | Ok last_p =>
      match step last_p last_v st with                               (* 331 *)
      | (st, Err e) => (s, st, Err e)
      | (st, Ok (p, v)) =>
      match set_desired_ee_state p s with                            (* 332 *)
      | (s, Err e) => (s, st, Err e)
      | (s, Ok _) =>
      match sim_step s with                                          (* 333 *)
      | (s, Err e) => (s, st, Err e)
      | (s, Ok _) =>
      match get_ee_state s with                                      (* 341 *)
      | Err e => (s, st, Err e)
      | Ok (mp, mv) =>
          cartesian_loop n closed_loop p v                           (* 338-339 *)
            {| h_desired_p := h_desired_p h ++ [p]; h_p := h_p h ++ [mp];
               h_desired_v := h_desired_v h ++ [v]; h_v := h_v h ++ [mv] |} s st
      end end end end end
  end.

(** testing/simulation.py:320-350 [step_through_cartesian] of UR5Simulation. *)
Definition ur5_step_through_cartesian (n_ur5_joints : nat) (last_p last_v : arr) (execution_time : R)
    (closed_loop : bool) (s : sim W) (st : S) : sim W * S * res history :=
  match get_ee_state s with                                          (* 321 *)
  | Err e => (s, st, Err e)
  | Ok (p, v) =>
  if Req_EM_T dt 0 then (s, st, Err ZeroDivisionError) else          (* 327 *)
  match cartesian_loop (n_steps execution_time) closed_loop last_p last_v
          {| h_desired_p := [last_p]; h_p := [p]; h_desired_v := [last_v]; h_v := [v] |} s st with
  | (s, st, Err e) => (s, st, Err e)
  | (s, st, Ok h) =>
  match stop n_ur5_joints s with                                     (* 345 *)
  | (s, Err e) => (s, st, Err e)
  | (s, Ok _) => (s, st, Ok h)                                       (* 347-350 *)
  end end end.

(** testing/simulation.py:697-708, the loop of SimulationMockup; positions and velocities are
    the same objects as the desired ones. *)
Fixpoint mockup_loop (n : nat) (last_p last_v : arr) (h : history) (st : S) : S * res history :=
  match n with
  | O => (st, Ok h)
  | Datatypes.S n =>
      match step last_p last_v st with                               (* 698 *)
      | (st, Err e) => (st, Err e)
      | (st, Ok (p, v)) =>
          mockup_loop n p v {| h_desired_p := h_desired_p h ++ [p]; h_p := h_p h ++ [p];
                               h_desired_v := h_desired_v h ++ [v]; h_v := h_v h ++ [v] |} st
      end
  end.

(** testing/simulation.py:691-712 [step_through_cartesian] of SimulationMockup. *)
Definition mockup_step_through_cartesian (last_p last_v : arr) (execution_time : R) (st : S)
    : S * res history :=
  if Req_EM_T dt 0 then (st, Err ZeroDivisionError) else
  mockup_loop (n_steps execution_time) last_p last_v
    {| h_desired_p := [last_p]; h_p := [last_p]; h_desired_v := [last_v]; h_v := [last_v] |} st.

End UR5.

(** ** Drawing *)

(** A line of [addUserDebugLine]: end points, colour, width. *)
Record line := { l_from : v3; l_to : v3; l_rgb : nat * nat * nat; l_width : R }.

Definition m3_col (j : nat) (a : mat3) : v3 :=
  match j with
  | 0 => V3 (m00 a) (m10 a) (m20 a) | 1 => V3 (m01 a) (m11 a) (m21 a) | _ => V3 (m02 a) (m12 a) (m22 a)
  end%nat.

(** testing/simulation.py:85-111 [draw_transform] (the check of line 102 accepts what the type
    [rigid] describes). *)
Definition draw_transform (pose2origin : rigid) (s lw : R) : list line :=
  let p := r_pos pose2origin in
  map (fun '(j, rgb) => {| l_from := p; l_to := v3_add p (v3_scale s (m3_col j (r_rot pose2origin))); l_rgb := rgb; l_width := lw |})
    [(0, (1, 0, 0)); (1, (0, 1, 0)); (2, (0, 0, 1))]%nat.

(** testing/simulation.py:114-140 [draw_pose]. *)
Definition draw_pose (p : v3) (q : quat) (s lw : R) : list line := draw_transform (pt_transform_from_pq p q) s lw.

(** [np.linspace(0, last, n, dtype=np.int64)]: k * last / (n - 1), rounded down; the last one
    is exactly [last]; for one point it is 0. *)
Definition linspace_int (last n : nat) : list nat :=
  map (fun k => if Nat.eqb n 1 then 0 else k * last / (n - 1))%nat (seq 0 n).

(** testing/simulation.py:143-170 [draw_trajectory]; for an empty trajectory [A2Bs[-1]] or
    [A2Bs[0]] raises IndexError (unless no key frame is asked for).  Line 166 does not pass
    [lw] on, so the frames have the default width 1. *)
Definition draw_trajectory (A2Bs : list rigid) (n_key_frames : nat) (s lw : R) : res (list line) :=
  match A2Bs with
  | [] => if Nat.eqb n_key_frames 0 then Ok [] else Err IndexError
  | a0 :: _ =>
      let key_frames_indices := linspace_int (length A2Bs - 1) n_key_frames in (* 163-164 *)
      Ok (flat_map (fun idx => draw_transform (nth idx A2Bs a0) s 1) key_frames_indices (* 165-166 *)
          ++ map (fun idx => {| l_from := r_pos (nth idx A2Bs a0); l_to := r_pos (nth (idx + 1) A2Bs a0);
                                l_rgb := (0, 0, 0)%nat; l_width := lw |}) (seq 0 (length A2Bs - 1))) (* 167-170 *)
  end.
