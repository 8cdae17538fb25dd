(** Model of testing/simulation.py: several PyBullet clients at once, the constructors of the
    simulations, KinematicsChain and RH5Simulation.  What PyBullet computes is a parameter
    ([engine]); that each client has its own state is its contract.  UR5Simulation with one
    client is in M_Simulation.v, [analyze_robot] in M_Robot.v. *)
From Coq Require Import Reals List Arith Bool ZArith String.
From Verif Require Import M_Prelude M_Base M_Quaternion M_Rigid M_Simulation M_Robot.
Import ListNotations.
Local Open Scope R_scope.

(** Requests that can change the state of a client. *)
Inductive request :=
| Visualizer                                   (* configureDebugVisualizer, resetDebugVisualizerCamera *)
| SearchPath                                   (* setAdditionalSearchPath *)
| ResetSimulation
| SetTimeStep (dt : R)
| SetRealTime (on : bool)
| SetGravity
| LoadURDF (path : string) (position : option (R * R * R))
| Motor (body : nat) (position_control : bool) (joints : list nat) (target : arr)
                                               (* setJointMotorControlArray *)
| Advance.                                     (* stepSimulation *)

(** What a client answers; [e_ik] is None when the request is refused. *)
Record engine (W : Type) := {
  e_fresh : W;                                       (* a client that was just connected *)
  e_joint : W -> nat -> nat -> R * R;                (* getJointState: position, velocity *)
  e_link : W -> nat -> Z -> arr * arr;               (* getLinkState, entries 4 and 5 *)
  e_ik : W -> nat -> Z -> arr -> arr -> option arr;  (* calculateInverseKinematics *)
  e_bodies : W -> nat;                               (* getNumBodies *)
  e_info : W -> nat -> string * list joint_info;     (* getBodyInfo, getJointInfo *)
  e_exec : request -> W -> W;
  e_connected : W -> bool                            (* isConnected *)
}.
Arguments e_fresh {W}. Arguments e_joint {W}. Arguments e_link {W}. Arguments e_ik {W}.
Arguments e_bodies {W}. Arguments e_info {W}. Arguments e_exec {W}. Arguments e_connected {W}.

(** All clients, the next free id and the requests made so far. *)
Record world (W : Type) := { w_client : nat -> W; w_next : nat; w_log : list (nat * request) }.
Arguments w_client {W}. Arguments w_next {W}. Arguments w_log {W}.

Section Clients.
Context {W : Type} (e : engine W).

(** Methods: from a world to a world and a result or an exception. *)
Definition prog (A : Type) := world W -> world W * res A.
Definition ret {A} (x : A) : prog A := fun w => (w, Ok x).
Definition raise {A} (x : exn) : prog A := fun w => (w, Err x).
Definition then_ {A B} (m : prog A) (f : A -> prog B) : prog B := fun w =>
  match m w with (w, Ok x) => f x w | (w, Err x) => (w, Err x) end.
Definition lift {A} (r : res A) : prog A := fun w => (w, r).

Definition upd (f : nat -> W) (c : nat) (s : W) : nat -> W := fun k => if Nat.eqb k c then s else f k.

Definition request_ (c : nat) (r : request) : prog unit := fun w =>
  ({| w_client := upd (w_client w) c (e_exec e r (w_client w c)); w_next := w_next w;
      w_log := w_log w ++ [(c, r)] |}, Ok tt).
Definition ask {A} (c : nat) (f : W -> A) : prog A := fun w => (w, Ok (f (w_client w c))).
(** [pybullet.connect]: a new client. *)
Definition connect : prog nat := fun w =>
  ({| w_client := upd (w_client w) (w_next w) (e_fresh e); w_next := S (w_next w); w_log := w_log w |},
   Ok (w_next w)).
(** [pybullet.loadURDF]: bodies are numbered in the order in which they are loaded. *)
Definition load (c : nat) (path : string) (position : option (R * R * R)) : prog nat :=
  then_ (ask c (e_bodies e)) (fun body => then_ (request_ c (LoadURDF path position)) (fun _ => ret body)).
(** [pybullet.setJointMotorControlArray]: refuses a target of the wrong length (its exception is
    pybullet.error, written ValueError). *)
Definition motor (c body : nat) (position_control : bool) (joints : list nat) (target : arr) : prog unit :=
  if Nat.eqb (alen target) (List.length joints) then request_ c (Motor body position_control joints target)
  else raise ValueError.
(** [pybullet.getJointStates]: positions and velocities. *)
Definition joint_positions (s : W) (body : nat) (joints : list nat) : arr :=
  {| alen := List.length joints; aget := fun k => fst (e_joint e s body (nth k joints 0%nat)) |}.
Definition joint_velocities (s : W) (body : nat) (joints : list nat) : arr :=
  {| alen := List.length joints; aget := fun k => snd (e_joint e s body (nth k joints 0%nat)) |}.

(** ** PybulletSimulation *)

(** testing/simulation.py:31-47 [__init__]; lines 39-41 name no client, so they go to client 0. *)
Definition simulation_new (dt : R) (real_time : bool) : prog nat :=
  then_ connect (fun c =>                                            (* 34-37 *)
  then_ (request_ 0 Visualizer) (fun _ =>                            (* 39 *)
  then_ (request_ 0 Visualizer) (fun _ =>                            (* 40 *)
  then_ (request_ 0 Visualizer) (fun _ =>                            (* 41 *)
  then_ (request_ c ResetSimulation) (fun _ =>                       (* 43 *)
  then_ (request_ c (SetTimeStep dt)) (fun _ =>                      (* 44 *)
  then_ (request_ c (SetRealTime real_time)) (fun _ =>               (* 45-46 *)
  then_ (request_ c SetGravity) (fun _ => ret c)))))))).             (* 47 *)

(** testing/simulation.py:49-52 [step]. *)
Definition client_step (c : nat) : prog unit :=
  then_ (ask c (e_connected e)) (fun on => if on then request_ c Advance else raise AssertionError).

(** testing/simulation.py:54-69 [sim_loop] with a number of steps. *)
Fixpoint client_loop (n : nat) (c : nat) : prog unit :=
  match n with
  | O => ret tt
  | S n => then_ (ask c (e_connected e)) (fun on =>
           if on then then_ (request_ c Advance) (fun _ => client_loop n c) else ret tt)
  end.

(** ** KinematicsChain *)

Record chain := { c_client : nat; c_body : nat; c_joints : list nat; c_ee : Z; c_q : list nat }.

(** testing/simulation.py:381-401 [__init__] (n_all_chain_joints is only handed to PyBullet). *)
Definition chain_new (ee_frame : string) (joints : list string) (urdf_path : string) : prog chain :=
  then_ connect (fun c =>                                            (* 382-385 *)
  then_ (request_ c ResetSimulation) (fun _ =>                       (* 386 *)
  then_ (request_ c (SetTimeStep 1)) (fun _ =>                       (* 387 *)
  then_ (load c urdf_path None) (fun body =>                         (* 389-390 *)
  then_ (ask c (fun s => e_info e s body)) (fun info =>
  then_ (lift (analyze_robot (fst info) (snd info))) (fun '(ids, links, ik) => (* 391-394 *)
  then_ (lift (dict_get_all String.eqb joints ids)) (fun chain_joint_indices => (* 396 *)
  then_ (lift (dict_get link_name_eqb (Str ee_frame) links)) (fun ee_idx => (* 397 *)
  then_ (lift (dict_get_all String.eqb joints ik)) (fun q_indices => (* 398 *)
  ret {| c_client := c; c_body := body; c_joints := chain_joint_indices; c_ee := ee_idx;
         c_q := q_indices |}))))))))).

(** [np.linalg.norm(a - b)] for arrays of the same length. *)
Definition distance (a b : arr) : R :=
  sqrt (fold_right Rplus 0 (map (fun k => (aget a k - aget b k) ^ 2) (seq 0 (alen a)))).

(** testing/simulation.py:448-454, the loop of [goto_joint_state]. *)
Fixpoint goto_loop (n : nat) (k : chain) (q_current : arr) (joint_state_eps : R) : prog unit :=
  match n with
  | O => ret tt
  | S n =>
      then_ (request_ (c_client k) Advance) (fun _ =>                (* 449 *)
      then_ (ask (c_client k) (fun s => joint_positions s (c_body k) (c_joints k))) (fun q_internal => (* 450-452 *)
      if Rlt_dec (distance q_current q_internal) joint_state_eps then ret tt (* 453-454 *)
      else goto_loop n k q_current joint_state_eps))
  end.

(** testing/simulation.py:441-454 [goto_joint_state]. *)
Definition goto_joint_state (k : chain) (q_current : arr) (max_steps_to_joint_state : nat)
    (joint_state_eps : R) : prog unit :=
  then_ (motor (c_client k) (c_body k) true (c_joints k) q_current) (fun _ => (* 443-446 *)
  goto_loop max_steps_to_joint_state k q_current joint_state_eps).

(** testing/simulation.py:403-439 [inverse]; n_iter and threshold are only handed to PyBullet. *)
Definition chain_ik (k : chain) (desired_ee_state : arr) (q_current : option arr) : prog (list R) :=
  then_ (match q_current with
         | Some q => goto_joint_state k q 50 (1 / 1000)              (* 428-431 *)
         | None => ret tt
         end) (fun _ =>
  then_ (lift (pybullet_pose desired_ee_state)) (fun '(ee_pos, ee_rot) => (* 433 *)
  then_ (ask (c_client k) (fun s => e_ik e s (c_body k) (c_ee k) ee_pos ee_rot)) (fun q => (* 434-438 *)
  match q with
  | None => raise ValueError
  | Some q => lift (take_indices q (c_q k))                          (* 439 *)
  end))).

(** ** RH5Simulation *)

Record rh5 := {
  r_client : nat; r_dt : R; r_body : nat;
  r_left_joints : list nat; r_right_joints : list nat;
  r_left_link : Z; r_right_link : Z;
  r_left_ik : chain; r_right_ik : chain
}.

(** testing/simulation.py:486-520 [__init__]. *)
Definition rh5_new (dt : R) (real_time : bool) (left_ee_frame right_ee_frame : string)
    (left_joints right_joints : list string) (urdf_path left_arm_path right_arm_path : string) : prog rh5 :=
  then_ (simulation_new dt real_time) (fun c =>                      (* 493 *)
  then_ (request_ 0 SearchPath) (fun _ =>                            (* 497 *)
  then_ (load c "plane.urdf" (Some (0, 0, -1))) (fun _ =>            (* 498-500 *)
  then_ (load c urdf_path (Some (0, 0, 0))) (fun body =>             (* 501-503 *)
  then_ (ask c (fun s => e_info e s body)) (fun info =>
  then_ (lift (analyze_robot (fst info) (snd info))) (fun '(ids, links, _) => (* 504-505 *)
  then_ (lift (dict_get_all String.eqb left_joints ids)) (fun lft => (* 512 *)
  then_ (lift (dict_get_all String.eqb right_joints ids)) (fun rgt => (* 513 *)
  then_ (lift (dict_get link_name_eqb (Str left_ee_frame) links)) (fun left_link => (* 514 *)
  then_ (lift (dict_get link_name_eqb (Str right_ee_frame) links)) (fun right_link => (* 515 *)
  then_ (chain_new left_ee_frame left_joints left_arm_path) (fun left_ik => (* 517-518 *)
  then_ (chain_new right_ee_frame right_joints right_arm_path) (fun right_ik => (* 519-520 *)
  ret {| r_client := c; r_dt := dt; r_body := body; r_left_joints := lft; r_right_joints := rgt;
         r_left_link := left_link; r_right_link := right_link;
         r_left_ik := left_ik; r_right_ik := right_ik |})))))))))))).

Definition arr_of (l : list R) : arr := {| alen := List.length l; aget := fun k => nth k l 0 |}.

(** testing/simulation.py:522-546 [inverse_kinematics]; the slices of [q] have the lengths of
    the results, because a chain has as many q_indices as joints. *)
Definition rh5_inverse_kinematics (r : rh5) (ee2robot : arr) : prog arr :=
  then_ (ask (r_client r) (fun s => joint_positions s (r_body r) (r_left_joints r))) (fun left_q => (* 538-539 *)
  then_ (chain_ik (r_left_ik r) (slice_to 7 ee2robot) (Some left_q)) (fun lft => (* 540 *)
  then_ (ask (r_client r) (fun s => joint_positions s (r_body r) (r_right_joints r))) (fun right_q => (* 542-543 *)
  then_ (chain_ik (r_right_ik r) (slice_from 7 ee2robot) (Some right_q)) (fun rgt => (* 544 *)
  ret (rh5_join (List.length (r_left_joints r)) (arr_of lft) (arr_of rgt)))))). (* 536, 546 *)

(** testing/simulation.py:548-566 [get_joint_state]. *)
Definition rh5_get_joint_state (r : rh5) : prog (arr * arr) :=
  ask (r_client r) (fun s => (joint_positions s (r_body r) (r_left_joints r ++ r_right_joints r),
                              joint_velocities s (r_body r) (r_left_joints r ++ r_right_joints r))).

(** testing/simulation.py:568-589 [set_desired_joint_state]. *)
Definition rh5_set_desired_joint_state (r : rh5) (joint_state : arr) (position_control : bool) : prog unit :=
  let '(lft, rgt) := rh5_split (List.length (r_left_joints r)) joint_state in (* 569 *)
  then_ (motor (r_client r) (r_body r) position_control (r_left_joints r) lft) (fun _ => (* 571-575, 582-585 *)
  motor (r_client r) (r_body r) position_control (r_right_joints r) rgt). (* 576-580, 586-589 *)

(** testing/simulation.py:507-508: base pose and its inverse. *)
Definition rh5_inv_base_pose : arr * arr := invertTransform (zeros 3, arr_xyzw q_one).

(** testing/simulation.py:591-621 [get_ee_state]. *)
Definition rh5_get_ee_state (r : rh5) (return_velocity : bool) : prog arr :=
  then_ (ask (r_client r) (fun s => e_link e s (r_body r) (r_left_link r))) (fun lft =>
  let '(left_pos, left_rot) := multiplyTransforms lft rh5_inv_base_pose in
  then_ (lift (pytransform_pose left_pos left_rot)) (fun left_pose => (* 592-598 *)
  then_ (ask (r_client r) (fun s => e_link e s (r_body r) (r_right_link r))) (fun rgt =>
  let '(right_pos, right_rot) := multiplyTransforms rgt rh5_inv_base_pose in
  then_ (lift (pytransform_pose right_pos right_rot)) (fun right_pose => (* 600-606 *)
  if return_velocity then raise NotImplementedError                  (* 608-609 *)
  else ret (hstack left_pose right_pose))))).                        (* 621 *)

(** testing/simulation.py:623-630 [set_desired_ee_state]; both arrays have n_joints entries and
    [dt] is not zero here. *)
Definition rh5_set_desired_ee_state (r : rh5) (ee_state : arr) (position_control : bool) : prog unit :=
  then_ (rh5_inverse_kinematics r ee_state) (fun q =>                (* 624 *)
  if position_control then rh5_set_desired_joint_state r q true      (* 625-626 *)
  else
    then_ (rh5_get_joint_state r) (fun '(last_q, _) =>               (* 628 *)
    rh5_set_desired_joint_state r
      {| alen := alen q; aget := fun k => (aget q k - aget last_q k) / r_dt r |} false)). (* 629-630 *)

(** testing/simulation.py:637-643 [goto_ee_state] without text. *)
Definition rh5_goto_ee_state (r : rh5) (ee_state : arr) (wait_time : R) : prog unit :=
  then_ (rh5_inverse_kinematics r ee_state) (fun q =>                (* 641 *)
  then_ (rh5_set_desired_joint_state r q true) (fun _ =>             (* 642 *)
  if Req_EM_T (r_dt r) 0 then raise ZeroDivisionError
  else client_loop (n_steps (r_dt r) wait_time) (r_client r))).      (* 643 *)

(** testing/simulation.py:632-635 [stop]. *)
Definition rh5_stop (r : rh5) : prog unit :=
  then_ (rh5_get_ee_state r false) (fun ee_state =>                  (* 633 *)
  then_ (rh5_goto_ee_state r ee_state 1) (fun _ =>                   (* 634 *)
  client_step (r_client r))).                                        (* 635 *)

(** A steppable object: its state, and the method [step] with a fixed coupling term. *)
Context {S : Type} (step : arr -> arr -> S -> S * res (arr * arr)).

(** testing/simulation.py:652-669, the loop; the state of the steppable object is not
    reported when an exception is raised. *)
Fixpoint rh5_cartesian_loop (n : nat) (r : rh5) (closed_loop : bool) (last_p last_v : arr) (h : history)
    (st : S) : prog (S * history) :=
  match n with
  | O => ret (st, h)
  | Datatypes.S n =>
      then_ (if closed_loop then rh5_get_ee_state r false else ret last_p) (fun last_p => (* 653-654 *)
      let '(st, pv) := step last_p last_v st in
      then_ (lift pv) (fun '(p, v) =>                                (* 656 *)
      then_ (rh5_set_desired_ee_state r p false) (fun _ =>           (* 657 *)
      then_ (client_step (r_client r)) (fun _ =>                     (* 658 *)
      then_ (rh5_get_ee_state r false) (fun mp =>                    (* 666 *)
      rh5_cartesian_loop n r closed_loop p v                         (* 663-664 *)
        {| h_desired_p := h_desired_p h ++ [p]; h_p := h_p h ++ [mp];
           h_desired_v := h_desired_v h ++ [v]; h_v := h_v h ++ [v] |} st))))) (* 660-661, 667-669 *)
  end.

(** testing/simulation.py:645-676 [step_through_cartesian]. *)
Definition rh5_step_through_cartesian (r : rh5) (last_p last_v : arr) (execution_time : R)
    (closed_loop : bool) (st : S) : prog (S * history) :=
  then_ (rh5_get_ee_state r false) (fun p =>                         (* 646 *)
  if Req_EM_T (r_dt r) 0 then raise ZeroDivisionError else           (* 652 *)
  then_ (rh5_cartesian_loop (n_steps (r_dt r) execution_time) r closed_loop last_p last_v
           {| h_desired_p := [last_p]; h_p := [p]; h_desired_v := [last_v]; h_v := [zeros 12] |} st) (fun sh => (* 647-650 *)
  then_ (rh5_stop r) (fun _ => ret sh))).                            (* 671-676 *)

(** Any of the methods, and what it returned. *)
Inductive call :=
| Step
| SimLoop (n : nat)
| InverseKinematics (ee2robot : arr)
| GetJointState
| SetDesiredJointState (joint_state : arr) (position_control : bool)
| GetEeState (return_velocity : bool)
| SetDesiredEeState (ee_state : arr) (position_control : bool)
| Stop
| GotoEeState (ee_state : arr) (wait_time : R)
| StepThroughCartesian (last_p last_v : arr) (execution_time : R) (closed_loop : bool) (st : S).

Inductive answer :=
| Nothing
| Array (a : arr)
| Arrays (a b : arr)
| Run (sh : S * history).

Definition answer_ {A} (f : A -> answer) (m : prog A) : prog answer := then_ m (fun x => ret (f x)).

Definition rh5_call (r : rh5) (c : call) : prog answer :=
  match c with
  | Step => answer_ (fun _ => Nothing) (client_step (r_client r))
  | SimLoop n => answer_ (fun _ => Nothing) (client_loop n (r_client r))
  | InverseKinematics p => answer_ Array (rh5_inverse_kinematics r p)
  | GetJointState => answer_ (fun x => Arrays (fst x) (snd x)) (rh5_get_joint_state r)
  | SetDesiredJointState q pc => answer_ (fun _ => Nothing) (rh5_set_desired_joint_state r q pc)
  | GetEeState rv => answer_ Array (rh5_get_ee_state r rv)
  | SetDesiredEeState p pc => answer_ (fun _ => Nothing) (rh5_set_desired_ee_state r p pc)
  | Stop => answer_ (fun _ => Nothing) (rh5_stop r)
  | GotoEeState p t => answer_ (fun _ => Nothing) (rh5_goto_ee_state r p t)
  | StepThroughCartesian p v x cl st => answer_ Run (rh5_step_through_cartesian r p v x cl st)
  end.

(** ** UR5Simulation: the methods that name no client use client 0 *)

Record ur5 := { u_client : nat; u_dt : R; u_body : nat; u_joints : list nat }.

(** testing/simulation.py:197-222 [__init__] (only the joint indices are kept; joint type 0). *)
Definition ur5_new (dt : R) (real_time : bool) : prog ur5 :=
  then_ (simulation_new dt real_time) (fun c =>                      (* 198 *)
  then_ (request_ 0 SearchPath) (fun _ =>                            (* 200 *)
  then_ (load 0 "plane.urdf" (Some (0, 0, -1))) (fun _ =>            (* 201-202 *)
  then_ (load 0 "examples/data/urdf/ur5.urdf" (Some (0, 0, 0))) (fun body => (* 203-204 *)
  then_ (ask 0 (fun s => e_info e s body)) (fun info =>
  ret {| u_client := c; u_dt := dt; u_body := body;
         u_joints := filter (fun i => match nth_error (snd info) i with
                                      | Some j => Z.eqb (j_type j) 0 | None => false end)
                       (seq 0 (List.length (snd info))) |}))))).     (* 215-217 *)

(** testing/simulation.py:249-267 [get_joint_state]; n_ur5_joints is 6 (line 209). *)
Definition ur5_get_joint_state (u : ur5) : prog (arr * arr) :=
  ask 0 (fun s => (joint_positions s (u_body u) (firstn 6 (u_joints u)),
                   joint_velocities s (u_body u) (firstn 6 (u_joints u)))).

(** testing/simulation.py:269-278 [set_desired_joint_state]. *)
Definition ur5_set_desired_joint_state (u : ur5) (joint_state : arr) (position_control : bool) : prog unit :=
  motor 0 (u_body u) position_control (firstn 6 (u_joints u)) joint_state.

End Clients.
