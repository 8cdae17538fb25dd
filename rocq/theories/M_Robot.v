(** Model of testing/simulation.py:715-819 [analyze_robot] and of the joint bookkeeping of
    KinematicsChain and RH5Simulation. *)
From Coq Require Import Reals List Arith Bool ZArith String.
From Verif Require Import M_Prelude M_Base.
Import ListNotations.
Local Open Scope R_scope.

(** What [pybullet.getJointInfo] says about a joint: entries 1, 2, 12 and 16 (after decoding
    the names, lines 781-782). *)
Record joint_info := { j_name : string; j_type : Z; j_child : string; j_parent : Z }.

(** Names of links: the base link is kept as the bytes object that PyBullet returns (lines 755, 766),
    the others are decoded; a bytes object never equals a str. *)
Inductive link_name := Str (s : string) | Bytes (s : string).
Definition link_name_eqb (a b : link_name) : bool :=
  match a, b with
  | Str x, Str y => String.eqb x y
  | Bytes x, Bytes y => String.eqb x y
  | _, _ => false
  end.

(** Python dictionaries: assignment replaces the value of an existing key and otherwise
    appends. *)
Section Dict.
Context {K V : Type} (eqb : K -> K -> bool).
Fixpoint dict_set (k : K) (v : V) (d : list (K * V)) : list (K * V) :=
  match d with
  | [] => [(k, v)]
  | (k', v') :: d => if eqb k' k then (k, v) :: d else (k', v') :: dict_set k v d
  end.
Fixpoint dict_get (k : K) (d : list (K * V)) : res V :=
  match d with
  | [] => Err KeyError
  | (k', v) :: d => if eqb k' k then Ok v else dict_get k d
  end.
Definition dict_has (k : K) (d : list (K * V)) : bool := existsb (fun x => eqb (fst x) k) d.
End Dict.

(** pybullet.JOINT_REVOLUTE = 0, JOINT_PRISMATIC = 1, JOINT_SPHERICAL = 2, JOINT_PLANAR = 3,
    JOINT_FIXED = 4. *)
Inductive joint_kind := Revolute | Prismatic | Spherical | Planar | Fixed.

(** testing/simulation.py:822-830 [_joint_type]. *)
Definition joint_type (id : Z) : res joint_kind :=
  match id with
  | 0 => Ok Revolute | 1 => Ok Prismatic | 2 => Ok Spherical | 3 => Ok Planar | 4 => Ok Fixed
  | _ => Err ValueError
  end%Z.

Definition is_fixed (k : joint_kind) : bool := match k with Fixed => true | _ => false end.

Record analysis := {
  last_link_idx : Z;
  link_id_to_link_name : list (Z * link_name);
  joint_name_to_joint_id : list (string * nat);
  joint_name_to_joint_idx_ik : list (string * nat);
  joint_idx_ik : nat
}.

(** testing/simulation.py:775-795, one joint (output of the verbose mode is not modelled). *)
Definition analyze_joint (joint_idx : nat) (j : joint_info) (a : analysis) : res analysis :=
  let '(last, links) :=
    if existsb (fun x => link_name_eqb (snd x) (Str (j_child j))) (link_id_to_link_name a)
    then (last_link_idx a, link_id_to_link_name a)
    else (last_link_idx a + 1,
          dict_set Z.eqb (last_link_idx a + 1) (Str (j_child j)) (link_id_to_link_name a))%Z in (* 784-786 *)
  if negb (dict_has Z.eqb (j_parent j) links) then Err AssertionError else (* 787 *)
  let ids := dict_set String.eqb (j_name j) joint_idx (joint_name_to_joint_id a) in (* 789 *)
  bind (joint_type (j_type j)) (fun kind =>                          (* 791 *)
  Ok (if is_fixed kind
      then {| last_link_idx := last; link_id_to_link_name := links; joint_name_to_joint_id := ids;
              joint_name_to_joint_idx_ik := joint_name_to_joint_idx_ik a; joint_idx_ik := joint_idx_ik a |}
      else {| last_link_idx := last; link_id_to_link_name := links; joint_name_to_joint_id := ids;
              joint_name_to_joint_idx_ik :=
                dict_set String.eqb (j_name j) (joint_idx_ik a) (joint_name_to_joint_idx_ik a);
              joint_idx_ik := S (joint_idx_ik a) |})).               (* 793-795 *)

Fixpoint analyze_joints (joint_idx : nat) (joints : list joint_info) (a : analysis) : res analysis :=
  match joints with
  | [] => Ok a
  | j :: joints => bind (analyze_joint joint_idx j a) (analyze_joints (S joint_idx) joints)
  end.

(** testing/simulation.py:715-819 [analyze_robot] for a loaded robot: joint ids, link ids and
    indices in the result of inverse kinematics. *)
Definition analyze_robot (base_link : string) (joints : list joint_info)
    : res (list (string * nat) * list (link_name * Z) * list (string * nat)) :=
  bind (analyze_joints 0 joints
          {| last_link_idx := -1; link_id_to_link_name := [((-1)%Z, Bytes base_link)];
             joint_name_to_joint_id := []; joint_name_to_joint_idx_ik := []; joint_idx_ik := 0 |}) (fun a =>
  Ok (joint_name_to_joint_id a,
      fold_left (fun d x => dict_set link_name_eqb (snd x) (fst x) d) (link_id_to_link_name a) [], (* 813 *)
      joint_name_to_joint_idx_ik a)).

(** [[d[k] for k in ks]]. *)
Fixpoint dict_get_all {K V : Type} (eqb : K -> K -> bool) (ks : list K) (d : list (K * V)) : res (list V) :=
  match ks with
  | [] => Ok []
  | k :: ks => bind (dict_get eqb k d) (fun v => bind (dict_get_all eqb ks d) (fun vs => Ok (v :: vs)))
  end.

(** [np.asarray(q)[indices]]. *)
Fixpoint take_indices (q : arr) (indices : list nat) : res (list R) :=
  match indices with
  | [] => Ok []
  | i :: indices => if Nat.ltb i (alen q)
                    then bind (take_indices q indices) (fun l => Ok (aget q i :: l)) else Err IndexError
  end.

(** testing/simulation.py:391-399 and 439: the indices of a KinematicsChain with the given
    joints, and the selection from the result [q] of calculateInverseKinematics. *)
Definition chain_inverse (base_link : string) (robot : list joint_info) (joints : list string) (q : arr)
    : res (list R) :=
  bind (analyze_robot base_link robot) (fun '(_, _, ik) =>
  bind (dict_get_all String.eqb joints ik) (fun q_indices => take_indices q q_indices)).

(** testing/simulation.py:536-546 [inverse_kinematics] of RH5Simulation: the joint vector is
    put together from the solutions of both arms. *)
Definition rh5_join (n_left : nat) (left right : arr) : arr :=
  {| alen := n_left + alen right;
     aget := fun k => if Nat.ltb k n_left then aget left k else aget right (k - n_left)%nat |}.
(** testing/simulation.py:569 [np.split(joint_state, (n_left,))]. *)
Definition rh5_split (n_left : nat) (q : arr) : arr * arr :=
  ({| alen := Nat.min n_left (alen q); aget := aget q |},
   {| alen := alen q - n_left; aget := fun k => aget q (n_left + k)%nat |}).
