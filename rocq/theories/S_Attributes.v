(** Specification for C103: which attributes of an object a call may change, as a
    table, independent of how the calls are implemented. *)
From Coq Require Import Reals List Arith Bool.
From Verif Require Import M_Prelude M_Forcing M_Dmp M_Base M_DmpObject M_FinalVelocity
  M_SpringDamper M_Quaternion M_Cartesian M_Dual M_StateFollowing M_MinJerk.
Import ListNotations.
Open Scope R_scope.

(** What a user can read from an object. *)
Inductive attribute :=
| Dimensions       (* number of position and velocity components *)
| Clock            (* t *)
| LastTime         (* last_t *)
| StartState       (* start_y, start_yd, start_ydd *)
| GoalState        (* goal_y, goal_yd, goal_ydd *)
| CurrentState     (* current_y, current_yd *)
| Initialized      (* initialized *)
| ExecutionTime    (* execution_time_ *)
| StepLength       (* dt_ *)
| IntegrationStep  (* int_dt *)
| TrackingGain     (* p_gain *)
| SmoothScaling    (* smooth_scaling *)
| WeightCount      (* n_weights_per_dim, number of rows of the basis *)
| Gains            (* alpha_y, beta_y; k and c of spring-dampers *)
| Weights          (* forcing_term.weights_; viapoints *)
| Basis            (* everything else of the forcing term *).

Inductive operation :=
| Configure | Reset | Step | OpenLoop | Imitate
| GetWeights | SetWeights | SetExecutionTime | SetDt | SetIntDt.

(** The table. *)
Definition changes (op : operation) : list attribute :=
  match op with
  | Configure => [Clock; StartState; GoalState]
  | Reset => [Clock; LastTime; CurrentState]
  | Step => [Clock; LastTime; CurrentState; Initialized]
  | OpenLoop => []
  | Imitate => [Weights; StartState; GoalState]
  | GetWeights => []
  | SetWeights => [Weights]
  | SetExecutionTime => [ExecutionTime; Basis]
  | SetDt => [StepLength]
  | SetIntDt => [IntegrationStep]
  end.

(** Attribute [a] has the same value before and after: base class, ... *)
Definition same_in_base (a : attribute) (p p' : ptp) : Prop :=
  match a with
  | Dimensions => p_n_dims p' = p_n_dims p /\ p_n_vel_dims p' = p_n_vel_dims p
  | Clock => p_t p' = p_t p
  | LastTime => p_last_t p' = p_last_t p
  | StartState => p_start_y p' = p_start_y p /\ p_start_yd p' = p_start_yd p
                  /\ p_start_ydd p' = p_start_ydd p
  | GoalState => p_goal_y p' = p_goal_y p /\ p_goal_yd p' = p_goal_yd p
                 /\ p_goal_ydd p' = p_goal_ydd p
  | CurrentState => p_current_y p' = p_current_y p /\ p_current_yd p' = p_current_yd p
  | _ => True
  end.

(** ... forcing term, ... *)
Definition same_in_forcing_term (a : attribute) (f f' : forcing_term) : Prop :=
  match a with
  | WeightCount => ft_n f' = ft_n f
  | Weights => ft_weights f' = ft_weights f
  | Basis => ft_goal_t f' = ft_goal_t f /\ ft_start_t f' = ft_start_t f
             /\ ft_overlap f' = ft_overlap f /\ ft_alpha_z f' = ft_alpha_z f
             /\ ft_centers f' = ft_centers f /\ ft_widths f' = ft_widths f
  | _ => True
  end.

(** ... DMP, DMPWithFinalVelocity and DualCartesianDMP (same attributes), ... *)
Definition same_in_dmp (a : attribute) (o o' : dmp) : Prop :=
  same_in_base a (o_base o) (o_base o')
  /\ same_in_forcing_term a (o_forcing_term o) (o_forcing_term o')
  /\ match a with
     | Initialized => o_initialized o' = o_initialized o
     | ExecutionTime => o_execution_time o' = o_execution_time o
     | StepLength => o_dt o' = o_dt o
     | IntegrationStep => o_int_dt o' = o_int_dt o
     | TrackingGain => o_p_gain o' = o_p_gain o
     | SmoothScaling => o_smooth_scaling o' = o_smooth_scaling o
     | WeightCount => o_n_weights_per_dim o' = o_n_weights_per_dim o
     | Gains => o_alpha_y o' = o_alpha_y o /\ o_beta_y o' = o_beta_y o
     | _ => True
     end.

(** ... CartesianDMP (two forcing terms), ... *)
Definition same_in_cart (a : attribute) (o o' : cart) : Prop :=
  same_in_base a (k_base o) (k_base o')
  /\ same_in_forcing_term a (k_fpos o) (k_fpos o')
  /\ same_in_forcing_term a (k_frot o) (k_frot o')
  /\ match a with
     | ExecutionTime => k_execution_time o' = k_execution_time o
     | StepLength => k_dt o' = k_dt o
     | IntegrationStep => k_int_dt o' = k_int_dt o
     | SmoothScaling => k_smooth o' = k_smooth o
     | WeightCount => k_n o' = k_n o
     | Gains => k_alpha o' = k_alpha o /\ k_beta o' = k_beta o
     | _ => True
     end.

(** ... StateFollowingDMP, ... *)
Definition same_in_sf (a : attribute) (o o' : sf_dmp) : Prop :=
  same_in_base a (f_base o) (f_base o')
  /\ match a with
     | ExecutionTime => f_execution_time o' = f_execution_time o
     | StepLength => f_dt o' = f_dt o
     | IntegrationStep => f_int_dt o' = f_int_dt o
     | Gains => f_alpha_y o' = f_alpha_y o /\ f_beta_y o' = f_beta_y o
     | WeightCount | Weights | Basis => f_forcing o' = f_forcing o
     | _ => True
     end.

(** ... SpringDamper and SpringDamperOrientation (same attributes), ... *)
Definition same_in_sd (a : attribute) (o o' : spring_damper) : Prop :=
  same_in_base a (s_base o) (s_base o')
  /\ match a with
     | Initialized => s_initialized o' = s_initialized o
     | StepLength => s_dt o' = s_dt o
     | IntegrationStep => s_int_dt o' = s_int_dt o
     | Gains => s_k o' = s_k o /\ s_c o' = s_c o
     | _ => True
     end.

(** ... and MinimumJerkTrajectory. *)
Definition same_in_mjt (a : attribute) (o o' : mjt) : Prop :=
  same_in_base a (j_base o) (j_base o')
  /\ match a with
     | Initialized => j_initialized o' = j_initialized o
     | ExecutionTime => j_execution_time o' = j_execution_time o
     | StepLength => j_dt o' = j_dt o
     | _ => True
     end.

(** Kinds of the calls of M_DmpObject.v and M_FinalVelocity.v. *)
Definition kind (c : call) : operation :=
  match c with
  | CConfigure _ => Configure | CReset => Reset | CStep _ _ _ _ => Step
  | COpenLoop _ _ _ => OpenLoop | CImitate _ _ _ _ _ => Imitate
  | CGetWeights => GetWeights | CSetWeights _ => SetWeights
  | CSetExecutionTime _ _ => SetExecutionTime | CSetDt _ => SetDt | CSetIntDt _ => SetIntDt
  end.
Definition fv_kind (c : fv_call) : operation :=
  match c with
  | FConfigure _ => Configure | FReset => Reset | FStep _ _ _ => Step
  | FOpenLoop _ _ => OpenLoop | FImitate _ _ _ _ => Imitate
  | FGetWeights => GetWeights | FSetWeights _ => SetWeights
  | FSetExecutionTime _ _ => SetExecutionTime | FSetDt _ => SetDt | FSetIntDt _ => SetIntDt
  end.

(** Calls on a CartesianDMP.  [open_loop] and [get_weights] have no effect on the
    object by their types in M_Cartesian.v; [dt_] and [int_dt] are plain attributes
    (_cartesian_dmp.py:241-243). *)
Inductive cart_call :=
| KConfigure (c : configure_args)
| KReset
| KStep (last_y last_yd : arr) (c : cart_coupling) (fn : step_function) (i : impl)
| KImitate (junk_pos junk_rot : vec * vec) (regress : regression) (dm : demo) (lam : R) (allow : bool)
| KSetWeights (w : arr)
| KSetExecutionTime (junk_pos junk_rot : vec * vec) (x : R)
| KSetDt (x : R)
| KSetIntDt (x : R).
Definition cart_exec (c : cart_call) (o : cart) : cart :=
  match c with
  | KConfigure c => fst (cart_configure c o)
  | KReset => cart_reset o
  | KStep y yd c fn i => fst (cart_step y yd c fn i o)
  | KImitate jp jr reg dm lam al => fst (cart_imitate jp jr reg dm lam al o)
  | KSetWeights w => fst (cart_set_weights w o)
  | KSetExecutionTime jp jr x => fst (cart_set_execution_time jp jr x o)
  | KSetDt x => Build_cart (k_base o) (k_execution_time o) x (k_n o) (k_int_dt o) (k_smooth o)
                  (k_fpos o) (k_frot o) (k_alpha o) (k_beta o)
  | KSetIntDt x => Build_cart (k_base o) (k_execution_time o) (k_dt o) (k_n o) x (k_smooth o)
                  (k_fpos o) (k_frot o) (k_alpha o) (k_beta o)
  end.
Definition cart_kind (c : cart_call) : operation :=
  match c with
  | KConfigure _ => Configure | KReset => Reset | KStep _ _ _ _ _ => Step
  | KImitate _ _ _ _ _ _ => Imitate | KSetWeights _ => SetWeights
  | KSetExecutionTime _ _ _ => SetExecutionTime | KSetDt _ => SetDt | KSetIntDt _ => SetIntDt
  end.

(** Calls on a DualCartesianDMP; a coupling term has a state of any type. *)
Inductive dual_call :=
| UConfigure (c : configure_args)
| UReset
| UStep (CS : Type) (last_y last_yd : arr) (ct : option (stateful_coupling CS)) (i : impl) (cs : CS)
| UOpenLoop (CS : Type) (run_t : option R) (ct : option (stateful_coupling CS)) (i : option impl) (cs : CS)
| UImitate (jl jlr jr jrr : vec * vec) (regress : regression) (dm : demo) (lam : R) (allow : bool)
| USetWeights (w : arr)
| USetExecutionTime (junk : vec * vec) (x : R)
| USetDt (x : R)
| USetIntDt (x : R).
Definition dual_exec (c : dual_call) (o : dmp) : dmp :=
  match c with
  | UConfigure c => fst (dmp_configure c o)
  | UReset => dmp_reset o
  | UStep _ y yd ct i cs => fst (fst (dual_step y yd ct i cs o))
  | UOpenLoop _ rt ct i cs => fst (fst (dual_open_loop rt ct i cs o))
  | UImitate a b c d reg dm lam al => fst (dual_imitate a b c d reg dm lam al o)
  | USetWeights w => fst (dual_set_weights w o)
  | USetExecutionTime j x => fst (dmp_set_execution_time j x o)
  | USetDt x => with_dt x o
  | USetIntDt x => with_int_dt x o
  end.
(** [DualCartesianDMP.open_loop] is the exception in the table: it steps the object. *)
Definition dual_changes (c : dual_call) : list attribute :=
  match c with
  | UConfigure _ => changes Configure | UReset => changes Reset | UStep _ _ _ _ _ _ => changes Step
  | UOpenLoop _ _ _ _ _ => changes Step
  | UImitate _ _ _ _ _ _ _ _ => changes Imitate | USetWeights _ => changes SetWeights
  | USetExecutionTime _ _ => changes SetExecutionTime
  | USetDt _ => changes SetDt | USetIntDt _ => changes SetIntDt
  end.

(** A gain argument: a number, a sequence with one number, or one number per
    dimension; and the gains that it denotes. *)
Definition gains_accepted (v : ndarray) (n : nat) : Prop :=
  shape v = [] \/ shape v = [1%nat] \/ shape v = [n].
Definition gains_denoted (v : ndarray) (n : nat) (g : arr) : Prop :=
  alen g = n
  /\ forall d, (d < n)%nat ->
     aget g d = match shape v with [] | [1%nat] => data v 0%nat | _ => data v d end.

(** An object that has not been used: clock at zero, everything at zero. *)
Definition zero_arr (n : nat) (a : arr) : Prop := alen a = n /\ forall i, aget a i = 0.
Definition unused (n_pos n_vel : nat) (p : ptp) : Prop :=
  p_n_dims p = n_pos /\ p_n_vel_dims p = n_vel /\ p_t p = 0 /\ p_last_t p = None
  /\ zero_arr n_pos (p_start_y p) /\ zero_arr n_vel (p_start_yd p) /\ zero_arr n_vel (p_start_ydd p)
  /\ zero_arr n_pos (p_goal_y p) /\ zero_arr n_vel (p_goal_yd p) /\ zero_arr n_vel (p_goal_ydd p)
  /\ zero_arr n_pos (p_current_y p) /\ zero_arr n_vel (p_current_yd p).

(** A new forcing term for movements from time 0 to [x] with [n] weights per
    dimension: all weights zero, phase decaying to 0.01, overlap 0.8. *)
Definition new_forcing_term (n : nat) (x : R) (f : forcing_term) : Prop :=
  ft_n f = n /\ ft_start_t f = 0 /\ ft_goal_t f = x
  /\ exp (- ft_alpha_z f) = 1 / 100 /\ ft_overlap f = 8 / 10
  /\ forall d i, ft_weights f d i = 0.

(** The value assigned last, in a history of calls. *)
Definition last_assigned (sel : call -> option R) (cs : list call) (x : R) : R :=
  fold_left (fun x c => match sel c with Some y => y | None => x end) cs x.
Definition assigns_execution_time (c : call) : option R :=
  match c with CSetExecutionTime _ x => Some x | _ => None end.
Definition assigns_dt (c : call) : option R := match c with CSetDt x => Some x | _ => None end.
Definition assigns_int_dt (c : call) : option R := match c with CSetIntDt x => Some x | _ => None end.
