(** The classes that io.py stores, as it sees them: the attributes of the objects modelled in
    the other files and the constructors called when a file is read.

    Numbers are stored as Python floats, counts as integers.  The constructors accept any
    number where they expect a float (a Python integer would stay an integer). *)
From Coq Require Import Reals ZArith List String Arith Bool.
From Verif Require Import M_Prelude M_Canonical M_Forcing M_Dmp M_Base M_DmpObject M_FinalVelocity
  M_StateFollowing M_SpringDamper M_MinJerk M_Quaternion M_Cartesian M_Dual M_Matrix M_ProMP M_IO.
Import ListNotations.
Local Open Scope string_scope.
Local Open Scope R_scope.

(** ** Attributes *)
Definition vnat (n : nat) : value := VInt (Z.of_nat n).
Definition vlast (x : option R) : value := match x with Some x => VFloat x | None => VNone end.
Definition varr (n : nat) (a : vec) : value :=
  VArray {| nd_shape := [n]; nd_flat := map (fun i => NFloat (a i)) (seq 0 n) |}.
Definition vmat (n m : nat) (w : nat -> nat -> R) : value :=
  VArray {| nd_shape := [n; m];
            nd_flat := map (fun i => NFloat (w (i / m)%nat (i mod m)%nat)) (seq 0 (n * m)) |}.

(** base.py:60-75. *)
Definition ptp_attrs (p : ptp) : dict :=
  [("n_dims", vnat (p_n_dims p)); ("n_vel_dims", vnat (p_n_vel_dims p));
   ("t", VFloat (p_t p)); ("last_t", vlast (p_last_t p));
   ("start_y", varr (alen (p_start_y p)) (aget (p_start_y p)));
   ("start_yd", varr (alen (p_start_yd p)) (aget (p_start_yd p)));
   ("start_ydd", varr (alen (p_start_ydd p)) (aget (p_start_ydd p)));
   ("goal_y", varr (alen (p_goal_y p)) (aget (p_goal_y p)));
   ("goal_yd", varr (alen (p_goal_yd p)) (aget (p_goal_yd p)));
   ("goal_ydd", varr (alen (p_goal_ydd p)) (aget (p_goal_ydd p)));
   ("current_y", varr (alen (p_current_y p)) (aget (p_current_y p)));
   ("current_yd", varr (alen (p_current_yd p)) (aget (p_current_yd p)))].

(** dmp/_forcing_term.py:41-73. *)
Definition forcing_term_object (n_dims : nat) (f : forcing_term) : value :=
  VObj "movement_primitives.dmp._forcing_term" "ForcingTerm"
    [("n_weights_per_dim", vnat (ft_n f)); ("goal_t", VFloat (ft_goal_t f));
     ("start_t", VFloat (ft_start_t f)); ("overlap", VFloat (ft_overlap f));
     ("alpha_z", VFloat (ft_alpha_z f)); ("log_overlap", VFloat (- ln (ft_overlap f)));
     ("execution_time", VFloat (ft_goal_t f - ft_start_t f));
     ("weights_", vmat n_dims (ft_n f) (ft_weights f));
     ("centers", varr (ft_n f) (ft_centers f)); ("widths", varr (ft_n f) (ft_widths f))].

(** dmp/_dmp.py:416-427, dmp/_dmp_with_final_velocity.py:64-75 and
    dmp/_dual_cartesian_dmp.py:239-250 assign the same attributes in the same order;
    [initialized] is assigned by dmp/_base.py:19.  [rows] is the number of rows of the
    weights, [tau] how Python represents the execution time. *)
Definition dmp_attrs (tau : R -> value) (rows : nat) (o : dmp) : dict :=
  (ptp_attrs (o_base o) ++
   [("initialized", VBool (o_initialized o)); ("_execution_time", tau (o_execution_time o));
    ("dt_", VFloat (o_dt o)); ("n_weights_per_dim", vnat (o_n_weights_per_dim o));
    ("int_dt", VFloat (o_int_dt o)); ("p_gain", VFloat (o_p_gain o));
    ("smooth_scaling", VBool (o_smooth_scaling o));
    ("forcing_term", forcing_term_object rows (o_forcing_term o));
    ("alpha_y", varr (alen (o_alpha_y o)) (aget (o_alpha_y o)));
    ("beta_y", varr (alen (o_beta_y o)) (aget (o_beta_y o)))])%list.

(** ** Constructor arguments *)
(** [def f(..., name=default)]: [None] as default means that the argument is required. *)
Definition arg {A} (of_value : value -> res A) (default : option A) (name : string) (kw : dict) : res A :=
  match dget name kw, default with
  | Some v, _ => of_value v
  | None, Some x => Ok x
  | None, None => Err TypeError
  end.
Definition real_of (v : value) : res R :=
  match v with VInt z => Ok (IZR z) | VFloat x | VNpFloat x => Ok x | _ => Err TypeError end.
Definition nat_of (v : value) : res nat :=
  match v with
  | VInt z => if Z.ltb z 0 then Err ValueError else Ok (Z.to_nat z)
  | _ => Err TypeError
  end.
Definition bool_of (v : value) : res bool :=
  match v with VBool b => Ok b | _ => Err TypeError end.
Definition real_of_num (x : num) : R := match x with NInt z => IZR z | NFloat x => x end.
(** [np.asarray] (utils.py:55). *)
Definition asarray (v : value) : res ndarray :=
  bind (np_array v) (fun a => Ok {| shape := nd_shape a; data := fun i => nth i (map real_of_num (nd_flat a)) 0 |}).
Definition scalar (x : R) : ndarray := {| shape := []; data := fun _ => x |}.

(** dmp/_dmp.py:413-427. *)
Definition class_DMP (junk : vec * vec) : pyclass :=
  {| c_args := ["n_dims"; "execution_time"; "dt"; "n_weights_per_dim"; "int_dt"; "p_gain";
                "smooth_scaling"; "alpha_y"; "beta_y"];
     c_new := fun kw =>
       bind (arg nat_of None "n_dims" kw) (fun n_dims =>
       bind (arg real_of (Some 1) "execution_time" kw) (fun execution_time =>
       bind (arg real_of (Some (1 / 100)) "dt" kw) (fun dt =>
       bind (arg nat_of (Some 10%nat) "n_weights_per_dim" kw) (fun n_weights =>
       bind (arg real_of (Some (1 / 1000)) "int_dt" kw) (fun int_dt =>
       bind (arg real_of (Some 0) "p_gain" kw) (fun p_gain =>
       bind (arg bool_of (Some false) "smooth_scaling" kw) (fun smooth_scaling =>
       bind (arg asarray (Some (scalar 25)) "alpha_y" kw) (fun alpha_y =>
       bind (arg asarray (Some (scalar (25 / 4))) "beta_y" kw) (fun beta_y =>
       bind (dmp_new junk n_dims execution_time dt n_weights int_dt p_gain smooth_scaling alpha_y beta_y)
       (fun o => Ok (dmp_attrs VFloat n_dims o))))))))))) |}.

(** dmp/_dmp_with_final_velocity.py:61-75. *)
Definition class_DMPWithFinalVelocity (junk : vec * vec) : pyclass :=
  {| c_args := ["n_dims"; "execution_time"; "dt"; "n_weights_per_dim"; "int_dt"; "p_gain";
                "alpha_y"; "beta_y"];
     c_new := fun kw =>
       bind (arg nat_of None "n_dims" kw) (fun n_dims =>
       bind (arg real_of (Some 1) "execution_time" kw) (fun execution_time =>
       bind (arg real_of (Some (1 / 100)) "dt" kw) (fun dt =>
       bind (arg nat_of (Some 10%nat) "n_weights_per_dim" kw) (fun n_weights =>
       bind (arg real_of (Some (1 / 1000)) "int_dt" kw) (fun int_dt =>
       bind (arg real_of (Some 0) "p_gain" kw) (fun p_gain =>
       bind (arg asarray (Some (scalar 25)) "alpha_y" kw) (fun alpha_y =>
       bind (arg asarray (Some (scalar (25 / 4))) "beta_y" kw) (fun beta_y =>
       bind (fv_new junk n_dims execution_time dt n_weights int_dt p_gain alpha_y beta_y)
       (fun o => Ok (dmp_attrs VFloat n_dims o)))))))))) |}.

(** dmp/_dual_cartesian_dmp.py:237-250. *)
Definition class_DualCartesianDMP (junk : vec * vec) : pyclass :=
  {| c_args := ["execution_time"; "dt"; "n_weights_per_dim"; "int_dt"; "p_gain"; "smooth_scaling";
                "alpha_y"; "beta_y"];
     c_new := fun kw =>
       bind (arg real_of (Some 1) "execution_time" kw) (fun execution_time =>
       bind (arg real_of (Some (1 / 100)) "dt" kw) (fun dt =>
       bind (arg nat_of (Some 10%nat) "n_weights_per_dim" kw) (fun n_weights =>
       bind (arg real_of (Some (1 / 1000)) "int_dt" kw) (fun int_dt =>
       bind (arg real_of (Some 0) "p_gain" kw) (fun p_gain =>
       bind (arg bool_of (Some false) "smooth_scaling" kw) (fun smooth_scaling =>
       bind (arg asarray (Some (scalar 25)) "alpha_y" kw) (fun alpha_y =>
       bind (arg asarray (Some (scalar (25 / 4))) "beta_y" kw) (fun beta_y =>
       bind (dual_new junk execution_time dt n_weights int_dt p_gain smooth_scaling alpha_y beta_y)
       (fun o => Ok (dmp_attrs VFloat 12 o)))))))))) |}.

(** dmp/_cartesian_dmp.py:237-247; [initialized] is modelled as absent in M_Cartesian (the
    step method does not read it before it is set), here it is an argument. *)
Definition cart_attrs (initialized : bool) (o : cart) : dict :=
  (ptp_attrs (k_base o) ++
   [("initialized", VBool initialized); ("_execution_time", VFloat (k_execution_time o));
    ("dt_", VFloat (k_dt o)); ("n_weights_per_dim", vnat (k_n o)); ("int_dt", VFloat (k_int_dt o));
    ("smooth_scaling", VBool (k_smooth o));
    ("forcing_term_pos", forcing_term_object 3 (k_fpos o));
    ("forcing_term_rot", forcing_term_object 3 (k_frot o));
    ("alpha_y", varr (alen (k_alpha o)) (aget (k_alpha o)));
    ("beta_y", varr (alen (k_beta o)) (aget (k_beta o)))])%list.

(** dmp/_cartesian_dmp.py:234-247. *)
Definition class_CartesianDMP (junk_pos junk_rot : vec * vec) : pyclass :=
  {| c_args := ["execution_time"; "dt"; "n_weights_per_dim"; "int_dt"; "smooth_scaling"; "alpha_y"; "beta_y"];
     c_new := fun kw =>
       bind (arg real_of (Some 1) "execution_time" kw) (fun execution_time =>
       bind (arg real_of (Some (1 / 100)) "dt" kw) (fun dt =>
       bind (arg nat_of (Some 10%nat) "n_weights_per_dim" kw) (fun n_weights =>
       bind (arg real_of (Some (1 / 1000)) "int_dt" kw) (fun int_dt =>
       bind (arg bool_of (Some false) "smooth_scaling" kw) (fun smooth_scaling =>
       bind (arg asarray (Some (scalar 25)) "alpha_y" kw) (fun alpha_y =>
       bind (arg asarray (Some (scalar (25 / 4))) "beta_y" kw) (fun beta_y =>
       bind (cart_new junk_pos junk_rot execution_time dt n_weights int_dt smooth_scaling alpha_y beta_y)
       (fun o => Ok (cart_attrs false o))))))))) |}.

(** dmp/_state_following_dmp.py:31-43 and 81-114. *)
Definition sf_forcing_object (n_dims : nat) (f : sf_forcing) : value :=
  VObj "movement_primitives.dmp._state_following_dmp" "StateFollowingForcingTerm"
    [("n_viapoints", vnat (sf_n f)); ("goal_t", VFloat (sf_goal_t f));
     ("start_t", VFloat (sf_start_t f)); ("overlap", VFloat (sf_overlap f));
     ("alpha_z", VFloat (sf_alpha_z f));
     ("viapoints", vmat (sf_n f) n_dims (sf_viapoints f));
     ("log_overlap", VFloat (- ln (sf_overlap f)));
     ("execution_time", VFloat (sf_goal_t f - sf_start_t f));
     ("centers", varr (sf_n f) (sf_centers f)); ("widths", varr (sf_n f) (sf_widths f))].
Definition sf_attrs (initialized : bool) (o : sf_dmp) : dict :=
  (ptp_attrs (f_base o) ++
   [("initialized", VBool initialized); ("execution_time", VFloat (f_execution_time o));
    ("dt_", VFloat (f_dt o)); ("n_viapoints", vnat (sf_n (f_forcing o)));
    ("int_dt", VFloat (f_int_dt o));
    ("alpha_y", varr (alen (f_alpha_y o)) (aget (f_alpha_y o)));
    ("beta_y", varr (alen (f_beta_y o)) (aget (f_beta_y o)));
    ("forcing_term", sf_forcing_object (p_n_dims (f_base o)) (f_forcing o))])%list.

(** dmp/_state_following_dmp.py:28-43. *)
Definition class_StateFollowingDMP (junk : vec * vec) : pyclass :=
  {| c_args := ["n_dims"; "execution_time"; "dt"; "n_viapoints"; "int_dt"; "alpha_y"; "beta_y"];
     c_new := fun kw =>
       bind (arg nat_of None "n_dims" kw) (fun n_dims =>
       bind (arg real_of None "execution_time" kw) (fun execution_time =>
       bind (arg real_of (Some (1 / 100)) "dt" kw) (fun dt =>
       bind (arg nat_of (Some 10%nat) "n_viapoints" kw) (fun n_viapoints =>
       bind (arg real_of (Some (1 / 1000)) "int_dt" kw) (fun int_dt =>
       bind (arg asarray (Some (scalar 25)) "alpha_y" kw) (fun alpha_y =>
       bind (arg asarray (Some (scalar (25 / 4))) "beta_y" kw) (fun beta_y =>
       bind (sf_new junk n_dims execution_time dt n_viapoints int_dt alpha_y beta_y)
       (fun o => Ok (sf_attrs false o))))))))) |}.

(** promp.py:54-63.  [variance] is created by [imitate] (339, 588-602), which leaves a scalar
    computed by numpy in it. *)
Definition promp_attrs (variance : option R) (o : promp) : dict :=
  ([("n_dims", vnat (pm_n_dims o)); ("n_weights_per_dim", vnat (pm_n_weights_per_dim o));
    ("n_weights", vnat (pm_n_weights o));
    ("weight_mean", varr (pm_n_weights o) (pm_weight_mean o));
    ("weight_cov", vmat (pm_n_weights o) (pm_n_weights o) (pm_weight_cov o));
    ("centers", varr (pm_n_weights_per_dim o) (pm_centers o))]
   ++ match variance with Some x => [("variance", VNpFloat x)] | None => [] end)%list.
Definition class_ProMP : pyclass :=
  {| c_args := ["n_dims"; "n_weights_per_dim"];
     c_new := fun kw =>
       bind (arg nat_of None "n_dims" kw) (fun n_dims =>
       bind (arg nat_of (Some 10%nat) "n_weights_per_dim" kw) (fun n_weights =>
       Ok (promp_attrs None (promp_new n_dims n_weights)))) |}.

(** spring_damper.py:33-42.  The constructor stores [k] and [c] as they are passed (floats or
    arrays, None for [c]); they are given as values. *)
Definition sd_attrs (k c : value) (o : spring_damper) : dict :=
  (ptp_attrs (s_base o) ++
   [("dt", VFloat (s_dt o)); ("k", k); ("c", c);
    ("int_dt", VFloat (s_int_dt o)); ("initialized", VBool (s_initialized o))])%list.
Definition any_value (v : value) : res value := Ok v.
Definition class_SpringDamper : pyclass :=
  {| c_args := ["n_dims"; "dt"; "k"; "c"; "int_dt"];
     c_new := fun kw =>
       bind (arg nat_of None "n_dims" kw) (fun n_dims =>
       bind (arg real_of (Some (1 / 100)) "dt" kw) (fun dt =>
       bind (arg any_value (Some (VFloat 1)) "k" kw) (fun k =>
       bind (arg any_value (Some VNone) "c" kw) (fun c =>
       bind (arg real_of (Some (1 / 1000)) "int_dt" kw) (fun int_dt =>
       Ok (sd_attrs k c (sd_new n_dims dt 0 None int_dt))))))) |}.

(** minimum_jerk_trajectory.py:21-28; [X] and [Xd] are None or, after the first step (55-56),
    arrays with one row per sample. *)
Definition mjt_attrs (o : mjt) : dict :=
  let samples f := match j_X o with
                   | None => VNone
                   | Some l => vmat (List.length l) (p_n_dims (j_base o))
                                 (fun i d => nth i (map (fun s => f s d) l) 0)
                   end in
  (ptp_attrs (j_base o) ++
   [("X", samples (fun s : sample => fst (fst s))); ("Xd", samples (fun s => snd (fst s)));
    ("execution_time", VFloat (j_execution_time o)); ("dt", VFloat (j_dt o));
    ("step_idx", vnat (j_step_idx o)); ("initialized", VBool (j_initialized o))])%list.
Definition class_MinimumJerkTrajectory : pyclass :=
  {| c_args := ["n_dims"; "execution_time"; "dt"];
     c_new := fun kw =>
       bind (arg nat_of None "n_dims" kw) (fun n_dims =>
       bind (arg real_of None "execution_time" kw) (fun execution_time =>
       bind (arg real_of (Some (1 / 100)) "dt" kw) (fun dt =>
       Ok (mjt_attrs (mjt_new n_dims execution_time dt))))) |}.

(** dmp/_forcing_term.py:37-49: no argument has a default; the number of dimensions is not
    an attribute. *)
Definition class_ForcingTerm (junk : vec * vec) : pyclass :=
  {| c_args := ["n_dims"; "n_weights_per_dim"; "goal_t"; "start_t"; "overlap"; "alpha_z"];
     c_new := fun kw =>
       bind (arg nat_of None "n_dims" kw) (fun n_dims =>
       bind (arg nat_of None "n_weights_per_dim" kw) (fun n_weights =>
       bind (arg real_of None "goal_t" kw) (fun goal_t =>
       bind (arg real_of None "start_t" kw) (fun start_t =>
       bind (arg real_of None "overlap" kw) (fun overlap =>
       bind (arg real_of None "alpha_z" kw) (fun alpha_z =>
       bind (forcing_term_init (fst junk) (snd junk) n_weights goal_t start_t overlap alpha_z)
       (fun f => match forcing_term_object n_dims f with VObj _ _ d => Ok d | _ => Err TypeError end))))))) |}.
