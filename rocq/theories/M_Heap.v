(** Array identity and aliasing.  The other model files treat arrays as values; here
    arrays are views of buffers in a heap, so that it can be expressed which array a
    method stores, writes to or returns.  The numerical work of the integrators,
    of imitation and of open loop runs is an arbitrary function of the contents of
    the arrays that they read. *)
From Coq Require Import Reals List Arith Bool.
From Verif Require Import M_Prelude.
Import ListNotations.
Open Scope R_scope.

(** A numpy array: [v_len] consecutive elements of a buffer, starting at [v_off].
    Rows [Y[i]] of a C-contiguous two-dimensional array and [ravel()] of one are
    views of this kind. *)
Record view := { v_buf : nat; v_off : nat; v_len : nat }.

(** The buffers [0, ..., h_next - 1] are allocated. *)
Record heap := { h_next : nat; h_data : nat -> nat -> R }.

(** Contents of an array; zero from its length on. *)
Definition read (h : heap) (v : view) : vec :=
  fun i => if Nat.ltb i (v_len v) then h_data h (v_buf v) (v_off v + i) else 0.

(** [v[:] = x]. *)
Definition write (h : heap) (v : view) (x : vec) : heap :=
  {| h_next := h_next h;
     h_data := fun b j => if Nat.eqb b (v_buf v) && Nat.leb (v_off v) j
                             && Nat.ltb j (v_off v + v_len v)
                          then x (j - v_off v)%nat else h_data h b j |}.

(** A new array of length [n] with contents [x], e.g. [np.zeros]. *)
Definition alloc (h : heap) (n : nat) (x : vec) : heap * view :=
  ({| h_next := S (h_next h);
      h_data := fun b j => if Nat.eqb b (h_next h) then x j else h_data h b j |},
   {| v_buf := h_next h; v_off := 0; v_len := n |}).

(** [np.copy(v)]. *)
Definition copy (h : heap) (v : view) : heap * view := alloc h (v_len v) (read h v).

(** Row [i] of an array of shape [(n, d)] whose elements are [v]. *)
Definition row (v : view) (d i : nat) : view :=
  {| v_buf := v_buf v; v_off := v_off v + i * d; v_len := d |}.

(** What a step reads: the arrays of the object, by contents. *)
Record contents := {
  c_start_y : vec; c_start_yd : vec; c_start_ydd : vec;
  c_goal_y : vec; c_goal_yd : vec; c_goal_ydd : vec;
  c_current_y : vec; c_current_yd : vec; c_weights : vec
}.

(** What distinguishes the movement primitives.  [k_integrate last_t t c last_y
    last_yd] is the state after a step. *)
Record klass := {
  k_n : nat;                      (* n_dims *)
  k_nv : nat;                     (* n_vel_dims *)
  k_nw : nat;                     (* number of weights *)
  k_dt : R;
  k_integrate : R -> R -> contents -> vec -> vec -> vec * vec;
  k_lazy_init : bool;             (* the first step copies start to current *)
  k_returns_copies : bool;        (* step returns copies of current *)
  k_reset_copies : bool;          (* reset copies start to current *)
  k_weights_view : bool;          (* get_weights returns a view *)
  k_imitate : nat -> vec -> vec -> vec;  (* n_steps, old weights, Y: new weights *)
  k_imitates_velocities : bool    (* imitate configures the velocities, too *)
}.

(** dmp/_dmp.py:446-505 [DMP]; also dmp/_dmp_with_final_velocity.py:87-140 with
    [imitates_velocities] (dmp/_dmp_with_final_velocity.py:198-213). *)
Definition class_dmp (n nw : nat) dt integrate imitate : klass :=
  {| k_n := n; k_nv := n; k_nw := nw; k_dt := dt; k_integrate := integrate;
     k_lazy_init := true; k_returns_copies := true; k_reset_copies := true;
     k_weights_view := true; k_imitate := imitate; k_imitates_velocities := false |}.
Definition class_dmp_final_velocity (n nw : nat) dt integrate imitate : klass :=
  {| k_n := n; k_nv := n; k_nw := nw; k_dt := dt; k_integrate := integrate;
     k_lazy_init := true; k_returns_copies := true; k_reset_copies := true;
     k_weights_view := true; k_imitate := imitate; k_imitates_velocities := true |}.

(** dmp/_cartesian_dmp.py:262-333 [CartesianDMP]; its weights are two arrays, here
    one; [get_weights] concatenates them to a new array (447-448). *)
Definition class_cartesian (nw : nat) dt integrate imitate : klass :=
  {| k_n := 7; k_nv := 6; k_nw := nw; k_dt := dt; k_integrate := integrate;
     k_lazy_init := true; k_returns_copies := true; k_reset_copies := true;
     k_weights_view := false; k_imitate := imitate; k_imitates_velocities := false |}.

(** dmp/_dual_cartesian_dmp.py:268-323 [DualCartesianDMP]. *)
Definition class_dual (nw : nat) dt integrate imitate : klass :=
  {| k_n := 14; k_nv := 12; k_nw := nw; k_dt := dt; k_integrate := integrate;
     k_lazy_init := true; k_returns_copies := true; k_reset_copies := true;
     k_weights_view := true; k_imitate := imitate; k_imitates_velocities := false |}.

(** spring_damper.py:12-86 [SpringDamper] and 112-186 [SpringDamperOrientation]
    (4 and 3 dimensions); no weights. *)
Definition class_spring (n nv : nat) dt integrate : klass :=
  {| k_n := n; k_nv := nv; k_nw := 0; k_dt := dt; k_integrate := integrate;
     k_lazy_init := true; k_returns_copies := true; k_reset_copies := false;
     k_weights_view := true; k_imitate := fun _ w _ => w; k_imitates_velocities := false |}.

(** dmp/_state_following_dmp.py:8-63 [StateFollowingDMP]. *)
Definition class_state_following (n nw : nat) dt integrate : klass :=
  {| k_n := n; k_nv := n; k_nw := nw; k_dt := dt; k_integrate := integrate;
     k_lazy_init := false; k_returns_copies := false; k_reset_copies := true;
     k_weights_view := true; k_imitate := fun _ w _ => w; k_imitates_velocities := false |}.

(** The attributes of an object. *)
Record hobj := {
  o_t : R; o_last_t : option R; o_initialized : bool;
  o_start_y : view; o_start_yd : view; o_start_ydd : view;
  o_goal_y : view; o_goal_yd : view; o_goal_ydd : view;
  o_current_y : view; o_current_yd : view; o_weights : view
}.

Definition set_time (t : R) (last_t : option R) (o : hobj) : hobj :=
  {| o_t := t; o_last_t := last_t; o_initialized := o_initialized o;
     o_start_y := o_start_y o; o_start_yd := o_start_yd o; o_start_ydd := o_start_ydd o;
     o_goal_y := o_goal_y o; o_goal_yd := o_goal_yd o; o_goal_ydd := o_goal_ydd o;
     o_current_y := o_current_y o; o_current_yd := o_current_yd o; o_weights := o_weights o |}.
Definition set_currents (y yd : view) (init : bool) (o : hobj) : hobj :=
  {| o_t := o_t o; o_last_t := o_last_t o; o_initialized := init;
     o_start_y := o_start_y o; o_start_yd := o_start_yd o; o_start_ydd := o_start_ydd o;
     o_goal_y := o_goal_y o; o_goal_yd := o_goal_yd o; o_goal_ydd := o_goal_ydd o;
     o_current_y := y; o_current_yd := yd; o_weights := o_weights o |}.

Definition contents_of (h : heap) (o : hobj) : contents :=
  {| c_start_y := read h (o_start_y o); c_start_yd := read h (o_start_yd o);
     c_start_ydd := read h (o_start_ydd o); c_goal_y := read h (o_goal_y o);
     c_goal_yd := read h (o_goal_yd o); c_goal_ydd := read h (o_goal_ydd o);
     c_current_y := read h (o_current_y o); c_current_yd := read h (o_current_yd o);
     c_weights := read h (o_weights o) |}.

(** base.py:57-75 [PointToPointMovement.__init__] and the allocation of the weights
    (dmp/_forcing_term.py:36, dmp/_state_following_dmp.py:89). *)
Definition new_obj (k : klass) (h : heap) : heap * hobj :=
  let (h, start_y) := alloc h (k_n k) vzero in
  let (h, start_yd) := alloc h (k_nv k) vzero in
  let (h, start_ydd) := alloc h (k_nv k) vzero in
  let (h, goal_y) := alloc h (k_n k) vzero in
  let (h, goal_yd) := alloc h (k_nv k) vzero in
  let (h, goal_ydd) := alloc h (k_nv k) vzero in
  let (h, current_y) := alloc h (k_n k) vzero in
  let (h, current_yd) := alloc h (k_nv k) vzero in
  let (h, weights) := alloc h (k_nw k) vzero in
  (h, {| o_t := 0; o_last_t := None; o_initialized := false;
         o_start_y := start_y; o_start_yd := start_yd; o_start_ydd := start_ydd;
         o_goal_y := goal_y; o_goal_yd := goal_yd; o_goal_ydd := goal_ydd;
         o_current_y := current_y; o_current_yd := current_yd; o_weights := weights |}).

(** The arguments of [configure]. *)
Record config := {
  f_t : option R;
  f_start_y : option view; f_start_yd : option view; f_start_ydd : option view;
  f_goal_y : option view; f_goal_yd : option view; f_goal_ydd : option view
}.
Definition config_views (c : config) : list view :=
  flat_map (fun x => match x with Some v => [v] | None => [] end)
    [f_start_y c; f_start_yd c; f_start_ydd c; f_goal_y c; f_goal_yd c; f_goal_ydd c].

(** utils.py:4-27 [check_1d_array_length] and the assignment of one attribute in
    base.py:113-130: the array itself is stored.  The second component is [false]
    after a ValueError. *)
Definition assign (n : nat) (arg : option view) (old : view) : view * bool :=
  match arg with
  | None => (old, true)
  | Some v => if Nat.eqb (v_len v) n then (v, true) else (old, false)
  end.

(** base.py:77-130 [configure]: the object after the call, and whether it returned
    normally; the assignments before an error stay. *)
Definition configure (k : klass) (c : config) (o : hobj) : hobj * bool :=
  let t := match f_t c with Some t => t | None => o_t o end in
  let (start_y, ok1) := assign (k_n k) (f_start_y c) (o_start_y o) in
  let (start_yd, ok2) := if ok1 then assign (k_nv k) (f_start_yd c) (o_start_yd o) else (o_start_yd o, false) in
  let (start_ydd, ok3) := if ok2 then assign (k_nv k) (f_start_ydd c) (o_start_ydd o) else (o_start_ydd o, false) in
  let (goal_y, ok4) := if ok3 then assign (k_n k) (f_goal_y c) (o_goal_y o) else (o_goal_y o, false) in
  let (goal_yd, ok5) := if ok4 then assign (k_nv k) (f_goal_yd c) (o_goal_yd o) else (o_goal_yd o, false) in
  let (goal_ydd, ok6) := if ok5 then assign (k_nv k) (f_goal_ydd c) (o_goal_ydd o) else (o_goal_ydd o, false) in
  ({| o_t := t; o_last_t := o_last_t o; o_initialized := o_initialized o;
      o_start_y := start_y; o_start_yd := start_yd; o_start_ydd := start_ydd;
      o_goal_y := goal_y; o_goal_yd := goal_yd; o_goal_ydd := goal_ydd;
      o_current_y := o_current_y o; o_current_yd := o_current_yd o; o_weights := o_weights o |}, ok6).

(** [step] of the classes above.  The integrators update [current_y] and
    [current_yd] in place; simplification: in one write at the end.  The assertions
    on the lengths are those of the DMPs (the spring-dampers fail in the assignment
    to [current_y[:]] after advancing the time). *)
Definition step (k : klass) (last_y last_yd : view) (h : heap) (o : hobj)
    : heap * hobj * option (view * view) :=
  if negb (Nat.eqb (v_len last_y) (k_n k) && Nat.eqb (v_len last_yd) (k_nv k))
  then (h, o, None)
  else
    let last_t := o_t o in
    let t := last_t + k_dt k in
    let o := set_time t (Some last_t) o in
    let '(h, o) :=
      if k_lazy_init k && negb (o_initialized o) then
        let (h, y) := copy h (o_start_y o) in
        let (h, yd) := copy h (o_start_yd o) in
        (h, set_currents y yd true o)
      else (h, o) in
    let (y, yd) := k_integrate k last_t t (contents_of h o) (read h last_y) (read h last_yd) in
    let h := write h (o_current_y o) y in
    let h := write h (o_current_yd o) yd in
    if k_returns_copies k then
      let (h, ry) := copy h (o_current_y o) in
      let (h, ryd) := copy h (o_current_yd o) in
      (h, o, Some (ry, ryd))
    else (h, o, Some (o_current_y o, o_current_yd o)).

(** dmp/_base.py:21-26 [DMPBase.reset], spring_damper.py:43-46,143-146. *)
Definition reset (k : klass) (h : heap) (o : hobj) : heap * hobj :=
  let o := set_time 0 None o in
  if k_reset_copies k then
    let (h, y) := copy h (o_start_y o) in
    let (h, yd) := copy h (o_start_yd o) in
    (h, set_currents y yd (o_initialized o) o)
  else (h, o).

(** dmp/_base.py:36-44, dmp/_cartesian_dmp.py:439-448 [get_weights]. *)
Definition get_weights (k : klass) (h : heap) (o : hobj) : heap * view :=
  if k_weights_view k then (h, o_weights o) else copy h (o_weights o).

(** dmp/_base.py:46-54, dmp/_cartesian_dmp.py:450-462 [set_weights]; [false] when
    [reshape] or the assignment fails. *)
Definition set_weights (k : klass) (w : view) (h : heap) (o : hobj) : heap * bool :=
  if Nat.eqb (v_len w) (k_nw k) then (write h (o_weights o) (read h w), true) else (h, false).

(** [open_loop] (e.g. dmp/_dmp.py:542-550, 806-908): a new array; the object is not
    changed. *)
Definition open_loop (run : contents -> nat * vec) (h : heap) (o : hobj) : heap * view :=
  let (n, y) := run (contents_of h o) in alloc h n y.

(** dmp/_dmp.py:552-594, dmp/_dmp_with_final_velocity.py:173-213,
    dmp/_cartesian_dmp.py:396-437, dmp/_dual_cartesian_dmp.py:369-428 [imitate] for a
    demonstration [Y] of [n > 0] rows: the weights are overwritten in place, and the
    first and the last row of [Y] become start and goal.  The velocities and
    accelerations are rows of new arrays (dmp/_dmp.py:671-689). *)
Definition imitate (k : klass) (n : nat) (Y : view) (velocities : vec) (h : heap) (o : hobj)
    : heap * hobj :=
  let h := write h (o_weights o) (k_imitate k n (read h (o_weights o)) (read h Y)) in
  let start_y := row Y (k_n k) 0 in
  let goal_y := row Y (k_n k) (n - 1) in
  if k_imitates_velocities k then
    let (h, Yd) := alloc h (n * k_nv k) velocities in
    let (h, Ydd) := alloc h (n * k_nv k) velocities in
    (h, fst (configure k
      {| f_t := None; f_start_y := Some start_y; f_start_yd := Some (row Yd (k_nv k) 0);
         f_start_ydd := Some (row Ydd (k_nv k) 0); f_goal_y := Some goal_y;
         f_goal_yd := Some (row Yd (k_nv k) (n - 1)); f_goal_ydd := Some (row Ydd (k_nv k) (n - 1)) |} o))
  else
    (h, fst (configure k
      {| f_t := None; f_start_y := Some start_y; f_start_yd := None; f_start_ydd := None;
         f_goal_y := Some goal_y; f_goal_yd := None; f_goal_ydd := None |} o)).

(** minimum_jerk_trajectory.py:7-63 [MinimumJerkTrajectory]: the trajectory [X], [Xd]
    is computed in the first step ([generate], any function of the contents of start
    and goal that returns the number of rows and the elements); later steps only
    select rows of it and return copies. *)
Record mobj := {
  m_start_y : view; m_goal_y : view; m_traj : option (nat * view * view); m_idx : nat;
  m_current : option (view * view)
}.

Definition min_jerk_step (n : nat) (generate : vec -> vec -> nat * vec * vec) (h : heap) (o : mobj)
    : heap * mobj * option (view * view) :=
  let '(h, (rows, X, Xd)) :=
    match m_traj o with
    | Some tr => (h, tr)
    | None =>
        let '(rows, x, xd) := generate (read h (m_start_y o)) (read h (m_goal_y o)) in
        let (h, X) := alloc h (rows * n) x in
        let (h, Xd) := alloc h (rows * n) xd in
        (h, (rows, X, Xd))
    end in
  let o := {| m_start_y := m_start_y o; m_goal_y := m_goal_y o; m_traj := Some (rows, X, Xd);
              m_idx := m_idx o; m_current := m_current o |} in
  if Nat.ltb (m_idx o) rows then
    let y := row X n (m_idx o) in let yd := row Xd n (m_idx o) in       (* 59-60 *)
    let (h, ry) := copy h y in                                          (* 63 *)
    let (h, ryd) := copy h yd in
    (h, {| m_start_y := m_start_y o; m_goal_y := m_goal_y o; m_traj := m_traj o;
           m_idx := S (m_idx o); m_current := Some (y, yd) |}, Some (ry, ryd))
  else (h, o, None).
