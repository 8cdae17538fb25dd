(** Model of plot.py and visualization.py: which commands reach which panels of a figure.
    Matplotlib and Open3D draw; here the commands are collected in a list. *)
From Coq Require Import Reals ZArith List String Arith Bool.
From Verif Require Import M_Prelude.
Import ListNotations.
Local Open Scope nat_scope.

(** ** matplotlib *)

(** An Axes object of the current figure.  [plt.subplot(h, w, k)] returns the axes at
    position [k] of a grid with [h] rows and [w] columns, counted from 1 along the rows;
    the same arguments give the same axes, other positions raise ValueError. *)
Record axes := { ax_h : nat; ax_w : nat; ax_k : nat }.
Definition subplot (h w k : nat) : res axes :=
  if (1 <=? h) && (1 <=? w) && (1 <=? k) && (k <=? h * w)
  then Ok {| ax_h := h; ax_w := w; ax_k := k |} else Err ValueError.

(** Commands to one axes object. *)
Inductive command :=
| Line (xs ys : list R) (label color : option string) (dashed : bool)
| Band (xs lower upper : list R) (label color : option string) (alpha : R)
| Title (s : string)
| XLabel (s : string)
| NoXTicks
| XLim (lo hi : R).
Notation log A := (list (A * command)).

(** What has been drawn, and the result or exception. *)
Notation drawing A B := (log A * res B)%type.
Definition ret {A B} (b : B) : drawing A B := ([], Ok b).
Definition raise {A B} (e : exn) : drawing A B := ([], Err e).
Definition dbind {A B C} (x : drawing A B) (f : B -> drawing A C) : drawing A C :=
  match snd x with
  | Ok b => (fst x ++ fst (f b), snd (f b))
  | Err e => (fst x, Err e)
  end.
Definition issue {A} (a : A) (c : command) : drawing A unit := ([(a, c)], Ok tt).

(** [ax.plot(x, y, ...)]: x and y must have the same length. *)
Definition ax_plot {A} (a : A) (xs ys : list R) label color dashed : drawing A unit :=
  if List.length xs =? List.length ys then issue a (Line xs ys label color dashed) else raise ValueError.

(** [ax.plot(x, y, fmt, ...)] with a format string; matplotlib raises ValueError when it is None. *)
Definition ax_plot_fmt {A} (a : A) (xs ys : list R) (fmt : option string) label : drawing A unit :=
  match fmt with
  | None => raise ValueError
  | Some _ => ax_plot a xs ys label fmt true
  end.

(** [ax.fill_between(x, y1, y2, ...)]. *)
Definition ax_fill_between {A} (a : A) (xs lo hi : list R) label color alpha : drawing A unit :=
  if (List.length xs =? List.length lo) && (List.length xs =? List.length hi)
  then issue a (Band xs lo hi label color alpha) else raise ValueError.

(** [l[i]] on a list. *)
Definition item {A B} (l : list A) (i : nat) : drawing B A :=
  match nth_error l i with Some a => ret a | None => raise IndexError end.

(** [for i in range(n)]. *)
Fixpoint for_range {A} (n : nat) (body : nat -> drawing A unit) : drawing A unit :=
  match n with
  | O => ret tt
  | S n => dbind (for_range n body) (fun _ => body n)
  end.

(** [for f_idx, f in enumerate(l)]. *)
Fixpoint for_each {A B} (l : list B) (k : nat) (body : nat -> B -> drawing A unit) : drawing A unit :=
  match l with
  | [] => ret tt
  | x :: l => dbind (body k x) (fun _ => for_each l (S k) body)
  end.

(** ** plot.py *)

(** A 2-D array. *)
Record table := { rows : nat; cols : nat; cell : nat -> nat -> R }.
(** [a[:, i]] *)
Definition column {A} (a : table) (i : nat) : drawing A (list R) :=
  if i <? cols a then ret (map (fun t => cell a t i) (seq 0 (rows a))) else raise IndexError.

(** plot.py:192-195: the position of dimension [i]. *)
Definition dim_index (h w : nat) (transpose : bool) (i : nat) : nat :=
  if transpose then (i mod h) * w + i / h else i.

(** plot.py:172-196 [create_axes]. *)
Definition create_axes (n_dims : nat) (subplot_shape : nat * nat) (transpose : bool) : res (list axes) :=
  let '(h, w) := subplot_shape in                                              (* 191 *)
  if transpose && (h =? 0) && (1 <=? n_dims) then Err ZeroDivisionError        (* 193 *)
  else (fix go (l : list nat) : res (list axes) :=
          match l with
          | [] => Ok []
          | i :: l => bind (subplot h w (1 + dim_index h w transpose i)) (fun a => bind (go l) (fun l => Ok (a :: l)))
          end) (seq 0 n_dims).                                                 (* 196 *)

(** "Dimension #%d" *)
Fixpoint decimal (fuel n : nat) : string :=
  match fuel with
  | O => EmptyString
  | S fuel =>
      let d := String (Ascii.ascii_of_nat (48 + n mod 10)) EmptyString in
      if n <? 10 then d else String.append (decimal fuel (n / 10)) d
  end.
Definition default_title (i : nat) : string := String.append "Dimension #" (decimal (S i) i).

(** plot.py:199-215 [layout_axes] (without [plt.tight_layout]).  Line 208 subtracts
    integers: the difference can be negative. *)
Definition layout_axes {A} (axs : list A) (n_dims : nat) (subplot_shape : nat * nat) (xlabel : string)
    (xlim : R * R) (transpose : bool) (axis_titles : list string) : drawing A unit :=
  let '(h, w) := subplot_shape in
  for_range n_dims (fun i =>                                                   (* 201 *)
    let title := match nth_error axis_titles i with                            (* 202-205 *)
                 | Some s => s
                 | None => default_title i
                 end in
    dbind (item axs i) (fun a =>
    dbind (issue a (Title title)) (fun _ =>                                    (* 206 *)
    let left := (Z.of_nat (h * w) - Z.of_nat i)%Z in
    dbind (if negb transpose && ((1 <=? left)%Z && (left <=? Z.of_nat w)%Z)    (* 208 *)
           then issue a (XLabel xlabel)                                        (* 210 *)
           else if transpose && (h =? 0) then raise ZeroDivisionError          (* 211 *)
           else if transpose && (i mod h =? h - 1) then issue a (XLabel xlabel) (* 212 *)
           else issue a NoXTicks)                                              (* 214 *)
    (fun _ => issue a (XLim (fst xlim) (snd xlim)))))).                        (* 215 *)

(** [range(n)] as numbers. *)
Definition steps (n : nat) : list R := map INR (seq 0 n).

(** [(t[0], t[-1])] *)
Definition ends {A} (t : list R) : drawing A (R * R) :=
  match t with
  | [] => raise IndexError
  | x :: _ => ret (x, last t x)
  end.

(** plot.py:15-78 [plot_trajectory_in_rows]; of **kwargs only the colour is kept. *)
Definition plot_trajectory_in_rows (trajectory : table) (t : option (list R)) (label : option string)
    (axs : option (list axes)) (subplot_shape : option (nat * nat)) (transpose : bool)
    (axis_titles : list string) (color : option string) : drawing axes (list axes) :=
  let n_steps := rows trajectory in
  let n_dims := cols trajectory in                                             (* 56 *)
  let shape := match subplot_shape with Some s => s | None => (n_dims, 1) end in (* 58-59 *)
  let newaxes := match axs with None => true | Some _ => false end in          (* 61 *)
  let made := match axs with
              | None => create_axes n_dims shape transpose                     (* 63 *)
              | Some l => Ok l
              end in
  dbind ([], made) (fun l =>
  let xlabel := match t with Some _ => "Time [s]"%string | None => "Step"%string end in
  let xs := match t with Some ts => ts | None => steps n_steps end in          (* 65-69 *)
  dbind (for_range n_dims (fun i =>                                            (* 71 *)
    dbind (item l i) (fun a => dbind (column trajectory i) (fun ys =>
    ax_plot a xs ys label color false)))) (fun _ =>                            (* 72 *)
  dbind (if newaxes                                                            (* 74 *)
         then dbind (ends xs) (fun lim => layout_axes l n_dims shape xlabel lim transpose axis_titles)
         else ret tt)
  (fun _ => ret l))).                                                          (* 78 *)

(** [mean[:, i] + s * f * std_dev[:, i]]: both columns must have the same length (numpy
    would also broadcast a single row; that is not modelled). *)
Definition offset {A} (s : R) (f : R) (m d : list R) : drawing A (list R) :=
  if List.length m =? List.length d
  then ret (map (fun p => (fst p + s * (f * snd p))%R) (combine m d)) else raise ValueError.

(** plot.py:81-169 [plot_distribution_in_rows]; of **kwargs only colour and alpha are kept. *)
Definition plot_distribution_in_rows (mean std_dev : table) (t : option (list R)) (label : option string)
    (axs : option (list axes)) (std_factors : list R) (fill_between : bool)
    (subplot_shape : option (nat * nat)) (transpose : bool) (axis_titles : list string)
    (color : option string) (alpha : option R) : drawing axes (list axes) :=
  let n_steps := rows mean in
  let n_dims := cols mean in                                                   (* 134 *)
  let shape := match subplot_shape with Some s => s | None => (n_dims, 1) end in (* 136-137 *)
  let newaxes := match axs with None => true | Some _ => false end in          (* 139 *)
  let made := match axs with
              | None => create_axes n_dims shape transpose                     (* 141 *)
              | Some l => Ok l
              end in
  dbind ([], made) (fun l =>
  let xlabel := match t with None => "Step"%string | Some _ => "Time [s]"%string end in
  let xs := match t with None => steps n_steps | Some ts => ts end in          (* 143-147 *)
  let al := match alpha with Some a => a | None => (1/10)%R end in             (* 150 *)
  dbind (for_range n_dims (fun i =>                                            (* 152 *)
    dbind (item l i) (fun a => dbind (column mean i) (fun m =>
    dbind (ax_plot a xs m None color false) (fun _ =>                          (* 153 *)
    for_each std_factors 0 (fun f_idx f =>                                     (* 154 *)
      let lab := if f_idx =? 0 then label else None in
      dbind (column std_dev i) (fun d =>
      dbind (offset (-1) f m d) (fun lo =>
      dbind (if fill_between                                                   (* 155 *)
             then dbind (offset 1 f m d) (fun hi => ax_fill_between a xs lo hi lab color al) (* 156-159 *)
             else dbind (ax_plot_fmt a xs lo color lab) (fun _ =>              (* 161-162 *)
                  dbind (offset 1 f m d) (fun hi => ax_plot_fmt a xs hi color None))) (* 163 *)
      (fun _ => ret tt)))))))))
  (fun _ =>
  dbind (if newaxes                                                            (* 165 *)
         then dbind (ends xs) (fun lim => layout_axes l n_dims shape xlabel lim transpose axis_titles)
         else ret tt)
  (fun _ => ret l))).                                                          (* 169 *)

(** ** visualization.py *)

(** Open3D: a point cloud; [uniform_down_sample(k)] keeps the points 0, k, 2k, ... *)
Record point_cloud := { pc_points : list (R * R * R); pc_colors : list (R * R * R) }.
Fixpoint every_from {A} (k skip : nat) (l : list A) : list A :=
  match l with
  | [] => []
  | x :: l => match skip with
              | O => x :: every_from k (k - 1) l
              | S skip => every_from k skip l
              end
  end.
Definition uniform_down_sample (k : nat) (p : point_cloud) : point_cloud :=
  {| pc_points := every_from k 0 (pc_points p); pc_colors := every_from k 0 (pc_colors p) |}.

(** visualization.py:13-43 [plot_pointcloud]: the figure is the list of its geometries. *)
Definition plot_pointcloud (fig : list point_cloud) (pcl_points : list (R * R * R)) (color : R * R * R)
    (k : Z) : list point_cloud * point_cloud :=
  let pcl := {| pc_points := pcl_points;                                       (* 35-36 *)
                pc_colors := map (fun _ => color) (seq 0 (List.length pcl_points)) |} in (* 37-39 *)
  let pcl := if (1 <? k)%Z then uniform_down_sample (Z.to_nat k) pcl else pcl in (* 40-41 *)
  (fig ++ [pcl], pcl).                                                         (* 42-43 *)

(** visualization.py:46-68 [ToggleGeometry]: the flag of the object and whether the
    visualizer shows the geometry (adding a geometry that is shown, or removing one that
    is not, changes nothing).  An event of the key is a press, a repetition or a release;
    the callback only looks at the modifier. *)
Record toggle := { tg_show : bool; tg_visible : bool }.
Definition toggle_call (s : toggle) (modifier : bool) : toggle * bool :=
  let show := negb (tg_show s) in                                              (* 63 *)
  let visible :=
    if show && modifier then false                                             (* 64-65 *)
    else if negb show && negb modifier then true                               (* 66-67 *)
    else tg_visible s in
  ({| tg_show := show; tg_visible := visible |}, true).                        (* 68 *)
(** 57-60, for a geometry that has been added to the figure. *)
Definition toggle_new : toggle := {| tg_show := true; tg_visible := true |}.
Definition toggle_run (s : toggle) (events : list bool) : toggle :=
  fold_left (fun s m => fst (toggle_call s m)) events s.
