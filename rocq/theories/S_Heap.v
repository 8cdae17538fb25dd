(** Specification of the programs that use a movement primitive: the caller owns
    arrays, passes them to methods and receives arrays. *)
From Coq Require Import Reals List Arith Bool.
From Verif Require Import M_Prelude M_Heap.
Import ListNotations.
Open Scope R_scope.

(** The heap, the object, and the buffers of the arrays that the caller holds: those
    that the caller made and those returned by [step], [open_loop] and, if it is not a
    view, [get_weights]. *)
Record world := { w_heap : heap; w_obj : hobj; w_caller : list nat }.

Definition of_caller (w : world) (v : view) : Prop :=
  In (v_buf v) (w_caller w) /\ (v_buf v < h_next (w_heap w))%nat.

(** A method call with arrays of the caller. *)
Inductive call (k : klass) : world -> world -> Prop :=
| call_configure w c o' ok :
    Forall (of_caller w) (config_views c) ->
    configure k c (w_obj w) = (o', ok) ->
    call k w {| w_heap := w_heap w; w_obj := o'; w_caller := w_caller w |}
| call_step w last_y last_yd h' o' y yd :
    of_caller w last_y -> of_caller w last_yd ->
    step k last_y last_yd (w_heap w) (w_obj w) = (h', o', Some (y, yd)) ->
    call k w {| w_heap := h'; w_obj := o'; w_caller := v_buf y :: v_buf yd :: w_caller w |}
| call_step_fails w last_y last_yd h' o' :
    of_caller w last_y -> of_caller w last_yd ->
    step k last_y last_yd (w_heap w) (w_obj w) = (h', o', None) ->
    call k w {| w_heap := h'; w_obj := o'; w_caller := w_caller w |}
| call_reset w h' o' :
    reset k (w_heap w) (w_obj w) = (h', o') ->
    call k w {| w_heap := h'; w_obj := o'; w_caller := w_caller w |}
| call_get_weights w h' v :
    get_weights k (w_heap w) (w_obj w) = (h', v) ->
    call k w {| w_heap := h'; w_obj := w_obj w;
                w_caller := if k_weights_view k then w_caller w else v_buf v :: w_caller w |}
| call_set_weights w v h' ok :
    of_caller w v -> set_weights k v (w_heap w) (w_obj w) = (h', ok) ->
    call k w {| w_heap := h'; w_obj := w_obj w; w_caller := w_caller w |}
| call_open_loop w run h' v :
    open_loop run (w_heap w) (w_obj w) = (h', v) ->
    call k w {| w_heap := h'; w_obj := w_obj w; w_caller := v_buf v :: w_caller w |}
| call_imitate w n Y velocities h' o' :
    of_caller w Y ->
    imitate k n Y velocities (w_heap w) (w_obj w) = (h', o') ->
    call k w {| w_heap := h'; w_obj := o'; w_caller := w_caller w |}.

(** The caller makes a new array, writes to one of their arrays or to the result of
    [get_weights]. *)
Inductive caller_action : world -> world -> Prop :=
| caller_alloc w n x h' v :
    alloc (w_heap w) n x = (h', v) ->
    caller_action w {| w_heap := h'; w_obj := w_obj w; w_caller := v_buf v :: w_caller w |}
| caller_write w v x :
    of_caller w v ->
    caller_action w {| w_heap := write (w_heap w) v x; w_obj := w_obj w; w_caller := w_caller w |}
| caller_write_weights w v x :
    v_buf v = v_buf (o_weights (w_obj w)) ->
    caller_action w {| w_heap := write (w_heap w) v x; w_obj := w_obj w; w_caller := w_caller w |}.

(** All histories of a program with one object of class [k]. *)
Inductive history (k : klass) : world -> Prop :=
| history_new h h' o : new_obj k h = (h', o) ->
    history k {| w_heap := h'; w_obj := o; w_caller := seq 0 (h_next h) |}
| history_call w w' : history k w -> call k w w' -> history k w'
| history_caller w w' : history k w -> caller_action w w' -> history k w'.

(** Any number of method calls; the caller makes arrays in between but does not write. *)
Inductive calls (k : klass) : world -> world -> Prop :=
| calls_nil w : calls k w w
| calls_call w w1 w2 : call k w w1 -> calls k w1 w2 -> calls k w w2
| calls_alloc w n x h v w2 : alloc (w_heap w) n x = (h, v) ->
    calls k {| w_heap := h; w_obj := w_obj w; w_caller := v_buf v :: w_caller w |} w2 -> calls k w w2.
