(** Specification for C127.

    [np.empty] returns an array with whatever the memory contained before; in the model
    these contents are arguments called [junk].  Two programs are the same if their
    calls differ in nothing but those contents. *)
From Coq Require Import Reals List.
From Verif Require Import M_Prelude M_Canonical M_Forcing M_Dmp M_Base M_DmpObject M_FinalVelocity
  M_SpringDamper M_Quaternion M_Cartesian M_Dual M_StateFollowing M_StateObject S_Attributes.
Import ListNotations.
Open Scope R_scope.

(** A regression that looks at nothing but the entries of the array [X] of shape (n, m). *)
Definition reads_arrays (regress : regression) : Prop := forall n m X X' F lam,
  (forall i t, (i < n)%nat -> (t < m)%nat -> X i t = X' i t) -> regress n m X F lam = regress n m X' F lam.

(** ** The same call in two runs *)
Inductive same_call : call -> call -> Prop :=
| sc_same : forall c, same_call c c
| sc_imitate : forall j j' reg dm lam al, reads_arrays reg ->
    same_call (CImitate j reg dm lam al) (CImitate j' reg dm lam al)
| sc_time : forall j j' x, same_call (CSetExecutionTime j x) (CSetExecutionTime j' x).

Inductive same_fv_call : fv_call -> fv_call -> Prop :=
| sf_same : forall c, same_fv_call c c
| sf_imitate : forall j j' reg dm lam, reads_arrays reg ->
    same_fv_call (FImitate j reg dm lam) (FImitate j' reg dm lam)
| sf_time : forall j j' x, same_fv_call (FSetExecutionTime j x) (FSetExecutionTime j' x).

Inductive same_cart_call : cart_call -> cart_call -> Prop :=
| sk_same : forall c, same_cart_call c c
| sk_imitate : forall jp jr jp' jr' reg dm lam al, reads_arrays reg ->
    same_cart_call (KImitate jp jr reg dm lam al) (KImitate jp' jr' reg dm lam al)
| sk_time : forall jp jr jp' jr' x,
    same_cart_call (KSetExecutionTime jp jr x) (KSetExecutionTime jp' jr' x).

Inductive same_dual_call : dual_call -> dual_call -> Prop :=
| su_same : forall c, same_dual_call c c
| su_imitate : forall a b c d a' b' c' d' reg dm lam al, reads_arrays reg ->
    same_dual_call (UImitate a b c d reg dm lam al) (UImitate a' b' c' d' reg dm lam al)
| su_time : forall j j' x, same_dual_call (USetExecutionTime j x) (USetExecutionTime j' x).

(** ** What a user can see of an object

    DMP and DMPWithFinalVelocity: the list of observations of M_DmpObject.v.  For the
    others: the results and exceptions of all calls, the weights, and start, goal,
    current state and clock. *)
Definition cart_same_answers (o o' : cart) : Prop :=
  k_base o = k_base o'
  /\ cart_get_weights o = cart_get_weights o'
  /\ (forall run_t c fn i, cart_open_loop run_t c fn i o = cart_open_loop run_t c fn i o')
  /\ (forall y yd c fn i, snd (cart_step y yd c fn i o) = snd (cart_step y yd c fn i o'))
  /\ (forall c, snd (cart_configure c o) = snd (cart_configure c o'))
  /\ (forall w, snd (cart_set_weights w o) = snd (cart_set_weights w o'))
  /\ (forall jp jr jp' jr' x,
        snd (cart_set_execution_time jp jr x o) = snd (cart_set_execution_time jp' jr' x o'))
  /\ (forall jp jr jp' jr' reg dm lam al, reads_arrays reg ->
        snd (cart_imitate jp jr reg dm lam al o) = snd (cart_imitate jp' jr' reg dm lam al o')).

Definition dual_same_answers (o o' : dmp) : Prop :=
  o_base o = o_base o'
  /\ dual_get_weights o = dual_get_weights o'
  /\ (forall CS run_t (ct : option (stateful_coupling CS)) i cs,
        snd (dual_open_loop run_t ct i cs o) = snd (dual_open_loop run_t ct i cs o'))
  /\ (forall CS y yd (ct : option (stateful_coupling CS)) i cs,
        snd (dual_step y yd ct i cs o) = snd (dual_step y yd ct i cs o')
        /\ snd (fst (dual_step y yd ct i cs o)) = snd (fst (dual_step y yd ct i cs o')))
  /\ (forall c, snd (dmp_configure c o) = snd (dmp_configure c o'))
  /\ (forall w, snd (dual_set_weights w o) = snd (dual_set_weights w o'))
  /\ (forall j j' x, snd (dmp_set_execution_time j x o) = snd (dmp_set_execution_time j' x o'))
  /\ (forall a b c d a' b' c' d' reg dm lam al, reads_arrays reg ->
        snd (dual_imitate a b c d reg dm lam al o) = snd (dual_imitate a' b' c' d' reg dm lam al o')).

(** Calls on a StateFollowingDMP; only the constructor allocates. *)
Inductive sf_request :=
| QConfigure (c : configure_args)
| QReset
| QStep (last_y last_yd : arr) (c : option coupling)
| QSetDt (x : R)
| QSetIntDt (x : R)
| QSetViapoints (v : nat -> nat -> R).
Definition sf_apply (q : sf_request) (o : sf_dmp) : sf_dmp :=
  match q with
  | QConfigure c => fst (sf_configure c o)
  | QReset => sf_reset o
  | QStep y yd c => fst (sf_step y yd c o)
  | QSetDt x => sf_set_dt x o
  | QSetIntDt x => sf_set_int_dt x o
  | QSetViapoints v => sf_set_viapoints v o
  end.
Definition sf_same_answers (o o' : sf_dmp) : Prop :=
  f_base o = f_base o'
  /\ (forall run_t c, sf_open_loop run_t c o = sf_open_loop run_t c o')
  /\ (forall y yd c, snd (sf_step y yd c o) = snd (sf_step y yd c o'))
  /\ (forall c, snd (sf_configure c o) = snd (sf_configure c o')).

(** Both constructor calls raise the same exception, or [P] holds of the two objects. *)
Definition both {A} (P : A -> A -> Prop) (r r' : res A) : Prop :=
  match r, r' with
  | Ok o, Ok o' => P o o'
  | Err e, Err e' => e = e'
  | _, _ => False
  end.
