(** Model of data/_lasa.py. *)
From Coq Require Import Reals List Arith ZArith Bool String.
From Verif Require Import M_Prelude.
Import ListNotations.
Open Scope R_scope.

(** ** Conversion of the demonstrations *)

(** One demonstration of the Matlab file, [demos[i][0, 0]]: the fields in their order
    are positions, times, velocities, accelerations (each of shape
    [(n_dims, n_steps)], the times [(1, n_steps)]) and the time step. *)
Record demo := {
  d_dims : nat; d_steps : nat;
  d_pos : nat -> nat -> R; d_t : nat -> R; d_vel : nat -> nat -> R; d_acc : nat -> nat -> R;
  d_dt : R
}.

(** An array of shape [(n_demos, n_steps, n_dims)]. *)
Record array3 := { a3_shape : nat * nat * nat; a3 : nat -> nat -> nat -> R }.

(** [np.transpose(list, [0, 2, 1])] of a list of arrays of the same shape
    [(n_dims, n_steps)]; arrays of different shapes or an empty list raise ValueError. *)
Definition transpose021 (l : list (nat * nat * (nat -> nat -> R))) : res array3 :=
  match l with
  | [] => Err ValueError
  | (n, m, _) :: _ =>
      if forallb (fun x => Nat.eqb (fst (fst x)) n && Nat.eqb (snd (fst x)) m) l
      then Ok {| a3_shape := (List.length l, m, n);
                 a3 := fun d i k => snd (nth d l (0%nat, 0%nat, fun _ _ => 0)) k i |}
      else Err ValueError
  end.

(** data/_lasa.py:101-136 [_convert_demonstrations]. *)
Definition convert_demonstrations (demos : list demo) : res (array3 * array3 * array3 * R) :=
  let tmp := map (fun d => ((d_dims d, d_steps d, d_pos d), (d_dims d, d_steps d, d_vel d),
                            (d_dims d, d_steps d, d_acc d))) demos in   (* 123-128 *)
  bind (transpose021 (map (fun x => fst (fst x)) tmp)) (fun X =>        (* 130 *)
  bind (transpose021 (map (fun x => snd (fst x)) tmp)) (fun Xd =>       (* 131 *)
  bind (transpose021 (map (fun x => snd x) tmp)) (fun Xdd =>            (* 132 *)
  match demos with
  | [] => Err IndexError
  | d :: _ => Ok (X, Xd, Xdd, d_dt d)                                   (* 134-136 *)
  end))).

(** [np.linspace(0, stop, n)]. *)
Definition linspace0 (stop : R) (n i : nat) : R :=
  match n with
  | O | 1%nat => 0
  | _ => INR i * (stop / INR (n - 1))
  end.

(** data/_lasa.py:71-72: the returned times, one row per demonstration. *)
Definition lasa_times (X : array3) : nat -> nat -> R :=
  fun _ i => linspace0 (INR (snd (fst (a3_shape X)))) (snd (fst (a3_shape X))) i.

(** data/_lasa.py:70-73 [load_lasa] after the data has been read. *)
Definition load_lasa_demos (demos : list demo)
    : res ((nat -> nat -> R) * array3 * array3 * array3 * R) :=
  rmap (fun r => let '(X, Xd, Xdd, dt) := r in (lasa_times X, X, Xd, Xdd, dt))
       (convert_demonstrations demos).

(** ** Choice of the file *)

(** Python's [sorted] of a list of strings. *)
Fixpoint insert_name (x : string) (l : list string) : list string :=
  match l with
  | [] => [x]
  | y :: r => if String.leb x y then x :: l else y :: insert_name x r
  end.
Fixpoint sort_names (l : list string) : list string :=
  match l with
  | [] => []
  | x :: r => insert_name x (sort_names r)
  end.

(** data/_lasa.py:96-98 [_load_from_matlab_file]: the name of the file that is read
    and the returned name, [file_name[:-4]].  [listing] is what [os.listdir] returns;
    an index below zero counts from the end. *)
Definition choose_file (listing : list string) (shape_idx : Z) : res (string * string) :=
  let names := sort_names listing in
  let n := Z.of_nat (List.length names) in
  let i := if Z.ltb shape_idx 0 then (n + shape_idx)%Z else shape_idx in
  if (Z.leb 0 i && Z.ltb i n)%bool
  then let f := nth (Z.to_nat i) names EmptyString in
       Ok (f, String.substring 0 (String.length f - 4) f)
  else Err IndexError.

(** ** The download *)

(** A directory: the contents of its files by path relative to it (subdirectories are
    not modelled separately); [None] is a file that has been
    opened for writing but not completely written. *)
Definition content := string.
Definition dir := list (string * option content).
Definition archive := list (string * content).

(** The data directory: [lasa_data] and the top-level directory of the archive, if
    they exist, as references to directories. *)
Record fs := { f_next : nat; f_dirs : nat -> dir; f_root : option nat; f_lasa : option nat }.

Definition set_file (d : dir) (n : string) (c : option content) : dir :=
  (n, c) :: filter (fun f => negb (String.eqb (fst f) n)) d.
Definition set_dir (s : fs) (i : nat) (d : dir) : fs :=
  {| f_next := f_next s; f_dirs := fun j => if Nat.eqb j i then d else f_dirs s j;
     f_root := f_root s; f_lasa := f_lasa s |}.
(** The archive's top-level directory, made if it does not exist. *)
Definition make_root (s : fs) : fs * nat :=
  match f_root s with
  | Some i => (s, i)
  | None => ({| f_next := S (f_next s);
                f_dirs := fun j => if Nat.eqb j (f_next s) then [] else f_dirs s j;
                f_root := Some (f_next s); f_lasa := f_lasa s |}, f_next s)
  end.

(** A process in [load_lasa]; every step is atomic, and the process can be killed
    before each step. *)
Inductive proc :=
| Check                                    (* 61 *)
| Fetch                                    (* 62-63 *)
| Extract (rest : archive)                 (* 64: before a file *)
| Writing (d : nat) (n : string) (c : content) (rest : archive)  (* a file is open *)
| Rename                                   (* 65-66 *)
| Reading                                  (* 68-69 *)
| Done (d : dir)
| Failed.                                  (* an exception *)

(** data/_lasa.py:60-69.  [extractall] creates the directories and overwrites existing
    files; [os.rename] replaces an empty directory and fails for one with files.
    [network] tells whether the download succeeds. *)
Definition proc_step (a : archive) (network : bool) (s : fs) (p : proc) : fs * proc :=
  match p with
  | Check => (s, match f_lasa s with Some _ => Reading | None => Fetch end)
  | Fetch => (s, if network then Extract a else Failed)
  | Extract [] => (s, Rename)
  | Extract ((n, c) :: rest) =>
      let (s, i) := make_root s in
      (set_dir s i (set_file (f_dirs s i) n None), Writing i n c rest)
  | Writing i n c rest => (set_dir s i (set_file (f_dirs s i) n (Some c)), Extract rest)
  | Rename =>
      match f_root s, f_lasa s with
      | None, _ => (s, Failed)
      | Some i, None =>
          ({| f_next := f_next s; f_dirs := f_dirs s; f_root := None; f_lasa := Some i |}, Reading)
      | Some i, Some j =>
          match f_dirs s j with
          | [] => ({| f_next := f_next s; f_dirs := f_dirs s; f_root := None; f_lasa := Some i |}, Reading)
          | _ => (s, Failed)
          end
      end
  | Reading => (s, match f_lasa s with Some i => Done (f_dirs s i) | None => Failed end)
  | Done d => (s, Done d)
  | Failed => (s, Failed)
  end.

Fixpoint proc_steps (a : archive) (network : bool) (n : nat) (s : fs) (p : proc) : fs * proc :=
  match n with
  | O => (s, p)
  | S n => let (s, p) := proc_step a network s p in proc_steps a network n s p
  end.

(** Before the first call. *)
Definition no_data : fs :=
  {| f_next := 0; f_dirs := fun _ => []; f_root := None; f_lasa := None |}.
