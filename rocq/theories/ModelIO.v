(** common/sim_io.py: SimIO and load_simulation on a file system.

    A path is the list of its components (relative_dir only changes which path that is, 71-76; "..", symbolic links and
    permissions are not modelled).  A file holds what was serialised into it; eqx.tree_serialise_leaves followed by
    eqx.tree_deserialise_leaves with a fitting skeleton is taken to be the identity, a skeleton that does not fit is not modelled. *)
From Coq Require Import List ZArith Bool String Ascii Decimal DecimalString DecimalNat.
Import ListNotations.

(** f"{n:05d}" on an int: zero padded to five characters, the sign included *)
Fixpoint zeros (n : nat) : string := match n with O => EmptyString | S k => String "0" (zeros k) end.
Definition pad (w : nat) (s : string) : string := (zeros (w - String.length s) ++ s)%string.
Definition digits (n : nat) : string := NilZero.string_of_uint (Nat.to_uint n).
Definition fmt05 (z : Z) : string :=
  match z with
  | Zneg p => String "-" (pad 4 (digits (Pos.to_nat p)))
  | _ => pad 5 (digits (Z.to_nat z))
  end.
(** 125, 150; 98, 146; 109 *)
Definition state_file (step : Z) : string := ("state_" ++ fmt05 step ++ ".eqx")%string.
Definition solver_file : string := "solver_config.eqx".
Definition meta_file : string := "metadata.json".

Section IO.
(** solvers, states and metadata, and the step number of a state *)
Context {A B M : Type} (step_of : A -> Z).
Inductive File := FState (s : A) | FSolver (s : B) | FMeta (m : M).
Definition path := list string.
Record FS := { fs_files : list (path * File); fs_dirs : list path }.
Definition fs0 : FS := {| fs_files := []; fs_dirs := [] |}.
Definition path_eqb (p q : path) : bool := if list_eq_dec string_dec p q then true else false.
Fixpoint is_prefix (p q : path) : bool :=
  match p, q with
  | [], _ => true
  | a :: p, b :: q => String.eqb a b && is_prefix p q
  | _ :: _, [] => false
  end.
Definition file_at (f : FS) (p : path) : option File :=
  match find (fun e => path_eqb (fst e) p) (fs_files f) with Some e => Some (snd e) | None => None end.
Definition dir_at (f : FS) (p : path) : bool := existsb (path_eqb p) (fs_dirs f).
Inductive IOErr := NotFound | NotDirectory.
Inductive io (X : Type) := Good (x : X) | Bad (e : IOErr).
Arguments Good {X}. Arguments Bad {X}.
(** all prefixes of a path, for os.makedirs *)
Fixpoint prefixes (p : path) : list path := match p with [] => [[]] | a :: r => [] :: map (cons a) (prefixes r) end.
Definition blocked (f : FS) (p : path) : bool := existsb (fun q => match file_at f q with Some _ => true | None => false end) (prefixes p).
(** shutil.rmtree *)
Definition rmtree (f : FS) (p : path) : FS :=
  {| fs_files := filter (fun e => negb (is_prefix p (fst e))) (fs_files f); fs_dirs := filter (fun q => negb (is_prefix p q)) (fs_dirs f) |}.
(** open(path, "wb"): the directory must exist (a directory with the name of the file is not modelled) *)
Definition write (f : FS) (d : path) (name : string) (x : File) : FS * io unit :=
  if dir_at f d then ({| fs_files := (d ++ [name], x) :: fs_files f; fs_dirs := fs_dirs f |}, Good tt) else (f, Bad NotFound).

(** the calls; a recorder is its directory *)
Inductive Op := Open (d : path) (overwrite : bool)      (* 59-86 *)
| SaveSolver (d : path) (s : B) (m : M)                 (* 88-112 *)
| SaveStep (d : path) (s : A).                          (* 114-133 *)
(** default of overwrite (62) *)
Definition default_overwrite : bool := true.
Definition op (f : FS) (o : Op) : FS * io unit :=
  match o with
  | Open d ow =>
      if blocked f d then (f, Bad NotDirectory)
      else let f1 := if dir_at f d && ow then rmtree f d else f in
           ({| fs_files := fs_files f1; fs_dirs := prefixes d ++ fs_dirs f1 |}, Good tt)
  | SaveSolver d s m =>
      match write f d solver_file (FSolver s) with
      | (f1, Good _) => write f1 d meta_file (FMeta m)
      | r => r
      end
  | SaveStep d s => write f d (state_file (step_of s)) (FState s)
  end.
Fixpoint ops (f : FS) (l : list Op) : FS := match l with [] => f | o :: r => ops (fst (op f o)) r end.
(** 136-152 *)
Definition load_simulation (f : FS) (d : path) (step : Z) : io (B * A) :=
  match file_at f (d ++ [solver_file]) with
  | Some (FSolver b) =>
      match file_at f (d ++ [state_file step]) with
      | Some (FState a) => Good (b, a)
      | _ => Bad NotFound
      end
  | _ => Bad NotFound
  end.
End IO.
Arguments Good {X}. Arguments Bad {X}.
Arguments FS A B M : clear implicits.
Arguments Op A B M : clear implicits.
