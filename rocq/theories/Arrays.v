(** Array primitives: JAX functional updates and scatter-add on lists. *)
From Coq Require Import List Arith ZArith.
Import ListNotations.

(** [x.at[i].set(f(x[i]))]; an index outside the array is dropped (JAX scatter semantics). *)
Fixpoint upd_at {A} (f : A -> A) (i : nat) (l : list A) : list A :=
  match l, i with
  | [], _ => []
  | x :: r, O => f x :: r
  | x :: r, S j => x :: upd_at f j r
  end.

(** [init.at[ids].add(vals)]: contributions are applied one after the other. *)
Definition scatter_add {A} (add : A -> A -> A) (init : list A) (ivs : list (nat * A)) : list A :=
  fold_left (fun acc iv => upd_at (fun x => add x (snd iv)) (fst iv) acc) ivs init.

(** Python list/tuple item assignment [l[i] = v] for an index already known to be in range. *)
Definition set_nth {A} (i : nat) (v : A) (l : list A) : list A := upd_at (fun _ => v) i l.

(** [jnp.arange(a, a+n)] over integers *)
Fixpoint zrange (a : Z) (n : nat) : list Z :=
  match n with O => [] | S m => a :: zrange (a + 1) m end.

(** enumerate *)
Definition enum {A} (l : list A) : list (nat * A) := combine (seq 0 (length l)) l.
