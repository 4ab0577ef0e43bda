(** Specification vocabulary for shape functions and grids (independent of how the code computes them). *)
From Coq Require Import List Arith ZArith Reals Bool Lra.
From Verif Require Import Num Linalg ModelGrid ModelShape Sums.
Import ListNotations.
Local Open Scope R_scope.

(** A usable grid: positive cell size, at least one node per axis. *)
Definition wf_sizes {T} (g : GridDomain T) : Prop :=
  (1 <= vx (gd_size g))%Z /\ (1 <= vy (gd_size g))%Z /\
  match gd_dim g with D2 => vz (gd_size g) = 1%Z | D3 => (1 <= vz (gd_size g))%Z end.
Definition wf_grid (g : GridDomain R) : Prop :=
  wf_sizes g /\ 0 < gd_cell g /\ gd_inv g = / gd_cell g.

(** Room a kernel needs to the left / right of a point, in cells. *)
Definition room_lo (k : Kernel) : R := match k with Linear => 0 | Quadratic => 1/2 | Cubic => 1 end.
Definition room_hi (k : Kernel) : R := match k with Linear => 1 | Quadratic => 3/2 | Cubic => 2 end.
(** The coordinate [b] (in cells from the first node) of a point whose stencil fits in an axis of [n] nodes. *)
Definition interior1 (k : Kernel) (n : Z) (b : R) : Prop := room_lo k <= b < IZR n - room_hi k.
Definition interior (k : Kernel) (g : GridDomain R) (x : vec3 R) : Prop :=
  interior1 k (vx (gd_size g)) ((vx x - vx (gd_origin g)) * gd_inv g) /\
  interior1 k (vy (gd_size g)) ((vy x - vy (gd_origin g)) * gd_inv g) /\
  match gd_dim g with
  | D2 => True
  | D3 => interior1 k (vz (gd_size g)) ((vz x - vz (gd_origin g)) * gd_inv g)
  end.

(** rows of a cache that belong to one particle *)
Definition of_point {T} (p : nat) (cache : list (Interaction T)) : list (Interaction T) :=
  filter (fun it => Nat.eqb (it_point it) p) cache.
(** rows of a cache that belong to one node *)
Definition at_node {T} (i : Z) (cache : list (Interaction T)) : list (Interaction T) :=
  filter (fun it => Z.eqb (it_hash it) i) cache.

(** multi-indices of the nodes of a grid *)
Definition node_in (size idx : vec3 Z) : Prop :=
  (0 <= vx idx < vx size)%Z /\ (0 <= vy idx < vy size)%Z /\ (0 <= vz idx < vz size)%Z.
(** position of the node with a given multi-index *)
Definition node_pos (g : GridDomain R) (idx : vec3 Z) : vec3 R :=
  V3 (vx (gd_origin g) + IZR (vx idx) * gd_cell g)
     (vy (gd_origin g) + IZR (vy idx) * gd_cell g)
     (match gd_dim g with D2 => 0 | D3 => vz (gd_origin g) + IZR (vz idx) * gd_cell g end).

(** components by axis number *)
Definition vcomp {T} (a : nat) (v : vec3 T) : T :=
  match a with O => vx v | S O => vy v | _ => vz v end.
Definition vset (a : nat) (t : R) (v : vec3 R) : vec3 R :=
  match a with O => V3 t (vy v) (vz v) | S O => V3 (vx v) t (vz v) | _ => V3 (vx v) (vy v) t end.
(** every vector of a 2-D problem has third component 0 *)
Definition planar (d : Dim) (v : vec3 R) : Prop := match d with D2 => vz v = 0 | D3 => True end.
