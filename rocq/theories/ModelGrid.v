(** Model of hydraxmpm/grid/grid.py. *)
From Coq Require Import List ZArith.
From Verif Require Import Num Linalg Arrays.
Import ListNotations.

Section Grid.
Context {T : Type} `{Num T}.
Local Open Scope num_scope.

(** grid.py 18-37: GridDomain.  [gd_origin]/[gd_end] are the padded corners (67-69), as stored by the code.
    A 2-D grid has third size 1 and third coordinates 0 (the code has 2-tuples). *)
Record GridDomain := {
  gd_dim : Dim;
  gd_origin : vec3 T;
  gd_end : vec3 T;
  gd_cell : T;
  gd_inv : T;
  gd_size : vec3 Z;
  gd_padding : Z
}.

(** grid.py 62-67, one axis: padded corners and node count int((e - o)/cell + 1). *)
Definition padded_lo (o cell : T) (padding : Z) : T := o - nofZ padding * cell.
Definition padded_hi (e cell : T) (padding : Z) : T := e + nofZ padding * cell.
Definition axis_size (o e cell : T) (padding : Z) : Z :=
  ntrunc ((padded_hi e cell padding - padded_lo o cell padding) / cell + n1).

(** grid.py 40-76: GridDomain.create. *)
Definition grid_create (d : Dim) (origin end_ : vec3 T) (cell : T) (padding : Z) : GridDomain :=
  {| gd_dim := d;
     gd_origin := V3 (padded_lo (vx origin) cell padding) (padded_lo (vy origin) cell padding)
                     (match d with D2 => n0 | D3 => padded_lo (vz origin) cell padding end);
     gd_end := V3 (padded_hi (vx end_) cell padding) (padded_hi (vy end_) cell padding)
                  (match d with D2 => n0 | D3 => padded_hi (vz end_) cell padding end);
     gd_cell := cell;
     gd_inv := n1 / cell;
     gd_size := V3 (axis_size (vx origin) (vx end_) cell padding)
                   (axis_size (vy origin) (vy end_) cell padding)
                   (match d with D2 => 1%Z | D3 => axis_size (vz origin) (vz end_) cell padding end);
     gd_padding := padding |}.

(** grid.py 84-90: num_cells, the product of grid_size. *)
Definition num_cells (g : GridDomain) : Z :=
  (vx (gd_size g) * vy (gd_size g) * (match gd_dim g with D2 => 1 | D3 => vz (gd_size g) end))%Z.

(** grid.py 92-105: position_mesh.reshape(-1, dim): jnp.indices in row-major order times cell plus origin. *)
Definition position_stack (g : GridDomain) : list (vec3 T) :=
  let ax o i := nofZ i * gd_cell g + o in
  let xs := zrange 0 (Z.to_nat (vx (gd_size g))) in
  let ys := zrange 0 (Z.to_nat (vy (gd_size g))) in
  match gd_dim g with
  | D2 => flat_map (fun i => map (fun j =>
            V3 (ax (vx (gd_origin g)) i) (ax (vy (gd_origin g)) j) n0) ys) xs
  | D3 => let zs := zrange 0 (Z.to_nat (vz (gd_size g))) in
          flat_map (fun i => flat_map (fun j => map (fun k =>
            V3 (ax (vx (gd_origin g)) i) (ax (vy (gd_origin g)) j) (ax (vz (gd_origin g)) k)) zs) ys) xs
  end.

(** jnp.ravel_multi_index(idx, grid_size, mode="clip"): per-axis clip to [0, n-1], then row-major. *)
Definition zclip (i n : Z) : Z := Z.max 0 (Z.min i (n - 1)).
Definition ravel (size idx : vec3 Z) : Z := ((vx idx * vy size + vy idx) * vz size + vz idx)%Z.
Definition ravel_clip (size idx : vec3 Z) : Z :=
  ravel size (V3 (zclip (vx idx) (vx size)) (zclip (vy idx) (vy size)) (zclip (vz idx) (vz size))).

(** grid.py 108-146: GridArrays, one list per stack; [grid_new] is GridArrays.new *)
Record Grid := {
  gr_dim : Dim;
  gr_mass : list T;
  gr_mom : list (vec3 T);
  gr_mom_nt : list (vec3 T);
  gr_force : list (vec3 T)
}.
Definition grid_new (g : GridDomain) : Grid :=
  let n := Z.to_nat (num_cells g) in
  {| gr_dim := gd_dim g; gr_mass := repeat n0 n; gr_mom := repeat vzero n;
     gr_mom_nt := repeat vzero n; gr_force := repeat vzero n |}.
End Grid.
Arguments GridDomain T : clear implicits.
Arguments Grid T : clear implicits.
