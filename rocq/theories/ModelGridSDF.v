(** sdf/gridsdf.py: a signed distance given by a 3-D table of samples. *)
From Coq Require Import List ZArith Bool.
From Verif Require Import Num Linalg Arrays ModelGrid ModelShape ModelMath ModelState ModelLaws ModelSDF.
Import ListNotations.

Section GridSDF.
Context {T : Type} `{NumT T}.
Local Open Scope num_scope.

(** gridsdf.py 22-44.  sdf_data is kept flat in row-major order with its shape.
    Loading the .npz file (33) is not modelled; what it holds is the argument of [grid_sdf]. *)
Record GridSDF := {
  gs_nx : nat; gs_ny : nat; gs_nz : nat; gs_data : list T;
  gs_min : vec3 T; gs_size : vec3 T; gs_thick : T; gs_scale : T
}.
Definition grid_sdf (nx ny nz : nat) (data : list T) (lo hi : vec3 T) (thickness scale : T) : GridSDF :=
  {| gs_nx := nx; gs_ny := ny; gs_nz := nz; gs_data := data; gs_min := lo; gs_size := vsub hi lo; gs_thick := thickness; gs_scale := scale |}.
Definition sample (s : GridSDF) (i j k : nat) : T := nth ((i * gs_ny s + j) * gs_nz s + k) (gs_data s) n0.

(** jax.scipy.ndimage.map_coordinates with order=1, mode="nearest": _linear_indices_and_weights and the
    index fixer clip(index, 0, size - 1).  The int32 conversion of the floor is taken not to overflow. *)
Definition clip_index (n : nat) (i : Z) : nat := Z.to_nat (Z.max 0 (Z.min i (Z.of_nat n - 1))).
Definition nodes1 (n : nat) (x : T) : list (nat * T) :=
  let lo := nfloor x in let u := x - nofZ lo in [(clip_index n lo, n1 - u); (clip_index n (lo + 1), u)].
(** functools.reduce(operator.add, ..) of the weighted corner samples in itertools.product order *)
Definition reduce_add (l : list T) : T := match l with [] => n0 | x :: r => fold_left nadd r x end.
Definition corners (s : GridSDF) (ax ay az : list (nat * T)) : list T :=
  flat_map (fun a => flat_map (fun b => map (fun c => snd a * snd b * snd c * sample s (fst a) (fst b) (fst c)) az) ay) ax.
Definition map_coordinates (s : GridSDF) (c : vec3 T) : T :=
  reduce_add (corners s (nodes1 (gs_nx s) (vx c)) (nodes1 (gs_ny s) (vy c)) (nodes1 (gs_nz s) (vz c))).

(** 63-77 without the interpolation: local position to index coordinates *)
Definition index1 (n : nat) (scale lo size x : T) : T := (x / scale - lo) / (size + lit 1 (10 ^ 12)) * (nofZ (Z.of_nat n) - n1).
Definition grid_index (s : GridSDF) (p : vec3 T) : vec3 T :=
  V3 (index1 (gs_nx s) (gs_scale s) (vx (gs_min s)) (vx (gs_size s)) (vx p))
     (index1 (gs_ny s) (gs_scale s) (vy (gs_min s)) (vy (gs_size s)) (vy p))
     (index1 (gs_nz s) (gs_scale s) (vz (gs_min s)) (vz (gs_size s)) (vz p)).
(** 61-87: signed_distance_local *)
Definition grid_dist_local (s : GridSDF) (p : vec3 T) : T := map_coordinates s (grid_index s p) * gs_scale s - gs_thick s.
(** sdfobject.py 133-137.  A 2-D position does not broadcast with the 3-vector grid_min. *)
Definition grid_distance (s : GridSDF) (st : SDFState T) (x : vec3 T) : res T :=
  match sd_dim st with D3 => Ok (grid_dist_local s (to_local st x)) | D2 => Err TypeError end.
(** 46-59 *)
Definition local_bounds (s : GridSDF) : vec3 T * vec3 T :=
  (vmap (fun x => x - gs_thick s) (vscale (gs_scale s) (gs_min s)),
   vmap (fun x => x + gs_thick s) (vscale (gs_scale s) (vadd (gs_min s) (gs_size s)))).

(** the gradient jax.grad computes: the floor and the indices are constant, a weight has slope -1 (lower) or 1 (upper) *)
Definition slopes1 (n : nat) (x : T) : list (nat * T) :=
  let lo := nfloor x in [(clip_index n lo, - n1); (clip_index n (lo + 1), n1)].
Definition grid_grad_local (s : GridSDF) (p : vec3 T) : vec3 T :=
  let c := grid_index s p in
  let wx := nodes1 (gs_nx s) (vx c) in let wy := nodes1 (gs_ny s) (vy c) in let wz := nodes1 (gs_nz s) (vz c) in
  let k n size := (nofZ (Z.of_nat n) - n1) / (size + lit 1 (10 ^ 12)) / gs_scale s * gs_scale s in
  V3 (reduce_add (corners s (slopes1 (gs_nx s) (vx c)) wy wz) * k (gs_nx s) (vx (gs_size s)))
     (reduce_add (corners s wx (slopes1 (gs_ny s) (vy c)) wz) * k (gs_ny s) (vy (gs_size s)))
     (reduce_add (corners s wx wy (slopes1 (gs_nz s) (vz c))) * k (gs_nz s) (vz (gs_size s))).
(** sdfobject.py 146-156 *)
Definition grid_normal (s : GridSDF) (st : SDFState T) (x : vec3 T) : res (vec3 T) :=
  match sd_dim st with
  | D3 => let g := from_local_dir st (grid_grad_local s (to_local st x)) in Ok (vdivs g (vnorm g + lit 1 (10 ^ 12)))
  | D2 => Err TypeError
  end.
End GridSDF.
Arguments GridSDF T : clear implicits.
