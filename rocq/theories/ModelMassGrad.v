(** forces/gridcontact.py 152-177: normals estimated from the nodal masses. *)
From Coq Require Import List ZArith Bool.
From Verif Require Import Num Linalg Arrays ModelGrid ModelShape.
Import ListNotations.

Section MassGrad.
Context {T : Type} `{Num T}.
Local Open Scope num_scope.

(** multi-index of the node with a flat number (row-major, the inverse of [ravel]): the order of reshape and flatten, gridcontact.py 168 and 175 *)
Definition unravel (size : vec3 Z) (k : Z) : vec3 Z :=
  V3 (k / (vy size * vz size))%Z ((k / vz size) mod vy size)%Z (k mod vz size)%Z.
(** jnp.gradient along an axis of [n] nodes with unit spacing, at position [i]: one-sided at the ends (gridcontact.py 174) *)
Definition gradient1 (n : Z) (f : Z -> T) (i : Z) : T :=
  if (i =? 0)%Z then f 1%Z - f 0%Z
  else if (i =? n - 1)%Z then f (n - 1)%Z - f (n - 2)%Z
  else (f (i + 1)%Z - f (i - 1)%Z) * lit 1 2.
(** _compute_mass_gradient (gridcontact.py 152-177); reshape fails (TypeError) if the sizes disagree, jnp.gradient if an axis has fewer than two nodes *)
Definition compute_mass_gradient (g : GridDomain T) (mass : list T) : res (list (vec3 T)) :=
  let size := gd_size g in
  let short := ((vx size <? 2) || (vy size <? 2) || match gd_dim g with D2 => false | D3 => vz size <? 2 end)%Z%bool in
  let at_ idx := nth (Z.to_nat (ravel size idx)) mass n0 in
  if negb (Z.of_nat (length mass) =? num_cells g)%Z then Err TypeError
  else if short then Err ValueError
  else Ok (map (fun k =>
    let i := unravel size k in
    V3 (gradient1 (vx size) (fun j => at_ (V3 j (vy i) (vz i))) (vx i))
       (gradient1 (vy size) (fun j => at_ (V3 (vx i) j (vz i))) (vy i))
       (match gd_dim g with D2 => n0 | D3 => gradient1 (vz size) (fun j => at_ (V3 (vx i) (vy i) j)) (vz i) end))
    (zrange 0 (Z.to_nat (num_cells g)))).
End MassGrad.
