(** sdf/sdfcollection.py 277-359: StarSDF. *)
From Coq Require Import List ZArith Bool.
From Verif Require Import Num Linalg ModelGrid ModelShape ModelMath ModelState ModelLaws ModelSDF.
Import ListNotations.

Section Star.
Context {T : Type} `{NumT T}.
Local Open Scope num_scope.

(** jnp.round: the nearest integer, ties to even *)
Definition nround (x : T) : Z :=
  let f := nfloor x in
  let d := x - nofZ f in
  if d <? lit 1 2 then f else if lit 1 2 <? d then (f + 1)%Z else if Z.even f then f else (f + 1)%Z.

(** sdfcollection.py 287-296: the stored fields; [points] is stored as a float *)
Record Star := mkStar { star_points : T; star_outer : T; star_inner : T }.
Definition star (points : Z) (outer inner : T) : Star := mkStar (nofZ points) outer inner.

(** 304-326: rotation of the point into the sector around the second axis, then mirroring.
    [atan2] is jnp.arctan2; the components beyond the second are not read. *)
Definition star_fold (atan2 : T -> T -> T) (st : Star) (p : vec3 T) : vec3 T :=
  let an := npi / star_points st in
  let angle := atan2 (vx p) (vy p) in
  let sector_angle := nofZ (nround (angle / (n2 * an))) * (n2 * an) in
  let c := ncos sector_angle in
  let s := nsin sector_angle in
  V3 (nabs (vx p * c - vy p * s)) (vx p * s + vy p * c) n0.
(** 332-341: tip, valley and the edge between them *)
Definition star_tip (st : Star) : vec3 T := V3 n0 (star_outer st) n0.
Definition star_valley (st : Star) : vec3 T :=
  let an := npi / star_points st in V3 (star_inner st * nsin an) (star_inner st * ncos an) n0.
(** 340-359 *)
Definition star_edge_distance (st : Star) (w : vec3 T) : T :=
  let v1 := star_tip st in
  let edge := vsub (star_valley st) v1 in
  let rel := vsub w v1 in
  let h := nclip (vdot rel edge / vdot edge edge) n0 n1 in
  let closest := vadd v1 (vscale h edge) in
  let dist := vnorm (vsub w closest) in
  let cross := vx edge * (vy w - vy v1) - vy edge * (vx w - vx v1) in
  dist * nsign cross.
(** 298-359: signed_distance_local *)
Definition star_local (atan2 : T -> T -> T) (st : Star) (p : vec3 T) : T := star_edge_distance st (star_fold atan2 st p).
(** sdfobject.py 133-137 *)
Definition star_distance (atan2 : T -> T -> T) (st : Star) (sd : SDFState T) (x : vec3 T) : T :=
  star_local atan2 st (to_local sd x).
End Star.
Arguments Star T : clear implicits.
