(** The star polygon, described without the model: 2n corners around the origin, alternately a tip and a valley. *)
From Coq Require Import ZArith Reals Lra.
From Verif Require Import Linalg.
Local Open Scope R_scope.

(** the two argument arctangent over the reals: the angle of the point with cosine part [c] and sine part [s] *)
Definition Ratan2 (s c : R) : R :=
  if Rlt_dec 0 c then atan (s / c)
  else if Rlt_dec c 0 then (if Rle_dec 0 s then atan (s / c) + PI else atan (s / c) - PI)
  else if Rlt_dec 0 s then PI / 2
  else if Rlt_dec s 0 then - (PI / 2) else 0.

(** corner [k]: at the angle k*pi/n from the second axis, tips (k even) at [ro], valleys (k odd) at [ri] *)
Definition corner_radius (ro ri : R) (k : Z) : R := if Z.even k then ro else ri.
Definition corner (n : Z) (ro ri : R) (k : Z) : vec3 R :=
  let a := IZR k * PI / IZR n in
  let r := corner_radius ro ri k in
  V3 (r * sin a) (r * cos a) 0.
(** [q] is on the outline: on a side joining two consecutive corners *)
Definition outline (n : Z) (ro ri : R) (x y : R) : Prop :=
  exists (k : Z) (h : R), 0 <= h <= 1 /\
    x = (1 - h) * vx (corner n ro ri k) + h * vx (corner n ro ri (k + 1)) /\
    y = (1 - h) * vy (corner n ro ri k) + h * vy (corner n ro ri (k + 1)).
(** the point is strictly inside: going outwards from the centre through it the outline is still ahead *)
Definition inside (n : Z) (ro ri : R) (x y : R) : Prop :=
  (x = 0 /\ y = 0) \/ exists t, 1 < t /\ outline n ro ri (t * x) (t * y).
(** strictly outside: the outline was already crossed *)
Definition outside (n : Z) (ro ri : R) (x y : R) : Prop :=
  exists t, 0 < t < 1 /\ outline n ro ri (t * x) (t * y).
(** distance in the plane *)
Definition gap (x y qx qy : R) : R := sqrt (Rsqr (x - qx) + Rsqr (y - qy)).
(** the set of planar points [S] turned by [th] and moved to (cx, cy) *)
Definition placed (S : R -> R -> Prop) (th cx cy x y : R) : Prop :=
  exists qx qy, S qx qy /\ x = cx + (cos th * qx - sin th * qy) /\ y = cy + (sin th * qx + cos th * qy).
(** [d] is the distance from (x, y) to the set [S] *)
Definition nearest (S : R -> R -> Prop) (x y d : R) : Prop :=
  (exists qx qy, S qx qy /\ d = gap x y qx qy) /\ (forall qx qy, S qx qy -> d <= gap x y qx qy).
