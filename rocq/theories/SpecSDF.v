(** Geometric notions used by the statements about signed distances: Euclidean distance, the signed distance
    of a solid with a surface, rotations, and the solids themselves. *)
From Coq Require Import Reals List.
From Verif Require Import Num Linalg ModelMath ModelState.
Local Open Scope R_scope.

(** Euclidean distance; a point of dimension 2 has third coordinate 0 *)
Definition edist (a b : vec3 R) : R := sqrt ((vx a - vx b)² + (vy a - vy b)² + (vz a - vz b)²).
Definition on (d : Dim) (x : vec3 R) : Prop := match d with D2 => vz x = 0 | D3 => True end.
(** [e] is the signed distance of [x] to [surface], negative in [inside] *)
Definition signed_distance_to (inside surface : vec3 R -> Prop) (x : vec3 R) (e : R) : Prop :=
  (forall s, surface s -> Rabs e <= edist x s) /\ (exists s, surface s /\ edist x s = Rabs e) /\
  (e < 0 <-> inside x).

(** rotation of the plane, Hamilton product, rotation q v q^-1 of space (for a unit quaternion) *)
Definition rot2 (a : R) (v : vec3 R) : vec3 R :=
  V3 (cos a * vx v - sin a * vy v) (sin a * vx v + cos a * vy v) (vz v).
Definition qmul (p q : quat R) : quat R :=
  let a := qw p in let b := vx (qv p) in let c := vy (qv p) in let d := vz (qv p) in
  let e := qw q in let f := vx (qv q) in let g := vy (qv q) in let h := vz (qv q) in
  Quat (a * e - b * f - c * g - d * h)
       (V3 (a * f + b * e + c * h - d * g) (a * g - b * h + c * e + d * f) (a * h + b * g - c * f + d * e)).
Definition qunit (q : quat R) : Prop := (qw q)² + (vx (qv q))² + (vy (qv q))² + (vz (qv q))² = 1.
Definition rot3 (q : quat R) (v : vec3 R) : vec3 R :=
  qv (qmul (qmul q (Quat 0 v)) (Quat (qw q) (V3 (- vx (qv q)) (- vy (qv q)) (- vz (qv q))))).
(** a rigid motion: rotation then translation *)
Inductive Motion := Motion2 (angle : R) (shift : vec3 R) | Motion3 (rotation : quat R) (shift : vec3 R).
Definition moved (m : Motion) (x : vec3 R) : vec3 R :=
  match m with Motion2 a t => vadd (rot2 a x) t | Motion3 q t => vadd (rot3 q x) t end.
(** the object carried along: its centre moves, its orientation is turned *)
Definition carried (m : Motion) (st : SDFState R) : SDFState R :=
  {| sd_dim := sd_dim st; sd_com := moved m (sd_com st); sd_vel := sd_vel st;
     sd_theta := match m with Motion2 a _ => sd_theta st + a | _ => sd_theta st end; sd_omega := sd_omega st;
     sd_quat := match m with Motion3 q _ => qmul q (sd_quat st) | _ => sd_quat st end; sd_w := sd_w st |}.
Definition motion_of (m : Motion) (st : SDFState R) : Prop :=
  match m with
  | Motion2 _ _ => sd_dim st = D2
  | Motion3 q _ => sd_dim st = D3 /\ qunit q /\ qunit (sd_quat st)
  end.
(** direction of the object's frame seen from the world *)
Definition turned (st : SDFState R) (v : vec3 R) : vec3 R :=
  match sd_dim st with D2 => rot2 (sd_theta st) v | D3 => rot3 (sd_quat st) v end.
Definition oriented (st : SDFState R) : Prop := match sd_dim st with D2 => True | D3 => qunit (sd_quat st) end.

(** the solids, in the object's frame *)
Definition dot (a b : vec3 R) : R := vx a * vx b + vy a * vy b + vz a * vz b.
Definition in_box (d : Dim) (half p : vec3 R) (margin : R) : Prop :=
  Rabs (vx p) + margin < vx half /\ Rabs (vy p) + margin < vy half /\
  match d with D2 => True | D3 => Rabs (vz p) + margin < vz half end.
Definition near_segment (hh : R) (p : vec3 R) (m r : R) : Prop :=
  exists t, - hh <= t <= hh /\ (vx p)² + (vy p - t)² + (vz p)² + m < r².
