(** 3-vectors and 3x3 matrices.  A 2-D vector of the code is a [vec3] with third
    component 0 (the code pads with jnp.pad / jnp.concatenate; slices [:, :dim] are [vtrunc]). *)
From Coq Require Import ZArith List.
From Verif Require Import Num.
Import ListNotations.

Inductive Dim := D2 | D3.
Definition dimZ (d : Dim) : Z := match d with D2 => 2 | D3 => 3 end.
Definition dim_nat (d : Dim) : nat := match d with D2 => 2 | D3 => 3 end.
Definition dim_eqb (a b : Dim) : bool :=
  match a, b with D2, D2 => true | D3, D3 => true | _, _ => false end.

Record vec3 (T : Type) := V3 { vx : T; vy : T; vz : T }.
Arguments V3 {T}. Arguments vx {T}. Arguments vy {T}. Arguments vz {T}.
Record mat3 (T : Type) := M3 {
  m00 : T; m01 : T; m02 : T;
  m10 : T; m11 : T; m12 : T;
  m20 : T; m21 : T; m22 : T }.
Arguments M3 {T}.
Arguments m00 {T}. Arguments m01 {T}. Arguments m02 {T}.
Arguments m10 {T}. Arguments m11 {T}. Arguments m12 {T}.
Arguments m20 {T}. Arguments m21 {T}. Arguments m22 {T}.

Section LA.
Context {T : Type} `{Num T}.
Local Open Scope num_scope.
Definition vzero : vec3 T := V3 n0 n0 n0.
Definition vadd (a b : vec3 T) := V3 (vx a + vx b) (vy a + vy b) (vz a + vz b).
Definition vsub (a b : vec3 T) := V3 (vx a - vx b) (vy a - vy b) (vz a - vz b).
Definition vscale (k : T) (a : vec3 T) := V3 (k * vx a) (k * vy a) (k * vz a).
Definition vopp (a : vec3 T) := V3 (- vx a) (- vy a) (- vz a).
Definition vdivs (a : vec3 T) (k : T) := V3 (vx a / k) (vy a / k) (vz a / k).
Definition vdot (a b : vec3 T) : T := vx a * vx b + vy a * vy b + vz a * vz b.
Definition vcross (a b : vec3 T) : vec3 T :=
  V3 (vy a * vz b - vz a * vy b) (vz a * vx b - vx a * vz b) (vx a * vy b - vy a * vx b).
Definition vnorm2 (a : vec3 T) : T := vdot a a.
Definition vmap (f : T -> T) (a : vec3 T) := V3 (f (vx a)) (f (vy a)) (f (vz a)).
Definition vmap2 (f : T -> T -> T) (a b : vec3 T) :=
  V3 (f (vx a) (vx b)) (f (vy a) (vy b)) (f (vz a) (vz b)).
(** the slice [:, :dim] of a padded vector *)
Definition vtrunc (d : Dim) (a : vec3 T) : vec3 T :=
  match d with D2 => V3 (vx a) (vy a) n0 | D3 => a end.
(** components along the axes that exist in dimension d *)
Definition axes (d : Dim) (a : vec3 T) : list T :=
  match d with D2 => [vx a; vy a] | D3 => [vx a; vy a; vz a] end.

Definition mzero : mat3 T := M3 n0 n0 n0 n0 n0 n0 n0 n0 n0.
Definition meye : mat3 T := M3 n1 n0 n0 n0 n1 n0 n0 n0 n1.
Definition mdiag (a b c : T) : mat3 T := M3 a n0 n0 n0 b n0 n0 n0 c.
Definition mmap2 (f : T -> T -> T) (a b : mat3 T) : mat3 T :=
  M3 (f (m00 a) (m00 b)) (f (m01 a) (m01 b)) (f (m02 a) (m02 b))
     (f (m10 a) (m10 b)) (f (m11 a) (m11 b)) (f (m12 a) (m12 b))
     (f (m20 a) (m20 b)) (f (m21 a) (m21 b)) (f (m22 a) (m22 b)).
Definition mmap (f : T -> T) (a : mat3 T) : mat3 T :=
  M3 (f (m00 a)) (f (m01 a)) (f (m02 a))
     (f (m10 a)) (f (m11 a)) (f (m12 a))
     (f (m20 a)) (f (m21 a)) (f (m22 a)).
Definition madd := mmap2 nadd.
Definition msub := mmap2 nsub.
Definition mscale (k : T) := mmap (nmul k).
Definition mopp := mmap nopp.
Definition mtrans (a : mat3 T) : mat3 T :=
  M3 (m00 a) (m10 a) (m20 a) (m01 a) (m11 a) (m21 a) (m02 a) (m12 a) (m22 a).
Definition mtrace (a : mat3 T) : T := m00 a + m11 a + m22 a.
Definition mdet (a : mat3 T) : T :=
  m00 a * (m11 a * m22 a - m12 a * m21 a)
  - m01 a * (m10 a * m22 a - m12 a * m20 a)
  + m02 a * (m10 a * m21 a - m11 a * m20 a).
Definition mmul (a b : mat3 T) : mat3 T :=
  M3 (m00 a * m00 b + m01 a * m10 b + m02 a * m20 b)
     (m00 a * m01 b + m01 a * m11 b + m02 a * m21 b)
     (m00 a * m02 b + m01 a * m12 b + m02 a * m22 b)
     (m10 a * m00 b + m11 a * m10 b + m12 a * m20 b)
     (m10 a * m01 b + m11 a * m11 b + m12 a * m21 b)
     (m10 a * m02 b + m11 a * m12 b + m12 a * m22 b)
     (m20 a * m00 b + m21 a * m10 b + m22 a * m20 b)
     (m20 a * m01 b + m21 a * m11 b + m22 a * m21 b)
     (m20 a * m02 b + m21 a * m12 b + m22 a * m22 b).
Definition mvmul (a : mat3 T) (v : vec3 T) : vec3 T :=
  V3 (m00 a * vx v + m01 a * vy v + m02 a * vz v)
     (m10 a * vx v + m11 a * vy v + m12 a * vz v)
     (m20 a * vx v + m21 a * vy v + m22 a * vz v).
(** outer a b = a_i b_j  (einsum "i,j->ij") *)
Definition outer (a b : vec3 T) : mat3 T :=
  M3 (vx a * vx b) (vx a * vy b) (vx a * vz b)
     (vy a * vx b) (vy a * vy b) (vy a * vz b)
     (vz a * vx b) (vz a * vy b) (vz a * vz b).
(** double contraction a:b = sum a_ij b_ij *)
Definition mddot (a b : mat3 T) : T :=
  m00 a * m00 b + m01 a * m01 b + m02 a * m02 b
  + m10 a * m10 b + m11 a * m11 b + m12 a * m12 b
  + m20 a * m20 b + m21 a * m21 b + m22 a * m22 b.
(** x.at[2,2].set(v) *)
Definition mset22 (a : mat3 T) (v : T) : mat3 T :=
  M3 (m00 a) (m01 a) (m02 a) (m10 a) (m11 a) (m12 a) (m20 a) (m21 a) v.
End LA.

Section LAT.
Context {T : Type} `{NumT T}.
Definition vnorm (a : vec3 T) : T := nsqrt (vnorm2 a).
End LAT.
