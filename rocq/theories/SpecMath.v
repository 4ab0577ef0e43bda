(** Vocabulary for statements about stress and strain tensors over the reals. *)
From Coq Require Import ZArith Reals.
From Verif Require Import Num Linalg.
Local Open Scope R_scope.

Definition symmetric (a : mat3 R) : Prop := m01 a = m10 a /\ m02 a = m20 a /\ m12 a = m21 a.
Definition skew (a : mat3 R) : Prop :=
  m00 a = 0 /\ m11 a = 0 /\ m22 a = 0 /\ m01 a = - m10 a /\ m02 a = - m20 a /\ m12 a = - m21 a.
(** mean normal stress *)
Definition mean3 (a : mat3 R) : R := (m00 a + m11 a + m22 a) / 3.
(** [a] with [k] taken from its diagonal *)
Definition minus_diag (a : mat3 R) (k : R) : mat3 R :=
  M3 (m00 a - k) (m01 a) (m02 a) (m10 a) (m11 a - k) (m12 a) (m20 a) (m21 a) (m22 a - k).
Definition deviator (a : mat3 R) : mat3 R := minus_diag a (mean3 a).
(** sum of the squares of the components *)
Definition frob2 (a : mat3 R) : R :=
  m00 a * m00 a + m01 a * m01 a + m02 a * m02 a + m10 a * m10 a + m11 a * m11 a + m12 a * m12 a
  + m20 a * m20 a + m21 a * m21 a + m22 a * m22 a.
(** second deviatoric invariant and the von Mises stress *)
Definition J2_of (a : mat3 R) : R := frob2 (deviator a) / 2.
Definition q_of (a : mat3 R) : R := sqrt (3 * J2_of a).
Definition spherical (k : R) : mat3 R := M3 k 0 0 0 k 0 0 0 k.
