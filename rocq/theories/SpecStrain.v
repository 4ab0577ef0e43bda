(** Vocabulary for finite strains over the reals. *)
From Coq Require Import ZArith Reals.
From Verif Require Import Num Linalg SpecMath SpecLaws ModelStrain.
Local Open Scope R_scope.

(** [d] is a singular value decomposition of [F]: orthogonal factors and singular values that are not negative *)
Definition is_svd (d : SVD R) (F : mat3 R) : Prop :=
  orthogonal (svd_u d) /\ orthogonal (svd_vh d) /\
  0 <= vx (svd_s d) /\ 0 <= vy (svd_s d) /\ 0 <= vz (svd_s d) /\
  F = mmul (mmul (svd_u d) (mdiag (vx (svd_s d)) (vy (svd_s d)) (vz (svd_s d)))) (svd_vh d).
(** every material line is shortened by at most the factor [c] *)
Definition stretches_above (c : R) (F : mat3 R) : Prop :=
  forall v : vec3 R, c * c * vnorm2 v <= vnorm2 (mvmul F v).
