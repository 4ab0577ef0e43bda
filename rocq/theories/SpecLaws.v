(** Vocabulary for statements about constitutive laws over the reals. *)
From Coq Require Import List ZArith Reals.
From Verif Require Import Num Linalg ModelState ModelLaws SpecMath.
Import ListNotations.
Local Open Scope R_scope.

(** rotation matrices *)
Definition orthogonal (Q : mat3 R) : Prop := mmul Q (mtrans Q) = meye /\ mmul (mtrans Q) Q = meye.
Definition turned (Q a : mat3 R) : mat3 R := mmul (mmul Q a) (mtrans Q).
(** sum of velocity gradients times time steps *)
Fixpoint total_gradient (h : list (mat3 R * R)) : mat3 R :=
  match h with [] => mzero | (L, dt) :: r => madd (mscale dt L) (total_gradient r) end.
(** rate of deformation and its deviator *)
Definition rate (L : mat3 R) : mat3 R :=
  M3 (m00 L) ((m01 L + m10 L) / 2) ((m02 L + m20 L) / 2)
     ((m01 L + m10 L) / 2) (m11 L) ((m12 L + m21 L) / 2)
     ((m02 L + m20 L) / 2) ((m12 L + m21 L) / 2) (m22 L).
(** engineering shear rate sqrt(2 e:e), e the deviator of the rate *)
Definition shear_rate (L : mat3 R) : R := sqrt (2 * frob2 (deviator (rate L))).

(** Drucker-Prager yield function of a stress: sqrt(J2) - mu_1 p - mu_2 (c0 + H eps) *)
Definition dp_yield (mu1 mu2 c0 H : R) (s : mat3 R) (acc : R) : R :=
  sqrt (J2_of s) - mu1 * mean3 s - mu2 * (c0 + H * acc).
(** Cam-Clay yield function of a stress *)
Definition mcc_yield (M pc : R) (s : mat3 R) : R :=
  (q_of s * q_of s) / (M * M) + mean3 s * mean3 s - pc * mean3 s.
(** inertial number of a granular flow and the mu(I) friction coefficient *)
Definition inertial (d rho_p p g : R) : R := g * d / sqrt (p / rho_p).
Definition mu_of (mu_s mu_d I0 I : R) : R := mu_s + (mu_d - mu_s) / (I0 / I + 1).
