(** C101 (placement): tabulated distances move with their body; two dimensions are rejected. *)
From Coq Require Import List Arith ZArith Reals Bool Lra Lia.
From Verif Require Import Num NumR Linalg Arrays ModelGrid ModelShape ModelMath ModelState ModelLaws ModelForces ModelSDF ModelGridSDF Sums SpecSDF SDFProofs P_SDF.
Import ListNotations.
Local Open Scope R_scope.

Theorem C101_placed : forall (s : GridSDF R) m st x, sd_dim st = D3 -> motion_of m st ->
  exists d, grid_distance s st x = Ok d /\ grid_distance s (carried m st) (moved m x) = Ok d.
Proof.
  intros s m st x D M. exists (grid_dist_local s (to_local st x)). unfold grid_distance. rewrite D. split; [reflexivity|].
  pose proof (to_local_moved m st x M) as E. change (@numt_num R NumT_R) with Num_R in *.
  assert (Dc : sd_dim (carried m st) = D3) by (rewrite <- D; destruct m; reflexivity). rewrite Dc, E. reflexivity.
Qed.
Print Assumptions C101_placed.
(** FINDING: a tabulated body in a 2-D simulation fails at its first evaluation *)
Theorem C101_plane_refuted : forall (s : GridSDF R) st x, sd_dim st = D2 -> grid_distance s st x = Err TypeError.
Proof. intros s st x D. unfold grid_distance. rewrite D. reflexivity. Qed.
Print Assumptions C101_plane_refuted.
