(** Property theorems C13, C14: scatter_to_grid and gather_from_grid. *)
From Coq Require Import List Arith ZArith Reals Bool Lra Lia.
From Verif Require Import Num NumR Linalg Arrays ModelGrid ModelShape Sums SpecShape
  ShapeProofs ShapeProofs2 ShapeProofs3 MappingProofs P_Shape.
Import ListNotations.
Local Open Scope R_scope.

(** A datum type with zero, addition, scaling and division, and a component reader [phi] that is linear for them
    (a scalar, or any component of a vector or tensor). *)
Definition linear_reader {A} (azero : A) (aadd : A -> A -> A) (ascale : R -> A -> A) (adivs : A -> R -> A)
    (phi : A -> R) : Prop :=
  phi azero = 0 /\ (forall x y, phi (aadd x y) = phi x + phi y) /\
  (forall k x, phi (ascale k x) = k * phi x) /\ (forall x k, phi (adivs x k) = phi x / k).
Example C13_vector_component : linear_reader vzero vadd vscale vdivs (@vy R).
Proof. repeat split. Qed.

Theorem C13_scatter_conserves : forall A azero aadd ascale adivs (phi : A -> R) k g xs (data : list A) mass,
  linear_reader azero aadd ascale adivs phi -> wf_sizes g ->
  (forall p, (p < length xs)%nat -> interior k g (nth p xs vzero)) ->
  sumR phi (scatter_to_grid azero aadd ascale adivs (compute_on k g xs) data mass (Z.to_nat (num_cells g)) 0 false)
  = sumR (fun p => nth p mass 0 * phi (nth p data azero)) (seq 0 (length xs)).
Proof. intros * (H1 & H2 & H3 & H4). apply scatter_conserves; assumption. Qed.
Print Assumptions C13_scatter_conserves.

Theorem C13_constant_field_unchanged : forall A azero aadd ascale adivs (phi : A -> R) k g xs (data : list A) mass cutoff i c,
  linear_reader azero aadd ascale adivs phi -> wf_sizes g -> (i < Z.to_nat (num_cells g))%nat -> 0 <= cutoff ->
  (forall p, (p < length xs)%nat -> nth p data azero = c) ->
  phi (nth i (scatter_to_grid azero aadd ascale adivs (compute_on k g xs) data mass (Z.to_nat (num_cells g)) cutoff true) azero)
  = if Rlt_dec cutoff (sumR (fun it => it_val it * nth (it_point it) mass 0) (at_node (Z.of_nat i) (compute_on k g xs)))
    then phi c else 0.
Proof. intros * (H1 & H2 & H3 & H4). apply scatter_normalised_const; assumption. Qed.
Print Assumptions C13_constant_field_unchanged.

Theorem C13_averages_stay_in_range : forall A azero aadd ascale adivs (phi : A -> R) k g xs (data : list A) mass cutoff i lo hi,
  linear_reader azero aadd ascale adivs phi -> wf_sizes g -> (i < Z.to_nat (num_cells g))%nat -> 0 <= cutoff ->
  (forall p, (p < length xs)%nat -> 0 <= nth p mass 0) ->
  (forall p, (p < length xs)%nat -> lo <= phi (nth p data azero) <= hi) ->
  cutoff < sumR (fun it => it_val it * nth (it_point it) mass 0) (at_node (Z.of_nat i) (compute_on k g xs)) ->
  lo <= phi (nth i (scatter_to_grid azero aadd ascale adivs (compute_on k g xs) data mass (Z.to_nat (num_cells g)) cutoff true) azero) <= hi.
Proof. intros * (H1 & H2 & H3 & H4). apply scatter_normalised_bounds; assumption. Qed.
Print Assumptions C13_averages_stay_in_range.

(** C14: every call fails because InteractionCache has no attribute window_size. *)
Theorem C14_gather_from_grid_refuted : forall {T} {N : Num T} A (azero : A) aadd ascale w cache grid,
  gather_from_grid (T := T) azero aadd ascale w cache grid = Err AttributeError.
Proof. reflexivity. Qed.
Print Assumptions C14_gather_from_grid_refuted.
(** The code after the failing attribute access does interpolate. *)
Theorem C14_gather_body_partial : forall A azero aadd ascale adivs (phi : A -> R) k (g : GridDomain R) xs (grid : list A) p,
  linear_reader azero aadd ascale adivs phi -> (p < length xs)%nat ->
  phi (nth p (gather_body azero aadd ascale (window_size k (gd_dim g)) (compute_on k g xs) grid) azero)
  = sumR (fun it => it_val it * phi (nth (Z.to_nat (it_hash it)) grid azero)) (of_point p (compute_on k g xs)).
Proof. intros * (H1 & H2 & H3 & H4) Hp. apply (gather_body_nth azero aadd ascale phi H1 H2 H3); assumption. Qed.
Print Assumptions C14_gather_body_partial.
Theorem C14_gather_body_constant_partial : forall A azero aadd ascale adivs (phi : A -> R) k (g : GridDomain R) xs (grid : list A) p c,
  linear_reader azero aadd ascale adivs phi -> wf_sizes g -> (p < length xs)%nat -> interior k g (nth p xs vzero) ->
  (forall i, (i < Z.to_nat (num_cells g))%nat -> nth i grid azero = c) ->
  phi (nth p (gather_body azero aadd ascale (window_size k (gd_dim g)) (compute_on k g xs) grid) azero) = phi c.
Proof. intros * (H1 & H2 & H3 & H4) W Hp I Hg. apply (gather_body_const azero aadd ascale phi H1 H2 H3); assumption. Qed.
Print Assumptions C14_gather_body_constant_partial.
