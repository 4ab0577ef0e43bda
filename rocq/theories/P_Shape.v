(** Property theorems C01-C14 (part), C33, C85: shape functions and grids. *)
From Coq Require Import List Arith ZArith Reals Bool Lra Lia Floats.SpecFloat.
From Coquelicot Require Import Coquelicot.
From Verif Require Import Num NumR NumSF Linalg Arrays ModelGrid ModelShape Sums ShapeFacts SpecShape
  ShapeProofs ShapeProofs2 ShapeProofs3.
Import ListNotations.
Local Open Scope R_scope.

(** Concrete grids used to show that hypotheses are satisfiable. *)
Definition g2 : GridDomain R :=
  {| gd_dim := D2; gd_origin := V3 0 0 0; gd_end := V3 7 7 0; gd_cell := 1; gd_inv := 1;
     gd_size := V3 8%Z 8%Z 1%Z; gd_padding := 2 |}.
Definition g3 : GridDomain R :=
  {| gd_dim := D3; gd_origin := V3 (-1) (-1) (-1); gd_end := V3 3 3 3; gd_cell := 1/2; gd_inv := 2;
     gd_size := V3 9%Z 9%Z 9%Z; gd_padding := 2 |}.
Definition x2 : vec3 R := V3 (13/4) (5/2) 0.
Definition x3 : vec3 R := V3 (1/3) (1/2) (2/3).
Lemma g2_wf : wf_grid g2.
Proof. unfold wf_grid, wf_sizes; simpl; repeat split; try lia; lra. Qed.
Lemma g3_wf : wf_grid g3.
Proof. unfold wf_grid, wf_sizes; simpl; repeat split; try lia; lra. Qed.
Lemma x2_interior k : interior k g2 x2.
Proof. destruct k; unfold interior, interior1; simpl; repeat split; lra. Qed.
Lemma x3_interior k : interior k g3 x3.
Proof. destruct k; unfold interior, interior1; simpl; repeat split; lra. Qed.

Theorem C01_partition_of_unity : forall k g xs p, wf_sizes g -> (p < length xs)%nat ->
  interior k g (nth p xs vzero) ->
  sumR it_val (of_point p (compute_on k g xs)) = 1.
Proof. exact pou. Qed.
Print Assumptions C01_partition_of_unity.
Example C01_case : forall k, wf_sizes g3 /\ interior k g3 (nth 1 [x2; x3] vzero) /\ wf_sizes g2 /\ interior k g2 (nth 0 [x2] vzero).
Proof. intros k. exact (conj (proj1 g3_wf) (conj (x3_interior k) (conj (proj1 g2_wf) (x2_interior k)))). Qed.

Theorem C02_weights_in_unit_interval : forall k g xs it, In it (compute_on k g xs) -> 0 <= it_val it <= 1.
Proof. exact weight_range. Qed.
Print Assumptions C02_weights_in_unit_interval.
(** for every particle, inside or not, the weights sum to at most one (mass is never created) *)
Theorem C02_weights_sum_at_most_one : forall k g xs p, (p < length xs)%nat ->
  0 <= sumR it_val (of_point p (compute_on k g xs)) <= 1.
Proof. exact sum_at_most_one. Qed.
Print Assumptions C02_weights_sum_at_most_one.
Example C02_case : exists it, In it (compute_on Linear g2 [x2]).
Proof. eexists. left. reflexivity. Qed.

Theorem C03_gradients_sum_to_zero : forall k g xs p, wf_sizes g -> (p < length xs)%nat ->
  interior k g (nth p xs vzero) ->
  vsum it_grad (of_point p (compute_on k g xs)) = V3 0 0 0.
Proof. exact grads_sum_zero. Qed.
Print Assumptions C03_gradients_sum_to_zero.

Theorem C04_reproduces_position : forall k g xs p a, wf_grid g -> (p < length xs)%nat ->
  interior k g (nth p xs vzero) -> (a < dim_nat (gd_dim g))%nat ->
  sumR (fun it => it_val it * vcomp a (nth (Z.to_nat (it_hash it)) (position_stack g) vzero))
       (of_point p (compute_on k g xs))
  = vcomp a (nth p xs vzero).
Proof. exact reproduce_position. Qed.
Print Assumptions C04_reproduces_position.
Theorem C04_weighted_rel_dist_zero : forall k g xs p, wf_sizes g -> (p < length xs)%nat ->
  interior k g (nth p xs vzero) ->
  forall a, sumR (fun it => it_val it * vcomp a (it_dist it)) (of_point p (compute_on k g xs)) = 0.
Proof. exact moment_zero. Qed.
Print Assumptions C04_weighted_rel_dist_zero.

(** C05, full statement for the quadratic and cubic kernels; for the linear kernel away from grid lines. *)
Theorem C05_gradients_reproduce_linear_fields_partial : forall k g xs p a c, wf_grid g -> (p < length xs)%nat ->
  interior k g (nth p xs vzero) ->
  (a < dim_nat (gd_dim g))%nat -> (c < dim_nat (gd_dim g))%nat ->
  (k = Linear -> forall j : Z, (vcomp a (nth p xs vzero) - vcomp a (gd_origin g)) * gd_inv g <> IZR j) ->
  sumR (fun it => vcomp a (it_grad it) * vcomp c (nth (Z.to_nat (it_hash it)) (position_stack g) vzero))
       (of_point p (compute_on k g xs))
  = if Nat.eqb a c then 1 else 0.
Proof. exact reproduce_gradient. Qed.
Print Assumptions C05_gradients_reproduce_linear_fields_partial.
(** The linear kernel loses the gradient on every grid line: the sum is 0 instead of 1. *)
Theorem C05_linear_kernel_on_grid_line : forall g xs p a (j : Z), wf_grid g -> (p < length xs)%nat ->
  interior Linear g (nth p xs vzero) -> (a < dim_nat (gd_dim g))%nat ->
  (vcomp a (nth p xs vzero) - vcomp a (gd_origin g)) * gd_inv g = IZR j ->
  sumR (fun it => vcomp a (it_grad it) * vcomp a (nth (Z.to_nat (it_hash it)) (position_stack g) vzero))
       (of_point p (compute_on Linear g xs)) = 0.
Proof. exact linear_on_line. Qed.
Print Assumptions C05_linear_kernel_on_grid_line.
Theorem C05_gradients_reproduce_linear_fields_refuted :
  ~ (forall k g xs p a c, wf_grid g -> (p < length xs)%nat -> interior k g (nth p xs vzero) ->
     (a < dim_nat (gd_dim g))%nat -> (c < dim_nat (gd_dim g))%nat ->
     sumR (fun it => vcomp a (it_grad it) * vcomp c (nth (Z.to_nat (it_hash it)) (position_stack g) vzero))
          (of_point p (compute_on k g xs)) = if Nat.eqb a c then 1 else 0).
Proof.
  intros F. pose (y := V3 3 (5/2) 0).
  assert (I : interior Linear g2 (nth 0 [y] vzero)) by (unfold interior, interior1; simpl; repeat split; lra).
  pose proof (F Linear g2 [y] 0%nat 0%nat 0%nat g2_wf ltac:(simpl; lia) I ltac:(simpl; lia) ltac:(simpl; lia)) as E.
  rewrite (C05_linear_kernel_on_grid_line g2 [y] 0 0 3 g2_wf) in E; [simpl in E; lra|simpl; lia|exact I|simpl; lia|simpl; lra].
Qed.
Print Assumptions C05_gradients_reproduce_linear_fields_refuted.
Example C05_case : forall j : Z, (vcomp 0 (nth 0 [x2] vzero) - vcomp 0 (gd_origin g2)) * gd_inv g2 <> IZR j.
Proof.
  intros j E. simpl in E. assert (IZR (4 * j) = IZR 13) by (rewrite mult_IZR; lra).
  apply eq_IZR in H. lia.
Qed.

(** the weight (gradient) node [i] of the grid receives from a particle at [x] *)
Definition weight_of k g i x := sumR it_val (at_node i (compute_on k g [x])).
Definition gradient_of k g i x := vsum it_grad (at_node i (compute_on k g [x])).
Theorem C06_gradient_is_derivative : forall k g idx x a, wf_sizes g -> 0 < gd_inv g ->
  node_in (gd_size g) idx -> (a < dim_nat (gd_dim g))%nat ->
  ex_derive (fun t => weight_of k g (ravel (gd_size g) idx) (vset a t x)) (vcomp a x) ->
  is_derive (fun t => weight_of k g (ravel (gd_size g) idx) (vset a t x)) (vcomp a x)
            (vcomp a (gradient_of k g (ravel (gd_size g) idx) x)).
Proof. exact gradient_is_derivative. Qed.
Print Assumptions C06_gradient_is_derivative.
Theorem C06_smooth_kernels_differentiable : forall k g idx x a, k <> Linear -> wf_sizes g ->
  node_in (gd_size g) idx -> (a < dim_nat (gd_dim g))%nat ->
  ex_derive (fun t => weight_of k g (ravel (gd_size g) idx) (vset a t x)) (vcomp a x).
Proof. exact smooth_kernels. Qed.
Print Assumptions C06_smooth_kernels_differentiable.

Theorem C07_indices_in_range : forall {T} {N : Num T} k (g : GridDomain T) xs it, wf_sizes g ->
  In it (compute_on k g xs) ->
  (0 <= it_hash it < num_cells g)%Z /\ (it_point it < length xs)%nat
  /\ (it_stencil it < window_size k (gd_dim g))%nat.
Proof. exact @compute_in_range. Qed.
Print Assumptions C07_indices_in_range.
Theorem C07_each_pair_once_in_order : forall {T} {N : Num T} k (g : GridDomain T) xs,
  length (compute_on k g xs) = (length xs * window_size k (gd_dim g))%nat /\
  forall p s d, (p < length xs)%nat -> (s < window_size k (gd_dim g))%nat ->
    it_point (nth (p * window_size k (gd_dim g) + s) (compute_on k g xs) d) = p /\
    it_stencil (nth (p * window_size k (gd_dim g) + s) (compute_on k g xs) d) = s.
Proof. intros; split; [apply compute_length|intros; apply compute_order; assumption]. Qed.
Print Assumptions C07_each_pair_once_in_order.

(** [row_in_grid g x it]: the node at x - rel_dist*cell is one of the grid's nodes. *)
Theorem C08_hash_position_distance_agree : forall k g xs it a, wf_grid g -> In it (compute_on k g xs) ->
  row_in_grid g (nth (it_point it) xs vzero) it -> (a < dim_nat (gd_dim g))%nat ->
  vcomp a (nth (Z.to_nat (it_hash it)) (position_stack g) vzero)
  = vcomp a (nth (it_point it) xs vzero) - gd_cell g * vcomp a (it_dist it).
Proof. exact hash_pos_dist. Qed.
Print Assumptions C08_hash_position_distance_agree.
Theorem C08_slots_distinct : forall k g xs it1 it2, wf_sizes g ->
  In it1 (compute_on k g xs) -> In it2 (compute_on k g xs) ->
  it_point it1 = it_point it2 -> it_hash it1 = it_hash it2 ->
  row_in_grid g (nth (it_point it1) xs vzero) it1 -> row_in_grid g (nth (it_point it2) xs vzero) it2 ->
  it_stencil it1 = it_stencil it2.
Proof. exact slots_distinct. Qed.
Print Assumptions C08_slots_distinct.
Example C08_case : forall it, In it (of_point 0 (compute_on Cubic g2 [x2])) -> row_in_grid g2 (nth 0 [x2] vzero) it.
Proof. intros. apply (interior_rows_in_grid Cubic g2 [x2] 0); [exact (proj1 g2_wf)|apply x2_interior|assumption]. Qed.

Theorem C09_outside_nodes_get_nothing : forall k g xs it, wf_sizes g -> In it (compute_on k g xs) ->
  ~ row_in_grid g (nth (it_point it) xs vzero) it -> it_val it = 0 /\ it_grad it = V3 0 0 0.
Proof. exact outside_nothing. Qed.
Print Assumptions C09_outside_nodes_get_nothing.
Example C09_case : exists it, In it (compute_on Linear g2 [V3 (-3) 0 0]) /\ ~ row_in_grid g2 (V3 (-3) 0 0) it.
Proof.
  eexists. split; [left; reflexivity|]. intros F. specialize (F 0%nat ltac:(simpl; lia)).
  rewrite row_coord_idx in F by (simpl; lia). unfold bpos in F; simpl in F. rnum.
  replace ((-3 - 0) * 1) with (IZR (-3)) in F by (simpl; lra). rewrite Flocq.Core.Raux.Zfloor_IZR in F. simpl in F. lra.
Qed.

(** Every node of the grid receives exactly its kernel value, for any particle position: no node with non-zero
    kernel value is missed by the stencil and none is counted twice. *)
Theorem C10_stencil_complete : forall k g xs p idx, wf_sizes g -> (p < length xs)%nat -> node_in (gd_size g) idx ->
  sumR it_val (at_node (ravel (gd_size g) idx) (of_point p (compute_on k g xs)))
  = let x := nth p xs vzero in
    basis k ((vx x - vx (gd_origin g)) * gd_inv g - IZR (vx idx))
    * basis k ((vy x - vy (gd_origin g)) * gd_inv g - IZR (vy idx))
    * match gd_dim g with D2 => 1 | D3 => basis k ((vz x - vz (gd_origin g)) * gd_inv g - IZR (vz idx)) end.
Proof.
  intros k g xs p idx W Hp V. rewrite weight_at_node by assumption.
  unfold shape_val, dist_vec, bpos, base_pos; rnum; simpl. destruct (gd_dim g); simpl; ring.
Qed.
Print Assumptions C10_stencil_complete.

Theorem C11_padded_grid_contains_stencils : forall k d o e h p x, 0 < h ->
  (match k with Linear => 1 | _ => 2 end <= p)%Z ->
  (forall a, (a < dim_nat d)%nat -> vcomp a o <= vcomp a x <= vcomp a e) ->
  wf_grid (grid_create d o e h p) /\ interior k (grid_create d o e h p) x.
Proof. exact created_interior. Qed.
Print Assumptions C11_padded_grid_contains_stencils.
Example C11_case : forall a, (a < dim_nat D2)%nat ->
  vcomp a (V3 0 0 0) <= vcomp a (V3 (1/2) 1 0) <= vcomp a (V3 1 1 0).
Proof. intros [|[|a]] Ha; simpl in *; try lra; lia. Qed.
(** One padding layer is not enough for the quadratic kernel when the box is not a whole number of cells. *)
Theorem C11_one_layer_not_enough_for_quadratic :
  exists o e h x : R, 0 < h /\ o <= x <= e /\
    ~ interior1 Quadratic (axis_size o e h 1) ((x - padded_lo o h 1) * (1 / h)).
Proof.
  exists 0, (7/4), 1, (7/4). split; [lra|split; [lra|]].
  rewrite axis_size_R by (try lra; lia).
  replace ((7/4 - 0) / 1) with (7/4) by lra.
  rewrite (Flocq.Core.Raux.Zfloor_imp 1) by (simpl; lra).
  unfold interior1, padded_lo; rnum; simpl. lra.
Qed.
Print Assumptions C11_one_layer_not_enough_for_quadratic.

Theorem C12_numbering_bijective : forall {T} {N : Num T} (g : GridDomain T), wf_sizes g ->
  Z.of_nat (length (position_stack g)) = num_cells g /\
  (forall idx, node_in (gd_size g) idx -> (0 <= ravel (gd_size g) idx < num_cells g)%Z) /\
  (forall i j, node_in (gd_size g) i -> node_in (gd_size g) j ->
     ravel (gd_size g) i = ravel (gd_size g) j -> i = j) /\
  (forall n, (0 <= n < num_cells g)%Z -> exists idx, node_in (gd_size g) idx /\ ravel (gd_size g) idx = n) /\
  (forall idx d, node_in (gd_size g) idx ->
     let pos := nth (Z.to_nat (ravel (gd_size g) idx)) (position_stack g) d in
     vx pos = nadd (nmul (nofZ (vx idx)) (gd_cell g)) (vx (gd_origin g)) /\
     vy pos = nadd (nmul (nofZ (vy idx)) (gd_cell g)) (vy (gd_origin g)) /\
     (gd_dim g = D3 -> vz pos = nadd (nmul (nofZ (vz idx)) (gd_cell g)) (vz (gd_origin g)))).
Proof.
  intros T N g W. split; [apply position_stack_length; assumption|]. split; [|split; [|split]].
  - intros idx V. rewrite num_cells_prod by assumption. apply ravel_range; assumption.
  - apply ravel_inj.
  - intros n Hn. rewrite num_cells_prod in Hn by assumption. pose proof (wf_z g W). destruct W as (Hx & Hy & _).
    exists (unravel (gd_size g) n). apply ravel_unravel; assumption.
  - intros idx d V. cbv zeta. rewrite position_stack_nth by assumption. unfold mesh_pos; simpl.
    split; [reflexivity|split; [reflexivity|]]. intros ->. reflexivity.
Qed.
Print Assumptions C12_numbering_bijective.

Theorem C33_translation_invariance : forall k g t xs,
  compute_on k (shift_grid t g) (map (fun x => vadd x t) xs) = compute_on k g xs.
Proof. exact translation. Qed.
Print Assumptions C33_translation_invariance.
(** [m] whole cells; rows of the same slot of the original and the shifted particle *)
Theorem C33_whole_cell_shift : forall k g x m off p s, wf_grid g -> (gd_dim g = D2 -> vz m = 0%Z) ->
  let it := single_interaction k (gd_dim g) (gd_origin g) (gd_size g) (gd_inv g) x off p s in
  let it' := single_interaction k (gd_dim g) (gd_origin g) (gd_size g) (gd_inv g) (vadd x (cell_shift g m)) off p s in
  it_dist it' = it_dist it /\
  (row_in_grid g x it -> row_in_grid g (vadd x (cell_shift g m)) it' ->
   it_val it' = it_val it /\ it_grad it' = it_grad it /\
   it_hash it' = (it_hash it + ravel (gd_size g) m)%Z).
Proof. exact shift_row. Qed.
Print Assumptions C33_whole_cell_shift.

(** C85: node count of GridDomain.create.  In exact arithmetic a box of m whole cells with padding p gets
    m + 2p + 1 nodes; with Python's binary64 arithmetic it may get one fewer. *)
Theorem C85_node_count_exact_partial : forall (o h : R) (m p : Z), 0 < h -> (0 <= m)%Z -> (0 <= p)%Z ->
  axis_size o (o + IZR m * h) h p = (m + 2 * p + 1)%Z.
Proof.
  intros o h m p Hh Hm Hp. rewrite axis_size_R; [|assumption| |assumption].
  - replace ((o + IZR m * h - o) / h) with (IZR m) by (field; lra). rewrite Flocq.Core.Raux.Zfloor_IZR. lia.
  - assert (0 <= IZR m) by (apply (IZR_le 0); assumption). nra.
Qed.
Print Assumptions C85_node_count_exact_partial.
(** origin 0.0, end 1.0, cell_size 0.1, padding 2 (the default): 14 nodes instead of 15 *)
Theorem C85_node_count_binary64_refuted :
  axis_size (H := Num_B64) (b64_ofZ 0) (b64_ofZ 1) (lit (H := Num_B64) 1 10) 2 = 14%Z /\
  axis_size (0 : R) 1 (1/10) 2 = 15%Z.
Proof.
  split; [vm_compute; reflexivity|].
  replace 1 with (0 + IZR 10 * (1/10)) at 1 by lra. apply C85_node_count_exact_partial; try lia; lra.
Qed.
Print Assumptions C85_node_count_binary64_refuted.
