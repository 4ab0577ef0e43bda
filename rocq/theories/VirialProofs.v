(** First moment (virial) and torque of the internal nodal forces of a body. *)
From Coq Require Import List Arith ZArith Reals Bool Lra Lia.
From Verif Require Import Num NumR Linalg Arrays ModelGrid ModelShape ModelMath ModelState ModelLaws ModelForces ModelSolver
  Sums ShapeFacts SpecShape ShapeProofs ShapeProofs2 ShapeProofs3 MappingProofs ResFacts SolverFacts SpecSolver
  TransferProofs TransferProofs2 StepProofs GatherProofs MomentumProofs AffineProofs.
Import ListNotations.
Local Open Scope R_scope.

(** no interior particle sits on a grid line, for the linear kernel *)
Definition off_lines (k : Kernel) (gd : GridDomain R) (x : vec3 R) : Prop :=
  k = Linear -> forall a j, (a < dim_nat (gd_dim gd))%nat -> (vcomp a x - vcomp a (gd_origin gd)) * gd_inv gd <> IZR j.
(** sum over nodes of f_a x_c = sum over points of V sigma_ac *)
Theorem force_virial (w : World R) c gd a b : wf_grid gd -> (a < dim_nat (gd_dim gd))%nat -> (b < dim_nat (gd_dim gd))%nat ->
  (forall p, In p (pts_at w (c_p c)) -> interior (c_kernel c) gd (pt_pos p) /\ off_lines (c_kernel c) gd (pt_pos p)) ->
  sumR (fun i => vcomp a (body_force w c gd i) * vcomp b (nth i (position_stack gd) vzero)) (seq 0 (Z.to_nat (num_cells gd)))
  = sumR (fun p => pt_vol p * mcomp a b (pt_stress p)) (pts_at w (c_p c)).
Proof.
  intros W Ha Hb H. set (pts := pts_at w (c_p c)) in *. set (xs := map pt_pos pts). set (k := c_kernel c) in *.
  set (P := fun n => nth n pts pt0).
  set (F := fun it => pt_vol (P (it_point it)) * vdot (mrow a (pt_stress (P (it_point it)))) (it_grad it) * vcomp b (row_pos gd it)).
  transitivity (sumR F (compute_on k gd xs)).
  - rewrite (sum_by_node k gd xs F) by apply W. apply sumR_ext. intros i Hi. unfold body_force. fold pts xs k.
    rewrite vcomp_vsum, <- sumR_scal_r. apply sumR_ext. intros it Hit. apply in_at_node in Hit. destruct Hit as (Hit & Hh).
    unfold F, row_pos. rewrite Hh, Nat2Z.id. fold (P (it_point it)). rewrite vcomp_scale, vcomp_trunc, vcomp_mv.
    replace (keep (gd_dim gd) a) with 1 by (destruct (gd_dim gd), a as [|[|[|a]]]; simpl in *; try reflexivity; lia). ring.
  - rewrite sum_by_point. unfold xs. rewrite map_length.
    rewrite <- (sumR_seq_nth (fun p => pt_vol p * mcomp a b (pt_stress p)) pt0 pts). apply sumR_ext. intros n Hn. apply in_seq in Hn.
    fold (P n). assert (HP : In (P n) pts) by (apply nth_In; lia). destruct (H _ HP) as (I & Off). fold xs.
    assert (En : nth n xs vzero = pt_pos (P n)).
    { unfold xs, P. rewrite (nth_indep _ vzero (pt_pos pt0)) by (rewrite map_length; lia). apply map_nth. }
    assert (G : forall j, (j < dim_nat (gd_dim gd))%nat ->
      sumR (fun it => vcomp j (it_grad it) * vcomp b (row_pos gd it)) (of_point n (compute_on k gd xs)) = kron j b).
    { intros j Hj. apply reproduce_gradient; try assumption; [unfold xs; rewrite map_length; lia|rewrite En; exact I|].
      intros Kl z. rewrite En. apply (Off Kl j z Hj). }
    set (sg := pt_stress (P n)).
    rewrite (sumR_ext _ (fun it => pt_vol (P n) * (vcomp 0 (mrow a sg) * (vcomp 0 (it_grad it) * vcomp b (row_pos gd it))
        + vcomp 1 (mrow a sg) * (vcomp 1 (it_grad it) * vcomp b (row_pos gd it))
        + keep (gd_dim gd) 2 * (vcomp 2 (mrow a sg) * (vcomp 2 (it_grad it) * vcomp b (row_pos gd it)))))).
    + rewrite sumR_scal, !sumR_plus, !sumR_scal. f_equal. rewrite (G 0%nat), (G 1%nat) by (destruct (gd_dim gd); simpl; lia).
      unfold mcomp. unfold kron. destruct (gd_dim gd) eqn:D.
      * cbn [keep]. simpl in Hb. destruct b as [|[|b]]; [| |lia]; simpl; ring.
      * cbn [keep]. rewrite (G 2%nat) by (simpl; lia). simpl in Hb. unfold kron. destruct b as [|[|[|b]]]; [| | |lia]; simpl; ring.
    + intros it Hit. apply in_of_point in Hit. destruct Hit as (Hit & Hp). unfold F. rewrite Hp. fold sg. rewrite vdot_comp.
      destruct (gd_dim gd) eqn:D; cbn [keep]; [|ring]. simpl (vcomp 2 (it_grad it)). rewrite (row_grad_planar k gd xs it Hit D). ring.
Qed.
(** symmetric stresses exert no torque *)
Theorem force_torque (w : World R) c gd a b : wf_grid gd -> (a < dim_nat (gd_dim gd))%nat -> (b < dim_nat (gd_dim gd))%nat ->
  (forall p, In p (pts_at w (c_p c)) -> interior (c_kernel c) gd (pt_pos p) /\ off_lines (c_kernel c) gd (pt_pos p)) ->
  (forall p, In p (pts_at w (c_p c)) -> mtrans (pt_stress p) = pt_stress p) ->
  sumR (fun i => vcomp a (body_force w c gd i) * vcomp b (nth i (position_stack gd) vzero)
                 - vcomp b (body_force w c gd i) * vcomp a (nth i (position_stack gd) vzero)) (seq 0 (Z.to_nat (num_cells gd))) = 0.
Proof.
  intros W Ha Hb H Sy. rewrite sumR_minus, !force_virial by assumption. rewrite <- sumR_minus. apply sumR_zero. intros p Hp.
  specialize (Sy p Hp). assert (E : mcomp a b (pt_stress p) = mcomp b a (pt_stress p)); [|rewrite E; ring].
  rewrite <- Sy at 1. clear. destruct (pt_stress p). destruct a as [|[|a]], b as [|[|b]]; reflexivity.
Qed.
