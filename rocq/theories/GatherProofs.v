(** Grid-to-particle sums at the reals. *)
From Coq Require Import List Arith ZArith Reals Bool Lra Lia.
From Verif Require Import Num NumR Linalg Arrays ModelGrid ModelShape ModelMath ModelState ModelLaws ModelForces ModelSolver
  Sums ShapeFacts SpecShape ShapeProofs ShapeProofs2 ShapeProofs3 MappingProofs ResFacts SolverFacts SpecSolver
  TransferProofs TransferProofs2 StepProofs.
Import ListNotations.
Local Open Scope R_scope.

(** entries of matrices *)
Definition mcomp {T} (a b : nat) (m : mat3 T) : T := vcomp b (mrow a m).
Lemma mcomp_eq (m n : mat3 R) : (forall a b, mcomp a b m = mcomp a b n) -> m = n.
Proof.
  intros E. apply mat3_eq; [exact (E 0%nat 0%nat)|exact (E 0%nat 1%nat)|exact (E 0%nat 2%nat)|exact (E 1%nat 0%nat)
    |exact (E 1%nat 1%nat)|exact (E 1%nat 2%nat)|exact (E 2%nat 0%nat)|exact (E 2%nat 1%nat)|exact (E 2%nat 2%nat)].
Qed.
Lemma mcomp_add a b (m n : mat3 R) : mcomp a b (madd m n) = mcomp a b m + mcomp a b n.
Proof. destruct a as [|[|a]], b as [|[|b]]; reflexivity. Qed.
Lemma mcomp_zero a b : mcomp a b (mzero : mat3 R) = 0.
Proof. destruct a as [|[|a]], b as [|[|b]]; reflexivity. Qed.
Lemma mcomp_opp a b (m : mat3 R) : mcomp a b (mopp m) = - mcomp a b m.
Proof. destruct a as [|[|a]], b as [|[|b]]; reflexivity. Qed.
Lemma mcomp_outer a b (u v : vec3 R) : mcomp a b (outer u v) = vcomp a u * vcomp b v.
Proof. destruct a as [|[|a]], b as [|[|b]]; reflexivity. Qed.
Lemma vcomp_opp a (v : vec3 R) : vcomp a (vopp v) = - vcomp a v.
Proof. destruct a as [|[|a]]; reflexivity. Qed.
Lemma vcomp_divs a (v : vec3 R) k : vcomp a (vdivs v k) = vcomp a v / k.
Proof. destruct a as [|[|a]]; reflexivity. Qed.
Definition msum {A} (f : A -> mat3 R) (l : list A) : mat3 R :=
  M3 (sumR (fun x => m00 (f x)) l) (sumR (fun x => m01 (f x)) l) (sumR (fun x => m02 (f x)) l)
     (sumR (fun x => m10 (f x)) l) (sumR (fun x => m11 (f x)) l) (sumR (fun x => m12 (f x)) l)
     (sumR (fun x => m20 (f x)) l) (sumR (fun x => m21 (f x)) l) (sumR (fun x => m22 (f x)) l).
Lemma mcomp_msum {A} a b (f : A -> mat3 R) l : mcomp a b (msum f l) = sumR (fun x => mcomp a b (f x)) l.
Proof. destruct a as [|[|a]], b as [|[|b]]; reflexivity. Qed.

(** *** gathering *)
Lemma to_points_nth {A} (phi : A -> R) (zero d : A) add n (rows : list (Interaction R)) F p :
  (forall x y, phi (add x y) = phi x + phi y) -> phi zero = 0 -> (p < n)%nat ->
  phi (nth p (to_points zero add n rows F) d) = sumR (fun it => phi (F it)) (of_point p rows).
Proof.
  intros Ha Hz Hp. unfold to_points. rewrite (scatter_add_nth add phi) by (try exact Ha; rewrite repeat_length; exact Hp).
  rewrite (nth_indep _ d zero) by (rewrite repeat_length; exact Hp). rewrite nth_repeat, Hz, Rplus_0_l, sumR_map.
  cbn [fst snd]. unfold of_point. rewrite sumR_filter. reflexivity.
Qed.
Lemma to_points_vec n rows (F : Interaction R -> vec3 R) p : (p < n)%nat ->
  nth p (to_points vzero vadd n rows F) vzero = vsum F (of_point p rows).
Proof.
  intros Hp. apply vcomp_eq; intro a.
  rewrite (to_points_nth (vcomp a)) by (try exact Hp; try (intros; apply vcomp_add); apply vcomp_zero).
  rewrite vcomp_vsum. reflexivity.
Qed.
Lemma to_points_mat n rows (F : Interaction R -> mat3 R) p : (p < n)%nat ->
  nth p (to_points mzero madd n rows F) mzero = msum F (of_point p rows).
Proof.
  intros Hp. apply mcomp_eq; intros a b.
  rewrite (to_points_nth (mcomp a b)) by (try exact Hp; try (intros; apply mcomp_add); apply mcomp_zero).
  rewrite mcomp_msum. reflexivity.
Qed.
Lemma to_points_sc n rows (F : Interaction R -> R) p : (p < n)%nat ->
  nth p (to_points 0 (@nadd R Num_R) n rows F) 0 = sumR F (of_point p rows).
Proof. intros Hp. rewrite (to_points_nth (fun x : R => x)) by (try exact Hp; reflexivity). reflexivity. Qed.

Definition masks_one (rows : list (Interaction R)) : Prop := forall it, In it rows -> it_mask it = 1.
Lemma blend_one geos pts it v : it_mask it = 1 -> blend geos pts it v = (v : vec3 R).
Proof.
  intros Hm. unfold blend. destruct geos as [|x geos]; [reflexivity|]. rewrite Hm. apply vcomp_eq; intro a.
  rewrite vcomp_add, !vcomp_scale. rnum. ring.
Qed.
Lemma nth_enum_map {A B} (f : nat * A -> B) l p da db : (p < length l)%nat ->
  nth p (map f (enum l)) db = f (p, nth p l da).
Proof.
  intros Hp. apply nth_error_nth. rewrite nth_error_map, enum_nth_error, (nth_error_nth_lt _ _ da) by exact Hp. reflexivity.
Qed.

Definition cut12 : R := lit 1 (10 ^ 12).
Lemma cut12_pos : 0 < cut12.
Proof. unfold cut12; rnum. lra. Qed.

(** what G2P of USL does to particle [p] *)
Definition usl_delta (rows : list (Interaction R)) (g : Grid R) (p : nat) : vec3 R :=
  vsum (fun it => vscale (it_val it) (vsub (node_vel cut12 (gr_dim g) g (gr_mom_nt g) it) (node_vel cut12 (gr_dim g) g (gr_mom g) it)))
       (of_point p rows).
Definition pic_vel (cut : R) (rows : list (Interaction R)) (g : Grid R) (mom : list (vec3 R)) (p : nat) : vec3 R :=
  vsum (fun it => vscale (it_val it) (node_vel cut (gr_dim g) g mom it)) (of_point p rows).
Lemma g2p_usl_nth alpha dt geos rows g (pts : list (Particle R)) p : masks_one rows -> (p < length pts)%nat ->
  nth p (g2p_usl alpha dt geos rows g pts) pt0
  = usl_update alpha dt (gr_dim g) (nth p pts pt0) (usl_delta rows g p) (pic_vel cut12 rows g (gr_mom_nt g) p)
      (msum (fun it => outer (it_grad it) (vopp (node_vel cut12 (gr_dim g) g (gr_mom_nt g) it))) (of_point p rows)).
Proof.
  intros M Hp. unfold g2p_usl. rewrite (nth_enum_map _ _ _ pt0) by exact Hp. cbn [fst snd].
  rewrite !to_points_vec, to_points_mat by exact Hp. unfold usl_delta, pic_vel.
  assert (B : forall it v, In it (of_point p rows) -> blend geos pts it v = v).
  { intros it v Hin. apply blend_one, M. apply in_of_point in Hin. tauto. }
  f_equal.
  - apply vsum_ext. intros it Hin. rewrite !B by exact Hin. reflexivity.
  - apply vsum_ext. intros it Hin. rewrite !B by exact Hin. reflexivity.
  - apply mcomp_eq. intros a b. rewrite !mcomp_msum. apply sumR_ext. intros it Hin. rewrite B by exact Hin. reflexivity.
Qed.
Lemma g2p_usl_length alpha dt geos rows g (pts : list (Particle R)) : length (g2p_usl alpha dt geos rows g pts) = length pts.
Proof. unfold g2p_usl. rewrite map_length, enum_length. reflexivity. Qed.

(** and of AFLIP *)
Definition af_B (cut : R) (rows : list (Interaction R)) (g : Grid R) (p : nat) : mat3 R :=
  msum (fun it => mopp (outer (node_vel cut (gr_dim g) g (gr_mom_nt g) it) (it_grad it))) (of_point p rows).
Lemma g2p_aflip_nth a alpha dt gd sF rows g (pts : list (Particle R)) p : (p < length pts)%nat ->
  nth p (fst (g2p_aflip a alpha dt gd sF rows g pts)) pt0
  = aflip_update a alpha (gd_cell gd) dt (gr_dim g) sF (nth p pts pt0) (pic_vel (af_cutoff a) rows g (gr_mom g) p)
      (pic_vel (af_cutoff a) rows g (gr_mom_nt g) p) (af_B (af_cutoff a) rows g p)
      (sumR (fun it => it_val it * nth (Z.to_nat (it_hash it)) (gr_mass g) 0) (of_point p rows)).
Proof.
  intros Hp. unfold g2p_aflip. cbn [fst]. rewrite (nth_enum_map _ _ _ pt0) by exact Hp. cbn [fst snd].
  rewrite !to_points_vec, to_points_mat by exact Hp. unfold pic_vel, af_B. f_equal.
  apply (to_points_sc (length pts) rows _ p Hp).
Qed.
Lemma g2p_aflip_B_nth a alpha dt gd sF rows g (pts : list (Particle R)) p : (p < length pts)%nat ->
  nth p (snd (g2p_aflip a alpha dt gd sF rows g pts)) mzero = af_B (af_cutoff a) rows g p.
Proof. intros Hp. unfold g2p_aflip. cbn [snd]. apply to_points_mat, Hp. Qed.
Lemma g2p_aflip_length a alpha dt gd sF rows g (pts : list (Particle R)) :
  length (fst (g2p_aflip a alpha dt gd sF rows g pts)) = length pts.
Proof. unfold g2p_aflip. cbn [fst]. rewrite map_length, enum_length. reflexivity. Qed.

(** *** momentum of one body after G2P *)
(** sum of m_p times a gathered nodal field = nodal field weighted with the mass the body gives to the nodes *)
Lemma gathered_moment k (gd : GridDomain R) pts (u : Interaction R -> R) (U : nat -> R) : wf_sizes gd ->
  let rows := compute_on k gd (map pt_pos pts) in
  (forall it, In it rows -> u it = U (Z.to_nat (it_hash it))) ->
  sumR (fun p => pt_mass (nth p pts pt0) * sumR (fun it => it_val it * u it) (of_point p rows)) (seq 0 (length pts))
  = sumR (fun i => U i * sumR (fun it => it_val it * pt_mass (nth (it_point it) pts pt0)) (at_node (Z.of_nat i) rows))
      (seq 0 (Z.to_nat (num_cells gd))).
Proof.
  intros W rows Hu.
  rewrite (sumR_ext _ (fun p => sumR (fun it => it_val it * pt_mass (nth (it_point it) pts pt0) * u it) (of_point p rows))).
  2:{ intros p _. rewrite <- sumR_scal. apply sumR_ext. intros it Hin. apply in_of_point in Hin. destruct Hin as (_ & ->). ring. }
  rewrite <- (map_length pt_pos pts) at 1. unfold rows at 1. rewrite <- sum_by_point. rewrite sum_by_node by exact W. fold rows.
  apply sumR_ext. intros i Hi. rewrite <- sumR_scal. apply sumR_ext. intros it Hin. apply in_at_node in Hin.
  destruct Hin as (Hin & Hh). rewrite (Hu it Hin), Hh, Nat2Z.id. ring.
Qed.
