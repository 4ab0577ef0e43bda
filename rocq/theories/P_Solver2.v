(** Property theorems C21, C26-C30, C32, C34-C38, C87, C88. *)
From Coq Require Import List Arith ZArith Reals Bool Lra Lia Permutation.
From Flocq Require Import Core.Raux.
From Verif Require Import Num NumR Linalg Arrays ModelGrid ModelShape ModelMath ModelState ModelLaws ModelForces ModelSolver
  Sums ShapeFacts SpecShape ShapeProofs ShapeProofs2 ShapeProofs3 P_Shape MappingProofs ResFacts SolverFacts SpecSolver
  TransferProofs TransferProofs2 StepProofs GatherProofs MomentumProofs AffineProofs StepAffine VirialProofs PermProofs SolverMore ExSolver P_Solver.
Import ListNotations.
Local Open Scope R_scope.

(** C21.  What the code does for the end values of alpha: 0 is the PIC velocity, 1 is the FLIP velocity (the docstrings say the opposite). *)
Theorem C21_usl_alpha_partial : forall (S : Solver R) st st' w ca w2 ca2 ca3, prepare S st = Ok (w, ca) -> p2g S w (s_mech st) ca = Ok (w2, ca2) ->
  integrate_grid S w2 (s_mech st) (s_dt st) ca2 = Ok ca3 -> solver_step S st = Ok st' -> NoDup (map c_p (active S)) -> so_scheme S = USL ->
  forall c g p, In c (so_couplings S) -> c_skip c = false -> nth_error (sc_grids ca3) (c_g c) = Some g ->
  (p < length (pts_at (s_world st) (c_p c)))%nat ->
  let v := pt_vel (nth p (pts_at (s_world st) (c_p c)) pt0) in let v' := pt_vel (nth p (pts_at (s_world st') (c_p c)) pt0) in
  let rows := rows_of S (s_world st) c in
  (so_alpha S = 0 -> v' = pic_vel cut12 rows g (gr_mom_nt g) p) /\ (so_alpha S = 1 -> v' = flip_vel cut12 rows g p v) /\
  v' = vadd (vscale (1 - so_alpha S) (pic_vel cut12 rows g (gr_mom_nt g) p)) (vscale (so_alpha S) (flip_vel cut12 rows g p v)).
Proof.
  intros S st st' w ca w2 ca2 ca3 E1 E2 E3 E Nd Sch c g p Hc Hs Eg Hp v v' rows.
  destruct (usl_step_point S st st' w ca w2 ca2 ca3 E1 E2 E3 E Nd c g Hc Hs Eg p Sch Hp) as (_ & _ & V & _).
  fold v v' rows in V. unfold flip_vel. split; [|split; [|exact V]]; intro A; rewrite A in V; [rewrite vlin0 in V|rewrite vlin1 in V]; exact V.
Qed.
Print Assumptions C21_usl_alpha_partial.
Theorem C21_aflip_alpha_partial : forall (S : Solver R) a gd st st' w ca w2 ca2 ca3, prepare S st = Ok (w, ca) -> p2g S w (s_mech st) ca = Ok (w2, ca2) ->
  integrate_grid S w2 (s_mech st) (s_dt st) ca2 = Ok ca3 -> solver_step S st = Ok st' -> NoDup (map c_p (active S)) ->
  so_scheme S = ASFLIP a -> af_dynamic a = false ->
  forall c g p, In c (so_couplings S) -> c_skip c = false -> nth_error (sc_grids ca3) (c_g c) = Some g -> nth_error (so_domains S) (c_g c) = Some gd ->
  (p < length (pts_at (s_world st) (c_p c)))%nat ->
  let v := pt_vel (nth p (pts_at (s_world st) (c_p c)) pt0) in let v' := pt_vel (nth p (pts_at (s_world st') (c_p c)) pt0) in
  let rows := rows_of S (s_world st) c in let lim := cfl_clamp a (gd_cell gd) (s_dt st) in
  (so_alpha S = 0 -> v' = lim (pic_vel (af_cutoff a) rows g (gr_mom_nt g) p)) /\ (so_alpha S = 1 -> v' = lim (flip_vel (af_cutoff a) rows g p v)).
Proof.
  intros S a gd st st' w ca w2 ca2 ca3 E1 E2 E3 E Nd Sch Dy c g p Hc Hs Eg Egd Hp v v' rows lim.
  destruct (aflip_step_point S st st' w ca w2 ca2 ca3 E1 E2 E3 E Nd c g Hc Hs Eg a gd p Sch Egd Hp) as (_ & _ & V & _).
  fold v v' rows lim in V. unfold dynamic_alpha in V. rewrite Dy in V. split; intro A; rewrite A in V; rewrite V; f_equal; unfold flip_vel;
    apply vcomp_eq; intro b; rewrite ?vcomp_add, ?vcomp_scale, ?vcomp_sub; ring.
Qed.
Print Assumptions C21_aflip_alpha_partial.

(** two coincident points with opposite velocities: the grid is at rest, PIC stops the points, FLIP would not *)
Definition opposite (v : vec3 R) : Body R := bodyR [pt xa v mzero meye; pt xa (vopp v) mzero meye].
Lemma opposite_sum {A} (P : A -> bool) (f : A -> R) (m0 m1 : nat -> A) L : (forall s, P (m1 s) = P (m0 s)) -> (forall s, f (m1 s) = - f (m0 s)) ->
  sumR f (filter P (map m0 L ++ map m1 L)) = 0.
Proof.
  intros HP Hf. rewrite filter_app, sumR_app.
  assert (X : sumR f (filter P (map m1 L)) = - sumR f (filter P (map m0 L))); [|lra].
  induction L as [|s L IH]; simpl; [unfold sumR; simpl; lra|]. rewrite HP. destruct (P (m0 s)); [rewrite !sumR_cons, Hf, IH; lra|exact IH].
Qed.
Lemma opposite_rest v w ca w2 ca2 : let S := solverR USL 0 1 in let st := stateR [opposite v] mzero (1/10) in
  prepare S st = Ok (w, ca) -> p2g S w (s_mech st) ca = Ok (w2, ca2) ->
  forall g i, nth_error (sc_grids ca2) 0 = Some g -> nth i (gr_mom g) vzero = vzero.
Proof.
  intros S st E1 E2 g i Eg. destruct (p2g_grids _ _ _ _ _ _ E1 E2) as (gs & X & _ & _ & _ & F). subst gs.
  cbn [so_couplings S solverR map seq rfold] in F. apply rbind_ok in F. destruct F as (gs & F & Y). injection Y as ->.
  apply p2g_coupling_ok in F. destruct F as [(F & _)|(_ & s & it & gr & vel & B1 & _ & B3 & B4 & B5 & B6)]; [discriminate|].
  pose proof (step_rows S st w ca w2 ca2 (cpl 0) s it E1 E2 (or_introl eq_refl) B1 B3) as R.
  pose proof (unforced_pts _ _ _ _ _ _ E1 E2 0%nat) as U. unfold pts_at at 2 in U. cbn [cpl c_p] in B1. rewrite B1 in U.
  unfold p2g_vel in B5. cbn [so_scheme S solverR] in B5. subst vel. simpl in B4. injection B4 as <-.
  rewrite B6 in Eg. simpl in Eg. injection Eg as <-. unfold p2g_with. cbn [gr_mom].
  destruct (Nat.lt_ge_cases i 64) as [Hi|Hi];
    [|rewrite nth_overflow; [reflexivity|]; rewrite scatter_add_length; unfold grid_new; cbn [gr_mom]; rewrite repeat_length; exact Hi].
  rewrite R. unfold rows_of. cbn [cpl c_p c_g]. unfold S at 1. rewrite (ex_kernel USL 0 1 0) by lia. cbn [nth_error so_domains S solverR].
  rewrite scatter_node by (try apply g2_wf; unfold grid_new; cbn [gr_mom]; rewrite repeat_length; exact Hi).
  unfold grid_new at 1. cbn [gr_mom]. rewrite nth_repeat. apply vcomp_eq; intro a. rewrite vcomp_add, vcomp_zero, vcomp_vsum, Rplus_0_l.
  change (map pt_pos (pts_at (s_world st) 0)) with [xa; xa]. unfold at_node. rewrite compute_on_points. cbn [length seq flat_map nth]. rewrite app_nil_r.
  simpl body_pts in U. change (pts_at (s_world st) 0) with [pt xa v mzero meye; pt xa (vopp v) mzero meye] in U.
  inversion U as [|? p0 ? l U0 U' Ea Eb]; subst. inversion U' as [|? p1 ? l' U1 U'' Ec Ed]; subst. inversion U''; subst.
  destruct U0 as (_ & V0 & M0 & _). destruct U1 as (_ & V1 & M1 & _).
  apply opposite_sum; intro q; [reflexivity|]. unfold point_of. cbn [it_point slot single_interaction nth]. rewrite V0, M0, V1, M1.
  rewrite !vcomp_scale. unfold eff. cbn [pt pt_vel pt_mass it_val it_mask]. destruct v; destruct a as [|[|a]]; simpl; rnum; ring.
Qed.
Theorem C21_alpha_documented_refuted : exists (S : Solver R) st st' w ca w2 ca2 ca3 g, prepare S st = Ok (w, ca) /\ p2g S w (s_mech st) ca = Ok (w2, ca2) /\
  integrate_grid S w2 (s_mech st) (s_dt st) ca2 = Ok ca3 /\ solver_step S st = Ok st' /\ NoDup (map c_p (active S)) /\ so_scheme S = USL /\
  In (cpl 0) (so_couplings S) /\ nth_error (sc_grids ca3) 0 = Some g /\ so_alpha S = 0 /\
  pt_vel (nth 0 (pts_at (s_world st') 0) pt0)
    <> flip_vel cut12 (rows_of S (s_world st) (cpl 0)) g 0 (pt_vel (nth 0 (pts_at (s_world st) 0) pt0)).
Proof.
  set (S := solverR USL 0 1). set (st := stateR [opposite va] mzero (1/10)).
  assert (X : exists st', solver_step S st = Ok st') by (eexists; reflexivity). destruct X as (st' & E).
  destruct (ex_phases _ _ _ E) as (w & ca & w2 & ca2 & ca3 & E1 & E2 & E3).
  destruct (ex_grid0 _ _ _ _ _ _ _ _ _ E1 E2 E3) as (g & Eg). exists S, st, st', w, ca, w2, ca2, ca3, g.
  assert (Nd : NoDup (map c_p (active S))) by apply ex_nodup.
  repeat (split; [first [assumption|reflexivity|left; reflexivity]|]).
  destruct (C21_usl_alpha_partial S st st' w ca w2 ca2 ca3 E1 E2 E3 E Nd eq_refl (cpl 0) g 0%nat (or_introl eq_refl) eq_refl Eg ltac:(cbv; lia)) as (V & _).
  specialize (V eq_refl). cbn [cpl c_p] in V. rewrite V. unfold flip_vel.
  assert (Z : forall a, vcomp a (pic_vel cut12 (rows_of S (s_world st) (cpl 0)) g (gr_mom g) 0) = 0).
  { intro a. unfold pic_vel. rewrite vcomp_vsum. apply sumR_zero. intros it _. rewrite vcomp_scale. unfold node_vel.
    destruct (integrate_same_mm _ _ _ _ _ _ E3) as (F & _). destruct (Forall2_nth_error _ _ _ _ _ F Eg) as (gb & Egb & Sm).
    assert (M : gr_mom g = gr_mom gb) by (destruct Sm; intuition congruence).
    rewrite M, (opposite_rest va w ca w2 ca2 E1 E2 gb _ Egb). rewrite vcomp_trunc. destruct (cut12 <? _)%num; destruct a as [|[|a]]; simpl; rnum; unfold Rdiv; ring. }
  intro Y. apply (f_equal (vcomp 0)) in Y. rewrite vcomp_add, vcomp_sub, Z in Y.
  change (vcomp 0 (pt_vel (nth 0 (pts_at (s_world st) 0) pt0))) with 1 in Y. lra.
Qed.
Print Assumptions C21_alpha_documented_refuted.

(** C26.  nodal_affine: on the nodes that matter to the particles, the nodal velocity is A x + b. *)
Theorem C26_aflip_gradient : forall a alpha dt k gd sF g pts A b p, wf_grid gd -> gr_dim g = gd_dim gd -> 0 <= af_cutoff a -> (p < length pts)%nat ->
  interior k gd (pt_pos (nth p pts pt0)) -> smooth_at A k gd (pt_pos (nth p pts pt0)) -> nodal_affine (af_cutoff a) k gd g pts A b ->
  let q := nth p (fst (g2p_aflip a alpha dt gd sF (compute_on k gd (map pt_pos pts)) g pts)) pt0 in let F := pt_F (nth p pts pt0) in
  pt_L q = mopp (mplane (gd_dim gd) A) /\
  ((gd_dim gd = D2 -> m22 F = 1 /\ m02 F = 0 /\ m12 F = 0) -> pt_F q = mmul (madd meye (mscale dt (mplane (gd_dim gd) A))) F).
Proof.
  intros a alpha dt k gd sF g pts A b p W Hd Hc Hp I Sm N q F.
  destruct (aflip_gradient a alpha dt k gd sF g pts A b p W Hd Hc Hp I Sm N) as (H1 & H2). split; [exact H1|]. intros HF.
  unfold q. rewrite H2. apply step_F_spec, HF.
Qed.
Print Assumptions C26_aflip_gradient.
(** the USL solver returns the transpose *)
Theorem C26_usl_gradient_partial : forall alpha dt geos k gd g pts A b p, wf_grid gd -> gr_dim g = gd_dim gd -> (p < length pts)%nat ->
  interior k gd (pt_pos (nth p pts pt0)) -> smooth_at A k gd (pt_pos (nth p pts pt0)) -> nodal_affine cut12 k gd g pts A b ->
  let q := nth p (g2p_usl alpha dt geos (compute_on k gd (map pt_pos pts)) g pts) pt0 in
  pt_L q = mopp (mtrans (mplane (gd_dim gd) A)) /\ (mtrans A = A -> pt_L q = mopp (mplane (gd_dim gd) A)).
Proof.
  intros alpha dt geos k gd g pts A b p W Hd Hp I Sm N q.
  destruct (usl_gradient alpha dt geos k gd g pts A b p W Hd Hp I Sm N) as (H1 & _). split; [exact H1|]. intro Hs. unfold q. rewrite H1. f_equal.
  destruct A as [a0 a1 a2 a3 a4 a5 a6 a7 a8]. pose proof (f_equal m01 Hs) as X1. pose proof (f_equal m02 Hs) as X2. pose proof (f_equal m12 Hs) as X3. simpl in X1, X2, X3.
  clear -X1 X2 X3. subst. destruct (gd_dim gd); reflexivity.
Qed.
Print Assumptions C26_usl_gradient_partial.
(** a grid at unit mass moving with A x + b *)
Definition shear : mat3 R := M3 0 1 0 0 0 0 0 0 0.
Definition gridA (A : mat3 R) (b : vec3 R) : Grid R :=
  {| gr_dim := D2; gr_mass := repeat 1 64; gr_mom := repeat vzero 64; gr_mom_nt := map (affv D2 A b) (position_stack g2); gr_force := repeat vzero 64 |}.
Lemma gridA_affine cut k pts A b : cut < 1 -> nodal_affine cut k g2 (gridA A b) pts A b.
Proof.
  intros Hcut it Hit _. destruct (compute_in_range _ _ _ _ (proj1 g2_wf) Hit) as (Hh & _ & _).
  assert (L : (Z.to_nat (it_hash it) < 64)%nat) by (unfold num_cells in Hh; simpl in Hh; lia).
  cbv zeta. unfold gridA. cbn [gr_mass gr_mom_nt]. replace (nth (Z.to_nat (it_hash it)) (repeat 1 64) 0) with 1 by (symmetry; apply (repeat_spec 64), nth_In; exact L). split; [exact Hcut|].
  rewrite (nth_indep _ vzero (affv D2 A b vzero)) by (rewrite map_length; exact L). rewrite map_nth.
  apply vcomp_eq; intro a. rewrite vcomp_scale. cbn [gd_dim g2]. ring.
Qed.
Example C26_case : forall k, let pts := [pt xa va sg meye; pt xb vb sg meye] in
  wf_grid g2 /\ gr_dim (gridA shear va) = gd_dim g2 /\ interior k g2 xa /\ smooth_at shear k g2 xa /\ nodal_affine cut12 k g2 (gridA shear va) pts shear va /\
  mopp (mplane D2 shear) = M3 0 (-1) 0 0 0 0 0 0 0.
Proof.
  intros k pts. split; [exact g2_wf|]. split; [reflexivity|]. split; [apply xa_interior|]. split; [|split].
  - intros _ _ a j Ha. simpl in Ha. destruct a as [|[|a]]; [| |lia]; simpl.
    + replace ((13/4 - 0) * 1) with (13/4) by lra. intro X. assert (3 < j < 4)%Z; [|lia]. split; apply lt_IZR; lra.
    + replace ((11/4 - 0) * 1) with (11/4) by lra. intro X. assert (2 < j < 3)%Z; [|lia]. split; apply lt_IZR; lra.
  - apply gridA_affine. unfold cut12. rnum. replace (10 ^ 12)%Z with 1000000000000%Z by reflexivity. lra.
  - unfold mopp, mplane, shear; simpl; rnum. apply mat3_eq; simpl; ring.
Qed.
Theorem C26_usl_gradient_refuted : exists alpha dt k g pts A b p, gr_dim g = D2 /\ (p < length pts)%nat /\ k = Quadratic /\
  interior k g2 (pt_pos (nth p pts pt0)) /\ nodal_affine cut12 k g2 g pts A b /\
  pt_L (nth p (g2p_usl alpha dt [] (compute_on k g2 (map pt_pos pts)) g pts) pt0) <> mopp (mplane D2 A).
Proof.
  exists 1, (1/10), Quadratic, (gridA shear va), [pt xa va sg meye; pt xb vb sg meye], shear, va, 0%nat.
  destruct (C26_case Quadratic) as (W & _ & I & Sm & N & _). repeat (split; [first [reflexivity|simpl; lia|assumption]|]).
  destruct (C26_usl_gradient_partial 1 (1/10) [] Quadratic g2 (gridA shear va) [pt xa va sg meye; pt xb vb sg meye] shear va 0%nat W eq_refl
    ltac:(simpl; lia) I Sm N) as (H & _). rewrite H. intro X. apply (f_equal m01) in X. simpl in X. unfold shear in X. simpl in X. rnum. revert X. rnum. lra.
Qed.
Print Assumptions C26_usl_gradient_refuted.

(** C27: the step forgets the stored particle forces of every coupled body *)
Theorem C27_particle_forces_ignored : forall {T} {NT : NumT T} (S : Solver T) st w' st1, forces_irrelevant S (s_world st) w' -> solver_step S st = Ok st1 ->
  solver_step S {| s_world := w'; s_mech := s_mech st; s_time := s_time st; s_step := s_step st; s_dt := s_dt st |} = Ok st1.
Proof. intros T NT. exact forces_ignored. Qed.
Print Assumptions C27_particle_forces_ignored.
Definition pushed (f : vec3 R) (b : Body R) : Body R :=
  match b with Soft s => Soft (set_pts s (map (fun p => set_pforce p f) (sb_pts s))) | Rigid r => Rigid r end.
Theorem C27_particle_forces_act_refuted : exists (S : Solver R) st st1 f, solver_step S st = Ok st1 /\ f <> vzero /\
  solver_step S {| s_world := {| w_mps := map (pushed f) (w_mps (s_world st)); w_sdfs := w_sdfs (s_world st) |};
                   s_mech := s_mech st; s_time := s_time st; s_step := s_step st; s_dt := s_dt st |} = Ok st1.
Proof.
  set (S := solverR USL (1/2) 2). set (st := stateR twoR mzero (1/10)).
  assert (X : exists st', solver_step S st = Ok st') by (eexists; reflexivity). destruct X as (st' & E).
  exists S, st, st', va. split; [exact E|]. split; [intro X; apply (f_equal vx) in X; simpl in X; revert X; rnum; lra|].
  apply C27_particle_forces_ignored; [|exact E]. split; [reflexivity|]. 
  repeat constructor; simpl; intros; discriminate.
Qed.
Print Assumptions C27_particle_forces_act_refuted.

(** C28 *)
Theorem C28_masks_are_one : forall {T} {NT : NumT T} (S : Solver T) st w ca, prepare S st = Ok (w, ca) ->
  forall p g rows it, dict_get (p, g) (sc_inter ca) = Ok rows -> In it rows -> it_mask it = n1.
Proof. intros T NT. exact all_masks_one. Qed.
Print Assumptions C28_masks_are_one.
(** a solid wall x > 7/2 between the particle xa and the node (4,4) *)
Definition wallR : SDFLogic R :=
  {| sl_dist := fun _ x => 7/2 - vx x; sl_normal := fun _ _ => V3 (-1) 0 0; sl_velocity := fun _ _ _ => vzero;
     sl_friction := fun _ _ => 0; sl_update := fun s _ => s |}.
Definition sdf0 : SDFState R := {| sd_dim := D2; sd_com := vzero; sd_vel := vzero; sd_theta := 0; sd_omega := 0;
  sd_quat := Quat 1 vzero; sd_w := vzero |}.
Definition with_sdfs (S : Solver R) (l : list (SDFLogic R)) (sharp : R) : Solver R :=
  {| so_scheme := so_scheme S; so_alpha := so_alpha S; so_domains := so_domains S; so_couplings := so_couplings S; so_laws := so_laws S;
     so_forces := so_forces S; so_sdfs := l; so_sharp := sharp |}.
Definition with_sdf_states (st : SimState R) (l : list (SDFState R)) : SimState R :=
  {| s_world := {| w_mps := w_mps (s_world st); w_sdfs := l |}; s_mech := s_mech st; s_time := s_time st; s_step := s_step st; s_dt := s_dt st |}.
Lemma sigmoid_R y : sigmoid y = 1 / (1 + exp (- y)).
Proof. reflexivity. Qed.
Lemma sigmoid_hi y : 9 <= y -> 10/11 <= sigmoid y.
Proof.
  intros H. rewrite sigmoid_R. assert (Ey : 10 <= exp y) by (pose proof (exp_ineq1 y ltac:(lra)); lra).
  rewrite exp_Ropp. pose proof (Rinv_le_contravar 10 (exp y) ltac:(lra) Ey) as I0. assert (P : 0 < / exp y) by (apply Rinv_0_lt_compat; lra).
  apply Rmult_le_reg_r with (1 + / exp y); [lra|]. unfold Rdiv at 2. rewrite Rmult_assoc, Rinv_l by lra. lra.
Qed.
Lemma sigmoid_sym y : sigmoid (- y) = 1 - sigmoid y.
Proof.
  rewrite !sigmoid_R, Ropp_involutive, exp_Ropp. pose proof (exp_pos y). field. split; lra.
Qed.
Lemma sigmoid_01 y : 0 < sigmoid y < 1.
Proof.
  rewrite sigmoid_R. pose proof (exp_pos (- y)). split; [apply Rdiv_lt_0_compat; lra|].
  apply Rmult_lt_reg_r with (1 + exp (- y)); [lra|]. unfold Rdiv. rewrite Rmult_assoc, Rinv_l by lra. lra.
Qed.
(** the mask the code computes (and drops) lies between 0 and 1 *)
Lemma union_mask_01 s ds : 0 <= union_mask s ds <= 1.
Proof.
  unfold union_mask. assert (G : forall l a, 0 <= a <= 1 -> 0 <= fold_left (fun a d => nmax a (sigmoid (- d * s)%num)) l a <= 1).
  { induction l as [|d l IH]; intros a Ha; simpl; [exact Ha|]. apply IH. rewrite nmax_R.
    pose proof (sigmoid_01 (- d * s)). change (0 <= Rmax a (sigmoid (- d * s)) <= 1). split; [apply Rle_trans with a; [lra|apply Rmax_l]|].
    apply Rmax_lub; lra. }
  apply G. rnum. lra.
Qed.
Theorem C28_computed_mask_range : forall (S : Solver R) w g x it, 0 <= compatible S w g x it <= 1.
Proof.
  intros. unfold compatible. cbv zeta. rewrite nmax_R.
  match goal with |- context [Rmax (union_mask ?s ?a) (union_mask ?s ?b)] =>
    pose proof (union_mask_01 s a); pose proof (union_mask_01 s b); pose proof (Rmax_l (union_mask s a) (union_mask s b));
    assert (Rmax (union_mask s a) (union_mask s b) <= 1) by (apply Rmax_lub; lra);
    set (m := Rmax (union_mask s a) (union_mask s b)) in * end.
  match goal with |- context [(n1 - union_mask ?s ?a)%num] => pose proof (union_mask_01 s a); set (u := union_mask s a) in * end.
  change (0 <= 1 - (1 - u) * m <= 1). nra.
Qed.
Print Assumptions C28_computed_mask_range.
Definition wall_row : Interaction R := slot Quadratic g2 xa 0 8.
Lemma wall_row_in : In wall_row (compute_on Quadratic g2 [xa; xb]).
Proof.
  rewrite compute_on_points. apply in_flat_map. exists 0%nat. split; [apply in_seq; simpl; lia|]. apply in_map_iff. exists 8%nat. split; [reflexivity|].
  apply in_seq. cbn. lia.
Qed.
Lemma wall_row_hash : it_hash wall_row = 36%Z.
Proof.
  unfold wall_row, slot, single_interaction. cbn [it_hash gd_dim g2 gd_origin gd_size gd_inv]. unfold node_idx, base_pos, base_id.
  cbn [vx vy vz xa]. rnum. rewrite (floor_imp 2) by lra. rewrite (floor_imp 2) by lra. reflexivity.
Qed.
Theorem C28_wall_blocks_refuted : exists (S : Solver R) st w ca rows it, prepare S st = Ok (w, ca) /\ so_sdfs S <> [] /\
  dict_get (0%nat, 0%nat) (sc_inter ca) = Ok rows /\ In it rows /\ it_mask it = 1 /\
  (* the mask that usl.py 395-407 computes for this row *)
  compatible S w g2 xa it < 1/2.
Proof.
  set (S := with_sdfs (solverR USL (1/2) 1) [wallR] 40). set (st := with_sdf_states (stateR [two va vb sg] mzero (1/10)) [sdf0]).
  assert (X : exists w ca, prepare S st = Ok (w, ca)) by (do 2 eexists; reflexivity). destruct X as (w & ca & E).
  pose proof (prepare_ok _ _ _ _ E) as (P1 & P2 & P3 & _ & _ & _ & K).
  destruct (P3 (cpl 0) (or_introl eq_refl)) as (rows & Hr). cbn [cpl c_p c_g] in Hr.
  exists S, st, w, ca, rows, wall_row. split; [exact E|]. split; [discriminate|]. split; [exact Hr|].
  assert (Rw : rows = compute_on Quadratic g2 [xa; xb]).
  { destruct (P2 _ _ _ Hr) as (k & b & gd & Hk & Hb & Hg & _ & ->). simpl in Hg. injection Hg as <-.
    change (last_kernel (so_couplings S) 0 0) with (Some Quadratic) in Hk. injection Hk as <-.
    rewrite P1 in Hb. simpl in Hb. injection Hb as <-. reflexivity. }
  rewrite Rw. split; [apply wall_row_in|]. split; [reflexivity|].
  apply kinematic_ok in K. destruct K as (_ & K). cbn [w_sdfs] in K. inversion K as [|? s1 ? l1 H1 K1 A1 A2]; subst. inversion K1; subst.
  unfold compatible. cbv zeta. cbn [so_sdfs S with_sdfs]. rewrite <- A2. cbn [combine map fst snd so_sharp S with_sdfs wallR sl_dist].
  unfold union_mask. cbn [fold_left]. rewrite !nmax_R, wall_row_hash.
  replace (nth (Z.to_nat 36) (position_stack g2) vzero) with (V3 4 4 0 : vec3 R).
  2:{ change (nth (Z.to_nat 36) (position_stack g2) vzero) with (V3 (4 * 1 + 0) (4 * 1 + 0) 0 : vec3 R). apply vec3_eq; simpl; lra. }
  cbn [vx xa gd_cell g2].
  set (o := Rmax n0 (sigmoid (- ((7 / 2 - 13 / 4)%R - n0) * 40)%num)).
  set (i := Rmax n0 (sigmoid (- ((7 / 2 - 4)%R - 1 * n1) * 40)%num)).
  assert (Ho : 0 <= o <= 1/11).
  { unfold o. split; [apply Rmax_l|]. apply Rmax_lub; [rnum; lra|].
    replace (- ((7 / 2 - 13 / 4)%R - n0) * 40)%num with (- (10))%R by (rnum; lra). rewrite sigmoid_sym. pose proof (sigmoid_hi 10 ltac:(lra)). lra. }
  assert (Hi : 10/11 <= i).
  { unfold i. apply Rle_trans with (2 := Rmax_r _ _). apply sigmoid_hi. rnum. lra. }
  match goal with |- context [Rmax i ?q] => pose proof (Rmax_l i q); set (m := Rmax i q) in * end.
  change (1 - (1 - o) * m < 1 / 2). nra.
Qed.
Print Assumptions C28_wall_blocks_refuted.

(** C29 *)
Theorem C29_sdf_states_partial : forall {T} {NT : NumT T} (S : Solver T) st st', solver_step S st = Ok st' ->
  length (so_sdfs S) = length (w_sdfs (s_world st)) ->
  length (w_sdfs (s_world st')) = length (w_sdfs (s_world st)) /\
  forall i l s, nth_error (so_sdfs S) i = Some l -> nth_error (w_sdfs (s_world st)) i = Some s ->
    nth_error (w_sdfs (s_world st')) i = Some (sl_update l s (s_dt st)).
Proof.
  intros T NT S st st' E L. split; [rewrite (step_sdf_count _ _ _ E); exact L|]. intros i l s Hl Hs.
  pose proof (step_sdfs _ _ _ E) as F. assert (En : nth_error (enum (so_sdfs S)) i = Some (i, l)) by (rewrite enum_nth_error, Hl; reflexivity).
  destruct (Forall2_nth_error_l _ _ _ _ _ F En) as (s' & Hs' & s0 & H0 & ->). simpl in H0. rewrite Hs in H0. injection H0 as <-. exact Hs'.
Qed.
Print Assumptions C29_sdf_states_partial.
(** with any selection, exactly the selected number of states survives *)
Theorem C29_sdf_state_count : forall {T} {NT : NumT T} (S : Solver T) st st', solver_step S st = Ok st' ->
  length (w_sdfs (s_world st')) = length (so_sdfs S).
Proof. intros T NT. exact step_sdf_count. Qed.
Print Assumptions C29_sdf_state_count.
Example C29_case : let S := with_sdfs (solverR USL (1/2) 1) [wallR; wallR] 1 in
  let st := with_sdf_states (stateR [two va vb sg] mzero (1/10)) [sdf0; sdf0] in
  (exists st', solver_step S st = Ok st') /\ length (so_sdfs S) = length (w_sdfs (s_world st)).
Proof. intros S st. split; [eexists; reflexivity|reflexivity]. Qed.
(** a solver given the second of two SDFs: one state is lost and the logic moves the state of the other object *)
Definition moverR (dx : R) : SDFLogic R :=
  {| sl_dist := fun s x => vx (sd_com s) - vx x; sl_normal := fun _ _ => V3 (-1) 0 0; sl_velocity := fun _ _ _ => vzero;
     sl_friction := fun _ _ => 0;
     sl_update := fun s _ => {| sd_dim := sd_dim s; sd_com := vadd (sd_com s) (V3 dx 0 0); sd_vel := sd_vel s; sd_theta := sd_theta s; sd_omega := sd_omega s;
                                sd_quat := sd_quat s; sd_w := sd_w s |} |}.
Definition sdf_at (x : R) : SDFState R := {| sd_dim := D2; sd_com := V3 x 0 0; sd_vel := vzero; sd_theta := 0; sd_omega := 0; sd_quat := Quat 1 vzero; sd_w := vzero |}.
Theorem C29_sdf_subset_refuted : exists (S : Solver R) st st', solver_step S st = Ok st' /\
  (* world SDFs at x = 10 and x = 20, the solver's SDF list holds the logic of the second *)
  w_sdfs (s_world st) = [sdf_at 10; sdf_at 20] /\ so_sdfs S = [moverR 1] /\
  length (w_sdfs (s_world st')) = 1%nat /\ map (fun s => vx (sd_com s)) (w_sdfs (s_world st')) = [10 + 1].
Proof.
  set (S := with_sdfs (solverR USL (1/2) 1) [moverR 1] 1). set (st := with_sdf_states (stateR [two va vb sg] mzero (1/10)) [sdf_at 10; sdf_at 20]).
  assert (X : exists st', solver_step S st = Ok st') by (eexists; reflexivity). destruct X as (st' & E). exists S, st, st'.
  split; [exact E|]. split; [reflexivity|]. split; [reflexivity|]. split; [apply (C29_sdf_state_count _ _ _ E)|].
  pose proof (step_sdfs _ _ _ E) as F. inversion F as [|? s1 ? l1 H1 F1 A1 A2]; subst. inversion F1; subst. destruct H1 as (s0 & H0 & ->).
  simpl in H0. injection H0 as <-. reflexivity.
Qed.
Print Assumptions C29_sdf_subset_refuted.

(** C30 *)
Theorem C30_own_rows_partial : forall {T} {NT : NumT T} (S : Solver T) st w ca, prepare S st = Ok (w, ca) -> one_kernel S ->
  forall c, In c (so_couplings S) -> exists b gd, nth_error (w_mps w) (c_p c) = Some b /\ nth_error (so_domains S) (c_g c) = Some gd /\
    dict_get (c_p c, c_g c) (sc_inter ca) = Ok (compute_on (c_kernel c) gd (body_positions b)).
Proof.
  intros T NT S st w ca E O c Hc. destruct (rows_last _ _ _ _ E c Hc) as (rows & Hr & k & b & gd & Hk & Hb & Hg & _ & ->).
  exists b, gd. rewrite <- (last_kernel_one S c k O Hc Hk). auto.
Qed.
Print Assumptions C30_own_rows_partial.
(** in general every coupling uses the kernel of the last coupling of its body and grid *)
Theorem C30_last_kernel_rows : forall {T} {NT : NumT T} (S : Solver T) st w ca, prepare S st = Ok (w, ca) ->
  forall c, In c (so_couplings S) -> exists k b gd, last_kernel (so_couplings S) (c_p c) (c_g c) = Some k /\
    nth_error (w_mps w) (c_p c) = Some b /\ nth_error (so_domains S) (c_g c) = Some gd /\
    dict_get (c_p c, c_g c) (sc_inter ca) = Ok (compute_on k gd (body_positions b)).
Proof.
  intros T NT S st w ca E c Hc. destruct (rows_last _ _ _ _ E c Hc) as (rows & Hr & k & b & gd & Hk & Hb & Hg & _ & ->). exists k, b, gd. auto.
Qed.
Print Assumptions C30_last_kernel_rows.
Definition cplK (k : Kernel) (skip : bool) : Coupling := {| c_kernel := k; c_p := 0; c_g := 0; c_c := Some 0%nat; c_s := Some 0%nat; c_skip := skip |}.
Definition two_kernels : Solver R :=
  {| so_scheme := USL; so_alpha := 1/2; so_domains := [g2]; so_couplings := [cplK Linear false; cplK Quadratic true];
     so_laws := [Some lawR]; so_forces := []; so_sdfs := []; so_sharp := 1 |}.
Example C30_case : forall k, let S := solverR USL (1/2) 2 in one_kernel S /\ exists w ca, prepare S (stateR twoR k (1/10)) = Ok (w, ca).
Proof.
  intros k S. split; [|do 2 eexists; reflexivity]. intros c c' Hc Hc' _ _. simpl in Hc, Hc'. destruct Hc as [<-|[<-|[]]], Hc' as [<-|[<-|[]]]; reflexivity.
Qed.
Theorem C30_own_shape_refuted : exists (S : Solver R) st w ca c b gd rows, prepare S st = Ok (w, ca) /\ In c (so_couplings S) /\ c_skip c = false /\
  nth_error (w_mps w) (c_p c) = Some b /\ nth_error (so_domains S) (c_g c) = Some gd /\ dict_get (c_p c, c_g c) (sc_inter ca) = Ok rows /\
  length rows <> length (compute_on (c_kernel c) gd (body_positions b)).
Proof.
  set (st := stateR [two va vb sg] mzero (1/10)).
  assert (X : exists w ca, prepare two_kernels st = Ok (w, ca)) by (do 2 eexists; reflexivity). destruct X as (w & ca & E).
  destruct (C30_last_kernel_rows _ _ _ _ E (cplK Linear false) (or_introl eq_refl)) as (k & b & gd & Hk & Hb & Hg & Hd).
  exists two_kernels, st, w, ca, (cplK Linear false), b, gd. eexists. split; [exact E|]. split; [left; reflexivity|]. split; [reflexivity|].
  split; [exact Hb|]. split; [exact Hg|]. split; [exact Hd|].
  change (last_kernel (so_couplings two_kernels) (c_p (cplK Linear false)) (c_g (cplK Linear false))) with (Some Quadratic) in Hk. injection Hk as <-.
  pose proof (prepare_ok _ _ _ _ E) as (P1 & _). rewrite P1 in Hb. simpl in Hb. injection Hb as <-. simpl in Hg. injection Hg as <-.
  rewrite !compute_length. simpl. discriminate.
Qed.
Print Assumptions C30_own_shape_refuted.

(** C32 *)
Theorem C32_scatter_order : forall init (ivs ivs' : list (nat * vec3 R)), Permutation ivs ivs' -> scatter_add vadd init ivs = scatter_add vadd init ivs'.
Proof. exact scatter_perm_V. Qed.
Print Assumptions C32_scatter_order.
Theorem C32_scatter_order_mass : forall init (ivs ivs' : list (nat * R)), Permutation ivs ivs' -> scatter_add (@nadd R Num_R) init ivs = scatter_add nadd init ivs'.
Proof. exact scatter_perm_R. Qed.
Print Assumptions C32_scatter_order_mass.
Theorem C32_p2g_any_row_order : forall rows rows' pts vel (g : Grid R), Permutation rows rows' -> p2g_with rows pts vel g = p2g_with rows' pts vel g.
Proof.
  intros rows rows' pts vel g P. unfold p2g_with. f_equal; [apply scatter_perm_R|apply scatter_perm_V|apply scatter_perm_V]; apply Permutation_map, P.
Qed.
Print Assumptions C32_p2g_any_row_order.
Theorem C32_p2g_usl_renumber : forall k (gd : GridDomain R) pts sigma, Permutation sigma (seq 0 (length pts)) -> forall s s' (g : Grid R),
  sb_pts s = pts -> sb_pts s' = renumber sigma pt0 pts ->
  p2g_usl (compute_on k gd (map pt_pos (renumber sigma pt0 pts))) s' g = p2g_usl (compute_on k gd (map pt_pos pts)) s g.
Proof. exact p2g_usl_renumber. Qed.
Print Assumptions C32_p2g_usl_renumber.
Theorem C32_p2g_aflip_renumber : forall k (gd : GridDomain R) pts sigma, Permutation sigma (seq 0 (length pts)) -> forall gdm Bp s s' (g : Grid R),
  length Bp = length pts -> sb_pts s = pts -> sb_pts s' = renumber sigma pt0 pts ->
  p2g_aflip gdm (renumber sigma mzero Bp) (compute_on k gd (map pt_pos (renumber sigma pt0 pts))) s' g = p2g_aflip gdm Bp (compute_on k gd (map pt_pos pts)) s g.
Proof. exact p2g_aflip_renumber. Qed.
Print Assumptions C32_p2g_aflip_renumber.
Theorem C32_g2p_usl_renumber : forall k (gd : GridDomain R) pts sigma, Permutation sigma (seq 0 (length pts)) -> forall alpha dt geos geos' (g : Grid R),
  g2p_usl alpha dt geos' (compute_on k gd (map pt_pos (renumber sigma pt0 pts))) g (renumber sigma pt0 pts)
  = renumber sigma pt0 (g2p_usl alpha dt geos (compute_on k gd (map pt_pos pts)) g pts).
Proof. exact g2p_usl_renumber. Qed.
Print Assumptions C32_g2p_usl_renumber.
Theorem C32_g2p_aflip_renumber : forall k (gd : GridDomain R) pts sigma, Permutation sigma (seq 0 (length pts)) -> forall a alpha dt gdm sF (g : Grid R),
  let r := g2p_aflip a alpha dt gdm sF (compute_on k gd (map pt_pos pts)) g pts in
  g2p_aflip a alpha dt gdm sF (compute_on k gd (map pt_pos (renumber sigma pt0 pts))) g (renumber sigma pt0 pts)
  = (renumber sigma pt0 (fst r), renumber sigma mzero (snd r)).
Proof. exact g2p_aflip_renumber. Qed.
Print Assumptions C32_g2p_aflip_renumber.
(** [renumber] lists the same particles in another order *)
Theorem C32_renumber_is_permutation : forall {A} sigma (d : A) l, Permutation sigma (seq 0 (length l)) -> Permutation (renumber sigma d l) l.
Proof. intros A. exact renumber_permutation. Qed.
Print Assumptions C32_renumber_is_permutation.
Example C32_case : let pts := [pt xa va sg meye; pt xb vb sg meye; pt xa vb sg meye] in
  Permutation [2; 0; 1]%nat (seq 0 (length pts)) /\ renumber [2; 0; 1]%nat pt0 pts = [pt xa vb sg meye; pt xa va sg meye; pt xb vb sg meye].
Proof. split; [|reflexivity]. simpl. apply Permutation_sym. apply (Permutation_app_comm [0; 1]%nat [2%nat]). Qed.

(** C34 *)
Theorem C34_p2g_affine : forall (S : Solver R) st w ca w2 ca2, prepare S st = Ok (w, ca) -> p2g S w (s_mech st) ca = Ok (w2, ca2) ->
  inside S (s_world st) -> forall gi g gd A b, nth_error (sc_grids ca2) gi = Some g -> nth_error (so_domains S) gi = Some gd -> wf_grid gd ->
  carries S (s_world st) gi gd A b -> affine_state S (s_mech st) gi gd A ->
  forall i a, (i < Z.to_nat (num_cells gd))%nat -> (a < dim_nat (gd_dim gd))%nat ->
  vcomp a (nth i (gr_mom g) vzero) = nth i (gr_mass g) 0 * aff (gd_dim gd) A b a (nth i (position_stack gd) vzero).
Proof. exact p2g_affine. Qed.
Print Assumptions C34_p2g_affine.
(** a full step: velocities, positions and velocity gradients of the affine motion *)
Theorem C34_step_affine : forall (S : Solver R) st st' w ca w2 ca2 ca3, prepare S st = Ok (w, ca) -> p2g S w (s_mech st) ca = Ok (w2, ca2) ->
  integrate_grid S w2 (s_mech st) (s_dt st) ca2 = Ok ca3 -> solver_step S st = Ok st' ->
  inside S (s_world st) -> NoDup (map c_p (active S)) -> so_forces S = [] ->
  forall gi g gd A b, nth_error (sc_grids ca3) gi = Some g -> nth_error (so_domains S) gi = Some gd -> wf_grid gd ->
  moves_affinely S (s_world st) gi gd A b -> affine_state S (s_mech st) gi gd A -> stress_free (s_world st) S gi ->
  0 <= cut_of S ->
  forall c, In c (active_on S gi) -> heavy S (s_world st) g c -> smooth_body A S (s_world st) gd c ->
  let d := gd_dim gd in let F' p := F_next d (s_dt st) (grad_of S d A) (pt_F p) in
  Forall2 (fun p q => (unlimited S gi gd (s_world st) (s_dt st) -> pt_vel q = pt_vel p) /\ pt_pos q = vadd (pt_pos p) (vscale (s_dt st) (pt_vel p)) /\
      pt_L q = grad_of S d A /\ pt_vol q = mdet (F' p) * pt_vol0 p /\ pt_mass q = pt_mass p)
    (pts_at (s_world st) (c_p c)) (pts_at (s_world st') (c_p c)) /\
  (forall w3 m3, g2p S w2 (s_mech st) (s_dt st) ca3 = Ok (w3, m3) ->
     Forall2 (fun p q => pt_F q = F' p) (pts_at (s_world st) (c_p c)) (pts_at w3 (c_p c))).
Proof. exact step_affine. Qed.
Print Assumptions C34_step_affine.
(** and the stored affine matrices are again -A *)
Theorem C34_stored_affine : forall (S : Solver R) a st st' w ca w2 ca2 ca3, so_scheme S = ASFLIP a ->
  prepare S st = Ok (w, ca) -> p2g S w (s_mech st) ca = Ok (w2, ca2) ->
  integrate_grid S w2 (s_mech st) (s_dt st) ca2 = Ok ca3 -> solver_step S st = Ok st' ->
  inside S (s_world st) -> NoDup (map c_p (active S)) -> so_forces S = [] ->
  forall gi g gd A b, nth_error (sc_grids ca3) gi = Some g -> nth_error (so_domains S) gi = Some gd -> wf_grid gd ->
  moves_affinely S (s_world st) gi gd A b -> affine_state S (s_mech st) gi gd A -> stress_free (s_world st) S gi -> 0 <= af_cutoff a ->
  forall c, In c (active_on S gi) -> heavy S (s_world st) g c -> smooth_body A S (s_world st) gd c ->
  exists Bp, nth_error (m_solvers (s_mech st')) (c_p c) = Some (Some (SS_AFLIP Bp)) /\
    length Bp = length (pts_at (s_world st) (c_p c)) /\ forall B, In B Bp -> B = mopp (mplane (gd_dim gd) A).
Proof. exact step_affine_state. Qed.
Print Assumptions C34_stored_affine.
(** a shear flow with both bodies of [drift]'s shape *)
Definition Aex : mat3 R := M3 (1/10) (1/5) 0 (-1/10) (1/20) 0 0 0 0.
Definition affine_body (A : mat3 R) (b : vec3 R) : Body R := two (affv D2 A b xa) (affv D2 A b xb) mzero.
Definition affine_bodies (A : mat3 R) (b : vec3 R) : list (Body R) := [affine_body A b; affine_body A b].
Lemma affine_two A b : Forall is_two (affine_bodies A b).
Proof. repeat constructor; eexists; eexists; eexists; reflexivity. Qed.
Lemma affine_ex A b al dt : let S := solverR (ASFLIP aflipR) al 2 in let st := stateR (affine_bodies A b) (mopp (mplane D2 A)) dt in
  exists st' w ca w2 ca2 ca3 g, prepare S st = Ok (w, ca) /\ p2g S w (s_mech st) ca = Ok (w2, ca2) /\
  integrate_grid S w2 (s_mech st) (s_dt st) ca2 = Ok ca3 /\ solver_step S st = Ok st' /\
  inside S (s_world st) /\ NoDup (map c_p (active S)) /\ so_forces S = [] /\ nth_error (sc_grids ca3) 0 = Some g /\ wf_grid g2 /\
  moves_affinely S (s_world st) 0 g2 A b /\ affine_state S (s_mech st) 0 g2 A /\ stress_free (s_world st) S 0 /\ 0 <= cut_of S /\
  In (cpl 0) (active_on S 0) /\ heavy S (s_world st) g (cpl 0) /\ smooth_body A S (s_world st) g2 (cpl 0).
Proof.
  intros S st. assert (X : exists st', solver_step S st = Ok st') by (eexists; reflexivity). destruct X as (st' & E).
  destruct (ex_phases _ _ _ E) as (w & ca & w2 & ca2 & ca3 & E1 & E2 & E3).
  destruct (ex_grid0 _ _ _ _ _ _ _ _ _ E1 E2 E3) as (g & Eg). exists st', w, ca, w2, ca2, ca3, g.
  assert (Hc : In (cpl 0) (active_on S 0)) by (unfold S; rewrite ex_act; left; reflexivity).
  assert (Dr : forall c p, In c (active_on S 0) -> In p (pts_at (s_world st) (c_p c)) ->
     p = pt xa (affv D2 A b xa) mzero meye \/ p = pt xb (affv D2 A b xb) mzero meye).
  { intros c p Hc' Hp. unfold S in Hc'. rewrite ex_act in Hc'. destruct Hc' as [<-|[<-|[]]]; destruct Hp as [<-|[<-|[]]]; auto. }
  repeat (split; [assumption|]). split; [apply ex_inside, affine_two|]. split; [apply ex_nodup|]. split; [reflexivity|].
  split; [exact Eg|]. split; [exact g2_wf|]. split; [|split; [|split; [|split; [|split; [exact Hc|split]]]]].
  - intros c p Hc' Hp. destruct (Dr c p Hc' Hp) as [-> | ->]; reflexivity.
  - unfold affine_state. cbn [so_scheme S solverR]. intros c si Bp Hc' Es En. unfold S in Hc'. rewrite ex_act in Hc'.
    destruct Hc' as [<-|[<-|[]]]; simpl in Es; injection Es as <-; cbn [nth_error m_solvers s_mech st stateR map affine_bodies] in En; injection En as <-;
      (split; [discriminate|]); intros B [<-|[<-|[]]]; reflexivity.
  - intros c p Hc' Hp. destruct (Dr c p Hc' Hp) as [-> | ->]; reflexivity.
  - apply ex_cut. right. reflexivity.
  - eapply (ex_heavy (ASFLIP aflipR) al (affine_bodies A b) _ dt); try eassumption; [apply affine_two|]. apply ex_cut. right. reflexivity.
  - intros k p Hk Hp. change (last_kernel (so_couplings S) (c_p (cpl 0)) (c_g (cpl 0))) with (Some Quadratic) in Hk. injection Hk as <-. intros X. discriminate.
Qed.
Example C34_case : let S := solverR (ASFLIP aflipR) (1/2) 2 in let st := stateR (affine_bodies Aex va) (mopp (mplane D2 Aex)) (1/10) in
  exists st' w ca w2 ca2 ca3 g, prepare S st = Ok (w, ca) /\ p2g S w (s_mech st) ca = Ok (w2, ca2) /\
  integrate_grid S w2 (s_mech st) (s_dt st) ca2 = Ok ca3 /\ solver_step S st = Ok st' /\
  inside S (s_world st) /\ NoDup (map c_p (active S)) /\ so_forces S = [] /\ nth_error (sc_grids ca3) 0 = Some g /\ wf_grid g2 /\
  moves_affinely S (s_world st) 0 g2 Aex va /\ affine_state S (s_mech st) 0 g2 Aex /\ stress_free (s_world st) S 0 /\ 0 <= cut_of S /\
  In (cpl 0) (active_on S 0) /\ heavy S (s_world st) g (cpl 0) /\ smooth_body Aex S (s_world st) g2 (cpl 0).
Proof. apply affine_ex. Qed.

(** C35 *)
Theorem C35_speed_limit_partial : forall (S : Solver R) a gd st st' w ca w2 ca2 ca3, prepare S st = Ok (w, ca) -> p2g S w (s_mech st) ca = Ok (w2, ca2) ->
  integrate_grid S w2 (s_mech st) (s_dt st) ca2 = Ok ca3 -> solver_step S st = Ok st' -> NoDup (map c_p (active S)) -> so_scheme S = ASFLIP a ->
  forall c g p, In c (so_couplings S) -> c_skip c = false -> nth_error (sc_grids ca3) (c_g c) = Some g -> nth_error (so_domains S) (c_g c) = Some gd ->
  0 <= af_cfl a * gd_cell gd / s_dt st -> In p (pts_at (s_world st') (c_p c)) ->
  vnorm (pt_vel p) <= af_cfl a * gd_cell gd / s_dt st.
Proof.
  intros S a gd st st' w ca w2 ca2 ca3 E1 E2 E3 E Nd Sch c g p Hc Hs Eg Egd Hl Hp. apply (In_nth _ _ pt0) in Hp. destruct Hp as (n & Hn & <-).
  assert (Ln : length (pts_at (s_world st') (c_p c)) = length (pts_at (s_world st) (c_p c))).
  { destruct (pts_at (s_world st) (c_p c)) as [|x l] eqn:Ep.
    - destruct (step_point_gen S st st' w ca w2 ca2 ca3 E1 E2 E3 E Nd c g Hc Hs Eg) as (s & qs & m1 & m2 & _ & U & G & K).
      rewrite Ep in U. unfold g2p_result in G. rewrite Sch in G. destruct G as (_ & gd' & B & _ & _ & -> & _).
      apply Forall2_len in K. rewrite g2p_aflip_length in K. apply Forall2_len in U. lia.
    - rewrite <- Ep. apply (aflip_step_point S st st' w ca w2 ca2 ca3 E1 E2 E3 E Nd c g Hc Hs Eg a gd 0 Sch Egd). rewrite Ep. simpl. lia. }
  destruct (aflip_step_point S st st' w ca w2 ca2 ca3 E1 E2 E3 E Nd c g Hc Hs Eg a gd n Sch Egd ltac:(lia)) as (_ & _ & V & _).
  rewrite V. apply clamp_speed, Hl.
Qed.
Print Assumptions C35_speed_limit_partial.
(** the position update is not limited: uniform velocity (100,0,0), dt = 1/10, cell 1, cfl_limit 1 moves a particle by 10 cells *)
Definition fast : vec3 R := V3 100 0 0.
Theorem C35_displacement_refuted : exists (S : Solver R) a st st', so_scheme S = ASFLIP a /\ solver_step S st = Ok st' /\
  af_cfl a = 1 /\ so_domains S = [g2] /\ gd_cell g2 = 1 /\ s_dt st = 1/10 /\
  vnorm (vsub (pt_pos (nth 0 (pts_at (s_world st') 0) pt0)) (pt_pos (nth 0 (pts_at (s_world st) 0) pt0))) = 10.
Proof.
  set (S := solverR (ASFLIP aflipR) (1/2) 2). set (st := stateR (affine_bodies mzero fast) (mopp (mplane D2 mzero)) (1/10)).
  destruct (affine_ex mzero fast (1/2) (1/10)) as (st' & w & ca & w2 & ca2 & ca3 & g & E1 & E2 & E3 & E & H1 & H2 & H3 & Eg & W & H4 & H5 & H6 & H7 & H8 & H9 & H10).
  destruct (step_affine _ _ _ _ _ _ _ _ E1 E2 E3 E H1 H2 H3 0%nat g g2 mzero fast Eg eq_refl W H4 H5 H6 H7 (cpl 0) H8 H9 H10) as (F & _).
  exists S, aflipR, st, st'. split; [reflexivity|]. split; [exact E|]. repeat (split; [reflexivity|]).
  pose proof (Forall2_nth_d _ _ _ pt0 pt0 0%nat F ltac:(cbv; lia)) as (_ & P & _). cbn [cpl c_p] in P. change (s_world st) with (s_world (stateR (affine_bodies mzero fast) (mopp (mplane D2 mzero)) (1/10))).
  rewrite P. change (nth 0 (pts_at (s_world (stateR (affine_bodies mzero fast) (mopp (mplane D2 mzero)) (1/10))) 0) pt0) with (pt xa (affv D2 mzero fast xa) mzero meye).
  rewrite affv_uniform. cbn [pt pt_pos pt_vel s_dt stateR].
  replace (vsub (vadd xa (vscale (1/10) (vtrunc D2 fast))) xa) with (vscale 10 (V3 1 0 0) : vec3 R).
  - rewrite vnorm_scale by lra. unfold vnorm, vdot; simpl; rnum. replace (1 * 1 + 0 * 0 + 0 * 0) with 1 by ring. rewrite sqrt_1. ring.
  - apply vec3_eq; simpl; rnum; unfold fast; simpl; lra.
Qed.
Print Assumptions C35_displacement_refuted.

(** C36 *)
Theorem C36_dynamic_alpha_range : forall (a : AFLIP R) al s m, 0 <= al -> 0 <= dynamic_alpha a al s m <= al.
Proof. exact dynamic_alpha_range. Qed.
Print Assumptions C36_dynamic_alpha_range.
(** thresholds: the code's own 1.1 and 1.5, whatever alpha_support_min and alpha_support_max are *)
Theorem C36_default_thresholds_partial : forall (a : AFLIP R) al s m, af_dynamic a = true -> 0 < m ->
  (s / (m + 1 / 10 ^ 9) <= 11 / 10 -> dynamic_alpha a al s m = 0) /\ (15 / 10 <= s / (m + 1 / 10 ^ 9) -> dynamic_alpha a al s m = al).
Proof. intros a al s m D _. split; [apply dynamic_alpha_low, D|apply dynamic_alpha_high, D]. Qed.
Print Assumptions C36_default_thresholds_partial.
Theorem C36_thresholds_refuted : exists (a : AFLIP R) al s m, af_dynamic a = true /\ 0 < al /\ 0 < m /\ af_support_min a = 2 /\ af_support_max a = 3 /\
  s / m <= af_support_min a /\ dynamic_alpha a al s m = al.
Proof.
  exists {| af_dynamic := true; af_support_min := 2; af_support_max := 3; af_beta_min := 0; af_beta_max := 1; af_mls := true; af_cutoff := 0; af_cfl := 1 |}, 1, 2, 1.
  cbn [af_dynamic af_support_min af_support_max]. repeat split; try lra. apply dynamic_alpha_high; [reflexivity|].
  replace (10 ^ 9) with 1000000000 by ring. lra.
Qed.
Print Assumptions C36_thresholds_refuted.

(** C37: the matrices written for body c_p are those of its own G2P, stored under the body index; they are read back under c_s *)
Theorem C37_affine_ownership_partial : forall (S : Solver R) a st st' w ca w2 ca2 ca3, so_scheme S = ASFLIP a ->
  prepare S st = Ok (w, ca) -> p2g S w (s_mech st) ca = Ok (w2, ca2) ->
  integrate_grid S w2 (s_mech st) (s_dt st) ca2 = Ok ca3 -> solver_step S st = Ok st' -> NoDup (map c_p (active S)) ->
  forall c g, In c (so_couplings S) -> c_skip c = false -> nth_error (sc_grids ca3) (c_g c) = Some g -> c_s c = Some (c_p c) ->
  exists Bp, idx_opt (m_solvers (s_mech st')) (c_s c) = Ok (Some (SS_AFLIP Bp)) /\
    length Bp = length (pts_at (s_world st) (c_p c)) /\
    forall p, (p < length Bp)%nat -> nth p Bp mzero = af_B (af_cutoff a) (rows_of S (s_world st) c) g p.
Proof.
  intros S a st st' w ca w2 ca2 ca3 Sch E1 E2 E3 E Nd c g Hc Hs Eg Es.
  destruct (step_stored S a st st' w ca w2 ca2 ca3 Sch E1 E2 E3 E Nd c g Hc Hs Eg) as (Bp & H1 & H2 & H3). exists Bp.
  rewrite Es. unfold idx_opt, idx. rewrite H1. auto.
Qed.
Print Assumptions C37_affine_ownership_partial.
Example C37_case : let S := solverR (ASFLIP aflipR) (1/2) 2 in let st := stateR twoR mzero (1/10) in exists st' w ca w2 ca2 ca3 g,
  prepare S st = Ok (w, ca) /\ p2g S w (s_mech st) ca = Ok (w2, ca2) /\ integrate_grid S w2 (s_mech st) (s_dt st) ca2 = Ok ca3 /\
  solver_step S st = Ok st' /\ NoDup (map c_p (active S)) /\ nth_error (sc_grids ca3) 0 = Some g /\ c_s (cpl 1) = Some (c_p (cpl 1)).
Proof.
  intros S st. assert (X : exists st', solver_step S st = Ok st') by (eexists; reflexivity). destruct X as (st' & E).
  destruct (ex_phases _ _ _ E) as (w & ca & w2 & ca2 & ca3 & E1 & E2 & E3).
  destruct (ex_grid0 _ _ _ _ _ _ _ _ _ E1 E2 E3) as (g & Eg). exists st', w, ca, w2, ca2, ca3, g.
  repeat (split; [assumption|]). split; [apply ex_nodup|]. auto.
Qed.
(** bodies coupled in the order 1, 0 (the builder numbers solver states by coupling): body 1 reads what body 0 wrote *)
Definition three (v : vec3 R) : Body R := bodyR [pt xa v mzero meye; pt xb v mzero meye; pt xa va mzero meye].
Definition cross (p s : nat) : Coupling := {| c_kernel := Quadratic; c_p := p; c_g := 0; c_c := Some s; c_s := Some s; c_skip := false |}.
Definition crossed : Solver R :=
  {| so_scheme := ASFLIP aflipR; so_alpha := 1/2; so_domains := [g2]; so_couplings := [cross 1 0; cross 0 1];
     so_laws := [Some lawR; Some lawR]; so_forces := []; so_sdfs := []; so_sharp := 1 |}.
Definition crossed_state : SimState R :=
  {| s_world := {| w_mps := [two va vb mzero; three vb]; w_sdfs := [] |};
     s_mech := {| m_laws := [lstate (three vb); lstate (two va vb mzero)];
                  m_solvers := [Some (SS_AFLIP (repeat mzero 3)); Some (SS_AFLIP (repeat mzero 2))]; m_forces := [] |};
     s_time := 0; s_step := 0; s_dt := 1/10 |}.
Theorem C37_affine_ownership_refuted : exists (S : Solver R) st st' w ca w2 ca2 ca3 g Bp, prepare S st = Ok (w, ca) /\ p2g S w (s_mech st) ca = Ok (w2, ca2) /\
  integrate_grid S w2 (s_mech st) (s_dt st) ca2 = Ok ca3 /\ solver_step S st = Ok st' /\ nth_error (sc_grids ca3) 0 = Some g /\
  so_couplings S = [cross 1 0; cross 0 1] /\
  (* what the coupling of body 1 reads in the next step *)
  idx_opt (m_solvers (s_mech st')) (c_s (cross 1 0)) = Ok (Some (SS_AFLIP Bp)) /\
  length Bp = length (pts_at (s_world st) 0) /\ length Bp <> length (pts_at (s_world st) 1) /\
  (forall p, (p < length Bp)%nat -> nth p Bp mzero = af_B (af_cutoff aflipR) (rows_of S (s_world st) (cross 0 1)) g p).
Proof.
  assert (X : exists st', solver_step crossed crossed_state = Ok st') by (eexists; reflexivity). destruct X as (st' & E).
  destruct (ex_phases _ _ _ E) as (w & ca & w2 & ca2 & ca3 & E1 & E2 & E3).
  assert (G : exists g, nth_error (sc_grids ca3) 0 = Some g).
  { pose proof (proj1 (integrate_same_mm _ _ _ _ _ _ E3)) as F. destruct (p2g_grids _ _ _ _ _ _ E1 E2) as (gs & X & _ & _ & F' & _). subst gs.
    apply Forall2_len in F. apply Forall2_len in F'. simpl in F'. destruct (nth_error (sc_grids ca3) 0) eqn:N; [eauto|]. apply nth_error_None in N. lia. }
  destruct G as (g & Eg).
  assert (Nd : NoDup (map c_p (active crossed))) by (simpl; repeat constructor; simpl; intuition lia).
  destruct (step_stored crossed aflipR _ _ _ _ _ _ _ eq_refl E1 E2 E3 E Nd (cross 0 1) g (or_intror (or_introl eq_refl)) eq_refl Eg) as (Bp & H1 & H2 & H3).
  exists crossed, crossed_state, st', w, ca, w2, ca2, ca3, g, Bp. repeat (split; [first [assumption|reflexivity]|]).
  split; [cbn [cross c_s idx_opt]; unfold idx; cbn [cross c_p] in H1; rewrite H1; reflexivity|].
  split; [exact H2|]. split; [|exact H3]. rewrite H2. simpl. discriminate.
Qed.
Print Assumptions C37_affine_ownership_refuted.

(** C38 *)
Theorem C38_classic_apic_refuted : forall {T} {NT : NumT T} (S : Solver T) a st, so_scheme S = ASFLIP a -> af_mls a = false ->
  (exists c, In c (so_couplings S) /\ c_skip c = false) -> forall st', solver_step S st <> Ok st'.
Proof. intros T NT S a st Sch M (c & Hc & Hs) st' E. rewrite (no_classic_apic S a st st' Sch M E c Hc) in Hs. discriminate. Qed.
Print Assumptions C38_classic_apic_refuted.
Definition classicR : AFLIP R := {| af_dynamic := false; af_support_min := 11/10; af_support_max := 15/10; af_beta_min := 0; af_beta_max := 1;
  af_mls := false; af_cutoff := 1 / 10 ^ 12; af_cfl := 1 |}.
Example C38_case : let S := solverR (ASFLIP classicR) (1/2) 2 in (exists c, In c (so_couplings S) /\ c_skip c = false) /\
  solver_step S (stateR twoR mzero (1/10)) = Err AttributeError.
Proof. intros S. split; [exists (cpl 0); split; [left; reflexivity|reflexivity]|reflexivity]. Qed.

(** C87 *)
Theorem C87_virial : forall (w : World R) c gd a b, wf_grid gd -> (a < dim_nat (gd_dim gd))%nat -> (b < dim_nat (gd_dim gd))%nat ->
  (forall p, In p (pts_at w (c_p c)) -> interior (c_kernel c) gd (pt_pos p) /\ off_lines (c_kernel c) gd (pt_pos p)) ->
  sumR (fun i => vcomp a (body_force w c gd i) * vcomp b (nth i (position_stack gd) vzero)) (seq 0 (Z.to_nat (num_cells gd)))
  = sumR (fun p => pt_vol p * mcomp a b (pt_stress p)) (pts_at w (c_p c)).
Proof. exact force_virial. Qed.
Print Assumptions C87_virial.
Theorem C87_no_torque : forall (w : World R) c gd a b, wf_grid gd -> (a < dim_nat (gd_dim gd))%nat -> (b < dim_nat (gd_dim gd))%nat ->
  (forall p, In p (pts_at w (c_p c)) -> interior (c_kernel c) gd (pt_pos p) /\ off_lines (c_kernel c) gd (pt_pos p)) ->
  (forall p, In p (pts_at w (c_p c)) -> mtrans (pt_stress p) = pt_stress p) ->
  sumR (fun i => vcomp a (body_force w c gd i) * vcomp b (nth i (position_stack gd) vzero)
                 - vcomp b (body_force w c gd i) * vcomp a (nth i (position_stack gd) vzero)) (seq 0 (Z.to_nat (num_cells gd))) = 0.
Proof. exact force_torque. Qed.
Print Assumptions C87_no_torque.
(** [body_force] is what P2G leaves on the nodes of a grid with one body: C18 *)
Theorem C87_nodal_virial : forall (S : Solver R) st w ca w2 ca2, prepare S st = Ok (w, ca) -> p2g S w (s_mech st) ca = Ok (w2, ca2) ->
  inside S (s_world st) -> one_kernel S -> forall gi g gd c a b, nth_error (sc_grids ca2) gi = Some g -> nth_error (so_domains S) gi = Some gd -> wf_grid gd ->
  (exists l, active_on S gi = l ++ [c]) -> (a < dim_nat (gd_dim gd))%nat -> (b < dim_nat (gd_dim gd))%nat ->
  (forall p, In p (pts_at (s_world st) (c_p c)) -> off_lines (c_kernel c) gd (pt_pos p)) ->
  sumR (fun i => vcomp a (nth i (gr_force g) vzero) * vcomp b (nth i (position_stack gd) vzero)) (seq 0 (Z.to_nat (num_cells gd)))
  = sumR (fun p => pt_vol p * mcomp a b (pt_stress p)) (pts_at (s_world st) (c_p c)).
Proof.
  intros S st w ca w2 ca2 E1 E2 Hin O gi g gd c a b Eg Egd W (l & Ea) Ha Hb Off.
  rewrite <- (force_virial (s_world st) c gd a b W Ha Hb).
  - apply sumR_ext. intros i Hi. apply in_seq in Hi. rewrite (p2g_force_last S st w ca w2 ca2 E1 E2 Hin O gi g gd i Eg Egd ltac:(lia) l c Ea). reflexivity.
  - intros p Hp. split; [|apply Off, Hp]. assert (Hc : In c (active_on S gi)) by (rewrite Ea; apply in_or_app; right; left; reflexivity).
    apply active_on_in in Hc. destruct Hc as (Hc & _ & <-). apply (Hin c gd Hc Egd). exact Hp.
Qed.
Print Assumptions C87_nodal_virial.
Example C87_case : let w := s_world (stateR twoR mzero (1/10)) in
  wf_grid g2 /\ (forall p, In p (pts_at w (c_p (cpl 0))) -> interior (c_kernel (cpl 0)) g2 (pt_pos p) /\ off_lines (c_kernel (cpl 0)) g2 (pt_pos p)) /\
  (forall p, In p (pts_at w (c_p (cpl 0))) -> mtrans (pt_stress p) = pt_stress p) /\
  sumR (fun p => pt_vol p * mcomp 0 1 (pt_stress p)) (pts_at w (c_p (cpl 0))) = 4.
Proof.
  intros w. split; [exact g2_wf|]. split; [|split].
  - intros p Hp. split; [|intros X; discriminate]. destruct Hp as [<-|[<-|[]]]; [apply xa_interior|apply xb_interior].
  - intros p Hp. destruct Hp as [<-|[<-|[]]]; reflexivity.
  - unfold sumR; simpl; lra.
Qed.

(** C88: a step with particle dampings of coupled bodies is the step without them *)
Theorem C88_particle_damping_ignored : forall (S : Solver R) st st', solver_step S st = Ok st' ->
  (forall d p, In (FDamping d) (so_forces S) -> dm_on_grid d = false -> In p (dm_ps d) -> coupled (so_couplings S) p = true) ->
  solver_step (without particle_damping S) st = Ok st'.
Proof. exact particle_damping_ignored. Qed.
Print Assumptions C88_particle_damping_ignored.
Definition dampedR : Solver R :=
  {| so_scheme := USL; so_alpha := 1/2; so_domains := [g2]; so_couplings := [cpl 0; cpl 1]; so_laws := [Some lawR; Some lawR];
     so_forces := [FDamping {| dm_on_grid := false; dm_ps := [0; 1]%nat; dm_gs := []; dm_f := 0 |}]; so_sdfs := []; so_sharp := 1 |}.
Definition damped_state : SimState R := let st := stateR twoR mzero (1/10) in
  {| s_world := s_world st; s_mech := {| m_laws := m_laws (s_mech st); m_solvers := m_solvers (s_mech st); m_forces := [Some (FS_Damping (1/2))] |};
     s_time := 0; s_step := 0; s_dt := 1/10 |}.
Theorem C88_particle_damping_refuted : exists (S : Solver R) st st', solver_step S st = Ok st' /\
  so_forces S = [FDamping {| dm_on_grid := false; dm_ps := [0; 1]%nat; dm_gs := []; dm_f := 0 |}] /\ m_forces (s_mech st) = [Some (FS_Damping (1/2))] /\
  (exists p, In p (pts_at (s_world st) 0) /\ pt_stress p <> mzero) /\
  so_forces (without particle_damping S) = [] /\ solver_step (without particle_damping S) st = Ok st'.
Proof.
  assert (X : exists st', solver_step dampedR damped_state = Ok st') by (eexists; reflexivity). destruct X as (st' & E).
  exists dampedR, damped_state, st'. split; [exact E|]. split; [reflexivity|]. split; [reflexivity|]. split; [|split; [reflexivity|]].
  - exists (pt xa va sg meye). split; [left; reflexivity|]. intro X. apply (f_equal m00) in X. simpl in X. revert X. rnum. lra.
  - apply C88_particle_damping_ignored; [exact E|]. intros d p [Hd|[]] _ Hp. injection Hd as <-. destruct Hp as [<-|[<-|[]]]; reflexivity.
Qed.
Print Assumptions C88_particle_damping_refuted.
