(** Angular momentum through G2P (C126). *)
From Coq Require Import List Arith ZArith Reals Bool Lra Lia.
From Flocq Require Import Core.Raux.
From Verif Require Import Num NumR Linalg Arrays ModelGrid ModelShape ModelMath ModelState ModelLaws ModelForces ModelSolver
  Sums ShapeFacts SpecShape ShapeProofs ShapeProofs2 ShapeProofs3 MappingProofs ResFacts SolverFacts SpecSolver
  TransferProofs TransferProofs2 StepProofs GatherProofs MomentumProofs AffineProofs StepAffine HeavyProofs SolverMore EnergyProofs.
Import ListNotations.
Local Open Scope R_scope.

(** first moment of the nodal velocities about a particle, in cells *)
Definition lever (cut : R) (rows : list (Interaction R)) (g : Grid R) (n a b : nat) : R :=
  sumR (fun it => it_val it * (vcomp a (it_dist it) * vcomp b (node_vel cut (gr_dim g) g (gr_mom_nt g) it))) (of_point n rows).

Section Gather.
Variables (S : Solver R) (st : SimState R) (w : World R) (ca : SimCache R) (w2 : World R) (ca2 ca3 : SimCache R).
Hypothesis E1 : prepare S st = Ok (w, ca).
Hypothesis E2 : p2g S w (s_mech st) ca = Ok (w2, ca2).
Hypothesis E3 : integrate_grid S w2 (s_mech st) (s_dt st) ca2 = Ok ca3.
Hypothesis Hin : inside S (s_world st).
Variables (gi : nat) (g : Grid R) (gd : GridDomain R).
Hypothesis Eg : nth_error (sc_grids ca3) gi = Some g.
Hypothesis Egd : nth_error (so_domains S) gi = Some gd.
Hypothesis W : wf_grid gd.
Let N := Z.to_nat (num_cells gd).
Lemma gather_grid : exists g2, nth_error (sc_grids ca2) gi = Some g2 /\ gr_mass g = gr_mass g2 /\ gr_dim g = gd_dim gd /\ length (gr_mass g) = N.
Proof.
  destruct (integrate_same_mm _ _ _ _ _ _ E3) as (SM & _). destruct (Forall2_nth_error _ _ _ _ _ SM Eg) as (g2 & Eg2 & Ed & Em & _).
  destruct (p2g_grids _ _ _ _ _ _ E1 E2) as (gs & X & _ & _ & F & _). subst gs.
  destruct (Forall2_nth_error_l _ _ _ _ _ F Egd) as (g' & Eg' & Hok). rewrite Eg2 in Eg'. injection Eg' as <-. destruct Hok as (Hd & Lm & _).
  exists g2. split; [exact Eg2|]. split; [exact Em|]. split; [congruence|]. rewrite Em. exact Lm.
Qed.
Lemma gather_first cut a b : 0 <= cut -> (a < dim_nat (gd_dim gd))%nat -> (b < dim_nat (gd_dim gd))%nat -> above cut g (gr_mom_nt g) b ->
  sumR (fun c => sumR (fun n => let p := pt_in (s_world st) c n in let rows := rows_of S (s_world st) c in
      pt_mass p * (vcomp a (pt_pos p) * vcomp b (pic_vel cut rows g (gr_mom_nt g) n) - gd_cell gd * lever cut rows g n a b))
      (seq 0 (length (pts_at (s_world st) (c_p c))))) (active_on S gi)
  = sumR (fun i => vcomp a (nth i (position_stack gd) vzero) * vcomp b (nth i (gr_mom_nt g) vzero)) (seq 0 N).
Proof.
  intros Hcut Ha Hb Ab. destruct gather_grid as (g2 & Eg2 & Em & Ed & Lm).
  transitivity (sumR (fun c => sumR (fun i => vcomp a (nth i (position_stack gd) vzero) * Uvel cut g (gr_mom_nt g) b i * node_mass_of S (s_world st) c i) (seq 0 N)) (active_on S gi)).
  - apply sumR_ext. intros c Hc.
    destruct (active_rows _ _ _ _ _ _ E1 E2 Hin gi gd c Egd Hc) as (Ws & k & _ & Er & I). rewrite Er.
    set (pts := pts_at (s_world st) (c_p c)) in *. set (xs := map pt_pos pts) in *. set (P := fun n => nth n pts pt0).
    set (V := fun it => vcomp b (node_vel cut (gr_dim g) g (gr_mom_nt g) it)).
    set (F := fun it => vcomp a (row_pos gd it) * (it_val it * pt_mass (P (it_point it)) * V it)).
    transitivity (sumR F (compute_on k gd xs)).
    + rewrite sum_by_point. replace (length xs) with (length pts) by (symmetry; apply map_length). apply sumR_ext. intros n Hn. apply in_seq in Hn.
      assert (En : nth n xs vzero = pt_pos (P n)) by (apply xs_nth).
      assert (In_ : interior k gd (nth n xs vzero)) by (rewrite En; apply I, nth_In; fold pts; lia).
      cbv zeta. unfold pt_in. fold pts. fold (P n). unfold pic_vel, lever. rewrite vcomp_vsum, <- !sumR_scal, <- sumR_minus, <- sumR_scal.
      apply sumR_ext. intros it Hit. pose proof (interior_rows_in_grid k gd xs n it Ws In_ Hit) as Rg.
      apply in_of_point in Hit. destruct Hit as (Hit & Hp). unfold F, V. rewrite vcomp_scale.
      rewrite (hash_pos_dist k gd xs it a W Hit) by (rewrite ?Hp; assumption). rewrite Hp, En. ring.
    + rewrite (sum_by_node k gd xs F) by exact Ws. apply sumR_ext. intros i Hi. unfold node_mass_of. rewrite Er. rewrite <- sumR_scal.
      apply sumR_ext. intros it Hit. apply in_at_node in Hit. destruct Hit as (_ & Hh). unfold F, V, row_pos.
      rewrite node_vel_comp by (rewrite Ed; exact Hb). rewrite Hh, Nat2Z.id. unfold P, pts. ring.
  - rewrite sumR_swap. apply sumR_ext. intros i Hi. apply in_seq in Hi. rewrite sumR_scal.
    rewrite <- (node_mass0 S st w ca w2 ca2 E1 E2 Hin gi g2 gd i Eg2 Egd) by (fold N; lia). rewrite <- Em. unfold Uvel.
    destruct (Ab i ltac:(lia)) as [L|Z].
    + destruct (Rlt_dec cut (nth i (gr_mass g) 0)); [|contradiction]. field. lra.
    + rewrite Z. destruct (Rlt_dec cut (nth i (gr_mass g) 0)); [field; lra|ring].
Qed.
End Gather.

(** the linear kernel: a row's gradient is its weighted lever arm over the second moment *)
Lemma linear_axis inv b o : In o (window Linear) ->
  axis_second Linear b * dbasis Linear inv (b - IZR (base_id Linear b + o)) = - inv * (basis Linear (b - IZR (base_id Linear b + o)) * (b - IZR (base_id Linear b + o))).
Proof.
  intros Ho. unfold axis_second. change (Zfloor b) with (base_id Linear b). set (f := b - IZR (base_id Linear b)).
  assert (Hf : 0 <= f < 1). { unfold f. simpl. pose proof (Zfloor_lb b). pose proof (Zfloor_ub b). lra. }
  rewrite plus_IZR. replace (b - (IZR (base_id Linear b) + IZR o)) with (f - IZR o) by (unfold f; ring). fold f. clearbody f.
  assert (H : o = 0%Z \/ o = 1%Z) by (simpl in Ho; lia). simpl dbasis. simpl basis. destruct (Req_dec f 0) as [Z|Z].
  - rewrite Z. destruct H as [-> | ->].
    + replace (0 - IZR 0) with 0 by (simpl; lra). rewrite dlin_0. ring.
    + rewrite dlin_out, lin_neg by (simpl; lra). simpl. lra.
  - destruct H as [-> | ->].
    + rewrite dlin_pos, lin_pos by (simpl; lra). simpl. ring.
    + rewrite dlin_neg, lin_neg by (simpl; lra). simpl. ring.
Qed.
Lemma linear_row gd xs it a : In it (compute_on Linear gd xs) -> (a < dim_nat (gd_dim gd))%nat ->
  point_second Linear gd a (nth (it_point it) xs vzero) * vcomp a (it_grad it) = - gd_inv gd * (it_val it * vcomp a (it_dist it)).
Proof.
  intros Hit Ha. destruct (compute_row Linear gd xs it Hit) as (off & Ho & _ & _ & _ & E).
  set (x := nth (it_point it) xs vzero) in *. rewrite E. unfold single_interaction. cbn [it_grad it_val it_dist].
  fold (bpos gd x). set (b := bpos gd x).
  assert (Eb : point_second Linear gd a x = axis_second Linear (vcomp a b)).
  { unfold point_second, gcoord, b, bpos, base_pos. rnum. destruct (gd_dim gd), a as [|[|[|a]]]; simpl in Ha; try lia; reflexivity. }
  rewrite Eb. clearbody b. clear Eb.
  destruct (idx_valid (gd_size gd) (node_idx Linear (gd_dim gd) b off)); [|rewrite vcomp_zero; rnum; ring].
  assert (Off : forall e, (e < dim_nat (gd_dim gd))%nat -> In (match e with 0 => vx off | 1 => vy off | _ => vz off end)%nat (window Linear)).
  { intros e He. revert Ho. unfold stencil. destruct (gd_dim gd); intros Ho.
    - apply in_flat_map in Ho. destruct Ho as (i & Hi & Ho). apply in_map_iff in Ho. destruct Ho as (j & <- & Hj).
      destruct e as [|[|e]]; simpl in He; try lia; assumption.
    - apply in_flat_map in Ho. destruct Ho as (i & Hi & Ho). apply in_flat_map in Ho. destruct Ho as (j & Hj & Ho).
      apply in_map_iff in Ho. destruct Ho as (l & <- & Hl). destruct e as [|[|[|e]]]; simpl in He; try lia; assumption. }
  pose proof (fun e He => linear_axis (gd_inv gd) (vcomp e b) _ (Off e He)) as L. specialize (L a Ha).
  unfold shape_val, shape_grad, dist_vec, node_idx. rnum.
  destruct (gd_dim gd); destruct a as [|[|[|a]]]; simpl in Ha; try lia; cbn [vcomp vx vy vz] in *.
  all: rewrite <- !Rmult_assoc; rewrite L; ring.
Qed.

Lemma af_B_comp cut rows g n a b : mcomp b a (af_B cut rows g n)
  = - sumR (fun it => vcomp a (it_grad it) * vcomp b (node_vel cut (gr_dim g) g (gr_mom_nt g) it)) (of_point n rows).
Proof.
  unfold af_B. rewrite mcomp_msum. rewrite (sumR_ext_all _ (fun it => -1 * (vcomp a (it_grad it) * vcomp b (node_vel cut (gr_dim g) g (gr_mom_nt g) it)))).
  - rewrite sumR_scal. ring.
  - intros it. rewrite mcomp_opp, mcomp_outer. ring.
Qed.
(** what the matrix stored for a particle misses of its first moment, about the position [x'] it is used at *)
Definition missed (cut : R) (k : Kernel) (gd : GridDomain R) (rows : list (Interaction R)) (g : Grid R) (n : nat) (x' : vec3 R) (a b : nat) : R :=
  sumR (fun it => gd_cell gd * (gd_cell gd * point_second k gd a x' * vcomp a (it_grad it) + it_val it * vcomp a (it_dist it))
                  * vcomp b (node_vel cut (gr_dim g) g (gr_mom_nt g) it)) (of_point n rows).
Definition spin_nt (gd : GridDomain R) (g : Grid R) (a b : nat) : R :=
  sumR (fun i => vcomp a (nth i (position_stack gd) vzero) * vcomp b (nth i (gr_mom_nt g) vzero)
                 - vcomp b (nth i (position_stack gd) vzero) * vcomp a (nth i (gr_mom_nt g) vzero)) (seq 0 (Z.to_nat (num_cells gd))).
Lemma missed_eq cut k gd rows g n x' a b :
  missed cut k gd rows g n x' a b = gd_cell gd * lever cut rows g n a b - gd_cell gd * gd_cell gd * (point_second k gd a x' * mcomp b a (af_B cut rows g n)).
Proof.
  rewrite af_B_comp. unfold missed, lever.
  rewrite (sumR_ext_all _ (fun it => gd_cell gd * (it_val it * (vcomp a (it_dist it) * vcomp b (node_vel cut (gr_dim g) g (gr_mom_nt g) it)))
     + gd_cell gd * gd_cell gd * point_second k gd a x' * (vcomp a (it_grad it) * vcomp b (node_vel cut (gr_dim g) g (gr_mom_nt g) it)))) by (intros; ring).
  rewrite sumR_plus, !sumR_scal. ring.
Qed.
Lemma missed_linear cut gd xs g n a b : (n < length xs)%nat -> wf_grid gd -> (a < dim_nat (gd_dim gd))%nat ->
  missed cut Linear gd (compute_on Linear gd xs) g n (nth n xs vzero) a b = 0.
Proof.
  intros Hn W Ha. unfold missed. apply sumR_zero. intros it Hit. apply in_of_point in Hit. destruct Hit as (Hit & Hp).
  pose proof (linear_row gd xs it a Hit Ha) as L. rewrite Hp in L.
  replace (gd_cell gd * point_second Linear gd a (nth n xs vzero) * vcomp a (it_grad it))
    with (gd_cell gd * (point_second Linear gd a (nth n xs vzero) * vcomp a (it_grad it))) by ring. rewrite L.
  destruct W as (_ & Wp & ->). field. lra.
Qed.
(** any kernel, when the nodal velocities are affine: nothing is missed about a point with the same second moment *)
Lemma missed_affine cut k gd pts g n A v x' a b : (n < length pts)%nat -> wf_grid gd -> gr_dim g = gd_dim gd -> (a < dim_nat (gd_dim gd))%nat -> (b < dim_nat (gd_dim gd))%nat ->
  interior k gd (pt_pos (nth n pts pt0)) -> smooth_at A k gd (pt_pos (nth n pts pt0)) ->
  affine_rows k gd (map pt_pos pts) n A v (node_vel cut (gr_dim g) g (gr_mom_nt g)) ->
  point_second k gd a x' = point_second k gd a (pt_pos (nth n pts pt0)) ->
  missed cut k gd (compute_on k gd (map pt_pos pts)) g n x' a b = 0.
Proof.
  intros Hn W Hd Ha Hb I Hs Aff Hx. set (xs := map pt_pos pts). set (x := pt_pos (nth n pts pt0)) in *.
  assert (En : nth n xs vzero = x) by apply xs_nth. assert (Ln : (n < length xs)%nat) by (unfold xs; rewrite map_length; exact Hn).
  unfold xs. rewrite missed_eq, (af_B_affine k gd pts n A v g cut W Hn I Hd Aff Hs), Hx. fold xs.
  assert (Mb : mcomp b a (mopp (mplane (gd_dim gd) A)) = - mcomp b a A).
  { rewrite mcomp_opp. f_equal. destruct (gd_dim gd); [|reflexivity]. simpl in Ha, Hb. destruct a as [|[|a]], b as [|[|b]]; try lia; reflexivity. }
  rewrite Mb. assert (L : lever cut (compute_on k gd xs) g n a b = - (gd_cell gd * (point_second k gd a x * mcomp b a A))); [|rewrite L; ring].
  unfold lever. set (h := gd_cell gd).
  rewrite (sumR_ext _ (fun it => aff (gd_dim gd) A v b x * (it_val it * vcomp a (it_dist it)) +
     (- (h * mcomp b 0 A) * (it_val it * (vcomp a (it_dist it) * vcomp 0 (it_dist it))) +
     (- (h * mcomp b 1 A) * (it_val it * (vcomp a (it_dist it) * vcomp 1 (it_dist it))) +
      - (h * mcomp b 2 A * keep (gd_dim gd) 2) * (it_val it * (vcomp a (it_dist it) * vcomp 2 (it_dist it))))))).
  - rewrite !sumR_plus, !sumR_scal. pose proof (proj1 W) as Ws. assert (I' : interior k gd (nth n xs vzero)) by (rewrite En; exact I).
    rewrite moment_zero by assumption. rewrite (moment_two k gd xs n a 0), (moment_two k gd xs n a 1) by (try assumption; destruct (gd_dim gd); simpl; lia).
    rewrite En. destruct (gd_dim gd) eqn:D.
    + cbn [keep]. simpl in Ha. destruct a as [|[|a]]; [| |lia]; simpl Nat.eqb; cbv iota; ring.
    + cbn [keep]. simpl in Ha. rewrite (moment_two k gd xs n a 2) by (try assumption; rewrite D; simpl; lia). rewrite En.
      destruct a as [|[|[|a]]]; [| | |lia]; simpl Nat.eqb; cbv iota; ring.
  - intros it Hit. destruct (Req_dec (it_val it) 0) as [Z|Z]; [rewrite Z; ring|].
    rewrite (Aff it b Hit (or_introl Z) Hb).
    assert (I' : interior k gd (nth n xs vzero)) by (rewrite En; exact I).
    pose proof (interior_rows_in_grid k gd xs n it (proj1 W) I' Hit) as Rg. apply in_of_point in Hit. destruct Hit as (Hit & Hp).
    unfold aff. fold xs in Hit.
    assert (X : forall e, (e < dim_nat (gd_dim gd))%nat -> vcomp e (row_pos gd it) = vcomp e x - h * vcomp e (it_dist it)).
    { intros e He. rewrite (hash_pos_dist k gd xs it e W Hit) by (rewrite ?Hp; assumption). rewrite Hp, En. reflexivity. }
    rewrite (X 0%nat), (X 1%nat) by (destruct (gd_dim gd); simpl; lia).
    destruct (gd_dim gd) eqn:D; cbn [keep]; [ring|]. rewrite (X 2%nat) by (simpl; lia). ring.
Qed.

(** *** a whole AFLIP step with alpha = 0 *)
Lemma step_masses S (st st' : SimState R) c : solver_step S st = Ok st' ->
  length (pts_at (s_world st') (c_p c)) = length (pts_at (s_world st) (c_p c)) /\ forall n, (n < length (pts_at (s_world st) (c_p c)))%nat ->
     pt_mass (pt_in (s_world st') c n) = pt_mass (pt_in (s_world st) c n).
Proof.
  intros E. pose proof (step_kept _ _ _ E) as F. assert (K : Forall2 (fun p q : Particle R => pt_mass q = pt_mass p) (pts_at (s_world st) (c_p c)) (pts_at (s_world st') (c_p c))).
  { unfold pts_at. destruct (nth_error (w_mps (s_world st)) (c_p c)) as [bd|] eqn:Eb.
    - destruct (Forall2_nth_error_l _ _ _ _ _ F Eb) as (bd' & -> & Hk). destruct bd, bd'; simpl in Hk |- *; try tauto; [|constructor].
      destruct Hk as (_ & _ & Hk). revert Hk. apply Forall2_weaken. tauto.
    - replace (nth_error (w_mps (s_world st')) (c_p c)) with (@None (Body R)); [constructor|]. symmetry. apply nth_error_None.
      rewrite <- (Forall2_len _ _ _ F). apply nth_error_None, Eb. }
  split; [symmetry; apply (Forall2_len _ _ _ K)|]. intros n Hn. apply (Forall2_nth_d _ _ _ pt0 pt0 n K Hn).
Qed.
Lemma aflip_spin S af st st' w ca w2 ca2 ca3 : prepare S st = Ok (w, ca) -> p2g S w (s_mech st) ca = Ok (w2, ca2) ->
  integrate_grid S w2 (s_mech st) (s_dt st) ca2 = Ok ca3 -> solver_step S st = Ok st' ->
  so_scheme S = ASFLIP af -> so_alpha S = 0 -> 0 <= af_cutoff af -> inside S (s_world st) -> NoDup (map c_p (active S)) ->
  forall gi g gd a b, nth_error (sc_grids ca3) gi = Some g -> nth_error (so_domains S) gi = Some gd -> wf_grid gd ->
  (a < dim_nat (gd_dim gd))%nat -> (b < dim_nat (gd_dim gd))%nat -> above (af_cutoff af) g (gr_mom_nt g) a -> above (af_cutoff af) g (gr_mom_nt g) b ->
  (forall c, In c (active_on S gi) -> c_s c = Some (c_p c) /\ forall p, In p (pts_at (s_world st') (c_p c)) -> unclamped af gd (s_dt st) p) ->
  sumR (body_spin S (s_mech st') (s_world st') gd a b) (active_on S gi)
  = spin_nt gd g a b + sumR (fun c => sumR (fun n => let x' := pt_pos (pt_in (s_world st') c n) in
      pt_mass (pt_in (s_world st) c n) * (missed (af_cutoff af) (c_kernel c) gd (rows_of S (s_world st) c) g n x' a b
                                          - missed (af_cutoff af) (c_kernel c) gd (rows_of S (s_world st) c) g n x' b a))
      (seq 0 (length (pts_at (s_world st) (c_p c))))) (active_on S gi).
Proof.
  intros E1 E2 E3 E Sch Al Hcut Hin Nd gi g gd a b Eg Egd W Ha Hb Aa Ab Hc'.
  unfold spin_nt. rewrite sumR_minus.
  rewrite <- (gather_first S st w ca w2 ca2 ca3 E1 E2 E3 Hin gi g gd Eg Egd W _ a b Hcut Ha Hb Ab).
  rewrite <- (gather_first S st w ca w2 ca2 ca3 E1 E2 E3 Hin gi g gd Eg Egd W _ b a Hcut Hb Ha Aa).
  rewrite <- sumR_minus, <- sumR_plus. apply sumR_ext. intros c Hc.
  destruct (proj1 (active_on_in _ _ _) Hc) as (Hc1 & Hsk & Hcg). destruct (Hc' c Hc) as (Cs & Un).
  assert (Eg' : nth_error (sc_grids ca3) (c_g c) = Some g) by (rewrite Hcg; exact Eg).
  assert (Egd' : nth_error (so_domains S) (c_g c) = Some gd) by (rewrite Hcg; exact Egd).
  destruct (step_stored S af st st' w ca w2 ca2 ca3 Sch E1 E2 E3 E Nd c g Hc1 Hsk Eg') as (Bp & B1 & B2 & B3).
  assert (Len : length (pts_at (s_world st') (c_p c)) = length (pts_at (s_world st) (c_p c)) /\ forall n, (n < length (pts_at (s_world st) (c_p c)))%nat ->
     pt_mass (pt_in (s_world st') c n) = pt_mass (pt_in (s_world st) c n)) by (apply (step_masses S st st' c E)).
  destruct Len as (Len & Mass).
  unfold body_spin. rewrite Len, <- sumR_minus, <- sumR_plus. apply sumR_ext. intros n Hn. apply in_seq in Hn. cbv zeta.
  rewrite Mass by lia. rewrite !missed_eq.
  assert (Af : affine_of S (s_mech st') c n = af_B (af_cutoff af) (rows_of S (s_world st) c) g n).
  { unfold affine_of. rewrite Sch, Cs, B1. rewrite B2. replace (Nat.min n _) with n by lia. apply B3. lia. }
  rewrite Af.
  destruct (aflip_step_point S st st' w ca w2 ca2 ca3 E1 E2 E3 E Nd c g Hc1 Hsk Eg' af gd n Sch Egd' ltac:(lia)) as (_ & (beta & _ & Qx) & Qv & _).
  rewrite Al in Qx, Qv.
  assert (Uq : unclamped af gd (s_dt st) (nth n (pts_at (s_world st') (c_p c)) pt0)) by (apply Un, nth_In; lia).
  unfold unclamped in Uq. rewrite Qv in Uq. apply clamp_inactive in Uq. rewrite Uq in Qv.
  assert (D0 : forall s m, dynamic_alpha af 0 s m = 0) by (intros s m; unfold dynamic_alpha; destruct (af_dynamic af); rnum; ring).
  rewrite D0 in Qv. unfold pt_in in *. rewrite Qx, Qv, !vcomp_add, !vcomp_scale, !vcomp_add, !vcomp_scale. ring.
Qed.
