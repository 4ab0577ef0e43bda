(** Property theorems for points that have left their grid (C146): nothing moves them any more. *)
From Coq Require Import List Arith ZArith Reals Bool Lra Lia.
From Flocq Require Import Core.Raux.
From Verif Require Import Num NumR Linalg Arrays ModelGrid ModelShape ModelMath ModelState ModelLaws ModelForces ModelSDF ModelSolver
  Sums ShapeFacts SpecShape ShapeProofs ShapeProofs2 ShapeProofs3 ResFacts SolverFacts SpecSolver TransferProofs TransferProofs2 StepProofs GatherProofs MomentumProofs
  AffineProofs StepAffine P_Shape ExSolver P_Solver P_Enlarge.
Import ListNotations.
Local Open Scope R_scope.

(** *** a point none of whose stencil nodes is a node of the grid: beyond the reach of the kernel on some axis *)
Definition gone1 (k : Kernel) (n : Z) (b : R) : Prop := b < - room_hi k \/ IZR n + room_lo k <= b.
Definition gone (k : Kernel) (g : GridDomain R) (x : vec3 R) : Prop :=
  exists a, (a < dim_nat (gd_dim g))%nat /\ gone1 k (vcomp a (gd_size g)) ((vcomp a x - vcomp a (gd_origin g)) * gd_inv g).

Lemma gone1_window k n b o : gone1 k n b -> In o (window k) -> ~ (0 <= base_id k b + o < n)%Z.
Proof.
  intros H Ho (A & B). pose proof (base_range k b) as Hr. apply IZR_le in A. rewrite plus_IZR in A.
  assert (B' : IZR (base_id k b) + IZR o <= IZR n - 1) by (rewrite <- plus_IZR, <- minus_IZR; apply IZR_le; lia).
  destruct H as [H|H]; destruct k; simpl in *; repeat (destruct Ho as [<-|Ho]; [lra|]); contradiction.
Qed.
Lemma gone_rows k g xs it : wf_sizes g -> In it (compute_on k g xs) -> gone k g (nth (it_point it) xs vzero) -> it_val it = 0 /\ it_grad it = vzero.
Proof.
  intros W Hin (a & Ha & G). destruct (compute_row k g xs it Hin) as (off & Ho & _ & Hp & Hs & E). set (x := nth (it_point it) xs vzero) in *.
  assert (V : idx_valid (gd_size g) (node_idx k (gd_dim g) (bpos g x) off) = false).
  { destruct (idx_valid _ _) eqn:Q; [|reflexivity]. exfalso. apply idx_valid_iff in Q. destruct Q as (Q1 & Q2 & Q3). apply in_stencil in Ho. destruct Ho as (O1 & O2 & O3).
    unfold node_idx, bpos, base_pos in Q1, Q2, Q3. rnum. cbn [vx vy vz] in *. unfold dim_nat in Ha. destruct (gd_dim g); destruct a as [|[|[|a]]]; try lia; cbn [vcomp] in G.
    all: eapply gone1_window; [exact G| |]; [|first [exact Q1|exact Q2|exact Q3]]; assumption. }
  rewrite E. unfold single_interaction. cbv zeta. cbn [it_val it_grad]. change (base_pos (gd_dim g) (gd_origin g) (gd_inv g) x) with (bpos g x). rewrite V. split; reflexivity.
Qed.
Lemma vsum_zero {A} (f : A -> vec3 R) l : (forall x, In x l -> f x = vzero) -> vsum f l = vzero.
Proof. intros H. unfold vsum. apply vec3_eq; cbn [vx vy vz]; apply sumR_zero; intros x Hx; rewrite (H x Hx); reflexivity. Qed.
Lemma msum_zero {A} (f : A -> mat3 R) l : (forall x, In x l -> f x = mzero) -> msum f l = mzero.
Proof. intros H. unfold msum. apply mat3_eq; cbn; apply sumR_zero; intros x Hx; rewrite (H x Hx); reflexivity. Qed.
Lemma scale0 (v : vec3 R) : vscale 0 v = vzero.
Proof. apply vec3_eq; unfold vscale, vmap; cbn; rnum; ring. Qed.
Lemma add0 (v : vec3 R) : vadd v vzero = v.
Proof. apply vec3_eq; unfold vadd, vmap2; cbn; rnum; ring. Qed.
Lemma L_zero d : L_plane d (mzero : mat3 R) = mzero.
Proof. destruct d; reflexivity. Qed.

Lemma beta_cases (a : AFLIP R) (cell J : R) : beta_of a cell J = 0 \/ beta_of a cell J = af_beta_min a \/ beta_of a cell J = af_beta_max a.
Proof. unfold beta_of. destruct (nltb _ cell); [left; reflexivity|]. destruct (nltb J n1); auto. Qed.

(** what G2P leaves in such a point *)
Definition frozen (S : Solver R) (g : GridDomain R) (dt : R) (p q : Particle R) : Prop :=
  pt_mass q = pt_mass p /\ pt_L q = mzero /\
  match so_scheme S with
  | USL => pt_pos q = pt_pos p /\ pt_vel q = vscale (so_alpha S) (pt_vel p)
  | ASFLIP a => exists beta, (beta = 0 \/ beta = af_beta_min a \/ beta = af_beta_max a) /\
      pt_pos q = vadd (pt_pos p) (vscale (dt * (so_alpha S * beta)) (pt_vel p)) /\
      pt_vel q = cfl_clamp a (gd_cell g) dt (vscale (dynamic_alpha a (so_alpha S) 0 (pt_mass p)) (pt_vel p))
  end.
(** ** C146: one step.  Whatever the other points, the laws, the forces and the obstacles. *)
Theorem C146_step : forall (S : Solver R) st st' c gd i p, solver_step S st = Ok st' -> NoDup (map c_p (active S)) -> one_kernel S ->
  In c (so_couplings S) -> c_skip c = false -> nth_error (so_domains S) (c_g c) = Some gd -> wf_sizes gd ->
  nth_error (pts_at (s_world st) (c_p c)) i = Some p -> gone (c_kernel c) gd (pt_pos p) ->
  exists q, nth_error (pts_at (s_world st') (c_p c)) i = Some q /\ frozen S gd (s_dt st) p q.
Proof.
  intros S st st' c gd i p E Nd OK Hc Hsk Egd W Hp G.
  apply step_ok in E. destruct E as (w & ca & w2 & ca2 & ca3 & w3 & m3 & w4 & m4 & E1 & E2 & E3 & E4 & E5 & ->). cbn [s_world s_mech s_dt] in *.
  destruct (integrate_same_mm _ _ _ _ _ _ E3) as (_ & Einter & _).
  destruct (p2g_grids _ _ _ _ _ _ E1 E2) as (gs & X & Ei2 & _ & _ & _). subst gs.
  destruct (g2p_once _ _ _ _ _ _ _ E4 Nd c Hc Hsk) as (s & it & g1 & m1 & m2 & pts' & H1 & H2 & H3 & H4 & H5).
  rewrite Einter, Ei2 in H2.
  pose proof (unforced_pts _ _ _ _ _ _ E1 E2 (c_p c)) as U. unfold pts_at at 2 in U. rewrite H3 in U. cbn [body_pts] in U.
  assert (Rows : it = compute_on (c_kernel c) gd (map pt_pos (sb_pts s))).
  { pose proof E1 as E1'. apply prepare_ok in E1'. destruct E1' as (R1 & R2 & _). apply R2 in H2. destruct H2 as (k & b & gd' & Hk & Hb & Hgd & _ & ->).
    rewrite Egd in Hgd. injection Hgd as <-. apply last_kernel_in in Hk. destruct Hk as (c' & Hc' & Ep & Eg & <-). rewrite (OK c' c Hc' Hc Ep Eg).
    apply p2g_ok in E2. destruct E2 as (gs & E2 & _). apply pre_p2g_fold_ok in E2. destruct E2 as (_ & F).
    destruct (Forall2_nth_error _ _ _ _ _ F H3) as (b' & Hb' & Hs). rewrite Hb in Hb'. injection Hb' as <-.
    destruct b as [s0|r]; simpl in Hs; [|tauto]. destruct Hs as (_ & _ & _ & Y). simpl. f_equal. clear -Y. induction Y as [|a q l l' -> Y IH]; [reflexivity|]. simpl. rewrite <- IH. reflexivity. }
  destruct (Forall2_nth_error_l _ _ _ _ _ U Hp) as (p2 & Hp2 & U1 & U2 & U3 & U4 & U5 & U6 & U7 & U8).
  assert (Hi : (i < length (sb_pts s))%nat) by (apply nth_error_Some; rewrite Hp2; discriminate).
  assert (N2 : nth i (sb_pts s) pt0 = p2) by (apply nth_error_nth; exact Hp2).
  assert (Z : forall r, In r (of_point i it) -> it_val r = 0 /\ it_grad r = vzero).
  { intros r Hr. apply in_of_point in Hr. destruct Hr as (Hr & Hpt). rewrite Rows in Hr. eapply gone_rows; [exact W|exact Hr|]. rewrite Hpt.
    rewrite (nth_indep _ vzero (pt_pos pt0)) by (rewrite map_length; exact Hi). rewrite map_nth, N2, U1. exact G. }
  assert (PV : forall cut mom, pic_vel cut it g1 mom i = vzero) by (intros; apply vsum_zero; intros r Hr; destruct (Z r Hr) as (-> & _); apply scale0).
  assert (LK : exists q1, nth_error (pts_at w4 (c_p c)) i = Some q1 /\ law_kept (nth i pts' pt0) q1).
  { pose proof (constitutive_law_kept _ _ _ _ _ _ E5 (c_p c)) as LK. unfold pts_at at 1 in LK. rewrite H5 in LK. cbn [body_pts after_g2p sb_pts] in LK.
    assert (Len : length pts' = length (sb_pts s)).
    { unfold g2p_result in H4. destruct (so_scheme S).
      - destruct H4 as (_ & geos & _ & -> & _). apply g2p_usl_length.
      - destruct H4 as (_ & gd' & B & _ & _ & -> & _). apply g2p_aflip_length. }
    assert (Hq : nth_error pts' i = Some (nth i pts' pt0)) by (apply nth_error_nth'; lia).
    destruct (Forall2_nth_error_l _ _ _ _ _ LK Hq) as (q1 & Hq1 & K). eauto. }
  destruct LK as (q1 & Hq1 & K1 & K2 & K3 & _ & _ & _ & K7). exists q1. split; [exact Hq1|]. unfold frozen. rewrite K1, K2, K3, K7.
  unfold g2p_result in H4. destruct (so_scheme S) as [|a] eqn:Es.
  - destruct H4 as (_ & geos & _ & -> & _). rewrite g2p_usl_nth by (try exact Hi; rewrite Rows; apply masks_rows). rewrite N2, PV.
    rewrite msum_zero by (intros r Hr; destruct (Z r Hr) as (_ & ->); apply mat3_eq; unfold outer; cbn; rnum; ring).
    assert (D : usl_delta it g1 i = vzero) by (apply vsum_zero; intros r Hr; destruct (Z r Hr) as (-> & _); apply scale0). rewrite D.
    unfold usl_update, g2p_point. cbn [pt_mass pt_L pt_pos pt_vel]. rewrite L_zero, U1, U2, U3. repeat split.
    + apply vec3_eq; unfold vadd, vscale, vmap, vmap2, vzero; cbn; rnum; ring.
    + apply vec3_eq; unfold vadd, vscale, vmap, vmap2, vzero; cbn; rnum; ring.
  - destruct H4 as (_ & gd' & B & Egd' & _ & -> & _). rewrite Egd in Egd'. injection Egd' as <-. rewrite g2p_aflip_nth by exact Hi. rewrite N2, !PV.
    assert (AB : af_B (af_cutoff a) it g1 i = mzero).
    { unfold af_B. apply msum_zero. intros r Hr. destruct (Z r Hr) as (_ & ->). apply mat3_eq; unfold mopp, outer; cbn; rnum; ring. }
    rewrite AB. rewrite sumR_zero by (intros r Hr; destruct (Z r Hr) as (-> & _); ring).
    unfold aflip_update, g2p_point. cbv zeta. cbn [pt_mass pt_L pt_pos pt_vel]. rewrite L_zero, U1, U2, U3.
    assert (SZ : vsub (pt_vel p) vzero = pt_vel p) by (apply vec3_eq; unfold vsub, vmap2, vzero; cbn; rnum; ring). change (@numt_num R NumT_R) with Num_R. change (@numt_num R NumT_R) with Num_R in SZ. rewrite SZ.
    split; [reflexivity|]. split; [reflexivity|]. exists (beta_of a (gd_cell gd) (mdet (F_next (gr_dim g1) (s_dt st) mzero (pt_F p2)))). split; [apply beta_cases|split; [|f_equal]].
    + apply vec3_eq; unfold vadd, vscale, vmap, vmap2, vzero; cbn; rnum; ring.
    + apply vec3_eq; unfold vadd, vscale, vmap, vmap2, vzero; cbn; rnum; ring.
Qed.
Print Assumptions C146_step.
(** the dynamic blending of AFLIP stops the point at once *)
Theorem C146_dynamic : forall (a : AFLIP R) alpha m cell dt v, af_dynamic a = true -> 0 <= m ->
  cfl_clamp a cell dt (vscale (dynamic_alpha a alpha 0 m) v) = vzero.
Proof.
  intros a alpha m cell dt v D Hm. assert (Z : dynamic_alpha a alpha 0 m = 0).
  { unfold dynamic_alpha. rewrite D. unfold nclip. rewrite nmin_R, nmax_R. rnum. match goal with |- context [0 / ?x] => replace (0 / x) with 0 by (unfold Rdiv; ring) end.
    rewrite Rmax_right by lra. rewrite Rmin_left by lra. ring. }
  rewrite Z, scale0. unfold cfl_clamp. apply vec3_eq; unfold vscale, vmap, vzero; cbn; rnum; ring.
Qed.
Print Assumptions C146_dynamic.
(** runs of USL: the point never moves again, its velocity is scaled by alpha in each step *)
Theorem C146_run : forall (S : Solver R) n st st' c gd i p, so_scheme S = USL -> solver_steps S n st = Ok st' -> NoDup (map c_p (active S)) -> one_kernel S ->
  In c (so_couplings S) -> c_skip c = false -> nth_error (so_domains S) (c_g c) = Some gd -> wf_sizes gd ->
  nth_error (pts_at (s_world st) (c_p c)) i = Some p -> gone (c_kernel c) gd (pt_pos p) ->
  exists q, nth_error (pts_at (s_world st') (c_p c)) i = Some q /\ pt_pos q = pt_pos p /\ pt_vel q = vscale (so_alpha S ^ n) (pt_vel p) /\ pt_mass q = pt_mass p.
Proof.
  intros S n st st' c gd i p Es E Nd OK Hc Hsk Egd W Hp G. revert st p Hp G E. induction n as [|n IH]; intros st p Hp G E; cbn [solver_steps] in E.
  - injection E as <-. exists p. repeat split; [exact Hp|]. apply vec3_eq; unfold vscale, vmap; cbn; rnum; ring.
  - apply rbind_ok in E. destruct E as (st1 & E1 & E). destruct (C146_step S st st1 c gd i p E1 Nd OK Hc Hsk Egd W Hp G) as (q & Hq & Q1 & _ & Q2).
    rewrite Es in Q2. destruct Q2 as (Q2 & Q3). destruct (IH st1 q Hq) as (r & Hr & R1 & R2 & R3); [now rewrite Q2|exact E|]. exists r. split; [exact Hr|].
    rewrite R1, R2, R3, Q1, Q2, Q3. repeat split. apply vec3_eq; unfold vscale, vmap; cbn [vx vy vz pow]; rnum; ring.
Qed.
Print Assumptions C146_run.
(** on the 8 by 8 grid: the first point two cells left of it, the second inside *)
Example C146_case : let S := solverR USL (1/2) 1 in let st := stateR [bodyR [pt (V3 (-2) 3 0) va mzero meye; pt xb vb mzero meye]] mzero (1/10) in
  exists st', solver_step S st = Ok st' /\ NoDup (map c_p (active S)) /\ one_kernel S /\ wf_sizes g2 /\ gone Quadratic g2 (V3 (-2) 3 0) /\ va <> vzero.
Proof.
  intros S st. assert (X : exists st', solver_step S st = Ok st') by (eexists; reflexivity). destruct X as (st' & X). exists st'. split; [exact X|].
  split; [apply ex_nodup|]. split; [intros c c' [<-|[]] [<-|[]] _ _; reflexivity|]. split; [apply g2_wf|]. split.
  - exists 0%nat. split; [cbn; lia|]. left. cbn. lra.
  - intros Q. apply (f_equal vx) in Q. unfold va, vzero in Q. cbn in Q. lra.
Qed.
(** FINDING: so the extent of the grid does matter once material reaches beyond it, and no error is raised: two drifting bodies keep drifting on the
    8 by 8 grid, and stand still when only its first node is there (compare C145_step). *)
Definition g1_corner : GridDomain R :=
  {| gd_dim := D2; gd_origin := V3 0 0 0; gd_end := V3 0 0 0; gd_cell := 1; gd_inv := 1; gd_size := V3 1%Z 1%Z 1%Z; gd_padding := 0 |}.
Theorem C146_extent_refuted : exists S ds st st1 st2, Forall2 enlarges (so_domains S) ds /\
  solver_step (with_domains S ds) st = Ok st1 /\ solver_step S st = Ok st2 /\ st1 <> st2.
Proof.
  set (S := with_domains (solverR USL (1/2) 2) [g1_corner]). set (st := stateR drift mzero (1/10)).
  assert (W : wf_grid g1_corner) by (split; [split; [cbn; lia|split; [cbn; lia|reflexivity]]|split; cbn; lra]).
  destruct (C20_case USL (or_introl eq_refl)) as (st1 & w & ca & w2 & ca2 & ca3 & g & E1 & E2 & E3 & E & Hin & Nd & Nf & Cut & Eg & Wg & Hv & Af & Un & Hc & Hh).
  assert (X : exists st2, solver_step S st = Ok st2) by (eexists; reflexivity). destruct X as (st2 & X).
  exists S, [g2], st, st1, st2. split; [|split; [exact E|split; [exact X|]]].
  - apply Forall2_cons; [|apply Forall2_nil]. split; [exact W|]. split; [exact g2_wf|]. exists (V3 0 0 0)%Z. unfold enlarges_by. cbn [g2 g1_corner gd_dim gd_cell gd_inv gd_origin gd_size vx vy vz].
    repeat split; try lia. apply vec3_eq; unfold vadd, vmap2, cell_shift; cbn; rnum; ring.
  - intros Q. subst st2.
    destruct (C20_uniform_motion _ _ _ _ _ _ _ _ E1 E2 E3 E Hin Nd Nf Cut 0%nat g g2 v0 Eg eq_refl Wg Hv Af Un (cpl 0) Hc Hh) as (F & _).
    assert (P0 : nth_error (pts_at (s_world st) 0) 0 = Some (pt xa v0 mzero meye)) by reflexivity.
    destruct (Forall2_nth_error_l _ _ _ _ _ F P0) as (q & Hq & _ & Q1 & _).
    destruct (C146_step S st st1 (cpl 0) g1_corner 0%nat (pt xa v0 mzero meye) X) as (q' & Hq' & _ & _ & Q2); try reflexivity.
    + exact Nd.
    + intros c c' [<-|[<-|[]]] [<-|[<-|[]]] _ _; reflexivity.
    + left; reflexivity.
    + exact (proj1 W).
    + exists 0%nat. split; [cbn; lia|]. right. cbn. lra.
    + cbn [c_p cpl] in Hq, Hq'. rewrite Hq in Hq'. injection Hq' as <-. cbn in Q2. destruct Q2 as (Q2 & _). rewrite Q2 in Q1. apply (f_equal vx) in Q1.
      unfold vadd, vscale, vmap, vmap2, v0, xa in Q1. cbn in Q1. rnum. lra.
Qed.
Print Assumptions C146_extent_refuted.
