(** Full steps of stress-free bodies carrying an affine velocity field (C20, C26, C34). *)
From Coq Require Import List Arith ZArith Reals Bool Lra Lia.
From Verif Require Import Num NumR Linalg Arrays ModelGrid ModelShape ModelMath ModelState ModelLaws ModelForces ModelSolver
  Sums ShapeFacts SpecShape ShapeProofs ShapeProofs2 ShapeProofs3 MappingProofs ResFacts SolverFacts SpecSolver
  TransferProofs TransferProofs2 StepProofs GatherProofs MomentumProofs AffineProofs.
Import ListNotations.
Local Open Scope R_scope.

(** the affine field as a vector *)
Definition affv (d : Dim) (A : mat3 R) (b : vec3 R) (x : vec3 R) : vec3 R :=
  vtrunc d (V3 (aff d A b 0 x) (aff d A b 1 x) (aff d A b 2 x)).
Lemma vcomp_affv d A b x a : (a < dim_nat d)%nat -> vcomp a (affv d A b x) = aff d A b a x.
Proof. destruct d, a as [|[|[|a]]]; simpl; intros; try reflexivity; lia. Qed.
Lemma affv_ext d A b x v : (forall a, (a < dim_nat d)%nat -> vcomp a v = aff d A b a x) -> (d = D2 -> vz v = 0) -> v = affv d A b x.
Proof.
  intros H Hz. destruct v as [v0 v1 v2]. unfold affv. destruct d.
  - simpl. rewrite <- (H 0%nat), <- (H 1%nat) by (simpl; lia). simpl in *. rewrite Hz by reflexivity. reflexivity.
  - simpl. rewrite <- (H 0%nat), <- (H 1%nat), <- (H 2%nat) by (simpl; lia). reflexivity.
Qed.
(** all particles of the active bodies on grid [gi] have velocity A x + b *)
Definition moves_affinely (S : Solver R) (w : World R) (gi : nat) (gd : GridDomain R) (A : mat3 R) (b : vec3 R) : Prop :=
  forall c p, In c (active_on S gi) -> In p (pts_at w (c_p c)) -> pt_vel p = affv (gd_dim gd) A b (pt_pos p).
Lemma moves_carries S w gi gd A b : moves_affinely S w gi gd A b -> carries S w gi gd A b.
Proof. intros H c p a Hc Hp Ha. rewrite (H c p Hc Hp). apply vcomp_affv, Ha. Qed.
(** every node an active body touches is above the mass cutoff *)
Definition heavy (S : Solver R) (w : World R) (g : Grid R) (c : Coupling) : Prop :=
  forall it, In it (rows_of S w c) -> it_val it <> 0 \/ it_grad it <> vzero -> cut_of S < nth (Z.to_nat (it_hash it)) (gr_mass g) 0.

Lemma combine_zero dt (l m : list (vec3 R)) i : length m = length l -> nth i m vzero = vzero ->
  nth i (map (fun mf => vadd (fst mf) (vscale dt (snd mf))) (combine l m)) vzero = nth i l vzero.
Proof.
  revert m i; induction l as [|x l IH]; intros [|y m] [|i] L Z; simpl in *; try discriminate; try reflexivity.
  - subst y. apply vcomp_eq; intro a. rewrite vcomp_add, vcomp_scale, vcomp_zero. ring.
  - apply IH; [lia|exact Z].
Qed.
Lemma node_vel_z (cut : R) (g : Grid R) mom it : gr_dim g = D2 -> vz (node_vel cut (gr_dim g) g mom it) = 0.
Proof. intros ->. reflexivity. Qed.
Lemma pic_z cut rows (g : Grid R) mom p : gr_dim g = D2 -> vz (pic_vel cut rows g mom p) = 0.
Proof.
  intros D. change (vz (pic_vel cut rows g mom p)) with (vcomp 2 (pic_vel cut rows g mom p)). unfold pic_vel. rewrite vcomp_vsum.
  apply sumR_zero. intros it _. rewrite vcomp_scale. change (vcomp 2 (node_vel cut (gr_dim g) g mom it)) with (vz (node_vel cut (gr_dim g) g mom it)).
  rewrite node_vel_z by exact D. ring.
Qed.

(** what G2P leaves in one body *)
Section Body.
Variables (S : Solver R) (st : SimState R) (w : World R) (ca : SimCache R) (w2 : World R) (ca2 ca3 : SimCache R) (w3 : World R) (m3 : Mechanics R).
Hypothesis E1 : prepare S st = Ok (w, ca).
Hypothesis E2 : p2g S w (s_mech st) ca = Ok (w2, ca2).
Hypothesis E3 : integrate_grid S w2 (s_mech st) (s_dt st) ca2 = Ok ca3.
Hypothesis E4 : g2p S w2 (s_mech st) (s_dt st) ca3 = Ok (w3, m3).
Hypothesis Hin : inside S (s_world st).
Hypothesis Nd : NoDup (map c_p (active S)).
Hypothesis Nf : so_forces S = [].
Variables (gi : nat) (g : Grid R) (gd : GridDomain R) (A : mat3 R) (b : vec3 R).
Hypothesis Eg : nth_error (sc_grids ca3) gi = Some g.
Hypothesis Egd : nth_error (so_domains S) gi = Some gd.
Hypothesis W : wf_grid gd.
Hypothesis Mv : moves_affinely S (s_world st) gi gd A b.
Hypothesis Af : affine_state S (s_mech st) gi gd A.
Hypothesis Sf : stress_free (s_world st) S gi.
Variable c : Coupling.
Hypothesis Hc : In c (active_on S gi).
Hypothesis Hcut : 0 <= cut_of S.
Hypothesis Hv : heavy S (s_world st) g c.

Lemma grid_affine : exists g2, nth_error (sc_grids ca2) gi = Some g2 /\ gr_mass g = gr_mass g2 /\ gr_dim g = gd_dim gd /\ gr_mom g = gr_mom g2 /\
  (forall i, nth i (gr_mom_nt g) vzero = nth i (gr_mom g) vzero) /\
  forall i a, (i < Z.to_nat (num_cells gd))%nat -> (a < dim_nat (gd_dim gd))%nat ->
    vcomp a (nth i (gr_mom g) vzero) = nth i (gr_mass g) 0 * aff (gd_dim gd) A b a (nth i (position_stack gd) vzero).
Proof.
  destruct (integrate_same_mm _ _ _ _ _ _ E3) as (SM & Einter & _).
  destruct (Forall2_nth_error _ _ _ _ _ SM Eg) as (g2 & Eg2 & Hsm). destruct Hsm as (Ed & Em & Emo).
  destruct (p2g_grids _ _ _ _ _ _ E1 E2) as (gs & X & Ei2 & _ & F & _). subst gs.
  destruct (Forall2_nth_error_l _ _ _ _ _ F Egd) as (g' & Eg' & Hok). rewrite Eg2 in Eg'. injection Eg' as <-.
  destruct Hok as (Hd & Lm & Lmo & _ & Lf). exists g2. repeat split; try congruence.
  - intros i. pose proof E3 as E. apply integrate_ok in E. destruct E as (gs1 & gs2 & gs3 & F1 & F2 & F3 & ->). rewrite Nf in F1, F3. simpl in F1, F3.
    injection F1 as <-. injection F3 as <-. simpl in Eg. rewrite (integrate_fold_ok _ _ _ _ F2), Eg2 in Eg. simpl in Eg. injection Eg as Eg.
    assert (Xa : existsb (fun c => (negb (c_skip c) && Nat.eqb (c_g c) gi)%bool) (so_couplings S) = true).
    { apply existsb_exists. exists c. unfold active_on in Hc. apply filter_In in Hc. exact Hc. }
    rewrite Xa in Eg. rewrite <- Eg. cbn [integrate1 set_mom_nt gr_mom_nt gr_mom]. apply combine_zero; [congruence|].
    eapply p2g_no_force; eassumption.
  - intros i a Hi Ha. rewrite Em, Emo. eapply p2g_affine; try eassumption. apply moves_carries, Mv.
Qed.
Lemma g2p_affine_body : exists s k pts' m1 m2,
  nth_error (w_mps w2) (c_p c) = Some (Soft s) /\ nth_error (w_mps w3) (c_p c) = Some (Soft (after_g2p s pts')) /\
  last_kernel (so_couplings S) (c_p c) (c_g c) = Some k /\
  g2p_result S ca3 (s_dt st) m1 c s (compute_on k gd (map pt_pos (sb_pts s))) g pts' m2 /\
  gr_dim g = gd_dim gd /\
  (forall p, In p (sb_pts s) -> interior k gd (pt_pos p) /\ pt_vel p = affv (gd_dim gd) A b (pt_pos p)) /\
  forall p, (p < length (sb_pts s))%nat ->
    affine_rows k gd (map pt_pos (sb_pts s)) p A b (node_vel (cut_of S) (gr_dim g) g (gr_mom_nt g)) /\
    pic_vel (cut_of S) (compute_on k gd (map pt_pos (sb_pts s))) g (gr_mom_nt g) p = pt_vel (nth p (sb_pts s) pt0) /\
    pic_vel (cut_of S) (compute_on k gd (map pt_pos (sb_pts s))) g (gr_mom g) p = pt_vel (nth p (sb_pts s) pt0).
Proof.
  destruct grid_affine as (g2 & Eg2 & Em & Ed & Emo & Ent & GA).
  destruct (integrate_same_mm _ _ _ _ _ _ E3) as (_ & Einter & _).
  destruct (p2g_grids _ _ _ _ _ _ E1 E2) as (gs & X & Ei2 & _ & F & _). subst gs.
  destruct (proj1 (active_on_in S gi c) Hc) as (Hc1 & Hsk & Hcg).
  assert (Egd' : nth_error (so_domains S) (c_g c) = Some gd) by (rewrite Hcg; exact Egd).
  destruct (g2p_once _ _ _ _ _ _ _ E4 Nd c Hc1 Hsk) as (s & it & g1 & m1 & m2 & pts' & H1 & H2 & H3 & H4 & H5).
  rewrite Hcg, Eg in H1. injection H1 as <-. rewrite Einter, Ei2 in H2.
  destruct (p2g_rows _ _ _ _ _ _ _ _ _ _ E1 E2 Hin Hc1 H3 H2 Egd') as (Ws & k & Hk & -> & I).
  assert (Upt : forall n, (n < length (sb_pts s))%nat -> let p := nth n (sb_pts s) pt0 in
     pt_vel p = affv (gd_dim gd) A b (pt_pos p)).
  { intros n Hn p. pose proof (unforced_pts _ _ _ _ _ _ E1 E2 (c_p c)) as U. unfold pts_at at 2 in U. rewrite H3 in U.
    destruct (Forall2_nth_error _ _ _ _ _ U (nth_error_nth_lt _ _ pt0 Hn)) as (q & Hq & Uq). fold p in Uq.
    destruct Uq as (-> & -> & _). apply (Mv c); [exact Hc|]. eapply nth_error_In, Hq. }
  assert (Rows : rows_of S (s_world st) c = compute_on k gd (map pt_pos (sb_pts s))).
  { unfold rows_of; rewrite Hk, Egd'; f_equal; pose proof (unforced_pts _ _ _ _ _ _ E1 E2 (c_p c)) as U; unfold pts_at at 2 in U;
    rewrite H3 in U; simpl in U; clear -U; revert U; generalize (pts_at (s_world st) (c_p c)) (sb_pts s); intros l m U;
    induction U as [|x y l m Hxy _ IH]; [reflexivity|]; simpl; rewrite IH; destruct Hxy as (-> & _); reflexivity. }
  assert (AR : forall n mom, (forall i, nth i mom vzero = nth i (gr_mom g) vzero) ->
    affine_rows k gd (map pt_pos (sb_pts s)) n A b (node_vel (cut_of S) (gr_dim g) g mom)).
  { intros n mom Hm it a Hr Hnz Ha. apply in_of_point in Hr. destruct Hr as (Hr & Hp).
    pose proof (Hv it) as Hh. rewrite Rows in Hh. specialize (Hh Hr Hnz).
    destruct (compute_in_range k gd _ it Ws Hr) as (Hr1 & _).
    rewrite node_vel_comp by (rewrite Ed; exact Ha). unfold Uvel. destruct (Rlt_dec _ _) as [L|L]; [|contradiction].
    rewrite Hm, GA by (try exact Ha; lia).
    unfold row_pos. field. lra. }
  assert (PV : forall n mom, (n < length (sb_pts s))%nat -> (forall i, nth i mom vzero = nth i (gr_mom g) vzero) ->
    pic_vel (cut_of S) (compute_on k gd (map pt_pos (sb_pts s))) g mom n = pt_vel (nth n (sb_pts s) pt0)).
  { intros n mom Hn Hm. rewrite Upt by exact Hn. apply affv_ext; [|intros D; apply pic_z; congruence].
    intros a Ha. unfold pic_vel. rewrite vcomp_vsum.
    rewrite (sumR_ext_all _ (fun it => it_val it * vcomp a (node_vel (cut_of S) (gr_dim g) g mom it))) by (intro; apply vcomp_scale).
    assert (Ex : nth n (map pt_pos (sb_pts s)) vzero = pt_pos (nth n (sb_pts s) pt0)) by apply (xs_nth (sb_pts s) n).
    rewrite <- Ex. apply gather_affine; try assumption.
    - rewrite map_length. exact Hn.
    - rewrite Ex. apply I, nth_In, Hn.
    - apply AR, Hm. }
  exists s, k, pts', m1, m2. split; [exact H3|]. split; [exact H5|]. split; [exact Hk|]. split; [exact H4|]. split; [exact Ed|]. split.
  - intros p Hp. split; [apply I, Hp|]. apply In_nth with (d := pt0) in Hp. destruct Hp as (n & Hn & <-). apply Upt, Hn.
  - intros n Hn. split; [apply AR, Ent|]. split; apply PV; auto.
Qed.
End Body.

Lemma nth_Forall2 {A B} (P : A -> B -> Prop) l m d e : length l = length m ->
  (forall n, (n < length l)%nat -> P (nth n l d) (nth n m e)) -> Forall2 P l m.
Proof.
  revert m; induction l as [|x l IH]; intros [|y m] L H; simpl in L; try discriminate; constructor.
  - apply (H 0%nat). simpl. lia.
  - apply IH; [lia|]. intros n Hn. apply (H (Datatypes.S n)). simpl. lia.
Qed.
Lemma vadd_back (v u : vec3 R) al : u = v -> vadd v (vscale al (vsub v u)) = v.
Proof. intros ->. apply vcomp_eq; intro a. rewrite vcomp_add, vcomp_scale, vcomp_sub. ring. Qed.
Lemma mplane_L d A : L_plane d (mopp (mplane d A)) = mopp (mplane d A).
Proof. destruct d; [|reflexivity]. apply mat3_eq; simpl; rnum; try reflexivity; ring. Qed.
Lemma mplane_Lt d A : L_plane d (mopp (mtrans (mplane d A))) = mopp (mtrans (mplane d A)).
Proof. destruct d; [|reflexivity]. apply mat3_eq; simpl; rnum; try reflexivity; ring. Qed.
Lemma clamp_below a cell dt v : vnorm v + lit 1 (10 ^ 12) <= af_cfl a * cell / dt -> cfl_clamp a cell dt v = (v : vec3 R).
Proof.
  intros H. unfold cfl_clamp. rewrite nmin_R.
  assert (E : 0 < (lit 1 (10 ^ 12) : R)) by (rnum; lra).
  assert (Hn : 0 <= vnorm v) by (unfold vnorm; rnum; apply sqrt_pos).
  rewrite Rmin_left; [|].
  - apply vcomp_eq; intro x. rewrite vcomp_scale. rnum. ring.
  - change (1 <= af_cfl a * cell / dt / (vnorm v + lit 1 (10 ^ 12))). apply Rmult_le_reg_r with (vnorm v + lit 1 (10 ^ 12)); [lra|].
    unfold Rdiv at 1. rewrite Rmult_assoc, Rinv_l by lra. lra.
Qed.
(** velocity limiter of AFLIP inactive for the velocities in [w] *)
Definition unlimited (S : Solver R) (gi : nat) (gd : GridDomain R) (w : World R) (dt : R) : Prop :=
  match so_scheme S with
  | USL => True
  | ASFLIP a => forall c p, In c (active_on S gi) -> In p (pts_at w (c_p c)) -> unclamped a gd dt p
  end.
Definition grad_of (S : Solver R) (d : Dim) (A : mat3 R) : mat3 R :=
  match so_scheme S with USL => mopp (mtrans (mplane d A)) | ASFLIP _ => mopp (mplane d A) end.
Definition smooth_body (A : mat3 R) (S : Solver R) (w : World R) (gd : GridDomain R) (c : Coupling) : Prop :=
  forall k p, last_kernel (so_couplings S) (c_p c) (c_g c) = Some k -> In p (pts_at w (c_p c)) -> smooth_at A k gd (pt_pos p).
(** a stress-free body whose particles carry an affine field keeps it over a step *)
Theorem step_affine S st st' w ca w2 ca2 ca3 : prepare S st = Ok (w, ca) -> p2g S w (s_mech st) ca = Ok (w2, ca2) ->
  integrate_grid S w2 (s_mech st) (s_dt st) ca2 = Ok ca3 -> solver_step S st = Ok st' ->
  inside S (s_world st) -> NoDup (map c_p (active S)) -> so_forces S = [] ->
  forall gi g gd A b, nth_error (sc_grids ca3) gi = Some g -> nth_error (so_domains S) gi = Some gd -> wf_grid gd ->
  moves_affinely S (s_world st) gi gd A b -> affine_state S (s_mech st) gi gd A -> stress_free (s_world st) S gi ->
  0 <= cut_of S ->
  forall c, In c (active_on S gi) -> heavy S (s_world st) g c -> smooth_body A S (s_world st) gd c ->
  let d := gd_dim gd in let F' p := F_next d (s_dt st) (grad_of S d A) (pt_F p) in
  Forall2 (fun p q => (unlimited S gi gd (s_world st) (s_dt st) -> pt_vel q = pt_vel p) /\ pt_pos q = vadd (pt_pos p) (vscale (s_dt st) (pt_vel p)) /\
      pt_L q = grad_of S d A /\ pt_vol q = mdet (F' p) * pt_vol0 p /\ pt_mass q = pt_mass p)
    (pts_at (s_world st) (c_p c)) (pts_at (s_world st') (c_p c)) /\
  (forall w3 m3, g2p S w2 (s_mech st) (s_dt st) ca3 = Ok (w3, m3) ->
     Forall2 (fun p q => pt_F q = F' p) (pts_at (s_world st) (c_p c)) (pts_at w3 (c_p c))).
Proof.
  intros E1 E2 E3 E Hin Nd Nf gi g gd A b Eg Egd W Mv Af Sf Hcut c Hc Hv Sm d F'.
  apply step_ok in E. destruct E as (w' & ca' & w2' & ca2' & ca3' & w3 & m3 & w4 & m4 & E1' & E2' & E3' & E4 & E5 & ->).
  rewrite E1 in E1'. injection E1' as <- <-. rewrite E2 in E2'. injection E2' as <- <-. rewrite E3 in E3'. injection E3' as <-.
  cbn [s_world s_mech s_dt] in *.
  destruct (g2p_affine_body S st w ca w2 ca2 ca3 w3 m3 E1 E2 E3 E4 Hin Nd Nf gi g gd A b Eg Egd W Mv Af Sf c Hc Hcut Hv)
    as (s & k & pts' & m1 & m2 & H3 & H5 & Hk & H4 & Ed & Hpts & Hrows).
  pose proof (unforced_pts _ _ _ _ _ _ E1 E2 (c_p c)) as U. unfold pts_at at 2 in U. rewrite H3 in U. cbn [body_pts] in U.
  assert (Len : length pts' = length (sb_pts s)).
  { unfold g2p_result in H4. destruct (so_scheme S).
    - destruct H4 as (_ & geos & _ & -> & _). apply g2p_usl_length.
    - destruct H4 as (_ & gd' & B & _ & _ & -> & _). apply g2p_aflip_length. }
  assert (G : forall n, (n < length (sb_pts s))%nat -> let p := nth n (sb_pts s) pt0 in let q := nth n pts' pt0 in
    (unlimited S gi gd (s_world st) (s_dt st) -> pt_vel q = pt_vel p) /\ pt_pos q = vadd (pt_pos p) (vscale (s_dt st) (pt_vel p)) /\ pt_L q = grad_of S d A /\
    pt_F q = F' p /\ pt_vol q = mdet (F' p) * pt_vol0 p /\ pt_mass q = pt_mass p).
  { intros n Hn p q. destruct (Hrows n Hn) as (AR & P1 & P2). unfold cut_of in AR, P1, P2.
    assert (Pin : In p (sb_pts s)) by (apply nth_In, Hn). destruct (Hpts p Pin) as (I & _).
    assert (Smp : smooth_at A k gd (pt_pos p)).
    { destruct (Forall2_nth_error _ _ _ _ _ U (nth_error_nth_lt _ _ pt0 Hn)) as (q0 & Hq0 & Uq). fold p in Uq.
      destruct Uq as (-> & _). apply Sm; [exact Hk|]. eapply nth_error_In, Hq0. }
    unfold g2p_result in H4. unfold F', grad_of. destruct (so_scheme S) as [|af] eqn:Es.
    - destruct H4 as (_ & geos & _ & -> & _). unfold q. rewrite g2p_usl_nth by (try apply masks_rows; exact Hn).
      unfold affine_state in Af. rewrite Es in Af.
      rewrite (usl_L_affine k gd (sb_pts s) n A b g cut12 W Hn I Ed AR Smp), P1.
      assert (Dz : usl_delta (compute_on k gd (map pt_pos (sb_pts s))) g n = vzero).
      { apply vcomp_eq; intro a. unfold usl_delta. rewrite vcomp_vsum.
        rewrite (sumR_ext_all _ (fun it => vcomp a (vscale (it_val it) (node_vel cut12 (gr_dim g) g (gr_mom_nt g) it))
           - vcomp a (vscale (it_val it) (node_vel cut12 (gr_dim g) g (gr_mom g) it)))) by (intro it; rewrite !vcomp_scale, vcomp_sub; ring).
        rewrite sumR_minus, <- !vcomp_vsum. fold (pic_vel cut12 (compute_on k gd (map pt_pos (sb_pts s))) g (gr_mom g) n).
        fold (pic_vel cut12 (compute_on k gd (map pt_pos (sb_pts s))) g (gr_mom_nt g) n). unfold cut12 at 1 2. 
        fold cut12. rewrite P1, P2, vcomp_zero. ring. }
      rewrite Dz, Ed. fold p. unfold usl_update, g2p_point. cbn [pt_vel pt_pos pt_L pt_F pt_vol pt_mass pt_vol0]. fold d.
      rewrite (mplane_Lt d A). repeat split. intros _.
      apply vcomp_eq; intro a. rewrite vcomp_add, !vcomp_scale, vcomp_add, vcomp_zero. rnum. ring.
    - destruct H4 as (_ & gd' & B & Egd2 & _ & -> & _).
      destruct (proj1 (active_on_in S gi c) Hc) as (_ & _ & Hcg). rewrite Hcg, Egd in Egd2. injection Egd2 as <-.
      unfold q. rewrite g2p_aflip_nth by exact Hn. rewrite (af_B_affine k gd (sb_pts s) n A b g (af_cutoff af) W Hn I Ed AR Smp), P1, P2, Ed.
      fold p d. unfold aflip_update, g2p_point. cbn [pt_vel pt_pos pt_L pt_F pt_vol pt_mass pt_vol0].
      rewrite (mplane_L d A), !vadd_back by reflexivity. repeat split. intros Un. apply clamp_below.
      unfold unlimited in Un. rewrite Es in Un.
      destruct (Forall2_nth_error _ _ _ _ _ U (nth_error_nth_lt _ _ pt0 Hn)) as (q0 & Hq0 & Uq). fold p in Uq.
      destruct Uq as (_ & -> & _). apply (Un c q0 Hc). eapply nth_error_In, Hq0. }
  pose proof (constitutive_law_kept _ _ _ _ _ _ E5 (c_p c)) as LK. unfold pts_at at 1 in LK. rewrite H5 in LK. cbn [body_pts after_g2p sb_pts] in LK.
  split.
  - apply nth_Forall2 with (d := pt0) (e := pt0).
    { rewrite (Forall2_len _ _ _ U), <- Len. apply (Forall2_len _ _ _ LK). }
    intros n Hn. rewrite (Forall2_len _ _ _ U) in Hn.
    destruct (Forall2_nth_error_l _ _ _ _ _ LK (nth_error_nth_lt _ _ pt0 (eq_ind_r (fun x => (n < x)%nat) Hn Len))) as (q1 & Hq1 & K).
    destruct (Forall2_nth_error _ _ _ _ _ U (nth_error_nth_lt _ _ pt0 Hn)) as (q0 & Hq0 & Uq).
    rewrite (nth_error_nth _ _ pt0 Hq1), (nth_error_nth _ _ pt0 Hq0). destruct (G n Hn) as (G1 & G2 & G3 & G4 & G5 & G6).
    destruct K as (K1 & K2 & K3 & _ & K5 & _ & K7). destruct Uq as (U1 & U2 & U3 & U4 & U5 & U6 & U7 & _).
    unfold F' in *. rewrite K1, K2, K3, K5, K7, G2, G3, G5, G6, U1, U2, U3, U5, U7. repeat split.
    intros Un. rewrite (G1 Un). exact U2.
  - intros w3' m3' E4'. rewrite E4 in E4'. injection E4' as <- <-. unfold pts_at at 2. rewrite H5. cbn [body_pts after_g2p sb_pts].
    apply nth_Forall2 with (d := pt0) (e := pt0).
    { rewrite (Forall2_len _ _ _ U). symmetry. exact Len. }
    intros n Hn. rewrite (Forall2_len _ _ _ U) in Hn. destruct (Forall2_nth_error _ _ _ _ _ U (nth_error_nth_lt _ _ pt0 Hn)) as (q0 & Hq0 & Uq).
    rewrite (nth_error_nth _ _ pt0 Hq0). destruct (G n Hn) as (_ & _ & _ & G4 & _). rewrite G4. unfold F'.
    destruct Uq as (_ & _ & _ & _ & _ & _ & U7 & _). rewrite U7. reflexivity.
Qed.

(** uniform translation *)
Lemma affv_uniform d v x : affv d mzero v x = vtrunc d v.
Proof. destruct v, d; unfold affv, aff, mcomp; simpl; rnum; f_equal; ring. Qed.
Lemma mopp_zero : mopp mzero = (mzero : mat3 R).
Proof. apply mcomp_eq. intros a c. rewrite mcomp_opp, mcomp_zero. ring. Qed.
Lemma grad_uniform S d : grad_of S d mzero = mzero.
Proof.
  assert (Z : mplane d mzero = mzero) by (destruct d; reflexivity).
  unfold grad_of. rewrite Z. destruct (so_scheme S); [|apply mopp_zero]. change (mtrans (mzero : mat3 R)) with (mzero : mat3 R). apply mopp_zero.
Qed.
Lemma F_next_zero d dt (F : mat3 R) : (d = D2 -> m22 F = 1) -> F_next d dt mzero F = F.
Proof.
  intros H. unfold F_next.
  assert (E : mmul (msub meye (mscale dt mzero)) F = (F : mat3 R)).
  { destruct F. unfold mmul, msub, meye, mdiag, mscale, mzero, mmap, mmap2; simpl; rnum. f_equal; ring. }
  destruct d; [|exact E]. change (mset22 (mmul (msub meye (mscale dt mzero)) F) 1 = F). rewrite E. destruct F; unfold mset22; simpl in *. rewrite H by reflexivity. reflexivity.
Qed.
Theorem step_uniform S st st' w ca w2 ca2 ca3 : prepare S st = Ok (w, ca) -> p2g S w (s_mech st) ca = Ok (w2, ca2) ->
  integrate_grid S w2 (s_mech st) (s_dt st) ca2 = Ok ca3 -> solver_step S st = Ok st' ->
  inside S (s_world st) -> NoDup (map c_p (active S)) -> so_forces S = [] -> 0 <= cut_of S ->
  forall gi g gd v, nth_error (sc_grids ca3) gi = Some g -> nth_error (so_domains S) gi = Some gd -> wf_grid gd ->
  (forall c p, In c (active_on S gi) -> In p (pts_at (s_world st) (c_p c)) ->
     pt_vel p = vtrunc (gd_dim gd) v /\ pt_stress p = mzero /\ (gd_dim gd = D2 -> m22 (pt_F p) = 1)) ->
  affine_state S (s_mech st) gi gd mzero -> unlimited S gi gd (s_world st) (s_dt st) ->
  forall c, In c (active_on S gi) -> heavy S (s_world st) g c ->
  Forall2 (fun p q => pt_vel q = pt_vel p /\ pt_pos q = vadd (pt_pos p) (vscale (s_dt st) (pt_vel p)) /\
      pt_L q = mzero /\ pt_vol q = mdet (pt_F p) * pt_vol0 p /\ pt_mass q = pt_mass p)
    (pts_at (s_world st) (c_p c)) (pts_at (s_world st') (c_p c)) /\
  (forall w3 m3, g2p S w2 (s_mech st) (s_dt st) ca3 = Ok (w3, m3) ->
     Forall2 (fun p q => pt_F q = pt_F p) (pts_at (s_world st) (c_p c)) (pts_at w3 (c_p c))).
Proof.
  intros E1 E2 E3 E Hin Nd Nf Hcut gi g gd v Eg Egd W U Af Un c Hc Hv.
  assert (Mv : moves_affinely S (s_world st) gi gd mzero v)
    by (intros c' p Hc' Hp; rewrite affv_uniform; apply (U c' p Hc' Hp)).
  assert (Sf : stress_free (s_world st) S gi) by (intros c' p Hc' Hp; apply (U c' p Hc' Hp)).
  assert (Sm : smooth_body mzero S (s_world st) gd c)
    by (intros k p _ _ _ X; exfalso; apply X; destruct (gd_dim gd); reflexivity).
  destruct (step_affine S st st' w ca w2 ca2 ca3 E1 E2 E3 E Hin Nd Nf gi g gd mzero v Eg Egd W Mv Af Sf Hcut c Hc Hv Sm) as (R1 & R2).
  cbv zeta in R1, R2. rewrite grad_uniform in R1, R2.
  assert (Fz : forall p, In p (pts_at (s_world st) (c_p c)) -> F_next (gd_dim gd) (s_dt st) mzero (pt_F p) = pt_F p)
    by (intros p Hp; apply F_next_zero; intros D; apply (U c p Hc Hp), D).
  split.
  - clear R2. revert R1 Fz. generalize (pts_at (s_world st) (c_p c)) (pts_at (s_world st') (c_p c)). clear -Un. intros l m R1 Fz.
    induction R1 as [|p q l m (A1 & A2 & A3 & A4 & A5) _ IH]; constructor.
    + rewrite (Fz p) in A4 by (left; reflexivity). auto.
    + apply IH. intros p0 Hp0. apply Fz. right. exact Hp0.
  - intros w3 m3 E4. specialize (R2 w3 m3 E4). revert R2 Fz. generalize (pts_at (s_world st) (c_p c)) (pts_at w3 (c_p c)). clear.
    intros l m R2 Fz. induction R2 as [|p q l m A1 _ IH]; constructor.
    + rewrite A1. apply Fz. left. reflexivity.
    + apply IH. intros p0 Hp0. apply Fz. right. exact Hp0.
Qed.

(** *** the affine matrices G2P stores *)
Section State.
Context {T : Type} {NT : NumT T}.
Lemma g2p_coupling_state (S : Solver T) ca dt w m c w' m' p : g2p_coupling S ca dt (w, m) c = Ok (w', m') ->
  (c_skip c = true \/ c_p c <> p) -> nth_error (m_solvers m') p = nth_error (m_solvers m) p.
Proof.
  intros E Hp. apply g2p_coupling_ok in E. destruct E as [(_ & _ & ->)|(Es & s & it & g & pts' & _ & _ & _ & H & _)]; [reflexivity|].
  unfold g2p_result in H. destruct (so_scheme S); [destruct H as (-> & _); reflexivity|].
  destruct H as (_ & gd & B & _ & _ & _ & ->). cbn [m_solvers]. apply set_nth_other. destruct Hp; congruence.
Qed.
Lemma g2p_fold_state (S : Solver T) ca dt cs : forall w m w' m' p, rfold (g2p_coupling S ca dt) (w, m) cs = Ok (w', m') ->
  ~ In p (map c_p (filter (fun c => negb (c_skip c)) cs)) -> nth_error (m_solvers m') p = nth_error (m_solvers m) p.
Proof.
  induction cs as [|c cs IH]; intros w m w' m' p E Hp.
  - injection E as <- <-. reflexivity.
  - cbn [rfold] in E. apply rbind_ok in E. destruct E as ((w1 & m1) & E1 & E). simpl in Hp.
    rewrite (IH _ _ _ _ p E).
    + eapply g2p_coupling_state; [exact E1|]. destruct (c_skip c); [auto|]. right. intros X. apply Hp. left. exact X.
    + intros X. apply Hp. destruct (c_skip c); simpl; auto.
Qed.
(** the affine matrices a body's G2P stores are those of its own gather *)
Definition stored_B (S : Solver T) a (ca : SimCache T) (dt : T) (w : World T) (c : Coupling) (m' : Mechanics T) : Prop :=
  exists s it g gd, nth_error (sc_grids ca) (c_g c) = Some g /\ dict_get (c_p c, c_g c) (sc_inter ca) = Ok it /\
    nth_error (w_mps w) (c_p c) = Some (Soft s) /\ nth_error (so_domains S) (c_g c) = Some gd /\
    nth_error (m_solvers m') (c_p c) = Some (Some (SS_AFLIP (snd (g2p_aflip a (so_alpha S) dt gd (sb_storeF s) it g (sb_pts s))))).
Lemma g2p_stored (S : Solver T) a ca dt : so_scheme S = ASFLIP a -> forall cs w m w' m',
  rfold (g2p_coupling S ca dt) (w, m) cs = Ok (w', m') ->
  NoDup (map c_p (filter (fun c => negb (c_skip c)) cs)) -> forall c, In c cs -> c_skip c = false -> stored_B S a ca dt w c m'.
Proof.
  intros Sch. induction cs as [|c cs IH]; intros w m w' m' E N c0 Hc Hs; [contradiction|].
  cbn [rfold] in E. apply rbind_ok in E. destruct E as ((w1 & m1) & E1 & E). simpl in N.
  destruct Hc as [->|Hc].
  - rewrite Hs in N. simpl in N. apply NoDup_cons_iff in N. destruct N as (N1 & N).
    pose proof (g2p_fold_state _ _ _ _ _ _ _ _ _ E N1) as K.
    apply g2p_coupling_ok in E1. destruct E1 as [(Es & _)|(_ & s & it & g & pts' & H1 & H2 & H3 & H4 & _)]; [congruence|].
    unfold g2p_result in H4. rewrite Sch in H4. destruct H4 as (_ & gd & B & Hgd & Hst & _ & ->).
    exists s, it, g, gd. repeat split; auto. rewrite K. cbn [m_solvers]. eapply set_nth_same, Hst.
  - assert (N' : NoDup (map c_p (filter (fun c => negb (c_skip c)) cs)))
      by (destruct (c_skip c); simpl in N; [exact N|apply NoDup_cons_iff in N; tauto]).
    destruct (IH _ _ _ _ E N' c0 Hc Hs) as (s & it & g & gd & H1 & H2 & H3 & H4 & H5).
    exists s, it, g, gd. repeat split; auto. rewrite <- H3. symmetry. eapply g2p_coupling_other; [exact E1|].
    destruct (c_skip c) eqn:Es; [auto|]. right. simpl in N. apply NoDup_cons_iff in N. destruct N as (N1 & _). intros X. apply N1.
    rewrite X. apply in_map, filter_In. rewrite Hs. auto.
Qed.
Lemma constitutive_solvers (S : Solver T) dt w m w' m' : constitutive_update S dt w m = Ok (w', m') -> m_solvers m' = m_solvers m.
Proof.
  unfold constitutive_update. intros E.
  refine (rfold_inv (fun wm => m_solvers (snd wm) = m_solvers m) _ _ (w, m) (w', m') _ _ E); [|reflexivity].
  intros (w1 & m1) c (w2 & m2) _ I E1. cbn [snd] in *. apply constitutive_coupling_ok in E1.
  destruct E1 as [(_ & -> & ->)|(_ & s & ci & l & ls & s1 & ls' & _ & _ & _ & _ & _ & _ & ->)]; [auto|]. exact I.
Qed.
End State.
Lemma to_points_length {T A} zero add n (rows : list (Interaction T)) (f : Interaction T -> A) : length (to_points zero add n rows f) = n.
Proof. unfold to_points. rewrite scatter_add_length, repeat_length. reflexivity. Qed.
(** AFLIP stores the field's gradient again *)
Theorem step_affine_state S a st st' w ca w2 ca2 ca3 : so_scheme S = ASFLIP a ->
  prepare S st = Ok (w, ca) -> p2g S w (s_mech st) ca = Ok (w2, ca2) ->
  integrate_grid S w2 (s_mech st) (s_dt st) ca2 = Ok ca3 -> solver_step S st = Ok st' ->
  inside S (s_world st) -> NoDup (map c_p (active S)) -> so_forces S = [] ->
  forall gi g gd A b, nth_error (sc_grids ca3) gi = Some g -> nth_error (so_domains S) gi = Some gd -> wf_grid gd ->
  moves_affinely S (s_world st) gi gd A b -> affine_state S (s_mech st) gi gd A -> stress_free (s_world st) S gi -> 0 <= af_cutoff a ->
  forall c, In c (active_on S gi) -> heavy S (s_world st) g c -> smooth_body A S (s_world st) gd c ->
  exists Bp, nth_error (m_solvers (s_mech st')) (c_p c) = Some (Some (SS_AFLIP Bp)) /\
    length Bp = length (pts_at (s_world st) (c_p c)) /\ forall B, In B Bp -> B = mopp (mplane (gd_dim gd) A).
Proof.
  intros Sch E1 E2 E3 E Hin Nd Nf gi g gd A b Eg Egd W Mv Af Sf Hcut c Hc Hv Sm.
  apply step_ok in E. destruct E as (w' & ca' & w2' & ca2' & ca3' & w3 & m3 & w4 & m4 & E1' & E2' & E3' & E4 & E5 & ->).
  rewrite E1 in E1'. injection E1' as <- <-. rewrite E2 in E2'. injection E2' as <- <-. rewrite E3 in E3'. injection E3' as <-.
  cbn [s_world s_mech s_dt] in *. rewrite (constitutive_solvers _ _ _ _ _ _ E5).
  assert (Cut : cut_of S = af_cutoff a) by (unfold cut_of; rewrite Sch; reflexivity).
  destruct (g2p_affine_body S st w ca w2 ca2 ca3 w3 m3 E1 E2 E3 E4 Hin Nd Nf gi g gd A b Eg Egd W Mv Af Sf c Hc ltac:(rewrite Cut; exact Hcut) Hv)
    as (s & k & pts' & m1 & m2 & H3 & H5 & Hk & H4 & Ed & Hpts & Hrows).
  destruct (proj1 (active_on_in S gi c) Hc) as (Hc1 & Hsk & Hcg).
  destruct (g2p_stored S a ca3 (s_dt st) Sch _ _ _ _ _ E4 Nd c Hc1 Hsk) as (s' & it & g' & gd' & K1 & K2 & K3 & K4 & K5).
  rewrite Hcg, Eg in K1. injection K1 as <-. rewrite H3 in K3. injection K3 as <-. rewrite Hcg, Egd in K4. injection K4 as <-.
  destruct (integrate_same_mm _ _ _ _ _ _ E3) as (_ & Einter & _).
  destruct (p2g_grids _ _ _ _ _ _ E1 E2) as (gs & X & Ei2 & _ & _). rewrite Einter, Ei2 in K2.
  assert (Egd' : nth_error (so_domains S) (c_g c) = Some gd) by (rewrite Hcg; exact Egd).
  destruct (p2g_rows _ _ _ _ _ _ _ _ _ _ E1 E2 Hin Hc1 H3 K2 Egd') as (Ws & k' & Hk' & -> & _).
  rewrite Hk in Hk'. injection Hk' as <-.
  pose proof (unforced_pts _ _ _ _ _ _ E1 E2 (c_p c)) as U. unfold pts_at at 2 in U. rewrite H3 in U. cbn [body_pts] in U.
  eexists. split; [exact K5|]. split.
  - unfold g2p_aflip. cbn [snd]. rewrite to_points_length. symmetry. apply (Forall2_len _ _ _ U).
  - intros B HB. apply In_nth with (d := mzero) in HB. destruct HB as (n & Hn & <-).
    unfold g2p_aflip in Hn. cbn [snd] in Hn. rewrite to_points_length in Hn.
    rewrite g2p_aflip_B_nth by exact Hn. destruct (Hrows n Hn) as (AR & _). rewrite Cut in AR.
    assert (Pin : In (nth n (sb_pts s) pt0) (sb_pts s)) by (apply nth_In, Hn).
    destruct (Hpts _ Pin) as (I & _). apply (af_B_affine k gd (sb_pts s) n A b); try assumption.
    destruct (Forall2_nth_error _ _ _ _ _ U (nth_error_nth_lt _ _ pt0 Hn)) as (q0 & Hq0 & Uq).
    destruct Uq as (-> & _). apply Sm; [exact Hk|]. eapply nth_error_In, Hq0.
Qed.

(** *** enough mass: a sufficient condition on the rows *)
Lemma sumR_member {A} (f : A -> R) l x : In x l -> (forall y, In y l -> 0 <= f y) -> f x <= sumR f l.
Proof.
  induction l as [|y l IH]; intros Hx H; [contradiction|]. rewrite sumR_cons.
  assert (0 <= sumR f l) by (apply sumR_nonneg; intros; apply H; right; assumption).
  destruct Hx as [->|Hx]; [lra|]. specialize (H y (or_introl eq_refl)) as Hy.
  specialize (IH Hx (fun z Hz => H z (or_intror Hz))). lra.
Qed.
Lemma rows_of_unforced S st w ca w2 ca2 c : prepare S st = Ok (w, ca) -> p2g S w (s_mech st) ca = Ok (w2, ca2) ->
  rows_of S w2 c = rows_of S (s_world st) c.
Proof.
  intros E1 E2. unfold rows_of. destruct (last_kernel _ _ _); [|reflexivity]. destruct (nth_error _ _); [|reflexivity]. f_equal.
  pose proof (unforced_pts _ _ _ _ _ _ E1 E2 (c_p c)) as U. induction U as [|x y l m Hxy _ IH]; [reflexivity|].
  simpl. rewrite IH. destruct Hxy as (-> & _). reflexivity.
Qed.
Lemma mass_unforced S st w ca w2 ca2 q n : prepare S st = Ok (w, ca) -> p2g S w (s_mech st) ca = Ok (w2, ca2) ->
  pt_mass (nth n (pts_at w2 q) pt0) = pt_mass (nth n (pts_at (s_world st) q) pt0).
Proof.
  intros E1 E2. pose proof (unforced_pts _ _ _ _ _ _ E1 E2 q) as U.
  revert n; induction U as [|x y l m Hxy _ IH]; intros [|n]; simpl; try reflexivity; [apply Hxy|apply IH].
Qed.
Lemma heavy_if S st w ca w2 ca2 ca3 : prepare S st = Ok (w, ca) -> p2g S w (s_mech st) ca = Ok (w2, ca2) ->
  integrate_grid S w2 (s_mech st) (s_dt st) ca2 = Ok ca3 -> inside S (s_world st) ->
  forall gi g gd, nth_error (sc_grids ca3) gi = Some g -> nth_error (so_domains S) gi = Some gd ->
  (forall c p, In c (active_on S gi) -> In p (pts_at (s_world st) (c_p c)) -> 0 <= pt_mass p) ->
  forall c, In c (active_on S gi) ->
  (forall it, In it (rows_of S (s_world st) c) -> it_val it <> 0 \/ it_grad it <> vzero ->
     cut_of S < it_val it * pt_mass (nth (it_point it) (pts_at (s_world st) (c_p c)) pt0)) ->
  heavy S (s_world st) g c.
Proof.
  intros E1 E2 E3 Hin gi g gd Eg Egd Mp c Hc H it Hit Hnz. specialize (H it Hit Hnz).
  destruct (integrate_same_mm _ _ _ _ _ _ E3) as (SM & _).
  destruct (Forall2_nth_error _ _ _ _ _ SM Eg) as (g2 & Eg2 & Hsm). destruct Hsm as (Ed & Em & Emo).
  assert (Wsz : forall c', In c' (active_on S gi) -> wf_sizes gd).
  { intros c' Hc'. apply active_on_in in Hc'. destruct Hc' as (H1 & _ & H2). apply (Hin c' gd H1). rewrite H2. exact Egd. }
  assert (RI : forall c', In c' (active_on S gi) -> forall r, In r (rows_of S (s_world st) c') ->
     (0 <= it_hash r < num_cells gd)%Z /\ (it_point r < length (pts_at (s_world st) (c_p c')))%nat /\ 0 <= it_val r).
  { intros c' Hc' r Hr. unfold rows_of in Hr. destruct (last_kernel _ _ _) as [k|]; [|contradiction].
    destruct (proj1 (active_on_in S gi c') Hc') as (_ & _ & Hg). rewrite Hg, Egd in Hr.
    destruct (compute_in_range k gd _ r (Wsz c' Hc') Hr) as (Q1 & Q2 & _). rewrite map_length in Q2.
    split; [exact Q1|]. split; [exact Q2|]. apply (weight_range _ _ _ _ Hr). }
  rewrite Em. rewrite (node_mass S st w ca w2 ca2 E1 E2 Hin gi g2 gd _ Eg2 Egd) by (destruct (RI c Hc it Hit); lia).
  eapply Rlt_le_trans; [exact H|].
  assert (NN : forall c', In c' (active_on S gi) -> forall r, In r (rows_of S (s_world st) c') ->
    0 <= it_val r * pt_mass (nth (it_point r) (pts_at (s_world st) (c_p c')) pt0)).
  { intros c' Hc' r Hr. destruct (RI c' Hc' r Hr) as (_ & Q2 & Q3). apply Rmult_le_pos; [exact Q3|]. apply (Mp c' _ Hc'), nth_In, Q2. }
  assert (NM : forall c', node_mass_of S w2 c' (Z.to_nat (it_hash it)) = sumR (fun r => it_val r * pt_mass (nth (it_point r) (pts_at (s_world st) (c_p c')) pt0))
     (at_node (Z.of_nat (Z.to_nat (it_hash it))) (rows_of S (s_world st) c'))).
  { intros c'. unfold node_mass_of. rewrite (rows_of_unforced _ _ _ _ _ _ c' E1 E2). apply sumR_ext_all. intros r.
    rewrite (mass_unforced _ _ _ _ _ _ _ _ E1 E2). reflexivity. }
  rewrite (sumR_ext_all _ _ _ NM).
  eapply Rle_trans; [|apply (sumR_member _ _ c Hc)].
  - apply (sumR_member (fun r => it_val r * pt_mass (nth (it_point r) (pts_at (s_world st) (c_p c)) pt0))).
    + unfold at_node. apply filter_In. split; [exact Hit|]. apply Z.eqb_eq. destruct (RI c Hc it Hit). lia.
    + intros r Hr. apply in_at_node in Hr. apply NN; tauto.
  - intros c' Hc'. apply sumR_nonneg. intros r Hr. apply in_at_node in Hr. apply NN; tauto.
Qed.
