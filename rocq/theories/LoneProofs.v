(** A grid carrying a single particle: nodal velocities in closed form (used by C126). *)
From Coq Require Import List Arith ZArith Reals Bool Lra Lia.
From Flocq Require Import Core.Raux.
From Verif Require Import Num NumR Linalg Arrays ModelGrid ModelShape ModelMath ModelState ModelLaws ModelForces ModelSolver
  Sums ShapeFacts SpecShape ShapeProofs ShapeProofs2 ShapeProofs3 MappingProofs ResFacts SolverFacts SpecSolver
  TransferProofs TransferProofs2 StepProofs GatherProofs MomentumProofs AffineProofs StepAffine HeavyProofs VirialProofs SolverMore EnergyProofs SpinProofs.
Import ListNotations.
Local Open Scope R_scope.

(** rows of a single interior point: one per node *)
Lemma lone_point k (gd : GridDomain R) x it : In it (compute_on k gd [x]) -> it_point it = 0%nat.
Proof. intros H. destruct (compute_row k gd [x] it H) as (_ & _ & _ & L & _). simpl in L. lia. Qed.
Lemma lone_all k (gd : GridDomain R) x : of_point 0 (compute_on k gd [x]) = compute_on k gd [x].
Proof.
  assert (G : forall l : list (Interaction R), (forall it, In it l -> it_point it = 0%nat) -> of_point 0 l = l).
  { induction l as [|it l IH]; intros H; [reflexivity|]. unfold of_point in *. cbn [filter]. rewrite (H it (or_introl eq_refl)). cbn. f_equal.
    apply IH. intros j Hj. apply H. right. exact Hj. }
  apply G. intros it Hit. exact (lone_point _ _ _ _ Hit).
Qed.
Lemma lone_row k (gd : GridDomain R) x it : wf_grid gd -> interior k gd x -> In it (compute_on k gd [x]) ->
  exists idx, node_in (gd_size gd) idx /\ it_hash it = ravel (gd_size gd) idx /\
    it_val it = shape_val k (gd_dim gd) (dist_vec (gd_dim gd) (bpos gd x) idx) /\
    it_grad it = shape_grad k (gd_dim gd) (gd_inv gd) (dist_vec (gd_dim gd) (bpos gd x) idx) /\
    it_dist it = dist_vec (gd_dim gd) (bpos gd x) idx.
Proof.
  intros W I H. destruct (compute_row k gd [x] it H) as (off & Ho & _ & L & _ & E). rewrite (lone_point _ _ _ _ H) in E. cbn [nth] in E.
  exists (node_idx k (gd_dim gd) (bpos gd x) off). pose proof (interior_valid k gd x off (proj1 W) I Ho) as V. fold (bpos gd x) in V. split; [exact V|].
  pose proof V as V'. apply idx_valid_iff in V'. rewrite E. unfold single_interaction. cbn [it_hash it_val it_grad it_dist]. fold (bpos gd x). rewrite V'.
  split; [apply ravel_clip_valid, V|]. repeat split.
Qed.
Lemma lone_weight k (gd : GridDomain R) x it : wf_grid gd -> interior k gd x -> In it (compute_on k gd [x]) ->
  sumR it_val (at_node (it_hash it) (compute_on k gd [x])) = it_val it.
Proof.
  intros W I H. destruct (lone_row k gd x it W I H) as (idx & V & Eh & Ev & _). rewrite Eh, Ev, <- lone_all.
  rewrite (weight_at_node k gd [x] 0 idx (proj1 W)); [reflexivity|simpl; lia|exact V].
Qed.
Lemma lone_grad k (gd : GridDomain R) x it a : wf_grid gd -> interior k gd x -> In it (compute_on k gd [x]) ->
  sumR (fun j => vcomp a (it_grad j)) (at_node (it_hash it) (compute_on k gd [x])) = vcomp a (it_grad it).
Proof.
  intros W I H. destruct (lone_row k gd x it W I H) as (idx & V & Eh & _ & Eg & _). rewrite Eh, Eg, <- lone_all.
  rewrite (grad_at_node k gd [x] 0 idx a (proj1 W)); [reflexivity|simpl; lia|exact V].
Qed.
Lemma lone_dist k (gd : GridDomain R) x it j : wf_grid gd -> interior k gd x -> In it (compute_on k gd [x]) -> In j (compute_on k gd [x]) ->
  it_hash j = it_hash it -> it_dist j = it_dist it.
Proof.
  intros W I H Hj E. destruct (lone_row k gd x it W I H) as (idx & V & Eh & _ & _ & ->). destruct (lone_row k gd x j W I Hj) as (idx' & V' & Eh' & _ & _ & ->).
  replace idx' with idx; [reflexivity|]. apply (ravel_inj (gd_size gd)); [exact V|exact V'|congruence].
Qed.

Section Lone.
Variables (S : Solver R) (st : SimState R) (w : World R) (ca : SimCache R) (w2 : World R) (ca2 ca3 : SimCache R).
Hypothesis E1 : prepare S st = Ok (w, ca).
Hypothesis E2 : p2g S w (s_mech st) ca = Ok (w2, ca2).
Hypothesis E3 : integrate_grid S w2 (s_mech st) (s_dt st) ca2 = Ok ca3.
Hypothesis Hin : inside S (s_world st).
Hypothesis O : one_kernel S.
Hypothesis Nf : so_forces S = [].
Variables (gi : nat) (g : Grid R) (gd : GridDomain R) (c : Coupling) (p : Particle R).
Hypothesis Eg : nth_error (sc_grids ca3) gi = Some g.
Hypothesis Egd : nth_error (so_domains S) gi = Some gd.
Hypothesis W : wf_grid gd.
Hypothesis Ea : active_on S gi = [c].
Hypothesis Ep : pts_at (s_world st) (c_p c) = [p].
Let rows := compute_on (c_kernel c) gd [pt_pos p].
Let Hc : In c (active_on S gi). Proof. rewrite Ea. left. reflexivity. Qed.
Lemma lone_rows : rows_of S (s_world st) c = rows /\ interior (c_kernel c) gd (pt_pos p).
Proof.
  destruct (active_rows _ _ _ _ _ _ E1 E2 Hin gi gd c Egd Hc) as (Ws & k & Ek & Er & I). specialize (Ek O). subst k. rewrite Ep in Er, I.
  split; [exact Er|]. apply I. left. reflexivity.
Qed.
Let I : interior (c_kernel c) gd (pt_pos p). Proof. apply lone_rows. Qed.
(** what a node holds: everything its rows bring *)
Lemma lone_node i : (i < Z.to_nat (num_cells gd))%nat ->
  nth i (gr_mass g) 0 = pt_mass p * sumR it_val (at_node (Z.of_nat i) rows) /\
  forall b, (b < dim_nat (gd_dim gd))%nat -> vcomp b (nth i (gr_mom_nt g) vzero)
    = sumR (fun it => it_val it * pt_mass p * row_vel S (s_mech st) gd (s_world st) c b it) (at_node (Z.of_nat i) rows)
      + s_dt st * (pt_vol p * sumR (fun it => vdot (mrow b (pt_stress p)) (it_grad it)) (at_node (Z.of_nat i) rows)).
Proof.
  intros Hi. destruct lone_rows as (Er & _).
  destruct (integrate_same_mm _ _ _ _ _ _ E3) as (SM & _). destruct (Forall2_nth_error _ _ _ _ _ SM Eg) as (g2 & Eg2 & Ed & Em & _).
  destruct (p2g_grids _ _ _ _ _ _ E1 E2) as (gs & X & _ & _ & F & _). subst gs.
  destruct (Forall2_nth_error_l _ _ _ _ _ F Egd) as (g' & Eg' & Hok). rewrite Eg2 in Eg'. injection Eg' as <-. destruct Hok as (Hd & Lm & Lmo & _ & Lf).
  split.
  - rewrite Em, (node_mass0 S st w ca w2 ca2 E1 E2 Hin gi g2 gd i Eg2 Egd Hi), Ea. unfold sumR at 1. cbn [map fold_right]. unfold node_mass_of. rewrite Er, Ep.
    rewrite Rplus_0_r, <- sumR_scal. apply sumR_ext. intros it Hit. apply in_at_node in Hit. destruct Hit as (Hit & _). rewrite (lone_point _ _ _ _ Hit). simpl. ring.
  - intros b Hb.
    assert (Nt : gr_mom_nt g = map (fun mf => vadd (fst mf) (vscale (s_dt st) (snd mf))) (combine (gr_mom g2) (gr_force g2))).
    { pose proof E3 as E. apply integrate_ok in E. destruct E as (gs1 & gs2 & gs3 & F1 & F2 & F3 & X). rewrite X in Eg. rewrite Nf in F1, F3. simpl in F1, F3.
      injection F1 as <-. injection F3 as <-. simpl in Eg. rewrite (integrate_fold_ok _ _ _ _ F2), Eg2 in Eg. simpl in Eg. injection Eg as Eg0.
      assert (Xa : existsb (fun c => (negb (c_skip c) && Nat.eqb (c_g c) gi)%bool) (so_couplings S) = true).
      { apply existsb_exists. exists c. pose proof Hc as H. unfold active_on in H. apply filter_In in H. exact H. }
      rewrite Xa in Eg0. rewrite <- Eg0. reflexivity. }
    rewrite Nt, nth_euler by congruence. rewrite vcomp_add, vcomp_scale. f_equal.
    + rewrite (node_mom S st w ca w2 ca2 E1 E2 Hin gi g2 gd i b Eg2 Egd Hi Hb), Ea. unfold sumR at 1. cbn [map fold_right]. unfold node_mom_of. rewrite Er, Rplus_0_r.
      apply sumR_ext. intros it Hit. apply in_at_node in Hit. destruct Hit as (Hit & _). unfold pt_in. rewrite Ep, (lone_point _ _ _ _ Hit). reflexivity.
    + f_equal. rewrite (p2g_force_last S st w ca w2 ca2 E1 E2 Hin O gi g2 gd i Eg2 Egd Hi [] c Ea). unfold body_force. rewrite Ep. cbn [map]. rewrite vcomp_vsum, <- sumR_scal.
      apply sumR_ext. intros it Hit. apply in_at_node in Hit. destruct Hit as (Hit & _). rewrite (lone_point _ _ _ _ Hit). cbn [nth].
      rewrite vcomp_scale, vcomp_trunc. replace (keep (gd_dim gd) b) with 1 by (destruct (gd_dim gd), b as [|[|[|b]]]; simpl in *; try reflexivity; lia).
      rewrite vcomp_mv. ring.
Qed.
(** the nodal velocity seen by a row heavier than the cutoff *)
Lemma lone_vel cut it b : 0 <= cut -> In it rows -> (b < dim_nat (gd_dim gd))%nat -> cut < it_val it * pt_mass p ->
  vcomp b (node_vel cut (gr_dim g) g (gr_mom_nt g) it)
  = row_vel S (s_mech st) gd (s_world st) c b it + s_dt st * pt_vol p / pt_mass p * (vdot (mrow b (pt_stress p)) (it_grad it) / it_val it).
Proof.
  intros Hcut Hit Hb Hm. destruct (gather_grid S st w ca w2 ca2 ca3 E1 E2 E3 gi g gd Eg Egd) as (_ & _ & _ & Ed & _).
  rewrite node_vel_comp by (rewrite Ed; exact Hb). set (i := Z.to_nat (it_hash it)).
  destruct (compute_in_range _ _ _ _ (proj1 W) Hit) as (Rh & _).
  assert (Hi : (i < Z.to_nat (num_cells gd))%nat) by (unfold i; lia). destruct (lone_node i Hi) as (Ma & Mo). specialize (Mo b Hb).
  assert (Zi : Z.of_nat i = it_hash it) by (unfold i; lia). rewrite Zi in Ma, Mo.
  unfold rows in Ma, Mo, Hit. rewrite (lone_weight _ gd _ it W I Hit) in Ma. fold rows in Mo, Hit. fold rows.
  assert (Rv : sumR (fun j => it_val j * pt_mass p * row_vel S (s_mech st) gd (s_world st) c b j) (at_node (it_hash it) rows)
     = pt_mass p * row_vel S (s_mech st) gd (s_world st) c b it * it_val it).
  { rewrite <- (lone_weight _ gd _ it W I Hit), <- sumR_scal. apply sumR_ext. intros j Hj. apply in_at_node in Hj. destruct Hj as (Hj & Eh).
    unfold row_vel. rewrite (lone_dist _ gd _ it j W I Hit Hj Eh), (lone_point _ _ _ _ Hit), (lone_point _ _ _ _ Hj). ring. }
  assert (Gv : sumR (fun j => vdot (mrow b (pt_stress p)) (it_grad j)) (at_node (it_hash it) rows) = vdot (mrow b (pt_stress p)) (it_grad it)).
  { rewrite (sumR_ext_all _ (fun j => vcomp 0 (mrow b (pt_stress p)) * vcomp 0 (it_grad j) + (vcomp 1 (mrow b (pt_stress p)) * vcomp 1 (it_grad j)
       + vcomp 2 (mrow b (pt_stress p)) * vcomp 2 (it_grad j)))) by (intros j; rewrite vdot_comp; ring).
    rewrite !sumR_plus, !sumR_scal. unfold rows. rewrite !(lone_grad _ gd _ it _ W I Hit). rewrite vdot_comp. ring. }
  rewrite Rv, Gv in Mo. unfold Uvel. rewrite Ma. destruct (Rlt_dec cut (pt_mass p * it_val it)) as [_|N]; [|exfalso; apply N; lra].
  rewrite Mo. assert (N1 : pt_mass p <> 0) by (intros Z; rewrite Z in Hm; lra). assert (N2 : it_val it <> 0) by (intros Z; rewrite Z in Hm; lra). field. auto.
Qed.
Lemma lone_above cut a : 0 <= cut -> (a < dim_nat (gd_dim gd))%nat -> (forall it, In it rows -> cut < it_val it * pt_mass p) -> above cut g (gr_mom_nt g) a.
Proof.
  intros Hcut Ha Hm i Hi. destruct (gather_grid S st w ca w2 ca2 ca3 E1 E2 E3 gi g gd Eg Egd) as (_ & _ & _ & _ & Lm). rewrite Lm in Hi.
  destruct (lone_node i Hi) as (Ma & Mo). specialize (Mo a Ha). destruct (at_node (Z.of_nat i) rows) as [|it l] eqn:En.
  - right. rewrite Mo. unfold sumR; simpl. ring.
  - left. assert (Hit : In it (at_node (Z.of_nat i) rows)) by (rewrite En; left; reflexivity). apply in_at_node in Hit. destruct Hit as (Hit & Eh).
    rewrite Ma, <- En, <- Eh. unfold rows in *. rewrite (lone_weight _ gd _ it W I Hit). rewrite Rmult_comm. apply Hm, Hit.
Qed.
(** the gathered velocity is the particle's own *)
Lemma lone_pic cut b : 0 <= cut -> (b < dim_nat (gd_dim gd))%nat -> (forall it, In it rows -> cut < it_val it * pt_mass p) ->
  vcomp b (pic_vel cut rows g (gr_mom_nt g) 0) = vcomp b (pt_vel p).
Proof.
  intros Hcut Hb Hm. unfold pic_vel. rewrite vcomp_vsum. pose proof (proj1 W) as Ws.
  set (B := affine_of S (s_mech st) c 0). set (k := s_dt st * pt_vol p / pt_mass p).
  rewrite (sumR_ext _ (fun it => vcomp b (pt_vel p) * it_val it + (gd_cell gd * (it_val it * vdot (mrow b B) (it_dist it))
     + (k * vcomp 0 (mrow b (pt_stress p)) * vcomp 0 (it_grad it) + (k * vcomp 1 (mrow b (pt_stress p)) * vcomp 1 (it_grad it)
        + k * vcomp 2 (mrow b (pt_stress p)) * vcomp 2 (it_grad it)))))).
  - rewrite !sumR_plus, !sumR_scal. unfold rows. rewrite pou, sum_dist_dot by (try assumption; simpl; lia).
    rewrite <- !vcomp_vsum, grads_sum_zero by (try assumption; simpl; lia). change (V3 0 0 0) with (vzero : vec3 R). rewrite !vcomp_zero. ring.
  - intros it Hit. apply in_of_point in Hit. destruct Hit as (Hit & _). rewrite vcomp_scale, (lone_vel cut it b Hcut Hit Hb (Hm it Hit)).
    unfold row_vel, pt_in. rewrite (lone_point _ _ _ _ Hit), Ep. cbn [nth]. fold B k. rewrite (vdot_comp (mrow b (pt_stress p))).
    assert (N2 : it_val it <> 0) by (intros Z; specialize (Hm it Hit); rewrite Z in Hm; lra). field. exact N2.
Qed.
End Lone.
