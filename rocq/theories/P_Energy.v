(** Property theorems: angular momentum through the transfers (C111), velocity bounds (C112) and kinetic energy (C113). *)
From Coq Require Import List Arith ZArith Reals Bool Lra Lia.
From Flocq Require Import Core.Raux.
From Verif Require Import Num NumR Linalg Arrays ModelGrid ModelShape ModelMath ModelState ModelLaws ModelForces ModelSolver
  Sums ShapeFacts SpecShape ShapeProofs ShapeProofs2 ShapeProofs3 P_Shape MappingProofs ResFacts SolverFacts SpecSolver
  TransferProofs TransferProofs2 StepProofs GatherProofs MomentumProofs AffineProofs StepAffine HeavyProofs VirialProofs SolverMore PlaneProofs ProgressProofs
  ExSolver P_Solver P_Solver2 SpecMath MathProofs SpecLaws P_Laws LawProofs DeformProofs LawApplyProofs P_Apply EnergyProofs.
Import ListNotations.
Local Open Scope R_scope.

(** *** C111 *)
(** angular momentum of a set of points in the plane of axes [a], [b] *)
Definition angular (a b : nat) (l : list (Particle R)) : R :=
  sumR (fun p => pt_mass p * (vcomp a (pt_pos p) * vcomp b (pt_vel p) - vcomp b (pt_pos p) * vcomp a (pt_vel p))) l.
Theorem C111_usl : forall (S : Solver R) st w ca w2 ca2, prepare S st = Ok (w, ca) -> p2g S w (s_mech st) ca = Ok (w2, ca2) ->
  inside S (s_world st) -> one_kernel S -> so_scheme S = USL ->
  forall gi g gd a b, nth_error (sc_grids ca2) gi = Some g -> nth_error (so_domains S) gi = Some gd -> wf_grid gd ->
  (a < dim_nat (gd_dim gd))%nat -> (b < dim_nat (gd_dim gd))%nat ->
  grid_spin gd g a b = sumR (fun c => angular a b (pts_at (s_world st) (c_p c))) (active_on S gi).
Proof.
  intros S st w ca w2 ca2 E1 E2 Hin O Sch gi g gd a b Eg Egd W Ha Hb. rewrite (p2g_spin _ _ _ _ _ _ E1 E2 Hin O gi g gd a b) by assumption.
  apply sumR_ext_all. intros c. unfold body_spin, angular, affine_of, pt_in. rewrite Sch.
  rewrite <- (sumR_seq_nth (fun p => pt_mass p * (vcomp a (pt_pos p) * vcomp b (pt_vel p) - vcomp b (pt_pos p) * vcomp a (pt_vel p))) pt0).
  apply sumR_ext_all. intros n. cbv zeta. rewrite !mcomp_zero. ring.
Qed.
Print Assumptions C111_usl.
(** AFLIP: the stored matrices contribute their skew part, weighted with the second moment of the shape functions *)
Theorem C111_aflip : forall (S : Solver R) af st w ca w2 ca2, prepare S st = Ok (w, ca) -> p2g S w (s_mech st) ca = Ok (w2, ca2) ->
  inside S (s_world st) -> one_kernel S -> so_scheme S = ASFLIP af ->
  forall gi g gd a b, nth_error (sc_grids ca2) gi = Some g -> nth_error (so_domains S) gi = Some gd -> wf_grid gd ->
  (a < dim_nat (gd_dim gd))%nat -> (b < dim_nat (gd_dim gd))%nat ->
  (forall c, In c (active_on S gi) -> exists s Bp, c_s c = Some s /\ nth_error (m_solvers (s_mech st)) s = Some (Some (SS_AFLIP Bp)) /\
     length Bp = length (pts_at (s_world st) (c_p c))) ->
  grid_spin gd g a b = sumR (fun c => angular a b (pts_at (s_world st) (c_p c))
    - gd_cell gd * gd_cell gd * match c_s c with Some s => match nth_error (m_solvers (s_mech st)) s with Some (Some (SS_AFLIP Bp)) =>
        sumR (fun pB => pt_mass (fst pB) * (point_second (c_kernel c) gd a (pt_pos (fst pB)) * mcomp b a (snd pB)
                                            - point_second (c_kernel c) gd b (pt_pos (fst pB)) * mcomp a b (snd pB)))
             (combine (pts_at (s_world st) (c_p c)) Bp) | _ => 0 end | None => 0 end) (active_on S gi).
Proof.
  intros S af st w ca w2 ca2 E1 E2 Hin O Sch gi g gd a b Eg Egd W Ha Hb Hs. rewrite (p2g_spin _ _ _ _ _ _ E1 E2 Hin O gi g gd a b) by assumption.
  apply sumR_ext. intros c Hc. destruct (Hs c Hc) as (s & Bp & Es & Est & Lb). unfold body_spin, angular, affine_of, pt_in. rewrite Sch, Es, Est.
  set (l := pts_at (s_world st) (c_p c)) in *.
  rewrite <- (sumR_seq_nth (fun p => pt_mass p * (vcomp a (pt_pos p) * vcomp b (pt_vel p) - vcomp b (pt_pos p) * vcomp a (pt_vel p))) pt0 l).
  rewrite <- (sumR_seq_nth (fun pB => pt_mass (fst pB) * (point_second (c_kernel c) gd a (pt_pos (fst pB)) * mcomp b a (snd pB)
      - point_second (c_kernel c) gd b (pt_pos (fst pB)) * mcomp a b (snd pB))) (pt0, mzero) (combine l Bp)).
  rewrite combine_length, Lb, Nat.min_id, <- sumR_scal, <- sumR_minus. apply sumR_ext. intros n Hn. apply in_seq in Hn. cbv zeta.
  rewrite combine_nth by (symmetry; exact Lb). cbn [fst snd]. replace (Nat.min n (length l - 1)) with n by lia. ring.
Qed.
Print Assumptions C111_aflip.
(** the second moments: 1/4 cell^2 (quadratic), 1/3 cell^2 (cubic) everywhere; f (1 - f) cell^2 for the linear kernel *)
Theorem C111_second_moment : forall k gd xs p a c, wf_sizes gd -> (p < length xs)%nat -> interior k gd (nth p xs vzero) ->
  (a < dim_nat (gd_dim gd))%nat -> (c < dim_nat (gd_dim gd))%nat ->
  sumR (fun it => it_val it * (vcomp a (it_dist it) * vcomp c (it_dist it))) (of_point p (compute_on k gd xs))
  = if Nat.eqb a c then match k with Quadratic => 1/4 | Cubic => 1/3 | Linear =>
      let t := (vcomp a (nth p xs vzero) - vcomp a (gd_origin gd)) * gd_inv gd in (t - IZR (Zfloor t)) * (1 - (t - IZR (Zfloor t))) end else 0.
Proof.
  intros k gd xs p a c W Hp I Ha Hc. rewrite (moment_two k gd xs p a c W Hp I Ha Hc). unfold point_second, axis_second, gcoord. destruct k; reflexivity.
Qed.
Print Assumptions C111_second_moment.
(** the grid update of a lone body with symmetric stresses leaves the angular momentum of the grid alone *)
Theorem C111_grid_update : forall (S : Solver R) st w ca w2 ca2 ca3, prepare S st = Ok (w, ca) -> p2g S w (s_mech st) ca = Ok (w2, ca2) ->
  integrate_grid S w2 (s_mech st) (s_dt st) ca2 = Ok ca3 -> inside S (s_world st) -> one_kernel S -> so_forces S = [] ->
  forall gi g g3 gd c a b, nth_error (sc_grids ca2) gi = Some g -> nth_error (sc_grids ca3) gi = Some g3 -> nth_error (so_domains S) gi = Some gd -> wf_grid gd ->
  active_on S gi = [c] -> (a < dim_nat (gd_dim gd))%nat -> (b < dim_nat (gd_dim gd))%nat ->
  (forall p, In p (pts_at (s_world st) (c_p c)) -> off_lines (c_kernel c) gd (pt_pos p) /\ mtrans (pt_stress p) = pt_stress p) ->
  sumR (fun i => vcomp a (nth i (position_stack gd) vzero) * vcomp b (nth i (gr_mom_nt g3) vzero)
                 - vcomp b (nth i (position_stack gd) vzero) * vcomp a (nth i (gr_mom_nt g3) vzero)) (seq 0 (Z.to_nat (num_cells gd)))
  = grid_spin gd g a b.
Proof.
  intros S st w ca w2 ca2 ca3 E1 E2 E3 Hin O Nf gi g g3 gd c a b Eg Eg3 Egd W Ea Ha Hb Hp.
  destruct (p2g_grids _ _ _ _ _ _ E1 E2) as (gs & X & Ei2 & _ & F & _). subst gs.
  destruct (Forall2_nth_error_l _ _ _ _ _ F Egd) as (g' & Eg' & Hok). rewrite Eg in Eg'. injection Eg' as <-.
  destruct Hok as (Hd & Lm & Lmo & _ & Lf).
  assert (Hca : In c (active_on S gi)) by (rewrite Ea; left; reflexivity).
  assert (Nt : gr_mom_nt g3 = map (fun mf => vadd (fst mf) (vscale (s_dt st) (snd mf))) (combine (gr_mom g) (gr_force g))).
  { pose proof E3 as E. apply integrate_ok in E. destruct E as (gs1 & gs2 & gs3 & F1 & F2 & F3 & X). rewrite X in Eg3. rewrite Nf in F1, F3. simpl in F1, F3.
    injection F1 as <-. injection F3 as <-. simpl in Eg3. rewrite (integrate_fold_ok _ _ _ _ F2), Eg in Eg3. simpl in Eg3. injection Eg3 as Eg0.
    assert (Xa : existsb (fun c => (negb (c_skip c) && Nat.eqb (c_g c) gi)%bool) (so_couplings S) = true).
    { apply existsb_exists. exists c. unfold active_on in Hca. apply filter_In in Hca. exact Hca. }
    rewrite Xa in Eg0. rewrite <- Eg0. reflexivity. }
  rewrite Nt. unfold grid_spin.
  rewrite (sumR_ext _ (fun i => (vcomp a (nth i (position_stack gd) vzero) * vcomp b (nth i (gr_mom g) vzero)
      - vcomp b (nth i (position_stack gd) vzero) * vcomp a (nth i (gr_mom g) vzero))
      - s_dt st * (vcomp a (body_force (s_world st) c gd i) * vcomp b (nth i (position_stack gd) vzero)
                 - vcomp b (body_force (s_world st) c gd i) * vcomp a (nth i (position_stack gd) vzero)))).
  - rewrite (sumR_minus _ (fun i => s_dt st * _)), sumR_scal. rewrite (force_torque (s_world st) c gd a b W Ha Hb); [ring| |intros p Hp'; apply Hp, Hp'].
    intros p Hp'. split; [|apply Hp, Hp']. apply active_on_in in Hca. destruct Hca as (Hc & _ & Hg). apply (Hin c gd Hc); [rewrite Hg; exact Egd|exact Hp'].
  - intros i Hi. apply in_seq in Hi. rewrite nth_euler by congruence.
    rewrite (p2g_force_last S st w ca w2 ca2 E1 E2 Hin O gi g gd i Eg Egd ltac:(lia) [] c Ea). rewrite !vcomp_add, !vcomp_scale. ring.
Qed.
Print Assumptions C111_grid_update.
(** a lone stressed body under both schemes, and the value of the total for two particles *)
Lemma one_kernelR sch al n : one_kernel (solverR sch al n).
Proof. intros c c' Hc Hc' _ _. simpl in Hc, Hc'. apply in_map_iff in Hc. apply in_map_iff in Hc'. destruct Hc as (x & <- & _), Hc' as (y & <- & _). reflexivity. Qed.
Definition oneR : list (Body R) := [two va vb sg].
Lemma oneR_two : Forall is_two oneR.
Proof. repeat constructor. exists va, vb, sg. reflexivity. Qed.
Example C111_case : forall sch, sch = USL \/ sch = ASFLIP aflipR ->
  let S := solverR sch (1/2) 1 in let st := stateR oneR (M3 0 1 0 2 0 0 0 0 0) (1/10) in exists w ca w2 ca2 ca3 g g3,
  prepare S st = Ok (w, ca) /\ p2g S w (s_mech st) ca = Ok (w2, ca2) /\ integrate_grid S w2 (s_mech st) (s_dt st) ca2 = Ok ca3 /\
  inside S (s_world st) /\ one_kernel S /\ so_forces S = [] /\
  nth_error (sc_grids ca2) 0 = Some g /\ nth_error (sc_grids ca3) 0 = Some g3 /\ nth_error (so_domains S) 0 = Some g2 /\ wf_grid g2 /\ active_on S 0 = [cpl 0] /\
  (exists s Bp, c_s (cpl 0) = Some s /\ nth_error (m_solvers (s_mech st)) s = Some (Some (SS_AFLIP Bp)) /\ length Bp = length (pts_at (s_world st) (c_p (cpl 0)))) /\
  (forall p, In p (pts_at (s_world st) (c_p (cpl 0))) -> off_lines (c_kernel (cpl 0)) g2 (pt_pos p) /\ mtrans (pt_stress p) = pt_stress p) /\
  sumR (fun c => angular 0 1 (pts_at (s_world st) (c_p c))) (active_on S 0) = 73/4.
Proof.
  intros sch H S st.
  assert (X : exists w ca w2 ca2 ca3 g g3, prepare S st = Ok (w, ca) /\ p2g S w (s_mech st) ca = Ok (w2, ca2) /\
     integrate_grid S w2 (s_mech st) (s_dt st) ca2 = Ok ca3 /\ nth_error (sc_grids ca2) 0 = Some g /\ nth_error (sc_grids ca3) 0 = Some g3)
    by (destruct H as [-> | ->]; do 7 eexists; repeat split; reflexivity).
  destruct X as (w & ca & w2 & ca2 & ca3 & g & g3 & E1 & E2 & E3 & Eg & Eg3). exists w, ca, w2, ca2, ca3, g, g3.
  split; [exact E1|]. split; [exact E2|]. split; [exact E3|].
  split; [apply ex_inside, oneR_two|]. split; [apply one_kernelR|]. split; [reflexivity|]. split; [exact Eg|]. split; [exact Eg3|]. split; [reflexivity|].
  split; [exact g2_wf|]. split; [unfold S; rewrite ex_act; reflexivity|]. split; [|split].
  - eexists. eexists. split; [reflexivity|]. split; reflexivity.
  - intros p Hp. split; [intros X; discriminate|]. destruct Hp as [<-|[<-|[]]]; reflexivity.
  - unfold S. rewrite ex_act. unfold angular, sumR; simpl. lra.
Qed.

(** *** C112 *)
(** one step of the USL solver without forces, stresses or walls; [lo], [hi] any bounds around zero, or any bounds at all when no
    node is below the mass cutoff *)
Theorem C112_step : forall (S : Solver R) st st' w ca w2 ca2 ca3, prepare S st = Ok (w, ca) -> p2g S w (s_mech st) ca = Ok (w2, ca2) ->
  integrate_grid S w2 (s_mech st) (s_dt st) ca2 = Ok ca3 -> solver_step S st = Ok st' ->
  so_scheme S = USL -> inside S (s_world st) -> NoDup (map c_p (active S)) -> so_forces S = [] -> 0 <= so_alpha S <= 1 ->
  forall gi g gd a lo hi, nth_error (sc_grids ca3) gi = Some g -> nth_error (so_domains S) gi = Some gd -> (a < dim_nat (gd_dim gd))%nat ->
  stress_free (s_world st) S gi ->
  (lo <= 0 <= hi \/ forall c, In c (active_on S gi) -> heavy S (s_world st) g c) ->
  (forall c p, In c (active_on S gi) -> In p (pts_at (s_world st) (c_p c)) -> 0 <= pt_mass p /\ lo <= vcomp a (pt_vel p) <= hi) ->
  forall c p, In c (active_on S gi) -> In p (pts_at (s_world st') (c_p c)) -> 0 <= pt_mass p /\ lo <= vcomp a (pt_vel p) <= hi.
Proof.
  intros S st st' w ca w2 ca2 ca3 E1 E2 E3 E Usl Hin Nd Nf Al gi g gd a lo hi Eg Egd Ha Sf Hz Hb.
  apply step_ok in E. destruct E as (w' & ca' & w2' & ca2' & ca3' & w3 & m3 & w4 & m4 & E1' & E2' & E3' & E4 & E5 & ->).
  rewrite E1 in E1'. injection E1' as <- <-. rewrite E2 in E2'. injection E2' as <- <-. rewrite E3 in E3'. injection E3' as <-.
  cbn [s_world s_mech s_dt] in *. pose proof (constitutive_law_kept _ _ _ _ _ _ E5) as LK.
  intros c p Hc Hp. apply In_nth_error in Hp. destruct Hp as (n & Hp).
  destruct (Forall2_nth_error _ _ _ _ _ (LK (c_p c)) Hp) as (q & Hq & Hk). destruct Hk as (_ & Hv & Hm & _). rewrite Hv, Hm.
  assert (Hq' : In q (pts_at w3 (c_p c))) by (eapply nth_error_In, Hq).
  assert (Mp : forall c p, In c (active_on S gi) -> In p (pts_at (s_world st) (c_p c)) -> 0 <= pt_mass p) by (intros c1 p1 A B; apply (Hb c1 p1 A B)).
  split.
  - destruct (free_body S st w ca w2 ca2 ca3 w3 m3 Usl E1 E2 E3 E4 Hin Nd Nf gi g gd Eg Egd Sf c Hc) as (Len & Body).
    destruct (In_nth _ _ pt0 Hq') as (k & Hkn & Ek). rewrite Len in Hkn. destruct (Body k Hkn) as (Bm & _). unfold pt_in in Bm. rewrite Ek in Bm.
    rewrite Bm. apply (Mp c); [exact Hc|]. apply nth_In, Hkn.
  - apply (free_bounds S st w ca w2 ca2 ca3 w3 m3 Usl E1 E2 E3 E4 Hin Nd Nf gi g gd Eg Egd Sf Al Mp a lo hi Ha Hz) with (c := c); try assumption.
    intros c1 p1 A B. apply (Hb c1 p1 A B).
Qed.
Print Assumptions C112_step.
Lemma step_grid (S : Solver R) st st' gi gd : solver_step S st = Ok st' -> nth_error (so_domains S) gi = Some gd ->
  exists w ca w2 ca2 ca3 g, prepare S st = Ok (w, ca) /\ p2g S w (s_mech st) ca = Ok (w2, ca2) /\ integrate_grid S w2 (s_mech st) (s_dt st) ca2 = Ok ca3 /\
    nth_error (sc_grids ca3) gi = Some g.
Proof.
  intros E Egd. destruct (ex_phases _ _ _ E) as (w & ca & w2 & ca2 & ca3 & E1 & E2 & E3). exists w, ca, w2, ca2, ca3.
  pose proof (proj1 (integrate_same_mm _ _ _ _ _ _ E3)) as F. destruct (p2g_grids _ _ _ _ _ _ E1 E2) as (gs & X & _ & _ & F' & _). subst gs.
  apply Forall2_len in F. apply Forall2_len in F'. destruct (nth_error (sc_grids ca3) gi) as [g|] eqn:N; [exists g; auto|]. exfalso.
  apply nth_error_None in N. assert (gi < length (so_domains S))%nat by (apply nth_error_Some; congruence). lia.
Qed.
(** the states a run of [n] steps leaves *)
Definition visited (S : Solver R) (n : nat) (st : SimState R) (P : SimState R -> Prop) : Prop :=
  forall k s, (k < n)%nat -> solver_steps S k st = Ok s -> P s.
Lemma visited_tail S n st s1 P : solver_step S st = Ok s1 -> visited S (Datatypes.S n) st P -> P st /\ visited S n s1 P.
Proof.
  intros E V. split; [apply (V 0%nat); [lia|reflexivity]|]. intros k s Hk Es. apply (V (Datatypes.S k)); [lia|]. cbn [solver_steps]. rewrite E. exact Es.
Qed.
Theorem C112_run : forall (S : Solver R) n gi gd a lo hi, so_scheme S = USL -> NoDup (map c_p (active S)) -> so_forces S = [] -> 0 <= so_alpha S <= 1 ->
  nth_error (so_domains S) gi = Some gd -> (a < dim_nat (gd_dim gd))%nat -> lo <= 0 <= hi ->
  forall st st', solver_steps S n st = Ok st' -> visited S n st (fun s => inside S (s_world s) /\ stress_free (s_world s) S gi) ->
  (forall c p, In c (active_on S gi) -> In p (pts_at (s_world st) (c_p c)) -> 0 <= pt_mass p /\ lo <= vcomp a (pt_vel p) <= hi) ->
  forall c p, In c (active_on S gi) -> In p (pts_at (s_world st') (c_p c)) -> 0 <= pt_mass p /\ lo <= vcomp a (pt_vel p) <= hi.
Proof.
  intros S n gi gd a lo hi Usl Nd Nf Al Egd Ha Hz. induction n as [|n IH]; intros st st' E V Hb; cbn [solver_steps] in E.
  - injection E as <-. exact Hb.
  - apply rbind_ok in E. destruct E as (s1 & E & En). destruct (visited_tail _ _ _ _ _ E V) as ((Hin & Sf) & V').
    apply (IH s1 st' En V'). destruct (step_grid S st s1 gi gd E Egd) as (w & ca & w2 & ca2 & ca3 & g & E1 & E2 & E3 & Eg).
    apply (C112_step S st s1 w ca w2 ca2 ca3 E1 E2 E3 E Usl Hin Nd Nf Al gi g gd a lo hi Eg Egd Ha Sf (or_introl Hz) Hb).
Qed.
Print Assumptions C112_run.

(** a whole step of the USL solver without forces and stresses: FLIP (alpha = 1) keeps the angular momentum of the particles, whatever
    the masses of the nodes; in general the gathered velocities take the share 1 - alpha *)
Theorem C111_free_step : forall (S : Solver R) st st' w ca w2 ca2 ca3, prepare S st = Ok (w, ca) -> p2g S w (s_mech st) ca = Ok (w2, ca2) ->
  integrate_grid S w2 (s_mech st) (s_dt st) ca2 = Ok ca3 -> solver_step S st = Ok st' ->
  so_scheme S = USL -> inside S (s_world st) -> NoDup (map c_p (active S)) -> so_forces S = [] ->
  forall gi g gd a b, nth_error (sc_grids ca3) gi = Some g -> nth_error (so_domains S) gi = Some gd ->
  (a < dim_nat (gd_dim gd))%nat -> (b < dim_nat (gd_dim gd))%nat -> stress_free (s_world st) S gi ->
  let G c n k := vcomp k (pic_vel cut12 (rows_of S (s_world st) c) g (gr_mom g) n) in
  sumR (fun c => angular a b (pts_at (s_world st') (c_p c))) (active_on S gi)
  = so_alpha S * sumR (fun c => angular a b (pts_at (s_world st) (c_p c))) (active_on S gi)
    + (1 - so_alpha S) * sumR (fun c => sumR (fun n => let p := nth n (pts_at (s_world st) (c_p c)) pt0 in
        pt_mass p * (vcomp a (pt_pos p) * G c n b - vcomp b (pt_pos p) * G c n a)) (seq 0 (length (pts_at (s_world st) (c_p c))))) (active_on S gi).
Proof.
  intros S st st' w ca w2 ca2 ca3 E1 E2 E3 E Usl Hin Nd Nf gi g gd a b Eg Egd Ha Hb Sf G.
  pose proof (cross_symmetric S st w ca w2 ca2 ca3 Usl E1 E2 E3 Hin Nf gi g gd Eg Egd Sf a b Ha Hb) as CS.
  assert (GG : forall c n k, EnergyProofs.gathered S st g c n k = G c n k).
  { intros c n k. unfold gathered, G, pic_vel. rewrite vcomp_vsum. apply sumR_ext_all. intros it. rewrite vcomp_scale. reflexivity. }
  set (X := fun c i j => sumR (fun n => pt_mass (pt_in (s_world st) c n) * (G c n i * vcomp j (pt_vel (pt_in (s_world st) c n)))) (seq 0 (length (pts_at (s_world st) (c_p c))))).
  assert (CX : sumR (fun c => X c a b) (active_on S gi) = sumR (fun c => X c b a) (active_on S gi)).
  { unfold X. etransitivity; [|etransitivity; [exact CS|]]; apply sumR_ext_all; intros c; apply sumR_ext_all; intros n; rewrite GG; reflexivity. }
  apply Rminus_diag_uniq. transitivity (s_dt st * so_alpha S * (sumR (fun c => X c a b) (active_on S gi) - sumR (fun c => X c b a) (active_on S gi))); [|rewrite CX; ring].
  rewrite <- !sumR_scal, <- sumR_plus, <- !sumR_minus, <- sumR_scal. apply sumR_ext. intros c Hc.
  destruct (proj1 (active_on_in _ _ _) Hc) as (Hc1 & Hsk & Hcg).
  assert (Eg' : nth_error (sc_grids ca3) (c_g c) = Some g) by (rewrite Hcg; exact Eg).
  destruct (free_grid S st w ca w2 ca2 ca3 E1 E2 E3 Hin Nf gi g gd Eg Egd Sf c Hc) as (g' & _ & _ & _ & _ & Ent).
  assert (Pnt : forall n, pic_vel cut12 (rows_of S (s_world st) c) g (gr_mom_nt g) n = pic_vel cut12 (rows_of S (s_world st) c) g (gr_mom g) n).
  { intros n. unfold pic_vel. apply vsum_ext. intros it _. unfold node_vel. rewrite Ent. reflexivity. }
  assert (Mass : length (pts_at (s_world st') (c_p c)) = length (pts_at (s_world st) (c_p c)) /\ forall n, (n < length (pts_at (s_world st) (c_p c)))%nat ->
     pt_mass (nth n (pts_at (s_world st') (c_p c)) pt0) = pt_mass (nth n (pts_at (s_world st) (c_p c)) pt0)).
  { pose proof E as E'. apply step_ok in E'. destruct E' as (w' & ca' & w2' & ca2' & ca3' & w3 & m3 & w4 & m4 & E1' & E2' & E3' & E4 & E5 & ->).
    rewrite E1 in E1'. injection E1' as <- <-. rewrite E2 in E2'. injection E2' as <- <-. rewrite E3 in E3'. injection E3' as <-. cbn [s_world].
    pose proof (constitutive_law_kept _ _ _ _ _ _ E5 (c_p c)) as K. pose proof (Forall2_len _ _ _ K) as L5.
    destruct (free_body S st w ca w2 ca2 ca3 w3 m3 Usl E1 E2 E3 E4 Hin Nd Nf gi g gd Eg Egd Sf c Hc) as (Len & Body).
    split; [congruence|]. intros n Hn. destruct (Body n Hn) as (Bm & _). unfold pt_in in Bm. rewrite <- Bm.
    assert (Hn3 : (n < length (pts_at w3 (c_p c)))%nat) by lia.
    pose proof (Forall2_nth_d _ _ _ pt0 pt0 n K Hn3) as (_ & _ & Km & _). congruence. }
  destruct Mass as (Len & Mass).
  unfold angular, X. rewrite <- (sumR_seq_nth _ pt0 (pts_at (s_world st') (c_p c))), <- (sumR_seq_nth _ pt0 (pts_at (s_world st) (c_p c))), Len.
  rewrite <- !sumR_scal, <- sumR_plus, <- !sumR_minus, <- sumR_scal. apply sumR_ext. intros n Hn. apply in_seq in Hn. cbv zeta beta. unfold pt_in.
  destruct (usl_step_point S st st' w ca w2 ca2 ca3 E1 E2 E3 E Nd c g Hc1 Hsk Eg' n Usl ltac:(lia)) as (_ & Qx & Qv & _).
  rewrite Mass by lia. rewrite Qx, Qv, !vcomp_add, !vcomp_scale, !vcomp_add, !vcomp_sub, !Pnt. fold (G c n a) (G c n b). ring.
Qed.
Print Assumptions C111_free_step.
Theorem C111_flip : forall (S : Solver R) n gi gd a b, so_scheme S = USL -> so_alpha S = 1 -> NoDup (map c_p (active S)) -> so_forces S = [] ->
  nth_error (so_domains S) gi = Some gd -> (a < dim_nat (gd_dim gd))%nat -> (b < dim_nat (gd_dim gd))%nat ->
  forall st st', solver_steps S n st = Ok st' -> visited S n st (fun s => inside S (s_world s) /\ stress_free (s_world s) S gi) ->
  sumR (fun c => angular a b (pts_at (s_world st') (c_p c))) (active_on S gi) = sumR (fun c => angular a b (pts_at (s_world st) (c_p c))) (active_on S gi).
Proof.
  intros S n gi gd a b Usl Al Nd Nf Egd Ha Hb. induction n as [|n IH]; intros st st' E V; cbn [solver_steps] in E; [injection E as <-; reflexivity|].
  apply rbind_ok in E. destruct E as (s1 & E & En). destruct (visited_tail _ _ _ _ _ E V) as ((Hin & Sf) & V').
  rewrite (IH s1 st' En V'). destruct (step_grid S st s1 gi gd E Egd) as (w & ca & w2 & ca2 & ca3 & g & E1 & E2 & E3 & Eg).
  rewrite (C111_free_step S st s1 w ca w2 ca2 ca3 E1 E2 E3 E Usl Hin Nd Nf gi g gd a b Eg Egd Ha Hb Sf), Al. ring.
Qed.
Print Assumptions C111_flip.

(** *** C113 *)
Definition kinetic (l : list (Particle R)) : R :=
  sumR (fun p => 1/2 * pt_mass p * (vx (pt_vel p) * vx (pt_vel p) + vy (pt_vel p) * vy (pt_vel p) + vz (pt_vel p) * vz (pt_vel p))) l.
Lemma kinetic_axes S gi (w : World R) : sumR (fun c => kinetic (pts_at w (c_p c))) (active_on S gi)
  = 1/2 * (axis_energy S gi 0 w + (axis_energy S gi 1 w + axis_energy S gi 2 w)).
Proof.
  unfold axis_energy. rewrite <- !sumR_plus, <- sumR_scal. apply sumR_ext_all. intros c. rewrite <- !sumR_plus, <- sumR_scal. apply sumR_ext_all. intros p.
  simpl. ring.
Qed.
Theorem C113_step : forall (S : Solver R) st st', solver_step S st = Ok st' ->
  so_scheme S = USL -> inside S (s_world st) -> NoDup (map c_p (active S)) -> so_forces S = [] -> 0 <= so_alpha S <= 1 ->
  forall gi gd, nth_error (so_domains S) gi = Some gd -> stress_free (s_world st) S gi ->
  (forall c p, In c (active_on S gi) -> In p (pts_at (s_world st) (c_p c)) -> 0 <= pt_mass p) ->
  sumR (fun c => kinetic (pts_at (s_world st') (c_p c))) (active_on S gi) <= sumR (fun c => kinetic (pts_at (s_world st) (c_p c))) (active_on S gi).
Proof.
  intros S st st' E Usl Hin Nd Nf Al gi gd Egd Sf Mp.
  destruct (step_grid S st st' gi gd E Egd) as (w & ca & w2 & ca2 & ca3 & g & E1 & E2 & E3 & Eg).
  apply step_ok in E. destruct E as (w' & ca' & w2' & ca2' & ca3' & w3 & m3 & w4 & m4 & E1' & E2' & E3' & E4 & E5 & ->).
  rewrite E1 in E1'. injection E1' as <- <-. rewrite E2 in E2'. injection E2' as <- <-. rewrite E3 in E3'. injection E3' as <-.
  cbn [s_world s_mech s_dt] in *. pose proof (constitutive_law_kept _ _ _ _ _ _ E5) as LK.
  rewrite (sumR_ext_all (fun c => kinetic (pts_at w4 (c_p c))) (fun c => kinetic (pts_at w3 (c_p c)))).
  2:{ intros c. unfold kinetic. specialize (LK (c_p c)). induction LK as [|x y l m Hxy _ IH]; [reflexivity|]. rewrite !sumR_cons, IH.
      destruct Hxy as (_ & -> & -> & _). reflexivity. }
  rewrite !kinetic_axes.
  assert (Ax : forall a, (a < dim_nat (gd_dim gd))%nat -> axis_energy S gi a w3 <= axis_energy S gi a (s_world st)).
  { intros a Ha. apply (free_energy S st w ca w2 ca2 ca3 w3 m3 Usl E1 E2 E3 E4 Hin Nd Nf gi g gd Eg Egd Sf Al Mp a Ha). }
  assert (A2 : axis_energy S gi 2 w3 <= axis_energy S gi 2 (s_world st)).
  { destruct (gd_dim gd) eqn:D; [|apply Ax; simpl; lia].
    apply (free_energy_z S st w ca w2 ca2 ca3 w3 m3 Usl E1 E2 E3 E4 Hin Nd Nf gi g gd Eg Egd Sf Al Mp D). }
  pose proof (Ax 0%nat ltac:(destruct (gd_dim gd); simpl; lia)). pose proof (Ax 1%nat ltac:(destruct (gd_dim gd); simpl; lia)). lra.
Qed.
Print Assumptions C113_step.
Theorem C113_run : forall (S : Solver R) n gi gd, so_scheme S = USL -> NoDup (map c_p (active S)) -> so_forces S = [] -> 0 <= so_alpha S <= 1 ->
  nth_error (so_domains S) gi = Some gd ->
  forall st st', solver_steps S n st = Ok st' -> visited S n st (fun s => inside S (s_world s) /\ stress_free (s_world s) S gi) ->
  (forall c p, In c (active_on S gi) -> In p (pts_at (s_world st) (c_p c)) -> 0 <= pt_mass p) ->
  sumR (fun c => kinetic (pts_at (s_world st') (c_p c))) (active_on S gi) <= sumR (fun c => kinetic (pts_at (s_world st) (c_p c))) (active_on S gi).
Proof.
  intros S n gi gd Usl Nd Nf Al Egd. induction n as [|n IH]; intros st st' E V Hb; cbn [solver_steps] in E.
  - injection E as <-. apply Rle_refl.
  - apply rbind_ok in E. destruct E as (s1 & E & En). destruct (visited_tail _ _ _ _ _ E V) as ((Hin & Sf) & V').
    eapply Rle_trans; [|apply (C113_step S st s1 E Usl Hin Nd Nf Al gi gd Egd Sf Hb)]. apply (IH s1 st' En V').
    destruct (step_grid S st s1 gi gd E Egd) as (w & ca & w2 & ca2 & ca3 & g & E1 & E2 & E3 & Eg).
    apply step_ok in E. destruct E as (w' & ca' & w2' & ca2' & ca3' & w3 & m3 & w4 & m4 & E1' & E2' & E3' & E4 & E5 & ->).
    rewrite E1 in E1'. injection E1' as <- <-. rewrite E2 in E2'. injection E2' as <- <-. rewrite E3 in E3'. injection E3' as <-.
    cbn [s_world] in *. intros c p Hc Hp. apply In_nth_error in Hp. destruct Hp as (k & Hp).
    destruct (Forall2_nth_error _ _ _ _ _ (constitutive_law_kept _ _ _ _ _ _ E5 (c_p c)) Hp) as (q & Hq & Hk). destruct Hk as (_ & _ & Hm & _). rewrite Hm.
    destruct (free_body S st w ca w2 ca2 ca3 w3 m3 Usl E1 E2 E3 E4 Hin Nd Nf gi g gd Eg Egd Sf c Hc) as (Len & Body).
    destruct (In_nth _ _ pt0 (nth_error_In _ _ Hq)) as (j & Hj & Ej). rewrite Len in Hj. destruct (Body j Hj) as (Bm & _). unfold pt_in in Bm. rewrite Ej in Bm.
    rewrite Bm. apply (Hb c); [exact Hc|]. apply nth_In, Hj.
Qed.
Print Assumptions C113_run.

(** a cloud without stiffness: nothing about the visited states is assumed *)
Definition dust (S : Solver R) (gi : nat) (gd : GridDomain R) (V r : R) (st : SimState R) : Prop :=
  forall c p, In c (active_on S gi) -> In p (pts_at (s_world st) (c_p c)) ->
    0 <= pt_mass p /\ pt_stress p = mzero /\ (forall a, (a < dim_nat (gd_dim gd))%nat -> Rabs (vcomp a (pt_vel p)) <= V) /\
    (forall x, (forall a, (a < dim_nat (gd_dim gd))%nat -> Rabs (vcomp a x - vcomp a (pt_pos p)) <= r) -> interior (c_kernel c) gd x).
Definition soft_law (S : Solver R) (c : Coupling) : Prop :=
  exists ci m, c_c c = Some ci /\ nth_error (so_laws S) ci = Some (Some (LawLE m)) /\ le_lam m = 0 /\ le_G m = 0.
Section Dust.
Variables (S : Solver R) (gi : nat) (gd : GridDomain R) (V : R).
Hypothesis Usl : so_scheme S = USL.
Hypothesis Nd : NoDup (map c_p (active S)).
Hypothesis Nc : NoDup (map c_c (active S)).
Hypothesis Nf : so_forces S = [].
Hypothesis Al : 0 <= so_alpha S <= 1.
Hypothesis Egd : nth_error (so_domains S) gi = Some gd.
Hypothesis Ws : wf_sizes gd.
Hypothesis Dc : forall c, In c (so_couplings S) -> In c (active_on S gi) /\ soft_law S c.
Lemma dust_inside r st : 0 <= r -> dust S gi gd V r st -> inside S (s_world st).
Proof.
  intros Hr D c gd' Hc Eg. destruct (Dc c Hc) as (Hca & _). destruct (proj1 (active_on_in _ _ _) Hca) as (_ & _ & X). rewrite X, Egd in Eg. injection Eg as <-.
  split; [exact Ws|]. intros p Hp. destruct (D c p Hca Hp) as (_ & _ & _ & I). apply I. intros a _. rewrite Rminus_diag_eq by reflexivity. rewrite Rabs_R0. exact Hr.
Qed.
Lemma dust_step r st st' : 0 <= r -> 0 <= s_dt st -> 0 <= V -> dust S gi gd V (r + s_dt st * V) st -> solver_step S st = Ok st' -> dust S gi gd V r st'.
Proof.
  intros Hr Hdt HV D E.
  assert (Hr' : 0 <= r + s_dt st * V) by (pose proof (Rmult_le_pos _ _ Hdt HV); lra).
  pose proof (dust_inside _ _ Hr' D) as Hin.
  assert (Sf : stress_free (s_world st) S gi) by (intros c p Hc Hp; apply (D c p Hc Hp)).
  destruct (step_grid S st st' gi gd E Egd) as (w & ca & w2 & ca2 & ca3 & g & E1 & E2 & E3 & Eg).
  intros c p Hc Hp. destruct (proj1 (active_on_in _ _ _) Hc) as (Hc1 & Hsk & Hcg). destruct (Dc c Hc1) as (_ & ci & m & Ec & El & Hl & HG).
  destruct (In_nth _ _ pt0 Hp) as (n & Hn & Ep).
  assert (Len : length (pts_at (s_world st') (c_p c)) = length (pts_at (s_world st) (c_p c))).
  { apply step_ok in E. destruct E as (w' & ca' & w2' & ca2' & ca3' & w3 & m3 & w4 & m4 & E1' & E2' & E3' & E4 & E5 & ->).
    rewrite E1 in E1'. injection E1' as <- <-. rewrite E2 in E2'. injection E2' as <- <-. rewrite E3 in E3'. injection E3' as <-. cbn [s_world].
    pose proof (Forall2_len _ _ _ (constitutive_law_kept _ _ _ _ _ _ E5 (c_p c))) as L5.
    transitivity (length (pts_at w3 (c_p c))); [congruence|]. apply (free_body S st w ca w2 ca2 ca3 w3 m3 Usl E1 E2 E3 E4 Hin Nd Nf gi g gd Eg Egd Sf c Hc). }
  rewrite Len in Hn. set (x := nth n (pts_at (s_world st) (c_p c)) pt0).
  assert (Hx : In x (pts_at (s_world st) (c_p c))) by (apply nth_In, Hn).
  destruct (D c x Hc Hx) as (X1 & X2 & X3 & X4).
  assert (B : forall a, (a < dim_nat (gd_dim gd))%nat -> forall c p, In c (active_on S gi) -> In p (pts_at (s_world st) (c_p c)) -> 0 <= pt_mass p /\ - V <= vcomp a (pt_vel p) <= V).
  { intros a Ha c1 p1 H1 H2. destruct (D c1 p1 H1 H2) as (M & _ & Hv & _). split; [exact M|]. apply Rabs_le_inv, Hv, Ha. }
  assert (Z : - V <= 0 <= V) by lra.
  assert (A0 : (0 < dim_nat (gd_dim gd))%nat) by (destruct (gd_dim gd); simpl; lia).
  split; [|split; [|split]].
  - apply (C112_step S st st' w ca w2 ca2 ca3 E1 E2 E3 E Usl Hin Nd Nf Al gi g gd 0%nat (-V) V Eg Egd A0 Sf (or_introl Z) (B 0%nat A0) c p Hc Hp).
  - destruct (elastic_point S st st' c ci m n E Nd Nc Hc1 Hsk Ec El Hn) as (_ & Q). unfold point_at in Q. rewrite Ep in Q. rewrite Q. fold x. rewrite X2, le_stress_eq, Hl, HG.
    generalize (pt_L p). intros L. unfold rate. destruct L. meq.
  - intros a Ha. apply Rabs_le.
    apply (C112_step S st st' w ca w2 ca2 ca3 E1 E2 E3 E Usl Hin Nd Nf Al gi g gd a (-V) V Eg Egd Ha Sf (or_introl Z) (B a Ha) c p Hc Hp).
  - intros y Hy. apply X4. intros a Ha. specialize (Hy a Ha).
    assert (Eg' : nth_error (sc_grids ca3) (c_g c) = Some g) by (rewrite Hcg; exact Eg).
    pose proof (C100_usl S st st' w ca w2 ca2 ca3 c g n E E1 E2 E3 Nd Hc1 Hsk Eg' Usl Hn) as P. rewrite Ep in P. fold x in P.
    rewrite P, vcomp_add, vcomp_scale in Hy.
    assert (G : - V <= vcomp a (pic_vel cut12 (rows_of S (s_world st) c) g (gr_mom_nt g) n) <= V).
    { pose proof E as E'. apply step_ok in E'. destruct E' as (w' & ca' & w2' & ca2' & ca3' & w3 & m3 & w4 & m4 & E1' & E2' & E3' & E4 & E5 & _).
      rewrite E1 in E1'. injection E1' as <- <-. rewrite E2 in E2'. injection E2' as <- <-. rewrite E3 in E3'. injection E3' as <-.
      assert (Mp : forall c p, In c (active_on S gi) -> In p (pts_at (s_world st) (c_p c)) -> 0 <= pt_mass p) by (intros c1 p1 H1 H2; apply (B a Ha c1 p1 H1 H2)).
      assert (Bv : forall c p, In c (active_on S gi) -> In p (pts_at (s_world st) (c_p c)) -> - V <= vcomp a (pt_vel p) <= V) by (intros c1 p1 H1 H2; apply (B a Ha c1 p1 H1 H2)).
      destruct (free_grid S st w ca w2 ca2 ca3 E1 E2 E3 Hin Nf gi g gd Eg Egd Sf c Hc) as (g' & _ & _ & _ & _ & Ent).
      unfold pic_vel. rewrite vcomp_vsum.
      rewrite (sumR_ext_all _ (fun it => it_val it * vcomp a (node_vel cut12 (gr_dim g) g (gr_mom g) it))).
      - apply (gathered_range S st w ca w2 ca2 ca3 Usl E1 E2 E3 Hin Nf gi g gd Eg Egd Sf Mp a (-V) V Ha (or_introl Z) Bv c n Hc Hn).
      - intros it. rewrite vcomp_scale. unfold node_vel. rewrite Ent. reflexivity. }
    set (q := vcomp a (pic_vel cut12 (rows_of S (s_world st) c) g (gr_mom_nt g) n)) in *.
    apply Rabs_le_inv in Hy. apply Rabs_le. pose proof (Rmult_le_compat_l _ _ _ Hdt (proj1 G)). pose proof (Rmult_le_compat_l _ _ _ Hdt (proj2 G)). lra.
Qed.
Lemma dust_run r n : forall st, 0 <= r -> 0 <= s_dt st -> 0 <= V -> dust S gi gd V (r + INR n * (s_dt st * V)) st ->
  forall st', solver_steps S n st = Ok st' -> dust S gi gd V r st' /\ s_dt st' = s_dt st.
Proof.
  induction n as [|n IH]; intros st Hr Hdt HV D st' E.
  - cbn [solver_steps] in E. injection E as <-. replace (r + INR 0 * (s_dt st * V)) with r in D by (simpl; ring). auto.
  - cbn [solver_steps] in E. apply rbind_ok in E. destruct E as (s1 & E & En). rewrite S_INR in D.
    pose proof (Rmult_le_pos _ _ Hdt HV) as P. pose proof (Rmult_le_pos _ _ (pos_INR n) P) as P'.
    assert (D1 : dust S gi gd V (r + INR n * (s_dt st * V)) s1).
    { apply (dust_step _ st); try assumption; [lra|]. replace (r + INR n * (s_dt st * V) + s_dt st * V) with (r + (INR n + 1) * (s_dt st * V)) by ring. exact D. }
    rewrite <- (step_dt _ _ _ E) in *. apply IH; assumption.
Qed.
Lemma dust_visited n st : 0 <= s_dt st -> 0 <= V -> dust S gi gd V (INR n * (s_dt st * V)) st ->
  visited S n st (fun s => inside S (s_world s) /\ stress_free (s_world s) S gi).
Proof.
  intros Hdt HV D k s Hk Es.
  assert (Dk : dust S gi gd V (INR (n - k) * (s_dt st * V) + INR k * (s_dt st * V)) st).
  { replace (INR (n - k) * (s_dt st * V) + INR k * (s_dt st * V)) with (INR n * (s_dt st * V)); [exact D|]. rewrite <- Rmult_plus_distr_r, <- plus_INR. f_equal. f_equal. lia. }
  pose proof (Rmult_le_pos _ _ (pos_INR (n - k)) (Rmult_le_pos _ _ Hdt HV)) as Hr.
  destruct (dust_run _ k st Hr Hdt HV Dk s Es) as (Ds & _).
  split; [apply (dust_inside _ s Hr Ds)|]. intros c p Hc Hp. apply (Ds c p Hc Hp).
Qed.
End Dust.
(** with room for [n] steps around every particle: the run exists, no velocity component and no kinetic energy ever grows beyond its
    initial bound, nothing leaves the domain *)
Theorem C113_dust_run : forall (S : Solver R) gi gd V n st r, so_scheme S = USL -> NoDup (map c_p (active S)) -> NoDup (map c_c (active S)) ->
  so_forces S = [] -> 0 <= so_alpha S <= 1 -> nth_error (so_domains S) gi = Some gd -> wf_sizes gd ->
  (forall c, In c (so_couplings S) -> In c (active_on S gi) /\ soft_law S c) -> 0 <= s_dt st -> 0 <= V ->
  dust S gi gd V (INR n * (s_dt st * V)) st -> solver_step S st = Ok r -> many_points S (s_world st) ->
  exists st', solver_steps S n st = Ok st' /\ inside S (s_world st') /\ dust S gi gd V 0 st' /\
    sumR (fun c => kinetic (pts_at (s_world st') (c_p c))) (active_on S gi) <= sumR (fun c => kinetic (pts_at (s_world st) (c_p c))) (active_on S gi).
Proof.
  intros S gi gd V n st r Usl Nd Nc Nf Al Egd Ws Dc Hdt HV D E1 Mp. destruct (C31_repeated_steps_partial S st r n E1 Mp) as (st' & E).
  exists st'. split; [exact E|].
  assert (D0 : dust S gi gd V (0 + INR n * (s_dt st * V)) st) by (rewrite Rplus_0_l; exact D).
  destruct (dust_run S gi gd V Usl Nd Nc Nf Al Egd Ws Dc 0 n st (Rle_refl 0) Hdt HV D0 st' E) as (D' & _).
  split; [apply (dust_inside S gi gd V Egd Ws Dc 0 st' (Rle_refl 0) D')|]. split; [exact D'|].
  apply (C113_run S n gi gd Usl Nd Nf Al Egd st st' E).
  - apply (dust_visited S gi gd V Usl Nd Nc Nf Al Egd Ws Dc n st Hdt HV D).
  - intros c p Hc Hp. apply (D c p Hc Hp).
Qed.
Print Assumptions C113_dust_run.
(** two stress-free bodies meeting on one grid with laws of zero stiffness; ten steps of 1/1000 at speeds up to 3 *)
Definition dustR (al : R) : Solver R :=
  {| so_scheme := USL; so_alpha := al; so_domains := [g2]; so_couplings := map cpl (seq 0 2);
     so_laws := repeat (Some (LawLE (linear_elastic 0 (1/4) false))) 2; so_forces := []; so_sdfs := []; so_sharp := 1 |}.
Definition cloudR : list (Body R) := [two va vb mzero; two vb va mzero].
Lemma cloud_pts c p : In c (map cpl (seq 0 2)) -> In p (pts_at (s_world (stateR cloudR mzero (1/1000))) (c_p c)) ->
  exists x v, (x = xa \/ x = xb) /\ (v = va \/ v = vb) /\ p = pt x v mzero meye.
Proof.
  intros Hc Hp. destruct Hc as [<-|[<-|[]]]; unfold pts_at in Hp; simpl in Hp; destruct Hp as [<-|[<-|[]]]; do 2 eexists; (split; [|split; [|reflexivity]]); auto.
Qed.
Lemma dust_act al : active_on (dustR al) 0 = map cpl (seq 0 2). Proof. reflexivity. Qed.
Example C113_case : forall al n, 0 <= al <= 1 -> (n <= 10)%nat -> let S := dustR al in let st := stateR cloudR mzero (1/1000) in exists r,
  NoDup (map c_p (active S)) /\ NoDup (map c_c (active S)) /\ 0 <= so_alpha S <= 1 /\ wf_sizes g2 /\
  (forall c, In c (so_couplings S) -> In c (active_on S 0) /\ soft_law S c) /\
  dust S 0 g2 3 (INR n * (s_dt st * 3)) st /\ solver_step S st = Ok r /\ many_points S (s_world st) /\
  0 < sumR (fun c => kinetic (pts_at (s_world st) (c_p c))) (active_on S 0).
Proof.
  intros al n Al Hn S st. eexists. split; [simpl; repeat constructor; simpl; intuition congruence|]. split; [simpl; repeat constructor; simpl; intuition congruence|].
  split; [exact Al|]. split; [apply g2_wf|]. split; [|split; [|split; [reflexivity|split]]].
  - intros c Hc. split; [exact Hc|]. destruct Hc as [<-|[<-|[]]]; (do 2 eexists; split; [reflexivity|]; split; [reflexivity|]);
      unfold linear_elastic, get_lame_modulus, get_shear_modulus; cbn [le_lam le_G]; rnum; split; unfold Rdiv; rewrite ?Rmult_0_l; ring.
  - intros c p Hc Hp. destruct (cloud_pts c p Hc Hp) as (x & v & Hx & Hv & ->). unfold pt. cbn [pt_mass pt_stress pt_vel pt_pos]. split; [lra|]. split; [reflexivity|].
    split.
    + intros a Ha. apply Rabs_le. destruct Hv as [-> | ->]; destruct a as [|[|a]]; simpl; lra.
    + intros y Hy. assert (N : INR n * (s_dt st * 3) <= 1/10).
      { apply le_INR in Hn. assert (T : INR 10 = 10) by (simpl; lra). rewrite T in Hn. cbn [s_dt st stateR]. unfold st, stateR; cbn [s_dt]. pose proof (pos_INR n). lra. }
      pose proof (Hy 0%nat ltac:(simpl; lia)) as Y0. pose proof (Hy 1%nat ltac:(simpl; lia)) as Y1. apply Rabs_le_inv in Y0. apply Rabs_le_inv in Y1. cbn [vcomp] in Y0, Y1.
      assert (K : c_kernel c = Quadratic) by (destruct Hc as [<-|[<-|[]]]; reflexivity). rewrite K. unfold interior, interior1.
      destruct Hx as [-> | ->]; simpl in *; repeat split; lra.
  - intros c s Hc _ Hs. destruct Hc as [<-|[<-|[]]]; injection Hs as <-; discriminate.
  - unfold S. rewrite dust_act. unfold kinetic, sumR; simpl. lra.
Qed.
(** [C112_step] with bounds that do not contain zero: the second component of all velocities lies in [2, 3], and so it stays *)
Example C112_case : let S := solverR USL (1/2) 2 in let st := stateR cloudR mzero (1/1000) in exists st' w ca w2 ca2 ca3 g,
  prepare S st = Ok (w, ca) /\ p2g S w (s_mech st) ca = Ok (w2, ca2) /\ integrate_grid S w2 (s_mech st) (s_dt st) ca2 = Ok ca3 /\ solver_step S st = Ok st' /\
  inside S (s_world st) /\ nth_error (sc_grids ca3) 0 = Some g /\ stress_free (s_world st) S 0 /\
  (forall c, In c (active_on S 0) -> heavy S (s_world st) g c) /\
  (forall c p, In c (active_on S 0) -> In p (pts_at (s_world st) (c_p c)) -> 0 <= pt_mass p /\ 2 <= vcomp 1 (pt_vel p) <= 3).
Proof.
  intros S st.
  assert (X : exists st' w ca w2 ca2 ca3 g, prepare S st = Ok (w, ca) /\ p2g S w (s_mech st) ca = Ok (w2, ca2) /\ integrate_grid S w2 (s_mech st) (s_dt st) ca2 = Ok ca3 /\
     solver_step S st = Ok st' /\ nth_error (sc_grids ca3) 0 = Some g) by (do 7 eexists; repeat split; reflexivity).
  destruct X as (st' & w & ca & w2 & ca2 & ca3 & g & E1 & E2 & E3 & E & Eg).
  exists st', w, ca, w2, ca2, ca3, g. repeat (split; [assumption|]).
  assert (T : Forall is_two cloudR) by (repeat constructor; unfold is_two, two; eauto).
  split; [apply (ex_inside USL (1/2) 2 cloudR mzero (1/1000) T)|]. split; [exact Eg|]. split; [|split].
  - intros c p Hc Hp. destruct (cloud_pts c p Hc Hp) as (x & v & _ & _ & ->). reflexivity.
  - intros c Hc. apply (ex_heavy USL (1/2) cloudR mzero (1/1000) w ca w2 ca2 ca3 g c T (proj2 (ex_cut USL (1/2) 2 (or_introl eq_refl))) E1 E2 E3 Eg Hc).
  - intros c p Hc Hp. destruct (cloud_pts c p Hc Hp) as (x & v & _ & Hv & ->). unfold pt. cbn [pt_mass pt_vel]. split; [lra|]. destruct Hv as [-> | ->]; simpl; lra.
Qed.
(** the hypotheses of the run theorems [C111_flip], [C112_run] and [C113_run] on the same cloud *)
Example C111_flip_case : forall al n, 0 <= al <= 1 -> (n <= 10)%nat -> let S := dustR al in let st := stateR cloudR mzero (1/1000) in
  (exists st', solver_steps S n st = Ok st') /\ visited S n st (fun s => inside S (s_world s) /\ stress_free (s_world s) S 0) /\
  sumR (fun c => angular 0 1 (pts_at (s_world st) (c_p c))) (active_on S 0) = 35.
Proof.
  intros al n Al Hn S st. destruct (C113_case al n Al Hn) as (r & Nd & Nc & _ & Ws & Dc & D & E & M & _).
  split; [apply (C31_repeated_steps_partial S st r n E M)|]. split.
  - apply (dust_visited S 0 g2 3 eq_refl Nd Nc eq_refl Al eq_refl Ws Dc n st); [simpl; lra|lra|exact D].
  - unfold S. rewrite dust_act. unfold angular, sumR; simpl. lra.
Qed.
