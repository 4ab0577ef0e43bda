(** Nodes nobody touches carry nothing, so that the mass cutoff loses no momentum (C19), and the momentum
    gained under gravity (C86). *)
From Coq Require Import List Arith ZArith Reals Bool Lra Lia Classical.
From Verif Require Import Num NumR Linalg Arrays ModelGrid ModelShape ModelMath ModelState ModelLaws ModelForces ModelSolver
  Sums ShapeFacts SpecShape ShapeProofs ShapeProofs2 ShapeProofs3 MappingProofs ResFacts SolverFacts SpecSolver
  TransferProofs TransferProofs2 StepProofs GatherProofs MomentumProofs AffineProofs StepAffine.
Import ListNotations.
Local Open Scope R_scope.

Section Untouched.
Variables (S : Solver R) (st : SimState R) (w : World R) (ca : SimCache R) (w2 : World R) (ca2 : SimCache R).
Hypothesis E1 : prepare S st = Ok (w, ca).
Hypothesis E2 : p2g S w (s_mech st) ca = Ok (w2, ca2).
Hypothesis Hin : inside S (s_world st).
Variables (gi : nat) (g : Grid R) (gd : GridDomain R) (i : nat).
Hypothesis Eg : nth_error (sc_grids ca2) gi = Some g.
Hypothesis Egd : nth_error (so_domains S) gi = Some gd.
Hypothesis Hi : (i < Z.to_nat (num_cells gd))%nat.
Hypothesis No : forall c it, In c (active_on S gi) -> In it (at_node (Z.of_nat i) (rows_of S (s_world st) c)) -> it_val it = 0 /\ it_grad it = vzero.
Lemma untouched_rows c k s : In c (active_on S gi) -> last_kernel (so_couplings S) (c_p c) (c_g c) = Some k -> nth_error (w_mps w2) (c_p c) = Some (Soft s) ->
  forall it, In it (at_node (Z.of_nat i) (compute_on k gd (map pt_pos (sb_pts s)))) -> it_val it = 0 /\ it_grad it = vzero.
Proof.
  intros Hc Hk Hs it Hit. apply (No c); [exact Hc|]. rewrite <- (rows_of_unforced _ _ _ _ _ _ c E1 E2). unfold rows_of, pts_at.
  apply active_on_in in Hc. destruct Hc as (_ & _ & Hg). rewrite Hk, Hg, Egd, Hs. exact Hit.
Qed.
Lemma untouched_mass : nth i (gr_mass g) 0 = 0.
Proof.
  rewrite (node_mass S st w ca w2 ca2 E1 E2 Hin gi g gd i Eg Egd Hi). apply sumR_zero. intros c Hc.
  unfold node_mass_of. rewrite (rows_of_unforced _ _ _ _ _ _ c E1 E2). apply sumR_zero. intros it Hit.
  rewrite (proj1 (No c it Hc Hit)). ring.
Qed.
Lemma untouched_mom a : vcomp a (nth i (gr_mom g) vzero) = 0.
Proof.
  destruct (p2g_grids _ _ _ _ _ _ E1 E2) as (gs & X & _ & F0 & F & E). subst gs.
  rewrite (p2g_fold_sumc S w2 (s_mech st) (sc_inter ca) gi (fun g => vcomp a (nth i (gr_mom g) vzero)) (fun c => 0))
    with (4 := E) (g0 := grid_new gd); try assumption.
  - rewrite sumR_zero by reflexivity. simpl gr_mom. rewrite nth_repeat, vcomp_zero. lra.
  - intros c s it gr vel gd' Hc Hsk Hcg Hs Hit Hgd Hgr _. rewrite Hcg, Egd in Hgd. injection Hgd as <-.
    assert (Egd' : nth_error (so_domains S) (c_g c) = Some gd) by (rewrite Hcg; exact Egd).
    destruct (p2g_rows _ _ _ _ _ _ _ _ _ _ E1 E2 Hin Hc Hs Hit Egd') as (W & k & Hk & -> & I).
    unfold p2g_with; cbn [gr_mom]. destruct Hgr as (_ & _ & Lm & _). rewrite scatter_node by (try exact W; rewrite Lm; exact Hi).
    rewrite vcomp_add, vcomp_vsum. f_equal. apply sumR_zero. intros r Hr.
    assert (Hc' : In c (active_on S gi)) by (apply active_on_in; auto).
    destruct (untouched_rows c k s Hc' Hk Hs r Hr) as (Z & _). rewrite vcomp_scale. unfold eff. rewrite Z. rnum. ring.
  - apply incl_refl.
  - rewrite nth_error_map, Egd. reflexivity.
Qed.
Lemma untouched_force : nth i (gr_force g) vzero = (vzero : vec3 R).
Proof.
  destruct (p2g_grids _ _ _ _ _ _ E1 E2) as (gs & X & _ & F0 & F & E). subst gs.
  assert (Dec : active_on S gi = [] \/ exists l c, active_on S gi = l ++ [c]).
  { clear. destruct (active_on S gi) as [|c0 cs0]; [left; reflexivity|]. right.
    destruct (exists_last (l := c0 :: cs0) ltac:(discriminate)) as (l & c & El). eauto. }
  destruct Dec as [Ea|(l & c & Ea)]; [eapply p2g_force_none; eassumption|].
  destruct (force_of_last S w2 (s_mech st) (sc_inter ca) (so_couplings S) _ _ gi g F0 E Eg) as (_ & L).
  destruct (L l c Ea) as (s & it & gr & vel & gd' & Hc & Hgi & Eb & Eit & Egd' & Hgr & Ef).
  assert (gd' = gd) by congruence. subst gd'. clear Egd'. assert (Egd' : nth_error (so_domains S) (c_g c) = Some gd) by congruence.
  destruct (p2g_rows _ _ _ _ _ _ _ _ _ _ E1 E2 Hin Hc Eb Eit Egd') as (W & k & Hk & -> & I).
  assert (Hca : In c (active_on S gi)) by (rewrite Ea; apply in_or_app; right; left; reflexivity).
  rewrite Ef, force_node; try assumption.
  - apply vsum_zero. intros r Hr. destruct (untouched_rows c k s Hca Hk Eb r Hr) as (_ & Z).
    cbv zeta. rewrite Z. apply vcomp_eq; intro a. rewrite vcomp_scale, vcomp_trunc, vcomp_mv.
    unfold vdot, vzero. rnum. destruct a as [|[|a]]; simpl; ring.
  - intros p Hp. eapply unloaded_pts; [exact E1|exact E2|exact Hc|]. unfold pts_at. rewrite Eb. exact Hp.
Qed.
End Untouched.

(** with every active body heavy, nodes below the cutoff carry neither mass, momentum nor internal force *)
Lemma heavy_cases S st w ca w2 ca2 ca3 : prepare S st = Ok (w, ca) -> p2g S w (s_mech st) ca = Ok (w2, ca2) ->
  integrate_grid S w2 (s_mech st) (s_dt st) ca2 = Ok ca3 -> inside S (s_world st) ->
  forall gi g g2 gd i, nth_error (sc_grids ca3) gi = Some g -> nth_error (sc_grids ca2) gi = Some g2 -> nth_error (so_domains S) gi = Some gd ->
  (i < Z.to_nat (num_cells gd))%nat -> (forall c, In c (active_on S gi) -> heavy S (s_world st) g c) ->
  cut_of S < nth i (gr_mass g) 0 \/
  (nth i (gr_mass g2) 0 = 0 /\ nth i (gr_mom g2) vzero = vzero /\ nth i (gr_force g2) vzero = vzero).
Proof.
  intros E1 E2 E3 Hin gi g g2 gd i Eg Eg2 Egd Hi Hv.
  destruct (classic (forall c it, In c (active_on S gi) -> In it (at_node (Z.of_nat i) (rows_of S (s_world st) c)) -> it_val it = 0 /\ it_grad it = vzero)) as [No|Yes].
  - right. split; [eapply untouched_mass; eassumption|]. split; [|eapply untouched_force; eassumption].
    apply vcomp_eq. intro a. rewrite vcomp_zero. eapply untouched_mom; eassumption.
  - left. apply not_all_ex_not in Yes. destruct Yes as (c & Yes). apply not_all_ex_not in Yes. destruct Yes as (it & Yes).
    assert (Hc : In c (active_on S gi)) by (apply NNPP; intro; apply Yes; tauto).
    assert (Hit : In it (at_node (Z.of_nat i) (rows_of S (s_world st) c))) by (apply NNPP; intro; apply Yes; tauto).
    apply in_at_node in Hit. destruct Hit as (Hit & Hh).
    replace i with (Z.to_nat (it_hash it)) by lia. apply (Hv c Hc it Hit).
    destruct (Req_EM_T (it_val it) 0) as [Z|Z]; [|left; exact Z]. right. intro Z'. apply Yes. intros _ _. auto.
Qed.

(** *** gravity *)
(** total gravity vector applied to grid [gi] by the forces of the solver *)
Definition gravity_on (m : Mechanics R) (gi : nat) (f : Force R) : vec3 R :=
  match f with
  | FGravity gr => if gv_on_grid gr then
      match nth_error (m_forces m) (gv_f gr) with
      | Some (Some (FS_Gravity v)) => vscale (INR (count_occ Nat.eq_dec (gv_gs gr) gi)) v
      | _ => vzero
      end else vzero
  | _ => vzero
  end.
Definition only_gravity (fs : list (Force R)) : Prop := forall f, In f fs -> match f with FGravity gr => gv_on_grid gr = true | _ => False end.
Lemma gravity_grid_node v (g : Grid R) i : length (gr_force g) = length (gr_mass g) ->
  nth i (gr_force (gravity_grid v g)) vzero = vadd (nth i (gr_force g) vzero) (vscale (nth i (gr_mass g) 0) v).
Proof.
  unfold gravity_grid. cbn [set_force gr_force]. generalize (gr_force g) (gr_mass g). intros l m. revert m i.
  induction l as [|f l IH]; intros [|x m] [|i] L; simpl in *; try discriminate; try reflexivity;
    try (apply vcomp_eq; intro a; rewrite vcomp_add, vcomp_scale, !vcomp_zero; ring).
  apply IH. lia.
Qed.
Lemma gravity_hook m gr (gs gs' : list (Grid R)) gi g : gv_on_grid gr = true -> apply_grid_forces (FGravity gr) m gs = Ok gs' ->
  (forall x, In x gs -> length (gr_force x) = length (gr_mass x)) ->
  (forall x, In x gs' -> length (gr_force x) = length (gr_mass x)) /\
  (nth_error gs gi = Some g -> exists g', nth_error gs' gi = Some g' /\ gr_mass g' = gr_mass g /\
    forall i, nth i (gr_force g') vzero = vadd (nth i (gr_force g) vzero) (vscale (nth i (gr_mass g) 0) (gravity_on m gi (FGravity gr)))).
Proof.
  intros On E L. cbn [apply_grid_forces] in E. rewrite On in E. apply rbind_ok in E. destruct E as (fs & Ef & E). apply idx_ok in Ef.
  unfold gravity_on. rewrite On, Ef.
  revert gs g E L. induction (gv_gs gr) as [|j js IH]; intros gs g E L.
  - simpl in E. injection E as <-. split; [exact L|]. intros Eg. exists g. split; [exact Eg|]. split; [reflexivity|]. intro i.
    apply vcomp_eq; intro a. rewrite vcomp_add, vcomp_scale.
    destruct fs as [[v|al]|]; simpl; rewrite ?vcomp_scale, ?vcomp_zero; ring.
  - cbn [rfold] in E. apply rbind_ok in E. destruct E as (gs1 & Ej & E). apply upd_idx_ok in Ej. destruct Ej as (x & y & Hx & Hy & ->).
    apply rbind_ok in Hy. destruct Hy as (v & Hv & Hy). injection Hy as <-.
    destruct fs as [[v'|al]|]; simpl in Hv; try discriminate. injection Hv as <-.
    assert (L' : forall z, In z (set_nth j (gravity_grid v' x) gs) -> length (gr_force z) = length (gr_mass z)).
    { intros z Hz. apply In_nth_error in Hz. destruct Hz as (n & Hz). rewrite set_nth_error in Hz.
      destruct (Nat.eqb j n); [|apply L; eapply nth_error_In, Hz]. destruct (nth_error gs n); [|discriminate]. injection Hz as <-.
      unfold gravity_grid. simpl. rewrite map_length, combine_length, (L x) by (eapply nth_error_In, Hx). lia. }
    split; [exact (proj1 (IH _ g E L'))|]. intros Eg. cbn [count_occ].
    destruct (Nat.eq_dec j gi) as [->|N].
    + rewrite Eg in Hx. injection Hx as <-.
      destruct (IH _ (gravity_grid v' g) E L') as (_ & IH2). destruct IH2 as (g' & Eg' & Em & Hf).
      { rewrite set_nth_error, Nat.eqb_refl, Eg. reflexivity. }
      exists g'. split; [exact Eg'|]. split; [rewrite Em; reflexivity|]. intro i. rewrite Hf, gravity_grid_node by (apply L; eapply nth_error_In, Eg).
      change (gr_mass (gravity_grid v' g)) with (gr_mass g). apply vcomp_eq; intro a. rewrite !vcomp_add, !vcomp_scale, S_INR. ring.
    + destruct (IH _ g E L') as (_ & IH2). apply IH2. rewrite set_nth_error. destruct (Nat.eqb_spec j gi); [contradiction|exact Eg].
Qed.
Lemma gravity_fold m fs : only_gravity fs -> forall (gs gs' : list (Grid R)) gi g, rfold (fun gs f => apply_grid_forces f m gs) gs fs = Ok gs' ->
  (forall x, In x gs -> length (gr_force x) = length (gr_mass x)) -> nth_error gs gi = Some g ->
  exists g', nth_error gs' gi = Some g' /\ gr_mass g' = gr_mass g /\
    forall i, nth i (gr_force g') vzero = vadd (nth i (gr_force g) vzero) (vscale (nth i (gr_mass g) 0) (vsum (gravity_on m gi) fs)).
Proof.
  intros Og. induction fs as [|f fs IH]; intros gs gs' gi g E L Eg.
  - simpl in E. injection E as <-. exists g. split; [exact Eg|]. split; [reflexivity|]. intro i. apply vcomp_eq; intro a.
    rewrite vcomp_add, vcomp_scale, vcomp_vsum. unfold sumR; simpl. ring.
  - cbn [rfold] in E. apply rbind_ok in E. destruct E as (gs1 & Ef & E). assert (Hf := Og f (or_introl eq_refl)).
    destruct f as [gr|dm|cl|ct]; try contradiction. destruct (gravity_hook m gr gs gs1 gi g Hf Ef L) as (L1 & H1).
    destruct (H1 Eg) as (g1 & Eg1 & Em & F1).
    assert (Og' : only_gravity fs) by (intros x Hx; apply Og; right; exact Hx).
    destruct (IH Og' gs1 gs' gi g1 E L1 Eg1) as (g' & Eg' & Em' & F').
    exists g'. split; [exact Eg'|]. split; [congruence|]. intro i. rewrite F', F1, Em. apply vcomp_eq; intro a.
    rewrite !vcomp_add, !vcomp_scale, !vcomp_vsum. rewrite sumR_cons. ring.
Qed.
Lemma only_gravity_wall fs : only_gravity fs -> existsb is_wall fs = false.
Proof.
  intros H. destruct (existsb is_wall fs) eqn:E; [|reflexivity]. apply existsb_exists in E. destruct E as (f & Hf & W).
  specialize (H f Hf). destruct f; simpl in *; try discriminate; contradiction.
Qed.

(** nodal force at the end of the grid update *)
Lemma gravity_forces S st w ca w2 ca2 ca3 gi g : prepare S st = Ok (w, ca) -> p2g S w (s_mech st) ca = Ok (w2, ca2) ->
  integrate_grid S w2 (s_mech st) (s_dt st) ca2 = Ok ca3 -> only_gravity (so_forces S) -> nth_error (sc_grids ca3) gi = Some g ->
  exists g2, nth_error (sc_grids ca2) gi = Some g2 /\ same_mm g2 g /\ length (gr_force g) = length (gr_mass g) /\ length (gr_force g2) = length (gr_mass g2) /\
    forall i, nth i (gr_force g) vzero = vadd (nth i (gr_force g2) vzero) (vscale (nth i (gr_mass g) 0) (vsum (gravity_on (s_mech st) gi) (so_forces S))).
Proof.
  intros E1 E2 E3 Og Eg. destruct (p2g_grids _ _ _ _ _ _ E1 E2) as (gs & X & _ & _ & F & _). subst gs.
  destruct (integrate_same_mm _ _ _ _ _ _ E3) as (SM & _). destruct (Forall2_nth_error _ _ _ _ _ SM Eg) as (g2 & Eg2 & Mm).
  exists g2. split; [exact Eg2|]. split; [exact Mm|].
  assert (L : forall x, In x (sc_grids ca2) -> length (gr_force x) = length (gr_mass x)).
  { intros x Hx. apply In_nth_error in Hx. destruct Hx as (n & Hx). destruct (Forall2_nth_error _ _ _ _ _ F Hx) as (gd & _ & _ & A & _ & _ & B). congruence. }
  assert (Hg3 : Forall2 grid_ok (so_domains S) (sc_grids ca3))
    by (eapply integrate_grids_ok; [exact E3|rewrite (only_gravity_wall _ Og); discriminate|exact F]).
  destruct (Forall2_nth_error _ _ _ _ _ Hg3 Eg) as (gd & Egd & _ & Lm & _ & _ & Lf).
  split; [congruence|]. split; [apply L; eapply nth_error_In, Eg2|].
  apply integrate_ok in E3. destruct E3 as (gs1 & gs2 & gs3 & Ef & Ei & Em & ->). simpl in Eg.
  destruct (gravity_fold _ _ Og _ _ gi g2 Ef L Eg2) as (g1 & Eg1 & M1 & F1).
  apply moments_fold_none in Em; [|apply only_gravity_wall, Og]. subst gs3.
  rewrite (integrate_fold_ok _ _ _ _ Ei), Eg1 in Eg. simpl in Eg. injection Eg as <-. intro i.
  destruct Mm as (_ & Mm & _). rewrite Mm, <- F1. destruct (existsb _ _); reflexivity.
Qed.
Lemma tot_nth_ext a (l m : list (vec3 R)) (x : list R) v : length l = length m -> length x = length m ->
  (forall i, nth i l vzero = vadd (nth i m vzero) (vscale (nth i x 0) v)) -> vcomp a (tot l) = vcomp a (tot m) + totS x * vcomp a v.
Proof.
  revert m x. induction l as [|y l IH]; intros [|z m] [|c x] L1 L2 H; try discriminate.
  - unfold tot, totS. rewrite !vcomp_vsum. unfold sumR; simpl. ring.
  - unfold tot, totS in *. rewrite !vcomp_vsum in *. rewrite !sumR_cons. specialize (H 0%nat) as H0. simpl in H0. rewrite H0.
    injection L1 as L1. injection L2 as L2. specialize (IH m x L1 L2 (fun i => H (Datatypes.S i))). rewrite !vcomp_vsum in IH. rewrite IH.
    rewrite vcomp_add, vcomp_scale. ring.
Qed.

(** C86: bodies under gravity only gain dt * M * g per step *)
Theorem gravity_impulse S st st' w ca w2 ca2 ca3 : prepare S st = Ok (w, ca) -> p2g S w (s_mech st) ca = Ok (w2, ca2) ->
  integrate_grid S w2 (s_mech st) (s_dt st) ca2 = Ok ca3 -> solver_step S st = Ok st' ->
  inside S (s_world st) -> NoDup (map c_p (active S)) -> only_gravity (so_forces S) ->
  forall gi g gd a, nth_error (sc_grids ca3) gi = Some g -> nth_error (so_domains S) gi = Some gd -> (a < dim_nat (gd_dim gd))%nat ->
  active_on S gi <> [] -> (forall c, In c (active_on S gi) -> heavy S (s_world st) g c) -> plain S gi (s_world st') (s_dt st) ->
  sumR (fun c => vcomp a (momentum_of (pts_at (s_world st') (c_p c)))) (active_on S gi)
  = sumR (fun c => vcomp a (momentum_of (pts_at (s_world st) (c_p c)))) (active_on S gi)
    + s_dt st * (sumR (fun c => mass_of (pts_at (s_world st) (c_p c))) (active_on S gi) * vcomp a (vsum (gravity_on (s_mech st) gi) (so_forces S))).
Proof.
  intros E1 E2 E3 E Hin Nd Og gi g gd a Eg Egd Ha Hact Hv Pl.
  destruct (gravity_forces _ _ _ _ _ _ _ _ _ E1 E2 E3 Og Eg) as (g2 & Eg2 & (_ & Mm & Mo) & L1 & L2 & F).
  assert (Cs : forall i, (i < length (gr_mass g))%nat -> cut_of S < nth i (gr_mass g) 0 \/
    (nth i (gr_mass g) 0 = 0 /\ nth i (gr_mom g) vzero = vzero /\ nth i (gr_force g2) vzero = vzero)).
  { intros i Hi. rewrite Mm, Mo. rewrite <- Mm. destruct (p2g_grids _ _ _ _ _ _ E1 E2) as (gs & X & _ & _ & Fk & _). subst gs.
    destruct (Forall2_nth_error_l _ _ _ _ _ Fk Egd) as (g' & Eg' & Hok). rewrite Eg2 in Eg'. injection Eg' as <-.
    destruct Hok as (_ & Lm & _). rewrite Mm, Lm in Hi.
    destruct (heavy_cases _ _ _ _ _ _ _ E1 E2 E3 Hin gi g g2 gd i Eg Eg2 Egd Hi Hv) as [C|C]; [left; exact C|right; rewrite Mm; exact C]. }
  rewrite (step_impulse S st st' w ca w2 ca2 ca3 E1 E2 E3 E Hin Nd (only_gravity_wall _ Og) gi g gd a Eg Egd Ha Hact); try assumption.
  - do 2 f_equal. rewrite (tot_nth_ext a (gr_force g) (gr_force g2) (gr_mass g) _) with (3 := F).
    + rewrite (p2g_forces_balance _ _ _ _ _ _ E1 E2 Hin gi g2 Eg2), vcomp_zero, Mm, (p2g_mass _ _ _ _ _ _ E1 E2 Hin gi g2 Eg2). ring.
    + rewrite L1, L2, Mm. reflexivity.
    + rewrite L2, Mm. reflexivity.
  - intros i Hi. destruct (Cs i Hi) as [C|(_ & C & _)]; [left; exact C|right]. rewrite C. apply vcomp_zero.
  - intros i Hi. destruct (Cs i Hi) as [C|(C1 & _ & C)]; [left; exact C|right]. rewrite F, C, C1, vcomp_add, vcomp_scale, vcomp_zero. ring.
Qed.
