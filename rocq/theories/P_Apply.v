(** Property theorems: how a step applies the constitutive laws (C99) and how it moves particles (C100). *)
From Coq Require Import List Arith ZArith Reals Bool Lra Lia.
From Verif Require Import Num NumR Linalg Arrays ModelGrid ModelShape ModelMath ModelState ModelLaws ModelForces ModelSolver
  Sums ShapeFacts SpecShape ShapeProofs ShapeProofs2 ShapeProofs3 P_Shape MappingProofs ResFacts SolverFacts SpecSolver
  TransferProofs TransferProofs2 StepProofs GatherProofs MomentumProofs AffineProofs StepAffine SolverMore PlaneProofs ProgressProofs SpecMath MathProofs SpecLaws LawProofs
  ExSolver P_Solver P_Solver2 P_Laws DeformProofs LawApplyProofs.
Import ListNotations.
Local Open Scope R_scope.

(** *** C99: once per step, from the stress before the step and the kinematics after it, with the coupling's own history *)
Theorem C99_once : forall (S : Solver R) st st' c, solver_step S st = Ok st' -> NoDup (map c_p (active S)) -> NoDup (map c_c (active S)) ->
  In c (so_couplings S) -> c_skip c = false ->
  exists s ci l ls s1 ls', nth_error (m_laws (s_mech st)) ci = Some ls /\ nth_error (so_laws S) ci = Some (Some l) /\ c_c c = Some ci /\
    seen_stack (pts_at (s_world st) (c_p c)) (sb_pts s) (pts_at (s_world st') (c_p c)) /\
    law_update l s ls (s_dt st) = Ok (s1, ls') /\
    nth_error (w_mps (s_world st')) (c_p c) = Some (Soft (remove_accumulated_shear (law_reset l) s1)) /\
    nth_error (m_laws (s_mech st')) ci = Some ls'.
Proof. intros S st st' c E N1 N2 Hc Hs. exact (step_law S st st' E c N1 N2 Hc Hs). Qed.
Print Assumptions C99_once.
(** bodies and histories no active coupling names are left alone *)
Theorem C99_idle : forall (S : Solver R) st st', solver_step S st = Ok st' ->
  (forall p, ~ In p (map c_p (active S)) -> Forall2 (fun a b => pt_stress b = pt_stress a /\ pt_pos b = pt_pos a /\ pt_vel b = pt_vel a /\ pt_F b = pt_F a)
     (pts_at (s_world st) p) (pts_at (s_world st') p)) /\
  (forall i, ~ In (Some i) (map c_c (active S)) -> nth_error (m_laws (s_mech st')) i = nth_error (m_laws (s_mech st)) i).
Proof.
  intros S st st' E. destruct (step_law_idle S st st' E) as (A & B). split; [|exact B]. intros p Hp. specialize (A p Hp). revert A.
  apply Forall2_weaken. unfold unforced. tauto.
Qed.
Print Assumptions C99_idle.
(** over a run of any length an elastic point carries the stress of the accumulated velocity gradient *)
Lemma elastic_point (S : Solver R) st st' c ci m j : solver_step S st = Ok st' -> NoDup (map c_p (active S)) -> NoDup (map c_c (active S)) ->
  In c (so_couplings S) -> c_skip c = false -> c_c c = Some ci -> nth_error (so_laws S) ci = Some (Some (LawLE m)) ->
  (j < length (pts_at (s_world st) (c_p c)))%nat ->
  length (pts_at (s_world st') (c_p c)) = length (pts_at (s_world st) (c_p c)) /\
  pt_stress (point_at st' (c_p c) j) = le_stress m (pt_L (point_at st' (c_p c) j)) (pt_stress (point_at st (c_p c) j)) (s_dt st).
Proof.
  intros E N1 N2 Hc Hs Ec El Hj. destruct (step_law S st st' E c N1 N2 Hc Hs) as (s & ci' & l & ls & s1 & ls' & A1 & A2 & A3 & (B1 & B2 & B3) & A5 & A6 & A7).
  rewrite Ec in A3. injection A3 as <-. rewrite El in A2. injection A2 as <-. split; [exact B2|]. specialize (B3 j Hj).
  unfold point_at. unfold pts_at at 1. rewrite A6. cbn [body_pts]. cbn [law_update] in A5. injection A5 as <- <-.
  destruct B3 as (C1 & _ & _ & _ & _ & _ & C7 & _).
  assert (X : forall b (P : SoftBody R), pt_stress (nth j (sb_pts (remove_accumulated_shear b P)) pt0) = pt_stress (nth j (sb_pts P) pt0)).
  { intros [] P; [|reflexivity]. unfold remove_accumulated_shear. cbn [sb_pts set_pts].
    destruct (le_lt_dec (length (sb_pts P)) j) as [L|L]; [rewrite !nth_overflow by (rewrite ?map_length; exact L); reflexivity|].
    rewrite (nth_indep _ pt0 (set_F pt0 (compute_cbar (sb_dim P) (pt_F pt0)) (if sb_storeF P then pt_F pt0 else pt_Fst pt0))) by (rewrite map_length; exact L).
    rewrite (map_nth (fun p => set_F p (compute_cbar (sb_dim P) (pt_F p)) (if sb_storeF P then pt_F p else pt_Fst p))). reflexivity. }
  rewrite X. cbn [sb_pts set_pts].
  rewrite (nth_indep _ pt0 (set_stress pt0 (le_stress m (pt_L pt0) (pt_stress pt0) (s_dt st)))) by (rewrite map_length; rewrite B1; exact Hj).
  rewrite (map_nth (fun p => set_stress p (le_stress m (pt_L p) (pt_stress p) (s_dt st)))).
  unfold set_stress at 1. cbn [pt_stress]. rewrite <- C7, C1. reflexivity.
Qed.
Theorem C99_elastic_run : forall (S : Solver R) n c ci m j, NoDup (map c_p (active S)) -> NoDup (map c_c (active S)) ->
  In c (so_couplings S) -> c_skip c = false -> c_c c = Some ci -> nth_error (so_laws S) ci = Some (Some (LawLE m)) ->
  forall st st', solver_steps S n st = Ok st' -> (j < length (pts_at (s_world st) (c_p c)))%nat ->
  pt_stress (point_at st' (c_p c) j)
  = le_stress m (total_gradient (map (fun x => (pt_L (point_at x (c_p c) j), s_dt st)) (history S n st))) (pt_stress (point_at st (c_p c) j)) 1.
Proof.
  intros S n c ci m j N1 N2 Hc Hs Ec El. 
  assert (G : forall st st', solver_steps S n st = Ok st' -> (j < length (pts_at (s_world st) (c_p c)))%nat ->
    pt_stress (point_at st' (c_p c) j) = fold_left (fun s h => le_stress m (fst h) s (snd h))
      (map (fun x => (pt_L (point_at x (c_p c) j), s_dt st)) (history S n st)) (pt_stress (point_at st (c_p c) j))).
  { induction n as [|n IH]; intros st st' E Hj; cbn [solver_steps history] in *; [injection E as <-; reflexivity|].
    apply rbind_ok in E. destruct E as (s1 & E1 & E). rewrite E1. destruct (elastic_point S st s1 c ci m j E1 N1 N2 Hc Hs Ec El Hj) as (L & P).
    cbn [map fold_left fst snd]. rewrite <- P, <- (step_dt _ _ _ E1). apply IH; [exact E|]. rewrite L. exact Hj. }
  intros st st' E Hj. rewrite (G st st' E Hj). apply C41_path_independent.
Qed.
Print Assumptions C99_elastic_run.
Example C99_case : let S := solverR USL 1 2 in let st := stateR twoR mzero (1/10) in
  NoDup (map c_p (active S)) /\ NoDup (map c_c (active S)) /\ (exists st', solver_steps S 2 st = Ok st') /\
  In (cpl 1) (so_couplings S) /\ c_c (cpl 1) = Some 1%nat /\ nth_error (so_laws S) 1 = Some (Some (LawLE (linear_elastic 1 (1/4) false))) /\
  (0 < length (pts_at (s_world st) (c_p (cpl 1))))%nat.
Proof.
  cbv zeta. destruct C24_case as (_ & _ & _ & D). split; [apply ex_nodup|]. split; [|split; [exact D|]].
  { simpl. repeat constructor; simpl; intuition congruence. }
  split; [right; left; reflexivity|]. split; [reflexivity|]. split; [reflexivity|]. simpl. lia.
Qed.
(** a body coupled to two grids: the strain increment enters the stress twice *)
Theorem C99_two_grids_refuted : forall (S : Solver R) st st' c1 c2 ci E nu j, solver_step S st = Ok st' -> so_couplings S = [c1; c2] ->
  c_skip c1 = false -> c_skip c2 = false -> c_p c1 = c_p c2 -> c_c c1 = Some ci -> c_c c2 = Some ci ->
  nth_error (so_laws S) ci = Some (Some (LawLE (linear_elastic E nu false))) -> (j < length (pts_at (s_world st) (c_p c1)))%nat ->
  let p := point_at st (c_p c1) j in let q := point_at st' (c_p c1) j in let m := linear_elastic E nu false in
  pt_stress q = le_stress m (pt_L q) (pt_stress p) (2 * s_dt st) /\
  (le_stress m (pt_L q) mzero (s_dt st) <> mzero -> pt_stress q <> le_stress m (pt_L q) (pt_stress p) (s_dt st)).
Proof.
  intros S st st' c1 c2 ci E nu j St Cs K1 K2 Ep Ec1 Ec2 El Hj p q m.
  destruct (law_twice S st st' St c1 c2 Cs K1 K2 Ep ltac:(congruence)) as (s & ci' & l & ls & s1 & ls1 & s2 & ls2 & A1 & A2 & A3 & F & A5 & A6 & A7 & A8).
  rewrite Ec1 in A1. injection A1 as <-. rewrite El in A3. injection A3 as <-. fold m in A5, A6, A7. 
  change (law_reset (LawLE m)) with false in A6, A7. cbn [remove_accumulated_shear] in A6, A7.
  cbn [law_update] in A5, A6. injection A5 as <- <-. injection A6 as <- <-.
  pose proof (Forall2_len _ _ _ F) as L. pose proof (Forall2_at _ _ _ j pt0 pt0 F Hj) as Sj. fold (point_at st (c_p c1) j) in Sj. fold p in Sj.
  assert (Q : q = let x := nth j (sb_pts s) pt0 in set_stress (set_stress x (le_stress m (pt_L x) (pt_stress x) (s_dt st)))
      (le_stress m (pt_L x) (le_stress m (pt_L x) (pt_stress x) (s_dt st)) (s_dt st))).
  { unfold q, point_at, pts_at. rewrite A7. cbn [body_pts sb_pts set_pts]. rewrite map_map.
    set (f := fun x : Particle R => _). rewrite (nth_indep _ pt0 (f pt0)) by (rewrite map_length; lia). rewrite map_nth. reflexivity. }
  assert (QL : pt_L q = pt_L (nth j (sb_pts s) pt0)) by (rewrite Q; reflexivity).
  assert (QS : pt_stress q = le_stress m (pt_L q) (le_stress m (pt_L q) (pt_stress p) (s_dt st)) (s_dt st)) by (rewrite QL, <- Sj, Q; reflexivity).
  rewrite QS. clear. generalize (pt_L q) (pt_stress p) (s_dt st). intros L P dt. rewrite !le_stress_eq. destruct L, P. unfold rate. split.
  - meq.
  - intros N X. apply N. clear N. revert X. generalize (le_lam m) (le_G m). intros la G. mcbv. intro X. injection X as X0 X1 X2 X3 X4 X5 X6 X7 X8.
    apply mat3_eq; mcbv; lra.
Qed.
Print Assumptions C99_two_grids_refuted.
Definition onto (g : nat) : Coupling := {| c_kernel := Quadratic; c_p := 0; c_g := g; c_c := Some 0%nat; c_s := Some 0%nat; c_skip := false |}.
Definition solver2g : Solver R :=
  {| so_scheme := USL; so_alpha := 1; so_domains := [g2; g2]; so_couplings := [onto 0; onto 1]; so_laws := [Some lawR]; so_forces := []; so_sdfs := []; so_sharp := 1 |}.
Example C99_case_two_grids : let st := stateR [two va vb sg] mzero (1/10) in exists st', solver_step solver2g st = Ok st' /\
  so_couplings solver2g = [onto 0; onto 1] /\ c_p (onto 0) = c_p (onto 1) /\ c_g (onto 0) <> c_g (onto 1) /\ c_c (onto 0) = Some 0%nat /\ c_c (onto 1) = Some 0%nat /\
  nth_error (so_laws solver2g) 0 = Some (Some (LawLE (linear_elastic 1 (1/4) false))) /\ (0 < length (pts_at (s_world st) (c_p (onto 0))))%nat.
Proof.
  cbv zeta. assert (X : exists st', solver_step solver2g (stateR [two va vb sg] mzero (1/10)) = Ok st') by (eexists; reflexivity). destruct X as (st' & X). exists st'.
  split; [exact X|]. repeat (split; [first [reflexivity|discriminate]|]). simpl. lia.
Qed.

(** *** C100: the position follows the updated grid velocity, corrected by alpha beta (v - v_grid); beta is beta_min where the point's
    volume fell below its initial volume and beta_max elsewhere *)
Theorem C100_aflip_partial : forall (S : Solver R) st st' w ca w2 ca2 ca3 a gd c g p, solver_step S st = Ok st' ->
  prepare S st = Ok (w, ca) -> p2g S w (s_mech st) ca = Ok (w2, ca2) ->
  integrate_grid S w2 (s_mech st) (s_dt st) ca2 = Ok ca3 -> NoDup (map c_p (active S)) ->
  In c (so_couplings S) -> c_skip c = false -> nth_error (sc_grids ca3) (c_g c) = Some g ->
  so_scheme S = ASFLIP a -> nth_error (so_domains S) (c_g c) = Some gd -> gd_cell gd <= 1000000000 -> (p < length (pts_at (s_world st) (c_p c)))%nat ->
  let x := nth p (pts_at (s_world st) (c_p c)) pt0 in let q := nth p (pts_at (s_world st') (c_p c)) pt0 in
  let rows := rows_of S (s_world st) c in
  let vnt := pic_vel (af_cutoff a) rows g (gr_mom_nt g) p in let adj := vsub (pt_vel x) (pic_vel (af_cutoff a) rows g (gr_mom g) p) in
  let moved beta := pt_pos q = vadd (pt_pos x) (vscale (s_dt st) (vadd vnt (vscale (so_alpha S * beta) adj))) in
  0 < pt_vol0 x -> (pt_vol q < pt_vol0 x -> moved (af_beta_min a)) /\ (pt_vol0 x <= pt_vol q -> moved (af_beta_max a)).
Proof.
  intros S st st' w ca w2 ca2 ca3 a gd c g p E E1 E2 E3 Nd Hc Hs Eg Sch Egd Cell Hp x q rows vnt adj moved V0.
  destruct (step_positions S st st' E w ca w2 ca2 ca3 a gd c g p E1 E2 E3 Nd Hc Hs Eg Sch Egd Hp) as (J & V & P). fold x q rows vnt adj in V, P.
  assert (B : beta_of a (gd_cell gd) J = if Rlt_dec J 1 then af_beta_min a else af_beta_max a).
  { unfold beta_of. change (nofZ (10 ^ 9)) with (IZR (10 ^ 9)). replace (IZR (10 ^ 9)) with 1000000000 by (apply f_equal; reflexivity).
    change (nltb 1000000000 (gd_cell gd)) with (if Rlt_dec 1000000000 (gd_cell gd) then true else false).
    destruct (Rlt_dec 1000000000 (gd_cell gd)); [lra|]. change (nltb J n1) with (if Rlt_dec J 1 then true else false). destruct (Rlt_dec J 1); reflexivity. }
  cbv zeta in P. rewrite B in P. unfold moved. split; intro H; rewrite V in H; destruct (Rlt_dec J 1) as [L|L]; try exact P; exfalso; nra.
Qed.
Print Assumptions C100_aflip_partial.
(** USL has no correction *)
Theorem C100_usl : forall (S : Solver R) st st' w ca w2 ca2 ca3 c g p, solver_step S st = Ok st' ->
  prepare S st = Ok (w, ca) -> p2g S w (s_mech st) ca = Ok (w2, ca2) ->
  integrate_grid S w2 (s_mech st) (s_dt st) ca2 = Ok ca3 -> NoDup (map c_p (active S)) ->
  In c (so_couplings S) -> c_skip c = false -> nth_error (sc_grids ca3) (c_g c) = Some g ->
  so_scheme S = USL -> (p < length (pts_at (s_world st) (c_p c)))%nat ->
  pt_pos (nth p (pts_at (s_world st') (c_p c)) pt0)
  = vadd (pt_pos (nth p (pts_at (s_world st) (c_p c)) pt0)) (vscale (s_dt st) (pic_vel cut12 (rows_of S (s_world st) c) g (gr_mom_nt g) p)).
Proof.
  intros S st st' w ca w2 ca2 ca3 c g p E E1 E2 E3 Nd Hc Hs Eg Sch Hp.
  destruct (usl_step_point S st st' w ca w2 ca2 ca3 E1 E2 E3 E Nd c g Hc Hs Eg p Sch Hp) as (_ & A & _). exact A.
Qed.
Print Assumptions C100_usl.
(** the safety near walls: with any walls in the solver, a point at any distance from them is still moved with the correction *)
Theorem C100_near_wall_refuted : forall (S : Solver R) st st' w ca w2 ca2 ca3 a gd c g p l ls, solver_step S st = Ok st' ->
  prepare S st = Ok (w, ca) -> p2g S w (s_mech st) ca = Ok (w2, ca2) ->
  integrate_grid S w2 (s_mech st) (s_dt st) ca2 = Ok ca3 -> NoDup (map c_p (active S)) ->
  In c (so_couplings S) -> c_skip c = false -> nth_error (sc_grids ca3) (c_g c) = Some g ->
  so_scheme S = ASFLIP a -> nth_error (so_domains S) (c_g c) = Some gd -> gd_cell gd <= 1000000000 -> (p < length (pts_at (s_world st) (c_p c)))%nat ->
  let x := nth p (pts_at (s_world st) (c_p c)) pt0 in let q := nth p (pts_at (s_world st') (c_p c)) pt0 in
  let rows := rows_of S (s_world st) c in
  let vnt := pic_vel (af_cutoff a) rows g (gr_mom_nt g) p in let adj := vsub (pt_vel x) (pic_vel (af_cutoff a) rows g (gr_mom g) p) in
  In (l, ls) (combine (so_sdfs S) (w_sdfs (s_world st))) -> sl_dist l ls (pt_pos x) < gd_cell gd ->
  0 < pt_vol0 x -> so_alpha S * (if Rlt_dec (pt_vol q) (pt_vol0 x) then af_beta_min a else af_beta_max a) <> 0 -> s_dt st <> 0 -> adj <> vzero ->
  pt_pos q <> vadd (pt_pos x) (vscale (s_dt st) vnt).
Proof.
  intros S st st' w ca w2 ca2 ca3 a gd c g p l ls E E1 E2 E3 Nd Hc Hs Eg Sch Egd Cell Hp x q rows vnt adj _ _ V Al Dt Adj X.
  destruct (C100_aflip_partial S st st' w ca w2 ca2 ca3 a gd c g p E E1 E2 E3 Nd Hc Hs Eg Sch Egd Cell Hp V) as (M1 & M2).
  fold x q rows in M1, M2. fold vnt adj in M1, M2. set (b := if Rlt_dec (pt_vol q) (pt_vol0 x) then af_beta_min a else af_beta_max a) in Al.
  assert (M : pt_pos q = vadd (pt_pos x) (vscale (s_dt st) (vadd vnt (vscale (so_alpha S * b) adj))))
    by (unfold b; destruct (Rlt_dec (pt_vol q) (pt_vol0 x)); [apply M1; assumption|apply M2; lra]).
  rewrite X in M. apply Adj. clearbody b. clear - M Al Dt.
  destruct adj as [a1 a2 a3], vnt as [b1 b2 b3]; destruct (pt_pos x) as [c1 c2 c3]. revert M. mcbv. intro M. injection M as M1 M2 M3.
  assert (Z : forall t u v, t + s_dt st * u = t + s_dt st * (u + so_alpha S * b * v) -> v = 0).
  { intros t u v H. assert (Y : s_dt st * (so_alpha S * b) * v = 0) by lra. apply Rmult_integral in Y. destruct Y as [Y|Y]; [|exact Y].
    apply Rmult_integral in Y. tauto. }
  apply Z in M1. apply Z in M2. apply Z in M3. subst. reflexivity.
Qed.
Print Assumptions C100_near_wall_refuted.
(** a point a quarter of a cell above a floor, in a cloud whose grid is at rest *)
Definition floorL : SDFLogic R := {| sl_dist := fun _ x => vy x - 5/2; sl_normal := fun _ _ => V3 0 1 0; sl_velocity := fun _ _ _ => vzero;
  sl_friction := fun _ _ => 0; sl_update := fun s _ => s |}.
Definition floorS : SDFState R := {| sd_dim := D2; sd_com := vzero; sd_vel := vzero; sd_theta := 0; sd_omega := 0; sd_quat := {| qw := 1; qv := vzero |}; sd_w := vzero |}.
Definition aflip1 : AFLIP R := {| af_dynamic := false; af_support_min := 11/10; af_support_max := 15/10; af_beta_min := 1; af_beta_max := 1;
  af_mls := true; af_cutoff := 1 / 10 ^ 12; af_cfl := 1 |}.
Definition solverW : Solver R :=
  {| so_scheme := ASFLIP aflip1; so_alpha := 1; so_domains := [g2]; so_couplings := [cpl 0]; so_laws := [Some lawR]; so_forces := []; so_sdfs := [floorL]; so_sharp := 1 |}.
Definition stateW : SimState R :=
  {| s_world := {| w_mps := [opposite va]; w_sdfs := [floorS] |}; s_mech := s_mech (stateR [opposite va] mzero (1/10)); s_time := 0; s_step := 0; s_dt := 1/10 |}.
Lemma rest_W w ca w2 ca2 : prepare solverW stateW = Ok (w, ca) -> p2g solverW w (s_mech stateW) ca = Ok (w2, ca2) ->
  forall g i, nth_error (sc_grids ca2) 0 = Some g -> nth i (gr_mom g) vzero = vzero.
Proof.
  intros E1 E2 g i Eg. destruct (p2g_grids _ _ _ _ _ _ E1 E2) as (gs & X & _ & _ & _ & F). subst gs.
  cbn [so_couplings solverW rfold] in F. apply rbind_ok in F. destruct F as (gs & F & Y). injection Y as ->.
  apply p2g_coupling_ok in F. destruct F as [(F & _)|(_ & s & it & gr & vel & B1 & _ & B3 & B4 & B5 & B6)]; [discriminate|].
  pose proof (step_rows solverW stateW w ca w2 ca2 (cpl 0) s it E1 E2 (or_introl eq_refl) B1 B3) as R.
  pose proof (unforced_pts _ _ _ _ _ _ E1 E2 0%nat) as U. unfold pts_at at 2 in U. cbn [cpl c_p] in B1. rewrite B1 in U.
  unfold p2g_vel in B5. cbn [so_scheme solverW] in B5. destruct B5 as (gd & Bp & k & Egd & Ek & Eb & ->). injection Ek as <-. injection Eb as <-. injection Egd as <-.
  simpl in B4. injection B4 as <-.
  rewrite B6 in Eg. simpl in Eg. injection Eg as <-. unfold p2g_with. cbn [gr_mom].
  destruct (Nat.lt_ge_cases i 64) as [Hi|Hi];
    [|rewrite nth_overflow; [reflexivity|]; rewrite scatter_add_length; unfold grid_new; cbn [gr_mom]; rewrite repeat_length; exact Hi].
  rewrite R. unfold rows_of. cbn [cpl c_p c_g]. change (last_kernel (so_couplings solverW) 0 0) with (Some Quadratic). cbn [nth_error so_domains solverW].
  rewrite scatter_node by (try apply g2_wf; unfold grid_new; cbn [gr_mom]; rewrite repeat_length; exact Hi).
  unfold grid_new at 1. cbn [gr_mom]. rewrite nth_repeat. apply vcomp_eq; intro a. rewrite vcomp_add, vcomp_zero, vcomp_vsum, Rplus_0_l.
  change (map pt_pos (pts_at (s_world stateW) 0)) with [xa; xa]. unfold at_node. rewrite compute_on_points. cbn [length seq flat_map nth]. rewrite app_nil_r.
  simpl body_pts in U. change (pts_at (s_world stateW) 0) with [pt xa va mzero meye; pt xa (vopp va) mzero meye] in U.
  inversion U as [|? p0 ? l U0 U' Ea Eb]; subst. inversion U' as [|? p1 ? l' U1 U'' Ec Ed]; subst. inversion U''; subst.
  destruct U0 as (_ & V0 & M0 & _). destruct U1 as (_ & V1 & M1 & _).
  apply opposite_sum; intro q; [reflexivity|]. unfold point_of. cbn [it_point slot single_interaction nth]. rewrite V0, M0, V1, M1.
  rewrite !vcomp_scale, !vcomp_sub. unfold eff. cbn [pt pt_vel pt_mass it_val it_mask]. 
  destruct a as [|[|a]]; simpl; rnum; ring.
Qed.
Example C100_case : exists st' w ca w2 ca2 ca3 g, solver_step solverW stateW = Ok st' /\
  prepare solverW stateW = Ok (w, ca) /\ p2g solverW w (s_mech stateW) ca = Ok (w2, ca2) /\ integrate_grid solverW w2 (s_mech stateW) (s_dt stateW) ca2 = Ok ca3 /\
  NoDup (map c_p (active solverW)) /\ In (cpl 0) (so_couplings solverW) /\ nth_error (sc_grids ca3) 0 = Some g /\ so_scheme solverW = ASFLIP aflip1 /\
  nth_error (so_domains solverW) 0 = Some g2 /\ gd_cell g2 <= 1000000000 /\ (0 < length (pts_at (s_world stateW) 0))%nat /\
  let x := nth 0 (pts_at (s_world stateW) 0) pt0 in
  In (floorL, floorS) (combine (so_sdfs solverW) (w_sdfs (s_world stateW))) /\ sl_dist floorL floorS (pt_pos x) < gd_cell g2 /\ 0 < pt_vol0 x /\
  so_alpha solverW * af_beta_min aflip1 <> 0 /\ so_alpha solverW * af_beta_max aflip1 <> 0 /\ s_dt stateW <> 0 /\
  vsub (pt_vel x) (pic_vel (af_cutoff aflip1) (rows_of solverW (s_world stateW) (cpl 0)) g (gr_mom g) 0) <> vzero.
Proof.
  assert (X : exists st', solver_step solverW stateW = Ok st') by (eexists; reflexivity). destruct X as (st' & E).
  destruct (ex_phases _ _ _ E) as (w & ca & w2 & ca2 & ca3 & E1 & E2 & E3).
  assert (Y : exists g, nth_error (sc_grids ca3) 0 = Some g).
  { pose proof (proj1 (integrate_same_mm _ _ _ _ _ _ E3)) as F. destruct (p2g_grids _ _ _ _ _ _ E1 E2) as (gs & X & _ & _ & F' & _). subst gs.
    apply Forall2_len in F. apply Forall2_len in F'. simpl in F'. destruct (nth_error (sc_grids ca3) 0) eqn:N; [eauto|]. apply nth_error_None in N. lia. }
  destruct Y as (g & Eg). exists st', w, ca, w2, ca2, ca3, g.
  repeat (split; [first [assumption|reflexivity|left; reflexivity]|]). split; [repeat constructor; intros []|].
  repeat (split; [first [assumption|reflexivity|left; reflexivity]|]).
  split; [simpl; lra|]. split; [simpl; lia|]. cbv zeta. split; [left; reflexivity|]. split; [simpl; lra|]. split; [simpl; lra|].
  split; [simpl; lra|]. split; [simpl; lra|]. split; [simpl; lra|].
  assert (Z : vcomp 0 (pic_vel (af_cutoff aflip1) (rows_of solverW (s_world stateW) (cpl 0)) g (gr_mom g) 0) = 0).
  { unfold pic_vel. rewrite vcomp_vsum. apply sumR_zero. intros it _. rewrite vcomp_scale. unfold node_vel.
    destruct (integrate_same_mm _ _ _ _ _ _ E3) as (F & _). destruct (Forall2_nth_error _ _ _ _ _ F Eg) as (gb & Egb & Sm).
    assert (M : gr_mom g = gr_mom gb) by (destruct Sm; intuition congruence).
    rewrite M, (rest_W w ca w2 ca2 E1 E2 gb _ Egb). rewrite vcomp_trunc. destruct (_ <? _)%num; simpl; rnum; unfold Rdiv; ring. }
  intro Q. apply (f_equal (vcomp 0)) in Q. rewrite vcomp_sub, Z in Q. change (vcomp 0 (pt_vel (nth 0 (pts_at (s_world stateW) 0) pt0))) with 1 in Q. rewrite vcomp_zero in Q. lra.
Qed.
