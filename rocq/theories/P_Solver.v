(** Property theorems C15-C20, C22-C25, C31, C86: one step of the USL and USL-ASFLIP solvers. *)
From Coq Require Import List Arith ZArith Reals Bool Lra Lia Classical.
From Verif Require Import Num NumR Linalg Arrays ModelGrid ModelShape ModelMath ModelState ModelLaws ModelForces ModelSolver
  Sums ShapeFacts SpecShape ShapeProofs ShapeProofs2 ShapeProofs3 P_Shape MappingProofs ResFacts SolverFacts SpecSolver
  TransferProofs TransferProofs2 StepProofs GatherProofs MomentumProofs AffineProofs StepAffine HeavyProofs PlaneProofs ProgressProofs VirialProofs ExSolver.
Import ListNotations.
Local Open Scope R_scope.

(** C15 *)
Theorem C15_p2g_mass : forall (S : Solver R) st w ca w2 ca2, prepare S st = Ok (w, ca) -> p2g S w (s_mech st) ca = Ok (w2, ca2) ->
  inside S (s_world st) -> forall gi g, nth_error (sc_grids ca2) gi = Some g ->
  totS (gr_mass g) = sumR (fun c => mass_of (pts_at (s_world st) (c_p c))) (active_on S gi).
Proof. exact p2g_mass. Qed.
Print Assumptions C15_p2g_mass.
(** two bodies on one grid, both solvers *)
Definition va : vec3 R := V3 1 2 0.
Definition vb : vec3 R := V3 (-1) 3 0.
Definition sg : mat3 R := M3 1 2 0 2 3 0 0 0 4.
Definition twoR : list (Body R) := [two va vb sg; two vb va sg].
Lemma twoR_two : Forall is_two twoR.
Proof. repeat constructor; eexists; eexists; eexists; reflexivity. Qed.
Example C15_case : forall sch, sch = USL \/ sch = ASFLIP aflipR ->
  let S := solverR sch (1/2) 2 in let st := stateR twoR (M3 0 1 0 2 0 0 0 0 0) (1/10) in exists w ca w2 ca2 g,
  prepare S st = Ok (w, ca) /\ p2g S w (s_mech st) ca = Ok (w2, ca2) /\ inside S (s_world st) /\
  nth_error (sc_grids ca2) 0 = Some g /\ sumR (fun c => mass_of (pts_at (s_world st) (c_p c))) (active_on S 0) = 4.
Proof.
  intros sch H S st.
  assert (X : exists w ca w2 ca2 g, prepare S st = Ok (w, ca) /\ p2g S w (s_mech st) ca = Ok (w2, ca2) /\ nth_error (sc_grids ca2) 0 = Some g)
    by (destruct H as [-> | ->]; do 5 eexists; repeat split; reflexivity).
  destruct X as (w & ca & w2 & ca2 & g & E1 & E2 & Eg). exists w, ca, w2, ca2, g. split; [exact E1|]. split; [exact E2|].
  split; [apply ex_inside, twoR_two|]. split; [exact Eg|].
  unfold S. rewrite ex_act. unfold mass_of, sumR; simpl; lra.
Qed.

(** C16 *)
Theorem C16_p2g_momentum : forall (S : Solver R) st w ca w2 ca2, prepare S st = Ok (w, ca) -> p2g S w (s_mech st) ca = Ok (w2, ca2) ->
  inside S (s_world st) -> forall gi g, nth_error (sc_grids ca2) gi = Some g ->
  tot (gr_mom g) = vsum (fun c => momentum_of (pts_at (s_world st) (c_p c))) (active_on S gi).
Proof. exact p2g_momentum. Qed.
Print Assumptions C16_p2g_momentum.

(** C17 *)
Theorem C17_internal_forces_balance : forall (S : Solver R) st w ca w2 ca2, prepare S st = Ok (w, ca) -> p2g S w (s_mech st) ca = Ok (w2, ca2) ->
  inside S (s_world st) -> forall gi g, nth_error (sc_grids ca2) gi = Some g -> tot (gr_force g) = V3 0 0 0.
Proof. exact p2g_forces_balance. Qed.
Print Assumptions C17_internal_forces_balance.

(** C18: only the last active coupling of a grid keeps its nodal forces *)
Theorem C18_last_body_force_partial : forall (S : Solver R) st w ca w2 ca2, prepare S st = Ok (w, ca) -> p2g S w (s_mech st) ca = Ok (w2, ca2) ->
  inside S (s_world st) -> one_kernel S ->
  forall gi g gd i, nth_error (sc_grids ca2) gi = Some g -> nth_error (so_domains S) gi = Some gd -> (i < Z.to_nat (num_cells gd))%nat ->
  forall l c, active_on S gi = l ++ [c] -> nth i (gr_force g) vzero = body_force (s_world st) c gd i.
Proof. exact p2g_force_last. Qed.
Print Assumptions C18_last_body_force_partial.
(** so for a grid with exactly one active coupling the claim holds *)
Theorem C18_single_body_force_partial : forall (S : Solver R) st w ca w2 ca2, prepare S st = Ok (w, ca) -> p2g S w (s_mech st) ca = Ok (w2, ca2) ->
  inside S (s_world st) -> one_kernel S ->
  forall gi g gd i c, nth_error (sc_grids ca2) gi = Some g -> nth_error (so_domains S) gi = Some gd -> (i < Z.to_nat (num_cells gd))%nat ->
  active_on S gi = [c] -> nth i (gr_force g) vzero = vsum (fun c => body_force (s_world st) c gd i) (active_on S gi).
Proof.
  intros S st w ca w2 ca2 E1 E2 Hin Ok gi g gd i c Eg Egd Hi Ea. rewrite (p2g_force_last S st w ca w2 ca2 E1 E2 Hin Ok gi g gd i Eg Egd Hi [] c Ea), Ea.
  apply vcomp_eq; intro a. rewrite vcomp_vsum. unfold sumR; simpl. ring.
Qed.
Print Assumptions C18_single_body_force_partial.
(** two bodies sharing a grid: the first under pressure, the second stress-free; the nodal forces of the first are lost *)
Definition pressed : list (Body R) := [two va vb meye; two vb va mzero].
Theorem C18_superposition_refuted :
  exists (S : Solver R) st w ca w2 ca2 g gd i, prepare S st = Ok (w, ca) /\ p2g S w (s_mech st) ca = Ok (w2, ca2) /\
  inside S (s_world st) /\ one_kernel S /\ nth_error (sc_grids ca2) 0 = Some g /\ nth_error (so_domains S) 0 = Some gd /\
  (i < Z.to_nat (num_cells gd))%nat /\ length (active_on S 0) = 2%nat /\
  nth i (gr_force g) vzero <> vsum (fun c => body_force (s_world st) c gd i) (active_on S 0).
Proof.
  set (S := solverR USL 1 2). set (st := stateR pressed mzero (1/10)).
  assert (E : exists w ca w2 ca2 g, prepare S st = Ok (w, ca) /\ p2g S w (s_mech st) ca = Ok (w2, ca2) /\ nth_error (sc_grids ca2) 0 = Some g)
    by (do 5 eexists; repeat split; reflexivity).
  destruct E as (w & ca & w2 & ca2 & g & E1 & E2 & Eg).
  assert (Hin : inside S (s_world st)) by (apply ex_inside; repeat constructor; eexists; eexists; eexists; reflexivity).
  assert (Ok1 : one_kernel S).
  { intros c c' Hc Hc' _ _. simpl in Hc, Hc'. destruct Hc as [<-|[<-|[]]], Hc' as [<-|[<-|[]]]; reflexivity. }
  assert (Ea : active_on S 0 = [cpl 0; cpl 1]) by (unfold S; rewrite ex_act; reflexivity).
  (* the last body is stress-free, so all nodal forces vanish *)
  assert (Z : forall i, (i < 64)%nat -> nth i (gr_force g) vzero = vzero).
  { intros i Hi. rewrite (p2g_force_last S st w ca w2 ca2 E1 E2 Hin Ok1 0%nat g g2 i Eg eq_refl Hi [cpl 0] (cpl 1) Ea).
    unfold body_force. apply vsum_zero. intros it Hit. cbv zeta.
    apply in_at_node in Hit. destruct Hit as (Hit & _). destruct (compute_in_range _ _ _ _ (proj1 g2_wf) Hit) as (_ & Lp & _).
    apply vcomp_eq; intro a. rewrite vcomp_scale, vcomp_trunc, vcomp_mv.
    simpl in Lp. change (pts_at (s_world st) (c_p (cpl 1))) with [pt xa vb mzero meye; pt xb va mzero meye].
    destruct (it_point it) as [|[|n]]; [| |lia]; cbn [nth pt pt_stress]; unfold mzero, vdot, vzero; rnum; destruct a as [|[|a]]; simpl; ring. }
  destruct (classic (exists i, (i < 64)%nat /\ body_force (s_world st) (cpl 0) g2 i <> vzero)) as [(i & Hi & Hf)|No].
  - assert (Z1 : body_force (s_world st) (cpl 1) g2 i = vzero)
      by (rewrite <- (p2g_force_last S st w ca w2 ca2 E1 E2 Hin Ok1 0%nat g g2 i Eg eq_refl Hi [cpl 0] (cpl 1) Ea); apply Z, Hi).
    exists S, st, w, ca, w2, ca2, g, g2, i. repeat (split; [first [assumption|reflexivity]|]).
    rewrite Ea, (Z i Hi). intro X. apply Hf. apply vcomp_eq; intro a. apply (f_equal (vcomp a)) in X.
    rewrite vcomp_vsum in X. rewrite !sumR_cons, Z1, !vcomp_zero in X. rewrite vcomp_zero. match type of X with context [sumR ?f []] => change (sumR f []) with 0 in X end. lra.
  - exfalso. assert (V := force_virial (s_world st) (cpl 0) g2 0 0 g2_wf ltac:(simpl; lia) ltac:(simpl; lia)).
    rewrite (sumR_zero (fun i => _)) in V.
    + assert (R0 : 0 = 2); [|lra]. etransitivity; [apply V|].
      * intros p Hp. split; [apply (Hin (cpl 0) g2); [left; reflexivity|reflexivity|exact Hp]|discriminate].
      * change (pts_at (s_world st) (c_p (cpl 0))) with [pt xa va meye meye; pt xb vb meye meye]. unfold sumR, mcomp; simpl. lra.
    + intros i Hi. apply in_seq in Hi. replace (body_force (s_world st) (cpl 0) g2 i) with (vzero : vec3 R); [rewrite vcomp_zero; ring|].
      apply NNPP. intro X. apply No. exists i. split; [apply Hi|]. intro Y. apply X. symmetry. exact Y.
Qed.
Print Assumptions C18_superposition_refuted.

(** C19: every step, body and scheme; any forces but walls.  Momentum only changes by dt times the nodal forces. *)
Theorem C19_momentum_impulse : forall (S : Solver R) st st' w ca w2 ca2 ca3, prepare S st = Ok (w, ca) -> p2g S w (s_mech st) ca = Ok (w2, ca2) ->
  integrate_grid S w2 (s_mech st) (s_dt st) ca2 = Ok ca3 -> solver_step S st = Ok st' ->
  inside S (s_world st) -> NoDup (map c_p (active S)) -> existsb is_wall (so_forces S) = false ->
  forall gi g gd a, nth_error (sc_grids ca3) gi = Some g -> nth_error (so_domains S) gi = Some gd -> (a < dim_nat (gd_dim gd))%nat ->
  active_on S gi <> [] ->
  above (cut_of S) g (gr_mom g) a -> above (cut_of S) g (gr_force g) a -> plain S gi (s_world st') (s_dt st) ->
  sumR (fun c => vcomp a (momentum_of (pts_at (s_world st') (c_p c)))) (active_on S gi)
  = sumR (fun c => vcomp a (momentum_of (pts_at (s_world st) (c_p c)))) (active_on S gi) + s_dt st * vcomp a (tot (gr_force g)).
Proof. exact step_impulse. Qed.
Print Assumptions C19_momentum_impulse.

(** C86: under gravity only, the bodies of a grid gain exactly dt * M * g *)
Theorem C86_gravity_momentum : forall (S : Solver R) st st' w ca w2 ca2 ca3, prepare S st = Ok (w, ca) -> p2g S w (s_mech st) ca = Ok (w2, ca2) ->
  integrate_grid S w2 (s_mech st) (s_dt st) ca2 = Ok ca3 -> solver_step S st = Ok st' ->
  inside S (s_world st) -> NoDup (map c_p (active S)) -> only_gravity (so_forces S) ->
  forall gi g gd a, nth_error (sc_grids ca3) gi = Some g -> nth_error (so_domains S) gi = Some gd -> (a < dim_nat (gd_dim gd))%nat ->
  active_on S gi <> [] -> (forall c, In c (active_on S gi) -> heavy S (s_world st) g c) -> plain S gi (s_world st') (s_dt st) ->
  sumR (fun c => vcomp a (momentum_of (pts_at (s_world st') (c_p c)))) (active_on S gi)
  = sumR (fun c => vcomp a (momentum_of (pts_at (s_world st) (c_p c)))) (active_on S gi)
    + s_dt st * (sumR (fun c => mass_of (pts_at (s_world st) (c_p c))) (active_on S gi) * vcomp a (vsum (gravity_on (s_mech st) gi) (so_forces S))).
Proof. exact gravity_impulse. Qed.
Print Assumptions C86_gravity_momentum.
(** the hypotheses of C19 and C86 hold for two stressed bodies under the USL scheme; the gravity total is that of the code *)
Example C19_case : let S := solverR USL (1/2) 2 in let st := stateR twoR mzero (1/10) in exists st' w ca w2 ca2 ca3 g,
  prepare S st = Ok (w, ca) /\ p2g S w (s_mech st) ca = Ok (w2, ca2) /\ integrate_grid S w2 (s_mech st) (s_dt st) ca2 = Ok ca3 /\
  solver_step S st = Ok st' /\ inside S (s_world st) /\ NoDup (map c_p (active S)) /\ only_gravity (so_forces S) /\
  nth_error (sc_grids ca3) 0 = Some g /\ active_on S 0 <> [] /\ (forall c, In c (active_on S 0) -> heavy S (s_world st) g c) /\
  plain S 0 (s_world st') (s_dt st) /\ (forall a, (a < 2)%nat -> above (cut_of S) g (gr_mom g) a /\ above (cut_of S) g (gr_force g) a).
Proof.
  intros S st. assert (X : exists st', solver_step S st = Ok st') by (eexists; reflexivity). destruct X as (st' & E).
  destruct (ex_phases _ _ _ E) as (w & ca & w2 & ca2 & ca3 & E1 & E2 & E3).
  assert (Og : only_gravity (so_forces S)) by (intros f []).
  assert (Lg : exists g, nth_error (sc_grids ca3) 0 = Some g).
  { pose proof (proj1 (integrate_same_mm _ _ _ _ _ _ E3)) as F. destruct (p2g_grids _ _ _ _ _ _ E1 E2) as (gs & X & _ & _ & F' & _). subst gs.
    apply Forall2_len in F. apply Forall2_len in F'. simpl in F'. destruct (nth_error (sc_grids ca3) 0) eqn:N; [eauto|]. apply nth_error_None in N. lia. }
  destruct Lg as (g & Eg).
  assert (Hv : forall c, In c (active_on S 0) -> heavy S (s_world st) g c).
  { intros c Hc. eapply (ex_heavy USL (1/2) twoR mzero (1/10)); try eassumption; [exact twoR_two|]. apply ex_cut. left. reflexivity. }
  assert (Hin : inside S (s_world st)) by (apply ex_inside, twoR_two).
  exists st', w, ca, w2, ca2, ca3, g. repeat (split; [assumption|]). split; [apply ex_nodup|]. split; [exact Og|]. split; [exact Eg|].
  split; [unfold S; rewrite ex_act; discriminate|]. split; [exact Hv|]. split; [exact I|]. intros a Ha.
  destruct (gravity_forces _ _ _ _ _ _ _ _ _ E1 E2 E3 Og Eg) as (g0 & Eg0 & (_ & Mm & Mo) & L1 & L2 & F).
  destruct (p2g_grids _ _ _ _ _ _ E1 E2) as (gs & X & _ & _ & Fk & _). subst gs.
  destruct (Forall2_nth_error _ _ _ _ _ Fk Eg0) as (gd & Egd & _ & Lm & _). simpl in Egd. injection Egd as <-.
  assert (Cs : forall i, (i < length (gr_mass g))%nat -> cut_of S < nth i (gr_mass g) 0 \/ (nth i (gr_mom g) vzero = vzero /\ nth i (gr_force g) vzero = vzero)).
  { intros i Hi. rewrite Mm, Lm in Hi. destruct (heavy_cases _ _ _ _ _ _ _ E1 E2 E3 Hin 0%nat g g0 g2 i Eg Eg0 eq_refl Hi Hv) as [C|(C1 & C2 & C3)]; [left; exact C|].
    right. split; [rewrite Mo; exact C2|]. rewrite F, C3, Mm, C1. apply vcomp_eq; intro b. rewrite vcomp_add, vcomp_scale, vcomp_zero. ring. }
  split; intros i Hi; destruct (Cs i Hi) as [C|(C1 & C2)]; [left; exact C|right; rewrite C1; apply vcomp_zero|left; exact C|right; rewrite C2; apply vcomp_zero].
Qed.
Example C86_gravity_case : vsum (gravity_on {| m_laws := []; m_solvers := []; m_forces := [Some (FS_Gravity (V3 0 (-10) 0))] |} 0)
  [FGravity {| gv_on_grid := true; gv_callback := None; gv_ps := []; gv_gs := [0%nat]; gv_f := 0 |}] = V3 0 (-10) 0.
Proof. unfold vsum, sumR; simpl; rnum. f_equal; ring. Qed.

(** C20 *)
Theorem C20_uniform_motion : forall (S : Solver R) st st' w ca w2 ca2 ca3, prepare S st = Ok (w, ca) -> p2g S w (s_mech st) ca = Ok (w2, ca2) ->
  integrate_grid S w2 (s_mech st) (s_dt st) ca2 = Ok ca3 -> solver_step S st = Ok st' ->
  inside S (s_world st) -> NoDup (map c_p (active S)) -> so_forces S = [] -> 0 <= cut_of S ->
  forall gi g gd v, nth_error (sc_grids ca3) gi = Some g -> nth_error (so_domains S) gi = Some gd -> wf_grid gd ->
  (forall c p, In c (active_on S gi) -> In p (pts_at (s_world st) (c_p c)) ->
     pt_vel p = vtrunc (gd_dim gd) v /\ pt_stress p = mzero /\ (gd_dim gd = D2 -> m22 (pt_F p) = 1)) ->
  affine_state S (s_mech st) gi gd mzero -> unlimited S gi gd (s_world st) (s_dt st) ->
  forall c, In c (active_on S gi) -> heavy S (s_world st) g c ->
  Forall2 (fun p q => pt_vel q = pt_vel p /\ pt_pos q = vadd (pt_pos p) (vscale (s_dt st) (pt_vel p)) /\
      pt_L q = mzero /\ pt_vol q = mdet (pt_F p) * pt_vol0 p /\ pt_mass q = pt_mass p)
    (pts_at (s_world st) (c_p c)) (pts_at (s_world st') (c_p c)) /\
  (forall w3 m3, g2p S w2 (s_mech st) (s_dt st) ca3 = Ok (w3, m3) ->
     Forall2 (fun p q => pt_F q = pt_F p) (pts_at (s_world st) (c_p c)) (pts_at w3 (c_p c))).
Proof. exact step_uniform. Qed.
Print Assumptions C20_uniform_motion.
Lemma ex_grid0 sch al n st w ca w2 ca2 ca3 : let S := solverR sch al n in
  prepare S st = Ok (w, ca) -> p2g S w (s_mech st) ca = Ok (w2, ca2) -> integrate_grid S w2 (s_mech st) (s_dt st) ca2 = Ok ca3 ->
  exists g, nth_error (sc_grids ca3) 0 = Some g.
Proof.
  intros S E1 E2 E3. pose proof (proj1 (integrate_same_mm _ _ _ _ _ _ E3)) as F. destruct (p2g_grids _ _ _ _ _ _ E1 E2) as (gs & X & _ & _ & F' & _). subst gs.
  apply Forall2_len in F. apply Forall2_len in F'. simpl in F'. destruct (nth_error (sc_grids ca3) 0) eqn:N; [eauto|]. apply nth_error_None in N. lia.
Qed.
(** two bodies in uniform translation under USL-ASFLIP, limiter inactive *)
Definition v0 : vec3 R := V3 (1/2) (1/4) 0.
Definition drift : list (Body R) := [two v0 v0 mzero; two v0 v0 mzero].
Lemma drift_two : Forall is_two drift.
Proof. repeat constructor; eexists; eexists; eexists; reflexivity. Qed.
Lemma slow v dt : vnorm v <= 1 -> dt = 1/10 -> unclamped aflipR g2 dt (pt xa v mzero meye) /\ unclamped aflipR g2 dt (pt xb v mzero meye).
Proof.
  intros H ->. unfold unclamped. cbn [pt pt_vel aflipR af_cfl gd_cell g2]. rnum. replace (10 ^ 12)%Z with 1000000000000%Z by reflexivity. lra.
Qed.
Lemma v0_slow : vnorm v0 <= 1.
Proof. unfold vnorm, vdot, v0; simpl; rnum. apply Rle_trans with (sqrt 1); [apply sqrt_le_1_alt; lra|rewrite sqrt_1; lra]. Qed.
Example C20_case : forall sch, sch = USL \/ sch = ASFLIP aflipR -> let S := solverR sch (1/2) 2 in let st := stateR drift mzero (1/10) in
  exists st' w ca w2 ca2 ca3 g, prepare S st = Ok (w, ca) /\ p2g S w (s_mech st) ca = Ok (w2, ca2) /\
  integrate_grid S w2 (s_mech st) (s_dt st) ca2 = Ok ca3 /\ solver_step S st = Ok st' /\
  inside S (s_world st) /\ NoDup (map c_p (active S)) /\ so_forces S = [] /\ 0 <= cut_of S /\ nth_error (sc_grids ca3) 0 = Some g /\ wf_grid g2 /\
  (forall c p, In c (active_on S 0) -> In p (pts_at (s_world st) (c_p c)) ->
     pt_vel p = vtrunc D2 v0 /\ pt_stress p = mzero /\ (D2 = D2 -> m22 (pt_F p) = 1)) /\
  affine_state S (s_mech st) 0 g2 mzero /\ unlimited S 0 g2 (s_world st) (s_dt st) /\ In (cpl 0) (active_on S 0) /\ heavy S (s_world st) g (cpl 0).
Proof.
  intros sch Hs S st. assert (X : exists st', solver_step S st = Ok st') by (destruct Hs as [-> | ->]; eexists; reflexivity). destruct X as (st' & E).
  destruct (ex_phases _ _ _ E) as (w & ca & w2 & ca2 & ca3 & E1 & E2 & E3).
  destruct (ex_grid0 _ _ _ _ _ _ _ _ _ E1 E2 E3) as (g & Eg). exists st', w, ca, w2, ca2, ca3, g.
  assert (Hc : In (cpl 0) (active_on S 0)) by (unfold S; rewrite ex_act; left; reflexivity).
  assert (Dr : forall c p, In c (active_on S 0) -> In p (pts_at (s_world st) (c_p c)) -> p = pt xa v0 mzero meye \/ p = pt xb v0 mzero meye).
  { intros c p Hc' Hp. unfold S in Hc'. rewrite ex_act in Hc'. destruct Hc' as [<-|[<-|[]]]; destruct Hp as [<-|[<-|[]]]; auto. }
  repeat (split; [assumption|]). split; [apply ex_inside, drift_two|]. split; [apply ex_nodup|]. split; [reflexivity|].
  split; [apply ex_cut, Hs|]. split; [exact Eg|]. split; [exact g2_wf|]. split; [|split; [|split; [|split; [exact Hc|]]]].
  - intros c p Hc' Hp. destruct (Dr c p Hc' Hp) as [-> | ->]; repeat split.
  - unfold affine_state. destruct Hs as [-> | ->]; simpl; [reflexivity|]. intros c si Bp Hc' Es En.
    change (In c (active_on (solverR (ASFLIP aflipR) (1/2) 2) 0)) in Hc'. rewrite ex_act in Hc'.
    assert (Z : mopp (M3 0 0 0 0 0 0 0 0 0) = (mzero : mat3 R)) by exact mopp_zero.
    destruct Hc' as [<-|[<-|[]]]; simpl in Es; injection Es as <-; simpl in En; injection En as <-;
      (split; [discriminate|]); intros B [<-|[<-|[]]]; symmetry; exact Z.
  - unfold unlimited. destruct Hs as [-> | ->]; simpl; [exact I|]. intros c p Hc' Hp.
    destruct (slow v0 (1/10) v0_slow eq_refl) as (A & B). destruct (Dr c p Hc' Hp) as [-> | ->]; assumption.
  - eapply (ex_heavy sch (1/2) drift mzero (1/10)); try eassumption; [exact drift_two|]. apply ex_cut, Hs.
Qed.

(** C22 *)
Theorem C22_bookkeeping : forall {T} {NT : NumT T} (S : Solver T) n st st', solver_steps S n st = Ok st' ->
  Forall2 body_kept (w_mps (s_world st)) (w_mps (s_world st')) /\
  s_step st' = (s_step st + Z.of_nat n)%Z /\ s_dt st' = s_dt st /\
  s_time st' = Nat.iter n (fun t => nadd t (s_dt st)) (s_time st).
Proof. exact (@steps_kept). Qed.
Print Assumptions C22_bookkeeping.
(** over the reals the accumulated time is t0 + n dt *)
Theorem C22_time_over_reals : forall (S : Solver R) n st st', solver_steps S n st = Ok st' -> s_time st' = s_time st + INR n * s_dt st.
Proof.
  intros S n st st' E. destruct (steps_kept _ _ _ _ E) as (_ & _ & _ & ->). clear E.
  set (f := fun t : R => nadd t (s_dt st)). induction n as [|n IH]; [simpl; ring|].
  change (f (Nat.iter n f (s_time st)) = s_time st + INR (Datatypes.S n) * s_dt st). rewrite IH, S_INR. unfold f. rnum. ring.
Qed.
Print Assumptions C22_time_over_reals.

(** C23 *)
Theorem C23_rigid_untouched : forall {T} {NT : NumT T} (S : Solver T) n st st' p r, solver_steps S n st = Ok st' ->
  nth_error (w_mps (s_world st)) p = Some (Rigid r) -> nth_error (w_mps (s_world st')) p = Some (Rigid r).
Proof. exact (@rigid_unchanged). Qed.
Print Assumptions C23_rigid_untouched.

(** C24 *)
Theorem C24_plane_strain_partial : forall (S : Solver R) n st st', solver_steps S n st = Ok st' -> planar_domains S -> no_reset S ->
  every plane_strain1 (s_world st) -> every plane_strain1 (s_world st').
Proof. exact steps_plane1. Qed.
Print Assumptions C24_plane_strain_partial.
(** with any laws, all but F22 stays in the plane *)
Theorem C24_out_of_plane_zero_partial : forall (S : Solver R) n st st', solver_steps S n st = Ok st' -> planar_domains S ->
  every plane_strain (s_world st) -> every plane_strain (s_world st').
Proof. exact steps_plane. Qed.
Print Assumptions C24_out_of_plane_zero_partial.
Definition lawReset : Law R := LawLE (linear_elastic 1 (1/4) true).
Definition solverReset : Solver R :=
  {| so_scheme := USL; so_alpha := 1; so_domains := [g2]; so_couplings := [cpl 0]; so_laws := [Some lawReset]; so_forces := []; so_sdfs := []; so_sharp := 1 |}.
Example C24_case : planar_domains (solverR USL 1 2) /\ no_reset (solverR USL 1 2) /\ every plane_strain1 (s_world (stateR twoR mzero (1/10))) /\
  exists st', solver_steps (solverR USL 1 2) 2 (stateR twoR mzero (1/10)) = Ok st'.
Proof.
  split; [intros gd [<-|[]]; reflexivity|]. split; [intros l [E|[E|[]]]; injection E as <-; reflexivity|]. split.
  - intros i q Hq. destruct i as [|[|i]]; simpl in Hq; try (destruct Hq as [<-|[<-|[]]]; repeat split).
    unfold pts_at in Hq. simpl in Hq. destruct i; contradiction.
  - assert (X : exists r, solver_step (solverR USL 1 2) (stateR twoR mzero (1/10)) = Ok r) by (eexists; reflexivity). destruct X as (r & E).
    apply (steps_progress _ _ r 2 E). intros c s Hc _ Hs. destruct Hc as [<-|[<-|[]]]; injection Hs as <-; discriminate.
Qed.
(** the F reset of a 2-D body writes F22 = 0, for every solver all of whose laws reset *)
Theorem C24_reset_zeroes_F22_refuted : forall (S : Solver R) st st' c q, solver_step S st = Ok st' -> all_reset S -> all_soft2 (s_world st) ->
  In c (so_couplings S) -> c_skip c = false -> In q (pts_at (s_world st') (c_p c)) -> m22 (pt_F q) = 0 /\ mdet (pt_F q) = 0.
Proof. exact step_reset. Qed.
Print Assumptions C24_reset_zeroes_F22_refuted.
Theorem C24_plane_strain_refuted : exists (S : Solver R) st st' q, planar_domains S /\ every plane_strain1 (s_world st) /\ solver_step S st = Ok st' /\
  In q (pts_at (s_world st') 0) /\ m22 (pt_F q) = 0.
Proof.
  set (st := stateR [two va vb mzero] mzero (1/10)).
  assert (X : exists r, solver_step solverReset st = Ok r) by (eexists; reflexivity). destruct X as (st' & E).
  assert (Q : exists q, In q (pts_at (s_world st') 0)).
  { pose proof (step_kept _ _ _ E) as K. destruct (Forall2_nth_error_l _ _ _ 0%nat _ K eq_refl) as (b & Eb & Kb).
    unfold pts_at. rewrite Eb. destruct b as [s|r]; [|contradiction]. destruct Kb as (_ & _ & F). cbn [body_pts].
    apply Forall2_len in F. destruct (sb_pts s) as [|q l]; [discriminate|]. exists q. left. reflexivity. }
  destruct Q as (q & Hq). exists solverReset, st, st', q. split; [intros gd [<-|[]]; reflexivity|]. split.
  - intros i p Hp. destruct i as [|i]; simpl in Hp; try (destruct Hp as [<-|[<-|[]]]; repeat split).
    unfold pts_at in Hp. simpl in Hp. destruct i; contradiction.
  - split; [exact E|]. split; [exact Hq|]. eapply (step_reset solverReset st st' (cpl 0)); try eassumption; try reflexivity.
    + intros l [El|[]]. injection El as <-. reflexivity.
    + intros i s Hs. destruct i as [|[|i]]; [injection Hs as <-; reflexivity|discriminate|discriminate].
    + left. reflexivity.
Qed.
Print Assumptions C24_plane_strain_refuted.

(** C25 *)
Theorem C25_volume_after_g2p : forall {T} {NT : NumT T} (S : Solver T) w m dt ca w' m', g2p S w m dt ca = Ok (w', m') ->
  forall c, In c (so_couplings S) -> c_skip c = false -> Forall (fun p => pt_vol p = nmul (mdet (pt_F p)) (pt_vol0 p)) (pts_at w' (c_p c)).
Proof. exact (@g2p_volume). Qed.
Print Assumptions C25_volume_after_g2p.
Theorem C25_volume_over_steps : forall (S : Solver R) n st st', solver_steps S n st = Ok st' -> no_reset S ->
  every (fun p => pt_vol p = mdet (pt_F p) * pt_vol0 p) (s_world st) -> every (fun p => pt_vol p = mdet (pt_F p) * pt_vol0 p) (s_world st').
Proof. exact steps_volume. Qed.
Print Assumptions C25_volume_over_steps.
Example C25_case : every (fun p => pt_vol p = mdet (pt_F p) * pt_vol0 p) (s_world (stateR twoR mzero (1/10))).
Proof.
  intros i q Hq. destruct i as [|[|i]]; simpl in Hq; try (destruct Hq as [<-|[<-|[]]]; cbn [pt pt_vol pt_F pt_vol0]; unfold mdet, meye; simpl; rnum; lra).
  unfold pts_at in Hq. simpl in Hq. destruct i; contradiction.
Qed.

(** C31 *)
Theorem C31_repeated_steps_partial : forall {T} {NT : NumT T} (S : Solver T) st r n, solver_step S st = Ok r -> many_points S (s_world st) ->
  exists r', solver_steps S n st = Ok r'.
Proof. exact (@steps_progress). Qed.
Print Assumptions C31_repeated_steps_partial.
Example C31_case : many_points (solverR USL 1 2) (s_world (stateR twoR mzero (1/10))).
Proof. intros c s Hc _ Hs. destruct Hc as [<-|[<-|[]]]; injection Hs as <-; discriminate. Qed.
(** a body of one particle is accepted once and then rejected, whatever the solver *)
Theorem C31_single_particle_refuted : forall {T} {NT : NumT T} (S : Solver T) st r c s, solver_step S st = Ok r -> In c (so_couplings S) -> c_skip c = false ->
  nth_error (w_mps (s_world st)) (c_p c) = Some (Soft s) -> length (sb_pts s) = 1%nat ->
  exists e, solver_step S r = Err e.
Proof. exact (@one_point_fails). Qed.
Print Assumptions C31_single_particle_refuted.
Example C31_single_case : let S := solverR USL 1 1 in let st := stateR [bodyR [pt xa va sg meye]] mzero (1/10) in
  exists r s, solver_step S st = Ok r /\ In (cpl 0) (so_couplings S) /\ c_skip (cpl 0) = false /\
  nth_error (w_mps (s_world st)) (c_p (cpl 0)) = Some (Soft s) /\ length (sb_pts s) = 1%nat.
Proof. intros S st. eexists. eexists. split; [reflexivity|]. split; [left; reflexivity|]. repeat split. Qed.
