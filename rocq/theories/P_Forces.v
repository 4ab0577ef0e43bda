(** Property theorems for the forces: gravity (C52, C53), damping (C54), the SDF collider (C55, C56) and grid contact (C57, C58). *)
From Coq Require Import List Arith ZArith Reals Bool Lra Lia.
From Verif Require Import Num NumR Linalg Arrays ModelGrid ModelShape ModelMath ModelState ModelLaws ModelForces ModelSolver
  Sums ShapeFacts SpecShape ShapeProofs ShapeProofs2 ShapeProofs3 P_Shape MappingProofs ResFacts SolverFacts SpecSolver
  TransferProofs TransferProofs2 StepProofs GatherProofs MomentumProofs AffineProofs StepAffine HeavyProofs SolverMore ExSolver P_Solver
  ShiftProofs ForceProofs.
Import ListNotations.
Local Open Scope R_scope.

(** *** spec: what a grid force may do *)
(** nodes of [g'] carry the masses and momenta of [g] *)
Definition same_carried {T} (g g' : Grid T) : Prop :=
  gr_dim g' = gr_dim g /\ gr_mass g' = gr_mass g /\ gr_mom g' = gr_mom g /\ gr_mom_nt g' = gr_mom_nt g.
Definition lengths_ok {T} (g : Grid T) : Prop := length (gr_mom g) = length (gr_mass g) /\ length (gr_force g) = length (gr_mass g).

(** *** the hook applies its update once per listing of the grid *)
Lemma listed_fold {T} (u : Grid T -> Grid T) : forall l gs gs', rfold (fun l i => upd_idx l i (fun g => Ok (u g))) gs l = Ok gs' ->
  forall gi, nth_error gs' gi = option_map (Nat.iter (count_occ Nat.eq_dec l gi) u) (nth_error gs gi).
Proof.
  induction l as [|j l IH]; intros gs gs' E gi; cbn [rfold] in E.
  - injection E as <-. simpl. destruct (nth_error gs gi); reflexivity.
  - apply rbind_ok in E. destruct E as (gs1 & E1 & E). apply upd_idx_ok in E1. destruct E1 as (x & y & Hx & Hy & ->). injection Hy as <-.
    rewrite (IH _ _ E gi), set_nth_error. simpl count_occ. destruct (Nat.eq_dec j gi) as [->|N].
    + rewrite Nat.eqb_refl, Hx. simpl. f_equal. clear. induction (count_occ Nat.eq_dec l gi) as [|n IH]; [reflexivity|]. simpl. rewrite IH. reflexivity.
    + destruct (Nat.eqb_spec j gi); [contradiction|reflexivity].
Qed.
Lemma listed_total {T} (u : Grid T -> Grid T) : forall l gs, (forall i, In i l -> (i < length gs)%nat) ->
  exists gs', rfold (fun l i => upd_idx l i (fun g => Ok (u g))) gs l = Ok gs'.
Proof.
  induction l as [|j l IH]; intros gs H; [eexists; reflexivity|]. cbn [rfold]. unfold upd_idx at 1.
  destruct (nth_error gs j) as [x|] eqn:E; [|apply nth_error_None in E; specialize (H j (or_introl eq_refl)); lia].
  unfold idx. rewrite E. cbn [rbind oget]. apply IH. intros i Hi. rewrite set_nth_length. apply H. right. exact Hi.
Qed.
Lemma once l gi : NoDup l -> count_occ Nat.eq_dec l gi = if in_dec Nat.eq_dec gi l then 1%nat else 0%nat.
Proof.
  intros N. rewrite (NoDup_count_occ Nat.eq_dec) in N. specialize (N gi). destruct (in_dec Nat.eq_dec gi l) as [I|I].
  - apply (count_occ_In Nat.eq_dec) in I. lia.
  - apply (count_occ_not_In Nat.eq_dec) in I. exact I.
Qed.

(** *** C52 *)
(** gravity on the grid succeeds, adds mass * g to every node of the listed grids and touches nothing else *)
Theorem C52_grid_gravity : forall (gr : Gravity R) (m : Mechanics R) v (gs : list (Grid R)), gv_on_grid gr = true ->
  nth_error (m_forces m) (gv_f gr) = Some (Some (FS_Gravity v)) -> (forall i, In i (gv_gs gr) -> (i < length gs)%nat) -> NoDup (gv_gs gr) ->
  (forall g, In g gs -> lengths_ok g) ->
  exists gs', apply_grid_forces (FGravity gr) m gs = Ok gs' /\ length gs' = length gs /\
  forall gi g, nth_error gs gi = Some g -> exists g', nth_error gs' gi = Some g' /\ same_carried g g' /\
    (~ In gi (gv_gs gr) -> g' = g) /\
    (In gi (gv_gs gr) -> length (gr_force g') = length (gr_force g) /\
       forall i, nth i (gr_force g') vzero = vadd (nth i (gr_force g) vzero) (vscale (nth i (gr_mass g) 0) v)).
Proof.
  intros gr m v gs On Ef Hi Nd L. cbn [apply_grid_forces]. rewrite On. unfold idx. rewrite Ef. cbn [rbind oget gravity_of].
  destruct (listed_total (gravity_grid v) _ gs Hi) as (gs' & E). exists gs'. split; [exact E|].
  pose proof (listed_fold _ _ _ _ E) as H. split.
  - assert (A : forall i, nth_error gs' i = None <-> nth_error gs i = None) by (intro i; rewrite H; destruct (nth_error gs i); simpl; split; congruence).
    apply Nat.le_antisymm; apply nth_error_None; apply A, nth_error_None; lia.
  - intros gi g Eg. specialize (H gi). rewrite Eg, (once _ gi Nd) in H. simpl in H. eexists. split; [exact H|].
    destruct (in_dec Nat.eq_dec gi (gv_gs gr)) as [I|I]; simpl; (split; [repeat split|]); split; try tauto; intros _.
    assert (Lg := L g (nth_error_In _ _ Eg)). destruct Lg as (_ & Lf). split.
    + rewrite map_length, combine_length. lia.
    + intro i. apply gravity_grid_node, Lf.
Qed.
Print Assumptions C52_grid_gravity.
Example C52_grid_case : exists gs' g', apply_grid_forces (FGravity {| gv_on_grid := true; gv_callback := None; gv_ps := [0%nat]; gv_gs := [1%nat]; gv_f := 0 |})
  {| m_laws := []; m_solvers := []; m_forces := [Some (FS_Gravity (V3 0 (-10) 0))] |}
  [grid_new g2; {| gr_dim := D2; gr_mass := [2]; gr_mom := [V3 1 1 0]; gr_mom_nt := [vzero]; gr_force := [V3 3 4 0] |}] = Ok gs' /\
  nth_error gs' 1 = Some g' /\ nth 0 (gr_force g') vzero = V3 3 (-16) 0.
Proof. eexists. eexists. split; [reflexivity|]. split; [reflexivity|]. simpl. unfold vadd, vscale; simpl; rnum. f_equal; ring. Qed.

(** compared with the same step without gravity, each particle of an active coupling is faster by dt * g and further by dt^2 * g, and
    no stress, volume, velocity gradient, deformation gradient, constitutive state or affine state changes *)
Theorem C52_gravity_deforms_nothing : forall (S : Solver R) st st1 st0 w ca w2 ca2 ca3, prepare S st = Ok (w, ca) -> p2g S w (s_mech st) ca = Ok (w2, ca2) ->
  integrate_grid S w2 (s_mech st) (s_dt st) ca2 = Ok ca3 -> solver_step S st = Ok st1 -> solver_step (without_forces S) st = Ok st0 ->
  inside S (s_world st) -> NoDup (map c_p (active S)) -> only_gravity (so_forces S) -> 0 <= cut_of S ->
  (forall gi g c, nth_error (sc_grids ca3) gi = Some g -> In c (active_on S gi) -> heavy S (s_world st) g c) ->
  Forall2 same_body (w_mps (s_world st1)) (w_mps (s_world st0)) /\ m_laws (s_mech st1) = m_laws (s_mech st0) /\
  m_solvers (s_mech st1) = m_solvers (s_mech st0) /\
  forall c gd, In c (so_couplings S) -> c_skip c = false -> nth_error (so_domains S) (c_g c) = Some gd ->
    Forall2 (shifted (so_scheme S) (gd_cell gd) (s_dt st) (fall S st (c_g c))) (pts_at (s_world st1) (c_p c)) (pts_at (s_world st0) (c_p c)).
Proof. exact gravity_shift. Qed.
Print Assumptions C52_gravity_deforms_nothing.
Theorem C52_free_fall : forall (S : Solver R) st st1 st0 w ca w2 ca2 ca3, prepare S st = Ok (w, ca) -> p2g S w (s_mech st) ca = Ok (w2, ca2) ->
  integrate_grid S w2 (s_mech st) (s_dt st) ca2 = Ok ca3 -> solver_step S st = Ok st1 -> solver_step (without_forces S) st = Ok st0 ->
  inside S (s_world st) -> NoDup (map c_p (active S)) -> only_gravity (so_forces S) -> 0 <= cut_of S ->
  (forall gi g c, nth_error (sc_grids ca3) gi = Some g -> In c (active_on S gi) -> heavy S (s_world st) g c) ->
  forall gi gd v, nth_error (so_domains S) gi = Some gd -> wf_grid gd ->
  (forall c p, In c (active_on S gi) -> In p (pts_at (s_world st) (c_p c)) ->
     pt_vel p = vtrunc (gd_dim gd) v /\ pt_stress p = mzero /\ (gd_dim gd = D2 -> m22 (pt_F p) = 1)) ->
  affine_state S (s_mech st) gi gd mzero -> unlimited S gi gd (s_world st) (s_dt st) -> unlimited S gi gd (s_world st1) (s_dt st) ->
  forall c, In c (active_on S gi) ->
  Forall2 (fun p q => pt_vel q = vadd (pt_vel p) (fall S st gi) /\
      pt_pos q = vadd (pt_pos p) (vscale (s_dt st) (vadd (pt_vel p) (fall S st gi))) /\
      pt_L q = mzero /\ pt_vol q = mdet (pt_F p) * pt_vol0 p /\ pt_mass q = pt_mass p)
    (pts_at (s_world st) (c_p c)) (pts_at (s_world st1) (c_p c)).
Proof. exact free_fall. Qed.
Print Assumptions C52_free_fall.
(** two drifting bodies on a grid with gravity (0,-10) *)
Definition solverG : Solver R :=
  let S := solverR USL (1/2) 2 in
  {| so_scheme := USL; so_alpha := 1/2; so_domains := so_domains S; so_couplings := so_couplings S; so_laws := so_laws S;
     so_forces := [FGravity {| gv_on_grid := true; gv_callback := None; gv_ps := [0%nat]; gv_gs := [0%nat]; gv_f := 0 |}]; so_sdfs := []; so_sharp := 1 |}.
Definition stateG : SimState R :=
  let st := stateR drift mzero (1/10) in
  {| s_world := s_world st;
     s_mech := {| m_laws := m_laws (s_mech st); m_solvers := m_solvers (s_mech st); m_forces := [Some (FS_Gravity (V3 0 (-10) 0))] |};
     s_time := 0; s_step := 0; s_dt := 1/10 |}.
Example C52_case : exists st1 st0 w ca w2 ca2 ca3, prepare solverG stateG = Ok (w, ca) /\ p2g solverG w (s_mech stateG) ca = Ok (w2, ca2) /\
  integrate_grid solverG w2 (s_mech stateG) (s_dt stateG) ca2 = Ok ca3 /\ solver_step solverG stateG = Ok st1 /\
  solver_step (without_forces solverG) stateG = Ok st0 /\ inside solverG (s_world stateG) /\ NoDup (map c_p (active solverG)) /\
  only_gravity (so_forces solverG) /\ 0 <= cut_of solverG /\
  (forall gi g c, nth_error (sc_grids ca3) gi = Some g -> In c (active_on solverG gi) -> heavy solverG (s_world stateG) g c) /\
  (forall c p, In c (active_on solverG 0) -> In p (pts_at (s_world stateG) (c_p c)) ->
     pt_vel p = vtrunc D2 v0 /\ pt_stress p = mzero /\ (D2 = D2 -> m22 (pt_F p) = 1)) /\
  affine_state solverG (s_mech stateG) 0 g2 mzero /\ In (cpl 0) (active_on solverG 0) /\ fall solverG stateG 0 = V3 0 (-1) 0.
Proof.
  assert (X1 : exists st1, solver_step solverG stateG = Ok st1) by (eexists; reflexivity). destruct X1 as (st1 & St1).
  assert (X0 : exists st0, solver_step (without_forces solverG) stateG = Ok st0) by (eexists; reflexivity). destruct X0 as (st0 & St0).
  destruct (ex_phases _ _ _ St1) as (w & ca & w2 & ca2 & ca3 & E1 & E2 & E3).
  assert (Og : only_gravity (so_forces solverG)) by (intros f [<-|[]]; reflexivity).
  destruct (step_ok _ _ _ St0) as (wa & caa & wb & cab & ca3' & x0 & k0 & y0 & l0 & B1 & B2 & B3 & _).
  pose proof B1 as B1'. pose proof B2 as B2'. rewrite prepare_without, E1 in B1. injection B1 as <- <-. rewrite p2g_without, E2 in B2 by exact Og. injection B2 as <- <-.
  exists st1, st0, w, ca, w2, ca2, ca3. repeat (split; [assumption|]).
  split; [exact (ex_inside USL (1/2) 2 drift mzero (1/10) drift_two)|]. split; [exact (ex_nodup USL (1/2) 2)|]. split; [exact Og|].
  assert (Hcut : 0 <= cut_of (solverR USL (1/2) 2) < 1/1024) by (apply ex_cut; left; reflexivity).
  split; [apply Hcut|]. split; [|split; [|split; [|split]]].
  - intros gi g c Eg Hc. destruct gi as [|gi]; [|exfalso; change (active_on solverG (Datatypes.S gi)) with (active_on (solverR USL (1/2) 2) (Datatypes.S gi)) in Hc; rewrite ex_act in Hc; exact Hc].
    destruct (integrate_same_mm _ _ _ _ _ _ E3) as (SM & _). destruct (integrate_same_mm _ _ _ _ _ _ B3) as (SM0 & _).
    destruct (Forall2_nth_error _ _ _ _ _ SM Eg) as (h & Eh & _ & M & _). destruct (Forall2_nth_error_l _ _ _ _ _ SM0 Eh) as (g0 & Eg0 & _ & M0 & _).
    assert (Mg : gr_mass g = gr_mass g0) by congruence. unfold heavy. rewrite Mg.
    assert (T1 : prepare (solverR USL (1/2) 2) (stateR drift mzero (1/10)) = Ok (w, ca)) by exact B1'.
    assert (T2 : p2g (solverR USL (1/2) 2) w (s_mech (stateR drift mzero (1/10))) ca = Ok (w2, ca2)) by exact B2'.
    assert (T3 : integrate_grid (solverR USL (1/2) 2) w2 (s_mech (stateR drift mzero (1/10))) (s_dt (stateR drift mzero (1/10))) ca2 = Ok ca3') by exact B3.
    exact (ex_heavy USL (1/2) drift mzero (1/10) w ca w2 ca2 ca3' g0 c drift_two (proj2 Hcut) T1 T2 T3 Eg0 Hc).
  - intros c p Hc Hp. change (active_on solverG 0) with (active_on (solverR USL (1/2) 2) 0) in Hc. rewrite ex_act in Hc.
    destruct Hc as [<-|[<-|[]]]; destruct Hp as [<-|[<-|[]]]; repeat split.
  - reflexivity.
  - left. reflexivity.
  - unfold fall. simpl. unfold vscale, vtrunc, vsum, sumR; simpl. rnum. f_equal; field.
Qed.

(** *** C53: gravity applied on particles *)
Lemma rfold_in_fails {A B} (f : A -> B -> res A) b : (forall a, match f a b with Ok _ => False | Err _ => True end) ->
  forall l a a', In b l -> rfold f a l <> Ok a'.
Proof.
  intros H. induction l as [|x l IH]; intros a a' Hb E; [contradiction|]. cbn [rfold] in E. apply rbind_ok in E. destruct E as (a1 & E1 & E).
  destruct Hb as [->|Hb].
  - specialize (H a). rewrite E1 in H. exact H.
  - exact (IH _ _ Hb E).
Qed.
(** no step succeeds while gravity is asked to act on the particles of any body *)
Theorem C53_particle_gravity_refuted : forall {T} {NT : NumT T} (S : Solver T) gr, In (FGravity gr) (so_forces S) -> gv_on_grid gr = false -> gv_ps gr <> [] ->
  forall st st', solver_step S st <> Ok st'.
Proof.
  intros T NT S gr Hg On Ne st st' E. apply step_ok in E. destruct E as (w & ca & w2 & ca2 & _ & _ & _ & _ & _ & _ & E2 & _).
  apply p2g_ok in E2. destruct E2 as (gs & E2 & _). revert E2. apply (rfold_in_fails _ (FGravity gr)); [|exact Hg]. intro w0.
  cbn [apply_pre_p2g]. rewrite On. unfold idx. destruct (nth_error (m_forces (s_mech st)) (gv_f gr)) as [fs|]; [|exact I]. cbn [rbind oget].
  destruct (gv_ps gr) as [|p ps]; [congruence|]. cbn [rfold]. unfold idx. destruct (nth_error (w_mps w0) p); [|exact I]. cbn [rbind oget].
  destruct (gravity_of fs); exact I.
Qed.
Print Assumptions C53_particle_gravity_refuted.
(** the exception on an otherwise valid step *)
Definition solverPG : Solver R :=
  {| so_scheme := USL; so_alpha := 1/2; so_domains := so_domains solverG; so_couplings := so_couplings solverG; so_laws := so_laws solverG;
     so_forces := [FGravity {| gv_on_grid := false; gv_callback := None; gv_ps := [0%nat]; gv_gs := [0%nat]; gv_f := 0 |}]; so_sdfs := []; so_sharp := 1 |}.
Example C53_case : solver_step solverPG stateG = Err AttributeError /\ exists st', solver_step solverG stateG = Ok st'.
Proof. split; [reflexivity|eexists; reflexivity]. Qed.

(** *** C54: Cundall damping *)
Lemma nsign_cases (v : R) : (v < 0 /\ nsign v = -1) \/ (v = 0 /\ nsign v = 0) \/ (0 < v /\ nsign v = 1).
Proof. unfold nsign. rnum. repeat rcase; lra. Qed.
Theorem C54_component : forall alpha f v : R, 0 <= alpha <= 1 ->
  Rabs (damp alpha f v - f) <= alpha * Rabs f /\ damp alpha f v * v <= f * v /\ (v = 0 -> damp alpha f v = f) /\ 0 <= f * damp alpha f v.
Proof.
  intros alpha f v H. unfold damp. change (@numt_num R NumT_R) with Num_R. rewrite nabs_R.
  assert (Z : 0 <= alpha * Rabs f) by (apply Rmult_le_pos; [lra|apply Rabs_pos]).
  assert (F1 : f * f = Rabs f * Rabs f) by (unfold Rabs; destruct (Rcase_abs f); ring).
  assert (B : - Rabs f <= f <= Rabs f) by (unfold Rabs; destruct (Rcase_abs f); lra).
  pose proof (Rabs_pos f) as Pf.
  destruct (nsign_cases v) as [(Hv & ->)|[(Hv & ->)|(Hv & ->)]]; rnum.
  - split; [replace (f + - alpha * Rabs f * -1 - f) with (alpha * Rabs f) by ring; rewrite Rabs_pos_eq; lra|].
    split; [nra|]. split; [lra|]. replace (f * (f + - alpha * Rabs f * -1)) with (f * f + alpha * (f * Rabs f)) by ring. rewrite F1.
    assert (- (Rabs f * Rabs f) <= f * Rabs f) by nra. nra.
  - subst v. split; [replace (f + - alpha * Rabs f * 0 - f) with 0 by ring; rewrite Rabs_R0; lra|].
    split; [lra|]. split; [lra|]. nra.
  - split; [replace (f + - alpha * Rabs f * 1 - f) with (- (alpha * Rabs f)) by ring; rewrite Rabs_Ropp, Rabs_pos_eq; lra|].
    split; [nra|]. split; [lra|]. replace (f * (f + - alpha * Rabs f * 1)) with (f * f - alpha * (f * Rabs f)) by ring. rewrite F1.
    assert (f * Rabs f <= Rabs f * Rabs f) by nra. nra.
Qed.
Print Assumptions C54_component.
Lemma damping_node alpha (g : Grid R) i : lengths_ok g -> (i < length (gr_mass g))%nat ->
  nth i (gr_force (damping_grid alpha g)) vzero
  = vmap2 (fun f p => damp alpha f (p / (nth i (gr_mass g) 0 + lit 1 (10 ^ 22)))) (nth i (gr_force g) vzero) (nth i (gr_mom g) vzero).
Proof.
  intros (L1 & L2). unfold damping_grid. cbn [set_force gr_force]. revert i. revert L1 L2. generalize (gr_force g) (gr_mass g) (gr_mom g). intros fo ms.
  revert fo. induction ms as [|m ms IH]; intros [|f fo] [|p ps] L1 L2 i Hi; simpl in *; try lia. destruct i as [|i]; [reflexivity|]. apply IH; lia.
Qed.
Lemma vcomp_map2 a (f : R -> R -> R) (u v : vec3 R) : vcomp a (vmap2 f u v) = f (vcomp a u) (vcomp a v).
Proof. destruct a as [|[|a]]; reflexivity. Qed.
(** on every node of the listed grids: each component changes by at most alpha |F|, the power of the nodal forces does not grow,
    nodes at rest keep their force; other grids are untouched *)
Theorem C54_grid_damping : forall (d : Damping) (m : Mechanics R) alpha (gs : list (Grid R)), dm_on_grid d = true -> 0 <= alpha <= 1 ->
  nth_error (m_forces m) (dm_f d) = Some (Some (FS_Damping alpha)) -> (forall i, In i (dm_gs d) -> (i < length gs)%nat) -> NoDup (dm_gs d) ->
  (forall g, In g gs -> lengths_ok g) ->
  exists gs', apply_grid_forces (FDamping d) m gs = Ok gs' /\
  forall gi g, nth_error gs gi = Some g -> exists g', nth_error gs' gi = Some g' /\ same_carried g g' /\
    (~ In gi (dm_gs d) -> g' = g) /\
    forall i, (i < length (gr_mass g))%nat -> 0 <= nth i (gr_mass g) 0 ->
      let F := nth i (gr_force g) vzero in let F' := nth i (gr_force g') vzero in let p := nth i (gr_mom g) vzero in
      (forall a, Rabs (vcomp a F' - vcomp a F) <= alpha * Rabs (vcomp a F)) /\ vdot F' p <= vdot F p /\ (p = vzero -> F' = F).
Proof.
  intros d m alpha gs On Ha Ef Hi Nd L. cbn [apply_grid_forces]. rewrite On. unfold idx. rewrite Ef. cbn [rbind oget alpha_of].
  destruct (listed_total (damping_grid alpha) _ gs Hi) as (gs' & E). exists gs'. split; [exact E|].
  pose proof (listed_fold _ _ _ _ E) as H. intros gi g Eg. specialize (H gi). rewrite Eg, (once _ gi Nd) in H. simpl in H. eexists. split; [exact H|].
  destruct (in_dec Nat.eq_dec gi (dm_gs d)) as [I|I].
  - cbn [Nat.iter nat_rect]. split; [repeat split|]. split; [tauto|]. intros i Hi' Hm. cbv zeta. rewrite damping_node by (try apply L; try assumption; eapply nth_error_In, Eg).
    set (F := nth i (gr_force g) vzero). set (p := nth i (gr_mom g) vzero). set (M := nth i (gr_mass g) 0 + lit 1 (10 ^ 22)).
    assert (Mp : 0 < M). { unfold M. rnum. replace (10 ^ 22)%Z with 10000000000000000000000%Z by reflexivity. lra. }
    assert (Q : forall f x : R, damp alpha f (x / M) * x <= f * x).
    { intros f x. destruct (C54_component alpha f (x / M) Ha) as (_ & P & _). assert (X : x = x / M * M) by (field; lra).
      set (y := x / M) in *. rewrite X. rewrite <- !Rmult_assoc. apply Rmult_le_compat_r; lra. }
    split; [intro a; rewrite vcomp_map2; apply C54_component, Ha|]. split.
    + rewrite !vdot_comp, !vcomp_map2. apply Rplus_le_compat; [apply Rplus_le_compat|]; apply Q.
    + intros ->. apply vcomp_eq; intro a. rewrite vcomp_map2, vcomp_zero. apply C54_component; [exact Ha|]. unfold Rdiv; rnum. ring.
  - cbn [Nat.iter nat_rect]. split; [repeat split|]. split; [tauto|]. intros i Hi' Hm. cbv zeta. split; [|split; [lra|tauto]].
    intro a. rewrite Rminus_diag_eq by reflexivity. rewrite Rabs_R0. apply Rmult_le_pos; [lra|apply Rabs_pos].
Qed.
Print Assumptions C54_grid_damping.
Example C54_case : let g := {| gr_dim := D2; gr_mass := [2]; gr_mom := [V3 1 (-1) 0]; gr_mom_nt := [vzero]; gr_force := [V3 4 4 4] |} in
  exists g', apply_grid_forces (FDamping {| dm_on_grid := true; dm_ps := []; dm_gs := [0%nat]; dm_f := 0 |})
    {| m_laws := []; m_solvers := []; m_forces := [Some (FS_Damping (1/2))] |} [g] = Ok [g'] /\ lengths_ok g /\
  nth 0 (gr_force g') vzero = V3 2 6 4.
Proof.
  eexists. split; [reflexivity|]. split; [split; reflexivity|]. simpl. unfold vmap2; simpl. unfold damp. change (@numt_num R NumT_R) with Num_R. rewrite !nabs_R.
  assert (P : forall x : R, 0 < x -> nsign (x / (2 + lit 1 (10 ^ 22))) = 1 /\ nsign (- x / (2 + lit 1 (10 ^ 22))) = -1).
  { intros x Hx. assert (D : 0 < 2 + lit 1 (10 ^ 22)) by (rnum; replace (10 ^ 22)%Z with 10000000000000000000000%Z by reflexivity; lra).
    assert (0 < x / (2 + lit 1 (10 ^ 22))) by (apply Rdiv_lt_0_compat; assumption).
    assert (- x / (2 + lit 1 (10 ^ 22)) < 0) by (unfold Rdiv in *; lra).
    destruct (nsign_cases (x / (2 + lit 1 (10 ^ 22)))) as [(A & _)|[(A & _)|(_ & A)]]; try lra.
    destruct (nsign_cases (- x / (2 + lit 1 (10 ^ 22)))) as [(_ & B)|[(B & _)|(B & _)]]; lra. }
  destruct (P 1 ltac:(lra)) as (P1 & P2).
  assert (Z : nsign (0 / (2 + lit 1 (10 ^ 22))) = 0) by (destruct (nsign_cases (0 / (2 + lit 1 (10 ^ 22)))) as [(A & _)|[(_ & A)|(A & _)]]; unfold Rdiv in *; lra).
  rnum. f_equal; rewrite (Rabs_pos_eq 4) by lra.
  - match goal with |- context [nsign ?x] => replace (nsign x) with 1 by (symmetry; exact P1) end. lra.
  - match goal with |- context [nsign ?x] => replace (nsign x) with (-1) by (symmetry; exact P2) end. lra.
  - match goal with |- context [nsign ?x] => replace (nsign x) with 0 by (symmetry; exact Z) end. lra.
Qed.

(** *** C55: the SDF collider *)
(** spec: relative velocity, its normal speed and its tangential part *)
Definition nspeed (v w n : vec3 R) : R := vdot (vsub v w) n.
Definition tang (v w n : vec3 R) : vec3 R := vsub (vsub v w) (vscale (nspeed v w n) n).
Definition vel_of (mass : R) (mom : vec3 R) : vec3 R := vdivs mom mass.
Definition cut14 : R := 1 / 10 ^ 14.

Lemma vdot_add_l (u v w : vec3 R) : vdot (vadd u v) w = vdot u w + vdot v w.
Proof. unfold vdot, vadd, vmap2; simpl; rnum. ring. Qed.
Lemma vdot_sub_l (u v w : vec3 R) : vdot (vsub u v) w = vdot u w - vdot v w.
Proof. unfold vdot, vsub, vmap2; simpl; rnum. ring. Qed.
Lemma vdot_scale_l k (u w : vec3 R) : vdot (vscale k u) w = k * vdot u w.
Proof. unfold vdot, vscale, vmap; simpl; rnum. ring. Qed.
Lemma vnorm_nonneg (v : vec3 R) : 0 <= vnorm v.
Proof. unfold vnorm. rnum. apply sqrt_pos. Qed.
(** factor applied to the tangential velocity *)
Lemma friction_factor (t : vec3 R) (lim : R) : 0 <= lim ->
  let vt := vnorm t in let red := if Rltb (lit 1 (10 ^ 12)) vt then nmin vt lim else 0 in
  let k := 1 - red / (vt + lit 1 (10 ^ 12)) in 0 < k <= 1 /\ vnorm (vsub (vscale k t) t) <= lim.
Proof.
  intros Hl vt red k. pose proof (vnorm_nonneg t) as Hn. fold vt in Hn.
  assert (e0 : 0 < lit 1 (10 ^ 12)) by (rnum; replace (10 ^ 12)%Z with 1000000000000%Z by reflexivity; lra). set (e := lit 1 (10 ^ 12)) in *.
  assert (Hr : 0 <= red <= vt /\ red <= lim).
  { unfold red. destruct (Rltb e vt); [|lra]. rewrite nmin_R. unfold Rmin. destruct (Rle_dec vt lim); lra. }
  set (q := red / (vt + e)).
  assert (Q : 0 <= q /\ q * (vt + e) = red) by (unfold q; split; [unfold Rdiv; apply Rmult_le_pos; [apply Hr|apply Rlt_le, Rinv_0_lt_compat; lra]|field; lra]).
  assert (Q1 : q < 1) by nra. split; [unfold k; fold q; lra|].
  replace (vsub (vscale k t) t) with (vscale (- q) t) by (unfold k; fold q; apply vcomp_eq; intro a; rewrite vcomp_sub, !vcomp_scale; ring).
  assert (N : vnorm (vscale (- q) t) = q * vt).
  { replace (vnorm (vscale (- q) t)) with (vnorm (vscale q t)); [apply vnorm_scale; lra|].
    unfold vnorm, vnorm2, vdot, vscale, vmap; simpl; rnum. f_equal. ring. }
  rewrite N. nra.
Qed.
(** the friction routine, any normal: relative velocity afterwards *)
Lemma contact_form v dist n w mu dt gap : 0 <= mu -> exists k, 0 < k <= 1 /\
  let dv := Rmax 0 (- nspeed v w n) in let rc := vadd (vsub v w) (vscale dv n) in let c := vdot rc n in let t := vsub rc (vscale c n) in
  vsub (apply_frictional_contact v dist n w mu dt gap 0) w = vadd (vscale c n) (vscale k t) /\ vnorm (vsub (vscale k t) t) <= mu * dv.
Proof.
  intros Hmu.
  assert (E0 : apply_frictional_contact v dist n w mu dt gap 0 =
    (let dv := nmax 0 (nmax 0 ((gap - dist) / dt * 0) - vdot (vsub v w) n) in let rc := vsub (vadd v (vscale dv n)) w in
     let c := vdot rc n in let t := vsub rc (vscale c n) in let red := if Rltb (lit 1 (10 ^ 12)) (vnorm t) then nmin (vnorm t) (mu * dv) else 0 in
     vadd (vadd w (vscale c n)) (vscale (1 - red / (vnorm t + lit 1 (10 ^ 12))) t))) by reflexivity.
  rewrite E0. clear E0. cbv zeta. rewrite !nmax_R.
  assert (Eb : Rmax 0 ((gap - dist) / dt * 0) - vdot (vsub v w) n = - nspeed v w n)
    by (rewrite Rmult_0_r, (Rmax_left 0 0) by lra; unfold nspeed; ring).
  rewrite Eb. clear Eb. set (dv := Rmax 0 (- nspeed v w n)).
  set (rc := vadd (vsub v w) (vscale dv n)).
  replace (vsub (vadd v (vscale dv n)) w) with rc by (unfold rc; apply vcomp_eq; intro a; rewrite !vcomp_sub, !vcomp_add, !vcomp_sub; ring).
  set (c := vdot rc n). set (t := vsub rc (vscale c n)).
  assert (Hd : 0 <= mu * dv) by (apply Rmult_le_pos; [exact Hmu|apply Rmax_l]).
  destruct (friction_factor t (mu * dv) Hd) as (K & N). eexists. split; [exact K|]. cbv zeta. split; [|exact N].
  apply vcomp_eq; intro a. rewrite vcomp_sub, !vcomp_add, !vcomp_scale. ring.
Qed.

Theorem C55_contact : forall v dist n w mu dt gap, vdot n n = 1 -> 0 <= mu ->
  let v' := apply_frictional_contact v dist n w mu dt gap 0 in
  nspeed v' w n = Rmax 0 (nspeed v w n) /\
  (exists k, 0 < k <= 1 /\ tang v' w n = vscale k (tang v w n)) /\
  vnorm (vsub (tang v' w n) (tang v w n)) <= mu * (nspeed v' w n - nspeed v w n).
Proof.
  intros v dist n w mu dt gap Hn Hmu v'. destruct (contact_form v dist n w mu dt gap Hmu) as (k & Hk & E & N). cbv zeta in E, N. fold v' in E.
  set (dv := Rmax 0 (- nspeed v w n)) in *. set (rc := vadd (vsub v w) (vscale dv n)) in *.
  assert (Ec : vdot rc n = Rmax 0 (nspeed v w n)).
  { unfold rc. rewrite vdot_add_l, vdot_scale_l, Hn. fold (nspeed v w n). unfold dv, Rmax. repeat destruct (Rle_dec _ _); lra. }
  rewrite Ec in *. set (c := Rmax 0 (nspeed v w n)) in *.
  assert (Et : vsub rc (vscale c n) = tang v w n).
  { unfold tang, rc. apply vcomp_eq; intro a. rewrite !vcomp_sub, vcomp_add, !vcomp_scale, vcomp_sub.
    replace c with (nspeed v w n + dv) by (unfold c, dv, Rmax; repeat destruct (Rle_dec _ _); lra). ring. }
  rewrite Et in *.
  assert (T0 : vdot (tang v w n) n = 0) by (unfold tang; rewrite vdot_sub_l, vdot_scale_l, Hn; unfold nspeed; ring).
  assert (En : nspeed v' w n = c) by (unfold nspeed; rewrite E, vdot_add_l, !vdot_scale_l, Hn, T0; ring).
  assert (Et' : tang v' w n = vscale k (tang v w n)).
  { unfold tang at 1. rewrite En, E. apply vcomp_eq; intro a. rewrite vcomp_sub, vcomp_add, !vcomp_scale. ring. }
  split; [exact En|]. split; [exists k; auto|]. rewrite Et', En. replace (c - nspeed v w n) with dv; [exact N|].
  unfold c, dv, Rmax; repeat destruct (Rle_dec _ _); lra.
Qed.
Print Assumptions C55_contact.
(** the normals of the library are gradients divided by norm + 1e-12, hence shorter than one: what is left of an approach velocity *)
Theorem C55_short_normal : forall v dist n w mu dt gap, vdot n n <= 1 -> 0 <= mu ->
  let v' := apply_frictional_contact v dist n w mu dt gap 0 in
  - ((1 - vdot n n) * Rmax 0 (- nspeed v w n)) <= nspeed v' w n.
Proof.
  intros v dist n w mu dt gap Hn Hmu v'. destruct (contact_form v dist n w mu dt gap Hmu) as (k & Hk & E & _). cbv zeta in E. fold v' in E.
  set (dv := Rmax 0 (- nspeed v w n)) in *. set (rc := vadd (vsub v w) (vscale dv n)) in *. set (s := vdot n n) in *.
  assert (S0 : 0 <= s) by (unfold s, vdot; rnum; nra).
  unfold nspeed at 1. rewrite E, vdot_add_l, !vdot_scale_l, vdot_sub_l, vdot_scale_l. fold s.
  assert (Ec : vdot rc n = nspeed v w n + dv * s) by (unfold rc; rewrite vdot_add_l, vdot_scale_l; reflexivity).
  rewrite Ec. set (x := nspeed v w n) in *. set (a := s + k * (1 - s)).
  replace ((x + dv * s) * s + k * (x + dv * s - (x + dv * s) * s)) with ((x + dv * s) * a) by (unfold a; ring).
  assert (A : 0 <= a <= 1) by (unfold a; split; nra).
  unfold dv, Rmax. destruct (Rle_dec 0 (- x)); [|rewrite Rmult_0_l, Rmult_0_r; nra].
  replace (x + - x * s) with (x * (1 - s)) by ring. replace (- ((1 - s) * - x)) with (x * (1 - s)) by ring.
  assert (Y : x * (1 - s) <= 0) by nra. revert Y A. generalize (x * (1 - s)). clear. intros y Y A. nra.
Qed.
Print Assumptions C55_short_normal.

Lemma squares0 (a b c : R) : a * a + b * b + c * c = 0 -> a = 0 /\ b = 0 /\ c = 0.
Proof. intros H. repeat split; apply Rsqr_0_uniq; unfold Rsqr; nra. Qed.
Lemma cut14_lit : lit 1 (10 ^ 14) = cut14 :> R.
Proof. unfold cut14. rnum. replace (10 ^ 14)%Z with 100000000000000%Z by reflexivity. replace (10 ^ 14) with 100000000000000 by ring. reflexivity. Qed.
(** one node of the grid: heavier than the cutoff *)
Theorem C55_node : forall (c : Collider R) dt mass mom ge, cut14 < mass -> 0 <= cl_friction c * gm_friction ge ->
  let v := vel_of mass mom in let v' := vel_of mass (collider_node c dt mass mom ge) in let n := gm_normal ge in let w := gm_vel ge in
  (0 < gm_dist ge -> collider_node c dt mass mom ge = mom) /\
  (gm_dist ge <= 0 -> vdot n n = 1 ->
     0 <= nspeed v' w n /\ (0 <= nspeed v w n -> v' = v) /\
     (exists k, 0 < k <= 1 /\ tang v' w n = vscale k (tang v w n)) /\
     vnorm (vsub (tang v' w n) (tang v w n)) <= cl_friction c * gm_friction ge * (nspeed v' w n - nspeed v w n)).
Proof.
  intros c dt mass mom ge Hm Hf v v' n w.
  assert (M0 : 0 < mass). { apply Rlt_trans with cut14; [|exact Hm]. unfold cut14. apply Rdiv_lt_0_compat; [lra|]. apply pow_lt. lra. }
  assert (Ev : collider_node c dt mass mom ge = vscale mass (collide_node (cl_gap c) (gm_dist ge) v (gm_normal ge) (gm_vel ge) (cl_friction c * gm_friction ge) dt)).
  { unfold collider_node. change (@numt_num R NumT_R) with Num_R. rewrite cut14_lit. rnum.
    replace (Rltb cut14 mass) with true by (symmetry; rcase; [reflexivity|lra]).
    replace (vscale (1 / mass) mom) with v; [reflexivity|]. unfold v, vel_of. apply vcomp_eq; intro a. rewrite vcomp_scale, vcomp_divs. field. lra. }
  split.
  - intros Hd. rewrite Ev. unfold collide_node. rnum. replace (Rleb (gm_dist ge) 0) with false by (symmetry; rcase; [lra|reflexivity]).
    cbn [andb orb]. unfold v, vel_of. apply vcomp_eq; intro a. rewrite vcomp_scale, vcomp_divs. field. lra.
  - intros Hd Hn.
    assert (E' : v' = apply_frictional_contact v (gm_dist ge) n w (cl_friction c * gm_friction ge) dt (cl_gap c) 0).
    { unfold v'. rewrite Ev. unfold collide_node. rnum. replace (Rleb (gm_dist ge) 0) with true by (symmetry; rcase; [reflexivity|lra]).
      cbn [andb orb]. fold n w. unfold vel_of. apply vcomp_eq; intro a. rewrite vcomp_divs, vcomp_scale. field. lra. }
    destruct (C55_contact v (gm_dist ge) n w (cl_friction c * gm_friction ge) dt (cl_gap c) Hn Hf) as (A & B & C). rewrite <- E' in A, B, C.
    split; [rewrite A; apply Rmax_l|]. split; [|split; assumption].
    intros Hv. destruct (contact_form v (gm_dist ge) n w (cl_friction c * gm_friction ge) dt (cl_gap c) Hf) as (k & Hk & E & N). cbv zeta in E, N. rewrite <- E' in E.
    rewrite (Rmax_left 0 (- nspeed v w n)) in E, N by lra.
    set (t := vsub (vadd (vsub v w) (vscale 0 n)) (vscale (vdot (vadd (vsub v w) (vscale 0 n)) n) n)) in *.
    assert (Nz : vscale k t = t).
    { rewrite Rmult_0_r in N. pose proof (vnorm_nonneg (vsub (vscale k t) t)) as P. assert (Z : vnorm (vsub (vscale k t) t) = 0) by lra.
      change (sqrt (vdot (vsub (vscale k t) t) (vsub (vscale k t) t)) = 0) in Z. apply sqrt_eq_0 in Z; [|rewrite vdot_comp; nra].
      assert (forall a, vcomp a (vsub (vscale k t) t) = 0) as Q by (rewrite vdot_comp in Z; destruct (squares0 _ _ _ Z) as (Z0 & Z1 & Z2); intros [|[|a]]; [exact Z0|exact Z1|rewrite vcomp_big by lia; exact Z2]).
      apply vcomp_eq; intro a. specialize (Q a). rewrite vcomp_sub in Q. lra. }
    rewrite Nz in E. apply vcomp_eq; intro a. apply (f_equal (vcomp a)) in E. unfold t in E.
    rewrite vcomp_sub, !vcomp_add, vcomp_sub, vcomp_add, !vcomp_scale, vcomp_sub in E. lra.
Qed.
Print Assumptions C55_node.
Example C55_node_case : let c := {| cl_sdf := Some 0%nat; cl_gs := [0%nat]; cl_gap := 0; cl_friction := 1/2 |} in
  let ge := {| gm_dist := - 1; gm_normal := V3 0 1 0; gm_vel := V3 1 0 0; gm_friction := 1 |} in
  cut14 < 2 /\ 0 <= cl_friction c * gm_friction ge /\ gm_dist ge <= 0 /\ vdot (gm_normal ge) (gm_normal ge) = 1 /\
  nspeed (vel_of 2 (V3 4 (-6) 0)) (gm_vel ge) (gm_normal ge) = -3 /\ tang (vel_of 2 (V3 4 (-6) 0)) (gm_vel ge) (gm_normal ge) = V3 1 0 0.
Proof.
  cbn. unfold cut14, nspeed, tang, vel_of, nspeed, vdot, vsub, vscale, vdivs, vmap2, vmap; simpl; rnum.
  repeat split; try lra. f_equal; field.
Qed.
Lemma listed_fold_res {T} (u : nat -> Grid T -> res (Grid T)) : forall l gs gs', NoDup l -> rfold (fun l i => upd_idx l i (u i)) gs l = Ok gs' ->
  forall gi, (In gi l -> exists g g', nth_error gs gi = Some g /\ u gi g = Ok g' /\ nth_error gs' gi = Some g') /\
             (~ In gi l -> nth_error gs' gi = nth_error gs gi).
Proof.
  induction l as [|j l IH]; intros gs gs' Nd E gi; cbn [rfold] in E.
  - injection E as <-. split; [intros []|reflexivity].
  - apply rbind_ok in E. destruct E as (gs1 & E1 & E). apply upd_idx_ok in E1. destruct E1 as (x & y & Hx & Hy & ->).
    apply NoDup_cons_iff in Nd. destruct Nd as (Nj & Nd). destruct (IH _ _ Nd E gi) as (A & B). split.
    + intros [<-|Hg].
      * exists x, y. repeat split; try assumption. rewrite B by exact Nj. eapply set_nth_same, Hx.
      * destruct (A Hg) as (g & g' & Eg & Eu & Eg'). exists g, g'. repeat split; try assumption.
        rewrite set_nth_error in Eg. destruct (Nat.eqb_spec j gi) as [->|]; [contradiction|exact Eg].
    + intros Hn. rewrite B by (intro; apply Hn; right; assumption). rewrite set_nth_error.
      destruct (Nat.eqb_spec j gi) as [->|]; [exfalso; apply Hn; left; reflexivity|reflexivity].
Qed.
Lemma collider_nth c dt (geo : list (Geom R)) (g : Grid R) i ge0 : length (gr_mom_nt g) = length (gr_mass g) -> length geo = length (gr_mass g) ->
  (i < length (gr_mass g))%nat ->
  nth i (gr_mom_nt (collider_grid c dt geo g)) vzero = collider_node c dt (nth i (gr_mass g) 0) (nth i (gr_mom_nt g) vzero) (nth i geo ge0).
Proof.
  unfold collider_grid. cbn [set_mom_nt gr_mom_nt]. generalize (gr_mom_nt g) (gr_mass g). intros ms m. revert ms geo i.
  induction m as [|x m IH]; intros [|y ms] [|z geo] i L1 L2 Hi; simpl in *; try lia. destruct i as [|i]; [reflexivity|]. apply IH; lia.
Qed.
(** the whole hook: every heavy node of every listed grid obeys the wall, the others and the other grids keep their momentum *)
Theorem C55_collider : forall (c : Collider R) s w sdfs doms geoms dt (gs gs' : list (Grid R)), cl_sdf c = Some s -> NoDup (cl_gs c) ->
  apply_grid_moments (FCollider c) w sdfs doms geoms dt gs = Ok gs' ->
  forall gi, (~ In gi (cl_gs c) -> nth_error gs' gi = nth_error gs gi) /\
  (In gi (cl_gs c) -> exists g g' gg geo, nth_error gs gi = Some g /\ nth_error gs' gi = Some g' /\ nth_error geoms gi = Some gg /\ nth_error gg s = Some geo /\
    gr_mass g' = gr_mass g /\ gr_mom g' = gr_mom g /\ gr_force g' = gr_force g /\
    (length (gr_mom_nt g) = length (gr_mass g) -> length geo = length (gr_mass g) -> forall i ge, nth_error geo i = Some ge ->
       let mass := nth i (gr_mass g) 0 in let n := gm_normal ge in let wv := gm_vel ge in let mu := cl_friction c * gm_friction ge in
       let v := vel_of mass (nth i (gr_mom_nt g) vzero) in let v' := vel_of mass (nth i (gr_mom_nt g') vzero) in
       cut14 < mass -> 0 <= mu ->
       (0 < gm_dist ge -> nth i (gr_mom_nt g') vzero = nth i (gr_mom_nt g) vzero) /\
       (gm_dist ge <= 0 -> vdot n n = 1 -> 0 <= nspeed v' wv n /\ (0 <= nspeed v wv n -> v' = v) /\
          (exists k, 0 < k <= 1 /\ tang v' wv n = vscale k (tang v wv n)) /\
          vnorm (vsub (tang v' wv n) (tang v wv n)) <= mu * (nspeed v' wv n - nspeed v wv n)))).
Proof.
  intros c s w sdfs doms geoms dt gs gs' Es Nd E gi. cbn [apply_grid_moments] in E. rewrite Es in E.
  apply rbind_ok in E. destruct E as (sl & _ & E). apply rbind_ok in E. destruct E as (ss & _ & E).
  assert (E' : rfold (fun l i => upd_idx l i (fun gr => rbind (oget (nth_error geoms i) KeyError) (fun gg => rbind (oget (nth_error gg s) KeyError) (fun ge =>
                Ok (collider_grid c dt ge gr))))) gs (cl_gs c) = Ok gs').
  { revert E. generalize (cl_gs c). intros l. revert gs. clear. induction l as [|i l IH]; intros gs E; [exact E|]. cbn [rfold] in *.
    apply rbind_ok in E. destruct E as (gs1 & E1 & E). apply rbind_ok in E1. destruct E1 as (d & _ & E1). rewrite E1. cbn [rbind]. apply IH, E. }
  destruct (listed_fold_res _ _ _ _ Nd E' gi) as (A & B). split; [exact B|]. intros Hi. destruct (A Hi) as (g & g' & Eg & Eu & Eg').
  apply rbind_ok in Eu. destruct Eu as (gg & Egg & Eu). apply rbind_ok in Eu. destruct Eu as (geo & Egeo & Eu). injection Eu as <-.
  apply oget_ok in Egg. apply oget_ok in Egeo. exists g, (collider_grid c dt geo g), gg, geo. repeat (split; [assumption|]). repeat (split; [reflexivity|]).
  intros L1 L2 i ge Hge mass n wv mu v v' Hm Hmu.
  assert (Hi' : (i < length (gr_mass g))%nat) by (rewrite <- L2; apply nth_error_Some; congruence).
  assert (En : nth i geo ge = ge) by (apply nth_error_nth with (d := ge) in Hge; exact Hge).
  pose proof (collider_nth c dt geo g i ge L1 L2 Hi') as Ec. rewrite En in Ec. fold mass in Ec.
  destruct (C55_node c dt mass (nth i (gr_mom_nt g) vzero) ge Hm Hmu) as (P & Q). unfold v'. rewrite Ec. split; [exact P|exact Q].
Qed.
Print Assumptions C55_collider.
(** nodes at or below the cutoff lose their momentum even far from the wall *)
Theorem C55_light_node_refuted : forall (c : Collider R) dt mass mom ge, 0 < mass <= cut14 -> mom <> vzero -> 0 < gm_dist ge ->
  collider_node c dt mass mom ge <> mom.
Proof.
  intros c dt mass mom ge Hm Hz Hd E. apply Hz. rewrite <- E. unfold collider_node. change (@numt_num R NumT_R) with Num_R. rewrite cut14_lit.
  unfold collide_node. change (@numt_num R NumT_R) with Num_R. rnum. replace (Rltb cut14 mass) with false by (symmetry; rcase; [lra|reflexivity]).
  replace (Rleb (gm_dist ge) 0) with false by (symmetry; rcase; [lra|reflexivity]). cbn [andb orb].
  apply vcomp_eq; intro a. change (vcomp a (vscale mass (vscale 0 mom)) = vcomp a vzero). rewrite !vcomp_scale, vcomp_zero. ring.
Qed.
Print Assumptions C55_light_node_refuted.
Example C55_light_case : 0 < cut14 <= cut14 /\ V3 1 0 0 <> (vzero : vec3 R).
Proof. split; [unfold cut14; split; [apply Rdiv_lt_0_compat; [lra|apply pow_lt; lra]|lra]|]. intro E. injection E. rnum. lra. Qed.

(** *** C56: the gap *)
Lemma rfold_ext {A B} (f g : A -> B -> res A) : (forall a b, f a b = g a b) -> forall l a, rfold f a l = rfold g a l.
Proof. intros H. induction l as [|x l IH]; intros a; [reflexivity|]. cbn [rfold]. rewrite H. destruct (g a x); [apply IH|reflexivity]. Qed.
Theorem C56_gap_refuted : forall (c : Collider R) gap w sdfs doms geoms dt (gs : list (Grid R)),
  apply_grid_moments (FCollider {| cl_sdf := cl_sdf c; cl_gs := cl_gs c; cl_gap := gap; cl_friction := cl_friction c |}) w sdfs doms geoms dt gs
  = apply_grid_moments (FCollider c) w sdfs doms geoms dt gs.
Proof.
  intros c gap w sdfs doms geoms dt gs.
  assert (N : forall mass mom ge, collider_node {| cl_sdf := cl_sdf c; cl_gs := cl_gs c; cl_gap := gap; cl_friction := cl_friction c |} dt mass mom ge
              = collider_node c dt mass mom ge).
  { intros mass mom ge. unfold collider_node. cbn [cl_gap cl_friction]. f_equal. unfold collide_node. destruct (_ || _)%bool; [|reflexivity].
    unfold apply_frictional_contact. change (@numt_num R NumT_R) with Num_R. rewrite !nmax_R.
    replace (nmul (ndiv (nsub gap (gm_dist ge)) dt) n0) with (nmul (ndiv (nsub (cl_gap c) (gm_dist ge)) dt) n0); [reflexivity|]. rnum. ring. }
  assert (G : forall geo g, collider_grid {| cl_sdf := cl_sdf c; cl_gs := cl_gs c; cl_gap := gap; cl_friction := cl_friction c |} dt geo g = collider_grid c dt geo g).
  { intros geo g. unfold collider_grid. f_equal. apply map_ext. intros x. apply N. }
  cbn [apply_grid_moments cl_sdf cl_gs]. destruct (cl_sdf c) as [s|]; [|reflexivity].
  destruct (idx sdfs s); [|reflexivity]. cbn [rbind]. destruct (idx (w_sdfs w) s); [|reflexivity]. cbn [rbind].
  apply rfold_ext. intros l i. destruct (idx doms i); [|reflexivity]. cbn [rbind]. unfold upd_idx. destruct (idx l i); [|reflexivity]. cbn [rbind].
  destruct (oget (nth_error geoms i) KeyError) as [gg|]; [|reflexivity]. cbn [rbind]. destruct (oget (nth_error gg s) KeyError); [|reflexivity].
  cbn [rbind]. rewrite G. reflexivity.
Qed.
Print Assumptions C56_gap_refuted.

(** *** C57: grid contact inside the solver *)
Theorem C57_contact_refuted : forall {T} {NT : NumT T} (S : Solver T) c, In (FContact c) (so_forces S) -> forall st st', solver_step S st <> Ok st'.
Proof.
  intros T NT S c Hc st st' E. apply step_ok in E. destruct E as (w & ca & w2 & ca2 & ca3 & _ & _ & _ & _ & _ & _ & E3 & _).
  apply integrate_ok in E3. destruct E3 as (gs1 & gs2 & gs3 & _ & _ & E3 & _). revert E3. apply (rfold_in_fails _ (FContact c)); [|exact Hc].
  intro gs. exact I.
Qed.
Print Assumptions C57_contact_refuted.
Definition solverC : Solver R :=
  {| so_scheme := USL; so_alpha := 1/2; so_domains := so_domains solverG; so_couplings := so_couplings solverG; so_laws := so_laws solverG;
     so_forces := [FContact {| gc_actor := 0; gc_receiver := 1; gc_friction := 0; gc_reaction := true; gc_rigid := false; gc_limit := 2 |}];
     so_sdfs := []; so_sharp := 1 |}.
Example C57_case : solver_step solverC stateG = Err TypeError.
Proof. reflexivity. Qed.

(** *** C58: contact between two nodes *)
Definition reg12 : R := 1 / 10 ^ 12.
Definition contact_vn (pr : vec3 R) mr (pa : vec3 R) ma (n : vec3 R) : R := nspeed (vdivs pr (mr + reg12)) (vdivs pa (ma + reg12)) n.
Lemma reg12_lit : lit 1 (10 ^ 12) = reg12 :> R.
Proof. unfold reg12. rnum. replace (10 ^ 12)%Z with 1000000000000%Z by reflexivity. replace (10 ^ 12) with 1000000000000 by ring. reflexivity. Qed.
Lemma reg12_pos : 0 < reg12.
Proof. unfold reg12. apply Rdiv_lt_0_compat; [lra|apply pow_lt; lra]. Qed.
(** only penetrating nodes (distance at most 1e-6, approaching) change; the pair's momentum changes by 1e-12 times velocities;
    the receiver's normal velocity becomes that of the actor before, and nothing approaches afterwards *)
Theorem C58_node_contact : forall (pr : vec3 R) mr pa ma n dist, 0 < mr -> 0 < ma -> vdot n n = 1 ->
  let out := solve_node_collision false pr mr pa ma n dist in let vr := vdivs pr (mr + reg12) in let va := vdivs pa (ma + reg12) in
  let vn := contact_vn pr mr pa ma n in
  (1 / 10 ^ 6 < dist \/ 0 <= vn -> out = (pr, pa)) /\
  (dist <= 1 / 10 ^ 6 -> vn < 0 ->
     vsub (vadd (fst out) (snd out)) (vadd pr pa) = vscale (- reg12) (vadd (vadd vr va) (vscale (mr / (ma + reg12) * vn) n)) /\
     0 <= nspeed (vdivs (fst out) mr) (vdivs (snd out) ma) n /\
     tang (vdivs (fst out) mr) vzero n = tang vr vzero n /\ tang (vdivs (snd out) ma) vzero n = tang va vzero n).
Proof.
  intros pr mr pa ma n dist Hr Ha Hn out vr va vn. pose proof reg12_pos as Hp. unfold out, solve_node_collision. change (@numt_num R NumT_R) with Num_R.
  rewrite reg12_lit. assert (L6 : lit 1 (10 ^ 6) = 1 / 10 ^ 6 :> R).
  { rnum. replace (10 ^ 6)%Z with 1000000%Z by reflexivity. replace (10 ^ 6) with 1000000 by ring. reflexivity. }
  rewrite L6.
  change (nleb dist (1 / 10 ^ 6)) with (Rleb dist (1 / 10 ^ 6)). change (nadd mr reg12) with (mr + reg12). change (nadd ma reg12) with (ma + reg12). fold vr va.
  change (vdot (vsub vr va) n) with vn. change (nltb vn n0) with (Rltb vn 0). split.
  - intros [Hd|Hv].
    + replace (Rleb dist (1 / 10 ^ 6)) with false by (symmetry; rcase; [lra|reflexivity]). reflexivity.
    + destruct (Rleb _ _); [|reflexivity]. replace (Rltb vn 0) with false by (symmetry; rcase; [lra|reflexivity]). reflexivity.
  - intros Hd Hv. replace (Rleb dist (1 / 10 ^ 6)) with true by (symmetry; rcase; [reflexivity|lra]).
    replace (Rltb vn 0) with true by (symmetry; rcase; [reflexivity|lra]). cbn [fst snd].
    change (ndiv mr (ma + reg12)) with (mr / (ma + reg12)).
    set (q := mr / (ma + reg12)). assert (Q : 0 < q) by (apply Rdiv_lt_0_compat; lra).
    assert (U : forall m (u : vec3 R), 0 < m -> vdivs (vscale m u) m = u) by (intros m u H; apply vcomp_eq; intro a; rewrite vcomp_divs, vcomp_scale; field; lra).
    rewrite (U mr _ Hr), (U ma _ Ha). split; [|split; [|split]].
    + apply vcomp_eq; intro a. rewrite vcomp_sub, !vcomp_add, !vcomp_scale, !vcomp_sub, !vcomp_add, !vcomp_scale. unfold vr, va, q. rewrite !vcomp_divs.
      field. lra.
    + unfold nspeed. rewrite !vdot_sub_l, vdot_add_l, !vdot_scale_l, Hn.
      replace (vdot vr n - vn * 1 - (vdot va n + q * (vn * 1))) with (- (q * vn)) by (unfold vn, contact_vn, nspeed; rewrite vdot_sub_l; fold vr va; ring). nra.
    + unfold tang, nspeed. rewrite !vdot_sub_l, !vdot_scale_l, Hn. apply vcomp_eq; intro a. rewrite !vcomp_sub, !vcomp_scale, !vcomp_zero. ring.
    + unfold tang, nspeed. rewrite !vdot_sub_l, !vdot_add_l, !vdot_scale_l, Hn. apply vcomp_eq; intro a. rewrite !vcomp_sub, !vcomp_add, !vcomp_scale, !vcomp_zero. ring.
Qed.
Print Assumptions C58_node_contact.
Example C58_case : 0 < 3 /\ 0 < 1 /\ vdot (V3 1 0 0) (V3 1 0 0 : vec3 R) = 1 /\ 0 <= 1 / 10 ^ 6 /\ contact_vn (V3 (-3) 0 0) 3 vzero 1 (V3 1 0 0) < 0.
Proof.
  pose proof reg12_pos as P. repeat split; try lra.
  - unfold vdot; simpl; rnum; ring.
  - unfold contact_vn, nspeed, vdot, vsub, vdivs, vmap2, vmap, vzero; simpl; rnum.
    replace ((-3 / (3 + reg12) - 0 / (1 + reg12)) * 1 + (0 / (3 + reg12) - 0 / (1 + reg12)) * 0 + (0 / (3 + reg12) - 0 / (1 + reg12)) * 0)
      with (- (3 / (3 + reg12))) by (field; lra).
    assert (0 < 3 / (3 + reg12)) by (apply Rdiv_lt_0_compat; lra). lra.
Qed.
