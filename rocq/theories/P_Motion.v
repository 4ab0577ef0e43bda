(** Property theorems for motion as a whole: the deformation gradient (C97) and observers in uniform motion (C98). *)
From Coq Require Import List Arith ZArith Reals Bool Lra Lia.
From Verif Require Import Num NumR Linalg Arrays ModelGrid ModelShape ModelMath ModelState ModelLaws ModelForces ModelSolver
  Sums ShapeFacts SpecShape ShapeProofs ShapeProofs2 ShapeProofs3 P_Shape MappingProofs ResFacts SolverFacts SpecSolver
  TransferProofs TransferProofs2 StepProofs GatherProofs MomentumProofs AffineProofs StepAffine HeavyProofs SolverMore PlaneProofs ShiftProofs
  ForceProofs ProgressProofs ExSolver P_Solver P_Solver2 P_Forces DeformProofs GalileanProofs.
Import ListNotations.
Local Open Scope R_scope.

(** *** C97: F after a step is (I - dt L) F with the L the step stores, on 3-D and 2-D grids, for both solvers *)
Theorem C97_step_partial : forall (S : Solver R) st st', solver_step S st = Ok st' -> NoDup (map c_p (active S)) -> no_reset S ->
  forall c gd s, In c (so_couplings S) -> c_skip c = false -> nth_error (so_domains S) (c_g c) = Some gd ->
  nth_error (w_mps (s_world st)) (c_p c) = Some (Soft s) ->
  Forall2 (fun p q => deforms (gd_dim gd) (s_dt st) p q /\ stores (so_scheme S) (sb_storeF s) (s_dt st) p q)
    (pts_at (s_world st) (c_p c)) (pts_at (s_world st') (c_p c)).
Proof. exact step_deforms. Qed.
Print Assumptions C97_step_partial.
(** over a run of any length F is the ordered product of the increments *)
Theorem C97_run_space_partial : forall (S : Solver R) n, NoDup (map c_p (active S)) -> no_reset S -> forall st st' c gd s j, solver_steps S n st = Ok st' ->
  In c (so_couplings S) -> c_skip c = false -> nth_error (so_domains S) (c_g c) = Some gd -> gd_dim gd = D3 ->
  nth_error (w_mps (s_world st)) (c_p c) = Some (Soft s) -> (j < length (sb_pts s))%nat ->
  pt_F (point_at st' (c_p c) j) = total_F (s_dt st) (c_p c) j (history S n st) (pt_F (point_at st (c_p c) j)).
Proof. exact run_deforms3. Qed.
Print Assumptions C97_run_space_partial.
Theorem C97_run_plane_partial : forall (S : Solver R) n, NoDup (map c_p (active S)) -> no_reset S -> planar_domains S ->
  forall st st' c gd s j, solver_steps S n st = Ok st' -> every plane_strain1 (s_world st) ->
  In c (so_couplings S) -> c_skip c = false -> nth_error (so_domains S) (c_g c) = Some gd ->
  nth_error (w_mps (s_world st)) (c_p c) = Some (Soft s) -> (j < length (sb_pts s))%nat ->
  pt_F (point_at st' (c_p c) j) = total_F (s_dt st) (c_p c) j (history S n st) (pt_F (point_at st (c_p c) j)).
Proof. exact run_deforms2. Qed.
Print Assumptions C97_run_plane_partial.
(** the USL solver never updates a stored deformation gradient *)
Theorem C97_usl_store_refuted : forall (S : Solver R) st st', solver_step S st = Ok st' -> NoDup (map c_p (active S)) -> no_reset S -> so_scheme S = USL ->
  forall c gd s, In c (so_couplings S) -> c_skip c = false -> nth_error (so_domains S) (c_g c) = Some gd ->
  nth_error (w_mps (s_world st)) (c_p c) = Some (Soft s) -> sb_storeF s = true ->
  Forall2 (fun p q => pt_Fst q = pt_Fst p /\
      (mmul (increment (s_dt st) (pt_L q)) (pt_Fst p) <> pt_Fst p -> pt_Fst q <> mmul (increment (s_dt st) (pt_L q)) (pt_Fst p)))
    (pts_at (s_world st) (c_p c)) (pts_at (s_world st') (c_p c)).
Proof.
  intros S st st' E Nd NR Sch c gd s Hc Hs Egd Es Sf. pose proof (step_deforms S st st' E Nd NR c gd s Hc Hs Egd Es) as F. revert F. apply Forall2_weaken.
  intros p q (_ & St). unfold stores in St. rewrite Sch in St. split; [exact St|]. rewrite St. congruence.
Qed.
Print Assumptions C97_usl_store_refuted.
(** a body asked to store its deformation gradient starts with the one it is created with *)
Theorem C97_store_starts : forall (a : CreateArgs R) b p, mp_create a = Ok b -> In p (sb_pts b) -> sb_storeF b = ca_storeF a /\ pt_Fst p = pt_F p.
Proof.
  intros a b p. unfold mp_create. cbv zeta. destruct (_ && _)%bool; [|discriminate]. intros E I. injection E as <-. cbn [sb_pts sb_storeF] in *.
  apply in_map_iff in I. destruct I as (i & <- & _). split; reflexivity.
Qed.
Print Assumptions C97_store_starts.
Example C97_case : let S := solverR USL 1 2 in let st := stateR twoR mzero (1/10) in
  NoDup (map c_p (active S)) /\ no_reset S /\ planar_domains S /\ every plane_strain1 (s_world st) /\ (exists st', solver_steps S 2 st = Ok st') /\
  exists gd s, In (cpl 0) (so_couplings S) /\ c_skip (cpl 0) = false /\ nth_error (so_domains S) (c_g (cpl 0)) = Some gd /\
    nth_error (w_mps (s_world st)) (c_p (cpl 0)) = Some (Soft s) /\ (0 < length (sb_pts s))%nat.
Proof.
  intros S st. destruct C24_case as (A & B & C & D). split; [apply ex_nodup|]. split; [exact B|]. split; [exact A|]. split; [exact C|]. split; [exact D|].
  eexists. eexists. split; [left; reflexivity|]. repeat split. simpl. lia.
Qed.
(** a body that stores F, on a 3-D grid *)
Definition body3 : SoftBody R := {| sb_dim := D3; sb_pts := [pt (V3 1 (5/4) 1) va sg meye; pt (V3 (5/4) 1 1) vb sg meye]; sb_storeF := true; sb_vol0d := false |}.
Definition solver3 : Solver R :=
  {| so_scheme := USL; so_alpha := 1/2; so_domains := [g3]; so_couplings := [cpl 0]; so_laws := [Some lawR]; so_forces := []; so_sdfs := []; so_sharp := 1 |}.
Definition state3 : SimState R := stateR [Soft body3] mzero (1/10).
Example C97_case_space : NoDup (map c_p (active solver3)) /\ no_reset solver3 /\ so_scheme solver3 = USL /\ sb_storeF body3 = true /\ gd_dim g3 = D3 /\
  In (cpl 0) (so_couplings solver3) /\ nth_error (so_domains solver3) (c_g (cpl 0)) = Some g3 /\
  nth_error (w_mps (s_world state3)) (c_p (cpl 0)) = Some (Soft body3) /\ exists st', solver_steps solver3 2 state3 = Ok st'.
Proof.
  split; [repeat constructor; intros []|]. split; [intros l [E|[]]; injection E as <-; reflexivity|]. repeat (split; [first [reflexivity|left; reflexivity]|]).
  assert (X : exists r, solver_step solver3 state3 = Ok r) by (eexists; reflexivity). destruct X as (r & E).
  apply (steps_progress _ _ r 2 E). intros c s [<-|[]] _ Hs. injection Hs as <-. discriminate.
Qed.

(** *** C98: a step seen from a frame moving at constant velocity *)
Theorem C98_galilean : forall (S : Solver R) st st0 w ca w2 ca2 ca3 v, prepare S st = Ok (w, ca) -> p2g S w (s_mech st) ca = Ok (w2, ca2) ->
  integrate_grid S w2 (s_mech st) (s_dt st) ca2 = Ok ca3 -> solver_step S st = Ok st0 ->
  inside S (s_world st) -> NoDup (map c_p (active S)) -> only_gravity (so_forces S) -> 0 <= cut_of S ->
  (forall gd, In gd (so_domains S) -> vtrunc (gd_dim gd) v = v) ->
  (forall gi g c, nth_error (sc_grids ca3) gi = Some g -> In c (active_on S gi) -> heavy S (s_world st) g c) ->
  exists st1, solver_step S (boost_state v st) = Ok st1 /\
  Forall2 same_body (w_mps (s_world st1)) (w_mps (s_world st0)) /\ m_laws (s_mech st1) = m_laws (s_mech st0) /\
  m_solvers (s_mech st1) = m_solvers (s_mech st0) /\
  forall c gd, In c (so_couplings S) -> c_skip c = false -> nth_error (so_domains S) (c_g c) = Some gd ->
    Forall2 (shifted (so_scheme S) (gd_cell gd) (s_dt st) v) (pts_at (s_world st1) (c_p c)) (pts_at (s_world st0) (c_p c)).
Proof. exact galilean_step. Qed.
Print Assumptions C98_galilean.
Example C98_case : exists st0 w ca w2 ca2 ca3, prepare solverG stateG = Ok (w, ca) /\ p2g solverG w (s_mech stateG) ca = Ok (w2, ca2) /\
  integrate_grid solverG w2 (s_mech stateG) (s_dt stateG) ca2 = Ok ca3 /\ solver_step solverG stateG = Ok st0 /\
  inside solverG (s_world stateG) /\ NoDup (map c_p (active solverG)) /\ only_gravity (so_forces solverG) /\ 0 <= cut_of solverG /\
  (forall gd, In gd (so_domains solverG) -> vtrunc (gd_dim gd) (V3 3 (-2) 0) = V3 3 (-2) 0) /\
  (forall gi g c, nth_error (sc_grids ca3) gi = Some g -> In c (active_on solverG gi) -> heavy solverG (s_world stateG) g c).
Proof.
  destruct C52_case as (st1 & st0 & w & ca & w2 & ca2 & ca3 & A1 & A2 & A3 & A4 & A5 & A6 & A7 & A8 & A9 & A10 & _).
  exists st1, w, ca, w2, ca2, ca3. repeat (split; [assumption|]). split; [|exact A10]. intros gd [<-|[]]. reflexivity.
Qed.
