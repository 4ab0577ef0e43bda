(** Property theorems C125: volume and stored deformation gradient over steps and runs whose laws may reset F. *)
From Coq Require Import List Arith ZArith Reals Bool Lra Lia.
From Verif Require Import Num NumR Linalg Arrays ModelGrid ModelShape ModelMath ModelState ModelLaws ModelForces ModelSolver
  Sums ShapeFacts SpecShape ShapeProofs ShapeProofs2 ShapeProofs3 P_Shape MappingProofs ResFacts SolverFacts SpecSolver
  TransferProofs TransferProofs2 StepProofs GatherProofs MomentumProofs AffineProofs StepAffine HeavyProofs SolverMore PlaneProofs ShiftProofs
  ForceProofs ProgressProofs ExSolver P_Solver P_Solver2 P_Forces DeformProofs GalileanProofs P_Motion LawApplyProofs VolumeProofs.
Import ListNotations.
Local Open Scope R_scope.

(** one step: the point's gradient becomes G = (I - dt L) F, its volume det G vol0; a resetting law then replaces F by the
    multiple of the identity with the same (in 2-D: in-plane) determinant and, when a gradient is stored, overwrites it with G *)
Theorem C125_step : forall (S : Solver R) st st', solver_step S st = Ok st' -> NoDup (map c_p (active S)) ->
  forall c gd s, In c (so_couplings S) -> c_skip c = false -> nth_error (so_domains S) (c_g c) = Some gd ->
  nth_error (w_mps (s_world st)) (c_p c) = Some (Soft s) ->
  exists ci l, c_c c = Some ci /\ nth_error (so_laws S) ci = Some (Some l) /\
  Forall2 (resets (gd_dim gd) (law_reset l) (so_scheme S) (sb_storeF s) (s_dt st)) (pts_at (s_world st) (c_p c)) (pts_at (s_world st') (c_p c)).
Proof. exact step_resets. Qed.
Print Assumptions C125_step.
(** over a run the volume is the initial one times the product of det (I - dt L), whichever laws reset F *)
Theorem C125_volume_space : forall (S : Solver R) n st st' c gd s j, NoDup (map c_p (active S)) -> solver_steps S n st = Ok st' ->
  In c (so_couplings S) -> c_skip c = false -> nth_error (so_domains S) (c_g c) = Some gd -> gd_dim gd = D3 ->
  nth_error (w_mps (s_world st)) (c_p c) = Some (Soft s) -> (j < length (sb_pts s))%nat -> (0 < n)%nat ->
  pt_vol (point_at st' (c_p c) j)
  = total_J (s_dt st) (c_p c) j (history S n st) (mdet (pt_F (point_at st (c_p c) j))) * pt_vol0 (point_at st (c_p c) j).
Proof.
  intros S n st st' c gd s j Nd E Hc Hs Egd D Es Hj Hn. destruct (run_volume S Nd n st st' c gd s j E Hc Hs Egd Es Hj) as (A & B & C); [congruence|].
  rewrite (C Hn), A, B, D. reflexivity.
Qed.
Print Assumptions C125_volume_space.
Theorem C125_volume_plane : forall (S : Solver R) n st st' c gd s j, NoDup (map c_p (active S)) -> solver_steps S n st = Ok st' -> planar_domains S ->
  In c (so_couplings S) -> c_skip c = false -> nth_error (so_domains S) (c_g c) = Some gd ->
  nth_error (w_mps (s_world st)) (c_p c) = Some (Soft s) -> (j < length (sb_pts s))%nat -> (0 < n)%nat ->
  every plane_strain (s_world st) -> 0 <= vol_ratio D2 (pt_F (point_at st (c_p c) j)) ->
  Forall (fun x => 0 <= mdet (increment (s_dt st) (pt_L (point_at x (c_p c) j)))) (history S n st) ->
  pt_vol (point_at st' (c_p c) j)
  = total_J (s_dt st) (c_p c) j (history S n st) (vol_ratio D2 (pt_F (point_at st (c_p c) j))) * pt_vol0 (point_at st (c_p c) j).
Proof.
  intros S n st st' c gd s j Nd E PD Hc Hs Egd Es Hj Hn PS P0 PJ. assert (D : gd_dim gd = D2) by (apply PD; eapply nth_error_In, Egd).
  destruct (run_volume S Nd n st st' c gd s j E Hc Hs Egd Es Hj) as (A & B & C); [auto|].
  rewrite (C Hn), A, B, D. reflexivity.
Qed.
Print Assumptions C125_volume_plane.
Definition solver3r : Solver R :=
  {| so_scheme := USL; so_alpha := 1/2; so_domains := [g3]; so_couplings := [cpl 0]; so_laws := [Some lawReset]; so_forces := []; so_sdfs := []; so_sharp := 1 |}.
Example C125_case : NoDup (map c_p (active solver3r)) /\ law_reset lawReset = true /\ sb_storeF body3 = true /\ gd_dim g3 = D3 /\
  In (cpl 0) (so_couplings solver3r) /\ nth_error (so_domains solver3r) (c_g (cpl 0)) = Some g3 /\
  nth_error (w_mps (s_world state3)) (c_p (cpl 0)) = Some (Soft body3) /\ exists st', solver_steps solver3r 2 state3 = Ok st'.
Proof.
  split; [repeat constructor; intros []|]. repeat (split; [first [reflexivity|left; reflexivity]|]).
  assert (X : exists r, solver_step solver3r state3 = Ok r) by (eexists; reflexivity). destruct X as (r & E).
  apply (steps_progress _ _ r 2 E). intros c s [<-|[]] _ Hs. injection Hs as <-. discriminate.
Qed.

(** the stored gradient under a resetting law: it is overwritten, so it is the accumulated one only if it agreed with the reset F *)
Lemma mmul_inj (A B C : mat3 R) : mdet A <> 0 -> mmul A B = mmul A C -> B = C.
Proof.
  intros D E. assert (X : forall v w : vec3 R, mvmul A v = mvmul A w -> v = w).
  { intros [x y z] [u v w] H. destruct A as [a b c d e f g h i]. unfold mvmul, mdet in *; simpl in *; rnum. injection H as H1 H2 H3.
    assert (P : (a * (e * i - f * h) - b * (d * i - f * g) + c * (d * h - e * g)) * (x - u) = 0).
    { replace ((a * (e * i - f * h) - b * (d * i - f * g) + c * (d * h - e * g)) * (x - u))
        with ((e * i - f * h) * ((a * x + b * y + c * z) - (a * u + b * v + c * w)) - (b * i - c * h) * ((d * x + e * y + f * z) - (d * u + e * v + f * w))
          + (b * f - c * e) * ((g * x + h * y + i * z) - (g * u + h * v + i * w))) by ring. rewrite H1, H2, H3. ring. }
    assert (Q : (a * (e * i - f * h) - b * (d * i - f * g) + c * (d * h - e * g)) * (y - v) = 0).
    { replace ((a * (e * i - f * h) - b * (d * i - f * g) + c * (d * h - e * g)) * (y - v))
        with (- (d * i - f * g) * ((a * x + b * y + c * z) - (a * u + b * v + c * w)) + (a * i - c * g) * ((d * x + e * y + f * z) - (d * u + e * v + f * w))
          - (a * f - c * d) * ((g * x + h * y + i * z) - (g * u + h * v + i * w))) by ring. rewrite H1, H2, H3. ring. }
    assert (K : (a * (e * i - f * h) - b * (d * i - f * g) + c * (d * h - e * g)) * (z - w) = 0).
    { replace ((a * (e * i - f * h) - b * (d * i - f * g) + c * (d * h - e * g)) * (z - w))
        with ((d * h - e * g) * ((a * x + b * y + c * z) - (a * u + b * v + c * w)) - (a * h - b * g) * ((d * x + e * y + f * z) - (d * u + e * v + f * w))
          + (a * e - b * d) * ((g * x + h * y + i * z) - (g * u + h * v + i * w))) by ring. rewrite H1, H2, H3. ring. }
    apply Rmult_integral in P. apply Rmult_integral in Q. apply Rmult_integral in K. f_equal; (destruct P, Q, K; try contradiction; lra). }
  destruct A as [a b c d e f g h i], B as [b0 b1 b2 b3 b4 b5 b6 b7 b8], C as [c0 c1 c2 c3 c4 c5 c6 c7 c8]. injection E as E0 E1 E2 E3 E4 E5 E6 E7 E8.
  pose proof (X (V3 b0 b3 b6) (V3 c0 c3 c6) (f_equal3 (fun x y z => V3 x y z) E0 E3 E6)) as K0.
  pose proof (X (V3 b1 b4 b7) (V3 c1 c4 c7) (f_equal3 (fun x y z => V3 x y z) E1 E4 E7)) as K1.
  pose proof (X (V3 b2 b5 b8) (V3 c2 c5 c8) (f_equal3 (fun x y z => V3 x y z) E2 E5 E8)) as K2.
  injection K0 as -> -> ->. injection K1 as -> -> ->. injection K2 as -> -> ->. reflexivity.
Qed.
Theorem C125_store_lost_refuted : forall (S : Solver R) st st' c gd s ci l, solver_step S st = Ok st' -> NoDup (map c_p (active S)) ->
  In c (so_couplings S) -> c_skip c = false -> nth_error (so_domains S) (c_g c) = Some gd -> gd_dim gd = D3 ->
  nth_error (w_mps (s_world st)) (c_p c) = Some (Soft s) -> sb_storeF s = true -> c_c c = Some ci -> nth_error (so_laws S) ci = Some (Some l) ->
  law_reset l = true ->
  Forall2 (fun p q => pt_Fst q = mmul (increment (s_dt st) (pt_L q)) (pt_F p) /\
      (pt_vol q <> 0 -> pt_Fst p <> pt_F p -> pt_Fst q <> mmul (increment (s_dt st) (pt_L q)) (pt_Fst p)))
    (pts_at (s_world st) (c_p c)) (pts_at (s_world st') (c_p c)).
Proof.
  intros S st st' c gd s ci l E Nd Hc Hs Egd D Es Sf Ec El Lr. destruct (step_resets S st st' E Nd c gd s Hc Hs Egd Es) as (cj & k & X1 & X2 & F).
  rewrite Ec in X1. injection X1 as <-. rewrite El in X2. injection X2 as <-. revert F. apply Forall2_weaken.
  intros p q (G & M & EF & EV & E0 & ES). rewrite D, Lr, Sf in *. cbn [moved_F] in M. subst G. split; [exact ES|].
  intros Vn Ne Eq. apply Ne. symmetry. rewrite ES in Eq. apply mmul_inj in Eq; [exact Eq|]. intro Z. apply Vn. rewrite EV, det_mul3, Z. ring.
Qed.
Print Assumptions C125_store_lost_refuted.

(** *** a witness: two sheared points in uniform translation, whose stored gradient is replaced by the identity *)
Definition K1 : mat3 R := M3 1 1 0 0 1 0 0 0 1.
Definition ptK (x : vec3 R) : Particle R :=
  {| pt_pos := x; pt_vel := v0; pt_mass := 1; pt_force := vzero; pt_vol := 1; pt_vol0 := 1; pt_L := mzero; pt_stress := mzero; pt_F := meye; pt_Fst := K1 |}.
Definition bodyK : SoftBody R := {| sb_dim := D2; sb_pts := [ptK xa; ptK xb]; sb_storeF := true; sb_vol0d := false |}.
Definition solverK : Solver R :=
  {| so_scheme := ASFLIP aflipR; so_alpha := 1/2; so_domains := [g2]; so_couplings := [cpl 0]; so_laws := [Some lawReset]; so_forces := []; so_sdfs := []; so_sharp := 1 |}.
Definition stateK : SimState R := stateR [Soft bodyK] mzero (1/10).
Theorem C125_store_refuted : exists st', solver_step solverK stateK = Ok st' /\
  Forall2 (fun p q => pt_L q = mzero /\ pt_Fst p = K1 /\ mmul (increment (s_dt stateK) (pt_L q)) (pt_Fst p) = K1 /\ pt_Fst q = meye /\ meye <> K1)
    (pts_at (s_world stateK) 0) (pts_at (s_world st') 0).
Proof.
  assert (X : exists st', solver_step solverK stateK = Ok st') by (eexists; reflexivity). destruct X as (st' & E). exists st'. split; [exact E|].
  destruct (ex_phases _ _ _ E) as (w & ca & w2 & ca2 & ca3 & E1 & E2 & E3).
  assert (Lg : exists g, nth_error (sc_grids ca3) 0 = Some g).
  { pose proof (proj1 (integrate_same_mm _ _ _ _ _ _ E3)) as F. destruct (p2g_grids _ _ _ _ _ _ E1 E2) as (gs & X & _ & _ & F' & _). subst gs.
    apply Forall2_len in F. apply Forall2_len in F'. simpl in F'. destruct (nth_error (sc_grids ca3) 0) eqn:N; [eauto|]. apply nth_error_None in N. lia. }
  destruct Lg as (g & Eg).
  assert (Hc : forall c, In c (active_on solverK 0) -> c = cpl 0) by (intros c [<-|[]]; reflexivity).
  assert (Pp : forall c p, In c (active_on solverK 0) -> In p (pts_at (s_world stateK) (c_p c)) -> p = ptK xa \/ p = ptK xb).
  { intros c p H Hp. rewrite (Hc c H) in Hp. destruct Hp as [<-|[<-|[]]]; auto. }
  assert (Hin : inside solverK (s_world stateK)).
  { intros c gd [<-|[]] Egd. injection Egd as <-. split; [apply g2_wf|]. intros q [<-|[<-|[]]]; [apply xa_interior|apply xb_interior]. }
  assert (Cut : 0 <= cut_of solverK < 1 / 1024) by (apply (ex_cut (ASFLIP aflipR) 0 0); right; reflexivity).
  assert (Nd : NoDup (map c_p (active solverK))) by (repeat constructor; intros []).
  assert (Hv : heavy solverK (s_world stateK) g (cpl 0)).
  { eapply (heavy_if solverK stateK _ _ _ _ _ E1 E2 E3 Hin 0%nat g g2 Eg eq_refl).
    - intros c p H Hp. destruct (Pp c p H Hp) as [-> | ->]; simpl; lra.
    - left. reflexivity.
    - intros it Hit _. change (In it (compute_on Quadratic g2 [xa; xb])) in Hit. destruct (compute_in_range _ _ _ _ (proj1 g2_wf) Hit) as (_ & Lp & _). apply ex_rows in Hit. simpl in Lp.
      replace (pt_mass _) with 1; [lra|]. destruct (it_point it) as [|[|k]]; [reflexivity|reflexivity|lia]. }
  destruct (step_uniform solverK stateK st' _ _ _ _ _ E1 E2 E3 E Hin Nd eq_refl (proj1 Cut) 0%nat g g2 v0 Eg eq_refl g2_wf) with (c := cpl 0) as (R1 & _).
  - intros c p H Hp. destruct (Pp c p H Hp) as [-> | ->]; repeat split.
  - unfold affine_state. simpl. intros c si Bp Hc' Es En. apply Hc in Hc'. subst c.
    assert (Z : mopp (M3 0 0 0 0 0 0 0 0 0) = (mzero : mat3 R)) by exact mopp_zero.
    simpl in Es; injection Es as <-; simpl in En; injection En as <-; (split; [discriminate|]); intros B [<-|[<-|[]]]; symmetry; exact Z.
  - unfold unlimited. simpl. intros c p Hc' Hp. destruct (slow v0 (1/10) v0_slow eq_refl) as (A & B). destruct (Pp c p Hc' Hp) as [-> | ->]; assumption.
  - left. reflexivity.
  - exact Hv.
  - destruct (step_resets solverK stateK st' E Nd (cpl 0) g2 bodyK (or_introl eq_refl) eq_refl eq_refl eq_refl) as (ci & l & Y1 & Y2 & F).
    injection Y1 as <-. injection Y2 as <-. change (c_p (cpl 0)) with 0%nat in *.
    assert (Pk : Forall (fun p => pt_F p = meye /\ pt_Fst p = K1) (pts_at (s_world stateK) 0)) by (repeat constructor).
    revert R1 F Pk. generalize (pts_at (s_world stateK) 0) (pts_at (s_world st') 0). clear. intros A B R1. induction R1 as [|p q A B H _ IH]; intros F Pk;
      inversion F; inversion Pk; subst; constructor; [|apply IH; assumption].
    destruct H as (_ & _ & HL & _). match goal with H : resets _ _ _ _ _ _ _ |- _ => destruct H as (G & M & _ & _ & _ & ES) end.
    match goal with H : pt_F p = _ /\ _ |- _ => destruct H as (HF & HS) end. cbn in ES.
    assert (I1 : forall M : mat3 R, mmul (increment (s_dt stateK) mzero) M = M).
    { intros [a b c d e f g h i]. unfold increment, mmul, msub, mscale, meye, mzero; simpl; rnum. f_equal; ring. }
    split; [exact HL|]. split; [exact HS|]. split; [rewrite HL, HS; apply I1|]. split; [|intro Z; apply (f_equal m01) in Z; simpl in Z; rnum; lra].
    rewrite ES. cbn [moved_F gd_dim g2] in M. rewrite HL, HF in M. destruct M as (M1 & M2 & _). rewrite I1 in M1. apply mcomp_eq. intros a b.
    destruct (le_lt_dec a 1) as [Ha|Ha]; [destruct (le_lt_dec b 2) as [Hb|Hb]; [apply M1; lia|]|].
    + destruct a as [|[|a]]; try lia; destruct b as [|[|[|b]]]; try lia; apply (M1 _ 2%nat); lia.
    + destruct (le_lt_dec b 1) as [Hb|Hb].
      * destruct a as [|[|a]]; try lia. destruct b as [|[|b]]; try lia; [apply (M1 2%nat 0%nat)|apply (M1 2%nat 1%nat)]; lia.
      * destruct a as [|[|a]]; try lia. destruct b as [|[|b]]; try lia. change (m22 G = 1). exact M2.
Qed.
Print Assumptions C125_store_refuted.
