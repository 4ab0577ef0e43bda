(** The deformation gradient over steps and whole runs (C97). *)
From Coq Require Import List Arith ZArith Reals Bool Lra Lia.
From Verif Require Import Num NumR Linalg Arrays ModelGrid ModelShape ModelMath ModelState ModelLaws ModelForces ModelSolver
  Sums ShapeFacts SpecShape ShapeProofs ShapeProofs2 ShapeProofs3 MappingProofs ResFacts SolverFacts SpecSolver
  TransferProofs TransferProofs2 StepProofs GatherProofs MomentumProofs AffineProofs StepAffine PlaneProofs ShiftProofs.
Import ListNotations.
Local Open Scope R_scope.

(** the increment of a step in which the stored velocity gradient (compression positive) is [L] *)
Definition increment (dt : R) (L : mat3 R) : mat3 R := msub meye (mscale dt L).
(** equal outside the out-of-plane normal entry *)
Definition same_but_22 (A B : mat3 R) : Prop := forall a b, (a <= 2)%nat -> (b <= 2)%nat -> ~ (a = 2%nat /\ b = 2%nat) -> mcomp a b A = mcomp a b B.
Definition deforms (d : Dim) (dt : R) (p q : Particle R) : Prop :=
  match d with
  | D3 => pt_F q = mmul (increment dt (pt_L q)) (pt_F p)
  | D2 => same_but_22 (pt_F q) (mmul (increment dt (pt_L q)) (pt_F p)) /\ m22 (pt_F q) = 1 /\ m22 (pt_L q) = 0
  end.
Lemma deforms_next d dt (p q : Particle R) L : pt_L q = L_plane d L -> pt_F q = F_next d dt (L_plane d L) (pt_F p) -> deforms d dt p q.
Proof.
  intros HL HF. unfold deforms, increment. rewrite HL, HF. unfold F_next. destruct d; [|reflexivity]. split; [|split; reflexivity].
  intros a b Ha Hb N. destruct a as [|[|[|a]]]; try lia; destruct b as [|[|[|b]]]; try lia; reflexivity.
Qed.
Definition stores (sch : Scheme R) (sF : bool) (dt : R) (p q : Particle R) : Prop :=
  pt_Fst q = match sch with ASFLIP _ => if sF then mmul (increment dt (pt_L q)) (pt_Fst p) else pt_Fst p | USL => pt_Fst p end.

Lemma constitutive_F (S : Solver R) dt w m w' m' : no_reset S -> constitutive_update S dt w m = Ok (w', m') ->
  forall p, Forall2 (fun a b => pt_F b = pt_F a /\ pt_Fst b = pt_Fst a /\ pt_L b = pt_L a) (pts_at w p) (pts_at w' p).
Proof.
  intros NR. unfold constitutive_update. intros E.
  refine (rfold_inv (fun wm => forall p, Forall2 (fun a b => pt_F b = pt_F a /\ pt_Fst b = pt_Fst a /\ pt_L b = pt_L a) (pts_at w p) (pts_at (fst wm) p)) _ _ (w, m) (w', m') _ _ E).
  2: { intro p. apply Forall2_refl. auto. }
  intros (w1 & m1) c (w2 & m2) _ I E1 p. cbn [fst] in *. apply constitutive_coupling_ok in E1.
  destruct E1 as [(_ & -> & ->)|(_ & s & ci & l & ls & s1 & ls' & Es & _ & _ & El & Hu & -> & ->)]; [apply I|].
  unfold remove_accumulated_shear. rewrite (NR l) by (eapply nth_error_In; exact El).
  apply law_update_kept in Hu. destruct Hu as (_ & _ & _ & K). specialize (I p). unfold pts_at in *. cbn [set_mps w_mps]. rewrite set_nth_error.
  destruct (Nat.eqb_spec (c_p c) p) as [<-|N]; [|exact I]. rewrite Es in *. cbn [option_map body_pts] in *.
  revert K I. clear. generalize (match nth_error (w_mps w) (c_p c) with Some b => body_pts b | None => [] end) (sb_pts s) (sb_pts s1).
  intros A B C F G. revert C F. induction G as [|x y A B H _ IH]; intros C F; inversion F; subst; constructor.
  - destruct H as (J1 & J2 & J3). match goal with H : law_kept _ _ /\ _ |- _ => destruct H as (K & K1 & K2) end. unfold law_kept in K. intuition congruence.
  - apply IH; assumption.
Qed.

Section Step.
Variables (S : Solver R) (st st' : SimState R).
Hypothesis St : solver_step S st = Ok st'.
Hypothesis Nd : NoDup (map c_p (active S)).
Hypothesis NR : no_reset S.
Lemma step_deforms c gd s : In c (so_couplings S) -> c_skip c = false -> nth_error (so_domains S) (c_g c) = Some gd ->
  nth_error (w_mps (s_world st)) (c_p c) = Some (Soft s) ->
  Forall2 (fun p q => deforms (gd_dim gd) (s_dt st) p q /\ stores (so_scheme S) (sb_storeF s) (s_dt st) p q)
    (pts_at (s_world st) (c_p c)) (pts_at (s_world st') (c_p c)).
Proof.
  intros Hc Hs Egd Eb. apply step_ok in St. destruct St as (w & ca & w2 & ca2 & ca3 & w3 & m3 & w4 & m4 & E1 & E2 & E3 & E4 & E5 & ->). cbn [s_world].
  pose proof (unforced_pts _ _ _ _ _ _ E1 E2 (c_p c)) as U. pose proof (constitutive_F _ _ _ _ _ _ NR E5 (c_p c)) as K.
  destruct (g2p_once _ _ _ _ _ _ _ E4 Nd c Hc Hs) as (s2 & it & g & m1 & m2 & qs & Eg & Eit & Es & Res & Eq).
  destruct (g2p_inputs _ _ _ _ _ _ _ _ _ _ _ _ _ E1 E2 E3 Eg Eit) as (k & gd' & xs & Egd' & Dg & Er). rewrite Egd in Egd'. injection Egd' as <-.
  assert (Sf : sb_storeF s2 = sb_storeF s).
  { apply prepare_ok in E1. destruct E1 as (R1 & _). specialize (R1 (c_p c)). rewrite Eb in R1. cbn [option_map] in R1.
    apply p2g_ok in E2. destruct E2 as (gs & E2 & _). apply pre_p2g_fold_ok in E2. destruct E2 as (_ & F).
    destruct (Forall2_nth_error _ _ _ _ _ F Es) as (b & Hb & Sb). rewrite R1 in Hb. injection Hb as <-.
    destruct (coupled (so_couplings S) (c_p c)); simpl in Sb; intuition congruence. }
  assert (Q : Forall2 (fun p q => deforms (gd_dim gd) (s_dt st) p q /\ stores (so_scheme S) (sb_storeF s) (s_dt st) p q) (sb_pts s2) qs).
  { unfold g2p_result in Res. unfold stores. destruct (so_scheme S) as [|a].
    - destruct Res as (_ & geos & _ & -> & _). apply nth_Forall2 with (d := pt0) (e := pt0); [rewrite g2p_usl_length; reflexivity|].
      intros n Hn. rewrite Er, g2p_usl_nth by (try apply masks_rows; exact Hn). split; [|reflexivity].
      rewrite <- Dg. eapply deforms_next; reflexivity.
    - destruct Res as (_ & gd' & B & _ & _ & -> & _). apply nth_Forall2 with (d := pt0) (e := pt0); [rewrite g2p_aflip_length; reflexivity|].
      intros n Hn. rewrite g2p_aflip_nth by exact Hn. rewrite Sf. split; [rewrite <- Dg; eapply deforms_next; reflexivity|].
      unfold aflip_update, g2p_point, increment. cbn [pt_Fst pt_L]. reflexivity. }
  unfold pts_at at 2 in U. rewrite Es in U. unfold pts_at at 1 in K. rewrite Eq in K. cbn [body_pts after_g2p sb_pts] in *.
  revert U K Q. generalize (pts_at (s_world st) (c_p c)) (pts_at w4 (c_p c)) (sb_pts s2). clear. intros A D B U. revert D qs.
  induction U as [|x y A B Hxy _ IH]; intros D qs K Q; inversion Q; subst; inversion K; subst; constructor; [|eapply IH; eassumption].
  match goal with H : pt_F ?d = _ /\ _ |- _ => destruct H as (F1 & F2 & F3) end.
  match goal with H : deforms _ _ _ _ /\ _ |- _ => destruct H as (G1 & G2) end.
  destruct Hxy as (_ & _ & _ & _ & _ & _ & HF & HFs). unfold deforms, stores in *. rewrite F1, F2, F3, <- HF, <- HFs. split; assumption.
Qed.
End Step.

(** every state a run passes through, the start excluded *)
Fixpoint history (S : Solver R) (n : nat) (st : SimState R) : list (SimState R) :=
  match n with O => [] | Datatypes.S k => match solver_step S st with Ok s => s :: history S k s | Err _ => [] end end.
Definition point_at (st : SimState R) (b j : nat) : Particle R := nth j (pts_at (s_world st) b) pt0.
Definition total_F (dt : R) (b j : nat) (h : list (SimState R)) (F : mat3 R) : mat3 R :=
  fold_left (fun F s => mmul (increment dt (pt_L (point_at s b j))) F) h F.
Lemma step_dt (S : Solver R) st st' : solver_step S st = Ok st' -> s_dt st' = s_dt st.
Proof. intros E. apply step_ok in E. destruct E as (? & ? & ? & ? & ? & ? & ? & ? & ? & _ & _ & _ & _ & _ & ->). reflexivity. Qed.
Lemma steps_soft (S : Solver R) st st' b s : solver_step S st = Ok st' -> nth_error (w_mps (s_world st)) b = Some (Soft s) ->
  exists s', nth_error (w_mps (s_world st')) b = Some (Soft s') /\ length (sb_pts s') = length (sb_pts s) /\ sb_storeF s' = sb_storeF s.
Proof.
  intros E Es. pose proof (step_kept _ _ _ E) as K. destruct (Forall2_nth_error_l _ _ _ _ _ K Es) as (b' & Eb & Kb).
  destruct b' as [s'|r]; [|contradiction]. exists s'. split; [exact Eb|]. destruct Kb as (_ & A & F). apply Forall2_len in F. split; congruence.
Qed.
Lemma Forall2_at {A B} (P : A -> B -> Prop) l m j d e : Forall2 P l m -> (j < length l)%nat -> P (nth j l d) (nth j m e).
Proof. intros F. revert j. induction F as [|x y l m H _ IH]; intros [|j] Hj; simpl in *; try lia; [exact H|apply IH; lia]. Qed.
Lemma run_deforms3 S n : NoDup (map c_p (active S)) -> no_reset S -> forall st st' c gd s j, solver_steps S n st = Ok st' ->
  In c (so_couplings S) -> c_skip c = false -> nth_error (so_domains S) (c_g c) = Some gd -> gd_dim gd = D3 ->
  nth_error (w_mps (s_world st)) (c_p c) = Some (Soft s) -> (j < length (sb_pts s))%nat ->
  pt_F (point_at st' (c_p c) j) = total_F (s_dt st) (c_p c) j (history S n st) (pt_F (point_at st (c_p c) j)).
Proof.
  intros Nd NR. induction n as [|n IH]; intros st st' c gd s j E Hc Hs Egd D Es Hj; cbn [solver_steps history] in *.
  - injection E as <-. reflexivity.
  - apply rbind_ok in E. destruct E as (s1 & E1 & E). rewrite E1. unfold total_F. cbn [fold_left].
    destruct (steps_soft _ _ _ _ _ E1 Es) as (s' & Es' & L & _).
    rewrite (IH s1 st' c gd s' j E Hc Hs Egd D Es' ltac:(lia)). rewrite (step_dt _ _ _ E1). unfold total_F. f_equal.
    pose proof (step_deforms S st s1 E1 Nd NR c gd s Hc Hs Egd Es) as F.
    assert (Hj' : (j < length (pts_at (s_world st) (c_p c)))%nat) by (unfold pts_at; rewrite Es; exact Hj).
    destruct (Forall2_at _ _ _ j pt0 pt0 F Hj') as (De & _). unfold deforms in De. rewrite D in De. exact De.
Qed.
Lemma planar_22 dt L F (G : mat3 R) : flat L -> planar F -> m22 F = 1 -> same_but_22 G (mmul (increment dt L) F) -> m22 G = 1 -> G = mmul (increment dt L) F.
Proof.
  intros ((L1 & L2 & L3 & L4) & L5) (F1 & F2 & F3 & F4) F5 H G5. apply mcomp_eq. intros a b. 
  assert (C : m22 (mmul (increment dt L) F) = 1).
  { destruct L, F; simpl in *. subst. unfold increment; simpl. rnum. ring. }
  destruct (le_lt_dec a 1) as [A|A]; [destruct (le_lt_dec b 2) as [B|B]; [apply H; lia|]|].
  - destruct a as [|[|a]]; try lia; destruct b as [|[|[|b]]]; try lia; apply (H _ 2%nat); lia.
  - destruct (le_lt_dec b 1) as [B|B].
    + destruct a as [|[|a]]; try lia. destruct b as [|[|b]]; try lia; [apply (H 2%nat 0%nat)|apply (H 2%nat 1%nat)]; lia.
    + destruct a as [|[|a]]; try lia. destruct b as [|[|b]]; try lia. change (m22 G = m22 (mmul (increment dt L) F)). congruence.
Qed.
Lemma run_deforms2 S n : NoDup (map c_p (active S)) -> no_reset S -> planar_domains S -> forall st st' c gd s j, solver_steps S n st = Ok st' ->
  every plane_strain1 (s_world st) ->
  In c (so_couplings S) -> c_skip c = false -> nth_error (so_domains S) (c_g c) = Some gd ->
  nth_error (w_mps (s_world st)) (c_p c) = Some (Soft s) -> (j < length (sb_pts s))%nat ->
  pt_F (point_at st' (c_p c) j) = total_F (s_dt st) (c_p c) j (history S n st) (pt_F (point_at st (c_p c) j)).
Proof.
  intros Nd NR PD. induction n as [|n IH]; intros st st' c gd s j E PS Hc Hs Egd Es Hj; cbn [solver_steps history] in *.
  - injection E as <-. reflexivity.
  - apply rbind_ok in E. destruct E as (s1 & E1 & E). rewrite E1. unfold total_F. cbn [fold_left].
    destruct (steps_soft _ _ _ _ _ E1 Es) as (s' & Es' & L & _).
    assert (PS1 : every plane_strain1 (s_world s1)) by (eapply step_plane1; eassumption).
    rewrite (IH s1 st' c gd s' j E PS1 Hc Hs Egd Es' ltac:(lia)). rewrite (step_dt _ _ _ E1). unfold total_F. f_equal.
    pose proof (step_deforms S st s1 E1 Nd NR c gd s Hc Hs Egd Es) as F.
    assert (Hj' : (j < length (pts_at (s_world st) (c_p c)))%nat) by (unfold pts_at; rewrite Es; exact Hj).
    destruct (Forall2_at _ _ _ j pt0 pt0 F Hj') as (De & _). unfold deforms in De. rewrite (PD gd) in De by (eapply nth_error_In; exact Egd).
    assert (Q0 : plane_strain1 (point_at st (c_p c) j)) by (apply (PS (c_p c)), nth_In, Hj').
    assert (Q1 : plane_strain1 (point_at s1 (c_p c) j)).
    { apply (PS1 (c_p c)), nth_In. unfold pts_at. rewrite Es'. cbn [body_pts]. lia. }
    destruct De as (D1 & D2 & _). destruct Q0 as (P0 & T0 & _). destruct Q1 as (_ & _ & Fl). apply planar_22; assumption.
Qed.
