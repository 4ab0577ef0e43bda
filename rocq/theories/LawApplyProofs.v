(** How a step applies the constitutive laws (C99) and moves particles (C100). *)
From Coq Require Import List Arith ZArith Reals Bool Lra Lia.
From Verif Require Import Num NumR Linalg Arrays ModelGrid ModelShape ModelMath ModelState ModelLaws ModelForces ModelSolver
  Sums SpecShape ShapeProofs MappingProofs ResFacts SolverFacts SpecSolver TransferProofs TransferProofs2 StepProofs GatherProofs MomentumProofs
  AffineProofs StepAffine SolverMore PlaneProofs DeformProofs.
Import ListNotations.

Section LA.
Context {T : Type} {NT : NumT T}.
Definition live (l : list Coupling) : list Coupling := filter (fun c => negb (c_skip c)) l.
(** the law of coupling [c] was evaluated once, from (w, m) to (w', m') *)
Definition applied (S : Solver T) (dt : T) (w : World T) (m : Mechanics T) (c : Coupling) (w' : World T) (m' : Mechanics T) : Prop :=
  exists s ci l ls s1 ls', nth_error (w_mps w) (c_p c) = Some (Soft s) /\ c_c c = Some ci /\ nth_error (m_laws m) ci = Some ls /\
    nth_error (so_laws S) ci = Some (Some l) /\ law_update l s ls dt = Ok (s1, ls') /\
    nth_error (w_mps w') (c_p c) = Some (Soft (remove_accumulated_shear (law_reset l) s1)) /\ nth_error (m_laws m') ci = Some ls'.

Lemma live_cons c l : live (c :: l) = if c_skip c then live l else c :: live l.
Proof. unfold live. simpl. destruct (c_skip c); reflexivity. Qed.
Lemma in_live c l : In c l -> c_skip c = false -> In c (live l).
Proof. intros H E. apply filter_In. rewrite E. auto. Qed.
Lemma law_fold (S : Solver T) dt cs : forall w m w' m', rfold (constitutive_coupling S dt) (w, m) cs = Ok (w', m') ->
  (forall p, ~ In p (map c_p (live cs)) -> nth_error (w_mps w') p = nth_error (w_mps w) p) /\
  (forall i, ~ In (Some i) (map c_c (live cs)) -> nth_error (m_laws m') i = nth_error (m_laws m) i).
Proof.
  induction cs as [|c cs IH]; intros w m w' m' E.
  - injection E as <- <-. auto.
  - cbn [rfold] in E. apply rbind_ok in E. destruct E as ((w1 & m1) & E1 & E). destruct (IH _ _ _ _ E) as (A & B). rewrite live_cons.
    apply constitutive_coupling_ok in E1. destruct E1 as [(Sk & -> & ->)|(Sk & s & ci & l & ls & s1 & ls' & Es & Ec & El & Ela & Hu & -> & ->)]; rewrite Sk; [auto|].
    split; intros i Hi; simpl in Hi.
    + rewrite A by tauto. simpl. rewrite set_nth_error. destruct (Nat.eqb_spec (c_p c) i); [tauto|reflexivity].
    + rewrite B by tauto. simpl. rewrite set_nth_error. destruct (Nat.eqb_spec ci i) as [<-|N]; [rewrite Ec in Hi; tauto|reflexivity].
Qed.
Lemma law_once (S : Solver T) dt cs : forall w m w' m', rfold (constitutive_coupling S dt) (w, m) cs = Ok (w', m') ->
  NoDup (map c_p (live cs)) -> NoDup (map c_c (live cs)) -> forall c, In c cs -> c_skip c = false -> applied S dt w m c w' m'.
Proof.
  induction cs as [|c cs IH]; intros w m w' m' E N1 N2 c0 Hc Hs; [contradiction|].
  cbn [rfold] in E. apply rbind_ok in E. destruct E as ((w1 & m1) & E1 & E). rewrite live_cons in N1, N2.
  apply constitutive_coupling_ok in E1. destruct E1 as [(Sk & -> & ->)|(Sk & s & ci & l & ls & s1 & ls' & Es & Ec & El & Ela & Hu & -> & ->)]; rewrite Sk in N1, N2.
  - destruct Hc as [<-|Hc]; [congruence|]. eapply IH; eassumption.
  - cbn [map] in N1, N2. apply NoDup_cons_iff in N1. apply NoDup_cons_iff in N2. destruct N1 as (P1 & N1). destruct N2 as (P2 & N2).
    destruct (law_fold _ _ _ _ _ _ _ E) as (A & B). destruct Hc as [<-|Hc].
    + exists s, ci, l, ls, s1, ls'. repeat (split; [assumption|]). split.
      * rewrite A by exact P1. simpl. rewrite set_nth_error, Nat.eqb_refl, Es. reflexivity.
      * rewrite B by (rewrite <- Ec; exact P2). simpl. rewrite set_nth_error, Nat.eqb_refl, El. reflexivity.
    + destruct (IH _ _ _ _ E N1 N2 c0 Hc Hs) as (t & cj & k & kt & t1 & kt' & H1 & H2 & H3 & H4 & H5 & H6 & H7).
      pose proof (in_map c_p _ _ (in_live _ _ Hc Hs)) as I1. pose proof (in_map c_c _ _ (in_live _ _ Hc Hs)) as I2.
      exists t, cj, k, kt, t1, kt'. cbn [set_mps w_mps m_laws] in H1, H3. rewrite set_nth_error in H1. rewrite set_nth_error in H3.
      destruct (Nat.eqb_spec (c_p c) (c_p c0)) as [X|X]; [rewrite X in P1; contradiction|].
      destruct (Nat.eqb_spec ci cj) as [Y|Y]; [subst cj; rewrite <- Ec in H2; rewrite H2 in I2; contradiction|]. repeat (split; [assumption|]). assumption.
Qed.

(** what the law sees: the stress from before the step, everything else as the step leaves it *)
Definition seen (p x q : Particle T) : Prop :=
  pt_stress x = pt_stress p /\ pt_mass x = pt_mass p /\ pt_vol0 x = pt_vol0 p /\
  pt_pos x = pt_pos q /\ pt_vel x = pt_vel q /\ pt_vol x = pt_vol q /\ pt_L x = pt_L q /\ pt_vol x = nmul (mdet (pt_F x)) (pt_vol0 x).
Definition seen_stack (a : list (Particle T)) (x : list (Particle T)) (b : list (Particle T)) : Prop :=
  length x = length a /\ length b = length a /\ forall j, (j < length a)%nat -> seen (nth j a pt0) (nth j x pt0) (nth j b pt0).
End LA.

Local Open Scope R_scope.
Section Step.
Variables (S : Solver R) (st st' : SimState R).
Hypothesis St : solver_step S st = Ok st'.
Lemma seen_zip A B C D E : Forall2 (@unforced) A B -> Forall2 (@kept R NumT_R) B C ->
  Forall2 (@law_kept R) C D -> Forall2 (@law_kept R) D E -> seen_stack (NT := NumT_R) A C E.
Proof.
  intros U. revert C D E. induction U as [|a b A B Hab _ IH]; intros C D E K F G; inversion K; subst; inversion F; subst; inversion G; subst.
  - split; [reflexivity|]. split; [reflexivity|]. simpl. lia.
  - match goal with K' : Forall2 kept B ?c, F' : Forall2 law_kept ?c ?d, G' : Forall2 law_kept ?d ?e |- _ => destruct (IH _ _ _ K' F' G') as (L1 & L2 & L3) end.
    split; [simpl; lia|]. split; [simpl; lia|]. intros [|j] Hj; simpl in *; [|apply L3; lia]. clear L3 IH.
    unfold unforced, kept, law_kept, seen in *. intuition congruence.
Qed.
Lemma step_law c : NoDup (map c_p (active S)) -> NoDup (map c_c (active S)) -> In c (so_couplings S) -> c_skip c = false ->
  exists s ci l ls s1 ls', nth_error (m_laws (s_mech st)) ci = Some ls /\ nth_error (so_laws S) ci = Some (Some l) /\ c_c c = Some ci /\
    seen_stack (pts_at (s_world st) (c_p c)) (sb_pts s) (pts_at (s_world st') (c_p c)) /\
    law_update l s ls (s_dt st) = Ok (s1, ls') /\
    nth_error (w_mps (s_world st')) (c_p c) = Some (Soft (remove_accumulated_shear (law_reset l) s1)) /\
    nth_error (m_laws (s_mech st')) ci = Some ls'.
Proof.
  intros N1 N2 Hc Hs. destruct (step_ok _ _ _ St) as (w & ca & w2 & ca2 & ca3 & w3 & m3 & w4 & m4 & E1 & E2 & E3 & E4 & E5 & ->).
  destruct (law_once _ _ _ _ _ _ _ E5 N1 N2 c Hc Hs) as (s & ci & l & ls & s1 & ls' & H1 & H2 & H3 & H4 & H5 & H6 & H7).
  destruct (g2p_kept _ _ _ _ _ _ _ E4) as (_ & _ & Lw & _).
  destruct (g2p_once _ _ _ _ _ _ _ E4 N1 c Hc Hs) as (s2 & it & g & m1 & m2 & qs & Eg & Eit & Es & Res & Eq).
  rewrite H1 in Eq. injection Eq as ->. exists (after_g2p s2 qs), ci, l, ls, s1, ls'. rewrite <- Lw.
  split; [exact H3|]. split; [exact H4|]. split; [exact H2|]. split; [|auto].
  pose proof (unforced_pts _ _ _ _ _ _ E1 E2 (c_p c)) as U. unfold pts_at at 2 in U. rewrite Es in U. cbn [body_pts] in U.
  apply g2p_result_kept in Res.
  destruct (law_update_kept _ _ _ _ _ _ H5) as (_ & _ & _ & K). destruct (remove_shear_kept (law_reset l) s1) as (_ & _ & _ & K').
  assert (K1 : Forall2 (@law_kept R) qs (sb_pts s1)) by (cbn [after_g2p sb_pts] in K; revert K; apply Forall2_weaken; tauto).
  cbn [s_world after_g2p sb_pts]. unfold pts_at at 2. rewrite H6. cbn [body_pts].
  eapply seen_zip; eassumption.
Qed.
Lemma step_law_idle : (forall p, ~ In p (map c_p (active S)) -> Forall2 unforced (pts_at (s_world st) p) (pts_at (s_world st') p)) /\
  (forall i, ~ In (Some i) (map c_c (active S)) -> nth_error (m_laws (s_mech st')) i = nth_error (m_laws (s_mech st)) i).
Proof.
  destruct (step_ok _ _ _ St) as (w & ca & w2 & ca2 & ca3 & w3 & m3 & w4 & m4 & E1 & E2 & E3 & E4 & E5 & ->).
  destruct (g2p_kept _ _ _ _ _ _ _ E4) as (_ & _ & Lw & _). destruct (law_fold _ _ _ _ _ _ _ E5) as (A & B). split.
  - intros p Hp. cbn [s_world]. specialize (A p Hp). pose proof (unforced_pts _ _ _ _ _ _ E1 E2 p) as U.
    pose proof (g2p_fold_other _ _ _ _ _ _ _ _ _ E4 Hp) as G. unfold pts_at at 2. rewrite A, G. exact U.
  - intros i Hi. cbn [s_mech]. rewrite <- Lw. apply B, Hi.
Qed.

(** ** the same body coupled twice: two couplings only, same body and same law *)
Lemma law_twice c1 c2 : so_couplings S = [c1; c2] -> c_skip c1 = false -> c_skip c2 = false -> c_p c1 = c_p c2 -> c_c c1 = c_c c2 ->
  exists s ci l ls s1 ls1 s2 ls2, c_c c1 = Some ci /\ nth_error (m_laws (s_mech st)) ci = Some ls /\ nth_error (so_laws S) ci = Some (Some l) /\
    Forall2 (fun p q => pt_stress q = pt_stress p) (pts_at (s_world st) (c_p c1)) (sb_pts s) /\
    law_update l s ls (s_dt st) = Ok (s1, ls1) /\
    law_update l (remove_accumulated_shear (law_reset l) s1) ls1 (s_dt st) = Ok (s2, ls2) /\
    nth_error (w_mps (s_world st')) (c_p c1) = Some (Soft (remove_accumulated_shear (law_reset l) s2)) /\
    nth_error (m_laws (s_mech st')) ci = Some ls2.
Proof.
  intros Cs K1 K2 Ep Ec. destruct (step_ok _ _ _ St) as (w & ca & w2 & ca2 & ca3 & w3 & m3 & w4 & m4 & E1 & E2 & E3 & E4 & E5 & ->).
  destruct (g2p_kept _ _ _ _ _ _ _ E4) as (_ & _ & Lw & _).
  assert (Str : Forall2 (fun p q => pt_stress q = pt_stress p) (pts_at (s_world st) (c_p c1)) (pts_at w3 (c_p c1))).
  { pose proof (unforced_pts _ _ _ _ _ _ E1 E2 (c_p c1)) as U. unfold g2p in E4.
    refine (rfold_inv (fun wm => Forall2 (fun p q => pt_stress q = pt_stress p) (pts_at (s_world st) (c_p c1)) (pts_at (fst wm) (c_p c1))) _ _ (w2, s_mech st) (w3, m3) _ _ E4).
    2: { cbn [fst]. revert U. apply Forall2_weaken. unfold unforced. tauto. }
    intros (wa & ma) c (wb & mb) _ I X. cbn [fst] in *. apply g2p_coupling_ok in X.
    destruct X as [(_ & -> & _)|(_ & s & it & g & pts' & _ & _ & Es & Hr & ->)]; [exact I|]. apply g2p_result_kept in Hr.
    unfold pts_at at 2. cbn [set_mps w_mps]. rewrite set_nth_error. unfold pts_at at 2 in I.
    destruct (Nat.eqb_spec (c_p c) (c_p c1)) as [X|X]; [|exact I]. rewrite X in Es. rewrite Es in *. cbn [option_map body_pts after_g2p sb_pts] in *.
    eapply Forall2_weaken; [|eapply (Forall2_trans (fun p q => pt_stress q = pt_stress p)); [|exact I|]].
    - intros a b H; exact H.
    - intros a b d H G. congruence.
    - revert Hr. apply Forall2_weaken. unfold kept. tauto. }
  unfold constitutive_update in E5. rewrite Cs in E5. cbn [rfold] in E5. apply rbind_ok in E5. destruct E5 as ((wa & ma) & Ea & E5).
  apply rbind_ok in E5. destruct E5 as ((wb & mb) & Eb & E5). injection E5 as -> ->.
  apply constitutive_coupling_ok in Ea. destruct Ea as [(X & _)|(_ & s & ci & l & ls & s1 & ls1 & A1 & A2 & A3 & A4 & A5 & -> & ->)]; [congruence|].
  apply constitutive_coupling_ok in Eb. destruct Eb as [(X & _)|(_ & t & cj & k & kt & s2 & ls2 & B1 & B2 & B3 & B4 & B5 & -> & ->)]; [congruence|].
  rewrite <- Ec, A2 in B2. injection B2 as <-. rewrite A4 in B4. injection B4 as <-. cbn [set_mps w_mps m_laws] in *.
  rewrite <- Ep in *. rewrite set_nth_error, Nat.eqb_refl in B1. rewrite set_nth_error, Nat.eqb_refl in B3. rewrite A1 in B1. rewrite A3 in B3. injection B1 as <-. injection B3 as <-.
  exists s, ci, l, ls, s1, ls1, s2, ls2. rewrite <- Lw. repeat (split; [assumption|]). split.
  { unfold pts_at at 2 in Str. rewrite A1 in Str. exact Str. } split; [exact A5|]. split; [exact B5|].
  cbn [s_world s_mech set_mps w_mps m_laws]. rewrite !set_nth_error, !Nat.eqb_refl, A1, A3. split; reflexivity.
Qed.

(** ** positions *)
Lemma step_positions w ca w2 ca2 ca3 a gd c g p : prepare S st = Ok (w, ca) -> p2g S w (s_mech st) ca = Ok (w2, ca2) ->
  integrate_grid S w2 (s_mech st) (s_dt st) ca2 = Ok ca3 -> NoDup (map c_p (active S)) ->
  In c (so_couplings S) -> c_skip c = false -> nth_error (sc_grids ca3) (c_g c) = Some g ->
  so_scheme S = ASFLIP a -> nth_error (so_domains S) (c_g c) = Some gd -> (p < length (pts_at (s_world st) (c_p c)))%nat ->
  let x := nth p (pts_at (s_world st) (c_p c)) pt0 in let q := nth p (pts_at (s_world st') (c_p c)) pt0 in
  let rows := rows_of S (s_world st) c in
  exists J, pt_vol q = J * pt_vol0 x /\ let beta := beta_of a (gd_cell gd) J in
  pt_pos q = vadd (pt_pos x) (vscale (s_dt st) (vadd (pic_vel (af_cutoff a) rows g (gr_mom_nt g) p)
    (vscale (so_alpha S * beta) (vsub (pt_vel x) (pic_vel (af_cutoff a) rows g (gr_mom g) p))))).
Proof.
  intros E1 E2 E3 Nd Hc Hs Eg Sch Egd Hp x q rows.
  destruct (step_point_gen S st st' w ca w2 ca2 ca3 E1 E2 E3 St Nd c g Hc Hs Eg) as (s & qs & m1 & m2 & _ & U & G & K).
  unfold g2p_result in G. rewrite Sch in G. destruct G as (_ & gd' & B & Egd' & _ & -> & _). rewrite Egd in Egd'. injection Egd' as <-.
  pose proof (Forall2_len _ _ _ U) as L1.
  pose proof (Forall2_nth_d _ _ _ pt0 pt0 p U Hp) as (U1 & U2 & U3 & _ & U5 & _).
  assert (Hp2 : (p < length (sb_pts s))%nat) by lia.
  assert (Hp3 : (p < length (fst (g2p_aflip a (so_alpha S) (s_dt st) gd (sb_storeF s) (rows_of S (s_world st) c) g (sb_pts s))))%nat) by (rewrite g2p_aflip_length; lia).
  pose proof (Forall2_nth_d _ _ _ pt0 pt0 p K Hp3) as (K1 & _ & _ & _ & K5 & _). fold q in K1, K5.
  rewrite (g2p_aflip_nth _ _ _ _ _ _ _ _ _ Hp2) in K1, K5. cbn [aflip_update g2p_point pt_pos pt_vol] in K1, K5.
  eexists. split; [rewrite K5, U5; reflexivity|]. rewrite K1, U1, U2. reflexivity.
Qed.
End Step.
