(** The deformation gradient, stored gradient and volume of a step when laws may reset F (C125). *)
From Coq Require Import List Arith ZArith Reals Bool Lra Lia.
From Verif Require Import Num NumR Linalg Arrays ModelGrid ModelShape ModelMath ModelState ModelLaws ModelForces ModelSolver
  Sums ShapeFacts SpecShape ShapeProofs ShapeProofs2 ShapeProofs3 MappingProofs ResFacts SolverFacts SpecSolver
  TransferProofs TransferProofs2 StepProofs GatherProofs MomentumProofs AffineProofs StepAffine PlaneProofs ShiftProofs DeformProofs LawApplyProofs.
Import ListNotations.
Local Open Scope R_scope.

Lemma law_once_body (S : Solver R) dt cs : forall w m w' m', rfold (constitutive_coupling S dt) (w, m) cs = Ok (w', m') ->
  NoDup (map c_p (live cs)) -> forall c, In c cs -> c_skip c = false ->
  exists s ci l ls s1 ls', nth_error (w_mps w) (c_p c) = Some (Soft s) /\ c_c c = Some ci /\ nth_error (so_laws S) ci = Some (Some l) /\
    law_update l s ls dt = Ok (s1, ls') /\ nth_error (w_mps w') (c_p c) = Some (Soft (remove_accumulated_shear (law_reset l) s1)).
Proof.
  induction cs as [|c cs IH]; intros w m w' m' E N1 c0 Hc Hs; [contradiction|].
  cbn [rfold] in E. apply rbind_ok in E. destruct E as ((w1 & m1) & E1 & E). rewrite live_cons in N1.
  apply constitutive_coupling_ok in E1. destruct E1 as [(Sk & -> & ->)|(Sk & s & ci & l & ls & s1 & ls' & Es & Ec & El & Ela & Hu & -> & ->)]; rewrite Sk in N1.
  - destruct Hc as [<-|Hc]; [congruence|]. eapply IH; eassumption.
  - cbn [map] in N1. apply NoDup_cons_iff in N1. destruct N1 as (P1 & N1).
    destruct (law_fold _ _ _ _ _ _ _ E) as (A & _). destruct Hc as [<-|Hc].
    + exists s, ci, l, ls, s1, ls'. repeat (split; [assumption|]).
      rewrite A by exact P1. simpl. rewrite set_nth_error, Nat.eqb_refl, Es. reflexivity.
    + destruct (IH _ _ _ _ E N1 c0 Hc Hs) as (t & cj & k & kt & t1 & kt' & H1 & H2 & H3 & H4 & H5).
      pose proof (in_map c_p _ _ (in_live _ _ Hc Hs)) as I1.
      exists t, cj, k, kt, t1, kt'. cbn [set_mps w_mps] in H1. rewrite set_nth_error in H1.
      destruct (Nat.eqb_spec (c_p c) (c_p c0)) as [X|X]; [rewrite X in P1; contradiction|]. repeat (split; [assumption|]). assumption.
Qed.

(** [G]: the gradient the motion of the step gives a point that had [F] *)
Definition moved_F (d : Dim) (dt : R) (L F G : mat3 R) : Prop :=
  match d with
  | D3 => G = mmul (increment dt L) F
  | D2 => same_but_22 G (mmul (increment dt L) F) /\ m22 G = 1 /\ m22 L = 0
  end.
(** one step of one point: the law resets F or not *)
Definition resets (d : Dim) (r : bool) (sch : Scheme R) (sF : bool) (dt : R) (p q : Particle R) : Prop :=
  exists G, moved_F d dt (pt_L q) (pt_F p) G /\ pt_F q = (if r then compute_cbar d G else G) /\
    pt_vol q = mdet G * pt_vol0 p /\ pt_vol0 q = pt_vol0 p /\
    pt_Fst q = (if sF then if r then G else match sch with ASFLIP _ => mmul (increment dt (pt_L q)) (pt_Fst p) | USL => pt_Fst p end else pt_Fst p).

Lemma zip4 {A B C D} (P : A -> B -> Prop) (Q : B -> C -> Prop) (K : C -> D -> Prop) (R : A -> D -> Prop) :
  (forall a b c d, P a b -> Q b c -> K c d -> R a d) -> forall la lb lc ld, Forall2 P la lb -> Forall2 Q lb lc -> Forall2 K lc ld -> Forall2 R la ld.
Proof.
  intros H la lb lc ld F. revert lc ld. induction F as [|a b la lb Pab _ IH]; intros lc ld G; inversion G; subst; intros X; inversion X; subst; constructor; eauto.
Qed.

Section Step.
Variables (S : Solver R) (st st' : SimState R).
Hypothesis St : solver_step S st = Ok st'.
Hypothesis Nd : NoDup (map c_p (active S)).
Lemma step_resets c gd s : In c (so_couplings S) -> c_skip c = false -> nth_error (so_domains S) (c_g c) = Some gd ->
  nth_error (w_mps (s_world st)) (c_p c) = Some (Soft s) ->
  exists ci l, c_c c = Some ci /\ nth_error (so_laws S) ci = Some (Some l) /\
  Forall2 (resets (gd_dim gd) (law_reset l) (so_scheme S) (sb_storeF s) (s_dt st)) (pts_at (s_world st) (c_p c)) (pts_at (s_world st') (c_p c)).
Proof.
  intros Hc Hs Egd Eb. apply step_ok in St. destruct St as (w & ca & w2 & ca2 & ca3 & w3 & m3 & w4 & m4 & E1 & E2 & E3 & E4 & E5 & ->). cbn [s_world].
  pose proof (unforced_pts _ _ _ _ _ _ E1 E2 (c_p c)) as U.
  destruct (law_once_body _ _ _ _ _ _ _ E5 Nd c Hc Hs) as (t & ci & l & ls & t1 & ls' & T1 & T2 & T3 & T4 & T5).
  destruct (g2p_once _ _ _ _ _ _ _ E4 Nd c Hc Hs) as (s2 & it & g & m1 & m2 & qs & Eg & Eit & Es & Res & Eq).
  destruct (g2p_inputs _ _ _ _ _ _ _ _ _ _ _ _ _ E1 E2 E3 Eg Eit) as (k & gd' & xs & Egd' & Dg & Er). rewrite Egd in Egd'. injection Egd' as <-.
  exists ci, l. split; [exact T2|]. split; [exact T3|].
  assert (Sf : sb_storeF s2 = sb_storeF s /\ sb_dim s2 = gd_dim gd).
  { apply prepare_ok in E1. destruct E1 as (R1 & Rw & Rc & _). specialize (R1 (c_p c)). rewrite Eb in R1. cbn [option_map] in R1.
    apply p2g_ok in E2. destruct E2 as (gs & E2 & _). apply pre_p2g_fold_ok in E2. destruct E2 as (_ & F).
    destruct (Forall2_nth_error _ _ _ _ _ F Es) as (b & Hb & Sb).
    destruct (Rc c Hc) as (rows & Hr). destruct (Rw _ _ _ Hr) as (kk & bb & gg & _ & Hbb & Hgg & Hd & _).
    rewrite Egd in Hgg. injection Hgg as <-. rewrite Hb in Hbb. injection Hbb as <-. rewrite R1 in Hb. injection Hb as <-.
    destruct (coupled (so_couplings S) (c_p c)); cbn [reset_body body_dim set_pts sb_dim sb_storeF] in Sb, Hd; destruct Sb as (B1 & B2 & _); cbn [sb_dim sb_storeF set_pts] in B1, B2; split; congruence. }
  destruct Sf as (Sf & Sd).
  assert (Q : Forall2 (fun p q => moved_F (gd_dim gd) (s_dt st) (pt_L q) (pt_F p) (pt_F q) /\ pt_vol q = mdet (pt_F q) * pt_vol0 p /\ pt_vol0 q = pt_vol0 p /\
      stores (so_scheme S) (sb_storeF s) (s_dt st) p q) (sb_pts s2) qs).
  { unfold g2p_result in Res. unfold stores. destruct (so_scheme S) as [|a].
    - destruct Res as (_ & geos & _ & -> & _). apply nth_Forall2 with (d := pt0) (e := pt0); [rewrite g2p_usl_length; reflexivity|].
      intros n Hn. rewrite Er, g2p_usl_nth by (try apply masks_rows; exact Hn). split; [|repeat split].
      rewrite <- Dg. match goal with |- moved_F ?d ?dt (pt_L ?q) (pt_F ?p) _ => change (deforms d dt p q) end; eapply deforms_next; reflexivity.
    - destruct Res as (_ & gd' & B & _ & _ & -> & _). apply nth_Forall2 with (d := pt0) (e := pt0); [rewrite g2p_aflip_length; reflexivity|].
      intros n Hn. rewrite g2p_aflip_nth by exact Hn. rewrite Sf. split; [rewrite <- Dg; match goal with |- moved_F ?d ?dt (pt_L ?q) (pt_F ?p) _ => change (deforms d dt p q) end; eapply deforms_next; reflexivity|].
      repeat split. }
  rewrite T1 in Eq. injection Eq as ->. apply law_update_kept in T4. destruct T4 as (Kd & Ks & _ & K). cbn [after_g2p sb_pts sb_dim sb_storeF] in Kd, Ks, K.
  unfold pts_at at 2 in U. rewrite Es in U. unfold pts_at at 2. rewrite T5. cbn [body_pts] in *.
  assert (Z : Forall2 (fun p q => (law_kept p q /\ pt_F q = pt_F p /\ pt_Fst q = pt_Fst p)) qs (sb_pts t1)) by exact K.
  assert (W : Forall2 (fun x y => law_kept x y /\ pt_F y = (if law_reset l then compute_cbar (gd_dim gd) (pt_F x) else pt_F x) /\
       pt_Fst y = (if law_reset l then if sb_storeF s then pt_F x else pt_Fst x else pt_Fst x)) (sb_pts t1) (sb_pts (remove_accumulated_shear (law_reset l) t1))).
  { unfold remove_accumulated_shear. destruct (law_reset l); [|apply Forall2_refl; intro x; split; [apply law_kept_refl|split; reflexivity]].
    cbn [set_pts sb_pts]. apply Forall2_map_r. intros x _. rewrite Kd, Sd, Ks, Sf. split; [repeat split|split; reflexivity]. }
  revert U Q Z W. generalize (pts_at (s_world st) (c_p c)) (sb_pts s2) (sb_pts t1) (sb_pts (remove_accumulated_shear (law_reset l) t1)).
  intros A B C D U Q Z W.
  assert (Q' : Forall2 (fun p y => exists q, (moved_F (gd_dim gd) (s_dt st) (pt_L q) (pt_F p) (pt_F q) /\ pt_vol q = mdet (pt_F q) * pt_vol0 p /\ pt_vol0 q = pt_vol0 p /\
      stores (so_scheme S) (sb_storeF s) (s_dt st) p q) /\ law_kept q y /\ pt_F y = pt_F q /\ pt_Fst y = pt_Fst q) B C).
  { revert Z Q. clear. intros Z. revert B. induction Z as [|x y qs C H _ IH]; intros B Q; inversion Q; subst; constructor; [|apply IH; assumption].
    exists x. split; assumption. }
  revert U Q' W. clear. apply zip4. intros p p1 x y Up (q & (H1 & H2 & H3 & H4) & (H5 & H6 & H7)) (H8 & H9 & H10).
  exists (pt_F x). unfold law_kept, unforced in *. destruct Up as (_ & _ & _ & _ & U0 & _ & UF & UFs).
  assert (EL : pt_L y = pt_L q) by intuition congruence. rewrite EL. unfold stores in H4. rewrite <- UF, <- UFs, H6. split; [exact H1|].
  split; [rewrite H9, H6; reflexivity|]. split; [|split].
  - replace (pt_vol y) with (pt_vol q) by intuition congruence. rewrite H2. f_equal. congruence.
  - intuition congruence.
  - rewrite H10. destruct (law_reset l); destruct (sb_storeF s); try (rewrite H7, H4; destruct (so_scheme S); reflexivity). congruence.
Qed.
End Step.

(** volume ratio of a gradient: in 2-D the in-plane one (the reset leaves 0 in the out-of-plane entry) *)
Definition vol_ratio (d : Dim) (F : mat3 R) : R := match d with D3 => mdet F | D2 => m00 F * m11 F - m01 F * m10 F end.
Definition total_J (dt : R) (b j : nat) (h : list (SimState R)) (J : R) : R :=
  fold_left (fun J s => mdet (increment dt (pt_L (point_at s b j))) * J) h J.
Lemma cbrt3 J : Rcbrt J * Rcbrt J * Rcbrt J = J.
Proof.
  unfold Rcbrt. destruct (Rlt_dec 0 J); [|destruct (Rlt_dec J 0)].
  - rewrite <- !Rpower_plus. replace (/ 3 + / 3 + / 3) with 1 by field. apply Rpower_1. assumption.
  - set (x := Rpower (- J) (/ 3)). replace (- x * - x * - x) with (- (x * x * x)) by ring. unfold x.
    rewrite <- !Rpower_plus. replace (/ 3 + / 3 + / 3) with 1 by field. rewrite Rpower_1 by lra. ring.
  - replace J with 0 by lra. ring.
Qed.
Lemma det_mul3 (a b : mat3 R) : mdet (mmul a b) = mdet a * mdet b.
Proof. destruct a as [a0 a1 a2 a3 a4 a5 a6 a7 a8], b as [b0 b1 b2 b3 b4 b5 b6 b7 b8]. unfold mdet, mmul; simpl; rnum. ring. Qed.
Lemma cbar3_det J F : mdet F = J -> mdet (compute_cbar (H := NumT_R) D3 F) = J.
Proof.
  intros <-. unfold compute_cbar. change (ncbrt (mdet F)) with (Rcbrt (mdet F)). set (J := mdet F) at 2. pose proof (cbrt3 J) as C. fold J. set (c := Rcbrt J) in *.
  rewrite <- C. unfold mdet, mscale, meye; simpl; rnum. ring.
Qed.
Lemma step_ratio d r sch sF dt p q : resets d r sch sF dt p q ->
  (d = D2 -> planar (pt_F p) /\ flat (pt_L q) /\ 0 <= mdet (increment dt (pt_L q)) * vol_ratio d (pt_F p)) ->
  vol_ratio d (pt_F q) = mdet (increment dt (pt_L q)) * vol_ratio d (pt_F p) /\
  pt_vol q = vol_ratio d (pt_F q) * pt_vol0 q /\ pt_vol0 q = pt_vol0 p.
Proof.
  intros (G & M & EF & EV & E0 & _) H.
  assert (A : mdet G = mdet (increment dt (pt_L q)) * vol_ratio d (pt_F p) /\ vol_ratio d (pt_F q) = mdet G).
  { destruct d; cbn [moved_F vol_ratio] in *.
    - destruct (H eq_refl) as (P & Fl & Nn). destruct M as (M1 & M2 & _).
      assert (D : mdet G = m00 G * m11 G - m01 G * m10 G /\ mdet G = mdet (increment dt (pt_L q)) * (m00 (pt_F p) * m11 (pt_F p) - m01 (pt_F p) * m10 (pt_F p))).
      { pose proof (M1 0 0 ltac:(lia) ltac:(lia) ltac:(lia))%nat as X00. pose proof (M1 0 1 ltac:(lia) ltac:(lia) ltac:(lia))%nat as X01.
        pose proof (M1 0 2 ltac:(lia) ltac:(lia) ltac:(lia))%nat as X02. pose proof (M1 1 0 ltac:(lia) ltac:(lia) ltac:(lia))%nat as X10.
        pose proof (M1 1 1 ltac:(lia) ltac:(lia) ltac:(lia))%nat as X11. pose proof (M1 1 2 ltac:(lia) ltac:(lia) ltac:(lia))%nat as X12.
        pose proof (M1 2 0 ltac:(lia) ltac:(lia) ltac:(lia))%nat as X20. pose proof (M1 2 1 ltac:(lia) ltac:(lia) ltac:(lia))%nat as X21.
        clear M1 H Nn EF EV E0. destruct Fl as ((L1 & L2 & L3 & L4) & L5). destruct P as (P1 & P2 & P3 & P4).
        destruct (pt_L q) as [l0 l1 l2 l3 l4 l5 l6 l7 l8], (pt_F p) as [f0 f1 f2 f3 f4 f5 f6 f7 f8], G as [g0 g1 g2 g3 g4 g5 g6 g7 g8].
        unfold mcomp, increment, mdet, mmul, msub, mscale, meye in *; simpl in *; rnum. subst. split; ring. }
      destruct D as (D1 & D2). split; [exact D2|]. destruct r; rewrite EF; [|symmetry; exact D1].
      assert (Gn : 0 <= mdet G) by (rewrite D2; exact Nn). unfold compute_cbar. change (nsqrt (mdet G)) with (sqrt (mdet G)).
      revert Gn. change (@mdet R numt_num G) with (@mdet R Num_R G). generalize (mdet G). clear. intros J Gn.
      cbn [mdiag m00 m11 m01 m10]. rnum. rewrite sqrt_sqrt by exact Gn. ring.
    - subst G. split; [apply det_mul3|]. destruct r; rewrite EF; [|reflexivity]. apply cbar3_det. reflexivity. }
  destruct A as (A1 & A2). split; [congruence|]. split; [|exact E0]. rewrite EV, A2, E0. reflexivity.
Qed.

Section Run.
Variables (S : Solver R).
Hypothesis Nd : NoDup (map c_p (active S)).
Lemma run_volume n : forall st st' c gd s j, solver_steps S n st = Ok st' ->
  In c (so_couplings S) -> c_skip c = false -> nth_error (so_domains S) (c_g c) = Some gd ->
  nth_error (w_mps (s_world st)) (c_p c) = Some (Soft s) -> (j < length (sb_pts s))%nat ->
  (gd_dim gd = D2 -> planar_domains S /\ every plane_strain (s_world st) /\ 0 <= vol_ratio D2 (pt_F (point_at st (c_p c) j)) /\
     Forall (fun x => 0 <= mdet (increment (s_dt st) (pt_L (point_at x (c_p c) j)))) (history S n st)) ->
  vol_ratio (gd_dim gd) (pt_F (point_at st' (c_p c) j)) = total_J (s_dt st) (c_p c) j (history S n st) (vol_ratio (gd_dim gd) (pt_F (point_at st (c_p c) j))) /\
  pt_vol0 (point_at st' (c_p c) j) = pt_vol0 (point_at st (c_p c) j) /\
  ((0 < n)%nat -> pt_vol (point_at st' (c_p c) j) = vol_ratio (gd_dim gd) (pt_F (point_at st' (c_p c) j)) * pt_vol0 (point_at st' (c_p c) j)).
Proof.
  induction n as [|n IH]; intros st st' c gd s j E Hc Hs Egd Es Hj P; cbn [solver_steps history] in *.
  - injection E as <-. split; [reflexivity|]. split; [reflexivity|]. lia.
  - apply rbind_ok in E. destruct E as (s1 & E1 & E). rewrite E1 in *. unfold total_J. cbn [fold_left].
    destruct (steps_soft _ _ _ _ _ E1 Es) as (s' & Es' & L & _).
    destruct (step_resets S st s1 E1 Nd c gd s Hc Hs Egd Es) as (ci & l & _ & _ & F).
    assert (Hj' : (j < length (pts_at (s_world st) (c_p c)))%nat) by (unfold pts_at; rewrite Es; exact Hj).
    assert (Hj1 : (j < length (pts_at (s_world s1) (c_p c)))%nat) by (unfold pts_at; rewrite Es'; cbn [body_pts]; lia).
    pose proof (Forall2_at _ _ _ j pt0 pt0 F Hj') as De. fold (point_at st (c_p c) j) in De. fold (point_at s1 (c_p c) j) in De.
    destruct (step_ratio _ _ _ _ _ _ _ De) as (R1 & R2 & R3).
    { intros D. destruct (P D) as (PD & PS & P0 & PJ). inversion PJ; subst. pose proof (step_plane _ _ _ E1 PD PS) as PS1.
      split; [apply (PS (c_p c)), nth_In, Hj'|]. split; [apply (PS1 (c_p c)), nth_In, Hj1|]. rewrite D. apply Rmult_le_pos; assumption. }
    destruct (IH s1 st' c gd s' j E Hc Hs Egd Es' ltac:(lia)) as (I1 & I2 & I3).
    { intros D. destruct (P D) as (PD & PS & P0 & PJ). inversion PJ; subst. split; [exact PD|]. split; [eapply step_plane; eassumption|].
      rewrite (step_dt _ _ _ E1). split; [|assumption]. rewrite D in R1. rewrite R1. apply Rmult_le_pos; assumption. }
    rewrite (step_dt _ _ _ E1) in I1. unfold total_J in I1. rewrite R1 in I1. split; [exact I1|]. split; [congruence|]. intros _.
    destruct n as [|n]; [|apply I3; lia]. injection E as <-. exact R2.
Qed.
End Run.
