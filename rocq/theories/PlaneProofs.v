(** Plane strain (C24) and volumes (C25). *)
From Coq Require Import List Arith ZArith Reals Bool Lra Lia.
From Verif Require Import Num NumR Linalg Arrays ModelGrid ModelShape ModelMath ModelState ModelLaws ModelForces ModelSolver
  Sums ShapeFacts SpecShape ShapeProofs ShapeProofs2 ShapeProofs3 MappingProofs ResFacts SolverFacts SpecSolver
  TransferProofs TransferProofs2 StepProofs GatherProofs MomentumProofs AffineProofs StepAffine.
Import ListNotations.
Local Open Scope R_scope.

(** *** particle invariants over a step *)
Section Inv.
Context {T : Type} {NT : NumT T}.
Variable P : Particle T -> Prop.
Definition every (w : World T) : Prop := forall i q, In q (pts_at w i) -> P q.
Lemma every_set w i s b : every w -> nth_error (w_mps w) i = Some (Soft s) -> (forall q, In q (body_pts b) -> P q) ->
  every (set_mps w (set_nth i b (w_mps w))).
Proof.
  intros H Hs Hb j q. unfold pts_at. cbn [set_mps w_mps]. rewrite set_nth_error. destruct (Nat.eqb_spec i j) as [<-|N].
  - rewrite Hs. simpl. apply Hb.
  - apply (H j q).
Qed.
Lemma every_prepare (S : Solver T) st w ca : prepare S st = Ok (w, ca) -> (forall q, P q -> P (reset_point q)) -> every (s_world st) -> every w.
Proof.
  intros E R H i q. apply prepare_ok in E. destruct E as (E & _). unfold pts_at. rewrite E.
  specialize (H i). unfold pts_at in H. destruct (nth_error (w_mps (s_world st)) i) as [b|]; [|intros []]. simpl.
  destruct (coupled (so_couplings S) i); [|apply H]. destruct b as [s|r]; simpl in *; [|intros []].
  intros Hq. apply in_map_iff in Hq. destruct Hq as (q0 & <- & Hq). apply R, H, Hq.
Qed.
Lemma every_p2g (S : Solver T) w m ca w2 ca2 : p2g S w m ca = Ok (w2, ca2) -> (forall q f, P q -> P (set_pforce q f)) -> every w -> every w2.
Proof.
  intros E R H i q Hq. apply p2g_ok in E. destruct E as (gs & E & _). apply pre_p2g_fold_ok in E. destruct E as (_ & F).
  unfold pts_at in Hq. destruct (nth_error (w_mps w2) i) as [b'|] eqn:Eb; [|contradiction].
  destruct (Forall2_nth_error _ _ _ _ _ F Eb) as (b & Hb & K). specialize (H i). unfold pts_at in H. rewrite Hb in H.
  destruct b as [s|r], b' as [s'|r']; simpl in *; try contradiction. destruct K as (_ & _ & _ & K).
  apply In_nth_error in Hq. destruct Hq as (n & Hq). destruct (Forall2_nth_error _ _ _ _ _ K Hq) as (q0 & Hq0 & ->).
  apply R, H. eapply nth_error_In, Hq0.
Qed.
Lemma every_g2p (S : Solver T) w m dt ca w' m' : g2p S w m dt ca = Ok (w', m') -> every w ->
  (forall mx c s it g pts' m2 q, (forall p, In p (sb_pts s) -> P p) -> In c (so_couplings S) ->
     nth_error (sc_grids ca) (c_g c) = Some g -> dict_get (c_p c, c_g c) (sc_inter ca) = Ok it ->
     g2p_result S ca dt mx c s it g pts' m2 -> In q pts' -> P q) -> every w'.
Proof.
  intros E H R. unfold g2p in E.
  refine (rfold_inv (fun wm => every (fst wm)) _ _ (w, m) (w', m') _ H E).
  intros (w1 & m1) c (w2 & m2) Hc I1 Ec. cbn [fst] in *.
  apply g2p_coupling_ok in Ec. destruct Ec as [(_ & -> & _)|(Sk & s & it & g & pts' & H1 & H2 & H3 & H4 & ->)]; [exact I1|].
  eapply every_set; [exact I1|exact H3|]. simpl. intros q Hq. eapply R; try eassumption.
  intros p Hp. apply (I1 (c_p c)). unfold pts_at. rewrite H3. exact Hp.
Qed.
Lemma every_constitutive (S : Solver T) dt w m w' m' : constitutive_update S dt w m = Ok (w', m') -> every w ->
  (forall l p q, In (Some l) (so_laws S) -> P p -> law_kept p q -> pt_F q = pt_F p -> P q) ->
  (forall l d p Fst, In (Some l) (so_laws S) -> law_reset l = true -> P p -> P (set_F p (compute_cbar d (pt_F p)) Fst)) -> every w'.
Proof.
  unfold constitutive_update. intros E H R1 R2.
  refine (rfold_inv (fun wm => every (fst wm)) _ _ (w, m) (w', m') _ H E).
  intros (w1 & m1) c (w2 & m2) _ I Ec. cbn [fst] in *. apply constitutive_coupling_ok in Ec.
  destruct Ec as [(_ & -> & ->)|(_ & s & ci & l & ls & s1 & ls' & Es & _ & _ & El & Hu & -> & ->)]; [exact I|].
  eapply every_set; [exact I|exact Es|]. apply nth_error_In in El. apply law_update_kept in Hu. destruct Hu as (_ & _ & _ & K).
  assert (P1 : forall q, In q (sb_pts s1) -> P q).
  { intros q Hq. apply In_nth_error in Hq. destruct Hq as (n & Hq). destruct (Forall2_nth_error _ _ _ _ _ K Hq) as (p & Hp & K1 & K2 & _).
    eapply R1; [exact El| |exact K1|exact K2]. apply (I (c_p c)). unfold pts_at. rewrite Es. eapply nth_error_In, Hp. }
  unfold remove_accumulated_shear. destruct (law_reset l) eqn:Lr; [|exact P1]. simpl. intros q Hq. apply in_map_iff in Hq.
  destruct Hq as (p & <- & Hp). eapply R2; [exact El|exact Lr|]. apply P1, Hp.
Qed.
End Inv.

(** *** plane strain *)
Definition planar (M : mat3 R) : Prop := m02 M = 0 /\ m12 M = 0 /\ m20 M = 0 /\ m21 M = 0.
Definition flat (M : mat3 R) : Prop := planar M /\ m22 M = 0.
Lemma planar_next dt L F : flat L -> planar F -> planar (F_next D2 dt L F) /\ m22 (F_next D2 dt L F) = 1.
Proof.
  intros ((L1 & L2 & L3 & L4) & L5) (F1 & F2 & F3 & F4). unfold planar, F_next. destruct L, F; simpl in *; subst. rnum.
  repeat split; ring.
Qed.
Lemma flat_plane L : planar L -> flat (L_plane D2 L).
Proof. intros H. split; [|reflexivity]. destruct L; simpl in *. exact H. Qed.
Lemma flat_zero : flat mzero.
Proof. repeat split. Qed.
Lemma msum_planar {A} (f : A -> mat3 R) l : (forall x, In x l -> planar (f x)) -> planar (msum f l).
Proof.
  intros H.
  assert (G : forall a c, (forall x, In x l -> mcomp a c (f x) = 0) -> mcomp a c (msum f l) = 0)
    by (intros a c Hx; rewrite mcomp_msum; apply sumR_zero, Hx).
  repeat split; [apply (G 0%nat 2%nat)|apply (G 1%nat 2%nat)|apply (G 2%nat 0%nat)|apply (G 2%nat 1%nat)];
    intros x Hx; destruct (H x Hx) as (H1 & H2 & H3 & H4); assumption.
Qed.
Lemma outer_planar (u v : vec3 R) : vz u = 0 -> vz v = 0 -> planar (outer u v).
Proof. destruct u, v; simpl; intros -> ->; unfold planar; simpl; rnum; repeat split; ring. Qed.
Lemma opp_planar M : planar M -> planar (mopp M).
Proof. destruct M; unfold planar; simpl; rnum. intros (-> & -> & -> & ->). repeat split; ring. Qed.
Lemma node_vel_planar cut d g mom it : d = D2 -> vz (node_vel cut d g mom it : vec3 R) = 0.
Proof. intros ->. reflexivity. Qed.

Definition planar_domains (S : Solver R) : Prop := forall gd, In gd (so_domains S) -> gd_dim gd = D2.
(** what G2P leaves on a 2-D grid *)
Lemma g2p_planar S ca dt mx c s k gd xs g pts' m2 q : g2p_result S ca dt mx c s (compute_on k gd xs) g pts' m2 ->
  gd_dim gd = D2 -> gr_dim g = D2 -> (forall p, In p (sb_pts s) -> planar (pt_F p)) -> In q pts' ->
  planar (pt_F q) /\ m22 (pt_F q) = 1 /\ flat (pt_L q).
Proof.
  intros H Dg D HF Hq. unfold g2p_result in H. destruct (so_scheme S) as [|a].
  - destruct H as (_ & geos & _ & -> & _). apply In_nth with (d := pt0) in Hq. destruct Hq as (n & Hn & <-).
    rewrite g2p_usl_length in Hn. rewrite g2p_usl_nth by (try apply masks_rows; exact Hn). unfold usl_update, g2p_point. cbn [pt_F pt_L]. rewrite D.
    assert (Fl : flat (L_plane D2 (msum (fun it => outer (it_grad it) (vopp (node_vel cut12 D2 g (gr_mom_nt g) it)))
       (of_point n (compute_on k gd xs))))).
    { apply flat_plane, msum_planar. intros it Hit. apply in_of_point in Hit. destruct Hit as (Hit & _).
      apply outer_planar; [apply (row_grad_planar k gd _ it Hit Dg)|]. simpl. rnum. ring. }
    destruct (planar_next dt _ (pt_F (nth n (sb_pts s) pt0)) Fl (HF _ (nth_In _ _ Hn))) as (A1 & A2). auto.
  - destruct H as (_ & gd' & B & _ & _ & -> & _). apply In_nth with (d := pt0) in Hq. destruct Hq as (n & Hn & <-).
    rewrite g2p_aflip_length in Hn. rewrite g2p_aflip_nth by exact Hn. unfold aflip_update, g2p_point. cbn [pt_F pt_L]. rewrite D.
    assert (Fl : flat (L_plane D2 (af_B (af_cutoff a) (compute_on k gd xs) g n))).
    { apply flat_plane, msum_planar. intros it Hit. apply in_of_point in Hit. destruct Hit as (Hit & _).
      apply opp_planar, outer_planar; [|apply (row_grad_planar k gd _ it Hit Dg)]. rewrite D. reflexivity. }
    destruct (planar_next dt _ (pt_F (nth n (sb_pts s) pt0)) Fl (HF _ (nth_In _ _ Hn))) as (A1 & A2). auto.
Qed.
(** the grids and rows G2P sees belong to the solver's domains *)
Lemma g2p_inputs (S : Solver R) st w ca w2 ca2 dt w2' m ca3 c g it : prepare S st = Ok (w, ca) -> p2g S w (s_mech st) ca = Ok (w2, ca2) ->
  integrate_grid S w2' m dt ca2 = Ok ca3 -> nth_error (sc_grids ca3) (c_g c) = Some g -> dict_get (c_p c, c_g c) (sc_inter ca3) = Ok it ->
  exists k gd xs, nth_error (so_domains S) (c_g c) = Some gd /\ gr_dim g = gd_dim gd /\ it = compute_on k gd xs.
Proof.
  intros E1 E2 E3 Eg Eit. apply prepare_ok in E1. destruct E1 as (_ & R2 & _ & R4 & _).
  apply p2g_ok in E2. destruct E2 as (gs & E2 & Ef & ->). apply integrate_same_mm in E3. destruct E3 as (F & Ei & _). simpl in *.
  rewrite Ei in Eit. apply R2 in Eit. destruct Eit as (k & b & gd & _ & _ & Egd & _ & ->).
  exists k, gd, (body_positions b). split; [exact Egd|]. split; [|reflexivity].
  destruct (Forall2_nth_error _ _ _ _ _ F Eg) as (g2 & Eg2 & D & _). rewrite D.
  assert (G : Forall2 grid_ok (so_domains S) gs).
  { eapply p2g_grids_ok; [|exact Ef]. rewrite R4. clear. apply Forall2_map_r. intros a _. exact (@grid_new_ok R NumT_R a). }
  destruct (Forall2_nth_error _ _ _ _ _ G Eg2) as (gd' & Egd' & D' & _). congruence.
Qed.
Definition plane_strain (q : Particle R) : Prop := planar (pt_F q) /\ flat (pt_L q).
Definition plane_strain1 (q : Particle R) : Prop := planar (pt_F q) /\ m22 (pt_F q) = 1 /\ flat (pt_L q).
Definition no_reset (S : Solver R) : Prop := forall l, In (Some l) (so_laws S) -> law_reset l = false.
Lemma step_plane S st st' : solver_step S st = Ok st' -> planar_domains S -> every plane_strain (s_world st) -> every plane_strain (s_world st').
Proof.
  intros E D H. apply step_ok in E. destruct E as (w & ca & w2 & ca2 & ca3 & w3 & m3 & w4 & m4 & E1 & E2 & E3 & E4 & E5 & ->). simpl.
  assert (H1 : every plane_strain w).
  { eapply every_prepare; [exact E1| |exact H]. intros q (A & B). split; [exact A|apply flat_zero]. }
  assert (H2 : every plane_strain w2) by (eapply every_p2g; [exact E2| |exact H1]; intros q f Hq; exact Hq).
  assert (H3 : every plane_strain w3).
  { eapply every_g2p; [exact E4|exact H2|]. intros mx c s it g pts' mm q Hs Hc Eg Eit Hr Hq.
    destruct (g2p_inputs _ _ _ _ _ _ _ _ _ _ _ _ _ E1 E2 E3 Eg Eit) as (k & gd & xs & Egd & Dg & ->).
    assert (D0 := D _ (nth_error_In _ _ Egd)).
    destruct (g2p_planar _ _ _ _ _ _ _ _ _ _ _ _ q Hr D0 (eq_trans Dg D0) (fun p Hp => proj1 (Hs p Hp)) Hq) as (A1 & A2 & A3). split; assumption. }
  eapply every_constitutive; [exact E5|exact H3| |].
  - intros l p q _ (A & B) (_ & _ & _ & _ & _ & _ & K) EF. unfold plane_strain. rewrite EF, K. split; assumption.
  - intros l d p Fst _ _ (A & B). split; [|exact B]. simpl. destruct d; unfold planar; simpl; rnum; repeat split; ring.
Qed.
Lemma step_plane1 S st st' : solver_step S st = Ok st' -> planar_domains S -> no_reset S ->
  every plane_strain1 (s_world st) -> every plane_strain1 (s_world st').
Proof.
  intros E D NR H. apply step_ok in E. destruct E as (w & ca & w2 & ca2 & ca3 & w3 & m3 & w4 & m4 & E1 & E2 & E3 & E4 & E5 & ->). simpl.
  assert (H1 : every plane_strain1 w).
  { eapply every_prepare; [exact E1| |exact H]. intros q (A & B & C). split; [exact A|split; [exact B|apply flat_zero]]. }
  assert (H2 : every plane_strain1 w2) by (eapply every_p2g; [exact E2| |exact H1]; intros q f Hq; exact Hq).
  assert (H3 : every plane_strain1 w3).
  { eapply every_g2p; [exact E4|exact H2|]. intros mx c s it g pts' mm q Hs Hc Eg Eit Hr Hq.
    destruct (g2p_inputs _ _ _ _ _ _ _ _ _ _ _ _ _ E1 E2 E3 Eg Eit) as (k & gd & xs & Egd & Dg & ->).
    assert (D0 := D _ (nth_error_In _ _ Egd)).
    exact (g2p_planar _ _ _ _ _ _ _ _ _ _ _ _ q Hr D0 (eq_trans Dg D0) (fun p Hp => proj1 (Hs p Hp)) Hq). }
  eapply every_constitutive; [exact E5|exact H3| |].
  - intros l p q _ (A & B & C) (_ & _ & _ & _ & _ & _ & K) EF. unfold plane_strain1. rewrite EF, K. auto.
  - intros l d p Fst Hl Hr. rewrite (NR l Hl) in Hr. discriminate.
Qed.
Lemma steps_every (P : Particle R -> Prop) (S : Solver R) : (forall st st', solver_step S st = Ok st' -> every P (s_world st) -> every P (s_world st')) ->
  forall n st st', solver_steps S n st = Ok st' -> every P (s_world st) -> every P (s_world st').
Proof.
  intros K n. induction n as [|n IH]; intros st st' E H; simpl in E.
  - injection E as <-. exact H.
  - apply rbind_ok in E. destruct E as (s1 & E1 & E). eapply IH; [exact E|]. eapply K; eassumption.
Qed.
(** C24 *)
Theorem steps_plane S n st st' : solver_steps S n st = Ok st' -> planar_domains S -> every plane_strain (s_world st) -> every plane_strain (s_world st').
Proof. intros E D. revert n st st' E. apply steps_every. intros st st' E H. eapply step_plane; eassumption. Qed.
Theorem steps_plane1 S n st st' : solver_steps S n st = Ok st' -> planar_domains S -> no_reset S ->
  every plane_strain1 (s_world st) -> every plane_strain1 (s_world st').
Proof. intros E D NR. revert n st st' E. apply steps_every. intros st st' E H. eapply step_plane1; eassumption. Qed.
(** C25 over whole steps, when no law resets F *)
Theorem steps_volume S n st st' : solver_steps S n st = Ok st' -> no_reset S -> every vol_ok (s_world st) -> every vol_ok (s_world st').
Proof.
  intros E NR. revert n st st' E. apply steps_every. intros st st' E H. apply step_ok in E.
  destruct E as (w & ca & w2 & ca2 & ca3 & w3 & m3 & w4 & m4 & E1 & E2 & E3 & E4 & E5 & ->). simpl.
  assert (H1 : every vol_ok w) by (eapply every_prepare; [exact E1| |exact H]; intros q Hq; exact Hq).
  assert (H2 : every vol_ok w2) by (eapply every_p2g; [exact E2| |exact H1]; intros q f Hq; exact Hq).
  assert (H3 : every vol_ok w3).
  { eapply every_g2p; [exact E4|exact H2|]. intros mx c s it g pts' mm q Hs Hc Eg Eit Hr Hq.
    apply g2p_result_kept in Hr. apply In_nth_error in Hq. destruct Hq as (i & Hq).
    destruct (Forall2_nth_error _ _ _ _ _ Hr Hq) as (p & _ & _ & _ & _ & _ & V). exact V. }
  eapply every_constitutive; [exact E5|exact H3| |].
  - intros l p q _ A (_ & _ & _ & _ & K1 & K2 & _) EF. unfold vol_ok in *. rewrite EF, K1, K2. exact A.
  - intros l d p Fst Hl Hr. rewrite (NR l Hl) in Hr. discriminate.
Qed.
(** ... and what a resetting law leaves behind in 2-D *)
Lemma cbar2_det (F : mat3 R) : mdet (compute_cbar D2 F) = 0.
Proof. unfold compute_cbar, mdet, mdiag; simpl; rnum. ring. Qed.
Lemma cbrt_cube (x : R) : Rcbrt x * Rcbrt x * Rcbrt x = x.
Proof.
  assert (Q : forall y, 0 < y -> Rpower y (/ 3) * Rpower y (/ 3) * Rpower y (/ 3) = y).
  { intros y Hy. rewrite <- !Rpower_plus. replace (/ 3 + / 3 + / 3) with 1 by lra. apply Rpower_1, Hy. }
  unfold Rcbrt. destruct (Rlt_dec 0 x) as [H|H]; [apply Q, H|]. destruct (Rlt_dec x 0) as [H'|H'].
  - assert (H2 : 0 < - x) by lra. apply Q in H2.
    transitivity (- (Rpower (- x) (/ 3) * Rpower (- x) (/ 3) * Rpower (- x) (/ 3))); [ring|]. rewrite H2. ring.
  - replace x with 0 by lra. ring.
Qed.
Lemma cbar3_det (F : mat3 R) : mdet (compute_cbar D3 F) = mdet F.
Proof.
  transitivity (Rcbrt (mdet F) * Rcbrt (mdet F) * Rcbrt (mdet F)); [|apply cbrt_cube]. unfold compute_cbar.
  change (ncbrt (mdet F)) with (Rcbrt (mdet F)). generalize (Rcbrt (mdet F)). intro c.
  unfold mdet, mscale, meye; simpl; rnum. ring.
Qed.
(** every 2-D body whose law resets F is left with F22 = 0 and det F = 0 by a step *)
Definition all_soft2 (w : World R) : Prop := forall i s, nth_error (w_mps w) i = Some (Soft s) -> sb_dim s = D2.
Definition all_reset (S : Solver R) : Prop := forall l, In (Some l) (so_laws S) -> law_reset l = true.
Lemma all_soft2_kept w w' : Forall2 body_kept (w_mps w) (w_mps w') -> all_soft2 w -> all_soft2 w'.
Proof.
  intros F H i s Hs. destruct (Forall2_nth_error _ _ _ _ _ F Hs) as (b & Hb & K). destruct b as [b|r]; simpl in K; [|contradiction].
  destruct K as (K & _). rewrite K. apply (H i b Hb).
Qed.
Theorem step_reset S st st' c q : solver_step S st = Ok st' -> all_reset S -> all_soft2 (s_world st) ->
  In c (so_couplings S) -> c_skip c = false -> In q (pts_at (s_world st') (c_p c)) -> m22 (pt_F q) = 0 /\ mdet (pt_F q) = 0.
Proof.
  intros E AR D Hc Sk. apply step_ok in E. destruct E as (w & ca & w2 & ca2 & ca3 & w3 & m3 & w4 & m4 & E1 & E2 & E3 & E4 & E5 & ->). simpl.
  assert (D3 : all_soft2 w3).
  { eapply all_soft2_kept; [apply (proj1 (g2p_kept _ _ _ _ _ _ _ E4))|]. eapply all_soft2_kept; [eapply p2g_kept; exact E2|].
    eapply all_soft2_kept; [eapply prepare_kept; exact E1|exact D]. }
  clear E1 E2 E3 E4 D. unfold constitutive_update in E5.
  assert (G : forall cs w m w' m' (P : nat -> Prop), all_soft2 w -> (forall p, P p -> forall q, In q (pts_at w p) -> m22 (pt_F q) = 0 /\ mdet (pt_F q) = 0) ->
    rfold (constitutive_coupling S (s_dt st)) (w, m) cs = Ok (w', m') ->
    forall p, P p \/ (exists c, In c cs /\ c_skip c = false /\ c_p c = p) -> forall q, In q (pts_at w' p) -> m22 (pt_F q) = 0 /\ mdet (pt_F q) = 0).
  { clear -AR. induction cs as [|c cs IH]; intros w m w' m' P D I E p Hp.
    - injection E as <- <-. destruct Hp as [Hp|(c & [] & _)]. apply I, Hp.
    - cbn [rfold] in E. apply rbind_ok in E. destruct E as ((w1 & m1) & E1 & E). apply constitutive_coupling_ok in E1.
      destruct E1 as [(Sk & -> & ->)|(Sk & s & ci & l & ls & s1 & ls' & Es & _ & _ & El & Hu & -> & _)].
      + eapply IH; [exact D|exact I|exact E|]. destruct Hp as [Hp|(c' & [<-|Hc] & A & B)]; [left; exact Hp|congruence|right; eauto].
      + assert (Lr : law_reset l = true) by (apply AR; eapply nth_error_In, El). rewrite Lr in E.
        apply law_update_kept in Hu. destruct Hu as (Ud & _). assert (Dc : sb_dim s1 = D2) by (rewrite Ud; apply (D _ _ Es)).
        apply (IH _ _ _ _ (fun q => P q \/ q = c_p c)) with (3 := E).
        * intros i s2 Hs2. simpl in Hs2. rewrite set_nth_error in Hs2. destruct (Nat.eqb (c_p c) i); [|apply (D _ _ Hs2)].
          destruct (nth_error (w_mps w) i); [|discriminate]. simpl in Hs2. injection Hs2 as <-. exact Dc.
        * intros x Hx. unfold pts_at. simpl. rewrite set_nth_error. destruct (Nat.eqb_spec (c_p c) x) as [<-|N].
          -- rewrite Es. simpl. intros q Hq. apply in_map_iff in Hq. destruct Hq as (q0 & <- & _). cbn [pt_F set_F]. rewrite Dc.
             split; [reflexivity|apply cbar2_det].
          -- destruct Hx as [Hx|Hx]; [apply I, Hx|congruence].
        * destruct Hp as [Hp|(c' & [<-|Hc] & A & B)]; [left; left; exact Hp|left; right; congruence|right; eauto]. }
  apply (G _ _ _ _ _ (fun _ => False) D3) with (2 := E5); [tauto|]. right. exists c. auto.
Qed.
