(** Whole steps, for every scalar type: bookkeeping, rigid bodies, forces, SDF states (C22, C23, C25, C27-C31). *)
From Coq Require Import List Arith ZArith Lia Bool.
From Verif Require Import Num Linalg Arrays ModelGrid ModelShape ModelMath ModelState ModelLaws ModelForces ModelSolver
  Sums SpecShape ShapeProofs ResFacts SolverFacts SpecSolver.
Import ListNotations.

Section SP.
Context {T : Type} {NT : NumT T}.

(** the phases of a step *)
Lemma step_ok (S : Solver T) st st' : solver_step S st = Ok st' ->
  exists w ca w2 ca2 ca3 w3 m3 w4 m4,
    prepare S st = Ok (w, ca) /\ p2g S w (s_mech st) ca = Ok (w2, ca2) /\
    integrate_grid S w2 (s_mech st) (s_dt st) ca2 = Ok ca3 /\
    g2p S w2 (s_mech st) (s_dt st) ca3 = Ok (w3, m3) /\
    constitutive_update S (s_dt st) w3 m3 = Ok (w4, m4) /\
    st' = {| s_world := w4; s_mech := m4; s_time := nadd (s_time st) (s_dt st); s_step := (s_step st + 1)%Z; s_dt := s_dt st |}.
Proof.
  unfold solver_step. intros E.
  apply rbind_ok in E. destruct E as ((w & ca) & E1 & E). apply rbind_ok in E. destruct E as ((w2 & ca2) & E2 & E).
  apply rbind_ok in E. destruct E as (ca3 & E3 & E). apply rbind_ok in E. destruct E as ((w3 & m3) & E4 & E).
  apply rbind_ok in E. destruct E as ((w4 & m4) & E5 & E). injection E as <-. simpl in *.
  exists w, ca, w2, ca2, ca3, w3, m3, w4, m4. repeat split; assumption.
Qed.

(** *** what no phase changes: kind and dimension of a body, number of points, masses, initial volumes, rigid points *)
Definition body_kept (b b' : Body T) : Prop :=
  match b, b' with
  | Rigid r, Rigid r' => r' = r
  | Soft s, Soft s' => sb_dim s' = sb_dim s /\ sb_storeF s' = sb_storeF s /\
      Forall2 (fun p q => pt_mass q = pt_mass p /\ pt_vol0 q = pt_vol0 p) (sb_pts s) (sb_pts s')
  | _, _ => False
  end.
Lemma body_kept_refl b : body_kept b b.
Proof. destruct b; simpl; [|reflexivity]. repeat split. apply Forall2_refl. auto. Qed.
Lemma body_kept_trans a b c : body_kept a b -> body_kept b c -> body_kept a c.
Proof.
  destruct a, b, c; simpl; try tauto; [|congruence]. intros (A1 & A2 & A3) (B1 & B2 & B3).
  repeat split; try congruence. revert A3 B3. apply Forall2_trans. intuition congruence.
Qed.
Lemma nth_error_ext {A} (l m : list A) : (forall i, nth_error l i = nth_error m i) -> l = m.
Proof.
  revert m; induction l as [|a l IH]; intros [|b m] E; [reflexivity|discriminate (E 0)|discriminate (E 0)|].
  f_equal; [injection (E 0); auto|apply IH; intro i; apply (E (Datatypes.S i))].
Qed.
Lemma Forall2_nth_error_iff {A B} (P : A -> B -> Prop) l m :
  length l = length m -> (forall i a b, nth_error l i = Some a -> nth_error m i = Some b -> P a b) -> Forall2 P l m.
Proof.
  revert m; induction l as [|a l IH]; intros [|b m] Hl Hp; simpl in *; try discriminate; constructor.
  - apply (Hp 0 a b); reflexivity.
  - apply IH; [lia|]. intros i. apply (Hp (Datatypes.S i)).
Qed.
Lemma Forall2_option {A B} (P : A -> B -> Prop) l m f : (forall i, nth_error m i = option_map (f i) (nth_error l i)) ->
  (forall i a, P a (f i a)) -> Forall2 P l m.
Proof.
  intros E Hp. apply Forall2_nth_error_iff.
  - assert (G : forall i, nth_error l i = None <-> nth_error m i = None)
      by (intro i; rewrite E; destruct (nth_error l i); simpl; split; congruence).
    apply Nat.le_antisymm; apply Nat.nlt_ge; intros L; apply nth_error_Some in L; apply L.
    + rewrite G. apply nth_error_None. lia.
    + rewrite <- G. apply nth_error_None. lia.
  - intros i a b Ha Hb. rewrite E, Ha in Hb. injection Hb as <-. apply Hp.
Qed.
Lemma prepare_kept (S : Solver T) st w ca : prepare S st = Ok (w, ca) -> Forall2 body_kept (w_mps (s_world st)) (w_mps w).
Proof.
  intros E. apply prepare_ok in E. destruct E as (R & _). eapply Forall2_option; [exact R|].
  intros i b. cbv beta. destruct (coupled (so_couplings S) i); [|apply body_kept_refl]. destruct b as [s|r]; simpl; [|reflexivity].
  repeat split. apply Forall2_map_r. intros; split; reflexivity.
Qed.
Lemma p2g_kept (S : Solver T) w m ca w' ca' : p2g S w m ca = Ok (w', ca') -> Forall2 body_kept (w_mps w) (w_mps w').
Proof.
  intros E. apply p2g_ok in E. destruct E as (gs & E & _). apply pre_p2g_fold_ok in E. destruct E as (_ & E).
  revert E. apply Forall2_weaken. intros [s|r] [s'|r']; simpl; try tauto; [|congruence].
  intros (A & B & _ & F). repeat split; auto. revert F. apply Forall2_weaken. intros p q ->. split; reflexivity.
Qed.
Lemma g2p_kept (S : Solver T) w m dt ca w' m' : g2p S w m dt ca = Ok (w', m') ->
  Forall2 body_kept (w_mps w) (w_mps w') /\ w_sdfs w' = w_sdfs w /\ m_laws m' = m_laws m /\ m_forces m' = m_forces m.
Proof.
  unfold g2p. intros E.
  refine (rfold_inv (fun wm => Forall2 body_kept (w_mps w) (w_mps (fst wm)) /\ w_sdfs (fst wm) = w_sdfs w /\
            m_laws (snd wm) = m_laws m /\ m_forces (snd wm) = m_forces m) _ _ (w, m) (w', m') _ _ E).
  - intros (w1 & m1) c (w2 & m2) _ (I1 & I2 & I3 & I4) E1. apply g2p_coupling_ok in E1.
    destruct E1 as [(_ & -> & ->)|(_ & s & it & g & pts' & _ & _ & Es & Hr & ->)]; [auto|]. simpl in *.
    split.
    + destruct (Forall2_nth_error _ _ _ _ _ I1 Es) as (b0 & Hb0 & Hk). eapply Forall2_set_nth; [exact I1|exact Hb0|].
      eapply body_kept_trans; [exact Hk|]. apply g2p_result_kept in Hr. simpl. repeat split.
      revert Hr. apply Forall2_weaken. unfold kept. tauto.
    + split; [exact I2|]. unfold g2p_result in Hr. destruct (so_scheme S).
      * destruct Hr as (-> & _). auto.
      * destruct Hr as (_ & gd & B & _ & _ & _ & ->). auto.
  - simpl. split; [apply Forall2_refl, body_kept_refl|auto].
Qed.
Lemma constitutive_kept (S : Solver T) dt w m w' m' : constitutive_update S dt w m = Ok (w', m') ->
  Forall2 body_kept (w_mps w) (w_mps w') /\ w_sdfs w' = w_sdfs w /\ m_solvers m' = m_solvers m /\ m_forces m' = m_forces m.
Proof.
  unfold constitutive_update. intros E.
  refine (rfold_inv (fun wm => Forall2 body_kept (w_mps w) (w_mps (fst wm)) /\ w_sdfs (fst wm) = w_sdfs w /\
            m_solvers (snd wm) = m_solvers m /\ m_forces (snd wm) = m_forces m) _ _ (w, m) (w', m') _ _ E).
  - intros (w1 & m1) c (w2 & m2) _ (I1 & I2 & I3 & I4) E1. apply constitutive_coupling_ok in E1.
    destruct E1 as [(_ & -> & ->)|(_ & s & ci & l & ls & s1 & ls' & Es & _ & _ & _ & Hu & -> & ->)]; [auto|]. simpl in *.
    split; [|auto].
    destruct (Forall2_nth_error _ _ _ _ _ I1 Es) as (b0 & Hb0 & Hk). eapply Forall2_set_nth; [exact I1|exact Hb0|].
    eapply body_kept_trans; [exact Hk|]. apply law_update_kept in Hu. destruct Hu as (U1 & U2 & _ & U3).
    pose proof (remove_shear_kept (law_reset l) s1) as R. cbv zeta in R. destruct R as (R1 & R2 & _ & R3). simpl.
    repeat split; try congruence.
    assert (U3' : Forall2 law_kept (sb_pts s) (sb_pts s1)) by (revert U3; apply Forall2_weaken; tauto).
    pose proof (Forall2_trans _ law_kept_trans _ _ _ U3' R3) as F. revert F. apply Forall2_weaken. unfold law_kept. tauto.
  - simpl. split; [apply Forall2_refl, body_kept_refl|auto].
Qed.
Lemma step_kept (S : Solver T) st st' : solver_step S st = Ok st' ->
  Forall2 body_kept (w_mps (s_world st)) (w_mps (s_world st')).
Proof.
  intros E. apply step_ok in E. destruct E as (w & ca & w2 & ca2 & ca3 & w3 & m3 & w4 & m4 & E1 & E2 & E3 & E4 & E5 & ->).
  apply prepare_kept in E1. apply p2g_kept in E2. apply g2p_kept in E4. apply constitutive_kept in E5. simpl.
  eapply (Forall2_trans _ body_kept_trans); [exact E1|]. eapply (Forall2_trans _ body_kept_trans); [exact E2|].
  eapply (Forall2_trans _ body_kept_trans); [apply E4|apply E5].
Qed.
Lemma steps_kept (S : Solver T) n : forall st st', solver_steps S n st = Ok st' ->
  Forall2 body_kept (w_mps (s_world st)) (w_mps (s_world st')) /\
  s_step st' = (s_step st + Z.of_nat n)%Z /\ s_dt st' = s_dt st /\
  s_time st' = Nat.iter n (fun t => nadd t (s_dt st)) (s_time st).
Proof.
  induction n as [|n IH]; intros st st' E.
  - injection E as <-. split; [apply Forall2_refl, body_kept_refl|]. repeat split. simpl; lia.
  - cbn [solver_steps] in E. apply rbind_ok in E. destruct E as (s1 & E1 & E). destruct (IH _ _ E) as (K & K1 & K2 & K3).
    split; [eapply (Forall2_trans _ body_kept_trans); [eapply step_kept; exact E1|exact K]|].
    apply step_ok in E1. destruct E1 as (w & ca & w2 & ca2 & ca3 & w3 & m3 & w4 & m4 & _ & _ & _ & _ & _ & ->).
    simpl in *. repeat split.
    + rewrite K1. lia.
    + exact K2.
    + rewrite K3. generalize (s_time st) as t, (s_dt st) as h. clear. intros t h.
      induction n as [|n IH]; [reflexivity|]. simpl in *. rewrite IH. reflexivity.
Qed.

(** *** C23 *)
Lemma rigid_unchanged (S : Solver T) n st st' p r : solver_steps S n st = Ok st' ->
  nth_error (w_mps (s_world st)) p = Some (Rigid r) -> nth_error (w_mps (s_world st')) p = Some (Rigid r).
Proof.
  intros E Hr. apply steps_kept in E. destruct E as (K & _).
  destruct (Forall2_nth_error_l _ _ _ _ _ K Hr) as (b & Hb & Hk). destruct b; simpl in Hk; [tauto|congruence].
Qed.
(** a body no active coupling mentions keeps every field but the reset ones *)

(** *** C25: volumes after G2P *)
Definition vol_ok (p : Particle T) : Prop := pt_vol p = nmul (mdet (pt_F p)) (pt_vol0 p).
Lemma g2p_volume (S : Solver T) w m dt ca w' m' : g2p S w m dt ca = Ok (w', m') ->
  forall c, In c (so_couplings S) -> c_skip c = false -> Forall vol_ok (pts_at w' (c_p c)).
Proof.
  unfold g2p. generalize (so_couplings S) as cs. intros cs E.
  assert (G : forall cs w m w' m' (P : nat -> Prop), (forall p, P p -> Forall vol_ok (pts_at w p)) ->
    rfold (g2p_coupling S ca dt) (w, m) cs = Ok (w', m') ->
    forall p, P p \/ (exists c, In c cs /\ c_skip c = false /\ c_p c = p) -> Forall vol_ok (pts_at w' p)).
  { clear. induction cs as [|c cs IH]; intros w m w' m' P I E p Hp.
    - injection E as <- <-. destruct Hp as [Hp|(c & [] & _)]. apply I, Hp.
    - cbn [rfold] in E. apply rbind_ok in E. destruct E as ((w1 & m1) & E1 & E). apply g2p_coupling_ok in E1.
      destruct E1 as [(Sk & -> & ->)|(Sk & s & it & g & pts' & _ & _ & Es & Hr & ->)].
      + eapply IH; [exact I|exact E|]. destruct Hp as [Hp|(c' & [<-|Hc] & A & B)]; [left; exact Hp|congruence|right; eauto].
      + apply (IH _ _ _ _ (fun q => P q \/ q = c_p c)) with (2 := E).
        * intros q Hq. unfold pts_at. simpl. rewrite set_nth_error.
          destruct (Nat.eqb_spec (c_p c) q) as [<-|N].
          -- rewrite Es. simpl. apply g2p_result_kept in Hr. clear -Hr. induction Hr as [|a b l l' (_ & _ & _ & _ & H) F IH]; constructor; auto.
          -- destruct Hq as [Hq|Hq]; [apply I, Hq|congruence].
        * destruct Hp as [Hp|(c' & [<-|Hc] & A & <-)]; [left; left; exact Hp|left; right; reflexivity|right; eauto]. }
  intros c Hc Hs. eapply (G cs w m w' m' (fun _ => False)); [intros p []|exact E|right; eauto].
Qed.

(** *** C27: the external forces stored in the state never matter for a coupled body *)
Definition forces_irrelevant (S : Solver T) (w w' : World T) : Prop :=
  w_sdfs w' = w_sdfs w /\
  Forall2 (fun ib b' => reset_body (snd ib) = reset_body b' /\ (coupled (so_couplings S) (fst ib) = false -> snd ib = b'))
          (enum (w_mps w)) (w_mps w').
Lemma reset_eq (S : Solver T) w w' w1 : forces_irrelevant S w w' ->
  reset_material_points (so_couplings S) w = Ok w1 -> reset_material_points (so_couplings S) w' = Ok w1.
Proof.
  intros (Hs & F) E. pose proof E as E0. apply reset_ok in E0. destruct E0 as (K1 & K2).
  assert (L : length (w_mps w) = length (w_mps w')) by (rewrite <- (Forall2_len _ _ _ F), enum_length; reflexivity).
  assert (X : exists w2, reset_material_points (so_couplings S) w' = Ok w2).
  { unfold reset_material_points in *. apply rbind_ok in E. destruct E as (l & E & _).
    assert (G : forall (a b : list (Body T)) x a', In x (so_couplings S) -> length a = length b ->
      upd_idx a (c_p x) (fun b => Ok (reset_body b)) = Ok a' ->
      exists b', upd_idx b (c_p x) (fun b => Ok (reset_body b)) = Ok b' /\ length a' = length b').
    { intros a b x a' _ Hl Ea. apply upd_idx_ok in Ea. destruct Ea as (u & v & Hu & Hv & ->).
      destruct (nth_error b (c_p x)) as [ub|] eqn:Eb.
      - exists (set_nth (c_p x) (reset_body ub) b). unfold upd_idx. rewrite (idx_some _ _ _ Eb). simpl.
        split; [reflexivity|rewrite !set_nth_length; exact Hl].
      - exfalso. apply nth_error_None in Eb. assert (c_p x < length a) by (apply nth_error_Some; congruence). lia. }
    destruct (rfold_rel (fun a b : list (Body T) => length a = length b) _ _ _ _ (w_mps w') l G L E) as (l' & E' & _).
    rewrite E'. simpl. eauto. }
  destruct X as (w2 & X). rewrite X. f_equal. apply reset_ok in X. destruct X as (X1 & X2).
  destruct w1 as [m1 s1], w2 as [m2 s2]; simpl in *. f_equal; [|congruence]. apply nth_error_ext. intro p.
  rewrite X2, K2. destruct (nth_error (w_mps w) p) as [b|] eqn:Eb.
  - assert (Ee : nth_error (enum (w_mps w)) p = Some (p, b)) by (rewrite enum_nth_error, Eb; reflexivity).
    destruct (Forall2_nth_error_l _ _ _ _ _ F Ee) as (b' & -> & Hr & Hn). simpl in *.
    destruct (coupled (so_couplings S) p); [rewrite Hr; reflexivity|rewrite Hn; reflexivity].
  - apply nth_error_None in Eb. rewrite L in Eb. apply nth_error_None in Eb. rewrite Eb. reflexivity.
Qed.
Lemma forces_ignored (S : Solver T) st w' st1 : forces_irrelevant S (s_world st) w' -> solver_step S st = Ok st1 ->
  solver_step S {| s_world := w'; s_mech := s_mech st; s_time := s_time st; s_step := s_step st; s_dt := s_dt st |} = Ok st1.
Proof.
  intros F E. assert (P : forall wc, prepare S st = Ok wc ->
    prepare S {| s_world := w'; s_mech := s_mech st; s_time := s_time st; s_step := s_step st; s_dt := s_dt st |} = Ok wc).
  { intros wc Ep. unfold prepare in *. simpl. apply rbind_ok in Ep. destruct Ep as (w1 & E1 & Ep).
    unfold kinematic_update in *. apply rbind_ok in E1. destruct E1 as (l & El & E1). injection E1 as <-.
    destruct F as (Fs & F). rewrite Fs, El. simpl. apply rbind_ok in Ep. destruct Ep as (w2 & E2 & Ep).
    assert (E2' : reset_material_points (so_couplings S) {| w_mps := w_mps w'; w_sdfs := l |} = Ok w2)
      by (eapply reset_eq; [|exact E2]; split; [reflexivity|exact F]).
    rewrite E2'. exact Ep. }
  unfold solver_step in *. apply rbind_ok in E. destruct E as (wc & E1 & E). rewrite (P _ E1). exact E.
Qed.
End SP.
