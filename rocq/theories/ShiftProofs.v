(** Two steps whose nodal velocities differ by a constant: the particles differ by that velocity and by nothing else.
    Used for gravity (C52) and for observers in uniform motion (C98). *)
From Coq Require Import List Arith ZArith Reals Bool Lra Lia.
From Verif Require Import Num NumR Linalg Arrays ModelGrid ModelShape ModelMath ModelState ModelLaws ModelForces ModelSolver
  Sums ShapeFacts SpecShape ShapeProofs ShapeProofs2 ShapeProofs3 MappingProofs ResFacts SolverFacts SpecSolver
  TransferProofs TransferProofs2 StepProofs GatherProofs MomentumProofs AffineProofs StepAffine HeavyProofs SolverMore.
Import ListNotations.
Local Open Scope R_scope.

(** equal in everything but position and velocity *)
Definition same_matter {T} (p q : Particle T) : Prop :=
  pt_mass p = pt_mass q /\ pt_force p = pt_force q /\ pt_vol p = pt_vol q /\ pt_vol0 p = pt_vol0 q /\ pt_L p = pt_L q /\
  pt_stress p = pt_stress q /\ pt_F p = pt_F q /\ pt_Fst p = pt_Fst q.
Definition same_body {T} (b c : Body T) : Prop :=
  match b, c with
  | Soft s, Soft t => sb_dim s = sb_dim t /\ sb_storeF s = sb_storeF t /\ sb_vol0d s = sb_vol0d t /\ Forall2 same_matter (sb_pts s) (sb_pts t)
  | Rigid r, Rigid q => r = q
  | _, _ => False
  end.
Lemma same_matter_refl {T} (p : Particle T) : same_matter p p. Proof. repeat split. Qed.
Lemma same_body_refl {T} (b : Body T) : same_body b b.
Proof. destruct b; simpl; [repeat split; apply Forall2_refl, same_matter_refl|reflexivity]. Qed.

(** *** laws do not look at position or velocity *)
Section Blind.
Context {T : Type} {NT : NumT T}.
Definition same_soft (s t : SoftBody T) : Prop := same_body (Soft s) (Soft t).
Lemma blind_map (f : Particle T -> Particle T) l m : (forall p q, same_matter p q -> same_matter (f p) (f q)) ->
  Forall2 same_matter l m -> Forall2 same_matter (map f l) (map f m).
Proof. intros H F. induction F; simpl; constructor; auto. Qed.
Lemma blind_combine {A} (f : Particle T * A -> Particle T) l m (r : list A) :
  (forall p q x, same_matter p q -> same_matter (f (p, x)) (f (q, x))) ->
  Forall2 same_matter l m -> Forall2 same_matter (map f (combine l r)) (map f (combine m r)).
Proof. intros H F. revert r. induction F; intros [|z r]; simpl; constructor; auto. Qed.
Lemma blind_eq {A B} (f : Particle T * A -> B) l m (r : list A) :
  (forall p q x, same_matter p q -> f (p, x) = f (q, x)) ->
  Forall2 same_matter l m -> map f (combine l r) = map f (combine m r).
Proof. intros H F. revert r. induction F; intros [|z r]; simpl; try reflexivity. f_equal; auto. Qed.
Lemma set_stress_same (p q : Particle T) a b : same_matter p q -> a = b -> same_matter (set_stress p a) (set_stress q b).
Proof. intros (A & B & C & D & E & F & G & H) ->. repeat split; assumption. Qed.
Lemma density_same (p q : Particle T) : same_matter p q -> density p = density q.
Proof. intros (A & B & C & _). unfold density. rewrite A, C. reflexivity. Qed.
Lemma law_update_blind l (s t : SoftBody T) ls dt s' t' ls1 ls2 : same_soft s t -> law_update l s ls dt = Ok (s', ls1) -> law_update l t ls dt = Ok (t', ls2) ->
  same_soft s' t' /\ ls1 = ls2.
Proof.
  intros (D & F & V & P). pose proof (Forall2_len _ _ _ P) as L.
  unfold law_update. destruct l as [m|m|m|m|m]; cbv zeta.
  - intros E1 E2. injection E1 as <- <-. injection E2 as <- <-. split; [|reflexivity]. repeat split; try assumption.
    cbn [sb_pts set_pts]. apply blind_map; [|exact P]. intros p q H. apply set_stress_same; [exact H|].
    destruct H as (_ & _ & _ & _ & -> & -> & _). reflexivity.
  - destruct ls as [[|r| |]|]; try discriminate. rewrite V, L. destruct (_ || _)%bool; [discriminate|]. intros E1 E2.
    injection E1 as <- <-. injection E2 as <- <-. split; [|reflexivity]. repeat split; try assumption. cbn [sb_pts set_pts].
    apply blind_combine; [|exact P]. intros p q x H. apply set_stress_same; [exact H|]. cbn [fst snd].
    destruct H as (-> & _ & -> & _ & -> & _). reflexivity.
  - destruct ls as [[|r| |]|]; try discriminate. rewrite V, L. destruct (_ || _)%bool; [discriminate|]. intros E1 E2.
    injection E1 as <- <-. injection E2 as <- <-. split; [|reflexivity]. repeat split; try assumption. cbn [sb_pts set_pts].
    apply blind_combine; [|exact P]. intros p q x H. apply set_stress_same; [exact H|]. cbn [fst snd].
    destruct H as (-> & _ & -> & _ & -> & _). reflexivity.
  - destruct ls as [[| |ds|]|]; try discriminate. rewrite L. destruct (negb _); [discriminate|]. intros E1 E2.
    injection E1 as <- <-. injection E2 as <- <-.
    match goal with |- context [combine (sb_pts s) (map ?f (combine (sb_pts s) ds))] => assert (R : map f (combine (sb_pts s) ds) = map f (combine (sb_pts t) ds)) end.
    { apply blind_eq; [|exact P]. intros p q x H. cbn [fst snd]. rewrite (density_same _ _ H). destruct H as (_ & _ & _ & _ & -> & _). reflexivity. }
    rewrite R. split; [|reflexivity]. repeat split; try assumption. cbn [sb_pts set_pts]. apply blind_combine; [|exact P].
    intros p q x H. apply set_stress_same; [exact H|reflexivity].
  - destruct ls as [[| | |pc [sref|] ee]|]; try discriminate. rewrite L. destruct (negb _); [discriminate|]. intros E1 E2.
    injection E1 as <- <-. injection E2 as <- <-.
    match goal with |- context [combine (sb_pts s) (map ?f (seq 0 ?n))] => match goal with |- context [combine (sb_pts t) (map ?h (seq 0 n))] =>
      assert (R : map f (seq 0 n) = map h (seq 0 n)) end end.
    { apply map_ext. intro i. match goal with |- context [nth i (sb_pts s) ?d] => assert (H : same_matter (nth i (sb_pts s) d) (nth i (sb_pts t) d)) end.
      { clear -P. revert i. induction P as [|p q l m H _ IH]; intros [|i]; simpl; try apply same_matter_refl; [exact H|apply IH]. }
      rewrite (density_same _ _ H). destruct H as (_ & _ & _ & _ & -> & -> & _). reflexivity. }
    rewrite R. split; [|reflexivity]. repeat split; try assumption. cbn [sb_pts set_pts]. apply blind_combine; [|exact P].
    intros p q x H. apply set_stress_same; [exact H|reflexivity].
Qed.
Lemma shear_blind r (s t : SoftBody T) : same_soft s t -> same_soft (remove_accumulated_shear r s) (remove_accumulated_shear r t).
Proof.
  intros (D & F & V & P). unfold remove_accumulated_shear. destruct r; [|repeat split; assumption]. repeat split; try assumption.
  cbn [sb_pts set_pts]. rewrite D, F. apply blind_map; [|exact P]. intros p q (A & B & C & G & E & H & I & J).
  rewrite I, J. repeat split; assumption.
Qed.
Definition blind_rel (a b : World T * Mechanics T) : Prop :=
  Forall2 same_body (w_mps (fst a)) (w_mps (fst b)) /\ m_laws (snd a) = m_laws (snd b) /\ m_solvers (snd a) = m_solvers (snd b).
Lemma constitutive_blind (S S' : Solver T) dt : so_couplings S = so_couplings S' -> so_laws S = so_laws S' -> forall a b a' b', blind_rel a b ->
  constitutive_update S dt (fst a) (snd a) = Ok a' -> constitutive_update S' dt (fst b) (snd b) = Ok b' -> blind_rel a' b'.
Proof.
  intros Hc Hl. unfold constitutive_update. rewrite Hc. clear Hc. induction (so_couplings S') as [|c cs IH]; intros [w m] [w0 m0] a' b' Rl E1 E2.
  - simpl in *. injection E1 as <-. injection E2 as <-. exact Rl.
  - cbn [rfold fst snd] in E1, E2. apply rbind_ok in E1. destruct E1 as ([w1 m1] & F1 & E1). apply rbind_ok in E2. destruct E2 as ([w2 m2] & F2 & E2).
    refine (IH (w1, m1) (w2, m2) _ _ _ E1 E2). apply constitutive_coupling_ok in F1. apply constitutive_coupling_ok in F2.
    destruct F1 as [(K & -> & ->)|(K & s & ci & l & ls & s1 & ls' & B1 & B2 & B3 & B4 & B5 & -> & ->)];
    destruct F2 as [(K' & -> & ->)|(K' & s' & ci' & l' & ls0 & s1' & ls0' & C1 & C2 & C3 & C4 & C5 & -> & ->)]; try congruence.
    destruct Rl as (R1 & R2 & R3). cbn [fst snd] in *. rewrite B2 in C2. injection C2 as <-. rewrite <- R2, B3 in C3. injection C3 as <-.
    rewrite <- Hl, B4 in C4. injection C4 as <-.
    destruct (Forall2_nth_error_l _ _ _ _ _ R1 B1) as (y & Hy & Hxy). rewrite C1 in Hy. injection Hy as <-.
    destruct (law_update_blind _ _ _ _ _ _ _ _ _ Hxy B5 C5) as (Q1 & Q2). subst ls0'.
    split; [|split; [|exact R3]]; cbn [fst snd w_mps set_mps m_laws].
    + apply Forall2_set_nth2; [exact R1|]. apply shear_blind, Q1.
    + rewrite R2. reflexivity.
Qed.
End Blind.

Ltac vring := repeat first [rewrite vcomp_add|rewrite vcomp_scale|rewrite vcomp_sub]; rnum; ring.
(** *** gathering from nodes whose velocities differ by a constant *)
Section Gathered.
Variables (rows : list (Interaction R)) (p : nat) (cut : R) (g1 g0 : Grid R) (mom1 mom0 : list (vec3 R)) (v : vec3 R).
Hypothesis Pou : sumR it_val (of_point p rows) = 1.
Hypothesis Gz : vsum it_grad (of_point p rows) = vzero.
Hypothesis Hn : forall it, In it (of_point p rows) -> it_val it <> 0 \/ it_grad it <> vzero ->
  node_vel cut (gr_dim g1) g1 mom1 it = vadd (node_vel cut (gr_dim g0) g0 mom0 it) v.
Lemma pic_shift : pic_vel cut rows g1 mom1 p = vadd (pic_vel cut rows g0 mom0 p) v.
Proof.
  apply vcomp_eq. intro a. unfold pic_vel. rewrite vcomp_add, !vcomp_vsum.
  rewrite (sumR_ext _ (fun it => vcomp a (vscale (it_val it) (node_vel cut (gr_dim g0) g0 mom0 it)) + vcomp a v * it_val it)).
  - rewrite sumR_plus, sumR_scal, Pou. ring.
  - intros it Hi. rewrite !vcomp_scale. destruct (Req_dec (it_val it) 0) as [Z|Z]; [rewrite Z; ring|].
    rewrite (Hn it Hi (or_introl Z)), vcomp_add. ring.
Qed.
Lemma grad_shift a c : sumR (fun it => vcomp c (it_grad it) * vcomp a (node_vel cut (gr_dim g1) g1 mom1 it)) (of_point p rows)
  = sumR (fun it => vcomp c (it_grad it) * vcomp a (node_vel cut (gr_dim g0) g0 mom0 it)) (of_point p rows).
Proof.
  rewrite (sumR_ext _ (fun it => vcomp c (it_grad it) * vcomp a (node_vel cut (gr_dim g0) g0 mom0 it) + vcomp a v * vcomp c (it_grad it))).
  - rewrite sumR_plus, sumR_scal. rewrite <- (vcomp_vsum c it_grad), Gz, vcomp_zero. ring.
  - intros it Hi. destruct (Req_dec (vcomp c (it_grad it)) 0) as [Z|Z]; [rewrite Z; ring|].
    assert (Z' : it_grad it <> vzero) by (intros X; apply Z; rewrite X; apply vcomp_zero).
    rewrite (Hn it Hi (or_intror Z')), vcomp_add. ring.
Qed.
Lemma usl_L_shift : msum (fun it => outer (it_grad it) (vopp (node_vel cut (gr_dim g1) g1 mom1 it))) (of_point p rows)
  = msum (fun it => outer (it_grad it) (vopp (node_vel cut (gr_dim g0) g0 mom0 it))) (of_point p rows).
Proof.
  apply mcomp_eq. intros a c. rewrite !mcomp_msum.
  rewrite (sumR_ext_all _ (fun it => -1 * (vcomp a (it_grad it) * vcomp c (node_vel cut (gr_dim g1) g1 mom1 it)))) by (intro it; rewrite mcomp_outer, vcomp_opp; ring).
  rewrite (sumR_ext_all (fun it => mcomp a c (outer _ (vopp (node_vel cut (gr_dim g0) g0 mom0 it))))
    (fun it => -1 * (vcomp a (it_grad it) * vcomp c (node_vel cut (gr_dim g0) g0 mom0 it)))) by (intro it; rewrite mcomp_outer, vcomp_opp; ring).
  rewrite !sumR_scal, grad_shift. reflexivity.
Qed.
Lemma aflip_B_shift : msum (fun it => mopp (outer (node_vel cut (gr_dim g1) g1 mom1 it) (it_grad it))) (of_point p rows)
  = msum (fun it => mopp (outer (node_vel cut (gr_dim g0) g0 mom0 it) (it_grad it))) (of_point p rows).
Proof.
  apply mcomp_eq. intros a c. rewrite !mcomp_msum.
  rewrite (sumR_ext_all _ (fun it => -1 * (vcomp c (it_grad it) * vcomp a (node_vel cut (gr_dim g1) g1 mom1 it)))) by (intro it; rewrite mcomp_opp, mcomp_outer; ring).
  rewrite (sumR_ext_all (fun it => mcomp a c (mopp (outer (node_vel cut (gr_dim g0) g0 mom0 it) _)))
    (fun it => -1 * (vcomp c (it_grad it) * vcomp a (node_vel cut (gr_dim g0) g0 mom0 it)))) by (intro it; rewrite mcomp_opp, mcomp_outer; ring).
  rewrite !sumR_scal, grad_shift. reflexivity.
Qed.
End Gathered.

(** what the velocity limiter may do to the difference *)
Definition shifted (sch : Scheme R) (cell dt : R) (v : vec3 R) (q1 q0 : Particle R) : Prop :=
  same_matter q1 q0 /\ pt_pos q1 = vadd (pt_pos q0) (vscale dt v) /\
  match sch with
  | USL => pt_vel q1 = vadd (pt_vel q0) v
  | ASFLIP a => exists u, pt_vel q0 = cfl_clamp a cell dt u /\ pt_vel q1 = cfl_clamp a cell dt (vadd u v)
  end.

Section G2P.
Variables (S S' : Solver R) (ca1 ca0 : SimCache R) (dt : R) (m1 m0 m1' m0' : Mechanics R) (c : Coupling) (s1 s0 : SoftBody R) (gd : GridDomain R)
  (rows : list (Interaction R)) (g1 g0 : Grid R) (qs1 qs0 : list (Particle R)) (v v' : vec3 R).
Hypothesis Es : so_scheme S' = so_scheme S.
Hypothesis Ea : so_alpha S' = so_alpha S.
Hypothesis Ed : so_domains S' = so_domains S.
Hypothesis Egd : nth_error (so_domains S) (c_g c) = Some gd.
Hypothesis R1 : g2p_result S ca1 dt m1 c s1 rows g1 qs1 m1'.
Hypothesis R0 : g2p_result S' ca0 dt m0 c s0 rows g0 qs0 m0'.
Hypothesis Mo : masks_one rows.
Hypothesis Sb : sb_storeF s1 = sb_storeF s0.
Hypothesis Sp : Forall2 (fun p q => same_matter p q /\ pt_pos p = pt_pos q /\ pt_vel p = vadd (pt_vel q) v) (sb_pts s1) (sb_pts s0).
Hypothesis Gd : gr_dim g1 = gr_dim g0.
Hypothesis Gm : gr_mass g1 = gr_mass g0.
Hypothesis Pou : forall p, (p < length (sb_pts s0))%nat -> sumR it_val (of_point p rows) = 1.
Hypothesis Gz : forall p, (p < length (sb_pts s0))%nat -> vsum it_grad (of_point p rows) = vzero.
Hypothesis Ho : forall it, In it rows -> it_val it <> 0 \/ it_grad it <> vzero ->
  node_vel (cut_of S) (gr_dim g1) g1 (gr_mom g1) it = vadd (node_vel (cut_of S) (gr_dim g0) g0 (gr_mom g0) it) v.
Hypothesis Hn : forall it, In it rows -> it_val it <> 0 \/ it_grad it <> vzero ->
  node_vel (cut_of S) (gr_dim g1) g1 (gr_mom_nt g1) it = vadd (node_vel (cut_of S) (gr_dim g0) g0 (gr_mom_nt g0) it) v'.

Lemma g2p_shifted : Forall2 (shifted (so_scheme S) (gd_cell gd) dt v') qs1 qs0.
Proof.
  pose proof (Forall2_len _ _ _ Sp) as Ls.
  unfold g2p_result in R1, R0. rewrite Es in R0. unfold cut_of in Ho, Hn. destruct (so_scheme S) as [|a] eqn:Sch.
  - destruct R1 as (_ & geos1 & _ & -> & _). destruct R0 as (_ & geos0 & _ & -> & _). rewrite Ea.
    apply nth_Forall2 with (d := pt0) (e := pt0); [rewrite !g2p_usl_length; exact Ls|]. rewrite g2p_usl_length. intros n Hn'.
    rewrite !g2p_usl_nth by (try exact Mo; lia). rewrite !usl_delta_pic.
    assert (Hq : (n < length (sb_pts s0))%nat) by lia.
    assert (In1 : forall it, In it (of_point n rows) -> In it rows) by (intros it H; apply in_of_point in H; tauto).
    rewrite (pic_shift rows n cut12 g1 g0 (gr_mom_nt g1) (gr_mom_nt g0) v' (Pou n Hq)) by (intros it H; apply Hn; auto).
    rewrite (pic_shift rows n cut12 g1 g0 (gr_mom g1) (gr_mom g0) v (Pou n Hq)) by (intros it H; apply Ho; auto).
    rewrite (usl_L_shift rows n cut12 g1 g0 (gr_mom_nt g1) (gr_mom_nt g0) v' (Gz n Hq)) by (intros it H; apply Hn; auto).
    destruct (Forall2_nth_d _ _ _ pt0 pt0 n Sp Hn') as ((A & B & C & D & E & F & G & H) & P & V). rewrite Gd.
    unfold usl_update, g2p_point, shifted, same_matter. cbn [pt_pos pt_vel pt_mass pt_force pt_vol pt_vol0 pt_L pt_stress pt_F pt_Fst].
    rewrite A, B, D, F, G, H, P, V. repeat split; apply vcomp_eq; intro i; vring.
  - destruct R1 as (_ & gd1 & B1 & X1 & _ & -> & _). destruct R0 as (_ & gd0 & B0 & X0 & _ & -> & _). rewrite Ed in X0. rewrite Egd in X1, X0.
    injection X1 as <-. injection X0 as <-. rewrite Ea.
    apply nth_Forall2 with (d := pt0) (e := pt0); [rewrite !g2p_aflip_length; exact Ls|]. rewrite g2p_aflip_length. intros n Hn'.
    rewrite !g2p_aflip_nth by lia. unfold af_B.
    assert (Hq : (n < length (sb_pts s0))%nat) by lia.
    assert (In1 : forall it, In it (of_point n rows) -> In it rows) by (intros it H; apply in_of_point in H; tauto).
    rewrite (pic_shift rows n (af_cutoff a) g1 g0 (gr_mom_nt g1) (gr_mom_nt g0) v' (Pou n Hq)) by (intros it H; apply Hn; auto).
    rewrite (pic_shift rows n (af_cutoff a) g1 g0 (gr_mom g1) (gr_mom g0) v (Pou n Hq)) by (intros it H; apply Ho; auto).
    rewrite (aflip_B_shift rows n (af_cutoff a) g1 g0 (gr_mom_nt g1) (gr_mom_nt g0) v' (Gz n Hq)) by (intros it H; apply Hn; auto).
    destruct (Forall2_nth_d _ _ _ pt0 pt0 n Sp Hn') as ((A & B & C & D & E & F & G & H) & P & V). rewrite Gd, Gm, Sb.
    unfold aflip_update, g2p_point, shifted, same_matter. cbv zeta. cbn [pt_pos pt_vel pt_mass pt_force pt_vol pt_vol0 pt_L pt_stress pt_F pt_Fst].
    rewrite A, B, D, F, G, H, P, V.
    split; [repeat split|]. split.
    + apply vcomp_eq; intro i; vring.
    + eexists. split; [reflexivity|]. f_equal.
      apply vcomp_eq; intro i; vring.
Qed.
Lemma g2p_stored_same a : so_scheme S = ASFLIP a -> forall n, (n < length (sb_pts s0))%nat ->
  nth n (snd (g2p_aflip a (so_alpha S) dt gd (sb_storeF s1) rows g1 (sb_pts s1))) mzero
  = nth n (snd (g2p_aflip a (so_alpha S) dt gd (sb_storeF s0) rows g0 (sb_pts s0))) mzero.
Proof.
  intros Sch n Hq. pose proof (Forall2_len _ _ _ Sp) as Ls. rewrite !g2p_aflip_B_nth by lia. unfold af_B. unfold cut_of in Hn. rewrite Sch in Hn.
  apply (aflip_B_shift rows n (af_cutoff a) g1 g0 (gr_mom_nt g1) (gr_mom_nt g0) v' (Gz n Hq)). intros it H; apply Hn. apply in_of_point in H; tauto.
Qed.
End G2P.

(** *** two whole steps *)
Definition boosted (v : vec3 R) (b c : Body R) : Prop :=
  match b, c with
  | Soft s, Soft t => sb_dim s = sb_dim t /\ sb_storeF s = sb_storeF t /\ sb_vol0d s = sb_vol0d t /\
      Forall2 (fun p q => same_matter p q /\ pt_pos p = pt_pos q /\ pt_vel p = vadd (pt_vel q) v) (sb_pts s) (sb_pts t)
  | Rigid r, Rigid q => r = q
  | _, _ => False
  end.
Lemma Forall2_by_nth {A B} (P : A -> B -> Prop) l m : length l = length m ->
  (forall n x y, nth_error l n = Some x -> nth_error m n = Some y -> P x y) -> Forall2 P l m.
Proof.
  revert m. induction l as [|x l IH]; intros [|y m] L H; try discriminate; constructor.
  - apply (H 0%nat); reflexivity.
  - apply IH; [injection L; auto|]. intros n a b. apply (H (Datatypes.S n)).
Qed.
Lemma g2p_laws {T} {NT : NumT T} (S : Solver T) w m dt ca w' m' : g2p S w m dt ca = Ok (w', m') -> m_laws m' = m_laws m.
Proof.
  unfold g2p. intros E. refine (rfold_inv (fun wm => m_laws (snd wm) = m_laws m) _ _ (w, m) (w', m') _ _ E); [|reflexivity].
  intros (w1 & m1) c (w2 & m2) _ I E1. cbn [snd] in *. apply g2p_coupling_ok in E1.
  destruct E1 as [(_ & _ & ->)|(Es & s & it & g & pts' & _ & _ & _ & H & _)]; [exact I|].
  unfold g2p_result in H. destruct (so_scheme S); [destruct H as (-> & _); exact I|]. destruct H as (_ & gd & B & _ & _ & _ & ->). exact I.
Qed.
Lemma g2p_mps_length {T} {NT : NumT T} (S : Solver T) w m dt ca w' m' : g2p S w m dt ca = Ok (w', m') -> length (w_mps w') = length (w_mps w) /\ length (m_solvers m') = length (m_solvers m).
Proof.
  unfold g2p. intros E. refine (rfold_inv (fun wm => length (w_mps (fst wm)) = length (w_mps w) /\ length (m_solvers (snd wm)) = length (m_solvers m)) _ _ (w, m) (w', m') _ _ E); [|split; reflexivity].
  intros (w1 & m1) c (w2 & m2) _ (I1 & I2) E1. cbn [fst snd] in *. apply g2p_coupling_ok in E1.
  destruct E1 as [(_ & -> & ->)|(Es & s & it & g & pts' & _ & _ & _ & H & ->)]; [auto|]. cbn [w_mps set_mps]. rewrite set_nth_length. split; [exact I1|].
  unfold g2p_result in H. destruct (so_scheme S); [destruct H as (-> & _); exact I2|]. destruct H as (_ & gd & B & _ & _ & _ & ->). cbn [m_solvers]. rewrite set_nth_length. exact I2.
Qed.

Section TwoRuns.
Variables (S1 S0 : Solver R) (dt : R) (u1 u0 : World R) (m1 m0 : Mechanics R) (ca1 ca0 : SimCache R) (v : vec3 R) (v' : nat -> vec3 R).
Hypothesis Esch : so_scheme S0 = so_scheme S1.
Hypothesis Eal : so_alpha S0 = so_alpha S1.
Hypothesis Edo : so_domains S0 = so_domains S1.
Hypothesis Eco : so_couplings S0 = so_couplings S1.
Hypothesis Ela : so_laws S0 = so_laws S1.
Hypothesis Nd : NoDup (map c_p (active S1)).
Hypothesis Hb : Forall2 (boosted v) (w_mps u1) (w_mps u0).
Hypothesis Hl : m_laws m1 = m_laws m0.
Hypothesis Hss : m_solvers m1 = m_solvers m0.
Hypothesis Ein : sc_inter ca1 = sc_inter ca0.
Hypothesis Hrow : forall c it s g1 g0, In c (so_couplings S1) -> c_skip c = false -> dict_get (c_p c, c_g c) (sc_inter ca1) = Ok it ->
  nth_error (w_mps u0) (c_p c) = Some (Soft s) -> nth_error (sc_grids ca1) (c_g c) = Some g1 -> nth_error (sc_grids ca0) (c_g c) = Some g0 ->
  masks_one it /\ gr_dim g1 = gr_dim g0 /\ gr_mass g1 = gr_mass g0 /\
  (forall p, (p < length (sb_pts s))%nat -> sumR it_val (of_point p it) = 1 /\ vsum it_grad (of_point p it) = vzero) /\
  (forall r, In r it -> it_val r <> 0 \/ it_grad r <> vzero ->
     node_vel (cut_of S1) (gr_dim g1) g1 (gr_mom g1) r = vadd (node_vel (cut_of S1) (gr_dim g0) g0 (gr_mom g0) r) v /\
     node_vel (cut_of S1) (gr_dim g1) g1 (gr_mom_nt g1) r = vadd (node_vel (cut_of S1) (gr_dim g0) g0 (gr_mom_nt g0) r) (v' (c_g c))).
Variables (x1 x0 : World R) (k1 k0 : Mechanics R) (y1 y0 : World R) (l1 l0 : Mechanics R).
Hypothesis G1 : g2p S1 u1 m1 dt ca1 = Ok (x1, k1).
Hypothesis G0 : g2p S0 u0 m0 dt ca0 = Ok (x0, k0).
Hypothesis C1 : constitutive_update S1 dt x1 k1 = Ok (y1, l1).
Hypothesis C0 : constitutive_update S0 dt x0 k0 = Ok (y0, l0).

Lemma two_bodies c gd : In c (so_couplings S1) -> c_skip c = false -> nth_error (so_domains S1) (c_g c) = Some gd ->
  exists s1 s0 qs1 qs0, nth_error (w_mps u1) (c_p c) = Some (Soft s1) /\ nth_error (w_mps u0) (c_p c) = Some (Soft s0) /\
    nth_error (w_mps x1) (c_p c) = Some (Soft (after_g2p s1 qs1)) /\ nth_error (w_mps x0) (c_p c) = Some (Soft (after_g2p s0 qs0)) /\
    Forall2 (shifted (so_scheme S1) (gd_cell gd) dt (v' (c_g c))) qs1 qs0.
Proof.
  intros Hc Hs Egd.
  destruct (g2p_once _ _ _ _ _ _ _ G1 Nd c Hc Hs) as (s1 & it & g1 & a1 & b1 & qs1 & A1 & A2 & A3 & A4 & A5).
  assert (Nd0 : NoDup (map c_p (active S0))) by (unfold active; rewrite Eco; exact Nd).
  assert (Hc0 : In c (so_couplings S0)) by (rewrite Eco; exact Hc).
  destruct (g2p_once _ _ _ _ _ _ _ G0 Nd0 c Hc0 Hs) as (s0 & it0 & g0 & a0 & b0 & qs0 & B1 & B2 & B3 & B4 & B5).
  pose proof A2 as A2'. rewrite Ein, B2 in A2. injection A2 as <-.
  destruct (Forall2_nth_error_l _ _ _ _ _ Hb A3) as (b & Hb0 & Hbb). rewrite B3 in Hb0. injection Hb0 as <-. destruct Hbb as (D & F & V & P).
  destruct (Hrow c it0 s0 g1 g0 Hc Hs A2' B3 A1 B1) as (Mo & Gd & Gm & PG & N).
  exists s1, s0, qs1, qs0. repeat (split; [assumption|]).
  eapply (g2p_shifted S1 S0 ca1 ca0 dt a1 a0 b1 b0 c s1 s0 gd it0 g1 g0 qs1 qs0 v (v' (c_g c))); try assumption.
  - intros p Hp. apply PG, Hp.
  - intros p Hp. apply PG, Hp.
  - intros r Hr Hz. apply (N r Hr Hz).
  - intros r Hr Hz. apply (N r Hr Hz).
Qed.
Lemma boosted_same b c : boosted v b c -> same_body b c.
Proof.
  destruct b as [s|r], c as [t|q]; simpl; try tauto. intros (A & B & C & D). repeat split; try assumption.
  revert D. apply Forall2_weaken. intros; tauto.
Qed.
Lemma two_worlds : (forall c, In c (so_couplings S1) -> c_skip c = false -> exists gd, nth_error (so_domains S1) (c_g c) = Some gd) ->
  Forall2 same_body (w_mps x1) (w_mps x0).
Proof.
  intros Hd. pose proof (proj1 (g2p_mps_length _ _ _ _ _ _ _ G1)) as L1. pose proof (proj1 (g2p_mps_length _ _ _ _ _ _ _ G0)) as L0.
  pose proof (Forall2_len _ _ _ Hb) as Lb. apply Forall2_by_nth; [congruence|]. intros n b b0 H1 H0.
  destruct (in_dec Nat.eq_dec n (map c_p (active S1))) as [I|I].
  - apply in_map_iff in I. destruct I as (c & <- & I). unfold active in I. apply filter_In in I. destruct I as (Hc & Hs). apply negb_true_iff in Hs.
    destruct (Hd c Hc Hs) as (gd & Egd). destruct (two_bodies c gd Hc Hs Egd) as (s1 & s0 & qs1 & qs0 & A & B & C & D & F).
    rewrite C in H1. injection H1 as <-. rewrite D in H0. injection H0 as <-.
    destruct (Forall2_nth_error_l _ _ _ _ _ Hb A) as (b & Hb0 & Hbb). rewrite B in Hb0. injection Hb0 as <-. destruct Hbb as (D1 & D2' & D3 & P).
    unfold same_body, after_g2p. cbn [sb_dim sb_storeF sb_vol0d sb_pts]. rewrite (Forall2_len _ _ _ F).
    repeat split; try assumption. revert F. apply Forall2_weaken. intros p q (Q & _). exact Q.
  - unfold g2p in G1, G0. rewrite (g2p_fold_other _ _ _ _ _ _ _ _ n G1 I) in H1.
    rewrite (g2p_fold_other _ _ _ _ _ _ _ _ n G0) in H0 by (unfold active in I; rewrite Eco; exact I).
    destruct (Forall2_nth_error_l _ _ _ _ _ Hb H1) as (b' & Hb' & Q). rewrite H0 in Hb'. injection Hb' as <-. apply boosted_same, Q.
Qed.
Lemma two_solvers : (forall c, In c (so_couplings S1) -> c_skip c = false -> exists gd, nth_error (so_domains S1) (c_g c) = Some gd) ->
  m_solvers k1 = m_solvers k0.
Proof.
  intros Hd. pose proof (proj2 (g2p_mps_length _ _ _ _ _ _ _ G1)) as L1. pose proof (proj2 (g2p_mps_length _ _ _ _ _ _ _ G0)) as L0.
  apply nth_error_ext. intro n.
  destruct (in_dec Nat.eq_dec n (map c_p (active S1))) as [I|I].
  - apply in_map_iff in I. destruct I as (c & <- & I). unfold active in I. apply filter_In in I. destruct I as (Hc & Hs). apply negb_true_iff in Hs.
    destruct (Hd c Hc Hs) as (gd & Egd).
    assert (Nd0 : NoDup (map c_p (active S0))) by (unfold active; rewrite Eco; exact Nd).
    assert (Hc0 : In c (so_couplings S0)) by (rewrite Eco; exact Hc).
    destruct (so_scheme S1) as [|a] eqn:Sch.
    + assert (U1 : forall (S : Solver R) ca w m w' m', so_scheme S = USL -> g2p S w m dt ca = Ok (w', m') -> m_solvers m' = m_solvers m).
      { intros S ca w m w' m' X E. unfold g2p in E. refine (rfold_inv (fun wm => m_solvers (snd wm) = m_solvers m) _ _ (w, m) (w', m') _ _ E); [|reflexivity].
        intros (wa & ma) c' (wb & mb) _ J E1. cbn [snd] in *. apply g2p_coupling_ok in E1.
        destruct E1 as [(_ & _ & ->)|(Es & s & it & g & pts' & _ & _ & _ & H & _)]; [exact J|].
        unfold g2p_result in H. rewrite X in H. destruct H as (-> & _). exact J. }
      rewrite (U1 S1 _ _ _ _ _ Sch G1), (U1 S0 _ _ _ _ _ ltac:(congruence) G0), Hss. reflexivity.
    + unfold g2p in G1, G0.
      destruct (g2p_stored S1 a ca1 dt Sch _ _ _ _ _ G1 Nd c Hc Hs) as (s1 & it1 & g1 & gd1 & A1 & A2 & A3 & A4 & A5).
      assert (Sch0 : so_scheme S0 = ASFLIP a) by congruence.
      destruct (g2p_stored S0 a ca0 dt Sch0 _ _ _ _ _ G0 Nd0 c Hc0 Hs) as (s0 & it0 & g0 & gd0 & B1 & B2 & B3 & B4 & B5).
      rewrite A5, B5. do 3 f_equal. rewrite Edo in B4. rewrite A4 in B4. injection B4 as <-. pose proof A2 as A2'. rewrite Ein, B2 in A2. injection A2 as <-.
      destruct (Forall2_nth_error_l _ _ _ _ _ Hb A3) as (b & Hb0 & Hbb). rewrite B3 in Hb0. injection Hb0 as <-. destruct Hbb as (D & F & V & P).
      destruct (Hrow c it0 s0 g1 g0 Hc Hs A2' B3 A1 B1) as (Mo & Gd & Gm & PG & N).
      apply nth_ext with (d := mzero) (d' := mzero).
      * unfold g2p_aflip. cbn [snd]. rewrite !to_points_length. exact (Forall2_len _ _ _ P).
      * unfold g2p_aflip at 1. cbn [snd]. rewrite to_points_length, (Forall2_len _ _ _ P). intros n Hn. rewrite Eal.
        eapply (g2p_stored_same S1 dt s1 s0 gd1 it0 g1 g0 v (v' (c_g c))); try assumption.
        -- intros p Hp. apply PG, Hp.
        -- intros r Hr Hz. apply (N r Hr Hz).
  - unfold g2p in G1, G0. rewrite (g2p_fold_state _ _ _ _ _ _ _ _ n G1 I).
    rewrite (g2p_fold_state _ _ _ _ _ _ _ _ n G0) by (unfold active in I; rewrite Eco; exact I). rewrite Hss. reflexivity.
Qed.
Lemma two_steps : (forall c, In c (so_couplings S1) -> c_skip c = false -> exists gd, nth_error (so_domains S1) (c_g c) = Some gd) ->
  Forall2 same_body (w_mps y1) (w_mps y0) /\ m_laws l1 = m_laws l0 /\ m_solvers l1 = m_solvers l0 /\
  forall c gd, In c (so_couplings S1) -> c_skip c = false -> nth_error (so_domains S1) (c_g c) = Some gd ->
    Forall2 (shifted (so_scheme S1) (gd_cell gd) dt (v' (c_g c))) (pts_at y1 (c_p c)) (pts_at y0 (c_p c)).
Proof.
  intros Hd.
  assert (Br : blind_rel (x1, k1) (x0, k0)).
  { split; [apply two_worlds, Hd|]. cbn [fst snd]. split; [|apply two_solvers, Hd].
    rewrite (g2p_laws _ _ _ _ _ _ _ G1), (g2p_laws _ _ _ _ _ _ _ G0). exact Hl. }
  destruct (constitutive_blind S1 S0 dt (eq_sym Eco) (eq_sym Ela) _ _ (y1, l1) (y0, l0) Br C1 C0) as (Q1 & Q2 & Q3). cbn [fst snd] in *.
  split; [exact Q1|]. split; [exact Q2|]. split; [exact Q3|]. intros c gd Hc Hs Egd.
  destruct (two_bodies c gd Hc Hs Egd) as (s1 & s0 & qs1 & qs0 & A & B & C & D & F).
  pose proof (constitutive_law_kept _ _ _ _ _ _ C1 (c_p c)) as K1. pose proof (constitutive_law_kept _ _ _ _ _ _ C0 (c_p c)) as K0.
  unfold pts_at at 1 in K1. unfold pts_at at 1 in K0. rewrite C in K1. rewrite D in K0. cbn [body_pts after_g2p sb_pts] in K1, K0.
  assert (M : Forall2 same_matter (pts_at y1 (c_p c)) (pts_at y0 (c_p c))).
  { unfold pts_at. destruct (nth_error (w_mps y1) (c_p c)) as [b1|] eqn:E1.
    - destruct (Forall2_nth_error_l _ _ _ _ _ Q1 E1) as (b0 & -> & Hbb). destruct b1, b0; simpl in *; try contradiction; [tauto|constructor].
    - destruct (nth_error (w_mps y0) (c_p c)) as [b0|] eqn:E0; [|constructor]. destruct (Forall2_nth_error _ _ _ _ _ Q1 E0) as (b1 & X & _). congruence. }
  revert F K1 K0 M. generalize (pts_at y1 (c_p c)) (pts_at y0 (c_p c)). clear. intros l1 l0 F. revert l1 l0.
  induction F as [|p q l m (Hm & Hp & Hv) _ IH]; intros l1 l0 K1 K0 M.
  - inversion K1; subst. inversion K0; subst. constructor.
  - inversion K1 as [|a p' b l1' Kp Kl]; subst. inversion K0 as [|a q' b l0' Kq Kl']; subst. inversion M as [|a b c0 d Mp Ml]; subst. constructor; [|auto].
    split; [exact Mp|]. destruct Kp as (-> & -> & _). destruct Kq as (-> & -> & _). split; [exact Hp|exact Hv].
Qed.
End TwoRuns.
