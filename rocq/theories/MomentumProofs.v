(** Momentum of the particles over one step (C19). *)
From Coq Require Import List Arith ZArith Reals Bool Lra Lia.
From Verif Require Import Num NumR Linalg Arrays ModelGrid ModelShape ModelMath ModelState ModelLaws ModelForces ModelSolver
  Sums ShapeFacts SpecShape ShapeProofs ShapeProofs2 ShapeProofs3 MappingProofs ResFacts SolverFacts SpecSolver
  TransferProofs TransferProofs2 StepProofs GatherProofs.
Import ListNotations.
Local Open Scope R_scope.

Section Once.
Context {T : Type} {NT : NumT T}.
(** what G2P writes when every active coupling has its own body *)
Definition g2p_of (S : Solver T) (ca : SimCache T) (dt : T) (w : World T) (c : Coupling) (w' : World T) : Prop :=
  exists s it g m1 m2 pts', nth_error (sc_grids ca) (c_g c) = Some g /\ dict_get (c_p c, c_g c) (sc_inter ca) = Ok it /\
    nth_error (w_mps w) (c_p c) = Some (Soft s) /\ g2p_result S ca dt m1 c s it g pts' m2 /\
    nth_error (w_mps w') (c_p c) = Some (Soft (after_g2p s pts')).
Lemma g2p_coupling_other (S : Solver T) ca dt w m c w' m' p : g2p_coupling S ca dt (w, m) c = Ok (w', m') ->
  (c_skip c = true \/ c_p c <> p) -> nth_error (w_mps w') p = nth_error (w_mps w) p.
Proof.
  intros E Hp. apply g2p_coupling_ok in E. destruct E as [(_ & -> & _)|(Es & s & it & g & pts' & _ & _ & _ & _ & ->)]; [reflexivity|].
  simpl. apply set_nth_other. destruct Hp; congruence.
Qed.
Lemma g2p_fold_other (S : Solver T) ca dt cs : forall w m w' m' p, rfold (g2p_coupling S ca dt) (w, m) cs = Ok (w', m') ->
  ~ In p (map c_p (filter (fun c => negb (c_skip c)) cs)) -> nth_error (w_mps w') p = nth_error (w_mps w) p.
Proof.
  induction cs as [|c cs IH]; intros w m w' m' p E Hp.
  - injection E as <- <-. reflexivity.
  - cbn [rfold] in E. apply rbind_ok in E. destruct E as ((w1 & m1) & E1 & E). simpl in Hp.
    rewrite (IH _ _ _ _ p E).
    + eapply g2p_coupling_other; [exact E1|]. destruct (c_skip c); [auto|]. right. intros X. apply Hp. left. exact X.
    + intros X. apply Hp. destruct (c_skip c); simpl; auto.
Qed.
Lemma g2p_fold_once (S : Solver T) ca dt cs : forall w m w' m', rfold (g2p_coupling S ca dt) (w, m) cs = Ok (w', m') ->
  NoDup (map c_p (filter (fun c => negb (c_skip c)) cs)) ->
  forall c, In c cs -> c_skip c = false -> g2p_of S ca dt w c w'.
Proof.
  induction cs as [|c cs IH]; intros w m w' m' E N c0 Hc Hs; [contradiction|].
  cbn [rfold] in E. apply rbind_ok in E. destruct E as ((w1 & m1) & E1 & E). simpl in N.
  destruct Hc as [->|Hc].
  - rewrite Hs in N. simpl in N. apply NoDup_cons_iff in N. destruct N as (N1 & N).
    pose proof (g2p_fold_other _ _ _ _ _ _ _ _ _ E N1) as K.
    apply g2p_coupling_ok in E1. destruct E1 as [(Es & _)|(_ & s & it & g & pts' & H1 & H2 & H3 & H4 & ->)]; [congruence|].
    exists s, it, g, m, m1, pts'. repeat split; auto. rewrite K. simpl. eapply set_nth_same, H3.
  - assert (N' : NoDup (map c_p (filter (fun c => negb (c_skip c)) cs)))
      by (destruct (c_skip c); simpl in N; [exact N|apply NoDup_cons_iff in N; tauto]).
    destruct (IH _ _ _ _ E N' c0 Hc Hs) as (s & it & g & ma & mb & pts' & H1 & H2 & H3 & H4 & H5).
    exists s, it, g, ma, mb, pts'. repeat split; auto. rewrite <- H3. symmetry. eapply g2p_coupling_other; [exact E1|].
    destruct (c_skip c) eqn:Es; [auto|]. right. simpl in N. apply NoDup_cons_iff in N. destruct N as (N1 & _). intros X. apply N1.
    rewrite X. apply in_map, filter_In. rewrite Hs. auto.
Qed.
Definition active (S : Solver T) : list Coupling := filter (fun c => negb (c_skip c)) (so_couplings S).
Lemma g2p_once (S : Solver T) ca dt w m w' m' : g2p S w m dt ca = Ok (w', m') -> NoDup (map c_p (active S)) ->
  forall c, In c (so_couplings S) -> c_skip c = false -> g2p_of S ca dt w c w'.
Proof. intros E N. eapply g2p_fold_once; eassumption. Qed.

(** the constitutive update keeps the kinematic fields *)
Lemma constitutive_law_kept (S : Solver T) dt w m w' m' : constitutive_update S dt w m = Ok (w', m') ->
  forall p, Forall2 law_kept (pts_at w p) (pts_at w' p).
Proof.
  unfold constitutive_update. intros E.
  refine (rfold_inv (fun wm => forall p, Forall2 law_kept (pts_at w p) (pts_at (fst wm) p)) _ _ (w, m) (w', m') _ _ E).
  - intros (w1 & m1) c (w2 & m2) _ I E1 p. cbn [fst] in *. apply constitutive_coupling_ok in E1.
    destruct E1 as [(_ & -> & ->)|(_ & s & ci & l & ls & s1 & ls' & Es & _ & _ & _ & Hu & -> & ->)]; [auto|].
    eapply (Forall2_trans _ law_kept_trans); [exact (I p)|]. unfold pts_at. simpl. rewrite set_nth_error.
    destruct (Nat.eqb_spec (c_p c) p) as [<-|Np]; [|apply Forall2_refl, law_kept_refl].
    rewrite Es. simpl. apply law_update_kept in Hu. destruct (remove_shear_kept (law_reset l) s1) as (_ & _ & _ & K).
    destruct Hu as (_ & _ & _ & Hu).
    assert (Hu' : Forall2 law_kept (sb_pts s) (sb_pts s1)) by (revert Hu; apply Forall2_weaken; tauto).
    eapply (Forall2_trans _ law_kept_trans); [exact Hu'|exact K].
  - intros p. apply Forall2_refl, law_kept_refl.
Qed.

(** hooks that change grid momenta *)
Definition is_wall (f : Force T) : bool := match f with FCollider _ | FContact _ => true | _ => false end.
(** grids keep their sizes through the hooks *)
Definition geoms_ok (S : Solver T) (geoms : list (list (list (Geom T)))) : Prop :=
  forall i gd gg s ge, nth_error (so_domains S) i = Some gd -> nth_error geoms i = Some gg -> nth_error gg s = Some ge ->
    length ge = Z.to_nat (num_cells gd).
Lemma set_force_ok (gd : GridDomain T) g f : grid_ok gd g -> length f = length (gr_force g) -> grid_ok gd (set_force g f).
Proof. unfold grid_ok; simpl. intuition congruence. Qed.
Lemma set_mom_nt_ok (gd : GridDomain T) g f : grid_ok gd g -> length f = length (gr_mom_nt g) -> grid_ok gd (set_mom_nt g f).
Proof. unfold grid_ok; simpl. intuition congruence. Qed.
Lemma upd_grids_ok doms (gs gs' : list (Grid T)) i f : Forall2 grid_ok doms gs -> upd_idx gs i f = Ok gs' ->
  (forall gd g g', nth_error doms i = Some gd -> grid_ok gd g -> f g = Ok g' -> grid_ok gd g') -> Forall2 grid_ok doms gs'.
Proof.
  intros I E Hf. apply upd_idx_ok in E. destruct E as (g & g' & Eg & E & ->).
  destruct (Forall2_nth_error _ _ _ _ _ I Eg) as (gd & Egd & Hg).
  eapply Forall2_set_nth; [exact I|exact Egd|]. eapply Hf; eassumption.
Qed.
Lemma combine_len {A B} (l : list A) (m : list B) n : length l = n -> length m = n -> length (combine l m) = n.
Proof. rewrite combine_length. lia. Qed.
Lemma integrate_grids_ok (S : Solver T) w m dt ca ca' : integrate_grid S w m dt ca = Ok ca' ->
  (existsb is_wall (so_forces S) = true -> geoms_ok S (sc_node_geoms ca)) -> Forall2 grid_ok (so_domains S) (sc_grids ca) -> Forall2 grid_ok (so_domains S) (sc_grids ca').
Proof.
  intros E G I0. apply integrate_ok in E. destruct E as (gs1 & gs2 & gs3 & E1 & E2 & E3 & ->). simpl.
  assert (I1 : Forall2 grid_ok (so_domains S) gs1).
  { refine (rfold_inv (fun gs => Forall2 grid_ok (so_domains S) gs) _ _ (sc_grids ca) gs1 _ I0 E1).
    clear -NT. intros gs f gs' _ I E. destruct f as [g|d|c|c]; simpl in E.
    - destruct (gv_on_grid g); [|injection E as <-; exact I]. apply rbind_ok in E. destruct E as (fs & _ & E).
      refine (rfold_inv (fun gs => Forall2 grid_ok (so_domains S) gs) _ _ gs gs' _ I E). clear -NT. intros gs i gs' _ I E.
      eapply upd_grids_ok; [exact I|exact E|]. intros gd gr gr' _ Hg X. apply rbind_ok in X. destruct X as (v & _ & X). injection X as <-.
      apply set_force_ok; [exact Hg|]. destruct Hg as (_ & L1 & L2 & L3 & L4). rewrite map_length. rewrite (combine_len _ _ _ L1 L4). congruence.
    - destruct (dm_on_grid d); [|injection E as <-; exact I]. apply rbind_ok in E. destruct E as (fs & _ & E).
      refine (rfold_inv (fun gs => Forall2 grid_ok (so_domains S) gs) _ _ gs gs' _ I E). clear -NT. intros gs i gs' _ I E.
      eapply upd_grids_ok; [exact I|exact E|]. intros gd gr gr' _ Hg X. apply rbind_ok in X. destruct X as (v & _ & X). injection X as <-.
      apply set_force_ok; [exact Hg|]. destruct Hg as (_ & L1 & L2 & L3 & L4). rewrite map_length.
      rewrite (combine_len _ _ _ (combine_len _ _ _ L1 L2) L4). congruence.
    - injection E as <-; exact I.
    - injection E as <-; exact I. }
  assert (I2 : Forall2 grid_ok (so_domains S) gs2).
  { refine (rfold_inv (fun gs => Forall2 grid_ok (so_domains S) gs) _ _ gs1 gs2 _ I1 E2). clear -NT. intros gs c gs' _ I E.
    destruct (c_skip c); [injection E as <-; exact I|]. eapply upd_grids_ok; [exact I|exact E|]. intros gd gr gr' _ Hg X. injection X as <-.
    apply set_mom_nt_ok; [exact Hg|]. destruct Hg as (_ & L1 & L2 & L3 & L4). rewrite map_length. rewrite (combine_len _ _ _ L2 L4). congruence. }
  refine (rfold_inv (fun gs => Forall2 grid_ok (so_domains S) gs) _ _ gs2 gs3 _ I2 E3). clear -NT G. intros gs f gs' Hf I E.
  destruct f as [g|d|c|c]; simpl in E; try (injection E as <-; exact I).
  - destruct (cl_sdf c) as [k|]; [|injection E as <-; exact I].
    apply rbind_ok in E. destruct E as (lg & _ & E). apply rbind_ok in E. destruct E as (sd & _ & E).
    assert (G' : geoms_ok S (sc_node_geoms ca)) by (apply G, existsb_exists; exists (FCollider c); auto). clear G Hf. rename G' into G.
    refine (rfold_inv (fun gs => Forall2 grid_ok (so_domains S) gs) _ _ gs gs' _ I E). clear -NT G. intros gs i gs' _ I E.
    apply rbind_ok in E. destruct E as (gd0 & _ & E).
    eapply upd_grids_ok; [exact I|exact E|]. intros gd gr gr' Egd Hg X. apply rbind_ok in X. destruct X as (gg & Egg & X).
    apply oget_ok in Egg. apply rbind_ok in X. destruct X as (ge & Ege & X). apply oget_ok in Ege. injection X as <-.
    apply set_mom_nt_ok; [exact Hg|]. destruct Hg as (_ & L1 & L2 & L3 & L4). rewrite map_length.
    rewrite (combine_len _ _ _ (combine_len _ _ _ L1 L3) (G _ _ _ _ _ Egd Egg Ege)). congruence.
  - discriminate.
Qed.
Lemma moments_fold_none w sdfs doms geoms dt fs : forall gs gs' : list (Grid T), existsb is_wall fs = false ->
  rfold (fun gs f => apply_grid_moments f w sdfs doms geoms dt gs) gs fs = Ok gs' -> gs' = gs.
Proof.
  induction fs as [|f fs IH]; intros gs gs' Hf E; [injection E; auto|]. cbn [rfold] in E. apply rbind_ok in E. destruct E as (gs1 & E1 & E).
  simpl in Hf. apply orb_false_iff in Hf. destruct Hf as (Hf1 & Hf). apply IH in E; [|exact Hf]. subst gs'.
  destruct f; simpl in *; try discriminate; injection E1; auto.
Qed.
End Once.

(** scatter sums that depend on the coupling *)
Lemma p2g_fold_sumc (S : Solver R) w m inter gi (Q : Grid R -> R) (q : Coupling -> R) :
  (forall c s it gr vel gd, In c (so_couplings S) -> c_skip c = false -> c_g c = gi -> nth_error (w_mps w) (c_p c) = Some (Soft s) ->
     dict_get (c_p c, c_g c) inter = Ok it -> nth_error (so_domains S) (c_g c) = Some gd -> grid_ok gd gr ->
     p2g_vel S m c (sb_pts s) vel -> Q (p2g_with it (sb_pts s) vel gr) = Q gr + q c) ->
  forall cs gs0 gs, incl cs (so_couplings S) -> Forall2 grid_ok (so_domains S) gs0 ->
  rfold (p2g_coupling S w m inter) gs0 cs = Ok gs ->
  forall g0 g, nth_error gs0 gi = Some g0 -> nth_error gs gi = Some g ->
  Q g = Q g0 + sumR q (filter (fun c => (negb (c_skip c) && Nat.eqb (c_g c) gi)%bool) cs).
Proof.
  intros HQ. induction cs as [|c cs IH]; intros gs0 gs Hi Hok E g0 g E0 Eg.
  - simpl in *. injection E as <-. rewrite E0 in Eg. injection Eg as ->. lra.
  - cbn [rfold] in E. apply rbind_ok in E. destruct E as (gs1 & E1 & E).
    assert (Hi' : incl cs (so_couplings S)) by (intros x Hx; apply Hi; right; exact Hx).
    apply p2g_coupling_ok in E1.
    destruct E1 as [(Es & ->)|(Es & s & it & gr & vel & Eb & Ev & Eit & Egr & Hvel & ->)]; cbn [filter]; rewrite Es; cbn [negb andb].
    + eapply IH; eassumption.
    + destruct (Forall2_nth_error _ _ _ _ _ Hok Egr) as (gd & Egd & Hgd).
      assert (Hok1 : Forall2 grid_ok (so_domains S) (set_nth (c_g c) (p2g_with it (sb_pts s) vel gr) gs0))
        by (eapply Forall2_set_nth; [exact Hok|exact Egd|apply p2g_with_ok, Hgd]).
      destruct (Nat.eqb_spec (c_g c) gi) as [Ng|N].
      * rewrite sumR_cons. rewrite (IH _ _ Hi' Hok1 E (p2g_with it (sb_pts s) vel gr) g); [|rewrite <- Ng; eapply set_nth_same; eassumption|exact Eg].
        rewrite Ng, E0 in Egr. injection Egr as ->.
        rewrite (HQ c s it gr vel gd) by (try assumption; apply Hi; left; reflexivity). lra.
      * eapply IH; [exact Hi'|exact Hok1|exact E| |exact Eg]. rewrite set_nth_other by exact N. exact E0.
Qed.

(** rows of a coupling, as the cache holds them *)
Definition rows_of (S : Solver R) (w : World R) (c : Coupling) : list (Interaction R) :=
  match last_kernel (so_couplings S) (c_p c) (c_g c), nth_error (so_domains S) (c_g c) with
  | Some k, Some gd => compute_on k gd (map pt_pos (pts_at w (c_p c)))
  | _, _ => []
  end.
Definition node_mass_of (S : Solver R) (w : World R) (c : Coupling) (i : nat) : R :=
  sumR (fun it => it_val it * pt_mass (nth (it_point it) (pts_at w (c_p c)) pt0)) (at_node (Z.of_nat i) (rows_of S w c)).
Lemma node_mass S st w ca w2 ca2 : prepare S st = Ok (w, ca) -> p2g S w (s_mech st) ca = Ok (w2, ca2) ->
  inside S (s_world st) -> forall gi g gd i, nth_error (sc_grids ca2) gi = Some g -> nth_error (so_domains S) gi = Some gd ->
  (i < Z.to_nat (num_cells gd))%nat ->
  nth i (gr_mass g) 0 = sumR (fun c => node_mass_of S w2 c i) (active_on S gi).
Proof.
  intros E1 E2 Hin gi g gd i Eg Egd Hi. destruct (p2g_grids _ _ _ _ _ _ E1 E2) as (gs & <- & _ & F0 & F & E).
  rewrite (p2g_fold_sumc S w2 (s_mech st) (sc_inter ca) gi (fun g => nth i (gr_mass g) 0) (fun c => node_mass_of S w2 c i))
    with (4 := E) (g0 := grid_new gd); try assumption.
  - unfold active_on. simpl gr_mass. rewrite nth_repeat. rnum. lra.
  - intros c s it gr vel gd' Hc Hsk Hcg Hs Hit Hgd Hgr _. rewrite Hcg, Egd in Hgd. injection Hgd as <-.
    assert (Egd' : nth_error (so_domains S) (c_g c) = Some gd) by (rewrite Hcg; exact Egd).
    destruct (p2g_rows _ _ _ _ _ _ _ _ _ _ E1 E2 Hin Hc Hs Hit Egd') as (W & k & Hk & -> & I).
    unfold p2g_with; cbn [gr_mass]. destruct Hgr as (_ & Lm & _). rewrite scatter_node_S by (try exact W; rewrite Lm; exact Hi). f_equal.
    unfold node_mass_of, rows_of, pts_at. rewrite Hk, Hs, Egd'. cbn [body_pts]. apply sumR_ext. intros r Hr. apply in_at_node in Hr.
    destruct Hr as (Hr & _). unfold eff, point_of. rewrite (mask_R _ _ _ _ Hr). rnum. ring.
  - apply incl_refl.
  - rewrite nth_error_map, Egd. reflexivity.
Qed.

(** component of the nodal velocity G2P sees *)
Definition Uvel (cut : R) (g : Grid R) (mom : list (vec3 R)) (a i : nat) : R :=
  if Rlt_dec cut (nth i (gr_mass g) 0) then vcomp a (nth i mom vzero) / nth i (gr_mass g) 0 else 0.
Lemma node_vel_comp cut d g mom it a : (a < dim_nat d)%nat ->
  vcomp a (node_vel cut d g mom it) = Uvel cut g mom a (Z.to_nat (it_hash it)).
Proof.
  intros Ha. unfold node_vel, Uvel. rewrite vcomp_trunc.
  replace (keep d a) with 1 by (destruct d, a as [|[|[|a]]]; simpl in *; try reflexivity; lia). rewrite Rmult_1_l.
  rnum. destruct (Rlt_dec cut (nth (Z.to_nat (it_hash it)) (gr_mass g) 0)).
  - rewrite (proj2 (Rltb_true _ _)) by assumption. apply vcomp_divs.
  - rewrite (proj2 (Rltb_false _ _)) by lra. apply vcomp_zero.
Qed.

Definition weighted_vel (S : Solver R) (w : World R) (cut : R) (g : Grid R) (mom : list (vec3 R)) (a : nat) (c : Coupling) : R :=
  sumR (fun p => pt_mass (nth p (pts_at w (c_p c)) pt0) *
                 sumR (fun it => it_val it * vcomp a (node_vel cut (gr_dim g) g mom it)) (of_point p (rows_of S w c)))
       (seq 0 (length (pts_at w (c_p c)))).
(** every node is above the cutoff, or carries nothing along axis [a] *)
Definition above (cut : R) (g : Grid R) (mom : list (vec3 R)) (a : nat) : Prop :=
  forall i, (i < length (gr_mass g))%nat -> cut < nth i (gr_mass g) 0 \/ vcomp a (nth i mom vzero) = 0.
Lemma gathered_total S st w ca w2 ca2 cut : prepare S st = Ok (w, ca) -> p2g S w (s_mech st) ca = Ok (w2, ca2) ->
  inside S (s_world st) -> 0 <= cut ->
  forall gi g gd mom a g2, nth_error (sc_grids ca2) gi = Some g2 -> nth_error (so_domains S) gi = Some gd -> (a < dim_nat (gd_dim gd))%nat ->
  same_mm g2 g -> length mom = Z.to_nat (num_cells gd) -> above cut g mom a ->
  sumR (weighted_vel S w2 cut g mom a) (active_on S gi) = vcomp a (tot mom).
Proof.
  intros E1 E2 Hin Hcut gi g gd mom a g2 Eg Egd Ha (Ed & Em & _) Lmom Ab.
  destruct (p2g_grids _ _ _ _ _ _ E1 E2) as (gs & <- & _ & _ & F & _).
  destruct (Forall2_nth_error_l _ _ _ _ _ F Egd) as (g' & Eg' & Hok). rewrite Eg in Eg'. injection Eg' as <-.
  destruct Hok as (Hd & Lm & _).
  set (N := Z.to_nat (num_cells gd)) in *.
  assert (Part : forall c, In c (active_on S gi) -> weighted_vel S w2 cut g mom a c
     = sumR (fun i => Uvel cut g mom a i * node_mass_of S w2 c i) (seq 0 N)).
  { intros c Hc. unfold active_on in Hc. apply filter_In in Hc. destruct Hc as (Hc & Hact).
    apply andb_true_iff in Hact. destruct Hact as (_ & Hcg). apply Nat.eqb_eq in Hcg.
    assert (Egd' : nth_error (so_domains S) (c_g c) = Some gd) by (rewrite Hcg; exact Egd).
    destruct (Hin c gd Hc Egd') as (W & _).
    unfold weighted_vel, node_mass_of, rows_of. rewrite Egd'. destruct (last_kernel (so_couplings S) (c_p c) (c_g c)) as [k|].
    - apply gathered_moment; [exact W|]. intros it _. apply node_vel_comp. rewrite Ed, Hd. exact Ha.
    - simpl. rewrite !sumR_zero; [reflexivity| |]; intros; simpl; unfold sumR; simpl; ring. }
  rewrite (sumR_ext _ _ _ Part), sumR_swap.
  rewrite (sumR_ext _ (fun i => vcomp a (nth i mom vzero))).
  - unfold tot. rewrite vcomp_vsum, <- Lmom. apply (sumR_seq_nth (fun v => vcomp a v) vzero mom).
  - intros i Hi. apply in_seq in Hi. rewrite sumR_scal, <- (node_mass S st w ca w2 ca2 E1 E2 Hin gi g2 gd i Eg Egd) by (fold N; lia).
    rewrite <- Em. unfold Uvel. destruct (Ab i) as [L|Z]; [rewrite Em, Lm; fold N; lia| |].
    + destruct (Rlt_dec cut (nth i (gr_mass g) 0)); [|contradiction]. field. lra.
    + rewrite Z. destruct (Rlt_dec cut (nth i (gr_mass g) 0)); [field; lra|ring].
Qed.

Lemma momentum_comp a l : vcomp a (momentum_of l) = sumR (fun p => pt_mass p * vcomp a (pt_vel p)) l.
Proof. unfold momentum_of. rewrite vcomp_vsum. apply sumR_ext_all. intro; apply vcomp_scale. Qed.
Lemma momentum_nth a l : vcomp a (momentum_of l)
  = sumR (fun p => pt_mass (nth p l pt0) * vcomp a (pt_vel (nth p l pt0))) (seq 0 (length l)).
Proof. rewrite momentum_comp. symmetry. apply (sumR_seq_nth (fun p => pt_mass p * vcomp a (pt_vel p)) pt0 l). Qed.
Lemma masks_rows k (gd : GridDomain R) xs : masks_one (compute_on k gd xs).
Proof. intros it Hin. eapply mask_R, Hin. Qed.

(** one body, USL *)
Lemma usl_momentum alpha dt geos rows g pts a : masks_one rows ->
  let W mom := sumR (fun p => pt_mass (nth p pts pt0) * sumR (fun it => it_val it * vcomp a (node_vel cut12 (gr_dim g) g mom it))
                                (of_point p rows)) (seq 0 (length pts)) in
  vcomp a (momentum_of (g2p_usl alpha dt geos rows g pts))
  = W (gr_mom_nt g) + alpha * (vcomp a (momentum_of pts) - W (gr_mom g)).
Proof.
  intros M W. rewrite !momentum_nth, g2p_usl_length. unfold W. rewrite <- sumR_minus, <- sumR_scal, <- sumR_plus.
  apply sumR_ext. intros p Hp. apply in_seq in Hp. rewrite g2p_usl_nth by (try exact M; lia).
  unfold usl_update, g2p_point. cbn [pt_mass pt_vel]. rewrite vcomp_add, !vcomp_scale, vcomp_add. unfold usl_delta, pic_vel.
  rewrite !vcomp_vsum.
  rewrite (sumR_ext_all (fun x => vcomp a (vscale (it_val x) (vsub _ _)))
    (fun it => it_val it * vcomp a (node_vel cut12 (gr_dim g) g (gr_mom_nt g) it)
               - it_val it * vcomp a (node_vel cut12 (gr_dim g) g (gr_mom g) it)))
    by (intro it; rewrite vcomp_scale, vcomp_sub; ring).
  rewrite (sumR_ext_all (fun x => vcomp a (vscale (it_val x) (node_vel _ _ _ _ _)))
    (fun it => it_val it * vcomp a (node_vel cut12 (gr_dim g) g (gr_mom_nt g) it)))
    by (intro it; rewrite vcomp_scale; ring).
  rewrite sumR_minus. rnum. ring.
Qed.

(** one body, AFLIP with the clamp inactive *)
Definition unclamped (a : AFLIP R) (gd : GridDomain R) (dt : R) (p : Particle R) : Prop :=
  vnorm (pt_vel p) + lit 1 (10 ^ 12) <= af_cfl a * gd_cell gd / dt.
Lemma clamp_inactive a cell dt v : vnorm (cfl_clamp a cell dt v) + lit 1 (10 ^ 12) <= af_cfl a * cell / dt ->
  cfl_clamp a cell dt v = v.
Proof.
  set (K := af_cfl a * cell / dt). unfold cfl_clamp. set (e := lit 1 (10 ^ 12)).
  assert (He : 0 < e) by (unfold e; rnum; lra).
  assert (Hs : forall s, vnorm (vscale s v) = Rabs s * vnorm v).
  { intro s. unfold vnorm, vnorm2. replace (vdot (vscale s v) (vscale s v)) with (Rsqr s * vdot v v)
      by (unfold vdot, vscale, Rsqr; simpl; rnum; ring).
    rnum. rewrite sqrt_mult_alt by apply Rle_0_sqr. rewrite sqrt_Rsqr_abs. reflexivity. }
  assert (Hn : 0 <= vnorm v) by (unfold vnorm; rnum; apply sqrt_pos).
  rewrite nmin_R.
  change (@n1 R _) with 1.
  change ((af_cfl a * cell / dt / (vnorm v + e))%num) with (K / (vnorm v + e)). intros E. rewrite Hs in E.
  assert (K / (vnorm v + e) >= 1 \/ K / (vnorm v + e) < 1) as [Q|Q] by lra.
  - rewrite Rmin_left by lra. apply vcomp_eq; intro b. rewrite vcomp_scale. ring.
  - exfalso. rewrite Rmin_right in E by lra.
    assert (HK : 0 < K) by (pose proof (Rmult_le_pos _ _ (Rabs_pos (K / (vnorm v + e))) Hn); lra).
    assert (Hq : 0 < / (vnorm v + e)) by (apply Rinv_0_lt_compat; lra).
    rewrite Rabs_right in E by (unfold Rdiv; nra).
    assert (K / (vnorm v + e) * vnorm v = K - e * (K / (vnorm v + e))) by (field; lra).
    nra.
Qed.
Lemma aflip_momentum af alpha dt gd sF rows g pts a : af_dynamic af = false ->
  let W mom := sumR (fun p => pt_mass (nth p pts pt0) * sumR (fun it => it_val it * vcomp a (node_vel (af_cutoff af) (gr_dim g) g mom it))
                                (of_point p rows)) (seq 0 (length pts)) in
  (forall p, In p (fst (g2p_aflip af alpha dt gd sF rows g pts)) -> unclamped af gd dt p) ->
  vcomp a (momentum_of (fst (g2p_aflip af alpha dt gd sF rows g pts)))
  = W (gr_mom_nt g) + alpha * (vcomp a (momentum_of pts) - W (gr_mom g)).
Proof.
  intros Hd W U. rewrite !momentum_nth, g2p_aflip_length. unfold W. rewrite <- sumR_minus, <- sumR_scal, <- sumR_plus.
  apply sumR_ext. intros p Hp. apply in_seq in Hp.
  assert (Up : unclamped af gd dt (nth p (fst (g2p_aflip af alpha dt gd sF rows g pts)) pt0))
    by (apply U, nth_In; rewrite g2p_aflip_length; lia).
  rewrite g2p_aflip_nth in Up |- * by lia. unfold unclamped, aflip_update, g2p_point in *. cbn [pt_mass pt_vel] in *.
  rewrite (clamp_inactive _ _ _ _ Up). unfold dynamic_alpha. rewrite Hd.
  rewrite vcomp_add, !vcomp_scale, vcomp_sub. unfold pic_vel. rewrite !vcomp_vsum.
  rewrite (sumR_ext_all (fun x => vcomp a (vscale (it_val x) (node_vel _ _ _ (gr_mom g) _)))
    (fun it => it_val it * vcomp a (node_vel (af_cutoff af) (gr_dim g) g (gr_mom g) it)))
    by (intro it; rewrite vcomp_scale; ring).
  rewrite (sumR_ext_all (fun x => vcomp a (vscale (it_val x) (node_vel _ _ _ (gr_mom_nt g) _)))
    (fun it => it_val it * vcomp a (node_vel (af_cutoff af) (gr_dim g) g (gr_mom_nt g) it)))
    by (intro it; rewrite vcomp_scale; ring).
  ring.
Qed.

(** *** momentum over one step *)
Definition cut_of (S : Solver R) : R := match so_scheme S with USL => cut12 | ASFLIP a => af_cutoff a end.
(** AFLIP without dynamic alpha and with the velocity limiter inactive on the bodies of grid [gi] *)
Definition plain (S : Solver R) (gi : nat) (w : World R) (dt : R) : Prop :=
  match so_scheme S with
  | USL => True
  | ASFLIP a => af_dynamic a = false /\ 0 <= af_cutoff a /\
      forall c gd p, In c (active_on S gi) -> nth_error (so_domains S) gi = Some gd -> In p (pts_at w (c_p c)) -> unclamped a gd dt p
  end.
Lemma sumR_lin {A} (f g h k : A -> R) al l : (forall x, In x l -> f x = g x + al * (h x - k x)) ->
  sumR f l = sumR g l + al * (sumR h l - sumR k l).
Proof. intros E. rewrite (sumR_ext _ _ _ E), sumR_plus, sumR_scal, sumR_minus. reflexivity. Qed.
Lemma geoms_prepared S st w ca : prepare S st = Ok (w, ca) -> (forall gd, In gd (so_domains S) -> wf_sizes gd) ->
  geoms_ok S (sc_node_geoms (T:=R) ca).
Proof.
  intros E W. apply prepare_ok in E. destruct E as (_ & _ & _ & _ & _ & -> & _). intros i gd gg s ge Egd Egg Ege.
  unfold node_sdfs in Egg. rewrite nth_error_map, Egd in Egg. simpl in Egg. injection Egg as <-.
  rewrite nth_error_map in Ege. destruct (nth_error _ s); [|discriminate]. simpl in Ege. injection Ege as <-. rewrite map_length.
  pose proof (position_stack_length gd (W gd (nth_error_In _ _ Egd))). lia.
Qed.
Lemma law_kept_momentum l l' : Forall2 law_kept l l' -> momentum_of l' = momentum_of (l : list (Particle R)).
Proof.
  intros F. unfold momentum_of. eapply vsum_Forall2; [|exact F]. unfold law_kept.
  intros x y (_ & -> & -> & _). reflexivity.
Qed.
Theorem g2p_momentum S st w ca w2 ca2 ca3 w3 m3 : prepare S st = Ok (w, ca) -> p2g S w (s_mech st) ca = Ok (w2, ca2) ->
  integrate_grid S w2 (s_mech st) (s_dt st) ca2 = Ok ca3 -> g2p S w2 (s_mech st) (s_dt st) ca3 = Ok (w3, m3) ->
  inside S (s_world st) -> NoDup (map c_p (active S)) ->
  forall gi g gd a, nth_error (sc_grids ca3) gi = Some g -> nth_error (so_domains S) gi = Some gd -> (a < dim_nat (gd_dim gd))%nat ->
  length (gr_mom_nt g) = length (gr_mass g) ->
  above (cut_of S) g (gr_mom g) a -> above (cut_of S) g (gr_mom_nt g) a -> plain S gi w3 (s_dt st) ->
  sumR (fun c => vcomp a (momentum_of (pts_at w3 (c_p c)))) (active_on S gi) = vcomp a (tot (gr_mom_nt g)).
Proof.
  intros E1 E2 E3 E4 Hin Nd gi g gd a Eg Egd Ha Lnt A1 A2 Pl.
  destruct (integrate_same_mm _ _ _ _ _ _ E3) as (SM & Einter & _).
  destruct (Forall2_nth_error _ _ _ _ _ SM Eg) as (g2 & Eg2 & Hsm).
  destruct (p2g_grids _ _ _ _ _ _ E1 E2) as (gs & X & Ei2 & _ & F & _). subst gs.
  destruct (Forall2_nth_error_l _ _ _ _ _ F Egd) as (g' & Eg' & Hok). rewrite Eg2 in Eg'. injection Eg' as <-.
  destruct Hok as (Hd & Lm & Lmo & _). pose proof Hsm as (Ed & Em & Emo).
  assert (Hcut : 0 <= cut_of S).
  { unfold cut_of. unfold plain in Pl. destruct (so_scheme S); [apply Rlt_le, cut12_pos|apply Pl]. }
  pose proof (gathered_total _ _ _ _ _ _ (cut_of S) E1 E2 Hin Hcut gi g gd (gr_mom g) a g2 Eg2 Egd Ha Hsm ltac:(congruence) A1) as T1.
  pose proof (gathered_total _ _ _ _ _ _ (cut_of S) E1 E2 Hin Hcut gi g gd (gr_mom_nt g) a g2 Eg2 Egd Ha Hsm ltac:(congruence) A2) as T2.
  pose proof (p2g_momentum _ _ _ _ _ _ E1 E2 Hin gi g2 Eg2) as PM.
  assert (Body : forall c, In c (active_on S gi) -> vcomp a (momentum_of (pts_at w3 (c_p c)))
     = weighted_vel S w2 (cut_of S) g (gr_mom_nt g) a c
       + so_alpha S * (vcomp a (momentum_of (pts_at (s_world st) (c_p c))) - weighted_vel S w2 (cut_of S) g (gr_mom g) a c)).
  { intros c Hc0. pose proof Hc0 as Hc. unfold active_on in Hc. apply filter_In in Hc. destruct Hc as (Hc & Hact).
    apply andb_true_iff in Hact. destruct Hact as (Hsk & Hcg). apply Nat.eqb_eq in Hcg. apply negb_true_iff in Hsk.
    assert (Egd' : nth_error (so_domains S) (c_g c) = Some gd) by (rewrite Hcg; exact Egd).
    destruct (g2p_once _ _ _ _ _ _ _ E4 Nd c Hc Hsk) as (s & it & g1 & m1 & m2 & pts' & H1 & H2 & H3 & H4 & H5).
    rewrite Hcg, Eg in H1. injection H1 as <-. rewrite Einter, Ei2 in H2.
    destruct (p2g_rows _ _ _ _ _ _ _ _ _ _ E1 E2 Hin Hc H3 H2 Egd') as (W & k & Hk & -> & I).
    assert (M0 : momentum_of (pts_at (s_world st) (c_p c)) = momentum_of (sb_pts s)).
    { unfold momentum_of. pose proof (unforced_pts _ _ _ _ _ _ E1 E2 (c_p c)) as U. unfold pts_at at 2 in U. rewrite H3 in U.
      symmetry. eapply vsum_Forall2; [|exact U]. unfold unforced. intros x y (_ & -> & -> & _). reflexivity. }
    rewrite M0. unfold pts_at at 1. rewrite H5. cbn [body_pts after_g2p sb_pts].
    unfold weighted_vel, rows_of, pts_at. rewrite Hk, H3, Egd'. cbn [body_pts].
    unfold g2p_result in H4. unfold cut_of. destruct (so_scheme S) as [|af] eqn:Es.
    - destruct H4 as (_ & geos & _ & -> & _). apply usl_momentum, masks_rows.
    - destruct H4 as (_ & gd' & B & Egd2 & _ & -> & _). rewrite Egd' in Egd2. injection Egd2 as <-.
      unfold plain in Pl. rewrite Es in Pl. destruct Pl as (Dy & _ & Un). apply aflip_momentum; [exact Dy|].
      intros p Hp. eapply Un; [exact Hc0|exact Egd|]. unfold pts_at. rewrite H5. exact Hp. }
  rewrite (sumR_lin _ _ _ _ _ _ Body), T1, T2, Emo, PM, vcomp_vsum. ring.
Qed.

Lemma integrate_euler (S : Solver R) w m dt ca ca3 gi g : integrate_grid S w m dt ca = Ok ca3 ->
  existsb is_wall (so_forces S) = false -> active_on S gi <> [] -> nth_error (sc_grids ca3) gi = Some g ->
  exists g1, g = integrate1 dt g1.
Proof.
  intros E Hw Ha Eg. apply integrate_ok in E. destruct E as (gs1 & gs2 & gs3 & E1 & E2 & E3 & ->). simpl in Eg.
  apply moments_fold_none in E3; [|exact Hw]. subst gs3. rewrite (integrate_fold_ok _ _ _ _ E2) in Eg.
  destruct (nth_error gs1 gi) as [g1|]; [|discriminate]. simpl in Eg. injection Eg as <-. exists g1.
  assert (X : existsb (fun c => (negb (c_skip c) && Nat.eqb (c_g c) gi)%bool) (so_couplings S) = true).
  { unfold active_on in Ha. destruct (filter _ (so_couplings S)) as [|c l] eqn:Ef; [congruence|].
    assert (Hc : In c (c :: l)) by (left; reflexivity). rewrite <- Ef in Hc. apply filter_In in Hc. apply existsb_exists.
    exists c. exact Hc. }
  rewrite X. reflexivity.
Qed.
Lemma tot_euler dt (l m : list (vec3 R)) a : length l = length m ->
  vcomp a (tot (map (fun mf => vadd (fst mf) (vscale dt (snd mf))) (combine l m))) = vcomp a (tot l) + dt * vcomp a (tot m).
Proof.
  unfold tot. rewrite !vcomp_vsum. revert m; induction l as [|x l IH]; intros [|y m] L; simpl in L; try discriminate.
  - simpl. unfold sumR; simpl. ring.
  - cbn [combine map fst snd]. rewrite !sumR_cons, IH by lia. rewrite vcomp_add, vcomp_scale. ring.
Qed.
Lemma nth_euler dt (l m : list (vec3 R)) i : length l = length m ->
  nth i (map (fun mf => vadd (fst mf) (vscale dt (snd mf))) (combine l m)) vzero = vadd (nth i l vzero) (vscale dt (nth i m vzero)).
Proof.
  revert m i; induction l as [|x l IH]; intros [|y m] [|i] L; simpl in L |- *; try discriminate; try reflexivity.
  - apply vcomp_eq; intro a; rewrite vcomp_add, vcomp_scale, vcomp_zero; ring.
  - apply vcomp_eq; intro a; rewrite vcomp_add, vcomp_scale, vcomp_zero; ring.
  - apply IH. lia.
Qed.

Theorem step_impulse S st st' w ca w2 ca2 ca3 : prepare S st = Ok (w, ca) -> p2g S w (s_mech st) ca = Ok (w2, ca2) ->
  integrate_grid S w2 (s_mech st) (s_dt st) ca2 = Ok ca3 -> solver_step S st = Ok st' ->
  inside S (s_world st) -> NoDup (map c_p (active S)) -> existsb is_wall (so_forces S) = false ->
  forall gi g gd a, nth_error (sc_grids ca3) gi = Some g -> nth_error (so_domains S) gi = Some gd -> (a < dim_nat (gd_dim gd))%nat ->
  active_on S gi <> [] ->
  above (cut_of S) g (gr_mom g) a -> above (cut_of S) g (gr_force g) a -> plain S gi (s_world st') (s_dt st) ->
  sumR (fun c => vcomp a (momentum_of (pts_at (s_world st') (c_p c)))) (active_on S gi)
  = sumR (fun c => vcomp a (momentum_of (pts_at (s_world st) (c_p c)))) (active_on S gi) + s_dt st * vcomp a (tot (gr_force g)).
Proof.
  intros E1 E2 E3 E Hin Nd Hw gi g gd a Eg Egd Ha Hact A1 A2 Pl.
  apply step_ok in E. destruct E as (w' & ca' & w2' & ca2' & ca3' & w3 & m3 & w4 & m4 & E1' & E2' & E3' & E4 & E5 & ->).
  rewrite E1 in E1'. injection E1' as <- <-. rewrite E2 in E2'. injection E2' as <- <-. rewrite E3 in E3'. injection E3' as <-.
  cbn [s_world s_mech s_dt] in *.
  pose proof (constitutive_law_kept _ _ _ _ _ _ E5) as LK.
  assert (Pl3 : plain S gi w3 (s_dt st)).
  { unfold plain in *. destruct (so_scheme S); [exact I|]. destruct Pl as (P1 & P2 & P3). split; [exact P1|]. split; [exact P2|].
    intros c gd' p Hc Hgd' Hp. apply In_nth_error in Hp. destruct Hp as (n & Hp).
    destruct (Forall2_nth_error_l _ _ _ _ _ (LK (c_p c)) Hp) as (q & Hq & Hk).
    unfold unclamped. destruct Hk as (_ & Hv & _). rewrite <- Hv. apply (P3 c gd' q Hc Hgd'). eapply nth_error_In, Hq. }
  destruct (p2g_grids _ _ _ _ _ _ E1 E2) as (gs & X & _ & _ & F & _). subst gs.
  assert (Hg3 : Forall2 grid_ok (so_domains S) (sc_grids ca3))
    by (eapply integrate_grids_ok; [exact E3|rewrite Hw; discriminate|exact F]).
  destruct (Forall2_nth_error_l _ _ _ _ _ Hg3 Egd) as (g' & Eg' & Hok). rewrite Eg in Eg'. injection Eg' as <-.
  destruct Hok as (Hd & Lm & Lmo & Lnt & Lf).
  destruct (integrate_euler _ _ _ _ _ _ _ _ E3 Hw Hact Eg) as (g1 & Eg1).
  assert (Ent : gr_mom_nt g = map (fun mf => vadd (fst mf) (vscale (s_dt st) (snd mf))) (combine (gr_mom g) (gr_force g)))
    by (rewrite Eg1; reflexivity).
  rewrite (sumR_ext _ (fun c => vcomp a (momentum_of (pts_at w3 (c_p c))))) by (intros c _; rewrite (law_kept_momentum _ _ (LK (c_p c))); reflexivity).
  rewrite (g2p_momentum S st w ca w2 ca2 ca3 w3 m3 E1 E2 E3 E4 Hin Nd gi g gd a Eg Egd Ha); try assumption; try congruence.
  - rewrite Ent, tot_euler by congruence. f_equal.
    destruct (integrate_same_mm _ _ _ _ _ _ E3) as (SM & _). destruct (Forall2_nth_error _ _ _ _ _ SM Eg) as (g2 & Eg2 & _ & _ & Emo).
    rewrite Emo, (p2g_momentum _ _ _ _ _ _ E1 E2 Hin gi g2 Eg2), vcomp_vsum. reflexivity.
  - intros i Hi. destruct (A1 i Hi) as [L|Z1]; [left; exact L|]. destruct (A2 i Hi) as [L|Z2]; [left; exact L|]. right.
    rewrite Ent, nth_euler by congruence. rewrite vcomp_add, vcomp_scale, Z1, Z2. ring.
Qed.
