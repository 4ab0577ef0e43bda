(** When a step succeeds: conditions on indices, lengths and kinds of states that suffice, for every number type. *)
From Coq Require Import List Arith ZArith Lia Bool.
From Verif Require Import Num Linalg Arrays ModelGrid ModelShape ModelMath ModelState ModelLaws ModelForces ModelSolver
  Sums SpecShape ShapeProofs ResFacts SolverFacts SpecSolver StepProofs ProgressProofs SpecReady.
Import ListNotations.

Section RD.
Context {T : Type} {NT : NumT T}.

Lemma rfold_total {A St} (I : St -> Prop) (f : St -> A -> res St) l : (forall s x, In x l -> I s -> exists s', f s x = Ok s' /\ I s') ->
  forall s, I s -> exists s', rfold f s l = Ok s' /\ I s'.
Proof.
  induction l as [|x l IH]; intros H s Hs; [exists s; auto|]. cbn [rfold]. destruct (H s x (or_introl eq_refl) Hs) as (s1 & -> & H1). cbn [rbind].
  apply IH; [|exact H1]. intros s2 y Hy. apply H. right. exact Hy.
Qed.
Lemma rmap_total {A B} (f : A -> res B) l : (forall x, In x l -> exists y, f x = Ok y) -> exists l', rmap f l = Ok l'.
Proof.
  induction l as [|x l IH]; intros H; [exists []; reflexivity|]. cbn [rmap]. destruct (H x (or_introl eq_refl)) as (y & ->). cbn [rbind].
  destruct IH as (l' & ->); [intros z Hz; apply H; right; exact Hz|]. cbn [rbind]. eauto.
Qed.
Lemma nth_some {A} (l : list A) i : i < length l -> exists x, nth_error l i = Some x.
Proof. intros L. destruct (nth_error l i) eqn:E; [eauto|]. apply nth_error_None in E. lia. Qed.
Lemma upd_total {A} (l : list A) i f x y : nth_error l i = Some x -> f x = Ok y -> upd_idx l i f = Ok (set_nth i y l).
Proof. intros E Ef. unfold upd_idx. rewrite (idx_some _ _ _ E). cbn [rbind]. rewrite Ef. reflexivity. Qed.
Lemma dict_get_set {A} k k' (v : A) d : dict_get k (dict_set k' v d) = if key_eqb k k' then Ok v else dict_get k d.
Proof.
  induction d as [|(k1 & v1) d IH]; cbn [dict_set dict_get].
  - destruct (key_eqb k k'); reflexivity.
  - destruct (key_eqb k' k1) eqn:E1; cbn [dict_get].
    + unfold key_eqb in *. apply andb_true_iff in E1. destruct E1 as (X & Y). apply Nat.eqb_eq in X. apply Nat.eqb_eq in Y. rewrite X, Y. destruct ((fst k =? fst k1) && (snd k =? snd k1))%bool; reflexivity.
    + rewrite IH. destruct (key_eqb k k1) eqn:E2; [|reflexivity]. destruct (key_eqb k k') eqn:E3; [|reflexivity]. exfalso.
      unfold key_eqb in *. apply andb_true_iff in E2. apply andb_true_iff in E3. apply andb_false_iff in E1. rewrite !Nat.eqb_eq in E2, E3. rewrite !Nat.eqb_neq in E1.
      destruct E2, E3. destruct E1; congruence.
Qed.
Lemma key_refl k : key_eqb k k = true. Proof. unfold key_eqb. rewrite !Nat.eqb_refl. reflexivity. Qed.
Definition has (cs : list Coupling) (d : list ((nat * nat) * list (Interaction T))) : Prop := forall c, In c cs -> exists l, dict_get (c_p c, c_g c) d = Ok l.
Lemma dict_set_has k v (d : list ((nat * nat) * list (Interaction T))) k' : (exists l, dict_get k' d = Ok l) -> exists l, dict_get k' (dict_set k v d) = Ok l.
Proof. intros H. rewrite dict_get_set. destruct (key_eqb k' k); eauto. Qed.

Section Step.
Variables (S : Solver T) (st : SimState T).
Hypothesis R : ready S st.
Let bs := w_mps (s_world st).
Let m := s_mech st.
Definition ok_bodies (l : list (Body T)) : Prop := Forall2 bsim bs l.
Lemma ok_get l c : ok_bodies l -> In c (so_couplings S) -> exists b gd, nth_error l (c_p c) = Some b /\ nth_error (so_domains S) (c_g c) = Some gd /\ body_dim b = gd_dim gd /\
    (so_sdfs S <> [] -> num_points b <> 0).
Proof.
  intros F Hc. destruct R as (_ & R2 & _). destruct (R2 c Hc) as (b & gd & Eb & Eg & D & N). destruct (Forall2_nth_error_l _ _ _ _ _ F Eb) as (b' & Eb' & Sb).
  destruct (bsim_num _ _ Sb) as (X & Y). exists b', gd. rewrite X, Y. auto.
Qed.
Lemma ok_set l i b b' : ok_bodies l -> nth_error l i = Some b -> bsim b b' -> ok_bodies (set_nth i b' l).
Proof.
  intros F E Sb. destruct (Forall2_nth_error _ _ _ _ _ F E) as (b0 & E0 & Sb0). eapply Forall2_set_nth; [exact F|exact E0|]. eapply bsim_trans; eassumption.
Qed.
Lemma prepare_total : exists w ca, prepare S st = Ok (w, ca) /\ ok_bodies (w_mps w) /\ length (w_sdfs w) = length (so_sdfs S) /\ has (so_couplings S) (sc_inter ca) /\
  sc_grids ca = map grid_new (so_domains S) /\ sc_mp_geoms ca = particle_sdfs S w (s_dt st) /\ sc_node_geoms ca = node_sdfs S w (s_dt st).
Proof.
  pose proof R as (R1 & R2 & _). unfold prepare.
  assert (K : exists w1, kinematic_update S (s_world st) (s_dt st) = Ok w1 /\ w_mps w1 = bs /\ length (w_sdfs w1) = length (so_sdfs S)).
  { unfold kinematic_update. destruct (rmap_total (fun i_s => rbind (idx (w_sdfs (s_world st)) (fst i_s)) (fun x => Ok (sl_update (snd i_s) x (s_dt st)))) (enum (so_sdfs S))) as (l & El).
    - intros (i & s) Hi. unfold enum in Hi. apply in_combine_l in Hi. apply in_seq in Hi. destruct (nth_some (w_sdfs (s_world st)) i) as (x & Ex); [lia|].
      cbn [fst snd]. rewrite (idx_some _ _ _ Ex). cbn [rbind]. eauto.
    - rewrite El. cbn [rbind]. eexists. split; [reflexivity|]. split; [reflexivity|]. cbn [w_sdfs]. apply rmap_ok in El. apply Forall2_len in El. rewrite enum_length in El. auto. }
  destruct K as (w1 & -> & Em & Es). cbn [rbind].
  assert (Q : exists w2, reset_material_points (so_couplings S) w1 = Ok w2 /\ ok_bodies (w_mps w2) /\ w_sdfs w2 = w_sdfs w1).
  { unfold reset_material_points. destruct (rfold_total ok_bodies (fun l c => upd_idx l (c_p c) (fun b => Ok (reset_body b))) (so_couplings S)) with (s := w_mps w1) as (l & -> & Hl).
    - intros l c Hc F. destruct (ok_get l c F Hc) as (b & gd & Eb & _). exists (set_nth (c_p c) (reset_body b) l). split; [eapply upd_total; [exact Eb|reflexivity]|].
      apply (ok_set l _ b); [exact F|exact Eb|]. destruct b; simpl; rewrite ?map_length; auto.
    - rewrite Em. apply Forall2_refl, bsim_refl.
    - cbn [rbind]. eexists. split; [reflexivity|]. split; [exact Hl|reflexivity]. }
  destruct Q as (w2 & -> & F2 & Es2). cbn [rbind].
  assert (C : exists d, compute_connectivity S w2 = Ok d /\ has (so_couplings S) d).
  { unfold compute_connectivity.
    assert (G : forall cs d, incl cs (so_couplings S) -> exists d', rfold (fun d c => rbind (idx (w_mps w2) (c_p c)) (fun b => rbind (idx (so_domains S) (c_g c)) (fun g =>
        if dim_eqb (body_dim b) (gd_dim g) then Ok (dict_set (c_p c, c_g c) (compute_on (c_kernel c) g (body_positions b)) d) else Err TypeError))) d cs = Ok d' /\ has cs d' /\
        (forall k, (exists l, dict_get k d = Ok l) -> exists l, dict_get k d' = Ok l)).
    { induction cs as [|c cs IH]; intros d Hi; [exists d; repeat split; auto; intros c []|]. cbn [rfold].
      destruct (ok_get (w_mps w2) c F2) as (b & gd & Eb & Eg & D & _); [apply Hi; left; reflexivity|].
      rewrite (idx_some _ _ _ Eb). cbn [rbind]. rewrite (idx_some _ _ _ Eg). cbn [rbind]. rewrite D.
      replace (dim_eqb (gd_dim gd) (gd_dim gd)) with true by (destruct (gd_dim gd); reflexivity). cbn [rbind].
      destruct (IH (dict_set (c_p c, c_g c) (compute_on (c_kernel c) gd (body_positions b)) d)) as (d' & -> & H1 & H2); [intros x Hx; apply Hi; right; exact Hx|].
      exists d'. split; [reflexivity|]. split.
      - intros c1 [<-|Hc1]; [|apply H1, Hc1]. apply H2. rewrite dict_get_set, key_refl. eauto.
      - intros k Hk. apply H2, dict_set_has, Hk. }
    destruct (G (so_couplings S) [] (incl_refl _)) as (d & E & Hd & _). eauto. }
  destruct C as (d & -> & Hd). cbn [rbind].
  assert (Z : exists d', sdf_correction S w2 d = Ok d' /\ has (so_couplings S) d').
  { unfold sdf_correction. destruct (so_sdfs S) as [|s0 ss] eqn:Es0; [eauto|]. apply rfold_total; [|exact Hd].
    intros d1 c Hc H1. destruct (H1 c Hc) as (l & ->). cbn [rbind]. destruct (ok_get (w_mps w2) c F2 Hc) as (b & gd & Eb & Eg & _ & N).
    rewrite (idx_some _ _ _ Eb). cbn [rbind]. rewrite (idx_some _ _ _ Eg). cbn [rbind]. rewrite (proj2 (Nat.eqb_neq _ _) (N ltac:(congruence))).
    eexists. split; [reflexivity|]. intros c1 Hc1. apply dict_set_has, H1, Hc1. }
  destruct Z as (d' & -> & Hd'). cbn [rbind]. do 2 eexists. split; [reflexivity|]. cbn [sc_inter sc_grids sc_mp_geoms sc_node_geoms]. repeat split; auto. congruence.
Qed.
Lemma act_get l c : ok_bodies l -> In c (so_couplings S) -> c_skip c = false -> exists s ci lw ls, nth_error l (c_p c) = Some (Soft s) /\ sb_vol0d s = false /\ length (sb_pts s) <> 1 /\
    c_c c = Some ci /\ nth_error (so_laws S) ci = Some (Some lw) /\ nth_error (m_laws m) ci = Some ls /\ law_fits lw ls (length (sb_pts s)) /\
    match so_scheme S with
    | USL => True
    | ASFLIP a => af_mls a = true /\ exists k B B', c_s c = Some k /\ nth_error (m_solvers m) k = Some (Some (SS_AFLIP B)) /\ nth_error (m_solvers m) (c_p c) = Some (Some (SS_AFLIP B'))
    end.
Proof.
  intros F Hc Hs. destruct R as (_ & _ & R3 & _). destruct (R3 c Hc Hs) as (s & ci & lw & ls & Eb & V & N & Ec & El & Els & Fit & A).
  destruct (Forall2_nth_error_l _ _ _ _ _ F Eb) as (b' & Eb' & Sb). destruct b' as [s'|]; [|contradiction]. destruct Sb as (_ & V' & N').
  exists s', ci, lw, ls. rewrite N', V'. repeat split; auto.
Qed.
Lemma p2g_total w ca : ok_bodies (w_mps w) -> has (so_couplings S) (sc_inter ca) -> length (sc_grids ca) = length (so_domains S) ->
  exists w2 ca2, p2g S w m ca = Ok (w2, ca2) /\ ok_bodies (w_mps w2) /\ w_sdfs w2 = w_sdfs w /\ sc_inter ca2 = sc_inter ca /\ length (sc_grids ca2) = length (so_domains S) /\
    sc_mp_geoms ca2 = sc_mp_geoms ca /\ sc_node_geoms ca2 = sc_node_geoms ca.
Proof.
  intros F Hd Lg. unfold p2g.
  assert (P : exists w', rfold (fun w f => apply_pre_p2g f w m) w (so_forces S) = Ok w' /\ (ok_bodies (w_mps w') /\ w_sdfs w' = w_sdfs w)).
  { apply rfold_total; [|auto]. intros w1 f Hf (F1 & S1). destruct R as (_ & _ & _ & R4). specialize (R4 f Hf). destruct f as [g|d|c|c]; cbn [force_fits apply_pre_p2g] in *; eauto.
    - destruct R4 as (fs & Ef & Q). fold m in Ef. destruct (gv_on_grid g); [eauto|]. rewrite (idx_some _ _ _ Ef), Q. cbn [rbind rfold]. eauto.
    - destruct R4 as (fs & Ea & Q). fold m in Ea. destruct (dm_on_grid d); [eauto|]. rewrite (idx_some _ _ _ Ea). cbn [rbind]. destruct Q as (Q & K).
      destruct (dm_ps d) as [|p0 ps] eqn:Ep; [cbn [rfold rbind]; eexists; split; [reflexivity|split; [exact F1|exact S1]]|]. destruct K as (a & ->); [discriminate|]. rewrite <- Ep in *.
      destruct (rfold_total ok_bodies (fun l p => upd_idx l p (fun b => match b with
                 | Soft s => rbind (alpha_of (Some (FS_Damping a))) (fun a => Ok (Soft {| sb_dim := sb_dim s; sb_pts := map (damping_particle a) (sb_pts s); sb_storeF := sb_storeF s; sb_vol0d := sb_vol0d s |}))
                 | Rigid _ => Err AttributeError end)) (dm_ps d)) with (s := w_mps w1) as (l & -> & Hl); [|exact F1|].
      + intros l p Hp Fl. destruct (Q p Hp) as (s & Es). destruct (Forall2_nth_error_l _ _ _ _ _ Fl Es) as (b' & Eb' & Sb). destruct b' as [s'|]; [|contradiction].
        eexists. split; [eapply upd_total; [exact Eb'|reflexivity]|]. apply (ok_set l p (Soft s')); [exact Fl|exact Eb'|]. simpl. rewrite map_length. auto.
      + cbn [rbind]. eexists. split; [reflexivity|]. split; [exact Hl|exact S1].
    }
  destruct P as (w' & -> & F' & S'). cbn [rbind].
  destruct (rfold_total (fun gs => length gs = length (so_domains S)) (p2g_coupling S w' m (sc_inter ca)) (so_couplings S)) with (s := sc_grids ca) as (gs & -> & Lgs); [|exact Lg|].
  - intros gs c Hc Lgs. unfold p2g_coupling. destruct (c_skip c) eqn:Sk; [eauto|].
    destruct (act_get _ c F' Hc Sk) as (s & ci & lw & ls & Eb & V & N & Ec & El & Els & Fit & A). rewrite (idx_some _ _ _ Eb). cbn [rbind].
    destruct (ok_get _ c F' Hc) as (_ & gd & _ & Eg & _). destruct (Hd c Hc) as (it & Ei).
    assert (Lc : c_g c < length gs) by (rewrite Lgs; apply nth_error_Some; congruence). destruct (nth_some _ _ Lc) as (g & Egs).
    assert (X : exists g', (rbind (dict_get (c_p c, c_g c) (sc_inter ca)) (fun it => match so_scheme S with
        | USL => rbind (soft_of (Soft s)) (fun s => Ok (p2g_usl it s g))
        | ASFLIP _ => rbind (idx (so_domains S) (c_g c)) (fun gd => rbind (idx_opt (m_solvers m) (c_s c)) (fun ss =>
                rbind (soft_of (Soft s)) (fun s => rbind (bp_of ss) (fun Bp => Ok (p2g_aflip gd Bp it s g))))) end)) = Ok g').
    { rewrite Ei. cbn [rbind soft_of]. rewrite V. destruct (so_scheme S) as [|a]; [cbn [rbind]; eauto|]. destruct A as (_ & k & B & B' & Ek & E1 & E2).
      rewrite (idx_some _ _ _ Eg). cbn [rbind]. rewrite Ek. cbn [idx_opt]. rewrite (idx_some _ _ _ E1). cbn [rbind bp_of]. eauto. }
    destruct X as (g' & X). exists (set_nth (c_g c) g' gs). split; [apply (upd_total gs (c_g c) _ g g' Egs X)|]. rewrite set_nth_length. exact Lgs.
  - cbn [rbind]. do 2 eexists. split; [reflexivity|]. cbn [set_grids sc_inter sc_grids sc_mp_geoms sc_node_geoms]. repeat split; auto.
Qed.
Lemma geoms_get i s w : i < length (so_domains S) -> s < length (so_sdfs S) -> length (w_sdfs w) = length (so_sdfs S) ->
  exists gg ge, nth_error (node_sdfs S w (s_dt st)) i = Some gg /\ nth_error gg s = Some ge.
Proof.
  intros Hi Hs Lw. destruct (nth_some _ _ Hi) as (gd & Eg). unfold node_sdfs.
  eexists. rewrite nth_error_map, Eg. cbn [option_map].
  assert (L : s < length (combine (so_sdfs S) (w_sdfs w))) by (rewrite combine_length, Lw; lia). destruct (nth_some _ _ L) as (x & Ex).
  eexists. split; [reflexivity|]. rewrite nth_error_map, Ex. reflexivity.
Qed.
Lemma integrate_total w w0 ca : length (w_sdfs w) = length (so_sdfs S) -> length (w_sdfs w0) = length (so_sdfs S) -> length (sc_grids ca) = length (so_domains S) ->
  sc_node_geoms ca = node_sdfs S w0 (s_dt st) ->
  exists ca3, integrate_grid S w m (s_dt st) ca = Ok ca3 /\ sc_inter ca3 = sc_inter ca /\ length (sc_grids ca3) = length (so_domains S) /\ sc_mp_geoms ca3 = sc_mp_geoms ca.
Proof.
  intros Lw Lw0 Lg Ng. unfold integrate_grid. pose proof R as (_ & R2 & _ & R4).
  assert (U : forall (f : Grid T -> res (Grid T)) is_, on_grids S is_ -> (forall g, exists g', f g = Ok g') -> forall gs, length gs = length (so_domains S) ->
     exists gs', rfold (fun l i => upd_idx l i f) gs is_ = Ok gs' /\ length gs' = length (so_domains S)).
  { intros f is_ Hi Hf gs Lgs. apply rfold_total; [|exact Lgs]. intros l i Hin Ll. destruct (nth_some l i) as (g & Eg); [rewrite Ll; apply Hi, Hin|].
    destruct (Hf g) as (g' & Ef). exists (set_nth i g' l). split; [eapply upd_total; eassumption|]. rewrite set_nth_length. exact Ll. }
  destruct (rfold_total (fun gs => length gs = length (so_domains S)) (fun gs f => apply_grid_forces f m gs) (so_forces S)) with (s := sc_grids ca) as (gs1 & -> & L1); [|exact Lg|].
  - intros gs f Hf Lgs. specialize (R4 f Hf). destruct f as [g|d|c|c]; cbn [force_fits apply_grid_forces] in *; eauto.
    + destruct R4 as (fs & Ev & Q). fold m in Ev. destruct (gv_on_grid g); [|eauto]. rewrite (idx_some _ _ _ Ev). cbn [rbind]. destruct Q as (Hg & K).
      destruct (gv_gs g) as [|g0 l0] eqn:El; [cbn [rfold]; eauto|]. destruct K as (v & ->); [discriminate|]. cbn [rbind gravity_of]. apply U; eauto.
    + destruct R4 as (fs & Ev & Q). fold m in Ev. destruct (dm_on_grid d); [|eauto]. rewrite (idx_some _ _ _ Ev). cbn [rbind]. destruct Q as (Hg & K).
      destruct (dm_gs d) as [|g0 l0] eqn:El; [cbn [rfold]; eauto|]. destruct K as (v & ->); [discriminate|]. cbn [rbind alpha_of]. apply U; eauto.
  - cbn [rbind].
    destruct (rfold_total (fun gs => length gs = length (so_domains S)) (fun gs c => if c_skip c then Ok gs else upd_idx gs (c_g c) (fun g => Ok (integrate1 (s_dt st) g))) (so_couplings S)) with (s := gs1)
      as (gs2 & -> & L2); [|exact L1|].
    + intros gs c Hc Lgs. destruct (c_skip c); [eauto|]. destruct (R2 c Hc) as (_ & gd & _ & Eg & _).
      destruct (nth_some gs (c_g c)) as (g & Egs); [rewrite Lgs; apply nth_error_Some; congruence|]. eexists. split; [eapply upd_total; [exact Egs|reflexivity]|]. rewrite set_nth_length. exact Lgs.
    + cbn [rbind].
      destruct (rfold_total (fun gs => length gs = length (so_domains S)) (fun gs f => apply_grid_moments f w (so_sdfs S) (so_domains S) (sc_node_geoms ca) (s_dt st) gs) (so_forces S)) with (s := gs2)
        as (gs3 & -> & L3); [|exact L2|].
      * intros gs f Hf Lgs. specialize (R4 f Hf). destruct f as [g|d|c|c]; cbn [force_fits apply_grid_moments] in *; eauto; [|contradiction].
        destruct (cl_sdf c) as [s|]; [|eauto]. destruct R4 as (Hs & Hg). destruct (nth_some _ _ Hs) as (x & Ex). rewrite (idx_some _ _ _ Ex). cbn [rbind].
        destruct (nth_some (w_sdfs w) s) as (y & Ey); [lia|]. rewrite (idx_some _ _ _ Ey). cbn [rbind].
        apply rfold_total; [|exact Lgs]. intros l i Hi Ll. destruct (nth_some _ _ (Hg i Hi)) as (gd & Eg). rewrite (idx_some _ _ _ Eg). cbn [rbind].
        destruct (nth_some l i) as (gr & Egr); [rewrite Ll; apply Hg, Hi|]. destruct (geoms_get i s w0 (Hg i Hi) Hs Lw0) as (gg & ge & E1 & E2).
        eexists. split; [eapply upd_total; [exact Egr|]|rewrite set_nth_length; exact Ll]. rewrite Ng, E1. cbn [oget rbind]. rewrite E2. cbn [oget rbind]. reflexivity.
      * cbn [rbind]. eexists. split; [reflexivity|]. cbn [set_grids sc_inter sc_grids sc_mp_geoms]. auto.
Qed.
Definition ok_mech (m' : Mechanics T) : Prop := m_laws m' = m_laws m /\ Forall2 ssim (m_solvers m) (m_solvers m').
Lemma g2p_total w w0 ca : ok_bodies (w_mps w) -> length (w_mps w0) = length bs -> has (so_couplings S) (sc_inter ca) -> length (sc_grids ca) = length (so_domains S) ->
  sc_mp_geoms ca = particle_sdfs S w0 (s_dt st) ->
  exists w3 m3, g2p S w m (s_dt st) ca = Ok (w3, m3) /\ ok_bodies (w_mps w3) /\ m_laws m3 = m_laws m.
Proof.
  intros F Lw0 Hd Lg Pg. unfold g2p.
  destruct (rfold_total (fun wm => ok_bodies (w_mps (fst wm)) /\ ok_mech (snd wm)) (g2p_coupling S ca (s_dt st)) (so_couplings S)) with (s := (w, m)) as ((w3 & m3) & E & F3 & M3).
  - intros (w1 & m1) c Hc (F1 & M1 & M2). cbn [fst snd] in *. unfold g2p_coupling. destruct (c_skip c) eqn:Sk; [eexists; split; [reflexivity|split; [exact F1|split; assumption]]|].
    destruct (act_get _ c F1 Hc Sk) as (s & ci & lw & ls & Eb & V & N & Ec & El & Els & Fit & A).
    destruct (ok_get _ c F1 Hc) as (_ & gd & _ & Eg & _). destruct (Hd c Hc) as (it & Ei).
    destruct (nth_some (sc_grids ca) (c_g c)) as (g & Egs); [rewrite Lg; apply nth_error_Some; congruence|].
    rewrite (idx_some _ _ _ Egs). cbn [rbind]. rewrite Ei. cbn [rbind]. rewrite (idx_some _ _ _ Eb). cbn [rbind].
    assert (B : forall pts', length pts' = length (sb_pts s) -> ok_bodies (set_nth (c_p c) (Soft (after_g2p s pts')) (w_mps w1))).
    { intros pts' L. apply (ok_set _ _ (Soft s)); [exact F1|exact Eb|]. simpl. rewrite L, V. split; [reflexivity|]. split; [apply Nat.eqb_neq, N|reflexivity]. }
    assert (Lu : forall al gs, length (g2p_usl al (s_dt st) gs it g (sb_pts s)) = length (sb_pts s)) by (intros; unfold g2p_usl; rewrite map_length, enum_length; reflexivity).
    destruct (so_scheme S) as [|a] eqn:Sch.
    + destruct (nth_some (sc_mp_geoms ca) (c_p c)) as (geos & Ege).
      { rewrite Pg. unfold particle_sdfs. rewrite map_length, Lw0. rewrite (Forall2_len _ _ _ F1). apply nth_error_Some. congruence. }
      rewrite (idx_some _ _ _ Ege). cbn [rbind]. rewrite (proj2 (Nat.eqb_neq _ _) N). destruct geos; eexists; (split; [reflexivity|]); (split; [apply B, Lu|split; assumption]).
    + destruct A as (-> & k & Bp & B' & Ek & E1 & E2). rewrite (idx_some _ _ _ Eg). cbn [rbind].
      destruct (Forall2_nth_error_l _ _ _ _ _ M2 E2) as (ss & Ess & Sim). destruct ss as [[|Bq]|]; try contradiction.
      rewrite (idx_some _ _ _ Ess). cbn [rbind bp_of]. eexists. split; [reflexivity|]. cbn [fst snd]. split; [|split; [exact M1|]].
      * apply B. unfold g2p_aflip. cbn [fst]. rewrite map_length, enum_length. reflexivity.
      * cbn [m_solvers]. eapply Forall2_set_nth; [exact M2|exact E2|exact I].
  - cbn [fst snd]. split; [exact F|]. split; [reflexivity|apply Forall2_refl, ssim_refl].
  - exists w3, m3. rewrite E. cbn [fst snd] in *. destruct M3. auto.
Qed.
Lemma law_fits_update (l : Law T) s ls : sb_vol0d s = false -> law_fits l ls (length (sb_pts s)) -> exists s1 ls', law_update l s ls (s_dt st) = Ok (s1, ls').
Proof.
  intros V Fit. destruct l; cbn [law_fits law_update] in *; [eauto| | | |].
  - destruct Fit as (r & -> & L). rewrite V, L, Nat.eqb_refl. cbn. eauto.
  - destruct Fit as (r & -> & L). rewrite V, L, Nat.eqb_refl. cbn. eauto.
  - destruct Fit as (d & -> & L). rewrite L, Nat.eqb_refl. cbn. eauto.
  - destruct Fit as (p & q & e & -> & L1 & L2 & L3). rewrite L1, L2, L3, Nat.eqb_refl. cbn. eauto.
Qed.
Lemma law_fits_sim (l : Law T) ls ls' n : lsim ls ls' -> law_fits l ls n -> law_fits l ls' n.
Proof.
  destruct l; cbn [law_fits]; auto.
  - intros Q (r & -> & L). destruct ls' as [[| r' | |]|]; try contradiction. exists r'. split; [reflexivity|]. simpl in Q. congruence.
  - intros Q (r & -> & L). destruct ls' as [[| r' | |]|]; try contradiction. exists r'. split; [reflexivity|]. simpl in Q. congruence.
  - intros Q (r & -> & L). destruct ls' as [[| | r' |]|]; try contradiction. exists r'. split; [reflexivity|]. simpl in Q. congruence.
  - intros Q (p & s & e & -> & L1 & L2 & L3). destruct ls' as [[| | |p' [s'|] e']|]; try contradiction; simpl in Q; [|tauto]. destruct Q as (Q1 & Q2 & Q3).
    exists p', s', e'. split; [reflexivity|]. repeat split; congruence.
Qed.
Lemma constitutive_total w m3 : ok_bodies (w_mps w) -> m_laws m3 = m_laws m -> exists r, constitutive_update S (s_dt st) w m3 = Ok r.
Proof.
  intros F M3. unfold constitutive_update.
  destruct (rfold_total (fun wm => ok_bodies (w_mps (fst wm)) /\ Forall2 lsim (m_laws m) (m_laws (snd wm))) (constitutive_coupling S (s_dt st)) (so_couplings S)) with (s := (w, m3)) as (r & E & _).
  - intros (w1 & m1) c Hc (F1 & M1). cbn [fst snd] in *. unfold constitutive_coupling. destruct (c_skip c) eqn:Sk; [eexists; split; [reflexivity|split; assumption]|].
    destruct (act_get _ c F1 Hc Sk) as (s & ci & lw & ls & Eb & V & N & Ec & El & Els & Fit & A). destruct (Forall2_nth_error_l _ _ _ _ _ M1 Els) as (ls1 & Els1 & Sim).
    rewrite (idx_some _ _ _ Eb). cbn [rbind]. rewrite Ec. cbn [idx_opt]. rewrite (idx_some _ _ _ Els1). cbn [rbind]. rewrite (idx_some _ _ _ El). cbn [rbind].
    destruct (law_fits_update lw s ls1 V (law_fits_sim _ _ _ _ Sim Fit)) as (s1 & ls' & U). rewrite U. cbn [rbind fst snd]. eexists. split; [reflexivity|]. cbn [fst snd]. split.
    + apply (ok_set _ _ (Soft s)); [exact F1|exact Eb|]. eapply law_body_sim; exact U.
    + cbn [m_laws]. eapply Forall2_set_nth; [exact M1|exact Els|]. eapply lsim_trans; [exact Sim|]. change ls' with (snd (s1, ls')). eapply law_update_lsim; exact U.
  - cbn [fst snd]. split; [exact F|]. rewrite M3. apply Forall2_refl, lsim_refl.
  - eauto.
Qed.
Lemma ready_many : many_points S (s_world st).
Proof. intros c s Hc Hs Es. destruct R as (_ & _ & R3 & _). destruct (R3 c Hc Hs) as (s' & _ & _ & _ & Eb & _ & N & _). rewrite Es in Eb. injection Eb as <-. exact N. Qed.
Theorem ready_step : exists r, solver_step S st = Ok r.
Proof.
  unfold solver_step. fold m. destruct prepare_total as (w & ca & -> & F & Ls & Hd & Eg & Ep & En). cbn [rbind fst snd].
  assert (Lg : length (sc_grids ca) = length (so_domains S)) by (rewrite Eg, map_length; reflexivity).
  destruct (p2g_total w ca F Hd Lg) as (w2 & ca2 & -> & F2 & S2 & I2 & L2 & P2 & N2). cbn [rbind fst snd].
  destruct (integrate_total w2 w ca2) as (ca3 & -> & I3 & L3 & P3); [congruence|exact Ls|exact L2|congruence|]. cbn [rbind fst snd].
  destruct (g2p_total w2 w ca3 F2) as (w3 & m3 & -> & F3 & M3); [symmetry; apply (Forall2_len _ _ _ F)|rewrite I3, I2; exact Hd|exact L3|congruence|]. cbn [rbind fst snd].
  destruct (constitutive_total w3 m3 F3 M3) as ((w4 & m4) & ->). cbn [rbind fst snd]. eauto.
Qed.
End Step.
Theorem ready_run (S : Solver T) st n : ready S st -> exists r, solver_steps S n st = Ok r.
Proof. intros R. destruct (ready_step S st R) as (r & E). apply (steps_progress S st r n E (ready_many S st R)). Qed.

(** the conditions are also necessary *)
Lemma rfold_at {A St} (I : St -> Prop) (f : St -> A -> res St) l : (forall s x s', In x l -> I s -> f s x = Ok s' -> I s') ->
  forall s r x, I s -> rfold f s l = Ok r -> In x l -> exists s1 s2, I s1 /\ f s1 x = Ok s2.
Proof.
  induction l as [|y l IH]; intros H s r x Hs E Hx; [contradiction|]. cbn [rfold] in E. apply rbind_ok in E. destruct E as (a & Ea & E).
  destruct Hx as [<-|Hx]; [eauto|]. apply (IH ltac:(intros u v u' Hv; apply H; right; exact Hv) a r x); auto. eapply H; [left; reflexivity|exact Hs|exact Ea].
Qed.
Lemma on_grids_fold (S : Solver T) (f : nat -> Grid T -> res (Grid T)) is_ gs gs' : length gs = length (so_domains S) ->
  rfold (fun l i => upd_idx l i (f i)) gs is_ = Ok gs' -> on_grids S is_ /\ (forall i, In i is_ -> exists g g', f i g = Ok g').
Proof.
  intros L E. assert (X : forall i, In i is_ -> i < length (so_domains S) /\ exists g g', f i g = Ok g').
  { intros i Hi. destruct (rfold_at (fun l => length l = length (so_domains S)) (fun l i => upd_idx l i (f i)) is_) with (s := gs) (r := gs') (x := i) as (l1 & l2 & L1 & E1); auto.
    - intros l j l' _ Ll Ej. apply upd_idx_ok in Ej. destruct Ej as (? & ? & _ & _ & ->). rewrite set_nth_length. exact Ll.
    - apply upd_idx_ok in E1. destruct E1 as (g & g' & Eg & Ef & _). split; [|eauto]. rewrite <- L1. apply nth_error_Some. congruence. }
  split; intros i Hi; apply X, Hi.
Qed.
Lemma law_update_fits (l : Law T) s ls dt r : law_update l s ls dt = Ok r -> law_fits l ls (length (sb_pts s)).
Proof.
  destruct l; cbn [law_fits law_update]; auto.
  - destruct ls as [[|q| |]|]; try discriminate. destruct (Nat.eqb_spec (length q) (length (sb_pts s))); [eauto|]. cbn [negb]. rewrite ?orb_true_r. discriminate.
  - destruct ls as [[|q| |]|]; try discriminate. destruct (Nat.eqb_spec (length q) (length (sb_pts s))); [eauto|]. cbn [negb]. rewrite ?orb_true_r. discriminate.
  - destruct ls as [[| |q|]|]; try discriminate. destruct (Nat.eqb_spec (length q) (length (sb_pts s))); [eauto|discriminate].
  - destruct ls as [[| | |pc [sr|] e]|]; try discriminate. destruct (Nat.eqb_spec (length pc) (length (sb_pts s))); [|cbn; discriminate].
    destruct (Nat.eqb_spec (length sr) (length (sb_pts s))); [|cbn; discriminate]. destruct (Nat.eqb_spec (length e) (length (sb_pts s))); [|cbn; discriminate]. exists pc, sr, e. auto.
Qed.
Lemma law_fits_back (l : Law T) ls ls' n : lsim ls ls' -> law_fits l ls' n -> law_fits l ls n.
Proof.
  destruct l; cbn [law_fits]; auto.
  - intros Q (r & -> & L). destruct ls as [[| r' | |[]]|]; try contradiction. exists r'. split; [reflexivity|]. simpl in Q. congruence.
  - intros Q (r & -> & L). destruct ls as [[| r' | |[]]|]; try contradiction. exists r'. split; [reflexivity|]. simpl in Q. congruence.
  - intros Q (r & -> & L). destruct ls as [[| | r' |[]]|]; try contradiction. exists r'. split; [reflexivity|]. simpl in Q. congruence.
  - intros Q (p & s & e & -> & L1 & L2 & L3). destruct ls as [[| | |p' [s'|] e']|]; try contradiction; simpl in Q; [|tauto]. destruct Q as (Q1 & Q2 & Q3).
    exists p', s', e'. split; [reflexivity|]. repeat split; congruence.
Qed.
Lemma soft_back (l l' : list (Body T)) i s' : Forall2 bsim l l' -> nth_error l' i = Some (Soft s') ->
  exists s, nth_error l i = Some (Soft s) /\ sb_vol0d s' = sb_vol0d s /\ length (sb_pts s') = length (sb_pts s).
Proof. intros F E. destruct (Forall2_nth_error _ _ _ _ _ F E) as (b & Eb & Sb). destruct b as [s|]; [|contradiction]. destruct Sb as (_ & V & L). eauto. Qed.
Theorem step_ready (S : Solver T) st r : solver_step S st = Ok r -> many_points S (s_world st) -> ready S st.
Proof.
  intros E Hm. apply step_ok in E. destruct E as (w & ca & w2 & ca2 & ca3 & w3 & m3 & w4 & m4 & E1 & E2 & E3 & E4 & E5 & _).
  pose proof (prepare_sim _ _ _ _ E1) as (F1 & L1). pose proof (prepare_ok _ _ _ _ E1) as (_ & Rows & Dict & Gs & _ & Ng & Kin).
  pose proof (p2g_fresh _ _ _ _ _ _ E2) as Hv. pose proof (p2g_sdfs _ _ _ _ _ _ E2) as D2. pose proof (p2g_sim _ _ _ _ _ _ E2) as F2.
  assert (F12 : Forall2 bsim (w_mps (s_world st)) (w_mps w2)) by (eapply (Forall2_trans _ bsim_trans); eassumption).
  assert (Hm2 : many_points S w2) by (eapply many_points_sim; eassumption).
  destruct (g2p_sim _ _ _ _ _ _ _ E4 Hm2 Hv) as (F3 & S3). pose proof (g2p_kept _ _ _ _ _ _ _ E4) as (_ & _ & M1 & _).
  assert (F123 : Forall2 bsim (w_mps (s_world st)) (w_mps w3)) by (eapply (Forall2_trans _ bsim_trans); eassumption).
  assert (P2 := p2g_ok _ _ _ _ _ _ E2). destruct P2 as (gs & Pre & Pg & ->).
  assert (Lgs : length gs = length (so_domains S)).
  { assert (G0 : Forall2 grid_ok (so_domains S) (sc_grids ca)) by (rewrite Gs; clear; induction (so_domains S); constructor; [apply grid_new_ok|assumption]).
    pose proof (p2g_grids_ok _ _ _ _ _ _ G0 Pg) as G.
    symmetry. exact (Forall2_len _ _ _ G). }
  split; [|split; [|split]].
  - unfold kinematic_update in Kin. apply rbind_ok in Kin. destruct Kin as (l & Kl & _). apply rmap_ok in Kl.
    destruct (so_sdfs S) as [|s0 ss] eqn:Es; [simpl; lia|]. rewrite <- Es in *. destruct (Nat.le_gt_cases (length (so_sdfs S)) (length (w_sdfs (s_world st)))) as [|Lt]; [assumption|exfalso].
    destruct (nth_some (so_sdfs S) (length (w_sdfs (s_world st)))) as (x & Ex); [lia|].
    assert (En : nth_error (enum (so_sdfs S)) (length (w_sdfs (s_world st))) = Some (length (w_sdfs (s_world st)), x)) by (rewrite enum_nth_error, Ex; reflexivity).
    destruct (Forall2_nth_error_l _ _ _ _ _ Kl En) as (y & _ & Ey). cbn [fst] in Ey. apply rbind_ok in Ey. destruct Ey as (z & Ez & _). apply idx_ok in Ez.
    assert (nth_error (w_sdfs (s_world st)) (length (w_sdfs (s_world st))) = None) by (apply nth_error_None; lia). congruence.
  - intros c Hc. destruct (Dict c Hc) as (rows & Er). destruct (Rows _ _ _ Er) as (k & b & gd & _ & Eb & Eg & D & _).
    destruct (Forall2_nth_error _ _ _ _ _ F1 Eb) as (b0 & Eb0 & Sb). destruct (bsim_num _ _ Sb) as (N & Db). exists b0, gd. split; [exact Eb0|]. split; [exact Eg|].
    split; [congruence|]. intros Ne. unfold prepare in E1. apply rbind_ok in E1. destruct E1 as (w1 & K1 & E1). apply rbind_ok in E1. destruct E1 as (w1' & K2 & E1).
    apply rbind_ok in E1. destruct E1 as (d & K3 & E1). apply rbind_ok in E1. destruct E1 as (d' & K4 & E1). injection E1 as <- _. unfold sdf_correction in K4.
    destruct (so_sdfs S) as [|s0 ss]; [congruence|]. destruct (rfold_each _ _ _ _ _ K4 Hc) as (x & y & Ex). apply rbind_ok in Ex. destruct Ex as (rw & _ & Ex).
    apply rbind_ok in Ex. destruct Ex as (b1 & Eb1 & Ex). apply idx_ok in Eb1. rewrite Eb in Eb1. injection Eb1 as <-. apply rbind_ok in Ex. destruct Ex as (g1 & _ & Ex).
    destruct (Nat.eqb_spec (num_points b) 0); [discriminate|]. congruence.
  - intros c Hc Hs. destruct (Hv c Hc Hs) as (s2 & Es2 & Ev2). destruct (soft_back _ _ _ _ F12 Es2) as (s & Es & V & L).
    unfold constitutive_update in E5.
    destruct (rfold_at (fun wm => Forall2 bsim (w_mps (s_world st)) (w_mps (fst wm)) /\ Forall2 lsim (m_laws (s_mech st)) (m_laws (snd wm))) (constitutive_coupling S (s_dt st)) (so_couplings S))
      with (s := (w3, m3)) (r := (w4, m4)) (x := c) as ((w5 & m5) & (w6 & m6) & (I1 & I2) & E6); auto.
    { intros (wa & ma) c1 (wb & mb) _ (J1 & J2) Ea. cbn [fst snd] in *. destruct (constitutive_sim {| so_scheme := so_scheme S; so_alpha := so_alpha S; so_domains := so_domains S; so_couplings := [c1];
          so_laws := so_laws S; so_forces := so_forces S; so_sdfs := so_sdfs S; so_sharp := so_sharp S |} (s_dt st) wa ma wb mb) as (Q1 & Q2).
      - unfold constitutive_update. cbn [so_couplings rfold]. change (rbind (constitutive_coupling S (s_dt st) (wa, ma) c1) (fun x => Ok x) = Ok (wb, mb)). rewrite Ea. reflexivity.
      - split; [eapply (Forall2_trans _ bsim_trans)|eapply (Forall2_trans _ lsim_trans)]; eassumption. }
    { cbn [fst snd]. split; [exact F123|]. rewrite M1. apply Forall2_refl, lsim_refl. }
    cbn [fst snd] in *. apply constitutive_coupling_ok in E6. destruct E6 as [(X & _)|(_ & s5 & ci & l & ls & s6 & ls' & Es5 & Ec & Els & El & Eu & _)]; [congruence|].
    destruct (soft_back _ _ _ _ I1 Es5) as (s' & Es' & _ & L5). rewrite Es in Es'. injection Es' as <-. destruct (Forall2_nth_error _ _ _ _ _ I2 Els) as (ls0 & Els0 & Sl).
    exists s, ci, l, ls0. split; [exact Es|]. split; [congruence|]. split; [exact (Hm c s Hc Hs Es)|]. split; [exact Ec|]. split; [exact El|]. split; [exact Els0|].
    split; [eapply law_fits_back; [exact Sl|]; rewrite <- L5; eapply law_update_fits; exact Eu|].
    destruct (so_scheme S) as [|a] eqn:Sch; [exact I|].
    destruct (rfold_each _ _ _ _ _ Pg Hc) as (ga & gb & Eg). apply p2g_coupling_ok in Eg. destruct Eg as [(X & _)|(_ & sg & it & gr & vel & _ & _ & _ & _ & Pv & _)]; [congruence|].
    unfold p2g_vel in Pv. rewrite Sch in Pv. destruct Pv as (gd & Bp & k & _ & Ek & Es7 & _). unfold g2p in E4.
    destruct (rfold_at (fun wm => Forall2 ssim (m_solvers (s_mech st)) (m_solvers (snd wm))) (g2p_coupling S ca3 (s_dt st)) (so_couplings S)) with (s := (w2, s_mech st)) (r := (w3, m3)) (x := c)
      as ((w8 & m8) & (w9 & m9) & I8 & E9); auto.
    { intros (wa & ma) c1 (wb & mb) _ J Ea. cbn [snd] in *. apply g2p_coupling_ok in Ea. destruct Ea as [(_ & _ & ->)|(_ & sa & ia & ga' & pa & _ & _ & _ & Ra & _)]; [exact J|].
      unfold g2p_result in Ra. rewrite Sch in Ra. destruct Ra as (_ & gda & B & _ & Ess & _ & ->). cbn [m_solvers]. destruct (Forall2_nth_error _ _ _ _ _ J Ess) as (a0 & Ha0 & Hsim).
      eapply Forall2_set_nth; [exact J|exact Ha0|]. destruct a0 as [[|]|]; simpl in *; auto. }
    { apply Forall2_refl, ssim_refl. }
    apply g2p_coupling_ok in E9. destruct E9 as [(X & _)|(_ & sa & ia & ga' & pa & _ & _ & _ & Ra & _)]; [congruence|].
    unfold g2p_result in Ra. rewrite Sch in Ra. destruct Ra as (Ml & gda & B & _ & Ess & _). cbn [snd] in I8. destruct (Forall2_nth_error _ _ _ _ _ I8 Ess) as (a0 & Ha0 & Hsim).
    destruct a0 as [[|B0]|]; simpl in Hsim; try contradiction. split; [exact Ml|]. exists k, Bp, B0. auto.
  - intros f Hf.
    destruct (rfold_at (fun w' => Forall2 bsim (w_mps (s_world st)) (w_mps w')) (fun w f => apply_pre_p2g f w (s_mech st)) (so_forces S)) with (s := w) (r := w2) (x := f) as (wa & wb & Fa & Ea); auto.
    { intros u v u' _ Fu Eu. apply pre_p2g_ok in Eu. destruct Eu as (_ & Eu). eapply (Forall2_trans _ bsim_trans); [exact Fu|].
      revert Eu. apply Forall2_weaken. intros [q|q] [q'|q']; simpl; try tauto; [|intros <-; auto]. intros (A & B & C & D). repeat split; auto. symmetry; eapply Forall2_len; exact D. }
    apply integrate_ok in E3. destruct E3 as (gs1 & gs2 & gs3 & I1 & I2 & I3 & _). cbn [set_grids sc_grids sc_node_geoms] in *.
    destruct (rfold_at (fun g => length g = length (so_domains S)) (fun gs f => apply_grid_forces f (s_mech st) gs) (so_forces S)) with (s := gs) (r := gs1) (x := f) as (g1 & g1' & Lg1 & Eg1); auto.
    { intros u v u' _ Lu Eu. apply grid_forces_ok in Eu. rewrite <- (Forall2_len _ _ _ Eu). exact Lu. }
    assert (L2 : length gs2 = length (so_domains S)).
    { apply forces_fold_ok in I1. 
      refine (rfold_inv (fun g => length g = length (so_domains S)) _ _ gs1 gs2 _ _ I2); [|rewrite <- (Forall2_len _ _ _ I1); exact Lgs].
      intros u v u' _ Lu Eu. cbv beta in Eu. destruct (c_skip v); [injection Eu as <-; exact Lu|]. apply upd_idx_ok in Eu. destruct Eu as (? & ? & _ & _ & ->). rewrite set_nth_length. exact Lu. }
    destruct (rfold_at (fun g => length g = length (so_domains S)) (fun gs f => apply_grid_moments f w2 (so_sdfs S) (so_domains S) (sc_node_geoms ca) (s_dt st) gs) (so_forces S))
      with (s := gs2) (r := gs3) (x := f) as (g2 & g2' & Lg2 & Eg2); auto.
    { intros u v u' _ Lu Eu. apply grid_moments_ok in Eu. rewrite <- (Forall2_len _ _ _ Eu). exact Lu. }
    destruct f as [g|d|c|c]; cbn [force_fits apply_pre_p2g apply_grid_forces apply_grid_moments] in *; [| | |discriminate].
    + destruct (gv_on_grid g).
      * apply rbind_ok in Eg1. destruct Eg1 as (fs & Efs & Eg1). apply idx_ok in Efs. exists fs. split; [exact Efs|].
        destruct (on_grids_fold S (fun _ gr => rbind (gravity_of fs) (fun v => Ok (gravity_grid v gr))) _ _ _ Lg1 Eg1) as (O & K). split; [exact O|].
        intros Ne. destruct (gv_gs g) as [|i l]; [congruence|]. destruct (K i (or_introl eq_refl)) as (x & y & Exy). destruct fs as [[v|v]|]; try discriminate. eauto.
      * apply rbind_ok in Ea. destruct Ea as (fs & Efs & Ea). apply idx_ok in Efs. exists fs. split; [exact Efs|]. destruct (gv_ps g) as [|p ps]; [reflexivity|]. cbn [rfold] in Ea.
        apply rbind_ok in Ea. destruct Ea as (x & Ex & _). apply rbind_ok in Ex. destruct Ex as (y & _ & Ex). apply rbind_ok in Ex. destruct Ex as (z & _ & Ex). discriminate.
    + destruct (dm_on_grid d).
      * apply rbind_ok in Eg1. destruct Eg1 as (fs & Efs & Eg1). apply idx_ok in Efs. exists fs. split; [exact Efs|].
        destruct (on_grids_fold S (fun _ gr => rbind (alpha_of fs) (fun a => Ok (damping_grid a gr))) _ _ _ Lg1 Eg1) as (O & K). split; [exact O|].
        intros Ne. destruct (dm_gs d) as [|i l]; [congruence|]. destruct (K i (or_introl eq_refl)) as (x & y & Exy). destruct fs as [[v|v]|]; try discriminate. eauto.
      * apply rbind_ok in Ea. destruct Ea as (fs & Efs & Ea). apply idx_ok in Efs. exists fs. split; [exact Efs|]. apply rbind_ok in Ea. destruct Ea as (l & Ea & _).
        assert (K : forall p, In p (dm_ps d) -> (exists s, nth_error (w_mps (s_world st)) p = Some (Soft s)) /\ exists a, fs = Some (FS_Damping a)).
        { intros p Hp. destruct (rfold_at (fun l => Forall2 bsim (w_mps (s_world st)) l) (fun l p => upd_idx l p (fun b => match b with
                 | Soft s => rbind (alpha_of fs) (fun a => Ok (Soft {| sb_dim := sb_dim s; sb_pts := map (damping_particle a) (sb_pts s); sb_storeF := sb_storeF s; sb_vol0d := sb_vol0d s |}))
                 | Rigid _ => Err AttributeError end)) (dm_ps d)) with (s := w_mps wa) (r := l) (x := p) as (l1 & l2 & Q1 & Q2); auto.
          - intros u v u' _ Fu Eu. apply upd_idx_ok in Eu. destruct Eu as (b & y & Eb & Ey & ->). destruct b as [sb|]; [|discriminate]. apply rbind_ok in Ey. destruct Ey as (al & _ & Ey).
            injection Ey as <-. eapply (Forall2_trans _ bsim_trans); [exact Fu|]. eapply Forall2_set_nth; [apply bsim_F2_refl|exact Eb|]. simpl. rewrite map_length. auto.
          - apply upd_idx_ok in Q2. destruct Q2 as (b & y & Eb & Ey & _). destruct b as [sb|]; [|discriminate]. destruct (soft_back _ _ _ _ Q1 Eb) as (s0 & Es0 & _).
            apply rbind_ok in Ey. destruct Ey as (al & Eal & _). destruct fs as [[v|v]|]; try discriminate. eauto. }
        split; [intros p Hp; apply K, Hp|]. intros Ne. destruct (dm_ps d) as [|p ps]; [congruence|]. apply (K p (or_introl eq_refl)).
    + destruct (cl_sdf c) as [k|]; [|exact I]. apply rbind_ok in Eg2. destruct Eg2 as (lg & Elg & Eg2). apply idx_ok in Elg. split; [apply nth_error_Some; congruence|].
      apply rbind_ok in Eg2. destruct Eg2 as (sd & _ & Eg2). intros i Hi. destruct (rfold_each _ _ _ _ _ Eg2 Hi) as (x & y & Exy). cbv beta in Exy. apply rbind_ok in Exy.
      destruct Exy as (gd & Egd & _). apply idx_ok in Egd. apply nth_error_Some. congruence.
Qed.
End RD.
