(** C31: whether a step succeeds depends on the shape of the state only; shapes are kept by a step unless an
    active body has exactly one point. *)
From Coq Require Import List Arith ZArith Lia Bool.
From Verif Require Import Num Linalg Arrays ModelGrid ModelShape ModelMath ModelState ModelLaws ModelForces ModelSolver
  Sums SpecShape ShapeProofs ResFacts SolverFacts SpecSolver StepProofs.
Import ListNotations.

Section PR.
Context {T : Type} {NT : NumT T}.

Definition bsim (b b' : Body T) : Prop :=
  match b, b' with
  | Soft s, Soft s' => sb_dim s' = sb_dim s /\ sb_vol0d s' = sb_vol0d s /\ length (sb_pts s') = length (sb_pts s)
  | Rigid r, Rigid r' => rb_dim r' = rb_dim r /\ length (rb_pts r') = length (rb_pts r)
  | _, _ => False
  end.
Definition lsim (a b : option (LawState T)) : Prop :=
  match a, b with
  | None, None => True
  | Some (LS_LE _), Some (LS_LE _) => True
  | Some (LS_Rho l), Some (LS_Rho l') => length l' = length l
  | Some (LS_DP l), Some (LS_DP l') => length l' = length l
  | Some (LS_MCC p s e), Some (LS_MCC p' s' e') => length p' = length p /\ length e' = length e /\
      match s, s' with Some x, Some x' => length x' = length x | None, None => True | _, _ => False end
  | _, _ => False
  end.
Definition ssim (a b : option (SolverState T)) : Prop :=
  match a, b with
  | None, None => True
  | Some SS_USL, Some SS_USL => True
  | Some (SS_AFLIP _), Some (SS_AFLIP _) => True
  | _, _ => False
  end.
Definition msim (m m' : Mechanics T) : Prop :=
  Forall2 lsim (m_laws m) (m_laws m') /\ Forall2 ssim (m_solvers m) (m_solvers m') /\ m_forces m' = m_forces m.
Definition wsim (w w' : World T) : Prop := Forall2 bsim (w_mps w) (w_mps w') /\ length (w_sdfs w) = length (w_sdfs w').

Lemma bsim_refl b : bsim b b. Proof. destruct b; simpl; auto. Qed.
Lemma bsim_trans a b c : bsim a b -> bsim b c -> bsim a c.
Proof. destruct a, b, c; simpl; try tauto; intuition congruence. Qed.
Lemma lsim_refl a : lsim a a. Proof. destruct a as [[ | | |p [s|] e]|]; simpl; auto. Qed.
Lemma ssim_refl a : ssim a a. Proof. destruct a as [[|]|]; simpl; auto. Qed.
Lemma lsim_trans a b c : lsim a b -> lsim b c -> lsim a c.
Proof.
  destruct a as [[ | | |p [s|] e]|], b as [[ | | |p' [s'|] e']|], c as [[ | | |p'' [s''|] e'']|]; simpl; try tauto; intuition congruence.
Qed.
Lemma ssim_trans a b c : ssim a b -> ssim b c -> ssim a c.
Proof. destruct a as [[|]|], b as [[|]|], c as [[|]|]; simpl; tauto. Qed.

Lemma bsim_num b b' : bsim b b' -> num_points b' = num_points b /\ body_dim b' = body_dim b.
Proof.
  unfold num_points. destruct b, b'; simpl; try tauto; rewrite !map_length; intuition congruence.
Qed.
Lemma idx_rel {A B} (P : A -> B -> Prop) l m i a : Forall2 P l m -> idx l i = Ok a -> exists b, idx m i = Ok b /\ P a b.
Proof.
  intros F E. apply idx_ok in E. destruct (Forall2_nth_error_l _ _ _ _ _ F E) as (b & Hb & Hp).
  exists b. split; [apply idx_some, Hb|exact Hp].
Qed.
Lemma upd_idx_rel {A B} (P : A -> B -> Prop) l m i f g l' : Forall2 P l m ->
  (forall a b a', P a b -> f a = Ok a' -> exists b', g b = Ok b' /\ P a' b') ->
  upd_idx l i f = Ok l' -> exists m', upd_idx m i g = Ok m' /\ Forall2 P l' m'.
Proof.
  intros F Hf E. apply upd_idx_ok in E. destruct E as (a & a' & Ea & Ef & ->).
  destruct (Forall2_nth_error_l _ _ _ _ _ F Ea) as (b & Hb & Hp). destruct (Hf a b a' Hp Ef) as (b' & Eg & Hp').
  exists (set_nth i b' m). unfold upd_idx. rewrite (idx_some _ _ _ Hb). simpl. rewrite Eg. simpl.
  split; [reflexivity|]. apply Forall2_set_nth2; assumption.
Qed.

(** kinematics *)
Lemma kinematic_prog (S : Solver T) w w' dt w1 : Forall2 bsim (w_mps w) (w_mps w') ->
  length (so_sdfs S) <= length (w_sdfs w') -> kinematic_update S w dt = Ok w1 ->
  exists w1', kinematic_update S w' dt = Ok w1' /\ wsim w1 w1' /\ length (w_sdfs w1') = length (so_sdfs S).
Proof.
  intros F L E. pose proof (kinematic_ok _ _ _ _ E) as (K1 & K2).
  assert (X : exists l, rmap (fun i_s => rbind (idx (w_sdfs w') (fst i_s)) (fun st => Ok (sl_update (snd i_s) st dt))) (enum (so_sdfs S)) = Ok l
                        /\ length l = length (enum (so_sdfs S))).
  { assert (B : forall x, In x (enum (so_sdfs S)) -> fst x < length (w_sdfs w')).
    { intros x Hx. unfold enum in Hx. destruct x as [i lg]. apply in_combine_l in Hx. apply in_seq in Hx. simpl in *. lia. }
    clear -B. induction (enum (so_sdfs S)) as [|x l IH]; simpl; [eauto|].
    destruct IH as (l' & -> & Hl); [intros; apply B; right; assumption|].
    specialize (B x (or_introl eq_refl)). apply nth_error_Some in B. destruct (nth_error (w_sdfs w') (fst x)) as [sd|] eqn:Es; [|congruence].
    rewrite (idx_some _ _ _ Es). simpl. eexists. split; [reflexivity|]. simpl. congruence. }
  destruct X as (l & X & Xl). rewrite enum_length in Xl. exists {| w_mps := w_mps w'; w_sdfs := l |}.
  unfold kinematic_update. rewrite X. simpl. repeat split; [|simpl|exact Xl].
  - simpl. rewrite K1. exact F.
  - rewrite <- (Forall2_len _ _ _ K2), enum_length. congruence.
Qed.
Lemma reset_body_sim b b' : bsim b b' -> bsim (reset_body b) (reset_body b').
Proof. destruct b, b'; simpl; try tauto. rewrite !map_length. tauto. Qed.
Lemma reset_prog cs (w w' : World T) w1 : wsim w w' -> reset_material_points cs w = Ok w1 ->
  exists w1', reset_material_points cs w' = Ok w1' /\ wsim w1 w1' /\ length (w_sdfs w1') = length (w_sdfs w').
Proof.
  intros (F & L) E. unfold reset_material_points in *. apply rbind_ok in E. destruct E as (l & E & E1). injection E1 as <-.
  assert (G : forall (a b : list (Body T)) x a', In x cs -> Forall2 bsim a b ->
     upd_idx a (c_p x) (fun b => Ok (reset_body b)) = Ok a' ->
     exists b', upd_idx b (c_p x) (fun b => Ok (reset_body b)) = Ok b' /\ Forall2 bsim a' b').
  { intros a b x a' _ Hab Ea. eapply upd_idx_rel; [exact Hab| |exact Ea]. intros u v u' Huv Eu. injection Eu as <-.
    eexists. split; [reflexivity|]. apply reset_body_sim, Huv. }
  destruct (rfold_rel (Forall2 bsim) _ _ cs _ _ _ G F E) as (l' & E' & F'). rewrite E'. simpl.
  eexists. split; [reflexivity|]. split; [|reflexivity]. split; simpl; assumption.
Qed.
Definition dsim (d d' : list ((nat * nat) * list (Interaction T))) : Prop :=
  forall k, (exists l, dict_get k d = Ok l) -> exists l', dict_get k d' = Ok l'.
Lemma dsim_set k (v v' : list (Interaction T)) d d' : dsim d d' -> dsim (dict_set k v d) (dict_set k v' d').
Proof.
  intros D k1. rewrite !dict_get_set. destruct (key_eqb k k1); [eauto|apply D].
Qed.
Lemma connectivity_prog (S : Solver T) w w' d : wsim w w' -> compute_connectivity S w = Ok d ->
  exists d', compute_connectivity S w' = Ok d' /\ dsim d d'.
Proof.
  intros (F & _) E. unfold compute_connectivity in *. eapply (rfold_rel dsim); [| |exact E]; [|intros k [l Hl]; discriminate].
  cbv beta. intros d1 d1' c d2 _ D E1. apply rbind_ok in E1. destruct E1 as (b & Eb & E1).
  destruct (idx_rel _ _ _ _ _ F Eb) as (b' & Eb' & Hb). rewrite Eb'. simpl. apply rbind_ok in E1. destruct E1 as (g & Eg & E1).
  rewrite Eg. simpl. destruct (bsim_num _ _ Hb) as (_ & ->). destruct (dim_eqb _ _); [|discriminate]. injection E1 as <-.
  eexists. split; [reflexivity|]. apply dsim_set, D.
Qed.
Lemma correction_prog (S : Solver T) w w' d1 d1' d2 : wsim w w' -> dsim d1 d1' -> sdf_correction S w d1 = Ok d2 ->
  exists d2', sdf_correction S w' d1' = Ok d2' /\ dsim d2 d2'.
Proof.
  intros (F & _) D E. unfold sdf_correction in *. destruct (so_sdfs S) as [|s0 ss]; [injection E as <-; eauto|].
  eapply (rfold_rel dsim); [|exact D|exact E]. clear E D. cbv beta. intros a a' c b _ D E1.
  apply rbind_ok in E1. destruct E1 as (l & El & E1). destruct (D _ (ex_intro _ l El)) as (l' & ->). simpl.
  apply rbind_ok in E1. destruct E1 as (bd & Eb & E1). destruct (idx_rel _ _ _ _ _ F Eb) as (b' & -> & Hb). simpl.
  apply rbind_ok in E1. destruct E1 as (g & Eg & E1). rewrite Eg. simpl. destruct (bsim_num _ _ Hb) as (-> & _).
  destruct (Nat.eqb _ 0); [discriminate|]. injection E1 as <-. eexists. split; [reflexivity|]. apply dsim_set, D.
Qed.
Definition csim (c c' : SimCache T) : Prop :=
  dsim (sc_inter c) (sc_inter c') /\ length (sc_grids c) = length (sc_grids c') /\
  Forall2 (fun a b => length a = length b) (sc_mp_geoms c) (sc_mp_geoms c') /\
  Forall2 (fun a b => length a = length b) (sc_node_geoms c) (sc_node_geoms c').
Lemma prepare_prog (S : Solver T) st st' w ca : Forall2 bsim (w_mps (s_world st)) (w_mps (s_world st')) ->
  length (so_sdfs S) <= length (w_sdfs (s_world st')) -> s_dt st' = s_dt st -> prepare S st = Ok (w, ca) ->
  exists w' ca', prepare S st' = Ok (w', ca') /\ wsim w w' /\ csim ca ca'.
Proof.
  intros F L Hdt E. unfold prepare in *. rewrite Hdt. apply rbind_ok in E. destruct E as (w1 & E1 & E).
  destruct (kinematic_prog _ _ _ _ _ F L E1) as (w1' & -> & W1 & L1). simpl.
  apply rbind_ok in E. destruct E as (w2 & E2 & E). destruct (reset_prog _ _ _ _ W1 E2) as (w2' & -> & W2 & L2). simpl.
  apply rbind_ok in E. destruct E as (d & E3 & E). destruct (connectivity_prog _ _ _ _ W2 E3) as (d' & -> & D). simpl.
  apply rbind_ok in E. destruct E as (d2 & E4 & E). destruct (correction_prog _ _ _ _ _ _ W2 D E4) as (d2' & -> & D2). simpl.
  injection E as <- <-. eexists _, _. split; [reflexivity|]. split; [exact W2|]. destruct W2 as (F2 & L3). repeat split; simpl.
  - exact D2.
  - unfold particle_sdfs. clear -F2 L3. induction F2 as [|b b' l l' Hb F2 IH]; simpl; constructor; auto.
    rewrite !map_length, !combine_length. lia.
  - unfold node_sdfs. clear -L3. induction (so_domains S) as [|g l IH]; simpl; constructor; auto.
    rewrite !map_length, !combine_length. lia.
Qed.

(** P2G *)
Lemma pre_p2g_prog f (w w' : World T) m m' w1 : wsim w w' -> msim m m' -> apply_pre_p2g f w m = Ok w1 ->
  exists w1', apply_pre_p2g f w' m' = Ok w1' /\ wsim w1 w1'.
Proof.
  intros W (_ & _ & Mf) E. destruct f as [g|d|c|c]; simpl in *; try (injection E as <-; eauto; fail).
  - destruct (gv_on_grid g); [injection E as <-; eauto|]. rewrite Mf. apply rbind_ok in E. destruct E as (fs & -> & E). simpl.
    destruct (gv_ps g) as [|p ps]; [injection E as <-; eexists; split; [reflexivity|exact W]|]. simpl in E.
    destruct (idx (w_mps w) p); simpl in E; [|discriminate]. destruct (gravity_of fs); discriminate.
  - destruct (dm_on_grid d); [injection E as <-; eauto|]. rewrite Mf. apply rbind_ok in E. destruct E as (fs & -> & E). simpl.
    apply rbind_ok in E. destruct E as (l & E & E1). injection E1 as <-. destruct W as (F & L).
    assert (G : forall (a b : list (Body T)) x a', In x (dm_ps d) -> Forall2 bsim a b ->
      upd_idx a x (fun b => match b with
         | Soft s => rbind (alpha_of fs) (fun a => Ok (Soft {| sb_dim := sb_dim s; sb_pts := map (damping_particle a) (sb_pts s);
                                 sb_storeF := sb_storeF s; sb_vol0d := sb_vol0d s |}))
         | Rigid _ => Err AttributeError end) = Ok a' ->
      exists b', upd_idx b x (fun b => match b with
         | Soft s => rbind (alpha_of fs) (fun a => Ok (Soft {| sb_dim := sb_dim s; sb_pts := map (damping_particle a) (sb_pts s);
                                 sb_storeF := sb_storeF s; sb_vol0d := sb_vol0d s |}))
         | Rigid _ => Err AttributeError end) = Ok b' /\ Forall2 bsim a' b').
    { intros a b x a' _ Hab Ea. eapply upd_idx_rel; [exact Hab| |exact Ea]. intros u v u' Huv Eu.
      destruct u as [s|r]; [|discriminate]. destruct v as [s'|r']; [|simpl in Huv; tauto].
      destruct (alpha_of fs) as [al|]; simpl in *; [|discriminate]. injection Eu as <-.
      eexists. split; [reflexivity|]. simpl. rewrite !map_length. tauto. }
    destruct (rfold_rel (Forall2 bsim) _ _ (dm_ps d) _ _ _ G F E) as (l' & E' & F'). rewrite E'. simpl.
    eexists. split; [reflexivity|]. split; simpl; assumption.
Qed.
Lemma p2g_coupling_prog (S : Solver T) w w' m m' d d' c gs gs' gs1 : wsim w w' -> msim m m' -> dsim d d' ->
  length gs = length gs' -> p2g_coupling S w m d gs c = Ok gs1 ->
  exists gs1', p2g_coupling S w' m' d' gs' c = Ok gs1' /\ length gs1 = length gs1'.
Proof.
  intros (F & _) (_ & Ms & _) D L E. apply p2g_coupling_ok in E. unfold p2g_coupling.
  destruct E as [(-> & ->)|(-> & s & it & gr & vel & Es & Ev & Eit & Eg & Hv & ->)]; [eauto|].
  destruct (Forall2_nth_error_l _ _ _ _ _ F Es) as (b' & Eb' & Hb). destruct b' as [s'|r']; simpl in Hb; [|tauto].
  destruct Hb as (_ & Hv0 & _). rewrite (idx_some _ _ _ Eb'). simpl.
  assert (Hg : exists gr', nth_error gs' (c_g c) = Some gr').
  { destruct (nth_error gs' (c_g c)) eqn:X; [eauto|]. apply nth_error_None in X.
    assert (c_g c < length gs) by (apply nth_error_Some; congruence). lia. }
  destruct Hg as (gr' & Eg'). unfold upd_idx. rewrite (idx_some _ _ _ Eg'). simpl.
  destruct (D _ (ex_intro _ it Eit)) as (it' & ->). simpl. unfold soft_of. rewrite Hv0, Ev. simpl.
  unfold p2g_vel in Hv. destruct (so_scheme S).
  - simpl. eexists. split; [reflexivity|]. rewrite !set_nth_length. exact L.
  - destruct Hv as (gd & Bp & k & Egd & Ek & Ess & _). rewrite (idx_some _ _ _ Egd), Ek. simpl.
    destruct (Forall2_nth_error_l _ _ _ _ _ Ms Ess) as (ss & Ess' & Hss). rewrite (idx_some _ _ _ Ess'). simpl.
    destruct ss as [[|B']|]; simpl in Hss; try tauto. simpl. eexists. split; [reflexivity|]. rewrite !set_nth_length. exact L.
Qed.
Lemma p2g_prog (S : Solver T) w w' m m' ca ca' w2 ca2 : wsim w w' -> msim m m' -> csim ca ca' -> p2g S w m ca = Ok (w2, ca2) ->
  exists w2' ca2', p2g S w' m' ca' = Ok (w2', ca2') /\ wsim w2 w2' /\ csim ca2 ca2'.
Proof.
  intros W M C E. unfold p2g in *. apply rbind_ok in E. destruct E as (w1 & E1 & E).
  assert (X : exists w1', rfold (fun w f => apply_pre_p2g f w m') w' (so_forces S) = Ok w1' /\ wsim w1 w1').
  { eapply (rfold_rel wsim); [|exact W|exact E1]. cbv beta. intros a b f a' _ Hab Ea. eapply pre_p2g_prog; eassumption. }
  destruct X as (w1' & -> & W1). simpl. apply rbind_ok in E. destruct E as (gs & E2 & E). destruct C as (D & L & C1 & C2).
  assert (X : exists gs', rfold (p2g_coupling S w1' m' (sc_inter ca')) (sc_grids ca') (so_couplings S) = Ok gs' /\ length gs = length gs').
  { eapply (rfold_rel (fun a b : list (Grid T) => length a = length b)); [|exact L|exact E2].
    intros a b c a' _ Hab Ea. eapply p2g_coupling_prog; eassumption. }
  destruct X as (gs' & -> & L'). simpl. injection E as <- <-. eexists _, _. split; [reflexivity|]. split; [exact W1|].
  repeat split; assumption.
Qed.

(** grid update *)
Definition lensim (a b : list (Grid T)) : Prop := length a = length b.
Lemma upd_len (gs gs' : list (Grid T)) i f g gs1 : lensim gs gs' ->
  (forall a a' b, f a = Ok a' -> exists b', g b = Ok b') -> upd_idx gs i f = Ok gs1 ->
  exists gs1', upd_idx gs' i g = Ok gs1' /\ lensim gs1 gs1'.
Proof.
  intros L Hf E. apply upd_idx_ok in E. destruct E as (a & a' & Ea & Ef & ->).
  assert (Hg : exists b, nth_error gs' i = Some b).
  { destruct (nth_error gs' i) eqn:X; [eauto|]. apply nth_error_None in X.
    assert (i < length gs) by (apply nth_error_Some; congruence). unfold lensim in L. lia. }
  destruct Hg as (b & Eb). destruct (Hf a a' b Ef) as (b' & Eb'). exists (set_nth i b' gs').
  unfold upd_idx. rewrite (idx_some _ _ _ Eb). simpl. rewrite Eb'. simpl. split; [reflexivity|].
  unfold lensim. rewrite !set_nth_length. exact L.
Qed.
Lemma grid_forces_prog f m m' gs gs' gs1 : msim m m' -> lensim gs gs' -> apply_grid_forces f m gs = Ok gs1 ->
  exists gs1', apply_grid_forces f m' gs' = Ok gs1' /\ lensim gs1 gs1'.
Proof.
  intros (_ & _ & Mf) L E. destruct f as [g|d|c|c]; simpl in *; try (injection E as <-; eauto; fail).
  - destruct (gv_on_grid g); [|injection E as <-; eauto]. rewrite Mf. apply rbind_ok in E. destruct E as (fs & -> & E). simpl.
    eapply (rfold_rel lensim); [|exact L|exact E]. cbv beta. intros a b i a' _ Hab Ea. eapply upd_len; [exact Hab| |exact Ea].
    intros x x' y Ex. destruct (gravity_of fs); simpl in *; [eauto|discriminate].
  - destruct (dm_on_grid d); [|injection E as <-; eauto]. rewrite Mf. apply rbind_ok in E. destruct E as (fs & -> & E). simpl.
    eapply (rfold_rel lensim); [|exact L|exact E]. cbv beta. intros a b i a' _ Hab Ea. eapply upd_len; [exact Hab| |exact Ea].
    intros x x' y Ex. destruct (alpha_of fs); simpl in *; [eauto|discriminate].
Qed.
Lemma grid_moments_prog f (w w' : World T) sdfs doms ge ge' dt gs gs' gs1 : wsim w w' -> lensim gs gs' ->
  Forall2 (fun a b : list (list (Geom T)) => length a = length b) ge ge' ->
  apply_grid_moments f w sdfs doms ge dt gs = Ok gs1 ->
  exists gs1', apply_grid_moments f w' sdfs doms ge' dt gs' = Ok gs1' /\ lensim gs1 gs1'.
Proof.
  intros (_ & Lw) L G E. destruct f as [g|d|c|c]; simpl in *; try (injection E as <-; eauto; fail).
  - destruct (cl_sdf c) as [k|]; [|injection E as <-; eauto]. apply rbind_ok in E. destruct E as (lg & -> & E). simpl.
    apply rbind_ok in E. destruct E as (sd & Es & E). apply idx_ok in Es.
    assert (X : exists sd', nth_error (w_sdfs w') k = Some sd').
    { destruct (nth_error (w_sdfs w') k) eqn:X; [eauto|]. apply nth_error_None in X.
      assert (k < length (w_sdfs w)) by (apply nth_error_Some; congruence). lia. }
    destruct X as (sd' & Es'). rewrite (idx_some _ _ _ Es'). simpl.
    eapply (rfold_rel lensim); [|exact L|exact E]. cbv beta. intros a b i a' _ Hab Ea. apply rbind_ok in Ea.
    destruct Ea as (gd & -> & Ea). simpl. eapply upd_len; [exact Hab| |exact Ea].
    intros x x' y Ex. apply rbind_ok in Ex. destruct Ex as (gg & Egg & Ex). apply oget_ok in Egg.
    destruct (Forall2_nth_error_l _ _ _ _ _ G Egg) as (gg' & -> & Lg). simpl. apply rbind_ok in Ex.
    destruct Ex as (ge0 & Ege & Ex). apply oget_ok in Ege.
    destruct (nth_error gg' k) eqn:Y; simpl; [eauto|]. apply nth_error_None in Y.
    assert (k < length gg) by (apply nth_error_Some; congruence). lia.
  - discriminate.
Qed.
Lemma integrate_prog (S : Solver T) w w' m m' dt ca ca' ca3 : wsim w w' -> msim m m' -> csim ca ca' ->
  integrate_grid S w m dt ca = Ok ca3 -> exists ca3', integrate_grid S w' m' dt ca' = Ok ca3' /\ csim ca3 ca3'.
Proof.
  intros W M (D & L & C1 & C2) E. apply integrate_ok in E. destruct E as (gs1 & gs2 & gs3 & E1 & E2 & E3 & ->).
  unfold integrate_grid.
  destruct (rfold_rel lensim (fun gs f => apply_grid_forces f m gs) (fun gs f => apply_grid_forces f m' gs)
     (so_forces S) _ (sc_grids ca') gs1 ltac:(cbv beta; intros; eapply grid_forces_prog; eassumption) L E1) as (gs1' & -> & L1). simpl.
  destruct (rfold_rel lensim (fun gs c => if c_skip c then Ok gs else upd_idx gs (c_g c) (fun g => Ok (integrate1 dt g)))
     (fun gs c => if c_skip c then Ok gs else upd_idx gs (c_g c) (fun g => Ok (integrate1 dt g)))
     (so_couplings S) gs1 gs1' gs2
     ltac:(cbv beta; intros a b c a' _ Hab Ea; destruct (c_skip c); [injection Ea as <-; eauto|];
           eapply upd_len; [exact Hab| |exact Ea]; intros; eauto) L1 E2) as (gs2' & -> & L2). simpl.
  destruct (rfold_rel lensim (fun gs f => apply_grid_moments f w (so_sdfs S) (so_domains S) (sc_node_geoms ca) dt gs)
     (fun gs f => apply_grid_moments f w' (so_sdfs S) (so_domains S) (sc_node_geoms ca') dt gs)
     (so_forces S) gs2 gs2' gs3 ltac:(cbv beta; intros; eapply grid_moments_prog; eassumption) L2 E3) as (gs3' & -> & L3). simpl.
  eexists. split; [reflexivity|]. repeat split; assumption.
Qed.

(** G2P *)
Lemma g2p_len (S : Solver T) ca dt m c s it g pts' m' : g2p_result S ca dt m c s it g pts' m' -> length pts' = length (sb_pts s).
Proof. intros E. apply g2p_result_kept in E. symmetry. eapply Forall2_len; exact E. Qed.
Definition wmsim (a b : World T * Mechanics T) : Prop := wsim (fst a) (fst b) /\ msim (snd a) (snd b).
Lemma g2p_coupling_prog (S : Solver T) ca ca' dt a b c a1 : wmsim a b -> csim ca ca' ->
  g2p_coupling S ca dt a c = Ok a1 -> exists b1, g2p_coupling S ca' dt b c = Ok b1 /\ wmsim a1 b1.
Proof.
  destruct a as (w & m), b as (w' & m'), a1 as (w1 & m1). intros (W & M) (D & L & C1 & C2) E. simpl in W, M.
  apply g2p_coupling_ok in E. unfold g2p_coupling.
  destruct E as [(-> & -> & ->)|(-> & s & it & g & pts' & Eg & Eit & Es & Hr & ->)]; [eexists; split; [reflexivity|split; assumption]|].
  assert (Hg : exists gr', nth_error (sc_grids ca') (c_g c) = Some gr').
  { destruct (nth_error (sc_grids ca') (c_g c)) eqn:X; [eauto|]. apply nth_error_None in X.
    assert (c_g c < length (sc_grids ca)) by (apply nth_error_Some; congruence). lia. }
  destruct Hg as (gr' & Eg'). rewrite (idx_some _ _ _ Eg'). simpl. destruct (D _ (ex_intro _ it Eit)) as (it' & ->). simpl.
  destruct W as (F & Ls). destruct (Forall2_nth_error_l _ _ _ _ _ F Es) as (b' & Eb' & Hb).
  destruct b' as [s'|r']; simpl in Hb; [|tauto]. rewrite (idx_some _ _ _ Eb'). simpl. destruct Hb as (Hd & Hv & Hl).
  pose proof (g2p_len _ _ _ _ _ _ _ _ _ _ Hr) as Lp.
  assert (Q : forall q, length q = length (sb_pts s') ->
     Forall2 bsim (set_nth (c_p c) (Soft (after_g2p s pts')) (w_mps w)) (set_nth (c_p c) (Soft (after_g2p s' q)) (w_mps w'))).
  { intros q Lq. apply Forall2_set_nth2; [exact F|]. simpl. rewrite Lq, Lp, Hl. auto. }
  unfold g2p_result in Hr. destruct (so_scheme S) as [|al].
  - destruct Hr as (-> & geos & Ege & _ & Hge). destruct (Forall2_nth_error_l _ _ _ _ _ C1 Ege) as (geos' & Ege' & Lge).
    rewrite (idx_some _ _ _ Ege'). simpl. destruct geos' as [|x geos'].
    + eexists. split; [reflexivity|]. split; [split; [apply Q|exact Ls]|exact M]. unfold g2p_usl. rewrite map_length, enum_length. reflexivity.
    + destruct Hge as [->|Hn]; [discriminate|]. rewrite <- Hl in Hn. apply Nat.eqb_neq in Hn. rewrite Hn.
      eexists. split; [reflexivity|]. split; [split; [apply Q|exact Ls]|exact M]. unfold g2p_usl. rewrite map_length, enum_length. reflexivity.
  - destruct Hr as (-> & gd & B & Egd & Ess & _ & ->). rewrite (idx_some _ _ _ Egd). simpl.
    destruct M as (M1 & M2 & M3). destruct (Forall2_nth_error_l _ _ _ _ _ M2 Ess) as (ss & Ess' & Hss). rewrite (idx_some _ _ _ Ess'). simpl.
    destruct ss as [[|B']|]; simpl in Hss; try tauto. simpl. eexists. split; [reflexivity|].
    split; [split; [apply Q|exact Ls]|]; [unfold g2p_aflip; simpl; rewrite map_length, enum_length; reflexivity|].
    split; [exact M1|]. split; [|exact M3]. simpl. apply Forall2_set_nth2; [exact M2|exact I].
Qed.
(** laws *)
Lemma law_update_prog l (b b' : SoftBody T) st st' dt r : sb_vol0d b' = sb_vol0d b -> length (sb_pts b') = length (sb_pts b) ->
  lsim st st' -> law_update l b st dt = Ok r -> exists r', law_update l b' st' dt = Ok r' /\ lsim (snd r) (snd r').
Proof.
  intros Hv Hl Hs. destruct l as [m|m|m|m|m]; simpl.
  - intros E. injection E as <-. eexists. split; [reflexivity|]. exact Hs.
  - destruct st as [[ |rr| | ]|]; try discriminate. destruct st' as [[ |rr'| | ]|]; simpl in Hs; try tauto.
    rewrite Hv, Hl, Hs. destruct (_ || _)%bool; [discriminate|]. intros E. injection E as <-. eexists. split; [reflexivity|]. exact Hs.
  - destruct st as [[ |rr| | ]|]; try discriminate. destruct st' as [[ |rr'| | ]|]; simpl in Hs; try tauto.
    rewrite Hv, Hl, Hs. destruct (_ || _)%bool; [discriminate|]. intros E. injection E as <-. eexists. split; [reflexivity|]. exact Hs.
  - destruct st as [[ | |ds| ]|]; try discriminate. destruct st' as [[ | |ds'| ]|]; simpl in Hs; try tauto.
    rewrite Hl, Hs. destruct (Nat.eqb_spec (length ds) (length (sb_pts b))) as [L|]; simpl; [|discriminate]. intros E. injection E as <-.
    eexists. split; [reflexivity|]. simpl. rewrite !map_length, !combine_length, !map_length, !combine_length, Hl, Hs. reflexivity.
  - destruct st as [[ | | |pc [sref|] ee]|]; try discriminate. destruct st' as [[ | | |pc' [sref'|] ee']|]; simpl in Hs; try tauto.
    destruct Hs as (H1 & H2 & H3). rewrite Hl, H1, H2, H3.
    match goal with |- context [if ?b then _ else _] => destruct b; [discriminate|] end.
    intros E. injection E as <-. eexists. split; [reflexivity|]. simpl. rewrite !map_length, !seq_length. auto.
Qed.
Lemma law_update_lsim l (b : SoftBody T) st dt r : law_update l b st dt = Ok r -> lsim st (snd r).
Proof.
  destruct l as [m|m|m|m|m]; simpl.
  - intros E. injection E as <-. apply lsim_refl.
  - destruct st as [[ |rr| | ]|]; try discriminate. destruct (_ || _)%bool; [discriminate|]. intros E. injection E as <-. reflexivity.
  - destruct st as [[ |rr| | ]|]; try discriminate. destruct (_ || _)%bool; [discriminate|]. intros E. injection E as <-. reflexivity.
  - destruct st as [[ | |ds| ]|]; try discriminate. destruct (Nat.eqb_spec (length ds) (length (sb_pts b))) as [L|]; simpl; [|discriminate].
    intros E. injection E as <-. simpl. rewrite !map_length, !combine_length, !map_length, !combine_length. lia.
  - destruct st as [[ | | |pc [sref|] ee]|]; try discriminate.
    destruct (Nat.eqb_spec (length pc) (length (sb_pts b))); simpl; [|discriminate].
    destruct (Nat.eqb_spec (length sref) (length (sb_pts b))); simpl; [|discriminate].
    destruct (Nat.eqb_spec (length ee) (length (sb_pts b))); simpl; [|discriminate].
    intros E. injection E as <-. simpl. rewrite !map_length, !seq_length. auto.
Qed.
Lemma law_body_sim l (b : SoftBody T) st dt s1 ls' : law_update l b st dt = Ok (s1, ls') ->
  bsim (Soft b) (Soft (remove_accumulated_shear (law_reset l) s1)).
Proof.
  intros E. apply law_update_kept in E. destruct E as (A1 & _ & A3 & A4).
  pose proof (remove_shear_kept (law_reset l) s1) as X. cbv zeta in X. destruct X as (B1 & _ & B3 & B4). simpl.
  apply Forall2_len in A4. apply Forall2_len in B4. repeat split; congruence.
Qed.
Lemma constitutive_prog1 (S : Solver T) dt a b c a1 : wmsim a b -> constitutive_coupling S dt a c = Ok a1 ->
  exists b1, constitutive_coupling S dt b c = Ok b1 /\ wmsim a1 b1.
Proof.
  destruct a as (w & m), b as (w' & m'), a1 as (w1 & m1). intros (W & M) E. simpl in W, M.
  apply constitutive_coupling_ok in E. unfold constitutive_coupling.
  destruct E as [(-> & -> & ->)|(-> & s & ci & l & ls & s1 & ls' & Es & Ec & El & Ela & Hu & -> & ->)];
    [eexists; split; [reflexivity|split; assumption]|].
  destruct W as (F & Ls). destruct (Forall2_nth_error_l _ _ _ _ _ F Es) as (b' & Eb' & Hb).
  destruct b' as [s'|r']; [|simpl in Hb; tauto]. rewrite (idx_some _ _ _ Eb'), Ec. simpl.
  destruct M as (M1 & M2 & M3). destruct (Forall2_nth_error_l _ _ _ _ _ M1 El) as (lst & El' & Hl).
  rewrite (idx_some _ _ _ El'), (idx_some _ _ _ Ela). simpl. pose proof Hb as (Hd & Hv & Hn).
  destruct (law_update_prog l s s' ls lst dt _ Hv Hn Hl Hu) as ((s1' & ls1') & Eu & Hs). rewrite Eu. simpl.
  eexists. split; [reflexivity|]. split; [split; [|exact Ls]|split; [|split; [exact M2|exact M3]]]; simpl.
  - apply Forall2_set_nth2; [exact F|]. eapply bsim_trans; [|eapply law_body_sim, Eu].
    eapply bsim_trans; [|exact Hb].
    assert (Y : bsim (Soft s) (Soft (remove_accumulated_shear (law_reset l) s1))) by (eapply law_body_sim, Hu).
    simpl in Y |- *. intuition congruence.
  - apply Forall2_set_nth2; [exact M1|exact Hs].
Qed.

(** a step that succeeds on a state succeeds on every state of the same shape *)
Definition shape (S : Solver T) (st st' : SimState T) : Prop :=
  Forall2 bsim (w_mps (s_world st)) (w_mps (s_world st')) /\ msim (s_mech st) (s_mech st') /\
  length (so_sdfs S) <= length (w_sdfs (s_world st')) /\ s_dt st' = s_dt st.
Lemma step_shape (S : Solver T) st st' r : shape S st st' -> solver_step S st = Ok r ->
  exists r', solver_step S st' = Ok r'.
Proof.
  intros (F & M & L & D) E. unfold solver_step in *. rewrite D.
  apply rbind_ok in E. destruct E as ((w & ca) & E1 & E).
  destruct (prepare_prog _ _ _ _ _ F L D E1) as (w' & ca' & -> & W & C). simpl in *.
  apply rbind_ok in E. destruct E as ((w2 & ca2) & E2 & E).
  destruct (p2g_prog _ _ _ _ _ _ _ _ _ W M C E2) as (w2' & ca2' & -> & W2 & C2). simpl in *.
  apply rbind_ok in E. destruct E as (ca3 & E3 & E).
  destruct (integrate_prog _ _ _ _ _ _ _ _ _ W2 M C2 E3) as (ca3' & -> & C3). simpl.
  apply rbind_ok in E. destruct E as (wm3 & E4 & E). unfold g2p in *.
  assert (WM0 : wmsim (w2, s_mech st) (w2', s_mech st')) by (split; assumption).
  destruct (rfold_rel wmsim (g2p_coupling S ca3 (s_dt st)) (g2p_coupling S ca3' (s_dt st)) (so_couplings S) _ (w2', s_mech st') wm3
     ltac:(intros; eapply g2p_coupling_prog; eassumption) WM0 E4) as (wm3' & -> & WM). simpl.
  apply rbind_ok in E. destruct E as (wm4 & E5 & E). unfold constitutive_update in *.
  rewrite (surjective_pairing wm3') in WM. rewrite (surjective_pairing wm3) in WM.
  destruct (rfold_rel wmsim (constitutive_coupling S (s_dt st)) (constitutive_coupling S (s_dt st)) (so_couplings S) _ _ _
     ltac:(intros; eapply constitutive_prog1; eassumption) WM E5) as (wm4' & -> & _). simpl. eauto.
Qed.

(** shapes are kept by a step when no active body has exactly one point *)
Definition many_points (S : Solver T) (w : World T) : Prop :=
  forall c s, In c (so_couplings S) -> c_skip c = false -> nth_error (w_mps w) (c_p c) = Some (Soft s) -> length (sb_pts s) <> 1.
Lemma rfold_each {A B} (f : A -> B -> res A) l : forall s s' x, rfold f s l = Ok s' -> In x l -> exists a b, f a x = Ok b.
Proof.
  induction l as [|y l IH]; intros s s' x E Hx; [contradiction|]. cbn [rfold] in E. apply rbind_ok in E.
  destruct E as (a & E1 & E). destruct Hx as [<-|Hx]; eauto.
Qed.
Lemma many_points_sim (S : Solver T) w w' : Forall2 bsim (w_mps w) (w_mps w') -> many_points S w -> many_points S w'.
Proof.
  intros F Hm c s' Hc Hs Es. destruct (Forall2_nth_error _ _ _ _ _ F Es) as (b & Eb & Hb).
  destruct b as [s|r]; simpl in Hb; [|tauto]. destruct Hb as (_ & _ & ->). eapply Hm; eassumption.
Qed.
Lemma p2g_sim (S : Solver T) w m ca w' ca' : p2g S w m ca = Ok (w', ca') -> Forall2 bsim (w_mps w) (w_mps w').
Proof.
  intros E. apply p2g_ok in E. destruct E as (gs & E & _). apply pre_p2g_fold_ok in E. destruct E as (_ & E).
  revert E. apply Forall2_weaken. intros [s|r] [s'|r']; simpl; try tauto; [|intros <-; auto].
  intros (A & B & C & F). repeat split; auto. symmetry; eapply Forall2_len; exact F.
Qed.
Definition fresh_vol (S : Solver T) (w : World T) : Prop :=
  forall c, In c (so_couplings S) -> c_skip c = false -> exists s, nth_error (w_mps w) (c_p c) = Some (Soft s) /\ sb_vol0d s = false.
Lemma p2g_fresh (S : Solver T) w m ca w' ca' : p2g S w m ca = Ok (w', ca') -> fresh_vol S w'.
Proof.
  intros E c Hc Hs. unfold p2g in E. apply rbind_ok in E. destruct E as (w1 & _ & E). apply rbind_ok in E.
  destruct E as (gs & E & E1). injection E1 as <- <-. destruct (rfold_each _ _ _ _ _ E Hc) as (a & b & X).
  apply p2g_coupling_ok in X. destruct X as [(X & _)|(_ & s & it & gr & vel & Es & Ev & _)]; [congruence|eauto].
Qed.
Lemma fresh_vol_sim (S : Solver T) w w' : Forall2 bsim (w_mps w) (w_mps w') -> fresh_vol S w -> fresh_vol S w'.
Proof.
  intros F Hv c Hc Hs. destruct (Hv c Hc Hs) as (s & Es & Ev). destruct (Forall2_nth_error_l _ _ _ _ _ F Es) as (b & Eb & Hb).
  destruct b as [s'|r]; simpl in Hb; [|tauto]. exists s'. split; [exact Eb|]. destruct Hb as (_ & -> & _). exact Ev.
Qed.
Lemma bsim_F2_refl l : Forall2 bsim l l. Proof. apply Forall2_refl, bsim_refl. Qed.
Lemma g2p_sim (S : Solver T) w m dt ca w' m' : g2p S w m dt ca = Ok (w', m') -> many_points S w -> fresh_vol S w ->
  Forall2 bsim (w_mps w) (w_mps w') /\ Forall2 ssim (m_solvers m) (m_solvers m').
Proof.
  unfold g2p. intros E Hm Hv.
  refine (rfold_inv (fun wm => Forall2 bsim (w_mps w) (w_mps (fst wm)) /\ Forall2 ssim (m_solvers m) (m_solvers (snd wm)))
            _ _ (w, m) (w', m') _ _ E).
  - intros (w1 & m1) c (w2 & m2) Hc (I1 & I2) E1. apply g2p_coupling_ok in E1.
    destruct E1 as [(_ & -> & ->)|(Sk & s & it & g & pts' & _ & _ & Es & Hr & ->)]; [auto|]. simpl in *.
    pose proof (g2p_len _ _ _ _ _ _ _ _ _ _ Hr) as Lp. split.
    + eapply (Forall2_trans _ bsim_trans); [exact I1|]. eapply Forall2_set_nth; [apply bsim_F2_refl|exact Es|].
      simpl. destruct (fresh_vol_sim _ _ w1 I1 Hv c Hc Sk) as (s0 & Es0 & Ev). rewrite Es in Es0. injection Es0 as <-.
      pose proof (many_points_sim _ _ w1 I1 Hm c s Hc Sk Es) as Hn. repeat split; [|exact Lp].
      rewrite Ev, Lp. apply Nat.eqb_neq. exact Hn.
    + unfold g2p_result in Hr. destruct (so_scheme S).
      * destruct Hr as (-> & _). exact I2.
      * destruct Hr as (_ & gd & B & _ & Ess & _ & ->). simpl.
        destruct (Forall2_nth_error _ _ _ _ _ I2 Ess) as (a0 & Ha0 & Hsim).
        eapply Forall2_set_nth; [exact I2|exact Ha0|]. destruct a0 as [[|]|]; simpl in *; auto.
  - simpl. split; [apply bsim_F2_refl|apply Forall2_refl, ssim_refl].
Qed.
Lemma constitutive_sim (S : Solver T) dt w m w' m' : constitutive_update S dt w m = Ok (w', m') ->
  Forall2 bsim (w_mps w) (w_mps w') /\ Forall2 lsim (m_laws m) (m_laws m').
Proof.
  unfold constitutive_update. intros E.
  refine (rfold_inv (fun wm => Forall2 bsim (w_mps w) (w_mps (fst wm)) /\ Forall2 lsim (m_laws m) (m_laws (snd wm)))
            _ _ (w, m) (w', m') _ _ E).
  - intros (w1 & m1) c (w2 & m2) _ (I1 & I2) E1. apply constitutive_coupling_ok in E1.
    destruct E1 as [(_ & -> & ->)|(_ & s & ci & l & ls & s1 & ls' & Es & Ec & El & _ & Hu & -> & ->)]; [auto|]. simpl in *.
    split.
    + eapply (Forall2_trans _ bsim_trans); [exact I1|]. eapply Forall2_set_nth; [apply bsim_F2_refl|exact Es|].
      eapply law_body_sim; exact Hu.
    + eapply (Forall2_trans _ lsim_trans); [exact I2|]. eapply Forall2_set_nth; [apply Forall2_refl, lsim_refl|exact El|].
      change ls' with (snd (s1, ls')). eapply law_update_lsim; exact Hu.
  - simpl. split; [apply bsim_F2_refl|apply Forall2_refl, lsim_refl].
Qed.
Lemma prepare_sim (S : Solver T) st w ca : prepare S st = Ok (w, ca) ->
  Forall2 bsim (w_mps (s_world st)) (w_mps w) /\ length (w_sdfs w) = length (so_sdfs S).
Proof.
  intros E. pose proof (prepare_ok _ _ _ _ E) as (R & _). split.
  - eapply Forall2_option; [exact R|].
    intros i b. cbv beta. destruct (coupled (so_couplings S) i); [|apply bsim_refl]. destruct b as [s|r]; simpl; [|auto].
    rewrite map_length. auto.
  - unfold prepare in E. apply rbind_ok in E. destruct E as (w1 & E1 & E). apply rbind_ok in E. destruct E as (w2 & E2 & E).
    apply rbind_ok in E. destruct E as (d & _ & E). apply rbind_ok in E. destruct E as (d2 & _ & E). injection E as <- _.
    apply kinematic_ok in E1. destruct E1 as (_ & E1). apply Forall2_len in E1. rewrite enum_length in E1.
    apply reset_ok in E2. destruct E2 as (-> & _). auto.
Qed.
Lemma p2g_sdfs (S : Solver T) w m ca w' ca' : p2g S w m ca = Ok (w', ca') -> w_sdfs w' = w_sdfs w.
Proof. intros E. apply p2g_ok in E. destruct E as (gs & E & _). apply pre_p2g_fold_ok in E. apply E. Qed.

Lemma shape_kept (S : Solver T) st r : solver_step S st = Ok r -> many_points S (s_world st) ->
  shape S st r /\ many_points S (s_world r).
Proof.
  intros E Hm. apply step_ok in E. destruct E as (w & ca & w2 & ca2 & ca3 & w3 & m3 & w4 & m4 & E1 & E2 & E3 & E4 & E5 & ->).
  apply prepare_sim in E1. destruct E1 as (F1 & L1). pose proof (p2g_fresh _ _ _ _ _ _ E2) as Hv.
  pose proof (p2g_sdfs _ _ _ _ _ _ E2) as D2. apply p2g_sim in E2.
  assert (Hm2 : many_points S w2) by (eapply many_points_sim; [|exact Hm]; eapply (Forall2_trans _ bsim_trans); eassumption).
  pose proof (g2p_kept _ _ _ _ _ _ _ E4) as (_ & D3 & M1 & M2). destruct (g2p_sim _ _ _ _ _ _ _ E4 Hm2 Hv) as (F3 & S3).
  pose proof (constitutive_kept _ _ _ _ _ _ E5) as (_ & D4 & M3 & M4). apply constitutive_sim in E5. destruct E5 as (F4 & S4).
  assert (F : Forall2 bsim (w_mps (s_world st)) (w_mps w4)).
  { eapply (Forall2_trans _ bsim_trans); [exact F1|]. eapply (Forall2_trans _ bsim_trans); [exact E2|].
    eapply (Forall2_trans _ bsim_trans); [exact F3|exact F4]. }
  split; [|eapply many_points_sim; [exact F|exact Hm]]. split; [exact F|]. simpl. repeat split.
  - rewrite <- M1. exact S4.
  - rewrite M3. exact S3.
  - congruence.
  - rewrite D4, D3, D2, L1. lia.
Qed.
Lemma shape_trans (S : Solver T) a b c : shape S a b -> shape S b c -> shape S a c.
Proof.
  intros (A1 & (A2 & A3 & A4) & A5 & A6) (B1 & (B2 & B3 & B4) & B5 & B6). unfold shape, msim. repeat split.
  - eapply (Forall2_trans _ bsim_trans); eassumption.
  - eapply (Forall2_trans _ lsim_trans); eassumption.
  - eapply (Forall2_trans _ ssim_trans); eassumption.
  - congruence.
  - exact B5.
  - congruence.
Qed.
(** a first step that succeeds can be repeated without end *)
Lemma steps_progress (S : Solver T) st r n : solver_step S st = Ok r -> many_points S (s_world st) ->
  exists r', solver_steps S n st = Ok r'.
Proof.
  intros E Hm. destruct (shape_kept _ _ _ E Hm) as (Sh & Hm1).
  assert (G : forall n s, shape S st s -> many_points S (s_world s) -> exists r', solver_steps S n s = Ok r').
  { induction n0 as [|k IH]; intros s Hs Hms; [eexists; reflexivity|]. cbn [solver_steps].
    destruct (step_shape _ _ _ _ Hs E) as (s1 & E1). rewrite E1. simpl. destruct (shape_kept _ _ _ E1 Hms) as (Sh1 & Hm2).
    apply IH; [eapply shape_trans; eassumption|exact Hm2]. }
  destruct n as [|n]; [eexists; reflexivity|]. cbn [solver_steps]. rewrite E. simpl. apply G; assumption.
Qed.
(** a body of one point: the second step fails *)
Lemma one_point_fails (S : Solver T) st r c s : solver_step S st = Ok r -> In c (so_couplings S) -> c_skip c = false ->
  nth_error (w_mps (s_world st)) (c_p c) = Some (Soft s) -> length (sb_pts s) = 1 ->
  exists e, solver_step S r = Err e.
Proof.
  intros E Hc Hs Es Hl. destruct (solver_step S r) as [r2|e] eqn:E2; [exfalso|eauto].
  pose proof (step_kept _ _ _ E) as K. apply step_ok in E. destruct E as (w & ca & w2 & ca2 & ca3 & w3 & m3 & w4 & m4 & A1 & A2 & A3 & A4 & A5 & ->).
  assert (V : forall wa ma wb mb p, (exists sa, nth_error (w_mps wa) p = Some (Soft sa) /\ sb_vol0d sa = true) ->
     constitutive_update S (s_dt st) wa ma = Ok (wb, mb) -> exists sb, nth_error (w_mps wb) p = Some (Soft sb) /\ sb_vol0d sb = true).
  { intros wa ma wb mb p (sa & Ha & Hva) Eu. apply constitutive_sim in Eu. destruct Eu as (Fu & _).
    destruct (Forall2_nth_error_l _ _ _ _ _ Fu Ha) as (b & Hb & Hs'). destruct b as [sb|]; simpl in Hs'; [|tauto].
    exists sb. split; [exact Hb|]. destruct Hs' as (_ & -> & _). exact Hva. }
  assert (L2 : forall wx, Forall2 body_kept (w_mps (s_world st)) (w_mps wx) ->
     exists sx, nth_error (w_mps wx) (c_p c) = Some (Soft sx) /\ length (sb_pts sx) = 1).
  { intros wx Fx. destruct (Forall2_nth_error_l _ _ _ _ _ Fx Es) as (b & Hb & Hk). destruct b as [sx|]; simpl in Hk; [|tauto].
    exists sx. split; [exact Hb|]. destruct Hk as (_ & _ & Hk). apply Forall2_len in Hk. congruence. }
  assert (K2 : Forall2 body_kept (w_mps (s_world st)) (w_mps w2)).
  { apply prepare_kept in A1. apply p2g_kept in A2. eapply (Forall2_trans _ body_kept_trans); [exact A1|exact A2]. }
  assert (G : exists s3, nth_error (w_mps w3) (c_p c) = Some (Soft s3) /\ sb_vol0d s3 = true).
  { unfold g2p in A4. clear -A4 Hc Hs K2 L2. revert A4 Hc. generalize (s_mech st) as ma. generalize dependent w2.
    assert (H0 : forall cs wa ma wb mb, (exists s3, nth_error (w_mps wa) (c_p c) = Some (Soft s3) /\ length (sb_pts s3) = 1 /\ sb_vol0d s3 = true) ->
      rfold (g2p_coupling S ca3 (s_dt st)) (wa, ma) cs = Ok (wb, mb) ->
      exists s3, nth_error (w_mps wb) (c_p c) = Some (Soft s3) /\ sb_vol0d s3 = true).
    { induction cs as [|d cs IH]; intros wa ma wb mb (s3 & B1 & B2 & B3) E.
      - injection E as <- <-. eauto.
      - cbn [rfold] in E. apply rbind_ok in E. destruct E as ((w1 & m1) & E1 & E). eapply IH; [|exact E].
        apply g2p_coupling_ok in E1. destruct E1 as [(_ & -> & ->)|(Sk & s' & it & g & pts' & _ & _ & Es' & Hr & ->)]; [eauto|].
        simpl. rewrite set_nth_error. destruct (Nat.eqb_spec (c_p d) (c_p c)) as [Q|Q]; [|eauto].
        rewrite Q in Es'. rewrite Es' in B1. injection B1 as ->. rewrite Es'. simpl. apply g2p_len in Hr. eexists. split; [reflexivity|]. simpl.
        rewrite Hr, B2. auto. }
    intros wa Ka ma E Hc. generalize dependent ma. generalize dependent wa. induction (so_couplings S) as [|d cs IH]; [contradiction|].
    intros wa Ka ma E. cbn [rfold] in E. apply rbind_ok in E. destruct E as ((w1 & m1) & E1 & E).
    apply g2p_coupling_ok in E1. destruct Hc as [->|Hc].
    - destruct E1 as [(Sk & _)|(Sk & s' & it & g & pts' & _ & _ & Es' & Hr & ->)]; [congruence|].
      eapply H0; [|exact E]. simpl. rewrite set_nth_error, Nat.eqb_refl, Es'. simpl. eexists. split; [reflexivity|].
      destruct (L2 wa Ka) as (sx & Esx & Lx). rewrite Es' in Esx. injection Esx as ->. apply g2p_len in Hr. simpl. rewrite Hr, Lx. auto.
    - destruct E1 as [(Sk & -> & ->)|(Sk & s' & it & g & pts' & _ & _ & Es' & Hr & ->)].
      + eapply IH; [exact Hc|exact Ka|exact E].
      + eapply IH; [exact Hc| |exact E]. simpl.
        eapply (Forall2_trans _ body_kept_trans); [exact Ka|]. eapply Forall2_set_nth; [apply Forall2_refl, body_kept_refl|exact Es'|].
        apply g2p_result_kept in Hr. simpl. repeat split. revert Hr. apply Forall2_weaken. unfold kept. tauto. }
  destruct (V _ _ _ _ _ G A5) as (sb & Hb & Vb).
  apply step_ok in E2. destruct E2 as (wx & cx & wy & cy & _ & _ & _ & _ & _ & B1 & B2 & _).
  apply prepare_sim in B1. destruct B1 as (B1 & _). pose proof (p2g_fresh _ _ _ _ _ _ B2 c Hc Hs) as (sy & Ey & Vy).
  apply p2g_sim in B2. simpl in B1. pose proof (Forall2_trans _ bsim_trans _ _ _ B1 B2) as F.
  destruct (Forall2_nth_error_l _ _ _ _ _ F Hb) as (b & Hb' & Hsim). rewrite Ey in Hb'. injection Hb' as <-. simpl in Hsim.
  destruct Hsim as (_ & Q & _). congruence.
Qed.
End PR.
