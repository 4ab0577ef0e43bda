(** Structure of a solver step: what each phase reads and writes (no arithmetic laws used). *)
From Coq Require Import List Arith ZArith Lia Bool.
From Verif Require Import Num Linalg Arrays ModelGrid ModelShape ModelMath ModelState ModelLaws ModelForces ModelSolver
  Sums SpecShape ShapeProofs ResFacts.
Import ListNotations.

Section SF.
Context {T : Type} {NT : NumT T}.

(** *** kinematics and reset *)
Lemma kinematic_ok (S : Solver T) w dt w' : kinematic_update S w dt = Ok w' ->
  w_mps w' = w_mps w /\
  Forall2 (fun i_l st' => exists st, nth_error (w_sdfs w) (fst i_l) = Some st /\ st' = sl_update (snd i_l) st dt)
          (enum (so_sdfs S)) (w_sdfs w').
Proof.
  unfold kinematic_update. intros E. apply rbind_ok in E. destruct E as (l & E1 & E). injection E as <-.
  split; [reflexivity|]. simpl. apply rmap_ok in E1. revert E1. apply Forall2_weaken.
  intros [i lg] st' E. simpl in *. apply rbind_ok in E. destruct E as (st & E1 & E2). exists st.
  apply idx_ok in E1. split; congruence.
Qed.

Lemma reset_point_idem (p : Particle T) : reset_point (reset_point p) = reset_point p.
Proof. reflexivity. Qed.
Lemma reset_body_idem (b : Body T) : reset_body (reset_body b) = reset_body b.
Proof. destruct b; simpl; [|reflexivity]. f_equal. unfold set_pts; simpl. f_equal. rewrite map_map. reflexivity. Qed.

Definition coupled (cs : list Coupling) (p : nat) : bool := existsb (fun c => Nat.eqb (c_p c) p) cs.
Lemma reset_ok cs (w w' : World T) : reset_material_points cs w = Ok w' ->
  w_sdfs w' = w_sdfs w /\
  forall p, nth_error (w_mps w') p
            = option_map (fun b => if coupled cs p then reset_body b else b) (nth_error (w_mps w) p).
Proof.
  unfold reset_material_points. intros E. apply rbind_ok in E. destruct E as (l & E & E'). injection E' as <-.
  split; [reflexivity|]. simpl. revert E. generalize (w_mps w) as l0. induction cs as [|c cs IH]; simpl; intros l0 E p.
  - injection E as <-. destruct (nth_error l0 p); reflexivity.
  - apply rbind_ok in E. destruct E as (l1 & E1 & E). apply upd_idx_ok in E1. destruct E1 as (b & y & Hb & Hy & ->).
    injection Hy as <-. rewrite (IH _ E). rewrite set_nth_error.
    destruct (Nat.eqb_spec (c_p c) p) as [<-|N]; simpl; [|reflexivity].
    rewrite Hb. simpl. destruct (coupled cs (c_p c)); [rewrite reset_body_idem|]; reflexivity.
Qed.

(** *** connectivity *)
(** the kernel of the last coupling of a body and a grid *)
Definition last_kernel (cs : list Coupling) (p g : nat) : option Kernel :=
  fold_left (fun o c => if key_eqb (c_p c, c_g c) (p, g) then Some (c_kernel c) else o) cs None.
Lemma last_kernel_gen cs p g : forall o k,
  fold_left (fun o c => if key_eqb (c_p c, c_g c) (p, g) then Some (c_kernel c) else o) cs o = Some k ->
  o = Some k \/ exists c, In c cs /\ c_p c = p /\ c_g c = g /\ c_kernel c = k.
Proof.
  induction cs as [|c cs IH]; simpl; intros o k E; [left; exact E|].
  apply IH in E. destruct E as [E|(c' & Hin & E)]; [|right; exists c'; auto].
  destruct (key_eqb_spec (c_p c, c_g c) (p, g)) as [K|N]; [|left; exact E].
  right. exists c. injection K as <- <-. injection E as <-. auto.
Qed.
Lemma last_kernel_in cs p g k : last_kernel cs p g = Some k ->
  exists c, In c cs /\ c_p c = p /\ c_g c = g /\ c_kernel c = k.
Proof. intros E. apply last_kernel_gen in E. destruct E as [E|E]; [discriminate|exact E]. Qed.

Definition is_rows (S : Solver T) (w : World T) (p g : nat) (l : list (Interaction T)) : Prop :=
  exists k b gd, last_kernel (so_couplings S) p g = Some k /\ nth_error (w_mps w) p = Some b /\
    nth_error (so_domains S) g = Some gd /\ body_dim b = gd_dim gd /\ l = compute_on k gd (body_positions b).

Lemma connectivity_ok (S : Solver T) w d : compute_connectivity S w = Ok d ->
  (forall p g l, dict_get (p, g) d = Ok l -> is_rows S w p g l) /\
  (forall c, In c (so_couplings S) -> exists l, dict_get (c_p c, c_g c) d = Ok l).
Proof.
  unfold compute_connectivity. intros E.
  assert (G : forall cs (d0 d : list ((nat * nat) * list (Interaction T))) (o : nat -> nat -> option Kernel),
    (forall p g l, dict_get (p, g) d0 = Ok l -> exists k b gd, o p g = Some k /\ nth_error (w_mps w) p = Some b /\
        nth_error (so_domains S) g = Some gd /\ body_dim b = gd_dim gd /\ l = compute_on k gd (body_positions b)) ->
    rfold (fun d c =>
      rbind (idx (w_mps w) (c_p c)) (fun b => rbind (idx (so_domains S) (c_g c)) (fun g =>
        if dim_eqb (body_dim b) (gd_dim g)
        then Ok (dict_set (c_p c, c_g c) (compute_on (c_kernel c) g (body_positions b)) d)
        else Err TypeError))) d0 cs = Ok d ->
    (forall p g l, dict_get (p, g) d = Ok l -> exists k b gd,
       fold_left (fun o c => if key_eqb (c_p c, c_g c) (p, g) then Some (c_kernel c) else o) cs (o p g) = Some k /\
       nth_error (w_mps w) p = Some b /\
       nth_error (so_domains S) g = Some gd /\ body_dim b = gd_dim gd /\ l = compute_on k gd (body_positions b)) /\
    (forall p g, (exists l, dict_get (p, g) d0 = Ok l) \/ (exists c, In c cs /\ c_p c = p /\ c_g c = g) ->
       exists l, dict_get (p, g) d = Ok l)).
  { clear. induction cs as [|c cs IH]; simpl; intros d0 d o I E.
    - injection E as <-. split; [exact I|]. intros p g [X|(c & [] & _)]. exact X.
    - apply rbind_ok in E. destruct E as (d1 & E1 & E).
      apply rbind_ok in E1. destruct E1 as (b & Eb & E1). apply rbind_ok in E1. destruct E1 as (gd & Eg & E1).
      apply idx_ok in Eb, Eg. destruct (dim_eqb (body_dim b) (gd_dim gd)) eqn:Ed; [|discriminate].
      injection E1 as <-.
      edestruct (IH (dict_set (c_p c, c_g c) (compute_on (c_kernel c) gd (body_positions b)) d0) d
                    (fun p g => if key_eqb (c_p c, c_g c) (p, g) then Some (c_kernel c) else o p g)) as (IH1 & IH2).
      { intros p g l Hl. rewrite dict_get_set in Hl.
        destruct (key_eqb_spec (c_p c, c_g c) (p, g)) as [K|N]; [|apply I, Hl].
        injection K as <- <-. injection Hl as <-. exists (c_kernel c), b, gd. repeat split; auto.
        destruct (body_dim b), (gd_dim gd); auto; discriminate. }
      { exact E. }
      split; [exact IH1|].
      intros p g Hpg. apply IH2. rewrite dict_get_set.
      destruct (key_eqb_spec (c_p c, c_g c) (p, g)) as [K|N]; [left; eauto|].
      destruct Hpg as [Hl|(c' & [<-|Hin] & <- & <-)]; [left; exact Hl|congruence|right; eauto]. }
  destruct (G (so_couplings S) [] d (fun _ _ => None) ltac:(intros; discriminate) E) as (G1 & G2).
  split; [exact G1|]. intros c Hin. apply G2. right. eauto.
Qed.

Lemma compute_mask k (g : GridDomain T) xs it : In it (compute_on k g xs) -> it_mask it = n1.
Proof. intros Hin. apply in_compute in Hin. destruct Hin as (p & s & _ & _ & ->). reflexivity. Qed.
Lemma set_mask_same (it : Interaction T) : it_mask it = n1 -> set_mask n1 it = it.
Proof. destruct it; simpl; intros ->; reflexivity. Qed.
Lemma set_mask_all (l : list (Interaction T)) (m : list T) : length m = length l ->
  (forall it, In it l -> it_mask it = n1) -> map (fun im => set_mask n1 (fst im)) (combine l m) = l.
Proof.
  revert m; induction l as [|x l IH]; intros [|y m] Hl Hm; simpl in *; try discriminate; [reflexivity|].
  rewrite set_mask_same by auto. f_equal. apply IH; [lia|auto].
Qed.
(** the SDF correction leaves every interaction as it was *)
Lemma sdf_correction_id (S : Solver T) w d d' :
  (forall p g l, dict_get (p, g) d = Ok l -> forall it, In it l -> it_mask it = n1) ->
  sdf_correction S w d = Ok d' -> forall k, dict_get k d' = dict_get k d.
Proof.
  unfold sdf_correction. intros M E.
  destruct (so_sdfs S) as [|s0 ss]; [injection E as <-; reflexivity|].
  refine (rfold_inv (fun d' => forall k, dict_get k d' = dict_get k d) _ _ d d' _ _ E); [|reflexivity].
  intros d1 c d2 _ I E1 k.
  apply rbind_ok in E1. destruct E1 as (l & El & E1). apply rbind_ok in E1. destruct E1 as (b & Eb & E1).
  apply rbind_ok in E1. destruct E1 as (g & Eg & E1).
  destruct (Nat.eqb (num_points b) 0); [discriminate|]. injection E1 as <-.
  rewrite dict_get_set. rewrite set_mask_all.
  - destruct (key_eqb_spec (c_p c, c_g c) k) as [<-|_]; [rewrite <- El, I; reflexivity|apply I].
  - apply map_length.
  - intros it Hit. rewrite I in El. eapply M; eassumption.
Qed.

(** *** everything before P2G *)
Lemma prepare_ok (S : Solver T) st w ca : prepare S st = Ok (w, ca) ->
  (forall p, nth_error (w_mps w) p
     = option_map (fun b => if coupled (so_couplings S) p then reset_body b else b) (nth_error (w_mps (s_world st)) p)) /\
  (forall p g l, dict_get (p, g) (sc_inter ca) = Ok l -> is_rows S w p g l) /\
  (forall c, In c (so_couplings S) -> exists l, dict_get (c_p c, c_g c) (sc_inter ca) = Ok l) /\
  sc_grids ca = map grid_new (so_domains S) /\
  sc_mp_geoms ca = particle_sdfs S w (s_dt st) /\ sc_node_geoms ca = node_sdfs S w (s_dt st) /\
  kinematic_update S (s_world st) (s_dt st) = Ok {| w_mps := w_mps (s_world st); w_sdfs := w_sdfs w |}.
Proof.
  unfold prepare. intros E. apply rbind_ok in E. destruct E as (w1 & E1 & E). apply rbind_ok in E.
  destruct E as (w2 & E2 & E). apply rbind_ok in E. destruct E as (it & E3 & E). apply rbind_ok in E.
  destruct E as (it' & E4 & E). injection E as <- <-. simpl.
  pose proof (kinematic_ok _ _ _ _ E1) as (K & _). apply reset_ok in E2. destruct E2 as (Rs & R).
  pose proof (connectivity_ok _ _ _ E3) as (C1 & C2).
  assert (I : forall k, dict_get k it' = dict_get k it).
  { refine (sdf_correction_id S w2 it it' _ E4). intros p g l Hl i Hi. apply C1 in Hl.
    destruct Hl as (k & b & gd & _ & _ & _ & _ & ->). eapply compute_mask; eassumption. }
  repeat split.
  - intros p. rewrite R, K. reflexivity.
  - intros p g l Hl. rewrite I in Hl. apply C1, Hl.
  - intros c Hc. rewrite I. apply C2, Hc.
  - rewrite E1. f_equal. destruct w1; simpl in *. subst. reflexivity.
Qed.

(** *** P2G *)
(** a body whose points differ in the external force only *)
Definition same_but_force (b b' : Body T) : Prop :=
  match b, b' with
  | Rigid r, Rigid r' => r = r'
  | Soft s, Soft s' => sb_dim s' = sb_dim s /\ sb_storeF s' = sb_storeF s /\ sb_vol0d s' = sb_vol0d s /\
      Forall2 (fun p q => q = set_pforce p (pt_force q)) (sb_pts s) (sb_pts s')
  | _, _ => False
  end.
Lemma same_but_force_refl b : same_but_force b b.
Proof. destruct b; simpl; [|reflexivity]. repeat split. apply Forall2_refl. intros [ ]; reflexivity. Qed.
Lemma same_but_force_trans a b c : same_but_force a b -> same_but_force b c -> same_but_force a c.
Proof.
  destruct a, b, c; simpl; try tauto; [|congruence].
  intros (A1 & A2 & A3 & A4) (B1 & B2 & B3 & B4). repeat split; try congruence.
  revert A4 B4. apply Forall2_trans. intros x y z -> ->. reflexivity.
Qed.
Lemma pre_p2g_ok f (w : World T) m w' : apply_pre_p2g f w m = Ok w' ->
  w_sdfs w' = w_sdfs w /\ Forall2 same_but_force (w_mps w) (w_mps w').
Proof.
  assert (Rf : forall l, Forall2 same_but_force l l) by (intro; apply Forall2_refl, same_but_force_refl).
  destruct f as [g|d|c|c]; simpl; intros E.
  - destruct (gv_on_grid g); [injection E as <-; auto|]. apply rbind_ok in E. destruct E as (fs & _ & E).
    refine (rfold_inv (fun w' => w_sdfs w' = w_sdfs w /\ Forall2 same_but_force (w_mps w) (w_mps w')) _ _ w w' _ _ E); [|auto].
    intros s x s' _ I E1. apply rbind_ok in E1. destruct E1 as (b & _ & E1). apply rbind_ok in E1.
    destruct E1 as (v & _ & E1). discriminate.
  - destruct (dm_on_grid d); [injection E as <-; auto|]. apply rbind_ok in E. destruct E as (fs & _ & E).
    apply rbind_ok in E. destruct E as (l & E & E'). injection E' as <-. split; [reflexivity|]. simpl.
    refine (rfold_inv (fun l => Forall2 same_but_force (w_mps w) l) _ _ (w_mps w) l _ _ E); [|auto].
    intros s x s' _ I E1. apply upd_idx_ok in E1. destruct E1 as (b & y & Hb & Hy & ->).
    destruct b as [b|b]; [|discriminate]. apply rbind_ok in Hy. destruct Hy as (a & _ & Hy). injection Hy as <-.
    destruct (Forall2_nth_error _ _ _ _ _ I Hb) as (b0 & Hb0 & Hs).
    eapply Forall2_set_nth; [exact I|exact Hb0|]. eapply same_but_force_trans; [exact Hs|]. simpl.
    repeat split. apply Forall2_map_r. intros [ ] _; reflexivity.
  - injection E as <-; auto.
  - injection E as <-; auto.
Qed.
Lemma pre_p2g_fold_ok fs (w : World T) m w' : rfold (fun w f => apply_pre_p2g f w m) w fs = Ok w' ->
  w_sdfs w' = w_sdfs w /\ Forall2 same_but_force (w_mps w) (w_mps w').
Proof.
  intros E.
  refine (rfold_inv (fun w' => w_sdfs w' = w_sdfs w /\ Forall2 same_but_force (w_mps w) (w_mps w')) _ _ w w' _ _ E).
  - intros s x s' _ (I1 & I2) E1. apply pre_p2g_ok in E1. destruct E1 as (E1 & E2). split; [congruence|].
    eapply Forall2_trans; [apply same_but_force_trans| |]; eassumption.
  - split; [reflexivity|]. apply Forall2_refl, same_but_force_refl.
Qed.

(** velocities attached to the interactions of a coupling *)
Definition p2g_vel (S : Solver T) (m : Mechanics T) (c : Coupling) (pts : list (Particle T)) (vel : Interaction T -> vec3 T) : Prop :=
  match so_scheme S with
  | USL => vel = fun it => pt_vel (point_of pts it)
  | ASFLIP _ => exists gd Bp s, nth_error (so_domains S) (c_g c) = Some gd /\ c_s c = Some s /\
      nth_error (m_solvers m) s = Some (Some (SS_AFLIP Bp)) /\
      vel = fun it => vsub (pt_vel (point_of pts it)) (affine_vel (gd_cell gd) (gd_dim gd) Bp it)
  end.
Lemma p2g_coupling_ok (S : Solver T) w m inter gs c gs' : p2g_coupling S w m inter gs c = Ok gs' ->
  (c_skip c = true /\ gs' = gs) \/
  (c_skip c = false /\ exists s it gr vel, nth_error (w_mps w) (c_p c) = Some (Soft s) /\ sb_vol0d s = false /\
     dict_get (c_p c, c_g c) inter = Ok it /\ nth_error gs (c_g c) = Some gr /\ p2g_vel S m c (sb_pts s) vel /\
     gs' = set_nth (c_g c) (p2g_with it (sb_pts s) vel gr) gs).
Proof.
  unfold p2g_coupling. destruct (c_skip c) eqn:Es; [intros E; left; split; congruence|].
  intros E. right. split; [reflexivity|]. apply rbind_ok in E. destruct E as (b & Eb & E). apply idx_ok in Eb.
  apply upd_idx_ok in E. destruct E as (gr & gr' & Eg & E & ->). apply rbind_ok in E. destruct E as (it & Eit & E).
  destruct (so_scheme S) as [|a] eqn:Esc.
  - apply rbind_ok in E. destruct E as (s & E1 & E). injection E as <-.
    destruct b as [s'|r]; simpl in E1; [|discriminate]. destruct (sb_vol0d s') eqn:Ev; [discriminate|]. injection E1 as ->.
    exists s, it, gr, (fun it => pt_vel (point_of (sb_pts s) it)). unfold p2g_vel. rewrite Esc. repeat split; auto.
  - apply rbind_ok in E. destruct E as (gd & E1 & E). apply idx_ok in E1. apply rbind_ok in E.
    destruct E as (ss & E2 & E). apply idx_opt_ok in E2. destruct E2 as (k & E2 & E3).
    apply rbind_ok in E. destruct E as (s & E4 & E). apply rbind_ok in E. destruct E as (Bp & E5 & E). injection E as <-.
    destruct b as [s'|r]; simpl in E4; [|discriminate]. destruct (sb_vol0d s') eqn:Ev; [discriminate|]. injection E4 as ->.
    destruct ss as [[|Bp']|]; simpl in E5; try discriminate. injection E5 as ->.
    eexists s, it, gr, _. repeat split; auto. unfold p2g_vel. rewrite Esc. exists gd, Bp, k. repeat split; auto.
Qed.
Lemma p2g_ok (S : Solver T) w m ca w' ca' : p2g S w m ca = Ok (w', ca') ->
  exists gs, rfold (fun w f => apply_pre_p2g f w m) w (so_forces S) = Ok w' /\
    rfold (p2g_coupling S w' m (sc_inter ca)) (sc_grids ca) (so_couplings S) = Ok gs /\ ca' = set_grids ca gs.
Proof.
  unfold p2g. intros E. apply rbind_ok in E. destruct E as (w1 & E1 & E). apply rbind_ok in E. destruct E as (gs & E2 & E).
  injection E as <- <-. exists gs. auto.
Qed.

(** *** grids keep their shape *)
Definition grid_ok (gd : GridDomain T) (g : Grid T) : Prop :=
  let n := Z.to_nat (num_cells gd) in
  gr_dim g = gd_dim gd /\ length (gr_mass g) = n /\ length (gr_mom g) = n /\ length (gr_mom_nt g) = n /\ length (gr_force g) = n.
Lemma grid_new_ok gd : grid_ok gd (grid_new gd).
Proof. unfold grid_ok, grid_new; simpl. rewrite !repeat_length. auto. Qed.
Lemma p2g_with_ok gd it pts vel g : grid_ok gd g -> grid_ok gd (p2g_with it pts vel g).
Proof.
  unfold grid_ok, p2g_with; simpl. rewrite !scatter_add_length, map_length. tauto.
Qed.
Lemma p2g_grids_ok (S : Solver T) w m inter gs0 gs : Forall2 grid_ok (so_domains S) gs0 ->
  rfold (p2g_coupling S w m inter) gs0 (so_couplings S) = Ok gs -> Forall2 grid_ok (so_domains S) gs.
Proof.
  intros I E. refine (rfold_inv (fun gs => Forall2 grid_ok (so_domains S) gs) _ _ gs0 gs _ I E). clear.
  intros gs c gs' _ I E. apply p2g_coupling_ok in E.
  destruct E as [(_ & ->)|(_ & s & it & gr & vel & _ & _ & _ & Eg & _ & ->)]; [exact I|].
  destruct (Forall2_nth_error _ _ _ _ _ I Eg) as (gd & Egd & Hg).
  eapply Forall2_set_nth; [exact I|exact Egd|]. apply p2g_with_ok, Hg.
Qed.

(** *** grid integration keeps mass and momentum *)
Definition same_mm (g g' : Grid T) : Prop := gr_dim g' = gr_dim g /\ gr_mass g' = gr_mass g /\ gr_mom g' = gr_mom g.
Lemma same_mm_refl g : same_mm g g. Proof. repeat split. Qed.
Lemma same_mm_trans a b c : same_mm a b -> same_mm b c -> same_mm a c.
Proof. unfold same_mm; intuition congruence. Qed.
(** one indexed update of a list of grids that respects a pre-order *)
Lemma upd_grid_rel (P : Grid T -> Grid T -> Prop) gs i f gs' :
  (forall a, P a a) -> (forall a b c, P a b -> P b c -> P a c) ->
  (forall g g', f g = Ok g' -> P g g') -> upd_idx gs i f = Ok gs' -> Forall2 P gs gs'.
Proof.
  intros Rf Tr Hf E. apply upd_idx_ok in E. destruct E as (g & g' & Eg & E & ->).
  eapply Forall2_set_nth; [apply Forall2_refl, Rf|exact Eg|apply Hf, E].
Qed.
Lemma rfold_grid_rel {A} (P : Grid T -> Grid T -> Prop) (f : list (Grid T) -> A -> res (list (Grid T))) l gs gs' :
  (forall a, P a a) -> (forall a b c, P a b -> P b c -> P a c) ->
  (forall gs x gs', In x l -> f gs x = Ok gs' -> Forall2 P gs gs') -> rfold f gs l = Ok gs' -> Forall2 P gs gs'.
Proof.
  intros Rf Tr Hf E. refine (rfold_inv (fun gs' => Forall2 P gs gs') f l gs gs' _ _ E).
  - intros s x s' Hx I E1. eapply Forall2_trans; [exact Tr|exact I|eapply Hf; eassumption].
  - apply Forall2_refl, Rf.
Qed.
(** force hooks change the force only *)
Definition force_hook (g g' : Grid T) : Prop := same_mm g g' /\ gr_mom_nt g' = gr_mom_nt g.
Lemma grid_forces_ok f m gs gs' : apply_grid_forces f m gs = Ok gs' -> Forall2 force_hook gs gs'.
Proof.
  assert (Rf : forall a, force_hook a a) by (intro; split; [apply same_mm_refl|reflexivity]).
  assert (Tr : forall a b c, force_hook a b -> force_hook b c -> force_hook a c).
  { intros a b c (A & A') (B & B'). split; [eapply same_mm_trans; eassumption|congruence]. }
  destruct f as [g|d|c|c]; simpl; intros E.
  - destruct (gv_on_grid g); [|injection E as <-; apply Forall2_refl, Rf]. apply rbind_ok in E. destruct E as (fs & _ & E).
    eapply (rfold_grid_rel force_hook); [exact Rf|exact Tr| |exact E]. cbv beta. intros l x l' _ E1.
    eapply upd_grid_rel; [exact Rf|exact Tr| |exact E1]. intros gr gr' E2. apply rbind_ok in E2.
    destruct E2 as (v & _ & E2). injection E2 as <-. repeat split.
  - destruct (dm_on_grid d); [|injection E as <-; apply Forall2_refl, Rf]. apply rbind_ok in E. destruct E as (fs & _ & E).
    eapply (rfold_grid_rel force_hook); [exact Rf|exact Tr| |exact E]. cbv beta. intros l x l' _ E1.
    eapply upd_grid_rel; [exact Rf|exact Tr| |exact E1]. intros gr gr' E2. apply rbind_ok in E2.
    destruct E2 as (v & _ & E2). injection E2 as <-. repeat split.
  - injection E as <-; apply Forall2_refl, Rf.
  - injection E as <-; apply Forall2_refl, Rf.
Qed.
(** moment hooks change the next-step momentum only *)
Definition moment_hook (g g' : Grid T) : Prop := same_mm g g' /\ gr_force g' = gr_force g.
Lemma grid_moments_ok f w sdfs doms geoms dt gs gs' : apply_grid_moments f w sdfs doms geoms dt gs = Ok gs' ->
  Forall2 moment_hook gs gs'.
Proof.
  assert (Rf : forall a, moment_hook a a) by (intro; split; [apply same_mm_refl|reflexivity]).
  assert (Tr : forall a b c, moment_hook a b -> moment_hook b c -> moment_hook a c).
  { intros a b c (A & A') (B & B'). split; [eapply same_mm_trans; eassumption|congruence]. }
  destruct f as [g|d|c|c]; simpl; intros E; try (injection E as <-; apply Forall2_refl, Rf).
  - destruct (cl_sdf c) as [k|]; [|injection E as <-; apply Forall2_refl, Rf].
    apply rbind_ok in E. destruct E as (lg & _ & E). apply rbind_ok in E. destruct E as (sd & _ & E).
    eapply (rfold_grid_rel moment_hook); [exact Rf|exact Tr| |exact E]. cbv beta. intros l x l' _ E1.
    apply rbind_ok in E1. destruct E1 as (gd & _ & E1).
    eapply upd_grid_rel; [exact Rf|exact Tr| |exact E1]. intros gr gr' E2. apply rbind_ok in E2.
    destruct E2 as (v & _ & E2). apply rbind_ok in E2. destruct E2 as (ge & _ & E2). injection E2 as <-. repeat split.
  - discriminate.
Qed.
Lemma integrate_ok (S : Solver T) w m dt ca ca' : integrate_grid S w m dt ca = Ok ca' ->
  exists gs1 gs2 gs3, rfold (fun gs f => apply_grid_forces f m gs) (sc_grids ca) (so_forces S) = Ok gs1 /\
    rfold (fun gs c => if c_skip c then Ok gs else upd_idx gs (c_g c) (fun g => Ok (integrate1 dt g))) gs1 (so_couplings S) = Ok gs2 /\
    rfold (fun gs f => apply_grid_moments f w (so_sdfs S) (so_domains S) (sc_node_geoms ca) dt gs) gs2 (so_forces S) = Ok gs3 /\
    ca' = set_grids ca gs3.
Proof.
  unfold integrate_grid. intros E. apply rbind_ok in E. destruct E as (gs1 & E1 & E). apply rbind_ok in E.
  destruct E as (gs2 & E2 & E). apply rbind_ok in E. destruct E as (gs3 & E3 & E). injection E as <-.
  exists gs1, gs2, gs3. auto.
Qed.
Lemma forces_fold_ok m fs gs gs' : rfold (fun gs f => apply_grid_forces f m gs) gs fs = Ok gs' -> Forall2 force_hook gs gs'.
Proof.
  intros E. eapply (rfold_grid_rel force_hook); [| | |exact E].
  - intro; split; [apply same_mm_refl|reflexivity].
  - intros a b c (A & A') (B & B'). split; [eapply same_mm_trans; eassumption|congruence].
  - cbv beta. intros. eapply grid_forces_ok; eassumption.
Qed.
Lemma moments_fold_ok w sdfs doms geoms dt fs gs gs' :
  rfold (fun gs f => apply_grid_moments f w sdfs doms geoms dt gs) gs fs = Ok gs' -> Forall2 moment_hook gs gs'.
Proof.
  intros E. eapply (rfold_grid_rel moment_hook); [| | |exact E].
  - intro; split; [apply same_mm_refl|reflexivity].
  - intros a b c (A & A') (B & B'). split; [eapply same_mm_trans; eassumption|congruence].
  - cbv beta. intros. eapply grid_moments_ok; eassumption.
Qed.
(** the integration loop: grids of active couplings get the explicit Euler momentum *)
Lemma integrate_fold_ok dt cs : forall gs gs',
  rfold (fun gs c => if c_skip c then Ok gs else upd_idx gs (c_g c) (fun g => Ok (integrate1 dt g))) gs cs = Ok gs' ->
  forall i, nth_error gs' i
    = option_map (fun g => if existsb (fun c => (negb (c_skip c) && Nat.eqb (c_g c) i)%bool) cs then integrate1 dt g else g)
        (nth_error gs i).
Proof.
  induction cs as [|c cs IH]; cbn [rfold existsb]; intros gs gs' E i.
  - injection E as <-. destruct (nth_error gs i); reflexivity.
  - apply rbind_ok in E. destruct E as (gs1 & E1 & E). rewrite (IH _ _ E). destruct (c_skip c).
    + injection E1 as <-. reflexivity.
    + apply upd_idx_ok in E1. destruct E1 as (g & g' & Eg & E1 & ->). injection E1 as <-.
      rewrite set_nth_error. cbn [negb andb]. destruct (Nat.eqb_spec (c_g c) i) as [<-|N]; cbn [orb]; [|reflexivity].
      rewrite Eg. cbn [option_map]. destruct (existsb _ cs); reflexivity.
Qed.
Lemma integrate_same_mm (S : Solver T) w m dt ca ca' : integrate_grid S w m dt ca = Ok ca' ->
  Forall2 same_mm (sc_grids ca) (sc_grids ca') /\ sc_inter ca' = sc_inter ca /\ sc_mp_geoms ca' = sc_mp_geoms ca /\
  sc_node_geoms ca' = sc_node_geoms ca.
Proof.
  intros E. apply integrate_ok in E. destruct E as (gs1 & gs2 & gs3 & E1 & E2 & E3 & ->). simpl. split; [|auto].
  apply forces_fold_ok in E1. apply moments_fold_ok in E3.
  assert (F1 : Forall2 same_mm (sc_grids ca) gs1) by (revert E1; apply Forall2_weaken; intros a b (X & _); exact X).
  assert (F3 : Forall2 same_mm gs2 gs3) by (revert E3; apply Forall2_weaken; intros a b (X & _); exact X).
  eapply Forall2_trans; [apply same_mm_trans|exact F1|].
  eapply Forall2_trans; [apply same_mm_trans| |exact F3].
  eapply (rfold_grid_rel same_mm); [apply same_mm_refl|apply same_mm_trans| |exact E2].
  cbv beta. intros gs c gs' _ X. destruct (c_skip c); [injection X as <-; apply Forall2_refl, same_mm_refl|].
  eapply upd_grid_rel; [apply same_mm_refl|apply same_mm_trans| |exact X]. intros g g' Y. injection Y as <-. repeat split.
Qed.

(** *** G2P *)
Definition g2p_result (S : Solver T) (ca : SimCache T) (dt : T) (m : Mechanics T) (c : Coupling) (s : SoftBody T)
    (it : list (Interaction T)) (g : Grid T) (pts' : list (Particle T)) (m' : Mechanics T) : Prop :=
  match so_scheme S with
  | USL => m' = m /\ exists geos, nth_error (sc_mp_geoms ca) (c_p c) = Some geos /\
             pts' = g2p_usl (so_alpha S) dt geos it g (sb_pts s) /\ (geos = [] \/ length (sb_pts s) <> 1%nat)
  | ASFLIP a => af_mls a = true /\ exists gd B, nth_error (so_domains S) (c_g c) = Some gd /\
      nth_error (m_solvers m) (c_p c) = Some (Some (SS_AFLIP B)) /\
      let r := g2p_aflip a (so_alpha S) dt gd (sb_storeF s) it g (sb_pts s) in
      pts' = fst r /\ m' = {| m_laws := m_laws m; m_solvers := set_nth (c_p c) (Some (SS_AFLIP (snd r))) (m_solvers m);
                              m_forces := m_forces m |}
  end.
Lemma g2p_coupling_ok (S : Solver T) ca dt w m c w' m' : g2p_coupling S ca dt (w, m) c = Ok (w', m') ->
  (c_skip c = true /\ w' = w /\ m' = m) \/
  (c_skip c = false /\ exists s it g pts', nth_error (sc_grids ca) (c_g c) = Some g /\
     dict_get (c_p c, c_g c) (sc_inter ca) = Ok it /\ nth_error (w_mps w) (c_p c) = Some (Soft s) /\
     g2p_result S ca dt m c s it g pts' m' /\
     w' = set_mps w (set_nth (c_p c) (Soft (after_g2p s pts')) (w_mps w))).
Proof.
  unfold g2p_coupling. destruct (c_skip c) eqn:Es; [intros E; left; repeat split; congruence|].
  intros E. right. split; [reflexivity|]. apply rbind_ok in E. destruct E as (g & Eg & E). apply idx_ok in Eg.
  apply rbind_ok in E. destruct E as (it & Eit & E). apply rbind_ok in E. destruct E as (b & Eb & E). apply idx_ok in Eb.
  destruct b as [s|r]; [|discriminate]. unfold g2p_result. destruct (so_scheme S) as [|a].
  - apply rbind_ok in E. destruct E as (geos & Ege & E). apply idx_ok in Ege. destruct geos as [|ge geos].
    + injection E as <- <-.
      refine (ex_intro _ s (ex_intro _ it (ex_intro _ g (ex_intro _ _ (conj Eg (conj Eit (conj Eb (conj (conj eq_refl _) eq_refl)))))))).
      exists []. repeat split; auto.
    + destruct (Nat.eqb_spec (length (sb_pts s)) 1) as [L|L]; [discriminate|]. injection E as <- <-.
      refine (ex_intro _ s (ex_intro _ it (ex_intro _ g (ex_intro _ _ (conj Eg (conj Eit (conj Eb (conj (conj eq_refl _) eq_refl)))))))).
      exists (ge :: geos). repeat split; auto.
  - apply rbind_ok in E. destruct E as (gd & Egd & E). apply idx_ok in Egd. apply rbind_ok in E.
    destruct E as (ss & Ess & E). apply idx_ok in Ess. destruct (af_mls a) eqn:Ea; [|discriminate].
    apply rbind_ok in E. destruct E as (B & EB & E). destruct ss as [[|B']|]; try discriminate. injection EB as ->.
    injection E as <- <-.
    refine (ex_intro _ s (ex_intro _ it (ex_intro _ g (ex_intro _ _ (conj Eg (conj Eit (conj Eb (conj (conj eq_refl _) eq_refl)))))))).
    exists gd, B. repeat split; auto.
Qed.
(** what G2P never touches *)
Definition kept (p q : Particle T) : Prop :=
  pt_mass q = pt_mass p /\ pt_force q = pt_force p /\ pt_vol0 q = pt_vol0 p /\ pt_stress q = pt_stress p /\
  pt_vol q = nmul (mdet (pt_F q)) (pt_vol0 q).
Lemma map_enum_Forall2 {A B} (P : A -> B -> Prop) (f : nat * A -> B) l :
  (forall i a, P a (f (i, a))) -> Forall2 P l (map f (enum l)).
Proof.
  intros Hf. unfold enum. generalize 0%nat. induction l as [|a l IH]; intros n; simpl; constructor; auto.
Qed.
Lemma g2p_result_kept (S : Solver T) ca dt m c s it g pts' m' :
  g2p_result S ca dt m c s it g pts' m' -> Forall2 kept (sb_pts s) pts'.
Proof.
  unfold g2p_result. destruct (so_scheme S).
  - intros (_ & geos & _ & -> & _). apply map_enum_Forall2. intros i p. repeat split.
  - intros (_ & gd & B & _ & _ & -> & _). apply map_enum_Forall2. intros i p. repeat split.
Qed.

(** *** constitutive update *)
(** the laws touch stress and F only *)
Definition law_kept (p q : Particle T) : Prop :=
  pt_pos q = pt_pos p /\ pt_vel q = pt_vel p /\ pt_mass q = pt_mass p /\ pt_force q = pt_force p /\ pt_vol q = pt_vol p /\
  pt_vol0 q = pt_vol0 p /\ pt_L q = pt_L p.
Lemma law_kept_refl p : law_kept p p. Proof. repeat split. Qed.
Lemma law_kept_trans a b c : law_kept a b -> law_kept b c -> law_kept a c.
Proof. unfold law_kept. intuition congruence. Qed.
Lemma Forall2_combine {A B C} (P : A -> C -> Prop) (f : A * B -> C) l m : length m = length l ->
  (forall a b, P a (f (a, b))) -> Forall2 P l (map f (combine l m)).
Proof.
  intros Hl Hf. revert m Hl; induction l as [|a l IH]; intros [|b m] Hl; simpl in *; try discriminate; constructor; auto.
Qed.
Lemma remove_shear_kept r (b : SoftBody T) : let b' := remove_accumulated_shear r b in
  sb_dim b' = sb_dim b /\ sb_storeF b' = sb_storeF b /\ sb_vol0d b' = sb_vol0d b /\ Forall2 law_kept (sb_pts b) (sb_pts b').
Proof.
  unfold remove_accumulated_shear. destruct r; simpl; repeat split; [|apply Forall2_refl, law_kept_refl].
  apply Forall2_map_r. intros p _. repeat split.
Qed.
Lemma law_update_kept l (b : SoftBody T) st dt b' st' : law_update l b st dt = Ok (b', st') ->
  sb_dim b' = sb_dim b /\ sb_storeF b' = sb_storeF b /\ sb_vol0d b' = sb_vol0d b /\
  Forall2 (fun p q => law_kept p q /\ pt_F q = pt_F p /\ pt_Fst q = pt_Fst p) (sb_pts b) (sb_pts b').
Proof.
  destruct l as [m|m|m|m|m]; simpl.
  - intros E. injection E as <- <-. simpl. repeat split. apply Forall2_map_r. intros p _. repeat split.
  - destruct st as [[ |r| | ]|]; try discriminate. destruct (sb_vol0d b) eqn:Ev; [discriminate|].
    destruct (Nat.eqb_spec (length r) (length (sb_pts b))); [|discriminate]. simpl.
    intros E. injection E as <- <-. simpl. repeat split; [congruence|]. apply Forall2_combine; [assumption|]. intros; repeat split.
  - destruct st as [[ |r| | ]|]; try discriminate. destruct (sb_vol0d b) eqn:Ev; [discriminate|].
    destruct (Nat.eqb_spec (length r) (length (sb_pts b))); [|discriminate]. simpl.
    intros E. injection E as <- <-. simpl. repeat split; [congruence|]. apply Forall2_combine; [assumption|]. intros; repeat split.
  - destruct st as [[ | |ds| ]|]; try discriminate.
    destruct (Nat.eqb_spec (length ds) (length (sb_pts b))); [|discriminate]. simpl.
    intros E. injection E as <- <-. simpl. repeat split.
    apply Forall2_combine; [rewrite map_length, combine_length; lia|]. intros; repeat split.
  - destruct st as [[ | | |pc [sref|] ee]|]; try discriminate.
    destruct (negb _); [discriminate|].
    intros E. injection E as <- <-. simpl. repeat split.
    apply Forall2_combine; [rewrite map_length, seq_length; reflexivity|]. intros; repeat split.
Qed.
Lemma constitutive_coupling_ok (S : Solver T) dt w m c w' m' : constitutive_coupling S dt (w, m) c = Ok (w', m') ->
  (c_skip c = true /\ w' = w /\ m' = m) \/
  (c_skip c = false /\ exists s ci l ls s1 ls', nth_error (w_mps w) (c_p c) = Some (Soft s) /\ c_c c = Some ci /\
     nth_error (m_laws m) ci = Some ls /\ nth_error (so_laws S) ci = Some (Some l) /\
     law_update l s ls dt = Ok (s1, ls') /\
     w' = set_mps w (set_nth (c_p c) (Soft (remove_accumulated_shear (law_reset l) s1)) (w_mps w)) /\
     m' = {| m_laws := set_nth ci ls' (m_laws m); m_solvers := m_solvers m; m_forces := m_forces m |}).
Proof.
  unfold constitutive_coupling. destruct (c_skip c) eqn:Es; [intros E; left; repeat split; congruence|].
  intros E. right. split; [reflexivity|]. apply rbind_ok in E. destruct E as (b & Eb & E). apply idx_ok in Eb.
  apply rbind_ok in E. destruct E as (ls & El & E). apply idx_opt_ok in El. destruct El as (ci & Ec & El).
  apply rbind_ok in E. destruct E as (law & Ela & E). apply idx_opt_ok in Ela. destruct Ela as (ci' & Ec' & Ela).
  rewrite Ec in *. injection Ec' as <-. destruct law as [l|]; [|discriminate]. destruct b as [s|r]; [|discriminate].
  apply rbind_ok in E. destruct E as ((s1 & ls') & Eu & E). injection E as <- <-.
  exists s, ci, l, ls, s1, ls'. simpl. repeat split; auto.
Qed.
End SF.
