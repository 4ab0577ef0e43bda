(** Property theorems for the place of a simulation (C144): moving grids, points and obstacles by one vector moves the run by that vector. *)
From Coq Require Import List Arith ZArith Reals Bool Lra Lia.
From Verif Require Import Num NumR Linalg Arrays ModelGrid ModelShape ModelMath ModelState ModelLaws ModelForces ModelSDF ModelSolver
  Sums ShapeFacts SpecShape ShapeProofs ShapeProofs2 ShapeProofs3 ResFacts SolverFacts SpecSolver ExSolver P_Solver P_Solver2.
Import ListNotations.
Local Open Scope R_scope.

(** *** the same set-up elsewhere *)
Definition shift_pt (d : vec3 R) (p : Particle R) : Particle R :=
  {| pt_pos := vadd (pt_pos p) d; pt_vel := pt_vel p; pt_mass := pt_mass p; pt_force := pt_force p; pt_vol := pt_vol p; pt_vol0 := pt_vol0 p;
     pt_L := pt_L p; pt_stress := pt_stress p; pt_F := pt_F p; pt_Fst := pt_Fst p |}.
Definition shift_rigid_pt (d : vec3 R) (p : RigidPoint R) : RigidPoint R :=
  {| rp_pos := vadd (rp_pos p) d; rp_mass := rp_mass p; rp_vel := rp_vel p; rp_normal := rp_normal p |}.
Definition shift_soft (d : vec3 R) (s : SoftBody R) : SoftBody R :=
  {| sb_dim := sb_dim s; sb_pts := map (shift_pt d) (sb_pts s); sb_storeF := sb_storeF s; sb_vol0d := sb_vol0d s |}.
Definition shift_body (d : vec3 R) (b : Body R) : Body R :=
  match b with Soft s => Soft (shift_soft d s) | Rigid r => Rigid {| rb_dim := rb_dim r; rb_pts := map (shift_rigid_pt d) (rb_pts r) |} end.
Definition shift_sdf (d : vec3 R) (s : SDFState R) : SDFState R :=
  {| sd_dim := sd_dim s; sd_com := vadd (sd_com s) d; sd_vel := sd_vel s; sd_theta := sd_theta s; sd_omega := sd_omega s; sd_quat := sd_quat s; sd_w := sd_w s |}.
Definition shift_world (d : vec3 R) (w : World R) : World R :=
  {| w_mps := map (shift_body d) (w_mps w); w_sdfs := map (shift_sdf d) (w_sdfs w) |}.
Definition shift_state (d : vec3 R) (st : SimState R) : SimState R :=
  {| s_world := shift_world d (s_world st); s_mech := s_mech st; s_time := s_time st; s_step := s_step st; s_dt := s_dt st |}.
(** an obstacle [l'] that is [l] moved: any objects of the interface *)
Definition carries (d : vec3 R) (l l' : SDFLogic R) : Prop := forall st x dt,
  sl_dist l' (shift_sdf d st) (vadd x d) = sl_dist l st x /\ sl_normal l' (shift_sdf d st) (vadd x d) = sl_normal l st x /\
  sl_velocity l' (shift_sdf d st) (vadd x d) dt = sl_velocity l st x dt /\ sl_friction l' (shift_sdf d st) (vadd x d) = sl_friction l st x /\
  sl_update l' (shift_sdf d st) dt = shift_sdf d (sl_update l st dt).
(** the shapes of the library: only the domain box knows its place itself *)
Definition shift_shape (d : vec3 R) (s : Shape R) : Shape R := match s with Domain lo hi fr => Domain (vadd lo d) (vadd hi d) fr | _ => s end.
Definition shift_solver (d : vec3 R) (S : Solver R) (sdfs : list (SDFLogic R)) : Solver R :=
  {| so_scheme := so_scheme S; so_alpha := so_alpha S; so_domains := map (shift_grid d) (so_domains S); so_couplings := so_couplings S;
     so_laws := so_laws S; so_forces := so_forces S; so_sdfs := sdfs; so_sharp := so_sharp S |}.

(** *** results *)
Definition rlift {A B} (f : A -> B) (r : res A) : res B := match r with Ok a => Ok (f a) | Err e => Err e end.
Lemma rlift_bind {A B C D} (f : A -> B) (g : C -> D) (r : res A) (k : A -> res C) (k' : B -> res D) :
  (forall a, k' (f a) = rlift g (k a)) -> rbind (rlift f r) k' = rlift g (rbind r k).
Proof. intros H. destruct r; cbn; [apply H|reflexivity]. Qed.
Lemma rlift_id {A} (r : res A) : rlift (fun x => x) r = r.
Proof. now destruct r. Qed.
Lemma bind_lift {A C D} (g : C -> D) (r : res A) (k : A -> res C) (k' : A -> res D) :
  (forall a, k' a = rlift g (k a)) -> rbind r k' = rlift g (rbind r k).
Proof. intros H. destruct r; cbn; [apply H|reflexivity]. Qed.
Lemma rfold_lift {A S S'} (h : S -> S') (f : S -> A -> res S) (f' : S' -> A -> res S') l : (forall s x, f' (h s) x = rlift h (f s x)) ->
  forall s, rfold f' (h s) l = rlift h (rfold f s l).
Proof. intros H. induction l as [|x l IH]; intros s; cbn; [reflexivity|]. rewrite H. apply rlift_bind, IH. Qed.
Lemma rfold_ext {A S} (f f' : S -> A -> res S) l : (forall s x, f' s x = f s x) -> forall s, rfold f' s l = rfold f s l.
Proof. intros H. induction l as [|x l IH]; intros s; cbn; [reflexivity|]. rewrite H. destruct (f s x); cbn; auto. Qed.
Lemma rbind_ext {A B} (r : res A) (k k' : A -> res B) : (forall a, k' a = k a) -> rbind r k' = rbind r k.
Proof. intros H. destruct r; cbn; auto. Qed.
Lemma idx_lift {A B} (h : A -> B) l i : idx (map h l) i = rlift h (idx l i).
Proof. unfold idx. rewrite nth_error_map. now destruct (nth_error l i). Qed.
Lemma set_nth_lift {A B} (h : A -> B) i v l : set_nth i (h v) (map h l) = map h (set_nth i v l).
Proof. unfold set_nth. revert i. induction l as [|x l IH]; intros [|i]; cbn; try reflexivity. now rewrite IH. Qed.
Lemma upd_idx_lift {A B} (h : A -> B) l i f f' : (forall a, f' (h a) = rlift h (f a)) -> upd_idx (map h l) i f' = rlift (map h) (upd_idx l i f).
Proof.
  intros H. unfold upd_idx. rewrite idx_lift. apply rlift_bind. intros a. rewrite H. apply rlift_bind. intros b. cbn. now rewrite set_nth_lift.
Qed.
Lemma combine_map_l {A B C} (h : A -> B) (l : list A) (m : list C) : combine (map h l) m = map (fun x => (h (fst x), snd x)) (combine l m).
Proof. revert m. induction l as [|x l IH]; intros [|y m]; cbn; try reflexivity. now rewrite IH. Qed.
Lemma enum_map {A B} (h : A -> B) l : enum (map h l) = map (fun x => (fst x, h (snd x))) (enum l).
Proof.
  unfold enum. rewrite map_length. generalize (seq 0 (length l)) as s. induction l as [|x l IH]; intros [|i s]; cbn; try reflexivity. now rewrite IH.
Qed.
Lemma nth_field {A B} (h : A -> A) (f : A -> B) l i d : (forall a, f (h a) = f a) -> f (nth i (map h l) d) = f (nth i l d).
Proof.
  intros H. destruct (le_lt_dec (length l) i) as [L|L].
  - rewrite !nth_overflow by (rewrite ?map_length; exact L). reflexivity.
  - rewrite (nth_indep _ d (h d)) by (rewrite map_length; exact L). rewrite map_nth. apply H.
Qed.

(** *** the parts of a step *)
Section Shift.
Variable d : vec3 R.
Notation sp := (shift_pt d). Notation sbd := (shift_body d). Notation ss := (shift_soft d).

Lemma sub_shift (x y : vec3 R) : vsub (vadd x d) (vadd y d) = vsub x y.
Proof. apply vec3_eq; unfold vsub, vadd, vmap2; cbn; rnum; ring. Qed.
Lemma add_shift (x y : vec3 R) : vadd (vadd x d) y = vadd (vadd x y) d.
Proof. apply vec3_eq; unfold vadd, vmap2; cbn; rnum; ring. Qed.

Lemma positions_shift b : body_positions (sbd b) = map (fun x => vadd x d) (body_positions b).
Proof. destruct b; cbn; rewrite !map_map; reflexivity. Qed.
Lemma node_positions g : (gd_dim g = D2 -> vz d = 0) -> position_stack (shift_grid d g) = map (fun x => vadd x d) (position_stack g).
Proof.
  intros Hd. unfold position_stack. cbn [shift_grid gd_dim gd_size gd_origin gd_cell]. destruct (gd_dim g).
  - rewrite flat_map_concat_map, flat_map_concat_map, concat_map, map_map. f_equal. apply map_ext. intros i. rewrite map_map. apply map_ext. intros j.
    apply vec3_eq; unfold vadd, vmap2; cbn; rnum; try ring. rewrite (Hd eq_refl). ring.
  - rewrite flat_map_concat_map, flat_map_concat_map, concat_map, map_map. f_equal. apply map_ext. intros i.
    rewrite flat_map_concat_map, flat_map_concat_map, concat_map, map_map. f_equal. apply map_ext. intros j. rewrite map_map. apply map_ext. intros k.
    apply vec3_eq; unfold vadd, vmap2; cbn; rnum; ring.
Qed.

Section Setup.
Variable S : Solver R.
Variable sdfs : list (SDFLogic R).
Hypothesis HS : Forall2 (carries d) (so_sdfs S) sdfs.
Hypothesis HG : forall g, In g (so_domains S) -> gd_dim g = D2 -> vz d = 0.
Notation S' := (shift_solver d S sdfs).

Lemma kinematic_shift w dt : kinematic_update S' (shift_world d w) dt = rlift (shift_world d) (kinematic_update S w dt).
Proof.
  unfold kinematic_update. cbn [shift_solver so_sdfs].
  assert (E : forall s l l', Forall2 (carries d) l l' ->
    rmap (fun i_s => rbind (idx (w_sdfs (shift_world d w)) (fst i_s)) (fun st => Ok (sl_update (snd i_s) st dt))) (combine (seq s (length l')) l') =
    rlift (map (shift_sdf d)) (rmap (fun i_s => rbind (idx (w_sdfs w) (fst i_s)) (fun st => Ok (sl_update (snd i_s) st dt))) (combine (seq s (length l)) l))).
  { intros s l l' F. revert s. induction F as [|a b l l' H F IH]; intros s; [reflexivity|]. cbn [length seq combine rmap fst snd].
    change (w_sdfs (shift_world d w)) with (map (shift_sdf d) (w_sdfs w)) at 1. rewrite idx_lift. destruct (idx (w_sdfs w) s) as [st|e]; cbn [rlift rbind]; [|reflexivity].
    rewrite IH. destruct (rmap _ (combine (seq (Datatypes.S s) (length l)) l)); cbn; [|reflexivity]. do 2 f_equal. apply (H st vzero dt). }
  unfold enum. rewrite (E 0%nat (so_sdfs S) sdfs HS). apply rlift_bind. intros l. reflexivity.
Qed.
Lemma reset_shift cs w : reset_material_points cs (shift_world d w) = rlift (shift_world d) (reset_material_points cs w).
Proof.
  unfold reset_material_points. cbn [shift_world w_mps]. rewrite (rfold_lift (map sbd) (fun l c => upd_idx l (c_p c) (fun b => Ok (reset_body b)))).
  - apply rlift_bind. intros l. reflexivity.
  - intros l c. apply upd_idx_lift. intros [s|r]; cbn; [|reflexivity]. unfold shift_soft, set_pts. cbn [pt_pos pt_vel pt_mass pt_force pt_vol pt_vol0 pt_L pt_stress pt_F pt_Fst sb_dim sb_pts sb_storeF sb_vol0d]. now rewrite !map_map.
Qed.
Lemma connectivity_shift w : compute_connectivity S' (shift_world d w) = compute_connectivity S w.
Proof.
  unfold compute_connectivity. cbn [shift_solver so_couplings so_domains]. apply rfold_ext. intros dd c. cbn [shift_world w_mps]. rewrite !idx_lift.
  destruct (idx (w_mps w) (c_p c)) as [b|]; cbn [rlift rbind]; [|reflexivity]. destruct (idx (so_domains S) (c_g c)) as [g|]; cbn [rlift rbind]; [|reflexivity].
  replace (body_dim (sbd b)) with (body_dim b) by (now destruct b). cbn [shift_grid gd_dim]. rewrite positions_shift, translation. reflexivity.
Qed.
Lemma mask_shift {A} (l : list A) (f g : A -> R) (h : A -> A) : map (fun im => h (fst im)) (combine l (map f l)) = map (fun im => h (fst im)) (combine l (map g l)).
Proof. induction l as [|x l IH]; cbn; [reflexivity|]. now rewrite IH. Qed.
Lemma correction_shift w it : sdf_correction S' (shift_world d w) it = sdf_correction S w it.
Proof.
  unfold sdf_correction. cbn [shift_solver so_sdfs so_couplings so_domains]. inversion HS as [E1 E2|a b l l' H F E1 E2]; [reflexivity|].
  apply rfold_ext. intros dd c. apply rbind_ext. intros l0. cbn [shift_world w_mps]. rewrite !idx_lift.
  destruct (idx (w_mps w) (c_p c)) as [bd|]; cbn [rlift rbind]; [|reflexivity]. destruct (idx (so_domains S) (c_g c)) as [g|]; cbn [rlift rbind]; [|reflexivity].
  assert (N : num_points (sbd bd) = num_points bd) by (unfold num_points; rewrite positions_shift; apply map_length).
  rewrite N. destruct (Nat.eqb (num_points bd) 0); [reflexivity|]. do 2 f_equal. apply mask_shift.
Qed.
Lemma combine_shift {A} (f : SDFLogic R * SDFState R -> A) f' : (forall l l' s, carries d l l' -> f' (l', shift_sdf d s) = f (l, s)) ->
  forall ss, map f' (combine sdfs (map (shift_sdf d) ss)) = map f (combine (so_sdfs S) ss).
Proof.
  intros H. assert (G : forall l l', Forall2 (carries d) l l' -> forall ss0, map f' (combine l' (map (shift_sdf d) ss0)) = map f (combine l ss0)).
  { intros l l' F. induction F as [|a b l l' Hc F IH]; intros [|s ss0]; cbn; try reflexivity. f_equal; [now apply H|apply IH]. }
  apply G, HS.
Qed.
Lemma geom_shift sub dt l l' s x : carries d l l' -> geom_at sub dt (l', shift_sdf d s) (vadd x d) = geom_at sub dt (l, s) x.
Proof. intros H. destruct (H s x dt) as (A & B & C & D & _). unfold geom_at. cbn [fst snd]. now rewrite A, B, C, D. Qed.
Lemma particle_geoms w dt : particle_sdfs S' (shift_world d w) dt = particle_sdfs S w dt.
Proof.
  unfold particle_sdfs. cbn [shift_world w_mps w_sdfs shift_solver so_sdfs]. rewrite map_map. apply map_ext. intros b. apply combine_shift. intros l l' s H.
  rewrite positions_shift, map_map. apply map_ext. intros x. now apply geom_shift.
Qed.
Lemma node_geoms w dt : node_sdfs S' (shift_world d w) dt = node_sdfs S w dt.
Proof.
  unfold node_sdfs. cbn [shift_world w_sdfs shift_solver so_sdfs so_domains]. rewrite map_map. apply map_ext_in. intros g Hg. apply combine_shift. intros l l' s H.
  rewrite node_positions by (apply HG; exact Hg). rewrite map_map. apply map_ext. intros x. cbn [shift_grid gd_cell]. now apply geom_shift.
Qed.
Lemma prepare_shift st : prepare S' (shift_state d st) = rlift (fun wc => (shift_world d (fst wc), snd wc)) (prepare S st).
Proof.
  unfold prepare. cbn [shift_state s_dt s_world]. rewrite kinematic_shift. apply rlift_bind. intros w. rewrite reset_shift. apply rlift_bind. intros w2.
  rewrite connectivity_shift. apply bind_lift. intros it. rewrite correction_shift. apply bind_lift. intros it'. cbn [rlift fst snd].
  rewrite particle_geoms, node_geoms. cbn [shift_solver so_domains]. rewrite map_map. reflexivity.
Qed.

Lemma pre_shift f w m : apply_pre_p2g f (shift_world d w) m = rlift (shift_world d) (apply_pre_p2g f w m).
Proof.
  destruct f as [g|g|c|c]; cbn [apply_pre_p2g]; try reflexivity.
  - destruct (gv_on_grid g); [reflexivity|]. apply bind_lift. intros fs. apply rfold_lift. intros w0 p. cbn [shift_world w_mps]. rewrite idx_lift.
    destruct (idx (w_mps w0) p); cbn [rlift rbind]; [|reflexivity]. destruct (gravity_of fs); reflexivity.
  - destruct (dm_on_grid g); [reflexivity|]. apply bind_lift. intros fs. cbn [shift_world w_mps].
    set (F := fun (l : list (Body R)) p => upd_idx l p _). rewrite (rfold_lift (map sbd) F F); [apply rlift_bind; reflexivity|].
    intros l p. apply upd_idx_lift. intros [s|r]; [|reflexivity]. cbn [shift_body]. destruct (alpha_of fs); [|reflexivity]. cbn. unfold shift_soft. cbn. now rewrite !map_map.
Qed.
Lemma soft_shift b : soft_of (sbd b) = rlift ss (soft_of b).
Proof. destruct b as [s|r]; [|reflexivity]. cbn. now destruct (sb_vol0d s). Qed.
Lemma p2g_with_shift it pts vel vel' g : (forall i, vel' i = vel i) -> p2g_with it (map sp pts) vel' g = p2g_with it pts vel g.
Proof.
  intros V. assert (M : forall i, pt_mass (point_of (map sp pts) i) = pt_mass (point_of pts i)) by (intros i; apply (nth_field sp pt_mass); reflexivity).
  unfold p2g_with. f_equal; f_equal; apply map_ext; intros i.
  - now rewrite M.
  - now rewrite M, V.
  - unfold on_node, p2g_force. cbv zeta. unfold point_of. 
    rewrite (nth_field sp pt_vol), (nth_field sp pt_stress), (nth_field sp pt_force) by reflexivity. reflexivity.
Qed.
Lemma p2g_shift w m ca : p2g S' (shift_world d w) m ca = rlift (fun wc => (shift_world d (fst wc), snd wc)) (p2g S w m ca).
Proof.
  unfold p2g. cbn [shift_solver so_forces so_couplings]. rewrite (rfold_lift (shift_world d) (fun w f => apply_pre_p2g f w m)) by (intros; apply pre_shift).
  apply rlift_bind. intros w'. 
  rewrite (rfold_ext (p2g_coupling S w' m (sc_inter ca))); [apply bind_lift; reflexivity|].
  intros gs c. unfold p2g_coupling. destruct (c_skip c); [reflexivity|]. cbn [shift_world w_mps]. rewrite idx_lift.
  destruct (idx (w_mps w') (c_p c)) as [b|]; cbn [rlift rbind]; [|reflexivity]. unfold upd_idx. apply rbind_ext. intros g. f_equal. apply rbind_ext. intros it.
  cbn [shift_solver so_scheme so_domains]. destruct (so_scheme S) as [|a].
  - rewrite soft_shift. destruct (soft_of b) as [s|]; cbn [rlift rbind]; [|reflexivity]. f_equal. unfold p2g_usl. cbn [shift_soft sb_pts]. apply p2g_with_shift.
    intros i. apply (nth_field sp pt_vel). reflexivity.
  - rewrite idx_lift. destruct (idx (so_domains S) (c_g c)) as [gd|]; cbn [rlift rbind]; [|reflexivity]. apply rbind_ext. intros sst. rewrite soft_shift.
    destruct (soft_of b) as [s|]; cbn [rlift rbind]; [|reflexivity]. apply rbind_ext. intros Bp. f_equal. unfold p2g_aflip. cbn [shift_soft sb_pts shift_grid gd_cell gd_dim].
    apply p2g_with_shift. intros i. f_equal. apply (nth_field sp pt_vel). reflexivity.
Qed.
Lemma idx_forall2 {A B} (Q : A -> B -> Prop) l l' i : Forall2 Q l l' -> (exists a b, idx l i = Ok a /\ idx l' i = Ok b /\ Q a b) \/ (idx l i = Err IndexError /\ idx l' i = Err IndexError).
Proof.
  intros F. revert i. induction F as [|a b l l' H F IH]; intros [|i]; [right; split; reflexivity|right; split; reflexivity|left; exists a, b; repeat split; assumption|].
  unfold idx. cbn [nth_error]. apply IH.
Qed.
Lemma integrate_shift w m dt ca : integrate_grid S' (shift_world d w) m dt ca = integrate_grid S w m dt ca.
Proof.
  unfold integrate_grid. cbn [shift_solver so_forces so_couplings so_sdfs so_domains]. apply rbind_ext. intros gs1. apply rbind_ext. intros gs2. f_equal.
  apply rfold_ext. intros gs f. destruct f as [g|g|c|c]; try reflexivity. cbn [apply_grid_moments]. destruct (cl_sdf c) as [s|]; [|reflexivity].
  destruct (idx_forall2 _ _ _ s HS) as [(a & b & -> & -> & _)|[-> ->]]; [|reflexivity]. cbn [rbind]. cbn [shift_world w_sdfs]. rewrite idx_lift.
  destruct (idx (w_sdfs w) s); cbn [rlift rbind]; [|reflexivity]. apply rfold_ext. intros l i. rewrite idx_lift. destruct (idx (so_domains S) i); reflexivity.
Qed.
Lemma blend_shift geos pts it v : blend geos (map sp pts) it v = blend geos pts it v.
Proof.
  unfold blend. destruct geos; [reflexivity|]. f_equal. f_equal. unfold ghost_of. destruct (closest _); [|reflexivity]. unfold point_of.
  now rewrite (nth_field sp pt_vel) by reflexivity.
Qed.
Lemma to_points_ext {A} (z : A) add n (it : list (Interaction R)) f f' : (forall i, f' i = f i) -> to_points z add n it f' = to_points z add n it f.
Proof. intros H. unfold to_points. f_equal. apply map_ext. intros i. now rewrite H. Qed.
Lemma g2p_usl_shift alpha dt geos it g pts : g2p_usl alpha dt geos it g (map sp pts) = map sp (g2p_usl alpha dt geos it g pts).
Proof.
  unfold g2p_usl. cbv zeta. rewrite map_length, enum_map, !map_map. apply map_ext. intros [i p]. cbn [fst snd].
  set (v := fun it0 => blend geos pts it0 (node_vel (lit 1 (10 ^ 12)) (gr_dim g) g (gr_mom g) it0)).
  set (u := fun it0 => blend geos pts it0 (node_vel (lit 1 (10 ^ 12)) (gr_dim g) g (gr_mom_nt g) it0)).
  set (v' := fun it0 => blend geos (map sp pts) it0 (node_vel (lit 1 (10 ^ 12)) (gr_dim g) g (gr_mom g) it0)).
  set (u' := fun it0 => blend geos (map sp pts) it0 (node_vel (lit 1 (10 ^ 12)) (gr_dim g) g (gr_mom_nt g) it0)).
  assert (Ev : forall i, v' i = v i) by (intros; apply blend_shift). assert (Eu : forall i, u' i = u i) by (intros; apply blend_shift).
  rewrite (to_points_ext vzero vadd _ it (fun i => vscale (it_val i) (vsub (u i) (v i))) (fun i => vscale (it_val i) (vsub (u' i) (v' i)))) by (intros; now rewrite Eu, Ev).
  rewrite (to_points_ext vzero vadd _ it (fun i => vscale (it_val i) (u i)) (fun i => vscale (it_val i) (u' i))) by (intros; now rewrite Eu).
  rewrite (to_points_ext mzero madd _ it (fun i => outer (it_grad i) (vopp (u i))) (fun i => outer (it_grad i) (vopp (u' i)))) by (intros; now rewrite Eu).
  unfold usl_update, g2p_point, shift_pt. cbn [pt_pos pt_vel pt_mass pt_force pt_vol pt_vol0 pt_L pt_stress pt_F pt_Fst sb_dim sb_pts sb_storeF sb_vol0d]. f_equal. apply add_shift.
Qed.
Lemma g2p_aflip_shift a alpha dt gd sF it g pts : g2p_aflip a alpha dt (shift_grid d gd) sF it g (map sp pts) =
  (map sp (fst (g2p_aflip a alpha dt gd sF it g pts)), snd (g2p_aflip a alpha dt gd sF it g pts)).
Proof.
  unfold g2p_aflip. cbv zeta. cbn [fst snd]. rewrite map_length, enum_map, !map_map. f_equal. apply map_ext. intros [i p]. cbn [fst snd shift_grid gd_cell].
  unfold aflip_update, g2p_point, shift_pt. cbn [pt_pos pt_vel pt_mass pt_force pt_vol pt_vol0 pt_L pt_stress pt_F pt_Fst sb_dim sb_pts sb_storeF sb_vol0d]. f_equal. apply add_shift.
Qed.
Definition lift_wm (wm : World R * Mechanics R) : World R * Mechanics R := (shift_world d (fst wm), snd wm).
Lemma set_shift w i b : set_mps (shift_world d w) (set_nth i (sbd b) (map sbd (w_mps w))) = shift_world d (set_mps w (set_nth i b (w_mps w))).
Proof. unfold set_mps, shift_world. cbn. now rewrite set_nth_lift. Qed.
Lemma after_shift s pts : Soft (after_g2p (ss s) (map sp pts)) = sbd (Soft (after_g2p s pts)).
Proof. unfold after_g2p, shift_soft. cbn. now rewrite map_length. Qed.
Lemma g2p_shift w m dt ca : g2p S' (shift_world d w) m dt ca = rlift lift_wm (g2p S w m dt ca).
Proof.
  unfold g2p. cbn [shift_solver so_couplings]. change (shift_world d w, m) with (lift_wm (w, m)). apply rfold_lift. clear w m. intros [w m] c.
  unfold g2p_coupling. cbn [lift_wm fst snd]. destruct (c_skip c); [reflexivity|]. apply bind_lift. intros g. apply bind_lift. intros it. cbn [shift_world w_mps].
  rewrite idx_lift. apply rlift_bind. intros [s|r]; [|reflexivity]. cbn [shift_body shift_solver so_scheme so_alpha so_domains]. destruct (so_scheme S) as [|a].
  - apply bind_lift. intros [|ge geos].
    + cbn [shift_soft sb_pts]. rewrite g2p_usl_shift. fold (ss s). rewrite after_shift. rewrite set_shift. reflexivity.
    + cbn [shift_soft sb_pts]. rewrite map_length. destruct (Nat.eqb _ 1); [reflexivity|]. rewrite g2p_usl_shift. fold (ss s). rewrite after_shift, set_shift. reflexivity.
  - rewrite idx_lift. apply rlift_bind. intros gd. apply bind_lift. intros sst. destruct (af_mls a); [|reflexivity]. apply bind_lift. intros Bp. cbv zeta.
    cbn [shift_soft sb_pts sb_storeF]. rewrite g2p_aflip_shift. cbn [fst snd]. fold (ss s). rewrite after_shift, set_shift. reflexivity.
Qed.
End Setup.

(** no law looks at positions *)
Lemma law_shift l s ls dt : law_update l (ss s) ls dt = rlift (fun r => (ss (fst r), snd r)) (law_update l s ls dt).
Proof.
  assert (SP : forall (r : list (Particle R)), set_pts (ss s) (map sp r) = ss (set_pts s r)) by reflexivity.
  destruct l as [m|m|m|m|m]; cbn [law_update]; cbv zeta; cbn [shift_soft sb_pts sb_vol0d].
  - cbn [rlift fst snd]. rewrite map_map. do 2 f_equal. unfold shift_soft, set_pts. cbn [pt_pos pt_vel pt_mass pt_force pt_vol pt_vol0 pt_L pt_stress pt_F pt_Fst sb_dim sb_pts sb_storeF sb_vol0d]. now rewrite !map_map.
  - destruct ls as [[| r | |]|]; try reflexivity. rewrite map_length. destruct (_ || _)%bool; [reflexivity|]. cbn [rlift fst snd]. do 2 f_equal.
    unfold shift_soft, set_pts. cbn [pt_pos pt_vel pt_mass pt_force pt_vol pt_vol0 pt_L pt_stress pt_F pt_Fst sb_dim sb_pts sb_storeF sb_vol0d]. f_equal. rewrite combine_map_l, !map_map. reflexivity.
  - destruct ls as [[| r | |]|]; try reflexivity. rewrite map_length. destruct (_ || _)%bool; [reflexivity|]. cbn [rlift fst snd]. do 2 f_equal.
    unfold shift_soft, set_pts. cbn [pt_pos pt_vel pt_mass pt_force pt_vol pt_vol0 pt_L pt_stress pt_F pt_Fst sb_dim sb_pts sb_storeF sb_vol0d]. f_equal. rewrite combine_map_l, !map_map. reflexivity.
  - destruct ls as [[| | ds |]|]; try reflexivity. rewrite map_length. destruct (negb _); [reflexivity|]. cbn [rlift fst snd].
    rewrite (combine_map_l sp (sb_pts s) ds), map_map. cbn [fst snd]. f_equal. f_equal.
    unfold shift_soft, set_pts. cbn [pt_pos pt_vel pt_mass pt_force pt_vol pt_vol0 pt_L pt_stress pt_F pt_Fst sb_dim sb_pts sb_storeF sb_vol0d]. f_equal. rewrite combine_map_l, !map_map. reflexivity.
  - destruct ls as [[| | | pc [sref|] ee]|]; try reflexivity. rewrite map_length. destruct (negb _); [reflexivity|]. cbn [rlift fst snd].
    set (rs := map _ (seq 0 (length (sb_pts s)))). set (rs' := map _ (seq 0 (length (sb_pts s)))).
    assert (E : rs = rs').
    { unfold rs, rs'. apply map_ext. intros i. unfold density. rewrite (nth_field sp pt_L), (nth_field sp pt_stress), (nth_field sp pt_mass), (nth_field sp pt_vol) by reflexivity. reflexivity. }
    rewrite E. f_equal. f_equal. unfold shift_soft, set_pts. cbn [pt_pos pt_vel pt_mass pt_force pt_vol pt_vol0 pt_L pt_stress pt_F pt_Fst sb_dim sb_pts sb_storeF sb_vol0d]. f_equal. rewrite combine_map_l, !map_map. reflexivity.
Qed.
Lemma shear_shift r s : remove_accumulated_shear r (ss s) = ss (remove_accumulated_shear r s).
Proof. destruct r; [|reflexivity]. cbn. unfold shift_soft, set_pts. cbn [pt_pos pt_vel pt_mass pt_force pt_vol pt_vol0 pt_L pt_stress pt_F pt_Fst sb_dim sb_pts sb_storeF sb_vol0d]. rewrite !map_map. reflexivity. Qed.
Lemma constitutive_shift S sdfs dt w m : constitutive_update (shift_solver d S sdfs) dt (shift_world d w) m = rlift lift_wm (constitutive_update S dt w m).
Proof.
  unfold constitutive_update. cbn [shift_solver so_couplings]. change (shift_world d w, m) with (lift_wm (w, m)). apply rfold_lift. clear w m. intros [w m] c.
  unfold constitutive_coupling. cbn [lift_wm fst snd]. destruct (c_skip c); [reflexivity|]. cbn [shift_world w_mps]. rewrite idx_lift. apply rlift_bind. intros b.
  apply bind_lift. intros ls. cbn [shift_solver so_laws]. apply bind_lift. intros [l|]; [|reflexivity]. destruct b as [s|r]; [|reflexivity]. cbn [shift_body].
  destruct (c_c c) as [ci|]; [|reflexivity]. rewrite law_shift. apply rlift_bind. intros [s' ls']. cbn [fst snd rlift]. rewrite shear_shift.
  change (Soft (ss (remove_accumulated_shear (law_reset l) s'))) with (sbd (Soft (remove_accumulated_shear (law_reset l) s'))). rewrite set_shift. reflexivity.
Qed.
End Shift.

(** ** C144: a step of the moved set-up is the moved step; both fail together.  Any law, force, solver and obstacles. *)
Theorem C144_step : forall d (S : Solver R) sdfs st, Forall2 (carries d) (so_sdfs S) sdfs -> (forall g, In g (so_domains S) -> gd_dim g = D2 -> vz d = 0) ->
  solver_step (shift_solver d S sdfs) (shift_state d st) = rlift (shift_state d) (solver_step S st).
Proof.
  intros d S sdfs st HS HG. unfold solver_step. rewrite prepare_shift by assumption. apply rlift_bind. intros [w ca]. cbn [fst snd shift_state s_mech s_dt].
  rewrite p2g_shift by assumption. apply rlift_bind. intros [w2 ca2]. cbn [fst snd]. rewrite integrate_shift by assumption. apply bind_lift. intros ca3.
  rewrite g2p_shift by assumption. apply rlift_bind. intros [w3 m3]. cbn [fst snd lift_wm]. rewrite constitutive_shift. apply rlift_bind. intros [w4 m4]. reflexivity.
Qed.
Print Assumptions C144_step.
Theorem C144_run : forall d (S : Solver R) sdfs n st, Forall2 (carries d) (so_sdfs S) sdfs -> (forall g, In g (so_domains S) -> gd_dim g = D2 -> vz d = 0) ->
  solver_steps (shift_solver d S sdfs) n (shift_state d st) = rlift (shift_state d) (solver_steps S n st).
Proof.
  intros d S sdfs n st HS HG. revert st. induction n as [|n IH]; intros st; [reflexivity|]. cbn [solver_steps]. rewrite C144_step by assumption. apply rlift_bind. exact IH.
Qed.
Print Assumptions C144_run.
(** every obstacle of the library can be moved: by its centre, the domain box by its corners *)
Theorem C144_obstacles : forall d s, carries d (logic_of s) (logic_of (shift_shape d s)).
Proof.
  intros d s st x dt. assert (TL : to_local (shift_sdf d st) (vadd x d) = to_local st x) by (unfold to_local; cbn [shift_sdf sd_com sd_dim sd_theta sd_quat]; now rewrite sub_shift).
  assert (V : get_velocity (shift_sdf d st) (vadd x d) = get_velocity st x) by (unfold get_velocity; cbn [shift_sdf sd_com sd_dim sd_vel sd_omega sd_w]; now rewrite sub_shift).
  assert (W : forall dm lo hi, walls dm (vadd lo d) (vadd hi d) (vadd x d) = walls dm lo hi x) by (intros; unfold walls; now rewrite !sub_shift).
  destruct s as [h|r|n|r hh|h ro ri ring|r hh|R0 r|l fr|lo hi fr]; cbn [logic_of shift_shape sl_dist sl_normal sl_velocity sl_friction sl_update];
    unfold signed_distance, get_normal, surface_friction, update_kinematics, local_of; cbn [dist_local]; rewrite ?TL, ?V.
  all: repeat split; try (unfold shift_sdf; cbn; f_equal; apply add_shift); try reflexivity.
  all: cbn [shift_sdf sd_com sd_dim]; unfold domain_normal; rewrite ?sub_shift, ?W; reflexivity.
Qed.
Print Assumptions C144_obstacles.
(** two bodies between the walls of a box and next to a ball, moved by (3, -2) *)
Example C144_case : let d := V3 3 (-2) 0 in let shapes := [Domain (V3 0 0 0) (V3 8 8 0) (repeat 1 4); Sphere 1] in
  let S := with_sdfs (solverR USL (1/2) 1) (map logic_of shapes) 40 in let st := with_sdf_states (stateR [two va vb sg] mzero (1/10)) [sdf0; sdf0] in
  Forall2 (carries d) (so_sdfs S) (map (fun s => logic_of (shift_shape d s)) shapes) /\ (forall g, In g (so_domains S) -> gd_dim g = D2 -> vz d = 0) /\
  exists st', solver_steps S 1 st = Ok st'.
Proof.
  intros d shapes S st. split; [apply Forall2_cons; [apply C144_obstacles|]; apply Forall2_cons; [apply C144_obstacles|]; apply Forall2_nil|]. split; [intros; reflexivity|].
  assert (X : exists st', solver_step S st = Ok st') by (eexists; reflexivity). destruct X as (st' & X). exists st'. cbn [solver_steps]. rewrite X. reflexivity.
Qed.
