(** Property theorems C141: obstacles the solver knows about. *)
From Coq Require Import List Arith ZArith Reals Bool Lra Lia.
From Verif Require Import Num NumR Linalg Arrays ModelGrid ModelShape ModelMath ModelState ModelLaws ModelForces ModelSolver
  Sums ShapeFacts SpecShape ShapeProofs ResFacts SolverFacts SpecSolver SolverMore P_Shape ExSolver P_Solver P_Solver2.
Import ListNotations.
Local Open Scope R_scope.

(** *** the closest obstacle *)
Theorem C141_closest : forall (gs : list (Geom R)),
  match closest gs with
  | None => gs = []
  | Some g => exists l r, gs = l ++ g :: r /\ (forall h, In h l -> gm_dist g < gm_dist h) /\ (forall h, In h r -> gm_dist g <= gm_dist h)
  end.
Proof.
  induction gs as [|g gs IH]; [reflexivity|]. cbn [closest]. destruct (closest gs) as [h|].
  - destruct IH as (l & r & -> & A & B). destruct (gm_dist h <? gm_dist g)%num eqn:E.
    + apply (proj1 (Rltb_true _ _)) in E. exists (g :: l), r. split; [reflexivity|]. split; [|exact B]. intros x [<-|X]; [exact E|apply A, X].
    + apply (proj1 (Rltb_false _ _)) in E. exists [], (l ++ h :: r). split; [reflexivity|]. split; [intros x []|].
      intros x X. apply in_app_or in X. destruct X as [X|[<-|X]]; [pose proof (A x X); lra|exact E|pose proof (B x X); lra].
  - subst gs. exists [], []. split; [reflexivity|]. split; intros x [].
Qed.

(** *** the ghost velocity *)
Definition square (a : vec3 R) : R := vdot a a.
(** relative to the wall the ghost never moves into it, keeps what was already leaving, keeps the tangential part and is never faster *)
Theorem C141_ghost : forall (v : vec3 R) (ge : Geom R), square (gm_normal ge) = 1 ->
  let n := gm_normal ge in let u := vsub v (gm_vel ge) in let u' := vsub (ghost v ge) (gm_vel ge) in
  vdot u' n = Rmax 0 (vdot u n) /\
  (forall t, vdot t n = 0 -> vdot u' t = vdot u t) /\
  (0 <= vdot u n -> u' = u) /\
  square u' <= square u.
Proof.
  intros [a b c] [ds [nx ny nz] [wx wy wz] fr] N. unfold square, ghost, vdot, vsub, vadd, vscale, vmap, vmap2 in *. cbn [vx vy vz gm_normal gm_vel] in *.
  rewrite nmin_R. rnum. cbn [vx vy vz] in *.
  set (q := (a - wx) * nx + (b - wy) * ny + (c - wz) * nz) in *.
  assert (Q : Rmin 0 q = q /\ q <= 0 \/ Rmin 0 q = 0 /\ 0 <= q) by (unfold Rmin; destruct (Rle_dec 0 q); [right|left]; lra).
  destruct Q as [[-> Q]|[-> Q]].
  - split; [|split; [|split]].
    + rewrite Rmax_left by exact Q. transitivity (q - q * (nx * nx + ny * ny + nz * nz)); [unfold q; ring|]. rewrite N. ring.
    + intros [tx ty tz]. cbn [vx vy vz]. intros Ht. transitivity (((a - wx) * tx + (b - wy) * ty + (c - wz) * tz) - q * (tx * nx + ty * ny + tz * nz)); [ring|].
      rewrite Ht. ring.
    + intros Q'. assert (q = 0) by lra. rewrite H. apply vec3_eq; cbn [vx vy vz]; ring.
    + apply Rle_trans with ((a - wx) * (a - wx) + (b - wy) * (b - wy) + (c - wz) * (c - wz) - q * q).
      * right. transitivity (((a - wx) * (a - wx) + (b - wy) * (b - wy) + (c - wz) * (c - wz)) - 2 * q * q + q * q * (nx * nx + ny * ny + nz * nz)).
        -- unfold q. ring.
        -- rewrite N. ring.
      * pose proof (Rle_0_sqr q) as Z. unfold Rsqr in Z. lra.
  - split; [|split; [|split]].
    + rewrite Rmax_right by exact Q. unfold q. ring.
    + intros [tx ty tz] _. cbn [vx vy vz]. ring.
    + intros _. apply vec3_eq; cbn [vx vy vz]; ring.
    + right. ring.
Qed.

(** *** the midpoint *)
Theorem C141_midpoint : forall (g : GridDomain R) k xs it (x : vec3 R), wf_sizes g -> (gd_dim g = D2 -> vz (gd_origin g) = 0) ->
  In it (compute_on k g xs) ->
  let y := nth (Z.to_nat (it_hash it)) (position_stack g) vzero in
  vsub (midpoint g x it) x = vsub y (midpoint g x it).
Proof.
  intros g k xs it x W Oz Hin y. pose proof (compute_in_range k g xs it W Hin) as (Hh & _).
  assert (Hz := wf_z g W). rewrite num_cells_prod in Hh by exact W.
  assert (Hxy : (1 <= vx (gd_size g) /\ 1 <= vy (gd_size g))%Z) by (destruct W as (A & B & _); destruct (gd_dim g); lia).
  destruct (ravel_unravel (gd_size g) (it_hash it) (proj1 Hxy) (proj2 Hxy) Hz Hh) as (Nin & Rv).
  assert (Y : y = mesh_pos g (ShapeProofs.unravel (gd_size g) (it_hash it))).
  { unfold y. rewrite <- Rv at 1. apply position_stack_nth; assumption. }
  assert (U : ModelSolver.unravel (gd_size g) (it_hash it) = ShapeProofs.unravel (gd_size g) (it_hash it)).
  { unfold ModelSolver.unravel, ShapeProofs.unravel. f_equal. rewrite Z.div_div by lia. f_equal. ring. }
  assert (Z0 : gd_dim g = D2 -> vz (ShapeProofs.unravel (gd_size g) (it_hash it)) = 0%Z).
  { intros E. destruct W as (_ & _ & W3). rewrite E in W3. unfold ShapeProofs.unravel. cbn [vz]. rewrite W3. apply Z.mod_1_r. }
  rewrite Y. unfold midpoint. rewrite U. cbv zeta. unfold mesh_pos, vadd, vsub, vscale, vmap, vmap2, lit. cbn [vx vy vz]. rnum. cbn [vx vy vz].
  destruct (gd_dim g).
  - rewrite (Z0 eq_refl), (Oz eq_refl). apply vec3_eq; cbn [vx vy vz]; field.
  - apply vec3_eq; cbn [vx vy vz]; field.
Qed.

(** *** the mask of an interaction *)
(** distance to the nearest obstacle *)
Definition nearest (S : Solver R) (w : World R) (y : vec3 R) : R :=
  match map (fun l => sl_dist (fst l) (snd l) y) (combine (so_sdfs S) (w_sdfs w)) with
  | [] => 0
  | d :: r => fold_left Rmin r d
  end.
Lemma sigmoid_mono (a b : R) : a <= b -> sigmoid a <= sigmoid b.
Proof.
  intros H. rewrite !sigmoid_R. unfold Rdiv. rewrite !Rmult_1_l. apply Rinv_le_contravar.
  - pose proof (exp_pos (- b)). lra.
  - destruct H as [H|<-]; [|lra]. pose proof (exp_increasing (- b) (- a) ltac:(lra)). lra.
Qed.
Lemma sigmoid_max (a b : R) : Rmax (sigmoid a) (sigmoid b) = sigmoid (Rmax a b).
Proof.
  unfold Rmax at 2. destruct (Rle_dec a b) as [H|H]; [apply Rmax_right, sigmoid_mono, H|apply Rmax_left, sigmoid_mono; lra].
Qed.
Lemma min_shift (a b c s : R) : 0 <= s -> Rmax (- (a - c) * s) (- (b - c) * s) = - (Rmin a b - c) * s.
Proof.
  intros H. unfold Rmin. destruct (Rle_dec a b); [rewrite Rmax_left|rewrite Rmax_right]; try reflexivity; nra.
Qed.
Lemma union_mask_min (s c : R) : 0 <= s -> forall (r : list R) (d : R),
  union_mask s (map (fun x => x - c) (d :: r)) = sigmoid (- (fold_left Rmin r d - c) * s).
Proof.
  intros Hs r d. unfold union_mask. cbn [map fold_left]. rewrite nmax_R. rnum.
  change (fold_left (fun a x : R => nmax a (sigmoid (- x * s)%num)) (map (fun x => x - c) r) (Rmax 0 (sigmoid (- (d - c) * s)))
          = sigmoid (- (fold_left Rmin r d - c) * s)).
  rewrite Rmax_right by (pose proof (sigmoid_01 (- (d - c) * s)); lra).
  revert d. induction r as [|e r IH]; intros d; [reflexivity|]. cbn [map fold_left]. rewrite nmax_R. rnum.
  change (fold_left (fun a x : R => nmax a (sigmoid (- x * s)%num)) (map (fun x => x - c) r)
            (Rmax (sigmoid (- (d - c) * s)) (sigmoid (- (e - c) * s))) = sigmoid (- (fold_left Rmin r (Rmin d e) - c) * s)).
  rewrite sigmoid_max, min_shift by exact Hs. apply IH.
Qed.
Lemma at_nearest (S : Solver R) w (c : R) y : 0 <= so_sharp S -> combine (so_sdfs S) (w_sdfs w) <> [] ->
  union_mask (so_sharp S) (map (fun l => sl_dist (fst l) (snd l) y - c) (combine (so_sdfs S) (w_sdfs w)))
  = sigmoid (- (nearest S w y - c) * so_sharp S).
Proof.
  intros Hs Hn. unfold nearest. destruct (combine (so_sdfs S) (w_sdfs w)) as [|l ls]; [destruct (Hn eq_refl)|].
  etransitivity; [|exact (union_mask_min (so_sharp S) c Hs _ _)]. f_equal. rewrite <- (map_map (fun l => sl_dist (fst l) (snd l) y) (fun x => x - c)). reflexivity.
Qed.

(** The mask the code computes.  A node counts as inside up to one cell away from the obstacle. *)
Theorem C141_mask : forall (S : Solver R) w g x it, 0 <= so_sharp S -> combine (so_sdfs S) (w_sdfs w) <> [] ->
  let k := so_sharp S in let h := gd_cell g in
  let node := nth (Z.to_nat (it_hash it)) (position_stack g) vzero in
  compatible S w g x it
  = 1 - 1 / (1 + exp (- (k * nearest S w x)))
      * (1 / (1 + exp (- (k * Rmax (h - nearest S w node) (- nearest S w (midpoint g x it)))))).
Proof.
  intros S w g x it Hs Hn k h node.
  pose proof (at_nearest S w 0 x Hs Hn) as A1. pose proof (at_nearest S w (h * 1) node Hs Hn) as A2.
  pose proof (at_nearest S w 0 (midpoint g x it) Hs Hn) as A3.
  assert (G : forall u v t u' v' t' : R, u = u' -> v = v' -> t = t' -> 1 - (1 - u) * nmax v t = 1 - (1 - u') * Rmax v' t').
  { intros u v t u' v' t' -> -> ->. rewrite nmax_R. reflexivity. }
  etransitivity; [exact (G _ _ _ _ _ _ A1 A2 A3)|]. fold k. clear A1 A2 A3 G.
  rewrite sigmoid_max. f_equal. f_equal.
  - replace (- (nearest S w x - 0) * k) with (- (k * nearest S w x)) by ring.
    rewrite sigmoid_sym. transitivity (sigmoid (k * nearest S w x)); [ring|apply sigmoid_R].
  - rewrite sigmoid_R. do 4 f_equal. unfold Rmax. fold k in Hs.
    destruct (Rle_dec (- (nearest S w node - h * 1) * k) (- (nearest S w (midpoint g x it) - 0) * k));
    destruct (Rle_dec (h - nearest S w node) (- nearest S w (midpoint g x it))); nra.
Qed.
(** a particle inside keeps its nodes; a particle outside and a node less than a cell from the obstacle are cut from each other;
    a node further than a cell, with the midpoint outside, is kept *)
Theorem C141_mask_bounds : forall (S : Solver R) w g x it (e : R), 0 <= so_sharp S -> combine (so_sdfs S) (w_sdfs w) <> [] ->
  let f := 1 / (1 + exp (- (so_sharp S * e))) in
  let node := nth (Z.to_nat (it_hash it)) (position_stack g) vzero in
  (nearest S w x <= - e -> f <= compatible S w g x it) /\
  (e <= nearest S w x -> nearest S w node <= gd_cell g - e -> compatible S w g x it <= 1 - f * f) /\
  (gd_cell g + e <= nearest S w node -> e <= nearest S w (midpoint g x it) -> f <= compatible S w g x it).
Proof.
  intros S w g x it e Hs Hn f node. rewrite (C141_mask S w g x it Hs Hn). fold node.
  set (k := so_sharp S) in *. set (a := nearest S w x). set (b := nearest S w node). set (m := nearest S w (midpoint g x it)).
  set (h := gd_cell g).
  assert (Sg : forall y : R, 1 / (1 + exp (- y)) = sigmoid y) by reflexivity. unfold f. rewrite !Sg.
  pose proof (sigmoid_01 (k * a)) as B1. pose proof (sigmoid_01 (k * Rmax (h - b) (- m))) as B2. pose proof (sigmoid_01 (k * e)) as B3.
  split; [|split].
  - intros H. pose proof (sigmoid_mono (k * a) (- (k * e)) ltac:(nra)) as M. rewrite sigmoid_sym in M. nra.
  - intros H1 H2. pose proof (sigmoid_mono (k * e) (k * a) ltac:(nra)) as M1.
    pose proof (sigmoid_mono (k * e) (k * Rmax (h - b) (- m)) ltac:(pose proof (Rmax_l (h - b) (- m)); nra)) as M2. nra.
  - intros H1 H2. assert (X : Rmax (h - b) (- m) <= - e) by (apply Rmax_lub; lra).
    pose proof (sigmoid_mono (k * Rmax (h - b) (- m)) (- (k * e)) ltac:(nra)) as M. rewrite sigmoid_sym in M. nra.
Qed.

(** *** the mask is never used: obstacles do nothing without a collider *)
Definition no_obstacles (S : Solver R) : Solver R :=
  {| so_scheme := so_scheme S; so_alpha := so_alpha S; so_domains := so_domains S; so_couplings := so_couplings S; so_laws := so_laws S;
     so_forces := so_forces S; so_sdfs := []; so_sharp := so_sharp S |}.
Definition uncollided (S : Solver R) : Prop := forall c, In (FCollider c) (so_forces S) -> cl_sdf c = None.
(** same material points, possibly other obstacles *)
Definition bare (w : World R) : World R := {| w_mps := w_mps w; w_sdfs := [] |}.
Definition bare_state (st : SimState R) : SimState R :=
  {| s_world := bare (s_world st); s_mech := s_mech st; s_time := s_time st; s_step := s_step st; s_dt := s_dt st |}.

Lemma pre_bare f (w : World R) m w' : apply_pre_p2g f w m = Ok w' -> apply_pre_p2g f (bare w) m = Ok (bare w').
Proof.
  destruct f as [g|d|c|k]; simpl; try (intros E; injection E as <-; reflexivity).
  - destruct (gv_on_grid g); [intros E; injection E as <-; reflexivity|]. intros E. apply rbind_ok in E. destruct E as (fs & -> & E). simpl.
    destruct (gv_ps g) as [|p ps]; [injection E as <-; reflexivity|]. simpl in E. apply rbind_ok in E. destruct E as (w1 & E & _).
    apply rbind_ok in E. destruct E as (b & _ & E). apply rbind_ok in E. destruct E as (? & _ & E). discriminate.
  - destruct (dm_on_grid d); [intros E; injection E as <-; reflexivity|]. intros E. apply rbind_ok in E. destruct E as (fs & -> & E). simpl.
    apply rbind_ok in E. destruct E as (l & E & F). injection F as <-. change (w_mps (bare w)) with (w_mps w). rewrite E. reflexivity.
Qed.
Lemma rfold_same {A St} (f g : St -> A -> res St) l : (forall s x, In x l -> f s x = g s x) -> forall s, rfold f s l = rfold g s l.
Proof.
  induction l as [|x l IH]; intros H s; [reflexivity|]. simpl. rewrite H by (left; reflexivity). destruct (g s x); simpl; [|reflexivity].
  apply IH. intros; apply H; right; assumption.
Qed.
Definition agree (d d' : list ((nat * nat) * list (Interaction R))) : Prop := forall k, dict_get k d = dict_get k d'.
Lemma p2g_coupling_bare S (w : World R) m d d' gs c : agree d d' ->
  p2g_coupling (no_obstacles S) (bare w) m d' gs c = p2g_coupling S w m d gs c.
Proof.
  intros A. unfold p2g_coupling. destruct (c_skip c); [reflexivity|]. change (w_mps (bare w)) with (w_mps w).
  destruct (idx (w_mps w) (c_p c)) as [b|]; [|reflexivity]. simpl. unfold upd_idx. destruct (idx gs (c_g c)) as [g|]; [|reflexivity].
  simpl. rewrite (A (c_p c, c_g c)). reflexivity.
Qed.
Lemma moments_bare S (w w' : World R) (sd sd' : list (SDFLogic R)) dom ge ge' dt gs f : uncollided S -> In f (so_forces S) ->
  apply_grid_moments f w sd dom ge dt gs = apply_grid_moments f w' sd' dom ge' dt gs.
Proof.
  intros U Hf. destruct f as [g|d|c|k]; try reflexivity. simpl. rewrite (U c Hf). reflexivity.
Qed.
(** with the stored masks the mixture is the nodal velocity *)
Lemma blend_one geos pts it (v : vec3 R) : it_mask it = 1 -> blend geos pts it v = v.
Proof.
  intros M. unfold blend. destruct geos; [reflexivity|]. rewrite M. destruct v as [a b c].
  unfold vadd, vscale, vmap, vmap2. cbn [vx vy vz]. rnum. cbn [vx vy vz]. apply vec3_eq; cbn [vx vy vz]; ring.
Qed.
Lemma to_points_ext {A} (zero : A) add n l (f h : Interaction R -> A) : (forall it, In it l -> f it = h it) ->
  to_points zero add n l f = to_points zero add n l h.
Proof.
  intros E. unfold to_points. f_equal. apply map_ext_in. intros it Hi. rewrite E by exact Hi. reflexivity.
Qed.
Lemma g2p_usl_bare alpha dt geos l g pts : (forall it, In it l -> it_mask it = 1) ->
  g2p_usl alpha dt geos l g pts = g2p_usl alpha dt [] l g pts.
Proof.
  intros M. unfold g2p_usl. cbv zeta.
  apply map_ext. intros ip. f_equal; f_equal; apply to_points_ext; intros it Hi; rewrite !(blend_one geos) by (apply M, Hi); reflexivity.
Qed.
Definition masks_one (d : list ((nat * nat) * list (Interaction R))) : Prop :=
  forall k l, dict_get k d = Ok l -> forall it, In it l -> it_mask it = 1.
Definition bare_pair (a b : World R * Mechanics R) : Prop := b = (bare (fst a), snd a).
Lemma g2p_coupling_bare S (ca ca' : SimCache R) dt a b c a' (l : list (Body R)) f : agree (sc_inter ca) (sc_inter ca') -> masks_one (sc_inter ca) ->
  sc_grids ca' = sc_grids ca -> sc_mp_geoms ca = map f l -> sc_mp_geoms ca' = map (fun _ => []) l ->
  bare_pair a b -> g2p_coupling S ca dt a c = Ok a' -> exists b', g2p_coupling (no_obstacles S) ca' dt b c = Ok b' /\ bare_pair a' b'.
Proof.
  intros A M G P P' -> E. destruct a as [w m]. unfold g2p_coupling in *. cbn [fst snd]. destruct (c_skip c).
  { injection E as <-. eexists. split; reflexivity. }
  rewrite G. apply rbind_ok in E. destruct E as (g & -> & E). cbn [rbind]. apply rbind_ok in E. destruct E as (it & Ei & E).
  rewrite <- (A (c_p c, c_g c)), Ei. cbn [rbind]. change (w_mps (bare w)) with (w_mps w).
  apply rbind_ok in E. destruct E as (b & Eb & E). rewrite Eb. cbn [rbind]. destruct b as [s|r]; [|discriminate].
  change (so_scheme (no_obstacles S)) with (so_scheme S). destruct (so_scheme S) as [|af].
  - rewrite P' . rewrite P in E. apply rbind_ok in E. destruct E as (geos & Eg & E). apply idx_ok in Eg. rewrite nth_error_map in Eg.
    unfold idx at 1. rewrite nth_error_map. destruct (nth_error l (c_p c)) as [b|]; [|discriminate]. cbn [option_map oget rbind].
    change (so_alpha (no_obstacles S)) with (so_alpha S).
    rewrite <- (g2p_usl_bare (so_alpha S) dt geos it g (sb_pts s)) by (apply (M _ _ Ei)).
    destruct geos as [|ge geos].
    + injection E as <-. eexists. split; reflexivity.
    + destruct (Nat.eqb (length (sb_pts s)) 1); [discriminate|]. injection E as <-. eexists. split; reflexivity.
  - change (so_domains (no_obstacles S)) with (so_domains S). change (so_alpha (no_obstacles S)) with (so_alpha S).
    apply rbind_ok in E. destruct E as (gd & -> & E). cbn [rbind]. apply rbind_ok in E. destruct E as (ss & -> & E). cbn [rbind].
    destruct (af_mls af); [|discriminate]. apply rbind_ok in E. destruct E as (bp & -> & E). cbn [rbind] in *. injection E as <-.
    eexists. split; reflexivity.
Qed.
Lemma constitutive_bare S dt a b c a' : bare_pair a b -> constitutive_coupling S dt a c = Ok a' ->
  exists b', constitutive_coupling (no_obstacles S) dt b c = Ok b' /\ bare_pair a' b'.
Proof.
  intros -> E. destruct a as [w m]. unfold constitutive_coupling in *. cbn [fst snd]. destruct (c_skip c).
  { injection E as <-. eexists. split; reflexivity. }
  change (w_mps (bare w)) with (w_mps w). change (so_laws (no_obstacles S)) with (so_laws S).
  apply rbind_ok in E. destruct E as (b & -> & E). cbn [rbind]. apply rbind_ok in E. destruct E as (ls & -> & E). cbn [rbind].
  apply rbind_ok in E. destruct E as (law & -> & E). cbn [rbind]. destruct law as [law|]; [|discriminate]. destruct b as [s|]; [|discriminate].
  destruct (c_c c) as [ci|]; [|discriminate]. apply rbind_ok in E. destruct E as (r & -> & E). cbn [rbind]. injection E as <-.
  eexists. split; reflexivity.
Qed.

Lemma rel_fold {A X Y} (Rl : X -> Y -> Prop) (f : X -> A -> res X) (g : Y -> A -> res Y) l s t s' :
  rfold f s l = Ok s' -> Rl s t -> (forall s t x s', In x l -> Rl s t -> f s x = Ok s' -> exists t', g t x = Ok t' /\ Rl s' t') ->
  exists t', rfold g t l = Ok t' /\ Rl s' t'.
Proof. intros E R0 H. exact (rfold_rel Rl f g l s t s' H R0 E). Qed.
(** one step: the same material points and mechanics as without the obstacles *)
Lemma step_bare (S : Solver R) st st' : uncollided S -> solver_step S st = Ok st' ->
  solver_step (no_obstacles S) (bare_state st) = Ok (bare_state st').
Proof.
  intros U E. unfold solver_step in E. cbv zeta in E. apply rbind_ok in E. destruct E as ((w, ca) & Ep & E). cbn [fst snd] in E.
  assert (M : masks_one (sc_inter ca)).
  { pose proof (prepare_ok _ _ _ _ Ep) as (_ & Q & _). intros [p g] l Hl it Hi. apply (Q p g l) in Hl.
    destruct Hl as (k & b & gd & _ & _ & _ & _ & ->). exact (compute_mask _ _ _ _ Hi). }
  assert (P : exists ca', prepare (no_obstacles S) (bare_state st) = Ok (bare w, ca') /\ agree (sc_inter ca) (sc_inter ca') /\
    sc_grids ca' = sc_grids ca /\ sc_mp_geoms ca = particle_sdfs S w (s_dt st) /\ sc_mp_geoms ca' = map (fun _ => []) (w_mps w)).
  { unfold prepare in *. cbv zeta in *. apply rbind_ok in Ep. destruct Ep as (w1 & E1 & Ep). apply rbind_ok in Ep. destruct Ep as (w2 & E2 & Ep).
    apply rbind_ok in Ep. destruct Ep as (i1 & E3 & Ep). apply rbind_ok in Ep. destruct Ep as (i2 & E4 & Ep). injection Ep as <- <-.
    pose proof (kinematic_ok _ _ _ _ E1) as (K & _).
    change (kinematic_update (no_obstacles S) (s_world (bare_state st)) (s_dt (bare_state st))) with (Ok (bare (s_world st))). cbn [rbind].
    change (so_couplings (no_obstacles S)) with (so_couplings S). unfold reset_material_points in *.
    change (w_mps (bare (s_world st))) with (w_mps (s_world st)). rewrite <- K.
    apply rbind_ok in E2. destruct E2 as (ms & E2 & E2'). injection E2' as <-. rewrite E2. cbn [rbind].
    change (compute_connectivity (no_obstacles S) (set_mps (bare (s_world st)) ms)) with (compute_connectivity S (set_mps w1 ms)).
    rewrite E3. cbn [rbind].
    eexists. split; [reflexivity|]. split; [|split; [reflexivity|split; [reflexivity|reflexivity]]].
    cbn [sc_inter]. intros k. refine (sdf_correction_id S _ i1 i2 _ E4 k).
    pose proof (connectivity_ok _ _ _ E3) as (C1 & _). intros p g l Hl it Hi. apply C1 in Hl.
    destruct Hl as (kk & b & gd & _ & _ & _ & _ & ->). eapply compute_mask; eassumption. }
  destruct P as (ca' & P & A & G & Pg & Pg'). unfold solver_step. cbv zeta. rewrite P. cbn [rbind fst snd].
  apply rbind_ok in E. destruct E as ((w2, ca2) & E2 & E). cbn [fst snd] in E.
  change (s_mech (bare_state st)) with (s_mech st). change (s_dt (bare_state st)) with (s_dt st).
  unfold p2g in *. apply rbind_ok in E2. destruct E2 as (w' & F1 & E2). apply rbind_ok in E2. destruct E2 as (gs & F2 & E2). injection E2 as <- <-.
  change (so_forces (no_obstacles S)) with (so_forces S). change (so_couplings (no_obstacles S)) with (so_couplings S).
  destruct (rel_fold (fun a b => b = bare a) _ (fun w f => apply_pre_p2g f w (s_mech st)) _ w (bare w) w' F1 eq_refl) as (v & F1' & ->).
  { intros s t x s' _ -> Ex. exists (bare s'). split; [apply pre_bare, Ex|reflexivity]. }
  rewrite F1'. cbn [rbind]. rewrite G.
  rewrite (rfold_same _ (p2g_coupling S w' (s_mech st) (sc_inter ca))) by (intros s x _; apply p2g_coupling_bare, A). rewrite F2. cbn [rbind fst snd].
  apply rbind_ok in E. destruct E as (ca3 & E3 & E). unfold integrate_grid in *. cbn [sc_grids set_grids] in *.
  change (so_forces (no_obstacles S)) with (so_forces S). change (so_couplings (no_obstacles S)) with (so_couplings S).
  change (so_domains (no_obstacles S)) with (so_domains S).
  apply rbind_ok in E3. destruct E3 as (g1 & H1 & E3). rewrite H1. cbn [rbind]. apply rbind_ok in E3. destruct E3 as (g2 & H2 & E3). rewrite H2. cbn [rbind].
  apply rbind_ok in E3. destruct E3 as (g3 & H3 & E3). injection E3 as <-.
  rewrite (rfold_same _ (fun l f => apply_grid_moments f w' (so_sdfs S) (so_domains S) (sc_node_geoms (set_grids ca gs)) (s_dt st) l))
    by (intros s x Hx; apply (moments_bare S); assumption).
  rewrite H3. cbn [rbind]. clear P F1 F1' F2 H1 H2 H3.
  apply rbind_ok in E. destruct E as (wm & E4 & E). unfold g2p in *. change (so_couplings (no_obstacles S)) with (so_couplings S).
  destruct (rel_fold bare_pair _ (g2p_coupling (no_obstacles S) (set_grids (set_grids ca' gs) g3) (s_dt st)) _ (w', s_mech st) (bare w', s_mech st) wm E4 eq_refl) as (wm0 & E4' & B4).
  { intros s t x s' _ Rs Ex. eapply (g2p_coupling_bare S _ _ _ _ _ _ _ (w_mps w)); [| | | | |exact Rs|exact Ex];
      [exact A|exact M|reflexivity|exact Pg|exact Pg']. }
  rewrite E4'. cbn [rbind].
  apply rbind_ok in E. destruct E as (wm' & E5 & E). unfold constitutive_update in *. change (so_couplings (no_obstacles S)) with (so_couplings S).
  destruct wm as [wa ma]. cbn [fst snd] in *. rewrite B4. cbn [fst snd].
  destruct (rel_fold bare_pair _ (constitutive_coupling (no_obstacles S) (s_dt st)) _ (wa, ma) (bare wa, ma) wm' E5 eq_refl) as (wm5 & E5' & B5).
  { intros s t x s' _ Rs Ex. eapply constitutive_bare; eassumption. }
  rewrite E5'. cbn [rbind]. rewrite B5. injection E as <-. reflexivity.
Qed.
(** Without a collider, the obstacles given to the solver do not change the material: any run with them is the run without them. *)
Theorem C141_inert : forall (S : Solver R) n st st', uncollided S -> solver_steps S n st = Ok st' ->
  solver_steps (no_obstacles S) n (bare_state st) = Ok (bare_state st').
Proof.
  intros S n. induction n as [|n IH]; intros st st' U E; [injection E as <-; reflexivity|].
  cbn [solver_steps] in *. apply rbind_ok in E. destruct E as (s1 & E1 & E2). rewrite (step_bare S st s1 U E1). cbn [rbind]. apply IH; assumption.
Qed.

(** the ghost of a row is taken at the obstacle nearest to its particle, from that obstacle's normal and velocity there *)
Theorem C141_ghost_of : forall (lss : list (SDFLogic R * SDFState R)) (dt : R) (pts : list (Particle R)) (it : Interaction R),
  lss <> [] -> (it_point it < length pts)%nat ->
  let p := nth (it_point it) pts pt0 in
  exists l, In l lss /\ (forall l', In l' lss -> sl_dist (fst l) (snd l) (pt_pos p) <= sl_dist (fst l') (snd l') (pt_pos p)) /\
    ghost_of pts (map (fun ls => map (geom_at 0 dt ls) (map pt_pos pts)) lss) it
    = ghost (pt_vel p) {| gm_dist := sl_dist (fst l) (snd l) (pt_pos p); gm_normal := sl_normal (fst l) (snd l) (pt_pos p);
                          gm_vel := sl_velocity (fst l) (snd l) (pt_pos p) dt; gm_friction := sl_friction (fst l) (snd l) (pt_pos p) |}.
Proof.
  intros lss dt pts it Hn Hp p. unfold ghost_of. rewrite map_map.
  assert (E : map (fun x => nth (it_point it) (map (geom_at 0 dt x) (map pt_pos pts)) geom0) lss = map (fun x => geom_at 0 dt x (pt_pos p)) lss).
  { apply map_ext. intros x. rewrite map_map. rewrite (nth_indep _ geom0 (geom_at 0 dt x (pt_pos pt0))) by (rewrite map_length; exact Hp).
    apply (map_nth (fun y => geom_at 0 dt x (pt_pos y))). }
  rewrite E. clear E. pose proof (C141_closest (map (fun x => geom_at 0 dt x (pt_pos p)) lss)) as C.
  destruct (closest _) as [g|]; [|destruct lss; [destruct (Hn eq_refl)|discriminate]].
  destruct C as (a & b & C & A & B).
  assert (Q : forall h, In h (map (fun x => geom_at 0 dt x (pt_pos p)) lss) -> gm_dist g <= gm_dist h).
  { intros h. rewrite C. intros X. apply in_app_or in X. destruct X as [X|[<-|X]]; [left; apply A, X|right; reflexivity|apply B, X]. }
  assert (G : In g (map (fun x => geom_at 0 dt x (pt_pos p)) lss)) by (rewrite C; apply in_elt).
  apply in_map_iff in G. destruct G as (l & <- & Hl). exists l. split; [exact Hl|].
  assert (Z : forall l, gm_dist (geom_at 0 dt l (pt_pos p)) = sl_dist (fst l) (snd l) (pt_pos p)).
  { intros x. unfold geom_at. cbn [gm_dist]. rnum. apply Rminus_0_r. }
  split; [|reflexivity]. intros l' Hl'. rewrite <- !Z. apply Q. apply (in_map (fun x => geom_at 0 dt x (pt_pos p))), Hl'.
Qed.

(** a wall right of x = 7/2 that the solver knows and no collider uses: hypotheses met, the run exists *)
Example C141_case : let S := with_sdfs (solverR USL (1/2) 1) [wallR] 40 in
  let st := with_sdf_states (stateR [two va vb sg] mzero (1/10)) [sdf0] in
  uncollided S /\ (exists st', solver_steps S 1 st = Ok st') /\ 0 <= so_sharp S /\ combine (so_sdfs S) (w_sdfs (s_world st)) <> [] /\
  nearest S (s_world st) xa = 1/4 /\ wf_sizes g2 /\ (gd_dim g2 = D2 -> vz (gd_origin g2) = 0) /\ In wall_row (compute_on Quadratic g2 [xa; xb]) /\
  let ge := {| gm_dist := 1; gm_normal := V3 0 1 0; gm_vel := V3 0 1 0; gm_friction := 0 |} in
  square (gm_normal ge) = 1 /\ ghost (V3 2 (-3) 0) ge = V3 2 1 0.
Proof.
  intros S st. split; [intros c Hc; simpl in Hc; tauto|]. split.
  { assert (X : exists st', solver_step S st = Ok st') by (eexists; reflexivity). destruct X as (st' & X). exists st'. cbn [solver_steps]. rewrite X. reflexivity. }
  split; [simpl; lra|]. split; [discriminate|].
  split; [unfold nearest; simpl; lra|]. split; [unfold wf_sizes; simpl; lia|]. split; [reflexivity|]. split; [exact wall_row_in|].
  intros ge. split; [unfold square, vdot; simpl; rnum; simpl; lra|].
  unfold ghost, ge, vdot, vsub, vadd, vscale, vmap, vmap2. cbn [vx vy vz gm_normal gm_vel]. rewrite nmin_R. rnum.
  replace (Rmin 0 _) with (-4); [apply vec3_eq; simpl; lra|]. cbn [vx vy vz]. rewrite Rmin_right; lra.
Qed.
Print Assumptions C141_closest.
Print Assumptions C141_ghost.
Print Assumptions C141_midpoint.
Print Assumptions C141_mask.
Print Assumptions C141_mask_bounds.
Print Assumptions C141_inert.
Print Assumptions C141_ghost_of.
