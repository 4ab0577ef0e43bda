(** Observers in uniform motion: adding one velocity to every particle changes one step by that velocity and nothing else (C98). *)
From Coq Require Import List Arith ZArith Reals Bool Lra Lia.
From Verif Require Import Num NumR Linalg Arrays ModelGrid ModelShape ModelMath ModelState ModelLaws ModelForces ModelSolver
  Sums ShapeFacts SpecShape ShapeProofs ShapeProofs2 ShapeProofs3 MappingProofs ResFacts SolverFacts SpecSolver
  TransferProofs TransferProofs2 StepProofs GatherProofs MomentumProofs AffineProofs StepAffine HeavyProofs SolverMore ShiftProofs
  ForceProofs ProgressProofs.
Import ListNotations.
Local Open Scope R_scope.

(** the same state seen by an observer moving with velocity [-v] *)
Definition boost_point (v : vec3 R) (p : Particle R) : Particle R :=
  {| pt_pos := pt_pos p; pt_vel := vadd (pt_vel p) v; pt_mass := pt_mass p; pt_force := pt_force p; pt_vol := pt_vol p; pt_vol0 := pt_vol0 p;
     pt_L := pt_L p; pt_stress := pt_stress p; pt_F := pt_F p; pt_Fst := pt_Fst p |}.
Definition boost_body (v : vec3 R) (b : Body R) : Body R :=
  match b with Soft s => Soft (set_pts s (map (boost_point v) (sb_pts s))) | Rigid r => Rigid r end.
Definition boost_world (v : vec3 R) (w : World R) : World R := {| w_mps := map (boost_body v) (w_mps w); w_sdfs := w_sdfs w |}.
Definition boost_state (v : vec3 R) (st : SimState R) : SimState R :=
  {| s_world := boost_world v (s_world st); s_mech := s_mech st; s_time := s_time st; s_step := s_step st; s_dt := s_dt st |}.

Lemma boost_pos v b : body_positions (boost_body v b) = body_positions b.
Proof. destruct b; simpl; [rewrite map_map; apply map_ext; reflexivity|reflexivity]. Qed.
Lemma boost_dim v b : body_dim (boost_body v b) = body_dim b.
Proof. destruct b; reflexivity. Qed.
Lemma boost_num v b : num_points (boost_body v b) = num_points b.
Proof. unfold num_points. rewrite boost_pos. reflexivity. Qed.
Lemma boost_reset v b : reset_body (boost_body v b) = boost_body v (reset_body b).
Proof. destruct b as [s|r]; simpl; [|reflexivity]. unfold set_pts; simpl. f_equal. f_equal. rewrite !map_map. apply map_ext. reflexivity. Qed.
Lemma idx_map {A B} (f : A -> B) l i : idx (map f l) i = rbind (idx l i) (fun x => Ok (f x)).
Proof. unfold idx. rewrite nth_error_map. destruct (nth_error l i); reflexivity. Qed.
Lemma set_nth_map {A B} (f : A -> B) i x l : set_nth i (f x) (map f l) = map f (set_nth i x l).
Proof. unfold set_nth. revert i. induction l as [|y l IH]; intros [|i]; simpl; try reflexivity. f_equal. apply IH. Qed.
Lemma kin_boost v (S : Solver R) w dt : kinematic_update S (boost_world v w) dt = rbind (kinematic_update S w dt) (fun x => Ok (boost_world v x)).
Proof. unfold kinematic_update. cbn [w_sdfs boost_world w_mps]. destruct (rmap _ _); reflexivity. Qed.
Lemma reset_boost v cs w : reset_material_points cs (boost_world v w) = rbind (reset_material_points cs w) (fun x => Ok (boost_world v x)).
Proof.
  unfold reset_material_points. cbn [boost_world w_mps].
  assert (G : forall l, rfold (fun l c => upd_idx l (c_p c) (fun b => Ok (reset_body b))) (map (boost_body v) l) cs
    = rbind (rfold (fun l c => upd_idx l (c_p c) (fun b => Ok (reset_body b))) l cs) (fun l => Ok (map (boost_body v) l))).
  { induction cs as [|c cs IH]; intro l; [reflexivity|]. cbn [rfold]. unfold upd_idx at 1 3. rewrite idx_map. destruct (idx l (c_p c)) as [b|e]; [|reflexivity].
    cbn [rbind]. rewrite boost_reset, set_nth_map. apply IH. }
  rewrite G. destruct (rfold _ _ _); reflexivity.
Qed.
Lemma rfold_ext {A St} (f g : St -> A -> res St) l : (forall s x, f s x = g s x) -> forall s, rfold f s l = rfold g s l.
Proof. intros H. induction l as [|x l IH]; intro s; [reflexivity|]. cbn [rfold]. rewrite H. destruct (g s x); [apply IH|reflexivity]. Qed.
Lemma conn_boost v (S : Solver R) w : compute_connectivity S (boost_world v w) = compute_connectivity S w.
Proof.
  unfold compute_connectivity. apply rfold_ext. intros d c. cbn [boost_world w_mps]. rewrite idx_map. destruct (idx (w_mps w) (c_p c)) as [b|e]; [|reflexivity].
  cbn [rbind]. destruct (idx (so_domains S) (c_g c)) as [g|e]; [|reflexivity]. cbn [rbind]. rewrite boost_dim, boost_pos. reflexivity.
Qed.
Lemma sdf_boost v (S : Solver R) w it : sdf_correction S (boost_world v w) it = sdf_correction S w it.
Proof.
  unfold sdf_correction. destruct (so_sdfs S) as [|s0 l0] eqn:Es; [reflexivity|]. apply rfold_ext. intros d c. cbn [boost_world w_mps].
  destruct (dict_get (c_p c, c_g c) d) as [l|e]; [|reflexivity]. cbn [rbind]. rewrite idx_map. destruct (idx (w_mps w) (c_p c)) as [b|e]; [|reflexivity].
  cbn [rbind]. destruct (idx (so_domains S) (c_g c)) as [g|e]; [|reflexivity]. cbn [rbind]. rewrite boost_num, boost_pos. reflexivity.
Qed.
Lemma geoms_boost v (S : Solver R) w dt : particle_sdfs S (boost_world v w) dt = particle_sdfs S w dt.
Proof.
  unfold particle_sdfs. cbn [boost_world w_mps w_sdfs]. rewrite map_map. apply map_ext. intro b. rewrite boost_pos. reflexivity.
Qed.
Lemma prepare_boost v (S : Solver R) st w ca : prepare S st = Ok (w, ca) -> prepare S (boost_state v st) = Ok (boost_world v w, ca).
Proof.
  unfold prepare. intros E. apply rbind_ok in E. destruct E as (w1 & E1 & E). apply rbind_ok in E. destruct E as (w2 & E2 & E).
  apply rbind_ok in E. destruct E as (it & E3 & E). apply rbind_ok in E. destruct E as (it' & E4 & E). injection E as <- <-.
  cbn [boost_state s_world s_dt]. rewrite kin_boost, E1. cbn [rbind]. rewrite reset_boost, E2. cbn [rbind].
  rewrite conn_boost, E3. cbn [rbind]. rewrite sdf_boost, E4. cbn [rbind]. rewrite geoms_boost. reflexivity.
Qed.

(** *** the grids of the two runs *)
Definition grel (v : vec3 R) (g h : Grid R) : Prop :=
  gr_dim h = gr_dim g /\ gr_mass h = gr_mass g /\ gr_force h = gr_force g /\ length (gr_mom h) = length (gr_mom g) /\ length (gr_mass g) = length (gr_mom g) /\
  forall i, nth i (gr_mom h) vzero = vadd (nth i (gr_mom g) vzero) (vscale (nth i (gr_mass g) 0) v).
Lemma scatter_boost (v : vec3 R) (wm : Interaction R -> R) (vel vel' : Interaction R -> vec3 R) its : (forall it, In it its -> vel' it = vadd (vel it) v) ->
  forall M P P', length M = length P -> length P' = length P ->
  (forall i, nth i P' vzero = vadd (nth i P vzero) (vscale (nth i M 0) v)) ->
  forall i, nth i (scatter_add vadd P' (map (fun it => on_node it (vscale (wm it) (vel' it))) its)) vzero
    = vadd (nth i (scatter_add vadd P (map (fun it => on_node it (vscale (wm it) (vel it))) its)) vzero)
           (vscale (nth i (scatter_add nadd M (map (fun it => on_node it (wm it)) its)) 0) v).
Proof.
  unfold scatter_add. induction its as [|it its IH]; intros Hv M P P' L L' H; [exact H|].
  cbn [map fold_left]. apply IH; try (rewrite !upd_at_length; assumption); [intros x Hx; apply Hv; right; exact Hx|].
  intro i. rewrite !upd_at_nth, L, L'. unfold on_node. cbn [fst snd]. destruct (_ && _)%bool; [|apply H].
  rewrite H, (Hv it (or_introl eq_refl)). apply vcomp_eq; intro a.
  repeat first [rewrite vcomp_add|rewrite vcomp_scale]. rnum. ring.
Qed.
Lemma point_boost v pts (it : Interaction R) : (it_point it < length pts)%nat -> point_of (map (boost_point v) pts) it = boost_point v (point_of pts it).
Proof.
  intros H. unfold point_of. rewrite (nth_indep _ _ (boost_point v pt0)) by (rewrite map_length; exact H). apply map_nth.
Qed.
Lemma p2g_with_boost v its pts vel vel' g h : grel v g h -> (forall it, In it its -> (it_point it < length pts)%nat /\ vel' it = vadd (vel it) v) ->
  grel v (p2g_with its pts vel g) (p2g_with its (map (boost_point v) pts) vel' h).
Proof.
  intros (D & M & F & L & LM & H) Hi. unfold grel, p2g_with. cbn [gr_dim gr_mass gr_force gr_mom gr_mom_nt]. rewrite !scatter_add_length.
  assert (Em : map (fun it => on_node it (eff it * pt_mass (point_of (map (boost_point v) pts) it))) its = map (fun it => on_node it (eff it * pt_mass (point_of pts it))) its)
    by (apply map_ext_in; intros it Hx; rewrite point_boost by apply Hi, Hx; reflexivity).
  assert (Ev : map (fun it => on_node it (vscale (eff it * pt_mass (point_of (map (boost_point v) pts) it)) (vel' it))) its
    = map (fun it => on_node it (vscale (eff it * pt_mass (point_of pts it)) (vel' it))) its)
    by (apply map_ext_in; intros it Hx; rewrite point_boost by apply Hi, Hx; reflexivity).
  assert (Ef : map (fun it => on_node it (p2g_force (gr_dim h) (map (boost_point v) pts) it)) its = map (fun it => on_node it (p2g_force (gr_dim g) pts it)) its)
    by (apply map_ext_in; intros it Hx; unfold p2g_force; rewrite point_boost, D by apply Hi, Hx; reflexivity).
  assert (Z : map (fun _ : vec3 R => @vzero R Num_R) (gr_mom h) = map (fun _ => vzero) (gr_mom g)).
  { clear -L. revert L. generalize (gr_mom g) (gr_mom h). intros l. induction l as [|x l IH]; intros [|y m] L; try discriminate; [reflexivity|].
    simpl. f_equal. apply IH. injection L; auto. }
  split; [exact D|]. split; [|split; [|split; [exact L|split; [exact LM|]]]].
  - rewrite M. exact (f_equal (scatter_add nadd (gr_mass g)) Em).
  - transitivity (scatter_add vadd (map (fun _ : vec3 R => @vzero R Num_R) (gr_mom h)) (map (fun it => on_node it (p2g_force (gr_dim g) pts it)) its));
      [exact (f_equal _ Ef)|]. exact (f_equal (fun z => scatter_add vadd z _) Z).
  - intro i. etransitivity; [exact (f_equal (fun z => nth i (scatter_add vadd (gr_mom h) z) vzero) Ev)|].
    apply (scatter_boost v (fun it => eff it * pt_mass (point_of pts it)) vel vel'); try assumption. intros it Hx. apply Hi, Hx.
Qed.
Lemma Forall2_set_nth {A B} (P : A -> B -> Prop) l m i x y : Forall2 P l m -> P x y -> Forall2 P (set_nth i x l) (set_nth i y m).
Proof. intros F H. unfold set_nth. revert i. induction F; intros [|i]; simpl; constructor; auto. Qed.
Lemma p2g_boost v (S : Solver R) st w ca w2 ca2 : prepare S st = Ok (w, ca) -> only_gravity (so_forces S) ->
  p2g S w (s_mech st) ca = Ok (w2, ca2) -> exists ca2', p2g S (boost_world v w) (s_mech st) ca = Ok (boost_world v w2, ca2') /\
    sc_inter ca2' = sc_inter ca2 /\ Forall2 (grel v) (sc_grids ca2) (sc_grids ca2').
Proof.
  intros E1 Og E2. pose proof E2 as E2'. apply p2g_ok in E2. destruct E2 as (gs & Pre & E2 & ->). rewrite (gravity_pre _ _ _ Og) in Pre. injection Pre as <-.
  unfold p2g. rewrite (gravity_pre _ _ _ Og). cbn [rbind].
  assert (G0 : sc_grids ca = map grid_new (so_domains S)) by (apply prepare_ok in E1; tauto).
  destruct (rfold_rel (Forall2 (grel v)) (p2g_coupling S w (s_mech st) (sc_inter ca)) (p2g_coupling S (boost_world v w) (s_mech st) (sc_inter ca))
    (so_couplings S) (sc_grids ca) (sc_grids ca) gs) as (ts & T1 & T2).
  - intros g t c g' Hc F E. pose proof E as E'. apply p2g_coupling_ok in E. destruct E as [(Sk & ->)|(Sk & s & it & gr & vel & Es & V0 & Eit & Eg & Hv & ->)].
    + exists t. unfold p2g_coupling. rewrite Sk. auto.
    + destruct (Forall2_nth_error_l _ _ _ _ _ F Eg) as (h & Eh & Gr).
      assert (Rg : forall r, In r it -> (it_point r < length (sb_pts s))%nat).
      { intros r Hr. pose proof (prepare_ok _ _ _ _ E1) as (_ & R2 & _). apply R2 in Eit. destruct Eit as (k & b & gd & Hk & Hb & Hgd & _ & ->).
        rewrite Es in Hb. injection Hb as <-. destruct (compute_row _ _ _ _ Hr) as (_ & _ & _ & Hp & _). cbn [body_positions] in Hp. rewrite map_length in Hp. exact Hp. }
      unfold p2g_coupling. rewrite Sk. cbn [boost_world w_mps]. unfold upd_idx, idx. rewrite nth_error_map, Es, Eh. cbn [option_map oget rbind]. rewrite Eit. cbn [rbind boost_body].
      unfold soft_of. cbn [set_pts sb_vol0d]. rewrite V0. unfold p2g_vel in Hv. destruct (so_scheme S) as [|a].
      * cbn [rbind]. eexists. split; [reflexivity|]. apply Forall2_set_nth; [exact F|]. unfold p2g_usl. cbn [set_pts sb_pts].
        apply p2g_with_boost; [exact Gr|]. intros r Hr. split; [apply Rg, Hr|]. rewrite Hv, point_boost by apply Rg, Hr. reflexivity.
      * destruct Hv as (gd & Bp & sx & Egd & Ecs & Ess & ->). rewrite Egd. cbn [oget rbind]. rewrite Ecs. cbn [idx_opt]. unfold idx. rewrite Ess. cbn [oget rbind bp_of].
        eexists. split; [reflexivity|]. apply Forall2_set_nth; [exact F|]. unfold p2g_aflip. cbn [set_pts sb_pts].
        apply p2g_with_boost; [exact Gr|]. intros r Hr. split; [apply Rg, Hr|]. rewrite point_boost by apply Rg, Hr. cbn [boost_point pt_vel].
        apply vcomp_eq; intro i. repeat first [rewrite vcomp_add|rewrite vcomp_sub]. rnum. ring.
  - rewrite G0. apply Forall2_by_nth; [reflexivity|]. intros n x y Hx Hy. rewrite Hx in Hy. injection Hy as <-.
    rewrite nth_error_map in Hx. destruct (nth_error (so_domains S) n) as [gd|]; [|discriminate]. injection Hx as <-. unfold grel, grid_new. cbn [gr_dim gr_mass gr_mom gr_force].
    rewrite !repeat_length. repeat split. intro i. set (k := Z.to_nat (num_cells gd)).
    assert (Z0 : nth i (repeat (n0 (T := R)) k) 0 = 0) by exact (nth_repeat 0 k i). rewrite Z0, !nth_repeat. apply vcomp_eq; intro a.
    rewrite vcomp_add, vcomp_scale, !vcomp_zero. rnum. ring.
  - exact E2.
  - rewrite T1. cbn [rbind]. eexists. split; [reflexivity|]. split; [reflexivity|exact T2].
Qed.
Lemma boost_boosted v l : Forall2 (boosted v) (map (boost_body v) l) l.
Proof.
  induction l as [|b l IH]; simpl; constructor; [|exact IH]. destruct b as [s|r]; simpl; [|reflexivity]. repeat split.
  induction (sb_pts s); simpl; constructor; [|assumption]. repeat split.
Qed.

Lemma boost_shape v (S : Solver R) st r : solver_step S st = Ok r -> shape S st (boost_state v st).
Proof.
  intros E. split; [|split; [|split; [|reflexivity]]].
  - cbn. clear E. induction (w_mps (s_world st)) as [|b l IH]; simpl; constructor; [|exact IH]. destruct b as [s|q]; simpl; [|auto]. rewrite map_length. auto.
  - cbn. repeat split; apply Forall2_refl; [apply lsim_refl|apply ssim_refl].
  - cbn. apply step_ok in E. destruct E as (w & ca & _ & _ & _ & _ & _ & _ & _ & E & _).
    apply prepare_ok in E. destruct E as (_ & _ & _ & _ & _ & _ & K). apply kinematic_ok in K. destruct K as (_ & K). cbn [w_sdfs] in K.
    clear -K. assert (A : forall n : nat, (n < length (so_sdfs S))%nat -> (n < length (w_sdfs (s_world st)))%nat).
    { intros n Hn. apply nth_error_Some. destruct (nth_error (so_sdfs S) n) as [lg|] eqn:En; [|apply nth_error_None in En; lia].
      assert (Ee : nth_error (enum (so_sdfs S)) n = Some (n, lg)) by (rewrite enum_nth_error, En; reflexivity).
      destruct (Forall2_nth_error_l _ _ _ _ _ K Ee) as (y & _ & st0 & Hs & _). cbn [fst] in Hs. rewrite Hs. discriminate. }
    destruct (Nat.le_gt_cases (length (so_sdfs S)) (length (w_sdfs (s_world st)))) as [|G]; [assumption|]. specialize (A _ G). lia.
Qed.

Section Boost.
Variables (S : Solver R) (st st0 : SimState R) (w : World R) (ca : SimCache R) (w2 : World R) (ca2 ca3 : SimCache R) (v : vec3 R).
Hypothesis E1 : prepare S st = Ok (w, ca).
Hypothesis E2 : p2g S w (s_mech st) ca = Ok (w2, ca2).
Hypothesis E3 : integrate_grid S w2 (s_mech st) (s_dt st) ca2 = Ok ca3.
Hypothesis St0 : solver_step S st = Ok st0.
Hypothesis Hin : inside S (s_world st).
Hypothesis Nd : NoDup (map c_p (active S)).
Hypothesis Og : only_gravity (so_forces S).
Hypothesis Cut : 0 <= cut_of S.
Hypothesis Flat : forall gd, In gd (so_domains S) -> vtrunc (gd_dim gd) v = v.
Hypothesis Hv : forall gi g c, nth_error (sc_grids ca3) gi = Some g -> In c (active_on S gi) -> heavy S (s_world st) g c.
Theorem galilean_step : exists st1, solver_step S (boost_state v st) = Ok st1 /\
  Forall2 same_body (w_mps (s_world st1)) (w_mps (s_world st0)) /\ m_laws (s_mech st1) = m_laws (s_mech st0) /\
  m_solvers (s_mech st1) = m_solvers (s_mech st0) /\
  forall c gd, In c (so_couplings S) -> c_skip c = false -> nth_error (so_domains S) (c_g c) = Some gd ->
    Forall2 (shifted (so_scheme S) (gd_cell gd) (s_dt st) v) (pts_at (s_world st1) (c_p c)) (pts_at (s_world st0) (c_p c)).
Proof.
  destruct (step_shape _ _ _ _ (boost_shape v _ _ _ St0) St0) as (st1 & St1). exists st1. split; [exact St1|].
  pose proof (prepare_boost v _ _ _ _ E1) as P1. destruct (p2g_boost v _ _ _ _ _ _ E1 Og E2) as (ca2' & P2 & Ei2 & Fg).
  apply step_ok in St0. destruct St0 as (wa & caa & wb & cab & cac & x0 & k0 & y0 & l0 & A1 & A2 & A3 & A4 & A5 & ->).
  rewrite E1 in A1. injection A1 as <- <-. rewrite E2 in A2. injection A2 as <- <-. rewrite E3 in A3. injection A3 as <-.
  apply step_ok in St1. destruct St1 as (wa & caa & wb & cab & ca3' & x1 & k1 & y1 & l1 & B1 & B2 & B3 & B4 & B5 & ->).
  rewrite P1 in B1. injection B1 as <- <-. cbn [boost_state s_mech s_dt] in *. rewrite P2 in B2. injection B2 as <- <-.
  cbn [s_world s_mech].
  destruct (p2g_grids _ _ _ _ _ _ E1 E2) as (gs & X & Ei & F0 & F & _). subst gs.
  destruct (p2g_grids S (boost_state v st) _ _ _ _ P1 P2) as (gs & X & _ & _ & F' & _). subst gs.
  destruct (integrate_same_mm _ _ _ _ _ _ E3) as (SM & In3 & _). destruct (integrate_same_mm _ _ _ _ _ _ B3) as (SM1 & In31 & _).
  assert (Hg3 : Forall2 grid_ok (so_domains S) (sc_grids ca3))
    by (eapply integrate_grids_ok; [exact E3|rewrite (only_gravity_wall _ Og); discriminate|exact F]).
  assert (Hg31 : Forall2 grid_ok (so_domains S) (sc_grids ca3'))
    by (eapply integrate_grids_ok; [exact B3|rewrite (only_gravity_wall _ Og); discriminate|exact F']).
  eapply (two_steps S S (s_dt st) (boost_world v w2) w2 (s_mech st) (s_mech st) ca3' ca3 v (fun _ => v)) with (x1 := x1) (x0 := x0) (k1 := k1) (k0 := k0);
    try reflexivity; try assumption.
  - cbn [boost_world w_mps]. apply boost_boosted.
  - congruence.
  - intros c it s g1 g0 Hc Hs Hit Es Eg1 Eg0.
    destruct (Forall2_nth_error _ _ _ _ _ Hg3 Eg0) as (gd & Egd & Hok). destruct (Forall2_nth_error _ _ _ _ _ Hg31 Eg1) as (gd' & Egd' & Hok1).
    rewrite Egd in Egd'. injection Egd' as <-.
    rewrite In31, Ei2, Ei in Hit. destruct (p2g_rows _ _ _ _ _ _ _ _ _ _ E1 E2 Hin Hc Es Hit Egd) as (Ws & k & Hk & Eit & I).
    pose proof (step_rows _ _ _ _ _ _ _ _ _ E1 E2 Hc Es Hit) as Er.
    destruct (Forall2_nth_error _ _ _ _ _ SM Eg0) as (h0 & Eh0 & Md0 & Mm0 & Mo0). destruct (Forall2_nth_error _ _ _ _ _ SM1 Eg1) as (h1 & Eh1 & Md1 & Mm1 & Mo1).
    destruct (Forall2_nth_error_l _ _ _ _ _ Fg Eh0) as (h & Eh & (D & M & Fo & L & LM & H)). rewrite Eh1 in Eh. injection Eh as <-.
    assert (Gm : gr_mass g1 = gr_mass g0) by congruence. assert (Gd : gr_dim g1 = gr_dim g0) by congruence.
    split; [rewrite Er; apply rows_masks1|]. split; [exact Gd|]. split; [exact Gm|]. split.
    + intros p Hp. rewrite Eit. assert (Ip : interior k gd (nth p (map pt_pos (sb_pts s)) vzero)).
      { rewrite (nth_indep _ vzero (pt_pos (pt0 (T := R)))) by (rewrite map_length; exact Hp). rewrite map_nth. apply I, nth_In, Hp. }
      split; [apply pou|apply grads_sum_zero]; try assumption; rewrite map_length; exact Hp.
    + intros r Hr Hz. assert (Ha : In c (active_on S (c_g c))) by (apply active_on_in; auto).
      assert (Hm : cut_of S < nth (Z.to_nat (it_hash r)) (gr_mass g0) 0) by (apply (Hv _ _ _ Eg0 Ha); [rewrite <- Er; exact Hr|exact Hz]).
      assert (Ne : active_on S (c_g c) <> []) by (intro Z; rewrite Z in Ha; contradiction).
      unfold node_vel. rewrite Gm, Gd. rnum. change (@numt_num R NumT_R) with Num_R.
      destruct (gravity_forces _ _ _ _ _ _ _ _ _ E1 E2 E3 Og Eg0) as (h & Eh & _ & Lf0 & Lh & Hf0). rewrite Eh0 in Eh. injection Eh as <-.
      destruct (gravity_forces S (boost_state v st) _ _ _ _ _ _ _ P1 P2 B3 Og Eg1) as (h & Eh & _ & Lf1 & _ & Hf1). rewrite Eh1 in Eh. injection Eh as <-.
      destruct Hok as (Dd & Lm & Lo & _). destruct Hok1 as (Dd1 & Lm1 & Lo1 & _).
      rewrite (euler_nt _ _ _ _ _ _ _ _ E3 (only_gravity_wall _ Og) Ne Eg0 ltac:(congruence)).
      rewrite (euler_nt _ _ _ _ _ _ _ _ B3 (only_gravity_wall _ Og) Ne Eg1 ltac:(congruence)).
      assert (Hmom : nth (Z.to_nat (it_hash r)) (gr_mom g1) vzero = vadd (nth (Z.to_nat (it_hash r)) (gr_mom g0) vzero) (vscale (nth (Z.to_nat (it_hash r)) (gr_mass g0) 0) v)).
      { replace (gr_mom g1) with (gr_mom h1) by congruence. replace (gr_mom g0) with (gr_mom h0) by congruence. replace (gr_mass g0) with (gr_mass h0) by congruence. apply H. }
      assert (Hfo : nth (Z.to_nat (it_hash r)) (gr_force g1) vzero = nth (Z.to_nat (it_hash r)) (gr_force g0) vzero).
      { rewrite Hf1, Hf0, Fo, Gm. reflexivity. }
      rewrite Hfo, Hmom. set (m := nth (Z.to_nat (it_hash r)) (gr_mass g0) 0) in *.
      replace (Rltb (cut_of S) m) with true by (symmetry; rcase; [reflexivity|lra]).
      assert (Fl : v = vtrunc (gr_dim g0) v) by (rewrite Dd; symmetry; apply Flat; eapply nth_error_In; exact Egd).
      cbv beta. match goal with |- ?A = vadd ?B v /\ ?C = vadd ?D v =>
        cut (A = vadd B (vtrunc (gr_dim g0) v) /\ C = vadd D (vtrunc (gr_dim g0) v)); [rewrite <- Fl; tauto|] end.
      split; apply (node_vel_add (cut_of S)); try exact Hm; try lra; [exact Hmom|].
      apply vcomp_eq; intro a. repeat first [rewrite vcomp_add|rewrite vcomp_scale]. ring.
  - intros c Hc Hs. destruct (g2p_once _ _ _ _ _ _ _ A4 Nd c Hc Hs) as (s & it & g & _ & _ & _ & A & _).
    destruct (Forall2_nth_error _ _ _ _ _ Hg3 A) as (gd & Egd & _). exists gd. exact Egd.
Qed.
End Boost.
