(** Gravity applied on the grid accelerates every particle alike and deforms nothing (C52). *)
From Coq Require Import List Arith ZArith Reals Bool Lra Lia.
From Verif Require Import Num NumR Linalg Arrays ModelGrid ModelShape ModelMath ModelState ModelLaws ModelForces ModelSolver
  Sums ShapeFacts SpecShape ShapeProofs ShapeProofs2 ShapeProofs3 MappingProofs ResFacts SolverFacts SpecSolver
  TransferProofs TransferProofs2 StepProofs GatherProofs MomentumProofs AffineProofs StepAffine HeavyProofs SolverMore ShiftProofs.
Import ListNotations.
Local Open Scope R_scope.

(** the same solver with its force list emptied *)
Definition without_forces (S : Solver R) : Solver R :=
  {| so_scheme := so_scheme S; so_alpha := so_alpha S; so_domains := so_domains S; so_couplings := so_couplings S;
     so_laws := so_laws S; so_forces := []; so_sdfs := so_sdfs S; so_sharp := so_sharp S |}.
Lemma prepare_without S st : prepare (without_forces S) st = prepare S st.
Proof. reflexivity. Qed.
Lemma gravity_pre fs (w : World R) m : only_gravity fs -> rfold (fun w f => apply_pre_p2g f w m) w fs = Ok w.
Proof.
  intros Og. induction fs as [|f fs IH]; [reflexivity|]. cbn [rfold]. assert (Hf := Og f (or_introl eq_refl)).
  destruct f as [gr|dm|cl|ct]; try contradiction. cbn [apply_pre_p2g]. rewrite Hf. apply IH. intros x Hx. apply Og. right. exact Hx.
Qed.
Lemma p2g_without S w m ca : only_gravity (so_forces S) -> p2g (without_forces S) w m ca = p2g S w m ca.
Proof. intros Og. unfold p2g. rewrite (gravity_pre (so_forces S) w m Og). reflexivity. Qed.

(** velocity every particle of a coupling gains in one step *)
Definition fall (S : Solver R) (st : SimState R) (gi : nat) : vec3 R :=
  match nth_error (so_domains S) gi with
  | Some gd => vscale (s_dt st) (vtrunc (gd_dim gd) (vsum (gravity_on (s_mech st) gi) (so_forces S)))
  | None => vzero
  end.
Lemma euler_nt (S : Solver R) w m dt ca ca3 gi g : integrate_grid S w m dt ca = Ok ca3 ->
  existsb is_wall (so_forces S) = false -> active_on S gi <> [] -> nth_error (sc_grids ca3) gi = Some g ->
  length (gr_mom g) = length (gr_force g) ->
  forall i, nth i (gr_mom_nt g) vzero = vadd (nth i (gr_mom g) vzero) (vscale dt (nth i (gr_force g) vzero)).
Proof.
  intros E Hw Ha Eg L i. destruct (integrate_euler _ _ _ _ _ _ _ _ E Hw Ha Eg) as (g1 & ->). cbn [integrate1 gr_mom gr_force gr_mom_nt] in *.
  apply nth_euler, L.
Qed.
Lemma node_vel_add (cut m : R) d (x y v : vec3 R) : cut < m -> 0 < m -> y = vadd x (vscale m v) ->
  vtrunc d (vdivs y m) = vadd (vtrunc d (vdivs x m)) (vtrunc d v).
Proof.
  intros H1 H2 ->. apply vcomp_eq; intro a. rewrite vcomp_add, !vcomp_trunc.
  unfold vdivs, vadd, vscale, vcomp, vtrunc. rnum. destruct d, a as [|[|a]]; simpl; try ring; field; lra.
Qed.

Section GravityShift.
Variables (S : Solver R) (st st1 st0 : SimState R) (w : World R) (ca : SimCache R) (w2 : World R) (ca2 ca3 : SimCache R).
Hypothesis E1 : prepare S st = Ok (w, ca).
Hypothesis E2 : p2g S w (s_mech st) ca = Ok (w2, ca2).
Hypothesis E3 : integrate_grid S w2 (s_mech st) (s_dt st) ca2 = Ok ca3.
Hypothesis St1 : solver_step S st = Ok st1.
Hypothesis St0 : solver_step (without_forces S) st = Ok st0.
Hypothesis Hin : inside S (s_world st).
Hypothesis Nd : NoDup (map c_p (active S)).
Hypothesis Og : only_gravity (so_forces S).
Hypothesis Cut : 0 <= cut_of S.
Hypothesis Hv : forall gi g c, nth_error (sc_grids ca3) gi = Some g -> In c (active_on S gi) -> heavy S (s_world st) g c.
Lemma boosted_refl l : Forall2 (boosted vzero) l l.
Proof.
  apply Forall2_refl. intros [s|r]; [|reflexivity]. simpl. repeat split. apply Forall2_refl. intro p. repeat split.
  apply vcomp_eq; intro a. rewrite vcomp_add, vcomp_zero. ring.
Qed.
Theorem gravity_shift :
  Forall2 same_body (w_mps (s_world st1)) (w_mps (s_world st0)) /\ m_laws (s_mech st1) = m_laws (s_mech st0) /\
  m_solvers (s_mech st1) = m_solvers (s_mech st0) /\
  forall c gd, In c (so_couplings S) -> c_skip c = false -> nth_error (so_domains S) (c_g c) = Some gd ->
    Forall2 (shifted (so_scheme S) (gd_cell gd) (s_dt st) (fall S st (c_g c))) (pts_at (s_world st1) (c_p c)) (pts_at (s_world st0) (c_p c)).
Proof.
  apply step_ok in St1. destruct St1 as (wa & caa & wb & cab & cac & x1 & k1 & y1 & l1 & A1 & A2 & A3 & A4 & A5 & ->).
  rewrite E1 in A1. injection A1 as <- <-. rewrite E2 in A2. injection A2 as <- <-. rewrite E3 in A3. injection A3 as <-.
  apply step_ok in St0. destruct St0 as (wa & caa & wb & cab & ca3' & x0 & k0 & y0 & l0 & B1 & B2 & B3 & B4 & B5 & ->).
  rewrite prepare_without, E1 in B1. injection B1 as <- <-. rewrite p2g_without, E2 in B2 by exact Og. injection B2 as <- <-.
  cbn [s_world s_mech].
  assert (Og0 : only_gravity (so_forces (without_forces S))) by (intros f []).
  assert (E2' : p2g (without_forces S) w (s_mech st) ca = Ok (w2, ca2)) by (rewrite p2g_without; assumption).
  destruct (p2g_grids _ _ _ _ _ _ E1 E2) as (gs & X & Ei & F0 & F & _).
  destruct (integrate_same_mm _ _ _ _ _ _ E3) as (SM & In3 & _). destruct (integrate_same_mm _ _ _ _ _ _ B3) as (SM0 & In30 & _).
  assert (Hg3 : Forall2 grid_ok (so_domains S) (sc_grids ca3))
    by (eapply integrate_grids_ok; [exact E3|rewrite (only_gravity_wall _ Og); discriminate|rewrite X; exact F]).
  assert (Hg30 : Forall2 grid_ok (so_domains S) (sc_grids ca3'))
    by (eapply (integrate_grids_ok (without_forces S)); [exact B3|discriminate|rewrite X; exact F]).
  eapply (two_steps S (without_forces S) (s_dt st) w2 w2 (s_mech st) (s_mech st) ca3 ca3' vzero (fall S st)) with (x1 := x1) (x0 := x0) (k1 := k1) (k0 := k0);
    try reflexivity; try assumption.
  - apply boosted_refl.
  - congruence.
  - intros c it s g1 g0 Hc Hs Hit Es Eg1 Eg0.
    destruct (Forall2_nth_error _ _ _ _ _ Hg3 Eg1) as (gd & Egd & Hok). destruct (Forall2_nth_error _ _ _ _ _ Hg30 Eg0) as (gd' & Egd' & Hok0).
    rewrite Egd in Egd'. injection Egd' as <-.
    rewrite In3, Ei in Hit. destruct (p2g_rows _ _ _ _ _ _ _ _ _ _ E1 E2 Hin Hc Es Hit Egd) as (Ws & k & Hk & Eit & I).
    pose proof (step_rows _ _ _ _ _ _ _ _ _ E1 E2 Hc Es Hit) as Er.
    destruct (Forall2_nth_error _ _ _ _ _ SM Eg1) as (g2 & Eg2 & Md & Mm & Mo). destruct (Forall2_nth_error _ _ _ _ _ SM0 Eg0) as (g2' & Eg2' & Md0 & Mm0 & Mo0).
    rewrite Eg2 in Eg2'. injection Eg2' as <-.
    assert (Gm : gr_mass g1 = gr_mass g0) by congruence. assert (Gd : gr_dim g1 = gr_dim g0) by congruence. assert (Go : gr_mom g1 = gr_mom g0) by congruence.
    split; [rewrite Er; apply rows_masks1|]. split; [exact Gd|]. split; [exact Gm|]. split.
    + intros p Hp. rewrite Eit. assert (Ip : interior k gd (nth p (map pt_pos (sb_pts s)) vzero)).
      { rewrite (nth_indep _ vzero (pt_pos (pt0 (T := R)))) by (rewrite map_length; exact Hp). rewrite map_nth. apply I, nth_In, Hp. }
      split; [apply pou|apply grads_sum_zero]; try assumption; rewrite map_length; exact Hp.
    + intros r Hr Hz. assert (Ha : In c (active_on S (c_g c))) by (apply active_on_in; auto).
      assert (Hm : cut_of S < nth (Z.to_nat (it_hash r)) (gr_mass g1) 0) by (apply (Hv _ _ _ Eg1 Ha); [rewrite <- Er; exact Hr|exact Hz]).
      assert (Ne : active_on S (c_g c) <> []) by (intro Z; rewrite Z in Ha; contradiction).
      unfold node_vel. rewrite <- Gm, <- Gd, <- Go. rnum. change (@numt_num R NumT_R) with Num_R.
      split; [apply vcomp_eq; intro a; rewrite vcomp_add, vcomp_zero; ring|].
      destruct (gravity_forces _ _ _ _ _ _ _ _ _ E1 E2 E3 Og Eg1) as (h & Eh & _ & Lf1 & Lh & Hf1). rewrite Eg2 in Eh. injection Eh as <-.
      destruct (gravity_forces (without_forces S) _ _ _ _ _ _ _ _ E1 E2' B3 Og0 Eg0) as (h & Eh & _ & Lf0 & _ & Hf0). rewrite Eg2 in Eh. injection Eh as <-.
      destruct Hok as (Dd & Lm & Lo & _). destruct Hok0 as (Dd0 & Lm0 & Lo0 & _).
      rewrite (euler_nt _ _ _ _ _ _ _ _ E3 (only_gravity_wall _ Og) Ne Eg1 ltac:(congruence)).
      rewrite (euler_nt (without_forces S) _ _ _ _ _ _ _ B3 (only_gravity_wall _ Og0) Ne Eg0 ltac:(congruence)).
      rewrite <- Go. set (m := nth (Z.to_nat (it_hash r)) (gr_mass g1) 0) in *.
      replace (Rltb (cut_of S) m) with true by (symmetry; rcase; [reflexivity|lra]).
      unfold fall. rewrite Egd, <- Dd.
      replace (vscale (s_dt st) (vtrunc (gr_dim g1) (vsum (gravity_on (s_mech st) (c_g c)) (so_forces S))))
        with (vtrunc (gr_dim g1) (vscale (s_dt st) (vsum (gravity_on (s_mech st) (c_g c)) (so_forces S))))
        by (apply vcomp_eq; intro a; rewrite vcomp_scale, !vcomp_trunc, vcomp_scale; destruct (gr_dim g1), a as [|[|a]]; simpl; ring).
      apply (node_vel_add (cut_of S)); [exact Hm|lra|]. rewrite Hf1, Hf0. rewrite <- Gm. fold m. simpl so_forces.
      apply vcomp_eq; intro a. rewrite !vcomp_add, !vcomp_scale, !vcomp_add, !vcomp_scale, !vcomp_vsum. unfold sumR at 2; simpl. ring.
  - intros c Hc Hs. destruct (g2p_once _ _ _ _ _ _ _ A4 Nd c Hc Hs) as (s & it & g & _ & _ & _ & A & _).
    destruct (Forall2_nth_error _ _ _ _ _ Hg3 A) as (gd & Egd & _). exists gd. exact Egd.
Qed.
End GravityShift.

(** a stress free body in uniform motion falls as one *)
Theorem free_fall S st st1 st0 w ca w2 ca2 ca3 : prepare S st = Ok (w, ca) -> p2g S w (s_mech st) ca = Ok (w2, ca2) ->
  integrate_grid S w2 (s_mech st) (s_dt st) ca2 = Ok ca3 -> solver_step S st = Ok st1 -> solver_step (without_forces S) st = Ok st0 ->
  inside S (s_world st) -> NoDup (map c_p (active S)) -> only_gravity (so_forces S) -> 0 <= cut_of S ->
  (forall gi g c, nth_error (sc_grids ca3) gi = Some g -> In c (active_on S gi) -> heavy S (s_world st) g c) ->
  forall gi gd v, nth_error (so_domains S) gi = Some gd -> wf_grid gd ->
  (forall c p, In c (active_on S gi) -> In p (pts_at (s_world st) (c_p c)) ->
     pt_vel p = vtrunc (gd_dim gd) v /\ pt_stress p = mzero /\ (gd_dim gd = D2 -> m22 (pt_F p) = 1)) ->
  affine_state S (s_mech st) gi gd mzero -> unlimited S gi gd (s_world st) (s_dt st) -> unlimited S gi gd (s_world st1) (s_dt st) ->
  forall c, In c (active_on S gi) ->
  Forall2 (fun p q => pt_vel q = vadd (pt_vel p) (fall S st gi) /\
      pt_pos q = vadd (pt_pos p) (vscale (s_dt st) (vadd (pt_vel p) (fall S st gi))) /\
      pt_L q = mzero /\ pt_vol q = mdet (pt_F p) * pt_vol0 p /\ pt_mass q = pt_mass p)
    (pts_at (s_world st) (c_p c)) (pts_at (s_world st1) (c_p c)).
Proof.
  intros E1 E2 E3 St1 St0 Hin Nd Og Cut Hv gi gd v Egd W U Af Un Un1 c Hc.
  destruct (gravity_shift S st st1 st0 w ca w2 ca2 ca3 E1 E2 E3 St1 St0 Hin Nd Og Cut Hv) as (_ & _ & _ & Sh).
  pose proof Hc as Hc'. apply active_on_in in Hc'. destruct Hc' as (Hc1 & Hs & Hg).
  specialize (Sh c gd Hc1 Hs ltac:(rewrite Hg; exact Egd)). rewrite Hg in Sh.
  destruct (step_ok _ _ _ St0) as (wa & caa & wb & cab & ca3' & x0 & k0 & y0 & l0 & B1 & B2 & B3 & _).
  rewrite prepare_without, E1 in B1. injection B1 as <- <-. rewrite p2g_without, E2 in B2 by exact Og. injection B2 as <- <-.
  destruct (integrate_same_mm _ _ _ _ _ _ E3) as (SM & _). destruct (integrate_same_mm _ _ _ _ _ _ B3) as (SM0 & _).
  assert (Gs : exists g0 g, nth_error (sc_grids ca3') gi = Some g0 /\ nth_error (sc_grids ca3) gi = Some g /\ gr_mass g0 = gr_mass g).
  { destruct (p2g_grids _ _ _ _ _ _ E1 E2) as (gs & X & _ & _ & F & _). subst gs.
    destruct (Forall2_nth_error_l _ _ _ _ _ F Egd) as (h & Eh & _).
    destruct (Forall2_nth_error_l _ _ _ _ _ SM Eh) as (g & Eg & _ & M & _). destruct (Forall2_nth_error_l _ _ _ _ _ SM0 Eh) as (g0 & Eg0 & _ & M0 & _).
    exists g0, g. repeat split; try assumption. congruence. }
  destruct Gs as (g0 & g & Eg0 & Eg & Em).
  assert (Hv0 : heavy (without_forces S) (s_world st) g0 c).
  { unfold heavy. rewrite Em. exact (Hv gi g c Eg Hc). }
  assert (E2' : p2g (without_forces S) w (s_mech st) ca = Ok (w2, ca2)) by (rewrite p2g_without; assumption).
  destruct (step_uniform (without_forces S) st st0 w ca w2 ca2 ca3' E1 E2' B3 St0 Hin Nd eq_refl Cut gi g0 gd v Eg0 Egd W U Af Un c Hc Hv0) as (Fp & _).
  assert (Un' : match so_scheme S with USL => True | ASFLIP a => (forall p, In p (pts_at (s_world st) (c_p c)) -> unclamped a gd (s_dt st) p) /\
                   forall p, In p (pts_at (s_world st1) (c_p c)) -> unclamped a gd (s_dt st) p end).
  { unfold unlimited in *. destruct (so_scheme S); [exact I|]. split; intros p; [apply Un|apply Un1]; exact Hc. }
  revert Fp Sh Un'. clear. generalize (pts_at (s_world st) (c_p c)) (pts_at (s_world st0) (c_p c)) (pts_at (s_world st1) (c_p c)).
  intros l0 l l1 Fp Sh. revert l0 Fp. induction Sh as [|q1 q0 l1 l Hq _ IH]; intros l0 Fp Un.
  - inversion Fp; subst. constructor.
  - inversion Fp as [|p a b c0 (V & X & L & Vo & M) Fl]; subst. constructor.
    + destruct Hq as (Sm & Sx & Sv). destruct Sm as (Mm & _ & Mv & _ & ML & _).
      rewrite ML, Mv, Mm. split; [|split; [|auto]].
      * destruct (so_scheme S) as [|a]; [rewrite Sv, V; reflexivity|]. destruct Sv as (u & S0 & S1). destruct Un as (Ua & Ub).
        assert (u = pt_vel q0). { rewrite S0. symmetry. apply clamp_inactive. rewrite <- S0, V. apply (Ua p). left. reflexivity. }
        subst u. rewrite S1, <- V. apply clamp_inactive. rewrite <- S1. apply (Ub q1). left. reflexivity.
      * rewrite Sx, X. apply vcomp_eq; intro i. rewrite !vcomp_add, !vcomp_scale, !vcomp_add. ring.
    + apply IH; [exact Fl|]. destruct (so_scheme S); [exact I|]. destruct Un as (Ua & Ub). split; intros r Hr; [apply Ua|apply Ub]; right; exact Hr.
Qed.
