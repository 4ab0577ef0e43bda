(** Property theorems C126: angular momentum through the gather of AFLIP. *)
From Coq Require Import List Arith ZArith Reals Bool Lra Lia.
From Flocq Require Import Core.Raux.
From Verif Require Import Num NumR Linalg Arrays ModelGrid ModelShape ModelMath ModelState ModelLaws ModelForces ModelSolver
  Sums ShapeFacts SpecShape ShapeProofs ShapeProofs2 ShapeProofs3 P_Shape MappingProofs ResFacts SolverFacts SpecSolver
  TransferProofs TransferProofs2 StepProofs GatherProofs MomentumProofs AffineProofs StepAffine HeavyProofs VirialProofs SolverMore PlaneProofs ProgressProofs
  ExSolver P_Solver P_Solver2 SpecMath MathProofs SpecLaws P_Laws LawProofs DeformProofs LawApplyProofs P_Apply EnergyProofs P_Energy SpinProofs LoneProofs.
Import ListNotations.
Local Open Scope R_scope.

(** angular momentum in the plane of [a], [b] that the bodies on grid [gi] hand to the grid (see C111_aflip): moment of the particle
    velocities and skew part of the stored matrices *)
Definition carried (S : Solver R) (st : SimState R) (gi : nat) (gd : GridDomain R) (a b : nat) : R := sumR (body_spin S (s_mech st) (s_world st) gd a b) (active_on S gi).
(** what a step with alpha = 0 requires *)
Definition aflip_step (S : Solver R) (af : AFLIP R) (st st' : SimState R) (gi : nat) (g : Grid R) (gd : GridDomain R) : Prop :=
  (exists w ca w2 ca2 ca3, prepare S st = Ok (w, ca) /\ p2g S w (s_mech st) ca = Ok (w2, ca2) /\
     integrate_grid S w2 (s_mech st) (s_dt st) ca2 = Ok ca3 /\ nth_error (sc_grids ca3) gi = Some g) /\
  solver_step S st = Ok st' /\ so_scheme S = ASFLIP af /\ so_alpha S = 0 /\ 0 <= af_cutoff af /\ inside S (s_world st) /\ one_kernel S /\
  NoDup (map c_p (active S)) /\ nth_error (so_domains S) gi = Some gd /\ wf_grid gd /\
  (forall a, (a < dim_nat (gd_dim gd))%nat -> above (af_cutoff af) g (gr_mom_nt g) a) /\
  (forall c, In c (active_on S gi) -> c_s c = Some (c_p c) /\ forall p, In p (pts_at (s_world st') (c_p c)) -> unclamped af gd (s_dt st) p).
(** what the bodies carry after the step: what the grid carried, and what the stored matrices miss *)
Theorem C126_balance : forall (S : Solver R) af st st' gi g gd a b, aflip_step S af st st' gi g gd ->
  (a < dim_nat (gd_dim gd))%nat -> (b < dim_nat (gd_dim gd))%nat ->
  carried S st' gi gd a b
  = sumR (fun i => vcomp a (nth i (position_stack gd) vzero) * vcomp b (nth i (gr_mom_nt g) vzero)
                 - vcomp b (nth i (position_stack gd) vzero) * vcomp a (nth i (gr_mom_nt g) vzero)) (seq 0 (Z.to_nat (num_cells gd)))
    + sumR (fun c => sumR (fun n => let x' := pt_pos (pt_in (s_world st') c n) in let h := gd_cell gd in
        let V k it := vcomp k (node_vel (af_cutoff af) (gr_dim g) g (gr_mom_nt g) it) in
        let gap k it := h * (h * point_second (c_kernel c) gd k x' * vcomp k (it_grad it) + it_val it * vcomp k (it_dist it)) in
        pt_mass (pt_in (s_world st) c n) * sumR (fun it => gap a it * V b it - gap b it * V a it) (of_point n (rows_of S (s_world st) c)))
      (seq 0 (length (pts_at (s_world st) (c_p c))))) (active_on S gi).
Proof.
  intros S af st st' gi g gd a b ((w & ca & w2 & ca2 & ca3 & E1 & E2 & E3 & Eg) & E & Sch & Al & Hcut & Hin & O & Nd & Egd & W & Ab & Hc) Ha Hb.
  unfold carried. rewrite (aflip_spin S af st st' w ca w2 ca2 ca3 E1 E2 E3 E Sch Al Hcut Hin Nd gi g gd a b Eg Egd W Ha Hb (Ab a Ha) (Ab b Hb) Hc).
  unfold spin_nt. f_equal. apply sumR_ext_all. intros c. apply sumR_ext_all. intros n. cbv zeta. f_equal. unfold missed. rewrite <- sumR_minus. reflexivity.
Qed.
Print Assumptions C126_balance.
(** nodal velocities affine around the bodies (a rigid rotation): everything is kept, with the quadratic and cubic kernels *)
Theorem C126_affine : forall (S : Solver R) af st st' gi g gd a b A v, aflip_step S af st st' gi g gd ->
  (a < dim_nat (gd_dim gd))%nat -> (b < dim_nat (gd_dim gd))%nat ->
  (forall c n, In c (active_on S gi) -> (n < length (pts_at (s_world st) (c_p c)))%nat -> c_kernel c <> Linear /\
     affine_rows (c_kernel c) gd (map pt_pos (pts_at (s_world st) (c_p c))) n A v (node_vel (af_cutoff af) (gr_dim g) g (gr_mom_nt g))) ->
  carried S st' gi gd a b
  = sumR (fun i => vcomp a (nth i (position_stack gd) vzero) * vcomp b (nth i (gr_mom_nt g) vzero)
                 - vcomp b (nth i (position_stack gd) vzero) * vcomp a (nth i (gr_mom_nt g) vzero)) (seq 0 (Z.to_nat (num_cells gd))).
Proof.
  intros S af st st' gi g gd a b A v ((w & ca & w2 & ca2 & ca3 & E1 & E2 & E3 & Eg) & E & Sch & Al & Hcut & Hin & O & Nd & Egd & W & Ab & Hc) Ha Hb Haf.
  unfold carried. rewrite (aflip_spin S af st st' w ca w2 ca2 ca3 E1 E2 E3 E Sch Al Hcut Hin Nd gi g gd a b Eg Egd W Ha Hb (Ab a Ha) (Ab b Hb) Hc).
  unfold spin_nt. match goal with |- ?x + ?y = _ => assert (Z : y = 0); [|rewrite Z; apply Rplus_0_r] end. apply sumR_zero. intros c Hca. apply sumR_zero. intros n Hn. apply in_seq in Hn. cbv zeta.
  destruct (active_rows _ _ _ _ _ _ E1 E2 Hin gi gd c Egd Hca) as (Ws & k & Ek & Er & I). specialize (Ek O). subst k. rewrite Er.
  destruct (Haf c n Hca ltac:(lia)) as (Nl & Aff).
  destruct (gather_grid S st w ca w2 ca2 ca3 E1 E2 E3 gi g gd Eg Egd) as (g0 & _ & _ & Ed & _).
  assert (Sm : smooth_at A (c_kernel c) gd (pt_pos (nth n (pts_at (s_world st) (c_p c)) pt0))) by (intros X; contradiction).
  assert (Ps : forall e x y, point_second (c_kernel c) gd e x = point_second (c_kernel c) gd e y) by (intros; unfold point_second, axis_second; destruct (c_kernel c); [contradiction|reflexivity|reflexivity]).
  assert (Ip : interior (c_kernel c) gd (pt_pos (nth n (pts_at (s_world st) (c_p c)) pt0))) by (apply I, nth_In; lia).
  rewrite !(missed_affine (af_cutoff af) (c_kernel c) gd (pts_at (s_world st) (c_p c)) g n A v) by (try assumption; try lia; apply Ps). ring.
Qed.
Print Assumptions C126_affine.
(** the linear kernel: everything is kept about the positions the matrices were gathered at, whatever the nodal velocities *)
Theorem C126_linear : forall (S : Solver R) af st st' gi g gd a b, aflip_step S af st st' gi g gd ->
  (a < dim_nat (gd_dim gd))%nat -> (b < dim_nat (gd_dim gd))%nat -> (forall c, In c (active_on S gi) -> c_kernel c = Linear) ->
  sumR (fun c => sumR (fun n => let p := pt_in (s_world st) c n in let q := pt_in (s_world st') c n in let B := affine_of S (s_mech st') c n in
      pt_mass q * (vcomp a (pt_pos q) * vcomp b (pt_vel q) - vcomp b (pt_pos q) * vcomp a (pt_vel q)
        - gd_cell gd * gd_cell gd * (point_second Linear gd a (pt_pos p) * mcomp b a B - point_second Linear gd b (pt_pos p) * mcomp a b B)))
      (seq 0 (length (pts_at (s_world st) (c_p c))))) (active_on S gi)
  = sumR (fun i => vcomp a (nth i (position_stack gd) vzero) * vcomp b (nth i (gr_mom_nt g) vzero)
                 - vcomp b (nth i (position_stack gd) vzero) * vcomp a (nth i (gr_mom_nt g) vzero)) (seq 0 (Z.to_nat (num_cells gd))).
Proof.
  intros S af st st' gi g gd a b ((w & ca & w2 & ca2 & ca3 & E1 & E2 & E3 & Eg) & E & Sch & Al & Hcut & Hin & O & Nd & Egd & W & Ab & Hc) Ha Hb Hk.
  pose proof (aflip_spin S af st st' w ca w2 ca2 ca3 E1 E2 E3 E Sch Al Hcut Hin Nd gi g gd a b Eg Egd W Ha Hb (Ab a Ha) (Ab b Hb) Hc) as Bal.
  apply Rplus_eq_reg_r with (r := sumR (fun c => sumR (fun n => let x' := pt_pos (pt_in (s_world st') c n) in
      pt_mass (pt_in (s_world st) c n) * (missed (af_cutoff af) (c_kernel c) gd (rows_of S (s_world st) c) g n x' a b
                                          - missed (af_cutoff af) (c_kernel c) gd (rows_of S (s_world st) c) g n x' b a))
      (seq 0 (length (pts_at (s_world st) (c_p c))))) (active_on S gi)).
  etransitivity; [|exact Bal]. rewrite <- sumR_plus. apply sumR_ext. intros c Hca.
  destruct (active_rows _ _ _ _ _ _ E1 E2 Hin gi gd c Egd Hca) as (Ws & k & Ek & Er & I). specialize (Ek O). subst k.
  rewrite (Hk c Hca) in *. destruct (step_masses S st st' c E) as (Len & Mass).
  unfold body_spin. rewrite (Hk c Hca), Len, <- sumR_plus. apply sumR_ext. intros n Hn. apply in_seq in Hn. cbv zeta. rewrite Mass by lia.
  destruct (proj1 (active_on_in _ _ _) Hca) as (Hc1 & Hsk & Hcg). destruct (Hc c Hca) as (Cs & _).
  assert (Eg' : nth_error (sc_grids ca3) (c_g c) = Some g) by (rewrite Hcg; exact Eg).
  destruct (step_stored S af st st' w ca w2 ca2 ca3 Sch E1 E2 E3 E Nd c g Hc1 Hsk Eg') as (Bp & B1 & B2 & B3).
  assert (Af : affine_of S (s_mech st') c n = af_B (af_cutoff af) (rows_of S (s_world st) c) g n).
  { unfold affine_of. rewrite Sch, Cs, B1. rewrite B2. replace (Nat.min n _) with n by lia. apply B3. lia. }
  rewrite Af.
  assert (Z : forall e f, (e < dim_nat (gd_dim gd))%nat -> missed (af_cutoff af) Linear gd (rows_of S (s_world st) c) g n (pt_pos (pt_in (s_world st) c n)) e f = 0).
  { intros e f He. rewrite Er. unfold pt_in. rewrite <- xs_nth. apply missed_linear; [rewrite map_length; lia|exact W|exact He]. }
  pose proof (Z a b Ha) as Z1. pose proof (Z b a Hb) as Z2. rewrite missed_eq in Z1, Z2. rewrite !missed_eq.
  apply Rminus_diag_eq in Z1.
  set (X1 := gd_cell gd * lever (af_cutoff af) (rows_of S (s_world st) c) g n a b) in *.
  set (X2 := gd_cell gd * lever (af_cutoff af) (rows_of S (s_world st) c) g n b a) in *.
  assert (Y1 : X1 = gd_cell gd * gd_cell gd * (point_second Linear gd a (pt_pos (pt_in (s_world st) c n)) * mcomp b a (af_B (af_cutoff af) (rows_of S (s_world st) c) g n))) by lra.
  assert (Y2 : X2 = gd_cell gd * gd_cell gd * (point_second Linear gd b (pt_pos (pt_in (s_world st) c n)) * mcomp a b (af_B (af_cutoff af) (rows_of S (s_world st) c) g n))) by lra.
  rewrite Y1, Y2. ring.
Qed.
Print Assumptions C126_linear.

(** *** one point alone on the grid *)
Definition S_one (k : Kernel) : Solver R :=
  {| so_scheme := ASFLIP aflipR; so_alpha := 0; so_domains := [g2]; so_couplings := [cplK k false]; so_laws := [Some lawR]; so_forces := []; so_sdfs := []; so_sharp := 1 |}.
Definition one (x v : vec3 R) (s B : mat3 R) : SimState R := stateR [bodyR [pt x v s meye]] B (1/10).
Lemma cut_small : 0 <= af_cutoff aflipR < 1/1024.
Proof. exact (ex_cut (ASFLIP aflipR) 0 1 (or_intror eq_refl)). Qed.
Lemma one_step k x v s B : interior k g2 x -> vz v = 0 -> vnorm v <= 9 -> (forall it, In it (compute_on k g2 [x]) -> 1/1024 <= it_val it) ->
  let S := S_one k in let st := one x v s B in let c := cplK k false in let rows := compute_on k g2 [x] in
  exists st' w ca w2 ca2 ca3 g, prepare S st = Ok (w, ca) /\ p2g S w (s_mech st) ca = Ok (w2, ca2) /\ integrate_grid S w2 (s_mech st) (s_dt st) ca2 = Ok ca3 /\
    nth_error (sc_grids ca3) 0 = Some g /\ aflip_step S aflipR st st' 0 g g2 /\ rows_of S (s_world st) c = rows /\
    forall it b, In it rows -> (b < 2)%nat -> vcomp b (node_vel (af_cutoff aflipR) (gr_dim g) g (gr_mom_nt g) it)
      = vcomp b v + vdot (mrow b B) (it_dist it) + 1/10 * (vdot (mrow b s) (it_grad it) / it_val it).
Proof.
  intros I Vz Vn Hv S st c rows. set (p := pt x v s meye).
  assert (X : exists st', solver_step S st = Ok st') by (destruct k; eexists; reflexivity). destruct X as (st' & E).
  destruct (ex_phases _ _ _ E) as (w & ca & w2 & ca2 & ca3 & E1 & E2 & E3).
  assert (X : exists g, nth_error (sc_grids ca3) 0 = Some g).
  { destruct (integrate_same_mm _ _ _ _ _ _ E3) as (SM & _). destruct (p2g_grids _ _ _ _ _ _ E1 E2) as (gs & X & _ & _ & F & _). subst gs.
    destruct (Forall2_nth_error_l _ _ _ _ _ F (eq_refl : nth_error (so_domains S) 0 = Some g2)) as (gp & Egp & _).
    destruct (nth_error (sc_grids ca3) 0) as [g|] eqn:Eg; [exists g; reflexivity|]. apply nth_error_None in Eg. apply Forall2_len in SM.
    assert (0 < length (sc_grids ca2))%nat by (apply nth_error_Some; congruence). lia. }
  destruct X as (g & Eg).
  assert (Act : active_on S 0 = [c]) by reflexivity. assert (Ep : pts_at (s_world st) (c_p c) = [p]) by reflexivity.
  assert (Hin : inside S (s_world st)).
  { intros c0 gd Hc Egd. simpl in Hc. destruct Hc as [<-|[]]. simpl in Egd. injection Egd as <-. split; [apply g2_wf|]. intros q Hq. simpl in Hq. destruct Hq as [<-|[]]. exact I. }
  assert (O : one_kernel S). { intros c0 c1 Hc Hc' _ _. simpl in Hc, Hc'. destruct Hc as [<-|[]], Hc' as [<-|[]]. reflexivity. }
  assert (Nd : NoDup (map c_p (active S))) by (repeat constructor; intros []).
  destruct cut_small as (Hcut & Hcut'). set (cut := af_cutoff aflipR) in *.
  assert (Hw : forall it, In it (compute_on (c_kernel c) g2 [pt_pos p]) -> cut < it_val it * pt_mass p).
  { intros it Hit. apply Hv in Hit. cbn [pt_mass p pt]. lra. }
  pose proof (lone_rows S st w ca w2 ca2 E1 E2 Hin O 0 g2 c p eq_refl Act Ep) as (Er & _).
  pose proof (fun a Ha => lone_above S st w ca w2 ca2 ca3 E1 E2 E3 Hin O eq_refl 0 g g2 c p Eg eq_refl g2_wf Act Ep cut a Hcut Ha Hw) as Ab.
  pose proof (fun b Hb => lone_pic S st w ca w2 ca2 ca3 E1 E2 E3 Hin O eq_refl 0 g g2 c p Eg eq_refl g2_wf Act Ep cut b Hcut Hb Hw) as Pic.
  pose proof (fun it b Hi Hb => lone_vel S st w ca w2 ca2 ca3 E1 E2 E3 Hin O eq_refl 0 g g2 c p Eg eq_refl g2_wf Act Ep cut it b Hcut Hi Hb (Hw it Hi)) as Vel.
  exists st', w, ca, w2, ca2, ca3, g. split; [exact E1|]. split; [exact E2|]. split; [exact E3|]. split; [exact Eg|]. split; [|split; [exact Er|]].
  - split; [exists w, ca, w2, ca2, ca3; auto|]. split; [exact E|]. split; [reflexivity|]. split; [reflexivity|]. split; [exact Hcut|]. split; [exact Hin|].
    split; [exact O|]. split; [exact Nd|]. split; [reflexivity|]. split; [exact g2_wf|]. split; [exact Ab|].
    intros c0 Hc. rewrite Act in Hc. destruct Hc as [<-|[]]. split; [reflexivity|]. intros q Hq.
    destruct (aflip_step_point S st st' w ca w2 ca2 ca3 E1 E2 E3 E Nd c g ltac:(left; reflexivity) eq_refl Eg aflipR g2 0 eq_refl eq_refl ltac:(simpl; lia))
      as (Ln & _ & Qv & _). rewrite Ep in Ln. change (length [p]) with 1%nat in Ln. destruct (pts_at (s_world st') (c_p c)) as [|q0 [|]] eqn:Eq; try discriminate.
    destruct Hq as [<-|[]]. cbn [nth] in Qv.
    assert (Pz : pic_vel cut (rows_of S (s_world st) c) g (gr_mom_nt g) 0 = v).
    { rewrite Er. destruct (gather_grid S st w ca w2 ca2 ca3 E1 E2 E3 0 g g2 Eg eq_refl) as (_ & _ & _ & Ed & _).
      pose proof (pic_z cut (compute_on (c_kernel c) g2 [pt_pos p]) g (gr_mom_nt g) 0 Ed) as Z.
      pose proof (Pic 0%nat ltac:(simpl; lia)) as Z0. pose proof (Pic 1%nat ltac:(simpl; lia)) as Z1.
      cbn [vcomp p pt pt_vel] in Z0, Z1. apply vec3_eq; [exact Z0|exact Z1|rewrite Vz; exact Z]. }
    fold cut in Qv. rewrite Pz in Qv.
    match type of Qv with _ = cfl_clamp _ _ _ ?u => assert (Vu : u = v) end.
    { unfold dynamic_alpha. cbn [af_dynamic aflipR so_alpha S S_one]. apply vcomp_eq. intros a. rewrite vcomp_add, vcomp_scale. ring. }
    rewrite Vu in Qv. assert (Ns : vnorm v + lit 1 (10 ^ 12) <= af_cfl aflipR * gd_cell g2 / s_dt st).
    { cbn [af_cfl aflipR gd_cell g2 s_dt st one stateR]. apply Rle_trans with (9 + 1); [apply Rplus_le_compat; [exact Vn|rnum; simpl; lra]|lra]. }
    unfold unclamped. rewrite Qv, (clamp_below _ _ _ _ Ns). exact Ns.
  - intros it b Hit Hb. rewrite (Vel it b Hit) by exact Hb. unfold row_vel, pt_in. rewrite Ep, (lone_point _ _ _ _ Hit).
    assert (Bz : affine_of S (s_mech st) c 0 = B) by reflexivity. rewrite Bz. cbn [nth p pt pt_vel pt_vol pt_mass pt_stress s_dt st one stateR gd_cell g2].
    pose proof (Hv it Hit). field. lra.
Qed.

(** *** a lone point at rest under shear *)
Definition shear : mat3 R := M3 0 1 0 1 0 0 0 0 0.
Definition x_lone : vec3 R := V3 (9/4) 2 0.
Lemma lone_interior k : interior k g2 x_lone.
Proof. destruct k; unfold interior, interior1; simpl; repeat split; lra. Qed.
(** values of the quadratic B-spline around the point *)
Lemma quad_table : @quad_basis R Num_R (5/4) = 1/32 /\ @quad_basis R Num_R (1/4) = 11/16 /\ @quad_basis R Num_R (-3/4) = 9/32 /\ @quad_basis R Num_R 1 = 1/8 /\ @quad_basis R Num_R 0 = 3/4 /\ @quad_basis R Num_R (-1) = 1/8.
Proof. unfold quad_basis; rnum. repeat split; repeat (rcase; cbn [andb]); lra. Qed.
Lemma dquad_table : @quad_dbasis R Num_R 1 (5/4) = -1/4 /\ @quad_dbasis R Num_R 1 (1/4) = -1/2 /\ @quad_dbasis R Num_R 1 (-3/4) = 3/4 /\ @quad_dbasis R Num_R 1 1 = -1/2 /\ @quad_dbasis R Num_R 1 0 = 0 /\ @quad_dbasis R Num_R 1 (-1) = 1/2.
Proof. unfold quad_dbasis; rnum. repeat split; repeat (rcase; cbn [andb]); lra. Qed.
(** the nine rows *)
Lemma lone_sum (F : Interaction R -> R) (H : R -> R -> R -> vec3 R -> R) :
  (forall it, F it = H (it_val it) (vcomp 0 (it_grad it)) (vcomp 1 (it_grad it)) (it_dist it)) ->
  sumR F (of_point 0 (compute_on Quadratic g2 [x_lone]))
  = sumR (fun xw => sumR (fun yw => let '(d, w, w') := xw in let '(e, u, u') := yw in H (w * u) (w' * u) (u' * w) (V3 d e 0))
       [(1, 1/8, -1/2); (0, 3/4, 0); (-1, 1/8, 1/2)]) [(5/4, 1/32, -1/4); (1/4, 11/16, -1/2); (-3/4, 9/32, 3/4)].
Proof.
  intros HF. rewrite (sum_of_point Quadratic g2 [x_lone] 0 F (fun off => let d := dist_vec D2 (bpos g2 x_lone) (node_idx Quadratic D2 (bpos g2 x_lone) off) in
    H (shape_val Quadratic D2 d) (vcomp 0 (shape_grad Quadratic D2 1 d)) (vcomp 1 (shape_grad Quadratic D2 1 d)) d)).
  - change (gd_dim g2) with D2. rewrite sum_stencil_2. unfold dist_vec, node_idx, bpos, base_pos, base_id; cbn [vx vy vz gd_dim g2 gd_origin gd_inv x_lone]; rnum.
    rewrite (floor_imp 1 ((9/4 - 0) * 1 - _)) by lra. rewrite (floor_imp 1 ((2 - 0) * 1 - _)) by lra.
    destruct quad_table as (Q1 & Q2 & Q3 & Q4 & Q5 & Q6). destruct dquad_table as (D1 & D2' & D3' & D4 & D5 & D6).
    unfold sumR. cbn [window map fold_right]. change (1 + 0)%Z with 1%Z. change (1 + 1)%Z with 2%Z. change (1 + 2)%Z with 3%Z.
    replace ((9/4 - 0) * 1 - 1) with (5/4) by lra. replace ((9/4 - 0) * 1 - 2) with (1/4) by lra. replace ((9/4 - 0) * 1 - 3) with (-3/4) by lra.
    replace ((2 - 0) * 1 - 1) with 1 by lra. replace ((2 - 0) * 1 - 2) with 0 by lra. replace ((2 - 0) * 1 - 3) with (-1) by lra.
    unfold shape_val, shape_grad, basis, dbasis; cbn [vx vy vz vcomp].
    repeat match goal with |- context [@quad_basis R ?I ?x] => progress change (@quad_basis R I x) with (@quad_basis R Num_R x) end.
    repeat match goal with |- context [@quad_dbasis R ?I 1 ?x] => progress change (@quad_dbasis R I 1 x) with (@quad_dbasis R Num_R 1 x) end.
    rewrite Q1, Q2, Q3, Q4, Q5, Q6, D1, D2', D3', D4, D5, D6. reflexivity.
  - simpl; lia.
  - intros off s Ho. rewrite HF. unfold single_interaction. cbn [it_val it_grad it_dist nth gd_dim g2].
    pose proof (interior_valid Quadratic g2 x_lone off (proj1 g2_wf) (lone_interior Quadratic) Ho) as V. apply idx_valid_iff in V.
    cbn [gd_dim gd_origin gd_inv g2] in V. unfold bpos in *. cbn [gd_dim gd_origin gd_inv g2] in *. rewrite V. reflexivity.
Qed.

Lemma lone_heavy it : In it (compute_on Quadratic g2 [x_lone]) -> 1/1024 <= it_val it.
Proof.
  intros H. destruct (compute_row Quadratic g2 [x_lone] it H) as (off & Ho & _ & _ & _ & E).
  rewrite (lone_point _ _ _ _ H) in E. cbn [nth] in E. rewrite E. unfold single_interaction. cbn [it_val].
  pose proof (interior_valid Quadratic g2 x_lone off (proj1 g2_wf) (lone_interior Quadratic) Ho) as V. apply idx_valid_iff in V. unfold bpos in V. rewrite V.
  cbn [gd_dim g2 shape_val]. simpl basis. clear -Ho.
  unfold dist_vec, node_idx, base_pos, base_id; cbn [vx vy vz gd_dim g2 gd_origin gd_inv x_lone]; rnum.
  rewrite (floor_imp 1 ((9/4 - 0) * 1 - _)) by lra. rewrite (floor_imp 1 ((2 - 0) * 1 - _)) by lra.
  destruct quad_table as (Q1 & Q2 & Q3 & Q4 & Q5 & Q6).
  assert (X : forall i, In i [0; 1; 2]%Z -> 1/32 <= @quad_basis R Num_R ((9/4 - 0) * 1 - IZR (1 + i))).
  { intros i Hi. simpl in Hi. destruct Hi as [<-|[<-|[<-|[]]]].
    - replace ((9/4 - 0) * 1 - IZR (1 + 0)) with (5/4) by (simpl; lra). rewrite ?Q1, ?Q2, ?Q3, ?Q4, ?Q5, ?Q6. lra.
    - replace ((9/4 - 0) * 1 - IZR (1 + 1)) with (1/4) by (simpl; lra). rewrite ?Q1, ?Q2, ?Q3, ?Q4, ?Q5, ?Q6. lra.
    - replace ((9/4 - 0) * 1 - IZR (1 + 2)) with (-3/4) by (simpl; lra). rewrite ?Q1, ?Q2, ?Q3, ?Q4, ?Q5, ?Q6. lra. }
  assert (Y : forall i, In i [0; 1; 2]%Z -> 1/32 <= @quad_basis R Num_R ((2 - 0) * 1 - IZR (1 + i))).
  { intros i Hi. simpl in Hi. destruct Hi as [<-|[<-|[<-|[]]]].
    - replace ((2 - 0) * 1 - IZR (1 + 0)) with 1 by (simpl; lra). rewrite ?Q1, ?Q2, ?Q3, ?Q4, ?Q5, ?Q6. lra.
    - replace ((2 - 0) * 1 - IZR (1 + 1)) with 0 by (simpl; lra). rewrite ?Q1, ?Q2, ?Q3, ?Q4, ?Q5, ?Q6. lra.
    - replace ((2 - 0) * 1 - IZR (1 + 2)) with (-1) by (simpl; lra). rewrite ?Q1, ?Q2, ?Q3, ?Q4, ?Q5, ?Q6. lra. }
  assert (Hv : In (vx off) [0; 1; 2]%Z /\ In (vy off) [0; 1; 2]%Z).
  { simpl in Ho. repeat (destruct Ho as [<-|Ho]; [simpl; tauto|]). contradiction. }
  repeat match goal with |- context [@quad_basis R ?I ?x] => progress change (@quad_basis R I x) with (@quad_basis R Num_R x) end.
  specialize (X _ (proj1 Hv)). specialize (Y _ (proj2 Hv)). generalize dependent (@quad_basis R Num_R ((9/4 - 0) * 1 - IZR (1 + vx off))).
  generalize dependent (@quad_basis R Num_R ((2 - 0) * 1 - IZR (1 + vy off))). clear. intros u Hu v Hv. nra.
Qed.

Lemma vnorm_zero : vnorm (vzero : vec3 R) = 0.
Proof. transitivity (sqrt (0 * 0 + 0 * 0 + 0 * 0)); [reflexivity|]. replace (0 * 0 + 0 * 0 + 0 * 0) with 0 by ring. apply sqrt_0. Qed.
(** the point, at rest with a symmetric stress and no stored matrix, carries angular momentum after the step: 1/110 from nothing *)
Theorem C126_spin_refuted : exists (S : Solver R) af st st' g gd c p, aflip_step S af st st' 0 g gd /\ so_forces S = [] /\ so_sdfs S = [] /\ active_on S 0 = [c] /\
  c_kernel c = Quadratic /\ pts_at (s_world st) (c_p c) = [p] /\ pt_vel p = vzero /\ mtrans (pt_stress p) = pt_stress p /\ affine_of S (s_mech st) c 0 = mzero /\
  carried S st 0 gd 0 1 = 0 /\
  sumR (fun i => vcomp 0 (nth i (position_stack gd) vzero) * vcomp 1 (nth i (gr_mom_nt g) vzero)
               - vcomp 1 (nth i (position_stack gd) vzero) * vcomp 0 (nth i (gr_mom_nt g) vzero)) (seq 0 (Z.to_nat (num_cells gd))) = 0 /\
  carried S st' 0 gd 0 1 = 1/110.
Proof.
  destruct (one_step Quadratic x_lone (@vzero R Num_R) shear (@mzero R Num_R) (lone_interior Quadratic) ltac:(reflexivity) ltac:(rewrite vnorm_zero; lra) lone_heavy)
    as (st' & w & ca & w2 & ca2 & ca3 & g & E1 & E2 & E3 & Eg & Bund & Er & Vel).
  set (S := S_one Quadratic) in *. set (st := one x_lone vzero shear mzero) in *. set (c := cplK Quadratic false) in *. set (p := pt x_lone vzero shear meye).
  assert (Act : active_on S 0 = [c]) by reflexivity. assert (Ep : pts_at (s_world st) (c_p c) = [p]) by reflexivity.
  pose proof Bund as (_ & E & _ & _ & Hcut & Hin & O & Nd & _ & _ & Ab & Hc).
  assert (C0 : carried S st 0 g2 0 1 = 0).
  { unfold carried. rewrite Act. unfold sumR at 1. cbn [map fold_right]. unfold body_spin. rewrite Ep. cbn [length seq]. unfold sumR. cbn [map fold_right].
    unfold pt_in. rewrite Ep. cbn [nth p pt pt_vel pt_pos pt_mass].
    assert (Bz : affine_of S (s_mech st) c 0 = mzero) by reflexivity. rewrite Bz. rewrite !vcomp_zero. cbn [mcomp mzero]. simpl. ring. }
  assert (Sp : spin_nt g2 g 0 1 = 0).
  { destruct (p2g_grids _ _ _ _ _ _ E1 E2) as (gs & X & _ & _ & F & _). subst gs.
    destruct (Forall2_nth_error_l _ _ _ _ _ F (eq_refl : nth_error (so_domains S) 0 = Some g2)) as (gp & Egp & _).
    unfold spin_nt. rewrite (C111_grid_update S st w ca w2 ca2 ca3 E1 E2 E3 Hin O eq_refl 0 gp g g2 c 0 1 Egp Eg eq_refl g2_wf Act) by
      (first [simpl; lia | intros q Hq; rewrite Ep in Hq; destruct Hq as [<-|[]]; split; [intros X; discriminate|reflexivity]]).
    rewrite (p2g_spin _ _ _ _ _ _ E1 E2 Hin O 0 gp g2 0 1 Egp eq_refl g2_wf) by (simpl; lia). exact C0. }
  exists S, aflipR, st, st', g, g2, c, p. split; [exact Bund|]. repeat (split; [first [exact Act|exact C0|exact Sp|reflexivity]|]).
  unfold carried.
  rewrite (aflip_spin S aflipR st st' w ca w2 ca2 ca3 E1 E2 E3 E eq_refl eq_refl Hcut Hin Nd 0 g g2 0 1 Eg eq_refl g2_wf ltac:(simpl; lia) ltac:(simpl; lia)
     (Ab 0%nat ltac:(simpl; lia)) (Ab 1%nat ltac:(simpl; lia)) Hc).
  rewrite Sp, Act. unfold sumR at 1. cbn [map fold_right]. rewrite Ep. cbn [length seq]. unfold sumR at 1. cbn [map fold_right]. cbv zeta.
  unfold pt_in at 1. rewrite Ep. cbn [nth p pt pt_mass]. rewrite Er.
  assert (Zr : forall b u, vdot (mrow b (mzero : mat3 R)) u = 0).
  { intros b u. rewrite vdot_comp. destruct b as [|[|b]]; unfold mzero; rnum; cbn [mrow vcomp vx vy vz m00 m01 m02 m10 m11 m12 m20 m21 m22]; ring. }
  assert (Gap : forall x' e v u, gd_cell g2 * (gd_cell g2 * point_second (c_kernel c) g2 e x' * v + u) = 1/4 * v + u).
  { intros x' e v u. unfold point_second, axis_second. cbn [c_kernel c cplK gd_cell g2]. ring. }
  assert (M01 : forall x', missed (af_cutoff aflipR) (c_kernel c) g2 (compute_on Quadratic g2 [x_lone]) g 0 x' 0 1 = 1/110).
  { intros x'. unfold missed. rewrite (sumR_ext _ (fun it => 1/40 * (vcomp 0 (it_grad it) * vcomp 0 (it_grad it) / it_val it) + 1/10 * (vcomp 0 (it_dist it) * vcomp 0 (it_grad it)))).
    - rewrite (lone_sum _ (fun v g0 g1 d => 1/40 * (g0 * g0 / v) + 1/10 * (vcomp 0 d * g0))) by reflexivity. unfold sumR. cbn [map fold_right vcomp vx]. field.
    - intros it Hit. apply in_of_point in Hit. destruct Hit as (Hit & _). rewrite (Vel it 1%nat Hit), Zr, vcomp_zero, Gap by lia.
      pose proof (lone_heavy it Hit) as Nz. rewrite vdot_comp. cbn [shear mrow vcomp vx vy vz m00 m01 m02 m10 m11 m12 m20 m21 m22]. field. lra. }
  assert (M10 : forall x', missed (af_cutoff aflipR) (c_kernel c) g2 (compute_on Quadratic g2 [x_lone]) g 0 x' 1 0 = 0).
  { intros x'. unfold missed. rewrite (sumR_ext _ (fun it => 1/40 * (vcomp 1 (it_grad it) * vcomp 1 (it_grad it) / it_val it) + 1/10 * (vcomp 1 (it_dist it) * vcomp 1 (it_grad it)))).
    - rewrite (lone_sum _ (fun v g0 g1 d => 1/40 * (g1 * g1 / v) + 1/10 * (vcomp 1 d * g1))) by reflexivity. unfold sumR. cbn [map fold_right vcomp vy]. field.
    - intros it Hit. apply in_of_point in Hit. destruct Hit as (Hit & _). rewrite (Vel it 0%nat Hit), Zr, vcomp_zero, Gap by lia.
      pose proof (lone_heavy it Hit) as Nz. rewrite vdot_comp. cbn [shear mrow vcomp vx vy vz m00 m01 m02 m10 m11 m12 m20 m21 m22]. field. lra. }
  rewrite M01, M10. lra.
Qed.
Print Assumptions C126_spin_refuted.

(** a spinning point, with the quadratic and the linear kernel: A = [[0,-1],[1,0]], velocity (1,0) at (13/4, 11/4) *)
Definition spinA : mat3 R := M3 0 (-1) 0 1 0 0 0 0 0.
Lemma xa_heavy k it : k <> Cubic -> In it (compute_on k g2 [xa]) -> 1/1024 <= it_val it.
Proof.
  intros Nc H. destruct (compute_row k g2 [xa] it H) as (off & Ho & _ & _ & _ & E). rewrite (lone_point _ _ _ _ H) in E. cbn [nth] in E.
  rewrite E. unfold single_interaction. cbn [it_val].
  pose proof (interior_valid k g2 xa off (proj1 g2_wf) (xa_interior k) Ho) as V. apply idx_valid_iff in V. unfold bpos in V. rewrite V.
  cbn [gd_dim g2 shape_val]. clear -Nc Ho. destruct k; [| |contradiction].
  - simpl basis. assert (X : forall d, In d [1/4; -3/4; 3/4; -1/4] -> 1/4 <= @lin_basis R Num_R d).
    { intros d Hd. simpl in Hd. destruct Hd as [<-|[<-|[<-|[<-|[]]]]]; first [rewrite lin_pos by lra; lra|rewrite lin_neg by lra; lra]. }
    assert (Y : forall d e, In d [1/4; -3/4; 3/4; -1/4] -> In e [1/4; -3/4; 3/4; -1/4] -> 1/1024 <= @lin_basis R Num_R d * @lin_basis R Num_R e).
    { intros d e Hd He. apply X in Hd. apply X in He. nra. }
    apply Y; unfold dist_vec, node_idx, base_pos, base_id; cbn [vx vy vz gd_dim g2 gd_origin gd_inv nth xa]; rnum;
      [rewrite (floor_imp 3) by lra|rewrite (floor_imp 2) by lra]; simpl in Ho; repeat (destruct Ho as [<-|Ho]; [simpl; rewrite ?Rmult_1_r; lra|]); contradiction.
  - simpl basis. assert (Y : forall d e, In d [5/4; 1/4; -3/4; 3/4; -1/4; -5/4] -> In e [5/4; 1/4; -3/4; 3/4; -1/4; -5/4] -> 1/1024 <= @quad_basis R Num_R d * @quad_basis R Num_R e).
    { intros d e Hd He. apply quad_pos in Hd. apply quad_pos in He. nra. }
    apply Y; unfold dist_vec, node_idx, base_pos, base_id; cbn [vx vy vz gd_dim g2 gd_origin gd_inv nth xa]; rnum;
      [rewrite (floor_imp 2) by lra|rewrite (floor_imp 2) by lra]; simpl in Ho; repeat (destruct Ho as [<-|Ho]; [simpl; rewrite ?Rmult_1_r; lra|]); contradiction.
Qed.
Example C126_case : forall k, k <> Cubic -> let S := S_one k in let st := one xa (V3 1 0 0) mzero (mopp spinA) in exists st' g, aflip_step S aflipR st st' 0 g g2 /\
  (forall c n, In c (active_on S 0) -> (n < length (pts_at (s_world st) (c_p c)))%nat -> c_kernel c = k /\
     affine_rows (c_kernel c) g2 (map pt_pos (pts_at (s_world st) (c_p c))) n spinA (V3 (15/4) (-13/4) 0) (node_vel (af_cutoff aflipR) (gr_dim g) g (gr_mom_nt g))) /\
  (k = Quadratic -> carried S st 0 g2 0 1 = -9/4).
Proof.
  intros k Nc S st. assert (Vn : vnorm (V3 1 0 0 : vec3 R) <= 9).
  { replace (vnorm (V3 1 0 0 : vec3 R)) with (sqrt (1 * 1 + 0 * 0 + 0 * 0)) by reflexivity. replace (1 * 1 + 0 * 0 + 0 * 0) with 1 by ring. rewrite sqrt_1. lra. }
  destruct (one_step k xa (V3 1 0 0) mzero (mopp spinA) (xa_interior k) eq_refl Vn (fun it => xa_heavy k it Nc))
    as (st' & w & ca & w2 & ca2 & ca3 & g & E1 & E2 & E3 & Eg & Bund & Er & Vel).
  exists st', g. split; [exact Bund|]. split.
  - intros c n Hc Hn. destruct Hc as [<-|[]]. split; [reflexivity|]. cbn in Hn. assert (n = 0)%nat by lia. subst n.
    intros it a Hit Nz Ha. change (map pt_pos (pts_at (s_world st) (c_p (cplK k false)))) with [xa] in Hit. cbn [c_kernel cplK] in Hit.
    apply in_of_point in Hit. destruct Hit as (Hit & Hp). change (In it (compute_on k g2 [xa])) in Hit. rewrite (Vel it a Hit) by exact Ha.
    assert (Rg : row_in_grid g2 (nth (it_point it) [xa] vzero) it).
    { rewrite Hp. apply (interior_rows_in_grid k g2 [xa] 0 it (proj1 g2_wf) (xa_interior k)). rewrite lone_all. exact Hit. }
    pose proof (fun e He => hash_pos_dist k g2 [xa] it e g2_wf Hit Rg He) as Hd. rewrite Hp in Hd. cbn [nth] in Hd.
    pose proof (Hd 0%nat ltac:(simpl; lia)) as H0. pose proof (Hd 1%nat ltac:(simpl; lia)) as H1. unfold aff. rewrite H0, H1.
    assert (Zr : forall b u, vdot (mrow b (mzero : mat3 R)) u = 0).
    { intros b u. rewrite vdot_comp. destruct b as [|[|b]]; unfold mzero; rnum; cbn [mrow vcomp vx vy vz m00 m01 m02 m10 m11 m12 m20 m21 m22]; ring. }
    rewrite Zr, vdot_comp. simpl in Ha. destruct a as [|[|a]]; [| |lia]; cbn [mrow mcomp mopp spinA vcomp vx vy vz xa gd_cell g2 gd_dim keep m00 m01 m02 m10 m11 m12 m20 m21 m22]; rnum; simpl; lra.
  - intros ->. unfold carried, body_spin, sumR. simpl. unfold point_second, axis_second. simpl. lra.
Qed.
