(** More about one step: velocity update formulas, speed limit, affine state ownership, ignored inputs (C21, C26-C30, C35-C38, C88). *)
From Coq Require Import List Arith ZArith Reals Bool Lra Lia.
From Verif Require Import Num NumR Linalg Arrays ModelGrid ModelShape ModelMath ModelState ModelLaws ModelForces ModelSolver
  Sums ShapeFacts SpecShape ShapeProofs ShapeProofs2 ShapeProofs3 MappingProofs ResFacts SolverFacts SpecSolver
  TransferProofs TransferProofs2 StepProofs GatherProofs MomentumProofs AffineProofs StepAffine.
Import ListNotations.
Local Open Scope R_scope.

Lemma usl_delta_pic rows g p : usl_delta rows g p = vsub (pic_vel cut12 rows g (gr_mom_nt g) p) (pic_vel cut12 rows g (gr_mom g) p).
Proof.
  apply vcomp_eq. intro a. unfold usl_delta, pic_vel. rewrite vcomp_sub, !vcomp_vsum, <- sumR_minus. apply sumR_ext_all. intro it.
  rewrite !vcomp_scale, vcomp_sub. ring.
Qed.
Lemma step_rows S st w ca w2 ca2 c s it : prepare S st = Ok (w, ca) -> p2g S w (s_mech st) ca = Ok (w2, ca2) -> In c (so_couplings S) ->
  nth_error (w_mps w2) (c_p c) = Some (Soft s) -> dict_get (c_p c, c_g c) (sc_inter ca) = Ok it -> it = rows_of S (s_world st) c.
Proof.
  intros E1 E2 Hc Hs Hit. rewrite <- (rows_of_unforced _ _ _ _ _ _ _ E1 E2).
  pose proof (prepare_ok _ _ _ _ E1) as (_ & R & _). destruct (R _ _ _ Hit) as (k & b & gd & Hk & Hb & Hgd & _ & ->).
  unfold rows_of. rewrite Hk, Hgd. unfold pts_at. rewrite Hs. f_equal.
  apply p2g_ok in E2. destruct E2 as (gs & E2 & _). apply pre_p2g_fold_ok in E2. destruct E2 as (_ & F).
  destruct (Forall2_nth_error _ _ _ _ _ F Hs) as (b' & Hb' & Sb). rewrite Hb in Hb'. injection Hb' as <-.
  destruct b as [s0|r]; simpl in Sb; [|contradiction]. destruct Sb as (_ & _ & _ & Sb). simpl. clear -Sb.
  induction Sb as [|x y l m Hxy _ IH]; [reflexivity|]. simpl. rewrite IH. f_equal. rewrite Hxy. reflexivity.
Qed.

Section Point.
Variables (S : Solver R) (st st' : SimState R) (w : World R) (ca : SimCache R) (w2 : World R) (ca2 ca3 : SimCache R).
Hypothesis E1 : prepare S st = Ok (w, ca).
Hypothesis E2 : p2g S w (s_mech st) ca = Ok (w2, ca2).
Hypothesis E3 : integrate_grid S w2 (s_mech st) (s_dt st) ca2 = Ok ca3.
Hypothesis E : solver_step S st = Ok st'.
Hypothesis Nd : NoDup (map c_p (active S)).
Variables (c : Coupling) (g : Grid R).
Hypothesis Hc : In c (so_couplings S).
Hypothesis Hs : c_skip c = false.
Hypothesis Eg : nth_error (sc_grids ca3) (c_g c) = Some g.
Local Notation pts := (pts_at (s_world st) (c_p c)).
Local Notation pts' := (pts_at (s_world st') (c_p c)).
Local Notation rows := (rows_of S (s_world st) c).
Local Notation pic cut := (pic_vel cut rows g).

Lemma rows_masks1 : masks_one rows.
Proof.
  intros it H. unfold rows_of in H. destruct (last_kernel (so_couplings S) (c_p c) (c_g c)); [|contradiction].
  destruct (nth_error (so_domains S) (c_g c)); [|contradiction].
  exact (compute_mask _ _ _ _ H).
Qed.
Lemma step_point_gen : exists s qs m1 m2, nth_error (w_mps w2) (c_p c) = Some (Soft s) /\ Forall2 unforced pts (sb_pts s) /\
  g2p_result S ca3 (s_dt st) m1 c s rows g qs m2 /\ Forall2 law_kept qs pts'.
Proof.
  destruct (step_ok _ _ _ E) as (w' & ca' & w2' & ca2' & ca3' & w3 & m3 & w4 & m4 & F1 & F2 & F3 & F4 & F5 & Est).
  rewrite E1 in F1. injection F1 as <- <-. rewrite E2 in F2. injection F2 as <- <-. rewrite E3 in F3. injection F3 as <-.
  destruct (g2p_once _ _ _ _ _ _ _ F4 Nd c Hc Hs) as (s & it & g1 & m1 & m2 & qs & H1 & H2 & H3 & H4 & H5).
  rewrite Eg in H1. injection H1 as <-.
  destruct (integrate_same_mm _ _ _ _ _ _ E3) as (_ & Einter & _).
  destruct (p2g_grids _ _ _ _ _ _ E1 E2) as (gs & _ & Ei2 & _). rewrite Einter, Ei2 in H2.
  rewrite (step_rows _ _ _ _ _ _ _ _ _ E1 E2 Hc H3 H2) in H4.
  exists s, qs, m1, m2. split; [exact H3|]. split.
  - pose proof (unforced_pts _ _ _ _ _ _ E1 E2 (c_p c)) as U. unfold pts_at at 2 in U. rewrite H3 in U. exact U.
  - split; [exact H4|]. pose proof (constitutive_law_kept _ _ _ _ _ _ F5 (c_p c)) as K. unfold pts_at at 1 in K. rewrite H5 in K. subst st'. exact K.
Qed.
Lemma Forall2_nth_d {A B} (P : A -> B -> Prop) l m d e n : Forall2 P l m -> (n < length l)%nat -> P (nth n l d) (nth n m e).
Proof.
  intros F. revert n. induction F as [|x y l m H _ IH]; intros [|n] Hn; simpl in *; try lia; [exact H|apply IH; lia].
Qed.
Lemma usl_step_point p : so_scheme S = USL -> (p < length pts)%nat ->
  let x := nth p pts pt0 in let q := nth p pts' pt0 in
  let vnt := pic cut12 (gr_mom_nt g) p in let vold := pic cut12 (gr_mom g) p in
  length pts' = length pts /\ pt_pos q = vadd (pt_pos x) (vscale (s_dt st) vnt) /\
  pt_vel q = vadd (vscale (1 - so_alpha S) vnt) (vscale (so_alpha S) (vadd (pt_vel x) (vsub vnt vold))) /\
  pt_L q = L_plane (gr_dim g) (msum (fun it => outer (it_grad it) (vopp (node_vel cut12 (gr_dim g) g (gr_mom_nt g) it))) (of_point p rows)).
Proof.
  intros Sch Hp x q vnt vold. destruct step_point_gen as (s & qs & m1 & m2 & _ & U & G & K).
  unfold g2p_result in G. rewrite Sch in G. destruct G as (_ & geos & _ & -> & _).
  pose proof (Forall2_len _ _ _ U) as L1. pose proof (Forall2_len _ _ _ K) as L2. rewrite g2p_usl_length in L2.
  pose proof (Forall2_nth_d _ _ _ pt0 pt0 p U Hp) as (U1 & U2 & _). 
  assert (Hp2 : (p < length (sb_pts s))%nat) by lia.
  assert (Hp3 : (p < length (g2p_usl (so_alpha S) (s_dt st) geos rows g (sb_pts s)))%nat) by (rewrite g2p_usl_length; lia).
  pose proof (Forall2_nth_d _ _ _ pt0 pt0 p K Hp3) as (K1 & K2 & _ & _ & _ & _ & K7). fold q in K1, K2, K7.
  rewrite (g2p_usl_nth _ _ _ _ _ _ _ rows_masks1 Hp2) in K1, K2, K7. cbn [usl_update g2p_point pt_pos pt_vel pt_L] in K1, K2, K7.
  rewrite usl_delta_pic in K2. rewrite U1 in K1. rewrite U2 in K2. repeat split; try assumption. lia.
Qed.
Lemma aflip_step_point a gd p : so_scheme S = ASFLIP a -> nth_error (so_domains S) (c_g c) = Some gd -> (p < length pts)%nat ->
  let x := nth p pts pt0 in let q := nth p pts' pt0 in let cut := af_cutoff a in
  let vnt := pic cut (gr_mom_nt g) p in let adj := vsub (pt_vel x) (pic cut (gr_mom g) p) in
  let sup := sumR (fun it => it_val it * nth (Z.to_nat (it_hash it)) (gr_mass g) 0) (of_point p rows) in
  length pts' = length pts /\
  (exists beta, (beta = 0 \/ beta = af_beta_min a \/ beta = af_beta_max a) /\
     pt_pos q = vadd (pt_pos x) (vscale (s_dt st) (vadd vnt (vscale (so_alpha S * beta) adj)))) /\
  pt_vel q = cfl_clamp a (gd_cell gd) (s_dt st) (vadd vnt (vscale (dynamic_alpha a (so_alpha S) sup (pt_mass x)) adj)) /\
  pt_L q = L_plane (gr_dim g) (af_B cut rows g p).
Proof.
  intros Sch Egd Hp x q cut vnt adj sup. destruct step_point_gen as (s & qs & m1 & m2 & _ & U & G & K).
  unfold g2p_result in G. rewrite Sch in G. destruct G as (_ & gd' & B & Egd' & _ & -> & _). rewrite Egd in Egd'. injection Egd' as <-.
  pose proof (Forall2_len _ _ _ U) as L1. pose proof (Forall2_len _ _ _ K) as L2. rewrite g2p_aflip_length in L2.
  pose proof (Forall2_nth_d _ _ _ pt0 pt0 p U Hp) as (U1 & U2 & U3 & _).
  assert (Hp2 : (p < length (sb_pts s))%nat) by lia.
  assert (Hp3 : (p < length (fst (g2p_aflip a (so_alpha S) (s_dt st) gd (sb_storeF s) rows g (sb_pts s))))%nat) by (rewrite g2p_aflip_length; lia).
  pose proof (Forall2_nth_d _ _ _ pt0 pt0 p K Hp3) as (K1 & K2 & _ & _ & _ & _ & K7). fold q in K1, K2, K7.
  rewrite (g2p_aflip_nth _ _ _ _ _ _ _ _ _ Hp2) in K1, K2, K7.
  set (dX := aflip_update a (so_alpha S) (gd_cell gd) (s_dt st) (gr_dim g) (sb_storeF s) (nth p (sb_pts s) pt0)
     (pic_vel (af_cutoff a) rows g (gr_mom g) p) (pic_vel (af_cutoff a) rows g (gr_mom_nt g) p) (af_B (af_cutoff a) rows g p) sup) in *.
  repeat split; try lia; try assumption.
  - exists (beta_of a (gd_cell gd) (mdet (pt_F dX))). split.
    + unfold beta_of. destruct (nofZ (10 ^ 9) <? gd_cell gd)%num; [auto|]. destruct (mdet (pt_F dX) <? n1)%num; auto.
    + rewrite K1. unfold dX at 1. cbn [aflip_update g2p_point pt_pos]. rewrite U1, U2. reflexivity.
  - rewrite K2. unfold dX. cbn [aflip_update g2p_point pt_vel]. rewrite U2, U3. reflexivity.
Qed.
End Point.

(** *** C21: what alpha does *)
Definition flip_vel (cut : R) (rows : list (Interaction R)) (g : Grid R) (p : nat) (v : vec3 R) : vec3 R :=
  vadd v (vsub (pic_vel cut rows g (gr_mom_nt g) p) (pic_vel cut rows g (gr_mom g) p)).
Lemma vlin0 (u v : vec3 R) : vadd (vscale (1 - 0) u) (vscale 0 v) = u.
Proof. apply vcomp_eq. intro a. rewrite vcomp_add, !vcomp_scale. ring. Qed.
Lemma vlin1 (u v : vec3 R) : vadd (vscale (1 - 1) u) (vscale 1 v) = v.
Proof. apply vcomp_eq. intro a. rewrite vcomp_add, !vcomp_scale. ring. Qed.

(** *** C35: speed limit *)
Lemma vnorm_scale k (v : vec3 R) : 0 <= k -> vnorm (vscale k v) = k * vnorm v.
Proof.
  intros H. unfold vnorm, vdot, vscale; simpl; rnum.
  replace (k * vx v * (k * vx v) + k * vy v * (k * vy v) + k * vz v * (k * vz v)) with (k * k * (vx v * vx v + vy v * vy v + vz v * vz v)) by ring.
  rewrite sqrt_mult_alt by nra. rewrite sqrt_square by exact H. reflexivity.
Qed.
Lemma clamp_speed a cell dt v : 0 <= af_cfl a * cell / dt -> vnorm (cfl_clamp a cell dt v) <= af_cfl a * cell / dt.
Proof.
  intros H. unfold cfl_clamp. rewrite nmin_R. set (L := af_cfl a * cell / dt) in *.
  assert (N : 0 <= vnorm v) by (unfold vnorm; rnum; apply sqrt_pos).
  assert (Ep : 0 < (lit 1 (10 ^ 12) : R)) by (rnum; lra).
  set (e := (lit 1 (10 ^ 12) : R)) in *. set (q := (L / (vnorm v + e))%R).
  change (vnorm (vscale (Rmin 1 q) v) <= L).
  assert (Q : 0 <= q) by (unfold q; apply Rmult_le_pos; [exact H|apply Rlt_le, Rinv_0_lt_compat; lra]).
  assert (Q2 : q * (vnorm v + e) = L) by (unfold q; field; lra).
  assert (M : 0 <= Rmin 1 q) by (apply Rmin_glb; lra). assert (M2 : Rmin 1 q <= q) by apply Rmin_r.
  rewrite vnorm_scale by exact M. nra.
Qed.

(** *** C36 *)
Lemma dynamic_alpha_range a al s m : 0 <= al -> 0 <= dynamic_alpha a al s m <= al.
Proof.
  intros H. unfold dynamic_alpha. destruct (af_dynamic a); [|lra]. set (r := (_ / _)%num).
  assert (C : 0 <= nclip r n0 n1 <= 1).
  { unfold nclip. rewrite nmax_R, nmin_R. change (0 <= Rmin (Rmax r 0) 1 <= 1). split; [apply Rmin_glb; [apply Rmax_r|lra]|apply Rmin_r]. }
  change (0 <= al * nclip r n0 n1 <= al). nra.
Qed.
Lemma dynamic_alpha_low a al s m : af_dynamic a = true -> s / (m + 1 / 10 ^ 9) <= 11 / 10 -> dynamic_alpha a al s m = 0.
Proof.
  intros D H. unfold dynamic_alpha. rewrite D. unfold nclip. rewrite nmax_R, nmin_R. rnum.
  replace (10 ^ 9)%Z with 1000000000%Z by reflexivity. replace (10 ^ 9) with 1000000000 in H by ring.
  rewrite Rmax_right by lra. rewrite Rmin_left by lra. ring.
Qed.
Lemma dynamic_alpha_high a al s m : af_dynamic a = true -> 15 / 10 <= s / (m + 1 / 10 ^ 9) -> dynamic_alpha a al s m = al.
Proof.
  intros D H. unfold dynamic_alpha. rewrite D. unfold nclip. rewrite nmax_R, nmin_R. rnum.
  replace (10 ^ 9)%Z with 1000000000%Z by reflexivity. replace (10 ^ 9) with 1000000000 in H by ring.
  rewrite Rmin_right; [ring|]. apply Rle_trans with (2 := Rmax_l _ _). lra.
Qed.

(** *** C37 *)
Lemma step_stored S a st st' w ca w2 ca2 ca3 : so_scheme S = ASFLIP a ->
  prepare S st = Ok (w, ca) -> p2g S w (s_mech st) ca = Ok (w2, ca2) ->
  integrate_grid S w2 (s_mech st) (s_dt st) ca2 = Ok ca3 -> solver_step S st = Ok st' -> NoDup (map c_p (active S)) ->
  forall c g, In c (so_couplings S) -> c_skip c = false -> nth_error (sc_grids ca3) (c_g c) = Some g ->
  exists Bp, nth_error (m_solvers (s_mech st')) (c_p c) = Some (Some (SS_AFLIP Bp)) /\
    length Bp = length (pts_at (s_world st) (c_p c)) /\
    forall p, (p < length Bp)%nat -> nth p Bp mzero = af_B (af_cutoff a) (rows_of S (s_world st) c) g p.
Proof.
  intros Sch E1 E2 E3 E Nd c g Hc Hs Eg.
  destruct (step_ok _ _ _ E) as (w' & ca' & w2' & ca2' & ca3' & w3 & m3 & w4 & m4 & F1 & F2 & F3 & F4 & F5 & Est).
  rewrite E1 in F1. injection F1 as <- <-. rewrite E2 in F2. injection F2 as <- <-. rewrite E3 in F3. injection F3 as <-.
  destruct (@g2p_stored R NumT_R S a ca3 (s_dt st) Sch _ _ _ _ _ F4 Nd c Hc Hs) as (s & it & g1 & gd & H1 & H2 & H3 & H4 & H5).
  rewrite Eg in H1. injection H1 as <-.
  destruct (integrate_same_mm _ _ _ _ _ _ E3) as (_ & Einter & _).
  destruct (p2g_grids _ _ _ _ _ _ E1 E2) as (gs & _ & Ei2 & _). rewrite Einter, Ei2 in H2.
  pose proof (step_rows _ _ _ _ _ _ _ _ _ E1 E2 Hc H3 H2) as Hr.
  pose proof (unforced_pts _ _ _ _ _ _ E1 E2 (c_p c)) as U. unfold pts_at at 2 in U. rewrite H3 in U. apply Forall2_len in U. simpl in U.
  eexists. split; [subst st'; cbn [s_mech]; rewrite (constitutive_solvers _ _ _ _ _ _ F5); exact H5|].
  assert (L : length (snd (g2p_aflip a (so_alpha S) (s_dt st) gd (sb_storeF s) it g (sb_pts s))) = length (sb_pts s)) by apply to_points_length.
  split; [congruence|]. intros p Hp. rewrite L in Hp. rewrite g2p_aflip_B_nth by exact Hp. rewrite Hr. reflexivity.
Qed.

(** *** C38 *)
Lemma no_classic_apic {T} {NT : NumT T} (S : Solver T) a st st' : so_scheme S = ASFLIP a -> af_mls a = false ->
  solver_step S st = Ok st' -> forall c, In c (so_couplings S) -> c_skip c = true.
Proof.
  intros Sch M E. apply step_ok in E. destruct E as (w & ca & w2 & ca2 & ca3 & w3 & m3 & w4 & m4 & _ & _ & _ & E & _).
  unfold g2p in E. revert E. generalize (so_couplings S) as cs. generalize (w2, s_mech st) as wm. intros wm cs E. revert wm E.
  induction cs as [|c cs IH]; intros wm E c0 Hc; [contradiction|]. cbn [rfold] in E. apply rbind_ok in E. destruct E as ((w1 & m1) & E1 & E).
  destruct Hc as [->|Hc]; [|eapply IH; eassumption]. destruct wm as (wx & mx). apply g2p_coupling_ok in E1.
  destruct E1 as [(Es & _)|(_ & s & it & g & pts' & _ & _ & _ & H & _)]; [exact Es|]. unfold g2p_result in H. rewrite Sch in H.
  destruct H as (H & _). congruence.
Qed.

(** *** C29 *)
Lemma set_mps_sdfs {T} (w : World T) l : w_sdfs (set_mps w l) = w_sdfs w. Proof. reflexivity. Qed.
Lemma step_sdfs {T} {NT : NumT T} (S : Solver T) st st' : solver_step S st = Ok st' ->
  Forall2 (fun i_l s' => exists s, nth_error (w_sdfs (s_world st)) (fst i_l) = Some s /\ s' = sl_update (snd i_l) s (s_dt st))
    (enum (so_sdfs S)) (w_sdfs (s_world st')).
Proof.
  intros E. apply step_ok in E. destruct E as (w & ca & w2 & ca2 & ca3 & w3 & m3 & w4 & m4 & E1 & E2 & E3 & E4 & E5 & ->). cbn [s_world].
  apply prepare_ok in E1. destruct E1 as (_ & _ & _ & _ & _ & _ & K). apply kinematic_ok in K. destruct K as (_ & K). cbn [w_sdfs] in K.
  assert (X : w_sdfs w4 = w_sdfs w); [|rewrite X; exact K].
  apply p2g_ok in E2. destruct E2 as (gs & E2 & _). apply pre_p2g_fold_ok in E2. destruct E2 as (E2 & _). rewrite <- E2.
  unfold g2p in E4. unfold constitutive_update in E5.
  assert (X3 : w_sdfs w3 = w_sdfs w2).
  { refine (rfold_inv (fun wm => w_sdfs (fst wm) = w_sdfs w2) _ _ _ (w3, m3) _ _ E4); [|reflexivity].
    intros (wa & ma) c (wb & mb) _ I X. apply g2p_coupling_ok in X. cbn [fst] in *.
    destruct X as [(_ & -> & _)|(_ & s & it & g & pts' & _ & _ & _ & _ & ->)]; [exact I|exact I]. }
  rewrite <- X3.
  refine (rfold_inv (fun wm => w_sdfs (fst wm) = w_sdfs w3) _ _ _ (w4, m4) _ _ E5); [|reflexivity].
  intros (wa & ma) c (wb & mb) _ I X. apply constitutive_coupling_ok in X. cbn [fst] in *.
  destruct X as [(_ & -> & _)|(_ & s & ci & l & ls & s1 & ls' & _ & _ & _ & _ & _ & -> & _)]; [exact I|exact I].
Qed.
Lemma step_sdf_count {T} {NT : NumT T} (S : Solver T) st st' : solver_step S st = Ok st' -> length (w_sdfs (s_world st')) = length (so_sdfs S).
Proof. intros E. apply step_sdfs, Forall2_len in E. rewrite enum_length in E. congruence. Qed.

(** *** C30 *)
Lemma rows_last {T} {NT : NumT T} (S : Solver T) st w ca : prepare S st = Ok (w, ca) -> forall c, In c (so_couplings S) ->
  exists rows, dict_get (c_p c, c_g c) (sc_inter ca) = Ok rows /\ is_rows S w (c_p c) (c_g c) rows.
Proof.
  intros E c Hc. apply prepare_ok in E. destruct E as (_ & R & Ex & _). destruct (Ex c Hc) as (l & El). exists l. split; [exact El|]. apply R, El.
Qed.
Lemma last_kernel_one {T} (S : Solver T) c k : one_kernel S -> In c (so_couplings S) -> last_kernel (so_couplings S) (c_p c) (c_g c) = Some k ->
  k = c_kernel c.
Proof.
  intros O Hc Hk. destruct (last_kernel_in _ _ _ _ Hk) as (c' & Hc' & Ep & Eg & <-). apply O; assumption.
Qed.

(** *** C28 *)
Lemma all_masks_one {T} {NT : NumT T} (S : Solver T) st w ca : prepare S st = Ok (w, ca) ->
  forall p g rows it, dict_get (p, g) (sc_inter ca) = Ok rows -> In it rows -> it_mask it = n1.
Proof.
  intros E p g rows it El Hit. apply prepare_ok in E. destruct E as (_ & R & _). destruct (R _ _ _ El) as (k & b & gd & _ & _ & _ & _ & ->).
  exact (compute_mask _ _ _ _ Hit).
Qed.

(** *** C26: gradient of an affine nodal field *)
Definition nodal_affine (cut : R) (k : Kernel) (gd : GridDomain R) (g : Grid R) (pts : list (Particle R)) (A : mat3 R) (b : vec3 R) : Prop :=
  forall it, In it (compute_on k gd (map pt_pos pts)) -> it_val it <> 0 \/ it_grad it <> vzero ->
    let i := Z.to_nat (it_hash it) in
    cut < nth i (gr_mass g) 0 /\ nth i (gr_mom_nt g) vzero = vscale (nth i (gr_mass g) 0) (affv (gd_dim gd) A b (nth i (position_stack gd) vzero)).
Lemma nodal_rows cut k gd g pts A b p : 0 <= cut -> gr_dim g = gd_dim gd -> nodal_affine cut k gd g pts A b ->
  affine_rows k gd (map pt_pos pts) p A b (node_vel cut (gr_dim g) g (gr_mom_nt g)).
Proof.
  intros Hcut Hd H it a Hr Hnz Ha. apply in_of_point in Hr. destruct Hr as (Hr & Hp). destruct (H it Hr Hnz) as (Hm & Hmom).
  rewrite node_vel_comp by (rewrite Hd; exact Ha). unfold Uvel. destruct (Rlt_dec _ _) as [L|L]; [|contradiction].
  rewrite Hmom, vcomp_scale, vcomp_affv by exact Ha. unfold row_pos. field. lra.
Qed.
Lemma step_F_spec d dt A F : (d = D2 -> m22 F = 1 /\ m02 F = 0 /\ m12 F = 0) ->
  F_next d dt (mopp (mplane d A)) F = mmul (madd meye (mscale dt (mplane d A))) F.
Proof.
  intros H. destruct d.
  - destruct H as (H1 & H2 & H3); [reflexivity|]. destruct F, A. simpl in H1, H2, H3. subst. unfold F_next. apply mat3_eq; simpl; rnum; ring.
  - destruct F, A. unfold F_next. apply mat3_eq; simpl; rnum; ring.
Qed.
Lemma aflip_gradient a alpha dt k gd sF g pts A b p : wf_grid gd -> gr_dim g = gd_dim gd -> 0 <= af_cutoff a -> (p < length pts)%nat ->
  interior k gd (pt_pos (nth p pts pt0)) -> smooth_at A k gd (pt_pos (nth p pts pt0)) -> nodal_affine (af_cutoff a) k gd g pts A b ->
  let q := nth p (fst (g2p_aflip a alpha dt gd sF (compute_on k gd (map pt_pos pts)) g pts)) pt0 in
  pt_L q = mopp (mplane (gd_dim gd) A) /\ pt_F q = F_next (gd_dim gd) dt (mopp (mplane (gd_dim gd) A)) (pt_F (nth p pts pt0)).
Proof.
  intros W Hd Hcut Hp I Sm N q. unfold q. rewrite g2p_aflip_nth by exact Hp. cbn [aflip_update g2p_point pt_L pt_F].
  rewrite (af_B_affine k gd pts p A b g (af_cutoff a) W Hp I Hd (nodal_rows _ _ _ _ _ _ _ p Hcut Hd N) Sm).
  rewrite Hd, mplane_L. auto.
Qed.
Lemma usl_gradient alpha dt geos k gd g pts A b p : wf_grid gd -> gr_dim g = gd_dim gd -> (p < length pts)%nat ->
  interior k gd (pt_pos (nth p pts pt0)) -> smooth_at A k gd (pt_pos (nth p pts pt0)) -> nodal_affine cut12 k gd g pts A b ->
  let q := nth p (g2p_usl alpha dt geos (compute_on k gd (map pt_pos pts)) g pts) pt0 in
  pt_L q = mopp (mtrans (mplane (gd_dim gd) A)) /\ pt_F q = F_next (gd_dim gd) dt (mopp (mtrans (mplane (gd_dim gd) A))) (pt_F (nth p pts pt0)).
Proof.
  intros W Hd Hp I Sm N q. unfold q. rewrite g2p_usl_nth; [|intros it H; exact (compute_mask _ _ _ _ H)|exact Hp].
  cbn [usl_update g2p_point pt_L pt_F].
  rewrite (usl_L_affine k gd pts p A b g cut12 W Hp I Hd (nodal_rows _ _ _ _ _ _ _ p (Rlt_le _ _ cut12_pos) Hd N) Sm).
  rewrite Hd, mplane_Lt. auto.
Qed.

(** *** C88: damping of particle forces *)
Definition particle_damping {T} (f : Force T) : bool := match f with FDamping d => negb (dm_on_grid d) | _ => false end.
Definition without {T} (P : Force T -> bool) (S : Solver T) : Solver T :=
  {| so_scheme := so_scheme S; so_alpha := so_alpha S; so_domains := so_domains S; so_couplings := so_couplings S; so_laws := so_laws S;
     so_forces := filter (fun f => negb (P f)) (so_forces S); so_sdfs := so_sdfs S; so_sharp := so_sharp S |}.
Lemma rfold_filter {A X} (I : X -> Prop) (P : A -> bool) (f : X -> A -> res X) l : forall s s',
  (forall s x s', In x l -> I s -> f s x = Ok s' -> I s') -> (forall s x s', In x l -> I s -> P x = true -> f s x = Ok s' -> s' = s) ->
  I s -> rfold f s l = Ok s' -> rfold f s (filter (fun x => negb (P x)) l) = Ok s'.
Proof.
  induction l as [|x l IH]; intros s s' Hi Hs Is E; [exact E|]. cbn [rfold filter] in *. apply rbind_ok in E. destruct E as (s1 & E1 & E).
  assert (I1 : I s1) by (eapply Hi; [left; reflexivity|exact Is|exact E1]).
  assert (R : rfold f s1 (filter (fun x => negb (P x)) l) = Ok s').
  { apply IH; auto.
    - intros a y b Hy. apply Hi. right. exact Hy.
    - intros a y b Hy. apply Hs. right. exact Hy. }
  destruct (P x) eqn:Px; cbn [negb].
  - rewrite <- (Hs s x s1); auto. left. reflexivity.
  - cbn [rfold]. rewrite E1. exact R.
Qed.
Lemma set_nth_self {A} n (l : list A) x : nth_error l n = Some x -> set_nth n x l = l.
Proof. apply set_nth_id. Qed.
Lemma damping_noop (d : Damping) (w : World R) m w' : apply_pre_p2g (FDamping d) w m = Ok w' ->
  (forall p b, In p (dm_ps d) -> nth_error (w_mps w) p = Some b -> unloaded b) -> w' = w.
Proof.
  simpl. destruct (dm_on_grid d); [intros E _; congruence|]. intros E U. apply rbind_ok in E. destruct E as (fs & _ & E).
  apply rbind_ok in E. destruct E as (l & E & X). injection X as <-. 
  assert (L : l = w_mps w); [|rewrite L; destruct w; reflexivity].
  refine (rfold_inv (fun l => l = w_mps w) _ _ (w_mps w) l _ eq_refl E).
  intros l1 p l2 Hp -> X. apply upd_idx_ok in X. destruct X as (b & y & Hb & Hy & ->).
  destruct b as [s|r]; [|discriminate]. apply rbind_ok in Hy. destruct Hy as (al & _ & Hy). injection Hy as <-.
  apply set_nth_self. rewrite Hb. f_equal. f_equal. destruct s as [sd sp sF sv]. cbn [sb_dim sb_pts sb_storeF sb_vol0d]. f_equal.
  specialize (U p _ Hp Hb). unfold unloaded in U. simpl in U. clear -U.
  induction sp as [|x sp IH]; [reflexivity|]. simpl. rewrite <- IH by (intros; apply U; right; assumption). f_equal.
  specialize (U x (or_introl eq_refl)). unfold damping_particle. rewrite U. destruct x; simpl in *. subst. unfold set_pforce; simpl.
  f_equal. unfold vmap2, vzero; simpl; rnum. rewrite !damp_zero. reflexivity.
Qed.
Theorem particle_damping_ignored (S : Solver R) st st' : solver_step S st = Ok st' ->
  (forall d p, In (FDamping d) (so_forces S) -> dm_on_grid d = false -> In p (dm_ps d) -> coupled (so_couplings S) p = true) ->
  solver_step (without particle_damping S) st = Ok st'.
Proof.
  intros E Hc. unfold solver_step in *. apply rbind_ok in E. destruct E as ((w & ca) & E1 & E). apply rbind_ok in E.
  destruct E as ((w2 & ca2) & E2 & E). apply rbind_ok in E. destruct E as (ca3 & E3 & E).
  change (prepare (without particle_damping S) st) with (prepare S st). rewrite E1. cbn [rbind fst snd] in *.
  assert (U0 : forall p b, coupled (so_couplings S) p = true -> nth_error (w_mps w) p = Some b -> unloaded b).
  { intros p b Cp Hb. apply prepare_ok in E1. destruct E1 as (R1 & _). rewrite R1, Cp in Hb.
    destruct (nth_error (w_mps (s_world st)) p) as [b0|]; [|discriminate]. simpl in Hb. injection Hb as <-. intros x Hx.
    destruct b0 as [s|r]; simpl in Hx; [|contradiction]. apply in_map_iff in Hx. destruct Hx as (y & <- & _). reflexivity. }
  assert (P2 : p2g (without particle_damping S) w (s_mech st) ca = Ok (w2, ca2)).
  { unfold p2g in *. apply rbind_ok in E2. destruct E2 as (w1 & Ea & Eb).
    change (so_forces (without particle_damping S)) with (filter (fun f : Force R => negb (particle_damping f)) (so_forces S)).
    rewrite (rfold_filter (fun w => forall p b, coupled (so_couplings S) p = true -> nth_error (w_mps w) p = Some b -> unloaded b)
       particle_damping (fun w f => apply_pre_p2g f w (s_mech st)) (so_forces S) w w1); auto.
    - intros s f s' Hf I X p b Cp Hb. destruct (pre_p2g_ok _ _ _ _ X) as (_ & F).
      destruct (Forall2_nth_error _ _ _ _ _ F Hb) as (b0 & Hb0 & _). eapply pre_p2g_unloaded; [exact X|exact Hb0|exact Hb|eapply I; eassumption].
    - intros s f s' Hf I Pf X. destruct f as [ |d| | ]; try discriminate. simpl in Pf. apply negb_true_iff in Pf.
      eapply damping_noop; [exact X|]. intros p b Hp Hb. eapply I; [|exact Hb]. eapply Hc; eassumption. }
  rewrite P2. cbn [rbind fst snd].
  assert (P3 : integrate_grid (without particle_damping S) w2 (s_mech st) (s_dt st) ca2 = Ok ca3).
  { unfold integrate_grid in *. apply rbind_ok in E3. destruct E3 as (gs1 & Ea & E3). apply rbind_ok in E3. destruct E3 as (gs2 & Eb & E3).
    apply rbind_ok in E3. destruct E3 as (gs3 & Ec & E3).
    change (so_forces (without particle_damping S)) with (filter (fun f : Force R => negb (particle_damping f)) (so_forces S)).
    rewrite (rfold_filter (fun _ => True) particle_damping (fun gs f => apply_grid_forces f (s_mech st) gs) (so_forces S) (sc_grids ca2) gs1); auto.
    - cbn [rbind]. change (so_couplings (without particle_damping S)) with (so_couplings S). rewrite Eb. cbn [rbind].
      change (so_sdfs (without particle_damping S)) with (so_sdfs S). change (so_domains (without particle_damping S)) with (so_domains S).
      rewrite (rfold_filter (fun _ => True) particle_damping
        (fun gs f => apply_grid_moments f w2 (so_sdfs S) (so_domains S) (sc_node_geoms ca2) (s_dt st) gs) (so_forces S) gs2 gs3); auto.
      intros s f s' _ _ Pf X. destruct f as [ |d| | ]; try discriminate. simpl in X. congruence.
    - intros s f s' _ _ Pf X. destruct f as [ |d| | ]; try discriminate. simpl in Pf, X. apply negb_true_iff in Pf. rewrite Pf in X. congruence. }
  rewrite P3. exact E.
Qed.
