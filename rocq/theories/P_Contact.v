(** Property theorem C103: energy in the contact of two bodies. *)
From Coq Require Import List Arith ZArith Reals Bool Lra Lia.
From Verif Require Import Num NumR Linalg Arrays ModelGrid ModelShape ModelMath ModelState ModelLaws ModelForces ModelSolver
  Sums ShapeFacts SpecShape ShapeProofs ShapeProofs2 ShapeProofs3 P_Shape MappingProofs ResFacts SolverFacts SpecSolver
  TransferProofs TransferProofs2 StepProofs GatherProofs MomentumProofs AffineProofs StepAffine HeavyProofs SolverMore ExSolver P_Solver
  ShiftProofs ForceProofs P_Forces.
Import ListNotations.
Local Open Scope R_scope.

(** *** C103: contact between two bodies loses energy *)
(** twice the kinetic energy of a node of mass [m] and momentum [p] *)
Definition energy2 (m : R) (p : vec3 R) : R := vdot p p / m.
Lemma slowed m (p : vec3 R) e : 0 < m -> 0 <= e -> m * vdot (vdivs p (m + e)) (vdivs p (m + e)) <= energy2 m p.
Proof.
  intros Hm He. unfold energy2. assert (N : 0 <= vdot p p) by (unfold vdot; rnum; pose proof (Rle_0_sqr (vx p)); pose proof (Rle_0_sqr (vy p)); pose proof (Rle_0_sqr (vz p)); unfold Rsqr in *; lra).
  replace (vdot (vdivs p (m + e)) (vdivs p (m + e))) with (vdot p p / ((m + e) * (m + e))) by (destruct p as [p0 p1 p2]; unfold vdot, vdivs, vmap; cbn [vx vy vz]; rnum; field; lra).
  generalize dependent (vdot p p). intros k N. unfold Rdiv. rewrite <- (Rmult_assoc m), (Rmult_comm m k), Rmult_assoc. apply Rmult_le_compat_l; [exact N|].
  apply (Rmult_le_reg_r (m * ((m + e) * (m + e)))); [apply Rmult_lt_0_compat; [lra|nra]|].
  replace (m * / ((m + e) * (m + e)) * (m * ((m + e) * (m + e)))) with (m * m) by (field; lra). replace (/ m * (m * ((m + e) * (m + e)))) with ((m + e) * (m + e)) by (field; lra). nra.
Qed.
Lemma collision_out pr mr pa ma n dist : dist <= 1 / 10 ^ 6 -> contact_vn pr mr pa ma n < 0 ->
  let vr := vdivs pr (mr + reg12) in let va := vdivs pa (ma + reg12) in let vn := contact_vn pr mr pa ma n in
  solve_node_collision false pr mr pa ma n dist = (vscale mr (vsub vr (vscale vn n)), vscale ma (vadd va (vscale (mr / (ma + reg12)) (vscale vn n)))).
Proof.
  intros Hd Hv. cbv zeta. unfold solve_node_collision. change (@numt_num R NumT_R) with Num_R. rewrite reg12_lit.
  assert (L6 : lit 1 (10 ^ 6) = 1 / 10 ^ 6 :> R) by (rnum; replace (10 ^ 6)%Z with 1000000%Z by reflexivity; replace (10 ^ 6) with 1000000 by ring; reflexivity). rewrite L6.
  change (nleb dist (1 / 10 ^ 6)) with (Rleb dist (1 / 10 ^ 6)). rewrite (proj2 (Rleb_true _ _) Hd).
  change (nltb (vdot (vsub (vdivs pr (mr + reg12)%num) (vdivs pa (ma + reg12)%num)) n) n0) with (Rltb (contact_vn pr mr pa ma n) 0). rewrite (proj2 (Rltb_true _ _) Hv). reflexivity.
Qed.
(** the normal velocities after a contact: the bodies rebound with a restitution equal to the ratio of the masses *)
Theorem C103_restitution_refuted : forall (pr : vec3 R) mr pa ma n dist, 0 < mr -> 0 < ma -> vdot n n = 1 -> dist <= 1 / 10 ^ 6 -> contact_vn pr mr pa ma n < 0 ->
  let out := solve_node_collision false pr mr pa ma n dist in let vn' := nspeed (vdivs (fst out) mr) (vdivs (snd out) ma) n in
  vn' = - (mr / (ma + reg12)) * contact_vn pr mr pa ma n /\ 0 < vn'.
Proof.
  intros pr mr pa ma n dist Hr Ha Hn Hd Hv. pose proof reg12_pos as Hp. rewrite (collision_out pr mr pa ma n dist Hd Hv). cbn [fst snd]. cbv zeta.
  assert (U : forall m (u : vec3 R), 0 < m -> vdivs (vscale m u) m = u) by (intros m u H; apply vcomp_eq; intro a; rewrite vcomp_divs, vcomp_scale; field; lra).
  rewrite (U mr _ Hr), (U ma _ Ha). set (vn := contact_vn pr mr pa ma n) in *. set (q := mr / (ma + reg12)). assert (Q : 0 < q) by (apply Rdiv_lt_0_compat; lra).
  assert (E : nspeed (vsub (vdivs pr (mr + reg12)) (vscale vn n)) (vadd (vdivs pa (ma + reg12)) (vscale q (vscale vn n))) n = - q * vn).
  { unfold nspeed. rewrite !vdot_sub_l, vdot_add_l, !vdot_scale_l, Hn. unfold vn, contact_vn, nspeed. rewrite vdot_sub_l. ring. }
  rewrite E. split; [reflexivity|nra].
Qed.
Print Assumptions C103_restitution_refuted.
(** a receiver no heavier than the actor: no energy appears, but for the 1e-12 added to the masses *)
Theorem C103_energy_partial : forall (pr : vec3 R) mr pa ma n dist, 0 < mr <= ma -> 0 < ma -> vdot n n = 1 ->
  let out := solve_node_collision false pr mr pa ma n dist in let vn := contact_vn pr mr pa ma n in let va := vdivs pa (ma + reg12) in
  energy2 mr (fst out) + energy2 ma (snd out) <= energy2 mr pr + energy2 ma pa + 2 * (mr * (Rabs vn * Rabs (vdot va n))) * (reg12 / (ma + reg12)).
Proof.
  intros pr mr pa ma n dist (Hr & Hle) Ha Hn. cbv zeta. pose proof reg12_pos as Hp. set (vn := contact_vn pr mr pa ma n).
  assert (Hx : 0 <= 2 * (mr * (Rabs vn * Rabs (vdot (vdivs pa (ma + reg12)) n))) * (reg12 / (ma + reg12))).
  { assert (0 <= reg12 / (ma + reg12)) by (apply Rlt_le, Rdiv_lt_0_compat; lra). pose proof (Rabs_pos vn). pose proof (Rabs_pos (vdot (vdivs pa (ma + reg12)) n)).
    apply Rmult_le_pos; [|assumption]. apply Rmult_le_pos; [lra|]. apply Rmult_le_pos; [lra|]. apply Rmult_le_pos; assumption. }
  destruct (Rle_lt_dec dist (1 / 10 ^ 6)) as [Hd|Hd]; [destruct (Rle_lt_dec 0 vn) as [Hv|Hv]|].
  - rewrite (proj1 (C58_node_contact pr mr pa ma n dist Hr Ha Hn) (or_intror Hv)). cbn [fst snd]. lra.
  - rewrite (collision_out pr mr pa ma n dist Hd Hv). cbn [fst snd]. fold vn. set (e := reg12) in *. 
    set (vr := vdivs pr (mr + e)). set (va := vdivs pa (ma + e)) in *. set (q := mr / (ma + e)). set (a := vdot vr n). set (b := vdot va n) in *.
    assert (Evn : vn = a - b) by (unfold vn, contact_vn, nspeed, a, b; rewrite vdot_sub_l; reflexivity).
    assert (Em : forall m (u : vec3 R), 0 < m -> energy2 m (vscale m u) = m * vdot u u).
    { intros m u Hm. unfold energy2. destruct u as [u0 u1 u2]; unfold vdot, vscale, vmap; cbn [vx vy vz]; rnum. field. lra. }
    rewrite !Em by assumption.
    assert (E1 : vdot (vsub vr (vscale vn n)) (vsub vr (vscale vn n)) = vdot vr vr - 2 * vn * a + vn * vn * vdot n n).
    { unfold a. destruct vr as [u0 u1 u2], n as [k0 k1 k2]. unfold vdot, vsub, vscale, vmap2, vmap; cbn [vx vy vz]; rnum. ring. }
    assert (E2 : vdot (vadd va (vscale q (vscale vn n))) (vadd va (vscale q (vscale vn n))) = vdot va va + 2 * q * vn * b + q * q * (vn * vn) * vdot n n).
    { unfold b. destruct va as [u0 u1 u2], n as [k0 k1 k2]. unfold vdot, vadd, vscale, vmap2, vmap; cbn [vx vy vz]; rnum. ring. }
    rewrite E1, E2, Hn. pose proof (slowed mr pr e Hr (Rlt_le _ _ Hp)) as S1. pose proof (slowed ma pa e Ha (Rlt_le _ _ Hp)) as S2. fold vr in S1. fold va in S2.
    assert (Q : q <= 1) by (unfold q; apply (Rmult_le_reg_r (ma + e)); [lra|]; unfold Rdiv; rewrite Rmult_assoc, Rinv_l by lra; lra).
    assert (Q0 : 0 < q) by (apply Rdiv_lt_0_compat; lra).
    assert (Qm : ma * q = mr - mr * (e / (ma + e))) by (unfold q; field; lra).
    assert (Hz : 0 <= e / (ma + e)) by (apply Rlt_le, Rdiv_lt_0_compat; lra). set (z := e / (ma + e)) in *.
    assert (B : - (vn * b) <= Rabs vn * Rabs b) by (rewrite <- Rabs_mult; pose proof (Rle_abs (- (vn * b))) as X; rewrite Rabs_Ropp in X; exact X).
    assert (I1 : ma * q * q * (vn * vn) <= mr * (vn * vn)).
    { rewrite Qm. assert (0 <= vn * vn) by apply Rle_0_sqr. apply Rmult_le_compat_r; [assumption|]. assert (0 <= mr * z) by (apply Rmult_le_pos; lra). nra. }
    assert (I2 : mr * z * - (vn * b) <= mr * z * (Rabs vn * Rabs b)) by (apply Rmult_le_compat_l; [apply Rmult_le_pos; lra|exact B]).
    replace (ma * (vdot va va + 2 * q * vn * b + q * q * (vn * vn) * 1)) with (ma * vdot va va + 2 * (ma * q) * (vn * b) + ma * q * q * (vn * vn)) by ring. rewrite Qm.
    replace (mr * (vdot vr vr - 2 * vn * a + vn * vn * 1)) with (mr * vdot vr vr - mr * (vn * vn) - 2 * (mr * (vn * b))) by (replace a with (vn + b) by lra; ring).
    rewrite Qm in I1. nra.
  - rewrite (proj1 (C58_node_contact pr mr pa ma n dist Hr Ha Hn) (or_introl Hd)). cbn [fst snd]. lra.
Qed.
Print Assumptions C103_energy_partial.
(** FINDING: a heavy receiver on a light actor: 3 kg at -1 m/s meeting 1 kg at rest leaves with three times the energy *)
Theorem C103_energy_refuted : exists (pr : vec3 R) mr pa ma n, vdot n n = 1 /\
  let out := solve_node_collision false pr mr pa ma n 0 in 2 * (energy2 mr pr + energy2 ma pa) < energy2 mr (fst out) + energy2 ma (snd out).
Proof.
  exists (V3 (-3) 0 0), 3, vzero, 1, (V3 1 0 0). split; [unfold vdot; cbn [vx vy vz]; rnum; ring|]. cbv zeta. pose proof reg12_pos as Hp.
  assert (E10 : reg12 <= 1 / 10) by (unfold reg12; apply Rmult_le_compat_l; [lra|]; apply Rinv_le_contravar; [lra|]; change (10 ^ 12) with (10 * 10 ^ 11); pose proof (pow_R1_Rle 10 11 ltac:(lra)); lra).
  assert (Hv : contact_vn (V3 (-3) 0 0) 3 vzero 1 (V3 1 0 0) < 0) by apply C58_case.
  rewrite collision_out; [|apply Rlt_le, Rdiv_lt_0_compat; [lra|apply pow_lt; lra]|exact Hv]. cbn [fst snd].
  assert (Ev : contact_vn (V3 (-3) 0 0) 3 vzero 1 (V3 1 0 0) = - (3 / (3 + reg12))).
  { unfold contact_vn, nspeed, vdot, vsub, vdivs, vmap2, vmap, vzero; cbn [vx vy vz]; rnum. field. lra. }
  rewrite Ev. set (e := reg12) in *. clearbody e. unfold energy2.
  replace (vdot (V3 (-3) 0 0) (V3 (-3) 0 0)) with 9 by (unfold vdot; cbn [vx vy vz]; rnum; ring). replace (vdot vzero vzero) with 0 by (unfold vdot, vzero; cbn [vx vy vz]; rnum; ring).
  match goal with |- _ < ?A / 3 + ?B / 1 => assert (EA : A = 0); [|assert (EB : B = (9 / ((1 + e) * (3 + e))) * (9 / ((1 + e) * (3 + e))))] end.
  - unfold vdot, vsub, vscale, vdivs, vmap2, vmap; cbn [vx vy vz]; rnum. field. lra.
  - unfold vdot, vadd, vscale, vdivs, vmap2, vmap, vzero; cbn [vx vy vz]; rnum. field. lra.
  - rewrite EA, EB. assert (K : 5 / 2 <= 9 / ((1 + e) * (3 + e))).
    { apply (Rmult_le_reg_r ((1 + e) * (3 + e))); [nra|]. unfold Rdiv at 2. rewrite Rmult_assoc, Rinv_l by nra. nra. }
    nra.
Qed.
Print Assumptions C103_energy_refuted.
Example C103_case : let pr := V3 (-3) 0 0 in let n := V3 1 0 0 : vec3 R in 0 < 3 <= 4 /\ vdot n n = 1 /\ 0 <= 1 / 10 ^ 6 /\ contact_vn pr 3 vzero 4 n < 0.
Proof.
  cbv zeta. pose proof reg12_pos as P. split; [lra|]. split; [unfold vdot; cbn [vx vy vz]; rnum; ring|]. split; [apply Rlt_le, Rdiv_lt_0_compat; [lra|apply pow_lt; lra]|].
  replace (contact_vn (V3 (-3) 0 0) 3 vzero 4 (V3 1 0 0)) with (- (3 / (3 + reg12))) by (unfold contact_vn, nspeed, vdot, vsub, vdivs, vmap2, vmap, vzero; cbn [vx vy vz]; rnum; field; lra).
  assert (0 < 3 / (3 + reg12)) by (apply Rdiv_lt_0_compat; lra). lra.
Qed.
