(** C117: logarithmic strain.  C118: the quantities a body of material points reports. *)
From Coq Require Import List Arith ZArith Reals Bool String Lra Lia.
From Verif Require Import Num NumR Linalg Sums Arrays ModelGrid ModelShape ModelMath ModelState ModelLaws ModelForces ModelSolver
  ResFacts SpecMath MathProofs SpecLaws LawProofs SpecSolver PlaneProofs PlaneProofs StepProofs SolverMore ModelStrain SpecStrain StrainProofs P_Laws P_Solver.
Import ListNotations.
Local Open Scope string_scope.
Local Open Scope R_scope.

(** C117: whatever decomposition the library returns, the strain is the same. *)
Theorem C117_unique : forall (svd svd' : mat3 R -> SVD R) F, is_svd (svd F) F -> is_svd (svd' F) F ->
  get_hencky_strain svd F = get_hencky_strain svd' F /\ symmetric (get_hencky_strain svd F).
Proof.
  intros svd svd' F A B. split.
  - rewrite (hencky_any svd F (svd' F) A B). symmetry. apply hencky_turned.
  - rewrite hencky_turned. unfold turned. destruct (svd_u (svd F)). unfold symmetric, dg. mcbv. repeat split; ring.
Qed.
Print Assumptions C117_unique.

(** principal stretches a, b, c along the axes of Q give the strains -ln a, -ln b, -ln c along the same axes *)
Theorem C117_principal : forall svd F Q a b c, is_svd (svd F) F -> orthogonal Q -> F = turned Q (mdiag a b c) ->
  / 10 ^ 12 <= a -> / 10 ^ 12 <= b -> / 10 ^ 12 <= c ->
  get_hencky_strain svd F = turned Q (mdiag (- ln a) (- ln b) (- ln c)).
Proof.
  intros svd F Q a b c D O E A B C. pose proof tiny_pos.
  rewrite (hencky_any svd F (mkSVD Q (V3 a b c) (mtrans Q)) D).
  - unfold lg, dg. cbn [svd_u svd_s vx vy vz]. rewrite !log_stretch_R, !Rmax_left by lra. reflexivity.
  - repeat split; cbn [svd_u svd_s svd_vh vx vy vz]; try apply O; try lra; try (apply (orth_trans _ O)). exact E.
Qed.
Print Assumptions C117_principal.

Lemma svd_of_turn (Q : mat3 R) : Q = mmul (mmul Q (mdiag 1 1 1)) meye.
Proof. destruct Q; meq. Qed.
Lemma turned_zero (Q : mat3 R) : turned Q (mdiag 0 0 0) = mzero.
Proof. unfold turned. destruct Q; meq. Qed.
Lemma trace_turned_eye (a b c : R) : get_volumetric_strain (turned meye (mdiag a b c)) = a + b + c.
Proof. unfold turned. mcbv. ring. Qed.
Lemma svd_of_diag (a b c : R) : mdiag a b c = mmul (mmul meye (mdiag a b c)) meye.
Proof. meq. Qed.
Lemma orth_eye : orthogonal meye.
Proof. split; meq. Qed.

(** turning the deformed body turns the strain with it; turning the reference changes nothing; turning alone strains nothing *)
Theorem C117_frames : forall svd F Q, is_svd (svd F) F -> orthogonal Q ->
  (is_svd (svd (mmul Q F)) (mmul Q F) -> get_hencky_strain svd (mmul Q F) = turned Q (get_hencky_strain svd F)) /\
  (is_svd (svd (mmul F Q)) (mmul F Q) -> get_hencky_strain svd (mmul F Q) = get_hencky_strain svd F) /\
  (is_svd (svd Q) Q -> get_hencky_strain svd Q = mzero).
Proof.
  intros svd F Q D O. destruct D as (U & V & P1 & P2 & P3 & E) eqn:ED. clear ED. split; [|split]; intro D2.
  - rewrite (hencky_any svd _ (mkSVD (mmul Q (svd_u (svd F))) (svd_s (svd F)) (svd_vh (svd F))) D2).
    + cbn [svd_u svd_s]. rewrite hencky_turned. unfold turned. rewrite trans_mmul, !mmul_assoc. reflexivity.
    + split; [apply orth_mul; assumption|]. split; [exact V|]. cbn [svd_u svd_s svd_vh]. repeat split; try assumption.
      rewrite E at 1. rewrite !mmul_assoc. reflexivity.
  - rewrite (hencky_any svd _ (mkSVD (svd_u (svd F)) (svd_s (svd F)) (mmul (svd_vh (svd F)) Q)) D2).
    + cbn [svd_u svd_s]. rewrite hencky_turned. reflexivity.
    + split; [exact U|]. split; [apply orth_mul; assumption|]. cbn [svd_u svd_s svd_vh]. repeat split; try assumption.
      rewrite E at 1. rewrite !mmul_assoc. reflexivity.
  - rewrite (hencky_any svd _ (mkSVD Q (V3 1 1 1) meye) D2).
    + cbn [svd_u svd_s]. unfold lg, dg. cbn [vx vy vz]. rewrite !log_stretch_R.
      assert (/ 10 ^ 12 <= 1). { rewrite <- Rinv_1. apply Rinv_le_contravar; [lra|]. simpl. lra. }
      rewrite Rmax_left, ln_1, Ropp_0 by lra. apply turned_zero.
    + split; [exact O|]. split; [exact orth_eye|]. cbn [svd_u svd_s svd_vh vx vy vz]. split; [lra|]. split; [lra|]. split; [lra|]. apply svd_of_turn.
Qed.
Print Assumptions C117_frames.

(** the volumetric strain measures the change of volume *)
Theorem C117_volume_partial : forall svd F, is_svd (svd F) F -> stretches_above (/ 10 ^ 12) F -> 0 < mdet F ->
  get_volumetric_strain (get_hencky_strain svd F) = - ln (mdet F).
Proof. intros svd F D H P. rewrite hencky_trace by assumption. rewrite Rabs_pos_eq by lra. reflexivity. Qed.
Print Assumptions C117_volume_partial.

(** along a run the reported volumetric strain is the logarithm of the volume ratio of each point *)
Theorem C117_run_partial : forall svd (S : Solver R) n st st', solver_steps S n st = Ok st' -> no_reset S ->
  every (fun p => pt_vol p = mdet (pt_F p) * pt_vol0 p) (s_world st) ->
  every (fun p => 0 < pt_vol0 p -> 0 < pt_vol p -> is_svd (svd (pt_F p)) (pt_F p) -> stretches_above (/ 10 ^ 12) (pt_F p) ->
    get_volumetric_strain (eps_of svd p) = - ln (pt_vol p / pt_vol0 p)) (s_world st').
Proof.
  intros svd S n st st' E N V. pose proof (C25_volume_over_steps S n st st' E N V) as W.
  intros i p Hp V0 V1 D H. pose proof (W i p Hp) as Q. cbv beta in Q.
  assert (0 < mdet (pt_F p)) by nra.
  unfold eps_of. rewrite C117_volume_partial by assumption. rewrite Q. do 2 f_equal. field. lra.
Qed.
Print Assumptions C117_run_partial.

(** FINDING: a point turned inside out reports the same volumetric strain as its mirror image, here none at all, although
    its volume is the negative of the original one; and a stretch below 1e-12 is reported as 1e-12. *)
Theorem C117_inverted_refuted : forall svd, (forall F, is_svd (svd F) F) ->
  (exists F, mdet F = -1 /\ get_hencky_strain svd F = mzero) /\
  (exists F, 0 < mdet F /\ mdet F = / 10 ^ 13 /\ exp (- get_volumetric_strain (get_hencky_strain svd F)) = / 10 ^ 12).
Proof.
  intros svd D. split.
  - exists (mdiag (-1) 1 1). split; [clear; mcbv; ring|]. apply (C117_frames svd meye); [apply D| |apply D]. split; meq.
  - assert (T : 0 < / 10 ^ 13) by (apply Rinv_0_lt_compat, pow_lt; lra).
    exists (mdiag (/ 10 ^ 13) 1 1).
    assert (Ed : mdet (mdiag (/ 10 ^ 13) 1 1) = / 10 ^ 13) by (clear; mcbv; ring).
    split; [rewrite Ed; exact T|]. split; [exact Ed|].
    rewrite (hencky_any svd _ (mkSVD meye (V3 (/ 10 ^ 13) 1 1) meye) (D _)).
    + cbn [svd_u svd_s]. unfold lg, dg. cbn [vx vy vz]. rewrite !log_stretch_R.
      assert (/ 10 ^ 12 <= 1). { rewrite <- Rinv_1. apply Rinv_le_contravar; [lra|]. simpl. lra. }
      assert (/ 10 ^ 13 <= / 10 ^ 12). { apply Rinv_le_contravar; [apply pow_lt; lra|]. simpl. lra. }
      rewrite (Rmax_right (/ 10 ^ 13)), (Rmax_left 1), ln_1 by lra.
      rewrite trace_turned_eye. replace (- (- ln (/ 10 ^ 12) + - 0 + - 0)) with (ln (/ 10 ^ 12)) by ring. apply exp_ln. exact tiny_pos.
    + split; [exact orth_eye|]. split; [exact orth_eye|]. cbn [svd_u svd_s svd_vh vx vy vz]. split; [lra|]. split; [lra|]. split; [lra|]. apply svd_of_diag.
Qed.
Print Assumptions C117_inverted_refuted.

(** a simultaneous stretch and quarter turn, with its decomposition *)
Definition quarter : mat3 R := M3 0 (-1) 0 1 0 0 0 0 1.
Example C117_case : exists svd, is_svd (svd (mmul quarter (mdiag 2 3 1))) (mmul quarter (mdiag 2 3 1)) /\
  orthogonal quarter /\ stretches_above (/ 10 ^ 12) (mmul quarter (mdiag 2 3 1)) /\ mdet (mmul quarter (mdiag 2 3 1)) = 6.
Proof.
  assert (O : orthogonal quarter) by (split; unfold quarter; meq).
  exists (fun _ => mkSVD quarter (V3 2 3 1) meye). split; [|split; [exact O|split]].
  - split; [exact O|]. split; [exact orth_eye|]. cbn [svd_u svd_s svd_vh vx vy vz]. split; [lra|]. split; [lra|]. split; [lra|]. clear. unfold quarter. meq.
  - intros v. rewrite mvmul_mmul, orth_norm by exact O. destruct v as [x y z].
    assert (/ 10 ^ 12 <= 1). { rewrite <- Rinv_1. apply Rinv_le_contravar; [lra|]. simpl. lra. }
    pose proof tiny_pos. set (e := / 10 ^ 12) in *. clearbody e. assert (e * e <= 1) by nra.
    unfold vnorm2, vdot, mvmul, mdiag. cbn [vx vy vz m00 m01 m02 m10 m11 m12 m20 m21 m22]. rnum.
    assert (0 <= x * x + y * y + z * z) by nra. nra.
  - clear. unfold quarter. mcbv. ring.
Qed.

(** ** C118 *)
(** what each reported quantity should be *)
Definition close_to (e x v : R) : Prop := Rabs (v - x) <= e.
Definition equivalent_shear (e : mat3 R) : R := sqrt (2 / 3 * frob2 (deviator e)).
Definition expected (svd : mat3 R -> SVD R) : list (string * (Particle R -> R -> Prop)) :=
  [("density_stack", fun p v => 0 < pt_mass p -> 0 < pt_vol p -> close_to (/ 10 ^ 16 / pt_vol p * (pt_mass p / pt_vol p)) (pt_mass p / pt_vol p) v);
   ("density_ref_stack", fun p v => 0 < pt_mass p -> 0 < pt_vol0 p -> close_to (/ 10 ^ 16 / pt_vol0 p * (pt_mass p / pt_vol0 p)) (pt_mass p / pt_vol0 p) v);
   ("pressure_stack", fun p v => v = mean3 (pt_stress p));
   ("KE_stack", fun p v => v = pt_mass p * vnorm2 (pt_vel p) / 2);
   ("q_stack", fun p v => v = q_of (pt_stress p));
   ("eps_v_stack", fun p v => v = mtrace (get_hencky_strain svd (pt_F p)));
   ("shear_strain_rate_stack", fun p v => close_to (/ 10 ^ 8) (equivalent_shear (rate (pt_L p))) v);
   ("shear_strain_stack", fun p v => close_to (/ 10 ^ 8) (equivalent_shear (get_hencky_strain svd (pt_F p))) v)].

Lemma shear_ok e : exists v, shear_of e = Ok v /\ close_to (/ 10 ^ 8) (equivalent_shear e) v /\ / 10 ^ 8 <= v.
Proof.
  unfold shear_of, get_shear_strain_vm. change (@numt_num R NumT_R) with Num_R. eexists. split; [reflexivity|].
  rewrite dev_strain_deviator. change (mddot (deviator e) (deviator e)) with (frob2 (deviator e)). rewrite eps16.
  unfold close_to, equivalent_shear. replace (@lit R Num_R 2 3) with (2 / 3) by (unfold lit; rnum; lra). rnum.
  pose proof (frob2_nonneg (deviator e)) as F. set (x := 2 / 3 * frob2 (deviator e)). assert (Hx : 0 <= x) by (unfold x; lra).
  assert (T : 0 < / 10 ^ 8) by (apply Rinv_0_lt_compat, pow_lt; lra).
  assert (E : / 10 ^ 16 = / 10 ^ 8 * / 10 ^ 8) by (simpl; lra). rewrite E. set (t := / 10 ^ 8) in *. clearbody t x.
  assert (Sx : 0 <= sqrt x) by apply sqrt_pos. assert (Q : sqrt x * sqrt x = x) by (apply sqrt_sqrt; exact Hx).
  assert (L : sqrt x <= sqrt (x + t * t)) by (apply sqrt_le_1_alt; nra).
  split.
  - rewrite Rabs_pos_eq by lra. apply Rplus_le_reg_r with (sqrt x). replace (_ - _ + _) with (sqrt (x + t * t)) by ring.
    rewrite <- (sqrt_Rsqr (t + sqrt x)) by lra. apply sqrt_le_1_alt. unfold Rsqr. nra.
  - rewrite <- (sqrt_Rsqr t) at 1 by lra. apply sqrt_le_1_alt. unfold Rsqr. lra.
Qed.
Lemma shear_zero : shear_of (get_sym_tensor (@mzero R _)) = Ok (/ 10 ^ 8).
Proof.
  unfold shear_of, get_shear_strain_vm. change (@numt_num R NumT_R) with Num_R. apply (f_equal Ok). rewrite dev_strain_deviator, eps16.
  replace (mddot _ _) with 0 by (mcbv; lra). rnum.
  replace (2 / 3 * 0 + / 10 ^ 16) with (/ 10 ^ 8 * / 10 ^ 8) by (simpl; lra).
  apply sqrt_square. left. apply Rinv_0_lt_compat, pow_lt. lra.
Qed.
Lemma per_point_ok (f : Particle R -> res R) (rel : Particle R -> R -> Prop) l : (forall p, exists v, f p = Ok v /\ rel p v) ->
  exists l', rmap f l = Ok l' /\ Forall2 rel l l'.
Proof.
  intro H. induction l as [|p l IH]; [exists []; split; [reflexivity|constructor]|].
  destruct IH as (l' & E & F). destruct (H p) as (v & Ev & Rv). exists (v :: l'). cbn [rmap]. rewrite Ev, E. split; [reflexivity|constructor; assumption].
Qed.

(** C118: these quantities are reported, one number per point, with the stated meaning *)
Theorem C118_values_partial : forall svd (b : SoftBody R) name rel, In (name, rel) (expected svd) ->
  exists l, derived svd b name = Ok (Some l) /\ Forall2 rel (sb_pts b) l.
Proof.
  intros svd b name rel H.
  assert (G : forall f, (forall p, exists v, f p = Ok v /\ rel p v) -> exists l, rbind (rmap f (sb_pts b)) (fun l => Ok (Some l)) = Ok (Some l) /\ Forall2 rel (sb_pts b) l).
  { intros f K. destruct (per_point_ok f rel (sb_pts b) K) as (l & E & F). exists l. rewrite E. split; [reflexivity|exact F]. }
  unfold expected in H. cbn [In] in H.
  destruct H as [H|[H|[H|[H|[H|[H|[H|[H|[]]]]]]]]]; injection H as <- <-; unfold derived; cbn [String.eqb Ascii.eqb Bool.eqb]; apply G; intro p.
  - eexists. split; [reflexivity|]. intros M V. unfold close_to. apply (C40_density p M V).
  - eexists. split; [reflexivity|]. intros M V. unfold close_to.
    pose (p' := {| pt_pos := vzero; pt_vel := vzero; pt_mass := pt_mass p; pt_force := vzero; pt_vol := pt_vol0 p; pt_vol0 := 0; pt_L := mzero; pt_stress := mzero; pt_F := mzero; pt_Fst := mzero |} : Particle R).
    apply (C40_density p' M V).
  - eexists. split; [reflexivity|]. unfold get_pressure, mean3, mtrace, lit. rnum. field.
  - eexists. split; [reflexivity|]. unfold KE, lit, vnorm2, vdot. rnum. field.
  - exists (q_of (pt_stress p)). split; [apply q_vm_ok|reflexivity].
  - eexists. split; [reflexivity|]. reflexivity.
  - destruct (shear_ok (get_sym_tensor (pt_L p))) as (v & E & C & _). exists v. split; [exact E|].
    replace (rate (pt_L p)) with (get_sym_tensor (pt_L p)); [exact C|]. destruct (pt_L p). unfold rate. meq.
  - destruct (shear_ok (eps_of svd p)) as (v & E & C & _). exists v. split; [exact E|exact C].
Qed.
Print Assumptions C118_values_partial.

(** FINDING: two advertised quantities are silently None for every body (the NotImplementedError is built, not raised), and the
    stored shear strain fails with ValueError unless the body was created with store_F. *)
Theorem C118_missing_refuted : forall svd (b : SoftBody R),
  derived svd b "KE_density_stack" = Ok None /\ derived svd b "q_p_stack" = Ok None /\
  (sb_storeF b = false -> derived svd b "stored_shear_strain_stack" = Err ValueError) /\
  (sb_storeF b = true -> exists l, derived svd b "stored_shear_strain_stack" = Ok (Some l) /\ List.length l = List.length (sb_pts b)).
Proof.
  intros svd b. split; [reflexivity|]. split; [reflexivity|]. split.
  - intro E. unfold derived. cbn [String.eqb Ascii.eqb Bool.eqb]. rewrite E. reflexivity.
  - intro E. unfold derived. cbn [String.eqb Ascii.eqb Bool.eqb]. rewrite E.
    destruct (per_point_ok (fun p => shear_of (stored_eps_of svd p)) (fun _ _ => True) (sb_pts b)) as (l & E1 & F).
    { intro p. destruct (shear_ok (stored_eps_of svd p)) as (v & Ev & _). exists v. split; [exact Ev|exact I]. }
    exists l. rewrite E1. split; [reflexivity|]. clear -F. induction F; cbn [List.length]; congruence.
Qed.
Print Assumptions C118_missing_refuted.

(** FINDING: no point ever reports a zero shear strain rate: at rest it is 1e-8. *)
Theorem C118_rest_refuted : forall svd (b : SoftBody R) l, derived svd b "shear_strain_rate_stack" = Ok (Some l) ->
  Forall (fun v => / 10 ^ 8 <= v) l /\
  (forall p, sb_pts b = [p] -> pt_L p = mzero -> l = [/ 10 ^ 8]).
Proof.
  intros svd b l E. unfold derived in E. cbn [String.eqb Ascii.eqb Bool.eqb] in E.
  apply rbind_ok in E. destruct E as (l' & E & X). injection X as <-. split.
  - apply rmap_ok in E. induction E as [|p v ps vs A _ IH]; constructor; [|exact IH].
    destruct (shear_ok (get_sym_tensor (pt_L p))) as (v' & Ev & _ & Q). assert (X : Ok v = Ok v') by (rewrite <- A; exact Ev). injection X as ->. exact Q.
  - intros p Hp HL. rewrite Hp in E. cbn [rmap] in E. rewrite HL in E. unfold rbind in E.
    destruct (shear_of _) as [v|] eqn:Y in E; [|discriminate].
    assert (X : Ok v = Ok (/ 10 ^ 8)) by (rewrite <- Y; exact shear_zero). injection X as ->. injection E as <-. reflexivity.
Qed.
Print Assumptions C118_rest_refuted.
Example C118_case : exists l, derived (fun _ => mkSVD meye (V3 1 1 1) meye) (soft [part (M3 0 1 0 0 0 0 0 0 0) (mdiag 3 0 0) 2 1]) "pressure_stack" = Ok (Some l) /\ l = [1].
Proof. eexists. split; [reflexivity|]. cbn. f_equal. unfold get_pressure, mtrace, lit. cbn. rnum. field. Qed.
