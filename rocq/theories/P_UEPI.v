(** The unified Cam-Clay law of projects/: its curves (C133) and its update (C134). *)
From Coquelicot Require Import Coquelicot.
From Coq Require Import List Arith ZArith Reals Bool Lra Lia.
From Verif Require Import Num NumR Linalg Arrays ModelGrid ModelShape ModelMath ModelState ModelLaws ModelUEPI Sums ResFacts SpecMath MathProofs SpecLaws
  LawProofs LawProofs2 P_Laws P_Laws2 P_Laws3.
Import ListNotations.
Local Open Scope R_scope.

(** *** C133: curves *)
Lemma Rpower_div x y l : 0 < x -> 0 < y -> Rpower (x / y) l = Rpower x l / Rpower y l.
Proof.
  intros Hx Hy. unfold Rpower. rewrite ln_div by assumption. replace (l * (ln x - ln y)) with (l * ln x + - (l * ln y)) by ring.
  rewrite exp_plus, exp_Ropp. reflexivity.
Qed.
Lemma Rpower_half k : Rpower (1/2) k = Rpower 2 (- k).
Proof. unfold Rpower. replace (1/2) with (/2) by lra. rewrite ln_Rinv by lra. f_equal. ring. Qed.

Lemma Rpower_1l k : Rpower 1 k = 1.
Proof. unfold Rpower. rewrite ln_1, Rmult_0_r. apply exp_0. Qed.

(** The correction of the friction with the inertial number starts at 1, grows with the rate, stays below M_inf/M and approaches it;
    half of the way is reached at I = I_M. *)
Theorem C133_friction : forall M Minf IM, 0 < M < Minf -> 0 < IM ->
  get_M_I 0 IM M Minf = 1 /\
  (forall I J, 0 <= I < J -> get_M_I I IM M Minf < get_M_I J IM M Minf) /\
  (forall I, 0 <= I -> M <= get_iss_M I IM M Minf < Minf) /\
  get_iss_M IM IM M Minf = (M + Minf) / 2 /\
  is_lim (fun I => get_iss_M I IM M Minf) p_infty Minf.
Proof.
  intros M Minf IM HM HI.
  assert (E : forall I, 0 <= I -> get_M_I I IM M Minf = Minf / M - (Minf / M - 1) * (IM / (IM + I))).
  { intros I Hi. unfold get_M_I. rnum. field. lra. }
  assert (A : 0 < Minf / M - 1).
  { apply Rlt_Rminus. apply Rmult_lt_reg_r with M; [lra|]. unfold Rdiv. rewrite Rmult_assoc, Rinv_l by lra. lra. }
  assert (Q : forall I, 0 <= I -> 0 < IM / (IM + I) <= 1).
  { intros I Hi. split; [apply Rdiv_lt_0_compat; lra|]. apply Rmult_le_reg_r with (IM + I); [lra|]. unfold Rdiv. rewrite Rmult_assoc, Rinv_l by lra. lra. }
  assert (V : forall I, 0 <= I -> get_iss_M I IM M Minf = Minf - (Minf - M) * (IM / (IM + I))).
  { intros I Hi. unfold get_iss_M. rnum. rewrite E by exact Hi. field. lra. }
  split; [unfold get_M_I; rnum; field; lra|]. split; [|split; [|split]].
  - intros I J HIJ. rewrite !E by lra. apply Rplus_lt_compat_l, Ropp_lt_contravar, Rmult_lt_compat_l; [exact A|].
    unfold Rdiv. apply Rmult_lt_compat_l; [lra|]. apply Rinv_lt_contravar; [apply Rmult_lt_0_compat; lra|lra].
  - intros I Hi. rewrite V by exact Hi. specialize (Q I Hi). nra.
  - rewrite V by lra. field. lra.
  - apply is_lim_ext_loc with (fun I => Minf - (Minf - M) * (IM * / (IM + I))).
    { exists 0. intros I Hi. rewrite V by lra. reflexivity. }
    evar_last.
    + apply is_lim_minus with Minf 0; [apply is_lim_const| |reflexivity].
      evar_last. apply is_lim_scal_l with (l := 0).
      2: simpl; f_equal; ring.
      evar_last. apply is_lim_scal_l with (l := 0). 2: simpl; f_equal; ring.
      evar_last. apply is_lim_inv with (l := p_infty). 2: discriminate. 2: reflexivity.
      eapply is_lim_plus; [apply is_lim_const|apply is_lim_id|reflexivity].
    + simpl. f_equal. ring.
Qed.
Print Assumptions C133_friction.

(** The two forms of the yield condition agree: the residual of the return mapping vanishes exactly where q is the unified stress ratio times p. *)
Theorem C133_surface : forall p ps q I M Minf IM, 0 < p -> p <= 2 * ps -> 0 <= q -> 0 < M -> M <= Minf -> 0 < IM -> 0 <= I ->
  let MI := get_M_I I IM M Minf in
  (get_unified_iys_res p ps q M MI = 0 <-> q = get_unified_M (get_xi ps p) I M Minf IM * p) /\
  (get_unified_iys_res p ps q M MI <= 0 <-> q <= get_unified_M (get_xi ps p) I M Minf IM * p) /\
  get_unified_M_2 (get_xi ps p) I M Minf IM = Rsqr (get_unified_M (get_xi ps p) I M Minf IM).
Proof.
  intros p ps q I M Minf IM Hp Hps Hq HM HMi HIM HI MI.
  assert (P1 : 1 <= MI).
  { unfold MI, get_M_I. rnum. assert (0 <= I * ((Minf / M - 1) / (IM + I))); [|lra].
    apply Rmult_le_pos; [lra|]. apply Rle_mult_inv_pos; [|lra]. assert (1 <= Minf / M); [|lra].
    apply Rmult_le_reg_r with M; [lra|]. unfold Rdiv. rewrite Rmult_assoc, Rinv_l by lra. lra. }
  assert (X : 0 <= 2 * (ps / p) - 1).
  { assert (1 <= 2 * (ps / p)); [|lra]. apply Rmult_le_reg_r with p; [lra|]. unfold Rdiv. replace (2 * (ps * / p) * p) with (2 * ps) by (field; lra). lra. }
  set (U := get_unified_M (get_xi ps p) I M Minf IM).
  assert (EU : U = M * sqrt (2 * (ps / p) - 1) * MI) by (unfold U, get_unified_M, get_M_xi, get_xi, nsqrt; cbn; rnum; reflexivity).
  assert (U0 : 0 <= U) by (rewrite EU; apply Rmult_le_pos; [apply Rmult_le_pos; [lra|apply sqrt_pos]|lra]).
  assert (U2 : Rsqr U = Rsqr M * (2 * (ps / p) - 1) * Rsqr MI).
  { rewrite EU, !Rsqr_mult, Rsqr_sqrt by exact X. reflexivity. }
  assert (R : get_unified_iys_res p ps q M MI = (Rsqr q - Rsqr (U * p)) / Rsqr (M * MI)).
  { rewrite Rsqr_mult, U2. unfold get_unified_iys_res, Rsqr. rnum. field. lra. }
  assert (D : 0 < Rsqr (M * MI)) by (apply Rsqr_pos_lt; apply Rgt_not_eq, Rmult_lt_0_compat; lra).
  assert (Up : 0 <= U * p) by (apply Rmult_le_pos; lra).
  split; [|split].
  - rewrite R. split.
    + intros E. apply Rsqr_inj; [exact Hq|exact Up|]. apply Rmult_eq_compat_r with (r := Rsqr (M * MI)) in E. unfold Rdiv in E.
      rewrite Rmult_assoc, Rinv_l in E by lra. lra.
    + intros ->. replace (Rsqr (U * p) - Rsqr (U * p)) with 0 by ring. apply Rmult_0_l.
  - rewrite R. split.
    + intros E. apply Rsqr_incr_0; [|exact Hq|exact Up]. apply Rmult_le_compat_r with (r := Rsqr (M * MI)) in E; [|lra]. unfold Rdiv in E.
      rewrite Rmult_assoc, Rinv_l in E by lra. lra.
    + intros E. apply Rsqr_incr_1 in E; [|exact Hq|exact Up]. apply Rmult_le_reg_r with (Rsqr (M * MI)); [exact D|].
      unfold Rdiv. rewrite Rmult_assoc, Rinv_l by lra. lra.
  - fold U. rewrite U2. unfold get_unified_M_2, get_M_xi_2, get_M_I_2, get_xi, sq, Rsqr, MI, get_M_I. rnum. ring.
Qed.
Print Assumptions C133_surface.
(** The third form, with 1e-12 in a denominator, disagrees with them. *)
Theorem C133_form_refuted : forall ps M, 0 < ps -> 0 < M ->
  let p := ps in let q := M * p in
  get_unified_iys_res p ps q M 1 = 0 /\ get_unified_iys p q M (get_M_xi_2 (get_xi ps p)) 1 < 0.
Proof.
  intros ps M Hp HM. cbv zeta. split.
  - unfold get_unified_iys_res. rnum. field. lra.
  - unfold get_unified_iys, get_M_xi_2, get_xi, sq, lit. rnum. replace (ps / ps) with 1 by (field; lra).
    set (c := 1 / IZR (10 ^ 12)). assert (C : 0 < c) by (apply Rdiv_lt_0_compat; [lra|apply (IZR_lt 0); reflexivity]).
    set (r := M * ps / (ps * M + c)). assert (B : 0 < ps * M) by (apply Rmult_lt_0_compat; assumption).
    assert (R : 0 < r < 1).
    { unfold r. split; [apply Rdiv_lt_0_compat; lra|]. apply Rmult_lt_reg_r with (ps * M + c); [lra|]. unfold Rdiv. rewrite Rmult_assoc, Rinv_l by lra. lra. }
    nra.
Qed.
Print Assumptions C133_form_refuted.

(** The swelling line through a state meets the critical state line at xi = 1 and the normal compression line at xi = 1/2,
    whose constant is the one the law reports as N; gamma and N convert back and forth. *)
Theorem C133_lines : forall ps pref gamma lam kap, 0 < ps -> 0 < pref ->
  get_mcc_sl (get_xi ps ps) ps pref gamma lam kap = ue_v_csl ps pref gamma lam /\
  get_mcc_sl (get_xi ps (2 * ps)) ps pref gamma lam kap = ue_v_ncl (2 * ps) pref (convert_gamma_N gamma lam kap) lam /\
  (forall p, 0 < p -> get_unified_isl (get_xi ps p) p pref gamma lam kap = get_mcc_sl (get_xi ps p) ps pref gamma lam kap) /\
  (forall nu M d Iv IM Minf rho N m, uepi_create nu M lam kap d Iv IM Minf None (Some N) pref rho = Ok m -> uepi_N m = N) /\
  (forall nu M d Iv IM Minf rho N m, uepi_create nu M lam kap d Iv IM Minf (Some gamma) N pref rho = Ok m ->
     ue_gamma m = gamma /\ uepi_N m = convert_gamma_N gamma lam kap).
Proof.
  intros ps pref gamma lam kap Hs Hr. repeat split.
  - unfold get_mcc_sl, get_v_xi, get_xi, npow; cbn. rnum. replace (ps / ps) with 1 by (field; lra). rewrite Rpower_1l. ring.
  - unfold get_mcc_sl, get_v_xi, get_xi, ue_v_ncl, ue_v_csl, convert_gamma_N, npow; cbn. rnum.
    replace (ps / (2 * ps)) with (1/2) by (field; lra). rewrite Rpower_half, !Rpower_div by lra.
    replace (- (kap - lam)) with (- kap + lam) by ring. rewrite Rpower_plus. rewrite <- (Rpower_mult_distr 2 ps lam) by lra.
    field. split; apply Rgt_not_eq, exp_pos.
  - intros p Hp. unfold get_unified_isl, get_mcc_sl, get_xi. rnum. do 2 f_equal. field. lra.
  - intros nu M d Iv IM Minf rho N m E. injection E as <-. unfold uepi_N, npow; cbn. rnum. rewrite Rmult_assoc, <- Rpower_plus.
    replace (kap - lam + - (kap - lam)) with 0 by ring. rewrite Rpower_O by lra. ring.
  - injection H as <-. reflexivity.
  - injection H as <-. reflexivity.
Qed.
Print Assumptions C133_lines.

(** The plastic strain increments are pmulti times the gradient of the yield function over p_s^2 (associated flow).  They have the direction the return
    mapping uses, 2 pmulti (p - p_s) M^2 and 2 pmulti q; neither contains the inertial correction of M (cf. C134_flow). *)
Theorem C133_flow : forall p ps q M pm, 0 < p -> 0 < ps -> 0 < M ->
  let f x y := (y * y / (M * M) + x * x - 2 * ps * x) / (ps * ps) in
  (exists dp dq, is_derive (fun x => f x q) p dp /\ is_derive (fun y => f p y) q dq /\
     get_deps_v_p p (get_xi ps p) pm = pm * dp /\ get_deps_s_p p (get_xi ps p) q M pm = pm * dq) /\
  (forall dI lam kap Iv p0, 0 < p0 -> p0 <= ps * 10 ^ 12 ->
     get_deps_v_p_hardening ps p0 dI Iv lam kap = (lam - kap) * ln (ps / p0) - dI / Iv).
Proof.
  intros p ps q M pm Hp Hs HM f. split.
  - exists (2 * (p - ps) / (ps * ps)), (2 * q / (M * M * (ps * ps))). split; [|split; [|split]].
    + unfold f. auto_derive; [trivial|]. field. lra.
    + unfold f. auto_derive; [trivial|]. field. lra.
    + unfold get_deps_v_p, get_xi, sq. rnum. field. lra.
    + unfold get_deps_s_p, get_xi, sq. rnum. field. lra.
  - intros dI lam kap Iv p0 H0 Hq. unfold get_deps_v_p_hardening, lit. rewrite nmax_R. rnum. rewrite Rmax_left; [reflexivity|].
    apply Rmult_le_reg_r with p0; [exact H0|]. unfold Rdiv. rewrite (Rmult_assoc ps), Rinv_l by lra.
    change (IZR (10 ^ 12)) with (IZR (10 ^ Z.of_nat 12)). rewrite <- pow_IZR.
    apply Rmult_le_reg_r with (10 ^ 12); [apply pow_lt; lra|]. rewrite Rmult_1_l, Rmult_1_r, Rmult_comm, <- Rmult_assoc, Rinv_r by (apply pow_nonzero; lra). lra.
Qed.
Print Assumptions C133_flow.

(** A point made from a pressure and an overconsolidation ratio lies in or on the static surface, on its swelling line; FINDING: the shear stress asked
    for is ignored. *)
Definition spec_volume (m : UEPI R) (p ps I : R) : R :=
  ue_gamma m * Rpower (ue_pref m / ps) (ue_lam m) * Rpower (ps / p) (ue_kap m) * exp (I / ue_Iv m).
Lemma q_spherical k : q_of (spherical k) = 0.
Proof. apply q_of_zero. f_equal. unfold mean3; cbn; lra. Qed.
Theorem C133_state : forall (m : UEPI R) p ocr q, 0 < p -> 1 <= ocr -> 0 < ue_gamma m ->
  let '(st, sg, rho) := uepi_from_ocr1 m p ocr q in
  mean3 sg = p /\ get_unified_iys_res (mean3 sg) (us_ps st) (q_of sg) (ue_M m) 1 <= 0 /\ us_ps st = ocr * p / 2 /\
  rho * spec_volume m p (us_ps st) 0 = ue_rho m /\ us_ref st = sg /\ us_eps st = mzero.
Proof.
  intros m p ocr q Hp Ho Hg. unfold uepi_from_ocr1. cbv zeta. change (@numt_num R NumT_R) with Num_R.
  assert (S : reconstruct_stress_from_triaxial p (@n0 R Num_R) = spherical p) by (apply mat3_eq; mcbv; field).
  rewrite S. cbn [us_ps us_ref us_eps]. assert (Mn : mean3 (spherical p) = p) by (unfold mean3; cbn; lra). rewrite Mn, q_spherical. repeat split.
  - assert (ue_M m = 0 \/ ue_M m <> 0) as [Z|Z] by (destruct (Req_dec (ue_M m) 0); auto).
    + unfold get_unified_iys_res. rnum. unfold Rdiv at 1. rewrite !Rmult_0_l. nra.
    + unfold get_unified_iys_res. rnum. unfold Rdiv at 1. rewrite !Rmult_0_l. nra.
  - rnum. field.
  - unfold spec_volume, get_mcc_sl, ue_v_csl, get_v_xi, get_xi. rnum. unfold npow; cbn. replace (0 / ue_Iv m) with 0 by (unfold Rdiv; ring). rewrite exp_0. field.
    repeat split; apply Rgt_not_eq; first [apply exp_pos|assumption].
Qed.
Print Assumptions C133_state.
Theorem C133_state_refuted : forall (m : UEPI R) p ocr q, 0 < q -> let sg := snd (fst (uepi_from_ocr1 m p ocr (Some q))) in q_of sg = 0 /\ q_of sg <> q.
Proof.
  intros m p ocr q Hq sg. assert (Z : q_of sg = 0); [|rewrite Z; split; [reflexivity|lra]].
  unfold sg, uepi_from_ocr1. cbn [fst snd]. change (@numt_num R NumT_R) with Num_R.
  replace (reconstruct_stress_from_triaxial p (@n0 R Num_R)) with (spherical p) by (apply mat3_eq; mcbv; field). apply q_spherical.
Qed.
Print Assumptions C133_state_refuted.
(** without gamma and N no law is made *)
Theorem C133_constants : forall nu M lam kap d Iv IM Minf pref rho g n,
  (exists m, uepi_create nu M lam kap d Iv IM Minf g n pref rho = Ok m) <-> (g <> None \/ n <> None).
Proof.
  intros. destruct g as [g|]; [|destruct n as [n|]]; (split; intros A).
  - left. discriminate.
  - eexists. reflexivity.
  - right. discriminate.
  - eexists. reflexivity.
  - destruct A as (? & A). discriminate.
  - destruct A as [A|A]; contradiction.
Qed.
Print Assumptions C133_constants.

(** *** C134: the update *)
Definition uepi_params (m : UEPI R) : Prop :=
  0 < ue_kap m /\ ue_kap m < ue_lam m /\ -1 < ue_nu m <= 1 / 2 /\ 0 < ue_M m /\ 0 < ue_Iv m /\ 0 <= ue_rho m /\ 0 <= ue_d m /\ 0 < ue_IM m /\ ue_M m <= ue_Minf m.
Lemma ut_pprev_eq (m : UEPI R) L s st dt : ut_pprev (ue_trial m L s st dt) = mean3 s.
Proof.
  unfold ue_trial. cbn [ut_pprev]. change (@numt_num R NumT_R) with Num_R. rewrite pressure_mean.
  unfold mean3. pose proof (jaumann_trace s (get_spin_tensor L) dt) as E. unfold mtrace at 1 2 in E. rnum. rewrite E. reflexivity.
Qed.
Lemma ut_dev_eq (m : UEPI R) L s st dt : ut_dev (ue_trial m L s st dt) = dt * mtrace L.
Proof.
  unfold ue_trial. cbn [ut_dev]. change (@numt_num R NumT_R) with Num_R. unfold get_volumetric_strain. rewrite trace_scale, <- spin_trace. reflexivity.
Qed.
Lemma ut_p_eq (m : UEPI R) L s st dt : ut_p (ue_trial m L s st dt) = mean3 s * exp (dt * mtrace L / ue_kap m).
Proof. rewrite <- (ut_pprev_eq m L s st dt), <- (ut_dev_eq m L s st dt). reflexivity. Qed.
Lemma ut_G_eq (m : UEPI R) L s st dt :
  ut_G (ue_trial m L s st dt) = 3 * (1 - 2 * ue_nu m) / (2 * (1 + ue_nu m)) * ((mean3 s + ut_p (ue_trial m L s st dt)) / 2 / ue_kap m).
Proof.
  rewrite <- (ut_pprev_eq m L s st dt). unfold ue_trial. cbn [ut_G ut_p ut_pprev]. unfold ue_G, ue_K, lit. rnum.
  unfold Rdiv. ring.
Qed.
Lemma ut_G_nonneg (m : UEPI R) L s st dt : uepi_params m -> 0 <= mean3 s -> 0 <= ut_G (ue_trial m L s st dt).
Proof.
  intros (Hk & _ & Hn & _) Hs. rewrite ut_G_eq, ut_p_eq.
  assert (0 <= mean3 s * exp (dt * mtrace L / ue_kap m)) by (apply Rmult_le_pos; [exact Hs|left; apply exp_pos]).
  apply Rmult_le_pos; (apply Rle_mult_inv_pos; lra).
Qed.
Lemma ut_s_trace (m : UEPI R) L s st dt : mtrace (ut_s (ue_trial m L s st dt)) = 0.
Proof.
  pose proof (ut_pprev_eq m L s st dt) as E. unfold ue_trial in *. cbn [ut_s ut_pprev] in *. change (@numt_num R NumT_R) with Num_R in *.
  set (G := ue_G _ _). set (sp := get_jaumann_increment s (get_spin_tensor L) dt) in *.
  unfold get_volumetric_strain. rewrite dev_strain_given, dev_stress_given, pressure_mean.
  pose proof (trace_deviator (mscale dt (get_sym_tensor L))) as T. destruct (deviator (mscale dt (get_sym_tensor L))) as [a0 a1 a2 a3 a4 a5 a6 a7 a8].
  destruct sp as [b0 b1 b2 b3 b4 b5 b6 b7 b8]. clearbody G. mcbv. transitivity (2 * G * (a0 + a4 + a8)); [field|]. rewrite T. ring.
Qed.
Lemma q_dev_scale (f : R) (s : mat3 R) p : 0 <= f -> mtrace s = 0 -> q_of (madd (mscale f s) (mscale p meye)) = f * q_vm_dev s.
Proof.
  intros Hf Hs. unfold q_of, J2_of. rewrite dev_split by (rewrite trace_scale, Hs; ring). unfold q_vm_dev.
  change (sqrt (3 * (frob2 (mscale f s) / 2)) = f * sqrt (3 * J2_dev s)).
  rewrite <- (sqrt_square f) at 2 by exact Hf. rewrite <- sqrt_mult_alt by (apply Rle_0_sqr || nra). f_equal. destruct s. mcbv. field.
Qed.
Lemma ut_q_of (m : UEPI R) L s st dt : let t := ue_trial m L s st dt in ut_q t = q_vm_dev (ut_s t) /\ 0 <= ut_q t.
Proof. cbv zeta. split; [reflexivity|]. apply sqrt_pos. Qed.

(** one Newton step keeps the multiplier nonnegative and moves log p_s by at most 0.04, whatever the Jacobian *)
Lemma ue_newton_bound jac res x : 0 <= fst (ue_newton jac res x) /\ Rabs (snd (ue_newton jac res x) - snd x) <= 4 / 100.
Proof.
  unfold ue_newton. change (@numt_num R NumT_R) with Num_R.
  set (d := m2v _ _). cbv zeta. cbn [fst snd]. split.
  - rewrite nmax_R. apply Rmax_r.
  - destruct (_ || _)%bool; [rewrite Rminus_eq_0, Rabs_R0; lra|]. unfold nclip, lit. cbn [fst snd]. rewrite nmin_R, nmax_R. rnum.
    replace (snd x + 4 / 10 * Rmin (Rmax (- snd d) (- (1 / 10))) (1 / 10) - snd x) with (4 / 10 * Rmin (Rmax (- snd d) (- (1 / 10))) (1 / 10)) by ring.
    rewrite Rabs_mult, (Rabs_right (4 / 10)) by lra.
    assert (Rabs (Rmin (Rmax (- snd d) (- (1 / 10))) (1 / 10)) <= 1 / 10); [|lra]. apply Rabs_le. split.
    + apply Rmin_glb; [|lra]. eapply Rle_trans; [|apply Rmax_r]. lra.
    + apply Rmin_r.
Qed.
Lemma ue_iter_bound jac res n x : 0 <= fst x -> 0 <= fst (iter n (ue_newton jac res) x) /\ Rabs (snd (iter n (ue_newton jac res) x) - snd x) <= INR n * (4 / 100).
Proof.
  revert x. induction n as [|n IH]; intros x Hx.
  - cbn [iter]. split; [exact Hx|]. rewrite Rminus_eq_0, Rabs_R0. cbn. lra.
  - cbn [iter]. destruct (ue_newton_bound jac res x) as (A & B). destruct (IH _ A) as (C & D). split; [exact C|]. rewrite S_INR.
    eapply Rle_trans; [|eapply Rplus_le_compat in D; [|exact B]; rewrite Rmult_plus_distr_r, Rmult_1_l, Rplus_comm; exact D].
    set (a := snd (iter n _ _)). set (b := snd (ue_newton _ _ _)). replace (a - snd x) with ((b - snd x) + (a - b)) by ring. apply Rabs_triang.
Qed.
Lemma ue_u0_eq (st : UEState R) : ue_u0 st = ln (Rmax (us_ps st) 1).
Proof. unfold ue_u0. rewrite nmax_R. reflexivity. Qed.
Lemma ue_solution_bound m jac t st dt : 0 <= fst (ue_solution m jac t st dt) /\ Rabs (snd (ue_solution m jac t st dt) - ln (Rmax (us_ps st) 1)) <= 4 / 5.
Proof.
  unfold ue_solution. rewrite <- ue_u0_eq.
  destruct (ue_iter_bound jac (ue_residual m t st dt) 20 (@n0 R Num_R, ue_u0 st)) as (A & B); [cbn; rnum; lra|]. split; [exact A|].
  cbn [snd] in B. replace (INR 20 * (4 / 100)) with (4 / 5) in B by (replace (INR 20) with 20 by (cbn; lra); lra). exact B.
Qed.

(** the return mapping at a given solution *)
Definition plastic_at (m : UEPI R) (t : UETrial R) (st : UEState R) (dt : R) (x : R * R) : mat3 R * UEState R :=
  let p0 := get_pressure (us_ref st) in
  let ev := (ue_p m t st dt x - p0) / ut_K t in
  let sn := mscale (ue_factor t x) (ut_s t) in
  let ed := mmap (fun y => y / (2 * ut_G t)) (msub sn (get_dev_stress (us_ref st) (Some p0))) in
  (madd sn (mscale (ue_p m t st dt x) meye),
   {| us_ps := exp (snd x); us_ref := us_ref st; us_I := ue_I m t dt x; us_eps := madd ed (mscale (lit 1 3 * ev) meye) |}).
Lemma plastic_split m jac t st dt : ue_plastic m jac t st dt = plastic_at m t st dt (ue_solution m jac t st dt).
Proof. unfold ue_plastic. generalize (ue_solution m jac t st dt). intros x. reflexivity. Qed.
Lemma step_plastic m jac L s st dt : let t := ue_trial m L s st dt in 0 < ut_yf t ->
  exists x, x = ue_solution m (jac t st dt) t st dt /\ 0 <= fst x /\ Rabs (snd x - ln (Rmax (us_ps st) 1)) <= 4 / 5 /\ ue_stress m jac L s st dt = plastic_at m t st dt x.
Proof.
  cbv zeta. intros Y. unfold ue_stress. cbv zeta. revert Y. generalize (ue_trial m L s st dt). intros t Y.
  change ((n0 <? ut_yf t)%num) with (Rltb 0 (ut_yf t)). rewrite (proj2 (Rltb_true _ _) Y), plastic_split.
  pose proof (ue_solution_bound m (jac t st dt) t st dt) as B. revert B. generalize (ue_solution m (jac t st dt) t st dt). intros x (B1 & B2). exists x. auto.
Qed.
Lemma step_elastic m jac L s st dt : ut_yf (ue_trial m L s st dt) <= 0 -> ue_stress m jac L s st dt = ue_elastic (ue_trial m L s st dt) st.
Proof.
  intros Y. unfold ue_stress. cbv zeta. revert Y. generalize (ue_trial m L s st dt). intros t Y.
  change ((n0 <? ut_yf t)%num) with (Rltb 0 (ut_yf t)). destruct (Rltb 0 (ut_yf t)) eqn:E; [|reflexivity]. apply Rltb_true in E. lra.
Qed.
Lemma factor_range (t : UETrial R) x : 0 <= ut_G t -> 0 <= fst x -> 0 < ue_factor t x <= 1.
Proof.
  intros G X. unfold ue_factor. rnum. assert (0 <= 6 * ut_G t * fst x) by (apply Rmult_le_pos; [lra|exact X]).
  split; [apply Rdiv_lt_0_compat; lra|]. apply Rmult_le_reg_r with (1 + 6 * ut_G t * fst x); [lra|]. unfold Rdiv. rewrite Rmult_assoc, Rinv_l by lra. lra.
Qed.
Lemma plastic_mean m t st dt x : mtrace (ut_s t) = 0 -> mean3 (fst (plastic_at m t st dt x)) = ue_p m t st dt x.
Proof. intros Z. unfold plastic_at. cbv zeta. cbn [fst]. apply mean_split. rewrite trace_scale, Z. ring. Qed.
Lemma ue_p_eq m (t : UETrial R) st dt x : ue_p m t st dt x = Rmax (ut_pprev t) 1 * exp ((ut_dev t - ue_dpv m t st dt x) / ue_kap m).
Proof. unfold ue_p. rewrite nmax_R. reflexivity. Qed.
Lemma ue_p_pos m (t : UETrial R) st dt x : 0 < ue_p m t st dt x.
Proof. rewrite ue_p_eq. apply Rmult_lt_0_compat; [pose proof (Rmax_r (ut_pprev t) 1); lra|apply exp_pos]. Qed.
Lemma ue_I_nonneg m (t : UETrial R) dt x : uepi_params m -> 0 < dt -> 0 <= ut_G t -> 0 <= fst x -> 0 <= ue_I m t dt x.
Proof.
  intros P Hd G X. pose proof P as (_ & _ & _ & _ & _ & Hr & Hdd & _). pose proof (factor_range t x G X) as F. unfold ue_I, get_plastic_inertial_number. rnum.
  apply Rmult_le_pos; [|apply sqrt_pos]. apply Rmult_le_pos; [|exact Hdd]. apply Rle_mult_inv_pos; [|exact Hd].
  apply Rmult_le_pos; [lra|]. unfold ue_q. rewrite nmax_R. apply Rmult_le_pos; [|exact (Rlt_le _ _ (proj1 F))].
  eapply Rle_trans; [|apply Rmax_r]. unfold lit. rnum. left. apply Rdiv_lt_0_compat; [lra|apply (IZR_lt 0); reflexivity].
Qed.

(** Every plastic step scales the trial deviator by a factor in (0,1], leaves a positive pressure, a nonnegative inertial number, and moves p_s by a
    factor of at most exp 0.8 either way: all of this whatever the Jacobian and whether or not the iteration converged. *)
Theorem C134_plastic : forall (m : UEPI R) jac L s st dt, uepi_params m -> 0 <= mean3 s -> 0 < dt ->
  let t := ue_trial m L s st dt in let r := ue_stress m jac L s st dt in
  0 < ut_yf t ->
  exists f, 0 < f <= 1 /\ deviator (fst r) = mscale f (ut_s t) /\ q_of (fst r) = f * ut_q t /\ 0 < mean3 (fst r) /\ 0 <= us_I (snd r) /\
  exp (- (4 / 5)) * Rmax (us_ps st) 1 <= us_ps (snd r) <= exp (4 / 5) * Rmax (us_ps st) 1 /\ us_ref (snd r) = us_ref st.
Proof.
  intros m jac L s st dt P Hs Hd. cbv zeta. intros Y. destruct (step_plastic m jac L s st dt Y) as (x & _ & X0 & XB & E). rewrite E. clear E.
  pose proof (ut_s_trace m L s st dt) as Z. pose proof (ut_G_nonneg m L s st dt P Hs) as G. pose proof (proj1 (ut_q_of m L s st dt)) as Q. cbv zeta in Q.
  revert Y Z G Q. generalize (ue_trial m L s st dt). intros t Y Z G Q. rewrite Q. exists (ue_factor t x). pose proof (factor_range t x G X0) as F. split; [exact F|].
  assert (S : fst (plastic_at m t st dt x) = madd (mscale (ue_factor t x) (ut_s t)) (mscale (ue_p m t st dt x) meye)) by reflexivity.
  split; [|split; [|split; [|split; [|split]]]].
  - rewrite S. apply dev_split. rewrite trace_scale, Z. ring.
  - rewrite S. apply q_dev_scale; [exact (Rlt_le _ _ (proj1 F))|exact Z].
  - rewrite plastic_mean by exact Z. apply ue_p_pos.
  - unfold plastic_at. cbv zeta. cbn [snd us_I]. apply ue_I_nonneg; assumption.
  - unfold plastic_at. cbv zeta. cbn [snd us_ps].
    assert (0 < Rmax (us_ps st) 1) by (pose proof (Rmax_r (us_ps st) 1); lra).
    rewrite <- (exp_ln (Rmax (us_ps st) 1)) by assumption. rewrite <- !exp_plus. apply Rabs_le_between in XB.
    split; match goal with |- exp ?a <= exp ?b => destruct (Rle_lt_or_eq_dec a b) as [q|q]; [lra|left; apply exp_increasing; exact q|rewrite q; right; reflexivity] end.
  - reflexivity.
Qed.
Print Assumptions C134_plastic.

(** A plastic step moves pressure, p_s and inertial number together along the unified volume line, by the compression of the step, from the state with
    pressures raised to 1. *)
Theorem C134_line : forall (m : UEPI R) jac L s st dt, uepi_params m ->
  let t := ue_trial m L s st dt in let r := ue_stress m jac L s st dt in 0 < ut_yf t ->
  0 < mean3 (fst r) /\ 0 < us_ps (snd r) /\
  ue_kap m * ln (mean3 (fst r) / Rmax (mean3 s) 1) + (ue_lam m - ue_kap m) * ln (us_ps (snd r) / Rmax (us_ps st) 1) - (us_I (snd r) - us_I st) / ue_Iv m = dt * mtrace L.
Proof.
  intros m jac L s st dt P. cbv zeta. intros Y. destruct (step_plastic m jac L s st dt Y) as (x & _ & _ & _ & E). rewrite E. clear E.
  pose proof (ut_s_trace m L s st dt) as Z. rewrite <- (ut_dev_eq m L s st dt), <- (ut_pprev_eq m L s st dt).
  revert Y Z. generalize (ue_trial m L s st dt). intros t Y Z. rewrite plastic_mean by exact Z. pose proof P as (Hk & _ & _ & _ & HI & _).
  unfold plastic_at. cbv zeta. cbn [snd us_ps us_I]. split; [apply ue_p_pos|]. split; [apply exp_pos|].
  assert (Ed : ue_dpv m t st dt x = (ue_lam m - ue_kap m) * (snd x - ln (Rmax (us_ps st) 1)) - (ue_I m t dt x - us_I st) / ue_Iv m).
  { unfold ue_dpv. rewrite ue_u0_eq. reflexivity. }
  rewrite ue_p_eq, Ed.
  assert (M1 : 0 < Rmax (ut_pprev t) 1) by (pose proof (Rmax_r (ut_pprev t) 1); lra).
  assert (M2 : 0 < Rmax (us_ps st) 1) by (pose proof (Rmax_r (us_ps st) 1); lra).
  clear Ed. generalize (ue_I m t dt x). intros J.
  set (z := Rmax (ut_pprev t) 1) in *. set (w := Rmax (us_ps st) 1) in *.
  rewrite !ln_div by (first [assumption|apply exp_pos|apply Rmult_lt_0_compat; [assumption|apply exp_pos]]).
  rewrite ln_mult, !ln_exp by (try apply exp_pos; assumption). field. lra.
Qed.
Print Assumptions C134_line.

(** An elastic step is hypoelastic along the swelling line; p_s stays.  FINDING: it forgets the inertial number. *)
Theorem C134_elastic : forall (m : UEPI R) jac L s st dt, uepi_params m -> 0 < mean3 s ->
  let t := ue_trial m L s st dt in let r := ue_stress m jac L s st dt in ut_yf t <= 0 ->
  fst r = madd (ut_s t) (mscale (mean3 s * exp (dt * mtrace L / ue_kap m)) meye) /\
  0 < mean3 (fst r) /\ ue_kap m * ln (mean3 (fst r) / mean3 s) = dt * mtrace L /\ us_ps (snd r) = us_ps st /\ us_I (snd r) = / 10 ^ 22.
Proof.
  intros m jac L s st dt P Hs. cbv zeta. intros Y. rewrite (step_elastic m jac L s st dt Y). pose proof P as (Hk & _).
  pose proof (ut_p_eq m L s st dt) as Ep. pose proof (ut_s_trace m L s st dt) as Z. revert Y Ep Z. generalize (ue_trial m L s st dt). intros t _ Ep Z.
  unfold ue_elastic. cbn [fst snd us_ps us_I]. rewrite Ep.
  assert (Q : 0 < mean3 s * exp (dt * mtrace L / ue_kap m)) by (apply Rmult_lt_0_compat; [exact Hs|apply exp_pos]).
  change (@numt_num R NumT_R) with Num_R. rewrite mean_split by exact Z.
  split; [reflexivity|]. split; [exact Q|]. split; [|split; [reflexivity|]].
  - rewrite ln_div, ln_mult, ln_exp by (try apply exp_pos; assumption). field. lra.
  - unfold I_rest, lit. rnum. change (IZR (10 ^ 22)) with (IZR (10 ^ Z.of_nat 22)). rewrite <- pow_IZR. field.
Qed.
Print Assumptions C134_elastic.

(** Histories: the specific volume of the constitutive state follows the compression, up to the inertial parts the elastic steps discard. *)
Fixpoint ue_run (m : UEPI R) jac (hist : list (mat3 R * R)) (z : mat3 R * UEState R) : mat3 R * UEState R :=
  match hist with [] => z | (L, dt) :: h => ue_run m jac h (ue_stress m jac L (fst z) (snd z) dt) end.
Fixpoint squeezed (hist : list (mat3 R * R)) : R := match hist with [] => 0 | (L, dt) :: h => dt * mtrace L + squeezed h end.
(** the inertial numbers met by elastic steps, less what such a step leaves *)
Fixpoint discarded (m : UEPI R) jac (hist : list (mat3 R * R)) (z : mat3 R * UEState R) : R :=
  match hist with [] => 0 | (L, dt) :: h =>
    (if Rltb 0 (ut_yf (ue_trial m L (fst z) (snd z) dt)) then 0 else us_I (snd z) - / 10 ^ 22) + discarded m jac h (ue_stress m jac L (fst z) (snd z) dt) end.
(** every step starts from pressures of at least 1 *)
Fixpoint firm (m : UEPI R) jac (hist : list (mat3 R * R)) (z : mat3 R * UEState R) : Prop :=
  match hist with [] => True | (L, dt) :: h => 1 <= mean3 (fst z) /\ 1 <= us_ps (snd z) /\ firm m jac h (ue_stress m jac L (fst z) (snd z) dt) end.

Theorem C134_history : forall (m : UEPI R) jac hist z, uepi_params m -> 0 < ue_pref m -> 0 < mean3 (fst z) -> 0 < us_ps (snd z) -> firm m jac hist z ->
  let v z := spec_volume m (mean3 (fst z)) (us_ps (snd z)) (us_I (snd z)) in let z' := ue_run m jac hist z in
  0 < mean3 (fst z') /\ 0 < us_ps (snd z') /\ v z' = v z * exp (- squeezed hist) * exp (- discarded m jac hist z / ue_Iv m).
Proof.
  intros m jac hist. induction hist as [|[L dt] h IH]; intros z P Hr Hp Hs F; cbv zeta.
  - cbn [ue_run squeezed discarded]. repeat split; try assumption. unfold Rdiv. rewrite Ropp_0, Rmult_0_l, exp_0. ring.
  - destruct F as (A & B & F). cbn [ue_run squeezed discarded]. set (z1 := ue_stress m jac L (fst z) (snd z) dt) in *.
    set (t := ue_trial m L (fst z) (snd z) dt) in *. pose proof P as (Hk & _ & _ & _ & HI & _).
    set (c := if Rltb 0 (ut_yf t) then 0 else us_I (snd z) - / 10 ^ 22).
    assert (K : 0 < mean3 (fst z1) /\ 0 < us_ps (snd z1) /\
      ue_kap m * ln (mean3 (fst z1) / mean3 (fst z)) + (ue_lam m - ue_kap m) * ln (us_ps (snd z1) / us_ps (snd z)) - (us_I (snd z1) - us_I (snd z)) / ue_Iv m
      = dt * mtrace L + c / ue_Iv m).
    { unfold c. destruct (Rltb 0 (ut_yf t)) eqn:Y.
      - apply Rltb_true in Y. destruct (C134_line m jac L (fst z) (snd z) dt P Y) as (U0 & U & V). fold z1 in U0, U, V.
        rewrite !Rmax_left in V by assumption. split; [exact U0|]. split; [exact U|]. rewrite V. field. lra.
      - assert (Y' : ut_yf t <= 0) by (destruct (Rle_lt_dec (ut_yf t) 0) as [q|q]; [exact q|apply Rltb_true in q; congruence]).
        destruct (C134_elastic m jac L (fst z) (snd z) dt P Hp Y') as (_ & U & V & W & X). fold z1 in U, V, W, X.
        rewrite W, X, V. split; [exact U|]. split; [exact Hs|]. unfold Rdiv at 1. rewrite Rinv_r, ln_1 by lra. field. lra. }
    destruct K as (K1 & K2 & K3). destruct (IH z1 P Hr K1 K2 F) as (G1 & G2 & G3). cbv zeta in G3. split; [exact G1|]. split; [exact G2|]. rewrite G3.
    assert (V : forall p ps J, 0 < p -> 0 < ps -> spec_volume m p ps J =
      ue_gamma m * exp (ue_lam m * ln (ue_pref m) - (ue_lam m - ue_kap m) * ln ps - ue_kap m * ln p + J / ue_Iv m)).
    { intros p ps J Q1 Q2. unfold spec_volume, Rpower. rewrite !Rmult_assoc, <- !exp_plus, !ln_div by assumption. f_equal. f_equal. ring. }
    rewrite !V by assumption. rewrite !Rmult_assoc, <- !exp_plus. f_equal. f_equal.
    rewrite !ln_div in K3 by assumption. fold c. set (d := discarded m jac h z1) in *. unfold Rdiv in *.
    assert (Q : dt * mtrace L = ue_kap m * (ln (mean3 (fst z1)) - ln (mean3 (fst z))) + (ue_lam m - ue_kap m) * (ln (us_ps (snd z1)) - ln (us_ps (snd z))) -
      (us_I (snd z1) - us_I (snd z)) * / ue_Iv m - c * / ue_Iv m) by lra.
    rewrite Q. ring.
Qed.
Print Assumptions C134_history.

(** the same at any point of the return mapping *)
Lemma flow_at (m : UEPI R) L s st dt x : uepi_params m -> 1 <= mean3 s -> 1 <= us_ps st -> 0 < dt -> ue_nu m < 1 / 2 ->
  let t := ue_trial m L s st dt in let r := plastic_at m t st dt x in
  0 < ut_yf t -> / 10 ^ 6 <= ut_q t -> 0 <= fst x ->
  let res := ue_residual m t st dt x in
  let p := mean3 (fst r) in let q := q_of (fst r) in let ps := us_ps (snd r) in
  let dv := dt * mtrace L - ue_kap m * ln (p / mean3 s) in let ds := (ut_q t - q) / (3 * ut_G t) in
  (fst res = 0 <-> p <= 2 * ps /\ q = get_unified_M (ps / p) (us_I (snd r)) (ue_M m) (ue_Minf m) (ue_IM m) * p) /\
  (snd res = 0 <-> dv * q = ue_M m * ue_M m * (p - ps) * ds) /\
  us_I (snd r) = ds / dt * ue_d m * sqrt (ue_rho m / Rmax (Rmax ps (ue_pref m)) (1 / 10 ^ 12)).
Proof.
  intros P Hs Hps Hd Hnu. cbv zeta. intros Y Hq X0.
  pose proof P as (Hk & _ & Hn & HM & HIv & Hr & Hdd & HIM & HMi). assert (Hs0 : 0 <= mean3 s) by lra.
  assert (G0 : 0 < ut_G (ue_trial m L s st dt)).
  { rewrite ut_G_eq, ut_p_eq. assert (0 < mean3 s * exp (dt * mtrace L / ue_kap m)) by (apply Rmult_lt_0_compat; [lra|apply exp_pos]).
    apply Rmult_lt_0_compat; repeat apply Rdiv_lt_0_compat; lra. }
  pose proof (ut_s_trace m L s st dt) as Z0. pose proof (proj1 (ut_q_of m L s st dt)) as Qt. cbv zeta in Qt.
  pose proof (ut_dev_eq m L s st dt) as Dv. pose proof (ut_pprev_eq m L s st dt) as Pv.
  revert Y Hq Z0 G0 Qt Dv Pv. generalize (ue_trial m L s st dt). intros t Y Hq Z0 G0 Qt Dv Pv.
  set (r := plastic_at m t st dt x). set (res := ue_residual m t st dt x). set (p := mean3 (fst r)). set (q := q_of (fst r)). set (ps := us_ps (snd r)).
  set (dv := dt * mtrace L - ue_kap m * ln (p / mean3 s)). set (ds := (ut_q t - q) / (3 * ut_G t)).
  assert (Ep : p = ue_p m t st dt x) by (apply plastic_mean; exact Z0).
  assert (P0 : 0 < p) by (rewrite Ep; apply ue_p_pos).
  assert (F : 0 < ue_factor t x <= 1) by (apply factor_range; [lra|assumption]).
  assert (J0 : 0 <= ue_I m t dt x) by (apply ue_I_nonneg; try assumption; lra).
  assert (Ei : us_I (snd r) = ue_I m t dt x) by reflexivity.
  assert (Es : ps = exp (snd x)) by reflexivity.
  assert (Eq : q = ue_factor t x * ut_q t).
  { rewrite Qt. apply q_dev_scale; [exact (Rlt_le _ _ (proj1 F))|exact Z0]. }
  assert (Hq' : @lit R Num_R 1 (10 ^ 6) = / 10 ^ 6).
  { unfold lit. rnum. change (IZR (10 ^ 6)) with (IZR (10 ^ Z.of_nat 6)). rewrite <- pow_IZR. field. }
  assert (T0 : 0 < ut_q t) by (assert (0 < / 10 ^ 6) by (apply Rinv_0_lt_compat, pow_lt; lra); lra).
  assert (Eqq : ue_q t x = q).
  { unfold ue_q. change (@numt_num R NumT_R) with Num_R. rewrite nmax_R, Hq', Rmax_left by exact Hq. rewrite Eq. rnum. ring. }
  assert (Q0 : 0 < q) by (rewrite Eq; apply Rmult_lt_0_compat; tauto).
  assert (Es' : ds = 2 * fst x * q).
  { unfold ds. rewrite Eq. unfold ue_factor. rnum. assert (0 <= 6 * ut_G t * fst x) by (apply Rmult_le_pos; lra). field. lra. }
  split; [|split].
  - assert (R1 : fst res = get_unified_iys_res p ps q (ue_M m) (get_M_I (us_I (snd r)) (ue_IM m) (ue_M m) (ue_Minf m))).
    { rewrite Ei, Ep, Es, <- Eqq. reflexivity. }
    rewrite R1. rewrite <- Ei in J0. set (J := us_I (snd r)) in *. set (MI := get_M_I J (ue_IM m) (ue_M m) (ue_Minf m)).
    split.
    + intros Z. assert (B : p <= 2 * ps).
      { unfold get_unified_iys_res in Z. rnum. assert (W : 0 <= q * q / (ue_M m * MI * (ue_M m * MI))).
        { unfold Rdiv. apply Rmult_le_pos; [nra|]. destruct (Req_dec (ue_M m * MI * (ue_M m * MI)) 0) as [W|W]; [rewrite W; rewrite Rinv_0; lra|].
          left. apply Rinv_0_lt_compat. assert (0 <= ue_M m * MI * (ue_M m * MI)) by apply Rle_0_sqr. lra. }
        assert (p * p <= ps * 2 * p) by lra. apply Rmult_le_reg_r with p; [exact P0|]. lra. }
      split; [exact B|]. apply (proj1 (C133_surface p ps q J (ue_M m) (ue_Minf m) (ue_IM m) P0 B (Rlt_le _ _ Q0) HM HMi HIM J0)). exact Z.
    + intros (B & Z). apply (proj1 (C133_surface p ps q J (ue_M m) (ue_Minf m) (ue_IM m) P0 B (Rlt_le _ _ Q0) HM HMi HIM J0)). exact Z.
  - assert (Ed : ue_dpv m t st dt x = dv).
    { unfold dv. rewrite Ep, ue_p_eq, Dv, Pv, Rmax_left by exact Hs. generalize (ue_dpv m t st dt x). intros y.
      replace (mean3 s * exp ((dt * mtrace L - y) / ue_kap m) / mean3 s) with (exp ((dt * mtrace L - y) / ue_kap m)) by (field; lra).
      rewrite ln_exp. field. lra. }
    assert (R2 : snd res = (fst x * (2 * (p - ps)) * (ue_M m * ue_M m) - dv) * 10 ^ 4).
    { unfold res, ue_residual. cbn [snd]. rewrite Ed. rewrite <- Ep. change (nexp (snd x)) with (exp (snd x)). rewrite <- Es. unfold sq. rnum.
      change (IZR (10 ^ 4)) with (IZR (10 ^ Z.of_nat 4)). rewrite <- pow_IZR. reflexivity. }
    rewrite R2, Es'. assert (T4 : 0 < 10 ^ 4) by (apply pow_lt; lra). split.
    + intros Z. apply Rmult_integral in Z. destruct Z as [Z|Z]; [|lra]. replace dv with (fst x * (2 * (p - ps)) * (ue_M m * ue_M m)) by lra. ring.
    + intros Z. assert (W : (fst x * (2 * (p - ps)) * (ue_M m * ue_M m) - dv) * q = 0) by lra.
      apply Rmult_integral in W. destruct W as [W|W]; [rewrite W; ring|lra].
  - rewrite Ei, Es', Es. unfold ue_I, get_plastic_inertial_number. rewrite Eqq. change (@numt_num R NumT_R) with Num_R. rewrite !nmax_R.
    replace (@lit R Num_R 1 (10 ^ 12)) with (1 / 10 ^ 12); [reflexivity|].
    unfold lit. rnum. change (IZR (10 ^ 12)) with (IZR (10 ^ Z.of_nat 12)). rewrite <- pow_IZR. reflexivity.
Qed.
(** The residuals the iteration drives to zero are those of the stress it returns: when the first vanishes the stress is on the inertial yield surface of
    the returned p_s and I, and the second vanishes exactly when the plastic strains (total less elastic) satisfy the flow rule of the static ellipse. *)
Theorem C134_flow : forall (m : UEPI R) jac L s st dt, uepi_params m -> 1 <= mean3 s -> 1 <= us_ps st -> 0 < dt -> ue_nu m < 1 / 2 ->
  let t := ue_trial m L s st dt in let r := ue_stress m jac L s st dt in
  0 < ut_yf t -> / 10 ^ 6 <= ut_q t ->
  let res := ue_residual m t st dt (ue_solution m (jac t st dt) t st dt) in
  let p := mean3 (fst r) in let q := q_of (fst r) in let ps := us_ps (snd r) in
  let dv := dt * mtrace L - ue_kap m * ln (p / mean3 s) in let ds := (ut_q t - q) / (3 * ut_G t) in
  (fst res = 0 <-> p <= 2 * ps /\ q = get_unified_M (ps / p) (us_I (snd r)) (ue_M m) (ue_Minf m) (ue_IM m) * p) /\
  (snd res = 0 <-> dv * q = ue_M m * ue_M m * (p - ps) * ds) /\
  us_I (snd r) = ds / dt * ue_d m * sqrt (ue_rho m / Rmax (Rmax ps (ue_pref m)) (1 / 10 ^ 12)).
Proof.
  intros m jac L s st dt P Hs Hps Hd Hnu. cbv zeta. intros Y Hq. destruct (step_plastic m jac L s st dt Y) as (x & <- & X0 & _ & E). rewrite E. clear E.
  exact (flow_at m L s st dt x P Hs Hps Hd Hnu Y Hq X0).
Qed.
Print Assumptions C134_flow.
(** After a plastic step the elastic strain is the one that the moduli of the step give from the reference stress to the stress returned. *)
Theorem C134_strain : forall (m : UEPI R) jac L s st dt, uepi_params m -> 0 < mean3 s -> ue_nu m < 1 / 2 ->
  let t := ue_trial m L s st dt in let r := ue_stress m jac L s st dt in 0 < ut_yf t ->
  ut_K t = (mean3 s + ut_p t) / 2 / ue_kap m /\ ut_G t = 3 * (1 - 2 * ue_nu m) / (2 * (1 + ue_nu m)) * ut_K t /\
  fst r = madd (us_ref st) (madd (mscale (2 * ut_G t) (deviator (us_eps (snd r)))) (spherical (ut_K t * mtrace (us_eps (snd r))))).
Proof.
  intros m jac L s st dt P Hs Hnu. cbv zeta. intros Y. destruct (step_plastic m jac L s st dt Y) as (x & _ & _ & _ & E). rewrite E. clear E.
  pose proof P as (Hk & _ & Hn & _).
  assert (A : ut_K (ue_trial m L s st dt) = (mean3 s + ut_p (ue_trial m L s st dt)) / 2 / ue_kap m).
  { rewrite <- (ut_pprev_eq m L s st dt). unfold ue_trial. cbn [ut_K ut_p ut_pprev]. unfold ue_K, lit. rnum. unfold Rdiv. ring. }
  pose proof (ut_G_eq m L s st dt) as B. rewrite <- A in B.
  assert (K0 : 0 < ut_K (ue_trial m L s st dt)).
  { rewrite A, ut_p_eq. assert (0 < mean3 s * exp (dt * mtrace L / ue_kap m)) by (apply Rmult_lt_0_compat; [lra|apply exp_pos]). repeat apply Rdiv_lt_0_compat; lra. }
  assert (G0 : 0 < ut_G (ue_trial m L s st dt)) by (rewrite B; apply Rmult_lt_0_compat; [repeat apply Rdiv_lt_0_compat; lra|exact K0]).
  split; [exact A|]. split; [exact B|]. pose proof (ut_s_trace m L s st dt) as Z. clear A B. revert Y Z K0 G0. generalize (ue_trial m L s st dt). intros t _ Z K0 G0.
  unfold plastic_at. cbv zeta. cbn [fst snd us_eps]. generalize (ue_factor t x) (ue_p m t st dt x). intros f p. rewrite pressure_mean, dev_stress_given.
  destruct (us_ref st) as [a0 a1 a2 a3 a4 a5 a6 a7 a8]. destruct (ut_s t) as [b0 b1 b2 b3 b4 b5 b6 b7 b8].
  assert (W : b8 = - b0 - b4) by (revert Z; mcbv; intros; lra). subst b8.
  apply mat3_eq; mcbv; field; lra.
Qed.
Print Assumptions C134_strain.

(** FINDING: p_s moves by at most exp 0.8 in a step, so a step that compresses a consolidated point by more than 0.8 lambda (plus what its inertial number
    stores) returns a stress outside every inertial yield surface, whatever the Jacobian. *)
Theorem C134_return_refuted : forall (m : UEPI R) jac L s st dt, uepi_params m -> 0 < dt -> 1 <= us_ps st -> 2 * us_ps st <= mean3 s -> 0 <= us_I st ->
  4 / 5 * ue_lam m + us_I st / ue_Iv m < dt * mtrace L ->
  let r := ue_stress m jac L s st dt in forall MI, 0 < get_unified_iys_res (mean3 (fst r)) (us_ps (snd r)) (q_of (fst r)) (ue_M m) MI.
Proof.
  intros m jac L s st dt P Hd Hps Hs HI Hc r MI. pose proof P as (Hk & Hkl & Hn & HM & HIv & Hr & Hdd & HIM & HMi).
  set (t := ue_trial m L s st dt). assert (Hs0 : 0 <= mean3 s) by lra. assert (Hs1 : 1 <= mean3 s) by lra.
  assert (C0 : 0 <= us_I st / ue_Iv m) by (apply Rle_mult_inv_pos; assumption).
  assert (Ex : 1 < exp (dt * mtrace L / ue_kap m)) by (rewrite <- exp_0; apply exp_increasing, Rdiv_lt_0_compat; lra).
  assert (Y : 0 < ut_yf t).
  { assert (2 * us_ps st < ut_p t).
    { unfold t. rewrite ut_p_eq. assert (mean3 s * 1 < mean3 s * exp (dt * mtrace L / ue_kap m)) by (apply Rmult_lt_compat_l; lra). lra. }
    change (0 < get_unified_iys_res (ut_p t) (us_ps st) (ut_q t) (ue_M m) 1). unfold get_unified_iys_res. rnum.
    assert (0 <= ut_q t * ut_q t / (ue_M m * 1 * (ue_M m * 1))) by (apply Rle_mult_inv_pos; [apply Rle_0_sqr|nra]). nra. }
  destruct (C134_plastic m jac L s st dt P Hs0 Hd Y) as (f & _ & _ & _ & P0 & I0 & B & _). fold r in P0, I0, B.
  destruct (C134_line m jac L s st dt P Y) as (_ & S0 & Ln). fold r in S0, Ln. rewrite !Rmax_left in * by assumption.
  assert (U : ln (us_ps (snd r) / us_ps st) <= 4 / 5).
  { rewrite ln_div by lra. destruct B as (_ & B). apply ln_le in B; [|exact S0]. rewrite ln_mult, ln_exp in B by (try apply exp_pos; lra). lra. }
  assert (V : ln (us_ps (snd r)) + ln 2 < ln (mean3 (fst r))).
  { rewrite !ln_div in * by lra. assert (W : ln 2 + ln (us_ps st) <= ln (mean3 s)) by (rewrite <- ln_mult by lra; apply ln_le; lra).
    assert (I1 : - (us_I st / ue_Iv m) <= (us_I (snd r) - us_I st) / ue_Iv m).
    { unfold Rdiv. rewrite Rmult_minus_distr_r. assert (0 <= us_I (snd r) * / ue_Iv m) by (apply Rle_mult_inv_pos; assumption). lra. }
    set (a := ln (mean3 (fst r))) in *. set (b := ln (mean3 s)) in *. set (c := ln (us_ps (snd r))) in *. set (d := ln (us_ps st)) in *.
    set (i := (us_I (snd r) - us_I st) / ue_Iv m) in *. set (j := us_I st / ue_Iv m) in *. set (e := dt * mtrace L) in *.
    assert (ue_kap m * (a - b) > ue_kap m * (4 / 5)) by (assert ((ue_lam m - ue_kap m) * (c - d) <= (ue_lam m - ue_kap m) * (4 / 5)) by (apply Rmult_le_compat_l; lra); lra).
    assert (4 / 5 < a - b) by (apply Rmult_lt_reg_l with (ue_kap m); lra). lra. }
  rewrite Rplus_comm, <- ln_mult in V by lra. apply ln_lt_inv in V; [|lra|exact P0].
  unfold get_unified_iys_res. rnum. set (p := mean3 (fst r)) in *. set (ps := us_ps (snd r)) in *. set (q := q_of (fst r)) in *.
  assert (0 <= q * q / (ue_M m * MI * (ue_M m * MI))).
  { destruct (Req_dec (ue_M m * MI) 0) as [W|W]; [rewrite W, Rmult_0_l; unfold Rdiv; rewrite Rinv_0, Rmult_0_r; lra|].
    apply Rle_mult_inv_pos; [apply Rle_0_sqr|]. apply Rsqr_pos_lt. exact W. }
  nra.
Qed.
Print Assumptions C134_return_refuted.

(** FINDING: an elastic step from a state with inertial number above 1e-22 leaves less specific volume than the compression accounts for; at rest too. *)
Theorem C134_reset_refuted : forall (m : UEPI R) jac L s st dt, uepi_params m -> 0 < ue_pref m -> 0 < ue_gamma m -> 1 <= mean3 s -> 1 <= us_ps st -> / 10 ^ 22 < us_I st ->
  ut_yf (ue_trial m L s st dt) <= 0 ->
  let v p ps J := spec_volume m p ps J in let r := ue_stress m jac L s st dt in
  v (mean3 (fst r)) (us_ps (snd r)) (us_I (snd r)) < v (mean3 s) (us_ps st) (us_I st) * exp (- (dt * mtrace L)).
Proof.
  intros m jac L s st dt P Hr Hg Hs Hps HI Y v r. pose proof P as (_ & _ & _ & _ & HIv & _).
  assert (H1 : 0 < mean3 s) by lra. assert (H2 : 0 < us_ps st) by lra.
  pose proof (C134_history m jac [(L, dt)] (s, st) P Hr H1 H2 (conj Hs (conj Hps I))) as (_ & _ & E). cbn [ue_run squeezed discarded fst snd] in E. fold r in E.
  unfold v. rewrite E. replace (Rltb 0 (ut_yf (ue_trial m L s st dt))) with false by (symmetry; destruct (Rltb _ _) eqn:Z; [apply Rltb_true in Z; lra|reflexivity]).
  rewrite Rplus_0_r. rewrite <- (Rmult_1_r (spec_volume m (mean3 s) (us_ps st) (us_I st) * exp (- (dt * mtrace L)))) at 2. rewrite Rplus_0_r.
  apply Rmult_lt_compat_l.
  - apply Rmult_lt_0_compat; [|apply exp_pos]. unfold spec_volume. repeat apply Rmult_lt_0_compat; first [assumption|apply exp_pos].
  - rewrite <- exp_0. apply exp_increasing. unfold Rdiv. rewrite Ropp_mult_distr_l_reverse. apply Ropp_lt_gt_0_contravar. apply Rmult_lt_0_compat; [lra|].
    apply Rinv_0_lt_compat. exact HIv.
Qed.
Print Assumptions C134_reset_refuted.

(** FINDING: a plastic step from a pressure below 1 starts from 1, so that the state leaves the volume line. *)
Theorem C134_floor_refuted : forall (m : UEPI R) jac L s st dt, uepi_params m -> 0 < mean3 s < 1 -> 1 <= us_ps st ->
  0 < ut_yf (ue_trial m L s st dt) -> let r := ue_stress m jac L s st dt in
  dt * mtrace L < ue_kap m * ln (mean3 (fst r) / mean3 s) + (ue_lam m - ue_kap m) * ln (us_ps (snd r) / us_ps st) - (us_I (snd r) - us_I st) / ue_Iv m.
Proof.
  intros m jac L s st dt P Hs Hps Y r. destruct (C134_line m jac L s st dt P Y) as (P0 & S0 & E). fold r in P0, S0, E. rewrite <- E. pose proof P as (Hk & _).
  rewrite (Rmax_left (us_ps st)) by exact Hps. rewrite (Rmax_right (mean3 s)) by lra.
  rewrite (ln_div _ 1), ln_1, (ln_div _ (mean3 s)) by lra. assert (ln (mean3 s) < 0) by (rewrite <- ln_1; apply ln_increasing; lra). nra.
Qed.
Print Assumptions C134_floor_refuted.

(** A point at rest inside the static surface keeps its stress and p_s. *)
Lemma trial_rest (m : UEPI R) s st dt : let t := ue_trial m mzero s st dt in
  ut_p t = mean3 s /\ ut_s t = deviator s /\ ut_q t = q_of s /\ madd (ut_eps t) (ut_deps t) = us_eps st /\
  ut_yf t = get_unified_iys_res (mean3 s) (us_ps st) (q_of s) (ue_M m) 1.
Proof.
  intros t.
  assert (J : forall a : mat3 R, get_jaumann_increment a (get_spin_tensor mzero) dt = a) by (intros a; destruct a; apply mat3_eq; mcbv; field).
  assert (Ep : ut_p t = mean3 s).
  { unfold t. rewrite ut_p_eq. replace (dt * mtrace mzero / ue_kap m) with 0 by (unfold mtrace; cbn; rnum; unfold Rdiv; ring). rewrite exp_0. ring. }
  assert (Es : ut_s t = deviator s).
  { unfold t, ue_trial. cbn [ut_s]. change (@numt_num R NumT_R) with Num_R. rewrite !J, dev_stress_given, pressure_mean.
    set (G := ue_G _ _). clearbody G. unfold deviator. destruct s. apply mat3_eq; mcbv; field. }
  assert (Eq : ut_q t = q_of s).
  { destruct (ut_q_of m mzero s st dt) as (A & _). fold t in A. rewrite A, Es. unfold q_of, J2_of. change (sqrt (3 * J2_dev (deviator s)) = sqrt (3 * (frob2 (deviator s) / 2))).
    f_equal. destruct (deviator s). mcbv. field. }
  repeat split; try assumption.
  - unfold t, ue_trial. cbn [ut_eps ut_deps]. change (@numt_num R NumT_R) with Num_R. rewrite J. destruct (us_eps st). apply mat3_eq; mcbv; field.
  - change (get_unified_iys_res (ut_p t) (us_ps st) (ut_q t) (ue_M m) 1 = get_unified_iys_res (mean3 s) (us_ps st) (q_of s) (ue_M m) 1). rewrite Ep, Eq. reflexivity.
Qed.
Theorem C134_rest : forall (m : UEPI R) jac s st dt, get_unified_iys_res (mean3 s) (us_ps st) (q_of s) (ue_M m) 1 <= 0 ->
  let r := ue_stress m jac mzero s st dt in fst r = s /\ us_ps (snd r) = us_ps st /\ us_eps (snd r) = us_eps st.
Proof.
  intros m jac s st dt Y r. destruct (trial_rest m s st dt) as (Ep & Es & _ & Ee & Yt). rewrite <- Yt in Y.
  unfold r. rewrite step_elastic by exact Y. unfold ue_elastic. cbn [fst snd us_ps us_eps]. change (@numt_num R NumT_R) with Num_R. rewrite Ep, Es, Ee. split; [|split; reflexivity].
  destruct s. apply mat3_eq; mcbv; field.
Qed.
Print Assumptions C134_rest.

(** The update of a body changes the stress of each point, from that point's own gradient, stress and state, and nothing else of it: density and
    volume are not read. *)
Theorem C134_body : forall (m : UEPI R) jac b ls dt,
  (forall b' ls', uepi_update m jac b ls dt = Ok (b', ls') ->
     sb_dim b' = sb_dim b /\ sb_storeF b' = sb_storeF b /\ sb_vol0d b' = sb_vol0d b /\ length (sb_pts b') = length (sb_pts b) /\ length ls' = length ls /\
     forall i p st, nth_error (sb_pts b) i = Some p -> nth_error ls i = Some st ->
       let r := ue_stress m jac (pt_L p) (pt_stress p) st dt in
       nth_error (sb_pts b') i = Some (set_stress p (fst r)) /\ nth_error ls' i = Some (snd r)) /\
  ((exists z, uepi_update m jac b ls dt = Ok z) <-> length ls = length (sb_pts b)).
Proof.
  intros m jac b ls dt. unfold uepi_update. destruct (Nat.eqb (length ls) (length (sb_pts b))) eqn:E.
  - apply Nat.eqb_eq in E. split; [|split; [intros _; exact E|intros _; eexists; reflexivity]]. intros b' ls' A. injection A as <- <-.
    set (F := fun ps : Particle R * UEState R => ue_stress m jac (pt_L (fst ps)) (pt_stress (fst ps)) (snd ps) dt).
    do 3 (split; [reflexivity|]). cbn [set_pts sb_pts]. 
    split; [rewrite map_length, combine_length, map_length, combine_length; lia|]. split; [rewrite !map_length, combine_length; lia|].
    revert E. generalize (sb_pts b). intros pts. revert ls. induction pts as [|p0 pts IH]; intros [|s0 ls] E i p st Hp Hs; try discriminate.
    { destruct i; discriminate. }
    destruct i as [|i].
    + cbn in Hp, Hs. injection Hp as <-. injection Hs as <-. split; reflexivity.
    + cbn in Hp, Hs, E. injection E as E. exact (IH ls E i p st Hp Hs).
  - split; [intros; discriminate|]. split; [intros (? & A); discriminate|]. intros A. apply Nat.eqb_neq in E. contradiction.
Qed.
Print Assumptions C134_body.

(** cases: silica sand; a consolidated point squeezed hard, a resting point with a stored inertial number, a point sheared beyond the static surface *)
Definition sand : UEPI R := {| ue_pref := 1000; ue_nu := 3/10; ue_lam := 2/100; ue_kap := 5/1000; ue_M := 1; ue_gamma := 18/10; ue_Minf := 2; ue_Iv := 1/10;
  ue_IM := 3/10; ue_rho := 2650; ue_d := 1/1000 |}.
Definition ue_at (ps I : R) : UEState R := {| us_ps := ps; us_ref := spherical 1000; us_I := I; us_eps := mzero |}.
Definition sheared : mat3 R := M3 1000 1000 0 1000 1000 0 0 0 1000.
Lemma sheared_q : q_of sheared * q_of sheared = 3000000 /\ 1 <= q_of sheared.
Proof.
  assert (E : 3 * J2_of sheared = 3000000) by (unfold J2_of, sheared; mcbv; field). unfold q_of. rewrite E. split; [apply sqrt_sqrt; lra|].
  rewrite <- sqrt_1. apply sqrt_le_1; lra.
Qed.
Example C133_case : get_iss_M (3/10) (3/10) (ue_M sand) (ue_Minf sand) = 3/2 /\ get_unified_iys_res 1000 1000 1500 1 (get_M_I (3/10) (3/10) 1 2) = 0 /\
  get_unified_M (get_xi 1000 1000) (3/10) 1 2 (3/10) = 3/2.
Proof.
  split; [unfold get_iss_M, get_M_I, sand; cbn [ue_M ue_Minf]; rnum; field|]. split; [unfold get_unified_iys_res, get_M_I; rnum; field|].
  unfold get_unified_M, get_M_xi, get_M_I, get_xi. rnum. change (nsqrt (2 * (1000 / 1000) - 1)) with (sqrt (2 * (1000 / 1000) - 1)).
  replace (2 * (1000 / 1000) - 1) with 1 by field. rewrite sqrt_1. field.
Qed.
Example C134_case : uepi_params sand /\
  (1 <= us_ps (ue_at 500 0) /\ 2 * us_ps (ue_at 500 0) <= mean3 (spherical 1000) /\ 4 / 5 * ue_lam sand + 0 / ue_Iv sand < 1 * mtrace (spherical (1/50))) /\
  ut_yf (ue_trial sand mzero (spherical 1000) (ue_at 1000 (1/10)) (1/1000)) < 0 /\
  0 < ut_yf (ue_trial sand mzero sheared (ue_at 1000 0) (1/1000)) /\ / 10 ^ 6 <= ut_q (ue_trial sand mzero sheared (ue_at 1000 0) (1/1000)) /\
  0 < ut_yf (ue_trial sand mzero (mscale (1/1500) sheared) (ue_at 1 0) (1/1000)).
Proof.
  destruct sheared_q as (Q & Q1).
  assert (Ms : mean3 sheared = 1000) by (unfold mean3, sheared; cbn; lra). assert (Mp : mean3 (spherical 1000) = 1000) by (unfold mean3; cbn; lra).
  split; [unfold uepi_params, sand; cbn [ue_kap ue_lam ue_nu ue_M ue_Iv ue_rho ue_d ue_IM ue_Minf]; lra|].
  split; [rewrite Mp; unfold mtrace; cbn [ue_at us_ps sand ue_lam ue_Iv spherical m00 m11 m22]; rnum; lra|]. split; [|split; [|split]].
  - destruct (trial_rest sand (spherical 1000) (ue_at 1000 (1/10)) (1/1000)) as (_ & _ & _ & _ & E). rewrite E, Mp, q_spherical. unfold get_unified_iys_res; cbn [ue_at us_ps sand ue_M]; rnum. lra.
  - destruct (trial_rest sand sheared (ue_at 1000 0) (1/1000)) as (_ & _ & _ & _ & E). rewrite E, Ms. unfold get_unified_iys_res; cbn [ue_at us_ps sand ue_M]; rnum. rewrite Q. lra.
  - destruct (trial_rest sand sheared (ue_at 1000 0) (1/1000)) as (_ & _ & E & _). rewrite E. assert (/ 10 ^ 6 < 1); [|lra].
    rewrite <- Rinv_1. apply Rinv_lt_contravar; lra.
  - destruct (trial_rest sand (mscale (1/1500) sheared) (ue_at 1 0) (1/1000)) as (_ & _ & _ & _ & E). rewrite E.
    assert (Mh : mean3 (mscale (1/1500) sheared) = 2/3) by (unfold mean3, sheared; mcbv; field).
    assert (Qh : q_of (mscale (1/1500) sheared) = sqrt (4/3)) by (unfold q_of, J2_of, sheared; f_equal; mcbv; field). rewrite Mh, Qh.
    unfold get_unified_iys_res; cbn [ue_at us_ps sand ue_M]; rnum. rewrite sqrt_sqrt by lra. lra.
Qed.
