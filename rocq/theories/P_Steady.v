(** C143: the two limits the unified Cam-Clay law is made for. *)
From Coquelicot Require Import Coquelicot.
From Coq Require Import List Arith ZArith Reals Bool Lra Lia.
From Verif Require Import Num NumR Linalg Arrays ModelGrid ModelShape ModelMath ModelState ModelLaws ModelUEPI Sums ResFacts SpecMath MathProofs SpecLaws
  LawProofs LawProofs2 P_Laws P_Laws2 P_Laws3 P_UEPI.
Import ListNotations.
Local Open Scope R_scope.

(** *** the steady state *)
(** A converged plastic step that leaves pressure, p_s and inertial number as they were is isochoric, at the pressure p_s, and lies on the two lines of
    the inertial steady state: shear stress M(I) p and specific volume v_csl(p) v(I). *)
Theorem C143_steady : forall (m : UEPI R) L s st dt x, uepi_params m -> 0 < ue_pref m -> 1 <= mean3 s -> 1 <= us_ps st -> 0 < dt -> ue_nu m < 1 / 2 ->
  let t := ue_trial m L s st dt in let r := plastic_at m t st dt x in let J := us_I st in
  0 < ut_yf t -> / 10 ^ 6 <= ut_q t -> 0 <= fst x -> ue_residual m t st dt x = (0, 0) ->
  mean3 (fst r) = mean3 s -> us_ps (snd r) = us_ps st -> us_I (snd r) = us_I st ->
  mtrace L = 0 /\ us_ps st = mean3 s /\ 0 < fst x /\
  q_of (fst r) = get_iss_M J (ue_IM m) (ue_M m) (ue_Minf m) * mean3 s /\
  spec_volume m (mean3 s) (us_ps st) J = get_iss_v (ue_v_csl (mean3 s) (ue_pref m) (ue_gamma m) (ue_lam m)) J (ue_Iv m).
Proof.
  intros m L s st dt x P Hr Hs Hps Hd Hnu t r J Y Hq X0 Z Ep Es EI. pose proof P as (Hk & Hkl & Hn & HM & HIv & Hrho & Hdd & HIM & HMi).
  pose proof (flow_at m L s st dt x P Hs Hps Hd Hnu) as F. cbv zeta in F. fold t r in F. specialize (F Y Hq X0). rewrite Z in F. cbn [fst snd] in F.
  rewrite Ep, Es, EI in F. destruct F as (F1 & F2 & F3).
  assert (D1 : mean3 s / mean3 s = 1) by (field; lra). rewrite D1, ln_1 in F2.
  assert (T0 : mtrace L = 0).
  { assert (A : ue_p m t st dt x = mean3 s) by (rewrite <- Ep; symmetry; apply plastic_mean; apply ut_s_trace).
    rewrite ue_p_eq in A. unfold t in A at 1 2. rewrite ut_pprev_eq, ut_dev_eq, Rmax_left in A by exact Hs.
    assert (B : ue_dpv m t st dt x = 0).
    { unfold ue_dpv. rewrite ue_u0_eq, Rmax_left by exact Hps. change (us_ps (snd r)) with (exp (snd x)) in Es. rewrite <- Es, ln_exp.
      change (us_I (snd r)) with (ue_I m t dt x) in EI. rewrite EI. rnum. unfold Rdiv. ring. }
    rewrite B in A. assert (C : exp ((dt * mtrace L - 0) / ue_kap m) = exp 0) by (rewrite exp_0; apply Rmult_eq_reg_l with (mean3 s); lra).
    apply exp_inv in C. assert (W : dt * mtrace L = 0) by (apply Rmult_eq_reg_r with (/ ue_kap m); [unfold Rdiv in C; lra|apply Rinv_neq_0_compat; lra]).
    apply Rmult_integral in W. destruct W; lra. }
  rewrite T0 in F2. destruct (proj1 F1 eq_refl) as (B & Q). clear F1.
  (* the multiplier is positive *)
  assert (X1 : 0 < fst x).
  { destruct X0 as [X0|X0]; [exact X0|exfalso]. 
    assert (Fc : ue_factor t x = 1) by (unfold ue_factor; rewrite <- X0; rnum; field).
    assert (I0 : us_I st = 0).
    { rewrite <- EI. change (us_I (snd r)) with (ue_I m t dt x). unfold ue_I, get_plastic_inertial_number. rewrite <- X0. rnum. unfold Rdiv. ring. }
    assert (Qt : q_of (fst r) = ut_q t).
    { unfold r, plastic_at. cbv zeta. cbn [fst]. rewrite q_dev_scale; [rewrite Fc; change (q_vm_dev (ut_s t)) with (ut_q t); ring|rewrite Fc; lra|apply ut_s_trace]. }
    assert (Pt : ut_p t = mean3 s).
    { unfold t. rewrite ut_p_eq, T0. replace (dt * 0 / ue_kap m) with 0 by (unfold Rdiv; ring). rewrite exp_0. ring. }
    assert (Hyf : ut_yf t = get_unified_iys_res (ut_p t) (us_ps st) (ut_q t) (ue_M m) 1) by reflexivity.
    rewrite Hyf, Pt, <- Qt in Y. rewrite I0 in Q.
    assert (Q0 : 0 <= q_of (fst r)) by apply sqrt_pos. assert (P0 : 0 < mean3 s) by lra.
    assert (G1 : get_M_I 0 (ue_IM m) (ue_M m) (ue_Minf m) = 1) by (unfold get_M_I; rnum; unfold Rdiv; ring).
    pose proof (proj1 (C133_surface (mean3 s) (us_ps st) (q_of (fst r)) 0 (ue_M m) (ue_Minf m) (ue_IM m) P0 B Q0 HM HMi HIM (Rle_refl 0))) as S. cbv zeta in S.
    rewrite G1 in S. apply (proj2 S) in Q. lra. }
  assert (Q0 : 0 < q_of (fst r)).
  { unfold r, plastic_at. cbv zeta. cbn [fst]. assert (G := ut_G_nonneg m L s st dt P ltac:(lra)). fold t in G.
    pose proof (factor_range t x G X0) as Fr. rewrite q_dev_scale; [|lra|apply ut_s_trace]. change (q_vm_dev (ut_s t)) with (ut_q t).
    apply Rmult_lt_0_compat; [tauto|]. assert (0 < / 10 ^ 6) by (apply Rinv_0_lt_compat, pow_lt; lra). lra. }
  assert (G0 : 0 < ut_G t).
  { unfold t. rewrite ut_G_eq, ut_p_eq. assert (0 < mean3 s * exp (dt * mtrace L / ue_kap m)) by (apply Rmult_lt_0_compat; [lra|apply exp_pos]).
    apply Rmult_lt_0_compat; repeat apply Rdiv_lt_0_compat; lra. }
  assert (Ds : 0 < (ut_q t - q_of (fst r)) / (3 * ut_G t)).
  { apply Rdiv_lt_0_compat; [|lra]. unfold r, plastic_at in *. cbv zeta in *. cbn [fst] in *. 
    assert (Fr := factor_range t x (Rlt_le _ _ G0) X0). rewrite q_dev_scale in *; try (lra || apply ut_s_trace).
    assert (E : q_vm_dev (ut_s t) = ut_q t) by reflexivity. rewrite E in *.
    assert (L1 : ue_factor t x < 1).
    { unfold ue_factor. rnum. assert (0 < 6 * ut_G t * fst x) by (apply Rmult_lt_0_compat; lra).
      apply Rmult_lt_reg_r with (1 + 6 * ut_G t * fst x); [lra|]. unfold Rdiv. rewrite Rmult_assoc, Rinv_l by lra. lra. }
    assert (0 < ut_q t) by (assert (0 < / 10 ^ 6) by (apply Rinv_0_lt_compat, pow_lt; lra); lra). nra. }
  assert (PS : us_ps st = mean3 s).
  { assert (W : 0 = ue_M m * ue_M m * (mean3 s - us_ps st) * ((ut_q t - q_of (fst r)) / (3 * ut_G t))) by (rewrite <- (proj1 F2 eq_refl); ring).
    set (ds := (ut_q t - q_of (fst r)) / (3 * ut_G t)) in *. clearbody ds.
    assert (W2 : mean3 s - us_ps st = 0).
    { apply Rmult_eq_reg_l with (ue_M m * ue_M m * ds); [lra|]. apply Rgt_not_eq. repeat apply Rmult_lt_0_compat; assumption. }
    lra. }
  split; [exact T0|]. split; [exact PS|]. split; [exact X1|]. split.
  - rewrite Q, PS, D1. unfold get_unified_M, get_iss_M, get_M_xi. rnum. replace (2 * 1 - 1) with 1 by ring. rewrite sqrt_1. unfold J. ring.
  - rewrite PS. unfold spec_volume, get_iss_v, get_v_I, ue_v_csl, npow. cbn. rnum. rewrite D1. unfold Rpower at 2. rewrite ln_1, Rmult_0_r, exp_0. unfold J, Rpower. ring.
Qed.
Print Assumptions C143_steady.

(** *** the strain rate of a steady state *)
Lemma jaumann_zero (a : mat3 R) dt : get_jaumann_increment a mzero dt = a.
Proof. destruct a. apply mat3_eq; mcbv; field. Qed.
Lemma trial_dev (m : UEPI R) L s st dt : get_spin_tensor L = mzero ->
  ut_s (ue_trial m L s st dt) = madd (mscale (2 * ut_G (ue_trial m L s st dt) * dt) (deviator (get_sym_tensor L))) (deviator s).
Proof.
  intros W. unfold ue_trial. cbn [ut_s ut_G]. change (@numt_num R NumT_R) with Num_R. rewrite W, !jaumann_zero, dev_stress_given, pressure_mean.
  unfold get_volumetric_strain. rewrite dev_strain_given. set (G := ue_G _ _). clearbody G. generalize (get_sym_tensor L). intros D. clear. unfold deviator.
  destruct s, D. apply mat3_eq; mcbv; field.
Qed.
Lemma q_dev_frob (a : mat3 R) : q_vm_dev a = sqrt (3 / 2 * frob2 a).
Proof. change (sqrt (3 * J2_dev a) = sqrt (3 / 2 * frob2 a)). f_equal. destruct a. mcbv. field. Qed.
Lemma frob_scale k (a : mat3 R) : frob2 (mscale k a) = k * k * frob2 a.
Proof. destruct a. mcbv. ring. Qed.
Lemma sqrt_sq_mul k y : 0 <= k -> sqrt (k * k * y) = k * sqrt y.
Proof. intros Hk. rewrite sqrt_mult_alt by nra. rewrite sqrt_square by exact Hk. reflexivity. Qed.
Lemma q_dev_mul k (a : mat3 R) : 0 <= k -> q_vm_dev (mscale k a) = k * q_vm_dev a.
Proof. intros Hk. rewrite !q_dev_frob, frob_scale. rewrite <- sqrt_sq_mul by exact Hk. f_equal. ring. Qed.
(** the equivalent shear rate *)
Definition shear_rate (L : mat3 R) : R := sqrt (2 / 3 * frob2 (deviator (get_sym_tensor L))).
Lemma rate_q (e : mat3 R) : 2 / 3 * q_vm_dev e = sqrt (2 / 3 * frob2 e).
Proof.
  rewrite q_dev_frob. rewrite <- (sqrt_sq_mul (2/3)) by lra. f_equal. lra.
Qed.
Lemma mscale_sub c (a b : mat3 R) : mscale (1 + c) a = madd b a -> mscale c a = b.
Proof.
  intros B. destruct a, b. unfold mscale, madd, mmap, mmap2 in B. cbn in B. injection B as B0 B1 B2 B3 B4 B5 B6 B7 B8. rnum. apply mat3_eq; mcbv; lra.
Qed.
Lemma mscale_div c d (a b : mat3 R) : c <> 0 -> mscale c a = mscale d b -> a = mscale (d / c) b.
Proof.
  intros Hc B. destruct a, b. unfold mscale, mmap in B. cbn in B. injection B as B0 B1 B2 B3 B4 B5 B6 B7 B8. rnum.
  apply mat3_eq; mcbv; (apply Rmult_eq_reg_l with c; [|exact Hc]); [rewrite B0|rewrite B1|rewrite B2|rewrite B3|rewrite B4|rewrite B5|rewrite B6|rewrite B7|rewrite B8]; field; exact Hc.
Qed.
(** Without rotation the stress of a steady state is along the strain rate, and its inertial number is that of the whole shear rate. *)
Theorem C143_rate : forall (m : UEPI R) L s st dt x, uepi_params m -> 0 < ue_pref m -> 1 <= mean3 s -> 1 <= us_ps st -> 0 < dt -> ue_nu m < 1 / 2 ->
  let t := ue_trial m L s st dt in let r := plastic_at m t st dt x in
  0 < ut_yf t -> / 10 ^ 6 <= ut_q t -> 0 <= fst x -> ue_residual m t st dt x = (0, 0) ->
  fst r = s -> us_ps (snd r) = us_ps st -> us_I (snd r) = us_I st -> get_spin_tensor L = mzero ->
  (exists k, 0 < k /\ deviator s = mscale k (deviator (get_sym_tensor L))) /\
  us_I st = shear_rate L * ue_d m * sqrt (ue_rho m / Rmax (Rmax (mean3 s) (ue_pref m)) (1 / 10 ^ 12)).
Proof.
  intros m L s st dt x P Hr Hs Hps Hd Hnu t r Y Hq X0 Z Es Eps EI W.
  destruct (C143_steady m L s st dt x P Hr Hs Hps Hd Hnu Y Hq X0 Z ltac:(fold t r; now rewrite Es) Eps EI) as (T0 & PS & X1 & _).
  pose proof (flow_at m L s st dt x P Hs Hps Hd Hnu) as F. cbv zeta in F. fold t r in F. specialize (F Y Hq X0). destruct F as (_ & _ & F).
  rewrite Eps, EI, Es, PS in F. pose proof P as (Hk & Hkl & Hn & HM & _).
  assert (G0 : 0 < ut_G t).
  { unfold t. rewrite ut_G_eq, ut_p_eq. assert (0 < mean3 s * exp (dt * mtrace L / ue_kap m)) by (apply Rmult_lt_0_compat; [lra|apply exp_pos]).
    apply Rmult_lt_0_compat; repeat apply Rdiv_lt_0_compat; lra. }
  set (f := ue_factor t x).
  assert (Ef : f = 1 / (1 + 6 * ut_G t * fst x)) by reflexivity. assert (D0 : 0 < 6 * ut_G t * fst x) by (apply Rmult_lt_0_compat; lra).
  assert (DS : deviator s = mscale f (ut_s t)).
  { rewrite <- Es at 1. unfold r, plastic_at. cbv zeta. cbn [fst]. apply dev_split. rewrite trace_scale. unfold t. rewrite ut_s_trace. ring. }
  assert (TS := trial_dev m L s st dt W). fold t in TS. set (e := deviator (get_sym_tensor L)) in *.
  set (k := 2 * ut_G t * dt / (6 * ut_G t * fst x)).
  assert (K0 : 0 < k) by (apply Rdiv_lt_0_compat; [|exact D0]; apply Rmult_lt_0_compat; [apply Rmult_lt_0_compat; lra|lra]).
  assert (DK : deviator s = mscale k e).
  { apply mscale_div; [lra|]. apply mscale_sub. rewrite DS at 1. rewrite Ef, <- TS. generalize (ut_s t). intros M. destruct M. apply mat3_eq; mcbv; field; lra. }
  split; [exists k; split; [exact K0|exact DK]|]. rewrite F. f_equal. f_equal. unfold shear_rate. fold e. rewrite <- rate_q.
  assert (Qs : q_of s = k * q_vm_dev e).
  { rewrite <- (q_dev_mul k e (Rlt_le _ _ K0)), <- DK. unfold q_of, J2_of. change (sqrt (3 * (frob2 (deviator s) / 2)) = sqrt (3 * J2_dev (deviator s))).
    f_equal. destruct (deviator s). mcbv. field. }
  assert (Qt : ut_q t = (k + 2 * ut_G t * dt) * q_vm_dev e).
  { change (ut_q t) with (q_vm_dev (ut_s t)). assert (0 < 2 * ut_G t * dt) by (apply Rmult_lt_0_compat; [apply Rmult_lt_0_compat; lra|lra]).
    rewrite <- q_dev_mul by lra. f_equal. rewrite TS, DK. generalize (2 * ut_G t * dt). intros y. destruct e. apply mat3_eq; mcbv; ring. }
  rewrite Qs, Qt. field. lra.
Qed.
Print Assumptions C143_rate.

Lemma MI_ge1 J IM M Minf : 0 <= J -> 0 < IM -> 0 < M -> M <= Minf -> 1 <= get_M_I J IM M Minf.
Proof.
  intros HJ HI HM HMi. unfold get_M_I. rnum. assert (0 <= J * ((Minf / M - 1) / (IM + J))); [|lra].
  apply Rmult_le_pos; [exact HJ|]. apply Rle_mult_inv_pos; [|lra]. assert (1 <= Minf / M); [|lra].
  apply Rmult_le_reg_r with M; [exact HM|]. unfold Rdiv. rewrite Rmult_assoc, Rinv_l by lra. lra.
Qed.
Lemma trace_zero_dev (D : mat3 R) : mtrace D = 0 -> deviator D = D.
Proof.
  intros Z. unfold deviator, minus_diag, mean3. unfold mtrace in Z. rnum. destruct D as [a0 a1 a2 a3 a4 a5 a6 a7 a8]. cbn [m00 m01 m02 m10 m11 m12 m20 m21 m22] in *.
  replace ((a0 + a4 + a8) / 3) with 0 by lra. apply mat3_eq; cbn; ring.
Qed.
(** There is a steady state for every pressure and every isochoric straining without rotation: the point of the two lines, with stress along the rate, is
    returned as it was by a zero of the residuals. *)
Theorem C143_exists : forall (m : UEPI R) L p dt, uepi_params m -> 0 < ue_pref m -> 1 <= p -> / 10 ^ 6 <= ue_M m * p -> 0 < dt -> ue_nu m < 1 / 2 ->
  get_spin_tensor L = mzero -> mtrace L = 0 -> 0 < shear_rate L ->
  exists s st x, let t := ue_trial m L s st dt in let r := plastic_at m t st dt x in
  mean3 s = p /\ us_ps st = p /\ 0 < ut_yf t /\ / 10 ^ 6 <= ut_q t /\ 0 <= fst x /\ ue_residual m t st dt x = (0, 0) /\
  fst r = s /\ us_ps (snd r) = us_ps st /\ us_I (snd r) = us_I st /\ 0 <= us_I st.
Proof.
  intros m L p dt P Hr Hp HMp Hd Hnu W T0 S0. pose proof P as (Hk & Hkl & Hn & HM & HIv & Hrho & Hdd & HIM & HMi).
  set (S := shear_rate L) in *. set (rt := sqrt (ue_rho m / Rmax (Rmax p (ue_pref m)) (1 / 10 ^ 12))). set (J := S * ue_d m * rt).
  assert (J0 : 0 <= J) by (apply Rmult_le_pos; [apply Rmult_le_pos; lra|apply sqrt_pos]).
  set (MI := get_M_I J (ue_IM m) (ue_M m) (ue_Minf m)). assert (M1 : 1 <= MI) by (apply MI_ge1; assumption).
  set (e := deviator (get_sym_tensor L)). set (qe := q_vm_dev e). assert (SE : 2 / 3 * qe = S) by apply rate_q. assert (Q0 : 0 < qe) by lra.
  set (q := ue_M m * MI * p). assert (Qp : ue_M m * p <= q) by (unfold q; assert (0 < ue_M m * p) by (apply Rmult_lt_0_compat; lra); nra).
  assert (T6 : 0 < / 10 ^ 6) by (apply Rinv_0_lt_compat, pow_lt; lra). assert (Q1 : 0 < q) by lra.
  set (k := q / qe). assert (K0 : 0 < k) by (apply Rdiv_lt_0_compat; assumption). assert (Kq : k * qe = q) by (unfold k; field; lra).
  set (s := madd (mscale k e) (mscale p meye)).
  assert (Te : mtrace e = 0) by apply trace_deviator.
  assert (Ms : mean3 s = p) by (apply mean_split; rewrite trace_scale, Te; ring).
  assert (Ds : deviator s = mscale k e) by (apply dev_split; rewrite trace_scale, Te; ring).
  set (st := {| us_ps := p; us_ref := mzero; us_I := J; us_eps := mzero |} : UEState R).
  set (x := (dt * S / (2 * q), ln p)). exists s, st, x. intros t r.
  assert (Pt : ut_p t = p). { unfold t. rewrite ut_p_eq, Ms, T0. replace (dt * 0 / ue_kap m) with 0 by (unfold Rdiv; ring). rewrite exp_0. ring. }
  assert (G0 : 0 < ut_G t).
  { unfold t. rewrite ut_G_eq. fold t. rewrite Pt, Ms. apply Rmult_lt_0_compat; [apply Rdiv_lt_0_compat; lra|]. apply Rdiv_lt_0_compat; lra. }
  assert (Ts : ut_s t = mscale (2 * ut_G t * dt + k) e).
  { unfold t. rewrite trial_dev by exact W. fold t. rewrite Ds. generalize (2 * ut_G t * dt). intros y. fold e. clearbody e. destruct e. apply mat3_eq; mcbv; ring. }
  assert (G2 : 0 < 2 * ut_G t * dt) by (apply Rmult_lt_0_compat; [apply Rmult_lt_0_compat; lra|lra]).
  assert (Tq : ut_q t = (2 * ut_G t * dt + k) * qe). { change (ut_q t) with (q_vm_dev (ut_s t)). rewrite Ts. apply q_dev_mul. lra. }
  assert (Fx : ue_factor t x = k / (k + 2 * ut_G t * dt)).
  { unfold ue_factor, x. cbn [fst]. rnum. rewrite <- SE, <- Kq. field. repeat split; lra. }
  assert (Tq1 : q < ut_q t) by (rewrite Tq, Rmult_plus_distr_r, Kq; assert (0 < 2 * ut_G t * dt * qe) by (apply Rmult_lt_0_compat; assumption); lra).
  assert (Hq' : @lit R Num_R 1 (10 ^ 6) = / 10 ^ 6).
  { unfold lit. rnum. change (IZR (10 ^ 6)) with (IZR (10 ^ Z.of_nat 6)). rewrite <- pow_IZR. field. }
  assert (Uq : ue_q t x = q).
  { unfold ue_q. change (@numt_num R NumT_R) with Num_R. rewrite nmax_R, Hq', Rmax_left by lra. rewrite Fx, Tq, <- Kq. rnum. field. lra. }
  assert (UI : ue_I m t dt x = J).
  { unfold ue_I, get_plastic_inertial_number. rewrite Uq. change (@numt_num R NumT_R) with Num_R. rewrite !nmax_R. unfold x. cbn [fst snd].
    replace (@lit R Num_R 1 (10 ^ 12)) with (1 / 10 ^ 12) by (unfold lit; rnum; change (IZR (10 ^ 12)) with (IZR (10 ^ Z.of_nat 12)); rewrite <- pow_IZR; reflexivity).
    change (@nexp R NumT_R (ln p)) with (exp (ln p)). rewrite exp_ln by lra. unfold J. fold rt. rnum. unfold rt. field. lra. }
  assert (Ud : ue_dpv m t st dt x = 0).
  { unfold ue_dpv. rewrite UI, ue_u0_eq. unfold st, x. cbn [us_ps us_I snd]. rewrite Rmax_left by exact Hp. rnum. unfold Rdiv. ring. }
  assert (Up : ue_p m t st dt x = p).
  { rewrite ue_p_eq, Ud. unfold t. rewrite ut_pprev_eq, ut_dev_eq, Ms, T0, Rmax_left by exact Hp. replace ((dt * 0 - 0) / ue_kap m) with 0 by (unfold Rdiv; ring). rewrite exp_0. ring. }
  split; [exact Ms|]. split; [reflexivity|]. split.
  { change (0 < get_unified_iys_res (ut_p t) p (ut_q t) (ue_M m) 1). rewrite Pt. unfold get_unified_iys_res. rnum.
    assert (A : p < ut_q t / ue_M m). { apply Rmult_lt_reg_r with (ue_M m); [exact HM|]. unfold Rdiv. rewrite Rmult_assoc, Rinv_l by lra. lra. }
    replace (ut_q t * ut_q t / (ue_M m * 1 * (ue_M m * 1))) with (ut_q t / ue_M m * (ut_q t / ue_M m)) by (field; lra). nra. }
  split; [lra|]. split; [unfold x; cbn [fst]; left; apply Rdiv_lt_0_compat; [apply Rmult_lt_0_compat; assumption|lra]|]. split.
  { unfold ue_residual. rewrite Up, UI, Uq, Ud. unfold x. cbn [fst snd]. change (@nexp R NumT_R (ln p)) with (exp (ln p)). rewrite exp_ln by lra. fold MI. apply f_equal2.
    - unfold get_unified_iys_res, q. rnum. field. split; lra.
    - rnum. ring. }
  split.
  { unfold r, plastic_at. cbv zeta. cbn [fst]. rewrite Up, Ts, Fx. unfold s. f_equal. revert G2 K0. generalize (2 * ut_G t * dt), k. clear. intros y k G2 K0.
    destruct e. apply mat3_eq; mcbv; field; lra. }
  split; [unfold r, plastic_at; cbv zeta; cbn [snd us_ps]; unfold x; cbn [snd]; exact (exp_ln p ltac:(lra))|]. split; [exact UI|exact J0].
Qed.
Print Assumptions C143_exists.

(** The inertial number the figures report for a steady state is that of the law, up to the floor of the shear rate. *)
Theorem C143_reported : forall (m : UEPI R) (a : Particle R), 0 < ue_rho m -> 0 <= ue_d m -> 1 / 10 ^ 12 <= mean3 (pt_stress a) -> ue_pref m <= mean3 (pt_stress a) ->
  let p := mean3 (pt_stress a) in
  let J := shear_rate (pt_L a) * ue_d m * sqrt (ue_rho m / Rmax (Rmax p (ue_pref m)) (1 / 10 ^ 12)) in
  exists J', trx_I m a = Ok J' /\ J <= J' <= J + 1 / 10 ^ 8 * ue_d m * sqrt (ue_rho m / p).
Proof.
  intros m a Hr Hd Hp Hpr p J. assert (T12 : 0 < 1 / 10 ^ 12) by (apply Rdiv_lt_0_compat; [lra|apply pow_lt; lra]).
  assert (Pp : 0 < p) by (unfold p; lra).
  unfold trx_I, get_shear_strain_vm. cbn [rbind]. eexists. split; [reflexivity|]. change (@numt_num R NumT_R) with Num_R.
  rewrite dev_strain_deviator, pressure_mean. fold p.
  set (e := deviator (get_sym_tensor (pt_L a))).
  assert (E : @nsqrt R NumT_R (lit 2 3 * mddot e e + lit 1 (10 ^ 16))%num = sqrt (2 / 3 * frob2 e + (1 / 10 ^ 8) * (1 / 10 ^ 8))).
  { change (@nsqrt R NumT_R) with sqrt. f_equal. unfold lit. rnum. replace (mddot e e) with (frob2 e) by (destruct e; mcbv; ring).
    change (IZR (10 ^ 16)) with (IZR (10 ^ Z.of_nat 16)). rewrite <- pow_IZR. field. }
  rewrite E. clear E. set (w := 2 / 3 * frob2 e). assert (W0 : 0 <= w) by (unfold w, frob2; pose proof (frob2_nonneg e); unfold frob2 in *; lra).
  set (c := 1 / 10 ^ 8). assert (C0 : 0 < c) by (apply Rdiv_lt_0_compat; [lra|apply pow_lt; lra]).
  assert (B : sqrt w <= sqrt (w + c * c) <= sqrt w + c).
  { split; [apply sqrt_le_1_alt; nra|]. apply Rsqr_incr_0_var; [|pose proof (sqrt_pos w); lra]. rewrite Rsqr_sqrt by nra. unfold Rsqr. pose proof (sqrt_pos w). pose proof (sqrt_sqrt w W0). nra. }
  assert (R1 : sqrt (ue_rho m / Rmax (Rmax p (ue_pref m)) (1 / 10 ^ 12)) = sqrt (ue_rho m / p)).
  { rewrite Rmax_left; [rewrite Rmax_left; [reflexivity|exact Hpr]|]. rewrite Rmax_left by exact Hpr. exact Hp. }
  assert (R2 : forall y, y * ue_d m / @nsqrt R NumT_R (p / 1000 * 1000 / ue_rho m) = y * ue_d m * sqrt (ue_rho m / p)).
  { intros y. change (@nsqrt R NumT_R) with sqrt. replace (p / 1000 * 1000 / ue_rho m) with (/ (ue_rho m / p)) by (field; split; lra).
    rewrite <- inv_sqrt by (apply Rdiv_lt_0_compat; lra). unfold Rdiv at 1. rewrite Rinv_inv. reflexivity. }
  rnum. rewrite R2. unfold J. change (shear_rate (pt_L a)) with (sqrt w). rewrite R1. fold c. set (g := sqrt (ue_rho m / p)). assert (G0 : 0 <= g) by apply sqrt_pos.
  assert (DG : 0 <= ue_d m * g) by (apply Rmult_le_pos; assumption). clearbody g c w. destruct B as (B1 & B2). split.
  - rewrite !Rmult_assoc. apply Rmult_le_compat_r; assumption.
  - replace (sqrt w * ue_d m * g + c * ue_d m * g) with ((sqrt w + c) * (ue_d m * g)) by ring. rewrite Rmult_assoc. apply Rmult_le_compat_r; assumption.
Qed.
Print Assumptions C143_reported.

(** *** the slow limit *)
(** The same straining in a longer time gives the same trial state. *)
Theorem C143_trial : forall (m : UEPI R) L s st dt, 0 < dt -> ue_trial m (mscale (/ dt) L) s st dt = ue_trial m L s st 1.
Proof.
  intros m L s st dt Hd.
  assert (A : mscale dt (get_sym_tensor (mscale (/ dt) L)) = mscale 1 (get_sym_tensor L)) by (destruct L; apply mat3_eq; mcbv; field; lra).
  assert (B : forall a : mat3 R, get_jaumann_increment a (get_spin_tensor (mscale (/ dt) L)) dt = get_jaumann_increment a (get_spin_tensor L) 1).
  { intros a. destruct a, L. apply mat3_eq; mcbv; field; lra. }
  unfold ue_trial. cbv zeta. change (@numt_num R NumT_R) with Num_R. rewrite A, !B. reflexivity.
Qed.
Print Assumptions C143_trial.
(** the residuals of rate-independent Cam-Clay *)
Definition slow_p (m : UEPI R) (t : UETrial R) (ps0 : R) (x : R * R) : R :=
  Rmax (ut_pprev t) 1 * exp ((ut_dev t - (ue_lam m - ue_kap m) * (snd x - ln (Rmax ps0 1))) / ue_kap m).
Definition slow_q (t : UETrial R) (x : R * R) : R := Rmax (ut_q t) (1 / 10 ^ 6) / (1 + 6 * ut_G t * fst x).
Definition slow_yield (m : UEPI R) (t : UETrial R) (ps0 : R) (x : R * R) : R :=
  let p := slow_p m t ps0 x in let q := slow_q t x in q * q / (ue_M m * ue_M m) + p * p - 2 * exp (snd x) * p.
Definition slow_flow (m : UEPI R) (t : UETrial R) (ps0 : R) (x : R * R) : R :=
  fst x * (2 * (slow_p m t ps0 x - exp (snd x))) * (ue_M m * ue_M m) - (ue_lam m - ue_kap m) * (snd x - ln (Rmax ps0 1)).
Definition with_I (st : UEState R) (J : R) : UEState R := {| us_ps := us_ps st; us_ref := us_ref st; us_I := J; us_eps := us_eps st |}.
Lemma lim_comp (g f : R -> R) (l : R) : is_lim f p_infty l -> continuous g l -> is_lim (fun y => g (f y)) p_infty (g l).
Proof. intros A B. exact (is_lim_comp_continuous f g p_infty l A B). Qed.
(** As the time of the increment grows, with an inertial number that died out, both residuals tend to those of Cam-Clay. *)
Theorem C143_slow : forall (m : UEPI R) t st x (J : R -> R), uepi_params m -> is_lim J p_infty 0 ->
  is_lim (fun dt => fst (ue_residual m t (with_I st (J dt)) dt x)) p_infty (slow_yield m t (us_ps st) x) /\
  is_lim (fun dt => snd (ue_residual m t (with_I st (J dt)) dt x)) p_infty (10 ^ 4 * slow_flow m t (us_ps st) x).
Proof.
  intros m t st x J P HJ. pose proof P as (Hk & Hkl & Hn & HM & HIv & Hrho & Hdd & HIM & HMi).
  set (c := 2 * fst x * ue_q t x * ue_d m * sqrt (ue_rho m / Rmax (Rmax (exp (snd x)) (ue_pref m)) (1 / 10 ^ 12))).
  assert (EI : forall dt, ue_I m t dt x = c * / dt).
  { intros dt. unfold ue_I, get_plastic_inertial_number. change (@numt_num R NumT_R) with Num_R. rewrite !nmax_R.
    replace (@lit R Num_R 1 (10 ^ 12)) with (1 / 10 ^ 12) by (unfold lit; rnum; change (IZR (10 ^ 12)) with (IZR (10 ^ Z.of_nat 12)); rewrite <- pow_IZR; reflexivity).
    unfold c. rnum. change (@nexp R NumT_R) with exp. change (@nsqrt R NumT_R) with sqrt. unfold Rdiv. ring. }
  assert (LI : is_lim (fun dt => ue_I m t dt x) p_infty 0).
  { apply (is_lim_ext (fun dt => c * / dt)); [intros y; symmetry; apply EI|].
    replace (Finite 0) with (Rbar_mult c 0) by (cbn; f_equal; ring). apply is_lim_scal_l.
    apply (is_lim_inv (fun y => y) p_infty p_infty); [apply is_lim_id|discriminate]. }
  set (D := fun dt => ue_dpv m t (with_I st (J dt)) dt x). set (D0 := (ue_lam m - ue_kap m) * (snd x - ln (Rmax (us_ps st) 1))).
  assert (LD : is_lim D p_infty D0).
  { apply (is_lim_ext (fun dt => D0 - (ue_I m t dt x - J dt) * / ue_Iv m)).
    { intros y. unfold D, ue_dpv. rewrite ue_u0_eq. cbn [with_I us_ps us_I]. unfold D0. rnum. reflexivity. }
    replace (Finite D0) with (Finite (D0 - (0 - 0) * / ue_Iv m)) by (f_equal; ring).
    apply is_lim_minus'; [apply is_lim_const|].
    replace (Finite ((0 - 0) * / ue_Iv m)) with (Rbar_mult (0 - 0) (/ ue_Iv m)) by reflexivity. apply is_lim_scal_r. apply is_lim_minus'; assumption. }
  assert (Lp : is_lim (fun dt => ue_p m t (with_I st (J dt)) dt x) p_infty (slow_p m t (us_ps st) x)).
  { apply (is_lim_ext (fun dt => Rmax (ut_pprev t) 1 * exp ((ut_dev t - D dt) * / ue_kap m))); [intros y; rewrite ue_p_eq; reflexivity|].
    unfold slow_p. fold D0.
    apply (lim_comp (fun d => Rmax (ut_pprev t) 1 * exp ((ut_dev t - d) * / ue_kap m)) D D0); [exact LD|].
    apply (@ex_derive_continuous R_AbsRing R_NormedModule). auto_derive. trivial. }
  assert (Lm : is_lim (fun dt => get_M_I (ue_I m t dt x) (ue_IM m) (ue_M m) (ue_Minf m)) p_infty 1).
  { replace (Finite 1) with (Finite (get_M_I 0 (ue_IM m) (ue_M m) (ue_Minf m))) by (unfold get_M_I; rnum; f_equal; unfold Rdiv; ring).
    apply (lim_comp (fun i => get_M_I i (ue_IM m) (ue_M m) (ue_Minf m)) _ 0); [exact LI|].
    unfold get_M_I. rnum. apply (@ex_derive_continuous R_AbsRing R_NormedModule). auto_derive. lra. }
  assert (Eq : ue_q t x = slow_q t x).
  { unfold ue_q, slow_q, ue_factor. change (@numt_num R NumT_R) with Num_R. rewrite nmax_R.
    replace (@lit R Num_R 1 (10 ^ 6)) with (1 / 10 ^ 6) by (unfold lit; rnum; change (IZR (10 ^ 6)) with (IZR (10 ^ Z.of_nat 6)); rewrite <- pow_IZR; reflexivity).
    rnum. unfold Rdiv. ring. }
  split.
  - apply (is_lim_ext (fun dt => slow_q t x * slow_q t x * / (ue_M m * get_M_I (ue_I m t dt x) (ue_IM m) (ue_M m) (ue_Minf m) * (ue_M m * get_M_I (ue_I m t dt x) (ue_IM m) (ue_M m) (ue_Minf m)))
       + (ue_p m t (with_I st (J dt)) dt x * ue_p m t (with_I st (J dt)) dt x - exp (snd x) * 2 * ue_p m t (with_I st (J dt)) dt x))).
    { intros y. unfold ue_residual. cbn [fst]. rewrite Eq. unfold get_unified_iys_res. rnum. change (@nexp R NumT_R) with exp. unfold Rdiv. ring. }
    unfold slow_yield. set (sp := slow_p m t (us_ps st) x) in *. set (sq' := slow_q t x) in *.
    replace (Finite (sq' * sq' / (ue_M m * ue_M m) + sp * sp - 2 * exp (snd x) * sp)) with (Finite (sq' * sq' * / (ue_M m * 1 * (ue_M m * 1)) + (sp * sp - exp (snd x) * 2 * sp)))
      by (f_equal; unfold Rdiv; rewrite !Rmult_1_r; ring).
    apply is_lim_plus'.
    + apply (lim_comp (fun i => sq' * sq' * / (ue_M m * i * (ue_M m * i))) _ 1); [exact Lm|].
      apply (@ex_derive_continuous R_AbsRing R_NormedModule). auto_derive. apply Rgt_not_eq. nra.
    + apply (lim_comp (fun p => p * p - exp (snd x) * 2 * p) _ sp); [exact Lp|].
      apply (@ex_derive_continuous R_AbsRing R_NormedModule). auto_derive. trivial.
  - apply (is_lim_ext (fun dt => 10 ^ 4 * (fst x * (2 * (ue_p m t (with_I st (J dt)) dt x - exp (snd x))) * (ue_M m * ue_M m) - D dt))).
    { intros y. unfold ue_residual. cbn [snd]. unfold sq, D. rnum. change (@nexp R NumT_R) with exp. change (IZR (10 ^ 4)) with (IZR (10 ^ Z.of_nat 4)). rewrite <- pow_IZR. ring. }
    unfold slow_flow. fold D0. set (sp := slow_p m t (us_ps st) x) in *.
    replace (Finite (10 ^ 4 * (fst x * (2 * (sp - exp (snd x))) * (ue_M m * ue_M m) - D0))) with (Rbar_mult (10 ^ 4) (fst x * (2 * (sp - exp (snd x))) * (ue_M m * ue_M m) - D0)) by reflexivity.
    apply is_lim_scal_l. apply is_lim_minus'; [|exact LD].
    apply (lim_comp (fun p => fst x * (2 * (p - exp (snd x))) * (ue_M m * ue_M m)) _ sp); [exact Lp|].
    apply (@ex_derive_continuous R_AbsRing R_NormedModule). auto_derive. trivial.
Qed.
Print Assumptions C143_slow.
(** These are the residuals of the library's Cam-Clay law, with p_c = 2 p_s and apart from the modulus: the library takes the one at the new pressure. *)
Theorem C143_cam_clay : forall (m : UEPI R) (c : MCC R) t a ps0 x,
  mc_kap c = ue_kap m -> mc_lam c = ue_lam m -> mc_M c = ue_M m -> ar_dev a = ut_dev t -> ar_pprev a = Rmax (ut_pprev t) 1 ->
  ar_qtr a = Rmax (ut_q t) (1 / 10 ^ 6) -> ar_u0 a = ln (Rmax ps0 1) + ln 2 -> ar_Ktr a <> 0 ->
  get_G (mc_nu c) (mcc_K c (slow_p m t ps0 x)) = ut_G t ->
  let y := (fst x, snd x + ln 2) in
  ar_Ktr a * fst (mcc_residual c a y) = slow_yield m t ps0 x /\ snd (mcc_residual c a y) = slow_flow m t ps0 x.
Proof.
  intros m c t a ps0 x Ek El EM Ed Ep Eq Eu Hk EG y.
  assert (P : mcc_p c a (snd y) = slow_p m t ps0 x).
  { unfold mcc_p, get_pressure_mcc, slow_p, mc_cp. rewrite Ek, El, Ed, Ep, Eu. cbn [y snd]. rnum. change (@nexp R NumT_R) with exp. f_equal. f_equal. f_equal. ring. }
  assert (Ex : @nexp R NumT_R (snd y) = 2 * exp (snd x)).
  { change (@nexp R NumT_R) with exp. cbn [y snd]. rewrite exp_plus, exp_ln by lra. ring. }
  assert (Eqq : ar_qtr a * mcc_factor c a y = slow_q t x).
  { unfold mcc_factor, slow_q. rewrite P, EG, Eq. cbn [y fst]. rnum. unfold Rdiv. ring. }
  unfold mcc_residual. cbv zeta. rewrite P, Ex. cbn [fst snd]. split.
  - unfold yield_function, slow_yield. rewrite EM. rnum. rewrite !Eqq. set (A := slow_q t x). set (B := slow_p m t ps0 x).
    assert (Lk : forall k z : R, k <> 0 -> k * (z / k) = z) by (intros k z Z; field; exact Z). etransitivity; [apply Lk, Hk|]. reflexivity.
  - unfold slow_flow, mc_cp, sq. rewrite EM, El, Ek, Eu. cbn [y fst snd]. rnum. ring.
Qed.
Print Assumptions C143_cam_clay.

(** *** the figures *)
(** The reference lines of the figures are those of the law made from N; they start at its critical state line and rise with the inertial number. *)
Theorem C143_lines : forall nu M lam kap d Iv IM Minf N pref rho m, 0 < Iv ->
  uepi_create nu M lam kap d Iv IM Minf None (Some N) pref rho = Ok m ->
  ue_gamma m = sip_gamma N lam kap /\
  (forall p, get_iss_v (ue_v_csl p pref (sip_gamma N lam kap) lam) 0 Iv = ue_v_csl p pref (ue_gamma m) lam) /\
  (forall v I J, 0 < v -> I < J -> get_iss_v v I Iv < get_iss_v v J Iv) /\
  (forall v I J, get_iss_v (get_iss_v v I Iv) J Iv = get_iss_v v (I + J) Iv).
Proof.
  intros nu M lam kap d Iv IM Minf N pref rho m Hv E. cbn in E. injection E as <-. cbn [ue_gamma].
  assert (G : (N * npow n2 (kap - lam))%num = sip_gamma N lam kap).
  { unfold sip_gamma. rnum. f_equal. f_equal. ring. }
  split; [exact G|]. split; [|split].
  - intros p. rewrite <- G. unfold get_iss_v, get_v_I. rnum. change (@nexp R NumT_R) with exp. replace (0 / Iv) with 0 by (unfold Rdiv; ring). rewrite exp_0. ring.
  - intros v I J Hp L. unfold get_iss_v, get_v_I. rnum. change (@nexp R NumT_R) with exp. apply Rmult_lt_compat_l; [exact Hp|]. apply exp_increasing.
    unfold Rdiv. apply Rmult_lt_compat_r; [apply Rinv_0_lt_compat, Hv|exact L].
  - intros v I J. unfold get_iss_v, get_v_I. rnum. change (@nexp R NumT_R) with exp. rewrite Rmult_assoc, <- exp_plus. f_equal. f_equal. field. lra.
Qed.
Print Assumptions C143_lines.
(** FINDING: the surface drawn for a raised inertial number (get_ps_I) is not the one of the hardening rule without plastic volume change: the rule
    gives the exponent I / (I_v (lambda - kappa)). *)
Theorem C143_shift_refuted : forall ps I Iv lam kap, 0 < ps -> 0 < I -> 0 < Iv -> 0 < lam - kap < 1 ->
  get_deps_v_p_hardening (ps * exp (I / (Iv * (lam - kap)))) ps I Iv lam kap = 0 /\
  get_deps_v_p_hardening (get_ps_I ps I Iv) ps I Iv lam kap < 0 /\ get_ps_I ps I Iv < ps * exp (I / (Iv * (lam - kap))).
Proof.
  intros ps I Iv lam kap Hp HI Hv Hl.
  assert (A : forall y, 0 <= y -> get_deps_v_p_hardening (ps * exp y) ps I Iv lam kap = (lam - kap) * y - I / Iv).
  { intros y Hy. unfold get_deps_v_p_hardening. change (@numt_num R NumT_R) with Num_R. rewrite nmax_R. rnum. change (@nln R NumT_R) with ln.
    replace (ps * exp y / ps) with (exp y) by (field; lra).
    rewrite Rmax_left; [rewrite ln_exp; reflexivity|]. unfold lit. rnum. assert (1 <= exp y) by (rewrite <- exp_0; destruct Hy as [Hy|<-]; [left; apply exp_increasing; exact Hy|right; reflexivity]).
    change (IZR (10 ^ 12)) with (IZR (10 ^ Z.of_nat 12)). rewrite <- pow_IZR. assert (1 / 10 ^ 12 <= 1); [|lra].
    apply Rmult_le_reg_r with (10 ^ 12); [apply pow_lt; lra|]. unfold Rdiv. rewrite Rmult_assoc, Rinv_l by (apply pow_nonzero; lra).
    assert (1 <= 10 ^ 12) by (apply pow_R1_Rle; lra). lra. }
  assert (I0 : 0 < I / Iv) by (apply Rdiv_lt_0_compat; assumption).
  assert (E : I / (Iv * (lam - kap)) = I / Iv / (lam - kap)) by (field; lra).
  assert (B : I / Iv < I / (Iv * (lam - kap))).
  { rewrite E. apply Rmult_lt_reg_r with (lam - kap); [lra|]. unfold Rdiv at 2. rewrite Rmult_assoc, Rinv_l by lra. nra. }
  split; [|split].
  - rewrite A by lra. rewrite E. field. lra.
  - change (get_ps_I ps I Iv) with (ps * exp (I / Iv)). rewrite A by lra. nra.
  - change (get_ps_I ps I Iv) with (ps * exp (I / Iv)). apply Rmult_lt_compat_l; [exact Hp|]. apply exp_increasing, B.
Qed.
Print Assumptions C143_shift_refuted.

(** the parameters of sip_setup.py, strained in triaxial compression at constant volume under 50 kPa *)
Definition sip : UEPI R := {| ue_pref := 1000; ue_nu := 1/4; ue_lam := 925/10000; ue_kap := 5/100; ue_M := 89/100; ue_gamma := 3; ue_Minf := 135/100;
  ue_Iv := 29 / 10 ^ 11; ue_IM := 1 / 10 ^ 11; ue_rho := 2700; ue_d := 4 / 10 ^ 6 |}.
Definition squeeze : mat3 R := mdiag 1 (- (1/2)) (- (1/2)).
Example C143_case : uepi_params sip /\ get_spin_tensor squeeze = mzero /\ mtrace squeeze = 0 /\ 0 < shear_rate squeeze /\
  (exists s st x, let t := ue_trial sip squeeze s st 1 in let r := plastic_at sip t st 1 x in
    1 <= mean3 s /\ 1 <= us_ps st /\ 0 < ut_yf t /\ / 10 ^ 6 <= ut_q t /\ 0 <= fst x /\ ue_residual sip t st 1 x = (0, 0) /\
    fst r = s /\ us_ps (snd r) = us_ps st /\ us_I (snd r) = us_I st).
Proof.
  assert (P : uepi_params sip).
  { unfold uepi_params, sip. cbn [ue_kap ue_lam ue_nu ue_M ue_Iv ue_rho ue_d ue_IM ue_Minf]. repeat split; try lra; try (apply Rdiv_lt_0_compat; [lra|apply pow_lt; lra]). }
  assert (W : get_spin_tensor squeeze = mzero) by (apply mat3_eq; unfold squeeze, mdiag; mcbv; field).
  assert (T0 : mtrace squeeze = 0) by (unfold squeeze, mdiag, mtrace; cbn; rnum; field).
  assert (S : 0 < shear_rate squeeze).
  { unfold shear_rate. apply sqrt_lt_R0. unfold squeeze, mdiag. 
    assert (F : frob2 (deviator (get_sym_tensor (M3 1 n0 n0 n0 (- (1 / 2)) n0 n0 n0 (- (1 / 2))))) = 3/2) by (unfold deviator, mean3; mcbv; field).
    rewrite F. lra. }
  split; [exact P|]. split; [exact W|]. split; [exact T0|]. split; [exact S|].
  assert (L6 : / 10 ^ 6 <= 1) by (rewrite <- Rinv_1; apply Rinv_le_contravar; [lra|apply pow_R1_Rle; lra]).
  destruct (C143_exists sip squeeze 50000 1 P) as (s & st & x & H); try assumption; try (unfold sip; cbn [ue_pref ue_M ue_nu]; lra).
  exists s, st, x. cbv zeta in *. destruct H as (A & B & H). rewrite A, B in *. repeat split; try lra; try apply H.
Qed.
