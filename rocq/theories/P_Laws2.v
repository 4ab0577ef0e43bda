(** Property theorems C45-C51, C84: mu(I), Drucker-Prager, Cam-Clay, removal of shear, time steps. *)
From Coq Require Import List Arith ZArith Reals Bool Lra Lia.
From Verif Require Import Num NumR Linalg Arrays ModelGrid ModelShape ModelMath ModelState ModelLaws Sums ResFacts SpecMath MathProofs SpecLaws LawProofs LawProofs2 P_Laws.
Import ListNotations.
Local Open Scope R_scope.

(** ** C45 *)
Definition mi_params (m : MuI R) : Prop :=
  0 < mi_mu_s m /\ mi_mu_s m <= mi_mu_d m /\ 0 < mi_I0 m /\ 0 < mi_K m /\ 0 < mi_rho_p m /\ 0 < mi_d m /\ 0 < mi_alpha m /\ 0 <= mi_pmin m.
Lemma psafe_eq (m : MuI R) r : mi_psafe m r = Rmax (mi_K m * (r - 1)) (mi_pmin m).
Proof. unfold mi_psafe. change (@numt_num R NumT_R) with Num_R. rewrite nmax_R. reflexivity. Qed.
Lemma shear_rate_nonneg L : 0 <= shear_rate L.
Proof. apply sqrt_pos. Qed.
Lemma shear_rate_frob L : sqrt (frob2 (deviator (rate L)) / 2) = shear_rate L / 2.
Proof.
  unfold shear_rate. pose proof (frob2_nonneg (deviator (rate L))) as N. set (x := frob2 _) in *.
  replace (x / 2) with ((2 * x) * / 4) by lra. rewrite sqrt_mult_alt by lra. 
  replace (/ 4) with ((/ 2) * (/ 2)) by lra. rewrite sqrt_square by lra. reflexivity.
Qed.
Lemma mi_eta_pos (m : MuI R) p g : mi_params m -> 0 < p -> 0 <= g -> 0 < mi_eta m p g.
Proof.
  intros (S & D & I & K & Rp & Dp & Al & _) P G. unfold mi_eta. rnum.
  assert (0 < sqrt (g * g + mi_alpha m * mi_alpha m)) by (apply sqrt_lt_R0; nra).
  assert (0 < sqrt (p / mi_rho_p m)) by (apply sqrt_lt_R0, Rdiv_lt_0_compat; lra).
  apply Rplus_lt_le_0_compat.
  - apply Rdiv_lt_0_compat; [apply Rmult_lt_0_compat; assumption|assumption].
  - unfold Rdiv. apply Rmult_le_pos; [apply Rmult_le_pos; [apply Rmult_le_pos; lra|lra]|]. apply Rlt_le, Rinv_0_lt_compat.
    assert (0 < mi_I0 m * sqrt (p / mi_rho_p m)) by (apply Rmult_lt_0_compat; assumption). assert (0 <= mi_d m * g) by (apply Rmult_le_pos; lra). lra.
Qed.
(** friction coefficient the code realises: regularised mu(I) *)
Definition mu_reg (m : MuI R) (p g : R) : R :=
  mi_mu_s m * (g / sqrt (g * g + mi_alpha m * mi_alpha m)) +
  (mi_mu_d m - mi_mu_s m) * (mi_d m * g / (mi_I0 m * sqrt (p / mi_rho_p m) + mi_d m * g)).
Lemma mu_reg_range (m : MuI R) p g : mi_params m -> 0 < p -> 0 <= g -> 0 <= mu_reg m p g /\ mu_reg m p g < mi_mu_d m.
Proof.
  intros (S & D & I & K & Rp & Dp & Al & _) P G. unfold mu_reg.
  assert (Q : 0 < sqrt (g * g + mi_alpha m * mi_alpha m)) by (apply sqrt_lt_R0; nra).
  assert (W : 0 < mi_I0 m * sqrt (p / mi_rho_p m)) by (apply Rmult_lt_0_compat; [assumption|apply sqrt_lt_R0, Rdiv_lt_0_compat; lra]).
  assert (V : 0 <= mi_d m * g) by (apply Rmult_le_pos; lra).
  assert (A : 0 <= g / sqrt (g * g + mi_alpha m * mi_alpha m) < 1).
  { split; [unfold Rdiv; apply Rmult_le_pos; [exact G|apply Rlt_le, Rinv_0_lt_compat; exact Q]|].
    apply (Rmult_lt_reg_r (sqrt (g * g + mi_alpha m * mi_alpha m))); [exact Q|]. unfold Rdiv. rewrite Rmult_assoc, Rinv_l, Rmult_1_r, Rmult_1_l by lra.
    rewrite <- (sqrt_square g) at 1 by exact G. apply sqrt_lt_1_alt. nra. }
  assert (B : 0 <= mi_d m * g / (mi_I0 m * sqrt (p / mi_rho_p m) + mi_d m * g) <= 1).
  { set (w := mi_I0 m * sqrt (p / mi_rho_p m)) in *. set (v := mi_d m * g) in *. split.
    - unfold Rdiv. apply Rmult_le_pos; [exact V|apply Rlt_le, Rinv_0_lt_compat; lra].
    - apply (Rmult_le_reg_r (w + v)); [lra|]. unfold Rdiv. rewrite Rmult_assoc, Rinv_l by lra. lra. }
  set (a := g / _) in *. set (c := mi_d m * g / _) in *. split; nra.
Qed.
(** what the code computes: pressure from the equation of state (at least p_min), shear stress HALF the regularised friction law *)
Theorem C45_stress_partial : forall (m : MuI R) (L : mat3 R) mass vol rho0, mi_params m -> 1 < mass / vol / rho0 ->
  let s := mi_stress m L mass vol rho0 in let p := Rmax (mi_K m * (mass / vol / rho0 - 1)) (mi_pmin m) in
  mean3 s = p /\ 0 < p /\ sqrt (J2_of s) = mu_reg m p (shear_rate L) * p / 2 /\ 0 <= mu_reg m p (shear_rate L) < mi_mu_d m.
Proof.
  intros m L mass vol rho0 P H s p. assert (P0 : 0 < p).
  { unfold p. pose proof (Rmax_l (mi_K m * (mass / vol / rho0 - 1)) (mi_pmin m)). destruct P as (_ & _ & _ & K & _).
    assert (0 < mi_K m * (mass / vol / rho0 - 1)) by (apply Rmult_lt_0_compat; lra). lra. }
  assert (G := shear_rate_nonneg L).
  assert (E : s = madd (mscale p meye) (mscale (mi_eta m p (shear_rate L)) (deviator (rate L)))).
  { unfold s. rewrite mi_stress_eq, (proj2 (Rltb_true _ _) H), psafe_eq. reflexivity. }
  assert (T : mtrace (mscale (mi_eta m p (shear_rate L)) (deviator (rate L))) = 0) by (rewrite trace_scale, trace_deviator; ring).
  split; [rewrite E; apply mean_split'; exact T|]. split; [exact P0|]. split; [|apply mu_reg_range; assumption].
  unfold J2_of. rewrite E, dev_split' by exact T.
  rewrite sqrt_J2_scaled by (apply Rlt_le, mi_eta_pos; assumption). rewrite shear_rate_frob.
  destruct P as (S & D & I & K & Rp & Dp & Al & _). unfold mi_eta, mu_reg. rnum.
  assert (0 < sqrt (shear_rate L * shear_rate L + mi_alpha m * mi_alpha m)) by (apply sqrt_lt_R0; nra).
  assert (0 < mi_I0 m * sqrt (p / mi_rho_p m) + mi_d m * shear_rate L).
  { assert (0 < mi_I0 m * sqrt (p / mi_rho_p m)) by (apply Rmult_lt_0_compat; [assumption|apply sqrt_lt_R0, Rdiv_lt_0_compat; lra]).
    assert (0 <= mi_d m * shear_rate L) by (apply Rmult_le_pos; lra). lra. }
  field. split; lra.
Qed.
Print Assumptions C45_stress_partial.
(** mu_reg is mu(I) up to the regularisation of the static part *)
Theorem C45_coefficient : forall (m : MuI R) p g, mi_params m -> 0 < p -> 0 < g ->
  mu_of (mi_mu_s m) (mi_mu_d m) (mi_I0 m) (inertial (mi_d m) (mi_rho_p m) p g) - mu_reg m p g =
    mi_mu_s m * (1 - g / sqrt (g * g + mi_alpha m * mi_alpha m)) /\
  0 <= 1 - g / sqrt (g * g + mi_alpha m * mi_alpha m) <= (mi_alpha m / g) * (mi_alpha m / g).
Proof.
  intros m p g (S & D & I & K & Rp & Dp & Al & _) P G. unfold mu_of, inertial, mu_reg.
  assert (Q : 0 < sqrt (g * g + mi_alpha m * mi_alpha m)) by (apply sqrt_lt_R0; nra).
  assert (W : 0 < sqrt (p / mi_rho_p m)) by (apply sqrt_lt_R0, Rdiv_lt_0_compat; lra).
  split.
  - assert (0 < mi_I0 m * sqrt (p / mi_rho_p m)) by (apply Rmult_lt_0_compat; lra).
    assert (0 < mi_d m * g) by (apply Rmult_lt_0_compat; lra). field. repeat split; try lra. 
  - set (a := mi_alpha m) in *. set (q := sqrt (g * g + a * a)) in *.
    assert (Eq : q * q = g * g + a * a) by (unfold q; apply sqrt_sqrt; nra).
    assert (Gq : g <= q) by (rewrite <- (sqrt_square g) by lra; apply sqrt_le_1_alt; nra).
    assert (X : 1 - g / q = (q - g) / q) by (field; lra). rewrite X. split.
    + unfold Rdiv. apply Rmult_le_pos; [lra|apply Rlt_le, Rinv_0_lt_compat; exact Q].
    + apply (Rmult_le_reg_r (q * (g * g))); [apply Rmult_lt_0_compat; nra|].
      replace ((q - g) / q * (q * (g * g))) with ((q - g) * (g * g)) by (field; lra).
      replace (a / g * (a / g) * (q * (g * g))) with (a * a * q) by (field; lra).
      replace (a * a) with ((q - g) * (q + g)) by lra. rewrite Rmult_assoc. apply Rmult_le_compat_l; [lra|]. nra.
Qed.
Print Assumptions C45_coefficient.
(** FINDING: eta * dev(D) instead of 2 eta dev(D): the shear stress is half of mu(I) p.  Whenever mu_d <= 2 mu_s a flowing material
    carries less than its static friction. *)
Theorem C45_friction_refuted : forall (m : MuI R) (L : mat3 R) mass vol rho0, mi_params m -> 1 < mass / vol / rho0 ->
  let s := mi_stress m L mass vol rho0 in sqrt (J2_of s) < mi_mu_d m * mean3 s / 2 /\
  (mi_mu_d m <= 2 * mi_mu_s m -> sqrt (J2_of s) < mi_mu_s m * mean3 s).
Proof.
  intros m L mass vol rho0 P H s. destruct (C45_stress_partial m L mass vol rho0 P H) as (M & P0 & J & R1 & R2). fold s in M, J.
  rewrite M, J. set (p := Rmax _ _) in *. assert (mu_reg m p (shear_rate L) * p < mi_mu_d m * p) by (apply Rmult_lt_compat_r; assumption).
  split; [lra|]. intro X. assert (mi_mu_d m * p <= 2 * mi_mu_s m * p) by (apply Rmult_le_compat_r; lra). lra.
Qed.
Print Assumptions C45_friction_refuted.
(** disconnected: no stress; and a state made from density and pressure gives that pressure back at rest *)
Theorem C45_disconnected : forall (m : MuI R) (L : mat3 R) mass vol rho0, mass / vol / rho0 <= 1 -> mi_stress m L mass vol rho0 = mzero.
Proof. intros. rewrite mi_stress_eq, (proj2 (Rltb_false _ _) H). reflexivity. Qed.
Print Assumptions C45_disconnected.
Theorem C45_initial_pressure : forall (m : MuI R) mass vol p, mi_params m -> 0 < mass -> 0 < vol -> 0 < p -> mi_pmin m <= p ->
  mi_stress m mzero mass vol (mi_density_ref m (mass / vol) p) = spherical p.
Proof.
  intros m mass vol p P M V P0 Pm. assert (K : 0 < mi_K m) by apply P.
  assert (Ra : mass / vol / mi_density_ref m (mass / vol) p = p / mi_K m + 1).
  { unfold mi_density_ref. rnum. assert (0 < p / mi_K m) by (apply Rdiv_lt_0_compat; lra). field. repeat split; lra. }
  rewrite mi_stress_eq, Ra. assert (0 < p / mi_K m) by (apply Rdiv_lt_0_compat; lra).
  rewrite (proj2 (Rltb_true _ _)) by lra. rewrite psafe_eq. replace (mi_K m * (p / mi_K m + 1 - 1)) with p by (field; lra).
  rewrite Rmax_left by exact Pm. replace (deviator (rate mzero)) with (@mzero R Num_R) by (unfold rate; meq). meq.
Qed.
Print Assumptions C45_initial_pressure.
Definition sand : MuI R := {| mi_mu_s := 1/2; mi_mu_d := 3/4; mi_I0 := 1/4; mi_K := 100; mi_rho_p := 25; mi_d := 1; mi_alpha := 1/1000; mi_pmin := 0; mi_reset := true |}.
Example C45_case : mi_params sand /\ 1 < 2 / 1 / 1 /\ mi_mu_d sand <= 2 * mi_mu_s sand.
Proof. unfold mi_params; simpl. repeat split; lra. Qed.

(** ** C46 *)
Theorem C46_nondilatant_partial : forall (m : DruckerPrager R) b ds dt b' ds' i d x, 0 < dp_G m -> 0 <= dp_H m -> dp_mu1h m = 0 ->
  / 10 ^ 12 <= dp_K m * dp_mu1 m - dp_H m * dp_mu2 m * (dp_mu2 m / Rmax (dp_mu1 m) (/ 10 ^ 8)) ->
  law_update (LawDP m) b (Some (LS_DP ds)) dt = Ok (b', Some (LS_DP ds')) -> (i < length (sb_pts b))%nat ->
  dp_rho0 m <= density (nth i (sb_pts b) d) ->
  dp_yield (dp_mu1 m) (dp_mu2 m) (dp_c0 m) (dp_H m) (pt_stress (nth i (sb_pts b') d)) (dp_acc (nth i ds' x)) <= 0.
Proof.
  intros m b ds dt b' ds' i d x HG HH Hz So U Hi Hr. destruct (dp_update_nth _ _ _ _ _ _ d i U Hi) as (e & e' & E1 & E2 & _ & Q).
  injection E1 as <-. injection E2 as <-. destruct (Q x) as (Q1 & Q2). cbv zeta in Q1, Q2. rewrite Q1, Q2, set_stress_stress. cbn [dp_acc].
  apply dp_admissible; assumption.
Qed.
Print Assumptions C46_nondilatant_partial.
(** FINDING: with a dilatancy angle the return mapping moves the pressure the wrong way (p_tr - K gamma mu_1_hat), so every return to the
    cone ends outside the yield surface, by the fraction 2 K mu_1 mu_1_hat / (G + K mu_1 mu_1_hat + H mu_2^2) of the trial value *)
Theorem C46_dilatant_refuted : forall (m : DruckerPrager R) (L e : mat3 R) acc p0 rho dt,
  0 < dp_G m -> 0 < dp_K m -> 0 < dp_mu1 m -> 0 < dp_mu1h m -> 0 <= dp_H m -> dp_rho0 m <= rho ->
  let t := dp_trial m L e acc p0 dt in 0 < tr_yf t -> dp_G m * dp_multi m (tr_yf t) <= tr_sj t -> / 10 ^ 12 <= frob2 (tr_s t) / 2 ->
  let r := dp_stress m L e acc p0 rho dt in
  dp_yield (dp_mu1 m) (dp_mu2 m) (dp_c0 m) (dp_H m) (fst (fst r)) (snd r) =
    tr_yf t * (2 * dp_K m * dp_mu1 m * dp_mu1h m / (dp_G m + dp_K m * dp_mu1 m * dp_mu1h m + dp_H m * dp_mu2 m * dp_mu2 m)) /\
  0 < dp_yield (dp_mu1 m) (dp_mu2 m) (dp_c0 m) (dp_H m) (fst (fst r)) (snd r).
Proof.
  intros m L e acc p0 rho dt HG HK H1 Hh HH Hr t Hy Ha Hb r.
  assert (Km : 0 < dp_K m * dp_mu1 m * dp_mu1h m) by (apply Rmult_lt_0_compat; [apply Rmult_lt_0_compat|]; assumption).
  assert (Hm : 0 <= dp_H m * dp_mu2 m * dp_mu2 m) by (rewrite Rmult_assoc; apply Rmult_le_pos; [exact HH|apply Rle_0_sqr]).
  assert (D : 0 < dp_G m + dp_K m * dp_mu1 m * dp_mu1h m + dp_H m * dp_mu2 m * dp_mu2 m) by lra.
  assert (E : r = dp_cone m t acc p0).
  { unfold r. rewrite dp_stress_eq. unfold dp_branch. fold t. rewrite (proj2 (Rleb_true _ _) Hr), (proj2 (Rltb_true _ _) Hy).
    rewrite (proj2 (Rltb_false _ _)) by lra. reflexivity. }
  destruct (dp_cone_yield m L e acc p0 dt D (Rlt_le _ _ HG) Hy ltac:(fold t; lra)) as (_ & Y). specialize (Y Hb). fold t in Y. rewrite <- E in Y.
  split; [exact Y|]. rewrite Y. apply Rmult_lt_0_compat; [exact Hy|]. apply Rdiv_lt_0_compat; lra.
Qed.
Print Assumptions C46_dilatant_refuted.
Definition clay mu1h mu2 : DruckerPrager R :=
  {| dp_K := 1; dp_G := 1; dp_mu1 := 1; dp_mu2 := mu2; dp_c0 := 0; dp_mu1h := mu1h; dp_H := 0; dp_rho0 := 1; dp_reset := false |}.
(** simple shear in a material with p0 = 1: trial sqrt(J2) = 4, p = 1, yield value 3 *)
Definition shear4 : mat3 R := M3 0 4 0 0 0 0 0 0 0.
Lemma small12 : / 10 ^ 12 <= 1.
Proof. rewrite <- Rinv_1. apply Rinv_le_contravar; [lra|]. simpl. lra. Qed.
Lemma clay_trial mu1h mu2 : let t := dp_trial (clay mu1h mu2) shear4 mzero 0 1 1 in
  frob2 (tr_s t) / 2 = 16 /\ tr_sj t = 4 /\ tr_p t = 1 /\ tr_yf t = 3.
Proof.
  cbv zeta.
  assert (F : frob2 (tr_s (dp_trial (clay mu1h mu2) shear4 mzero 0 1 1)) / 2 = 16).
  { unfold dp_trial, shear4, clay. cbn [tr_s dp_G]. mcbv. field. }
  assert (J : tr_sj (dp_trial (clay mu1h mu2) shear4 mzero 0 1 1) = 4).
  { rewrite tr_sj_eq, F. rewrite Rmax_left by (pose proof small12; lra). replace 16 with (4 * 4) by ring. apply sqrt_square. lra. }
  assert (P : tr_p (dp_trial (clay mu1h mu2) shear4 mzero 0 1 1) = 1).
  { unfold dp_trial, shear4, clay. cbn [tr_p dp_K]. mcbv. field. }
  split; [exact F|split; [exact J|split; [exact P|]]]. rewrite tr_yf_eq, J, P. cbn. lra.
Qed.
Example C46_case : let r := dp_stress (clay 1 0) shear4 mzero 0 1 1 1 in dp_yield 1 0 0 0 (fst (fst r)) (snd r) = 3.
Proof.
  destruct (clay_trial 1 0) as (A & B & C & D).
  destruct (C46_dilatant_refuted (clay 1 0) shear4 mzero 0 1 1 1) as (E & _); try (cbn; lra).
  - rewrite D; lra.
  - rewrite D, B, dp_multi_eq. cbn. lra.
  - rewrite A. pose proof small12; lra.
  - cbv zeta. change (dp_yield 1 0 0 0) with (dp_yield (dp_mu1 (clay 1 0)) (dp_mu2 (clay 1 0)) (dp_c0 (clay 1 0)) (dp_H (clay 1 0))).
    rewrite E, D. cbn. lra.
Qed.
(** the hypotheses of the positive theorem *)
Example C46_case_ok : let m := clay 0 (1/2) in 0 < dp_G m /\ 0 <= dp_H m /\ dp_mu1h m = 0 /\
  / 10 ^ 12 <= dp_K m * dp_mu1 m - dp_H m * dp_mu2 m * (dp_mu2 m / Rmax (dp_mu1 m) (/ 10 ^ 8)).
Proof. cbn [clay dp_G dp_H dp_mu1h dp_K dp_mu1 dp_mu2]. pose proof small12. rewrite !Rmult_0_l. repeat split; lra. Qed.

(** ** C47 *)
(** the hardening variable does not decrease in any update that ends with a non-zero shear stress, or inside the yield surface *)
Theorem C47_monotone_partial : forall (m : DruckerPrager R) (L e : mat3 R) acc p0 rho dt, 0 <= dp_mu2 m ->
  0 < dp_G m + dp_K m * dp_mu1 m * dp_mu1h m + dp_H m * dp_mu2 m * dp_mu2 m ->
  let r := dp_stress m L e acc p0 rho dt in q_of (fst (fst r)) <> 0 -> acc <= snd r.
Proof.
  intros m L e acc p0 rho dt H2 D r. unfold r. rewrite dp_stress_eq. unfold dp_branch.
  destruct (Rleb (dp_rho0 m) rho); [|intros _; cbn; lra].
  destruct (Rltb 0 _) eqn:Ey; [apply Rltb_true in Ey|intros _; cbn; lra].
  destruct (Rltb _ 0); intro Q; [contradiction (Q (dp_apex_q _ _ _ _))|]. apply dp_cone_acc; assumption.
Qed.
Print Assumptions C47_monotone_partial.
(** without cohesion (mu_2 = 0, the default) it never changes, whatever the history *)
Fixpoint dp_run (m : DruckerPrager R) (p0 : R) (hist : list (mat3 R * R * R)) (st : mat3 R * R) : mat3 R * R :=
  match hist with
  | [] => st
  | (L, rho, dt) :: h => let r := dp_stress m L (fst st) (snd st) p0 rho dt in dp_run m p0 h (snd (fst r), snd r)
  end.
Theorem C47_cohesionless : forall (m : DruckerPrager R) p0 hist st, dp_mu2 m = 0 -> snd (dp_run m p0 hist st) = snd st.
Proof.
  intros m p0 hist. induction hist as [|[[L rho] dt] h IH]; intros st Z; [reflexivity|]. simpl. rewrite IH by exact Z. cbn [snd].
  rewrite dp_stress_eq. unfold dp_branch. destruct (Rleb _ _); [|reflexivity]. destruct (Rltb 0 _); [|reflexivity]. destruct (Rltb _ 0).
  - unfold dp_apex. cbn [snd]. rewrite Z. rnum. unfold Rdiv. rewrite Rmult_0_l. ring.
  - unfold dp_cone. cbn [snd]. rewrite Z. rnum. ring.
Qed.
Print Assumptions C47_cohesionless.
(** FINDING: every return to the apex of a cohesive material makes it smaller (the volumetric plastic strain increment is negative there,
    and is added) *)
Theorem C47_apex_refuted : forall (m : DruckerPrager R) (L e : mat3 R) acc p0 rho dt,
  0 < dp_G m -> 0 <= dp_K m -> 0 <= dp_H m -> 0 <= dp_mu1 m -> 0 <= dp_mu1h m -> 0 < dp_mu2 m -> dp_rho0 m <= rho ->
  let t := dp_trial m L e acc p0 dt in 0 < tr_yf t -> tr_sj t < dp_G m * dp_multi m (tr_yf t) -> snd (dp_stress m L e acc p0 rho dt) < acc.
Proof.
  intros m L e acc p0 rho dt HG HK HH H1 Hh H2 Hr t Hy Ha. rewrite dp_stress_eq. unfold dp_branch. fold t.
  rewrite (proj2 (Rleb_true _ _) Hr), (proj2 (Rltb_true _ _) Hy), (proj2 (Rltb_true _ 0)) by lra.
  apply dp_apex_acc; [exact H2|]. apply (dp_past_apex m L e acc p0 dt); try assumption. fold t. lra.
Qed.
Print Assumptions C47_apex_refuted.
(** isotropic extension to p = -1 *)
Example C47_case : snd (dp_stress (clay 0 1) (spherical (-1/3)) mzero 0 0 1 1) < 0.
Proof.
  assert (S : frob2 (tr_s (dp_trial (clay 0 1) (spherical (-1/3)) mzero 0 0 1)) / 2 = 0) by (unfold dp_trial, clay; cbn [tr_s dp_G]; mcbv; field).
  assert (P : tr_p (dp_trial (clay 0 1) (spherical (-1/3)) mzero 0 0 1) = -1) by (unfold dp_trial, clay; cbn [tr_p dp_K]; mcbv; field).
  assert (J : 0 < tr_sj (dp_trial (clay 0 1) (spherical (-1/3)) mzero 0 0 1)) by apply (tr_sj_pos (clay 0 1)).
  assert (Y : tr_yf (dp_trial (clay 0 1) (spherical (-1/3)) mzero 0 0 1) = tr_sj (dp_trial (clay 0 1) (spherical (-1/3)) mzero 0 0 1) + 1)
    by (rewrite tr_yf_eq, P; cbn; lra).
  apply C47_apex_refuted; try (cbn; lra).
  rewrite Y; lra.
Qed.
Example C47_case_shear : let r := dp_stress (clay 0 1) shear4 mzero 0 1 1 1 in snd r = 3.
Proof.
  destruct (clay_trial 0 1) as (A & B & C & D). cbv zeta. rewrite dp_stress_eq. unfold dp_branch. rewrite D, B.
  rewrite (proj2 (Rleb_true _ _)) by (cbn; lra). rewrite (proj2 (Rltb_true 0 3)) by lra. rewrite dp_multi_eq. rewrite (proj2 (Rltb_false _ _)) by (cbn; lra).
  unfold dp_cone. cbn [snd]. rewrite D, dp_multi_eq. cbn. lra.
Qed.

(** ** C48 *)
Theorem C48_drucker_prager : forall (m : DruckerPrager R) b ds dt b' st' i d x, law_update (LawDP m) b (Some (LS_DP ds)) dt = Ok (b', st') ->
  (i < length (sb_pts b))%nat -> density (nth i (sb_pts b) d) < dp_rho0 m ->
  pt_stress (nth i (sb_pts b') d) = mzero /\ exists ds', st' = Some (LS_DP ds') /\ dp_eps_e (nth i ds' x) = mzero /\ dp_acc (nth i ds' x) = dp_acc (nth i ds x).
Proof.
  intros m b ds dt b' st' i d x U Hi Hr. destruct (dp_update_nth _ _ _ _ _ _ d i U Hi) as (e & e' & E1 & E2 & _ & Q).
  injection E1 as <-. destruct (Q x) as (Q1 & Q2). cbv zeta in Q1, Q2. rewrite Q1, set_stress_stress.
  rewrite dp_stress_eq in Q2 |- *. unfold dp_branch in *.
  rewrite (proj2 (Rleb_false _ _)) in Q2 |- * by exact Hr. split; [reflexivity|]. exists e'. rewrite Q2. repeat split; auto.
Qed.
Print Assumptions C48_drucker_prager.
Theorem C48_mu_i : forall (m : MuI R) b r dt b' st' i d, law_update (LawMuI m) b (Some (LS_Rho r)) dt = Ok (b', st') ->
  (i < length (sb_pts b))%nat -> let p := nth i (sb_pts b) d in pt_mass p / pt_vol p / nth i r 0 <= 1 -> pt_stress (nth i (sb_pts b') d) = mzero.
Proof.
  intros m b r dt b' st' i d U Hi p H. destruct (mi_update_nth _ _ _ _ _ _ d i U Hi) as (r' & Er & _ & _ & Q). injection Er as <-.
  fold p in Q. rewrite Q, set_stress_stress. apply C45_disconnected. exact H.
Qed.
Print Assumptions C48_mu_i.
(** Cam-Clay: specific volume above (just below) the reference N of the normal consolidation line *)
Theorem C48_cam_clay : forall (m : MCC R) b pc sref ee dt b' st' i d, law_update (LawMCC m) b (Some (LS_MCC pc (Some sref) ee)) dt = Ok (b', st') ->
  (i < length (sb_pts b))%nat -> mc_N m * (999999 / 1000000) < mc_rho_p m / density (nth i (sb_pts b) d) ->
  pt_stress (nth i (sb_pts b') d) = mzero /\ exists pc' ee', st' = Some (LS_MCC pc' (Some sref) ee') /\ nth i pc' 0 = nth i pc 0.
Proof.
  intros m b pc sref ee dt b' st' i d U Hi Hv. destruct (mcc_update_nth _ _ _ _ _ _ i U Hi d) as (pc0 & sr0 & ee0 & pc' & ee' & E1 & E2 & _ & Q).
  injection E1 as <- <- <-. cbv zeta in Q. destruct Q as (Q1 & Q2 & Q3).
  unfold mcc_stress in *. cbv zeta in *.
  change ((mc_rho_p m / density (nth i (sb_pts b) d) <=? mc_N m * lit 999999 1000000)%num) with
    (Rleb (mc_rho_p m / density (nth i (sb_pts b) d)) (mc_N m * (999999 / 1000000))) in Q1, Q3.
  rewrite (proj2 (Rleb_false _ _) Hv) in Q1, Q3. rewrite Q1, set_stress_stress. split; [cbn [fst]; meq|]. exists pc', ee'. split; [exact E2|exact Q3].
Qed.
Print Assumptions C48_cam_clay.
Example C48_case : exists b' st', law_update (LawDP (clay 0 0)) (soft [part shear4 (spherical 5) 1 2]) (Some (dp_create_state [spherical 5])) 1 = Ok (b', st') /\
  density (part shear4 (spherical 5) 1 2) < dp_rho0 (clay 0 0).
Proof.
  do 2 eexists. split; [reflexivity|]. unfold density. rewrite eps16. cbn [part pt_mass pt_vol clay dp_rho0].
  assert (0 < / 10 ^ 16) by (apply Rinv_0_lt_compat, pow_lt; lra). rnum. set (e := / 10 ^ 16) in *. clearbody e.
  apply (Rmult_lt_reg_r (2 + e)); [lra|]. unfold Rdiv. rewrite Rmult_assoc, Rinv_l by lra. lra.
Qed.

(** ** C49 *)
Lemma pow_pos x y : 0 < Rpower x y.
Proof. unfold Rpower. apply exp_pos. Qed.
Lemma ln_pow x y : ln (Rpower x y) = y * ln x.
Proof. unfold Rpower. apply ln_exp. Qed.
Lemma from_ocr_entry (m : MCC R) p ocr q : 0 < p -> 1 <= ocr -> 0 < mc_M m -> 0 < mc_N m -> 0 < mc_pref m -> 0 < mc_rho_p m ->
  let r := mcc_from_ocr1 m p ocr q in let pc := fst (fst r) in let s := snd (fst r) in let rho := snd r in
  pc = ocr * p /\ mean3 s = p /\ symmetric s /\ mcc_yield (mc_M m) pc s <= 0 /\ (q = None -> s = spherical p) /\
  0 < rho /\ ln (mc_rho_p m / rho) = ln (mc_N m) - mc_lam m * ln (pc / mc_pref m) + mc_kap m * ln (pc / p).
Proof.
  intros P O M N Pr Rp r pc s rho.
  assert (Ep : pc = ocr * p) by (unfold pc, r, mcc_from_ocr1; cbn [fst snd]; rnum; ring).
  assert (Pc : 0 < pc) by (rewrite Ep; apply Rmult_lt_0_compat; lra).
  set (qq := match q with None => 0 | Some _ => mc_M m * sqrt (ocr - 1) * p end).
  assert (Es : s = reconstruct_stress_from_triaxial p qq).
  { unfold s, r, mcc_from_ocr1. cbn [fst snd]. f_equal. unfold qq. destruct q as [q0|]; [|reflexivity].
    change (@numt_num R NumT_R) with Num_R. rewrite nabs_R. unfold get_qp_ys. rnum.
    replace (p * ocr / p - 1) with (ocr - 1) by (field; lra). rcase; [reflexivity|].
    f_equal. pose proof (Rabs_pos (q0 / p - mc_M m * sqrt (ocr - 1))). assert (Z : Rabs (q0 / p - mc_M m * sqrt (ocr - 1)) = 0) by lra.
    destruct (Req_dec (q0 / p - mc_M m * sqrt (ocr - 1)) 0) as [Y|Y]; [lra|]. apply Rabs_no_R0 in Y. contradiction. }
  assert (Em : mean3 s = p) by (rewrite Es, <- pressure_mean; apply triaxial_pressure).
  assert (Eq : q_of s = Rabs qq). { pose proof (triaxial_q p qq) as X. rewrite q_vm_ok in X. rewrite Es. injection X; auto. }
  assert (Er : rho = mc_rho_p m / (mc_N m * Rpower (mc_pref m / pc) (mc_lam m) * Rpower (pc / p) (mc_kap m))) by reflexivity.
  assert (V : 0 < mc_N m * Rpower (mc_pref m / pc) (mc_lam m) * Rpower (pc / p) (mc_kap m)).
  { repeat apply Rmult_lt_0_compat; try assumption; apply pow_pos. }
  split; [exact Ep|split; [exact Em|split; [|split; [|split; [|split]]]]].
  - rewrite Es. mcbv. repeat split.
  - unfold mcc_yield. rewrite Em, Eq. rewrite <- Rabs_mult, Rabs_right by (apply Rle_ge, Rle_0_sqr).
    unfold qq. destruct q.
    + replace (mc_M m * sqrt (ocr - 1) * p * (mc_M m * sqrt (ocr - 1) * p)) with (mc_M m * mc_M m * (sqrt (ocr - 1) * sqrt (ocr - 1)) * (p * p)) by ring.
      rewrite sqrt_sqrt by lra. rewrite Ep. right. field. lra.
    + rewrite Ep. replace (0 * 0 / (mc_M m * mc_M m)) with 0 by (field; lra). nra.
  - intros ->. rewrite Es. unfold qq. meq.
  - rewrite Er. apply Rdiv_lt_0_compat; assumption.
  - rewrite Er. pose proof (pow_pos (mc_pref m / pc) (mc_lam m)). pose proof (pow_pos (pc / p) (mc_kap m)).
    replace (mc_rho_p m / (mc_rho_p m / (mc_N m * Rpower (mc_pref m / pc) (mc_lam m) * Rpower (pc / p) (mc_kap m)))) with
      (mc_N m * Rpower (mc_pref m / pc) (mc_lam m) * Rpower (pc / p) (mc_kap m)) by (field; repeat split; lra).
    rewrite !ln_mult, !ln_pow; try apply pow_pos; try assumption; [|apply Rmult_lt_0_compat; [assumption|apply pow_pos]].
    replace (pc / mc_pref m) with (/ (mc_pref m / pc)) by (field; lra). rewrite ln_Rinv by (apply Rdiv_lt_0_compat; assumption). ring.
Qed.
Theorem C49_state : forall (m : MCC R) p ocr q st stress rho i, 0 < mc_M m -> 0 < mc_N m -> 0 < mc_pref m -> 0 < mc_rho_p m ->
  mcc_create_from_ocr m p ocr q = Ok (st, stress, rho) -> (i < length p)%nat -> 0 < nth i p 0 -> 1 <= nth i ocr 0 ->
  exists pcs ee, st = LS_MCC pcs (Some stress) ee /\ length pcs = length p /\ length stress = length p /\ length rho = length p /\
  let pc := nth i pcs 0 in let s := nth i stress mzero in let pp := nth i p 0 in let r := nth i rho 0 in
  pc = nth i ocr 0 * pp /\ mean3 s = pp /\ symmetric s /\ mcc_yield (mc_M m) pc s <= 0 /\ (q = None -> s = spherical pp) /\
  0 < r /\ ln (mc_rho_p m / r) = ln (mc_N m) - mc_lam m * ln (pc / mc_pref m) + mc_kap m * ln (pc / pp).
Proof.
  intros m p ocr q st stress rho i M N Pr Rp E Hi Hp Ho. unfold mcc_create_from_ocr in E. destruct (_ && _)%bool; [|discriminate]. cbv zeta in E.
  set (f := fun i => mcc_from_ocr1 m (nth i p n0) (nth i ocr n0) (match q with Some l => Some (nth i l n0) | None => None end)) in E.
  change (map _ (seq 0 (length p))) with (map f (seq 0 (length p))) in E. 
  injection E as E1 E2 E3.
  assert (Nf : forall A (g : R * mat3 R * R -> A) d, nth i (map g (map f (seq 0 (length p)))) d = g (f i)).
  { intros A g d. rewrite (nth_indep _ d (g (f 0%nat))) by (rewrite !map_length, seq_length; exact Hi). rewrite (map_nth g), (map_nth f), seq_nth by exact Hi. reflexivity. }
  do 2 eexists. split; [rewrite <- E1, <- E2; reflexivity|]. rewrite <- E2, <- E3. rewrite !map_length, seq_length. do 3 (split; [reflexivity|]).
  cbv zeta. rewrite (Nf _ (fun x => fst (fst x))), (Nf _ (fun x => snd (fst x))), (Nf _ snd).
  destruct (from_ocr_entry m (nth i p 0) (nth i ocr 0) (match q with Some l => Some (nth i l 0) | None => None end) Hp Ho M N Pr Rp) as (A & B & C & D & F & G & H).
  repeat (split; [assumption|]). split; [|split; assumption]. intros ->. apply F. reflexivity.
Qed.
Print Assumptions C49_state.
Definition kaolin : MCC R := {| mc_nu := 1/4; mc_M := 1; mc_lam := 1/5; mc_kap := 1/20; mc_N := 2; mc_pref := 1000; mc_Kmin := None; mc_Kmax := None;
  mc_pmin := 1; mc_rho_p := 2000; mc_reset := false |}.
Example C49_case : exists st stress rho, mcc_create_from_ocr kaolin [100] [2] None = Ok (st, stress, rho) /\ 0 < nth 0 [100] 0 /\ 1 <= nth 0 [2] 0.
Proof. do 3 eexists. split; [reflexivity|]. simpl. lra. Qed.

(** ** C50 *)
Theorem C50_elastic : forall (m : MCC R) (L e s : mat3 R) pc sref v dt, 0 < mc_pmin m -> mc_pmin m <= mean3 s ->
  v <= mc_N m * (999999 / 1000000) -> mt_yf (mcc_trial m L e s pc dt) <= 0 ->
  let r := mcc_stress m L e s pc sref v dt in snd r = pc /\ mean3 (fst (fst r)) = mean3 s * exp (dt * mtrace L / mc_kap m).
Proof.
  intros m L e s pc sref v dt Pm Ps Hv Hy r. unfold r, mcc_stress. cbv zeta.
  change ((v <=? mc_N m * lit 999999 1000000)%num) with (Rleb v (mc_N m * (999999 / 1000000))).
  change ((n0 <? mt_yf (mcc_trial m L e s pc dt))%num) with (Rltb 0 (mt_yf (mcc_trial m L e s pc dt))).
  rewrite (proj2 (Rleb_true _ _) Hv), (proj2 (Rltb_false _ _) Hy). cbn [fst snd]. split; [reflexivity|].
  change (@numt_num R NumT_R) with Num_R. rewrite mean_split; [rewrite mt_p_eq, Rmax_left by exact Ps; reflexivity|].
  rewrite mt_s_trace, Rmax_left by exact Ps. ring.
Qed.
Print Assumptions C50_elastic.
(** the yield value tested is the Cam-Clay yield function of the trial stress *)
Theorem C50_trial_yield : forall (m : MCC R) (L e s : mat3 R) pc dt, mc_pmin m <= mean3 s ->
  let t := mcc_trial m L e s pc dt in mt_yf t = mcc_yield (mc_M m) pc (madd (mt_s t) (mscale (mt_p t) meye)).
Proof.
  intros m L e s pc dt Ps t. assert (T : mtrace (mt_s t) = 0) by (unfold t; rewrite mt_s_trace, Rmax_left by exact Ps; ring).
  unfold mcc_yield, q_of, J2_of. rewrite dev_split, mean_split by exact T.
  change (mt_yf t) with (yield_function (mt_p t) pc (q_vm_dev (mt_s t)) (mc_M m)).
  unfold yield_function, q_vm_dev. change (@numt_num R NumT_R) with Num_R. rewrite J2_dev_frob. reflexivity.
Qed.
Print Assumptions C50_trial_yield.
(** FINDING: a point whose pressure fell below p_min keeps the deficit: its deviator is taken about p_min, so the new pressure is not
    p_min exp(tr/kappa) either, and can stay negative *)
Theorem C50_floor_refuted : forall (m : MCC R) (L e s : mat3 R) pc sref v dt, mean3 s < mc_pmin m ->
  v <= mc_N m * (999999 / 1000000) -> mt_yf (mcc_trial m L e s pc dt) <= 0 ->
  let r := mcc_stress m L e s pc sref v dt in snd r = pc /\ mean3 (fst (fst r)) = mc_pmin m * exp (dt * mtrace L / mc_kap m) - (mc_pmin m - mean3 s).
Proof.
  intros m L e s pc sref v dt Ps Hv Hy r. unfold r, mcc_stress. cbv zeta.
  change ((v <=? mc_N m * lit 999999 1000000)%num) with (Rleb v (mc_N m * (999999 / 1000000))).
  change ((n0 <? mt_yf (mcc_trial m L e s pc dt))%num) with (Rltb 0 (mt_yf (mcc_trial m L e s pc dt))).
  rewrite (proj2 (Rleb_true _ _) Hv), (proj2 (Rltb_false _ _) Hy). cbn [fst snd]. split; [reflexivity|].
  change (@numt_num R NumT_R) with Num_R. 
  assert (X : forall (a : mat3 R) k, mean3 (madd a (mscale k meye)) = mtrace a / 3 + k) by (intros a k; destruct a; mcbv; field).
  rewrite X, mt_s_trace, mt_p_eq, !Rmax_right by lra. field.
Qed.
Print Assumptions C50_floor_refuted.
(** a case where both hold: an isotropic state at p = 100 in a material consolidated to 200, at rest *)
Lemma kaolin_rest : mt_yf (mcc_trial kaolin mzero mzero (spherical 100) 200 1) = -10000.
Proof.
  rewrite C50_trial_yield by (unfold kaolin; cbn [mc_pmin]; mcbv; lra).
  assert (Z : exp (1 * @mtrace R Num_R mzero / mc_kap kaolin) = 1) by (replace (1 * @mtrace R Num_R mzero / mc_kap kaolin) with 0 by (cbn; mcbv; field); apply exp_0).
  assert (P : mt_p (mcc_trial kaolin mzero mzero (spherical 100) 200 1) = 100).
  { rewrite mt_p_eq, Z. rewrite Rmax_left by (cbn; mcbv; lra). mcbv. field. }
  assert (T : mtrace (mt_s (mcc_trial kaolin mzero mzero (spherical 100) 200 1)) = 0).
  { rewrite mt_s_trace. rewrite Rmax_left by (cbn; mcbv; lra). ring. }
  assert (S : mt_s (mcc_trial kaolin mzero mzero (spherical 100) 200 1) = mzero).
  { unfold mcc_trial. cbn [mt_s]. unfold get_s. set (G := get_G _ _). clearbody G.
    change (@numt_num R NumT_R) with Num_R.
    assert (J : get_jaumann_increment (spherical 100) (get_spin_tensor mzero) 1 = spherical 100) by apply jaumann_iso.
    rewrite J, nmax_R, pressure_mean. replace (mean3 (spherical 100)) with 100 by (mcbv; field).
    rewrite Rmax_left by (unfold kaolin; cbn [mc_pmin]; lra). meq. }
  rewrite S, P. unfold mcc_yield, q_of, J2_of. rewrite dev_split, mean_split by (mcbv; ring).
  replace (3 * (frob2 mzero / 2)) with 0 by (mcbv; field). rewrite sqrt_0. cbn. lra.
Qed.
Example C50_case : mc_pmin kaolin <= mean3 (spherical 100) /\ mt_yf (mcc_trial kaolin mzero mzero (spherical 100) 200 1) <= 0.
Proof. rewrite kaolin_rest. unfold kaolin; cbn [mc_pmin]. mcbv. lra. Qed.

(** ** C51 *)
Lemma cbrt_cube J : 0 < J -> Rcbrt J * Rcbrt J * Rcbrt J = J.
Proof.
  intro P. unfold Rcbrt. destruct (Rlt_dec 0 J); [|lra]. rewrite <- !Rpower_plus. replace (/ 3 + / 3 + / 3) with 1 by field. apply Rpower_1, P.
Qed.
Theorem C51_space : forall b p, sb_dim b = D3 -> In p (sb_pts (remove_accumulated_shear true b)) ->
  exists q c, In q (sb_pts b) /\ (0 < mdet (pt_F q) -> pt_F p = spherical c /\ mdet (pt_F p) = mdet (pt_F q)) /\
  pt_vol p = pt_vol q /\ pt_mass p = pt_mass q /\ pt_stress p = pt_stress q.
Proof.
  intros b p D I. cbn in I. rewrite D in I. apply in_map_iff in I. destruct I as (q & <- & Iq). exists q, (Rcbrt (mdet (pt_F q))).
  split; [exact Iq|split; [|repeat split]]. intro P. set (c := Rcbrt _). cbn [set_F pt_F]. unfold compute_cbar. 
  change (ncbrt (mdet (pt_F q))) with c.
  change (@numt_num R NumT_R) with Num_R.
  assert (E : @mscale R Num_R c meye = spherical c) by meq. rewrite E. split; [reflexivity|].
  rewrite <- (cbrt_cube _ P). fold c. mcbv. ring.
Qed.
Print Assumptions C51_space.
(** the two-dimensional variant keeps the in-plane area but sets the out-of-plane stretch to 0.
    FINDING: the stored deformation gradient becomes singular: its determinant is 0, not det F. *)
Theorem C51_plane_refuted : forall b p, sb_dim b = D2 -> In p (sb_pts (remove_accumulated_shear true b)) ->
  exists q c, In q (sb_pts b) /\ pt_F p = M3 c 0 0 0 c 0 0 0 0 /\ mdet (pt_F p) = 0 /\ (0 < mdet (pt_F q) -> c * c = mdet (pt_F q)).
Proof.
  intros b p D I. cbn in I. rewrite D in I. apply in_map_iff in I. destruct I as (q & <- & Iq). exists q, (sqrt (mdet (pt_F q))).
  split; [exact Iq|]. cbn [set_F pt_F]. unfold compute_cbar. split; [reflexivity|split; [|intro; apply sqrt_sqrt; lra]].
  set (c := nsqrt _). mcbv. ring.
Qed.
Print Assumptions C51_plane_refuted.
Theorem C51_off : forall b : SoftBody R, remove_accumulated_shear false b = b.
Proof. reflexivity. Qed.
Print Assumptions C51_off.
Example C51_case : 0 < mdet (M3 2 1 0 0 1 0 0 0 1 : mat3 R).
Proof. mcbv. lra. Qed.

(** ** C84 *)
Lemma fold_max_ge (l : list R) x y : In y (x :: l) -> y <= fold_left nmax l x.
Proof.
  revert x y. induction l as [|a r IH]; intros x y I; [destruct I as [->|[]]; simpl; lra|]. simpl.
  destruct I as [<-|[<-|I]].
  - apply Rle_trans with (nmax x a); [rewrite nmax_R; apply Rmax_l|apply IH; left; reflexivity].
  - apply Rle_trans with (nmax x a); [rewrite nmax_R; apply Rmax_r|apply IH; left; reflexivity].
  - apply IH. right. exact I.
Qed.
Lemma fold_max_in (l : list R) x : In (fold_left nmax l x) (x :: l).
Proof.
  revert x. induction l as [|a r IH]; intro x; [left; reflexivity|]. simpl. destruct (IH (nmax x a)) as [E|I].
  - unfold nmax in E at 1. revert E. destruct (_ <? _)%num; intro E; rewrite <- E; [right; left; reflexivity|left; reflexivity].
  - right. right. exact I.
Qed.
Lemma dt_speeds_ok cell alpha (sp : list R) : 0 < cell -> 0 < alpha -> sp <> [] -> (forall x, In x sp -> 0 < x) ->
  exists dt, dt_from_speeds cell alpha sp = Ok dt /\ 0 < dt /\ forall x, In x sp -> dt * x <= alpha * cell.
Proof.
  intros C A N P. destruct sp as [|x r]; [congruence|]. unfold dt_from_speeds, list_max, rbind. eexists. split; [reflexivity|].
  set (mx := fold_left _ r x). assert (Hm : 0 < mx) by (apply P, fold_max_in). 
  assert (E : 0 < @lit R Num_R 1 (10 ^ 9)) by (unfold lit; rnum; apply Rdiv_lt_0_compat; [lra|apply IZR_lt; reflexivity]).
  change (@lit R (@numt_num R NumT_R) 1 (10 ^ 9)) with (@lit R Num_R 1 (10 ^ 9)). set (e := @lit R Num_R 1 (10 ^ 9)) in *. clearbody e.
  change (0 < alpha * cell / (mx + e) /\ forall y, In y (x :: r) -> alpha * cell / (mx + e) * y <= alpha * cell).
  assert (AC : 0 < alpha * cell) by (apply Rmult_lt_0_compat; assumption). split; [apply Rdiv_lt_0_compat; lra|].
  intros y I. assert (Y : y <= mx) by (apply fold_max_ge; exact I). assert (0 < y) by (apply P; exact I).
  unfold Rdiv. rewrite Rmult_assoc. rewrite <- (Rmult_1_r (alpha * cell)) at 2. apply Rmult_le_compat_l; [lra|].
  apply (Rmult_le_reg_l (mx + e)); [lra|]. rewrite <- Rmult_assoc, Rinv_r by lra. lra.
Qed.
(** wave speed of each law *)
Definition wave_modulus (l : Law R) : R :=
  match l with LawLE m => le_K m + 4 / 3 * le_G m | LawNewton m => nf_K m * nf_beta m | LawMuI m => mi_K m | LawDP m => dp_K m + 4 / 3 * dp_G m | LawMCC _ => 0 end.
Theorem C84_dt_crit_partial : forall l (b : SoftBody R) cell alpha,
  match l with LawLE _ | LawNewton _ | LawMuI _ => True | _ => False end -> 0 < wave_modulus l -> 0 < cell -> 0 < alpha -> sb_pts b <> [] ->
  (forall p, In p (sb_pts b) -> 0 < pt_mass p /\ 0 < pt_vol p) ->
  exists dt, get_dt_crit l b cell alpha = Ok dt /\ 0 < dt /\
  forall p, In p (sb_pts b) -> dt * (sqrt (wave_modulus l / (pt_mass p / pt_vol p)) + vnorm (pt_vel p)) <= alpha * cell.
Proof.
  intros l b cell alpha Hl W C A N P.
  assert (G : forall f : Particle R -> R, (forall p, In p (sb_pts b) -> f p = sqrt (wave_modulus l / (pt_mass p / pt_vol p)) + vnorm (pt_vel p)) ->
     exists dt, dt_from_speeds cell alpha (map f (sb_pts b)) = Ok dt /\ 0 < dt /\
       forall p, In p (sb_pts b) -> dt * (sqrt (wave_modulus l / (pt_mass p / pt_vol p)) + vnorm (pt_vel p)) <= alpha * cell).
  { intros f Hf. destruct (dt_speeds_ok cell alpha (map f (sb_pts b)) C A) as (dt & E & D & M).
    - intro Z. apply map_eq_nil in Z. contradiction.
    - intros x I. apply in_map_iff in I. destruct I as (p & <- & I). rewrite Hf by exact I. destruct (P p I) as (Pm & Pv).
      apply Rplus_lt_le_0_compat; [|apply sqrt_pos]. apply sqrt_lt_R0, Rdiv_lt_0_compat; [exact W|apply Rdiv_lt_0_compat; assumption].
    - exists dt. split; [exact E|split; [exact D|]]. intros p I. rewrite <- Hf by exact I. apply M. apply in_map. exact I. }
  destruct l; try contradiction; apply G; intros p I; reflexivity.
Qed.
Print Assumptions C84_dt_crit_partial.
(** FINDING: DruckerPrager.get_dt_crit reads mp_state.rho_stack, which does not exist; ModifiedCamClay has no get_dt_crit *)
Theorem C84_drucker_prager_refuted : forall (T : Type) (N : NumT T) (m : DruckerPrager T) b cell alpha, get_dt_crit (LawDP m) b cell alpha = Err AttributeError.
Proof. reflexivity. Qed.
Print Assumptions C84_drucker_prager_refuted.
Theorem C84_cam_clay_refuted : forall (T : Type) (N : NumT T) (m : MCC T) b cell alpha, get_dt_crit (LawMCC m) b cell alpha = Err AttributeError.
Proof. reflexivity. Qed.
Print Assumptions C84_cam_clay_refuted.
Example C84_case : 0 < wave_modulus (LawLE (linear_elastic 9 (1/8) false)) /\ sb_pts (soft [part mzero mzero 1 1]) <> [].
Proof. split; [cbn; unfold get_bulk_modulus, get_shear_modulus; rnum; lra|discriminate]. Qed.
