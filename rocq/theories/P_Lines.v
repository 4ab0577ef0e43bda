(** C121: critical states of Cam-Clay.  C122: inertial numbers.  C123: small strains. *)
From Coq Require Import List Arith ZArith Reals Bool Lra Lia.
From Verif Require Import Num NumR Linalg Arrays ModelGrid ModelShape ModelMath ModelState ModelLaws Sums ResFacts SpecMath MathProofs SpecLaws LawProofs LawProofs2
  P_Laws P_Laws2 P_Laws3 ModelStrain SpecStrain StrainProofs P_Strain.
Import ListNotations.
Local Open Scope R_scope.

(** *** C121 *)
Lemma v_sl_exp pc p pref N lam kap : 0 < pc -> 0 < p -> 0 < pref ->
  get_v_sl pc p pref N lam kap = N * exp (lam * ln pref - (lam - kap) * ln pc - kap * ln p).
Proof.
  intros A B C. unfold get_v_sl, get_v_ncl, get_v_f_kappa. change (N * Rpower (pref / pc) lam * Rpower (pc / p) kap = N * exp (lam * ln pref - (lam - kap) * ln pc - kap * ln p)).
  unfold Rpower. rewrite Rmult_assoc, <- exp_plus, !ln_div by assumption. do 2 f_equal. ring.
Qed.
Lemma v_csl_exp p pref N lam kap : 0 < p -> 0 < pref -> get_v_csl p pref N lam kap = N * exp (lam * ln pref - (lam - kap) * ln (2 * p) - kap * ln p).
Proof.
  intros B C. unfold get_v_csl. change (N * Rpower 2 (kap - lam) * Rpower (pref / p) lam = N * exp (lam * ln pref - (lam - kap) * ln (2 * p) - kap * ln p)).
  unfold Rpower. rewrite Rmult_assoc, <- exp_plus, !ln_div, ln_mult by (assumption || lra). do 2 f_equal. ring.
Qed.
(** a state at the stress ratio M lies on the yield surface exactly if p_c = 2 p; the surface is level there (no plastic volume
    change), the stress ratio the code derives is M, and the specific volume is that of the critical state line, nowhere else *)
Theorem C121_critical_state : forall p pc M pref N lam kap : R, 0 < p -> 0 < pc -> 0 < M -> 0 < pref -> 0 < N -> kap < lam ->
  (yield_function p pc (M * p) M = 0 <-> pc = 2 * p) /\
  (get_v_sl pc p pref N lam kap = get_v_csl p pref N lam kap <-> pc = 2 * p) /\
  (pc = 2 * p -> get_qp_ys pc p M = M /\ derivable_pt_lim (fun x => yield_function x pc (M * p) M) p 0).
Proof.
  intros p pc M pref N lam kap Hp Hc HM Hr HN Hk. split; [|split].
  - unfold yield_function. rnum. replace (M * p * (M * p) / (M * M)) with (p * p) by (field; lra). split; intro E; [|subst pc; ring].
    assert (p * (2 * p - pc) = 0) as Q by lra. apply Rmult_integral in Q. lra.
  - rewrite v_sl_exp, v_csl_exp by assumption. split; intro E; [|subst pc; reflexivity].
    apply Rmult_eq_reg_l in E; [|lra]. apply exp_inv in E. assert ((lam - kap) * (ln pc - ln (2 * p)) = 0) as Q by lra.
    apply Rmult_integral in Q. destruct Q as [Q|Q]; [lra|]. apply ln_inv; lra.
  - intros ->. split.
    + unfold get_qp_ys. rnum. replace (2 * p / p - 1) with 1 by (field; lra). rewrite sqrt_1. ring.
    + unfold yield_function. rnum. intros e He. exists (mkposreal e He). intros h Hh Hl.
      match goal with |- Rabs ?x < _ => replace x with h end; [exact Hl|]. cbn in Hl. field. split; lra.
Qed.
Print Assumptions C121_critical_state.
(** a plastic compression [e] through the hardening law, or an elastic one through the pressure law, changes the specific volume by
    exp(-e); compressions add up *)
Theorem C121_compression : forall p pc pref N lam kap e e' : R, 0 < p -> 0 < pc -> 0 < pref -> 0 < kap -> kap < lam ->
  get_v_sl (get_nc_pressure_mcc e (lam - kap) pc) p pref N lam kap = get_v_sl pc p pref N lam kap * exp (- e) /\
  get_v_sl pc (get_pressure_mcc e kap p) pref N lam kap = get_v_sl pc p pref N lam kap * exp (- e) /\
  get_nc_pressure_mcc e' (lam - kap) (get_nc_pressure_mcc e (lam - kap) pc) = get_nc_pressure_mcc (e + e') (lam - kap) pc /\
  get_pressure_mcc e' kap (get_pressure_mcc e kap p) = get_pressure_mcc (e + e') kap p.
Proof.
  intros p pc pref N lam kap e e' Hp Hc Hr Hk Hl.
  assert (A : 0 < pc * exp (e / (lam - kap))) by (apply Rmult_lt_0_compat; [assumption|apply exp_pos]).
  assert (B : 0 < p * exp (e / kap)) by (apply Rmult_lt_0_compat; [assumption|apply exp_pos]).
  unfold get_nc_pressure_mcc, get_pressure_mcc. rnum. rewrite !v_sl_exp by assumption.
  rewrite !ln_mult, !ln_exp by (assumption || apply exp_pos). rewrite !Rmult_assoc, <- !exp_plus.
  repeat split; f_equal; f_equal; field; lra.
Qed.
Print Assumptions C121_compression.
Example C121_case : 0 < 100 /\ yield_function 100 200 (1 * 100) 1 = 0 /\ 1 / 20 < 1 / 5.
Proof. unfold yield_function. rnum. repeat split; lra. Qed.

(** *** C122 *)
Lemma lit6 : (lit 1 (10 ^ 6) : R) = 1 / 10 ^ 6.
Proof. rnum. replace (10 ^ 6)%Z with 1000000%Z by reflexivity. replace (10 ^ 6) with 1000000 by ring. reflexivity. Qed.
Lemma inertial_number_eq p g d rho : get_inertial_number p g d rho = inertial d rho (Rmax p (1 / 10 ^ 6)) g.
Proof. unfold get_inertial_number, inertial. change (@numt_num R NumT_R) with Num_R. rewrite nmax_R, lit6. reflexivity. Qed.
(** from the pressure 1e-6 on the helper is the inertial number, and the friction of the mu(I) law is its mu(I) curve *)
Theorem C122_inertial_partial : forall (m : MuI R) p g, mi_params m -> 1 / 10 ^ 6 <= p -> 0 <= g ->
  let I := get_inertial_number p g (mi_d m) (mi_rho_p m) in
  I = inertial (mi_d m) (mi_rho_p m) p g /\ 0 <= I /\
  mu_reg m p g = mi_mu_s m * (g / sqrt (g * g + mi_alpha m * mi_alpha m)) + (mi_mu_d m - mi_mu_s m) * (I / (mi_I0 m + I)).
Proof.
  intros m p g (S & D & I0 & K & Rp & Dp & Al & _) Hp Hg I. assert (P : 0 < p) by lra.
  assert (E : I = inertial (mi_d m) (mi_rho_p m) p g) by (unfold I; rewrite inertial_number_eq, Rmax_left by exact Hp; reflexivity).
  assert (Q : 0 < sqrt (p / mi_rho_p m)) by (apply sqrt_lt_R0, Rdiv_lt_0_compat; lra).
  assert (N : 0 <= I) by (rewrite E; unfold inertial; apply Rmult_le_pos; [apply Rmult_le_pos; lra|apply Rlt_le, Rinv_0_lt_compat; exact Q]).
  split; [exact E|]. split; [exact N|]. unfold mu_reg. do 2 f_equal. rewrite E. unfold inertial. set (s := sqrt (p / mi_rho_p m)) in *.
  assert (0 < mi_I0 m * s) by (apply Rmult_lt_0_compat; assumption). assert (0 <= mi_d m * g) by (apply Rmult_le_pos; lra). field. split; nra.
Qed.
Print Assumptions C122_inertial_partial.
(** it grows with the shear rate and falls with the pressure; scaling sizes and rates inversely leaves it alone *)
Theorem C122_order : forall p p' g g' d rho : R, 0 < d -> 0 < rho -> 0 <= g <= g' -> p' <= p ->
  get_inertial_number p g d rho <= get_inertial_number p' g' d rho /\
  forall k, k <> 0 -> get_inertial_number p (g / k) (k * d) rho = get_inertial_number p g d rho.
Proof.
  intros p p' g g' d rho Hd Hr (Hg & Hgg) Hp. split.
  - rewrite !inertial_number_eq. unfold inertial. pose proof (Rmax_r p (1 / 10 ^ 6)). pose proof (Rmax_r p' (1 / 10 ^ 6)).
    assert (M : Rmax p' (1 / 10 ^ 6) <= Rmax p (1 / 10 ^ 6)) by (apply Rmax_lub; [eapply Rle_trans; [exact Hp|apply Rmax_l]|apply Rmax_r]).
    set (a := Rmax p _) in *. set (b := Rmax p' _) in *.
    assert (0 < 1 / 10 ^ 6) by lra. assert (Qb : 0 < sqrt (b / rho)) by (apply sqrt_lt_R0, Rdiv_lt_0_compat; lra).
    assert (Qa : sqrt (b / rho) <= sqrt (a / rho)) by (apply sqrt_le_1_alt; apply Rmult_le_compat_r; [apply Rlt_le, Rinv_0_lt_compat; lra|lra]).
    unfold Rdiv. apply Rmult_le_compat; [apply Rmult_le_pos; lra|apply Rlt_le, Rinv_0_lt_compat; lra|apply Rmult_le_compat_r; lra|apply Rinv_le_contravar; lra].
  - intros k Hk. rewrite !inertial_number_eq. unfold inertial. f_equal. field. exact Hk.
Qed.
Print Assumptions C122_order.
(** FINDING: below 1e-6 the law goes on with the true pressure, the helper reports a smaller number *)
Theorem C122_floor_refuted : forall p g d rho : R, 0 < d -> 0 < rho -> 0 < g -> 0 < p < 1 / 10 ^ 6 ->
  get_inertial_number p g d rho < inertial d rho p g.
Proof.
  intros p g d rho Hd Hr Hg (P & Q). rewrite inertial_number_eq, Rmax_right by lra. unfold inertial, Rdiv.
  apply Rmult_lt_compat_l; [apply Rmult_lt_0_compat; assumption|].
  assert (A : 0 < sqrt (p * / rho)) by (apply sqrt_lt_R0; apply Rmult_lt_0_compat; [lra|apply Rinv_0_lt_compat; lra]).
  assert (B : sqrt (p * / rho) < sqrt (1 * / 10 ^ 6 * / rho)).
  { apply sqrt_lt_1_alt. split; [apply Rmult_le_pos; [lra|apply Rlt_le, Rinv_0_lt_compat; lra]|]. apply Rmult_lt_compat_r; [apply Rinv_0_lt_compat; lra|lra]. }
  apply Rinv_lt_contravar; [apply Rmult_lt_0_compat; lra|exact B].
Qed.
Print Assumptions C122_floor_refuted.
Example C122_case : mi_params sand /\ 1 / 10 ^ 6 <= 4 /\ get_inertial_number 4 2 1 25 = 5.
Proof.
  split; [apply C45_case|]. split; [lra|]. rewrite inertial_number_eq, Rmax_left by lra. unfold inertial.
  replace (4 / 25) with ((2 / 5) * (2 / 5)) by field. rewrite sqrt_square by lra. field.
Qed.

(** *** C123 *)
Lemma small_strain_eq (F : mat3 R) : get_small_strain F = msub (mscale (1 / 2) (madd F (mtrans F))) meye.
Proof. unfold get_small_strain. destruct F; meq. Qed.
Lemma ln_below x : 0 < x -> 0 <= x - 1 - ln x <= (x - 1) * (x - 1) / x.
Proof.
  intro H. assert (L : forall y, 0 < y -> ln y <= y - 1).
  { intros y Hy. pose proof (exp_ineq1_le (ln y)) as E. rewrite exp_ln in E by exact Hy. lra. }
  split; [pose proof (L x H); lra|]. assert (I : 0 < / x) by (apply Rinv_0_lt_compat; exact H).
  pose proof (L (/ x) I) as Q. rewrite ln_Rinv in Q by exact H. replace ((x - 1) * (x - 1) / x) with (x - 2 + / x) by (field; lra). lra.
Qed.
(** for a pure stretch with factors l_i along the axes of Q the small strain is Q diag(l_i - 1) Q^T: the opposite of the logarithmic
    strain up to (l_i - 1)^2 / l_i *)
Theorem C123_first_order_partial : forall svd F Q a b c, is_svd (svd F) F -> orthogonal Q -> F = turned Q (mdiag a b c) ->
  / 10 ^ 12 <= a -> / 10 ^ 12 <= b -> / 10 ^ 12 <= c ->
  exists x y z, madd (get_small_strain F) (get_hencky_strain svd F) = turned Q (mdiag x y z) /\
    0 <= x <= (a - 1) * (a - 1) / a /\ 0 <= y <= (b - 1) * (b - 1) / b /\ 0 <= z <= (c - 1) * (c - 1) / c.
Proof.
  intros svd F Q a b c D O E A B C. assert (T : 0 < / 10 ^ 12) by (apply Rinv_0_lt_compat, pow_lt; lra).
  exists (a - 1 - ln a), (b - 1 - ln b), (c - 1 - ln c). split; [|repeat split; apply ln_below; lra].
  rewrite (C117_principal svd F Q a b c D O E A B C). rewrite small_strain_eq. rewrite E.
  assert (I : turned Q meye = meye) by (unfold turned; rewrite eye_r; apply (proj1 O)).
  rewrite <- I. clear. destruct Q. unfold turned. meq.
Qed.
Print Assumptions C123_first_order_partial.
(** FINDING: compression is positive in every other strain of the package; the small strain is positive in extension *)
Theorem C123_sign_refuted : forall svd F Q l, is_svd (svd F) F -> orthogonal Q -> F = turned Q (mdiag l l l) -> / 10 ^ 12 <= l -> l <> 1 ->
  get_volumetric_strain (get_small_strain F) * get_volumetric_strain (get_hencky_strain svd F) < 0.
Proof.
  intros svd F Q l D O E L N. assert (T : 0 < / 10 ^ 12) by (apply Rinv_0_lt_compat, pow_lt; lra).
  assert (F = mdiag l l l) as ->.
  { rewrite E. unfold turned. replace (mdiag l l l) with (mscale l meye : mat3 R) by meq.
    replace (mmul (mmul Q (mscale l meye)) (mtrans Q)) with (mscale l (mmul Q (mtrans Q))) by (clear; destruct Q; meq).
    rewrite (proj1 O). reflexivity. }
  assert (Oe : orthogonal (meye : mat3 R)) by (split; meq).
  assert (Ed : mdiag l l l = turned meye (mdiag l l l)) by (unfold turned; meq).
  rewrite (C117_principal svd _ meye l l l D Oe Ed L L L). clear -N L T.
  replace (get_volumetric_strain (get_small_strain (mdiag l l l))) with (3 * (l - 1)) by (rewrite small_strain_eq; mcbv; field).
  replace (get_volumetric_strain (turned meye (mdiag (- ln l) (- ln l) (- ln l)))) with (- 3 * ln l) by (unfold turned; mcbv; ring).
  assert (0 < (l - 1) * ln l); [|nra]. destruct (Rlt_or_le 1 l) as [H|H].
  - apply Rmult_lt_0_compat; [lra|]. rewrite <- ln_1. apply ln_increasing; lra.
  - assert (ln l < 0) by (rewrite <- ln_1; apply ln_increasing; lra). nra.
Qed.
Print Assumptions C123_sign_refuted.
(** FINDING: a turn about the third axis by t strains a body by cos t - 1 in both directions *)
Theorem C123_rotation_refuted : forall t : R,
  get_small_strain (M3 (cos t) (- sin t) 0 (sin t) (cos t) 0 0 0 1) = mdiag (cos t - 1) (cos t - 1) 0.
Proof. intro t. unfold get_small_strain. meq. Qed.
Print Assumptions C123_rotation_refuted.
(** the parts of a strain add up: the plastic strain is what the elastic one leaves *)
Theorem C123_parts : forall e ee x : mat3 R, get_plastic_strain e ee = x <-> madd ee x = e.
Proof.
  intros e ee x. destruct e, ee, x. unfold get_plastic_strain, msub, madd, mmap2. cbn. rnum.
  split; intro H; injection H as <- <- <- <- <- <- <- <- <-; f_equal; ring.
Qed.
Print Assumptions C123_parts.
Example C123_case : orthogonal (meye : mat3 R) /\ / 10 ^ 12 <= 1 / 2 /\ mdiag (1/2) (1/2) (1/2) = turned meye (mdiag (1/2) (1/2) (1/2)).
Proof. split; [split; meq|]. split; [lra|]. unfold turned. meq. Qed.
