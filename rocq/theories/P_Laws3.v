(** Property theorems about constitutive laws: compression lines (C104), rest (C105), initial Cam-Clay states (C106), isotropy (C107),
    stored elastic strain (C109), dissipation (C110). *)
From Coq Require Import List Arith ZArith Reals Bool Lra Lia.
From Verif Require Import Num NumR Linalg Arrays ModelGrid ModelShape ModelMath ModelState ModelLaws Sums ResFacts SpecMath MathProofs SpecLaws LawProofs LawProofs2 P_Laws P_Laws2.
Import ListNotations.
Local Open Scope R_scope.

(** *** C104: the compression and swelling lines *)
(** one point through a history of (velocity gradient, specific volume, time step); state: stress, elastic strain, p_c *)
Fixpoint mcc_run (m : MCC R) (sref : mat3 R) (hist : list (mat3 R * R * R)) (st : mat3 R * mat3 R * R) : mat3 R * mat3 R * R :=
  match hist with
  | [] => st
  | (L, v, dt) :: h => mcc_run m sref h (mcc_stress m L (snd (fst st)) (fst (fst st)) (snd st) sref v dt)
  end.
(** never below the pressure floor and never disconnected *)
Fixpoint loaded (m : MCC R) (sref : mat3 R) (hist : list (mat3 R * R * R)) (st : mat3 R * mat3 R * R) : Prop :=
  match hist with
  | [] => True
  | (L, v, dt) :: h => mc_pmin m <= mean3 (fst (fst st)) /\ v <= mc_N m * (999999 / 1000000) /\
      loaded m sref h (mcc_stress m L (snd (fst st)) (fst (fst st)) (snd st) sref v dt)
  end.
(** compressive volumetric strain of the history *)
Definition compression (hist : list (mat3 R * R * R)) : R := fold_right (fun x a => snd x * (m00 (fst (fst x)) + m11 (fst (fst x)) + m22 (fst (fst x))) + a) 0 hist.
Lemma ln_div x y : 0 < x -> 0 < y -> ln (x / y) = ln x - ln y.
Proof. intros Hx Hy. unfold Rdiv. rewrite ln_mult, ln_Rinv by (try apply Rinv_0_lt_compat; assumption). ring. Qed.
Lemma mcc_step_line (m : MCC R) L e s pc sref v dt : mcc_params m -> mc_pmin m <= mean3 s -> 0 < pc -> v <= mc_N m * (999999 / 1000000) ->
  let r := mcc_stress m L e s pc sref v dt in let p' := mean3 (fst (fst r)) in
  0 < p' /\ 0 < snd r /\ mc_kap m * ln (p' / mean3 s) + (mc_lam m - mc_kap m) * ln (snd r / pc) = dt * mtrace L.
Proof.
  intros P Ps Pc Hv r p'. pose proof P as (Hk & Hkl & _ & _ & Hp & _). assert (Pm : 0 < mean3 s) by lra.
  unfold p', r, mcc_stress. cbv zeta. change ((v <=? mc_N m * lit 999999 1000000)%num) with (Rleb v (mc_N m * (999999 / 1000000))).
  set (t := mcc_trial m L e s pc dt). change ((n0 <? mt_yf t)%num) with (Rltb 0 (mt_yf t)). rewrite (proj2 (Rleb_true _ _) Hv).
  assert (Pp : mt_pprev t = mean3 s) by (unfold t; rewrite mt_pprev_eq; apply Rmax_left; exact Ps).
  assert (Ts : mtrace (mt_s t) = 0) by (unfold t; rewrite mt_s_trace, Rmax_left by exact Ps; ring).
  assert (De : mt_dev t = dt * mtrace L) by (unfold t; apply mt_dev_eq).
  destruct (Rltb 0 (mt_yf t)).
  - destruct (mcc_plastic_eq m t pc sref P) as (F & P0 & Pe & E1 & E2); [rewrite Pp; exact Pm|]. rewrite E1, E2.
    set (x := mcc_iterate m t pc) in *. set (f := mcc_factor m (mcc_args t pc) x) in *. set (p := mcc_p m (mcc_args t pc) (snd x)) in *.
    clearbody p f x. rewrite mean_split by (rewrite trace_scale, Ts; ring). split; [exact P0|]. split; [apply exp_pos|].
    rewrite Pe, Pp, De. clear E1 E2 Pe F. clearbody t. generalize (snd x) (mtrace L). intros y z. rewrite !ln_div by (first [apply exp_pos|assumption|apply Rmult_lt_0_compat; [assumption|apply exp_pos]]).
    rewrite ln_mult, !ln_exp by (try apply exp_pos; assumption). field. lra.
  - cbn [fst snd]. change (@numt_num R NumT_R) with Num_R. rewrite mean_split by exact Ts.
    unfold t. rewrite mt_p_eq, Rmax_left by exact Ps. split; [apply Rmult_lt_0_compat; [lra|apply exp_pos]|]. split; [exact Pc|].
    rewrite !ln_div by (first [assumption|apply Rmult_lt_0_compat; [assumption|apply exp_pos]]). rewrite ln_mult, ln_exp by (try apply exp_pos; assumption).
    field. lra.
Qed.
(** along every loaded history, elastic or plastic and whatever the Newton iteration returns, pressure and preconsolidation pressure stay positive
    and move on the bi-logarithmic lines: kappa ln p + (lambda - kappa) ln p_c grows by the compression *)
Theorem C104_lines_partial : forall (m : MCC R) sref hist st, mcc_params m -> 0 < mean3 (fst (fst st)) -> 0 < snd st -> loaded m sref hist st ->
  let st' := mcc_run m sref hist st in let p := mean3 (fst (fst st)) in let p' := mean3 (fst (fst st')) in
  0 < p' /\ 0 < snd st' /\ mc_kap m * ln (p' / p) + (mc_lam m - mc_kap m) * ln (snd st' / snd st) = compression hist.
Proof.
  intros m sref hist. induction hist as [|[[L v] dt] h IH]; intros st P Hp Hc Ld; cbv zeta.
  - cbn. repeat split; try assumption. unfold Rdiv. rewrite !Rinv_r, ln_1 by lra. ring.
  - destruct Ld as (A & B & C). cbn [mcc_run compression fold_right fst snd]. set (st1 := mcc_stress m L (snd (fst st)) (fst (fst st)) (snd st) sref v dt) in *.
    destruct (mcc_step_line m L (snd (fst st)) (fst (fst st)) (snd st) sref v dt P A Hc B) as (D & E & F). fold st1 in D, E, F.
    destruct (IH st1 P D E C) as (G & H & I). repeat (split; [assumption|]). fold (compression h). rewrite <- I.
    change (m00 L + m11 L + m22 L) with (mtrace L). rewrite <- F. rewrite !ln_div by assumption. ring.
Qed.
Print Assumptions C104_lines_partial.
(** so the specific volume of the swelling line through (p, p_c) shrinks by exp of the compression *)
Theorem C104_specific_volume : forall (m : MCC R) sref hist st, mcc_params m -> 0 < mc_N m -> 0 < mc_pref m -> 0 < mean3 (fst (fst st)) -> 0 < snd st -> loaded m sref hist st ->
  let v st := get_v_sl (snd st) (mean3 (fst (fst st))) (mc_pref m) (mc_N m) (mc_lam m) (mc_kap m) in
  v (mcc_run m sref hist st) = v st * exp (- compression hist).
Proof.
  intros m sref hist st P HN Hr Hp Hc Ld v. destruct (C104_lines_partial m sref hist st P Hp Hc Ld) as (A & B & C). cbv zeta in *.
  assert (V : forall z : mat3 R * mat3 R * R, 0 < snd z -> 0 < mean3 (fst (fst z)) ->
    v z = mc_N m * exp (mc_lam m * ln (mc_pref m) - (mc_lam m - mc_kap m) * ln (snd z) - mc_kap m * ln (mean3 (fst (fst z))))).
  { intros z Z1 Z2. unfold v, get_v_sl, get_v_ncl, get_v_f_kappa.
    change (mc_N m * Rpower (mc_pref m / snd z) (mc_lam m) * Rpower (snd z / mean3 (fst (fst z))) (mc_kap m) =
      mc_N m * exp (mc_lam m * ln (mc_pref m) - (mc_lam m - mc_kap m) * ln (snd z) - mc_kap m * ln (mean3 (fst (fst z))))).
    unfold Rpower. rewrite Rmult_assoc, <- exp_plus, !ln_div by assumption. f_equal. f_equal. ring. }
  rewrite (V (mcc_run m sref hist st)), (V st) by assumption. rewrite Rmult_assoc, <- exp_plus. f_equal. f_equal. rewrite <- C.
  rewrite !ln_div by assumption. ring.
Qed.
Print Assumptions C104_specific_volume.
(** FINDING: the solver multiplies the particle's volume by det (I - dt L) instead, so compressing and extending by the same strain leaves the
    stress state where it was and the particle smaller *)
Theorem C104_cycle_refuted : forall (m : MCC R) sref st e w, mcc_params m -> 0 < mc_N m -> 0 < mc_pref m -> e <> 0 -> 0 < mean3 (fst (fst st)) -> 0 < snd st ->
  let L := spherical e in let hist := [(L, w, 1); (mscale (-1) L, w, 1)] in loaded m sref hist st ->
  let v st := get_v_sl (snd st) (mean3 (fst (fst st))) (mc_pref m) (mc_N m) (mc_lam m) (mc_kap m) in
  v (mcc_run m sref hist st) = v st /\ mdet (mmul (msub meye (mscale (-1) L)) (msub meye L)) < 1.
Proof.
  intros m sref st e w P HN Hr He Hp Hc L hist Ld v. split.
  - unfold v. rewrite (C104_specific_volume m sref hist st P HN Hr Hp Hc Ld). assert (Z : compression hist = 0).
    { unfold hist, L, compression. cbn [fold_right fst snd spherical mscale mmap m00 m11 m22]. rnum. ring. }
    rewrite Z, Ropp_0, exp_0. apply Rmult_1_r.
  - unfold L. mcbv. assert (0 < e * e) by nra. match goal with |- ?a < _ => replace a with ((1 - e * e) * ((1 - e * e) * (1 - e * e))) by ring end.
    set (y := 1 - e * e) in *. assert (y < 1) by (unfold y; lra). destruct (Rle_lt_dec y 0); [assert (0 <= y * y) by nra; nra|]. assert (y * y < 1) by nra. nra.
Qed.
Print Assumptions C104_cycle_refuted.
(** below the floor the pressure does not follow the line (cf. C50) *)
Theorem C104_floor_refuted : forall (m : MCC R) (L e s : mat3 R) pc sref v dt, mcc_params m -> 0 < mean3 s < mc_pmin m -> 0 < pc ->
  v <= mc_N m * (999999 / 1000000) -> mt_yf (mcc_trial m L e s pc dt) <= 0 -> dt * mtrace L <> 0 ->
  let r := mcc_stress m L e s pc sref v dt in
  mc_kap m * ln (mean3 (fst (fst r)) / mean3 s) + (mc_lam m - mc_kap m) * ln (snd r / pc) <> dt * mtrace L.
Proof.
  intros m L e s pc sref v dt P (Hp & Hm) Hc Hv Hy Ht r Q. pose proof P as (Hk & _).
  destruct (C50_floor_refuted m L e s pc sref v dt Hm Hv Hy) as (A & B). fold r in A, B. rewrite A in Q. unfold Rdiv at 2 in Q. rewrite Rinv_r, ln_1, Rmult_0_r, Rplus_0_r in Q by lra.
  set (x := dt * mtrace L) in *. set (p' := mean3 (fst (fst r))) in *. destruct (Rle_lt_dec p' 0) as [N|N].
  - assert (Z : ln (p' / mean3 s) = 0).
    { unfold ln. destruct (Rlt_dec 0 (p' / mean3 s)) as [L1|_]; [|reflexivity]. exfalso.
      assert (p' / mean3 s * mean3 s = p') by (field; lra). nra. }
    rewrite Z in Q. lra.
  - assert (E : p' / mean3 s = exp (x / mc_kap m)).
    { rewrite <- (exp_ln (p' / mean3 s)) by (apply Rdiv_lt_0_compat; assumption). f_equal. rewrite <- Q. field. lra. }
    assert (E2 : p' = mean3 s * exp (x / mc_kap m)) by (rewrite <- E; field; lra).
    assert (E3 : (mc_pmin m - mean3 s) * (exp (x / mc_kap m) - 1) = 0) by lra. apply Rmult_integral in E3. destruct E3 as [E3|E3]; [lra|].
    assert (E4 : exp (x / mc_kap m) = exp 0) by (rewrite exp_0; lra). apply exp_inv in E4. apply Ht.
    assert (x = x / mc_kap m * mc_kap m) by (field; lra). rewrite E4 in H. lra.
Qed.
Print Assumptions C104_floor_refuted.
(** kaolin at p = 100, p_c = 200: at rest for a step, then squeezed hard; and an isotropic cycle of one per mille *)
Lemma sph_trial (m : MCC R) k p pc : mc_pmin m <= p -> let t := mcc_trial m (spherical k) mzero (spherical p) pc 1 in
  mt_s t = mzero /\ mt_p t = p * exp (3 * k / mc_kap m) /\ mt_yf t = mt_p t * mt_p t - pc * mt_p t.
Proof.
  intros Hp t. assert (Mp : mean3 (spherical p) = p) by (mcbv; field).
  assert (S : mt_s t = mzero).
  { unfold t, mcc_trial. cbn [mt_s]. unfold get_s. set (G := get_G _ _). clearbody G. change (@numt_num R NumT_R) with Num_R.
    rewrite jaumann_iso, nmax_R, pressure_mean, Mp, Rmax_left by exact Hp. meq. }
  assert (P : mt_p t = p * exp (3 * k / mc_kap m)).
  { unfold t. rewrite mt_p_eq, Mp, Rmax_left by exact Hp. do 2 f_equal. f_equal. mcbv. ring. }
  split; [exact S|split; [exact P|]]. unfold t at 1. rewrite C50_trial_yield by (rewrite Mp; exact Hp). fold t. rewrite S.
  unfold mcc_yield, q_of, J2_of. rewrite dev_split, mean_split by (mcbv; ring).
  replace (3 * (frob2 mzero / 2)) with 0 by (mcbv; field). rewrite sqrt_0. unfold Rdiv. ring.
Qed.
Lemma sph_extend (m : MCC R) k p pc sref v : mcc_params m -> mc_pmin m <= p -> p * exp (3 * k / mc_kap m) <= pc -> v <= mc_N m * (999999 / 1000000) ->
  mean3 (fst (fst (mcc_stress m (spherical k) mzero (spherical p) pc sref v 1))) = p * exp (3 * k / mc_kap m).
Proof.
  intros P Hp Hc Hv. destruct (sph_trial m k p pc Hp) as (_ & Ep & Ey). pose proof P as (_ & _ & _ & _ & Pm & _).
  destruct (C50_elastic m (spherical k) mzero (spherical p) pc sref v 1 Pm) as (_ & E).
  - mcbv. lra.
  - exact Hv.
  - rewrite Ey, Ep. assert (0 < p * exp (3 * k / mc_kap m)) by (apply Rmult_lt_0_compat; [lra|apply exp_pos]). nra.
  - rewrite E. replace (mean3 (spherical p)) with p by (mcbv; field). do 2 f_equal. f_equal. mcbv. ring.
Qed.
Lemma kaolin_params : mcc_params kaolin.
Proof. unfold mcc_params, kaolin. cbn [mc_kap mc_lam mc_nu mc_M mc_pmin mc_Kmax]. repeat split; lra. Qed.
Example C104_case : let st := (spherical 100, mzero, 200) in
  mcc_params kaolin /\ 0 < mean3 (fst (fst st)) /\ 0 < snd st /\
  loaded kaolin mzero [(mzero, 1, 1); (mdiag 10 0 (-1), 1, 1)] st /\ compression [(mzero, 1, 1); (mdiag 10 0 (-1), 1, 1)] = 9 /\
  loaded kaolin mzero [(spherical (-1/1000), 1, 1); (mscale (-1) (spherical (-1/1000)), 1, 1)] st.
Proof.
  assert (M : mean3 (spherical 100) = 100) by (mcbv; field).
  assert (Lo : forall k L2, -1/1000 <= k <= 0 -> loaded kaolin mzero [(spherical k, 1, 1); (L2, 1, 1)] (spherical 100, mzero, 200)).
  { intros k L2 Hk. cbn [loaded fst snd]. rewrite M.
    assert (X : exp (3 * k / mc_kap kaolin) <= 1) by (rewrite <- exp_0; apply Raux.exp_le; unfold kaolin; cbn [mc_kap]; lra).
    assert (Y : 1 / 2 <= exp (3 * k / mc_kap kaolin)).
    { pose proof (exp_ineq1_le (3 * k / mc_kap kaolin)) as I. unfold kaolin in *. cbn [mc_kap] in *. lra. }
    rewrite sph_extend; [|exact kaolin_params|unfold kaolin; cbn [mc_pmin]; lra| |unfold kaolin; cbn [mc_N]; lra].
    - unfold kaolin in *. cbn [mc_pmin mc_N mc_kap] in *. repeat split; lra.
    - lra. }
  cbv zeta. cbn [fst snd]. split; [exact kaolin_params|]. split; [rewrite M; lra|]. split; [lra|]. split; [|split].
  - assert (Z : @mzero R Num_R = spherical 0) by meq. rewrite Z at 2. apply Lo. lra.
  - unfold compression. cbn [fold_right fst snd mzero mdiag m00 m11 m22]. rnum. ring.
  - apply Lo. lra.
Qed.

(** *** C105: at rest a body keeps the stress it was given *)
Definition at_rest (b : SoftBody R) : Prop := forall p, In p (sb_pts b) -> pt_L p = mzero.
Theorem C105_linear_elastic : forall (m : LinearElastic R) b st dt b' st', at_rest b -> law_update (LawLE m) b st dt = Ok (b', st') ->
  map pt_stress (sb_pts b') = map pt_stress (sb_pts b).
Proof.
  intros m b st dt b' st' Hr E. injection E as <- <-. cbn [set_pts sb_pts]. rewrite map_map. apply map_ext_in. intros p Hp. rewrite set_stress_stress, (Hr p Hp).
  change (@numt_num R NumT_R) with Num_R. rewrite le_stress_eq. unfold rate. destruct (pt_stress p). meq.
Qed.
Print Assumptions C105_linear_elastic.
Theorem C105_cam_clay_partial : forall (m : MCC R) b pc sref ee dt b' st' i d, at_rest b -> 0 < mc_kap m ->
  law_update (LawMCC m) b (Some (LS_MCC pc (Some sref) ee)) dt = Ok (b', st') -> (i < length (sb_pts b))%nat ->
  let p := nth i (sb_pts b) d in
  mc_pmin m <= mean3 (pt_stress p) -> mcc_yield (mc_M m) (nth i pc 0) (pt_stress p) <= 0 -> mc_rho_p m / density p <= mc_N m * (999999 / 1000000) ->
  pt_stress (nth i (sb_pts b') d) = pt_stress p /\ exists pc' ee', st' = Some (LS_MCC pc' (Some sref) ee') /\ nth i pc' 0 = nth i pc 0.
Proof.
  intros m b pc sref ee dt b' st' i d Hr Hk E Hi p Hp Hy Hv.
  destruct (mcc_update_nth m b _ dt b' st' i E Hi d) as (pc1 & sref1 & ee1 & pc' & ee' & E1 & E2 & _ & A & _ & C). injection E1 as <- <- <-.
  fold p in A, C. assert (L0 : pt_L p = mzero) by (apply Hr, nth_In, Hi). rewrite L0 in A, C.
  set (s := pt_stress p) in *. set (q := nth i pc 0) in *. change (nth i pc n0) with q in A, C. set (e := nth i ee mzero) in *. set (t := mcc_trial m mzero e s q dt).
  assert (Zt : dt * mtrace mzero / mc_kap m = 0) by (mcbv; unfold Rdiv; ring).
  assert (Tp : mt_p t = mean3 s) by (unfold t; rewrite mt_p_eq, Zt, exp_0, Rmax_left by exact Hp; ring).
  assert (Ts : madd (mt_s t) (mscale (mt_p t) meye) = s).
  { rewrite Tp. unfold t, mcc_trial. cbn [mt_s]. unfold get_s. set (G := get_G _ _). clearbody G. change (@numt_num R NumT_R) with Num_R.
    assert (J : get_jaumann_increment s (get_spin_tensor mzero) dt = s) by (destruct s; meq). rewrite J, nmax_R, pressure_mean, Rmax_left by exact Hp.
    rewrite dev_stress_given. generalize (mean3 s). intro k. clear. destruct s. meq. }
  assert (Ty : mt_yf t <= 0) by (unfold t; rewrite C50_trial_yield by exact Hp; fold t; rewrite Ts; exact Hy).
  assert (M : fst (fst (mcc_stress m mzero e s q (nth i sref mzero) (mc_rho_p m / density p) dt)) = s /\
              snd (mcc_stress m mzero e s q (nth i sref mzero) (mc_rho_p m / density p) dt) = q).
  { clear A C. revert Hv. generalize (mc_rho_p m / density p). intros v Hv.
    unfold mcc_stress. cbv zeta. fold t. change ((v <=? mc_N m * lit 999999 1000000)%num) with (Rleb v (mc_N m * (999999 / 1000000))).
    change ((n0 <? mt_yf t)%num) with (Rltb 0 (mt_yf t)). rewrite (proj2 (Rleb_true _ _) Hv), (proj2 (Rltb_false _ _) Ty). cbn [fst snd]. split; [exact Ts|reflexivity]. }
  destruct M as (M1 & M2). split.
  - rewrite A, set_stress_stress. exact M1.
  - exists pc', ee'. split; [exact E2|]. change (nth i pc' n0) with (nth i pc' 0) in C. rewrite C. exact M2.
Qed.
Print Assumptions C105_cam_clay_partial.
(** FINDING: Drucker-Prager keeps the mean stress only; DruckerPragerState has no shear part to start from *)
Lemma dp_rest (m : DruckerPrager R) p0 rho dt acc : dp_rho0 m <= rho -> / 10 ^ 6 <= dp_mu1 m * p0 + dp_mu2 m * (dp_c0 m + dp_H m * acc) ->
  dp_stress m mzero mzero acc p0 rho dt = (spherical p0, mzero, acc).
Proof.
  intros Hr Hy. rewrite dp_stress_eq. unfold dp_branch. rewrite (proj2 (Rleb_true _ _) Hr). set (t := dp_trial m mzero mzero acc p0 dt).
  assert (Te : tr_eps t = mzero) by (unfold t, dp_trial; cbn [tr_eps]; meq).
  assert (Tp : tr_p t = p0) by (unfold t, dp_trial; cbn [tr_p]; mcbv; field).
  assert (Ts : tr_s t = mzero) by (unfold t, dp_trial; cbn [tr_s]; meq).
  assert (Tj : tr_sj t <= / 10 ^ 6).
  { unfold t. rewrite tr_sj_eq. fold t. rewrite Ts. replace (frob2 mzero / 2) with 0 by (mcbv; field). rewrite Rmax_right by (apply Rlt_le, Rinv_0_lt_compat; lra).
    replace (/ 10 ^ 12) with (/ 10 ^ 6 * / 10 ^ 6) by (field). rewrite sqrt_square by (apply Rlt_le, Rinv_0_lt_compat; lra). lra. }
  assert (Ty : tr_yf t <= 0) by (unfold t; rewrite tr_yf_eq; fold t; rewrite Tp; lra).
  rewrite (proj2 (Rltb_false _ _) Ty). unfold dp_elastic. rewrite Ts, Tp, Te. f_equal. f_equal. meq.
Qed.
Theorem C105_drucker_prager_partial : forall (m : DruckerPrager R) b dt b' st' i d, at_rest b ->
  law_update (LawDP m) b (Some (dp_create_state (map pt_stress (sb_pts b)))) dt = Ok (b', st') -> (i < length (sb_pts b))%nat ->
  let p := nth i (sb_pts b) d in let p0 := mean3 (pt_stress p) in
  dp_rho0 m <= density p -> / 10 ^ 6 <= dp_mu1 m * p0 + dp_mu2 m * dp_c0 m ->
  pt_stress (nth i (sb_pts b') d) = spherical p0.
Proof.
  intros m b dt b' st' i d Hr E Hi p p0 Hd Hy. destruct (dp_update_nth m b _ dt b' st' d i E Hi) as (ds & ds' & E1 & _ & _ & A).
  fold p in A. assert (L0 : pt_L p = mzero) by (apply Hr, nth_In, Hi). rewrite L0 in A.
  set (f := fun s : mat3 R => {| dp_eps_e := mzero; dp_acc := 0; dp_p0 := get_pressure s |}).
  assert (E3 : ds = map f (map pt_stress (sb_pts b))) by (change (Some (LS_DP (map f (map pt_stress (sb_pts b)))) = Some (LS_DP ds)) in E1; congruence).
  clear E1. subst ds. destruct (A (f (pt_stress d))) as (B & _).
  assert (N : nth i (map f (map pt_stress (sb_pts b))) (f (pt_stress d)) = f (pt_stress p)) by (unfold p; rewrite map_nth, map_nth; reflexivity).
  rewrite N in B. rewrite B, set_stress_stress. unfold f. cbn [dp_eps_e dp_acc dp_p0]. rewrite pressure_mean. fold p0.
  rewrite dp_rest; [reflexivity|exact Hd|]. rewrite Rmult_0_r, Rplus_0_r. exact Hy.
Qed.
Print Assumptions C105_drucker_prager_partial.
Lemma tiny16 : 0 < / 10 ^ 16 < / 10.
Proof.
  split; [apply Rinv_0_lt_compat, pow_lt; lra|]. apply Rinv_lt_contravar; [apply Rmult_lt_0_compat; [lra|apply pow_lt; lra]|].
  change (10 ^ 16) with (10 * 10 ^ 15). assert (1 < 10 ^ 15) by (apply Rlt_pow_R1; [lra|lia]). lra.
Qed.
Theorem C105_drucker_prager_refuted : exists (m : DruckerPrager R) b b' st', at_rest b /\
  (forall p, In p (sb_pts b) -> dp_rho0 m <= density p /\ symmetric (pt_stress p) /\ dp_yield (dp_mu1 m) (dp_mu2 m) (dp_c0 m) (dp_H m) (pt_stress p) 0 < 0) /\
  law_update (LawDP m) b (Some (dp_create_state (map pt_stress (sb_pts b)))) 1 = Ok (b', st') /\
  map pt_stress (sb_pts b') = [spherical 2] /\ map pt_stress (sb_pts b) = [mdiag 4 1 1].
Proof.
  set (b := soft [part mzero (mdiag 4 1 1) 2 1]).
  assert (Hd : forall p, In p (sb_pts b) -> 1 <= density p).
  { intros p [<-|[]]. unfold density. rewrite eps16. cbn [part pt_mass pt_vol]. pose proof tiny16.
    rnum. set (e := / 10 ^ 16) in *. clearbody e. apply (Rmult_le_reg_r (1 + e)); [lra|]. unfold Rdiv. rewrite Rmult_assoc, Rinv_l by lra. lra. }
  assert (Hr : at_rest b) by (intros p [<-|[]]; reflexivity).
  exists (clay 0 0), b. do 2 eexists. split; [exact Hr|]. split; [|split; [reflexivity|split; [|reflexivity]]].
  - intros p Hp. split; [apply Hd, Hp|]. destruct Hp as [<-|[]]. split; [mcbv; repeat split|]. unfold dp_yield, clay. cbn [dp_mu1 dp_mu2 dp_c0 dp_H part pt_stress].
    replace (J2_of (mdiag 4 1 1)) with 3 by (mcbv; field). replace (mean3 (mdiag 4 1 1)) with 2 by (mcbv; field).
    assert (sqrt 3 < 2). { replace 2 with (sqrt (2 * 2)) by (apply sqrt_square; lra). apply sqrt_lt_1; lra. } lra.
  - match goal with |- map pt_stress (sb_pts ?b') = _ => set (b1 := b') end.
    set (p := part mzero (mdiag 4 1 1) 2 1). 
    assert (E : law_update (LawDP (clay 0 0)) b (Some (dp_create_state (map pt_stress (sb_pts b)))) 1 = Ok (b1, snd (b1, match law_update (LawDP (clay 0 0)) b (Some (dp_create_state (map pt_stress (sb_pts b)))) 1 with Ok x => snd x | _ => None end))) by reflexivity.
    assert (X := C105_drucker_prager_partial (clay 0 0) b 1 b1 _ 0%nat p Hr E ltac:(unfold b; cbn; lia)). cbv zeta in X.
    assert (Y : map pt_stress (sb_pts b1) = [pt_stress (nth 0 (sb_pts b1) p)]) by reflexivity. rewrite Y, X.
    + f_equal. change (nth 0 (sb_pts b) p) with p. unfold p. cbn [part pt_stress]. f_equal. mcbv. field.
    + apply Hd. left. reflexivity.
    + unfold b, p, clay. cbn [soft sb_pts nth part pt_stress dp_mu1 dp_mu2 dp_c0]. replace (mean3 (mdiag 4 1 1)) with 2 by (mcbv; field).
      assert (/ 10 ^ 6 <= 1) by (rewrite <- Rinv_1; apply Rinv_le_contravar; [lra|apply pow_R1_Rle; lra]). lra.
Qed.
Print Assumptions C105_drucker_prager_refuted.
Example C105_case : let p := part mzero (spherical 100) 2000 1 in let b := soft [p] in
  at_rest b /\ mc_pmin kaolin <= mean3 (pt_stress p) /\ mcc_yield (mc_M kaolin) 200 (pt_stress p) <= 0 /\ mc_rho_p kaolin / density p <= mc_N kaolin * (999999 / 1000000) /\
  exists b' st', law_update (LawMCC kaolin) b (Some (LS_MCC [200] (Some [spherical 100]) [mzero])) 1 = Ok (b', st').
Proof.
  cbv zeta. split; [intros q [<-|[]]; reflexivity|]. cbn [part pt_stress kaolin mc_pmin mc_M mc_rho_p mc_N].
  assert (M : mean3 (spherical 100) = 100) by (mcbv; field). split; [lra|]. split.
  - unfold mcc_yield. rewrite M. replace (q_of (spherical 100)) with 0; [lra|]. unfold q_of. replace (_ * _) with 0 by (mcbv; field). symmetry. apply sqrt_0.
  - split; [|do 2 eexists; reflexivity]. unfold density. rewrite eps16. cbn [part pt_mass pt_vol].
    pose proof tiny16.
    rnum. set (e := / 10 ^ 16) in *. clearbody e. replace (2000 / (2000 / (1 + e))) with (1 + e) by (field; lra). lra.
Qed.

(** *** C106: the three other ways of making a Cam-Clay state *)
(** FINDING: modifiedcamclay.py 241-243 takes the absolute value of the distance to the yield surface, so a shear stress
    strictly inside is replaced by the one on the surface as well. *)
Theorem C106_shear_partial : forall (m : MCC R) p ocr qs st stress rho i, 0 < mc_M m -> mcc_create_from_ocr m p ocr (Some qs) = Ok (st, stress, rho) ->
  (i < length p)%nat -> 0 < nth i p 0 -> 1 <= nth i ocr 0 -> q_of (nth i stress mzero) = mc_M m * sqrt (nth i ocr 0 - 1) * nth i p 0.
Proof.
  intros m p ocr qs st stress rho i M E Hi Hp Ho. unfold mcc_create_from_ocr in E. destruct (_ && _)%bool; [|discriminate]. cbv zeta in E.
  set (f := fun i => mcc_from_ocr1 m (nth i p n0) (nth i ocr n0) (Some (nth i qs n0))) in E.
  change (map _ (seq 0 (length p))) with (map f (seq 0 (length p))) in E. injection E as _ E2 _.
  assert (X : nth i stress mzero = snd (fst (f i))).
  { rewrite <- E2. rewrite (nth_indep _ mzero (snd (fst (f 0%nat)))) by (rewrite !map_length, seq_length; exact Hi).
    rewrite (map_nth (fun x => snd (fst x))), (map_nth f), seq_nth by exact Hi. reflexivity. }
  rewrite X. unfold f, mcc_from_ocr1. cbn [fst snd]. change (@numt_num R NumT_R) with Num_R. change (@n0 R Num_R) with 0.
  set (P := nth i p 0) in *. set (O := nth i ocr 0) in *. set (q0 := nth i qs 0).
  assert (Y : (if n0 <? nabs (q0 / P - get_qp_ys (P * O) P (mc_M m)) then get_qp_ys (P * O) P (mc_M m) else q0 / P)%num = mc_M m * sqrt (O - 1)).
  { rewrite nabs_R. unfold get_qp_ys. rnum. replace (P * O / P - 1) with (O - 1) by (field; lra). rcase; [reflexivity|].
    pose proof (Rabs_pos (q0 / P - mc_M m * sqrt (O - 1))). destruct (Req_dec (q0 / P - mc_M m * sqrt (O - 1)) 0) as [Z|Z]; [lra|]. apply Rabs_no_R0 in Z. lra. }
  assert (Z : forall q, q_of (reconstruct_stress_from_triaxial P q) = Rabs q).
  { intro q. pose proof (triaxial_q P q) as W. rewrite q_vm_ok in W. injection W; auto. }
  change (@numt_num R NumT_R) with Num_R in Y. rewrite Z. 
  etransitivity; [|apply Rabs_right, Rle_ge, Rmult_le_pos; [apply Rmult_le_pos; [lra|apply sqrt_pos]|lra]]. f_equal. exact (f_equal (fun z => z * P) Y).
Qed.
Print Assumptions C106_shear_partial.
Theorem C106_shear_refuted : exists (m : MCC R) st stress rho, mcc_create_from_ocr m [100] [2] (Some [50]) = Ok (st, stress, rho) /\
  mcc_yield (mc_M m) 200 (reconstruct_stress_from_triaxial 100 50) < 0 /\ q_of (nth 0 stress mzero) = 100.
Proof.
  exists kaolin. do 3 eexists. split; [reflexivity|]. split.
  - unfold mcc_yield. replace (q_of (reconstruct_stress_from_triaxial 100 50)) with 50.
    + replace (mean3 (reconstruct_stress_from_triaxial 100 50)) with 100 by (mcbv; field). unfold kaolin. cbn [mc_M]. lra.
    + pose proof (triaxial_q 100 50) as W. rewrite q_vm_ok in W. injection W as W. rewrite W. symmetry. apply Rabs_right. lra.
  - etransitivity; [eapply (C106_shear_partial kaolin [100] [2] [50] _ _ _ 0%nat); [unfold kaolin; cbn [mc_M]; lra|reflexivity|cbn; lia|cbn [nth]; lra|cbn [nth]; lra]|].
    cbn [nth]. replace (2 - 1) with 1 by ring. rewrite sqrt_1. unfold kaolin. cbn [mc_M]. lra.
Qed.
Print Assumptions C106_shear_refuted.
Definition on_swelling_line (m : MCC R) (v pc p : R) : Prop := ln v = ln (mc_N m) - mc_lam m * ln (pc / mc_pref m) + mc_kap m * ln (pc / p).
Theorem C106_from_stress : forall (m : MCC R) p q st rho i, 0 < mc_M m -> 0 < mc_N m -> 0 < mc_pref m -> 0 < mc_rho_p m ->
  mcc_create_from_stress m p q = Ok (st, rho) -> (i < length p)%nat -> 0 < nth i p 0 ->
  exists pcs ee, st = LS_MCC pcs None ee /\
  let pc := nth i pcs 0 in let s := reconstruct_stress_from_triaxial (nth i p 0) (nth i q 0) in
  mcc_yield (mc_M m) pc s = 0 /\ 0 < nth i rho 0 /\ on_swelling_line m (mc_rho_p m / nth i rho 0) pc (nth i p 0).
Proof.
  intros m p q st rho i M N Pr Rp E Hi Hp. unfold mcc_create_from_stress in E. destruct (Nat.eqb_spec (length q) (length p)) as [El|]; [|discriminate].
  cbv zeta in E. set (f := fun x : R * R => mcc_pc_from_stress m (fst x) (snd x)) in E. change (map (fun x => mcc_pc_from_stress m (fst x) (snd x)) (combine p q)) with (map f (combine p q)) in E.
  set (P := nth i p 0) in *. set (Q := nth i q 0).
  assert (Np : nth i (map f (combine p q)) 0 = f (P, Q)).
  { rewrite (nth_indep _ 0 (f (0, 0))) by (rewrite map_length, combine_length, El, Nat.min_id; exact Hi). rewrite map_nth, combine_nth by (symmetry; exact El). reflexivity. }
  set (g := fun x : R * R => mc_rho_p m / get_v_sl (fst x) (snd x) (mc_pref m) (mc_N m) (mc_lam m) (mc_kap m)).
  assert (Er : rho = map g (combine (map f (combine p q)) p)) by (injection E as _ E2; symmetry; exact E2).
  assert (Nr : nth i rho 0 = g (f (P, Q), P)).
  { rewrite Er. rewrite (nth_indep _ 0 (g (0, 0))) by (rewrite map_length, combine_length, map_length, combine_length, El, !Nat.min_id; exact Hi).
    rewrite map_nth, combine_nth by (rewrite map_length, combine_length, El, Nat.min_id; reflexivity). rewrite Np. reflexivity. }
  exists (map f (combine p q)), (map (fun _ => mzero) p). split; [injection E as E1 _; symmetry; exact E1|]. cbv zeta. rewrite Np, Nr.
  set (pc := f (P, Q)). assert (Epc : pc = P * (Q / P / mc_M m * (Q / P / mc_M m) + 1)) by reflexivity.
  assert (Pc : 0 < pc). { rewrite Epc. apply Rmult_lt_0_compat; [exact Hp|]. pose proof (Rle_0_sqr (Q / P / mc_M m)) as S. unfold Rsqr in S. lra. }
  set (V := mc_N m * Rpower (mc_pref m / pc) (mc_lam m) * Rpower (pc / P) (mc_kap m)).
  assert (Eg : g (pc, P) = mc_rho_p m / V) by reflexivity.
  assert (HV : 0 < V) by (unfold V; repeat apply Rmult_lt_0_compat; try assumption; apply pow_pos). rewrite Eg. split; [|split].
  - unfold mcc_yield. assert (Eq : q_of (reconstruct_stress_from_triaxial P Q) = Rabs Q). { pose proof (triaxial_q P Q) as W. rewrite q_vm_ok in W. injection W; auto. }
    rewrite Eq. replace (mean3 (reconstruct_stress_from_triaxial P Q)) with P by (rewrite <- pressure_mean, triaxial_pressure; reflexivity).
    rewrite <- Rabs_mult, Rabs_right by (apply Rle_ge, Rle_0_sqr). rewrite Epc. field. split; lra.
  - apply Rdiv_lt_0_compat; assumption.
  - unfold on_swelling_line. replace (mc_rho_p m / (mc_rho_p m / V)) with V by (field; split; lra). unfold V.
    rewrite !ln_mult, !ln_pow; try apply pow_pos; try assumption; [|apply Rmult_lt_0_compat; [assumption|apply pow_pos]].
    replace (pc / mc_pref m) with (/ (mc_pref m / pc)) by (field; lra). rewrite ln_Rinv by (apply Rdiv_lt_0_compat; assumption). ring.
Qed.
Print Assumptions C106_from_stress.
Theorem C106_from_density : forall (m : MCC R) p rho st v i, mc_kap m < mc_lam m -> 0 < mc_N m -> 0 < mc_pref m -> 0 < mc_rho_p m ->
  mcc_create_from_density m p rho = Ok (st, v) -> (i < length p)%nat -> 0 < nth i p 0 -> 0 < nth i rho 0 ->
  exists pcs ee, st = LS_MCC pcs None ee /\ 0 < nth i pcs 0 /\ nth i v 0 = mc_rho_p m / nth i rho 0 /\ on_swelling_line m (nth i v 0) (nth i pcs 0) (nth i p 0).
Proof.
  intros m p rho st v i K N Pr Rp E Hi Hp Hr. unfold mcc_create_from_density in E. destruct (Nat.eqb_spec (length rho) (length p)) as [El|]; [|discriminate].
  set (f := fun x : R * R => mcc_pc_from_density m (fst x) (snd x)) in E.
  assert (Np : nth i (map f (combine p rho)) 0 = f (nth i p 0, nth i rho 0)).
  { rewrite (nth_indep _ 0 (f (0, 0))) by (rewrite map_length, combine_length, El, Nat.min_id; exact Hi). rewrite map_nth, combine_nth by (symmetry; exact El). reflexivity. }
  assert (Nv : nth i v 0 = mc_rho_p m / nth i rho 0).
  { assert (Ev : v = map (fun r => mc_rho_p m / r) rho) by (injection E as _ E2; symmetry; exact E2). rewrite Ev.
    rewrite (nth_indep _ 0 (mc_rho_p m / 0)) by (rewrite map_length, El; exact Hi). apply (map_nth (fun r => mc_rho_p m / r)). }
  exists (map f (combine p rho)), (map (fun _ => mzero) p). split; [injection E as E1 _; symmetry; exact E1|]. rewrite Np, Nv.
  set (P := nth i p 0) in *. set (r := nth i rho 0) in *. set (V := mc_rho_p m / r). assert (HV : 0 < V) by (apply Rdiv_lt_0_compat; assumption).
  set (A := mc_N m * Rpower (mc_pref m) (mc_lam m) / (V * Rpower P (mc_kap m))).
  assert (Ef : f (P, r) = Rpower A (1 / (mc_lam m - mc_kap m))) by reflexivity. rewrite Ef.
  set (pc := Rpower A _). assert (Pc : 0 < pc) by apply pow_pos. split; [exact Pc|]. split; [reflexivity|].
  assert (LA : ln A = ln (mc_N m) + mc_lam m * ln (mc_pref m) - (ln V + mc_kap m * ln P)).
  { unfold A. rewrite ln_div by (apply Rmult_lt_0_compat; [assumption|apply pow_pos]). rewrite !ln_mult, !ln_pow; try apply pow_pos; try assumption. reflexivity. }
  assert (Lp : (mc_lam m - mc_kap m) * ln pc = ln A) by (unfold pc; rewrite ln_pow; field; lra).
  unfold on_swelling_line. rewrite !ln_div by assumption. lra.
Qed.
Print Assumptions C106_from_density.
(** FINDING: neither of these states carries a reference stress, which every update reads; and create_state itself raises *)
Theorem C106_unusable_refuted : forall (m : MCC R) st, (exists p q rho, mcc_create_from_stress m p q = Ok (st, rho)) \/ (exists p rho v, mcc_create_from_density m p rho = Ok (st, v)) ->
  forall b dt, law_update (LawMCC m) b (Some st) dt = Err TypeError /\ mcc_create_state m b = Err TypeError.
Proof.
  intros m st [(p & q & rho & E)|(p & rho & v & E)] b dt; (split; [|reflexivity]).
  - unfold mcc_create_from_stress in E. destruct (Nat.eqb _ _); [|discriminate]. injection E as <- _. reflexivity.
  - unfold mcc_create_from_density in E. destruct (Nat.eqb _ _); [|discriminate]. injection E as <- _. reflexivity.
Qed.
Print Assumptions C106_unusable_refuted.
Example C106_case : (exists st rho, mcc_create_from_stress kaolin [100] [50] = Ok (st, rho)) /\ (exists st v, mcc_create_from_density kaolin [100] [1200] = Ok (st, v)) /\
  0 < nth 0 [100] 0 /\ mc_kap kaolin < mc_lam kaolin.
Proof. split; [do 2 eexists; reflexivity|]. split; [do 2 eexists; reflexivity|]. cbn [nth kaolin mc_kap mc_lam]. split; lra. Qed.
