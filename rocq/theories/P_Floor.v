(** The bumpy floor of projects/lorentz_collapse (C135). *)
From Coquelicot Require Import Coquelicot.
From Coq Require Import List Arith ZArith Reals Bool Lra Lia.
From Verif Require Import Num NumR Linalg Arrays ModelGrid ModelShape ModelMath ModelState ModelLaws ModelSDF ModelForces ModelSolver ModelCollapse Sums
  FloorProofs.
Import ListNotations.
Local Open Scope R_scope.

Lemma exp_mono x y : x <= y -> exp x <= exp y.
Proof. intros [L| ->]; [apply Rlt_le, exp_increasing, L|apply Rle_refl]. Qed.

(** The spectrum: as many harmonics as asked for, wavelengths from the longest to the shortest, a power law in
    the wavenumber, and mean square sum of A^2/2 equal to the square of the asked height. *)
Theorem C135_spectrum : forall n hurst lmin lmax rms base key,
  (1 <= n)%nat -> 0 < lmin -> lmin <= lmax ->
  let w := sp_waves (@spectral R NumT_R n hurst lmin lmax rms base key) in
  length w = n /\
  (forall h, nth_error w 0 = Some h -> 2 * PI / hm_k h = lmax) /\
  (forall h, nth_error w (n - 1) = Some h -> (2 <= n)%nat -> 2 * PI / hm_k h = lmin) /\
  (forall h, In h w -> 0 < hm_k h /\ lmin <= 2 * PI / hm_k h <= lmax) /\
  (forall i j h g, (i < j)%nat -> nth_error w i = Some h -> nth_error w j = Some g -> lmin < lmax -> hm_k h < hm_k g) /\
  (forall h g, In h w -> In g w -> hm_amp h * Rpower (hm_k h) (hurst + 1/2) = hm_amp g * Rpower (hm_k g) (hurst + 1/2)) /\
  sumR (fun h => hm_amp h * hm_amp h) w / 2 = rms * rms.
Proof.
  intros n hurst lmin lmax rms base key N Hl Hll w. unfold w. rewrite spectral_R. clear w.
  pose proof PI_RGT_0 as HP.
  set (hh := fun i => {| hm_amp := raw n hurst lmin lmax i * (rms / raw_rms n hurst lmin lmax); hm_k := wavenumber n lmin lmax i;
                   hm_phase := (2 * PI * frac n i) * IZR key |}).
  assert (NE : forall i h, nth_error (map hh (seq 0 n)) i = Some h -> (i < n)%nat /\ h = hh i).
  { intros i h E. assert (i < n)%nat by (rewrite <- (seq_length n 0), <- (map_length hh); apply nth_error_Some; congruence).
    split; [assumption|]. rewrite nth_error_map, nth_error_nth' with (d := O) in E by (rewrite seq_length; assumption).
    rewrite seq_nth in E by assumption. simpl in E. congruence. }
  assert (LE : ln (2 * PI / lmax) <= ln (2 * PI / lmin)).
  { apply ln_le; [apply Rdiv_lt_0_compat; lra|]. unfold Rdiv. apply Rmult_le_compat_l; [lra|]. apply Rinv_le_contravar; lra. }
  assert (E1 : exp (ln (2 * PI / lmax)) = 2 * PI / lmax) by (apply exp_ln, Rdiv_lt_0_compat; lra).
  assert (E2 : exp (ln (2 * PI / lmin)) = 2 * PI / lmin) by (apply exp_ln, Rdiv_lt_0_compat; lra).
  assert (LO : 0 < 2 * PI / lmax) by (apply Rdiv_lt_0_compat; lra).
  assert (HI : 0 < 2 * PI / lmin) by (apply Rdiv_lt_0_compat; lra).
  split; [rewrite map_length; apply seq_length|]. split; [|split; [|split; [|split; [|split]]]].
  - intros h E. destruct (NE _ _ E) as (I & ->). cbn [hm_k hh]. unfold wavenumber, frac. replace (INR 0 / INR (n - 1)) with 0 by (simpl; unfold Rdiv; ring). rewrite Rmult_0_r, Rminus_0_r, Rmult_1_r, Rplus_0_r, E1. field. lra.
  - intros h E N2. destruct (NE _ _ E) as (I & ->). cbn [hm_k hh]. unfold wavenumber, frac.
    assert (0 < INR (n - 1)) by (apply lt_0_INR; lia).
    replace (INR (n - 1) / INR (n - 1)) with 1 by (field; lra). rewrite Rminus_eq_0, Rmult_0_r, Rmult_1_r, Rplus_0_l, E2. field. lra.
  - intros h E. apply in_map_iff in E. destruct E as (i & <- & I). apply in_seq in I. cbn [hm_k hh].
    destruct (frac_range n i ltac:(lia)) as (F1 & F2). set (t := frac n i) in *.
    assert (W : 2 * PI / lmax <= wavenumber n lmin lmax i <= 2 * PI / lmin).
    { unfold wavenumber. fold t. split.
      - rewrite <- E1 at 1. apply exp_mono. nra.
      - rewrite <- E2 at 2. apply exp_mono. nra. }
    split; [lra|]. split.
    + apply (Rmult_le_reg_r (wavenumber n lmin lmax i)); [lra|]. replace (2 * PI / wavenumber n lmin lmax i * wavenumber n lmin lmax i) with (2 * PI) by (field; lra).
      apply Rle_trans with (lmin * (2 * PI / lmin)); [apply Rmult_le_compat_l; lra|]. right. field. lra.
    + apply (Rmult_le_reg_r (wavenumber n lmin lmax i)); [lra|]. replace (2 * PI / wavenumber n lmin lmax i * wavenumber n lmin lmax i) with (2 * PI) by (field; lra).
      apply Rle_trans with (lmax * (2 * PI / lmax)); [right; field; lra|]. apply Rmult_le_compat_l; lra.
  - intros i j h g IJ E F LL. destruct (NE _ _ E) as (I & ->). destruct (NE _ _ F) as (J & ->). cbn [hm_k hh]. unfold wavenumber. apply exp_increasing.
    pose proof (frac_lt n i j ltac:(lia)).
    assert (ln (2 * PI / lmax) < ln (2 * PI / lmin)).
    { apply ln_increasing; [lra|]. unfold Rdiv. apply Rmult_lt_compat_l; [lra|]. apply Rinv_lt_contravar; [nra|lra]. }
    nra.
  - intros h g E F. apply in_map_iff in E. destruct E as (i & <- & _). apply in_map_iff in F. destruct F as (j & <- & _). cbn [hm_amp hm_k hh].
    assert (forall i, raw n hurst lmin lmax i * Rpower (wavenumber n lmin lmax i) (hurst + 1/2) = 1).
    { intro k. unfold raw. rewrite <- Rpower_plus. replace (- (hurst + 1/2) + (hurst + 1/2)) with 0 by ring.
      apply Rpower_O. apply exp_pos. }
    rewrite !(Rmult_comm (raw _ _ _ _ _)), !Rmult_assoc, !H. reflexivity.
  - rewrite sumR_map. cbn [hm_amp hh]. destruct (raw_rms_sq n hurst lmin lmax N) as (Q0 & Q).
    rewrite (sumR_ext_all _ (fun i => (rms / raw_rms n hurst lmin lmax) * (rms / raw_rms n hurst lmin lmax) * (raw n hurst lmin lmax i * raw n hurst lmin lmax i)))
      by (intro; ring).
    rewrite sumR_scal. set (q := raw_rms n hurst lmin lmax) in *. set (sg := sumR _ _) in *.
    assert (SG : sg = 2 * (q * q)) by lra. rewrite SG. field. lra.
Qed.

(** "RMS of sum of sines": the mean square of the waves over [0, L] tends to the square of the asked height, when
    there is one harmonic or a range of wavelengths. *)
Theorem C135_rms : forall n hurst lmin lmax rms base key,
  (1 <= n)%nat -> 0 < lmin -> lmin <= lmax -> (n = 1%nat \/ lmin < lmax) ->
  exists B, forall L, 0 < L ->
    ex_RInt (fun x => Rsqr (bump_waves (@spectral R NumT_R n hurst lmin lmax rms base key) x)) 0 L /\
    Rabs (RInt (fun x => Rsqr (bump_waves (@spectral R NumT_R n hurst lmin lmax rms base key) x)) 0 L / L - rms * rms) <= B / L.
Proof.
  intros n hurst lmin lmax rms base key N Hl Hll D.
  destruct (C135_spectrum n hurst lmin lmax rms base key N Hl Hll) as (W1 & _ & _ & W4 & W5 & _ & W7).
  set (s := spectral n hurst lmin lmax rms base key) in *. cbv zeta in *.
  assert (ND : NoDup (map hm_k (sp_waves s))).
  { rewrite (NoDup_nth_error (map hm_k (sp_waves s))). intros i j I E. rewrite map_length, W1 in I. rewrite !nth_error_map in E.
    assert (I' : (i < length (sp_waves s))%nat) by lia.
    destruct (nth_error (sp_waves s) i) as [h|] eqn:Ei; [|apply nth_error_None in Ei; lia].
    destruct (nth_error (sp_waves s) j) as [g|] eqn:Ej; [|discriminate]. cbn in E. injection E as E.
    assert (J : (j < n)%nat) by (rewrite <- W1; apply nth_error_Some; congruence).
    destruct (Nat.lt_trichotomy i j) as [L|[L|L]]; [|exact L|]; destruct D as [D|D]; try lia.
    - pose proof (W5 i j h g L Ei Ej D). lra.
    - pose proof (W5 j i g h L Ej Ei D). lra. }
  pose proof (almost_square (sp_waves s) ND (fun h Hh => proj1 (W4 h Hh))) as A. rewrite W7 in A.
  assert (A' : almost (fun x => Rsqr (bump_waves s x)) (rms * rms)).
  { revert A. apply almost_ext. intro x. unfold Rsqr. rewrite waves_R. reflexivity. }
  destruct (almost_RInt _ _ (fun x => ltac:(
     apply (ex_derive_continuous (V := R_NormedModule)); eexists; unfold Rsqr; apply is_derive_mult; [apply waves_derive|apply waves_derive|intros; apply Rmult_comm])) A') as (B & HB).
  exists B. intros L PL. destruct (HB L) as (X & Y). split; [exact X|].
  match goal with |- Rabs (?I / L - _) <= _ => replace (I / L - rms * rms) with ((I - rms * rms * L) / L) by (field; lra) end.
  unfold Rdiv. rewrite Rabs_mult, Rabs_inv, (Rabs_pos_eq L) by lra. apply Rmult_le_compat_r; [apply Rlt_le, Rinv_0_lt_compat, PL|exact Y].
Qed.
(** With one wavelength and two harmonics the two are the same sine: the waves are rougher than asked. *)
Theorem C135_rms_refuted : forall hurst lam rms base, 0 < lam -> 0 < rms ->
  ~ (exists B, forall L, 0 < L ->
    Rabs (RInt (fun x => Rsqr (bump_waves (@spectral R NumT_R 2 hurst lam lam rms base 0) x)) 0 L / L - rms * rms) <= B / L).
Proof.
  intros hurst lam rms base Hl Hr (B & HB). pose proof PI_RGT_0 as HP.
  set (s := spectral 2 hurst lam lam rms base 0) in *.
  set (k := 2 * PI / lam). assert (K : 0 < k) by (apply Rdiv_lt_0_compat; lra).
  assert (Wk : forall i, wavenumber 2 lam lam i = k).
  { intro i. unfold wavenumber. replace (ln (2 * PI / lam) * (1 - frac 2 i) + ln (2 * PI / lam) * frac 2 i) with (ln (2 * PI / lam)) by ring. apply exp_ln, K. }
  set (a := Rpower k (- (hurst + 1/2))). assert (Pa : 0 < a) by apply exp_pos.
  assert (Ra : forall i, raw 2 hurst lam lam i = a) by (intro; unfold raw; rewrite Wk; reflexivity).
  assert (Rr : raw_rms 2 hurst lam lam = a).
  { unfold raw_rms. cbn [seq]. rewrite !sumR_cons, sumR_nil, !Ra. replace ((a * a + (a * a + 0)) / 2) with (a * a) by field. apply sqrt_square. lra. }
  assert (Ww : forall x, bump_waves s x = 2 * rms * sin (k * x + 0)).
  { intro x. unfold s. rewrite waves_R, spectral_R. cbn [seq map]. rewrite !sumR_cons, sumR_nil. cbn [hm_amp hm_k hm_phase].
    rewrite !Wk, !Ra, Rr, !Rmult_0_r. field. lra. }
  assert (A : almost (fun x => Rsqr (bump_waves s x)) ((2 * rms) * (2 * rms) * (1/2))).
  { apply (almost_ext (fun x => (2 * rms) * (2 * rms) * (sin (k * x + 0) * sin (k * x + 0)))); [intro x; rewrite Ww; unfold Rsqr; ring|].
    apply almost_scal, almost_sin2. lra. }
  destruct (almost_RInt _ _ (fun x => ltac:(
     apply (ex_derive_continuous (V := R_NormedModule)); eexists; unfold Rsqr; apply is_derive_mult; [apply waves_derive|apply waves_derive|intros; apply Rmult_comm])) A) as (C & HC).
  assert (LL : forall L, 0 < L -> rms * rms * L <= Rabs B + Rabs C).
  { intros L PL. specialize (HB L PL). destruct (HC L) as (_ & Y). set (I := RInt _ _ _) in *.
    assert (X : Rabs (I - rms * rms * L) <= Rabs B).
    { replace (I - rms * rms * L) with (L * (I / L - rms * rms)) by (field; lra). rewrite Rabs_mult, (Rabs_pos_eq L) by lra.
      apply Rle_trans with B; [|apply RRle_abs]. replace B with (L * (B / L)) by (field; lra). apply Rmult_le_compat_l; lra. }
    pose proof (RRle_abs C). apply Rabs_le_between in X. apply Rabs_le_between in Y. nra. }
  assert (R2 : 0 < rms * rms) by nra. set (M := Rabs B + Rabs C) in *. assert (0 <= M) by (unfold M; pose proof (Rabs_pos B); pose proof (Rabs_pos C); lra).
  specialize (LL ((M + 1) / (rms * rms)) ltac:(apply Rdiv_lt_0_compat; lra)).
  replace (rms * rms * ((M + 1) / (rms * rms))) with (M + 1) in LL by (field; lra). lra.
Qed.

(** The relief: everything above base + sum |A| is air, everything below base - sum |A| is floor, and the relief is
    at most sqrt(2 n) times the asked height. *)
Lemma ramp_R F xr : @ramp R NumT_R F xr = Rmin (Rmax (xr / fl_width F) 0) 1.
Proof. unfold ramp, nclip. rewrite nmin_R, nmax_R. reflexivity. Qed.
Lemma ramp_range F xr : 0 <= @ramp R NumT_R F xr <= 1.
Proof.
  rewrite ramp_R. set (t := xr / fl_width F). split; [apply Rmin_glb; [apply Rmax_r|lra]|apply Rmin_r].
Qed.
Lemma height_cases F b x : @floor_height R NumT_R F b x =
  if Rlt_dec (fl_xmax F) x then sp_base b + bump_waves b (x - fl_xmax F)
  else sp_base b + bump_waves b (x - fl_xmin F) * ramp F (x - fl_xmin F).
Proof. unfold floor_height. change (@nltb R _ ?x ?y) with (Rltb x y). unfold Rltb. destruct (Rlt_dec _ _); reflexivity. Qed.
Lemma height_bound F b x : Rabs (@floor_height R NumT_R F b x - sp_base b) <= @max_h R NumT_R b.
Proof.
  rewrite height_cases. destruct (Rlt_dec _ _).
  - replace (sp_base b + bump_waves b (x - fl_xmax F) - sp_base b) with (@bump_waves R NumT_R b (x - fl_xmax F)) by ring. apply waves_bound.
  - set (r := ramp _ _). set (w := bump_waves b (x - fl_xmin F)). replace (sp_base b + w * r - sp_base b) with (w * r) by ring.
    rewrite Rabs_mult. pose proof (ramp_range F (x - fl_xmin F)) as HR. fold r in HR. pose proof (waves_bound b (x - fl_xmin F)) as HW. fold w in HW.
    rewrite (Rabs_pos_eq r) by lra. pose proof (Rabs_pos w). nra.
Qed.
Theorem C135_relief : forall (F : Floor R) (b : Spectral R) f st p,
  let A := sumR (fun h => Rabs (hm_amp h)) (sp_waves b) in
  (sp_base b + A < vy p -> 0 < sl_dist (floor_logic F b f) st p) /\
  (vy p < sp_base b - A -> sl_dist (floor_logic F b f) st p < 0) /\
  (forall n hurst lmin lmax rms base key, (1 <= n)%nat -> 0 < lmin -> lmin <= lmax -> b = spectral n hurst lmin lmax rms base key ->
     A <= Rabs rms * sqrt (2 * INR n)).
Proof.
  intros F b f st p A. cbn [sl_dist floor_logic]. unfold floor_dist.
  pose proof (height_bound F b (vx p)) as HB. rewrite max_h_R in HB. fold A in HB. apply Rabs_le_between in HB.
  change (@nsub R _ ?x ?y) with (x - y).
  split; [intros; lra|]. split; [intros; lra|].
  intros n hurst lmin lmax rms base key N Hl Hll E.
  destruct (C135_spectrum n hurst lmin lmax rms base key N Hl Hll) as (W1 & _ & _ & _ & _ & _ & W7). rewrite <- E in W1, W7.
  assert (PA : 0 <= A) by (apply sumR_nonneg; intros; apply Rabs_pos).
  pose proof (cauchy_sum (fun h => Rabs (hm_amp h)) (sp_waves b)) as C. fold A in C. rewrite W1 in C.
  rewrite (sumR_ext_all (fun a => Rabs (hm_amp a) * Rabs (hm_amp a)) (fun a => hm_amp a * hm_amp a)) in C by (intro; rewrite <- Rabs_mult; apply Rabs_pos_eq, Rle_0_sqr).
  assert (C2 : A * A <= rms * rms * (2 * INR n)) by nra.
  rewrite <- (sqrt_square A) by exact PA. rewrite <- (sqrt_Rsqr_abs rms). rewrite <- sqrt_mult; [apply sqrt_le_1_alt; exact C2|apply Rle_0_sqr|].
  pose proof (pos_INR n). lra.
Qed.

Lemma dramp_out F xr : xr / fl_width F < 0 \/ 1 < xr / fl_width F -> @dramp R NumT_R F xr = 0.
Proof. intro O. unfold dramp. rnum. repeat rcase; cbn [orb]; try (unfold Rdiv; ring); exfalso; lra. Qed.
Lemma dramp_in F xr : 0 < xr / fl_width F < 1 -> @dramp R NumT_R F xr = / fl_width F.
Proof. intro O. unfold dramp. rnum. repeat rcase; cbn [orb]; try (unfold Rdiv; ring); exfalso; lra. Qed.
(** Under the column, up to x_min, the floor is the plane y = base. *)
Theorem C135_flat : forall (F : Floor R) (b : Spectral R) f st p, 0 < fl_width F -> fl_xmin F <= fl_xmax F -> vx p <= fl_xmin F ->
  sl_dist (floor_logic F b f) st p = vy p - sp_base b /\
  (vx p < fl_xmin F -> sl_normal (floor_logic F b f) st p = V3 0 (1 / (1 + 1 / 10 ^ 12)) 0).
Proof.
  intros F b f st p W X P. cbn [sl_dist sl_normal floor_logic]. unfold floor_dist, floor_normal.
  assert (T0 : (vx p - fl_xmin F) / fl_width F <= 0).
  { apply (Rmult_le_reg_r (fl_width F)); [exact W|]. unfold Rdiv. rewrite Rmult_assoc, Rinv_l by lra. lra. }
  assert (R0 : @ramp R NumT_R F (vx p - fl_xmin F) = 0).
  { rewrite ramp_R. rewrite Rmax_right by exact T0. apply Rmin_left. lra. }
  split.
  - rewrite height_cases. destruct (Rlt_dec _ _); [lra|]. rewrite R0. change (@nsub R _ ?x ?y) with (x - y). ring.
  - intro Q. assert (T1 : (vx p - fl_xmin F) / fl_width F < 0).
    { apply (Rmult_lt_reg_r (fl_width F)); [exact W|]. unfold Rdiv. rewrite Rmult_assoc, Rinv_l by lra. lra. }
    assert (SL : @floor_slope R NumT_R F b (vx p) = 0).
    { unfold floor_slope. change (@nltb R _ ?x ?y) with (Rltb x y). unfold Rltb at 1. destruct (Rlt_dec _ _); [lra|].
      change (@nsub R _ ?x ?y) with (x - y). rewrite R0, (dramp_out F (vx p - fl_xmin F)) by (left; exact T1). rnum. ring. }
    rewrite SL. unfold vdivs, vnorm, vnorm2, vdot. cbn [vx vy vz vmap]. rnum. 
    replace (- 0 * - 0 + 1 * 1 + 0 * 0) with 1 by ring. rewrite sqrt_1.
    replace (IZR (10 ^ 12)) with (10 ^ 12) by (change (IZR (10 ^ 12)) with (IZR (10 ^ Z.of_nat 12)); rewrite <- pow_IZR; reflexivity).
    assert (0 < 1 / 10 ^ 12) by (apply Rdiv_lt_0_compat; [lra|apply pow_lt; lra]). f_equal; field; split; try lra; apply pow_nonzero; lra.
Qed.

(** The profile: the waves fade in linearly from x_min over the transition width, are whole from there to x_max, and
    start again at x_max. *)
Definition sines (b : Spectral R) (x : R) : R := sumR (fun h => hm_amp h * sin (hm_k h * x + hm_phase h)) (sp_waves b).
Theorem C135_profile : forall (F : Floor R) (b : Spectral R) f st p, 0 < fl_width F ->
  let d := sl_dist (floor_logic F b f) st p in let x := vx p in let lo := fl_xmin F in let w := fl_width F in
  (lo <= x <= lo + w -> x <= fl_xmax F -> d = vy p - (sp_base b + (x - lo) / w * sines b (x - lo))) /\
  (lo + w <= x <= fl_xmax F -> d = vy p - (sp_base b + sines b (x - lo))) /\
  (fl_xmax F < x -> d = vy p - (sp_base b + sines b (x - fl_xmax F))) /\
  (forall s, f = Some s -> sl_friction (floor_logic F b f) st p =
     Rmax (1 / 10 ^ 6) (sp_base s + sines s (x - if Rlt_dec (fl_xmax F) x then fl_xmax F else lo))).
Proof.
  intros F b f st p W d x lo w. unfold d, x, lo, w. cbn [sl_dist sl_friction floor_logic]. unfold floor_dist. rewrite height_cases, ramp_R.
  change (@nsub R _ ?x ?y) with (x - y). rewrite !waves_R. fold (sines b (vx p - fl_xmax F)) (sines b (vx p - fl_xmin F)).
  assert (D : (vx p - fl_xmin F) / fl_width F * fl_width F = vx p - fl_xmin F) by (field; lra).
  set (q := (vx p - fl_xmin F) / fl_width F) in *. split; [|split; [|split]].
  - intros (X1 & X2) X3. destruct (Rlt_dec _ _); [lra|]. assert (0 <= q <= 1) by nra. rewrite Rmax_left by lra. rewrite Rmin_left by lra. ring.
  - intros (X1 & X2). destruct (Rlt_dec _ _); [lra|]. assert (1 <= q) by nra. rewrite Rmax_left by lra. rewrite Rmin_right by lra. ring.
  - intros X. destruct (Rlt_dec _ _); [reflexivity|lra].
  - intros s Hs. subst f. unfold floor_friction. rewrite nmax_R. f_equal.
    + unfold lit; rnum; f_equal; change (10 ^ 6)%Z with (10 ^ Z.of_nat 6)%Z; rewrite <- pow_IZR; reflexivity.
    + unfold spectral_call. rewrite waves_R. change (@nadd R _ ?x ?y) with (x + y). f_equal. change (@nltb R _ ?x ?y) with (Rltb x y). unfold Rltb. destruct (Rlt_dec _ _); reflexivity.
Qed.

(** The value is the height above the floor, at least the distance to it; up to x_max it is no more than
    sqrt(1 + S^2) times the distance, S bounding the slope of the floor. *)
Definition slope_bound (F : Floor R) (b : Spectral R) : R :=
  sumR (fun h => Rabs (hm_amp h) * (Rabs (hm_k h) + / fl_width F)) (sp_waves b).
Lemma clip_lip a b : Rabs (Rmin (Rmax a 0) 1 - Rmin (Rmax b 0) 1) <= Rabs (a - b).
Proof.
  assert (C : forall t, (t <= 0 /\ Rmin (Rmax t 0) 1 = 0) \/ (0 <= t <= 1 /\ Rmin (Rmax t 0) 1 = t) \/ (1 <= t /\ Rmin (Rmax t 0) 1 = 1)).
  { intro t. destruct (Rle_dec t 0); [left; rewrite Rmax_right by lra; rewrite Rmin_left; lra|]. rewrite Rmax_left by lra.
    destruct (Rle_dec t 1); [right; left; rewrite Rmin_left; lra|right; right; rewrite Rmin_right; lra]. }
  destruct (C a) as [(A & ->)|[(A & ->)|(A & ->)]]; destruct (C b) as [(B & ->)|[(B & ->)|(B & ->)]];
    unfold Rabs; repeat match goal with |- context [Rcase_abs ?x] => destruct (Rcase_abs x) end; lra.
Qed.
Lemma height_lip F b x y : 0 < fl_width F -> x <= fl_xmax F -> y <= fl_xmax F ->
  Rabs (@floor_height R NumT_R F b y - floor_height F b x) <= slope_bound F b * Rabs (y - x).
Proof.
  intros W X Y. rewrite !height_cases. destruct (Rlt_dec _ _); [lra|]. destruct (Rlt_dec _ _); [lra|].
  set (u := x - fl_xmin F). set (v := y - fl_xmin F).
  pose proof (waves_lip b u v) as L. pose proof (waves_bound b u) as B. pose proof (ramp_range F v) as Rv.
  assert (C : Rabs (@ramp R NumT_R F v - ramp F u) <= / fl_width F * Rabs (v - u)).
  { rewrite !ramp_R. eapply Rle_trans; [apply clip_lip|]. replace (v / fl_width F - u / fl_width F) with (/ fl_width F * (v - u)) by (field; lra).
    rewrite Rabs_mult, Rabs_pos_eq by (apply Rlt_le, Rinv_0_lt_compat, W). lra. }
  rewrite max_h_R in B.
  replace (y - x) with (v - u) by (unfold u, v; ring). set (d := Rabs (v - u)) in *.
  set (wu := bump_waves b u) in *. set (wv := bump_waves b v) in *. set (ru := ramp F u) in *. set (rv := ramp F v) in *.
  replace (sp_base b + wv * rv - (sp_base b + wu * ru)) with ((wv - wu) * rv + wu * (rv - ru)) by ring.
  eapply Rle_trans; [apply Rabs_triang|]. rewrite !Rabs_mult, (Rabs_pos_eq rv) by lra.
  assert (S : slope_bound F b * d = sumR (fun h => Rabs (hm_amp h) * Rabs (hm_k h)) (sp_waves b) * d + sumR (fun h => Rabs (hm_amp h)) (sp_waves b) * (/ fl_width F * d)).
  { unfold slope_bound. rewrite (sumR_ext_all _ (fun h => Rabs (hm_amp h) * Rabs (hm_k h) + Rabs (hm_amp h) * / fl_width F)) by (intro; ring).
    rewrite sumR_plus, sumR_scal_r. ring. }
  rewrite S. apply Rplus_le_compat.
  - pose proof (Rabs_pos (wv - wu)). nra.
  - apply Rmult_le_compat; [apply Rabs_pos|apply Rabs_pos|exact B|exact C].
Qed.
Definition dist2 (p q : vec3 R) : R := sqrt ((vx p - vx q) * (vx p - vx q) + (vy p - vy q) * (vy p - vy q)).
Theorem C135_distance : forall (F : Floor R) (b : Spectral R) f st p, 0 < fl_width F ->
  let d := sl_dist (floor_logic F b f) st in
  (forall q, vx q = vx p -> d q = d p + (vy q - vy p)) /\
  (exists q, d q = 0 /\ dist2 p q = Rabs (d p)) /\
  (vx p <= fl_xmax F -> forall q, vx q <= fl_xmax F -> d q = 0 -> Rabs (d p) <= sqrt (1 + slope_bound F b * slope_bound F b) * dist2 p q).
Proof.
  intros F b f st p W d. unfold d. cbn [sl_dist floor_logic]. unfold floor_dist, dist2. change (@nsub R _ ?x ?y) with (x - y).
  split; [intros q E; rewrite E; lra|]. split.
  - exists (V3 (vx p) (floor_height F b (vx p)) 0). cbn [vx vy]. split; [ring|].
    replace ((vx p - vx p) * (vx p - vx p) + (vy p - floor_height F b (vx p)) * (vy p - floor_height F b (vx p)))
      with (Rsqr (vy p - floor_height F b (vx p))) by (unfold Rsqr; ring). apply sqrt_Rsqr_abs.
  - intros X q Y Q. pose proof (height_lip F b (vx q) (vx p) W Y X) as L. set (S := slope_bound F b) in *.
    change (@nsub R _ ?x ?y) with (x - y) in *.
    assert (Hq : floor_height F b (vx q) = vy q) by lra. rewrite Hq in L.
    set (hp := floor_height F b (vx p)) in *. set (dx := vx p - vx q) in *. set (dy := vy p - vy q).
    assert (SP : 0 <= S).
    { apply sumR_nonneg. intros h _. apply Rmult_le_pos; [apply Rabs_pos|]. pose proof (Rabs_pos (hm_k h)). pose proof (Rinv_0_lt_compat _ W). lra. }
    rewrite <- sqrt_mult by (nra). apply Rle_trans with (Rabs dy + S * Rabs dx).
    { replace (vy p - hp) with (dy + - (hp - vy q)) by (unfold dy; ring). eapply Rle_trans; [apply Rabs_triang|]. rewrite Rabs_Ropp. lra. }
    pose proof (Rabs_pos dy) as Y0. pose proof (Rabs_pos dx) as X0.
    rewrite <- (sqrt_square (Rabs dy + S * Rabs dx)) by nra. apply sqrt_le_1_alt.
    replace (dx * dx) with (Rabs dx * Rabs dx) by (rewrite <- Rabs_mult; apply Rabs_pos_eq, Rle_0_sqr).
    replace (dy * dy) with (Rabs dy * Rabs dy) by (rewrite <- Rabs_mult; apply Rabs_pos_eq, Rle_0_sqr).
    set (a := Rabs dx) in *. set (c := Rabs dy) in *.
    assert (0 <= (S * c - a) * (S * c - a)) by apply Rle_0_sqr. nra.
Qed.
(** It is not the distance: a point three above the floor is nearer to the side of a bump. *)
Definition sine (a k : R) : Spectral R := {| sp_waves := [{| hm_amp := a; hm_k := k; hm_phase := 0 |}]; sp_base := 0 |}.
Theorem C135_distance_refuted : exists (F : Floor R) (b : Spectral R) f st p q,
  0 < fl_width F /\ sl_dist (floor_logic F b f) st q = 0 /\ dist2 p q < sl_dist (floor_logic F b f) st p.
Proof.
  exists {| fl_xmin := -1; fl_xmax := 0; fl_width := 1 |}, (sine 1 1), None, (floor_state (sine 1 1)), (V3 PI 3 0), (V3 (PI/2) 1 0).
  pose proof PI_RGT_0 as HP. pose proof PI_4 as H4.
  cbn [sl_dist floor_logic fl_width]. unfold floor_dist, dist2. cbn [vx vy]. change (@nsub R _ ?x ?y) with (x - y). rewrite !height_cases. cbn [fl_xmax].
  destruct (Rlt_dec 0 (PI/2)); [|lra]. destruct (Rlt_dec 0 PI); [|lra]. rewrite !waves_R. cbn [sine sp_waves sp_base]. rewrite !sumR_cons, !sumR_nil. cbn [hm_amp hm_k hm_phase].
  replace (1 * (PI/2 - 0) + 0) with (PI/2) by lra. replace (1 * (PI - 0) + 0) with PI by lra. rewrite sin_PI, sin_PI2.
  split; [lra|]. split; [lra|]. replace (3 - (0 + (1 * 0 + 0))) with (sqrt (3 * 3)) by (rewrite sqrt_square; lra).
  apply sqrt_lt_1_alt. split; [nra|]. nra.
Qed.

(** The normal is the normalised gradient of the value: up, and unit up to 1e-12. *)
Lemma height_derive F b x : 0 < fl_width F -> x <> fl_xmin F -> x <> fl_xmin F + fl_width F -> x <> fl_xmax F ->
  is_derive (@floor_height R NumT_R F b) x (floor_slope F b x).
Proof.
  intros W N1 N2 N3. unfold floor_slope. change (@nltb R _ ?x ?y) with (Rltb x y). unfold Rltb at 1.
  change (@nsub R _ ?x ?y) with (x - y). change (@nadd R _ ?x ?y) with (x + y). change (@nmul R _ ?x ?y) with (x * y).
  assert (sh : forall a, is_derive (fun t => @bump_waves R NumT_R b (t - a)) x (bump_slope b (x - a))).
  { intro a. replace (bump_slope b (x - a)) with (scal 1 (@bump_slope R NumT_R b (x - a))) by (unfold scal; simpl; unfold mult; simpl; ring).
    apply (is_derive_comp (bump_waves b) (fun t => t - a)); [apply waves_derive|]. auto_derive; [trivial|ring]. }
  destruct (Rlt_dec (fl_xmax F) x) as [L|L].
  - apply (is_derive_ext_loc (fun t => sp_base b + bump_waves b (t - fl_xmax F))).
    + assert (P : 0 < x - fl_xmax F) by lra. exists (mkposreal _ P). intros t Ht. rewrite height_cases. destruct (Rlt_dec _ _) as [q|q]; [reflexivity|].
      apply Rabs_def2 in Ht. cbn in Ht. unfold minus, plus, opp in Ht. cbn in Ht. lra.
    + replace (bump_slope b (x - fl_xmax F)) with (0 + @bump_slope R NumT_R b (x - fl_xmax F)) by ring.
      apply (is_derive_plus (fun _ => sp_base b)); [apply is_derive_Reals, derivable_pt_lim_const|apply sh].
  - assert (loc : forall lo hi (P : R -> Prop), lo < x < hi -> (forall t, lo < t < hi -> P t) -> locally x P).
    { intros lo hi P (A & B) H. assert (Q : 0 < Rmin (x - lo) (hi - x)) by (apply Rmin_pos; lra). exists (mkposreal _ Q). intros t Ht. apply H.
      apply Rabs_def2 in Ht. cbn in Ht. unfold minus, plus, opp in Ht. cbn in Ht. pose proof (Rmin_l (x - lo) (hi - x)). pose proof (Rmin_r (x - lo) (hi - x)). lra. }
    set (t0 := (x - fl_xmin F) / fl_width F).
    assert (E0 : x - fl_xmin F = t0 * fl_width F) by (unfold t0; field; lra).
    assert (HR : is_derive (fun t => @ramp R NumT_R F (t - fl_xmin F)) x (dramp F (x - fl_xmin F))).
    { assert (divs : forall t, (t - fl_xmin F) / fl_width F < 0 <-> t < fl_xmin F).
      { intro t. split; intro H. - apply (Rmult_lt_compat_r (fl_width F)) in H; [|exact W]. unfold Rdiv in H. rewrite Rmult_assoc, Rinv_l in H by lra. lra.
        - apply (Rmult_lt_reg_r (fl_width F)); [exact W|]. unfold Rdiv. rewrite Rmult_assoc, Rinv_l by lra. lra. }
      assert (divl : forall t, 1 < (t - fl_xmin F) / fl_width F <-> fl_xmin F + fl_width F < t).
      { intro t. split; intro H. - apply (Rmult_lt_compat_r (fl_width F)) in H; [|exact W]. unfold Rdiv in H. rewrite Rmult_assoc, Rinv_l in H by lra. lra.
        - apply (Rmult_lt_reg_r (fl_width F)); [exact W|]. unfold Rdiv. rewrite Rmult_assoc, Rinv_l by lra. lra. }
      assert (divp : forall t, 0 < (t - fl_xmin F) / fl_width F <-> fl_xmin F < t).
      { intro t. split; intro H. - apply (Rmult_lt_compat_r (fl_width F)) in H; [|exact W]. unfold Rdiv in H. rewrite Rmult_assoc, Rinv_l in H by lra. lra.
        - apply (Rmult_lt_reg_r (fl_width F)); [exact W|]. unfold Rdiv. rewrite Rmult_assoc, Rinv_l by lra. lra. }
      assert (divu : forall t, (t - fl_xmin F) / fl_width F < 1 <-> t < fl_xmin F + fl_width F).
      { intro t. split; intro H. - apply (Rmult_lt_compat_r (fl_width F)) in H; [|exact W]. unfold Rdiv in H. rewrite Rmult_assoc, Rinv_l in H by lra. lra.
        - apply (Rmult_lt_reg_r (fl_width F)); [exact W|]. unfold Rdiv. rewrite Rmult_assoc, Rinv_l by lra. lra. }
      destruct (Rtotal_order x (fl_xmin F)) as [C|[C|C]]; [|contradiction|destruct (Rtotal_order x (fl_xmin F + fl_width F)) as [D|[D|D]]; [|contradiction|]].
      - rewrite dramp_out by (left; apply divs, C). apply (is_derive_ext_loc (fun _ => 0)); [|apply is_derive_Reals, derivable_pt_lim_const].
        apply (loc (x - 1) (fl_xmin F)); [lra|]. intros t Ht. rewrite ramp_R. assert (H := proj2 (divs t) (proj2 Ht)). rewrite Rmax_right by lra. rewrite Rmin_left; lra.
      - rewrite dramp_in by (split; [apply divp, C|apply divu, D]). apply (is_derive_ext_loc (fun t => (t - fl_xmin F) / fl_width F)).
        + apply (loc (fl_xmin F) (fl_xmin F + fl_width F)); [lra|]. intros t Ht. rewrite ramp_R.
          assert (H := proj2 (divp t) (proj1 Ht)). assert (H' := proj2 (divu t) (proj2 Ht)). rewrite Rmax_left by lra. rewrite Rmin_left; lra.
        + auto_derive; [trivial|]. field. lra.
      - rewrite dramp_out by (right; apply divl, D). apply (is_derive_ext_loc (fun _ => 1)); [|apply is_derive_Reals, derivable_pt_lim_const].
        apply (loc (fl_xmin F + fl_width F) (x + 1)); [lra|]. intros t Ht. rewrite ramp_R. assert (H := proj2 (divl t) (proj1 Ht)). rewrite Rmax_left by lra. rewrite Rmin_right; lra. }
    apply (is_derive_ext_loc (fun t => sp_base b + bump_waves b (t - fl_xmin F) * ramp F (t - fl_xmin F))).
    + apply (loc (x - 1) (fl_xmax F)); [lra|]. intros t Ht. rewrite height_cases. destruct (Rlt_dec _ _); [lra|reflexivity].
    + match goal with |- is_derive _ _ ?v => replace v with (0 + v) by ring end.
      apply (is_derive_plus (fun _ => sp_base b)); [apply is_derive_Reals, derivable_pt_lim_const|].
      apply (is_derive_mult (fun t => bump_waves b (t - fl_xmin F)) (fun t => ramp F (t - fl_xmin F))); [apply sh|exact HR|intros; apply Rmult_comm].
Qed.
Theorem C135_normal : forall (F : Floor R) (b : Spectral R) f st p, 0 < fl_width F ->
  vx p <> fl_xmin F -> vx p <> fl_xmin F + fl_width F -> vx p <> fl_xmax F ->
  let n := sl_normal (floor_logic F b f) st p in
  exists d, is_derive (fun x => sl_dist (floor_logic F b f) st (V3 x (vy p) (vz p))) (vx p) d /\
    is_derive (fun y => sl_dist (floor_logic F b f) st (V3 (vx p) y (vz p))) (vy p) 1 /\
    vx n = d * vy n /\ 0 < vy n /\ vz n = 0 /\ 1 - 1 / 10 ^ 12 <= vnorm n < 1.
Proof.
  intros F b f st p W N1 N2 N3 n. exists (- floor_slope F b (vx p)). unfold n. cbn [sl_dist sl_normal floor_logic]. unfold floor_dist. cbn [vx vy].
  split.
  { apply (is_derive_ext (fun x => vy p + - floor_height F b x)); [intro; reflexivity|].
    replace (- floor_slope F b (vx p)) with (0 + - @floor_slope R NumT_R F b (vx p)) by ring.
    apply (is_derive_plus (fun _ => vy p)); [apply is_derive_Reals, derivable_pt_lim_const|]. apply (is_derive_opp (floor_height F b)). apply height_derive; assumption. }
  split. { change (@nsub R _ ?x ?y) with (x - y). auto_derive; [trivial|ring]. }
  unfold floor_normal. set (g := floor_slope F b (vx p)). unfold vdivs, vnorm, vnorm2, vdot. cbn [vx vy vz vmap]. rnum.
  replace (IZR (10 ^ 12)) with (10 ^ 12) by (change (IZR (10 ^ 12)) with (IZR (10 ^ Z.of_nat 12)); rewrite <- pow_IZR; reflexivity).
  assert (E : 0 < 1 / 10 ^ 12) by (apply Rdiv_lt_0_compat; [lra|apply pow_lt; lra]). set (eps := 1 / 10 ^ 12) in *. clearbody eps.
  set (q := sqrt (- g * - g + 1 * 1 + 0 * 0)).
  assert (Q2 : q * q = g * g + 1) by (unfold q; rewrite sqrt_sqrt; nra).
  assert (Q0 : 0 <= q) by apply sqrt_pos. assert (Q1 : 1 <= q) by nra.
  split; [field; lra|]. split; [apply Rdiv_lt_0_compat; lra|]. split; [unfold Rdiv; ring|].
  replace (- g / (q + eps) * (- g / (q + eps)) + 1 / (q + eps) * (1 / (q + eps)) + 0 / (q + eps) * (0 / (q + eps)))
    with ((q / (q + eps)) * (q / (q + eps))) by (replace (q / (q + eps) * (q / (q + eps))) with ((q * q) / ((q + eps) * (q + eps))) by (field; lra); rewrite Q2; field; lra).
  rewrite sqrt_square by (apply Rmult_le_pos; [lra|apply Rlt_le, Rinv_0_lt_compat; lra]). split.
  - apply (Rmult_le_reg_r (q + eps)); [lra|]. replace (q / (q + eps) * (q + eps)) with q by (field; lra). nra.
  - apply (Rmult_lt_reg_r (q + eps)); [lra|]. replace (q / (q + eps) * (q + eps)) with q by (field; lra). lra.
Qed.

(** The floor has a step at x_max: beyond it the waves start again from their origin. *)
Theorem C135_step_refuted : exists (F : Floor R) (b : Spectral R), 0 < fl_width F /\ fl_xmin F + fl_width F <= fl_xmax F /\
  ~ continuous (@floor_height R NumT_R F b) (fl_xmax F).
Proof.
  pose proof PI_RGT_0 as HP. pose proof PI2_1 as H1.
  exists {| fl_xmin := 0; fl_xmax := PI/2; fl_width := 1 |}, (sine 1 1). cbn [fl_xmin fl_xmax fl_width]. split; [lra|]. split; [lra|].
  set (F := {| fl_xmin := 0; fl_xmax := PI/2; fl_width := 1 |}).
  intro C. apply continuity_pt_filterlim in C. destruct (C (1/2) ltac:(lra)) as (al & A & B). clear C.
  set (t := Rmin (al/2) (1/4)). assert (T1 : 0 < t) by (apply Rmin_pos; lra). assert (T2 : t <= 1/4) by apply Rmin_r. assert (T3 : t <= al/2) by apply Rmin_l.
  specialize (B (PI/2 + t)). cbn in B. unfold R_dist in B.
  assert (X : Rabs (PI / 2 + t - PI / 2) < al) by (rewrite Rabs_pos_eq; lra).
  assert (D : D_x no_cond (PI/2) (PI/2 + t)) by (split; [exact I|lra]). specialize (B (conj D X)). clear D X.
  rewrite !height_cases in B. cbn [fl_xmax F fl_xmin] in B. destruct (Rlt_dec _ _) in B; [|lra]. destruct (Rlt_dec _ _) in B; [lra|].
  rewrite !waves_R in B. cbn [sine sp_waves sp_base] in B. rewrite !sumR_cons, !sumR_nil in B. cbn [hm_amp hm_k hm_phase] in B.
  rewrite ramp_R in B. cbn [fl_width F] in B. rewrite Rmax_left in B by lra. rewrite Rmin_right in B by lra.
  replace (1 * (PI / 2 + t - PI / 2) + 0) with t in B by ring. replace (1 * (PI / 2 - 0) + 0) with (PI/2) in B by ring. rewrite sin_PI2 in B.
  assert (S : sin t <= t) by (apply Rlt_le, sin_lt_x, T1). apply Rabs_def2 in B. lra.
Qed.

(** Friction: at least 1e-6, 1/2 when no signal is given, and the base value within the sum of the amplitudes. *)
Theorem C135_friction : forall (F : Floor R) (b : Spectral R) f st p,
  let mu := sl_friction (floor_logic F b f) st p in
  1 / 10 ^ 6 <= mu /\ (f = None -> mu = 1/2) /\
  (forall s, f = Some s -> mu <= Rmax (1 / 10 ^ 6) (sp_base s + sumR (fun h => Rabs (hm_amp h)) (sp_waves s)) /\
     sp_base s - sumR (fun h => Rabs (hm_amp h)) (sp_waves s) <= mu).
Proof.
  intros F b f st p mu. unfold mu. cbn [sl_friction floor_logic]. unfold floor_friction.
  assert (E6 : @lit R Num_R 1 (10 ^ 6) = 1 / 10 ^ 6) by (unfold lit; rnum; f_equal; change (10 ^ 6)%Z with (10 ^ Z.of_nat 6)%Z; rewrite <- pow_IZR; reflexivity).
  assert (Es : 1 / 10 ^ 6 <= 1/2) by lra.
  destruct f as [s|].
  - set (ex := if nltb _ _ then _ else _). change (@lit R _ 1 (10 ^ 6)) with (@lit R Num_R 1 (10 ^ 6)). rewrite E6, nmax_R. split; [apply Rmax_l|]. split; [discriminate|].
    intros s' Hs. injection Hs as <-. pose proof (waves_bound s ex) as WB. rewrite max_h_R in WB. apply Rabs_le_between in WB.
    unfold spectral_call. change (@nadd R _ ?x ?y) with (x + y). split.
    + apply Rmax_lub; [apply Rmax_l|]. eapply Rle_trans; [|apply Rmax_r]. lra.
    + eapply Rle_trans; [|apply Rmax_r]. lra.
  - change (@lit R _ 1 2) with (1/2). split; [lra|]. split; [reflexivity|]. discriminate.
Qed.

(** A floor made by create_state stays as it is and reports no velocity. *)
Theorem C135_rest : forall (F : Floor R) (b : Spectral R) f n dt p,
  let L := floor_logic F b f in let st := Nat.iter n (fun s => sl_update L s dt) (floor_state b) in
  st = floor_state b /\ sl_velocity L st p dt = vzero.
Proof.
  intros F b f n dt p L st.
  assert (U : sl_update L (floor_state b) dt = floor_state b).
  { cbn [sl_update floor_logic L]. unfold floor_state, create_sdf_state, update_kinematics. cbn [sd_dim sd_com sd_vel sd_theta sd_omega sd_quat sd_w]. f_equal.
    - unfold vadd, vscale, vzero. cbn [vx vy vz vmap vmap2]. rnum. f_equal; ring.
    - rnum. ring. }
  assert (E : st = floor_state b).
  { unfold st. induction n as [|n IH]; [reflexivity|]. change (sl_update L (Nat.iter n (fun s => sl_update L s dt) (floor_state b)) dt = floor_state b). cbv zeta in IH. rewrite IH. exact U. }
  split; [exact E|]. rewrite E. cbn [sl_velocity floor_logic L]. unfold get_velocity, floor_state, create_sdf_state.
  cbn [sd_dim sd_vel sd_omega]. unfold vadd, vzero. cbn [vx vy vz vmap2]. rnum. f_equal; ring.
Qed.
(** Given a velocity, the collider is told the floor moves but the floor never moves. *)
Theorem C135_motion_refuted : forall (F : Floor R) (b : Spectral R) f (v : vec3 R),
  vy v <> 0 -> exists st p, sd_vel st = v /\
  forall dt, dt <> 0 -> sl_velocity (floor_logic F b f) st p dt = v /\
    sl_dist (floor_logic F b f) (sl_update (floor_logic F b f) st dt) (V3 (vx p) (vy p + dt * vy v) 0) <> sl_dist (floor_logic F b f) st p /\
    forall st' q, sl_dist (floor_logic F b f) st' q = sl_dist (floor_logic F b f) st q.
Proof.
  intros F b f v V. exists (create_sdf_state D2 vzero (Some v) None None None None), vzero. split; [reflexivity|]. intros dt D.
  split.
  - cbn [sl_velocity floor_logic]. unfold get_velocity, create_sdf_state. cbn [sd_dim sd_vel sd_omega]. destruct v as [a c e]. unfold vadd, vzero. cbn [vx vy vz vmap2]. rnum. f_equal; ring.
  - split; [|reflexivity]. cbn [sl_dist floor_logic]. unfold floor_dist, vzero. cbn [vx vy]. rnum. intro E.
    assert (dt * vy v = 0) by lra. apply Rmult_integral in H. tauto.
Qed.

(** The box of get_world_aabb holds the surface (within a million of the origin, and no higher), not the floor below it. *)
Theorem C135_aabb : forall (F : Floor R) (b : Spectral R) f st p,
  sl_dist (floor_logic F b f) st p = 0 -> Rabs (vx p) <= 10 ^ 6 -> sp_base b + sumR (fun h => Rabs (hm_amp h)) (sp_waves b) <= 10 ^ 6 ->
  vx (fst (floor_aabb b)) <= vx p <= vx (snd (floor_aabb b)) /\ vy (fst (floor_aabb b)) <= vy p <= vy (snd (floor_aabb b)).
Proof.
  intros F b f st p D X B. cbn [sl_dist floor_logic] in D. unfold floor_dist in D. unfold floor_aabb. cbn [fst snd vx vy].
  pose proof (height_bound F b (vx p)) as HB. rewrite max_h_R in *. change (@nsub R _ ?x ?y) with (x - y) in *.
  replace (@nofZ R _ (10 ^ 6)) with (10 ^ 6) by (change (@nofZ R _ (10 ^ 6)%Z) with (IZR (10 ^ 6)); change (10 ^ 6)%Z with (10 ^ Z.of_nat 6)%Z; rewrite <- pow_IZR; reflexivity).
  replace (@nofZ R _ (- 10 ^ 6)) with (- 10 ^ 6) by (change (@nofZ R _ (- 10 ^ 6)%Z) with (IZR (- 10 ^ 6)); rewrite opp_IZR; change (10 ^ 6)%Z with (10 ^ Z.of_nat 6)%Z; rewrite <- pow_IZR; reflexivity).
  apply Rabs_le_between in HB. apply Rabs_le_between in X. lra.
Qed.
Theorem C135_aabb_refuted : forall (F : Floor R) (b : Spectral R) f st, exists p,
  sl_dist (floor_logic F b f) st p < 0 /\ vy p < vy (fst (floor_aabb b)).
Proof.
  intros F b f st. exists (V3 0 (sp_base b - max_h b - 1) 0). cbn [sl_dist floor_logic]. unfold floor_dist, floor_aabb. cbn [fst vx vy].
  change (@nsub R _ ?x ?y) with (x - y). pose proof (height_bound F b 0) as HB. apply Rabs_le_between in HB. lra.
Qed.

(** A floor of one wave, of wavelength 2 pi and asked height 1: the amplitude is sqrt 2. *)
Example C135_case :
  let b := @spectral R NumT_R 1 (1/2) (2 * PI) (2 * PI) 1 (1/4) 0 in
  let F := {| fl_xmin := 0; fl_xmax := 10; fl_width := 1 |} in
  sp_waves b = [{| hm_amp := sqrt 2; hm_k := 1; hm_phase := 0 |}] /\
  sl_dist (floor_logic F b None) (floor_state b) (V3 (PI/2) 2 0) = 2 - 1/4 - sqrt 2.
Proof.
  intros b F. pose proof PI_RGT_0 as HP. pose proof PI2_1 as HP2.
  assert (E : sp_waves b = [{| hm_amp := sqrt 2; hm_k := 1; hm_phase := 0 |}]).
  { unfold b. rewrite spectral_R. cbn [seq map].
    assert (K : wavenumber 1 (2 * PI) (2 * PI) 0 = 1).
    { unfold wavenumber. replace (2 * PI / (2 * PI)) with 1 by (field; lra). rewrite ln_1, !Rmult_0_l, Rplus_0_l. apply exp_0. }
    assert (A : raw 1 (1/2) (2 * PI) (2 * PI) 0 = 1) by (unfold raw; rewrite K; unfold Rpower; rewrite ln_1, Rmult_0_r; apply exp_0).
    assert (Q : raw_rms 1 (1/2) (2 * PI) (2 * PI) = / sqrt 2).
    { unfold raw_rms. cbn [seq]. rewrite sumR_cons, sumR_nil, A. replace ((1 * 1 + 0) / 2) with (/ 2) by field. apply sqrt_inv. }
    rewrite A, Q, K. assert (0 < sqrt 2) by (apply sqrt_lt_R0; lra). f_equal. f_equal; [field; lra|ring]. }
  split; [exact E|]. cbn [sl_dist floor_logic]. unfold floor_dist. cbn [vx vy]. rewrite height_cases. cbn [fl_xmax F]. destruct (Rlt_dec _ _); [pose proof PI_4; lra|].
  rewrite waves_R, E, sumR_cons, sumR_nil. cbn [hm_amp hm_k hm_phase fl_xmin F]. rewrite ramp_R. cbn [fl_width].
  change (fl_width F) with 1. replace (1 * (PI / 2 - 0) + 0) with (PI/2) by ring. rewrite sin_PI2, Rmax_left by lra. rewrite Rmin_right by lra.
  change (sp_base b) with (1/4). change (@nsub R _ ?x ?y) with (x - y). ring.
Qed.

Print Assumptions C135_spectrum.
Print Assumptions C135_rms.
Print Assumptions C135_rms_refuted.
Print Assumptions C135_relief.
Print Assumptions C135_flat.
Print Assumptions C135_profile.
Print Assumptions C135_distance.
Print Assumptions C135_distance_refuted.
Print Assumptions C135_normal.
Print Assumptions C135_step_refuted.
Print Assumptions C135_friction.
Print Assumptions C135_rest.
Print Assumptions C135_motion_refuted.
Print Assumptions C135_aabb.
Print Assumptions C135_aabb_refuted.
