(** Signals made of sines: bounds, slopes and mean squares; the spectrum of floor.py. *)
From Coquelicot Require Import Coquelicot.
From Coq Require Import List Arith ZArith Reals Bool Lra Lia.
From Verif Require Import Num NumR Linalg Arrays ModelGrid ModelShape ModelMath ModelState ModelLaws ModelSDF ModelForces ModelSolver ModelCollapse Sums.
Import ListNotations.
Local Open Scope R_scope.

Lemma nsum_R {A} (f : A -> R) l : @nsum R NumT_R (map f l) = sumR f l.
Proof. unfold nsum, sumR. induction l as [|a l IH]; [reflexivity|]. simpl map. cbn [fold_right]. rewrite IH. reflexivity. Qed.
Lemma waves_R s x : @bump_waves R NumT_R s x = sumR (fun h => hm_amp h * sin (hm_k h * x + hm_phase h)) (sp_waves s).
Proof. unfold bump_waves. rewrite nsum_R. reflexivity. Qed.
Lemma slope_R s x : @bump_slope R NumT_R s x = sumR (fun h => hm_amp h * (cos (hm_k h * x + hm_phase h) * hm_k h)) (sp_waves s).
Proof. unfold bump_slope. rewrite nsum_R. reflexivity. Qed.
Lemma max_h_R s : @max_h R NumT_R s = sumR (fun h => Rabs (hm_amp h)) (sp_waves s).
Proof. unfold max_h. rewrite nsum_R. apply sumR_ext_all. intro a. apply nabs_R. Qed.

Lemma sumR_abs_le {A} (f g : A -> R) l : (forall a, Rabs (f a) <= g a) -> Rabs (sumR f l) <= sumR g l.
Proof.
  intro E. induction l as [|a l IH]; [simpl; rewrite Rabs_R0; lra|]. rewrite !sumR_cons.
  eapply Rle_trans; [apply Rabs_triang|]. specialize (E a). lra.
Qed.
Lemma waves_bound s x : Rabs (@bump_waves R NumT_R s x) <= @max_h R NumT_R s.
Proof.
  rewrite waves_R, max_h_R. apply sumR_abs_le. intro h. rewrite Rabs_mult.
  rewrite <- (Rmult_1_r (Rabs (hm_amp h))) at 2. apply Rmult_le_compat_l; [apply Rabs_pos|].
  apply Rabs_le. destruct (SIN_bound (hm_k h * x + hm_phase h)). lra.
Qed.
Lemma max_h_nonneg s : 0 <= @max_h R NumT_R s.
Proof. rewrite max_h_R. apply sumR_nonneg. intros; apply Rabs_pos. Qed.
Lemma sin_lip a b : Rabs (sin b - sin a) <= Rabs (b - a).
Proof.
  rewrite <- (Rmult_1_l (Rabs (b - a))). apply (bounded_variation sin cos). intros t _. split.
  - apply is_derive_Reals, derivable_pt_lim_sin.
  - apply Rabs_le. destruct (COS_bound t). lra.
Qed.
Lemma waves_lip s x y : Rabs (@bump_waves R NumT_R s y - bump_waves s x) <= sumR (fun h => Rabs (hm_amp h) * Rabs (hm_k h)) (sp_waves s) * Rabs (y - x).
Proof.
  rewrite !waves_R, <- sumR_minus, <- sumR_scal_r. apply sumR_abs_le. intro h.
  replace (hm_amp h * sin (hm_k h * y + hm_phase h) - hm_amp h * sin (hm_k h * x + hm_phase h))
    with (hm_amp h * (sin (hm_k h * y + hm_phase h) - sin (hm_k h * x + hm_phase h))) by ring.
  rewrite Rabs_mult, Rmult_assoc. apply Rmult_le_compat_l; [apply Rabs_pos|]. rewrite <- Rabs_mult.
  replace (hm_k h * (y - x)) with ((hm_k h * y + hm_phase h) - (hm_k h * x + hm_phase h)) by ring. apply sin_lip.
Qed.
Lemma waves_derive s x : is_derive (@bump_waves R NumT_R s) x (bump_slope s x).
Proof.
  apply (is_derive_ext (fun x => sumR (fun h => hm_amp h * sin (hm_k h * x + hm_phase h)) (sp_waves s)));
    [intro; symmetry; apply waves_R|]. rewrite slope_R.
  induction (sp_waves s) as [|h l IH].
  - apply is_derive_Reals, derivable_pt_lim_const.
  - simpl sumR. apply (is_derive_plus (fun x => hm_amp h * sin (hm_k h * x + hm_phase h))); [|exact IH].
    auto_derive; [trivial|]. ring.
Qed.

(** *** mean squares: [almost f m], the integral of f over [0, L] is m L up to a constant *)
Definition almost (f : R -> R) (m : R) : Prop :=
  exists F B, (forall x, is_derive F x (f x)) /\ forall x, Rabs (F x - m * x) <= B.
Lemma almost_ext f g m : (forall x, f x = g x) -> almost f m -> almost g m.
Proof. intros E (F & B & D & H). exists F, B. split; [|exact H]. intro x. rewrite <- E. apply D. Qed.
Lemma almost_plus f g a b : almost f a -> almost g b -> almost (fun x => f x + g x) (a + b).
Proof.
  intros (F & B & D & H) (G & C & E & I). exists (fun x => F x + G x), (B + C). split.
  - intro x. apply (is_derive_plus F G); auto.
  - intro x. replace (F x + G x - (a + b) * x) with ((F x - a * x) + (G x - b * x)) by ring.
    eapply Rle_trans; [apply Rabs_triang|]. specialize (H x); specialize (I x). lra.
Qed.
Lemma almost_scal f a c : almost f a -> almost (fun x => c * f x) (c * a).
Proof.
  intros (F & B & D & H). exists (fun x => c * F x), (Rabs c * B). split.
  - intro x. apply (is_derive_scal F); auto.
  - intro x. replace (c * F x - c * a * x) with (c * (F x - a * x)) by ring. rewrite Rabs_mult.
    apply Rmult_le_compat_l; [apply Rabs_pos|apply H].
Qed.
Lemma almost_0 : almost (fun _ => 0) 0.
Proof.
  exists (fun _ => 0), 0. split; [intro; apply is_derive_Reals, derivable_pt_lim_const|].
  intro x. rewrite Rmult_0_l, Rminus_0_r, Rabs_R0. lra.
Qed.
Lemma almost_unique f a b : almost f a -> almost f b -> a = b.
Proof.
  intros HA HB. assert (E : almost (fun _ => 0) (a + (-1) * b)).
  { apply (almost_ext (fun x => f x + (-1) * f x)); [intro; ring|]. apply almost_plus; [|apply almost_scal]; assumption. }
  destruct E as (F & B & D & H). set (m := a + -1 * b) in *.
  assert (C : forall x, F x = F 0).
  { intro x. pose proof (bounded_variation F (fun _ => 0) 0 0 x) as V. rewrite Rmult_0_l in V.
    assert (Rabs (F x - F 0) <= 0).
    { apply V. intros t _. split; [apply D|]. rewrite Rabs_R0. lra. }
    pose proof (Rabs_pos (F x - F 0)). destruct (Req_dec (F x - F 0) 0) as [Z|Z]; [lra|]. pose proof (Rabs_pos_lt _ Z). lra. }
  destruct (Req_dec m 0) as [Z|Z]; [unfold m in Z; lra|exfalso].
  pose proof (H 0) as H0. set (x := (2 * B + 1) / m). pose proof (H x) as H1. rewrite (C x) in H1.
  replace (m * x) with (2 * B + 1) in H1 by (unfold x; field; exact Z). rewrite Rmult_0_r, Rminus_0_r in H0.
  apply Rabs_le_between in H0. apply Rabs_le_between in H1. lra.
Qed.
Lemma almost_cos k p : k <> 0 -> almost (fun x => cos (k * x + p)) 0.
Proof.
  intro K. exists (fun x => sin (k * x + p) / k), (/ Rabs k). split.
  - intro x. auto_derive; [trivial|]. field. exact K.
  - intro x. rewrite Rmult_0_l, Rminus_0_r. unfold Rdiv. rewrite Rabs_mult, Rabs_inv.
    rewrite <- (Rmult_1_l (/ Rabs k)) at 2. apply Rmult_le_compat_r.
    + apply Rlt_le, Rinv_0_lt_compat, Rabs_pos_lt, K.
    + apply Rabs_le. destruct (SIN_bound (k * x + p)). lra.
Qed.
Lemma almost_const c : almost (fun _ => c) c.
Proof.
  exists (fun x => c * x), 0. split; [intro x; auto_derive; [trivial|ring]|].
  intro x. rewrite Rminus_eq_0, Rabs_R0. lra.
Qed.
Lemma almost_sin2 k p : k <> 0 -> almost (fun x => sin (k * x + p) * sin (k * x + p)) (1/2).
Proof.
  intro K. replace (1/2) with (1/2 + (-1/2) * 0) by ring.
  apply (almost_ext (fun x => 1/2 + (-1/2) * cos (2 * k * x + 2 * p))).
  - intro x. replace (2 * k * x + 2 * p) with (2 * (k * x + p)) by ring. rewrite cos_2a_sin. field.
  - apply almost_plus; [apply almost_const|]. apply almost_scal, almost_cos. lra.
Qed.
Lemma almost_sinsin k p j q : k <> j -> k <> - j -> almost (fun x => sin (k * x + p) * sin (j * x + q)) 0.
Proof.
  intros H1 H2. replace 0 with (1/2 * 0 + (-1/2) * 0) by ring.
  apply (almost_ext (fun x => 1/2 * cos ((k - j) * x + (p - q)) + (-1/2) * cos ((k + j) * x + (p + q)))).
  - intro x. replace ((k - j) * x + (p - q)) with ((k * x + p) - (j * x + q)) by ring.
    replace ((k + j) * x + (p + q)) with ((k * x + p) + (j * x + q)) by ring.
    rewrite cos_minus, (cos_plus (k * x + p) (j * x + q)). field.
  - apply almost_plus; apply almost_scal, almost_cos; lra.
Qed.
Definition term (h : Harmonic R) (x : R) : R := hm_amp h * sin (hm_k h * x + hm_phase h).
Lemma almost_cross k p (l : list (Harmonic R)) : 0 < k -> (forall h, In h l -> 0 < hm_k h /\ hm_k h <> k) ->
  almost (fun x => sin (k * x + p) * sumR (fun h => term h x) l) 0.
Proof.
  intros K. induction l as [|h l IH]; intros A.
  - apply (almost_ext (fun _ => 0)); [|apply almost_0]. intro x. rewrite sumR_nil. ring.
  - replace 0 with (hm_amp h * 0 + 0) by ring.
    apply (almost_ext (fun x => hm_amp h * (sin (k * x + p) * sin (hm_k h * x + hm_phase h)) + sin (k * x + p) * sumR (fun h => term h x) l)).
    + intro x. rewrite sumR_cons. unfold term at 2. ring.
    + destruct (A h (or_introl eq_refl)) as (A1 & A2). apply almost_plus.
      * apply almost_scal, almost_sinsin; [intro; apply A2; auto|lra].
      * apply IH. intros h' Hh'. apply A. right; exact Hh'.
Qed.
Lemma almost_square (l : list (Harmonic R)) : NoDup (map hm_k l) -> (forall h, In h l -> 0 < hm_k h) ->
  almost (fun x => sumR (fun h => term h x) l * sumR (fun h => term h x) l) (sumR (fun h => hm_amp h * hm_amp h) l / 2).
Proof.
  induction l as [|h l IH]; intros N P.
  - replace (sumR _ [] / 2) with 0 by (rewrite sumR_nil; field). apply (almost_ext (fun _ => 0)); [|apply almost_0]. intro; rewrite sumR_nil; ring.
  - inversion N as [|? ? N1 N2]; subst. rewrite sumR_cons.
    replace ((hm_amp h * hm_amp h + sumR (fun h => hm_amp h * hm_amp h) l) / 2)
      with ((hm_amp h * hm_amp h) * (1/2) + (2 * hm_amp h) * 0 + sumR (fun h => hm_amp h * hm_amp h) l / 2) by field.
    apply (almost_ext (fun x => (hm_amp h * hm_amp h) * (sin (hm_k h * x + hm_phase h) * sin (hm_k h * x + hm_phase h))
       + (2 * hm_amp h) * (sin (hm_k h * x + hm_phase h) * sumR (fun h => term h x) l)
       + sumR (fun h => term h x) l * sumR (fun h => term h x) l)).
    + intro x. rewrite sumR_cons. unfold term at 4 6. ring.
    + assert (K : 0 < hm_k h) by (apply P; left; reflexivity). apply almost_plus; [apply almost_plus|].
      * apply almost_scal, almost_sin2. lra.
      * apply almost_scal, almost_cross; [exact K|]. intros h' Hh'. split; [apply P; right; exact Hh'|].
        intro E. apply N1. rewrite <- E. now apply in_map.
      * apply IH; [exact N2|]. intros h' Hh'. apply P. right; exact Hh'.
Qed.
Lemma almost_RInt f m : (forall x, continuous f x) -> almost f m ->
  exists B, forall L, ex_RInt f 0 L /\ Rabs (RInt f 0 L - m * L) <= B.
Proof.
  intros C (F & B & D & H). exists (B + B). intro L.
  assert (I : is_RInt f 0 L (F L - F 0)).
  { apply (is_RInt_derive F f); intros; [apply D|apply C]. }
  split; [eexists; exact I|]. rewrite (is_RInt_unique _ _ _ _ I).
  replace (F L - F 0 - m * L) with ((F L - m * L) + - (F 0 - m * 0)) by ring.
  eapply Rle_trans; [apply Rabs_triang|]. rewrite Rabs_Ropp. pose proof (H L); pose proof (H 0). lra.
Qed.

(** *** the spectrum *)
Definition frac (n i : nat) : R := INR i / INR (n - 1).
Lemma linspace_R a b n : @linspace R NumT_R a b n = map (fun i => a * (1 - frac n i) + b * frac n i) (seq 0 n).
Proof.
  unfold linspace, frac. destruct n as [|[|n]].
  - reflexivity.
  - simpl seq. cbn [map]. replace (INR 0 / INR (1 - 1)) with 0 by (simpl; lra). f_equal. lra.
  - apply map_ext. intro i. rewrite !INR_IZR_INZ. reflexivity.
Qed.
Definition wavenumber (n : nat) (lmin lmax : R) (i : nat) : R :=
  exp (ln (2 * PI / lmax) * (1 - frac n i) + ln (2 * PI / lmin) * frac n i).
Lemma wavenumbers_R n lmin lmax : @wavenumbers R NumT_R n lmin lmax = map (wavenumber n lmin lmax) (seq 0 n).
Proof.
  unfold wavenumbers, logspace. rewrite linspace_R, map_map. apply map_ext. intro i. unfold wavenumber, log10, n2. rnum.
  unfold Rpower. f_equal. assert (0 < ln 10) by (rewrite <- ln_1; apply ln_increasing; lra). field. lra.
Qed.
Lemma combine_maps {A B C} (f : A -> B) (g : A -> C) l : combine (map f l) (map g l) = map (fun x => (f x, g x)) l.
Proof. induction l as [|a l IH]; [reflexivity|]. simpl. rewrite IH. reflexivity. Qed.
Definition raw (n : nat) (hurst lmin lmax : R) (i : nat) : R := Rpower (wavenumber n lmin lmax i) (- (hurst + 1/2)).
Definition raw_rms (n : nat) (hurst lmin lmax : R) : R :=
  sqrt (sumR (fun i => raw n hurst lmin lmax i * raw n hurst lmin lmax i) (seq 0 n) / 2).
Lemma spectral_R n hurst lmin lmax rms base key :
  sp_waves (@spectral R NumT_R n hurst lmin lmax rms base key) =
  map (fun i => {| hm_amp := raw n hurst lmin lmax i * (rms / raw_rms n hurst lmin lmax); hm_k := wavenumber n lmin lmax i;
                   hm_phase := (2 * PI * frac n i) * IZR key |}) (seq 0 n).
Proof.
  unfold spectral. rewrite wavenumbers_R, linspace_R, !map_map, nsum_R, !combine_maps. cbn [sp_waves]. rewrite map_map.
  apply map_ext. intro i. cbn [fst snd]. f_equal. rnum. ring.
Qed.
Lemma raw_pos n hurst lmin lmax i : 0 < raw n hurst lmin lmax i.
Proof. apply exp_pos. Qed.
Lemma raw_sum_pos n hurst lmin lmax : (1 <= n)%nat -> 0 < sumR (fun i => raw n hurst lmin lmax i * raw n hurst lmin lmax i) (seq 0 n).
Proof.
  intro N. destruct n as [|n]; [lia|]. cbn [seq]. rewrite sumR_cons.
  pose proof (raw_pos (S n) hurst lmin lmax 0). assert (0 <= sumR (fun i => raw (S n) hurst lmin lmax i * raw (S n) hurst lmin lmax i) (seq 1 n)).
  { apply sumR_nonneg. intros a _. apply Rle_0_sqr. }
  pose proof (Rmult_lt_0_compat _ _ H H). lra.
Qed.
Lemma raw_rms_sq n hurst lmin lmax : (1 <= n)%nat ->
  0 < raw_rms n hurst lmin lmax /\
  raw_rms n hurst lmin lmax * raw_rms n hurst lmin lmax = sumR (fun i => raw n hurst lmin lmax i * raw n hurst lmin lmax i) (seq 0 n) / 2.
Proof.
  intro N. pose proof (raw_sum_pos n hurst lmin lmax N). unfold raw_rms. split; [apply sqrt_lt_R0; lra|]. apply sqrt_sqrt. lra.
Qed.
Lemma frac_range n i : (i < n)%nat -> 0 <= frac n i <= 1.
Proof.
  intro I. unfold frac. destruct (Nat.eq_dec n 1) as [->|N].
  - assert (i = 0)%nat by lia. subst. simpl. lra.
  - assert (0 < INR (n - 1)) by (apply lt_0_INR; lia). assert (INR i <= INR (n - 1)) by (apply le_INR; lia). pose proof (pos_INR i).
    split; [apply Rmult_le_pos; [lra|apply Rlt_le, Rinv_0_lt_compat; lra]|].
    apply (Rmult_le_reg_r (INR (n - 1))); [lra|]. unfold Rdiv. rewrite Rmult_assoc, Rinv_l by lra. lra.
Qed.
Lemma frac_lt n i j : (i < j < n)%nat -> frac n i < frac n j.
Proof.
  intro I. unfold frac, Rdiv. apply Rmult_lt_compat_r; [apply Rinv_0_lt_compat, lt_0_INR; lia|apply lt_INR; lia].
Qed.
Lemma cauchy_sum {A} (f : A -> R) l : sumR f l * sumR f l <= INR (length l) * sumR (fun a => f a * f a) l.
Proof.
  induction l as [|a l IH]; [simpl; lra|]. cbn [length]. rewrite S_INR, !sumR_cons.
  set (s := sumR f l) in *. set (q := sumR (fun a => f a * f a) l) in *. set (n := INR (length l)) in *.
  assert (N : 0 <= n) by apply pos_INR. assert (Q : 0 <= q) by (apply sumR_nonneg; intros; apply Rle_0_sqr).
  (* (fa + s)^2 <= (n+1)(fa^2 + q): n fa^2 - 2 fa s + q + n q - s^2 >= 0 *)
  assert (2 * f a * s <= n * (f a * f a) + q).
  { destruct (Req_dec n 0) as [Z|Z].
    - rewrite Z in *. assert (s * s <= 0) by lra. assert (s = 0) by nra. subst s. rewrite H0. nra.
    - assert (0 < n) by lra. apply (Rmult_le_reg_l n); [lra|]. assert (0 <= (n * f a - s) * (n * f a - s)) by apply Rle_0_sqr. nra. }
  nra.
Qed.
