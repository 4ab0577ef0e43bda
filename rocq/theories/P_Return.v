(** The Cam-Clay return map (C139): what the two residuals are, what Newton's matrix is, what a step does, and what is left over. *)
From Coquelicot Require Import Coquelicot.
From Coq Require Import List Arith ZArith Reals Bool Lra Lia.
From Verif Require Import Num NumR Linalg Arrays ModelGrid ModelShape ModelMath ModelState ModelLaws SpecMath SpecLaws MathProofs LawProofs LawProofs2 P_Laws2 P_Laws3.
Import ListNotations.
Local Open Scope R_scope.

(** *** the returned stress *)
(** shear and bulk modulus of the clay at a pressure *)
Definition bulk (m : MCC R) (p : R) : R := get_K (mc_kap m) p (mc_Kmin m) (mc_Kmax m).
Definition shear (m : MCC R) (p : R) : R := get_G (mc_nu m) (bulk m p).

(** After a step that yields, with plastic multiplier [pm] and plastic compression [dv] given by the hardening of the clay:
    the deviator went back by 2 G times the plastic shear strain 3 pm s of the associated flow rule; the pressure followed the rest of the
    compression; the value of the yield function and the error of the volumetric flow rule are the residuals of the last iterate, the first in
    units of the trial bulk modulus.  So the residuals vanish exactly when the new stress is on the new yield surface and the plastic strain is
    normal to it. *)
Theorem C139_return : forall (m : MCC R) (L e s : mat3 R) pc sref v dt, mcc_params m -> mc_pmin m <= mean3 s -> 0 < pc ->
  v <= mc_N m * (999999 / 1000000) -> let t := mcc_trial m L e s pc dt in 0 < mt_yf t -> / 10 ^ 6 <= mt_q t ->
  let r := mcc_stress m L e s pc sref v dt in let s' := fst (fst r) in let pc' := snd r in let p' := mean3 s' in
  let dv := (mc_lam m - mc_kap m) * ln (pc' / pc) in
  exists pm r1 r2, 0 <= pm /\ (r1, r2) = mcc_residual m (mcc_args t pc) (mcc_iterate m t pc) /\
    0 < p' /\ 0 < pc' /\ p' = mean3 s * exp ((dt * mtrace L - dv) / mc_kap m) /\
    madd (deviator s') (mscale (2 * shear m p') (mscale (3 * pm) (deviator s'))) = mt_s t /\
    mcc_yield (mc_M m) pc' s' = mt_K t * r1 /\ pm * (mc_M m * mc_M m) * (2 * p' - pc') - dv = r2 /\
    (r1 = 0 /\ r2 = 0 <-> mcc_yield (mc_M m) pc' s' = 0 /\ dv = pm * (mc_M m * mc_M m) * (2 * p' - pc')).
Proof.
  intros m L e s pc sref v dt P Ps Pc Hv t Hy Hq r s' pc' p' dv. pose proof P as (Hk & Hkl & _ & HM & Hp & _). assert (Pm : 0 < mean3 s) by lra.
  assert (Er : r = mcc_plastic m t pc sref).
  { unfold r, mcc_stress. cbv zeta. fold t. change ((v <=? mc_N m * lit 999999 1000000)%num) with (Rleb v (mc_N m * (999999 / 1000000))).
    change ((n0 <? mt_yf t)%num) with (Rltb 0 (mt_yf t)). rewrite (proj2 (Rleb_true _ _) Hv), (proj2 (Rltb_true _ _) Hy). reflexivity. }
  assert (Pp : mt_pprev t = mean3 s) by (unfold t; rewrite mt_pprev_eq; apply Rmax_left; exact Ps).
  assert (Ts : mtrace (mt_s t) = 0) by (unfold t; rewrite mt_s_trace, Rmax_left by exact Ps; ring).
  assert (De : mt_dev t = dt * mtrace L) by (unfold t; apply mt_dev_eq).
  destruct (mcc_plastic_eq m t pc sref P) as (F & P0 & Pe & E1 & E2); [rewrite Pp; exact Pm|].
  assert (X : 0 <= fst (mcc_iterate m t pc)) by (unfold mcc_iterate; apply newton_iter_nonneg).
  assert (Es : s' = madd (mscale (mcc_factor m (mcc_args t pc) (mcc_iterate m t pc)) (mt_s t)) (mscale (mcc_p m (mcc_args t pc) (snd (mcc_iterate m t pc))) meye))
    by (unfold s'; rewrite Er; exact E1).
  assert (Ec : pc' = exp (snd (mcc_iterate m t pc))) by (unfold pc'; rewrite Er; exact E2). clear E1 E2 Er. 
  assert (K0 : 0 < mt_K t) by (unfold t, mcc_trial; cbn [mt_K]; apply mcc_K_pos; exact P).
  assert (Qt : mt_q t = q_vm_dev (mt_s t)) by reflexivity.
  clearbody s' pc'. clear r Hv. clearbody t.
  revert F P0 Pe X Es Ec. generalize (mcc_iterate m t pc). intros [pm u] F P0 Pe X Es Ec. cbn [fst snd] in *.
  set (a := mcc_args t pc) in *. set (f := mcc_factor m a (pm, u)) in *. set (p := mcc_p m a u) in *.
  assert (Ep : p' = p). { unfold p'. rewrite Es. apply mean_split. rewrite trace_scale, Ts. ring. }
  assert (Ed : deviator s' = mscale f (mt_s t)). { rewrite Es. apply dev_split. rewrite trace_scale, Ts. ring. }
  assert (El : ln (pc' / pc) = u - ln pc) by (rewrite Ec, ln_div, ln_exp by (try apply exp_pos; assumption); reflexivity).
  assert (Ef : f * (1 + 6 * shear m p * pm) = 1).
  { change f with (1 / (1 + 6 * shear m p * pm)). assert (0 < shear m p) by (apply get_G_pos; [exact P|apply mcc_K_pos; exact P]).
    assert (0 <= shear m p * pm) by (apply Rmult_le_pos; lra). generalize dependent (shear m p). intros G G0 G1. field. lra. }
  assert (Eq : ar_qtr a = mt_q t). { unfold a, mcc_args. cbn [ar_qtr]. change (@numt_num R NumT_R) with Num_R. rewrite nmax_R. apply Rmax_left. 
    unfold lit. change (@nofZ R Num_R (10 ^ 6)) with (IZR (10 ^ 6)). change (10 ^ 6)%Z with (10 ^ Z.of_nat 6)%Z. rewrite <- pow_IZR. cbn [n1 ndiv Num_R nofZ]. lra. }
  assert (Ey : mcc_yield (mc_M m) pc' s' = (f * mt_q t * (f * mt_q t)) / (mc_M m * mc_M m) + p * p - pc' * p).
  { unfold mcc_yield. fold p'. rewrite Ep. f_equal. f_equal. f_equal.
    assert (Q : q_of s' * q_of s' = f * f * (3 / 2 * frob2 (mt_s t))).
    { unfold q_of. rewrite sqrt_sqrt by (pose proof (frob2_nonneg (deviator s')); unfold J2_of; lra). unfold J2_of. rewrite Ed. clear. clearbody f. unfold frob2, mscale, mmap. cbn. rnum. field. }
    rewrite Q. replace (f * mt_q t * (f * mt_q t)) with (f * f * (mt_q t * mt_q t)) by ring. f_equal.
    rewrite Qt. unfold q_vm_dev. change (@numt_num R NumT_R) with Num_R. rewrite J2_dev_frob.
    change (nsqrt ?x) with (sqrt x). change (3 / 2 * frob2 (mt_s t) = sqrt (3 * (frob2 (mt_s t) / 2)) * sqrt (3 * (frob2 (mt_s t) / 2))).
    rewrite sqrt_sqrt by (pose proof (frob2_nonneg (mt_s t)); lra). field. }
  exists pm, (mcc_yield (mc_M m) pc' s' / mt_K t), (pm * (mc_M m * mc_M m) * (2 * p' - pc') - dv).
  split; [exact X|]. split.
  { rewrite Ey. unfold mcc_residual. cbn [fst snd]. fold p f a. f_equal.
    - unfold yield_function. rewrite Eq. change (ar_Ktr a) with (mt_K t). rewrite Ec. change (nexp u) with (exp u). rnum. field. lra.
    - unfold dv. rewrite El, Ep, Ec. change (ar_u0 a) with (ln pc). unfold mc_cp, sq. change (nexp u) with (exp u). rnum. unfold n2. cbn. ring. }
  split; [rewrite Ep; exact P0|]. split; [rewrite Ec; apply exp_pos|]. split; [rewrite Ep, Pe, Pp, De; unfold dv; rewrite El; reflexivity|].
  split. { rewrite Ep, Ed. clear -Ef. generalize dependent (shear m p). clearbody f. intros G Ef. generalize (mt_s t). intros [c0 c1 c2 c3 c4 c5 c6 c7 c8]. unfold madd, mscale, mmap2, mmap. cbn [m00 m01 m02 m10 m11 m12 m20 m21 m22]. rnum.
    f_equal; match goal with |- _ = ?c => transitivity (f * (1 + 6 * G * pm) * c); [ring|rewrite Ef; ring] end. }
  split; [field; lra|]. split; [reflexivity|]. split; intros (A & B).
  - split; [|lra]. apply Rmult_eq_reg_r with (/ mt_K t); [|apply Rinv_neq_0_compat; lra]. unfold Rdiv in A. rewrite A. ring.
  - rewrite A. split; [unfold Rdiv; ring|lra].
Qed.
Print Assumptions C139_return.

(** *** Newton's matrix is the derivative of the residuals *)
Lemma above_locally (f : R -> R) (x d c : R) : is_derive f x d -> c < f x -> locally x (fun y => c < f y).
Proof.
  intros D H. assert (C : continuous f x) by (apply (@ex_derive_continuous R_AbsRing R_NormedModule); exists d; exact D).
  apply (C (fun y => c < y)). exists (mkposreal (f x - c) ltac:(lra)). intros y B. unfold ball in B. cbn in B. unfold AbsRing_ball, abs, minus, plus, opp in B. cbn in B.
  apply Rabs_def2 in B. lra.
Qed.
Lemma below_locally (f : R -> R) (x d c : R) : is_derive f x d -> f x < c -> locally x (fun y => f y < c).
Proof.
  intros D H. assert (C : continuous f x) by (apply (@ex_derive_continuous R_AbsRing R_NormedModule); exists d; exact D).
  apply (C (fun y => y < c)). exists (mkposreal (c - f x) ltac:(lra)). intros y B. unfold ball in B. cbn in B. unfold AbsRing_ball, abs, minus, plus, opp in B. cbn in B.
  apply Rabs_def2 in B. lra.
Qed.
Lemma dmax_derive (f : R -> R) (x d c : R) : is_derive f x d -> f x <> c -> is_derive (fun y => Rmax (f y) c) x (dmax (f x) c * d).
Proof.
  intros D N. unfold dmax. rnum. destruct (Rlt_dec c (f x)) as [G | G].
  - rewrite (proj2 (Rltb_true _ _) G), Rmult_1_l. apply (is_derive_ext_loc f); [| exact D].
    eapply filter_imp; [| exact (above_locally f x d c D G)]. intros y H. cbn in H. rewrite Rmax_left; lra.
  - assert (G2 : f x < c) by lra. rewrite (proj2 (Rltb_false c (f x))), (proj2 (Rltb_true _ _) G2), Rmult_0_l by lra.
    apply (is_derive_ext_loc (fun _ => c)); [| apply is_derive_Reals, derivable_pt_lim_const].
    eapply filter_imp; [| exact (below_locally f x d c D G2)]. intros y H. cbn in H. rewrite Rmax_right; lra.
Qed.
Lemma dmin_derive (f : R -> R) (x d c : R) : is_derive f x d -> f x <> c -> is_derive (fun y => Rmin (f y) c) x (dmin (f x) c * d).
Proof.
  intros D N. unfold dmin. rnum. destruct (Rlt_dec (f x) c) as [G | G].
  - rewrite (proj2 (Rltb_true _ _) G), Rmult_1_l. apply (is_derive_ext_loc f); [| exact D].
    eapply filter_imp; [| exact (below_locally f x d c D G)]. intros y H. cbn in H. rewrite Rmin_left; lra.
  - assert (G2 : c < f x) by lra. rewrite (proj2 (Rltb_false (f x) c)), (proj2 (Rltb_true _ _) G2), Rmult_0_l by lra.
    apply (is_derive_ext_loc (fun _ => c)); [| apply is_derive_Reals, derivable_pt_lim_const].
    eapply filter_imp; [| exact (above_locally f x d c D G2)]. intros y H. cbn in H. rewrite Rmin_right; lra.
Qed.
(** not at a corner of the bulk modulus: at pressure 1 and where a limit of the modulus begins to act *)
Definition no_corner (m : MCC R) (p : R) : Prop :=
  p <> 1 /\ (forall l, mc_Kmin m = Some l -> 1 / mc_kap m * Rmax p 1 <> l) /\
  (forall h, mc_Kmax m = Some h -> match mc_Kmin m with Some l => Rmax (1 / mc_kap m * Rmax p 1) l | None => 1 / mc_kap m * Rmax p 1 end <> h).
Lemma dK_derive (m : MCC R) (f : R -> R) (x d : R) : is_derive f x d -> no_corner m (f x) -> is_derive (fun y => mcc_K m (f y)) x (dK m (f x) * d).
Proof.
  intros D (N1 & N2 & N3). pose proof (dmax_derive f x d 1 D N1) as D1.
  assert (D2 : is_derive (fun y => 1 / mc_kap m * Rmax (f y) 1) x (1 / mc_kap m * (dmax (f x) 1 * d))) by (apply (is_derive_scal (fun y => Rmax (f y) 1)); exact D1).
  set (g := fun y => 1 / mc_kap m * Rmax (f y) 1) in *.
  assert (D3 : is_derive (fun y => clip_lo (mc_Kmin m) (g y)) x (dclip_lo (mc_Kmin m) (g x) * (1 / mc_kap m * (dmax (f x) 1 * d)))).
  { unfold clip_lo, dclip_lo. destruct (mc_Kmin m) as [l |]; [| change n1 with 1; rewrite Rmult_1_l; exact D2].
    apply (is_derive_ext (fun y => Rmax (g y) l)); [intros y; symmetry; apply nmax_R |]. apply (dmax_derive g x _ l D2). apply N2; reflexivity. }
  assert (D4 : is_derive (fun y => clip_hi (mc_Kmax m) (clip_lo (mc_Kmin m) (g y))) x
     (dclip_hi (mc_Kmax m) (clip_lo (mc_Kmin m) (g x)) * (dclip_lo (mc_Kmin m) (g x) * (1 / mc_kap m * (dmax (f x) 1 * d))))).
  { unfold clip_hi at 1, dclip_hi. destruct (mc_Kmax m) as [h |]; [| change n1 with 1; rewrite Rmult_1_l; exact D3].
    apply (is_derive_ext (fun y => Rmin (clip_lo (mc_Kmin m) (g y)) h)); [intros y; symmetry; apply nmin_R |]. apply (dmin_derive (fun y => clip_lo (mc_Kmin m) (g y)) x _ h D3).
    specialize (N3 h eq_refl). unfold clip_lo. destruct (mc_Kmin m) as [l |]; [rewrite nmax_R; exact N3 | exact N3]. }
  unfold mcc_K, get_K, dK. change (@numt_num R NumT_R) with Num_R.
  apply (is_derive_ext (fun y => clip_hi (mc_Kmax m) (clip_lo (mc_Kmin m) (g y)))); [intros y; rewrite nmax_R; reflexivity |].
  rewrite nmax_R. change (nmul (ndiv n1 (mc_kap m)) (Rmax (f x) n1)) with (g x). 
  match goal with |- is_derive _ _ ?v => match type of D4 with is_derive _ _ ?w => replace v with w by (rnum; ring) end end. exact D4.
Qed.
Lemma p_derive (m : MCC R) a u : mc_kap m <> 0 -> is_derive (fun u => mcc_p m a u) u (mcc_p m a u * (- mc_cp m / mc_kap m)).
Proof.
  intros Hk. unfold mcc_p, get_pressure_mcc. cbn. rnum. auto_derive; [exact I | unfold Rdiv, Rminus; ring].
Qed.
Lemma slope_pm q g p E M K pm : 0 < 1 + 6 * g * pm -> 0 < K -> 0 < M ->
  is_derive (fun x => (q * (1 / (1 + 6 * g * x)) * (q * (1 / (1 + 6 * g * x))) / (M * M) + p * p - E * p) / K) pm
    (2 * (q * (1 / (1 + 6 * g * pm))) * (q * (- (6 * g) * (1 / (1 + 6 * g * pm) * (1 / (1 + 6 * g * pm))))) / (M * M) / K).
Proof. intros G HK HM. auto_derive; [repeat split; lra | field; repeat split; lra]. Qed.
Lemma slope_u q (g h : R -> R) g' h' M K pm u : is_derive g u g' -> is_derive h u h' -> 0 < 1 + 6 * g u * pm -> 0 < K -> 0 < M ->
  is_derive (fun y => (q * (1 / (1 + 6 * g y * pm)) * (q * (1 / (1 + 6 * g y * pm))) / (M * M) + h y * h y - exp y * h y) / K) u
    ((2 * (q * (1 / (1 + 6 * g u * pm))) * (q * (- (6 * g' * pm) * (1 / (1 + 6 * g u * pm) * (1 / (1 + 6 * g u * pm))))) / (M * M)
      + 2 * h u * h' - exp u * h u - exp u * h') / K).
Proof.
  intros DG Dp G HK HM. auto_derive.
  - repeat split; try lra; [exists g'; exact DG | exists g'; exact DG | exists h'; exact Dp | exists h'; exact Dp | exists h'; exact Dp].
  - replace (Derive (fun x : R => g x) u) with g' by (symmetry; exact (is_derive_unique _ _ _ DG)).
    replace (Derive (fun x : R => h x) u) with h' by (symmetry; exact (is_derive_unique _ _ _ Dp)). field. repeat split; lra.
Qed.
Theorem C139_jacobian : forall (m : MCC R) a pm u, mcc_params m -> 0 <= pm -> 0 < ar_Ktr a -> no_corner m (mcc_p m a u) ->
  let J := mcc_jacobian m a (pm, u) in
  is_derive (fun x => fst (mcc_residual m a (x, u))) pm (a00 J) /\ is_derive (fun y => fst (mcc_residual m a (pm, y))) u (a01 J) /\
  is_derive (fun x => snd (mcc_residual m a (x, u))) pm (a10 J) /\ is_derive (fun y => snd (mcc_residual m a (pm, y))) u (a11 J).
Proof.
  intros m a pm u P Hpm HK NC J. pose proof P as (Hk & Hkl & _ & HM & _).
  assert (Dp := p_derive m a u ltac:(lra)). assert (DK := dK_derive m _ _ _ Dp NC).
  set (c := 3 * (1 - 2 * mc_nu m) / (2 * (1 + mc_nu m))).
  set (g := fun y => c * mcc_K m (mcc_p m a y)).
  assert (KP : 0 < g u) by (apply (get_G_pos m); [exact P | apply mcc_K_pos; exact P]).
  assert (Den : 0 < 1 + 6 * g u * pm) by (pose proof (Rmult_le_pos _ _ (Rlt_le _ _ KP) Hpm); lra).
  assert (DG : is_derive g u (c * (dK m (mcc_p m a u) * (mcc_p m a u * (- mc_cp m / mc_kap m)))))
    by (apply (is_derive_scal (fun y => mcc_K m (mcc_p m a y))); exact DK).
  split; [exact (slope_pm (ar_qtr a) (g u) (mcc_p m a u) (exp u) (mc_M m) (ar_Ktr a) pm Den HK HM) |].
  split; [exact (slope_u (ar_qtr a) g (fun y => mcc_p m a y) _ _ (mc_M m) (ar_Ktr a) pm u DG Dp Den HK HM) |].
  assert (D3 : forall A B C x, is_derive (fun x => x * A * B - C) x (A * B)) by (intros; auto_derive; [exact I | ring]).
  split; [exact (D3 (2 * mcc_p m a u - exp u) (mc_M m * mc_M m) (mc_cp m * (u - ar_u0 a)) pm) |].
  assert (D4 : forall (h : R -> R) h' M2 cp u0, is_derive h u h' -> is_derive (fun y => pm * (2 * h y - exp y) * M2 - cp * (y - u0)) u (pm * (2 * h' - exp u) * M2 - cp))
    by (intros h h' M2 cp u0 D; auto_derive; [exists h'; exact D | replace (Derive (fun x : R => h x) u) with h' by (symmetry; exact (is_derive_unique _ _ _ D)); ring]).
  exact (D4 (fun y => mcc_p m a y) _ (mc_M m * mc_M m) (mc_cp m) (ar_u0 a) Dp).
Qed.
Print Assumptions C139_jacobian.

(** *** one Newton step *)
(** a step solves the linearised equations for 8/10 of the residual, less the share the guarded determinant takes; multiplier and logarithm of the
    preconsolidation pressure are cut at zero; away from the cuts, the points that a step leaves in place are exactly the roots *)
Lemma Rmax_uncut a : 0 < Rmax a 0 -> Rmax a 0 = a.
Proof. unfold Rmax. destruct (Rle_dec a 0); lra. Qed.
Lemma finite_R (x : R) : not_finite x = false.
Proof. unfold not_finite. rnum. replace (x - x) with 0 by ring. rewrite (proj2 (Reqb_true 0 0) eq_refl). reflexivity. Qed.
Lemma newton_step_eq (m : MCC R) a x : let d := m2v (inv_2x2_robust (mcc_jacobian m a x) (IZR (10 ^ 6))) (mcc_residual m a x) in
  mcc_newton_step m a x = (Rmax (fst x - 8 / 10 * fst d) 0, Rmax (snd x - 8 / 10 * snd d) 0).
Proof.
  cbv zeta. unfold mcc_newton_step. change (nofZ (10 ^ 6)) with (IZR (10 ^ 6)). cbv zeta.
  change (@numt_num R NumT_R) with Num_R. rewrite !finite_R. cbn [orb fst snd]. rewrite !nmax_R. unfold lit. rnum.
  match goal with |- (Rmax (_ + _ * - fst ?z) 0, _) = (Rmax (_ - _ * fst ?w) 0, _) => change w with z; generalize z end. intros d. f_equal; f_equal; ring.
Qed.
Theorem C139_newton : forall (m : MCC R) a pm u, let J := mcc_jacobian m a (pm, u) in let r := mcc_residual m a (pm, u) in
  let y := mcc_newton_step m a (pm, u) in let det := a00 J * a11 J - a01 J * a10 J in
  0 <= fst y /\ 0 <= snd y /\
  (exists f, 0 <= f < 1 /\ (1 - f) * Rabs det <= / 10 ^ 20 /\ (0 < fst y -> 0 < snd y ->
     m2v J (fst y - pm, snd y - u) = (- (8 / 10 * f) * fst r, - (8 / 10 * f) * snd r))) /\
  (0 < pm -> 0 < u -> det <> 0 -> (y = (pm, u) <-> r = (0, 0))).
Proof.
  intros m a pm u J r y det. assert (Ey := newton_step_eq m a (pm, u)). cbv zeta in Ey. fold J r y in Ey. cbn [fst snd] in Ey.
  set (d := m2v (inv_2x2_robust J (IZR (10 ^ 6))) r) in *.
  assert (E1 := inv2_right J (IZR (10 ^ 6)) r). fold d in E1. change (det2 J) with det in E1.
  assert (T : 0 < / 10 ^ 20) by (apply Rinv_0_lt_compat, pow_lt; lra).
  assert (F : 0 <= det / shift20 det < 1 /\ (1 - det / shift20 det) * Rabs det <= / 10 ^ 20).
  { unfold shift20. clearbody det. generalize dependent (/ 10 ^ 20). intros t Ht. 
    assert (G : forall w, 0 <= w -> 0 <= w / (w + t) < 1 /\ (1 - w / (w + t)) * w <= t).
    { intros w Hw. assert (I : 0 < / (w + t)) by (apply Rinv_0_lt_compat; lra). assert (Ew : (w + t) * / (w + t) = 1) by (apply Rinv_r; lra).
      unfold Rdiv. split; [split; nra |]. replace (1 - w * / (w + t)) with (t * / (w + t)) by nra. nra. }
    destruct (Rleb 0 det) eqn:B; [apply Rleb_true in B | apply Rleb_false in B].
    - rewrite Rmult_1_r, (Rabs_pos_eq det) by lra. apply G. exact B.
    - destruct (G (- det)) as (G1 & G2); [lra |]. rewrite (Rabs_left det) by lra.
      replace (det / (det + t * -1)) with (- det / (- det + t)) by (field; lra). split; assumption. }
  rewrite Ey. cbn [fst snd]. split; [apply Rmax_r |]. split; [apply Rmax_r |]. split.
  - exists (det / shift20 det). split; [apply F |]. split; [apply F |]. intros A B.
    assert (X1 : Rmax (pm - 8 / 10 * fst d) 0 = pm - 8 / 10 * fst d) by (apply Rmax_uncut; exact A).
    assert (X2 : Rmax (u - 8 / 10 * snd d) 0 = u - 8 / 10 * snd d) by (apply Rmax_uncut; exact B).
    rewrite X1, X2. clear -E1. clearbody d r J. destruct d as [d1 d2], r as [r1 r2]. unfold m2v in *. cbn [fst snd] in *. rnum. injection E1 as E1 E2. f_equal; lra.
  - intros Hp Hu Hd. assert (F0 : det / shift20 det <> 0).
    { unfold Rdiv. intros Z. apply Rmult_integral in Z. destruct Z as [Z | Z]; [contradiction | exact (Rinv_neq_0_compat _ (shift20_ne det) Z)]. }
    split; intros E.
    + pose proof (f_equal fst E) as X1. pose proof (f_equal snd E) as X2. cbn [fst snd] in X1, X2.
      assert (D0 : d = (0, 0)). { rewrite Rmax_uncut in X1 by lra. rewrite Rmax_uncut in X2 by lra. clear -X1 X2. clearbody d. destruct d as [d1 d2]. cbn [fst snd] in *. f_equal; lra. }
      assert (E2 : m2v J (0, 0) = (0, 0)) by (clearbody J; clear; unfold m2v; cbn [fst snd]; rnum; f_equal; ring).
      rewrite D0, E2 in E1. pose proof (f_equal fst E1) as Z1. pose proof (f_equal snd E1) as Z2. cbn [fst snd] in Z1, Z2. rewrite (surjective_pairing r).
      clear -F0 Z1 Z2. generalize dependent (det / shift20 det). clearbody r. clear det J. intros f F0 Z1 Z2. f_equal.
      * apply Rmult_eq_reg_l with f; [lra | exact F0].
      * apply Rmult_eq_reg_l with f; [lra | exact F0].
    + assert (D0 : d = (0, 0)) by (unfold d; rewrite E; unfold m2v; cbn [fst snd]; rnum; f_equal; ring).
      rewrite D0. cbn [fst snd]. rewrite !Rmax_left by lra. f_equal; ring.
Qed.
Print Assumptions C139_newton.

(** *** limits of the return map *)
(** the logarithm of the preconsolidation pressure is cut at zero, so the result depends on the unit of stress: a clay whose preconsolidation pressure
    is below one leaves every yielding step with at least one, whatever the flow, and its pressure drops by the factor that hardening costs *)
Lemma newton_u_nonneg (m : MCC R) a n x : (1 <= n)%nat -> 0 <= snd (iter n (mcc_newton_step m a) x).
Proof.
  intros Hn. destruct n as [| n]; [lia |]. rewrite iter_S. generalize (iter n (mcc_newton_step m a) x). intros [pm u]. apply (C139_newton m a pm u).
Qed.
Theorem C139_units_refuted : forall (m : MCC R) (L e s : mat3 R) pc sref v dt, mcc_params m -> mc_pmin m <= mean3 s -> 0 < pc < 1 ->
  v <= mc_N m * (999999 / 1000000) -> 0 < mt_yf (mcc_trial m L e s pc dt) ->
  let r := mcc_stress m L e s pc sref v dt in
  1 <= snd r /\ mean3 (fst (fst r)) <= mean3 s * exp (dt * mtrace L / mc_kap m) * Rpower pc ((mc_lam m - mc_kap m) / mc_kap m).
Proof.
  intros m L e s pc sref v dt P Ps Pc Hv Hy r. pose proof P as (Hk & Hkl & _ & HM & Hp & _).
  destruct (mcc_step_line m L e s pc sref v dt P Ps (proj1 Pc) Hv) as (A & B & C). fold r in A, B, C.
  assert (R1 : 1 <= snd r).
  { unfold r, mcc_stress. cbv zeta. change ((v <=? mc_N m * lit 999999 1000000)%num) with (Rleb v (mc_N m * (999999 / 1000000))).
    set (t := mcc_trial m L e s pc dt) in *. change ((n0 <? mt_yf t)%num) with (Rltb 0 (mt_yf t)). rewrite (proj2 (Rleb_true _ _) Hv), (proj2 (Rltb_true _ _) Hy).
    assert (Pp : 0 < mt_pprev t) by (unfold t; rewrite mt_pprev_eq; pose proof (Rmax_r (mean3 s) (mc_pmin m)); lra).
    destruct (mcc_plastic_eq m t pc sref P Pp) as (_ & _ & _ & _ & E2). rewrite E2.
    assert (U : 0 <= snd (mcc_iterate m t pc)) by (unfold mcc_iterate; apply newton_u_nonneg; lia).
    revert U. generalize (snd (mcc_iterate m t pc)). intros u U. rewrite <- exp_0. destruct U as [U | <-]; [left; apply exp_increasing; exact U | right; reflexivity]. }
  split; [exact R1 |].
  assert (Pm : 0 < mean3 s) by lra. rewrite !ln_div in C by (try assumption; lra).
  set (p' := mean3 (fst (fst r))) in *. assert (L0 : 0 <= ln (snd r)).
  { rewrite <- ln_1. destruct R1 as [R1 | <-]; [left; apply ln_increasing; lra | right; reflexivity]. }
  rewrite <- (exp_ln p') by exact A. rewrite <- (exp_ln (mean3 s)) at 1 by exact Pm. unfold Rpower. rewrite <- !exp_plus.
  assert (Q : ln p' <= ln (mean3 s) + dt * mtrace L / mc_kap m + (mc_lam m - mc_kap m) / mc_kap m * ln pc).
  { apply Rmult_le_reg_l with (mc_kap m); [exact Hk |]. 
    replace (mc_kap m * (ln (mean3 s) + dt * mtrace L / mc_kap m + (mc_lam m - mc_kap m) / mc_kap m * ln pc))
      with (mc_kap m * ln (mean3 s) + dt * mtrace L + (mc_lam m - mc_kap m) * ln pc) by (field; lra). nra. }
  destruct Q as [Q | ->]; [left; apply exp_increasing; exact Q | right; reflexivity].
Qed.
Print Assumptions C139_units_refuted.
(** the elastic strain stored is not a function of the stress: from the reference state an elastic step stores the logarithmic strain
    kappa ln(p/p0), a yielding step that ends at the same pressure stores kappa (1 - p0/p), which is less *)
Theorem C139_strain_refuted : forall (m : MCC R) (L e s : mat3 R) pc sref v dt, mcc_params m -> mc_Kmin m = None -> mc_Kmax m = None ->
  mc_pmin m <= mean3 s -> 0 < pc -> v <= mc_N m * (999999 / 1000000) -> 0 < mean3 sref ->
  let r := mcc_stress m L e s pc sref v dt in let p' := mean3 (fst (fst r)) in
  (mt_yf (mcc_trial m L e s pc dt) <= 0 -> e = mzero -> s = sref -> mtrace (snd (fst r)) = mc_kap m * ln (p' / mean3 sref)) /\
  (0 < mt_yf (mcc_trial m L e s pc dt) -> 1 <= p' -> mtrace (snd (fst r)) = mc_kap m * (1 - mean3 sref / p') /\
     (p' <> mean3 sref -> mtrace (snd (fst r)) < mc_kap m * ln (p' / mean3 sref))).
Proof.
  intros m L e s pc sref v dt P K1 K2 Ps Pc Hv P0 r p'. pose proof P as (Hk & Hkl & _ & HM & Hp & _).
  destruct (mcc_step_line m L e s pc sref v dt P Ps Pc Hv) as (A & B & C). fold r in A, B, C. fold p' in A, C.
  assert (Er : r = if Rltb 0 (mt_yf (mcc_trial m L e s pc dt)) then mcc_plastic m (mcc_trial m L e s pc dt) pc sref
     else (madd (mt_s (mcc_trial m L e s pc dt)) (mscale (mt_p (mcc_trial m L e s pc dt)) meye), madd (mt_eps_rot (mcc_trial m L e s pc dt)) (mt_deps (mcc_trial m L e s pc dt)), pc)).
  { unfold r, mcc_stress. cbv zeta. change ((v <=? mc_N m * lit 999999 1000000)%num) with (Rleb v (mc_N m * (999999 / 1000000))).
    rewrite (proj2 (Rleb_true _ _) Hv). reflexivity. }
  set (t := mcc_trial m L e s pc dt) in *. split.
  - intros Hy -> ->. rewrite (proj2 (Rltb_false _ _) Hy) in Er. rewrite Er in C |- *. cbn [fst snd] in *.
    replace (pc / pc) with 1 in C by (field; lra). rewrite ln_1, Rmult_0_r, Rplus_0_r in C. rewrite C.
    unfold t, mcc_trial. cbn [mt_eps_rot mt_deps]. unfold get_jaumann_increment, get_sym_tensor. mcbv. lra.
  - intros Hy H1. rewrite (proj2 (Rltb_true _ _) Hy) in Er.
    assert (Pp : 0 < mt_pprev t) by (unfold t; rewrite mt_pprev_eq; pose proof (Rmax_r (mean3 s) (mc_pmin m)); lra).
    assert (Ts : mtrace (mt_s t) = 0) by (unfold t; rewrite mt_s_trace, Rmax_left by exact Ps; ring).
    destruct (mcc_plastic_eq m t pc sref P Pp) as (F & Q & _ & E1 & _). rewrite <- Er in E1.
    assert (Ep : p' = mcc_p m (mcc_args t pc) (snd (mcc_iterate m t pc))). { unfold p'. rewrite E1. apply mean_split. rewrite trace_scale, Ts. ring. }
    assert (Et : mtrace (snd (fst r)) = (p' - mean3 sref) / mcc_K m p').
    { assert (Es : exists x, snd (fst (mcc_plastic m t pc sref)) =
        madd (mmap (fun y => (y / (n2 * get_G (mc_nu m) (mcc_K m x)))%num) (msub (mmap2 or_else (mmap (fun y => (y * mcc_factor m (mcc_args t pc) (mcc_iterate m t pc))%num) (mt_s t)) (mt_s t)) (get_dev_stress sref (Some (get_pressure sref)))))
             (mscale (lit 1 3 * ((or_else x (mt_pprev t) - get_pressure sref) / mcc_K m x))%num meye) /\ x = mcc_p m (mcc_args t pc) (snd (mcc_iterate m t pc))).
      { exists (mcc_p m (mcc_args t pc) (snd (mcc_iterate m t pc))). split; [| reflexivity]. unfold mcc_plastic, mcc_iterate. cbv zeta.
        match goal with |- context [iter 10 ?f ?a] => generalize (iter 10 f a) end. intros x. reflexivity. }
      destruct Es as (x & Es & Ex). rewrite <- Ex in *. rewrite Er, Es, Ep. clear -F Ts Q. revert F. generalize (mcc_factor m (mcc_args t pc) (mcc_iterate m t pc)). intros f F.
      rewrite (or_else_R x) by lra. revert Ts. generalize (mt_s t). intros [c0 c1 c2 c3 c4 c5 c6 c7 c8] Ts. generalize (get_G (mc_nu m) (mcc_K m x)) (mcc_K m x). intros G K.
      assert (F0 : f <> 0) by lra. unfold mmap2, mmap, madd, msub, mscale, mmap2, mmap, get_dev_stress, get_pressure, mtrace. cbn [m00 m01 m02 m10 m11 m12 m20 m21 m22].
      rewrite !(or_else_scaled _ f F0). unfold mtrace in Ts. cbn [m00 m11 m22] in Ts. destruct sref as [d0 d1 d2 d3 d4 d5 d6 d7 d8]. unfold mean3, meye, lit. mcbv. unfold mtrace in Ts. rnum.
      replace c8 with (- c0 - c4) by lra. unfold Rdiv. match goal with |- context [/ (2 * ?g)] => generalize (/ (2 * g)) end. intros i. generalize (/ K). intros j. field. }
    assert (EK : mcc_K m p' = p' / mc_kap m).
    { unfold mcc_K, get_K. rewrite K1, K2. cbn [clip_lo clip_hi]. change (@numt_num R NumT_R) with Num_R. rewrite nmax_R. rnum. rewrite Rmax_left by exact H1. field. lra. }
    assert (E3 : mtrace (snd (fst r)) = mc_kap m * (1 - mean3 sref / p')) by (rewrite Et, EK; field; lra).
    split; [exact E3 |]. intros N. rewrite E3. apply Rmult_lt_compat_l; [exact Hk |].
    rewrite ln_div by assumption. assert (X : ln (mean3 sref) - ln p' <> 0) by (intros X; apply N; apply ln_inv; lra).
    pose proof (exp_ineq1 _ X) as Y. rewrite <- ln_div, exp_ln in Y by (try assumption; apply Rdiv_lt_0_compat; assumption).
    rewrite ln_div in Y by assumption. lra.
Qed.
Print Assumptions C139_strain_refuted.
Example C139_case : let s := mdiag 130 85 85 in let t := mcc_trial kaolin mzero mzero s 100 1 in
  mcc_params kaolin /\ mc_pmin kaolin <= mean3 s /\ 1 <= mc_N kaolin * (999999 / 1000000) /\ mt_yf t = 2025 /\ mt_q t = 45 /\
  no_corner kaolin (mcc_p kaolin (mcc_args t 100) (ln 100)).
Proof.
  cbv zeta. set (s := mdiag 130 85 85).
  assert (M : mean3 s = 100) by (unfold mean3, s; cbn; lra).
  set (t := mcc_trial kaolin mzero mzero s 100 1).
  assert (Ep : mt_p t = 100).
  { unfold t. rewrite mt_p_eq, M, Rmax_left by (cbn; lra). replace (1 * mtrace mzero / mc_kap kaolin) with 0 by (unfold mtrace, mzero; cbn; rnum; field). rewrite exp_0. ring. }
  assert (Es : mt_s t = mdiag 30 (-15) (-15)).
  { assert (Pp : mt_pprev t = 100) by (unfold t; rewrite mt_pprev_eq, M; apply Rmax_left; cbn; lra).
    change (mt_s t) with (get_s (get_dev_strain (mscale 1 (get_sym_tensor mzero)) (Some (mt_dev t))) (get_G (mc_nu kaolin) (mt_K t)) (get_dev_stress (get_jaumann_increment s (get_spin_tensor mzero) 1) (Some (mt_pprev t)))).
    rewrite Pp. assert (De : mt_dev t = 0) by (unfold t; rewrite mt_dev_eq; unfold mtrace, mzero; cbn; rnum; ring). rewrite De.
    generalize (get_G (mc_nu kaolin) (mt_K t)). intros G. unfold s. clear. unfold get_s, get_dev_strain, get_dev_stress, get_jaumann_increment, get_spin_tensor, get_sym_tensor. mcbv. f_equal; field. }
  assert (Eq : mt_q t = 45).
  { change (mt_q t) with (q_vm_dev (mt_s t)). rewrite Es. unfold q_vm_dev. change (@numt_num R NumT_R) with Num_R. rewrite J2_dev_frob.
    change (sqrt (3 * (frob2 (mdiag 30 (-15) (-15)) / 2)) = 45). replace (3 * (frob2 (mdiag 30 (-15) (-15)) / 2)) with (45 * 45) by (unfold frob2; cbn; lra). apply sqrt_square. lra. }
  split; [unfold mcc_params, kaolin; cbn; lra |]. split; [rewrite M; cbn; lra |]. split; [cbn; lra |]. split.
  - change (mt_yf t) with (yield_function (mt_p t) 100 (mt_q t) (mc_M kaolin)). rewrite Ep, Eq. unfold yield_function. cbn. rnum. field.
  - split; [exact Eq |]. assert (E100 : mcc_p kaolin (mcc_args t 100) (ln 100) = 100).
    { assert (Pp : mt_pprev t = 100) by (unfold t; rewrite mt_pprev_eq, M; apply Rmax_left; cbn; lra).
      assert (De : mt_dev t = 0) by (unfold t; rewrite mt_dev_eq; unfold mtrace, mzero; cbn; rnum; ring).
      change (mt_pprev t * exp ((mt_dev t - (mc_lam kaolin - mc_kap kaolin) * (ln 100 - ln 100)) / mc_kap kaolin) = 100). rewrite Pp, De.
      replace ((0 - (mc_lam kaolin - mc_kap kaolin) * (ln 100 - ln 100)) / mc_kap kaolin) with 0 by (cbn; field). rewrite exp_0. ring. }
    rewrite E100. split; [lra |]. split; intros l; discriminate.
Qed.
