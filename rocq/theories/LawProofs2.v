(** Further facts about the constitutive laws: Drucker-Prager and Cam-Clay updates, creation, time steps. *)
From Coq Require Import List Arith ZArith Reals Bool Lra Lia.
From Verif Require Import Num NumR Linalg Arrays ModelGrid ModelShape ModelMath ModelState ModelLaws Sums ResFacts SpecMath MathProofs SpecLaws LawProofs.
Import ListNotations.
Local Open Scope R_scope.

(** ** Drucker-Prager *)
Definition dp_branch (m : DruckerPrager R) (t : DPTrial) (acc p0 rho : R) : mat3 R * mat3 R * R :=
  if Rleb (dp_rho0 m) rho then
    if Rltb 0 (tr_yf t) then
      if Rltb (tr_sj t - dp_G m * dp_multi m (tr_yf t)) 0 then dp_apex m t acc p0 else dp_cone m t acc p0
    else dp_elastic t acc
  else (mzero, mzero, acc).
Lemma dp_stress_eq (m : DruckerPrager R) L e acc p0 rho dt : dp_stress m L e acc p0 rho dt = dp_branch m (dp_trial m L e acc p0 dt) acc p0 rho.
Proof. reflexivity. Qed.

Lemma dp_elastic_yield (m : DruckerPrager R) L e acc p0 dt : let t := dp_trial m L e acc p0 dt in
  dp_yield (dp_mu1 m) (dp_mu2 m) (dp_c0 m) (dp_H m) (fst (fst (dp_elastic t acc))) acc <= tr_yf t.
Proof.
  intro t. destruct (tr_sj_pos m L e acc p0 dt) as (Sp & Sle). fold t in Sp, Sle.
  pose proof (tr_s_trace m L e acc p0 dt) as Tr. fold t in Tr.
  pose proof (tr_yf_eq m L e acc p0 dt) as Ey. cbv zeta in Ey. fold t in Ey. rewrite Ey.
  unfold dp_elastic; cbn [fst]. unfold dp_yield, J2_of.
  change (@madd R (@numt_num R NumT_R)) with (@madd R Num_R). change (@mscale R (@numt_num R NumT_R)) with (@mscale R Num_R). change (@meye R (@numt_num R NumT_R)) with (@meye R Num_R).
  rewrite dev_split, mean_split by exact Tr. lra.
Qed.

Definition dp_solvable (m : DruckerPrager R) : Prop :=
  / 10 ^ 12 <= dp_K m * dp_mu1 m - dp_H m * dp_mu2 m * (dp_mu2 m / Rmax (dp_mu1 m) (/ 10 ^ 8)).
Lemma dp_admissible (m : DruckerPrager R) L e acc p0 rho dt : 0 < dp_G m -> 0 <= dp_H m -> dp_mu1h m = 0 -> dp_solvable m -> dp_rho0 m <= rho ->
  let r := dp_stress m L e acc p0 rho dt in dp_yield (dp_mu1 m) (dp_mu2 m) (dp_c0 m) (dp_H m) (fst (fst r)) (snd r) <= 0.
Proof.
  intros HG HH Hz So Hr r. unfold r. rewrite dp_stress_eq. unfold dp_branch.
  rewrite (proj2 (Rleb_true _ _) Hr). set (t := dp_trial m L e acc p0 dt).
  destruct (Rltb 0 (tr_yf t)) eqn:Ey; [apply Rltb_true in Ey|apply Rltb_false in Ey].
  - destruct (Rltb _ 0) eqn:Ea; [apply Rltb_true in Ea|apply Rltb_false in Ea].
    + right. apply (dp_apex_yield m t acc p0). exact So.
    + assert (D : 0 < dp_G m + dp_K m * dp_mu1 m * dp_mu1h m + dp_H m * dp_mu2 m * dp_mu2 m).
      { rewrite Hz, Rmult_0_r, Rplus_0_r. assert (0 <= dp_H m * dp_mu2 m * dp_mu2 m); [|lra].
        rewrite Rmult_assoc. apply Rmult_le_pos; [exact HH|]. apply Rle_0_sqr. }
      destruct (dp_cone_yield m L e acc p0 dt D (Rlt_le _ _ HG) Ey Ea) as (Y & _). fold t in Y.
      rewrite Hz in Y. unfold Rdiv in Y. rewrite !Rmult_0_r, Rmult_0_l, Rmult_0_r in Y. exact Y.
  - pose proof (dp_elastic_yield m L e acc p0 dt) as Y. fold t in Y. cbv zeta in Y. unfold dp_elastic in *. cbn [snd] in *. lra.
Qed.

Lemma dp_past_apex (m : DruckerPrager R) L e acc p0 dt : let t := dp_trial m L e acc p0 dt in 
  0 < dp_G m -> 0 <= dp_K m -> 0 <= dp_H m -> 0 <= dp_mu1 m -> 0 <= dp_mu1h m ->
  0 < tr_yf t -> tr_sj t - dp_G m * dp_multi m (tr_yf t) < 0 -> dp_mu1 m * tr_p t + dp_mu2 m * (dp_c0 m + dp_H m * acc) < 0.
Proof.
  intros t HG HK HH H1 Hh Hy Ha. pose proof (tr_yf_eq m L e acc p0 dt) as Ey. cbv zeta in Ey. fold t in Ey.
  assert (dp_G m * dp_multi m (tr_yf t) <= tr_yf t); [|lra].
  rewrite dp_multi_eq. set (X := dp_K m * dp_mu1 m * dp_mu1h m + dp_H m * dp_mu2 m * dp_mu2 m).
  assert (0 <= X).
  { unfold X. apply Rplus_le_le_0_compat; [apply Rmult_le_pos; [apply Rmult_le_pos|]; assumption|].
    rewrite Rmult_assoc. apply Rmult_le_pos; [exact HH|apply Rle_0_sqr]. }
  replace (dp_G m + dp_K m * dp_mu1 m * dp_mu1h m + dp_H m * dp_mu2 m * dp_mu2 m) with (dp_G m + X) by (unfold X; ring).
  apply (Rmult_le_reg_r (dp_G m + X)); [lra|]. unfold Rdiv. replace (dp_G m * (tr_yf t * / (dp_G m + X)) * (dp_G m + X)) with (dp_G m * tr_yf t) by (field; lra).
  assert (0 <= X * tr_yf t) by (apply Rmult_le_pos; lra). lra.
Qed.
Lemma dp_apex_acc (m : DruckerPrager R) t acc p0 : 0 < dp_mu2 m -> dp_mu1 m * tr_p t + dp_mu2 m * (dp_c0 m + dp_H m * acc) < 0 ->
  snd (dp_apex m t acc p0) < acc.
Proof.
  intros H2 N. unfold dp_apex. cbn [snd]. change (@numt_num R NumT_R) with Num_R. rewrite !nmax_R. rnum.
  set (a := dp_mu2 m / Rmax (dp_mu1 m) (1 / IZR (10 ^ 8))).
  assert (0 < a).
  { unfold a. apply Rdiv_lt_0_compat; [exact H2|]. pose proof (Rmax_r (dp_mu1 m) (1 / IZR (10 ^ 8))).
    assert (0 < 1 / IZR (10 ^ 8)); [|lra]. apply Rdiv_lt_0_compat; [lra|]. apply IZR_lt. reflexivity. }
  set (D := Rmax _ (1 / IZR (10 ^ 12))). assert (0 < D).
  { pose proof (Rmax_r (dp_K m * dp_mu1 m - dp_H m * dp_mu2 m * a) (1 / IZR (10 ^ 12))). fold D in H0.
    assert (0 < 1 / IZR (10 ^ 12)); [|lra]. apply Rdiv_lt_0_compat; [lra|]. apply IZR_lt. reflexivity. }
  assert ((dp_mu1 m * tr_p t + dp_mu2 m * (dp_c0 m + dp_H m * acc)) / D < 0).
  { unfold Rdiv. assert (0 < / D) by (apply Rinv_0_lt_compat; assumption). nra. }
  nra.
Qed.
Lemma dp_cone_acc (m : DruckerPrager R) t acc p0 : 0 <= dp_mu2 m ->
  0 < dp_G m + dp_K m * dp_mu1 m * dp_mu1h m + dp_H m * dp_mu2 m * dp_mu2 m -> 0 < tr_yf t -> acc <= snd (dp_cone m t acc p0).
Proof.
  intros H2 HD Hy. unfold dp_cone. cbn [snd]. rewrite dp_multi_eq. rnum.
  assert (0 < tr_yf t / (dp_G m + dp_K m * dp_mu1 m * dp_mu1h m + dp_H m * dp_mu2 m * dp_mu2 m)) by (apply Rdiv_lt_0_compat; assumption).
  assert (0 <= dp_mu2 m * (tr_yf t / (dp_G m + dp_K m * dp_mu1 m * dp_mu1h m + dp_H m * dp_mu2 m * dp_mu2 m))) by (apply Rmult_le_pos; lra). lra.
Qed.
Lemma dp_apex_q (m : DruckerPrager R) t acc p0 : q_of (fst (fst (dp_apex m t acc p0))) = 0.
Proof.
  unfold dp_apex. cbn [fst]. set (k := (_ - _)%num).
  unfold q_of. change (@mscale R (@numt_num R NumT_R) k (@meye R (@numt_num R NumT_R))) with (mscale k (@meye R Num_R)). rewrite J2_sph, Rmult_0_r. apply sqrt_0.
Qed.

(** ** Cam-Clay *)
Lemma spin_trace (L : mat3 R) : mtrace L = mtrace (get_sym_tensor L).
Proof. destruct L; mcbv. field. Qed.
Lemma mt_p_eq (m : MCC R) L e s pc dt : mt_p (mcc_trial m L e s pc dt) = Rmax (mean3 s) (mc_pmin m) * exp (dt * mtrace L / mc_kap m).
Proof.
  unfold mcc_trial. cbn [mt_p]. unfold get_pressure_mcc. change (@numt_num R NumT_R) with Num_R. rewrite nmax_R, pressure_mean.
  unfold mean3. pose proof (jaumann_trace s (get_spin_tensor L) dt) as E. unfold mtrace at 1 2 in E. rnum. rewrite E.
  do 2 f_equal. unfold get_volumetric_strain. rewrite trace_scale, <- spin_trace. reflexivity.
Qed.
Lemma mt_pprev_eq (m : MCC R) L e s pc dt : mt_pprev (mcc_trial m L e s pc dt) = Rmax (mean3 s) (mc_pmin m).
Proof.
  unfold mcc_trial. cbn [mt_pprev]. change (@numt_num R NumT_R) with Num_R. rewrite nmax_R, pressure_mean.
  unfold mean3. pose proof (jaumann_trace s (get_spin_tensor L) dt) as E. unfold mtrace at 1 2 in E. rnum. rewrite E. reflexivity.
Qed.
Lemma mt_dev_eq (m : MCC R) L e s pc dt : mt_dev (mcc_trial m L e s pc dt) = dt * mtrace L.
Proof.
  unfold mcc_trial. cbn [mt_dev]. change (@numt_num R NumT_R) with Num_R.  unfold get_volumetric_strain. rewrite trace_scale, <- spin_trace. reflexivity.
Qed.
Lemma mt_s_trace (m : MCC R) L e s pc dt : mtrace (mt_s (mcc_trial m L e s pc dt)) = 3 * (mean3 s - Rmax (mean3 s) (mc_pmin m)).
Proof.
  pose proof (mt_pprev_eq m L e s pc dt) as E. rewrite <- E. unfold mcc_trial. cbn [mt_s mt_pprev]. change (@numt_num R NumT_R) with Num_R.
  set (G := get_G _ _). set (sp := get_jaumann_increment s (get_spin_tensor L) dt).
  assert (Es : mean3 s = mtrace sp / 3) by (unfold sp; rewrite jaumann_trace; reflexivity). rewrite Es.
  unfold get_volumetric_strain. rewrite dev_strain_given, dev_stress_given. unfold get_s.
  pose proof (trace_deviator (mscale dt (get_sym_tensor L))) as T. destruct (deviator (mscale dt (get_sym_tensor L))) as [a0 a1 a2 a3 a4 a5 a6 a7 a8].
  destruct sp as [b0 b1 b2 b3 b4 b5 b6 b7 b8]. clearbody G. mcbv. set (P := nmax _ _).
  transitivity (2 * G * (a0 + a4 + a8) + (b0 + b4 + b8) - 3 * P); [ring|]. rewrite T. field.
Qed.

(** the bulk and shear moduli are positive *)
Definition mcc_params (m : MCC R) : Prop :=
  0 < mc_kap m /\ mc_kap m < mc_lam m /\ -1 < mc_nu m < 1 / 2 /\ 0 < mc_M m /\ 0 < mc_pmin m /\  match mc_Kmax m with Some k => 0 < k | None => True end.
Lemma mcc_K_pos (m : MCC R) p : mcc_params m -> 0 < mcc_K m p.
Proof.
  intros (Hk & _ & _ & _ & _ & Km). unfold mcc_K, get_K. change (@numt_num R NumT_R) with Num_R. 
  assert (A : 0 < (@n1 R Num_R / mc_kap m)%num * nmax p n1).
  { rewrite nmax_R. apply Rmult_lt_0_compat; [apply Rdiv_lt_0_compat; rnum; lra|]. pose proof (Rmax_r p 1). rnum. lra. }
  set (k := ((n1 / mc_kap m)%num * nmax p n1)%num) in *.
  assert (B : 0 < clip_lo (mc_Kmin m) k).
  { destruct (mc_Kmin m); simpl; [rewrite nmax_R; pose proof (Rmax_l k r); change (0 < k) in A; lra|exact A]. }
  destruct (mc_Kmax m); simpl; [|exact B]. rewrite nmin_R. apply Rmin_glb_lt; assumption.
Qed.
Lemma get_G_pos (m : MCC R) K : mcc_params m -> 0 < K -> 0 < get_G (mc_nu m) K.
Proof.
  intros (_ & _ & (Hn & Hn2) & _) HK. unfold get_G. rnum. apply Rmult_lt_0_compat; [|exact HK]. apply Rdiv_lt_0_compat; lra.
Qed.
Lemma newton_nonneg (m : MCC R) a x : 0 <= fst (mcc_newton_step m a x).
Proof. unfold mcc_newton_step. cbn [fst]. change (@numt_num R NumT_R) with Num_R. rewrite nmax_R. apply Rmax_r. Qed.
Lemma iter_S {A} n (f : A -> A) x : iter (Datatypes.S n) f x = f (iter n f x).
Proof. revert x. induction n; intro x; [reflexivity|]. change (iter (Datatypes.S n) f (f x) = f (iter n f (f x))). apply IHn. Qed.
Lemma newton_iter_nonneg (m : MCC R) a n u : 0 <= fst (iter n (mcc_newton_step m a) (0, u)).
Proof. destruct n; [simpl; lra|]. rewrite iter_S. apply newton_nonneg. Qed.
Lemma factor_pos (m : MCC R) a x : mcc_params m -> 0 <= fst x -> 0 < mcc_factor m a x.
Proof.
  intros P H. unfold mcc_factor. rnum. apply Rdiv_lt_0_compat; [lra|].
  pose proof (get_G_pos m _ P (mcc_K_pos m (mcc_p m a (snd x)) P)) as G.
  assert (0 <= get_G (mc_nu m) (mcc_K m (mcc_p m a (snd x))) * fst x) by (apply Rmult_le_pos; [apply Rlt_le; exact G|exact H]). 
  change (0 < 1 + 6 * get_G (mc_nu m) (mcc_K m (mcc_p m a (snd x))) * fst x). nra.
Qed.
Lemma or_else_R (x d : R) : x <> 0 -> or_else x d = x.
Proof. intro. unfold or_else. rnum. destruct (Reqb x 0) eqn:E; [apply Reqb_true in E; contradiction|reflexivity]. Qed.
Lemma or_else_scaled (x f : R) : f <> 0 -> or_else (x * f) x = x * f.
Proof.
  intro. unfold or_else. rnum. destruct (Reqb (x * f) 0) eqn:E; [apply Reqb_true in E|reflexivity].
  apply Rmult_integral in E. destruct E as [E|E]; [subst; ring|contradiction].
Qed.
(** the plastic correction: iterate, stress, preconsolidation pressure *)
Definition mcc_iterate (m : MCC R) (t : MCCTrial) (pc : R) : R * R :=
  iter 10 (mcc_newton_step m (mcc_args t pc)) (@n0 R (@numt_num R NumT_R), ar_u0 (mcc_args t pc)).
Definition mcc_plastic_at (m : MCC R) (t : MCCTrial) (pc_prev : R) (x : R * R) : mat3 R * R :=
  let a := mcc_args t pc_prev in
  let f := mcc_factor m a x in
  let s := mmap2 or_else (mmap (fun y => y * f) (mt_s t)) (mt_s t) in
  (madd s (mscale (or_else (mcc_p m a (snd x)) (mt_pprev t)) meye), or_else (exp (snd x)) pc_prev).
Lemma mcc_plastic_split (m : MCC R) t pc sref :
  fst (fst (mcc_plastic m t pc sref)) = fst (mcc_plastic_at m t pc (mcc_iterate m t pc)) /\
  snd (mcc_plastic m t pc sref) = snd (mcc_plastic_at m t pc (mcc_iterate m t pc)).
Proof.
  unfold mcc_plastic, mcc_plastic_at, mcc_iterate. cbv zeta.
  match goal with |- context [iter 10 ?f ?a] => generalize (iter 10 f a) end. intro x. split; reflexivity.
Qed.
Lemma mcc_plastic_at_eq (m : MCC R) t pc x : mcc_params m -> 0 < mt_pprev t -> 0 <= fst x ->
  let f := mcc_factor m (mcc_args t pc) x in let p := mcc_p m (mcc_args t pc) (snd x) in
  0 < f /\ 0 < p /\ p = mt_pprev t * exp ((mt_dev t - (mc_lam m - mc_kap m) * (snd x - ln pc)) / mc_kap m) /\
  mcc_plastic_at m t pc x = (madd (mscale f (mt_s t)) (mscale p meye), exp (snd x)).
Proof.
  intros P Pp X f p. assert (Fp : 0 < f) by (apply factor_pos; assumption).
  assert (Pe : p = mt_pprev t * exp ((mt_dev t - (mc_lam m - mc_kap m) * (snd x - ln pc)) / mc_kap m)) by reflexivity.
  assert (P0 : 0 < p) by (rewrite Pe; apply Rmult_lt_0_compat; [exact Pp|apply exp_pos]).
  split; [exact Fp|split; [exact P0|split; [exact Pe|]]].
  unfold mcc_plastic_at. cbv zeta. fold f p. rewrite (or_else_R p) by lra.
  rewrite (or_else_R (exp (snd x))) by (pose proof (exp_pos (snd x)); lra).
  f_equal. f_equal. clear Pe. clearbody f p. destruct (mt_s t) as [c0 c1 c2 c3 c4 c5 c6 c7 c8].
  unfold mmap2, mmap, mscale, mmap. cbn [m00 m01 m02 m10 m11 m12 m20 m21 m22].
  assert (F0 : f <> 0) by lra. rewrite !(or_else_scaled _ f F0). rnum. f_equal; ring.
Qed.
Lemma mcc_plastic_eq (m : MCC R) t pc sref : mcc_params m -> 0 < mt_pprev t ->
  let x := mcc_iterate m t pc in let f := mcc_factor m (mcc_args t pc) x in let p := mcc_p m (mcc_args t pc) (snd x) in
  0 < f /\ 0 < p /\ p = mt_pprev t * exp ((mt_dev t - (mc_lam m - mc_kap m) * (snd x - ln pc)) / mc_kap m) /\
  fst (fst (mcc_plastic m t pc sref)) = madd (mscale f (mt_s t)) (mscale p meye) /\ snd (mcc_plastic m t pc sref) = exp (snd x).
Proof.
  intros P Pp. destruct (mcc_plastic_split m t pc sref) as (E1 & E2). rewrite E1, E2.
  assert (X : 0 <= fst (mcc_iterate m t pc)) by (unfold mcc_iterate; apply newton_iter_nonneg).
  revert X. generalize (mcc_iterate m t pc). intros x X. cbv zeta.
  destruct (mcc_plastic_at_eq m t pc x P Pp X) as (A & B & C & D). rewrite D. cbn [fst snd]. repeat split; assumption.
Qed.
