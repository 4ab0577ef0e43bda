(** Material laws seen from turned axes. *)
From Coq Require Import List Arith ZArith Reals Bool Lra Lia.
From Verif Require Import Num NumR Linalg Arrays ModelGrid ModelShape ModelMath ModelState ModelLaws Sums ResFacts SpecMath MathProofs SpecLaws LawProofs LawProofs2.
Import ListNotations.
Local Open Scope R_scope.

Section Turn.
Variable Q : mat3 R.
Lemma turned_trans (a : mat3 R) : turned Q (mtrans a) = mtrans (turned Q a).
Proof. unfold turned. destruct Q, a; meq. Qed.
Lemma turned_sub (a b : mat3 R) : turned Q (msub a b) = msub (turned Q a) (turned Q b).
Proof. unfold turned. destruct Q, a, b; meq. Qed.
Lemma turned_zero : turned Q mzero = mzero.
Proof. unfold turned. destruct Q; meq. Qed.
Lemma turned_spin L : get_spin_tensor (turned Q L) = turned Q (get_spin_tensor L).
Proof. unfold get_spin_tensor. rewrite turned_scale, turned_sub, turned_trans. reflexivity. Qed.
Lemma turned_sym L : get_sym_tensor (turned Q L) = turned Q (get_sym_tensor L).
Proof. unfold get_sym_tensor. rewrite turned_scale, turned_add, turned_trans. reflexivity. Qed.
Lemma mmap_div_scale (a : mat3 R) k : mmap (fun x => (x / k)%num) a = mscale (/ k) a.
Proof. destruct a. apply mat3_eq; mcbv; unfold Rdiv; ring. Qed.

Hypothesis O : orthogonal Q.
Lemma turned_eye : turned Q meye = meye.
Proof. assert (E : @meye R Num_R = spherical 1) by meq. rewrite E. apply turned_sph, O. Qed.
Lemma turned_scaled_eye k : turned Q (mscale k meye) = mscale k meye.
Proof. rewrite turned_scale, turned_eye. reflexivity. Qed.
Lemma turned_mul (a b : mat3 R) : turned Q (mmul a b) = mmul (turned Q a) (turned Q b).
Proof.
  destruct O as (_ & O2). unfold turned. rewrite !mmul_assoc. f_equal. f_equal.
  rewrite <- (mmul_assoc (mtrans Q) Q), O2, mmul_eye_l. reflexivity.
Qed.
Lemma turned_jaumann t W dt : get_jaumann_increment (turned Q t) (turned Q W) dt = turned Q (get_jaumann_increment t W dt).
Proof. unfold get_jaumann_increment. rewrite turned_add, turned_scale, turned_sub, !turned_mul. reflexivity. Qed.
Lemma turned_pressure s : get_pressure (turned Q s) = get_pressure s.
Proof. unfold get_pressure. rewrite turned_trace by exact O. reflexivity. Qed.
Lemma turned_vol e : get_volumetric_strain (turned Q e) = get_volumetric_strain e.
Proof. apply turned_trace, O. Qed.
Lemma turned_dev_stress s p : get_dev_stress (turned Q s) (Some p) = turned Q (get_dev_stress s (Some p)).
Proof. unfold get_dev_stress. rewrite turned_sub, turned_scaled_eye. reflexivity. Qed.
Lemma turned_dev_strain e v : get_dev_strain (turned Q e) (Some v) = turned Q (get_dev_strain e (Some v)).
Proof. unfold get_dev_strain. rewrite turned_sub, turned_scaled_eye. reflexivity. Qed.
Lemma mddot_trace (a b : mat3 R) : mddot a b = mtrace (mmul a (mtrans b)).
Proof. destruct a, b; mcbv. ring. Qed.
Lemma turned_ddot a b : mddot (turned Q a) (turned Q b) = mddot a b.
Proof. rewrite !mddot_trace, <- turned_trans, <- turned_mul. apply turned_trace, O. Qed.
Lemma turned_J2 s : J2_dev (turned Q s) = J2_dev s.
Proof. unfold J2_dev, get_double_contraction. rewrite turned_ddot. reflexivity. Qed.

Lemma nf_turn (m : Newton R) L mass vol rho0 : nf_stress m (turned Q L) mass vol rho0 = turned Q (nf_stress m L mass vol rho0).
Proof.
  unfold nf_stress. rewrite turned_add, turned_scaled_eye, turned_scale. f_equal. f_equal. unfold dev_rate. cbv zeta.
  rewrite <- turned_trans, <- turned_add, <- turned_scale. rewrite turned_trace by exact O. rewrite turned_sub, turned_scaled_eye. reflexivity.
Qed.
Lemma mi_turn (m : MuI R) L mass vol rho0 : mi_stress m (turned Q L) mass vol rho0 = turned Q (mi_stress m L mass vol rho0).
Proof.
  unfold mi_stress. cbv zeta. change (@numt_num R NumT_R) with Num_R.
  rewrite <- turned_trans, <- turned_add, <- turned_scale. rewrite turned_trace by exact O.
  set (D := mscale (lit 1 2) (madd L (mtrans L))). set (k := (mtrace D / n3)%num).
  assert (E : msub (turned Q D) (mscale k meye) = turned Q (msub D (mscale k meye))) by (rewrite turned_sub, turned_scaled_eye; reflexivity).
  rewrite E. assert (G : mi_gamma (turned Q (msub D (mscale k meye))) = mi_gamma (msub D (mscale k meye))) by (unfold mi_gamma; rewrite turned_ddot; reflexivity).
  rewrite G. destruct (n1 <? mass / vol / rho0)%num.
  - rewrite turned_add, turned_scaled_eye, turned_scale. reflexivity.
  - symmetry. apply turned_zero.
Qed.

(** Drucker-Prager *)
Definition turn3 (r : mat3 R * mat3 R * R) : mat3 R * mat3 R * R := (turned Q (fst (fst r)), turned Q (snd (fst r)), snd r).
Definition turn_dpt (t : DPTrial) : DPTrial := {| tr_eps := turned Q (tr_eps t); tr_p := tr_p t; tr_s := turned Q (tr_s t); tr_sj := tr_sj t; tr_yf := tr_yf t |}.
Lemma dp_trial_turn (m : DruckerPrager R) L e acc p0 dt : dp_trial m (turned Q L) (turned Q e) acc p0 dt = turn_dpt (dp_trial m L e acc p0 dt).
Proof.
  unfold dp_trial. cbv zeta. change (@numt_num R NumT_R) with Num_R.
  rewrite turned_sym, turned_spin, turned_jaumann, <- turned_scale, <- turned_add, turned_vol, turned_dev_strain, <- turned_scale, turned_J2. reflexivity.
Qed.
Lemma dp_turn (m : DruckerPrager R) L e acc p0 rho dt : dp_stress m (turned Q L) (turned Q e) acc p0 rho dt = turn3 (dp_stress m L e acc p0 rho dt).
Proof.
  rewrite !dp_stress_eq, dp_trial_turn. generalize (dp_trial m L e acc p0 dt). intro t. unfold dp_branch. cbn [turn_dpt tr_yf tr_sj].
  destruct (Rleb _ _); [|unfold turn3; cbn [fst snd]; rewrite turned_zero; reflexivity].
  destruct (Rltb 0 _); [destruct (Rltb _ _)|].
  - unfold dp_apex, turn3. cbn [turn_dpt tr_p fst snd]. change (@numt_num R NumT_R) with Num_R. rewrite !turned_scaled_eye. reflexivity.
  - unfold dp_cone, turn3. cbn [turn_dpt tr_p tr_s tr_sj tr_yf fst snd]. change (@numt_num R NumT_R) with Num_R.
    rewrite !mmap_div_scale, !turned_add, !turned_scaled_eye, !turned_scale. reflexivity.
  - unfold dp_elastic, turn3. cbn [turn_dpt tr_p tr_s tr_eps fst snd]. change (@numt_num R NumT_R) with Num_R. rewrite turned_add, turned_scaled_eye. reflexivity.
Qed.

(** Modified Cam-Clay *)
Definition turn_mct (t : MCCTrial) : MCCTrial := {| mt_p := mt_p t; mt_s := turned Q (mt_s t); mt_q := mt_q t; mt_K := mt_K t; mt_pprev := mt_pprev t; mt_dev := mt_dev t;
  mt_eps_rot := turned Q (mt_eps_rot t); mt_deps := turned Q (mt_deps t); mt_yf := mt_yf t |}.
Lemma mcc_trial_turn (m : MCC R) L e s pc dt : mcc_trial m (turned Q L) (turned Q e) (turned Q s) pc dt = turn_mct (mcc_trial m L e s pc dt).
Proof.
  unfold mcc_trial. cbv zeta. change (@numt_num R NumT_R) with Num_R.
  rewrite turned_sym, turned_spin, !turned_jaumann, <- turned_scale, turned_pressure, turned_vol, turned_dev_stress, turned_dev_strain.
  set (G := get_G _ _). unfold get_s. rewrite <- turned_scale, <- turned_add. unfold q_vm_dev. rewrite turned_J2. reflexivity.
Qed.
Lemma or_else_mat f (s : mat3 R) : f <> 0 -> mmap2 or_else (mmap (fun y => (y * f)%num) s) s = mscale f s.
Proof.
  intro F0. destruct s as [c0 c1 c2 c3 c4 c5 c6 c7 c8]. unfold mmap2, mmap, mscale, mmap. cbn [m00 m01 m02 m10 m11 m12 m20 m21 m22].
  change (@nmul R Num_R) with Rmult. change (@numt_num R NumT_R) with Num_R. rewrite !(or_else_scaled _ f F0). rnum. f_equal; ring.
Qed.
Lemma mcc_plastic_turn (m : MCC R) t pc sref : mcc_params m -> mcc_plastic m (turn_mct t) pc (turned Q sref) = turn3 (mcc_plastic m t pc sref).
Proof.
  intro P. unfold mcc_plastic. cbv zeta.
  change (mcc_args (turn_mct t) pc) with (mcc_args t pc). cbn [turn_mct mt_s mt_pprev].
  pose proof (newton_iter_nonneg m (mcc_args t pc) 10 (ar_u0 (mcc_args t pc))) as X. change (@n0 R (@numt_num R NumT_R)) with 0.
  revert X. generalize (iter 10 (mcc_newton_step m (mcc_args t pc)) (0, ar_u0 (mcc_args t pc))). intros x X.
  assert (F : mcc_factor m (mcc_args t pc) x <> 0) by (pose proof (factor_pos m (mcc_args t pc) x P X); lra).
  revert F. generalize (mcc_factor m (mcc_args t pc) x). generalize (mcc_p m (mcc_args t pc) (snd x)). intros p f F.
  change (@numt_num R NumT_R) with Num_R. unfold turn3. cbn [fst snd].
  rewrite !(or_else_mat f) by exact F. rewrite turned_pressure, turned_dev_stress, !mmap_div_scale.
  rewrite <- turned_scale, <- turned_sub, !turned_add, !turned_scaled_eye, !turned_scale. reflexivity.
Qed.
Lemma mcc_turn (m : MCC R) L e s pc sref v dt : mcc_params m ->
  mcc_stress m (turned Q L) (turned Q e) (turned Q s) pc (turned Q sref) v dt = turn3 (mcc_stress m L e s pc sref v dt).
Proof.
  intro P. unfold mcc_stress. cbv zeta. rewrite mcc_trial_turn. generalize (mcc_trial m L e s pc dt). intro t.
  change (mt_yf (turn_mct t)) with (mt_yf t). destruct (v <=? _)%num; [destruct (n0 <? mt_yf t)%num|].
  - apply mcc_plastic_turn, P.
  - unfold turn3. cbn [turn_mct mt_s mt_p mt_eps_rot mt_deps fst snd]. change (@numt_num R NumT_R) with Num_R. rewrite !turned_add, turned_scaled_eye. reflexivity.
  - unfold turn3. cbn [turn_mct mt_eps_rot fst snd]. change (@numt_num R NumT_R) with Num_R. rewrite turned_scaled_eye. reflexivity.
Qed.
End Turn.
