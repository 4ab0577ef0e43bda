(** Facts about logarithmic strains. *)
From Coq Require Import List ZArith Reals Lra Lia Bool.
From Verif Require Import Num NumR Linalg Sums ModelGrid ModelShape ModelMath ModelState ModelLaws SpecMath MathProofs SpecLaws LawProofs ModelStrain SpecStrain.
Import ListNotations.
Local Open Scope R_scope.

Definition dg (s : vec3 R) : mat3 R := mdiag (vx s) (vy s) (vz s).
Definition lg (s : vec3 R) : vec3 R := V3 (log_stretch (vx s)) (log_stretch (vy s)) (log_stretch (vz s)).

Lemma trans_mmul (a b : mat3 R) : mtrans (mmul a b) = mmul (mtrans b) (mtrans a).
Proof. destruct a, b; meq. Qed.
Lemma trans_trans (a : mat3 R) : mtrans (mtrans a) = a.
Proof. destruct a; reflexivity. Qed.
Lemma trans_dg s : mtrans (dg s) = dg s.
Proof. reflexivity. Qed.
Lemma eye_r (a : mat3 R) : mmul a meye = a.
Proof. destruct a; meq. Qed.
Lemma orth_trans Q : orthogonal Q -> orthogonal (mtrans Q).
Proof. intros [A B]. split; rewrite trans_trans; assumption. Qed.
Lemma orth_mul P Q : orthogonal P -> orthogonal Q -> orthogonal (mmul P Q).
Proof.
  intros [A B] [C D]. split; rewrite trans_mmul, !mmul_assoc.
  - rewrite <- (mmul_assoc Q), C, mmul_eye_l. exact A.
  - rewrite <- (mmul_assoc (mtrans P)), B, mmul_eye_l. exact D.
Qed.

(** the left Cauchy-Green tensor *)
Lemma svd_left (d : SVD R) F : is_svd d F ->
  mmul F (mtrans F) = turned (svd_u d) (dg (V3 (vx (svd_s d) * vx (svd_s d)) (vy (svd_s d) * vy (svd_s d)) (vz (svd_s d) * vz (svd_s d)))).
Proof.
  intros (_ & [V _] & _ & _ & _ & ->). fold (dg (svd_s d)). unfold turned.
  rewrite !trans_mmul, trans_dg, !mmul_assoc. rewrite <- (mmul_assoc (svd_vh d)), V, mmul_eye_l.
  f_equal. rewrite <- mmul_assoc. f_equal. unfold dg. meq.
Qed.

(** an isotropic function of a symmetric tensor does not depend on the choice of its principal frame *)
Lemma spectral_unique (f : R -> R) u u' s s' :
  orthogonal u -> orthogonal u' ->
  (0 <= vx s /\ 0 <= vy s /\ 0 <= vz s) -> (0 <= vx s' /\ 0 <= vy s' /\ 0 <= vz s') ->
  turned u (dg (V3 (vx s * vx s) (vy s * vy s) (vz s * vz s))) = turned u' (dg (V3 (vx s' * vx s') (vy s' * vy s') (vz s' * vz s'))) ->
  turned u (dg (V3 (f (vx s)) (f (vy s)) (f (vz s)))) = turned u' (dg (V3 (f (vx s')) (f (vy s')) (f (vz s')))).
Proof.
  intros [U1 U2] [U1' U2'] Hs Hs' E.
  set (W := mmul (mtrans u') u).
  assert (C : mmul W (dg (V3 (vx s * vx s) (vy s * vy s) (vz s * vz s))) = mmul (dg (V3 (vx s' * vx s') (vy s' * vy s') (vz s' * vz s'))) W).
  { unfold turned in E. apply (f_equal (fun m => mmul (mmul (mtrans u') m) u)) in E. rewrite !mmul_assoc in E.
    rewrite U2, eye_r in E. rewrite <- !mmul_assoc, U2', mmul_eye_l in E. unfold W. rewrite E, !mmul_assoc. reflexivity. }
  assert (G : mmul W (dg (V3 (f (vx s)) (f (vy s)) (f (vz s)))) = mmul (dg (V3 (f (vx s')) (f (vy s')) (f (vz s')))) W).
  { assert (K : forall w p q, 0 <= p -> 0 <= q -> w * (p * p) = q * q * w -> w * f p = f q * w).
    { intros w p q Hp Hq Hw. destruct (Req_dec w 0) as [-> |N]; [ring|].
      assert (p = q) as ->; [|ring].
      assert (w * (p * p - q * q) = 0) as Z by lra. apply Rmult_integral in Z. destruct Z as [Z|Z]; [contradiction|].
      apply Rsqr_inj; [assumption|assumption|unfold Rsqr; lra]. }
    clearbody W. destruct W as [w00 w01 w02 w10 w11 w12 w20 w21 w22]. destruct s as [s0 s1 s2], s' as [t0 t1 t2]. cbn [vx vy vz] in *.
    unfold dg, mmul, mdiag in C |- *. cbn [m00 m01 m02 m10 m11 m12 m20 m21 m22 vx vy vz] in *. rnum.
    injection C as C00 C01 C02 C10 C11 C12 C20 C21 C22.
    apply mat3_eq; cbn [m00 m01 m02 m10 m11 m12 m20 m21 m22].
    all: rewrite ?Rmult_0_l, ?Rmult_0_r, ?Rplus_0_l, ?Rplus_0_r.
    all: apply K; try tauto; lra. }
  unfold turned. transitivity (mmul u' (mmul (mmul W (dg (V3 (f (vx s)) (f (vy s)) (f (vz s))))) (mtrans u))).
  - unfold W. rewrite !mmul_assoc. rewrite <- (mmul_assoc u'), U1', mmul_eye_l. reflexivity.
  - rewrite G. unfold W. rewrite !mmul_assoc. rewrite U1, eye_r. reflexivity.
Qed.

Lemma hencky_turned svd F : get_hencky_strain svd F = turned (svd_u (svd F)) (dg (lg (svd_s (svd F)))).
Proof. reflexivity. Qed.

Lemma hencky_any svd F d : is_svd (svd F) F -> is_svd d F -> get_hencky_strain svd F = turned (svd_u d) (dg (lg (svd_s d))).
Proof.
  intros A B. rewrite hencky_turned. unfold lg.
  destruct A as (A1 & A2 & A3 & A4 & A5 & A6) eqn:EA. destruct B as (B1 & B2 & B3 & B4 & B5 & B6) eqn:EB.
  apply (spectral_unique log_stretch); try tauto. clear EA EB.
  rewrite <- (svd_left (svd F) F) by (repeat split; try assumption; apply A1 || apply A2).
  rewrite <- (svd_left d F) by (repeat split; try assumption; apply B1 || apply B2). reflexivity.
Qed.

Lemma log_stretch_R s : log_stretch s = - ln (Rmax s (/ 10 ^ 12)).
Proof.
  unfold log_stretch, nmax, lit. rnum. f_equal. f_equal.
  replace (IZR (10 ^ 12)) with 1000000000000 by reflexivity.
  replace (1 / 1000000000000) with (/ 10 ^ 12) by (simpl; lra).
  unfold Rmax. rcase; destruct (Rle_dec _ _); lra.
Qed.
Lemma tiny_pos : 0 < / 10 ^ 12.
Proof. apply Rinv_0_lt_compat, pow_lt. lra. Qed.

Lemma det_orth Q : orthogonal Q -> Rabs (mdet Q) = 1.
Proof.
  intros [A _]. assert (D : mdet Q * mdet Q = 1).
  { transitivity (mdet (mmul Q (mtrans Q))); [destruct Q; mcbv; ring|rewrite A; mcbv; ring]. }
  unfold Rabs. destruct (Rcase_abs _); nra.
Qed.
Lemma mdet_mmul (a b : mat3 R) : mdet (mmul a b) = mdet a * mdet b.
Proof. destruct a, b; mcbv; ring. Qed.
Lemma svd_det (d : SVD R) F : is_svd d F -> Rabs (mdet F) = vx (svd_s d) * vy (svd_s d) * vz (svd_s d).
Proof.
  intros (U & V & P1 & P2 & P3 & ->). rewrite !mdet_mmul, !Rabs_mult, (det_orth _ U), (det_orth _ V).
  replace (mdet (mdiag _ _ _)) with (vx (svd_s d) * vy (svd_s d) * vz (svd_s d)) by (mcbv; ring).
  rewrite Rabs_pos_eq; [ring|]. apply Rmult_le_pos; [apply Rmult_le_pos|]; assumption.
Qed.

Lemma mvmul_mmul (a b : mat3 R) v : mvmul (mmul a b) v = mvmul a (mvmul b v).
Proof. destruct a, b, v. unfold mvmul, mmul. cbn. rnum. f_equal; ring. Qed.
Lemma orth_norm Q v : orthogonal Q -> vnorm2 (mvmul Q v) = vnorm2 v.
Proof.
  intros [_ B]. transitivity (vdot v (mvmul (mmul (mtrans Q) Q) v)).
  - destruct Q, v. unfold vnorm2, vdot, mvmul, mmul, mtrans. cbn. rnum. ring.
  - rewrite B. destruct v. unfold vnorm2, vdot, mvmul, meye. cbn. rnum. ring.
Qed.
Lemma stretched (d : SVD R) F c v : is_svd d F -> stretches_above c F ->
  c * c * vnorm2 v <= vnorm2 (mvmul (dg (svd_s d)) v).
Proof.
  intros (U & V & _ & _ & _ & E) H. specialize (H (mvmul (mtrans (svd_vh d)) v)).
  rewrite (orth_norm _ v (orth_trans _ V)) in H. rewrite E, !mvmul_mmul in H.
  rewrite (orth_norm _ _ U) in H. rewrite <- (mvmul_mmul (svd_vh d)) in H. destruct V as [V _]. rewrite V in H.
  replace (mvmul meye v) with v in H by (destruct v; unfold mvmul, meye; cbn; rnum; f_equal; ring). exact H.
Qed.
Lemma singular_above (d : SVD R) F c : is_svd d F -> 0 <= c -> stretches_above c F ->
  c <= vx (svd_s d) /\ c <= vy (svd_s d) /\ c <= vz (svd_s d).
Proof.
  intros D Hc H. destruct D as (U & V & P1 & P2 & P3 & E) eqn:ED.
  assert (K : forall v, c * c * vnorm2 v <= vnorm2 (mvmul (dg (svd_s d)) v)) by (intro v; apply (stretched d F); assumption).
  clear ED. pose proof (K (V3 1 0 0)) as K1. pose proof (K (V3 0 1 0)) as K2. pose proof (K (V3 0 0 1)) as K3.
  unfold vnorm2, vdot, mvmul, dg, mdiag in *. cbn [vx vy vz m00 m01 m02 m10 m11 m12 m20 m21 m22] in *. rnum.
  repeat split; apply Rsqr_incr_0; try assumption; unfold Rsqr; nra.
Qed.

Lemma hencky_trace svd F : is_svd (svd F) F -> stretches_above (/ 10 ^ 12) F ->
  get_volumetric_strain (get_hencky_strain svd F) = - ln (Rabs (mdet F)).
Proof.
  intros D H. pose proof tiny_pos as T. destruct (singular_above _ _ _ D (Rlt_le _ _ T) H) as (A & B & C).
  rewrite (svd_det _ _ D). destruct D as (U & _). rewrite hencky_turned.
  change (mtrace (turned (svd_u (svd F)) (dg (lg (svd_s (svd F))))) = - ln (vx (svd_s (svd F)) * vy (svd_s (svd F)) * vz (svd_s (svd F)))).
  rewrite turned_trace by exact U. unfold lg, dg. cbn [vx vy vz]. rewrite !log_stretch_R, !Rmax_left by lra.
  rewrite !ln_mult by (try apply Rmult_lt_0_compat; lra). mcbv. rnum. ring.
Qed.
