(** Facts about utils/math_helpers.py over the reals. *)
From Coq Require Import List ZArith Reals Bool Lra Lia.
From Verif Require Import Num NumR Linalg ModelGrid ModelShape ModelMath Sums SpecMath.
Import ListNotations.
Local Open Scope R_scope.

Ltac mcbv := cbv [get_spin_tensor get_sym_tensor get_jaumann_increment get_double_contraction get_pressure get_dev_stress J2_dev
  get_volumetric_strain get_dev_strain reconstruct_stress_from_triaxial
  madd msub mscale mopp mmul mtrans mtrace mddot mdet meye mzero mdiag mmap mmap2 m00 m01 m02 m10 m11 m12 m20 m21 m22
  symmetric skew mean3 minus_diag deviator frob2 J2_of spherical
  vadd vsub vscale vopp vdot vcross vnorm2 vx vy vz vzero
  nofZ nadd nsub nmul ndiv nopp numt_num n0 n1 n2 n3 lit sq Num_R NumT_R] in *.
Ltac meq := apply mat3_eq; mcbv; try ring; try field; try lra.

Lemma dev_stress_deviator (s : mat3 R) : get_dev_stress s None = deviator s.
Proof. destruct s; meq. Qed.
Lemma dev_stress_given (s : mat3 R) p : get_dev_stress s (Some p) = minus_diag s p.
Proof. destruct s; meq. Qed.
Lemma dev_strain_deviator (s : mat3 R) : get_dev_strain s None = deviator s.
Proof. destruct s; meq. Qed.
Lemma dev_strain_given (s : mat3 R) : get_dev_strain s (Some (mtrace s)) = deviator s.
Proof. destruct s; meq. Qed.
Lemma pressure_mean (s : mat3 R) : get_pressure s = mean3 s.
Proof. destruct s; mcbv. field. Qed.
Lemma J2_dev_frob (s : mat3 R) : J2_dev s = frob2 s / 2.
Proof. destruct s; mcbv. field. Qed.

Lemma frob2_nonneg a : 0 <= frob2 a.
Proof. unfold frob2. pose proof (fun x : R => Rle_0_sqr x) as H; unfold Rsqr in H.
  pose proof (H (m00 a)); pose proof (H (m01 a)); pose proof (H (m02 a)); pose proof (H (m10 a)); pose proof (H (m11 a));
  pose proof (H (m12 a)); pose proof (H (m20 a)); pose proof (H (m21 a)); pose proof (H (m22 a)); lra. Qed.
Lemma sq_sum_0 a b : 0 <= b -> a * a + b = 0 -> a = 0 /\ b = 0.
Proof. intros. assert (a * a = 0) by (pose proof (Rle_0_sqr a); unfold Rsqr in *; lra).
  split; [|lra]. destruct (Rmult_integral _ _ H1); auto. Qed.
Lemma frob2_zero (a : mat3 R) : frob2 a = 0 -> a = mzero.
Proof.
  intro E. unfold frob2 in E.
  assert (Z : forall x y : R, 0 <= y -> y + x * x = 0 -> x = 0 /\ y = 0) by (intros; apply sq_sum_0; lra).
  pose proof (fun x : R => Rle_0_sqr x) as H; unfold Rsqr in H.
  pose proof (H (m00 a)); pose proof (H (m01 a)); pose proof (H (m02 a)); pose proof (H (m10 a)); pose proof (H (m11 a));
  pose proof (H (m12 a)); pose proof (H (m20 a)); pose proof (H (m21 a)); pose proof (H (m22 a)).
  apply mat3_eq; (match goal with |- ?x = _ => assert (x * x = 0) as X by lra; apply Rmult_integral in X; destruct X as [X|X]; rewrite X; reflexivity end).
Qed.
Lemma frob2_scale (k : R) (a : mat3 R) : frob2 (mscale k a) = k * k * frob2 a.
Proof. destruct a; mcbv. ring. Qed.
Lemma frob2_mddot (a : mat3 R) : mddot a a = frob2 a.
Proof. reflexivity. Qed.

Lemma split_stress (s : mat3 R) : s = madd (get_dev_stress s None) (mscale (get_pressure s) meye).
Proof. destruct s; meq. Qed.
Lemma split_unique (s d : mat3 R) p : mtrace d = 0 -> s = madd d (mscale p meye) -> d = get_dev_stress s None /\ p = get_pressure s.
Proof. intros Hd ->. destruct d. mcbv. split; [f_equal|]; lra. Qed.
Lemma dev_trace (s : mat3 R) : mtrace (get_dev_stress s None) = 0.
Proof. destruct s; mcbv. field. Qed.

Lemma sqrt_sq_abs x : sqrt (x * x) = Rabs x.
Proof. change (x * x) with (Rsqr x). apply sqrt_Rsqr_abs. Qed.
Lemma triaxial_pressure (p q : R) : get_pressure (reconstruct_stress_from_triaxial p q) = p.
Proof. mcbv. field. Qed.
Lemma triaxial_q (p q : R) : get_q_vm (Some (reconstruct_stress_from_triaxial p q)) None None = Ok (Rabs q).
Proof.
  unfold get_q_vm, get_J2, rbind. f_equal. rewrite <- sqrt_sq_abs. unfold nsqrt; simpl. f_equal. mcbv. field.
Qed.
Lemma q_vm_ok (s : mat3 R) : get_q_vm (Some s) None None = Ok (q_of s).
Proof. unfold get_q_vm, get_J2, rbind, q_of. rewrite dev_stress_deviator. unfold J2_of. apply (f_equal (fun x => Ok (sqrt x))).
  destruct (deviator s); mcbv. field. Qed.
Lemma q_of_nonneg (s : mat3 R) : 0 <= q_of s.
Proof. apply sqrt_pos. Qed.
Lemma q_of_zero (s : mat3 R) : q_of s = 0 <-> s = spherical (mean3 s).
Proof.
  unfold q_of. split.
  - intro E. assert (N : 0 <= 3 * J2_of s) by (unfold J2_of; pose proof (frob2_nonneg (deviator s)); lra).
    pose proof (sqrt_eq_0 _ N E) as Z. unfold J2_of in Z. assert (frob2 (deviator s) = 0) as W by lra.
    apply frob2_zero in W. destruct s. mcbv. injection W; intros. f_equal; lra.
  - intro E. rewrite E. replace (3 * J2_of (spherical (mean3 s))) with 0; [apply sqrt_0|]. destruct s; mcbv. field.
Qed.

(** Jaumann increments *)
Lemma spin_skew (L : mat3 R) : skew (get_spin_tensor L).
Proof. destruct L; mcbv. repeat split; field. Qed.
Lemma sym_symmetric (L : mat3 R) : symmetric (get_sym_tensor L).
Proof. destruct L; mcbv. repeat split; field. Qed.
Lemma split_gradient (L : mat3 R) : L = madd (get_sym_tensor L) (get_spin_tensor L).
Proof. destruct L; meq. Qed.
Lemma jaumann_symmetric (t W : mat3 R) (dt : R) : symmetric t -> skew W -> symmetric (get_jaumann_increment t W dt).
Proof.
  destruct t, W; mcbv. intros (A & B & C) (D & E & F & G & I & J). subst. repeat split; ring.
Qed.
Lemma jaumann_trace (t W : mat3 R) (dt : R) : mtrace (get_jaumann_increment t W dt) = mtrace t.
Proof. destruct t, W; mcbv. ring. Qed.
Lemma jaumann_frob (t W : mat3 R) (dt : R) : symmetric t -> skew W ->
  frob2 (get_jaumann_increment t W dt) = frob2 t + dt * dt * frob2 (msub (mmul W t) (mmul t W)).
Proof.
  destruct t, W; mcbv. intros (A & B & C) (D & E & F & G & I & J). subst. ring.
Qed.
Lemma jaumann_iso (k : R) (W : mat3 R) (dt : R) : get_jaumann_increment (spherical k) W dt = spherical k.
Proof. destruct W; meq. Qed.

(** regularised inverses *)
Definition shift20 (d : R) : R := d + / 10 ^ 20 * (if Rleb 0 d then 1 else -1).
Lemma big20 : IZR (10 ^ 20) = 10 ^ 20.
Proof. replace (IZR (10 ^ 20)) with (100000000000000000000) by reflexivity. simpl. lra. Qed.
Lemma safe_inv_val (d clip : R) : safe_inv_scalar_clamped d clip = / shift20 d.
Proof.
  unfold safe_inv_scalar_clamped, shift20. set (sl := safe_inv_slope d clip). rnum.
  rewrite big20. set (s := if Rleb 0 d then 1 else -1). unfold Rdiv. rewrite !Rmult_1_l. ring.
Qed.
Lemma shift20_ne d : shift20 d <> 0.
Proof. unfold shift20. assert (0 < / 10 ^ 20) by (apply Rinv_0_lt_compat, pow_lt; lra). rcase; lra. Qed.
Lemma shift20_close d : d <> 0 -> Rabs (d / shift20 d - 1) <= / 10 ^ 20 / Rabs d.
Proof.
  intro N. pose proof (shift20_ne d) as Z. assert (P : 0 < / 10 ^ 20) by (apply Rinv_0_lt_compat, pow_lt; lra).
  unfold shift20 in *. set (e := / 10 ^ 20) in *. clearbody e.
  revert Z. rcase; intro Z.
  - replace (d / (d + e * 1) - 1) with (- (e / (d + e))) by (field; lra).
    rewrite Rabs_Ropp, (Rabs_right d), Rabs_right by (try lra; apply Rle_ge, Rlt_le, Rdiv_lt_0_compat; lra).
    unfold Rdiv. apply Rmult_le_compat_l; [lra|]. apply Rinv_le_contravar; lra.
  - replace (d / (d + e * -1) - 1) with (- (e / (- d + e))) by (field; lra).
    rewrite Rabs_Ropp, (Rabs_left d), Rabs_right by (try lra; apply Rle_ge, Rlt_le, Rdiv_lt_0_compat; lra).
    unfold Rdiv. apply Rmult_le_compat_l; [lra|]. apply Rinv_le_contravar; lra.
Qed.
Lemma inv3_left (m : mat3 R) (clip : R) : mmul (inv_3x3_robust m clip) m = spherical (mdet m / shift20 (mdet m)).
Proof.
  unfold inv_3x3_robust. rewrite safe_inv_val.
  match goal with |- context [shift20 ?x] => replace x with (mdet m) by (destruct m; mcbv; ring) end.
  set (k := / shift20 (mdet m)). unfold Rdiv. fold k. destruct m; apply mat3_eq; clearbody k; mcbv; ring.
Qed.
Lemma inv3_right (m : mat3 R) (clip : R) : mmul m (inv_3x3_robust m clip) = spherical (mdet m / shift20 (mdet m)).
Proof.
  unfold inv_3x3_robust. rewrite safe_inv_val.
  match goal with |- context [shift20 ?x] => replace x with (mdet m) by (destruct m; mcbv; ring) end.
  set (k := / shift20 (mdet m)). unfold Rdiv. fold k. destruct m; apply mat3_eq; clearbody k; mcbv; ring.
Qed.
Definition det2 (m : mat2 R) : R := a00 m * a11 m - a01 m * a10 m.
Lemma inv2_left (m : mat2 R) (clip : R) (v : R * R) : m2v (inv_2x2_robust m clip) (m2v m v) = (det2 m / shift20 (det2 m) * fst v, det2 m / shift20 (det2 m) * snd v).
Proof.
  unfold inv_2x2_robust. rewrite safe_inv_val.
  change (a00 m * a11 m - a01 m * a10 m)%num with (det2 m).
  set (k := / shift20 (det2 m)). unfold Rdiv. fold k. clearbody k. destruct m, v. unfold m2v, det2; simpl. f_equal; ring.
Qed.
Lemma inv2_right (m : mat2 R) (clip : R) (v : R * R) : m2v m (m2v (inv_2x2_robust m clip) v) = (det2 m / shift20 (det2 m) * fst v, det2 m / shift20 (det2 m) * snd v).
Proof.
  unfold inv_2x2_robust. rewrite safe_inv_val.
  change (a00 m * a11 m - a01 m * a10 m)%num with (det2 m).
  set (k := / shift20 (det2 m)). unfold Rdiv. fold k. clearbody k. destruct m, v. unfold m2v, det2; simpl. f_equal; ring.
Qed.
