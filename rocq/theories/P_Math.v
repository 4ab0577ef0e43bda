(** Property theorems C79-C83: utils/math_helpers.py. *)
From Coq Require Import List ZArith Reals Bool Lra Lia.
From Verif Require Import Num NumR Linalg ModelGrid ModelShape ModelMath Sums SpecMath MathProofs.
Import ListNotations.
Local Open Scope R_scope.

(** C79 *)
Theorem C79_phi_e_inverse : forall phi : R, 0 < phi <= 1 -> 0 <= phi_to_e phi /\ e_to_phi (phi_to_e phi) = phi.
Proof.
  intros phi (A & B). unfold e_to_phi, phi_to_e; rnum. split; [|field; lra].
  assert (1 <= 1 / phi); [|lra]. unfold Rdiv. rewrite Rmult_1_l. rewrite <- Rinv_1 at 1. apply Rinv_le_contravar; lra.
Qed.
Print Assumptions C79_phi_e_inverse.
Theorem C79_e_phi_inverse : forall e : R, 0 <= e -> 0 < e_to_phi e <= 1 /\ phi_to_e (e_to_phi e) = e.
Proof.
  intros e A. unfold e_to_phi, phi_to_e; rnum. split; [|field; lra]. unfold Rdiv. rewrite Rmult_1_l. split.
  - apply Rinv_0_lt_compat; lra.
  - rewrite <- Rinv_1. apply Rinv_le_contravar; lra.
Qed.
Print Assumptions C79_e_phi_inverse.
(** FINDING: the void ratio of a material of grain density [a] and bulk density [b] is a/b - 1 (solid fraction b/a); the helper
    returns a/b, one too much, and the solid fraction derived from it is b/(a+b), always below the true b/a. *)
Theorem C79_bulk_density_refuted : forall a b : R, 0 < b <= a ->
  get_e_from_bulk_density a b = phi_to_e (b / a) + 1 /\
  get_phi_from_bulk_density a b = b / (a + b) /\ get_phi_from_bulk_density a b < b / a.
Proof.
  intros a b (A & B). unfold get_phi_from_bulk_density, get_e_from_bulk_density, e_to_phi, phi_to_e; rnum.
  assert (1 / (1 + a / b) = b / (a + b)) as -> by (field; lra). split; [field; lra|split; [reflexivity|]].
  unfold Rdiv. apply Rmult_lt_compat_l; [lra|]. apply Rinv_lt_contravar; [|lra]. apply Rmult_lt_0_compat; lra.
Qed.
Print Assumptions C79_bulk_density_refuted.
Example C79_case : get_phi_from_bulk_density 2000 1000 = 1 / 3 /\ e_to_phi (phi_to_e (1 / 2)) = 1 / 2.
Proof. unfold get_phi_from_bulk_density, get_e_from_bulk_density, e_to_phi, phi_to_e; rnum. split; field. Qed.
(** get_phi_from_L: dividing by 1 - tr(L) dt is the exact inverse of the first-order volume change *)
Theorem C79_phi_from_L : forall (L : mat3 R) phi dt, 0 < phi -> mtrace L * dt < 1 ->
  0 < get_phi_from_L L phi dt /\ get_phi_from_L L phi dt * (1 - dt * mtrace L) = phi.
Proof.
  intros L phi dt A B. assert (E : get_phi_from_L L phi dt = phi / (1 - dt * mtrace L)).
  { unfold get_phi_from_L. destruct L; mcbv. f_equal. field. }
  rewrite E. split; [apply Rdiv_lt_0_compat; lra|field; lra].
Qed.
Print Assumptions C79_phi_from_L.

(** C80 *)
Theorem C80_split : forall s : mat3 R,
  s = madd (get_dev_stress s None) (mscale (get_pressure s) meye) /\ get_pressure s = mean3 s /\ mtrace (get_dev_stress s None) = 0 /\
  forall d p, mtrace d = 0 -> s = madd d (mscale p meye) -> d = get_dev_stress s None /\ p = get_pressure s.
Proof.
  intro s. split; [apply split_stress|split; [apply pressure_mean|split; [apply dev_trace|intros; apply split_unique; assumption]]].
Qed.
Print Assumptions C80_split.
Theorem C80_q : forall s : mat3 R, exists q, get_q_vm (Some s) None None = Ok q /\ 0 <= q /\ q * q = 3 / 2 * frob2 (deviator s) /\
  (q = 0 <-> s = spherical (mean3 s)).
Proof.
  intro s. exists (q_of s). split; [apply q_vm_ok|split; [apply q_of_nonneg|split; [|apply q_of_zero]]].
  unfold q_of. rewrite sqrt_sqrt; unfold J2_of; pose proof (frob2_nonneg (deviator s)); lra.
Qed.
Print Assumptions C80_q.
(** q does not see the pressure *)
Theorem C80_q_shift : forall (s : mat3 R) k, get_q_vm (Some (madd s (mscale k meye))) None None = get_q_vm (Some s) None None.
Proof.
  intros s k. rewrite !q_vm_ok. unfold q_of, J2_of. replace (deviator (madd s (mscale k meye))) with (deviator s); [reflexivity|].
  destruct s; meq.
Qed.
Print Assumptions C80_q_shift.
Theorem C80_triaxial : forall p q : R,
  get_pressure (reconstruct_stress_from_triaxial p q) = p /\
  get_q_vm (Some (reconstruct_stress_from_triaxial p q)) None None = Ok (Rabs q) /\
  m22 (reconstruct_stress_from_triaxial p q) - m00 (reconstruct_stress_from_triaxial p q) = q /\
  symmetric (reconstruct_stress_from_triaxial p q).
Proof.
  intros p q. split; [apply triaxial_pressure|split; [apply triaxial_q|]]. mcbv. split; [field|repeat split].
Qed.
Print Assumptions C80_triaxial.
(** the stress of a triaxial state is determined by p and q *)
Theorem C80_triaxial_inverse : forall s : mat3 R, s = mdiag (m00 s) (m00 s) (m22 s) ->
  s = reconstruct_stress_from_triaxial (get_pressure s) (m22 s - m00 s).
Proof.
  intros s ->. apply mat3_eq; mcbv; field.
Qed.
Print Assumptions C80_triaxial_inverse.
Example C80_case : get_q_vm (Some (reconstruct_stress_from_triaxial 10 (-6))) None None = Ok 6 /\
  get_pressure (M3 1 2 0 2 5 0 0 0 6 : mat3 R) = 4.
Proof.
  destruct (C80_triaxial 10 (-6)) as (_ & -> & _). split; [|mcbv; field].
  f_equal. rewrite Rabs_left; lra.
Qed.

(** C81 *)
Theorem C81_jaumann : forall (t L : mat3 R) dt, symmetric t ->
  symmetric (get_jaumann_increment t (get_spin_tensor L) dt) /\
  mtrace (get_jaumann_increment t (get_spin_tensor L) dt) = mtrace t.
Proof.
  intros t L dt S. split; [apply jaumann_symmetric; [exact S|apply spin_skew]|apply jaumann_trace].
Qed.
Print Assumptions C81_jaumann.
(** it is the identity on isotropic tensors and for a symmetric velocity gradient *)
Theorem C81_unchanged : forall (t L : mat3 R) k dt,
  get_jaumann_increment (spherical k) (get_spin_tensor L) dt = spherical k /\
  (symmetric L -> get_jaumann_increment t (get_spin_tensor L) dt = t).
Proof.
  intros t L k dt. split; [apply jaumann_iso|]. intros (A & B & C). destruct L, t. simpl in A, B, C. subst. meq.
Qed.
Print Assumptions C81_unchanged.
(** the size of the tensor is kept to first order only: every step with a spin that does not commute with it makes it larger *)
Theorem C81_size : forall (t L : mat3 R) dt, symmetric t ->
  let W := get_spin_tensor L in
  frob2 (get_jaumann_increment t W dt) = frob2 t + dt * dt * frob2 (msub (mmul W t) (mmul t W)) /\
  (dt <> 0 -> mmul W t <> mmul t W -> frob2 t < frob2 (get_jaumann_increment t W dt)).
Proof.
  intros t L dt S W. assert (K : skew W) by apply spin_skew. rewrite jaumann_frob by assumption. split; [reflexivity|].
  intros D N. assert (0 < dt * dt) by (pose proof (Rsqr_pos_lt dt D); unfold Rsqr in *; lra).
  assert (0 < frob2 (msub (mmul W t) (mmul t W))); [|nra].
  destruct (Rle_lt_or_eq_dec _ _ (frob2_nonneg (msub (mmul W t) (mmul t W)))) as [P|Z]; [exact P|].
  exfalso. apply N. symmetry in Z. apply frob2_zero in Z. clear S K. destruct (mmul W t), (mmul t W). injection Z; intros.
  rnum. f_equal; lra.
Qed.
Print Assumptions C81_size.
Example C81_case : let L : mat3 R := M3 0 1 0 0 0 0 0 0 0 in let t : mat3 R := M3 1 0 0 0 0 0 0 0 0 in
  symmetric t /\ get_jaumann_increment t (get_spin_tensor L) 1 = M3 1 (-1/2) 0 (-1/2) 0 0 0 0 0.
Proof. split; [mcbv; repeat split|meq]. Qed.

(** C82.  The factor by which inverse and matrix differ from an inverse pair *)
Theorem C82_inv3 : forall (m : mat3 R) clip, mdet m <> 0 -> exists f, Rabs (f - 1) <= / 10 ^ 20 / Rabs (mdet m) /\
  mmul (inv_3x3_robust m clip) m = spherical f /\ mmul m (inv_3x3_robust m clip) = spherical f.
Proof.
  intros m clip N. exists (mdet m / shift20 (mdet m)). split; [apply shift20_close; exact N|split; [apply inv3_left|apply inv3_right]].
Qed.
Print Assumptions C82_inv3.
Theorem C82_inv2 : forall (m : mat2 R) clip, let det := a00 m * a11 m - a01 m * a10 m in det <> 0 ->
  exists f, Rabs (f - 1) <= / 10 ^ 20 / Rabs det /\
  forall x y, m2v (inv_2x2_robust m clip) (m2v m (x, y)) = (f * x, f * y) /\ m2v m (m2v (inv_2x2_robust m clip) (x, y)) = (f * x, f * y).
Proof.
  intros m clip det N. exists (det / shift20 det). split; [apply shift20_close; exact N|]. intros x y.
  split; [apply inv2_left|apply inv2_right].
Qed.
Print Assumptions C82_inv2.
(** the gradient clip does not change the value *)
Theorem C82_clip : forall (d c c' : R), safe_inv_scalar_clamped d c = safe_inv_scalar_clamped d c'.
Proof. intros. rewrite !safe_inv_val. reflexivity. Qed.
Print Assumptions C82_clip.
Example C82_case : mdet (M3 2 0 0 0 1 1 0 0 1 : mat3 R) <> 0.
Proof. mcbv. lra. Qed.

(** C83.  FINDING: get_dev_strain_stack calls itself without end; get_scalar_shear_strain passes three positional arguments to a
    two-parameter function. *)
Theorem C83_dev_strain_stack_refuted : forall (T : Type) (N : Num T) (fuel : nat) (l : list (mat3 T)),
  get_dev_strain_stack_fuel fuel l = Err RecursionError.
Proof. intros T N fuel l. induction fuel; simpl; auto. Qed.
Print Assumptions C83_dev_strain_stack_refuted.
Theorem C83_scalar_shear_strain_refuted : forall (T : Type) (N : NumT T) (strain : option (mat3 T)) v,
  get_scalar_shear_strain strain None v = Err TypeError.
Proof. reflexivity. Qed.
Print Assumptions C83_scalar_shear_strain_refuted.
(** with the deviator given, the shear strain is the square root of half its squared size *)
Theorem C83_scalar_shear_strain_partial : forall strain (e : mat3 R) v, exists g,
  get_scalar_shear_strain strain (Some e) v = Ok g /\ 0 <= g /\ g * g = frob2 e / 2.
Proof.
  intros strain e v. eexists; split; [reflexivity|]. unfold nsqrt; simpl.
  match goal with |- 0 <= sqrt ?x /\ _ => assert (E : x = frob2 e / 2) by (destruct e; mcbv; field); rewrite E end.
  pose proof (frob2_nonneg e). split; [apply sqrt_pos|apply sqrt_sqrt; lra].
Qed.
Print Assumptions C83_scalar_shear_strain_partial.
Example C83_case : exists g, get_scalar_shear_strain None (Some (M3 1 0 0 0 (-1) 0 0 0 0 : mat3 R)) None = Ok g /\ g = 1.
Proof.
  destruct (C83_scalar_shear_strain_partial None (M3 1 0 0 0 (-1) 0 0 0 0) None) as (g & E & P & Q). exists g. split; [exact E|].
  assert (g * g = 1) by (rewrite Q; mcbv; field). nra.
Qed.
