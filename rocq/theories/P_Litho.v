(** C120: initial stresses of a bed under gravity (utils/math_helpers.py 543-592). *)
From Coq Require Import List ZArith Reals Bool Lra Lia.
From Verif Require Import Num NumR Linalg ModelGrid ModelShape ModelMath Sums SpecMath MathProofs P_Math.
Import ListNotations.
Local Open Scope R_scope.

(** angle in radians *)
Definition radians (a : R) : R := a * (PI / 180).
(** stress of a bed inclined by [a] degrees at depth [z] below its surface, third axis normal to the surface, first axis down
    the slope: the weight of the column above acts on the plane z = const *)
Definition bed_stress (rho g a k0 z : R) : mat3 R :=
  let sv := rho * g * z * cos (radians a) in let tau := rho * g * z * sin (radians a) in
  M3 (k0 * sv) 0 tau 0 (k0 * sv) 0 tau 0 sv.
(** the initial stress a script makes: both helpers in sequence *)
Definition initial_stress (rho g a k0 z : R) : mat3 R :=
  let pq := precondition_from_lithostatic rho z g a k0 in reconstruct_stress_from_triaxial (fst pq) (snd pq).

(** the bed carries its weight: the tractions on planes of constant depth grow at the rate of gravity's components *)
Lemma bed_balance rho g a k0 z :
  derivable_pt_lim (fun z => m22 (bed_stress rho g a k0 z)) z (rho * g * cos (radians a)) /\
  derivable_pt_lim (fun z => m02 (bed_stress rho g a k0 z)) z (rho * g * sin (radians a)).
Proof.
  assert (Lin : forall c d, derivable_pt_lim (fun z => rho * g * z * c) z d <-> derivable_pt_lim (fun z => (rho * g * c) * z) z d).
  { intros c d. split; intros H e He; destruct (H e He) as (del & Hd); exists del; intros h Hh Hl; specialize (Hd h Hh Hl);
      [replace (rho * g * c * (z + h) - rho * g * c * z) with (rho * g * (z + h) * c - rho * g * z * c) by ring
      |replace (rho * g * (z + h) * c - rho * g * z * c) with (rho * g * c * (z + h) - rho * g * c * z) by ring]; exact Hd. }
  split; cbn [bed_stress m22 m02]; apply Lin; rewrite <- Rmult_1_r; apply derivable_pt_lim_scal, derivable_pt_lim_id.
Qed.

(** C120: pressure and shear stress are those of the bed, for every slope and ratio *)
Theorem C120_invariants : forall rho z g a k0,
  precondition_from_lithostatic rho z g a k0 = (mean3 (bed_stress rho g a k0 z), q_of (bed_stress rho g a k0 z)).
Proof.
  intros rho z g a k0. unfold precondition_from_lithostatic. rnum. fold (radians a). f_equal.
  - unfold mean3, bed_stress. cbn [m00 m11 m22]. field.
  - unfold q_of, J2_of. f_equal. unfold frob2, deviator, minus_diag, mean3, bed_stress. cbn [m00 m01 m02 m10 m11 m12 m20 m21 m22]. unfold sq. rnum. field.
Qed.
Print Assumptions C120_invariants.

(** a level bed with k0 <= 1 starts in equilibrium, vertical axis third *)
Theorem C120_level_partial : forall rho g k0 z, 0 <= rho -> 0 <= g -> k0 <= 1 -> 0 <= z -> initial_stress rho g 0 k0 z = bed_stress rho g 0 k0 z.
Proof.
  intros rho g k0 z A B C D. unfold initial_stress. rewrite C120_invariants. cbn [fst snd].
  assert (Z : radians 0 = 0) by (unfold radians; ring). assert (W : 0 <= rho * g * z) by (repeat apply Rmult_le_pos; assumption).
  assert (Q : q_of (bed_stress rho g 0 k0 z) = (1 - k0) * (rho * g * z)).
  { unfold q_of, J2_of. rewrite <- (sqrt_square ((1 - k0) * (rho * g * z))) by (apply Rmult_le_pos; lra). f_equal.
    unfold frob2, deviator, minus_diag, mean3, bed_stress. rewrite Z, sin_0, cos_0. cbn [m00 m01 m02 m10 m11 m12 m20 m21 m22]. field. }
  rewrite Q. unfold reconstruct_stress_from_triaxial, bed_stress, mean3, mdiag. rewrite Z, sin_0, cos_0. cbn [m00 m11 m22]. rnum. f_equal; field.
Qed.
Print Assumptions C120_level_partial.

(** FINDING: on a slope the initial stress has no shear traction, though the bed above needs it to stay *)
Theorem C120_slope_refuted : forall rho g a k0 z, 0 < rho -> 0 < g -> 0 < a < 180 -> 0 < z ->
  m02 (initial_stress rho g a k0 z) = 0 /\ m02 (bed_stress rho g a k0 z) > 0.
Proof.
  intros rho g a k0 z A B C D. split; [reflexivity|]. cbn [bed_stress m02]. apply Rmult_lt_0_compat; [repeat apply Rmult_lt_0_compat; assumption|].
  pose proof PI_RGT_0. apply sin_gt_0; unfold radians; [apply Rmult_lt_0_compat; lra|]. nra.
Qed.
Print Assumptions C120_slope_refuted.
(** FINDING: "Assuming Z is vertical".  In a 2-D model the vertical is the second axis; the stress there is the horizontal one, k0
    times the weight of the column. *)
Theorem C120_plane_refuted : forall rho g k0 z, 0 < rho -> 0 < g -> k0 < 1 -> 0 < z ->
  m11 (initial_stress rho g 0 k0 z) = k0 * (rho * g * z) /\ m11 (initial_stress rho g 0 k0 z) < rho * g * z.
Proof.
  intros rho g k0 z A B C D. rewrite C120_level_partial by lra. unfold bed_stress. cbn [m11]. replace (radians 0) with 0 by (unfold radians; ring).
  rewrite cos_0, Rmult_1_r. split; [reflexivity|]. assert (0 < rho * g * z) by (repeat apply Rmult_lt_0_compat; assumption). nra.
Qed.
Print Assumptions C120_plane_refuted.
(** FINDING: a ratio above 1 (overconsolidated beds) cannot be represented: q forgets its sign and the axes swap roles *)
Theorem C120_ratio_refuted : forall rho g k0 z, 0 < rho -> 0 < g -> 1 < k0 -> 0 < z ->
  m22 (initial_stress rho g 0 k0 z) = (4 * k0 - 1) / 3 * (rho * g * z) /\ m22 (initial_stress rho g 0 k0 z) > rho * g * z.
Proof.
  intros rho g k0 z A B C D. assert (W : 0 < rho * g * z) by (repeat apply Rmult_lt_0_compat; assumption).
  assert (Z : radians 0 = 0) by (unfold radians; ring).
  assert (Q : q_of (bed_stress rho g 0 k0 z) = (k0 - 1) * (rho * g * z)).
  { unfold q_of, J2_of. rewrite <- (sqrt_square ((k0 - 1) * (rho * g * z))) by (apply Rmult_le_pos; lra). f_equal.
    unfold frob2, deviator, minus_diag, mean3, bed_stress. rewrite Z, sin_0, cos_0. cbn [m00 m01 m02 m10 m11 m12 m20 m21 m22]. field. }
  assert (E : m22 (initial_stress rho g 0 k0 z) = (4 * k0 - 1) / 3 * (rho * g * z)).
  { unfold initial_stress. rewrite C120_invariants. cbn [fst snd]. rewrite Q. unfold reconstruct_stress_from_triaxial, bed_stress, mean3, mdiag.
    rewrite Z, cos_0. cbn [m00 m11 m22]. rnum. field. }
  split; [exact E|]. rewrite E. nra.
Qed.
Print Assumptions C120_ratio_refuted.
Example C120_case : 0 < 1500 /\ 0 < 981 / 100 /\ 0 < 20 < 180 /\ 1 / 2 < 1 /\ m11 (initial_stress 1000 10 0 (1/2) 3) = 15000 /\ m22 (initial_stress 1000 10 0 (1/2) 3) = 30000.
Proof.
  rewrite !C120_level_partial by lra. unfold bed_stress. cbn [m11 m22]. replace (radians 0) with 0 by (unfold radians; ring). rewrite cos_0. repeat split; lra.
Qed.

(** C80 (shear stress): q is sqrt 3 times tau, and in pure shear tau is the shear component *)
Theorem C80_shear : forall s : mat3 R, exists t, get_scalar_shear_stress (Some s) None None = Ok t /\ 0 <= t /\
  get_q_vm (Some s) None None = Ok (sqrt 3 * t) /\ forall p k, s = M3 p k 0 k p 0 0 0 p -> t = Rabs k.
Proof.
  intro s. exists (sqrt (J2_of s)). split; [|split; [apply sqrt_pos|split]].
  - unfold get_scalar_shear_stress, get_J2, rbind. rewrite dev_stress_deviator. unfold J2_of. apply (f_equal (fun x => Ok (sqrt x))). destruct (deviator s); mcbv. field.
  - rewrite q_vm_ok. f_equal. apply sqrt_mult_alt. lra.
  - intros p k ->. rewrite <- sqrt_sq_abs. f_equal. clear. mcbv. field.
Qed.
Print Assumptions C80_shear.

(** C81 (rate and spin): the only symmetric and skew parts of a velocity gradient *)
Theorem C81_split : forall L : mat3 R, symmetric (get_sym_tensor L) /\ skew (get_spin_tensor L) /\ L = madd (get_sym_tensor L) (get_spin_tensor L) /\
  forall D W, symmetric D -> skew W -> L = madd D W -> D = get_sym_tensor L /\ W = get_spin_tensor L.
Proof.
  intro L. split; [apply sym_symmetric|]. split; [apply spin_skew|]. split; [apply split_gradient|]. intros D W S K ->.
  destruct D as [d0 d1 d2 d3 d4 d5 d6 d7 d8], W as [w0 w1 w2 w3 w4 w5 w6 w7 w8]. destruct S as (A & B & C). destruct K as (E & F & G & H & I & J). cbn [m00 m01 m02 m10 m11 m12 m20 m21 m22] in *. subst. split; meq.
Qed.
Print Assumptions C81_split.
