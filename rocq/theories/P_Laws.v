(** Property theorems C39-C44: creation of material points, observables, elasticity, Newtonian fluid. *)
From Coq Require Import List Arith ZArith Reals Bool Lra Lia.
From Verif Require Import Num NumR Linalg Arrays ModelGrid ModelShape ModelMath ModelState ModelLaws Sums ResFacts SpecMath MathProofs SpecLaws LawProofs LawProofs2.
Import ListNotations.
Local Open Scope R_scope.

Definition part (L s : mat3 R) (mass vol : R) : Particle R :=
  {| pt_pos := vzero; pt_vel := vzero; pt_mass := mass; pt_force := vzero; pt_vol := vol; pt_vol0 := vol; pt_L := L; pt_stress := s;
     pt_F := meye; pt_Fst := meye |}.
Definition soft (l : list (Particle R)) : SoftBody R := {| sb_dim := D3; sb_pts := l; sb_storeF := false; sb_vol0d := false |}.

(** ** C39 *)
Definition created (d : Dim) (pos : list (vec3 R)) (kw : list (KW R)) : CreateArgs R :=
  {| ca_dim := d; ca_pos := Some pos; ca_vel := None; ca_force := None; ca_mass := None; ca_vol := None; ca_vol0 := None;
     ca_L := None; ca_stress := None; ca_F := None; ca_storeF := false; ca_kw := kw |}.
(** the volume of one of [n] points sharing a cell of side [h] *)
Definition share (d : Dim) (h n : R) : R := match d with D2 => h * h / n | D3 => h * h * h / n end.

Lemma create_pts (a : CreateArgs R) b p : mp_create a = Ok b -> In p (sb_pts b) -> exists i,
  pt_vol p = match ca_vol a with Some l => nth i l 0 | None => default_volume (ca_kw a) end /\
  pt_vol0 p = match ca_vol0 a with Some l => nth i l 0 | None => pt_vol p end /\
  pt_mass p = match ca_mass a with Some l => nth i l 0 | None =>
     pt_vol p * match kw_find (fun k => match k with KW_density l => Some (Some l) | _ => None end) None (ca_kw a) with Some l => nth i l 0 | None => 1000 end end /\
  pt_vel p = pick (ca_vel a) vzero i /\ pt_stress p = pick (ca_stress a) mzero i /\ pt_F p = pick (ca_F a) meye i /\
  pt_L p = pick (ca_L a) mzero i /\ pt_force p = pick (ca_force a) vzero i /\
  p = nth i (sb_pts b) p /\ match ca_pos a with Some l => pt_pos p = nth i l vzero /\ (i < length l)%nat | None => pt_pos p = nth i [vzero] vzero end.
Proof.
  unfold mp_create. cbv zeta. set (n := length _). set (dk := kw_find _ _ _). destruct (_ && _)%bool; [|discriminate].
  intros E I. injection E as <-. cbn [sb_pts] in I. apply in_map_iff in I. destruct I as (i & Ep & I). apply in_seq in I.
  exists i. rewrite <- Ep. cbn [pt_vol pt_vol0 pt_mass pt_vel pt_stress pt_F pt_L pt_force pt_pos].
  repeat (split; [reflexivity|]). split.
  - cbn [sb_pts]. match goal with |- ?x = nth i (map ?f _) _ => set (g := f); change (g i = nth i (map g (seq 0 n)) (g i)) end.
    rewrite (map_nth g), seq_nth by lia. reflexivity.
  - destruct (ca_pos a); [split; [reflexivity|unfold n in I; lia]|reflexivity].
Qed.
(** two dimensions, number of points given by the keyword the code reads: the cell is shared out, mass is volume times density *)
Theorem C39_plane_partial : forall pos h n (kw : list (KW R)) b p,
  kw = [KW_cell_size h; KW_ppc n] \/ (exists rho, kw = [KW_cell_size h; KW_ppc n; KW_density rho]) ->
  mp_create (created D2 pos kw) = Ok b -> In p (sb_pts b) ->
  pt_vol p = share D2 h n /\ pt_vol0 p = pt_vol p /\
  exists i, (i < length pos)%nat /\ pt_pos p = nth i pos vzero /\
  pt_mass p = pt_vol p * match kw with [_; _; KW_density rho] => nth i rho 0 | _ => 1000 end.
Proof.
  intros pos h n kw b p K E I. destruct (create_pts _ _ _ E I) as (i & V & V0 & M & _ & _ & _ & _ & _ & _ & X & Li). cbn in V0.
  split; [|split; [exact V0|exists i; split; [exact Li|split; [exact X|]]]]; destruct K as [-> | (rho & ->)].
  - rewrite V. reflexivity.
  - rewrite V. reflexivity.
  - rewrite M. reflexivity.
  - rewrite M. reflexivity.
Qed.
Print Assumptions C39_plane_partial.
(** no keywords at all: a unit cell with 4 points, density 1000, in 2-D and in 3-D *)
Theorem C39_defaults : forall d pos b p, mp_create (created d pos []) = Ok b -> In p (sb_pts b) ->
  pt_vol p = share d 1 4 /\ pt_mass p = 1000 * share d 1 4 /\ pt_vel p = vzero /\ pt_stress p = mzero /\ pt_F p = meye.
Proof.
  intros d pos b p E I. destruct (create_pts _ _ _ E I) as (i & V & V0 & M & Ve & St & F & _ ).
  assert (V' : pt_vol p = 1 / 4) by (rewrite V; cbn; unfold default_volume; rnum; cbn; lra).
  rewrite M, V'. cbn. destruct d; cbn; repeat split; try lra; assumption.
Qed.
Print Assumptions C39_defaults.
(** FINDING: in 3-D the default volume is still cell_size^2 / ppc *)
Theorem C39_volume_3d_refuted : forall pos h n b p, mp_create (created D3 pos [KW_cell_size h; KW_ppc n]) = Ok b -> In p (sb_pts b) ->
  pt_vol p = share D2 h n /\ (h <> 0 -> h <> 1 -> n <> 0 -> pt_vol p <> share D3 h n).
Proof.
  intros pos h n b p E I. destruct (create_pts _ _ _ E I) as (i & V & _). assert (V' : pt_vol p = h * h / n) by (rewrite V; reflexivity).
  rewrite V'. split; [reflexivity|]. intros A B C X. unfold share in X. apply A.
  assert (Y : h * h * (h - 1) = 0).
  { apply (Rmult_eq_compat_r n) in X. unfold Rdiv in X. rewrite !Rmult_assoc, Rinv_l in X by exact C. lra. }
  apply Rmult_integral in Y. destruct Y as [Y|Y]; [apply Rmult_integral in Y; tauto|exfalso; apply B; lra].
Qed.
Print Assumptions C39_volume_3d_refuted.
(** FINDING: the documented keyword points_per_cell is not read; the count stays 4 *)
Theorem C39_points_per_cell_refuted : forall d pos h n b p, mp_create (created d pos [KW_cell_size h; KW_points_per_cell n]) = Ok b -> In p (sb_pts b) ->
  pt_vol p = h * h / 4.
Proof.
  intros d pos h n b p E I. destruct (create_pts _ _ _ E I) as (i & V & _). rewrite V. reflexivity.
Qed.
Print Assumptions C39_points_per_cell_refuted.
(** supplied arrays are stored as they are *)
Theorem C39_supplied : forall a b i, mp_create a = Ok b -> (i < length (sb_pts b))%nat -> let p := nth i (sb_pts b) (part mzero mzero 0 0) in
  (forall l, ca_vol a = Some l -> pt_vol p = nth i l 0) /\ (forall l, ca_mass a = Some l -> pt_mass p = nth i l 0) /\
  (forall l, ca_vel a = Some l -> pt_vel p = nth i l vzero) /\ (forall l, ca_stress a = Some l -> pt_stress p = nth i l mzero) /\
  (forall l, ca_pos a = Some l -> pt_pos p = nth i l vzero) /\ (forall l, ca_F a = Some l -> pt_F p = nth i l meye) /\
  (forall l, ca_vol0 a = Some l -> pt_vol0 p = nth i l 0) /\ (ca_vol0 a = None -> pt_vol0 p = pt_vol p).
Proof.
  intros a b i. unfold mp_create. cbv zeta. destruct (_ && _)%bool; [|discriminate]. intros E L. injection E as <-.
  cbn [sb_pts] in *. rewrite map_length, seq_length in L. cbv zeta.
  match goal with |- context [nth i (map ?f (seq 0 ?n)) ?d] => rewrite (nth_indep (map f (seq 0 n)) d (f 0%nat)) by (rewrite map_length, seq_length; exact L);
    rewrite (map_nth f), seq_nth by exact L end. cbn [pt_vol pt_vol0 pt_mass pt_vel pt_stress pt_F pt_L pt_force pt_pos plus].
  repeat split; intros; repeat match goal with H : _ = _ |- _ => rewrite H end; reflexivity.
Qed.
Print Assumptions C39_supplied.
(** the number of points is that of the positions, and stacks of another length are rejected *)
Theorem C39_lengths : forall a, match mp_create a with
  | Ok b => length (sb_pts b) = match ca_pos a with Some l => length l | None => 1%nat end
  | Err e => e = TypeError end.
Proof.
  intro a. unfold mp_create. cbv zeta. destruct (_ && _)%bool; [|reflexivity]. cbn [sb_pts]. rewrite map_length, seq_length. destruct (ca_pos a); reflexivity.
Qed.
Print Assumptions C39_lengths.
Example C39_case : exists b, mp_create (created D3 [vzero; V3 1 1 1] [KW_cell_size 2; KW_ppc 8]) = Ok b /\ length (sb_pts b) = 2%nat /\
  forall p, In p (sb_pts b) -> pt_vol p = 1 / 2 /\ share D3 2 8 = 1.
Proof.
  eexists. split; [reflexivity|split; [reflexivity|]]. intros p I. split; [|unfold share; lra].
  destruct (C39_volume_3d_refuted _ _ _ _ p eq_refl I) as (E & _). rewrite E. unfold share. lra.
Qed.

(** ** C40 *)
Lemma eps16 : @lit R Num_R 1 (10 ^ 16) = / 10 ^ 16.
Proof. unfold lit; rnum. replace (IZR (10 ^ 16)) with 10000000000000000 by reflexivity. simpl. lra. Qed.
Theorem C40_density : forall p : Particle R, 0 < pt_mass p -> 0 < pt_vol p ->
  0 < density p /\ density p <= pt_mass p / pt_vol p /\
  Rabs (density p - pt_mass p / pt_vol p) <= (/ 10 ^ 16 / pt_vol p) * (pt_mass p / pt_vol p).
Proof.
  intros p M V. unfold density. rewrite eps16. rnum. assert (P : 0 < / 10 ^ 16) by (apply Rinv_0_lt_compat, pow_lt; lra).
  set (e := / 10 ^ 16) in *. clearbody e. set (m := pt_mass p) in *. set (v := pt_vol p) in *.
  assert (A : 0 < m / (v + e)) by (apply Rdiv_lt_0_compat; lra).
  assert (D : m / v - m / (v + e) = (m / v) * (e / (v + e))) by (field; lra).
  assert (B : 0 < e / (v + e)) by (apply Rdiv_lt_0_compat; lra). assert (C : 0 < m / v) by (apply Rdiv_lt_0_compat; lra).
  assert (F : e / (v + e) <= e / v) by (unfold Rdiv; apply Rmult_le_compat_l; [lra|apply Rinv_le_contravar; lra]).
  split; [exact A|split].
  - assert (0 <= (m / v) * (e / (v + e))) by (apply Rmult_le_pos; lra). lra.
  - rewrite Rabs_minus_sym, D, Rabs_right by (apply Rle_ge, Rmult_le_pos; lra). rewrite Rmult_comm. apply Rmult_le_compat_r; lra.
Qed.
Print Assumptions C40_density.
Theorem C40_kinetic_energy : forall p : Particle R, 0 < pt_mass p ->
  KE p = pt_mass p * (vx (pt_vel p) * vx (pt_vel p) + vy (pt_vel p) * vy (pt_vel p) + vz (pt_vel p) * vz (pt_vel p)) / 2 /\
  0 <= KE p /\ (KE p = 0 <-> pt_vel p = vzero).
Proof.
  intros p M. assert (E : KE p = pt_mass p * (vx (pt_vel p) * vx (pt_vel p) + vy (pt_vel p) * vy (pt_vel p) + vz (pt_vel p) * vz (pt_vel p)) / 2)
    by (unfold KE, vnorm2, vdot; rnum; field).
  split; [exact E|]. rewrite E. destruct (pt_vel p) as [a b c]. cbn [vx vy vz].
  pose proof (Rle_0_sqr a); pose proof (Rle_0_sqr b); pose proof (Rle_0_sqr c); unfold Rsqr in *.
  split; [|split].
  - assert (0 <= pt_mass p * (a * a + b * b + c * c)) by (apply Rmult_le_pos; lra). lra.
  - intro Z. assert (Y : pt_mass p * (a * a + b * b + c * c) = 0) by lra. apply Rmult_integral in Y. destruct Y as [Y|Y]; [lra|].
    assert (Sq : forall x : R, x * x = 0 -> x = 0) by (intros x Hx; apply Rmult_integral in Hx; tauto).
    rewrite (Sq a), (Sq b), (Sq c) by lra. reflexivity.
  - intro Z. injection Z as -> -> ->. rnum. lra.
Qed.
Print Assumptions C40_kinetic_energy.
Example C40_case : 0 < pt_mass (part mzero mzero 3 2) /\ 0 < pt_vol (part mzero mzero 3 2).
Proof. simpl. lra. Qed.

(** ** C41 *)
Theorem C41_increment : forall E nu reset (b b' : SoftBody R) st st' dt i d,
  -1 < nu < 1 / 2 -> law_update (LawLE (linear_elastic E nu reset)) b st dt = Ok (b', st') -> (i < length (sb_pts b))%nat ->
  let p := nth i (sb_pts b) d in let p' := nth i (sb_pts b') d in let K := E / (3 * (1 - 2 * nu)) in let G := E / (2 * (1 + nu)) in
  mean3 (pt_stress p') = mean3 (pt_stress p) + K * (dt * mtrace (pt_L p)) /\
  deviator (pt_stress p') = madd (deviator (pt_stress p)) (mscale (2 * G * dt) (deviator (rate (pt_L p)))) /\
  (symmetric (pt_stress p) -> symmetric (pt_stress p')).
Proof.
  intros E nu reset b b' st st' dt i d Hn U Hi p p' K G.
  destruct (le_update_nth _ _ _ _ _ _ d i U Hi) as (_ & _ & Q). fold p p' in Q. rewrite Q, set_stress_stress, le_stress_eq.
  cbn [le_lam le_G linear_elastic]. unfold get_lame_modulus, get_shear_modulus. set (s := pt_stress p). set (L := pt_L p). clearbody s L.
  unfold K, G. destruct s, L. unfold rate, symmetric. split; [|split].
  - mcbv. field. lra.
  - apply mat3_eq; mcbv; field; lra.
  - mcbv. intros (A & B & C). subst. repeat split; ring.
Qed.
Print Assumptions C41_increment.
(** the increment is linear in the velocity gradient and the time step *)
Theorem C41_linear : forall m (L L' s : mat3 R) a dt, le_stress m (madd (mscale a L) L') s dt = madd (le_stress m L mzero (a * dt)) (le_stress m L' s dt).
Proof. intros. rewrite !le_stress_eq. destruct L, L', s. unfold rate. meq. Qed.
Print Assumptions C41_linear.
(** any history of updates gives the stress of the summed increment *)
Theorem C41_path_independent : forall m (hist : list (mat3 R * R)) (s0 : mat3 R),
  fold_left (fun s h => le_stress m (fst h) s (snd h)) hist s0 = le_stress m (total_gradient hist) s0 1.
Proof. exact le_history. Qed.
Print Assumptions C41_path_independent.
(** closed strain path: the stress returns to its start *)
Theorem C41_closed_path : forall m hist (s0 : mat3 R), rate (total_gradient hist) = mzero ->
  fold_left (fun s h => le_stress m (fst h) s (snd h)) hist s0 = s0.
Proof.
  intros m hist s0 Z. rewrite le_history, le_stress_eq, Z. unfold rate in Z. destruct (total_gradient hist) as [a0 a1 a2 a3 a4 a5 a6 a7 a8].
  injection Z as Z0 Z1 Z2 Z3 Z4 Z5 Z6 Z7 Z8. cbn [m00 m01 m02 m10 m11 m12 m20 m21 m22] in *. rewrite Z0, Z4, Z8. destruct s0; meq.
Qed.
Print Assumptions C41_closed_path.
Theorem C41_isotropic : forall m Q (L s : mat3 R) dt, orthogonal Q -> le_stress m (turned Q L) (turned Q s) dt = turned Q (le_stress m L s dt).
Proof. exact le_isotropic. Qed.
Print Assumptions C41_isotropic.
Example C41_case : orthogonal (M3 0 (-1) 0 1 0 0 0 0 1) /\ le_stress (linear_elastic 9 (1/8) false) (M3 1 0 0 0 0 0 0 0 0) mzero 1 = M3 (31/3 - 1) 0 0 0 (4/3) 0 0 0 (4/3).
Proof.
  split; [split; apply mat3_eq; mcbv; lra|]. rewrite le_stress_eq. cbn [le_lam le_G linear_elastic]. unfold get_lame_modulus, get_shear_modulus, rate. meq.
Qed.

(** ** C42 *)
Theorem C42_relations : forall E nu : R, -1 < nu < 1 / 2 ->
  let K := get_bulk_modulus E nu in let G := get_shear_modulus E nu in let lam := get_lame_modulus E nu in
  K = lam + 2 * G / 3 /\ (0 < E -> E = 9 * K * G / (3 * K + G)) /\ (0 < E -> nu = (3 * K - 2 * G) / (2 * (3 * K + G))).
Proof.
  intros E nu Hn K G lam. unfold K, G, lam, get_bulk_modulus, get_shear_modulus, get_lame_modulus. rnum.
  split; [field; lra|]. split; intro HE.
  - field. repeat split; lra.
  - field. repeat split; lra.
Qed.
Print Assumptions C42_relations.
Theorem C42_positive : forall E nu : R, 0 < E -> -1 < nu < 1 / 2 -> 0 < get_bulk_modulus E nu /\ 0 < get_shear_modulus E nu /\
  (0 < nu <-> 0 < get_lame_modulus E nu).
Proof.
  intros E nu HE Hn. unfold get_bulk_modulus, get_shear_modulus, get_lame_modulus. rnum.
  split; [apply Rdiv_lt_0_compat; lra|split; [apply Rdiv_lt_0_compat; lra|]].
  assert (D : 0 < (1 + nu) * (1 - 2 * nu)) by (apply Rmult_lt_0_compat; lra). split; intro H.
  - apply Rdiv_lt_0_compat; [|exact D]. apply Rmult_lt_0_compat; assumption.
  - apply (Rmult_lt_compat_r _ _ _ D) in H. unfold Rdiv in H. rewrite Rmult_0_l, Rmult_assoc, Rinv_l, Rmult_1_r in H by lra. nra.
Qed.
Print Assumptions C42_positive.
(** the laws store moduli of one and the same solid: LinearElasticLaw from (E, nu), DruckerPrager from (K, nu) *)
Theorem C42_stored : forall E nu r K mu1 mu2 c0 mu1h H rho0, -1 < nu < 1 / 2 -> 0 < K ->
  le_K (linear_elastic E nu r) = le_lam (linear_elastic E nu r) + 2 * le_G (linear_elastic E nu r) / 3 /\
  let m := drucker_prager K nu mu1 mu2 c0 mu1h H rho0 r in
  dp_K m = K /\ dp_G m = get_shear_modulus (9 * K * dp_G m / (3 * K + dp_G m)) nu.
Proof.
  intros E nu r K mu1 mu2 c0 mu1h Hd rho0 Hn Z. split; [apply (C42_relations E nu Hn)|]. cbv zeta. split; [reflexivity|].
  unfold drucker_prager, get_shear_modulus. cbn [dp_G]. rnum. field. repeat split; try lra.
Qed.
Print Assumptions C42_stored.
Example C42_case : get_bulk_modulus 9 (1/8) = 4 /\ get_shear_modulus 9 (1/8) = 4 /\ get_lame_modulus 9 (1/8) = 4 / 3.
Proof. unfold get_bulk_modulus, get_shear_modulus, get_lame_modulus. rnum. repeat split; field. Qed.

(** ** C43 *)
Lemma nf_mean m (L : mat3 R) mass vol rho0 : mean3 (nf_stress m L mass vol rho0) = - nf_pressure m mass vol rho0.
Proof.
  unfold nf_stress. change (@numt_num R NumT_R) with Num_R. rewrite dev_rate_spec.
  rewrite mean_split'; [reflexivity|]. rewrite trace_scale, trace_deviator. ring.
Qed.
Lemma pow_ge_1 x y : 1 <= x -> 0 <= y -> 1 <= Rpower x y.
Proof. intros. rewrite <- (Rpower_O x) by lra. apply Rle_Rpower; assumption. Qed.
Lemma small6 : @lit R Num_R 1 (10 ^ 6) = / 1000000.
Proof. unfold lit; rnum. replace (IZR (10 ^ 6)) with 1000000 by reflexivity. lra. Qed.
Lemma nf_pressure_eq m mass vol rho0 : 0 < nf_K m -> 0 <= nf_beta m -> 1 <= mass / vol / rho0 ->
  nf_pressure m mass vol rho0 = nf_K m * (Rpower (mass / vol / rho0) (nf_beta m) - 1).
Proof.
  intros K B A. unfold nf_pressure. change (@numt_num R NumT_R) with Num_R. rewrite !nmax_R, small6. rnum.
  rewrite (Rmax_left (mass / vol / rho0)) by lra. apply Rmax_left. apply Rmult_le_pos; [lra|].
  pose proof (pow_ge_1 _ _ A B). lra.
Qed.
(** FINDING: the stress is -p I + 2 eta dev(D) in a library whose pressure is the mean of the stress; the reported pressure of a
    compressed fluid is -K((rho/rho0)^beta - 1): negative whenever the fluid is denser than at rest *)
Theorem C43_sign_refuted : forall (m : Newton R) b r dt b' st' i d, 0 < nf_K m -> 1 <= nf_beta m ->
  law_update (LawNewton m) b (Some (LS_Rho r)) dt = Ok (b', st') -> (i < length (sb_pts b))%nat ->
  let p := nth i (sb_pts b) d in let p' := nth i (sb_pts b') d in let ratio := pt_mass p / pt_vol p / nth i r 0 in
  1 < ratio -> pt_pressure p' = - (nf_K m * (Rpower ratio (nf_beta m) - 1)) /\ pt_pressure p' < 0.
Proof.
  intros m b r dt b' st' i d K B U Hi p p' ratio Hr. destruct (nf_update_nth _ _ _ _ _ _ d i U Hi) as (r' & Er & _ & _ & Q).
  injection Er as <-. fold p p' in Q. unfold pt_pressure. rewrite pressure_mean, Q, set_stress_stress.
  assert (E : nf_pressure m (pt_mass p) (pt_vol p) (nth i r 0) = nf_K m * (Rpower ratio (nf_beta m) - 1)) by (apply nf_pressure_eq; unfold ratio in Hr; lra).
  assert (M := nf_mean m (pt_L p) (pt_mass p) (pt_vol p) (nth i r 0)). 
  change (mean3 (nf_stress m (pt_L p) (pt_mass p) (pt_vol p) (nth i r (@n0 R Num_R))) = - (nf_K m * (Rpower ratio (nf_beta m) - 1)) /\
          mean3 (nf_stress m (pt_L p) (pt_mass p) (pt_vol p) (nth i r (@n0 R Num_R))) < 0).
  change (@n0 R Num_R) with 0. rewrite M, E. split; [reflexivity|].
  assert (1 < Rpower ratio (nf_beta m)). { rewrite <- (Rpower_O ratio) by lra. apply Rpower_lt; lra. }
  assert (0 < nf_K m * (Rpower ratio (nf_beta m) - 1)) by (apply Rmult_lt_0_compat; lra). lra.
Qed.
Print Assumptions C43_sign_refuted.
(** up to that sign: no pressure in extension, the equation of state in compression, shear stress 2 eta times the deviatoric rate *)
Theorem C43_magnitude_partial : forall (m : Newton R) (L : mat3 R) mass vol rho0, 0 < nf_K m -> 1 <= nf_beta m ->
  let s := nf_stress m L mass vol rho0 in let ratio := mass / vol / rho0 in
  (1 <= ratio -> - mean3 s = nf_K m * (Rpower ratio (nf_beta m) - 1)) /\ (ratio <= 1 -> mean3 s = 0) /\ 0 <= - mean3 s /\
  deviator s = mscale (2 * nf_visc m) (deviator (rate L)).
Proof.
  intros m L mass vol rho0 K B s ratio. unfold s. rewrite nf_mean. split; [|split; [|split]].
  - intro A. rewrite nf_pressure_eq by (unfold ratio in A; lra). apply Ropp_involutive.
  - intro A. unfold nf_pressure. change (@numt_num R NumT_R) with Num_R. rewrite !nmax_R, small6. rnum. fold ratio.
    rewrite Rmax_right; [lra|]. set (z := Rmax ratio (/ 1000000)).
    assert (Z : 0 < z <= 1) by (unfold z; split; [pose proof (Rmax_r ratio (/ 1000000)); lra|apply Rmax_lub; lra]).
    assert (Rpower z (nf_beta m) <= 1); [|nra].
    unfold Rpower. rewrite <- exp_0. assert (ln z <= 0). { destruct (Req_dec z 1) as [->|N]; [rewrite ln_1; lra|]. left. rewrite <- ln_1. apply ln_increasing; lra. }
    destruct (Req_dec (nf_beta m * ln z) 0) as [->|N]; [lra|]. left. apply exp_increasing. nra.
  - rewrite Ropp_involutive. unfold nf_pressure. change (@numt_num R NumT_R) with Num_R. rewrite !nmax_R. apply Rmax_r.
  - unfold nf_stress. change (@numt_num R NumT_R) with Num_R. rewrite dev_rate_spec. apply dev_split'. rewrite trace_scale, trace_deviator. ring.
Qed.
Print Assumptions C43_magnitude_partial.
Definition water : Newton R := {| nf_K := 100; nf_visc := 1; nf_beta := 1; nf_reset := true |}.
Example C43_case : exists b' st', law_update (LawNewton water) (soft [part mzero mzero 2 1]) (Some (LS_Rho [1])) 1 = Ok (b', st') /\
  pt_pressure (nth 0 (sb_pts b') (part mzero mzero 0 0)) = -100.
Proof.
  do 2 eexists. split; [reflexivity|].
  destruct (C43_sign_refuted water (soft [part mzero mzero 2 1]) [1] 1 _ _ 0%nat (part mzero mzero 0 0) ltac:(simpl; lra) ltac:(simpl; lra) eq_refl ltac:(simpl; lia) ltac:(simpl; lra)) as (E & _).
  etransitivity; [exact E|]. cbn. rewrite Rpower_1 by lra. lra.
Qed.

(** ** C44 *)
Theorem C44_inverse : forall (m : Newton R) mass vol p, 0 < nf_K m -> 0 < nf_beta m -> 0 < mass -> 0 < vol -> 0 <= p ->
  nf_stress m mzero mass vol (nf_density_ref m (mass / vol) p) = spherical (- p).
Proof.
  intros m mass vol p K B M V P. set (f := Rpower (p / nf_K m + 1) (1 / nf_beta m)).
  assert (Fp : 0 < f) by (unfold f, Rpower; apply exp_pos).
  assert (R1 : 0 < mass / vol) by (apply Rdiv_lt_0_compat; assumption).
  assert (Ra : mass / vol / nf_density_ref m (mass / vol) p = f).
  { unfold nf_density_ref. rnum. fold f. field. lra. }
  assert (P1 : 1 <= p / nf_K m + 1). { assert (0 <= p / nf_K m); [|lra]. unfold Rdiv. apply Rmult_le_pos; [exact P|]. apply Rlt_le, Rinv_0_lt_compat; exact K. }
  assert (F1 : 1 <= f). { unfold f. apply pow_ge_1; [exact P1|]. apply Rlt_le, Rdiv_lt_0_compat; lra. }
  assert (E : nf_pressure m mass vol (nf_density_ref m (mass / vol) p) = p).
  { rewrite nf_pressure_eq by (rewrite ?Ra; lra). rewrite Ra. unfold f. rewrite Rpower_mult. replace (1 / nf_beta m * nf_beta m) with 1 by (field; lra).
    rewrite Rpower_1 by lra. field. lra. }
  unfold nf_stress. rewrite E. unfold dev_rate. meq.
Qed.
Print Assumptions C44_inverse.
(** on a whole body: densities and pressures given to create_state_from_density come back from an update at rest (with the sign of C43) *)
Theorem C44_create_then_update : forall (m : Newton R) b ps st, 0 < nf_K m -> 0 < nf_beta m ->
  (forall p, In p (sb_pts b) -> 0 < pt_mass p /\ 0 < pt_vol p /\ pt_L p = mzero) -> (forall x, In x ps -> 0 <= x) ->
  sb_vol0d b = false -> nf_create_from_density m (map rho_of (sb_pts b)) (Some ps) = Ok st ->
  forall dt, exists b', law_update (LawNewton m) b (Some st) dt = Ok (b', Some st) /\
  map pt_pressure (sb_pts b') = map Ropp ps.
Proof.
  intros m b ps st K B Hp Hx V E dt. unfold nf_create_from_density in E. rewrite map_length in E.
  destruct (Nat.eqb_spec (length ps) (length (sb_pts b))) as [El|]; [|discriminate]. injection E as <-.
  simpl. rewrite V, !map_length, combine_length, map_length, El, Nat.min_id, Nat.eqb_refl. simpl.
  eexists. split; [reflexivity|]. simpl. clear V. revert ps El Hx. induction (sb_pts b) as [|p l IH]; intros [|x ps] El Hx; try discriminate; [reflexivity|].
  simpl. f_equal.
  - destruct (Hp p (or_introl eq_refl)) as (A & C & D).
    assert (Q := C44_inverse m (pt_mass p) (pt_vol p) x K B A C (Hx x (or_introl eq_refl))).
    change (get_pressure (nf_stress m (pt_L p) (pt_mass p) (pt_vol p) (nf_density_ref m (pt_mass p / pt_vol p) x)) = - x).
    rewrite D, Q, pressure_mean. mcbv. lra.
  - apply IH; [intros q I; apply Hp; right; exact I|simpl in El; lia|intros y I; apply Hx; right; exact I].
Qed.
Print Assumptions C44_create_then_update.
(** FINDING: create_state (what SimBuilder calls) passes the pressure positionally into the slot it also fills by keyword *)
Theorem C44_create_state_refuted : forall (T : Type) (N : NumT T) (m : Newton T) (b : SoftBody T), nf_create_state m b = Err TypeError.
Proof. reflexivity. Qed.
Print Assumptions C44_create_state_refuted.
Example C44_case : exists st, nf_create_from_density water (map rho_of [part mzero mzero 2 1]) (Some [50]) = Ok st.
Proof. eexists. reflexivity. Qed.
