(** Property theorems C148: the project collapse. *)
From Coq Require Import List ZArith Bool String Reals Lra Lia.
From Flocq Require Import Core.Raux.
From Verif Require Import Num NumR Linalg Arrays ModelGrid ModelShape ModelMath ModelState ModelLaws ModelForces ModelSolver ModelSDF ModelGen ModelBuilder ModelCollapse ModelTwo ModelColumn NumSF
  Sums ResFacts SpecShape SpecSolver SpecReady ReadyProofs ExSolver P_Solver P_CollapseRun P_Builder P_Two.
Import ListNotations.
Local Open Scope R_scope.

(** ** the points *)
(** the lattice of the column: squares of side [s], the first centre two sides from the corner of the domain *)
Definition slot (s : R) (i j : nat) : vec3 R := V3 ((INR i + 2) * s) ((INR j + 2) * s) 0.
Lemma column_axis_in (w s x : R) : 0 < s -> (In x (column_axis w s) <-> exists i : nat, INR i * s < w /\ x = (INR i + 2) * s).
Proof.
  intros Hs. unfold column_axis. rewrite in_map_iff. change (@n0 R (@numt_num R NumT_R)) with 0. change (@numt_num R NumT_R) with Num_R.
  change (@nadd R Num_R) with Rplus. change (@nmul R Num_R) with Rmult. change (@n2 R Num_R) with 2. split.
  - intros (v & <- & Hv). apply (frange_in _ _ _ _ Hs) in Hv. destruct Hv as (i & Hi & ->). exists (Z.to_nat i). rewrite INR_IZR_INZ, Z2Nat.id by lia.
    split; [| ring]. destruct (Rlt_le_dec (IZR i * s) w) as [|L]; [assumption | exfalso].
    assert (Zceil ((w - 0) / s) <= i)%Z; [| lia]. apply Zceil_glb. apply Rmult_le_reg_r with s; [exact Hs |]. replace ((w - 0) / s * s) with w by (field; lra). exact L.
  - intros (i & Hi & ->). exists (0 + IZR (Z.of_nat i) * s). rewrite INR_IZR_INZ in *. split; [ring |]. apply (frange_in _ _ _ _ Hs). exists (Z.of_nat i). split; [| reflexivity].
    split; [lia |]. apply lt_IZR. apply Rlt_le_trans with ((w - 0) / s); [| apply Zceil_ub]. apply Rmult_lt_reg_r with s; [exact Hs |].
    replace ((w - 0) / s * s) with w by (field; lra). exact Hi.
Qed.
(** the points are exactly the centres of the squares whose index fits into the column *)
Theorem C148_points : forall W H h n p, 0 < h -> 0 < n -> let s := h / n in
  (In p (column_points W H h n) <-> exists i j, INR i * s < W /\ INR j * s < H /\ p = slot s i j).
Proof.
  intros W H h n p Hh Hn s. assert (Hs : 0 < s) by (unfold s; apply Rdiv_lt_0_compat; lra). unfold column_points. cbv zeta. change (column_sep h n) with s.
  rewrite in_flat_map. split.
  - intros (y & Hy & Hp). apply in_map_iff in Hp as (x & <- & Hx). apply (column_axis_in _ _ _ Hs) in Hx, Hy. destruct Hx as (i & Hi & ->). destruct Hy as (j & Hj & ->).
    exists i, j. repeat split; assumption.
  - intros (i & j & Hi & Hj & ->). exists ((INR j + 2) * s). split; [apply (column_axis_in _ _ _ Hs); exists j; auto |].
    apply in_map_iff. exists ((INR i + 2) * s). split; [reflexivity |]. apply (column_axis_in _ _ _ Hs). exists i. auto.
Qed.
Print Assumptions C148_points.
Lemma column_axis_len (s : R) a : 0 < s -> List.length (column_axis (INR a * s) s) = a.
Proof.
  intros Hs. unfold column_axis, frange. rewrite !map_length, seq_length. change (@nceil R NumT_R) with Zceil.
  change (Z.to_nat (Zceil ((INR a * s - 0) / s)) = a). replace ((INR a * s - 0) / s) with (IZR (Z.of_nat a)) by (rewrite <- INR_IZR_INZ; field; lra).
  rewrite Zceil_IZR. apply Nat2Z.id.
Qed.
(** a column of a by b squares has a b points *)
Theorem C148_count : forall h n a b, 0 < h -> 0 < n -> let s := h / n in List.length (column_points (INR a * s) (INR b * s) h n) = (a * b)%nat.
Proof.
  intros h n a b Hh Hn s. assert (Hs : 0 < s) by (unfold s; apply Rdiv_lt_0_compat; lra). unfold column_points. cbv zeta. change (column_sep h n) with s.
  rewrite <- (column_axis_len s b Hs) at 2. generalize (column_axis (INR b * s) s). intros ys. induction ys as [| y ys IH]; [cbn; lia |].
  cbn [flat_map List.length]. rewrite app_length, map_length, IH, (column_axis_len s a Hs). lia.
Qed.
Print Assumptions C148_count.

(** ** the body *)
Definition resting (x : vec3 R) (m : R) (p : Particle R) : Prop :=
  pt_pos p = x /\ pt_mass p = m /\ pt_vel p = vzero /\ pt_stress p = mzero /\ pt_F p = meye.
Lemma column_created W H h n rho : exists b, mp_create (column_args W H h n rho) = Ok b /\ sb_dim b = D2 /\ sb_vol0d b = false /\
  Forall2 (fun x p => resting x (h * h / n * rho) p) (column_points W H h n) (sb_pts b).
Proof.
  unfold mp_create, column_args. cbn [ca_pos ca_dim ca_vel ca_force ca_mass ca_vol ca_vol0 ca_L ca_stress ca_F ca_kw ca_storeF].
  cbv zeta. cbn [len_ok kw_find find]. generalize (column_points W H h n). intros l.
  rewrite repeat_length, Nat.eqb_refl. cbn [andb]. eexists. split; [reflexivity |]. cbn [sb_dim sb_vol0d sb_pts].
  split; [reflexivity |]. split; [reflexivity |].
  assert (G : forall (A B : Type) (P : A -> B -> Prop) (f : nat -> B) d l k, (forall i, (i < List.length l)%nat -> P (nth i l d) (f (k + i)%nat)) -> Forall2 P l (map f (seq k (List.length l)))).
  { clear. intros A B P f d l. induction l as [| a l IH]; intros k H; cbn; constructor.
    - specialize (H 0%nat). cbn in H. rewrite Nat.add_0_r in H. apply H. lia.
    - apply IH. intros i Hi. specialize (H (S i)). cbn in H. replace (S k + i)%nat with (k + S i)%nat by lia. apply H. lia. }
  apply G with (d := vzero). intros i Hi. unfold resting. cbn [pt_pos pt_mass pt_vel pt_stress pt_F pick plus]. split; [reflexivity |]. split; [| repeat split].
  change (h * h / n * nth i (repeat rho (List.length l)) 0 = h * h / n * rho). f_equal. rewrite nth_indep with (d' := rho) by (rewrite repeat_length; lia). apply nth_repeat.
Qed.
(** a column of a by b squares of density rho weighs ppc times what it should: the number of points per cell is the square of ppc, but each point is
    given the area of a cell divided by ppc *)
Theorem C148_mass_refuted : forall h n a b rho body, 0 < h -> 0 < n -> let s := h / n in
  mp_create (column_args (INR a * s) (INR b * s) h n rho) = Ok body -> sumR pt_mass (sb_pts body) = n * (rho * ((INR a * s) * (INR b * s))).
Proof.
  intros h n a b rho body Hh Hn s E. destruct (column_created (INR a * s) (INR b * s) h n rho) as (b' & E' & _ & _ & F).
  rewrite E in E'. injection E' as <-. assert (C := C148_count h n a b Hh Hn). cbv zeta in C. fold s in C.
  assert (G : forall m xs l, Forall2 (fun x p => resting x m p) xs l -> sumR pt_mass l = INR (List.length xs) * m).
  { clear. intros m xs l F. induction F as [| x p xs l (_ & Em & _) F IH]; [cbn; ring |]. rewrite sumR_cons, IH, Em. cbn [List.length]. rewrite S_INR. ring. }
  rewrite (G _ _ _ F), C, mult_INR. unfold s. field. lra.
Qed.
Print Assumptions C148_mass_refuted.

(** ** the friction *)
(** the principal stresses s1, s1, s3 with s1 the larger are those of a triaxial extension test, and s1, s3, s3 those of a triaxial compression test;
    the criterion of Mohr and Coulomb without cohesion *)
Definition mohr_coulomb (phi s1 s3 : R) : Prop := s1 - s3 = (s1 + s3) * sin phi.
Definition principal (p : R) (s : mat3 R) (a b c : R) : Prop := p = (a + b + c) / 3 /\ s = M3 (p - a) 0 0 0 (p - b) 0 0 0 (p - c).
Lemma sqrt3_pos : 0 < sqrt 3. Proof. apply sqrt_lt_R0. lra. Qed.
Lemma compute_mu_R deg : compute_mu deg = 6 * sin (deg * PI / 180) / (sqrt 3 * (3 + sin (deg * PI / 180))).
Proof. reflexivity. Qed.
Lemma trial_yield K nu mu rho r L e acc p0 dt :
  let t := dp_trial (drucker_prager K nu mu 0 0 0 0 rho r) L e acc p0 dt in
  tr_yf t = sqrt (Rmax (1/2 * mddot (tr_s t) (tr_s t)) (1 / IZR (10 ^ 12))) - mu * tr_p t.
Proof.
  cbv zeta. unfold dp_trial. cbn [tr_yf tr_s tr_p]. cbv zeta. unfold drucker_prager. cbn [dp_mu1 dp_mu2 dp_c0 dp_H dp_G dp_K].
  match goal with |- ?a = _ => let a' := eval unfold J2_dev, get_double_contraction in a in change a with a' end.
  change (@nsqrt R NumT_R) with sqrt. change (@numt_num R NumT_R) with Num_R. change (@lit R Num_R 1 2) with (1/2). change (@lit R Num_R 1 (10^12)) with (1 / IZR (10^12)).
  rewrite nmax_R. rnum. ring.
Qed.
Lemma sj_of (d : R) : 0 <= d -> 1 / IZR (10 ^ 12) <= d * d / 3 -> sqrt (Rmax (d * d / 3) (1 / IZR (10 ^ 12))) = d / sqrt 3.
Proof.
  intros Hd Hf. rewrite Rmax_left by exact Hf. assert (P := sqrt3_pos). replace (d * d / 3) with ((d / sqrt 3) * (d / sqrt 3)).
  - apply sqrt_square. apply Rmult_le_pos; [exact Hd | left; apply Rinv_0_lt_compat; exact P].
  - unfold Rdiv. replace (d * / sqrt 3 * (d * / sqrt 3)) with (d * d * / (sqrt 3 * sqrt 3)) by (field; lra). rewrite sqrt_sqrt by lra. reflexivity.
Qed.
Lemma yield_scaled (S d p : R) : 0 < 3 + S -> (d / sqrt 3 - 6 * S / (sqrt 3 * (3 + S)) * p <= 0 <-> d * (3 + S) <= 6 * S * p).
Proof.
  intros HS. assert (P := sqrt3_pos). replace (d / sqrt 3 - 6 * S / (sqrt 3 * (3 + S)) * p) with ((d * (3 + S) - 6 * S * p) / (sqrt 3 * (3 + S))) by (field; lra).
  assert (Q : 0 < / (sqrt 3 * (3 + S))) by (apply Rinv_0_lt_compat, Rmult_lt_0_compat; assumption). unfold Rdiv. split; intros X; nra.
Qed.
(** the coefficient of the script makes the law yield exactly where Mohr and Coulomb do in triaxial extension *)
Theorem C148_friction : forall K nu rho r deg L e acc p0 dt s1 s3, let phi := deg * PI / 180 in
  let t := dp_trial (drucker_prager K nu (compute_mu deg) 0 0 0 0 rho r) L e acc p0 dt in
  s3 <= s1 -> 1 / IZR (10 ^ 12) <= (s1 - s3) * (s1 - s3) / 3 -> principal (tr_p t) (tr_s t) s1 s1 s3 ->
  (tr_yf t <= 0 <-> s1 - s3 <= (s1 + s3) * sin phi).
Proof.
  intros K nu rho r deg L e acc p0 dt s1 s3 phi t Hs Hf (Ep & Es). unfold t in *. rewrite trial_yield, Es, Ep, compute_mu_R. fold phi.
  assert (B := SIN_bound phi). replace (1/2 * mddot _ _) with ((s1 - s3) * (s1 - s3) / 3) by (unfold mddot; cbn [m00 m01 m02 m10 m11 m12 m20 m21 m22]; rnum; field).
  rewrite sj_of by lra. rewrite yield_scaled by lra. split; intros X; nra.
Qed.
Print Assumptions C148_friction.
(** and earlier than they do in triaxial compression: there every stress state on their cone is beyond the law's *)
Theorem C148_compression_refuted : forall K nu rho r deg L e acc p0 dt s1 s3, let phi := deg * PI / 180 in
  let t := dp_trial (drucker_prager K nu (compute_mu deg) 0 0 0 0 rho r) L e acc p0 dt in
  s3 <= s1 -> 1 / IZR (10 ^ 12) <= (s1 - s3) * (s1 - s3) / 3 -> principal (tr_p t) (tr_s t) s1 s3 s3 ->
  (tr_yf t <= 0 <-> s1 - s3 <= (s1 + 5 * s3) / 3 * sin phi) /\ (0 < sin phi -> mohr_coulomb phi s1 s3 -> 0 < tr_yf t).
Proof.
  intros K nu rho r deg L e acc p0 dt s1 s3 phi t Hs Hf (Ep & Es).
  assert (Y : tr_yf t <= 0 <-> s1 - s3 <= (s1 + 5 * s3) / 3 * sin phi).
  { unfold t in *. rewrite trial_yield, Es, Ep, compute_mu_R. fold phi.
    assert (B := SIN_bound phi). replace (1/2 * mddot _ _) with ((s1 - s3) * (s1 - s3) / 3) by (unfold mddot; cbn [m00 m01 m02 m10 m11 m12 m20 m21 m22]; rnum; field).
    rewrite sj_of by lra. rewrite yield_scaled by lra. split; intros X; nra. }
  split; [exact Y |]. intros Hp M. apply Rnot_le_lt. intros X. apply Y in X. unfold mohr_coulomb in M.
  assert (0 < s1 - s3). { assert (0 < 1 / IZR (10 ^ 12)) by (apply Rdiv_lt_0_compat; [lra | apply IZR_lt; reflexivity]). nra. }
  nra.
Qed.
Print Assumptions C148_compression_refuted.
(** both kinds of stress states are reached from rest by suitable strains *)
Lemma trial_at (K nu mu rho : R) r acc a b c : 3 * K * (1 - 2 * nu) / (2 * (1 + nu)) <> 0 ->
  exists e p0, let t := dp_trial (drucker_prager K nu mu 0 0 0 0 rho r) mzero e acc p0 0 in principal (tr_p t) (tr_s t) a b c.
Proof.
  intros HG. set (G := 3 * K * (1 - 2 * nu) / (2 * (1 + nu))) in *. set (p := (a + b + c) / 3).
  exists (M3 ((p - a) / (2 * G)) 0 0 0 ((p - b) / (2 * G)) 0 0 0 ((p - c) / (2 * G))), p. cbv zeta.
  unfold principal, dp_trial. cbn [tr_p tr_s]. cbv zeta. unfold drucker_prager. cbn [dp_G dp_K].
  assert (V : get_volumetric_strain (madd (get_jaumann_increment (M3 ((p - a) / (2 * G)) 0 0 0 ((p - b) / (2 * G)) 0 0 0 ((p - c) / (2 * G))) (get_spin_tensor mzero) 0) (mscale 0 (get_sym_tensor mzero))) = 0).
  { cbn. rnum. unfold p. field. exact HG. }
  split.
  - change (@numt_num R NumT_R) with Num_R. match goal with |- context [get_volumetric_strain ?x] => replace (get_volumetric_strain x) with 0 by (symmetry; exact V) end. cbn. rnum. unfold p. field.
  - change (@numt_num R NumT_R) with Num_R. match goal with |- context [get_volumetric_strain ?x] => replace (get_volumetric_strain x) with 0 by (symmetry; exact V) end.
    change (n3 * K * (n1 - n2 * nu) / (n2 * (n1 + nu)))%num with G. apply mat3_eq; cbn; rnum; try (unfold Rdiv; ring); field; exact HG.
Qed.

(** ** the run *)
Definition law148 (K nu deg rho : R) : Law R := LawDP (drucker_prager K nu (compute_mu deg) 0 0 0 0 rho false).
Definition coupling148 : Coupling := {| c_kernel := Quadratic; c_p := 0; c_g := 0; c_c := Some 0%nat; c_s := Some 0%nat; c_skip := false |}.
(** the simulation the script is meant to set up: the column on a grid with three cells of padding, gravity, and one wall object *)
Definition meant_column (o e : vec3 R) (h K nu deg rho mu g alpha gap dt : R) (b : SoftBody R) (S : Solver R) (st : SimState R) : Prop :=
  (exists a, so_scheme S = ASFLIP a /\ af_mls a = true) /\ so_alpha S = alpha /\ so_couplings S = [coupling148] /\ so_domains S = [grid_create D2 o e h 3] /\
  so_laws S = [Some (law148 K nu deg rho)] /\
  so_forces S = [FGravity {| gv_on_grid := true; gv_callback := None; gv_ps := [0%nat]; gv_gs := [0%nat]; gv_f := 0 |};
                 FCollider {| cl_sdf := Some 0%nat; cl_gs := [0%nat]; cl_gap := gap; cl_friction := 1 |}] /\
  so_sdfs S = [logic_of (Domain (V3 (vx o + 75/100 * h) (vy o + 75/100 * h) 0) (V3 (vx e + 75/100 * h) (vy e + 75/100 * h) 0) [mu; mu; mu; mu])] /\ List.length (w_sdfs (s_world st)) = 1%nat /\
  w_mps (s_world st) = [Soft b] /\ s_mech st = {| m_laws := [Some (dp_create_state (repeat mzero (List.length (sb_pts b))))];
    m_solvers := [Some (SS_AFLIP (repeat mzero (List.length (sb_pts b))))]; m_forces := [Some (FS_Gravity (V3 0 g 0))] |} /\
  s_dt st = dt /\ s_time st = 0 /\ s_step st = 0%Z.
Theorem C148_start : forall o e W H h n rho K nu deg mu g alpha dt, exists cmds bld S st b,
  column_script o e W H h n rho K nu deg mu g alpha = Ok cmds /\
  execs builder0 cmds = (bld, [Ok 0; Ok 0; Ok 0; Ok 0; Ok 0; Ok 0; Ok 1; Ok 0]%nat) /\ build bld 0 0%Z dt = (OneSolver S, st) /\
  meant_column o e h K nu deg rho mu g alpha (h / n) dt b S st /\ sb_dim b = D2 /\ sb_vol0d b = false /\
  Forall2 (fun x p => resting x (h * h / n * rho) p) (column_points W H h n) (sb_pts b).
Proof.
  intros o e W H h n rho K nu deg mu g alpha dt. destruct (column_created W H h n rho) as (b & Eb & Db & Vb & F).
  assert (Eb' : @mp_create R (@numt_num R NumT_R) (column_args W H h n rho) = Ok b) by exact Eb.
  assert (Ln := Forall2_len _ _ _ F).
  eexists. do 3 eexists. exists b. split; [unfold column_script, domain; cbn [rbind]; reflexivity |]. split.
  { cbn [execs exec]. rewrite Eb'.
    lazy -[nadd nmul nsub ndiv nopp n0 n1 n2 n3 lit nofZ Num_R NumT_R numt_num create_sdf_state vscale vadd vtrunc vmap logic_of grid_create drucker_prager compute_mu column_sep dp_create_state column_points sb_pts sb_dim mzero].
    reflexivity. }
  split; [reflexivity |]. split; [| repeat split; assumption]. unfold meant_column. split; [eexists; split; reflexivity |]. repeat split.
  transitivity {| m_laws := [Some (dp_create_state (repeat mzero (List.length (column_points W H h n))))];
    m_solvers := [Some (SS_AFLIP (repeat mzero (List.length (sb_pts b))))]; m_forces := [Some (FS_Gravity (V3 0 g 0))] |}; [reflexivity | now rewrite Ln].
Qed.
Print Assumptions C148_start.
(** the simulation never raises an error *)
Theorem C148_goes_on : forall o e h K nu deg rho mu g alpha gap dt b S st k, meant_column o e h K nu deg rho mu g alpha gap dt b S st ->
  sb_dim b = D2 -> sb_vol0d b = false -> (2 <= List.length (sb_pts b))%nat -> exists st', solver_steps S k st = Ok st'.
Proof.
  intros o e h K nu deg rho mu g alpha gap dt b S st k ((a & Es & Ea) & _ & Ec & Ed & El & Ef & Esd & Ews & Ew & Em & _) Hd Hv Hn.
  apply ready_run. unfold ready. rewrite Esd, Ec, Ef, Ews. split; [cbn; lia |]. split; [| split].
  - intros c [<- | []]. exists (Soft b). eexists. rewrite Ew, Ed. split; [reflexivity |]. split; [reflexivity |]. split; [exact Hd |]. intros _. unfold num_points, body_positions. rewrite map_length. lia.
  - intros c [<- | []] _. exists b, 0%nat, (law148 K nu deg rho). eexists. rewrite Ew, El, Em, Es. cbn [m_laws m_solvers coupling148 c_p c_c c_s nth_error].
    split; [reflexivity |]. split; [exact Hv |]. split; [lia |]. split; [reflexivity |]. split; [reflexivity |]. split; [reflexivity |]. split.
    + eexists. split; [reflexivity |]. now rewrite map_length, repeat_length.
    + split; [exact Ea |]. exists 0%nat. do 2 eexists. repeat split.
  - assert (G : on_grids S [0%nat]) by (intros i [<- | []]; rewrite Ed; cbn; lia).
    intros f [<- | [<- | []]]; cbn [force_fits].
    + rewrite Em. cbn. eexists. split; [reflexivity |]. split; [exact G |]. intros _. eexists. reflexivity.
    + cbn. rewrite Esd. split; [cbn; lia | exact G].
Qed.
Print Assumptions C148_goes_on.
(** the walls: the column stands clear of the left wall and the floor exactly if ppc is less than 8/3; with three or more points along a cell its first row
    starts behind the walls *)
Theorem C148_clear : forall W H h n, 0 < h -> 0 < n -> 0 < W -> 0 < H ->
  ((forall p, In p (column_points W H h n) -> 75/100 * h < vx p /\ 75/100 * h < vy p) <-> n < 8/3).
Proof.
  intros W H h n Hh Hn HW HH. assert (Hs : 0 < h / n) by (apply Rdiv_lt_0_compat; lra). assert (Eh : h = n * (h / n)) by (field; lra). split.
  - intros X. destruct (X (slot (h / n) 0 0)) as (X1 & _).
    + apply C148_points; [lra | lra |]. exists 0%nat, 0%nat. cbn [INR]. repeat split; lra.
    + unfold slot in X1. cbn [vx INR] in X1. nra.
  - intros X p Hp. apply C148_points in Hp; [| lra | lra]. destruct Hp as (i & j & _ & _ & ->). unfold slot. cbn [vx vy].
    assert (Pi := pos_INR i). assert (Pj := pos_INR j). split; nra.
Qed.
Print Assumptions C148_clear.

(** ** the loop of the script *)
(** it makes the number of steps computed and hands the callback the states after 1, 1 + output step, 1 + 2 output steps, ... steps *)
Theorem C148_run : forall (S : Solver R) total out dt st fin logs, let os := column_steps out dt in (0 < os)%Z -> (0 <= column_steps total dt)%Z ->
  column_run S total out dt st = Ok (fin, logs) -> solver_steps S (Z.to_nat (column_steps total dt)) st = Ok fin /\
  ((Z.of_nat (List.length logs) - 1) * os < column_steps total dt <= Z.of_nat (List.length logs) * os)%Z /\
  forall k s, nth_error logs k = Some s -> solver_steps S (k * Z.to_nat os + 1) st = Ok s.
Proof.
  intros S total out dt st fin logs os O N E. unfold column_run in E. change (@column_steps R (@numt_num R NumT_R)) with (@column_steps R Num_R) in E. fold os in E. apply run_loop_ok in E; [| exact O | lia]. destruct E as (A1 & A2 & A3). split; [exact A1 |].
  replace ((0 + os - 1) / os)%Z with 0%Z in * by (symmetry; apply Z.div_small; lia). split.
  - rewrite A2, Z2Nat.id, Z.sub_0_r, Z.add_0_l by lia. set (n := column_steps total dt) in *.
    pose proof (Z.div_mod (n + os - 1) os ltac:(lia)) as D. pose proof (Z.mod_pos_bound (n + os - 1) os O) as M. nia.
  - intros k s Hs. destruct (A3 _ _ Hs) as (m & M1 & M2). assert (Em : m = (k * Z.to_nat os + 1)%nat) by nia. subst m. exact M2.
Qed.
Print Assumptions C148_run.
(** so the states logged are not those at the multiples of the output time but one step later; the state the run starts from is not logged *)
Theorem C148_times_refuted : forall (S : Solver R) total dt (os : nat) st fin logs k s, 0 < dt -> (0 < os)%nat -> 0 <= total -> s_dt st = dt -> s_time st = 0 ->
  column_run S total (INR os * dt) dt st = Ok (fin, logs) -> nth_error logs k = Some s -> s_time s = INR k * (INR os * dt) + dt /\ s_time s <> INR k * (INR os * dt).
Proof.
  intros S total dt os st fin logs k s Hd Ho Ht Ed E0 E Hs.
  assert (Eo : column_steps (INR os * dt) dt = Z.of_nat os).
  { change (Ztrunc (INR os * dt / dt) = Z.of_nat os). replace (INR os * dt / dt) with (IZR (Z.of_nat os)) by (rewrite <- INR_IZR_INZ; field; lra). apply Ztrunc_IZR. }
  assert (Et : (0 <= column_steps total dt)%Z).
  { change (0 <= Ztrunc (total / dt))%Z. assert (P : 0 <= total / dt) by (apply Rmult_le_pos; [exact Ht | left; apply Rinv_0_lt_compat; exact Hd]).
    rewrite Ztrunc_floor by exact P. apply Zfloor_lub. exact P. }
  assert (X := C148_run S total (INR os * dt) dt st fin logs). cbv zeta in X. rewrite Eo in X. specialize (X ltac:(lia) Et E). destruct X as (_ & _ & X). specialize (X k s Hs).
  rewrite Nat2Z.id in X. apply C22_time_over_reals in X. rewrite X, E0, Ed, plus_INR, mult_INR. cbn [INR]. split; [ring | lra].
Qed.
Print Assumptions C148_times_refuted.
(** the number of steps: total time over time step in exact arithmetic, one less in the arithmetic of Python, where 2.0 / 1e-5 is just below 200000 *)
Theorem C148_steps_refuted : @column_steps R Num_R column_total column_dt = 200000%Z /\ @column_steps _ Num_B64 (column_total (H:=Num_B64)) (column_dt (H:=Num_B64)) = 199999%Z /\
  @column_steps _ Num_B64 (column_output (H:=Num_B64)) (column_dt (H:=Num_B64)) = 5000%Z.
Proof.
  split; [| split; vm_compute; reflexivity]. change (Ztrunc (2 / (1 / IZR (10 ^ 5))) = 200000%Z). change (IZR (10 ^ 5)) with 100000.
  replace (2 / (1 / 100000)) with (IZR 200000) by field. apply Ztrunc_IZR.
Qed.
Print Assumptions C148_steps_refuted.

Lemma column_numbers_eq : column_numbers = column_script (V3 0 0 0) (V3 (6/10) (11/100) 0) (INR 160 * ((25/10000) / 2)) (INR 80 * ((25/10000) / 2)) (25/10000) 2 2650 (IZR (7 * 10 ^ 5)) (3/10) (198/10) (9/10) (- (981/100)) (9/10).
Proof.
  change column_numbers with (column_script (V3 0 0 0) (V3 (6/10) (11/100) 0) (2/10) (1/10) (25/10000) 2 2650 (IZR (7 * 10 ^ 5)) (3/10) (198/10) (9/10) (- (981/100)) (9/10)).
  replace (INR 160 * (25 / 10000 / 2)) with (2/10) by (rewrite INR_IZR_INZ; change (Z.of_nat 160) with 160%Z; field).
  replace (INR 80 * (25 / 10000 / 2)) with (1/10) by (rewrite INR_IZR_INZ; change (Z.of_nat 80) with 80%Z; field). reflexivity.
Qed.
(** the numbers of the script: 160 by 80 points, twice the mass of the column, no error at any step; the stress states of C148_friction and
    C148_compression_refuted are reached by its law *)
Example C148_case : exists cmds bld S st b, column_numbers = Ok cmds /\ execs builder0 cmds = (bld, [Ok 0; Ok 0; Ok 0; Ok 0; Ok 0; Ok 0; Ok 1; Ok 0]%nat) /\
  build bld 0 0%Z column_dt = (OneSolver S, st) /\ w_mps (s_world st) = [Soft b] /\ List.length (sb_pts b) = (160 * 80)%nat /\
  sumR pt_mass (sb_pts b) = 2 * (2650 * (2/10 * (1/10))) /\ (forall k, exists st', solver_steps S k st = Ok st') /\
  (exists l e p0, In (Some (LawDP l)) (so_laws S) /\ let t := dp_trial l mzero e 0 p0 0 in principal (tr_p t) (tr_s t) 2000 2000 1000) /\
  (exists l e p0, In (Some (LawDP l)) (so_laws S) /\ let t := dp_trial l mzero e 0 p0 0 in principal (tr_p t) (tr_s t) 2000 1000 1000).
Proof.
  rewrite column_numbers_eq.
  destruct (C148_start (V3 0 0 0) (V3 (6/10) (11/100) 0) (INR 160 * ((25/10000) / 2)) (INR 80 * ((25/10000) / 2)) (25/10000) 2 2650 (IZR (7 * 10 ^ 5)) (3/10) (198/10) (9/10) (- (981/100)) (9/10) column_dt)
    as (cmds & bld & S & st & b & X1 & X2 & X3 & M & D & V & F).
  exists cmds, bld, S, st, b. split; [exact X1 |]. split; [exact X2 |]. split; [exact X3 |].
  assert (C := C148_count (25/10000) 2 160 80 ltac:(lra) ltac:(lra)). cbv zeta in C. assert (Ln := Forall2_len _ _ _ F). rewrite C in Ln.
  split; [apply M |]. split; [symmetry; exact Ln |]. split.
  - assert (G : forall m xs l, Forall2 (fun x p => resting x m p) xs l -> sumR pt_mass l = INR (List.length xs) * m).
    { clear. intros m xs l F. induction F as [| x p xs l (_ & Em & _) F IH]; [cbn; ring |]. rewrite sumR_cons, IH, Em. cbn [List.length]. rewrite S_INR. ring. }
    rewrite (G _ _ _ F), C, mult_INR, !INR_IZR_INZ. change (Z.of_nat 160) with 160%Z. change (Z.of_nat 80) with 80%Z. field.
  - split; [intros k; apply (C148_goes_on _ _ _ _ _ _ _ _ _ _ _ _ _ _ _ k M D V); rewrite <- Ln; apply Nat.leb_le; reflexivity |].
    destruct M as (_ & _ & _ & _ & El & _). rewrite El. change (IZR (7 * 10 ^ 5)) with 700000.
    split; (eexists; match goal with |- context [principal _ _ ?a ?b ?c] => destruct (trial_at 700000 (3/10) (compute_mu (198/10)) 2650 false 0 a b c ltac:(lra)) as (ee & p0 & T) end;
      exists ee, p0; split; [left; reflexivity | exact T]).
Qed.
