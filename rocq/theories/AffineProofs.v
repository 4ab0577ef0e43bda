(** Affine velocity fields through P2G and G2P (C20, C26, C34). *)
From Coq Require Import List Arith ZArith Reals Bool Lra Lia.
From Verif Require Import Num NumR Linalg Arrays ModelGrid ModelShape ModelMath ModelState ModelLaws ModelForces ModelSolver
  Sums ShapeFacts SpecShape ShapeProofs ShapeProofs2 ShapeProofs3 MappingProofs ResFacts SolverFacts SpecSolver
  TransferProofs TransferProofs2 StepProofs GatherProofs MomentumProofs.
Import ListNotations.
Local Open Scope R_scope.

Lemma keep_in d a : (a < dim_nat d)%nat -> keep d a = 1.
Proof. destruct d, a as [|[|[|a]]]; simpl; intros; try reflexivity; lia. Qed.
Lemma keep_out d a : ~ (a < dim_nat d)%nat -> (a <= 2)%nat -> keep d a = 0.
Proof. destruct d, a as [|[|[|a]]]; simpl; intros; try reflexivity; lia. Qed.
(** component [a] of A x + b, with the axes of dimension [d] *)
Definition aff (d : Dim) (A : mat3 R) (b : vec3 R) (a : nat) (x : vec3 R) : R :=
  mcomp a 0 A * vcomp 0 x + mcomp a 1 A * vcomp 1 x + keep d 2 * mcomp a 2 A * vcomp 2 x + vcomp a b.

Lemma row_grad_planar k (gd : GridDomain R) xs it : In it (compute_on k gd xs) -> gd_dim gd = D2 -> vz (it_grad it) = 0.
Proof.
  intros Hin Ed. destruct (compute_row k gd xs it Hin) as (off & _ & _ & _ & _ & ->). rewrite Ed. unfold single_interaction. cbn [it_grad].
  destruct (idx_valid _ _); reflexivity.
Qed.
Lemma row_dist_planar k (gd : GridDomain R) xs it : In it (compute_on k gd xs) -> gd_dim gd = D2 -> vz (it_dist it) = 0.
Proof.
  intros Hin Ed. destruct (compute_row k gd xs it Hin) as (off & _ & _ & _ & _ & ->). rewrite Ed. reflexivity.
Qed.

(** embed a [d]-dimensional matrix in 3x3 *)
Definition mplane (d : Dim) (A : mat3 R) : mat3 R :=
  match d with D2 => M3 (m00 A) (m01 A) 0 (m10 A) (m11 A) 0 0 0 0 | D3 => A end.
Lemma mplane_zero d A a c : mplane d A = mzero -> (a < dim_nat d)%nat -> (c < dim_nat d)%nat -> mcomp a c A = 0.
Proof.
  intros E Ha Hc. rewrite <- (mcomp_zero a c), <- E. destruct d; [|reflexivity]. simpl in Ha, Hc.
  destruct a as [|[|a]], c as [|[|c]]; try lia; reflexivity.
Qed.
Lemma mat_dec (A B : mat3 R) : {A = B} + {A <> B}.
Proof. decide equality; apply Req_EM_T. Qed.
(** the kernel's gradients reproduce the field's gradient [A] at [x] (the linear kernel loses it on grid lines) *)
Definition smooth_at (A : mat3 R) (k : Kernel) (gd : GridDomain R) (x : vec3 R) : Prop :=
  k = Linear -> mplane (gd_dim gd) A <> mzero ->
  forall a j, (a < dim_nat (gd_dim gd))%nat -> (vcomp a x - vcomp a (gd_origin gd)) * gd_inv gd <> IZR j.

Section Gather.
Variables (k : Kernel) (gd : GridDomain R) (xs : list (vec3 R)) (p : nat) (A : mat3 R) (b : vec3 R).
Hypothesis W : wf_grid gd.
Hypothesis Hp : (p < length xs)%nat.
Hypothesis I : interior k gd (nth p xs vzero).
Let rows := of_point p (compute_on k gd xs).
Local Notation d := (gd_dim gd) (only parsing).
(** [u] is the affine field on the rows that matter *)
Definition affine_rows (u : Interaction R -> vec3 R) : Prop :=
  forall it a, In it rows -> it_val it <> 0 \/ it_grad it <> vzero -> (a < dim_nat d)%nat ->
    vcomp a (u it) = aff d A b a (row_pos gd it).
Lemma gather_affine u a : affine_rows u -> (a < dim_nat d)%nat ->
  sumR (fun it => it_val it * vcomp a (u it)) rows = aff d A b a (nth p xs vzero).
Proof.
  intros H Ha.
  rewrite (sumR_ext _ (fun it => mcomp a 0 A * (it_val it * vcomp 0 (row_pos gd it)) + (mcomp a 1 A * (it_val it * vcomp 1 (row_pos gd it))
     + (keep d 2 * mcomp a 2 A * (it_val it * vcomp 2 (row_pos gd it)) + vcomp a b * it_val it)))).
  - rewrite !sumR_plus, !sumR_scal. unfold rows. rewrite pou by (try apply W; assumption).
    rewrite !(reproduce_position k gd xs p 0), !(reproduce_position k gd xs p 1) by (try assumption; destruct (gd_dim gd); simpl; lia).
    unfold aff. destruct (Nat.ltb_spec 2 (dim_nat d)) as [L|L].
    + rewrite (reproduce_position k gd xs p 2) by assumption. ring.
    + rewrite keep_out by lia. ring.
  - intros it Hin. destruct (Req_dec (it_val it) 0) as [Z|Z]; [rewrite Z; ring|].
    rewrite (H it a Hin (or_introl Z) Ha). unfold aff. ring.
Qed.
Lemma gather_affine_grad u a c : affine_rows u -> smooth_at A k gd (nth p xs vzero) -> (a < dim_nat d)%nat -> (c < dim_nat d)%nat ->
  sumR (fun it => vcomp c (it_grad it) * vcomp a (u it)) rows = mcomp a c A.
Proof.
  intros H Hl Ha Hc. destruct (mat_dec (mplane d A) mzero) as [Az|Az].
  { rewrite (sumR_ext _ (fun it => vcomp a b * vcomp c (it_grad it))).
    - rewrite sumR_scal. unfold rows. rewrite <- vcomp_vsum, grads_sum_zero by (try apply W; assumption).
      change (V3 0 0 0) with (vzero : vec3 R). rewrite vcomp_zero, (mplane_zero _ _ _ _ Az Ha Hc). ring.
    - intros it Hin. destruct (Req_dec (vcomp c (it_grad it)) 0) as [Z|Z]; [rewrite Z; ring|].
      assert (Z' : it_grad it <> vzero) by (intros X; apply Z; rewrite X; apply vcomp_zero).
      rewrite (H it a Hin (or_intror Z') Ha). unfold aff.
      rewrite (mplane_zero _ _ a 0 Az Ha), (mplane_zero _ _ a 1 Az Ha) by (destruct (gd_dim gd); simpl; lia).
      destruct (Nat.ltb_spec 2 (dim_nat d)) as [L|L].
      + rewrite (mplane_zero _ _ a 2 Az Ha L). ring.
      + rewrite keep_out by lia. ring. }
  rewrite (sumR_ext _ (fun it => mcomp a 0 A * (vcomp c (it_grad it) * vcomp 0 (row_pos gd it)) + (mcomp a 1 A * (vcomp c (it_grad it) * vcomp 1 (row_pos gd it))
     + (keep d 2 * mcomp a 2 A * (vcomp c (it_grad it) * vcomp 2 (row_pos gd it)) + vcomp a b * vcomp c (it_grad it))))).
  - rewrite !sumR_plus, !sumR_scal. unfold rows.
    assert (G0 : sumR (fun it => vcomp c (it_grad it)) (of_point p (compute_on k gd xs)) = 0)
      by (rewrite <- vcomp_vsum, grads_sum_zero by (try apply W; assumption); apply vcomp_zero).
    assert (G : forall e, (e < dim_nat d)%nat ->
      sumR (fun it => vcomp c (it_grad it) * vcomp e (row_pos gd it)) (of_point p (compute_on k gd xs)) = kron c e).
    { intros e He. apply reproduce_gradient; try assumption. intros Hk j. apply (Hl Hk Az c j Hc). }
    rewrite G0, !(G 0%nat), !(G 1%nat) by (destruct (gd_dim gd); simpl; lia).
    destruct (Nat.ltb_spec 2 (dim_nat d)) as [L|L].
    + rewrite (G 2%nat L), keep_in by exact L. unfold kron. destruct c as [|[|[|c]]]; simpl; try ring.
      destruct (gd_dim gd); simpl in *; lia.
    + rewrite keep_out by lia. unfold kron. destruct c as [|[|c]]; simpl; try ring. lia.
  - intros it Hin. destruct (Req_dec (vcomp c (it_grad it)) 0) as [Z|Z]; [rewrite Z; ring|].
    assert (Z' : it_grad it <> vzero) by (intros X; apply Z; rewrite X; apply vcomp_zero).
    rewrite (H it a Hin (or_intror Z') Ha). unfold aff. ring.
Qed.
End Gather.

Lemma vcomp_big {T} a (v : vec3 T) : (2 <= a)%nat -> vcomp a v = vcomp 2 v.
Proof. destruct a as [|[|a]]; intros; try lia; reflexivity. Qed.

Section GatherPoint.
Variables (k : Kernel) (gd : GridDomain R) (pts : list (Particle R)) (p : nat) (A : mat3 R) (b : vec3 R) (g : Grid R) (cut : R).
Hypothesis W : wf_grid gd.
Hypothesis Hp : (p < length pts)%nat.
Let x := pt_pos (nth p pts pt0).
Hypothesis I : interior k gd x.
Let rows := compute_on k gd (map pt_pos pts).
Hypothesis Hd : gr_dim g = gd_dim gd.
Hypothesis Haff : affine_rows k gd (map pt_pos pts) p A b (node_vel cut (gr_dim g) g (gr_mom_nt g)).
Let Ex : nth p (map pt_pos pts) vzero = x. Proof. apply (xs_nth pts p). Qed.
Let Hp' : (p < length (map pt_pos pts))%nat. Proof. rewrite map_length. exact Hp. Qed.

Lemma pic_affine a : (a < dim_nat (gd_dim gd))%nat -> vcomp a (pic_vel cut rows g (gr_mom_nt g) p) = aff (gd_dim gd) A b a x.
Proof.
  intros Ha. unfold pic_vel. rewrite vcomp_vsum.
  rewrite (sumR_ext_all _ (fun it => it_val it * vcomp a (node_vel cut (gr_dim g) g (gr_mom_nt g) it))) by (intro; apply vcomp_scale).
  rewrite <- Ex. apply gather_affine; try assumption. rewrite Ex. exact I.
Qed.
Hypothesis Hs : smooth_at A k gd x.
Lemma grad_entry a c : sumR (fun it => vcomp c (it_grad it) * vcomp a (node_vel cut (gr_dim g) g (gr_mom_nt g) it)) (of_point p rows)
  = mcomp a c (mplane (gd_dim gd) A).
Proof.
  assert (In2 : forall a c, (a < dim_nat (gd_dim gd))%nat -> (c < dim_nat (gd_dim gd))%nat ->
    sumR (fun it => vcomp c (it_grad it) * vcomp a (node_vel cut (gr_dim g) g (gr_mom_nt g) it)) (of_point p rows) = mcomp a c A).
  { intros a0 c0 Ha Hc. apply (gather_affine_grad k gd (map pt_pos pts) p A b W Hp'); try assumption; rewrite Ex; assumption. }
  assert (Big : forall a c, sumR (fun it => vcomp c (it_grad it) * vcomp a (node_vel cut (gr_dim g) g (gr_mom_nt g) it)) (of_point p rows)
     = sumR (fun it => vcomp (Nat.min c 2) (it_grad it) * vcomp (Nat.min a 2) (node_vel cut (gr_dim g) g (gr_mom_nt g) it)) (of_point p rows)).
  { intros a0 c0. apply sumR_ext_all. intros it. f_equal; symmetry; [destruct c0 as [|[|c0]]|destruct a0 as [|[|a0]]]; reflexivity. }
  assert (Bm : forall (M : mat3 R), mcomp a c M = mcomp (Nat.min a 2) (Nat.min c 2) M)
    by (intro M; destruct a as [|[|a]], c as [|[|c]]; reflexivity).
  rewrite Big, Bm. set (a' := Nat.min a 2). set (c' := Nat.min c 2).
  assert (La : (a' <= 2)%nat) by (unfold a'; lia). assert (Lc : (c' <= 2)%nat) by (unfold c'; lia). clearbody a' c'. clear Big Bm.
  destruct (Nat.ltb_spec a' (dim_nat (gd_dim gd))) as [Ha|Ha]; [destruct (Nat.ltb_spec c' (dim_nat (gd_dim gd))) as [Hc|Hc]|].
  - rewrite In2 by assumption. destruct (gd_dim gd); [|reflexivity]. simpl in Ha, Hc.
    destruct a' as [|[|a']], c' as [|[|c']]; try lia; reflexivity.
  - assert (D : gd_dim gd = D2) by (destruct (gd_dim gd); [reflexivity|simpl in Hc; lia]).
    rewrite sumR_zero; [|intros it Hin; apply in_of_point in Hin; destruct Hin as (Hin & _)].
    + rewrite D in *. simpl in *. destruct a' as [|[|a']], c' as [|[|[|c']]]; try lia; reflexivity.
    + rewrite D in Hc; simpl in Hc. rewrite (vcomp_big c') by lia. simpl. rewrite (row_grad_planar k gd _ it Hin D). ring.
  - assert (D : gd_dim gd = D2) by (destruct (gd_dim gd); [reflexivity|simpl in Ha; lia]).
    rewrite sumR_zero; [|intros it Hin].
    + rewrite D in *. simpl in *. destruct a' as [|[|[|a']]], c' as [|[|[|c']]]; try lia; reflexivity.
    + rewrite Hd, D in *. unfold node_vel. simpl vtrunc. rewrite (vcomp_big a') by (simpl in Ha; lia). simpl. rnum. ring.
Qed.
Lemma af_B_affine : af_B cut rows g p = mopp (mplane (gd_dim gd) A).
Proof.
  apply mcomp_eq. intros a c. unfold af_B. rewrite mcomp_msum, mcomp_opp, <- grad_entry.
  rewrite (sumR_ext_all _ (fun it => -1 * (vcomp c (it_grad it) * vcomp a (node_vel cut (gr_dim g) g (gr_mom_nt g) it))))
    by (intro it; rewrite mcomp_opp, mcomp_outer; ring).
  rewrite sumR_scal. ring.
Qed.
Lemma usl_L_affine : msum (fun it => outer (it_grad it) (vopp (node_vel cut (gr_dim g) g (gr_mom_nt g) it))) (of_point p rows)
  = mopp (mtrans (mplane (gd_dim gd) A)).
Proof.
  apply mcomp_eq. intros a c. rewrite mcomp_msum, mcomp_opp.
  assert (Ht : forall M : mat3 R, mcomp a c (mtrans M) = mcomp c a M) by (intro M; destruct a as [|[|a]], c as [|[|c]]; reflexivity).
  rewrite Ht, <- grad_entry.
  rewrite (sumR_ext_all _ (fun it => -1 * (vcomp a (it_grad it) * vcomp c (node_vel cut (gr_dim g) g (gr_mom_nt g) it))))
    by (intro it; rewrite mcomp_outer, vcomp_opp; ring).
  rewrite sumR_scal. ring.
Qed.
End GatherPoint.

(** *** P2G of an affine field *)
(** velocity attached to the rows of a coupling *)
Definition carries (S : Solver R) (w : World R) (gi : nat) (gd : GridDomain R) (A : mat3 R) (b : vec3 R) : Prop :=
  forall c p a, In c (active_on S gi) -> In p (pts_at w (c_p c)) -> (a < dim_nat (gd_dim gd))%nat ->
    vcomp a (pt_vel p) = aff (gd_dim gd) A b a (pt_pos p).
Definition affine_state (S : Solver R) (m : Mechanics R) (gi : nat) (gd : GridDomain R) (A : mat3 R) : Prop :=
  match so_scheme S with
  | USL => mplane (gd_dim gd) A = mzero
  | ASFLIP _ => forall c si Bp, In c (active_on S gi) -> c_s c = Some si -> nth_error (m_solvers m) si = Some (Some (SS_AFLIP Bp)) ->
      Bp <> [] /\ forall B, In B Bp -> B = mopp (mplane (gd_dim gd) A)
  end.
Lemma aff_plane d A b a x y : mplane d A = mzero -> (a < dim_nat d)%nat -> aff d A b a x = aff d A b a y.
Proof.
  intros E Ha. unfold aff. assert (G := fun c => mplane_zero d A a c E Ha).
  rewrite (G 0%nat), (G 1%nat) by (destruct d; simpl; lia).
  destruct d; cbn [keep]; [ring|]. rewrite (G 2%nat) by (simpl; lia). ring.
Qed.
Lemma active_on_in {T} (S : Solver T) gi c : In c (active_on S gi) <-> In c (so_couplings S) /\ c_skip c = false /\ c_g c = gi.
Proof. unfold active_on. rewrite filter_In, andb_true_iff, negb_true_iff, Nat.eqb_eq. tauto. Qed.
Lemma aff_row d A b a x y h dist : (a < dim_nat d)%nat ->
  (forall c, (c < dim_nat d)%nat -> vcomp c y = vcomp c x - h * vcomp c dist) -> (d = D2 -> vcomp 2 dist = 0) ->
  aff d A b a y = aff d A b a x - vdot (mrow a (mplane d A)) (vscale h dist).
Proof.
  intros Ha E Hz. unfold aff. rewrite (E 0%nat), (E 1%nat) by (destruct d; simpl; lia). rewrite vdot_comp, !vcomp_scale.
  destruct d; simpl in Ha.
  - cbn [keep]. rewrite Hz by reflexivity. destruct a as [|[|a]]; try lia; unfold mcomp; simpl; ring.
  - rewrite (E 2%nat) by (simpl; lia). cbn [keep mplane]. unfold mcomp. ring.
Qed.
Lemma vel_affine S m w gi gd A b c s vel a k it : wf_grid gd -> nth_error (so_domains S) gi = Some gd -> In c (active_on S gi) ->
  nth_error (w_mps w) (c_p c) = Some (Soft s) -> carries S w gi gd A b -> affine_state S m gi gd A ->
  p2g_vel S m c (sb_pts s) vel -> (forall p, In p (sb_pts s) -> interior k gd (pt_pos p)) ->
  In it (compute_on k gd (map pt_pos (sb_pts s))) -> (a < dim_nat (gd_dim gd))%nat ->
  vcomp a (vel it) = aff (gd_dim gd) A b a (row_pos gd it).
Proof.
  intros W Egd Hc Es Ca Af Hv I Hin Ha.
  destruct (compute_in_range k gd _ it (proj1 W) Hin) as (_ & Lp & _). rewrite map_length in Lp.
  set (p := it_point it) in *.
  assert (Pin : In (nth p (sb_pts s) pt0) (sb_pts s)) by (apply nth_In, Lp).
  assert (V : vcomp a (pt_vel (nth p (sb_pts s) pt0)) = aff (gd_dim gd) A b a (pt_pos (nth p (sb_pts s) pt0))).
  { apply (Ca c); try assumption. unfold pts_at. rewrite Es. exact Pin. }
  assert (Pos : forall e, (e < dim_nat (gd_dim gd))%nat -> vcomp e (row_pos gd it)
    = vcomp e (pt_pos (nth p (sb_pts s) pt0)) - gd_cell gd * vcomp e (it_dist it)).
  { intros e He. rewrite (hash_pos_dist k gd _ it e W Hin); [|fold p|exact He].
    - fold p. rewrite (xs_nth (sb_pts s) p). reflexivity.
    - apply (interior_rows_in_grid k gd _ p it (proj1 W)); [|unfold of_point; apply filter_In; split; [exact Hin|apply Nat.eqb_refl]].
      rewrite (xs_nth (sb_pts s) p). apply I, Pin. }
  unfold p2g_vel, affine_state in *. destruct (so_scheme S) as [|af].
  - subst vel. unfold point_of. fold p. rewrite V. apply aff_plane; assumption.
  - destruct Hv as (gd' & Bp & si & Egd' & Esi & Est & ->). apply active_on_in in Hc as Hc'. destruct Hc' as (_ & _ & Ecg).
    rewrite Ecg, Egd in Egd'. injection Egd' as <-. destruct (Af c si Bp Hc Esi Est) as (Nz & HB).
    rewrite vcomp_sub. unfold point_of. fold p. rewrite V. unfold affine_vel. fold p. rewrite vcomp_trunc, keep_in by exact Ha.
    rewrite Rmult_1_l, vcomp_mv. rewrite (HB (nth (Nat.min p (length Bp - 1)) Bp mzero)).
    2:{ apply nth_In. destruct Bp; [congruence|]. simpl. lia. }
    rewrite (aff_row _ A b a _ (row_pos gd it) (gd_cell gd) (it_dist it) Ha Pos (row_dist_planar k gd _ it Hin)).
    unfold vdot, vscale, mopp, mmap, mrow. rnum. destruct a as [|[|a]]; simpl; ring.
Qed.
Theorem p2g_affine S st w ca w2 ca2 : prepare S st = Ok (w, ca) -> p2g S w (s_mech st) ca = Ok (w2, ca2) ->
  inside S (s_world st) -> forall gi g gd A b, nth_error (sc_grids ca2) gi = Some g -> nth_error (so_domains S) gi = Some gd -> wf_grid gd ->
  carries S (s_world st) gi gd A b -> affine_state S (s_mech st) gi gd A ->
  forall i a, (i < Z.to_nat (num_cells gd))%nat -> (a < dim_nat (gd_dim gd))%nat ->
  vcomp a (nth i (gr_mom g) vzero) = nth i (gr_mass g) 0 * aff (gd_dim gd) A b a (nth i (position_stack gd) vzero).
Proof.
  intros E1 E2 Hin gi g gd A b Eg Egd W Ca Af i a Hi Ha. destruct (p2g_grids _ _ _ _ _ _ E1 E2) as (gs & <- & _ & F0 & F & E).
  assert (Ca2 : carries S w2 gi gd A b).
  { intros c p a0 Hc Hp Ha0. apply In_nth_error in Hp. destruct Hp as (n & Hp).
    destruct (Forall2_nth_error _ _ _ _ _ (unforced_pts _ _ _ _ _ _ E1 E2 (c_p c)) Hp) as (q & Hq & U).
    destruct U as (-> & -> & _). apply (Ca c q a0 Hc); [eapply nth_error_In, Hq|exact Ha0]. }
  set (v := aff (gd_dim gd) A b a (nth i (position_stack gd) vzero)).
  assert (Z : vcomp a (nth i (gr_mom g) vzero) - v * nth i (gr_mass g) 0 = 0); [|lra].
  rewrite (p2g_fold_sumc S w2 (s_mech st) (sc_inter ca) gi (fun g => vcomp a (nth i (gr_mom g) vzero) - v * nth i (gr_mass g) 0) (fun _ => 0))
    with (4 := E) (g0 := grid_new gd); try assumption.
  - simpl gr_mom. simpl gr_mass. rewrite !nth_repeat, vcomp_zero, sumR_zero by reflexivity. rnum. ring.
  - intros c s it gr vel gd' Hc Hsk Hcg Hs Hit Hgd Hgr Hv. rewrite Hcg, Egd in Hgd. injection Hgd as <-.
    assert (Egd' : nth_error (so_domains S) (c_g c) = Some gd) by (rewrite Hcg; exact Egd).
    assert (Hca : In c (active_on S gi)) by (apply active_on_in; auto).
    destruct (p2g_rows _ _ _ _ _ _ _ _ _ _ E1 E2 Hin Hc Hs Hit Egd') as (Ws & k & Hk & -> & I).
    destruct Hgr as (_ & Lm & Lmo & _). unfold p2g_with; cbn [gr_mass gr_mom].
    rewrite scatter_node_S by (try exact Ws; rewrite Lm; exact Hi). rewrite scatter_node by (try exact Ws; rewrite Lmo; exact Hi).
    rewrite vcomp_add, vcomp_vsum.
    rewrite (sumR_ext (fun x => vcomp a (vscale _ _)) (fun it => v * (eff it * pt_mass (point_of (sb_pts s) it)))).
    + rewrite sumR_scal. rnum. ring.
    + intros it Hr. apply in_at_node in Hr. destruct Hr as (Hr & Hh). rewrite vcomp_scale.
      rewrite (vel_affine S (s_mech st) w2 gi gd A b c s vel a k it) by assumption.
      unfold row_pos. rewrite Hh, Nat2Z.id. fold v. rnum. ring.
  - apply incl_refl.
  - rewrite nth_error_map, Egd. reflexivity.
Qed.

(** stress-free bodies load no node *)
Definition stress_free {T} {N : Num T} (w : World T) (S : Solver T) (gi : nat) : Prop :=
  forall c p, In c (active_on S gi) -> In p (pts_at w (c_p c)) -> pt_stress p = mzero.
Theorem p2g_no_force S st w ca w2 ca2 : prepare S st = Ok (w, ca) -> p2g S w (s_mech st) ca = Ok (w2, ca2) ->
  inside S (s_world st) -> forall gi g, nth_error (sc_grids ca2) gi = Some g -> stress_free (s_world st) S gi ->
  forall i, nth i (gr_force g) vzero = (vzero : vec3 R).
Proof.
  intros E1 E2 Hin gi g Eg Sf i. destruct (p2g_grids _ _ _ _ _ _ E1 E2) as (gs & <- & _ & F0 & F & E).
  destruct (Nat.lt_ge_cases i (length (gr_force g))) as [Li|Li]; [|apply nth_overflow, Li].
  destruct (grid_new_nth _ _ _ _ F Eg) as (gd & Egd & _).
  destruct (Forall2_nth_error_l _ _ _ _ _ F Egd) as (g' & Eg' & Hok). rewrite Eg in Eg'. injection Eg' as <-.
  destruct (active_on S gi) as [|c0 cs0] eqn:Ea; [eapply p2g_force_none; eassumption|].
  destruct (exists_last (l := c0 :: cs0) ltac:(discriminate)) as (l & c & El). rewrite El in Ea.
  destruct (force_of_last S w2 (s_mech st) (sc_inter ca) (so_couplings S) _ _ gi g F0 E Eg) as (_ & L).
  destruct (L l c Ea) as (s & it & gr & vel & gd' & Hc & Hgi & Eb & Eit & Egd' & Hgr & Ef). subst gi.
  rewrite Egd in Egd'. injection Egd' as <-.
  destruct (p2g_rows _ _ _ _ _ _ _ _ _ _ E1 E2 Hin Hc Eb Eit Egd) as (W & k & Hk & -> & I).
  destruct Hok as (_ & _ & _ & _ & Lf). rewrite Lf in Li. rewrite Ef, force_node; try assumption.
  - apply vsum_zero. intros r Hr.
    assert (Z : pt_stress (nth (it_point r) (sb_pts s) pt0) = mzero).
    { apply in_at_node in Hr. destruct Hr as (Hr & _). destruct (compute_in_range k gd _ r W Hr) as (_ & Lp & _). rewrite map_length in Lp.
      pose proof (unforced_pts _ _ _ _ _ _ E1 E2 (c_p c)) as U. unfold pts_at at 2 in U. rewrite Eb in U. simpl in U.
      destruct (Forall2_nth_error _ _ _ _ _ U (nth_error_nth_lt _ _ pt0 Lp)) as (q & Hq & Uq).
      destruct Uq as (_ & _ & _ & _ & _ & -> & _). apply (Sf c); [|eapply nth_error_In, Hq].
      change (In c (active_on S (c_g c))). rewrite Ea. apply in_or_app. right. left. reflexivity. }
    cbv zeta. rewrite Z. apply vcomp_eq; intro a. rewrite vcomp_scale, vcomp_trunc, vcomp_mv.
    unfold mzero, vdot, vzero. rnum. destruct a as [|[|a]]; simpl; ring.
  - intros p Hp. eapply unloaded_pts; [exact E1|exact E2|exact Hc|]. unfold pts_at. rewrite Eb. exact Hp.
Qed.
