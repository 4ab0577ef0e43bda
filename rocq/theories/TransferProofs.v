(** Particle-to-grid sums (C15-C19) at the reals. *)
From Coq Require Import List Arith ZArith Reals Bool Lra Lia.
From Verif Require Import Num NumR Linalg Arrays ModelGrid ModelShape ModelMath ModelState ModelLaws ModelForces ModelSolver
  Sums ShapeFacts SpecShape ShapeProofs ShapeProofs2 ShapeProofs3 MappingProofs ResFacts SolverFacts SpecSolver.
Import ListNotations.
Local Open Scope R_scope.

(** components *)
Lemma vcomp_add a (u v : vec3 R) : vcomp a (vadd u v) = vcomp a u + vcomp a v.
Proof. destruct a as [|[|a]]; reflexivity. Qed.
Lemma vcomp_sub a (u v : vec3 R) : vcomp a (vsub u v) = vcomp a u - vcomp a v.
Proof. destruct a as [|[|a]]; reflexivity. Qed.
Lemma vcomp_scale a k (v : vec3 R) : vcomp a (vscale k v) = k * vcomp a v.
Proof. destruct a as [|[|a]]; reflexivity. Qed.
Lemma vcomp_zero a : vcomp a (vzero : vec3 R) = 0.
Proof. destruct a as [|[|a]]; reflexivity. Qed.
Lemma vcomp_eq (u v : vec3 R) : (forall a, vcomp a u = vcomp a v) -> u = v.
Proof. intros E. apply vec3_eq; [apply (E 0%nat)|apply (E 1%nat)|apply (E 2%nat)]. Qed.
Lemma vcomp_vsum {A} a (f : A -> vec3 R) l : vcomp a (vsum f l) = sumR (fun x => vcomp a (f x)) l.
Proof. destruct a as [|[|a]]; reflexivity. Qed.
(** row [a] of a matrix *)
Definition mrow {T} (a : nat) (m : mat3 T) : vec3 T :=
  match a with O => V3 (m00 m) (m01 m) (m02 m) | S O => V3 (m10 m) (m11 m) (m12 m) | _ => V3 (m20 m) (m21 m) (m22 m) end.
Definition keep (d : Dim) (a : nat) : R := match d, a with D2, S (S _) => 0 | _, _ => 1 end.
Lemma vcomp_trunc d a (v : vec3 R) : vcomp a (vtrunc d v) = keep d a * vcomp a v.
Proof. destruct d, a as [|[|a]]; simpl; rnum; ring. Qed.
Lemma vcomp_mv a (m : mat3 R) v : vcomp a (mvmul m v) = vdot (mrow a m) v.
Proof. destruct a as [|[|a]]; reflexivity. Qed.
Lemma vdot_comp (u v : vec3 R) : vdot u v = vcomp 0 u * vcomp 0 v + vcomp 1 u * vcomp 1 v + vcomp 2 u * vcomp 2 v.
Proof. reflexivity. Qed.
Lemma vdot_scale_r k (u v : vec3 R) : vdot u (vscale k v) = k * vdot u v.
Proof. unfold vdot, vscale; simpl; rnum; ring. Qed.

Lemma mask_R k (g : GridDomain R) xs it : In it (compute_on k g xs) -> it_mask it = 1.
Proof. exact (@compute_mask R NumT_R k g xs it). Qed.

(** sums over the rows of one interior point *)
Lemma sum_dist_dot k g xs p (u : vec3 R) : wf_sizes g -> (p < length xs)%nat -> interior k g (nth p xs vzero) ->
  sumR (fun it => it_val it * vdot u (it_dist it)) (of_point p (compute_on k g xs)) = 0.
Proof.
  intros W Hp I.
  rewrite (sumR_ext_all _ (fun it => vcomp 0 u * (it_val it * vcomp 0 (it_dist it))
     + (vcomp 1 u * (it_val it * vcomp 1 (it_dist it)) + vcomp 2 u * (it_val it * vcomp 2 (it_dist it)))))
    by (intro it; rewrite vdot_comp; ring).
  rewrite !sumR_plus, !sumR_scal, !moment_zero by assumption. ring.
Qed.
Lemma sum_grad_dot k g xs p (u : vec3 R) : wf_sizes g -> (p < length xs)%nat -> interior k g (nth p xs vzero) ->
  sumR (fun it => vdot u (it_grad it)) (of_point p (compute_on k g xs)) = 0.
Proof.
  intros W Hp I. pose proof (grads_sum_zero k g xs p W Hp I) as G.
  assert (Gc : forall a, sumR (fun it => vcomp a (it_grad it)) (of_point p (compute_on k g xs)) = 0)
    by (intro a; rewrite <- vcomp_vsum, G; apply vcomp_zero).
  rewrite (sumR_ext_all _ (fun it => vcomp 0 u * vcomp 0 (it_grad it)
     + (vcomp 1 u * vcomp 1 (it_grad it) + vcomp 2 u * vcomp 2 (it_grad it))))
    by (intro it; rewrite vdot_comp; ring).
  rewrite !sumR_plus, !sumR_scal, !Gc. ring.
Qed.

(** *** the scatter of one body *)
Section One.
Variables (k : Kernel) (gd : GridDomain R) (pts : list (Particle R)) (g : Grid R).
Hypothesis W : wf_sizes gd.
Hypothesis I : forall p, In p pts -> interior k gd (pt_pos p).
Hypothesis Hg : grid_ok gd g.
Let xs := map pt_pos pts.
Let rows := compute_on k gd xs.

Lemma xs_len : length xs = length pts. Proof. apply map_length. Qed.
Lemma xs_nth p : nth p xs vzero = pt_pos (nth p pts pt0).
Proof. unfold xs. rewrite <- (map_nth pt_pos). reflexivity. Qed.
Lemma xs_interior p : (p < length xs)%nat -> interior k gd (nth p xs vzero).
Proof. intros Hp. rewrite xs_nth. apply I, nth_In. rewrite <- xs_len. exact Hp. Qed.
Lemma row_range it : In it rows -> Nat.ltb (Z.to_nat (it_hash it)) (Z.to_nat (num_cells gd)) = true.
Proof. intros Hin. apply Nat.ltb_lt. destruct (compute_in_range k gd xs it W Hin) as (Hh & _). lia. Qed.
Lemma row_eff it : In it rows -> eff it = it_val it.
Proof. intros Hin. unfold eff. rewrite (mask_R _ _ _ _ Hin). rnum. ring. Qed.

Lemma p2g_mass_sum vel : totS (gr_mass (p2g_with rows pts vel g)) = totS (gr_mass g) + mass_of pts.
Proof.
  destruct Hg as (_ & Lm & _). unfold p2g_with, totS; cbn [gr_mass].
  rewrite (scatter_add_sum nadd (fun x => x)) by reflexivity. f_equal. rewrite sumR_map, Lm.
  rewrite (sumR_ext _ (fun it => it_val it * pt_mass (nth (it_point it) pts pt0))).
  - unfold rows. rewrite (sum_by_point_weight k gd xs (fun p => pt_mass (nth p pts pt0))) by (try exact W; exact xs_interior).
    rewrite xs_len, sumR_seq_nth. reflexivity.
  - intros it Hin. unfold on_node. cbn [fst snd]. rewrite row_range, row_eff by exact Hin. reflexivity.
Qed.

(** momentum: any velocity that differs from the particle velocity by a linear function of the distance *)
Lemma p2g_mom_sum vel (B : nat -> nat -> vec3 R) :
  (forall it a, In it rows -> vcomp a (vel it) = vcomp a (pt_vel (point_of pts it)) - vdot (B a (it_point it)) (it_dist it)) ->
  tot (gr_mom (p2g_with rows pts vel g)) = vadd (tot (gr_mom g)) (momentum_of pts).
Proof.
  intros Hv. destruct Hg as (_ & _ & Lm & _). apply vcomp_eq; intro a.
  unfold p2g_with, tot; cbn [gr_mom]. rewrite vcomp_add. unfold momentum_of. rewrite !vcomp_vsum.
  rewrite (scatter_add_sum vadd (vcomp a)) by (intros; apply vcomp_add). f_equal. rewrite sumR_map, Lm.
  rewrite (sumR_ext _ (fun it => it_val it * (pt_mass (nth (it_point it) pts pt0) * vcomp a (pt_vel (nth (it_point it) pts pt0)))
     - it_val it * vdot (vscale (pt_mass (nth (it_point it) pts pt0)) (B a (it_point it))) (it_dist it))).
  - rewrite sumR_minus. unfold rows.
    rewrite (sum_by_point_weight k gd xs (fun p => pt_mass (nth p pts pt0) * vcomp a (pt_vel (nth p pts pt0)))) by (try exact W; exact xs_interior).
    assert (Z : sumR (fun it => it_val it * vdot (vscale (pt_mass (nth (it_point it) pts pt0)) (B a (it_point it))) (it_dist it))
                     (compute_on k gd xs) = 0).
    { rewrite sum_by_point. apply sumR_zero. intros p Hp. apply in_seq in Hp.
      rewrite (sumR_ext _ (fun it => it_val it * vdot (vscale (pt_mass (nth p pts pt0)) (B a p)) (it_dist it))).
      - apply sum_dist_dot; [exact W|lia|apply xs_interior; lia].
      - intros it Hin. apply in_of_point in Hin. destruct Hin as (_ & ->). reflexivity. }
    rewrite Z, xs_len. rewrite (sumR_seq_nth (fun p => pt_mass p * vcomp a (pt_vel p))).
    rewrite (sumR_ext_all (fun x => vcomp a (vscale _ _)) (fun p => pt_mass p * vcomp a (pt_vel p))) by (intro; apply vcomp_scale). ring.
  - intros it Hin. unfold on_node. cbn [fst snd]. rewrite row_range, row_eff by exact Hin.
    rewrite vcomp_scale, Hv by exact Hin. unfold point_of, vdot, vscale; simpl; rnum. ring.
Qed.

Lemma p2g_force_sum vel :
  tot (gr_force (p2g_with rows pts vel g)) = vsum pt_force pts.
Proof.
  destruct Hg as (_ & _ & Lm & _). apply vcomp_eq; intro a.
  unfold p2g_with, tot; cbn [gr_force]. rewrite !vcomp_vsum.
  rewrite (scatter_add_sum vadd (vcomp a)) by (intros; apply vcomp_add). rewrite !sumR_map, map_length, Lm.
  rewrite (sumR_zero (fun _ => vcomp a vzero)) by (intros; apply vcomp_zero). rewrite Rplus_0_l.
  rewrite (sumR_ext _ (fun it => vdot (vscale (pt_vol (nth (it_point it) pts pt0) * keep (gr_dim g) a) (mrow a (pt_stress (nth (it_point it) pts pt0)))) (it_grad it)
     + it_val it * vcomp a (pt_force (nth (it_point it) pts pt0)))).
  - rewrite sumR_plus. unfold rows.
    rewrite (sum_by_point_weight k gd xs (fun p => vcomp a (pt_force (nth p pts pt0)))) by (try exact W; exact xs_interior).
    assert (Z : sumR (fun it => vdot (vscale (pt_vol (nth (it_point it) pts pt0) * keep (gr_dim g) a)
                                        (mrow a (pt_stress (nth (it_point it) pts pt0)))) (it_grad it)) (compute_on k gd xs) = 0).
    { rewrite sum_by_point. apply sumR_zero. intros p Hp. apply in_seq in Hp.
      rewrite (sumR_ext _ (fun it => vdot (vscale (pt_vol (nth p pts pt0) * keep (gr_dim g) a) (mrow a (pt_stress (nth p pts pt0)))) (it_grad it))).
      - apply sum_grad_dot; [exact W|lia|apply xs_interior; lia].
      - intros it Hin. apply in_of_point in Hin. destruct Hin as (_ & ->). reflexivity. }
    rewrite Z, xs_len, (sumR_seq_nth (fun p => vcomp a (pt_force p))). ring.
  - intros it Hin. unfold on_node. cbn [fst snd]. rewrite row_range by exact Hin.
    unfold p2g_force. rewrite vcomp_add, !vcomp_scale, vcomp_trunc, vcomp_mv, row_eff by exact Hin.
    rewrite (mask_R _ _ _ _ Hin). unfold point_of, vdot, vscale; simpl; rnum. ring.
Qed.
End One.

(** *** all couplings of a step *)
(** same material data, whatever the external force and L *)
Definition unforced (a b : Particle R) : Prop :=
  pt_pos b = pt_pos a /\ pt_vel b = pt_vel a /\ pt_mass b = pt_mass a /\ pt_vol b = pt_vol a /\ pt_vol0 b = pt_vol0 a /\
  pt_stress b = pt_stress a /\ pt_F b = pt_F a /\ pt_Fst b = pt_Fst a.
Lemma unforced_pts S st w ca w2 ca2 : prepare S st = Ok (w, ca) -> p2g S w (s_mech st) ca = Ok (w2, ca2) ->
  forall p, Forall2 unforced (pts_at (s_world st) p) (pts_at w2 p).
Proof.
  intros E1 E2 p. apply prepare_ok in E1. destruct E1 as (R1 & _). apply p2g_ok in E2. destruct E2 as (gs & E2 & _).
  apply pre_p2g_fold_ok in E2. destruct E2 as (_ & F). specialize (R1 p). unfold pts_at.
  destruct (nth_error (w_mps (s_world st)) p) as [b|] eqn:Eb; simpl in R1.
  - destruct (Forall2_nth_error_l _ _ _ _ _ F R1) as (b' & -> & Hs).
    assert (G : forall b1, same_but_force b1 b' -> Forall2 unforced (body_pts b1) (body_pts b')).
    { intros b1. destruct b1 as [s1|r1], b' as [s'|r']; simpl; try tauto; [|constructor].
      intros (_ & _ & _ & X). revert X. apply Forall2_weaken. intros a c ->. repeat split. }
    apply G in Hs. destruct (coupled (so_couplings S) p); [|exact Hs].
    eapply Forall2_trans; [| |exact Hs].
    { unfold unforced. intros x y z X Y. decompose [and] X. decompose [and] Y. repeat split; congruence. }
    destruct b as [s|r]; simpl; [|constructor]. apply Forall2_map_r. intros a _. repeat split.
  - assert (N : nth_error (w_mps w2) p = None).
    { apply nth_error_None. rewrite <- (Forall2_len _ _ _ F). apply nth_error_None. exact R1. }
    rewrite N. constructor.
Qed.

Lemma p2g_fold_sum (S : Solver R) w m inter (Q : Grid R -> R) (q : list (Particle R) -> R) :
  (forall c s it gr vel gd, In c (so_couplings S) -> c_skip c = false -> nth_error (w_mps w) (c_p c) = Some (Soft s) ->
     dict_get (c_p c, c_g c) inter = Ok it -> nth_error (so_domains S) (c_g c) = Some gd -> grid_ok gd gr ->
     p2g_vel S m c (sb_pts s) vel -> Q (p2g_with it (sb_pts s) vel gr) = Q gr + q (sb_pts s)) ->
  forall cs gs0 gs, incl cs (so_couplings S) -> Forall2 grid_ok (so_domains S) gs0 ->
  rfold (p2g_coupling S w m inter) gs0 cs = Ok gs ->
  forall gi g0 g, nth_error gs0 gi = Some g0 -> nth_error gs gi = Some g ->
  Q g = Q g0 + sumR (fun c => q (pts_at w (c_p c))) (filter (fun c => (negb (c_skip c) && Nat.eqb (c_g c) gi)%bool) cs).
Proof.
  intros HQ. induction cs as [|c cs IH]; intros gs0 gs Hi Hok E gi g0 g E0 Eg.
  - simpl in *. injection E as <-. rewrite E0 in Eg. injection Eg as ->. lra.
  - cbn [rfold] in E. apply rbind_ok in E. destruct E as (gs1 & E1 & E).
    assert (Hi' : incl cs (so_couplings S)) by (intros x Hx; apply Hi; right; exact Hx).
    apply p2g_coupling_ok in E1.
    destruct E1 as [(Es & ->)|(Es & s & it & gr & vel & Eb & Ev & Eit & Egr & Hvel & ->)]; cbn [filter]; rewrite Es; cbn [negb andb].
    + eapply IH; eassumption.
    + destruct (Forall2_nth_error _ _ _ _ _ Hok Egr) as (gd & Egd & Hgd).
      assert (Hok1 : Forall2 grid_ok (so_domains S) (set_nth (c_g c) (p2g_with it (sb_pts s) vel gr) gs0))
        by (eapply Forall2_set_nth; [exact Hok|exact Egd|apply p2g_with_ok, Hgd]).
      destruct (Nat.eqb_spec (c_g c) gi) as [<-|N].
      * rewrite sumR_cons. rewrite (IH _ _ Hi' Hok1 E (c_g c) (p2g_with it (sb_pts s) vel gr) g); [|eapply set_nth_same; eassumption|exact Eg].
        rewrite E0 in Egr. injection Egr as ->.
        rewrite (HQ c s it gr vel gd) by (try assumption; apply Hi; left; reflexivity).
        unfold pts_at at 2. rewrite Eb. simpl. lra.
      * eapply IH; [exact Hi'|exact Hok1|exact E| |exact Eg]. rewrite set_nth_other by exact N. exact E0.
Qed.

(** rows of an active coupling *)
Lemma p2g_rows S st w ca w2 ca2 c s it gd : prepare S st = Ok (w, ca) -> p2g S w (s_mech st) ca = Ok (w2, ca2) ->
  inside S (s_world st) -> In c (so_couplings S) -> nth_error (w_mps w2) (c_p c) = Some (Soft s) ->
  dict_get (c_p c, c_g c) (sc_inter ca) = Ok it -> nth_error (so_domains S) (c_g c) = Some gd ->
  wf_sizes gd /\ exists k, last_kernel (so_couplings S) (c_p c) (c_g c) = Some k /\
    it = compute_on k gd (map pt_pos (sb_pts s)) /\ forall p, In p (sb_pts s) -> interior k gd (pt_pos p).
Proof.
  intros E1 E2 Hin Hc Es Eit Egd. pose proof (unforced_pts _ _ _ _ _ _ E1 E2 (c_p c)) as U.
  unfold pts_at at 2 in U. rewrite Es in U. simpl in U.
  split; [apply (Hin c gd Hc Egd)|].
  apply prepare_ok in E1. destruct E1 as (R1 & R2 & _). apply R2 in Eit.
  destruct Eit as (k & b & gd' & Hk & Hb & Hgd & _ & ->). rewrite Egd in Hgd. injection Hgd as <-.
  exists k. split; [exact Hk|]. apply p2g_ok in E2. destruct E2 as (gs & E2 & _).
  apply pre_p2g_fold_ok in E2. destruct E2 as (_ & F).
  destruct (Forall2_nth_error _ _ _ _ _ F Es) as (b' & Hb' & Hs). rewrite Hb in Hb'. injection Hb' as <-.
  split.
  - destruct b as [s0|r]; simpl in Hs; [|tauto]. destruct Hs as (_ & _ & _ & X). simpl. f_equal.
    clear -X. induction X as [|p q l l' -> X IH]; [reflexivity|]. simpl. rewrite <- IH. reflexivity.
  - apply last_kernel_in in Hk. destruct Hk as (c' & Hc' & Ep & Eg & <-).
    rewrite <- Eg in Egd. destruct (Hin c' gd Hc' Egd) as (_ & HI). rewrite Ep in HI.
    intros p Hp. destruct (In_nth_error _ _ Hp) as (i & Hi). destruct (Forall2_nth_error _ _ _ _ _ U Hi) as (a & Ha & Hu).
    destruct Hu as (-> & _). apply HI. eapply nth_error_In; eassumption.
Qed.

Lemma p2g_grids S st w ca w2 ca2 : prepare S st = Ok (w, ca) -> p2g S w (s_mech st) ca = Ok (w2, ca2) ->
  exists gs, sc_grids ca2 = gs /\ sc_inter ca2 = sc_inter ca /\ Forall2 grid_ok (so_domains S) (map grid_new (so_domains S)) /\
    Forall2 grid_ok (so_domains S) gs /\
    rfold (p2g_coupling S w2 (s_mech st) (sc_inter ca)) (map grid_new (so_domains S)) (so_couplings S) = Ok gs.
Proof.
  intros E1 E2. apply prepare_ok in E1. destruct E1 as (_ & _ & _ & G & _). apply p2g_ok in E2.
  destruct E2 as (gs & _ & E2 & ->). exists gs. rewrite G in E2.
  assert (F : Forall2 grid_ok (so_domains S) (map grid_new (so_domains S))) by (apply Forall2_map_r; intros; apply (@grid_new_ok R NumT_R)).
  repeat split; auto. eapply p2g_grids_ok; eassumption.
Qed.
Lemma grid_new_nth (S : Solver R) gs gi g : Forall2 grid_ok (so_domains S) gs -> nth_error gs gi = Some g ->
  exists gd, nth_error (so_domains S) gi = Some gd /\ nth_error (map grid_new (so_domains S)) gi = Some (grid_new gd).
Proof.
  intros F E. destruct (Forall2_nth_error _ _ _ _ _ F E) as (gd & Egd & _). exists gd. split; [exact Egd|].
  rewrite nth_error_map, Egd. reflexivity.
Qed.

Lemma sumR_Forall2 {A} (P : A -> A -> Prop) (f : A -> R) l m : (forall a b, P a b -> f b = f a) ->
  Forall2 P l m -> sumR f m = sumR f l.
Proof. intros Hf F. induction F as [|a b l m Hab F IH]; [reflexivity|]. rewrite !sumR_cons, IH, (Hf a b Hab). reflexivity. Qed.
Lemma vsum_Forall2 {A} (P : A -> A -> Prop) (f : A -> vec3 R) l m : (forall a b, P a b -> f b = f a) ->
  Forall2 P l m -> vsum f m = vsum f l.
Proof. intros Hf F. unfold vsum. f_equal; (eapply sumR_Forall2; [|exact F]; intros a b Hab; rewrite (Hf a b Hab); reflexivity). Qed.

Theorem p2g_mass S st w ca w2 ca2 : prepare S st = Ok (w, ca) -> p2g S w (s_mech st) ca = Ok (w2, ca2) ->
  inside S (s_world st) -> forall gi g, nth_error (sc_grids ca2) gi = Some g ->
  totS (gr_mass g) = sumR (fun c => mass_of (pts_at (s_world st) (c_p c))) (active_on S gi).
Proof.
  intros E1 E2 Hin gi g Eg. destruct (p2g_grids _ _ _ _ _ _ E1 E2) as (gs & <- & _ & F0 & F & E).
  destruct (grid_new_nth _ _ _ _ F Eg) as (gd & _ & E0).
  rewrite (p2g_fold_sum S w2 (s_mech st) (sc_inter ca) (fun g => totS (gr_mass g)) mass_of) with (4 := E) (gi := gi) (g0 := grid_new gd); try assumption.
  - unfold grid_new, totS; cbn [gr_mass]. rewrite sumR_repeat. unfold active_on. rnum. rewrite Rmult_0_r, Rplus_0_l.
    apply sumR_ext. intros c _. unfold mass_of.
    eapply sumR_Forall2; [|exact (unforced_pts _ _ _ _ _ _ E1 E2 (c_p c))]. unfold unforced; tauto.
  - intros c s it gr vel gd' Hc Hsk Hs Hit Hgd Hgr _.
    destruct (p2g_rows _ _ _ _ _ _ _ _ _ _ E1 E2 Hin Hc Hs Hit Hgd) as (W & k & _ & -> & I).
    apply p2g_mass_sum; assumption.
  - apply incl_refl.
Qed.

Lemma p2g_vel_linear S m c pts vel : p2g_vel S m c pts vel ->
  exists B : nat -> nat -> vec3 R, forall it a, vcomp a (vel it) = vcomp a (pt_vel (point_of pts it)) - vdot (B a (it_point it)) (it_dist it).
Proof.
  unfold p2g_vel. destruct (so_scheme S).
  - intros ->. exists (fun _ _ => vzero). intros it b. unfold vdot, vzero; simpl; rnum. ring.
  - intros (gd & Bp & s & _ & _ & _ & ->).
    exists (fun b p => vscale (- gd_cell gd * keep (gd_dim gd) b) (mrow b (nth (Nat.min p (length Bp - 1)) Bp mzero))).
    intros it b. rewrite vcomp_sub. unfold affine_vel. rewrite vcomp_trunc, vcomp_mv.
    unfold vdot, vscale; simpl; rnum. ring.
Qed.

Theorem p2g_momentum S st w ca w2 ca2 : prepare S st = Ok (w, ca) -> p2g S w (s_mech st) ca = Ok (w2, ca2) ->
  inside S (s_world st) -> forall gi g, nth_error (sc_grids ca2) gi = Some g ->
  tot (gr_mom g) = vsum (fun c => momentum_of (pts_at (s_world st) (c_p c))) (active_on S gi).
Proof.
  intros E1 E2 Hin gi g Eg. destruct (p2g_grids _ _ _ _ _ _ E1 E2) as (gs & <- & _ & F0 & F & E).
  destruct (grid_new_nth _ _ _ _ F Eg) as (gd & _ & E0). apply vcomp_eq; intro a.
  rewrite (p2g_fold_sum S w2 (s_mech st) (sc_inter ca) (fun g => vcomp a (tot (gr_mom g))) (fun l => vcomp a (momentum_of l)))
    with (4 := E) (gi := gi) (g0 := grid_new gd); try assumption.
  - unfold grid_new, tot; cbn [gr_mom]. rewrite !vcomp_vsum, sumR_repeat, vcomp_zero, Rmult_0_r, Rplus_0_l.
    apply sumR_ext. intros c _. unfold momentum_of. f_equal.
    eapply vsum_Forall2; [|exact (unforced_pts _ _ _ _ _ _ E1 E2 (c_p c))]. unfold unforced.
    intros x y (_ & -> & -> & _). reflexivity.
  - intros c s it gr vel gd' Hc Hsk Hs Hit Hgd Hgr Hv.
    destruct (p2g_rows _ _ _ _ _ _ _ _ _ _ E1 E2 Hin Hc Hs Hit Hgd) as (W & k & _ & -> & I).
    destruct (p2g_vel_linear _ _ _ _ _ Hv) as (B & HB).
    rewrite (p2g_mom_sum k gd' (sb_pts s) gr W I Hgr vel B) by (intros; apply HB). apply vcomp_add.
  - apply incl_refl.
Qed.
