(** Angular momentum through P2G (C111); velocity bounds and kinetic energy over a step without forces (C112, C113). *)
From Coq Require Import List Arith ZArith Reals Bool Lra Lia Classical.
From Flocq Require Import Core.Raux.
From Verif Require Import Num NumR Linalg Arrays ModelGrid ModelShape ModelMath ModelState ModelLaws ModelForces ModelSolver
  Sums ShapeFacts SpecShape ShapeProofs ShapeProofs2 ShapeProofs3 MappingProofs ResFacts SolverFacts SpecSolver
  TransferProofs TransferProofs2 StepProofs GatherProofs MomentumProofs AffineProofs StepAffine HeavyProofs.
Import ListNotations.
Local Open Scope R_scope.

(** *** second moments of the shape functions *)
(** second moment along an axis for a point at grid coordinate [b] *)
Definition axis_second (k : Kernel) (b : R) : R :=
  match k with Linear => (b - IZR (Zfloor b)) * (1 - (b - IZR (Zfloor b))) | Quadratic => 1/4 | Cubic => 1/3 end.
Lemma axis_moment2 k b :
  sumR (fun o => basis k (b - IZR (base_id k b + o)) * ((b - IZR (base_id k b + o)) * (b - IZR (base_id k b + o)))) (window k) = axis_second k b.
Proof.
  destruct k.
  - unfold axis_second. change (Zfloor b) with (base_id Linear b). axis_setup Linear b. simpl basis. rewrite lin_pos, lin_neg by lra. field.
  - axis_setup Quadratic b. simpl basis. unfold axis_second. rewrite quad_r, quad_m, quad_l by lra. field.
  - axis_setup Cubic b. simpl basis. unfold axis_second. rewrite cub_4, cub_3, cub_2, cub_1 by lra. field.
Qed.
(** grid coordinate of a point along axis [a] *)
Definition gcoord (gd : GridDomain R) (a : nat) (x : vec3 R) : R := (vcomp a x - vcomp a (gd_origin gd)) * gd_inv gd.
Definition point_second (k : Kernel) (gd : GridDomain R) (a : nat) (x : vec3 R) : R := axis_second k (gcoord gd a x).
Lemma S_fbxx k b : sumR (fun o => fb k b o * (fx k b o * fx k b o)) (window k) = axis_second k b.
Proof. apply axis_moment2. Qed.
Lemma moment_two k g xs p a c : wf_sizes g -> (p < length xs)%nat -> interior k g (nth p xs vzero) ->
  (a < dim_nat (gd_dim g))%nat -> (c < dim_nat (gd_dim g))%nat ->
  sumR (fun it => it_val it * (vcomp a (it_dist it) * vcomp c (it_dist it))) (of_point p (compute_on k g xs))
  = if Nat.eqb a c then point_second k g a (nth p xs vzero) else 0.
Proof.
  intros W Hp I Ha Hc. set (b := bpos g (nth p xs vzero)).
  assert (Eb : forall e, (e < dim_nat (gd_dim g))%nat -> point_second k g e (nth p xs vzero) = axis_second k (vcomp e b)).
  { intros e He. unfold point_second, gcoord, b, bpos, base_pos. rnum. destruct (gd_dim g), e as [|[|[|e]]]; simpl in He; try lia; reflexivity. }
  rewrite (sum_val_general k g xs p (fun d => vcomp a d * vcomp c d)) by assumption. fold b. rewrite (Eb a) by exact Ha. clear Eb.
  set (one := fun e : nat => if Nat.eqb a e then if Nat.eqb c e then fun u : R => u * u else fun u => u else if Nat.eqb c e then fun u => u else fun _ => 1).
  rewrite (sum_prod3 k (gd_dim g) _ (fun o => fb k (vx b) o * one 0%nat (fx k (vx b) o)) (fun o => fb k (vy b) o * one 1%nat (fx k (vy b) o))
     (fun o => fb k (vz b) o * one 2%nat (fx k (vz b) o))).
  - assert (One : forall v e, sumR (fun o => fb k v o * one e (fx k v o)) (window k)
        = if Nat.eqb a e then if Nat.eqb c e then axis_second k v else 0 else if Nat.eqb c e then 0 else 1).
    { intros v e. unfold one. destruct (Nat.eqb a e), (Nat.eqb c e); try apply S_fbxx; try apply S_fbx.
      rewrite sumR_scal_r, S_fb. lra. }
    rewrite !One. destruct (gd_dim g); destruct a as [|[|[|a]]]; simpl in Ha; try lia; destruct c as [|[|[|c]]]; simpl in Hc; try lia; simpl; ring.
  - intros off _. unfold shape_val, dist_vec, node_idx, fb, fx, one; rnum.
    destruct (gd_dim g); destruct a as [|[|[|a]]]; simpl in Ha; try lia; destruct c as [|[|[|c]]]; simpl in Hc; try lia; simpl; ring.
Qed.

(** *** what P2G puts on the nodes *)
(** affine matrix a coupling's particle [n] carries: none under USL, the stored one under AFLIP (compression positive) *)
Definition affine_of (S : Solver R) (m : Mechanics R) (c : Coupling) (n : nat) : mat3 R :=
  match so_scheme S with
  | USL => mzero
  | ASFLIP _ => match c_s c with
                | Some s => match nth_error (m_solvers m) s with
                            | Some (Some (SS_AFLIP Bp)) => nth (Nat.min n (length Bp - 1)) Bp mzero
                            | _ => mzero
                            end
                | None => mzero
                end
  end.
Definition pt_in (w : World R) (c : Coupling) (n : nat) : Particle R := nth n (pts_at w (c_p c)) pt0.
(** velocity component a row transfers *)
Definition row_vel (S : Solver R) (m : Mechanics R) (gd : GridDomain R) (w : World R) (c : Coupling) (a : nat) (it : Interaction R) : R :=
  vcomp a (pt_vel (pt_in w c (it_point it))) + gd_cell gd * vdot (mrow a (affine_of S m c (it_point it))) (it_dist it).
Definition node_mom_of S m gd w c a i : R :=
  sumR (fun it => it_val it * pt_mass (pt_in w c (it_point it)) * row_vel S m gd w c a it) (at_node (Z.of_nat i) (rows_of S w c)).
Lemma pt_unforced S st w ca w2 ca2 c n : prepare S st = Ok (w, ca) -> p2g S w (s_mech st) ca = Ok (w2, ca2) ->
  pt_mass (pt_in w2 c n) = pt_mass (pt_in (s_world st) c n) /\ pt_vel (pt_in w2 c n) = pt_vel (pt_in (s_world st) c n) /\
  pt_pos (pt_in w2 c n) = pt_pos (pt_in (s_world st) c n).
Proof.
  intros E1 E2. pose proof (unforced_pts _ _ _ _ _ _ E1 E2 (c_p c)) as U. unfold pt_in.
  revert n; induction U as [|x y l m Hxy _ IH]; intros [|n]; simpl; auto; destruct Hxy as (? & ? & ? & _); auto.
Qed.
Lemma node_mom S st w ca w2 ca2 : prepare S st = Ok (w, ca) -> p2g S w (s_mech st) ca = Ok (w2, ca2) ->
  inside S (s_world st) -> forall gi g gd i a, nth_error (sc_grids ca2) gi = Some g -> nth_error (so_domains S) gi = Some gd ->
  (i < Z.to_nat (num_cells gd))%nat -> (a < dim_nat (gd_dim gd))%nat ->
  vcomp a (nth i (gr_mom g) vzero) = sumR (fun c => node_mom_of S (s_mech st) gd (s_world st) c a i) (active_on S gi).
Proof.
  intros E1 E2 Hin gi g gd i a Eg Egd Hi Ha. destruct (p2g_grids _ _ _ _ _ _ E1 E2) as (gs & <- & _ & F0 & F & E).
  rewrite (p2g_fold_sumc S w2 (s_mech st) (sc_inter ca) gi (fun g => vcomp a (nth i (gr_mom g) vzero))
     (fun c => node_mom_of S (s_mech st) gd (s_world st) c a i))
    with (4 := E) (g0 := grid_new gd); try assumption.
  - unfold active_on. simpl gr_mom. rewrite nth_repeat, vcomp_zero. lra.
  - intros c s it gr vel gd' Hc Hsk Hcg Hs Hit Hgd Hgr Hv. rewrite Hcg, Egd in Hgd. injection Hgd as <-.
    assert (Egd' : nth_error (so_domains S) (c_g c) = Some gd) by (rewrite Hcg; exact Egd).
    destruct (p2g_rows _ _ _ _ _ _ _ _ _ _ E1 E2 Hin Hc Hs Hit Egd') as (W & k & Hk & -> & I).
    unfold p2g_with; cbn [gr_mom]. destruct Hgr as (_ & _ & Lmo & _). rewrite scatter_node by (try exact W; rewrite Lmo; exact Hi).
    rewrite vcomp_add, vcomp_vsum. f_equal. unfold node_mom_of. rewrite <- (rows_of_unforced _ _ _ _ _ _ c E1 E2).
    unfold rows_of at 1. unfold pts_at at 1. rewrite Hk, Hs, Egd'. cbn [body_pts]. apply sumR_ext. intros r Hr. apply in_at_node in Hr.
    destruct Hr as (Hr & _). rewrite vcomp_scale. unfold eff, point_of. rewrite (mask_R _ _ _ _ Hr).
    destruct (pt_unforced _ _ _ _ _ _ c (it_point r) E1 E2) as (Um & Uv & _).
    unfold row_vel. rewrite <- Um, <- Uv. unfold pt_in, pts_at. rewrite Hs. cbn [body_pts].
    unfold p2g_vel in Hv. unfold affine_of. destruct (so_scheme S) as [|af].
    + subst vel. unfold point_of. rnum.
      replace (vdot (mrow a mzero) (it_dist r)) with 0 by (unfold vdot, mrow, mzero; rnum; destruct a as [|[|a]]; simpl; ring). ring.
    + destruct Hv as (gd' & Bp & si & Egd2 & Esi & Est & ->). rewrite Egd' in Egd2. injection Egd2 as <-. rewrite Esi, Est.
      rewrite vcomp_sub. unfold affine_vel, point_of. rewrite vcomp_trunc, keep_in by exact Ha. rewrite vcomp_mv.
      unfold vdot, vscale. rnum. simpl. ring.
  - apply incl_refl.
  - rewrite nth_error_map, Egd. reflexivity.
Qed.
Lemma node_mass0 S st w ca w2 ca2 : prepare S st = Ok (w, ca) -> p2g S w (s_mech st) ca = Ok (w2, ca2) ->
  inside S (s_world st) -> forall gi g gd i, nth_error (sc_grids ca2) gi = Some g -> nth_error (so_domains S) gi = Some gd ->
  (i < Z.to_nat (num_cells gd))%nat ->
  nth i (gr_mass g) 0 = sumR (fun c => node_mass_of S (s_world st) c i) (active_on S gi).
Proof.
  intros E1 E2 Hin gi g gd i Eg Egd Hi. rewrite (node_mass S st w ca w2 ca2 E1 E2 Hin gi g gd i Eg Egd Hi).
  apply sumR_ext_all. intros c. unfold node_mass_of. rewrite (rows_of_unforced _ _ _ _ _ _ c E1 E2). apply sumR_ext_all. intros r.
  rewrite (mass_unforced _ _ _ _ _ _ _ _ E1 E2). reflexivity.
Qed.
Lemma last_kernel_some cs c : In c cs -> exists k, last_kernel cs (c_p c) (c_g c) = Some k.
Proof.
  unfold last_kernel. generalize (@None Kernel) as o. intros o Hc. revert o. induction cs as [|c1 cs IH]; intros o; [contradiction|].
  cbn [fold_left]. destruct Hc as [->|Hc]; [|apply IH, Hc].
  destruct (key_eqb_spec (c_p c, c_g c) (c_p c, c_g c)) as [_|N]; [|congruence]. clear.
  generalize (c_kernel c). induction cs as [|c1 cs IH]; intros k; [exists k; reflexivity|]. cbn [fold_left].
  destruct (key_eqb _ _); apply IH.
Qed.
(** rows of an active coupling, about the initial state *)
Lemma active_rows S st w ca w2 ca2 : prepare S st = Ok (w, ca) -> p2g S w (s_mech st) ca = Ok (w2, ca2) -> inside S (s_world st) ->
  forall gi gd c, nth_error (so_domains S) gi = Some gd -> In c (active_on S gi) ->
  wf_sizes gd /\ (exists k, (one_kernel S -> k = c_kernel c) /\ rows_of S (s_world st) c = compute_on k gd (map pt_pos (pts_at (s_world st) (c_p c))) /\
    forall p, In p (pts_at (s_world st) (c_p c)) -> interior k gd (pt_pos p)).
Proof.
  intros E1 E2 Hin gi gd c Egd Hc. apply active_on_in in Hc. destruct Hc as (Hc & Hsk & Hg).
  assert (Egd' : nth_error (so_domains S) (c_g c) = Some gd) by congruence. split; [apply (Hin c gd Hc Egd')|].
  unfold rows_of. rewrite Egd'.
  assert (X : exists k, last_kernel (so_couplings S) (c_p c) (c_g c) = Some k).
  { apply last_kernel_some. exact Hc. }
  destruct X as (k & Hk). rewrite Hk. exists k. split; [intros O; eapply last_kernel_own; eassumption|]. split; [reflexivity|].
  apply last_kernel_in in Hk. destruct Hk as (c' & Hc' & Ep & Eg & <-). rewrite <- Eg in Egd'. rewrite <- Ep. apply (Hin c' gd Hc' Egd').
Qed.

(** *** angular momentum *)
(** moment of momentum in the plane of axes [a], [b] about the origin of coordinates, with the affine part of AFLIP:
    m (x_a v_b - x_b v_a) - m cell^2 (D_a B_ba - D_b B_ab), B the stored matrix (minus the velocity gradient) and D the
    second moment of the shape functions *)
Definition body_spin (S : Solver R) (m : Mechanics R) (w : World R) (gd : GridDomain R) (a b : nat) (c : Coupling) : R :=
  sumR (fun n => let p := pt_in w c n in let B := affine_of S m c n in let D := point_second (c_kernel c) gd in
    pt_mass p * (vcomp a (pt_pos p) * vcomp b (pt_vel p) - vcomp b (pt_pos p) * vcomp a (pt_vel p)
      - gd_cell gd * gd_cell gd * (D a (pt_pos p) * mcomp b a B - D b (pt_pos p) * mcomp a b B)))
    (seq 0 (length (pts_at w (c_p c)))).
Definition grid_spin (gd : GridDomain R) (g : Grid R) (a b : nat) : R :=
  sumR (fun i => vcomp a (nth i (position_stack gd) vzero) * vcomp b (nth i (gr_mom g) vzero)
                 - vcomp b (nth i (position_stack gd) vzero) * vcomp a (nth i (gr_mom g) vzero)) (seq 0 (Z.to_nat (num_cells gd))).
Lemma first_moment S st w ca w2 ca2 : prepare S st = Ok (w, ca) -> p2g S w (s_mech st) ca = Ok (w2, ca2) ->
  inside S (s_world st) -> one_kernel S ->
  forall gi g gd a b, nth_error (sc_grids ca2) gi = Some g -> nth_error (so_domains S) gi = Some gd -> wf_grid gd ->
  (a < dim_nat (gd_dim gd))%nat -> (b < dim_nat (gd_dim gd))%nat ->
  sumR (fun i => vcomp a (nth i (position_stack gd) vzero) * vcomp b (nth i (gr_mom g) vzero)) (seq 0 (Z.to_nat (num_cells gd)))
  = sumR (fun c => sumR (fun n => let p := pt_in (s_world st) c n in
       pt_mass p * (vcomp a (pt_pos p) * vcomp b (pt_vel p)
         - gd_cell gd * gd_cell gd * (point_second (c_kernel c) gd a (pt_pos p) * mcomp b a (affine_of S (s_mech st) c n))))
       (seq 0 (length (pts_at (s_world st) (c_p c))))) (active_on S gi).
Proof.
  intros E1 E2 Hin O gi g gd a b Eg Egd W Ha Hb.
  rewrite (sumR_ext _ (fun i => sumR (fun c => vcomp a (nth i (position_stack gd) vzero) * node_mom_of S (s_mech st) gd (s_world st) c b i) (active_on S gi))).
  2:{ intros i Hi. apply in_seq in Hi. rewrite (node_mom S st w ca w2 ca2 E1 E2 Hin gi g gd i b Eg Egd) by (try exact Hb; lia). rewrite sumR_scal. reflexivity. }
  rewrite <- sumR_swap. apply sumR_ext. intros c Hc.
  destruct (active_rows _ _ _ _ _ _ E1 E2 Hin gi gd c Egd Hc) as (Ws & k & Ek & Er & I). specialize (Ek O). subst k.
  set (pts := pts_at (s_world st) (c_p c)) in *. set (xs := map pt_pos pts) in *. set (k := c_kernel c) in *.
  set (P := fun n => nth n pts pt0).
  set (F := fun it => vcomp a (row_pos gd it) * (it_val it * pt_mass (P (it_point it)) * row_vel S (s_mech st) gd (s_world st) c b it)).
  transitivity (sumR F (compute_on k gd xs)).
  - rewrite (sum_by_node k gd xs F) by exact Ws. apply sumR_ext. intros i Hi. unfold node_mom_of. rewrite Er, <- sumR_scal.
    apply sumR_ext. intros it Hit. apply in_at_node in Hit. destruct Hit as (_ & Hh). unfold F, row_pos. rewrite Hh, Nat2Z.id. reflexivity.
  - rewrite sum_by_point. replace (length xs) with (length pts) by (symmetry; apply map_length). apply sumR_ext. intros n Hn. apply in_seq in Hn.
    assert (En : nth n xs vzero = pt_pos (P n)) by (apply xs_nth).
    assert (Ln : (n < length xs)%nat) by (unfold xs; rewrite map_length; lia).
    assert (In_ : interior k gd (nth n xs vzero)) by (rewrite En; apply I, nth_In; fold pts; lia).
    cbv zeta. unfold pt_in. fold pts. fold (P n).
    set (x := pt_pos (P n)) in *. set (v := vcomp b (pt_vel (P n))). set (M := pt_mass (P n)). set (B := mrow b (affine_of S (s_mech st) c n)). set (h := gd_cell gd).
    rewrite (sumR_ext _ (fun it => M * (vcomp a x * v) * it_val it + (M * vcomp a x * h * (it_val it * vdot B (it_dist it))
       + (- (M * h * v) * (it_val it * vcomp a (it_dist it)) +
       (- (M * h * h * vcomp 0 B) * (it_val it * (vcomp a (it_dist it) * vcomp 0 (it_dist it))) +
       (- (M * h * h * vcomp 1 B) * (it_val it * (vcomp a (it_dist it) * vcomp 1 (it_dist it))) +
        - (M * h * h * vcomp 2 B * keep (gd_dim gd) 2) * (it_val it * (vcomp a (it_dist it) * vcomp 2 (it_dist it))))))))).
    + rewrite !sumR_plus, !sumR_scal. rewrite pou, moment_zero, sum_dist_dot by assumption.
      rewrite (moment_two k gd xs n a 0), (moment_two k gd xs n a 1) by (try assumption; destruct (gd_dim gd); simpl; lia).
      rewrite En. replace (mcomp b a (affine_of S (s_mech st) c n)) with (vcomp a B) by (unfold B, mcomp; reflexivity).
      destruct (gd_dim gd) eqn:D.
      * cbn [keep]. simpl in Ha. destruct a as [|[|a]]; [| |lia]; simpl Nat.eqb; cbv iota; ring.
      * cbn [keep]. simpl in Ha. rewrite (moment_two k gd xs n a 2) by (try assumption; rewrite D; simpl; lia). rewrite En.
        simpl in Ha. destruct a as [|[|[|a]]]; [| | |lia]; simpl Nat.eqb; cbv iota; ring.
    + intros it Hit. pose proof (interior_rows_in_grid k gd xs n it Ws In_ Hit) as Rg.
      apply in_of_point in Hit. destruct Hit as (Hit & Hp). unfold F, row_vel. unfold pt_in. fold pts. rewrite Hp. fold (P n). fold M. fold v. fold B. fold h.
      rewrite (hash_pos_dist k gd xs it a W Hit) by (rewrite ?Hp; assumption). rewrite Hp, En. fold x. fold h. rewrite vdot_comp.
      destruct (gd_dim gd) eqn:D; cbn [keep]; [|ring]. change (vcomp 2 (it_dist it)) with (vz (it_dist it)).
      rewrite (row_dist_planar k gd xs it Hit D). ring.
Qed.
Theorem p2g_spin S st w ca w2 ca2 : prepare S st = Ok (w, ca) -> p2g S w (s_mech st) ca = Ok (w2, ca2) ->
  inside S (s_world st) -> one_kernel S ->
  forall gi g gd a b, nth_error (sc_grids ca2) gi = Some g -> nth_error (so_domains S) gi = Some gd -> wf_grid gd ->
  (a < dim_nat (gd_dim gd))%nat -> (b < dim_nat (gd_dim gd))%nat ->
  grid_spin gd g a b = sumR (body_spin S (s_mech st) (s_world st) gd a b) (active_on S gi).
Proof.
  intros E1 E2 Hin O gi g gd a b Eg Egd W Ha Hb. unfold grid_spin. rewrite sumR_minus.
  rewrite (first_moment S st w ca w2 ca2 E1 E2 Hin O gi g gd a b), (first_moment S st w ca w2 ca2 E1 E2 Hin O gi g gd b a) by assumption.
  rewrite <- sumR_minus. apply sumR_ext. intros c _. unfold body_spin. rewrite <- sumR_minus. apply sumR_ext. intros n _. cbv zeta. ring.
Qed.

(** *** USL steps without forces *)
Lemma weighted_range {A} (wt u : A -> R) l lo hi : (forall x, In x l -> 0 <= wt x) ->
  (forall x, In x l -> wt x = 0 \/ lo <= u x <= hi) ->
  lo * sumR wt l <= sumR (fun x => wt x * u x) l <= hi * sumR wt l.
Proof.
  intros Hw Hu. rewrite <- !sumR_scal. split; apply sumR_le; intros x Hx; cbv beta; specialize (Hw x Hx); destruct (Hu x Hx) as [Z|H];
    [rewrite Z; lra|nra|rewrite Z; lra|nra].
Qed.
(** Cauchy-Schwarz for weighted sums *)
Lemma weighted_square {A} (wt u : A -> R) l t : (forall x, In x l -> 0 <= wt x) ->
  2 * t * sumR (fun x => wt x * u x) l - t * t * sumR wt l <= sumR (fun x => wt x * (u x * u x)) l.
Proof.
  intros Hw. rewrite <- !sumR_scal, <- sumR_minus. apply sumR_le. intros x Hx. specialize (Hw x Hx).
  cbv beta. assert (0 <= wt x * ((u x - t) * (u x - t))) by (apply Rmult_le_pos; [exact Hw|apply (Rle_0_sqr (u x - t))]).
  replace (wt x * (u x * u x)) with (wt x * ((u x - t) * (u x - t)) + (2 * t * (wt x * u x) - t * t * wt x)) by ring. lra.
Qed.
Lemma blend_square m al G v q : 0 <= m -> 0 <= al <= 1 -> G * G <= q ->
  m * (((1 - al) * G + al * v) * ((1 - al) * G + al * v)) <= (1 - al) * (m * q) + al * (m * (v * v)).
Proof.
  intros M0 Al Q. replace ((1 - al) * (m * q) + al * (m * (v * v))) with (m * ((1 - al) * q + al * (v * v))) by ring.
  apply Rmult_le_compat_l; [exact M0|].
  assert (J2 : (1 - al) * (G * G) <= (1 - al) * q) by (apply Rmult_le_compat_l; lra).
  assert (0 <= al * (1 - al) * ((G - v) * (G - v))) by (apply Rmult_le_pos; [apply Rmult_le_pos; lra|apply (Rle_0_sqr (G - v))]).
  replace (((1 - al) * G + al * v) * ((1 - al) * G + al * v)) with ((1 - al) * (G * G) + al * (v * v) - al * (1 - al) * ((G - v) * (G - v))) by ring. lra.
Qed.
Section Free.
Variables (S : Solver R) (st : SimState R) (w : World R) (ca : SimCache R) (w2 : World R) (ca2 ca3 : SimCache R) (w3 : World R) (m3 : Mechanics R).
Hypothesis Usl : so_scheme S = USL.
Hypothesis E1 : prepare S st = Ok (w, ca).
Hypothesis E2 : p2g S w (s_mech st) ca = Ok (w2, ca2).
Hypothesis E3 : integrate_grid S w2 (s_mech st) (s_dt st) ca2 = Ok ca3.
Hypothesis E4 : g2p S w2 (s_mech st) (s_dt st) ca3 = Ok (w3, m3).
Hypothesis Hin : inside S (s_world st).
Hypothesis Nd : NoDup (map c_p (active S)).
Hypothesis Nf : so_forces S = [].
Variables (gi : nat) (g : Grid R) (gd : GridDomain R).
Hypothesis Eg : nth_error (sc_grids ca3) gi = Some g.
Hypothesis Egd : nth_error (so_domains S) gi = Some gd.
Hypothesis Sf : stress_free (s_world st) S gi.
Hypothesis Al : 0 <= so_alpha S <= 1.
Hypothesis Mp : forall c p, In c (active_on S gi) -> In p (pts_at (s_world st) (c_p c)) -> 0 <= pt_mass p.
Let N := Z.to_nat (num_cells gd).
Lemma free_grid c : In c (active_on S gi) -> exists g2, nth_error (sc_grids ca2) gi = Some g2 /\ gr_mass g = gr_mass g2 /\ gr_dim g = gd_dim gd /\ gr_mom g = gr_mom g2 /\
  (forall i, nth i (gr_mom_nt g) vzero = nth i (gr_mom g) vzero).
Proof.
  intros Hc. destruct (integrate_same_mm _ _ _ _ _ _ E3) as (SM & Einter & _).
  destruct (Forall2_nth_error _ _ _ _ _ SM Eg) as (g2 & Eg2 & Hsm). destruct Hsm as (Ed & Em & Emo).
  destruct (p2g_grids _ _ _ _ _ _ E1 E2) as (gs & X & Ei2 & _ & F & _). subst gs.
  destruct (Forall2_nth_error_l _ _ _ _ _ F Egd) as (g' & Eg' & Hok). rewrite Eg2 in Eg'. injection Eg' as <-.
  destruct Hok as (Hd & Lm & Lmo & _ & Lf). exists g2. repeat split; try congruence.
  intros i. pose proof E3 as E. apply integrate_ok in E. destruct E as (gs1 & gs2 & gs3 & F1 & F2 & F3 & X). rewrite X in Eg. rewrite Nf in F1, F3. simpl in F1, F3.
  injection F1 as <-. injection F3 as <-. simpl in Eg. rewrite (integrate_fold_ok _ _ _ _ F2), Eg2 in Eg. simpl in Eg. injection Eg as Eg0.
  assert (Xa : existsb (fun c => (negb (c_skip c) && Nat.eqb (c_g c) gi)%bool) (so_couplings S) = true).
  { apply existsb_exists. exists c. unfold active_on in Hc. apply filter_In in Hc. exact Hc. }
  rewrite Xa in Eg0. rewrite <- Eg0. cbn [integrate1 set_mom_nt gr_mom_nt gr_mom]. apply combine_zero; [congruence|].
  eapply p2g_no_force; eassumption.
Qed.
(** one axis of one particle after the step: blend of the gathered and of its own velocity *)
Definition gathered (c : Coupling) (n a : nat) : R :=
  sumR (fun it => it_val it * vcomp a (node_vel cut12 (gr_dim g) g (gr_mom g) it)) (of_point n (rows_of S (s_world st) c)).
Lemma free_body c : In c (active_on S gi) -> length (pts_at w3 (c_p c)) = length (pts_at (s_world st) (c_p c)) /\
  forall n, (n < length (pts_at (s_world st) (c_p c)))%nat ->
    pt_mass (pt_in w3 c n) = pt_mass (pt_in (s_world st) c n) /\
    forall a, vcomp a (pt_vel (pt_in w3 c n)) = (1 - so_alpha S) * gathered c n a + so_alpha S * vcomp a (pt_vel (pt_in (s_world st) c n)).
Proof.
  intros Hc. destruct (free_grid c Hc) as (g2 & Eg2 & Em & Ed & Emo & Ent).
  destruct (integrate_same_mm _ _ _ _ _ _ E3) as (_ & Einter & _).
  destruct (p2g_grids _ _ _ _ _ _ E1 E2) as (gs & X & Ei2 & _ & F & _). subst gs.
  destruct (proj1 (active_on_in S gi c) Hc) as (Hc1 & Hsk & Hcg).
  assert (Egd' : nth_error (so_domains S) (c_g c) = Some gd) by (rewrite Hcg; exact Egd).
  destruct (g2p_once _ _ _ _ _ _ _ E4 Nd c Hc1 Hsk) as (s & it & g1 & m1 & m2 & pts' & H1 & H2 & H3 & H4 & H5).
  rewrite Hcg, Eg in H1. injection H1 as <-. rewrite Einter, Ei2 in H2.
  destruct (p2g_rows _ _ _ _ _ _ _ _ _ _ E1 E2 Hin Hc1 H3 H2 Egd') as (Ws & k & Hk & -> & I).
  pose proof (Forall2_len _ _ _ (unforced_pts _ _ _ _ _ _ E1 E2 (c_p c))) as Len. unfold pts_at at 2 in Len. rewrite H3 in Len. cbn [body_pts] in Len.
  unfold g2p_result in H4. rewrite Usl in H4. destruct H4 as (_ & geos & _ & -> & _).
  split; [unfold pts_at at 1; rewrite H5; cbn [body_pts after_g2p sb_pts]; rewrite g2p_usl_length; symmetry; exact Len|].
  intros n Hn. unfold pt_in at 1 3. unfold pts_at at 1 2. rewrite H5. cbn [body_pts after_g2p sb_pts].
  rewrite g2p_usl_nth by (try apply masks_rows; lia). cbn [usl_update g2p_point pt_mass pt_vel].
  destruct (pt_unforced _ _ _ _ _ _ c n E1 E2) as (Um & Uv & _). rewrite <- Um, <- Uv. unfold pt_in. unfold pts_at. rewrite H3. cbn [body_pts].
  split; [reflexivity|]. intros a. rewrite vcomp_add, !vcomp_scale, vcomp_add.
  assert (Nv : forall r, node_vel cut12 (gr_dim g) g (gr_mom_nt g) r = node_vel cut12 (gr_dim g) g (gr_mom g) r)
    by (intro r; unfold node_vel; rewrite Ent; reflexivity).
  assert (Dz : vcomp a (usl_delta (compute_on k gd (map pt_pos (sb_pts s))) g n) = 0).
  { unfold usl_delta. rewrite vcomp_vsum. apply sumR_zero. intros r _. rewrite vcomp_scale, vcomp_sub, Nv. ring. }
  rewrite Dz. unfold pic_vel, gathered. rewrite vcomp_vsum. rewrite <- (rows_of_unforced _ _ _ _ _ _ c E1 E2). unfold rows_of, pts_at. rewrite Hk, H3, Egd'. cbn [body_pts].
  rewrite (sumR_ext_all (fun x => vcomp a (vscale _ _)) (fun it => it_val it * vcomp a (node_vel cut12 (gr_dim g) g (gr_mom g) it)))
    by (intro r; rewrite vcomp_scale, Nv; reflexivity). rnum. ring.
Qed.
(** rows of a particle *)
Lemma free_rows c n : In c (active_on S gi) -> (n < length (pts_at (s_world st) (c_p c)))%nat ->
  sumR it_val (of_point n (rows_of S (s_world st) c)) = 1 /\
  forall it, In it (rows_of S (s_world st) c) -> 0 <= it_val it /\ (0 <= it_hash it < num_cells gd)%Z /\ (it_point it < length (pts_at (s_world st) (c_p c)))%nat.
Proof.
  intros Hc Hn. destruct (active_rows _ _ _ _ _ _ E1 E2 Hin gi gd c Egd Hc) as (Ws & k & _ & -> & I). split.
  - apply pou; [exact Ws|rewrite map_length; exact Hn|]. rewrite xs_nth. apply I, nth_In, Hn.
  - intros it Hit. destruct (compute_in_range k gd _ it Ws Hit) as (Q1 & Q2 & _). rewrite map_length in Q2.
    split; [apply (weight_range _ _ _ _ Hit)|]. auto.
Qed.
Lemma free_row_range c it : In c (active_on S gi) -> In it (rows_of S (s_world st) c) ->
  0 <= it_val it /\ (0 <= it_hash it < num_cells gd)%Z /\ (it_point it < length (pts_at (s_world st) (c_p c)))%nat.
Proof.
  intros Hc Hit. destruct (active_rows _ _ _ _ _ _ E1 E2 Hin gi gd c Egd Hc) as (Ws & k & _ & Er & I). rewrite Er in Hit.
  destruct (compute_in_range k gd _ it Ws Hit) as (Q1 & Q2 & _). rewrite map_length in Q2.
  split; [apply (weight_range _ _ _ _ Hit)|]. auto.
Qed.
Definition row_mass (c : Coupling) (it : Interaction R) : R := it_val it * pt_mass (pt_in (s_world st) c (it_point it)).
Lemma row_mass_pos c it : In c (active_on S gi) -> In it (rows_of S (s_world st) c) -> 0 <= row_mass c it.
Proof.
  intros Hc Hit. destruct (free_row_range c it Hc Hit) as (Q & _ & L). apply Rmult_le_pos; [exact Q|]. apply (Mp c); [exact Hc|]. apply nth_In, L.
Qed.
Lemma free_node_mom i a c0 : In c0 (active_on S gi) -> (i < N)%nat -> (a < dim_nat (gd_dim gd))%nat ->
  nth i (gr_mass g) 0 = sumR (fun c => sumR (row_mass c) (at_node (Z.of_nat i) (rows_of S (s_world st) c))) (active_on S gi) /\
  vcomp a (nth i (gr_mom g) vzero)
  = sumR (fun c => sumR (fun it => row_mass c it * vcomp a (pt_vel (pt_in (s_world st) c (it_point it)))) (at_node (Z.of_nat i) (rows_of S (s_world st) c))) (active_on S gi).
Proof.
  intros Hc Hi Ha. destruct (free_grid c0 Hc) as (g2 & Eg2 & Em & Ed & Emo & Ent). split.
  - rewrite Em. apply (node_mass0 _ _ _ _ _ _ E1 E2 Hin gi g2 gd i Eg2 Egd Hi).
  - rewrite Emo, (node_mom _ _ _ _ _ _ E1 E2 Hin gi g2 gd i a Eg2 Egd Hi Ha). apply sumR_ext_all. intros c. unfold node_mom_of. apply sumR_ext_all. intros it.
    unfold row_vel, affine_of, row_mass. rewrite Usl.
    replace (vdot (mrow a mzero) (it_dist it)) with 0 by (unfold vdot, mrow, mzero; rnum; destruct a as [|[|a]]; simpl; ring). ring.
Qed.

(** velocity bounds *)
Lemma gathered_range a lo hi : (a < dim_nat (gd_dim gd))%nat ->
  (lo <= 0 <= hi \/ forall c, In c (active_on S gi) -> heavy S (s_world st) g c) ->
  (forall c p, In c (active_on S gi) -> In p (pts_at (s_world st) (c_p c)) -> lo <= vcomp a (pt_vel p) <= hi) ->
  forall c n, In c (active_on S gi) -> (n < length (pts_at (s_world st) (c_p c)))%nat -> lo <= gathered c n a <= hi.
Proof.
  intros Ha Hz Hb c n Hc Hn. destruct (free_rows c n Hc Hn) as (Pou & _).
  replace lo with (lo * sumR it_val (of_point n (rows_of S (s_world st) c))) by (rewrite Pou; ring).
    replace hi with (hi * sumR it_val (of_point n (rows_of S (s_world st) c))) by (rewrite Pou; ring).
    apply weighted_range.
    - intros it Hit. apply in_of_point in Hit. apply (free_row_range c it Hc), Hit.
    - intros it Hit. apply in_of_point in Hit. destruct Hit as (Hit & _). destruct (free_row_range c it Hc Hit) as (_ & Rg & _).
      destruct (free_grid c Hc) as (g2 & Eg2 & Em & Ed & Emo & Ent).
      destruct (Req_dec (it_val it) 0) as [Z0|Nz]; [left; exact Z0|right].
      rewrite node_vel_comp by (rewrite Ed; exact Ha). set (i := Z.to_nat (it_hash it)).
      assert (Hi : (i < N)%nat) by (unfold i, N; lia).
      destruct (free_node_mom i a c Hc Hi Ha) as (NM & NP). unfold Uvel. pose proof cut12_pos.
      destruct (Rlt_dec cut12 (nth i (gr_mass g) 0)) as [L|L].
      + assert (Q : lo * nth i (gr_mass g) 0 <= vcomp a (nth i (gr_mom g) vzero) <= hi * nth i (gr_mass g) 0).
        { rewrite NM, NP, <- !sumR_scal. split; apply sumR_le; intros c1 Hc1;
          destruct (weighted_range (row_mass c1) (fun it => vcomp a (pt_vel (pt_in (s_world st) c1 (it_point it)))) (at_node (Z.of_nat i) (rows_of S (s_world st) c1)) lo hi) as (Q1 & Q2);
          try assumption; intros r Hr; apply in_at_node in Hr; destruct Hr as (Hr & _); try (apply row_mass_pos; assumption);
          right; apply (Hb c1); try assumption; destruct (free_row_range c1 r Hc1 Hr) as (_ & _ & Lr); apply nth_In, Lr. }
        split.
        * apply Rmult_le_reg_r with (nth i (gr_mass g) 0); [lra|]. unfold Rdiv. rewrite Rmult_assoc, Rinv_l by lra. lra.
        * apply Rmult_le_reg_r with (nth i (gr_mass g) 0); [lra|]. unfold Rdiv. rewrite Rmult_assoc, Rinv_l by lra. lra.
      + destruct Hz as [Hz|Hv]; [exact Hz|]. exfalso. apply L. unfold i.
        replace cut12 with (cut_of S) by (unfold cut_of; rewrite Usl; reflexivity). apply (Hv c Hc it Hit). left. exact Nz.
Qed.
Theorem free_bounds a lo hi : (a < dim_nat (gd_dim gd))%nat ->
  (lo <= 0 <= hi \/ forall c, In c (active_on S gi) -> heavy S (s_world st) g c) ->
  (forall c p, In c (active_on S gi) -> In p (pts_at (s_world st) (c_p c)) -> lo <= vcomp a (pt_vel p) <= hi) ->
  forall c p, In c (active_on S gi) -> In p (pts_at w3 (c_p c)) -> lo <= vcomp a (pt_vel p) <= hi.
Proof.
  intros Ha Hz Hb c p Hc Hp. destruct (free_body c Hc) as (Len & Body). destruct (In_nth _ _ pt0 Hp) as (n & Hn & Ep). rewrite Len in Hn.
  destruct (Body n Hn) as (_ & Bv). specialize (Bv a). unfold pt_in at 1 in Bv. rewrite Ep in Bv. rewrite Bv.
  assert (Hown : lo <= vcomp a (pt_vel (pt_in (s_world st) c n)) <= hi) by (apply (Hb c); [exact Hc|apply nth_In, Hn]).
  assert (Hg : lo <= gathered c n a <= hi).
  { apply gathered_range; assumption. }
  nra.
Qed.

(** kinetic energy along one axis *)
Definition axis_energy (a : nat) (w' : World R) : R :=
  sumR (fun c => sumR (fun p => pt_mass p * (vcomp a (pt_vel p) * vcomp a (pt_vel p))) (pts_at w' (c_p c))) (active_on S gi).
Lemma energy_nth a w' c : sumR (fun p => pt_mass p * (vcomp a (pt_vel p) * vcomp a (pt_vel p))) (pts_at w' (c_p c))
  = sumR (fun n => pt_mass (pt_in w' c n) * (vcomp a (pt_vel (pt_in w' c n)) * vcomp a (pt_vel (pt_in w' c n)))) (seq 0 (length (pts_at w' (c_p c)))).
Proof. symmetry. unfold pt_in. apply (sumR_seq_nth (fun p => pt_mass p * (vcomp a (pt_vel p) * vcomp a (pt_vel p))) pt0). Qed.
Lemma gathered_square c n a : In c (active_on S gi) -> (n < length (pts_at (s_world st) (c_p c)))%nat ->
  gathered c n a * gathered c n a <= sumR (fun it => it_val it * (vcomp a (node_vel cut12 (gr_dim g) g (gr_mom g) it) * vcomp a (node_vel cut12 (gr_dim g) g (gr_mom g) it)))
    (of_point n (rows_of S (s_world st) c)).
Proof.
  intros Hc Hn. destruct (free_rows c n Hc Hn) as (Pou & _).
  pose proof (weighted_square it_val (fun it => vcomp a (node_vel cut12 (gr_dim g) g (gr_mom g) it)) (of_point n (rows_of S (s_world st) c)) (gathered c n a)) as Q.
  rewrite Pou in Q. fold (gathered c n a) in Q.
  enough (X : 2 * gathered c n a * gathered c n a - gathered c n a * gathered c n a * 1 = gathered c n a * gathered c n a).
  - rewrite <- X. apply Q. intros it Hit. apply in_of_point in Hit. apply (free_row_range c it Hc), Hit.
  - ring.
Qed.
Lemma free_node_energy i a c0 : In c0 (active_on S gi) -> (i < N)%nat -> (a < dim_nat (gd_dim gd))%nat ->
  Uvel cut12 g (gr_mom g) a i * Uvel cut12 g (gr_mom g) a i * nth i (gr_mass g) 0
  <= sumR (fun c => sumR (fun it => row_mass c it * (vcomp a (pt_vel (pt_in (s_world st) c (it_point it))) * vcomp a (pt_vel (pt_in (s_world st) c (it_point it)))))
      (at_node (Z.of_nat i) (rows_of S (s_world st) c))) (active_on S gi).
Proof.
  intros Hc Hi Ha. destruct (free_node_mom i a c0 Hc Hi Ha) as (NM & NP). set (u := Uvel cut12 g (gr_mom g) a i). pose proof cut12_pos.
  assert (Eu : u * nth i (gr_mass g) 0 * u = u * vcomp a (nth i (gr_mom g) vzero)).
  { unfold u, Uvel. destruct (Rlt_dec cut12 (nth i (gr_mass g) 0)); [field; lra|ring]. }
  replace (u * u * nth i (gr_mass g) 0) with (2 * u * vcomp a (nth i (gr_mom g) vzero) - u * u * nth i (gr_mass g) 0) by lra.
  rewrite NM, NP, <- !sumR_scal, <- sumR_minus. apply sumR_le. intros c Hc1.
  apply (weighted_square (row_mass c) (fun it => vcomp a (pt_vel (pt_in (s_world st) c (it_point it))))).
  intros it Hit. apply in_at_node in Hit. apply row_mass_pos; [exact Hc1|apply Hit].
Qed.
Theorem free_energy a : (a < dim_nat (gd_dim gd))%nat -> axis_energy a w3 <= axis_energy a (s_world st).
Proof.
  intros Ha. unfold axis_energy.
  assert (Dec : active_on S gi = [] \/ exists c0, In c0 (active_on S gi)) by (destruct (active_on S gi) as [|c0 l]; [left; reflexivity|right; exists c0; left; reflexivity]).
  destruct Dec as [Z|(c0 & Hc0)]; [rewrite Z; apply Rle_refl|].
  set (al := so_alpha S) in *.
  set (PE := fun c => sumR (fun n => pt_mass (pt_in (s_world st) c n) * sumR (fun it => it_val it *
      (vcomp a (node_vel cut12 (gr_dim g) g (gr_mom g) it) * vcomp a (node_vel cut12 (gr_dim g) g (gr_mom g) it))) (of_point n (rows_of S (s_world st) c)))
      (seq 0 (length (pts_at (s_world st) (c_p c))))).
  set (KE := fun c => sumR (fun p => pt_mass p * (vcomp a (pt_vel p) * vcomp a (pt_vel p))) (pts_at (s_world st) (c_p c))).
  apply Rle_trans with (sumR (fun c => (1 - al) * PE c + al * KE c) (active_on S gi)).
  - apply sumR_le. intros c Hc. unfold PE, KE. rewrite !energy_nth. destruct (free_body c Hc) as (Len & Body). rewrite Len.
    rewrite <- !sumR_scal, <- sumR_plus. apply sumR_le. intros n Hn. apply in_seq in Hn. destruct (Body n ltac:(lia)) as (Bm & Bv). rewrite Bm, (Bv a).
    apply blend_square; [apply (Mp c); [exact Hc|apply nth_In; lia]|exact Al|]. apply gathered_square; [exact Hc|lia].
  - rewrite sumR_plus, !sumR_scal.
    enough (X : sumR PE (active_on S gi) <= sumR KE (active_on S gi)).
    { assert ((1 - al) * sumR PE (active_on S gi) <= (1 - al) * sumR KE (active_on S gi)) by (apply Rmult_le_compat_l; lra). lra. }
    destruct (free_grid c0 Hc0) as (g2 & Eg2 & Em & Ed & Emo & Ent).
    rewrite (sumR_ext PE (fun c => sumR (fun i => Uvel cut12 g (gr_mom g) a i * Uvel cut12 g (gr_mom g) a i *
        sumR (row_mass c) (at_node (Z.of_nat i) (rows_of S (s_world st) c))) (seq 0 N))).
    2:{ intros c Hc. destruct (active_rows _ _ _ _ _ _ E1 E2 Hin gi gd c Egd Hc) as (Ws & k & _ & Er & I). unfold PE. rewrite Er.
        apply (gathered_moment k gd (pts_at (s_world st) (c_p c)) (fun it => vcomp a (node_vel cut12 (gr_dim g) g (gr_mom g) it) * vcomp a (node_vel cut12 (gr_dim g) g (gr_mom g) it))
          (fun i => Uvel cut12 g (gr_mom g) a i * Uvel cut12 g (gr_mom g) a i) Ws).
        intros it _. rewrite node_vel_comp by (rewrite Ed; exact Ha). reflexivity. }
    rewrite sumR_swap.
    rewrite (sumR_ext KE (fun c => sumR (fun i => sumR (fun it => row_mass c it * (vcomp a (pt_vel (pt_in (s_world st) c (it_point it))) * vcomp a (pt_vel (pt_in (s_world st) c (it_point it)))))
        (at_node (Z.of_nat i) (rows_of S (s_world st) c))) (seq 0 N))).
    2:{ intros c Hc. destruct (active_rows _ _ _ _ _ _ E1 E2 Hin gi gd c Egd Hc) as (Ws & k & _ & Er & I). unfold KE. rewrite energy_nth, Er.
        unfold N. rewrite <- (sum_by_node k gd _ _ Ws).
        rewrite (sumR_ext _ (fun it => it_val it * (pt_mass (pt_in (s_world st) c (it_point it)) *
          (vcomp a (pt_vel (pt_in (s_world st) c (it_point it))) * vcomp a (pt_vel (pt_in (s_world st) c (it_point it))))))) by (intros it _; unfold row_mass; ring).
        rewrite (sum_by_point_weight k gd _ (fun n => pt_mass (pt_in (s_world st) c n) * (vcomp a (pt_vel (pt_in (s_world st) c n)) * vcomp a (pt_vel (pt_in (s_world st) c n)))));
          [rewrite map_length; reflexivity|exact Ws|]. intros n Hn. rewrite map_length in Hn. rewrite xs_nth. apply I, nth_In, Hn. }
    rewrite (sumR_swap _ (active_on S gi) (seq 0 N)). apply sumR_le. intros i Hi. apply in_seq in Hi.
    destruct (free_node_mom i a c0 Hc0 ltac:(lia) Ha) as (NM & _).
    rewrite sumR_scal. rewrite <- NM. apply (free_node_energy i a c0 Hc0 ltac:(lia) Ha).
Qed.
(** out of plane *)
Lemma free_energy_z : gd_dim gd = D2 -> axis_energy 2 w3 <= axis_energy 2 (s_world st).
Proof.
  intros D. unfold axis_energy. apply sumR_le. intros c Hc. rewrite !energy_nth. destruct (free_body c Hc) as (Len & Body). rewrite Len.
  apply sumR_le. intros n Hn. apply in_seq in Hn. destruct (Body n ltac:(lia)) as (Bm & Bv). rewrite Bm, (Bv 2%nat).
  destruct (free_grid c Hc) as (g2 & Eg2 & Em & Ed & Emo & Ent).
  assert (Z : gathered c n 2 = 0).
  { unfold gathered. apply sumR_zero. intros it _. change (vcomp 2 (node_vel cut12 (gr_dim g) g (gr_mom g) it)) with (vz (node_vel cut12 (gr_dim g) g (gr_mom g) it)).
    rewrite node_vel_z by congruence. ring. }
  rewrite Z. set (v := vcomp 2 _).
  assert (M0 : 0 <= pt_mass (pt_in (s_world st) c n)) by (apply (Mp c); [exact Hc|apply nth_In; lia]). apply Rmult_le_compat_l; [exact M0|].
  assert (0 <= v * v) by (apply (Rle_0_sqr v)). assert (so_alpha S * so_alpha S <= 1 * 1) by (apply Rmult_le_compat; lra).
  replace (((1 - so_alpha S) * 0 + so_alpha S * v) * ((1 - so_alpha S) * 0 + so_alpha S * v)) with (so_alpha S * so_alpha S * (v * v)) by ring.
  rewrite <- (Rmult_1_l (v * v)) at 2. apply Rmult_le_compat_r; lra.
Qed.
(** momentum of axis [b] carried by the velocity gathered along axis [a]: a nodal sum *)
Lemma cross_moment a b : (a < dim_nat (gd_dim gd))%nat -> (b < dim_nat (gd_dim gd))%nat ->
  sumR (fun c => sumR (fun n => pt_mass (pt_in (s_world st) c n) * (gathered c n a * vcomp b (pt_vel (pt_in (s_world st) c n)))) (seq 0 (length (pts_at (s_world st) (c_p c))))) (active_on S gi)
  = sumR (fun i => Uvel cut12 g (gr_mom g) a i * vcomp b (nth i (gr_mom g) vzero)) (if active_on S gi then [] else seq 0 N).
Proof.
  clear Mp. intros Ha Hb.
  assert (Dec : active_on S gi = [] \/ exists c0, In c0 (active_on S gi)) by (destruct (active_on S gi) as [|c0 l]; [left; reflexivity|right; exists c0; left; reflexivity]).
  destruct Dec as [Z|(c0 & Hc0)]; [rewrite Z; reflexivity|].
  replace (if active_on S gi then [] else seq 0 N) with (seq 0 N) by (destruct (active_on S gi); [contradiction|reflexivity]).
  destruct (free_grid c0 Hc0) as (g2 & Eg2 & Em & Ed & Emo & Ent).
  rewrite (sumR_ext _ (fun c => sumR (fun i => Uvel cut12 g (gr_mom g) a i * sumR (fun it => row_mass c it * vcomp b (pt_vel (pt_in (s_world st) c (it_point it))))
      (at_node (Z.of_nat i) (rows_of S (s_world st) c))) (seq 0 N))).
  - rewrite sumR_swap. apply sumR_ext. intros i Hi. apply in_seq in Hi. destruct (free_node_mom i b c0 Hc0 ltac:(lia) Hb) as (_ & ->). rewrite sumR_scal. reflexivity.
  - intros c Hc. destruct (active_rows _ _ _ _ _ _ E1 E2 Hin gi gd c Egd Hc) as (Ws & k & _ & Er & I). unfold gathered. rewrite Er.
    rewrite (sumR_ext _ (fun n => sumR (fun it => row_mass c it * vcomp b (pt_vel (pt_in (s_world st) c (it_point it))) * vcomp a (node_vel cut12 (gr_dim g) g (gr_mom g) it))
       (of_point n (compute_on k gd (map pt_pos (pts_at (s_world st) (c_p c))))))).
    2:{ intros n _. rewrite Rmult_comm, (Rmult_comm _ (vcomp b _)), Rmult_assoc, (Rmult_comm _ (pt_mass _)), <- Rmult_assoc, <- sumR_scal.
        apply sumR_ext. intros it Hit. apply in_of_point in Hit. destruct Hit as (_ & <-). unfold row_mass. ring. }
    rewrite <- (map_length pt_pos (pts_at (s_world st) (c_p c))) at 1. rewrite <- sum_by_point. rewrite sum_by_node by exact Ws.
    apply sumR_ext. intros i Hi. rewrite <- sumR_scal. apply sumR_ext. intros it Hit. apply in_at_node in Hit. destruct Hit as (Hit & Hh).
    rewrite node_vel_comp by (rewrite Ed; exact Ha). rewrite Hh, Nat2Z.id. ring.
Qed.
Lemma cross_symmetric a b : (a < dim_nat (gd_dim gd))%nat -> (b < dim_nat (gd_dim gd))%nat ->
  sumR (fun c => sumR (fun n => pt_mass (pt_in (s_world st) c n) * (gathered c n a * vcomp b (pt_vel (pt_in (s_world st) c n)))) (seq 0 (length (pts_at (s_world st) (c_p c))))) (active_on S gi)
  = sumR (fun c => sumR (fun n => pt_mass (pt_in (s_world st) c n) * (gathered c n b * vcomp a (pt_vel (pt_in (s_world st) c n)))) (seq 0 (length (pts_at (s_world st) (c_p c))))) (active_on S gi).
Proof.
  intros Ha Hb. rewrite !cross_moment by assumption. apply sumR_ext. intros i _. unfold Uvel. destruct (Rlt_dec cut12 (nth i (gr_mass g) 0)); [|ring].
  pose proof cut12_pos. field. lra.
Qed.
End Free.
