(** C119: normals of grid contact from mass gradients. *)
From Coq Require Import List Arith ZArith Reals Bool Lra Lia.
From Verif Require Import Num NumR Linalg Arrays ModelGrid ModelShape ModelMath ModelState ModelLaws ModelForces ModelSolver
  Sums ShapeFacts SpecShape ShapeProofs ShapeProofs2 ShapeProofs3 P_Shape MappingProofs ResFacts SolverFacts SpecSolver
  TransferProofs TransferProofs2 StepProofs GatherProofs MomentumProofs AffineProofs StepAffine HeavyProofs SolverMore ExSolver P_Solver
  ShiftProofs ForceProofs P_Forces ModelMassGrad.
Import ListNotations.
Local Open Scope R_scope.

(** masses given by a function of the node *)
Definition masses_are (g : GridDomain R) (mass : list R) (f : vec3 Z -> R) : Prop :=
  Z.of_nat (length mass) = num_cells g /\
  forall idx, node_in (gd_size g) idx -> nth (Z.to_nat (ravel (gd_size g) idx)) mass 0 = f idx.
Definition two_nodes (g : GridDomain R) : Prop :=
  (2 <= vx (gd_size g))%Z /\ (2 <= vy (gd_size g))%Z /\ match gd_dim g with D2 => vz (gd_size g) = 1%Z | D3 => (2 <= vz (gd_size g))%Z end.

Lemma unravel_ravel size idx : node_in size idx -> unravel size (ravel size idx) = idx.
Proof.
  destruct size as [a b c], idx as [i j k]. unfold node_in, unravel, ravel. cbn [vx vy vz]. intros (A & B & C). f_equal.
  - symmetry. apply (Z.div_unique _ _ i (j * c + k)); [left; nia|ring].
  - replace (((i * b + j) * c + k) / c)%Z with (i * b + j)%Z by (apply (Z.div_unique _ _ _ k); [left; lia|ring]).
    symmetry. apply (Z.mod_unique _ _ i); [left; lia|ring].
  - symmetry. apply (Z.mod_unique _ _ (i * b + j)%Z); [left; lia|ring].
Qed.
Lemma nth_zrange {A} (f : Z -> A) d n : forall a k, (k < n)%nat -> nth k (map f (zrange a n)) d = f (a + Z.of_nat k)%Z.
Proof.
  induction n as [|n IH]; intros a k Hk; [lia|]. destruct k as [|k]; cbn [zrange map nth].
  - f_equal. lia.
  - rewrite IH by lia. f_equal. lia.
Qed.
Lemma ravel_bound (g : GridDomain R) idx : two_nodes g -> node_in (gd_size g) idx -> (0 <= ravel (gd_size g) idx < num_cells g)%Z.
Proof.
  intros (A & B & C) (I & J & K). unfold ravel, num_cells. destruct (gd_size g) as [a b c], idx as [i j k]. cbn [vx vy vz] in *.
  destruct (gd_dim g); [subst c; nia|]. assert (0 <= i * b + j <= a * b - 1)%Z by nia. nia.
Qed.

(** the estimate at a node, for any masses: neighbour differences along each axis *)
Lemma gradient_at g mass f : two_nodes g -> masses_are g mass f ->
  exists l, compute_mass_gradient g mass = Ok l /\ length l = length mass /\
  forall idx, node_in (gd_size g) idx ->
    let v := nth (Z.to_nat (ravel (gd_size g) idx)) l vzero in
    vx v = gradient1 (vx (gd_size g)) (fun j => f (V3 j (vy idx) (vz idx))) (vx idx) /\
    vy v = gradient1 (vy (gd_size g)) (fun j => f (V3 (vx idx) j (vz idx))) (vy idx) /\
    vz v = match gd_dim g with D2 => 0 | D3 => gradient1 (vz (gd_size g)) (fun j => f (V3 (vx idx) (vy idx) j)) (vz idx) end.
Proof.
  intros W (Ln & Hf). pose proof W as (A & B & C). unfold compute_mass_gradient.
  rewrite (proj2 (Z.eqb_eq _ _) Ln). cbn [negb].
  replace ((vx (gd_size g) <? 2)%Z || (vy (gd_size g) <? 2)%Z || match gd_dim g with D2 => false | D3 => (vz (gd_size g) <? 2)%Z end) with false.
  2: { symmetry. rewrite !orb_false_iff. repeat split; try (apply Z.ltb_ge; lia). destruct (gd_dim g); [reflexivity|apply Z.ltb_ge; lia]. }
  eexists. split; [reflexivity|]. split.
  { rewrite map_length, zrange_length. lia. }
  intros idx Hi. pose proof (ravel_bound g idx W Hi) as Rb.
  rewrite nth_zrange by lia. rewrite Z.add_0_l, Z2Nat.id, unravel_ravel by (lia || exact Hi).
  cbv zeta. cbn [vx vy vz]. change (@n0 R Num_R) with 0.
  assert (G : forall n (f1 f2 : Z -> R) i, (2 <= n)%Z -> (0 <= i < n)%Z -> (forall j, (0 <= j < n)%Z -> f1 j = f2 j) -> gradient1 n f1 i = gradient1 n f2 i).
  { intros n f1 f2 i Hn Hi' E. unfold gradient1. destruct (i =? 0)%Z eqn:E0; [rewrite !E by lia; reflexivity|].
    apply Z.eqb_neq in E0. destruct (i =? n - 1)%Z eqn:E1; [apply Z.eqb_eq in E1; rewrite !E by lia; reflexivity|].
    apply Z.eqb_neq in E1. rewrite !E by lia. reflexivity. }
  destruct Hi as (I & J & K). split; [|split].
  - apply G; [exact A|exact I|]. intros j Hj. apply Hf. repeat split; cbn [vx vy vz]; lia.
  - apply G; [exact B|exact J|]. intros j Hj. apply Hf. repeat split; cbn [vx vy vz]; lia.
  - destruct (gd_dim g); [reflexivity|]. apply G; [exact C|exact K|]. intros j Hj. apply Hf. repeat split; cbn [vx vy vz]; lia.
Qed.

Lemma gradient1_affine n (a b : R) i : (2 <= n)%Z -> (0 <= i < n)%Z -> gradient1 n (fun j => a + IZR j * b) i = b.
Proof.
  intros Hn Hi. unfold gradient1. rnum. destruct (i =? 0)%Z; [|destruct (i =? n - 1)%Z]; rewrite ?minus_IZR, ?plus_IZR; field.
Qed.

(** C119 (what holds): on masses that vary affinely in space the estimate is the same at every node, borders included:
    the spatial gradient times the cell size. *)
Theorem C119_affine_partial : forall (g : GridDomain R) mass c (k : vec3 R), two_nodes g ->
  masses_are g mass (fun idx => c + vdot k (node_pos g idx)) ->
  exists l, compute_mass_gradient g mass = Ok l /\ length l = length mass /\
  forall idx, node_in (gd_size g) idx -> nth (Z.to_nat (ravel (gd_size g) idx)) l vzero = vscale (gd_cell g) (vtrunc (gd_dim g) k).
Proof.
  intros g mass c k W M. destruct (gradient_at g mass _ W M) as (l & E & Ln & G). exists l. split; [exact E|]. split; [exact Ln|].
  intros idx Hi. destruct (G idx Hi) as (X & Y & Z). destruct (nth _ l vzero) as [x y z]. cbn [vx vy vz] in X, Y, Z. subst x y z.
  destruct W as (A & B & C). destruct Hi as (I & J & K).
  assert (Q : forall n (f : Z -> R) a b i, (2 <= n)%Z -> (0 <= i < n)%Z -> (forall j, f j = a + IZR j * b) -> gradient1 n f i = b).
  { intros n f a b i Hn Hi' Ef. rewrite <- (gradient1_affine n a b i Hn Hi'). unfold gradient1. rewrite !Ef. reflexivity. }
  destruct k as [k0 k1 k2], idx as [i j m]. cbn [vx vy vz] in *. unfold vscale, vtrunc, vmap, node_pos, vdot. cbn [vx vy vz]. rnum.
  destruct (gd_dim g); cbn [vx vy vz]; f_equal.
  - erewrite (Q _ _ (c + (k0 * vx (gd_origin g) + k1 * (vy (gd_origin g) + IZR j * gd_cell g) + k2 * 0)) (k0 * gd_cell g)); [ring|exact A|exact I|intro; ring].
  - erewrite (Q _ _ (c + (k0 * (vx (gd_origin g) + IZR i * gd_cell g) + k1 * vy (gd_origin g) + k2 * 0)) (k1 * gd_cell g)); [ring|exact B|exact J|intro; ring].
  - ring.
  - erewrite (Q _ _ (c + (k0 * vx (gd_origin g) + k1 * (vy (gd_origin g) + IZR j * gd_cell g) + k2 * (vz (gd_origin g) + IZR m * gd_cell g))) (k0 * gd_cell g)); [ring|exact A|exact I|intro; ring].
  - erewrite (Q _ _ (c + (k0 * (vx (gd_origin g) + IZR i * gd_cell g) + k1 * vy (gd_origin g) + k2 * (vz (gd_origin g) + IZR m * gd_cell g))) (k1 * gd_cell g)); [ring|exact B|exact J|intro; ring].
  - erewrite (Q _ _ (c + (k0 * (vx (gd_origin g) + IZR i * gd_cell g) + k1 * (vy (gd_origin g) + IZR j * gd_cell g) + k2 * vz (gd_origin g))) (k2 * gd_cell g)); [ring|exact C|exact K|intro; ring].
Qed.
Print Assumptions C119_affine_partial.

(** FINDING: the comment promises (f(x+1) - f(x-1)) / 2dx, but no spacing is passed: unless the cells have size 1 the estimate
    is not the gradient of the masses. *)
Theorem C119_scale_refuted : forall (g : GridDomain R) mass c (k : vec3 R), two_nodes g -> gd_cell g <> 1 -> vtrunc (gd_dim g) k <> vzero ->
  masses_are g mass (fun idx => c + vdot k (node_pos g idx)) ->
  forall l idx, compute_mass_gradient g mass = Ok l -> node_in (gd_size g) idx ->
    nth (Z.to_nat (ravel (gd_size g) idx)) l vzero <> vtrunc (gd_dim g) k.
Proof.
  intros g mass c k W Hc Hk M l idx E Hi X. destruct (C119_affine_partial g mass c k W M) as (l' & E' & _ & G).
  rewrite E in E'. injection E' as <-. rewrite G in X by exact Hi. apply Hk. destruct (vtrunc (gd_dim g) k) as [x y z].
  unfold vscale, vmap in X. cbn [vx vy vz] in X. injection X as X Y Z. rnum.
  assert (Q : forall u, gd_cell g * u = u -> u = 0) by (intros u Hu; assert ((gd_cell g - 1) * u = 0) as P by lra; apply Rmult_integral in P; lra).
  rewrite (Q x X), (Q y Y), (Q z Z). reflexivity.
Qed.
Print Assumptions C119_scale_refuted.

(** The estimate is used as if it had length 1.  Against a rigid actor the receiver's approach velocity v_n is
    multiplied by 1 - |n|^2 instead of removed: with a short normal it keeps entering, with a long one it bounces. *)
Theorem C119_wall_partial : forall (pr : vec3 R) mr pa ma n dist, 0 < mr -> dist <= 1 / 10 ^ 6 -> contact_vn pr mr pa ma n < 0 ->
  let out := solve_node_collision true pr mr pa ma n dist in
  nspeed (vdivs (fst out) mr) (vdivs pa (ma + reg12)) n = (1 - vdot n n) * contact_vn pr mr pa ma n.
Proof.
  intros pr mr pa ma n dist Hr Hd Hv out. unfold out, solve_node_collision. change (@numt_num R NumT_R) with Num_R.
  rewrite reg12_lit. assert (L6 : lit 1 (10 ^ 6) = 1 / 10 ^ 6 :> R).
  { rnum. replace (10 ^ 6)%Z with 1000000%Z by reflexivity. replace (10 ^ 6) with 1000000 by ring. reflexivity. }
  rewrite L6. change (nleb dist (1 / 10 ^ 6)) with (Rleb dist (1 / 10 ^ 6)).
  change (nadd mr reg12) with (mr + reg12). change (nadd ma reg12) with (ma + reg12).
  change (vdot (vsub (vdivs pr (mr + reg12)) (vdivs pa (ma + reg12))) n) with (contact_vn pr mr pa ma n).
  set (vn := contact_vn pr mr pa ma n) in *. change (nltb vn n0) with (Rltb vn 0).
  replace (Rleb dist (1 / 10 ^ 6)) with true by (symmetry; rcase; [reflexivity|lra]).
  replace (Rltb vn 0) with true by (symmetry; rcase; [reflexivity|lra]). cbn [fst snd].
  assert (U : forall m (u : vec3 R), 0 < m -> vdivs (vscale m u) m = u) by (intros m u H; apply vcomp_eq; intro a; rewrite vcomp_divs, vcomp_scale; field; lra).
  rewrite (U mr _ Hr). unfold nspeed. rewrite !vdot_sub_l, vdot_scale_l.
  unfold vn, contact_vn, nspeed. rewrite vdot_sub_l. ring.
Qed.
Print Assumptions C119_wall_partial.
(** FINDING: so "v_n_new = 0 (Slide)" fails whenever the normal does not have length 1. *)
Theorem C119_wall_refuted : forall (pr : vec3 R) mr pa ma n dist, 0 < mr -> dist <= 1 / 10 ^ 6 -> contact_vn pr mr pa ma n < 0 -> vdot n n <> 1 ->
  nspeed (vdivs (fst (solve_node_collision true pr mr pa ma n dist)) mr) (vdivs pa (ma + reg12)) n <> 0.
Proof.
  intros pr mr pa ma n dist Hr Hd Hv Hn. pose proof (C119_wall_partial pr mr pa ma n dist Hr Hd Hv) as E. cbv zeta in E. rewrite E.
  intro Z. apply Rmult_integral in Z. destruct Z as [Z|Z]; [apply Hn; lra|lra].
Qed.
Print Assumptions C119_wall_refuted.

(** When it fails instead: the mass array must have one entry per node, and every axis two nodes or more. *)
Theorem C119_fails : forall (g : GridDomain R) mass,
  (Z.of_nat (length mass) <> num_cells g -> compute_mass_gradient g mass = Err TypeError) /\
  (Z.of_nat (length mass) = num_cells g -> (exists l, compute_mass_gradient g mass = Ok l) <->
     (2 <= vx (gd_size g))%Z /\ (2 <= vy (gd_size g))%Z /\ (gd_dim g = D3 -> (2 <= vz (gd_size g))%Z)).
Proof.
  intros g mass. unfold compute_mass_gradient. split.
  - intro N. rewrite (proj2 (Z.eqb_neq _ _) N). reflexivity.
  - intro E. rewrite (proj2 (Z.eqb_eq _ _) E). cbn [negb]. split.
    + intros (l & Hl). destruct (vx (gd_size g) <? 2)%Z eqn:A; [discriminate|]. destruct (vy (gd_size g) <? 2)%Z eqn:B; [discriminate|].
      apply Z.ltb_ge in A, B. split; [exact A|]. split; [exact B|]. intro D. rewrite D in Hl. cbn [orb] in Hl.
      destruct (vz (gd_size g) <? 2)%Z eqn:C; [discriminate|]. apply Z.ltb_ge in C. exact C.
    + intros (A & B & C). rewrite (proj2 (Z.ltb_ge _ _) A), (proj2 (Z.ltb_ge _ _) B). cbn [orb].
      destruct (gd_dim g); [eexists; reflexivity|]. rewrite (proj2 (Z.ltb_ge _ _) (C eq_refl)). eexists. reflexivity.
Qed.
Print Assumptions C119_fails.

(** three nodes by two, half a unit apart, mass growing along the first axis *)
Definition grid32 : GridDomain R := {| gd_dim := D2; gd_origin := vzero; gd_end := V3 1 (1/2) 0; gd_cell := 1/2; gd_inv := 2; gd_size := V3 3%Z 2%Z 1%Z; gd_padding := 0 |}.
Example C119_case : two_nodes grid32 /\ gd_cell grid32 <> 1 /\ vtrunc D2 (V3 2 0 0 : vec3 R) <> vzero /\
  masses_are grid32 [1; 1; 2; 2; 3; 3] (fun idx => 1 + vdot (V3 2 0 0) (node_pos grid32 idx)).
Proof.
  split; [unfold two_nodes; cbn; lia|]. split; [cbn; lra|]. split; [intro X; apply (f_equal vx) in X; cbn in X; rnum; lra|].
  split; [reflexivity|]. intros [i j k] (I & J & K). cbn [vx vy vz gd_size grid32] in *.
  assert (k = 0%Z) as -> by lia. assert (i = 0 \/ i = 1 \/ i = 2)%Z as [-> |[-> | ->]] by lia; assert (j = 0 \/ j = 1)%Z as [-> | ->] by lia;
    (match goal with |- nth ?k _ _ = _ => let k' := eval vm_compute in k in change k with k' end; cbn [nth];
     unfold vdot, node_pos; cbn [vx vy vz grid32 gd_dim gd_origin gd_cell vzero]; rnum; lra).
Qed.
(** a receiver entering against a normal of length 1/2 *)
Example C119_wall_case : 0 <= 1 / 10 ^ 6 /\ contact_vn (V3 (-1) 0 0) 1 vzero 0 (V3 (1/2) 0 0) < 0 /\ vdot (V3 (1/2) 0 0 : vec3 R) (V3 (1/2) 0 0) <> 1.
Proof.
  split; [lra|]. split; [|unfold vdot; cbn; rnum; lra].
  unfold contact_vn, nspeed, vdot, vsub, vdivs, vmap, vmap2. cbn. rnum. unfold reg12.
  assert (0 < / (1 + 1 / 10 ^ 12)) by (apply Rinv_0_lt_compat; lra). unfold Rdiv in *. lra.
Qed.
