(** Property theorems for the extent of the background grid (C145): nodes beyond the reach of the material change nothing. *)
From Coq Require Import List Arith ZArith Reals Bool Lra Lia.
From Verif Require Import Num NumR Linalg Arrays ModelGrid ModelShape ModelMath ModelState ModelLaws ModelForces ModelSDF ModelSolver
  Sums ShapeFacts SpecShape ShapeProofs ShapeProofs2 ShapeProofs3 ResFacts SolverFacts SpecSolver P_Shape ExSolver P_Solver P_Solver2 P_Shift.
Import ListNotations.
Local Open Scope R_scope.

(** *** the same mesh with more nodes around it: [m] extra nodes at the low ends, any number at the high ends *)
Definition enlarges_by (m : vec3 Z) (g g' : GridDomain R) : Prop :=
  gd_dim g' = gd_dim g /\ gd_cell g' = gd_cell g /\ gd_inv g' = gd_inv g /\ gd_origin g = vadd (gd_origin g') (cell_shift g m) /\
  (0 <= vx m /\ 0 <= vy m /\ 0 <= vz m)%Z /\ (gd_dim g = D2 -> vz m = 0%Z) /\
  (vx m + vx (gd_size g) <= vx (gd_size g') /\ vy m + vy (gd_size g) <= vy (gd_size g') /\ vz m + vz (gd_size g) <= vz (gd_size g'))%Z.
Definition enlarges (g g' : GridDomain R) : Prop := wf_grid g /\ wf_grid g' /\ exists m, enlarges_by m g g'.
Definition with_domains (S : Solver R) (ds : list (GridDomain R)) : Solver R :=
  {| so_scheme := so_scheme S; so_alpha := so_alpha S; so_domains := ds; so_couplings := so_couplings S;
     so_laws := so_laws S; so_forces := so_forces S; so_sdfs := so_sdfs S; so_sharp := so_sharp S |}.
(** the material of every coupling has its stencils within the grid it is coupled to *)
Definition fits (S : Solver R) (w : World R) : Prop := forall c b g, In c (so_couplings S) ->
  nth_error (w_mps w) (c_p c) = Some b -> nth_error (so_domains S) (c_g c) = Some g -> Forall (interior (c_kernel c) g) (body_positions b).

(** *** results related through a relation *)
Definition rrel {A B} (Q : A -> B -> Prop) (r : res A) (r' : res B) : Prop :=
  match r, r' with Ok a, Ok b => Q a b | Err e, Err e' => e' = e | _, _ => False end.
Lemma rrel_eq {A} (r r' : res A) : rrel (fun a b => b = a) r r' -> r' = r.
Proof. destruct r, r'; cbn; intros H; subst; try reflexivity; contradiction. Qed.
Lemma rrel_refl {A} (r : res A) : rrel (fun a b => b = a) r r.
Proof. now destruct r. Qed.
Lemma rrel_bind {A B C D} (Q : A -> B -> Prop) (Q' : C -> D -> Prop) r r' k k' :
  rrel Q r r' -> (forall a b, Q a b -> rrel Q' (k a) (k' b)) -> rrel Q' (rbind r k) (rbind r' k').
Proof. destruct r, r'; cbn; intros H G; try contradiction; auto. Qed.
Lemma rrel_same {A C D} (Q' : C -> D -> Prop) (r : res A) k k' : (forall a, rrel Q' (k a) (k' a)) -> rrel Q' (rbind r k) (rbind r k').
Proof. destruct r; cbn; intros G; auto. Qed.
Lemma rrel_fold {A S S'} (Q : S -> S' -> Prop) (f : S -> A -> res S) (f' : S' -> A -> res S') l :
  (forall s s' x, In x l -> Q s s' -> rrel Q (f s x) (f' s' x)) -> forall s s', Q s s' -> rrel Q (rfold f s l) (rfold f' s' l).
Proof.
  induction l as [|x l IH]; intros H s s' G; cbn; [exact G|]. apply (rrel_bind Q); [apply H; [now left|exact G]|].
  intros a b Gab. apply IH; [|exact Gab]. intros; apply H; [now right|assumption].
Qed.
(** lists related position by position *)
Definition irel {A B} (Q : nat -> A -> B -> Prop) (l : list A) (l' : list B) : Prop :=
  length l' = length l /\ forall i a b, nth_error l i = Some a -> nth_error l' i = Some b -> Q i a b.
Lemma irel_idx {A B} (Q : nat -> A -> B -> Prop) l l' i : irel Q l l' -> rrel (Q i) (idx l i) (idx l' i).
Proof.
  intros (L & H). unfold idx. specialize (H i). destruct (nth_error l i) as [a|] eqn:E, (nth_error l' i) as [b|] eqn:E'; cbn.
  - apply H; reflexivity.
  - apply nth_error_None in E'. assert (i < length l)%nat by (apply nth_error_Some; congruence). lia.
  - apply nth_error_None in E. assert (i < length l')%nat by (apply nth_error_Some; congruence). lia.
  - reflexivity.
Qed.
Lemma irel_nth {A B} (Q : nat -> A -> B -> Prop) l l' i e : irel Q l l' -> rrel (Q i) (oget (nth_error l i) e) (oget (nth_error l' i) e).
Proof.
  intros H. pose proof (irel_idx Q l l' i H) as G. unfold idx in G. destruct (nth_error l i), (nth_error l' i); cbn in *; auto; contradiction.
Qed.
Lemma set_nth_length {A} i (v : A) l : length (set_nth i v l) = length l.
Proof. unfold set_nth. revert i. induction l as [|x l IH]; intros [|i]; cbn; auto. Qed.
Lemma nth_set_nth {A} i (v : A) l j : nth_error (set_nth i v l) j = if (Nat.eqb i j && Nat.ltb i (length l))%bool then Some v else nth_error l j.
Proof.
  unfold set_nth. revert i j. induction l as [|x l IH]; intros [|i] [|j]; cbn; try reflexivity.
  - now rewrite andb_false_r.
  - rewrite IH. reflexivity.
Qed.
Lemma irel_upd {A B} (Q : nat -> A -> B -> Prop) l l' i f f' : irel Q l l' -> (forall a b, Q i a b -> rrel (Q i) (f a) (f' b)) ->
  rrel (irel Q) (upd_idx l i f) (upd_idx l' i f').
Proof.
  intros H G. unfold upd_idx. apply (rrel_bind (Q i)); [now apply irel_idx|]. intros a b Hab. apply (rrel_bind (Q i)); [now apply G|]. intros y y' Hy. cbn.
  destruct H as (L & H). split; [now rewrite !set_nth_length|]. intros j u u'. rewrite !nth_set_nth, L. destruct (Nat.eqb i j) eqn:E; cbn [andb]; [|apply H].
  apply Nat.eqb_eq in E. subst j. destruct (Nat.ltb i (length l)); [|apply H]. intros [= <-] [= <-]. exact Hy.
Qed.

(** *** arrays over the nodes of the small grid inside arrays over the nodes of the large one *)
Section Emb.
Variable P : nat -> nat.
Variable n : nat.
Hypothesis inj : forall h k, (h < n)%nat -> (k < n)%nat -> P h = P k -> h = k.
Definition emb {A} (l l' : list A) : Prop := length l = n /\ forall h, (h < n)%nat -> nth_error l' (P h) = nth_error l h.

Lemma emb_nth {A} (l l' : list A) h d : emb l l' -> (h < n)%nat -> nth (P h) l' d = nth h l d.
Proof.
  intros (L & H) Hh. pose proof (H h Hh) as E. destruct (nth_error l h) as [a|] eqn:E2; [|apply nth_error_None in E2; lia].
  now rewrite (nth_error_nth _ _ d E), (nth_error_nth _ _ d E2).
Qed.
Lemma emb_map {A B} (f : A -> B) l l' : emb l l' -> emb (map f l) (map f l').
Proof. intros (L & H). split; [now rewrite map_length|]. intros h Hh. now rewrite !nth_error_map, H. Qed.
Lemma nth_combine {A B} (l : list A) (m : list B) h :
  nth_error (combine l m) h = match nth_error l h, nth_error m h with Some a, Some b => Some (a, b) | _, _ => None end.
Proof. revert m h. induction l as [|x l IH]; intros [|y m] [|h]; cbn; try reflexivity; try (now destruct (nth_error _ _)). apply IH. Qed.
Lemma emb_combine {A B} (l l' : list A) (m m' : list B) : emb l l' -> emb m m' -> emb (combine l m) (combine l' m').
Proof. intros (L & H) (M & G). split; [rewrite combine_length; lia|]. intros h Hh. now rewrite !nth_combine, H, G. Qed.
Lemma nth_upd {A} (f : A -> A) i l h : nth_error (upd_at f i l) h = if Nat.eqb i h then option_map f (nth_error l h) else nth_error l h.
Proof.
  revert i h. induction l as [|x l IH]; intros [|i] [|h]; cbn; try reflexivity; try apply IH. now destruct (Nat.eqb i h).
Qed.
Lemma emb_scatter {A} (add : A -> A -> A) l l' us us' : emb l l' ->
  Forall2 (fun u u' => (fst u < n)%nat /\ fst u' = P (fst u) /\ snd u' = snd u) us us' -> emb (scatter_add add l us) (scatter_add add l' us').
Proof.
  intros E F. revert l l' E. induction F as [|u u' us us' (Hu & Hu1 & Hu2) F IH]; intros l l' E; [exact E|]. unfold scatter_add in *. cbn [fold_left]. apply IH.
  destruct E as (L & H). split; [rewrite <- L; clear; generalize (fst u); induction l as [|x l IH]; intros [|i]; cbn; auto|].
  intros h Hh. rewrite !nth_upd, Hu1, Hu2, (H h Hh). destruct (Nat.eqb (fst u) h) eqn:X.
  - apply Nat.eqb_eq in X. subst h. now rewrite Nat.eqb_refl.
  - destruct (Nat.eqb (P (fst u)) (P h)) eqn:Y; [|reflexivity]. apply Nat.eqb_eq in Y. apply inj in Y; [|exact Hu|exact Hh]. apply Nat.eqb_neq in X. congruence.
Qed.

Definition node (it : Interaction R) : nat := Z.to_nat (it_hash it).
Definition row_rel (a b : Interaction R) : Prop :=
  it_point b = it_point a /\ it_val b = it_val a /\ it_grad b = it_grad a /\ it_dist b = it_dist a /\ it_mask b = it_mask a /\
  (node a < n)%nat /\ node b = P (node a).
Definition grid_rel (g g' : Grid R) : Prop :=
  gr_dim g' = gr_dim g /\ emb (gr_mass g) (gr_mass g') /\ emb (gr_mom g) (gr_mom g') /\ emb (gr_mom_nt g) (gr_mom_nt g') /\ emb (gr_force g) (gr_force g').

Lemma forall2_map {A A' B B'} (Q : A -> A' -> Prop) (Q' : B -> B' -> Prop) f f' l l' : Forall2 Q l l' -> (forall a b, Q a b -> Q' (f a) (f' b)) -> Forall2 Q' (map f l) (map f' l').
Proof. intros F H. induction F; cbn; constructor; auto. Qed.
Lemma p2g_rel it it' pts vel vel' g g' : Forall2 row_rel it it' -> (forall a b, row_rel a b -> vel' b = vel a) -> grid_rel g g' ->
  grid_rel (p2g_with it pts vel g) (p2g_with it' pts vel' g').
Proof.
  intros F V (D & M & Mo & Mn & Fo). unfold p2g_with, grid_rel. cbn [gr_dim gr_mass gr_mom gr_mom_nt gr_force].
  assert (K : forall a b, row_rel a b -> point_of pts b = point_of pts a /\ eff b = eff a /\ p2g_force (gr_dim g') pts b = p2g_force (gr_dim g) pts a).
  { intros a b (R1 & R2 & R3 & R4 & R5 & R6 & R7). assert (Pt : point_of pts b = point_of pts a) by (unfold point_of; now rewrite R1).
    assert (Ef : eff b = eff a) by (unfold eff; now rewrite R2, R5). repeat split; try assumption. unfold p2g_force. cbv zeta. now rewrite Pt, Ef, D, R3, R5. }
  split; [exact D|]. split; [|split; [|split; [exact Mn|]]].
  - apply emb_scatter; [exact M|]. apply (forall2_map row_rel); [exact F|]. intros a b H. destruct (K a b H) as (K1 & K2 & _). destruct H as (_ & _ & _ & _ & _ & H6 & H7).
    unfold on_node. cbn [fst snd]. split; [exact H6|]. split; [exact H7|]. now rewrite K1, K2.
  - apply emb_scatter; [exact Mo|]. apply (forall2_map row_rel); [exact F|]. intros a b H. destruct (K a b H) as (K1 & K2 & _). pose proof (V a b H) as HV. destruct H as (_ & _ & _ & _ & _ & H6 & H7).
    unfold on_node. cbn [fst snd]. split; [exact H6|]. split; [exact H7|]. now rewrite K1, K2, HV.
  - apply emb_scatter; [now apply emb_map|]. apply (forall2_map row_rel); [exact F|]. intros a b H. destruct (K a b H) as (_ & _ & K3). destruct H as (_ & _ & _ & _ & _ & H6 & H7).
    unfold on_node. cbn [fst snd]. split; [exact H6|]. split; [exact H7|exact K3].
Qed.
Lemma affine_rel cell d Bp a b : row_rel a b -> affine_vel cell d Bp b = affine_vel cell d Bp a.
Proof. intros (R1 & _ & _ & R4 & _). unfold affine_vel. now rewrite R1, R4. Qed.
Lemma integrate_rel dt g g' : grid_rel g g' -> grid_rel (integrate1 dt g) (integrate1 dt g').
Proof.
  intros (D & M & Mo & Mn & Fo). unfold integrate1, grid_rel, set_mom_nt. cbn [gr_dim gr_mass gr_mom gr_mom_nt gr_force]. repeat (split; [assumption|]).
  split; [|exact Fo]. apply emb_map, emb_combine; assumption.
Qed.
Lemma gravity_rel v g g' : grid_rel g g' -> grid_rel (gravity_grid v g) (gravity_grid v g').
Proof.
  intros (D & M & Mo & Mn & Fo). unfold gravity_grid, grid_rel, set_force. cbn [gr_dim gr_mass gr_mom gr_mom_nt gr_force]. repeat (split; [assumption|]).
  apply emb_map, emb_combine; assumption.
Qed.
Lemma damping_rel a g g' : grid_rel g g' -> grid_rel (damping_grid a g) (damping_grid a g').
Proof.
  intros (D & M & Mo & Mn & Fo). unfold damping_grid, grid_rel, set_force. cbn [gr_dim gr_mass gr_mom gr_mom_nt gr_force]. repeat (split; [assumption|]).
  apply emb_map, emb_combine; [apply emb_combine|]; assumption.
Qed.
Lemma collider_rel c dt ge ge' g g' : emb ge ge' -> grid_rel g g' -> grid_rel (collider_grid c dt ge g) (collider_grid c dt ge' g').
Proof.
  intros G (D & M & Mo & Mn & Fo). unfold collider_grid, grid_rel, set_mom_nt. cbn [gr_dim gr_mass gr_mom gr_mom_nt gr_force]. repeat (split; [assumption|]).
  split; [|exact Fo]. apply emb_map, emb_combine; [apply emb_combine|]; assumption.
Qed.
Lemma node_vel_rel cut d g g' mom mom' a b : row_rel a b -> emb (gr_mass g) (gr_mass g') -> emb mom mom' -> node_vel cut d g' mom' b = node_vel cut d g mom a.
Proof.
  intros (_ & _ & _ & _ & _ & R6 & R7) M Mo. unfold node_vel. cbv zeta. fold (node b). fold (node a). rewrite R7, (emb_nth _ _ _ _ M R6), (emb_nth _ _ _ _ Mo R6). reflexivity.
Qed.
Lemma to_points_rel {A} (z : A) add k it it' f f' : Forall2 row_rel it it' -> (forall a b, row_rel a b -> f' b = f a) -> to_points z add k it' f' = to_points z add k it f.
Proof.
  intros F H. unfold to_points. f_equal. induction F as [|a b l l' Hab F IH]; cbn; [reflexivity|]. rewrite IH, (H a b Hab). destruct Hab as (-> & _). reflexivity.
Qed.
Lemma blend_rel geos pts a b v : row_rel a b -> blend geos pts b v = blend geos pts a v.
Proof. intros (R1 & _ & _ & _ & R5 & _). unfold blend, ghost_of, point_of. now rewrite R1, R5. Qed.
Lemma g2p_usl_rel alpha dt geos it it' g g' pts : Forall2 row_rel it it' -> grid_rel g g' -> g2p_usl alpha dt geos it' g' pts = g2p_usl alpha dt geos it g pts.
Proof.
  intros F (D & M & Mo & Mn & Fo). unfold g2p_usl. cbv zeta. rewrite D.
  set (v := fun it0 => blend geos pts it0 (node_vel (lit 1 (10 ^ 12)) (gr_dim g) g (gr_mom g) it0)).
  set (u := fun it0 => blend geos pts it0 (node_vel (lit 1 (10 ^ 12)) (gr_dim g) g (gr_mom_nt g) it0)).
  set (v' := fun it0 => blend geos pts it0 (node_vel (lit 1 (10 ^ 12)) (gr_dim g) g' (gr_mom g') it0)).
  set (u' := fun it0 => blend geos pts it0 (node_vel (lit 1 (10 ^ 12)) (gr_dim g) g' (gr_mom_nt g') it0)).
  assert (Ev : forall a b, row_rel a b -> v' b = v a) by (intros a b H; unfold v', v; now rewrite (blend_rel _ _ a b _ H), (node_vel_rel _ _ g g' (gr_mom g) (gr_mom g') a b H M Mo)).
  assert (Eu : forall a b, row_rel a b -> u' b = u a) by (intros a b H; unfold u', u; now rewrite (blend_rel _ _ a b _ H), (node_vel_rel _ _ g g' (gr_mom_nt g) (gr_mom_nt g') a b H M Mn)).
  rewrite (to_points_rel vzero vadd _ it it' (fun i => vscale (it_val i) (vsub (u i) (v i))) (fun i => vscale (it_val i) (vsub (u' i) (v' i))) F)
    by (intros a b H; rewrite (Eu a b H), (Ev a b H); destruct H as (_ & -> & _); reflexivity).
  rewrite (to_points_rel vzero vadd _ it it' (fun i => vscale (it_val i) (u i)) (fun i => vscale (it_val i) (u' i)) F)
    by (intros a b H; rewrite (Eu a b H); destruct H as (_ & -> & _); reflexivity).
  rewrite (to_points_rel mzero madd _ it it' (fun i => outer (it_grad i) (vopp (u i))) (fun i => outer (it_grad i) (vopp (u' i))) F)
    by (intros a b H; rewrite (Eu a b H); destruct H as (_ & _ & -> & _); reflexivity).
  reflexivity.
Qed.
Lemma g2p_aflip_rel a alpha dt gd gd' sF it it' g g' pts : gd_cell gd' = gd_cell gd -> Forall2 row_rel it it' -> grid_rel g g' ->
  g2p_aflip a alpha dt gd' sF it' g' pts = g2p_aflip a alpha dt gd sF it g pts.
Proof.
  intros C F (D & M & Mo & Mn & Fo). unfold g2p_aflip. cbv zeta. rewrite D, C.
  set (v := fun it0 => node_vel (af_cutoff a) (gr_dim g) g (gr_mom g) it0). set (u := fun it0 => node_vel (af_cutoff a) (gr_dim g) g (gr_mom_nt g) it0).
  set (v' := fun it0 => node_vel (af_cutoff a) (gr_dim g) g' (gr_mom g') it0). set (u' := fun it0 => node_vel (af_cutoff a) (gr_dim g) g' (gr_mom_nt g') it0).
  assert (Ev : forall p q, row_rel p q -> v' q = v p) by (intros p q H; apply node_vel_rel; assumption).
  assert (Eu : forall p q, row_rel p q -> u' q = u p) by (intros p q H; apply node_vel_rel; assumption).
  rewrite (to_points_rel vzero vadd _ it it' (fun i => vscale (it_val i) (v i)) (fun i => vscale (it_val i) (v' i)) F)
    by (intros p q H; rewrite (Ev p q H); destruct H as (_ & -> & _); reflexivity).
  rewrite (to_points_rel vzero vadd _ it it' (fun i => vscale (it_val i) (u i)) (fun i => vscale (it_val i) (u' i)) F)
    by (intros p q H; rewrite (Eu p q H); destruct H as (_ & -> & _); reflexivity).
  rewrite (to_points_rel mzero madd _ it it' (fun i => mopp (outer (u i) (it_grad i))) (fun i => mopp (outer (u' i) (it_grad i))) F)
    by (intros p q H; rewrite (Eu p q H); destruct H as (_ & _ & -> & _); reflexivity).
  rewrite (to_points_rel n0 nadd _ it it' (fun i => (it_val i * nth (Z.to_nat (it_hash i)) (gr_mass g) n0)%num) (fun i => (it_val i * nth (Z.to_nat (it_hash i)) (gr_mass g') n0)%num) F)
    by (intros p q (_ & -> & _ & _ & _ & R6 & R7); fold (node q); fold (node p); now rewrite R7, (emb_nth _ _ _ _ M R6)).
  reflexivity.
Qed.
End Emb.

(** *** the node of the large grid at the place of a node of the small one *)
Definition zadd3 (a b : vec3 Z) : vec3 Z := V3 (vx a + vx b)%Z (vy a + vy b)%Z (vz a + vz b)%Z.
Definition place (m : vec3 Z) (g g' : GridDomain R) (h : nat) : nat := Z.to_nat (ravel (gd_size g') (zadd3 m (ShapeProofs.unravel (gd_size g) (Z.of_nat h)))).
Definition cells (g : GridDomain R) : nat := Z.to_nat (num_cells g).
Section Place.
Variables (m : vec3 Z) (g g' : GridDomain R).
Hypothesis W : wf_grid g.
Hypothesis W' : wf_grid g'.
Hypothesis E : enlarges_by m g g'.

Lemma inner_in i : node_in (gd_size g) i -> node_in (gd_size g') (zadd3 m i).
Proof. destruct E as (_ & _ & _ & _ & ? & _ & ?). unfold node_in, zadd3; cbn [vx vy vz]. lia. Qed.
Lemma unravel_cells h : (h < cells g)%nat -> node_in (gd_size g) (ShapeProofs.unravel (gd_size g) (Z.of_nat h)) /\ ravel (gd_size g) (ShapeProofs.unravel (gd_size g) (Z.of_nat h)) = Z.of_nat h.
Proof.
  intros H. destruct W as (Ws & _). pose proof (wf_z g Ws). unfold cells in H. rewrite (num_cells_prod g Ws) in H. destruct Ws as (? & ? & _). apply ravel_unravel; try assumption. lia.
Qed.
Lemma place_ravel i : node_in (gd_size g) i -> place m g g' (Z.to_nat (ravel (gd_size g) i)) = Z.to_nat (ravel (gd_size g') (zadd3 m i)) /\ (Z.to_nat (ravel (gd_size g) i) < cells g)%nat.
Proof.
  intros H. pose proof (ravel_range _ _ H) as R0. destruct W as (Ws & _).
  assert (C : (Z.to_nat (ravel (gd_size g) i) < cells g)%nat) by (unfold cells; rewrite (num_cells_prod g Ws); lia).
  split; [|exact C]. unfold place. destruct (unravel_cells _ C) as (N1 & N2). rewrite Z2Nat.id in * by lia.
  apply ravel_inj in N2; [|exact N1|exact H]. now rewrite N2.
Qed.
Lemma place_inj h k : (h < cells g)%nat -> (k < cells g)%nat -> place m g g' h = place m g g' k -> h = k.
Proof.
  intros Hh Hk Q. destruct (unravel_cells h Hh) as (N1 & N2). destruct (unravel_cells k Hk) as (N3 & N4). unfold place in Q.
  pose proof (inner_in _ N1) as I1. pose proof (inner_in _ N3) as I3. pose proof (ravel_range _ _ I1). pose proof (ravel_range _ _ I3).
  assert (Q2 : ravel (gd_size g') (zadd3 m (ShapeProofs.unravel (gd_size g) (Z.of_nat h))) = ravel (gd_size g') (zadd3 m (ShapeProofs.unravel (gd_size g) (Z.of_nat k)))) by lia.
  apply ravel_inj in Q2; [|exact I1|exact I3]. assert (Q3 : ShapeProofs.unravel (gd_size g) (Z.of_nat h) = ShapeProofs.unravel (gd_size g) (Z.of_nat k)).
  { revert Q2. generalize (ShapeProofs.unravel (gd_size g) (Z.of_nat h)) (ShapeProofs.unravel (gd_size g) (Z.of_nat k)). intros [a1 a2 a3] [b1 b2 b3] Q2. unfold zadd3 in Q2. cbn [vx vy vz] in Q2. injection Q2 as A B C. apply vec3_eq; cbn [vx vy vz]; lia. }
  rewrite Q3 in N2. lia.
Qed.
Lemma place_cells h : (h < cells g)%nat -> (place m g g' h < cells g')%nat.
Proof.
  intros Hh. destruct (unravel_cells h Hh) as (N1 & _). pose proof (ravel_range _ _ (inner_in _ N1)) as R0. destruct W' as (Ws & _). unfold place, cells. rewrite (num_cells_prod g' Ws). lia.
Qed.
Lemma repeat_emb {A} (a : A) : emb (place m g g') (cells g) (repeat a (cells g)) (repeat a (cells g')).
Proof.
  split; [apply repeat_length|]. intros h Hh. rewrite !nth_error_repeat; [reflexivity|exact Hh|now apply place_cells].
Qed.
Lemma new_rel : grid_rel (place m g g') (cells g) (grid_new g) (grid_new g').
Proof.
  unfold grid_new, grid_rel. cbv zeta. cbn [gr_dim gr_mass gr_mom gr_mom_nt gr_force]. split; [apply E|]. repeat split; try apply repeat_length.
  all: intros h Hh; apply repeat_emb; exact Hh.
Qed.
Lemma positions_emb : emb (place m g g') (cells g) (position_stack g) (position_stack g').
Proof.
  destruct W as (Ws & _). destruct W' as (Ws' & _).
  assert (L : length (position_stack g) = cells g) by (unfold cells; rewrite <- (position_stack_length g Ws); lia).
  assert (L' : length (position_stack g') = cells g') by (unfold cells; rewrite <- (position_stack_length g' Ws'); lia).
  split; [exact L|]. intros h Hh. pose proof (place_cells h Hh) as Hp.
  rewrite (nth_error_nth' _ vzero) by lia. rewrite (nth_error_nth' _ vzero) by lia. f_equal.
  destruct (unravel_cells h Hh) as (N1 & N2). set (i := ShapeProofs.unravel (gd_size g) (Z.of_nat h)) in *. replace h with (Z.to_nat (ravel (gd_size g) i)) at 2 by lia.
  unfold place. fold i. rewrite (position_stack_nth g' (zadd3 m i) vzero Ws' (inner_in _ N1)), (position_stack_nth g i vzero Ws N1).
  destruct E as (D & C & _ & O & _ & _). unfold mesh_pos. rewrite D, C, O. unfold cell_shift, vadd, vmap2, zadd3. destruct (gd_dim g); apply vec3_eq; cbn; rnum; rewrite ?plus_IZR; ring.
Qed.
Lemma rows_rel k xs : Forall (interior k g) xs -> Forall2 (row_rel (place m g g') (cells g)) (compute_on k g xs) (compute_on k g' xs).
Proof.
  intros I. pose proof E as (D & C & V & O & M & MZ & B). unfold compute_on, compute. cbv zeta. rewrite D. 
  assert (G : forall l, (forall i, In i l -> (i < length xs * window_size k (gd_dim g))%nat) ->
    Forall2 (row_rel (place m g g') (cells g))
      (map (fun i => single_interaction k (gd_dim g) (gd_origin g) (gd_size g) (gd_inv g) (nth (i / window_size k (gd_dim g)) xs vzero) (nth (i mod window_size k (gd_dim g)) (stencil k (gd_dim g)) (V3 0%Z 0%Z 0%Z)) (i / window_size k (gd_dim g)) (i mod window_size k (gd_dim g))) l)
      (map (fun i => single_interaction k (gd_dim g) (gd_origin g') (gd_size g') (gd_inv g') (nth (i / window_size k (gd_dim g)) xs vzero) (nth (i mod window_size k (gd_dim g)) (stencil k (gd_dim g)) (V3 0%Z 0%Z 0%Z)) (i / window_size k (gd_dim g)) (i mod window_size k (gd_dim g))) l)).
  { induction l as [|i l IH]; intros Hl; cbn [map]; constructor; [|apply IH; intros; apply Hl; now right].
    assert (Hi : (i < length xs * window_size k (gd_dim g))%nat) by (apply Hl; now left).
    assert (Ww : window_size k (gd_dim g) <> 0%nat) by (intros Z0; rewrite Z0 in Hi; lia).
    set (p := (i / window_size k (gd_dim g))%nat). set (s := (i mod window_size k (gd_dim g))%nat). set (x := nth p xs vzero). set (off := nth s (stencil k (gd_dim g)) (V3 0%Z 0%Z 0%Z)).
    assert (Ix : interior k g x). { rewrite Forall_forall in I. apply I, nth_In. apply Nat.div_lt_upper_bound; [exact Ww|]. lia. }
    assert (Io : In off (stencil k (gd_dim g))). { apply nth_In. pose proof (Nat.mod_upper_bound i _ Ww) as Q. exact Q. }
    destruct W as (Ws & Hc & Hv).
    pose proof (interior_valid k g x off Ws Ix Io) as N1.
    assert (BP : base_pos (gd_dim g) (gd_origin g') (gd_inv g') x = V3 (vx (bpos g x) + IZR (vx m)) (vy (bpos g x) + IZR (vy m)) (vz (bpos g x) + IZR (vz m))).
    { unfold bpos, base_pos. rewrite V, O, Hv. unfold cell_shift, vadd, vmap2. destruct (gd_dim g); apply vec3_eq; cbn; rnum; try (field; lra). rewrite MZ by reflexivity. ring. }
    assert (NI : node_idx k (gd_dim g) (base_pos (gd_dim g) (gd_origin g') (gd_inv g') x) off = zadd3 m (node_idx k (gd_dim g) (bpos g x) off)).
    { rewrite BP. unfold node_idx, zadd3. cbn [vx vy vz]. rewrite !base_shift. destruct (gd_dim g); apply vec3_eq; cbn [vx vy vz]; try lia. rewrite MZ by reflexivity. lia. }
    assert (DV : dist_vec (gd_dim g) (base_pos (gd_dim g) (gd_origin g') (gd_inv g') x) (zadd3 m (node_idx k (gd_dim g) (bpos g x) off)) = dist_vec (gd_dim g) (bpos g x) (node_idx k (gd_dim g) (bpos g x) off)).
    { rewrite BP. unfold dist_vec, zadd3. cbn [vx vy vz]. destruct (gd_dim g); apply vec3_eq; cbn [vx vy vz]; rnum; rewrite ?plus_IZR; ring. }
    unfold row_rel, single_interaction. cbv zeta. cbn [it_point it_val it_grad it_dist it_mask it_hash node]. rewrite NI, DV.
    change (base_pos (gd_dim g) (gd_origin g) (gd_inv g) x) with (bpos g x).
    rewrite (proj2 (idx_valid_iff _ _) N1), (proj2 (idx_valid_iff _ _) (inner_in _ N1)), V.
    unfold node. cbn [it_hash]. rewrite (ravel_clip_valid _ _ N1), (ravel_clip_valid _ _ (inner_in _ N1)). destruct (place_ravel _ N1) as (Q1 & Q2).
    repeat split; [exact Q2|symmetry; exact Q1]. }
  apply G. intros i Hi. apply in_seq in Hi. lia.
Qed.
End Place.

(** *** the parts of a step *)
Section Setup.
Variable S : Solver R.
Variable ds : list (GridDomain R).
Variable mm : nat -> vec3 Z.
Hypothesis HM : irel (fun i g g' => wf_grid g /\ wf_grid g' /\ enlarges_by (mm i) g g') (so_domains S) ds.
Notation S' := (with_domains S ds).
Let P (i h : nat) : nat := match nth_error (so_domains S) i, nth_error ds i with Some g, Some g' => place (mm i) g g' h | _, _ => h end.
Let N (i : nat) : nat := match nth_error (so_domains S) i with Some g => cells g | None => 0%nat end.

Lemma inj_all i h k : (h < N i)%nat -> (k < N i)%nat -> P i h = P i k -> h = k.
Proof.
  unfold P, N. destruct HM as (_ & H). specialize (H i). destruct (nth_error (so_domains S) i) as [g|]; [|lia]. destruct (nth_error ds i) as [g'|]; [|auto].
  destruct (H g g' eq_refl eq_refl) as (W & W' & E). now apply place_inj.
Qed.
Definition rows_at (i : nat) := row_rel (P i) (N i).
Definition grids_rel := irel (fun i => grid_rel (P i) (N i)).
Definition dict_rel : list ((nat * nat) * list (Interaction R)) -> list ((nat * nat) * list (Interaction R)) -> Prop :=
  Forall2 (fun x y => fst y = fst x /\ Forall2 (rows_at (snd (fst x))) (snd x) (snd y)).
Lemma dict_get_rel d d' k : dict_rel d d' -> rrel (Forall2 (rows_at (snd k))) (dict_get k d) (dict_get k d').
Proof.
  intros F. induction F as [|[k1 v1] [k2 v2] l l' (E & H) F IH]; [reflexivity|]. cbn in E. subst k2. cbn [dict_get]. destruct (key_eqb k k1) eqn:Q; [|exact IH].
  unfold key_eqb in Q. apply andb_prop in Q. destruct Q as (_ & Q). apply Nat.eqb_eq in Q. cbn [rrel]. cbn [fst snd] in H. now rewrite Q.
Qed.
Lemma dict_set_rel d d' k v v' : dict_rel d d' -> Forall2 (rows_at (snd k)) v v' -> dict_rel (dict_set k v d) (dict_set k v' d').
Proof.
  intros F V. induction F as [|[k1 v1] [k2 v2] l l' (E & H) F IH]; [constructor; [split; [reflexivity|exact V]|constructor]|]. cbn in E. subst k2. cbn [dict_set].
  destruct (key_eqb k k1); constructor; try assumption; split; try reflexivity; assumption.
Qed.
Lemma dom_nth i g g' : nth_error (so_domains S) i = Some g -> nth_error ds i = Some g' -> wf_grid g /\ wf_grid g' /\ enlarges_by (mm i) g g' /\
  (forall h, P i h = place (mm i) g g' h) /\ N i = cells g.
Proof. intros A B. destruct HM as (_ & H). destruct (H i g g' A B) as (W & W' & E). split; [exact W|]. split; [exact W'|]. split; [exact E|]. split; unfold P, N; rewrite ?A, ?B; reflexivity. Qed.
Lemma idx_nth {A} (l : list A) i a : idx l i = Ok a -> nth_error l i = Some a.
Proof. apply idx_ok. Qed.
Lemma rrel_idx {A B C D} (Q : nat -> A -> B -> Prop) (Q' : C -> D -> Prop) l l' i k k' : irel Q l l' ->
  (forall a b, nth_error l i = Some a -> nth_error l' i = Some b -> Q i a b -> rrel Q' (k a) (k' b)) -> rrel Q' (rbind (idx l i) k) (rbind (idx l' i) k').
Proof.
  intros H G. pose proof (irel_idx Q l l' i H) as R0. destruct (idx l i) as [a|] eqn:E1, (idx l' i) as [b|] eqn:E2; cbn in *; try contradiction; [|assumption].
  apply G; [now apply idx_nth|now apply idx_nth|assumption].
Qed.
Lemma row_eq i g g' a b : nth_error (so_domains S) i = Some g -> nth_error ds i = Some g' -> row_rel (place (mm i) g g') (cells g) a b -> rows_at i a b.
Proof. intros A B H. unfold rows_at. destruct (dom_nth i g g' A B) as (_ & _ & _ & HP & HN). unfold row_rel in *. now rewrite HP, HN. Qed.
Lemma emb_eq {A} i g g' (l l' : list A) : nth_error (so_domains S) i = Some g -> nth_error ds i = Some g' -> emb (place (mm i) g g') (cells g) l l' -> emb (P i) (N i) l l'.
Proof. intros Q B (L & H). destruct (dom_nth i g g' Q B) as (_ & _ & _ & HP & HN). split; [now rewrite HN|]. intros h Hh. rewrite HN in Hh. rewrite HP. now apply H. Qed.

Lemma connectivity_rel w : fits S w -> rrel dict_rel (compute_connectivity S w) (compute_connectivity S' w).
Proof.
  intros FT. unfold compute_connectivity. cbn [with_domains so_couplings so_domains]. apply rrel_fold; [|constructor]. intros d d' c Hc HD.
  destruct (idx (w_mps w) (c_p c)) as [b|] eqn:Eb; cbn [rbind]; [|reflexivity]. eapply rrel_idx; [exact HM|]. intros g g' Eg Eg' (W & W' & E). cbv beta in E.
  replace (gd_dim g') with (gd_dim g) by (symmetry; apply E). destruct (dim_eqb _ _); [|reflexivity]. cbn [rrel]. apply dict_set_rel; [exact HD|]. cbn [snd].
  assert (I : Forall (interior (c_kernel c) g) (body_positions b)) by (apply (FT c b g Hc); [now apply idx_nth|exact Eg]).
  pose proof (rows_rel (mm (c_g c)) g g' W E (c_kernel c) (body_positions b) I) as F.
  revert F. apply Forall2_weaken. intros x y. eapply row_eq; eauto.
Qed.
Lemma correction_rel w d d' : dict_rel d d' -> rrel dict_rel (sdf_correction S w d) (sdf_correction S' w d').
Proof.
  intros HD. unfold sdf_correction. cbn [with_domains so_sdfs so_couplings so_domains]. destruct (so_sdfs S) as [|s0 sr] eqn:Es; [exact HD|]. apply rrel_fold; [|exact HD].
  clear d d' HD. intros d d' c Hc HD. apply (rrel_bind (Forall2 (rows_at (c_g c)))); [apply (dict_get_rel d d' (c_p c, c_g c) HD)|]. intros l l' HL.
  destruct (idx (w_mps w) (c_p c)) as [b|] eqn:Eb; cbn [rbind]; [|reflexivity]. eapply rrel_idx; [exact HM|]. intros g g' Eg Eg' _. destruct (Nat.eqb (num_points b) 0); [reflexivity|].
  cbn [rrel]. apply dict_set_rel; [exact HD|]. cbn [snd]. 
  generalize (fun it => compatible S w g (nth (it_point it) (body_positions b) vzero) it) as u.
  generalize (fun it => compatible S' w g' (nth (it_point it) (body_positions b) vzero) it) as u'. intros u' u. clear - HL.
  induction HL as [|x y l l' H HL IH]; cbn [map combine]; constructor; [|exact IH]. cbn [fst]. unfold rows_at, row_rel, set_mask, node in *.
  cbn [it_point it_val it_grad it_dist it_mask it_hash]. tauto.
Qed.
Definition geoms_rel : list (list (list (Geom R))) -> list (list (list (Geom R))) -> Prop := irel (fun i => Forall2 (emb (P i) (N i))).
Lemma irel_map {A A' B B'} (Q : nat -> A -> A' -> Prop) (Q' : nat -> B -> B' -> Prop) f f' l l' : irel Q l l' ->
  (forall i a b, nth_error l i = Some a -> nth_error l' i = Some b -> Q i a b -> Q' i (f a) (f' b)) -> irel Q' (map f l) (map f' l').
Proof.
  intros (L & H) G. split; [now rewrite !map_length|]. intros i u u'. rewrite !nth_error_map. destruct (nth_error l i) as [a|] eqn:A1, (nth_error l' i) as [b|] eqn:B1; cbn; try congruence.
  intros [= <-] [= <-]. apply G; auto.
Qed.
Lemma node_geoms_rel w dt : geoms_rel (node_sdfs S w dt) (node_sdfs S' w dt).
Proof.
  unfold geoms_rel, node_sdfs. cbn [with_domains so_sdfs so_domains]. eapply irel_map; [exact HM|]. intros i g g' A B (W & W' & E). cbv beta in E.
  replace (gd_cell g') with (gd_cell g) by (symmetry; apply E). pose proof (positions_emb (mm i) g g' W W' E) as PE.
  induction (combine (so_sdfs S) (w_sdfs w)) as [|ls l IH]; cbn [map]; constructor; [|exact IH]. apply (emb_eq i g g'); [assumption|assumption|]. now apply emb_map.
Qed.
Lemma new_grids_rel : grids_rel (map grid_new (so_domains S)) (map grid_new ds).
Proof.
  eapply irel_map; [exact HM|]. intros i g g' A B (W & W' & E). cbv beta in E. destruct (new_rel (mm i) g g' W W' E) as (D & X1 & X2 & X3 & X4).
  split; [exact D|]. repeat (split; [eapply emb_eq; eauto|]). eapply emb_eq; eauto.
Qed.
Definition cache_rel (ca ca' : SimCache R) : Prop :=
  dict_rel (sc_inter ca) (sc_inter ca') /\ grids_rel (sc_grids ca) (sc_grids ca') /\ sc_mp_geoms ca' = sc_mp_geoms ca /\ geoms_rel (sc_node_geoms ca) (sc_node_geoms ca').
Lemma reset_positions b : body_positions (reset_body b) = body_positions b.
Proof. destruct b; cbn; rewrite ?map_map; reflexivity. Qed.
Lemma fits_reset w w1 w2 dt : fits S w -> kinematic_update S w dt = Ok w1 -> reset_material_points (so_couplings S) w1 = Ok w2 -> fits S w2.
Proof.
  intros F K Re c b g Hc Hb Hg. destruct (kinematic_ok S w dt w1 K) as (M & _). destruct (reset_ok _ _ _ Re) as (_ & Q). rewrite Q, M in Hb.
  destruct (nth_error (w_mps w) (c_p c)) as [b0|] eqn:E; [|discriminate]. cbn in Hb. injection Hb as <-. pose proof (F c b0 g Hc E Hg) as I.
  destruct (coupled _ _); [now rewrite reset_positions|exact I].
Qed.
Lemma prepare_rel st : fits S (s_world st) ->
  rrel (fun x y => fst y = fst x /\ cache_rel (snd x) (snd y)) (prepare S st) (prepare S' st).
Proof.
  intros FT. unfold prepare. change (kinematic_update S' (s_world st) (s_dt st)) with (kinematic_update S (s_world st) (s_dt st)).
  destruct (kinematic_update S (s_world st) (s_dt st)) as [w1|] eqn:K; cbn [rbind]; [|reflexivity]. cbn [with_domains so_couplings].
  destruct (reset_material_points (so_couplings S) w1) as [w2|] eqn:Re; cbn [rbind]; [|reflexivity].
  pose proof (fits_reset _ _ _ _ FT K Re) as F2. apply (rrel_bind dict_rel); [now apply connectivity_rel|]. intros it it' HI.
  apply (rrel_bind dict_rel); [now apply correction_rel|]. intros jt jt' HJ. cbn [rrel fst snd]. split; [reflexivity|]. split; [exact HJ|]. split; [apply new_grids_rel|].
  split; [reflexivity|apply node_geoms_rel].
Qed.
Lemma p2g_step w m ca ca' : cache_rel ca ca' -> rrel (fun x y => fst y = fst x /\ cache_rel (snd x) (snd y)) (p2g S w m ca) (p2g S' w m ca').
Proof.
  intros (HI & HGr & HMp & HNg). unfold p2g. cbn [with_domains so_forces so_couplings]. apply rrel_same. intros w'.
  apply (rrel_bind grids_rel).
  - apply rrel_fold; [|exact HGr]. intros gs gs' c Hc HG. unfold p2g_coupling. destruct (c_skip c); [exact HG|]. apply rrel_same. intros b.
    apply irel_upd; [exact HG|]. intros g g' Hg. apply (rrel_bind (Forall2 (rows_at (c_g c)))); [apply (dict_get_rel _ _ (c_p c, c_g c) HI)|]. intros it it' Hit.
    cbn [with_domains so_scheme so_domains]. destruct (so_scheme S) as [|a].
    + apply rrel_same. intros s. cbn [rrel]. unfold p2g_usl. apply p2g_rel; [apply inj_all|exact Hit| |exact Hg]. intros p q (Hp & _). unfold point_of. now rewrite Hp.
    + eapply rrel_idx; [exact HM|]. intros gd gd' Egd Egd' (_ & _ & E). cbv beta in E. apply rrel_same. intros ss0. apply rrel_same. intros s. apply rrel_same. intros Bp. cbn [rrel].
      unfold p2g_aflip. apply p2g_rel; [apply inj_all|exact Hit| |exact Hg]. intros p q H. rewrite (affine_rel (P (c_g c)) (N (c_g c)) _ _ _ p q H).
      replace (gd_cell gd') with (gd_cell gd) by (symmetry; apply E). replace (gd_dim gd') with (gd_dim gd) by (symmetry; apply E). destruct H as (Hp & _). unfold point_of. now rewrite Hp.
  - intros gs gs' HG. cbn [rrel fst snd]. split; [reflexivity|]. split; [exact HI|]. split; [exact HG|]. split; [exact HMp|exact HNg].
Qed.
Lemma grid_forces_rel f m gs gs' : grids_rel gs gs' -> rrel grids_rel (apply_grid_forces f m gs) (apply_grid_forces f m gs').
Proof.
  intros HG. destruct f as [g|g|c|c]; cbn [apply_grid_forces]; try exact HG.
  - destruct (gv_on_grid g); [|exact HG]. apply rrel_same. intros fs. apply rrel_fold; [|exact HG]. intros l l' i _ HL. apply irel_upd; [exact HL|]. intros a b Hab.
    apply rrel_same. intros v. cbn [rrel]. now apply gravity_rel.
  - destruct (dm_on_grid g); [|exact HG]. apply rrel_same. intros fs. apply rrel_fold; [|exact HG]. intros l l' i _ HL. apply irel_upd; [exact HL|]. intros a b Hab.
    apply rrel_same. intros v. cbn [rrel]. now apply damping_rel.
Qed.
Lemma forall2_nth {A B} (Q : A -> B -> Prop) l l' s e : Forall2 Q l l' -> rrel Q (oget (nth_error l s) e) (oget (nth_error l' s) e).
Proof. intros F. revert s. induction F; intros [|s]; cbn; auto. Qed.
Lemma grid_moments_rel f w dt geo geo' gs gs' : geoms_rel geo geo' -> grids_rel gs gs' ->
  rrel grids_rel (apply_grid_moments f w (so_sdfs S) (so_domains S) geo dt gs) (apply_grid_moments f w (so_sdfs S) ds geo' dt gs').
Proof.
  intros HE HG. destruct f as [g|g|c|c]; cbn [apply_grid_moments]; try exact HG.
  - destruct (cl_sdf c) as [s|]; [|exact HG]. apply rrel_same. intros _. apply rrel_same. intros _. apply rrel_fold; [|exact HG]. intros l l' i _ HL.
    eapply rrel_idx; [exact HM|]. intros gd gd' _ _ _. apply irel_upd; [exact HL|]. intros a b Hab. apply (rrel_bind (Forall2 (emb (P i) (N i)))); [exact (irel_nth (fun i => Forall2 (emb (P i) (N i))) geo geo' i KeyError HE)|].
    intros gg gg' Hgg. apply (rrel_bind (emb (P i) (N i))); [now apply forall2_nth|]. intros ge ge' Hge. cbn [rrel]. now apply collider_rel.
  - reflexivity.
Qed.
Lemma integrate_step w m dt ca ca' : cache_rel ca ca' -> rrel cache_rel (integrate_grid S w m dt ca) (integrate_grid S' w m dt ca').
Proof.
  intros (HI & HGr & HMp & HNg). unfold integrate_grid. cbn [with_domains so_forces so_couplings so_sdfs so_domains].
  apply (rrel_bind grids_rel); [apply rrel_fold; [intros; now apply grid_forces_rel|exact HGr]|]. intros g1 g1' H1.
  apply (rrel_bind grids_rel).
  { apply rrel_fold; [|exact H1]. intros l l' c _ HL. destruct (c_skip c); [exact HL|]. apply irel_upd; [exact HL|]. intros a b Hab. cbn [rrel]. now apply integrate_rel. }
  intros g2 g2' H2. apply (rrel_bind grids_rel); [apply rrel_fold; [intros; now apply grid_moments_rel|exact H2]|]. intros g3 g3' H3. cbn [rrel]. split; [exact HI|]. split; [exact H3|]. split; [exact HMp|exact HNg].
Qed.
Lemma g2p_step w m dt ca ca' : cache_rel ca ca' -> rrel (fun x y => y = x) (g2p S w m dt ca) (g2p S' w m dt ca').
Proof.
  intros (HI & HGr & HMp & HNg). unfold g2p. cbn [with_domains so_couplings]. apply rrel_fold; [|reflexivity]. clear w m. intros wm wm' c _ ->. destruct wm as [w m].
  unfold g2p_coupling. destruct (c_skip c); [reflexivity|]. eapply rrel_idx; [exact HGr|]. intros g g' _ _ Hg.
  apply (rrel_bind (Forall2 (rows_at (c_g c)))); [apply (dict_get_rel _ _ (c_p c, c_g c) HI)|]. intros it it' Hit. apply rrel_same. intros [s|r]; [|reflexivity].
  cbn [with_domains so_scheme so_alpha so_domains]. destruct (so_scheme S) as [|a].
  - rewrite HMp. apply rrel_same. intros [|ge geos].
    + rewrite (g2p_usl_rel (P (c_g c)) (N (c_g c)) _ _ _ it it' g g' _ Hit Hg). reflexivity.
    + destruct (Nat.eqb _ 1); [reflexivity|]. rewrite (g2p_usl_rel (P (c_g c)) (N (c_g c)) _ _ _ it it' g g' _ Hit Hg). reflexivity.
  - eapply rrel_idx; [exact HM|]. intros gd gd' _ _ (_ & _ & E). cbv beta in E. apply rrel_same. intros ss0. destruct (af_mls a); [|reflexivity]. apply rrel_same. intros _. cbv zeta.
    rewrite (g2p_aflip_rel (P (c_g c)) (N (c_g c)) a _ _ gd gd' _ it it' g g' _ (proj1 (proj2 E)) Hit Hg). reflexivity.
Qed.
Lemma step_same st : fits S (s_world st) -> solver_step S' st = solver_step S st.
Proof.
  intros FT. apply rrel_eq. unfold solver_step. eapply rrel_bind; [now apply prepare_rel|]. intros [w ca] [w' ca'] (E & C). cbn [fst snd] in *. subst w'.
  eapply rrel_bind; [now apply p2g_step|]. intros [w2 ca2] [w2' ca2'] (E & C2). cbn [fst snd] in *. subst w2'.
  eapply rrel_bind; [now apply integrate_step|]. intros ca3 ca3' C3. eapply rrel_bind; [now apply g2p_step|]. intros x y ->.
  change (constitutive_update S' (s_dt st)) with (constitutive_update S (s_dt st)). apply rrel_refl.
Qed.
End Setup.

Lemma margins l l' : Forall2 enlarges l l' -> exists mm, irel (fun i g g' => wf_grid g /\ wf_grid g' /\ enlarges_by (mm i) g g') l l'.
Proof.
  intros F. induction F as [|g g' l l' (W & W' & m & E) F (mm & L & H)].
  - exists (fun _ => V3 0 0 0)%Z. split; [reflexivity|]. intros [|i] a b A; discriminate A.
  - exists (fun i => match i with O => m | Datatypes.S j => mm j end). split; [cbn; now rewrite L|]. intros [|i] a b A B; cbn in A, B.
    + injection A as <-. injection B as <-. auto.
    + now apply H.
Qed.
(** ** C145: with the material inside, a step on larger grids is the same step: equal bodies, obstacles, internal variables, affine matrices,
    or the same error.  Any kernels, laws, forces, obstacles and either solver. *)
Theorem C145_step : forall (S : Solver R) ds st, Forall2 enlarges (so_domains S) ds -> fits S (s_world st) ->
  solver_step (with_domains S ds) st = solver_step S st.
Proof. intros S ds st F H. destruct (margins _ _ F) as (mm & HM). exact (step_same S ds mm HM st H). Qed.
Print Assumptions C145_step.
(** runs, as long as the material stays inside the smaller grids *)
Theorem C145_run : forall (S : Solver R) ds n st, Forall2 enlarges (so_domains S) ds ->
  (forall k stk, (k < n)%nat -> solver_steps S k st = Ok stk -> fits S (s_world stk)) ->
  solver_steps (with_domains S ds) n st = solver_steps S n st.
Proof.
  intros S ds n st F. revert st. induction n as [|n IH]; intros st H; [reflexivity|]. cbn [solver_steps].
  rewrite (C145_step S ds st F) by (apply (H 0%nat st); [lia|reflexivity]). destruct (solver_step S st) as [st1|] eqn:E; [|reflexivity]. cbn [rbind]. apply IH.
  intros k stk Hk Q. apply (H (Datatypes.S k) stk); [lia|]. cbn [solver_steps]. now rewrite E.
Qed.
Print Assumptions C145_run.

(** *** whole cells on one and the same grid *)
Definition swap_sdfs (S : Solver R) (sdfs : list (SDFLogic R)) : Solver R :=
  {| so_scheme := so_scheme S; so_alpha := so_alpha S; so_domains := so_domains S; so_couplings := so_couplings S;
     so_laws := so_laws S; so_forces := so_forces S; so_sdfs := sdfs; so_sharp := so_sharp S |}.
Definition whole_cells (d : vec3 R) (g : GridDomain R) : Prop := exists m, d = cell_shift g m /\ (gd_dim g = D2 -> vz m = 0%Z).
Definition both (m : vec3 Z) (g : GridDomain R) : GridDomain R :=
  {| gd_dim := gd_dim g; gd_origin := vadd (gd_origin g) (cell_shift g (V3 (Z.min 0 (vx m)) (Z.min 0 (vy m)) (Z.min 0 (vz m))));
     gd_end := gd_end g; gd_cell := gd_cell g; gd_inv := gd_inv g;
     gd_size := V3 (vx (gd_size g) + Z.abs (vx m))%Z (vy (gd_size g) + Z.abs (vy m))%Z (vz (gd_size g) + Z.abs (vz m))%Z; gd_padding := gd_padding g |}.
Lemma both_enlarges m g : wf_grid g -> (gd_dim g = D2 -> vz m = 0%Z) -> enlarges g (both m g) /\ enlarges (shift_grid (cell_shift g m) g) (both m g).
Proof.
  intros W MZ. assert (WB : wf_grid (both m g)).
  { destruct W as ((Wx & Wy & Wz) & Hc & Hv). split; [|split; assumption]. unfold wf_sizes. cbn [both gd_size gd_dim vx vy vz]. repeat split; try lia.
    destruct (gd_dim g); [rewrite MZ by reflexivity|]; lia. }
  split; (split; [exact W|]); (split; [exact WB|]).
  - exists (V3 (Z.max 0 (- vx m)) (Z.max 0 (- vy m)) (Z.max 0 (- vz m))). unfold enlarges_by. cbn [both gd_dim gd_cell gd_inv gd_origin gd_size vx vy vz]. repeat split; try lia.
    + apply vec3_eq; unfold vadd, vmap2, cell_shift; cbn [vx vy vz both gd_cell]; rnum; rewrite Rplus_assoc, <- Rmult_plus_distr_r, <- plus_IZR;
        match goal with |- ?a = ?a + IZR ?z * _ => replace z with 0%Z by lia end; cbn; ring.
    + intros D. rewrite MZ by exact D. reflexivity.
  - exists (V3 (Z.max 0 (vx m)) (Z.max 0 (vy m)) (Z.max 0 (vz m))). unfold enlarges_by. cbn [both shift_grid gd_dim gd_cell gd_inv gd_origin gd_size vx vy vz]. repeat split; try lia.
    + apply vec3_eq; unfold vadd, vmap2, cell_shift; cbn [vx vy vz both shift_grid gd_cell]; rnum; rewrite Rplus_assoc, <- Rmult_plus_distr_r, <- plus_IZR; do 3 f_equal; lia.
    + intros D. rewrite MZ by exact D. reflexivity.
Qed.
Lemma common_grids d l : (forall g, In g l -> wf_grid g /\ whole_cells d g) -> exists bs, Forall2 enlarges l bs /\ Forall2 enlarges (map (shift_grid d) l) bs.
Proof.
  induction l as [|g l IH]; intros H; [exists []; split; constructor|]. destruct IH as (bs & B1 & B2); [intros; apply H; now right|].
  destruct (H g (or_introl eq_refl)) as (W & m & -> & MZ). destruct (both_enlarges m g W MZ) as (E1 & E2). exists (both m g :: bs). split; constructor; assumption.
Qed.
Lemma interior_shift k g d x : interior k g x -> interior k (shift_grid d g) (vadd x d).
Proof.
  unfold interior. cbn [shift_grid gd_size gd_inv gd_dim gd_origin]. unfold vadd, vmap2. cbn [vx vy vz]. rnum.
  replace (vx x + vx d - (vx (gd_origin g) + vx d)) with (vx x - vx (gd_origin g)) by ring. replace (vy x + vy d - (vy (gd_origin g) + vy d)) with (vy x - vy (gd_origin g)) by ring.
  replace (vz x + vz d - (vz (gd_origin g) + vz d)) with (vz x - vz (gd_origin g)) by ring. auto.
Qed.
Lemma fits_shift d S sdfs w : fits S w -> fits (shift_solver d S sdfs) (shift_world d w).
Proof.
  intros F c b g Hc Hb Hg. cbn [shift_solver so_domains so_couplings] in *. cbn [shift_world w_mps] in Hb. rewrite nth_error_map in Hb, Hg.
  destruct (nth_error (w_mps w) (c_p c)) as [b0|] eqn:Eb; [|discriminate]. destruct (nth_error (so_domains S) (c_g c)) as [g0|] eqn:Eg; [|discriminate].
  cbn in Hb, Hg. injection Hb as <-. injection Hg as <-. rewrite positions_shift. pose proof (F c b0 g0 Hc Eb Eg) as I.
  induction I; cbn; constructor; [now apply interior_shift|assumption].
Qed.
(** moving bodies and obstacles by whole cells on an unmoved grid moves the step, if the material is inside before and after the move *)
Theorem C145_cells : forall d (S : Solver R) sdfs st, (forall g, In g (so_domains S) -> wf_grid g /\ whole_cells d g) -> Forall2 (carries d) (so_sdfs S) sdfs ->
  fits S (s_world st) -> fits S (shift_world d (s_world st)) ->
  solver_step (swap_sdfs S sdfs) (shift_state d st) = rlift (shift_state d) (solver_step S st).
Proof.
  intros d S sdfs st HG HC F F'. destruct (common_grids d (so_domains S) HG) as (bs & B1 & B2).
  rewrite <- (C145_step (swap_sdfs S sdfs) bs (shift_state d st) B1 F').
  change (with_domains (swap_sdfs S sdfs) bs) with (with_domains (shift_solver d S sdfs) bs).
  rewrite (C145_step (shift_solver d S sdfs) bs (shift_state d st) B2 (fits_shift d S sdfs _ F)).
  apply C144_step; [exact HC|]. intros g Hg D. destruct (HG g Hg) as (_ & m & -> & MZ). unfold cell_shift. cbn [vz]. rewrite MZ by exact D. ring.
Qed.
Print Assumptions C145_cells.
(** GridDomain.create with more padding is such a larger grid: the amount of padding does not matter to a run that stays inside *)
Theorem C145_padding : forall d o e h p p', 0 < h -> (0 <= p <= p')%Z -> (forall a, (a < dim_nat d)%nat -> vcomp a o <= vcomp a e) ->
  enlarges (grid_create d o e h p) (grid_create d o e h p').
Proof.
  intros d o e h p p' Hh Hp Ho. assert (H0 := Ho 0%nat ltac:(destruct d; simpl; lia)). assert (H1 := Ho 1%nat ltac:(destruct d; simpl; lia)). simpl in H0, H1.
  assert (Fl : forall a b, a <= b -> (0 <= Flocq.Core.Raux.Zfloor ((b - a) / h))%Z) by (intros; apply Flocq.Core.Raux.Zfloor_lub; apply Rle_mult_inv_pos; lra).
  assert (WG : forall q, (0 <= q)%Z -> wf_grid (grid_create d o e h q)).
  { intros q Hq.
    assert (Sz : forall o e, o <= e -> (1 <= axis_size o e h q)%Z) by (intros o' e' Hoe; rewrite axis_size_R by (try lra; lia); specialize (Fl _ _ Hoe); lia).
    split; [split; [|split]|split].
    - apply Sz; exact H0.
    - apply Sz; exact H1.
    - destruct d; simpl; [reflexivity|]. assert (H2 := Ho 2%nat ltac:(simpl; lia)). simpl in H2. apply Sz; exact H2.
    - exact Hh.
    - simpl. rnum. unfold Rdiv; ring. }
  split; [apply WG; lia|]. split; [apply WG; lia|].
  exists (V3 (p' - p) (p' - p) (match d with D2 => 0 | D3 => p' - p end))%Z. unfold enlarges_by. cbn [grid_create gd_dim gd_cell gd_inv gd_origin gd_size vx vy vz].
  split; [reflexivity|]. split; [reflexivity|]. split; [reflexivity|]. split; [|split; [|split]].
  - apply vec3_eq; unfold vadd, vmap2, cell_shift, padded_lo; cbn [vx vy vz grid_create gd_cell]; rnum; [rewrite minus_IZR; ring|rewrite minus_IZR; ring|].
    destruct d; rnum; rewrite ?minus_IZR; ring.
  - destruct d; lia.
  - intros ->. reflexivity.
  - rewrite !axis_size_R by (try lra; lia). split; [lia|]. split; [lia|]. destruct d; [lia|]. assert (H2 := Ho 2%nat ltac:(simpl; lia)). simpl in H2. rewrite !axis_size_R by (try lra; lia). lia.
Qed.
Print Assumptions C145_padding.
(** two bodies on the 8 by 8 grid, and on a grid with one more row and column on each low side and three on each high side *)
Definition g2_large : GridDomain R :=
  {| gd_dim := D2; gd_origin := V3 (-1) (-1) 0; gd_end := V3 10 10 0; gd_cell := 1; gd_inv := 1; gd_size := V3 12%Z 12%Z 1%Z; gd_padding := 2 |}.
Example C145_case : let S := solverR USL (1/2) 1 in let st := stateR [two va vb sg] mzero (1/10) in
  Forall2 enlarges (so_domains S) [g2_large] /\ fits S (s_world st) /\ fits S (shift_world (V3 1 (-1) 0) (s_world st)) /\ whole_cells (V3 1 (-1) 0) g2 /\
  exists st', solver_step S st = Ok st'.
Proof.
  intros S st. assert (W : wf_grid g2_large) by (split; [split; [cbn; lia|split; [cbn; lia|reflexivity]]|split; cbn; lra]).
  split; [|split; [|split; [|split]]].
  - apply Forall2_cons; [|apply Forall2_nil]. split; [exact g2_wf|]. split; [exact W|]. exists (V3 1 1 0)%Z. unfold enlarges_by. cbn [g2 g2_large gd_dim gd_cell gd_inv gd_origin gd_size vx vy vz].
    repeat split; try lia. apply vec3_eq; unfold vadd, vmap2, cell_shift; cbn; rnum; ring.
  - intros c b g Hc Hb Hg. destruct Hc as [<-|[]]. injection Hb as <-. injection Hg as <-. constructor; [apply xa_interior|]. constructor; [apply xb_interior|constructor].
  - intros c b g Hc Hb Hg. destruct Hc as [<-|[]]. injection Hb as <-. injection Hg as <-.
    constructor; [|constructor; [|constructor]]; unfold interior, interior1, vadd, vmap2; cbn; rnum; repeat split; lra.
  - exists (V3 1 (-1) 0)%Z. split; [|reflexivity]. apply vec3_eq; unfold cell_shift; cbn; ring.
  - eexists. reflexivity.
Qed.
