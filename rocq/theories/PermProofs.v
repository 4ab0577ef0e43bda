(** Order of scatter-add and of the particles (C32). *)
From Coq Require Import List Arith ZArith Reals Bool Lra Lia Permutation.
From Verif Require Import Num NumR Linalg Arrays ModelGrid ModelShape ModelMath ModelState ModelLaws ModelForces ModelSolver
  Sums ShapeFacts SpecShape ShapeProofs ShapeProofs2 ShapeProofs3 MappingProofs ResFacts SolverFacts SpecSolver
  TransferProofs TransferProofs2 StepProofs GatherProofs.
Import ListNotations.
Local Open Scope R_scope.

Lemma nth_ext_any {A} (d : A) l m : length l = length m -> (forall i, (i < length l)%nat -> nth i l d = nth i m d) -> l = m.
Proof. intros L H. apply (nth_ext l m d d L). exact H. Qed.
(** scatter-add over a commutative addition, seen through real-valued observations *)
Lemma scatter_perm {A} (add : A -> A -> A) (phis : list (A -> R)) (d : A) init ivs ivs' :
  (forall phi, In phi phis -> forall x y, phi (add x y) = phi x + phi y) ->
  (forall x y, (forall phi, In phi phis -> phi x = phi y) -> x = y) ->
  Permutation ivs ivs' -> scatter_add add init ivs = scatter_add add init ivs'.
Proof.
  intros Ha He P. apply (nth_ext_any d); [rewrite !scatter_add_length; reflexivity|].
  intros i Hi. rewrite scatter_add_length in Hi. apply He. intros phi Hphi.
  rewrite !(scatter_add_nth add phi d (Ha phi Hphi)) by exact Hi. f_equal. apply sumR_perm, P.
Qed.
Lemma scatter_perm_R init (ivs ivs' : list (nat * R)) : Permutation ivs ivs' -> scatter_add (@nadd R Num_R) init ivs = scatter_add nadd init ivs'.
Proof.
  apply (scatter_perm _ [fun x => x] 0); [intros phi [<-|[]]; reflexivity|]. intros x y H. apply (H (fun x => x)). left. reflexivity.
Qed.
Lemma scatter_perm_V init (ivs ivs' : list (nat * vec3 R)) : Permutation ivs ivs' -> scatter_add vadd init ivs = scatter_add vadd init ivs'.
Proof.
  apply (scatter_perm _ [vcomp 0; vcomp 1; vcomp 2] vzero).
  - intros phi [<-|[<-|[<-|[]]]] x y; apply vcomp_add.
  - intros x y H. apply vec3_eq; [apply (H (vcomp 0))|apply (H (vcomp 1))|apply (H (vcomp 2))]; simpl; tauto.
Qed.
Lemma scatter_perm_M init (ivs ivs' : list (nat * mat3 R)) : Permutation ivs ivs' -> scatter_add madd init ivs = scatter_add madd init ivs'.
Proof.
  set (phis := flat_map (fun a => map (fun b => @mcomp R a b) [0;1;2]%nat) [0;1;2]%nat).
  apply (scatter_perm _ phis mzero).
  - intros phi H x y. unfold phis in H. simpl in H. repeat (destruct H as [<-|H]; [apply mcomp_add|]). contradiction.
  - intros x y H. apply mat3_eq.
    + apply (H (mcomp 0 0)); unfold phis; simpl; tauto.
    + apply (H (mcomp 0 1)); unfold phis; simpl; tauto.
    + apply (H (mcomp 0 2)); unfold phis; simpl; tauto.
    + apply (H (mcomp 1 0)); unfold phis; simpl; tauto.
    + apply (H (mcomp 1 1)); unfold phis; simpl; tauto.
    + apply (H (mcomp 1 2)); unfold phis; simpl; tauto.
    + apply (H (mcomp 2 0)); unfold phis; simpl; tauto.
    + apply (H (mcomp 2 1)); unfold phis; simpl; tauto.
    + apply (H (mcomp 2 2)); unfold phis; simpl; tauto.
Qed.

Lemma map_nth_seq {A} (d : A) l : map (fun i => nth i l d) (seq 0 (length l)) = l.
Proof.
  induction l as [|x l IH]; [reflexivity|]. simpl. f_equal. rewrite <- seq_shift, map_map. exact IH.
Qed.
(** renumbering a list: entry [j] of the new list is entry [nth j sigma] of the old one *)
Definition renumber {A} (sigma : list nat) (d : A) (l : list A) : list A := map (fun i => nth i l d) sigma.
Lemma renumber_nth {A} sigma (d : A) l j : (j < length sigma)%nat -> nth j (renumber sigma d l) d = nth (nth j sigma 0%nat) l d.
Proof. intros H. unfold renumber. rewrite (nth_indep _ d (nth 0 l d)) by (rewrite map_length; exact H). apply (map_nth (fun i => nth i l d)). Qed.
Lemma renumber_length {A} sigma (d : A) l : length (renumber sigma d l) = length sigma.
Proof. apply map_length. Qed.
Lemma renumber_map {A B} (f : A -> B) sigma d e l : (forall i, In i sigma -> (i < length l)%nat) ->
  renumber sigma e (map f l) = map f (renumber sigma d l).
Proof.
  intros H. unfold renumber. rewrite map_map. apply map_ext_in. intros i Hi. rewrite (nth_indep _ e (f d)) by (rewrite map_length; auto).
  apply map_nth.
Qed.
Lemma renumber_permutation {A} sigma (d : A) l : Permutation sigma (seq 0 (length l)) -> Permutation (renumber sigma d l) l.
Proof.
  intros P. unfold renumber. rewrite (Permutation_map (fun i => nth i l d) P).
  rewrite map_nth_seq. apply Permutation_refl.
Qed.
Lemma flat_map_map {A B C} (f : A -> B) (g : B -> list C) l : flat_map g (map f l) = flat_map (fun x => g (f x)) l.
Proof. induction l as [|x l IH]; simpl; [reflexivity|]. rewrite IH. reflexivity. Qed.
Lemma flat_map_ext_in {A B} (f g : A -> list B) l : (forall x, In x l -> f x = g x) -> flat_map f l = flat_map g l.
Proof. induction l as [|x l IH]; simpl; intros H; [reflexivity|]. rewrite H by auto. rewrite IH by auto. reflexivity. Qed.
(** contributions computed row by row do not depend on the particles' numbering *)
Lemma rows_renumber {X} k (gd : GridDomain R) xs sigma (f f' : Interaction R -> X) (h : nat -> nat -> X) :
  Permutation sigma (seq 0 (length xs)) ->
  (forall p s, (p < length xs)%nat -> f (slot k gd (nth p xs vzero) p s) = h p s) ->
  (forall j s, (j < length xs)%nat -> f' (slot k gd (nth (nth j sigma 0%nat) xs vzero) j s) = h (nth j sigma 0%nat) s) ->
  Permutation (map f' (compute_on k gd (renumber sigma vzero xs))) (map f (compute_on k gd xs)).
Proof.
  intros P Hf Hf'. pose proof (Permutation_length P) as L. rewrite seq_length in L.
  assert (E : map f (compute_on k gd xs) = flat_map (fun p => map (h p) (seq 0 (window_size k (gd_dim gd)))) (seq 0 (length xs))).
  { rewrite compute_on_points, !flat_map_concat_map, concat_map, map_map. f_equal. apply map_ext_in. intros p Hp. apply in_seq in Hp.
    rewrite map_map. apply map_ext. intros s. apply Hf. lia. }
  assert (E' : map f' (compute_on k gd (renumber sigma vzero xs)) = flat_map (fun p => map (h p) (seq 0 (window_size k (gd_dim gd)))) sigma).
  { rewrite compute_on_points, renumber_length, !flat_map_concat_map, concat_map, map_map.
    transitivity (concat (map (fun p => map (h p) (seq 0 (window_size k (gd_dim gd)))) (map (fun j => nth j sigma 0%nat) (seq 0 (length sigma)))));
      [|rewrite map_nth_seq; reflexivity]. rewrite map_map. f_equal. apply map_ext_in. intros p Hp. apply in_seq in Hp.
    rewrite map_map. apply map_ext. intros s. rewrite renumber_nth by lia. apply Hf'. lia. }
  rewrite E, E'. apply Permutation_flat_map, P.
Qed.

Section Renumber.
Variables (k : Kernel) (gd : GridDomain R) (pts : list (Particle R)) (sigma : list nat).
Hypothesis P : Permutation sigma (seq 0 (length pts)).
Let pts' := renumber sigma pt0 pts.
Let len : length sigma = length pts.
Proof. rewrite (Permutation_length P). apply seq_length. Qed.
Let in_range i : In i sigma -> (i < length pts)%nat.
Proof. intros H. apply (Permutation_in _ P) in H. apply in_seq in H. lia. Qed.
Let at_ j : (j < length pts)%nat -> (nth j sigma 0 < length pts)%nat.
Proof. intros H. apply in_range, nth_In. rewrite len. exact H. Qed.
Let xs' : map pt_pos pts' = renumber sigma vzero (map pt_pos pts).
Proof. symmetry. apply renumber_map. exact in_range. Qed.

(** P2G: same masses, momenta and forces; [vel'] attaches to new row j what [vel] attaches to the row of particle nth j sigma *)
Lemma p2g_with_renumber (vel vel' : Interaction R -> vec3 R) (g : Grid R) :
  (forall j s, (j < length pts)%nat -> let p := nth j sigma 0%nat in
     vel' (slot k gd (pt_pos (nth p pts pt0)) j s) = vel (slot k gd (pt_pos (nth p pts pt0)) p s)) ->
  p2g_with (compute_on k gd (map pt_pos pts')) pts' vel' g = p2g_with (compute_on k gd (map pt_pos pts)) pts vel g.
Proof.
  intros Hv. unfold p2g_with. rewrite xs'.
  assert (Px : forall p, nth p (map pt_pos pts) vzero = pt_pos (nth p pts pt0)) by (intro p; apply xs_nth).
  assert (Pt : forall j, (j < length pts)%nat -> nth j pts' pt0 = nth (nth j sigma 0%nat) pts pt0)
    by (intros j Hj; apply renumber_nth; rewrite len; exact Hj).
  f_equal.
  - apply scatter_perm_R. 
    apply (rows_renumber k gd (map pt_pos pts) sigma _ _ (fun p s => on_node (slot k gd (pt_pos (nth p pts pt0)) p s)
       (eff (slot k gd (pt_pos (nth p pts pt0)) p s) * pt_mass (nth p pts pt0)))); rewrite ?map_length; [exact P| |].
    + intros p s Hp. rewrite Px. reflexivity.
    + intros j s Hj. rewrite Px. unfold point_of. cbn [it_point slot single_interaction]. rewrite Pt by exact Hj. reflexivity.
  - apply scatter_perm_V.
    apply (rows_renumber k gd (map pt_pos pts) sigma _ _ (fun p s => on_node (slot k gd (pt_pos (nth p pts pt0)) p s)
       (vscale (eff (slot k gd (pt_pos (nth p pts pt0)) p s) * pt_mass (nth p pts pt0)) (vel (slot k gd (pt_pos (nth p pts pt0)) p s)))));
      rewrite ?map_length; [exact P| |].
    + intros p s Hp. rewrite Px. reflexivity.
    + intros j s Hj. rewrite Px. unfold point_of. cbn [it_point slot single_interaction]. rewrite Pt by exact Hj.
      rewrite <- (Hv j s Hj). reflexivity.
  - apply scatter_perm_V.
    apply (rows_renumber k gd (map pt_pos pts) sigma _ _ (fun p s => on_node (slot k gd (pt_pos (nth p pts pt0)) p s)
       (p2g_force (gr_dim g) pts (slot k gd (pt_pos (nth p pts pt0)) p s)))); rewrite ?map_length; [exact P| |].
    + intros p s Hp. rewrite Px. reflexivity.
    + intros j s Hj. rewrite Px. unfold p2g_force, point_of. cbn [it_point slot single_interaction]. rewrite Pt by exact Hj. reflexivity.
Qed.
Lemma p2g_usl_renumber s s' (g : Grid R) : sb_pts s = pts -> sb_pts s' = pts' ->
  p2g_usl (compute_on k gd (map pt_pos pts')) s' g = p2g_usl (compute_on k gd (map pt_pos pts)) s g.
Proof.
  intros Es Es'. unfold p2g_usl. rewrite Es, Es'. apply p2g_with_renumber. intros j st Hj p. unfold point_of.
  cbn [it_point slot single_interaction]. unfold pts'. rewrite renumber_nth by (rewrite len; exact Hj). reflexivity.
Qed.
Lemma p2g_aflip_renumber gdm Bp s s' (g : Grid R) : length Bp = length pts -> sb_pts s = pts -> sb_pts s' = pts' ->
  p2g_aflip gdm (renumber sigma mzero Bp) (compute_on k gd (map pt_pos pts')) s' g = p2g_aflip gdm Bp (compute_on k gd (map pt_pos pts)) s g.
Proof.
  intros LB Es Es'. unfold p2g_aflip. rewrite Es, Es'. apply p2g_with_renumber. intros j st Hj p. unfold point_of, affine_vel.
  rewrite renumber_length, len, LB. cbn [it_point slot single_interaction it_dist]. specialize (at_ j Hj). fold p in at_.
  rewrite !Nat.min_l by lia. rewrite renumber_nth by (rewrite len; exact Hj). unfold pts'. rewrite renumber_nth by (rewrite len; exact Hj). reflexivity.
Qed.

(** G2P: sums over a particle's rows depend on its position only *)
Lemma of_point_sum {X} (F : Interaction R -> X) (xs : list (vec3 R)) p : (forall x p q s, F (slot k gd x p s) = F (slot k gd x q s)) ->
  (p < length xs)%nat -> map F (of_point p (compute_on k gd xs)) = map (fun s => F (slot k gd (nth p xs vzero) 0 s)) (seq 0 (window_size k (gd_dim gd))).
Proof. intros HF Hp. rewrite of_point_compute by exact Hp. rewrite map_map. apply map_ext. intro s. apply HF. Qed.
Lemma of_point_renumber {X} (F : Interaction R -> X) j : (forall x p q s, F (slot k gd x p s) = F (slot k gd x q s)) -> (j < length pts)%nat ->
  map F (of_point j (compute_on k gd (map pt_pos pts'))) = map F (of_point (nth j sigma 0%nat) (compute_on k gd (map pt_pos pts))).
Proof.
  intros HF Hj. rewrite xs'. rewrite !of_point_sum by (try exact HF; rewrite ?renumber_length, ?map_length, ?len; auto).
  rewrite renumber_nth by (rewrite len; exact Hj). reflexivity.
Qed.
Lemma sum_via_map {A} (f : A -> R) l : sumR f l = sumR (fun x => x) (map f l).
Proof. rewrite sumR_map. reflexivity. Qed.
Lemma sumR_renumber (F : Interaction R -> R) j : (forall x p q s, F (slot k gd x p s) = F (slot k gd x q s)) -> (j < length pts)%nat ->
  sumR F (of_point j (compute_on k gd (map pt_pos pts'))) = sumR F (of_point (nth j sigma 0%nat) (compute_on k gd (map pt_pos pts))).
Proof. intros HF Hj. rewrite (sum_via_map F), of_point_renumber, <- sum_via_map by assumption. reflexivity. Qed.
Lemma vsum_renumber (F : Interaction R -> vec3 R) j : (forall x p q s, F (slot k gd x p s) = F (slot k gd x q s)) -> (j < length pts)%nat ->
  vsum F (of_point j (compute_on k gd (map pt_pos pts'))) = vsum F (of_point (nth j sigma 0%nat) (compute_on k gd (map pt_pos pts))).
Proof.
  intros HF Hj. apply vcomp_eq. intro a. rewrite !vcomp_vsum. apply sumR_renumber; [|exact Hj]. intros. erewrite HF. reflexivity.
Qed.
Lemma msum_renumber (F : Interaction R -> mat3 R) j : (forall x p q s, F (slot k gd x p s) = F (slot k gd x q s)) -> (j < length pts)%nat ->
  msum F (of_point j (compute_on k gd (map pt_pos pts'))) = msum F (of_point (nth j sigma 0%nat) (compute_on k gd (map pt_pos pts))).
Proof.
  intros HF Hj. apply mcomp_eq. intros a b. rewrite !mcomp_msum. apply sumR_renumber; [|exact Hj]. intros. erewrite HF. reflexivity.
Qed.
Lemma rows_masks xs : masks_one (compute_on k gd xs).
Proof. intros it H. exact (compute_mask _ _ _ _ H). Qed.
Theorem g2p_usl_renumber alpha dt geos geos' (g : Grid R) :
  g2p_usl alpha dt geos' (compute_on k gd (map pt_pos pts')) g pts' = renumber sigma pt0 (g2p_usl alpha dt geos (compute_on k gd (map pt_pos pts)) g pts).
Proof.
  apply (nth_ext_any pt0); [rewrite g2p_usl_length, renumber_length; unfold pts'; apply renumber_length|].
  intros j Hj. rewrite g2p_usl_length in Hj. assert (Hj' : (j < length sigma)%nat) by (unfold pts' in Hj; rewrite renumber_length in Hj; exact Hj).
  rewrite renumber_nth by exact Hj'. rewrite len in Hj'.
  rewrite !g2p_usl_nth by (try apply rows_masks; try exact Hj; apply at_, Hj'). f_equal.
  - unfold pts'. apply renumber_nth. lia.
  - unfold usl_delta. apply vsum_renumber; [reflexivity|exact Hj'].
  - unfold pic_vel. apply vsum_renumber; [reflexivity|exact Hj'].
  - apply msum_renumber; [reflexivity|exact Hj'].
Qed.
Theorem g2p_aflip_renumber a alpha dt gdm sF (g : Grid R) :
  let r := g2p_aflip a alpha dt gdm sF (compute_on k gd (map pt_pos pts)) g pts in
  g2p_aflip a alpha dt gdm sF (compute_on k gd (map pt_pos pts')) g pts' = (renumber sigma pt0 (fst r), renumber sigma mzero (snd r)).
Proof.
  intros r. assert (Lp : length pts' = length pts) by (unfold pts'; rewrite renumber_length; exact len).
  rewrite (surjective_pairing (g2p_aflip a alpha dt gdm sF (compute_on k gd (map pt_pos pts')) g pts')). f_equal.
  - apply (nth_ext_any pt0); [rewrite g2p_aflip_length, renumber_length, Lp, len; reflexivity|].
    intros j Hj. rewrite g2p_aflip_length, Lp in Hj. rewrite renumber_nth by (rewrite len; exact Hj). unfold r.
    rewrite !g2p_aflip_nth by (rewrite ?Lp; auto). f_equal.
    + unfold pts'. apply renumber_nth. rewrite len. exact Hj.
    + unfold pic_vel. apply vsum_renumber; [reflexivity|exact Hj].
    + unfold pic_vel. apply vsum_renumber; [reflexivity|exact Hj].
    + unfold af_B. apply msum_renumber; [reflexivity|exact Hj].
    + apply sumR_renumber; [reflexivity|exact Hj].
  - apply (nth_ext_any mzero).
    + rewrite renumber_length, len. unfold g2p_aflip, to_points. cbn [snd]. rewrite scatter_add_length, repeat_length. exact Lp.
    + intros j Hj. unfold g2p_aflip, to_points in Hj. cbn [snd] in Hj. rewrite scatter_add_length, repeat_length, Lp in Hj.
      rewrite renumber_nth by (rewrite len; exact Hj). unfold r. rewrite !g2p_aflip_B_nth by (rewrite ?Lp; auto).
      unfold af_B. apply msum_renumber; [reflexivity|exact Hj].
Qed.
End Renumber.
