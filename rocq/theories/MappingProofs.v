(** Proofs about scatter_to_grid and gather_from_grid (C13, C14). *)
From Coq Require Import List Arith ZArith Reals Bool Lra Lia.
From Verif Require Import Num NumR Linalg Arrays ModelGrid ModelShape Sums ShapeFacts SpecShape
  ShapeProofs ShapeProofs2 ShapeProofs3.
Import ListNotations.
Local Open Scope R_scope.

Lemma sum_by_point k (g : GridDomain R) xs (F : Interaction R -> R) :
  sumR F (compute_on k g xs)
  = sumR (fun p => sumR F (of_point p (compute_on k g xs))) (seq 0 (length xs)).
Proof.
  rewrite compute_on_points at 1. rewrite sumR_flat_map. apply sumR_ext. intros p Hp. apply in_seq in Hp.
  rewrite of_point_compute by lia. reflexivity.
Qed.
Lemma sum_by_point_weight k (g : GridDomain R) xs (c : nat -> R) : wf_sizes g ->
  (forall p, (p < length xs)%nat -> interior k g (nth p xs vzero)) ->
  sumR (fun it => it_val it * c (it_point it)) (compute_on k g xs) = sumR c (seq 0 (length xs)).
Proof.
  intros W I. rewrite sum_by_point. apply sumR_ext. intros p Hp. apply in_seq in Hp.
  rewrite (sumR_ext _ (fun it => it_val it * c p)).
  - rewrite sumR_scal_r, pou by (try assumption; try apply I; lia). lra.
  - intros it Hin. apply in_of_point in Hin. destruct Hin as (_ & ->). reflexivity.
Qed.

Lemma nth_combine_lt {A B} (l : list A) (m : list B) i a b : length l = length m ->
  nth i (combine l m) (a, b) = (nth i l a, nth i m b).
Proof. intros; apply combine_nth; assumption. Qed.

Section Scatter.
Context {A : Type} (azero : A) (aadd : A -> A -> A) (ascale : R -> A -> A) (adivs : A -> R -> A).
(** [phi] reads one component of a datum *)
Variable phi : A -> R.
Hypothesis phi_zero : phi azero = 0.
Hypothesis phi_add : forall x y, phi (aadd x y) = phi x + phi y.
Hypothesis phi_scale : forall k x, phi (ascale k x) = k * phi x.
Hypothesis phi_divs : forall x k, phi (adivs x k) = phi x / k.

Lemma scatter_conserves k g xs (data : list A) mass : wf_sizes g ->
  (forall p, (p < length xs)%nat -> interior k g (nth p xs vzero)) ->
  sumR phi (scatter_to_grid azero aadd ascale adivs (compute_on k g xs) data mass
              (Z.to_nat (num_cells g)) 0 false)
  = sumR (fun p => nth p mass 0 * phi (nth p data azero)) (seq 0 (length xs)).
Proof.
  intros W I. unfold scatter_to_grid.
  rewrite (scatter_add_sum aadd phi phi_add), sumR_repeat, phi_zero, Rmult_0_r, Rplus_0_l, repeat_length, sumR_map.
  rewrite (sumR_ext _ (fun it => it_val it * (nth (it_point it) mass 0 * phi (nth (it_point it) data azero)))).
  - apply (sum_by_point_weight k g xs (fun p => nth p mass 0 * phi (nth p data azero))); assumption.
  - intros it Hin. destruct (compute_in_range k g xs it W Hin) as (Hh & _). cbn [fst snd].
    assert (L : Nat.ltb (Z.to_nat (it_hash it)) (Z.to_nat (num_cells g)) = true) by (apply Nat.ltb_lt; lia).
    rewrite L, phi_scale. rnum. ring.
Qed.

(** weight a node collects *)
Definition node_w (cache : list (Interaction R)) (mass : list R) (i : nat) : R :=
  sumR (fun it => it_val it * nth (it_point it) mass 0) (at_node (Z.of_nat i) cache).

Lemma at_node_sum (cache : list (Interaction R)) (F : Interaction R -> R) i :
  (forall it, In it cache -> (0 <= it_hash it)%Z) ->
  sumR (fun it => if Nat.eqb (Z.to_nat (it_hash it)) i then F it else 0) cache
  = sumR F (at_node (Z.of_nat i) cache).
Proof.
  intros Hh. unfold at_node. rewrite sumR_filter. apply sumR_ext. intros it Hin. specialize (Hh it Hin).
  destruct (Nat.eqb_spec (Z.to_nat (it_hash it)) i), (Z.eqb_spec (it_hash it) (Z.of_nat i)); try reflexivity; lia.
Qed.
Lemma scatter_normalised_nth k g xs (data : list A) mass cutoff i : wf_sizes g -> (i < Z.to_nat (num_cells g))%nat ->
  let cache := compute_on k g xs in
  phi (nth i (scatter_to_grid azero aadd ascale adivs cache data mass (Z.to_nat (num_cells g)) cutoff true) azero)
  = if Rlt_dec cutoff (node_w cache mass i)
    then sumR (fun it => it_val it * nth (it_point it) mass 0 * phi (nth (it_point it) data azero))
              (at_node (Z.of_nat i) cache) / node_w cache mass i
    else 0.
Proof.
  intros W Hi cache. unfold scatter_to_grid.
  assert (Hh : forall it, In it cache -> (0 <= it_hash it)%Z) by (intros it Hin; apply (compute_in_range k g xs it W Hin)).
  rewrite (nth_map_in _ _ _ (azero, 0)) by (rewrite combine_length, !scatter_add_length, !repeat_length; lia).
  rewrite nth_combine_lt by (rewrite !scatter_add_length, !repeat_length; reflexivity). cbn [fst snd].
  set (wi := nth i (scatter_add nadd _ _) 0).
  assert (Ew : wi = node_w cache mass i).
  { unfold wi. rewrite (scatter_add_nth nadd (fun r : R => r) 0) by (try reflexivity; rewrite repeat_length; exact Hi).
    rewrite nth_repeat, sumR_map. unfold node_w. rewrite <- at_node_sum by assumption.
    rnum. rewrite Rplus_0_l. reflexivity. }
  rewrite Ew. rnum. unfold Rltb. destruct (Rlt_dec cutoff (node_w cache mass i)); [|exact phi_zero].
  rewrite phi_divs. f_equal.
  rewrite (scatter_add_nth aadd phi azero phi_add) by (rewrite repeat_length; exact Hi).
  rewrite nth_repeat, phi_zero, Rplus_0_l, sumR_map. rewrite <- at_node_sum by assumption.
  apply sumR_ext. intros it _. cbn [fst snd]. destruct (Nat.eqb _ _); [|reflexivity]. rewrite phi_scale. rnum. ring.
Qed.
Lemma scatter_normalised_const k g xs (data : list A) mass cutoff i c : wf_sizes g ->
  (i < Z.to_nat (num_cells g))%nat -> 0 <= cutoff ->
  (forall p, (p < length xs)%nat -> nth p data azero = c) ->
  let cache := compute_on k g xs in
  phi (nth i (scatter_to_grid azero aadd ascale adivs cache data mass (Z.to_nat (num_cells g)) cutoff true) azero)
  = if Rlt_dec cutoff (node_w cache mass i) then phi c else 0.
Proof.
  intros W Hi Hc Hd cache. unfold cache. rewrite scatter_normalised_nth by assumption. fold cache.
  destruct (Rlt_dec cutoff (node_w cache mass i)) as [L|L]; [|reflexivity].
  rewrite (sumR_ext _ (fun it => it_val it * nth (it_point it) mass 0 * phi c)).
  - rewrite sumR_scal_r. fold (node_w cache mass i). field. lra.
  - intros it Hin. unfold at_node in Hin. apply filter_In in Hin. destruct Hin as (Hin & _).
    rewrite Hd by apply (compute_in_range k g xs it W Hin). reflexivity.
Qed.
(** averages stay between the extreme data *)
Lemma scatter_normalised_bounds k g xs (data : list A) mass cutoff i lo hi : wf_sizes g ->
  (i < Z.to_nat (num_cells g))%nat -> 0 <= cutoff ->
  (forall p, (p < length xs)%nat -> 0 <= nth p mass 0) ->
  (forall p, (p < length xs)%nat -> lo <= phi (nth p data azero) <= hi) ->
  let cache := compute_on k g xs in
  cutoff < node_w cache mass i ->
  lo <= phi (nth i (scatter_to_grid azero aadd ascale adivs cache data mass (Z.to_nat (num_cells g)) cutoff true) azero) <= hi.
Proof.
  intros W Hi Hc Hm Hd cache L. unfold cache. rewrite scatter_normalised_nth by assumption. fold cache.
  destruct (Rlt_dec cutoff (node_w cache mass i)) as [_|N]; [|contradiction].
  set (S := sumR _ _).
  assert (B : lo * node_w cache mass i <= S <= hi * node_w cache mass i).
  { unfold S, node_w. rewrite <- !sumR_scal.
    split; apply sumR_le; intros it Hin; unfold at_node in Hin; apply filter_In in Hin; destruct Hin as (Hin & _);
    destruct (compute_in_range k g xs it W Hin) as (_ & Hp & _);
    pose proof (weight_range k g xs it Hin); specialize (Hm _ Hp); specialize (Hd _ Hp);
    assert (0 <= it_val it * nth (it_point it) mass 0) by (apply Rmult_le_pos; lra); nra. }
  split.
  - apply Rmult_le_reg_r with (node_w cache mass i); [lra|]. unfold Rdiv. rewrite Rmult_assoc, Rinv_l by lra. lra.
  - apply Rmult_le_reg_r with (node_w cache mass i); [lra|]. unfold Rdiv. rewrite Rmult_assoc, Rinv_l by lra. lra.
Qed.

Lemma gather_body_nth k (g : GridDomain R) xs (grid : list A) p : (p < length xs)%nat ->
  let cache := compute_on k g xs in
  phi (nth p (gather_body azero aadd ascale (window_size k (gd_dim g)) cache grid) azero)
  = sumR (fun it => it_val it * phi (nth (Z.to_nat (it_hash it)) grid azero)) (of_point p cache).
Proof.
  intros Hp cache. unfold gather_body.
  rewrite (scatter_add_nth aadd phi azero phi_add).
  - rewrite nth_repeat, phi_zero, Rplus_0_l, sumR_map. unfold of_point. rewrite sumR_filter.
    apply sumR_ext. intros it _. cbn [fst snd]. destruct (Nat.eqb _ _); [apply phi_scale|reflexivity].
  - rewrite repeat_length. unfold cache. rewrite compute_length, Nat.div_mul; [exact Hp|].
    pose proof (window_size_pos k (gd_dim g)). lia.
Qed.
Lemma gather_body_const k (g : GridDomain R) xs (grid : list A) p c : wf_sizes g -> (p < length xs)%nat ->
  interior k g (nth p xs vzero) ->
  (forall i, (i < Z.to_nat (num_cells g))%nat -> nth i grid azero = c) ->
  phi (nth p (gather_body azero aadd ascale (window_size k (gd_dim g)) (compute_on k g xs) grid) azero) = phi c.
Proof.
  intros W Hp I Hg. rewrite gather_body_nth by assumption.
  rewrite (sumR_ext _ (fun it => it_val it * phi c)).
  - rewrite sumR_scal_r, pou by assumption. lra.
  - intros it Hin. apply in_of_point in Hin. destruct Hin as (Hin & _).
    destruct (compute_in_range k g xs it W Hin) as (Hh & _). rewrite Hg by lia. reflexivity.
Qed.
End Scatter.
