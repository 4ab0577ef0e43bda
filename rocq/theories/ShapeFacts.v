(** One-dimensional facts about the kernels over the reals. *)
From Coq Require Import List Arith ZArith Reals Bool Lra Lia.
From Flocq Require Import Core.Raux.
From Verif Require Import Num NumR Linalg Arrays ModelGrid ModelShape Sums.
Import ListNotations.
Local Open Scope R_scope.

Ltac kcases :=
  unfold lin_basis, lin_dbasis, quad_basis, quad_dbasis, cub_basis, cub_dbasis;
  rewrite ?nabs_R; unfold nsign; rnum; repeat (rcase; simpl andb; cbv iota; try lra).
Ltac knot x c := assert (x = c) by lra; subst x; try field; lra.

(** Closed forms on closed intervals. *)
Lemma lin_pos x : 0 <= x <= 1 -> lin_basis x = 1 - x.
Proof. intros. unfold lin_basis; rewrite nabs_R, Rabs_right by lra. rnum; rcase; lra. Qed.
Lemma lin_neg x : -1 <= x <= 0 -> lin_basis x = 1 + x.
Proof. intros. unfold lin_basis; rewrite nabs_R, Rabs_left1 by lra. rnum; rcase; lra. Qed.
Lemma lin_out x : x <= -1 \/ 1 <= x -> lin_basis x = 0.
Proof.
  intros. unfold lin_basis; rewrite nabs_R. rnum; rcase; [|lra].
  unfold Rabs in E; destruct (Rcase_abs x); lra.
Qed.
Lemma dlin_pos h x : 0 < x < 1 -> lin_dbasis h x = - h.
Proof. intros. unfold lin_dbasis; rewrite nabs_R, Rabs_right, nsign_R_pos by lra. rnum; rcase; lra. Qed.
Lemma dlin_neg h x : -1 < x < 0 -> lin_dbasis h x = h.
Proof. intros. unfold lin_dbasis; rewrite nabs_R, Rabs_left1, nsign_R_neg by lra. rnum; rcase; lra. Qed.
Lemma dlin_0 h : lin_dbasis h 0 = 0.
Proof. unfold lin_dbasis; rewrite nabs_R, Rabs_R0, nsign_R_0. rnum; rcase; lra. Qed.
Lemma dlin_out h x : x <= -1 \/ 1 <= x -> lin_dbasis h x = 0.
Proof.
  intros. unfold lin_dbasis; rewrite nabs_R. rnum; rcase; [|lra].
  unfold Rabs in E; destruct (Rcase_abs x); lra.
Qed.

Lemma quad_l x : -3/2 <= x <= -1/2 -> quad_basis x = x*x/2 + 3/2*x + 9/8.
Proof. intros; kcases. Qed.
Lemma quad_m x : -1/2 <= x <= 1/2 -> quad_basis x = 3/4 - x*x.
Proof. intros; kcases; knot x (-1/2). Qed.
Lemma quad_r x : 1/2 <= x <= 3/2 -> quad_basis x = x*x/2 - 3/2*x + 9/8.
Proof. intros; kcases; knot x (1/2). Qed.
Lemma quad_out x : x <= -3/2 \/ 3/2 <= x -> quad_basis x = 0.
Proof. intros; kcases; first [knot x (-3/2) | knot x (3/2)]. Qed.
Lemma dquad_l h x : -3/2 <= x <= -1/2 -> quad_dbasis h x = h * (x + 3/2).
Proof. intros; kcases. Qed.
Lemma dquad_m h x : -1/2 <= x <= 1/2 -> quad_dbasis h x = h * (-2*x).
Proof. intros; kcases; knot x (-1/2). Qed.
Lemma dquad_r h x : 1/2 <= x <= 3/2 -> quad_dbasis h x = h * (x - 3/2).
Proof. intros; kcases; knot x (1/2). Qed.
Lemma dquad_out h x : x <= -3/2 \/ 3/2 <= x -> quad_dbasis h x = 0.
Proof. intros; kcases; first [knot x (-3/2) | knot x (3/2)]. Qed.

Lemma cub_1 x : -2 <= x <= -1 -> cub_basis x = (x + 2)*(x + 2)*(x + 2)/6.
Proof. intros; kcases; try (field; lra); knot x (-1). Qed.
Lemma cub_2 x : -1 <= x <= 0 -> cub_basis x = 2/3 - x*x - x*x*x/2.
Proof. intros; kcases; try (field; lra); knot x 0. Qed.
Lemma cub_3 x : 0 <= x <= 1 -> cub_basis x = 2/3 - x*x + x*x*x/2.
Proof. intros; kcases; try (field; lra); knot x 1. Qed.
Lemma cub_4 x : 1 <= x <= 2 -> cub_basis x = (2 - x)*(2 - x)*(2 - x)/6.
Proof. intros; kcases; try (field; lra); knot x 2. Qed.
Lemma cub_out x : x <= -2 \/ 2 <= x -> cub_basis x = 0.
Proof. intros; kcases; first [knot x (-2) | knot x 2]. Qed.
Lemma dcub_1 h x : -2 <= x <= -1 -> cub_dbasis h x = h * ((x + 2)*(x + 2)/2).
Proof. intros; kcases; try (field; lra); knot x (-1). Qed.
Lemma dcub_2 h x : -1 <= x <= 0 -> cub_dbasis h x = h * (- 2*x - 3/2*x*x).
Proof. intros; kcases; try (field; lra); knot x 0. Qed.
Lemma dcub_3 h x : 0 <= x <= 1 -> cub_dbasis h x = h * (- 2*x + 3/2*x*x).
Proof. intros; kcases; try (field; lra); knot x 1. Qed.
Lemma dcub_4 h x : 1 <= x <= 2 -> cub_dbasis h x = h * (- ((2 - x)*(2 - x)/2)).
Proof. intros; kcases; try (field; lra); knot x 2. Qed.
Lemma dcub_out h x : x <= -2 \/ 2 <= x -> cub_dbasis h x = 0.
Proof. intros; kcases; first [knot x (-2) | knot x 2]. Qed.

(** Distance of a point from its leftmost stencil node, per kernel. *)
Lemma base_range k b :
  match k with
  | Quadratic => 1/2 <= b - IZR (base_id k b) < 3/2
  | _ => 0 <= b - IZR (base_id k b) < 1
  end.
Proof.
  unfold base_id; rnum. destruct k.
  - pose proof (Zfloor_lb b). pose proof (Zfloor_ub b). lra.
  - pose proof (Zfloor_lb (b - 1/2)). pose proof (Zfloor_ub (b - 1/2)). lra.
  - pose proof (Zfloor_lb b). pose proof (Zfloor_ub b). lra.
Qed.

(** Window sums of an arbitrary function. *)
Lemma window_sum (g : Z -> R) k :
  sumR g (window k) = match k with
   | Linear => g 0%Z + g 1%Z
   | Quadratic => g 0%Z + (g 1%Z + g 2%Z)
   | Cubic => g (-1)%Z + (g 0%Z + (g 1%Z + g 2%Z)) end.
Proof. destruct k; unfold window; rewrite ?sumR_cons, sumR_nil; lra. Qed.

Ltac axis_setup k b :=
  let Hr := fresh "Hr" in
  pose proof (base_range k b) as Hr;
  rewrite window_sum;
  let f := fresh "f" in let Ef := fresh "Ef" in
  remember (b - IZR (base_id k b)) as f eqn:Ef;
  repeat match goal with
  | |- context [b - IZR (base_id k b + ?o)] =>
      replace (b - IZR (base_id k b + o)) with (f - IZR o) by (rewrite plus_IZR; lra)
  end; clear Ef.

Lemma axis_pou k b : sumR (fun o => basis k (b - IZR (base_id k b + o))) (window k) = 1.
Proof.
  axis_setup k b. destruct k; simpl basis.
  - rewrite lin_pos, lin_neg by lra. lra.
  - rewrite quad_r, quad_m, quad_l by lra. field.
  - rewrite cub_4, cub_3, cub_2, cub_1 by lra. field.
Qed.
Lemma axis_dsum k h b : sumR (fun o => dbasis k h (b - IZR (base_id k b + o))) (window k) = 0.
Proof.
  axis_setup k b. destruct k; simpl dbasis.
  - destruct (Req_dec f 0) as [->|N].
    + rewrite Rminus_0_r, dlin_0, dlin_out by lra. lra.
    + rewrite dlin_pos, dlin_neg by lra. lra.
  - rewrite dquad_r, dquad_m, dquad_l by lra. field.
  - rewrite dcub_4, dcub_3, dcub_2, dcub_1 by lra. field.
Qed.
(** first moment about the point *)
Lemma axis_moment k b :
  sumR (fun o => basis k (b - IZR (base_id k b + o)) * (b - IZR (base_id k b + o))) (window k) = 0.
Proof.
  axis_setup k b. destruct k; simpl basis.
  - rewrite lin_pos, lin_neg by lra. field.
  - rewrite quad_r, quad_m, quad_l by lra. field.
  - rewrite cub_4, cub_3, cub_2, cub_1 by lra. field.
Qed.
Lemma axis_dmoment k h b :
  (k = Linear -> IZR (base_id k b) <> b) ->
  sumR (fun o => dbasis k h (b - IZR (base_id k b + o)) * (b - IZR (base_id k b + o))) (window k) = - h.
Proof.
  intros Hk. destruct (Req_dec (b - IZR (base_id k b)) 0) as [E|N].
  - assert (Hk' : k = Linear -> False) by (intros ->; apply Hk; [reflexivity|lra]).
    axis_setup k b. subst f. destruct k; simpl dbasis.
    + exfalso; auto.
    + exfalso; lra.
    + rewrite dcub_4, dcub_3, dcub_2, dcub_1 by lra. field.
  - axis_setup k b. destruct k; simpl dbasis.
    + rewrite dlin_pos, dlin_neg by lra. lra.
    + rewrite dquad_r, dquad_m, dquad_l by lra. field.
    + rewrite dcub_4, dcub_3, dcub_2, dcub_1 by lra. field.
Qed.

(** value ranges *)
Lemma basis_range k x : 0 <= basis k x <= 1.
Proof.
  destruct k; simpl.
  - destruct (Rle_dec x (-1)). { rewrite lin_out; lra. }
    destruct (Rle_dec x 0). { rewrite lin_neg; lra. }
    destruct (Rle_dec x 1). { rewrite lin_pos; lra. }
    rewrite lin_out; lra.
  - destruct (Rle_dec x (-3/2)). { rewrite quad_out; lra. }
    destruct (Rle_dec x (-1/2)). { rewrite quad_l by lra. nra. }
    destruct (Rle_dec x (1/2)). { rewrite quad_m by lra. nra. }
    destruct (Rle_dec x (3/2)). { rewrite quad_r by lra. nra. }
    rewrite quad_out; lra.
  - destruct (Rle_dec x (-2)). { rewrite cub_out; lra. }
    destruct (Rle_dec x (-1)). { rewrite cub_1 by lra. 
      assert (0 <= (x+2)*(x+2) <= 1) by nra. split; nra. }
    destruct (Rle_dec x 0). { rewrite cub_2 by lra. assert (0 <= x*x <= 1) by nra. split; nra. }
    destruct (Rle_dec x 1). { rewrite cub_3 by lra. assert (0 <= x*x <= 1) by nra. split; nra. }
    destruct (Rle_dec x 2). { rewrite cub_4 by lra.
      assert (0 <= (2-x)*(2-x) <= 1) by nra. split; nra. }
    rewrite cub_out; lra.
Qed.

(** support radius of a kernel *)
Definition radius (k : Kernel) : R := match k with Linear => 1 | Quadratic => 3/2 | Cubic => 2 end.
Lemma basis_out k x : x <= - radius k \/ radius k <= x -> basis k x = 0.
Proof.
  intros; destruct k; simpl in *; [apply lin_out|apply quad_out|apply cub_out]; lra.
Qed.
Lemma dbasis_out k h x : x <= - radius k \/ radius k <= x -> dbasis k h x = 0.
Proof.
  intros; destruct k; simpl in *; [apply dlin_out|apply dquad_out|apply dcub_out]; lra.
Qed.
