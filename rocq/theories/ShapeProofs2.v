(** Node-wise weights, derivatives, node positions, padding, translation (C04-C06, C08-C11, C33). *)
From Coq Require Import List Arith ZArith Reals Bool Lra Lia.
From Flocq Require Import Core.Raux.
From Coquelicot Require Import Coquelicot.
From Verif Require Import Num NumR Linalg Arrays ModelGrid ModelShape Sums ShapeFacts SpecShape ShapeProofs.
Import ListNotations.
Local Open Scope R_scope.

(** ** The stencil covers the support *)
Lemma axis_pick k b i (F : R -> R) : (forall x, x <= - radius k \/ radius k <= x -> F x = 0) ->
  sumR (fun o => if Z.eqb (base_id k b + o) i then F (b - IZR (base_id k b + o)) else 0) (window k)
  = F (b - IZR i).
Proof.
  intros HF. pose proof (base_range k b) as Hr. set (B := base_id k b) in *.
  assert (C : In (i - B)%Z (window k) \/ (b - IZR i <= - radius k \/ radius k <= b - IZR i)).
  { destruct k; cbn [window In radius].
    - destruct (Z_lt_le_dec i B) as [L|L]; [right; right; apply Z.lt_le_pred, IZR_le in L; rewrite <- Z.sub_1_r, minus_IZR in L; lra|].
      destruct (Z_lt_le_dec (B + 1) i) as [U|U]; [right; left; apply Z.le_succ_l, IZR_le in U; rewrite <- Z.add_1_r, !plus_IZR in U; lra|].
      left; lia.
    - destruct (Z_lt_le_dec i B) as [L|L]; [right; right; apply Z.lt_le_pred, IZR_le in L; rewrite <- Z.sub_1_r, minus_IZR in L; lra|].
      destruct (Z_lt_le_dec (B + 2) i) as [U|U]; [right; left; apply Z.le_succ_l, IZR_le in U; rewrite <- Z.add_1_r, !plus_IZR in U; lra|].
      left; lia.
    - destruct (Z_lt_le_dec i (B - 1)) as [L|L]; [right; right; apply Z.lt_le_pred, IZR_le in L; rewrite <- Z.sub_1_r, !minus_IZR in L; lra|].
      destruct (Z_lt_le_dec (B + 2) i) as [U|U]; [right; left; apply Z.le_succ_l, IZR_le in U; rewrite <- Z.add_1_r, !plus_IZR in U; lra|].
      left; lia. }
  destruct C as [Hin|Hout].
  - assert (E : forall o, (if Z.eqb (B + o) i then F (b - IZR (B + o)) else 0)
              = (if Z.eqb o (i - B) then F (b - IZR i) else 0)).
    { intro o. destruct (Z.eqb_spec (B + o) i), (Z.eqb_spec o (i - B)); subst; try reflexivity; lia. }
    rewrite (sumR_ext_all _ _ _ E). rewrite window_sum.
    destruct k; cbn [window In] in Hin;
    repeat (destruct Hin as [<-|Hin]; [simpl; lra|]); contradiction.
  - rewrite (HF (b - IZR i) Hout). apply sumR_zero. intros o _.
    destruct (Z.eqb_spec (B + o) i) as [E|]; [|reflexivity]. rewrite E. apply HF, Hout.
Qed.

(** Row of one stencil slot, seen from a given node. *)
Lemma row_at_node k g x off p s idx (Hd : match gd_dim g with D2 => vz idx = 0%Z | D3 => True end) :
  node_in (gd_size g) idx -> In off (stencil k (gd_dim g)) ->
  let it := single_interaction k (gd_dim g) (gd_origin g) (gd_size g) (gd_inv g) x off p s in
  let me := node_idx k (gd_dim g) (bpos g x) off in
  (if Z.eqb (it_hash it) (ravel (gd_size g) idx) then (it_val it, it_grad it) else (0, vzero))
  = (if (Z.eqb (vx me) (vx idx) && Z.eqb (vy me) (vy idx) && Z.eqb (vz me) (vz idx))%bool
     then (shape_val k (gd_dim g) (dist_vec (gd_dim g) (bpos g x) me),
           shape_grad k (gd_dim g) (gd_inv g) (dist_vec (gd_dim g) (bpos g x) me)) else (0, vzero)).
Proof.
  intros V Ho. cbv zeta. unfold single_interaction; cbn [it_hash it_val it_grad]. fold (bpos g x).
  generalize (node_idx k (gd_dim g) (bpos g x) off) as me; intros me.
  destruct (idx_valid (gd_size g) me) eqn:Ev.
  - apply idx_valid_iff in Ev. rewrite ravel_clip_valid by assumption.
    destruct (Z.eqb_spec (ravel (gd_size g) me) (ravel (gd_size g) idx)) as [E|N].
    + apply ravel_inj in E; try assumption. rewrite E, !Z.eqb_refl. reflexivity.
    + destruct (Z.eqb_spec (vx me) (vx idx)), (Z.eqb_spec (vy me) (vy idx)), (Z.eqb_spec (vz me) (vz idx));
      simpl; try reflexivity. exfalso; apply N; f_equal; apply vec3_eq; assumption.
  - replace (Z.eqb (vx me) (vx idx) && Z.eqb (vy me) (vy idx) && Z.eqb (vz me) (vz idx))%bool with false.
    + destruct (Z.eqb _ _); reflexivity.
    + symmetry. destruct (Z.eqb_spec (vx me) (vx idx)), (Z.eqb_spec (vy me) (vy idx)), (Z.eqb_spec (vz me) (vz idx));
      simpl; try reflexivity. exfalso.
      assert (me = idx) by (apply vec3_eq; assumption). subst idx.
      apply idx_valid_iff in V. congruence.
Qed.
Lemma node_in_z {T} (g : GridDomain T) idx : wf_sizes g -> node_in (gd_size g) idx ->
  match gd_dim g with D2 => vz idx = 0%Z | D3 => True end.
Proof. unfold wf_sizes, node_in. destruct (gd_dim g); intros (? & ? & E); [rewrite E; lia|auto]. Qed.

(** Total weight and gradient one particle gives one node. *)
Lemma weight_at_node k g xs p idx : wf_sizes g -> (p < length xs)%nat -> node_in (gd_size g) idx ->
  sumR it_val (at_node (ravel (gd_size g) idx) (of_point p (compute_on k g xs)))
  = shape_val k (gd_dim g) (dist_vec (gd_dim g) (bpos g (nth p xs vzero)) idx).
Proof.
  intros W Hp V. pose proof (node_in_z g idx W V) as Hd. unfold at_node. rewrite sumR_filter.
  set (x := nth p xs vzero). set (b := bpos g x).
  rewrite (sum_of_point k g xs p _ (fun off =>
     let me := node_idx k (gd_dim g) b off in
     if (Z.eqb (vx me) (vx idx) && Z.eqb (vy me) (vy idx) && Z.eqb (vz me) (vz idx))%bool
     then shape_val k (gd_dim g) (dist_vec (gd_dim g) b me) else 0)); [|assumption|].
  - rewrite (sum_prod3 k (gd_dim g) _
      (fun o => if Z.eqb (base_id k (vx b) + o) (vx idx) then basis k (vx b - IZR (base_id k (vx b) + o)) else 0)
      (fun o => if Z.eqb (base_id k (vy b) + o) (vy idx) then basis k (vy b - IZR (base_id k (vy b) + o)) else 0)
      (fun o => if Z.eqb (base_id k (vz b) + o) (vz idx) then basis k (vz b - IZR (base_id k (vz b) + o)) else 0)).
    + rewrite !(axis_pick k _ _ (basis k)) by apply basis_out.
      unfold shape_val, dist_vec; rnum; destruct (gd_dim g); reflexivity.
    + intros off Ho. unfold shape_val, dist_vec, node_idx; rnum. destruct (gd_dim g); cbn [vx vy vz].
      * rewrite Hd. simpl (Z.eqb 0 0). repeat (destruct (Z.eqb _ _); simpl; try lra).
      * repeat (destruct (Z.eqb _ _); simpl; try lra).
  - intros off s Ho. pose proof (row_at_node k g x off p s idx Hd V Ho) as E. cbv zeta in E.
    fold x. fold b in E.
    apply (f_equal fst) in E. cbv zeta.
    match type of E with fst (if ?c then _ else _) = fst (if ?c2 then _ else _) => destruct c, c2 end;
    simpl in E |- *; exact E.
Qed.
Lemma grad_at_node k g xs p idx a : wf_sizes g -> (p < length xs)%nat -> node_in (gd_size g) idx ->
  sumR (fun it => vcomp a (it_grad it)) (at_node (ravel (gd_size g) idx) (of_point p (compute_on k g xs)))
  = vcomp a (shape_grad k (gd_dim g) (gd_inv g) (dist_vec (gd_dim g) (bpos g (nth p xs vzero)) idx)).
Proof.
  intros W Hp V. pose proof (node_in_z g idx W V) as Hd. unfold at_node. rewrite sumR_filter.
  set (x := nth p xs vzero). set (b := bpos g x).
  rewrite (sum_of_point k g xs p _ (fun off =>
     let me := node_idx k (gd_dim g) b off in
     if (Z.eqb (vx me) (vx idx) && Z.eqb (vy me) (vy idx) && Z.eqb (vz me) (vz idx))%bool
     then vcomp a (shape_grad k (gd_dim g) (gd_inv g) (dist_vec (gd_dim g) b me)) else 0)); [|assumption|].
  - pose (A := fun (a' : nat) => if Nat.eqb (match a with O => 0 | S O => 1 | _ => 2 end)%nat a' then dbasis k (gd_inv g) else basis k).
    assert (HA : forall a' x, x <= - radius k \/ radius k <= x -> A a' x = 0).
    { intros a' y Hy. unfold A. destruct (Nat.eqb _ _); [apply dbasis_out|apply basis_out]; exact Hy. }
    assert (C : (gd_dim g = D2 /\ (2 <= a)%nat) \/ ~ (gd_dim g = D2 /\ (2 <= a)%nat))
      by (destruct (gd_dim g); [destruct (le_lt_dec 2 a)|]; [left|right|right]; intuition (try lia; try discriminate)).
    destruct C as [(Ed & Ha)|C].
    + rewrite Ed. destruct a as [|[|a]]; try lia.
      rewrite sumR_zero; [simpl; rnum; reflexivity|].
      intros off _. cbv zeta. destruct (_ && _ && _)%bool; simpl; rnum; reflexivity.
    + rewrite (sum_prod3 k (gd_dim g) _
      (fun o => if Z.eqb (base_id k (vx b) + o) (vx idx) then A 0%nat (vx b - IZR (base_id k (vx b) + o)) else 0)
      (fun o => if Z.eqb (base_id k (vy b) + o) (vy idx) then A 1%nat (vy b - IZR (base_id k (vy b) + o)) else 0)
      (fun o => if Z.eqb (base_id k (vz b) + o) (vz idx) then A 2%nat (vz b - IZR (base_id k (vz b) + o)) else 0)).
      * rewrite !(axis_pick k _ _ (A _)) by apply HA.
        unfold shape_grad, dist_vec, A; rnum; destruct (gd_dim g); destruct a as [|[|a]]; simpl; try lra.
        exfalso; apply C; split; [reflexivity|lia].
      * intros off Ho. unfold shape_grad, dist_vec, node_idx, A; rnum. destruct (gd_dim g); cbn [vx vy vz].
        -- rewrite Hd. simpl (Z.eqb 0 0). destruct a as [|[|a]]; simpl;
           [| |exfalso; apply C; split; [reflexivity|lia]];
           repeat (destruct (Z.eqb _ _); simpl; try lra).
        -- destruct a as [|[|a]]; simpl; repeat (destruct (Z.eqb _ _); simpl; try lra).
  - intros off s Ho. pose proof (row_at_node k g x off p s idx Hd V Ho) as E. cbv zeta in E.
    fold x. fold b in E.
    apply (f_equal (fun q => vcomp a (snd q))) in E. cbv zeta.
    assert (Z0 : vcomp a (@vzero R _) = 0) by (destruct a as [|[|a]]; reflexivity).
    match type of E with vcomp a (snd (if ?c then _ else _)) = vcomp a (snd (if ?c2 then _ else _)) => destruct c, c2 end;
    cbn [snd] in E |- *; rewrite ?Z0 in E; exact E.
Qed.

(** ** Derivatives of the kernels *)
Lemma is_derive_glue (f fl fr : R -> R) x l d : 0 < d ->
  (forall t, x - d < t <= x -> f t = fl t) -> (forall t, x <= t < x + d -> f t = fr t) ->
  is_derive fl x l -> is_derive fr x l -> is_derive f x l.
Proof.
  intros Hd El Er Dl Dr. apply is_derive_Reals. apply is_derive_Reals in Dl. apply is_derive_Reals in Dr.
  unfold derivable_pt_lim in *. intros eps He.
  destruct (Dl eps He) as (d1 & H1). destruct (Dr eps He) as (d2 & H2).
  assert (Hm : 0 < Rmin d (Rmin d1 d2)) by (repeat apply Rmin_pos; try assumption; apply cond_pos).
  exists (mkposreal _ Hm). simpl. intros h Hh0 Hh.
  assert (Hhd : Rabs h < d) by (eapply Rlt_le_trans; [exact Hh|apply Rmin_l]).
  assert (Hh1 : Rabs h < d1) by (eapply Rlt_le_trans; [exact Hh|]; eapply Rle_trans; [apply Rmin_r|apply Rmin_l]).
  assert (Hh2 : Rabs h < d2) by (eapply Rlt_le_trans; [exact Hh|]; eapply Rle_trans; [apply Rmin_r|apply Rmin_r]).
  apply Rabs_def2 in Hhd.
  destruct (Rle_dec h 0).
  - rewrite (El (x + h)), (El x) by lra. apply H1; assumption.
  - rewrite (Er (x + h)), (Er x) by lra. apply H2; assumption.
Qed.
(** the derivative w.r.t. the dimensionless distance; [dbasis k 1] *)
Ltac dpoly := auto_derive; [trivial|]; try field; try lra.
Lemma quad_derive x : is_derive quad_basis x (quad_dbasis 1 x).
Proof.
  set (fl := fun x => x*x/2 + 3/2*x + 9/8). set (fm := fun x => 3/4 - x*x). set (fr := fun x => x*x/2 - 3/2*x + 9/8).
  destruct (Rlt_dec x (-3/2)). { rewrite dquad_out by lra.
    apply (is_derive_glue _ (fun _ => 0) (fun _ => 0) x 0 (-3/2 - x)); try lra; intros; try (rewrite quad_out; lra); dpoly. }
  destruct (Req_dec x (-3/2)) as [->|]. { rewrite dquad_out by lra.
    apply (is_derive_glue _ (fun _ => 0) fl _ 0 1); unfold fl; try lra; intros; try (rewrite quad_out; lra);
    try (rewrite quad_l; lra); dpoly. }
  destruct (Rlt_dec x (-1/2)). { rewrite dquad_l by lra.
    apply (is_derive_glue _ fl fl x _ (Rmin (x+3/2) (-1/2-x))); unfold fl.
    - apply Rmin_pos; lra.
    - intros t Ht. pose proof (Rmin_l (x+3/2) (-1/2-x)). rewrite quad_l; lra.
    - intros t Ht. pose proof (Rmin_r (x+3/2) (-1/2-x)). rewrite quad_l; lra.
    - dpoly. - dpoly. }
  destruct (Req_dec x (-1/2)) as [->|]. { rewrite dquad_l by lra.
    apply (is_derive_glue _ fl fm _ _ 1); unfold fl, fm; try lra; intros; try (rewrite quad_l; lra);
    try (rewrite quad_m; lra); dpoly. }
  destruct (Rlt_dec x (1/2)). { rewrite dquad_m by lra.
    apply (is_derive_glue _ fm fm x _ (Rmin (x+1/2) (1/2-x))); unfold fm.
    - apply Rmin_pos; lra.
    - intros t Ht. pose proof (Rmin_l (x+1/2) (1/2-x)). rewrite quad_m; lra.
    - intros t Ht. pose proof (Rmin_r (x+1/2) (1/2-x)). rewrite quad_m; lra.
    - dpoly. - dpoly. }
  destruct (Req_dec x (1/2)) as [->|]. { rewrite dquad_m by lra.
    apply (is_derive_glue _ fm fr _ _ 1); unfold fr, fm; try lra; intros; try (rewrite quad_r; lra);
    try (rewrite quad_m; lra); dpoly. }
  destruct (Rlt_dec x (3/2)). { rewrite dquad_r by lra.
    apply (is_derive_glue _ fr fr x _ (Rmin (x-1/2) (3/2-x))); unfold fr.
    - apply Rmin_pos; lra.
    - intros t Ht. pose proof (Rmin_l (x-1/2) (3/2-x)). rewrite quad_r; lra.
    - intros t Ht. pose proof (Rmin_r (x-1/2) (3/2-x)). rewrite quad_r; lra.
    - dpoly. - dpoly. }
  destruct (Req_dec x (3/2)) as [->|]. { rewrite dquad_out by lra.
    apply (is_derive_glue _ fr (fun _ => 0) _ 0 1); unfold fr; try lra; intros; try (rewrite quad_out; lra);
    try (rewrite quad_r; lra); dpoly. }
  rewrite dquad_out by lra.
  apply (is_derive_glue _ (fun _ => 0) (fun _ => 0) x 0 (x - 3/2)); try lra; intros; try (rewrite quad_out; lra); dpoly.
Qed.
Lemma cub_derive x : is_derive cub_basis x (cub_dbasis 1 x).
Proof.
  set (f1 := fun x => (x + 2)*(x + 2)*(x + 2)/6). set (f2 := fun x => 2/3 - x*x - x*x*x/2).
  set (f3 := fun x => 2/3 - x*x + x*x*x/2). set (f4 := fun x => (2 - x)*(2 - x)*(2 - x)/6).
  destruct (Rlt_dec x (-2)). { rewrite dcub_out by lra.
    apply (is_derive_glue _ (fun _ => 0) (fun _ => 0) x 0 (-2 - x)); try lra; intros; try (rewrite cub_out; lra); dpoly. }
  destruct (Req_dec x (-2)) as [->|]. { rewrite dcub_out by lra.
    apply (is_derive_glue _ (fun _ => 0) f1 _ 0 1); unfold f1; try lra; intros; try (rewrite cub_out; lra);
    try (rewrite cub_1; lra); dpoly. }
  destruct (Rlt_dec x (-1)). { rewrite dcub_1 by lra.
    apply (is_derive_glue _ f1 f1 x _ (Rmin (x+2) (-1-x))); unfold f1.
    - apply Rmin_pos; lra.
    - intros t Ht. pose proof (Rmin_l (x+2) (-1-x)). rewrite cub_1; lra.
    - intros t Ht. pose proof (Rmin_r (x+2) (-1-x)). rewrite cub_1; lra.
    - dpoly. - dpoly. }
  destruct (Req_dec x (-1)) as [->|]. { rewrite dcub_1 by lra.
    apply (is_derive_glue _ f1 f2 _ _ 1); unfold f1, f2; try lra; intros; try (rewrite cub_1; lra);
    try (rewrite cub_2; lra); dpoly. }
  destruct (Rlt_dec x 0). { rewrite dcub_2 by lra.
    apply (is_derive_glue _ f2 f2 x _ (Rmin (x+1) (-x))); unfold f2.
    - apply Rmin_pos; lra.
    - intros t Ht. pose proof (Rmin_l (x+1) (-x)). rewrite cub_2; lra.
    - intros t Ht. pose proof (Rmin_r (x+1) (-x)). rewrite cub_2; lra.
    - dpoly. - dpoly. }
  destruct (Req_dec x 0) as [->|]. { rewrite dcub_2 by lra.
    apply (is_derive_glue _ f2 f3 _ _ 1); unfold f2, f3; try lra; intros; try (rewrite cub_2; lra);
    try (rewrite cub_3; lra); dpoly. }
  destruct (Rlt_dec x 1). { rewrite dcub_3 by lra.
    apply (is_derive_glue _ f3 f3 x _ (Rmin x (1-x))); unfold f3.
    - apply Rmin_pos; lra.
    - intros t Ht. pose proof (Rmin_l x (1-x)). rewrite cub_3; lra.
    - intros t Ht. pose proof (Rmin_r x (1-x)). rewrite cub_3; lra.
    - dpoly. - dpoly. }
  destruct (Req_dec x 1) as [->|]. { rewrite dcub_3 by lra.
    apply (is_derive_glue _ f3 f4 _ _ 1); unfold f3, f4; try lra; intros; try (rewrite cub_3; lra);
    try (rewrite cub_4; lra); dpoly. }
  destruct (Rlt_dec x 2). { rewrite dcub_4 by lra.
    apply (is_derive_glue _ f4 f4 x _ (Rmin (x-1) (2-x))); unfold f4.
    - apply Rmin_pos; lra.
    - intros t Ht. pose proof (Rmin_l (x-1) (2-x)). rewrite cub_4; lra.
    - intros t Ht. pose proof (Rmin_r (x-1) (2-x)). rewrite cub_4; lra.
    - dpoly. - dpoly. }
  destruct (Req_dec x 2) as [->|]. { rewrite dcub_4 by lra.
    apply (is_derive_glue _ f4 (fun _ => 0) _ _ 1); unfold f4; try lra; intros; try (rewrite cub_out; lra);
    try (rewrite cub_4; lra); dpoly. }
  rewrite dcub_out by lra.
  apply (is_derive_glue _ (fun _ => 0) (fun _ => 0) x 0 (x - 2)); try lra; intros; try (rewrite cub_out; lra); dpoly.
Qed.
Lemma lin_derive x : x <> -1 -> x <> 0 -> x <> 1 -> is_derive lin_basis x (lin_dbasis 1 x).
Proof.
  intros N1 N2 N3.
  destruct (Rlt_dec x (-1)). { rewrite dlin_out by lra.
    apply (is_derive_glue _ (fun _ => 0) (fun _ => 0) x 0 (-1 - x)); try lra; intros; try (rewrite lin_out; lra); dpoly. }
  destruct (Rlt_dec x 0). { rewrite dlin_neg by lra.
    apply (is_derive_glue _ (fun x => 1 + x) (fun x => 1 + x) x _ (Rmin (x+1) (-x))).
    - apply Rmin_pos; lra.
    - intros t Ht. pose proof (Rmin_l (x+1) (-x)). rewrite lin_neg; lra.
    - intros t Ht. pose proof (Rmin_r (x+1) (-x)). rewrite lin_neg; lra.
    - dpoly. - dpoly. }
  destruct (Rlt_dec x 1). { rewrite dlin_pos by lra.
    apply (is_derive_glue _ (fun x => 1 - x) (fun x => 1 - x) x _ (Rmin x (1-x))).
    - apply Rmin_pos; lra.
    - intros t Ht. pose proof (Rmin_l x (1-x)). rewrite lin_pos; lra.
    - intros t Ht. pose proof (Rmin_r x (1-x)). rewrite lin_pos; lra.
    - dpoly. - dpoly. }
  rewrite dlin_out by lra.
  apply (is_derive_glue _ (fun _ => 0) (fun _ => 0) x 0 (x - 1)); try lra; intros; try (rewrite lin_out; lra); dpoly.
Qed.
(** at a kink, one-sided slopes differ *)
Lemma kink (f : R -> R) x sl sr c d : 0 < d ->
  (forall t, x - d < t <= x -> f t = f x + sl * (t - x)) -> (forall t, x <= t < x + d -> f t = f x + sr * (t - x)) ->
  ex_derive (fun t => c * f t) x -> c * sl = c * sr.
Proof.
  intros Hd El Er (l & D). apply is_derive_Reals in D. unfold derivable_pt_lim in D.
  destruct (Req_dec (c * sl) (c * sr)) as [|N]; [assumption|exfalso].
  assert (He : 0 < Rabs (c * sl - c * sr) / 4) by (apply Rdiv_lt_0_compat; [apply Rabs_pos_lt; lra|lra]).
  destruct (D _ He) as (d1 & H1).
  set (h := Rmin d d1 / 2).
  assert (Hh : 0 < h < Rmin d d1) by (assert (0 < Rmin d d1) by (apply Rmin_pos; [assumption|apply cond_pos]); unfold h; lra).
  pose proof (Rmin_l d d1). pose proof (Rmin_r d d1).
  assert (P : Rabs ((c * f (x + h) - c * f x) / h - l) < Rabs (c * sl - c * sr) / 4)
    by (apply H1; [lra|rewrite Rabs_right; lra]).
  assert (Q : Rabs ((c * f (x + - h) - c * f x) / - h - l) < Rabs (c * sl - c * sr) / 4)
    by (apply H1; [lra|rewrite Rabs_left; lra]).
  rewrite (Er (x + h)) in P by lra. rewrite (El (x + - h)) in Q by lra.
  replace ((c * (f x + sr * (x + h - x)) - c * f x) / h - l) with (c * sr - l) in P by (field; lra).
  replace ((c * (f x + sl * (x + - h - x)) - c * f x) / - h - l) with (c * sl - l) in Q by (field; lra).
  revert P Q. unfold Rabs. repeat destruct (Rcase_abs _); lra.
Qed.

(** one axis of the weight, as a function of the particle coordinate, times a constant *)
Lemma axis_derive k o h i c t :
  ex_derive (fun t => basis k ((t - o) * h - IZR i) * c) t -> 0 < h ->
  is_derive (fun t => basis k ((t - o) * h - IZR i) * c) t (dbasis k h ((t - o) * h - IZR i) * c).
Proof.
  intros Ex Hh. set (x := (t - o) * h - IZR i) in *.
  assert (Lift : forall l, is_derive (basis k) x l ->
      is_derive (fun t => basis k ((t - o) * h - IZR i) * c) t (l * h * c)).
  { intros l Dl. evar_last.
    - apply (is_derive_scal_l (V := R_NormedModule)).
      apply (is_derive_comp (basis k) (fun t => (t - o) * h - IZR i)); [exact Dl|].
      apply (is_derive_ext (fun t => h * t + (- o * h - IZR i))); [intros; simpl; ring|].
      evar_last; [auto_derive; trivial|]. instantiate (1 := h). ring.
    - unfold scal; simpl; unfold mult; simpl. ring. }
  assert (Sc : dbasis k h x = dbasis k 1 x * h).
  { destruct k; simpl; unfold lin_dbasis, quad_dbasis, cub_dbasis; rnum;
    repeat (destruct (_ && _)%bool); try (destruct (Rltb _ _)); ring. }
  rewrite Sc. destruct k; simpl basis in *; simpl dbasis in *.
  2:{ apply Lift, quad_derive. }
  2:{ apply Lift, cub_derive. }
  destruct (Req_dec c 0) as [->|Nc].
  { rewrite Rmult_0_r. apply (is_derive_ext (fun _ => 0)); [intros; rewrite Rmult_0_r; reflexivity|].
    apply (is_derive_const (V := R_NormedModule)). }
  assert (Ai : forall y : R, ((y + IZR i) / h + o - o) * h - IZR i = y) by (intros; field; lra).
  assert (Et : (x + IZR i) / h + o = t) by (unfold x; field; lra).
  assert (D : ex_derive (fun y => c * lin_basis y) x).
  { apply (ex_derive_ext (fun y => lin_basis (((y + IZR i) / h + o - o) * h - IZR i) * c)).
    { intros y. rewrite (Ai y). simpl. ring. }
    apply (ex_derive_comp (fun s => lin_basis ((s - o) * h - IZR i) * c) (fun y => (y + IZR i) / h + o)).
    - rewrite Et. exact Ex.
    - auto_derive; lra. }
  apply Lift, lin_derive.
  - intros E. rewrite E in D.
    pose proof (kink lin_basis (-1) 0 1 c 1 ltac:(lra)) as K.
    enough (c * 0 = c * 1) by lra. apply K; [| |exact D]; intros s Hs; rewrite (lin_out (-1)) by lra.
    + rewrite lin_out; lra.
    + rewrite lin_neg; lra.
  - intros E. rewrite E in D.
    pose proof (kink lin_basis 0 1 (-1) c 1 ltac:(lra)) as K.
    enough (c * 1 = c * (-1)) by lra. apply K; [| |exact D]; intros s Hs; rewrite (lin_pos 0) by lra.
    + rewrite lin_neg; lra.
    + rewrite lin_pos; lra.
  - intros E. rewrite E in D.
    pose proof (kink lin_basis 1 (-1) 0 c 1 ltac:(lra)) as K.
    enough (c * (-1) = c * 0) by lra. apply K; [| |exact D]; intros s Hs; rewrite (lin_out 1) by lra.
    + rewrite lin_pos; lra.
    + rewrite lin_out; lra.
Qed.

(** weight of the particle at node i of the grid, as the solver sees it *)
Definition node_weight k g (i : Z) (x : vec3 R) : R := sumR it_val (at_node i (compute_on k g [x])).
Definition node_grad k g (i : Z) (x : vec3 R) : vec3 R := vsum it_grad (at_node i (compute_on k g [x])).
Lemma of_point_single k (g : GridDomain R) x : of_point 0 (compute_on k g [x]) = compute_on k g [x].
Proof.
  unfold of_point. apply filter_all. intros it Hin. apply in_compute in Hin.
  destruct Hin as (p & s & Hp & _ & ->). simpl in *. apply Nat.eqb_eq; lia.
Qed.
Lemma node_weight_eq k g idx x : wf_sizes g -> node_in (gd_size g) idx ->
  node_weight k g (ravel (gd_size g) idx) x = shape_val k (gd_dim g) (dist_vec (gd_dim g) (bpos g x) idx).
Proof.
  intros W V. unfold node_weight. rewrite <- of_point_single.
  apply (weight_at_node k g [x] 0); [assumption|simpl; lia|assumption].
Qed.
Lemma node_grad_eq k g idx x : wf_sizes g -> node_in (gd_size g) idx ->
  node_grad k g (ravel (gd_size g) idx) x
  = shape_grad k (gd_dim g) (gd_inv g) (dist_vec (gd_dim g) (bpos g x) idx).
Proof.
  intros W V. unfold node_grad. rewrite <- of_point_single.
  apply vec3_eq; simpl.
  - apply (grad_at_node k g [x] 0 idx 0); [assumption|simpl; lia|assumption].
  - apply (grad_at_node k g [x] 0 idx 1); [assumption|simpl; lia|assumption].
  - apply (grad_at_node k g [x] 0 idx 2); [assumption|simpl; lia|assumption].
Qed.
Lemma gradient_is_derivative k g idx x a : wf_sizes g -> 0 < gd_inv g -> node_in (gd_size g) idx ->
  (a < dim_nat (gd_dim g))%nat ->
  ex_derive (fun t => node_weight k g (ravel (gd_size g) idx) (vset a t x)) (vcomp a x) ->
  is_derive (fun t => node_weight k g (ravel (gd_size g) idx) (vset a t x)) (vcomp a x)
            (vcomp a (node_grad k g (ravel (gd_size g) idx) x)).
Proof.
  intros W Hh V Ha Ex. rewrite node_grad_eq by assumption.
  set (oa := vcomp a (gd_origin g)). set (ia := vcomp a idx).
  assert (exists c, forall t, node_weight k g (ravel (gd_size g) idx) (vset a t x)
             = basis k ((t - oa) * gd_inv g - IZR ia) * c
           /\ vcomp a (shape_grad k (gd_dim g) (gd_inv g) (dist_vec (gd_dim g) (bpos g x) idx))
             = dbasis k (gd_inv g) ((vcomp a x - oa) * gd_inv g - IZR ia) * c) as (c & Hc).
  { unfold oa, ia, dim_nat in *. destruct (gd_dim g) eqn:Ed; destruct a as [|[|[|a]]]; try lia; eexists; intros t;
    rewrite node_weight_eq by assumption; rewrite Ed;
    unfold shape_val, shape_grad, dist_vec, bpos, base_pos; rewrite Ed; rnum; simpl.
    - split; reflexivity.
    - split; [apply Rmult_comm|reflexivity].
    - split; [apply Rmult_assoc|apply Rmult_assoc].
    - split; [|apply Rmult_assoc]. rewrite (Rmult_comm (basis k _) (basis k ((t - _) * _ - _))), Rmult_assoc. reflexivity.
    - split; [|apply Rmult_assoc]. rewrite Rmult_comm. reflexivity. }
  rewrite (proj2 (Hc 0)).
  apply (is_derive_ext (fun t => basis k ((t - oa) * gd_inv g - IZR ia) * c)).
  { intros t. symmetry. apply Hc. }
  apply axis_derive; [|assumption].
  apply (ex_derive_ext (fun t => node_weight k g (ravel (gd_size g) idx) (vset a t x))); [|assumption].
  intros t. apply Hc.
Qed.
(** quadratic and cubic weights are differentiable everywhere *)
Lemma smooth_kernels k g idx x a : k <> Linear -> wf_sizes g -> node_in (gd_size g) idx ->
  (a < dim_nat (gd_dim g))%nat ->
  ex_derive (fun t => node_weight k g (ravel (gd_size g) idx) (vset a t x)) (vcomp a x).
Proof.
  intros Hk W V Ha.
  set (oa := vcomp a (gd_origin g)). set (ia := vcomp a idx).
  assert (exists c, forall t, node_weight k g (ravel (gd_size g) idx) (vset a t x)
             = basis k ((t - oa) * gd_inv g - IZR ia) * c) as (c & Hc).
  { unfold oa, ia, dim_nat in *. destruct (gd_dim g) eqn:Ed; destruct a as [|[|[|a]]]; try lia; eexists; intros t;
    rewrite node_weight_eq by assumption; rewrite Ed;
    unfold shape_val, dist_vec, bpos, base_pos; rewrite Ed; rnum; simpl.
    - reflexivity.
    - apply Rmult_comm.
    - apply Rmult_assoc.
    - rewrite (Rmult_comm (basis k _) (basis k ((t - _) * _ - _))), Rmult_assoc. reflexivity.
    - rewrite Rmult_comm. reflexivity. }
  apply (ex_derive_ext (fun t => basis k ((t - oa) * gd_inv g - IZR ia) * c)).
  { intros t. symmetry. apply Hc. }
  apply (ex_derive_mult (fun t => basis k ((t - oa) * gd_inv g - IZR ia)) (fun _ => c)); [|apply ex_derive_const].
  apply (ex_derive_comp (basis k) (fun t => (t - oa) * gd_inv g - IZR ia)).
  - destruct k; [congruence| |]; simpl; eexists; [apply quad_derive|apply cub_derive].
  - auto_derive; trivial.
Qed.
