(** Node positions, grid membership, padding, translation (C04, C05, C08, C09, C11, C33). *)
From Coq Require Import List Arith ZArith Reals Bool Lra Lia.
From Flocq Require Import Core.Raux.
From Verif Require Import Num NumR Linalg Arrays ModelGrid ModelShape Sums ShapeFacts SpecShape ShapeProofs ShapeProofs2.
Import ListNotations.
Local Open Scope R_scope.

(** coordinate (in cells from the first node) of the node a row refers to, from the particle position and rel_dist *)
Definition row_coord (g : GridDomain R) (x : vec3 R) (it : Interaction R) (a : nat) : R :=
  (vcomp a x - vcomp a (gd_origin g)) * gd_inv g - vcomp a (it_dist it).
(** that node exists in the grid *)
Definition row_in_grid (g : GridDomain R) (x : vec3 R) (it : Interaction R) : Prop :=
  forall a, (a < dim_nat (gd_dim g))%nat ->
    0 <= row_coord g x it a <= IZR (vcomp a (gd_size g)) - 1.
(** position the grid stores for the row's node *)
Definition row_pos (g : GridDomain R) (it : Interaction R) : vec3 R :=
  nth (Z.to_nat (it_hash it)) (position_stack g) vzero.

Section Row.
Variables (k : Kernel) (g : GridDomain R) (x : vec3 R) (off : vec3 Z) (p s : nat).
Let it := single_interaction k (gd_dim g) (gd_origin g) (gd_size g) (gd_inv g) x off p s.
Let idx := node_idx k (gd_dim g) (bpos g x) off.

Lemma row_coord_idx a : (a < dim_nat (gd_dim g))%nat -> row_coord g x it a = IZR (vcomp a idx).
Proof.
  unfold row_coord, it, idx, dim_nat, bpos. simpl. unfold dist_vec, node_idx, base_pos. rnum.
  destruct (gd_dim g); destruct a as [|[|[|a]]]; intros; try lia; simpl; lra.
Qed.
Lemma row_in_grid_iff : wf_sizes g -> (row_in_grid g x it <-> node_in (gd_size g) idx).
Proof.
  intros (Hx & Hy & Hz). unfold row_in_grid.
  assert (Conv : forall i n, 0 <= IZR i <= IZR n - 1 <-> (0 <= i < n)%Z).
  { intros i n. rewrite <- minus_IZR. split.
    - intros (A & B). apply (le_IZR 0) in A. apply le_IZR in B. lia.
    - intros (A & B). split; [apply (IZR_le 0); lia|apply IZR_le; lia]. }
  split.
  - intros Hr. unfold node_in.
    pose proof (Hr 0%nat) as H0. pose proof (Hr 1%nat) as H1. pose proof (Hr 2%nat) as H2.
    rewrite row_coord_idx in H0 by (destruct (gd_dim g); simpl; lia).
    rewrite row_coord_idx in H1 by (destruct (gd_dim g); simpl; lia).
    split; [|split].
    + apply Conv, H0. destruct (gd_dim g); simpl; lia.
    + apply Conv, H1. destruct (gd_dim g); simpl; lia.
    + assert (D : gd_dim g = D2 \/ gd_dim g = D3) by (destruct (gd_dim g); auto).
      destruct D as [Ed|Ed].
      * unfold idx, node_idx; rewrite Ed in *. simpl. lia.
      * rewrite row_coord_idx in H2 by (rewrite Ed; simpl; lia). apply Conv, H2; rewrite Ed; simpl; lia.
  - intros (V1 & V2 & V3) a Ha. rewrite row_coord_idx by assumption.
    apply Conv. unfold dim_nat in Ha. destruct a as [|[|[|a]]]; simpl; assumption.
Qed.
Lemma row_hash : node_in (gd_size g) idx -> it_hash it = ravel (gd_size g) idx.
Proof. intros V. unfold it. simpl. apply ravel_clip_valid. exact V. Qed.
Lemma row_outside : wf_sizes g -> ~ row_in_grid g x it -> it_val it = 0 /\ it_grad it = vzero.
Proof.
  intros W N. rewrite row_in_grid_iff in N by assumption.
  unfold it; simpl. fold (bpos g x). fold idx.
  destruct (idx_valid (gd_size g) idx) eqn:E; [|split; rnum; reflexivity].
  apply idx_valid_iff in E. contradiction.
Qed.
Lemma row_pos_dist a : wf_grid g -> node_in (gd_size g) idx -> (a < dim_nat (gd_dim g))%nat ->
  vcomp a (row_pos g it) = vcomp a x - gd_cell g * vcomp a (it_dist it).
Proof.
  intros (W & Hc & Hi) V Ha. unfold row_pos. rewrite row_hash by assumption.
  rewrite position_stack_nth by assumption.
  pose proof (row_coord_idx a Ha) as E. unfold row_coord in E. rewrite Hi in E.
  assert (E2 : vcomp a (mesh_pos g idx) = IZR (vcomp a idx) * gd_cell g + vcomp a (gd_origin g)).
  { unfold mesh_pos, dim_nat in *. destruct (gd_dim g); destruct a as [|[|[|a]]]; try lia; reflexivity. }
  rewrite E2, <- E. field. lra.
Qed.
End Row.

Lemma compute_row k (g : GridDomain R) xs it : In it (compute_on k g xs) ->
  exists off, In off (stencil k (gd_dim g)) /\ nth (it_stencil it) (stencil k (gd_dim g)) (V3 0%Z 0%Z 0%Z) = off /\
  (it_point it < length xs)%nat /\ (it_stencil it < window_size k (gd_dim g))%nat /\
  it = single_interaction k (gd_dim g) (gd_origin g) (gd_size g) (gd_inv g)
         (nth (it_point it) xs vzero) off (it_point it) (it_stencil it).
Proof.
  intros Hin. destruct (in_compute _ _ _ _ Hin) as (p & s & Hp & Hs & E). subst it. simpl.
  exists (nth s (stencil k (gd_dim g)) (V3 0%Z 0%Z 0%Z)).
  split; [apply nth_In; exact Hs|]. auto.
Qed.

Lemma outside_nothing k g xs it : wf_sizes g -> In it (compute_on k g xs) ->
  ~ row_in_grid g (nth (it_point it) xs vzero) it -> it_val it = 0 /\ it_grad it = vzero.
Proof.
  intros W Hin N. destruct (compute_row k g xs it Hin) as (off & Ho & _ & Hp & Hs & E).
  rewrite E in N |- *. simpl it_point in N. apply row_outside in N; assumption.
Qed.
Lemma hash_pos_dist k g xs it a : wf_grid g -> In it (compute_on k g xs) ->
  row_in_grid g (nth (it_point it) xs vzero) it -> (a < dim_nat (gd_dim g))%nat ->
  vcomp a (row_pos g it) = vcomp a (nth (it_point it) xs vzero) - gd_cell g * vcomp a (it_dist it).
Proof.
  intros W Hin N Ha. destruct (compute_row k g xs it Hin) as (off & Ho & _ & Hp & Hs & E).
  rewrite E in N |- *. simpl it_point in *. pose proof (proj1 W) as Ws.
  apply row_in_grid_iff in N; [|assumption]. apply row_pos_dist; assumption.
Qed.
Lemma stencil_NoDup k d : NoDup (stencil k d).
Proof.
  assert (D : forall (a b : vec3 Z), {a = b} + {a <> b}) by (decide equality; apply Z.eq_dec).
  assert (G : forall l : list (vec3 Z), nodup D l = l -> NoDup l) by (intros l <-; apply NoDup_nodup).
  destruct d, k; simpl; repeat constructor; simpl; intuition congruence.
Qed.
Lemma node_idx_inj k d bp o1 o2 : In o1 (stencil k d) -> In o2 (stencil k d) ->
  node_idx (T:=R) k d bp o1 = node_idx k d bp o2 -> o1 = o2.
Proof.
  intros H1 H2 E. apply in_stencil in H1, H2. unfold node_idx in E. injection E as E1 E2 E3.
  apply vec3_eq; try lia. destruct d; lia.
Qed.
Lemma slots_distinct k g xs it1 it2 : wf_sizes g -> In it1 (compute_on k g xs) -> In it2 (compute_on k g xs) ->
  it_point it1 = it_point it2 -> it_hash it1 = it_hash it2 ->
  row_in_grid g (nth (it_point it1) xs vzero) it1 -> row_in_grid g (nth (it_point it2) xs vzero) it2 ->
  it_stencil it1 = it_stencil it2.
Proof.
  intros W I1 I2 Ep Eh R1 R2.
  destruct (compute_row k g xs it1 I1) as (o1 & Ho1 & N1 & Hp1 & Hs1 & E1).
  destruct (compute_row k g xs it2 I2) as (o2 & Ho2 & N2 & Hp2 & Hs2 & E2).
  rewrite E1 in R1, Eh. rewrite E2 in R2, Eh. simpl it_point in R1, R2.
  apply row_in_grid_iff in R1; [|assumption]. apply row_in_grid_iff in R2; [|assumption].
  rewrite !row_hash in Eh by assumption. rewrite <- Ep in *.
  apply ravel_inj in Eh; try assumption. apply node_idx_inj in Eh; try assumption. subst o2.
  apply (NoDup_nth (stencil k (gd_dim g)) (V3 0%Z 0%Z 0%Z)); try assumption.
  - apply stencil_NoDup.
  - congruence.
Qed.

Lemma in_of_point {T} p (c : list (Interaction T)) it : In it (of_point p c) -> In it c /\ it_point it = p.
Proof. unfold of_point. rewrite filter_In, Nat.eqb_eq. tauto. Qed.
Lemma interior_rows_in_grid k g xs p it : wf_sizes g -> interior k g (nth p xs vzero) ->
  In it (of_point p (compute_on k g xs)) -> row_in_grid g (nth p xs vzero) it.
Proof.
  intros W I Hin. apply in_of_point in Hin. destruct Hin as (Hin & <-).
  destruct (compute_row k g xs it Hin) as (off & Ho & _ & Hp & Hs & E). rewrite E. simpl it_point.
  apply row_in_grid_iff; [assumption|]. apply interior_valid; assumption.
Qed.

Lemma reproduce_position k g xs p a : wf_grid g -> (p < length xs)%nat -> interior k g (nth p xs vzero) ->
  (a < dim_nat (gd_dim g))%nat ->
  sumR (fun it => it_val it * vcomp a (row_pos g it)) (of_point p (compute_on k g xs))
  = vcomp a (nth p xs vzero).
Proof.
  intros W Hp I Ha. pose proof (proj1 W) as Ws. set (x := nth p xs vzero) in *.
  rewrite (sumR_ext _ (fun it => it_val it * vcomp a x - gd_cell g * (it_val it * vcomp a (it_dist it)))).
  - rewrite sumR_minus, sumR_scal_r, sumR_scal, pou, moment_zero by assumption. lra.
  - intros it Hin. pose proof (interior_rows_in_grid k g xs p it Ws I Hin) as Rg.
    apply in_of_point in Hin. destruct Hin as (Hin & Ep).
    rewrite (hash_pos_dist k g xs it a W Hin) by (rewrite ?Ep; assumption). rewrite Ep. fold x. lra.
Qed.
Lemma reproduce_gradient k g xs p a c : wf_grid g -> (p < length xs)%nat -> interior k g (nth p xs vzero) ->
  (a < dim_nat (gd_dim g))%nat -> (c < dim_nat (gd_dim g))%nat ->
  (k = Linear -> forall j, (vcomp a (nth p xs vzero) - vcomp a (gd_origin g)) * gd_inv g <> IZR j) ->
  sumR (fun it => vcomp a (it_grad it) * vcomp c (row_pos g it)) (of_point p (compute_on k g xs)) = kron a c.
Proof.
  intros W Hp I Ha Hc Hl. pose proof (proj1 W) as Ws. set (x := nth p xs vzero) in *.
  rewrite (sumR_ext _ (fun it => vcomp a (it_grad it) * vcomp c x - gd_cell g * (vcomp a (it_grad it) * vcomp c (it_dist it)))).
  - rewrite sumR_minus, sumR_scal_r, sumR_scal.
    rewrite (grad_moment k g xs p a c) by
      (try assumption; intros -> Hk; unfold bpos, base_pos; rnum;
       destruct (gd_dim g); destruct c as [|[|[|c]]]; simpl in Ha; try lia; simpl; intro Hn; apply (Hl Hk _ (eq_sym Hn))).
    pose proof (grads_sum_zero k g xs p Ws Hp I) as Gz.
    assert (G : sumR (fun it => vcomp a (it_grad it)) (of_point p (compute_on k g xs)) = 0).
    { destruct a as [|[|a]]; [apply (f_equal vx) in Gz|apply (f_equal vy) in Gz|apply (f_equal vz) in Gz]; exact Gz. }
    rewrite G. destruct W as (_ & Hcell & Hi). rewrite Hi. field. lra.
  - intros it Hin. pose proof (interior_rows_in_grid k g xs p it Ws I Hin) as Rg.
    apply in_of_point in Hin. destruct Hin as (Hin & Ep).
    rewrite (hash_pos_dist k g xs it c W Hin) by (rewrite ?Ep; assumption). rewrite Ep. fold x. lra.
Qed.

(** ** GridDomain.create *)
Lemma Ztrunc_shift r m : 0 <= r -> (0 <= m)%Z -> Ztrunc (r + IZR m) = (Zfloor r + m)%Z.
Proof.
  intros Hr Hm. assert (0 <= r + IZR m) by (pose proof (IZR_le 0 m Hm); lra).
  rewrite Ztrunc_floor by assumption.
  apply Zfloor_imp. rewrite !plus_IZR. pose proof (Zfloor_lb r). pose proof (Zfloor_ub r). lra.
Qed.
Lemma axis_size_R (o e h : R) p : 0 < h -> o <= e -> (0 <= p)%Z ->
  axis_size o e h p = (Zfloor ((e - o) / h) + (2 * p + 1))%Z.
Proof.
  intros Hh Hoe Hp. unfold axis_size, padded_hi, padded_lo; rnum.
  replace ((e + IZR p * h - (o - IZR p * h)) / h + 1) with ((e - o) / h + IZR (2 * p + 1)).
  - apply Ztrunc_shift; [apply Rle_mult_inv_pos; lra|lia].
  - rewrite plus_IZR, mult_IZR. field. lra.
Qed.
(** padding needed by each kernel so that the stencil of every point of the user's box fits *)
Definition pad_needed (k : Kernel) : Z := match k with Linear => 1 | _ => 2 end.
Lemma created_interior1 k (o e h : R) p x : 0 < h -> (pad_needed k <= p)%Z -> o <= x <= e ->
  interior1 k (axis_size o e h p) ((x - padded_lo o h p) * (1 / h)).
Proof.
  intros Hh Hp Hx. rewrite axis_size_R by (try lra; destruct k; simpl in *; lia).
  unfold interior1, padded_lo; rnum.
  replace ((x - (o - IZR p * h)) * (1 / h)) with ((x - o) / h + IZR p) by (field; lra).
  assert (A : 0 <= (x - o) / h) by (apply Rle_mult_inv_pos; lra).
  assert (B : (x - o) / h <= (e - o) / h) by (apply Rmult_le_compat_r; [left; apply Rinv_0_lt_compat; lra|lra]).
  pose proof (Zfloor_ub ((e - o) / h)) as U.
  rewrite !plus_IZR, mult_IZR.
  assert (P : IZR (pad_needed k) <= IZR p) by (apply IZR_le; assumption).
  destruct k; simpl in *; lra.
Qed.
Lemma created_interior k d o e h p x : 0 < h -> (pad_needed k <= p)%Z ->
  (forall a, (a < dim_nat d)%nat -> vcomp a o <= vcomp a x <= vcomp a e) ->
  wf_grid (grid_create d o e h p) /\ interior k (grid_create d o e h p) x.
Proof.
  intros Hh Hp Hx.
  pose proof (Hx 0%nat ltac:(destruct d; simpl; lia)) as H0. pose proof (Hx 1%nat ltac:(destruct d; simpl; lia)) as H1.
  simpl in H0, H1.
  assert (Hp1 : (1 <= p)%Z) by (destruct k; simpl in Hp; lia).
  assert (Sz : forall o e, o <= e -> (1 <= axis_size o e h p)%Z).
  { intros o' e' Hoe. rewrite axis_size_R by (try lra; lia).
    assert (0 <= Zfloor ((e' - o') / h))%Z by (apply Zfloor_lub; apply Rle_mult_inv_pos; lra). lia. }
  split; [split; [split; [|split]|split]|].
  - simpl. apply Sz; lra.
  - simpl. apply Sz; lra.
  - destruct d; simpl; [reflexivity|]. pose proof (Hx 2%nat ltac:(simpl; lia)) as H2. simpl in H2. apply Sz; lra.
  - exact Hh.
  - simpl. rnum. unfold Rdiv; ring.
  - unfold interior; simpl. split; [|split].
    + apply created_interior1; assumption.
    + apply created_interior1; assumption.
    + destruct d; [exact I|]. pose proof (Hx 2%nat ltac:(simpl; lia)) as H2. simpl in H2.
      apply created_interior1; assumption.
Qed.
(** one layer is enough for the quadratic kernel when the box is a whole number of cells long *)
Lemma created_interior1_quad (o h : R) m p x : 0 < h -> (1 <= p)%Z -> o <= x <= o + IZR m * h ->
  interior1 Quadratic (axis_size o (o + IZR m * h) h p) ((x - padded_lo o h p) * (1 / h)).
Proof.
  intros Hh Hp Hx. rewrite axis_size_R by (try lra; lia).
  unfold interior1, padded_lo; rnum.
  replace ((x - (o - IZR p * h)) * (1 / h)) with ((x - o) / h + IZR p) by (field; lra).
  assert (A : 0 <= (x - o) / h) by (apply Rle_mult_inv_pos; lra).
  replace ((o + IZR m * h - o) / h) with (IZR m) by (field; lra). rewrite Zfloor_IZR.
  assert (B : (x - o) / h <= IZR m).
  { apply Rmult_le_reg_r with h; [lra|]. unfold Rdiv. rewrite Rmult_assoc, Rinv_l by lra. lra. }
  rewrite !plus_IZR, mult_IZR. apply IZR_le in Hp. simpl. lra.
Qed.

(** ** Translation *)
Definition shift_grid (t : vec3 R) (g : GridDomain R) : GridDomain R :=
  {| gd_dim := gd_dim g; gd_origin := vadd (gd_origin g) t; gd_end := vadd (gd_end g) t;
     gd_cell := gd_cell g; gd_inv := gd_inv g; gd_size := gd_size g; gd_padding := gd_padding g |}.
Lemma translation k g t xs :
  compute_on k (shift_grid t g) (map (fun x => vadd x t) xs) = compute_on k g xs.
Proof.
  unfold compute_on, compute. rewrite map_length. simpl. apply map_ext_in. intros i Hi. apply in_seq in Hi.
  set (w := window_size k (gd_dim g)) in *.
  assert (Hp : (i / w < length xs)%nat).
  { apply Nat.div_lt_upper_bound; [pose proof (window_size_pos k (gd_dim g)); fold w in H; lia|]. lia. }
  rewrite (nth_map_in _ _ _ vzero) by assumption.
  unfold single_interaction.
  replace (base_pos (gd_dim g) (vadd (gd_origin g) t) (gd_inv g) (vadd (nth (i / w) xs vzero) t))
    with (base_pos (gd_dim g) (gd_origin g) (gd_inv g) (nth (i / w) xs vzero)); [reflexivity|].
  unfold base_pos, vadd; rnum; simpl.
  apply vec3_eq; simpl; try ring. destruct (gd_dim g); [reflexivity|ring].
Qed.
Lemma Zfloor_addZ r m : Zfloor (r + IZR m) = (Zfloor r + m)%Z.
Proof. apply Zfloor_imp. rewrite !plus_IZR. pose proof (Zfloor_lb r). pose proof (Zfloor_ub r). lra. Qed.
Lemma base_shift k b m : base_id k (b + IZR m) = (base_id k b + m)%Z.
Proof.
  unfold base_id; rnum. destruct k; try apply Zfloor_addZ.
  replace (b + IZR m - 1 / 2) with ((b - 1 / 2) + IZR m) by ring. apply Zfloor_addZ.
Qed.
(** shift by whole cells; in 2-D the third shift is 0 *)
Definition cell_shift (g : GridDomain R) (m : vec3 Z) : vec3 R :=
  V3 (IZR (vx m) * gd_cell g) (IZR (vy m) * gd_cell g) (IZR (vz m) * gd_cell g).
Lemma bpos_shift g x m : wf_grid g -> (gd_dim g = D2 -> vz m = 0%Z) ->
  bpos g (vadd x (cell_shift g m)) = V3 (vx (bpos g x) + IZR (vx m)) (vy (bpos g x) + IZR (vy m)) (vz (bpos g x) + IZR (vz m)).
Proof.
  intros (_ & Hc & Hi) Hm. unfold bpos, base_pos, vadd, cell_shift; rnum; simpl. rewrite Hi.
  apply vec3_eq; simpl; try (field; lra).
  destruct (gd_dim g); [rewrite Hm by reflexivity; lra|field; lra].
Qed.
Lemma node_idx_shift k g x m off : wf_grid g -> (gd_dim g = D2 -> vz m = 0%Z) ->
  node_idx k (gd_dim g) (bpos g (vadd x (cell_shift g m))) off
  = vadd (T:=Z) (H:={| nofZ := fun z => z; nadd := Z.add; nsub := Z.sub; nmul := Z.mul; ndiv := Z.div; nopp := Z.opp;
       nltb := Z.ltb; nleb := Z.leb; neqb := Z.eqb; nfloor := fun z => z; ntrunc := fun z => z |})
     (node_idx k (gd_dim g) (bpos g x) off) m.
Proof.
  intros W Hm. rewrite bpos_shift by assumption. unfold node_idx, vadd; simpl.
  apply vec3_eq; simpl; rewrite ?base_shift; try lia.
  destruct (gd_dim g); [rewrite Hm by reflexivity; lia|rewrite ?base_shift; lia].
Qed.
Lemma shift_row k g x m off p s : wf_grid g -> (gd_dim g = D2 -> vz m = 0%Z) ->
  let it := single_interaction k (gd_dim g) (gd_origin g) (gd_size g) (gd_inv g) x off p s in
  let it' := single_interaction k (gd_dim g) (gd_origin g) (gd_size g) (gd_inv g) (vadd x (cell_shift g m)) off p s in
  it_dist it' = it_dist it /\
  (row_in_grid g x it -> row_in_grid g (vadd x (cell_shift g m)) it' ->
   it_val it' = it_val it /\ it_grad it' = it_grad it /\
   it_hash it' = (it_hash it + ravel (gd_size g) m)%Z).
Proof.
  intros W Hm. cbv zeta.
  assert (Ed : dist_vec (gd_dim g) (bpos g (vadd x (cell_shift g m)))
        (node_idx k (gd_dim g) (bpos g (vadd x (cell_shift g m))) off)
     = dist_vec (gd_dim g) (bpos g x) (node_idx k (gd_dim g) (bpos g x) off)).
  { rewrite node_idx_shift by assumption. rewrite bpos_shift by assumption.
    unfold dist_vec, vadd; rnum; simpl. apply vec3_eq; simpl; rewrite ?plus_IZR; try ring.
    destruct (gd_dim g); [reflexivity|]. rewrite !plus_IZR. ring. }
  split; [exact Ed|].
  intros R1 R2. pose proof (proj1 W) as Ws.
  apply row_in_grid_iff in R1; [|assumption]. apply row_in_grid_iff in R2; [|assumption].
  pose proof R1 as V1. pose proof R2 as V2. apply idx_valid_iff in V1, V2.
  unfold single_interaction; cbn [it_val it_grad it_hash].
  fold (bpos g x) (bpos g (vadd x (cell_shift g m))). rewrite V1, V2, Ed.
  split; [reflexivity|split; [reflexivity|]].
  rewrite !ravel_clip_valid by assumption. rewrite node_idx_shift by assumption.
  unfold ravel, vadd; simpl. ring.
Qed.

(** ** The linear kernel on a grid line *)
Lemma axis_dmoment_line h b : IZR (base_id Linear b) = b ->
  sumR (fun o => fd Linear h b o * fx Linear b o) (window Linear) = 0.
Proof.
  intros E. unfold fd, fx. rewrite window_sum.
  replace (b - IZR (base_id Linear b + 0)) with 0 by (rewrite plus_IZR; lra).
  replace (b - IZR (base_id Linear b + 1)) with (-1) by (rewrite plus_IZR; lra).
  simpl dbasis. rewrite dlin_0, dlin_out by lra. lra.
Qed.
Lemma linear_on_line g xs p a j : wf_grid g -> (p < length xs)%nat -> interior Linear g (nth p xs vzero) ->
  (a < dim_nat (gd_dim g))%nat ->
  (vcomp a (nth p xs vzero) - vcomp a (gd_origin g)) * gd_inv g = IZR j ->
  sumR (fun it => vcomp a (it_grad it) * vcomp a (row_pos g it)) (of_point p (compute_on Linear g xs)) = 0.
Proof.
  intros W Hp I Ha Hl. pose proof (proj1 W) as Ws. set (x := nth p xs vzero) in *.
  rewrite (sumR_ext _ (fun it => vcomp a (it_grad it) * vcomp a x - gd_cell g * (vcomp a (it_grad it) * vcomp a (it_dist it)))).
  - rewrite sumR_minus, sumR_scal_r, sumR_scal.
    pose proof (grads_sum_zero Linear g xs p Ws Hp I) as Gz.
    assert (G : sumR (fun it => vcomp a (it_grad it)) (of_point p (compute_on Linear g xs)) = 0).
    { destruct a as [|[|a]]; [apply (f_equal vx) in Gz|apply (f_equal vy) in Gz|apply (f_equal vz) in Gz]; exact Gz. }
    rewrite G. rewrite (sum_grad_general Linear g xs p a (vcomp a)) by assumption. fold x.
    set (b := bpos g x).
    assert (Eb : vcomp a b = IZR j).
    { rewrite <- Hl. unfold b, bpos, base_pos; rnum. destruct (gd_dim g); destruct a as [|[|[|a]]]; simpl in Ha; try lia; reflexivity. }
    pose proof (axis_dmoment_line (gd_inv g) (vcomp a b)) as Z0.
    assert (Hb : IZR (base_id Linear (vcomp a b)) = vcomp a b) by (rewrite Eb; unfold base_id; rnum; rewrite Zfloor_IZR; reflexivity).
    specialize (Z0 Hb).
    pose (X := fun (a' : nat) (bb : R) o => if Nat.eqb a a' then fd Linear (gd_inv g) bb o * fx Linear bb o else fb Linear bb o).
    rewrite (sum_prod3 Linear (gd_dim g) _ (X 0%nat (vx b)) (X 1%nat (vy b)) (X 2%nat (vz b))).
    + unfold X. destruct (gd_dim g); destruct a as [|[|[|a]]]; simpl in Ha; try lia; cbn [vcomp] in Z0;
      cbn [Nat.eqb]; rewrite Z0; lra.
    + intros off _. unfold X, fb, fd, fx.
      destruct (gd_dim g); destruct a as [|[|[|a]]]; simpl in Ha; try lia;
      unfold shape_grad, dist_vec, node_idx; rnum; simpl; lra.
  - intros it Hin. pose proof (interior_rows_in_grid Linear g xs p it Ws I Hin) as Rg.
    apply in_of_point in Hin. destruct Hin as (Hin & Ep).
    rewrite (hash_pos_dist Linear g xs it a W Hin) by (rewrite ?Ep; assumption). rewrite Ep. fold x. lra.
Qed.

(** Weights of any particle sum to at most one. *)
Lemma sum_at_most_one k g xs p : (p < length xs)%nat ->
  0 <= sumR it_val (of_point p (compute_on k g xs)) <= 1.
Proof.
  intros Hp. split.
  - apply sumR_nonneg. intros it Hin. apply in_of_point in Hin. apply (weight_range k g xs it), Hin.
  - set (b := bpos g (nth p xs vzero)).
    eapply Rle_trans.
    + apply Req_le. apply (sum_of_point k g xs p it_val (fun off =>
        if idx_valid (gd_size g) (node_idx k (gd_dim g) b off)
        then shape_val k (gd_dim g) (dist_vec (gd_dim g) b (node_idx k (gd_dim g) b off)) else 0)); [assumption|].
      intros off s _. unfold single_interaction; cbn [it_val]. fold (bpos g (nth p xs vzero)). fold b. reflexivity.
    + eapply Rle_trans.
      * apply sumR_le with (g := fun off => shape_val k (gd_dim g) (dist_vec (gd_dim g) b (node_idx k (gd_dim g) b off))).
        intros off _. destruct (idx_valid _ _); [lra|].
        unfold shape_val; rnum. destruct (gd_dim g); repeat apply Rmult_le_pos; apply basis_range.
      * rewrite (sum_prod3 k (gd_dim g) _ (fb k (vx b)) (fb k (vy b)) (fb k (vz b))).
        -- rewrite !S_fb. destruct (gd_dim g); lra.
        -- intros off _. unfold shape_val, dist_vec, node_idx, fb; rnum; destruct (gd_dim g); simpl; lra.
Qed.
