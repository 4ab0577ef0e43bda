(** Proofs about ShapeFunctionMapping.compute (C01-C12, C33). *)
From Coq Require Import List Arith ZArith Reals Bool Lra Lia.
From Flocq Require Import Core.Raux.
From Coquelicot Require Import Coquelicot.
From Verif Require Import Num NumR Linalg Arrays ModelGrid ModelShape Sums ShapeFacts SpecShape.
Import ListNotations.
Local Open Scope R_scope.

(** ** Structure of the cache, for every scalar type *)
Section Gen.
Context {T : Type} `{Num T}.

Lemma window_nonempty k : window k <> [].
Proof. destruct k; discriminate. Qed.
Lemma stencil_length k d : length (stencil k d) =
  match d with D2 => (length (window k) * length (window k))%nat
             | D3 => (length (window k) * (length (window k) * length (window k)))%nat end.
Proof. destruct d, k; reflexivity. Qed.
Lemma window_size_pos k d : (0 < window_size k d)%nat.
Proof. unfold window_size; destruct d, k; simpl; lia. Qed.

Definition slot (k : Kernel) (g : GridDomain T) (x : vec3 T) (p s : nat) : Interaction T :=
  single_interaction k (gd_dim g) (gd_origin g) (gd_size g) (gd_inv g) x
    (nth s (stencil k (gd_dim g)) (V3 0%Z 0%Z 0%Z)) p s.

Lemma compute_on_points k (g : GridDomain T) xs :
  compute_on k g xs
  = flat_map (fun p => map (slot k g (nth p xs vzero) p) (seq 0 (window_size k (gd_dim g)))) (seq 0 (length xs)).
Proof.
  unfold compute_on, compute.
  rewrite <- (map_seq_divmod (fun p s => slot k g (nth p xs vzero) p s)) by apply window_size_pos.
  reflexivity.
Qed.

Lemma filter_flat_map {A B} (b : B -> bool) (f : A -> list B) l :
  filter b (flat_map f l) = flat_map (fun a => filter b (f a)) l.
Proof. induction l as [|a l IH]; [reflexivity|]. simpl. rewrite filter_app, IH. reflexivity. Qed.
Lemma filter_all {A} (b : A -> bool) l : (forall a, In a l -> b a = true) -> filter b l = l.
Proof. induction l as [|a l IH]; intros E; [reflexivity|]. simpl. rewrite (E a) by (left; reflexivity).
  rewrite IH; [reflexivity|]. intros; apply E; right; assumption. Qed.
Lemma filter_none {A} (b : A -> bool) l : (forall a, In a l -> b a = false) -> filter b l = [].
Proof. induction l as [|a l IH]; intros E; [reflexivity|]. simpl. rewrite (E a) by (left; reflexivity).
  apply IH. intros; apply E; right; assumption. Qed.

Lemma of_point_compute k (g : GridDomain T) xs p : (p < length xs)%nat ->
  of_point p (compute_on k g xs)
  = map (slot k g (nth p xs vzero) p) (seq 0 (window_size k (gd_dim g))).
Proof.
  intros Hp. rewrite compute_on_points. unfold of_point. rewrite filter_flat_map.
  assert (G : forall l, NoDup l ->
    flat_map (fun a => filter (fun it : Interaction T => Nat.eqb (it_point it) p)
       (map (slot k g (nth a xs vzero) a) (seq 0 (window_size k (gd_dim g))))) l
    = if in_dec Nat.eq_dec p l then map (slot k g (nth p xs vzero) p) (seq 0 (window_size k (gd_dim g))) else []).
  { induction l as [|a l IH]; intros ND; [reflexivity|]. inversion ND; subst. simpl flat_map. rewrite IH by assumption.
    destruct (Nat.eq_dec a p) as [->|N].
    - rewrite filter_all.
      + destruct (in_dec Nat.eq_dec p l); [contradiction|]. rewrite app_nil_r.
        destruct (in_dec Nat.eq_dec p (p :: l)) as [|ne1]; [reflexivity|]. exfalso; apply ne1; left; reflexivity.
      + intros it Hit. apply in_map_iff in Hit. destruct Hit as (s & <- & _). simpl. apply Nat.eqb_refl.
    - rewrite filter_none.
      + rewrite app_nil_l. destruct (in_dec Nat.eq_dec p l) as [i|ne1];
        destruct (in_dec Nat.eq_dec p (a :: l)) as [i2|ne2]; try reflexivity.
        * exfalso; apply ne2; right; assumption.
        * destruct i2 as [->|]; [congruence|contradiction].
      + intros it Hit. apply in_map_iff in Hit. destruct Hit as (s & <- & _). simpl. apply Nat.eqb_neq; auto. }
  rewrite G by apply seq_NoDup.
  destruct (in_dec Nat.eq_dec p (seq 0 (length xs))) as [|n]; [reflexivity|].
  exfalso; apply n, in_seq; lia.
Qed.

Lemma in_compute k (g : GridDomain T) xs it : In it (compute_on k g xs) ->
  exists p s, (p < length xs)%nat /\ (s < window_size k (gd_dim g))%nat /\ it = slot k g (nth p xs vzero) p s.
Proof.
  rewrite compute_on_points. intros Hin. apply in_flat_map in Hin. destruct Hin as (p & Hp & Hin).
  apply in_map_iff in Hin. destruct Hin as (s & <- & Hs). apply in_seq in Hp, Hs.
  exists p, s; repeat split; lia.
Qed.

(** ** Row-major numbering *)
Lemma zclip_range i n : (1 <= n)%Z -> (0 <= zclip i n < n)%Z.
Proof. unfold zclip; lia. Qed.
Lemma zclip_id i n : (0 <= i < n)%Z -> zclip i n = i.
Proof. unfold zclip; lia. Qed.

Lemma mix_range a A b B : (0 <= a < A)%Z -> (0 <= b < B)%Z -> (0 <= a * B + b < A * B)%Z.
Proof. intros. assert (a * B <= (A - 1) * B)%Z by (apply Z.mul_le_mono_nonneg_r; lia). nia. Qed.
Lemma mix_inj a b a' b' B : (0 <= b < B)%Z -> (0 <= b' < B)%Z -> (a * B + b = a' * B + b')%Z -> a = a' /\ b = b'.
Proof.
  intros Hb Hb' E. assert (a = a').
  {     assert (Ha : a = ((a * B + b) / B)%Z) by (rewrite Z.div_add_l by lia; rewrite Z.div_small by lia; lia).
    assert (Ha' : a' = ((a' * B + b') / B)%Z) by (rewrite Z.div_add_l by lia; rewrite Z.div_small by lia; lia).
    rewrite Ha, Ha', E. reflexivity. }
  subst; lia.
Qed.
Lemma ravel_range size idx : node_in size idx ->
  (0 <= ravel size idx < vx size * vy size * vz size)%Z.
Proof. unfold node_in, ravel; intros (? & ? & ?). apply mix_range; [apply mix_range; assumption|assumption]. Qed.
Lemma ravel_inj size i j : node_in size i -> node_in size j -> ravel size i = ravel size j -> i = j.
Proof.
  unfold node_in, ravel; intros (? & ? & ?) (? & ? & ?) E.
  apply mix_inj in E; try assumption. destruct E as (E & ?).
  apply mix_inj in E; try assumption. destruct E. apply vec3_eq; assumption.
Qed.
Definition unravel (size : vec3 Z) (n : Z) : vec3 Z :=
  V3 (n / vz size / vy size)%Z ((n / vz size) mod vy size)%Z (n mod vz size)%Z.
Lemma ravel_unravel size n : (1 <= vx size)%Z -> (1 <= vy size)%Z -> (1 <= vz size)%Z ->
  (0 <= n < vx size * vy size * vz size)%Z ->
  node_in size (unravel size n) /\ ravel size (unravel size n) = n.
Proof.
  intros Hx Hy Hz Hn. unfold node_in, ravel, unravel; simpl.
  assert (Hd : (0 <= n / vz size < vx size * vy size)%Z).
  { split; [apply Z.div_pos; lia|]. apply Z.div_lt_upper_bound; lia. }
  repeat split; try (apply Z.mod_pos_bound; lia); try (apply Z.div_pos; lia).
  - apply Z.div_lt_upper_bound; lia.
  - pose proof (Z.div_mod n (vz size)). pose proof (Z.div_mod (n / vz size) (vy size)). nia.
Qed.
Lemma ravel_clip_range size idx : (1 <= vx size)%Z -> (1 <= vy size)%Z -> (1 <= vz size)%Z ->
  (0 <= ravel_clip size idx < vx size * vy size * vz size)%Z.
Proof.
  intros. apply ravel_range. unfold node_in; simpl. repeat split; apply zclip_range; assumption.
Qed.
Lemma ravel_clip_valid size idx : node_in size idx -> ravel_clip size idx = ravel size idx.
Proof.
  unfold node_in, ravel_clip; intros (? & ? & ?). rewrite !zclip_id by assumption. destruct idx; reflexivity.
Qed.
Lemma idx_valid_iff size idx : idx_valid size idx = true <-> node_in size idx.
Proof.
  unfold idx_valid, node_in. rewrite !andb_true_iff, !Z.leb_le, !Z.ltb_lt. tauto.
Qed.

Lemma wf_z (g : GridDomain T) : wf_sizes g -> (1 <= vz (gd_size g))%Z.
Proof. unfold wf_sizes; destruct (gd_dim g); intros (? & ? & ?); lia. Qed.
Lemma num_cells_prod (g : GridDomain T) : wf_sizes g ->
  num_cells g = (vx (gd_size g) * vy (gd_size g) * vz (gd_size g))%Z.
Proof. unfold wf_sizes, num_cells; destruct (gd_dim g); intros (? & ? & E); [rewrite E; lia|lia]. Qed.

Lemma compute_in_range k (g : GridDomain T) xs it : wf_sizes g -> In it (compute_on k g xs) ->
  (0 <= it_hash it < num_cells g)%Z /\ (it_point it < length xs)%nat
  /\ (it_stencil it < window_size k (gd_dim g))%nat.
Proof.
  intros W Hin. destruct (in_compute _ _ _ _ Hin) as (p & s & Hp & Hs & ->). simpl.
  split; [|split; assumption]. rewrite num_cells_prod by assumption.
  pose proof (wf_z g W). destruct W as (? & ? & _). apply ravel_clip_range; assumption.
Qed.
Lemma compute_length k (g : GridDomain T) xs :
  length (compute_on k g xs) = (length xs * window_size k (gd_dim g))%nat.
Proof. unfold compute_on, compute. rewrite map_length, seq_length. reflexivity. Qed.
Lemma compute_order k (g : GridDomain T) xs p s d :
  (p < length xs)%nat -> (s < window_size k (gd_dim g))%nat ->
  let it := nth (p * window_size k (gd_dim g) + s) (compute_on k g xs) d in
  it_point it = p /\ it_stencil it = s.
Proof.
  intros Hp Hs. cbv zeta. rewrite compute_on_points.
  rewrite (flat_map_nth _ _ (window_size k (gd_dim g)) p s 0%nat); [| |rewrite seq_length; assumption|assumption].
  2:{ intros; rewrite map_length, seq_length; reflexivity. }
  rewrite seq_nth by assumption. rewrite (nth_map_in _ _ _ 0%nat) by (rewrite seq_length; assumption).
  rewrite seq_nth by assumption. simpl. split; reflexivity.
Qed.

(** Position of nodes in the flattened mesh. *)
Definition mesh_pos (g : GridDomain T) (idx : vec3 Z) : vec3 T :=
  V3 (nadd (nmul (nofZ (vx idx)) (gd_cell g)) (vx (gd_origin g)))
     (nadd (nmul (nofZ (vy idx)) (gd_cell g)) (vy (gd_origin g)))
     (match gd_dim g with D2 => n0 | D3 => nadd (nmul (nofZ (vz idx)) (gd_cell g)) (vz (gd_origin g)) end).
Lemma position_stack_length (g : GridDomain T) : wf_sizes g ->
  Z.of_nat (length (position_stack g)) = num_cells g.
Proof.
  intros W. rewrite num_cells_prod by assumption.
  unfold position_stack. destruct W as (Hx & Hy & Hz). destruct (gd_dim g).
  - rewrite (flat_map_const_length _ _ (Z.to_nat (vy (gd_size g)))) by
      (intros; rewrite map_length, zrange_length; reflexivity).
    rewrite zrange_length, Hz. nia.
  - rewrite (flat_map_const_length _ _ (Z.to_nat (vy (gd_size g)) * Z.to_nat (vz (gd_size g)))).
    + rewrite zrange_length. nia.
    + intros. rewrite (flat_map_const_length _ _ (Z.to_nat (vz (gd_size g)))).
      * rewrite zrange_length. reflexivity.
      * intros; rewrite map_length, zrange_length; reflexivity.
Qed.
Lemma position_stack_nth (g : GridDomain T) idx d : wf_sizes g -> node_in (gd_size g) idx ->
  nth (Z.to_nat (ravel (gd_size g) idx)) (position_stack g) d = mesh_pos g idx.
Proof.
  intros (Hx & Hy & Hz) ((? & ?) & (? & ?) & (? & ?)).
  unfold position_stack, mesh_pos, ravel. destruct (gd_dim g).
  - rewrite Hz in *. assert (E : vz idx = 0%Z) by lia.
    replace (Z.to_nat ((vx idx * vy (gd_size g) + vy idx) * 1 + vz idx))
      with (Z.to_nat (vx idx) * Z.to_nat (vy (gd_size g)) + Z.to_nat (vy idx))%nat by nia.
    rewrite (flat_map_nth _ _ (Z.to_nat (vy (gd_size g))) _ _ 0%Z); try nia.
    + rewrite (nth_map_in _ _ _ 0%Z) by (rewrite zrange_length; lia).
      rewrite !zrange_nth by lia. rewrite !Z2Nat.id by lia. simpl. reflexivity.
    + intros; rewrite map_length, zrange_length; reflexivity.
    + rewrite zrange_length; lia.
  - replace (Z.to_nat ((vx idx * vy (gd_size g) + vy idx) * vz (gd_size g) + vz idx))
      with (Z.to_nat (vx idx) * (Z.to_nat (vy (gd_size g)) * Z.to_nat (vz (gd_size g)))
            + (Z.to_nat (vy idx) * Z.to_nat (vz (gd_size g)) + Z.to_nat (vz idx)))%nat by nia.
    rewrite (flat_map_nth _ _ (Z.to_nat (vy (gd_size g)) * Z.to_nat (vz (gd_size g))) _ _ 0%Z); try nia.
    + rewrite (flat_map_nth _ _ (Z.to_nat (vz (gd_size g))) _ _ 0%Z); try nia.
      * rewrite (nth_map_in _ _ _ 0%Z) by (rewrite zrange_length; lia).
        rewrite !zrange_nth by lia. rewrite !Z2Nat.id by lia. simpl. reflexivity.
      * intros; rewrite map_length, zrange_length; reflexivity.
      * rewrite zrange_length; lia.
    + intros. rewrite (flat_map_const_length _ _ (Z.to_nat (vz (gd_size g)))).
      * rewrite zrange_length. reflexivity.
      * intros; rewrite map_length, zrange_length; reflexivity.
    + rewrite zrange_length; lia.
Qed.
End Gen.

(** ** Real arithmetic *)
Definition bpos (g : GridDomain R) (x : vec3 R) : vec3 R := base_pos (gd_dim g) (gd_origin g) (gd_inv g) x.

(** Sums over the rows of one particle are sums over the stencil. *)
Lemma sum_of_point k g xs p (F : Interaction R -> R) (G : vec3 Z -> R) : (p < length xs)%nat ->
  (forall off s, In off (stencil k (gd_dim g)) ->
     F (single_interaction k (gd_dim g) (gd_origin g) (gd_size g) (gd_inv g) (nth p xs vzero) off p s) = G off) ->
  sumR F (of_point p (compute_on k g xs)) = sumR G (stencil k (gd_dim g)).
Proof.
  intros Hp E. rewrite of_point_compute, sumR_map by assumption.
  rewrite <- (sumR_seq_nth G (V3 0%Z 0%Z 0%Z)). apply sumR_ext.
  intros s Hs. apply in_seq in Hs. unfold slot. apply E. apply nth_In. unfold window_size in Hs; lia.
Qed.
Lemma sum_stencil_2 k (G : vec3 Z -> R) :
  sumR G (stencil k D2) = sumR (fun i => sumR (fun j => G (V3 i j 0%Z)) (window k)) (window k).
Proof. unfold stencil. rewrite sumR_flat_map. apply sumR_ext_all; intro i. rewrite sumR_map. reflexivity. Qed.
Lemma sum_stencil_3 k (G : vec3 Z -> R) :
  sumR G (stencil k D3)
  = sumR (fun i => sumR (fun j => sumR (fun l => G (V3 i j l)) (window k)) (window k)) (window k).
Proof.
  unfold stencil. rewrite sumR_flat_map. apply sumR_ext_all; intro i.
  rewrite sumR_flat_map. apply sumR_ext_all; intro j. rewrite sumR_map. reflexivity.
Qed.
(** product form *)
Lemma sum_stencil_prod k d (f1 f2 f3 : Z -> R) :
  sumR (fun off => match d with D2 => f1 (vx off) * f2 (vy off)
                   | D3 => f1 (vx off) * f2 (vy off) * f3 (vz off) end) (stencil k d)
  = match d with D2 => sumR f1 (window k) * sumR f2 (window k)
    | D3 => sumR f1 (window k) * sumR f2 (window k) * sumR f3 (window k) end.
Proof.
  destruct d.
  - rewrite sum_stencil_2. simpl. apply sumR_prod.
  - rewrite sum_stencil_3. simpl.
    rewrite (sumR_ext_all _ (fun i => sumR (fun j => f1 i * (f2 j * sumR f3 (window k))) (window k))).
    + rewrite sumR_prod, sumR_scal_r. lra.
    + intro i; apply sumR_ext_all; intro j.
      etransitivity; [apply (sumR_scal f3 (f1 i * f2 j))|lra].
Qed.

(** Interior points see only nodes of the grid. *)
Lemma interior1_window k n b o : interior1 k n b -> In o (window k) ->
  (0 <= base_id k b + o < n)%Z.
Proof.
  unfold interior1. intros (Hl & Hh) Ho. pose proof (base_range k b) as Hr.
  destruct k; simpl room_lo in *; simpl room_hi in *; simpl in Ho.
  - assert (0 <= base_id Linear b)%Z by (apply le_IZR; enough (-1 < IZR (base_id Linear b)) as HH;
      [apply (lt_IZR (-1)) in HH; apply IZR_le; lia|lra]).
    assert (base_id Linear b < n - 1)%Z by (apply lt_IZR; rewrite minus_IZR; lra).
    lia.
  - assert (0 <= base_id Quadratic b)%Z by (apply le_IZR; enough (-1 < IZR (base_id Quadratic b)) as HH;
      [apply (lt_IZR (-1)) in HH; apply IZR_le; lia|lra]).
    assert (base_id Quadratic b < n - 2)%Z by (apply lt_IZR; rewrite minus_IZR; lra).
    lia.
  - assert (1 <= base_id Cubic b)%Z by (apply le_IZR; enough (0 < IZR (base_id Cubic b)) as HH;
      [apply (lt_IZR 0) in HH; apply IZR_le; lia|lra]).
    assert (base_id Cubic b < n - 2)%Z by (apply lt_IZR; rewrite minus_IZR; lra).
    lia.
Qed.
Lemma in_stencil k d off : In off (stencil k d) ->
  In (vx off) (window k) /\ In (vy off) (window k) /\
  match d with D2 => vz off = 0%Z | D3 => In (vz off) (window k) end.
Proof.
  unfold stencil; destruct d; intros Hi; apply in_flat_map in Hi; destruct Hi as (i & Hi & Hj).
  - apply in_map_iff in Hj. destruct Hj as (j & <- & Hj). simpl. auto.
  - apply in_flat_map in Hj. destruct Hj as (j & Hj & Hl).
    apply in_map_iff in Hl. destruct Hl as (l & <- & Hl). simpl. auto.
Qed.
Lemma interior_valid k g x off : wf_sizes g -> interior k g x -> In off (stencil k (gd_dim g)) ->
  node_in (gd_size g) (node_idx k (gd_dim g) (bpos g x) off).
Proof.
  intros (Hx & Hy & Hz) (I1 & I2 & I3) Hoff. apply in_stencil in Hoff. destruct Hoff as (O1 & O2 & O3).
  unfold node_in, node_idx, bpos, base_pos; rnum; simpl. destruct (gd_dim g).
  - split; [|split]; [apply interior1_window; assumption|apply interior1_window; assumption|lia].
  - split; [|split]; apply interior1_window; assumption.
Qed.

(** rel_dist components *)
Lemma dist_x k d bp off : vx (dist_vec d bp (node_idx k d bp off)) = vx bp - IZR (base_id k (vx bp) + vx off).
Proof. reflexivity. Qed.

Lemma interior_row k g x off p s : wf_sizes g -> interior k g x -> In off (stencil k (gd_dim g)) ->
  let it := single_interaction k (gd_dim g) (gd_origin g) (gd_size g) (gd_inv g) x off p s in
  it_val it = shape_val k (gd_dim g) (it_dist it) /\
  it_grad it = shape_grad k (gd_dim g) (gd_inv g) (it_dist it).
Proof.
  intros W I Ho. simpl. pose proof (interior_valid k g x off W I Ho) as V.
  apply idx_valid_iff in V. unfold bpos in V. rewrite V. split; reflexivity.
Qed.

Lemma sum_val_general k g xs p (c : vec3 R -> R) : wf_sizes g -> (p < length xs)%nat ->
  interior k g (nth p xs vzero) ->
  sumR (fun it => it_val it * c (it_dist it)) (of_point p (compute_on k g xs))
  = sumR (fun off => shape_val k (gd_dim g)
       (dist_vec (gd_dim g) (bpos g (nth p xs vzero)) (node_idx k (gd_dim g) (bpos g (nth p xs vzero)) off))
      * c (dist_vec (gd_dim g) (bpos g (nth p xs vzero)) (node_idx k (gd_dim g) (bpos g (nth p xs vzero)) off)))
     (stencil k (gd_dim g)).
Proof.
  intros W Hp I. apply sum_of_point; [assumption|]. intros off s Ho.
  destruct (interior_row k g (nth p xs vzero) off p s W I Ho) as (E & _). rewrite E. reflexivity.
Qed.
Lemma sum_grad_general k g xs p a (c : vec3 R -> R) : wf_sizes g -> (p < length xs)%nat ->
  interior k g (nth p xs vzero) ->
  sumR (fun it => vcomp a (it_grad it) * c (it_dist it)) (of_point p (compute_on k g xs))
  = sumR (fun off => vcomp a (shape_grad k (gd_dim g) (gd_inv g)
       (dist_vec (gd_dim g) (bpos g (nth p xs vzero)) (node_idx k (gd_dim g) (bpos g (nth p xs vzero)) off)))
      * c (dist_vec (gd_dim g) (bpos g (nth p xs vzero)) (node_idx k (gd_dim g) (bpos g (nth p xs vzero)) off)))
     (stencil k (gd_dim g)).
Proof.
  intros W Hp I. apply sum_of_point; [assumption|]. intros off s Ho.
  destruct (interior_row k g (nth p xs vzero) off p s W I Ho) as (_ & E). rewrite E. reflexivity.
Qed.

(** Abbreviations for axis functions *)
Definition fb k b o := basis k (b - IZR (base_id k b + o)) : R.
Definition fd k h b o := dbasis k h (b - IZR (base_id k b + o)) : R.
Definition fx k b o := b - IZR (base_id k b + o) : R.
Lemma S_fb k b : sumR (fb k b) (window k) = 1. Proof. apply axis_pou. Qed.
Lemma S_fd k h b : sumR (fd k h b) (window k) = 0. Proof. apply axis_dsum. Qed.
Lemma S_fbx k b : sumR (fun o => fb k b o * fx k b o) (window k) = 0. Proof. apply axis_moment. Qed.
Lemma S_fdx k h b : (k = Linear -> IZR (base_id k b) <> b) ->
  sumR (fun o => fd k h b o * fx k b o) (window k) = - h. Proof. apply axis_dmoment. Qed.

Lemma sum_prod3 k d (F : vec3 Z -> R) (f1 f2 f3 : Z -> R) :
  (forall off, In off (stencil k d) -> F off = match d with D2 => f1 (vx off) * f2 (vy off)
       | D3 => f1 (vx off) * f2 (vy off) * f3 (vz off) end) ->
  sumR F (stencil k d) = match d with D2 => sumR f1 (window k) * sumR f2 (window k)
    | D3 => sumR f1 (window k) * sumR f2 (window k) * sumR f3 (window k) end.
Proof. intros E. rewrite <- sum_stencil_prod. apply sumR_ext. exact E. Qed.

Lemma pou k g xs p : wf_sizes g -> (p < length xs)%nat -> interior k g (nth p xs vzero) ->
  sumR it_val (of_point p (compute_on k g xs)) = 1.
Proof.
  intros W Hp I.
  rewrite (sumR_ext_all _ (fun it => it_val it * (fun _ => 1) (it_dist it))) by (intro; lra).
  rewrite (sum_val_general k g xs p (fun _ => 1)) by assumption.
  set (b := bpos g (nth p xs vzero)).
  rewrite (sum_prod3 k (gd_dim g) _ (fb k (vx b)) (fb k (vy b)) (fb k (vz b))).
  - rewrite !S_fb. destruct (gd_dim g); lra.
  - intros off _. unfold shape_val, dist_vec, node_idx, fb; rnum; destruct (gd_dim g); simpl; lra.
Qed.

Lemma grads_sum_zero k g xs p : wf_sizes g -> (p < length xs)%nat -> interior k g (nth p xs vzero) ->
  vsum it_grad (of_point p (compute_on k g xs)) = vzero.
Proof.
  intros W Hp I. set (b := bpos g (nth p xs vzero)).
  assert (G : forall a, sumR (fun it => vcomp a (it_grad it)) (of_point p (compute_on k g xs)) = 0).
  { intro a. rewrite (sumR_ext_all _ (fun it => vcomp a (it_grad it) * (fun _ => 1) (it_dist it))) by (intro; lra).
    rewrite (sum_grad_general k g xs p a (fun _ => 1)) by assumption. fold b.
    destruct a as [|[|a]].
    - rewrite (sum_prod3 k (gd_dim g) _ (fd k (gd_inv g) (vx b)) (fb k (vy b)) (fb k (vz b))).
      + rewrite S_fd. destruct (gd_dim g); lra.
      + intros off _. unfold shape_grad, dist_vec, node_idx, fb, fd; rnum; destruct (gd_dim g); simpl; lra.
    - rewrite (sum_prod3 k (gd_dim g) _ (fb k (vx b)) (fd k (gd_inv g) (vy b)) (fb k (vz b))).
      + rewrite S_fd. destruct (gd_dim g); lra.
      + intros off _. unfold shape_grad, dist_vec, node_idx, fb, fd; rnum; destruct (gd_dim g); simpl; lra.
    - destruct (gd_dim g) eqn:Ed.
      + apply sumR_zero. intros off _. simpl. rnum. lra.
      + rewrite (sum_prod3 k D3 _ (fb k (vx b)) (fb k (vy b)) (fd k (gd_inv g) (vz b))).
        * rewrite S_fd. lra.
        * intros off _. unfold shape_grad, dist_vec, node_idx, fb, fd; rnum; simpl; lra. }
  apply vec3_eq; [apply (G 0%nat)|apply (G 1%nat)|apply (G 2%nat)].
Qed.

Lemma weight_range k g xs it : In it (compute_on k g xs) -> 0 <= it_val it <= 1.
Proof.
  intros Hin. destruct (in_compute _ _ _ _ Hin) as (p & s & _ & _ & ->). simpl.
  destruct (idx_valid _ _); [|rnum; lra].
  unfold shape_val; rnum. destruct (gd_dim g);
  repeat match goal with |- context [basis k ?x] =>
    let b := fresh in let E := fresh in pose proof (basis_range k x) as E; set (b := basis k x) in * end.
  - nra.
  - assert (0 <= H1 * H3 <= 1) by nra. nra.
Qed.

(** first moments *)
Lemma moment_zero k g xs p : wf_sizes g -> (p < length xs)%nat -> interior k g (nth p xs vzero) ->
  forall a, sumR (fun it => it_val it * vcomp a (it_dist it)) (of_point p (compute_on k g xs)) = 0.
Proof.
  intros W Hp I a. set (b := bpos g (nth p xs vzero)).
  rewrite (sum_val_general k g xs p (vcomp a)) by assumption. fold b.
  destruct a as [|[|a]].
  - rewrite (sum_prod3 k (gd_dim g) _ (fun o => fb k (vx b) o * fx k (vx b) o) (fb k (vy b)) (fb k (vz b))).
    + rewrite S_fbx. destruct (gd_dim g); lra.
    + intros off _. unfold shape_val, dist_vec, node_idx, fb, fx; rnum; destruct (gd_dim g); simpl; lra.
  - rewrite (sum_prod3 k (gd_dim g) _ (fb k (vx b)) (fun o => fb k (vy b) o * fx k (vy b) o) (fb k (vz b))).
    + rewrite S_fbx. destruct (gd_dim g); lra.
    + intros off _. unfold shape_val, dist_vec, node_idx, fb, fx; rnum; destruct (gd_dim g); simpl; lra.
  - destruct (gd_dim g) eqn:Ed.
    + apply sumR_zero. intros off _. simpl. rnum. lra.
    + rewrite (sum_prod3 k D3 _ (fb k (vx b)) (fb k (vy b)) (fun o => fb k (vz b) o * fx k (vz b) o)).
      * rewrite S_fbx. lra.
      * intros off _. unfold shape_val, dist_vec, node_idx, fb, fx; rnum; simpl; lra.
Qed.

(** A point is off the grid lines of an axis where the linear kernel has a kink. *)
Definition off_lines (k : Kernel) (b : R) : Prop := k = Linear -> IZR (base_id k b) <> b.

Definition kron (a c : nat) : R := if Nat.eqb a c then 1 else 0.
Lemma grad_moment k g xs p a c : wf_sizes g -> (p < length xs)%nat -> interior k g (nth p xs vzero) ->
  (a < dim_nat (gd_dim g))%nat -> (c < dim_nat (gd_dim g))%nat ->
  (a = c -> off_lines k (vcomp a (bpos g (nth p xs vzero)))) ->
  sumR (fun it => vcomp a (it_grad it) * vcomp c (it_dist it)) (of_point p (compute_on k g xs))
  = - gd_inv g * kron a c.
Proof.
  intros W Hp I Ha Hc Hoff. set (b := bpos g (nth p xs vzero)) in *.
  rewrite (sum_grad_general k g xs p a (vcomp c)) by assumption. fold b.
  unfold kron.
  pose (X := fun (a' : nat) (bb : R) o =>
    (if Nat.eqb a a' then fd k (gd_inv g) bb o else fb k bb o) * (if Nat.eqb c a' then fx k bb o else 1)).
  assert (SX : forall a', (a = c -> off_lines k (vcomp a b)) ->
     sumR (X a' (vcomp a' b)) (window k)
     = match Nat.eqb a a', Nat.eqb c a' with
       | true, true => - gd_inv g | true, false => 0 | false, true => 0 | false, false => 1 end).
  { intros a' Hk. unfold X.
    destruct (Nat.eqb a a') eqn:E1, (Nat.eqb c a') eqn:E2.
    - apply Nat.eqb_eq in E1, E2. subst a' c. apply S_fdx. apply Hk; reflexivity.
    - rewrite (sumR_ext_all _ (fd k (gd_inv g) (vcomp a' b))) by (intro; lra). apply S_fd.
    - apply S_fbx.
    - rewrite (sumR_ext_all _ (fb k (vcomp a' b))) by (intro; lra). apply S_fb. }
  rewrite (sum_prod3 k (gd_dim g) _ (X 0%nat (vcomp 0 b)) (X 1%nat (vcomp 1 b)) (X 2%nat (vcomp 2 b))).
  - rewrite !SX by assumption. unfold dim_nat in *.
    destruct (gd_dim g); destruct a as [|[|[|a]]]; try lia; destruct c as [|[|[|c]]]; try lia; simpl; lra.
  - intros off _. unfold X, fb, fd, fx. unfold dim_nat in *.
    destruct (gd_dim g); destruct a as [|[|[|a]]]; try lia; destruct c as [|[|[|c]]]; try lia;
    unfold shape_grad, dist_vec, node_idx; rnum; simpl; lra.
Qed.
