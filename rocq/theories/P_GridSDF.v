(** Property theorems for tabulated signed distances: values (C101), slopes, extent and normals (C102). *)
From Coq Require Import List Arith ZArith Reals Bool Lra Lia.
From Flocq Require Import Core.Raux.
From Verif Require Import Num NumR Linalg Arrays ModelGrid ModelShape ModelMath ModelState ModelLaws ModelSDF ModelGridSDF Sums ShapeFacts GridSDFProofs.
Import ListNotations.
Local Open Scope R_scope.

(** position of sample (i, j, k) in the file's own coordinates, the samples being equally spaced from min to max *)
Definition spot (lo size : R) (n i : nat) : R := lo + size * (INR i / (INR n - 1)).
Definition voxel (s : GridSDF R) (i j k : nat) : vec3 R :=
  V3 (spot (vx (gs_min s)) (vx (gs_size s)) (gs_nx s) i) (spot (vy (gs_min s)) (vy (gs_size s)) (gs_ny s) j)
     (spot (vz (gs_min s)) (vz (gs_size s)) (gs_nz s) k).
Definition apart (p q : vec3 R) : R := Rabs (vx p - vx q) + Rabs (vy p - vy q) + Rabs (vz p - vz q).
(** the table samples [phi], which changes by no more than the distance walked along the axes (every true distance does) *)
Definition tabulates (s : GridSDF R) (phi : vec3 R -> R) : Prop :=
  (2 <= gs_nx s)%nat /\ (2 <= gs_ny s)%nat /\ (2 <= gs_nz s)%nat /\ 0 < vx (gs_size s) /\ 0 < vy (gs_size s) /\ 0 < vz (gs_size s) /\ 0 < gs_scale s /\
  (forall i j k, within s i j k -> sample s i j k = phi (voxel s i j k)) /\ (forall p q, Rabs (phi p - phi q) <= apart p q).
(** spacing of the samples *)
Definition spacing (s : GridSDF R) : vec3 R :=
  V3 (vx (gs_size s) / (INR (gs_nx s) - 1)) (vy (gs_size s) / (INR (gs_ny s) - 1)) (vz (gs_size s) / (INR (gs_nz s) - 1)).

Lemma n1_pos n : (2 <= n)%nat -> 0 < INR n - 1.
Proof. intros H. apply le_INR in H. simpl in H. lra. Qed.
Lemma spot_next lo size n i : (2 <= n)%nat -> spot lo size n (S i) - spot lo size n i = size / (INR n - 1).
Proof. intros H. pose proof (n1_pos n H). unfold spot. rewrite S_INR. field. lra. Qed.
Lemma div_pos a b : 0 < a -> 0 < b -> 0 < a / b.
Proof. intros. apply Rmult_lt_0_compat; [assumption|apply Rinv_0_lt_compat; assumption]. Qed.
Lemma tabulates_steps s phi : tabulates s phi -> nonempty s /\ steps s (vx (spacing s)) (vy (spacing s)) (vz (spacing s)).
Proof.
  intros (Nx & Ny & Nz & Sx & Sy & Sz & _ & H & L). split; [repeat split; lia|].
  assert (P : forall a n, 0 < a -> (2 <= n)%nat -> 0 <= a / (INR n - 1)) by (intros; apply Rlt_le, div_pos; [assumption|apply n1_pos; assumption]).
  unfold steps, spacing. cbn [vx vy vz]. split; [apply P; assumption|]. split; [apply P; assumption|]. split; [apply P; assumption|].
  assert (Z : forall a, Rabs (a - a) = 0) by (intro; rewrite Rminus_diag_eq by reflexivity; apply Rabs_R0).
  repeat split; intros i j k (A & B & C); rewrite !H by (repeat split; lia); eapply Rle_trans; try apply L; unfold apart, voxel; cbn [vx vy vz];
    rewrite !Z, spot_next by assumption; rewrite Rabs_right by (apply Rle_ge, P; assumption); lra.
Qed.

(** how far the 1e-12 in the normalisation moves an index coordinate, in units of the spacing *)
Lemma index_shift n sc lo size u : (2 <= n)%nat -> 0 < size -> 0 < sc -> 0 <= u - lo <= size ->
  size / (INR n - 1) * Rabs (index1 n sc lo size (sc * u) - (u - lo) / size * (INR n - 1)) <= eps12.
Proof.
  intros Hn Hs Hc Hu. pose proof (n1_pos n Hn) as P. pose proof eps12_pos as E. rewrite index1_eq.
  replace ((sc * u / sc - lo) / (size + eps12) * (INR n - 1) - (u - lo) / size * (INR n - 1))
    with (- ((u - lo) * eps12 / (size * (size + eps12)) * (INR n - 1))) by (field; lra).
  rewrite Rabs_Ropp, Rabs_right.
  2: { apply Rle_ge, Rmult_le_pos; [|lra]. apply Rmult_le_pos; [nra|]. apply Rlt_le, Rinv_0_lt_compat. nra. }
  replace (size / (INR n - 1) * ((u - lo) * eps12 / (size * (size + eps12)) * (INR n - 1))) with (eps12 * ((u - lo) / (size + eps12))) by (field; lra).
  assert ((u - lo) / (size + eps12) <= 1) by (apply Rmult_le_reg_r with (size + eps12); [lra|]; unfold Rdiv; rewrite Rmult_assoc, Rinv_l; lra).
  nra.
Qed.
Lemma spot_coord lo size n i : (2 <= n)%nat -> 0 < size -> (spot lo size n i - lo) / size * (INR n - 1) = INR i.
Proof. intros Hn Hs. pose proof (n1_pos n Hn). unfold spot. field. lra. Qed.
Lemma spot_in lo size n i : (2 <= n)%nat -> 0 < size -> (i < n)%nat -> 0 <= spot lo size n i - lo <= size.
Proof.
  intros Hn Hs Hi. pose proof (n1_pos n Hn) as P. unfold spot. replace (lo + size * (INR i / (INR n - 1)) - lo) with (size * (INR i / (INR n - 1))) by ring.
  assert (I : INR i <= INR n - 1) by (assert (S i <= n)%nat as X by lia; apply le_INR in X; rewrite S_INR in X; lra). pose proof (pos_INR i).
  assert (0 <= INR i / (INR n - 1) <= 1).
  { split; [apply Rmult_le_pos; [assumption|apply Rlt_le, Rinv_0_lt_compat, P]|]. apply Rmult_le_reg_r with (INR n - 1); [exact P|]. unfold Rdiv. rewrite Rmult_assoc, Rinv_l; lra. }
  split; nra.
Qed.

(** *** C101 *)
(** everywhere: the scaled table's range, minus the thickness *)
(** the file's nested table is read in C order: sample (i, j, k) is entry k of row j of slab i *)
Lemma nth_concat {A} (d : A) m : forall (rows : list (list A)) j k, Forall (fun r => length r = m) rows -> (j < length rows)%nat -> (k < m)%nat ->
  nth (j * m + k) (concat rows) d = nth k (nth j rows []) d.
Proof.
  induction rows as [|r rows IH]; intros j k F Hj Hk; [cbn in Hj; lia|]. inversion F as [|? ? Lr Fr]; subst. cbn [concat]. destruct j as [|j].
  - cbn. apply app_nth1. lia.
  - rewrite app_nth2 by (cbn; lia). replace (S j * length r + k - length r)%nat with (j * length r + k)%nat by (cbn; lia). cbn [length] in Hj. rewrite IH by (auto; lia). reflexivity.
Qed.
Lemma concat_len {A} m : forall rows : list (list A), Forall (fun r => length r = m) rows -> length (concat rows) = (length rows * m)%nat.
Proof. induction rows as [|r rows IH]; intros F; [reflexivity|]. inversion F; subst. cbn. rewrite app_length, IH by assumption. reflexivity. Qed.
Theorem C101_table : forall (tab : list (list (list R))) ny nz lo hi th sc i j k,
  Forall (fun slab => length slab = ny /\ Forall (fun row => length row = nz) slab) tab -> (i < length tab)%nat -> (j < ny)%nat -> (k < nz)%nat ->
  sample (grid_sdf (length tab) ny nz (concat (concat tab)) lo hi th sc) i j k = nth k (nth j (nth i tab []) []) 0.
Proof.
  intros tab ny nz lo hi th sc i j k F Hi Hj Hk. unfold sample. cbn [grid_sdf gs_ny gs_nz gs_data].
  assert (F1 : Forall (fun slab => length slab = ny) tab) by (eapply Forall_impl; [|exact F]; cbn; tauto).
  assert (F2 : Forall (fun row => length row = nz) (concat tab)) by (apply Forall_concat; eapply Forall_impl; [|exact F]; cbn; tauto).
  rewrite (nth_concat (A:=R) _ nz) by (try assumption; rewrite (concat_len ny) by assumption; nia).
  rewrite (nth_concat [] ny) by assumption. reflexivity.
Qed.
Print Assumptions C101_table.
Example C101_table_case : sample (grid_sdf 3 2 1 (concat (concat [[[1];[2]];[[3];[4]];[[5];[6]]])) vzero vzero 0 1) 2 0 0 = 5.
Proof. reflexivity. Qed.

Theorem C101_range : forall (s : GridSDF R) p a b, nonempty s -> 0 < gs_scale s -> (forall i j k, within s i j k -> a <= sample s i j k <= b) ->
  gs_scale s * a - gs_thick s <= grid_dist_local s p <= gs_scale s * b - gs_thick s.
Proof. intros s p a b N Sc H. rewrite grid_dist_tri. pose proof (tri_bounds s (vx (grid_index s p)) (vy (grid_index s p)) (vz (grid_index s p)) a b N H). nra. Qed.
Print Assumptions C101_range.
(** at a sample: the sample, up to 3e-12 of the scale *)
Theorem C101_samples_partial : forall (s : GridSDF R) phi i j k, tabulates s phi -> within s i j k ->
  Rabs (grid_dist_local s (vscale (gs_scale s) (voxel s i j k)) - (gs_scale s * sample s i j k - gs_thick s)) <= gs_scale s * (3 * eps12).
Proof.
  intros s phi i j k Tb W. destruct (tabulates_steps s phi Tb) as (N & St). destruct Tb as (Nx & Ny & Nz & Sx & Sy & Sz & Sc & _).
  rewrite grid_dist_tri, <- (tri_int s i j k W). set (p := vscale (gs_scale s) (voxel s i j k)). set (c := grid_index s p).
  replace (_ - _) with (gs_scale s * (tri s (vx c) (vy c) (vz c) - tri s (INR i) (INR j) (INR k))) by ring.
  rewrite Rabs_mult, Rabs_right by lra. apply Rmult_le_compat_l; [lra|]. eapply Rle_trans; [apply tri_lip; [exact N|exact St]|].
  destruct W as (Wi & Wj & Wk). unfold c, p, grid_index, voxel, spacing. cbn [vx vy vz vscale].
  pose proof (index_shift (gs_nx s) (gs_scale s) (vx (gs_min s)) (vx (gs_size s)) _ Nx Sx Sc (spot_in (vx (gs_min s)) (vx (gs_size s)) (gs_nx s) i Nx Sx Wi)) as A.
  pose proof (index_shift (gs_ny s) (gs_scale s) (vy (gs_min s)) (vy (gs_size s)) _ Ny Sy Sc (spot_in (vy (gs_min s)) (vy (gs_size s)) (gs_ny s) j Ny Sy Wj)) as B.
  pose proof (index_shift (gs_nz s) (gs_scale s) (vz (gs_min s)) (vz (gs_size s)) _ Nz Sz Sc (spot_in (vz (gs_min s)) (vz (gs_size s)) (gs_nz s) k Nz Sz Wk)) as C.
  rewrite spot_coord in A, B, C by assumption. change (@nmul R Num_R) with Rmult. change (@nmul R (@numt_num R NumT_R)) with Rmult. lra.
Qed.
Print Assumptions C101_samples_partial.
(** between samples: the tabulated function, up to one spacing per axis *)
Lemma nearest n X : (2 <= n)%nat -> 0 <= X <= INR n - 1 -> exists i, (i < n)%nat /\ Rabs (X - INR i) <= 1 / 2.
Proof.
  intros Hn HX. destruct (floor_spec (X + 1 / 2)) as (A & B). set (k := Zfloor (X + 1 / 2)) in *.
  assert (K0 : (0 <= k)%Z) by (apply Zfloor_lub; simpl; lra).
  assert (K1 : (k <= Z.of_nat n - 1)%Z).
  { apply Z.lt_succ_r. apply lt_IZR. rewrite succ_IZR, minus_IZR, <- INR_IZR_INZ. lra. }
  exists (Z.to_nat k). split; [lia|]. rewrite INR_IZR_INZ, Z2Nat.id by exact K0. apply Rabs_le. lra.
Qed.
Definition in_box (s : GridSDF R) (u : vec3 R) : Prop :=
  0 <= vx u - vx (gs_min s) <= vx (gs_size s) /\ 0 <= vy u - vy (gs_min s) <= vy (gs_size s) /\ 0 <= vz u - vz (gs_min s) <= vz (gs_size s).
Lemma axis_near n sc lo size u : (2 <= n)%nat -> 0 < size -> 0 < sc -> 0 <= u - lo <= size -> let h := size / (INR n - 1) in
  exists i, (i < n)%nat /\ h * Rabs (index1 n sc lo size (sc * u) - INR i) <= h / 2 + eps12 /\ Rabs (spot lo size n i - u) <= h / 2.
Proof.
  intros Hn Hs Hc Hu h. pose proof (n1_pos n Hn) as P. pose proof (index_shift n sc lo size u Hn Hs Hc Hu) as Sh. fold h in Sh.
  assert (Hh : 0 < h) by (apply div_pos; assumption).
  set (X := (u - lo) / size * (INR n - 1)) in *.
  assert (HX : 0 <= X <= INR n - 1).
  { unfold X. assert (0 <= (u - lo) / size <= 1).
    { split; [apply Rmult_le_pos; [lra|apply Rlt_le, Rinv_0_lt_compat, Hs]|]. apply Rmult_le_reg_r with size; [exact Hs|]. unfold Rdiv. rewrite Rmult_assoc, Rinv_l; lra. }
    split; nra. }
  destruct (nearest n X Hn HX) as (i & Hi & Ha). exists i. split; [exact Hi|]. split.
  - replace (index1 n sc lo size (sc * u) - INR i) with ((index1 n sc lo size (sc * u) - X) + (X - INR i)) by ring.
    eapply Rle_trans; [apply Rmult_le_compat_l; [lra|apply Rabs_triang]|]. nra.
  - replace (spot lo size n i - u) with (- (h * (X - INR i))) by (unfold spot, h, X; field; lra). rewrite Rabs_Ropp, Rabs_mult, (Rabs_right h) by lra. nra.
Qed.
Theorem C101_accuracy_partial : forall (s : GridSDF R) phi u, tabulates s phi -> in_box s u ->
  Rabs (grid_dist_local s (vscale (gs_scale s) u) - (gs_scale s * phi u - gs_thick s))
  <= gs_scale s * (vx (spacing s) + vy (spacing s) + vz (spacing s) + 3 * eps12).
Proof.
  intros s phi u Tb (Ux & Uy & Uz). destruct (tabulates_steps s phi Tb) as (N & St). destruct Tb as (Nx & Ny & Nz & Sx & Sy & Sz & Sc & H & L).
  destruct (axis_near _ _ _ _ _ Nx Sx Sc Ux) as (i & Hi & A1 & A2). destruct (axis_near _ _ _ _ _ Ny Sy Sc Uy) as (j & Hj & B1 & B2).
  destruct (axis_near _ _ _ _ _ Nz Sz Sc Uz) as (k & Hk & C1 & C2).
  assert (W : within s i j k) by (repeat split; assumption).
  rewrite grid_dist_tri. set (c := grid_index s (vscale (gs_scale s) u)).
  replace (_ - _) with (gs_scale s * ((tri s (vx c) (vy c) (vz c) - sample s i j k) + (sample s i j k - phi u))) by ring.
  rewrite Rabs_mult, Rabs_right by lra. apply Rmult_le_compat_l; [lra|]. eapply Rle_trans; [apply Rabs_triang|].
  rewrite <- (tri_int s i j k W) at 1. pose proof (tri_lip s _ _ _ (vx c) (vy c) (vz c) (INR i) (INR j) (INR k) N St) as T.
  rewrite (H i j k W). pose proof (L (voxel s i j k) u) as F. unfold apart, voxel in F. cbn [vx vy vz] in F.
  unfold c, grid_index in T. cbn [vx vy vz vscale] in T. change (@nmul R Num_R) with Rmult in T. change (@nmul R (@numt_num R NumT_R)) with Rmult in T.
  unfold c, grid_index. cbn [vx vy vz vscale]. change (@nmul R Num_R) with Rmult. change (@nmul R (@numt_num R NumT_R)) with Rmult.
  unfold spacing in *. cbn [vx vy vz] in *. unfold voxel. lra.
Qed.
Print Assumptions C101_accuracy_partial.
(** two samples along x, 0 and 1: at the second one the result is 1/(1 + 1e-12) *)
Definition ramp : GridSDF R := grid_sdf 2 2 2 [0;0;0;0;1;1;1;1] vzero (V3 1 1 1) 0 1.
Lemma ramp_sample i j k : within ramp i j k -> sample ramp i j k = INR i.
Proof.
  intros (A & B & C). cbn [ramp grid_sdf gs_nx gs_ny gs_nz] in A, B, C. unfold sample. cbn [ramp grid_sdf gs_ny gs_nz gs_data].
  destruct i as [|[|i]]; try lia; destruct j as [|[|j]]; try lia; destruct k as [|[|k]]; try lia; reflexivity.
Qed.
Lemma ramp_tabulates : tabulates ramp (fun p => vx p).
Proof.
  unfold tabulates. repeat (split; [first [cbn; lia|cbn; rnum; lra]|]). split.
  - intros i j k W. rewrite (ramp_sample i j k W). unfold voxel, spot. cbn [vx ramp grid_sdf gs_min gs_size gs_nx]. cbn [vsub vx vzero]. rnum. simpl (INR 2). field.
  - intros p q. unfold apart. pose proof (Rabs_pos (vy p - vy q)). pose proof (Rabs_pos (vz p - vz q)). lra.
Qed.
Theorem C101_samples_refuted : exists (s : GridSDF R) phi i j k, tabulates s phi /\ within s i j k /\
  grid_dist_local s (vscale (gs_scale s) (voxel s i j k)) <> gs_scale s * sample s i j k - gs_thick s.
Proof.
  exists ramp, (fun p => vx p), 1%nat, 0%nat, 0%nat. split; [exact ramp_tabulates|]. split; [unfold within, nonempty; cbn [ramp grid_sdf gs_nx gs_ny gs_nz]; lia|].
  rewrite grid_dist_tri. set (c := grid_index _ _). rewrite ramp_sample by (unfold within, nonempty; cbn [ramp grid_sdf gs_nx gs_ny gs_nz]; lia).
  assert (X : vx c = 1 / (1 + eps12)).
  { unfold c, grid_index. cbn [vx]. rewrite index1_eq. unfold voxel, spot. cbn [ramp grid_sdf gs_min gs_size gs_scale gs_nx vscale vx vsub vzero]. rnum.
    simpl (INR 2). simpl (INR 1). pose proof eps12_pos. field. lra. }
  assert (Y : tri ramp (vx c) (vy c) (vz c) = vx c).
  { pose proof eps12_pos. assert (Hx : 0 <= vx c <= 1).
    { rewrite X. split; [apply Rlt_le, div_pos; lra|]. apply Rmult_le_reg_r with (1 + eps12); [lra|]. unfold Rdiv. rewrite Rmult_assoc, Rinv_l; lra. }
    assert (F : forall i, (i < 2)%nat -> lerp (gs_ny ramp) (fun j => lerp (gs_nz ramp) (fun k => sample ramp i j k) (vz c)) (vy c) = INR i).
    { intros i Hi. apply Rle_antisym; apply (lerp_bounds 2 _ (vy c) (INR i) (INR i)); try lia; intros j Hj; apply (lerp_bounds 2 _ (vz c) (INR i) (INR i)); try lia;
        intros k Hk; rewrite ramp_sample by (repeat split; assumption); lra. }
    unfold tri. rewrite (lerp_cell _ _ 0%Z) by lra. cbn [gs_nx ramp grid_sdf].
    change (clip_index 2 0) with 0%nat. change (clip_index 2 (0 + 1)) with 1%nat. rewrite !F by lia. simpl (INR 0). simpl (INR 1). ring. }
  rewrite Y, X. cbn [ramp grid_sdf gs_scale gs_thick]. simpl (INR 1). pose proof eps12_pos. intro Q.
  assert (Q1 : 1 / (1 + eps12) = 1) by lra. assert (Q2 : 1 / (1 + eps12) * (1 + eps12) = 1) by (field; lra). rewrite Q1 in Q2. lra.
Qed.
Print Assumptions C101_samples_refuted.
Example C101_case : tabulates ramp (fun p => vx p) /\ within ramp 1 0 1 /\ nonempty ramp /\ in_box ramp (V3 (1/3) (1/2) 0) /\
  (forall i j k, within ramp i j k -> 0 <= sample ramp i j k <= 1).
Proof.
  split; [exact ramp_tabulates|]. split; [unfold within, nonempty; cbn [ramp grid_sdf gs_nx gs_ny gs_nz]; lia|]. split; [unfold within, nonempty; cbn [ramp grid_sdf gs_nx gs_ny gs_nz]; lia|]. split; [unfold in_box; cbn [ramp grid_sdf gs_min gs_size vsub vzero vx vy vz]; rnum; lra|].
  intros i j k W. rewrite (ramp_sample i j k W). destruct W as (A & _). cbn in A. destruct i as [|[|i]]; [simpl; lra|simpl; lra|lia].
Qed.

(** *** C102 *)
(** moving by d changes the distance by at most d: no overshoot, thickness and all *)
Lemma index_lip n sc lo size x y : (2 <= n)%nat -> 0 < size -> 0 < sc ->
  sc * (size / (INR n - 1) * Rabs (index1 n sc lo size x - index1 n sc lo size y)) <= Rabs (x - y).
Proof.
  intros Hn Hs Hc. pose proof (n1_pos n Hn) as P. pose proof eps12_pos as E. rewrite !index1_eq.
  replace ((x / sc - lo) / (size + eps12) * (INR n - 1) - (y / sc - lo) / (size + eps12) * (INR n - 1)) with ((x - y) * ((INR n - 1) / (sc * (size + eps12)))) by (field; lra).
  rewrite Rabs_mult, (Rabs_right ((INR n - 1) / _)) by (apply Rle_ge, Rlt_le, div_pos; [exact P|nra]).
  replace (sc * (size / (INR n - 1) * (Rabs (x - y) * ((INR n - 1) / (sc * (size + eps12)))))) with (Rabs (x - y) * (size / (size + eps12))) by (field; lra).
  assert (size / (size + eps12) <= 1) by (apply Rmult_le_reg_r with (size + eps12); [lra|]; unfold Rdiv; rewrite Rmult_assoc, Rinv_l; lra).
  pose proof (Rabs_pos (x - y)). nra.
Qed.
Theorem C102_lipschitz : forall (s : GridSDF R) phi p q, tabulates s phi -> Rabs (grid_dist_local s p - grid_dist_local s q) <= apart p q.
Proof.
  intros s phi p q Tb. destruct (tabulates_steps s phi Tb) as (N & St). destruct Tb as (Nx & Ny & Nz & Sx & Sy & Sz & Sc & _). rewrite !grid_dist_tri.
  set (c := grid_index s p). set (d := grid_index s q).
  replace (_ - _) with (gs_scale s * (tri s (vx c) (vy c) (vz c) - tri s (vx d) (vy d) (vz d))) by ring. rewrite Rabs_mult, Rabs_right by lra.
  eapply Rle_trans; [apply Rmult_le_compat_l; [lra|apply tri_lip; [exact N|exact St]]|]. unfold c, d, grid_index, spacing, apart. cbn [vx vy vz].
  pose proof (index_lip _ (gs_scale s) (vx (gs_min s)) (vx (gs_size s)) (vx p) (vx q) Nx Sx Sc).
  pose proof (index_lip _ (gs_scale s) (vy (gs_min s)) (vy (gs_size s)) (vy p) (vy q) Ny Sy Sc).
  pose proof (index_lip _ (gs_scale s) (vz (gs_min s)) (vz (gs_size s)) (vz p) (vz q) Nz Sz Sc). lra.
Qed.
Print Assumptions C102_lipschitz.

(** beyond the table the distance is the distance of the closest point of the box: constant along outward rays *)
Definition clamp1 (lo hi x : R) : R := Rmax lo (Rmin x hi).
Definition clamp (s : GridSDF R) (p : vec3 R) : vec3 R :=
  let at1 f := clamp1 (gs_scale s * f (gs_min s)) (gs_scale s * (f (gs_min s) + f (gs_size s) + eps12)) (f p) in V3 (at1 vx) (at1 vy) (at1 vz).
Lemma lerp_clamp n f sc lo size x : (2 <= n)%nat -> 0 < size -> 0 < sc ->
  lerp n f (index1 n sc lo size x) = lerp n f (index1 n sc lo size (clamp1 (sc * lo) (sc * (lo + size + eps12)) x)).
Proof.
  intros Hn Hs Hc. pose proof (n1_pos n Hn) as P. pose proof eps12_pos as E.
  assert (I : forall u, (u / sc - lo) / (size + eps12) * (INR n - 1) = (u - sc * lo) * ((INR n - 1) / (sc * (size + eps12)))) by (intro; field; lra).
  assert (K : 0 < (INR n - 1) / (sc * (size + eps12))) by (apply div_pos; [exact P|nra]).
  assert (T : (sc * (lo + size + eps12) - sc * lo) * ((INR n - 1) / (sc * (size + eps12))) = INR n - 1) by (field; lra).
  assert (N : INR (n - 1) = INR n - 1) by (rewrite minus_INR by lia; simpl; lra).
  unfold clamp1, Rmin, Rmax. destruct (Rle_dec x _) as [L|L]; destruct (Rle_dec _ _) as [M|M]; try reflexivity; rewrite !index1_eq, !I.
  - rewrite !lerp_low; [reflexivity|nra|nra].
  - rewrite T, !lerp_high; [reflexivity|lia|lra|lia|nra].
  - exfalso. nra.
Qed.
Lemma lerp_ext n f g x : (forall i, f i = g i) -> lerp n f x = lerp n g x.
Proof. intros H. unfold lerp. rewrite !H. reflexivity. Qed.
Theorem C102_clamped : forall (s : GridSDF R) phi p, tabulates s phi -> grid_dist_local s p = grid_dist_local s (clamp s p).
Proof.
  intros s phi p (Nx & Ny & Nz & Sx & Sy & Sz & Sc & _). rewrite !grid_dist_tri. unfold tri, grid_index, clamp. cbn [vx vy vz].
  f_equal. f_equal. rewrite <- (lerp_clamp (gs_nx s)) by assumption. apply lerp_ext. intro i. rewrite <- (lerp_clamp (gs_ny s)) by assumption.
  apply lerp_ext. intro j. apply lerp_clamp; assumption.
Qed.
Print Assumptions C102_clamped.

(** if every sample on the faces of the table is outside the thickened body, everything inside lies within local_bounds *)
Definition on_face (s : GridSDF R) (i j k : nat) : Prop :=
  i = 0%nat \/ i = (gs_nx s - 1)%nat \/ j = 0%nat \/ j = (gs_ny s - 1)%nat \/ k = 0%nat \/ k = (gs_nz s - 1)%nat.
Definition closed_off (s : GridSDF R) : Prop := forall i j k, within s i j k -> on_face s i j k -> gs_thick s < gs_scale s * sample s i j k.
Lemma index_low n sc lo size x : (2 <= n)%nat -> 0 < size -> 0 < sc -> x < sc * lo -> index1 n sc lo size x <= 0.
Proof.
  intros Hn Hs Hc H. pose proof (n1_pos n Hn) as P. pose proof eps12_pos as E. rewrite index1_eq.
  replace ((x / sc - lo) / (size + eps12) * (INR n - 1)) with ((x - sc * lo) * ((INR n - 1) / (sc * (size + eps12)))) by (field; lra).
  assert (K : 0 < (INR n - 1) / (sc * (size + eps12))) by (apply div_pos; [exact P|nra]). nra.
Qed.
Lemma index_high n sc lo size x : (2 <= n)%nat -> 0 < size -> 0 < sc -> sc * (lo + size + eps12) <= x -> INR (n - 1) <= index1 n sc lo size x.
Proof.
  intros Hn Hs Hc H. pose proof (n1_pos n Hn) as P. pose proof eps12_pos as E. rewrite index1_eq, minus_INR by lia.
  replace ((x / sc - lo) / (size + eps12) * (INR n - 1)) with (INR n - 1 + (x - sc * (lo + size + eps12)) * ((INR n - 1) / (sc * (size + eps12)))) by (field; lra).
  assert (K : 0 < (INR n - 1) / (sc * (size + eps12))) by (apply div_pos; [exact P|nra]). simpl (INR 1). nra.
Qed.
Lemma face_above (s : GridSDF R) a x y z : nonempty s -> (forall i j k, within s i j k -> on_face s i j k -> a < sample s i j k) ->
  x <= 0 \/ INR (gs_nx s - 1) <= x \/ y <= 0 \/ INR (gs_ny s - 1) <= y \/ z <= 0 \/ INR (gs_nz s - 1) <= z -> a < tri s x y z.
Proof.
  intros (Nx & Ny & Nz) H C. unfold tri, on_face, within in *.
  destruct C as [C|[C|[C|[C|[C|C]]]]].
  - rewrite lerp_low by exact C. apply lerp_above; [exact Ny|]. intros j Hj. apply lerp_above; [exact Nz|]. intros k Hk. apply H; [lia|tauto].
  - rewrite lerp_high by assumption. apply lerp_above; [exact Ny|]. intros j Hj. apply lerp_above; [exact Nz|]. intros k Hk. apply H; [lia|tauto].
  - apply lerp_above; [exact Nx|]. intros i Hi. rewrite lerp_low by exact C. apply lerp_above; [exact Nz|]. intros k Hk. apply H; [lia|tauto].
  - apply lerp_above; [exact Nx|]. intros i Hi. rewrite lerp_high by assumption. apply lerp_above; [exact Nz|]. intros k Hk. apply H; [lia|tauto].
  - apply lerp_above; [exact Nx|]. intros i Hi. apply lerp_above; [exact Ny|]. intros j Hj. rewrite lerp_low by exact C. apply H; [lia|tauto].
  - apply lerp_above; [exact Nx|]. intros i Hi. apply lerp_above; [exact Ny|]. intros j Hj. rewrite lerp_high by assumption. apply H; [lia|tauto].
Qed.
Definition vle (a b : vec3 R) : Prop := vx a <= vx b /\ vy a <= vy b /\ vz a <= vz b.
Theorem C102_bounds_partial : forall (s : GridSDF R) phi p, tabulates s phi -> closed_off s -> gs_scale s * eps12 <= gs_thick s ->
  grid_dist_local s p <= 0 -> vle (fst (local_bounds s)) p /\ vle p (snd (local_bounds s)).
Proof.
  intros s phi p Tb Cl Th Hd. destruct (tabulates_steps s phi Tb) as (N & _). destruct Tb as (Nx & Ny & Nz & Sx & Sy & Sz & Sc & _).
  assert (Ab : forall i j k, within s i j k -> on_face s i j k -> gs_thick s / gs_scale s < sample s i j k).
  { intros i j k W F. pose proof (Cl i j k W F). apply Rmult_lt_reg_r with (gs_scale s); [exact Sc|]. unfold Rdiv. rewrite Rmult_assoc, Rinv_l; lra. }
  assert (Q : forall x y z, gs_thick s / gs_scale s < tri s x y z -> ~ tri s x y z * gs_scale s - gs_thick s <= 0).
  { intros x y z L M. apply (Rmult_lt_compat_r (gs_scale s)) in L; [|exact Sc]. unfold Rdiv in L. rewrite Rmult_assoc, Rinv_l in L; lra. }
  rewrite grid_dist_tri in Hd. set (c := grid_index s p) in *.
  assert (Out : ~ (vx c <= 0 \/ INR (gs_nx s - 1) <= vx c \/ vy c <= 0 \/ INR (gs_ny s - 1) <= vy c \/ vz c <= 0 \/ INR (gs_nz s - 1) <= vz c)).
  { intro C. exact (Q _ _ _ (face_above s _ _ _ _ N Ab C) Hd). }
  pose proof eps12_pos as E. assert (0 <= gs_scale s * eps12) by nra.
  unfold local_bounds, vle. cbn [fst snd vmap vscale vadd vx vy vz]. rnum. unfold c, grid_index in Out. cbn [vx vy vz] in Out.
  repeat split; apply Rnot_lt_le; intro L; apply Out.
  - left. apply index_low; try assumption. lra.
  - right; right; left. apply index_low; try assumption. lra.
  - do 4 right; left. apply index_low; try assumption. lra.
  - right; left. apply index_high; try assumption. lra.
  - do 3 right; left. apply index_high; try assumption. lra.
  - do 5 right. apply index_high; try assumption. lra.
Qed.
Print Assumptions C102_bounds_partial.

(** a thickness that reaches the faces of the table makes the body endless: every point to the left of [ramp] with thickness 1/2 is inside *)
Definition thick_ramp : GridSDF R := grid_sdf 2 2 2 [0;0;0;0;1;1;1;1] vzero (V3 1 1 1) (1/2) 1.
Lemma thick_tabulates : tabulates thick_ramp (fun p => vx p).
Proof. exact ramp_tabulates. Qed.
Theorem C102_bounds_refuted : exists (s : GridSDF R) phi p, tabulates s phi /\ 0 < gs_thick s /\ (forall q, vx q <= vx p -> grid_dist_local s q <= - (1/2)) /\
  ~ vle (fst (local_bounds s)) p.
Proof.
  exists thick_ramp, (fun p => vx p), (V3 (-10) 0 0). split; [exact thick_tabulates|]. split; [cbn [thick_ramp grid_sdf gs_thick]; lra|]. split.
  - intros q Hq. cbn [vx] in Hq. rewrite grid_dist_tri. unfold tri.
    rewrite lerp_low.
    2: { unfold grid_index. cbn [vx]. apply index_low; cbn [thick_ramp grid_sdf gs_nx gs_scale gs_size gs_min vsub vzero vx]; rnum; first [lia|lra]. }
    assert (F : lerp (gs_ny thick_ramp) (fun j => lerp (gs_nz thick_ramp) (fun k => sample thick_ramp 0 j k) (vz (grid_index thick_ramp q))) (vy (grid_index thick_ramp q)) <= 0).
    { apply (lerp_bounds 2 _ _ 0 0); [lia|]. intros j Hj. apply (lerp_bounds 2 _ _ 0 0); [lia|]. intros k Hk. pose proof (ramp_sample 0 j k) as Rs.
      change (sample thick_ramp 0 j k) with (sample ramp 0 j k). rewrite Rs by (unfold within; cbn [ramp grid_sdf gs_nx gs_ny gs_nz]; lia). simpl. lra. }
    cbn [gs_scale gs_thick thick_ramp grid_sdf]. lra.
  - unfold vle, local_bounds. cbn [fst thick_ramp grid_sdf gs_scale gs_min gs_thick vscale vmap vzero vx vy vz]. rnum. lra.
Qed.
Print Assumptions C102_bounds_refuted.

(** the gradient behind the normal is the derivative of the distance, inside the cells and outside the table *)
Definition cell_interior (s : GridSDF R) (p : vec3 R) : Prop :=
  let c := grid_index s p in IZR (Zfloor (vx c)) <> vx c /\ IZR (Zfloor (vy c)) <> vy c /\ IZR (Zfloor (vz c)) <> vz c.
Definition usable (s : GridSDF R) : Prop := 0 < vx (gs_size s) /\ 0 < vy (gs_size s) /\ 0 < vz (gs_size s) /\ 0 < gs_scale s.
Definition rise (n : nat) (f : nat -> R) (x : R) : R := f (clip_index n (Zfloor x + 1)) - f (clip_index n (Zfloor x)).
Lemma grid_grad_rise (s : GridSDF R) p : usable s ->
  let c := grid_index s p in let k n size := (INR n - 1) / (size + eps12) in
  grid_grad_local s p =
  V3 (rise (gs_nx s) (fun i => lerp (gs_ny s) (fun j => lerp (gs_nz s) (fun m => sample s i j m) (vz c)) (vy c)) (vx c) * k (gs_nx s) (vx (gs_size s)))
     (lerp (gs_nx s) (fun i => rise (gs_ny s) (fun j => lerp (gs_nz s) (fun m => sample s i j m) (vz c)) (vy c)) (vx c) * k (gs_ny s) (vy (gs_size s)))
     (lerp (gs_nx s) (fun i => lerp (gs_ny s) (fun j => rise (gs_nz s) (fun m => sample s i j m) (vz c)) (vy c)) (vx c) * k (gs_nz s) (vz (gs_size s))).
Proof.
  intros (Sx & Sy & Sz & Sc) c k. unfold grid_grad_local. fold c. pose proof eps12_pos as E.
  change (@numt_num R NumT_R) with Num_R. assert (L : @lit R Num_R 1 (10 ^ 12) = eps12) by (unfold eps12; rnum; replace (IZR (10 ^ 12)) with (10 ^ 12) by (simpl; lra); reflexivity).
  rewrite L. unfold k. rewrite !INR_IZR_INZ. rnum. unfold corners, nodes1, slopes1, rise, lerp, reduce_add. cbn [flat_map map app fold_left fst snd]. rnum.
  f_equal; field; lra.
Qed.
Lemma chain n f sc lo size x (a : R) : 0 < size -> 0 < sc -> IZR (Zfloor (index1 n sc lo size x)) <> index1 n sc lo size x ->
  derivable_pt_lim (fun t => lerp n f (index1 n sc lo size t) * sc - a) x (rise n f (index1 n sc lo size x) * ((INR n - 1) / (size + eps12))).
Proof.
  intros Hs Hc H. pose proof eps12_pos as E.
  assert (D : derivable_pt_lim (index1 n sc lo size) x ((INR n - 1) / (size + eps12) / sc)).
  { intros e He. exists (mkposreal 1 Rlt_0_1). intros h Hh _. rewrite !index1_eq. replace (_ / h - _) with 0 by (field; lra). rewrite Rabs_R0. exact He. }
  pose proof (derivable_pt_lim_comp _ _ _ _ _ D (lerp_derivable n f _ H)) as C. unfold comp in C. fold (rise n f (index1 n sc lo size x)) in C.
  replace (rise n f (index1 n sc lo size x) * ((INR n - 1) / (size + eps12)))
    with (sc * (rise n f (index1 n sc lo size x) * ((INR n - 1) / (size + eps12) / sc)) - 0) by (field; lra).
  apply (derivable_pt_lim_ext (fun t => sc * lerp n f (index1 n sc lo size t) - a)); [intro; ring|].
  apply (derivable_pt_lim_minus (fun t => sc * lerp n f (index1 n sc lo size t)) (fct_cte a)); [|apply derivable_pt_lim_const].
  apply (derivable_pt_lim_scal (fun t => lerp n f (index1 n sc lo size t))). exact C.
Qed.
Lemma lerp_swap nx ny (g : nat -> nat -> R) (y : R) x : lerp nx (fun i => lerp ny (g i) y) x = lerp ny (fun j => lerp nx (fun i => g i j) x) y.
Proof. unfold lerp. ring. Qed.
Lemma lerp_rise nx n (g : nat -> nat -> R) (y : R) x : lerp nx (fun i => rise n (g i) y) x = rise n (fun j => lerp nx (fun i => g i j) x) y.
Proof. unfold lerp, rise. ring. Qed.
Theorem C102_gradient : forall (s : GridSDF R) p, usable s -> cell_interior s p ->
  derivable_pt_lim (fun t => grid_dist_local s (V3 t (vy p) (vz p))) (vx p) (vx (grid_grad_local s p)) /\
  derivable_pt_lim (fun t => grid_dist_local s (V3 (vx p) t (vz p))) (vy p) (vy (grid_grad_local s p)) /\
  derivable_pt_lim (fun t => grid_dist_local s (V3 (vx p) (vy p) t)) (vz p) (vz (grid_grad_local s p)).
Proof.
  intros s p U (Ix & Iy & Iz). rewrite (grid_grad_rise s p U). destruct U as (Sx & Sy & Sz & Sc). unfold grid_index in *. cbn [vx vy vz] in *.
  split; [|split].
  - eapply derivable_pt_lim_ext; [|apply chain; assumption]. intro t. cbn beta. rewrite grid_dist_tri. reflexivity.
  - rewrite lerp_rise. eapply derivable_pt_lim_ext; [|apply chain; assumption]. intro t. cbn beta. rewrite grid_dist_tri. unfold tri, grid_index. cbn [vx vy vz].
    rewrite <- lerp_swap. reflexivity.
  - rewrite (lerp_ext _ _ _ _ (fun i => lerp_rise (gs_ny s) (gs_nz s) (fun j m => sample s i j m) _ _)), lerp_rise.
    eapply derivable_pt_lim_ext; [|apply chain; assumption]. intro t. cbn beta. rewrite grid_dist_tri. unfold tri, grid_index. cbn [vx vy vz].
    rewrite <- (lerp_swap (gs_nx s) (gs_nz s)). f_equal. f_equal. apply lerp_ext. intro i. rewrite <- (lerp_swap (gs_ny s) (gs_nz s)). reflexivity.
Qed.
Print Assumptions C102_gradient.

(** beyond a corner of the table there is no gradient, and the normal is zero, not a unit vector *)
Lemma rise_high n f x : (0 < n)%nat -> INR (n - 1) <= x -> rise n f x = 0.
Proof.
  intros Hn H. unfold rise. rewrite INR_IZR_INZ, Nat2Z.inj_sub in H by lia. assert (F : (Z.of_nat n - 1 <= Zfloor x)%Z) by (apply Zfloor_lub; exact H).
  rewrite !clip_high by lia. ring.
Qed.
Theorem C102_normal_refuted : forall (s : GridSDF R) phi st x, tabulates s phi -> sd_dim st = D3 ->
  (let p := to_local st x in let far f := gs_scale s * (f (gs_min s) + f (gs_size s) + eps12) <= f p in far vx /\ far vy /\ far vz) ->
  grid_normal s st x = Ok (V3 0 0 0).
Proof.
  intros s phi st x Tb D (Fx & Fy & Fz). destruct Tb as (Nx & Ny & Nz & Sx & Sy & Sz & Sc & _). unfold grid_normal. rewrite D.
  set (p := to_local st x) in *. assert (G : grid_grad_local s p = V3 0 0 0).
  { rewrite grid_grad_rise by (repeat split; assumption). unfold grid_index. cbn [vx vy vz].
    rewrite rise_high by (try lia; apply index_high; assumption). rewrite !lerp_rise, rise_high by (try lia; apply index_high; assumption).
    rewrite (lerp_ext _ _ _ _ (fun i => lerp_rise (gs_ny s) (gs_nz s) (fun j m => sample s i j m) _ _)), lerp_rise, rise_high by (try lia; apply index_high; assumption).
    rewrite !Rmult_0_l. reflexivity. }
  rewrite G. assert (Z : from_local_dir st (V3 0 0 0) = V3 0 0 0).
  { unfold from_local_dir, quaternion_rotate. rewrite D. apply vec3_eq; cbn; rnum; ring. }
  rewrite Z. unfold vdivs. cbn [vx vy vz]. rnum. unfold Rdiv. rewrite !Rmult_0_l. reflexivity.
Qed.
Print Assumptions C102_normal_refuted.

(** a cube of side 1 tabulated on 3 x 3 x 3 samples over [-1, 1]^3, thickened by 1/4 *)
Definition cube_dist (p : vec3 R) : R := Rmax (Rabs (vx p)) (Rmax (Rabs (vy p)) (Rabs (vz p))) - 1 / 2.
Definition cube : GridSDF R :=
  grid_sdf 3 3 3 (repeat (1/2) 13 ++ [- (1/2)] ++ repeat (1/2) 13) (V3 (-1) (-1) (-1)) (V3 1 1 1) (1/4) 1.
Lemma max_lip a b c d e : Rabs (a - b) <= e -> Rabs (c - d) <= e -> Rabs (Rmax a c - Rmax b d) <= e.
Proof. intros H1 H2. apply Rabs_le_inv in H1, H2. apply Rabs_le. unfold Rmax. destruct (Rle_dec a c), (Rle_dec b d); lra. Qed.
Lemma abs_lip a b : Rabs (Rabs a - Rabs b) <= Rabs (a - b).
Proof. apply Rabs_triang_inv2. Qed.
Lemma cube_samples i j k : within cube i j k -> sample cube i j k = cube_dist (voxel cube i j k).
Proof.
  intros (A & B & C). cbn [cube grid_sdf gs_nx gs_ny gs_nz] in A, B, C.
  assert (V : voxel cube i j k = V3 (INR i - 1) (INR j - 1) (INR k - 1)).
  { unfold voxel, spot. cbn [cube grid_sdf gs_min gs_size gs_nx gs_ny gs_nz vsub vx vy vz]. rnum. simpl (INR 3). apply vec3_eq; cbn [vx vy vz]; field. }
  rewrite V. unfold cube_dist. cbn [vx vy vz].
  assert (M : Rabs (-1) = 1) by (rewrite Rabs_left; lra). assert (Z : Rabs 0 = 0) by apply Rabs_R0. assert (O : Rabs 1 = 1) by apply Rabs_R1.
  assert (I0 : INR 0 - 1 = -1) by (simpl; lra). assert (I1 : INR 1 - 1 = 0) by (simpl; lra). assert (I2 : INR 2 - 1 = 1) by (simpl; lra).
  assert (R00 : Rmax 0 0 = 0) by (apply Rmax_left; lra). assert (R01 : Rmax 0 1 = 1) by (apply Rmax_right; lra).
  assert (R10 : Rmax 1 0 = 1) by (apply Rmax_left; lra). assert (R11 : Rmax 1 1 = 1) by (apply Rmax_left; lra).
  destruct i as [|[|[|i]]]; try lia; destruct j as [|[|[|j]]]; try lia; destruct k as [|[|[|k]]]; try lia; rewrite ?I0, ?I1, ?I2, ?M, ?Z, ?O, ?R00, ?R01, ?R10, ?R11;
    rewrite ?R00, ?R01, ?R10, ?R11; unfold sample; cbn [cube grid_sdf gs_ny gs_nz gs_data]; cbn [repeat app nth Nat.add Nat.mul]; lra.
Qed.
Example C102_case : tabulates cube cube_dist /\ closed_off cube /\ gs_scale cube * eps12 <= gs_thick cube /\ grid_dist_local cube (V3 0 0 0) <= 0 /\
  usable cube /\ cell_interior cube (V3 (1/4) (-1/3) (5/2)).
Proof.
  assert (Tb : tabulates cube cube_dist).
  { unfold tabulates. cbn [cube grid_sdf gs_nx gs_ny gs_nz gs_size gs_scale vsub vx vy vz]. rnum. repeat (split; [first [lia|lra]|]). split; [exact cube_samples|].
    intros p q. unfold cube_dist, apart. replace (_ - _) with (Rmax (Rabs (vx p)) (Rmax (Rabs (vy p)) (Rabs (vz p))) - Rmax (Rabs (vx q)) (Rmax (Rabs (vy q)) (Rabs (vz q)))) by ring.
    pose proof (abs_lip (vx p) (vx q)). pose proof (abs_lip (vy p) (vy q)). pose proof (abs_lip (vz p) (vz q)).
    pose proof (Rabs_pos (vx p - vx q)). pose proof (Rabs_pos (vy p - vy q)). pose proof (Rabs_pos (vz p - vz q)).
    apply max_lip; [lra|]. apply max_lip; lra. }
  split; [exact Tb|]. split; [|split; [|split; [|split]]].
  - intros i j k (A & B & C) F. unfold on_face in F. cbn [cube grid_sdf gs_nx gs_ny gs_nz gs_thick gs_scale] in *. simpl in F.
    destruct i as [|[|[|i]]]; try lia; destruct j as [|[|[|j]]]; try lia; destruct k as [|[|[|k]]]; try lia;
    unfold sample; cbn [cube grid_sdf gs_ny gs_nz gs_data]; cbn [repeat app nth Nat.add Nat.mul]; lra.
  - cbn [cube grid_sdf gs_scale gs_thick]. unfold eps12. lra.
  - assert (W : within cube 1 1 1) by (unfold within; cbn [cube grid_sdf gs_nx gs_ny gs_nz]; lia). pose proof (C101_samples_partial cube cube_dist 1 1 1 Tb W) as S.
    assert (V : vscale (gs_scale cube) (voxel cube 1 1 1) = V3 0 0 0).
    { unfold voxel, spot. cbn [cube grid_sdf gs_min gs_size gs_scale gs_nx gs_ny gs_nz vsub vscale vx vy vz]. rnum. simpl (INR 3). simpl (INR 1). unfold vscale; apply vec3_eq; cbn [vx vy vz]; rnum; field. }
    rewrite V in S. apply Rabs_le_inv in S. revert S. unfold sample. cbn [cube grid_sdf gs_ny gs_nz gs_data gs_scale gs_thick]. cbn [repeat app nth Nat.add Nat.mul]. unfold eps12.
    fold cube. intros S. lra.
  - unfold usable. cbn [cube grid_sdf gs_size gs_scale vsub vx vy vz]. rnum. lra.
  - assert (I : forall u z, IZR z < (u + 1) / (2 + eps12) * 2 < IZR z + 1 -> IZR (Zfloor (index1 3 1 (-1) (1 - -1) u)) <> index1 3 1 (-1) (1 - -1) u).
    { intros u z Hz. replace (index1 3 1 (-1) (1 - -1) u) with ((u + 1) / (2 + eps12) * 2) by (rewrite index1_eq; simpl (INR 3); pose proof eps12_pos; field; lra).
      rewrite (Zfloor_imp z) by (rewrite plus_IZR; lra). lra. }
    unfold cell_interior, grid_index. cbn [cube grid_sdf gs_min gs_size gs_scale gs_nx gs_ny gs_nz vsub vx vy vz]. rnum.
    split; [|split]; [apply (I _ 1%Z)|apply (I _ 0%Z)|apply (I _ 3%Z)]; unfold eps12; lra.
Qed.
Example C102_case_far : let st := {| sd_dim := D3; sd_com := V3 1 0 0; sd_vel := V3 0 0 0; sd_theta := 0; sd_omega := 0; sd_quat := Quat 1 (V3 0 0 0); sd_w := V3 0 0 0 |} in
  grid_normal ramp st (V3 9 8 7) = Ok (V3 0 0 0).
Proof.
  apply (C102_normal_refuted ramp (fun p => vx p)); [exact ramp_tabulates|reflexivity|].
  cbn [ramp grid_sdf gs_min gs_size gs_scale to_local sd_dim sd_com sd_quat quaternion_rotate quaternion_inv qv qw vopp vcross vadd vscale vsub vx vy vz vzero]. rnum. unfold eps12. lra.
Qed.
