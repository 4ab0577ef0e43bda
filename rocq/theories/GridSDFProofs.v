(** Interpolated signed distances (C101, C102). *)
From Coq Require Import List Arith ZArith Reals Bool Lra Lia.
From Flocq Require Import Core.Raux.
From Verif Require Import Num NumR Linalg Arrays ModelGrid ModelShape ModelMath ModelState ModelLaws ModelSDF ModelGridSDF ShapeFacts.
Import ListNotations.
Local Open Scope R_scope.

(** one-dimensional interpolation of samples f 0 .. f (n-1), clamped outside *)
Definition lerp (n : nat) (f : nat -> R) (x : R) : R :=
  (1 - (x - IZR (Zfloor x))) * f (clip_index n (Zfloor x)) + (x - IZR (Zfloor x)) * f (clip_index n (Zfloor x + 1)).
Lemma floor_spec x : IZR (Zfloor x) <= x < IZR (Zfloor x) + 1.
Proof. split; [apply Zfloor_lb|apply Zfloor_ub]. Qed.
Lemma map_coordinates_lerp (s : GridSDF R) c :
  map_coordinates s c = lerp (gs_nx s) (fun i => lerp (gs_ny s) (fun j => lerp (gs_nz s) (fun k => sample s i j k) (vz c)) (vy c)) (vx c).
Proof.
  unfold map_coordinates, lerp, nodes1, corners, reduce_add. cbn [flat_map map app fst snd fold_left]. rnum. ring.
Qed.
Lemma clip_lt n i : (0 < n)%nat -> (clip_index n i < n)%nat.
Proof. intros H. unfold clip_index. lia. Qed.
Lemma clip_nat n (i : nat) : (i < n)%nat -> clip_index n (Z.of_nat i) = i.
Proof. intros H. unfold clip_index. lia. Qed.
Lemma clip_low n i : (i <= 0)%Z -> clip_index n i = 0%nat.
Proof. intros H. unfold clip_index. lia. Qed.
Lemma clip_high n i : (Z.of_nat n - 1 <= i)%Z -> clip_index n i = (n - 1)%nat.
Proof. intros H. unfold clip_index. lia. Qed.
Lemma clip_next n i : clip_index n (i + 1) = clip_index n i \/ (clip_index n (i + 1) = S (clip_index n i) /\ (S (clip_index n i) < n)%nat).
Proof. unfold clip_index. lia. Qed.

Lemma lerp_cell n f k x : IZR k <= x <= IZR k + 1 ->
  lerp n f x = f (clip_index n k) + (x - IZR k) * (f (clip_index n (k + 1)) - f (clip_index n k)).
Proof.
  intros H. unfold lerp. destruct (Rlt_dec x (IZR k + 1)) as [L|L].
  - rewrite (Zfloor_imp k) by (rewrite plus_IZR; lra). ring.
  - assert (x = IZR k + 1) by lra. subst x. replace (IZR k + 1) with (IZR (k + 1)) by (rewrite plus_IZR; ring). rewrite Zfloor_IZR, plus_IZR. ring.
Qed.
Lemma lerp_int n f (i : nat) : (i < n)%nat -> lerp n f (INR i) = f i.
Proof.
  intros H. rewrite (lerp_cell n f (Z.of_nat i)) by (rewrite <- INR_IZR_INZ; lra). rewrite clip_nat by exact H. rewrite <- INR_IZR_INZ. ring.
Qed.
Lemma lerp_low n f x : x <= 0 -> lerp n f x = f 0%nat.
Proof.
  intros H. destruct (floor_spec x) as (A & B). destruct (Rlt_dec x 0) as [N|N].
  - unfold lerp. assert (IZR (Zfloor x) < 0) by lra. apply lt_IZR in H0. rewrite !clip_low by lia. ring.
  - assert (x = 0) by lra. subst x. rewrite (lerp_cell n f 0) by lra. rewrite clip_low by lia. ring.
Qed.
Lemma lerp_high n f x : (0 < n)%nat -> INR (n - 1) <= x -> lerp n f x = f (n - 1)%nat.
Proof.
  intros P H. destruct (floor_spec x) as (A & B). assert (Z.of_nat (n - 1) <= Zfloor x)%Z by (apply Zfloor_lub; rewrite <- INR_IZR_INZ; exact H).
  unfold lerp. rewrite !clip_high by lia. ring.
Qed.
Lemma lerp_bounds n f x a b : (0 < n)%nat -> (forall i, (i < n)%nat -> a <= f i <= b) -> a <= lerp n f x <= b.
Proof.
  intros P H. destruct (floor_spec x) as (A & B). pose proof (H _ (clip_lt n (Zfloor x) P)). pose proof (H _ (clip_lt n (Zfloor x + 1) P)).
  unfold lerp. generalize dependent (f (clip_index n (Zfloor x))). generalize dependent (f (clip_index n (Zfloor x + 1))). intros; nra.
Qed.
Lemma lerp_above n f x a : (0 < n)%nat -> (forall i, (i < n)%nat -> a < f i) -> a < lerp n f x.
Proof.
  intros P H. destruct (floor_spec x) as (A & B). pose proof (H _ (clip_lt n (Zfloor x) P)). pose proof (H _ (clip_lt n (Zfloor x + 1) P)).
  unfold lerp. generalize dependent (f (clip_index n (Zfloor x))). generalize dependent (f (clip_index n (Zfloor x + 1))). intros; nra.
Qed.
Lemma lerp_close n f g x e : (0 < n)%nat -> (forall i, (i < n)%nat -> Rabs (f i - g i) <= e) -> Rabs (lerp n f x - lerp n g x) <= e.
Proof.
  intros P H. replace (lerp n f x - lerp n g x) with (lerp n (fun i => f i - g i) x) by (unfold lerp; ring).
  apply Rabs_le. apply lerp_bounds; [exact P|]. intros i Hi. apply Rabs_le_inv, H, Hi.
Qed.
Lemma lerp_lip n f K x y : 0 <= K -> (forall i, (S i < n)%nat -> Rabs (f (S i) - f i) <= K) -> Rabs (lerp n f x - lerp n f y) <= K * Rabs (x - y).
Proof.
  intros HK H. assert (J : forall k, Rabs (f (clip_index n (k + 1)) - f (clip_index n k)) <= K).
  { intro k. destruct (clip_next n k) as [->|(-> & L)]; [rewrite Rminus_diag_eq by reflexivity; rewrite Rabs_R0; exact HK|apply H, L]. }
  assert (C : forall k a b, IZR k <= a <= IZR k + 1 -> IZR k <= b <= IZR k + 1 -> Rabs (lerp n f a - lerp n f b) <= K * Rabs (a - b)).
  { intros k a b Ha Hb. rewrite (lerp_cell n f k a Ha), (lerp_cell n f k b Hb).
    replace (_ - _) with ((a - b) * (f (clip_index n (k + 1)) - f (clip_index n k))) by ring. rewrite Rabs_mult, Rmult_comm.
    apply Rmult_le_compat_r; [apply Rabs_pos|apply J]. }
  assert (G : forall m a b, a <= b -> (Zfloor b <= Zfloor a + Z.of_nat m)%Z -> Rabs (lerp n f a - lerp n f b) <= K * Rabs (a - b)).
  { induction m as [|m IH]; intros a b Hab Hm; destruct (floor_spec a) as (A1 & A2); destruct (floor_spec b) as (B1 & B2).
    - apply (C (Zfloor a)); [lra|]. assert (IZR (Zfloor b) <= IZR (Zfloor a)) by (apply IZR_le; lia). lra.
    - destruct (Rle_lt_dec b (IZR (Zfloor a) + 1)) as [L|L]; [apply (C (Zfloor a)); lra|].
      set (z := IZR (Zfloor a) + 1) in *.
      assert (I1 : Rabs (lerp n f a - lerp n f z) <= K * Rabs (a - z)) by (apply (C (Zfloor a)); unfold z in *; lra).
      assert (I2 : Rabs (lerp n f z - lerp n f b) <= K * Rabs (z - b)).
      { apply IH; [lra|]. unfold z. replace (IZR (Zfloor a) + 1) with (IZR (Zfloor a + 1)) by (rewrite plus_IZR; ring). rewrite Zfloor_IZR. lia. }
      replace (lerp n f a - lerp n f b) with ((lerp n f a - lerp n f z) + (lerp n f z - lerp n f b)) by ring.
      eapply Rle_trans; [apply Rabs_triang|]. rewrite (Rabs_left1 (a - b)) by lra. rewrite (Rabs_left1 (a - z)) in I1 by lra.
      rewrite (Rabs_left1 (z - b)) in I2 by lra. nra. }
  assert (F : forall a b, a <= b -> exists m, (Zfloor b <= Zfloor a + Z.of_nat m)%Z) by (intros a b _; exists (Z.to_nat (Zfloor b - Zfloor a)); lia).
  destruct (Rle_dec x y) as [L|L].
  - destruct (F x y L) as (m & Hm). exact (G m x y L Hm).
  - assert (L' : y <= x) by lra. destruct (F y x L') as (m & Hm). rewrite <- (Rabs_Ropp (lerp n f x - _)), <- (Rabs_Ropp (x - y)), !Ropp_minus_distr. exact (G m y x L' Hm).
Qed.
(** inside a cell the interpolation is affine *)
Lemma lerp_derivable n f x : IZR (Zfloor x) <> x -> derivable_pt_lim (lerp n f) x (f (clip_index n (Zfloor x + 1)) - f (clip_index n (Zfloor x))).
Proof.
  intros N. destruct (floor_spec x) as (A & B). set (k := Zfloor x) in *. intros eps He.
  assert (P : 0 < Rmin (x - IZR k) (IZR k + 1 - x)) by (apply Rmin_pos; lra).
  exists (mkposreal _ P). intros h Hh Hd. simpl in Hd. pose proof (Rmin_l (x - IZR k) (IZR k + 1 - x)). pose proof (Rmin_r (x - IZR k) (IZR k + 1 - x)).
  apply Rabs_def2 in Hd. rewrite (lerp_cell n f k (x + h)), (lerp_cell n f k x) by lra.
  replace (_ / h - _) with 0 by (field; exact Hh). rewrite Rabs_R0. exact He.
Qed.

(** *** three dimensions *)
Definition tri (s : GridSDF R) (x y z : R) : R :=
  lerp (gs_nx s) (fun i => lerp (gs_ny s) (fun j => lerp (gs_nz s) (fun k => sample s i j k) z) y) x.
Definition nonempty (s : GridSDF R) : Prop := (0 < gs_nx s)%nat /\ (0 < gs_ny s)%nat /\ (0 < gs_nz s)%nat.
Definition within (s : GridSDF R) (i j k : nat) : Prop := (i < gs_nx s)%nat /\ (j < gs_ny s)%nat /\ (k < gs_nz s)%nat.
(** neighbouring samples differ by at most Kx, Ky, Kz *)
Definition steps (s : GridSDF R) (Kx Ky Kz : R) : Prop := 0 <= Kx /\ 0 <= Ky /\ 0 <= Kz /\
  (forall i j k, within s (S i) j k -> Rabs (sample s (S i) j k - sample s i j k) <= Kx) /\
  (forall i j k, within s i (S j) k -> Rabs (sample s i (S j) k - sample s i j k) <= Ky) /\
  (forall i j k, within s i j (S k) -> Rabs (sample s i j (S k) - sample s i j k) <= Kz).
Lemma tri_lip s Kx Ky Kz x y z x' y' z' : nonempty s -> steps s Kx Ky Kz ->
  Rabs (tri s x y z - tri s x' y' z') <= Kx * Rabs (x - x') + Ky * Rabs (y - y') + Kz * Rabs (z - z').
Proof.
  intros (Nx & Ny & Nz) (P1 & P2 & P3 & H1 & H2 & H3). unfold within in *.
  assert (A : Rabs (tri s x y z - tri s x' y z) <= Kx * Rabs (x - x')).
  { apply lerp_lip; [exact P1|]. intros i Hi. apply lerp_close; [exact Ny|]. intros j Hj. apply lerp_close; [exact Nz|]. intros k Hk. apply H1. auto. }
  assert (B : Rabs (tri s x' y z - tri s x' y' z) <= Ky * Rabs (y - y')).
  { apply lerp_close; [exact Nx|]. intros i Hi. apply lerp_lip; [exact P2|]. intros j Hj. apply lerp_close; [exact Nz|]. intros k Hk. apply H2. auto. }
  assert (C : Rabs (tri s x' y' z - tri s x' y' z') <= Kz * Rabs (z - z')).
  { apply lerp_close; [exact Nx|]. intros i Hi. apply lerp_close; [exact Ny|]. intros j Hj. apply lerp_lip; [exact P3|]. intros k Hk. apply H3. auto. }
  replace (tri s x y z - tri s x' y' z') with ((tri s x y z - tri s x' y z) + (tri s x' y z - tri s x' y' z) + (tri s x' y' z - tri s x' y' z')) by ring.
  eapply Rle_trans; [apply Rabs_triang|]. apply Rplus_le_compat; [|exact C]. eapply Rle_trans; [apply Rabs_triang|]. lra.
Qed.
Lemma tri_int s i j k : within s i j k -> tri s (INR i) (INR j) (INR k) = sample s i j k.
Proof.
  intros (A & B & C). unfold tri. rewrite lerp_int by exact A. rewrite lerp_int by exact B. apply lerp_int, C.
Qed.
Lemma tri_bounds s x y z a b : nonempty s -> (forall i j k, within s i j k -> a <= sample s i j k <= b) -> a <= tri s x y z <= b.
Proof.
  intros (Nx & Ny & Nz) H. unfold within in H. repeat (apply lerp_bounds; [assumption|]; intros). apply H. auto.
Qed.

Definition eps12 : R := 1 / 10 ^ 12.
Lemma eps12_pos : 0 < eps12.
Proof. unfold eps12. lra. Qed.
Lemma grid_dist_tri (s : GridSDF R) p : grid_dist_local s p =
  tri s (vx (grid_index s p)) (vy (grid_index s p)) (vz (grid_index s p)) * gs_scale s - gs_thick s.
Proof. unfold grid_dist_local. rewrite map_coordinates_lerp. reflexivity. Qed.
Lemma index1_eq n sc lo size x : index1 n sc lo size x = (x / sc - lo) / (size + eps12) * (INR n - 1).
Proof. unfold index1, eps12. rewrite INR_IZR_INZ. rnum. replace (IZR (10 ^ 12)) with (10 ^ 12) by (simpl; lra). reflexivity. Qed.
