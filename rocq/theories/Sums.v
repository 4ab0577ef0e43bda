(** Finite sums over lists of reals, vectors and matrices; scatter and additive functionals. *)
From Coq Require Import List Arith ZArith Reals Lra Lia Permutation.
From Verif Require Import Num NumR Linalg Arrays.
Import ListNotations.
Local Open Scope R_scope.

Definition sumR {A} (f : A -> R) (l : list A) : R := fold_right (fun a s => f a + s) 0 l.
Definition vsum {A} (f : A -> vec3 R) (l : list A) : vec3 R :=
  V3 (sumR (fun a => vx (f a)) l) (sumR (fun a => vy (f a)) l) (sumR (fun a => vz (f a)) l).

Lemma sumR_cons {A} (f : A -> R) a l : sumR f (a :: l) = f a + sumR f l.
Proof. reflexivity. Qed.
Lemma sumR_nil {A} (f : A -> R) : sumR f [] = 0.
Proof. reflexivity. Qed.
Lemma sumR_app {A} (f : A -> R) l m : sumR f (l ++ m) = sumR f l + sumR f m.
Proof. induction l as [|a l IH]; simpl; [|fold (sumR f (l ++ m)); rewrite IH; fold (sumR f l)]; lra. Qed.
Lemma sumR_map {A B} (f : B -> R) (g : A -> B) l : sumR f (map g l) = sumR (fun a => f (g a)) l.
Proof. induction l as [|a l IH]; [reflexivity|]. simpl map. rewrite !sumR_cons, IH; reflexivity. Qed.
Lemma sumR_ext {A} (f g : A -> R) l : (forall a, In a l -> f a = g a) -> sumR f l = sumR g l.
Proof.
  induction l as [|a l IH]; intros E; [reflexivity|].
  rewrite !sumR_cons, (E a), IH; [reflexivity| |left; reflexivity].
  intros b Hb; apply E; right; exact Hb.
Qed.
Lemma sumR_ext_all {A} (f g : A -> R) l : (forall a, f a = g a) -> sumR f l = sumR g l.
Proof. intros E; apply sumR_ext; auto. Qed.
Lemma sumR_plus {A} (f g : A -> R) l : sumR (fun a => f a + g a) l = sumR f l + sumR g l.
Proof. induction l as [|a l IH]; [simpl; lra|]. rewrite !sumR_cons, IH; lra. Qed.
Lemma sumR_minus {A} (f g : A -> R) l : sumR (fun a => f a - g a) l = sumR f l - sumR g l.
Proof. induction l as [|a l IH]; [simpl; lra|]. rewrite !sumR_cons, IH; lra. Qed.
Lemma sumR_opp {A} (f : A -> R) l : sumR (fun a => - f a) l = - sumR f l.
Proof. induction l as [|a l IH]; [simpl; lra|]. rewrite !sumR_cons, IH; lra. Qed.
Lemma sumR_scal {A} (f : A -> R) k l : sumR (fun a => k * f a) l = k * sumR f l.
Proof. induction l as [|a l IH]; [simpl; lra|]. rewrite !sumR_cons, IH; lra. Qed.
Lemma sumR_scal_r {A} (f : A -> R) k l : sumR (fun a => f a * k) l = sumR f l * k.
Proof. induction l as [|a l IH]; [simpl; lra|]. rewrite !sumR_cons, IH; lra. Qed.
Lemma sumR_0 {A} (l : list A) : sumR (fun _ => 0) l = 0.
Proof. induction l as [|a l IH]; [reflexivity|]. rewrite sumR_cons, IH; lra. Qed.
Lemma sumR_zero {A} (f : A -> R) l : (forall a, In a l -> f a = 0) -> sumR f l = 0.
Proof. intros E; rewrite (sumR_ext f (fun _ => 0)); [apply sumR_0|exact E]. Qed.
Lemma sumR_flat_map {A B} (f : B -> R) (g : A -> list B) l :
  sumR f (flat_map g l) = sumR (fun a => sumR f (g a)) l.
Proof. induction l as [|a l IH]; [reflexivity|]. simpl flat_map. rewrite sumR_app, IH; reflexivity. Qed.
Lemma sumR_swap {A B} (f : A -> B -> R) l m :
  sumR (fun a => sumR (f a) m) l = sumR (fun b => sumR (fun a => f a b) l) m.
Proof.
  induction l as [|a l IH].
  - simpl. symmetry; apply sumR_0.
  - rewrite sumR_cons, IH, <- sumR_plus. apply sumR_ext_all; intro b. rewrite sumR_cons; reflexivity.
Qed.
Lemma sumR_nonneg {A} (f : A -> R) l : (forall a, In a l -> 0 <= f a) -> 0 <= sumR f l.
Proof.
  induction l as [|a l IH]; intros E; [simpl; lra|].
  rewrite sumR_cons. assert (0 <= f a) by (apply E; left; reflexivity).
  assert (0 <= sumR f l) by (apply IH; intros; apply E; right; assumption). lra.
Qed.
Lemma sumR_le {A} (f g : A -> R) l : (forall a, In a l -> f a <= g a) -> sumR f l <= sumR g l.
Proof.
  induction l as [|a l IH]; intros E; [simpl; lra|].
  rewrite !sumR_cons. assert (f a <= g a) by (apply E; left; reflexivity).
  assert (sumR f l <= sumR g l) by (apply IH; intros; apply E; right; assumption). lra.
Qed.
Lemma sumR_perm {A} (f : A -> R) l m : Permutation l m -> sumR f l = sumR f m.
Proof.
  induction 1; [reflexivity| | |congruence].
  - rewrite !sumR_cons, IHPermutation; reflexivity.
  - rewrite !sumR_cons; lra.
Qed.
Lemma sumR_filter {A} (f : A -> R) (b : A -> bool) l :
  sumR f (filter b l) = sumR (fun a => if b a then f a else 0) l.
Proof.
  induction l as [|a l IH]; [reflexivity|]. simpl filter. rewrite sumR_cons.
  destruct (b a); [rewrite sumR_cons|]; rewrite IH; lra.
Qed.
Lemma sumR_prod {A B} (f : A -> R) (g : B -> R) l m :
  sumR (fun a => sumR (fun b => f a * g b) m) l = sumR f l * sumR g m.
Proof.
  rewrite <- sumR_scal_r. apply sumR_ext_all; intro a. apply sumR_scal.
Qed.
Lemma sumR_repeat {A} (f : A -> R) x n : sumR f (repeat x n) = INR n * f x.
Proof.
  induction n as [|n IH]; [simpl; lra|]. simpl repeat. rewrite sumR_cons, IH, S_INR. lra.
Qed.
Lemma sumR_select {A} (f : A -> R) (d : A) (l : list A) i :
  sumR (fun j => if Nat.eqb j i then f (nth j l d) else 0) (seq 0 (length l))
  = if Nat.ltb i (length l) then f (nth i l d) else 0.
Proof.
  assert (G : forall n s, sumR (fun j => if Nat.eqb j i then f (nth j l d) else 0) (seq s n)
     = if (Nat.leb s i && Nat.ltb i (s + n))%bool then f (nth i l d) else 0).
  { induction n as [|n IH]; intros s.
    - simpl seq. rewrite sumR_nil. destruct (Nat.leb s i) eqn:E; [|reflexivity].
      apply Nat.leb_le in E. assert (Nat.ltb i (s + 0) = false) as -> by (apply Nat.ltb_ge; lia). reflexivity.
    - simpl seq. rewrite sumR_cons, IH. destruct (Nat.eqb s i) eqn:E.
      + apply Nat.eqb_eq in E; subst s. rewrite Nat.leb_refl.
        assert (Nat.leb (S i) i = false) as -> by (apply Nat.leb_gt; lia).
        assert (Nat.ltb i (i + S n) = true) as -> by (apply Nat.ltb_lt; lia). simpl; lra.
      + apply Nat.eqb_neq in E.
        replace (Nat.leb (S s) i) with (Nat.leb s i)
          by (destruct (Nat.leb s i) eqn:E1; symmetry; [apply Nat.leb_le in E1; apply Nat.leb_le; lia
             | apply Nat.leb_gt in E1; apply Nat.leb_gt; lia]).
        replace (S s + n)%nat with (s + S n)%nat by lia. lra. }
  rewrite G. simpl. reflexivity.
Qed.
Lemma sumR_seq_nth {A} (f : A -> R) (d : A) l :
  sumR (fun i => f (nth i l d)) (seq 0 (length l)) = sumR f l.
Proof.
  rewrite <- (sumR_map f (fun i => nth i l d)). f_equal.
  induction l as [|a l IH]; [reflexivity|]. simpl. f_equal.
  rewrite <- seq_shift, map_map. exact IH.
Qed.

(** [upd_at] and [scatter_add] *)
Lemma upd_at_length {A} (f : A -> A) i l : length (upd_at f i l) = length l.
Proof. revert i; induction l as [|x l IH]; intros [|i]; simpl; auto. Qed.
Lemma upd_at_nth {A} (f : A -> A) i j l d :
  nth j (upd_at f i l) d = if (Nat.eqb i j && Nat.ltb j (length l))%bool then f (nth j l d) else nth j l d.
Proof.
  revert i j; induction l as [|x l IH]; intros [|i] [|j]; simpl; auto.
  - destruct (Nat.eqb i j); reflexivity.
  - rewrite IH. reflexivity.
Qed.
Lemma scatter_add_length {A} (add : A -> A -> A) ivs init :
  length (scatter_add add init ivs) = length init.
Proof.
  unfold scatter_add; revert init; induction ivs as [|iv ivs IH]; intros init; simpl; [reflexivity|].
  rewrite IH, upd_at_length; reflexivity.
Qed.
Lemma scatter_add_nth {A} (add : A -> A -> A) (phi : A -> R) (d : A)
  (Hadd : forall x y, phi (add x y) = phi x + phi y) ivs init i :
  (i < length init)%nat ->
  phi (nth i (scatter_add add init ivs) d)
  = phi (nth i init d) + sumR (fun iv => if Nat.eqb (fst iv) i then phi (snd iv) else 0) ivs.
Proof.
  unfold scatter_add; revert init; induction ivs as [|iv ivs IH]; intros init Hi; simpl fold_left.
  - rewrite sumR_nil; lra.
  - rewrite IH by (rewrite upd_at_length; exact Hi).
    rewrite sumR_cons, upd_at_nth. apply Nat.ltb_lt in Hi; rewrite Hi, Bool.andb_true_r.
    destruct (Nat.eqb (fst iv) i); [rewrite Hadd|]; lra.
Qed.
(** Sum of an additive functional over all cells after a scatter. *)
Lemma upd_at_sum {A} (phi : A -> R) f i l dlt :
  (forall x, phi (f x) = phi x + dlt) ->
  sumR phi (upd_at f i l) = sumR phi l + (if Nat.ltb i (length l) then dlt else 0).
Proof.
  intros Hf. revert i; induction l as [|x l IH]; intros [|i]; cbn [upd_at length].
  - rewrite !sumR_nil. simpl. lra.
  - rewrite !sumR_nil. simpl. lra.
  - rewrite !sumR_cons, Hf. simpl. lra.
  - rewrite !sumR_cons, IH. change (Nat.ltb (S i) (S (length l))) with (Nat.ltb i (length l)). lra.
Qed.
Lemma scatter_add_sum {A} (add : A -> A -> A) (phi : A -> R)
  (Hadd : forall x y, phi (add x y) = phi x + phi y) ivs init :
  sumR phi (scatter_add add init ivs)
  = sumR phi init + sumR (fun iv => if Nat.ltb (fst iv) (length init) then phi (snd iv) else 0) ivs.
Proof.
  unfold scatter_add; revert init; induction ivs as [|iv ivs IH]; intros init; simpl fold_left.
  - rewrite sumR_nil; lra.
  - rewrite IH, sumR_cons, upd_at_length.
    rewrite (upd_at_sum phi _ (fst iv) init (phi (snd iv))) by (intro; apply Hadd). lra.
Qed.
(** Structural versions, valid for every addition. *)
Lemma scatter_add_untouched {A} (add : A -> A -> A) (d : A) ivs init i :
  (forall iv, In iv ivs -> fst iv <> i) ->
  nth i (scatter_add add init ivs) d = nth i init d.
Proof.
  unfold scatter_add; revert init; induction ivs as [|iv ivs IH]; intros init Hn; simpl; [reflexivity|].
  rewrite IH by (intros; apply Hn; right; assumption).
  rewrite upd_at_nth. replace (Nat.eqb (fst iv) i) with false; [reflexivity|].
  symmetry; apply Nat.eqb_neq, Hn; left; reflexivity.
Qed.

(** Vectors *)
Lemma vec3_eq {T} (a b : vec3 T) : vx a = vx b -> vy a = vy b -> vz a = vz b -> a = b.
Proof. destruct a, b; simpl; intros; subst; reflexivity. Qed.
Lemma mat3_eq {T} (a b : mat3 T) :
  m00 a = m00 b -> m01 a = m01 b -> m02 a = m02 b ->
  m10 a = m10 b -> m11 a = m11 b -> m12 a = m12 b ->
  m20 a = m20 b -> m21 a = m21 b -> m22 a = m22 b -> a = b.
Proof. destruct a, b; simpl; intros; subst; reflexivity. Qed.
Lemma vx_vsum {A} (f : A -> vec3 R) l : vx (vsum f l) = sumR (fun a => vx (f a)) l.
Proof. reflexivity. Qed.
Lemma vsum_ext {A} (f g : A -> vec3 R) l : (forall a, In a l -> f a = g a) -> vsum f l = vsum g l.
Proof. intros E; unfold vsum; f_equal; apply sumR_ext; intros a Ha; rewrite (E a Ha); reflexivity. Qed.

(** Lists *)
Lemma zrange_length a n : length (zrange a n) = n.
Proof. revert a; induction n as [|n IH]; intros a; simpl; [reflexivity|rewrite IH; reflexivity]. Qed.
Lemma zrange_nth a n i d : (i < n)%nat -> nth i (zrange a n) d = (a + Z.of_nat i)%Z.
Proof.
  revert a i; induction n as [|n IH]; intros a [|i] Hi; simpl; try lia.
  rewrite IH by lia. lia.
Qed.
Lemma nth_map_in {A B} (f : A -> B) l i da db : (i < length l)%nat -> nth i (map f l) db = f (nth i l da).
Proof. revert i; induction l as [|x l IH]; intros [|i] Hi; simpl in *; try lia; [reflexivity|apply IH; lia]. Qed.
Lemma flat_map_const_length {A B} (f : A -> list B) l w :
  (forall a, In a l -> length (f a) = w) -> length (flat_map f l) = (length l * w)%nat.
Proof.
  induction l as [|a l IH]; intros E; [reflexivity|]. simpl. rewrite app_length, (E a) by (left; reflexivity).
  rewrite IH; [reflexivity|]. intros; apply E; right; assumption.
Qed.
Lemma flat_map_nth {A B} (f : A -> list B) l w i j da db :
  (forall a, In a l -> length (f a) = w) -> (i < length l)%nat -> (j < w)%nat ->
  nth (i * w + j) (flat_map f l) db = nth j (f (nth i l da)) db.
Proof.
  revert i; induction l as [|a l IH]; intros i E Hi Hj; [simpl in Hi; lia|].
  assert (Ea : length (f a) = w) by (apply E; left; reflexivity).
  destruct i as [|i].
  - simpl. rewrite app_nth1; [reflexivity|lia].
  - simpl flat_map. replace (S i * w + j)%nat with (w + (i * w + j))%nat by lia.
    rewrite app_nth2 by lia. rewrite Ea. replace (w + (i * w + j) - w)%nat with (i * w + j)%nat by lia.
    simpl nth. apply IH; [|simpl in Hi; lia|exact Hj]. intros; apply E; right; assumption.
Qed.
Lemma map_seq_divmod {B} (g : nat -> nat -> B) n w : (0 < w)%nat ->
  map (fun i => g (i / w)%nat (i mod w)%nat) (seq 0 (n * w))
  = flat_map (fun p => map (g p) (seq 0 w)) (seq 0 n).
Proof.
  intros Hw. induction n as [|n IH]; [reflexivity|].
  rewrite seq_S, flat_map_app, <- IH. simpl flat_map. rewrite app_nil_r.
  replace (S n * w)%nat with (n * w + w)%nat by lia.
  rewrite seq_app, map_app. f_equal. simpl.
  replace (seq (n * w) w) with (map (fun j => (n * w + j)%nat) (seq 0 w)).
  - rewrite map_map. apply map_ext_in. intros j Hj. apply in_seq in Hj.
    replace (n * w + j)%nat with (j + n * w)%nat by lia.
    rewrite Nat.div_add, Nat.mod_add by lia. rewrite Nat.div_small, Nat.mod_small by lia. reflexivity.
  - clear. induction w as [|w IH] using nat_ind; [reflexivity|]. clear IH.
    generalize (n * S w)%nat as m. intros m.
    replace (seq m (S w)) with (seq (m + 0) (S w)) by (f_equal; lia).
    generalize (S w) as k; generalize 0%nat as s. intros s k; revert s.
    induction k as [|k IHk]; intros s; [reflexivity|]. simpl. f_equal.
    rewrite IHk. f_equal. lia.
Qed.
