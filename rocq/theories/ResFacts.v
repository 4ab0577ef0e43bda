(** Facts about [res], the folds, the dictionary and list assignment (no arithmetic). *)
From Coq Require Import List Arith Lia Bool.
From Verif Require Import Num Linalg Arrays ModelGrid ModelShape ModelMath ModelState ModelForces Sums.
Import ListNotations.

Lemma rbind_ok {A B} (x : res A) (f : A -> res B) b : rbind x f = Ok b -> exists a, x = Ok a /\ f a = Ok b.
Proof. destruct x; simpl; intros E; [eauto|discriminate]. Qed.
Lemma oget_ok {A} (o : option A) e a : oget o e = Ok a -> o = Some a.
Proof. destruct o; simpl; intros E; [congruence|discriminate]. Qed.
Lemma idx_ok {A} (l : list A) i a : idx l i = Ok a -> nth_error l i = Some a.
Proof. apply oget_ok. Qed.
Lemma idx_some {A} (l : list A) i a : nth_error l i = Some a -> idx l i = Ok a.
Proof. unfold idx; intros ->; reflexivity. Qed.
Lemma idx_opt_ok {A} (l : list A) i a : idx_opt l i = Ok a -> exists k, i = Some k /\ nth_error l k = Some a.
Proof. destruct i; simpl; intros E; [apply idx_ok in E; eauto|discriminate]. Qed.

(** invariants of a fold *)
Lemma rfold_inv {A St} (P : St -> Prop) (f : St -> A -> res St) l : forall s s',
  (forall s x s', In x l -> P s -> f s x = Ok s' -> P s') -> P s -> rfold f s l = Ok s' -> P s'.
Proof.
  induction l as [|x l IH]; simpl; intros s s' Hf Hs E; [congruence|].
  apply rbind_ok in E. destruct E as (s1 & E1 & E2). apply (IH s1); [|eapply Hf; eauto|exact E2].
  intros; eapply Hf; eauto.
Qed.
(** a quantity that every step of a fold changes by an amount that depends on the item only *)
Lemma rfold_app {A St} (f : St -> A -> res St) l m s :
  rfold f s (l ++ m) = rbind (rfold f s l) (fun s' => rfold f s' m).
Proof.
  revert s; induction l as [|x l IH]; simpl; intros s; [reflexivity|]. destruct (f s x); simpl; [apply IH|reflexivity].
Qed.
(** two folds over the same items stay related, and fail or succeed together *)
Lemma rfold_rel {A St St'} (Rl : St -> St' -> Prop) (f : St -> A -> res St) (g : St' -> A -> res St') l : forall s t s',
  (forall s t x s', In x l -> Rl s t -> f s x = Ok s' -> exists t', g t x = Ok t' /\ Rl s' t') ->
  Rl s t -> rfold f s l = Ok s' -> exists t', rfold g t l = Ok t' /\ Rl s' t'.
Proof.
  induction l as [|x l IH]; simpl; intros s t s' Hf Hs E.
  - exists t. split; [reflexivity|congruence].
  - apply rbind_ok in E. destruct E as (s1 & E1 & E2).
    destruct (Hf s t x s1 (or_introl eq_refl) Hs E1) as (t1 & F1 & R1). rewrite F1. simpl.
    apply (IH s1); [|assumption|assumption]. intros; eapply Hf; eauto.
Qed.
Lemma rmap_ok {A B} (f : A -> res B) l : forall l', rmap f l = Ok l' -> Forall2 (fun a b => f a = Ok b) l l'.
Proof.
  induction l as [|x l IH]; simpl; intros l' E; [injection E as <-; constructor|].
  apply rbind_ok in E. destruct E as (y & E1 & E). apply rbind_ok in E. destruct E as (ys & E2 & E).
  injection E as <-. constructor; [exact E1|apply IH, E2].
Qed.

Lemma set_nth_length {A} i (v : A) l : length (set_nth i v l) = length l.
Proof. apply upd_at_length. Qed.
Lemma upd_at_nth_error {A} (f : A -> A) i j l :
  nth_error (upd_at f i l) j = if Nat.eqb i j then option_map f (nth_error l j) else nth_error l j.
Proof.
  revert i j; induction l as [|x l IH]; intros [|i] [|j]; simpl; auto.
  destruct (Nat.eqb i j); reflexivity.
Qed.
Lemma set_nth_error {A} i (v : A) l j :
  nth_error (set_nth i v l) j = if Nat.eqb i j then option_map (fun _ => v) (nth_error l j) else nth_error l j.
Proof. apply upd_at_nth_error. Qed.
Lemma set_nth_same {A} i (v : A) l a : nth_error l i = Some a -> nth_error (set_nth i v l) i = Some v.
Proof. intros E. rewrite set_nth_error, Nat.eqb_refl, E. reflexivity. Qed.
Lemma set_nth_other {A} i (v : A) l j : i <> j -> nth_error (set_nth i v l) j = nth_error l j.
Proof. intros E. rewrite set_nth_error. apply Nat.eqb_neq in E. rewrite E. reflexivity. Qed.
Lemma set_nth_id {A} i (v : A) l : nth_error l i = Some v -> set_nth i v l = l.
Proof. revert i; induction l as [|x l IH]; intros [|i] E; unfold set_nth in *; simpl in *; try discriminate; [congruence|]. rewrite IH by assumption. reflexivity. Qed.

Lemma upd_idx_ok {A} (l : list A) i f l' : upd_idx l i f = Ok l' ->
  exists x y, nth_error l i = Some x /\ f x = Ok y /\ l' = set_nth i y l.
Proof.
  unfold upd_idx. intros E. apply rbind_ok in E. destruct E as (x & E1 & E). apply rbind_ok in E.
  destruct E as (y & E2 & E). exists x, y. apply idx_ok in E1. repeat split; congruence.
Qed.
Lemma upd_idx_length {A} (l : list A) i f l' : upd_idx l i f = Ok l' -> length l' = length l.
Proof. intros E. apply upd_idx_ok in E. destruct E as (x & y & _ & _ & ->). apply set_nth_length. Qed.
(** pointwise relations survive an indexed update *)
Lemma Forall2_set_nth {A B} (P : A -> B -> Prop) l m i b a : Forall2 P l m -> nth_error l i = Some a -> P a b ->
  Forall2 P l (set_nth i b m).
Proof.
  intros F. revert i; induction F as [|x y l m Hxy F IH]; intros [|i] Ea Pab; simpl in *; try discriminate; unfold set_nth in *; simpl.
  - constructor; [congruence|assumption].
  - constructor; [assumption|]. apply IH; assumption.
Qed.
Lemma Forall2_set_nth2 {A B} (P : A -> B -> Prop) l m i a b : Forall2 P l m -> P a b ->
  Forall2 P (set_nth i a l) (set_nth i b m).
Proof.
  intros F. revert i; induction F as [|x y l m Hxy F IH]; intros [|i] Pab; unfold set_nth in *; simpl; constructor; auto.
Qed.
Lemma Forall2_nth_error {A B} (P : A -> B -> Prop) l m i b : Forall2 P l m -> nth_error m i = Some b ->
  exists a, nth_error l i = Some a /\ P a b.
Proof.
  intros F. revert i; induction F as [|x y l m Hxy F IH]; intros [|i] E; simpl in *; try discriminate; [|apply IH, E].
  injection E as <-. eauto.
Qed.
Lemma Forall2_nth_error_l {A B} (P : A -> B -> Prop) l m i a : Forall2 P l m -> nth_error l i = Some a ->
  exists b, nth_error m i = Some b /\ P a b.
Proof.
  intros F. revert i; induction F as [|x y l m Hxy F IH]; intros [|i] E; simpl in *; try discriminate; [|apply IH, E].
  injection E as <-. eauto.
Qed.
Lemma Forall2_refl {A} (P : A -> A -> Prop) l : (forall a, P a a) -> Forall2 P l l.
Proof. intros; induction l; constructor; auto. Qed.
Lemma Forall2_trans {A} (P : A -> A -> Prop) : (forall a b c, P a b -> P b c -> P a c) ->
  forall l m n, Forall2 P l m -> Forall2 P m n -> Forall2 P l n.
Proof.
  intros Ht l m n F. revert n; induction F as [|x y l m Hxy F IH]; intros n G; inversion G; subst; constructor; eauto.
Qed.
Lemma Forall2_map_r {A B} (P : A -> B -> Prop) (f : A -> B) l : (forall a, In a l -> P a (f a)) -> Forall2 P l (map f l).
Proof. induction l; simpl; intros E; constructor; auto. Qed.

(** the dictionary *)
Lemma key_eqb_spec a b : reflect (a = b) (key_eqb a b).
Proof.
  destruct a as [a1 a2], b as [b1 b2]. unfold key_eqb; simpl.
  destruct (Nat.eqb_spec a1 b1), (Nat.eqb_spec a2 b2); simpl; constructor; congruence.
Qed.
Lemma dict_get_set {A} k (v : A) d k' : dict_get k' (dict_set k v d) = if key_eqb k k' then Ok v else dict_get k' d.
Proof.
  assert (R : forall x, key_eqb x x = true) by (intro x; destruct (key_eqb_spec x x); congruence).
  induction d as [|[k1 v1] d IH]; simpl.
  - destruct (key_eqb_spec k k') as [->|N]; [rewrite R; reflexivity|].
    destruct (key_eqb_spec k' k); [congruence|reflexivity].
  - destruct (key_eqb_spec k k1) as [->|N]; simpl.
    + destruct (key_eqb_spec k1 k') as [->|N']; [rewrite R; reflexivity|].
      destruct (key_eqb_spec k' k1); [congruence|reflexivity].
    + rewrite IH. destruct (key_eqb_spec k' k1) as [->|N1]; [|reflexivity].
      destruct (key_eqb_spec k k1); [congruence|reflexivity].
Qed.

(** enumerate *)
Lemma enum_length {A} (l : list A) : length (enum l) = length l.
Proof. unfold enum. rewrite combine_length, seq_length. lia. Qed.
Lemma enum_nth_error {A} (l : list A) i : nth_error (enum l) i = option_map (fun a => (i, a)) (nth_error l i).
Proof.
  unfold enum. assert (G : forall s, nth_error (combine (seq s (length l)) l) i = option_map (fun a => (s + i, a)) (nth_error l i)).
  { revert i; induction l as [|x l IH]; intros [|i] s; simpl; auto; [rewrite Nat.add_0_r; reflexivity|].
    rewrite IH. destruct (nth_error l i); simpl; [|reflexivity]. repeat f_equal. lia. }
  apply (G 0).
Qed.
Lemma map_enum_nth_error {A B} (f : nat -> A -> B) (l : list A) i :
  nth_error (map (fun ip => f (fst ip) (snd ip)) (enum l)) i = option_map (f i) (nth_error l i).
Proof. rewrite nth_error_map, enum_nth_error. destruct (nth_error l i); reflexivity. Qed.
Lemma nth_error_nth_lt {A} (l : list A) i d : i < length l -> nth_error l i = Some (nth i l d).
Proof. intros. apply nth_error_nth'. assumption. Qed.
Lemma Forall2_weaken {A B} (P Q : A -> B -> Prop) : (forall a b, P a b -> Q a b) ->
  forall l m, Forall2 P l m -> Forall2 Q l m.
Proof. intros Hi l m F. induction F; constructor; auto. Qed.
Lemma Forall2_len {A B} (P : A -> B -> Prop) l m : Forall2 P l m -> length l = length m.
Proof. induction 1; simpl; congruence. Qed.
