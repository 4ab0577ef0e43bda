(** Property theorems C74, C75, C93: saving and loading. *)
From Coq Require Import List ZArith Bool String Ascii Decimal DecimalString DecimalNat Lia.
From Verif Require Import ModelIO.
Import ListNotations.

(** ** File names *)
Definition value (s : string) : option nat := option_map Nat.of_uint (NilEmpty.uint_of_string s).
Lemma to_uint_nonnil n : Nat.to_uint n <> Nil.
Proof. intros E. apply (f_equal Nat.of_uint) in E as E'. rewrite DecimalNat.Unsigned.of_to in E'. cbn in E'. subst n. discriminate. Qed.
Lemma digits_eq n : digits n = NilEmpty.string_of_uint (Nat.to_uint n).
Proof. unfold digits, NilZero.string_of_uint. pose proof (to_uint_nonnil n). destruct (Nat.to_uint n); try reflexivity. congruence. Qed.
Lemma value_digits n : value (digits n) = Some n.
Proof. unfold value. rewrite digits_eq, NilEmpty.usu. cbn. now rewrite DecimalNat.Unsigned.of_to. Qed.
Lemma value_zeros k s n : value s = Some n -> value (zeros k ++ s) = Some n.
Proof.
  intros E. induction k as [| k IH]; [exact E |]. unfold value in *. cbn [zeros append NilEmpty.uint_of_string].
  destruct (NilEmpty.uint_of_string (zeros k ++ s)) as [d |]; [| discriminate]. cbn in *. exact IH.
Qed.
Lemma value_pad w n : value (pad w (digits n)) = Some n.
Proof. apply value_zeros, value_digits. Qed.
Lemma fmt_inj a b : fmt05 a = fmt05 b -> a = b.
Proof.
  assert (neg : forall s, value (String "-" s) = None) by (intros s; unfold value; cbn; now destruct (NilEmpty.uint_of_string s)).
  intros E. apply (f_equal value) in E as Ev. destruct a as [| p | p], b as [| q | q]; cbn [fmt05] in *;
    rewrite ?neg, ?value_pad in Ev; try discriminate; try (inversion Ev; lia).
  injection E as E. apply (f_equal value) in E. rewrite !value_pad in E. inversion E as [E']. f_equal. lia.
Qed.
Lemma app_cancel a : forall b s, (a ++ s = b ++ s)%string -> a = b.
Proof.
  assert (L : forall x y, String.length (x ++ y) = String.length x + String.length y) by (intros x y; induction x; cbn; auto).
  induction a as [| c a IH]; intros [| e b] s E; [reflexivity | | |].
  - apply (f_equal String.length) in E. rewrite !L in E. cbn in E. lia.
  - apply (f_equal String.length) in E. rewrite !L in E. cbn in E. lia.
  - cbn in E. inversion E. f_equal. eapply IH; eauto.
Qed.
Theorem C74_names : (forall a b, state_file a = state_file b -> a = b) /\ (forall a, state_file a <> solver_file) /\ (forall a, state_file a <> meta_file) /\ solver_file <> meta_file.
Proof.
  repeat split; try discriminate. intros a b E. unfold state_file in E. cbn [append] in E. injection E as E. now apply app_cancel, fmt_inj in E.
Qed.
Example C74_names_case : state_file 7 = "state_00007.eqx"%string /\ state_file 123456 = "state_123456.eqx"%string /\ state_file (-3) = "state_-0003.eqx"%string.
Proof. repeat split; reflexivity. Qed.

Section Facts.
Context {A B M : Type} (step_of : A -> Z).
Implicit Types (f : FS A B M) (p q d : path).

Lemma path_eqb_iff p q : path_eqb p q = true <-> p = q.
Proof. unfold path_eqb. destruct (list_eq_dec string_dec p q); split; congruence. Qed.
Lemma path_eqb_refl p : path_eqb p p = true.
Proof. now apply path_eqb_iff. Qed.
Lemma is_prefix_iff p : forall q, is_prefix p q = true <-> exists r, q = p ++ r.
Proof.
  induction p as [| a p IH]; intros q; cbn; [split; [eauto | auto] |]. destruct q as [| b q]; [split; [discriminate | intros [r E]; discriminate] |].
  rewrite andb_true_iff, String.eqb_eq, IH. split.
  - intros [-> [r ->]]. eauto.
  - intros [r E]. inversion E. eauto.
Qed.
Lemma is_prefix_refl p : is_prefix p p = true.
Proof. apply is_prefix_iff. exists []. now rewrite app_nil_r. Qed.
Lemma is_prefix_trans p q r : is_prefix p q = true -> is_prefix q r = true -> is_prefix p r = true.
Proof. rewrite !is_prefix_iff. intros [x ->] [y ->]. exists (x ++ y). now rewrite app_assoc. Qed.
Lemma prefixes_in p : forall q, In q (prefixes p) <-> is_prefix q p = true.
Proof.
  induction p as [| a p IH]; intros q; cbn [prefixes].
  - destruct q; cbn; split; auto; try discriminate. intros [E | []]; discriminate.
  - destruct q as [| b q]; cbn [is_prefix In]; [split; auto |]. rewrite in_map_iff, andb_true_iff, String.eqb_eq. split.
    + intros [E | [x [E Hx]]]; [discriminate |]. inversion E; subst. split; [reflexivity | now apply IH].
    + intros [-> Hq]. right. exists q. split; [reflexivity | now apply IH].
Qed.
(** a proper prefix of a file's path is a prefix of its directory *)
Lemma prefix_file p d n : is_prefix p (d ++ [n]) = true -> p <> d ++ [n] -> is_prefix p d = true.
Proof.
  rewrite !is_prefix_iff. intros [r E] Hn. destruct (@exists_last _ r) as [r' [x ->]].
  - intros ->. rewrite app_nil_r in E. congruence.
  - rewrite app_assoc in E. apply app_inj_tail in E as [-> _]. eauto.
Qed.
Lemma prefix_file_r p d n : is_prefix p d = true -> is_prefix p (d ++ [n]) = true.
Proof. intros E. eapply is_prefix_trans; [exact E |]. apply is_prefix_iff. eauto. Qed.
Lemma find_filter {X} (g k : X -> bool) l : (forall x, In x l -> g x = true -> k x = true) -> find g (filter k l) = find g l.
Proof.
  induction l as [| x l IH]; intros Hk; [reflexivity |]. cbn. destruct (k x) eqn:Ek; cbn.
  - destruct (g x); [reflexivity |]. apply IH. intros; apply Hk; [now right | assumption].
  - destruct (g x) eqn:Eg; [rewrite Hk in Ek; [discriminate | now left | exact Eg] |]. apply IH. intros; apply Hk; [now right | assumption].
Qed.
Lemma rmtree_other f p q : is_prefix p q = false -> file_at (rmtree f p) q = file_at f q.
Proof.
  intros E. unfold file_at, rmtree. cbn [fs_files]. rewrite find_filter; [reflexivity |].
  intros [x y] _ Hx. cbn in *. apply path_eqb_iff in Hx. subst x. now rewrite E.
Qed.
Lemma rmtree_gone f p q : is_prefix p q = true -> file_at (rmtree f p) q = None.
Proof.
  intros E. unfold file_at, rmtree. cbn [fs_files]. destruct (find _ _) as [[x y] |] eqn:Ef; [| reflexivity].
  apply find_some in Ef as [Hi Hx]. apply filter_In in Hi as [_ Hi]. cbn in *. apply path_eqb_iff in Hx. subst x. rewrite E in Hi. discriminate.
Qed.
Lemma write_same f d n x : dir_at f d = true -> file_at (fst (write f d n x)) (d ++ [n]) = Some x /\ snd (write f d n x) = Good tt.
Proof. intros E. unfold write. rewrite E. cbn. unfold file_at. cbn. now rewrite path_eqb_refl. Qed.
Lemma write_other f d n x q : q <> d ++ [n] -> file_at (fst (write f d n x)) q = file_at f q.
Proof.
  intros Hq. unfold write. destruct (dir_at f d); [| reflexivity]. unfold file_at. cbn.
  destruct (path_eqb (d ++ [n]) q) eqn:E; [apply path_eqb_iff in E; congruence | reflexivity].
Qed.
Lemma write_dirs f d n x : fs_dirs (fst (write f d n x)) = fs_dirs f.
Proof. unfold write. now destruct (dir_at f d). Qed.
Lemma write_good f d n x : snd (write f d n x) = Good tt -> dir_at f d = true.
Proof. unfold write. now destruct (dir_at f d). Qed.
Lemma dir_at_in f d : dir_at f d = true <-> In d (fs_dirs f).
Proof.
  unfold dir_at. rewrite existsb_exists. split; [intros [x [Hx E]]; apply path_eqb_iff in E; now subst | intros H0; exists d; split; [exact H0 | apply path_eqb_refl]].
Qed.
Lemma blocked_file f d n x : file_at f (d ++ [n]) = Some x -> blocked f (d ++ [n]) = true.
Proof. intros E. unfold blocked. apply existsb_exists. exists (d ++ [n]). split; [apply prefixes_in, is_prefix_refl |]. now rewrite E. Qed.

(** an operation that deletes what is in directory [d], one that writes the solver of [d], one that writes step [k] of [d] *)
Definition clears d (o : Op A B M) : Prop := match o with Open e ow => ow = true /\ is_prefix e d = true | _ => False end.
Definition saves_solver d (o : Op A B M) : Prop := match o with SaveSolver e _ _ => e = d | _ => False end.
Definition saves_step d (k : Z) (o : Op A B M) : Prop := match o with SaveStep e s => e = d /\ step_of s = k | _ => False end.

Lemma op_dir f o d : ~ clears d o -> dir_at f d = true -> dir_at (fst (op step_of f o)) d = true.
Proof.
  intros Hc Hd. rewrite dir_at_in in *. destruct o as [e ow | e s m | e s]; cbn [op].
  - destruct (blocked f e); [exact Hd |]. cbn [fst fs_dirs]. apply in_or_app. right. destruct (dir_at f e && ow)%bool eqn:E; [| exact Hd].
    unfold rmtree. cbn [fs_dirs]. apply filter_In. split; [exact Hd |]. apply andb_true_iff in E as [_ ->]. cbn in Hc.
    destruct (is_prefix e d); [exfalso; auto | reflexivity].
  - pose proof (write_dirs f e solver_file (FSolver s)) as W.
    destruct (write f e solver_file (FSolver s)) as [f1 [[] | er]] eqn:E; cbn [fst] in W |- *; rewrite ?write_dirs; now rewrite W.
  - now rewrite write_dirs.
Qed.
Lemma op_file f o d n x : ~ clears d o -> (saves_solver d o -> n <> solver_file /\ n <> meta_file) ->
  (forall k, saves_step d k o -> n <> state_file k) -> file_at f (d ++ [n]) = Some x -> file_at (fst (op step_of f o)) (d ++ [n]) = Some x.
Proof.
  intros Hc Hs Hk E. destruct o as [e ow | e s m | e s]; cbn [op].
  - destruct (blocked f e) eqn:Eb; [exact E |]. unfold file_at in *. cbn [fst fs_files].
    destruct (dir_at f e && ow)%bool eqn:Eo; [| exact E]. apply andb_true_iff in Eo as [_ Eo].
    fold (file_at (rmtree f e) (d ++ [n])). rewrite rmtree_other; [exact E |].
    destruct (is_prefix e (d ++ [n])) eqn:Ep; [| reflexivity]. exfalso. apply Hc. cbn. split; [exact Eo |]. apply (prefix_file _ _ n); [exact Ep |].
    intros ->. pose proof (blocked_file f d n x E) as Hb. congruence.
  - assert (W : forall g y, file_at g (d ++ [n]) = Some x -> n <> solver_file \/ e <> d -> file_at (fst (write g e solver_file y)) (d ++ [n]) = Some x).
    { intros g y Eg Hn. rewrite write_other; [exact Eg |]. intros Eq. apply app_inj_tail in Eq as [-> ->]. tauto. }
    assert (W' : forall g y, file_at g (d ++ [n]) = Some x -> n <> meta_file \/ e <> d -> file_at (fst (write g e meta_file y)) (d ++ [n]) = Some x).
    { intros g y Eg Hn. rewrite write_other; [exact Eg |]. intros Eq. apply app_inj_tail in Eq as [-> ->]. tauto. }
    assert (Hd : n <> solver_file /\ n <> meta_file \/ e <> d).
    { destruct (list_eq_dec string_dec e d) as [-> | Hn]; [left; now apply Hs | now right]. }
    destruct (write f e solver_file (FSolver s)) as [f1 [[] | er]] eqn:Ew;
      pose proof (W f (FSolver s) E ltac:(tauto)) as E1; rewrite Ew in E1; cbn [fst] in E1; [apply W'; [exact E1 | tauto] | exact E1].
  - rewrite write_other; [exact E |]. intros Eq. apply app_inj_tail in Eq as [-> Eq]. apply (Hk (step_of s)); [now split | exact Eq].
Qed.
Lemma ops_file l : forall f d n x, (forall o, In o l -> ~ clears d o /\ (saves_solver d o -> n <> solver_file /\ n <> meta_file) /\
  (forall k, saves_step d k o -> n <> state_file k)) -> file_at f (d ++ [n]) = Some x -> file_at (ops step_of f l) (d ++ [n]) = Some x.
Proof.
  induction l as [| o l IH]; intros f d n x Hl E; [exact E |]. cbn [ops]. destruct (Hl o (or_introl eq_refl)) as [H1 [H2 H3]].
  apply IH; [intros; apply Hl; now right |]. now apply op_file.
Qed.
Lemma ops_dir l : forall f d, (forall o, In o l -> ~ clears d o) -> dir_at f d = true -> dir_at (ops step_of f l) d = true.
Proof.
  induction l as [| o l IH]; intros f d Hl E; [exact E |]. cbn [ops]. apply IH; [intros; apply Hl; now right |]. apply op_dir; [apply Hl; now left | exact E].
Qed.

(** ** C74 *)
(** A solver saved in [d], later a state saved in [d]: loading that step gives both back after any further history that
    neither deletes [d] nor saves the same things again. *)
Theorem C74_recovered : forall f d b m s h1 h2,
  snd (op step_of f (SaveSolver d b m)) = Good tt ->
  (forall o, In o h1 -> ~ clears d o /\ ~ saves_solver d o) ->
  (forall o, In o h2 -> ~ clears d o /\ ~ saves_solver d o /\ ~ saves_step d (step_of s) o) ->
  let f1 := ops step_of (fst (op step_of f (SaveSolver d b m))) h1 in
  let f2 := ops step_of (fst (op step_of f1 (SaveStep d s))) h2 in
  snd (op step_of f1 (SaveStep d s)) = Good tt /\ load_simulation f2 d (step_of s) = Good (b, s).
Proof.
  intros f d b m s h1 h2 Hg H1 H2 f1 f2. destruct C74_names as [Ni [N1 [N2 N3]]].
  assert (D0 : dir_at f d = true).
  { cbn [op] in Hg. destruct (write f d solver_file (FSolver b)) as [g [[] | e]] eqn:Ew; [| discriminate].
    apply (write_good f d solver_file (FSolver b)). now rewrite Ew. }
  assert (S0 : file_at (fst (op step_of f (SaveSolver d b m))) (d ++ [solver_file]) = Some (FSolver b)).
  { cbn [op]. destruct (write_same f d solver_file (FSolver b) D0) as [W1 W2].
    destruct (write f d solver_file (FSolver b)) as [g [[] | e]]; [| discriminate]. rewrite write_other; [exact W1 |].
    intros Eq. apply app_inj_tail in Eq as [_ Eq]. now apply N3 in Eq. }
  assert (D1 : dir_at f1 d = true).
  { apply ops_dir; [intros o Ho; now apply H1 |]. apply op_dir; [tauto | exact D0]. }
  assert (S1 : file_at f1 (d ++ [solver_file]) = Some (FSolver b)).
  { apply ops_file; [| exact S0]. intros o Ho. destruct (H1 o Ho). repeat split; try tauto. intros k _. apply not_eq_sym, N1. }
  destruct (write_same f1 d (state_file (step_of s)) (FState s) D1) as [W1 W2]. split; [exact W2 |].
  unfold load_simulation, f2. rewrite (ops_file h2 _ d solver_file (FSolver b)).
  - rewrite (ops_file h2 _ d (state_file (step_of s)) (FState s)); [reflexivity | | exact W1].
    intros o Ho. destruct (H2 o Ho) as [Ha [Hb Hc]]. split; [exact Ha |]. split; [tauto |]. intros k Hk Eq. apply Ni in Eq. subst k. tauto.
  - intros o Ho. destruct (H2 o Ho) as [Ha [Hb Hc]]. split; [exact Ha |]. split; [tauto |]. intros k _. apply not_eq_sym, N1.
  - cbn [op]. rewrite write_other; [exact S1 |]. intros Eq. apply app_inj_tail in Eq as [_ Eq]. symmetry in Eq. now apply N1 in Eq.
Qed.
(** what is loaded was saved, in that directory and with that step *)
Definition origin_ok (h : list (Op A B M)) (e : path * File (A := A) (B := B) (M := M)) : Prop :=
  match snd e with
  | FState s => exists d, fst e = d ++ [state_file (step_of s)] /\ In (SaveStep d s) h
  | FSolver b => exists d m, fst e = d ++ [solver_file] /\ In (SaveSolver d b m) h
  | FMeta m => exists d, fst e = d ++ [meta_file]
  end.
Lemma origins l : forall f h, (forall e, In e (fs_files f) -> origin_ok h e) -> forall e, In e (fs_files (ops step_of f l)) -> origin_ok (h ++ l) e.
Proof.
  induction l as [| o l IH]; intros f h Hf e He; cbn [ops] in He; [rewrite app_nil_r; now apply Hf |].
  replace (h ++ o :: l) with ((h ++ [o]) ++ l) by (rewrite <- app_assoc; reflexivity). apply (IH (fst (op step_of f o))); [| exact He].
  clear e He IH. assert (Hf' : forall e, In e (fs_files f) -> origin_ok (h ++ [o]) e).
  { intros [p x] He. apply Hf in He. unfold origin_ok in *. cbn in *. destruct x.
    - destruct He as [d [E Hi]]. exists d. split; [exact E |]. apply in_or_app. now left.
    - destruct He as [d [m [E Hi]]]. exists d, m. split; [exact E |]. apply in_or_app. now left.
    - exact He. }
  assert (W : forall g d n x, (forall e, In e (fs_files g) -> origin_ok (h ++ [o]) e) -> origin_ok (h ++ [o]) (d ++ [n], x) ->
     forall e, In e (fs_files (fst (write g d n x))) -> origin_ok (h ++ [o]) e).
  { intros g d n x Hg Hx e. unfold write. destruct (dir_at g d); cbn; [intros [<- | He]; auto | auto]. }
  assert (L : In o (h ++ [o])) by (apply in_or_app; right; now left).
  destruct o as [d ow | d s m | d s]; cbn [op].
  - destruct (blocked f d); [exact Hf' |]. cbn [fst fs_files]. intros e He. apply Hf'. destruct (_ && _)%bool; [| exact He]. cbn in He. now apply filter_In in He.
  - pose proof (W f d solver_file (FSolver s) Hf' ltac:(cbn; eauto)) as W1. destruct (write f d solver_file (FSolver s)) as [g [[] | er]]; [| exact W1].
    apply W; [exact W1 | cbn; eauto].
  - apply W; [exact Hf' |]. cbn. eauto.
Qed.
Lemma file_at_in f p x : file_at f p = Some x -> In (p, x) (fs_files f).
Proof.
  unfold file_at. destruct (find _ _) as [[q y] |] eqn:E; [| discriminate]. intros E'. cbn in E'. inversion E'; subst y.
  apply find_some in E as [Hi Hq]. cbn in Hq. apply path_eqb_iff in Hq. now subst.
Qed.
Theorem C74_genuine : forall h d k b s, load_simulation (ops step_of (fs0 (A:=A) (B:=B) (M:=M)) h) d k = Good (b, s) ->
  In (SaveStep d s) h /\ step_of s = k /\ exists m, In (SaveSolver d b m) h.
Proof.
  intros h d k b s E. unfold load_simulation in E. destruct C74_names as [Ni [N1 [N2 N3]]].
  destruct (file_at _ (d ++ [solver_file])) as [[| b' |] |] eqn:E1; try discriminate.
  destruct (file_at _ (d ++ [state_file k])) as [[s' | |] |] eqn:E2; try discriminate. inversion E; subst b' s'.
  apply file_at_in in E1, E2. apply (origins h fs0 []) in E1, E2; try (intros e []). cbn in E1, E2.
  destruct E1 as [d1 [m [Ed1 I1]]], E2 as [d2 [Ed2 I2]]. apply app_inj_tail in Ed1 as [<- _]. apply app_inj_tail in Ed2 as [<- Ek]. apply Ni in Ek. eauto.
Qed.

(** ** C75 *)
Theorem C75_kept : forall f d p, file_at (fst (op step_of f (Open d false))) p = file_at f p.
Proof. intros f d p. cbn [op]. destruct (blocked f d); [reflexivity |]. cbn [fst]. now rewrite andb_false_r. Qed.
Theorem C75_elsewhere : forall f d ow p, is_prefix d p = false -> file_at (fst (op step_of f (Open d ow))) p = file_at f p.
Proof.
  intros f d ow p Hp. cbn [op]. destruct (blocked f d); [reflexivity |]. cbn [fst]. unfold file_at at 1. cbn [fs_files].
  destruct (_ && _)%bool; [| reflexivity]. exact (rmtree_other f d p Hp).
Qed.
(** directories that hold files exist, with all directories above them *)
Definition tree f : Prop := (forall p x, file_at f p = Some x -> exists d n, p = d ++ [n] /\ In d (fs_dirs f)) /\
  (forall d e, In d (fs_dirs f) -> is_prefix e d = true -> In e (fs_dirs f)).
Lemma write_tree f d n x : tree f -> tree (fst (write f d n x)).
Proof.
  intros [T1 T2]. unfold write. destruct (dir_at f d) eqn:E; [| now split]. apply dir_at_in in E. split; [| exact T2].
  intros p y Ep. unfold file_at in Ep. cbn in Ep. destruct (path_eqb (d ++ [n]) p) eqn:Eq.
  - apply path_eqb_iff in Eq. subst p. exists d, n. auto.
  - cbn [fst fs_dirs]. now apply (T1 p y).
Qed.
Lemma op_tree f o : tree f -> tree (fst (op step_of f o)).
Proof.
  intros T. destruct o as [d ow | d s m | d s]; cbn [op].
  - destruct (blocked f d); [exact T |]. cbn [fst].
    assert (G : forall g, tree g -> tree {| fs_files := fs_files g; fs_dirs := prefixes d ++ fs_dirs g |}).
    { intros g [T1 T2]. split.
      - intros p x E. destruct (T1 p x E) as [e [n [-> Hd]]]. exists e, n. split; [reflexivity |]. cbn. apply in_or_app. now right.
      - intros a e Ha He. cbn in *. apply in_app_or in Ha. apply in_or_app. destruct Ha as [Ha | Ha].
        + left. apply prefixes_in. apply prefixes_in in Ha. eapply is_prefix_trans; eauto.
        + right. eapply T2; eauto. }
    apply G. destruct (dir_at f d && ow)%bool; [| exact T]. destruct T as [T1 T2]. split.
    + intros p x E. assert (Hp : is_prefix d p = false) by (destruct (is_prefix d p) eqn:Ep; [rewrite rmtree_gone in E by exact Ep; discriminate | reflexivity]).
      rewrite rmtree_other in E by exact Hp. destruct (T1 p x E) as [e [n [-> Hd]]]. exists e, n. split; [reflexivity |].
      unfold rmtree. cbn [fs_dirs]. apply filter_In. split; [exact Hd |]. destruct (is_prefix d e) eqn:Ee; [| reflexivity].
      apply prefix_file_r with (n := n) in Ee. congruence.
    + unfold rmtree. cbn [fs_dirs]. intros a e Ha He. apply filter_In in Ha as [Ha Hk]. apply filter_In. split; [eapply T2; eauto |].
      destruct (is_prefix d e) eqn:Ee; [| reflexivity]. rewrite (is_prefix_trans d e a) in Hk by assumption. discriminate.
  - pose proof (write_tree f d solver_file (FSolver s) T) as T1. destruct (write f d solver_file (FSolver s)) as [g [[] | e]]; [| exact T1].
    apply write_tree. exact T1.
  - apply write_tree. exact T.
Qed.
Lemma ops_tree l : forall f, tree f -> tree (ops step_of f l).
Proof. induction l as [| o l IH]; intros f T; [exact T |]. cbn [ops]. apply IH, op_tree, T. Qed.
Lemma tree0 : tree (fs0 (A:=A) (B:=B) (M:=M)).
Proof. split; [intros p x E; discriminate | intros d e []]. Qed.
Theorem C75_cleared : forall h d p, let f := ops step_of (fs0 (A:=A) (B:=B) (M:=M)) h in
  snd (op step_of f (Open d true)) = Good tt -> is_prefix d p = true -> file_at (fst (op step_of f (Open d true))) p = None.
Proof.
  intros h d p f Hg Hp. assert (T : tree f) by apply ops_tree, tree0. clearbody f. cbn [op] in *.
  destruct (blocked f d) eqn:Eb; [discriminate |]. cbn [fst]. unfold file_at at 1. cbn [fs_files].
  destruct (dir_at f d) eqn:Ed; cbn [andb].
  - exact (rmtree_gone f d p Hp).
  - fold (file_at f p). destruct (file_at f p) as [x |] eqn:E; [| reflexivity]. exfalso. destruct T as [T1 T2].
    destruct (T1 p x E) as [e [n [-> He]]]. assert (Hd : In d (fs_dirs f)); [| apply dir_at_in in Hd; congruence].
    apply (T2 e); [exact He |]. apply (prefix_file d e n); [exact Hp |]. intros ->. pose proof (blocked_file f e n x E). congruence.
Qed.

(** ** C93 *)
(** opening a recorder with its defaults on the directory of an earlier run, as the docstring does before loading *)
Theorem C93_refuted : forall h d k, let f := ops step_of (fs0 (A:=A) (B:=B) (M:=M)) h in
  snd (op step_of f (Open d default_overwrite)) = Good tt -> load_simulation (fst (op step_of f (Open d default_overwrite))) d k = Bad NotFound.
Proof.
  intros h d k f Hg. unfold load_simulation. pose proof (C75_cleared h d (d ++ [solver_file]) Hg) as E. fold f in E. cbv zeta in E.
  unfold default_overwrite. rewrite E; [reflexivity |]. apply is_prefix_iff. eauto.
Qed.
(** with overwrite=False it does load *)
Theorem C93_partial : forall f d k, load_simulation (fst (op step_of f (Open d false))) d k = load_simulation f d k.
Proof. intros f d k. unfold load_simulation. now rewrite !C75_kept. Qed.
End Facts.

(** a run: states are their step numbers *)
Definition run_ex : list (Op Z nat nat) := [Open ["out"] true; SaveSolver ["out"] 9 1; SaveStep ["out"] 0%Z; SaveStep ["out"] 100000%Z; Open ["out"; "b"] true; SaveStep ["out"] 5%Z]%string.
Example C74_case : load_simulation (ops (fun z => z) fs0 run_ex) ["out"%string] 100000 = Good (9, 100000%Z) /\
  snd (op (fun z => z) (ops (fun z => z) fs0 run_ex) (Open ["out"%string] true)) = Good tt /\
  load_simulation (fst (op (fun z => z) (ops (fun z => z) fs0 run_ex) (Open ["out"%string] true))) ["out"%string] 5 = Bad NotFound /\
  (forall o, In o (skipn 2 run_ex) -> ~ clears ["out"%string] o /\ ~ saves_solver ["out"%string] o).
Proof.
  split; [reflexivity |]. split; [reflexivity |]. split; [reflexivity |]. cbn [skipn run_ex].
  intros o [<- | [<- | [<- | [<- | []]]]]; cbn; intuition discriminate.
Qed.
Print Assumptions C74_names.
Print Assumptions C74_recovered.
Print Assumptions C74_genuine.
Print Assumptions C75_kept.
Print Assumptions C75_elsewhere.
Print Assumptions C75_cleared.
Print Assumptions C93_refuted.
Print Assumptions C93_partial.
