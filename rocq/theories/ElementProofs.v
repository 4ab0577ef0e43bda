(** Facts about the element test driver and the triaxial test. *)
From Coquelicot Require Import Coquelicot.
From Coq Require Import List Arith ZArith Reals Bool Lra Lia.
From Verif Require Import Num NumR Linalg Arrays ModelGrid ModelShape ModelMath ModelState ModelLaws ModelSDF ModelElement
  Sums ResFacts SolverFacts SpecMath MathProofs SpecLaws LawProofs.
Import ListNotations.
Local Open Scope R_scope.

(** ** The matrix exponential: the limit of the sum of A^n / n!, entry by entry *)
Fixpoint mpow (A : mat3 R) (n : nat) : mat3 R := match n with O => meye | S k => mmul A (mpow A k) end.
Definition expmR (A : mat3 R) : mat3 R :=
  let e (f : mat3 R -> R) := Series (fun n => f (mpow A n) / INR (fact n)) in
  M3 (e m00) (e m01) (e m02) (e m10) (e m11) (e m12) (e m20) (e m21) (e m22).

Lemma mpow_diag a b c n : mpow (mdiag a b c) n = mdiag (a ^ n) (b ^ n) (c ^ n).
Proof.
  induction n as [|n IH]; cbn [mpow]; [reflexivity |]. rewrite IH. unfold mdiag, mmul. cbn. rnum. f_equal; ring.
Qed.
Lemma series_exp x : Series (fun n => x ^ n / INR (fact n)) = exp x.
Proof.
  rewrite exp_Reals. unfold PSeries. apply Series_ext. intros n. unfold Rdiv. ring.
Qed.
Lemma series_zero : Series (fun n => 0 / INR (fact n)) = 0.
Proof.
  rewrite (Series_ext _ (fun n => 0 * / INR (fact n))) by (intros n; unfold Rdiv; ring). rewrite Series_scal_l. ring.
Qed.
Lemma expmR_diag a b c : expmR (mdiag a b c) = mdiag (exp a) (exp b) (exp c).
Proof.
  assert (D : forall (f : mat3 R -> R) x, (forall u v w, f (mdiag u v w) = 0) -> x = 0 ->
      Series (fun n => f (mpow (mdiag a b c) n) / INR (fact n)) = x).
  { intros f x Hf ->. transitivity (Series (fun n => 0 / INR (fact n))); [| apply series_zero]. apply Series_ext. intros n. now rewrite mpow_diag, Hf. }
  assert (E : forall (f : mat3 R -> R) x, (forall n, f (mdiag (a ^ n) (b ^ n) (c ^ n)) = x ^ n) ->
      Series (fun n => f (mpow (mdiag a b c) n) / INR (fact n)) = exp x).
  { intros f x Hf. rewrite <- series_exp. apply Series_ext. intros n. now rewrite mpow_diag, Hf. }
  unfold expmR. unfold mdiag at 10. f_equal; try (apply D; reflexivity); apply E; reflexivity.
Qed.

(** the sums converge for every matrix *)
Definition entries (A : mat3 R) : list R := [m00 A; m01 A; m02 A; m10 A; m11 A; m12 A; m20 A; m21 A; m22 A].
Definition bounded (c : R) (A : mat3 R) : Prop := Forall (fun x => Rabs x <= c) (entries A).
Lemma dot_bound a b c x y z k m : Rabs a <= k -> Rabs b <= k -> Rabs c <= k -> Rabs x <= m -> Rabs y <= m -> Rabs z <= m ->
  Rabs (a * x + b * y + c * z) <= 3 * k * m.
Proof.
  intros. pose proof (Rabs_triang (a * x + b * y) (c * z)). pose proof (Rabs_triang (a * x) (b * y)).
  rewrite !Rabs_mult in *. pose proof (Rabs_pos a). pose proof (Rabs_pos b). pose proof (Rabs_pos c).
  pose proof (Rabs_pos x). pose proof (Rabs_pos y). pose proof (Rabs_pos z).
  assert (Rabs a * Rabs x <= k * m) by (apply Rmult_le_compat; assumption).
  assert (Rabs b * Rabs y <= k * m) by (apply Rmult_le_compat; assumption).
  assert (Rabs c * Rabs z <= k * m) by (apply Rmult_le_compat; assumption). lra.
Qed.
Lemma mpow_bound c A n : bounded c A -> bounded ((3 * c) ^ n) (mpow A n).
Proof.
  intros HA. induction n as [|n IH]; cbn [mpow pow].
  - unfold bounded, entries, meye, mdiag. cbn. rnum. repeat constructor; rewrite ?Rabs_R0, ?Rabs_R1; lra.
  - unfold bounded, entries in *. repeat match goal with H : Forall _ (_ :: _) |- _ => inversion H; clear H; subst end.
    unfold mmul. cbn. rnum. repeat (apply Forall_cons; [apply dot_bound; assumption |]); constructor.
Qed.
Lemma expm_converges A (f : mat3 R -> R) : (forall B, In (f B) (entries B)) -> ex_series (fun n => f (mpow A n) / INR (fact n)).
Proof.
  intros Hf. set (c := fold_right Rmax 0 (map Rabs (entries A))).
  assert (HA : bounded c A).
  { unfold bounded, c. clear. generalize (entries A) as l. induction l as [|x l IH]; constructor; cbn [map fold_right]; [apply Rmax_l |].
    eapply Forall_impl; [| exact IH]. intros y Hy. eapply Rle_trans; [exact Hy | apply Rmax_r]. }
  apply (@ex_series_le R_AbsRing R_CompleteNormedModule _ (fun n => (3 * c) ^ n / INR (fact n))).
  - intros n. change (norm (f (mpow A n) / INR (fact n))) with (Rabs (f (mpow A n) / INR (fact n))).
    unfold Rdiv. rewrite Rabs_mult, (Rabs_pos_eq (/ _)) by (left; apply Rinv_0_lt_compat, lt_0_INR, lt_O_fact).
    apply Rmult_le_compat_r; [left; apply Rinv_0_lt_compat, lt_0_INR, lt_O_fact |].
    pose proof (mpow_bound c A n HA) as Hb. unfold bounded in Hb. rewrite Forall_forall in Hb. apply Hb, Hf.
  - exists (exp (3 * c)). eapply is_series_ext; [| apply (is_exp_Reals (3 * c))]. intros n. cbn. unfold Rdiv. rewrite pow_n_pow. unfold scal. cbn. unfold mult. cbn. ring.
Qed.

(** ** One step of the driver *)
Lemma det_mul (a b : mat3 R) : mdet (mmul a b) = mdet a * mdet b.
Proof. unfold mdet, mmul. cbn. rnum. ring. Qed.

Section Drive.
Context {T : Type} `{NumT T} (X : Ext T).
(** what a step does to a point *)
Definition moved (linear : bool) (dt : T) (L : mat3 T) (p q : Particle T) : Prop :=
  pt_L q = L /\ pt_F q = next_F X linear L dt (pt_F p) /\ pt_vol q = nmul (mdet (pt_F q)) (pt_vol0 p) /\
  pt_pos q = pt_pos p /\ pt_vel q = pt_vel p /\ pt_mass q = pt_mass p /\ pt_force q = pt_force p /\ pt_vol0 q = pt_vol0 p /\ pt_Fst q = pt_Fst p.

Lemma law_keeps_L l (b : SoftBody T) st dt b' st' : law_update l b st dt = Ok (b', st') -> map pt_L (sb_pts b') = map pt_L (sb_pts b).
Proof.
  intros E. destruct (law_update_kept _ _ _ _ _ _ E) as (_ & _ & _ & F). clear E.
  induction F as [| p q l1 l2 [K _] _ IH]; [reflexivity |]. cbn. f_equal; [apply K | exact IH].
Qed.
Lemma drive_moved D b st L dt lin b' st' : drive X D b st L dt lin = Ok (b', st') ->
  length L = length (sb_pts b) /\ length (sb_pts b') = length (sb_pts b) /\ sb_vol0d b' = false /\
  forall i p M, nth_error (sb_pts b) i = Some p -> nth_error L i = Some M ->
    exists q, nth_error (sb_pts b') i = Some q /\ moved lin dt M p q.
Proof.
  unfold drive. destruct (Nat.eqb_spec (length L) (length (sb_pts b))) as [El | _]; [| discriminate]. intros E.
  apply rbind_ok in E. destruct E as ([c st1] & E1 & E2). injection E2 as <- <-. cbn [sb_pts sb_vol0d fst].
  pose proof (law_keeps_L _ _ _ _ _ _ E1) as KL. cbn [sb_pts set_pts] in KL.
  destruct (law_update_kept _ _ _ _ _ _ E1) as (_ & _ & _ & F). apply Forall2_len in F. cbn [sb_pts set_pts] in F.
  revert KL F. generalize (sb_pts c) as cs. generalize (sb_pts b) as ps, El. clear.
  intros ps. revert L. induction ps as [| p ps IH]; intros [| M L] El [| c cs] KL F; cbn in *; try discriminate.
  - repeat split. intros [|i] ? ? E; discriminate E.
  - injection El as El. injection KL as KM KL. injection F as F. destruct (IH L El cs KL F) as (_ & IH2 & _ & IH3).
    split; [lia |]. split; [f_equal; exact IH2 |]. split; [reflexivity |].
    intros [| i] p1 M1 E1 E2; cbn in *; [| exact (IH3 i p1 M1 E1 E2)].
    injection E1 as <-. injection E2 as <-. eexists. split; [reflexivity |]. unfold moved. cbn. repeat split; auto.
Qed.
(** the flag stored in the driver plays no role *)
Lemma drive_field l f1 f2 b st L dt lin : drive X {| dr_law := l; dr_linear := f1 |} b st L dt lin = drive X {| dr_law := l; dr_linear := f2 |} b st L dt lin.
Proof. reflexivity. Qed.
(** one point *)
Lemma drive_one D b st M dt lin b' st' : drive X D b st [M] dt lin = Ok (b', st') ->
  exists p q, sb_pts b = [p] /\ sb_pts b' = [q] /\ moved lin dt M p q.
Proof.
  intros E. destruct (drive_moved _ _ _ _ _ _ _ _ E) as (E1 & E2 & _ & E3). destruct (sb_pts b) as [| p [|]]; try discriminate.
  destruct (sb_pts b') as [| q [|]]; try discriminate. destruct (E3 0%nat p M eq_refl eq_refl) as (q' & Eq & Hq). injection Eq as <-. eauto.
Qed.
End Drive.

(** ** The run *)
Section Run.
Context {T : Type} `{NumT T} (X : Ext T).
Lemma rows_concat n k s : concat (rows n k s) = seq s (n * k).
Proof.
  revert s. induction n as [|n IH]; intros s; cbn [rows concat]; [reflexivity |]. rewrite IH, <- seq_app. f_equal. 
Qed.
Lemma rows_length n k s : length (rows n k s) = n.
Proof. revert s; induction n as [|n IH]; intros s; cbn; [reflexivity |]. now rewrite IH. Qed.
Lemma chunks_len t : forall l s out, chunks X t s l = Ok out -> length out = length l.
Proof.
  induction l as [| c l IH]; intros s out; cbn [chunks]; [intros [= <-]; reflexivity |]. intros E.
  apply rbind_ok in E. destruct E as (s1 & E1 & E). apply rbind_ok in E. destruct E as (o & E2 & E). injection E as <-. cbn. f_equal. eauto.
Qed.
Lemma chunks_nth t n k : forall st0 s out j s', chunks X t s (rows n k st0) = Ok out -> nth_error out j = Some s' ->
  rfold (static_run X t) s (seq st0 ((j + 1) * k)) = Ok s'.
Proof.
  induction n as [| n IH]; intros st0 s out j s'; cbn [rows chunks]; [intros [= <-]; destruct j; discriminate |]. intros E.
  apply rbind_ok in E. destruct E as (s1 & E1 & E). apply rbind_ok in E. destruct E as (o & E2 & E). injection E as <-.
  destruct j as [| j]; cbn [nth_error]; intros Ej.
  - injection Ej as <-. replace ((0 + 1) * k)%nat with k by lia. exact E1.
  - replace ((S j + 1) * k)%nat with (k + (j + 1) * k)%nat by lia. rewrite seq_app, rfold_app, E1. cbn [rbind]. eapply IH; eauto.
Qed.
Lemma chunks_ok t n k : forall st0 s s', rfold (static_run X t) s (seq st0 (n * k)) = Ok s' -> exists out, chunks X t s (rows n k st0) = Ok out.
Proof.
  induction n as [| n IH]; intros st0 s s'; cbn [rows chunks]; [eauto |]. cbn [Nat.mul]. rewrite seq_app, rfold_app. intros E.
  apply rbind_ok in E. destruct E as (s1 & E1 & E2). rewrite E1. cbn [rbind]. destruct (IH _ _ _ E2) as (o & ->). cbn. eauto.
Qed.
Lemma run_inv t s out n : tx_length t = Ok n -> tx_run X t s = Ok out ->
  (tx_stride t <> 0 /\ n = (n / tx_stride t) * tx_stride t /\ length out = (n / tx_stride t) /\
  forall j s', nth_error out j = Some s' -> rfold (static_run X t) s (seq 0 ((j + 1) * tx_stride t)) = Ok s')%nat.
Proof.
  unfold tx_run. intros ->. cbn [rbind]. destruct (tx_stride t) as [| k0] eqn:Ek; [discriminate |]. rewrite <- Ek in *.
  destruct (Nat.eqb_spec (n / tx_stride t * tx_stride t) n) as [Em | _]; [| discriminate]. intros E.
  split; [lia |]. split; [lia |]. split; [rewrite (chunks_len _ _ _ _ E); apply rows_length |]. intros j s' Ej. eapply chunks_nth; eauto.
Qed.
End Run.
