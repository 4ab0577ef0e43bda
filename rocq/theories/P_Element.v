(** Property theorems C76-C78, C94-C96: the element test driver and the triaxial test. *)
From Coquelicot Require Import Coquelicot.
From Coq Require Import List Arith ZArith Reals Bool Lra Lia.
From Verif Require Import Num NumR Linalg Arrays ModelGrid ModelShape ModelMath ModelState ModelLaws ModelSDF ModelElement
  Sums ResFacts SolverFacts SpecMath MathProofs SpecLaws LawProofs P_Laws ElementProofs.
Import ListNotations.
Local Open Scope R_scope.

(** the reals with the matrix exponential (the limit of the exponential series) and the derivative; no real is NaN or infinite,
    and x / 0 = 0, so a zero slope leaves the Newton iterate where it is, as the isnan / isinf test does in the code *)
Definition XR : Ext R := {| expm := expmR; grad := Derive; bad := fun _ => false |}.
Definition state1 (p : Particle R) (ls : option (LawState R)) : SoftBody R * option (LawState R) := (soft [p], ls).
Definition elastic : LinearElastic R := {| le_E := 1; le_nu := 0; le_G := 1; le_K := 1; le_lam := 1; le_reset := false |}.
Definition driverR (l : Law R) (lin : bool) : Driver R := {| dr_law := l; dr_linear := lin |}.

(** *** the strain a run has applied *)
Definition applied (t : Triaxial R) (i : nat) : R :=
  if (tx_static t && Nat.eqb i 0)%bool then 0 else at_ (tx_rate t) i * at_ (tx_dt t) i.
Fixpoint strain (t : Triaxial R) (n : nat) : R := match n with O => 0 | S k => strain t k + applied t k end.

Lemma next_F_diag X a b c dt F : expm X = expmR -> next_F X false (mdiag a b c) dt F = mmul (mdiag (exp (- a * dt)) (exp (- b * dt)) (exp (- c * dt))) F.
Proof.
  intros EX. unfold next_F. rewrite EX. f_equal. rewrite <- expmR_diag. f_equal. unfold mmap, mdiag. cbn. rnum. f_equal; ring.
Qed.
Lemma diag_mul a b c a' b' c' F : mmul (mdiag a b c) (mmul (mdiag a' b' c') F) = mmul (mdiag (a * a') (b * b') (c * c')) F.
Proof. unfold mmul, mdiag. cbn. rnum. f_equal; ring. Qed.
Lemma diag_one (F : mat3 R) : mmul (mdiag 1 1 1) F = F.
Proof. destruct F. unfold mmul, mdiag. cbn. rnum. f_equal; ring. Qed.

(** what does not change: mass, reference volume, position, velocity *)
Definition same_matter (p q : Particle R) : Prop :=
  pt_mass q = pt_mass p /\ pt_vol0 q = pt_vol0 p /\ pt_pos q = pt_pos p /\ pt_vel q = pt_vel p.
Lemma run_snoc X (t : Triaxial R) s n s' : rfold (static_run X t) s (seq 0 (S n)) = Ok s' ->
  exists s1, rfold (static_run X t) s (seq 0 n) = Ok s1 /\ static_run X t s1 n = Ok s'.
Proof.
  rewrite seq_S, rfold_app. intros E. apply rbind_ok in E. destruct E as (s1 & E1 & E2). exists s1. split; [exact E1 |].
  cbn in E2. destruct (static_run X t s1 n) eqn:E; cbn in E2; [congruence | discriminate].
Qed.
(** the stretches of a run: lateral [exp w], axial [exp (- strain)] *)
Definition stretched (lat ax : R) (p q : Particle R) : Prop :=
  pt_F q = mmul (mdiag (exp lat) (exp lat) (exp (- ax))) (pt_F p) /\ same_matter p q /\
  (pt_vol p = mdet (pt_F p) * pt_vol0 p -> pt_vol q = mdet (pt_F q) * pt_vol0 q).
Lemma stretched_refl p : stretched 0 0 p p.
Proof. unfold stretched. rewrite Ropp_0, exp_0, diag_one. repeat split; auto. Qed.
Lemma step_stretched X t s i s' : expm X = expmR -> static_run X t s i = Ok s' ->
  exists w, Forall2 (stretched w (applied t i)) (sb_pts (fst s)) (sb_pts (fst s')) /\ (tx_undrained t = true -> w = applied t i / 2).
Proof.
  intros EX. unfold static_run, applied. destruct (tx_static t && Nat.eqb i 0)%bool.
  - intros [= <-]. exists 0. split; [| intros _; lra]. apply Forall2_refl. intros p. apply stretched_refl.
  - unfold tx_step, rates. set (lat := if tx_undrained t then _ else _). intros E. destruct s' as [b' ls'].
    destruct (drive_one _ _ _ _ _ _ _ _ _ E) as (p & q & -> & E2 & M). cbn [fst]. rewrite E2.
    exists (- lat * at_ (tx_dt t) i). split.
    + constructor; [| constructor]. destruct M as (ML & MF & MV & M1 & M2 & M3 & M4 & M5 & M6).
      rewrite next_F_diag in MF by exact EX. split; [| split; [repeat split; auto | intros _; rewrite MV, M5; reflexivity]].
      rewrite MF. do 2 f_equal. f_equal. change (@numt_num R NumT_R) with Num_R. ring.
    + intros U. unfold lat. rewrite U. unfold lateral_undrained. rnum. field.
Qed.
Lemma stretched_trans w1 a1 w2 a2 p q r : stretched w1 a1 p q -> stretched w2 a2 q r -> stretched (w1 + w2) (a1 + a2) p r.
Proof.
  intros (F1 & S1 & V1) (F2 & S2 & V2). split; [| split].
  - rewrite F2, F1, diag_mul, <- !exp_plus. do 2 f_equal; f_equal; ring.
  - unfold same_matter in *. intuition congruence.
  - intros Hp. apply V2, V1, Hp.
Qed.
Lemma Forall2_comp {A} (P Q S0 : A -> A -> Prop) l m n : (forall a b c, P a b -> Q b c -> S0 a c) -> Forall2 P l m -> Forall2 Q m n -> Forall2 S0 l n.
Proof. intros Hc F. revert n. induction F; intros n G; inversion G; subst; constructor; eauto. Qed.
Lemma run_stretched X t s n s' : expm X = expmR -> rfold (static_run X t) s (seq 0 n) = Ok s' ->
  exists w, Forall2 (stretched w (strain t n)) (sb_pts (fst s)) (sb_pts (fst s')) /\ (tx_undrained t = true -> w = strain t n / 2).
Proof.
  intros EX. revert s'. induction n as [| n IH]; intros s' E.
  - cbn in E. injection E as <-. exists 0. split; [apply Forall2_refl; intros p; apply stretched_refl | intros _; cbn; lra].
  - apply run_snoc in E. destruct E as (s1 & E1 & E2). destruct (IH _ E1) as (w1 & F1 & U1).
    destruct (step_stretched _ _ _ _ _ EX E2) as (w2 & F2 & U2). exists (w1 + w2). split.
    + eapply Forall2_comp; [| exact F1 | exact F2]. intros a b c. apply stretched_trans.
    + intros U. rewrite (U1 U), (U2 U). cbn [strain]. lra.
Qed.

(** ** C76: an undrained test is isochoric, whatever the law, the rates, the time steps and the number of steps; the
    three stretches are exp(e/2), exp(e/2), exp(-e), where e is the sum of the axial strain increments *)
Theorem C76_undrained_isochoric : forall (X : Ext R) t s n out j s', expm X = expmR -> tx_undrained t = true ->
  tx_length t = Ok n -> tx_run X t s = Ok out -> nth_error out j = Some s' ->
  Forall2 (fun p q => let e := strain t ((j + 1) * tx_stride t) in
     pt_F q = mmul (mdiag (exp (e / 2)) (exp (e / 2)) (exp (- e))) (pt_F p) /\
     mdet (pt_F q) = mdet (pt_F p) /\ pt_vol0 q = pt_vol0 p /\ pt_mass q = pt_mass p /\
     (pt_vol p = mdet (pt_F p) * pt_vol0 p -> pt_vol q = pt_vol p /\ density q = density p))
    (sb_pts (fst s)) (sb_pts (fst s')).
Proof.
  intros X t s n out j s' EX U En Er Ej. destruct (run_inv _ _ _ _ _ En Er) as (_ & _ & _ & Hj).
  destruct (run_stretched _ _ _ _ _ EX (Hj j s' Ej)) as (w & F & W). specialize (W U). subst w.
  eapply Forall2_weaken; [| exact F]. intros p q (EF & (M1 & M2 & M3 & M4) & V). cbn zeta.
  assert (D : mdet (pt_F q) = mdet (pt_F p)).
  { rewrite EF, det_mul. set (e := strain _ _). replace (mdet (mdiag (exp (e / 2)) (exp (e / 2)) (exp (- e)))) with (exp (e / 2 + e / 2 + - e)).
    - replace (e / 2 + e / 2 + - e) with 0 by field. rewrite exp_0. ring.
    - rewrite !exp_plus. unfold mdet, mdiag. cbn. rnum. ring. }
  repeat split; auto; rewrite ?(V H), ?D, ?M2; try now symmetry.
  unfold density. rewrite (V H), H, M1, M2, D. reflexivity.
Qed.
Definition tx0 : Triaxial R := {| tx_driver := driverR (LawLE elastic) false; tx_confine := 1; tx_rate := Const 1; tx_dt := Const 1;
  tx_undrained := true; tx_p_constant := false; tx_num_steps := Some 4%nat; tx_newton := 3; tx_stride := 2; tx_static := false |}.

(** *** elastic runs succeed *)
Lemma drive_elastic X D m p ls M dt lin : dr_law D = LawLE m -> forall b, sb_pts b = [p] ->
  exists q, drive X D b ls [M] dt lin = Ok ({| sb_dim := sb_dim b; sb_pts := [q]; sb_storeF := sb_storeF b; sb_vol0d := false |}, ls)
    /\ pt_stress q = le_stress m M (pt_stress p) dt.
Proof.
  intros El b Eb. unfold drive. rewrite Eb, El. cbn. eexists. split; reflexivity.
Qed.
Lemma run_elastic X (t : Triaxial R) m : dr_law (tx_driver t) = LawLE m -> forall l s p, sb_pts (fst s) = [p] ->
  exists s' q, rfold (static_run X t) s l = Ok s' /\ sb_pts (fst s') = [q].
Proof.
  intros El. induction l as [| i l IH]; intros s p Es; cbn [rfold]; [eauto |].
  assert (St : exists s1 q, static_run X t s i = Ok s1 /\ sb_pts (fst s1) = [q]).
  { unfold static_run. destruct (tx_static t && Nat.eqb i 0)%bool; [eauto |]. unfold tx_step.
    set (lat := if tx_undrained t then _ else _).
    destruct (drive_elastic X (tx_driver t) m p (snd s) (rates lat (at_ (tx_rate t) i)) (at_ (tx_dt t) i) false El (fst s) Es) as (q & E & _).
    rewrite E. eexists. eexists. split; reflexivity. }
  destruct St as (s1 & q & -> & Eq). cbn [rbind]. exact (IH s1 q Eq).
Qed.
Example C76_case : exists out, tx_run XR tx0 (state1 (part mzero mzero 1 1) None) = Ok out /\ length out = 2%nat.
Proof.
  destruct (run_elastic XR tx0 elastic eq_refl (seq 0 (2 * 2)) (state1 (part mzero mzero 1 1) None) _ eq_refl) as (s' & q & E & _).
  destruct (chunks_ok XR tx0 2 2 0 _ _ E) as (out & Eo). exists out. split; [exact Eo |]. now rewrite (chunks_len _ _ _ _ _ Eo).
Qed.
Print Assumptions C76_undrained_isochoric.

(** ** C77: snapshots *)
Section C77.
Context {T : Type} `{NumT T} (X : Ext T).
Local Open Scope nat_scope.
(** where the stride divides the number of steps: one snapshot per [stride] steps, the j-th being the state after (j+1)*stride steps,
    and the run succeeds if the steps do *)
Theorem C77_snapshots_partial : forall (t : Triaxial T) s n, tx_length t = Ok n -> tx_stride t <> 0 -> n mod tx_stride t = 0 ->
  (forall out, tx_run X t s = Ok out -> length out = n / tx_stride t /\
     forall j s', nth_error out j = Some s' -> rfold (static_run X t) s (seq 0 ((j + 1) * tx_stride t)) = Ok s') /\
  (forall s', rfold (static_run X t) s (seq 0 n) = Ok s' -> exists out, tx_run X t s = Ok out).
Proof.
  intros t s n En Hs Hm. split.
  - intros out E. destruct (run_inv _ _ _ _ _ En E) as (_ & _ & El & Hj). auto.
  - intros s' E. assert (Ed : n = n / tx_stride t * tx_stride t) by (pose proof (Nat.div_mod n (tx_stride t) Hs); lia).
    unfold tx_run. rewrite En. cbn [rbind]. destruct (tx_stride t) as [| k] eqn:Ek; [congruence |]. rewrite <- Ek in *.
    rewrite <- Ed, Nat.eqb_refl. eapply chunks_ok. rewrite <- Ed. exact E.
Qed.
(** otherwise nothing is returned *)
Theorem C77_remainder : forall (t : Triaxial T) s n, tx_length t = Ok n -> tx_stride t <> 0 -> n mod tx_stride t <> 0 ->
  tx_run X t s = Err TypeError.
Proof.
  intros t s n En Hs Hm. unfold tx_run. rewrite En. cbn [rbind]. destruct (tx_stride t) as [| k] eqn:Ek; [congruence |]. rewrite <- Ek in *.
  destruct (Nat.eqb_spec (n / tx_stride t * tx_stride t) n) as [E | _]; [| reflexivity].
  exfalso. apply Hm. rewrite <- E. apply Nat.mod_mul. exact Hs.
Qed.
End C77.
Definition tx3 : Triaxial R := {| tx_driver := driverR (LawLE elastic) false; tx_confine := 1; tx_rate := Const 1; tx_dt := Const 1;
  tx_undrained := true; tx_p_constant := false; tx_num_steps := Some 4%nat; tx_newton := 3; tx_stride := 3; tx_static := false |}.
(** a test of 4 steps with stride 3, whose steps all succeed *)
Theorem C77_snapshots_refuted : ~ (forall (t : Triaxial R) s n s', tx_length t = Ok n -> tx_stride t <> 0%nat ->
  rfold (static_run XR t) s (seq 0 n) = Ok s' -> exists out, tx_run XR t s = Ok out /\ length out = (n / tx_stride t)%nat).
Proof.
  intros Hall. destruct (run_elastic XR tx3 elastic eq_refl (seq 0 4) (state1 (part mzero mzero 1 1) None) _ eq_refl) as (s' & q & E & _).
  destruct (Hall tx3 _ 4%nat s' eq_refl ltac:(discriminate) E) as (out & Eo & _).
  clear E. pose proof (C77_remainder XR tx3 (state1 (part mzero mzero 1 1) None) 4 eq_refl ltac:(discriminate) ltac:(discriminate)) as C.
  rewrite C in Eo. discriminate.
Qed.
Example C77_case : tx_length tx0 = Ok 4%nat /\ tx_stride tx0 <> 0%nat /\ (4 mod tx_stride tx0 = 0)%nat /\ (4 mod tx_stride tx3 <> 0)%nat.
Proof. repeat split; cbn; lia. Qed.
Print Assumptions C77_snapshots_partial.
Print Assumptions C77_remainder.
Print Assumptions C77_snapshots_refuted.

(** ** C78: the configuration of the driver *)
(** the argument of step is honoured *)
Theorem C78_argument_partial : forall (X : Ext R) D b st L dt b' st' i p M, drive X D b st L dt true = Ok (b', st') ->
  nth_error (sb_pts b) i = Some p -> nth_error L i = Some M ->
  exists q, nth_error (sb_pts b') i = Some q /\ pt_F q = mmul (msub meye (mscale dt M)) (pt_F p).
Proof.
  intros X D b st L dt b' st' i p M E Ep EM. destruct (drive_moved _ _ _ _ _ _ _ _ _ E) as (_ & _ & _ & Hi).
  destruct (Hi i p M Ep EM) as (q & Eq & _ & EF & _). exists q. split; [exact Eq |]. rewrite EF. unfold next_F.
  match goal with |- mmul (msub meye ?x) _ = _ => assert (S1 : x = mscale dt M) end; [| rewrite S1; reflexivity].
  destruct M. unfold mscale, mmap. cbn. rnum. f_equal; apply Rmult_comm.
Qed.
(** the field is not: with it set, the default step multiplies F by the exponential *)
Theorem C78_configuration_refuted : ~ (forall D b st L dt b' st' i p M q, dr_linear D = true -> drive XR D b st L dt false = Ok (b', st') ->
  nth_error (sb_pts b) i = Some p -> nth_error L i = Some M -> nth_error (sb_pts b') i = Some q ->
  pt_F q = mmul (msub meye (mscale dt M)) (pt_F p)).
Proof.
  intros Hall. set (D := driverR (LawLE elastic) true). set (p := part mzero mzero 1 1).
  destruct (drive_elastic XR D elastic p None (mdiag 1 0 0) 1 false eq_refl (soft [p]) eq_refl) as (q & E & _).
  pose proof (Hall D _ _ _ _ _ _ 0%nat p _ q eq_refl E eq_refl eq_refl eq_refl) as C.
  destruct (drive_one _ _ _ _ _ _ _ _ _ E) as (p1 & q1 & E1 & E2 & M). injection E1 as <-. injection E2 as <-.
  destruct M as (_ & EF & _). rewrite EF, next_F_diag in C by reflexivity. apply (f_equal m00) in C. cbn in C. rnum.
  pose proof (exp_pos (- (1) * 1)). lra.
Qed.
Example C78_case : exists b' st', drive XR (driverR (LawLE elastic) true) (soft [part mzero mzero 1 1]) None [mdiag 1 0 0] 1 true = Ok (b', st').
Proof. eexists. eexists. reflexivity. Qed.
Print Assumptions C78_argument_partial.
Print Assumptions C78_configuration_refuted.

(** ** C94: the strains listed by axial_strain_stack *)
(** [e] is the axial strain of the change from F to F': the third row is scaled by exp(-e) (compression positive) *)
Definition axial_strain (F F' : mat3 R) (e : R) : Prop :=
  m20 F' = exp (- e) * m20 F /\ m21 F' = exp (- e) * m21 F /\ m22 F' = exp (- e) * m22 F.
Lemma every_nth {A} k : forall f (l : list A) j, (length l <= f)%nat -> (1 <= k)%nat -> nth_error (every k f l) j = nth_error l (j * k).
Proof.
  induction f as [| f IH]; intros l j Hl Hk.
  - destruct l; [| cbn in Hl; lia]. cbn. destruct j, (_ * k)%nat; reflexivity.
  - destruct l as [| x l]; [destruct j; cbn; [reflexivity | now destruct (k + j * k)%nat] |]. destruct j as [| j]; [reflexivity |].
    cbn [every nth_error Nat.mul]. rewrite IH by (try exact Hk; rewrite skipn_length; cbn [length] in *; lia).
    clear. generalize (j * k)%nat as n. generalize (x :: l) as m. clear. induction k as [| k IH]; intros m n; [reflexivity |].
    destruct m as [| y m]; [now destruct n |]. cbn [skipn Nat.add nth_error]. apply IH.
Qed.
Lemma cumsum_nth : forall l (a : R) j e, nth_error (cumsum a l) j = Some e -> (j < length l)%nat /\ e = fold_left Rplus (firstn (S j) l) a.
Proof.
  induction l as [| x l IH]; intros a j e E; [destruct j; discriminate |]. cbn [cumsum] in E. destruct j as [| j].
  - injection E as <-. split; [cbn; lia |]. reflexivity.
  - cbn [nth_error] in E. destruct (IH _ _ _ E) as (H1 & ->). split; [cbn; lia |]. reflexivity.
Qed.
Lemma stretched_axial w e p q : stretched w e p q -> axial_strain (pt_F p) (pt_F q) e.
Proof. intros (-> & _). destruct (pt_F p). unfold axial_strain, mmul, mdiag. cbn. rnum. repeat split; ring. Qed.
Lemma snapshot_strain X t s n out j s' : expm X = expmR -> tx_length t = Ok n -> tx_run X t s = Ok out -> nth_error out j = Some s' ->
  Forall2 (fun p q => axial_strain (pt_F p) (pt_F q) (strain t ((j + 1) * tx_stride t))) (sb_pts (fst s)) (sb_pts (fst s')).
Proof.
  intros EX En Er Ej. destruct (run_inv _ _ _ _ _ En Er) as (_ & _ & _ & Hj).
  destruct (run_stretched _ _ _ _ _ EX (Hj j s' Ej)) as (w & F & _). eapply Forall2_weaken; [| exact F]. intros p q. apply stretched_axial.
Qed.
Lemma fold_strain t rs ds : tx_static t = false -> tx_rate t = Array rs -> tx_dt t = Array ds -> length ds = length rs ->
  forall n, (n <= length rs)%nat -> fold_left Rplus (firstn n (map (fun rd => fst rd * snd rd) (combine rs ds))) 0 = strain t n.
Proof.
  intros Hs Hr Hd Hl. induction n as [| n IH]; intros Hn; [reflexivity |].
  assert (L0 : length (map (fun rd : R * R => fst rd * snd rd) (combine rs ds)) = length rs) by (rewrite map_length, combine_length; lia).
  assert (Ex : nth_error (map (fun rd : R * R => fst rd * snd rd) (combine rs ds)) n = Some (nth n rs 0 * nth n ds 0)).
  { rewrite (nth_error_nth' _ (0 * 0)) by lia. f_equal. change (0 * 0) with ((fun rd : R * R => fst rd * snd rd) (0, 0)). rewrite map_nth.
    rewrite combine_nth by lia. reflexivity. }
  assert (Ef : forall A (l : list A) k x, nth_error l k = Some x -> firstn (S k) l = firstn k l ++ [x]).
  { clear. intros A. induction l as [| y l IH]; intros [| k] x E; try discriminate; cbn in *; [now injection E as -> |]. now rewrite (IH k x E). }
  rewrite (Ef _ _ _ _ Ex), fold_left_app, IH by lia. cbn [fold_left strain]. f_equal. unfold applied. rewrite Hs. cbn [andb].
  rewrite Hr, Hd. unfold at_, nth_clamped. rewrite !Nat.min_l by lia. reflexivity.
Qed.
(** rates and time steps given as arrays, every step recorded, no static first step: the list is right *)
Theorem C94_axial_strain_partial : forall (X : Ext R) t s n rs ds out es, expm X = expmR -> tx_static t = false ->
  tx_rate t = Array rs -> tx_dt t = Array ds -> tx_stride t = 1%nat ->
  tx_length t = Ok n -> tx_run X t s = Ok out -> axial_strain_stack t = Ok es ->
  length es = length out /\ forall j s' e, nth_error out j = Some s' -> nth_error es j = Some e ->
    Forall2 (fun p q => axial_strain (pt_F p) (pt_F q) e) (sb_pts (fst s)) (sb_pts (fst s')).
Proof.
  intros X t s n rs ds out es EX Hs Hr Hd Hk En Er Ee. unfold axial_strain_stack in Ee. rewrite Hr, Hd in Ee.
  destruct (Nat.eqb_spec (length ds) (length rs)) as [El | _]; [| discriminate]. injection Ee as <-. rewrite Hk.
  change (@numt_num R NumT_R) with Num_R in *.
  assert (En' : n = length rs) by (unfold tx_length in En; rewrite Hr in En; congruence).
  destruct (run_inv _ _ _ _ _ En Er) as (_ & _ & Lo & _). rewrite Hk, Nat.div_1_r in Lo.
  set (l := cumsum _ _) in *.
  assert (Ll : length l = length rs).
  { unfold l. clear -El. assert (H0 : forall m (a : R), length (cumsum a m) = length m) by (induction m; intros; cbn; auto).
    rewrite H0, map_length, combine_length. lia. }
  assert (Ev : forall A (m : list A) f, (length m <= f)%nat -> every 1 f m = m).
  { clear. intros A. induction m as [| x m IH]; intros [| f] Hf; cbn in *; try reflexivity; [lia |]. now rewrite IH by lia. }
  rewrite Ev by lia. split; [congruence |]. intros j s' e Ej Ee.
  pose proof (snapshot_strain _ _ _ _ _ _ _ EX En Er Ej) as F. rewrite Hk, Nat.mul_1_r in F.
  destruct (cumsum_nth _ _ _ _ Ee) as (Hj & ->). rewrite map_length, combine_length in Hj.
  eapply Forall2_weaken; [| exact F]. intros p q. rewrite <- (fold_strain t rs ds Hs Hr Hd El) by lia.
  now replace (S j) with (j + 1)%nat by lia.
Qed.
Lemma strain_const t r d : tx_static t = false -> tx_rate t = Const r -> tx_dt t = Const d -> forall n, strain t n = INR n * (r * d).
Proof.
  intros Hs Hr Hd. induction n as [| n IH]; [cbn; ring |]. cbn [strain]. rewrite IH, S_INR. unfold applied. rewrite Hs, Hr, Hd. cbn. ring.
Qed.
(** a constant rate and time step: the listed strain of every snapshot but the last of a run with stride 1 is wrong *)
Theorem C94_constant_rate : forall (X : Ext R) t s p n r d out es j s' e, expm X = expmR -> tx_static t = false ->
  tx_rate t = Const r -> tx_dt t = Const d -> r * d <> 0 -> tx_num_steps t = Some n -> (2 <= n)%nat ->
  tx_run X t s = Ok out -> axial_strain_stack t = Ok es -> sb_pts (fst s) = [p] -> mdet (pt_F p) <> 0 ->
  nth_error out j = Some s' -> nth_error es j = Some e -> (j < n - 1)%nat ->
  forall q, sb_pts (fst s') = [q] -> ~ axial_strain (pt_F p) (pt_F q) e.
Proof.
  intros X t s p n r d out es j s' e EX Hs Hr Hd Hrd Hn H2 Er Ee Ep Hp Ej Eej Hj q Eq C.
  assert (En : tx_length t = Ok n) by (unfold tx_length; rewrite Hr, Hn; reflexivity).
  destruct (run_inv _ _ _ _ _ En Er) as (Hk & _ & _ & _).
  pose proof (snapshot_strain _ _ _ _ _ _ _ EX En Er Ej) as F. rewrite Ep, Eq in F. inversion F as [| ? ? ? ? F1 _]; subst. clear F.
  rewrite (strain_const t r d Hs Hr Hd) in F1.
  unfold axial_strain_stack in Ee. rewrite Hr, Hd, Hn in Ee. cbn [oget rbind] in Ee. injection Ee as <-.
  rewrite every_nth in Eej by (rewrite ?map_length; lia). rewrite nth_error_map in Eej.
  destruct (nth_error (seq 0 n) (j * tx_stride t)) as [i |] eqn:Ei; [| discriminate]. cbn in Eej. injection Eej as Ee.
  assert (Hi : i = (j * tx_stride t)%nat /\ (i < n)%nat).
  { assert (Hlt : (j * tx_stride t < n)%nat) by (rewrite <- (seq_length n 0); apply nth_error_Some; congruence).
    apply nth_error_nth with (d := 0%nat) in Ei. rewrite seq_nth in Ei by exact Hlt. lia. }
  assert (Ee' : e = INR ((j + 1) * tx_stride t) * (r * d)).
  { assert (Hrow : exp (- e) = exp (- (INR ((j + 1) * tx_stride t) * (r * d)))).
    { destruct C as (C0 & C1 & C2), F1 as (G0 & G1 & G2).
      destruct (Req_dec (m20 (pt_F p)) 0) as [Z0 |]; [| apply Rmult_eq_reg_r with (m20 (pt_F p)); congruence].
      destruct (Req_dec (m21 (pt_F p)) 0) as [Z1 |]; [| apply Rmult_eq_reg_r with (m21 (pt_F p)); congruence].
      destruct (Req_dec (m22 (pt_F p)) 0) as [Z2 |]; [| apply Rmult_eq_reg_r with (m22 (pt_F p)); congruence].
      exfalso. apply Hp. destruct (pt_F p). cbn in Z0, Z1, Z2. subst. unfold mdet. cbn. rnum. ring. }
    apply exp_inv in Hrow. lra. }
  rewrite Ee' in Ee. destruct Hi as (-> & Hi). rewrite !INR_IZR_INZ in Ee. rnum.
  set (k := tx_stride t) in *. assert (N0 : IZR (Z.of_nat (n - 1)) <> 0) by (apply not_0_IZR; lia).
  assert (E2 : IZR (Z.of_nat n) * IZR (Z.of_nat (j * k)) = IZR (Z.of_nat ((j + 1) * k)) * IZR (Z.of_nat (n - 1))).
  { apply (Rmult_eq_reg_r (r * d)); [| exact Hrd]. apply (Rmult_eq_compat_r (IZR (Z.of_nat (n - 1)))) in Ee. 
    transitivity (r * d * IZR (Z.of_nat n) * (IZR (Z.of_nat (j * k)) / IZR (Z.of_nat (n - 1))) * IZR (Z.of_nat (n - 1))); [field; exact N0 |].
    rewrite Ee. ring. }
  rewrite <- !mult_IZR in E2. apply eq_IZR in E2. nia.
Qed.
Lemma strain_static t r d : tx_static t = true -> tx_rate t = Const r -> tx_dt t = Const d -> forall n, strain t (S n) = INR n * (r * d).
Proof.
  intros Hs Hr Hd. induction n as [| n IH].
  - cbn [strain]. unfold applied. rewrite Hs. cbn. ring.
  - change (strain t (S (S n))) with (strain t (S n) + applied t (S n)). rewrite IH, S_INR. unfold applied. rewrite Hs, Hr, Hd. cbn [Nat.eqb andb at_]. rnum. ring.
Qed.
(** a test with a static first step, constant rate and time step, every step recorded: the listed strains are those of the snapshots
    times n / (n - 1), so all are too large but the first *)
Theorem C94_static : forall (X : Ext R) t s n r d out es j s' e, expm X = expmR -> tx_static t = true ->
  tx_rate t = Const r -> tx_dt t = Const d -> tx_num_steps t = Some n -> (2 <= n)%nat -> tx_stride t = 1%nat ->
  tx_run X t s = Ok out -> axial_strain_stack t = Ok es -> nth_error out j = Some s' -> nth_error es j = Some e ->
  Forall2 (fun p q => axial_strain (pt_F p) (pt_F q) (INR j * (r * d))) (sb_pts (fst s)) (sb_pts (fst s')) /\
  e = INR j * (r * d) * (INR n / INR (n - 1)).
Proof.
  intros X t s n r d out es j s' e EX Hs Hr Hd Hn H2 Hk Er Ee Ej Eej.
  assert (En : tx_length t = Ok n) by (unfold tx_length; rewrite Hr, Hn; reflexivity).
  pose proof (snapshot_strain _ _ _ _ _ _ _ EX En Er Ej) as F. rewrite Hk, Nat.mul_1_r, Nat.add_1_r, (strain_static t r d Hs Hr Hd) in F.
  split; [exact F|]. unfold axial_strain_stack in Ee. rewrite Hr, Hd, Hn in Ee. cbn [oget rbind] in Ee. injection Ee as <-.
  rewrite Hk in Eej. rewrite every_nth in Eej by (rewrite ?map_length; lia). rewrite Nat.mul_1_r, nth_error_map in Eej.
  destruct (nth_error (seq 0 n) j) as [i |] eqn:Ei; [| discriminate]. cbn in Eej. injection Eej as <-.
  assert (Hlt : (j < n)%nat) by (rewrite <- (seq_length n 0); apply nth_error_Some; congruence).
  apply nth_error_nth with (d := 0%nat) in Ei. rewrite seq_nth in Ei by exact Hlt. cbn in Ei. subst i. rnum. rewrite !INR_IZR_INZ.
  field. apply not_0_IZR. lia.
Qed.
Print Assumptions C94_static.
Definition tx2 : Triaxial R := {| tx_driver := driverR (LawLE elastic) false; tx_confine := 1; tx_rate := Const 1; tx_dt := Const 1;
  tx_undrained := true; tx_p_constant := false; tx_num_steps := Some 2%nat; tx_newton := 3; tx_stride := 1; tx_static := false |}.
Lemma det_eye : mdet (@meye R _) = 1.
Proof. unfold mdet, meye, mdiag. cbn. rnum. ring. Qed.
Theorem C94_axial_strain_refuted : ~ (forall t s n out es j s' e, tx_length t = Ok n -> tx_run XR t s = Ok out -> axial_strain_stack t = Ok es ->
  nth_error out j = Some s' -> nth_error es j = Some e ->
  Forall2 (fun p q => axial_strain (pt_F p) (pt_F q) e) (sb_pts (fst s)) (sb_pts (fst s'))).
Proof.
  intros Hall. set (s := state1 (part mzero mzero 1 1) None).
  destruct (run_elastic XR tx2 elastic eq_refl (seq 0 (2 * 1)) s _ eq_refl) as (s2 & q2 & E & _).
  destruct (chunks_ok XR tx2 2 1 0 _ _ E) as (out & Eo). assert (Er : tx_run XR tx2 s = Ok out) by exact Eo.
  destruct out as [| s1 out]; [apply chunks_len in Eo; discriminate |].
  pose proof (chunks_nth XR tx2 2 1 0 s _ 0 s1 Eo eq_refl) as E1.
  assert (Q : exists q, sb_pts (fst s1) = [q]).
  { destruct (run_elastic XR tx2 elastic eq_refl (seq 0 ((0 + 1) * 1)) s _ eq_refl) as (s1' & q & E1' & Eq). exists q. congruence. }
  destruct Q as (q & Eq).
  destruct (axial_strain_stack tx2) as [es |] eqn:Ee; [| discriminate].
  assert (Ee0 : exists e, nth_error es 0 = Some e) by (injection Ee as <-; eexists; reflexivity). destruct Ee0 as (e & Ee0).
  pose proof (Hall tx2 s 2%nat _ _ 0%nat s1 e eq_refl Er Ee eq_refl Ee0) as C. cbn [fst s state1 soft sb_pts] in C. rewrite Eq in C. inversion C; subst.
  apply (C94_constant_rate XR tx2 s (part mzero mzero 1 1) 2 1 1 (s1 :: out) es 0 s1 e) with (q := q); try assumption; try reflexivity; try lia; try lra.
  cbn [part pt_F]. rewrite det_eye. lra.
Qed.
Definition tx4 : Triaxial R := {| tx_driver := driverR (LawLE elastic) false; tx_confine := 1; tx_rate := Array [1; 2]; tx_dt := Array [1; 1];
  tx_undrained := false; tx_p_constant := false; tx_num_steps := None; tx_newton := 3; tx_stride := 1; tx_static := false |}.
Example C94_case : exists out es, tx_run XR tx4 (state1 (part mzero mzero 1 1) None) = Ok out /\ axial_strain_stack tx4 = Ok es.
Proof.
  destruct (run_elastic XR tx4 elastic eq_refl (seq 0 (2 * 1)) (state1 (part mzero mzero 1 1) None) _ eq_refl) as (s2 & q2 & E & _).
  destruct (chunks_ok XR tx4 2 1 0 _ _ E) as (out & Eo). exists out. eexists. split; [exact Eo | reflexivity].
Qed.
Definition tx5 : Triaxial R := {| tx_driver := driverR (LawLE elastic) false; tx_confine := 1; tx_rate := Const 1; tx_dt := Const 1;
  tx_undrained := true; tx_p_constant := false; tx_num_steps := Some 3%nat; tx_newton := 3; tx_stride := 1; tx_static := true |}.
Example C94_static_case : exists out es, tx_run XR tx5 (state1 (part mzero mzero 1 1) None) = Ok out /\ axial_strain_stack tx5 = Ok es /\ nth_error es 2 = Some 3 /\ strain tx5 3 = 2.
Proof.
  destruct (run_elastic XR tx5 elastic eq_refl (seq 0 (3 * 1)) (state1 (part mzero mzero 1 1) None) _ eq_refl) as (s2 & q2 & E & _).
  destruct (chunks_ok XR tx5 3 1 0 _ _ E) as (out & Eo). exists out. eexists. split; [exact Eo |]. split; [reflexivity |]. cbn. unfold applied. cbn. split; [f_equal; field |rnum; ring].
Qed.
Print Assumptions C94_axial_strain_partial.
Print Assumptions C94_constant_rate.
Print Assumptions C94_axial_strain_refuted.

(** ** C95: the stress a step returns and the density it returns *)
(** for the Newtonian fluid the stress is a function of velocity gradient and density: the step uses the density of before *)
Theorem C95_stress_density_partial : forall (X : Ext R) m f b r dt lin L b' st' i p M q rho, 
  drive X (driverR (LawNewton m) f) b (Some (LS_Rho r)) L dt lin = Ok (b', st') ->
  nth_error (sb_pts b) i = Some p -> nth_error L i = Some M -> nth_error (sb_pts b') i = Some q -> nth_error r i = Some rho ->
  pt_stress q = nf_stress m M (pt_mass p) (pt_vol p) rho.
Proof.
  intros X m f b r dt lin L b' st' i p M q rho. unfold drive. destruct (Nat.eqb_spec (length L) (length (sb_pts b))) as [El | _]; [| discriminate].
  intros E. apply rbind_ok in E. destruct E as ([c st1] & E1 & E2). injection E2 as <- _. cbn [sb_pts fst]. cbn [driverR dr_law] in E1.
  cbn in E1. destruct (sb_vol0d b); [discriminate |]. cbn in E1.
  match type of E1 with context [Nat.eqb ?a ?b] => destruct (Nat.eqb_spec a b) as [Er | _]; [| discriminate] end.
  rewrite !map_length, !combine_length, map_length, combine_length in Er. assert (Er' : length r = length (sb_pts b)) by lia.
  clear Er. rename Er' into Er. cbn in E1. injection E1 as <- _. cbn [sb_pts set_pts]. revert L r i El Er. generalize (sb_pts b) as ps.
  induction ps as [| p0 ps IH]; intros [| M0 L] [| r0 r] i El Er; cbn in *; try discriminate; intros Ep EM Eq Erho.
  - destruct i; discriminate.
  - injection El as El. injection Er as Er. destruct i as [| i]; cbn in *.
    + injection Ep as ->. injection EM as ->. injection Erho as ->. injection Eq as <-. reflexivity.
    + eapply (IH L r i El Er); eauto.
Qed.
Definition fluid : Newton R := {| nf_K := 1; nf_visc := 0; nf_beta := 1; nf_reset := false |}.
Theorem C95_stress_density_refuted : ~ (forall m f b r dt lin L b' st' i p q rho,
  drive XR (driverR (LawNewton m) f) b (Some (LS_Rho r)) L dt lin = Ok (b', st') ->
  nth_error (sb_pts b) i = Some p -> nth_error (sb_pts b') i = Some q -> nth_error r i = Some rho ->
  pt_stress q = nf_stress m (pt_L q) (pt_mass q) (pt_vol q) rho).
Proof.
  intros Hall. set (p := part mzero mzero 1 1). set (M := mdiag 1 0 0).
  assert (E : exists b' st' q, drive XR (driverR (LawNewton fluid) false) (soft [p]) (Some (LS_Rho [1])) [M] 1 false = Ok (b', st') /\ sb_pts b' = [q]).
  { eexists. eexists. eexists. split; [reflexivity |]. reflexivity. }
  destruct E as (b' & st' & q & E & Eb).
  assert (Eq : nth_error (sb_pts b') 0 = Some q) by (rewrite Eb; reflexivity).
  pose proof (Hall fluid false _ _ _ _ _ _ _ 0%nat p q 1 E eq_refl Eq eq_refl) as C.
  rewrite (C95_stress_density_partial XR fluid false _ _ _ _ _ _ _ 0 p M q 1 E eq_refl eq_refl Eq eq_refl) in C.
  destruct (drive_one _ _ _ _ _ _ _ _ _ E) as (p1 & q1 & E1 & E2 & Mv). injection E1 as <-. rewrite Eb in E2. injection E2 as <-.
  destruct Mv as (ML & MF & MV & _ & _ & MM & _). rewrite ML, MM, MV, MF in C. unfold M in C. rewrite next_F_diag in C by reflexivity.
  apply (f_equal m00) in C. cbn [pt_mass pt_vol pt_vol0 pt_F p part] in C.
  replace (nmul (mdet (mmul (mdiag (exp (-1 * 1)) (exp (-0 * 1)) (exp (-0 * 1))) meye)) 1) with (exp (-1)) in C.
  2: { unfold mdet, mmul, mdiag, meye. cbn. rnum. replace (-1 * 1) with (-1) by ring. replace (- 0 * 1) with 0 by ring. rewrite exp_0. ring. }
  unfold nf_stress, nf_pressure, madd, mscale, meye, mmap2, mmap, mdiag in C. cbn [m00 nf_K nf_visc nf_beta fluid] in C.
  rewrite !nmax_R in C. cbv [lit nofZ ndiv nmul nsub nopp nadd n0 n1 n2 npow numt_num NumT_R Num_R] in C.
  assert (T6 : 0 < 1 / IZR (10 ^ 6) < 1) by (split; cbn; lra). set (c := 1 / IZR (10 ^ 6)) in *.
  assert (R1 : Rmax (1 / 1 / 1) c = 1) by (rewrite Rmax_left; lra). rewrite R1 in C.
  assert (Ex : 1 / exp (-1) / 1 = exp 1) by (replace (-1) with (- (1)) by ring; rewrite exp_Ropp; field; apply Rgt_not_eq, exp_pos).
  pose proof (exp_ineq1 1 ltac:(lra)) as G. rewrite Ex in C. rewrite (Rmax_left (exp 1) c) in C by lra.
  rewrite !Rpower_1 in C by lra. rewrite (Rmax_left (1 * (exp 1 - 1)) 0) in C by lra. rewrite (Rmax_left (1 * (1 - 1)) 0) in C by lra. lra.
Qed.
Example C95_case : exists b' st', drive XR (driverR (LawNewton fluid) false) (soft [part mzero mzero 1 1]) (Some (LS_Rho [1])) [mdiag 1 0 0] 1 false = Ok (b', st').
Proof. eexists. eexists. reflexivity. Qed.
Print Assumptions C95_stress_density_partial.
Print Assumptions C95_stress_density_refuted.

(** ** C96: drained tests hold the confinement.  For the linear elastic law the damped Newton iteration divides the error by five each time *)
Lemma elastic_residual X t s p m r d x : dr_law (tx_driver t) = LawLE m -> sb_pts (fst s) = [p] ->
  residual X t s r d x = if tx_p_constant t
    then mtrace (pt_stress p) / 3 + (le_lam m + 2 * le_G m / 3) * ((2 * x + r) * d) - tx_confine t
    else m00 (pt_stress p) + (le_lam m * ((2 * x + r) * d) + 2 * le_G m * (x * d)) - tx_confine t.
Proof.
  intros El Es. unfold residual. destruct (drive_elastic X (tx_driver t) m p (snd s) (rates x r) d false El (fst s) Es) as (q & -> & Eq).
  cbn [fst sb_pts]. rewrite Eq. generalize (pt_stress p) as S0. intros S0. change (@numt_num R NumT_R) with Num_R. destruct (tx_p_constant t).
  - assert (Et : mtrace (le_stress m (rates x r) S0 d) = mtrace S0 + (3 * le_lam m + 2 * le_G m) * ((2 * x + r) * d)).
    { destruct S0. unfold le_stress, rates. mcbv. field. }
    rewrite Et. cbv [nsub ndiv n3 nofZ numt_num NumT_R Num_R]. field.
  - assert (Et : m00 (le_stress m (rates x r) S0 d) = m00 S0 + (le_lam m * ((2 * x + r) * d) + 2 * le_G m * (x * d))).
    { destruct S0. unfold le_stress, rates. mcbv. field. }
    rewrite Et. reflexivity.
Qed.
(** stiffness of the controlled stress with respect to the lateral rate *)
Definition lateral_stiffness (m : LinearElastic R) (p_constant : bool) (d : R) : R :=
  if p_constant then 2 * (le_lam m + 2 * le_G m / 3) * d else 2 * (le_lam m + le_G m) * d.
Lemma Nat_iter_S {A} n (f : A -> A) x : Nat.iter (S n) f x = f (Nat.iter n f x).
Proof. reflexivity. Qed.
Lemma newton_affine X (g : R -> R) a b : grad X = Derive -> bad X = (fun _ => false) -> a <> 0 -> (forall x, g x = a * x + b) ->
  forall n x, g (Nat.iter n (newton_step X g) x) = (1 / 5) ^ n * g x.
Proof.
  intros EG EB Ha Hg. induction n as [| n IH]; intros x; [cbn; ring |]. rewrite Nat_iter_S. set (y := Nat.iter n (newton_step X g) x) in *.
  cbn [pow]. rewrite Rmult_assoc, <- IH. fold y. clearbody y. clear IH. unfold newton_step. rewrite EG, EB.
  assert (D : Derive g y = a).
  { apply is_derive_unique. apply (is_derive_ext (fun x => a * x + b)); [intros; symmetry; apply Hg |]. auto_derive; [exact I | ring]. }
  rewrite D. rnum. rewrite !Hg.
  field. exact Ha.
Qed.
Theorem C96_confinement_partial : forall t s p m i b' st' q, dr_law (tx_driver t) = LawLE m -> tx_undrained t = false ->
  sb_pts (fst s) = [p] -> tx_step XR t s i = Ok (b', st') -> sb_pts b' = [q] ->
  let r := at_ (tx_rate t) i in let d := at_ (tx_dt t) i in
  lateral_stiffness m (tx_p_constant t) d <> 0 ->
  (* what the controlled stress would be without lateral strain, and what it is *)
  let sigma (y : Particle R) := if tx_p_constant t then mtrace (pt_stress y) / 3 else m00 (pt_stress y) in
  let sigma0 := sigma p + (if tx_p_constant t then le_lam m + 2 * le_G m / 3 else le_lam m) * (r * d) in
  sigma q - tx_confine t = (1 / 5) ^ tx_newton t * (sigma0 - tx_confine t).
Proof.
  intros t s p m i b' st' q El U Es E Eq r d Hst sigma sigma0. unfold tx_step in E. fold r d in E. rewrite U in E.
  set (x := lateral_drained XR t s r d) in *.
  assert (Eres : residual XR t s r d x = sigma q - tx_confine t).
  { unfold residual. rewrite E, Eq. unfold sigma. destruct (tx_p_constant t); reflexivity. }
  rewrite <- Eres. unfold x, lateral_drained.
  rewrite (newton_affine XR (residual XR t s r d) (lateral_stiffness m (tx_p_constant t) d)
            (residual XR t s r d 0) eq_refl eq_refl Hst).
  - f_equal. match goal with |- residual _ _ _ _ _ ?z = _ => change z with 0 end. rewrite (elastic_residual XR t s p m r d 0 El Es). unfold sigma0, sigma. destruct (tx_p_constant t); ring.
  - intros y. rewrite !(elastic_residual XR t s p m r d _ El Es). unfold lateral_stiffness. destruct (tx_p_constant t); field.
Qed.

(** the controlled stress of a drained step, as a function of the number of Newton iterations *)
Definition set_newton (t : Triaxial R) (n : nat) : Triaxial R :=
  {| tx_driver := tx_driver t; tx_confine := tx_confine t; tx_rate := tx_rate t; tx_dt := tx_dt t; tx_undrained := tx_undrained t;
     tx_p_constant := tx_p_constant t; tx_num_steps := tx_num_steps t; tx_newton := n; tx_stride := tx_stride t; tx_static := tx_static t |}.
Definition controlled (t : Triaxial R) (q : Particle R) : R := if tx_p_constant t then mtrace (pt_stress q) / 3 else m00 (pt_stress q).
Definition holds_confinement (t : Triaxial R) (s : SoftBody R * option (LawState R)) (i : nat) : Prop :=
  forall eps, 0 < eps -> exists N, forall n, (N <= n)%nat -> forall b' st' q,
    tx_step XR (set_newton t n) s i = Ok (b', st') -> sb_pts b' = [q] -> Rabs (controlled t q - tx_confine t) <= eps.
(** with enough iterations, to any accuracy *)
Theorem C96_elastic_limit_partial : forall t s p m i, dr_law (tx_driver t) = LawLE m -> tx_undrained t = false -> sb_pts (fst s) = [p] ->
  lateral_stiffness m (tx_p_constant t) (at_ (tx_dt t) i) <> 0 -> holds_confinement t s i.
Proof.
  intros t s p m i El U Es Hst eps He.
  set (s0 := (if tx_p_constant t then mtrace (pt_stress p) / 3 else m00 (pt_stress p)) +
     (if tx_p_constant t then le_lam m + 2 * le_G m / 3 else le_lam m) * (at_ (tx_rate t) i * at_ (tx_dt t) i) - tx_confine t).
  destruct (pow_lt_1_zero (1 / 5) ltac:(rewrite Rabs_pos_eq; lra) (eps / (Rabs s0 + 1))) as (N & HN).
  { apply Rdiv_lt_0_compat; [exact He |]. pose proof (Rabs_pos s0). lra. }
  exists N. intros n Hn b' st' q E Eq. pose proof (C96_confinement_partial (set_newton t n) s p m i b' st' q El U Es E Eq) as C.
  cbn [set_newton tx_p_constant tx_rate tx_dt tx_newton tx_confine] in C. specialize (C Hst).
  unfold controlled. rewrite C. fold s0. rewrite Rabs_mult. specialize (HN n Hn). pose proof (Rabs_pos s0).
  pose proof (Rabs_pos ((1 / 5) ^ n)). replace eps with (eps / (Rabs s0 + 1) * (Rabs s0 + 1)) by (field; lra).
  apply Rmult_le_compat; lra.
Qed.
(** a fluid under constant-pressure control: the stress of a step does not depend on the lateral rate, the iteration does not move *)
Definition txf : Triaxial R := {| tx_driver := driverR (LawNewton fluid) false; tx_confine := 1; tx_rate := Const 1; tx_dt := Const 1;
  tx_undrained := false; tx_p_constant := true; tx_num_steps := Some 1%nat; tx_newton := 20; tx_stride := 1; tx_static := false |}.
Theorem C96_confinement_refuted : ~ (forall t s i p, tx_undrained t = false -> sb_pts (fst s) = [p] -> at_ (tx_dt t) i <> 0 -> holds_confinement t s i).
Proof.
  intros Hall. set (p := part mzero mzero 1 1). set (s := state1 p (Some (LS_Rho [1]))).
  destruct (Hall txf s 0%nat p eq_refl eq_refl ltac:(cbn; lra) (1 / 2) ltac:(lra)) as (N & HN). specialize (HN N (le_n N)).
  assert (E : exists b' st' q, tx_step XR (set_newton txf N) s 0 = Ok (b', st') /\ sb_pts b' = [q]).
  { unfold tx_step. set (lat := if tx_undrained (set_newton txf N) then _ else _). clearbody lat. eexists. eexists. eexists. split; reflexivity. }
  destruct E as (b' & st' & q & E & Eb). specialize (HN b' st' q E Eb). unfold tx_step in E.
  assert (Eq : nth_error (sb_pts b') 0 = Some q) by (rewrite Eb; reflexivity).
  assert (S0 : mtrace (pt_stress q) = 0).
  { erewrite (C95_stress_density_partial XR fluid false _ _ _ _ _ b' st' 0 p _ q 1 E eq_refl eq_refl Eq eq_refl).
    unfold nf_stress, nf_pressure, mtrace, madd, mscale, meye, mmap2, mmap, mdiag. cbn [m00 m11 m22 nf_K nf_visc nf_beta fluid pt_mass pt_vol p part].
    rewrite !nmax_R. cbv [lit nofZ ndiv nmul nsub nopp nadd n0 n1 n2 npow numt_num NumT_R Num_R].
    assert (T6 : 0 < 1 / IZR (10 ^ 6) < 1) by (split; cbn; lra). set (c := 1 / IZR (10 ^ 6)) in *.
    assert (R1 : Rmax (1 / 1 / 1) c = 1) by (rewrite Rmax_left; lra). rewrite R1, Rpower_1 by lra. rewrite Rmax_left by lra. ring. }
  unfold controlled in HN. cbn [txf tx_p_constant tx_confine] in HN. rewrite S0 in HN. revert HN. unfold Rabs. destruct (Rcase_abs _); lra.
Qed.
Example C96_case : exists b' st' q, tx_step XR tx4 (state1 (part mzero mzero 1 1) None) 0 = Ok (b', st') /\ sb_pts b' = [q] /\
  tx_undrained tx4 = false /\ lateral_stiffness elastic (tx_p_constant tx4) (at_ (tx_dt tx4) 0) <> 0.
Proof.
  destruct (drive_elastic XR (tx_driver tx4) elastic (part mzero mzero 1 1) None
    (rates (lateral_drained XR tx4 (state1 (part mzero mzero 1 1) None) (at_ (tx_rate tx4) 0) (at_ (tx_dt tx4) 0)) (at_ (tx_rate tx4) 0)) (at_ (tx_dt tx4) 0) false eq_refl
    (soft [part mzero mzero 1 1]) eq_refl) as (q & E & _). eexists. eexists. exists q. split; [exact E |]. repeat split. unfold lateral_stiffness. cbn. lra.
Qed.
Print Assumptions C96_confinement_partial.
Print Assumptions C96_elastic_limit_partial.
Print Assumptions C96_confinement_refuted.
