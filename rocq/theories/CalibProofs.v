(** Lemmas for the calibration study: interpolation, argmin, runs of Cam-Clay tests. *)
From Coquelicot Require Import Coquelicot.
From Coq Require Import List Arith ZArith Reals Bool Lra Lia Sorted.
From Verif Require Import Num NumR Linalg Arrays ModelGrid ModelShape ModelMath ModelState ModelLaws ModelSDF ModelElement ModelStrain ModelCalib
  Sums ResFacts SpecMath ElementProofs.
Import ListNotations.
Local Open Scope R_scope.

(** *** runs of a Cam-Clay test on one point *)
Section Runs.
Context {T : Type} `{NumT T} (X : Ext T).
Definition ready1 (s : SoftBody T * option (LawState T)) : Prop :=
  (exists p, sb_pts (fst s) = [p]) /\ exists pc sr ee, snd s = Some (LS_MCC [pc] (Some [sr]) [ee]).
Lemma drive_mcc D m s M dt : dr_law D = LawMCC m -> ready1 s -> exists s', drive X D (fst s) (snd s) [M] dt false = Ok s' /\ ready1 s'.
Proof.
  intros El ((p & Ep) & pc & sr & ee & Es). destruct s as [b ls]. cbn [fst snd] in *. subst ls. unfold drive. rewrite Ep, El. cbn.
  eexists. split; [reflexivity|]. split; cbn; eauto.
Qed.
Lemma run_mcc t m : dr_law (tx_driver t) = LawMCC m -> forall l s, ready1 s -> exists s', rfold (static_run X t) s l = Ok s' /\ ready1 s'.
Proof.
  intros El. induction l as [| i l IH]; intros s Hs; cbn [rfold]; [eauto |].
  assert (St : exists s1, static_run X t s i = Ok s1 /\ ready1 s1).
  { unfold static_run. destruct (tx_static t && Nat.eqb i 0)%bool; [eauto |]. unfold tx_step. eapply drive_mcc; eassumption. }
  destruct St as (s1 & -> & H1). cbn [rbind]. exact (IH s1 H1).
Qed.
Lemma chunks_ready t m : dr_law (tx_driver t) = LawMCC m -> forall l s out, ready1 s -> chunks X t s l = Ok out -> Forall ready1 out.
Proof.
  intros El. induction l as [| c l IH]; intros s out Hs; cbn [chunks]; [intros [= <-]; constructor |]. intros E.
  apply rbind_ok in E. destruct E as (s1 & E1 & E). apply rbind_ok in E. destruct E as (o & E2 & E). injection E as <-.
  destruct (run_mcc t m El c s Hs) as (s1' & E1' & H1). assert (s1' = s1) by congruence. subst s1'. constructor; [assumption|]. eapply IH; eassumption.
Qed.
Lemma tx_run_mcc t m n s : dr_law (tx_driver t) = LawMCC m -> tx_length t = Ok n -> tx_stride t = 1%nat -> ready1 s ->
  exists out, tx_run X t s = Ok out /\ length out = n /\ Forall ready1 out.
Proof.
  intros El En Ek Hs. destruct (run_mcc t m El (seq 0 (n * 1)) s Hs) as (s' & E & _). destruct (chunks_ok X t n 1 0 s s' E) as (out & Eo).
  exists out. unfold tx_run. rewrite En. cbn [rbind]. rewrite Ek, Nat.div_1_r, Nat.mul_1_r, Nat.eqb_refl. split; [exact Eo|]. split.
  - rewrite (chunks_len X _ _ _ _ Eo). apply rows_length.
  - eapply chunks_ready; eassumption.
Qed.
Lemma rmap_point out : Forall ready1 out -> exists pts, rmap point_of out = Ok pts /\ Forall2 (fun s p => sb_pts (fst s) = [p]) out pts.
Proof.
  induction 1 as [| s out ((p & Ep) & _) _ IH]; [exists []; split; [reflexivity | constructor] |].
  destruct IH as (pts & E & F). exists (p :: pts). cbn [rmap]. unfold point_of at 1. rewrite Ep. cbn. rewrite E. split; [reflexivity | constructor; assumption].
Qed.
Lemma rmap_q (pts : list (Particle T)) : exists qs, rmap shear_q pts = Ok qs /\ length qs = length pts.
Proof.
  induction pts as [| p pts (qs & E & L)]; [exists []; split; reflexivity |]. cbn [rmap]. unfold shear_q at 1, get_q_vm, get_J2. cbn [rbind]. rewrite E.
  eexists. split; [reflexivity |]. cbn. now rewrite L.
Qed.
Lemma initial_ready c : exists s, initial c = Ok s /\ ready1 s.
Proof. eexists. split; [reflexivity|]. split; cbn; eauto. Qed.
Lemma every_one {A} (l : list A) : forall f, (length l <= f)%nat -> every 1 f l = l.
Proof. induction l as [| x l IH]; intros [| f] Hf; cbn in *; try reflexivity; [lia |]. now rewrite IH by lia. Qed.
Lemma rmap_length {A B} (f : A -> res B) l l' : rmap f l = Ok l' -> length l' = length l.
Proof. intros E. apply rmap_ok in E. induction E; cbn; congruence. Qed.
End Runs.

(** *** argmin *)
Section Argmin.
Lemma argmin_from_spec : forall (l pre : list R) best m, (best < length pre)%nat -> m = nth best pre 0 ->
  (forall j, (j < length pre)%nat -> m <= nth j pre 0) -> (forall j, (j < best)%nat -> m < nth j pre 0) ->
  let k := argmin_from (length pre) best m l in
  (k < length (pre ++ l))%nat /\ (forall j, (j < length (pre ++ l))%nat -> nth k (pre ++ l) 0 <= nth j (pre ++ l) 0) /\
  (forall j, (j < k)%nat -> nth k (pre ++ l) 0 < nth j (pre ++ l) 0).
Proof.
  induction l as [| x l IH]; intros pre best m Hb Em Hm Hf; cbn [argmin_from].
  - rewrite app_nil_r. cbn zeta. subst m. repeat split; auto.
  - replace (pre ++ x :: l) with ((pre ++ [x]) ++ l) by (rewrite <- app_assoc; reflexivity).
    assert (L : length (pre ++ [x]) = (length pre + 1)%nat) by (rewrite app_length; reflexivity).
    assert (Nx : nth (length pre) (pre ++ [x]) 0 = x) by (rewrite app_nth2, Nat.sub_diag by lia; reflexivity).
    assert (Np : forall j, (j < length pre)%nat -> nth j (pre ++ [x]) 0 = nth j pre 0) by (intros; apply app_nth1; assumption).
    change (@nltb R _ x m) with (Rltb x m). unfold Rltb. destruct (Rlt_dec x m) as [C | C]; rewrite <- L; apply IH; rewrite ?L; try lia.
    + rewrite Nx. reflexivity.
    + intros j Hj. destruct (Nat.eq_dec j (length pre)) as [-> |]; [rewrite Nx; lra |]. rewrite Np by lia. specialize (Hm j ltac:(lia)). lra.
    + intros j Hj. rewrite Np by lia. specialize (Hm j ltac:(lia)). lra.
    + rewrite Np by lia. exact Em.
    + intros j Hj. destruct (Nat.eq_dec j (length pre)) as [-> |]; [rewrite Nx; lra |]. rewrite Np by lia. apply Hm. lia.
    + intros j Hj. rewrite Np by lia. apply Hf. lia.
Qed.
Lemma argmin_spec (l : list R) : l <> [] -> (argmin l < length l)%nat /\ (forall j, (j < length l)%nat -> nth (argmin l) l 0 <= nth j l 0) /\
  (forall j, (j < argmin l)%nat -> nth (argmin l) l 0 < nth j l 0).
Proof.
  destruct l as [| x l]; [congruence |]. intros _. apply (argmin_from_spec l [x] 0 x); cbn [length]; try lia; try reflexivity.
  intros j Hj. destruct j; [cbn; lra | lia].
Qed.
End Argmin.

(** *** interpolation on increasing abscissae *)
Section Interp.
Definition increasing (xs : list R) : Prop := forall i, (S i < length xs)%nat -> nth i xs 0 < nth (S i) xs 0.
Lemma increasing_lt xs : increasing xs -> forall i j, (i < j)%nat -> (j < length xs)%nat -> nth i xs 0 < nth j xs 0.
Proof.
  intros Hi i j Hij. induction Hij as [| j Hij IH]; intros Hj; [apply Hi; lia |]. specialize (Hi j ltac:(lia)). specialize (IH ltac:(lia)). lra.
Qed.
Lemma increasing_tail x xs : increasing (x :: xs) -> increasing xs.
Proof. intros Hi i Hl. apply (Hi (S i)). cbn. lia. Qed.
(** as many entries are at most x as there are before the first one above it *)
Lemma searchsorted_spec : forall xs x k, increasing xs -> (k <= length xs)%nat -> (forall i, (i < k)%nat -> nth i xs 0 <= x) ->
  (forall i, (k <= i)%nat -> (i < length xs)%nat -> x < nth i xs 0) -> searchsorted xs x = k.
Proof.
  induction xs as [| a xs IH]; intros x k Hi Hk Hlo Hhi; [cbn in Hk; unfold searchsorted; cbn; lia |]. unfold searchsorted in *. cbn [filter].
  change (@nleb R _ a x) with (Rleb a x). destruct k as [| k].
  - specialize (Hhi 0%nat ltac:(lia) ltac:(cbn; lia)) as H0. cbn in H0. unfold Rleb. destruct (Rle_dec a x); [lra |].
    apply IH; try (intros; lia); [eapply increasing_tail; eassumption |]. intros i _ Hl. apply (Hhi (S i)); cbn; lia.
  - specialize (Hlo 0%nat ltac:(lia)) as H0. cbn in H0. unfold Rleb. destruct (Rle_dec a x); [| lra]. cbn [length]. f_equal.
    apply IH; [eapply increasing_tail; eassumption | cbn in Hk; lia | |]; intros i H1; [apply (Hlo (S i)); lia | intros H2; apply (Hhi (S i)); cbn; lia].
Qed.
Lemma interp_left eps xs ys x : x < nth 0 xs 0 -> interp eps xs ys x = nth 0 ys 0.
Proof. intros Hx. unfold interp. rnum. rcase; [reflexivity | lra]. Qed.
Lemma interp_right eps xs ys x : increasing xs -> xs <> [] -> nth (length xs - 1) xs 0 < x -> interp eps xs ys x = nth (length xs - 1) ys 0.
Proof.
  intros Hi Hn Hx. unfold interp. rnum. rcase.
  - exfalso. destruct xs as [| a [| b xs]]; [congruence | cbn in *; lra |].
    pose proof (increasing_lt _ Hi 0 (length (a :: b :: xs) - 1) ltac:(cbn; lia) ltac:(cbn; lia)). lra.
  - rcase; [reflexivity | lra].
Qed.
Lemma interp_between eps xs ys x i : 0 <= eps -> increasing xs -> (S i < length xs)%nat -> eps < nth (S i) xs 0 - nth i xs 0 ->
  nth i xs 0 <= x <= nth (S i) xs 0 -> (x = nth (S i) xs 0 -> (S (S i) < length xs)%nat -> eps < nth (S (S i)) xs 0 - nth (S i) xs 0) ->
  interp eps xs ys x = nth i ys 0 + (x - nth i xs 0) / (nth (S i) xs 0 - nth i xs 0) * (nth (S i) ys 0 - nth i ys 0).
Proof.
  intros He Hi Hl Hd (Hlo & Hhi) Hnext.
  assert (B0 : nth 0 xs 0 <= x). { destruct i; [assumption |]. pose proof (increasing_lt _ Hi 0 (S i) ltac:(lia) ltac:(lia)). lra. }
  assert (B1 : x <= nth (length xs - 1) xs 0).
  { destruct (Nat.eq_dec (S i) (length xs - 1)) as [E |]; [rewrite <- E; assumption |].
    pose proof (increasing_lt _ Hi (S i) (length xs - 1) ltac:(lia) ltac:(lia)). lra. }
  unfold interp. change (@nltb R _ x (nth 0 xs (@n0 R _))) with (Rltb x (nth 0 xs 0)). unfold Rltb at 1. destruct (Rlt_dec x (nth 0 xs 0)); [lra |].
  change (@nltb R _ (nth (length xs - 1) xs (@n0 R _)) x) with (Rltb (nth (length xs - 1) xs 0) x). unfold Rltb.
  destruct (Rlt_dec (nth (length xs - 1) xs 0) x); [lra |]. destruct (Rle_lt_or_eq_dec _ _ Hhi) as [Hlt | Heq].
  - rewrite (searchsorted_spec xs x (S i) Hi); try lia.
    + rewrite Nat.max_l, Nat.min_l by lia. replace (S i - 1)%nat with i by lia. rnum. rewrite nabs_R. rnum. rewrite Rabs_pos_eq by lra. rcase; [lra | reflexivity].
    + intros j Hj. destruct (Nat.eq_dec j i) as [-> |]; [assumption |]. pose proof (increasing_lt _ Hi j i ltac:(lia) ltac:(lia)). lra.
    + intros j H1 H2. destruct (Nat.eq_dec j (S i)) as [-> |]; [assumption |]. pose proof (increasing_lt _ Hi (S i) j ltac:(lia) ltac:(lia)). lra.
  - assert (V : nth i ys 0 + (x - nth i xs 0) / (nth (S i) xs 0 - nth i xs 0) * (nth (S i) ys 0 - nth i ys 0) = nth (S i) ys 0).
    { rewrite Heq. field. lra. }
    rewrite (searchsorted_spec xs x (S (S i)) Hi); try lia.
    + destruct (Nat.eq_dec (S (S i)) (length xs)) as [E | E].
      * rewrite Nat.max_l, Nat.min_r by lia. replace (length xs - 1)%nat with (S i) by lia. replace (S i - 1)%nat with i by lia.
        rnum. rewrite nabs_R. rnum. rewrite Rabs_pos_eq by lra. rcase; [lra | reflexivity].
      * rewrite Nat.max_l, Nat.min_l by lia. replace (S (S i) - 1)%nat with (S i) by lia. specialize (Hnext Heq ltac:(lia)).
        rewrite V. rnum. rewrite nabs_R. rnum. rewrite Rabs_pos_eq by lra. rcase; [lra |]. rewrite Heq. field. lra.
    + intros j Hj. destruct (Nat.eq_dec j (S i)) as [-> |]; [lra |]. pose proof (increasing_lt _ Hi j (S i) ltac:(lia) ltac:(lia)). lra.
    + intros j H1 H2. pose proof (increasing_lt _ Hi (S i) j ltac:(lia) ltac:(lia)). lra.
Qed.
End Interp.

(** *** sums of squares *)
Lemma fold_sum_acc (l : list R) a : fold_left (fun u x => u + x) l a = a + fold_left (fun u x => u + x) l 0.
Proof.
  revert a. induction l as [| x l IH]; intros a; cbn [fold_left]; [lra |]. rewrite (IH (a + x)), (IH (0 + x)). lra.
Qed.
Lemma sum_nonneg (l : list R) : Forall (fun x => 0 <= x) l -> 0 <= fold_left (fun u x => u + x) l 0 /\
  (fold_left (fun u x => u + x) l 0 = 0 <-> Forall (fun x => x = 0) l).
Proof.
  induction 1 as [| x l Hx _ (IH1 & IH2)]; cbn [fold_left]; [split; [lra | split; [constructor | reflexivity]] |].
  rewrite fold_sum_acc. split; [lra |]. split; intros E.
  - constructor; [lra | apply IH2; lra].
  - inversion E; subst. rewrite (proj2 IH2) by assumption. lra.
Qed.
Lemma mean_nonneg (l : list R) : l <> [] -> Forall (fun x => 0 <= x) l -> 0 <= mean l /\ (mean l = 0 <-> Forall (fun x => x = 0) l).
Proof.
  intros Hn F. destruct (sum_nonneg l F) as (A & B). unfold mean. change (@nadd R _) with Rplus. change (@n0 R _) with 0. change (@ndiv R _) with Rdiv.
  change (@nofZ R _) with IZR. set (s := fold_left _ l 0) in *.
  assert (P : 0 < IZR (Z.of_nat (length l))) by (apply (IZR_lt 0); destruct l; [congruence | cbn; lia]).
  split; [apply Rmult_le_pos; [assumption | left; apply Rinv_0_lt_compat; assumption] |]. rewrite <- B. split; intros E.
  - apply (Rmult_eq_reg_r (/ IZR (Z.of_nat (length l)))); [unfold Rdiv in E; lra | apply Rinv_neq_0_compat; lra].
  - rewrite E. unfold Rdiv. ring.
Qed.
