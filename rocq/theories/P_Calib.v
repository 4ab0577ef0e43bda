(** Property theorems C137 and C138: calibration of Cam-Clay parameters and the data set of random samples. *)
From Coquelicot Require Import Coquelicot.
From Coq Require Import List Arith ZArith Reals Bool Lra Lia.
From Verif Require Import Num NumR Linalg Arrays ModelGrid ModelShape ModelMath ModelState ModelLaws ModelSDF ModelElement ModelStrain ModelCalib
  Sums ResFacts SolverFacts SpecMath MathProofs SpecLaws SpecStrain LawProofs LawProofs2 P_Laws P_Laws2 ElementProofs P_Element StrainProofs P_Strain CalibProofs.
Import ListNotations.
Local Open Scope R_scope.

(** a vector of parameters inside the ranges of the study *)
Definition in_ranges (r : list R) : Prop := exists M lam k N nu, r = [M; lam; k; N; nu] /\
  1/2 <= M <= 2 /\ 1/100 <= lam <= 1/5 /\ 1/10 <= k <= 9/10 /\ 2/5 <= N <= 4 /\ 1/10 <= nu <= 45/100.

(** ** C137 *)
(** *** the chains stay inside the ranges *)
(** gradients and updates have the shape of the parameters *)
Definition keeps_shape {S} (o : Optimizer R S) : Prop :=
  (forall f r, length (op_grad o f r) = length r) /\
  (forall g st, map (@length R) (fst (op_update o g st)) = map (@length R) g).
Lemma lits : (@lower_bounds R _ = [1/2; 1/100; 1/10; 4/10; 1/10]) /\ (@upper_bounds R _ = [2; 2/10; 9/10; 4; 45/100]).
Proof. unfold lower_bounds, upper_bounds, lit. rnum. split; reflexivity. Qed.
Lemma clip_ranges r : length r = 5%nat -> in_ranges (clip r).
Proof.
  intros L. destruct r as [| a [| b [| c [| d [| e [|]]]]]]; try discriminate. unfold clip. destruct lits as (-> & ->). cbn [combine map fst snd].
  rewrite !nmin_R, !nmax_R. do 5 eexists. split; [reflexivity |].
  unfold Rmin, Rmax; repeat match goal with |- context [Rle_dec ?x ?y] => destruct (Rle_dec x y) end; lra.
Qed.
Lemma round_shape {S} (o : Optimizer R S) f pop st : keeps_shape o -> Forall (fun r => length r = 5%nat) pop ->
  let '(pop1, _, losses) := update_step o f pop st in Forall in_ranges pop1 /\ length pop1 = length pop /\ losses = map f pop.
Proof.
  intros (Kg & Ku) F. unfold update_step. set (g := map (op_grad o f) pop). pose proof (Ku g st) as E.
  destruct (op_update o g st) as [u st1]. cbn [fst] in E.
  assert (L : length u = length pop) by (rewrite <- (map_length (@length R)), E, !map_length; unfold g; now rewrite map_length).
  split; [| split; [unfold apply_updates; rewrite !map_length, combine_length; lia | reflexivity]].
  unfold apply_updates. rewrite map_map. apply Forall_forall. intros x Hx. apply in_map_iff in Hx. destruct Hx as ([r v] & <- & Hin). apply clip_ranges.
  cbn [fst snd]. rewrite map_length, combine_length.
  assert (Hr : length r = 5%nat) by (rewrite Forall_forall in F; apply F; eapply in_combine_l; exact Hin).
  assert (Hv : length v = 5%nat); [| lia].
  assert (E5 : map (@length R) u = map (fun _ => 5%nat) pop).
  { rewrite E. unfold g. rewrite map_map. clear -F Kg. induction F as [| y l Hy _ IH]; cbn; [reflexivity |]. rewrite Kg, Hy, IH. reflexivity. }
  apply in_combine_r in Hin. apply (in_map (@length R)) in Hin. rewrite E5 in Hin. apply in_map_iff in Hin. destruct Hin as (? & <- & _). reflexivity.
Qed.
Lemma ranges_length r : in_ranges r -> length r = 5%nat.
Proof. intros (M & lam & k & N & nu & -> & _). reflexivity. Qed.
Lemma calibrate_S {S} (o : Optimizer R S) f pop st n : calibrate o f pop st (Datatypes.S n) = calib_round o f (calibrate o f pop st n).
Proof. reflexivity. Qed.
Theorem C137_ranges : forall S (o : Optimizer R S) f pop st n, keeps_shape o -> Forall in_ranges pop ->
  Forall in_ranges (ca_pop (calibrate o f pop st n)) /\ length (ca_pop (calibrate o f pop st n)) = length pop.
Proof.
  intros S o f pop st n K F. induction n as [| n (IH1 & IH2)]; [split; [exact F | reflexivity] |]. rewrite calibrate_S. set (c := calibrate o f pop st n) in *.
  assert (F5 : Forall (fun r => length r = 5%nat) (ca_pop c)) by (eapply Forall_impl; [apply ranges_length | exact IH1]).
  pose proof (round_shape o f (ca_pop c) (ca_opt c) K F5) as H. unfold calib_round. destruct (update_step o f (ca_pop c) (ca_opt c)) as [[p1 s1] l1].
  destruct H as (H1 & H2 & _). cbn [ca_pop]. split; [exact H1 | congruence].
Qed.
Print Assumptions C137_ranges.

(** *** every parameter vector in the ranges is a usable material, and starts on its compression line *)
Lemma ln2_big : 1 / 2 < ln 2.
Proof.
  assert (E : exp (1/2) < 2).
  { assert (E1 : exp (1/2) * exp (1/2) <= 3) by (rewrite <- exp_plus; replace (1/2 + 1/2) with 1 by field; apply exp_le_3).
    pose proof (exp_pos (1/2)). nra. }
  rewrite <- (ln_exp (1/2)). apply ln_increasing; [apply exp_pos | exact E].
Qed.
Theorem C137_material : forall params confine, in_ranges params -> 2000 <= confine ->
  let m := law_of (config params confine) in let N := nth 3 params 0 in let lam := nth 1 params 0 in
  mcc_params m /\
  exists p pc, initial (config params confine) = Ok ({| sb_dim := D3; sb_pts := [p]; sb_storeF := false; sb_vol0d := false |},
                                                      Some (LS_MCC [pc] (Some [spherical confine]) [mzero])) /\
    pc = confine /\ pt_stress p = spherical confine /\ pt_F p = meye /\ 0 < pt_mass p /\ 0 < pt_vol p /\
    ln (2675 / (pt_mass p / pt_vol p)) = ln N - lam * ln (confine / 1000) /\
    0 < density p /\ 2675 / density p < N * (999999 / 1000000).
Proof.
  intros params confine (M & lam & k & N & nu & -> & HM & Hl & Hk & HN & Hn) Hc. cbn [nth]. set (params := [M; lam; k; N; nu]).
  set (m := law_of (config params confine)). cbn zeta.
  assert (Hm : mcc_params m) by (unfold mcc_params, m; cbn; rnum; repeat split; try lra; nra). split; [exact Hm |].
  destruct (mcc_create_from_ocr m [confine] [1] None) as [[[st stress] rho] |] eqn:E; [| discriminate].
  destruct (C49_state m [confine] [1] None st stress rho 0) as (pcs & ee & Est & L1 & L2 & L3 & H); try (cbn; rnum; lra); try exact E; [cbn; lia |].
  cbv zeta in H. cbn [nth] in H. destruct H as (Hpc & _ & _ & _ & Hs & Hr & Hv). specialize (Hs eq_refl).
  destruct pcs as [| pc [|]]; try discriminate. destruct stress as [| s [|]]; try discriminate. destruct rho as [| r [|]]; try discriminate.
  cbn [nth] in *. subst s.
  assert (Ee : ee = [mzero]). { clear -E Est. rewrite Est in E. apply (f_equal (fun o => match o with Ok (LS_MCC _ _ e, _, _) => e | _ => [] end)) in E. symmetry. exact E. } subst ee st.
  unfold initial. change (lp_OCR (config params confine)) with 1. change (lp_confine (config params confine)) with confine. fold m. rewrite E. cbn [rbind].
  exists {| pt_pos := vzero; pt_vel := vzero; pt_mass := 1 * 1 / 4 * r; pt_force := vzero; pt_vol := 1 * 1 / 4; pt_vol0 := 1 * 1 / 4; pt_L := mzero;
            pt_stress := spherical confine; pt_F := meye; pt_Fst := meye |}, pc.
  split; [reflexivity |]. unfold density. cbn [pt_mass pt_vol pt_stress pt_F]. rnum.
  replace (1 * 1 / 4) with (1/4) by field. match goal with |- context [1 / 4 + ?e] => set (eps := e) end.
  assert (He : 0 < eps < 1/10000) by (unfold eps, lit; rnum; lra). clearbody eps. rewrite Hpc. 
  split; [ring |]. split; [reflexivity |]. split; [reflexivity |]. split; [lra |]. split; [lra |].
  replace (1/4 * r / (1/4)) with r by field. cbn in Hv. rnum. rewrite Hpc in Hv. replace (1 * confine) with confine in Hv by ring.
  replace (confine / confine) with 1 in Hv by (field; lra). rewrite ln_1, Rmult_0_r, Rplus_0_r in Hv. split; [exact Hv |].
  split; [apply Rdiv_lt_0_compat; lra |].
  replace (2675 / (1/4 * r / (1/4 + eps))) with (2675 / r * (1 + 4 * eps)) by (field; lra).
  assert (P0 : 0 < 2675 / r) by (apply Rdiv_lt_0_compat; lra).
  apply ln_lt_inv; [apply Rmult_lt_0_compat; lra | lra |]. rewrite !ln_mult, Hv by lra.
  assert (A : ln 2 <= ln (confine / 1000)).
  { destruct (Req_dec confine 2000) as [-> | Hne]; [right; f_equal; field |]. left. apply ln_increasing; [lra |]. apply Rmult_lt_reg_r with 1000; [lra |].
    unfold Rdiv. rewrite Rmult_assoc, Rinv_l by lra. lra. }
  assert (B : - (1/1000) < ln (999999 / 1000000)).
  { rewrite <- (Ropp_involutive (ln _)), <- ln_Rinv by lra. apply Ropp_lt_contravar.
    rewrite <- (ln_exp (1/1000)). apply ln_increasing; [apply Rinv_0_lt_compat; lra |]. pose proof (exp_ineq1 (1/1000) ltac:(lra)). lra. }
  assert (C : ln (1 + 4 * eps) < 1/1000).
  { rewrite <- (ln_exp (1/1000)). apply ln_increasing; [lra |]. pose proof (exp_ineq1 (1/1000) ltac:(lra)). lra. }
  pose proof ln2_big. nra.
Qed.
Print Assumptions C137_material.
(** the lower half of the range of N is denser than solid grains *)
Theorem C137_density_refuted : forall params confine s p, in_ranges params -> nth 3 params 0 <= 1 -> 2000 <= confine ->
  initial (config params confine) = Ok s -> sb_pts (fst s) = [p] -> 2675 < density p.
Proof.
  intros params confine s p Hr HN Hc E Ep. destruct (C137_material params confine Hr Hc) as (_ & q & pc & E1 & _ & _ & _ & _ & _ & _ & Hd & Hv).
  rewrite E1 in E. injection E as <-. cbn in Ep. injection Ep as ->. destruct Hr as (M & lam & k & N & nu & -> & _ & Hl & _ & HN2 & _). cbn [nth] in *.
  assert (A : 2675 / density p < 1) by lra.
  apply (Rmult_lt_compat_r (density p)) in A; [| exact Hd]. unfold Rdiv in A. rewrite Rmult_assoc, Rinv_l in A by lra. lra.
Qed.
Print Assumptions C137_density_refuted.

(** *** the simulated curve *)
(** every test runs to the end and returns one value of p, q and strain per step *)
Lemma strain_stack_const pr (c : Loading R) : exists es, axial_strain_stack (test_of pr c) = Ok es /\ length es = pr_steps pr /\
  forall j, (j < pr_steps pr)%nat -> nth j es 0 = pr_rate pr * pr_dt pr * INR (pr_steps pr) * (INR j / INR (pr_steps pr - 1)).
Proof.
  unfold axial_strain_stack. cbn [test_of tx_dt tx_rate tx_num_steps tx_stride oget rbind]. eexists. split; [reflexivity |].
  rewrite every_one by lia. split; [rewrite map_length, seq_length; reflexivity |]. intros j Hj.
  match goal with |- nth j (map ?f _) _ = _ => rewrite (nth_indep _ 0 (f 0%nat)) by (rewrite map_length, seq_length; exact Hj); rewrite (map_nth f) end.
  rewrite seq_nth by exact Hj. cbn [Nat.add]. rnum. rewrite <- !INR_IZR_INZ. reflexivity.
Qed.
Lemma run_test X pr (c : Loading R) s : initial c = Ok s -> exists out pts, tx_run X (test_of pr c) s = Ok out /\ rmap point_of out = Ok pts /\
  length out = pr_steps pr /\ length pts = pr_steps pr /\ Forall2 (fun s p => sb_pts (fst s) = [p]) out pts.
Proof.
  intros Es. destruct (initial_ready c) as (s' & Es' & Hs). assert (s' = s) by congruence. subst s'.
  destruct (tx_run_mcc X (test_of pr c) (law_of c) (pr_steps pr) s eq_refl eq_refl eq_refl Hs) as (out & Eo & Lo & Fo).
  destruct (rmap_point out Fo) as (pts & Ep & F2). exists out, pts. repeat split; auto. rewrite (rmap_length _ _ _ Ep). exact Lo.
Qed.
Theorem C137_curve : forall (X : Ext R) pr c, exists ps qs es, kernel X pr c = Ok (ps, qs, es) /\
  length ps = pr_steps pr /\ length qs = pr_steps pr /\ length es = pr_steps pr /\
  (0 < pr_rate pr -> 0 < pr_dt pr -> (2 <= pr_steps pr)%nat -> increasing es /\ nth 0 es 0 = 0 /\
     nth (pr_steps pr - 1) es 0 = 100 * (pr_rate pr * pr_dt pr * INR (pr_steps pr))).
Proof.
  intros X pr c. destruct (initial_ready c) as (s & Es & _). destruct (run_test X pr c s Es) as (out & pts & Eo & Ep & _ & Lp & _).
  destruct (rmap_q pts) as (qs & Eq & Lq). destruct (strain_stack_const pr c) as (es & Ee & Le & Ne).
  unfold kernel. rewrite Es. cbn [rbind]. rewrite Eo. cbn [rbind]. rewrite Ep. cbn [rbind]. rewrite Eq. cbn [rbind]. rewrite Ee. cbn [rbind].
  do 3 eexists. split; [reflexivity |]. rewrite !map_length. split; [congruence |]. split; [congruence |]. split; [congruence |].
  intros Hr Hd Hn. set (n := pr_steps pr) in *.
  assert (N : forall j, (j < n)%nat -> nth j (map (fun e => (e * nofZ 100)%num) es) 0 = pr_rate pr * pr_dt pr * INR n * (INR j / INR (n - 1)) * 100).
  { intros j Hj. rewrite (nth_indep _ 0 ((fun e => (e * nofZ 100)%num) 0)) by (rewrite map_length; lia). rewrite (map_nth (fun e => (e * nofZ 100)%num)), Ne by exact Hj.
    reflexivity. }
  assert (I1 : 0 < INR (n - 1)) by (apply lt_0_INR; lia). assert (I2 : 0 < INR n) by (apply lt_0_INR; lia).
  split; [| split].
  - intros i Hi. rewrite map_length, Le in Hi. rewrite !N by lia. rewrite S_INR.
    assert (P : 0 < pr_rate pr * pr_dt pr * INR n) by (apply Rmult_lt_0_compat; [apply Rmult_lt_0_compat |]; assumption).
    apply Rmult_lt_compat_r; [lra |]. apply Rmult_lt_compat_l; [exact P |]. apply Rmult_lt_compat_r; [apply Rinv_0_lt_compat; exact I1 | lra].
  - rewrite N by lia. cbn [INR]. unfold Rdiv. ring.
  - rewrite N by lia. field. lra.
Qed.
Print Assumptions C137_curve.

(** pressure and q are those of the state after each step, in kPa *)
Lemma snapshot_pt (out : list (SoftBody R * option (LawState R))) pts j s p : Forall2 (fun s p => sb_pts (fst s) = [p]) out pts ->
  nth_error out j = Some s -> sb_pts (fst s) = [p] -> nth_error pts j = Some p.
Proof.
  intros F. revert j. induction F as [| a b l m H _ IH]; intros [| j] E Ep; try discriminate; cbn in *; [injection E as ->; rewrite H in Ep; injection Ep as ->; reflexivity | eauto].
Qed.
Theorem C137_values : forall (X : Ext R) pr c ps qs es, kernel X pr c = Ok (ps, qs, es) -> exists s out, initial c = Ok s /\ tx_run X (test_of pr c) s = Ok out /\ length out = pr_steps pr /\ forall j s' p, nth_error out j = Some s' -> sb_pts (fst s') = [p] ->
    nth_error ps j = Some (mean3 (pt_stress p) / 1000) /\ nth_error qs j = Some (q_of (pt_stress p) / 1000).
Proof.
  intros X pr c ps qs es E. destruct (initial_ready c) as (s & Es & _). destruct (run_test X pr c s Es) as (out & pts & Eo & Ep & Lo & Lp & F).
  unfold kernel in E. rewrite Es in E. cbn [rbind] in E. rewrite Eo in E. cbn [rbind] in E. rewrite Ep in E. cbn [rbind] in E.
  assert (Eq : rmap shear_q pts = Ok (map (fun p => q_of (pt_stress p)) pts)).
  { clear. induction pts as [| p pts IH]; [reflexivity |]. cbn [rmap]. unfold shear_q at 1. rewrite q_vm_ok, IH. reflexivity. }
  rewrite Eq in E. cbn [rbind] in E. apply rbind_ok in E. destruct E as (es' & _ & E). injection E as <- <- _. exists s, out.
  split; [exact Es |]. split; [exact Eo |]. split; [rewrite <- Lp; clear -F; induction F; cbn; congruence |]. intros j s' p Ej Hp. pose proof (snapshot_pt out pts j s' p F Ej Hp) as En.
  rewrite map_map. split.
  - rewrite (map_nth_error _ _ _ En). f_equal. unfold pressure_of, get_pressure, mean3, mtrace, lit. rnum. field.
  - rewrite (map_nth_error _ _ _ En). reflexivity.
Qed.
Print Assumptions C137_values.

(** the interpolated value: the piecewise linear curve through the simulated points, constant beyond its ends *)
Theorem C137_interpolation : forall eps xs ys x, 0 <= eps -> increasing xs -> xs <> [] ->
  (forall i, (S i < length xs)%nat -> eps < nth (S i) xs 0 - nth i xs 0) ->
  (forall i t, (S i < length xs)%nat -> 0 <= t <= 1 -> x = (1 - t) * nth i xs 0 + t * nth (S i) xs 0 ->
     interp eps xs ys x = (1 - t) * nth i ys 0 + t * nth (S i) ys 0) /\
  (x < nth 0 xs 0 -> interp eps xs ys x = nth 0 ys 0) /\
  (nth (length xs - 1) xs 0 < x -> interp eps xs ys x = nth (length xs - 1) ys 0).
Proof.
  intros eps xs ys x He Hi Hn Hs. split; [| split; [apply interp_left | apply interp_right; assumption]].
  intros i t Hl Ht Ex. pose proof (Hi i Hl) as Hlt. rewrite (interp_between eps xs ys x i He Hi Hl (Hs i Hl)).
  - rewrite Ex. field. lra.
  - rewrite Ex. split; nra.
  - intros _ H2. apply Hs. exact H2.
Qed.
Print Assumptions C137_interpolation.

(** *** the loss: never negative, and zero exactly when every curve passes through every data point *)
Lemma misfit_zero eps es qs xs ys : Forall (fun v => 0 <= v) (misfit eps es qs xs ys) /\
  (Forall (fun v => v = 0) (misfit eps es qs xs ys) <-> forall e q, In (e, q) (combine es qs) -> interp eps xs ys e = q).
Proof.
  unfold misfit. split.
  - apply Forall_forall. intros v Hv. apply in_map_iff in Hv. destruct Hv as ([e q] & <- & _). unfold sq. rnum. apply Rle_0_sqr.
  - rewrite Forall_forall. split.
    + intros Hall e q Hin. assert (Z : sq (interp eps xs ys e - q) = 0).
      { apply Hall. apply in_map_iff. exists (e, q). split; [reflexivity | exact Hin]. }
      unfold sq in Z. rnum. nra.
    + intros Hall v Hv. apply in_map_iff in Hv. destruct Hv as ([e q] & <- & Hin). cbn [fst snd]. rewrite (Hall e q Hin). unfold sq. rnum. ring.
Qed.
Theorem C137_loss : forall (X : Ext R) pr eps es qs confines params, es <> [] -> qs <> [] -> confines <> [] ->
  exists v, loss X pr eps es qs confines params = Ok v /\ 0 <= v /\
  (v = 0 <-> forall c ps sq st e q, In c confines -> kernel X pr (config params c) = Ok (ps, sq, st) -> In (e, q) (combine es qs) -> interp eps st sq e = q).
Proof.
  intros X pr eps es qs confines params He Hq Hc. unfold loss.
  assert (K : exists outs, rmap (fun c => kernel X pr (config params c)) confines = Ok outs /\ Forall2 (fun c o => kernel X pr (config params c) = Ok o) confines outs).
  { clear. induction confines as [| c cs (outs & E & F)]; [exists []; split; [reflexivity | constructor] |].
    destruct (C137_curve X pr (config params c)) as (ps & sq & st & Ek & _). cbn [rmap]. rewrite Ek, E. cbn. eexists. split; [reflexivity |]. constructor; assumption. }
  destruct K as (outs & -> & F). cbn [rbind]. eexists. split; [reflexivity |].
  set (l := concat _).
  assert (G : Forall (fun v => 0 <= v) l /\ (Forall (fun v => v = 0) l <->
     forall c ps sq st e q, In c confines -> kernel X pr (config params c) = Ok (ps, sq, st) -> In (e, q) (combine es qs) -> interp eps st sq e = q)).
  { unfold l. clear -F. induction F as [| c o cs os Ek _ (IH1 & IH2)]; cbn [map concat].
    - split; [constructor |]. split; [intros _ ? ? ? ? ? ? [] | constructor].
    - destruct o as [[ps0 sq0] st0]. cbn [fst snd]. destruct (misfit_zero eps es qs st0 sq0) as (M1 & M2). split; [apply Forall_app; split; assumption |].
      rewrite Forall_app, M2, IH2. split.
      + intros (A & B) c' ps sq st e q [-> | Hin] E2 Hd; [| eapply B; eassumption].
        rewrite Ek in E2. injection E2 as <- <- <-. apply A. exact Hd.
      + intros Hall. split; [intros e q Hd; eapply Hall; [left; reflexivity | exact Ek | exact Hd] |].
        intros c' ps sq st e q Hin E2 Hd. eapply Hall; [right; exact Hin | exact E2 | exact Hd]. }
  destruct G as (G1 & G2). rewrite <- G2. apply mean_nonneg; [| exact G1].
  unfold l. destruct F as [| c o cs os]; [congruence |]. destruct es as [| e es]; [congruence |]. destruct qs as [| q qs]; [congruence |]. discriminate.
Qed.
Print Assumptions C137_loss.

(** *** which chain is reported *)
(** the losses of a round, the recorded best loss of every round, and the reported parameters *)
Theorem C137_reported_partial : forall S (o : Optimizer R S) f pop st n, pop <> [] -> keeps_shape o -> Forall in_ranges pop ->
  let c := calibrate o f pop st (n + 1) in let before := ca_pop (calibrate o f pop st n) in
  ca_losses c = map f before /\ length (ca_best c) = (n + 1)%nat /\
  (forall k d, (k <= n)%nat -> In (nth k (ca_best c) 0) (map f (ca_pop (calibrate o f pop st k))) /\
               (In d (ca_pop (calibrate o f pop st k)) -> nth k (ca_best c) 0 <= f d)) /\
  exists i r0, nth_error before i = Some r0 /\ nth_error (ca_pop c) i = Some (best_params c) /\ (forall r, In r before -> f r0 <= f r) /\
    (ca_pop c = before -> forall r, In r (ca_pop c) -> f (best_params c) <= f r).
Proof.
  intros S o f pop st n Hne K F. cbn zeta. rewrite Nat.add_1_r.
  assert (Step : forall k, let c := calibrate o f pop st k in ca_losses (calib_round o f c) = map f (ca_pop c) /\
     ca_best (calib_round o f c) = ca_best c ++ [least (map f (ca_pop c))]).
  { intros k. cbn zeta. unfold calib_round, update_step. destruct (op_update _ _ _). split; reflexivity. }
  assert (Lp : forall k, length (ca_pop (calibrate o f pop st k)) = length pop) by (intros k; apply (C137_ranges S o f pop st k K F)).
  assert (Ne : forall k, map f (ca_pop (calibrate o f pop st k)) <> []).
  { intros k E. apply map_eq_nil in E. pose proof (Lp k) as L. rewrite E in L. destruct pop; [congruence | discriminate]. }
  assert (Lb : forall k, length (ca_best (calibrate o f pop st k)) = k).
  { induction k as [| k IH]; [reflexivity |]. rewrite calibrate_S, (proj2 (Step k)), app_length, IH. cbn. lia. }
  assert (Bk : forall k m, (k < m)%nat -> nth k (ca_best (calibrate o f pop st m)) 0 = least (map f (ca_pop (calibrate o f pop st k)))).
  { intros k m Hk. induction Hk as [| m Hk IH]; rewrite calibrate_S, (proj2 (Step _)).
    - rewrite app_nth2, Lb, Nat.sub_diag by (rewrite Lb; lia). reflexivity.
    - rewrite app_nth1 by (rewrite Lb; lia). exact IH. }
  assert (Least : forall k d, In d (ca_pop (calibrate o f pop st k)) -> least (map f (ca_pop (calibrate o f pop st k))) <= f d).
  { intros k d Hd. destruct (argmin_spec _ (Ne k)) as (A1 & A2 & _). apply (in_map f) in Hd. apply In_nth with (d := 0) in Hd. destruct Hd as (j & Hj & <-). apply A2. exact Hj. }
  split; [| split; [apply Lb | split]].
  - rewrite calibrate_S. apply Step.
  - intros k d Hk. rewrite Bk by lia. split; [| apply Least]. apply nth_In. apply argmin_spec, Ne.
  - set (before := ca_pop (calibrate o f pop st n)). set (c := calibrate o f pop st (Datatypes.S n)).
    assert (El : ca_losses c = map f before) by (unfold c; rewrite calibrate_S; apply Step).
    destruct (argmin_spec _ (Ne n)) as (A1 & A2 & _). fold before in A1, A2. set (i := argmin (map f before)) in *.
    assert (Hi : (i < length before)%nat) by (rewrite map_length in A1; exact A1).
    exists i, (nth i before []). split; [apply nth_error_nth'; exact Hi |].
    assert (Ec : nth_error (ca_pop c) i = Some (best_params c)).
    { unfold best_params. rewrite El. apply nth_error_nth'. fold i. unfold c. rewrite Lp. unfold before in Hi. rewrite Lp in Hi. exact Hi. }
    split; [exact Ec |].
    assert (Min : forall r, In r before -> f (nth i before []) <= f r).
    { intros r Hr. replace (f (nth i before [])) with (nth i (map f before) 0).
      - apply (in_map f) in Hr. apply In_nth with (d := 0) in Hr. destruct Hr as (j & Hj & <-). apply A2. exact Hj.
      - rewrite (nth_indep _ 0 (f [])) by exact A1. apply map_nth. }
    split; [exact Min |]. intros Same r Hr. rewrite Same in Hr, Ec. rewrite (nth_error_nth' _ [] Hi) in Ec. injection Ec as <-. apply Min. exact Hr.
Qed.
Print Assumptions C137_reported_partial.
(** the parameters reported are those of after the last update, chosen by the losses of before it: one round of Adam (whose first
    step moves every parameter by the learning rate) on a loss of one parameter.  The reported loss is not the loss of the reported
    parameters, and another chain is perfect *)
Definition sign_step : Optimizer R unit :=
  {| op_grad := fun f r => match r with M :: rest => (2 * (M - 1)) :: map (fun _ => 0) rest | [] => [] end;
     op_update := fun g st => (map (map (fun x => - (2/100) * (x / Rabs x))) g, st) |}.
Definition well : list R -> R := fun r => (nth 0 r 0 - 1) * (nth 0 r 0 - 1).
Definition chain (M : R) : list R := [M; 1/10; 1/2; 2; 3/10].
Theorem C137_reported_refuted : let c := calibrate sign_step well [chain (1005/1000); chain (102/100)] tt 1 in
  keeps_shape sign_step /\ Forall in_ranges [chain (1005/1000); chain (102/100)] /\
  least (ca_losses c) < well (best_params c) /\ exists r, In r (ca_pop c) /\ well r = 0.
Proof.
  assert (A1 : Rabs (2 * (1005/1000 - 1)) = 2 * (1005/1000 - 1)) by (apply Rabs_pos_eq; lra).
  assert (A2 : Rabs (2 * (102/100 - 1)) = 2 * (102/100 - 1)) by (apply Rabs_pos_eq; lra).
  assert (Ep : ca_pop (calibrate sign_step well [chain (1005/1000); chain (102/100)] tt 1) = [chain (985/1000); chain 1]).
  { change (calibrate sign_step well [chain (1005/1000); chain (102/100)] tt 1) with
      (calib_round sign_step well {| ca_pop := [chain (1005/1000); chain (102/100)]; ca_opt := tt; ca_losses := []; ca_best := [] |}).
    unfold calib_round, update_step. unfold apply_updates. cbn [ca_pop ca_opt sign_step op_update op_grad map chain apply_updates combine fst snd].
    rewrite A1, A2. replace (2 * (1005/1000 - 1) / (2 * (1005/1000 - 1))) with 1 by (field; lra).
    replace (2 * (102/100 - 1) / (2 * (102/100 - 1))) with 1 by (field; lra). rewrite Rabs_R0. replace (0 / 0) with 0 by (unfold Rdiv; ring).
    unfold clip. destruct lits as (-> & ->). cbn [combine map fst snd]. rewrite !nmin_R, !nmax_R. rnum.
    repeat match goal with |- context [Rmin (Rmax ?x ?l) ?h] => rewrite (Rmax_left x l) by lra; rewrite (Rmin_left x h) by lra end.
    unfold chain. f_equal; [| f_equal]; repeat (f_equal; [lra |]); f_equal; lra. }
  assert (El : ca_losses (calibrate sign_step well [chain (1005/1000); chain (102/100)] tt 1) = [well (chain (1005/1000)); well (chain (102/100))]) by reflexivity.
  assert (Am : argmin [well (chain (1005/1000)); well (chain (102/100))] = 0%nat).
  { unfold argmin, argmin_from, well. cbn [chain nth]. rnum. rcase; [lra | reflexivity]. }
  cbn zeta. split; [| split; [| split]].
  - split; [intros f [| a r]; cbn; [reflexivity | now rewrite map_length] |]. intros g st. cbn [sign_step op_update fst]. rewrite map_map. apply map_ext. intros r. apply map_length.
  - repeat constructor; do 5 eexists; (split; [reflexivity | lra]).
  - unfold least, best_params. rewrite El, Am, Ep. cbn. unfold well. cbn. lra.
  - exists (chain 1). split; [rewrite Ep; right; left; reflexivity |]. unfold well. cbn. ring.
Qed.
Print Assumptions C137_reported_refuted.
Example C137_case : in_ranges (chain 1) /\ 2000 <= 100000 /\ keeps_shape sign_step /\ increasing [0; 1] /\ interp 0 [0; 1] [3; 5] (1/2) = 4.
Proof.
  split; [do 5 eexists; split; [reflexivity | lra] |]. split; [lra |]. split; [apply C137_reported_refuted |].
  assert (I : increasing [0; 1]) by (intros [| i]; cbn; intros; [lra | lia]). split; [exact I |].
  destruct (C137_interpolation 0 [0; 1] [3; 5] (1/2) ltac:(lra) I ltac:(discriminate)) as (A & _).
  - intros [| i]; cbn; intros; [lra | lia].
  - rewrite (A 0%nat (1/2)); cbn; [lra | lia | lra | lra].
Qed.

(** ** C138: the data set *)
(** samples of the unit cube become parameters in the ranges, and every value in the ranges is the image of one sample *)
Theorem C138_samples : (forall u, length u = 5%nat -> Forall (fun x => 0 <= x <= 1) u -> in_ranges (scale_sample u)) /\
  (forall r, in_ranges r -> exists u, length u = 5%nat /\ Forall (fun x => 0 <= x <= 1) u /\ scale_sample u = r /\
     forall v, length v = 5%nat -> scale_sample v = r -> v = u).
Proof.
  assert (E : forall a b c d e, scale_sample [a; b; c; d; e] = [a * (3/2) + 1/2; b * (19/100) + 1/100; c * (8/10) + 1/10; d * (36/10) + 4/10; e * (35/100) + 1/10]).
  { intros. unfold scale_sample. destruct lits as (-> & ->). cbn [combine map fst snd]. rnum. repeat (f_equal; [lra |]). f_equal; lra. }
  split.
  - intros u L F. destruct u as [| a [| b [| c [| d [| e [|]]]]]]; try discriminate.
    repeat match goal with H : Forall _ (_ :: _) |- _ => inversion H; clear H; subst end. rewrite E. do 5 eexists. split; [reflexivity | lra].
  - intros r (M & lam & k & N & nu & -> & H1 & H2 & H3 & H4 & H5).
    exists [(M - 1/2) / (3/2); (lam - 1/100) / (19/100); (k - 1/10) / (8/10); (N - 4/10) / (36/10); (nu - 1/10) / (35/100)].
    split; [reflexivity |]. split; [repeat (apply Forall_cons; [lra |]); apply Forall_nil |]. split; [rewrite E; repeat (f_equal; [lra |]); f_equal; lra |].
    intros v L. destruct v as [| a [| b [| c [| d [| e [|]]]]]]; try discriminate. rewrite E. intros [= <- <- <- <- <-]. repeat (f_equal; [lra |]). f_equal; lra.
Qed.
Print Assumptions C138_samples.

(** every sample yields complete sequences, one entry per step, in both modes *)
Lemma sequences_inv X svd pr params c sq : sequences X svd pr params c = Ok sq -> exists s out pts es,
  initial (config params c) = Ok s /\ tx_run X (test_of pr (config params c)) s = Ok out /\ Forall2 (fun s p => sb_pts (fst s) = [p]) out pts /\
  axial_strain_stack (test_of pr (config params c)) = Ok es /\ length pts = pr_steps pr /\
  sq = {| sq_axial := map (fun e => (e * nofZ 100)%num) es; sq_stress := map (fun p => mmap (fun x => (x / nofZ 1000)%num) (pt_stress p)) pts;
          sq_strain := map (eps_of svd) pts |}.
Proof.
  unfold sequences. intros E. apply rbind_ok in E. destruct E as (s & Es & E). destruct (run_test X pr (config params c) s Es) as (out & pts & Eo & Ep & _ & Lp & F).
  rewrite Eo in E. cbn [rbind] in E. rewrite Ep in E. cbn [rbind] in E. apply rbind_ok in E. destruct E as (es & Ee & E). injection E as <-.
  exists s, out, pts, es. auto 10.
Qed.
Theorem C138_complete : forall (X : Ext R) svd pr params c, exists sq, sequences X svd pr params c = Ok sq /\
  length (sq_axial sq) = pr_steps pr /\ length (sq_stress sq) = pr_steps pr /\ length (sq_strain sq) = pr_steps pr.
Proof.
  intros X svd pr params c. destruct (initial_ready (config params c)) as (s & Es & _).
  destruct (run_test X pr (config params c) s Es) as (out & pts & Eo & Ep & _ & Lp & _). destruct (strain_stack_const pr (config params c)) as (es & Ee & Le & _).
  unfold sequences. rewrite Es. cbn [rbind]. rewrite Eo. cbn [rbind]. rewrite Ep. cbn [rbind]. rewrite Ee. cbn [rbind].
  eexists. split; [reflexivity |]. cbn [sq_axial sq_stress sq_strain]. rewrite !map_length. auto.
Qed.
Print Assumptions C138_complete.

(** the stresses stored are those of the states after each step, in kPa, and the strains those of the same states *)
Theorem C138_units : forall (X : Ext R) svd pr params c sq, sequences X svd pr params c = Ok sq -> exists s out, initial (config params c) = Ok s /\ tx_run X (test_of pr (config params c)) s = Ok out /\ length out = pr_steps pr /\ forall j s' p, nth_error out j = Some s' -> sb_pts (fst s') = [p] ->
    mscale 1000 (nth j (sq_stress sq) mzero) = pt_stress p /\ nth j (sq_strain sq) mzero = get_hencky_strain svd (pt_F p).
Proof.
  intros X svd pr params c sq E. destruct (sequences_inv X svd pr params c sq E) as (s & out & pts & es & Es & Eo & F & _ & Lp & ->). exists s, out.
  split; [exact Es |]. split; [exact Eo |]. split; [rewrite <- Lp; clear -F; induction F; cbn; congruence |]. intros j s' p Ej Hp.
  pose proof (snapshot_pt out pts j s' p F Ej Hp) as En. cbn [sq_stress sq_strain].
  rewrite (nth_error_nth _ _ mzero (map_nth_error _ _ _ En)), (nth_error_nth _ _ mzero (map_nth_error _ _ _ En)). split; [| reflexivity].
  destruct (pt_stress p). unfold mscale, mmap. cbn. rnum. f_equal; field.
Qed.
Print Assumptions C138_units.

(** the stored strain tensors of an undrained sample: isochoric, with the axial strain applied so far *)
Lemma eps_diag svd (F : mat3 R) w e : (forall F, is_svd (svd F) F) -> F = mmul (mdiag (exp w) (exp w) (exp (- e))) meye ->
  / 10 ^ 12 <= exp w -> / 10 ^ 12 <= exp (- e) -> get_hencky_strain svd F = mdiag (- w) (- w) e.
Proof.
  intros D E A B. rewrite (C117_principal svd F meye (exp w) (exp w) (exp (- e)) (D F) orth_eye); try assumption.
  - rewrite !ln_exp. unfold turned. rewrite Ropp_involutive. meq.
  - rewrite E. unfold turned. meq.
Qed.
Lemma small_ok x : - 1 <= x -> / 10 ^ 12 <= exp x.
Proof.
  intros Hx. apply Rle_trans with (exp (-1)).
  - replace (exp (-1)) with (/ exp 1) by (rewrite <- exp_Ropp; f_equal; ring). apply Rinv_le_contravar; [apply exp_pos |]. apply Rle_trans with 3; [apply exp_le_3 |]. 
    simpl. lra.
  - destruct (Req_dec x (-1)) as [-> |]; [lra |]. left. apply exp_increasing. lra.
Qed.
Lemma snapshot_F X pr params c s out pts j p : expm X = expmR -> initial (config params c) = Ok s ->
  tx_run X (test_of pr (config params c)) s = Ok out -> Forall2 (fun s p => sb_pts (fst s) = [p]) out pts -> nth_error pts j = Some p ->
  exists w, pt_F p = mmul (mdiag (exp w) (exp w) (exp (- (INR (j + 1) * (pr_rate pr * pr_dt pr))))) meye /\
    (pr_undrained pr = true -> w = INR (j + 1) * (pr_rate pr * pr_dt pr) / 2).
Proof.
  intros EX Es Eo F Ej. set (t := test_of pr (config params c)) in *.
  assert (Ej2 : exists s', nth_error out j = Some s' /\ sb_pts (fst s') = [p]).
  { revert j Ej. clear -F. induction F as [| a b l m H _ IH]; intros [| j] E; try discriminate; cbn in *; [injection E as <-; eauto | eauto]. }
  destruct Ej2 as (s' & Eo' & Ep). destruct (run_inv X t s out (pr_steps pr) eq_refl Eo) as (_ & _ & _ & Hj). specialize (Hj j s' Eo').
  destruct (run_stretched X t s _ s' EX Hj) as (w & G & U).
  assert (Ei : exists p0, sb_pts (fst s) = [p0] /\ pt_F p0 = meye) by (unfold initial in Es; cbn in Es; injection Es as <-; cbn; eauto).
  destruct Ei as (p0 & E0 & EF). rewrite E0, Ep in G. inversion G as [| ? ? ? ? (H1 & _) _]; subst. exists w.
  rewrite (strain_const t (pr_rate pr) (pr_dt pr) eq_refl eq_refl eq_refl) in *. cbn [t test_of tx_stride] in *. rewrite Nat.mul_1_r in *.
  split; [rewrite H1, EF; reflexivity | exact U].
Qed.
Theorem C138_undrained : forall (X : Ext R) svd pr params c sq j, expm X = expmR -> (forall F, is_svd (svd F) F) -> pr_undrained pr = true ->
  0 <= pr_rate pr * pr_dt pr -> pr_rate pr * pr_dt pr * INR (pr_steps pr) <= 1 -> sequences X svd pr params c = Ok sq -> (j < pr_steps pr)%nat ->
  let e := INR (j + 1) * (pr_rate pr * pr_dt pr) in nth j (sq_strain sq) mzero = mdiag (- (e / 2)) (- (e / 2)) e /\ mtrace (nth j (sq_strain sq) mzero) = 0.
Proof.
  intros X svd pr params c sq j EX D U Hp Hn E Hj. cbn zeta. destruct (sequences_inv X svd pr params c sq E) as (s & out & pts & es & Es & Eo & F & _ & Lp & ->).
  destruct (nth_error pts j) as [p |] eqn:Ej; [| apply nth_error_None in Ej; lia].
  destruct (snapshot_F X pr params c s out pts j p EX Es Eo F Ej) as (w & EF & W). specialize (W U). cbn [sq_strain].
  rewrite (nth_error_nth _ _ mzero (map_nth_error (eps_of svd) _ _ Ej)). unfold eps_of.
  assert (B : 0 <= INR (j + 1) <= INR (pr_steps pr)) by (split; [apply pos_INR | apply le_INR; lia]).
  rewrite (eps_diag svd _ w _ D EF).
  - rewrite W. split; [reflexivity |]. unfold mtrace, mdiag. cbn. rnum. field.
  - apply small_ok. rewrite W. nra.
  - apply small_ok. nra.
Qed.
Print Assumptions C138_undrained.
(** the axial strains stored beside them are others, in both modes: at every step but the last they fall short of the strain tensor, by up to
    one step *)
Theorem C138_axial_refuted : forall (X : Ext R) svd pr params c sq j, expm X = expmR -> (forall F, is_svd (svd F) F) ->
  0 < pr_rate pr * pr_dt pr -> pr_rate pr * pr_dt pr * INR (pr_steps pr) <= 1 -> (2 <= pr_steps pr)%nat -> sequences X svd pr params c = Ok sq ->
  (j < pr_steps pr)%nat -> (pr_undrained pr = true \/ forall s out p, initial (config params c) = Ok s ->
     tx_run X (test_of pr (config params c)) s = Ok out -> (exists s', nth_error out j = Some s' /\ sb_pts (fst s') = [p]) -> / 10 ^ 12 <= m00 (pt_F p)) ->
  nth j (sq_axial sq) 0 = 100 * m22 (nth j (sq_strain sq) mzero) - 100 * (pr_rate pr * pr_dt pr) * (1 - INR j / INR (pr_steps pr - 1)) /\
  ((j < pr_steps pr - 1)%nat -> nth j (sq_axial sq) 0 < 100 * m22 (nth j (sq_strain sq) mzero)).
Proof.
  intros X svd pr params c sq j EX D Hp Hn H2 E Hj Hlat. destruct (sequences_inv X svd pr params c sq E) as (s & out & pts & es & Es & Eo & F & Ee & Lp & ->).
  destruct (nth_error pts j) as [p |] eqn:Ej; [| apply nth_error_None in Ej; lia].
  destruct (snapshot_F X pr params c s out pts j p EX Es Eo F Ej) as (w & EF & W). cbn [sq_strain sq_axial].
  rewrite (nth_error_nth _ _ mzero (map_nth_error (eps_of svd) _ _ Ej)). unfold eps_of.
  assert (B : 0 <= INR (j + 1) <= INR (pr_steps pr)) by (split; [apply pos_INR | apply le_INR; lia]).
  assert (Ew : / 10 ^ 12 <= exp w).
  { destruct Hlat as [U | Hl]; [apply small_ok; rewrite (W U); nra |].
    assert (Ej2 : exists s', nth_error out j = Some s' /\ sb_pts (fst s') = [p]).
    { clear -F Ej. revert j Ej. induction F as [| a b l m H _ IH]; intros [| j] E; try discriminate; cbn in *; [injection E as <-; eauto | eauto]. }
    specialize (Hl s out p Es Eo Ej2). rewrite EF in Hl. cbn in Hl. rnum. lra. }
  rewrite (eps_diag svd _ w _ D EF Ew) by (apply small_ok; nra). cbn [mdiag m22].
  destruct (strain_stack_const pr (config params c)) as (es' & Ee' & Le & Ne). assert (es' = es) by congruence. subst es'.
  rewrite (nth_indep _ 0 ((fun e => (e * nofZ 100)%num) 0)) by (rewrite map_length; lia). rewrite (map_nth (fun e => (e * nofZ 100)%num)), Ne by exact Hj.
  assert (I1 : 0 < INR (pr_steps pr - 1)) by (apply lt_0_INR; lia).
  assert (En : INR (pr_steps pr) = INR (pr_steps pr - 1) + 1) by (rewrite <- S_INR; f_equal; lia).
  rewrite plus_INR. change (INR 1) with 1. rewrite En.
  assert (Eq : (pr_rate pr * pr_dt pr * (INR (pr_steps pr - 1) + 1) * (INR j / INR (pr_steps pr - 1)) * nofZ 100)%num =
     100 * ((INR j + 1) * (pr_rate pr * pr_dt pr)) - 100 * (pr_rate pr * pr_dt pr) * (1 - INR j / INR (pr_steps pr - 1))) by (rnum; field; lra).
  split; [exact Eq |]. intros Hlt. eapply Rle_lt_trans; [right; exact Eq |]. assert (L : INR j / INR (pr_steps pr - 1) < 1).
  { apply Rmult_lt_reg_r with (INR (pr_steps pr - 1)); [exact I1 |]. unfold Rdiv. rewrite Rmult_assoc, Rinv_l, Rmult_1_r, Rmult_1_l by lra. apply lt_INR. exact Hlt. }
  nra.
Qed.
Print Assumptions C138_axial_refuted.
(** the two modes: undrained samples reach 20 percent axial strain in 1000 equal steps without any change of volume, drained ones move the lateral
    faces at the rate found by the Newton iteration *)
Theorem C138_modes : forall (X : Ext R) svd params c, expm X = expmR -> (forall F, is_svd (svd F) F) ->
  (forall sq j, sequences X svd (mode_procedure Undrained) params c = Ok sq -> (j < Z.to_nat 1000)%nat ->
     m22 (nth j (sq_strain sq) mzero) = INR (j + 1) / 5000 /\ mtrace (nth j (sq_strain sq) mzero) = 0) /\
  (forall s i, let t := test_of (mode_procedure Drained) (config params c) in
     tx_step X t s i = drive X (tx_driver t) (fst s) (snd s) [rates (lateral_drained X t s (2/100) (1/100)) (2/100)] (1/100) false).
Proof.
  intros X svd params c EX D. split; [| intros s i; reflexivity]. intros sq j E Hj.
  destruct (C138_undrained X svd (mode_procedure Undrained) params c sq j EX D eq_refl) as [A B].
  - unfold mode_procedure. cbn [pr_rate pr_dt]. unfold lit. rnum. lra.
  - unfold mode_procedure. cbn [pr_rate pr_dt pr_steps]. rewrite INR_IZR_INZ, Z2Nat.id by lia. unfold lit. rnum. lra.
  - exact E.
  - exact Hj.
  - split; [| exact B]. rewrite A. unfold mode_procedure, mdiag. cbn [m22 pr_rate pr_dt]. unfold lit. rnum. field.
Qed.
Print Assumptions C138_modes.
(** the samples called drained keep the mean stress, not the lateral stress, at the confinement: where the equation solved for the lateral rate
    holds and there is any shear, the lateral stress is not the confinement *)
Theorem C138_drained_refuted : forall (X : Ext R) params c s rate dt lat b ls p,
  let t := test_of (mode_procedure Drained) (config params c) in
  drive X (tx_driver t) (fst s) (snd s) [rates lat rate] dt false = Ok (b, ls) -> sb_pts b = [p] -> residual X t s rate dt lat = 0 ->
  mean3 (pt_stress p) = c /\ (m00 (pt_stress p) = m11 (pt_stress p) -> m22 (pt_stress p) <> m00 (pt_stress p) -> m00 (pt_stress p) <> c).
Proof.
  intros X params c s rate dt lat b ls p t E Ep Er. unfold residual in Er. rewrite E, Ep in Er. cbn [t test_of mode_procedure tx_p_constant pr_p_constant tx_confine] in Er.
  unfold mtrace in Er. cbn in Er. rnum. unfold mean3. split; [lra |]. intros H1 H2 H3. apply H2. lra.
Qed.
Print Assumptions C138_drained_refuted.
Example C138_case : let pr := {| pr_steps := 3; pr_rate := 2/100; pr_undrained := true; pr_p_constant := false; pr_dt := 1/100 |} in
  in_ranges (scale_sample [0; 1; 1/2; 1/3; 1/4]) /\ pr_undrained pr = true /\ 0 < pr_rate pr * pr_dt pr /\ pr_rate pr * pr_dt pr * INR (pr_steps pr) <= 1 /\
  exists sq, sequences XR (fun F => mkSVD meye (V3 0 0 0) meye) pr (scale_sample [0; 1; 1/2; 1/3; 1/4]) 100000 = Ok sq.
Proof.
  cbn zeta. split; [apply C138_samples; [reflexivity | repeat (apply Forall_cons; [lra |]); apply Forall_nil] |]. split; [reflexivity |]. split; [cbn; lra |]. split; [cbn; lra |].
  destruct (C138_complete XR (fun F => mkSVD meye (V3 0 0 0) meye) {| pr_steps := 3; pr_rate := 2/100; pr_undrained := true; pr_p_constant := false; pr_dt := 1/100 |}
    (scale_sample [0; 1; 1/2; 1/3; 1/4]) 100000) as (sq & E & _). eauto.
Qed.
