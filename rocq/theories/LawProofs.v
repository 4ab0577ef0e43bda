(** Facts about the constitutive laws over the reals. *)
From Coq Require Import List Arith ZArith Reals Bool Lra Lia.
From Verif Require Import Num NumR Linalg Arrays ModelGrid ModelShape ModelMath ModelState ModelLaws Sums ResFacts SpecMath MathProofs SpecLaws.
Import ListNotations.
Local Open Scope R_scope.

(** ** Updates point by point *)
Lemma nth_map_combine {A B C} (f : A * B -> C) (l : list A) (m : list B) i a b c : length l = length m -> (i < length l)%nat ->
  nth i (map f (combine l m)) c = f (nth i l a, nth i m b).
Proof.
  intros E H. rewrite (nth_indep _ c (f (a, b))) by (rewrite map_length, combine_length; lia).
  rewrite map_nth. f_equal. rewrite combine_nth by exact E. reflexivity.
Qed.
Section Updates.
Context {T : Type} `{NumT T}.
Lemma set_stress_stress (p : Particle T) s : pt_stress (set_stress p s) = s.
Proof. reflexivity. Qed.

Lemma le_update_nth (m : LinearElastic T) b st dt b' st' d i : law_update (LawLE m) b st dt = Ok (b', st') -> (i < length (sb_pts b))%nat ->
  let p := nth i (sb_pts b) d in
  st' = st /\ length (sb_pts b') = length (sb_pts b) /\ nth i (sb_pts b') d = set_stress p (le_stress m (pt_L p) (pt_stress p) dt).
Proof.
  simpl. intros E Hi. injection E as <- <-. split; [reflexivity|]. simpl. split; [apply map_length|].
  set (f := fun p => set_stress p (le_stress m (pt_L p) (pt_stress p) dt)).
  rewrite (nth_indep _ d (f d)) by (rewrite map_length; lia). rewrite map_nth. reflexivity.
Qed.
Lemma nf_update_nth (m : Newton T) b st dt b' st' d i : law_update (LawNewton m) b st dt = Ok (b', st') -> (i < length (sb_pts b))%nat ->
  let p := nth i (sb_pts b) d in exists r, st = Some (LS_Rho r) /\ length r = length (sb_pts b) /\
  st' = st /\ nth i (sb_pts b') d = set_stress p (nf_stress m (pt_L p) (pt_mass p) (pt_vol p) (nth i r n0)).
Proof.
  simpl. destruct st as [[| r | |]|]; try discriminate. destruct (sb_vol0d b); simpl; try discriminate.
  destruct (Nat.eqb_spec (length r) (length (sb_pts b))); simpl; try discriminate.
  intros E Hi. injection E as <- <-. exists r. repeat split; auto. simpl.
  rewrite (nth_map_combine _ _ _ _ d n0 d) by auto. reflexivity.
Qed.
Lemma mi_update_nth (m : MuI T) b st dt b' st' d i : law_update (LawMuI m) b st dt = Ok (b', st') -> (i < length (sb_pts b))%nat ->
  let p := nth i (sb_pts b) d in exists r, st = Some (LS_Rho r) /\ length r = length (sb_pts b) /\
  st' = st /\ nth i (sb_pts b') d = set_stress p (mi_stress m (pt_L p) (pt_mass p) (pt_vol p) (nth i r n0)).
Proof.
  simpl. destruct st as [[| r | |]|]; try discriminate. destruct (sb_vol0d b); simpl; try discriminate.
  destruct (Nat.eqb_spec (length r) (length (sb_pts b))); simpl; try discriminate.
  intros E Hi. injection E as <- <-. exists r. repeat split; auto. simpl.
  rewrite (nth_map_combine _ _ _ _ d n0 d) by auto. reflexivity.
Qed.
Lemma dp_update_nth (m : DruckerPrager T) b st dt b' st' d i : law_update (LawDP m) b st dt = Ok (b', st') -> (i < length (sb_pts b))%nat ->
  let p := nth i (sb_pts b) d in exists ds ds', st = Some (LS_DP ds) /\ st' = Some (LS_DP ds') /\ length ds = length (sb_pts b) /\
  forall x, let s := nth i ds x in
  let r := dp_stress m (pt_L p) (dp_eps_e s) (dp_acc s) (dp_p0 s) (density p) dt in
  nth i (sb_pts b') d = set_stress p (fst (fst r)) /\ nth i ds' x = {| dp_eps_e := snd (fst r); dp_acc := snd r; dp_p0 := dp_p0 s |}.
Proof.
  cbn -[dp_stress density]. destruct st as [[| | ds |]|]; try discriminate.
  destruct (Nat.eqb_spec (length ds) (length (sb_pts b))) as [El|]; simpl negb; cbv iota; try discriminate.
  intros E Hi. injection E as <- <-. exists ds. eexists. split; [reflexivity|split; [reflexivity|split; [exact El|]]]. intro x.
  cbn -[dp_stress density].
  set (f := fun pd : Particle T * DPPoint T => dp_stress m (pt_L (fst pd)) (dp_eps_e (snd pd)) (dp_acc (snd pd)) (dp_p0 (snd pd)) (density (fst pd)) dt).
  assert (Lr : length (map f (combine (sb_pts b) ds)) = length (sb_pts b)) by (rewrite map_length, combine_length; lia).
  assert (N : nth i (map f (combine (sb_pts b) ds)) (f (d, x)) = f (nth i (sb_pts b) d, nth i ds x)) by (apply nth_map_combine; auto).
  split.
  - rewrite (nth_map_combine _ _ _ _ d (f (d, x)) d) by auto. rewrite N. reflexivity.
  - rewrite (nth_map_combine _ _ _ _ x (f (d, x)) x) by (rewrite ?Lr; auto; lia). rewrite N. reflexivity.
Qed.
Lemma mcc_update_nth (m : MCC T) b st dt b' st' i : law_update (LawMCC m) b st dt = Ok (b', st') -> (i < length (sb_pts b))%nat ->
  forall d, let p := nth i (sb_pts b) d in exists pc sref ee pc' ee', st = Some (LS_MCC pc (Some sref) ee) /\ st' = Some (LS_MCC pc' (Some sref) ee') /\
  length pc = length (sb_pts b) /\
  let r := mcc_stress m (pt_L p) (nth i ee mzero) (pt_stress p) (nth i pc n0) (nth i sref mzero) (mc_rho_p m / density p)%num dt in
  nth i (sb_pts b') d = set_stress p (fst (fst r)) /\ nth i ee' mzero = snd (fst r) /\ nth i pc' n0 = snd r.
Proof.
  cbn -[mcc_stress density nth seq]. destruct st as [[| | | pc [sref|] ee]|]; try discriminate.
  destruct (Nat.eqb_spec (length pc) (length (sb_pts b))) as [El|]; simpl negb; cbv iota; try discriminate.
  destruct (Nat.eqb_spec (length sref) (length (sb_pts b))) as [El2|]; simpl negb; cbv iota; try discriminate.
  destruct (Nat.eqb_spec (length ee) (length (sb_pts b))) as [El3|]; simpl negb; cbv iota; try discriminate.
  intros E Hi d. injection E as <- <-. exists pc, sref, ee. do 2 eexists. split; [reflexivity|split; [reflexivity|split; [exact El|]]].
  cbn -[mcc_stress density nth seq].
  set (d0 := {| pt_pos := _ |}).
  set (f := fun i => mcc_stress m (pt_L (nth i (sb_pts b) d0)) (nth i ee mzero) (pt_stress (nth i (sb_pts b) d0)) (nth i pc n0) (nth i sref mzero)
              (mc_rho_p m / density (nth i (sb_pts b) d0))%num dt).
  change (map _ (seq 0 (length (sb_pts b)))) with (map f (seq 0 (length (sb_pts b)))).
  assert (Lr : length (map f (seq 0 (length (sb_pts b)))) = length (sb_pts b)) by (rewrite map_length, seq_length; lia).
  assert (N : nth i (map f (seq 0 (length (sb_pts b)))) (f 0%nat) = f i).
  { rewrite map_nth. rewrite seq_nth by lia. reflexivity. }
  assert (F : f i = mcc_stress m (pt_L (nth i (sb_pts b) d)) (nth i ee mzero) (pt_stress (nth i (sb_pts b) d)) (nth i pc n0) (nth i sref mzero)
              (mc_rho_p m / density (nth i (sb_pts b) d))%num dt).
  { unfold f. rewrite (nth_indep _ d0 d) by exact Hi. reflexivity. }
  rewrite <- F. split; [|split].
  - rewrite (nth_map_combine _ _ _ _ d (f 0%nat) d) by (rewrite ?Lr; auto). rewrite N. reflexivity.
  - rewrite (nth_indep _ mzero ((fun r => snd (fst r)) (f 0%nat))) by (rewrite map_length, Lr; exact Hi). rewrite (map_nth (fun r => snd (fst r))). rewrite N. reflexivity.
  - rewrite (nth_indep _ n0 (snd (f 0%nat))) by (rewrite map_length, Lr; exact Hi). rewrite map_nth. rewrite N. reflexivity.
Qed.

End Updates.

(** ** Tensors *)
Lemma mean_split (s : mat3 R) p : mtrace s = 0 -> mean3 (madd s (mscale p meye)) = p.
Proof. destruct s; mcbv. lra. Qed.
Lemma dev_split (s : mat3 R) p : mtrace s = 0 -> deviator (madd s (mscale p meye)) = s.
Proof. destruct s; intro; apply mat3_eq; mcbv; lra. Qed.
Lemma mean_split' (s : mat3 R) p : mtrace s = 0 -> mean3 (madd (mscale p meye) s) = p.
Proof. destruct s; mcbv. lra. Qed.
Lemma dev_split' (s : mat3 R) p : mtrace s = 0 -> deviator (madd (mscale p meye) s) = s.
Proof. destruct s; intro; apply mat3_eq; mcbv; lra. Qed.
Lemma trace_deviator (s : mat3 R) : mtrace (deviator s) = 0.
Proof. destruct s; mcbv. field. Qed.
Lemma trace_scale k (s : mat3 R) : mtrace (mscale k s) = k * mtrace s.
Proof. destruct s; mcbv. ring. Qed.
Lemma rate_sym L : mscale (lit 1 2) (madd L (mtrans L)) = rate L.
Proof. destruct L; apply mat3_eq; unfold rate; mcbv; field. Qed.
Lemma dev_rate_spec L : dev_rate L = deviator (rate L).
Proof. unfold dev_rate. rewrite rate_sym. destruct (rate L); meq. Qed.

(** ** Linear elasticity *)
Lemma le_stress_eq m (L s : mat3 R) dt : le_stress m L s dt =
  madd s (madd (spherical (le_lam m * (dt * (m00 L + m11 L + m22 L)))) (mscale (2 * le_G m * dt) (rate L))).
Proof. unfold le_stress, rate. destruct L, s; meq. Qed.
Lemma le_history m hist : forall s0 : mat3 R,
  fold_left (fun s h => le_stress m (fst h) s (snd h)) hist s0 = le_stress m (total_gradient hist) s0 1.
Proof.
  induction hist as [|[L dt] r IH]; intro s0.
  - simpl. rewrite le_stress_eq. destruct s0; apply mat3_eq; unfold rate; mcbv; field.
  - simpl fold_left. rewrite IH. cbn [total_gradient]. rewrite !le_stress_eq. destruct L, s0. unfold rate.
    apply mat3_eq; mcbv; field.
Qed.
Lemma turned_sph Q k : orthogonal Q -> turned Q (spherical k) = spherical k.
Proof.
  intros (O & _). transitivity (mscale k (mmul Q (mtrans Q))).
  - unfold turned. destruct Q; meq.
  - rewrite O. meq.
Qed.
Lemma turned_add Q (a b : mat3 R) : turned Q (madd a b) = madd (turned Q a) (turned Q b).
Proof. unfold turned. destruct Q, a, b; meq. Qed.
Lemma turned_scale Q k (a : mat3 R) : turned Q (mscale k a) = mscale k (turned Q a).
Proof. unfold turned. destruct Q, a; meq. Qed.
Lemma turned_rate Q L : rate (turned Q L) = turned Q (rate L).
Proof. rewrite <- !rate_sym. rewrite turned_scale, turned_add. do 2 f_equal. unfold turned. destruct Q, L; meq. Qed.
Lemma trace_cyc (a b : mat3 R) : mtrace (mmul a b) = mtrace (mmul b a).
Proof. destruct a, b; mcbv. ring. Qed.
Lemma mmul_assoc (a b c : mat3 R) : mmul (mmul a b) c = mmul a (mmul b c).
Proof. destruct a, b, c; meq. Qed.
Lemma mmul_eye_l (a : mat3 R) : mmul meye a = a.
Proof. destruct a; meq. Qed.
Lemma turned_trace Q (a : mat3 R) : orthogonal Q -> mtrace (turned Q a) = mtrace a.
Proof. intros (_ & O). unfold turned. rewrite trace_cyc, <- mmul_assoc, O, mmul_eye_l. reflexivity. Qed.
Lemma le_isotropic m Q (L s : mat3 R) dt : orthogonal Q -> le_stress m (turned Q L) (turned Q s) dt = turned Q (le_stress m L s dt).
Proof.
  intro O. rewrite !le_stress_eq, !turned_add, turned_scale, turned_rate, turned_sph by exact O.
  do 2 f_equal. f_equal. do 2 f_equal. pose proof (turned_trace Q L O) as E. unfold mtrace in E. exact E.
Qed.

(** ** mu(I) *)
Lemma mi_dev L : (let D := mscale (lit 1 2) (madd L (mtrans L)) in msub D (mscale (mtrace D / n3)%num meye)) = deviator (rate L).
Proof. cbv zeta. rewrite rate_sym. destruct (rate L); meq. Qed.
Lemma mi_gamma_spec L : mi_gamma (deviator (rate L)) = shear_rate L.
Proof. reflexivity. Qed.
Lemma mi_stress_eq m (L : mat3 R) mass vol rho0 : mi_stress m L mass vol rho0 =
  if Rltb 1 (mass / vol / rho0) then
    madd (mscale (mi_psafe m (mass / vol / rho0)) meye) (mscale (mi_eta m (mi_psafe m (mass / vol / rho0)) (shear_rate L)) (deviator (rate L)))
  else mzero.
Proof.
  unfold mi_stress. change (@numt_num R NumT_R) with Num_R. pose proof (mi_dev L) as E. cbv zeta in E. cbv zeta. rewrite E, mi_gamma_spec. reflexivity.
Qed.

(** ** Drucker-Prager *)
Lemma tr_s_trace (m : DruckerPrager R) L e acc p0 dt : mtrace (tr_s (dp_trial m L e acc p0 dt)) = 0.
Proof.
  unfold dp_trial; simpl tr_s. unfold get_volumetric_strain. rewrite dev_strain_given. rewrite trace_scale, trace_deviator. ring.
Qed.
Lemma lit12 : lit 1 (10 ^ 12) = / 10 ^ 12.
Proof. unfold lit; rnum. replace (IZR (10 ^ 12)) with 1000000000000 by reflexivity. simpl. lra. Qed.
Lemma tr_sj_eq (m : DruckerPrager R) L e acc p0 dt : let t := dp_trial m L e acc p0 dt in
  tr_sj t = sqrt (Rmax (frob2 (tr_s t) / 2) (/ 10 ^ 12)).
Proof.
  cbv zeta. unfold dp_trial; cbn [tr_sj tr_s]. change (@numt_num R NumT_R) with Num_R; rewrite nmax_R, lit12, J2_dev_frob. reflexivity.
Qed.
Lemma tr_sj_pos (m : DruckerPrager R) L e acc p0 dt : let t := dp_trial m L e acc p0 dt in
  0 < tr_sj t /\ sqrt (frob2 (tr_s t) / 2) <= tr_sj t.
Proof.
  cbv zeta. rewrite tr_sj_eq. assert (0 < / 10 ^ 12) by (apply Rinv_0_lt_compat, pow_lt; lra). split.
  - apply sqrt_lt_R0. pose proof (Rmax_r (frob2 (tr_s (dp_trial m L e acc p0 dt)) / 2) (/ 10 ^ 12)). lra.
  - apply sqrt_le_1_alt, Rmax_l.
Qed.
Lemma tr_yf_eq (m : DruckerPrager R) L e acc p0 dt : let t := dp_trial m L e acc p0 dt in
  tr_yf t = tr_sj t - dp_mu1 m * tr_p t - dp_mu2 m * (dp_c0 m + dp_H m * acc).
Proof. reflexivity. Qed.
Lemma sqrt_J2_scaled k s : 0 <= k -> sqrt (frob2 (mscale k s) / 2) = k * sqrt (frob2 s / 2).
Proof.
  intro K. rewrite frob2_scale. replace (k * k * frob2 s / 2) with ((k * k) * (frob2 s / 2)) by field.
  pose proof (frob2_nonneg s). rewrite sqrt_mult_alt by nra. rewrite sqrt_square by exact K. reflexivity.
Qed.
Lemma dp_multi_eq m yf : dp_multi m yf = yf / (dp_G m + dp_K m * dp_mu1 m * dp_mu1h m + dp_H m * dp_mu2 m * dp_mu2 m).
Proof. reflexivity. Qed.

(** yield value after a return to the cone *)
Lemma dp_cone_yield (m : DruckerPrager R) L e acc p0 dt : let t := dp_trial m L e acc p0 dt in
  let D := dp_G m + dp_K m * dp_mu1 m * dp_mu1h m + dp_H m * dp_mu2 m * dp_mu2 m in 0 < D -> 0 <= dp_G m ->
  0 < tr_yf t -> 0 <= tr_sj t - dp_G m * dp_multi m (tr_yf t) ->
  let r := dp_cone m t acc p0 in
  let y := dp_yield (dp_mu1 m) (dp_mu2 m) (dp_c0 m) (dp_H m) (fst (fst r)) (snd r) in
  y <= tr_yf t * (2 * dp_K m * dp_mu1 m * dp_mu1h m / D) /\
  (/ 10 ^ 12 <= frob2 (tr_s t) / 2 -> y = tr_yf t * (2 * dp_K m * dp_mu1 m * dp_mu1h m / D)).
Proof.
  intros t D HD HG Hy Hs r y.
  destruct (tr_sj_pos m L e acc p0 dt) as (Sp & Sle). fold t in Sp, Sle.
  pose proof (tr_s_trace m L e acc p0 dt) as Tr. fold t in Tr.
  pose proof (tr_yf_eq m L e acc p0 dt) as Ey. cbv zeta in Ey. fold t in Ey.
  set (g := dp_multi m (tr_yf t)) in *. assert (Eg : g = tr_yf t / D) by reflexivity.
  assert (Gg : 0 <= g) by (rewrite Eg; apply Rlt_le, Rdiv_lt_0_compat; assumption).
  set (k := 1 - dp_G m * g / tr_sj t).
  assert (Kp : 0 <= k).
  { assert (dp_G m * g / tr_sj t <= 1); [|unfold k; lra]. apply (Rmult_le_reg_r (tr_sj t)); [exact Sp|]. unfold Rdiv. rewrite Rmult_assoc, Rinv_l by lra. lra. }
  assert (Es : fst (fst r) = madd (mscale k (tr_s t)) (mscale (tr_p t - dp_K m * g * dp_mu1h m) meye)) by reflexivity.
  assert (Ea : snd r = acc + dp_mu2 m * g) by reflexivity.
  assert (Tk : mtrace (mscale k (tr_s t)) = 0) by (rewrite trace_scale, Tr; ring).
  assert (Yv : y = k * sqrt (frob2 (tr_s t) / 2) - dp_mu1 m * (tr_p t - dp_K m * g * dp_mu1h m)
                   - dp_mu2 m * (dp_c0 m + dp_H m * (acc + dp_mu2 m * g))).
  { unfold y, dp_yield, J2_of. rewrite Es, Ea, dev_split, mean_split by exact Tk. rewrite sqrt_J2_scaled by exact Kp. reflexivity. }
  assert (Kj : k * tr_sj t = tr_sj t - dp_G m * g) by (unfold k; field; lra).
  assert (Tot : tr_sj t - dp_G m * g - dp_mu1 m * (tr_p t - dp_K m * g * dp_mu1h m) - dp_mu2 m * (dp_c0 m + dp_H m * (acc + dp_mu2 m * g))
                = tr_yf t * (2 * dp_K m * dp_mu1 m * dp_mu1h m / D)).
  { transitivity (tr_yf t - g * (dp_G m - dp_K m * dp_mu1 m * dp_mu1h m + dp_H m * dp_mu2 m * dp_mu2 m)); [rewrite Ey; ring|].
    rewrite Eg. unfold D. field. unfold D in HD. lra. }
  split.
  - rewrite Yv, <- Tot. assert (k * sqrt (frob2 (tr_s t) / 2) <= k * tr_sj t) by (apply Rmult_le_compat_l; assumption). lra.
  - intro Big. rewrite Yv, <- Tot, <- Kj. do 3 f_equal. unfold t. rewrite tr_sj_eq. fold t. rewrite Rmax_left by exact Big. reflexivity.
Qed.
Lemma mean_sph k : mean3 (mscale k meye) = k.
Proof. mcbv. lra. Qed.
Lemma dev_sph k : deviator (mscale k meye) = mzero.
Proof. apply mat3_eq; mcbv; lra. Qed.
Lemma J2_sph k : J2_of (mscale k meye) = 0.
Proof. unfold J2_of. rewrite dev_sph. mcbv. lra. Qed.

Lemma dp_apex_yield (m : DruckerPrager R) t acc p0 : 
  let al := dp_mu2 m / Rmax (dp_mu1 m) (/ 10 ^ 8) in
  / 10 ^ 12 <= dp_K m * dp_mu1 m - dp_H m * dp_mu2 m * al ->
  let r := dp_apex m t acc p0 in dp_yield (dp_mu1 m) (dp_mu2 m) (dp_c0 m) (dp_H m) (fst (fst r)) (snd r) = 0.
Proof.
  intros al B r. assert (P : 0 < / 10 ^ 12) by (apply Rinv_0_lt_compat, pow_lt; lra).
  set (dn := dp_K m * dp_mu1 m - dp_H m * dp_mu2 m * al) in *.
  set (dv := (dp_mu1 m * tr_p t + dp_mu2 m * (dp_c0 m + dp_H m * acc)) / dn).
  assert (E : fst (fst r) = mscale (tr_p t - dp_K m * dv) meye /\ snd r = acc + al * dv).
  { unfold r, dp_apex. cbv zeta. cbn [fst snd]. change (@numt_num R NumT_R) with Num_R; rewrite !nmax_R, lit12.
    assert (L8 : @lit R Num_R 1 (10 ^ 8) = / 10 ^ 8) by (unfold lit; rnum; replace (IZR (10 ^ 8)) with 100000000 by reflexivity; simpl; lra).
    rewrite L8.
    assert (Rmax (dp_K m * dp_mu1 m - dp_H m * dp_mu2 m * (dp_mu2 m / Rmax (dp_mu1 m) (/ 10 ^ 8))) (/ 10 ^ 12) = dn) as E by (apply Rmax_left, B).
    rnum. rewrite E. fold al. fold dv. split; reflexivity. }
  assert (Hd : dv * dn = dp_mu1 m * tr_p t + dp_mu2 m * (dp_c0 m + dp_H m * acc)) by (unfold dv; field; lra).
  destruct E as (-> & ->). unfold dp_yield. rewrite J2_sph, sqrt_0, mean_sph. clearbody dv. unfold dn in Hd. lra.
Qed.
