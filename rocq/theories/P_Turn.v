(** Property theorems C107-C110. *)
From Coq Require Import List Arith ZArith Reals Bool Lra Lia.
From Verif Require Import Num NumR Linalg Arrays ModelGrid ModelShape ModelMath ModelState ModelLaws ModelForces ModelSolver
  Sums ShapeFacts SpecShape ShapeProofs ShapeProofs2 ShapeProofs3 P_Shape MappingProofs ResFacts SolverFacts SpecSolver
  TransferProofs TransferProofs2 StepProofs GatherProofs MomentumProofs AffineProofs StepAffine VirialProofs PermProofs SolverMore ExSolver P_Solver P_Solver2
  SpecMath MathProofs SpecLaws LawProofs LawProofs2 P_Laws P_Laws2 P_Laws3 TurnProofs.
Import ListNotations.
Local Open Scope R_scope.

(** *** C107: no law prefers a direction *)
(** the body and the memory of its law, seen from turned axes *)
Definition turn_pt (Q : mat3 R) (p : Particle R) : Particle R :=
  {| pt_pos := mvmul Q (pt_pos p); pt_vel := mvmul Q (pt_vel p); pt_mass := pt_mass p; pt_force := mvmul Q (pt_force p); pt_vol := pt_vol p; pt_vol0 := pt_vol0 p;
     pt_L := turned Q (pt_L p); pt_stress := turned Q (pt_stress p); pt_F := turned Q (pt_F p); pt_Fst := turned Q (pt_Fst p) |}.
Definition turn_body (Q : mat3 R) (b : SoftBody R) : SoftBody R := set_pts b (map (turn_pt Q) (sb_pts b)).
Definition turn_dp (Q : mat3 R) (d : DPPoint R) : DPPoint R := {| dp_eps_e := turned Q (dp_eps_e d); dp_acc := dp_acc d; dp_p0 := dp_p0 d |}.
Definition turn_state (Q : mat3 R) (s : LawState R) : LawState R :=
  match s with
  | LS_LE r => LS_LE (map (turned Q) r)
  | LS_Rho r => LS_Rho r
  | LS_DP ds => LS_DP (map (turn_dp Q) ds)
  | LS_MCC pc r ee => LS_MCC pc (option_map (map (turned Q)) r) (map (turned Q) ee)
  end.
Definition turn_result (Q : mat3 R) (r : SoftBody R * option (LawState R)) : SoftBody R * option (LawState R) :=
  (turn_body Q (fst r), option_map (turn_state Q) (snd r)).
Definition sound_law (l : Law R) : Prop := match l with LawMCC m => mcc_params m | _ => True end.
Lemma turn_set_stress Q p s : turn_pt Q (set_stress p s) = set_stress (turn_pt Q p) (turned Q s).
Proof. reflexivity. Qed.
Lemma turn_density Q p : density (turn_pt Q p) = density p.
Proof. reflexivity. Qed.
Lemma combine_map_l {A B C} (f : A -> C) (l : list A) (m : list B) : combine (map f l) m = map (fun x => (f (fst x), snd x)) (combine l m).
Proof. revert m. induction l as [|a l IH]; intros [|b m]; cbn; try reflexivity. rewrite IH. reflexivity. Qed.
Lemma combine_map_2 {A B C D} (f : A -> C) (g : B -> D) (l : list A) (m : list B) : combine (map f l) (map g m) = map (fun x => (f (fst x), g (snd x))) (combine l m).
Proof. revert m. induction l as [|a l IH]; intros [|b m]; cbn; try reflexivity. rewrite IH. reflexivity. Qed.
Theorem C107_isotropic : forall (Q : mat3 R) l b st dt, orthogonal Q -> sound_law l ->
  law_update l (turn_body Q b) (option_map (turn_state Q) st) dt =
  match law_update l b st dt with Ok r => Ok (turn_result Q r) | Err e => Err e end.
Proof.
  intros Q l b st dt O Hl. destruct l as [m|m|m|m|m]; cbn [law_update turn_body set_pts sb_pts sb_vol0d].
  - unfold turn_result, turn_body, set_pts. cbn [fst snd sb_pts sb_dim sb_storeF sb_vol0d]. rewrite !map_map. do 3 f_equal. apply map_ext. intro p.
    rewrite turn_set_stress. cbn [turn_pt pt_L pt_stress]. rewrite le_isotropic by exact O. reflexivity.
  - destruct st as [[r|r|r|pc sr ee]|]; try reflexivity. cbn [option_map turn_state]. rewrite map_length. destruct (_ || _)%bool; [reflexivity|].
    unfold turn_result, turn_body, set_pts. cbn [fst snd sb_pts sb_dim sb_storeF sb_vol0d option_map turn_state]. rewrite combine_map_l, !map_map. do 3 f_equal. apply map_ext. intros [p x].
    cbn [fst snd]. rewrite turn_set_stress. cbn [turn_pt pt_L pt_mass pt_vol]. rewrite nf_turn by exact O. reflexivity.
  - destruct st as [[r|r|r|pc sr ee]|]; try reflexivity. cbn [option_map turn_state]. rewrite map_length. destruct (_ || _)%bool; [reflexivity|].
    unfold turn_result, turn_body, set_pts. cbn [fst snd sb_pts sb_dim sb_storeF sb_vol0d option_map turn_state]. rewrite combine_map_l, !map_map. do 3 f_equal. apply map_ext. intros [p x].
    cbn [fst snd]. rewrite turn_set_stress. cbn [turn_pt pt_L pt_mass pt_vol]. rewrite mi_turn by exact O. reflexivity.
  - destruct st as [[r|r|ds|pc sr ee]|]; try reflexivity. cbn [option_map turn_state]. rewrite !map_length. destruct (negb _); [reflexivity|].
    cbv zeta. unfold turn_result, turn_body, set_pts. cbn [fst snd sb_pts sb_dim sb_storeF sb_vol0d option_map turn_state].
    set (f := fun pd : Particle R * DPPoint R => dp_stress m (pt_L (fst pd)) (dp_eps_e (snd pd)) (dp_acc (snd pd)) (dp_p0 (snd pd)) (density (fst pd)) dt).
    assert (E : map f (combine (map (turn_pt Q) (sb_pts b)) (map (turn_dp Q) ds)) = map (turn3 Q) (map f (combine (sb_pts b) ds))).
    { rewrite combine_map_2, !map_map. apply map_ext. intros [p d]. unfold f. cbn [fst snd turn_pt turn_dp pt_L dp_eps_e dp_acc dp_p0]. rewrite turn_density. apply (dp_turn Q O). }
    rewrite E. generalize (map f (combine (sb_pts b) ds)). intro rs. rewrite !combine_map_2, !map_map. reflexivity.
  - destruct st as [[r|r|ds|pc [sr|] ee]|]; try reflexivity. cbn [option_map turn_state]. rewrite !map_length. destruct (negb _) eqn:En; [reflexivity|].
    apply Bool.negb_false_iff in En. apply andb_prop in En. destruct En as (En & E3). apply andb_prop in En. destruct En as (E1 & E2). apply Nat.eqb_eq in E1, E2, E3.
    cbv zeta. unfold turn_result, turn_body, set_pts. cbn [fst snd sb_pts sb_dim sb_storeF sb_vol0d option_map turn_state].
    set (d := {| pt_pos := vzero |}).
    set (f := fun i => mcc_stress m (pt_L (nth i (sb_pts b) d)) (nth i ee mzero) (pt_stress (nth i (sb_pts b) d)) (nth i pc n0) (nth i sr mzero) (mc_rho_p m / density (nth i (sb_pts b) d))%num dt).
    match goal with |- context [map ?h (seq 0 _)] => assert (E : map h (seq 0 (length (sb_pts b))) = map (turn3 Q) (map f (seq 0 (length (sb_pts b))))) end.
    { rewrite map_map. apply map_ext_in. intros i Hi. apply in_seq in Hi.
      rewrite (nth_indep (map (turn_pt Q) (sb_pts b)) d (turn_pt Q d)) by (rewrite map_length; lia).
      rewrite (nth_indep (map (turned Q) ee) mzero (turned Q mzero)) by (rewrite map_length; lia).
      rewrite (nth_indep (map (turned Q) sr) mzero (turned Q mzero)) by (rewrite map_length; lia).
      rewrite !map_nth. cbn [turn_pt pt_L pt_stress]. rewrite turn_density. apply (mcc_turn Q O), Hl. }
    rewrite E. generalize (map f (seq 0 (length (sb_pts b)))). intro rs. rewrite !combine_map_2, !map_map. reflexivity.
Qed.
Print Assumptions C107_isotropic.
(** a quarter turn about the third axis *)
Definition quarter : mat3 R := M3 0 (-1) 0 1 0 0 0 0 1.
Example C107_case : orthogonal quarter /\ sound_law (LawMCC kaolin) /\ turned quarter (mdiag 1 2 3) = mdiag 2 1 3 /\
  exists r, law_update (LawMCC kaolin) (soft [part shear4 (mdiag 90 100 110) 2000 1]) (Some (LS_MCC [200] (Some [spherical 100]) [mzero])) 1 = Ok r.
Proof.
  split; [split; unfold quarter; meq|]. split; [unfold sound_law, mcc_params, kaolin; cbn [mc_kap mc_lam mc_nu mc_M mc_pmin mc_Kmax]; repeat split; lra|].
  split; [unfold turned, quarter; meq|]. eexists. reflexivity.
Qed.

(** *** C109: Drucker-Prager stress is a function of the stored elastic strain *)
Definition hooke (K G p0 : R) (e : mat3 R) : mat3 R := madd (spherical (p0 + K * (m00 e + m11 e + m22 e))) (mscale (2 * G) (deviator e)).
Lemma dp_trial_hooke (m : DruckerPrager R) L e acc p0 dt : let t := dp_trial m L e acc p0 dt in
  tr_p t = p0 + dp_K m * mtrace (tr_eps t) /\ tr_s t = mscale (2 * dp_G m) (deviator (tr_eps t)).
Proof.
  unfold dp_trial. cbn [tr_p tr_eps tr_s]. generalize (madd (get_jaumann_increment e (get_spin_tensor L) dt) (mscale dt (get_sym_tensor L))). intro x.
  split; [unfold get_volumetric_strain; rnum; ring|]. unfold get_volumetric_strain, get_dev_strain. destruct x. meq.
Qed.
Lemma dp_hooke (m : DruckerPrager R) L e acc p0 rho dt : dp_K m <> 0 -> dp_G m <> 0 -> dp_rho0 m <= rho ->
  let r := dp_stress m L e acc p0 rho dt in fst (fst r) = hooke (dp_K m) (dp_G m) p0 (snd (fst r)).
Proof.
  intros K0 G0 Hr. cbv zeta. rewrite dp_stress_eq. unfold dp_branch. rewrite (proj2 (Rleb_true _ _) Hr).
  destruct (dp_trial_hooke m L e acc p0 dt) as (Tp & Ts). pose proof (tr_s_trace m L e acc p0 dt) as Tt. pose proof (proj1 (tr_sj_pos m L e acc p0 dt)) as Tj. cbv zeta in Tp, Ts, Tt, Tj. revert Tp Ts Tt Tj.
  generalize (dp_trial m L e acc p0 dt). intros t Tp Ts Tt Tj. destruct (Rltb 0 _); [destruct (Rltb _ _)|].
  - unfold dp_apex. cbn [fst snd]. match goal with |- mscale ?x meye = _ => generalize x end. intro k. unfold hooke. meq; auto.
  - unfold dp_cone. cbn [fst snd]. match goal with |- context [mscale (?a - ?b)%num (tr_s t)] => generalize (a - b)%num end. intro f.
    match goal with |- context [mscale (?a - ?b)%num meye] => generalize (a - b)%num end. intro k. clear Tp Ts. destruct (tr_s t) as [s0 s1 s2 s3 s4 s5 s6 s7 s8].
    unfold mtrace in Tt. cbn [m00 m11 m22] in Tt. revert Tt. rnum. intro Tt. assert (E8 : s8 = - s0 - s4) by (rewrite <- (Rplus_0_l (- s0 - s4)), <- Tt; ring). subst s8. unfold hooke. meq; repeat split; try assumption; lra.
  - unfold dp_elastic. cbn [fst snd]. rewrite Ts, Tp. destruct (tr_eps t). unfold hooke. meq.
Qed.
Theorem C109_memory_partial : forall (m : DruckerPrager R) b ds dt b' st' i d x, dp_K m <> 0 -> dp_G m <> 0 ->
  law_update (LawDP m) b (Some (LS_DP ds)) dt = Ok (b', st') -> (i < length (sb_pts b))%nat -> dp_rho0 m <= density (nth i (sb_pts b) d) ->
  exists ds', st' = Some (LS_DP ds') /\ dp_p0 (nth i ds' x) = dp_p0 (nth i ds x) /\
  pt_stress (nth i (sb_pts b') d) = hooke (dp_K m) (dp_G m) (dp_p0 (nth i ds x)) (dp_eps_e (nth i ds' x)).
Proof.
  intros m b ds dt b' st' i d x K G E Hi Hr. destruct (dp_update_nth m b _ dt b' st' d i E Hi) as (ds1 & ds' & E1 & E2 & _ & A). injection E1 as <-.
  exists ds'. split; [exact E2|]. destruct (A x) as (B & C). rewrite B, C. cbn [dp_p0 dp_eps_e]. split; [reflexivity|]. rewrite set_stress_stress. apply dp_hooke; assumption.
Qed.
Print Assumptions C109_memory_partial.
(** FINDING: a grain assembly that came apart (stress and strain cleared) and touches again is back at its very first pressure at once, without any strain *)
Theorem C109_reconnect_refuted : forall (m : DruckerPrager R) b ds dt b' ds' b2 b2' st2 i d x, law_update (LawDP m) b (Some (LS_DP ds)) dt = Ok (b', Some (LS_DP ds')) ->
  (i < length (sb_pts b))%nat -> density (nth i (sb_pts b) d) < dp_rho0 m ->
  law_update (LawDP m) b2 (Some (LS_DP ds')) dt = Ok (b2', st2) -> (i < length (sb_pts b2))%nat -> dp_rho0 m <= density (nth i (sb_pts b2) d) -> pt_L (nth i (sb_pts b2) d) = mzero ->
  let p0 := dp_p0 (nth i ds x) in / 10 ^ 6 <= dp_mu1 m * p0 + dp_mu2 m * (dp_c0 m + dp_H m * dp_acc (nth i ds x)) ->
  pt_stress (nth i (sb_pts b') d) = mzero /\ pt_stress (nth i (sb_pts b2') d) = spherical p0.
Proof.
  intros m b ds dt b' ds' b2 b2' st2 i d x E Hi Hr E2 Hi2 Hr2 L0 p0 Hy.
  destruct (dp_update_nth m b _ dt b' _ d i E Hi) as (ds1 & ds1' & F1 & F2 & _ & A). injection F1 as <-. injection F2 as <-. destruct (A x) as (B & C).
  destruct (dp_update_nth m b2 _ dt b2' _ d i E2 Hi2) as (ds3 & ds3' & G1 & _ & _ & A2). injection G1 as <-. destruct (A2 x) as (B2 & _).
  assert (S : forall L e acc q, dp_stress m L e acc q (density (nth i (sb_pts b) d)) dt = (mzero, mzero, acc)).
  { intros. rewrite dp_stress_eq. unfold dp_branch. rewrite (proj2 (Rleb_false _ _) Hr). reflexivity. }
  rewrite B, set_stress_stress, S. split; [reflexivity|]. rewrite B2, set_stress_stress, C, L0. cbn [dp_eps_e dp_acc dp_p0]. rewrite S. cbn [fst snd].
  rewrite P_Laws3.dp_rest; [reflexivity|exact Hr2|exact Hy].
Qed.
Print Assumptions C109_reconnect_refuted.
Lemma tiny6 : / 10 ^ 6 <= 1.
Proof. rewrite <- Rinv_1. apply Rinv_le_contravar; [lra|apply pow_R1_Rle; lra]. Qed.
Lemma unit_density L s v : v = 1 / 2 \/ v = 2 -> (v = 1 / 2 -> 1 <= density (part L s 1 v)) /\ (v = 2 -> density (part L s 1 v) < 1).
Proof.
  intros _. unfold density. rewrite eps16. cbn [part pt_mass pt_vol]. pose proof P_Laws3.tiny16. rnum. set (e := / 10 ^ 16) in *. clearbody e. split; intros ->.
  - apply (Rmult_le_reg_r (1 / 2 + e)); [lra|]. unfold Rdiv at 2. rewrite Rmult_assoc, Rinv_l by lra. lra.
  - apply (Rmult_lt_reg_r (2 + e)); [lra|]. unfold Rdiv. rewrite Rmult_assoc, Rinv_l by lra. lra.
Qed.
Example C109_case : let m := clay 0 0 in let ds := [{| dp_eps_e := mzero; dp_acc := 0; dp_p0 := 5 |}] in
  let far := soft [part shear4 (spherical 5) 1 2] in let near := soft [part mzero mzero 1 (1 / 2)] in
  exists b' ds' b2' st2, law_update (LawDP m) far (Some (LS_DP ds)) 1 = Ok (b', Some (LS_DP ds')) /\ law_update (LawDP m) near (Some (LS_DP ds')) 1 = Ok (b2', st2) /\
  (forall p, In p (sb_pts far) -> density p < dp_rho0 m) /\ (forall p, In p (sb_pts near) -> dp_rho0 m <= density p) /\ / 10 ^ 6 <= dp_mu1 m * 5 + dp_mu2 m * (dp_c0 m + dp_H m * 0) /\
  dp_K m <> 0 /\ dp_G m <> 0.
Proof.
  cbv zeta. do 4 eexists. split; [reflexivity|]. split; [reflexivity|]. cbn [clay dp_rho0 dp_mu1 dp_mu2 dp_c0 dp_H dp_K dp_G]. pose proof tiny6.
  split; [intros p [<-|[]]; apply (proj2 (unit_density shear4 (spherical 5) 2 (or_intror eq_refl))); reflexivity|].
  split; [intros p [<-|[]]; apply (proj1 (unit_density mzero mzero (1 / 2) (or_introl eq_refl))); reflexivity|]. repeat split; lra.
Qed.

(** *** C108: a body that spins carries its stress along *)
(** the stress carried for a short time [dt] by the spin [W] of the velocity field *)
Definition carried (s W : mat3 R) (dt : R) : mat3 R := madd s (mscale dt (msub (mmul W s) (mmul s W))).
(** which is the turned stress up to the square of the angle *)
Lemma carried_turned s W dt : skew W -> turned (madd meye (mscale dt W)) s = madd (carried s W dt) (mscale (dt * dt) (mmul (mmul W s) (mtrans W))).
Proof. intros (A & B & C & D & E & F). destruct W as [w0 w1 w2 w3 w4 w5 w6 w7 w8]. cbn [m00 m01 m02 m10 m11 m12 m20 m21 m22] in *. subst. unfold turned, carried. destruct s. meq. Qed.
Lemma skew_parts L dt : skew L -> get_spin_tensor L = L /\ mscale dt (get_sym_tensor L) = mzero /\ mtrace L = 0.
Proof.
  intros (A & B & C & D & E & F). destruct L as [w0 w1 w2 w3 w4 w5 w6 w7 w8]. cbn [m00 m01 m02 m10 m11 m12 m20 m21 m22] in *. subst.
  split; [|split]; [meq|meq|]. mcbv. ring.
Qed.
Lemma carried_mean s W dt : mean3 (carried s W dt) = mean3 s.
Proof. unfold carried, mean3. destruct s, W. mcbv. field. Qed.
(** the two laws that turn what they remember *)
Definition clay_carries (L W : mat3 R) (dt : R) : Prop := forall (m : MCC R) e s pc sref v, 0 < mc_kap m -> mc_pmin m <= mean3 s -> v <= mc_N m * (999999 / 1000000) ->
  mcc_yield (mc_M m) pc (carried s W dt) <= 0 -> fst (mcc_stress m L e s pc sref v dt) = (carried s W dt, carried e W dt).
Definition sand_carries (L W : mat3 R) (dt : R) : Prop := forall (m : DruckerPrager R) e acc p0 rho, dp_rho0 m <= rho ->
  let s := hooke (dp_K m) (dp_G m) p0 e in dp_yield (dp_mu1 m) (dp_mu2 m) (dp_c0 m) (dp_H m) (carried s W dt) acc <= 0 ->
  / 10 ^ 6 <= dp_mu1 m * mean3 s + dp_mu2 m * (dp_c0 m + dp_H m * acc) -> dp_stress m L e acc p0 rho dt = (carried s W dt, carried e W dt, acc).
Lemma clay_spin W dt : skew W -> clay_carries W W dt.
Proof.
  intros Sk m e s pc sref v Hk Hp Hv Hy. destruct (skew_parts W dt Sk) as (Sp & Sy & Tr).
  set (t := mcc_trial m W e s pc dt).
  assert (Tp : mt_p t = mean3 s) by (unfold t; rewrite mt_p_eq, Tr, Rmult_0_r, Rmax_left by exact Hp; unfold Rdiv; rewrite Rmult_0_l, exp_0; ring).
  assert (Tr' : mt_eps_rot t = carried e W dt) by (unfold t, mcc_trial; cbv zeta; cbn [mt_eps_rot]; change (@numt_num R NumT_R) with Num_R; rewrite Sp; reflexivity).
  assert (Td : mt_deps t = mzero) by (unfold t, mcc_trial; cbn [mt_deps]; exact Sy).
  assert (Ts : madd (mt_s t) (mscale (mt_p t) meye) = carried s W dt).
  { rewrite Tp. unfold t, mcc_trial. cbn [mt_s]. cbv zeta. change (@numt_num R NumT_R) with Num_R. rewrite Sy, Sp. set (G := get_G _ _). clearbody G. unfold get_s.
    assert (J : get_jaumann_increment s W dt = carried s W dt) by reflexivity. rewrite J, nmax_R, pressure_mean, carried_mean, Rmax_left by exact Hp.
    rewrite dev_stress_given. generalize (mean3 s) (carried s W dt). intros k c. clear. destruct c. meq. }
  assert (Ty : mt_yf t <= 0) by (unfold t; rewrite C50_trial_yield by exact Hp; fold t; rewrite Ts; exact Hy).
  unfold mcc_stress. cbv zeta. fold t. change ((v <=? mc_N m * lit 999999 1000000)%num) with (Rleb v (mc_N m * (999999 / 1000000))).
  change ((n0 <? mt_yf t)%num) with (Rltb 0 (mt_yf t)). rewrite (proj2 (Rleb_true _ _) Hv), (proj2 (Rltb_false _ _) Ty). cbn [fst].
  change (@numt_num R NumT_R) with Num_R. rewrite Ts, Tr', Td. f_equal. generalize (carried e W dt). intro c. destruct c. meq.
Qed.
Lemma hooke_carried K G p0 e W dt : hooke K G p0 (carried e W dt) = carried (hooke K G p0 e) W dt.
Proof. unfold hooke, carried. destruct e, W. meq. Qed.
Lemma sand_spin W dt : skew W -> sand_carries W W dt.
Proof.
  intros Sk m e acc p0 rho Hr s Hy Hf. destruct (skew_parts W dt Sk) as (Sp & Sy & Tr).
  destruct (dp_trial_hooke m W e acc p0 dt) as (Tp & Ts). pose proof (tr_sj_eq m W e acc p0 dt) as Tj. pose proof (tr_yf_eq m W e acc p0 dt) as Ty. cbv zeta in Tj, Ty.
  assert (Te : tr_eps (dp_trial m W e acc p0 dt) = carried e W dt).
  { unfold dp_trial. cbn [tr_eps]. cbv zeta. change (@numt_num R NumT_R) with Num_R. rewrite Sp, Sy. change (get_jaumann_increment e W dt) with (carried e W dt). generalize (carried e W dt). intro c. destruct c. meq. }
  rewrite dp_stress_eq. revert Tp Ts Tj Ty Te. generalize (dp_trial m W e acc p0 dt). intros t Tp Ts Tj Ty Te.
  assert (St : madd (tr_s t) (mscale (tr_p t) meye) = carried s W dt).
  { unfold s. rewrite <- hooke_carried, Tp, Ts, Te. unfold hooke, mtrace. generalize (carried e W dt). intro c. destruct c. meq. }
  assert (Mp : tr_p t = mean3 s) by (rewrite <- (carried_mean s W dt), <- St, Ts; generalize (tr_p t) (tr_eps t); intros k c; clear; destruct c; mcbv; field).
  assert (J : frob2 (tr_s t) / 2 = J2_of (carried s W dt)).
  { rewrite <- St, Ts. unfold J2_of. f_equal. f_equal. generalize (tr_p t) (tr_eps t). intros k c. clear. destruct c. meq. }
  assert (Yf : tr_yf t <= 0).
  { rewrite Ty, Tj, J, Mp. unfold dp_yield in Hy. rewrite carried_mean in Hy. apply Rmax_case.
    - lra.
    - replace (/ 10 ^ 12) with (/ 10 ^ 6 * / 10 ^ 6) by field. rewrite sqrt_square by (apply Rlt_le, Rinv_0_lt_compat; lra). lra. }
  unfold dp_branch. rewrite (proj2 (Rleb_true _ _) Hr), (proj2 (Rltb_false _ _) Yf). unfold dp_elastic. change (@numt_num R NumT_R) with Num_R. rewrite St, Te. reflexivity.
Qed.
Lemma skew_plane d A : skew A -> skew (mplane d A).
Proof. intros (A1 & B & C & D & E & F). destruct d; [|repeat split; assumption]. unfold skew, mplane. cbn [m00 m01 m02 m10 m11 m12 m20 m21 m22]. repeat split; lra. Qed.
Lemma skew_opp W : skew W -> skew (mopp W) /\ mopp (mtrans W) = W.
Proof.
  intros (A & B & C & D & E & F). destruct W as [w0 w1 w2 w3 w4 w5 w6 w7 w8]. cbn [m00 m01 m02 m10 m11 m12 m20 m21 m22] in *. subst. split; [|meq].
  unfold skew, mopp, mmap. cbn [m00 m01 m02 m10 m11 m12 m20 m21 m22]. rnum. repeat split; lra.
Qed.
Theorem C108_usl_partial : forall alpha dt geos k gd g pts A b p, wf_grid gd -> gr_dim g = gd_dim gd -> (p < length pts)%nat ->
  interior k gd (pt_pos (nth p pts pt0)) -> smooth_at A k gd (pt_pos (nth p pts pt0)) -> nodal_affine cut12 k gd g pts A b -> skew A ->
  let L := pt_L (nth p (g2p_usl alpha dt geos (compute_on k gd (map pt_pos pts)) g pts) pt0) in let W := mplane (gd_dim gd) A in
  clay_carries L W dt /\ sand_carries L W dt /\ forall s, turned (madd meye (mscale dt W)) s = madd (carried s W dt) (mscale (dt * dt) (mmul (mmul W s) (mtrans W))).
Proof.
  intros alpha dt geos k gd g pts A b p Wf Hd Hp I Sm N Sk. cbv zeta.
  destruct (C26_usl_gradient_partial alpha dt geos k gd g pts A b p Wf Hd Hp I Sm N) as (H & _). rewrite H.
  pose proof (skew_plane (gd_dim gd) A Sk) as Sp. rewrite (proj2 (skew_opp _ Sp)).
  split; [apply clay_spin, Sp|]. split; [apply sand_spin, Sp|]. intro s. apply carried_turned, Sp.
Qed.
Print Assumptions C108_usl_partial.
(** FINDING: with the affine solver the stress is carried against the spin of the body *)
Theorem C108_aflip_refuted : forall a alpha dt k gd sF g pts A b p, wf_grid gd -> gr_dim g = gd_dim gd -> 0 <= af_cutoff a -> (p < length pts)%nat ->
  interior k gd (pt_pos (nth p pts pt0)) -> smooth_at A k gd (pt_pos (nth p pts pt0)) -> nodal_affine (af_cutoff a) k gd g pts A b -> skew A ->
  let L := pt_L (nth p (fst (g2p_aflip a alpha dt gd sF (compute_on k gd (map pt_pos pts)) g pts)) pt0) in let W := mplane (gd_dim gd) A in
  clay_carries L (mopp W) dt /\ sand_carries L (mopp W) dt /\
  forall s, dt <> 0 -> mmul W s <> mmul s W -> carried s (mopp W) dt <> carried s W dt.
Proof.
  intros a alpha dt k gd sF g pts A b p Wf Hd Hc Hp I Sm N Sk. cbv zeta.
  destruct (C26_aflip_gradient a alpha dt k gd sF g pts A b p Wf Hd Hc Hp I Sm N) as (H & _). rewrite H.
  pose proof (skew_plane (gd_dim gd) A Sk) as Sp. destruct (skew_opp _ Sp) as (So & _).
  split; [apply clay_spin, So|]. split; [apply sand_spin, So|]. intros s D0 Ne X. apply Ne. revert X. generalize (mplane (gd_dim gd) A). intros W X. unfold carried in X.
  assert (Y : mscale dt (msub (mmul (mopp W) s) (mmul s (mopp W))) = mscale dt (msub (mmul W s) (mmul s W))).
  { revert X. generalize (mscale dt (msub (mmul (mopp W) s) (mmul s (mopp W)))) (mscale dt (msub (mmul W s) (mmul s W))). intros u w X.
    destruct s, u, w. injection X as X0 X1 X2 X3 X4 X5 X6 X7 X8. revert X0 X1 X2 X3 X4 X5 X6 X7 X8. rnum. intros. f_equal; lra. }
  assert (Z : mmul (mopp W) s = mopp (mmul W s) /\ mmul s (mopp W) = mopp (mmul s W)) by (destruct W, s; split; meq). destruct Z as (Z1 & Z2). rewrite Z1, Z2 in Y.
  revert Y. generalize (mmul W s) (mmul s W). intros u w Y. destruct u, w. unfold mscale, msub, mopp, mmap2, mmap in Y. cbn [Linalg.m00 Linalg.m01 Linalg.m02 Linalg.m10 Linalg.m11 Linalg.m12 Linalg.m20 Linalg.m21 Linalg.m22] in Y.
  injection Y as Y0 Y1 Y2 Y3 Y4 Y5 Y6 Y7 Y8. revert Y0 Y1 Y2 Y3 Y4 Y5 Y6 Y7 Y8. rnum. intros. f_equal; nra.
Qed.
Print Assumptions C108_aflip_refuted.
(** FINDING: linear elasticity, whose increment keeps no track of the spin, leaves the stress where it was in space *)
Theorem C108_elastic_refuted : forall (m : LinearElastic R) W s dt, skew W -> le_stress m W s dt = s.
Proof.
  intros m W s dt (A & B & C & D & E & F). rewrite le_stress_eq. destruct W as [w0 w1 w2 w3 w4 w5 w6 w7 w8]. cbn [m00 m01 m02 m10 m11 m12 m20 m21 m22] in *. subst. unfold rate. destruct s. meq.
Qed.
Print Assumptions C108_elastic_refuted.
Definition whirl : mat3 R := M3 0 (-1) 0 1 0 0 0 0 0.
Example C108_case : let pts := [pt xa va sg meye; pt xb vb sg meye] in let s := mdiag 90 110 100 in let dt := 1 / 10 in
  wf_grid g2 /\ interior Quadratic g2 xa /\ smooth_at whirl Quadratic g2 xa /\ nodal_affine cut12 Quadratic g2 (gridA whirl va) pts whirl va /\ skew whirl /\
  mmul (mplane D2 whirl) s <> mmul s (mplane D2 whirl) /\ mc_pmin kaolin <= mean3 s /\ mcc_yield (mc_M kaolin) 200 (carried s (mplane D2 whirl) dt) <= 0 /\
  mcc_yield (mc_M kaolin) 200 (carried s (mopp (mplane D2 whirl)) dt) <= 0.
Proof.
  cbv zeta. destruct (C26_case Quadratic) as (W & _ & I & _). split; [exact W|]. split; [exact I|]. split; [intros X; discriminate|].
  split; [apply gridA_affine; unfold cut12; rnum; replace (10 ^ 12)%Z with 1000000000000%Z by reflexivity; lra|].
  split; [unfold skew, whirl; cbn [m00 m01 m02 m10 m11 m12 m20 m21 m22]; repeat split; lra|].
  split; [intro X; apply (f_equal m01) in X; vm_compute in X; lra|]. assert (M : mean3 (mdiag 90 110 100) = 100) by (mcbv; field).
  split; [rewrite M; cbn [kaolin mc_pmin]; lra|].
  assert (Y : forall t, t * t = 1 -> mcc_yield (mc_M kaolin) 200 (carried (mdiag 90 110 100) (mscale t (mplane D2 whirl)) (1 / 10)) <= 0).
  { intros t T2. assert (J : J2_of (carried (mdiag 90 110 100) (mscale t (mplane D2 whirl)) (1 / 10)) = 100 + 4 * (t * t)) by (unfold carried, mplane, whirl; mcbv; field). unfold mcc_yield. rewrite carried_mean, M. unfold q_of. rewrite sqrt_sqrt.
    - cbn [kaolin mc_M]. rewrite J, T2. lra.
    - rewrite J, T2. lra. }
  split.
  - assert (E : mplane D2 whirl = mscale 1 (mplane D2 whirl)) by meq. rewrite E. apply Y. lra.
  - assert (E : mopp (mplane D2 whirl) = mscale (-1) (mplane D2 whirl)) by meq. rewrite E. apply Y. lra.
Qed.

(** *** C110: the two fluids never give back the work of shearing *)
Lemma dev_ddot s : mddot (deviator s) s = frob2 (deviator s).
Proof. destruct s. mcbv. field. Qed.
Lemma frob2_nonneg' (a : mat3 R) : 0 <= frob2 a.
Proof. unfold frob2. repeat apply Rplus_le_le_0_compat; apply Rle_0_sqr. Qed.
Lemma frob2_zero (a : mat3 R) : frob2 a = 0 -> a = mzero.
Proof.
  intro E. unfold frob2 in E. destruct a as [a0 a1 a2 a3 a4 a5 a6 a7 a8]. cbn [m00 m01 m02 m10 m11 m12 m20 m21 m22] in E.
  assert (Z : forall x, 0 <= x * x) by (intro; apply Rle_0_sqr).
  assert (K : forall x, x * x <= 0 -> x = 0). { intros x Hx. destruct (Req_dec x 0) as [|H]; [assumption|]. pose proof (Rsqr_pos_lt x H) as H'. unfold Rsqr in H'. lra. }
  pose proof (Z a0). pose proof (Z a1). pose proof (Z a2). pose proof (Z a3). pose proof (Z a4). pose proof (Z a5). pose proof (Z a6). pose proof (Z a7). pose proof (Z a8).
  unfold mzero. rnum. f_equal; apply K; lra.
Qed.
(** power of the shear stress on the deformation rate of a point *)
Definition shear_power (p : Particle R) : R := mddot (deviator (pt_stress p)) (rate (pt_L p)).
Theorem C110_newton : forall (m : Newton R) b st dt b' st' i d, 0 <= nf_visc m -> law_update (LawNewton m) b st dt = Ok (b', st') -> (i < length (sb_pts b))%nat ->
  let p := nth i (sb_pts b') d in shear_power p = 2 * nf_visc m * frob2 (deviator (rate (pt_L p))) /\ 0 <= shear_power p.
Proof.
  intros m b st dt b' st' i d V E Hi p. destruct (nf_update_nth m b st dt b' st' d i E Hi) as (r & _ & _ & _ & A). fold p in A.
  assert (F : shear_power p = 2 * nf_visc m * frob2 (deviator (rate (pt_L p)))).
  { unfold shear_power. rewrite A. rewrite set_stress_stress. change (pt_L (set_stress ?x ?y)) with (pt_L x). unfold nf_stress. rewrite dev_rate_spec.
    generalize (- nf_pressure m (pt_mass (nth i (sb_pts b) d)) (pt_vol (nth i (sb_pts b) d)) (nth i r n0))%num. intro k. rewrite <- dev_ddot.
    generalize (rate (pt_L (nth i (sb_pts b) d))). intro D. destruct D. mcbv. field. }
  split; [exact F|]. rewrite F. pose proof (frob2_nonneg' (deviator (rate (pt_L p)))). apply Rmult_le_pos; lra.
Qed.
Print Assumptions C110_newton.
Theorem C110_mu_i : forall (m : MuI R) b r dt b' st' i d, mi_params m -> law_update (LawMuI m) b (Some (LS_Rho r)) dt = Ok (b', st') -> (i < length (sb_pts b))%nat ->
  let p := nth i (sb_pts b') d in 0 <= shear_power p /\
  (1 < pt_mass p / pt_vol p / nth i r 0 -> deviator (rate (pt_L p)) <> mzero -> 0 < shear_power p).
Proof.
  intros m b r dt b' st' i d P E Hi p. destruct (mi_update_nth m b _ dt b' st' d i E Hi) as (r1 & E1 & _ & _ & A). injection E1 as <-. fold p in A.
  set (q := nth i (sb_pts b) d) in *. assert (Lp : pt_L p = pt_L q) by (rewrite A; reflexivity).
  assert (Mp : pt_mass p = pt_mass q /\ pt_vol p = pt_vol q) by (rewrite A; split; reflexivity). destruct Mp as (-> & ->).
  unfold shear_power. rewrite Lp. rewrite A at 1 2. rewrite set_stress_stress. change (nth i r n0) with (nth i r 0). rewrite mi_stress_eq.
  set (x := pt_mass q / pt_vol q / nth i r 0). destruct (Rltb 1 x) eqn:Ex.
  - apply Rltb_true in Ex. set (ps := mi_psafe m x). assert (P0 : 0 < ps).
    { unfold ps. rewrite psafe_eq. pose proof P as (_ & _ & _ & K & _). pose proof (Rmax_l (mi_K m * (x - 1)) (mi_pmin m)). assert (0 < mi_K m * (x - 1)) by (apply Rmult_lt_0_compat; lra). lra. }
    pose proof (mi_eta_pos m ps (shear_rate (pt_L q)) P P0 (shear_rate_nonneg _)) as H. revert H. generalize (mi_eta m ps (shear_rate (pt_L q))). intros eta H.
    assert (F : mddot (deviator (madd (mscale ps meye) (mscale eta (deviator (rate (pt_L q)))))) (rate (pt_L q)) = eta * frob2 (deviator (rate (pt_L q)))).
    { rewrite <- dev_ddot. clearbody ps. generalize (rate (pt_L q)). intro D. destruct D. mcbv. field. }
    rewrite F. pose proof (frob2_nonneg' (deviator (rate (pt_L q)))) as N. split; [apply Rmult_le_pos; lra|]. intros _ Ne. apply Rmult_lt_0_compat; [exact H|].
    destruct N as [N|N]; [exact N|]. exfalso. apply Ne, frob2_zero. symmetry. exact N.
  - apply Rltb_false in Ex. split; [|intro X; lra]. right. generalize (rate (pt_L q)). intro D. destruct D. mcbv. field.
Qed.
Print Assumptions C110_mu_i.
Example C110_case : (exists b' st', law_update (LawNewton water) (soft [part shear4 mzero 2 1]) (Some (LS_Rho [1])) 1 = Ok (b', st')) /\
  (exists b' st', law_update (LawMuI sand) (soft [part shear4 mzero 2 1]) (Some (LS_Rho [1])) 1 = Ok (b', st')) /\ mi_params sand /\ 1 < 2 / 1 / 1 /\ deviator (rate shear4) <> mzero /\ 0 <= nf_visc water.
Proof.
  split; [do 2 eexists; reflexivity|]. split; [do 2 eexists; reflexivity|]. split; [apply C45_case|]. split; [lra|]. split; [|cbn; lra].
  intro X. apply (f_equal m01) in X. unfold rate, shear4 in X. mcbv. lra.
Qed.
