(** C124: law states created from a body of material points. *)
From Coq Require Import List Arith ZArith Reals Bool Lra Lia.
From Verif Require Import Num NumR Linalg Arrays ModelGrid ModelShape ModelMath ModelState ModelLaws Sums ResFacts SpecMath MathProofs SpecLaws LawProofs LawProofs2
  P_Laws P_Laws2 P_Laws3.
Import ListNotations.
Local Open Scope R_scope.

(** pressure a mu(I) point holds at rest: the stored one, corrected by the change of volume since the reference *)
Definition held (m : MuI R) (p : Particle R) : mat3 R :=
  let ratio := (mean3 (pt_stress p) / mi_K m + 1) * (pt_vol0 p / pt_vol p) in
  if Rltb 1 ratio then spherical (Rmax (mi_K m * (ratio - 1)) (mi_pmin m)) else mzero.

(** mu(I): a created state can be stepped with its body; at rest every point keeps its pressure, corrected by its volume change *)
Theorem C124_mu_i_partial : forall (m : MuI R) b dt, mi_params m -> at_rest b -> sb_vol0d b = false ->
  (forall p, In p (sb_pts b) -> 0 < pt_mass p /\ 0 < pt_vol p /\ 0 < pt_vol0 p /\ 0 <= mean3 (pt_stress p)) ->
  exists st b', mi_create_state m b = Ok st /\ law_update (LawMuI m) b (Some st) dt = Ok (b', Some st) /\
  map pt_stress (sb_pts b') = map (held m) (sb_pts b).
Proof.
  intros m b dt P Hr V Hp. unfold mi_create_state, mi_create_from_density. rewrite !map_length, Nat.eqb_refl.
  eexists. eexists. split; [reflexivity|]. cbn [law_update]. rewrite V, map_length, combine_length, !map_length, Nat.min_id, Nat.eqb_refl. cbn [orb negb].
  split; [reflexivity|]. cbn [set_pts sb_pts]. unfold at_rest in Hr. clear V. induction (sb_pts b) as [|p l IH]; [reflexivity|].
  cbn [map combine fst snd]. f_equal; [|apply IH; [intros q I; apply Hr; right; exact I|intros q I; apply Hp; right; exact I]].
  destruct (Hp p (or_introl eq_refl)) as (M & Vo & V0 & Pr). rewrite set_stress_stress, (Hr p (or_introl eq_refl)).
  change (@numt_num R NumT_R) with Num_R. rewrite mi_stress_eq.
  assert (K : 0 < mi_K m) by apply P. unfold pt_pressure. rewrite pressure_mean.
  assert (Q : 0 <= mean3 (pt_stress p) / mi_K m) by (apply Rmult_le_pos; [lra|apply Rlt_le, Rinv_0_lt_compat; lra]).
  assert (Ra : pt_mass p / pt_vol p / mi_density_ref m (pt_mass p / pt_vol0 p) (mean3 (pt_stress p)) = (mean3 (pt_stress p) / mi_K m + 1) * (pt_vol0 p / pt_vol p)).
  { unfold mi_density_ref. rnum. field. repeat split; try lra. }
  change (ndiv (pt_mass p) (pt_vol0 p)) with (pt_mass p / pt_vol0 p). rewrite Ra. unfold held. cbv zeta. destruct (Rltb _ _); [|reflexivity].
  rewrite psafe_eq. replace (deviator (rate mzero)) with (@mzero R Num_R) by (unfold rate; clear; meq). clear. meq.
Qed.
Print Assumptions C124_mu_i_partial.
(** so an uncompressed body under its initial pressures keeps them *)
Theorem C124_mu_i_keeps : forall (m : MuI R) b dt, mi_params m -> at_rest b -> sb_vol0d b = false ->
  (forall p, In p (sb_pts b) -> 0 < pt_mass p /\ 0 < pt_vol p /\ pt_vol0 p = pt_vol p /\ 0 < mean3 (pt_stress p) /\ mi_pmin m <= mean3 (pt_stress p)) ->
  exists st b', mi_create_state m b = Ok st /\ law_update (LawMuI m) b (Some st) dt = Ok (b', Some st) /\
  map pt_stress (sb_pts b') = map (fun p => spherical (mean3 (pt_stress p))) (sb_pts b).
Proof.
  intros m b dt P Hr V Hp. destruct (C124_mu_i_partial m b dt P Hr V) as (st & b' & A & B & C).
  { intros p I. destruct (Hp p I) as (M & Vo & V0 & Pr & _). repeat split; lra. }
  exists st, b'. split; [exact A|]. split; [exact B|]. rewrite C. apply map_ext_in. intros p I. destruct (Hp p I) as (M & Vo & V0 & Pr & Pm).
  assert (K : 0 < mi_K m) by apply P. assert (0 < mean3 (pt_stress p) / mi_K m) by (apply Rdiv_lt_0_compat; lra).
  unfold held. rewrite V0. cbv zeta. replace (pt_vol p / pt_vol p) with 1 by (field; lra). rewrite Rmult_1_r, (proj2 (Rltb_true _ _)) by lra.
  replace (mi_K m * (mean3 (pt_stress p) / mi_K m + 1 - 1)) with (mean3 (pt_stress p)) by (field; lra). rewrite Rmax_left by exact Pm. reflexivity.
Qed.
Print Assumptions C124_mu_i_keeps.
(** FINDING: the initial shear stress is dropped by the first update *)
Theorem C124_shear_refuted : forall (m : MuI R) b dt i d, mi_params m -> at_rest b -> sb_vol0d b = false ->
  (forall p, In p (sb_pts b) -> 0 < pt_mass p /\ 0 < pt_vol p /\ 0 < pt_vol0 p /\ 0 <= mean3 (pt_stress p)) ->
  (i < length (sb_pts b))%nat -> q_of (pt_stress (nth i (sb_pts b) d)) <> 0 ->
  exists st b', mi_create_state m b = Ok st /\ law_update (LawMuI m) b (Some st) dt = Ok (b', Some st) /\
  q_of (pt_stress (nth i (sb_pts b') d)) = 0.
Proof.
  intros m b dt i d P Hr V Hp Hi _. destruct (C124_mu_i_partial m b dt P Hr V Hp) as (st & b' & A & B & C). exists st, b'. split; [exact A|]. split; [exact B|].
  assert (L : length (sb_pts b') = length (sb_pts b)) by (rewrite <- (map_length pt_stress (sb_pts b')), C, map_length; reflexivity).
  assert (E : pt_stress (nth i (sb_pts b') d) = held m (nth i (sb_pts b) d)).
  { rewrite <- (map_nth pt_stress). rewrite C. rewrite (nth_indep _ (pt_stress d) (held m d)) by (rewrite map_length; exact Hi). apply map_nth. }
  rewrite E. apply q_of_zero. unfold held. cbv zeta. destruct (Rltb _ _); clear; meq.
Qed.
Print Assumptions C124_shear_refuted.

(** linear elasticity: the state of a body stores its stresses, and nothing else of the body or of a reference given beside it *)
Theorem C124_linear_elastic : forall (b : SoftBody R) s d (m : LinearElastic R) dt, exists st,
  le_create_state (Some b) s d = Ok st /\ st = LS_LE (map pt_stress (sb_pts b)) /\ exists b', law_update (LawLE m) b (Some st) dt = Ok (b', Some st).
Proof. intros b s d m dt. eexists. split; [reflexivity|]. split; [reflexivity|]. eexists. reflexivity. Qed.
Print Assumptions C124_linear_elastic.
(** FINDING: a reference stress given together with densities is replaced by zeros; with nothing given creation fails *)
Theorem C124_reference_refuted : forall (s : list (mat3 R)) (d : list R),
  le_create_state None (Some s) (Some d) = Ok (LS_LE (repeat mzero (length d))) /\ le_create_state (T := R) None None None = Err TypeError.
Proof.
  intros s d. split; [|reflexivity]. unfold le_create_state. do 2 f_equal. induction d as [|x d IH]; [reflexivity|]. cbn [map length repeat]. rewrite IH. reflexivity.
Qed.
Print Assumptions C124_reference_refuted.
Example C124_case : mi_params sand /\ at_rest (soft [part mzero (mdiag 4 1 1) 2 1]) /\ sb_vol0d (soft [part mzero (mdiag 4 1 1) 2 1]) = false /\
  forall p, In p (sb_pts (soft [part mzero (mdiag 4 1 1) 2 1])) -> 0 < pt_mass p /\ 0 < pt_vol p /\ 0 < pt_vol0 p /\ 0 <= mean3 (pt_stress p) /\ q_of (pt_stress p) <> 0.
Proof.
  split; [apply C45_case|]. split; [intros p [<-|[]]; reflexivity|]. split; [reflexivity|]. intros p [<-|[]]. cbn [part pt_mass pt_vol pt_vol0 pt_stress].
  repeat split; try lra. - unfold mean3, mdiag. cbn. rnum. lra.
  - intro Z. apply q_of_zero in Z. apply (f_equal m00) in Z. clear -Z. mcbv. lra.
Qed.
