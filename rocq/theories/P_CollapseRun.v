(** The runs of projects/lorentz_collapse/collapse_setup.py (C136). *)
From Coq Require Import List Arith ZArith Reals Bool Lra Lia.
From Flocq Require Import Core.Raux.
From Verif Require Import Num NumR Linalg Arrays ModelGrid ModelShape ModelMath ModelState ModelLaws ModelSDF ModelForces ModelSolver ModelCollapse
  Sums ResFacts SolverFacts StepProofs ProgressProofs P_Solver.
Import ListNotations.

Section Runs.
Context {T : Type} {NT : NumT T}.

Lemma step_forces (S : Solver T) st st' : solver_step S st = Ok st' -> m_forces (s_mech st') = m_forces (s_mech st).
Proof.
  intro E. unfold solver_step in E. apply rbind_ok in E. destruct E as (wc & _ & E). apply rbind_ok in E. destruct E as (wc2 & _ & E).
  apply rbind_ok in E. destruct E as (ca3 & _ & E). apply rbind_ok in E. destruct E as ((w & m) & E1 & E). apply rbind_ok in E.
  destruct E as ((w' & m') & E2 & E). injection E as <-. cbn [s_mech snd].
  pose proof (g2p_kept _ _ _ _ _ _ _ E1) as (_ & _ & _ & F1). pose proof (constitutive_kept _ _ _ _ _ _ E2) as (_ & _ & _ & F2). cbn [fst snd] in *. congruence.
Qed.
Lemma steps_forces (S : Solver T) n : forall st st', solver_steps S n st = Ok st' -> m_forces (s_mech st') = m_forces (s_mech st).
Proof.
  induction n as [|n IH]; intros st st' E; [injection E as <-; reflexivity|]. cbn [solver_steps] in E. apply rbind_ok in E.
  destruct E as (s1 & E1 & E2). rewrite (IH _ _ E2). apply (step_forces _ _ _ E1).
Qed.
Lemma steps_plus (S : Solver T) a b : forall st, solver_steps S (a + b) st = rbind (solver_steps S a st) (solver_steps S b).
Proof.
  induction a as [|a IH]; intro st; [reflexivity|]. cbn [Nat.add solver_steps]. destruct (solver_step S st) as [s|e]; cbn [rbind]; [apply IH|reflexivity].
Qed.

(** what the parameters put into the template: a floor and, for trajectories, a gravity; nothing else *)
Definition floored (u : Setup T) (p : Params T) (S S' : Solver T) : Prop :=
  length (so_sdfs S') = length (so_sdfs S) /\
  nth_error (so_sdfs S') (su_floor u) = Some (floor_logic (su_geom u) (cp_bumps p) (Some (cp_frictions p))) /\
  (forall j, j <> su_floor u -> nth_error (so_sdfs S') j = nth_error (so_sdfs S) j) /\
  so_scheme S' = so_scheme S /\ so_alpha S' = so_alpha S /\ so_domains S' = so_domains S /\ so_couplings S' = so_couplings S /\
  so_laws S' = so_laws S /\ so_forces S' = so_forces S /\ so_sharp S' = so_sharp S.
Definition tilted (u : Setup T) (p : Params T) (st st' : SimState T) : Prop :=
  s_world st' = s_world st /\ m_laws (s_mech st') = m_laws (s_mech st) /\ m_solvers (s_mech st') = m_solvers (s_mech st) /\
  nth_error (m_forces (s_mech st')) (su_gravity u) = Some (Some (FS_Gravity (gravity_vector p))) /\
  (forall j, j <> su_gravity u -> nth_error (m_forces (s_mech st')) j = nth_error (m_forces (s_mech st)) j) /\
  s_time st' = s_time st /\ s_step st' = s_step st /\ s_dt st' = s_dt st.
Lemma set_floor_ok u S p S' : set_floor u S p = Ok S' -> floored u p S S'.
Proof.
  intro E. unfold set_floor in E. apply rbind_ok in E. destruct E as (l & El & E). injection E as <-. unfold upd_idx in El.
  apply rbind_ok in El. destruct El as (a & Ea & El). cbn [rbind] in El. injection El as <-. apply idx_ok in Ea.
  unfold floored. cbn [so_sdfs so_scheme so_alpha so_domains so_couplings so_laws so_forces so_sharp].
  split; [apply set_nth_length|]. split; [eapply set_nth_same; exact Ea|]. split; [intros j N; apply set_nth_other; congruence|]. repeat split.
Qed.
Lemma set_gravity_ok u st p st' : set_gravity u st p = Ok st' -> tilted u p st st'.
Proof.
  intro E. unfold set_gravity in E. apply rbind_ok in E. destruct E as (l & El & E). injection E as <-. unfold upd_idx in El.
  apply rbind_ok in El. destruct El as (a & Ea & El). apply rbind_ok in El. destruct El as (y & Ey & El). injection El as <-. apply idx_ok in Ea.
  destruct a as [[g|al]|]; try discriminate. injection Ey as <-.
  unfold tilted. cbn [s_world s_mech m_laws m_solvers m_forces s_time s_step s_dt].
  do 3 (split; [reflexivity|]). split; [eapply set_nth_same; exact Ea|]. split; [intros j N; apply set_nth_other; congruence|]. repeat split.
Qed.

(** Snapshot k of a trajectory is the state (k + 1) output steps after the template, under the floor and the gravity
    of the parameters; there are num_steps / output_step of them, and the remaining steps are not made. *)
Lemma scan_ok (S : Solver T) os n : forall st l, scan_snapshots S os n st = Ok l ->
  length l = n /\ forall k s, nth_error l k = Some s -> solver_steps S ((k + 1) * os) st = Ok s.
Proof.
  induction n as [|n IH]; intros st l E.
  - injection E as <-. split; [reflexivity|]. intros [|k] s; discriminate.
  - cbn [scan_snapshots] in E. apply rbind_ok in E. destruct E as (s1 & E1 & E). apply rbind_ok in E. destruct E as (r & E2 & E). injection E as <-.
    destruct (IH _ _ E2) as (L & K). split; [simpl; congruence|]. intros [|k] s Hs.
    + injection Hs as <-. replace ((0 + 1) * os)%nat with os by lia. exact E1.
    + cbn [nth_error] in Hs. replace ((Datatypes.S k + 1) * os)%nat with (os + (k + 1) * os)%nat by lia. rewrite steps_plus, E1. exact (K _ _ Hs).
Qed.
Theorem C136_trajectory : forall (u : Setup T) (S : Solver T) st p l, (0 < output_step u)%Z -> (0 <= num_steps u)%Z ->
  collapse_trajectory u S st (Some p) = Ok l ->
  (Z.of_nat (length l) * output_step u <= num_steps u < (Z.of_nat (length l) + 1) * output_step u)%Z /\
  exists S' st0, floored u p S S' /\ tilted u p st st0 /\
  forall k s, nth_error l k = Some s ->
    solver_steps S' ((k + 1) * Z.to_nat (output_step u)) st0 = Ok s /\
    s_step s = (s_step st + Z.of_nat (k + 1) * output_step u)%Z /\
    nth_error (m_forces (s_mech s)) (su_gravity u) = Some (Some (FS_Gravity (gravity_vector p))).
Proof.
  intros u S st p l O N E. unfold collapse_trajectory in E. apply rbind_ok in E. destruct E as ((S' & st0) & E1 & E).
  apply rbind_ok in E1. destruct E1 as (S1 & EF & E1). apply rbind_ok in E1. destruct E1 as (s1 & EG & E1). injection E1 as <- <-.
  assert (Z0 : (output_step u =? 0)%Z = false) by (apply Z.eqb_neq; lia). rewrite Z0 in E. cbn [fst snd] in E.
  apply scan_ok in E. destruct E as (L & K). split.
  - assert (O' : output_step u <> 0%Z) by (clear - O; lia). pose proof (Z.div_mod (num_steps u) (output_step u) O') as D.
    pose proof (Z.mod_pos_bound (num_steps u) (output_step u) O) as M. pose proof (Z.div_pos _ _ N O) as Q.
    rewrite L, Z2Nat.id by exact Q. clear - D M. nia.
  - exists S1, s1. split; [apply set_floor_ok, EF|]. pose proof (set_gravity_ok _ _ _ _ EG) as G. split; [exact G|].
    intros k s Hs. specialize (K _ _ Hs). split; [exact K|]. destruct (steps_kept _ _ _ _ K) as (_ & Ks & _).
    destruct G as (_ & _ & _ & G1 & _ & _ & G2 & _). split.
    + rewrite Ks, G2. rewrite Nat2Z.inj_mul, Z2Nat.id by lia. reflexivity.
    + rewrite (steps_forces _ _ _ _ K). exact G1.
Qed.

(** A run makes all num_steps steps and logs after steps 1, 1 + output_step, 1 + 2 output_step, ... *)
Lemma ceil_next i os : (0 < os)%Z -> ((i + 1 + os - 1) / os = (i + os - 1) / os + if (i mod os =? 0)%Z then 1 else 0)%Z.
Proof.
  intro P. assert (N : os <> 0%Z) by lia. pose proof (Z.div_mod i os N) as D. pose proof (Z.mod_pos_bound i os P) as M.
  revert D M. generalize (i / os)%Z (i mod os)%Z. intros q r D M. destruct (Z.eqb_spec r 0) as [Z0|Z0].
  - replace (i + 1 + os - 1)%Z with (0 + (q + 1) * os)%Z by lia. replace (i + os - 1)%Z with ((os - 1) + q * os)%Z by lia.
    rewrite !Z.div_add by lia. rewrite Z.div_small by lia. rewrite (Z.div_small (os - 1)) by lia. lia.
  - replace (i + 1 + os - 1)%Z with (r + (q + 1) * os)%Z by lia. replace (i + os - 1)%Z with ((r - 1) + (q + 1) * os)%Z by lia.
    rewrite !Z.div_add by lia. rewrite !Z.div_small by lia. lia.
Qed.
Lemma ceil_mult i os : (0 < os)%Z -> (i mod os = 0)%Z -> ((i + os - 1) / os * os = i)%Z.
Proof.
  intros P Z0. assert (N : os <> 0%Z) by lia. pose proof (Z.div_mod i os N) as D. rewrite Z0 in D. revert D. generalize (i / os)%Z. intros q D.
  replace (i + os - 1)%Z with ((os - 1) + q * os)%Z by lia. rewrite Z.div_add by lia. rewrite (Z.div_small (os - 1)) by lia. lia.
Qed.
Lemma run_loop_ok (S : Solver T) id os n : (0 < os)%Z -> forall i st fin logs, (0 <= i)%Z -> run_loop S id os n i st = Ok (fin, logs) ->
  solver_steps S n st = Ok fin /\
  Z.of_nat (length logs) = ((i + Z.of_nat n + os - 1) / os - (i + os - 1) / os)%Z /\
  forall k s, nth_error logs k = Some s ->
    exists m, Z.of_nat m = (((i + os - 1) / os + Z.of_nat k) * os - i + 1)%Z /\ solver_steps S m st = Ok s.
Proof.
  intro O. induction n as [|n IH]; intros i st fin logs I E.
  - injection E as <- <-. split; [reflexivity|]. split; [simpl; rewrite Z.add_0_r; lia|]. intros [|k] s; discriminate.
  - cbn [run_loop] in E. apply rbind_ok in E. destruct E as (s1 & E1 & E).
    assert (C : ((i + 1 + os - 1) / os = (i + os - 1) / os + if (i mod os =? 0)%Z then 1 else 0)%Z).
    { apply ceil_next, O. }
    assert (B : (i + Z.of_nat (Datatypes.S n) + os - 1 = i + 1 + Z.of_nat n + os - 1)%Z) by lia.
    destruct (Z.eqb_spec (i mod os) 0) as [Z0|Z0].
    + destruct id as [d|]; [|discriminate]. apply rbind_ok in E. destruct E as ((f & r) & E2 & E). injection E as <- <-.
      destruct (IH (i + 1)%Z _ _ _ ltac:(lia) E2) as (A1 & A2 & A3). cbn [fst snd].
      split; [cbn [solver_steps]; rewrite E1; exact A1|]. split; [rewrite B; cbn [length]; lia|].
      assert (I0 : ((i + os - 1) / os * os = i)%Z).
      { apply ceil_mult; assumption. }
      intros [|k] s Hs.
      * injection Hs as <-. exists 1%nat. split; [nia|]. cbn [solver_steps]. rewrite E1. reflexivity.
      * cbn [nth_error] in Hs. destruct (A3 _ _ Hs) as (m & M1 & M2). exists (Datatypes.S m). split; [nia|]. cbn [solver_steps]. rewrite E1. exact M2.
    + destruct (IH (i + 1)%Z _ _ _ ltac:(lia) E) as (A1 & A2 & A3).
      split; [cbn [solver_steps]; rewrite E1; exact A1|]. split; [rewrite B; lia|].
      intros k s Hs. destruct (A3 _ _ Hs) as (m & M1 & M2). exists (Datatypes.S m). split; [nia|]. cbn [solver_steps]. rewrite E1. exact M2.
Qed.
Theorem C136_run : forall (u : Setup T) (S : Solver T) st p fin logs, (0 < output_step u)%Z -> (0 <= num_steps u)%Z ->
  collapse_run u S st (Some p) = Ok (fin, logs) ->
  exists S', floored u p S S' /\ solver_steps S' (Z.to_nat (num_steps u)) st = Ok fin /\
  ((Z.of_nat (length logs) - 1) * output_step u < num_steps u <= Z.of_nat (length logs) * output_step u)%Z /\
  forall k s, nth_error logs k = Some s -> solver_steps S' (k * Z.to_nat (output_step u) + 1) st = Ok s /\
    s_step s = (s_step st + Z.of_nat k * output_step u + 1)%Z.
Proof.
  intros u S st p fin logs O N E. unfold collapse_run in E. apply rbind_ok in E. destruct E as (S1 & EF & E). exists S1. split; [apply set_floor_ok, EF|].
  apply run_loop_ok in E; [|exact O|lia]. destruct E as (A1 & A2 & A3). split; [exact A1|].
  replace ((0 + output_step u - 1) / output_step u)%Z with 0%Z in * by (symmetry; apply Z.div_small; lia).
  split.
  - rewrite A2, Z2Nat.id, Z.sub_0_r, Z.add_0_l by lia. set (os := output_step u) in *. set (n := num_steps u) in *.
    pose proof (Z.div_mod (n + os - 1) os ltac:(lia)) as D. pose proof (Z.mod_pos_bound (n + os - 1) os O) as M. nia.
  - intros k s Hs. destruct (A3 _ _ Hs) as (m & M1 & M2). assert (Em : m = (k * Z.to_nat (output_step u) + 1)%nat) by nia. subst m. split; [exact M2|].
    destruct (steps_kept _ _ _ _ M2) as (_ & Ks & _). rewrite Ks. nia.
Qed.

(** The run never looks at the tilt: any other tilt gives the same run, under the gravity of the template. *)
Definition with_tilt (p : Params T) (a : T) : Params T := {| cp_bumps := cp_bumps p; cp_frictions := cp_frictions p; cp_tilt := a; cp_id := cp_id p |}.
Theorem C136_tilt_refuted : forall (u : Setup T) (S : Solver T) st p fin logs, (0 < output_step u)%Z -> (0 <= num_steps u)%Z ->
  collapse_run u S st (Some p) = Ok (fin, logs) ->
  (forall a, collapse_run u S st (Some (with_tilt p a)) = Ok (fin, logs)) /\
  m_forces (s_mech fin) = m_forces (s_mech st) /\ forall s, In s logs -> m_forces (s_mech s) = m_forces (s_mech st).
Proof.
  intros u S st p fin logs O N E. split; [intro a; exact E|].
  destruct (C136_run u S st p fin logs O N E) as (S' & _ & A1 & _ & A3). split; [apply (steps_forces _ _ _ _ A1)|].
  intros s Hs. apply In_nth_error in Hs. destruct Hs as (k & Hk). destruct (A3 _ _ Hk) as (B & _). apply (steps_forces _ _ _ _ B).
Qed.
(** The two entry points never show the same step, when the output step is more than one. *)
Theorem C136_frames_refuted : forall (u : Setup T) (S : Solver T) st p fin logs l, (1 < output_step u)%Z -> (0 <= num_steps u)%Z ->
  collapse_run u S st (Some p) = Ok (fin, logs) -> collapse_trajectory u S st (Some p) = Ok l ->
  forall s s', In s logs -> In s' l -> s_step s <> s_step s'.
Proof.
  intros u S st p fin logs l O N E F s s' Hs Hs'. apply In_nth_error in Hs. destruct Hs as (k & Hk). apply In_nth_error in Hs'. destruct Hs' as (j & Hj).
  destruct (C136_run u S st p fin logs ltac:(lia) N E) as (S1 & _ & _ & _ & A). destruct (A _ _ Hk) as (_ & ->).
  destruct (C136_trajectory u S st p l ltac:(lia) N F) as (_ & S2 & s2 & _ & _ & B). destruct (B _ _ Hj) as (_ & -> & _).
  intro Q. assert (X : (Z.of_nat (j + 1) * output_step u - Z.of_nat k * output_step u = 1)%Z) by lia. rewrite <- Z.mul_sub_distr_r in X.
  set (d := (Z.of_nat (j + 1) - Z.of_nat k)%Z) in *. assert (d <= 0 \/ 1 <= d)%Z by lia. nia.
Qed.
(** Both take parameters as optional, and neither runs without them. *)
Theorem C136_default_refuted : forall (u : Setup T) (S : Solver T) st,
  (forall l, collapse_trajectory u S st None <> Ok l) /\ ((0 < num_steps u)%Z -> forall r, collapse_run u S st None <> Ok r).
Proof.
  intros u S st. split.
  - intros l. unfold collapse_trajectory. cbn [rbind]. destruct (Z.eqb _ _); discriminate.
  - intros N r. unfold collapse_run. cbn [rbind]. destruct (Z.to_nat (num_steps u)) as [|n] eqn:En; [lia|]. cbn [run_loop].
    destruct (solver_step S st) as [s1|e]; cbn [rbind]; [|discriminate]. rewrite Zmod_0_l. cbn. discriminate.
Qed.
End Runs.

Local Open Scope R_scope.
(** Over the reals: the snapshots are output_step time steps apart and none is later than the total time; a run ends
    within one time step of it. *)
Theorem C136_times : forall (u : Setup R) (S : Solver R) st p, 0 < su_dt u -> su_dt u <= su_output u -> 0 <= su_total u -> s_dt st = su_dt u ->
  (forall l k s, collapse_trajectory u S st (Some p) = Ok l -> nth_error l k = Some s ->
     s_time s = s_time st + INR (k + 1) * (IZR (output_step u) * su_dt u) /\ s_time s <= s_time st + su_total u) /\
  (forall fin logs, collapse_run u S st (Some p) = Ok (fin, logs) -> s_time st + su_total u - su_dt u < s_time fin <= s_time st + su_total u) /\
  su_output u - su_dt u < IZR (output_step u) * su_dt u <= su_output u.
Proof.
  intros u S st p D O Tt Hd.
  assert (F : forall x, 0 <= x -> (0 <= Ztrunc (x / su_dt u))%Z /\ x - su_dt u < IZR (Ztrunc (x / su_dt u)) * su_dt u <= x).
  { intros x X. assert (Q : 0 <= x / su_dt u) by (apply Rmult_le_pos; [lra|apply Rlt_le, Rinv_0_lt_compat, D]).
    rewrite Ztrunc_floor by exact Q. pose proof (Zfloor_lb (x / su_dt u)). pose proof (Zfloor_ub (x / su_dt u)).
    assert (E : x / su_dt u * su_dt u = x) by (field; lra). set (q := x / su_dt u) in *. split; [apply Zfloor_lub; simpl; lra|]. nra. }
  destruct (F (su_total u) Tt) as (N0 & N1). destruct (F (su_output u) ltac:(lra)) as (_ & O1).
  change (Ztrunc (su_total u / su_dt u)) with (num_steps u) in *. change (Ztrunc (su_output u / su_dt u)) with (output_step u) in *.
  assert (OP : (0 < output_step u)%Z).
  { change (output_step u) with (Ztrunc (su_output u / su_dt u)). assert (1 <= su_output u / su_dt u).
    { apply (Rmult_le_reg_r (su_dt u)); [exact D|]. replace (su_output u / su_dt u * su_dt u) with (su_output u) by (field; lra). lra. }
    rewrite Ztrunc_floor by lra. apply Z.lt_le_trans with 1%Z; [lia|]. apply Zfloor_lub. simpl. lra. }
  split; [|split; [|exact O1]].
  - intros l k s E Hk. destruct (C136_trajectory u S st p l OP N0 E) as (L & S' & st0 & _ & G & K).
    destruct (K _ _ Hk) as (K1 & _). pose proof (C22_time_over_reals _ _ _ _ K1) as TT.
    destruct G as (_ & _ & _ & _ & _ & G1 & _ & G2). rewrite G1, G2, Hd in TT. rewrite mult_INR in TT.
    assert (IO : INR (Z.to_nat (output_step u)) = IZR (output_step u)) by (rewrite INR_IZR_INZ, Z2Nat.id by lia; reflexivity). rewrite IO in TT.
    assert (KL : (k + 1 <= length l)%nat) by (assert (k < length l)%nat by (apply nth_error_Some; congruence); lia).
    split; [rewrite TT; ring|]. rewrite TT.
    assert (B : INR (k + 1) * IZR (output_step u) <= IZR (num_steps u)).
    { rewrite INR_IZR_INZ, <- mult_IZR. apply IZR_le. nia. }
    nra.
  - intros fin logs E. destruct (C136_run u S st p fin logs OP N0 E) as (S' & _ & A1 & _). pose proof (C22_time_over_reals _ _ _ _ A1) as TT.
    rewrite Hd, INR_IZR_INZ, Z2Nat.id in TT by exact N0. lra.
Qed.
(** Gravity is 9.81, turned from straight down towards +x by the tilt in degrees. *)
Theorem C136_gravity : forall p : Params R, let g := gravity_vector p in let a := cp_tilt p * PI / 180 in
  vx g = 981/100 * sin a /\ vy g = - (981/100 * cos a) /\ vz g = 0 /\ vnorm g = 981/100.
Proof.
  intros p g a. unfold g, gravity_vector, rotation_2d. cbn [vx vy vz]. 
  replace (@nmul R _ (cp_tilt p) (@ndiv R _ npi (nofZ 180))) with a by (unfold a; rnum; field).
  assert (X : forall x y z : R, vx (V3 x y z) = x /\ vy (V3 x y z) = y /\ vz (V3 x y z) = z) by (intros; repeat split).
  unfold vnorm, vnorm2, vdot. cbn [vx vy vz]. rnum.
  split; [field|]. split; [field|]. split; [try reflexivity; ring|].
  match goal with |- sqrt ?e = _ => replace e with ((981/100) * (981/100) * (Rsqr (sin a) + Rsqr (cos a))) by (unfold Rsqr; field) end.
  rewrite sin2_cos2, Rmult_1_r. apply sqrt_square. lra.
Qed.

(** Two elastic points under gravity above a floor with a tilted run of 30 steps, one frame every 4: the hypotheses
    hold, there are 7 snapshots and 8 frames, and the 2 last steps are only made by the run. *)
Definition grid_d : GridDomain R := {| gd_dim := D2; gd_origin := V3 0 0 0; gd_end := V3 5 5 0; gd_cell := 1; gd_inv := 1;
  gd_size := V3 6%Z 6%Z 1%Z; gd_padding := 0%Z |}.
Definition point_d (x : vec3 R) : Particle R := {| pt_pos := x; pt_vel := V3 1 0 0; pt_mass := 1; pt_force := V3 0 0 0; pt_vol := 1; pt_vol0 := 1;
  pt_L := mzero; pt_stress := mzero; pt_F := meye; pt_Fst := meye |}.
Definition flat_d : Spectral R := {| sp_waves := []; sp_base := 0 |}.
Definition setup_d : Setup R := {| su_dt := 1/10; su_total := 3; su_output := 2/5; su_geom := {| fl_xmin := 1; fl_xmax := 5; fl_width := 1 |};
  su_floor := 0; su_gravity := 0 |}.
Definition params_d : Params R := {| cp_bumps := flat_d; cp_frictions := flat_d; cp_tilt := 30; cp_id := 0 |}.
Definition solver_d : Solver R := {| so_scheme := USL; so_alpha := 1; so_domains := [grid_d];
  so_couplings := [{| c_kernel := Linear; c_p := 0; c_g := 0; c_c := Some 0%nat; c_s := Some 0%nat; c_skip := false |}];
  so_laws := [Some (LawLE (linear_elastic 1 (1/4) false))];
  so_forces := [FGravity {| gv_on_grid := true; gv_callback := None; gv_ps := []; gv_gs := [0%nat]; gv_f := 0 |};
                FCollider {| cl_sdf := Some 0%nat; cl_gs := [0%nat]; cl_gap := 0; cl_friction := 0 |}];
  so_sdfs := [floor_logic (su_geom setup_d) flat_d None]; so_sharp := 1 |}.
Definition state_d : SimState R := {|
  s_world := {| w_mps := [Soft {| sb_dim := D2; sb_pts := [point_d (V3 (3/2) 2 0); point_d (V3 2 2 0)]; sb_storeF := false; sb_vol0d := false |}];
                w_sdfs := [floor_state flat_d] |};
  s_mech := {| m_laws := [Some (LS_LE [mzero; mzero])]; m_solvers := [Some SS_USL]; m_forces := [Some (FS_Gravity (V3 0 (-(981/100)) 0))] |};
  s_time := 0; s_step := 0; s_dt := 1/10 |}.
Lemma scan_progress (S : Solver R) os : forall n st r, solver_step S st = Ok r -> many_points S (s_world st) -> exists l, scan_snapshots S os n st = Ok l.
Proof.
  (* all the steps succeed, so each block does *)
  intros n st r E M. assert (G : forall n a, (exists s, solver_steps S a st = Ok s) -> exists s l, solver_steps S a st = Ok s /\ scan_snapshots S os n s = Ok l).
  { clear n. induction n as [|n IH]; intros a (s & Es); [exists s, []; split; [exact Es|reflexivity]|].
    destruct (steps_progress S st r (a + os) E M) as (s2 & E2). destruct (IH (a + os)%nat (ex_intro _ s2 E2)) as (s2' & l & E3 & E4).
    rewrite E2 in E3. injection E3 as <-. exists s, (s2 :: l). split; [exact Es|]. cbn [scan_snapshots]. rewrite steps_plus, Es in E2. cbn [rbind] in E2. rewrite E2. cbn [rbind]. rewrite E4. reflexivity. }
  destruct (G n O (ex_intro _ st eq_refl)) as (s & l & Es & El). injection Es as <-. exists l. exact El.
Qed.
Lemma loop_progress (S : Solver R) d os : forall n i st r, solver_step S st = Ok r -> many_points S (s_world st) -> exists x, run_loop S (Some d) os n i st = Ok x.
Proof.
  intros n i st r E M. assert (G : forall n i a s, solver_steps S a st = Ok s -> exists x, run_loop S (Some d) os n i s = Ok x).
  { clear n i. induction n as [|n IH]; intros i a s Es; [eexists; reflexivity|]. cbn [run_loop].
    destruct (steps_progress S st r (a + 1) E M) as (s2 & E2). rewrite steps_plus, Es in E2. cbn [rbind solver_steps] in E2. apply rbind_ok in E2. destruct E2 as (s3 & E3 & E2). injection E2 as <-.
    assert (Es3 : solver_steps S (a + 1) st = Ok s3) by (rewrite steps_plus, Es; cbn [rbind solver_steps]; rewrite E3; reflexivity).
    rewrite E3. cbn [rbind]. destruct (IH (i + 1)%Z (a + 1)%nat s3 Es3) as (x & Ex). rewrite Ex. destruct (Z.eqb _ _); eexists; reflexivity. }
  apply (G n i O st). reflexivity.
Qed.
Example C136_case :
  output_step setup_d = 4%Z /\ num_steps setup_d = 30%Z /\
  exists l fin logs, collapse_trajectory setup_d solver_d state_d (Some params_d) = Ok l /\ length l = 7%nat /\
    collapse_run setup_d solver_d state_d (Some params_d) = Ok (fin, logs) /\ length logs = 8%nat /\
    s_time fin = 3 /\ (forall s, nth_error l 6 = Some s -> s_time s = 28/10).
Proof.
  assert (E4 : output_step setup_d = 4%Z) by (unfold output_step; cbn [su_output su_dt setup_d]; rnum; replace (2 / 5 / (1 / 10)) with (IZR 4) by lra; apply Ztrunc_IZR).
  assert (E30 : num_steps setup_d = 30%Z) by (unfold num_steps; cbn [su_total su_dt setup_d]; rnum; replace (3 / (1 / 10)) with (IZR 30) by lra; apply Ztrunc_IZR).
  split; [exact E4|]. split; [exact E30|].
  assert (X : exists S', set_floor setup_d solver_d params_d = Ok S' /\ (exists r, solver_step S' state_d = Ok r) /\ many_points S' (s_world state_d) /\
     exists st', set_gravity setup_d state_d params_d = Ok st' /\ (exists r, solver_step S' st' = Ok r) /\ many_points S' (s_world st')).
  { eexists. split; [reflexivity|]. split; [eexists; reflexivity|]. split; [intros c s [<-|[]] _ Hs; injection Hs as <-; discriminate|].
    eexists. split; [reflexivity|]. split; [eexists; reflexivity|]. intros c s [<-|[]] _ Hs; injection Hs as <-; discriminate. }
  destruct X as (S' & EF & (r & Er) & M & st' & EG & (r2 & Er2) & M2).
  destruct (scan_progress S' 4 7 st' r2 Er2 M2) as (l & El). destruct (loop_progress S' 0 4 30 0 state_d r Er M) as ((fin & logs) & Eg).
  assert (TR : collapse_trajectory setup_d solver_d state_d (Some params_d) = Ok l) by (unfold collapse_trajectory; rewrite EF; cbn [rbind]; rewrite EG; cbn [rbind]; rewrite E4, E30; exact El).
  assert (RN : collapse_run setup_d solver_d state_d (Some params_d) = Ok (fin, logs)) by (unfold collapse_run; rewrite EF; cbn [rbind]; rewrite E4, E30; exact Eg).
  exists l, fin, logs. split; [exact TR|]. assert (LL : length l = 7%nat) by (exact (proj1 (scan_ok _ _ _ _ _ El))). split; [exact LL|]. split; [exact RN|].
  assert (O4 : (0 < output_step setup_d)%Z) by (rewrite E4; lia). assert (N30 : (0 <= num_steps setup_d)%Z) by (rewrite E30; lia).
  destruct (C136_run _ _ _ _ _ _ O4 N30 RN) as (S2 & _ & A1 & A2 & _). rewrite E4, E30 in *. split; [lia|].
  pose proof (C22_time_over_reals _ _ _ _ A1) as TT. split.
  - rewrite TT. cbn [s_time s_dt state_d]. rewrite INR_IZR_INZ, Z2Nat.id by lia. lra.
  - intros s Hs. destruct (C136_times setup_d solver_d state_d params_d ltac:(cbn [su_dt setup_d]; lra) ltac:(cbn [su_dt su_output setup_d]; lra) ltac:(cbn [su_total setup_d]; lra) eq_refl) as (CT & _).
    destruct (CT _ _ _ TR Hs) as (-> & _). rewrite E4. cbn [s_time state_d su_dt setup_d]. simpl INR. lra.
Qed.
Print Assumptions C136_trajectory.
Print Assumptions C136_run.
Print Assumptions C136_tilt_refuted.
Print Assumptions C136_frames_refuted.
Print Assumptions C136_default_refuted.
Print Assumptions C136_times.
Print Assumptions C136_gravity.
