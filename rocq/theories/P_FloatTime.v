(** C131: the clock of a run computed with rounding. *)
From Coq Require Import List ZArith Arith Reals Bool Lra Lia.
From Flocq Require Import Core.
From Verif Require Import Num NumR NumFl FlFacts Linalg ModelGrid ModelShape ModelState ModelLaws ModelForces ModelSolver StepProofs ProgressProofs.
Import ListNotations.
Local Open Scope R_scope.

Section Clock.
Context (p e : Z) (OK : format_ok p e).
Notation F := (isfloat p e).
Notation rnd := (fl p e).
Definition tick (dt t : R) : R := rnd (t + dt).

Lemma tick_float dt t : F (tick dt t).
Proof. apply fl_float, OK. Qed.
Lemma ticks_float dt t n : F t -> F (Nat.iter n (tick dt) t).
Proof. intros Ft. destruct n as [|n]; [exact Ft|]. apply tick_float. Qed.
Lemma tick_up dt t : F t -> 0 <= dt -> t <= tick dt t.
Proof. intros Ft Hd. rewrite <- (fl_id _ _ _ Ft) at 1. apply fl_mono; [exact OK|lra]. Qed.

(** an increment below half a unit in the last place is lost *)
Lemma tick_stall dt t : F t -> F dt -> 0 < dt -> bpow radix2 (p + 1) * dt <= t -> tick dt t = t.
Proof.
  intros Ft Fd Hd Ht. destruct OK as [P1 E1].
  assert (B : 0 < bpow radix2 (p + 1)) by apply bpow_gt_0.
  assert (T0 : 0 < t) by (eapply Rlt_le_trans; [|exact Ht]; apply Rmult_lt_0_compat; assumption).
  destruct (mag radix2 t) as (k & Hk). specialize (Hk ltac:(lra)). rewrite (Rabs_right t) in Hk by lra.
  assert (D0 : bpow radix2 e <= dt).
  { assert (Fd' := Fd). apply FLT_format_generic in Fd'; [|red; lia]. destruct Fd' as [[m x] M1 M2 M3]. cbn [Fnum Fexp] in *.
    unfold F2R in M1; cbn [Fnum Fexp] in M1. assert (X : 0 < bpow radix2 x) by apply bpow_gt_0.
    assert (Hm : (0 < m)%Z) by (apply lt_IZR; destruct (Rlt_le_dec 0 (IZR m)) as [G|G]; [exact G|nra]).
    assert (M : 1 <= IZR m) by (apply (IZR_le 1); lia). apply Rle_trans with (bpow radix2 x); [apply bpow_le; exact M3|]. rewrite M1. nra. }
  assert (K : (p + 1 + e < k)%Z).
  { apply (lt_bpow radix2). eapply Rle_lt_trans; [|apply (proj2 Hk)]. eapply Rle_trans; [|exact Ht].
    rewrite bpow_plus. apply Rmult_le_compat_l; lra. }
  assert (Small : dt < bpow radix2 (k - p - 1)).
  { apply Rmult_lt_reg_l with (bpow radix2 (p + 1)); [exact B|]. rewrite <- bpow_plus.
    replace (p + 1 + (k - p - 1))%Z with k by lia. lra. }
  (* t is an integer number of units *)
  assert (Ez : exists z, t = IZR z * bpow radix2 (k - p)).
  { exists (Ztrunc (scaled_mantissa radix2 (FLT_exp e p) t)). red in Ft. red in Ft. rewrite Ft at 1.
    unfold F2R; cbn [Fnum Fexp]. f_equal. unfold cexp. rewrite (mag_unique radix2 t k); [|rewrite Rabs_right by lra; exact Hk].
    unfold FLT_exp. rewrite Z.max_l by lia. reflexivity. }
  destruct Ez as (z & Ez).
  assert (U : 0 < bpow radix2 (k - p)) by apply bpow_gt_0.
  assert (H2 : bpow radix2 (k - p) = 2 * bpow radix2 (k - p - 1)) by (replace (k - p)%Z with (1 + (k - p - 1))%Z at 1 by lia; rewrite bpow_plus; simpl; lra).
  assert (Zk : (z < 2 ^ p)%Z).
  { apply lt_IZR. change (2 ^ p)%Z with (radix2 ^ p)%Z. rewrite IZR_Zpower by lia. apply Rmult_lt_reg_r with (bpow radix2 (k - p)); [exact U|].
    rewrite <- Ez, <- bpow_plus. replace (p + (k - p))%Z with k by lia. apply Hk. }
  assert (Top : t + dt < bpow radix2 k).
  { replace (bpow radix2 k) with (IZR (2 ^ p) * bpow radix2 (k - p)).
    - assert (IZR z + 1 <= IZR (2 ^ p)) by (rewrite <- plus_IZR; apply IZR_le; lia).
      assert (IZR z * bpow radix2 (k - p) + bpow radix2 (k - p) <= IZR (2 ^ p) * bpow radix2 (k - p)) by nra. rewrite <- Ez in H0. lra.
    - change (2 ^ p)%Z with (radix2 ^ p)%Z. rewrite IZR_Zpower by lia. rewrite <- bpow_plus. f_equal. lia. }
  unfold tick. rewrite (fl_binade p e k); [|lia|lia|rewrite Rabs_right by lra; lra].
  rewrite (Znearest_imp _ _ z).
  - symmetry. exact Ez.
  - rewrite Ez, Rmult_plus_distr_r, Rmult_assoc, <- bpow_plus. replace (k - p + (p - k))%Z with 0%Z by lia. cbn [bpow].
    replace (IZR z * 1 + dt * bpow radix2 (p - k) - IZR z) with (dt * bpow radix2 (p - k)) by ring.
    assert (V : 0 < bpow radix2 (p - k)) by apply bpow_gt_0. rewrite Rabs_right by (apply Rle_ge; apply Rmult_le_pos; lra).
    apply Rlt_le_trans with (bpow radix2 (k - p - 1) * bpow radix2 (p - k)); [apply Rmult_lt_compat_r; lra|].
    rewrite <- bpow_plus. replace (k - p - 1 + (p - k))%Z with (-1)%Z by lia. simpl. lra.
Qed.
Lemma ticks_stall dt t n : F t -> F dt -> 0 < dt -> bpow radix2 (p + 1) * dt <= t -> Nat.iter n (tick dt) t = t.
Proof. intros Ft Fd Hd Ht. induction n as [|n IH]; [reflexivity|]. simpl. rewrite IH. apply tick_stall; assumption. Qed.

Lemma scale_float dt k : (0 <= k)%Z -> F dt -> F (bpow radix2 k * dt).
Proof.
  intros Hk Fd. destruct (Req_dec dt 0) as [->|N0]; [rewrite Rmult_0_r; apply float_0|].
  apply FLT_format_generic in Fd; [|destruct OK; red; lia]. destruct Fd as [[m x] E1 E2 E3].
  apply generic_format_FLT. exists (Float radix2 m (x + k)).
  - rewrite E1. unfold F2R; cbn [Fnum Fexp]. rewrite bpow_plus. ring.
  - exact E2.
  - cbn [Fexp] in *. lia.
Qed.
Lemma ticks_bounded dt n : F dt -> 0 < dt -> forall t, F t -> t <= bpow radix2 (p + 1) * dt -> Nat.iter n (tick dt) t <= bpow radix2 (p + 1) * dt.
Proof.
  intros Fd Hd t Ft Ht. induction n as [|n IH]; [exact Ht|]. simpl.
  assert (FB : F (bpow radix2 (p + 1) * dt)) by (apply scale_float; [destruct OK; lia|exact Fd]).
  rewrite <- (tick_stall dt (bpow radix2 (p + 1) * dt) FB Fd Hd (Rle_refl _)) at 1. apply fl_mono; [exact OK|lra].
Qed.

(** while it runs, the clock is as accurate as the additions allow *)
Lemma ticks_error dt t n : F t -> F dt -> 0 <= t -> 0 <= dt ->
  Rabs (Nat.iter n (tick dt) t - (t + INR n * dt)) <= ((1 + uro p) ^ n - 1) * (t + INR n * dt).
Proof.
  intros Ft Fd Ht Hd. pose proof (uro_pos p) as U. induction n as [|n IH].
  - simpl. replace (t - (t + 0 * dt)) with 0 by ring. rewrite Rabs_R0. lra.
  - change (Nat.iter (S n) (tick dt) t) with (tick dt (Nat.iter n (tick dt) t)). set (s := Nat.iter n (tick dt) t) in *.
    assert (Fs : F s) by (apply ticks_float; exact Ft). pose proof (fl_add_err p e OK s dt Fs Fd) as E.
    rewrite S_INR. set (x := t + INR n * dt) in *. replace (t + (INR n + 1) * dt) with (x + dt) by (unfold x; ring).
    assert (X0 : 0 <= x) by (unfold x; pose proof (pos_INR n); nra).
    assert (K1 : 1 <= (1 + uro p) ^ n) by (apply pow_R1_Rle; lra). set (K := (1 + uro p) ^ n) in *.
    replace (tick dt s - (x + dt)) with ((rnd (s + dt) - (s + dt)) + (s - x)) by (unfold tick; ring).
    eapply Rle_trans; [apply Rabs_triang|].
    assert (S1 : Rabs (s + dt) <= K * x + dt).
    { replace (s + dt) with ((s - x) + (x + dt)) by ring. eapply Rle_trans; [apply Rabs_triang|]. rewrite (Rabs_right (x + dt)) by lra. lra. }
    simpl. fold K. assert (uro p * Rabs (s + dt) <= uro p * (K * x + dt)) by (apply Rmult_le_compat_l; lra).
    assert (dt <= K * dt) by nra. nra.
Qed.

(** a time step that is a power of two: the clock is exact up to 2^p steps and stands still afterwards *)
Lemma near_even n : Z.even n = true -> ZnearestE (IZR n + 1/2) = n.
Proof.
  intros Hn. unfold Znearest. assert (Fn : Zfloor (IZR n + 1/2) = n) by (apply Zfloor_imp; rewrite plus_IZR; lra).
  rewrite Fn, Hn. rewrite Rcompare_Eq by lra. reflexivity.
Qed.
Lemma float_mult z k : (e <= k)%Z -> (Z.abs z <= 2 ^ p)%Z -> F (IZR z * bpow radix2 k).
Proof.
  intros Hk Hz. destruct OK as [P1 P2]. destruct (Z.eq_dec (Z.abs z) (2 ^ p)) as [E|NE].
  - assert (H : F (bpow radix2 (p + k))) by (apply float_bpow; [exact OK|lia]).
    rewrite bpow_plus, <- IZR_Zpower in H by lia. change (radix2 ^ p)%Z with (2 ^ p)%Z in H. rewrite <- E in H.
    destruct (Z.abs_spec z) as [[_ A]|[_ A]]; rewrite A in H; [exact H|]. rewrite opp_IZR in H.
    replace (IZR z * bpow radix2 k) with (- (- IZR z * bpow radix2 k)) by ring. apply float_opp, H.
  - apply generic_format_FLT. exists (Float radix2 z k); [reflexivity|cbn [Fnum]; change (radix2 ^ p)%Z with (2 ^ p)%Z; lia|cbn [Fexp]; lia].
Qed.
Lemma ticks_pow2 k n : (e <= k)%Z -> Nat.iter n (tick (bpow radix2 k)) 0 = IZR (Z.min (Z.of_nat n) (2 ^ p)) * bpow radix2 k.
Proof.
  intros Hk. destruct OK as [P1 P2]. assert (PP : (2 <= 2 ^ p)%Z) by (change 2%Z with (2 ^ 1)%Z at 1; apply Z.pow_le_mono_r; lia).
  induction n as [|n IH].
  - simpl. rewrite Z.min_l by lia. ring.
  - change (Nat.iter (S n) (tick (bpow radix2 k)) 0) with (tick (bpow radix2 k) (Nat.iter n (tick (bpow radix2 k)) 0)). rewrite IH. unfold tick.
    destruct (Z_lt_le_dec (Z.of_nat n) (2 ^ p)) as [L|G].
    + rewrite (Z.min_l (Z.of_nat n)) by lia. rewrite (Z.min_l (Z.of_nat (S n))) by lia.
      replace (IZR (Z.of_nat n) * bpow radix2 k + bpow radix2 k) with (IZR (Z.of_nat (S n)) * bpow radix2 k) by (rewrite Nat2Z.inj_succ, succ_IZR; ring).
      apply fl_id, float_mult; [exact Hk|lia].
    + rewrite !Z.min_r by lia. assert (B : 0 < bpow radix2 k) by apply bpow_gt_0.
      assert (Pw : IZR (2 ^ p) = bpow radix2 p) by (change (2 ^ p)%Z with (radix2 ^ p)%Z; apply IZR_Zpower; lia).
      assert (Q1 : 1 < bpow radix2 p) by (change 1 with (bpow radix2 0); apply bpow_lt; lia).
      rewrite (fl_binade p e (p + k + 1)); [|lia|lia|].
      * replace (p - (p + k + 1))%Z with (- k + - (1))%Z by lia. replace (p + k + 1 - p)%Z with (k + 1)%Z by lia.
        replace ((IZR (2 ^ p) * bpow radix2 k + bpow radix2 k) * bpow radix2 (- k + - (1))) with (IZR (2 ^ (p - 1)) + 1/2).
        -- rewrite near_even.
           ++ rewrite bpow_plus. replace (2 ^ p)%Z with (2 ^ (p - 1) * 2)%Z by (replace p with ((p - 1) + 1)%Z at 2 by lia; rewrite Z.pow_add_r by lia; reflexivity).
              rewrite mult_IZR. change (bpow radix2 1) with 2. ring.
           ++ replace (p - 1)%Z with (1 + (p - 2))%Z by lia. rewrite Z.pow_add_r, Z.even_mul by lia. reflexivity.
        -- replace (2 ^ p)%Z with (2 ^ (p - 1) * 2)%Z by (replace p with ((p - 1) + 1)%Z at 2 by lia; rewrite Z.pow_add_r by lia; reflexivity).
           rewrite mult_IZR, bpow_plus. replace ((IZR (2 ^ (p - 1)) * 2 * bpow radix2 k + bpow radix2 k) * (bpow radix2 (- k) * bpow radix2 (- (1))))
             with ((bpow radix2 k * bpow radix2 (- k)) * bpow radix2 (- (1)) * (2 * IZR (2 ^ (p - 1)) + 1)) by ring.
           rewrite <- bpow_plus. replace (k + - k)%Z with 0%Z by lia. change (bpow radix2 0) with 1. change (bpow radix2 (- (1))) with (/ 2). lra.
      * rewrite Pw. rewrite Rabs_right by nra. replace (p + k + 1 - 1)%Z with (p + k)%Z by lia. rewrite !bpow_plus. change (bpow radix2 1) with 2. split; nra.
Qed.
End Clock.

Section Runs.
Context (p e : Z) (OK : format_ok p e).
Local Notation NT := (NumT_fl p e).
Lemma run_time (S : Solver R) n st st' : @solver_steps R NT S n st = Ok st' -> s_time st' = Nat.iter n (tick p e (s_dt st)) (s_time st).
Proof. intros E. destruct (@steps_kept R NT S n st st' E) as (_ & _ & _ & ->). reflexivity. Qed.

(** The clock never runs backwards and is off by at most a relative (1+u)^n - 1, where u = 2^-p. *)
Theorem C131_accuracy : forall (S : Solver R) n st st', @solver_steps R NT S n st = Ok st' ->
  isfloat p e (s_time st) -> isfloat p e (s_dt st) -> 0 <= s_time st -> 0 <= s_dt st ->
  s_time st <= s_time st' /\
  Rabs (s_time st' - (s_time st + INR n * s_dt st)) <= ((1 + uro p) ^ n - 1) * (s_time st + INR n * s_dt st).
Proof.
  intros S n st st' E Ft Fd Ht Hd. rewrite (run_time _ _ _ _ E). split; [|apply ticks_error; assumption].
  clear E. induction n as [|n IH]; [apply Rle_refl|]. eapply Rle_trans; [exact IH|]. simpl. apply tick_up; [exact OK|apply ticks_float; assumption|exact Hd].
Qed.
(** With a time step that is a power of two the clock is exact for 2^p steps, and then it stops for good. *)
Theorem C131_power_of_two : forall (S : Solver R) n k st st', @solver_steps R NT S n st = Ok st' ->
  s_time st = 0 -> s_dt st = bpow radix2 k -> (e <= k)%Z ->
  s_time st' = IZR (Z.min (Z.of_nat n) (2 ^ p)) * bpow radix2 k.
Proof. intros S n k st st' E E0 Ed Hk. rewrite (run_time _ _ _ _ E), E0, Ed. apply ticks_pow2; assumption. Qed.
(** Whatever the time step, a run that starts at time 0 never gets past 2^(p+1) time steps, however long it is. *)
Theorem C131_bound : forall (S : Solver R) n st st', @solver_steps R NT S n st = Ok st' ->
  s_time st = 0 -> isfloat p e (s_dt st) -> 0 < s_dt st -> s_time st' <= bpow radix2 (p + 1) * s_dt st.
Proof.
  intros S n st st' E E0 Fd Hd. rewrite (run_time _ _ _ _ E), E0. apply ticks_bounded; try assumption; [apply float_0|].
  apply Rmult_le_pos; [apply bpow_ge_0|lra].
Qed.
(** and from any time at or above that value the clock stands still while the steps go on *)
Theorem C131_stall : forall (S : Solver R) n st st', @solver_steps R NT S n st = Ok st' ->
  isfloat p e (s_time st) -> isfloat p e (s_dt st) -> 0 < s_dt st -> bpow radix2 (p + 1) * s_dt st <= s_time st ->
  s_time st' = s_time st /\ s_step st' = (s_step st + Z.of_nat n)%Z.
Proof.
  intros S n st st' E Ft Fd Hd H. split; [|exact (proj1 (proj2 (@steps_kept R NT S n st st' E)))].
  rewrite (run_time _ _ _ _ E). apply ticks_stall; assumption.
Qed.

(** "The time of a run is the number of steps times the time step" and "every time is reached" both fail,
    for every solver that can be stepped at all. *)
Theorem C131_advance_refuted : forall (S : Solver R) st r, @solver_step R NT S st = Ok r -> many_points S (s_world st) ->
  s_time st = 0 -> isfloat p e (s_dt st) -> 0 < s_dt st ->
  (exists n st', @solver_steps R NT S n st = Ok st' /\ s_time st' <> INR n * s_dt st) /\
  ~ (forall T, exists n st', @solver_steps R NT S n st = Ok st' /\ T <= s_time st').
Proof.
  intros S st r E M E0 Fd Hd. split.
  - destruct (steps_progress S st r (Z.to_nat (2 ^ (p + 1) + 1)) E M) as (st' & E'). exists (Z.to_nat (2 ^ (p + 1) + 1)), st'. split; [exact E'|].
    pose proof (C131_bound _ _ _ _ E' E0 Fd Hd) as B. destruct OK. assert (0 <= 2 ^ (p + 1))%Z by (apply Z.pow_nonneg; lia).
    rewrite INR_IZR_INZ, Z2Nat.id by lia. change (2 ^ (p + 1))%Z with (radix2 ^ (p + 1))%Z. rewrite plus_IZR, IZR_Zpower by lia. nra.
  - intros H. destruct (H (bpow radix2 (p + 1) * s_dt st + 1)) as (n & st' & E' & G).
    pose proof (C131_bound _ _ _ _ E' E0 Fd Hd). lra.
Qed.
End Runs.
Print Assumptions C131_accuracy.
Print Assumptions C131_power_of_two.
Print Assumptions C131_bound.
Print Assumptions C131_stall.
Print Assumptions C131_advance_refuted.

(** Two points of a linear elastic body on a grid in single precision, with a time step of 2^-17 s: the hypotheses hold,
    and the clock stops at 128 s. *)
Section Case.
Local Notation NT := (NumT_fl 24 (-149)).
Local Notation N := (Num_fl 24 (-149)).
Definition grid_c : GridDomain R := {| gd_dim := D2; gd_origin := V3 0 0 0; gd_end := V3 5 5 0; gd_cell := 1; gd_inv := 1;
  gd_size := V3 6%Z 6%Z 1%Z; gd_padding := 0%Z |}.
Definition point_c (x : vec3 R) : Particle R := {| pt_pos := x; pt_vel := V3 1 0 0; pt_mass := 1; pt_force := V3 0 0 0; pt_vol := 1; pt_vol0 := 1;
  pt_L := @mzero R N; pt_stress := @mzero R N; pt_F := @meye R N; pt_Fst := @meye R N |}.
Definition solver_c : Solver R := {| so_scheme := USL; so_alpha := 1; so_domains := [grid_c];
  so_couplings := [{| c_kernel := Linear; c_p := 0; c_g := 0; c_c := Some 0%nat; c_s := Some 0%nat; c_skip := false |}];
  so_laws := [Some (LawLE (@linear_elastic R NT 1 (1/4) false))]; so_forces := []; so_sdfs := []; so_sharp := 1 |}.
Definition state_c : SimState R := {|
  s_world := {| w_mps := [Soft {| sb_dim := D2; sb_pts := [point_c (V3 (3/2) 2 0); point_c (V3 2 2 0)]; sb_storeF := false; sb_vol0d := false |}]; w_sdfs := [] |};
  s_mech := {| m_laws := [Some (LS_LE [@mzero R N; @mzero R N])]; m_solvers := [Some SS_USL]; m_forces := [] |};
  s_time := 0; s_step := 0; s_dt := bpow radix2 (-17) |}.
Example C131_case : exists r, @solver_step R NT solver_c state_c = Ok r /\ many_points solver_c (s_world state_c) /\
  isfloat 24 (-149) (s_dt state_c) /\ 0 < s_dt state_c /\
  forall n, (2 ^ 24 <= Z.of_nat n)%Z -> exists st', @solver_steps R NT solver_c n state_c = Ok st' /\ s_time st' = 128.
Proof.
  assert (M : many_points solver_c (s_world state_c)) by (intros c s [<-|[]] _ Hs; injection Hs as <-; discriminate).
  assert (E : exists r, @solver_step R NT solver_c state_c = Ok r) by (eexists; reflexivity). destruct E as (r & E). exists r.
  split; [exact E|]. split; [exact M|]. split; [apply (float_bpow 24 (-149) binary32_ok); lia|]. split; [apply bpow_gt_0|].
  intros n Hn. destruct (steps_progress _ _ _ n E M) as (st' & E'). exists st'. split; [exact E'|].
  rewrite (C131_power_of_two 24 (-149) binary32_ok _ _ (-17) _ _ E' eq_refl eq_refl ltac:(lia)). rewrite Z.min_r by exact Hn.
  change (IZR (2 ^ 24)) with (bpow radix2 24). rewrite <- bpow_plus. simpl. lra.
Qed.
End Case.
