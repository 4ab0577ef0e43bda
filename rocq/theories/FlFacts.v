(** Facts about the rounded instance used by the floating-point theorems. *)
From Coq Require Import ZArith Reals Bool Lra Lia.
From Flocq Require Import Core Sterbenz Relative Plus_error.
From Verif Require Import Num NumR NumFl.
Local Open Scope R_scope.

Section Fl.
Context (p e : Z) (OK : format_ok p e).
Let Hp : Prec_gt_0 p. Proof. destruct OK. red. lia. Qed.
Local Existing Instance Hp.
Notation F := (isfloat p e).
Notation rnd := (fl p e).

Lemma fl_id x : F x -> rnd x = x.
Proof. intros. apply round_generic; [apply valid_rnd_N|exact H]. Qed.
Lemma fl_float x : F (rnd x).
Proof. apply generic_format_round; [apply FLT_exp_valid, Hp|apply valid_rnd_N]. Qed.
Lemma fl_mono x y : x <= y -> rnd x <= rnd y.
Proof. intros. apply round_le; [apply FLT_exp_valid, Hp|apply valid_rnd_N|exact H]. Qed.
Lemma float_opp x : F x -> F (- x).
Proof. apply generic_format_opp. Qed.
Lemma fl_opp x : rnd (- x) = - rnd x.
Proof. apply round_NE_opp. Qed.
Lemma float_bpow k : (e <= k)%Z -> F (bpow radix2 k).
Proof. intros. apply generic_format_FLT_bpow; [exact Hp|exact H]. Qed.
Lemma float_Z z : (Z.abs z <= 2 ^ p)%Z -> F (IZR z).
Proof.
  intros Hz. destruct OK as [P1 P2]. destruct (Z.eq_dec (Z.abs z) (2 ^ p)) as [E|N].
  - assert (H : F (bpow radix2 p)) by (apply float_bpow; lia).
    replace (IZR z) with (if Z.ltb z 0 then - bpow radix2 p else bpow radix2 p).
    + destruct (Z.ltb z 0); [apply float_opp|]; exact H.
    + rewrite <- (IZR_Zpower radix2) by lia. change (radix2 ^ p)%Z with (2 ^ p)%Z. rewrite <- E. destruct (Z.ltb_spec z 0).
      * rewrite <- opp_IZR. f_equal. lia.
      * f_equal. lia.
  - apply generic_format_FLT. exists (Float radix2 z 0).
    + unfold F2R; simpl. ring.
    + simpl. change (Z.pow_pos 2) with (Z.pow_pos radix2). lia.
    + simpl. lia.
Qed.
Lemma float_0 : F 0.
Proof. apply generic_format_0. Qed.
Lemma float_1 : F 1.
Proof. apply (float_bpow 0). destruct OK. lia. Qed.
Lemma float_half : F (1/2).
Proof. replace (1/2) with (bpow radix2 (-1)) by (simpl; lra). apply float_bpow. destruct OK. lia. Qed.
Lemma float_sub x y : F x -> F y -> y / 2 <= x <= 2 * y -> F (x - y).
Proof. apply sterbenz; [apply FLT_exp_valid, Hp|apply FLT_exp_monotone]. Qed.

(** what one operation loses *)
Lemma fl_add_err x y : F x -> F y -> Rabs (rnd (x + y) - (x + y)) <= uro p * Rabs (x + y).
Proof.
  intros Fx Fy. destruct (FLT_plus_error_N_ex radix2 e p (fun x => negb (Z.even x)) x y Fx Fy) as (eps & He & E).
  assert (U : u_ro radix2 p = uro p).
  { unfold u_ro, uro. replace (- p + 1)%Z with (1 + - p)%Z by lia. rewrite bpow_plus. simpl. lra. }
  rewrite U in He. assert (0 < uro p) by apply bpow_gt_0.
  assert (uro p / (1 + uro p) <= uro p).
  { apply Rmult_le_reg_r with (1 + uro p); [lra|]. unfold Rdiv. rewrite Rmult_assoc, Rinv_l by lra. nra. }
  unfold fl. change ZnearestE with (Znearest (fun x => negb (Z.even x))). rewrite E.
  replace ((x + y) * (1 + eps) - (x + y)) with (eps * (x + y)) by ring. rewrite Rabs_mult.
  apply Rmult_le_compat_r; [apply Rabs_pos|lra].
Qed.
Lemma fl_err x : Rabs (rnd x - x) <= uro p * Rabs x + tiny e.
Proof.
  destruct (error_N_FLT radix2 e p Hp (fun x => negb (Z.even x)) x) as (eps & eta & He & Ht & _ & E).
  assert (U : /2 * bpow radix2 (- p + 1) = uro p).
  { unfold uro. replace (- p + 1)%Z with (1 + - p)%Z by lia. rewrite bpow_plus. simpl. lra. }
  assert (V : /2 * bpow radix2 e = tiny e).
  { unfold tiny. replace e with (1 + (e - 1))%Z at 1 by lia. rewrite bpow_plus. simpl. lra. }
  unfold fl. change ZnearestE with (Znearest (fun x => negb (Z.even x))). rewrite E.
  replace (x * (1 + eps) + eta - x) with (eps * x + eta) by ring.
  eapply Rle_trans; [apply Rabs_triang|]. rewrite Rabs_mult. rewrite U in He. rewrite V in Ht.
  pose proof (Rabs_pos x). nra.
Qed.
Lemma uro_pos : 0 < uro p.
Proof. apply bpow_gt_0. Qed.
Lemma uro_half : uro p <= 1/4.
Proof. replace (1/4) with (bpow radix2 (-2)) by (simpl; lra). apply bpow_le. destruct OK. lia. Qed.
Lemma tiny_pos : 0 < tiny e.
Proof. apply bpow_gt_0. Qed.

(** 1 - x is recovered exactly by a second subtraction *)
Lemma back_exact x : F x -> 0 <= x <= 1 -> F (1 - rnd (1 - x)).
Proof.
  intros Fx Hx. destruct (Rle_lt_dec (1/2) (rnd (1 - x))) as [A|A].
  - apply float_sub; [exact float_1|apply fl_float|]. assert (rnd (1 - x) <= 1) by (rewrite <- (fl_id 1 float_1) at 2; apply fl_mono; lra). lra.
  - assert (1 - x < 1/2).
    { destruct (Rlt_le_dec (1 - x) (1/2)) as [B|B]; [exact B|]. apply fl_mono in B. rewrite (fl_id _ float_half) in B. lra. }
    rewrite fl_id by (apply float_sub; [exact float_1|exact Fx|lra]). replace (1 - (1 - x)) with x by ring. exact Fx.
Qed.
End Fl.

(** rounding inside a known binade *)
Lemma fl_binade p e k x : (1 < p)%Z -> (e <= k - p)%Z -> bpow radix2 (k - 1) <= Rabs x < bpow radix2 k ->
  fl p e x = IZR (ZnearestE (x * bpow radix2 (p - k))) * bpow radix2 (k - p).
Proof.
  intros Hp He Hx. unfold fl, round, scaled_mantissa, cexp, F2R. cbn [Fnum Fexp].
  rewrite (mag_unique radix2 x k Hx). unfold FLT_exp. rewrite Z.max_l by lia.
  replace (- (k - p))%Z with (p - k)%Z by lia. reflexivity.
Qed.
Lemma near_tie n : (Z.even n = false) -> ZnearestE (IZR n + 1/2) = (n + 1)%Z.
Proof.
  intros Hn. unfold Znearest. assert (F : Zfloor (IZR n + 1/2) = n) by (apply Zfloor_imp; rewrite plus_IZR; lra).
  assert (C : Zceil (IZR n + 1/2) = (n + 1)%Z) by (apply Zceil_imp; rewrite minus_IZR, plus_IZR; lra).
  rewrite F, C, Hn. rewrite Rcompare_Eq by lra. reflexivity.
Qed.
