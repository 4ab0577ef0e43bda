(** Property theorems C149: the project mcc_trx. *)
From Coq Require Import List ZArith Bool Reals Lra Lia.
From Verif Require Import Num NumR Linalg Arrays ModelGrid ModelShape ModelMath ModelState ModelLaws ModelTrx Sums ResFacts LawProofs2 SpecMath P_Laws2.
Import ListNotations.
Local Open Scope R_scope.

(** ** what a plot shows *)
(** the point (x, v) lies on the segment drawn between two points on logarithmic axes *)
Definition on_segment (a b : R * R) (x v : R) : Prop := fst a <= x <= fst b /\ 0 < v /\
  (ln v - ln (snd a)) * (ln (fst b) - ln (fst a)) = (ln (snd b) - ln (snd a)) * (ln x - ln (fst a)).
Definition drawn (l : list (R * R)) (x v : R) : Prop := exists a b, l = [a; b] /\ on_segment a b x v.
(** a curve of the (p, v) plane is shown from x1 to x2 kPa if the points drawn are those of the curve *)
Definition shows (l : list (R * R)) (curve : R -> R) (x1 x2 : R) : Prop := forall x v, drawn l x v <-> x1 <= x <= x2 /\ v = curve (1000 * x).

Lemma segment_line (xa xb va vb A B x v : R) : 0 < xa < xb -> ln va = A - B * ln xa -> ln vb = A - B * ln xb ->
  (on_segment (xa, va) (xb, vb) x v <-> xa <= x <= xb /\ 0 < v /\ ln v = A - B * ln x).
Proof.
  intros Hx Ea Eb. unfold on_segment. cbn [fst snd]. rewrite Ea, Eb. assert (ln xa < ln xb) by (apply ln_increasing; lra).
  split; intros (X & Y & Z); (split; [exact X | split; [exact Y |]]).
  - apply Rmult_eq_reg_r with (ln xb - ln xa); lra.
  - rewrite Z. ring.
Qed.
Lemma drawn_pair a b x v : drawn [a; b] x v <-> on_segment a b x v.
Proof. split; [intros (a' & b' & E & S); injection E as <- <-; exact S | intros S; exists a, b; auto]. Qed.
Lemma ln_same v w : 0 < w -> (0 < v /\ ln v = ln w <-> v = w).
Proof. intros Hw. split; [intros (Hv & E); apply ln_inv; assumption | intros ->; auto]. Qed.
Lemma ncl_pos pc pr N lam : 0 < N -> 0 < get_v_ncl pc pr N lam.
Proof. intros HN. unfold get_v_ncl. apply Rmult_lt_0_compat; [exact HN | apply exp_pos]. Qed.
Lemma ln_div a b : 0 < a -> 0 < b -> ln (a / b) = ln a - ln b.
Proof. intros Ha Hb. unfold Rdiv. rewrite ln_mult, ln_Rinv; [ring | exact Hb | exact Ha | apply Rinv_0_lt_compat, Hb]. Qed.
Lemma ln_rpower a b : ln (Rpower a b) = b * ln a.
Proof. unfold Rpower. apply ln_exp. Qed.
Lemma rpower_pos a b : 0 < Rpower a b.
Proof. apply exp_pos. Qed.
Lemma ln_ncl pc pr N lam : 0 < N -> 0 < pr -> 0 < pc -> ln (get_v_ncl pc pr N lam) = ln N + lam * (ln pr - ln pc).
Proof.
  intros. change (ln (N * Rpower (pr / pc) lam) = ln N + lam * (ln pr - ln pc)). rewrite ln_mult; [| assumption | apply rpower_pos]. now rewrite ln_rpower, ln_div.
Qed.
Lemma ln_csl p pr N lam kap : 0 < N -> 0 < pr -> 0 < p -> ln (get_v_csl p pr N lam kap) = ln N + (kap - lam) * ln 2 + lam * (ln pr - ln p).
Proof.
  intros. change (ln (N * Rpower 2 (kap - lam) * Rpower (pr / p) lam) = ln N + (kap - lam) * ln 2 + lam * (ln pr - ln p)).
  rewrite !ln_mult; try apply rpower_pos; try assumption; [| apply Rmult_lt_0_compat; [assumption | apply rpower_pos]]. now rewrite !ln_rpower, ln_div.
Qed.
Lemma ln_sl pc p pr N lam kap : 0 < N -> 0 < pr -> 0 < p -> 0 < pc -> ln (get_v_sl pc p pr N lam kap) = ln N + lam * (ln pr - ln pc) + kap * (ln pc - ln p).
Proof.
  intros. unfold get_v_sl. change (ln (get_v_ncl pc pr N lam * Rpower (pc / p) kap) = ln N + lam * (ln pr - ln pc) + kap * (ln pc - ln p)).
  rewrite ln_mult; [| apply ncl_pos; assumption | apply rpower_pos]. now rewrite ln_ncl, ln_rpower, ln_div.
Qed.
Lemma csl_pos p pr N lam kap : 0 < N -> 0 < get_v_csl p pr N lam kap.
Proof. intros HN. unfold get_v_csl. apply Rmult_lt_0_compat; [apply Rmult_lt_0_compat; [exact HN |] |]; apply exp_pos. Qed.
Lemma sl_pos pc p pr N lam kap : 0 < N -> 0 < get_v_sl pc p pr N lam kap.
Proof. intros HN. unfold get_v_sl. apply Rmult_lt_0_compat; [apply ncl_pos, HN | apply exp_pos]. Qed.
Lemma ln_thousand x : 0 < x -> ln (1000 * x) = ln 1000 + ln x.
Proof. intros. apply ln_mult; lra. Qed.

(** the lines of normal consolidation and of critical states are shown from 1 to 100 kPa *)
Theorem C149_ncl : forall m : MCC R, 0 < mc_N m -> 0 < mc_pref m -> shows (plot_ncl m) (fun p => get_v_ncl p (mc_pref m) (mc_N m) (mc_lam m)) 1 100.
Proof.
  intros m HN Hp x v. set (A := ln (mc_N m) + mc_lam m * (ln (mc_pref m) - ln 1000)).
  change (plot_ncl m) with [(1, get_v_ncl 1000 (mc_pref m) (mc_N m) (mc_lam m)); (100, get_v_ncl 100000 (mc_pref m) (mc_N m) (mc_lam m))].
  rewrite drawn_pair, (segment_line _ _ _ _ A (mc_lam m)).
  - split; [intros (X & Y) | intros (X & Y)]; (split; [exact X |]); (rewrite <- (ln_same v) in * by (apply ncl_pos; exact HN)); rewrite ln_ncl, ln_thousand in * by lra; unfold A in *; (split; [apply Y | destruct Y; lra]) || (split; [apply Y | lra]).
  - lra.
  - rewrite ln_ncl by lra. rewrite ln_1. unfold A. ring.
  - rewrite ln_ncl by lra. replace 100000 with (1000 * 100) by lra. rewrite ln_thousand by lra. unfold A. ring.
Qed.
Print Assumptions C149_ncl.
Lemma shows_line (xa xb va vb A B : R) (curve : R -> R) : 0 < xa < xb -> ln va = A - B * ln xa -> ln vb = A - B * ln xb ->
  (forall x, xa <= x <= xb -> 0 < curve (1000 * x) /\ ln (curve (1000 * x)) = A - B * ln x) -> shows [(xa, va); (xb, vb)] curve xa xb.
Proof.
  intros Hx Ea Eb C x v. rewrite drawn_pair, (segment_line _ _ _ _ A B) by assumption. split.
  - intros (X & Y). split; [exact X |]. destruct (C x X) as (P & L). apply ln_same; [exact P |]. now rewrite L.
  - intros (X & ->). destruct (C x X) as (P & L). auto.
Qed.
Theorem C149_csl : forall m : MCC R, 0 < mc_N m -> 0 < mc_pref m -> shows (plot_csl m) (fun p => get_v_csl p (mc_pref m) (mc_N m) (mc_lam m) (mc_kap m)) 1 100.
Proof.
  intros m HN Hp. apply (shows_line 1 100 _ _ (ln (mc_N m) + (mc_kap m - mc_lam m) * ln 2 + mc_lam m * (ln (mc_pref m) - ln 1000)) (mc_lam m)).
  - lra.
  - change (nofZ 1000) with 1000. rewrite ln_csl by lra. rewrite ln_1. ring.
  - change (nofZ 100000) with 100000. rewrite ln_csl by lra. replace 100000 with (1000 * 100) by lra. rewrite ln_thousand by lra. ring.
  - intros x X. split; [apply csl_pos; exact HN |]. rewrite ln_csl, ln_thousand by lra. ring.
Qed.
Print Assumptions C149_csl.
(** states at the top of the yield surface (p is half of p_c, q is M p) lie on the line drawn for critical states *)
Theorem C149_critical : forall (m : MCC R) x, 0 < mc_N m -> 0 < mc_pref m -> 0 < mc_M m -> 1 <= x <= 100 -> let p := 1000 * x in let q := mc_M m * p in
  (q / mc_M m) * (q / mc_M m) + p * p - 2 * p * p = 0 /\ drawn (plot_csl m) x (get_v_sl (2 * p) p (mc_pref m) (mc_N m) (mc_lam m) (mc_kap m)).
Proof.
  intros m x HN Hp HM X p q. assert (Pp : 0 < p) by (unfold p; lra). split; [unfold q; field; lra |]. apply (C149_csl m HN Hp). split; [exact X |]. fold p.
  apply ln_inv; [apply sl_pos; exact HN | apply csl_pos; exact HN |]. rewrite ln_sl, ln_csl by lra. rewrite ln_mult by lra. ring.
Qed.
Print Assumptions C149_critical.

(** the curve labelled swelling line takes its left end at 10 Pa but is drawn from 1 kPa: left of its right end at 10 kPa it lies too high by the factor (10/x)^(2 kap),
    and is three times as steep as the swelling line *)
Theorem C149_swelling_refuted : forall m : MCC R, 0 < mc_N m -> 0 < mc_pref m ->
  let sl p := get_v_sl 10000 p (mc_pref m) (mc_N m) (mc_lam m) (mc_kap m) in
  shows (plot_sl m 10000) (fun p => sl p * Rpower (10000 / p) (2 * mc_kap m)) 1 10 /\
  (0 < mc_kap m -> forall x, 1 <= x < 10 -> ~ drawn (plot_sl m 10000) x (sl (1000 * x))) /\ drawn (plot_sl m 10000) 10 (sl 10000).
Proof.
  intros m HN Hp sl. assert (T4 : ln 10000 = ln 1000 + ln 10) by (rewrite <- ln_mult by lra; f_equal; lra).
  assert (T3 : ln 1000 = 3 * ln 10) by (replace 1000 with (10 * (10 * 10)) by lra; rewrite !ln_mult by lra; ring).
  assert (S : shows (plot_sl m 10000) (fun p => sl p * Rpower (10000 / p) (2 * mc_kap m)) 1 10).
  { apply (shows_line 1 10 _ _ (ln (mc_N m) + mc_lam m * (ln (mc_pref m) - ln 10000) + 3 * mc_kap m * ln 10) (3 * mc_kap m)).
    - lra.
    - change (nofZ 10) with 10. change (nofZ 10000) with 10000. rewrite ln_sl by lra. rewrite ln_1, T4, T3. ring.
    - change (nofZ 10000) with 10000. rewrite ln_sl by lra. ring.
    - intros x X. split; [apply Rmult_lt_0_compat; [apply sl_pos; exact HN | apply exp_pos] |].
      rewrite ln_mult; [| apply sl_pos; exact HN | apply exp_pos]. unfold sl. rewrite ln_rpower, ln_div, ln_sl, ln_thousand by lra. rewrite T4. ring. }
  split; [exact S |]. split.
  - intros Hk x X D. apply S in D. destruct D as (_ & E). apply (f_equal ln) in E.
    rewrite ln_mult in E; [| apply sl_pos; exact HN | apply exp_pos]. rewrite ln_rpower, ln_div, ln_thousand in E by lra. rewrite T4 in E.
    assert (ln x < ln 10) by (apply ln_increasing; lra). nra.
  - apply S. split; [lra |]. replace (1000 * 10) with 10000 by lra. replace (10000 / 10000) with 1 by lra. unfold Rpower. rewrite ln_1, Rmult_0_r, exp_0. ring.
Qed.
Print Assumptions C149_swelling_refuted.

(** ** the initial state *)
(** one point under the confining pressure, consolidated to ocr times that; its specific volume is on the line drawn for normal consolidation exactly if ocr is 1 *)
Theorem C149_start : forall (m : MCC R) c ocr, 0 < mc_M m -> 0 < mc_N m -> 0 < mc_pref m -> 0 < mc_rho_p m -> mc_kap m < mc_lam m -> 1000 <= c <= 100000 -> 1 <= ocr ->
  exists b p pc s e, trx_start m c ocr = Ok (b, LS_MCC [pc] (Some [s]) e) /\ sb_dim b = D3 /\ sb_pts b = [p] /\ pc = ocr * c /\ s = spherical c /\ pt_stress p = s /\
  0 < pt_vol p /\ 0 < pt_mass p /\ (drawn (plot_ncl m) (c / 1000) (mc_rho_p m / (pt_mass p / pt_vol p)) <-> ocr = 1).
Proof.
  intros m c ocr HM HN Hp Hr Hk Hc Ho.
  destruct (mcc_create_from_ocr m [c] (repeat ocr 1) None) as [[[st stress] rho]|er] eqn:E; [| discriminate].
  destruct (C49_state m [c] (repeat ocr 1) None st stress rho 0 HM HN Hp Hr E ltac:(cbn; lia) ltac:(cbn; lra) ltac:(cbn; lra)) as (pcs & e & -> & L1 & L2 & L3 & Epc & _ & _ & _ & Es & Er & Ev).
  destruct pcs as [| pc [|]]; try discriminate. destruct stress as [| s [|]]; try discriminate. destruct rho as [| r [|]]; try discriminate. cbn [nth repeat] in *.
  specialize (Es eq_refl). unfold trx_start. cbn [repeat]. rewrite E. cbn [rbind fst snd].
  do 2 eexists. exists pc, s, e. split; [reflexivity |]. split; [reflexivity |]. split; [reflexivity |]. split; [exact Epc |]. split; [exact Es |]. split; [reflexivity |].
  cbn [pt_vol pt_mass]. change (default_volume [KW_density [r]]) with (1 * 1 / 4). change (0 < 1 * 1 / 4 /\ 0 < 1 * 1 / 4 * r /\ (drawn (plot_ncl m) (c / 1000) (mc_rho_p m / (1 * 1 / 4 * r / (1 * 1 / 4))) <-> ocr = 1)).
  split; [lra |]. split; [lra |]. replace (1 * 1 / 4 * r / (1 * 1 / 4)) with r by field. rewrite (C149_ncl m HN Hp (c / 1000)). replace (1000 * (c / 1000)) with c by field.
  assert (Pv : 0 < mc_rho_p m / r) by (apply Rdiv_lt_0_compat; assumption). assert (Pc : 0 < pc) by (rewrite Epc; nra).
  rewrite !ln_div in Ev by lra. assert (Ev' : ln (mc_rho_p m / r) = ln (mc_N m) - mc_lam m * (ln pc - ln (mc_pref m)) + mc_kap m * (ln pc - ln c)) by (rewrite ln_div by lra; exact Ev).
  assert (Lpc : ln pc = ln ocr + ln c) by (rewrite Epc, ln_mult by lra; reflexivity). split.
  - intros (_ & V). rewrite V, ln_ncl, Lpc in Ev' by lra. assert (Z : ln ocr = 0) by nra. apply ln_inv; [lra | lra | now rewrite ln_1].
  - intros O. split; [lra |]. apply ln_inv; [exact Pv | apply ncl_pos; exact HN |]. rewrite Ev', ln_ncl, Lpc, O, ln_1 by lra. ring.
Qed.
Print Assumptions C149_start.
(** the numbers of the script *)
Example C149_case : exists b p s e, trx_numbers = Ok (b, LS_MCC [1 * 10000] (Some [s]) e) /\ sb_pts b = [p] /\ s = spherical 10000 /\
  let m := trx_law (3/10) (9/10) (2/10) (5/100) 2 1000 in
  drawn (plot_ncl m) (10000 / 1000) (2650 / (pt_mass p / pt_vol p)) /\ ~ drawn (plot_sl m 10000) 5 (get_v_sl 10000 (1000 * 5) 1000 2 (2/10) (5/100)).
Proof.
  set (m := trx_law (3/10) (9/10) (2/10) (5/100) 2 1000).
  destruct (C149_start m 10000 1 ltac:(cbn; lra) ltac:(cbn; lra) ltac:(cbn; lra) ltac:(cbn; lra) ltac:(cbn; lra) ltac:(lra) ltac:(lra)) as (b & p & pc & s & e & E & _ & P & Epc & Es & _ & _ & _ & D).
  subst pc. exists b, p, s, e. split; [exact E |]. split; [exact P |]. split; [exact Es |]. split; [apply D; reflexivity |].
  destruct (C149_swelling_refuted m ltac:(cbn; lra) ltac:(cbn; lra)) as (_ & N & _). apply (N ltac:(cbn; lra) 5). lra.
Qed.
