(** C130: interpolation weights computed with rounding. *)
From Coq Require Import List ZArith Arith Reals Bool Lra Lia Floats.SpecFloat.
From Flocq Require Import Core.
From Verif Require Import Num NumR NumSF NumFl FlFacts Linalg Arrays ModelGrid ModelShape SpecShape Sums ShapeProofs.
Import ListNotations.
Local Open Scope R_scope.

(** the tent of a point at grid coordinate [y], seen from the [o]-th node to its right, as the rounded code computes it *)
Definition tent_fl (p e : Z) (y : R) (o : Z) : R :=
  @lin_basis R (Num_fl p e) (@nsub R (Num_fl p e) y (@nofZ R (Num_fl p e) (@base_id R (Num_fl p e) Linear y + o))).

Section Axis.
Context (p e : Z) (OK : format_ok p e).
Notation F := (isfloat p e).
Notation rnd := (fl p e).

Lemma nabs_fl x : @nabs R (Num_fl p e) x = Rabs x.
Proof.
  unfold nabs, n0; cbn [nltb nofZ nopp Num_fl]. rewrite (fl_id p e 0) by apply float_0.
  rcase; [rewrite Rabs_left|rewrite Rabs_right]; lra.
Qed.
Lemma lin_fl x : @lin_basis R (Num_fl p e) x = if Rltb (Rabs x) 1 then rnd (1 - Rabs x) else 0.
Proof.
  unfold lin_basis. rewrite nabs_fl. unfold n0, n1; cbn [nltb nofZ nsub Num_fl].
  rewrite (fl_id p e 0) by apply float_0. rewrite (fl_id p e 1) by (apply float_1, OK). reflexivity.
Qed.
Lemma lin_fl' x : Rabs x <= 1 -> @lin_basis R (Num_fl p e) x = rnd (1 - Rabs x).
Proof.
  intros Hx. rewrite lin_fl. rcase; [reflexivity|]. replace (1 - Rabs x) with 0 by lra. symmetry. apply fl_id; [apply float_0].
Qed.

Lemma tents y : F y -> 0 <= y -> (Zfloor y + 1 <= 2 ^ p)%Z ->
  0 <= tent_fl p e y 0 <= 1 /\ 0 <= tent_fl p e y 1 <= 1 /\ tent_fl p e y 0 + tent_fl p e y 1 = 1
  /\ isfloat p e (tent_fl p e y 0) /\ isfloat p e (tent_fl p e y 1).
Proof.
  intros Fy Hy Hi. unfold tent_fl, base_id. cbn [nsub nofZ nfloor Num_fl]. rewrite Z.add_0_r.
  assert (I0 : (0 <= Zfloor y)%Z) by (apply Zfloor_lub; exact Hy).
  assert (F0 : F (IZR (Zfloor y))) by (apply float_Z; [exact OK|lia]).
  assert (F1 : F (IZR (Zfloor y + 1))) by (apply float_Z; [exact OK|lia]).
  rewrite (fl_id _ _ _ F0), (fl_id _ _ _ F1).
  pose proof (Zfloor_lb y) as L. pose proof (Zfloor_ub y) as U. set (i := Zfloor y) in *.
  assert (RF : forall x, 0 <= x <= 1 -> 0 <= rnd x <= 1).
  { intros x Hx. rewrite <- (fl_id p e 0) at 1 by apply float_0. rewrite <- (fl_id p e 1) by (apply float_1, OK). split; apply fl_mono; solve [exact OK|lra]. }
  assert (E : @lin_basis R (Num_fl p e) (rnd (y - IZR i)) = rnd (1 - (y - IZR i)) /\
              @lin_basis R (Num_fl p e) (rnd (y - IZR (i + 1))) = 1 - rnd (1 - (y - IZR i))).
  { rewrite plus_IZR. destruct (Z.eq_dec i 0) as [Z0|N0].
    - rewrite Z0. replace (y - 0) with y by ring. replace (y - (0 + 1)) with (- (1 - y)) by ring.
      assert (Hy1 : y <= 1) by (rewrite Z0 in U; lra).
      rewrite fl_opp, fl_id by assumption. pose proof (RF (1 - y) ltac:(lra)) as B.
      split.
      + rewrite lin_fl'; rewrite Rabs_right by lra; [reflexivity|lra].
      + rewrite lin_fl'; rewrite Rabs_Ropp, Rabs_right by lra; [|lra]. apply fl_id; []. apply back_exact; [exact OK|exact Fy|lra].
    - assert (G1 : 1 <= IZR i) by (apply (IZR_le 1); lia).
      assert (FA : F (y - IZR i)) by (apply float_sub; [exact OK|exact Fy|exact F0|lra]).
      assert (FB : F (y - IZR (i + 1))) by (apply float_sub; [exact OK|exact Fy|exact F1|rewrite plus_IZR; lra]).
      rewrite plus_IZR in FB. rewrite (fl_id _ _ _ FA), (fl_id _ _ _ FB).
      assert (FC : F (1 - (y - IZR i))) by (replace (1 - (y - IZR i)) with (- (y - (IZR i + 1))) by ring; apply float_opp; exact FB).
      rewrite (fl_id _ _ _ FC). split.
      + rewrite lin_fl'; rewrite Rabs_right by lra; [apply fl_id; assumption|lra].
      + rewrite lin_fl'; rewrite Rabs_left1 by lra; [|lra]. replace (1 - - (y - (IZR i + 1))) with (y - IZR i) by ring.
        rewrite fl_id by assumption. ring. }
  destruct E as [-> E2]. pose proof (RF (1 - (y - IZR i)) ltac:(lra)) as B. rewrite E2. repeat split; try lra.
  - apply fl_float. exact OK.
  - rewrite <- E2, lin_fl. rcase; [apply fl_float; exact OK|apply float_0].
Qed.
End Axis.

(** Along every axis the two tents are non-negative and sum to exactly one: rounding loses nothing. *)
Theorem C130_axis : forall p e y, format_ok p e -> isfloat p e y -> 0 <= y -> (Zfloor y + 1 <= 2 ^ p)%Z ->
  0 <= tent_fl p e y 0 /\ 0 <= tent_fl p e y 1 /\ tent_fl p e y 0 + tent_fl p e y 1 = 1.
Proof. intros p e y OK Fy Hy Hi. pose proof (tents p e OK y Fy Hy Hi). tauto. Qed.
Print Assumptions C130_axis.

(** a point whose two nodes per axis exist, with the grid coordinate as the rounded code computes it *)
Definition axis_fits (p : Z) (n : Z) (b : R) : Prop := 0 <= b /\ (Zfloor b + 1 < n)%Z /\ (n <= 2 ^ p)%Z.
Definition fits_fl (p e : Z) (g : GridDomain R) (x : vec3 R) : Prop :=
  let b := @base_pos R (Num_fl p e) (gd_dim g) (gd_origin g) (gd_inv g) x in
  axis_fits p (vx (gd_size g)) (vx b) /\ axis_fits p (vy (gd_size g)) (vy b) /\
  match gd_dim g with D2 => True | D3 => axis_fits p (vz (gd_size g)) (vz b) end.
(** what rounding can do to the sum of the weights of a point: one multiplication per weight in 2-D, two in 3-D *)
Definition weight_loss (p e : Z) (d : Dim) : R :=
  match d with D2 => uro p + 4 * tiny e | D3 => 2 * uro p + uro p * uro p + 13 * tiny e end.

Section Rows.
Context (p e : Z) (OK : format_ok p e).
Notation F := (isfloat p e).
Notation rnd := (fl p e).
Local Notation N := (Num_fl p e).

Lemma base_float d o h x : let b := @base_pos R N d o h x in F (vx b) /\ F (vy b) /\ F (vz b).
Proof.
  unfold base_pos; cbn [vx vy vz nmul nsub Num_fl]. repeat split; try (apply fl_float; exact OK).
  destruct d; [unfold n0; cbn [nofZ Num_fl]|]; apply fl_float; exact OK.
Qed.
Lemma unit_fl x : 0 <= x <= 1 -> 0 <= rnd x <= 1.
Proof.
  intros Hx. rewrite <- (fl_id p e 0) at 1 by apply float_0. rewrite <- (fl_id p e 1) by (apply float_1, OK).
  split; apply fl_mono; solve [exact OK|lra].
Qed.

(** the weight of one row *)
Definition wt (d : Dim) (b : vec3 R) (off : vec3 Z) : R :=
  match d with
  | D2 => rnd (tent_fl p e (vx b) (vx off) * tent_fl p e (vy b) (vy off))
  | D3 => rnd (rnd (tent_fl p e (vx b) (vx off) * tent_fl p e (vy b) (vy off)) * tent_fl p e (vz b) (vz off))
  end.
Lemma row_val (g : GridDomain R) x off i s : wf_sizes g -> fits_fl p e g x -> In off (stencil Linear (gd_dim g)) ->
  it_val (@single_interaction R N Linear (gd_dim g) (gd_origin g) (gd_size g) (gd_inv g) x off i s)
  = wt (gd_dim g) (@base_pos R N (gd_dim g) (gd_origin g) (gd_inv g) x) off.
Proof.
  intros W HF Ho. unfold single_interaction; cbn [it_val].
  set (b := @base_pos R N _ _ _ x) in *.
  assert (V : idx_valid (gd_size g) (@node_idx R N Linear (gd_dim g) b off) = true).
  { apply idx_valid_iff. unfold node_in, node_idx, base_id; cbn [vx vy vz nfloor Num_fl].
    unfold fits_fl in HF. fold b in HF. destruct HF as ((X0 & X1 & _) & (Y0 & Y1 & _) & HZ).
    apply Zfloor_lub in X0, Y0. unfold wf_sizes in W. destruct W as (_ & _ & WZ).
    destruct (gd_dim g); simpl in Ho.
    - clearbody b. destruct Ho as [<-|[<-|[<-|[<-|[]]]]]; cbn [vx vy vz]; lia.
    - destruct HZ as (Z0 & Z1 & _). apply Zfloor_lub in Z0.
      destruct Ho as [<-|[<-|[<-|[<-|[<-|[<-|[<-|[<-|[]]]]]]]]]; clearbody b; cbn [vx vy vz]; lia. }
  rewrite V. unfold shape_val, wt, dist_vec, node_idx, tent_fl. destruct (gd_dim g); reflexivity.
Qed.

Lemma mul_loss a b : 0 <= a <= 1 -> 0 <= b <= 1 -> Rabs (rnd (a * b) - a * b) <= uro p * (a * b) + tiny e.
Proof. intros. pose proof (fl_err p e OK (a * b)) as E. rewrite (Rabs_right (a * b)) in E by nra. exact E. Qed.
Lemma mul3_loss a b c : 0 <= a <= 1 -> 0 <= b <= 1 -> 0 <= c <= 1 ->
  Rabs (rnd (rnd (a * b) * c) - a * b * c) <= (2 * uro p + uro p * uro p) * (a * b * c) + tiny e * (5/4 * c + 1).
Proof.
  intros Ha Hb Hc. pose proof (mul_loss a b Ha Hb) as E1.
  assert (Hq : 0 <= rnd (a * b) <= 1) by (apply unit_fl; nra).
  pose proof (mul_loss (rnd (a * b)) c Hq Hc) as E2. set (q := rnd (a * b)) in *. clearbody q.
  replace (rnd (q * c) - a * b * c) with ((rnd (q * c) - q * c) + (q - a * b) * c) by ring.
  eapply Rle_trans; [apply Rabs_triang|]. rewrite (Rabs_mult _ c), (Rabs_right c) by lra.
  pose proof (uro_pos p). pose proof (uro_half p e OK). pose proof (tiny_pos e).
  assert (q <= a * b + (uro p * (a * b) + tiny e)) by (apply Rabs_le_inv in E1; lra).
  assert (A0 : 0 <= a * b) by nra. set (m := a * b) in *. clearbody m. set (u := uro p) in *. set (t := tiny e) in *. clearbody u t.
  assert (q * c <= (m + (u * m + t)) * c) by (apply Rmult_le_compat_r; lra).
  assert (Rabs (q - m) * c <= (u * m + t) * c) by (apply Rmult_le_compat_r; lra).
  assert (u * (q * c) <= u * ((m + (u * m + t)) * c)) by (apply Rmult_le_compat_l; lra).
  assert (u * (t * c) <= 1/4 * (t * c)) by (apply Rmult_le_compat_r; [apply Rmult_le_pos; lra|lra]).
  nra.
Qed.
End Rows.

Section Sum.
Context (p e : Z) (OK : format_ok p e).
Local Notation N := (Num_fl p e).

Lemma wt_unit d b off (g : GridDomain R) x : b = @base_pos R N (gd_dim g) (gd_origin g) (gd_inv g) x -> d = gd_dim g ->
  fits_fl p e g x -> In off (stencil Linear d) -> 0 <= wt p e d b off <= 1.
Proof.
  intros -> -> HF Ho. unfold fits_fl in HF. destruct (base_float p e OK (gd_dim g) (gd_origin g) (gd_inv g) x) as (Fx & Fy & Fz).
  set (b := @base_pos R N _ _ _ x) in *. destruct HF as ((X0 & X1 & X2) & (Y0 & Y1 & Y2) & HZ).
  destruct (tents p e OK _ Fx X0 ltac:(lia)) as (TX0 & TX1 & _).
  destruct (tents p e OK _ Fy Y0 ltac:(lia)) as (TY0 & TY1 & _).
  assert (U2 : forall a b, 0 <= a <= 1 -> 0 <= b <= 1 -> 0 <= a * b <= 1) by (clear; intros; nra).
  unfold wt. destruct (gd_dim g).
  - simpl in Ho. destruct Ho as [<-|[<-|[<-|[<-|[]]]]]; simpl vx; simpl vy; apply (unit_fl p e OK); apply U2; assumption.
  - destruct HZ as (Z0 & Z1 & Z2). destruct (tents p e OK _ Fz Z0 ltac:(lia)) as (TZ0 & TZ1 & _).
    assert (P : forall a b c, 0 <= a <= 1 -> 0 <= b <= 1 -> 0 <= c <= 1 -> 0 <= fl p e (fl p e (a * b) * c) <= 1).
    { intros a c k Ha Hc Hk. apply (unit_fl p e OK), U2; [apply (unit_fl p e OK), U2|]; assumption. }
    simpl in Ho. destruct Ho as [<-|[<-|[<-|[<-|[<-|[<-|[<-|[<-|[]]]]]]]]]; simpl vx; simpl vy; simpl vz; apply P; assumption.
Qed.
End Sum.

(** Every weight the linear kernel stores is between 0 and 1, rounding included. *)
Theorem C130_unit : forall p e g xs it, format_ok p e -> wf_sizes g ->
  (forall i, (i < length xs)%nat -> fits_fl p e g (nth i xs (@vzero R (Num_fl p e)))) ->
  In it (@compute_on R (Num_fl p e) Linear g xs) -> 0 <= it_val it <= 1.
Proof.
  intros p e g xs it OK W HF Hin. destruct (@in_compute R (Num_fl p e) _ _ _ _ Hin) as (i & s & Hi & Hs & ->).
  unfold slot. assert (Ho : In (nth s (stencil Linear (gd_dim g)) (V3 0%Z 0%Z 0%Z)) (stencil Linear (gd_dim g))) by (apply nth_In; exact Hs).
  rewrite row_val by auto. eapply wt_unit; eauto.
Qed.
Print Assumptions C130_unit.

(** The weights of a point sum to one up to one or two roundings, however many points and nodes there are. *)
Theorem C130_sum : forall p e g xs i, format_ok p e -> wf_sizes g -> (i < length xs)%nat ->
  fits_fl p e g (nth i xs (@vzero R (Num_fl p e))) ->
  Rabs (sumR it_val (of_point i (@compute_on R (Num_fl p e) Linear g xs)) - 1) <= weight_loss p e (gd_dim g).
Proof.
  intros p e g xs i OK W Hi HF. rewrite (@of_point_compute R (Num_fl p e)) by exact Hi. rewrite sumR_map.
  set (x := nth i xs _) in *. set (b := @base_pos R (Num_fl p e) (gd_dim g) (gd_origin g) (gd_inv g) x).
  apply Rle_trans with (Rabs (sumR (wt p e (gd_dim g) b) (stencil Linear (gd_dim g)) - 1)).
  { right. f_equal. f_equal.
    replace (stencil Linear (gd_dim g)) with (map (fun s => nth s (stencil Linear (gd_dim g)) (V3 0%Z 0%Z 0%Z)) (seq 0 (window_size Linear (gd_dim g)))) at 1
      by (destruct (gd_dim g); reflexivity).
    rewrite sumR_map. apply sumR_ext. intros s Hs. apply in_seq in Hs. unfold slot. apply row_val; [assumption|assumption|].
    apply nth_In. unfold window_size in Hs. lia. }
  destruct (base_float p e OK (gd_dim g) (gd_origin g) (gd_inv g) x) as (Fx & Fy & Fz). fold b in Fx, Fy, Fz.
  unfold fits_fl in HF. fold b in HF. destruct HF as ((X0 & X1 & X2) & (Y0 & Y1 & Y2) & HZ).
  destruct (tents p e OK _ Fx X0 ltac:(lia)) as (TX0 & TX1 & SX & _).
  destruct (tents p e OK _ Fy Y0 ltac:(lia)) as (TY0 & TY1 & SY & _).
  unfold weight_loss, wt. destruct (gd_dim g).
  - cbn [stencil window flat_map map app sumR fold_right vx vy].
    set (a0 := tent_fl p e (vx b) 0) in *. set (a1 := tent_fl p e (vx b) 1) in *.
    set (c0 := tent_fl p e (vy b) 0) in *. set (c1 := tent_fl p e (vy b) 1) in *. clearbody a0 a1 c0 c1.
    pose proof (mul_loss p e OK a0 c0 TX0 TY0) as E1. pose proof (mul_loss p e OK a0 c1 TX0 TY1) as E2.
    pose proof (mul_loss p e OK a1 c0 TX1 TY0) as E3. pose proof (mul_loss p e OK a1 c1 TX1 TY1) as E4.
    apply Rabs_le_inv in E1, E2, E3, E4. apply Rabs_le.
    assert (S : a0 * c0 + a0 * c1 + a1 * c0 + a1 * c1 = 1) by (replace a1 with (1 - a0) by lra; replace c1 with (1 - c0) by lra; ring).
    assert (S' : uro p * (a0 * c0) + uro p * (a0 * c1) + uro p * (a1 * c0) + uro p * (a1 * c1) = uro p) by (etransitivity; [|apply Rmult_1_r]; rewrite <- S; ring).
    lra.
  - destruct HZ as (Z0 & Z1 & Z2). destruct (tents p e OK _ Fz Z0 ltac:(lia)) as (TZ0 & TZ1 & SZ & _).
    cbn [stencil window flat_map map app sumR fold_right vx vy vz].
    set (a0 := tent_fl p e (vx b) 0) in *. set (a1 := tent_fl p e (vx b) 1) in *.
    set (c0 := tent_fl p e (vy b) 0) in *. set (c1 := tent_fl p e (vy b) 1) in *.
    set (k0 := tent_fl p e (vz b) 0) in *. set (k1 := tent_fl p e (vz b) 1) in *. clearbody a0 a1 c0 c1 k0 k1.
    pose proof (mul3_loss p e OK a0 c0 k0 TX0 TY0 TZ0) as E1. pose proof (mul3_loss p e OK a0 c0 k1 TX0 TY0 TZ1) as E2.
    pose proof (mul3_loss p e OK a0 c1 k0 TX0 TY1 TZ0) as E3. pose proof (mul3_loss p e OK a0 c1 k1 TX0 TY1 TZ1) as E4.
    pose proof (mul3_loss p e OK a1 c0 k0 TX1 TY0 TZ0) as E5. pose proof (mul3_loss p e OK a1 c0 k1 TX1 TY0 TZ1) as E6.
    pose proof (mul3_loss p e OK a1 c1 k0 TX1 TY1 TZ0) as E7. pose proof (mul3_loss p e OK a1 c1 k1 TX1 TY1 TZ1) as E8.
    apply Rabs_le_inv in E1, E2, E3, E4, E5, E6, E7, E8. apply Rabs_le.
    assert (S : a0 * c0 * k0 + a0 * c0 * k1 + a0 * c1 * k0 + a0 * c1 * k1 + a1 * c0 * k0 + a1 * c0 * k1 + a1 * c1 * k0 + a1 * c1 * k1 = 1)
      by (replace a1 with (1 - a0) by lra; replace c1 with (1 - c0) by lra; replace k1 with (1 - k0) by lra; ring).
    set (L := 2 * uro p + uro p * uro p) in *.
    assert (S' : L * (a0 * c0 * k0) + L * (a0 * c0 * k1) + L * (a0 * c1 * k0) + L * (a0 * c1 * k1) + L * (a1 * c0 * k0) + L * (a1 * c0 * k1)
       + L * (a1 * c1 * k0) + L * (a1 * c1 * k1) = L) by (etransitivity; [|apply Rmult_1_r]; rewrite <- S; ring).
    assert (T : tiny e * (5/4 * k0 + 1) + tiny e * (5/4 * k1 + 1) = tiny e * (13/4)) by (replace k1 with (1 - k0) by lra; field).
    lra.
Qed.
Print Assumptions C130_sum.

(** The quadratic kernel has no such luck.  Its outer branch is evaluated as x*x/2 - 3x/2 + 9/8, which cancels near x = 3/2. *)
Section Negative.
Context (p e : Z) (P8 : (8 <= p)%Z) (E0 : (e <= 1 - p)%Z).
Let OK : format_ok p e. Proof. split; lia. Qed.
Let eps := bpow radix2 (1 - p).
Notation F := (isfloat p e).
Notation rnd := (fl p e).
Local Notation N := (Num_fl p e).

Lemma eps_half : bpow radix2 (p - 1) * eps = 1.
Proof. unfold eps. rewrite <- bpow_plus. replace (p - 1 + (1 - p))%Z with 0%Z by lia. reflexivity. Qed.
Lemma eps_small : 0 < eps <= 1/128.
Proof.
  split; [apply bpow_gt_0|]. replace (1/128) with (bpow radix2 (-7)) by (simpl; lra). apply bpow_le. lia.
Qed.
(** numbers of at most p bits in the last place eps *)
Lemma float_eps z : (Z.abs z <= 2 ^ p)%Z -> F (IZR z * eps).
Proof.
  intros Hz. destruct (Z.eq_dec (Z.abs z) (2 ^ p)) as [E|NE].
  - assert (H : F (bpow radix2 1)) by (apply float_bpow; [exact OK|lia]).
    assert (X : IZR (2 ^ p) * eps = bpow radix2 1).
    { change (2 ^ p)%Z with (radix2 ^ p)%Z. rewrite IZR_Zpower by lia. unfold eps. rewrite <- bpow_plus. f_equal. lia. }
    destruct (Z.abs_spec z) as [[_ A]|[_ A]]; rewrite A in E.
    + rewrite E, X. exact H.
    + replace z with (- 2 ^ p)%Z by lia. rewrite opp_IZR, Ropp_mult_distr_l_reverse, X. apply float_opp, H.
  - apply generic_format_FLT. exists (Float radix2 z (1 - p)); [reflexivity|cbn [Fnum]; change (radix2 ^ p)%Z with (2 ^ p)%Z; lia|cbn [Fexp]; lia].
Qed.
Let M := (2 ^ (p - 7))%Z.
Lemma M_eps : IZR M * eps = 1/64.
Proof.
  unfold M. change (2 ^ (p - 7))%Z with (radix2 ^ (p - 7))%Z. rewrite IZR_Zpower by lia. unfold eps. rewrite <- bpow_plus.
  replace (p - 7 + (1 - p))%Z with (-6)%Z by lia. simpl. lra.
Qed.
Lemma M_pow : (2 ^ p = 128 * M)%Z.
Proof. unfold M. replace p with (7 + (p - 7))%Z at 1 by lia. rewrite Z.pow_add_r by lia. reflexivity. Qed.
Lemma M_pos : (2 <= M)%Z.
Proof. unfold M. change 2%Z with (2 ^ 1)%Z at 1. apply Z.pow_le_mono_r; lia. Qed.
Lemma rnd_eps a b : (Z.abs (a * M + b) <= 128 * M)%Z -> rnd (IZR a / 64 + IZR b * eps) = IZR a / 64 + IZR b * eps.
Proof.
  intros H. apply fl_id. replace (IZR a / 64 + IZR b * eps) with (IZR (a * M + b) * eps).
  - apply float_eps. rewrite M_pow. exact H.
  - rewrite plus_IZR, mult_IZR. replace ((IZR a * IZR M + IZR b) * eps) with (IZR a * (IZR M * eps) + IZR b * eps) by ring.
    rewrite M_eps. lra.
Qed.
Lemma lits a c : (0 < c <= 8)%Z -> (Z.abs a <= 9)%Z -> isfloat p e (IZR a / IZR c) -> @lit R N a c = IZR a / IZR c.
Proof.
  intros Hc Ha HF. unfold lit; cbn [ndiv nofZ Num_fl]. pose proof M_pos. pose proof M_pow.
  rewrite (fl_id _ _ (IZR a)) by (apply float_Z; [exact OK|lia]). rewrite (fl_id _ _ (IZR c)) by (apply float_Z; [exact OK|lia]).
  apply fl_id. exact HF.
Qed.
Lemma float_64 a : (Z.abs a <= 128)%Z -> F (IZR a / 64).
Proof.
  intros H. replace (IZR a / 64) with (IZR (a * M) * eps).
  - apply float_eps. rewrite M_pow. pose proof M_pos. nia.
  - rewrite mult_IZR, Rmult_assoc, M_eps. lra.
Qed.

Definition bad : R := 3/2 - 6 * eps.
Lemma bad_float : F bad.
Proof.
  unfold bad. replace (3/2 - 6 * eps) with (IZR 96 / 64 + IZR (-6) * eps) by lra.
  rewrite <- rnd_eps by (pose proof M_pos; lia). apply fl_float, OK.
Qed.
Lemma square : rnd (rnd (1/2 * bad) * bad) = 9/8 - 9 * eps.
Proof.
  pose proof M_pos as MP. pose proof eps_small as ES. pose proof eps_half as EH.
  unfold bad. replace (1/2 * (3/2 - 6 * eps)) with (IZR 48 / 64 + IZR (-3) * eps) by lra.
  rewrite rnd_eps by lia.
  rewrite (fl_binade p e 1); [|lia|lia|].
  2:{ simpl bpow. rewrite Rabs_right; simpl; nra. }
  replace (ZnearestE _) with (72 * M - 9)%Z.
  - fold eps. rewrite minus_IZR, mult_IZR, Rmult_minus_distr_r, Rmult_assoc, M_eps. lra.
  - symmetry. apply Znearest_imp. rewrite minus_IZR, mult_IZR.
    assert (B : bpow radix2 (p - 1) = 64 * IZR M) by (pose proof M_eps; nra). rewrite B.
    replace ((48 / 64 + -3 * eps) * (3 / 2 - 6 * eps) * (64 * IZR M) - (72 * IZR M - 9)) with (18 * eps).
    + rewrite Rabs_right; lra.
    + pose proof M_eps as ME. replace (48 / 64) with (3/4) by lra.
      replace ((3/4 + -3 * eps) * (3 / 2 - 6 * eps) * (64 * IZR M) - (72 * IZR M - 9)) with (- 576 * (IZR M * eps) + 1152 * (IZR M * eps) * eps + 9) by field.
      rewrite ME. lra.
Qed.
Lemma slope : rnd (3/2 * bad) = 9/4 - 8 * eps.
Proof.
  pose proof M_pos as MP. pose proof eps_small as ES. pose proof M_eps as ME. pose proof eps_half as EH.
  unfold bad. rewrite (fl_binade p e 2); [|lia|lia|].
  2:{ simpl bpow. rewrite Rabs_right; simpl; lra. }
  assert (B : bpow radix2 (p - 1) = 64 * IZR M) by nra.
  assert (B2 : bpow radix2 (p - 2) = 32 * IZR M) by (replace (p - 1)%Z with (1 + (p - 2))%Z in B by lia; rewrite bpow_plus in B; simpl in B; lra).
  rewrite B2. replace (3 / 2 * (3 / 2 - 6 * eps) * (32 * IZR M)) with (IZR (72 * M - 5) + 1/2).
  - rewrite near_tie.
    + replace (2 - p)%Z with (1 + (1 - p))%Z by lia. rewrite bpow_plus. fold eps. change (bpow radix2 1) with 2.
      rewrite plus_IZR, minus_IZR, mult_IZR.
      replace ((72 * IZR M - 5 + 1) * (2 * eps)) with (144 * (IZR M * eps) - 8 * eps) by ring. rewrite ME. lra.
    + rewrite Z.even_sub, Z.even_mul. reflexivity.
  - rewrite minus_IZR, mult_IZR.
    replace (3 / 2 * (3 / 2 - 6 * eps) * (32 * IZR M)) with (72 * IZR M - 288 * (IZR M * eps)) by field. rewrite ME. lra.
Qed.
Lemma quad_bad : @quad_basis R N bad = - eps.
Proof.
  pose proof M_pos as MP. pose proof eps_small as ES.
  assert (L32 : @lit R N 3 2 = 3/2) by (apply lits; [lia|lia|replace (3/2) with (IZR 96 / 64) by lra; apply float_64; lia]).
  assert (L12 : @lit R N 1 2 = 1/2) by (apply lits; [lia|lia|replace (1/2) with (IZR 32 / 64) by lra; apply float_64; lia]).
  assert (Lm32 : @lit R N (-3) 2 = -3/2) by (apply lits; [lia|lia|replace (-3/2) with (IZR (-96) / 64) by lra; apply float_64; lia]).
  assert (Lm12 : @lit R N (-1) 2 = -1/2) by (apply lits; [lia|lia|replace (-1/2) with (IZR (-32) / 64) by lra; apply float_64; lia]).
  assert (L98 : @lit R N 9 8 = 9/8) by (apply lits; [lia|lia|replace (9/8) with (IZR 72 / 64) by lra; apply float_64; lia]).
  unfold quad_basis. rewrite L32, L12, Lm32, Lm12, L98. cbn [nleb nltb nadd nsub nmul Num_fl].
  rewrite square, slope.
  replace (9 / 8 - 9 * eps - (9 / 4 - 8 * eps)) with (IZR (-72) / 64 + IZR (-1) * eps) by lra. rewrite rnd_eps by lia.
  replace (IZR (-72) / 64 + IZR (-1) * eps + 9/8) with (IZR 0 / 64 + IZR (-1) * eps) by lra. rewrite rnd_eps by lia.
  unfold bad. repeat (rcase; cbn [andb]); lra.
Qed.
End Negative.

(** Just inside the edge of its support a quadratic weight is negative, by one unit in the last place of 1,
    for every precision: the coordinate is a float, its first node is node 0 and lies 3/2 - 6 ulp away. *)
Theorem C130_quadratic_refuted : forall p e, (8 <= p)%Z -> (e <= 1 - p)%Z ->
  ~ (forall y, isfloat p e y -> 1/2 <= y -> 0 <= @quad_basis R (Num_fl p e)
        (@nsub R (Num_fl p e) y (@nofZ R (Num_fl p e) (@base_id R (Num_fl p e) Quadratic y)))).
Proof.
  intros p e P8 E0 H. pose proof (eps_small p P8) as ES.
  assert (OK : format_ok p e) by (split; lia).
  specialize (H (bad p) (bad_float p e P8 E0)). unfold base_id in H. cbn [nsub nfloor nofZ Num_fl] in H.
  assert (L12 : @lit R (Num_fl p e) 1 2 = 1/2).
  { apply lits; [assumption|assumption|lia|lia|]. apply float_half, OK. }
  rewrite L12 in H.
  assert (Z0 : Zfloor (fl p e (bad p - 1/2)) = 0%Z).
  { unfold bad. replace (3/2 - 6 * bpow radix2 (1 - p) - 1/2) with (IZR 64 / 64 + IZR (-6) * bpow radix2 (1 - p)) by lra.
    rewrite rnd_eps by (try assumption; pose proof (M_pos p P8); lia). apply Zfloor_imp. set (t := bpow radix2 (1 - p)) in *. clearbody t. change (IZR (0 + 1)) with 1. lra. }
  rewrite Z0 in H. rewrite (fl_id p e 0) in H by apply float_0. rewrite Rminus_0_r in H.
  rewrite (fl_id p e (bad p)) in H by (apply bad_float; assumption).
  rewrite quad_bad in H by assumption. unfold bad in H. lra.
Qed.
Print Assumptions C130_quadratic_refuted.

(** The same on whole grids in executable IEEE arithmetic: a 2-D grid of 6 x 6 nodes and a point well inside it,
    for which the stored weight of some row is negative. *)
Section IEEE.
Context (N : Num spec_float).
Definition grid66 : GridDomain spec_float :=
  {| gd_dim := D2; gd_origin := V3 (nofZ 0) (nofZ 0) (nofZ 0); gd_end := V3 (nofZ 5) (nofZ 5) (nofZ 0);
     gd_cell := nofZ 1; gd_inv := nofZ 1; gd_size := V3 6%Z 6%Z 1%Z; gd_padding := 0%Z |}.
(** a - b * 2^-k, exact in the formats used below *)
Definition below (a b k : Z) : spec_float := nsub (nofZ a) (ndiv (nofZ b) (nofZ (2 ^ k))).
Definition some_negative (k : Kernel) (x : vec3 spec_float) : bool :=
  existsb (fun it => nltb (it_val it) (nofZ 0)) (compute_on k grid66 [x]).
End IEEE.
(** binary32 quadratic, binary64 quadratic, binary32 cubic, binary64 cubic; the linear kernel has none at the same point *)
Theorem C130_ieee_refuted :
  some_negative Num_B32 Quadratic (V3 (@nsub _ Num_B32 (below Num_B32 2 6 23) (@lit _ Num_B32 1 2)) (@nofZ _ Num_B32 2) (@nofZ _ Num_B32 0)) = true /\
  some_negative Num_B64 Quadratic (V3 (@nsub _ Num_B64 (below Num_B64 2 6 52) (@lit _ Num_B64 1 2)) (@nofZ _ Num_B64 2) (@nofZ _ Num_B64 0)) = true /\
  some_negative Num_B32 Cubic (V3 (below Num_B32 2 6 23) (@nofZ _ Num_B32 2) (@nofZ _ Num_B32 0)) = true /\
  some_negative Num_B64 Cubic (V3 (below Num_B64 2 3 52) (@nofZ _ Num_B64 2) (@nofZ _ Num_B64 0)) = true /\
  some_negative Num_B32 Linear (V3 (below Num_B32 2 6 23) (@nofZ _ Num_B32 2) (@nofZ _ Num_B32 0)) = false.
Proof. vm_compute. repeat split. Qed.
Print Assumptions C130_ieee_refuted.

(** The hypotheses of the theorems above are met in single precision by the point (3/2, 9/4) of such a grid. *)
Example C130_case : let g := {| gd_dim := D2; gd_origin := V3 0 0 0; gd_end := V3 5 5 0; gd_cell := 1; gd_inv := 1;
                                gd_size := V3 6%Z 6%Z 1%Z; gd_padding := 0%Z |} in
  wf_sizes g /\ fits_fl 24 (-149) g (V3 (3/2) (9/4) 0).
Proof.
  assert (X : forall z k, (Z.abs z <= 2 ^ 24)%Z -> (-149 <= k)%Z -> fl 24 (-149) (IZR z * bpow radix2 k) = IZR z * bpow radix2 k).
  { intros z k Hz Hk. apply fl_id. destruct (Z.eq_dec (Z.abs z) (2 ^ 24)) as [E|NE].
    - assert (H : isfloat 24 (-149) (bpow radix2 (24 + k))) by (apply float_bpow; [exact binary32_ok|lia]).
      rewrite bpow_plus in H. change (bpow radix2 24) with (IZR (2 ^ 24)) in H. rewrite <- E in H.
      destruct (Z.abs_spec z) as [[_ A]|[_ A]]; rewrite A in H; [exact H|]. rewrite opp_IZR in H.
      replace (IZR z * bpow radix2 k) with (- (- IZR z * bpow radix2 k)) by ring. apply float_opp, H.
    - apply generic_format_FLT. exists (Float radix2 z k); [reflexivity|cbn [Fnum]; change (radix2 ^ 24)%Z with (2 ^ 24)%Z; lia|cbn [Fexp]; lia]. }
  pose proof (X 3%Z (-1)%Z ltac:(lia) ltac:(lia)) as A. pose proof (X 9%Z (-2)%Z ltac:(lia) ltac:(lia)) as B. 
  change (bpow radix2 (-1)) with (/2) in A. change (bpow radix2 (-2)) with (/4) in B. change (3 * / 2) with (3/2) in A. change (9 * / 4) with (9/4) in B.
  split; [unfold wf_sizes; simpl; lia|].
  unfold fits_fl, axis_fits, base_pos; cbn [gd_dim gd_origin gd_inv gd_size vx vy vz nmul nsub Num_fl].
  rewrite !Rminus_0_r, A, B, !Rmult_1_r, A, B.
  assert (Zfloor (3/2) = 1%Z) by (apply Zfloor_imp; simpl; lra). assert (Zfloor (9/4) = 2%Z) by (apply Zfloor_imp; simpl; lra).
  rewrite H, H0. repeat split; lra || lia.
Qed.
