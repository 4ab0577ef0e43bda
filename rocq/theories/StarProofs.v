(** Lemmas for the star shape. *)
From Coq Require Import List ZArith Reals Lra Lia Bool.
From Flocq Require Import Core.Raux.
From Verif Require Import Num NumR Linalg ModelGrid ModelShape ModelMath ModelState ModelLaws ModelSDF ModelStar SpecStar.
Local Open Scope R_scope.

Lemma sqrt_scale_pos t x : 0 < t -> 0 <= x -> sqrt (t * t * x) = t * sqrt x.
Proof. intros Ht Hx. rewrite sqrt_mult by nra. rewrite sqrt_square by lra. reflexivity. Qed.

Lemma polar s c :
  s = sqrt (s * s + c * c) * sin (Ratan2 s c) /\ c = sqrt (s * s + c * c) * cos (Ratan2 s c).
Proof.
  assert (A : forall t, 0 < sqrt (1 + t²)) by (intro t; apply sqrt_lt_R0; pose proof (Rle_0_sqr t); lra).
  assert (B : forall k, k <> 0 -> sqrt (s * s + c * c) = Rabs c * sqrt (1 + (s / c)²) \/ c = 0).
  { intros _ _. destruct (Req_dec c 0) as [->|Hc]; [right; reflexivity|left].
    replace (s * s + c * c) with (Rabs c * Rabs c * (1 + (s / c)²)).
    - apply sqrt_scale_pos. + apply Rabs_pos_lt; exact Hc. + pose proof (Rle_0_sqr (s / c)); lra.
    - rewrite <- Rabs_mult, Rabs_pos_eq by nra. unfold Rsqr. field. exact Hc. }
  specialize (B 1 R1_neq_R0). unfold Ratan2.
  destruct (Rlt_dec 0 c) as [P|P]; [|destruct (Rlt_dec c 0) as [N|N]].
  - destruct B as [->|E]; [|lra]. rewrite sin_atan, cos_atan, Rabs_pos_eq by lra.
    specialize (A (s / c)). split; field; lra.
  - assert (Z : s = - (Rabs c * sqrt (1 + (s / c)²) * sin (atan (s / c))) /\
                c = - (Rabs c * sqrt (1 + (s / c)²) * cos (atan (s / c)))).
    { rewrite sin_atan, cos_atan, Rabs_left by lra. specialize (A (s / c)). split; field; lra. }
    destruct B as [->|E]; [|lra]. destruct Z as [Z1 Z2].
    destruct (Rle_dec 0 s); [rewrite neg_sin, neg_cos|].
    + split; lra.
    + replace (atan (s / c) - PI) with (- (PI - atan (s / c))) by ring.
      rewrite sin_neg, cos_neg, sin_PI_x. replace (PI - atan (s / c)) with (- atan (s / c) + PI) by ring.
      rewrite neg_cos, cos_neg. split; lra.
  - assert (c = 0) as -> by lra. replace (s * s + 0 * 0) with (s * s) by ring.
    destruct (Rlt_dec 0 s); [|destruct (Rlt_dec s 0)].
    + rewrite sqrt_square by lra. rewrite sin_PI2, cos_PI2. lra.
    + replace (s * s) with (- s * - s) by ring. rewrite sqrt_square by lra.
      rewrite sin_neg, cos_neg, sin_PI2, cos_PI2. lra.
    + assert (s = 0) as -> by lra. rewrite Rmult_0_l, sqrt_0. lra.
Qed.

Lemma Ratan2_scale t s c : 0 < t -> Ratan2 (t * s) (t * c) = Ratan2 s c.
Proof.
  intro Ht. unfold Ratan2.
  assert (D : c <> 0 -> t * s / (t * c) = s / c) by (intro; field; lra).
  destruct (Rlt_dec 0 (t * c)), (Rlt_dec 0 c); try nra; [rewrite D by lra; reflexivity|].
  destruct (Rlt_dec (t * c) 0), (Rlt_dec c 0); try nra.
  - rewrite D by lra. destruct (Rle_dec 0 (t * s)), (Rle_dec 0 s); try nra; reflexivity.
  - destruct (Rlt_dec 0 (t * s)), (Rlt_dec 0 s); try nra; try reflexivity.
    destruct (Rlt_dec (t * s) 0), (Rlt_dec s 0); try nra; reflexivity.
Qed.

Lemma nround_near (x : R) : Rabs (x - IZR (nround x)) <= / 2.
Proof.
  pose proof (Zfloor_lb x) as L. pose proof (Zfloor_ub x) as U.
  unfold nround. rnum. repeat rcase; try (destruct (Z.even (Zfloor x)));
  rewrite ?plus_IZR; unfold Rabs; destruct (Rcase_abs _); lra.
Qed.

(** equal turns *)
Lemma sin_turn x (k : Z) : sin (x + 2 * IZR k * PI) = sin x.
Proof.
  destruct (Z_le_gt_dec 0 k) as [H|H].
  - rewrite <- (Z2Nat.id k H), <- INR_IZR_INZ. apply sin_period.
  - rewrite <- (sin_period _ (Z.to_nat (- k))), INR_IZR_INZ, Z2Nat.id, opp_IZR by lia. f_equal. ring.
Qed.
Lemma cos_turn x (k : Z) : cos (x + 2 * IZR k * PI) = cos x.
Proof.
  destruct (Z_le_gt_dec 0 k) as [H|H].
  - rewrite <- (Z2Nat.id k H), <- INR_IZR_INZ. apply cos_period.
  - rewrite <- (cos_period _ (Z.to_nat (- k))), INR_IZR_INZ, Z2Nat.id, opp_IZR by lia. f_equal. ring.
Qed.

(** a cosine is smaller the further the angle is from all full turns *)
Lemma cos_far d g : 0 <= g -> (forall l : Z, g <= Rabs (d + 2 * IZR l * PI)) -> cos d <= cos g.
Proof.
  intros Hg H. pose proof PI_RGT_0 as Hp.
  set (k := nround (d / (2 * PI))).
  assert (N : Rabs (d + 2 * IZR (- k) * PI) <= PI).
  { rewrite opp_IZR. replace (d + 2 * - IZR k * PI) with ((d / (2 * PI) - IZR k) * (2 * PI)) by (field; lra).
    rewrite Rabs_mult, (Rabs_pos_eq (2 * PI)) by lra. pose proof (nround_near (d / (2 * PI))) as Q. fold k in Q. nra. }
  rewrite <- (cos_turn d (- k)). specialize (H (- k)%Z).
  assert (E : cos (d + 2 * IZR (- k) * PI) = cos (Rabs (d + 2 * IZR (- k) * PI))).
  { unfold Rabs. destruct (Rcase_abs _); [rewrite cos_neg|]; reflexivity. }
  pose proof (Rabs_pos (d + 2 * IZR (- k) * PI)). rewrite E. apply cos_decr_1; lra.
Qed.

Section Wedge.
Variable n : Z.
Hypothesis Hn : (2 <= n)%Z.
Let a := PI / IZR n.

Lemma n_pos : 2 <= IZR n.
Proof. apply (IZR_le 2). exact Hn. Qed.
Lemma a_range : 0 < a <= PI / 2.
Proof.
  pose proof PI_RGT_0. pose proof n_pos. unfold a. split.
  - apply Rdiv_lt_0_compat; lra.
  - unfold Rdiv. apply Rmult_le_compat_l; [lra|]. apply Rinv_le_contravar; lra.
Qed.
Lemma n_a : IZR n * a = PI.
Proof. unfold a. field. pose proof n_pos; lra. Qed.

(** reflections into the sector bring two points closer *)
Lemma fold_closer al be t s (m : Z) :
  0 <= al <= a -> 0 <= be <= a -> t * t = 1 -> s * s = 1 ->
  cos (t * al - s * be + 2 * IZR m * a) <= cos (al - be).
Proof.
  intros Ha Hb Ht Hs. pose proof a_range as A.
  replace (cos (al - be)) with (cos (Rabs (al - be)))
    by (unfold Rabs; destruct (Rcase_abs _); [rewrite cos_neg|]; reflexivity).
  assert (t = 1 \/ t = -1) as T by (assert ((t - 1) * (t + 1) = 0) by lra; apply Rmult_integral in H; lra).
  assert (s = 1 \/ s = -1) as S by (assert ((s - 1) * (s + 1) = 0) by lra; apply Rmult_integral in H; lra).
  apply cos_far; [apply Rabs_pos|]. intro l. rewrite <- n_a.
  replace (t * al - s * be + 2 * IZR m * a + 2 * IZR l * (IZR n * a))
    with (t * al - s * be + 2 * IZR (m + l * n) * a) by (rewrite plus_IZR, mult_IZR; ring).
  set (M := (m + l * n)%Z).
  destruct (Z.eq_dec M 0) as [E|E].
  - rewrite E. replace (t * al - s * be + 2 * 0 * a) with (t * al - s * be) by ring.
    destruct T as [-> | ->], S as [-> | ->]; unfold Rabs; repeat destruct (Rcase_abs _); lra.
  - assert (1 <= IZR M \/ IZR M <= -1) as [K|K].
    { destruct (Z_lt_ge_dec 0 M); [left; apply (IZR_le 1)|right; apply (IZR_le _ (-1))]; lia. }
    + assert (2 * a <= 2 * IZR M * a) by nra.
      destruct T as [-> | ->], S as [-> | ->]; unfold Rabs; repeat destruct (Rcase_abs _); lra.
    + assert (2 * IZR M * a <= - (2 * a)) by nra.
      destruct T as [-> | ->], S as [-> | ->]; unfold Rabs; repeat destruct (Rcase_abs _); lra.
Qed.

(** points of the sector *)
Lemma sector_polar x y :
  0 <= x -> 0 <= y -> x * cos a <= y * sin a ->
  exists r be, 0 <= r /\ 0 <= be <= a /\ x = r * sin be /\ y = r * cos be.
Proof.
  intros Hx Hy H. pose proof a_range as A. destruct (polar x y) as [P1 P2].
  set (r := sqrt (x * x + y * y)) in *. assert (Hr : 0 <= r) by apply sqrt_pos.
  destruct (Req_dec r 0) as [Z|Z].
  { exists 0, 0. rewrite Z in *. repeat split; lra. }
  exists r, (Ratan2 x y).
  assert (R1 : 0 <= Ratan2 x y <= PI / 2).
  { unfold Ratan2. pose proof PI_RGT_0 as Hp.
    destruct (Rlt_dec 0 y) as [Py|Py].
    - split.
      + rewrite <- atan_0. destruct (Req_dec x 0) as [-> |Nx].
        * replace (0 / y) with 0 by (field; lra). lra.
        * left. apply atan_increasing. apply Rdiv_lt_0_compat; lra.
      + destruct (atan_bound (x / y)). lra.
    - destruct (Rlt_dec y 0); [lra|]. destruct (Rlt_dec 0 x); [lra|]. destruct (Rlt_dec x 0); lra. }
  repeat split; try tauto; try lra.
  assert (0 <= r * sin (a - Ratan2 x y)).
  { rewrite sin_minus.
    replace (r * _) with ((r * cos (Ratan2 x y)) * sin a - (r * sin (Ratan2 x y)) * cos a) by ring.
    rewrite <- P1, <- P2. lra. }
  apply Rnot_lt_le. intro L.
  assert (sin (a - Ratan2 x y) < 0).
  { rewrite <- (Ropp_involutive (a - Ratan2 x y)), sin_neg. apply Ropp_lt_gt_0_contravar.
    apply sin_gt_0; pose proof PI_RGT_0; lra. }
  nra.
Qed.

Variables ro ri : R.
Hypothesis Ho : 0 < ro.
Hypothesis Hi : 0 < ri.

Definition side_x (h : R) : R := h * (ri * sin a).
Definition side_y (h : R) : R := (1 - h) * ro + h * (ri * cos a).

Lemma sin_a : 0 < sin a.
Proof. pose proof a_range. pose proof PI_RGT_0. apply sin_gt_0; lra. Qed.
Lemma cos_a : 0 <= cos a.
Proof. pose proof a_range. pose proof PI_RGT_0. apply cos_ge_0; lra. Qed.

Lemma side_polar h : 0 <= h <= 1 ->
  exists r be, 0 <= r /\ 0 <= be <= a /\ side_x h = r * sin be /\ side_y h = r * cos be.
Proof.
  intro Hh. pose proof sin_a as S. pose proof cos_a as C.
  apply sector_polar; unfold side_x, side_y.
  - apply Rmult_le_pos; nra.
  - assert (0 <= (1 - h) * ro) by nra. assert (0 <= h * (ri * cos a)) by (apply Rmult_le_pos; nra). lra.
  - assert (0 <= (1 - h) * ro * sin a) by (apply Rmult_le_pos; [nra|lra]).
    replace (((1 - h) * ro + h * (ri * cos a)) * sin a) with ((1 - h) * ro * sin a + h * (ri * sin a) * cos a) by ring. lra.
Qed.

Definition S0 : Star R := mkStar (IZR n) ro ri.

(** the point and its image in the sector *)
Lemma fold_polar x y z :
  exists (j : Z) t r al, t * t = 1 /\ 0 <= r /\ 0 <= al <= a /\
    x = r * sin (2 * IZR j * a + t * al) /\ y = r * cos (2 * IZR j * a + t * al) /\
    vx (star_fold Ratan2 S0 (V3 x y z)) = r * sin al /\ vy (star_fold Ratan2 S0 (V3 x y z)) = r * cos al.
Proof.
  pose proof a_range as A. destruct (polar x y) as [P1 P2].
  set (r := sqrt (x * x + y * y)) in *. assert (Hr : 0 <= r) by apply sqrt_pos.
  set (f := Ratan2 x y) in *. set (k := nround (f / (2 * a))).
  set (b := f - 2 * IZR k * a).
  assert (Hb : Rabs b <= a).
  { unfold b. replace (f - 2 * IZR k * a) with ((f / (2 * a) - IZR k) * (2 * a)) by (field; lra).
    rewrite Rabs_mult, (Rabs_pos_eq (2 * a)) by lra. pose proof (nround_near (f / (2 * a))) as Q. fold k in Q. nra. }
  assert (X : vx (star_fold Ratan2 S0 (V3 x y z)) = Rabs (r * sin b) /\ vy (star_fold Ratan2 S0 (V3 x y z)) = r * cos b).
  { unfold star_fold, S0. cbn [star_points vx vy]. fold f. unfold nabs. rnum.
    change (PI / IZR n) with a. change (IZR 2) with 2. 
    replace (IZR k * (2 * a)) with (IZR k * (2 * a)) by ring. fold k.
    unfold b. replace (2 * IZR k * a) with (IZR k * (2 * a)) by ring. rewrite sin_minus, cos_minus.
    assert (E : forall v, (if Rltb v 0 then - v else v) = Rabs v).
    { intro v. rcase; unfold Rabs; destruct (Rcase_abs v); lra. }
    rewrite E. set (c := cos (IZR k * (2 * a))). set (s := sin (IZR k * (2 * a))).
    split; [f_equal|]; rewrite P1, P2 at 1; ring. }
  exists k, (if Rle_dec 0 b then 1 else -1), r, (Rabs b).
  destruct X as [X1 X2]. rewrite X1, X2.
  assert (Hs : 0 <= sin (Rabs b)) by (pose proof PI_RGT_0; apply sin_ge_0; [apply Rabs_pos|lra]).
  assert (W : (if Rle_dec 0 b then 1 else -1) * Rabs b = b).
  { unfold Rabs. destruct (Rle_dec 0 b), (Rcase_abs b); lra. }
  rewrite W. repeat split; try assumption.
  - destruct (Rle_dec 0 b); lra.
  - apply Rabs_pos.
  - unfold b. replace (2 * IZR k * a + (f - 2 * IZR k * a)) with f by ring. exact P1.
  - unfold b. replace (2 * IZR k * a + (f - 2 * IZR k * a)) with f by ring. exact P2.
  - rewrite Rabs_mult, (Rabs_pos_eq r) by lra. f_equal.
    destruct (Rle_dec 0 b) as [B|B].
    + rewrite (Rabs_pos_eq b B) in *. apply Rabs_pos_eq. exact Hs.
    + rewrite (Rabs_left b) in * by lra. rewrite sin_neg in *. apply Rabs_left1. lra.
  - f_equal. unfold Rabs. destruct (Rcase_abs b); [rewrite cos_neg|]; reflexivity.
Qed.

Lemma fold_scale t x y z : 0 < t ->
  vx (star_fold Ratan2 S0 (V3 (t * x) (t * y) z)) = t * vx (star_fold Ratan2 S0 (V3 x y z)) /\
  vy (star_fold Ratan2 S0 (V3 (t * x) (t * y) z)) = t * vy (star_fold Ratan2 S0 (V3 x y z)).
Proof.
  intro Ht. unfold star_fold, S0. cbn [star_points vx vy]. rewrite Ratan2_scale by exact Ht.
  unfold nabs. rnum. set (an := _ * (_ * _)).
  split; [|ring]. repeat rcase; nra.
Qed.

(** sides of the outline *)
Lemma outline_side x y : outline n ro ri x y <->
  exists (j : Z) s h r be, s * s = 1 /\ 0 <= h <= 1 /\ 0 <= r /\ 0 <= be <= a /\
    side_x h = r * sin be /\ side_y h = r * cos be /\
    x = r * sin (2 * IZR j * a + s * be) /\ y = r * cos (2 * IZR j * a + s * be).
Proof.
  assert (Ang : forall k, IZR k * PI / IZR n = IZR k * a) by (intro; unfold a; field; pose proof n_pos; lra).
  split.
  - intros (k & h & Hh & Ex & Ey). unfold corner, corner_radius in Ex, Ey. rewrite !Ang in Ex, Ey. cbn [vx vy] in Ex, Ey.
    rewrite Z.even_add in Ex, Ey. change (Z.even 1) with false in Ex, Ey.
    destruct (Z.even k) eqn:Ev; cbn [Bool.eqb] in Ex, Ey.
    + apply Z.even_spec in Ev. destruct Ev as [j ->].
      destruct (side_polar h Hh) as (r & be & Hr & Hb & Sx & Sy).
      exists j, 1, h, r, be. repeat split; try assumption; try tauto; try lra.
      * rewrite Rmult_1_l, sin_plus. replace (r * _) with ((r * cos be) * sin (2 * IZR j * a) + (r * sin be) * cos (2 * IZR j * a)) by ring.
        rewrite <- Sx, <- Sy. unfold side_x, side_y. rewrite Ex, plus_IZR, mult_IZR.
        replace ((2 * IZR j + 1) * a) with (2 * IZR j * a + a) by ring. rewrite sin_plus. ring.
      * rewrite Rmult_1_l, cos_plus. replace (r * _) with ((r * cos be) * cos (2 * IZR j * a) - (r * sin be) * sin (2 * IZR j * a)) by ring.
        rewrite <- Sx, <- Sy. unfold side_x, side_y. rewrite Ey, plus_IZR, mult_IZR.
        replace ((2 * IZR j + 1) * a) with (2 * IZR j * a + a) by ring. rewrite cos_plus. ring.
    + assert (exists j, k = 2 * j - 1)%Z as [j ->].
      { assert (Ok : Z.odd k = true) by (rewrite <- Z.negb_even, Ev; reflexivity).
        apply Z.odd_spec in Ok. destruct Ok as [q ->]. exists (q + 1)%Z. lia. }
      assert (Hh' : 0 <= 1 - h <= 1) by lra.
      destruct (side_polar (1 - h) Hh') as (r & be & Hr & Hb & Sx & Sy).
      exists j, (-1), (1 - h), r, be. repeat split; try assumption; try tauto; try lra.
      * replace (2 * IZR j * a + -1 * be) with (2 * IZR j * a - be) by ring. rewrite sin_minus.
        replace (r * _) with ((r * cos be) * sin (2 * IZR j * a) - (r * sin be) * cos (2 * IZR j * a)) by ring.
        rewrite <- Sx, <- Sy. unfold side_x, side_y. rewrite Ex.
        replace (2 * j - 1 + 1)%Z with (2 * j)%Z by ring. rewrite minus_IZR, mult_IZR.
        replace ((2 * IZR j - 1) * a) with (2 * IZR j * a - a) by ring. rewrite sin_minus. ring.
      * replace (2 * IZR j * a + -1 * be) with (2 * IZR j * a - be) by ring. rewrite cos_minus.
        replace (r * _) with ((r * cos be) * cos (2 * IZR j * a) + (r * sin be) * sin (2 * IZR j * a)) by ring.
        rewrite <- Sx, <- Sy. unfold side_x, side_y. rewrite Ey.
        replace (2 * j - 1 + 1)%Z with (2 * j)%Z by ring. rewrite minus_IZR, mult_IZR.
        replace ((2 * IZR j - 1) * a) with (2 * IZR j * a - a) by ring. rewrite cos_minus. ring.
  - intros (j & s & h & r & be & Hs & Hh & Hr & Hb & Sx & Sy & Ex & Ey).
    assert (s = 1 \/ s = -1) as [-> | ->]
      by (assert ((s - 1) * (s + 1) = 0) as Z by lra; apply Rmult_integral in Z; lra).
    + exists (2 * j)%Z, h. unfold corner, corner_radius. rewrite !Ang. cbn [vx vy].
      rewrite Z.even_add, Z.even_mul. change (Z.even 2) with true. change (Z.even 1) with false. cbn [orb Bool.eqb].
      rewrite plus_IZR, mult_IZR. replace ((2 * IZR j + 1) * a) with (2 * IZR j * a + a) by ring.
      rewrite Rmult_1_l in Ex, Ey. rewrite sin_plus in Ex. rewrite cos_plus in Ey. unfold side_x in Sx. unfold side_y in Sy.
      rewrite sin_plus, cos_plus. split; [exact Hh|split].
      * rewrite Ex. replace (r * _) with ((r * cos be) * sin (2 * IZR j * a) + (r * sin be) * cos (2 * IZR j * a)) by ring.
        rewrite <- Sx, <- Sy. ring.
      * rewrite Ey. replace (r * _) with ((r * cos be) * cos (2 * IZR j * a) - (r * sin be) * sin (2 * IZR j * a)) by ring.
        rewrite <- Sx, <- Sy. ring.
    + exists (2 * j - 1)%Z, (1 - h). unfold corner, corner_radius. rewrite !Ang. cbn [vx vy].
      replace (2 * j - 1 + 1)%Z with (2 * j)%Z by ring.
      replace (Z.even (2 * j - 1)) with false by (rewrite Z.even_sub, Z.even_mul; reflexivity).
      rewrite Z.even_mul. change (Z.even 2) with true. cbn [orb].
      rewrite minus_IZR, mult_IZR. replace ((2 * IZR j - 1) * a) with (2 * IZR j * a - a) by ring.
      replace (2 * IZR j * a + -1 * be) with (2 * IZR j * a - be) in Ex, Ey by ring.
      rewrite sin_minus in Ex. rewrite cos_minus in Ey. unfold side_x in Sx. unfold side_y in Sy.
      rewrite sin_minus, cos_minus. split; [lra|split].
      * rewrite Ex. replace (r * _) with ((r * cos be) * sin (2 * IZR j * a) - (r * sin be) * cos (2 * IZR j * a)) by ring.
        rewrite <- Sx, <- Sy. ring.
      * rewrite Ey. replace (r * _) with ((r * cos be) * cos (2 * IZR j * a) + (r * sin be) * sin (2 * IZR j * a)) by ring.
        rewrite <- Sx, <- Sy. ring.
Qed.

(** distance to the side, from a point of the sector *)
Lemma edge_facts r al w :
  0 <= r -> 0 <= al <= a -> vx w = r * sin al -> vy w = r * cos al -> vz w = 0 ->
  let v := star_edge_distance S0 w in
  let cr := r * (ri * sin (a - al) + ro * sin al) - ri * sin a * ro in
  (exists h, 0 <= h <= 1 /\ Rabs v = sqrt (Rsqr (vx w - side_x h) + Rsqr (vy w - side_y h))) /\
  (forall h, 0 <= h <= 1 -> Rabs v <= sqrt (Rsqr (vx w - side_x h) + Rsqr (vy w - side_y h))) /\
  (v < 0 <-> cr < 0) /\ (v = 0 <-> cr = 0) /\
  (cr = 0 -> exists h, 0 <= h <= 1 /\ vx w = side_x h /\ vy w = side_y h).
Proof.
  intros Hr Hal Wx Wy Wz v cr. pose proof a_range as A. pose proof sin_a as Sa. pose proof cos_a as Ca.
  pose proof PI_RGT_0 as Hp.
  assert (S1 : 0 <= sin (a - al)) by (apply sin_ge_0; lra).
  assert (S2 : 0 <= sin al) by (apply sin_ge_0; lra).
  set (ex := ri * sin a). set (ey := ri * cos a - ro).
  assert (Ex : 0 < ex) by (unfold ex; nra).
  set (q := ((vx w) * ex + (vy w - ro) * ey) / (ex * ex + ey * ey)).
  assert (Eq : 0 < ex * ex + ey * ey) by nra.
  set (h0 := nclip q 0 1).
  assert (Hh0 : h0 = Rmin (Rmax q 0) 1).
  { unfold h0, nclip, nmin, nmax. rnum. unfold Rmin, Rmax.
    repeat rcase; repeat (destruct (Rle_dec _ _)); lra. }
  assert (Hv : v = sqrt (Rsqr (vx w - side_x h0) + Rsqr (vy w - side_y h0)) * nsign cr).
  { unfold v, star_edge_distance, star_tip, star_valley, S0, vnorm, vnorm2, vdot, vsub, vadd, vscale, vmap, vmap2.
    cbn [star_points star_outer star_inner vx vy vz].
    rewrite Wz. unfold h0, q, ex, ey, side_x, side_y, cr. fold a. rnum. fold a.
    f_equal.
    - f_equal.
      match goal with |- context [@nclip R ?i ?u ?lo ?hi] =>
        replace u with (((vx w) * (ri * sin a) + (vy w - ro) * (ri * cos a - ro)) /
                        (ri * sin a * (ri * sin a) + (ri * cos a - ro) * (ri * cos a - ro)))
          by (f_equal; ring) end.
      unfold Rsqr. ring.
    - f_equal. rewrite Wx, Wy, sin_minus. ring. }
  assert (H01 : 0 <= h0 <= 1).
  { rewrite Hh0. unfold Rmin, Rmax. repeat (destruct (Rle_dec _ _)); lra. }
  assert (D : forall h, Rsqr (vx w - side_x h) + Rsqr (vy w - side_y h)
      = (ex * ex + ey * ey) * Rsqr (h - q)
        + (Rsqr (vx w) + Rsqr (vy w - ro) - (ex * ex + ey * ey) * Rsqr q)).
  { intro h. unfold side_x, side_y, q, Rsqr. fold ex. unfold ey. unfold ey in Eq. field. lra. }
  assert (Min : forall h, 0 <= h <= 1 ->
      Rsqr (vx w - side_x h0) + Rsqr (vy w - side_y h0) <= Rsqr (vx w - side_x h) + Rsqr (vy w - side_y h)).
  { intros h Hh. rewrite !D. apply Rplus_le_compat_r. apply Rmult_le_compat_l; [lra|].
    rewrite Hh0. apply Rsqr_le_abs_1. unfold Rmin, Rmax, Rabs.
    repeat (destruct (Rle_dec _ _)); repeat (destruct (Rcase_abs _)); lra. }
  (* on the line through the side a point of the sector is on the side *)
  assert (On : cr = 0 -> exists h, 0 <= h <= 1 /\ vx w = side_x h /\ vy w = side_y h).
  { intro E. unfold cr in E.
    assert (K : r * (ri * sin (a - al) + ro * sin al) = ex * ro) by (unfold ex; lra).
    assert (0 <= r * (ri * sin (a - al))) by (apply Rmult_le_pos; nra).
    assert (0 <= r * sin al) by nra.
    exists (r * sin al / ex). repeat split.
    - apply Rmult_le_pos; [nra|]. left. apply Rinv_0_lt_compat; exact Ex.
    - apply (Rmult_le_reg_r (ex * ro)); [nra|].
      replace (r * sin al / ex * (ex * ro)) with (r * sin al * ro) by (field; lra). lra.
    - rewrite Wx. unfold side_x. fold ex. field. lra.
    - rewrite Wy. unfold side_y. apply (Rmult_eq_reg_r ex); [|lra].
      replace (((1 - r * sin al / ex) * ro + r * sin al / ex * (ri * cos a)) * ex)
        with (ex * ro - r * sin al * ro + r * sin al * (ri * cos a)) by (field; lra).
      rewrite <- K, sin_minus. unfold ex. ring. }
  assert (Off : forall h, vx w = side_x h -> vy w = side_y h -> cr = 0).
  { intros h E1 E2. unfold cr. rewrite sin_minus.
    replace (r * (ri * (sin a * cos al - cos a * sin al) + ro * sin al))
      with (ri * sin a * (r * cos al) - ri * cos a * (r * sin al) + ro * (r * sin al)) by ring.
    rewrite <- Wx, <- Wy, E1, E2. unfold side_x, side_y. ring. }
  set (dd := Rsqr (vx w - side_x h0) + Rsqr (vy w - side_y h0)) in *.
  assert (Hd : 0 <= dd) by (unfold dd; pose proof (Rle_0_sqr (vx w - side_x h0)); pose proof (Rle_0_sqr (vy w - side_y h0)); lra).
  assert (Z : dd = 0 <-> cr = 0).
  { split.
    - intro E. unfold dd in E. pose proof (Rle_0_sqr (vx w - side_x h0)) as A1. pose proof (Rle_0_sqr (vy w - side_y h0)) as A2.
      apply (Off h0); apply Rminus_diag_uniq; apply Rsqr_0_uniq; lra.
    - intro E. destruct (On E) as (h & Hh & E1 & E2). specialize (Min h Hh). rewrite <- E1, <- E2, !Rminus_diag_eq in Min by reflexivity.
      rewrite Rsqr_0 in Min. lra. }
  assert (Av : Rabs v = sqrt dd).
  { rewrite Hv, Rabs_mult, (Rabs_pos_eq (sqrt dd)) by apply sqrt_pos.
    destruct (Rtotal_order cr 0) as [L|[E|G]].
    - rewrite nsign_R_neg by exact L. rewrite Rabs_left by lra. ring.
    - rewrite (proj2 Z E), sqrt_0. ring.
    - rewrite nsign_R_pos by lra. rewrite Rabs_R1. ring. }
  assert (Sd : cr <> 0 -> 0 < sqrt dd).
  { intro N. apply sqrt_lt_R0. destruct (Req_dec dd 0) as [E|E]; [apply Z in E; contradiction|lra]. }
  split; [exists h0; split; [exact H01|rewrite Av; reflexivity]|].
  split; [intros h Hh; rewrite Av; apply sqrt_le_1_alt; apply Min; exact Hh|].
  split; [|split; [|exact On]].
  - rewrite Hv. destruct (Rtotal_order cr 0) as [L|[E|G]].
    + rewrite nsign_R_neg by exact L. pose proof (Sd ltac:(lra)). lra.
    + rewrite E, nsign_R_0. lra.
    + rewrite nsign_R_pos by lra. pose proof (Sd ltac:(lra)). lra.
  - rewrite Hv. destruct (Rtotal_order cr 0) as [L|[E|G]].
    + rewrite nsign_R_neg by exact L. pose proof (Sd ltac:(lra)). lra.
    + rewrite E, nsign_R_0. lra.
    + rewrite nsign_R_pos by lra. pose proof (Sd ltac:(lra)). lra.
Qed.

Lemma fold_vz x y z : vz (star_fold Ratan2 S0 (V3 x y z)) = 0.
Proof. reflexivity. Qed.

Lemma gap2 r1 a1 r2 a2 :
  Rsqr (r1 * sin a1 - r2 * sin a2) + Rsqr (r1 * cos a1 - r2 * cos a2) = r1 * r1 + r2 * r2 - 2 * r1 * r2 * cos (a1 - a2).
Proof.
  rewrite cos_minus. unfold Rsqr. pose proof (sin2_cos2 a1) as E1. pose proof (sin2_cos2 a2) as E2. unfold Rsqr in *.
  replace (r1 * r1 + r2 * r2) with (r1 * r1 * (sin a1 * sin a1 + cos a1 * cos a1) + r2 * r2 * (sin a2 * sin a2 + cos a2 * cos a2))
    by (rewrite E1, E2; ring). ring.
Qed.

(** no point of the outline is closer *)
Lemma star_lower x y z qx qy : outline n ro ri qx qy ->
  Rabs (star_local Ratan2 S0 (V3 x y z)) <= sqrt (Rsqr (x - qx) + Rsqr (y - qy)).
Proof.
  intro Q. apply outline_side in Q. destruct Q as (j' & s & h & r' & be & Hs & Hh & Hr' & Hb & Sx & Sy & Ex & Ey).
  destruct (fold_polar x y z) as (j & t & r & al & Ht & Hr & Hal & Px & Py & Wx & Wy).
  destruct (edge_facts r al _ Hr Hal Wx Wy (fold_vz x y z)) as (_ & L & _).
  unfold star_local. eapply Rle_trans; [apply (L h Hh)|].
  apply sqrt_le_1_alt. rewrite Wx, Wy, Sx, Sy, Px, Py, Ex, Ey, !gap2.
  replace (2 * IZR j * a + t * al - (2 * IZR j' * a + s * be)) with (t * al - s * be + 2 * IZR (j - j') * a)
    by (rewrite minus_IZR; ring).
  pose proof (fold_closer al be t s (j - j') Hal Hb Ht Hs) as C.
  assert (0 <= r * r') by nra. nra.
Qed.

(** and the distance is attained *)
Lemma star_attained x y z : exists qx qy, outline n ro ri qx qy /\
  Rabs (star_local Ratan2 S0 (V3 x y z)) = sqrt (Rsqr (x - qx) + Rsqr (y - qy)).
Proof.
  destruct (fold_polar x y z) as (j & t & r & al & Ht & Hr & Hal & Px & Py & Wx & Wy).
  destruct (edge_facts r al _ Hr Hal Wx Wy (fold_vz x y z)) as ((h & Hh & E) & _).
  destruct (side_polar h Hh) as (r' & be & Hr' & Hb & Sx & Sy).
  exists (r' * sin (2 * IZR j * a + t * be)), (r' * cos (2 * IZR j * a + t * be)). split.
  - apply outline_side. exists j, t, h, r', be. repeat split; try assumption; tauto.
  - unfold star_local. rewrite E. f_equal. rewrite Wx, Wy, Sx, Sy, Px, Py, !gap2.
    replace (2 * IZR j * a + t * al - (2 * IZR j * a + t * be)) with (t * (al - be)) by ring.
    replace (cos (t * (al - be))) with (cos (al - be)); [reflexivity|].
    assert (t = 1 \/ t = -1) as [-> | ->]
      by (assert ((t - 1) * (t + 1) = 0) as Z by lra; apply Rmult_integral in Z; lra).
    + rewrite Rmult_1_l. reflexivity.
    + replace (-1 * (al - be)) with (- (al - be)) by ring. rewrite cos_neg. reflexivity.
Qed.

Lemma star_zero x y z : star_local Ratan2 S0 (V3 x y z) = 0 <-> outline n ro ri x y.
Proof.
  split.
  - intro E. destruct (star_attained x y z) as (qx & qy & Q & D). rewrite E, Rabs_R0 in D. symmetry in D.
    pose proof (Rle_0_sqr (x - qx)) as A1. pose proof (Rle_0_sqr (y - qy)) as A2.
    apply sqrt_eq_0 in D; [|lra].
    assert (x = qx) as -> by (apply Rminus_diag_uniq; apply Rsqr_0_uniq; lra).
    assert (y = qy) as -> by (apply Rminus_diag_uniq; apply Rsqr_0_uniq; lra). exact Q.
  - intro Q. pose proof (star_lower x y z x y Q) as L. rewrite !Rminus_diag_eq, Rsqr_0, Rplus_0_l, sqrt_0 in L by reflexivity.
    pose proof (Rabs_pos (star_local Ratan2 S0 (V3 x y z))). unfold Rabs in *. destruct (Rcase_abs _); lra.
Qed.

(** along a ray from the centre *)
Lemma star_ray x y z : (x = 0 /\ y = 0) \/
  exists t0, 0 < t0 /\ forall t, 0 < t ->
    (star_local Ratan2 S0 (V3 (t * x) (t * y) z) < 0 <-> t < t0) /\
    (star_local Ratan2 S0 (V3 (t * x) (t * y) z) = 0 <-> t = t0).
Proof.
  destruct (fold_polar x y z) as (j & s & r & al & Hs & Hr & Hal & Px & Py & Wx & Wy).
  destruct (Req_dec r 0) as [Z|Z]; [left; rewrite Z in *; lra|right].
  pose proof a_range as A. pose proof sin_a as Sa. pose proof PI_RGT_0 as Hp.
  assert (K : 0 < ri * sin (a - al) + ro * sin al).
  { assert (0 <= sin al) by (apply sin_ge_0; lra). assert (0 <= sin (a - al)) by (apply sin_ge_0; lra).
    destruct (Req_dec al 0) as [E|E].
    - rewrite E, Rminus_0_r in *. nra.
    - assert (0 < sin al) by (apply sin_gt_0; lra). nra. }
  set (k := ri * sin (a - al) + ro * sin al) in *.
  assert (Kr : 0 < r * k) by nra. assert (Kc : 0 < ri * sin a * ro) by (assert (0 < ri * sin a) by nra; nra).
  exists (ri * sin a * ro / (r * k)). split; [apply Rdiv_lt_0_compat; assumption|].
  intros t Ht. destruct (fold_scale t x y z Ht) as [F1 F2].
  assert (Hr' : 0 <= t * r) by nra.
  destruct (edge_facts (t * r) al (star_fold Ratan2 S0 (V3 (t * x) (t * y) z)) Hr' Hal) as (_ & _ & N & E & _).
  { rewrite F1, Wx. ring. } { rewrite F2, Wy. ring. } { reflexivity. }
  fold k in N, E. unfold star_local. rewrite N, E.
  assert (R1 : t = t * (r * k) / (r * k)) by (field; nra).
  split.
  - split; intro H.
    + apply (Rmult_lt_reg_r (r * k)); [exact Kr|]. unfold Rdiv. rewrite Rmult_assoc, Rinv_l by lra. nra.
    + apply (Rmult_lt_compat_r (r * k)) in H; [|exact Kr]. unfold Rdiv in H. rewrite (Rmult_assoc (ri * sin a * ro)), Rinv_l in H by lra. nra.
  - split; intro H.
    + rewrite R1. f_equal. nra.
    + rewrite H. field. lra.
Qed.
End Wedge.
