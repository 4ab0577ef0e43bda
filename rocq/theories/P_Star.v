(** C116: the star shape. *)
From Coq Require Import List ZArith Reals Lra Lia Bool.
From Verif Require Import Num NumR Linalg ModelGrid ModelShape ModelMath ModelState ModelLaws ModelSDF ModelStar SpecStar StarProofs.
Local Open Scope R_scope.

Lemma star_S0 n ro ri : star n ro ri = S0 n ro ri.
Proof. reflexivity. Qed.

(** C116: in its own frame the value is the distance to the outline of the polygon with [n] tips and [n] valleys,
    negative strictly inside, zero on the outline, positive strictly outside. *)
Theorem C116_outline n ro ri p : (2 <= n)%Z -> 0 < ro -> 0 < ri ->
  let v := star_local Ratan2 (star n ro ri) p in
  nearest (outline n ro ri) (vx p) (vy p) (Rabs v) /\
  (v < 0 <-> inside n ro ri (vx p) (vy p)) /\
  (v = 0 <-> outline n ro ri (vx p) (vy p)) /\
  (0 < v <-> outside n ro ri (vx p) (vy p)).
Proof.
  intros Hn Ho Hi v. destruct p as [x y z]. cbn [vx vy]. unfold v. rewrite star_S0.
  assert (Z : forall x y, star_local Ratan2 (S0 n ro ri) (V3 x y z) = 0 <-> outline n ro ri x y)
    by (intros; apply star_zero; assumption).
  assert (C : star_local Ratan2 (S0 n ro ri) (V3 0 0 z) < 0).
  { destruct (fold_polar n Hn ro ri 0 0 z) as (j & t & r & al & Ht & Hr & Hal & Px & Py & Wx & Wy).
    assert (r = 0) as ->.
    { destruct (Req_dec r 0) as [E|E]; [exact E|exfalso].
      symmetry in Px, Py. apply Rmult_integral in Px. apply Rmult_integral in Py.
      pose proof (sin2_cos2 (2 * IZR j * (PI / IZR n) + t * al)) as Q. unfold Rsqr in Q.
      destruct Px as [Px|Px]; [lra|]. destruct Py as [Py|Py]; [lra|]. rewrite Px, Py in Q. lra. }
    destruct (edge_facts n Hn ro ri Ho Hi 0 al _ Hr Hal Wx Wy eq_refl) as (_ & _ & N & _).
    unfold star_local. apply N. pose proof (sin_a n Hn) as Sa. assert (0 < ri * sin (PI / IZR n)) by nra. nra. }
  split; [|split; [|split]].
  - split.
    + destruct (star_attained n Hn ro ri Ho Hi x y z) as (qx & qy & Q & D). exists qx, qy. split; [exact Q|exact D].
    + intros qx qy Q. apply (star_lower n Hn ro ri Ho Hi x y z qx qy Q).
  - destruct (star_ray n Hn ro ri Ho Hi x y z) as [[-> ->]|(t0 & Ht0 & F)].
    + split; [intros _; left; split; reflexivity|intros _; exact C].
    + pose proof (F 1 Rlt_0_1) as F1. rewrite !Rmult_1_l in F1. rewrite (proj1 F1). split.
      * intro L. right. exists t0. split; [exact L|]. apply Z. apply (F t0 Ht0). reflexivity.
      * intros [[-> ->]|(t & Ht & Q)].
        -- exfalso. assert (E : t0 = t0) by reflexivity. apply (F t0 Ht0) in E. rewrite Rmult_0_r in E. lra.
        -- apply Z in Q. apply (F t ltac:(lra)) in Q. lra.
  - apply Z.
  - destruct (star_ray n Hn ro ri Ho Hi x y z) as [[-> ->]|(t0 & Ht0 & F)].
    + split; [lra|]. intros (t & Ht & Q). apply Z in Q. rewrite Rmult_0_r in Q. lra.
    + pose proof (F 1 Rlt_0_1) as F1. rewrite !Rmult_1_l in F1. destruct F1 as [F1 F2]. split.
      * intro L. assert (t0 < 1).
        { destruct (Rtotal_order 1 t0) as [G|[G|G]]; [apply F1 in G; lra|apply F2 in G; lra|exact G]. }
        exists t0. split; [lra|]. apply Z. apply (F t0 Ht0). reflexivity.
      * intros (t & Ht & Q). apply Z in Q. apply (F t ltac:(lra)) in Q. subst t.
        destruct (Rtotal_order 0 (star_local Ratan2 (S0 n ro ri) (V3 x y z))) as [G|[G|G]]; [exact G| |].
        -- symmetry in G. apply F2 in G. lra.
        -- apply F1 in G. lra.
Qed.

(** C116: placed in the world, the value is the distance to the outline turned by the body's angle about its centre. *)
Theorem C116_placed n ro ri (sd : SDFState R) x : (2 <= n)%Z -> 0 < ro -> 0 < ri -> sd_dim sd = D2 ->
  let v := star_distance Ratan2 (star n ro ri) sd x in
  let at_ (S : R -> R -> Prop) := placed S (sd_theta sd) (vx (sd_com sd)) (vy (sd_com sd)) in
  nearest (at_ (outline n ro ri)) (vx x) (vy x) (Rabs v) /\
  (v < 0 <-> at_ (inside n ro ri) (vx x) (vy x)) /\
  (v = 0 <-> at_ (outline n ro ri) (vx x) (vy x)) /\
  (0 < v <-> at_ (outside n ro ri) (vx x) (vy x)).
Proof.
  intros Hn Ho Hi Hd v at_. set (p := to_local sd x).
  destruct (C116_outline n ro ri p Hn Ho Hi) as ((Q1 & Q2) & I & Z & O).
  change (star_local Ratan2 (star n ro ri) p) with v in *.
  set (th := sd_theta sd) in *. set (cx := vx (sd_com sd)) in *. set (cy := vy (sd_com sd)) in *.
  assert (Px : vx p = cos th * (vx x - cx) + sin th * (vy x - cy) /\ vy p = - sin th * (vx x - cx) + cos th * (vy x - cy)).
  { unfold p, to_local. rewrite Hd. split; reflexivity. }
  destruct Px as [Px Py]. pose proof (sin2_cos2 th) as SC. unfold Rsqr in SC.
  assert (X : vx x = cx + (cos th * vx p - sin th * vy p) /\ vy x = cy + (sin th * vx p + cos th * vy p)).
  { rewrite Px, Py. split.
    - replace (cos th * (cos th * (vx x - cx) + sin th * (vy x - cy)) - sin th * (- sin th * (vx x - cx) + cos th * (vy x - cy)))
        with ((sin th * sin th + cos th * cos th) * (vx x - cx)) by ring. rewrite SC. ring.
    - replace (sin th * (cos th * (vx x - cx) + sin th * (vy x - cy)) + cos th * (- sin th * (vx x - cx) + cos th * (vy x - cy)))
        with ((sin th * sin th + cos th * cos th) * (vy x - cy)) by ring. rewrite SC. ring. }
  assert (G : forall qx qy, gap (vx x) (vy x) (cx + (cos th * qx - sin th * qy)) (cy + (sin th * qx + cos th * qy)) = gap (vx p) (vy p) qx qy).
  { intros. unfold gap. f_equal. destruct X as [-> ->]. unfold Rsqr.
    replace ((vx p - qx) * (vx p - qx) + (vy p - qy) * (vy p - qy))
      with ((sin th * sin th + cos th * cos th) * ((vx p - qx) * (vx p - qx) + (vy p - qy) * (vy p - qy))) by (rewrite SC; ring).
    ring. }
  assert (At : forall S : R -> R -> Prop, at_ S (vx x) (vy x) <-> S (vx p) (vy p)).
  { intro S. split.
    - intros (qx & qy & Hq & E1 & E2).
      assert (qx = vx p) as <-.
      { rewrite Px, E1, E2. transitivity ((sin th * sin th + cos th * cos th) * qx); [rewrite SC|]; ring. }
      assert (qy = vy p) as <-; [|exact Hq].
      rewrite Py, E1, E2. transitivity ((sin th * sin th + cos th * cos th) * qy); [rewrite SC|]; ring.
    - intro Hs. exists (vx p), (vy p). split; [exact Hs|exact X]. }
  rewrite !At. split; [|split; [exact I|split; [exact Z|exact O]]]. split.
  - destruct Q1 as (qx & qy & Q & D). eexists _, _. split; [exists qx, qy; split; [exact Q|split; reflexivity]|].
    rewrite G. exact D.
  - intros ? ? (qx & qy & Q & -> & ->). rewrite G. apply Q2. exact Q.
Qed.

(** C116: the shape repeats after one n-th of a turn and is mirror symmetric. *)
Theorem C116_symmetry n ro ri x y z z' : (2 <= n)%Z -> 0 < ro -> 0 < ri ->
  let f x y := star_local Ratan2 (star n ro ri) (V3 x y z) in
  let b := 2 * PI / IZR n in
  f (x * cos b + y * sin b) (- x * sin b + y * cos b) = f x y /\ f (- x) y = f x y /\
  star_local Ratan2 (star n ro ri) (V3 x y z') = f x y.
Proof.
  intros Hn Ho Hi f b. split; [|split; [|reflexivity]].
  - (* the rotated outline is the outline *)
    assert (SC : sin b * sin b + cos b * cos b = 1) by (pose proof (sin2_cos2 b) as Q; unfold Rsqr in Q; exact Q).
    assert (n_pos : 2 <= IZR n) by (apply (IZR_le 2); exact Hn).
    assert (Cn : forall k, vx (corner n ro ri (k + 2)) = vx (corner n ro ri k) * cos b + vy (corner n ro ri k) * sin b /\
                           vy (corner n ro ri (k + 2)) = - vx (corner n ro ri k) * sin b + vy (corner n ro ri k) * cos b).
    { intro k. unfold corner, corner_radius. rewrite Z.even_add. change (Z.even 2) with true.
      replace (Bool.eqb (Z.even k) true) with (Z.even k) by (destruct (Z.even k); reflexivity). cbn [vx vy].
      replace (IZR (k + 2) * PI / IZR n) with (IZR k * PI / IZR n + b) by (rewrite plus_IZR; unfold b; field; lra).
      rewrite sin_plus, cos_plus. split; ring. }
    assert (Out : forall x y, outline n ro ri (x * cos b + y * sin b) (- x * sin b + y * cos b) <-> outline n ro ri x y).
    { intros u w. split; intros (k & h & Hh & E1 & E2).
      - exists (k - 2)%Z, h. split; [exact Hh|].
        pose proof (Cn (k - 2)%Z) as [A1 A2]. pose proof (Cn (k - 2 + 1)%Z) as [B1 B2].
        replace (k - 2 + 2)%Z with k in A1, A2 by ring. replace (k - 2 + 1 + 2)%Z with (k + 1)%Z in B1, B2 by ring.
        rewrite A1, B1 in E1. rewrite A2, B2 in E2.
        set (c1 := vx (corner n ro ri (k - 2))) in *. set (c2 := vy (corner n ro ri (k - 2))) in *.
        set (d1 := vx (corner n ro ri (k - 2 + 1))) in *. set (d2 := vy (corner n ro ri (k - 2 + 1))) in *.
        assert (U : u = cos b * (u * cos b + w * sin b) - sin b * (- u * sin b + w * cos b))
          by (transitivity ((sin b * sin b + cos b * cos b) * u); [rewrite SC|]; ring).
        assert (W : w = sin b * (u * cos b + w * sin b) + cos b * (- u * sin b + w * cos b))
          by (transitivity ((sin b * sin b + cos b * cos b) * w); [rewrite SC|]; ring).
        split; [rewrite U|rewrite W]; rewrite E1, E2.
        + transitivity ((sin b * sin b + cos b * cos b) * ((1 - h) * c1 + h * d1)); [ring|rewrite SC; ring].
        + transitivity ((sin b * sin b + cos b * cos b) * ((1 - h) * c2 + h * d2)); [ring|rewrite SC; ring].
      - exists (k + 2)%Z, h. split; [exact Hh|].
        pose proof (Cn k) as [A1 A2]. pose proof (Cn (k + 1)%Z) as [B1 B2].
        replace (k + 1 + 2)%Z with (k + 2 + 1)%Z in B1, B2 by ring.
        rewrite A1, A2, B1, B2, E1, E2. split; ring. }
    assert (G : forall u w u' w', gap (u * cos b + w * sin b) (- u * sin b + w * cos b) (u' * cos b + w' * sin b) (- u' * sin b + w' * cos b) = gap u w u' w').
    { intros. unfold gap. f_equal. unfold Rsqr.
      transitivity ((sin b * sin b + cos b * cos b) * ((u - u') * (u - u') + (w - w') * (w - w'))); [ring|rewrite SC; ring]. }
    destruct (C116_outline n ro ri (V3 (x * cos b + y * sin b) (- x * sin b + y * cos b) z) Hn Ho Hi) as ((Q1 & Q2) & I & Z & O).
    destruct (C116_outline n ro ri (V3 x y z) Hn Ho Hi) as ((Q1' & Q2') & I' & Z' & O'). cbn [vx vy] in *.
    change (star_local Ratan2 (star n ro ri) (V3 x y z)) with (f x y) in *.
    change (star_local Ratan2 (star n ro ri) (V3 (x * cos b + y * sin b) (- x * sin b + y * cos b) z)) with (f (x * cos b + y * sin b) (- x * sin b + y * cos b)) in *.
    set (v := f x y) in *. set (v' := f (x * cos b + y * sin b) _) in *.
    assert (Sc : forall t, t * (x * cos b + y * sin b) = (t * x) * cos b + (t * y) * sin b /\
                           t * (- x * sin b + y * cos b) = - (t * x) * sin b + (t * y) * cos b) by (intro; split; ring).
    assert (E : Rabs v' = Rabs v).
    { apply Rle_antisym.
      - destruct Q1' as (qx & qy & Q & ->). rewrite <- G. apply Q2. apply Out. exact Q.
      - destruct Q1 as (qx & qy & Q & ->).
        assert (P : qx = (qx * cos b - qy * sin b) * cos b + (qx * sin b + qy * cos b) * sin b /\
                    qy = - (qx * cos b - qy * sin b) * sin b + (qx * sin b + qy * cos b) * cos b).
        { split; [transitivity ((sin b * sin b + cos b * cos b) * qx)|transitivity ((sin b * sin b + cos b * cos b) * qy)]; try ring; rewrite SC; ring. }
        destruct P as [P1 P2]. set (u := qx * cos b - qy * sin b) in *. set (w := qx * sin b + qy * cos b) in *.
        clearbody u w. subst qx qy. rewrite G. apply Q2'. apply Out. exact Q. }
    assert (Ng : v' < 0 <-> v < 0).
    { rewrite I, I'. split; intros [[E1 E2]|(t & Ht & Q)].
      - left. split; [transitivity ((sin b * sin b + cos b * cos b) * x)|transitivity ((sin b * sin b + cos b * cos b) * y)]; try (rewrite SC; ring).
        + transitivity (cos b * (x * cos b + y * sin b) - sin b * (- x * sin b + y * cos b)); [ring|rewrite E1, E2; ring].
        + transitivity (sin b * (x * cos b + y * sin b) + cos b * (- x * sin b + y * cos b)); [ring|rewrite E1, E2; ring].
      - right. exists t. split; [exact Ht|]. destruct (Sc t) as [S1 S2]. rewrite S1, S2 in Q. apply (proj1 (Out _ _)) in Q. exact Q.
      - left. rewrite E1, E2. split; ring.
      - right. exists t. split; [exact Ht|]. destruct (Sc t) as [S1 S2]. rewrite S1, S2. apply Out. exact Q. }
    unfold Rabs in E. destruct (Rcase_abs v') as [A|A], (Rcase_abs v) as [B|B]; try lra; tauto.
  - (* mirror image *)
    assert (n_pos : 2 <= IZR n) by (apply (IZR_le 2); exact Hn).
    assert (Cn : forall k, vx (corner n ro ri (- k)) = - vx (corner n ro ri k) /\ vy (corner n ro ri (- k)) = vy (corner n ro ri k)).
    { intro k. unfold corner, corner_radius. rewrite Z.even_opp. cbn [vx vy].
      replace (IZR (- k) * PI / IZR n) with (- (IZR k * PI / IZR n)) by (rewrite opp_IZR; field; lra).
      rewrite sin_neg, cos_neg. split; ring. }
    assert (Out1 : forall x y, outline n ro ri x y -> outline n ro ri (- x) y).
    { intros u w (k & h & Hh & E1 & E2). exists (- (k + 1))%Z, (1 - h). split; [lra|].
      destruct (Cn (k + 1)%Z) as [A1 A2]. destruct (Cn k) as [B1 B2].
      replace (- (k + 1) + 1)%Z with (- k)%Z by ring. rewrite A1, A2, B1, B2, E1, E2. split; ring. }
    assert (Out : forall x y, outline n ro ri (- x) y <-> outline n ro ri x y).
    { intros u w. split; intro Q; [rewrite <- (Ropp_involutive u)|]; apply Out1; exact Q. }
    assert (G : forall u w u' w', gap (- u) w (- u') w' = gap u w u' w').
    { intros. unfold gap. f_equal. unfold Rsqr. ring. }
    destruct (C116_outline n ro ri (V3 (- x) y z) Hn Ho Hi) as ((Q1 & Q2) & I & Z & O).
    destruct (C116_outline n ro ri (V3 x y z) Hn Ho Hi) as ((Q1' & Q2') & I' & Z' & O'). cbn [vx vy] in *.
    change (star_local Ratan2 (star n ro ri) (V3 x y z)) with (f x y) in *.
    change (star_local Ratan2 (star n ro ri) (V3 (- x) y z)) with (f (- x) y) in *.
    set (v := f x y) in *. set (v' := f (- x) y) in *.
    assert (E : Rabs v' = Rabs v).
    { apply Rle_antisym.
      - destruct Q1' as (qx & qy & Q & ->). rewrite <- G. apply Q2. apply Out. exact Q.
      - destruct Q1 as (qx & qy & Q & ->). rewrite <- (Ropp_involutive qx), G. apply Q2'. apply Out1. exact Q. }
    assert (Ng : v' < 0 <-> v < 0).
    { rewrite I, I'. split; intros [[E1 E2]|(t & Ht & Q)].
      - left. lra.
      - right. exists t. split; [exact Ht|]. replace (t * - x) with (- (t * x)) in Q by ring. apply (proj1 (Out _ _)) in Q. exact Q.
      - left. lra.
      - right. exists t. split; [exact Ht|]. replace (t * - x) with (- (t * x)) by ring. apply Out. exact Q. }
    unfold Rabs in E. destruct (Rcase_abs v') as [A|A], (Rcase_abs v) as [B|B]; try lra; tauto.
Qed.

(** a five-pointed star: its centre is inside, its first tip on the outline, a point beyond the tip outside at distance 1 *)
Example C116_case : inside 5 1 (1/2) 0 0 /\ outline 5 1 (1/2) 0 1 /\ outside 5 1 (1/2) 0 2 /\
  star_local Ratan2 (star 5 1 (1/2)) (V3 0 2 0) = 1.
Proof.
  assert (T : outline 5 1 (1/2) 0 1).
  { exists 0%Z, 0. unfold corner, corner_radius. cbn [Z.even vx vy]. replace (0 * PI / 5) with 0 by (field; lra).
    rewrite sin_0, cos_0. lra. }
  split; [left; split; reflexivity|]. split; [exact T|].
  assert (O : outside 5 1 (1/2) 0 2).
  { exists (1/2). split; [lra|]. replace (1/2 * 0) with 0 by ring. replace (1/2 * 2) with 1 by field. exact T. }
  split; [exact O|].
  destruct (C116_outline 5 1 (1/2) (V3 0 2 0) ltac:(lia) ltac:(lra) ltac:(lra)) as ((Q1 & Q2) & _ & _ & P). cbn [vx vy] in *.
  apply P in O. rewrite Rabs_pos_eq in Q1, Q2 by lra.
  apply Rle_antisym.
  - specialize (Q2 0 1 T). unfold gap in Q2.
    replace (Rsqr (0 - 0) + Rsqr (2 - 1)) with 1 in Q2 by (unfold Rsqr; ring). rewrite sqrt_1 in Q2. exact Q2.
  - (* every point of the outline has second coordinate at most 1 *)
    destruct Q1 as (qx & qy & (k & h & Hh & E1 & E2) & ->).
    assert (B : forall k, vy (corner 5 1 (1/2) k) <= 1).
    { intro i. unfold corner, corner_radius. cbn [vy]. pose proof (COS_bound (IZR i * PI / 5)). destruct (Z.even i); lra. }
    pose proof (B k) as B1. pose proof (B (k + 1)%Z) as B2.
    assert (qy <= 1) by (rewrite E2; nra).
    unfold gap. rewrite <- (sqrt_Rsqr 1) at 1 by lra. apply sqrt_le_1_alt. pose proof (Rle_0_sqr (0 - qx)).
    assert (Rsqr 1 <= Rsqr (2 - qy)) by (unfold Rsqr; nra). lra.
Qed.

Print Assumptions C116_outline.
Print Assumptions C116_placed.
Print Assumptions C116_symmetry.
