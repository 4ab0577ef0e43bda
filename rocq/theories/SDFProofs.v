(** Lemmas about signed distances. *)
From Coq Require Import Reals List ZArith Lra Lia Bool.
From Verif Require Import Num NumR Linalg Arrays ModelGrid ModelShape ModelMath ModelState ModelLaws ModelSDF Sums MathProofs SpecSDF.
Import ListNotations.
Local Open Scope R_scope.

Lemma edist_vnorm : forall a b : vec3 R, vnorm (vsub a b) = edist a b.
Proof. intros [a b c] [e f g]. reflexivity. Qed.
Lemma edist_sym : forall a b, edist a b = edist b a.
Proof. intros. unfold edist. f_equal. unfold Rsqr. ring. Qed.
Lemma edist_pos : forall a b, 0 <= edist a b.
Proof. intros. apply sqrt_pos. Qed.

Lemma edist_sq : forall a b, (edist a b)² = (vx a - vx b)² + (vy a - vy b)² + (vz a - vz b)².
Proof.
  intros. unfold edist. apply Rsqr_sqrt.
  pose proof (Rle_0_sqr (vx a - vx b)); pose proof (Rle_0_sqr (vy a - vy b)); pose proof (Rle_0_sqr (vz a - vz b)); lra.
Qed.
(** Cauchy-Schwarz in three coordinates *)
Lemma cauchy3 : forall a b c e f g : R,
  a * e + b * f + c * g <= sqrt (a² + b² + c²) * sqrt (e² + f² + g²).
Proof.
  intros. rewrite <- sqrt_mult_alt by (pose proof (Rle_0_sqr a); pose proof (Rle_0_sqr b); pose proof (Rle_0_sqr c); lra).
  destruct (Rle_dec 0 (a * e + b * f + c * g)) as [Hp | Hp].
  - rewrite <- (sqrt_Rsqr _ Hp). apply sqrt_le_1_alt. unfold Rsqr.
    assert (H : 0 <= (a * f - b * e)² + (a * g - c * e)² + (b * g - c * f)²)
      by (pose proof (Rle_0_sqr (a * f - b * e)); pose proof (Rle_0_sqr (a * g - c * e)); pose proof (Rle_0_sqr (b * g - c * f)); lra).
    unfold Rsqr in H. nra.
  - apply Rle_trans with 0; [lra | apply sqrt_pos].
Qed.
Lemma edist_triangle : forall a b c, edist a c <= edist a b + edist b c.
Proof.
  intros a b c. apply Rsqr_incr_0_var; [| pose proof (edist_pos a b); pose proof (edist_pos b c); lra].
  rewrite Rsqr_plus, !edist_sq.
  pose proof (cauchy3 (vx a - vx b) (vy a - vy b) (vz a - vz b) (vx b - vx c) (vy b - vy c) (vz b - vz c)) as H.
  change (sqrt ((vx a - vx b)² + (vy a - vy b)² + (vz a - vz b)²)) with (edist a b) in H.
  change (sqrt ((vx b - vx c)² + (vy b - vy c)² + (vz b - vz c)²)) with (edist b c) in H.
  unfold Rsqr in *. nra.
Qed.

Lemma sq3_zero : forall a b c : R, a² + b² + c² = 0 -> a = 0 /\ b = 0 /\ c = 0.
Proof.
  intros a b c H. pose proof (Rle_0_sqr a); pose proof (Rle_0_sqr b); pose proof (Rle_0_sqr c).
  repeat split; apply Rsqr_0_uniq; lra.
Qed.
(** ** rotations *)
Lemma rotation_2d_eq : forall a (v : vec3 R), rotation_2d a v = rot2 a v.
Proof. reflexivity. Qed.
Lemma rot2_inv_add : forall a f (v : vec3 R), rotation_2d_inv (a + f) (rot2 f v) = rotation_2d_inv a v.
Proof.
  intros a f [x y z]. unfold rotation_2d_inv, rot2. cbn. f_equal.
  - rewrite cos_plus, sin_plus. pose proof (sin2_cos2 f) as E. unfold Rsqr in E.
    replace (cos a * x + sin a * y) with ((cos a * x + sin a * y) * (sin f * sin f + cos f * cos f)) by (rewrite E; ring). ring.
  - rewrite cos_plus, sin_plus. pose proof (sin2_cos2 f) as E. unfold Rsqr in E.
    replace (- sin a * x + cos a * y) with ((- sin a * x + cos a * y) * (sin f * sin f + cos f * cos f)) by (rewrite E; ring). ring.
Qed.
Lemma rot2_sub : forall a (u v : vec3 R), vsub (rot2 a u) (rot2 a v) = rot2 a (vsub u v).
Proof. intros a [x y z] [x' y' z']. unfold rot2, vsub. cbn. f_equal; ring. Qed.
Lemma rot3_sub : forall q (u v : vec3 R), vsub (rot3 q u) (rot3 q v) = rot3 q (vsub u v).
Proof. intros [w [a b c]] [x y z] [x' y' z']. unfold rot3, qmul, vsub. cbn. f_equal; ring. Qed.
(** the code's rotation formula is conjugation for unit quaternions *)
Lemma quaternion_rotate_eq : forall q (v : vec3 R), qunit q -> quaternion_rotate q v = rot3 q v.
Proof.
  intros [w [a b c]] [x y z] Hu. unfold qunit in Hu. cbn in Hu. unfold Rsqr in Hu.
  unfold quaternion_rotate, rot3, qmul, vcross, vadd, vscale. cbn. unfold n2. cbn.
  f_equal.
  - replace (x + 2 * (w * (b * z - c * y) + (b * (a * y - b * x) - c * (c * x - a * z))))
      with (x * (w * w + a * a + b * b + c * c) + 2 * (w * (b * z - c * y) + (b * (a * y - b * x) - c * (c * x - a * z))))
      by (rewrite Hu; ring). ring.
  - replace (y + 2 * (w * (c * x - a * z) + (c * (b * z - c * y) - a * (a * y - b * x))))
      with (y * (w * w + a * a + b * b + c * c) + 2 * (w * (c * x - a * z) + (c * (b * z - c * y) - a * (a * y - b * x))))
      by (rewrite Hu; ring). ring.
  - replace (z + 2 * (w * (a * y - b * x) + (a * (c * x - a * z) - b * (b * z - c * y))))
      with (z * (w * w + a * a + b * b + c * c) + 2 * (w * (a * y - b * x) + (a * (c * x - a * z) - b * (b * z - c * y))))
      by (rewrite Hu; ring). ring.
Qed.
Definition qconj (q : quat R) : quat R := Quat (qw q) (V3 (- vx (qv q)) (- vy (qv q)) (- vz (qv q))).
Lemma quaternion_inv_eq : forall q : quat R, quaternion_inv q = qconj q.
Proof. intros [w [a b c]]. reflexivity. Qed.
Lemma qunit_conj : forall q, qunit q -> qunit (qconj q).
Proof. intros [w [a b c]] H. unfold qunit, qconj, Rsqr in *. cbn in *. lra. Qed.
Lemma qunit_mul : forall p q, qunit p -> qunit q -> qunit (qmul p q).
Proof.
  intros [w [a b c]] [w' [a' b' c']] Hp Hq. unfold qunit, qmul, Rsqr in *. cbn in *.
  transitivity ((w * w + a * a + b * b + c * c) * (w' * w' + a' * a' + b' * b' + c' * c')); [ring | rewrite Hp, Hq; ring].
Qed.
Lemma rot3_mul : forall p q v, rot3 (qmul p q) v = rot3 p (rot3 q v).
Proof. intros [w [a b c]] [w' [a' b' c']] [x y z]. unfold rot3, qmul. cbn. f_equal; ring. Qed.
Lemma qconj_mul : forall p q, qconj (qmul p q) = qmul (qconj q) (qconj p).
Proof. intros [w [a b c]] [w' [a' b' c']]. unfold qconj, qmul. cbn. f_equal; [ring | f_equal; ring]. Qed.
Lemma rot3_conj : forall q v, qunit q -> rot3 (qconj q) (rot3 q v) = v.
Proof.
  intros q v H. rewrite <- rot3_mul.
  assert (E : qmul (qconj q) q = Quat 1 (V3 0 0 0)).
  { destruct q as [w [a b c]]. unfold qunit, Rsqr in H. cbn in H. unfold qmul, qconj. cbn.
    f_equal; [| f_equal; ring]. rewrite <- H. ring. }
  rewrite E. destruct v as [x y z]. unfold rot3, qmul. cbn. f_equal; ring.
Qed.
Lemma rot3_conj' : forall q v, qunit q -> rot3 q (rot3 (qconj q) v) = v.
Proof.
  intros q v H. rewrite <- (rot3_conj (qconj q) v (qunit_conj q H)) at 2. f_equal.
  destruct q as [w [a b c]]. unfold qconj. cbn. now rewrite !Ropp_involutive.
Qed.

Lemma sub_add : forall (a b t : vec3 R), vsub (vadd a t) (vadd b t) = vsub a b.
Proof. intros [x y z] [x' y' z'] [u v w]. unfold vsub, vadd. cbn. f_equal; ring. Qed.

(** moving the object and the point together does not change the local coordinates *)
Lemma to_local_moved : forall m st x, motion_of m st -> to_local (carried m st) (moved m x) = to_local st x.
Proof.
  intros [a t | q t] st x H; unfold to_local; cbn [carried moved motion_of sd_dim sd_com sd_theta sd_quat] in *.
  - rewrite H.
    rewrite sub_add, rot2_sub. apply rot2_inv_add.
  - destruct H as [Hd [Hq Hs]]. rewrite Hd. change (@numt_num R NumT_R) with Num_R. rewrite sub_add, rot3_sub.
    rewrite !quaternion_inv_eq. rewrite (quaternion_rotate_eq (qconj (qmul q (sd_quat st)))) by (apply qunit_conj, qunit_mul; auto).
    rewrite (quaternion_rotate_eq (qconj (sd_quat st))) by (apply qunit_conj; auto).
    rewrite qconj_mul, rot3_mul, rot3_conj by auto. reflexivity.
Qed.
Lemma vnorm_rot2 : forall a v, vnorm (rot2 a v) = vnorm v.
Proof.
  intros a [x y z]. unfold vnorm, vnorm2, vdot, rot2. cbn. f_equal.
  pose proof (sin2_cos2 a) as E. unfold Rsqr in E.
  transitivity ((sin a * sin a + cos a * cos a) * (x * x + y * y) + z * z); [ring | rewrite E; ring].
Qed.
Lemma vnorm_rot3 : forall q v, qunit q -> vnorm (rot3 q v) = vnorm v.
Proof.
  intros [w [a b c]] [x y z] H. unfold qunit, Rsqr in H. cbn in H. unfold vnorm, vnorm2, vdot, rot3, qmul. cbn. f_equal.
  transitivity ((w * w + a * a + b * b + c * c) * (w * w + a * a + b * b + c * c) * (x * x + y * y + z * z)); [ring | rewrite H; ring].
Qed.
Lemma dot_rot2 : forall a u v, vdot (rotation_2d_inv a u) v = dot u (rot2 a v).
Proof. intros a [x y z] [x' y' z']. unfold vdot, dot, rotation_2d_inv, rot2. cbn. ring. Qed.
Lemma dot_rot3 : forall q u v, qunit q -> vdot (quaternion_rotate (quaternion_inv q) u) v = dot u (rot3 q v).
Proof.
  intros q u v H. rewrite quaternion_inv_eq, quaternion_rotate_eq by (apply qunit_conj; auto).
  destruct q as [w [a b c]], u as [x y z], v as [x' y' z']. unfold vdot, dot, rot3, qconj, qmul. cbn. ring.
Qed.
Lemma to_local_dot : forall st x v, oriented st -> vdot (to_local st x) v = dot (vsub x (sd_com st)) (turned st v).
Proof.
  intros st x v H. unfold to_local, turned, oriented in *. destruct (sd_dim st); [apply dot_rot2 | apply dot_rot3; auto].
Qed.
Lemma turned_norm : forall st v, oriented st -> vnorm (turned st v) = vnorm v.
Proof. intros st v H. unfold turned, oriented in *. destruct (sd_dim st); [apply vnorm_rot2 | apply vnorm_rot3; auto]. Qed.

(** ** minima *)
Lemma nmin_Rmin : forall a b : R, nmin a b = Rmin a b.
Proof. exact nmin_R. Qed.
Lemma fold_min_le : forall (l : list R) a, fold_left nmin l a <= a /\ (forall x, In x l -> fold_left nmin l a <= x).
Proof.
  induction l as [| y l IH]; intros a; cbn.
  - split; [lra | intros x []].
  - rewrite nmin_Rmin. destruct (IH (Rmin a y)) as [H1 H2]. split.
    + eapply Rle_trans; [exact H1 | apply Rmin_l].
    + intros x [<- | Hx]; [eapply Rle_trans; [exact H1 | apply Rmin_r] | now apply H2].
Qed.
Lemma fold_min_in : forall (l : list R) a, fold_left nmin l a = a \/ In (fold_left nmin l a) l.
Proof.
  induction l as [| y l IH]; intros a; cbn; [now left |].
  rewrite nmin_Rmin. destruct (IH (Rmin a y)) as [E | E]; [| now right; right].
  rewrite E. unfold Rmin. destruct (Rle_dec a y); [now left | right; now left].
Qed.
Lemma lmin_le : forall (l : list R) x, In x l -> lmin l <= x.
Proof. intros [| a l] x H; [destruct H |]. destruct H as [<- | H]; cbn; [exact (proj1 (fold_min_le l a)) | exact (proj2 (fold_min_le l a) x H)]. Qed.
Lemma lmin_in : forall l : list R, l <> [] -> In (lmin l) l.
Proof. intros [| a l] H; [congruence |]. cbn. destruct (fold_min_in l a) as [E | E]; [left; congruence | now right]. Qed.
Lemma argmin_from_spec : forall (l : list R) pre i best m,
  i = length pre -> (best < i)%nat -> nth_error (pre ++ l) best = Some m -> (forall x, In x pre -> m <= x) ->
  exists v, nth_error (pre ++ l) (argmin_from i best m l) = Some v /\ (forall x, In x (pre ++ l) -> v <= x).
Proof.
  induction l as [| y l IH]; intros pre i best m Hi Hb Hn Hm; cbn.
  - exists m. rewrite app_nil_r in *. auto.
  - assert (Ea : pre ++ y :: l = (pre ++ [y]) ++ l) by (now rewrite <- app_assoc).
    change (nltb y m) with (Rltb y m). unfold Rltb. destruct (Rlt_dec y m) as [Hlt | Hge].
    + rewrite Ea. apply IH.
      * rewrite app_length. cbn. lia.
      * lia.
      * rewrite <- Ea, Hi, nth_error_app2, Nat.sub_diag by lia. reflexivity.
      * intros x Hx. apply in_app_or in Hx as [Hx | [<- | []]]; [specialize (Hm x Hx); lra | lra].
    + rewrite Ea. apply IH.
      * rewrite app_length. cbn. lia.
      * lia.
      * now rewrite <- Ea.
      * intros x Hx. apply in_app_or in Hx as [Hx | [<- | []]]; [auto | lra].
Qed.
Lemma argmin_spec : forall l : list R, l <> [] -> nth_error l (argmin l) = Some (lmin l) /\ (argmin l < length l)%nat.
Proof.
  intros [| a l] H; [congruence |]. cbn [argmin].
  destruct (argmin_from_spec l [a] 1 0 a eq_refl) as [v [H1 H2]]; try (cbn; lia || reflexivity).
  { intros x [<- | []]; lra. }
  cbn [app] in *. assert (E : v = lmin (a :: l)).
  { apply Rle_antisym.
    - apply H2. apply lmin_in. discriminate.
    - apply lmin_le. eapply nth_error_In; eauto. }
  subst v. split; [exact H1 | apply nth_error_Some; congruence].
Qed.
(** ** faces *)
Lemma safe_norm_lower : forall v : vec3 R, 1 / IZR (10 ^ 6) <= safe_norm v.
Proof.
  intros [x y z]. unfold safe_norm, vnorm2, vdot. cbn [vx vy vz].
  change (1 / IZR (10 ^ 6) <= sqrt (x * x + y * y + z * z + 1 / IZR (10 ^ 12))).
  replace (1 / IZR (10 ^ 6)) with (sqrt (1 / IZR (10 ^ 12))).
  - apply sqrt_le_1_alt. nra.
  - rewrite <- (sqrt_square (1 / IZR (10 ^ 6))). { f_equal. cbn. lra. } { cbn. lra. }
Qed.
Lemma safe_norm_zero : safe_norm (V3 0 0 0 : vec3 R) = 1 / IZR (10 ^ 6).
Proof.
  unfold safe_norm, vnorm2, vdot. cbn [vx vy vz].
  change (sqrt (0 * 0 + 0 * 0 + 0 * 0 + 1 / IZR (10 ^ 12)) = 1 / IZR (10 ^ 6)).
  rewrite <- (sqrt_square (1 / IZR (10 ^ 6))). { f_equal. cbn. lra. } { cbn. lra. }
Qed.
Lemma nmax_Rmax : forall a b : R, nmax a b = Rmax a b.
Proof. exact nmax_R. Qed.
(** outside part plus inside part is negative exactly when every face distance is below -1e-6 *)
Lemma faces3 : forall a b c : R, faces [a; b; c] (V3 a b c) < 0 <->
  a < - (1 / IZR (10 ^ 6)) /\ b < - (1 / IZR (10 ^ 6)) /\ c < - (1 / IZR (10 ^ 6)).
Proof.
  intros a b c. unfold faces, vmap. cbn [vx vy vz lmax fold_left].
  change (@n0 R (@numt_num R NumT_R)) with 0. rewrite !nmax_Rmax, nmin_Rmin.
  change (@nadd R (@numt_num R NumT_R)) with Rplus.
  split.
  - intros H. pose proof (safe_norm_lower (V3 (Rmax a 0) (Rmax b 0) (Rmax c 0))) as Hs.
    assert (Hm : Rmin (Rmax (Rmax a b) c) 0 < - (1 / IZR (10 ^ 6))) by lra.
    revert Hm. unfold Rmin, Rmax. cbn [IZR]. destruct (Rle_dec a b); destruct (Rle_dec _ c); destruct (Rle_dec _ 0); lra.
  - intros [Ha [Hb Hc]]. cbn in Ha, Hb, Hc.
    rewrite !Rmax_right by lra. rewrite safe_norm_zero.
    assert (Hm : Rmin (Rmax (Rmax a b) c) 0 < - (1 / IZR (10 ^ 6))).
    { unfold Rmin, Rmax. cbn. destruct (Rle_dec a b); destruct (Rle_dec _ c); destruct (Rle_dec _ 0); lra. }
    lra.
Qed.
Lemma faces2 : forall a b : R, faces [a; b] (V3 a b 0) < 0 <-> a < - (1 / IZR (10 ^ 6)) /\ b < - (1 / IZR (10 ^ 6)).
Proof.
  intros a b. unfold faces, vmap. cbn [vx vy vz lmax fold_left].
  change (@n0 R (@numt_num R NumT_R)) with 0. rewrite !nmax_Rmax, nmin_Rmin.
  change (@nadd R (@numt_num R NumT_R)) with Rplus.
  split.
  - intros H. pose proof (safe_norm_lower (V3 (Rmax a 0) (Rmax b 0) (Rmax 0 0))) as Hs.
    assert (Hm : Rmin (Rmax a b) 0 < - (1 / IZR (10 ^ 6))) by lra.
    revert Hm. unfold Rmin, Rmax. cbn [IZR]. destruct (Rle_dec a b); destruct (Rle_dec _ 0); lra.
  - intros [Ha Hb]. cbn in Ha, Hb.
    rewrite !Rmax_right by lra. rewrite safe_norm_zero.
    assert (Hm : Rmin (Rmax a b) 0 < - (1 / IZR (10 ^ 6))).
    { unfold Rmin, Rmax. cbn. destruct (Rle_dec a b); destruct (Rle_dec _ 0); lra. }
    lra.
Qed.
Lemma sqrt_lt_iff : forall a r : R, 0 <= a -> (sqrt a < r <-> 0 < r /\ a < r²).
Proof.
  intros a r Ha. pose proof (sqrt_pos a). pose proof (sqrt_sqrt a Ha). unfold Rsqr. split.
  - intros Hr. split; [lra | nra].
  - intros [Hr Hl]. destruct (Rlt_dec (sqrt a) r); [auto | nra].
Qed.
