(** Property theorems C64-C70: signed distance objects. *)
From Coq Require Import Reals List ZArith Lra Lia Bool.
From Verif Require Import Num NumR Linalg Arrays ModelGrid ModelShape ModelMath ModelState ModelLaws ModelSDF Sums MathProofs SpecSDF SDFProofs.
Import ListNotations.
Local Open Scope R_scope.

(** ** C64 *)
Definition at_rest (d : Dim) (c : vec3 R) (a : R) (q : quat R) : SDFState R :=
  {| sd_dim := d; sd_com := c; sd_vel := V3 0 0 0; sd_theta := a; sd_omega := 0; sd_quat := q; sd_w := V3 0 0 0 |}.

Lemma sphere_eq : forall r st x, signed_distance (sphere r) st x = edist x (sd_com st) - r.
Proof. intros. unfold signed_distance, sphere. cbn [dist_local]. now rewrite <- edist_vnorm. Qed.

Theorem C64_sphere : forall r st x, 0 <= r -> on (sd_dim st) (sd_com st) -> on (sd_dim st) x ->
  signed_distance_to (fun y => edist y (sd_com st) < r)
                     (fun s => on (sd_dim st) s /\ edist s (sd_com st) = r) x
                     (signed_distance (sphere r) st x).
Proof.
  intros r st x Hr Hc Hx. rewrite sphere_eq. set (c := sd_com st) in *. set (l := edist x c). split; [| split].
  - intros s [_ Hs]. pose proof (edist_triangle x s c) as H1. pose proof (edist_triangle s x c) as H2.
    rewrite (edist_sym s x) in H2. fold l in H1, H2. rewrite Hs in H1, H2. apply Rabs_le. lra.
  - destruct (Req_dec l 0) as [E | E].
    + exists (V3 (vx c + r) (vy c) (vz c)). split; [split |].
      * unfold on in *. destruct (sd_dim st); auto.
      * unfold edist. cbn [vx vy vz]. replace ((vx c + r - vx c)² + (vy c - vy c)² + (vz c - vz c)²) with (r²) by (unfold Rsqr; ring).
        now apply sqrt_Rsqr.
      * rewrite E. replace (0 - r) with (- r) by ring. rewrite Rabs_Ropp, Rabs_pos_eq by auto.
        pose proof (edist_sq x c) as Hs. fold l in Hs. rewrite E in Hs.
        assert (Hz : vx x = vx c /\ vy x = vy c /\ vz x = vz c).
        { rewrite Rsqr_0 in Hs. symmetry in Hs. apply sq3_zero in Hs. lra. }
        unfold edist. cbn [vx vy vz]. destruct Hz as [-> [-> ->]].
        replace ((vx c - (vx c + r))² + (vy c - vy c)² + (vz c - vz c)²) with (r²) by (unfold Rsqr; ring). now apply sqrt_Rsqr.
    + pose proof (edist_pos x c) as Hl. fold l in Hl. assert (Hl0 : 0 < l) by lra.
      set (k := r / l).
      exists (V3 (vx c + k * (vx x - vx c)) (vy c + k * (vy x - vy c)) (vz c + k * (vz x - vz c))).
      pose proof (edist_sq x c) as Hs. fold l in Hs. assert (Hk : 0 <= k) by (apply Rle_mult_inv_pos; auto).
      split; [split |].
      * unfold on in *. cbn. destruct (sd_dim st); auto. rewrite Hc, Hx. ring.
      * unfold edist. cbn [vx vy vz].
        replace ((vx c + k * (vx x - vx c) - vx c)² + (vy c + k * (vy x - vy c) - vy c)² + (vz c + k * (vz x - vz c) - vz c)²)
          with ((k * l)²) by (rewrite Rsqr_mult, Hs; unfold Rsqr; ring).
        rewrite sqrt_Rsqr by nra. unfold k. field. auto.
      * unfold edist. cbn [vx vy vz].
        replace ((vx x - (vx c + k * (vx x - vx c)))² + (vy x - (vy c + k * (vy x - vy c)))² + (vz x - (vz c + k * (vz x - vz c)))²)
          with (((1 - k) * l)²) by (rewrite Rsqr_mult, Hs; unfold Rsqr; ring).
        rewrite sqrt_Rsqr_abs. f_equal. unfold k. field. auto.
  - fold l. split; lra.
Qed.
Print Assumptions C64_sphere.
Theorem C64_sphere_lipschitz : forall r st x y,
  Rabs (signed_distance (sphere r) st x - signed_distance (sphere r) st y) <= edist x y.
Proof.
  intros r st x y. rewrite !sphere_eq. set (c := sd_com st).
  pose proof (edist_triangle x y c). pose proof (edist_triangle y x c) as H1. rewrite (edist_sym y x) in H1. apply Rabs_le. lra.
Qed.
Print Assumptions C64_sphere_lipschitz.

Lemma plane_eq : forall n st x, oriented st ->
  signed_distance (plane n) st x = dot (vsub x (sd_com st)) (turned st n) / (vnorm n + 1 / IZR (10 ^ 12)).
Proof.
  intros n st x H. unfold signed_distance, plane. cbn [dist_local local_of].
  rewrite to_local_dot by auto.
  change (lit 1 (10 ^ 12) : R) with (1 / IZR (10 ^ 12)).
  change (nadd (vnorm n) (1 / IZR (10 ^ 12))) with (vnorm n + 1 / IZR (10 ^ 12)). generalize (vnorm n + 1 / IZR (10 ^ 12)). intros k.
  change (@numt_num R NumT_R) with Num_R.
  unfold turned. destruct (sd_dim st).
  - destruct n as [a b c]. unfold dot, rot2, vdivs. cbn [vx vy vz]. change (@ndiv R Num_R) with Rdiv. unfold Rdiv. ring.
  - destruct n as [a b c]. unfold dot, rot3, qmul, vdivs. cbn [vx vy vz qw qv]. change (@ndiv R Num_R) with Rdiv. unfold Rdiv. ring.
Qed.
Lemma vnorm_sqr : forall v : vec3 R, vnorm v * vnorm v = dot v v.
Proof.
  intros v. unfold vnorm. change (nsqrt (vnorm2 v) : R) with (sqrt (dot v v)). apply sqrt_sqrt. unfold dot.
  pose proof (Rle_0_sqr (vx v)); pose proof (Rle_0_sqr (vy v)); pose proof (Rle_0_sqr (vz v)). unfold Rsqr in *. lra.
Qed.
Lemma vnorm_pos : forall v : vec3 R, 0 <= vnorm v.
Proof. intros. apply sqrt_pos. Qed.
Lemma dot_le : forall u v : vec3 R, Rabs (dot u v) <= vnorm u * vnorm v.
Proof.
  intros u v. apply Rabs_le. unfold dot. split.
  - pose proof (cauchy3 (- vx u) (- vy u) (- vz u) (vx v) (vy v) (vz v)) as H.
    assert (E : sqrt ((- vx u)² + (- vy u)² + (- vz u)²) = vnorm u).
    { unfold vnorm. change (nsqrt (vnorm2 u) : R) with (sqrt (vx u * vx u + vy u * vy u + vz u * vz u)). f_equal. unfold Rsqr. ring. }
    rewrite E in H. change (sqrt ((vx v)² + (vy v)² + (vz v)²)) with (vnorm v) in H. lra.
  - apply cauchy3.
Qed.

(** with the stored normal n / (|n| + 1e-12) the exact distance is the returned value times (1 + 1e-12/|n|) *)
Theorem C64_plane : forall n st x, oriented st -> vnorm n <> 0 -> on (sd_dim st) n -> on (sd_dim st) (sd_com st) -> on (sd_dim st) x ->
  signed_distance_to (fun y => dot (vsub y (sd_com st)) (turned st n) < 0)
                     (fun s => on (sd_dim st) s /\ dot (vsub s (sd_com st)) (turned st n) = 0) x
                     (signed_distance (plane n) st x * (1 + 1 / IZR (10 ^ 12) / vnorm n)).
Proof.
  intros n st x Ho Hn Hdn Hdc Hdx. rewrite plane_eq by auto.
  set (N := turned st n). set (c := sd_com st) in *.
  assert (HN : vnorm N = vnorm n) by (apply turned_norm; auto).
  pose proof (vnorm_pos n) as Hp. assert (Hp0 : 0 < vnorm n) by lra.
  set (e := dot (vsub x c) N).
  assert (Hval : e / (vnorm n + 1 / IZR (10 ^ 12)) * (1 + 1 / IZR (10 ^ 12) / vnorm n) = e / vnorm n).
  { assert (Hh : 0 < 1 / IZR (10 ^ 12)) by (cbn; lra). revert Hh. generalize (1 / IZR (10 ^ 12)). intros h Hh. field. lra. }
  rewrite Hval.
  assert (HonN : on (sd_dim st) N).
  { unfold N, turned, on in *. destruct (sd_dim st); auto. }
  split; [| split].
  - intros s [Hs1 Hs2].
    assert (Ee : e = dot (vsub x s) N).
    { unfold e. revert Hs2. unfold dot, vsub. cbn [vx vy vz]. change (@nsub R Num_R) with Rminus. intros Hs2. lra. }
    rewrite Ee. unfold Rdiv. rewrite Rabs_mult, (Rabs_pos_eq (/ vnorm n)) by (left; now apply Rinv_0_lt_compat).
    pose proof (dot_le (vsub x s) N) as Hd. rewrite HN, edist_vnorm in Hd.
    apply Rmult_le_reg_r with (vnorm n); [auto |]. rewrite Rmult_assoc, Rinv_l, Rmult_1_r by auto. exact Hd.
  - exists (vsub x (vscale (e / dot N N) N)).
    assert (HNN : dot N N = vnorm n * vnorm n) by (now rewrite <- vnorm_sqr, HN).
    assert (HNN0 : dot N N <> 0) by (rewrite HNN; nra).
    split; [split |].
    + unfold on in *. destruct (sd_dim st); auto. unfold vsub, vscale. cbn [vx vy vz].
      change (vz x - e / dot N N * vz N = 0). rewrite Hdx, HonN. ring.
    + transitivity (dot (vsub x c) N - e / dot N N * dot N N).
      { unfold dot, vsub, vscale. cbn [vx vy vz]. change (@nsub R Num_R) with Rminus. change (@nmul R Num_R) with Rmult. ring. }
      fold e. field. auto.
    + unfold edist, vsub, vscale. cbn [vx vy vz]. change (@nsub R Num_R) with Rminus. change (@nmul R Num_R) with Rmult.
      replace ((vx x - (vx x - e / dot N N * vx N))² + (vy x - (vy x - e / dot N N * vy N))² + (vz x - (vz x - e / dot N N * vz N))²)
        with ((e / vnorm n)²).
      * apply sqrt_Rsqr_abs.
      * transitivity ((e / dot N N)² * dot N N); [| unfold dot, Rsqr; ring].
        rewrite HNN. unfold Rsqr. field. auto.
  - fold c. fold e. split; intros H.
    + destruct (Rlt_dec e 0); auto. assert (0 <= e / vnorm n) by (apply Rle_mult_inv_pos; lra). lra.
    + unfold Rdiv. pose proof (Rinv_0_lt_compat _ Hp0). nra.
Qed.
Print Assumptions C64_plane.
Theorem C64_plane_lipschitz : forall n st x y, oriented st ->
  Rabs (signed_distance (plane n) st x - signed_distance (plane n) st y) <= edist x y.
Proof.
  intros n st x y Ho. rewrite !plane_eq by auto. set (N := turned st n).
  assert (HN : vnorm N = vnorm n) by (apply turned_norm; auto). pose proof (vnorm_pos n) as Hp.
  set (k := vnorm n + 1 / IZR (10 ^ 12)). assert (Hh : 0 < 1 / IZR (10 ^ 12)) by (cbn; lra).
  assert (Hk : vnorm n <= k /\ 0 < k) by (unfold k; lra).
  replace (dot (vsub x (sd_com st)) N / k - dot (vsub y (sd_com st)) N / k) with (dot (vsub x y) N * / k).
  2:{ unfold dot, vsub. cbn [vx vy vz]. change (@nsub R Num_R) with Rminus. unfold Rdiv. ring. }
  rewrite Rabs_mult, (Rabs_pos_eq (/ k)) by (left; apply Rinv_0_lt_compat; lra).
  pose proof (dot_le (vsub x y) N) as Hd. rewrite HN, edist_vnorm in Hd. pose proof (edist_pos x y).
  apply Rmult_le_reg_r with k; [lra |]. rewrite Rmult_assoc, Rinv_l, Rmult_1_r by lra. nra.
Qed.
Print Assumptions C64_plane_lipschitz.
Example C64_case : let st := at_rest D3 (V3 1 2 3) 0 (Quat (3 / 5) (V3 0 (4 / 5) 0)) in
  oriented st /\ vnorm (V3 0 2 0 : vec3 R) <> 0 /\ 0 <= 2 /\ on (sd_dim st) (sd_com st).
Proof.
  cbn. unfold qunit, Rsqr. cbn. repeat split; try lra. unfold vnorm, vnorm2, vdot. cbn.
  intros H. assert (sqrt (0 * 0 + 2 * 2 + 0 * 0) = 2) by (replace (0 * 0 + 2 * 2 + 0 * 0) with (2 * 2) by ring; apply sqrt_square; lra). lra.
Qed.

(** ** C65 *)
Lemma dist_of : forall s st x, (forall lo hi fr, s <> Domain lo hi fr) -> (forall r, s <> Sphere r) ->
  signed_distance s st x = dist_local (sd_dim st) s (to_local st x).
Proof. intros s st x H1 H2. destruct s; try reflexivity; [now destruct (H2 radius) | now destruct (H1 lo hi frictions)]. Qed.
Lemma nabs_Rabs : forall a : R, nabs a = Rabs a.
Proof. exact nabs_R. Qed.

(** The returned value is negative exactly inside the solid shrunk by the 1e-6 of safe_norm. *)
Theorem C65_box : forall size st x, let half := vdivs size 2 in
  signed_distance (box size) st x < 0 <-> in_box (sd_dim st) half (to_local st x) (1 / IZR (10 ^ 6)).
Proof.
  intros size st x half. unfold box. rewrite dist_of by discriminate. cbn [dist_local].
  change (vdivs size (@n2 R (@numt_num R NumT_R))) with half. generalize (to_local st x). intros [a b c]. destruct half as [p q r].
  unfold in_box, vsub, vmap, vtrunc. cbn [vx vy vz axes].
  change (@numt_num R NumT_R) with Num_R. change (@n0 R Num_R) with 0. rewrite !nabs_Rabs. change (@nsub R Num_R) with Rminus.
  destruct (sd_dim st); cbn [axes vx vy vz].
  - rewrite faces2. split; [intros [H1 H2] | intros [H1 [H2 _]]]; repeat split; lra.
  - rewrite faces3. split; [intros [H1 [H2 H3]] | intros [H1 [H2 H3]]]; lra.
Qed.
Print Assumptions C65_box.
Theorem C65_capsule : forall r h st x, 0 <= h ->
  signed_distance (capsule r h) st x < 0 <-> 0 < r /\ near_segment (h / 2) (to_local st x) (1 / IZR (10 ^ 12)) r.
Proof.
  intros r h st x Hh. unfold capsule. rewrite dist_of by discriminate. cbn [dist_local].
  change (@n2 R (@numt_num R NumT_R)) with 2. change (@numt_num R NumT_R) with Num_R. change (@ndiv R Num_R) with Rdiv.
  set (hh := h / 2). assert (Hhh : 0 <= hh) by (unfold hh; lra). clearbody hh.
  generalize (to_local st x). intros [a b c]. cbn [vx vy vz]. unfold near_segment. cbn [vx vy vz].
  change (@nopp R Num_R) with Ropp. change (@nsub R Num_R) with Rminus.
  unfold nclip. rewrite nmin_Rmin, nmax_Rmax. set (t := Rmin (Rmax b (- hh)) hh).
  assert (Ht : - hh <= t <= hh).
  { unfold t, Rmin, Rmax. destruct (Rle_dec b (- hh)); destruct (Rle_dec _ hh); lra. }
  assert (Hbest : forall u, - hh <= u <= hh -> (b - t)² <= (b - u)²).
  { intros u Hu. unfold t, Rmin, Rmax. apply Rsqr_le_abs_1.
    destruct (Rle_dec b (- hh)); destruct (Rle_dec _ hh); unfold Rabs; destruct (Rcase_abs _); destruct (Rcase_abs _); lra. }
  clearbody t.
  assert (Hh12 : 0 < 1 / IZR (10 ^ 12)) by (cbn; lra).
  assert (Hs : safe_norm (V3 a (b - t) c) < r <-> 0 < r /\ a² + (b - t)² + c² + 1 / IZR (10 ^ 12) < r²).
  { unfold safe_norm, vnorm2, vdot. cbn [vx vy vz].
    change (sqrt (a * a + (b - t) * (b - t) + c * c + 1 / IZR (10 ^ 12)) < r <-> 0 < r /\ a² + (b - t)² + c² + 1 / IZR (10 ^ 12) < r²).
    rewrite sqrt_lt_iff; [unfold Rsqr; tauto |].
    pose proof (Rle_0_sqr a); pose proof (Rle_0_sqr (b - t)); pose proof (Rle_0_sqr c). unfold Rsqr in *. lra. }
  split.
  - intros H. destruct Hs as [Hs _]. destruct Hs as [Hr Hl]; [lra |]. split; [auto |]. exists t. split; auto.
  - intros [Hr [u [Hu Hl]]]. destruct Hs as [_ Hs]. enough (safe_norm (V3 a (b - t) c) < r) by lra.
    apply Hs. split; [auto |]. specialize (Hbest u Hu). lra.
Qed.
Print Assumptions C65_capsule.
Theorem C65_cylinder : forall r h st x, sd_dim st = D3 -> let p := to_local st x in
  signed_distance (cylinder r h) st x < 0 <->
  (0 < r - 1 / IZR (10 ^ 6) /\ (vx p)² + (vz p)² + 1 / IZR (10 ^ 12) < (r - 1 / IZR (10 ^ 6))²) /\
  Rabs (vy p) + 1 / IZR (10 ^ 6) < h / 2.
Proof.
  intros r h st x Hd p. unfold cylinder. rewrite dist_of by discriminate. fold p. rewrite Hd. cbn [dist_local].
  change (@n2 R (@numt_num R NumT_R)) with 2. change (@numt_num R NumT_R) with Num_R. change (@ndiv R Num_R) with Rdiv.
  change (@nsub R Num_R) with Rminus. change (@n0 R Num_R) with 0. rewrite nabs_Rabs, faces2.
  destruct p as [a b c]. unfold xz. cbn [vx vy vz].
  assert (Hs : safe_norm (V3 a c 0) < r - 1 / IZR (10 ^ 6) <->
               0 < r - 1 / IZR (10 ^ 6) /\ a² + c² + 1 / IZR (10 ^ 12) < (r - 1 / IZR (10 ^ 6))²).
  { unfold safe_norm, vnorm2, vdot. cbn [vx vy vz]. generalize (r - 1 / IZR (10 ^ 6)). intros e.
    change (sqrt (a * a + c * c + 0 * 0 + 1 / IZR (10 ^ 12)) < e <-> 0 < e /\ a² + c² + 1 / IZR (10 ^ 12) < e²).
    assert (Hh12 : 0 < 1 / IZR (10 ^ 12)) by (cbn; lra).
    rewrite sqrt_lt_iff; [unfold Rsqr; replace (a * a + c * c + 0 * 0) with (a * a + c * c) by ring; tauto |].
    pose proof (Rle_0_sqr a); pose proof (Rle_0_sqr c). unfold Rsqr in *. lra. }
  change (V3 a c (@n0 R (@numt_num R NumT_R))) with (V3 a c 0). rewrite <- Hs. split; intros [H1 H2]; split; lra.
Qed.
Print Assumptions C65_cylinder.
Theorem C65_torus : forall R0 r st x, sd_dim st = D3 -> let p := to_local st x in
  signed_distance (Torus R0 r) st x < 0 <->
  0 < r /\ (sqrt ((vx p)² + (vz p)² + 1 / IZR (10 ^ 12)) - R0)² + (vy p)² < r².
Proof.
  intros R0 r st x Hd p. rewrite dist_of by discriminate. fold p. rewrite Hd. cbn [dist_local].
  destruct p as [a b c]. unfold xz, vnorm, safe_norm, vnorm2, vdot. cbn [vx vy vz].
  change (sqrt ((sqrt (a * a + c * c + 0 * 0 + 1 / IZR (10 ^ 12)) - R0) * (sqrt (a * a + c * c + 0 * 0 + 1 / IZR (10 ^ 12)) - R0) + b * b + 0 * 0) - r < 0
          <-> 0 < r /\ (sqrt (a² + c² + 1 / IZR (10 ^ 12)) - R0)² + b² < r²).
  replace (a * a + c * c + 0 * 0 + 1 / IZR (10 ^ 12)) with (a² + c² + 1 / IZR (10 ^ 12)) by (unfold Rsqr; ring).
  set (u := sqrt (a² + c² + 1 / IZR (10 ^ 12)) - R0).
  pose proof (sqrt_lt_iff (u * u + b * b + 0 * 0) r) as H.
  assert (H0 : 0 <= u * u + b * b + 0 * 0) by (pose proof (Rle_0_sqr u); pose proof (Rle_0_sqr b); unfold Rsqr in *; lra).
  specialize (H H0). unfold Rsqr at 1 2. split.
  - intros E. destruct (proj1 H) as [E1 E2]; [lra |]. unfold Rsqr in *. split; lra.
  - intros [E1 E2]. pose proof (proj2 H) as E3. unfold Rsqr in *. cut (sqrt (u * u + b * b + 0 * 0) < r); [lra | apply E3; split; lra].
Qed.
Print Assumptions C65_torus.

(** A point 5e-7 inside the face of a 2 x 2 square is reported outside. *)
Theorem C65_sign_refuted : ~ (forall size st x, let half := vdivs size 2 in
  in_box (sd_dim st) half (to_local st x) 0 -> signed_distance (box size) st x < 0).
Proof.
  intros H. specialize (H (V3 2 2 2) (at_rest D2 (V3 0 0 0) 0 (Quat 1 (V3 0 0 0))) (V3 (1 - 5 / 10000000) 0 0)).
  cbv zeta in H. rewrite C65_box in H.
  assert (E : to_local (at_rest D2 (V3 0 0 0) 0 (Quat 1 (V3 0 0 0))) (V3 (1 - 5 / 10000000) 0 0) = V3 (1 - 5 / 10000000) 0 0).
  { unfold to_local, at_rest, rotation_2d_inv, vsub. cbn. rewrite cos_0, sin_0. f_equal; field. }
  rewrite E in H. unfold in_box in H. cbn in H. rewrite Rabs_R0, Rabs_pos_eq in H by lra.
  destruct H as [H _]; [repeat split; lra | lra].
Qed.
Print Assumptions C65_sign_refuted.
Example C65_case : signed_distance (box (V3 2 2 2)) (at_rest D2 (V3 0 0 0) 0 (Quat 1 (V3 0 0 0))) (V3 (1 / 2) 0 0) < 0 /\
  ~ signed_distance (box (V3 2 2 2)) (at_rest D2 (V3 0 0 0) 0 (Quat 1 (V3 0 0 0))) (V3 2 0 0) < 0.
Proof.
  assert (E : forall a b, to_local (at_rest D2 (V3 0 0 0) 0 (Quat 1 (V3 0 0 0))) (V3 a b 0) = V3 a b 0).
  { intros. unfold to_local, at_rest, rotation_2d_inv, vsub. cbn. rewrite cos_0, sin_0. f_equal; ring. }
  rewrite !C65_box, !E. unfold in_box. cbn. rewrite Rabs_R0, !Rabs_pos_eq by lra. split; [repeat split; lra | intros [H _]; lra].
Qed.

(** ** C66 *)
Theorem C66_union : forall l fr st x, l <> [] -> let p := to_local st x in
  (signed_distance (Composite l fr) st x < 0 <-> exists s, In s l /\ dist_local (sd_dim st) s p < 0) /\
  (forall s, In s l -> signed_distance (Composite l fr) st x <= dist_local (sd_dim st) s p) /\
  (exists s, In s l /\ signed_distance (Composite l fr) st x = dist_local (sd_dim st) s p).
Proof.
  intros l fr st x Hl p. rewrite dist_of by discriminate. fold p. cbn [dist_local].
  set (ds := map (fun s => dist_local (sd_dim st) s p) l).
  assert (Hn : ds <> []) by (unfold ds; destruct l; [congruence | discriminate]).
  assert (Hin : exists s, In s l /\ lmin ds = dist_local (sd_dim st) s p).
  { pose proof (lmin_in ds Hn) as H. unfold ds in H at 2. apply in_map_iff in H as [s [E Hs]]. exists s. split; auto. }
  assert (Hle : forall s, In s l -> lmin ds <= dist_local (sd_dim st) s p).
  { intros s Hs. apply lmin_le. unfold ds. now apply in_map with (f := fun s => dist_local (sd_dim st) s p). }
  split; [split | split; auto].
  - intros H. destruct Hin as [s [Hs E]]. exists s. split; [auto | lra].
  - intros [s [Hs H]]. specialize (Hle s Hs). lra.
Qed.
Print Assumptions C66_union.
Theorem C66_friction : forall l fr st x, l <> [] -> length fr = length l -> let p := to_local st x in
  exists i s f, nth_error l i = Some s /\ nth_error fr i = Some f /\
    surface_friction (Composite l fr) st x = f /\
    (forall t, In t l -> dist_local (sd_dim st) s p <= dist_local (sd_dim st) t p).
Proof.
  intros l fr st x Hl Hlen p. cbn [surface_friction local_of]. fold p.
  set (ds := map (fun s => dist_local (sd_dim st) s p) l).
  assert (Hn : ds <> []) by (unfold ds; destruct l; [congruence | discriminate]).
  destruct (argmin_spec ds Hn) as [H1 H2]. set (i := argmin ds) in *.
  assert (Hi : (i < length l)%nat) by (unfold ds in H2; now rewrite map_length in H2).
  destruct (nth_error l i) as [s |] eqn:Es; [| apply nth_error_None in Es; lia].
  destruct (nth_error fr i) as [f |] eqn:Ef; [| apply nth_error_None in Ef; lia].
  exists i, s, f. split; [exact Es |]. split; [exact Ef |]. split.
  - unfold nth_clamped. rewrite Nat.min_l by lia. now apply nth_error_nth.
  - intros t Ht. assert (E : nth_error ds i = Some (dist_local (sd_dim st) s p)) by (unfold ds; apply (map_nth_error (fun s => dist_local (sd_dim st) s p)); exact Es).
    rewrite E in H1. inversion H1 as [E1]. rewrite E1. apply lmin_le. unfold ds. now apply in_map with (f := fun s => dist_local (sd_dim st) s p).
Qed.
Print Assumptions C66_friction.
Example C66_case : [box (V3 2 2 2); sphere 3] <> [] /\ length [1 / 10; 1 / 5] = length [box (V3 2 2 2); sphere 3].
Proof. split; [discriminate | reflexivity]. Qed.

(** ** C67 *)
(** the walls of the box, lower walls first: wall k of dimension d has an axis and a side *)
Definition coord (v : vec3 R) (a : nat) : R := match a with O => vx v | 1%nat => vy v | _ => vz v end.
Definition unit_vec (a : nat) (s : R) : vec3 R :=
  V3 (match a with O => s | _ => 0 end) (match a with 1%nat => s | _ => 0 end) (match a with 2%nat => s | _ => 0 end).
(** distance of [p] to the wall on axis [a], inwards positive; [up] selects the upper wall *)
Definition wall_dist (lo hi p : vec3 R) (a : nat) (up : bool) : R :=
  if up then coord hi a - coord p a else coord p a - coord lo a.
Definition strictly_inside (d : Dim) (lo hi p : vec3 R) : Prop :=
  forall a, (a < dim_nat d)%nat -> coord lo a < coord p a < coord hi a.

Lemma walls_nth : forall d (lo hi p : vec3 R) k, (k < 2 * dim_nat d)%nat ->
  nth_error (walls d lo hi p) k = Some (wall_dist lo hi p (k mod dim_nat d) (negb (Nat.ltb k (dim_nat d)))).
Proof.
  intros [|] lo hi p k Hk; cbn in Hk.
  - do 4 (destruct k as [| k]; [reflexivity |]). lia.
  - do 6 (destruct k as [| k]; [reflexivity |]). lia.
Qed.
Lemma walls_len : forall d (lo hi p : vec3 R), length (walls d lo hi p) = (2 * dim_nat d)%nat.
Proof. intros [|]; reflexivity. Qed.

Lemma domain_min : forall d (lo hi p : vec3 R), exists k, (k < 2 * dim_nat d)%nat /\ k = argmin (walls d lo hi p) /\
  lmin (walls d lo hi p) = wall_dist lo hi p (k mod dim_nat d) (negb (Nat.ltb k (dim_nat d))) /\
  (forall a up, (a < dim_nat d)%nat -> lmin (walls d lo hi p) <= wall_dist lo hi p a up).
Proof.
  intros d lo hi p. assert (Hn : walls d lo hi p <> []) by (destruct d; discriminate).
  destruct (argmin_spec _ Hn) as [H1 H2]. rewrite walls_len in H2. exists (argmin (walls d lo hi p)).
  split; [auto |]. split; [reflexivity |]. rewrite walls_nth in H1 by auto. inversion H1 as [E]. split; [reflexivity |].
  intros a up Ha. rewrite E. apply lmin_le. destruct d; cbn in Ha |- *.
  - destruct a as [| [| a]]; [| | lia]; destruct up; cbn; tauto.
  - destruct a as [| [| [| a]]]; [| | | lia]; destruct up; cbn; tauto.
Qed.

(** positive exactly inside; the value is the distance to a nearest wall, the normal points inwards from it and the friction is its own *)
Theorem C67_domain : forall d origin end_ fr off s st x, domain d origin end_ fr off = Ok s -> sd_dim st = d ->
  let lo := vmap (fun y => y + off) origin in let hi := vmap (fun y => y + off) end_ in
  (0 < signed_distance s st x <-> strictly_inside d lo hi x) /\
  exists a up, (a < dim_nat d)%nat /\
    signed_distance s st x = wall_dist lo hi x a up /\
    (forall b up', (b < dim_nat d)%nat -> wall_dist lo hi x a up <= wall_dist lo hi x b up') /\
    get_normal s st x = unit_vec a (if up then -1 else 1) /\
    surface_friction s st x = match fr with FScalar f => f | FList l => nth (a + (if up then dim_nat d else 0)) l 0 end.
Proof.
  intros d origin end_ fr off s st x Hs Hd lo hi.
  assert (Hshape : exists fl, s = Domain (vtrunc d lo) (vtrunc d hi) fl /\ length fl = (2 * dim_nat d)%nat /\
            forall k, (k < 2 * dim_nat d)%nat -> nth_clamped fl k = match fr with FScalar f => f | FList l => nth k l 0 end).
  { unfold domain in Hs. destruct fr as [f | l].
    - inversion Hs; subst s. eexists. split; [reflexivity |]. split; [apply repeat_length |].
      intros k Hk. unfold nth_clamped. rewrite repeat_length, Nat.min_l by lia. destruct d; cbn in Hk; do 6 (destruct k as [| k]; [first [lia | reflexivity] |]); lia.
    - destruct (Nat.eqb (length l) (2 * dim_nat d)) eqn:E; [| discriminate]. inversion Hs; subst s. apply Nat.eqb_eq in E.
      exists l. split; [reflexivity |]. split; [exact E |]. intros k Hk. unfold nth_clamped. now rewrite Nat.min_l by lia. }
  destruct Hshape as [fl [-> [Hfl Hnth]]].
  cbn [signed_distance local_of dist_local get_normal surface_friction]. rewrite Hd.
  assert (Hw : forall a up, (a < dim_nat d)%nat -> wall_dist (vtrunc d lo) (vtrunc d hi) x a up = wall_dist lo hi x a up).
  { intros a up Ha. destruct d; cbn in Ha; [destruct a as [| [| a]]; [| | lia] | destruct a as [| [| [| a]]]; [| | | lia]]; destruct up; reflexivity. }
  destruct (domain_min d (vtrunc d lo) (vtrunc d hi) x) as [k [Hk [Ek [Em Hle]]]].
  assert (Hd0 : dim_nat d <> 0%nat) by (destruct d; discriminate).
  pose proof (Nat.mod_upper_bound k (dim_nat d) Hd0) as Ha.
  split.
  - split.
    + intros Hpos a Hax. pose proof (Hle a true Hax) as Hu. pose proof (Hle a false Hax) as Hlw.
      rewrite Hw in Hu, Hlw by auto. unfold wall_dist in Hu, Hlw. lra.
    + intros Hin. rewrite Em, Hw by auto. specialize (Hin _ Ha). unfold wall_dist. destruct (negb _); lra.
  - exists (k mod dim_nat d)%nat, (negb (Nat.ltb k (dim_nat d))). split; [auto |]. rewrite <- Hw by auto. split; [exact Em |]. split.
    + intros b up' Hb. rewrite <- Em, <- Hw by auto. apply Hle. auto.
    + split.
      * unfold domain_normal. rewrite <- Ek.
        clear -Hk. destruct d; cbn in Hk; do 6 (destruct k as [| k]; [first [lia | unfold unit_vec; cbn; f_equal; ring] |]); lia.
      * rewrite <- Ek, Hnth by auto. destruct fr as [f | l]; [reflexivity |].
        replace (k mod dim_nat d + (if negb (Nat.ltb k (dim_nat d)) then dim_nat d else 0))%nat with k; [reflexivity |].
        destruct d; cbn in Hk; do 6 (destruct k as [| k]; [first [lia | reflexivity] |]); lia.
Qed.
Print Assumptions C67_domain.
Example C67_case : exists s, domain D2 (V3 0 0 0) (V3 4 2 0) (FList [1 / 10; 1 / 5; 3 / 10; 2 / 5]) (1 / 2) = Ok s /\
  sd_dim (at_rest D2 (V3 2 1 0) 0 (Quat 1 (V3 0 0 0))) = D2.
Proof. eexists. split; reflexivity. Qed.
(** the offset shifts both corners the same way: a positive offset moves the upper walls outwards *)
Theorem C67_offset_refuted : ~ (forall d origin end_ fr off s st x, 0 < off -> domain d origin end_ fr off = Ok s -> sd_dim st = d ->
  0 < signed_distance s st x -> strictly_inside d origin end_ x).
Proof.
  intros H.
  specialize (H D2 (V3 0 0 0) (V3 4 2 0) (FScalar (1 / 2)) 1 _ (at_rest D2 (V3 2 1 0) 0 (Quat 1 (V3 0 0 0))) (V3 (9 / 2) 2 0)
                ltac:(lra) eq_refl eq_refl).
  assert (Hp : 0 < signed_distance (Domain (vtrunc D2 (vmap (fun x => x + 1) (V3 0 0 0))) (vtrunc D2 (vmap (fun x => x + 1) (V3 4 2 0))) (repeat (1 / 2) 4))
                     (at_rest D2 (V3 2 1 0) 0 (Quat 1 (V3 0 0 0))) (V3 (9 / 2) 2 0)).
  { apply (proj1 (C67_domain D2 (V3 0 0 0) (V3 4 2 0) (FScalar (1 / 2)) 1 _ (at_rest D2 (V3 2 1 0) 0 (Quat 1 (V3 0 0 0))) (V3 (9 / 2) 2 0) eq_refl eq_refl)).
    intros a Ha. cbn in Ha. destruct a as [| [| a]]; [| | lia]; cbn; lra. }
  specialize (H Hp 0%nat ltac:(cbn; lia)). cbn in H. lra.
Qed.
Print Assumptions C67_offset_refuted.

(** ** C68 *)
Definition is_domain (s : Shape R) : Prop := match s with Domain _ _ _ => True | _ => False end.
Lemma moved_sphere : forall m st x, motion_of m st -> vnorm (vsub (moved m x) (moved m (sd_com st))) = vnorm (vsub x (sd_com st)).
Proof.
  intros [a t | q t] st x H; cbn [moved motion_of] in *; rewrite sub_add.
  - now rewrite rot2_sub, vnorm_rot2.
  - destruct H as [_ [H _]]. now rewrite rot3_sub, vnorm_rot3.
Qed.
Theorem C68_distance : forall s m st x, ~ is_domain s -> motion_of m st ->
  signed_distance s (carried m st) (moved m x) = signed_distance s st x.
Proof.
  intros s m st x Hs Hm. destruct s; try (unfold signed_distance, local_of; rewrite to_local_moved by auto; reflexivity).
  - cbn [signed_distance dist_local carried sd_com sd_dim]. now rewrite moved_sphere.
  - exfalso. now apply Hs.
Qed.
Print Assumptions C68_distance.
Theorem C68_friction : forall s m st x, ~ is_domain s -> motion_of m st ->
  surface_friction s (carried m st) (moved m x) = surface_friction s st x.
Proof.
  intros s m st x Hs Hm. destruct s; try reflexivity.
  - cbn [surface_friction local_of]. rewrite to_local_moved by auto. reflexivity.
  - exfalso. now apply Hs.
Qed.
Print Assumptions C68_friction.
(** the normal is carried along *)
Definition rotation_part (m : Motion) (v : vec3 R) : vec3 R := match m with Motion2 a _ => rot2 a v | Motion3 q _ => rot3 q v end.
Lemma rotation_part_norm : forall m st v, motion_of m st -> vnorm (rotation_part m v) = vnorm v.
Proof. intros [a t | q t] st v H; cbn [rotation_part motion_of] in *; [apply vnorm_rot2 | apply vnorm_rot3; tauto]. Qed.
Lemma rotation_part_divs : forall m v c, rotation_part m (vdivs v c) = vdivs (rotation_part m v) c.
Proof.
  intros [a t | [w [q1 q2 q3]] t] [x y z] c; unfold rotation_part, rot2, rot3, qmul, vdivs, Rdiv; cbn; apply vec3_eq; cbn; unfold Rdiv; ring.
Qed.
Lemma from_local_carried : forall m st g, motion_of m st -> from_local_dir (carried m st) g = rotation_part m (from_local_dir st g).
Proof.
  intros [a t | q t] st g H; unfold from_local_dir; cbn [carried sd_dim sd_theta sd_quat rotation_part motion_of] in *.
  - rewrite H, !rotation_2d_eq. destruct g as [x y z]. unfold rot2. cbn. rewrite cos_plus, sin_plus. apply vec3_eq; cbn; ring.
  - destruct H as [-> [H1 H2]]. rewrite !quaternion_rotate_eq by (auto using qunit_mul). apply rot3_mul.
Qed.
Theorem C68_normal : forall s m st x, ~ is_domain s -> motion_of m st ->
  get_normal s (carried m st) (moved m x) = rotation_part m (get_normal s st x).
Proof.
  intros s m st x Hs Hm.
  destruct s; try (unfold get_normal, local_of; rewrite to_local_moved by auto; cbv zeta; rewrite from_local_carried by auto;
                   rewrite rotation_part_divs, (rotation_part_norm m st) by auto; reflexivity).
  - unfold get_normal. cbv zeta. cbn [grad_local carried sd_com]. change (@numt_num R NumT_R) with Num_R.
    assert (E : vsub (moved m x) (moved m (sd_com st)) = rotation_part m (vsub x (sd_com st))).
    { destruct m as [a t | q t]; cbn [moved rotation_part]; rewrite sub_add; [apply rot2_sub | apply rot3_sub]. }
    rewrite E, (rotation_part_norm m st) by auto. rewrite <- !rotation_part_divs, (rotation_part_norm m st) by auto. reflexivity.
  - exfalso. now apply Hs.
Qed.
Print Assumptions C68_normal.
Example C68_case : let st := at_rest D3 (V3 1 2 3) 0 (Quat (3 / 5) (V3 (4 / 5) 0 0)) in
  motion_of (Motion3 (Quat 0 (V3 0 1 0)) (V3 1 1 1)) st /\ ~ is_domain (box (V3 1 2 3)) /\
  moved (Motion3 (Quat 0 (V3 0 1 0)) (V3 1 1 1)) (V3 1 2 3) = V3 0 3 (-2).
Proof.
  cbn. unfold qunit, Rsqr. cbn. split; [split; [reflexivity | split; lra] |]. split; [tauto |].
  unfold vadd, rot3, qmul. cbn. apply vec3_eq; cbn; ring.
Qed.
(** a domain ignores its state: moving it with the point changes the distance *)
Theorem C68_refuted : ~ (forall s m st x, motion_of m st -> signed_distance s (carried m st) (moved m x) = signed_distance s st x).
Proof.
  intros H.
  specialize (H (Domain (V3 0 0 0) (V3 4 4 0) (repeat 1 4)) (Motion2 0 (V3 10 0 0)) (at_rest D2 (V3 2 2 0) 0 (Quat 1 (V3 0 0 0))) (V3 1 2 0) eq_refl).
  cbn [signed_distance local_of dist_local carried sd_dim at_rest] in H.
  assert (Hm : lmin (walls D2 (V3 0 0 0) (V3 4 4 0) (moved (Motion2 0 (V3 10 0 0)) (V3 1 2 0))) <= 4 - 11).
  { apply lmin_le. cbn. rewrite cos_0, sin_0. right. right. left. ring. }
  assert (Hp : In (lmin (walls D2 (V3 0 0 0) (V3 4 4 0) (V3 1 2 0))) (walls D2 (V3 0 0 0) (V3 4 4 0) (V3 1 2 0))) by (apply lmin_in; discriminate).
  cbn [walls axes vsub vmap2 vx vy app In] in Hp. cbn in Hp. rewrite H in Hm. cbn in Hm.
  destruct Hp as [E | [E | [E | [E | []]]]]; rewrite <- E in Hm; lra.
Qed.
Print Assumptions C68_refuted.

(** ** C69 *)
Definition after (s : Shape R) (dt : R) (n : nat) (st : SDFState R) : SDFState R := Nat.iter n (fun st => update_kinematics s st dt) st.
Lemma after_dim : forall s dt n st, sd_dim (after s dt n st) = sd_dim st /\ sd_vel (after s dt n st) = sd_vel st /\
  sd_omega (after s dt n st) = sd_omega st /\ sd_w (after s dt n st) = sd_w st.
Proof.
  intros s dt n st. induction n as [| n IH]; [now repeat split |]. cbn [after Nat.iter nat_rect] in *. fold (after s dt n st) in *.
  destruct IH as [A [B [C D]]]. destruct s; cbn [update_kinematics sd_dim sd_vel sd_omega sd_w]; auto.
Qed.
Theorem C69_translation : forall s dt n st, ~ is_domain s ->
  sd_com (after s dt n st) = vadd (sd_com st) (vscale (INR n * dt) (sd_vel st)) /\
  (sd_dim st = D2 -> sd_theta (after s dt n st) = sd_theta st + INR n * dt * sd_omega st) /\
  sd_vel (after s dt n st) = sd_vel st /\ sd_omega (after s dt n st) = sd_omega st /\ sd_w (after s dt n st) = sd_w st.
Proof.
  intros s dt n st Hs. destruct (after_dim s dt n st) as [_ [B [C D]]]. split; [| split; auto].
  - clear B C D. induction n as [| n IH].
    + cbn. destruct (sd_com st), (sd_vel st). unfold vadd, vscale. apply vec3_eq; cbn; ring.
    + destruct (after_dim s dt n st) as [_ [B _]]. rewrite S_INR. change (after s dt (S n) st) with (update_kinematics s (after s dt n st) dt).
      assert (E : forall t, sd_com (update_kinematics s t dt) = vadd (sd_com t) (vscale dt (sd_vel t))) by (intros t; destruct s; try reflexivity; exfalso; now apply Hs).
      rewrite E, B, IH. destruct (sd_com st), (sd_vel st). unfold vadd, vscale. apply vec3_eq; cbn; ring.
  - intros Hd. clear B C D. induction n as [| n IH].
    + cbn. ring.
    + destruct (after_dim s dt n st) as [A [_ [C _]]]. rewrite S_INR. change (after s dt (S n) st) with (update_kinematics s (after s dt n st) dt).
      assert (E : forall t, sd_dim t = D2 -> sd_theta (update_kinematics s t dt) = sd_theta t + sd_omega t * dt)
        by (intros t Ht; destruct s; cbn [update_kinematics sd_theta]; try (now rewrite Ht); exfalso; now apply Hs).
      rewrite E, C, IH by congruence. ring.
Qed.
Print Assumptions C69_translation.
Example C69_case : ~ is_domain (sphere 1) /\ sd_dim (create_sdf_state D2 (V3 1 0 0) (Some (V3 2 3 0)) (Some 4) None None None : SDFState R) = D2.
Proof. split; [intros [] | reflexivity]. Qed.

(** the length of a quaternion, and the increment 1 + dt/2 w *)
Definition qnorm (q : quat R) : R := sqrt ((qw q)² + (vx (qv q))² + (vy (qv q))² + (vz (qv q))²).
Definition qscale (c : R) (q : quat R) : quat R := Quat (c * qw q) (V3 (c * vx (qv q)) (c * vy (qv q)) (c * vz (qv q))).
Definition spin (dt : R) (w : vec3 R) : quat R := Quat 1 (V3 (dt / 2 * vx w) (dt / 2 * vy w) (dt / 2 * vz w)).

Lemma quat_raw_mul : forall q w dt, quat_raw q w dt = qmul (spin dt w) q.
Proof.
  intros [a [b c d]] [x y z] dt. unfold quat_raw, qmul, spin. cbn [qw qv vx vy vz].
  change (lit 1 2 * dt)%num with (1 / 2 * dt). change (@nadd R Num_R) with Rplus. change (@nmul R Num_R) with Rmult.
  change (@nsub R Num_R) with Rminus. change (@nopp R Num_R) with Ropp. f_equal; [lra | apply vec3_eq; cbn [vx vy vz]; lra].
Qed.
Lemma integrate_eq : forall q w dt, integrate_quaternion q w dt =
  qscale (/ (qnorm (qmul (spin dt w) q) + 1 / IZR (10 ^ 12))) (qmul (spin dt w) q).
Proof.
  intros q w dt. unfold integrate_quaternion. cbv zeta. change (@numt_num R NumT_R) with Num_R. rewrite quat_raw_mul.
  set (r := qmul (spin dt w) q).
  assert (E : nsqrt (quat_norm2 r) + lit 1 (10 ^ 12) = qnorm r + 1 / IZR (10 ^ 12)).
  { unfold qnorm, quat_norm2, vnorm2, vdot. change (nsqrt ?x) with (sqrt x). change (@lit R Num_R 1 (10 ^ 12)) with (1 / IZR (10 ^ 12)).
    cbn [qw qv]. change (@nmul R Num_R) with Rmult. change (@nadd R Num_R) with Rplus. unfold Rsqr.
    replace (qw r * qw r + (vx (qv r) * vx (qv r) + vy (qv r) * vy (qv r) + vz (qv r) * vz (qv r)))
      with (qw r * qw r + vx (qv r) * vx (qv r) + vy (qv r) * vy (qv r) + vz (qv r) * vz (qv r)) by ring. reflexivity. }
  change (nadd (nsqrt (quat_norm2 r)) (lit 1 (10 ^ 12))) with (nsqrt (quat_norm2 r) + lit 1 (10 ^ 12)). rewrite E.
  destruct r as [a [b c d]]. unfold qscale, vdivs, vmap. cbn [qw qv vx vy vz].
  change (@ndiv R Num_R) with Rdiv. match goal with |- Quat (_ / ?e) _ = _ => set (k := e) end. unfold Rdiv.
  f_equal; [apply Rmult_comm | apply vec3_eq; cbn [vx vy vz]; apply Rmult_comm].
Qed.
Lemma qnorm_pos : forall q, 0 <= qnorm q.
Proof. intros. apply sqrt_pos. Qed.
Lemma qnorm_sq : forall q, (qnorm q)² = (qw q)² + (vx (qv q))² + (vy (qv q))² + (vz (qv q))².
Proof.
  intros q. unfold qnorm. apply Rsqr_sqrt.
  pose proof (Rle_0_sqr (qw q)); pose proof (Rle_0_sqr (vx (qv q))); pose proof (Rle_0_sqr (vy (qv q))); pose proof (Rle_0_sqr (vz (qv q))); lra.
Qed.
Lemma qnorm_mul : forall p q, qnorm (qmul p q) = qnorm p * qnorm q.
Proof.
  intros p q. unfold qnorm at 2 3. rewrite <- sqrt_mult_alt.
  - unfold qnorm. f_equal. destruct p as [a [b c d]], q as [a' [b' c' d']]. unfold qmul, Rsqr. cbn. ring.
  - rewrite <- (qnorm_sq p). apply Rle_0_sqr.
Qed.
Lemma qnorm_scale : forall c q, 0 <= c -> qnorm (qscale c q) = c * qnorm q.
Proof.
  intros c [a [b d e]] Hc. unfold qnorm, qscale. cbn [qw qv vx vy vz].
  replace ((c * a)² + (c * b)² + (c * d)² + (c * e)²) with (c² * (a² + b² + d² + e²)) by (unfold Rsqr; ring).
  rewrite sqrt_mult_alt by apply Rle_0_sqr. now rewrite sqrt_Rsqr.
Qed.
Lemma qnorm_spin : forall dt w, 1 <= qnorm (spin dt w).
Proof.
  intros dt w. unfold qnorm, spin. cbn [qw qv vx vy vz]. rewrite <- sqrt_1 at 1. apply sqrt_le_1_alt.
  pose proof (Rle_0_sqr (dt / 2 * vx w)); pose proof (Rle_0_sqr (dt / 2 * vy w)); pose proof (Rle_0_sqr (dt / 2 * vz w)).
  assert (E : 1² = 1) by apply Rsqr_1. lra.
Qed.
Lemma qnorm_unit : forall q, qunit q <-> qnorm q = 1.
Proof.
  intros q. unfold qunit. rewrite <- qnorm_sq. split; intros H.
  - apply Rsqr_inj; [apply qnorm_pos | lra |]. rewrite H. unfold Rsqr. ring.
  - rewrite H. unfold Rsqr. ring.
Qed.
(** one update: the length N becomes N / (N + 1e-12) *)
Lemma integrate_norm : forall q w dt, let N := qnorm (spin dt w) * qnorm q in
  qnorm (integrate_quaternion q w dt) = N / (N + 1 / IZR (10 ^ 12)).
Proof.
  intros q w dt N. rewrite integrate_eq, qnorm_mul. fold N.
  assert (Hh : 0 < 1 / IZR (10 ^ 12)) by (cbn; lra).
  assert (HN : 0 <= N) by (apply Rmult_le_pos; apply qnorm_pos).
  rewrite qnorm_scale by (left; apply Rinv_0_lt_compat; lra). rewrite qnorm_mul. fold N. unfold Rdiv. apply Rmult_comm.
Qed.
(** the orientation never drifts: its length stays within 1e-12 of 1, whatever the number of steps and the spin *)
Theorem C69_quaternion_length : forall s dt n st, ~ is_domain s -> sd_dim st = D3 -> qunit (sd_quat st) ->
  1 - 1 / IZR (10 ^ 12) <= qnorm (sd_quat (after s dt n st)) <= 1.
Proof.
  intros s dt n st Hs Hd Hq. apply qnorm_unit in Hq.
  assert (Hstep : forall e N, 0 < e < 1 / 2 -> 1 - e <= N -> 1 - e <= N / (N + e) <= 1).
  { intros e N He HN. assert (Hp : 0 < N + e) by lra. split.
    - apply Rmult_le_reg_r with (N + e); [lra |]. unfold Rdiv. rewrite Rmult_assoc, Rinv_l by lra. nra.
    - apply Rmult_le_reg_r with (N + e); [lra |]. unfold Rdiv. rewrite Rmult_assoc, Rinv_l by lra. lra. }
  assert (Hh : 0 < 1 / IZR (10 ^ 12) < 1 / 2) by (cbn; lra).
  induction n as [| n IH].
  - cbn [after Nat.iter nat_rect]. rewrite Hq. lra.
  - change (after s dt (S n) st) with (update_kinematics s (after s dt n st) dt).
    destruct (after_dim s dt n st) as [A _].
    assert (E : forall t, sd_dim t = D3 -> sd_quat (update_kinematics s t dt) = integrate_quaternion (sd_quat t) (sd_w t) dt)
      by (intros t Ht; destruct s; cbn [update_kinematics sd_quat]; try (now rewrite Ht); exfalso; now apply Hs).
    rewrite E by congruence. rewrite integrate_norm. apply Hstep; [exact Hh |].
    pose proof (qnorm_spin dt (sd_w (after s dt n st))) as H1.
    set (a := qnorm (spin dt (sd_w (after s dt n st)))) in *. set (b := qnorm (sd_quat (after s dt n st))) in *.
    apply Rle_trans with (1 * b); [lra |]. apply Rmult_le_compat_r; lra.
Qed.
Print Assumptions C69_quaternion_length.
(** the n-th orientation is a positive multiple of (1 + dt/2 w)^n q0: turned n times about the axis w *)
Theorem C69_quaternion_motion : forall s dt n st, ~ is_domain s -> sd_dim st = D3 -> qunit (sd_quat st) ->
  exists c, 0 < c /\ sd_quat (after s dt n st) = qscale c (Nat.iter n (qmul (spin dt (sd_w st))) (sd_quat st)).
Proof.
  intros s dt n st Hs Hd Hq. induction n as [| n IH].
  - exists 1. split; [lra |]. cbn. destruct (sd_quat st) as [a [b c d]]. unfold qscale. cbn. now rewrite !Rmult_1_l.
  - change (after s dt (S n) st) with (update_kinematics s (after s dt n st) dt).
    destruct (after_dim s dt n st) as [A [_ [_ D]]].
    assert (E : forall t, sd_dim t = D3 -> sd_quat (update_kinematics s t dt) = integrate_quaternion (sd_quat t) (sd_w t) dt)
      by (intros t Ht; destruct s; cbn [update_kinematics sd_quat]; try (now rewrite Ht); exfalso; now apply Hs).
    rewrite E by congruence. rewrite D, integrate_eq. destruct IH as [c [Hc Ec]]. rewrite Ec.
    assert (Hh : 0 < 1 / IZR (10 ^ 12)) by (cbn; lra).
    set (k := / (qnorm (qmul (spin dt (sd_w st)) (qscale c (Nat.iter n (qmul (spin dt (sd_w st))) (sd_quat st)))) + 1 / IZR (10 ^ 12))).
    assert (Hk : 0 < k) by (apply Rinv_0_lt_compat; pose proof (qnorm_pos (qmul (spin dt (sd_w st)) (qscale c (Nat.iter n (qmul (spin dt (sd_w st))) (sd_quat st))))); lra).
    exists (k * c). split; [now apply Rmult_lt_0_compat |].
    change (Nat.iter (S n) (qmul (spin dt (sd_w st))) (sd_quat st)) with (qmul (spin dt (sd_w st)) (Nat.iter n (qmul (spin dt (sd_w st))) (sd_quat st))).
    generalize (Nat.iter n (qmul (spin dt (sd_w st))) (sd_quat st)) as r. generalize (spin dt (sd_w st)) as u. clearbody k. clear.
    intros [a [b d e]] [a' [b' d' e']]. unfold qscale, qmul. cbn. f_equal; [ring | apply vec3_eq; cbn; ring].
Qed.
Print Assumptions C69_quaternion_motion.
Example C69_quaternion_case : let st := create_sdf_state D3 (V3 1 0 0) None None None (Some (V3 1 2 3)) (Some (Quat (3 / 5) (V3 0 (4 / 5) 0))) : SDFState R in
  sd_dim st = D3 /\ qunit (sd_quat st).
Proof. cbn. split; [reflexivity |]. unfold qunit, Rsqr. cbn. lra. Qed.
(** but it is never exactly a unit quaternion after an update *)
Theorem C69_unit_refuted : ~ (forall s dt n st, ~ is_domain s -> sd_dim st = D3 -> qunit (sd_quat st) -> qunit (sd_quat (after s dt n st))).
Proof.
  intros H. specialize (H (sphere 1) 1 1%nat (create_sdf_state D3 (V3 0 0 0) None None None None None) (fun x => x) eq_refl).
  assert (E : qunit (Quat 1 (V3 0 0 0))) by (unfold qunit, Rsqr; cbn; lra). specialize (H E). clear E. apply qnorm_unit in H.
  change (sd_quat (after (sphere 1) 1 1 (create_sdf_state D3 (V3 0 0 0) None None None None None)))
    with (integrate_quaternion (Quat 1 (V3 0 0 0)) (V3 0 0 0) 1 : quat R) in H.
  rewrite integrate_norm in H.
  set (N := qnorm (spin 1 (V3 0 0 0)) * qnorm (Quat 1 (V3 0 0 0))) in *.
  assert (Hh : 0 < 1 / IZR (10 ^ 12)) by (cbn; lra). assert (HN : 0 <= N) by (apply Rmult_le_pos; apply qnorm_pos).
  apply (f_equal (fun x => x * (N + 1 / IZR (10 ^ 12)))) in H. unfold Rdiv at 1 in H. rewrite Rmult_assoc, Rinv_l in H by lra. lra.
Qed.
Print Assumptions C69_unit_refuted.
(** a domain does not move at all *)
Theorem C69_domain_refuted : ~ (forall s dt n st, sd_com (after s dt n st) = vadd (sd_com st) (vscale (INR n * dt) (sd_vel st))).
Proof.
  intros H. specialize (H (Domain (V3 0 0 0) (V3 1 1 0) []) 1 1%nat (create_sdf_state D2 (V3 0 0 0) (Some (V3 1 0 0)) None None None None)).
  cbn in H. inversion H. lra.
Qed.
Print Assumptions C69_domain_refuted.

(** ** C70 *)
Definition radial (p : vec3 R) : R := sqrt ((vx p)² + (vz p)²).
(** the 3-D pipe as implemented: a half-infinite pipe below its centre, whatever the height *)
Theorem C70_pipe : forall h ro ri ring st x, sd_dim st = D3 -> let p := to_local st x in
  signed_distance (hollow h ro ri ring) st x < 0 <->
  ri + 1 / IZR (10 ^ 6) < radial p < ro - 1 / IZR (10 ^ 6) /\ vy p < - (1 / IZR (10 ^ 6)).
Proof.
  intros h ro ri ring st x Hd p. unfold hollow. rewrite dist_of by discriminate. fold p. rewrite Hd. cbn [dist_local].
  change (@numt_num R NumT_R) with Num_R. change (@nsub R Num_R) with Rminus. rewrite nmax_Rmax.
  assert (E : vnorm (xz D3 p) = radial p).
  { destruct p as [a b c]. unfold radial, vnorm, vnorm2, vdot, xz. cbn [vx vy vz]. change (sqrt (a * a + c * c + 0 * 0) = sqrt (a² + c²)).
    f_equal. unfold Rsqr. ring. }
  rewrite E. set (r := radial p). rewrite faces2.
  assert (Hm : Rmax (r - ro) (ri - r) < - (1 / IZR (10 ^ 6)) <-> r - ro < - (1 / IZR (10 ^ 6)) /\ ri - r < - (1 / IZR (10 ^ 6)))
    by (unfold Rmax; destruct (Rle_dec (r - ro) (ri - r)); lra).
  rewrite Hm. lra.
Qed.
Print Assumptions C70_pipe.
(** the 2-D side view does respect the height *)
Theorem C70_side_view : forall h ro ri st x, sd_dim st = D2 -> let p := to_local st x in
  signed_distance (hollow h ro ri false) st x < 0 <->
  ri + 1 / IZR (10 ^ 6) < Rabs (vx p) < ro - 1 / IZR (10 ^ 6) /\ Rabs (vy p) + 1 / IZR (10 ^ 6) < h / 2.
Proof.
  intros h ro ri st x Hd p. unfold hollow. rewrite dist_of by discriminate. fold p. rewrite Hd. cbn [dist_local].
  change (@n2 R (@numt_num R NumT_R)) with 2. change (@numt_num R NumT_R) with Num_R. change (@nsub R Num_R) with Rminus.
  change (@ndiv R Num_R) with Rdiv. rewrite nmax_Rmax, !nabs_Rabs. set (r := Rabs (vx p)). rewrite faces2.
  assert (Hm : Rmax (r - ro) (ri - r) < - (1 / IZR (10 ^ 6)) <-> r - ro < - (1 / IZR (10 ^ 6)) /\ ri - r < - (1 / IZR (10 ^ 6)))
    by (unfold Rmax; destruct (Rle_dec (r - ro) (ri - r)); lra).
  rewrite Hm. lra.
Qed.
Print Assumptions C70_side_view.
Example C70_case : sd_dim (at_rest D3 (V3 0 0 0) 0 (Quat 1 (V3 0 0 0))) = D3 /\ 1 + 1 / IZR (10 ^ 6) < radial (V3 (3 / 2) (-100) 0) < 2 - 1 / IZR (10 ^ 6).
Proof.
  split; [reflexivity |]. unfold radial. cbn [vx vy vz]. replace ((3 / 2)² + 0²) with ((3 / 2)²) by (unfold Rsqr; ring). rewrite sqrt_Rsqr by lra. cbn. lra.
Qed.
Theorem C70_height_refuted : forall h, 0 < h < 100 -> ~ (forall ro ri ring st x, sd_dim st = D3 -> h / 2 < Rabs (vy (to_local st x)) ->
  0 <= signed_distance (hollow h ro ri ring) st x).
Proof.
  intros h Hh H.
  set (st := at_rest D3 (V3 0 0 0) 0 (Quat 1 (V3 0 0 0))).
  assert (E : to_local st (V3 (3 / 2) (-100) 0) = V3 (3 / 2) (-100) 0).
  { unfold to_local, st, at_rest. cbn [sd_dim sd_com sd_quat]. rewrite quaternion_inv_eq, quaternion_rotate_eq.
    - unfold rot3, qconj, qmul, vsub. cbn. apply vec3_eq; cbn; ring.
    - unfold qunit, qconj, Rsqr. cbn. ring. }
  specialize (H 2 1 true st (V3 (3 / 2) (-100) 0) eq_refl).
  assert (Hlt : signed_distance (hollow h 2 1 true) st (V3 (3 / 2) (-100) 0) < 0).
  { apply C70_pipe; [reflexivity |]. rewrite E. split; [exact (proj2 C70_case) | cbn; lra]. }
  rewrite E in H. cbn [vy] in H. rewrite Rabs_left in H by lra. lra.
Qed.
Print Assumptions C70_height_refuted.
