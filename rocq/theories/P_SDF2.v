(** Property theorems C89, C90: surface velocity of moving objects, distance to a cloud of material points. *)
From Coq Require Import Reals List ZArith Lra Lia Bool.
From Verif Require Import Num NumR Linalg Arrays ModelGrid ModelShape ModelMath ModelState ModelLaws ModelSDF Sums MathProofs SpecSDF SDFProofs.
Import ListNotations.
Local Open Scope R_scope.

(** ** C89 *)
(** A point attached to the object at [b] (body frame), when the object moves with its constant velocity and spin for a time [t]. *)
Definition turn (w : vec3 R) (t : R) : quat R :=
  let l := sqrt ((vx w)² + (vy w)² + (vz w)²) in
  let s := sin (l * t / 2) / l in
  Quat (cos (l * t / 2)) (V3 (s * vx w) (s * vy w) (s * vz w)).
Definition attached (st : SDFState R) (b : vec3 R) (t : R) : vec3 R :=
  let c := V3 (vx (sd_com st) + t * vx (sd_vel st)) (vy (sd_com st) + t * vy (sd_vel st)) (vz (sd_com st) + t * vz (sd_vel st)) in
  vadd c (match sd_dim st with
          | D2 => rot2 (sd_theta st + t * sd_omega st) b
          | D3 => rot3 (qmul (turn (sd_w st) t) (sd_quat st)) b
          end).
Definition has_velocity (f : R -> vec3 R) (t : R) (v : vec3 R) : Prop :=
  derivable_pt_lim (fun u => vx (f u)) t (vx v) /\ derivable_pt_lim (fun u => vy (f u)) t (vy v) /\
  derivable_pt_lim (fun u => vz (f u)) t (vz v).

Lemma lim_ext : forall f g t l, (forall u, f u = g u) -> derivable_pt_lim f t l -> derivable_pt_lim g t l.
Proof. intros f g t l E H eps He. destruct (H eps He) as [d Hd]. exists d. intros h H1 H2. rewrite <- !E. now apply Hd. Qed.
Lemma lim_val : forall f t l m, l = m -> derivable_pt_lim f t l -> derivable_pt_lim f t m.
Proof. now intros f t l m ->. Qed.
Lemma lim_add : forall f g t l m, derivable_pt_lim f t l -> derivable_pt_lim g t m -> derivable_pt_lim (fun u => f u + g u) t (l + m).
Proof. intros f g t l m Hf Hg. exact (derivable_pt_lim_plus f g t l m Hf Hg). Qed.
Lemma lim_const : forall a t, derivable_pt_lim (fun _ => a) t 0.
Proof. intros a t. exact (derivable_pt_lim_const a t). Qed.
Lemma lim_scal : forall f c t l, derivable_pt_lim f t l -> derivable_pt_lim (fun u => f u * c) t (l * c).
Proof.
  intros f c t l H. apply lim_val with (l * c + f t * 0); [ring |].
  exact (derivable_pt_lim_mult f (fun _ => c) t l 0 H (lim_const c t)).
Qed.
Lemma lim_lin : forall a b t, derivable_pt_lim (fun u => a + u * b) t b.
Proof.
  intros a b t. apply lim_val with (0 + 1 * b); [ring |].
  apply (lim_add (fun _ => a) (fun u => u * b)); [apply lim_const |]. apply (lim_scal (fun u => u)). exact (derivable_pt_lim_id t).
Qed.
Lemma lim_cos : forall a b t, derivable_pt_lim (fun u => cos (a + u * b)) t (- sin (a + t * b) * b).
Proof. intros. exact (derivable_pt_lim_comp (fun u => a + u * b) cos t b _ (lim_lin a b t) (derivable_pt_lim_cos (a + t * b))). Qed.
Lemma lim_sin : forall a b t, derivable_pt_lim (fun u => sin (a + u * b)) t (cos (a + t * b) * b).
Proof. intros. exact (derivable_pt_lim_comp (fun u => a + u * b) sin t b _ (lim_lin a b t) (derivable_pt_lim_sin (a + t * b))). Qed.

(** a rotation about the axis of [w] by the angle |w| t (Rodrigues) *)
Lemma rot3_turn : forall w t y, let l := sqrt ((vx w)² + (vy w)² + (vz w)²) in 0 < l ->
  rot3 (turn w t) y =
  V3 (vx y * cos (0 + t * l) + (vy w * vz y - vz w * vy y) / l * sin (0 + t * l) + vx w * dot w y / l² * (1 - cos (0 + t * l)))
     (vy y * cos (0 + t * l) + (vz w * vx y - vx w * vz y) / l * sin (0 + t * l) + vy w * dot w y / l² * (1 - cos (0 + t * l)))
     (vz y * cos (0 + t * l) + (vx w * vy y - vy w * vx y) / l * sin (0 + t * l) + vz w * dot w y / l² * (1 - cos (0 + t * l))).
Proof.
  intros w t y l Hl. unfold turn. fold l. cbv zeta.
  replace (0 + t * l) with (2 * (l * t / 2)) by field. rewrite cos_2a_sin, sin_2a. set (h := l * t / 2).
  pose proof (sin2_cos2 h) as Hsc. set (s := sin h) in *. set (c := cos h) in *. unfold Rsqr in Hsc.
  assert (Hl2 : l * l = vx w * vx w + vy w * vy w + vz w * vz w).
  { unfold l. rewrite sqrt_sqrt; [reflexivity |].
    pose proof (Rle_0_sqr (vx w)); pose proof (Rle_0_sqr (vy w)); pose proof (Rle_0_sqr (vz w)); lra. }
  clearbody l s c. destruct w as [a b d], y as [x y z]. cbn [vx vy vz] in *. unfold rot3, qmul, dot, Rsqr. cbn [qw qv vx vy vz].
  assert (Ha : a * a = l * l - b * b - d * d) by lra.
  assert (Hc : c * c = 1 - s * s) by lra.
  apply vec3_eq; cbn [vx vy vz].
  - transitivity (x * (c * c) + 2 * (b * z - d * y) / l * (s * c) + s * s / (l * l) * ((a * a - b * b - d * d) * x + 2 * a * (b * y + d * z))); [field; lra |].
    rewrite Hc. replace (a * (a * x + b * y + d * z)) with ((a * a) * x + a * (b * y + d * z)) by ring. rewrite Ha. field. lra.
  - assert (Hb : b * b = l * l - a * a - d * d) by lra.
    transitivity (y * (c * c) + 2 * (d * x - a * z) / l * (s * c) + s * s / (l * l) * ((b * b - a * a - d * d) * y + 2 * b * (a * x + d * z))); [field; lra |].
    rewrite Hc. replace (b * (a * x + b * y + d * z)) with ((b * b) * y + b * (a * x + d * z)) by ring. rewrite Hb. field. lra.
  - assert (Hd : d * d = l * l - a * a - b * b) by lra.
    transitivity (z * (c * c) + 2 * (a * y - b * x) / l * (s * c) + s * s / (l * l) * ((d * d - a * a - b * b) * z + 2 * d * (a * x + b * y))); [field; lra |].
    rewrite Hc. replace (d * (a * x + b * y + d * z)) with ((d * d) * z + d * (a * x + b * y)) by ring. rewrite Hd. field. lra.
Qed.

Theorem C89_velocity : forall st b, oriented st -> on (sd_dim st) (sd_com st) -> on (sd_dim st) (sd_vel st) -> on (sd_dim st) b ->
  has_velocity (attached st b) 0 (get_velocity st (attached st b 0)).
Proof.
  intros st b Ho Hc Hv Hb. unfold has_velocity, get_velocity, attached. cbv zeta. change (@numt_num R NumT_R) with Num_R.
  unfold oriented, on in *. destruct (sd_dim st).
  - unfold rot2, vadd, vsub, vmap2. cbn [vx vy vz]. change (@nadd R Num_R) with Rplus. change (@nsub R Num_R) with Rminus.
    change (@nmul R Num_R) with Rmult. change (@nopp R Num_R) with Ropp. change (@n0 R Num_R) with 0.
    set (w := sd_omega st). set (th := sd_theta st).
    split; [| split].
    + apply lim_ext with (fun u => (vx (sd_com st) + u * vx (sd_vel st)) + (cos (th + u * w) * vx b + sin (th + u * w) * (- vy b))); [intros; ring |].
      eapply lim_val; [| apply lim_add; [apply lim_lin | apply lim_add; apply lim_scal; [apply lim_cos | apply lim_sin]]]. ring.
    + apply lim_ext with (fun u => (vy (sd_com st) + u * vy (sd_vel st)) + (sin (th + u * w) * vx b + cos (th + u * w) * vy b)); [intros; ring |].
      eapply lim_val; [| apply lim_add; [apply lim_lin | apply lim_add; apply lim_scal; [apply lim_sin | apply lim_cos]]]. ring.
    + rewrite Hc, Hv, Hb. apply lim_ext with (fun _ => 0); [intros; ring |]. eapply lim_val; [| apply lim_const]. ring.
  - set (y := rot3 (sd_quat st) b).
    assert (Hcom : vadd (sd_com st) y = vadd (sd_com st) y) by reflexivity.
    set (w := sd_w st). set (l := sqrt ((vx w)² + (vy w)² + (vz w)²)).
    assert (Hy0 : rot3 (qmul (turn w 0) (sd_quat st)) b = y).
    { rewrite rot3_mul. fold y. unfold turn. fold l. cbv zeta. replace (l * 0 / 2) with 0 by field. rewrite cos_0, sin_0.
      destruct y as [a c d]. unfold rot3, qmul. cbn [qw qv vx vy vz]. unfold Rdiv. apply vec3_eq; cbn [vx vy vz]; ring. }
    rewrite Hy0.
    replace (vsub (vadd (V3 (vx (sd_com st) + 0 * vx (sd_vel st)) (vy (sd_com st) + 0 * vy (sd_vel st)) (vz (sd_com st) + 0 * vz (sd_vel st))) y) (sd_com st)) with y
      by (destruct y, (sd_com st); unfold vadd, vsub; apply vec3_eq; cbn; ring).
    destruct (Req_dec l 0) as [El | El].
    + assert (Hw : vx w = 0 /\ vy w = 0 /\ vz w = 0).
      { apply sq3_zero. apply sqrt_eq_0; [| exact El].
        pose proof (Rle_0_sqr (vx w)); pose proof (Rle_0_sqr (vy w)); pose proof (Rle_0_sqr (vz w)); lra. }
      assert (Hrot : forall u, rot3 (qmul (turn w u) (sd_quat st)) b = y).
      { intros u. rewrite rot3_mul. fold y. unfold turn. fold l. cbv zeta. rewrite El. replace (0 * u / 2) with 0 by field.
        rewrite cos_0, sin_0. destruct y as [a c d]. unfold rot3, qmul. cbn [qw qv vx vy vz]. unfold Rdiv. apply vec3_eq; cbn [vx vy vz]; ring. }
      destruct Hw as [Hw1 [Hw2 Hw3]].
      unfold vadd, vcross, vmap2. cbn [vx vy vz]. change (@nadd R Num_R) with Rplus. change (@nsub R Num_R) with Rminus.
      change (@nmul R Num_R) with Rmult. rewrite Hw1, Hw2, Hw3.
      split; [| split];
      (eapply lim_ext; [intros u; rewrite Hrot; reflexivity |]); (eapply lim_val; [| apply lim_add; [apply lim_lin | apply lim_const]]); ring.
    + assert (Hl : 0 < l) by (destruct (sqrt_pos ((vx w)² + (vy w)² + (vz w)²)) as [Hl | Hl]; [exact Hl | now rewrite Hl in El]).
      assert (Hrot : forall u, rot3 (qmul (turn w u) (sd_quat st)) b = rot3 (turn w u) y) by (intros u; now rewrite rot3_mul).
      unfold vadd, vcross, vmap2. cbn [vx vy vz]. change (@nadd R Num_R) with Rplus. change (@nsub R Num_R) with Rminus.
      change (@nmul R Num_R) with Rmult.
      split; [| split].
      * apply lim_ext with (fun u => (vx (sd_com st) + u * vx (sd_vel st)) +
          (vx w * dot w y / l² + (cos (0 + u * l) * (vx y - vx w * dot w y / l²) + sin (0 + u * l) * ((vy w * vz y - vz w * vy y) / l)))).
        { intros u. rewrite Hrot, rot3_turn by exact Hl. cbn [vx vy vz]. fold l. f_equal. ring. }
        eapply lim_val; [| apply lim_add; [apply lim_lin | apply lim_add; [apply lim_const | apply lim_add; apply lim_scal; [apply lim_cos | apply lim_sin]]]].
        replace (0 + 0 * l) with 0 by ring. rewrite cos_0, sin_0. unfold Rsqr at 1. field. exact El.
      * apply lim_ext with (fun u => (vy (sd_com st) + u * vy (sd_vel st)) +
          (vy w * dot w y / l² + (cos (0 + u * l) * (vy y - vy w * dot w y / l²) + sin (0 + u * l) * ((vz w * vx y - vx w * vz y) / l)))).
        { intros u. rewrite Hrot, rot3_turn by exact Hl. cbn [vx vy vz]. fold l. f_equal. ring. }
        eapply lim_val; [| apply lim_add; [apply lim_lin | apply lim_add; [apply lim_const | apply lim_add; apply lim_scal; [apply lim_cos | apply lim_sin]]]].
        replace (0 + 0 * l) with 0 by ring. rewrite cos_0, sin_0. unfold Rsqr at 1. field. exact El.
      * apply lim_ext with (fun u => (vz (sd_com st) + u * vz (sd_vel st)) +
          (vz w * dot w y / l² + (cos (0 + u * l) * (vz y - vz w * dot w y / l²) + sin (0 + u * l) * ((vx w * vy y - vy w * vx y) / l)))).
        { intros u. rewrite Hrot, rot3_turn by exact Hl. cbn [vx vy vz]. fold l. f_equal. ring. }
        eapply lim_val; [| apply lim_add; [apply lim_lin | apply lim_add; [apply lim_const | apply lim_add; apply lim_scal; [apply lim_cos | apply lim_sin]]]].
        replace (0 + 0 * l) with 0 by ring. rewrite cos_0, sin_0. unfold Rsqr at 1. field. exact El.
Qed.
Print Assumptions C89_velocity.
(** every point of the object is attached somewhere *)
Theorem C89_every_point : forall st x, oriented st -> attached st (to_local st x) 0 = x.
Proof.
  intros st x Ho. unfold attached, to_local, oriented in *. cbv zeta. change (@numt_num R NumT_R) with Num_R. destruct (sd_dim st).
  - destruct x as [a b c], (sd_com st) as [d e f]. unfold rot2, rotation_2d_inv, vadd, vsub, vmap2. cbn.
    rewrite !Rmult_0_l, !Rplus_0_r. pose proof (sin2_cos2 (sd_theta st)) as E. unfold Rsqr in E. set (s := sin _) in *. set (k := cos _) in *.
    apply vec3_eq; cbn.
    + transitivity (d + (s * s + k * k) * (a - d)); [ring | rewrite E; ring].
    + transitivity (e + (s * s + k * k) * (b - e)); [ring | rewrite E; ring].
    + ring.
  - rewrite quaternion_inv_eq, quaternion_rotate_eq by (apply qunit_conj; auto). rewrite rot3_mul, rot3_conj' by auto.
    set (y := vsub x (sd_com st)).
    assert (E : rot3 (turn (sd_w st) 0) y = y).
    { unfold turn. cbv zeta. set (l := sqrt _). replace (l * 0 / 2) with 0 by field. rewrite cos_0, sin_0.
      destruct y as [a c d]. unfold rot3, qmul. cbn [qw qv vx vy vz]. unfold Rdiv. apply vec3_eq; cbn [vx vy vz]; ring. }
    rewrite E. unfold y. destruct x as [a b c], (sd_com st) as [d e f]. unfold vadd, vsub, vmap2. apply vec3_eq; cbn; ring.
Qed.
Print Assumptions C89_every_point.
Example C89_case : let st := create_sdf_state D3 (V3 1 2 3) (Some (V3 1 0 0)) None None (Some (V3 0 0 2)) (Some (Quat (3 / 5) (V3 (4 / 5) 0 0))) : SDFState R in
  oriented st /\ on (sd_dim st) (sd_com st).
Proof. cbn. unfold qunit, Rsqr. cbn. split; [lra | exact I]. Qed.

(** ** C90 *)
Lemma fold_max_ge : forall (l : list R) a, a <= fold_left nmax l a /\ (forall x, In x l -> x <= fold_left nmax l a).
Proof.
  induction l as [| y l IH]; intros a; cbn [fold_left].
  - split; [lra | intros x []].
  - rewrite nmax_Rmax. destruct (IH (Rmax a y)) as [H1 H2]. split.
    + pose proof (Rmax_l a y). lra.
    + intros x [<- | Hx]; [pose proof (Rmax_r a y); lra | auto].
Qed.
Lemma fold_max_in : forall (l : list R) a, fold_left nmax l a = a \/ In (fold_left nmax l a) l.
Proof.
  induction l as [| y l IH]; intros a; cbn [fold_left]; [now left |].
  rewrite nmax_Rmax. destruct (IH (Rmax a y)) as [E | E]; [| now right; right].
  rewrite E. unfold Rmax. destruct (Rle_dec a y); [right; now left | now left].
Qed.
Lemma lmax_ge : forall (l : list R) x, In x l -> x <= lmax l.
Proof. intros [| a l] x H; [destruct H |]. destruct H as [<- | H]; cbn [lmax]; [exact (proj1 (fold_max_ge l a)) | exact (proj2 (fold_max_ge l a) x H)]. Qed.
Lemma lmax_in : forall l : list R, l <> [] -> In (lmax l) l.
Proof. intros [| a l] H; [congruence |]. cbn [lmax]. destruct (fold_max_in l a) as [E | E]; [left; now symmetry | now right]. Qed.
Lemma lmax_scaled : forall k (l : list R), 0 < k -> l <> [] -> lmax (map (fun e => - k * e) l) = - k * lmin l.
Proof.
  intros k l Hk Hl. apply Rle_antisym.
  - assert (H : In (lmax (map (fun e => - k * e) l)) (map (fun e => - k * e) l)) by (apply lmax_in; destruct l; [congruence | discriminate]).
    apply in_map_iff in H as [x [<- Hx]]. pose proof (lmin_le l x Hx). nra.
  - apply lmax_ge. apply in_map with (f := fun e => - k * e). now apply lmin_in.
Qed.
Definition total (l : list R) : R := fold_right Rplus 0 l.
Lemma total_exp_pos : forall (l : list R), 0 <= total (map exp l).
Proof. induction l as [| x l IH]; cbn [map total fold_right] in *; [lra | pose proof (exp_pos x); unfold total in IH; lra]. Qed.
Lemma total_exp_bounds : forall (l : list R), (forall x, In x l -> x <= 0) -> total (map exp l) <= INR (length l).
Proof.
  induction l as [| x l IH]; intros H; [cbn; lra |]. cbn [map total fold_right length]. rewrite S_INR.
  assert (Hx : exp x <= 1) by (rewrite <- exp_0; destruct (H x (or_introl eq_refl)) as [Hl | ->]; [left; now apply exp_increasing | lra]).
  specialize (IH (fun y Hy => H y (or_intror Hy))). unfold total in IH. lra.
Qed.
Lemma total_exp_one : forall (l : list R), In 0 l -> 1 <= total (map exp l).
Proof.
  induction l as [| x l IH]; intros H; [destruct H |]. cbn [map total fold_right]. destruct H as [-> | H].
  - rewrite exp_0. pose proof (total_exp_pos l) as H. unfold total in H. lra.
  - specialize (IH H). unfold total in IH. pose proof (exp_pos x). lra.
Qed.
Lemma logsumexp_eq : forall l : list R, logsumexp l = lmax l + ln (total (map exp (map (fun x => x - lmax l) l))).
Proof.
  intros l. unfold logsumexp. rewrite map_map. reflexivity.
Qed.

(** sharpened minimum of the distances to the points, each a ball of the point's volume *)
Theorem C90_cloud : forall k d pts x, 1 / 1000 < k -> pts <> [] ->
  let ds := map (fun pv => edist x (fst pv) - point_radius d (snd pv)) pts in
  (forall e, In e ds -> cloud_distance k d pts x <= e) /\
  (exists e, In e ds /\ e - ln (INR (length pts)) / k <= cloud_distance k d pts x).
Proof.
  intros k d pts x Hk Hp ds.
  assert (Eds : cloud_dists d pts x = ds).
  { unfold cloud_dists, ds. apply map_ext. intros pv. change (@numt_num R NumT_R) with Num_R. now rewrite edist_vnorm. }
  assert (Hds : ds <> []) by (unfold ds; destruct pts; [congruence | discriminate]).
  assert (Elen : length ds = length pts) by (unfold ds; apply map_length).
  assert (Ec : cloud_distance k d pts x = lmin ds - ln (total (map exp (map (fun e => e - - k * lmin ds) (map (fun e => - k * e) ds)))) / k).
  { unfold cloud_distance. change (@numt_num R NumT_R) with Num_R. change (nltb (lit 1 1000) k) with (Rltb (1 / 1000) k).
    assert (Hb : Rltb (1 / 1000) k = true) by (unfold Rltb; destruct (Rlt_dec (1 / 1000) k); [reflexivity | lra]). rewrite Hb, Eds.
    change (- logsumexp (map (fun e => - k * e) ds) / k = lmin ds - ln (total (map exp (map (fun e => e - - k * lmin ds) (map (fun e => - k * e) ds)))) / k).
    rewrite logsumexp_eq, lmax_scaled by (auto; lra). field. lra. }
  set (ys := map (fun e => e - - k * lmin ds) (map (fun e => - k * e) ds)) in *.
  assert (Hy0 : In 0 ys).
  { unfold ys. replace 0 with (- k * lmin ds - - k * lmin ds) by ring. apply in_map with (f := fun e => e - - k * lmin ds).
    apply in_map with (f := fun e => - k * e). now apply lmin_in. }
  assert (Hyn : forall y, In y ys -> y <= 0).
  { intros y Hy. unfold ys in Hy. apply in_map_iff in Hy as [z [<- Hz]]. apply in_map_iff in Hz as [e [<- He]].
    pose proof (lmin_le ds e He). nra. }
  pose proof (total_exp_one ys Hy0) as H1. pose proof (total_exp_bounds ys Hyn) as H2.
  assert (Hlen : length ys = length pts) by (unfold ys; now rewrite !map_length). rewrite Hlen in H2.
  assert (Hln0 : 0 <= ln (total (map exp ys))) by (rewrite <- ln_1; destruct H1 as [H1 | <-]; [left; apply ln_increasing; lra | lra]).
  assert (Hlnn : ln (total (map exp ys)) <= ln (INR (length pts))) by (destruct H2 as [H2 | ->]; [left; apply ln_increasing; lra | lra]).
  assert (Hik : 0 < / k) by (apply Rinv_0_lt_compat; lra).
  split.
  - intros e He. rewrite Ec. pose proof (lmin_le ds e He). unfold Rdiv. pose proof (Rmult_le_pos _ _ Hln0 (Rlt_le _ _ Hik)). lra.
  - exists (lmin ds). split; [now apply lmin_in |]. rewrite Ec. unfold Rdiv. pose proof (Rmult_le_compat_r _ _ _ (Rlt_le _ _ Hik) Hlnn). lra.
Qed.
Print Assumptions C90_cloud.
(** so every point inside one of the balls is inside the cloud, and nothing further out than ln n / k is *)
Theorem C90_sign : forall k d pts x, 1 / 1000 < k -> pts <> [] ->
  (forall p v, In (p, v) pts -> edist x p < point_radius d v -> cloud_distance k d pts x < 0) /\
  ((forall p v, In (p, v) pts -> point_radius d v + ln (INR (length pts)) / k <= edist x p) -> 0 <= cloud_distance k d pts x).
Proof.
  intros k d pts x Hk Hp. destruct (C90_cloud k d pts x Hk Hp) as [H1 [e [He H2]]]. split.
  - intros p v Hin Hlt. specialize (H1 (edist x p - point_radius d v)). apply Rle_lt_trans with (edist x p - point_radius d v); [| lra].
    apply H1. apply in_map_iff. exists (p, v). now split.
  - intros Hall. apply in_map_iff in He as [[p v] [<- Hin]]. specialize (Hall p v Hin). cbn [fst snd] in H2. lra.
Qed.
Print Assumptions C90_sign.
Example C90_case : 1 / 1000 < 1000 /\ [(V3 0 0 0, 1); (V3 1 0 0, 1)] <> [].
Proof. split; [lra | discriminate]. Qed.
(** the balls have the volume (in 2-D: the area, up to 1e-12 pi) of their points *)
Theorem C90_radius : forall v, 0 < v ->
  4 / 3 * PI * (point_radius D3 v) ^ 3 = v /\ PI * (point_radius D2 v)² = v + PI / IZR (10 ^ 12).
Proof.
  intros v Hv. pose proof PI_RGT_0 as Hpi.
  assert (Hh : 0 < 1 / IZR (10 ^ 12)) by (cbn; lra).
  split; unfold point_radius.
  - change (npow (n3 * v / (nofZ 4 * npi))%num (n1 / n3)%num) with (Rpower (3 * v / (4 * PI)) (1 / 3)).
    assert (Hq : 0 < 3 * v / (4 * PI)) by (apply Rdiv_lt_0_compat; lra).
    rewrite <- Rpower_pow by apply exp_pos. rewrite Rpower_mult.
    replace (1 / 3 * INR 3) with 1 by (cbn; field). rewrite Rpower_1 by exact Hq. field. lra.
  - change (nsqrt (v / npi + lit 1 (10 ^ 12))%num) with (sqrt (v / PI + 1 / IZR (10 ^ 12))).
    assert (Hq : 0 < v / PI) by (apply Rdiv_lt_0_compat; lra).
    rewrite Rsqr_sqrt by lra. generalize dependent (IZR (10 ^ 12)). intros e He.
    assert (He0 : e <> 0) by (intros ->; unfold Rdiv in He; rewrite Rinv_0 in He; lra). field. split; [exact He0 | lra].
Qed.
Print Assumptions C90_radius.
