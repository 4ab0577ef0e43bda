(** Property theorems C129: the surfaces of obstacles as they are drawn. *)
From Coq Require Import List ZArith Bool String Reals Lra Lia.
From Flocq Require Import Core.Raux.
From Verif Require Import Num NumR Linalg Arrays ModelGrid ModelShape ModelState ModelSDF ModelGen ModelIO ModelVis Sums.
Import ListNotations.
Local Open Scope R_scope.

(** the sampled box: from the start, of size 1.05 end - 0.95 start *)
Definition size (d : Dim) (s e : vec3 R) : list R := match d with
  | D2 => [21/20 * vx e - 19/20 * vx s; 21/20 * vy e - 19/20 * vy s]
  | D3 => [21/20 * vx e - 19/20 * vx s; 21/20 * vy e - 19/20 * vy s; 21/20 * vz e - 19/20 * vz s] end.
(** the spacing that cuts its longest side in [n] parts *)
Definition spacing (d : Dim) (s e : vec3 R) (n : Z) (h : R) : Prop := (exists L, In L (size d s e) /\ (forall M, In M (size d s e) -> M <= L) /\ h * IZR n = L) /\ 0 < h.
Definition positive (d : Dim) (s e : vec3 R) : Prop := forall L, In L (size d s e) -> 0 < L.

Lemma lmax_in (l : list R) x : forall a, lmax (x :: l) = a -> In a (x :: l) /\ forall y, In y (x :: l) -> y <= a.
Proof.
  unfold lmax. revert x. induction l as [|z l IH]; intros x a E.
  - cbn in E. subst. split; [now left|]. intros y [<-|[]]. lra.
  - cbn [fold_left] in E. destruct (IH (nmax x z) a E) as [I L]. unfold nmax in *. rnum. destruct (Rltb x z) eqn:C.
    + apply Rltb_true in C. split; [right; exact I|]. intros y [<-|Hy]; [|apply L; exact Hy]. specialize (L z (or_introl eq_refl)). lra.
    + apply Rltb_false in C. split; [destruct I; [left; auto|right; right; auto]|]. intros y [<-|[<-|Hy]]; [apply L; now left| |apply L; now right].
      specialize (L x (or_introl eq_refl)). lra.
Qed.
Lemma extent_axes d (s e : vec3 R) : axes d (vis_extent s e) = size d s e.
Proof. unfold vis_extent, size, axes, vsub, vscale, lit. destruct d; cbn [vx vy vz]; rnum; repeat (f_equal; try lra). Qed.
Lemma step_spacing d s e n : positive d s e -> (0 < n)%Z -> spacing d s e n (vis_step d s e n).
Proof.
  intros P N. unfold vis_step. rewrite extent_axes. assert (Nn : 0 < IZR n) by (apply IZR_lt; lia).
  assert (Q : exists x l, size d s e = x :: l) by (unfold size; destruct d; eauto). destruct Q as (x & l & Q).
  destruct (lmax_in l x _ eq_refl) as [I L]. rewrite <- Q in *. remember (lmax (size d s e)) as m. clear Heqm. rnum. split.
  - exists m. split; [exact I|]. split; [exact L|]. field. lra.
  - apply Rdiv_lt_0_compat; [apply P, I|exact Nn].
Qed.

(** C order *)
Lemma nth_error_flat {A B} (f : A -> list B) m : forall l j k a, (forall x, In x l -> List.length (f x) = m) -> nth_error l j = Some a -> (k < m)%nat ->
  nth_error (flat_map f l) (j * m + k) = nth_error (f a) k.
Proof.
  induction l as [|x l IH]; intros j k a Hm Hj Hk; [destruct j; discriminate|]. cbn [flat_map]. destruct j as [|j].
  - injection Hj as ->. cbn. apply nth_error_app1. rewrite Hm by now left. exact Hk.
  - rewrite nth_error_app2 by (rewrite Hm by (now left); cbn; lia). rewrite (Hm x) by now left.
    replace (S j * m + k - m)%nat with (j * m + k)%nat by (cbn; lia). apply IH; [intros; apply Hm; now right|exact Hj|exact Hk].
Qed.
Lemma flat_len {A B} (f : A -> list B) m : forall l, (forall x, In x l -> List.length (f x) = m) -> List.length (flat_map f l) = (List.length l * m)%nat.
Proof. induction l as [|x l IH]; intros Hm; [reflexivity|]. cbn. rewrite app_length, (Hm x) by now left. rewrite IH by (intros; apply Hm; now right). reflexivity. Qed.
Lemma zrange_err n i : (i < n)%nat -> nth_error (zrange 0 n) i = Some (Z.of_nat i).
Proof. intros L. rewrite (nth_error_nth' _ 0%Z) by (rewrite zrange_length; exact L). rewrite zrange_nth by exact L. f_equal. Qed.
(** where sample (i, j, k) is: at start plus that many spacings, in the position the array of values is reshaped to,
    and where the contour and surface coordinates (i, j, k) are drawn *)
Theorem C129_lattice : forall d s e n l, vis_samples d s e n = Ok l -> let c := vis_counts d s e n in let h := vis_step d s e n in
  List.length l = Z.to_nat (vx c * vy c * vz c) /\
  forall i j k, (0 <= i < vx c)%Z -> (0 <= j < vy c)%Z -> (0 <= k < vz c)%Z -> exists p, nth_error l (Z.to_nat ((i * vy c + j) * vz c + k)) = Some p /\
    vx p = vx s + IZR i * h /\ vy p = vy s + IZR j * h /\ vz p = (match d with D2 => 0 | D3 => vz s + IZR k * h end) /\
    match d with D2 => p = contour_point s h (IZR i, IZR j) | D3 => p = vadd s (vscale h (V3 (IZR i) (IZR j) (IZR k))) /\ p = rr_vertex s h (V3 (IZR i) (IZR j) (IZR k)) end.
Proof.
  intros d s e n l E c h. unfold vis_samples in E. fold c h in E. clearbody c h. destruct (_ || _)%bool eqn:B; [discriminate|]. injection E as <-.
  apply orb_false_elim in B as [B Bz]. apply orb_false_elim in B as [Bx By]. apply Z.ltb_ge in Bx, By, Bz.
  assert (L2 : forall i, In i (zrange 0 (Z.to_nat (vx c))) -> List.length (flat_map (fun j => map (fun k => vis_point d s h (V3 i j k)) (zrange 0 (Z.to_nat (vz c)))) (zrange 0 (Z.to_nat (vy c)))) = (Z.to_nat (vy c) * Z.to_nat (vz c))%nat).
  { intros i _. rewrite (flat_len _ (Z.to_nat (vz c))); [now rewrite zrange_length|]. intros; now rewrite map_length, zrange_length. }
  split.
  - rewrite (flat_len _ (Z.to_nat (vy c) * Z.to_nat (vz c))) by exact L2. rewrite zrange_length, !Z2Nat.inj_mul by nia. lia.
  - intros i j k Hi Hj Hk.
    replace (Z.to_nat ((i * vy c + j) * vz c + k)) with (Z.to_nat i * (Z.to_nat (vy c) * Z.to_nat (vz c)) + (Z.to_nat j * Z.to_nat (vz c) + Z.to_nat k))%nat
      by (rewrite Z2Nat.inj_add, Z2Nat.inj_mul, Z2Nat.inj_add, Z2Nat.inj_mul by nia; lia).
    rewrite (nth_error_flat _ _ _ _ _ i L2).
    2:{ rewrite zrange_err by lia. f_equal. lia. }
    2:{ assert (Z.to_nat j < Z.to_nat (vy c))%nat by lia. assert (Z.to_nat k < Z.to_nat (vz c))%nat by lia. nia. }
    rewrite (nth_error_flat _ (Z.to_nat (vz c)) _ _ _ j).
    2:{ intros; now rewrite map_length, zrange_length. }
    2:{ rewrite zrange_err by lia. f_equal. lia. }
    2:{ lia. }
    erewrite map_nth_error by (rewrite zrange_err by lia; reflexivity). eexists. split; [reflexivity|]. rewrite Z2Nat.id by lia.
    unfold vis_point, vtrunc, contour_point, vadd, vscale, rr_vertex. destruct d; cbn [vx vy vz fst snd]; rnum; repeat split; try ring; try (apply f_equal3; ring).
Qed.
(** the longest side gets the number of samples asked for, the other sides no more *)
Lemma count_bounds L h : 0 < h -> let c := nceil (L / h) in (IZR c - 1) * h < L /\ L <= IZR c * h.
Proof.
  intros Hh c. change c with (Zceil (L / h)). pose proof (Zceil_ub (L / h)) as U. pose proof (Zceil_lb (L / h)) as D. split.
  - apply (Rmult_lt_compat_r h) in D; [|exact Hh]. rewrite Rmult_plus_distr_r in D. assert (E : L / h * h = L) by (field; lra). lra.
  - apply (Rmult_le_compat_r h) in U; [|lra]. assert (E : L / h * h = L) by (field; lra). lra.
Qed.
Definition counts (d : Dim) (c : vec3 Z) : list Z := match d with D2 => [vx c; vy c] | D3 => [vx c; vy c; vz c] end.
Lemma counts_size d s e n : Forall2 (fun c L => c = nceil (L / vis_step d s e n)) (counts d (vis_counts d s e n)) (size d s e).
Proof.
  pose proof (extent_axes d s e) as A. unfold vis_counts. destruct d; cbn [axes] in A; unfold counts; cbn [vx vy vz]; rewrite <- A; repeat constructor.
Qed.
Theorem C129_resolution : forall d s e n, positive d s e -> (0 < n)%Z -> In n (counts d (vis_counts d s e n)) /\
  (forall m, In m (counts d (vis_counts d s e n)) -> (1 <= m <= n)%Z) /\ exists l, vis_samples d s e n = Ok l.
Proof.
  intros d s e n P N. destruct (step_spacing d s e n P N) as ((L & IL & ML & EL) & Hh). pose proof (counts_size d s e n) as F. set (h := vis_step d s e n) in *.
  assert (Nn : 0 < IZR n) by (apply IZR_lt; lia).
  assert (K : forall m, In m (counts d (vis_counts d s e n)) -> exists M, In M (size d s e) /\ m = nceil (M / h)).
  { intros m Hm. clear -F Hm. induction F as [|c M cs Ms E F IH]; [destruct Hm|]. destruct Hm as [<-|Hm]; [exists M; split; [now left|exact E]|]. destruct (IH Hm) as (M' & I & E'). exists M'. split; [now right|exact E']. }
  assert (K' : forall M, In M (size d s e) -> In (nceil (M / h)) (counts d (vis_counts d s e n))).
  { intros M HM. clear -F HM. induction F as [|c M' cs Ms E F IH]; [destruct HM|]. destruct HM as [<-|HM]; [left; now symmetry|right; auto]. }
  assert (B : forall m, In m (counts d (vis_counts d s e n)) -> (1 <= m <= n)%Z).
  { intros m Hm. destruct (K m Hm) as (M & IM & ->). destruct (count_bounds M h Hh) as [B1 B2]. specialize (ML M IM). pose proof (P M IM) as PM. split.
    - apply Z.lt_pred_le. apply lt_IZR. change (IZR (Z.pred 1)) with 0. apply (Rmult_lt_reg_r h); [exact Hh|]. rewrite Rmult_0_l. lra.
    - apply Z.lt_succ_r. apply lt_IZR. rewrite succ_IZR. apply (Rmult_lt_reg_r h); [exact Hh|]. lra. }
  split; [|split; [exact B|]].
  - specialize (K' L IL). replace (nceil (L / h)) with n in K'; [exact K'|]. replace (L / h) with (IZR n) by (rewrite <- EL; field; lra). symmetry. apply (Zceil_IZR n).
  - unfold vis_samples. destruct (_ || _)%bool eqn:E; [|eauto]. exfalso. unfold counts in B. apply orb_prop in E as [E|E]; [apply orb_prop in E as [E|E]|]; apply Z.ltb_lt in E.
    + assert (1 <= vx (vis_counts d s e n) <= n)%Z by (apply B; destruct d; cbn; auto). lia.
    + assert (1 <= vy (vis_counts d s e n) <= n)%Z by (apply B; destruct d; cbn; auto). lia.
    + destruct d; [cbn in E; lia|]. assert (1 <= vz (vis_counts D3 s e n) <= n)%Z by (apply B; cbn; auto). lia.
Qed.

(** ** Coverage *)
Lemma nearest c h s L y : 0 < h -> c = nceil (L / h) -> 0 < L -> s <= y <= s + L - h \/ (s <= y <= s + h / 2) -> exists i, (0 <= i < c)%Z /\ Rabs (y - (s + IZR i * h)) <= h / 2.
Proof.
  intros Hh -> HL Hy. destruct (count_bounds L h Hh) as [B1 B2].
  assert (C1 : (1 <= nceil (L / h)%R)%Z). { apply Z.lt_pred_le, lt_IZR. change (IZR (Z.pred 1)) with 0. apply (Rmult_lt_reg_r h); lra. }
  destruct (Rle_dec y (s + h / 2)) as [Hs|Hs].
  - exists 0%Z. split; [lia|]. apply Rabs_le. destruct Hy; lra.
  - exists (Zfloor ((y - s) / h + 1 / 2)). pose proof (Zfloor_lb ((y - s) / h + 1 / 2)) as F1. pose proof (Zfloor_ub ((y - s) / h + 1 / 2)) as F2. set (i := Zfloor _) in *.
    assert (E : (y - s) / h * h = y - s) by (field; lra).
    assert (G1 : IZR i * h <= y - s + h / 2) by (apply (Rmult_le_compat_r h) in F1; [|lra]; rewrite Rmult_plus_distr_r, E in F1; lra).
    assert (G2 : y - s + h / 2 < IZR i * h + h) by (apply (Rmult_lt_compat_r h) in F2; [|lra]; rewrite !Rmult_plus_distr_r, E in F2; lra).
    split; [|apply Rabs_le; lra]. split.
    + apply Zfloor_lub. change (IZR 0) with 0. assert (0 < (y - s) / h) by (apply Rdiv_lt_0_compat; lra). lra.
    + apply lt_IZR. apply (Rmult_lt_reg_r h); [exact Hh|]. assert (Hy' : y <= s + L - h) by (destruct Hy; lra). lra.
Qed.
(** a coordinate the samples reach *)
Definition reached (s e h y : R) : Prop := s <= y <= 21/20 * e + s / 20 - h.
(** a thing thicker than the spacing and within reach is seen: if an obstacle fills a ball of radius r with 4 r^2 >= 3 h^2 then some sample is inside it *)
Theorem C129_seen_partial : forall d s e n (inside : vec3 R -> Prop) c r, positive d s e -> (0 < n)%Z -> 0 <= r -> 3 * (vis_step d s e n * vis_step d s e n) <= 4 * (r * r) ->
  reached (vx s) (vx e) (vis_step d s e n) (vx c) -> reached (vy s) (vy e) (vis_step d s e n) (vy c) ->
  match d with D2 => vz c = 0 | D3 => reached (vz s) (vz e) (vis_step d s e n) (vz c) end ->
  (forall x, vnorm (vsub x c) <= r -> inside x) -> exists l x, vis_samples d s e n = Ok l /\ In x l /\ inside x.
Proof.
  intros d s e n inside c r P N Hr Hs Rx Ry Rz In_. destruct (C129_resolution d s e n P N) as (_ & _ & l & El). destruct (step_spacing d s e n P N) as (_ & Hh).
  destruct (C129_lattice d s e n l El) as [_ Lat]. pose proof (counts_size d s e n) as F. set (h := vis_step d s e n) in *.
  assert (X : forall ci Li si ei y, ci = nceil (Li / h) -> Li = 21/20 * ei - 19/20 * si -> 0 < Li -> reached si ei h y -> exists i, (0 <= i < ci)%Z /\ Rabs (y - (si + IZR i * h)) <= h / 2).
  { intros ci Li si ei y Ec EL PL Ry'. apply (nearest ci h si Li y Hh Ec PL). left. unfold reached in Ry'. lra. }
  set (m := vis_counts d s e n) in *.
  assert (Q : exists i j k, (0 <= i < vx m)%Z /\ (0 <= j < vy m)%Z /\ (0 <= k < vz m)%Z /\ Rabs (vx c - (vx s + IZR i * h)) <= h / 2 /\ Rabs (vy c - (vy s + IZR j * h)) <= h / 2 /\
    Rabs (vz c - match d with D2 => 0 | D3 => vz s + IZR k * h end) <= h / 2).
  { unfold counts, size in F. unfold positive, size in P. destruct d.
    - inversion F as [|? ? ? ? E1 F1]; subst. inversion F1 as [|? ? ? ? E2 _]; subst.
      destruct (X _ _ _ _ (vx c) E1 eq_refl ltac:(apply P; cbn; auto) Rx) as (i & Hi & Ai). destruct (X _ _ _ _ (vy c) E2 eq_refl ltac:(apply P; cbn; auto) Ry) as (j & Hj & Aj).
      exists i, j, 0%Z. split; [exact Hi|]. split; [exact Hj|]. split; [cbn; lia|]. split; [exact Ai|]. split; [exact Aj|]. rewrite Rz, Rminus_0_r, Rabs_R0. lra.
    - inversion F as [|? ? ? ? E1 F1]; subst. inversion F1 as [|? ? ? ? E2 F2]; subst. inversion F2 as [|? ? ? ? E3 _]; subst.
      destruct (X _ _ _ _ (vx c) E1 eq_refl ltac:(apply P; cbn; auto) Rx) as (i & Hi & Ai). destruct (X _ _ _ _ (vy c) E2 eq_refl ltac:(apply P; cbn; auto) Ry) as (j & Hj & Aj).
      destruct (X _ _ _ _ (vz c) E3 eq_refl ltac:(apply P; cbn; auto) Rz) as (k & Hk & Ak). exists i, j, k. auto 10. }
  destruct Q as (i & j & k & Hi & Hj & Hk & Ai & Aj & Ak). destruct (Lat i j k Hi Hj Hk) as (p & Hp & Px & Py & Pz & _).
  exists l, p. split; [exact El|]. split; [eapply nth_error_In, Hp|]. apply In_. unfold vnorm, vnorm2, vdot, vsub. cbn [vx vy vz]. rnum. rewrite Px, Py, Pz.
  rewrite <- (sqrt_Rsqr r Hr). apply sqrt_le_1_alt.
  assert (S2 : forall a, Rabs a <= h / 2 -> a * a <= h / 2 * (h / 2)).
  { intros a Ha. rewrite <- (Rabs_pos_eq (a * a)) by apply Rle_0_sqr. rewrite Rabs_mult. pose proof (Rabs_pos a). nra. }
  apply S2 in Ai, Aj, Ak. unfold Rsqr. set (zz := match d with D2 => 0 | D3 => _ end) in *.
  replace ((vx s + IZR i * h - vx c) * (vx s + IZR i * h - vx c)) with ((vx c - (vx s + IZR i * h)) * (vx c - (vx s + IZR i * h))) by ring.
  replace ((vy s + IZR j * h - vy c) * (vy s + IZR j * h - vy c)) with ((vy c - (vy s + IZR j * h)) * (vy c - (vy s + IZR j * h))) by ring.
  replace ((zz - vz c) * (zz - vz c)) with ((vz c - zz) * (vz c - zz)) by ring. nra.
Qed.
(** the samples reach the whole of a domain whose coordinates are positive enough *)
Lemma reach_all : forall s e h y, 20 * h <= s + e -> s <= y <= e -> reached s e h y.
Proof. intros s e h y Hh Hy. unfold reached. lra. Qed.
Theorem C129_domain_partial : forall d s e n (inside : vec3 R -> Prop) c r, positive d s e -> (0 < n)%Z -> 0 <= r ->
  let h := vis_step d s e n in 3 * (h * h) <= 4 * (r * r) -> 20 * h <= vx s + vx e -> 20 * h <= vy s + vy e -> (d = D3 -> 20 * h <= vz s + vz e) ->
  vx s <= vx c <= vx e -> vy s <= vy c <= vy e -> match d with D2 => vz c = 0 | D3 => vz s <= vz c <= vz e end ->
  (forall x, vnorm (vsub x c) <= r -> inside x) -> exists l x, vis_samples d s e n = Ok l /\ In x l /\ inside x.
Proof.
  intros d s e n inside c r P N Hr h Hs Hx Hy Hz Cx Cy Cz I. apply (C129_seen_partial d s e n inside c r P N Hr Hs); [now apply reach_all|now apply reach_all| |exact I].
  destruct d; [exact Cz|apply reach_all; auto].
Qed.
(** but where start + end is negative no sample comes near the end of the domain, however many there are: what is there is not drawn *)
Theorem C129_seen_refuted : forall d s e n l, positive d s e -> (0 < n)%Z -> vx s + vx e < 0 -> vis_samples d s e n = Ok l ->
  forall x, In x l -> vx x < vx e - Rabs (vx s + vx e) / 20.
Proof.
  intros d s e n l P N Neg El x Hx. destruct (step_spacing d s e n P N) as (_ & Hh). pose proof (counts_size d s e n) as F.
  unfold vis_samples in El. set (h := vis_step d s e n) in *.
  assert (Ei : vx (vis_counts d s e n) = nceil ((21/20 * vx e - 19/20 * vx s) / h)) by (unfold counts, size in F; destruct d; inversion F; assumption).
  set (m := vis_counts d s e n) in *. clearbody m h. clear F. destruct (_ || _)%bool; [discriminate|]. injection El as <-.
  apply in_flat_map in Hx as (i & Hi & Hx). apply in_flat_map in Hx as (j & _ & Hx). apply in_map_iff in Hx as (k & <- & _).
  rewrite Ei in Hi. apply (In_nth _ _ 0%Z) in Hi as (a & La & <-). rewrite zrange_length in La. rewrite zrange_nth by exact La.
  destruct (count_bounds (21/20 * vx e - 19/20 * vx s) h Hh) as [B1 _]. set (q := nceil _) in *.
  assert (Hq : IZR (0 + Z.of_nat a) <= IZR q - 1) by (rewrite <- minus_IZR; apply IZR_le; lia).
  assert (V : vx (vis_point d s h (V3 (0 + Z.of_nat a)%Z j k)) = IZR (0 + Z.of_nat a) * h + vx s) by (unfold vis_point, vtrunc; destruct d; reflexivity).
  rewrite V. rewrite (Rabs_left _ Neg). nra.
Qed.
(** a whole disc of the domain that no sample sees *)
Theorem C129_disc_refuted : exists s e c r, 0 < r /\ (forall x, vnorm (vsub x c) <= r -> vx s <= vx x <= vx e /\ vy s <= vy x <= vy e) /\
  forall n l, (0 < n)%Z -> vis_samples D2 s e n = Ok l -> forall x, In x l -> r < vnorm (vsub x c).
Proof.
  assert (A : forall v : vec3 R, Rabs (vx v) <= vnorm v /\ Rabs (vy v) <= vnorm v).
  { intros v. unfold vnorm, vnorm2, vdot. rnum. split; rewrite <- sqrt_Rsqr_abs; apply sqrt_le_1_alt; unfold Rsqr; nra. }
  exists (V3 (-2) (-2) 0), (V3 (-1) (-1) 0), (V3 (-107/100) (-107/100) 0), (7/100). split; [lra|]. split.
  - intros x Hx. destruct (A (vsub x (V3 (-107/100) (-107/100) 0))) as [Ax Ay]. cbn [vsub vx vy vz] in *. rnum.
    assert (Cx : forall a, Rabs a <= 7/100 -> -7/100 <= a <= 7/100).
    { intros a Ha. pose proof (Rle_abs a). pose proof (Rle_abs (- a)) as Q. rewrite Rabs_Ropp in Q. lra. }
    pose proof (Cx _ (Rle_trans _ _ _ Ax Hx)). pose proof (Cx _ (Rle_trans _ _ _ Ay Hx)). lra.
  - intros n l N El x Hx. assert (P : positive D2 (V3 (-2) (-2) 0) (V3 (-1) (-1) 0)) by (intros L [<-|[<-|[]]]; cbn [vx vy]; lra).
    pose proof (C129_seen_refuted D2 _ _ n l P N ltac:(cbn [vx]; lra) El x Hx) as B. cbn [vx] in B. rewrite Rabs_left in B by lra.
    destruct (A (vsub x (V3 (-107/100) (-107/100) 0))) as [Ax _]. cbn [vsub vx] in Ax. rnum. pose proof (Rle_abs (- (vx x - -107/100))) as Q. rewrite Rabs_Ropp in Q. lra.
Qed.

(** ** Cells *)
(** reading a cell array: a count, then that many point numbers, and so on *)
Inductive cells {A} (pts : list A) : list nat -> list (list A) -> Prop :=
| cells_nil : cells pts [] []
| cells_cons ids xs rest more : Forall2 (fun i x => nth_error pts i = Some x) ids xs -> cells pts rest more -> cells pts (List.length ids :: ids ++ rest) (xs :: more).
Lemma seq_points {A} (pre c post : list A) : Forall2 (fun i x => nth_error (pre ++ c ++ post) i = Some x) (seq (List.length pre) (List.length c)) c.
Proof.
  revert pre. induction c as [|x c IH]; intros pre; cbn; constructor.
  - rewrite nth_error_app2 by lia. now rewrite Nat.sub_diag.
  - specialize (IH (pre ++ [x])). rewrite app_length in IH. cbn in IH. rewrite Nat.add_1_r in IH. now rewrite <- app_assoc in IH.
Qed.
Lemma lines_ok (f : R * R -> vec3 R) : forall cs pre, cells (pre ++ flat_map (map f) cs) (poly_lines (List.length pre) cs) (map (map f) cs).
Proof.
  induction cs as [|c cs IH]; intros pre; [constructor|]. cbn [flat_map poly_lines map].
  assert (L : List.length c = List.length (seq (List.length pre) (List.length c))) by now rewrite seq_length.
  rewrite L at 1. constructor.
  - pose proof (seq_points pre (map f c) (flat_map (map f) cs)) as S. now rewrite map_length in S.
  - specialize (IH (pre ++ map f c)). rewrite app_length, map_length in IH. now rewrite <- app_assoc in IH.
Qed.
(** every contour is drawn as one line through its own points, for any number of contours of any length *)
Theorem C129_lines : forall s h cs t, (cs = [] <-> vtk_contours s h cs t = None) /\
  forall m, vtk_contours s h cs t = Some m -> vm_time m = t /\ cells (vm_pts m) (vm_cells m) (map (map (fun c => V3 (vx s + fst c * h) (vy s + snd c * h) 0)) cs).
Proof.
  intros s h cs t. split.
  - destruct cs; cbn; split; congruence.
  - intros m E. destruct cs as [|c cs]; [discriminate|]. injection E as <-. cbn [vm_time vm_pts vm_cells]. split; [reflexivity|]. exact (lines_ok (contour_point s h) (c :: cs) []).
Qed.
(** and every triangle through its own vertices *)
Theorem C129_triangles : forall s h vs fs t, (forall a b c, In (a, b, c) fs -> (a < List.length vs /\ b < List.length vs /\ c < List.length vs)%nat) ->
  let at_ i := let v := nth i vs vzero in V3 (vx s + h * vx v) (vy s + h * vy v) (vz s + h * vz v) in
  cells (vm_pts (vtk_surface s h vs fs t)) (vm_cells (vtk_surface s h vs fs t)) (map (fun f => [at_ (fst (fst f)); at_ (snd (fst f)); at_ (snd f)]) fs).
Proof.
  intros s h vs fs t V at_. cbn [vtk_surface vm_pts vm_cells]. set (pts := map _ vs).
  assert (P : forall i, (i < List.length vs)%nat -> nth_error pts i = Some (at_ i)).
  { intros i Hi. unfold pts. erewrite map_nth_error by (apply nth_error_nth' with (d := vzero); exact Hi). reflexivity. }
  clearbody pts at_. induction fs as [|[[a b] c] fs IH]; [constructor|]. cbn [flat_map map fst snd].
  destruct (V a b c (or_introl eq_refl)) as (Ha & Hb & Hc). change ([3; a; b; c]%nat ++ ?x) with (List.length [a; b; c] :: [a; b; c] ++ x). constructor.
  - repeat constructor; apply P; assumption.
  - apply IH. intros; apply V; now right.
Qed.
(** without a step no surface is ever saved *)
Theorem C129_static_refuted : forall (f : FS (VFile (T:=R)) unit unit) d label m, log_mesh f d label (Some m) None = (f, Err TypeError).
Proof. reflexivity. Qed.
(** Rerun gets vertices in their own order and normals with two components exchanged: unless those are equal up to sign, the normal of a
    plane piece of surface is not normal to what is drawn *)
Theorem C129_normals_refuted : forall s h n, 0 < h -> vx n * vx n <> vy n * vy n -> exists a b, vdot n (vsub b a) = 0 /\
  vdot (rr_normal n) (vsub (rr_vertex s h b) (rr_vertex s h a)) <> 0.
Proof.
  intros s h n Hh Hn. exists vzero, (V3 (vy n) (- vx n) 0). unfold vdot, vsub, rr_normal, rr_vertex, vzero. cbn [vx vy vz]. rnum. split; [ring|].
  replace (vy n * (vx s + vy n * h - (vx s + 0 * h)) + vx n * (vy s + - vx n * h - (vy s + 0 * h)) + vz n * (vz s + 0 * h - (vz s + 0 * h)))
    with (h * (vy n * vy n - vx n * vx n)) by ring.
  intros E. apply Rmult_integral in E as [E|E]; [lra|]. apply Hn. lra.
Qed.
(** the unit square sampled 100 times is covered, and so is every obstacle of radius 1/100 in it *)
Example C129_case : positive D2 vzero (V3 1 1 0) /\ spacing D2 vzero (V3 1 1 0) 100 (vis_step D2 vzero (V3 1 1 0) 100) /\
  vis_step D2 vzero (V3 1 1 0) 100 = 21/2000 /\ 3 * (21/2000 * (21/2000)) <= 4 * (1/100 * (1/100)) /\ reached 0 1 (21/2000) (1/2) /\
  cells [V3 0 0 0; V3 1 0 0; V3 0 2 0] [2; 0; 1; 1; 2]%nat [[V3 0 0 0; V3 1 0 0]; [V3 0 2 0]].
Proof.
  assert (P : positive D2 vzero (V3 1 1 0)) by (intros L [<-|[<-|[]]]; cbn [vzero vx vy]; rnum; lra).
  split; [exact P|]. split; [apply step_spacing; [exact P|lia]|]. split.
  - unfold vis_step. rewrite extent_axes. unfold size, lmax, nmax. cbn [fold_left vzero vx vy]. rnum.
    replace (Rltb (21/20 * 1 - 19/20 * 0) (21/20 * 1 - 19/20 * 0)) with false by (symmetry; apply Rltb_false; lra). lra.
  - split; [lra|]. split; [unfold reached; lra|]. apply (cells_cons _ [0; 1]%nat _ [1; 2]%nat); [repeat constructor|]. apply (cells_cons _ [2]%nat _ []); [repeat constructor|constructor].
Qed.
Print Assumptions C129_lattice.
Print Assumptions C129_resolution.
Print Assumptions C129_seen_partial.
Print Assumptions C129_domain_partial.
Print Assumptions C129_seen_refuted.
Print Assumptions C129_disc_refuted.
Print Assumptions C129_lines.
Print Assumptions C129_triangles.
Print Assumptions C129_static_refuted.
Print Assumptions C129_normals_refuted.
