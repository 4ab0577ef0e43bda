(** Property theorems C128: what the visualisers are given. *)
From Coq Require Import List ZArith Bool String Ascii Reals Lra Lia.
From Verif Require Import Num NumR Linalg Arrays ModelGrid ModelShape ModelState ModelSDF ModelGen ModelIO ModelVis P_IO.
Import ListNotations.
Local Open Scope R_scope.
Local Notation VFS := (FS (VFile (T:=R)) unit unit).

(** one call of [log_particles]: label, body, property, scale of the radius, time and step *)
Record Call := { k_label : string; k_body : SoftBody R; k_prop : option (PropData (T:=R)); k_scale : R; k_time : option R; k_step : option Z }.
Definition call (d : path) (f : VFS) (e : Call) : VFS := fst (log_particles f d (k_label e) (k_body e) (k_prop e) (k_scale e) (k_time e) (k_step e)).
Definition calls (d : path) (f : VFS) (h : list Call) : VFS := fold_left (call d) h f.
(** the file a call writes: steps count from 0 when not given *)
Definition number (e : Call) : Z := match k_step e with Some k => k | None => 0%Z end.
Definition same_file (a b : Call) : Prop := k_label a = k_label b /\ number a = number b.
(** nothing is in the way of a directory *)
Definition free (f : VFS) (p : path) : Prop := forall q, is_prefix q p = true -> file_at f q = None.
(** what a point cloud has to hold for a body *)
Definition shows (s : SoftBody R) (scale : R) (c : Cloud (T:=R)) : Prop :=
  List.length (vc_pos c) = List.length (sb_pts s) /\ List.length (vc_radius c) = List.length (sb_pts s) /\
  forall i p, nth_error (sb_pts s) i = Some p -> exists x r, nth_error (vc_pos c) i = Some x /\ nth_error (vc_radius c) i = Some r /\
    vx x = vx (pt_pos p) /\ vy x = vy (pt_pos p) /\ vz x = (match sb_dim s with D2 => 0 | D3 => vz (pt_pos p) end) /\
    (0 < pt_vol0 p -> match sb_dim s with D2 => PI * (r * r) = scale * scale * pt_vol0 p | D3 => 4 / 3 * PI * (r * r * r) = scale * scale * scale * pt_vol0 p end).
(** the rows of the property, a third zero added to rows of two *)
Definition rows_of (a b : PropData (T:=R)) : Prop :=
  match a, b with
  | PScalar l, PScalar m => l = m
  | PTensor l, PTensor m => l = m
  | PRows w l, PRows w' m => (w = 2%nat /\ w' = 3%nat /\ Forall2 (fun r q => q = r ++ [0]) l m) \/ (w <> 2%nat /\ w' = w /\ m = l)
  | _, _ => False
  end.

Lemma vtk_name_inj a b : vtk_name a = vtk_name b -> a = b.
Proof. unfold vtk_name. cbn [append]. intros E. injection E as E. now apply app_cancel, fmt_inj in E. Qed.
Lemma not_blocked f p : free f p -> blocked f p = false.
Proof.
  intros F. unfold blocked. destruct (existsb _ _) eqn:E; [|reflexivity]. apply existsb_exists in E as [q [Hq E]]. apply prefixes_in in Hq. rewrite (F q Hq) in E. discriminate.
Qed.
Lemma save_file f d label name x : free f (d ++ [label]) ->
  file_at (fst (vtk_save f d label name x)) ((d ++ [label]) ++ [name]) = Some (FState x) /\
  forall q, q <> (d ++ [label]) ++ [name] -> file_at (fst (vtk_save f d label name x)) q = file_at f q.
Proof.
  intros F. unfold vtk_save. rewrite (not_blocked f _ F).
  assert (D : dir_at {| fs_files := fs_files f; fs_dirs := prefixes (d ++ [label]) ++ fs_dirs f |} (d ++ [label]) = true).
  { apply dir_at_in. cbn. apply in_or_app. left. apply prefixes_in, is_prefix_refl. }
  split; [now apply write_same|]. intros q Hq. rewrite write_other by exact Hq. reflexivity.
Qed.
Lemma call_other d f e q : (forall x, q <> (d ++ [k_label e]) ++ [x]) -> file_at (call d f e) q = file_at f q.
Proof.
  intros Hq. unfold call, log_particles. destruct (vtk_cloud _ _ _ _) as [c|]; [|reflexivity]. cbn [fst].
  unfold vtk_save. destruct (blocked f _); [reflexivity|]. rewrite write_other by apply Hq. reflexivity.
Qed.
Lemma too_long (q : path) d l x m : q = (d ++ [l]) ++ [x] -> is_prefix q (d ++ [m]) = false.
Proof.
  intros ->. destruct (is_prefix _ _) eqn:E; [|reflexivity]. apply is_prefix_iff in E as [r E]. apply (f_equal (@List.length string)) in E. rewrite !app_length in E. cbn in E. lia.
Qed.
Lemma call_free d f e m : free f (d ++ [m]) -> free (call d f e) (d ++ [m]).
Proof.
  intros F q Hq. rewrite call_other; [apply F, Hq|]. intros x E. rewrite (too_long _ _ _ _ m E) in Hq. discriminate.
Qed.
Lemma calls_free d h : forall f m, free f (d ++ [m]) -> free (calls d f h) (d ++ [m]).
Proof. induction h as [|e h IH]; intros f m F; [exact F|]. apply IH, call_free, F. Qed.
Lemma calls_keep d l k x : forall h f, (forall e, In e h -> ~ (k_label e = l /\ number e = k)) -> file_at f ((d ++ [l]) ++ [vtk_name k]) = Some x ->
  file_at (calls d f h) ((d ++ [l]) ++ [vtk_name k]) = Some x.
Proof.
  induction h as [|e h IH]; intros f Hk E; [exact E|]. cbn [calls fold_left]. apply IH; [intros; apply Hk; now right|].
  unfold call, log_particles. destruct (vtk_cloud _ _ _ _) as [c|]; [|exact E]. cbn [fst]. unfold vtk_save. destruct (blocked f _); [exact E|].
  rewrite write_other; [exact E|]. intros Q. apply app_inj_tail in Q as [Q1 Q2]. apply app_inj_tail in Q1 as [_ ->]. apply vtk_name_inj in Q2.
  apply (Hk e (or_introl eq_refl)). split; [reflexivity|]. unfold number. congruence.
Qed.
Lemma disc v scale : 0 < v -> PI * (vis_radius D2 scale v * vis_radius D2 scale v) = scale * scale * v.
Proof.
  intros V. unfold vis_radius. rnum. pose proof PI_RGT_0 as P. assert (Q : sqrt (v / PI) * sqrt (v / PI) = v / PI) by (apply sqrt_sqrt; apply Rlt_le, Rdiv_lt_0_compat; assumption).
  replace (PI * (sqrt (v / PI) * scale * (sqrt (v / PI) * scale))) with (PI * (sqrt (v / PI) * sqrt (v / PI)) * scale * scale) by ring. rewrite Q. field. lra.
Qed.
Lemma ball v scale : 0 < v -> 4 / 3 * PI * (vis_radius D3 scale v * vis_radius D3 scale v * vis_radius D3 scale v) = scale * scale * scale * v.
Proof.
  intros V. unfold vis_radius. rnum. pose proof PI_RGT_0 as P. set (b := 3 * v / (4 * PI)). assert (B : 0 < b) by (apply Rdiv_lt_0_compat; lra).
  assert (Q : Rpower b (1 / 3) * Rpower b (1 / 3) * Rpower b (1 / 3) = b).
  { rewrite <- !Rpower_plus. replace (1 / 3 + 1 / 3 + 1 / 3) with 1 by field. apply Rpower_1, B. }
  replace (4 / 3 * PI * (Rpower b (1 / 3) * scale * (Rpower b (1 / 3) * scale) * (Rpower b (1 / 3) * scale)))
    with (4 / 3 * PI * (Rpower b (1 / 3) * Rpower b (1 / 3) * Rpower b (1 / 3)) * scale * scale * scale) by ring.
  rewrite Q. unfold b. field. lra.
Qed.
Lemma cloud_shows s prop scale time c : vtk_cloud s prop scale time = Ok c ->
  shows s scale c /\ vc_time c = time /\ exists p, prop = Some p /\ rows_of p (vc_prop c).
Proof.
  unfold vtk_cloud. destruct prop as [p|]; [|discriminate]. intros E. injection E as <-. split; [|split; [reflexivity|]].
  - unfold shows. cbn [vc_pos vc_radius]. rewrite !map_length. split; [reflexivity|]. split; [reflexivity|]. intros i q Hq.
    eexists. eexists. split; [apply map_nth_error, Hq|]. split; [apply map_nth_error, Hq|]. destruct (sb_dim s); cbn [vtrunc vx vy vz].
    + repeat (split; [reflexivity|]). apply disc.
    + repeat (split; [reflexivity|]). apply ball.
  - exists p. split; [reflexivity|]. destruct p as [l|w l|l]; cbn [vc_prop vtk_prop rows_of]; try reflexivity.
    destruct (Nat.eqb_spec w 2) as [->|N]; [left|right; auto]. split; [reflexivity|]. split; [reflexivity|]. clear. induction l; cbn; constructor; auto.
Qed.

(** after any sequence of calls, the file of a call holds that call's points unless the same label and step were written again *)
Theorem C128_files : forall d f h1 e h2, free f (d ++ [k_label e]) -> k_prop e <> None -> (forall e', In e' h2 -> ~ same_file e' e) ->
  exists c, file_at (calls d f (h1 ++ e :: h2)) ((d ++ [k_label e]) ++ [vtk_name (number e)]) = Some (FState (VCloud c)) /\
    shows (k_body e) (k_scale e) c /\ vc_time c = k_time e /\ exists p, k_prop e = Some p /\ rows_of p (vc_prop c).
Proof.
  intros d f h1 e h2 F P N. unfold calls. rewrite fold_left_app. cbn [fold_left]. fold (calls d f h1). fold (calls d (call d (calls d f h1) e) h2).
  pose proof (calls_free d h1 f _ F) as F1. destruct (vtk_cloud (k_body e) (k_prop e) (k_scale e) (k_time e)) as [c|er] eqn:Ec.
  2:{ unfold vtk_cloud in Ec. destruct (k_prop e); [discriminate|congruence]. }
  exists c. split; [|apply cloud_shows in Ec; exact Ec]. apply calls_keep; [intros e' He'; exact (N e' He')|].
  unfold call, log_particles. rewrite Ec. cbn [fst]. apply save_file, F1.
Qed.
(** files of other labels and steps are left alone *)
Theorem C128_names : forall a b, vtk_name a = vtk_name b -> a = b.
Proof. exact vtk_name_inj. Qed.
(** the property name may be None by the guard of line 70, but then nothing is written *)
Theorem C128_property_refuted : forall d f label s scale time step,
  log_particles f d label s (@None (PropData (T:=R))) scale time step = (f, Err UnboundLocalError).
Proof. reflexivity. Qed.

(** ** Colours *)
Lemma lmin_spec (l : list R) x : In x (x :: l) -> forall a, lmin (x :: l) = a -> In a (x :: l) /\ forall y, In y (x :: l) -> a <= y.
Proof.
  intros _. unfold lmin. revert x. induction l as [|z l IH]; intros x a E.
  - cbn in E. subst. split; [now left|]. intros y [<-|[]]. lra.
  - cbn [fold_left] in E. destruct (IH (nmin x z) a E) as [I L]. unfold nmin in *. rnum. destruct (Rltb z x) eqn:C.
    + apply Rltb_true in C. split; [right; exact I|]. intros y [<-|Hy]; [|apply L; exact Hy]. specialize (L z (or_introl eq_refl)). lra.
    + apply Rltb_false in C. split; [destruct I; [left; auto|right; right; auto]|]. intros y [<-|[<-|Hy]]; [apply L; now left| |apply L; now right].
      specialize (L x (or_introl eq_refl)). lra.
Qed.
Lemma lmax_spec (l : list R) x : forall a, lmax (x :: l) = a -> In a (x :: l) /\ forall y, In y (x :: l) -> y <= a.
Proof.
  unfold lmax. revert x. induction l as [|z l IH]; intros x a E.
  - cbn in E. subst. split; [now left|]. intros y [<-|[]]. lra.
  - cbn [fold_left] in E. destruct (IH (nmax x z) a E) as [I L]. unfold nmax in *. rnum. destruct (Rltb x z) eqn:C.
    + apply Rltb_true in C. split; [right; exact I|]. intros y [<-|Hy]; [|apply L; exact Hy]. specialize (L z (or_introl eq_refl)). lra.
    + apply Rltb_false in C. split; [destruct I; [left; auto|right; right; auto]|]. intros y [<-|[<-|Hy]]; [apply L; now left| |apply L; now right].
      specialize (L x (or_introl eq_refl)). lra.
Qed.
(** a field whose values spread over at least 1e-6 is spread over [0, 1], in order, from 0 at a smallest to 1 at a largest value *)
Theorem C128_colours_partial : forall (l : list R), (exists x y, In x l /\ In y l /\ 1 / 10 ^ 6 <= y - x) -> exists m, normalise None None l = Ok m /\
  List.length m = List.length l /\ (forall c, In c m -> 0 <= c <= 1) /\ In 0 m /\ In 1 m /\
  forall i j a b u v, nth_error l i = Some a -> nth_error l j = Some b -> nth_error m i = Some u -> nth_error m j = Some v -> (a < b <-> u < v).
Proof.
  intros l (x & y & Hx & Hy & D). destruct l as [|z l]; [destruct Hx|]. unfold normalise. cbn [limit rbind].
  destruct (lmin_spec l z (or_introl eq_refl) _ eq_refl) as [I0 L0]. destruct (lmax_spec l z _ eq_refl) as [I1 L1].
  remember (lmin (z :: l)) as lo. remember (lmax (z :: l)) as hi.
  assert (S : 1 / 10 ^ 6 <= hi - lo) by (specialize (L0 x Hx); specialize (L1 y Hy); lra).
  assert (S0 : 0 < hi - lo) by (assert (0 < 1 / 10 ^ 6) by (apply Rdiv_lt_0_compat; lra); lra).
  unfold lit. rnum. assert (E6 : Rltb (hi - lo) (1 / IZR (10 ^ 6)) = false) by (apply Rltb_false; replace (IZR (10 ^ 6)) with (10 ^ 6) by (cbn; lra); exact S).
  rewrite E6. eexists. split; [reflexivity|]. split; [apply map_length|]. split; [|split; [|split]].
  - intros c Hc. apply in_map_iff in Hc as [a [<- Ha]]. specialize (L0 a Ha). specialize (L1 a Ha). split.
    + apply Rmult_le_pos; [lra|]. apply Rlt_le, Rinv_0_lt_compat, S0.
    + apply (Rmult_le_reg_r (hi - lo)); [exact S0|]. unfold Rdiv. rewrite Rmult_assoc, Rinv_l by lra. lra.
  - apply in_map_iff. exists lo. split; [field; lra|exact I0].
  - apply in_map_iff. exists hi. split; [field; lra|exact I1].
  - intros i j a b u v Ha Hb Hu Hv. rewrite (map_nth_error _ _ _ Ha) in Hu. rewrite (map_nth_error _ _ _ Hb) in Hv. injection Hu as <-. injection Hv as <-.
    unfold Rdiv. split; intros Lt.
    + apply Rmult_lt_compat_r; [apply Rinv_0_lt_compat, S0|lra].
    + apply Rmult_lt_reg_r in Lt; [lra|]. apply Rinv_0_lt_compat, S0.
Qed.
(** smaller spreads are drawn as one colour: two points moving at 0 and 5e-7 cannot be told apart, nor can any field in such units *)
Theorem C128_colours_refuted : exists (l : list R) a b, In a l /\ In b l /\ a < b /\ normalise None None l = Ok [0; 0].
Proof.
  exists [0; 5 / 10 ^ 7], 0, (5 / 10 ^ 7). split; [now left|]. split; [right; now left|]. split; [lra|].
  unfold normalise. cbn [limit rbind lmin lmax fold_left map]. unfold nmin, nmax, lit. rnum.
  replace (Rltb (5 / 10 ^ 7) 0) with false by (symmetry; apply Rltb_false; lra). replace (Rltb 0 (5 / 10 ^ 7)) with true by (symmetry; apply Rltb_true; lra).
  replace (Rltb (5 / 10 ^ 7 - 0) (1 / IZR (10 ^ 6))) with true; [reflexivity|]. symmetry. apply Rltb_true. replace (IZR (10 ^ 6)) with (10 ^ 6) by (cbn; lra). lra.
Qed.

(** ** The domain *)
Definition between (lo hi p : vec3 R) : Prop := vx lo <= vx p <= vx hi /\ vy lo <= vy p <= vy hi /\ vz lo <= vz p <= vz hi.
(** the points of a box given by a corner and sizes of either sign *)
Definition swept (b : vec3 R * vec3 R) (p : vec3 R) : Prop := exists r s t, 0 <= r <= 1 /\ 0 <= s <= 1 /\ 0 <= t <= 1 /\
  p = vadd (fst b) (V3 (r * vx (snd b)) (s * vy (snd b)) (t * vz (snd b))).
(** both visualisers draw the box from the origin to one cell beyond the end, and a point lies in it as drawn exactly when it lies in it *)
Lemma along a b x : a < b -> a <= x <= b -> exists r, 0 <= r <= 1 /\ x = a + r * (b - a).
Proof.
  intros L B. exists ((x - a) / (b - a)). split; [|field; lra]. split.
  - apply Rmult_le_pos; [lra|]. apply Rlt_le, Rinv_0_lt_compat. lra.
  - apply (Rmult_le_reg_r (b - a)); [lra|]. unfold Rdiv. rewrite Rmult_assoc, Rinv_l by lra. lra.
Qed.
Theorem C128_domain_partial : forall d o e cell p, vx o < vx e + cell -> vy o < vy e + cell -> vz o < vz e + cell -> (d = D2 -> vz p = 0) ->
  let top := V3 (vx e + cell) (vy e + cell) (vz e + cell) in
  let inside := vx o <= vx p <= vx top /\ vy o <= vy p <= vy top /\ (d = D3 -> vz o <= vz p <= vz top) in
  (between (fst (vtk_box d o e cell)) (snd (vtk_box d o e cell)) p <-> inside) /\ (swept (rr_box d o e cell) (rr_pos d p) <-> inside).
Proof.
  intros d o e cell p Lx Ly Lz P. cbn [vx vy vz]. split.
  - unfold between. destruct d; cbn [vtk_box fst snd vx vy vz]; unfold lit; rnum.
    + split; [intros (A & B & _); split; [exact A|split; [exact B|discriminate]]|]. intros (A & B & _). split; [exact A|]. split; [exact B|]. rewrite (P eq_refl). lra.
    + split; [intros (A & B & C); auto|]. intros (A & B & C). specialize (C eq_refl). auto.
  - unfold swept. destruct d; cbn [rr_box rr_pos fst snd vx vy vz vadd vsub]; rnum; split.
    + intros (r & s & t & R1 & S1 & T1 & E). injection E as Ex Ey _. split; [nra|]. split; [nra|discriminate].
    + intros (A & B & _). destruct (along _ _ _ Lx A) as (r & R1 & Er). destruct (along _ _ _ Ly B) as (s & S1 & Es). exists r, s, 0. split; [exact R1|]. split; [exact S1|]. split; [lra|].
      unfold vadd; cbn [fst snd vx vy vz]; rnum; apply f_equal3; [rewrite Er at 1; ring|rewrite Es at 1; ring|ring].
    + intros (r & s & t & R1 & S1 & T1 & E). destruct p as [px py pz]. cbn [vx vy vz] in *. injection E as Ex Ey Ez. split; [nra|]. split; [nra|]. intros _. nra.
    + intros (A & B & C). specialize (C eq_refl). destruct (along _ _ _ Lx A) as (r & R1 & Er). destruct (along _ _ _ Ly B) as (s & S1 & Es). destruct (along _ _ _ Lz C) as (t & T1 & Et).
      exists r, s, t. split; [exact R1|]. split; [exact S1|]. split; [exact T1|]. destruct p as [px py pz]. cbn [vx vy vz] in *. unfold vadd; cbn [fst snd vx vy vz]; rnum; apply f_equal3; [rewrite Er at 1; ring|rewrite Es at 1; ring|rewrite Et at 1; ring].
Qed.
(** so a point outside the domain can be drawn inside it *)
Theorem C128_domain_refuted : forall d o e cell, 0 < cell -> vx o <= vx e -> vy o <= vy e -> vz o <= vz e -> exists p, vx e < vx p /\
  between (fst (vtk_box d o e cell)) (snd (vtk_box d o e cell)) p.
Proof.
  intros d o e cell C X Y Z. exists (V3 (vx e + cell / 2) (vy o) (match d with D2 => 0 | D3 => vz o end)). cbn [vx]. split; [lra|].
  destruct d; unfold between; cbn [vtk_box fst snd vx vy vz]; unfold lit; rnum; lra.
Qed.

(** three calls: two steps of one body, then the first step of another label; colours over a real spread; a mirrored box *)
Definition dot (x y v : R) : Particle R := {| pt_pos := V3 x y 0; pt_vel := V3 0 1 0; pt_mass := 1; pt_force := vzero; pt_vol := v; pt_vol0 := v;
  pt_L := mzero; pt_stress := mzero; pt_F := meye; pt_Fst := meye |}.
Definition sand : SoftBody R := {| sb_dim := D2; sb_pts := [dot 1 2 3; dot 2 2 3]; sb_storeF := false; sb_vol0d := false |}.
Definition shot (l : string) (k : Z) : Call := {| k_label := l; k_body := sand; k_prop := Some (PRows 2 [[0; 1]; [0; 1]]); k_scale := 1; k_time := Some 0; k_step := Some k |}.
Example C128_case : free fs0 ["out"%string; "sand"%string] /\ k_prop (shot "sand" 3) <> None /\
  (forall e', In e' [shot "sand" 4; shot "water" 3] -> ~ same_file e' (shot "sand" 3)) /\
  (exists x y, In x [0; 1; 1/2] /\ In y [0; 1; 1/2] /\ 1 / 10 ^ 6 <= y - x) /\
  swept (rr_box D2 vzero (V3 4 4 0) 1) (rr_pos D2 (V3 (9/2) 5 0)).
Proof.
  split; [intros q _; reflexivity|]. split; [discriminate|]. split.
  - intros e' [<-|[<-|[]]] [L N]; cbn in L, N; discriminate.
  - split; [exists 0, 1; cbn; split; [auto|]; split; [auto|lra]|].
    apply (C128_domain_partial D2 vzero (V3 4 4 0) 1 (V3 (9/2) 5 0)); cbn [vzero vx vy vz]; rnum; try lra; try reflexivity.
Qed.
Print Assumptions C128_files.
Print Assumptions C128_names.
Print Assumptions C128_property_refuted.
Print Assumptions C128_colours_partial.
Print Assumptions C128_colours_refuted.
Print Assumptions C128_domain_partial.
Print Assumptions C128_domain_refuted.
