(** The normals of analytic obstacles (C140). *)
From Coquelicot Require Import Coquelicot.
From Coq Require Import List Arith ZArith Reals Bool Lra Lia.
From Verif Require Import Num NumR Linalg Arrays ModelGrid ModelShape ModelMath ModelState ModelLaws ModelSDF Sums MathProofs SpecSDF SDFProofs P_SDF P_SDF2 P_Return.
Import ListNotations.
Local Open Scope R_scope.

(** ** derivatives of the pieces *)
Lemma lt_locally (f g : R -> R) (x : R) : continuous f x -> continuous g x -> f x < g x -> locally x (fun y => f y < g y).
Proof.
  intros Cf Cg H. assert (C : continuous (fun y => g y - f y) x).
  { apply (continuous_minus (V := R_NormedModule) g f); assumption. }
  assert (L : locally x (fun y => 0 < g y - f y)).
  { apply (C (fun z => 0 < z)). exists (mkposreal (g x - f x) ltac:(lra)). intros y B. unfold ball in B. cbn in B.
    unfold AbsRing_ball, abs, minus, plus, opp in B. cbn in B. apply Rabs_def2 in B. lra. }
  eapply filter_imp; [| exact L]. intros y Hy. cbn in Hy. lra.
Qed.
Lemma derive_cont (f : R -> R) (x d : R) : is_derive f x d -> continuous f x.
Proof. intros D. apply (@ex_derive_continuous R_AbsRing R_NormedModule). exists d. exact D. Qed.
Lemma cont_max (f g : R -> R) (x : R) : continuous f x -> continuous g x -> continuous (fun y => Rmax (f y) (g y)) x.
Proof.
  intros F G. apply (continuous_ext (fun y => (f y + g y + Rabs (f y - g y)) * / 2)).
  { intros y. change ((f y + g y + Rabs (f y - g y)) * / 2 = Rmax (f y) (g y) :> R). destruct (Rle_dec (f y) (g y)) as [H | H].
    - rewrite Rmax_right by assumption. rewrite Rabs_left1 by lra. field.
    - rewrite Rmax_left by lra. rewrite Rabs_right by lra. field. }
  apply (continuous_scal_l (V := R_NormedModule) (K := R_AbsRing) (fun y => f y + g y + Rabs (f y - g y)) (/ 2)).
  apply (continuous_plus (V := R_NormedModule) (fun y => f y + g y) (fun y => Rabs (f y - g y))).
  - apply (continuous_plus (V := R_NormedModule) f g); assumption.
  - apply (continuous_Rabs_comp (fun y => f y - g y)). apply (continuous_minus (V := R_NormedModule) f g); assumption.
Qed.
Lemma cont_min (f g : R -> R) (x : R) : continuous f x -> continuous g x -> continuous (fun y => Rmin (f y) (g y)) x.
Proof.
  intros F G. apply (continuous_ext (fun y => - Rmax (- f y) (- g y))).
  { intros y. change (- Rmax (- f y) (- g y) = Rmin (f y) (g y) :> R). rewrite Rmax_opp_Rmin. ring. }
  apply (continuous_opp (V := R_NormedModule) (fun y => Rmax (- f y) (- g y))).
  apply (cont_max (fun y => - f y) (fun y => - g y)); [apply (continuous_opp (V := R_NormedModule) f) | apply (continuous_opp (V := R_NormedModule) g)]; assumption.
Qed.
(** the larger of two functions that differ follows the larger one *)
Lemma max2_derive (f g : R -> R) (x df dg : R) : is_derive f x df -> is_derive g x dg -> f x <> g x ->
  is_derive (fun y => Rmax (f y) (g y)) x (dmax (f x) (g x) * df + dmax (g x) (f x) * dg).
Proof.
  intros F G N. unfold dmax. rnum. destruct (Rlt_dec (f x) (g x)) as [L | L].
  - rewrite (proj2 (Rltb_false (g x) (f x))), (proj2 (Rltb_true (f x) (g x)) L) by lra.
    replace (0 * df + 1 * dg) with dg by ring. apply (is_derive_ext_loc g); [| exact G].
    eapply filter_imp; [| exact (lt_locally f g x (derive_cont _ _ _ F) (derive_cont _ _ _ G) L)]. intros y H. cbn in H. rewrite Rmax_right; lra.
  - assert (L2 : g x < f x) by lra. rewrite (proj2 (Rltb_false (f x) (g x))), (proj2 (Rltb_true (g x) (f x)) L2) by lra.
    replace (1 * df + 0 * dg) with df by ring. apply (is_derive_ext_loc f); [| exact F].
    eapply filter_imp; [| exact (lt_locally g f x (derive_cont _ _ _ G) (derive_cont _ _ _ F) L2)]. intros y H. cbn in H. rewrite Rmax_left; lra.
Qed.
Lemma abs_derive (f : R -> R) (x df : R) : is_derive f x df -> f x <> 0 -> is_derive (fun y => Rabs (f y)) x (nsign (f x) * df).
Proof.
  intros F N. unfold nsign. rnum. destruct (Rlt_dec (f x) 0) as [L | L].
  - rewrite (proj2 (Rltb_true (f x) 0) L). apply (is_derive_ext_loc (fun y => - f y)).
    + eapply filter_imp; [| exact (below_locally f x df 0 F L)]. intros y H. cbn in H. rewrite Rabs_left; lra.
    + replace (-1 * df) with (- df) by ring. apply (is_derive_opp (V := R_NormedModule) f). exact F.
  - assert (L2 : 0 < f x) by lra. rewrite (proj2 (Rltb_false (f x) 0)), (proj2 (Rltb_true 0 (f x)) L2) by lra.
    rewrite Rmult_1_l. apply (is_derive_ext_loc f); [| exact F].
    eapply filter_imp; [| exact (above_locally f x df 0 F L2)]. intros y H. cbn in H. rewrite Rabs_right; lra.
Qed.
(** the length of a vector, with a constant c under the root *)
Lemma norm_derive (a b c : R -> R) (x da db dc k : R) : is_derive a x da -> is_derive b x db -> is_derive c x dc ->
  0 < a x * a x + b x * b x + c x * c x + k ->
  is_derive (fun y => sqrt (a y * a y + b y * b y + c y * c y + k)) x
    ((a x * da + b x * db + c x * dc) / sqrt (a x * a x + b x * b x + c x * c x + k)).
Proof.
  intros A B C H. assert (EA : ex_derive a x) by (exists da; exact A). assert (EB : ex_derive b x) by (exists db; exact B).
  assert (EC : ex_derive c x) by (exists dc; exact C). pose proof (sqrt_lt_R0 _ H) as S. auto_derive; [now repeat split |].
  replace (Derive (fun y => a y) x) with da by (symmetry; exact (is_derive_unique a x da A)).
  replace (Derive (fun y => b y) x) with db by (symmetry; exact (is_derive_unique b x db B)).
  replace (Derive (fun y => c y) x) with dc by (symmetry; exact (is_derive_unique c x dc C)).
  field. lra.
Qed.

(** ** one of several functions is the largest, or the smallest *)
Definition values (l : list (R -> R)) (y : R) : list R := map (fun f => f y) l.
Lemma share_no l (m x : R) : x <> m -> share l m x = 0.
Proof. intros H. unfold share. change (neqb x m) with (Reqb x m). now rewrite (proj2 (Reqb_false x m) H). Qed.
Lemma share_only l1 l2 (m : R) : (forall x, In x (l1 ++ l2) -> x <> m) -> share (l1 ++ m :: l2) m m = 1.
Proof.
  intros H. unfold share. change (neqb m m) with (Reqb m m). rewrite (proj2 (Reqb_true m m) eq_refl).
  assert (Z : forall l, (forall x, In x l -> x <> m) -> filter (fun y => neqb y m) l = []).
  { induction l as [| x l IH]; intros Hl; [reflexivity |]. cbn [filter]. change (neqb x m) with (Reqb x m).
    rewrite (proj2 (Reqb_false x m)) by (apply Hl; now left). apply IH. intros y Hy. apply Hl. now right. }
  change (@numt_num R NumT_R) with Num_R. rewrite filter_app. cbn [filter]. change (neqb m m) with (Reqb m m). rewrite (proj2 (Reqb_true m m) eq_refl).
  rewrite !Z by (intros x Hx; apply H, in_or_app; tauto). cbn. field.
Qed.
Lemma lmax_top (l1 l2 : list R) m : (forall x, In x (l1 ++ l2) -> x <= m) -> lmax (l1 ++ m :: l2) = m.
Proof.
  intros H. apply Rle_antisym; [| apply lmax_ge, in_elt].
  assert (I : In (lmax (l1 ++ m :: l2)) (l1 ++ m :: l2)) by (apply lmax_in; destruct l1; discriminate).
  apply in_elt_inv in I. destruct I as [E | I]; [lra | apply H; exact I].
Qed.
Lemma lmin_bot (l1 l2 : list R) m : (forall x, In x (l1 ++ l2) -> m <= x) -> lmin (l1 ++ m :: l2) = m.
Proof.
  intros H. apply Rle_antisym; [apply lmin_le, in_elt |].
  assert (I : In (lmin (l1 ++ m :: l2)) (l1 ++ m :: l2)) by (apply lmin_in; destruct l1; discriminate).
  apply in_elt_inv in I. destruct I as [E | I]; [lra | apply H; exact I].
Qed.
Lemma all_locally (P : (R -> R) -> R -> Prop) (l : list (R -> R)) x : (forall f, In f l -> locally x (P f)) -> locally x (fun y => forall f, In f l -> P f y).
Proof.
  induction l as [| f l IH]; intros H.
  - apply filter_forall. intros y f [].
  - eapply filter_imp; [| apply filter_and; [exact (H f (or_introl eq_refl)) | apply IH; intros g Hg; apply H; now right]].
    intros y [A B] g [<- | Hg]; auto.
Qed.
Lemma largest_locally (l1 l2 : list (R -> R)) (f : R -> R) (x : R) : continuous f x -> (forall g, In g (l1 ++ l2) -> continuous g x /\ g x < f x) ->
  locally x (fun y => lmax (values (l1 ++ f :: l2) y) = f y).
Proof.
  intros C H. eapply filter_imp; [| apply (all_locally (fun g y => g y < f y) (l1 ++ l2) x)].
  - intros y Hy. unfold values. rewrite map_app. cbn [map]. apply lmax_top. intros z Hz. rewrite <- map_app in Hz. apply in_map_iff in Hz.
    destruct Hz as (g & <- & Hg). apply Rlt_le, Hy, Hg.
  - intros g Hg. apply lt_locally; [apply H, Hg | exact C | apply H, Hg].
Qed.
Lemma smallest_locally (l1 l2 : list (R -> R)) (f : R -> R) (x : R) : continuous f x -> (forall g, In g (l1 ++ l2) -> continuous g x /\ f x < g x) ->
  locally x (fun y => lmin (values (l1 ++ f :: l2) y) = f y).
Proof.
  intros C H. eapply filter_imp; [| apply (all_locally (fun g y => f y < g y) (l1 ++ l2) x)].
  - intros y Hy. unfold values. rewrite map_app. cbn [map]. apply lmin_bot. intros z Hz. rewrite <- map_app in Hz. apply in_map_iff in Hz.
    destruct Hz as (g & <- & Hg). apply Rlt_le, Hy, Hg.
  - intros g Hg. apply lt_locally; [exact C | apply H, Hg | apply H, Hg].
Qed.

(** ** the distance to faces *)
Definition tiny : R := 1 / IZR (10 ^ 12).
Lemma tiny_pos : 0 < tiny.
Proof. unfold tiny. apply Rdiv_lt_0_compat; [lra | apply IZR_lt; reflexivity]. Qed.
Lemma safe_norm_eq (v : vec3 R) : safe_norm v = sqrt (vx v * vx v + vy v * vy v + vz v * vz v + tiny).
Proof. reflexivity. Qed.
Lemma safe_norm_pos (v : vec3 R) : 0 < safe_norm v.
Proof.
  rewrite safe_norm_eq. apply sqrt_lt_R0. pose proof tiny_pos. pose proof (Rle_0_sqr (vx v)). pose proof (Rle_0_sqr (vy v)). pose proof (Rle_0_sqr (vz v)). unfold Rsqr in *. lra.
Qed.
Lemma safe_norm_derive (a b c : R -> R) (x da db dc : R) : is_derive a x da -> is_derive b x db -> is_derive c x dc ->
  let v := V3 (a x) (b x) (c x) in
  is_derive (fun y => safe_norm (V3 (a y) (b y) (c y))) x (a x / safe_norm v * da + b x / safe_norm v * db + c x / safe_norm v * dc).
Proof.
  intros A B C v. pose proof (safe_norm_pos v) as P. rewrite safe_norm_eq in P. cbn [v vx vy vz] in P.
  assert (H : 0 < a x * a x + b x * b x + c x * c x + tiny) by (apply sqrt_lt_0_alt; rewrite sqrt_0; exact P).
  pose proof (norm_derive a b c x da db dc tiny A B C H) as D.
  match goal with |- is_derive _ _ ?k => match type of D with is_derive _ _ ?w => replace k with w; [exact D |] end end.
  rewrite safe_norm_eq. cbn [v vx vy vz]. field. lra.
Qed.
Lemma clipped (v : vec3 R) : vmap (fun z => nmax z n0) v = V3 (Rmax (vx v) 0) (Rmax (vy v) 0) (Rmax (vz v) 0).
Proof. unfold vmap. change (@numt_num R NumT_R) with Num_R. now rewrite !nmax_R. Qed.
(** the part inside, of two or of three faces *)
Lemma outside_flat (l : list (R -> R)) (f : R -> R) (x df : R) : In f l -> is_derive f x df -> 0 < f x ->
  is_derive (fun y => Rmin (lmax (values l y)) 0) x 0 /\ dmin (lmax (values l x)) 0 = 0.
Proof.
  intros I D P. assert (G : forall y, 0 < f y -> 0 < lmax (values l y)).
  { intros y Hy. eapply Rlt_le_trans; [exact Hy |]. apply lmax_ge. unfold values. apply (in_map (fun f => f y)). exact I. }
  split.
  - apply (is_derive_ext_loc (fun _ => 0)); [| apply is_derive_Reals, derivable_pt_lim_const].
    eapply filter_imp; [| exact (above_locally f x df 0 D P)]. intros y Hy. cbn in Hy. rewrite Rmin_right; [reflexivity |]. pose proof (G y Hy). lra.
  - unfold dmin. pose proof (G x P) as H. change n0 with 0. change (nltb (lmax (values l x)) 0) with (Rltb (lmax (values l x)) 0). change (nltb 0 (lmax (values l x))) with (Rltb 0 (lmax (values l x))).
    rewrite (proj2 (Rltb_false _ _)), (proj2 (Rltb_true _ _) H) by lra. reflexivity.
Qed.
Lemma inside_top (l1 l2 : list (R -> R)) (f : R -> R) (x df : R) : is_derive f x df -> f x < 0 -> (forall g, In g (l1 ++ l2) -> continuous g x /\ g x < f x) ->
  let l := l1 ++ f :: l2 in
  is_derive (fun y => Rmin (lmax (values l y)) 0) x df /\ lmax (values l x) = f x /\ dmin (f x) 0 = 1 /\
  share (values l x) (f x) (f x) = 1 /\ forall g, In g (l1 ++ l2) -> share (values l x) (f x) (g x) = 0.
Proof.
  intros D Ng H l. pose proof (derive_cont _ _ _ D) as C. pose proof (largest_locally l1 l2 f x C H) as L. fold l in L.
  split; [| split; [| split; [| split]]].
  - apply (is_derive_ext_loc f); [| exact D]. eapply filter_imp; [| apply filter_and; [exact L | exact (below_locally f x df 0 D Ng)]].
    intros y [E Hy]. cbn in Hy. transitivity (Rmin (f y) 0); [rewrite Rmin_left; lra | f_equal; symmetry; exact E].
  - exact (locally_singleton _ _ L).
  - unfold dmin. change n0 with 0. change (nltb (f x) 0) with (Rltb (f x) 0). now rewrite (proj2 (Rltb_true _ _) Ng).
  - unfold l, values. rewrite map_app. cbn [map]. apply share_only. intros z Hz. rewrite <- map_app in Hz. apply in_map_iff in Hz. destruct Hz as (g & <- & Hg). specialize (H g Hg). lra.
  - intros g Hg. apply share_no. specialize (H g Hg). lra.
Qed.
Lemma faces2_derive (a b : R -> R) (x da db : R) : is_derive a x da -> is_derive b x db -> a x <> 0 -> b x <> 0 ->
  (a x < 0 -> b x < 0 -> a x <> b x) -> let g := dfaces [a x; b x] (V3 (a x) (b x) 0) in
  is_derive (fun y => faces [a y; b y] (V3 (a y) (b y) 0)) x (vx g * da + vy g * db).
Proof.
  intros A B Na Nb U g.
  pose proof (dmax_derive a x da 0 A Na) as MA. pose proof (dmax_derive b x db 0 B Nb) as MB.
  assert (MC : is_derive (fun _ : R => 0) x 0) by (apply is_derive_Reals, derivable_pt_lim_const).
  pose proof (safe_norm_derive _ _ _ x _ _ _ MA MB MC) as DN.
  set (k := dmin (lmax [a x; b x]) 0).
  assert (DI : is_derive (fun y => Rmin (lmax [a y; b y]) 0) x
    (k * share [a x; b x] (lmax [a x; b x]) (a x) * da + k * share [a x; b x] (lmax [a x; b x]) (b x) * db)).
  { destruct (Rlt_dec 0 (a x)) as [Pa | Pa]; [| destruct (Rlt_dec 0 (b x)) as [Pb | Pb]].
    - destruct (outside_flat [a; b] a x da (or_introl eq_refl) A Pa) as [D E]. cbn [values map] in D, E. unfold k. rewrite E.
      match goal with |- is_derive _ _ ?v => replace v with 0 by ring end. exact D.
    - destruct (outside_flat [a; b] b x db (or_intror (or_introl eq_refl)) B Pb) as [D E]. cbn [values map] in D, E. unfold k. rewrite E.
      match goal with |- is_derive _ _ ?v => replace v with 0 by ring end. exact D.
    - destruct (Rlt_dec (b x) (a x)) as [L | L].
      + destruct (inside_top [] [b] a x da A ltac:(lra)) as (D & E & K & S1 & S0).
        { intros g' [<- | []]. split; [exact (derive_cont _ _ _ B) | exact L]. }
        cbn [values map app] in D, E, S1, S0. unfold k. rewrite E, K, S1. rewrite (S0 b (or_introl eq_refl)).
        match goal with |- is_derive _ _ ?v => replace v with da by ring end. exact D.
      + destruct (inside_top [a] [] b x db B ltac:(lra)) as (D & E & K & S1 & S0).
        { intros g' [<- | []]. split; [exact (derive_cont _ _ _ A) |]. assert (a x <> b x) by (apply U; lra). lra. }
        cbn [values map app] in D, E, S1, S0. unfold k. rewrite E, K, S1. rewrite (S0 a (or_introl eq_refl)).
        match goal with |- is_derive _ _ ?v => replace v with db by ring end. exact D. }
  assert (EF : forall y, faces [a y; b y] (V3 (a y) (b y) 0) = safe_norm (V3 (Rmax (a y) 0) (Rmax (b y) 0) 0) + Rmin (lmax [a y; b y]) 0).
  { intros y. unfold faces. rewrite clipped. cbn [vx vy vz]. rewrite (Rmax_left 0 0) by lra. change (@numt_num R NumT_R) with Num_R. rewrite nmin_R. reflexivity. }
  apply (is_derive_ext (fun y => safe_norm (V3 (Rmax (a y) 0) (Rmax (b y) 0) 0) + Rmin (lmax [a y; b y]) 0)); [intros y; symmetry; apply EF |].
  pose proof (is_derive_plus (V := R_NormedModule) _ _ x _ _ DN DI) as D.
  match type of D with is_derive _ _ ?w => replace (vx g * da + vy g * db) with w; [exact D |] end.
  unfold g, dfaces. cbv zeta. rewrite clipped. cbn [vmap vx vy vz]. rewrite (Rmax_left 0 0) by lra. change (@numt_num R NumT_R) with Num_R. rewrite !nmax_R. change n0 with 0. fold k.
  pose proof (safe_norm_pos (V3 (Rmax (a x) 0) (Rmax (b x) 0) 0)) as So. 
  set (out := safe_norm (V3 (Rmax (a x) 0) (Rmax (b x) 0) 0)) in *. clear D DN EF. clearbody out. clear DI. clearbody k. unfold plus. cbn. rnum. field. lra.
Qed.
Lemma faces3_derive (a b c : R -> R) (x da db dc : R) : is_derive a x da -> is_derive b x db -> is_derive c x dc -> a x <> 0 -> b x <> 0 -> c x <> 0 ->
  (a x < 0 -> b x < 0 -> c x < 0 -> a x <> b x /\ b x <> c x /\ c x <> a x) -> let g := dfaces [a x; b x; c x] (V3 (a x) (b x) (c x)) in
  is_derive (fun y => faces [a y; b y; c y] (V3 (a y) (b y) (c y))) x (vx g * da + vy g * db + vz g * dc).
Proof.
  intros A B C Na Nb Nc U g.
  pose proof (dmax_derive a x da 0 A Na) as MA. pose proof (dmax_derive b x db 0 B Nb) as MB. pose proof (dmax_derive c x dc 0 C Nc) as MC.
  pose proof (safe_norm_derive _ _ _ x _ _ _ MA MB MC) as DN.
  set (l := [a x; b x; c x]). set (k := dmin (lmax l) 0).
  assert (DI : is_derive (fun y => Rmin (lmax [a y; b y; c y]) 0) x
    (k * share l (lmax l) (a x) * da + k * share l (lmax l) (b x) * db + k * share l (lmax l) (c x) * dc)).
  { assert (In3 : In a [a; b; c] /\ In b [a; b; c] /\ In c [a; b; c]) by (cbn; tauto). destruct In3 as (Ia & Ib & Ic).
    assert (CA := derive_cont _ _ _ A). assert (CB := derive_cont _ _ _ B). assert (CC := derive_cont _ _ _ C).
    destruct (Rlt_dec 0 (a x)) as [Pa | Pa]; [| destruct (Rlt_dec 0 (b x)) as [Pb | Pb]; [| destruct (Rlt_dec 0 (c x)) as [Pc | Pc]]].
    1: destruct (outside_flat [a; b; c] a x da Ia A Pa) as [D E].
    2: destruct (outside_flat [a; b; c] b x db Ib B Pb) as [D E].
    3: destruct (outside_flat [a; b; c] c x dc Ic C Pc) as [D E].
    1-3: cbn [values map] in D, E; unfold k, l; rewrite E; match goal with |- is_derive _ _ ?v => replace v with 0 by ring end; exact D.
    destruct (U ltac:(lra) ltac:(lra) ltac:(lra)) as (U1 & U2 & U3).
    destruct (Rlt_dec (b x) (a x)) as [L | L]; [destruct (Rlt_dec (c x) (a x)) as [L2 | L2] | destruct (Rlt_dec (c x) (b x)) as [L2 | L2]].
    - destruct (inside_top [] [b; c] a x da A ltac:(lra)) as (D & E & K & S1 & S0).
      { intros g' [<- | [<- | []]]; split; assumption. }
      cbn [values map app] in D, E, S1, S0. unfold k, l. rewrite E, K, S1, (S0 b (or_introl eq_refl)), (S0 c (or_intror (or_introl eq_refl))).
      match goal with |- is_derive _ _ ?v => replace v with da by ring end. exact D.
    - destruct (inside_top [a; b] [] c x dc C ltac:(lra)) as (D & E & K & S1 & S0).
      { intros g' [<- | [<- | []]]; split; try assumption; lra. }
      cbn [values map app] in D, E, S1, S0. unfold k, l. rewrite E, K, S1, (S0 a (or_introl eq_refl)), (S0 b (or_intror (or_introl eq_refl))).
      match goal with |- is_derive _ _ ?v => replace v with dc by ring end. exact D.
    - destruct (inside_top [a] [c] b x db B ltac:(lra)) as (D & E & K & S1 & S0).
      { intros g' [<- | [<- | []]]; split; try assumption; lra. }
      cbn [values map app] in D, E, S1, S0. unfold k, l. rewrite E, K, S1, (S0 a (or_introl eq_refl)), (S0 c (or_intror (or_introl eq_refl))).
      match goal with |- is_derive _ _ ?v => replace v with db by ring end. exact D.
    - destruct (inside_top [a; b] [] c x dc C ltac:(lra)) as (D & E & K & S1 & S0).
      { intros g' [<- | [<- | []]]; split; try assumption; lra. }
      cbn [values map app] in D, E, S1, S0. unfold k, l. rewrite E, K, S1, (S0 a (or_introl eq_refl)), (S0 b (or_intror (or_introl eq_refl))).
      match goal with |- is_derive _ _ ?v => replace v with dc by ring end. exact D. }
  assert (EF : forall y, faces [a y; b y; c y] (V3 (a y) (b y) (c y)) = safe_norm (V3 (Rmax (a y) 0) (Rmax (b y) 0) (Rmax (c y) 0)) + Rmin (lmax [a y; b y; c y]) 0).
  { intros y. unfold faces. rewrite clipped. cbn [vx vy vz]. change (@numt_num R NumT_R) with Num_R. rewrite nmin_R. reflexivity. }
  apply (is_derive_ext (fun y => safe_norm (V3 (Rmax (a y) 0) (Rmax (b y) 0) (Rmax (c y) 0)) + Rmin (lmax [a y; b y; c y]) 0)); [intros y; symmetry; apply EF |].
  pose proof (is_derive_plus (V := R_NormedModule) _ _ x _ _ DN DI) as D.
  match type of D with is_derive _ _ ?w => replace (vx g * da + vy g * db + vz g * dc) with w; [exact D |] end.
  unfold g, dfaces. cbv zeta. rewrite clipped. cbn [vmap vx vy vz]. change (@numt_num R NumT_R) with Num_R. rewrite !nmax_R. change n0 with 0. fold l. fold k.
  pose proof (safe_norm_pos (V3 (Rmax (a x) 0) (Rmax (b x) 0) (Rmax (c x) 0))) as So. 
  set (out := safe_norm (V3 (Rmax (a x) 0) (Rmax (b x) 0) (Rmax (c x) 0))) in *. clear D DN EF. clearbody out. clear DI. clearbody k. clearbody l. unfold plus. cbn. rnum. field. lra.
Qed.

(** ** the smallest of several distances *)
Definition nearest_once (ds : list R) : Prop := forall i j, nth_error ds i = Some (lmin ds) -> nth_error ds j = Some (lmin ds) -> i = j.
Lemma nearest_split {A} (f : A -> R) (l : list A) : l <> [] -> nearest_once (map f l) ->
  exists l1 s l2, l = l1 ++ s :: l2 /\ f s = lmin (map f l) /\ forall g, In g (l1 ++ l2) -> f s < f g.
Proof.
  intros Hl N. assert (I : In (lmin (map f l)) (map f l)) by (apply lmin_in; destruct l; [contradiction | discriminate]).
  apply in_map_iff in I. destruct I as (s & Es & Is). apply in_split in Is. destruct Is as (l1 & l2 & El). exists l1, s, l2. split; [exact El | split; [exact Es |]].
  intros g Hg. assert (G : In g l) by (rewrite El; apply in_app_or in Hg; apply in_or_app; cbn; tauto).
  pose proof (lmin_le (map f l) (f g) (in_map f l g G)) as Le. rewrite <- Es in Le. destruct (Rle_lt_or_eq_dec _ _ Le) as [L | Eq]; [exact L | exfalso].
  assert (P1 : nth_error (map f l) (length l1) = Some (lmin (map f l))).
  { rewrite El, map_app. rewrite nth_error_app2 by (rewrite map_length; apply le_n). rewrite map_length, Nat.sub_diag. cbn. rewrite <- map_cons, <- map_app, <- El. now rewrite Es. }
  apply in_app_or in Hg. destruct Hg as [Hg | Hg]; apply In_nth_error in Hg; destruct Hg as [i Hi].
  - assert (Li : (i < length l1)%nat) by (apply nth_error_Some; rewrite Hi; discriminate).
    assert (P2 : nth_error (map f l) i = Some (lmin (map f l))).
    { rewrite <- Es, Eq. rewrite El. apply map_nth_error. rewrite nth_error_app1 by exact Li. exact Hi. }
    pose proof (N _ _ P1 P2). lia.
  - assert (P2 : nth_error (map f l) (length l1 + S i) = Some (lmin (map f l))).
    { rewrite <- Es, Eq. rewrite El. apply map_nth_error. rewrite nth_error_app2 by lia. replace (length l1 + S i - length l1)%nat with (S i) by lia. exact Hi. }
    pose proof (N _ _ P1 P2). lia.
Qed.
Lemma sum_only {A} (k : A -> R) l1 s l2 : (forall g, In g (l1 ++ l2) -> k g = 0) -> fold_right Rplus 0 (map k (l1 ++ s :: l2)) = k s.
Proof.
  assert (Z : forall l, (forall g, In g l -> k g = 0) -> fold_right Rplus 0 (map k l) = 0).
  { induction l as [| g l IH]; intros H; [reflexivity |]. cbn. rewrite (H g (or_introl eq_refl)), IH; [ring |]. intros q Hq. apply H. now right. }
  induction l1 as [| g l1 IH]; intros H; cbn.
  - rewrite Z; [ring | exact H].
  - rewrite (H g (or_introl eq_refl)), IH; [ring |]. intros q Hq. apply H. now right.
Qed.
Lemma min_derive (l : list ((R -> R) * R)) (x : R) : let ds := values (map fst l) x in
  (forall fd, In fd l -> continuous (fst fd) x /\ (fst fd x = lmin ds -> is_derive (fst fd) x (snd fd))) -> nearest_once ds ->
  is_derive (fun y => lmin (values (map fst l) y)) x (fold_right Rplus 0 (map (fun fd => share ds (lmin ds) (fst fd x) * snd fd) l)).
Proof.
  intros ds H N. destruct l as [| fd0 l0]; [apply is_derive_Reals, derivable_pt_lim_const |]. set (l := fd0 :: l0) in *.
  assert (Ed : ds = map (fun fd => fst fd x) l) by (unfold ds, values; now rewrite map_map).
  destruct (nearest_split (fun fd => fst fd x) l ltac:(discriminate) ltac:(rewrite <- Ed; exact N)) as (l1 & s & l2 & El & Es & Hg).
  rewrite <- Ed in Es.
  assert (In1 : forall g, In g (l1 ++ l2) -> In g l) by (intros g G; rewrite El; apply in_app_or in G; apply in_or_app; cbn; tauto).
  assert (Is : In s l) by (rewrite El; apply in_elt). destruct (H s Is) as [Cs Ds]. specialize (Ds Es).
  assert (Sum : fold_right Rplus 0 (map (fun fd => share ds (lmin ds) (fst fd x) * snd fd) l) = snd s).
  { rewrite El. rewrite sum_only.
    - rewrite Es. assert (S1 : share ds (lmin ds) (lmin ds) = 1).
      { rewrite <- Es. rewrite Ed, El, map_app. cbn [map]. apply share_only. intros z Hz. rewrite <- map_app in Hz. apply in_map_iff in Hz. destruct Hz as (g & <- & G). specialize (Hg g G). cbn in Hg. lra. }
      rewrite S1. ring.
    - intros g G. rewrite share_no; [ring |]. specialize (Hg g G). cbn in Hg. rewrite <- Es. lra. }
  rewrite Sum. apply (is_derive_ext_loc (fst s)); [| exact Ds].
  pose proof (smallest_locally (map fst l1) (map fst l2) (fst s) x Cs) as L.
  eapply filter_imp; [| apply L].
  - intros y Hy. cbn beta in Hy. rewrite <- Hy, El, map_app. reflexivity.
  - intros g G. rewrite <- map_app in G. apply in_map_iff in G. destruct G as (fd & <- & G). split; [apply (H fd (In1 fd G)) | exact (Hg fd G)].
Qed.
Lemma cont_lmin (l : list (R -> R)) (x : R) : (forall f, In f l -> continuous f x) -> continuous (fun y => lmin (values l y)) x.
Proof.
  intros H. destruct l as [| f l]; [apply continuous_const |]. unfold values. cbn [map lmin].
  assert (Cf : continuous f x) by (apply H; now left). assert (Hl : forall g, In g l -> continuous g x) by (intros g G; apply H; now right). clear H.
  revert f Cf. induction l as [| g l IH]; intros f Cf; cbn [map fold_left]; [exact Cf |].
  apply (IH (fun q Hq => Hl q (or_intror Hq)) (fun y => nmin (f y) (g y))).
  apply (continuous_ext (fun y => Rmin (f y) (g y))); [intros y; symmetry; apply nmin_R |]. apply cont_min; [exact Cf | apply Hl; now left].
Qed.

(** ** every distance is continuous *)
Lemma c_plus (f g : R -> R) (x : R) : continuous f x -> continuous g x -> continuous (fun y => f y + g y) x.
Proof. apply (continuous_plus (V := R_NormedModule) f g). Qed.
Lemma c_minus (f g : R -> R) (x : R) : continuous f x -> continuous g x -> continuous (fun y => f y - g y) x.
Proof. apply (continuous_minus (V := R_NormedModule) f g). Qed.
Lemma c_mult (f g : R -> R) (x : R) : continuous f x -> continuous g x -> continuous (fun y => f y * g y) x.
Proof. apply (continuous_mult (K := R_AbsRing) f g). Qed.
Lemma c_const (c x : R) : continuous (fun _ : R => c) x.
Proof. apply continuous_const. Qed.
Lemma c_root (a b c : R -> R) (k x : R) : continuous a x -> continuous b x -> continuous c x -> continuous (fun y => sqrt (a y * a y + b y * b y + c y * c y + k)) x.
Proof.
  intros A B C. apply (continuous_sqrt_comp (fun y => a y * a y + b y * b y + c y * c y + k)).
  repeat apply c_plus; try apply c_const; apply c_mult; assumption.
Qed.
Lemma c_safe_norm (a b c : R -> R) (x : R) : continuous a x -> continuous b x -> continuous c x -> continuous (fun y => safe_norm (V3 (a y) (b y) (c y))) x.
Proof. intros A B C. exact (c_root a b c tiny x A B C). Qed.
Lemma vnorm_sq (a b c : R) : vnorm (V3 a b c) = sqrt (a * a + b * b + c * c + 0).
Proof. rewrite Rplus_0_r. reflexivity. Qed.
Lemma c_vnorm (a b c : R -> R) (x : R) : continuous a x -> continuous b x -> continuous c x -> continuous (fun y => vnorm (V3 (a y) (b y) (c y))) x.
Proof.
  intros A B C. apply (continuous_ext (fun y => sqrt (a y * a y + b y * b y + c y * c y + 0))); [intros y; symmetry; apply vnorm_sq |]. apply c_root; assumption.
Qed.
Lemma c_abs (f : R -> R) (x : R) : continuous f x -> continuous (fun y => nabs (f y)) x.
Proof. intros C. apply (continuous_ext (fun y => Rabs (f y))); [intros y; symmetry; apply nabs_R |]. apply (continuous_Rabs_comp f). exact C. Qed.
Lemma c_nmax (f g : R -> R) (x : R) : continuous f x -> continuous g x -> continuous (fun y => nmax (f y) (g y)) x.
Proof. intros A B. apply (continuous_ext (fun y => Rmax (f y) (g y))); [intros y; symmetry; apply nmax_R |]. apply cont_max; assumption. Qed.
Lemma c_nmin (f g : R -> R) (x : R) : continuous f x -> continuous g x -> continuous (fun y => nmin (f y) (g y)) x.
Proof. intros A B. apply (continuous_ext (fun y => Rmin (f y) (g y))); [intros y; symmetry; apply nmin_R |]. apply cont_min; assumption. Qed.
Lemma c_faces2 (a b : R -> R) (x : R) : continuous a x -> continuous b x -> continuous (fun y => faces [a y; b y] (V3 (a y) (b y) 0)) x.
Proof.
  intros A B. unfold faces. apply c_plus.
  - apply (c_safe_norm (fun y => nmax (a y) 0) (fun y => nmax (b y) 0) (fun _ => nmax 0 0)); [apply c_nmax | apply c_nmax | apply c_const]; try assumption; apply c_const.
  - apply (c_nmin (fun y => nmax (a y) (b y)) (fun _ => 0)); [apply c_nmax; assumption | apply c_const].
Qed.
Lemma c_faces3 (a b c : R -> R) (x : R) : continuous a x -> continuous b x -> continuous c x -> continuous (fun y => faces [a y; b y; c y] (V3 (a y) (b y) (c y))) x.
Proof.
  intros A B C. unfold faces. apply c_plus.
  - apply (c_safe_norm (fun y => nmax (a y) 0) (fun y => nmax (b y) 0) (fun y => nmax (c y) 0)); apply c_nmax; try assumption; apply c_const.
  - apply (c_nmin (fun y => nmax (nmax (a y) (b y)) (c y)) (fun _ => 0)); [| apply c_const]. apply (c_nmax (fun y => nmax (a y) (b y)) c); [apply c_nmax |]; assumption.
Qed.
(** the point at parameter h on the line through p with direction w *)
Definition along (p w : vec3 R) (h : R) : vec3 R := V3 (vx p + h * vx w) (vy p + h * vy w) (vz p + h * vz w).
Lemma c_line (a b x : R) : continuous (fun h => a + h * b) x.
Proof. apply c_plus; [apply c_const |]. apply c_mult; [apply continuous_id | apply c_const]. Qed.
Lemma d_line (a b x : R) : is_derive (fun h => a + h * b) x b.
Proof. auto_derive; [exact I | ring]. Qed.
Lemma c_xz d p w x : continuous (fun h => vy (xz d (along p w h))) x.
Proof. destruct d; apply c_line. Qed.
Lemma walls_values d lo hi p w h : walls d lo hi (along p w h) =
  values (map (fun k => fun h => k (along p w h)) (match d with
    | D2 => [(fun q => vx q - vx lo); (fun q => vy q - vy lo); (fun q => vx hi - vx q); (fun q => vy hi - vy q)]
    | D3 => [(fun q => vx q - vx lo); (fun q => vy q - vy lo); (fun q => vz q - vz lo); (fun q => vx hi - vx q); (fun q => vy hi - vy q); (fun q => vz hi - vz q)] end)) h.
Proof. destruct d; reflexivity. Qed.
Lemma dist_cont (d : Dim) (p w : vec3 R) (x : R) : forall s : Shape R, continuous (fun h => dist_local d s (along p w h)) x.
Proof.
  fix IH 1. intros s. destruct s as [half | r | n | r hh | ht ro ri ring | r hh | R0 r | l fr | lo hi fr]; cbn [dist_local].
  - clear IH. destruct d.
    + apply (c_faces2 (fun h => nabs (vx p + h * vx w) - vx half) (fun h => nabs (vy p + h * vy w) - vy half)); apply c_minus; try apply c_const; apply c_abs, c_line.
    + apply (c_faces3 (fun h => nabs (vx p + h * vx w) - vx half) (fun h => nabs (vy p + h * vy w) - vy half) (fun h => nabs (vz p + h * vz w) - vz half)); apply c_minus; try apply c_const; apply c_abs, c_line.
  - apply c_minus; [| apply c_const]. apply c_vnorm; apply c_line.
  - apply c_plus; [apply c_plus |]; apply c_mult; try apply c_const; apply c_line.
  - apply c_minus; [| apply c_const]. apply c_safe_norm; [apply c_line | | apply c_line].
    apply c_minus; [apply c_line |]. apply (c_nmin (fun h => nmax (vy p + h * vy w) (- hh)) (fun _ => hh)); [apply c_nmax; [apply c_line | apply c_const] | apply c_const].
  - clear IH. set (r := fun h => match d with D3 => vnorm (xz D3 (along p w h)) | D2 => if ring then vnorm (along p w h) else nabs (vx (along p w h)) end).
    set (dy := fun h => match d with D3 => vy (along p w h) | D2 => if ring then - nofZ (10 ^ 9) else nabs (vy (along p w h)) - ht / 2 end).
    assert (Cr : continuous r x).
    { unfold r. destruct d; [destruct ring; [apply c_vnorm; apply c_line | apply c_abs, c_line] |]. apply (c_vnorm _ _ (fun _ => 0)); [apply c_line | apply c_line | apply c_const]. }
    assert (Cy : continuous dy x).
    { unfold dy. destruct d; [destruct ring; [apply c_const | apply c_minus; [apply c_abs, c_line | apply c_const]] | apply c_line]. }
    apply (c_faces2 (fun h => nmax (r h - ro) (ri - r h)) dy); [| exact Cy]. apply c_nmax; apply c_minus; try apply c_const; exact Cr.
  - apply (c_faces2 (fun h => safe_norm (xz d (along p w h)) - r) (fun h => nabs (vy (along p w h)) - hh)); apply c_minus; try apply c_const; [| apply c_abs, c_line].
    apply (c_safe_norm _ (fun h => vy (xz d (along p w h))) (fun _ => 0)); [apply c_line | apply c_xz | apply c_const].
  - apply c_minus; [| apply c_const]. apply (c_vnorm _ _ (fun _ => 0)); [| apply c_line | apply c_const]. apply c_minus; [| apply c_const].
    apply (c_safe_norm _ (fun h => vy (xz d (along p w h))) (fun _ => 0)); [apply c_line | apply c_xz | apply c_const].
  - apply (continuous_ext (fun h => lmin (values (map (fun s => fun h => dist_local d s (along p w h)) l) h))); [intros h; unfold values; now rewrite map_map |].
    apply cont_lmin. clear - IH. induction l as [| s l IHl]; intros f Hf; [destruct Hf |]. destruct Hf as [<- | Hf]; [apply IH | apply IHl; exact Hf].
  - apply (continuous_ext (fun h => lmin (values (map (fun k => fun h => k (along p w h)) (match d with
    | D2 => [(fun q => vx q - vx lo); (fun q => vy q - vy lo); (fun q => vx hi - vx q); (fun q => vy hi - vy q)]
    | D3 => [(fun q => vx q - vx lo); (fun q => vy q - vy lo); (fun q => vz q - vz lo); (fun q => vx hi - vx q); (fun q => vy hi - vy q); (fun q => vz hi - vz q)] end)) h)));
      [intros h; now rewrite walls_values |].
    clear IH. apply cont_lmin. intros f Hf. destruct d; cbn [map In] in Hf; repeat (destruct Hf as [<- | Hf]; [apply c_minus; try apply c_const; apply c_line |]); destruct Hf.
Qed.

(** ** points off the edges *)
(** faces at distances a, b, c (negative inside): none of them reached, and inside no two equally near *)
Definition clear2 (a b : R) : Prop := a <> 0 /\ b <> 0 /\ (a < 0 -> b < 0 -> a <> b).
Definition clear3 (a b c : R) : Prop := a <> 0 /\ b <> 0 /\ c <> 0 /\ (a < 0 -> b < 0 -> c < 0 -> a <> b /\ b <> c /\ c <> a).
(** distance to the axis of a solid of revolution: to the y axis in space, to the centre in the plane *)
Definition from_axis (d : Dim) (p : vec3 R) : R := match d with D2 => sqrt ((vx p)² + (vy p)²) | D3 => sqrt ((vx p)² + (vz p)²) end.
Fixpoint no_edge (d : Dim) (s : Shape R) (p : vec3 R) : Prop :=
  match s with
  | Box h => vx p <> 0 /\ vy p <> 0 /\ match d with
      | D2 => clear2 (Rabs (vx p) - vx h) (Rabs (vy p) - vy h)
      | D3 => vz p <> 0 /\ clear3 (Rabs (vx p) - vx h) (Rabs (vy p) - vy h) (Rabs (vz p) - vz h) end
  | Sphere _ => edist p (V3 0 0 0) <> 0
  | Plane _ => True
  | Capsule _ hh => vy p <> hh /\ vy p <> - hh /\ 0 < hh
  | Hollow h ro ri ring =>
      match d with
      | D3 => let r := from_axis D3 p in r <> 0 /\ r - ro <> ri - r /\ clear2 (Rmax (r - ro) (ri - r)) (vy p)
      | D2 => if ring then let r := edist p (V3 0 0 0) in r <> 0 /\ r - ro <> ri - r /\ clear2 (Rmax (r - ro) (ri - r)) (- 10 ^ 9)
              else vx p <> 0 /\ vy p <> 0 /\ Rabs (vx p) - ro <> ri - Rabs (vx p) /\ clear2 (Rmax (Rabs (vx p) - ro) (ri - Rabs (vx p))) (Rabs (vy p) - h / 2)
      end
  | Cylinder r hh => vy p <> 0 /\ clear2 (sqrt ((from_axis d p)² + tiny) - r) (Rabs (vy p) - hh)
  | Torus R0 _ => sqrt ((from_axis d p)² + tiny) <> R0 \/ vy p <> 0
  | Composite l _ => let ds := map (fun s => dist_local d s p) l in
      nearest_once ds /\ fold_right (fun s P => (dist_local d s p = lmin ds -> no_edge d s p) /\ P) True l
  | Domain lo hi _ => nearest_once (walls d lo hi p)
  end.
Lemma from_axis_sq d (p : vec3 R) : (from_axis d p)² = vx (xz d p) * vx (xz d p) + vy (xz d p) * vy (xz d p).
Proof.
  unfold from_axis. destruct d; rewrite Rsqr_sqrt; try reflexivity; [pose proof (Rle_0_sqr (vx p)); pose proof (Rle_0_sqr (vy p)) | pose proof (Rle_0_sqr (vx p)); pose proof (Rle_0_sqr (vz p))]; lra.
Qed.
Lemma safe_axis d (p : vec3 R) : safe_norm (xz d p) = sqrt ((from_axis d p)² + tiny).
Proof. rewrite from_axis_sq, safe_norm_eq. f_equal. assert (E : vz (xz d p) = 0) by (destruct d; reflexivity). rewrite E. ring. Qed.
Lemma vnorm_axis (p : vec3 R) : vnorm (xz D3 p) = from_axis D3 p.
Proof. unfold xz. rewrite vnorm_sq. unfold from_axis. f_equal. unfold Rsqr. change n0 with 0. ring. Qed.
Lemma vnorm_edist (p : vec3 R) : vnorm p = edist p (V3 0 0 0).
Proof. destruct p as [a b c]. rewrite vnorm_sq. unfold edist. cbn [vx vy vz]. f_equal. unfold Rsqr. ring. Qed.
Lemma vnorm_derive (a b c : R -> R) (x da db dc : R) : is_derive a x da -> is_derive b x db -> is_derive c x dc -> vnorm (V3 (a x) (b x) (c x)) <> 0 ->
  let v := V3 (a x) (b x) (c x) in
  is_derive (fun y => vnorm (V3 (a y) (b y) (c y))) x (a x / vnorm v * da + b x / vnorm v * db + c x / vnorm v * dc).
Proof.
  intros A B C H v. apply (is_derive_ext (fun y => sqrt (a y * a y + b y * b y + c y * c y + 0))); [intros y; symmetry; apply vnorm_sq |].
  rewrite vnorm_sq in H.
  assert (P : 0 < a x * a x + b x * b x + c x * c x + 0).
  { destruct (Rlt_dec 0 (a x * a x + b x * b x + c x * c x + 0)) as [G | G]; [exact G | exfalso; apply H]. apply sqrt_neg_0. lra. }
  pose proof (norm_derive a b c x da db dc 0 A B C P) as D. pose proof (sqrt_lt_R0 _ P) as S.
  match goal with |- is_derive _ _ ?k => match type of D with is_derive _ _ ?w => replace k with w; [exact D |] end end.
  unfold v. rewrite vnorm_sq. field. lra.
Qed.
Lemma d_minus_c (f : R -> R) (x df c : R) : is_derive f x df -> is_derive (fun y => f y - c) x df.
Proof.
  intros D. replace df with (minus df 0) by (unfold minus, plus, opp; cbn; ring).
  apply (is_derive_minus (V := R_NormedModule) f (fun _ => c)); [exact D | apply is_derive_Reals, derivable_pt_lim_const].
Qed.
Lemma d_c_minus (f : R -> R) (x df c : R) : is_derive f x df -> is_derive (fun y => c - f y) x (- df).
Proof.
  intros D. replace (- df) with (minus 0 df) by (unfold minus, plus, opp; cbn; ring).
  apply (is_derive_minus (V := R_NormedModule) (fun _ => c) f); [apply is_derive_Reals, derivable_pt_lim_const | exact D].
Qed.
Lemma d_const (c x : R) : is_derive (fun _ : R => c) x 0.
Proof. apply is_derive_Reals, derivable_pt_lim_const. Qed.
Lemma d_nabs (f : R -> R) (x df : R) : is_derive f x df -> f x <> 0 -> is_derive (fun y => nabs (f y)) x (nsign (f x) * df).
Proof. intros D N. apply (is_derive_ext (fun y => Rabs (f y))); [intros y; symmetry; apply nabs_R | apply abs_derive; assumption]. Qed.
(** the derivative along a line, allowing any rearrangement of the slope *)
Ltac slope_is D := match goal with |- is_derive _ _ ?k => match type of D with is_derive _ _ ?w => replace k with w; [exact D |] end end.
Lemma clear2_faces (a b : R -> R) (x da db k : R) : is_derive a x da -> is_derive b x db -> clear2 (a x) (b x) ->
  k = vx (dfaces [a x; b x] (V3 (a x) (b x) 0)) * da + vy (dfaces [a x; b x] (V3 (a x) (b x) 0)) * db ->
  is_derive (fun y => faces [a y; b y] (V3 (a y) (b y) 0)) x k.
Proof. intros A B (N1 & N2 & N3) ->. apply faces2_derive; assumption. Qed.
Lemma axis_derive d (p w : vec3 R) (x : R) : let q := xz d (along p w x) in
  is_derive (fun h => safe_norm (xz d (along p w h))) x (vx q / safe_norm q * vx w + vy q / safe_norm q * match d with D2 => vy w | D3 => vz w end).
Proof.
  intros q. pose proof (safe_norm_derive (fun h => vx p + h * vx w) (fun h => vy (xz d (along p w h))) (fun _ => 0) x (vx w) (match d with D2 => vy w | D3 => vz w end) 0
    (d_line _ _ _) ltac:(destruct d; apply d_line) (d_const _ _)) as D. cbv zeta in D.
  change (fun h => safe_norm (xz d (along p w h))) with (fun y => safe_norm (V3 (vx p + y * vx w) (vy (xz d (along p w y))) 0)).
  slope_is D. change (V3 (vx p + x * vx w) (vy (xz d (along p w x))) 0) with q. change (vx p + x * vx w) with (vx q). fold q. unfold Rdiv. ring.
Qed.
Theorem grad_derive (d : Dim) (p w : vec3 R) (x : R) : forall s : Shape R, on d w -> no_edge d s (along p w x) ->
  is_derive (fun h => dist_local d s (along p w h)) x (vdot (grad_local d s (along p w x)) w).
Proof.
  fix IH 1. intros s W N. set (q := along p w x) in *.
  destruct s as [half | r | n | r hh | ht ro ri ring | r hh | R0 r | l fr | lo hi fr]; cbn [dist_local grad_local]; cbn [no_edge] in N.
  - clear IH. destruct N as (Nx & Ny & N).
    assert (Dx : is_derive (fun h => nabs (vx p + h * vx w) - vx half) x (nsign (vx q) * vx w)) by (apply d_minus_c, (d_nabs (fun h => vx p + h * vx w) x (vx w)); [apply d_line | exact Nx]).
    assert (Dy : is_derive (fun h => nabs (vy p + h * vy w) - vy half) x (nsign (vy q) * vy w)) by (apply d_minus_c, (d_nabs (fun h => vy p + h * vy w) x (vy w)); [apply d_line | exact Ny]).
    destruct d.
    + apply (clear2_faces _ _ x _ _ _ Dx Dy); [rewrite !nabs_R; exact N |].
      change (vx p + x * vx w) with (vx q). change (vy p + x * vy w) with (vy q). unfold vdot. cbn [vtrunc vmap2 vx vy vz axes vsub vmap]. cbv [on] in W. rewrite W.
      clear. clearbody q. rnum. ring.
    + destruct N as (Nz & N1 & N2 & N3 & N4).
      assert (Dz : is_derive (fun h => nabs (vz p + h * vz w) - vz half) x (nsign (vz q) * vz w)) by (apply d_minus_c, (d_nabs (fun h => vz p + h * vz w) x (vz w)); [apply d_line | exact Nz]).
      pose proof (faces3_derive _ _ _ x _ _ _ Dx Dy Dz) as D. cbv beta in D. rewrite !nabs_R in D. specialize (D N1 N2 N3 N4). rewrite <- !nabs_R in D. cbv zeta in D.
      slope_is D. change (vx p + x * vx w) with (vx q). change (vy p + x * vy w) with (vy q). change (vz p + x * vz w) with (vz q).
      unfold vdot. cbn [vtrunc vmap2 vx vy vz axes vsub vmap]. unfold vsub, vmap. cbn [vx vy vz]. clear. clearbody q. rnum. ring.
  - clear IH. apply d_minus_c. rewrite <- vnorm_edist in N.
    pose proof (vnorm_derive _ _ _ x _ _ _ (d_line (vx p) (vx w) x) (d_line (vy p) (vy w) x) (d_line (vz p) (vz w) x) N) as D. cbv zeta in D. exact D.
  - clear IH. unfold vdot. cbn [along vx vy vz]. change (@numt_num R NumT_R) with Num_R. rnum. auto_derive; [exact I | ring].
  - clear IH. apply d_minus_c. destruct N as (N1 & N2 & Hh).
    assert (Dc : is_derive (fun h => nclip (vy p + h * vy w) (- hh) hh) x (dmin (nmax (vy q) (- hh)) hh * dmax (vy q) (- hh) * vy w)).
    { unfold nclip. change (@numt_num R NumT_R) with Num_R.
      apply (is_derive_ext (fun h => Rmin (Rmax (vy p + h * vy w) (- hh)) hh)); [intros h; rewrite nmin_R, nmax_R; reflexivity |].
      pose proof (dmax_derive (fun h => vy p + h * vy w) x (vy w) (- hh) (d_line _ _ _) N2) as D1.
      pose proof (dmin_derive (fun h => Rmax (vy p + h * vy w) (- hh)) x _ hh D1) as D2.
      assert (Nc : Rmax (vy p + x * vy w) (- hh) <> hh).
      { cbn [q along vy] in N1, N2. unfold Rmax. destruct (Rle_dec (vy p + x * vy w) (- hh)) as [L | L]; [lra | exact N1]. }
      specialize (D2 Nc). slope_is D2. rewrite nmax_R. change (vy q) with (vy p + x * vy w). ring. }
    pose proof (safe_norm_derive (fun h => vx p + h * vx w) (fun h => vy p + h * vy w - nclip (vy p + h * vy w) (- hh) hh) (fun h => vz p + h * vz w) x (vx w)
       (minus (vy w) (dmin (nmax (vy q) (- hh)) hh * dmax (vy q) (- hh) * vy w)) (vz w) (d_line _ _ _)
       (is_derive_minus (V := R_NormedModule) _ _ x _ _ (d_line (vy p) (vy w) x) Dc) (d_line _ _ _)) as D. cbv zeta in D.
    slope_is D. change (vx p + x * vx w) with (vx q). change (vy p + x * vy w) with (vy q). change (vz p + x * vz w) with (vz q). unfold vdot. cbn [vx vy vz vdivs].
    clear. clearbody q. unfold minus, plus, opp, vdivs. cbn [vx vy vz]. rnum. cbn. unfold Rdiv. ring.
  - clear IH. destruct d; [destruct ring |].
    + destruct N as (N0 & N1 & N2). rewrite <- vnorm_edist in N0, N1, N2.
      pose proof (vnorm_derive _ _ _ x _ _ _ (d_line (vx p) (vx w) x) (d_line (vy p) (vy w) x) (d_line (vz p) (vz w) x) N0) as D. cbv zeta in D.
      pose proof (max2_derive (fun h => vnorm (along p w h) - ro) (fun h => ri - vnorm (along p w h)) x _ _ (d_minus_c _ _ _ ro D) (d_c_minus _ _ _ ri D) N1) as DM.
      assert (DM' : is_derive (fun h => nmax (vnorm (along p w h) - ro) (ri - vnorm (along p w h))) x
        ((dmax (vnorm q - ro) (ri - vnorm q) - dmax (ri - vnorm q) (vnorm q - ro)) * vdot (vdivs q (vnorm q)) w)).
      { apply (is_derive_ext (fun h => Rmax (vnorm (along p w h) - ro) (ri - vnorm (along p w h)))); [intros h; symmetry; apply nmax_R |]. slope_is DM.
        cbv beta. fold q. change (V3 (vx p + x * vx w) (vy p + x * vy w) (vz p + x * vz w)) with q. change (vx p + x * vx w) with (vx q). change (vy p + x * vy w) with (vy q). change (vz p + x * vz w) with (vz q).
        unfold vdot, vdivs. cbn [vx vy vz]. clear. clearbody q. rnum. ring. }
      apply (clear2_faces _ (fun _ => - nofZ (10 ^ 9)) x _ 0 _ DM' (d_const _ _)).
      * cbv beta. fold q. rewrite nmax_R. replace (- nofZ (10 ^ 9)) with (- 10 ^ 9); [exact N2 |]. rnum. change (10 ^ 9)%Z with (10 ^ Z.of_nat 9)%Z. rewrite <- pow_IZR. reflexivity.
      * cbv beta. fold q. unfold vdot at 1. unfold vadd, vscale. cbn [vx vy vz]. unfold vdot. change (@n0 R (@numt_num R NumT_R)) with 0. clear. clearbody q. 
        generalize (dfaces [nmax (vnorm q - ro) (ri - vnorm q); - nofZ (10 ^ 9)] (V3 (nmax (vnorm q - ro) (ri - vnorm q)) (- nofZ (10 ^ 9)) 0)). intros g.
        rnum. ring.
    + destruct N as (Nx & Ny & N1 & N2). rewrite <- (nabs_R (vx q)) in N1, N2. rewrite <- (nabs_R (vy q)) in N2.
      pose proof (d_nabs (fun h => vx p + h * vx w) x (vx w) (d_line _ _ _) Nx) as D. pose proof (d_nabs (fun h => vy p + h * vy w) x (vy w) (d_line _ _ _) Ny) as Dy.
      pose proof (max2_derive (fun h => nabs (vx (along p w h)) - ro) (fun h => ri - nabs (vx (along p w h))) x _ _ (d_minus_c _ _ _ ro D) (d_c_minus _ _ _ ri D) N1) as DM.
      assert (DM' : is_derive (fun h => nmax (nabs (vx (along p w h)) - ro) (ri - nabs (vx (along p w h)))) x
        ((dmax (nabs (vx q) - ro) (ri - nabs (vx q)) - dmax (ri - nabs (vx q)) (nabs (vx q) - ro)) * (nsign (vx q) * vx w))).
      { apply (is_derive_ext (fun h => Rmax (nabs (vx (along p w h)) - ro) (ri - nabs (vx (along p w h))))); [intros h; symmetry; apply nmax_R |]. slope_is DM.
        cbv beta. fold q. change (vx p + x * vx w) with (vx q). clear. clearbody q. rnum. ring. }
      apply (clear2_faces _ _ x _ _ _ DM' (d_minus_c _ _ _ (ht / 2) Dy)).
      * cbv beta. fold q. rewrite nmax_R. exact N2.
      * cbv beta. fold q. change (vy p + x * vy w) with (vy q). unfold vdot, vadd, vscale. cbn [vx vy vz]. clear. clearbody q. change (@n2 R (@numt_num R NumT_R)) with 2. rnum. ring.
    + destruct N as (N0 & N1 & N2). rewrite <- vnorm_axis in N0, N1, N2.
      pose proof (vnorm_derive _ _ _ x _ _ _ (d_line (vx p) (vx w) x) (d_line (vz p) (vz w) x) (d_const 0 x) N0) as D. cbv zeta in D.
      pose proof (max2_derive (fun h => vnorm (xz D3 (along p w h)) - ro) (fun h => ri - vnorm (xz D3 (along p w h))) x _ _ (d_minus_c _ _ _ ro D) (d_c_minus _ _ _ ri D) N1) as DM.
      assert (DM' : is_derive (fun h => nmax (vnorm (xz D3 (along p w h)) - ro) (ri - vnorm (xz D3 (along p w h)))) x
        ((dmax (vnorm (xz D3 q) - ro) (ri - vnorm (xz D3 q)) - dmax (ri - vnorm (xz D3 q)) (vnorm (xz D3 q) - ro)) * (vx q / vnorm (xz D3 q) * vx w + vz q / vnorm (xz D3 q) * vz w))).
      { apply (is_derive_ext (fun h => Rmax (vnorm (xz D3 (along p w h)) - ro) (ri - vnorm (xz D3 (along p w h))))); [intros h; symmetry; apply nmax_R |]. slope_is DM.
        cbv beta. fold q. change (V3 (vx p + x * vx w) (vz p + x * vz w) 0) with (xz D3 q). change (vx p + x * vx w) with (vx q). change (vz p + x * vz w) with (vz q).
        clear. clearbody q. rnum. ring. }
      apply (clear2_faces _ _ x _ _ _ DM' (d_line (vy p) (vy w) x)).
      * cbv beta. fold q. rewrite nmax_R. exact N2.
      * cbv beta. fold q. change (vy p + x * vy w) with (vy q). unfold vdot, vadd, vscale, vdivs. cbn [vx vy vz]. clear. clearbody q. rnum. unfold Rdiv. ring.
  - clear IH. destruct N as (Ny & N). rewrite <- safe_axis in N. rewrite <- nabs_R in N.
    pose proof (d_minus_c _ _ _ r (axis_derive d p w x)) as Da. cbv zeta in Da. fold q in Da.
    pose proof (d_minus_c _ _ _ hh (d_nabs (fun h => vy p + h * vy w) x (vy w) (d_line _ _ _) Ny)) as Dy.
    apply (clear2_faces _ _ x _ _ _ Da Dy); [exact N |].
    cbv beta. fold q. change (vy p + x * vy w) with (vy q). unfold vdot, vadd, vscale, vdivs. clear. clearbody q. destruct d; cbn [vx vy vz]; rnum; unfold Rdiv; ring.
  - clear IH. apply d_minus_c. rewrite <- safe_axis in N.
    pose proof (d_minus_c _ _ _ R0 (axis_derive d p w x)) as Da. cbv zeta in Da. fold q in Da.
    assert (Nv : vnorm (V3 (safe_norm (xz d (along p w x)) - R0) (vy p + x * vy w) 0) <> 0).
    { rewrite vnorm_edist. intros E. unfold edist in E. cbn [vx vy vz] in E. fold q in E. change (vy p + x * vy w) with (vy q) in E.
      assert (Z : (safe_norm (xz d q) - R0 - 0)² + (vy q - 0)² + (0 - 0)² = 0).
      { apply sqrt_eq_0; [| exact E]. pose proof (Rle_0_sqr (safe_norm (xz d q) - R0 - 0)); pose proof (Rle_0_sqr (vy q - 0)); pose proof (Rle_0_sqr (0 - 0)); lra. }
      apply sq3_zero in Z. destruct Z as (Z1 & Z2 & _). destruct N as [N | N]; apply N; lra. }
    pose proof (vnorm_derive _ _ _ x _ _ _ Da (d_line (vy p) (vy w) x) (d_const 0 x) Nv) as D. cbv zeta beta in D. slope_is D. fold q.
    change (vy p + x * vy w) with (vy q). unfold vdot, vadd, vscale, vdivs. clear. clearbody q. destruct d; cbn [vx vy vz]; rnum; unfold Rdiv; ring.
  - destruct N as (N & F).
    set (fd := map (fun s => (fun h => dist_local d s (along p w h), vdot (grad_local d s q) w)) l).
    assert (Ev : forall h, map (fun s => dist_local d s (along p w h)) l = values (map fst fd) h) by (intros h; unfold values, fd; rewrite !map_map; reflexivity).
    apply (is_derive_ext (fun h => lmin (values (map fst fd) h))); [intros h; now rewrite Ev |].
    assert (Eq : map (fun s => dist_local d s q) l = values (map fst fd) x) by apply Ev.
    rewrite Eq in *.
    assert (H : forall k, In k fd -> continuous (fst k) x /\ (fst k x = lmin (values (map fst fd) x) -> is_derive (fst k) x (snd k))).
    { clear Ev Eq N. generalize dependent (lmin (values (map fst fd) x)). intros m F k Hk. unfold fd in Hk. clear fd.
      induction l as [| s l IHl]; [destruct Hk |]. cbn [fold_right] in F. destruct F as [F1 F2]. destruct Hk as [<- | Hk]; [| exact (IHl F2 Hk)].
      split; [apply dist_cont |]. intros E. apply IH; [exact W | apply F1; exact E]. }
    clear IH F. pose proof (min_derive fd x H N) as D. cbv zeta in D. slope_is D. generalize (values (map fst fd) x). intros ds. unfold fd. clear.
    induction l as [| s l IHl]; [unfold vdot, vzero; cbn; rnum; ring |]. cbn [map fold_right fst snd]. rewrite IHl. fold q.
    unfold vdot, vadd, vscale. cbn [vx vy vz]. rnum. ring.
  - clear IH. rename N into N0.
    set (fd := match d with
      | D2 => [((fun h => vx p + h * vx w - vx lo), vx w); ((fun h => vy p + h * vy w - vy lo), vy w); ((fun h => vx hi - (vx p + h * vx w)), - vx w); ((fun h => vy hi - (vy p + h * vy w)), - vy w)]
      | D3 => [((fun h => vx p + h * vx w - vx lo), vx w); ((fun h => vy p + h * vy w - vy lo), vy w); ((fun h => vz p + h * vz w - vz lo), vz w);
               ((fun h => vx hi - (vx p + h * vx w)), - vx w); ((fun h => vy hi - (vy p + h * vy w)), - vy w); ((fun h => vz hi - (vz p + h * vz w)), - vz w)] end).
    assert (Ev : forall h, walls d lo hi (along p w h) = values (map fst fd) h) by (intros h; unfold fd; destruct d; reflexivity).
    apply (is_derive_ext (fun h => lmin (values (map fst fd) h))); [intros h; now rewrite Ev |].
    assert (Eq : walls d lo hi q = values (map fst fd) x) by apply Ev. rewrite Eq in *.
    assert (H : forall k, In k fd -> continuous (fst k) x /\ (fst k x = lmin (values (map fst fd) x) -> is_derive (fst k) x (snd k))).
    { intros k Hk. assert (D : is_derive (fst k) x (snd k)).
      { unfold fd in Hk. destruct d; cbn [In] in Hk; repeat (destruct Hk as [<- | Hk]; [cbn [fst snd]; match goal with |- is_derive (fun h => ?a + h * ?b - ?c) _ _ => exact (d_minus_c (fun h => a + h * b) x b c (d_line a b x)) | |- is_derive (fun h => ?c - (?a + h * ?b)) _ _ => exact (d_c_minus (fun h => a + h * b) x b c (d_line a b x)) end |]); destruct Hk. }
      split; [exact (derive_cont _ _ _ D) | intros _; exact D]. }
    pose proof (min_derive fd x H N0) as D. cbv zeta in D. slope_is D. generalize (values (map fst fd) x). intros ds. unfold fd. clear - W.
    destruct d; unfold vdot, vsub, vmap, vtrunc; cbn [map fold_right fst snd vx vy vz q along]; [cbv [on] in W; rewrite W |]; change (@numt_num R NumT_R) with Num_R;
      change (@nsub R Num_R) with Rminus; change (@nmul R Num_R) with Rmult; change (@nadd R Num_R) with Rplus; change (@n0 R Num_R) with 0; ring.
Qed.

(** ** C140 *)
Definition back (st : SDFState R) (w : vec3 R) : vec3 R :=
  match sd_dim st with D2 => rotation_2d_inv (sd_theta st) w | D3 => quaternion_rotate (quaternion_inv (sd_quat st)) w end.
Lemma back_on st w : on (sd_dim st) w -> on (sd_dim st) (back st w).
Proof. unfold back, on. destruct (sd_dim st); intros H; [exact H | exact I]. Qed.
Lemma to_local_along st x w h : oriented st -> to_local st (along x w h) = along (to_local st x) (back st w) h.
Proof.
  intros O. unfold to_local, back, oriented in *. destruct (sd_dim st).
  - destruct x as [x y z], w as [u v k], (sd_com st) as [a b c]. unfold rotation_2d_inv, along, vsub. cbn. apply vec3_eq; cbn; ring.
  - rewrite !quaternion_inv_eq. rewrite !quaternion_rotate_eq by (apply qunit_conj; exact O).
    destruct x as [x y z], w as [u v k], (sd_com st) as [a b c], (sd_quat st) as [q0 [q1 q2 q3]]. unfold rot3, qconj, qmul, along, vsub. cbn. apply vec3_eq; cbn; ring.
Qed.
Lemma vdot_sym (a b : vec3 R) : vdot a b = vdot b a.
Proof. unfold vdot. rnum. ring. Qed.
Lemma back_dot st g w : oriented st -> vdot g (back st w) = vdot (from_local_dir st g) w.
Proof.
  intros O. unfold back, from_local_dir, oriented in *. rewrite (vdot_sym g), (vdot_sym (match sd_dim st with D2 => _ | D3 => _ end) w). destruct (sd_dim st).
  - rewrite dot_rot2. reflexivity.
  - rewrite dot_rot3 by exact O. rewrite quaternion_rotate_eq by exact O. reflexivity.
Qed.
Lemma along_0 x w : along x w 0 = x.
Proof. destruct x as [a b c]. unfold along. cbn [vx vy vz]. apply vec3_eq; cbn [vx vy vz]; ring. Qed.
(** the point of the object's frame whose distance is evaluated *)
Definition seen (s : Shape R) (st : SDFState R) (x : vec3 R) : vec3 R :=
  match s with Sphere _ => vsub x (sd_com st) | Domain _ _ _ => x | _ => to_local st x end.
Definition zero3 : vec3 R := V3 0 0 0.
Theorem C140_normal : forall (s : Shape R) st x, ~ is_domain s -> oriented st -> no_edge (sd_dim st) s (seen s st x) ->
  exists G, (forall w, on (sd_dim st) w -> is_derive (fun h => signed_distance s st (along x w h)) 0 (dot G w)) /\
    get_normal s st x = vdivs G (edist G zero3 + tiny) /\ edist (get_normal s st x) zero3 = edist G zero3 / (edist G zero3 + tiny).
Proof.
  intros s st x Hs O N.
  assert (L : forall G : vec3 R, edist (vdivs G (edist G zero3 + tiny)) zero3 = edist G zero3 / (edist G zero3 + tiny)).
  { intros G. pose proof tiny_pos as T. pose proof (edist_pos G zero3) as P. set (k := edist G zero3 + tiny) in *.
    assert (K : 0 < k) by (unfold k; lra). unfold edist, zero3. cbn [vdivs vx vy vz].
    match goal with |- sqrt ?u = sqrt ?v / k => replace u with (v * (/ k)²) by (rnum; unfold Rsqr, Rdiv; ring) end.
    rewrite sqrt_mult_alt by (pose proof (Rle_0_sqr (vx G - 0)); pose proof (Rle_0_sqr (vy G - 0)); pose proof (Rle_0_sqr (vz G - 0)); lra).
    rewrite sqrt_Rsqr by (left; apply Rinv_0_lt_compat; exact K). reflexivity. }
  assert (General : forall t : Shape R, seen s st x = to_local st x -> t = s -> (forall y, signed_distance s st y = dist_local (sd_dim st) s (to_local st y)) ->
    get_normal s st x = (let g := from_local_dir st (grad_local (sd_dim st) s (to_local st x)) in vdivs g (vnorm g + lit 1 (10 ^ 12))) ->
    exists G, (forall w, on (sd_dim st) w -> is_derive (fun h => signed_distance s st (along x w h)) 0 (dot G w)) /\
      get_normal s st x = vdivs G (edist G zero3 + tiny) /\ edist (get_normal s st x) zero3 = edist G zero3 / (edist G zero3 + tiny)).
  { intros t Es _ Ed En. exists (from_local_dir st (grad_local (sd_dim st) s (to_local st x))). rewrite En. cbv zeta.
    rewrite vnorm_edist. change (lit 1 (10 ^ 12)) with tiny. split; [| split; [reflexivity | apply L]].
    intros w Hw. apply (is_derive_ext (fun h => dist_local (sd_dim st) s (along (to_local st x) (back st w) h))).
    { intros h. rewrite Ed, to_local_along by exact O. reflexivity. }
    pose proof (grad_derive (sd_dim st) (to_local st x) (back st w) 0 s (back_on st w Hw)) as D. rewrite along_0 in D. rewrite Es in N. specialize (D N).
    rewrite back_dot in D by exact O. exact D. }
  destruct s as [half | r | n | r hh | ht ro ri ring | r hh | R0 r | l fr | lo hi fr];
    try (apply (General _ eq_refl eq_refl); [intros y; reflexivity | reflexivity]).
  - clear General. exists (grad_local (sd_dim st) (Sphere r) (vsub x (sd_com st))). cbn [get_normal]. rewrite vnorm_edist. change (lit 1 (10 ^ 12)) with tiny. split; [| split; [reflexivity | apply L]].
    intros w Hw. apply (is_derive_ext (fun h => dist_local (sd_dim st) (Sphere r) (along (vsub x (sd_com st)) w h))).
    { intros h. cbn [signed_distance]. f_equal. destruct x as [a b c], w as [u v k], (sd_com st) as [e f g]. unfold along, vsub. cbn. apply vec3_eq; cbn; ring. }
    pose proof (grad_derive (sd_dim st) (vsub x (sd_com st)) w 0 (Sphere r) Hw) as D. rewrite along_0 in D. exact (D N).
  - exfalso. apply Hs. exact I.
Qed.
Print Assumptions C140_normal.
(** The walls of a domain: away from the places equally far from two walls the normal is the unit vector pointing away from the nearest wall, along which
    the distance grows at rate one. *)
Lemma share_at (ws : list R) i j v : nearest_once ws -> nth_error ws i = Some (lmin ws) -> nth_error ws j = Some v ->
  share ws (lmin ws) v = if Nat.eqb i j then 1 else 0.
Proof.
  intros N Hi Hj. destruct (Nat.eqb_spec i j) as [<- | Ne].
  - rewrite Hi in Hj. injection Hj as <-. destruct (nth_error_split _ _ Hi) as (l1 & l2 & E & Len). set (m := lmin ws) in *. rewrite E. apply share_only.
    intros x Hx Ex. subst x. apply in_app_or in Hx. destruct Hx as [Hx | Hx]; apply In_nth_error in Hx; destruct Hx as [k Hk].
    + assert (Lk : (k < length l1)%nat) by (apply nth_error_Some; rewrite Hk; discriminate).
      assert (P : nth_error ws k = Some m) by (rewrite E, nth_error_app1 by exact Lk; exact Hk). pose proof (N _ _ P Hi). lia.
    + assert (P : nth_error ws (length l1 + S k) = Some m) by (rewrite E, nth_error_app2 by lia; replace (length l1 + S k - length l1)%nat with (S k) by lia; exact Hk).
      pose proof (N _ _ P Hi). lia.
  - apply share_no. intros Ev. subst v. apply Ne. exact (N _ _ Hi Hj).
Qed.
Lemma domain_grad d lo hi fr (p : vec3 R) : nearest_once (walls d lo hi p) -> grad_local d (Domain lo hi fr) p = domain_normal d lo hi p.
Proof.
  intros N. assert (Ne : walls d lo hi p <> []) by (destruct d; discriminate). destruct (argmin_spec _ Ne) as [A B].
  cbn [grad_local]. unfold domain_normal. cbv zeta. set (ws := walls d lo hi p) in *. set (i := argmin ws) in *.
  pose (S := fun j v (H : nth_error ws j = Some v) => share_at ws i j v N A H). destruct d.
  - transitivity (V3 (share ws (lmin ws) (vx p - vx lo) - share ws (lmin ws) (vx hi - vx p)) (share ws (lmin ws) (vy p - vy lo) - share ws (lmin ws) (vy hi - vy p)) 0); [reflexivity |].
    rewrite (S 0%nat (vx p - vx lo) eq_refl), (S 1%nat (vy p - vy lo) eq_refl), (S 2%nat (vx hi - vx p) eq_refl), (S 3%nat (vy hi - vy p) eq_refl).
    assert (Ei : (i = 0 \/ i = 1 \/ i = 2 \/ i = 3)%nat) by (change (i < 4)%nat in B; clear - B; clearbody i; lia). clear S A B. clearbody i. destruct Ei as [-> | [-> | [-> | ->]]]; apply vec3_eq; cbn; ring.
  - transitivity (V3 (share ws (lmin ws) (vx p - vx lo) - share ws (lmin ws) (vx hi - vx p)) (share ws (lmin ws) (vy p - vy lo) - share ws (lmin ws) (vy hi - vy p))
      (share ws (lmin ws) (vz p - vz lo) - share ws (lmin ws) (vz hi - vz p))); [reflexivity |].
    rewrite (S 0%nat (vx p - vx lo) eq_refl), (S 1%nat (vy p - vy lo) eq_refl), (S 2%nat (vz p - vz lo) eq_refl), (S 3%nat (vx hi - vx p) eq_refl), (S 4%nat (vy hi - vy p) eq_refl), (S 5%nat (vz hi - vz p) eq_refl).
    assert (Ei : (i = 0 \/ i = 1 \/ i = 2 \/ i = 3 \/ i = 4 \/ i = 5)%nat) by (change (i < 6)%nat in B; clear - B; clearbody i; lia). clear S A B. clearbody i. destruct Ei as [-> | [-> | [-> | [-> | [-> | ->]]]]]; apply vec3_eq; cbn; ring.
Qed.
Theorem C140_domain : forall lo hi fr st x, nearest_once (walls (sd_dim st) lo hi x) ->
  let n := get_normal (Domain lo hi fr) st x in
  edist n zero3 = 1 /\ on (sd_dim st) n /\
  (forall w, on (sd_dim st) w -> is_derive (fun h => signed_distance (Domain lo hi fr) st (along x w h)) 0 (dot n w)) /\
  is_derive (fun h => signed_distance (Domain lo hi fr) st (along x n h)) 0 1.
Proof.
  intros lo hi fr st x N n. set (d := sd_dim st) in *.
  assert (En : n = grad_local d (Domain lo hi fr) x) by (unfold n; cbn [get_normal]; fold d; symmetry; apply domain_grad; exact N).
  assert (Hn : dot n n = 1 /\ on d n).
  { unfold n. cbn [get_normal]. fold d. unfold domain_normal. assert (Ne : walls d lo hi x <> []) by (destruct d; discriminate). destruct (argmin_spec _ Ne) as [_ B].
    generalize dependent (argmin (walls d lo hi x)). intros i B. destruct d; cbn in B.
    - assert (Ei : (i = 0 \/ i = 1 \/ i = 2 \/ i = 3)%nat) by lia. destruct Ei as [-> | [-> | [-> | ->]]]; split; try reflexivity; unfold dot; cbn; ring.
    - assert (Ei : (i = 0 \/ i = 1 \/ i = 2 \/ i = 3 \/ i = 4 \/ i = 5)%nat) by lia. destruct Ei as [-> | [-> | [-> | [-> | [-> | ->]]]]]; split; try exact I; unfold dot; cbn; ring. }
  destruct Hn as [H1 H2].
  assert (D : forall w, on d w -> is_derive (fun h => signed_distance (Domain lo hi fr) st (along x w h)) 0 (dot n w)).
  { intros w Hw. pose proof (grad_derive d x w 0 (Domain lo hi fr) Hw) as D. rewrite along_0 in D. specialize (D N). rewrite <- En in D. exact D. }
  split; [| split; [exact H2 | split; [exact D |]]].
  - unfold edist, zero3. cbn [vx vy vz]. replace ((vx n - 0)² + (vy n - 0)² + (vz n - 0)²) with (dot n n) by (unfold dot, Rsqr; ring). rewrite H1. apply sqrt_1.
  - pose proof (D n H2) as D1. rewrite H1 in D1. exact D1.
Qed.
Print Assumptions C140_domain.
(** the full wish, that a point inside a solid is always given a direction out: on the middle plane of a plate the normal is the zero vector *)
Lemma plate_middle (hx hy y : R) : 0 < hx -> Rabs y - hy < - hx ->
  let s := Box (V3 hx hy 0) in let st := at_rest D2 zero3 0 (Quat 1 zero3) in
  signed_distance s st (V3 0 y 0) = / 10 ^ 6 - hx /\ get_normal s st (V3 0 y 0) = zero3.
Proof.
  intros Hx Hy s st.
  assert (El : to_local st (V3 0 y 0) = V3 0 y 0).
  { unfold to_local, st. cbn. unfold rotation_2d_inv, vsub, zero3. cbn. rewrite cos_0, sin_0. apply vec3_eq; cbn; ring. }
  assert (Em : lmax [- hx; Rabs y - hy] = - hx).
  { apply (lmax_top [] [Rabs y - hy] (- hx)). intros z [<- | []]. lra. }
  split.
  - transitivity (faces [nabs 0 - hx; nabs y - hy] (V3 (nabs 0 - hx) (nabs y - hy) 0)).
    { change (signed_distance s st (V3 0 y 0)) with (dist_local D2 s (to_local st (V3 0 y 0))). rewrite El. reflexivity. }
    rewrite !nabs_R, Rabs_R0. replace (0 - hx) with (- hx) by ring. unfold faces. rewrite clipped, Em. cbn [vx vy vz]. rewrite !Rmax_right by lra. rewrite safe_norm_zero. change (@numt_num R NumT_R) with Num_R. rewrite nmin_R, Rmin_left by (cbn; lra).
    change (10 ^ 6)%Z with (10 ^ Z.of_nat 6)%Z. rewrite <- pow_IZR. rnum. lra.
  - set (g := dfaces [nabs 0 - hx; nabs y - hy] (V3 (nabs 0 - hx) (nabs y - hy) 0)).
    transitivity (let G := rotation_2d 0 (V3 (vx g * nsign 0) (vy g * nsign y) 0) in vdivs G (vnorm G + tiny)).
    { unfold get_normal, s. change (local_of (Box (V3 hx hy 0)) st (V3 0 y 0)) with (to_local st (V3 0 y 0)). rewrite El. reflexivity. }
    assert (Gy : vy g = 0).
    { unfold g. rewrite !nabs_R, Rabs_R0. replace (0 - hx) with (- hx) by ring. unfold dfaces. cbv zeta. rewrite Em. cbn [vmap vx vy vz]. rewrite (share_no _ (- hx) (Rabs y - hy)) by lra.
      assert (M0 : nmax (Rabs y - hy) 0 = 0) by (rewrite nmax_R; apply Rmax_right; lra). change (@numt_num R NumT_R) with Num_R. change (@n0 R Num_R) with 0. rewrite M0. rnum. unfold Rdiv. ring. }
    assert (S0 : nsign (0 : R) = 0) by (unfold nsign; rnum; rewrite (proj2 (Rltb_false 0 0)) by lra; reflexivity).
    rewrite Gy, S0. cbv zeta.
    assert (Z : rotation_2d 0 (V3 (vx g * 0) (0 * nsign y) 0) = zero3).
    { unfold rotation_2d, zero3. cbn [vx vy vz]. apply vec3_eq; cbn [vx vy vz]; rnum; ring. }
    rewrite Z. unfold vdivs, zero3. cbn [vx vy vz]. apply vec3_eq; cbn [vx vy vz]; rnum; unfold Rdiv; ring.
Qed.
Theorem C140_refuted : ~ (forall s st x, ~ is_domain s -> oriented st -> on (sd_dim st) x -> signed_distance s st x < 0 -> get_normal s st x <> zero3).
Proof.
  intros H. destruct (plate_middle 1 3 1 ltac:(lra) ltac:(rewrite Rabs_R1; lra)) as [A B].
  refine (H _ _ _ _ _ _ _ B); [cbn; tauto | exact I | reflexivity |]. rewrite A. lra.
Qed.
Print Assumptions C140_refuted.
(** Where several parts of a union are equally near, its slope is the mean of theirs (reverse mode of jnp.min shares equally). *)
Theorem C140_tie : forall d (l : list (Shape R)) fr (p : vec3 R), l <> [] ->
  let near := filter (fun s => Reqb (dist_local d s p) (dist_local d (Composite l fr) p)) l in
  near <> [] /\ (forall s, In s near <-> In s l /\ forall t, In t l -> dist_local d s p <= dist_local d t p) /\
  vscale (INR (length near)) (grad_local d (Composite l fr) p) = fold_right vadd vzero (map (fun s => grad_local d s p) near).
Proof.
  intros d l fr p Hn. change (dist_local d (Composite l fr) p) with (lmin (map (fun s => dist_local d s p) l)).
  set (m := lmin (map (fun s => dist_local d s p) l)). intros near.
  assert (Hd : map (fun s => dist_local d s p) l <> []) by (destruct l; [contradiction|discriminate]).
  pose proof (lmin_in _ Hd) as I. fold m in I. apply in_map_iff in I. destruct I as (s0 & E0 & H0).
  assert (N0 : In s0 near) by (apply filter_In; split; [exact H0|apply Reqb_true, E0]).
  split; [intros Z; rewrite Z in N0; destruct N0|]. split.
  - intros s. unfold near. rewrite filter_In, Reqb_true. split.
    + intros [A B]. split; [exact A|]. intros t Ht. rewrite B. apply lmin_le, (in_map (fun s => dist_local d s p)), Ht.
    + intros [A B]. split; [exact A|]. apply Rle_antisym; [rewrite <- E0; apply B, H0|]. apply lmin_le, (in_map (fun s => dist_local d s p)), A.
  - assert (Ln : length (filter (fun y => Reqb y m) (map (fun s => dist_local d s p) l)) = length near).
    { assert (G : forall l0, length (filter (fun y => Reqb y m) (map (fun s => dist_local d s p) l0)) = length (filter (fun s => Reqb (dist_local d s p) m) l0)).
      { clear. clearbody m. induction l0 as [|a l0 IH]; [reflexivity|]. cbn [map filter]. destruct (Reqb (dist_local d a p) m); cbn [length]; rewrite IH; reflexivity. }
      apply G. }
    assert (Pos : INR (length near) <> 0) by (apply not_0_INR; destruct near; [destruct N0|discriminate]).
    change (grad_local d (Composite l fr) p)
      with (fold_right vadd vzero (map (fun s => vscale (share (map (fun s => dist_local d s p) l) m (dist_local d s p)) (grad_local d s p)) l)).
    set (ds := map (fun s => dist_local d s p) l) in *. set (k := INR (length near)) in *.
    assert (Sh : forall s, share ds m (dist_local d s p) = if Reqb (dist_local d s p) m then / k else 0).
    { intros s. assert (Q : forall x, share ds m x = if Reqb x m then 1 / IZR (Z.of_nat (length (filter (fun y => Reqb y m) ds))) else 0) by reflexivity.
      rewrite Q. destruct (Reqb (dist_local d s p) m); [|reflexivity]. rewrite Ln. unfold k. rewrite INR_IZR_INZ. unfold Rdiv. ring. }
    unfold near. clearbody ds k. clear N0 Ln Hd E0 H0 Hn.
    assert (G : forall l0, vscale k (fold_right vadd vzero (map (fun s => vscale (share ds m (dist_local d s p)) (grad_local d s p)) l0))
        = fold_right vadd vzero (map (fun s => grad_local d s p) (filter (fun s => Reqb (dist_local d s p) m) l0))).
    { induction l0 as [|s l0 IH].
      - cbn. apply vec3_eq; cbn; rnum; ring.
      - cbn [map fold_right filter]. rewrite Sh. destruct (Reqb (dist_local d s p) m); cbn [map fold_right]; rewrite <- IH;
          set (a := fold_right _ _ _); set (g := grad_local d s p); clearbody a g; destruct a, g; apply vec3_eq; cbn; rnum; try (field; exact Pos); ring. }
    apply G.
Qed.
Print Assumptions C140_tie.

Example C140_case : let st := at_rest D3 (V3 1 2 3) 0 (Quat (3 / 5) (V3 (4 / 5) 0 0)) in let st0 := at_rest D3 zero3 0 (Quat 1 zero3) in
  oriented st /\ no_edge D3 (Box (V3 1 2 3)) (V3 (1 / 2) 1 (- 1)) /\ no_edge D3 (Composite [Sphere 1; Plane (V3 0 1 0)] [1; 2]) (V3 0 3 4) /\
  nearest_once (walls D2 zero3 (V3 10 10 0) (V3 1 2 0)) /\ get_normal (Domain zero3 (V3 10 10 0) [1; 1; 1; 1]) (at_rest D2 zero3 0 (Quat 1 zero3)) (V3 1 2 0) = V3 1 0 0.
Proof.
  assert (A1 : Rabs (1 / 2) = 1 / 2) by (apply Rabs_right; lra). assert (A2 : Rabs (- 1) = 1) by (rewrite Rabs_left; lra).
  assert (W : walls D2 zero3 (V3 10 10 0) (V3 1 2 0) = [1; 2; 9; 8]) by (unfold walls, zero3; cbn; repeat f_equal; ring).
  assert (M : lmin [1; 2; 9; 8] = 1) by (apply (lmin_bot [] [2; 9; 8] 1); intros z [<- | [<- | [<- | []]]]; lra).
  assert (V : vnorm (V3 0 3 4 : vec3 R) = 5) by (rewrite vnorm_sq; replace (0 * 0 + 3 * 3 + 4 * 4 + 0) with (5 * 5) by ring; apply sqrt_square; lra).
  cbv zeta. split; [| split; [| split; [| split]]].
  - unfold oriented. cbn. unfold qunit, Rsqr. cbn. lra.
  - cbn [no_edge vx vy vz]. unfold clear3. rewrite A1, A2, Rabs_R1. repeat split; lra.
  - assert (E1 : dist_local D3 (Sphere 1) (V3 0 3 4) = 4) by (transitivity (vnorm (V3 0 3 4 : vec3 R) - 1); [reflexivity | rewrite V; ring]).
    assert (E2 : dist_local D3 (Plane (V3 0 1 0)) (V3 0 3 4) = 3) by (cbn; ring).
    assert (M2 : lmin [4; 3] = 3) by (apply (lmin_bot [4] [] 3); intros z [<- | []]; lra).
    cbn [no_edge map fold_right]. rewrite E1, E2, M2.
    split; [| split; [intros F; exfalso; lra | split; [auto | exact I]]].
    unfold nearest_once. rewrite M2. intros [| [| i]] [| [| j]] Hi Hj; cbn in Hi, Hj; try reflexivity; try (injection Hi as Hi; exfalso; lra); try (injection Hj as Hj; exfalso; lra); destruct i || destruct j; discriminate.
  - rewrite W. unfold nearest_once. rewrite M. intros i j. destruct i as [| [| [| [| i]]]], j as [| [| [| [| j]]]]; cbn; intros Hi Hj; try reflexivity;
      try (injection Hi as Hi; exfalso; lra); try (injection Hj as Hj; exfalso; lra); try (destruct i; discriminate); destruct j; discriminate.
  - cbn [get_normal]. unfold domain_normal. change (sd_dim (at_rest D2 zero3 0 (Quat 1 zero3))) with D2. rewrite W.
    assert (A : argmin [1; 2; 9; 8] = 0%nat).
    { unfold argmin. cbn [argmin_from]. rnum. rewrite (proj2 (Rltb_false 2 1)), (proj2 (Rltb_false 9 1)), (proj2 (Rltb_false 8 1)) by lra. reflexivity. }
    rewrite A. apply vec3_eq; cbn; ring.
Qed.
