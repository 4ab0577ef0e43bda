(** Property theorems C71-C73: seeding particles in a body. *)
From Coq Require Import List ZArith Bool String Reals Lra Lia.
From Flocq Require Import Core.Raux.
From Verif Require Import Num NumR Linalg Arrays ModelGrid ModelShape ModelMath ModelState ModelLaws ModelForces ModelSolver ModelSDF SpecSDF SDFProofs P_SDF ModelGen ResFacts.
Import ListNotations.
Local Open Scope R_scope.

(** ** C71 *)
(** [m] is what is left of [l] when exactly the members with property [P] stay, in order *)
Inductive selects {A} (P : A -> Prop) : list A -> list A -> Prop :=
| sel_nil : selects P [] []
| sel_take x l m : P x -> selects P l m -> selects P (x :: l) (x :: m)
| sel_drop x l m : ~ P x -> selects P l m -> selects P (x :: l) m.
Lemma selects_filter {A} (P : A -> Prop) (f : A -> bool) l : (forall x, f x = true <-> P x) -> selects P l (filter f l).
Proof.
  intros Hf. induction l as [| x l IH]; cbn; [constructor |]. destruct (f x) eqn:E.
  - constructor; [now apply Hf | exact IH].
  - constructor; [| exact IH]. intros Hp. apply Hf in Hp. congruence.
Qed.
Lemma selects_in {A} (P : A -> Prop) l m x : selects P l m -> (In x m <-> In x l /\ P x).
Proof.
  intros S. induction S as [| y l m Hy S IH | y l m Hy S IH]; cbn; [tauto | |].
  - rewrite IH. split; [intros [<- | []]; tauto | intros [[<- | Hl] Hp]; tauto].
  - rewrite IH. split; [tauto | intros [[<- | Hl] Hp]; tauto].
Qed.
Theorem C71_selected : forall s (a : GenArgs R) l, generate s a = Ok l ->
  exists lo c st, ga_min a = Some lo /\ candidates a lo = Ok (Some c) /\ gen_state a lo = Ok st /\ selects (fun p => signed_distance s st p < 0) c l.
Proof.
  intros s a l E. unfold generate in E. destruct (ga_min a) as [lo |]; [| discriminate].
  apply rbind_ok in E as [st [Es E]]. apply rbind_ok in E as [[c |] [Ec E]]; [| discriminate]. inversion E. exists lo, c, st. repeat split; auto.
  apply selects_filter. intros x. exact (Rltb_true (signed_distance s st x) 0).
Qed.
(** the state is the one given, or rests at the given centre or at the centre of the bounds *)
Theorem C71_state : forall (a : GenArgs R) lo st, gen_state a lo = Ok st ->
  match ga_state a with
  | Some x => st = x
  | None => sd_dim st = ga_dim a /\ sd_vel st = vzero /\
      (forall c, ga_com a = Some c -> sd_com st = c) /\
      (ga_com a = None -> exists hi, ga_max a = Some hi /\
         vx (sd_com st) = (vx lo + vx hi) / 2 /\ vy (sd_com st) = (vy lo + vy hi) / 2 /\ vz (sd_com st) = (vz lo + vz hi) / 2)
  end.
Proof.
  intros a lo st E. unfold gen_state in E. destruct (ga_state a); [now inversion E |]. apply rbind_ok in E as [c [Ec E]].
  inversion E; subst st. cbn. repeat split.
  - intros c' Hc. rewrite Hc in Ec. now inversion Ec.
  - intros Hc. rewrite Hc in Ec. destruct (ga_max a) as [hi |]; [| discriminate]. exists hi. inversion Ec. cbn. auto.
Qed.
(** particles seeded in a sphere or a box are in it *)
Theorem C71_sphere : forall r (a : GenArgs R) lo st l p, generate (sphere r) a = Ok l -> ga_min a = Some lo -> gen_state a lo = Ok st ->
  In p l -> edist p (sd_com st) < r.
Proof.
  intros r a lo st l p E Hlo Hst Hp. destruct (C71_selected _ _ _ E) as (lo' & c & st' & E1 & E2 & E3 & S).
  rewrite Hlo in E1. inversion E1; subst lo'. rewrite Hst in E3. inversion E3; subst st'.
  destruct (proj1 (selects_in _ _ _ p S) Hp) as [_ Hq]. rewrite sphere_eq in Hq. lra.
Qed.
Theorem C71_box : forall size (a : GenArgs R) lo st l p, generate (box size) a = Ok l -> ga_min a = Some lo -> gen_state a lo = Ok st ->
  In p l -> in_box (sd_dim st) (vdivs size 2) (to_local st p) (1 / IZR (10 ^ 6)).
Proof.
  intros size a lo st l p E Hlo Hst Hp. destruct (C71_selected _ _ _ E) as (lo' & c & st' & E1 & E2 & E3 & S).
  rewrite Hlo in E1. inversion E1; subst lo'. rewrite Hst in E3. inversion E3; subst st'.
  destruct (proj1 (selects_in _ _ _ p S) Hp) as [_ Hq]. now apply C65_box in Hq.
Qed.

(** ** C72 *)
Lemma arange_in z s e : In z (arange s e) <-> (s <= z < e)%Z.
Proof.
  unfold arange. rewrite in_map_iff. split.
  - intros [i [<- Hi]]. apply in_seq in Hi. lia.
  - intros Hz. exists (Z.to_nat (z - s)). split; [lia |]. apply in_seq. lia.
Qed.
Lemma arange_nodup s e : NoDup (arange s e).
Proof. unfold arange. apply FinFun.Injective_map_NoDup; [intros i j E; lia | apply seq_NoDup]. Qed.
Lemma arange_length s e : List.length (arange s e) = Z.to_nat (e - s).
Proof. unfold arange. now rewrite map_length, seq_length. Qed.
Lemma odds_seq {A} (f : nat -> A) k : forall a, odds (map f (seq a (k * 2 + 1))) = map (fun i => f (a + (2 * i + 1))%nat) (seq 0 k).
Proof.
  induction k as [| k IH]; intros a; [reflexivity |]. cbn [Nat.mul Nat.add seq map odds]. rewrite IH. rewrite <- seq_shift, map_map.
  f_equal; [f_equal; lia |]. apply map_ext. intros i. f_equal. lia.
Qed.
(** the points of a unit interval cut into [k] parts: their centres *)
Definition centre (k i : nat) : R := (2 * INR i + 1) / (2 * INR k).
Lemma lin_eq k : odds (@linspace01 R NumT_R (k * 2 + 1)) = map (centre k) (seq 0 k).
Proof.
  unfold linspace01. rewrite odds_seq. apply map_ext_in. intros i Hi. apply in_seq in Hi. cbn [nofZ ndiv numt_num Num_R NumT_R]. unfold centre.
  rewrite <- !INR_IZR_INZ. replace (k * 2 + 1 - 1)%nat with (2 * k)%nat by lia. rewrite !plus_INR, !mult_INR. cbn [INR]. f_equal; lra.
Qed.
Lemma flat_map_length_const {A B} (f : A -> list B) n l : (forall a, In a l -> List.length (f a) = n) -> List.length (flat_map f l) = (List.length l * n)%nat.
Proof. induction l as [| a l IH]; intros Hf; [reflexivity |]. cbn. rewrite app_length, Hf by (now left). rewrite IH; [lia | intros; apply Hf; now right]. Qed.
Lemma mesh_length {A} d (z : A) xs ys zs : List.length (mesh d z xs ys zs) =
  match d with D2 => List.length xs * List.length ys | D3 => List.length xs * (List.length ys * List.length zs) end%nat.
Proof.
  destruct d; cbn.
  - apply flat_map_length_const. intros; apply map_length.
  - apply flat_map_length_const. intros. apply flat_map_length_const. intros; apply map_length.
Qed.
Lemma mesh_in {A} d (z : A) xs ys zs p : In p (mesh d z xs ys zs) <->
  In (vx p) xs /\ In (vy p) ys /\ match d with D2 => vz p = z | D3 => In (vz p) zs end.
Proof.
  destruct p as [a b c]. destruct d; cbn [mesh vx vy vz]; rewrite in_flat_map.
  - split.
    + intros [x [Hx Hp]]. apply in_map_iff in Hp as [y [E Hy]]. inversion E; subst. auto.
    + intros [Hx [Hy ->]]. exists a. split; [exact Hx |]. apply in_map_iff. eauto.
  - split.
    + intros [x [Hx Hp]]. apply in_flat_map in Hp as [y [Hy Hp]]. apply in_map_iff in Hp as [w [E Hw]]. inversion E; subst. auto.
    + intros [Hx [Hy Hz]]. exists a. split; [exact Hx |]. apply in_flat_map. exists b. split; [exact Hy |]. apply in_map_iff. eauto.
Qed.
Lemma offsets_in d k o : In o (@offsets R NumT_R d k) <->
  exists i j l, (i < k)%nat /\ (j < k)%nat /\ (d = D3 -> (l < k)%nat) /\
    o = V3 (centre k i) (centre k j) (match d with D2 => 0 | D3 => centre k l end).
Proof.
  unfold offsets. change (@numt_num R NumT_R) with Num_R. rewrite lin_eq, mesh_in. destruct o as [a b c]. cbn [vx vy vz]. rewrite !in_map_iff. split.
  - intros [[i [<- Hi]] [[j [<- Hj]] Hc]]. apply in_seq in Hi, Hj. destruct d.
    + exists i, j, O. split; [lia |]. split; [lia |]. split; [discriminate | now rewrite Hc].
    + apply in_map_iff in Hc as [l [<- Hl]]. apply in_seq in Hl. exists i, j, l. repeat split; lia.
  - intros [i [j [l [Hi [Hj [Hl E]]]]]]. inversion E; subst. split; [exists i; split; [reflexivity | apply in_seq; lia] |].
    split; [exists j; split; [reflexivity | apply in_seq; lia] |]. destruct d; [reflexivity |].
    apply in_map_iff. exists l. split; [reflexivity | apply in_seq; specialize (Hl eq_refl); lia].
Qed.
(** cells named by integers; the half-open cell of side [h] *)
Definition in_cell (d : Dim) (h : R) (c : vec3 Z) (p : vec3 R) : Prop :=
  let slot (z : Z) (x : R) := IZR z * h <= x < (IZR z + 1) * h in
  slot (vx c) (vx p) /\ slot (vy c) (vy p) /\ (d = D3 -> slot (vz c) (vz p)).
(** What the regular mode offers: k^dim points for each cell that meets the bounds; the j-th along an axis sits at the
    centre of the j-th part of a UNIT interval from the corner of the cell. *)
Theorem C72_candidates : forall d lo hi h ppc, let k := pts_per_dim d ppc in
  exists g, regular d lo hi h ppc = flat_map g (cells d lo hi h) /\
  (forall c, List.length (g c) = (k ^ dim_nat d)%nat) /\
  forall c p, In p (g c) <-> exists i j l, (i < k)%nat /\ (j < k)%nat /\ (d = D3 -> (l < k)%nat) /\
    p = V3 (IZR (vx c) * h + centre k i) (IZR (vy c) * h + centre k j) (IZR (vz c) * h + match d with D2 => 0 | D3 => centre k l end).
Proof.
  intros d lo hi h ppc k. eexists. split; [reflexivity |]. fold k. split.
  - intros c. rewrite map_length. unfold offsets. change (@numt_num R NumT_R) with Num_R. rewrite lin_eq, mesh_length, !map_length, !seq_length.
    destruct d; cbn; lia.
  - intros c p. rewrite in_map_iff. split.
    + intros [o [<- Ho]]. apply offsets_in in Ho as [i [j [l [Hi [Hj [Hl ->]]]]]]. exists i, j, l. repeat split; auto.
    + intros [i [j [l [Hi [Hj [Hl ->]]]]]]. exists (V3 (centre k i) (centre k j) (match d with D2 => 0 | D3 => centre k l end)).
      split; [reflexivity |]. apply offsets_in. exists i, j, l. auto.
Qed.
Theorem C72_cells : forall d lo hi h c, In c (cells d lo hi h) <->
  let meets (f : forall A, vec3 A -> A) := IZR (f Z c) > f R lo / h - 1 /\ IZR (f Z c) < f R hi / h in
  meets (@vx) /\ meets (@vy) /\ (d = D3 -> meets (@vz)) /\ (d = D2 -> vz c = 0%Z).
Proof.
  intros d lo hi h c. cbv zeta. unfold cells. rewrite mesh_in, !arange_in. change (@numt_num R NumT_R) with Num_R.
  assert (A : forall z x y, ((Zfloor (x / h) <= z < Zceil (y / h))%Z <-> IZR z > x / h - 1 /\ IZR z < y / h)).
  { intros z x y. split.
    - intros [H1 H2]. split.
      + apply IZR_le in H1. pose proof (Zfloor_ub (x / h)). lra.
      + apply Rnot_le_lt. intros H3. apply Zceil_glb in H3. lia.
    - intros [H1 H2]. split.
      + apply Z.lt_succ_r. apply lt_IZR. rewrite succ_IZR. pose proof (Zfloor_lb (x / h)). lra.
      + apply lt_IZR. pose proof (Zceil_ub (y / h)). lra. }
  change (@nfloor R Num_R) with Zfloor. change (@ndiv R Num_R) with Rdiv.
  change (@nceil R NumT_R) with Zceil. rewrite !A. destruct d; [| rewrite arange_in, A]; intuition (try discriminate).
Qed.
Lemma centre_range k i : (i < k)%nat -> 0 < centre k i < 1.
Proof.
  intros Hi. unfold centre. assert (0 <= INR i) by apply pos_INR. assert (INR i + 1 <= INR k) by (rewrite <- S_INR; apply le_INR; lia).
  split; [apply Rdiv_lt_0_compat; lra |]. apply (Rmult_lt_reg_r (2 * INR k)); [lra |]. unfold Rdiv. rewrite Rmult_assoc, Rinv_l; lra.
Qed.
Lemma centre_le k i : (i < k)%nat -> centre k i <= centre k (k - 1).
Proof.
  intros Hi. unfold centre. assert (0 <= INR i) by apply pos_INR. assert (0 < INR k) by (apply lt_0_INR; lia).
  assert (INR i <= INR (k - 1)) by (apply le_INR; lia). apply Rmult_le_compat_r; [left; apply Rinv_0_lt_compat; lra | lra].
Qed.
(** the points lie in their cell exactly for cells longer than the last of these centres *)
Theorem C72_in_cell_partial : forall d (h : R) k c, (0 < k)%nat -> 0 < h ->
  ((forall i j l, (i < k)%nat -> (j < k)%nat -> (l < k)%nat ->
     in_cell d h c (V3 (IZR (vx c) * h + centre k i) (IZR (vy c) * h + centre k j) (IZR (vz c) * h + centre k l)))
   <-> (2 * INR k - 1) / (2 * INR k) < h).
Proof.
  intros d h k c Hk Hh. assert (E : (2 * INR k - 1) / (2 * INR k) = centre k (k - 1)).
  { unfold centre. rewrite minus_INR by lia. cbn [INR]. f_equal. lra. }
  rewrite E. split.
  - intros Hall. destruct (Hall (k - 1)%nat (k - 1)%nat (k - 1)%nat ltac:(lia) ltac:(lia) ltac:(lia)) as [[_ Hx] _]. cbn [vx] in Hx. lra.
  - intros Hl i j l Hi Hj Hll. pose proof (centre_le k i Hi). pose proof (centre_le k j Hj). pose proof (centre_le k l Hll).
    pose proof (centre_range k i Hi). pose proof (centre_range k j Hj). pose proof (centre_range k l Hll).
    unfold in_cell. cbn [vx vy vz]. repeat split; lra.
Qed.
(** so on fine grids every cell that meets the bounds has candidates outside it *)
Theorem C72_in_cell_refuted : forall d lo hi h ppc c, let k := pts_per_dim d ppc in
  (0 < k)%nat -> 0 < h <= (2 * INR k - 1) / (2 * INR k) -> In c (cells d lo hi h) ->
  exists p, In p (regular d lo hi h ppc) /\ ~ in_cell d h c p /\ vx p = IZR (vx c) * h + (2 * INR k - 1) / (2 * INR k).
Proof.
  intros d lo hi h ppc c k Hk Hh Hc. destruct (C72_candidates d lo hi h ppc) as [g [E [_ G]]]. fold k in G.
  assert (Ek : (2 * INR k - 1) / (2 * INR k) = centre k (k - 1)).
  { unfold centre. rewrite minus_INR by lia. cbn [INR]. f_equal. lra. }
  rewrite Ek in *.
  exists (V3 (IZR (vx c) * h + centre k (k - 1)) (IZR (vy c) * h + centre k 0) (IZR (vz c) * h + match d with D2 => 0 | D3 => centre k 0 end)).
  split; [| split; [| reflexivity]].
  - rewrite E. apply in_flat_map. exists c. split; [exact Hc |]. apply G. exists (k - 1)%nat, O, O. repeat split; lia.
  - intros [[_ H1] _]. cbn [vx] in H1. lra.
Qed.
(** and different cells are given the same point when the cell size is m/k with 0 < m < k *)
Theorem C72_coincident_refuted : forall d lo hi ppc c m, let k := pts_per_dim d ppc in let h := INR m / INR k in
  (0 < m < k)%nat -> In c (cells d lo hi h) -> In (V3 (vx c + 1)%Z (vy c) (vz c)) (cells d lo hi h) ->
  exists p l1 l2 l3, regular d lo hi h ppc = l1 ++ p :: l2 ++ p :: l3.
Proof.
  intros d lo hi ppc c m k h Hm Hc Hc'. destruct (C72_candidates d lo hi h ppc) as [g [E [_ G]]]. fold k in G.
  set (c' := V3 (vx c + 1)%Z (vy c) (vz c)) in *.
  set (p := V3 (IZR (vx c) * h + centre k m) (IZR (vy c) * h + centre k 0) (IZR (vz c) * h + match d with D2 => 0 | D3 => centre k 0 end)).
  assert (P1 : In p (g c)) by (apply G; exists m, O, O; repeat split; lia).
  assert (P2 : In p (g c')).
  { apply G. exists O, O, O. repeat split; try lia. unfold p, c'. cbn [vx vy vz]. f_equal. rewrite plus_IZR. unfold h, centre. cbn [INR].
    field. apply not_0_INR. lia. }
  assert (Hn : c <> c') by (intros Ec; apply (f_equal vx) in Ec; unfold c' in Ec; cbn in Ec; lia).
  rewrite E. clear E G. revert Hc Hc'. generalize (cells d lo hi h). intros L HL HL'.
  apply in_split in HL as [A [B ->]]. apply in_app_or in HL'.
  apply in_split in P1 as [a1 [a2 P1]]. apply in_split in P2 as [b1 [b2 P2]].
  destruct HL' as [HA | HB].
  - apply in_split in HA as [A1 [A2 ->]]. repeat first [rewrite flat_map_app | progress (cbn [flat_map])]. rewrite P1, P2.
    exists p, (flat_map g A1 ++ b1), (b2 ++ flat_map g A2 ++ a1), (a2 ++ flat_map g B). repeat first [rewrite <- app_assoc | progress (cbn [app])]. reflexivity.
  - destruct HB as [HB | HB]; [congruence |]. apply in_split in HB as [B1 [B2 ->]]. repeat first [rewrite flat_map_app | progress (cbn [flat_map])]. rewrite P1, P2.
    exists p, (flat_map g A ++ a1), (a2 ++ flat_map g B1 ++ b1), (b2 ++ flat_map g B2). repeat first [rewrite <- app_assoc | progress (cbn [app])]. reflexivity.
Qed.
(** a perfect power asks for exactly that many points *)
Theorem C72_count : forall d m, (0 < m)%nat -> pts_per_dim d (INR m ^ dim_nat d) = m.
Proof.
  intros d m Hm. unfold pts_per_dim. change (@numt_num R NumT_R) with Num_R. change (@npow R NumT_R) with Rpower. change (@n1 R Num_R) with 1.
  change (@nofZ R Num_R) with IZR. change (@ndiv R Num_R) with Rdiv. change (@nceil R NumT_R) with Zceil.
  assert (Hp : 0 < INR m) by (now apply lt_0_INR). rewrite <- Rpower_pow by exact Hp. rewrite Rpower_mult.
  replace (INR (dim_nat d) * (1 / IZR (Z.of_nat (dim_nat d)))) with 1 by (rewrite <- INR_IZR_INZ; field; apply not_0_INR; destruct d; cbn; lia).
  rewrite Rpower_1 by exact Hp. rewrite INR_IZR_INZ, Zceil_IZR. lia.
Qed.
Example C72_case : @pts_per_dim R NumT_R D2 4 = 2%nat /\ In (V3 0 0 0)%Z (cells D2 (V3 0 0 0) (V3 1 1 0) (1 / 2)) /\
  In (V3 (0 + 1) 0 0)%Z (cells D2 (V3 0 0 0) (V3 1 1 0) (1 / 2)) /\ 0 < 1 / 2 <= (2 * INR 2 - 1) / (2 * INR 2) /\ INR 1 / INR 2 = 1 / 2.
Proof.
  split; [replace 4 with (INR 2 ^ dim_nat D2) by (cbn; lra); apply C72_count; lia |].
  split; [| split].
  - apply C72_cells. cbn. repeat split; try discriminate; lra.
  - apply C72_cells. cbn. repeat split; try discriminate; lra.
  - cbn. lra.
Qed.

(** ** C73 *)
Theorem C73_regular_partial : forall s (a : GenArgs R) lo hi h ppc, ga_mode a = "regular"%string -> ga_min a = Some lo -> ga_max a = Some hi ->
  ga_cell a = Some h -> ga_ppc a = Some ppc -> exists l, generate s a = Ok l.
Proof.
  intros s a lo hi h ppc Hm E1 E2 E3 E4. unfold generate, gen_state, candidates. rewrite Hm, E1, E2, E3, E4.
  destruct (ga_state a), (ga_com a); cbn; eauto.
Qed.
Theorem C73_random_partial : forall s (a : GenArgs R) lo hi n key, ga_mode a = "random"%string -> ga_min a = Some lo -> ga_max a = Some hi ->
  ga_num a = Some n -> ga_key a = Some key -> exists l, generate s a = Ok l.
Proof.
  intros s a lo hi n key Hm E1 E2 E3 E4. unfold generate, gen_state, candidates. rewrite Hm, E1, E2, E3, E4.
  destruct (ga_state a), (ga_com a); cbn; eauto.
Qed.
Theorem C73_other_refuted : forall s (a : GenArgs R), ga_mode a <> "random"%string -> ga_mode a <> "regular"%string -> exists e, generate s a = Err e.
Proof.
  intros s a H1 H2. destruct (generate s a) as [l | e] eqn:E; [| eauto]. exfalso.
  destruct (C71_selected _ _ _ E) as (lo & c & st & _ & Ec & _). unfold candidates in Ec.
  apply String.eqb_neq in H1, H2. rewrite H1, H2 in Ec. cbn [orb] in Ec.
  destruct (String.eqb (ga_mode a) "gauss_legendre"), (ga_max a), (ga_cell a); discriminate.
Qed.
(** in particular the default and two of the three documented modes *)
Example C73_case : default_mode <> "random"%string /\ default_mode <> "regular"%string /\
  "rejection"%string <> "random"%string /\ "rejection"%string <> "regular"%string /\
  "gauss_legendre"%string <> "random"%string /\ "gauss_legendre"%string <> "regular"%string.
Proof. repeat split; discriminate. Qed.

(** a run that succeeds: one particle of the two candidates is in the sphere *)
Definition gen_ex : GenArgs R := {| ga_dim := D2; ga_min := Some (V3 0 0 0); ga_max := Some (V3 2 2 0); ga_num := Some 2%nat; ga_state := None;
  ga_key := Some (fun _ => [V3 1 (3/2) 0; V3 0 0 0]); ga_com := None; ga_theta := None; ga_quat := None; ga_mode := "random"; ga_cell := None; ga_ppc := None |}.
Example C71_case : exists l, generate (sphere 1) gen_ex = Ok l /\ In (V3 1 (3/2) 0) l.
Proof.
  destruct (C73_random_partial (sphere 1) gen_ex (V3 0 0 0) (V3 2 2 0) 2%nat (fun _ => [V3 1 (3/2) 0; V3 0 0 0]) eq_refl eq_refl eq_refl eq_refl eq_refl) as [l El].
  exists l. split; [exact El |]. destruct (C71_selected _ _ _ El) as (lo & c & st & E1 & E2 & E3 & S). cbn in E1. inversion E1; subst lo.
  cbn in E2. inversion E2; subst c. apply (selects_in _ _ _ _ S). split; [now left |].
  apply C71_state in E3. cbn [ga_state gen_ex ga_com ga_max] in E3. destruct E3 as (_ & _ & _ & Hc). destruct (Hc eq_refl) as [hi [Eh [H1 [H2 H3]]]].
  inversion Eh; subst hi. rewrite sphere_eq. destruct (sd_com st) as [cx cy cz]. cbn in H1, H2, H3. subst.
  unfold edist. cbn [vx vy vz]. match goal with |- sqrt ?e - _ < _ => replace e with ((1/2)²) by (unfold Rsqr; field) end. rewrite sqrt_Rsqr; lra.
Qed.
Print Assumptions C71_selected.
Print Assumptions C71_state.
Print Assumptions C71_sphere.
Print Assumptions C71_box.
Print Assumptions C72_candidates.
Print Assumptions C72_cells.
Print Assumptions C72_in_cell_partial.
Print Assumptions C72_in_cell_refuted.
Print Assumptions C72_coincident_refuted.
Print Assumptions C72_count.
Print Assumptions C73_regular_partial.
Print Assumptions C73_random_partial.
Print Assumptions C73_other_refuted.
