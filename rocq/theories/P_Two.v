(** Property theorems C147: the project two_sphere_impact. *)
From Coq Require Import List ZArith Bool String Reals Lra Lia Permutation.
From Flocq Require Import Core.Raux.
From Verif Require Import Num NumR Linalg Arrays ModelGrid ModelShape ModelMath ModelState ModelLaws ModelForces ModelSolver ModelSDF ModelGen ModelBuilder ModelTwo
  Sums ResFacts SpecShape SpecSolver ShapeProofs ShapeProofs3 SolverFacts StepProofs MomentumProofs StepAffine HeavyProofs SpecReady ReadyProofs ExSolver TransferProofs GatherProofs P_Builder.
Import ListNotations.
Local Open Scope R_scope.

(** ** the discs of points *)
(** the absolute tolerance of the script *)
Definition slack : R := 5 / 100000.
(** the centres of the squares of side [s] that fill the plane from the lower left corner of the disc's bounding box *)
Definition node_of (c : vec3 R) (r s : R) (i j : Z) : vec3 R :=
  V3 (vx c - r + (IZR i + 1/2) * s) (vy c - r + (IZR j + 1/2) * s) 0.
Definition within (c : vec3 R) (d2 : R) (p : vec3 R) : Prop := Rsqr (vx p - vx c) + Rsqr (vy p - vy c) < d2.

Lemma frange_in (a b s x : R) : 0 < s -> (In x (frange a b s) <-> exists i, (0 <= i < Zceil ((b - a) / s))%Z /\ x = a + IZR i * s).
Proof.
  intros Hs. unfold frange. rewrite in_map_iff. change (@nceil R NumT_R) with Zceil. change (@numt_num R NumT_R) with Num_R.
  change (@ndiv R Num_R) with Rdiv. change (@nsub R Num_R) with Rminus. split.
  - intros (k & <- & Hk). apply in_seq in Hk. exists (Z.of_nat k). split; [lia | reflexivity].
  - intros (i & Hi & ->). exists (Z.to_nat i). split; [| apply in_seq; lia].
    change (a + IZR (Z.of_nat (Z.to_nat i)) * s = a + IZR i * s). now rewrite Z2Nat.id by lia.
Qed.
Lemma lit_half : (lit 1 2 : R) = 1/2.
Proof. reflexivity. Qed.
Lemma axis_in (c r s x : R) : 0 < s -> (In x (circle_axis c r s) <-> exists i, (0 <= i < Zceil ((2 * r + s) / s))%Z /\ x = c - r + (IZR i + 1/2) * s).
Proof.
  intros Hs. unfold circle_axis. rewrite in_map_iff. change (@numt_num R NumT_R) with Num_R. change (@nsub R Num_R) with Rminus.
  change (@nadd R Num_R) with Rplus. change (@nmul R Num_R) with Rmult. change (@lit R Num_R 1 2) with (1/2).
  replace (2 * r + s) with (c + r + s - (c - r)) by ring. split.
  - intros (v & <- & Hv). apply (frange_in _ _ _ _ Hs) in Hv. destruct Hv as (i & Hi & ->). exists i. split; [exact Hi | field].
  - intros (i & Hi & ->). exists (c - r + IZR i * s). split; [field |]. apply (frange_in _ _ _ _ Hs). exists i. split; [exact Hi | reflexivity].
Qed.
Lemma mask_within c r p : circle_mask c r p = true <-> within c (r * r + slack) p.
Proof.
  unfold circle_mask, within, slack, Rsqr. change (@numt_num R NumT_R) with Num_R.
  exact (Rltb_true ((vx p - vx c) * (vx p - vx c) + (vy p - vy c) * (vy p - vy c)) (r * r + 5 / 100000)).
Qed.
Lemma axis_reach (r s t : R) i : 0 <= r -> 0 < s -> t <= r * s + s * s / 4 -> Rsqr (- r + (IZR i + 1/2) * s) < r * r + t -> (0 <= i < Zceil ((2 * r + s) / s))%Z.
Proof.
  intros Hr Hs Ht H. unfold Rsqr in H. split.
  - destruct (Z_lt_le_dec i 0) as [L|]; [exfalso | assumption]. apply Z.lt_le_pred, IZR_le in L. change (IZR (Z.pred 0)) with (-1) in L.
    assert (Y : - r + (IZR i + 1/2) * s <= - (r + s / 2)) by nra. revert Y H. generalize (- r + (IZR i + 1/2) * s). intros y Y H.
    assert ((r + s / 2) * (r + s / 2) <= y * y) by nra. nra.
  - destruct (Z_lt_le_dec i (Zceil ((2 * r + s) / s))) as [|L]; [assumption | exfalso]. apply IZR_le in L.
    assert (U := Zceil_ub ((2 * r + s) / s)). assert (V : 2 * r + s <= IZR i * s).
    { apply (Rmult_le_compat_r s) in U; [| lra]. replace ((2 * r + s) / s * s) with (2 * r + s) in U by (field; lra). nra. }
    assert (Y : r + s / 2 <= - r + (IZR i + 1/2) * s) by nra. revert Y H. generalize (- r + (IZR i + 1/2) * s). intros y Y H.
    assert ((r + s / 2) * (r + s / 2) <= y * y) by nra. nra.
Qed.
(** the points made are exactly the centres of squares of the lattice that lie in the disc *)
Theorem C147_points : forall c r h n p, 0 <= r -> 0 < h -> 0 < n -> let s := h / (n / 2) in slack <= r * s + s * s / 4 ->
  (In p (create_circle c r h n) <-> exists i j, p = node_of c r s i j /\ within c (r * r + slack) p).
Proof.
  intros c r h n p Hr Hh Hn s Hsl. assert (Hs : 0 < s) by (unfold s; apply Rdiv_lt_0_compat; lra).
  unfold create_circle. rewrite filter_In, mask_within, in_flat_map. change (circle_spacing h n) with s. split.
  - intros ((y & Hy & Hp) & W). apply in_map_iff in Hp as (x & <- & Hx). apply (axis_in _ _ _ _ Hs) in Hx, Hy.
    destruct Hx as (i & _ & ->). destruct Hy as (j & _ & ->). exists i, j. split; [reflexivity | exact W].
  - intros (i & j & -> & W). split; [| exact W]. unfold within, node_of in W. cbn [vx vy] in W.
    replace (vx c - r + (IZR i + 1 / 2) * s - vx c) with (- r + (IZR i + 1/2) * s) in W by ring.
    replace (vy c - r + (IZR j + 1 / 2) * s - vy c) with (- r + (IZR j + 1/2) * s) in W by ring.
    assert (A := Rle_0_sqr (- r + (IZR i + 1/2) * s)). assert (B := Rle_0_sqr (- r + (IZR j + 1/2) * s)).
    exists (vy c - r + (IZR j + 1/2) * s). split.
    + apply (axis_in _ _ _ _ Hs). exists j. split; [| reflexivity]. apply (axis_reach r s slack); try assumption. lra.
    + apply in_map_iff. exists (vx c - r + (IZR i + 1/2) * s). split; [reflexivity |].
      apply (axis_in _ _ _ _ Hs). exists i. split; [| reflexivity]. apply (axis_reach r s slack); try assumption. lra.
Qed.
Print Assumptions C147_points.

Lemma axis_nodup (c r s : R) : 0 < s -> NoDup (circle_axis c r s).
Proof.
  intros Hs. unfold circle_axis, frange. rewrite map_map. apply FinFun.Injective_map_NoDup; [| apply seq_NoDup].
  intros i j E. change (@numt_num R NumT_R) with Num_R in E. change (@nsub R Num_R) with Rminus in E.
  change (@nadd R Num_R) with Rplus in E. change (@nmul R Num_R) with Rmult in E. change (@nofZ R Num_R) with IZR in E.
  apply Nat2Z.inj, eq_IZR. nra.
Qed.
(** no point is made twice *)
Theorem C147_distinct : forall c r h n, 0 < h -> 0 < n -> NoDup (create_circle c r h n).
Proof.
  intros c r h n Hh Hn. assert (Hs : 0 < circle_spacing h n) by (change (0 < h / (n / 2)); apply Rdiv_lt_0_compat; lra).
  unfold create_circle. apply NoDup_filter.
  assert (G : forall ys xs : list R, NoDup ys -> NoDup xs -> NoDup (flat_map (fun y => map (fun x => V3 x y 0) xs) ys)).
  { intros ys xs Ny Nx. induction Ny as [| y ys Hy Ny IH]; [constructor |]. cbn [flat_map].
    assert (M : NoDup (map (fun x => V3 x y 0) xs)) by (apply FinFun.Injective_map_NoDup; [intros a b E; now injection E | exact Nx]).
    revert M. assert (D : forall p, In p (map (fun x => V3 x y 0) xs) -> ~ In p (flat_map (fun y => map (fun x => V3 x y 0) xs) ys)).
    { intros p Hp Hq. apply in_map_iff in Hp as (x & <- & _). apply in_flat_map in Hq as (y' & Hy' & Hq). apply in_map_iff in Hq as (x' & E & _).
      injection E. intros <- _. contradiction. }
    induction (map (fun x => V3 x y 0) xs) as [| a l IHl]; intros M; [exact IH |]. inversion M; subst. cbn. constructor.
    - rewrite in_app_iff. intros [X|X]; [contradiction | apply (D a); [left; reflexivity | exact X]].
    - apply IHl; [| assumption]. intros p Hp. apply D. right. exact Hp. }
  apply G; apply axis_nodup; exact Hs.
Qed.
Print Assumptions C147_distinct.

(** ** symmetry *)
(** two discs of the same size consist of the same points up to the distance of their centres *)
Theorem C147_congruent : forall c1 c2 r h n, 0 < h -> 0 < n -> vz c1 = vz c2 ->
  create_circle c2 r h n = map (fun p => vadd p (vsub c2 c1)) (create_circle c1 r h n).
Proof.
  intros c1 c2 r h n Hh Hn Ez. assert (Hs : 0 < circle_spacing h n) by (change (0 < h / (n / 2)); apply Rdiv_lt_0_compat; lra).
  unfold create_circle. generalize (circle_spacing h n), Hs. clear Hs Hh Hn. intros s Hs.
  assert (A : forall a b : R, circle_axis b r s = map (fun x => x + (b - a)) (circle_axis a r s)).
  { intros a b. unfold circle_axis, frange. rewrite !map_map. change (@numt_num R NumT_R) with Num_R. change (@nsub R Num_R) with Rminus.
    change (@nadd R Num_R) with Rplus. change (@nmul R Num_R) with Rmult. change (@nceil R NumT_R) with Zceil. change (@ndiv R Num_R) with Rdiv.
    replace (b + r + s - (b - r)) with (a + r + s - (a - r)) by ring. apply map_ext. intros i. ring. }
  rewrite (A (vx c1) (vx c2)), (A (vy c1) (vy c2)). generalize (circle_axis (vx c1) r s), (circle_axis (vy c1) r s). intros xs ys.
  change (@n0 R (@numt_num R NumT_R)) with 0.
  induction ys as [| y ys IH]; [reflexivity |]. cbn [map flat_map]. rewrite !filter_app, map_app, IH. f_equal.
  clear IH. induction xs as [| x xs IHx]; [reflexivity |]. cbn [map filter].
  assert (E : circle_mask c2 r (V3 (x + (vx c2 - vx c1)) (y + (vy c2 - vy c1)) 0) = circle_mask c1 r (V3 x y 0)).
  { apply Bool.eq_iff_eq_true. rewrite !mask_within. unfold within. cbn [vx vy].
    replace (x + (vx c2 - vx c1) - vx c2) with (x - vx c1) by ring. replace (y + (vy c2 - vy c1) - vy c2) with (y - vy c1) by ring. tauto. }
  rewrite E. destruct (circle_mask c1 r (V3 x y 0)); [| exact IHx]. cbn [map]. f_equal; [| exact IHx].
  apply vec3_eq; unfold vadd, vsub, vmap2; cbn [vx vy vz]; [reflexivity | reflexivity |]. rewrite Ez. symmetry. change (0 + (vz c2 - vz c2) = 0). ring.
Qed.
Print Assumptions C147_congruent.

(** a disc whose diameter is a whole number of squares is symmetric about its centre, so its centre of gravity is the centre *)
Definition opposite (c p : vec3 R) : vec3 R := V3 (2 * vx c - vx p) (2 * vy c - vy p) 0.
Theorem C147_symmetric : forall c r h n (k : Z), 0 <= r -> 0 < h -> 0 < n -> let s := h / (n / 2) in slack <= r * s + s * s / 4 -> 2 * r = IZR k * s ->
  forall p, In p (create_circle c r h n) -> In (opposite c p) (create_circle c r h n).
Proof.
  intros c r h n k Hr Hh Hn s Hsl Hk p Hp. apply (C147_points c r h n _ Hr Hh Hn Hsl) in Hp. apply (C147_points c r h n _ Hr Hh Hn Hsl).
  destruct Hp as (i & j & E & W). exists (k - 1 - i)%Z, (k - 1 - j)%Z. split.
  - rewrite E. unfold opposite, node_of. cbn [vx vy]. rewrite !minus_IZR. fold s. f_equal; nra.
  - unfold within, opposite in *. cbn [vx vy] in *. unfold Rsqr in *. nra.
Qed.
Print Assumptions C147_symmetric.
Theorem C147_centre : forall c r h n (k : Z), 0 <= r -> 0 < h -> 0 < n -> let s := h / (n / 2) in slack <= r * s + s * s / 4 -> 2 * r = IZR k * s ->
  let l := create_circle c r h n in sumR vx l = INR (List.length l) * vx c /\ sumR vy l = INR (List.length l) * vy c.
Proof.
  intros c r h n k Hr Hh Hn s Hsl Hk l. assert (N : NoDup l) by (apply C147_distinct; assumption).
  assert (Z0 : forall p, In p l -> vz p = 0).
  { intros p Hp. apply (C147_points c r h n _ Hr Hh Hn Hsl) in Hp. destruct Hp as (i & j & -> & _). reflexivity. }
  assert (I : forall p, vz p = 0 -> opposite c (opposite c p) = p).
  { intros p E. unfold opposite. apply vec3_eq; cbn [vx vy vz]; [ring | ring | now symmetry]. }
  assert (P : Permutation l (map (opposite c) l)).
  { apply NoDup_Permutation_bis; [exact N | now rewrite map_length |]. intros p Hp. apply in_map_iff. exists (opposite c p).
    split; [apply I, Z0, Hp |]. apply (C147_symmetric c r h n k Hr Hh Hn Hsl Hk p Hp). }
  assert (C : forall a, sumR (fun _ : vec3 R => a) l = INR (List.length l) * a).
  { intros a. clear. induction l as [| p l IH]; [cbn; ring |]. rewrite sumR_cons, IH. cbn [List.length]. rewrite S_INR. ring. }
  assert (L : forall f a, (forall p, f (opposite c p) = 2 * a - f p) -> sumR f l = INR (List.length l) * a).
  { intros f a Hf. assert (X := sumR_perm f _ _ P). rewrite sumR_map in X.
    rewrite (sumR_ext (fun p => f (opposite c p)) (fun p => 2 * a - f p)) in X by (intros p _; apply Hf).
    assert (Y : sumR (fun p => 2 * a - f p) l = sumR (fun _ => 2 * a) l - sumR f l).
    { clear. induction l as [| p l IH]; [cbn; ring |]. rewrite !sumR_cons, IH. ring. }
    rewrite Y, C in X. lra. }
  split; apply L; reflexivity.
Qed.
Print Assumptions C147_centre.

(** ** what a point stands for *)
(** a point is given the area h h / ppc; the square of the lattice around it has that area exactly when ppc is 4 *)
Theorem C147_area : forall h n, 0 < h -> 0 < n ->
  (default_volume [KW_density []; KW_cell_size h; KW_ppc n] = (h / (n / 2)) * (h / (n / 2)) <-> n = 4).
Proof.
  intros h n Hh Hn. change (default_volume [KW_density []; KW_cell_size h; KW_ppc n]) with (h * h / n). split.
  - intros E. apply (f_equal (fun x => x * n * n / (h * h))) in E. replace (h * h / n * n * n / (h * h)) with n in E by (field; lra).
    replace (h / (n / 2) * (h / (n / 2)) * n * n / (h * h)) with 4 in E by (field; lra). exact E.
  - intros ->. field.
Qed.
Print Assumptions C147_area.
(** so with the default of create_circle, two points per cell, a body has half the density asked for: every point weighs
    half of what its square should *)
Theorem C147_default_refuted : forall c1 c2 r h v rho b p, 0 < h -> 0 < rho ->
  mp_create (two_points c1 c2 r h circle_ppc v rho) = Ok b -> In p (sb_pts b) ->
  pt_mass p = rho * (circle_spacing h circle_ppc * circle_spacing h circle_ppc) / 2.
Proof.
  intros c1 c2 r h v rho b p Hh Hrho E Hp. unfold mp_create, two_points in E. cbn [ca_pos ca_dim ca_vel ca_force ca_mass ca_vol ca_vol0 ca_L ca_stress ca_F ca_kw ca_storeF] in E.
  cbv zeta in E. destruct (_ && _)%bool in E; [| discriminate]. injection E as <-. cbn [sb_pts] in Hp. apply in_map_iff in Hp as (i & <- & Hi). apply in_seq in Hi.
  cbn [pt_mass]. cbn [kw_find find]. rewrite nth_indep with (d' := rho) by (rewrite repeat_length; lia). rewrite nth_repeat.
  change (h * h / 2 * rho = rho * (h / (2 / 2) * (h / (2 / 2))) / 2). field.
Qed.
Print Assumptions C147_default_refuted.

(** ** the run *)
Definition law147 (E nu : R) : Law R := LawLE (linear_elastic E nu true).
Definition coupling147 : Coupling := {| c_kernel := Linear; c_p := 0; c_g := 0; c_c := Some 0%nat; c_s := Some 0%nat; c_skip := false |}.
(** the simulation a script of this kind is meant to set up: one body, one grid over the unit square, no forces, no obstacles *)
Definition meant (h E nu dt : R) (b : SoftBody R) (S : Solver R) (st : SimState R) : Prop :=
  so_scheme S = USL /\ so_couplings S = [coupling147] /\ so_domains S = [grid_create D2 (V3 0 0 0) (V3 1 1 0) h 2] /\ so_laws S = [Some (law147 E nu)] /\
  so_forces S = [] /\ so_sdfs S = [] /\ w_mps (s_world st) = [Soft b] /\ w_sdfs (s_world st) = [] /\ s_mech st = {| m_laws := [None]; m_solvers := [Some SS_USL]; m_forces := [] |} /\
  s_dt st = dt /\ s_time st = 0 /\ s_step st = 0%Z.
Definition moving (x : vec3 R) (m v : R) (p : Particle R) : Prop :=
  pt_pos p = x /\ pt_mass p = m /\ pt_vel p = V3 v v 0 /\ pt_stress p = mzero /\ pt_F p = meye.

Lemma two_created c1 c2 r h n v rho : exists b, mp_create (two_points c1 c2 r h n v rho) = Ok b /\ sb_dim b = D2 /\ sb_vol0d b = false /\
  exists l1 l2, sb_pts b = l1 ++ l2 /\ Forall2 (fun x p => moving x (h * h / n * rho) v p) (create_circle c1 r h n) l1 /\
    Forall2 (fun x p => moving x (h * h / n * rho) (- v) p) (create_circle c2 r h n) l2.
Proof.
  unfold mp_create, two_points. cbn [ca_pos ca_dim ca_vel ca_force ca_mass ca_vol ca_vol0 ca_L ca_stress ca_F ca_kw ca_storeF].
  cbv zeta. cbn [len_ok kw_find find]. generalize (create_circle c1 r h n), (create_circle c2 r h n). intros l1 l2.
  rewrite !app_length, !map_length, repeat_length, !Nat.eqb_refl. cbn [andb]. eexists. split; [reflexivity |]. cbn [sb_dim sb_vol0d sb_pts].
  split; [reflexivity |]. split; [reflexivity |]. rewrite seq_app, map_app. do 2 eexists. split; [reflexivity |].
  assert (G : forall (A B : Type) (P : A -> B -> Prop) (f : nat -> B) d l k, (forall i, (i < List.length l)%nat -> P (nth i l d) (f (k + i)%nat)) -> Forall2 P l (map f (seq k (List.length l)))).
  { clear. intros A B P f d l. induction l as [| a l IH]; intros k H; cbn; constructor.
    - specialize (H 0%nat). cbn in H. rewrite Nat.add_0_r in H. apply H. lia.
    - apply IH. intros i Hi. specialize (H (S i)). cbn in H. replace (S k + i)%nat with (k + S i)%nat by lia. apply H. lia. }
  assert (D : forall i, (i < List.length l1 + List.length l2)%nat -> nth i (repeat rho (List.length l1 + List.length l2)) 0 = rho).
  { intros i Hi. rewrite nth_indep with (d' := rho) by (rewrite repeat_length; lia). apply nth_repeat. }
  split; apply G with (d := vzero); intros i Hi; unfold moving; cbn [pt_pos pt_mass pt_vel pt_stress pt_F pick]; (split; [| split; [| split; [| split; reflexivity]]]).
  - rewrite app_nth1 by lia. reflexivity.
  - change (h * h / n * nth i (repeat rho (List.length l1 + List.length l2)) 0 = h * h / n * rho). now rewrite D by lia.
  - rewrite app_nth1 by (rewrite map_length; lia). rewrite nth_indep with (d' := V3 v v 0) by (rewrite map_length; lia).
    exact (map_nth (fun _ => V3 v v 0) l1 vzero i).
  - rewrite app_nth2 by lia. f_equal. lia.
  - change (h * h / n * nth (0 + List.length l1 + i) (repeat rho (List.length l1 + List.length l2)) 0 = h * h / n * rho). now rewrite D by lia.
  - rewrite app_nth2 by (rewrite map_length; lia). rewrite nth_indep with (d' := V3 (- v) (- v) 0) by (rewrite !map_length; lia).
    exact (map_nth (fun _ => V3 (- v) (- v) 0) l2 vzero _).
Qed.
(** every call of the script is accepted and gives the simulation meant: the first disc moves up to the right, the second towards it;
    together they have no momentum *)
Theorem C147_start : forall c1 c2 r h n v rho E nu dt, 0 < h -> 0 < n -> vz c1 = vz c2 -> exists bld S st b l1 l2,
  execs builder0 (two_script c1 c2 r h n v rho E nu) = (bld, [Ok 0; Ok 0; Ok 0; Ok 0; Ok 0]%nat) /\ build bld 0 0%Z dt = (OneSolver S, st) /\ meant h E nu dt b S st /\
  sb_pts b = l1 ++ l2 /\ Forall2 (fun x p => moving x (h * h / n * rho) v p) (create_circle c1 r h n) l1 /\
  Forall2 (fun x p => moving x (h * h / n * rho) (- v) p) (create_circle c2 r h n) l2 /\ momentum_of (sb_pts b) = vzero.
Proof.
  intros c1 c2 r h n v rho E nu dt Hh Hn Ez. destruct (two_created c1 c2 r h n v rho) as (b & Eb & Db & Vb & l1 & l2 & Ep & F1 & F2).
  assert (Eb' : @mp_create R (@numt_num R NumT_R) (two_points c1 c2 r h n v rho) = Ok b) by exact Eb.
  do 3 eexists. exists b, l1, l2. split; [unfold two_script; cbn [execs exec]; rewrite Eb'; reflexivity |]. split; [reflexivity |].
  - split; [| split; [exact Ep | split; [exact F1 | split; [exact F2 |]]]].
    + repeat split.
    + rewrite Ep. assert (L : List.length l1 = List.length l2).
      { rewrite <- (Forall2_len _ _ _ F1), <- (Forall2_len _ _ _ F2). rewrite (C147_congruent c1 c2 r h n Hh Hn Ez). now rewrite map_length. }
      assert (G : forall m u xs l, Forall2 (fun x p => moving x m u p) xs l -> vsum (fun p => vscale (pt_mass p) (pt_vel p)) l = V3 (INR (List.length l) * m * u) (INR (List.length l) * m * u) 0).
      { clear. intros m u xs l F. induction F as [| x p xs l (_ & Em & Ev & _) F IH].
        - unfold vsum. apply vec3_eq; cbn; ring.
        - unfold vsum in *. assert (I1 := f_equal (@vx R) IH). assert (I2 := f_equal (@vy R) IH). assert (I3 := f_equal (@vz R) IH). cbn [vx vy vz] in I1, I2, I3. rewrite !sumR_cons, I1, I2, I3, Em, Ev. cbn [List.length]. rewrite S_INR.
          apply vec3_eq; unfold vscale, vmap; cbn [vx vy vz]; rnum; ring. }
      unfold momentum_of, vsum. rewrite !sumR_app. assert (A := G _ _ _ _ F1). assert (B := G _ _ _ _ F2). unfold vsum in A, B.
      assert (A1 := f_equal (@vx R) A). assert (A2 := f_equal (@vy R) A). assert (A3 := f_equal (@vz R) A).
      assert (B1 := f_equal (@vx R) B). assert (B2 := f_equal (@vy R) B). assert (B3 := f_equal (@vz R) B). cbn [vx vy vz] in A1, A2, A3, B1, B2, B3. rewrite A1, A2, A3, B1, B2, B3, L. apply vec3_eq; cbn; rnum; ring.
Qed.
Print Assumptions C147_start.

Definition heavy_step (S : Solver R) (st : SimState R) : Prop := forall w ca w2 ca2 ca3 gi g c, prepare S st = Ok (w, ca) -> p2g S w (s_mech st) ca = Ok (w2, ca2) ->
  integrate_grid S w2 (s_mech st) (s_dt st) ca2 = Ok ca3 -> nth_error (sc_grids ca3) gi = Some g -> In c (active_on S gi) -> heavy S (s_world st) g c.
(** the simulation never raises an error *)
Theorem C147_goes_on : forall h E nu dt b S st n, meant h E nu dt b S st -> sb_dim b = D2 -> sb_vol0d b = false -> List.length (sb_pts b) <> 1%nat ->
  exists st', solver_steps S n st = Ok st'.
Proof.
  intros h E nu dt b S st n (Es & Ec & Ed & El & Ef & Esd & Ew & Ews & Em & _) Hd Hv Hn. apply ready_run. unfold ready. rewrite Esd, Ec, Ef. split; [cbn; lia |]. split; [| split].
  - intros c [<- | []]. exists (Soft b). eexists. rewrite Ew, Ed. split; [reflexivity |]. split; [reflexivity |]. split; [exact Hd |]. now rewrite Esd.
  - intros c [<- | []] _. exists b, 0%nat, (law147 E nu), None. rewrite Ew, El, Em, Es. repeat split; assumption.
  - intros f [].
Qed.
Print Assumptions C147_goes_on.
(** and the total momentum stays what it was as long as no point touches the rim of the grid or a node below the cutoff *)
Theorem C147_momentum : forall h E nu dt b S st n st', meant h E nu dt b S st -> solver_steps S n st = Ok st' ->
  (forall k sk, (k < n)%nat -> solver_steps S k st = Ok sk -> inside S (s_world sk) /\ heavy_step S sk) ->
  forall a, (a < 2)%nat -> vcomp a (momentum_of (pts_at (s_world st') 0)) = vcomp a (momentum_of (sb_pts b)).
Proof.
  intros h E nu dt b S st n st' (Es & Ec & Ed & El & Ef & Esd & Ew & _) Run H a Ha.
  assert (G : vcomp a (momentum_of (pts_at (s_world st') 0)) = vcomp a (momentum_of (pts_at (s_world st) 0))).
  { clear Ew. revert st Run H. induction n as [| n IH]; intros st Run H; [injection Run as <-; reflexivity |].
    cbn [solver_steps] in Run. apply rbind_ok in Run as (s1 & E1 & Run). rewrite (IH s1 Run).
    - destruct (H 0%nat st ltac:(lia) eq_refl) as (Hin & Hh). destruct (ex_phases _ _ _ E1) as (w & ca & w2 & ca2 & ca3 & P1 & P2 & P3).
      assert (X : exists g, nth_error (sc_grids ca3) 0 = Some g).
      { destruct (integrate_same_mm _ _ _ _ _ _ P3) as (SM & _). destruct (p2g_grids _ _ _ _ _ _ P1 P2) as (gs & X & _ & _ & F & _). subst gs. rewrite Ed in F.
        destruct (Forall2_nth_error_l _ _ _ _ _ F (eq_refl : nth_error [_] 0 = Some _)) as (gp & Egp & _).
        destruct (nth_error (sc_grids ca3) 0) as [g|] eqn:Eg; [exists g; reflexivity|]. apply nth_error_None in Eg. apply Forall2_len in SM.
        assert (0 < List.length (sc_grids ca2))%nat by (apply nth_error_Some; congruence). lia. }
      destruct X as (g & Eg). assert (Act : active_on S 0 = [coupling147]) by (unfold active_on; rewrite Ec; reflexivity).
      pose proof (gravity_impulse S st s1 w ca w2 ca2 ca3 P1 P2 P3 E1 Hin) as I. rewrite Ef in I.
      assert (Nd : NoDup (map c_p (active S))) by (unfold active; rewrite Ec; repeat constructor; intros []).
      specialize (I Nd ltac:(intros f []) 0%nat g (grid_create D2 (V3 0 0 0) (V3 1 1 0) h 2) a Eg ltac:(now rewrite Ed) Ha ltac:(now rewrite Act)).
      specialize (I ltac:(intros c Hc; exact (Hh _ _ _ _ _ _ _ _ P1 P2 P3 Eg Hc)) ltac:(unfold plain; now rewrite Es)).
      rewrite Act in I. cbn [sumR fold_right] in I. cbn [coupling147 c_p] in I.
      replace (vcomp a (vsum (gravity_on (s_mech st) 0) [])) with 0 in I by (destruct a as [|[|]]; [reflexivity | reflexivity | lia]). lra.
    - intros k sk Hk Rk. apply (H (Datatypes.S k)); [lia |]. cbn [solver_steps]. rewrite E1. exact Rk. }
  rewrite G. unfold pts_at. rewrite Ew. reflexivity.
Qed.
Print Assumptions C147_momentum.

(** *** the numbers of the script: the points are where the first step needs them *)
Definition ca1 : vec3 R := V3 (255/1000) (255/1000) 0.
Definition ca2 : vec3 R := V3 (745/1000) (745/1000) 0.
(** coordinates of the points of the script in cells of its grid: 0.35 or 0.85, 0.15 or 0.65 past a node *)
Lemma past_node (b : R) (i : Z) : b = 335/100 + IZR i / 2 \/ b = 1315/100 + IZR i / 2 -> IZR (Zfloor b) + 15/100 <= b <= IZR (Zfloor b) + 85/100.
Proof.
  intros H. destruct (Z.Even_or_Odd i) as [[q ->] | [q ->]].
  - rewrite mult_IZR in H. destruct H as [-> | ->].
    + rewrite (Zfloor_imp (3 + q)); rewrite ?plus_IZR; lra.
    + rewrite (Zfloor_imp (13 + q)); rewrite ?plus_IZR; lra.
  - rewrite plus_IZR, mult_IZR in H. destruct H as [-> | ->].
    + rewrite (Zfloor_imp (3 + q)); rewrite ?plus_IZR; lra.
    + rewrite (Zfloor_imp (13 + q)); rewrite ?plus_IZR; lra.
Qed.
Lemma tent_low (b : R) (o : Z) : IZR (Zfloor b) + 15/100 <= b <= IZR (Zfloor b) + 85/100 -> In o (window Linear) -> 15/100 <= lin_basis (b - IZR (Zfloor b + o)).
Proof.
  intros H Ho. unfold lin_basis. rewrite nabs_R. rnum. rewrite plus_IZR. destruct Ho as [<- | [<- | []]].
  - replace (b - (IZR (Zfloor b) + 0)) with (b - IZR (Zfloor b)) by ring. rewrite Rabs_right by lra. rcase; lra.
  - rewrite Rabs_left by lra. rcase; lra.
Qed.
Lemma script_point (c p : vec3 R) : In p (create_circle c (2/10) (5/100) 4) -> c = ca1 \/ c = ca2 ->
  (0 <= vx p <= 1 /\ 0 <= vy p <= 1) /\ forall u, u = vx p \/ u = vy p -> let b := (u - (0 - 2 * (5/100))) * (1 / (5/100)) in IZR (Zfloor b) + 15/100 <= b <= IZR (Zfloor b) + 85/100.
Proof.
  intros Hp Hc. apply (C147_points c (2/10) (5/100) 4 p ltac:(lra) ltac:(lra) ltac:(lra) ltac:(unfold slack; lra)) in Hp.
  destruct Hp as (i & j & E & W). split.
  - unfold within, slack, Rsqr in W. assert (A : forall u w : R, u * u + w * w < 2/10 * (2/10) + 5/100000 -> -21/100 <= u <= 21/100) by (intros u w Hu; assert (0 <= w * w) by nra; split; nra).
    assert (W' : (vy p - vy c) * (vy p - vy c) + (vx p - vx c) * (vx p - vx c) < 2/10 * (2/10) + 5/100000) by lra.
    apply A in W. apply A in W'. destruct Hc as [-> | ->]; cbn [ca1 ca2 vx vy] in W, W'; lra.
  - rewrite E. unfold node_of. cbn [vx vy]. intros u [-> | ->].
    + apply (past_node _ i). destruct Hc as [-> | ->]; [left | right]; cbn [ca1 ca2 vx]; field.
    + apply (past_node _ j). destruct Hc as [-> | ->]; [left | right]; cbn [ca1 ca2 vy]; field.
Qed.
Lemma two_numbers_eq : two_numbers = two_script ca1 ca2 (2/10) (5/100) 4 (1/10) 1000 1000 (3/10).
Proof. reflexivity. Qed.
(** the hypotheses of C147_goes_on and, for the first step, of C147_momentum hold for the numbers of the script *)
Example C147_case : exists bld S st b, execs builder0 two_numbers = (bld, [Ok 0; Ok 0; Ok 0; Ok 0; Ok 0]%nat) /\ build bld 0 0%Z two_dt = (OneSolver S, st) /\
  meant (5/100) 1000 (3/10) two_dt b S st /\ momentum_of (sb_pts b) = vzero /\ sb_dim b = D2 /\ sb_vol0d b = false /\ (2 <= List.length (sb_pts b))%nat /\
  inside S (s_world st) /\ heavy_step S st.
Proof.
  rewrite two_numbers_eq. destruct (C147_start ca1 ca2 (2/10) (5/100) 4 (1/10) 1000 1000 (3/10) two_dt ltac:(lra) ltac:(lra) eq_refl) as (bld & S & st & b & l1 & l2 & X1 & X2 & M & Ep & F1 & F2 & M0).
  exists bld, S, st, b. split; [exact X1 |]. split; [exact X2 |]. split; [exact M |]. split; [exact M0 |].
  destruct (two_created ca1 ca2 (2/10) (5/100) 4 (1/10) 1000) as (b' & Eb' & D & V & _).
  assert (b = b').
  { assert (Y : exists bl, execs builder0 (two_script ca1 ca2 (2/10) (5/100) 4 (1/10) 1000 1000 (3/10)) = bl /\ b_points (fst bl) = [Soft b']).
    { eexists. split; [reflexivity |]. assert (Eb : @mp_create R (@numt_num R NumT_R) (two_points ca1 ca2 (2/10) (5/100) 4 (1/10) 1000) = Ok b') by exact Eb'.
      unfold two_script. cbn [execs exec]. rewrite Eb. reflexivity. }
    destruct Y as (bl & Y1 & Y2). rewrite X1 in Y1. subst bl. cbn [fst] in Y2. unfold build in X2. injection X2 as _ X2. subst st.
    destruct M as (_ & _ & _ & _ & _ & _ & Ew & _). cbn [s_world w_mps] in Ew. rewrite Y2 in Ew. now injection Ew. }
  subst b'. split; [exact D |]. split; [exact V |].
  assert (P : forall p, In p (sb_pts b) -> exists c, In (pt_pos p) (create_circle c (2/10) (5/100) 4) /\ (c = ca1 \/ c = ca2) /\ pt_mass p = 5/100 * (5/100) / 4 * 1000).
  { intros p Hp. rewrite Ep in Hp. apply in_app_iff in Hp. destruct Hp as [Hp | Hp].
    - destruct (In_nth _ _ pt0 Hp) as (k & Hk & Ek). assert (Q : exists x, In x (create_circle ca1 (2/10) (5/100) 4) /\ moving x (5/100 * (5/100) / 4 * 1000) (1/10) p).
      { clear -F1 Hp. induction F1 as [| x q xs l Hq F IH]; [contradiction |]. destruct Hp as [<- | Hp]; [exists x; split; [left; reflexivity | exact Hq] |].
        destruct (IH Hp) as (y & Hy & Q). exists y. split; [right; exact Hy | exact Q]. }
      destruct Q as (x & Hx & (E1 & E2 & _)). exists ca1. rewrite E1. auto.
    - assert (Q : exists x, In x (create_circle ca2 (2/10) (5/100) 4) /\ moving x (5/100 * (5/100) / 4 * 1000) (- (1/10)) p).
      { clear -F2 Hp. induction F2 as [| x q xs l Hq F IH]; [contradiction |]. destruct Hp as [<- | Hp]; [exists x; split; [left; reflexivity | exact Hq] |].
        destruct (IH Hp) as (y & Hy & Q). exists y. split; [right; exact Hy | exact Q]. }
      destruct Q as (x & Hx & (E1 & E2 & _)). exists ca2. rewrite E1. auto. }
  assert (G : forall c, In (node_of c (2/10) (5/100 / (4/2)) 8 8) (create_circle c (2/10) (5/100) 4)).
  { intros c. apply (C147_points c (2/10) (5/100) 4 _ ltac:(lra) ltac:(lra) ltac:(lra) ltac:(unfold slack; lra)). exists 8%Z, 8%Z. split; [reflexivity |].
    unfold within, node_of, slack, Rsqr. cbn [vx vy]. nra. }
  split.
  { rewrite Ep, app_length, <- (Forall2_len _ _ _ F1), <- (Forall2_len _ _ _ F2).
    assert (A := G ca1). assert (B := G ca2). destruct (create_circle ca1 (2/10) (5/100) 4); [contradiction |]. destruct (create_circle ca2 (2/10) (5/100) 4); [contradiction |]. cbn. lia. }
  destruct M as (Es & Ec & Ed & El & Ef & Esd & Ew & _).
  assert (Pa : pts_at (s_world st) 0 = sb_pts b) by (unfold pts_at; rewrite Ew; reflexivity).
  assert (In0 : inside S (s_world st)).
  { intros c gd Hc Egd. rewrite Ec in Hc. destruct Hc as [<- | []]. rewrite Ed in Egd. injection Egd as <-.
    assert (CI : forall x, 0 <= vx x <= 1 /\ 0 <= vy x <= 1 -> wf_grid (grid_create D2 (V3 0 0 0) (V3 1 1 0) (5/100) 2) /\ interior Linear (grid_create D2 (V3 0 0 0) (V3 1 1 0) (5/100) 2) x).
    { intros x Hx. apply created_interior; [lra | cbn; lia |]. intros [|[|a]] Ha; cbn [vcomp vx vy]; [apply Hx | apply Hx | cbn in Ha; lia]. }
    split; [apply (CI (V3 0 0 0)); cbn; lra |]. intros p Hp. cbn [coupling147 c_p c_kernel] in *. rewrite Pa in Hp. destruct (P p Hp) as (c & Hc & Hc' & _).
    apply CI. apply (script_point c); assumption. }
  split; [exact In0 |].
  intros w ca w2 ca2' ca3 gi g c E1 E2 E3 Eg Hc. assert (Hc0 := Hc). unfold active_on in Hc0. rewrite Ec in Hc0. cbn [filter coupling147 c_skip c_g negb andb] in Hc0.
  destruct (Nat.eqb_spec 0 gi) as [<- | _]; [| contradiction]. destruct Hc0 as [<- | []].
  eapply (heavy_if S st w ca w2 ca2' ca3 E1 E2 E3 In0 0%nat g); [exact Eg | rewrite Ed; reflexivity | | exact Hc |].
  - intros c p Hc1 Hp. unfold active_on in Hc1. rewrite Ec in Hc1. cbn in Hc1. destruct Hc1 as [<- | []]. cbn [coupling147 c_p] in Hp. rewrite Pa in Hp.
    destruct (P p Hp) as (_ & _ & _ & ->). lra.
  - intros it Hit Hnz. unfold rows_of in Hit. rewrite Ec, Ed in Hit. cbn [coupling147 c_p c_g nth_error] in Hit.
    change (last_kernel [coupling147] 0 0) with (Some Linear) in Hit. cbv iota in Hit. cbn [coupling147 c_p]. rewrite Pa in *.
    destruct (compute_row _ _ _ _ Hit) as (off & Ho & _ & Hp & _ & Er). rewrite map_length in Hp.
    assert (Hq : In (nth (it_point it) (sb_pts b) pt0) (sb_pts b)) by (apply nth_In; exact Hp).
    destruct (P _ Hq) as (c & Hc1 & Hc2 & ->).
    assert (Ex : nth (it_point it) (map pt_pos (sb_pts b)) vzero = pt_pos (nth (it_point it) (sb_pts b) pt0)) by exact (map_nth pt_pos (sb_pts b) pt0 (it_point it)).
    rewrite Ex in Er. revert Hc1 Er. generalize (pt_pos (nth (it_point it) (sb_pts b) pt0)). intros x Hx Er.
    destruct (script_point c x Hx Hc2) as (_ & Fr).
    assert (Hv : 15/100 * (15/100) <= it_val it).
    { rewrite Er in Hnz |- *. unfold single_interaction in *. cbn [it_val it_grad] in *. destruct (idx_valid _ _); [clear Hnz | exfalso; destruct Hnz as [Z | Z]; apply Z; reflexivity].
      apply in_stencil in Ho. destruct Ho as (O1 & O2 & _). unfold shape_val. cbn [gd_dim grid_create basis].
      unfold dist_vec, node_idx, base_pos. cbn [vx vy gd_origin gd_inv grid_create base_id].
      assert (T1 := tent_low _ _ (Fr (vx x) (or_introl eq_refl)) O1). assert (T2 := tent_low _ _ (Fr (vy x) (or_intror eq_refl)) O2).
      apply Rmult_le_compat; [lra | lra | exact T1 | exact T2]. }
    assert (Cu : cut_of S < 1 / 1000000) by (unfold cut_of; rewrite Es; unfold cut12; rnum; lra). nra.
Qed.
