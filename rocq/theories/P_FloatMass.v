(** C132: nodal masses computed with rounding. *)
From Coq Require Import List ZArith Arith Reals Bool Lra Lia.
From Flocq Require Import Core.
From Verif Require Import Num NumR NumFl FlFacts Linalg Arrays ModelGrid ModelShape ModelMath ModelState ModelLaws ModelForces ModelSolver
  Sums SpecShape ShapeProofs ShapeProofs3 ResFacts SolverFacts SpecSolver P_Float.
Import ListNotations.
Local Open Scope R_scope.

(** *** what is added to which node, for any scalars *)
Section Structure.
Context {T : Type} {NT : NumT T}.
(** the additions to the masses of grid [gi] made for one body *)
Definition deposits (pts : list (Particle T)) (rows : list (Interaction T)) : list (nat * T) :=
  map (fun it => on_node it (nmul (eff it) (pt_mass (point_of pts it)))) rows.
Definition rows_of (inter : list ((nat * nat) * list (Interaction T))) (c : Coupling) : list (Interaction T) :=
  match dict_get (c_p c, c_g c) inter with Ok l => l | Err _ => [] end.
Lemma scatter_add_app {A} (add : A -> A -> A) init l m : scatter_add add init (l ++ m) = scatter_add add (scatter_add add init l) m.
Proof. unfold scatter_add. apply fold_left_app. Qed.
Lemma fold_deposits (S : Solver T) w m inter gi : forall cs gs0 gs,
  rfold (p2g_coupling S w m inter) gs0 cs = Ok gs -> forall g0 g, nth_error gs0 gi = Some g0 -> nth_error gs gi = Some g ->
  gr_mass g = scatter_add nadd (gr_mass g0)
    (flat_map (fun c => deposits (pts_at w (c_p c)) (rows_of inter c)) (filter (fun c => (negb (c_skip c) && Nat.eqb (c_g c) gi)%bool) cs)).
Proof.
  induction cs as [|c cs IH]; intros gs0 gs E g0 g E0 Eg.
  - simpl in *. injection E as <-. rewrite E0 in Eg. injection Eg as <-. reflexivity.
  - cbn [rfold] in E. apply rbind_ok in E. destruct E as (gs1 & E1 & E). apply p2g_coupling_ok in E1.
    destruct E1 as [(Es & ->)|(Es & s & it & gr & vel & Eb & Ev & Eit & Egr & Hvel & ->)]; cbn [filter]; rewrite Es; cbn [negb andb].
    + eapply IH; eassumption.
    + destruct (Nat.eqb_spec (c_g c) gi) as [<-|N].
      * rewrite E0 in Egr. injection Egr as <-. cbn [flat_map]. rewrite scatter_add_app.
        rewrite (IH _ _ E (p2g_with it (sb_pts s) vel g0) g); [|eapply set_nth_same; eassumption|exact Eg].
        unfold rows_of. rewrite Eit. unfold pts_at at 2. rewrite Eb. reflexivity.
      * eapply IH; [exact E| |exact Eg]. rewrite set_nth_other by exact N. exact E0.
Qed.
End Structure.

(** *** rounded accumulation *)
Section Sum.
Context (p e : Z) (OK : format_ok p e).
Notation F := (isfloat p e).
Notation rnd := (fl p e).
Local Notation u := (uro p).
Definition fadd (x y : R) : R := rnd (x + y).
Definition hits {A} (i : nat) (ivs : list (nat * A)) : nat := length (filter (fun iv => Nat.eqb (fst iv) i) ivs).
Definition into (i : nat) (ivs : list (nat * R)) : R := sumR (fun iv => if Nat.eqb (fst iv) i then snd iv else 0) ivs.

Lemma into_nonneg i ivs : (forall iv, In iv ivs -> 0 <= snd iv) -> 0 <= into i ivs.
Proof. intros H. apply sumR_nonneg. intros iv Hiv. destruct (Nat.eqb (fst iv) i); [apply H, Hiv|lra]. Qed.
Lemma scatter_fl i : forall ivs init, (i < length init)%nat -> (forall x, In x init -> F x /\ 0 <= x) -> (forall iv, In iv ivs -> F (snd iv) /\ 0 <= snd iv) ->
  let M := nth i (scatter_add fadd init ivs) 0 in let E := nth i init 0 + into i ivs in
  0 <= M /\ Rabs (M - E) <= ((1 + u) ^ hits i ivs - 1) * E.
Proof.
  pose proof (uro_pos p) as U.
  induction ivs as [|[j v] ivs IH]; intros init Hi HI HV; cbv zeta.
  - unfold into, hits. simpl. assert (0 <= nth i init 0) by (apply HI, nth_In, Hi). split; [assumption|].
    replace (nth i init 0 - (nth i init 0 + 0)) with 0 by ring. rewrite Rabs_R0. lra.
  - unfold scatter_add. cbn [fold_left fst snd]. fold (scatter_add fadd (upd_at (fun x => fadd x v) j init) ivs).
    destruct (HV (j, v) (or_introl eq_refl)) as (Fv & V0). cbn [snd] in Fv, V0.
    assert (HI' : forall x, In x (upd_at (fun x => fadd x v) j init) -> F x /\ 0 <= x).
    { intros x Hx. destruct (In_nth _ _ 0 Hx) as (k & Hk & <-). rewrite upd_at_length in Hk. rewrite upd_at_nth.
      apply Nat.ltb_lt in Hk as Hk'. rewrite Hk', andb_true_r. destruct (HI (nth k init 0) (nth_In _ _ Hk)) as (Fk & K0).
      destruct (Nat.eqb j k); [|split; assumption]. unfold fadd. split; [apply fl_float, OK|].
      apply Rle_trans with (rnd 0); [rewrite (fl_id p e 0 (float_0 p e)); apply Rle_refl|apply fl_mono; [exact OK|lra]]. }
    specialize (IH (upd_at (fun x => fadd x v) j init)). rewrite upd_at_length in IH.
    specialize (IH Hi HI' (fun iv Hiv => HV iv (or_intror Hiv))). cbv zeta in IH. rewrite upd_at_nth in IH. apply Nat.ltb_lt in Hi as Hi'. rewrite Hi', andb_true_r in IH.
    destruct IH as (M0 & IH). split; [exact M0|]. set (M := nth i (scatter_add _ _ ivs) 0) in *.
    destruct (HI (nth i init 0) (nth_In _ _ Hi)) as (Fi & I0).
    assert (Z0 : 0 <= into i ivs) by (apply into_nonneg; intros iv Hiv; apply (HV iv (or_intror Hiv))).
    unfold into, hits. cbn [filter fst]. rewrite sumR_cons. cbn [fst snd]. fold (into i ivs).
    assert (K1 : 1 <= (1 + u) ^ hits i ivs) by (apply pow_R1_Rle; lra).
    destruct (Nat.eqb j i).
    + cbn [length]. fold (hits i ivs). set (K := (1 + u) ^ hits i ivs) in *. set (r := into i ivs) in *.
      pose proof (fl_add_err p e OK _ _ Fi Fv) as E. fold (fadd (nth i init 0) v) in E. set (a := nth i init 0 + v) in *.
      assert (A0 : 0 <= a) by (unfold a; lra). rewrite (Rabs_right a) in E by lra. set (b := fadd (nth i init 0) v) in *.
      replace (nth i init 0 + (v + r)) with (a + r) by (unfold a; ring). cbn [pow]. fold K.
      replace (M - (a + r)) with ((M - (b + r)) + (b - a)) by ring. eapply Rle_trans; [apply Rabs_triang|].
      apply Rabs_le_inv in E as E'. assert ((K - 1) * (b + r) <= (K - 1) * ((1 + u) * a + r)) by (apply Rmult_le_compat_l; lra).
      assert (0 <= u * (K * r)) by (apply Rmult_le_pos; [lra|apply Rmult_le_pos; lra]). nra.
    + fold (hits i ivs). rewrite Rplus_0_l. exact IH.
Qed.

Lemma totS_scatter (init : list R) (ivs : list (nat * R)) : (forall iv, In iv ivs -> (fst iv < length init)%nat) ->
  sumR (fun i => nth i init 0 + into i ivs) (seq 0 (length init)) = totS init + sumR snd ivs.
Proof.
  intros H. rewrite sumR_plus, (sumR_seq_nth (fun x => x)). f_equal. unfold into. rewrite sumR_swap. apply sumR_ext. intros iv Hiv.
  rewrite (sumR_ext_all _ (fun j => if Nat.eqb j (fst iv) then (fun _ => snd iv) (nth j init 0) else 0)) by (intro j; rewrite Nat.eqb_sym; reflexivity).
  rewrite (sumR_select (fun _ => snd iv) 0 init (fst iv)). apply H in Hiv. apply Nat.ltb_lt in Hiv. rewrite Hiv. reflexivity.
Qed.
Lemma totS_fl (init : list R) (ivs : list (nat * R)) K : (forall x, In x init -> F x /\ 0 <= x) -> (forall iv, In iv ivs -> F (snd iv) /\ 0 <= snd iv) ->
  (forall iv, In iv ivs -> (fst iv < length init)%nat) -> (forall i, (i < length init)%nat -> (hits i ivs <= K)%nat) ->
  let E := totS init + sumR snd ivs in
  (forall x, In x (scatter_add fadd init ivs) -> 0 <= x) /\ Rabs (totS (scatter_add fadd init ivs) - E) <= ((1 + u) ^ K - 1) * E.
Proof.
  intros HI HV HL HK. cbv zeta. pose proof (uro_pos p) as U. split.
  { intros x Hx. destruct (In_nth _ _ 0 Hx) as (i & Hi & <-). rewrite scatter_add_length in Hi. exact (proj1 (scatter_fl i ivs init Hi HI HV)). }
  rewrite <- totS_scatter by exact HL. unfold totS. rewrite <- (sumR_seq_nth (fun x => x) 0 (scatter_add fadd init ivs)), scatter_add_length.
  rewrite <- sumR_minus, <- sumR_scal.
  assert (G : forall (f g : nat -> R) l, (forall i, In i l -> Rabs (f i) <= g i) -> Rabs (sumR f l) <= sumR g l).
  { clear. intros f g l. induction l as [|a l IH]; intros H; [simpl; rewrite Rabs_R0; lra|]. rewrite !sumR_cons. eapply Rle_trans; [apply Rabs_triang|].
    apply Rplus_le_compat; [apply H; left; reflexivity|apply IH; intros; apply H; right; assumption]. }
  apply G. intros i Hi. apply in_seq in Hi. destruct (scatter_fl i ivs init ltac:(lia) HI HV) as (_ & B). cbv zeta in B.
  eapply Rle_trans; [exact B|]. apply Rmult_le_compat_r.
  - assert (0 <= nth i init 0) by (apply HI, nth_In; lia). assert (0 <= into i ivs) by (apply into_nonneg; intros iv Hiv; apply (HV iv Hiv)). lra.
  - assert ((1 + u) ^ hits i ivs <= (1 + u) ^ K) by (apply Rle_pow; [lra|apply HK; lia]). lra.
Qed.
End Sum.

(** *** one body *)
Section Body.
Context (p e : Z) (OK : format_ok p e).
Local Notation N := (Num_fl p e).
Local Notation u := (uro p).
Local Notation loss := (weight_loss p e).
(** the mass on its nodes, added up exactly, differs from the mass [m] of the body with [n] points by at most this *)
Definition body_loss (d : Dim) (m : R) (n : nat) : R :=
  m * (loss d + u * (1 + loss d)) + INR n * (INR (window_size Linear d) * tiny e).

Lemma loss_pos d : 0 <= loss d.
Proof. unfold weight_loss. pose proof (uro_pos p). pose proof (tiny_pos e). destruct d; nra. Qed.
Lemma sumR_abs {A} (f g : A -> R) l : (forall a, In a l -> Rabs (f a) <= g a) -> Rabs (sumR f l) <= sumR g l.
Proof.
  induction l as [|a l IH]; intros H; [simpl; rewrite Rabs_R0; lra|]. rewrite !sumR_cons. eapply Rle_trans; [apply Rabs_triang|].
  apply Rplus_le_compat; [apply H; left; reflexivity|apply IH; intros; apply H; right; assumption].
Qed.
Lemma sumR_const {A} c (l : list A) : sumR (fun _ => c) l = INR (length l) * c.
Proof. induction l as [|a l IH]; [simpl; ring|]. rewrite sumR_cons, IH. cbn [length]. rewrite S_INR. ring. Qed.
Lemma sumR_by_point_fl k (g : GridDomain R) xs (G : Interaction R -> R) :
  sumR G (@compute_on R N k g xs) = sumR (fun i => sumR G (of_point i (@compute_on R N k g xs))) (seq 0 (length xs)).
Proof.
  rewrite (@compute_on_points R N) at 1. rewrite sumR_flat_map. apply sumR_ext. intros i Hi. apply in_seq in Hi.
  rewrite (@of_point_compute R N) by lia. reflexivity.
Qed.

Variables (gd : GridDomain R) (pts : list (Particle R)).
Hypothesis W : wf_sizes gd.
Hypothesis I : forall q, In q pts -> fits_fl p e gd (pt_pos q) /\ 0 <= pt_mass q.
Let xs := map pt_pos pts.
Let rows := @compute_on R N Linear gd xs.
Let deps := @deposits R (NumT_fl p e) pts rows.

Lemma bl_nth i : nth i xs (@vzero R N) = pt_pos (nth i pts (@pt0 R (NumT_fl p e))).
Proof. unfold xs. rewrite <- (map_nth pt_pos). reflexivity. Qed.
Lemma bl_fits i : (i < length xs)%nat -> fits_fl p e gd (nth i xs (@vzero R N)).
Proof. intros Hi. rewrite bl_nth. apply I, nth_In. unfold xs in Hi. rewrite map_length in Hi. exact Hi. Qed.
Lemma row_float it : In it rows -> isfloat p e (it_val it).
Proof.
  intros Hin. destruct (@in_compute R N _ _ _ _ Hin) as (i & s & Hi & Hs & ->).
  unfold slot. assert (Ho : In (nth s (stencil Linear (gd_dim gd)) (V3 0%Z 0%Z 0%Z)) (stencil Linear (gd_dim gd))) by (apply nth_In; exact Hs).
  rewrite (row_val p e) by (first [exact W|exact Ho|apply bl_fits, Hi]). unfold wt. destruct (gd_dim gd); apply fl_float, OK.
Qed.
Lemma row_eff_fl it : In it rows -> @eff R (NumT_fl p e) it = it_val it.
Proof.
  intros Hin. unfold eff. rewrite (@compute_mask R (NumT_fl p e) _ _ _ _ Hin).
  change (fl p e (it_val it * fl p e 1) = it_val it) || change (fl p e (it_val it * 1) = it_val it).
  try rewrite (fl_id p e 1 (float_1 p e OK)). rewrite Rmult_1_r. apply fl_id, row_float, Hin.
Qed.

Lemma deposit_float iv : In iv deps -> isfloat p e (snd iv) /\ 0 <= snd iv.
Proof.
  intros Hin. unfold deps, deposits in Hin. apply in_map_iff in Hin. destruct Hin as (it & <- & Hin). cbn [on_node snd].
  rewrite row_eff_fl by exact Hin. change (isfloat p e (fl p e (it_val it * pt_mass (@point_of R (NumT_fl p e) pts it))) /\ 0 <= fl p e (it_val it * pt_mass (@point_of R (NumT_fl p e) pts it))).
  split; [apply fl_float, OK|]. apply Rle_trans with (fl p e 0); [rewrite (fl_id p e 0 (float_0 p e)); apply Rle_refl|]. apply fl_mono; [exact OK|].
  assert (0 <= it_val it) by (eapply C130_unit; [exact OK|exact W|exact bl_fits|exact Hin]).
  assert (Lp : (it_point it < length pts)%nat) by (destruct (@compute_in_range R N _ _ _ _ W Hin) as (_ & L & _); unfold xs in L; rewrite map_length in L; exact L).
  destruct (I _ (nth_In pts (@pt0 R (NumT_fl p e)) Lp)) as (_ & M0). apply Rmult_le_pos; assumption.
Qed.
Lemma deposit_range iv : In iv deps -> (fst iv < Z.to_nat (num_cells gd))%nat.
Proof.
  intros Hin. unfold deps, deposits in Hin. apply in_map_iff in Hin. destruct Hin as (it & <- & Hin). cbn [on_node fst].
  destruct (@compute_in_range R N _ _ _ _ W Hin) as (Hh & _). lia.
Qed.
Lemma point_mass i : (i < length pts)%nat -> let m := pt_mass (nth i pts (@pt0 R (NumT_fl p e))) in
  Rabs (sumR (fun it => fl p e (it_val it * m)) (of_point i rows) - m)
  <= m * (loss (gd_dim gd) + u * (1 + loss (gd_dim gd))) + INR (window_size Linear (gd_dim gd)) * tiny e.
Proof.
  intros Hi. cbv zeta. assert (Hx : (i < length xs)%nat) by (unfold xs; rewrite map_length; exact Hi).
  destruct (I _ (nth_In pts (@pt0 R (NumT_fl p e)) Hi)) as (_ & M0). set (m := pt_mass (nth i pts _)) in *.
  pose proof (C130_sum p e gd xs i OK W Hx (bl_fits i Hx)) as S. fold rows in S. set (l := of_point i rows) in *.
  assert (V : forall it, In it l -> 0 <= it_val it).
  { intros it Hin. apply in_of_point in Hin. eapply C130_unit; [exact OK|exact W|exact bl_fits|exact (proj1 Hin)]. }
  assert (E : Rabs (sumR (fun it => fl p e (it_val it * m) - it_val it * m) l) <= sumR (fun it => u * m * it_val it + tiny e * 1) l).
  { apply sumR_abs. intros it Hin. eapply Rle_trans; [apply fl_err, OK|]. rewrite Rabs_right by (apply Rle_ge, Rmult_le_pos; [apply V, Hin|exact M0]). lra. }
  assert (C : sumR (fun _ : Interaction R => 1) l = INR (window_size Linear (gd_dim gd))).
  { unfold l, rows. rewrite (@of_point_compute R N) by exact Hx. rewrite sumR_map, sumR_const, seq_length. lra. }
  rewrite sumR_minus, sumR_plus, !sumR_scal, !sumR_scal_r, C in E. set (s := sumR it_val l) in *.
  apply Rabs_le_inv in S. set (L := loss (gd_dim gd)) in *. pose proof (uro_pos p) as U.
  replace (sumR (fun it => fl p e (it_val it * m)) l - m) with ((sumR (fun it => fl p e (it_val it * m)) l - s * m) + m * (s - 1)) by ring.
  eapply Rle_trans; [apply Rabs_triang|]. rewrite (Rabs_mult m), (Rabs_right m) by lra.
  assert (m * Rabs (s - 1) <= m * L) by (apply Rmult_le_compat_l; [exact M0|apply Rabs_le; lra]).
  assert (u * m * s <= u * m * (1 + L)) by (apply Rmult_le_compat_l; [apply Rmult_le_pos; lra|lra]). lra.
Qed.
Lemma body_mass : Rabs (sumR snd deps - mass_of pts) <= body_loss (gd_dim gd) (mass_of pts) (length pts).
Proof.
  set (f := fun i => pt_mass (nth i pts (@pt0 R (NumT_fl p e)))).
  assert (Em : mass_of pts = sumR f (seq 0 (length pts))) by (unfold mass_of, f; symmetry; apply (sumR_seq_nth pt_mass)).
  assert (Ed : sumR snd deps = sumR (fun i => sumR (fun it => fl p e (it_val it * f i)) (of_point i rows)) (seq 0 (length pts))).
  { unfold deps, deposits. rewrite sumR_map. unfold rows at 1. rewrite sumR_by_point_fl. replace (length xs) with (length pts) by (unfold xs; rewrite map_length; reflexivity).
    apply sumR_ext. intros i _. apply sumR_ext. intros it Hin. apply in_of_point in Hin. destruct Hin as (Hin & <-).
    cbn [on_node snd]. rewrite row_eff_fl by exact Hin. reflexivity. }
  rewrite Em, Ed, <- sumR_minus. eapply Rle_trans.
  - apply sumR_abs. intros i Hi. apply in_seq in Hi. apply (point_mass i ltac:(lia)).
  - fold f. rewrite sumR_plus, sumR_scal_r, sumR_const, seq_length. unfold body_loss. fold f. lra.
Qed.
End Body.

(** *** all couplings of a grid *)
Section Gen.
Context {T : Type} {NT : NumT T}.
Lemma pts_kept (S : Solver T) st w ca w2 ca2 : prepare S st = Ok (w, ca) -> p2g S w (s_mech st) ca = Ok (w2, ca2) ->
  forall i, Forall2 (fun a b => pt_pos b = pt_pos a /\ pt_mass b = pt_mass a) (pts_at (s_world st) i) (pts_at w2 i).
Proof.
  intros E1 E2 i. apply prepare_ok in E1. destruct E1 as (R1 & _). apply p2g_ok in E2. destruct E2 as (gs & E2 & _).
  apply pre_p2g_fold_ok in E2. destruct E2 as (_ & F). specialize (R1 i). unfold pts_at.
  destruct (nth_error (w_mps (s_world st)) i) as [b|] eqn:Eb; simpl in R1.
  - destruct (Forall2_nth_error_l _ _ _ _ _ F R1) as (b' & -> & Hs).
    assert (G : forall b1, same_but_force b1 b' -> Forall2 (fun a b => pt_pos b = pt_pos a /\ pt_mass b = pt_mass a) (body_pts b1) (body_pts b')).
    { intros b1. destruct b1 as [s1|r1], b' as [s'|r']; simpl; try tauto; [|constructor].
      intros (_ & _ & _ & X). revert X. apply Forall2_weaken. intros a c ->. split; reflexivity. }
    apply G in Hs. destruct (coupled (so_couplings S) i); [|exact Hs].
    eapply Forall2_trans; [| |exact Hs].
    { intros x y z (? & ?) (? & ?). split; congruence. }
    destruct b as [s|r]; simpl; [|constructor]. apply Forall2_map_r. intros a _. split; reflexivity.
  - assert (N : nth_error (w_mps w2) i = None).
    { apply nth_error_None. rewrite <- (Forall2_len _ _ _ F). apply nth_error_None. exact R1. }
    rewrite N. constructor.
Qed.
(** the rows of a coupling after the forces have been set *)
Lemma rows_compute (S : Solver T) st w ca w2 ca2 c gd s : prepare S st = Ok (w, ca) -> p2g S w (s_mech st) ca = Ok (w2, ca2) ->
  In c (so_couplings S) -> nth_error (so_domains S) (c_g c) = Some gd -> nth_error (w_mps w2) (c_p c) = Some (Soft s) ->
  exists k, last_kernel (so_couplings S) (c_p c) (c_g c) = Some k /\ rows_of (sc_inter ca) c = compute_on k gd (map pt_pos (sb_pts s)).
Proof.
  intros E1 E2 Hc Egd Es. apply prepare_ok in E1. destruct E1 as (R1 & R2 & R3 & _). destruct (R3 c Hc) as (l & El). unfold rows_of. rewrite El.
  apply R2 in El. destruct El as (k & b & gd' & Hk & Hb & Hgd & _ & ->). rewrite Egd in Hgd. injection Hgd as <-. exists k. split; [exact Hk|].
  apply p2g_ok in E2. destruct E2 as (gs & E2 & _). apply pre_p2g_fold_ok in E2. destruct E2 as (_ & F).
  destruct (Forall2_nth_error _ _ _ _ _ F Es) as (b' & Hb' & Hs). rewrite Hb in Hb'. injection Hb' as <-.
  destruct b as [s0|r]; simpl in Hs; [|tauto]. destruct Hs as (_ & _ & _ & X). simpl. f_equal.
  clear -X. induction X as [|p q l l' -> X IH]; [reflexivity|]. simpl. rewrite <- IH. reflexivity.
Qed.
(** the masses of grid [gi] after P2G *)
Lemma grid_deposits (S : Solver T) st w ca w2 ca2 gi gd g : prepare S st = Ok (w, ca) -> p2g S w (s_mech st) ca = Ok (w2, ca2) ->
  nth_error (so_domains S) gi = Some gd -> nth_error (sc_grids ca2) gi = Some g ->
  gr_mass g = scatter_add nadd (repeat n0 (Z.to_nat (num_cells gd)))
    (flat_map (fun c => deposits (pts_at w2 (c_p c)) (rows_of (sc_inter ca) c)) (active_on S gi)).
Proof.
  intros E1 E2 Egd Eg. apply prepare_ok in E1. destruct E1 as (_ & _ & _ & G & _). apply p2g_ok in E2.
  destruct E2 as (gs & _ & E2 & ->). rewrite G in E2. cbn [set_grids sc_grids] in Eg.
  rewrite (fold_deposits S w2 (s_mech st) (sc_inter ca) gi _ _ _ E2 (grid_new gd) g); [reflexivity| |exact Eg].
  rewrite nth_error_map, Egd. reflexivity.
Qed.
Lemma active_soft (S : Solver T) w m inter : forall cs gs gs' c, rfold (p2g_coupling S w m inter) gs cs = Ok gs' -> In c cs -> c_skip c = false ->
  exists s, nth_error (w_mps w) (c_p c) = Some (Soft s).
Proof.
  induction cs as [|a cs IH]; intros gs gs' c E Hc Hs; [contradiction|]. cbn [rfold] in E. apply rbind_ok in E. destruct E as (g1 & E1 & E).
  destruct Hc as [->|Hc]; [|eapply IH; eassumption]. apply p2g_coupling_ok in E1.
  destruct E1 as [(Es & _)|(_ & s & it & gr & vel & Eb & _)]; [congruence|eauto].
Qed.
End Gen.

(** how many rows of the table name node [i] of grid [gi] *)
Definition arrivals {T} (S : Solver T) (inter : list ((nat * nat) * list (Interaction T))) (gi i : nat) : nat :=
  list_sum (map (fun c => length (filter (fun it => Nat.eqb (Z.to_nat (it_hash it)) i) (rows_of inter c))) (active_on S gi)).

(** Masses on a grid fed with the linear kernel, rounding included: no node has negative mass, and the total is the mass
    of the points up to the stated loss, which depends on the format, on the mass, on the number of points and on the
    largest number [K] of contributions a node receives; not on the size of the grid. *)
Theorem C132_total : forall p e (S : Solver R) st w ca w2 ca2 gi gd g K, format_ok p e ->
  @prepare R (NumT_fl p e) S st = Ok (w, ca) -> @p2g R (NumT_fl p e) S w (s_mech st) ca = Ok (w2, ca2) ->
  nth_error (so_domains S) gi = Some gd -> nth_error (sc_grids ca2) gi = Some g -> wf_sizes gd ->
  (forall c, In c (so_couplings S) -> c_g c = gi -> c_kernel c = Linear) ->
  (forall c q, In c (active_on S gi) -> In q (pts_at (s_world st) (c_p c)) -> fits_fl p e gd (pt_pos q) /\ 0 <= pt_mass q) ->
  (forall i, (arrivals S (sc_inter ca) gi i <= K)%nat) ->
  let M := sumR (fun c => mass_of (pts_at (s_world st) (c_p c))) (active_on S gi) in
  let n := list_sum (map (fun c => length (pts_at (s_world st) (c_p c))) (active_on S gi)) in
  let D := body_loss p e (gd_dim gd) M n in
  (forall x, In x (gr_mass g) -> 0 <= x) /\ Rabs (totS (gr_mass g) - M) <= ((1 + uro p) ^ K - 1) * (M + D) + D.
Proof.
  intros p e S st w ca w2 ca2 gi gd g K OK E1 E2 Egd Eg W HL HI HK M n D.
  rewrite (@grid_deposits R (NumT_fl p e) _ _ _ _ _ _ _ _ _ E1 E2 Egd Eg).
  set (deps := flat_map _ (active_on S gi)). set (init := repeat _ _).
  assert (HB : forall c, In c (active_on S gi) -> exists pts, pts_at w2 (c_p c) = pts /\ rows_of (sc_inter ca) c = @compute_on R (Num_fl p e) Linear gd (map pt_pos pts) /\
    (forall q, In q pts -> fits_fl p e gd (pt_pos q) /\ 0 <= pt_mass q) /\ mass_of pts = mass_of (pts_at (s_world st) (c_p c)) /\
    length pts = length (pts_at (s_world st) (c_p c))).
  { intros c Hc. pose proof Hc as Hc'. unfold active_on in Hc'. apply filter_In in Hc'. destruct Hc' as (Hc' & Q). apply andb_prop in Q. destruct Q as (Q1 & Q2).
    apply negb_true_iff in Q1. apply Nat.eqb_eq in Q2.
    pose proof (@pts_kept R (NumT_fl p e) _ _ _ _ _ _ E1 E2 (c_p c)) as U.
    assert (X : exists s, nth_error (w_mps w2) (c_p c) = Some (Soft s)).
    { pose proof E2 as E3. apply (@p2g_ok R (NumT_fl p e)) in E3. destruct E3 as (gs & _ & E3 & _). exact (@active_soft R (NumT_fl p e) S w2 (s_mech st) (sc_inter ca) _ _ _ c E3 Hc' Q1). }
    destruct X as (s & Es). exists (sb_pts s). assert (Ep : pts_at w2 (c_p c) = sb_pts s) by (unfold pts_at; rewrite Es; reflexivity).
    rewrite Ep in U. split; [exact Ep|]. subst gi.
    destruct (@rows_compute R (NumT_fl p e) _ _ _ _ _ _ c gd s E1 E2 Hc' Egd Es) as (k & Hk & Hr).
    apply last_kernel_in in Hk. destruct Hk as (c' & Hc2 & _ & Eg' & <-). rewrite (HL c' Hc2 Eg') in Hr. split; [exact Hr|].
    split; [|split].
    - intros q Hq. destruct (In_nth_error _ _ Hq) as (i & Hi). destruct (Forall2_nth_error _ _ _ _ _ U Hi) as (a & Ha & -> & ->).
      apply (HI c); [exact Hc|]. eapply nth_error_In; eassumption.
    - unfold mass_of. clear -U. induction U as [|a b l m (_ & Hm) U IH]; [reflexivity|]. rewrite !sumR_cons, IH, Hm. reflexivity.
    - symmetry. exact (Forall2_len _ _ _ U). }
  assert (LI : length init = Z.to_nat (num_cells gd)) by (unfold init; apply repeat_length).
  assert (I0 : forall x, In x init -> isfloat p e x /\ 0 <= x).
  { intros x Hx. apply repeat_spec in Hx. change (x = fl p e 0) in Hx. rewrite (fl_id p e 0 (float_0 p e)) in Hx. subst x. split; [apply float_0|lra]. }
  assert (T0 : totS init = 0).
  { unfold totS. apply sumR_zero. intros x Hx. apply repeat_spec in Hx. subst x. apply (fl_id p e 0 (float_0 p e)). }
  assert (DF : forall iv, In iv deps -> (isfloat p e (snd iv) /\ 0 <= snd iv) /\ (fst iv < length init)%nat).
  { intros iv Hiv. apply in_flat_map in Hiv. destruct Hiv as (c & Hc & Hiv). destruct (HB c Hc) as (pts & Ep & Er & Hp & _).
    rewrite Ep, Er in Hiv. rewrite LI. split; [exact (deposit_float p e OK gd pts W Hp iv Hiv)|exact (deposit_range p e gd pts W iv Hiv)]. }
  assert (HH : forall i, (hits i deps <= K)%nat).
  { intros i. specialize (HK i). eapply Nat.le_trans; [|exact HK]. unfold arrivals, deps. clear. apply Nat.eq_le_incl.
    induction (active_on S gi) as [|c l IH]; [reflexivity|]. cbn [flat_map map list_sum fold_right]. unfold hits in *. rewrite filter_app, app_length, IH. f_equal.
    unfold deposits. induction (rows_of (sc_inter ca) c) as [|it r IHr]; [reflexivity|]. cbn [map filter on_node fst].
    destruct (Nat.eqb (Z.to_nat (it_hash it)) i); cbn [length]; rewrite IHr; reflexivity. }
  assert (ED : Rabs (sumR snd deps - M) <= D).
  { unfold deps, M, D, n. rewrite sumR_flat_map, <- sumR_minus.
    apply Rle_trans with (sumR (fun c => body_loss p e (gd_dim gd) (mass_of (pts_at (s_world st) (c_p c))) (length (pts_at (s_world st) (c_p c)))) (active_on S gi)).
    - apply sumR_abs. intros c Hc. destruct (HB c Hc) as (pts & -> & -> & Hp & Em & El). rewrite <- Em, <- El. apply body_mass; assumption.
    - right. unfold body_loss. rewrite sumR_plus, !sumR_scal_r. f_equal. f_equal.
      clear. induction (active_on S gi) as [|c l IH]; [reflexivity|]. rewrite sumR_cons, IH. cbn [map list_sum fold_right]. rewrite plus_INR. reflexivity. }
  destruct (totS_fl p e OK init deps K I0 (fun iv H => proj1 (DF iv H)) (fun iv H => proj2 (DF iv H)) (fun i _ => HH i)) as (P & Q).
  split; [exact P|]. cbv zeta in Q. rewrite T0, Rplus_0_l in Q. change (@numt_num R (NumT_fl p e)) with (Num_fl p e). change (@nadd R (Num_fl p e)) with (fadd p e).
  clear T0. set (E := sumR snd deps) in *. set (t := totS (scatter_add (fadd p e) init deps)) in *. change (Rabs (t - M) <= ((1 + uro p) ^ K - 1) * (M + D) + D). clearbody t E D M.
  replace (t - M) with ((t - E) + (E - M)) by ring. eapply Rle_trans; [apply Rabs_triang|].
  apply Rplus_le_compat; [|exact ED]. eapply Rle_trans; [exact Q|]. apply Rmult_le_compat_l.
  - pose proof (uro_pos p). assert (1 <= (1 + uro p) ^ K) by (apply pow_R1_Rle; lra). lra.
  - apply Rabs_le_inv in ED. lra.
Qed.
Print Assumptions C132_total.

(** Mass on the grid is not conserved exactly, whatever the format: the smallest positive masses, put at the centre of a cell,
    leave nothing on its four nodes. *)
Section Lost.
Context (p e : Z) (OK : format_ok p e).
Local Notation NT := (NumT_fl p e).
Local Notation N := (Num_fl p e).
Definition grid_m : GridDomain R := {| gd_dim := D2; gd_origin := V3 0 0 0; gd_end := V3 5 5 0; gd_cell := 1; gd_inv := 1;
  gd_size := V3 6%Z 6%Z 1%Z; gd_padding := 0%Z |}.
Definition point_m (m : R) : Particle R := {| pt_pos := V3 (3/2) (3/2) 0; pt_vel := V3 1 0 0; pt_mass := m; pt_force := V3 0 0 0; pt_vol := 1; pt_vol0 := 1;
  pt_L := @mzero R N; pt_stress := @mzero R N; pt_F := @meye R N; pt_Fst := @meye R N |}.
Definition solver_m : Solver R := {| so_scheme := USL; so_alpha := 1; so_domains := [grid_m];
  so_couplings := [{| c_kernel := Linear; c_p := 0; c_g := 0; c_c := Some 0%nat; c_s := Some 0%nat; c_skip := false |}];
  so_laws := [Some (LawLE (@linear_elastic R NT 1 (1/4) false))]; so_forces := []; so_sdfs := []; so_sharp := 1 |}.
Definition state_m (m : R) : SimState R := {|
  s_world := {| w_mps := [Soft {| sb_dim := D2; sb_pts := [point_m m; point_m m]; sb_storeF := false; sb_vol0d := false |}]; w_sdfs := [] |};
  s_mech := {| m_laws := [Some (LS_LE [@mzero R N; @mzero R N])]; m_solvers := [Some SS_USL]; m_forces := [] |};
  s_time := 0; s_step := 0; s_dt := 1 |}.
Lemma float_three_half : isfloat p e (3/2).
Proof.
  replace (3/2) with (IZR 3 * bpow radix2 (-1)) by (simpl; lra).
  apply generic_format_FLT. exists (Float radix2 3 (-1)); simpl; destruct OK.
  - unfold F2R; simpl. lra.
  - apply Z.lt_le_trans with (2 ^ 2)%Z; [lia|apply Z.pow_le_mono_r; lia].
  - lia.
Qed.
Lemma base_m : @base_pos R N D2 (V3 0 0 0) 1 (V3 (3/2) (3/2) 0) = V3 (3/2) (3/2) 0 .
Proof.
  assert (A : fl p e (fl p e (3/2 - 0) * 1) = 3/2) by (rewrite Rminus_0_r, (fl_id _ _ _ float_three_half), Rmult_1_r; apply fl_id, float_three_half).
  unfold base_pos. cbn [vx vy vz]. change (V3 (fl p e (fl p e (3/2 - 0) * 1)) (fl p e (fl p e (3/2 - 0) * 1)) (fl p e 0) = V3 (3/2) (3/2) 0).
  rewrite A, (fl_id p e 0 (float_0 p e)). reflexivity.
Qed.
Lemma floor_m : Zfloor (3/2) = 1%Z.
Proof. apply Zfloor_imp. simpl. lra. Qed.
Lemma tent_half o : (o = 0 \/ o = 1)%Z -> tent_fl p e (3/2) o = 1/2.
Proof.
  assert (FH : isfloat p e (1/2)) by apply float_half, OK.
  assert (F2 : isfloat p e 2) by (apply (float_bpow p e OK 1); destruct OK; lia).
  intros Ho. unfold tent_fl, base_id. cbn [nsub nofZ nfloor Num_fl]. rewrite floor_m.
  destruct Ho as [-> | ->]; cbn [Z.add Pos.add].
  - rewrite (fl_id p e 1 (float_1 p e OK)). replace (3/2 - 1) with (1/2) by lra. rewrite (fl_id _ _ _ FH), lin_fl', Rabs_right by (try exact OK; try (rewrite Rabs_right; lra); lra).
    replace (1 - 1/2) with (1/2) by lra. apply fl_id, FH.
  - change (IZR (1 + 1)) with 2. rewrite (fl_id p e 2 F2). replace (3/2 - 2) with (- (1/2)) by lra.
    rewrite fl_opp, (fl_id _ _ _ FH), lin_fl', Rabs_Ropp, Rabs_right by (try exact OK; try rewrite Rabs_Ropp; try rewrite Rabs_right; lra).
    replace (1 - 1/2) with (1/2) by lra. apply fl_id, FH.
Qed.
Lemma fits_m : (6 <= 2 ^ p)%Z -> fits_fl p e grid_m (V3 (3/2) (3/2) 0).
Proof.
  intros Hp. unfold fits_fl. cbn [grid_m gd_dim gd_origin gd_inv gd_size]. rewrite base_m. cbn [vx vy]. unfold axis_fits. rewrite floor_m.
  repeat split; try lra; try lia; exact Hp.
Qed.
Lemma vals_m m it : (6 <= 2 ^ p)%Z -> In it (@compute_on R N Linear grid_m (map pt_pos [point_m m; point_m m])) -> it_val it = 1/4.
Proof.
  intros Hp Hin. destruct (@in_compute R N _ _ _ _ Hin) as (i & s & Hi & Hs & ->).
  assert (Ho : In (nth s (stencil Linear D2) (V3 0%Z 0%Z 0%Z)) (stencil Linear D2)) by (apply nth_In; exact Hs).
  assert (Ex : nth i (map pt_pos [point_m m; point_m m]) (@vzero R N) = V3 (3/2) (3/2) 0).
  { cbn in Hi. destruct i as [|[|i]]; [reflexivity|reflexivity|lia]. }
  unfold slot. rewrite Ex, (row_val p e) by first [exact Ho|apply fits_m, Hp|unfold wf_sizes; cbn; lia].
  cbn [grid_m gd_dim gd_origin gd_inv gd_size]. rewrite base_m. unfold wt. cbn [vx vy].
  set (off := nth s (stencil Linear D2) _) in *.
  assert (O : ((vx off = 0 \/ vx off = 1) /\ (vy off = 0 \/ vy off = 1))%Z).
  { clearbody off. simpl in Ho. destruct Ho as [<-|[<-|[<-|[<-|[]]]]]; simpl; auto. }
  rewrite !tent_half by tauto. assert (B2 : bpow radix2 (-2) = 1/4) by (change (/4 = 1/4); lra). replace (1/2 * (1/2)) with (bpow radix2 (-2)) by (rewrite B2; field).
  rewrite fl_id; [exact B2|]. apply float_bpow; [exact OK|]. destruct OK. assert (2 < p)%Z; [|lia]. apply Z.nle_gt. intros L.
  assert (2 ^ p <= 2 ^ 2)%Z by (apply Z.pow_le_mono_r; lia). lia.
Qed.
Lemma vanish : fl p e (1/4 * bpow radix2 e) = 0.
Proof.
  replace (1/4 * bpow radix2 e) with (bpow radix2 (e + -2)) by (rewrite bpow_plus; change (bpow radix2 (-2)) with (/4); field).
  unfold fl. apply round_N_small_pos with (ex := (e - 1)%Z).
  - replace (e - 1 - 1)%Z with (e + -2)%Z by ring. replace (e - 1)%Z with (e + -1)%Z by ring. rewrite !bpow_plus. change (bpow radix2 (-2)) with (/4). change (bpow radix2 (-1)) with (/2). pose proof (bpow_gt_0 radix2 e). lra.
  - unfold FLT_exp. lia.
Qed.
Lemma run_m m : exists w ca w2 ca2 g, @prepare R NT solver_m (state_m m) = Ok (w, ca) /\ @p2g R NT solver_m w (s_mech (state_m m)) ca = Ok (w2, ca2) /\
  nth_error (sc_grids ca2) 0 = Some g.
Proof. do 5 eexists. split; [reflexivity|]. split; reflexivity. Qed.
End Lost.
Theorem C132_exact_refuted : forall p e, (3 <= p)%Z -> (e <= 1 - p)%Z -> exists (S : Solver R) st w ca w2 ca2 g,
  @prepare R (NumT_fl p e) S st = Ok (w, ca) /\ @p2g R (NumT_fl p e) S w (s_mech st) ca = Ok (w2, ca2) /\
  nth_error (sc_grids ca2) 0 = Some g /\
  (forall c q, In c (active_on S 0) -> In q (pts_at (s_world st) (c_p c)) -> isfloat p e (pt_mass q) /\ 0 < pt_mass q /\ fits_fl p e (grid_m) (pt_pos q)) /\
  0 < sumR (fun c => mass_of (pts_at (s_world st) (c_p c))) (active_on S 0) /\ totS (gr_mass g) = 0.
Proof.
  intros p e Hp He. assert (OK : format_ok p e) by (split; lia).
  assert (P6 : (6 <= 2 ^ p)%Z) by (apply Z.le_trans with (2 ^ 3)%Z; [lia|apply Z.pow_le_mono_r; lia]).
  destruct (run_m p e (bpow radix2 e)) as (w & ca & w2 & ca2 & g & E1 & E2 & Eg).
  exists (solver_m p e), (state_m p e (bpow radix2 e)), w, ca, w2, ca2, g. repeat (split; [assumption|]). pose proof (bpow_gt_0 radix2 e) as B.
  split; [|split].
  - intros c q [<-|[]] Hq. destruct Hq as [<-|[<-|[]]]; cbn [pt_mass pt_pos point_m]; (split; [apply float_bpow; [exact OK|lia]|]; split; [exact B|apply fits_m; assumption]).
  - unfold active_on. cbn [filter so_couplings solver_m c_skip c_g negb andb Nat.eqb]. rewrite sumR_cons. unfold mass_of, pts_at.
    cbn [state_m s_world w_mps nth_error c_p body_pts sb_pts]. rewrite !sumR_cons. cbn [pt_mass point_m]. simpl sumR. lra.
  - rewrite (@grid_deposits R (NumT_fl p e) _ _ _ _ _ _ 0 grid_m g E1 E2 eq_refl Eg).
    assert (Z : forall init ivs, (forall x, In x init -> x = 0) -> (forall iv : nat * R, In iv ivs -> snd iv = 0) ->
              forall x, In x (scatter_add (fadd p e) init ivs) -> x = 0).
    { intros init ivs. revert init. unfold scatter_add. induction ivs as [|[j v] ivs IH]; intros init HI HV; [exact HI|]. cbn [fold_left fst snd]. apply IH.
      - intros x Hx. destruct (In_nth _ _ 0 Hx) as (k & Hk & <-). rewrite upd_at_length in Hk. rewrite upd_at_nth.
        apply Nat.ltb_lt in Hk as Hk'. rewrite Hk', andb_true_r, (HI _ (nth_In init 0 Hk)).
        destruct (Nat.eqb j k); [|reflexivity]. unfold fadd. pose proof (HV (j, v) (or_introl eq_refl)) as V0. cbn [snd] in V0. subst v.
        rewrite Rplus_0_r. apply fl_id, float_0.
      - intros iv Hiv. apply HV. right. exact Hiv. }
    unfold totS. apply sumR_zero. refine (Z _ _ _ _).
    + intros x Hx. apply repeat_spec in Hx. rewrite Hx. apply (fl_id p e 0 (float_0 p e)).
    + intros iv Hiv. apply in_flat_map in Hiv. destruct Hiv as (c & [<-|[]] & Hiv).
      assert (X : exists s, nth_error (w_mps w2) 0 = Some (Soft s)).
      { pose proof E2 as E3. apply (@p2g_ok R (NumT_fl p e)) in E3. destruct E3 as (gs & _ & E3 & _).
        exact (@active_soft R (NumT_fl p e) _ w2 _ (sc_inter ca) _ _ _ _ E3 (or_introl eq_refl) eq_refl). }
      destruct X as (s & Es).
      destruct (@rows_compute R (NumT_fl p e) _ _ _ _ _ _ _ grid_m s E1 E2 (or_introl eq_refl) eq_refl Es) as (k & Hk & Hr).
      injection Hk as <-. unfold deposits in Hiv. apply in_map_iff in Hiv. destruct Hiv as (it & <- & Hit). cbn [on_node snd].
      pose proof (@pts_kept R (NumT_fl p e) _ _ _ _ _ _ E1 E2 0) as U. unfold pts_at in U at 2. rewrite Es in U. cbn [body_pts] in U.
      assert (Px : map pt_pos (sb_pts s) = map pt_pos [point_m p e (bpow radix2 e); point_m p e (bpow radix2 e)]).
      { change (pts_at _ 0) with [point_m p e (bpow radix2 e); point_m p e (bpow radix2 e)] in U.
        inversion U as [|? ? ? ? (Q1 & _) U1]; subst. inversion U1 as [|? ? ? ? (Q2 & _) U2]; subst. inversion U2; subst. simpl. rewrite Q1, Q2. reflexivity. }
      assert (Pm : forall i, (i < 2)%nat -> pt_mass (nth i (sb_pts s) (@pt0 R (NumT_fl p e))) = bpow radix2 e).
      { change (pts_at _ 0) with [point_m p e (bpow radix2 e); point_m p e (bpow radix2 e)] in U.
        inversion U as [|? ? ? ? (_ & Q1) U1]; subst. inversion U1 as [|? ? ? ? (_ & Q2) U2]; subst. inversion U2; subst.
        intros [|[|i]] Hi; [exact Q1|exact Q2|lia]. }
      rewrite Hr, Px in Hit. assert (Ev : it_val it = 1/4) by (eapply vals_m; eassumption).
      assert (Lp : (it_point it < 2)%nat) by (destruct (@in_compute R (Num_fl p e) _ _ _ _ Hit) as (i & k & Hi & _ & ->); exact Hi).
      unfold eff. rewrite (@compute_mask R (NumT_fl p e) _ _ _ _ Hit), Ev. unfold point_of, pts_at. cbn [c_p]. rewrite Es. cbn [body_pts]. rewrite Pm by exact Lp.
      change (fl p e (fl p e (1/4 * fl p e 1) * bpow radix2 e) = 0). rewrite (fl_id p e 1 (float_1 p e OK)), Rmult_1_r.
      rewrite (fl_id p e (1/4)); [apply vanish|]. replace (1/4) with (bpow radix2 (-2)) by (change (/4 = 1/4); lra). apply float_bpow; [exact OK|lia].
Qed.
Print Assumptions C132_exact_refuted.

(** Two unit masses in single precision: all hypotheses of [C132_total] hold, and the loss is below 1/400000. *)
Example C132_case : exists w ca w2 ca2 g, let S := solver_m 24 (-149) in let st := state_m 24 (-149) 1 in
  @prepare R (NumT_fl 24 (-149)) S st = Ok (w, ca) /\ @p2g R (NumT_fl 24 (-149)) S w (s_mech st) ca = Ok (w2, ca2) /\
  nth_error (sc_grids ca2) 0 = Some g /\ (forall i, (arrivals S (sc_inter ca) 0 i <= 8)%nat) /\
  (forall x, In x (gr_mass g) -> 0 <= x) /\ Rabs (totS (gr_mass g) - 2) <= 1/400000.
Proof.
  destruct (run_m 24 (-149) 1) as (w & ca & w2 & ca2 & g & E1 & E2 & Eg). exists w, ca, w2, ca2, g. cbv zeta. repeat (split; [assumption|]).
  assert (HK : forall i, (arrivals (solver_m 24 (-149)) (sc_inter ca) 0 i <= 8)%nat).
  { intros i. unfold arrivals. change (active_on (solver_m 24 (-149)) 0) with (so_couplings (solver_m 24 (-149))).
    cbn [solver_m so_couplings map list_sum fold_right]. rewrite Nat.add_0_r. assert (FL : forall {A} (f : A -> bool) l, (length (filter f l) <= length l)%nat)
      by (intros A f l; induction l as [|a l IH]; simpl; [lia|destruct (f a); simpl; lia]).
    eapply Nat.le_trans; [apply FL|].
    set (c := {| c_kernel := Linear; c_p := 0; c_g := 0; c_c := Some 0%nat; c_s := Some 0%nat; c_skip := false |}).
    pose proof (@pts_kept R _ _ _ _ _ _ _ E1 E2 0) as U.
    assert (X : exists s, nth_error (w_mps w2) 0 = Some (Soft s)).
    { pose proof E2 as E3. apply p2g_ok in E3. destruct E3 as (gs & _ & E3 & _). exact (@active_soft R _ _ w2 _ (sc_inter ca) _ _ _ _ E3 (or_introl eq_refl) eq_refl). }
    destruct X as (s & Es). unfold pts_at in U at 2. rewrite Es in U. apply Forall2_len in U.
    destruct (@rows_compute R _ _ _ _ _ _ _ c grid_m s E1 E2 (or_introl eq_refl) eq_refl Es) as (k & Hk & ->). injection Hk as <-.
    rewrite compute_length, map_length. cbn [body_pts] in U. rewrite <- U. cbn. lia. }
  split; [exact HK|].
  destruct (C132_total 24 (-149) (solver_m 24 (-149)) (state_m 24 (-149) 1) w ca w2 ca2 0 grid_m g 8 binary32_ok E1 E2 eq_refl Eg) as (P & Q).
  - unfold wf_sizes; cbn; lia.
  - intros c [<-|[]] _. reflexivity.
  - intros c q [<-|[]] [<-|[<-|[]]]; (split; [apply (fits_m 24 (-149) binary32_ok); discriminate|cbn; lra]).
  - exact HK.
  - split; [exact P|].
    assert (EM : sumR (fun c => mass_of (pts_at (s_world (state_m 24 (-149) 1)) (c_p c))) (active_on (solver_m 24 (-149)) 0) = 2).
    { unfold active_on. cbn [filter so_couplings solver_m c_skip c_g negb andb Nat.eqb]. rewrite sumR_cons. unfold mass_of, pts_at.
      cbn [state_m s_world w_mps nth_error c_p body_pts sb_pts]. rewrite !sumR_cons. cbn [pt_mass point_m]. simpl sumR. lra. }
    rewrite EM in Q. eapply Rle_trans; [exact Q|]. clear. unfold body_loss, weight_loss. cbn [grid_m gd_dim].
    match goal with |- context [INR ?n * (INR ?k * _)] => change n with 2%nat; change k with 4%nat end.
    set (u := uro 24). set (t := tiny (-149)).
    assert (U : 0 < u <= 1/10000000) by (unfold u, uro; change (bpow radix2 (-(24))) with (/16777216); lra).
    assert (T : 0 < t <= 1/1000000000).
    { unfold t, tiny. split; [apply bpow_gt_0|]. apply Rle_trans with (bpow radix2 (-31)); [apply bpow_le; lia|change (bpow radix2 (-31)) with (/2147483648); lra]. }
    simpl INR. clearbody u t.
    set (D := 2 * _ + _).
    assert (HD : 0 <= D <= 5/10000000) by (unfold D; nra).
    assert (HP : (1 + u) ^ 8 - 1 <= 9/10000000).
    { assert (HP : (1 + u) ^ 8 <= (1 + 1/10000000) ^ 8) by (apply pow_incr; lra). lra. }
    clearbody D. nra.
Qed.
