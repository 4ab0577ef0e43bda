(** Nodal forces after P2G (C17, C18). *)
From Coq Require Import List Arith ZArith Reals Bool Lra Lia.
From Verif Require Import Num NumR Linalg Arrays ModelGrid ModelShape ModelMath ModelState ModelLaws ModelForces ModelSolver
  Sums ShapeFacts SpecShape ShapeProofs ShapeProofs2 ShapeProofs3 MappingProofs ResFacts SolverFacts SpecSolver TransferProofs.
Import ListNotations.
Local Open Scope R_scope.

(** *** external forces are zero after the reset, and damping keeps zero *)
Lemma damp_zero a v : damp a 0 v = (0 : R).
Proof. unfold damp. rewrite nabs_R, Rabs_R0. rnum. ring. Qed.
Definition unloaded (b : Body R) : Prop := forall p, In p (body_pts b) -> pt_force p = vzero.
Lemma pre_p2g_unloaded f (w : World R) m w' p b b' : apply_pre_p2g f w m = Ok w' ->
  nth_error (w_mps w) p = Some b -> nth_error (w_mps w') p = Some b' -> unloaded b -> unloaded b'.
Proof.
  destruct f as [g|d|c|c]; simpl; intros E Eb Eb' U; try (injection E as <-; rewrite Eb in Eb'; injection Eb' as <-; exact U).
  - destruct (gv_on_grid g); [injection E as <-; rewrite Eb in Eb'; injection Eb' as <-; exact U|]. apply rbind_ok in E. destruct E as (fs & _ & E).
    destruct (gv_ps g) as [|q qs]; [injection E as <-; rewrite Eb in Eb'; injection Eb' as <-; exact U|]. simpl in E.
    destruct (idx (w_mps w) q); simpl in E; [|discriminate]. destruct (gravity_of fs); discriminate.
  - destruct (dm_on_grid d); [injection E as <-; rewrite Eb in Eb'; injection Eb' as <-; exact U|]. apply rbind_ok in E. destruct E as (fs & _ & E).
    apply rbind_ok in E. destruct E as (l & E & E'). injection E' as <-. simpl in Eb'.
    assert (G : forall b', nth_error l p = Some b' -> unloaded b').
    { refine (rfold_inv (fun l => forall b', nth_error l p = Some b' -> unloaded b') _ _ (w_mps w) l _ _ E).
      - intros s x s' _ I E1 b1 Hb1. apply upd_idx_ok in E1. destruct E1 as (y & z & Hy & Hz & ->).
        rewrite set_nth_error in Hb1. destruct (Nat.eqb_spec x p) as [->|N]; [|apply I, Hb1].
        rewrite Hy in Hb1. simpl in Hb1. injection Hb1 as <-. specialize (I _ Hy).
        destruct y as [y|y]; [|discriminate]. apply rbind_ok in Hz. destruct Hz as (a & _ & Hz). injection Hz as <-.
        intros q Hq. simpl in Hq. apply in_map_iff in Hq. destruct Hq as (q0 & <- & Hq0). simpl.
        rewrite (I q0 Hq0). unfold vmap2, vzero; rnum; simpl. rewrite !damp_zero. reflexivity.
      - intros b1 Hb1. rewrite Eb in Hb1. injection Hb1 as <-. exact U. }
    apply G, Eb'.
Qed.
Lemma unloaded_pts S st w ca w2 ca2 c : prepare S st = Ok (w, ca) -> p2g S w (s_mech st) ca = Ok (w2, ca2) ->
  In c (so_couplings S) -> forall p, In p (pts_at w2 (c_p c)) -> pt_force p = (vzero : vec3 R).
Proof.
  intros E1 E2 Hc. apply prepare_ok in E1. destruct E1 as (R1 & _). specialize (R1 (c_p c)).
  assert (Cp : coupled (so_couplings S) (c_p c) = true)
    by (unfold coupled; apply existsb_exists; exists c; split; [exact Hc|apply Nat.eqb_refl]).
  rewrite Cp in R1. apply p2g_ok in E2. destruct E2 as (gs & E2 & _).
  assert (G : forall b, nth_error (w_mps w2) (c_p c) = Some b -> unloaded b).
  { assert (L : forall w w' : World R, Forall2 same_but_force (w_mps w) (w_mps w') -> forall p b', nth_error (w_mps w') p = Some b' ->
        exists b, nth_error (w_mps w) p = Some b).
    { intros wa wb F p b' Hb'. destruct (Forall2_nth_error _ _ _ _ _ F Hb') as (b & Hb & _). eauto. }
    refine (rfold_inv (fun w' => forall b, nth_error (w_mps w') (c_p c) = Some b -> unloaded b) _ _ w w2 _ _ E2).
    - intros s x s' _ I Ex b Hb. destruct (L s s' (proj2 (pre_p2g_ok _ _ _ _ Ex)) _ _ Hb) as (b0 & Hb0).
      eapply pre_p2g_unloaded; [exact Ex|exact Hb0|exact Hb|apply I, Hb0].
    - intros b Hb. rewrite R1 in Hb. destruct (nth_error (w_mps (s_world st)) (c_p c)) as [b0|]; [|discriminate]. simpl in Hb.
      injection Hb as <-. intros p Hp. destruct b0 as [s|r]; simpl in Hp; [|contradiction]. apply in_map_iff in Hp.
      destruct Hp as (q & <- & _). reflexivity. }
  unfold pts_at. destruct (nth_error (w_mps w2) (c_p c)) as [b|]; [|contradiction]. apply G. reflexivity.
Qed.
Lemma tot_repeat n : tot (repeat vzero n) = vzero.
Proof. apply vcomp_eq; intro a. unfold tot. rewrite vcomp_vsum, sumR_repeat, !vcomp_zero. ring. Qed.
Lemma vsum_zero {A} (f : A -> vec3 R) l : (forall a, In a l -> f a = vzero) -> vsum f l = vzero.
Proof. intros E. unfold vsum, vzero; rnum. f_equal; apply sumR_zero; intros a Ha; rewrite (E a Ha); reflexivity. Qed.

Theorem p2g_forces_balance S st w ca w2 ca2 : prepare S st = Ok (w, ca) -> p2g S w (s_mech st) ca = Ok (w2, ca2) ->
  inside S (s_world st) -> forall gi g, nth_error (sc_grids ca2) gi = Some g -> tot (gr_force g) = vzero.
Proof.
  intros E1 E2 Hin. destruct (p2g_grids _ _ _ _ _ _ E1 E2) as (gs & <- & _ & F0 & F & E).
  assert (G : Forall2 grid_ok (so_domains S) (sc_grids ca2) /\ forall gi g, nth_error (sc_grids ca2) gi = Some g -> tot (gr_force g) = vzero).
  { refine (rfold_inv (fun gs => Forall2 grid_ok (so_domains S) gs /\ forall gi g, nth_error gs gi = Some g -> tot (gr_force g) = vzero)
              _ _ (map grid_new (so_domains S)) (sc_grids ca2) _ _ E).
    - intros gs c gs' Hc (I1 & I2) Ec. apply p2g_coupling_ok in Ec.
      destruct Ec as [(Es & ->)|(Es & s & it & gr & vel & Eb & Ev & Eit & Egr & Hvel & ->)]; [auto|].
      destruct (Forall2_nth_error _ _ _ _ _ I1 Egr) as (gd & Egd & Hgd). split.
      + eapply Forall2_set_nth; [exact I1|exact Egd|apply p2g_with_ok, Hgd].
      + intros gi g Hg. rewrite set_nth_error in Hg. destruct (Nat.eqb_spec (c_g c) gi) as [<-|N]; [|eapply I2, Hg].
        rewrite Egr in Hg. simpl in Hg. injection Hg as <-.
        destruct (p2g_rows _ _ _ _ _ _ _ _ _ _ E1 E2 Hin Hc Eb Eit Egd) as (W & k & _ & -> & I).
        rewrite p2g_force_sum by assumption. apply vsum_zero. intros p Hp.
        eapply unloaded_pts; [exact E1|exact E2|exact Hc|]. unfold pts_at. rewrite Eb. exact Hp.
    - split; [exact F0|]. intros gi g Hg. rewrite nth_error_map in Hg. destruct (nth_error (so_domains S) gi) as [gd|]; [|discriminate].
      simpl in Hg. injection Hg as <-. simpl. apply tot_repeat. }
  apply G.
Qed.

(** *** nodal values *)
Lemma tonat_hash k (gd : GridDomain R) xs it : wf_sizes gd -> In it (compute_on k gd xs) ->
  (0 <= it_hash it)%Z /\ (Z.to_nat (it_hash it) < Z.to_nat (num_cells gd))%nat.
Proof. intros W Hin. destruct (compute_in_range k gd xs it W Hin) as ((H1 & H2) & _). lia. Qed.
Lemma scatter_node k (gd : GridDomain R) xs (init : list (vec3 R)) (F : Interaction R -> vec3 R) i : wf_sizes gd -> (i < length init)%nat ->
  nth i (scatter_add vadd init (map (fun it => on_node it (F it)) (compute_on k gd xs))) vzero
  = vadd (nth i init vzero) (vsum F (at_node (Z.of_nat i) (compute_on k gd xs))).
Proof.
  intros W Hi. apply vcomp_eq; intro a. rewrite vcomp_add, vcomp_vsum.
  rewrite (scatter_add_nth vadd (vcomp a)) by (try (intros; apply vcomp_add); exact Hi). f_equal.
  rewrite sumR_map. unfold on_node. cbn [fst snd]. rewrite at_node_sum; [reflexivity|].
  intros it Hin. apply (tonat_hash k gd xs it W Hin).
Qed.
Lemma scatter_node_S k (gd : GridDomain R) xs (init : list R) (F : Interaction R -> R) i : wf_sizes gd -> (i < length init)%nat ->
  nth i (scatter_add (@nadd R Num_R) init (map (fun it => on_node it (F it)) (compute_on k gd xs))) 0
  = nth i init 0 + sumR F (at_node (Z.of_nat i) (compute_on k gd xs)).
Proof.
  intros W Hi. rewrite (scatter_add_nth (@nadd R Num_R) (fun x : R => x)) by (try reflexivity; exact Hi). f_equal.
  rewrite sumR_map. unfold on_node. cbn [fst snd]. rewrite at_node_sum; [reflexivity|].
  intros it Hin. apply (tonat_hash k gd xs it W Hin).
Qed.
Lemma nth_map_zero {A} (l : list A) i : nth i (map (fun _ => vzero) l) (vzero : vec3 R) = vzero.
Proof. revert i; induction l as [|a l IH]; intros [|i]; simpl; auto. Qed.
Lemma in_at_node {T} i (c : list (Interaction T)) it : In it (at_node i c) <-> In it c /\ it_hash it = i.
Proof. unfold at_node. rewrite filter_In, Z.eqb_eq. tauto. Qed.

Section Node.
Variables (k : Kernel) (gd : GridDomain R) (pts : list (Particle R)) (g : Grid R).
Hypothesis W : wf_sizes gd.
Hypothesis Hg : grid_ok gd g.
Let rows := compute_on k gd (map pt_pos pts).
Lemma force_node vel i : (i < Z.to_nat (num_cells gd))%nat -> (forall p, In p pts -> pt_force p = vzero) ->
  nth i (gr_force (p2g_with rows pts vel g)) vzero
  = vsum (fun it => let p := nth (it_point it) pts pt0 in
                    vscale (pt_vol p) (vtrunc (gd_dim gd) (mvmul (pt_stress p) (it_grad it)))) (at_node (Z.of_nat i) rows).
Proof.
  intros Hi U. destruct Hg as (Hd & _ & Lm & _). unfold p2g_with; cbn [gr_force]. unfold rows.
  rewrite scatter_node by (try exact W; rewrite map_length, Lm; exact Hi). rewrite nth_map_zero.
  apply vcomp_eq; intro a. rewrite vcomp_add, vcomp_zero, Rplus_0_l. f_equal. apply vsum_ext. intros it Hin.
  apply in_at_node in Hin. destruct Hin as (Hin & _). unfold p2g_force, eff. rewrite (mask_R _ _ _ _ Hin), Hd.
  assert (Z : pt_force (point_of pts it) = vzero).
  { unfold point_of. destruct (Nat.lt_ge_cases (it_point it) (length pts)) as [L|L]; [apply U, nth_In, L|].
    rewrite nth_overflow by exact L. reflexivity. }
  rewrite Z. unfold point_of. apply vcomp_eq; intro b. rewrite vcomp_add, !vcomp_scale, vcomp_zero. rnum. ring.
Qed.
End Node.

(** only the last active coupling of a grid determines its force *)
Lemma rfold_snoc {A B} (f : A -> B -> res A) s l x : rfold f s (l ++ [x]) = rbind (rfold f s l) (fun s' => f s' x).
Proof. rewrite rfold_app. destruct (rfold f s l); simpl; [|reflexivity]. destruct (f a x); reflexivity. Qed.
Lemma force_of_last (S : Solver R) w m inter cs : forall gs0 gs gi g, Forall2 grid_ok (so_domains S) gs0 ->
  rfold (p2g_coupling S w m inter) gs0 cs = Ok gs -> nth_error gs gi = Some g ->
  let act := filter (fun c => (negb (c_skip c) && Nat.eqb (c_g c) gi)%bool) cs in
  (act = [] -> nth_error gs0 gi = Some g) /\
  (forall l c, act = l ++ [c] -> exists s it gr vel gd, In c cs /\ c_g c = gi /\ nth_error (w_mps w) (c_p c) = Some (Soft s) /\
     dict_get (c_p c, c_g c) inter = Ok it /\ nth_error (so_domains S) gi = Some gd /\ grid_ok gd gr /\
     gr_force g = gr_force (p2g_with it (sb_pts s) vel gr)).
Proof.
  induction cs as [|c cs IH] using rev_ind; intros gs0 gs gi g Hok E Eg act.
  - simpl in E. injection E as <-. split; [auto|]. intros [|? ?] cc A; discriminate.
  - rewrite rfold_snoc in E. apply rbind_ok in E. destruct E as (gs1 & E & Ec).
    assert (Hok1 : Forall2 grid_ok (so_domains S) gs1).
    { refine (rfold_inv (fun gs => Forall2 grid_ok (so_domains S) gs) _ _ gs0 gs1 _ Hok E). clear.
      intros gs c1 gs' _ I E. apply p2g_coupling_ok in E.
      destruct E as [(_ & ->)|(_ & s & it & gr & vel & _ & _ & _ & Eg & _ & ->)]; [exact I|].
      destruct (Forall2_nth_error _ _ _ _ _ I Eg) as (gd & Egd & Hg).
      eapply Forall2_set_nth; [exact I|exact Egd|]. apply p2g_with_ok, Hg. }
    apply p2g_coupling_ok in Ec. unfold act. rewrite filter_app. cbn [filter].
    destruct Ec as [(Es & ->)|(Es & s & it & gr & vel & Eb & Ev & Eit & Egr & Hvel & ->)]; rewrite Es; cbn [negb andb].
    + rewrite app_nil_r. destruct (IH _ _ _ _ Hok E Eg) as (IH1 & IH2). split; [exact IH1|]. intros l c' A.
      destruct (IH2 l c' A) as (s & it & gr & vel & gd & X1 & X). exists s, it, gr, vel, gd. split; [apply in_or_app; left; exact X1|exact X].
    + rewrite set_nth_error in Eg. destruct (Nat.eqb_spec (c_g c) gi) as [<-|N].
      * rewrite Egr in Eg. simpl in Eg. injection Eg as <-. split.
        -- intros A. destruct (filter _ cs); discriminate.
        -- intros l c' A. apply app_inj_tail in A. destruct A as (_ & <-).
           destruct (Forall2_nth_error _ _ _ _ _ Hok1 Egr) as (gd & Egd & Hgd).
           exists s, it, gr, vel, gd. repeat split; auto; try (apply in_or_app; right; left; reflexivity); apply Hgd.
      * rewrite app_nil_r. destruct (IH _ _ _ _ Hok E Eg) as (IH1 & IH2). split; [exact IH1|]. intros l c' A.
        destruct (IH2 l c' A) as (s' & it' & gr' & vel' & gd' & X1 & X). exists s', it', gr', vel', gd'.
        split; [apply in_or_app; left; exact X1|exact X].
Qed.
Lemma body_force_ext w w' c gd i : Forall2 unforced (pts_at w (c_p c)) (pts_at w' (c_p c)) -> body_force w c gd i = body_force w' c gd i.
Proof.
  intros U. unfold body_force.
  assert (P : map pt_pos (pts_at w' (c_p c)) = map pt_pos (pts_at w (c_p c))).
  { revert U. generalize (pts_at w (c_p c)) (pts_at w' (c_p c)). intros l m U. induction U as [|a b l m Hab U IH]; [reflexivity|].
    simpl. rewrite IH. f_equal. apply Hab. }
  rewrite P. apply vsum_ext. intros it _.
  assert (Q : forall n, pt_vol (nth n (pts_at w (c_p c)) pt0) = pt_vol (nth n (pts_at w' (c_p c)) pt0) /\
                        pt_stress (nth n (pts_at w (c_p c)) pt0) = pt_stress (nth n (pts_at w' (c_p c)) pt0)).
  { revert U. generalize (pts_at w (c_p c)) (pts_at w' (c_p c)). intros l m U. induction U as [|a b l m Hab U IH]; intros [|n]; simpl; auto.
    unfold unforced in Hab. decompose [and] Hab. split; congruence. }
  destruct (Q (it_point it)) as (-> & ->). reflexivity.
Qed.
Lemma last_kernel_own {T} (S : Solver T) c k : one_kernel S -> In c (so_couplings S) ->
  last_kernel (so_couplings S) (c_p c) (c_g c) = Some k -> k = c_kernel c.
Proof.
  intros O Hc Hk. apply last_kernel_in in Hk. destruct Hk as (c' & Hc' & Ep & Eg & <-). apply O; auto.
Qed.
Theorem p2g_force_last S st w ca w2 ca2 : prepare S st = Ok (w, ca) -> p2g S w (s_mech st) ca = Ok (w2, ca2) ->
  inside S (s_world st) -> one_kernel S ->
  forall gi g gd i, nth_error (sc_grids ca2) gi = Some g -> nth_error (so_domains S) gi = Some gd -> (i < Z.to_nat (num_cells gd))%nat ->
  forall l c, active_on S gi = l ++ [c] -> nth i (gr_force g) vzero = body_force (s_world st) c gd i.
Proof.
  intros E1 E2 Hin O gi g gd i Eg Egd Hi l c A. destruct (p2g_grids _ _ _ _ _ _ E1 E2) as (gs & <- & _ & F0 & F & E).
  destruct (force_of_last S w2 (s_mech st) (sc_inter ca) (so_couplings S) _ _ gi g F0 E Eg) as (_ & L).
  destruct (L l c A) as (s & it & gr & vel & gd' & Hc & Hgi & Eb & Eit & Egd' & Hgr & ->). subst gi.
  rewrite Egd in Egd'. injection Egd' as <-.
  destruct (p2g_rows _ _ _ _ _ _ _ _ _ _ E1 E2 Hin Hc Eb Eit Egd) as (W & k & Hk & -> & I).
  apply last_kernel_own in Hk; [|exact O|exact Hc]. subst k.
  assert (U0 : forall p, In p (sb_pts s) -> pt_force p = vzero).
  { intros p Hp. eapply unloaded_pts; [exact E1|exact E2|exact Hc|]. unfold pts_at. rewrite Eb. exact Hp. }
  rewrite force_node by assumption.
  rewrite (body_force_ext _ w2) by (apply (unforced_pts _ _ _ _ _ _ E1 E2)).
  unfold body_force, pts_at. rewrite Eb. reflexivity.
Qed.
Theorem p2g_force_none S st w ca w2 ca2 : prepare S st = Ok (w, ca) -> p2g S w (s_mech st) ca = Ok (w2, ca2) ->
  forall gi g i, nth_error (sc_grids ca2) gi = Some g -> active_on S gi = [] -> nth i (gr_force g) vzero = (vzero : vec3 R).
Proof.
  intros E1 E2 gi g i Eg A. destruct (p2g_grids _ _ _ _ _ _ E1 E2) as (gs & <- & _ & F0 & F & E).
  destruct (force_of_last S w2 (s_mech st) (sc_inter ca) (so_couplings S) _ _ gi g F0 E Eg) as (L & _).
  specialize (L A). rewrite nth_error_map in L. destruct (nth_error (so_domains S) gi) as [gd|]; [|discriminate]. simpl in L.
  injection L as <-. simpl. apply nth_repeat.
Qed.

(** regrouping rows by node *)
Lemma sum_by_node k (gd : GridDomain R) xs (F : Interaction R -> R) : wf_sizes gd ->
  sumR F (compute_on k gd xs)
  = sumR (fun i => sumR F (at_node (Z.of_nat i) (compute_on k gd xs))) (seq 0 (Z.to_nat (num_cells gd))).
Proof.
  intros W.
  rewrite (sumR_ext (fun i => sumR F (at_node (Z.of_nat i) (compute_on k gd xs)))
            (fun i => sumR (fun it => if Nat.eqb (Z.to_nat (it_hash it)) i then F it else 0) (compute_on k gd xs))).
  2:{ intros i _. symmetry. apply at_node_sum. intros it Hin. apply (tonat_hash k gd xs it W Hin). }
  rewrite sumR_swap. apply sumR_ext. intros it Hin. destruct (tonat_hash k gd xs it W Hin) as (_ & L).
  generalize (Z.to_nat (num_cells gd)), (Z.to_nat (it_hash it)), L. clear. intros n j L.
  assert (G : forall s n, sumR (fun i => if Nat.eqb j i then F it else 0) (seq s n) = if (Nat.leb s j && Nat.ltb j (s + n))%bool then F it else 0).
  { clear. intros s n; revert s; induction n as [|n IH]; intros s.
    - simpl. destruct (Nat.leb_spec s j); simpl; [|reflexivity]. destruct (Nat.ltb_spec j (s + 0)); [lia|reflexivity].
    - simpl seq. rewrite sumR_cons, IH. destruct (Nat.eqb_spec j s) as [->|N].
      + destruct (Nat.leb_spec (S s) s); [lia|]. simpl. rewrite Nat.leb_refl. destruct (Nat.ltb_spec s (s + S n)); [simpl; ring|lia].
      + destruct (Nat.leb_spec (S s) j); destruct (Nat.leb_spec s j); try lia; simpl; try ring.
        destruct (Nat.ltb_spec j (S (s + n))); destruct (Nat.ltb_spec j (s + S n)); try lia; ring. }
  rewrite G. simpl. apply Nat.ltb_lt in L. rewrite L. reflexivity.
Qed.
