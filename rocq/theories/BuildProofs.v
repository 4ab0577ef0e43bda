(** A script for SimBuilder whose simulation is ready to run: one grid, then bodies, obstacles, gravity and damping in any order,
    then colliders, then the solver.  Induction over the script. *)
From Coq Require Import List Arith ZArith Lia Bool String.
From Verif Require Import Num Linalg Arrays ModelGrid ModelShape ModelMath ModelState ModelLaws ModelForces ModelSolver ModelSDF ModelBuilder
  ResFacts SpecReady ReadyProofs.
Import ListNotations.

Section B.
Context {T : Type} {NT : NumT T}.

Definition force_in (b : Builder T) (f : Force T) : Prop :=
  match f with
  | FGravity g => gv_on_grid g = true /\ gv_gs g = [0] /\ exists v, nth_error (b_force_states b) (gv_f g) = Some (Some (FS_Gravity v))
  | FDamping d => dm_on_grid d = true /\ dm_gs d = [0] /\ exists a, nth_error (b_force_states b) (dm_f d) = Some (Some (FS_Damping a))
  | FCollider c => cl_gs c = [0] /\ exists s, cl_sdf c = Some s /\ s < List.length (b_sdf_logics b)
  | FContact _ => False
  end.
Record inv (g : GridDomain T) (b : Builder T) : Prop := {
  i_grid : b_grids b = [g]; i_sol : b_solvers b = []; i_ss : b_solver_states b = [];
  i_lc : List.length (b_couplings b) = List.length (b_points b); i_ll : List.length (b_laws b) = List.length (b_points b);
  i_ls : List.length (b_law_states b) = List.length (b_points b);
  i_c : forall i c, nth_error (b_couplings b) i = Some c -> c_p c = i /\ c_g c = 0 /\ c_c c = Some i /\ c_s c = Some i /\ c_skip c = false;
  i_b : forall i x, nth_error (b_points b) i = Some x -> exists s l ls, x = Soft s /\ sb_dim s = gd_dim g /\ sb_vol0d s = false /\ 2 <= List.length (sb_pts s) /\
          nth_error (b_laws b) i = Some l /\ nth_error (b_law_states b) i = Some ls /\ law_fits l ls (List.length (sb_pts s));
  i_sdf : List.length (b_sdf_states b) = List.length (b_sdf_logics b);
  i_f : forall f, In f (b_forces b) -> force_in b f }.
Definition stepped (b : Builder T) : Prop := List.length (b_forces b) = List.length (b_force_states b).

Lemma nth_app_cases {A} (l : list A) x i y : nth_error (l ++ [x]) i = Some y -> nth_error l i = Some y \/ (i = List.length l /\ y = x).
Proof.
  intros E. destruct (Nat.lt_ge_cases i (List.length l)) as [L|L]; [left; rewrite nth_error_app1 in E by exact L; exact E|right].
  rewrite nth_error_app2 in E by exact L. destruct (i - List.length l) as [|k] eqn:Ek; [|destruct k; discriminate]. cbn in E. injection E as <-. split; [lia|reflexivity].
Qed.
Lemma nth_app_keep {A} (l m : list A) i y : nth_error l i = Some y -> nth_error (l ++ m) i = Some y.
Proof. intros E. rewrite nth_error_app1; [exact E|]. apply nth_error_Some. congruence. Qed.
Lemma nth_app_end {A} (l : list A) x : nth_error (l ++ [x]) (List.length l) = Some x.
Proof. rewrite nth_error_app2, Nat.sub_diag by lia. reflexivity. Qed.
Lemma mp_create_vol a (b : SoftBody T) : mp_create a = Ok b -> sb_vol0d b = false.
Proof. unfold mp_create. match goal with |- context [if ?c then _ else _] => destruct c end; intros E; [injection E as <-; reflexivity|discriminate]. Qed.
Lemma force_in_mono b b' f : force_in b f -> (forall i x, nth_error (b_force_states b) i = Some x -> nth_error (b_force_states b') i = Some x) ->
  List.length (b_sdf_logics b) <= List.length (b_sdf_logics b') -> force_in b' f.
Proof.
  intros F Hf Hs. destruct f; cbn [force_in] in *.
  - destruct F as (A & B & v & E). repeat split; auto. exists v. apply Hf, E.
  - destruct F as (A & B & v & E). repeat split; auto. exists v. apply Hf, E.
  - destruct F as (A & s & E & L). split; [exact A|]. exists s. split; [exact E|lia].
  - exact F.
Qed.
Definition counts (b b' : Builder T) (p : Part T) : Prop :=
  List.length (b_points b') = List.length (b_points b) + (if is_body p then 1 else 0) /\ List.length (b_sdf_logics b') = List.length (b_sdf_logics b) + (if is_sdf p then 1 else 0).
Lemma part_inv g b (p : Part T) : inv g b -> stepped b -> part_fits g p ->
  let b' := fst (execs b (part_cmds p)) in inv g b' /\ stepped b' /\ counts b b' p /\ Forall (fun r => exists n, r = Ok n) (snd (execs b (part_cmds p))).
Proof.
  intros I St Fit. destruct I as [Ig Is Iss Ilc Ill Ils Ic Ib Isd If]. destruct p as [m|s ps x|v|a]; cbn [part_fits part_cmds] in *.
  - destruct Fit as (sb & ls & k & Em & Ed & En & El & Lf & Ek). cbn [execs exec]. rewrite Em. cbn [execs exec]. rewrite El. cbn [execs exec].
    unfold new_coupling, with_laws, with_points. cbn [b_points b_grids b_laws b_couplings]. rewrite !app_length, Ig. cbn [List.length Nat.add or_last].
    rewrite !Nat.add_1_r. cbn [last_idx]. rewrite (idx_some _ _ _ (nth_app_end (b_points b) (Soft sb))). cbn [rbind].
    rewrite (idx_some _ _ _ (eq_refl : nth_error [g] 0 = Some g)). cbn [rbind]. rewrite Ek. cbn [rbind snd fst]. cbn [fst snd]. split; [constructor; cbn [with_couplings b_points b_grids b_laws b_couplings b_solvers b_solver_states b_law_states b_sdf_states b_sdf_logics b_forces]|split; [exact St|split]].
    + first [exact Ig|reflexivity]. + exact Is. + exact Iss.
    + rewrite !app_length, Ilc. reflexivity.
    + rewrite !app_length, Ill. reflexivity.
    + rewrite !app_length, Ils. reflexivity.
    + intros i c E. apply nth_app_cases in E. destruct E as [E|(-> & ->)]; [apply Ic, E|]. cbn [c_p c_g c_c c_s c_skip]. rewrite Ilc, Ill. auto.
    + intros i x E. apply nth_app_cases in E. destruct E as [E|(-> & ->)].
      * destruct (Ib i x E) as (s & l & l' & A & B & C & D & F & G & H). exists s, l, l'. repeat split; auto using nth_app_keep.
      * exists sb, (mt_law m), ls. rewrite <- Ill at 1. rewrite nth_app_end, <- Ils, nth_app_end. repeat split; auto. eapply mp_create_vol; exact Em.
    + exact Isd.
    + intros f Hf. apply (force_in_mono b); [apply If, Hf|auto|cbn; lia].
    + split; cbn; [rewrite app_length; cbn; lia|lia].
    + repeat constructor; eauto.
  - destruct Fit as (y & Ey). cbn [execs exec]. rewrite Ey. cbn [fst snd]. split; [constructor; cbn|split; [exact St|split]]; auto.
    + rewrite !app_length. cbn. congruence.
    + intros f Hf. apply (force_in_mono b); [apply If, Hf|auto|cbn; rewrite app_length; lia].
    + split; cbn; [lia|rewrite app_length; cbn; lia].
    + repeat constructor; eauto.
  - cbn [execs exec fst snd]. split; [constructor; cbn|split; [unfold stepped in *; cbn; rewrite !app_length; cbn; congruence|split]]; auto.
    + intros f Hf. apply in_app_or in Hf. destruct Hf as [Hf|[<-|[]]].
      * apply (force_in_mono b); [apply If, Hf|intros; apply nth_app_keep; assumption|cbn; lia].
      * cbn. rewrite Ig. split; [reflexivity|]. split; [reflexivity|]. exists v. rewrite St. apply nth_app_end.
    + split; cbn; lia.
    + repeat constructor; eauto.
  - cbn [execs exec fst snd]. split; [constructor; cbn|split; [unfold stepped in *; cbn; rewrite !app_length; cbn; congruence|split]]; auto.
    + intros f Hf. apply in_app_or in Hf. destruct Hf as [Hf|[<-|[]]].
      * apply (force_in_mono b); [apply If, Hf|intros; apply nth_app_keep; assumption|cbn; lia].
      * cbn. rewrite Ig. split; [reflexivity|]. split; [reflexivity|]. exists a. rewrite St. apply nth_app_end.
    + split; cbn; lia.
    + repeat constructor; eauto.
Qed.
Lemma execs_app b (l1 l2 : list (Cmd T)) : execs b (l1 ++ l2) = (fst (execs (fst (execs b l1)) l2), snd (execs b l1) ++ snd (execs (fst (execs b l1)) l2)).
Proof.
  revert b. induction l1 as [|c l1 IH]; intros b; [cbn; destruct (execs b l2); reflexivity|]. cbn [execs app]. destruct (exec b c) as (b1 & x). rewrite IH.
  destruct (execs b1 l1) as (b2 & xs). cbn [fst snd]. reflexivity.
Qed.
Lemma count_cons f (p : Part T) ps : count f (p :: ps) = (if f p then 1 else 0) + count f ps.
Proof. unfold count. cbn. destruct (f p); reflexivity. Qed.
Lemma parts_inv g (ps : list (Part T)) : forall b, inv g b -> stepped b -> (forall p, In p ps -> part_fits g p) ->
  let b' := fst (execs b (flat_map part_cmds ps)) in
  inv g b' /\ List.length (b_points b') = List.length (b_points b) + count is_body ps /\ List.length (b_sdf_logics b') = List.length (b_sdf_logics b) + count is_sdf ps /\
  Forall (fun r => exists n, r = Ok n) (snd (execs b (flat_map part_cmds ps))).
Proof.
  induction ps as [|p ps IH]; intros b I St Fit; cbv zeta.
  - cbn. split; [exact I|]. unfold count. cbn. split; [lia|]. split; [lia|constructor].
  - cbn [flat_map]. rewrite execs_app. cbn [fst snd]. destruct (part_inv g b p I St (Fit p (or_introl eq_refl))) as (I1 & S1 & (C1 & C2) & O1).
    destruct (IH _ I1 S1 (fun q Hq => Fit q (or_intror Hq))) as (I2 & C3 & C4 & O2). split; [exact I2|]. rewrite !count_cons. split; [lia|]. split; [lia|].
    apply Forall_app. auto.
Qed.
Lemma walls_inv g (ws : list (Wall T)) : forall b, inv g b -> (forall w, In w ws -> wl_sdf w < List.length (b_sdf_logics b)) ->
  let cs := map (fun w => AddCollider (Some (wl_sdf w)) None (wl_mu w) (wl_gap w)) ws in let b' := fst (execs b cs) in
  inv g b' /\ b_points b' = b_points b /\ b_sdf_logics b' = b_sdf_logics b /\ Forall (fun r => exists n, r = Ok n) (snd (execs b cs)).
Proof.
  induction ws as [|w ws IH]; intros b I Hw; cbv zeta; [cbn; auto|]. cbn [map execs exec].
  match goal with |- context [with_forces b ?l ?s] => set (b1 := with_forces b l s) end.
  assert (I1 : inv g b1).
  { destruct I as [Ig Is Iss Ilc Ill Ils Ic Ib Isd If]. constructor; cbn; auto. intros f Hf. apply in_app_or in Hf. destruct Hf as [Hf|[<-|[]]].
    - apply (force_in_mono b); [apply If, Hf|auto|cbn; lia].
    - cbn. rewrite Ig. split; [reflexivity|]. eexists. split; [reflexivity|]. apply Hw. left. reflexivity. }
  destruct (IH b1 I1) as (I2 & P2 & Q2 & O2); [intros w' Hw'; apply Hw; right; exact Hw'|]. cbv zeta in *.
  destruct (execs b1 (map _ ws)) as (b2 & xs). cbn [fst snd] in *. split; [exact I2|]. split; [rewrite P2; reflexivity|]. split; [rewrite Q2; reflexivity|]. constructor; eauto.
Qed.
Lemma start_inv (g : GridDomain T) : inv g (with_grids builder0 [g]).
Proof. constructor; cbn; auto; try (intros [|i] x E; discriminate). intros f []. Qed.

Lemma rmap_seq {A B} (l : list A) (f : nat -> res B) (h : A -> B) : (forall i x, nth_error l i = Some x -> f i = Ok (h x)) -> rmap f (seq 0 (List.length l)) = Ok (map h l).
Proof.
  intros H. assert (G : forall pre post, l = pre ++ post -> rmap f (seq (List.length pre) (List.length post)) = Ok (map h post)).
  { intros pre post. revert pre. induction post as [|x post IH]; intros pre E; [reflexivity|]. cbn [List.length seq rmap].
    rewrite (H (List.length pre) x) by (rewrite E, nth_error_app2, Nat.sub_diag by lia; reflexivity). cbn [rbind]. specialize (IH (pre ++ [x])). rewrite app_length, Nat.add_1_r in IH.
    rewrite IH by (rewrite <- app_assoc; exact E). reflexivity. }
  apply (G [] l eq_refl).
Qed.
Lemma rmap_map_ok {A B} (f : A -> res B) (h : A -> B) l : (forall x, In x l -> f x = Ok (h x)) -> rmap f l = Ok (map h l).
Proof. induction l as [|x l IH]; intros H; [reflexivity|]. cbn. rewrite (H x (or_introl eq_refl)), IH; [reflexivity|]. intros y Hy. apply H. right. exact Hy. Qed.
Lemma usl_made ll cs fl sdfs gl ps : Forall usl_param ps -> all_laws ll = true -> exists s : Solver T, new_usl ll cs fl sdfs gl ps = Ok s /\
  so_scheme s = USL /\ so_domains s = gl /\ so_couplings s = cs /\ so_laws s = ll /\ so_forces s = fl /\ so_sdfs s = sdfs.
Proof.
  intros F A. unfold new_usl.
  match goal with |- exists s, rbind (rfold ?f ?s0 ps) _ = _ /\ _ =>
    destruct (rfold_total (fun s : Solver T => so_scheme s = USL /\ so_domains s = gl /\ so_couplings s = cs /\ so_laws s = ll /\ so_forces s = fl /\ so_sdfs s = sdfs) f ps) with (s := s0) as (s & -> & Hs) end.
  - intros s p Hp Hs. rewrite Forall_forall in F. specialize (F p Hp). destruct p; try contradiction; eexists; (split; [reflexivity|cbn; auto 10]).
  - cbn. auto 10.
  - cbn [rbind]. rewrite A. eauto.
Qed.
Lemma aflip_made ll cs fl sdfs gl ps : Forall aflip_param ps -> all_laws ll = true -> exists (s : Solver T) a, new_aflip ll cs fl sdfs gl ps = Ok s /\
  so_scheme s = ASFLIP a /\ af_mls a = true /\ so_domains s = gl /\ so_couplings s = cs /\ so_laws s = ll /\ so_forces s = fl /\ so_sdfs s = sdfs.
Proof.
  intros F A. unfold new_aflip. destruct (rfold_total (fun a : AFLIP T => af_mls a = true) aflip_set ps) with (s := @aflip0 T NT) as (a & -> & Ha).
  - intros s p Hp Hs. rewrite Forall_forall in F. specialize (F p Hp). destruct p; try contradiction; try (eexists; (split; [reflexivity|cbn; exact Hs])).
    destruct x; [|contradiction]. eexists. split; [reflexivity|reflexivity].
  - reflexivity.
  - cbn [rbind]. rewrite A. eexists. exists a. split; [reflexivity|]. cbn. auto 10.
Qed.
Lemma states_pushed (b : Builder T) s cs : forall acc, (forall c, In c cs -> exists sb, nth_error (b_points b) (c_p c) = Some (Soft sb)) ->
  exists l, push_states b (Some s) cs acc = (acc ++ l, Ok tt) /\
    Forall2 (fun c o => exists n, o = Some (create_solver_state s n)) cs l.
Proof.
  induction cs as [|c cs IH]; intros acc H; cbn [push_states]; [exists []; rewrite app_nil_r; auto|].
  destruct (H c (or_introl eq_refl)) as (sb & ->). destruct (IH (acc ++ [Some (create_solver_state s (List.length (sb_pts sb)))])) as (l & -> & F); [intros c' Hc'; apply H; right; exact Hc'|].
  exists (Some (create_solver_state s (List.length (sb_pts sb))) :: l). rewrite <- app_assoc. split; [reflexivity|]. constructor; [eauto|exact F].
Qed.
Theorem solver_ready g b scheme ps t0 k0 dt : inv g b -> b_points b <> [] -> params_fit scheme ps ->
  exists b1 s, exec b (SetSolver scheme None None None ps) = (b1, Ok 0) /\ fst (build b1 t0 k0 dt) = OneSolver s /\ ready s (snd (build b1 t0 k0 dt)) /\
    List.length (so_couplings s) = List.length (b_points b) /\ List.length (so_sdfs s) = List.length (b_sdf_logics b).
Proof.
  intros [Ig Is Iss Ilc Ill Ils Ic Ib Isd If] Ne Pf. cbn [exec]. unfold set_solver. cbn [or_all].
  rewrite (rmap_seq (b_couplings b) (idx (b_couplings b)) (fun c => c)) by (intros; apply idx_some; assumption). cbn [rbind]. rewrite map_id.
  rewrite (rmap_seq (b_forces b) (idx (b_forces b)) (fun c => c)) by (intros; apply idx_some; assumption). cbn [rbind]. rewrite map_id.
  rewrite (rmap_seq (b_sdf_logics b) (idx (b_sdf_logics b)) (fun c => c)) by (intros; apply idx_some; assumption). cbn [rbind]. rewrite map_id.
  assert (Hc : forall c, In c (b_couplings b) -> exists i, nth_error (b_couplings b) i = Some c /\ c_p c = i /\ c_g c = 0 /\ c_c c = Some i /\ c_s c = Some i /\ c_skip c = false).
  { intros c H. apply In_nth_error in H. destruct H as (i & H). exists i. split; [exact H|]. apply Ic, H. }
  rewrite (rmap_map_ok _ (fun _ => g)) by (intros c H; destruct (Hc c H) as (i & _ & _ & -> & _); rewrite Ig; reflexivity). cbn [rbind].
  assert (L0 : 0 < List.length (b_couplings b)) by (rewrite Ilc; destruct (b_points b); [congruence|cbn; lia]).
  assert (LL : exists ll, rmap (fun c => match c_c c with Some i => rbind (idx (b_laws b) i) (fun l => Ok (Some l)) | None => Ok None end) (b_couplings b) = Ok ll /\ all_laws ll = true /\
     forall i l, nth_error (b_laws b) i = Some l -> nth_error ll i = Some (Some l)).
  { assert (E : rmap (fun c => match c_c c with Some i => rbind (idx (b_laws b) i) (fun l => Ok (Some l)) | None => Ok None end) (b_couplings b) = Ok (map Some (b_laws b))).
    { assert (G : forall cs ls, List.length cs = List.length ls -> (forall j c, nth_error cs j = Some c -> exists i, c_c c = Some i /\ nth_error (b_laws b) i = nth_error ls j) ->
         rmap (fun c => match c_c c with Some i => rbind (idx (b_laws b) i) (fun l => Ok (Some l)) | None => Ok None end) cs = Ok (map Some ls)).
      { induction cs as [|c cs IH]; intros [|l ls] L H; try discriminate; [reflexivity|]. cbn [rmap map]. destruct (H 0 c eq_refl) as (i & -> & E). cbn in E.
        rewrite (idx_some _ _ _ E). cbn [rbind]. rewrite (IH ls); [reflexivity|cbn in L; lia|]. intros j c' Hj. apply (H (Datatypes.S j) c' Hj). }
      apply G; [congruence|]. intros j c Hj. exists j. split; [apply (Ic j c Hj)|reflexivity]. }
    exists (map Some (b_laws b)). split; [exact E|]. split; [clear; unfold all_laws; induction (b_laws b); cbn; auto|]. intros i l Hl. rewrite nth_error_map, Hl. reflexivity. }
  destruct LL as (ll & -> & All & Hll). cbn [rbind].
  assert (Made : exists s sts, (let made := if String.eqb (lower scheme) "usl" then rbind (new_usl ll (b_couplings b) (b_forces b) (map logic_of (b_sdf_logics b)) (map (fun _ => g) (b_couplings b)) ps) (fun s => Ok (Some s))
                  else if String.eqb (lower scheme) "usl_aflip" then rbind (new_aflip ll (b_couplings b) (b_forces b) (map logic_of (b_sdf_logics b)) (map (fun _ => g) (b_couplings b)) ps) (fun s => Ok (Some s))
                  else Ok None in made) = Ok (Some s) /\ push_states b (Some s) (b_couplings b) (b_solver_states b) = (sts, Ok tt) /\
       so_domains s = map (fun _ => g) (b_couplings b) /\ so_couplings s = b_couplings b /\ so_laws s = ll /\ so_forces s = b_forces b /\ so_sdfs s = map logic_of (b_sdf_logics b) /\
       match so_scheme s with USL => True | ASFLIP a => af_mls a = true /\ forall i, i < List.length (b_couplings b) -> exists B, nth_error sts i = Some (Some (SS_AFLIP B)) end).
  { assert (Soft_all : forall c, In c (b_couplings b) -> exists sb, nth_error (b_points b) (c_p c) = Some (Soft sb)).
    { intros c H. destruct (Hc c H) as (i & Ei & -> & _). destruct (nth_some (b_points b) i) as (x & Ex); [rewrite <- Ilc; apply nth_error_Some; congruence|].
      destruct (Ib i x Ex) as (s & _ & _ & -> & _). eauto. }
    destruct Pf as [(E & P)|(E & P)]; rewrite E; cbv zeta.
    - destruct (usl_made ll (b_couplings b) (b_forces b) (map logic_of (b_sdf_logics b)) (map (fun _ => g) (b_couplings b)) ps P All) as (s & -> & S1 & S2 & S3 & S4 & S5 & S6).
      destruct (states_pushed b s (b_couplings b) (b_solver_states b) Soft_all) as (l & Ep & _). exists s, (b_solver_states b ++ l). cbn. rewrite S1. auto 10.
    - destruct (aflip_made ll (b_couplings b) (b_forces b) (map logic_of (b_sdf_logics b)) (map (fun _ => g) (b_couplings b)) ps P All) as (s & a & -> & S1 & S0 & S2 & S3 & S4 & S5 & S6).
      destruct (states_pushed b s (b_couplings b) (b_solver_states b) Soft_all) as (l & Ep & Fp). exists s, (b_solver_states b ++ l). cbn. rewrite S1. repeat split; auto.
      intros i Hi. rewrite Iss. cbn. destruct (nth_some _ _ Hi) as (c & Ec). destruct (Forall2_nth_error_l _ _ _ _ _ Fp Ec) as (o & -> & n & ->).
      unfold create_solver_state. rewrite S1. eauto. }
  destruct Made as (s & sts & Made & Ep & S2 & S3 & S4 & S5 & S6 & S7). cbv zeta in Made. rewrite Made, Ep. rewrite Is. cbn [app List.length].
  do 2 eexists. split; [reflexivity|]. unfold build. cbn [with_solvers b_solvers b_points b_sdf_states b_law_states b_solver_states b_force_states fst snd]. split; [reflexivity|].
  assert (Ld : List.length (so_domains s) = List.length (b_couplings b)) by (rewrite S2, map_length; reflexivity).
  split; [split; [|split; [|split]]|split; [rewrite S3; exact Ilc|rewrite S6; apply map_length]]; cbn [s_world s_mech w_mps w_sdfs m_laws m_solvers m_forces].
  - rewrite S6, map_length, Isd. lia.
  - intros c H. rewrite S3 in H. destruct (Hc c H) as (i & Ei & Ep1 & Eg & _). destruct (nth_some (b_points b) i) as (x & Ex); [rewrite <- Ilc; apply nth_error_Some; congruence|].
    destruct (Ib i x Ex) as (sb & _ & _ & -> & Ed & _ & Ln & _). exists (Soft sb), g. cbn [s_world w_mps]. rewrite Ep1, Eg. split; [exact Ex|]. split.
    + rewrite S2. destruct (b_couplings b); [cbn in L0; lia|reflexivity].
    + split; [exact Ed|]. intros _. unfold num_points. cbn. rewrite map_length. lia.
  - intros c H _. rewrite S3 in H. destruct (Hc c H) as (i & Ei & Ep1 & Eg & Ec & Es & _). destruct (nth_some (b_points b) i) as (x & Ex); [rewrite <- Ilc; apply nth_error_Some; congruence|].
    destruct (Ib i x Ex) as (sb & l & ls & -> & Ed & Ev & Ln & El & Els & Lf). exists sb, i, l, ls. cbn [s_world w_mps s_mech m_laws m_solvers]. rewrite Ep1.
    split; [exact Ex|]. split; [exact Ev|]. split; [lia|]. split; [exact Ec|]. split; [rewrite S4; apply Hll, El|]. split; [exact Els|]. split; [exact Lf|].
    destruct (so_scheme s) as [|a]; [exact I|]. destruct S7 as (Ml & Hst). split; [exact Ml|]. destruct (Hst i) as (B & EB); [apply nth_error_Some; congruence|]. exists i, B, B. auto.
  - intros f H. rewrite S5 in H. specialize (If f H).
    assert (O0 : on_grids s [0]) by (intros j [<-|[]]; rewrite Ld; exact L0).
    destruct f; cbn [force_in force_fits s_mech m_forces] in *.
    + destruct If as (-> & Eg & v & Ev). exists (Some (FS_Gravity v)). split; [exact Ev|]. rewrite Eg. split; [exact O0|eauto].
    + destruct If as (-> & Eg & v & Ev). exists (Some (FS_Damping v)). split; [exact Ev|]. rewrite Eg. split; [exact O0|eauto].
    + destruct If as (Eg & k & -> & L). rewrite S6, map_length, Eg. auto.
    + exact If.
Qed.
Theorem recipe_ready (g : GridDomain T) ps ws scheme prm t0 k0 dt : (forall p, In p ps -> part_fits g p) -> existsb is_body ps = true ->
  (forall w, In w ws -> wl_sdf w < count is_sdf ps) -> params_fit scheme prm ->
  exists s, Forall (fun r => exists n, r = Ok n) (snd (execs builder0 (recipe g ps ws ++ [SetSolver scheme None None None prm]))) /\
    let b := fst (execs builder0 (recipe g ps ws ++ [SetSolver scheme None None None prm])) in
    fst (build b t0 k0 dt) = OneSolver s /\ ready s (snd (build b t0 k0 dt)) /\
    List.length (so_couplings s) = count is_body ps /\ List.length (so_sdfs s) = count is_sdf ps.
Proof.
  intros Fit Eb Hw Pf. unfold recipe. rewrite execs_app. cbn [fst snd].
  set (l0 := flat_map part_cmds ps ++ _).
  assert (E0 : execs builder0 (AddGrid g :: l0) = (fst (execs (with_grids builder0 [g]) l0), Ok 0 :: snd (execs (with_grids builder0 [g]) l0))).
  { cbn [execs exec]. cbn [builder0 b_grids app List.length]. destruct (execs (with_grids builder0 [g]) l0); reflexivity. }
  rewrite E0. cbn [fst snd]. unfold l0. rewrite execs_app. cbn [fst snd].
  destruct (parts_inv g ps (with_grids builder0 [g]) (start_inv g) eq_refl Fit) as (I1 & C1 & C2 & O1). cbv zeta in *.
  set (b1 := fst (execs (with_grids builder0 [g]) (flat_map part_cmds ps))) in *.
  destruct (walls_inv g ws b1 I1) as (I2 & P2 & Q2 & O2); [intros w H; rewrite C2; apply Hw, H|]. cbv zeta in *.
  set (b2 := fst (execs b1 _)) in *.
  destruct (solver_ready g b2 scheme prm t0 k0 dt I2) as (b3 & s & E & B1 & B2 & B3 & B4); [|exact Pf|].
  - intros E. rewrite P2 in E. rewrite E in C1. cbn in C1. apply existsb_exists in Eb. destruct Eb as (p & Hp & Ep). unfold count in C1.
    assert (In p (filter is_body ps)) by (apply filter_In; auto). destruct (filter is_body ps); [contradiction|discriminate].
  - exists s. cbn [execs]. rewrite E. cbn [fst snd]. split; [|rewrite B3, B4, P2, Q2, C1, C2; auto]. apply Forall_app. split; [|constructor; eauto]. constructor; [eauto|]. apply Forall_app. auto.
Qed.
End B.
