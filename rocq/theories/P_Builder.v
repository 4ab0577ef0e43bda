(** Property theorems C59-C63, C56 (friction argument), C91, C92: assembling a simulation with SimBuilder. *)
From Coq Require Import List ZArith Bool String Ascii Reals Lra Lia.
From Verif Require Import Num NumR Linalg Arrays ModelGrid ModelShape ModelMath ModelState ModelLaws ModelForces ModelSolver ModelSDF ModelBuilder ResFacts.
Import ListNotations.

Section Structure.
Context {T : Type} `{NumT T}.

(** *** registries only grow *)
Definition prefix {A} (l m : list A) : Prop := exists r, m = l ++ r.
Lemma prefix_refl {A} (l : list A) : prefix l l.
Proof. exists []. now rewrite app_nil_r. Qed.
Lemma prefix_trans {A} (l m n : list A) : prefix l m -> prefix m n -> prefix l n.
Proof. intros [r ->] [s ->]. exists (r ++ s). now rewrite app_assoc. Qed.
Lemma prefix_one {A} (l : list A) x : prefix l (l ++ [x]).
Proof. now exists [x]. Qed.
Lemma prefix_nth {A} (l m : list A) n x : prefix l m -> nth_error l n = Some x -> nth_error m n = Some x.
Proof. intros [r ->] E. rewrite nth_error_app1; [exact E |]. apply nth_error_Some. congruence. Qed.
Lemma nth_last {A} (l : list A) x : nth_error (l ++ [x]) (List.length l) = Some x.
Proof. rewrite nth_error_app2 by lia. now rewrite Nat.sub_diag. Qed.

Definition grown (b b' : Builder T) : Prop :=
  prefix (b_points b) (b_points b') /\ prefix (b_sdf_states b) (b_sdf_states b') /\ prefix (b_sdf_logics b) (b_sdf_logics b') /\
  prefix (b_force_states b) (b_force_states b') /\ prefix (b_law_states b) (b_law_states b') /\
  prefix (b_solver_states b) (b_solver_states b') /\ prefix (b_grids b) (b_grids b') /\ prefix (b_solvers b) (b_solvers b') /\
  prefix (b_couplings b) (b_couplings b') /\ prefix (b_forces b) (b_forces b') /\ prefix (b_laws b) (b_laws b').
Lemma grown_refl b : grown b b.
Proof. repeat split; apply prefix_refl. Qed.
Lemma grown_trans a b c : grown a b -> grown b c -> grown a c.
Proof.
  intros (A1&A2&A3&A4&A5&A6&A7&A8&A9&A10&A11) (B1&B2&B3&B4&B5&B6&B7&B8&B9&B10&B11).
  repeat split; eauto using prefix_trans.
Qed.
Lemma push_prefix b mk cs : forall acc, prefix acc (fst (push_states b mk cs acc)).
Proof.
  induction cs as [| c cs IH]; intros acc; cbn [push_states]; [apply prefix_refl |].
  destruct (nth_error (b_points b) (c_p c)) as [[sb | rb] |]; [| | apply prefix_refl].
  - destruct mk; [| apply prefix_refl]. eapply prefix_trans; [apply prefix_one | apply IH].
  - eapply prefix_trans; [apply prefix_one | apply IH].
Qed.
Lemma set_solver_grown b s bs fs ss ps : grown b (fst (set_solver b s bs fs ss ps)).
Proof.
  unfold set_solver. destruct (rbind _ _) as [[[[[cs fl] sl] gl] ll] | e]; [| apply grown_refl].
  destruct (if String.eqb (lower s) "usl" then _ else _) as [mk | e]; [| apply grown_refl].
  pose proof (push_prefix b mk cs (b_solver_states b)) as P. destruct (push_states b mk cs (b_solver_states b)) as [sts r].
  cbn [fst] in P. destruct r, mk; cbn [fst]; repeat split; cbn; auto using prefix_refl, prefix_one.
Qed.
Lemma exec_grown b c : grown b (fst (exec b c)).
Proof.
  destruct c; cbn [exec]; try apply set_solver_grown;
    repeat match goal with |- context [match ?x with _ => _ end] => destruct x end;
    cbn [fst]; repeat split; cbn; auto using prefix_refl, prefix_one.
Qed.
Lemma execs_grown cs : forall b, grown b (fst (execs b cs)).
Proof.
  induction cs as [| c cs IH]; intros b; cbn [execs]; [apply grown_refl |].
  pose proof (exec_grown b c) as G. destruct (exec b c) as [b1 x]. pose proof (IH b1) as G1. destruct (execs b1 cs) as [b2 xs].
  cbn [fst] in *. eapply grown_trans; eauto.
Qed.

(** *** registries of logics and states stay in step *)
Definition in_step (b : Builder T) : Prop :=
  List.length (b_laws b) = List.length (b_law_states b) /\ List.length (b_sdf_logics b) = List.length (b_sdf_states b).
Lemma set_solver_others b s bs fs ss ps : let b' := fst (set_solver b s bs fs ss ps) in
  b_laws b' = b_laws b /\ b_law_states b' = b_law_states b /\ b_sdf_logics b' = b_sdf_logics b /\ b_sdf_states b' = b_sdf_states b /\
  b_forces b' = b_forces b /\ b_force_states b' = b_force_states b /\ b_points b' = b_points b /\ b_grids b' = b_grids b /\ b_couplings b' = b_couplings b.
Proof.
  unfold set_solver. destruct (rbind _ _) as [[[[[cs fl] sl] gl] ll] | e]; [| cbn; auto 10].
  destruct (if String.eqb (lower s) "usl" then _ else _) as [mk | e]; [| cbn; auto 10].
  destruct (push_states b mk cs (b_solver_states b)) as [sts r]. destruct r, mk; cbn; auto 10.
Qed.
Lemma exec_in_step b c : in_step b -> in_step (fst (exec b c)).
Proof.
  intros [L S]. destruct c; cbn [exec];
    try (match goal with |- context [set_solver ?a ?b0 ?c ?d ?e ?f] => destruct (set_solver_others a b0 c d e f) as (E1&E2&E3&E4&_) end;
         unfold in_step; now rewrite E1, E2, E3, E4);
    repeat match goal with |- context [match ?x with _ => _ end] => destruct x end;
    cbn [fst]; unfold in_step; cbn; rewrite ?app_length; cbn; split; lia.
Qed.
Lemma execs_in_step cs : forall b, in_step b -> in_step (fst (execs b cs)).
Proof.
  induction cs as [| c cs IH]; intros b I; cbn [execs]; [exact I |].
  pose proof (exec_in_step b c I) as I1. destruct (exec b c) as [b1 x]. pose proof (IH b1 I1). destruct (execs b1 cs). auto.
Qed.

(** ** C59 *)
(** what call [c], answered with index [n], put into the registries *)
Definition force_of (c : Cmd T) (n : nat) (f : Force T) : Prop :=
  match c, f with
  | AddGravity (GArray v) gs ps g, FGravity x => gv_f x = n /\ gv_on_grid x = g /\ (forall l, gs = Some l -> gv_gs x = l) /\ (forall l, ps = Some l -> gv_ps x = l)
  | AddDamping a gs ps g, FDamping x => dm_f x = n /\ dm_on_grid x = g /\ (forall l, gs = Some l -> dm_gs x = l) /\ (forall l, ps = Some l -> dm_ps x = l)
  | AddContact a r mu rg rc lim, FContact x => gc_actor x = a /\ gc_receiver x = r /\ gc_friction x = mu /\ gc_rigid x = rg /\ gc_reaction x = rc /\ gc_limit x = lim
  | AddCollider (Some s) gs mu gap, FCollider x => cl_sdf x = Some s /\ (forall l, gs = Some l -> cl_gs x = l) /\ cl_gap x = gap
  | AddCollider None gs mu gap, FCollider x => (forall l, gs = Some l -> cl_gs x = l) /\ cl_gap x = gap
  | _, _ => False
  end.
Definition found (c : Cmd T) (n : nat) (s : SimState T) (b : Builder T) : Prop :=
  match c with
  | AddGrid g => nth_error (b_grids b) n = Some g
  | AddGridNew d o e h pad => nth_error (b_grids b) n = Some (grid_create d o e h pad)
  | AddPoints a => exists m, mp_create a = Ok m /\ nth_error (w_mps (s_world s)) n = Some (Soft m)
  | AddRigid d p q => exists m, rigid_create d p q = Ok m /\ nth_error (w_mps (s_world s)) n = Some (Rigid m)
  | AddLaw l st dens => nth_error (b_laws b) n = Some l /\ exists x, law_state_for l st dens = Ok x /\ nth_error (m_laws (s_mech s)) n = Some x
  | AddSDF sh p st => nth_error (b_sdf_logics b) n = Some sh /\ exists x, sdf_state_for sh p st = Ok x /\ nth_error (w_sdfs (s_world s)) n = Some x
  | Couple p g c k => exists x, nth_error (b_couplings b) n = Some x /\ (forall i, p = Some i -> c_p x = i) /\ (forall i, g = Some i -> c_g x = i) /\
                        (c_skip x = false -> forall i, c = Some i -> c_c x = Some i) /\ (forall i, c_s x = Some i -> i = n)
  | SetSolver _ _ _ _ _ => exists x, nth_error (b_solvers b) n = Some x
  | _ => exists f, nth_error (b_forces b) n = Some f /\ force_of c n f
  end.
(** the state a force needs, at the index it will look it up *)
Definition own_state (c : Cmd T) (n : nat) (s : SimState T) : Prop :=
  match c with
  | AddGravity (GArray v) _ _ _ => nth_error (m_forces (s_mech s)) n = Some (Some (FS_Gravity v))
  | AddDamping a _ _ _ => nth_error (m_forces (s_mech s)) n = Some (Some (FS_Damping a))
  | _ => True
  end.
Definition state_of (b : Builder T) (dt : T) : SimState T := snd (build b n0 0%Z dt).

Lemma new_coupling_ok (b : Builder T) p g c k x : new_coupling b p g c k = Ok x ->
  (forall i, p = Some i -> c_p x = i) /\ (forall i, g = Some i -> c_g x = i) /\
  (c_skip x = false -> forall i, c = Some i -> c_c x = Some i) /\ (forall i, c_s x = Some i -> i = List.length (b_couplings b)).
Proof.
  unfold new_coupling. intros E. apply rbind_ok in E as [[i mp] [E1 E]]. apply rbind_ok in E as [gi [E2 E]]. apply rbind_ok in E as [kern [E3 E]].
  assert (Hp : forall j, p = Some j -> i = j).
  { intros j ->. cbn in E1. apply rbind_ok in E1 as [q [_ E1]]. now inversion E1. }
  assert (Hg : forall j, g = Some j -> gi = j).
  { intros j ->. cbn in E2. apply rbind_ok in E2 as [q [_ E2]]. now inversion E2. }
  cbn [fst snd] in E. destruct mp as [sb | rb].
  - destruct (or_last c (List.length (b_laws b))) as [ci |] eqn:Ec; [| discriminate]. inversion E; subst x; cbn.
    repeat split; auto.
    + intros _ j ->. cbn in Ec. congruence.
    + congruence.
  - inversion E; subst x; cbn. repeat split; auto; discriminate.
Qed.

Theorem C59_position : forall (pre post : list (Cmd T)) c n b b1 dt,
  b = fst (execs builder0 pre) -> exec b c = (b1, Ok n) ->
  let b2 := fst (execs b1 post) in found c n (state_of b2 dt) b2.
Proof.
  intros pre post c n b b1 dt Eb E b2.
  assert (I : in_step b) by (subst b; apply execs_in_step; split; reflexivity).
  destruct I as [IL IS]. clear Eb.
  assert (G : grown b1 b2) by apply execs_grown. clearbody b2.
  destruct G as (G1&G2&G3&G4&G5&G6&G7&G8&G9&G10&G11).
  destruct c; cbn [exec] in E; cbn [found state_of build snd s_world s_mech w_mps w_sdfs m_laws].
  - inversion E; subst. eapply prefix_nth; [exact G7 |]. apply nth_last.
  - inversion E; subst. eapply prefix_nth; [exact G7 |]. apply nth_last.
  - destruct (mp_create a) as [m | e]; inversion E; subst. exists m. split; [reflexivity |]. eapply prefix_nth; [exact G1 |]. apply nth_last.
  - destruct (rigid_create d pos normals) as [m | e]; inversion E; subst. exists m. split; [reflexivity |]. eapply prefix_nth; [exact G1 |]. apply nth_last.
  - destruct (law_state_for l st density) as [x | e]; inversion E; subst. split; [eapply prefix_nth; [exact G11 |]; apply nth_last |].
    exists x. split; [reflexivity |]. eapply prefix_nth; [exact G5 |]. cbn. rewrite IL. apply nth_last.
  - destruct (sdf_state_for s p st) as [x | e]; inversion E; subst. split; [eapply prefix_nth; [exact G3 |]; apply nth_last |].
    exists x. split; [reflexivity |]. eapply prefix_nth; [exact G2 |]. cbn. rewrite IS. apply nth_last.
  - destruct (new_coupling b p g c k) as [x | e] eqn:Ex; inversion E; subst. exists x.
    split; [eapply prefix_nth; [exact G9 |]; apply nth_last |]. now apply new_coupling_ok in Ex.
  - destruct g as [v | v]; inversion E; subst. eexists. split; [eapply prefix_nth; [exact G10 |]; apply nth_last |].
    cbn. repeat split; intros l ->; reflexivity.
  - inversion E; subst. eexists. split; [eapply prefix_nth; [exact G10 |]; apply nth_last |]. cbn. repeat split; intros l ->; reflexivity.
  - unfold set_solver in E. destruct (rbind _ _) as [[[[[cs fl] sl] gl] ll] | e]; [| inversion E].
    destruct (if String.eqb (lower scheme) "usl" then _ else _) as [mk | e]; [| inversion E].
    destruct (push_states b mk cs (b_solver_states b)) as [sts r]. destruct r, mk; inversion E; subst. exists s.
    eapply prefix_nth; [exact G8 |]. apply nth_last.
  - inversion E; subst. eexists. split; [eapply prefix_nth; [exact G10 |]; apply nth_last |]. cbn. repeat split.
  - inversion E; subst. eexists. split; [eapply prefix_nth; [exact G10 |]; apply nth_last |].
    cbn. destruct sdf; repeat split; try (intros l ->); reflexivity.
Qed.

(** the calls after which force logics and force states are no longer in step: colliders have no state, and a gravity
    given as a tuple fails after its logic was registered *)
Definition stateless (c : Cmd T) : bool :=
  match c with AddCollider _ _ _ _ => true | AddGravity (GTuple _) _ _ _ => true | _ => false end.
Lemma exec_offset b c k : List.length (b_forces b) = (List.length (b_force_states b) + k)%nat ->
  List.length (b_forces (fst (exec b c))) = (List.length (b_force_states (fst (exec b c))) + (if stateless c then k + 1 else k))%nat.
Proof.
  intros L. destruct c; cbn [exec stateless];
    try (match goal with |- context [set_solver ?a ?b0 ?c ?d ?e ?f] => destruct (set_solver_others a b0 c d e f) as (_&_&_&_&E5&E6&_) end; rewrite E5, E6; exact L);
    repeat match goal with |- context [match ?x with _ => _ end] => destruct x end;
    cbn; rewrite ?app_length; cbn; lia.
Qed.
Lemma execs_offset cs : forall b k, List.length (b_forces b) = (List.length (b_force_states b) + k)%nat ->
  List.length (b_forces (fst (execs b cs))) = (List.length (b_force_states (fst (execs b cs))) + (k + List.length (filter stateless cs)))%nat.
Proof.
  induction cs as [| c cs IH]; intros b k L; cbn [execs filter]; [cbn; lia |].
  pose proof (exec_offset b c k L) as L1. destruct (exec b c) as [b1 x]. cbn [fst] in L1. pose proof (IH b1 _ L1) as L2.
  destruct (execs b1 cs) as [b2 xs]. cbn [fst] in *. destruct (stateless c); cbn [List.length] in *; lia.
Qed.
(** a force finds its own state exactly as far off as stateless calls came before it *)
Theorem C59_force_state_partial : forall (pre post : list (Cmd T)) c n b b1 dt,
  b = fst (execs builder0 pre) -> exec b c = (b1, Ok n) ->
  let b2 := fst (execs b1 post) in own_state c (n - List.length (filter stateless pre)) (state_of b2 dt).
Proof.
  intros pre post c n b b1 dt Eb E b2.
  assert (L : List.length (b_forces b) = (List.length (b_force_states b) + List.length (filter stateless pre))%nat)
    by (subst b; apply (execs_offset pre builder0 0 eq_refl)).
  assert (G : grown b1 b2) by apply execs_grown. clearbody b2. destruct G as (_&_&_&G4&_).
  destruct c; cbn [own_state]; auto.
  - destruct g as [v | v]; cbn [exec] in E; inversion E; subst n b1. cbn [state_of build snd s_mech m_forces] in *.
    eapply prefix_nth; [exact G4 |]. cbn. rewrite L, Nat.add_sub. apply nth_last.
  - cbn [exec] in E; inversion E; subst n b1. cbn [state_of build snd s_mech m_forces] in *.
    eapply prefix_nth; [exact G4 |]. cbn. rewrite L, Nat.add_sub. apply nth_last.
Qed.
Theorem C59_force_state : forall (pre post : list (Cmd T)) c n b b1 dt,
  (forall x, In x pre -> stateless x = false) -> b = fst (execs builder0 pre) -> exec b c = (b1, Ok n) ->
  let b2 := fst (execs b1 post) in own_state c n (state_of b2 dt).
Proof.
  intros pre post c n b b1 dt Hpre Eb E b2. pose proof (C59_force_state_partial pre post c n b b1 dt Eb E) as P.
  replace (filter stateless pre) with (@nil (Cmd T)) in P; [cbn in P; now rewrite Nat.sub_0_r in P |].
  clear -Hpre. induction pre as [| x pre IH]; [reflexivity |]. cbn. rewrite Hpre by (now left). apply IH. intros; apply Hpre; now right.
Qed.

(** ** C60 *)
(** the selection a solver was made from *)
Definition selected (b : Builder T) (bs : option (list nat)) : list nat := match bs with Some l => l | None => seq 0 (List.length (b_couplings b)) end.
Lemma new_usl_ok ll cs fl sdfs gl ps (s : Solver T) : new_usl ll cs fl sdfs gl ps = Ok s ->
  so_couplings s = cs /\ so_domains s = gl /\ so_laws s = ll /\ so_forces s = fl /\ so_sdfs s = sdfs /\ so_scheme s = USL /\ all_laws ll = true.
Proof.
  unfold new_usl. intros E. apply rbind_ok in E as [s' [E1 E2]]. destruct (all_laws ll) eqn:Ea; [| discriminate]. inversion E2; subst s'.
  assert (I : so_couplings s = cs /\ so_domains s = gl /\ so_laws s = ll /\ so_forces s = fl /\ so_sdfs s = sdfs /\ so_scheme s = USL); [| tauto].
  eapply (rfold_inv (fun s => so_couplings s = cs /\ so_domains s = gl /\ so_laws s = ll /\ so_forces s = fl /\ so_sdfs s = sdfs /\ so_scheme s = USL)); [| | exact E1].
  - intros x p y _ Hx Ey. destruct p; inversion Ey; subst y; cbn; auto 10.
  - cbn. auto 10.
Qed.
Lemma new_aflip_ok ll cs fl sdfs gl ps (s : Solver T) : new_aflip ll cs fl sdfs gl ps = Ok s ->
  so_couplings s = cs /\ so_domains s = gl /\ so_laws s = ll /\ so_forces s = fl /\ so_sdfs s = sdfs /\ all_laws ll = true.
Proof.
  unfold new_aflip. intros E. apply rbind_ok in E as [a [E1 E2]]. destruct (all_laws ll) eqn:Ea; [| discriminate]. inversion E2; subst s. cbn. auto 10.
Qed.
Lemma set_solver_ok b scheme bs fs ss ps b1 n : set_solver b scheme bs fs ss ps = (b1, Ok n) ->
  exists s cs gl ll, nth_error (b_solvers b1) n = Some s /\ so_couplings s = cs /\ so_domains s = gl /\ so_laws s = ll /\ all_laws ll = true /\
    Forall2 (fun i c => nth_error (b_couplings b) i = Some c) (selected b bs) cs /\
    Forall2 (fun c g => nth_error (b_grids b) (c_g c) = Some g) cs gl /\
    Forall2 (fun c o => match c_c c with Some i => exists l, nth_error (b_laws b) i = Some l /\ o = Some l | None => o = None end) cs ll /\
    fst (push_states b (Some s) cs (b_solver_states b)) = b_solver_states b1 /\ b_points b1 = b_points b.
Proof.
  unfold set_solver. intros E. destruct (rbind _ _) as [[[[[cs fl] sl] gl] ll] | e] eqn:Es; [| inversion E].
  apply rbind_ok in Es as [cs' [E1 Es]]. apply rbind_ok in Es as [fl' [E2 Es]]. apply rbind_ok in Es as [sl' [E3 Es]].
  apply rbind_ok in Es as [gl' [E4 Es]]. apply rbind_ok in Es as [ll' [E5 Es]]. inversion Es; subst cs' fl' sl' gl' ll'. clear Es.
  apply rmap_ok in E1, E4, E5.
  assert (F1 : Forall2 (fun i c => nth_error (b_couplings b) i = Some c) (selected b bs) cs) by (eapply Forall2_weaken; [| exact E1]; intros; now apply idx_ok).
  assert (F4 : Forall2 (fun c g => nth_error (b_grids b) (c_g c) = Some g) cs gl) by (eapply Forall2_weaken; [| exact E4]; intros; now apply idx_ok).
  assert (F5 : Forall2 (fun c o => match c_c c with Some i => exists l, nth_error (b_laws b) i = Some l /\ o = Some l | None => o = None end) cs ll).
  { eapply Forall2_weaken; [| exact E5]. intros c o Ho. cbn in Ho. destruct (c_c c) as [i |]; [| now inversion Ho].
    apply rbind_ok in Ho as [l [Hl Ho]]. apply idx_ok in Hl. inversion Ho. eauto. }
  destruct (if String.eqb (lower scheme) "usl" then _ else _) as [mk | e] eqn:Em; [| inversion E].
  destruct (push_states b mk cs (b_solver_states b)) as [sts r] eqn:Ep. destruct r as [[] | e], mk as [s |]; inversion E; subst b1 n.
  exists s, cs, gl, ll. cbn. split; [apply nth_last |].
  assert (Hs : so_couplings s = cs /\ so_domains s = gl /\ so_laws s = ll /\ all_laws ll = true).
  { destruct (String.eqb (lower scheme) "usl").
    - apply rbind_ok in Em as [s' [Em Em']]. inversion Em'; subst s'. apply new_usl_ok in Em. tauto.
    - destruct (String.eqb (lower scheme) "usl_aflip"); [| discriminate].
      apply rbind_ok in Em as [s' [Em Em']]. inversion Em'; subst s'. apply new_aflip_ok in Em. tauto. }
  rewrite Ep. tauto.
Qed.
(** Grid and law are looked up by the global index in lists ordered like the couplings.  They are the ones named exactly
    when the coupling found at that position names the same grid (law). *)
Theorem C60_resolved : forall b scheme bs fs ss ps b1 n c, set_solver b scheme bs fs ss ps = (b1, Ok n) ->
  forall s, nth_error (b_solvers b1) n = Some s -> In c (so_couplings s) ->
  (forall g, nth_error (so_domains s) (c_g c) = Some g <->
     exists c', nth_error (so_couplings s) (c_g c) = Some c' /\ nth_error (b_grids b) (c_g c') = Some g) /\
  (forall i l, c_c c = Some i -> (nth_error (so_laws s) i = Some (Some l) <->
     exists c' j, nth_error (so_couplings s) i = Some c' /\ c_c c' = Some j /\ nth_error (b_laws b) j = Some l)).
Proof.
  intros b scheme bs fs ss ps b1 n c E s Es Hc. apply set_solver_ok in E as (s' & cs & gl & ll & Es' & E1 & E2 & E3 & Ea & F1 & F2 & F3 & _).
  rewrite Es in Es'. inversion Es'; subst s'. rewrite E1, E2, E3. split.
  - intros g. split.
    + intros Hg. apply (Forall2_nth_error _ _ _ _ _ F2) in Hg as [c' [Hc' Hg]]. eauto.
    + intros [c' [Hc' Hg]]. apply (Forall2_nth_error_l _ _ _ _ _ F2) in Hc' as [g' [Hg' Hg'']]. congruence.
  - intros i l Hi. split.
    + intros Hl. apply (Forall2_nth_error _ _ _ _ _ F3) in Hl as [c' [Hc' Hl]]. destruct (c_c c') as [j |] eqn:Ej; [| discriminate].
      destruct Hl as [l' [Hl Eq]]. inversion Eq; subst l'. eauto.
    + intros [c' [j [Hc' [Hj Hl]]]]. apply (Forall2_nth_error_l _ _ _ _ _ F3) in Hc' as [o [Ho Hm]]. rewrite Hj in Hm. destruct Hm as [l' [Hl' ->]]. congruence.
Qed.
(** in particular for one grid and one law, and for one grid and one law per body in order *)
Theorem C60_partial : forall b scheme bs fs ss ps b1 n, set_solver b scheme bs fs ss ps = (b1, Ok n) ->
  forall s, nth_error (b_solvers b1) n = Some s ->
  (forall c, In c (so_couplings s) -> exists c', nth_error (so_couplings s) (c_g c) = Some c' /\ c_g c' = c_g c) ->
  (forall c i, In c (so_couplings s) -> c_c c = Some i -> exists c', nth_error (so_couplings s) i = Some c' /\ c_c c' = Some i) ->
  forall c, In c (so_couplings s) ->
  nth_error (so_domains s) (c_g c) = nth_error (b_grids b) (c_g c) /\
  exists i l, c_c c = Some i /\ nth_error (so_laws s) i = Some (Some l) /\ nth_error (b_laws b) i = Some l.
Proof.
  intros b scheme bs fs ss ps b1 n E s Es Hg Hl c Hc. destruct (C60_resolved b scheme bs fs ss ps b1 n c E s Es Hc) as [R1 R2].
  apply set_solver_ok in E as (s' & cs & gl & ll & Es' & E1 & E2 & E3 & Ea & F1 & F2 & F3 & _). rewrite Es in Es'. inversion Es'; subst s'.
  destruct (Hg c Hc) as [c' [Hc' Eg]]. split.
  - rewrite E1 in Hc'. destruct (Forall2_nth_error_l _ _ _ _ _ F2 Hc') as [g [Hgl Hgb]]. rewrite Eg in Hgb.
    rewrite Hgb. apply R1. exists c'. rewrite E1, Eg. auto.
  - apply In_nth_error in Hc as [k Hk]. rewrite E1 in Hk. destruct (Forall2_nth_error_l _ _ _ _ _ F3 Hk) as [o [Ho Hm]].
    destruct (c_c c) as [i |] eqn:Ei.
    + destruct Hm as [l [Hb ->]]. exists i, l. split; [reflexivity |]. split; [| exact Hb]. apply R2; [reflexivity |].
      destruct (Hl c i) as [c2 [Hc2 Ec2]]; [rewrite E1; eapply nth_error_In; exact Hk | exact Ei |]. exists c2, i. auto.
    + subst o. exfalso. unfold all_laws in Ea. rewrite forallb_forall in Ea. apply nth_error_In in Ho. now specialize (Ea _ Ho).
Qed.

(** ** C61 *)
Lemma push_nothing b cs : forall acc, (forall c, In c cs -> exists sb, nth_error (b_points b) (c_p c) = Some (Soft sb)) ->
  fst (push_states b (@None (Solver T)) cs acc) = acc.
Proof.
  destruct cs as [| c cs]; intros acc Hc; [reflexivity |]. cbn [push_states]. destruct (Hc c (or_introl eq_refl)) as [sb ->]. reflexivity.
Qed.
Definition known_scheme (s : string) : Prop := lower s = "usl"%string \/ lower s = "usl_aflip"%string.
Theorem C61_rejected : forall b scheme bs fs ss ps, ~ known_scheme scheme ->
  (exists e, snd (set_solver b scheme bs fs ss ps) = Err e) /\ b_solvers (fst (set_solver b scheme bs fs ss ps)) = b_solvers b.
Proof.
  intros b scheme bs fs ss ps Hk. unfold set_solver.
  destruct (rbind _ _) as [[[[[cs fl] sl] gl] ll] | e]; [| cbn; eauto].
  destruct (String.eqb (lower scheme) "usl") eqn:E1; [apply String.eqb_eq in E1; exfalso; apply Hk; now left |].
  destruct (String.eqb (lower scheme) "usl_aflip") eqn:E2; [apply String.eqb_eq in E2; exfalso; apply Hk; now right |].
  destruct (push_states b None cs (b_solver_states b)) as [sts r]. destruct r; cbn; eauto.
Qed.
(** and, when no rigid body is coupled, the builder is left as it was *)
Theorem C61_unchanged_partial : forall b scheme bs fs ss ps, ~ known_scheme scheme ->
  (forall c, In c (b_couplings b) -> exists sb, nth_error (b_points b) (c_p c) = Some (Soft sb)) ->
  fst (set_solver b scheme bs fs ss ps) = b.
Proof.
  intros b scheme bs fs ss ps Hk Hr. unfold set_solver.
  destruct (rbind _ _) as [[[[[cs fl] sl] gl] ll] | e] eqn:Es; [| reflexivity].
  apply rbind_ok in Es as [cs' [E1 Es]]. apply rbind_ok in Es as [fl' [_ Es]]. apply rbind_ok in Es as [sl' [_ Es]].
  apply rbind_ok in Es as [gl' [_ Es]]. apply rbind_ok in Es as [ll' [_ Es]]. inversion Es; subst cs' fl' sl' gl' ll'. clear Es.
  apply rmap_ok in E1.
  destruct (String.eqb (lower scheme) "usl") eqn:E2; [apply String.eqb_eq in E2; exfalso; apply Hk; now left |].
  destruct (String.eqb (lower scheme) "usl_aflip") eqn:E3; [apply String.eqb_eq in E3; exfalso; apply Hk; now right |].
  assert (P : fst (push_states b (@None (Solver T)) cs (b_solver_states b)) = b_solver_states b).
  { apply push_nothing. intros c Hc. apply Hr. apply In_nth_error in Hc as [k Hk']. apply (Forall2_nth_error _ _ _ _ _ E1) in Hk' as [i [_ Hi]].
    apply idx_ok in Hi. eapply nth_error_In; exact Hi. }
  destruct (push_states b None cs (b_solver_states b)) as [sts r]. cbn in P. subst sts. destruct r; cbn; destruct b; reflexivity.
Qed.
Lemma lower_length s : String.length (lower s) = String.length s.
Proof. induction s; cbn; auto. Qed.
(** every spelling of the two names in upper and lower case is known, and only strings of 3 or 9 characters are *)
Theorem C61_spellings : (forall s, known_scheme s -> String.length s = 3%nat \/ String.length s = 9%nat) /\
  known_scheme "USL" /\ known_scheme "usl" /\ known_scheme "USL_AFLIP" /\ known_scheme "Usl_Aflip".
Proof.
  split; [intros s [E | E]; apply (f_equal String.length) in E; rewrite lower_length in E; cbn in E; auto |].
  repeat split; (left; reflexivity) || (right; reflexivity).
Qed.

(** ** C62 *)
Definition domain_of (s : Shape T) : option (vec3 T * vec3 T) := match s with Domain lo hi _ => Some (lo, hi) | _ => None end.
Theorem C62_domain_partial : forall b s lo hi p, domain_of s = Some (lo, hi) -> ps_com p = None ->
  exists x n, exec b (AddSDF s p None) = (with_sdfs b (b_sdf_logics b ++ [s]) (b_sdf_states b ++ [x]), Ok n) /\
    sd_com x = vscale (lit 1 2) (vadd lo hi).
Proof. intros b s lo hi p Hs Hp. destruct s; inversion Hs; subst. cbn [exec]. unfold sdf_state_for. rewrite Hp. cbn. eauto. Qed.
Theorem C62_refuted : forall b s p, domain_of s = None -> ps_com p = None -> exec b (AddSDF s p None) = (b, Err TypeError).
Proof. intros b s p Hs Hp. destruct s; inversion Hs; cbn [exec]; unfold sdf_state_for; now rewrite Hp. Qed.
(** with a centre of mass every shape is accepted *)
Theorem C62_given : forall b s p c, ps_com p = Some c -> exists x n, sd_com x = c /\
  exec b (AddSDF s p None) = (with_sdfs b (b_sdf_logics b ++ [s]) (b_sdf_states b ++ [x]), Ok n).
Proof. intros b s p c Hp. cbn [exec]. unfold sdf_state_for. rewrite Hp. cbn [rbind]. eexists. eexists. split; [| reflexivity]. reflexivity. Qed.

(** ** C63 *)
Definition elastic (l : Law T) : bool := match l with LawLE _ => true | _ => false end.
Theorem C63_kept_partial : forall pre post l st dens b b1 n dt, elastic l = false -> b = fst (execs builder0 pre) ->
  exec b (AddLaw l (Some st) dens) = (b1, Ok n) -> nth_error (m_laws (s_mech (state_of (fst (execs b1 post)) dt))) n = Some (Some st).
Proof.
  intros pre post l st dens b b1 n dt Hl Eb E. destruct (C59_position pre post _ n b b1 dt Eb E) as [_ [x [Ex Hx]]].
  rewrite Hx. destruct l; cbn in *; congruence.
Qed.
Theorem C63_accepted : forall b l st dens, elastic l = false -> exists b1 n, exec b (AddLaw l (Some st) dens) = (b1, Ok n).
Proof. intros b l st dens Hl. destruct l; cbn; try discriminate; eauto. Qed.
(** fluids get their state from the density, other laws without a state are refused *)
Theorem C63_defaults : forall b l dens b1 n, exec b (AddLaw l None dens) = (b1, Ok n) ->
  match l with LawNewton _ | LawMuI _ => exists d, dens = Some d | LawLE _ => True | _ => False end.
Proof. intros b l dens b1 n E. destruct l; cbn in *; auto; try (destruct dens; [eauto | inversion E]); inversion E. Qed.
Theorem C63_refuted : forall pre post m st dens b b1 n dt, b = fst (execs builder0 pre) ->
  exec b (AddLaw (LawLE m) (Some st) dens) = (b1, Ok n) -> nth_error (m_laws (s_mech (state_of (fst (execs b1 post)) dt))) n = Some None.
Proof.
  intros pre post m st dens b b1 n dt Eb E. destruct (C59_position pre post _ n b b1 dt Eb E) as [_ [x [Ex Hx]]]. cbn in Ex. inversion Ex; subst x. exact Hx.
Qed.

(** ** C56, friction of a collider *)
Theorem C56_friction_refuted : forall b sdf gs mu gap, exists c, nth_error (b_forces (fst (exec b (AddCollider sdf gs mu gap)))) (List.length (b_forces b)) = Some (FCollider c) /\
  cl_friction c = n1.
Proof. intros. eexists. split; [cbn; apply nth_last |]. reflexivity. Qed.

(** ** C91 *)
Theorem C91_refuted : forall b scheme bs fs ss ps c i, In i (selected b bs) -> nth_error (b_couplings b) i = Some c -> c_c c = None ->
  exists e, snd (set_solver b scheme bs fs ss ps) = Err e.
Proof.
  intros b scheme bs fs ss ps c i Hi Hc Hn. destruct (set_solver b scheme bs fs ss ps) as [b1 [n | e]] eqn:E; [| cbn; eauto].
  exfalso. apply set_solver_ok in E as (s & cs & gl & ll & _ & _ & _ & _ & Ea & F1 & _ & F3 & _).
  apply In_nth_error in Hi as [k Hk]. destruct (Forall2_nth_error_l _ _ _ _ _ F1 Hk) as [c' [Hk' Hc']]. rewrite Hc in Hc'. inversion Hc'; subst c'.
  destruct (Forall2_nth_error_l _ _ _ _ _ F3 Hk') as [o [Ho Hm]]. rewrite Hn in Hm. subst o.
  unfold all_laws in Ea. rewrite forallb_forall in Ea. apply nth_error_In in Ho. now specialize (Ea _ Ho).
Qed.
(** coupling a rigid body always makes such a coupling *)
Theorem C91_rigid_coupling : forall b p g c k b1 n rb, exec b (Couple (Some p) g c k) = (b1, Ok n) -> nth_error (b_points b) p = Some (Rigid rb) ->
  exists x, nth_error (b_couplings b1) n = Some x /\ c_p x = p /\ c_c x = None /\ c_skip x = true.
Proof.
  intros b p g c k b1 n rb E Hr. cbn [exec] in E. destruct (new_coupling b (Some p) g c k) as [x | e] eqn:Ex; inversion E; subst.
  exists x. split; [apply nth_last |]. unfold new_coupling in Ex. cbn [or_last] in Ex. rewrite (idx_some _ _ _ Hr) in Ex. cbn [rbind fst snd] in Ex.
  apply rbind_ok in Ex as [gi [_ Ex]]. apply rbind_ok in Ex as [kern [_ Ex]]. inversion Ex. auto.
Qed.

(** ** C92 *)
Theorem C92_array_partial : forall b v gs ps og, exists b1, exec b (AddGravity (GArray v) gs ps og) = (b1, Ok (List.length (b_forces b))).
Proof. intros. cbn. eauto. Qed.
Theorem C92_tuple_refuted : forall b v gs ps og, snd (exec b (AddGravity (GTuple v) gs ps og)) = Err TypeError /\
  List.length (b_forces (fst (exec b (AddGravity (GTuple v) gs ps og)))) = S (List.length (b_forces b)).
Proof. intros. cbn. split; [reflexivity |]. rewrite app_length. cbn. lia. Qed.

(** ** C59, solver states *)
(** what every coupling of a builder is like *)
Definition coupled (b : Builder T) : Prop := forall i c, nth_error (b_couplings b) i = Some c ->
  (exists g, nth_error (b_grids b) (c_g c) = Some g) /\
  match nth_error (b_points b) (c_p c) with
  | Some (Soft _) => c_s c = Some i /\ c_c c <> None /\ c_skip c = false
  | Some (Rigid _) => c_s c = None /\ c_c c = None /\ c_skip c = true
  | None => False
  end.
Lemma coupled_grown b b' : prefix (b_points b) (b_points b') -> prefix (b_grids b) (b_grids b') -> b_couplings b' = b_couplings b -> coupled b -> coupled b'.
Proof.
  intros Hp Hg Hc C i c E. rewrite Hc in E. destruct (C i c E) as [[g Hgg] M]. split; [exists g; eapply prefix_nth; eauto |].
  destruct (nth_error (b_points b) (c_p c)) as [x |] eqn:Ex; [| destruct M]. now rewrite (prefix_nth _ _ _ _ Hp Ex).
Qed.
Lemma exec_coupled b c : coupled b -> coupled (fst (exec b c)).
Proof.
  intros C. destruct c; cbn [exec];
    try (match goal with |- context [set_solver ?a ?b0 ?c ?d ?e ?f] => destruct (set_solver_others a b0 c d e f) as (_&_&_&_&_&_&E7&E8&E9) end;
         refine (coupled_grown b _ _ _ E9 C); [rewrite E7 | rewrite E8]; apply prefix_refl);
    try (destruct (new_coupling b p g c k) as [x | e] eqn:Ex; cbn [fst]; [| exact C]);
    repeat match goal with |- context [match ?x with _ => _ end] => destruct x end; cbn [fst]; try exact C;
    try (apply (coupled_grown b); cbn; auto using prefix_refl, prefix_one; fail).
  intros i y Ey. cbn [b_couplings with_couplings b_grids b_points] in *.
  destruct (Nat.lt_ge_cases i (List.length (b_couplings b))) as [Hi | Hi].
  { rewrite nth_error_app1 in Ey by exact Hi. exact (C i y Ey). }
  rewrite nth_error_app2 in Ey by exact Hi. destruct (i - List.length (b_couplings b))%nat as [| k'] eqn:Ek; [| destruct k'; discriminate].
  assert (i = List.length (b_couplings b)) by lia. subst i. cbn in Ey. inversion Ey; subst y. clear Ey.
  unfold new_coupling in Ex. apply rbind_ok in Ex as [[pi mp] [E1 Ex]]. apply rbind_ok in Ex as [gi [E2 Ex]]. apply rbind_ok in Ex as [kern [_ Ex]].
  assert (P : nth_error (b_points b) pi = Some mp).
  { destruct (or_last p (List.length (b_points b))) as [j |]; [| discriminate]. apply rbind_ok in E1 as [q [Eq E1]]. apply idx_ok in Eq. inversion E1; now subst. }
  assert (G : exists gd, nth_error (b_grids b) gi = Some gd).
  { destruct (or_last g (List.length (b_grids b))) as [j |]; [| discriminate]. apply rbind_ok in E2 as [q [Eq E2]]. apply idx_ok in Eq. inversion E2; subst. eauto. }
  cbn [fst snd] in Ex. destruct mp as [sb | rb].
  - destruct (or_last c (List.length (b_laws b))) as [ci |]; [| discriminate]. inversion Ex; subst x. cbn. rewrite P. split; [exact G |]. split; [reflexivity |]. split; [discriminate | reflexivity].
  - inversion Ex; subst x. cbn. rewrite P. auto.
Qed.
Lemma execs_coupled cs : forall b, coupled b -> coupled (fst (execs b cs)).
Proof.
  induction cs as [| c cs IH]; intros b I; cbn [execs]; [exact I |].
  pose proof (exec_coupled b c I) as I1. destruct (exec b c) as [b1 x]. pose proof (IH b1 I1). destruct (execs b1 cs). auto.
Qed.
Lemma coupled0 : coupled builder0.
Proof. intros [| i] c E; discriminate. Qed.
Lemma push_all b s cs : forall acc, (forall c, In c cs -> exists sb, nth_error (b_points b) (c_p c) = Some (Soft sb)) ->
  exists l, fst (push_states b (Some s) cs acc) = acc ++ l /\
    Forall2 (fun c o => exists sb, nth_error (b_points b) (c_p c) = Some (Soft sb) /\ o = Some (create_solver_state s (List.length (sb_pts sb)))) cs l.
Proof.
  induction cs as [| c cs IH]; intros acc Hs; cbn [push_states]; [exists []; cbn; rewrite app_nil_r; auto |].
  destruct (Hs c (or_introl eq_refl)) as [sb Hsb]. rewrite Hsb.
  destruct (IH (acc ++ [Some (create_solver_state s (List.length (sb_pts sb)))]) (fun c' H' => Hs c' (or_intror H'))) as [l [-> F]].
  exists (Some (create_solver_state s (List.length (sb_pts sb))) :: l). split; [now rewrite <- app_assoc |]. constructor; [eauto | exact F].
Qed.
Lemma map_nth_seq {A} (l : list A) cs : Forall2 (fun i c => nth_error l i = Some c) (seq 0 (List.length l)) cs -> cs = l.
Proof.
  intros F.
  assert (G : forall i, nth_error cs i = nth_error l i).
  { intros i. destruct (Nat.lt_ge_cases i (List.length l)) as [Hi | Hi].
    - assert (E : nth_error (seq 0 (List.length l)) i = Some i) by (rewrite nth_error_nth' with (d := O) by (rewrite seq_length; exact Hi); now rewrite seq_nth).
      destruct (Forall2_nth_error_l _ _ _ _ _ F E) as [c [-> Hc]]. congruence.
    - apply Forall2_len in F. rewrite seq_length in F. transitivity (@None A); [| symmetry]; apply nth_error_None; lia. }
  clear F. revert cs G. induction l as [| a l IH]; intros [| c cs] G; [reflexivity | specialize (G O); discriminate | specialize (G O); discriminate |].
  f_equal; [specialize (G O); now inversion G |]. apply IH. intros i. exact (G (S i)).
Qed.
(** the first solver, made from all couplings, finds at each coupling's s_idx a state of that body's size *)
Theorem C59_solver_state_partial : forall (pre post : list (Cmd T)) scheme fs ss ps n b b1 dt,
  b = fst (execs builder0 pre) -> b_solver_states b = [] -> exec b (SetSolver scheme None fs ss ps) = (b1, Ok n) ->
  exists s, nth_error (b_solvers b1) n = Some s /\ so_couplings s = b_couplings b /\
  forall i c, nth_error (b_couplings b) i = Some c -> exists sb, nth_error (b_points b) (c_p c) = Some (Soft sb) /\ c_s c = Some i /\
    nth_error (m_solvers (s_mech (state_of (fst (execs b1 post)) dt))) i = Some (Some (create_solver_state s (List.length (sb_pts sb)))).
Proof.
  intros pre post scheme fs ss ps n b b1 dt Eb E0 E. cbn [exec] in E.
  assert (C : coupled b) by (subst b; apply execs_coupled, coupled0). clear Eb.
  apply set_solver_ok in E as (s & cs & gl & ll & Es & E1 & E2 & E3 & Ea & F1 & F2 & F3 & Ep & _).
  cbn [selected] in F1. apply map_nth_seq in F1. subst cs. exists s. split; [exact Es |]. rewrite F1 in *. split; [reflexivity |].
  assert (Hs : forall c, In c (b_couplings b) -> exists sb, nth_error (b_points b) (c_p c) = Some (Soft sb)).
  { intros c Hc. apply In_nth_error in Hc as [k Hk]. destruct (C k c Hk) as [_ M]. destruct (nth_error (b_points b) (c_p c)) as [[sb | rb] |]; [eauto | | destruct M].
    exfalso. destruct M as [_ [Mc _]]. destruct (Forall2_nth_error_l _ _ _ _ _ F3 Hk) as [o [Ho Hm]]. rewrite Mc in Hm. subst o.
    unfold all_laws in Ea. rewrite forallb_forall in Ea. apply nth_error_In in Ho. now specialize (Ea _ Ho). }
  destruct (push_all b s (b_couplings b) (b_solver_states b) Hs) as [l [El F]]. rewrite El, E0 in Ep. cbn in Ep. subst l.
  intros i c Hc. destruct (Forall2_nth_error_l _ _ _ _ _ F Hc) as [o [Ho [sb [Hsb ->]]]]. exists sb. split; [exact Hsb |].
  split; [destruct (C i c Hc) as [_ M]; rewrite Hsb in M; apply M |]. unfold state_of. cbn [build snd s_mech m_solvers].
  eapply prefix_nth; [| exact Ho]. apply execs_grown.
Qed.

(** *** the scripts that refute *)
Definition run (cs : list (Cmd T)) : Builder T := fst (execs builder0 cs).
(** two gravities after a collider: the first finds the state of the second, the second none *)
Theorem C59_force_state_refuted : forall sh p st g1 g2 mu gap dt,
  let s := state_of (run [AddSDF sh p (Some st); AddCollider None None mu gap; AddGravity (GArray g1) None None true; AddGravity (GArray g2) None None true]) dt in
  let b := run [AddSDF sh p (Some st); AddCollider None None mu gap; AddGravity (GArray g1) None None true; AddGravity (GArray g2) None None true] in
  exists f1 f2, nth_error (b_forces b) 1 = Some (FGravity f1) /\ nth_error (b_forces b) 2 = Some (FGravity f2) /\
    nth_error (m_forces (s_mech s)) (gv_f f1) = Some (Some (FS_Gravity g2)) /\ nth_error (m_forces (s_mech s)) (gv_f f2) = None.
Proof. intros. cbn. eexists. eexists. repeat split; reflexivity. Qed.
(** a solver for the second coupling alone: s_idx is 1 and there is one solver state *)
Theorem C59_solver_state_refuted : forall g a m l st dt, mp_create a = Ok m -> elastic l = false ->
  let b := run [AddGrid g; AddPoints a; AddPoints a; AddLaw l (Some st) None; Couple (Some 0%nat) None None "cubic"; Couple (Some 1%nat) None None "cubic";
                SetSolver "usl_aflip" (Some [1%nat]) None None []] in
  exists s c, b_solvers b = [s] /\ so_couplings s = [c] /\ c_s c = Some 1%nat /\ nth_error (m_solvers (s_mech (state_of b dt))) 1 = None.
Proof.
  intros g a m l st dt Em El. unfold run. cbn [execs exec]. rewrite Em. cbn [execs exec fst snd].
  replace (law_state_for l (Some st) None) with (Ok (Some st)) by (destruct l; cbn in *; congruence).
  vm_compute. do 2 eexists. repeat split; reflexivity.
Qed.
Theorem C60_refuted : forall gA gB a m l st, mp_create a = Ok m -> elastic l = false ->
  let b := run [AddGrid gA; AddGrid gB; AddPoints a; AddPoints a; AddLaw l (Some st) None; Couple (Some 0%nat) (Some 1%nat) None "cubic"; Couple (Some 1%nat) (Some 0%nat) None "cubic";
                SetSolver "usl" None None None []] in
  exists s c, b_solvers b = [s] /\ nth_error (so_couplings s) 0 = Some c /\ c_p c = 0%nat /\ c_g c = 1%nat /\
    nth_error (b_grids b) 1 = Some gB /\ nth_error (so_domains s) (c_g c) = Some gA.
Proof.
  intros gA gB a m l st Em El. unfold run. cbn [execs exec]. rewrite Em. cbn [execs exec fst snd].
  replace (law_state_for l (Some st) None) with (Ok (Some st)) by (destruct l; cbn in *; congruence).
  vm_compute. do 2 eexists. repeat split; reflexivity.
Qed.
Theorem C60_law_refuted : forall g a m l1 l2 st, mp_create a = Ok m -> elastic l1 = false -> elastic l2 = false ->
  let b := run [AddGrid g; AddPoints a; AddPoints a; AddLaw l1 (Some st) None; AddLaw l2 (Some st) None; Couple (Some 0%nat) None (Some 1%nat) "cubic"; Couple (Some 1%nat) None (Some 0%nat) "cubic";
                SetSolver "usl" None None None []] in
  exists s c, b_solvers b = [s] /\ nth_error (so_couplings s) 0 = Some c /\ c_p c = 0%nat /\ c_c c = Some 1%nat /\
    nth_error (b_laws b) 1 = Some l2 /\ nth_error (so_laws s) 1 = Some (Some l1).
Proof.
  intros g a m l1 l2 st Em El1 El2. unfold run. cbn [execs exec]. rewrite Em. cbn [execs exec fst snd].
  replace (law_state_for l1 (Some st) None) with (Ok (Some st)) by (destruct l1; cbn in *; congruence).
  replace (law_state_for l2 (Some st) None) with (Ok (Some st)) by (destruct l2; cbn in *; congruence).
  vm_compute. do 2 eexists. repeat split; reflexivity.
Qed.
(** with a rigid body coupled a misspelt scheme leaves an entry among the solver states *)
Theorem C61_unchanged_refuted : forall g d pos nrm rb, rigid_create d pos nrm = Ok rb ->
  let b := run [AddGrid g; AddRigid d pos nrm; Couple None None None "cubic"] in
  exec b (SetSolver "USF" None None None []) = (with_solvers b [] [None], Err UnboundLocalError) /\ b_solver_states b = [].
Proof.
  intros g d pos nrm rb Er. unfold run. cbn [execs exec]. rewrite Er. vm_compute. split; reflexivity.
Qed.

(** *** a script that meets the hypotheses above, for any grids, points and fluid *)
Section Script.
Variables (gA gB : GridDomain T) (a : CreateArgs T) (m : SoftBody T) (fl : Newton T) (v : vec3 T) (p : Pose T) (com : vec3 T).
Hypothesis Ha : mp_create a = Ok m.
Hypothesis Hp : ps_com p = Some com.
Definition script : list (Cmd T) :=
  [AddGrid gA; AddGrid gB; AddPoints a; AddPoints a; AddLaw (LawNewton fl) (Some (LS_Rho [n1; n1])) None;
   AddLaw (LawNewton fl) None (Some [n1; n1]); Couple (Some 0%nat) (Some 0%nat) (Some 0%nat) "cubic"; Couple None None None "linear";
   AddSDF (Sphere n1) p None; AddGravity (GArray v) None None true; AddDamping n1 None None false; AddContact 0 1 n1 true true n1].
Definition cA : Coupling := {| c_kernel := Cubic; c_p := 0; c_g := 0; c_c := Some 0%nat; c_s := Some 0%nat; c_skip := false |}.
Definition cB : Coupling := {| c_kernel := Linear; c_p := 1; c_g := 1; c_c := Some 1%nat; c_s := Some 1%nat; c_skip := false |}.
Definition forces_ex : list (Force T) :=
  [FGravity {| gv_on_grid := true; gv_callback := None; gv_ps := [0; 1]%nat; gv_gs := [0; 1]%nat; gv_f := 0 |};
   FDamping {| dm_on_grid := false; dm_ps := [0; 1]%nat; dm_gs := [0; 1]%nat; dm_f := 1 |};
   FContact {| gc_actor := 0; gc_receiver := 1; gc_friction := n1; gc_reaction := true; gc_rigid := true; gc_limit := n1 |}].
Lemma script_run : run script =
  {| b_points := [Soft m; Soft m]; b_sdf_states := [create_sdf_state (ps_dim p) com (ps_vel p) (ps_omega p) (ps_theta p) (ps_w p) (ps_quat p)];
     b_sdf_logics := [Sphere n1]; b_force_states := [Some (FS_Gravity v); Some (FS_Damping n1); None];
     b_law_states := [Some (LS_Rho [n1; n1]); Some (LS_Rho [nf_density_ref fl n1 n0; nf_density_ref fl n1 n0])];
     b_solver_states := []; b_grids := [gA; gB]; b_solvers := []; b_couplings := [cA; cB]; b_forces := forces_ex; b_laws := [LawNewton fl; LawNewton fl] |}.
Proof.
  unfold run, script. cbn [execs exec]. rewrite Ha. cbn [execs exec fst snd]. unfold sdf_state_for. rewrite Hp. reflexivity.
Qed.
Lemma script_aflip : exists b1, exec (run script) (SetSolver "usl_aflip" None None None []) = (b1, Ok 0%nat) /\
  b_solver_states b1 = [Some (SS_AFLIP (repeat mzero (List.length (sb_pts m)))); Some (SS_AFLIP (repeat mzero (List.length (sb_pts m))))].
Proof.
  rewrite script_run. generalize (create_sdf_state (ps_dim p) com (ps_vel p) (ps_omega p) (ps_theta p) (ps_w p) (ps_quat p)) (nf_density_ref fl n1 n0).
  intros x y. vm_compute. eexists. split; reflexivity.
Qed.
Lemma script_usl al : exists b1 s, exec (run script) (SetSolver "USL" None None None [P_alpha al]) = (b1, Ok 0%nat) /\ b_solvers b1 = [s] /\
  so_couplings s = [cA; cB] /\ so_alpha s = al.
Proof.
  rewrite script_run. generalize (create_sdf_state (ps_dim p) com (ps_vel p) (ps_omega p) (ps_theta p) (ps_w p) (ps_quat p)) (nf_density_ref fl n1 n0).
  intros x y. vm_compute. do 2 eexists. repeat split; reflexivity.
Qed.
End Script.
End Structure.

(** *** and a concrete one *)
Section Case.
Local Open Scope R_scope.
Definition grid_ex (x : R) : GridDomain R := grid_create D2 (V3 0 0 0) (V3 x x 0) (1/2) 2%Z.
Definition points_ex : CreateArgs R :=
  {| ca_dim := D2; ca_pos := Some [V3 1 1 0; V3 (3/2) 1 0]; ca_vel := None; ca_force := None; ca_mass := None; ca_vol := None; ca_vol0 := None;
     ca_L := None; ca_stress := None; ca_F := None; ca_storeF := false; ca_kw := [] |}.
Definition pose_ex (c : option (vec3 R)) : Pose R :=
  {| ps_dim := D2; ps_com := c; ps_vel := None; ps_omega := None; ps_theta := None; ps_w := None; ps_quat := None |}.
Definition fluid_ex : Newton R := {| nf_K := 1000; nf_visc := 1; nf_beta := 7; nf_reset := false |}.
Definition script_ex : list (Cmd R) := script (grid_ex 4) (grid_ex 8) points_ex fluid_ex (V3 0 (-10) 0) (pose_ex (Some (V3 1 1 0))).
Lemma points_ex_ok : exists m, mp_create points_ex = Ok m /\ List.length (sb_pts m) = 2%nat.
Proof. eexists. split; reflexivity. Qed.
Lemma rigid_ex_ok : exists m, rigid_create D2 (Some [V3 1 1 0]) None = Ok m.
Proof. eexists. reflexivity. Qed.
Ltac start := destruct points_ex_ok as [m [Hm Lm]]; unfold script_ex; rewrite (@script_run R NumT_R _ _ _ m _ _ (pose_ex (Some (V3 1 1 0))) (V3 1 1 0) Hm eq_refl); remember (sb_pts m) as pts;
  destruct pts as [| p1 [| p2 [| p3 pts]]]; try discriminate; clear Lm Hm.
Example C59_case : exists b1, exec (run script_ex) (AddDamping (1/5) None None true) = (b1, Ok 3%nat) /\ filter stateless script_ex = [] /\
  nth_error (m_forces (s_mech (state_of b1 (1/1000)))) 3 = Some (Some (FS_Damping (1/5))).
Proof. start. eexists. split; [reflexivity |]. split; [reflexivity |]. reflexivity. Qed.
Example C59_solver_case : exists b1, exec (run script_ex) (SetSolver "usl_aflip" None None None []) = (b1, Ok 0%nat) /\ b_solver_states (run script_ex) = [] /\
  m_solvers (s_mech (state_of b1 (1/1000))) = [Some (SS_AFLIP [mzero; mzero]); Some (SS_AFLIP [mzero; mzero])].
Proof.
  destruct points_ex_ok as [m [Hm Lm]].
  destruct (@script_aflip R NumT_R (grid_ex 4) (grid_ex 8) points_ex m fluid_ex (V3 0 (-10) 0) (pose_ex (Some (V3 1 1 0))) (V3 1 1 0) Hm eq_refl) as [b1 [E1 E2]].
  rewrite Lm in E2. exists b1. split; [exact E1 |]. split; [clear m Hm Lm E1 E2; start; reflexivity | exact E2].
Qed.
Example C60_case : exists b1 s, exec (run script_ex) (SetSolver "USL" None None None [P_alpha (1/2)]) = (b1, Ok 0%nat) /\ b_solvers b1 = [s] /\
  so_couplings s = [cA; cB] /\
  (forall c, In c (so_couplings s) -> exists c', nth_error (so_couplings s) (c_g c) = Some c' /\ c_g c' = c_g c) /\
  (forall c i, In c (so_couplings s) -> c_c c = Some i -> exists c', nth_error (so_couplings s) i = Some c' /\ c_c c' = Some i).
Proof.
  destruct points_ex_ok as [m [Hm Lm]].
  destruct (@script_usl R NumT_R (grid_ex 4) (grid_ex 8) points_ex m fluid_ex (V3 0 (-10) 0) (pose_ex (Some (V3 1 1 0))) (V3 1 1 0) Hm eq_refl (1/2)) as [b1 [s [E1 [E2 [E3 _]]]]].
  exists b1, s. split; [exact E1 |]. split; [exact E2 |]. split; [exact E3 |]. rewrite E3. split.
  - intros c [<- | [<- | []]]; eexists; split; reflexivity.
  - intros c i [<- | [<- | []]] Ei; inversion Ei; eexists; split; reflexivity.
Qed.
(** the grids of the refutation can differ *)
Example C60_refuted_case : grid_ex 4 <> grid_ex 8.
Proof. intros E. apply (f_equal (fun g => vx (gd_end g))) in E. cbn in E. lra. Qed.
Example C61_case : ~ known_scheme "USLAFLIP" /\
  forall c, In c (b_couplings (run script_ex)) -> exists sb, nth_error (b_points (run script_ex)) (c_p c) = Some (Soft sb).
Proof.
  split; [intros [E | E]; discriminate |]. start. cbn [b_couplings b_points]. intros c [<- | [<- | []]]; eexists; reflexivity.
Qed.
Example C62_case : domain_of (Domain (V3 0 0 0) (V3 2 4 0) [1]) = Some (V3 0 0 0, V3 2 4 0) /\ domain_of (Sphere 1) = None /\ ps_com (pose_ex None) = None.
Proof. repeat split. Qed.
Example C63_case : elastic (LawNewton fluid_ex) = false /\ exists b1, exec (run script_ex) (AddLaw (LawNewton fluid_ex) (Some (LS_Rho [3])) None) = (b1, Ok 2%nat).
Proof. split; [reflexivity |]. start. eexists. reflexivity. Qed.
Example C91_case : forall rb, exists b1, exec (with_points (run script_ex) (b_points (run script_ex) ++ [Rigid rb])) (Couple None None None "cubic") = (b1, Ok 2%nat) /\
  exists c, nth_error (b_couplings b1) 2 = Some c /\ c_c c = None /\ In 2%nat (selected b1 None).
Proof.
  intros rb. start. eexists. split; [reflexivity |]. eexists. split; [reflexivity |]. split; [reflexivity |]. cbn. auto.
Qed.
End Case.

Print Assumptions C59_position.
Print Assumptions C59_force_state_partial.
Print Assumptions C59_force_state.
Print Assumptions C59_force_state_refuted.
Print Assumptions C59_solver_state_partial.
Print Assumptions C59_solver_state_refuted.
Print Assumptions C60_resolved.
Print Assumptions C60_partial.
Print Assumptions C60_refuted.
Print Assumptions C60_law_refuted.
Print Assumptions C61_rejected.
Print Assumptions C61_unchanged_partial.
Print Assumptions C61_spellings.
Print Assumptions C61_unchanged_refuted.
Print Assumptions C62_domain_partial.
Print Assumptions C62_refuted.
Print Assumptions C62_given.
Print Assumptions C63_kept_partial.
Print Assumptions C63_accepted.
Print Assumptions C63_defaults.
Print Assumptions C63_refuted.
Print Assumptions C56_friction_refuted.
Print Assumptions C91_refuted.
Print Assumptions C91_rigid_coupling.
Print Assumptions C92_array_partial.
Print Assumptions C92_tuple_refuted.
