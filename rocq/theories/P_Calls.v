(** Property theorems C127: what each builder call registers, and with which defaults. *)
From Coq Require Import List ZArith Bool String Ascii Reals Lra Lia.
From Verif Require Import Num NumR Linalg Arrays ModelGrid ModelShape ModelMath ModelState ModelLaws ModelForces ModelSolver ModelSDF ModelBuilder ResFacts
  P_Builder.
Import ListNotations.

Section Calls.
Context {T : Type} `{NumT T}.

(** the kernel a name stands for *)
Definition named (s : string) (k : Kernel) : Prop :=
  (s = "linear"%string /\ k = Linear) \/ (s = "quadratic"%string /\ k = Quadratic) \/ (s = "cubic"%string /\ k = Cubic).
(** an index argument: the one given, or the last of [n] objects *)
Definition picked (o : option nat) (n i : nat) : Prop := match o with Some j => i = j | None => S i = n end.
(** a list argument: the one given, or all of [n] objects *)
Definition listed (o : option (list nat)) (n : nat) (l : list nat) : Prop :=
  match o with Some m => l = m | None => List.length l = n /\ forall i, (i < n)%nat -> nth_error l i = Some i end.
(** a keyword argument: the last one given, or the default *)
Definition given {A} (f : Param T -> option A) (ps : list (Param T)) (d v : A) : Prop :=
  (exists l x r, ps = l ++ x :: r /\ f x = Some v /\ forall y, In y r -> f y = None) \/ ((forall y, In y ps -> f y = None) /\ v = d).

Lemma kernel_named s k : kernel_of s = Ok k <-> named s k.
Proof.
  unfold kernel_of, named. destruct (String.eqb_spec s "linear") as [->|N1]; [|destruct (String.eqb_spec s "quadratic") as [->|N2]; [|destruct (String.eqb_spec s "cubic") as [->|N3]]].
  all: split; intros E; [try (injection E as <-); auto; discriminate|]; destruct E as [(X & ->)|[(X & ->)|(X & ->)]]; try discriminate; try contradiction; reflexivity.
Qed.
Lemma last_picked o n i : or_last o n = Some i <-> picked o n i.
Proof. destruct o as [j|]; cbn; [split; congruence|]. destruct n as [|n]; cbn; split; intros E; try discriminate; congruence. Qed.
Lemma all_listed o n : listed o n (or_all o n).
Proof.
  destruct o; cbn; [reflexivity|]. split; [apply seq_length|]. intros i Hi. rewrite (nth_error_nth' _ 0%nat) by (rewrite seq_length; exact Hi). f_equal. apply seq_nth, Hi.
Qed.

(** [couple]: exactly when it is accepted, and what it then registers *)
Definition coupled (b : Builder T) (p g c : option nat) (k : string) (x : Coupling) : Prop :=
  named k (c_kernel x) /\ picked p (List.length (b_points b)) (c_p x) /\ picked g (List.length (b_grids b)) (c_g x) /\ (c_g x < List.length (b_grids b))%nat /\
  exists body, nth_error (b_points b) (c_p x) = Some body /\
    match body with
    | Rigid _ => c_c x = None /\ c_s x = None /\ c_skip x = true
    | Soft _ => (exists i, c_c x = Some i /\ picked c (List.length (b_laws b)) i) /\ c_s x = Some (List.length (b_couplings b)) /\ c_skip x = false
    end.
Lemma new_coupling_iff b p g c k x : new_coupling b p g c k = Ok x <-> coupled b p g c k x.
Proof.
  unfold new_coupling, coupled. split.
  - intros E. apply rbind_ok in E as [[i mp] [E1 E]]. apply rbind_ok in E as [gi [E2 E]]. apply rbind_ok in E as [kern [E3 E]]. apply kernel_named in E3.
    destruct (or_last p _) as [i'|] eqn:Ep; [|discriminate]. apply last_picked in Ep. apply rbind_ok in E1 as [mp' [E1 E1']]. injection E1' as <- <-. apply idx_ok in E1.
    destruct (or_last g _) as [g'|] eqn:Eg; [|discriminate]. apply last_picked in Eg. apply rbind_ok in E2 as [gd [E2 E2']]. injection E2' as <-. apply idx_ok in E2.
    assert (Lg : (g' < List.length (b_grids b))%nat) by (apply nth_error_Some; congruence). cbn [fst snd] in E. destruct mp' as [sb|rb].
    + destruct (or_last c _) as [ci|] eqn:Ec; [|discriminate]. apply last_picked in Ec. injection E as <-. cbn [c_kernel c_p c_g c_c c_s c_skip].
      repeat (split; [assumption|]). exists (Soft sb). split; [assumption|]. split; [exists ci; auto|auto].
    + injection E as <-. cbn [c_kernel c_p c_g c_c c_s c_skip]. repeat (split; [assumption|]). exists (Rigid rb). auto.
  - intros (K & P & G & Lg & body & Eb & Hb). apply kernel_named in K. apply last_picked in P, G. rewrite P, G. cbn [rbind].
    unfold idx at 1. rewrite Eb. cbn [rbind oget]. unfold idx. destruct (nth_error (b_grids b) (c_g x)) as [gd|] eqn:Eg; [|apply nth_error_None in Eg; lia].
    cbn [rbind oget]. rewrite K. cbn [rbind fst snd]. destruct x as [k0 p0 g0 c0 s0 sk]. cbn [c_kernel c_p c_g c_c c_s c_skip] in *. destruct body.
    + destruct Hb as ((i & -> & Pi) & -> & ->). apply last_picked in Pi. rewrite Pi. reflexivity.
    + destruct Hb as (-> & -> & ->). reflexivity.
Qed.
Theorem C127_couple : forall b p g c k b1 n, exec b (Couple p g c k) = (b1, Ok n) ->
  n = List.length (b_couplings b) /\ exists x, b_couplings b1 = b_couplings b ++ [x] /\ coupled b p g c k x /\
    b_points b1 = b_points b /\ b_grids b1 = b_grids b /\ b_laws b1 = b_laws b /\ b_forces b1 = b_forces b /\ b_solvers b1 = b_solvers b.
Proof.
  intros b p g c k b1 n E. cbn [exec] in E. destruct (new_coupling b p g c k) as [x|] eqn:En; [|discriminate]. injection E as <- <-. split; [reflexivity|].
  exists x. apply new_coupling_iff in En. cbn. auto 10.
Qed.
Theorem C127_couple_accepts : forall b p g c k, (exists x, coupled b p g c k x) <-> exists b1 n, exec b (Couple p g c k) = (b1, Ok n).
Proof.
  intros b p g c k. cbn [exec]. split.
  - intros [x Hx]. apply new_coupling_iff in Hx. rewrite Hx. eauto.
  - intros (b1 & n & E). destruct (new_coupling b p g c k) as [x|] eqn:En; [|discriminate]. exists x. apply new_coupling_iff, En.
Qed.

(** forces: values, lists and indices *)
Theorem C127_gravity : forall b v gs ps og b1 n, exec b (AddGravity (GArray v) gs ps og) = (b1, Ok n) -> exists f, b_forces b1 = b_forces b ++ [FGravity f] /\
  b_force_states b1 = b_force_states b ++ [Some (FS_Gravity v)] /\ gv_on_grid f = og /\ gv_callback f = None /\ gv_f f = n /\
  listed ps (List.length (b_points b)) (gv_ps f) /\ listed gs (List.length (b_grids b)) (gv_gs f).
Proof. intros b v gs ps og b1 n E. cbn [exec] in E. injection E as <- <-. eexists. cbn. repeat (split; [reflexivity|]). split; apply all_listed. Qed.
Theorem C127_damping : forall b al gs ps og b1 n, exec b (AddDamping al gs ps og) = (b1, Ok n) -> exists f, b_forces b1 = b_forces b ++ [FDamping f] /\
  b_force_states b1 = b_force_states b ++ [Some (FS_Damping al)] /\ dm_on_grid f = og /\ dm_f f = n /\
  listed ps (List.length (b_points b)) (dm_ps f) /\ listed gs (List.length (b_grids b)) (dm_gs f).
Proof. intros b al gs ps og b1 n E. cbn [exec] in E. injection E as <- <-. eexists. cbn. repeat (split; [reflexivity|]). split; apply all_listed. Qed.
Theorem C127_collider : forall b sdf gs mu gap b1 n, exec b (AddCollider sdf gs mu gap) = (b1, Ok n) -> exists f, b_forces b1 = b_forces b ++ [FCollider f] /\
  (forall i, cl_sdf f = Some i <-> picked sdf (List.length (b_sdf_states b)) i) /\ listed gs (List.length (b_grids b)) (cl_gs f) /\ cl_gap f = gap /\ cl_friction f = n1.
Proof.
  intros b sdf gs mu gap b1 n E. cbn [exec] in E. injection E as <- <-. eexists. cbn. split; [reflexivity|]. split; [intros i; apply last_picked|]. split; [apply all_listed|split; reflexivity].
Qed.
Theorem C127_contact : forall b a r mu rigid reac lim b1 n, exec b (AddContact a r mu rigid reac lim) = (b1, Ok n) -> exists f, b_forces b1 = b_forces b ++ [FContact f] /\
  gc_actor f = a /\ gc_receiver f = r /\ gc_friction f = mu /\ gc_rigid f = rigid /\ gc_reaction f = reac /\ gc_limit f = lim.
Proof. intros b a r mu rigid reac lim b1 n E. cbn [exec] in E. injection E as <- <-. eexists. cbn. repeat split. Qed.

(** solver keywords *)
Definition kw_alpha (p : Param T) : option T := match p with P_alpha x => Some x | _ => None end.
Definition kw_sharp (p : Param T) : option T := match p with P_sharp x => Some x | _ => None end.
Definition kw_dynamic (p : Param T) : option bool := match p with P_dynamic x => Some x | _ => None end.
Definition kw_support_min (p : Param T) : option T := match p with P_support_min x => Some x | _ => None end.
Definition kw_support_max (p : Param T) : option T := match p with P_support_max x => Some x | _ => None end.
Definition kw_beta_min (p : Param T) : option T := match p with P_beta_min x => Some x | _ => None end.
Definition kw_beta_max (p : Param T) : option T := match p with P_beta_max x => Some x | _ => None end.
Definition kw_mls (p : Param T) : option bool := match p with P_mls x => Some x | _ => None end.
Definition kw_cutoff (p : Param T) : option T := match p with P_cutoff x => Some x | _ => None end.
Definition kw_cfl (p : Param T) : option T := match p with P_cfl x => Some x | _ => None end.
Definition usl_key (p : Param T) : Prop := kw_alpha p <> None \/ kw_sharp p <> None.
Definition aflip_key (p : Param T) : Prop := kw_sharp p = None.

Lemma given_snoc {A} (f : Param T -> option A) l x d v v' : given f l d v -> match f x with Some y => v' = y | None => v' = v end -> given f (l ++ [x]) d v'.
Proof.
  intros G E. destruct (f x) as [y|] eqn:F.
  - subst v'. left. exists l, x, []. split; [reflexivity|]. split; [exact F|]. intros z [].
  - subst v'. destruct G as [(l1 & z & r & -> & Fz & N)|(N & ->)].
    + left. exists l1, z, (r ++ [x]). split; [now rewrite <- app_assoc|]. split; [exact Fz|]. intros y Hy. apply in_app_or in Hy. destruct Hy as [Hy|[<-|[]]]; auto.
    + right. split; [|reflexivity]. intros y Hy. apply in_app_or in Hy. destruct Hy as [Hy|[<-|[]]]; auto.
Qed.
Lemma given_nil {A} (f : Param T -> option A) d : given f [] d d.
Proof. right. split; [intros y []|reflexivity]. Qed.
Lemma alpha_given ps : given kw_alpha ps (lit 99 100) (alpha_arg ps).
Proof.
  induction ps as [|x ps IH] using rev_ind; [apply given_nil|]. unfold alpha_arg in *. rewrite fold_left_app. cbn [fold_left]. eapply given_snoc; [exact IH|]. destruct x; reflexivity.
Qed.
Definition usl_args (ps : list (Param T)) (s : Solver T) : Prop :=
  so_scheme s = USL /\ given kw_alpha ps (lit 99 100) (so_alpha s) /\ given kw_sharp ps (nofZ 1000) (so_sharp s) /\ forall p, In p ps -> usl_key p.
Definition aflip_args (ps : list (Param T)) (s : Solver T) : Prop :=
  given kw_alpha ps (lit 99 100) (so_alpha s) /\ exists a, so_scheme s = ASFLIP a /\
    given kw_dynamic ps true (af_dynamic a) /\ given kw_support_min ps (lit 11 10) (af_support_min a) /\ given kw_support_max ps (lit 3 2) (af_support_max a) /\
    given kw_beta_min ps n0 (af_beta_min a) /\ given kw_beta_max ps (lit 1 2) (af_beta_max a) /\ given kw_mls ps true (af_mls a) /\
    given kw_cutoff ps (lit 1 (10 ^ 7)) (af_cutoff a) /\ given kw_cfl ps (lit 1 2) (af_cfl a) /\ forall p, In p ps -> aflip_key p.
Lemma new_usl_args ll cs fl sdfs gl ps s : new_usl ll cs fl sdfs gl ps = Ok s -> usl_args ps s /\ so_forces s = fl /\ so_sdfs s = sdfs.
Proof.
  unfold new_usl. intros E. apply rbind_ok in E as [s' [E E2]]. destruct (all_laws ll); [|discriminate]. injection E2 as ->.
  revert s E. induction ps as [|x ps IH] using rev_ind; intros s E.
  - injection E as <-. unfold usl_args. cbn. split; [|split; reflexivity]. split; [reflexivity|]. split; [apply given_nil|]. split; [apply given_nil|]. intros p [].
  - rewrite rfold_app in E. apply rbind_ok in E as [s0 [E0 E]]. destruct (IH s0 E0) as ((S1 & S2 & S3 & S4) & S5 & S6). cbn [rfold rbind] in E.
    assert (Ky : usl_key x -> forall p, In p (ps ++ [x]) -> usl_key p) by (intros K p Hp; apply in_app_or in Hp; destruct Hp as [Hp|[<-|[]]]; auto).
    destruct x; cbn in E; try discriminate; injection E as <-; unfold usl_args; cbn; (split; [|split; reflexivity]);
      (split; [reflexivity|]); (split; [eapply given_snoc; [exact S2|reflexivity]|]); (split; [eapply given_snoc; [exact S3|reflexivity]|]);
      apply Ky; unfold usl_key; cbn; [left|right]; discriminate.
Qed.
Lemma new_aflip_args ll cs fl sdfs gl ps s : new_aflip ll cs fl sdfs gl ps = Ok s -> aflip_args ps s /\ so_forces s = fl /\ so_sdfs s = sdfs.
Proof.
  unfold new_aflip. intros E. apply rbind_ok in E as [a [E E2]]. destruct (all_laws ll); [|discriminate]. injection E2 as <-. cbn [so_forces so_sdfs].
  split; [|split; reflexivity]. unfold aflip_args. cbn [so_alpha so_scheme]. split; [apply alpha_given|]. exists a. split; [reflexivity|].
  revert a E. induction ps as [|x ps IH] using rev_ind; intros a E.
  - injection E as <-. cbn. repeat (split; [apply given_nil|]). intros p [].
  - rewrite rfold_app in E. apply rbind_ok in E as [a0 [E0 E]]. destruct (IH a0 E0) as (G1 & G2 & G3 & G4 & G5 & G6 & G7 & G8 & G9). cbn [rfold rbind] in E.
    assert (Ky : aflip_key x -> forall p, In p (ps ++ [x]) -> aflip_key p) by (intros K p Hp; apply in_app_or in Hp; destruct Hp as [Hp|[<-|[]]]; auto).
    destruct x; cbn in E; try discriminate; injection E as <-; cbn;
      (split; [eapply given_snoc; [exact G1|reflexivity]|]); (split; [eapply given_snoc; [exact G2|reflexivity]|]); (split; [eapply given_snoc; [exact G3|reflexivity]|]);
      (split; [eapply given_snoc; [exact G4|reflexivity]|]); (split; [eapply given_snoc; [exact G5|reflexivity]|]); (split; [eapply given_snoc; [exact G6|reflexivity]|]);
      (split; [eapply given_snoc; [exact G7|reflexivity]|]); (split; [eapply given_snoc; [exact G8|reflexivity]|]); apply Ky; reflexivity.
Qed.
(** an accepted [set_solver] makes the solver of the named scheme with the given keywords, forces and obstacles *)
Theorem C127_solver : forall b scheme bs fs ss ps b1 n, exec b (SetSolver scheme bs fs ss ps) = (b1, Ok n) ->
  n = List.length (b_solvers b) /\ exists s fl sl, b_solvers b1 = b_solvers b ++ [s] /\
    ((lower scheme = "usl"%string /\ usl_args ps s) \/ (lower scheme = "usl_aflip"%string /\ aflip_args ps s)) /\
    listed fs (List.length (b_forces b)) fl /\ Forall2 (fun i f => nth_error (b_forces b) i = Some f) fl (so_forces s) /\
    listed ss (List.length (b_sdf_logics b)) sl /\ Forall2 (fun i x => exists l, nth_error (b_sdf_logics b) i = Some l /\ x = logic_of l) sl (so_sdfs s).
Proof.
  intros b scheme bs fs ss ps b1 n E. cbn [exec] in E. unfold set_solver in E.
  destruct (rbind _ _) as [[[[[cs fl] sl] gl] ll] | e] eqn:Es; [|inversion E].
  apply rbind_ok in Es as [cs' [E1 Es]]. apply rbind_ok in Es as [fl' [E2 Es]]. apply rbind_ok in Es as [sl' [E3 Es]].
  apply rbind_ok in Es as [gl' [E4 Es]]. apply rbind_ok in Es as [ll' [E5 Es]]. inversion Es; subst cs' fl' sl' gl' ll'. clear Es.
  apply rmap_ok in E2, E3.
  destruct (if String.eqb (lower scheme) "usl" then _ else _) as [mk | e] eqn:Em; [|inversion E].
  destruct (push_states b mk cs (b_solver_states b)) as [sts r] eqn:Ep. destruct r as [[] | e], mk as [s |]; inversion E; subst b1 n.
  split; [reflexivity|]. exists s, (or_all fs (List.length (b_forces b))), (or_all ss (List.length (b_sdf_logics b))). split; [reflexivity|].
  assert (Hs : ((lower scheme = "usl"%string /\ usl_args ps s) \/ (lower scheme = "usl_aflip"%string /\ aflip_args ps s)) /\ so_forces s = fl /\ so_sdfs s = map logic_of sl).
  { destruct (String.eqb_spec (lower scheme) "usl") as [El|_].
    - apply rbind_ok in Em as [s' [Em Em']]. inversion Em'; subst s'. apply new_usl_args in Em. destruct Em as (A & F & S). auto.
    - destruct (String.eqb_spec (lower scheme) "usl_aflip") as [El|_]; [|discriminate].
      apply rbind_ok in Em as [s' [Em Em']]. inversion Em'; subst s'. apply new_aflip_args in Em. destruct Em as (A & F & S). auto. }
  destruct Hs as (A & -> & ->). split; [exact A|]. split; [apply all_listed|]. split; [eapply Forall2_weaken; [|exact E2]; intros; now apply idx_ok|].
  split; [apply all_listed|]. clear -E3. induction E3 as [|i x l m Hi F IH]; cbn; constructor; [|exact IH]. apply idx_ok in Hi. eauto.
Qed.
(** a keyword the solver does not have is refused and nothing is registered *)
Theorem C127_keyword : forall b scheme bs fs ss ps p, In p ps ->
  ((lower scheme = "usl"%string /\ ~ usl_key p) \/ (lower scheme = "usl_aflip"%string /\ ~ aflip_key p)) ->
  exists e, exec b (SetSolver scheme bs fs ss ps) = (b, Err e).
Proof.
  intros b scheme bs fs ss ps p Hp Hk. cbn [exec]. unfold set_solver.
  destruct (rbind _ _) as [[[[[cs fl] sl] gl] ll] | e] eqn:Es; [|eauto].
  destruct (if String.eqb (lower scheme) "usl" then _ else _) as [mk | e] eqn:Em; [|eauto]. exfalso.
  destruct Hk as [(El & Nk)|(El & Nk)]; rewrite El in Em; cbn in Em; apply rbind_ok in Em as [s [Em _]].
  - apply new_usl_args in Em. destruct Em as ((_ & _ & _ & K) & _). exact (Nk (K p Hp)).
  - apply new_aflip_args in Em. destruct Em as ((_ & a & _ & _ & _ & _ & _ & _ & _ & _ & _ & K) & _). exact (Nk (K p Hp)).
Qed.
(** [build] keeps the time, step and dt it is given *)
Theorem C127_build : forall (b : Builder T) t k dt, let st := snd (build b t k dt) in
  s_time st = t /\ s_step st = k /\ s_dt st = dt /\ w_mps (s_world st) = b_points b /\ w_sdfs (s_world st) = b_sdf_states b /\
  m_laws (s_mech st) = b_law_states b /\ m_solvers (s_mech st) = b_solver_states b /\ m_forces (s_mech st) = b_force_states b /\
  (forall s, fst (build b t k dt) = OneSolver s <-> b_solvers b = [s]).
Proof.
  intros b t k dt. cbn. repeat (split; [reflexivity|]). intros s. destruct (b_solvers b) as [|x [|y l]]; split; intros E; try discriminate; congruence.
Qed.
End Calls.

Local Open Scope R_scope.
(** the friction handed to [add_sdf_collider] is not the collider's: a call asking for a frictionless obstacle makes one with friction 1 *)
Theorem C127_friction_refuted : forall (b : Builder R) sdf gs gap b1 n, exec b (AddCollider sdf gs 0 gap) = (b1, Ok n) ->
  exists f, b_forces b1 = b_forces b ++ [FCollider f] /\ (cl_friction f <> 0)%R.
Proof.
  intros b sdf gs gap b1 n E. apply C127_collider in E. destruct E as (f & E & _ & _ & _ & F). exists f. split; [exact E|]. rewrite F. exact R1_neq_R0.
Qed.
Ltac start := destruct points_ex_ok as [m [Hm Lm]]; unfold script_ex; rewrite (@script_run R NumT_R _ _ _ m _ _ (pose_ex (Some (V3 1 1 0))) (V3 1 1 0) Hm eq_refl); remember (sb_pts m) as pts;
  destruct pts as [| p1 [| p2 [| p3 pts]]]; try discriminate; clear Lm Hm.
(** a script of two bodies, two grids and two laws: every call below is accepted with its defaults *)
Example C127_case : let b := run script_ex in
  coupled b None (Some 0%nat) None "quadratic" {| c_p := 1; c_g := 0; c_c := Some 1%nat; c_s := Some 2%nat; c_kernel := Quadratic; c_skip := false |} /\
  (exists b1, exec b (Couple None (Some 0%nat) None "quadratic") = (b1, Ok 2%nat)) /\
  (forall x, ~ coupled b None None None "Quadratic" x) /\
  (exists b1, exec b (AddCollider None None 0 (1/10)) = (b1, Ok 3%nat)) /\
  (exists b1, exec b (SetSolver "USL" None None None [P_alpha (1/2)]) = (b1, Ok 0%nat)) /\
  given kw_alpha [P_alpha 1; P_sharp 3; P_alpha (1/2)] (lit 99 100) (1/2) /\
  (exists e, exec b (SetSolver "USL_AFLIP" None None None [P_alpha (1/2); P_sharp 3]) = (b, Err e)).
Proof.
  intros b. split; [|split; [|split; [|split; [|split; [|split]]]]].
  - unfold b. clear b. start. unfold coupled. cbn [c_kernel c_p c_g c_c c_s c_skip b_points b_grids b_laws b_couplings List.length picked]. split; [right; left; auto|].
    split; [reflexivity|]. split; [reflexivity|]. split; [lia|]. eexists. split; [reflexivity|]. cbn. split; [exists 1%nat; auto|auto].
  - unfold b. clear b. start. eexists. reflexivity.
  - intros x ([(E & _)|[(E & _)|(E & _)]] & _); discriminate.
  - unfold b. clear b. start. eexists. reflexivity.
  - destruct points_ex_ok as [m [Hm Lm]].
    destruct (@script_usl R NumT_R (grid_ex 4) (grid_ex 8) points_ex m fluid_ex (V3 0 (-10) 0) (pose_ex (Some (V3 1 1 0))) (V3 1 1 0) Hm eq_refl (1/2)) as [b1 [s [E1 _]]].
    exists b1. exact E1.
  - left. exists [P_alpha 1; P_sharp 3], (P_alpha (1/2)), []. split; [reflexivity|]. split; [reflexivity|]. intros y [].
  - apply C127_keyword with (p := P_sharp 3); [right; left; reflexivity|]. right. split; [reflexivity|]. discriminate.
Qed.
Print Assumptions C127_friction_refuted.
Print Assumptions C127_couple.
Print Assumptions C127_couple_accepts.
Print Assumptions C127_gravity.
Print Assumptions C127_damping.
Print Assumptions C127_collider.
Print Assumptions C127_contact.
Print Assumptions C127_solver.
Print Assumptions C127_keyword.
Print Assumptions C127_build.
