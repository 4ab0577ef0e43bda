(** Property theorems C114, C115: when a simulation can be run, and scripts that build one that can. *)
From Coq Require Import List Arith ZArith Lia Bool String Reals Lra.
From Verif Require Import Num NumR Linalg Arrays ModelGrid ModelShape ModelMath ModelState ModelLaws ModelForces ModelSolver ModelSDF ModelBuilder
  ResFacts SpecReady ProgressProofs ReadyProofs BuildProofs P_Builder.
Import ListNotations.

Section Structure.
Context {T : Type} {NT : NumT T}.

(** Indices, kinds and lengths decide whether a step goes through; positions, velocities, stresses and the time step do not. *)
Theorem C114_criterion : forall (S : Solver T) st, not_single S st -> (ready S st <-> exists r, solver_step S st = Ok r).
Proof. intros S st N. split; [apply ready_step|]. intros (r & E). exact (step_ready S st r E N). Qed.
(** and what can be stepped once can be stepped for ever *)
Theorem C114_run : forall (S : Solver T) st n, ready S st -> exists r, solver_steps S n st = Ok r.
Proof. exact ready_run. Qed.
(** the condition says that no single point takes part *)
Theorem C114_many : forall (S : Solver T) st, ready S st -> not_single S st.
Proof. exact ready_many. Qed.

(** One grid, then bodies (points, law, coupling), obstacles, gravity and damping in any order and number, then colliders, then the solver:
    every call is accepted, build returns one solver, and it runs for any number of steps. *)
Theorem C115_recipe_partial : forall (g : GridDomain T) ps ws scheme prm t0 k0 dt,
  (forall p, In p ps -> part_fits g p) -> existsb is_body ps = true -> (forall w, In w ws -> wl_sdf w < count is_sdf ps) -> params_fit scheme prm ->
  exists S st b rs, execs builder0 (recipe g ps ws ++ [SetSolver scheme None None None prm]) = (b, rs) /\ Forall (fun r => exists n, r = Ok n) rs /\
    build b t0 k0 dt = (OneSolver S, st) /\ forall n, exists r, solver_steps S n st = Ok r.
Proof.
  intros g ps ws scheme prm t0 k0 dt Fit Eb Hw Pf. destruct (recipe_ready g ps ws scheme prm t0 k0 dt Fit Eb Hw Pf) as (S & O & B & Rd & _). cbv zeta in *.
  destruct (execs builder0 (recipe g ps ws ++ [SetSolver scheme None None None prm])) as (b & rs). cbn [fst snd] in *.
  destruct (build b t0 k0 dt) as (x & st) eqn:Ex. cbn [fst snd] in *. subst x. exists S, st, b, rs. repeat split; auto. intros n. apply ready_run, Rd.
Qed.
(** The same calls with the collider before gravity: all are accepted, and the first step fails, whatever the body, the obstacle and the numbers. *)
Definition wall_first (g : GridDomain T) (m : Material T) s p x mu gap v : list (Cmd T) :=
  AddGrid g :: part_cmds (PBody m) ++ part_cmds (PSdf s p x) ++ [AddCollider (Some 0) None mu gap] ++ part_cmds (PGravity v) ++ [SetSolver "usl" None None None []].
Theorem C115_order_refuted : forall (g : GridDomain T) m s p x mu gap v t0 k0 dt, part_fits g (PBody m) -> part_fits g (PSdf s p x) ->
  exists S st b rs, execs builder0 (wall_first g m s p x mu gap v) = (b, rs) /\ Forall (fun r => exists n, r = Ok n) rs /\
    build b t0 k0 dt = (OneSolver S, st) /\ forall n r, solver_steps S (Datatypes.S n) st <> Ok r.
Proof.
  intros g m s p x mu gap v t0 k0 dt (sb & ls & k & Em & Ed & En & El & Lf & Ek) (y & Ey). unfold wall_first. cbn [part_cmds app execs exec]. rewrite Em. cbn [execs exec]. rewrite El. cbn [execs exec].
  unfold new_coupling. cbn [builder0 with_grids with_points with_laws with_couplings with_sdfs with_forces b_points b_grids b_laws b_law_states b_couplings b_sdf_logics b_sdf_states b_forces b_force_states b_solvers b_solver_states app List.length or_last last_idx idx nth_error rbind fst snd].
  rewrite Ek. cbn [rbind]. rewrite Ey. do 4 eexists. split; [reflexivity|]. split; [repeat constructor; eauto|]. split; [reflexivity|].
  intros n r E. cbn [solver_steps] in E. apply rbind_ok in E. destruct E as (r1 & E & _).
  destruct (step_ready _ _ _ E) as (_ & _ & _ & Rf).
  { intros c s1 [<-|[]] _ Es. cbn in Es. injection Es as <-. lia. }
  specialize (Rf _ (or_intror (or_introl eq_refl))). cbn in Rf. destruct Rf as (fs & Ef & _). discriminate.
Qed.
End Structure.

Section Case.
Local Open Scope R_scope.
Definition rock : LinearElastic R := linear_elastic 1000 (1/4) false.
Definition stone : Material R := {| mt_args := points_ex; mt_law := LawLE rock; mt_state := None; mt_dens := None; mt_kernel := "cubic" |}.
Definition water : Material R := {| mt_args := points_ex; mt_law := LawNewton fluid_ex; mt_state := Some (LS_Rho [1000; 1000]); mt_dens := None; mt_kernel := "linear" |}.
Definition parts_ex : list (Part R) := [PBody stone; PGravity (V3 0 (-10) 0); PSdf (Sphere 1) (pose_ex (Some (V3 1 1 0))) None; PBody water; PDamping (1/10)].
(** two bodies of different laws and kernels, an obstacle with a collider, gravity and damping, with the affine scheme *)
Example C115_case : (forall p, In p parts_ex -> part_fits (grid_ex 4) p) /\ existsb is_body parts_ex = true /\
  (forall w, In w [{| wl_sdf := 0; wl_mu := 1/2; wl_gap := 0 |}] -> (wl_sdf w < count is_sdf parts_ex)%nat) /\ params_fit "USL_AFLIP" [P_alpha (9/10); P_dynamic false].
Proof.
  split; [|split; [reflexivity|split]].
  - intros p [<-|[<-|[<-|[<-|[<-|[]]]]]]; cbn [part_fits]; try exact I.
    + do 3 eexists. split; [reflexivity|]. split; [reflexivity|]. split; [cbn; lia|]. split; [reflexivity|]. split; [exact I|reflexivity].
    + eexists. reflexivity.
    + do 3 eexists. split; [reflexivity|]. split; [reflexivity|]. split; [cbn; lia|]. split; [reflexivity|]. split; [cbn; eauto|reflexivity].
  - intros w [<-|[]]. cbn. lia.
  - right. split; [reflexivity|]. repeat constructor.
Qed.
(** a state that is ready, and the simulation it belongs to *)
Example C114_case : exists (S : Solver R) st, ready S st /\ not_single S st /\ List.length (so_couplings S) = 2%nat /\ List.length (so_sdfs S) = 1%nat.
Proof.
  destruct C115_case as (A & B & C & D). destruct (recipe_ready _ _ _ _ _ 0 0%Z (1/1000) A B C D) as (S & _ & E & Rd & L1 & L2). cbv zeta in *. eexists S, _. split; [exact Rd|].
  split; [exact (ready_many _ _ Rd)|]. split; [exact L1|exact L2].
Qed.
End Case.

Print Assumptions C114_criterion.
Print Assumptions C114_run.
Print Assumptions C114_many.
Print Assumptions C115_recipe_partial.
Print Assumptions C115_order_refuted.
