(** common/builder.py: SimBuilder.  Every method is a command; [exec] runs one on a builder and returns the builder
    as it is afterwards (Python keeps what was appended before an exception) and the value returned or the error. *)
From Coq Require Import List ZArith Bool String Ascii.
From Verif Require Import Num Linalg Arrays ModelGrid ModelShape ModelMath ModelState ModelLaws ModelForces ModelSolver ModelSDF.
Import ListNotations.

Section Builder.
Context {T : Type} `{NumT T}.
Local Open Scope num_scope.

(** builder.py 55-76.  SDF logics are the library's shapes. *)
Record Builder := {
  b_points : list (Body T); b_sdf_states : list (SDFState T); b_sdf_logics : list (Shape T);
  b_force_states : list (option (ForceState T)); b_law_states : list (option (LawState T));
  b_solver_states : list (option (SolverState T));
  b_grids : list (GridDomain T); b_solvers : list (Solver T); b_couplings : list Coupling;
  b_forces : list (Force T); b_laws : list (Law T)
}.
Definition builder0 : Builder :=
  {| b_points := []; b_sdf_states := []; b_sdf_logics := []; b_force_states := []; b_law_states := [];
     b_solver_states := []; b_grids := []; b_solvers := []; b_couplings := []; b_forces := []; b_laws := [] |}.

Definition with_points b l := {| b_points := l; b_sdf_states := b_sdf_states b; b_sdf_logics := b_sdf_logics b;
  b_force_states := b_force_states b; b_law_states := b_law_states b; b_solver_states := b_solver_states b;
  b_grids := b_grids b; b_solvers := b_solvers b; b_couplings := b_couplings b; b_forces := b_forces b; b_laws := b_laws b |}.
Definition with_sdfs b logics states := {| b_points := b_points b; b_sdf_states := states; b_sdf_logics := logics;
  b_force_states := b_force_states b; b_law_states := b_law_states b; b_solver_states := b_solver_states b;
  b_grids := b_grids b; b_solvers := b_solvers b; b_couplings := b_couplings b; b_forces := b_forces b; b_laws := b_laws b |}.
Definition with_forces b logics states := {| b_points := b_points b; b_sdf_states := b_sdf_states b; b_sdf_logics := b_sdf_logics b;
  b_force_states := states; b_law_states := b_law_states b; b_solver_states := b_solver_states b;
  b_grids := b_grids b; b_solvers := b_solvers b; b_couplings := b_couplings b; b_forces := logics; b_laws := b_laws b |}.
Definition with_laws b logics states := {| b_points := b_points b; b_sdf_states := b_sdf_states b; b_sdf_logics := b_sdf_logics b;
  b_force_states := b_force_states b; b_law_states := states; b_solver_states := b_solver_states b;
  b_grids := b_grids b; b_solvers := b_solvers b; b_couplings := b_couplings b; b_forces := b_forces b; b_laws := logics |}.
Definition with_solvers b logics states := {| b_points := b_points b; b_sdf_states := b_sdf_states b; b_sdf_logics := b_sdf_logics b;
  b_force_states := b_force_states b; b_law_states := b_law_states b; b_solver_states := states;
  b_grids := b_grids b; b_solvers := logics; b_couplings := b_couplings b; b_forces := b_forces b; b_laws := b_laws b |}.
Definition with_grids b l := {| b_points := b_points b; b_sdf_states := b_sdf_states b; b_sdf_logics := b_sdf_logics b;
  b_force_states := b_force_states b; b_law_states := b_law_states b; b_solver_states := b_solver_states b;
  b_grids := l; b_solvers := b_solvers b; b_couplings := b_couplings b; b_forces := b_forces b; b_laws := b_laws b |}.
Definition with_couplings b l := {| b_points := b_points b; b_sdf_states := b_sdf_states b; b_sdf_logics := b_sdf_logics b;
  b_force_states := b_force_states b; b_law_states := b_law_states b; b_solver_states := b_solver_states b;
  b_grids := b_grids b; b_solvers := b_solvers b; b_couplings := l; b_forces := b_forces b; b_laws := b_laws b |}.

(** a gravity vector as add_gravity's signature allows it: an array or a tuple (builder.py 247) *)
Inductive GravityArg := GArray (g : vec3 T) | GTuple (g : vec3 T).
(** keyword arguments of the solvers: usl.py 80-89, usl_asflip.py 127-144 *)
Inductive Param :=
| P_alpha (x : T) | P_sharp (x : T) | P_dynamic (x : bool) | P_support_min (x : T) | P_support_max (x : T)
| P_beta_min (x : T) | P_beta_max (x : T) | P_mls (x : bool) | P_cutoff (x : T) | P_cfl (x : T).
(** arguments of create_state for an SDF: the dimension is that of center_of_mass *)
Record Pose := { ps_dim : Dim; ps_com : option (vec3 T); ps_vel : option (vec3 T); ps_omega : option T; ps_theta : option T;
                 ps_w : option (vec3 T); ps_quat : option (quat T) }.
Inductive Cmd :=
| AddGrid (g : GridDomain T)                                        (* 78-103, grid_domain given *)
| AddGridNew (d : Dim) (origin end_ : vec3 T) (cell : T) (padding : Z)  (* 78-103, GridDomain.create *)
| AddPoints (a : CreateArgs T)                                      (* 105-128 *)
| AddRigid (d : Dim) (pos normals : option (list (vec3 T)))         (* 105-128, is_rigid *)
| AddLaw (l : Law T) (st : option (LawState T)) (density : option (list T))   (* 130-156 *)
| AddSDF (s : Shape T) (p : Pose) (st : option (SDFState T))        (* 158-194 *)
| Couple (p g c : option nat) (k : string)                          (* 196-243 *)
| AddGravity (g : GravityArg) (gs ps : option (list nat)) (on_grid : bool)    (* 246-275 *)
| AddDamping (alpha : T) (gs ps : option (list nat)) (on_grid : bool)         (* 277-306 *)
| SetSolver (scheme : string) (bs fs ss : option (list nat)) (params : list Param)   (* 308-379 *)
| AddContact (actor receiver : nat) (friction : T) (rigid reaction : bool) (limit : T)  (* 416-442 *)
| AddCollider (sdf : option nat) (gs : option (list nat)) (friction gap : T).  (* 444-469 *)

(** list(range(n)) when the argument is None *)
Definition or_all (o : option (list nat)) (n : nat) : list nat := match o with Some l => l | None => seq 0 n end.
(** [None] for len - 1 of an empty list, which is Python's index -1 *)
Definition last_idx (n : nat) : option nat := match n with O => None | S k => Some k end.
Definition or_last (o : option nat) (n : nat) : option nat := match o with Some i => Some i | None => last_idx n end.

(** str.lower on ASCII characters (a scheme with non-ASCII characters equals neither name) *)
Definition lower_ascii (c : ascii) : ascii :=
  let n := nat_of_ascii c in if (Nat.leb 65 n && Nat.leb n 90)%bool then ascii_of_nat (n + 32) else c.
Fixpoint lower (s : string) : string :=
  match s with EmptyString => EmptyString | String c r => String (lower_ascii c) (lower r) end.
(** mapping.py 41-45, 119: kernels[shapefunction] *)
Definition kernel_of (s : string) : res Kernel :=
  if String.eqb s "linear" then Ok Linear else if String.eqb s "quadratic" then Ok Quadratic
  else if String.eqb s "cubic" then Ok Cubic else Err KeyError.

(** usl.py 80-107.  constitutive_laws: Tuple[ConstitutiveLaw, ...] is checked, an unknown keyword is a TypeError. *)
Definition all_laws (l : list (option (Law T))) : bool := forallb (fun o => match o with Some _ => true | None => false end) l.
Definition new_usl (laws : list (option (Law T))) cs fs sdfs domains (ps : list Param) : res (Solver T) :=
  rbind (rfold (fun s p => match p with
                           | P_alpha x => Ok {| so_scheme := USL; so_alpha := x; so_domains := domains; so_couplings := cs; so_laws := laws;
                                                so_forces := fs; so_sdfs := sdfs; so_sharp := so_sharp s |}
                           | P_sharp x => Ok {| so_scheme := USL; so_alpha := so_alpha s; so_domains := domains; so_couplings := cs; so_laws := laws;
                                                so_forces := fs; so_sdfs := sdfs; so_sharp := x |}
                           | _ => Err TypeError
                           end)
           {| so_scheme := USL; so_alpha := lit 99 100; so_domains := domains; so_couplings := cs; so_laws := laws;
              so_forces := fs; so_sdfs := sdfs; so_sharp := nofZ 1000 |} ps)
    (fun s => if all_laws laws then Ok s else Err TypeError).
(** usl_asflip.py 127-177: the arguments may be None, but the fields (112-117) are checked after __init__ *)
Definition aflip0 : AFLIP T := {| af_dynamic := true; af_support_min := lit 11 10; af_support_max := lit 3 2; af_beta_min := n0;
  af_beta_max := lit 1 2; af_mls := true; af_cutoff := lit 1 (10 ^ 7); af_cfl := lit 1 2 |}.
Definition aflip_set (a : AFLIP T) (p : Param) : res (AFLIP T) :=
  match p with
  | P_alpha _ => Ok a
  | P_sharp _ => Err TypeError
  | P_dynamic x => Ok {| af_dynamic := x; af_support_min := af_support_min a; af_support_max := af_support_max a;
      af_beta_min := af_beta_min a; af_beta_max := af_beta_max a; af_mls := af_mls a; af_cutoff := af_cutoff a; af_cfl := af_cfl a |}
  | P_support_min x => Ok {| af_dynamic := af_dynamic a; af_support_min := x; af_support_max := af_support_max a;
      af_beta_min := af_beta_min a; af_beta_max := af_beta_max a; af_mls := af_mls a; af_cutoff := af_cutoff a; af_cfl := af_cfl a |}
  | P_support_max x => Ok {| af_dynamic := af_dynamic a; af_support_min := af_support_min a; af_support_max := x;
      af_beta_min := af_beta_min a; af_beta_max := af_beta_max a; af_mls := af_mls a; af_cutoff := af_cutoff a; af_cfl := af_cfl a |}
  | P_beta_min x => Ok {| af_dynamic := af_dynamic a; af_support_min := af_support_min a; af_support_max := af_support_max a;
      af_beta_min := x; af_beta_max := af_beta_max a; af_mls := af_mls a; af_cutoff := af_cutoff a; af_cfl := af_cfl a |}
  | P_beta_max x => Ok {| af_dynamic := af_dynamic a; af_support_min := af_support_min a; af_support_max := af_support_max a;
      af_beta_min := af_beta_min a; af_beta_max := x; af_mls := af_mls a; af_cutoff := af_cutoff a; af_cfl := af_cfl a |}
  | P_mls x => Ok {| af_dynamic := af_dynamic a; af_support_min := af_support_min a; af_support_max := af_support_max a;
      af_beta_min := af_beta_min a; af_beta_max := af_beta_max a; af_mls := x; af_cutoff := af_cutoff a; af_cfl := af_cfl a |}
  | P_cutoff x => Ok {| af_dynamic := af_dynamic a; af_support_min := af_support_min a; af_support_max := af_support_max a;
      af_beta_min := af_beta_min a; af_beta_max := af_beta_max a; af_mls := af_mls a; af_cutoff := x; af_cfl := af_cfl a |}
  | P_cfl x => Ok {| af_dynamic := af_dynamic a; af_support_min := af_support_min a; af_support_max := af_support_max a;
      af_beta_min := af_beta_min a; af_beta_max := af_beta_max a; af_mls := af_mls a; af_cutoff := af_cutoff a; af_cfl := x |}
  end.
Definition alpha_arg (ps : list Param) : T := fold_left (fun a p => match p with P_alpha x => x | _ => a end) ps (lit 99 100).
Definition new_aflip (laws : list (option (Law T))) cs fs sdfs domains (ps : list Param) : res (Solver T) :=
  rbind (rfold aflip_set aflip0 ps) (fun a =>
    if all_laws laws
    then Ok {| so_scheme := ASFLIP a; so_alpha := alpha_arg ps; so_domains := domains; so_couplings := cs; so_laws := laws;
               so_forces := fs; so_sdfs := sdfs; so_sharp := nofZ 1000 |}
    else Err TypeError).
(** usl.py 109-111, usl_asflip.py 123-125 *)
Definition create_solver_state (s : Solver T) (n : nat) : SolverState T :=
  match so_scheme s with USL => SS_USL | ASFLIP _ => SS_AFLIP (repeat mzero n) end.
(** 130-156: the state stored for a law *)
Definition law_state_for (l : Law T) (st : option (LawState T)) (dens : option (list T)) : res (option (LawState T)) :=
  match l, st with
  | LawNewton m, None => match dens with Some d => rbind (nf_create_from_density m d None) (fun s => Ok (Some s)) | None => Err TypeError end
  | LawMuI m, None => match dens with Some d => rbind (mi_create_from_density m d None) (fun s => Ok (Some s)) | None => Err TypeError end
  | LawLE _, _ => Ok None
  | _, None => Err ValueError
  | _, Some s => Ok (Some s)
  end.
(** 171-184 *)
Definition sdf_state_for (s : Shape T) (p : Pose) (st : option (SDFState T)) : res (SDFState T) :=
  match st with
  | Some x => Ok x
  | None =>
      rbind (match ps_com p with
             | Some c => Ok c
             | None => rbind (world_aabb s) (fun lh => Ok (vscale (lit 1 2) (vadd (fst lh) (snd lh))))
             end) (fun c => Ok (create_sdf_state (ps_dim p) c (ps_vel p) (ps_omega p) (ps_theta p) (ps_w p) (ps_quat p)))
  end.
(** 206-243.  A deformable body coupled while no law is registered gets c_idx = -1; that index (the last law of
    whatever is registered later) is outside the model, NotImplementedErr stands for it. *)
Definition new_coupling (b : Builder) (p g c : option nat) (k : string) : res Coupling :=
  rbind (match or_last p (List.length (b_points b)) with Some i => rbind (idx (b_points b) i) (fun mp => Ok (i, mp)) | None => Err IndexError end) (fun imp =>
  rbind (match or_last g (List.length (b_grids b)) with Some i => rbind (idx (b_grids b) i) (fun _ => Ok i) | None => Err IndexError end) (fun gi =>
  rbind (kernel_of k) (fun kern =>
  match snd imp with
  | Rigid _ => Ok {| c_kernel := kern; c_p := fst imp; c_g := gi; c_c := None; c_s := None; c_skip := true |}
  | Soft _ => match or_last c (List.length (b_laws b)) with
              | Some ci => Ok {| c_kernel := kern; c_p := fst imp; c_g := gi; c_c := Some ci;
                                 c_s := Some (List.length (b_couplings b)); c_skip := false |}
              | None => Err NotImplementedErr
              end
  end))).
(** 364-375: one solver state per coupling; [mk] is None when no solver was made (unbound local variable) *)
Fixpoint push_states (b : Builder) (mk : option (Solver T)) (cs : list Coupling) (acc : list (option (SolverState T)))
  : list (option (SolverState T)) * res unit :=
  match cs with
  | [] => (acc, Ok tt)
  | c :: r =>
      match nth_error (b_points b) (c_p c) with
      | None => (acc, Err IndexError)
      | Some (Rigid _) => push_states b mk r (acc ++ [None])
      | Some (Soft sb) => match mk with
                          | Some s => push_states b mk r (acc ++ [Some (create_solver_state s (List.length (sb_pts sb)))])
                          | None => (acc, Err UnboundLocalError)
                          end
      end
  end.
(** 319-379 *)
Definition set_solver (b : Builder) (scheme : string) (bs fs ss : option (list nat)) (ps : list Param) : Builder * res nat :=
  let sel := rbind (rmap (idx (b_couplings b)) (or_all bs (List.length (b_couplings b)))) (fun cs =>
             rbind (rmap (idx (b_forces b)) (or_all fs (List.length (b_forces b)))) (fun fl =>
             rbind (rmap (idx (b_sdf_logics b)) (or_all ss (List.length (b_sdf_logics b)))) (fun sl =>
             rbind (rmap (fun c => idx (b_grids b) (c_g c)) cs) (fun gl =>
             rbind (rmap (fun c => match c_c c with Some i => rbind (idx (b_laws b) i) (fun l => Ok (Some l)) | None => Ok None end) cs) (fun ll =>
             Ok (cs, fl, sl, gl, ll)))))) in
  match sel with
  | Err e => (b, Err e)
  | Ok (cs, fl, sl, gl, ll) =>
      let sdfs := map logic_of sl in
      let made := if String.eqb (lower scheme) "usl" then rbind (new_usl ll cs fl sdfs gl ps) (fun s => Ok (Some s))
                  else if String.eqb (lower scheme) "usl_aflip" then rbind (new_aflip ll cs fl sdfs gl ps) (fun s => Ok (Some s))
                  else Ok None in
      match made with
      | Err e => (b, Err e)
      | Ok mk =>
          let '(sts, r) := push_states b mk cs (b_solver_states b) in
          match r, mk with
          | Ok _, Some s => (with_solvers b (b_solvers b ++ [s]) sts, Ok (List.length (b_solvers b)))
          | Ok _, None => (with_solvers b (b_solvers b) sts, Err UnboundLocalError)
          | Err e, _ => (with_solvers b (b_solvers b) sts, Err e)
          end
      end
  end.

Definition exec (b : Builder) (c : Cmd) : Builder * res nat :=
  match c with
  | AddGrid g => (with_grids b (b_grids b ++ [g]), Ok (List.length (b_grids b)))
  | AddGridNew d o e h pad => (with_grids b (b_grids b ++ [grid_create d o e h pad]), Ok (List.length (b_grids b)))
  | AddPoints a =>
      match mp_create a with
      | Ok m => (with_points b (b_points b ++ [Soft m]), Ok (List.length (b_points b)))
      | Err e => (b, Err e)
      end
  | AddRigid d pos nrm =>
      match rigid_create d pos nrm with
      | Ok m => (with_points b (b_points b ++ [Rigid m]), Ok (List.length (b_points b)))
      | Err e => (b, Err e)
      end
  | AddLaw l st dens =>
      match law_state_for l st dens with
      | Ok s => (with_laws b (b_laws b ++ [l]) (b_law_states b ++ [s]), Ok (List.length (b_laws b)))
      | Err e => (b, Err e)
      end
  | AddSDF s p st =>
      match sdf_state_for s p st with
      | Ok x => (with_sdfs b (b_sdf_logics b ++ [s]) (b_sdf_states b ++ [x]), Ok (List.length (b_sdf_logics b)))
      | Err e => (b, Err e)
      end
  | Couple p g c k =>
      match new_coupling b p g c k with
      | Ok x => (with_couplings b (b_couplings b ++ [x]), Ok (List.length (b_couplings b)))
      | Err e => (b, Err e)
      end
  | AddGravity g gs ps on_grid =>
      let f := FGravity {| gv_on_grid := on_grid; gv_callback := None; gv_ps := or_all ps (List.length (b_points b));
                           gv_gs := or_all gs (List.length (b_grids b)); gv_f := List.length (b_forces b) |} in
      match g with
      | GArray v => (with_forces b (b_forces b ++ [f]) (b_force_states b ++ [Some (FS_Gravity v)]), Ok (List.length (b_forces b)))
      | GTuple _ => (with_forces b (b_forces b ++ [f]) (b_force_states b), Err TypeError)  (* field gravity: Float[Array, "dim"], gravity.py 40 *)
      end
  | AddDamping alpha gs ps on_grid =>
      let f := FDamping {| dm_on_grid := on_grid; dm_ps := or_all ps (List.length (b_points b));
                           dm_gs := or_all gs (List.length (b_grids b)); dm_f := List.length (b_forces b) |} in
      (with_forces b (b_forces b ++ [f]) (b_force_states b ++ [Some (FS_Damping alpha)]), Ok (List.length (b_forces b)))
  | SetSolver scheme bs fs ss ps => set_solver b scheme bs fs ss ps
  | AddContact a r mu rigid reac lim =>
      (with_forces b (b_forces b ++ [FContact {| gc_actor := a; gc_receiver := r; gc_friction := mu; gc_reaction := reac;
                                                 gc_rigid := rigid; gc_limit := lim |}])
                     (b_force_states b ++ [None]), Ok (List.length (b_forces b)))
  | AddCollider sdf gs mu gap =>
      (* the friction is not passed on: SDFCollider's default 1.0 (sdf_collider.py 81-96) *)
      (with_forces b (b_forces b ++ [FCollider {| cl_sdf := or_last sdf (List.length (b_sdf_states b));
                                                  cl_gs := or_all gs (List.length (b_grids b)); cl_gap := gap; cl_friction := n1 |}])
                     (b_force_states b), Ok (List.length (b_forces b)))
  end.

(** a script of builder calls; an exception stops it unless the caller catches it, so all prefixes are of interest *)
Fixpoint execs (b : Builder) (cs : list Cmd) : Builder * list (res nat) :=
  match cs with
  | [] => (b, [])
  | c :: r => let '(b1, x) := exec b c in let '(b2, xs) := execs b1 r in (b2, x :: xs)
  end.

(** 381-414: build returns the solver itself when there is exactly one *)
Inductive Built := OneSolver (s : Solver T) | ManySolvers (l : list (Solver T)).
Definition build (b : Builder) (time : T) (step : Z) (dt : T) : Built * SimState T :=
  (match b_solvers b with [s] => OneSolver s | l => ManySolvers l end,
   {| s_world := {| w_mps := b_points b; w_sdfs := b_sdf_states b |};
      s_mech := {| m_laws := b_law_states b; m_solvers := b_solver_states b; m_forces := b_force_states b |};
      s_time := time; s_step := step; s_dt := dt |}).
End Builder.
Arguments Builder T : clear implicits.
Arguments Cmd T : clear implicits.
Arguments Pose T : clear implicits.
Arguments Param T : clear implicits.
Arguments GravityArg T : clear implicits.
