(** Specification of C114 and C115: what a solver and a state must satisfy for a step to go through: indices in range, states of the right kind
    and length.  No quantity (position, velocity, stress, time step) appears. *)
From Coq Require Import List Arith String.
From Verif Require Import Num Linalg Arrays ModelGrid ModelShape ModelState ModelLaws ModelForces ModelSolver ModelSDF ModelBuilder.
Import ListNotations.

Section RD.
Context {T : Type} {NT : NumT T}.

(** the state of a law belongs to the law and has an entry per point *)
Definition law_fits (l : Law T) (st : option (LawState T)) (n : nat) : Prop :=
  match l with
  | LawLE _ => True
  | LawNewton _ | LawMuI _ => exists r, st = Some (LS_Rho r) /\ List.length r = n
  | LawDP _ => exists d, st = Some (LS_DP d) /\ List.length d = n
  | LawMCC _ => exists p s e, st = Some (LS_MCC p (Some s) e) /\ List.length p = n /\ List.length s = n /\ List.length e = n
  end.
Definition on_grids (S : Solver T) (gs : list nat) : Prop := forall i, In i gs -> i < List.length (so_domains S).
(** the force names a registered state, of its own kind if it has anything to act on, and grids and bodies that exist.
    Gravity has nothing to act on if it is applied to particles; contact is never accepted. *)
Definition force_fits (S : Solver T) (st : SimState T) (f : Force T) : Prop :=
  match f with
  | FGravity g => exists fs, nth_error (m_forces (s_mech st)) (gv_f g) = Some fs /\ if gv_on_grid g then on_grids S (gv_gs g) /\ (gv_gs g <> [] -> exists v, fs = Some (FS_Gravity v)) else gv_ps g = []
  | FDamping d => exists fs, nth_error (m_forces (s_mech st)) (dm_f d) = Some fs /\ if dm_on_grid d then on_grids S (dm_gs d) /\ (dm_gs d <> [] -> exists a, fs = Some (FS_Damping a))
      else (forall p, In p (dm_ps d) -> exists s, nth_error (w_mps (s_world st)) p = Some (Soft s)) /\ (dm_ps d <> [] -> exists a, fs = Some (FS_Damping a))
  | FCollider c => match cl_sdf c with None => True | Some s => s < List.length (so_sdfs S) /\ on_grids S (cl_gs c) end
  | FContact _ => False
  end.
Definition coupling_fits (S : Solver T) (st : SimState T) (c : Coupling) : Prop :=
  exists b gd, nth_error (w_mps (s_world st)) (c_p c) = Some b /\ nth_error (so_domains S) (c_g c) = Some gd /\ body_dim b = gd_dim gd /\
    (so_sdfs S <> [] -> num_points b <> 0).
Definition active_fits (S : Solver T) (st : SimState T) (c : Coupling) : Prop :=
  exists s ci l ls, nth_error (w_mps (s_world st)) (c_p c) = Some (Soft s) /\ sb_vol0d s = false /\ List.length (sb_pts s) <> 1 /\
    c_c c = Some ci /\ nth_error (so_laws S) ci = Some (Some l) /\ nth_error (m_laws (s_mech st)) ci = Some ls /\ law_fits l ls (List.length (sb_pts s)) /\
    match so_scheme S with
    | USL => True
    | ASFLIP a => af_mls a = true /\ exists k B B', c_s c = Some k /\ nth_error (m_solvers (s_mech st)) k = Some (Some (SS_AFLIP B)) /\
        nth_error (m_solvers (s_mech st)) (c_p c) = Some (Some (SS_AFLIP B'))
    end.
Definition ready (S : Solver T) (st : SimState T) : Prop :=
  List.length (so_sdfs S) <= List.length (w_sdfs (s_world st)) /\
  (forall c, In c (so_couplings S) -> coupling_fits S st c) /\
  (forall c, In c (so_couplings S) -> c_skip c = false -> active_fits S st c) /\
  (forall f, In f (so_forces S) -> force_fits S st f).
(** no deformable body taking part has exactly one point (a single point loses an array axis, C31) *)
Definition not_single (S : Solver T) (st : SimState T) : Prop :=
  forall c s, In c (so_couplings S) -> c_skip c = false -> nth_error (w_mps (s_world st)) (c_p c) = Some (Soft s) -> List.length (sb_pts s) <> 1.

(** *** scripts for SimBuilder *)
(** a body: its points, its law with the state, and the kernel it is coupled with *)
Record Material := { mt_args : CreateArgs T; mt_law : Law T; mt_state : option (LawState T); mt_dens : option (list T); mt_kernel : string }.
Inductive Part := PBody (m : Material) | PSdf (s : Shape T) (p : Pose T) (x : option (SDFState T)) | PGravity (v : vec3 T) | PDamping (a : T).
Definition part_cmds (p : Part) : list (Cmd T) :=
  match p with
  | PBody m => [AddPoints (mt_args m); AddLaw (mt_law m) (mt_state m) (mt_dens m); Couple None None None (mt_kernel m)]
  | PSdf s p x => [AddSDF s p x]
  | PGravity v => [AddGravity (GArray v) None None true]
  | PDamping a => [AddDamping a None None true]
  end.
(** a collider: the obstacle it uses, friction and gap *)
Record Wall := { wl_sdf : nat; wl_mu : T; wl_gap : T }.
Definition recipe (g : GridDomain T) (ps : list Part) (ws : list Wall) : list (Cmd T) :=
  AddGrid g :: flat_map part_cmds ps ++ map (fun w => AddCollider (Some (wl_sdf w)) None (wl_mu w) (wl_gap w)) ws.
(** each part is accepted by the constructor it is given to, and fits the grid *)
Definition part_fits (g : GridDomain T) (p : Part) : Prop :=
  match p with
  | PBody m => exists b ls k, mp_create (mt_args m) = Ok b /\ sb_dim b = gd_dim g /\ 2 <= List.length (sb_pts b) /\
      law_state_for (mt_law m) (mt_state m) (mt_dens m) = Ok ls /\ law_fits (mt_law m) ls (List.length (sb_pts b)) /\ kernel_of (mt_kernel m) = Ok k
  | PSdf s p x => exists y, sdf_state_for s p x = Ok y
  | _ => True
  end.
Definition is_body (p : Part) : bool := match p with PBody _ => true | _ => false end.
Definition is_sdf (p : Part) : bool := match p with PSdf _ _ _ => true | _ => false end.
Definition count (f : Part -> bool) (ps : list Part) : nat := List.length (filter f ps).
(** the parameters the scheme accepts; the method without moving least squares has no update (C38) *)
Definition usl_param (p : Param T) : Prop := match p with P_alpha _ | P_sharp _ => True | _ => False end.
Definition aflip_param (p : Param T) : Prop := match p with P_sharp _ | P_mls false => False | _ => True end.
Definition params_fit (scheme : string) (ps : list (Param T)) : Prop :=
  (lower scheme = "usl"%string /\ Forall usl_param ps) \/ (lower scheme = "usl_aflip"%string /\ Forall aflip_param ps).
End RD.
Arguments Material T : clear implicits.
Arguments Part T : clear implicits.
Arguments Wall T : clear implicits.
