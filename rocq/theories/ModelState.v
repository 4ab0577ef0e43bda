(** Simulation state: material points, world, mechanics, caches. *)
From Coq Require Import List ZArith Bool.
From Verif Require Import Num Linalg Arrays ModelGrid ModelShape ModelMath.
Import ListNotations.

Section State.
Context {T : Type} `{Num T}.
Local Open Scope num_scope.

(** material_points.py 117-151: one point of MaterialPointState (all stacks have the same leading
    dimension, which the jaxtyping annotations enforce at construction).
    [pt_Fst] is meaningful only when the body stores F (F_store_stack is not None). *)
Record Particle := {
  pt_pos : vec3 T; pt_vel : vec3 T; pt_mass : T; pt_force : vec3 T;
  pt_vol : T; pt_vol0 : T;
  pt_L : mat3 T; pt_stress : mat3 T; pt_F : mat3 T; pt_Fst : mat3 T
}.
(** material_points.py 71-84: one point of RigidMaterialPointState *)
Record RigidPoint := { rp_pos : vec3 T; rp_mass : T; rp_vel : vec3 T; rp_normal : vec3 T }.

(** A body. [sb_vol0d] records that volume_stack has lost its axis (usl.py 717, usl_asflip.py 510-512:
    [.squeeze()] of an (N,1) array has rank 0 when N = 1). *)
Record SoftBody := { sb_dim : Dim; sb_pts : list Particle; sb_storeF : bool; sb_vol0d : bool }.
Record RigidBody := { rb_dim : Dim; rb_pts : list RigidPoint }.
Inductive Body := Soft (b : SoftBody) | Rigid (b : RigidBody).

(** material_points.py 60-68 *)
Definition body_dim (b : Body) : Dim := match b with Soft s => sb_dim s | Rigid r => rb_dim r end.
Definition body_positions (b : Body) : list (vec3 T) :=
  match b with Soft s => map pt_pos (sb_pts s) | Rigid r => map rp_pos (rb_pts r) end.
Definition num_points (b : Body) : nat := length (body_positions b).

(** sdfobject.py 34-49.  In 2-D rotation and angular_velocity are scalars, in 3-D a quaternion and a vector. *)
Record SDFState := {
  sd_dim : Dim; sd_com : vec3 T; sd_vel : vec3 T;
  sd_theta : T; sd_omega : T;          (* 2-D *)
  sd_quat : quat T; sd_w : vec3 T      (* 3-D *)
}.
(** The interface the solvers use of an SDF object (sdfobject.py 111-188): any object of this interface,
    library or user-defined. *)
Record SDFLogic := {
  sl_dist : SDFState -> vec3 T -> T;                 (* signed_distance *)
  sl_normal : SDFState -> vec3 T -> vec3 T;          (* get_normal *)
  sl_velocity : SDFState -> vec3 T -> T -> vec3 T;   (* get_velocity *)
  sl_friction : SDFState -> vec3 T -> T;             (* get_surface_friction *)
  sl_update : SDFState -> T -> SDFState              (* update_kinematics *)
}.

(** Constitutive law states; Newton and mu(I) states both have the one attribute density_ref_stack
    (newtonfluid.py 24-26, mu_i_rheology.py 21-26), linear elasticity linearelastic.py 34-44,
    Drucker-Prager druckerprager.py 26-29, modified Cam-Clay modifiedcamclay.py 113-119. *)
Record DPPoint := { dp_eps_e : mat3 T; dp_acc : T; dp_p0 : T }.
Inductive LawState :=
| LS_LE (stress_ref : list (mat3 T))
| LS_Rho (density_ref : list T)
| LS_DP (pts : list DPPoint)
| LS_MCC (p_c : list T) (stress_ref : option (list (mat3 T))) (eps_e : list (mat3 T)).

(** Solver states: USLSolverState has no field, USLAFLIPState has Bp_stack (usl_asflip.py 60-68) *)
Inductive SolverState := SS_USL | SS_AFLIP (Bp : list (mat3 T)).
(** Force states: gravity.py 37-40, damping.py 25-27 *)
Inductive ForceState := FS_Gravity (g : vec3 T) | FS_Damping (alpha : T).

(** simstate.py 41-54, 57-74, 76-97.  (SDF states are never None in states made by SimBuilder.) *)
Record World := { w_mps : list Body; w_sdfs : list SDFState }.
Record Mechanics := {
  m_laws : list (option LawState); m_solvers : list (option SolverState); m_forces : list (option ForceState)
}.
Record SimState := { s_world : World; s_mech : Mechanics; s_time : T; s_step : Z; s_dt : T }.

(** simstate.py 101-116: geometry of one particle or node relative to one SDF *)
Record Geom := { gm_dist : T; gm_normal : vec3 T; gm_vel : vec3 T; gm_friction : T }.
(** simstate.py 119-130.  interactions is a dict, later insertions overwrite.
    node_geoms and mp_geoms are dicts over (g_idx, s_idx), (p_idx, s_idx): nested lists. *)
Record SimCache := {
  sc_inter : list ((nat * nat) * list (Interaction T));
  sc_grids : list (Grid T);
  sc_mp_geoms : list (list (list Geom));
  sc_node_geoms : list (list (list Geom))
}.

(** coupling.py 24-51.  The mapping's dimension is that of the grid (builder.py 216-222).
    Indices are natural numbers (negative Python indices are not modelled). *)
Record Coupling := {
  c_kernel : Kernel; c_p : nat; c_g : nat; c_c : option nat; c_s : option nat; c_skip : bool
}.
End State.
Arguments Particle T : clear implicits.
Arguments RigidPoint T : clear implicits.
Arguments SoftBody T : clear implicits.
Arguments RigidBody T : clear implicits.
Arguments Body T : clear implicits.
Arguments SDFState T : clear implicits.
Arguments SDFLogic T : clear implicits.
Arguments DPPoint T : clear implicits.
Arguments LawState T : clear implicits.
Arguments SolverState T : clear implicits.
Arguments ForceState T : clear implicits.
Arguments World T : clear implicits.
Arguments Mechanics T : clear implicits.
Arguments SimState T : clear implicits.
Arguments Geom T : clear implicits.
Arguments SimCache T : clear implicits.

(** Python list/tuple indexing with a natural index *)
Definition idx {A} (l : list A) (i : nat) : res A := oget (nth_error l i) IndexError.
(** indexing with an optional index: [l[None]] is a TypeError *)
Definition idx_opt {A} (l : list A) (i : option nat) : res A :=
  match i with Some k => idx l k | None => Err TypeError end.
(** dict with keys (p_idx, g_idx): assignment and lookup *)
Definition key_eqb (a b : nat * nat) : bool := (Nat.eqb (fst a) (fst b) && Nat.eqb (snd a) (snd b))%bool.
Fixpoint dict_set {A} (k : nat * nat) (v : A) (d : list ((nat * nat) * A)) : list ((nat * nat) * A) :=
  match d with
  | [] => [(k, v)]
  | (k', v') :: r => if key_eqb k k' then (k, v) :: r else (k', v') :: dict_set k v r
  end.
Fixpoint dict_get {A} (k : nat * nat) (d : list ((nat * nat) * A)) : res A :=
  match d with
  | [] => Err KeyError
  | (k', v') :: r => if key_eqb k k' then Ok v' else dict_get k r
  end.

Section Create.
Context {T : Type} `{Num T}.
Local Open Scope num_scope.

(** material_points.py 232-260: observables of one point *)
Definition density (p : Particle T) : T := pt_mass p / (pt_vol p + lit 1 (10 ^ 16)).
Definition density_ref (p : Particle T) : T := pt_mass p / (pt_vol0 p + lit 1 (10 ^ 16)).
Definition pt_pressure (p : Particle T) : T := get_pressure (pt_stress p).
Definition KE (p : Particle T) : T := lit 1 2 * pt_mass p * vnorm2 (pt_vel p).

(** material_points.py 153-230: MaterialPointState.create.
    Keyword arguments: stacks are optional lists; kwargs is the dictionary of the remaining keywords.
    Default position_stack (one 3-D point at the origin) included.
    Supplied stacks are read with [nth]; their lengths are checked by the jaxtyping annotations (TypeError). *)
Inductive KW := KW_cell_size (x : T) | KW_ppc (x : T) | KW_points_per_cell (x : T) | KW_density (x : list T).
Definition kw_find {A} (f : KW -> option A) (d : A) (kw : list KW) : A :=
  match find (fun k => match f k with Some _ => true | None => false end) kw with
  | Some k => match f k with Some a => a | None => d end
  | None => d
  end.
Record CreateArgs := {
  ca_dim : Dim;
  ca_pos : option (list (vec3 T)); ca_vel : option (list (vec3 T)); ca_force : option (list (vec3 T));
  ca_mass : option (list T); ca_vol : option (list T); ca_vol0 : option (list T);
  ca_L : option (list (mat3 T)); ca_stress : option (list (mat3 T)); ca_F : option (list (mat3 T));
  ca_storeF : bool; ca_kw : list KW
}.
Definition len_ok {A} (n : nat) (o : option (list A)) : bool :=
  match o with Some l => Nat.eqb (length l) n | None => true end.
Definition pick {A} (o : option (list A)) (d : A) (i : nat) : A :=
  match o with Some l => nth i l d | None => d end.
(** material_points.py 201-205 *)
Definition default_volume (kw : list KW) : T :=
  let cell := kw_find (fun k => match k with KW_cell_size x => Some x | _ => None end) n1 kw in
  let ppc := kw_find (fun k => match k with KW_ppc x => Some x | _ => None end) (nofZ 4) kw in
  (cell * cell) / ppc.
Definition mp_create (a : CreateArgs) : res (SoftBody T) :=
  let dim := match ca_pos a with Some _ => ca_dim a | None => D3 end in
  let pos := match ca_pos a with Some l => l | None => [vzero] end in
  let n := length pos in
  let dens_kw := kw_find (fun k => match k with KW_density l => Some (Some l) | _ => None end) None (ca_kw a) in
  if (len_ok n (ca_vel a) && len_ok n (ca_force a) && len_ok n (ca_mass a) && len_ok n (ca_vol a) &&
      len_ok n (ca_vol0 a) && len_ok n (ca_L a) && len_ok n (ca_stress a) && len_ok n (ca_F a) &&
      len_ok n dens_kw)%bool then
    let mk i :=
      let vol := match ca_vol a with Some l => nth i l n0 | None => default_volume (ca_kw a) end in
      let vol0 := match ca_vol0 a with Some l => nth i l n0 | None => vol end in
      let F := pick (ca_F a) meye i in
      {| pt_pos := nth i pos vzero;
         pt_vel := pick (ca_vel a) vzero i;
         pt_mass := match ca_mass a with
                    | Some l => nth i l n0
                    | None => vol * match dens_kw with Some l => nth i l n0 | None => nofZ 1000 end
                    end;
         pt_force := pick (ca_force a) vzero i;
         pt_vol := vol; pt_vol0 := vol0;
         pt_L := pick (ca_L a) mzero i; pt_stress := pick (ca_stress a) mzero i;
         pt_F := F; pt_Fst := F |} in
    Ok {| sb_dim := dim; sb_pts := map mk (seq 0 n); sb_storeF := ca_storeF a; sb_vol0d := false |}
  else Err TypeError.

(** material_points.py 86-114: RigidMaterialPointState.create *)
Definition rigid_create (d : Dim) (pos : option (list (vec3 T))) (normals : option (list (vec3 T))) : res (RigidBody T) :=
  let dim := match pos with Some _ => d | None => D3 end in
  let ps := match pos with Some l => l | None => [vzero] end in
  if len_ok (length ps) normals then
    Ok {| rb_dim := dim;
          rb_pts := map (fun i => {| rp_pos := nth i ps vzero; rp_mass := n1; rp_vel := vzero;
                                     rp_normal := pick normals vzero i |}) (seq 0 (length ps)) |}
  else Err TypeError.
End Create.
Arguments KW T : clear implicits.
Arguments CreateArgs T : clear implicits.
