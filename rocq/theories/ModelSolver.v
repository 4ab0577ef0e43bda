(** solvers/usl.py and solvers/usl_asflip.py *)
From Coq Require Import List ZArith Bool.
From Verif Require Import Num Linalg Arrays ModelGrid ModelShape ModelMath ModelState ModelLaws ModelForces.
Import ListNotations.

Section Solver.
Context {T : Type} `{NumT T}.
Local Open Scope num_scope.

(** usl_asflip.py 93-163 *)
Record AFLIP := {
  af_dynamic : bool; af_support_min : T; af_support_max : T;
  af_beta_min : T; af_beta_max : T; af_mls : bool; af_cutoff : T; af_cfl : T
}.
Inductive Scheme := USL | ASFLIP (a : AFLIP).
(** usl.py 67-107.  active_p_ids and active_g_ids are never read and left out. *)
Record Solver := {
  so_scheme : Scheme; so_alpha : T; so_domains : list (GridDomain T); so_couplings : list Coupling;
  so_laws : list (option (Law T)); so_forces : list (Force T); so_sdfs : list (SDFLogic T); so_sharp : T
}.

Definition pt0 : Particle T :=
  {| pt_pos := vzero; pt_vel := vzero; pt_mass := n0; pt_force := vzero; pt_vol := n0; pt_vol0 := n0;
     pt_L := mzero; pt_stress := mzero; pt_F := mzero; pt_Fst := mzero |}.

(** usl.py 191-207.  apply_kinematics is the identity for the library's forces (force.py 41-53). *)
Definition kinematic_update (S : Solver) (w : World T) (dt : T) : res (World T) :=
  rbind (rmap (fun i_s => rbind (idx (w_sdfs w) (fst i_s)) (fun st => Ok (sl_update (snd i_s) st dt))) (enum (so_sdfs S)))
    (fun l => Ok {| w_mps := w_mps w; w_sdfs := l |}).

(** usl.py 209-230; the set of p_idx is walked in coupling order (repetition is harmless) *)
Definition reset_point (p : Particle T) : Particle T :=
  {| pt_pos := pt_pos p; pt_vel := pt_vel p; pt_mass := pt_mass p; pt_force := vzero;
     pt_vol := pt_vol p; pt_vol0 := pt_vol0 p; pt_L := mzero; pt_stress := pt_stress p; pt_F := pt_F p; pt_Fst := pt_Fst p |}.
Definition reset_body (b : Body T) : Body T :=
  match b with Soft s => Soft (set_pts s (map reset_point (sb_pts s))) | Rigid r => Rigid r end.
Definition reset_material_points (cs : list Coupling) (w : World T) : res (World T) :=
  rbind (rfold (fun l c => upd_idx l (c_p c) (fun b => Ok (reset_body b))) (w_mps w) cs) (fun l => Ok (set_mps w l)).

(** usl.py 232-243.  position (dim) minus origin (dim of the grid): different dimensions do not broadcast. *)
Definition compute_connectivity (S : Solver) (w : World T) : res (list ((nat * nat) * list (Interaction T))) :=
  rfold (fun d c =>
    rbind (idx (w_mps w) (c_p c)) (fun b => rbind (idx (so_domains S) (c_g c)) (fun g =>
      if dim_eqb (body_dim b) (gd_dim g)
      then Ok (dict_set (c_p c, c_g c) (compute_on (c_kernel c) g (body_positions b)) d)
      else Err TypeError))) [] (so_couplings S).

Definition sigmoid (x : T) : T := n1 / (n1 + nexp (- x)).
(** usl.py 258-268 and 289-305: geometry of one position; nodes subtract one cell size from the distance *)
Definition geom_at (sub : T) (dt : T) (ls : SDFLogic T * SDFState T) (x : vec3 T) : Geom T :=
  let l := fst ls in let st := snd ls in
  {| gm_dist := sl_dist l st x - sub; gm_normal := sl_normal l st x; gm_vel := sl_velocity l st x dt;
     gm_friction := sl_friction l st x |}.
(** union over the SDFs of sigmoid(-dist * sharpness): usl.py 271-272, 308-309, 353-355 *)
Definition union_mask (sharp : T) (ds : list T) : T := fold_left (fun a d => nmax a (sigmoid (- d * sharp))) ds n0.
(** usl.py 245-276 *)
Definition node_sdfs (S : Solver) (w : World T) (dt : T) : list (list (list (Geom T))) :=
  map (fun g => map (fun ls => map (geom_at (gd_cell g * n1) dt ls) (position_stack g)) (combine (so_sdfs S) (w_sdfs w)))
      (so_domains S).
(** usl.py 278-313 *)
Definition particle_sdfs (S : Solver) (w : World T) (dt : T) : list (list (list (Geom T))) :=
  map (fun b => map (fun ls => map (geom_at n0 dt ls) (body_positions b)) (combine (so_sdfs S) (w_sdfs w))) (w_mps w).
(** usl.py 332-341: midpoint of a particle and the node of an interaction (unravel of its hash) *)
Definition unravel (size : vec3 Z) (h : Z) : vec3 Z :=
  V3 (h / (vy size * vz size))%Z ((h / vz size) mod vy size)%Z (h mod vz size)%Z.
Definition midpoint (g : GridDomain T) (x : vec3 T) (it : Interaction T) : vec3 T :=
  let i := unravel (gd_size g) (it_hash it) in
  let nodep := vadd (gd_origin g) (V3 (nofZ (vx i) * gd_cell g) (nofZ (vy i) * gd_cell g) (nofZ (vz i) * gd_cell g)) in
  vscale (lit 1 2) (vadd nodep x).
(** usl.py 378-407: the CPIC factor of one interaction, 1 - out(particle) * max(in(node), in(midpoint)) *)
Definition compatible (S : Solver) (w : World T) (g : GridDomain T) (x : vec3 T) (it : Interaction T) : T :=
  let ls := combine (so_sdfs S) (w_sdfs w) in
  let at_ sub y := union_mask (so_sharp S) (map (fun l => sl_dist (fst l) (snd l) y - sub) ls) in
  let mp_out := n1 - at_ n0 x in
  let node_in := at_ (gd_cell g * n1) (nth (Z.to_nat (it_hash it)) (position_stack g) vzero) in
  let mid_in := at_ n0 (midpoint g x it) in
  n1 - mp_out * nmax node_in mid_in.
Definition set_mask (m : T) (it : Interaction T) : Interaction T :=
  {| it_point := it_point it; it_stencil := it_stencil it; it_hash := it_hash it; it_val := it_val it;
     it_grad := it_grad it; it_dist := it_dist it; it_mask := m |}.
(** usl.py 361-420: the mask computed is [compatible]; what is stored is jnp.ones_like of it (414-416).
    shape_vals.size // num_points fails for a body without points. *)
Definition sdf_correction (S : Solver) (w : World T) (inter : list ((nat * nat) * list (Interaction T)))
  : res (list ((nat * nat) * list (Interaction T))) :=
  match so_sdfs S with
  | [] => Ok inter
  | _ => rfold (fun d c =>
           rbind (dict_get (c_p c, c_g c) d) (fun l => rbind (idx (w_mps w) (c_p c)) (fun b =>
             rbind (idx (so_domains S) (c_g c)) (fun g =>
               if Nat.eqb (num_points b) 0 then Err ZeroDivisionError
               else let mask := map (fun it => compatible S w g (nth (it_point it) (body_positions b) vzero) it) l in
                    Ok (dict_set (c_p c, c_g c) (map (fun im => set_mask n1 (fst im)) (combine l mask)) d)))))
         inter (so_couplings S)
  end.

(** usl.py 464-499 and usl_asflip.py 228-273: the scatter of one coupling.
    [vel it] is the velocity attached to the interaction (particle velocity, minus the affine part for AFLIP).
    force_stack starts from zeros, mass and moment from the current grid. *)
Definition eff (it : Interaction T) : T := it_val it * it_mask it.
Definition point_of (pts : list (Particle T)) (it : Interaction T) : Particle T := nth (it_point it) pts pt0.
Definition p2g_force (d : Dim) (pts : list (Particle T)) (it : Interaction T) : vec3 T :=
  let p := point_of pts it in
  vadd (vscale (it_mask it) (vscale (n1 * pt_vol p) (vtrunc d (mvmul (pt_stress p) (it_grad it)))))
       (vscale (eff it) (pt_force p)).
Definition on_node {A} (it : Interaction T) (a : A) : nat * A := (Z.to_nat (it_hash it), a).
Definition p2g_with (inter : list (Interaction T)) (pts : list (Particle T)) (vel : Interaction T -> vec3 T) (g : Grid T) : Grid T :=
  let wm it := eff it * pt_mass (point_of pts it) in
  {| gr_dim := gr_dim g;
     gr_mass := scatter_add nadd (gr_mass g) (map (fun it => on_node it (wm it)) inter);
     gr_mom := scatter_add vadd (gr_mom g) (map (fun it => on_node it (vscale (wm it) (vel it))) inter);
     gr_mom_nt := gr_mom_nt g;
     gr_force := scatter_add vadd (map (fun _ => vzero) (gr_mom g))
                   (map (fun it => on_node it (p2g_force (gr_dim g) pts it)) inter) |}.
(** usl.py 440-509, one body *)
Definition p2g_usl (inter : list (Interaction T)) (b : SoftBody T) (g : Grid T) : Grid T :=
  p2g_with inter (sb_pts b) (fun it => pt_vel (point_of (sb_pts b) it)) g.
(** usl_asflip.py 220-242.  Bp_stack rows are read with an index clamped to the stack. *)
Definition affine_vel (cell : T) (d : Dim) (Bp : list (mat3 T)) (it : Interaction T) : vec3 T :=
  let B := nth (Nat.min (it_point it) (length Bp - 1)) Bp mzero in
  vtrunc d (mvmul B (vscale cell (vscale (nofZ (-1)) (it_dist it)))).
Definition p2g_aflip (gd : GridDomain T) (Bp : list (mat3 T)) (inter : list (Interaction T)) (b : SoftBody T) (g : Grid T) : Grid T :=
  p2g_with inter (sb_pts b)
    (fun it => vsub (pt_vel (point_of (sb_pts b) it)) (affine_vel (gd_cell gd) (gd_dim gd) Bp it)) g.

(** volume_stack.at[point_ids] on a rank-0 array *)
Definition soft_of (b : Body T) : res (SoftBody T) :=
  match b with
  | Soft s => if sb_vol0d s then Err IndexError else Ok s
  | Rigid _ => Err AttributeError
  end.
Definition bp_of (s : option (SolverState T)) : res (list (mat3 T)) :=
  match s with Some (SS_AFLIP l) => Ok l | _ => Err AttributeError end.
(** usl.py 440-509, usl_asflip.py 200-283: one coupling *)
Definition p2g_coupling (S : Solver) (w : World T) (m : Mechanics T) (inter : list ((nat * nat) * list (Interaction T)))
    (gs : list (Grid T)) (c : Coupling) : res (list (Grid T)) :=
  if c_skip c then Ok gs
  else
    rbind (idx (w_mps w) (c_p c)) (fun b => upd_idx gs (c_g c) (fun g =>
      rbind (dict_get (c_p c, c_g c) inter) (fun it =>
        match so_scheme S with
        | USL => rbind (soft_of b) (fun s => Ok (p2g_usl it s g))
        | ASFLIP _ =>
            rbind (idx (so_domains S) (c_g c)) (fun gd =>
              rbind (idx_opt (m_solvers m) (c_s c)) (fun ss =>
                rbind (soft_of b) (fun s => rbind (bp_of ss) (fun Bp => Ok (p2g_aflip gd Bp it s g)))))
        end))).
Definition p2g (S : Solver) (w : World T) (m : Mechanics T) (ca : SimCache T) : res (World T * SimCache T) :=
  rbind (rfold (fun w f => apply_pre_p2g f w m) w (so_forces S)) (fun w' =>
    rbind (rfold (p2g_coupling S w' m (sc_inter ca)) (sc_grids ca) (so_couplings S)) (fun gs =>
      Ok (w', set_grids ca gs))).

(** usl.py 518-563 *)
Definition integrate1 (dt : T) (g : Grid T) : Grid T :=
  set_mom_nt g (map (fun mf => vadd (fst mf) (vscale dt (snd mf))) (combine (gr_mom g) (gr_force g))).
Definition integrate_grid (S : Solver) (w : World T) (m : Mechanics T) (dt : T) (ca : SimCache T) : res (SimCache T) :=
  rbind (rfold (fun gs f => apply_grid_forces f m gs) (sc_grids ca) (so_forces S)) (fun gs1 =>
    rbind (rfold (fun gs c => if c_skip c then Ok gs else upd_idx gs (c_g c) (fun g => Ok (integrate1 dt g))) gs1 (so_couplings S))
      (fun gs2 =>
        rbind (rfold (fun gs f => apply_grid_moments f w (so_sdfs S) (so_domains S) (sc_node_geoms ca) dt gs) gs2 (so_forces S))
          (fun gs3 => Ok (set_grids ca gs3)))).

(** usl.py 600-609, usl_asflip.py 327-336: nodal velocity seen by an interaction *)
Definition node_vel (cutoff : T) (d : Dim) (g : Grid T) (mom : list (vec3 T)) (it : Interaction T) : vec3 T :=
  let m := nth (Z.to_nat (it_hash it)) (gr_mass g) n0 in
  vtrunc d (if cutoff <? m then vdivs (nth (Z.to_nat (it_hash it)) mom vzero) m else vzero).
(** jnp.zeros((n, ..)).at[point_ids].add(..) *)
Definition to_points {A} (zero : A) (add : A -> A -> A) (n : nat) (inter : list (Interaction T)) (f : Interaction T -> A) : list A :=
  scatter_add add (repeat zero n) (map (fun it => (it_point it, f it)) inter).

(** usl.py 613-656: velocity of the closest wall's ghost, for one particle; [geos] lists the SDFs *)
Fixpoint closest (gs : list (Geom T)) : option (Geom T) :=
  match gs with
  | [] => None
  | g :: r => match closest r with None => Some g | Some h => if gm_dist h <? gm_dist g then Some h else Some g end
  end.
Definition ghost (v : vec3 T) (ge : Geom T) : vec3 T :=
  let v_rel := vsub v (gm_vel ge) in
  let vn := vdot v_rel (gm_normal ge) in
  vadd (gm_vel ge) (vsub v_rel (vscale (nmin n0 vn) (gm_normal ge))).
Definition geom0 : Geom T := {| gm_dist := n0; gm_normal := vzero; gm_vel := vzero; gm_friction := n0 |}.
Definition ghost_of (pts : list (Particle T)) (geos : list (list (Geom T))) (it : Interaction T) : vec3 T :=
  match closest (map (fun l => nth (it_point it) l geom0) geos) with
  | Some ge => ghost (pt_vel (point_of pts it)) ge
  | None => vzero
  end.
Definition blend (geos : list (list (Geom T))) (pts : list (Particle T)) (it : Interaction T) (v : vec3 T) : vec3 T :=
  match geos with
  | [] => v
  | _ => vadd (vscale (it_mask it) v) (vscale (n1 - it_mask it) (ghost_of pts geos it))
  end.

(** usl.py 704-717, usl_asflip.py 490-512: deformation gradient and volume of one particle *)
Definition L_plane (d : Dim) (L : mat3 T) : mat3 T := match d with D2 => mset22 L n0 | D3 => L end.
Definition F_next (d : Dim) (dt : T) (L F : mat3 T) : mat3 T :=
  let F' := mmul (msub meye (mscale dt L)) F in
  match d with D2 => mset22 F' n1 | D3 => F' end.
Definition g2p_point (p : Particle T) (pos vel : vec3 T) (L F Fst : mat3 T) : Particle T :=
  {| pt_pos := pos; pt_vel := vel; pt_mass := pt_mass p; pt_force := pt_force p;
     pt_vol := mdet F * pt_vol0 p; pt_vol0 := pt_vol0 p; pt_L := L; pt_stress := pt_stress p; pt_F := F; pt_Fst := Fst |}.

(** usl.py 583-729, one body *)
Definition usl_update (alpha dt : T) (d : Dim) (p : Particle T) (delta vel_nt : vec3 T) (L0 : mat3 T) : Particle T :=
  let L := L_plane d L0 in
  g2p_point p (vadd (pt_pos p) (vscale dt vel_nt))
    (vadd (vscale (n1 - alpha) vel_nt) (vscale alpha (vadd (pt_vel p) delta)))
    L (F_next d dt L (pt_F p)) (pt_Fst p).
Definition g2p_usl (alpha dt : T) (geos : list (list (Geom T))) (inter : list (Interaction T)) (g : Grid T) (pts : list (Particle T))
  : list (Particle T) :=
  let d := gr_dim g in
  let cut := lit 1 (10 ^ 12) in
  let v it := blend geos pts it (node_vel cut d g (gr_mom g) it) in
  let v_nt it := blend geos pts it (node_vel cut d g (gr_mom_nt g) it) in
  let n := length pts in
  let delta := to_points vzero vadd n inter (fun it => vscale (it_val it) (vsub (v_nt it) (v it))) in
  let vel := to_points vzero vadd n inter (fun it => vscale (it_val it) (v_nt it)) in
  let L := to_points mzero madd n inter (fun it => outer (it_grad it) (vopp (v_nt it))) in
  map (fun ip => usl_update alpha dt d (snd ip) (nth (fst ip) delta vzero) (nth (fst ip) vel vzero) (nth (fst ip) L mzero)) (enum pts).

(** usl_asflip.py 457-530, one particle.  [support] is the gathered grid mass. *)
Definition dynamic_alpha (a : AFLIP) (alpha support mass : T) : T :=
  if af_dynamic a then alpha * nclip ((support / (mass + lit 1 (10 ^ 9)) - lit 11 10) / lit 4 10) n0 n1 else alpha.
Definition cfl_clamp (a : AFLIP) (cell dt : T) (v : vec3 T) : vec3 T :=
  vscale (nmin n1 (af_cfl a * cell / dt / (vnorm v + lit 1 (10 ^ 12)))) v.
Definition beta_of (a : AFLIP) (cell J : T) : T :=
  if nofZ (10 ^ 9) <? cell then n0 else if J <? n1 then af_beta_min a else af_beta_max a.
Definition aflip_update (a : AFLIP) (alpha cell dt : T) (d : Dim) (storeF : bool) (p : Particle T)
    (vel vel_nt : vec3 T) (B : mat3 T) (support : T) : Particle T :=
  let adj := vsub (pt_vel p) vel in
  let v1 := vadd vel_nt (vscale (dynamic_alpha a alpha support (pt_mass p)) adj) in
  let L := L_plane d B in
  let F := F_next d dt L (pt_F p) in
  let Fst := if storeF then mmul (msub meye (mscale dt L)) (pt_Fst p) else pt_Fst p in
  let beta := beta_of a cell (mdet F) in
  g2p_point p (vadd (pt_pos p) (vscale dt (vadd vel_nt (vscale (alpha * beta) adj)))) (cfl_clamp a cell dt v1) L F Fst.
(** usl_asflip.py 310-547 with use_mls_update: new particles and new affine matrices *)
Definition g2p_aflip (a : AFLIP) (alpha dt : T) (gd : GridDomain T) (storeF : bool) (inter : list (Interaction T)) (g : Grid T)
    (pts : list (Particle T)) : list (Particle T) * list (mat3 T) :=
  let d := gr_dim g in
  let v it := node_vel (af_cutoff a) d g (gr_mom g) it in
  let v_nt it := node_vel (af_cutoff a) d g (gr_mom_nt g) it in
  let n := length pts in
  let vel := to_points vzero vadd n inter (fun it => vscale (it_val it) (v it)) in
  let vel_nt := to_points vzero vadd n inter (fun it => vscale (it_val it) (v_nt it)) in
  let B := to_points mzero madd n inter (fun it => mopp (outer (v_nt it) (it_grad it))) in
  let sup := to_points n0 nadd n inter (fun it => it_val it * nth (Z.to_nat (it_hash it)) (gr_mass g) n0) in
  (map (fun ip => aflip_update a alpha (gd_cell gd) dt d storeF (snd ip) (nth (fst ip) vel vzero) (nth (fst ip) vel_nt vzero)
                    (nth (fst ip) B mzero) (nth (fst ip) sup n0)) (enum pts), B).

(** usl.py 717, usl_asflip.py 510-512: squeeze() of the (N,1) volumes *)
Definition after_g2p (s : SoftBody T) (pts : list (Particle T)) : SoftBody T :=
  {| sb_dim := sb_dim s; sb_pts := pts; sb_storeF := sb_storeF s; sb_vol0d := Nat.eqb (length pts) 1 |}.

(** usl.py 579-729, usl_asflip.py 307-547: one coupling.  With SDFs and one particle the USL ghost velocity code
    indexes a rank-3 array with a rank-2 index (633-640). BodyCoupling has no attribute shapefunction (usl_asflip.py 447). *)
Definition g2p_coupling (S : Solver) (ca : SimCache T) (dt : T) (mm : World T * Mechanics T) (c : Coupling)
  : res (World T * Mechanics T) :=
  let (w, m) := mm in
  if c_skip c then Ok mm
  else
    rbind (idx (sc_grids ca) (c_g c)) (fun g => rbind (dict_get (c_p c, c_g c) (sc_inter ca)) (fun it =>
      rbind (idx (w_mps w) (c_p c)) (fun b =>
        match b with
        | Rigid _ => Err AttributeError
        | Soft s =>
            match so_scheme S with
            | USL =>
                rbind (idx (sc_mp_geoms ca) (c_p c)) (fun geos =>
                  match geos with
                  | _ :: _ => if Nat.eqb (length (sb_pts s)) 1 then Err ValueError
                              else Ok (set_mps w (set_nth (c_p c) (Soft (after_g2p s (g2p_usl (so_alpha S) dt geos it g (sb_pts s)))) (w_mps w)), m)
                  | [] => Ok (set_mps w (set_nth (c_p c) (Soft (after_g2p s (g2p_usl (so_alpha S) dt [] it g (sb_pts s)))) (w_mps w)), m)
                  end)
            | ASFLIP a =>
                rbind (idx (so_domains S) (c_g c)) (fun gd => rbind (idx (m_solvers m) (c_p c)) (fun ss =>
                  if af_mls a then
                    rbind (bp_of ss) (fun _ =>
                      let r := g2p_aflip a (so_alpha S) dt gd (sb_storeF s) it g (sb_pts s) in
                      Ok (set_mps w (set_nth (c_p c) (Soft (after_g2p s (fst r))) (w_mps w)),
                          {| m_laws := m_laws m; m_solvers := set_nth (c_p c) (Some (SS_AFLIP (snd r))) (m_solvers m);
                             m_forces := m_forces m |}))
                  else Err AttributeError))
            end
        end))).
Definition g2p (S : Solver) (w : World T) (m : Mechanics T) (dt : T) (ca : SimCache T) : res (World T * Mechanics T) :=
  rfold (g2p_coupling S ca dt) (w, m) (so_couplings S).

(** usl.py 739-772: one coupling.  A rigid body has no L_stack. *)
Definition constitutive_coupling (S : Solver) (dt : T) (mm : World T * Mechanics T) (c : Coupling) : res (World T * Mechanics T) :=
  let (w, m) := mm in
  if c_skip c then Ok mm
  else
    rbind (idx (w_mps w) (c_p c)) (fun b => rbind (idx_opt (m_laws m) (c_c c)) (fun ls =>
      rbind (idx_opt (so_laws S) (c_c c)) (fun law =>
        match law, b, c_c c with
        | Some l, Soft s, Some ci =>
            rbind (law_update l s ls dt) (fun r =>
              Ok (set_mps w (set_nth (c_p c) (Soft (remove_accumulated_shear (law_reset l) (fst r))) (w_mps w)),
                  {| m_laws := set_nth ci (snd r) (m_laws m); m_solvers := m_solvers m; m_forces := m_forces m |}))
        | _, _, _ => Err AttributeError
        end))).
Definition constitutive_update (S : Solver) (dt : T) (w : World T) (m : Mechanics T) : res (World T * Mechanics T) :=
  rfold (constitutive_coupling S dt) (w, m) (so_couplings S).

(** usl.py 128-162: everything before P2G *)
Definition prepare (S : Solver) (st : SimState T) : res (World T * SimCache T) :=
  let dt := s_dt st in
  rbind (kinematic_update S (s_world st) dt) (fun w1 =>
    rbind (reset_material_points (so_couplings S) w1) (fun w2 =>
      rbind (compute_connectivity S w2) (fun it =>
        rbind (sdf_correction S w2 it) (fun it' =>
          Ok (w2, {| sc_inter := it'; sc_grids := map grid_new (so_domains S);
                     sc_mp_geoms := particle_sdfs S w2 dt; sc_node_geoms := node_sdfs S w2 dt |}))))).
(** usl.py 113-189: __call__ *)
Definition solver_step (S : Solver) (st : SimState T) : res (SimState T) :=
  let dt := s_dt st in let m := s_mech st in
  rbind (prepare S st) (fun wc =>
    rbind (p2g S (fst wc) m (snd wc)) (fun wc2 =>
      rbind (integrate_grid S (fst wc2) m dt (snd wc2)) (fun ca3 =>
        rbind (g2p S (fst wc2) m dt ca3) (fun wm =>
          rbind (constitutive_update S dt (fst wm) (snd wm)) (fun wm' =>
            Ok {| s_world := fst wm'; s_mech := snd wm'; s_time := s_time st + dt; s_step := (s_step st + 1)%Z; s_dt := dt |}))))).
Fixpoint solver_steps (S : Solver) (n : nat) (st : SimState T) : res (SimState T) :=
  match n with O => Ok st | Datatypes.S k => rbind (solver_step S st) (solver_steps S k) end.
End Solver.
Arguments AFLIP T : clear implicits.
Arguments Scheme T : clear implicits.
Arguments Solver T : clear implicits.
