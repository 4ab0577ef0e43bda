(** forces/*.py: the four library forces and the hooks the solvers call. *)
From Coq Require Import List ZArith Bool.
From Verif Require Import Num Linalg Arrays ModelGrid ModelShape ModelMath ModelState.
Import ListNotations.

Section Forces.
Context {T : Type} `{NumT T}.
Local Open Scope num_scope.

(** gravity.py 43-87.  [gv_callback] is the field "callback"; nothing reads it. *)
Record Gravity := { gv_on_grid : bool; gv_callback : option (T -> vec3 T -> vec3 T);
                    gv_ps : list nat; gv_gs : list nat; gv_f : nat }.
(** damping.py 29-58 *)
Record Damping := { dm_on_grid : bool; dm_ps : list nat; dm_gs : list nat; dm_f : nat }.
(** sdf_collider.py 61-99; [None] is sdf_idx = -1 *)
Record Collider := { cl_sdf : option nat; cl_gs : list nat; cl_gap : T; cl_friction : T }.
(** gridcontact.py 27-50 *)
Record Contact := { gc_actor : nat; gc_receiver : nat; gc_friction : T; gc_reaction : bool; gc_rigid : bool; gc_limit : T }.
Inductive Force := FGravity (g : Gravity) | FDamping (d : Damping) | FCollider (c : Collider) | FContact (c : Contact).

Definition set_force (g : Grid T) (f : list (vec3 T)) : Grid T :=
  {| gr_dim := gr_dim g; gr_mass := gr_mass g; gr_mom := gr_mom g; gr_mom_nt := gr_mom_nt g; gr_force := f |}.
Definition set_mom_nt (g : Grid T) (m : list (vec3 T)) : Grid T :=
  {| gr_dim := gr_dim g; gr_mass := gr_mass g; gr_mom := gr_mom g; gr_mom_nt := m; gr_force := gr_force g |}.
Definition set_pforce (p : Particle T) (f : vec3 T) : Particle T :=
  {| pt_pos := pt_pos p; pt_vel := pt_vel p; pt_mass := pt_mass p; pt_force := f;
     pt_vol := pt_vol p; pt_vol0 := pt_vol0 p; pt_L := pt_L p; pt_stress := pt_stress p; pt_F := pt_F p; pt_Fst := pt_Fst p |}.

Definition gravity_of (s : option (ForceState T)) : res (vec3 T) :=
  match s with Some (FS_Gravity g) => Ok g | _ => Err AttributeError end.
Definition alpha_of (s : option (ForceState T)) : res T :=
  match s with Some (FS_Damping a) => Ok a | _ => Err AttributeError end.

(** gravity.py 112-116 *)
Definition gravity_grid (gv : vec3 T) (g : Grid T) : Grid T :=
  set_force g (map (fun mf => vadd (snd mf) (vscale (fst mf) gv)) (combine (gr_mass g) (gr_force g))).
(** damping.py 86-94, one component *)
Definition damp (alpha f v : T) : T := f + (- alpha * nabs f) * nsign v.
Definition damping_grid (alpha : T) (g : Grid T) : Grid T :=
  set_force g (map (fun x => let m := fst (fst x) in let p := snd (fst x) in let f := snd x in
                             vmap2 (fun fi pi => damp alpha fi (pi / (m + lit 1 (10 ^ 22)))) f p)
                   (combine (combine (gr_mass g) (gr_mom g)) (gr_force g))).
(** damping.py 121-130 *)
Definition damping_particle (alpha : T) (p : Particle T) : Particle T :=
  set_pforce p (vmap2 (damp alpha) (pt_force p) (pt_vel p)).

(** sdf_collider.py 26-59 *)
Definition apply_frictional_contact (v_in : vec3 T) (dist : T) (normal v_wall : vec3 T) (mu dt gap bias : T) : vec3 T :=
  let v_rel := vsub v_in v_wall in
  let v_n := vdot v_rel normal in
  let v_bias := nmax n0 ((gap - dist) / dt * bias) in
  let dv := nmax n0 (v_bias - v_n) in
  let v_corr := vadd v_in (vscale dv normal) in
  let v_rc := vsub v_corr v_wall in
  let v_nv := vscale (vdot v_rc normal) normal in
  let v_t := vsub v_rc v_nv in
  let vt := vnorm v_t in
  let limit := mu * dv in
  let red := if lit 1 (10 ^ 12) <? vt then nmin vt limit else n0 in
  vadd (vadd v_wall v_nv) (vscale (n1 - red / (vt + lit 1 (10 ^ 12))) v_t).
(** sdf_collider.py 211-237; the second disjunct of should_collide implies the first *)
Definition collide_node (gap dist : T) (v normal v_obj : vec3 T) (mu dt : T) : vec3 T :=
  let v_n := vdot (vsub v v_obj) normal in
  if ((dist <=? n0) || ((dist <=? n0) && (v_n <? n0)))%bool
  then apply_frictional_contact v dist normal v_obj mu dt gap n0 else v.
(** sdf_collider.py 166-194, one node *)
Definition collider_node (c : Collider) (dt mass : T) (mom : vec3 T) (ge : Geom T) : vec3 T :=
  let inv := if lit 1 (10 ^ 14) <? mass then n1 / mass else n0 in
  vscale mass (collide_node (cl_gap c) (gm_dist ge) (vscale inv mom) (gm_normal ge) (gm_vel ge)
                 (cl_friction c * gm_friction ge) dt).
Definition collider_grid (c : Collider) (dt : T) (geo : list (Geom T)) (g : Grid T) : Grid T :=
  set_mom_nt g (map (fun x => collider_node c dt (fst (fst x)) (snd (fst x)) (snd x))
                    (combine (combine (gr_mass g) (gr_mom_nt g)) geo)).

(** gridcontact.py 179-230: one node, receiver and actor momenta *)
Definition solve_node_collision (rigid : bool) (mom_rec : vec3 T) (mass_rec : T) (mom_act : vec3 T) (mass_act : T)
    (normal : vec3 T) (dist : T) : vec3 T * vec3 T :=
  if dist <=? lit 1 (10 ^ 6) then
    let v_rec := vdivs mom_rec (mass_rec + lit 1 (10 ^ 12)) in
    let v_act := vdivs mom_act (mass_act + lit 1 (10 ^ 12)) in
    let v_n := vdot (vsub v_rec v_act) normal in
    if v_n <? n0 then
      let v_rec' := vsub v_rec (vscale v_n normal) in
      let v_act' := if rigid then v_act
                    else vadd v_act (vscale (mass_rec / (mass_act + lit 1 (10 ^ 12))) (vscale v_n normal)) in
      (vscale mass_rec v_rec', vscale mass_act v_act')
    else (mom_rec, mom_act)
  else (mom_rec, mom_act).

(** gridcontact.py 51: number of positional parameters of GridContact.apply_grid_moments (self excluded);
    the solvers call the hook with eight (usl.py 552-561). *)
Definition contact_params : nat := 7.
Definition hook_args : nat := 8.

(** list item assignment grids[i] = v after a successful read of grids[i] *)
Definition upd_idx {A} (l : list A) (i : nat) (f : A -> res A) : res (list A) :=
  rbind (idx l i) (fun x => rbind (f x) (fun y => Ok (set_nth i y l))).

Definition set_grids (c : SimCache T) (gs : list (Grid T)) : SimCache T :=
  {| sc_inter := sc_inter c; sc_grids := gs; sc_mp_geoms := sc_mp_geoms c; sc_node_geoms := sc_node_geoms c |}.
Definition set_mps (w : World T) (l : list (Body T)) : World T := {| w_mps := l; w_sdfs := w_sdfs w |}.

(** hook 2, apply_pre_p2g: gravity.py 138-183, damping.py 103-134, otherwise force.py 55-69.
    Gravity: the loop body ends with mp_states[self.p_idx] = ..., an attribute Gravity does not have. *)
Definition apply_pre_p2g (f : Force) (w : World T) (m : Mechanics T) : res (World T) :=
  match f with
  | FGravity g =>
      if gv_on_grid g then Ok w
      else rbind (idx (m_forces m) (gv_f g)) (fun fs =>
        rfold (fun w p => rbind (idx (w_mps w) p) (fun b => rbind (gravity_of fs) (fun _ => Err AttributeError)))
              w (gv_ps g))
  | FDamping d =>
      if dm_on_grid d then Ok w
      else rbind (idx (m_forces m) (dm_f d)) (fun fs =>
        rbind (rfold (fun l p => upd_idx l p (fun b =>
                 match b with
                 | Soft s => rbind (alpha_of fs) (fun a =>
                     Ok (Soft {| sb_dim := sb_dim s; sb_pts := map (damping_particle a) (sb_pts s);
                                 sb_storeF := sb_storeF s; sb_vol0d := sb_vol0d s |}))
                 | Rigid _ => Err AttributeError
                 end)) (w_mps w) (dm_ps d))
              (fun l => Ok (set_mps w l)))
  | _ => Ok w
  end.

(** hook 3, apply_grid_forces: gravity.py 93-136, damping.py 65-101, otherwise force.py 71-88 *)
Definition apply_grid_forces (f : Force) (m : Mechanics T) (gs : list (Grid T)) : res (list (Grid T)) :=
  match f with
  | FGravity g =>
      if gv_on_grid g then
        rbind (idx (m_forces m) (gv_f g)) (fun fs =>
          rfold (fun l i => upd_idx l i (fun gr => rbind (gravity_of fs) (fun v => Ok (gravity_grid v gr)))) gs (gv_gs g))
      else Ok gs
  | FDamping d =>
      if dm_on_grid d then
        rbind (idx (m_forces m) (dm_f d)) (fun fs =>
          rfold (fun l i => upd_idx l i (fun gr => rbind (alpha_of fs) (fun a => Ok (damping_grid a gr)))) gs (dm_gs d))
      else Ok gs
  | _ => Ok gs
  end.

(** hook 4, apply_grid_moments: sdf_collider.py 133-209, gridcontact.py 51-151, otherwise force.py 90-107.
    [geoms] is sim_cache.node_geoms, a list per grid of a list per SDF. *)
Definition apply_grid_moments (f : Force) (w : World T) (sdfs : list (SDFLogic T)) (domains : list (GridDomain T))
    (geoms : list (list (list (Geom T)))) (dt : T) (gs : list (Grid T)) : res (list (Grid T)) :=
  match f with
  | FCollider c =>
      match cl_sdf c with
      | None => Ok gs
      | Some s =>
          rbind (idx sdfs s) (fun _ => rbind (idx (w_sdfs w) s) (fun _ =>
            rfold (fun l i => rbind (idx domains i) (fun _ => upd_idx l i (fun gr =>
              rbind (oget (nth_error geoms i) KeyError) (fun gg => rbind (oget (nth_error gg s) KeyError) (fun ge =>
                Ok (collider_grid c dt ge gr)))))) gs (cl_gs c)))
      end
  | FContact _ => call_pos contact_params hook_args (Ok gs)
  | _ => Ok gs
  end.
End Forces.
Arguments Gravity T : clear implicits.
Arguments Collider T : clear implicits.
Arguments Contact T : clear implicits.
Arguments Force T : clear implicits.
