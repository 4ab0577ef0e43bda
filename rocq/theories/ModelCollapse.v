(** projects/lorentz_collapse/floor.py and the run loops of collapse_setup.py: a column released on a bumpy floor.
    Not modelled: build_template (55-200) beyond the objects it passes to the run, setup_viewer, setup_vtk and
    log_static (240-355), and what log_simulation (357-387) draws; only when it is called is. *)
From Coq Require Import List ZArith Bool.
From Verif Require Import Num Linalg Arrays ModelGrid ModelShape ModelMath ModelState ModelLaws ModelSDF ModelForces ModelSolver.
Import ListNotations.

Section Collapse.
Context {T : Type} `{NumT T}.
Local Open Scope num_scope.

(** floor.py 16-19: the stored arrays, one (amplitude, wavenumber, phase) per harmonic *)
Record Harmonic := { hm_amp : T; hm_k : T; hm_phase : T }.
Record Spectral := { sp_waves : list Harmonic; sp_base : T }.

(** jnp.linspace(a, b, n) *)
Definition linspace (a b : T) (n : nat) : list T :=
  match n with
  | S O => [a]
  | _ => map (fun i => let t := nofZ (Z.of_nat i) / nofZ (Z.of_nat (n - 1)) in a * (n1 - t) + b * t) (seq 0 n)
  end.
(** jnp.log10 and jnp.logspace(a, b, n) *)
Definition log10 (x : T) : T := nln x / nln (nofZ 10).
Definition logspace (a b : T) (n : nat) : list T := map (npow (nofZ 10)) (linspace a b n).
Definition nsum (l : list T) : T := fold_right nadd n0 l.

(** floor.py 21-54: SpectralSetup.__init__ *)
Definition wavenumbers (n : nat) (lmin lmax : T) : list T :=
  logspace (log10 (n2 * npi / lmax)) (log10 (n2 * npi / lmin)) n.
Definition spectral (n : nat) (hurst lmin lmax rms base : T) (key : Z) : Spectral :=
  let ks := wavenumbers n lmin lmax in
  let raw := map (fun k => npow k (- (hurst + lit 1 2))) ks in
  let current := nsqrt (nsum (map (fun a => a * a) raw) / n2) in
  let amps := map (fun a => a * (rms / current)) raw in
  let phases := map (fun f => f * nofZ key) (linspace n0 (n2 * npi) n) in
  {| sp_waves := map (fun akp => {| hm_amp := fst (fst akp); hm_k := snd (fst akp); hm_phase := snd akp |})
                     (combine (combine amps ks) phases);
     sp_base := base |}.
(** floor.py 57-59: get_bump_waves, and its derivative *)
Definition bump_waves (s : Spectral) (x : T) : T :=
  nsum (map (fun h => hm_amp h * nsin (hm_k h * x + hm_phase h)) (sp_waves s)).
Definition bump_slope (s : Spectral) (x : T) : T :=
  nsum (map (fun h => hm_amp h * (ncos (hm_k h * x + hm_phase h) * hm_k h)) (sp_waves s)).
(** floor.py 63-64: __call__ *)
Definition spectral_call (s : Spectral) (x : T) : T := sp_base s + bump_waves s x.
(** floor.py 90, 169: jnp.sum(jnp.abs(amplitudes)) *)
Definition max_h (s : Spectral) : T := nsum (map (fun h => nabs (hm_amp h)) (sp_waves s)).

(** floor.py 73-83 *)
Record Floor := { fl_xmin : T; fl_xmax : T; fl_width : T }.
(** floor.py 164-171: get_world_aabb, and the box in create_state (92) *)
Definition floor_aabb (b : Spectral) : vec3 T * vec3 T :=
  (V3 (nofZ (- 10 ^ 6)) (sp_base b - max_h b) n0, V3 (nofZ (10 ^ 6)) (nofZ (10 ^ 6)) n0).
(** floor.py 85-108: create_state.  The bumps and frictions the Python state carries beside these fields are
    arguments of [floor_logic] here. *)
Definition floor_state (b : Spectral) : SDFState T :=
  let bb := floor_aabb b in
  create_sdf_state D2 (vscale (lit 1 2) (vadd (fst bb) (snd bb))) None None None None None.
(** floor.py 121: the ramp, and its derivative (jnp.clip is a minimum of a maximum, ties share equally) *)
Definition ramp (F : Floor) (xr : T) : T := nclip (xr / fl_width F) n0 n1.
Definition dramp (F : Floor) (xr : T) : T :=
  let t := xr / fl_width F in
  let d := if (t <? n0) || (n1 <? t) then n0 else if (t =? n0) || (t =? n1) then lit 1 2 else n1 in
  d / fl_width F.
(** floor.py 113-131: the height of the floor at x, and its derivative *)
Definition floor_height (F : Floor) (b : Spectral) (x : T) : T :=
  if fl_xmax F <? x then sp_base b + bump_waves b (x - fl_xmax F)
  else let xr := x - fl_xmin F in sp_base b + bump_waves b xr * ramp F xr.
Definition floor_slope (F : Floor) (b : Spectral) (x : T) : T :=
  if fl_xmax F <? x then bump_slope b (x - fl_xmax F)
  else let xr := x - fl_xmin F in bump_slope b xr * ramp F xr + bump_waves b xr * dramp F xr.
(** floor.py 112-135 and 161-162: transform_to_local is the identity *)
Definition floor_dist (F : Floor) (b : Spectral) (p : vec3 T) : T := vy p - floor_height F b (vx p).
(** sdfobject.py 146-156 *)
Definition floor_normal (F : Floor) (b : Spectral) (p : vec3 T) : vec3 T :=
  let g := V3 (- floor_slope F b (vx p)) n1 n0 in vdivs g (vnorm g + lit 1 (10 ^ 12)).
(** floor.py 137-159 *)
Definition floor_friction (F : Floor) (f : option Spectral) (p : vec3 T) : T :=
  match f with
  | None => lit 1 2
  | Some s =>
      let x := vx p in
      let ex := if fl_xmax F <? x then x - fl_xmax F else x - fl_xmin F in
      nmax (lit 1 (10 ^ 6)) (spectral_call s ex)
  end.
(** the interface the solvers use; update_kinematics and get_velocity are inherited (sdfobject.py 111-131, 157-177) *)
Definition floor_logic (F : Floor) (b : Spectral) (f : option Spectral) : SDFLogic T :=
  {| sl_dist := fun _ p => floor_dist F b p; sl_normal := fun _ p => floor_normal F b p;
     sl_velocity := fun st p _ => get_velocity st p; sl_friction := fun _ p => floor_friction F f p;
     sl_update := update_kinematics (Plane vzero) |}.

(** collapse_setup.py 12-17 *)
Record Params := { cp_bumps : Spectral; cp_frictions : Spectral; cp_tilt : T; cp_id : Z }.
(** collapse_setup.py 19-22 *)
Definition gravity_vector (p : Params) : vec3 T :=
  rotation_2d (cp_tilt p * (npi / nofZ 180)) (V3 n0 (nofZ (-1) * lit 981 100) n0).
(** collapse_setup.py 36-39 and the indices build_template stores (154, 181) *)
Record Setup := { su_dt : T; su_total : T; su_output : T; su_geom : Floor; su_floor : nat; su_gravity : nat }.

(** collapse_setup.py 204-214: the floor of the parameters replaces the template's.  The indexed state carries
    bumps and frictions in Python; here they are in the logic at the same index. *)
Definition set_floor (u : Setup) (S : Solver T) (p : Params) : res (Solver T) :=
  rbind (upd_idx (so_sdfs S) (su_floor u) (fun _ => Ok (floor_logic (su_geom u) (cp_bumps p) (Some (cp_frictions p)))))
    (fun l => Ok {| so_scheme := so_scheme S; so_alpha := so_alpha S; so_domains := so_domains S;
                    so_couplings := so_couplings S; so_laws := so_laws S; so_forces := so_forces S; so_sdfs := l;
                    so_sharp := so_sharp S |}).
(** collapse_setup.py 397-411: the gravity of the parameters replaces the template's *)
Definition set_gravity (u : Setup) (st : SimState T) (p : Params) : res (SimState T) :=
  let m := s_mech st in
  rbind (upd_idx (m_forces m) (su_gravity u) (fun f =>
      match f with Some (FS_Gravity _) => Ok (Some (FS_Gravity (gravity_vector p))) | _ => Err AttributeError end))
    (fun l => Ok {| s_world := s_world st;
                    s_mech := {| m_laws := m_laws m; m_solvers := m_solvers m; m_forces := l |};
                    s_time := s_time st; s_step := s_step st; s_dt := s_dt st |}).
(** collapse_setup.py 216-217, 413-414 *)
Definition num_steps (u : Setup) : Z := ntrunc (su_total u / su_dt u).
Definition output_step (u : Setup) : Z := ntrunc (su_output u / su_dt u).

(** collapse_setup.py 221-237: the fori_loop from index i, with the states log_simulation is called on.
    log_simulation starts with int(sim_id) (360), a TypeError for None. *)
Fixpoint run_loop (S : Solver T) (id : option Z) (os : Z) (n : nat) (i : Z) (st : SimState T) : res (SimState T * list (SimState T)) :=
  match n with
  | O => Ok (st, [])
  | Datatypes.S k =>
      rbind (solver_step S st) (fun st' =>
        if Z.eqb (i mod os) 0
        then match id with
             | None => Err TypeError
             | Some _ => rbind (run_loop S id os k (i + 1) st') (fun r => Ok (fst r, st' :: snd r))
             end
        else run_loop S id os k (i + 1) st')
  end.
(** collapse_setup.py 202-238 *)
Definition collapse_run (u : Setup) (S : Solver T) (st : SimState T) (p : option Params) : res (SimState T * list (SimState T)) :=
  rbind (match p with None => Ok S | Some q => set_floor u S q end) (fun S' =>
    run_loop S' (option_map cp_id p) (output_step u) (Z.to_nat (num_steps u)) 0 st).

(** collapse_setup.py 417-435: the scan *)
Fixpoint scan_snapshots (S : Solver T) (os : nat) (n : nat) (st : SimState T) : res (list (SimState T)) :=
  match n with
  | O => Ok []
  | Datatypes.S k => rbind (solver_steps S os st) (fun st' => rbind (scan_snapshots S os k st') (fun r => Ok (st' :: r)))
  end.
(** collapse_setup.py 389-437.  Without parameters the traced body reads params.sim_id (423) of None. *)
Definition collapse_trajectory (u : Setup) (S : Solver T) (st : SimState T) (p : option Params) : res (list (SimState T)) :=
  rbind (match p with None => Ok (S, st) | Some q => rbind (set_floor u S q) (fun S' => rbind (set_gravity u st q) (fun st' => Ok (S', st'))) end)
    (fun Sst =>
      if Z.eqb (output_step u) 0 then Err ZeroDivisionError
      else match p with
           | None => Err AttributeError
           | Some _ => scan_snapshots (fst Sst) (Z.to_nat (output_step u)) (Z.to_nat (num_steps u / output_step u)) (snd Sst)
           end).
End Collapse.
Arguments Harmonic T : clear implicits.
Arguments Spectral T : clear implicits.
Arguments Floor T : clear implicits.
Arguments Params T : clear implicits.
Arguments Setup T : clear implicits.
