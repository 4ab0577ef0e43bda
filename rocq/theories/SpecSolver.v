(** Specification vocabulary for solver steps. *)
From Coq Require Import List Arith ZArith Reals Bool.
From Verif Require Import Num Linalg ModelGrid ModelShape ModelState ModelLaws ModelForces ModelSolver Sums SpecShape.
Import ListNotations.
Local Open Scope R_scope.

(** the deformable points of a body *)
Definition body_pts {T} (b : Body T) : list (Particle T) := match b with Soft s => sb_pts s | Rigid _ => [] end.
Definition pts_at {T} (w : World T) (p : nat) : list (Particle T) :=
  match nth_error (w_mps w) p with Some b => body_pts b | None => [] end.
(** total mass and momentum of a set of points *)
Definition mass_of (l : list (Particle R)) : R := sumR pt_mass l.
Definition momentum_of (l : list (Particle R)) : vec3 R := vsum (fun p => vscale (pt_mass p) (pt_vel p)) l.
(** couplings that transfer to grid [gi] *)
Definition active_on {T} (S : Solver T) (gi : nat) : list Coupling :=
  filter (fun c => (negb (c_skip c) && Nat.eqb (c_g c) gi)%bool) (so_couplings S).
(** every deformable point of a coupled body has its stencil inside the grid it is coupled to *)
Definition inside (S : Solver R) (w : World R) : Prop :=
  forall c gd, In c (so_couplings S) -> nth_error (so_domains S) (c_g c) = Some gd ->
    wf_sizes gd /\ forall p, In p (pts_at w (c_p c)) -> interior (c_kernel c) gd (pt_pos p).
Definition tot (l : list (vec3 R)) : vec3 R := vsum (fun v => v) l.
Definition totS (l : list R) : R := sumR (fun x => x) l.

(** internal force a body exerts on node [i] of the grid of its coupling: sum over its points of V sigma grad(N_i) *)
Definition body_force (w : World R) (c : Coupling) (gd : GridDomain R) (i : nat) : vec3 R :=
  let pts := pts_at w (c_p c) in
  vsum (fun it => let p := nth (it_point it) pts pt0 in
                  vscale (pt_vol p) (vtrunc (gd_dim gd) (mvmul (pt_stress p) (it_grad it))))
       (at_node (Z.of_nat i) (compute_on (c_kernel c) gd (map pt_pos pts))).
(** couplings of the same body and grid use the same shape functions *)
Definition one_kernel {T} (S : Solver T) : Prop :=
  forall c c', In c (so_couplings S) -> In c' (so_couplings S) -> c_p c = c_p c' -> c_g c = c_g c' -> c_kernel c = c_kernel c'.
