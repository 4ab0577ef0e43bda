(** sdf/sdfobject.py and sdf/sdfcollection.py (StarSDF, 277-359, is in ModelStar). *)
From Coq Require Import List ZArith Bool.
From Verif Require Import Num Linalg Arrays ModelGrid ModelShape ModelMath ModelState ModelLaws.
Import ListNotations.

Section SDF.
Context {T : Type} `{NumT T}.
Local Open Scope num_scope.

(** jnp.max, jnp.min of a non-empty array, jnp.argmin (first smallest), and indexing clamped to the array *)
Definition lmax (l : list T) : T := match l with [] => n0 | x :: r => fold_left nmax r x end.
Definition lmin (l : list T) : T := match l with [] => n0 | x :: r => fold_left nmin r x end.
Fixpoint argmin_from (i best : nat) (m : T) (l : list T) : nat :=
  match l with
  | [] => best
  | x :: r => if x <? m then argmin_from (S i) i x r else argmin_from (S i) best m r
  end.
Definition argmin (l : list T) : nat := match l with [] => O | x :: r => argmin_from 1 0 x r end.
Definition nth_clamped (l : list T) (i : nat) : T := nth (Nat.min i (length l - 1)) l n0.
(** derivative of jnp.max / jnp.min in one entry: ties share equally *)
Definition share (l : list T) (m x : T) : T :=
  if x =? m then n1 / nofZ (Z.of_nat (length (filter (fun y => y =? m) l))) else n0.

(** the shapes of sdfcollection.py with their stored fields *)
Inductive Shape :=
| Box (half : vec3 T)                              (* 35-60 *)
| Sphere (radius : T)                              (* 63-89 *)
| Plane (normal : vec3 T)                          (* 92-111, normal as stored *)
| Capsule (radius half_height : T)                 (* 114-144 *)
| Hollow (height r_outer r_inner : T) (ring : bool)  (* 147-202 *)
| Cylinder (radius half_height : T)                (* 205-240 *)
| Torus (major_r minor_r : T)                      (* 243-274 *)
| Composite (shapes : list Shape) (frictions : list T)   (* 362-388; at least one shape *)
| Domain (lo hi : vec3 T) (frictions : list T).    (* 391-495 *)

(** constructors: 47-49, 78-79, 104-106, 127-129, 163-167, 218-220, 258-260 *)
Definition box (size : vec3 T) : Shape := Box (vdivs size n2).
Definition sphere (r : T) : Shape := Sphere r.
Definition plane (n : vec3 T) : Shape := Plane (vdivs n (vnorm n + lit 1 (10 ^ 12))).
Definition capsule (r h : T) : Shape := Capsule r (h / n2).
Definition hollow (h ro ri : T) (ring : bool) : Shape := Hollow h ro ri ring.
Definition cylinder (r h : T) : Shape := Cylinder r (h / n2).
(** 411-432: scalar frictions are broadcast to 2 * dim walls, a list must have that length *)
Inductive Frictions := FScalar (f : T) | FList (l : list T).
Definition domain (d : Dim) (origin end_ : vec3 T) (fr : Frictions) (off : T) : res Shape :=
  let add v := vtrunc d (vmap (fun x => x + off) v) in
  let walls := (2 * dim_nat d)%nat in
  match fr with
  | FScalar f => Ok (Domain (add origin) (add end_) (repeat f walls))
  | FList l => if Nat.eqb (length l) walls then Ok (Domain (add origin) (add end_) l) else Err ValueError
  end.

(** box-like combination of two or three face distances (55-60, 194-202, 233-240) *)
Definition faces (l : list T) (v : vec3 T) : T :=
  safe_norm (vmap (fun x => nmax x n0) v) + nmin (lmax l) n0.
(** distances to the walls of a domain, lower walls first (434-440) *)
Definition walls (d : Dim) (lo hi p : vec3 T) : list T := axes d (vsub p lo) ++ axes d (vsub hi p).
(** pos_local[jnp.array([0, 2])]: index 2 is clamped to 1 for a 2-D point *)
Definition xz (d : Dim) (p : vec3 T) : vec3 T := V3 (vx p) (match d with D2 => vy p | D3 => vz p end) n0.

(** signed_distance_local of each class *)
Fixpoint dist_local (d : Dim) (s : Shape) (p : vec3 T) : T :=
  match s with
  | Box h => let e := vsub (vmap nabs p) h in faces (axes d e) (vtrunc d e)
  | Sphere r => vnorm p - r
  | Plane n => vdot p n
  | Capsule r hh => safe_norm (V3 (vx p) (vy p - nclip (vy p) (- hh) hh) (vz p)) - r
  | Hollow h ro ri ring =>
      let r := match d with
               | D3 => vnorm (xz D3 p)
               | D2 => if ring then vnorm p else nabs (vx p)
               end in
      let dy := match d with
                | D3 => vy p
                | D2 => if ring then - nofZ (10 ^ 9) else nabs (vy p) - h / n2
                end in
      let dr := nmax (r - ro) (ri - r) in
      faces [dr; dy] (V3 dr dy n0)
  | Cylinder r hh =>
      let dxz := safe_norm (xz d p) - r in
      let dy := nabs (vy p) - hh in
      faces [dxz; dy] (V3 dxz dy n0)
  | Torus R r => vnorm (V3 (safe_norm (xz d p) - R) (vy p) n0) - r
  | Composite l _ => lmin (map (fun s => dist_local d s p) l)
  | Domain lo hi _ => lmin (walls d lo hi p)
  end.

(** sdfobject.py 89-98; DomainSDF overrides it (449-454) *)
Definition to_local (st : SDFState T) (x : vec3 T) : vec3 T :=
  let p := vsub x (sd_com st) in
  match sd_dim st with
  | D2 => rotation_2d_inv (sd_theta st) p
  | D3 => quaternion_rotate (quaternion_inv (sd_quat st)) p
  end.
Definition local_of (s : Shape) (st : SDFState T) (x : vec3 T) : vec3 T :=
  match s with Domain _ _ _ => x | _ => to_local st x end.
(** sdfobject.py 133-137; SphereSDF overrides it (84-89) *)
Definition signed_distance (s : Shape) (st : SDFState T) (x : vec3 T) : T :=
  match s with
  | Sphere r => dist_local (sd_dim st) (Sphere r) (vsub x (sd_com st))
  | _ => dist_local (sd_dim st) s (local_of s st x)
  end.

(** Derivatives of the local distances, as jax.grad computes them: |x| has slope 0 at 0,
    maximum/minimum slope 1/2 at a tie.  (jax.grad of a norm at 0 is NaN; the model has x / 0 there.) *)
Definition dfaces (l : list T) (v : vec3 T) : vec3 T :=
  let vc := vmap (fun x => nmax x n0) v in
  let out := safe_norm vc in
  let m := lmax l in
  vmap (fun x => nmax x n0 / out * dmax x n0 + dmin m n0 * share l m x) v.
Fixpoint grad_local (d : Dim) (s : Shape) (p : vec3 T) : vec3 T :=
  match s with
  | Box h =>
      let e := vsub (vmap nabs p) h in
      vtrunc d (vmap2 (fun g x => g * nsign x) (dfaces (axes d e) (vtrunc d e)) p)
  | Sphere r => vdivs p (vnorm p)
  | Plane n => n
  | Capsule r hh =>
      let c := nclip (vy p) (- hh) hh in
      let dc := dmin (nmax (vy p) (- hh)) hh * dmax (vy p) (- hh) in
      let a := V3 (vx p) (vy p - c) (vz p) in
      let g := vdivs a (safe_norm a) in
      V3 (vx g) (vy g * (n1 - dc)) (vz g)
  | Hollow h ro ri ring =>
      let rv := match d with D3 => V3 (vx p) n0 (vz p) | D2 => p end in
      let r := match d with D3 => vnorm (xz D3 p) | D2 => if ring then vnorm p else nabs (vx p) end in
      let dy := match d with D3 => vy p | D2 => if ring then - nofZ (10 ^ 9) else nabs (vy p) - h / n2 end in
      let gr := match d with
                | D3 => vdivs rv r
                | D2 => if ring then vdivs rv r else V3 (nsign (vx p)) n0 n0
                end in
      let gy := match d with D3 => n1 | D2 => if ring then n0 else nsign (vy p) end in
      let dr := nmax (r - ro) (ri - r) in
      let g := dfaces [dr; dy] (V3 dr dy n0) in
      let k := dmax (r - ro) (ri - r) - dmax (ri - r) (r - ro) in
      vadd (vscale (vx g * k) gr) (V3 n0 (vy g * gy) n0)
  | Cylinder r hh =>
      let q := xz d p in
      let dxz := safe_norm q - r in
      let dy := nabs (vy p) - hh in
      let g := dfaces [dxz; dy] (V3 dxz dy n0) in
      let gq := vscale (vx g) (vdivs q (safe_norm q)) in
      vadd (match d with D3 => V3 (vx gq) n0 (vy gq) | D2 => V3 (vx gq) (vy gq) n0 end)
           (V3 n0 (vy g * nsign (vy p)) n0)
  | Torus R r =>
      let q := xz d p in
      let w := V3 (safe_norm q - R) (vy p) n0 in
      let g := vdivs w (vnorm w) in
      let gq := vscale (vx g) (vdivs q (safe_norm q)) in
      vadd (match d with D3 => V3 (vx gq) n0 (vy gq) | D2 => V3 (vx gq) (vy gq) n0 end) (V3 n0 (vy g) n0)
  | Composite l _ =>
      let ds := map (fun s => dist_local d s p) l in
      fold_right vadd vzero (map (fun s => vscale (share ds (lmin ds) (dist_local d s p)) (grad_local d s p)) l)
  | Domain lo hi _ =>       (* as a part of a composite; its own get_normal is overridden, see [domain_normal] *)
      let ws := walls d lo hi p in
      let m := lmin ws in
      vtrunc d (vsub (vmap (share ws m) (vsub p lo)) (vmap (share ws m) (vsub hi p)))
  end.
(** DomainSDF.get_normal, 471-495: one_hot(argmin mod dim) times +-1 *)
Definition domain_normal (d : Dim) (lo hi p : vec3 T) : vec3 T :=
  let i := argmin (walls d lo hi p) in
  let sgn := if Nat.ltb i (dim_nat d) then n1 else nofZ (-1) in
  let hot k := (if Nat.eqb (i mod dim_nat d)%nat k then n1 else n0) * sgn in
  V3 (hot 0%nat) (hot 1%nat) (match d with D2 => n0 | D3 => hot 2%nat end).
(** chain rule through transform_to_local: the transpose of the inverse rotation is the rotation *)
Definition from_local_dir (st : SDFState T) (g : vec3 T) : vec3 T :=
  match sd_dim st with D2 => rotation_2d (sd_theta st) g | D3 => quaternion_rotate (sd_quat st) g end.
(** sdfobject.py 146-156 *)
Definition get_normal (s : Shape) (st : SDFState T) (x : vec3 T) : vec3 T :=
  match s with
  | Domain lo hi _ => domain_normal (sd_dim st) lo hi x
  | Sphere r => let g := grad_local (sd_dim st) (Sphere r) (vsub x (sd_com st)) in vdivs g (vnorm g + lit 1 (10 ^ 12))
  | _ => let g := from_local_dir st (grad_local (sd_dim st) s (local_of s st x)) in vdivs g (vnorm g + lit 1 (10 ^ 12))
  end.
(** sdfobject.py 157-177; not overridden by any shape *)
Definition get_velocity (st : SDFState T) (x : vec3 T) : vec3 T :=
  let r := vsub x (sd_com st) in
  let c := match sd_dim st with
           | D2 => V3 (- sd_omega st * vy r) (sd_omega st * vx r) n0
           | D3 => vcross (sd_w st) r
           end in
  vadd (sd_vel st) c.
(** sdfobject.py 179-188 (no shape has an attribute friction), CompositeSDF 380-388, DomainSDF 461-469 *)
Definition surface_friction (s : Shape) (st : SDFState T) (x : vec3 T) : T :=
  match s with
  | Composite l fr =>
      nth_clamped fr (argmin (map (fun s => dist_local (sd_dim st) s (local_of (Composite l fr) st x)) l))
  | Domain lo hi fr => nth_clamped fr (argmin (walls (sd_dim st) lo hi x))
  | _ => n1
  end.
(** sdfobject.py 111-131; DomainSDF 455-456 *)
Definition update_kinematics (s : Shape) (st : SDFState T) (dt : T) : SDFState T :=
  match s with
  | Domain _ _ _ => st
  | _ =>
    {| sd_dim := sd_dim st; sd_com := vadd (sd_com st) (vscale dt (sd_vel st)); sd_vel := sd_vel st;
       sd_theta := match sd_dim st with D2 => sd_theta st + sd_omega st * dt | D3 => sd_theta st end;
       sd_omega := sd_omega st;
       sd_quat := match sd_dim st with D2 => sd_quat st | D3 => integrate_quaternion (sd_quat st) (sd_w st) dt end;
       sd_w := sd_w st |}
  end.
(** the interface the solvers use *)
Definition logic_of (s : Shape) : SDFLogic T :=
  {| sl_dist := signed_distance s; sl_normal := get_normal s; sl_velocity := fun st x _ => get_velocity st x;
     sl_friction := surface_friction s; sl_update := update_kinematics s |}.

(** sdfobject.py 59-86: create_state *)
Definition create_sdf_state (d : Dim) (com : vec3 T) (vel : option (vec3 T)) (omega theta : option T)
    (w : option (vec3 T)) (q : option (quat T)) : SDFState T :=
  {| sd_dim := d; sd_com := com; sd_vel := match vel with Some v => v | None => vzero end;
     sd_theta := match theta with Some a => a | None => n0 end;
     sd_omega := match omega with Some a => a | None => n0 end;
     sd_quat := match q with Some a => a | None => Quat n1 vzero end;
     sd_w := match w with Some a => a | None => vzero end |}.
(** get_world_aabb() called without an argument: the base method (143-144) requires one, DomainSDF's (458-459) does not *)
Definition world_aabb (s : Shape) : res (vec3 T * vec3 T) :=
  match s with Domain lo hi _ => Ok (lo, hi) | _ => Err TypeError end.

(** MaterialPointCloudSDF 498-552: the distance to a cloud of points with initial volumes.
    jax.nn.logsumexp subtracts the maximum first. *)
Definition logsumexp (l : list T) : T :=
  let m := lmax l in m + nln (fold_right nadd n0 (map (fun x => nexp (x - m)) l)).
Definition point_radius (d : Dim) (v : T) : T :=
  match d with
  | D2 => nsqrt (v / npi + lit 1 (10 ^ 12))
  | D3 => npow (n3 * v / (nofZ 4 * npi)) (n1 / n3)
  end.
Definition cloud_dists (d : Dim) (pts : list (vec3 T * T)) (x : vec3 T) : list T :=
  map (fun pv => vnorm (vsub x (fst pv)) - point_radius d (snd pv)) pts.
Definition cloud_distance (k : T) (d : Dim) (pts : list (vec3 T * T)) (x : vec3 T) : T :=
  if lit 1 1000 <? k then - logsumexp (map (fun e => - k * e) (cloud_dists d pts x)) / k
  else lmin (cloud_dists d pts x).
End SDF.
Arguments Shape T : clear implicits.
Arguments Frictions T : clear implicits.
