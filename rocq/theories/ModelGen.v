(** utils/generate_body.py: generate_particles_in_sdf. *)
From Coq Require Import List ZArith Bool String.
From Verif Require Import Num Linalg Arrays ModelGrid ModelShape ModelMath ModelState ModelForces ModelSDF.
Import ListNotations.

Section Gen.
Context {T : Type} `{NumT T}.
Local Open Scope num_scope.

(** generate_body.py 6-20.  A key is given as the points jax.random.uniform makes of it for a number of points
    (41-44; the generator itself is not modelled).  The dimension is len(bounds_min). *)
Record GenArgs := {
  ga_dim : Dim; ga_min : option (vec3 T); ga_max : option (vec3 T); ga_num : option nat; ga_state : option (SDFState T);
  ga_key : option (nat -> list (vec3 T)); ga_com : option (vec3 T); ga_theta : option T; ga_quat : option (quat T);
  ga_mode : string; ga_cell : option T; ga_ppc : option T
}.
(** the default of the argument mode (17) *)
Definition default_mode : string := "uniform".

(** jnp.ceil(x).astype(int) *)
Definition nceil (x : T) : Z := Z.opp (nfloor (- x)).
(** jnp.arange(s, e) *)
Definition arange (s e : Z) : list Z := map (fun i => (s + Z.of_nat i)%Z) (seq 0 (Z.to_nat (e - s))).
(** jnp.linspace(0, 1, n) and [1::2] *)
Definition linspace01 (n : nat) : list T := map (fun i => nofZ (Z.of_nat i) / nofZ (Z.of_nat (n - 1))) (seq 0 n).
Fixpoint odds {A} (l : list A) : list A := match l with _ :: b :: r => b :: odds r | _ => [] end.
(** meshgrid(..., indexing="ij"), stacked and reshaped to a list of points; z is absent in 2-D *)
Definition mesh {A} (d : Dim) (zero : A) (xs ys zs : list A) : list (vec3 A) :=
  match d with
  | D2 => flat_map (fun x => map (fun y => V3 x y zero) ys) xs
  | D3 => flat_map (fun x => flat_map (fun y => map (fun z => V3 x y z) zs) ys) xs
  end.
(** 48-56: cells covering the bounds, and their origins.  (cell_size = 0 makes the code cast inf to int; not modelled.) *)
Definition cells (d : Dim) (lo hi : vec3 T) (h : T) : list (vec3 Z) :=
  let r f := arange (nfloor (f lo / h)) (nceil (f hi / h)) in mesh d 0%Z (r vx) (r vy) (r vz).
Definition origin_of (h : T) (c : vec3 Z) : vec3 T := V3 (nofZ (vx c) * h) (nofZ (vy c) * h) (nofZ (vz c) * h).
(** 61: int(np.ceil(ppc ** (1 / dim))); (a negative ppc, which makes the power complex, is not modelled) *)
Definition pts_per_dim (d : Dim) (ppc : T) : nat := Z.to_nat (nceil (npow ppc (n1 / nofZ (Z.of_nat (dim_nat d))))).
(** 63-68 *)
Definition offsets (d : Dim) (k : nat) : list (vec3 T) :=
  let lin := odds (linspace01 (k * 2 + 1)) in mesh d n0 lin lin lin.
(** 70-76 *)
Definition regular (d : Dim) (lo hi : vec3 T) (h ppc : T) : list (vec3 T) :=
  flat_map (fun c => map (fun o => vadd (origin_of h c) o) (offsets d (pts_per_dim d ppc))) (cells d lo hi h).
(** 36-76; [None] is a candidate_point_stack left at None *)
Definition candidates (a : GenArgs) (lo : vec3 T) : res (option (list (vec3 T))) :=
  if String.eqb (ga_mode a) "random" then
    match ga_num a, ga_key a with
    | Some n, Some key => match ga_max a with Some _ => Ok (Some (key n)) | None => Err TypeError end
    | _, _ => Err ValueError
    end
  else if String.eqb (ga_mode a) "regular" || String.eqb (ga_mode a) "gauss_legendre" then
    match ga_max a, ga_cell a with
    | Some hi, Some h =>
        if String.eqb (ga_mode a) "regular" then
          match ga_ppc a with Some ppc => Ok (Some (regular (ga_dim a) lo hi h ppc)) | None => Err TypeError end
        else Err TypeError      (* offsets is None *)
    | _, _ => Err TypeError
    end
  else Ok None.
(** 29-35 *)
Definition gen_state (a : GenArgs) (lo : vec3 T) : res (SDFState T) :=
  match ga_state a with
  | Some st => Ok st
  | None =>
      rbind (match ga_com a with
             | Some c => Ok c
             | None => match ga_max a with Some hi => Ok (vdivs (vadd lo hi) n2) | None => Err TypeError end
             end) (fun c => Ok (create_sdf_state (ga_dim a) c None None (ga_theta a) None (ga_quat a)))
  end.
(** 28, 78-87; get_signed_distance_stack(state, None) is a TypeError (annotation of pos_world_stack) *)
Definition generate (s : Shape T) (a : GenArgs) : res (list (vec3 T)) :=
  match ga_min a with
  | None => Err TypeError
  | Some lo =>
      rbind (gen_state a lo) (fun st =>
      rbind (candidates a lo) (fun c =>
      match c with
      | None => Err TypeError
      | Some l => Ok (filter (fun p => signed_distance s st p <? n0) l)
      end))
  end.
End Gen.
Arguments GenArgs T : clear implicits.
