(** projects/two_sphere_impact/two_sphere_impact.py. *)
From Coq Require Import List ZArith Bool String.
From Verif Require Import Num Linalg Arrays ModelGrid ModelShape ModelMath ModelState ModelLaws ModelForces ModelSolver ModelSDF ModelGen ModelBuilder.
Import ListNotations.

Section Two.
Context {T : Type} `{NumT T}.
Local Open Scope num_scope.

(** jnp.arange(start, stop, step) of floats: ceil((stop - start) / step) entries start + i step.
    (NumPy adds multiples of the rounded difference of the first two entries; the same in exact arithmetic.) *)
Definition frange (start stop step : T) : list T :=
  map (fun i => start + nofZ (Z.of_nat i) * step) (seq 0 (Z.to_nat (nceil ((stop - start) / step)))).
(** two_sphere_impact.py 37 *)
Definition circle_spacing (cell ppc : T) : T := cell / (ppc / n2).
(** 36, 39-40, one axis *)
Definition circle_axis (c radius s : T) : list T := map (fun v => v + lit 1 2 * s) (frange (c - radius) (c + radius + s) s).
(** 43-45 *)
Definition circle_mask (center : vec3 T) (radius : T) (p : vec3 T) : bool :=
  (vx p - vx center) * (vx p - vx center) + (vy p - vy center) * (vy p - vy center) <? radius * radius + lit 5 (10 ^ 5).
(** 34-46; meshgrid without indexing flattens with y outermost.  The cast to float64 is not modelled. *)
Definition create_circle (center : vec3 T) (radius cell ppc : T) : list (vec3 T) :=
  let s := circle_spacing cell ppc in
  filter (circle_mask center radius)
    (flat_map (fun y => map (fun x => V3 x y n0) (circle_axis (vx center) radius s)) (circle_axis (vy center) radius s)).
(** the default of the argument ppc (34) *)
Definition circle_ppc : T := n2.

(** 54-69, 80-86, with the numbers of the script as parameters *)
Definition two_points (c1 c2 : vec3 T) (r h ppc v rho : T) : CreateArgs T :=
  let a := create_circle c1 r h ppc in let b := create_circle c2 r h ppc in
  {| ca_dim := D2; ca_pos := Some (a ++ b);
     ca_vel := Some (map (fun _ => V3 v v n0) a ++ map (fun _ => V3 (- v) (- v) n0) b);
     ca_force := None; ca_mass := None; ca_vol := None; ca_vol0 := None; ca_L := None; ca_stress := None; ca_F := None; ca_storeF := false;
     ca_kw := [KW_density (repeat rho (List.length (a ++ b))); KW_cell_size h; KW_ppc ppc] |}.
(** 77-98: the calls on the builder, in order *)
Definition two_script (c1 c2 : vec3 T) (r h ppc v rho E nu : T) : list (Cmd T) :=
  [AddPoints (two_points c1 c2 r h ppc v rho);
   AddGridNew D2 (V3 n0 n0 n0) (V3 n1 n1 n0) h 2%Z;
   AddLaw (LawLE (linear_elastic E nu true)) None None;
   Couple None None None "linear";
   SetSolver "usl" None None None []].
(** 20-24, 54-55, 65, 69, 92: the numbers of the script *)
Definition two_numbers : list (Cmd T) :=
  two_script (V3 (lit 255 1000) (lit 255 1000) n0) (V3 (lit 745 1000) (lit 745 1000) n0) (lit 2 10) (lit 5 100) (nofZ 4) (lit 1 10)
    (nofZ 1000) (nofZ 1000) (lit 3 10).
(** 25 *)
Definition two_dt : T := lit 1 1000.
End Two.
