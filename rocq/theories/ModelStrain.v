(** Strain measures and the quantities a MaterialPointState derives from its arrays:
    utils/math_helpers.py 155-187, material_points/material_points.py 232-308. *)
From Coq Require Import List ZArith Bool String.
From Verif Require Import Num Linalg ModelGrid ModelShape ModelMath ModelState.
Import ListNotations.
Local Open Scope string_scope.

Section Strain.
Context {T : Type} `{NumT T}.
(** jnp.linalg.svd(F, full_matrices=False): left vectors (columns), singular values, right vectors (rows) *)
Record SVD := mkSVD { svd_u : mat3 T; svd_s : vec3 T; svd_vh : mat3 T }.
Variable svd : mat3 T -> SVD.
Local Open Scope num_scope.

(** math_helpers.py 172-187; jnp.clip with a lower bound only *)
Definition log_stretch (s : T) : T := - nln (nmax s (lit 1 (10 ^ 12))).
Definition get_hencky_strain (F : mat3 T) : mat3 T :=
  let d := svd F in
  let u := svd_u d in
  let s := svd_s d in
  mmul (mmul u (mdiag (log_stretch (vx s)) (log_stretch (vy s)) (log_stretch (vz s)))) (mtrans u).

(** one point's share of the properties of material_points.py *)
Definition eps_of (p : Particle T) : mat3 T := get_hencky_strain (pt_F p).                    (* 275-279 *)
Definition stored_eps_of (p : Particle T) : mat3 T := get_hencky_strain (pt_Fst p).           (* 282-286 *)
Definition shear_of (e : mat3 T) : res T := get_shear_strain_vm (Some e) None.
(** a property of a body: Ok None is Python's None; jax.vmap over None raises ValueError.
    Values are given for the properties with one number per point. *)
Definition derived (b : SoftBody T) (name : string) : res (option (list T)) :=
  let per_point f := rbind (rmap f (sb_pts b)) (fun l => Ok (Some l)) in
  if String.eqb name "density_stack" then per_point (fun p => Ok (density p))                 (* 232-235 *)
  else if String.eqb name "density_ref_stack" then per_point (fun p => Ok (density_ref p))    (* 237-240 *)
  else if String.eqb name "pressure_stack" then per_point (fun p => Ok (get_pressure (pt_stress p)))  (* 242-247 *)
  else if String.eqb name "KE_density_stack" then Ok None                                     (* 249-254 *)
  else if String.eqb name "KE_stack" then per_point (fun p => Ok (KE p))                      (* 256-260 *)
  else if String.eqb name "q_stack" then per_point (fun p => get_q_vm (Some (pt_stress p)) None None)  (* 262-267 *)
  else if String.eqb name "q_p_stack" then Ok None                                            (* 269-273 *)
  else if String.eqb name "eps_v_stack" then per_point (fun p => Ok (get_volumetric_strain (eps_of p)))  (* 288-292 *)
  else if String.eqb name "shear_strain_rate_stack" then per_point (fun p => shear_of (get_sym_tensor (pt_L p)))  (* 294-301 *)
  else if String.eqb name "shear_strain_stack" then per_point (fun p => shear_of (eps_of p))  (* 302-304 *)
  else if String.eqb name "stored_shear_strain_stack" then
    (if sb_storeF b then per_point (fun p => shear_of (stored_eps_of p)) else Err ValueError)  (* 306-308 *)
  else Err AttributeError.
End Strain.
Arguments SVD T : clear implicits.
