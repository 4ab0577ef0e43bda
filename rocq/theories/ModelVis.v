(** common/vtk_io.py and common/rerun.py: what is handed to PyVista and Rerun.

    A file is the record written into it; PyVista's and Rerun's own encodings, the viewer process and skimage's contour and
    marching cubes extraction (an argument here) are not modelled.  NaN is not modelled, so np.nan_to_num is the identity. *)
From Coq Require Import List ZArith Bool String Ascii.
From Verif Require Import Num Linalg Arrays ModelGrid ModelShape ModelState ModelSDF ModelGen ModelIO.
Import ListNotations.

Section Vis.
Context {T : Type} `{NumT T}.
Local Open Scope num_scope.

(** vtk_io.py 61-68, rerun.py 181-188: radius of the drawn point from its initial volume (no regularisation, unlike [point_radius]) *)
Definition vis_radius (d : Dim) (scale v : T) : T :=
  match d with
  | D2 => nsqrt (v / npi)
  | D3 => npow (n3 * v / (nofZ 4 * npi)) (n1 / n3)
  end * scale.

(** a property of the points: rank 1, rank 2 with rows of a width, rank 3 with 3x3 matrices (getattr(mp_state, property_name)) *)
Inductive PropData := PScalar (l : list T) | PRows (w : nat) (l : list (list T)) | PTensor (l : list (mat3 T)).
(** vtk_io.py 86-93 *)
Definition vtk_prop (p : PropData) : PropData :=
  match p with
  | PRows w l => if Nat.eqb w 2 then PRows 3 (map (fun r => r ++ [n0]) l) else p
  | _ => p
  end.

(** what is saved: a point cloud, a box (log_static_domain), a surface (log_sdf) *)
Record Cloud := { vc_pos : list (vec3 T); vc_prop : PropData; vc_radius : list T; vc_time : option T }.
Record Mesh := { vm_pts : list (vec3 T); vm_cells : list nat; vm_time : option T }.
Inductive VFile := VCloud (c : Cloud) | VBox (lo hi : vec3 T) | VMesh (m : Mesh).
Local Notation VFS := (FS VFile unit unit).
(** vtk_io.py 38-46: os.makedirs(exist_ok) and save; a label is one path component *)
Definition vtk_save (f : VFS) (d : path) (label name : string) (x : VFile) : VFS * io unit :=
  let t := (d ++ [label])%list in
  if blocked f t then (f, Bad NotDirectory)
  else write {| fs_files := fs_files f; fs_dirs := prefixes t ++ fs_dirs f |} t name (FState x).
(** vtk_io.py 106-107, 213-214 *)
Definition vtk_name (step : Z) : string := ("step_" ++ fmt05 step ++ ".vtp")%string.

(** vtk_io.py 48-108.  Without a property name the variable prop_data is never bound (70-71, 82); a name that is not an attribute is not modelled. *)
Definition vtk_cloud (s : SoftBody T) (prop : option PropData) (scale : T) (time : option T) : res Cloud :=
  match prop with
  | None => Err UnboundLocalError
  | Some p => Ok {| vc_pos := map (fun q => vtrunc (sb_dim s) (pt_pos q)) (sb_pts s); vc_prop := vtk_prop p;
                    vc_radius := map (fun q => vis_radius (sb_dim s) scale (pt_vol0 q)) (sb_pts s); vc_time := time |}
  end.
Definition log_particles (f : VFS) (d : path) (label : string) (s : SoftBody T) (prop : option PropData) (scale : T) (time : option T) (step : option Z)
  : VFS * res (io unit) :=
  match vtk_cloud s prop scale time with
  | Err e => (f, Err e)
  | Ok c => let r := vtk_save f d label (vtk_name (match step with Some k => k | None => 0%Z end)) (VCloud c) in (fst r, Ok (snd r))
  end.
(** vtk_io.py 111-130: the box from the origin to one cell beyond the end *)
Definition vtk_box (d : Dim) (origin end_ : vec3 T) (cell : T) : vec3 T * vec3 T :=
  match d with
  | D2 => (V3 (vx origin) (vy origin) (- lit 1 100), V3 (vx end_ + cell) (vy end_ + cell) (lit 1 100))
  | D3 => (origin, V3 (vx end_ + cell) (vy end_ + cell) (vz end_ + cell))
  end.
(** rerun.py 241-243, 264-300: the second coordinate is mirrored in 2-D; a box is a corner and its sizes *)
Definition rr_pos (d : Dim) (p : vec3 T) : vec3 T := match d with D2 => V3 (vx p) (- vy p) n0 | D3 => p end.
Definition rr_box (d : Dim) (origin end_ : vec3 T) (cell : T) : vec3 T * vec3 T :=
  let e := vadd end_ (V3 (n1 * cell) (n1 * cell) (n1 * cell)) in
  let o' := rr_pos d origin in let e' := rr_pos d e in (o', vsub e' o').

(** rerun.py 212-238: scalars behind the colours.  np.min and np.max of an empty array raise ValueError. *)
Definition lnorm (r : list T) : T := nsqrt (fold_right nadd n0 (map (fun x => x * x) r)).
Definition magnitude (p : PropData) : list T :=
  match p with
  | PScalar l => l
  | PRows _ l => map lnorm l
  | PTensor l => map (fun m => nsqrt (mddot m m)) l
  end.
Definition limit (o : option T) (f : list T -> T) (l : list T) : res T :=
  match o, l with Some x, _ => Ok x | None, [] => Err ValueError | None, _ => Ok (f l) end.
Definition normalise (vmin vmax : option T) (l : list T) : res (list T) :=
  rbind (limit vmin lmin l) (fun lo => rbind (limit vmax lmax l) (fun hi =>
    Ok (if hi - lo <? lit 1 (10 ^ 6) then map (fun _ => n0) l else map (fun x => (x - lo) / (hi - lo)) l))).

(** vtk_io.py 150-167, rerun.py 327-345: the sampled region, its spacing, the number of samples per axis (1 along the missing axis in 2-D)
    and the samples in C order.  A negative extent makes np.indices raise ValueError.  An extent that is not positive anywhere is not modelled. *)
Definition vis_extent (start end_ : vec3 T) : vec3 T := vsub (vscale (lit 105 100) end_) (vscale (lit 95 100) start).
Definition vis_step (d : Dim) (start end_ : vec3 T) (resolution : Z) : T := lmax (axes d (vis_extent start end_)) / nofZ resolution.
Definition vis_counts (d : Dim) (start end_ : vec3 T) (resolution : Z) : vec3 Z :=
  let e := vis_extent start end_ in let h := vis_step d start end_ resolution in
  V3 (nceil (vx e / h)) (nceil (vy e / h)) (match d with D2 => 1%Z | D3 => nceil (vz e / h) end).
Definition vis_point (d : Dim) (start : vec3 T) (h : T) (i : vec3 Z) : vec3 T :=
  vtrunc d (vadd (V3 (nofZ (vx i) * h) (nofZ (vy i) * h) (nofZ (vz i) * h)) start).
Definition vis_samples (d : Dim) (start end_ : vec3 T) (resolution : Z) : res (list (vec3 T)) :=
  let n := vis_counts d start end_ resolution in let h := vis_step d start end_ resolution in
  if ((vx n <? 0) || (vy n <? 0) || (vz n <? 0))%Z%bool then Err ValueError
  else Ok (flat_map (fun i => flat_map (fun j => map (fun k => vis_point d start h (V3 i j k)) (zrange 0 (Z.to_nat (vz n))))
                     (zrange 0 (Z.to_nat (vy n)))) (zrange 0 (Z.to_nat (vx n)))).

(** vtk_io.py 172-196: contours in index coordinates become poly-lines of one point list *)
Definition contour_point (start : vec3 T) (h : T) (c : T * T) : vec3 T := V3 (vx start + fst c * h) (vy start + snd c * h) n0.
Fixpoint poly_lines (offset : nat) (cs : list (list (T * T))) : list nat :=
  match cs with
  | [] => []
  | c :: r => List.length c :: seq offset (List.length c) ++ poly_lines (offset + List.length c) r
  end.
Definition vtk_contours (start : vec3 T) (h : T) (cs : list (list (T * T))) (time : option T) : option Mesh :=
  match cs with
  | [] => None
  | _ => Some {| vm_pts := flat_map (map (contour_point start h)) cs; vm_cells := poly_lines 0 cs; vm_time := time |}
  end.
(** vtk_io.py 199-207: vertices in index coordinates and triangles *)
Definition vtk_surface (start : vec3 T) (h : T) (verts : list (vec3 T)) (faces : list (nat * nat * nat)) (time : option T) : Mesh :=
  {| vm_pts := map (fun v => vadd start (vscale h v)) verts;
     vm_cells := flat_map (fun f => [3; fst (fst f); snd (fst f); snd f]%nat) faces; vm_time := time |}.
(** vtk_io.py 209-214: the suffix "static" is computed and not used; int(None) raises TypeError *)
Definition log_mesh (f : VFS) (d : path) (label : string) (m : option Mesh) (step : option Z) : VFS * res (option (io unit)) :=
  match m, step with
  | None, _ => (f, Ok None)
  | Some _, None => (f, Err TypeError)
  | Some x, Some k => let r := vtk_save f d label (vtk_name k) (VMesh x) in (fst r, Ok (Some (snd r)))
  end.
(** rerun.py 377-396: vertices as they are, normals with the first two components exchanged *)
Definition rr_vertex (start : vec3 T) (h : T) (v : vec3 T) : vec3 T := V3 (vx start + vx v * h) (vy start + vy v * h) (vz start + vz v * h).
Definition rr_normal (n : vec3 T) : vec3 T := V3 (vy n) (vx n) (vz n).
End Vis.
