(** projects/lorentz_collapse/save_data.py: storing the snapshots of a run in half precision.
    Modelled: which arrays are stored, the scaling of the stress, the conversion, the chunk shapes.  Not modelled: the compressor and the zarr
    store (taken to return what was put in), the JSON file of the parameters (38-54), the printed text and the spelling of the keys (87-97: a key
    here is the path of field names and indices). *)
From Coq Require Import List ZArith Reals Bool String.
From Flocq Require Import Core.
From Verif Require Import Num NumR NumFl ModelGrid ModelShape ModelState.
Import ListNotations.
Local Open Scope R_scope.

(** an IEEE half precision number: eleven digits, exponents from -24, largest number 65504 *)
Inductive Half := HFin (x : R) | HInf (negative : bool).
(** array.astype(jnp.float16): rounding to nearest even, to infinity from 65520 on *)
Definition half (x : R) : Half :=
  let r := fl 11 (-24) x in
  if Rle_dec 65536 (Rabs r) then HInf (if Rle_dec x 0 then true else false) else HFin r.

(** a step of the path of an array: GetAttrKey or SequenceKey *)
Inductive Key := Field (name : string) | Index (i : nat).
(** one array of the state: its path, its shape, whether its dtype is floating, and its entries in row-major order *)
Record Leaf := { lf_path : list Key; lf_shape : list nat; lf_float : bool; lf_data : list R }.
(** one array of the store *)
Inductive Entry := EHalf (h : Half) | ESame (x : R).
Record Stored := { st_path : list Key; st_shape : list nat; st_chunks : list nat; st_data : list Entry }.
(** 99-106 *)
Definition chunks (shape : list nat) : list nat :=
  match shape with a :: b :: c :: r => 1%nat :: 1%nat :: c :: r | _ => shape end.
(** 80-119 *)
Definition leaf_to_zarr (to16 : bool) (l : Leaf) : Stored :=
  {| st_path := lf_path l; st_shape := lf_shape l; st_chunks := chunks (lf_shape l);
     st_data := map (fun x => if (lf_float l && to16)%bool then EHalf (half x) else ESame x) (lf_data l) |}.
(** the state: the arrays of every set of material points, and all other arrays.  The path of an array of a set is the name of the field. *)
Record Snapshots := { sn_points : list (list Leaf); sn_rest : list Leaf }.
Definition is_stress (k : list Key) : bool := match k with [Field n] => String.eqb n "stress_stack" | _ => false end.
(** 66-74: the stress of the chosen points in kPa; the division is that of the array's format [p], [e] *)
Definition to_kpa (p e : Z) (l : Leaf) : Leaf :=
  if is_stress (lf_path l)
  then {| lf_path := lf_path l; lf_shape := lf_shape l; lf_float := lf_float l; lf_data := map (fun x => fl p e (x / 1000)) (lf_data l) |}
  else l.
(** the whole state as one tree: world, material_points, index, field *)
Definition in_world (i : nat) (l : Leaf) : Leaf :=
  {| lf_path := Field "world" :: Field "material_points" :: Index i :: lf_path l; lf_shape := lf_shape l; lf_float := lf_float l; lf_data := lf_data l |}.
Definition all_leaves (s : Snapshots) : list Leaf :=
  List.concat (map (fun il => map (in_world (fst il)) (snd il)) (combine (seq 0 (List.length (sn_points s))) (sn_points s))) ++ sn_rest s.
(** 10-121 *)
Definition save_compressed_sim (p e : Z) (to16 only_points : bool) (mp_idx : nat) (s : Snapshots) : res (list Stored) :=
  if only_points
  then rbind (idx (sn_points s) mp_idx) (fun ls => Ok (map (leaf_to_zarr to16) (map (to_kpa p e) ls)))
  else Ok (map (leaf_to_zarr to16) (all_leaves s)).
