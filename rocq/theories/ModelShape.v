(** Model of hydraxmpm/shapefunctions/{linear,quadratic,cubic,mapping}.py. *)
From Coq Require Import List ZArith Arith Bool.
From Verif Require Import Num Linalg Arrays ModelGrid.
Import ListNotations.

Inductive Kernel := Linear | Quadratic | Cubic.
Definition kernel_eqb (a b : Kernel) : bool :=
  match a, b with Linear, Linear => true | Quadratic, Quadratic => true | Cubic, Cubic => true | _, _ => false end.

(** mapping.py 41-45: one-dimensional window offsets of each kernel. *)
Definition window (k : Kernel) : list Z :=
  match k with
  | Linear => [0; 1]
  | Quadratic => [0; 1; 2]
  | Cubic => [-1; 0; 1; 2]
  end%Z.

(** mapping.py 124-130: meshgrid(..., indexing="ij") stacked and flattened, i.e. last axis fastest. *)
Definition stencil (k : Kernel) (d : Dim) : list (vec3 Z) :=
  let w := window k in
  match d with
  | D2 => flat_map (fun i => map (fun j => V3 i j 0%Z) w) w
  | D3 => flat_map (fun i => flat_map (fun j => map (fun l => V3 i j l) w) w) w
  end.
(** mapping.py 107-109: window_size *)
Definition window_size (k : Kernel) (d : Dim) : nat := length (stencil k d).

Section Shape.
Context {T : Type} `{Num T}.
Local Open Scope bool_scope.
Local Open Scope num_scope.

(** linear.py 41-49: one-dimensional tent function and derivative (scaled by inv_h). *)
Definition lin_basis (x : T) : T := if nabs x <? n1 then n1 - nabs x else n0.
Definition lin_dbasis (inv_h x : T) : T := if nabs x <? n1 then (- nsign x) * inv_h else n0.

(** quadratic.py 43-80 *)
Definition quad_basis (x : T) : T :=
  if (lit (-3) 2 <=? x) && (x <=? lit (-1) 2) then lit 1 2 * x * x + lit 3 2 * x + lit 9 8
  else if (lit (-1) 2 <? x) && (x <=? lit 1 2) then (- x) * x + lit 3 4
  else if (lit 1 2 <? x) && (x <=? lit 3 2) then lit 1 2 * x * x - lit 3 2 * x + lit 9 8
  else n0.
Definition quad_dbasis (inv_h x : T) : T :=
  if (lit (-3) 2 <=? x) && (x <=? lit (-1) 2) then inv_h * (x + lit 3 2)
  else if (lit (-1) 2 <? x) && (x <=? lit 1 2) then inv_h * (nofZ (-2) * x)
  else if (lit 1 2 <? x) && (x <=? lit 3 2) then inv_h * (x - lit 3 2)
  else n0.

(** cubic.py 115-140 (middle_splines; mapping.py 198-200 always passes intr_node_type = 0) *)
Definition cub_basis (x : T) : T :=
  if (nofZ (-2) <=? x) && (x <? nofZ (-1)) then ((lit 1 6 * x + n1) * x + n2) * x + lit 4 3
  else if (nofZ (-1) <=? x) && (x <? n0) then (lit (-1) 2 * x - n1) * x * x + lit 2 3
  else if (n0 <=? x) && (x <? n1) then (lit 1 2 * x - n1) * x * x + lit 2 3
  else if (n1 <=? x) && (x <? n2) then ((lit (-1) 6 * x + n1) * x - n2) * x + lit 4 3
  else n0.
Definition cub_dbasis (inv_h x : T) : T :=
  if (nofZ (-2) <=? x) && (x <? nofZ (-1)) then inv_h * ((lit 1 2 * x + n2) * x + n2)
  else if (nofZ (-1) <=? x) && (x <? n0) then inv_h * (lit (-3) 2 * x - n2) * x
  else if (n0 <=? x) && (x <? n1) then inv_h * (lit 3 2 * x - n2) * x
  else if (n1 <=? x) && (x <? n2) then inv_h * ((lit (-1) 2 * x + n2) * x - n2)
  else n0.

(** mapping.py 41-45: kernel registry *)
Definition basis (k : Kernel) : T -> T :=
  match k with Linear => lin_basis | Quadratic => quad_basis | Cubic => cub_basis end.
Definition dbasis (k : Kernel) : T -> T -> T :=
  match k with Linear => lin_dbasis | Quadratic => quad_dbasis | Cubic => cub_dbasis end.

(** linear.py 53-83, quadratic.py 85-111, cubic.py 181-208 (identical tails): tensor products, gradient padded to 3. *)
Definition shape_val (k : Kernel) (d : Dim) (x : vec3 T) : T :=
  match d with
  | D2 => basis k (vx x) * basis k (vy x)
  | D3 => basis k (vx x) * basis k (vy x) * basis k (vz x)
  end.
Definition shape_grad (k : Kernel) (d : Dim) (inv_h : T) (x : vec3 T) : vec3 T :=
  let b0 := basis k (vx x) in let b1 := basis k (vy x) in let b2 := basis k (vz x) in
  let d0 := dbasis k inv_h (vx x) in let d1 := dbasis k inv_h (vy x) in let d2 := dbasis k inv_h (vz x) in
  match d with
  | D2 => V3 (d0 * b1) (d1 * b0) n0
  | D3 => V3 (d0 * b1 * b2) (d1 * b0 * b2) (d2 * b0 * b1)
  end.

(** mapping.py 48-79: one row of InteractionCache *)
Record Interaction := {
  it_point : nat;
  it_stencil : nat;
  it_hash : Z;
  it_val : T;
  it_grad : vec3 T;
  it_dist : vec3 T;
  it_mask : T
}.

(** mapping.py 171-177: leftmost node index of an axis *)
Definition base_id (k : Kernel) (b : T) : Z :=
  match k with Quadratic => nfloor (b - lit 1 2) | _ => nfloor b end.

(** mapping.py 171: base_pos.  In 2-D the third component is kept at 0. *)
Definition base_pos (d : Dim) (origin : vec3 T) (inv_h : T) (xp : vec3 T) : vec3 T :=
  V3 ((vx xp - vx origin) * inv_h) ((vy xp - vy origin) * inv_h)
     (match d with D2 => n0 | D3 => (vz xp - vz origin) * inv_h end).

(** mapping.py 182: node_idx *)
Definition node_idx (k : Kernel) (d : Dim) (bp : vec3 T) (off : vec3 Z) : vec3 Z :=
  V3 (base_id k (vx bp) + vx off)%Z (base_id k (vy bp) + vy off)%Z
     (match d with D2 => 0%Z | D3 => (base_id k (vz bp) + vz off)%Z end).

(** mapping.py 186: is_valid *)
Definition idx_valid (size idx : vec3 Z) : bool :=
  ((0 <=? vx idx) && (vx idx <? vx size) && (0 <=? vy idx) && (vy idx <? vy size)
   && (0 <=? vz idx) && (vz idx <? vz size))%Z.

(** mapping.py 195, 207-210: dist_vec padded to 3 components *)
Definition dist_vec (d : Dim) (bp : vec3 T) (idx : vec3 Z) : vec3 T :=
  V3 (vx bp - nofZ (vx idx)) (vy bp - nofZ (vy idx))
     (match d with D2 => n0 | D3 => vz bp - nofZ (vz idx) end).

(** mapping.py 162-212: compute_single_interaction *)
Definition single_interaction (k : Kernel) (d : Dim) (origin : vec3 T) (size : vec3 Z) (inv_h : T)
    (xp : vec3 T) (off : vec3 Z) (p s : nat) : Interaction :=
  let bp := base_pos d origin inv_h xp in
  let idx := node_idx k d bp off in
  let dist := dist_vec d bp idx in
  let ok := idx_valid size idx in
  {| it_point := p; it_stencil := s;
     it_hash := ravel_clip size idx;
     it_val := if ok then shape_val k d dist else n0;
     it_grad := if ok then shape_grad k d inv_h dist else vzero;
     it_dist := dist;
     it_mask := n1 |}.

(** mapping.py 133-228: ShapeFunctionMapping.compute for dim 2 and 3.
    (For dim 1 the returned rel_dist has one column, which the declared "n_interactions 3" rejects.) *)
Definition compute (k : Kernel) (d : Dim) (origin : vec3 T) (size : vec3 Z) (inv_h : T)
    (positions : list (vec3 T)) : list Interaction :=
  let w := window_size k d in
  map (fun i =>
         let p := (i / w)%nat in let s := (i mod w)%nat in
         single_interaction k d origin size inv_h
           (nth p positions vzero) (nth s (stencil k d) (V3 0%Z 0%Z 0%Z)) p s)
      (seq 0 (length positions * w)).

(** mapping.py 231-303: scatter_to_grid for a datum type [A] (flattened features); features are
    handled as one value with addition and scaling. *)
Definition scatter_to_grid {A} (azero : A) (aadd : A -> A -> A) (ascale : T -> A -> A) (adivs : A -> T -> A)
    (cache : list Interaction) (data : list A) (mass : list T) (ncells : nat)
    (cutoff : T) (normalize : bool) : list A :=
  let w it := it_val it * nth (it_point it) mass n0 in
  let acc := scatter_add aadd (repeat azero ncells)
     (map (fun it => (Z.to_nat (it_hash it), ascale (w it) (nth (it_point it) data azero))) cache) in
  if normalize then
    let wacc := scatter_add nadd (repeat n0 ncells)
       (map (fun it => (Z.to_nat (it_hash it), w it)) cache) in
    map (fun aw => if cutoff <? snd aw then adivs (fst aw) (snd aw) else azero) (combine acc wacc)
  else acc.
End Shape.
Arguments Interaction T : clear implicits.

(** Python exceptions as values. *)
Inductive PyErr := IndexError | AttributeError | TypeError | ValueError | UnboundLocalError
  | RecursionError | KeyError | FileNotFoundError | NotImplementedErr | ZeroDivisionError.
Inductive res (A : Type) := Ok (a : A) | Err (e : PyErr).
Arguments Ok {A}. Arguments Err {A}.
Definition rbind {A B} (x : res A) (f : A -> res B) : res B :=
  match x with Ok a => f a | Err e => Err e end.
Definition oget {A} (o : option A) (e : PyErr) : res A :=
  match o with Some a => Ok a | None => Err e end.
Fixpoint rfold {A S} (f : S -> A -> res S) (s : S) (l : list A) : res S :=
  match l with [] => Ok s | x :: r => rbind (f s x) (fun s' => rfold f s' r) end.
Fixpoint rmap {A B} (f : A -> res B) (l : list A) : res (list B) :=
  match l with
  | [] => Ok []
  | x :: r => rbind (f x) (fun y => rbind (rmap f r) (fun ys => Ok (y :: ys)))
  end.

(** mapping.py 48-89: the attributes InteractionCache has.  gather_from_grid (331-333) reads
    [cache.window_size], an attribute of ShapeFunctionMapping only, before producing its result. *)
Inductive CacheAttr := A_node_hashes | A_shape_vals | A_cpic_mask | A_shape_grads | A_rel_dist
  | A_point_ids | A_stencil_ids | A_dim | A_num_interactions | A_window_size.
(** mapping.py 71-89: fields and properties of InteractionCache *)
Definition has_attr (a : CacheAttr) : bool :=
  match a with A_window_size => false | _ => true end.
Definition getattr {V} (a : CacheAttr) (v : V) : res V :=
  if has_attr a then Ok v else Err AttributeError.

Section Gather.
Context {T : Type} `{Num T}.
(** mapping.py 334-337: segment sum of weighted node data over the points, [num_points] = interactions // window *)
Definition gather_body {A} (azero : A) (aadd : A -> A -> A) (ascale : T -> A -> A)
    (w : nat) (cache : list (Interaction T)) (grid : list A) : list A :=
  scatter_add aadd (repeat azero (length cache / w))
    (map (fun it => (it_point it, ascale (it_val it) (nth (Z.to_nat (it_hash it)) grid azero))) cache).
(** mapping.py 305-337: gather_from_grid *)
Definition gather_from_grid {A} (azero : A) (aadd : A -> A -> A) (ascale : T -> A -> A)
    (wsize : nat) (cache : list (Interaction T)) (grid : list A) : res (list A) :=
  rbind (getattr A_window_size wsize) (fun w => Ok (gather_body azero aadd ascale w cache grid)).
End Gather.

Section On.
Context {T : Type} `{Num T}.
(** usl.py 232-243: compute called with the fields of a grid domain *)
Definition compute_on (k : Kernel) (g : GridDomain T) (xs : list (vec3 T)) : list (Interaction T) :=
  compute k (gd_dim g) (gd_origin g) (gd_size g) (gd_inv g) xs.
End On.
