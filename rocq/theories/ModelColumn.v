(** projects/collapse/collapse.py. *)
From Coq Require Import List ZArith Bool String.
From Verif Require Import Num Linalg Arrays ModelGrid ModelShape ModelMath ModelState ModelLaws ModelForces ModelSolver ModelSDF ModelGen ModelBuilder ModelCollapse ModelTwo.
Import ListNotations.

Section Column.
Context {T : Type} `{NumT T}.
Local Open Scope num_scope.

(** collapse.py 19-27; jnp.deg2rad is x * pi / 180 *)
Definition deg2rad (x : T) : T := x * npi / nofZ 180.
Definition compute_mu (deg : T) : T := nofZ 6 * nsin (deg2rad deg) / (nsqrt n3 * (n3 + nsin (deg2rad deg))).
(** 50 *)
Definition column_sep (cell ppc : T) : T := cell / ppc.
(** 51-52, one axis *)
Definition column_axis (w sep : T) : list T := map (fun v => v + n2 * sep) (frange n0 w sep).
(** 53-55; meshgrid without indexing flattens with y outermost *)
Definition column_points (width height cell ppc : T) : list (vec3 T) :=
  let s := column_sep cell ppc in flat_map (fun y => map (fun x => V3 x y n0) (column_axis width s)) (column_axis height s).
(** 71, 83-88 *)
Definition column_args (width height cell ppc rho : T) : CreateArgs T :=
  let a := column_points width height cell ppc in
  {| ca_dim := D2; ca_pos := Some a; ca_vel := None;
     ca_force := None; ca_mass := None; ca_vol := None; ca_vol0 := None; ca_L := None; ca_stress := None; ca_F := None; ca_storeF := false;
     ca_kw := [KW_density (repeat rho (List.length a)); KW_cell_size cell; KW_ppc ppc] |}.
(** 73-79, 81-118: the calls on the builder, in order.  The padding of add_grid is its default (builder.py 85). *)
Definition column_script (o e : vec3 T) (width height cell ppc rho K nu deg mu g alpha : T) : res (list (Cmd T)) :=
  let n := List.length (column_points width height cell ppc) in
  rbind (domain D2 o e (FScalar mu) (lit 75 100 * cell)) (fun dom => Ok
  [AddPoints (column_args width height cell ppc rho);
   AddGridNew D2 o e cell 3%Z;
   AddLaw (LawDP (drucker_prager K nu (compute_mu deg) n0 n0 n0 n0 rho false)) (Some (dp_create_state (repeat mzero n))) None;
   Couple None None None "quadratic";
   AddGravity (GArray (V3 n0 g n0)) None None true;
   AddSDF dom {| ps_dim := D2; ps_com := None; ps_vel := None; ps_omega := None; ps_theta := None; ps_w := None; ps_quat := None |} None;
   AddCollider None None n0 (column_sep cell ppc);
   SetSolver "usl_aflip" None None None [P_alpha alpha]]).
(** 14-17, 31-39, 102, 108, 118: the numbers of the script *)
Definition column_numbers : res (list (Cmd T)) :=
  column_script (V3 n0 n0 n0) (V3 (lit 6 10) (lit 11 100) n0) (lit 2 10) (lit 1 10) (lit 25 10000) n2 (nofZ 2650) (nofZ (7 * 10 ^ 5)) (lit 3 10)
    (lit 198 10) (lit 9 10) (- lit 981 100) (lit 9 10).
End Column.

Section ColumnRun.
Context {T : Type} `{Num T}.
(** collapse.py 123-124 *)
Definition column_steps (time dt : T) : Z := ntrunc (time / dt)%num.
(** 39, 41-42 *)
Definition column_total : T := n2.
Definition column_output : T := lit 5 100.
Definition column_dt : T := lit 1 (10 ^ 5).
End ColumnRun.
Section ColumnLoop.
Context {T : Type} `{NumT T}.
(** 122-140: the loop is that of collapse_setup.py (ModelCollapse.run_loop: step, then hand the new state to the callback if the
    iteration number is a multiple of the output step).  The callback needs no id here; a positive output step is assumed. *)
Definition column_run (S : Solver T) (total output dt : T) (st : SimState T) : res (SimState T * list (SimState T)) :=
  run_loop S (Some 0%Z) (column_steps output dt) (Z.to_nat (column_steps total dt)) 0 st.
End ColumnLoop.
