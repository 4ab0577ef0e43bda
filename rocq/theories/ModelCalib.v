(** projects/mcc_trx_inverse: the calibration of Cam-Clay parameters on a triaxial test (mcc_trx_inverse.py) and the
    data set of random samples (mcc_trx_data_gen.py). *)
From Coq Require Import List ZArith Bool.
From Verif Require Import Num Linalg Arrays ModelGrid ModelShape ModelMath ModelState ModelLaws ModelSDF ModelElement ModelStrain.
Import ListNotations.

Section Calib.
Context {T : Type} `{NumT T}.
Local Open Scope num_scope.
Context (X : Ext T).

(** mcc_trx_inverse.py 27-33 and 141-143; mcc_trx_data_gen.py 30-36 and 132-134: M, lam, kap_perc, N, nu *)
Definition lower_bounds : list T := [lit 1 2; lit 1 100; lit 1 10; lit 4 10; lit 1 10].
Definition upper_bounds : list T := [n2; lit 2 10; lit 9 10; nofZ 4; lit 45 100].

(** mcc_trx_inverse.py 39-52 (label_idx is not used) *)
Record Loading := { lp_nu : T; lp_M : T; lp_lam : T; lp_kap : T; lp_N : T; lp_pref : T; lp_rho_p : T; lp_OCR : T; lp_confine : T }.
(** mcc_trx_inverse.py 160-166, mcc_trx_data_gen.py 139-149: the fields not given keep their defaults *)
Definition config (params : list T) (confine : T) : Loading :=
  let a i := nth i params n0 in
  {| lp_nu := a 4%nat; lp_M := a 0%nat; lp_lam := a 1%nat; lp_kap := a 1%nat * a 2%nat; lp_N := a 3%nat;
     lp_pref := nofZ 1000; lp_rho_p := nofZ 2675; lp_OCR := n1; lp_confine := confine |}.
(** mcc_trx_inverse.py 71-79 with the defaults of modifiedcamclay.py 160-176 *)
Definition law_of (c : Loading) : MCC T :=
  {| mc_nu := lp_nu c; mc_M := lp_M c; mc_lam := lp_lam c; mc_kap := lp_kap c; mc_N := lp_N c; mc_pref := lp_pref c;
     mc_Kmin := None; mc_Kmax := None; mc_pmin := nofZ 10; mc_rho_p := lp_rho_p c; mc_reset := true |}.
(** mcc_trx_inverse.py 55-61; mcc_trx_data_gen.py 58-65 *)
Record Procedure := { pr_steps : nat; pr_rate : T; pr_undrained : bool; pr_p_constant : bool; pr_dt : T }.
(** mcc_trx_inverse.py 104-112; num_newton_iters is 20 by default (triaxial_test.py 17) *)
Definition test_of (pr : Procedure) (c : Loading) : Triaxial T :=
  {| tx_driver := {| dr_law := LawMCC (law_of c); dr_linear := false |}; tx_confine := lp_confine c;
     tx_rate := Const (pr_rate pr); tx_dt := Const (pr_dt pr); tx_undrained := pr_undrained pr; tx_p_constant := pr_p_constant pr;
     tx_num_steps := Some (pr_steps pr); tx_newton := 20; tx_stride := 1; tx_static := false |}.
(** mcc_trx_inverse.py 85-98: the state before loading *)
Definition initial (c : Loading) : res (SoftBody T * option (LawState T)) :=
  rbind (mcc_create_from_ocr (law_of c) [lp_confine c] [lp_OCR c] None) (fun x =>
  let '(ls, stress, dens) := x in
  rbind (mp_create {| ca_dim := D3; ca_pos := None; ca_vel := None; ca_force := None; ca_mass := None; ca_vol := None; ca_vol0 := None;
                      ca_L := None; ca_stress := Some stress; ca_F := None; ca_storeF := false; ca_kw := [KW_density dens] |})
    (fun b => Ok (b, Some ls))).
(** the single point of a snapshot *)
Definition point_of (s : SoftBody T * option (LawState T)) : res (Particle T) := idx (sb_pts (fst s)) 0.
Definition pressure_of (p : Particle T) : T := get_pressure (pt_stress p).
Definition shear_q (p : Particle T) : res T := get_q_vm (Some (pt_stress p)) None None.
(** mcc_trx_inverse.py 63-116: pressure and q in kPa, axial strain in percent *)
Definition kernel (pr : Procedure) (c : Loading) : res (list T * list T * list T) :=
  rbind (initial c) (fun s =>
  rbind (tx_run X (test_of pr c) s) (fun out =>
  rbind (rmap point_of out) (fun pts =>
  rbind (rmap shear_q pts) (fun qs =>
  rbind (axial_strain_stack (test_of pr c)) (fun es =>
  Ok (map (fun p => pressure_of p / nofZ 1000) pts, map (fun q => q / nofZ 1000) qs, map (fun e => e * nofZ 100) es)))))).

(** jnp.interp: [searchsorted] from the right, clipped to 1 .. n-1; intervals shorter than [eps] give their left value;
    constant beyond both ends.  [xs] is taken to be sorted. *)
Definition searchsorted (xs : list T) (x : T) : nat := length (filter (fun y => y <=? x) xs).
Definition interp (eps : T) (xs ys : list T) (x : T) : T :=
  let n := length xs in
  let i := Nat.min (Nat.max (searchsorted xs x) 1) (n - 1) in
  let x0 := nth (i - 1) xs n0 in let x1 := nth i xs n0 in
  let y0 := nth (i - 1) ys n0 in let y1 := nth i ys n0 in
  let dx := x1 - x0 in
  let f := if nabs dx <=? eps then y0 else y0 + ((x - x0) / dx) * (y1 - y0) in
  if x <? nth 0 xs n0 then nth 0 ys n0 else if nth (n - 1) xs n0 <? x then nth (n - 1) ys n0 else f.
(** jnp.mean *)
Definition mean (l : list T) : T := fold_left (fun a x => a + x) l n0 / nofZ (Z.of_nat (length l)).
(** mcc_trx_inverse.py 168-178, one confinement after the other; [exp_strain] and [exp_q] are the columns of the data file *)
Definition misfit (eps : T) (exp_strain exp_q sim_strain sim_q : list T) : list T :=
  map (fun eq => sq (interp eps sim_strain sim_q (fst eq) - snd eq)) (combine exp_strain exp_q).
(** mcc_trx_inverse.py 120: kernel = LoadingProcedure(is_undrained=True) *)
Definition calib_procedure : Procedure :=
  {| pr_steps := Z.to_nat 1000; pr_rate := lit 2 100; pr_undrained := true; pr_p_constant := false; pr_dt := lit 1 100 |}.
(** mcc_trx_inverse.py 157-178 *)
Definition loss (pr : Procedure) (eps : T) (exp_strain exp_q confines params : list T) : res T :=
  rbind (rmap (fun c => kernel pr (config params c)) confines) (fun outs =>
  Ok (mean (concat (map (fun o => misfit eps exp_strain exp_q (snd o) (snd (fst o))) outs)))).

(** mcc_trx_inverse.py 185-186: the gradient (jax.value_and_grad) and optax.adam are parameters; [S] is the optimizer's state *)
Record Optimizer (S : Type) := { op_grad : (list T -> T) -> list T -> list T; op_update : list (list T) -> S -> list (list T) * S }.
Arguments op_grad {S}. Arguments op_update {S}.
(** jnp.clip with array bounds *)
Definition clip (row : list T) : list T :=
  map (fun x => nmin (nmax (fst x) (fst (snd x))) (snd (snd x))) (combine row (combine lower_bounds upper_bounds)).
(** optax.apply_updates *)
Definition apply_updates (pop updates : list (list T)) : list (list T) :=
  map (fun ru => map (fun xu => fst xu + snd xu) (combine (fst ru) (snd ru))) (combine pop updates).
(** mcc_trx_inverse.py 194-210: the losses are those of the population given *)
Definition update_step {S} (o : Optimizer S) (f : list T -> T) (pop : list (list T)) (st : S) : list (list T) * S * list T :=
  let losses := map f pop in
  let grads := map (op_grad o f) pop in
  let '(updates, st1) := op_update o grads st in
  (map clip (apply_updates pop updates), st1, losses).
(** jnp.argmin: the first index of the least entry *)
Fixpoint argmin_from (i best : nat) (m : T) (l : list T) : nat :=
  match l with [] => best | x :: r => if x <? m then argmin_from (i + 1) i x r else argmin_from (i + 1) best m r end.
Definition argmin (l : list T) : nat := match l with [] => 0%nat | x :: r => argmin_from 1 0 x r end.
Definition least (l : list T) : T := nth (argmin l) l n0.
(** mcc_trx_inverse.py 218-237: population, optimizer state, losses of the last round, best loss of every round *)
Record Calib (S : Type) := { ca_pop : list (list T); ca_opt : S; ca_losses : list T; ca_best : list T }.
Arguments ca_pop {S}. Arguments ca_opt {S}. Arguments ca_losses {S}. Arguments ca_best {S}.
Definition calib_round {S} (o : Optimizer S) (f : list T -> T) (c : Calib S) : Calib S :=
  let '(pop, st, losses) := update_step o f (ca_pop c) (ca_opt c) in
  {| ca_pop := pop; ca_opt := st; ca_losses := losses; ca_best := ca_best c ++ [least losses] |}.
Definition calibrate {S} (o : Optimizer S) (f : list T -> T) (pop : list (list T)) (st : S) (n : nat) : Calib S :=
  Nat.iter n (calib_round o f) {| ca_pop := pop; ca_opt := st; ca_losses := []; ca_best := [] |}.
(** mcc_trx_inverse.py 239-241 *)
Definition best_params {S} (c : Calib S) : list T := nth (argmin (ca_losses c)) (ca_pop c) [].

(** mcc_trx_data_gen.py 155-160: scipy's qmc.scale of a sample of the unit cube *)
Definition scale_sample (u : list T) : list T :=
  map (fun x => fst x * (snd (snd x) - fst (snd x)) + fst (snd x)) (combine u (combine lower_bounds upper_bounds)).
(** mcc_trx_data_gen.py 122-125 *)
Inductive Mode := Drained | Undrained.
Definition mode_procedure (m : Mode) : Procedure :=
  {| pr_steps := Z.to_nat 1000; pr_rate := lit 2 100; pr_dt := lit 1 100;
     pr_undrained := match m with Drained => false | Undrained => true end;
     pr_p_constant := match m with Drained => true | Undrained => false end |}.
(** mcc_trx_data_gen.py 67-120, 139-152, 169-215: what is stored for one sample: strain in percent, stress in kPa, Hencky strain.
    [svd] is jnp.linalg.svd (ModelStrain). *)
Record Sequences := { sq_axial : list T; sq_stress : list (mat3 T); sq_strain : list (mat3 T) }.
Definition sequences (svd : mat3 T -> SVD T) (pr : Procedure) (params : list T) (confine : T) : res Sequences :=
  let c := config params confine in
  rbind (initial c) (fun s =>
  rbind (tx_run X (test_of pr c) s) (fun out =>
  rbind (rmap point_of out) (fun pts =>
  rbind (axial_strain_stack (test_of pr c)) (fun es =>
  Ok {| sq_axial := map (fun e => e * nofZ 100) es; sq_stress := map (fun p => mmap (fun x => x / nofZ 1000) (pt_stress p)) pts;
        sq_strain := map (eps_of svd) pts |})))).
End Calib.
Arguments Loading T : clear implicits.
Arguments Procedure T : clear implicits.
Arguments Optimizer T S : clear implicits.
Arguments op_grad {T S}. Arguments op_update {T S}.
Arguments Calib T S : clear implicits.
Arguments ca_pop {T S}. Arguments ca_opt {T S}. Arguments ca_losses {T S}. Arguments ca_best {T S}.
Arguments Sequences T : clear implicits.
