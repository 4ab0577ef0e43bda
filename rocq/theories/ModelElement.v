(** element_tests/driver.py and element_tests/triaxial_test.py. *)
From Coq Require Import List ZArith Bool.
From Verif Require Import Num Linalg Arrays ModelGrid ModelShape ModelMath ModelState ModelLaws ModelSDF.
Import ListNotations.

Section Element.
Context {T : Type} `{NumT T}.
Local Open Scope num_scope.
(** jax.scipy.linalg.expm, jax.grad of a scalar function, and isnan | isinf (triaxial_test.py 88) are parameters *)
Record Ext := { expm : mat3 T -> mat3 T; grad : (T -> T) -> T -> T; bad : T -> bool }.
Context (X : Ext).

(** driver.py 7-10 *)
Record Driver := { dr_law : Law T; dr_linear : bool }.
(** driver.py 17-21, one point.  The flag is the argument of step, not the field. *)
Definition next_F (linear : bool) (L : mat3 T) (dt : T) (F : mat3 T) : mat3 T :=
  if linear then mmul (msub meye (mmap (fun x => x * dt) L)) F
  else mmul (expm X (mmap (fun x => - x * dt) L)) F.
Definition set_LF (p : Particle T) (L F : mat3 T) : Particle T :=
  {| pt_pos := pt_pos p; pt_vel := pt_vel p; pt_mass := pt_mass p; pt_force := pt_force p;
     pt_vol := pt_vol p; pt_vol0 := pt_vol0 p; pt_L := L; pt_stress := pt_stress p; pt_F := F; pt_Fst := pt_Fst p |}.
(** driver.py 43-47: the original point with L and stress of the law's result [q], F_next and the new volume *)
Definition repack (p q : Particle T) (F : mat3 T) : Particle T :=
  {| pt_pos := pt_pos p; pt_vel := pt_vel p; pt_mass := pt_mass p; pt_force := pt_force p;
     pt_vol := mdet F * pt_vol0 p; pt_vol0 := pt_vol0 p; pt_L := pt_L q; pt_stress := pt_stress q; pt_F := F; pt_Fst := pt_Fst p |}.
(** driver.py 12-47.  L_input has shape (n,3,3); a length other than the number of points fails in the vmap of the law.
    [linear] is the argument is_F_linear_approx (default None, i.e. false). *)
Definition drive (D : Driver) (b : SoftBody T) (st : option (LawState T)) (L : list (mat3 T)) (dt : T) (linear : bool)
  : res (SoftBody T * option (LawState T)) :=
  if Nat.eqb (length L) (length (sb_pts b)) then
    let Fs := map (fun pl => next_F linear (snd pl) dt (pt_F (fst pl))) (combine (sb_pts b) L) in
    let tmp := set_pts b (map (fun x => set_LF (fst (fst x)) (snd (fst x)) (snd x)) (combine (combine (sb_pts b) L) Fs)) in
    rbind (law_update (dr_law D) tmp st dt) (fun r =>
      Ok ({| sb_dim := sb_dim b;
             sb_pts := map (fun x => repack (fst (fst x)) (snd (fst x)) (snd x)) (combine (combine (sb_pts b) (sb_pts (fst r))) Fs);
             sb_storeF := sb_storeF b; sb_vol0d := false |}, snd r))
  else Err ValueError.

(** triaxial_test.py 9-19; rates and time steps are numbers or arrays *)
Inductive Input := Const (x : T) | Array (l : list T).
Record Triaxial := {
  tx_driver : Driver; tx_confine : T; tx_rate : Input; tx_dt : Input;
  tx_undrained : bool; tx_p_constant : bool; tx_num_steps : option nat; tx_newton : nat; tx_stride : nat; tx_static : bool
}.
(** 41-54: an index inside a traced loop is clamped *)
Definition at_ (s : Input) (i : nat) : T := match s with Const x => x | Array l => nth_clamped l i end.
Definition state := (SoftBody T * option (LawState T))%type.
(** 63-66 and 101-104, 111-114 *)
Definition rates (lateral axial : T) : mat3 T := mdiag lateral lateral axial.
(** 62-78; the value is used only where the step succeeds (whether it does depends on shapes, not on the rate) *)
Definition residual (t : Triaxial) (s : state) (rate dt lateral : T) : T :=
  match drive (tx_driver t) (fst s) (snd s) [rates lateral rate] dt false with
  | Ok (b, _) =>
      match sb_pts b with
      | p :: _ => if tx_p_constant t then mtrace (pt_stress p) / n3 - tx_confine t else m00 (pt_stress p) - tx_confine t
      | [] => n0
      end
  | Err _ => n0
  end.
(** 80-98 *)
Definition newton_step (r : T -> T) (x : T) : T :=
  let x1 := x + lit 8 10 * (- r x / grad X r x) in if bad X x1 then x else x1.
Definition lateral_drained (t : Triaxial) (s : state) (rate dt : T) : T :=
  Nat.iter (tx_newton t) (newton_step (residual t s rate dt)) n0.
(** 106-115 *)
Definition lateral_undrained (rate : T) : T := lit (-5) 10 * rate.
(** 56-60, 117-120: one step with index [i] *)
Definition tx_step (t : Triaxial) (s : state) (i : nat) : res state :=
  let rate := at_ (tx_rate t) i in let dt := at_ (tx_dt t) i in
  let lat := if tx_undrained t then lateral_undrained rate else lateral_drained t s rate dt in
  drive (tx_driver t) (fst s) (snd s) [rates lat rate] dt false.
(** 124-131 *)
Definition static_run (t : Triaxial) (s : state) (i : nat) : res state :=
  if (tx_static t && Nat.eqb i 0)%bool then Ok s else tx_step t s i.
(** 133-138, 150: the last state of each chunk *)
Fixpoint chunks (t : Triaxial) (s : state) (l : list (list nat)) : res (list state) :=
  match l with
  | [] => Ok []
  | c :: r => rbind (rfold (static_run t) s c) (fun s1 => rbind (chunks t s1 r) (fun out => Ok (s1 :: out)))
  end.
(** all_indices.reshape((n, stride)) *)
Fixpoint rows (n stride start : nat) : list (list nat) :=
  match n with O => [] | S k => seq start stride :: rows k stride (start + stride) end.
(** 140-150.  stride = 0 is a ZeroDivisionError, a reshape that does not fit a TypeError.
    The final squeeze (152-165) only drops axes of length one. *)
Definition tx_length (t : Triaxial) : res nat :=
  match tx_rate t with
  | Array l => Ok (length l)
  | Const _ => oget (tx_num_steps t) TypeError
  end.
Definition tx_run (t : Triaxial) (s : state) : res (list state) :=
  rbind (tx_length t) (fun n =>
  match tx_stride t with
  | O => Err ZeroDivisionError
  | S _ => let m := (n / tx_stride t)%nat in
           if Nat.eqb (m * tx_stride t) n then chunks t s (rows m (tx_stride t) 0) else Err TypeError
  end).
(** 25-37: axial_strain_stack, for time steps and rates both arrays of one length, or both numbers *)
Fixpoint every {A} (k : nat) (fuel : nat) (l : list A) : list A :=
  match fuel, l with S f, x :: _ => x :: every k f (skipn k l) | _, _ => [] end.
Fixpoint cumsum (acc : T) (l : list T) : list T := match l with [] => [] | x :: r => (acc + x) :: cumsum (acc + x) r end.
Definition axial_strain_stack (t : Triaxial) : res (list T) :=
  match tx_dt t, tx_rate t with
  | Array ds, Array rs =>
      if Nat.eqb (length ds) (length rs)
      then let l := cumsum n0 (map (fun rd => fst rd * snd rd) (combine rs ds)) in Ok (every (tx_stride t) (length l) l)
      else Err TypeError
  | Const d, Const r =>
      rbind (oget (tx_num_steps t) TypeError) (fun n =>
        let stop := r * d * nofZ (Z.of_nat n) in
        (* jnp.linspace(0, stop, n): the single point of n = 1 is 0 *)
        let l := map (fun i => stop * (nofZ (Z.of_nat i) / nofZ (Z.of_nat (n - 1)))) (seq 0 n) in
        Ok (every (tx_stride t) (length l) l))
  | _, _ => Err NotImplementedErr       (* mixed shapes: not modelled *)
  end.
End Element.
Arguments Ext T : clear implicits.
Arguments Driver T : clear implicits.
Arguments Triaxial T : clear implicits.
Arguments Input T : clear implicits.
