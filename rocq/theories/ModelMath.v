(** utils/math_helpers.py.  Scalars and 3x3 tensors; the "_stack" variants of the file are maps of these. *)
From Coq Require Import List ZArith Bool.
From Verif Require Import Num Linalg ModelGrid ModelShape.
Import ListNotations.

Section Math.
Context {T : Type} `{Num T}.
Local Open Scope num_scope.

(** math_helpers.py 14-16 (also 473-486 get_skew_tensor) *)
Definition get_spin_tensor (L : mat3 T) : mat3 T := mscale (lit 1 2) (msub L (mtrans L)).
(** math_helpers.py 19-21 (also 443-456, 189-193 get_strain_rate_tensor) *)
Definition get_sym_tensor (L : mat3 T) : mat3 T := mscale (lit 1 2) (madd L (mtrans L)).
(** math_helpers.py 24-28 *)
Definition get_jaumann_increment (t W : mat3 T) (dt : T) : mat3 T :=
  madd t (mscale dt (msub (mmul W t) (mmul t W))).
(** math_helpers.py 54-60 *)
Definition get_double_contraction (a b : mat3 T) : T := mddot a b.
(** math_helpers.py 62-75 *)
Definition get_pressure (s : mat3 T) : T := lit 1 3 * mtrace s.
(** math_helpers.py 78-102; [None] means the pressure argument was not given *)
Definition get_dev_stress (s : mat3 T) (p : option T) : mat3 T :=
  msub s (mscale (match p with Some q => q | None => get_pressure s end) meye).
(** math_helpers.py 105-116; ValueError when neither stress nor dev_stress is given *)
Definition get_J2 (stress dev : option (mat3 T)) (p : option T) : res T :=
  match dev, stress with
  | Some s, _ => Ok (lit 1 2 * get_double_contraction s s)
  | None, Some sg => let s := get_dev_stress sg p in Ok (lit 1 2 * get_double_contraction s s)
  | None, None => Err ValueError
  end.
(** the same with the deviator at hand *)
Definition J2_dev (s : mat3 T) : T := lit 1 2 * get_double_contraction s s.
(** math_helpers.py 149-151 *)
Definition get_volumetric_strain (e : mat3 T) : T := mtrace e.
(** math_helpers.py 225-235 *)
Definition get_dev_strain (e : mat3 T) (v : option T) : mat3 T :=
  msub e (mscale (match v with Some x => x | None => get_volumetric_strain e end / n3) meye).
(** math_helpers.py 287-289: calls itself unconditionally *)
Fixpoint get_dev_strain_stack_fuel (fuel : nat) (l : list (mat3 T)) : res (list (mat3 T)) :=
  match fuel with
  | O => Err RecursionError           (* Python's recursion limit *)
  | S f => get_dev_strain_stack_fuel f l
  end.
(** math_helpers.py 225: number of positional parameters of get_dev_strain *)
Definition get_dev_strain_max_args : nat := 2.
(** a Python call with [n] positional arguments of a function accepting at most [m] *)
Definition call_pos {A} (m n : nat) (r : res A) : res A := if Nat.leb n m then r else Err TypeError.
(** math_helpers.py 330-332 *)
Definition get_KE (m : T) (v : vec3 T) : T := lit 1 2 * m * vdot v v.
(** math_helpers.py 370-375 *)
Definition get_plastic_strain (e ee : mat3 T) : mat3 T := msub e ee.
(** math_helpers.py 384-386 *)
Definition get_small_strain (F : mat3 T) : mat3 T := msub (mscale (lit 1 2) (madd (mtrans F) F)) meye.
(** math_helpers.py 398-401 *)
Definition phi_to_e (phi : T) : T := n1 / phi - n1.
(** math_helpers.py 411-426 *)
Definition e_to_phi (e : T) : T := n1 / (n1 + e).
(** math_helpers.py 503-517 *)
Definition get_phi_from_L (L : mat3 T) (phi dt : T) : T :=
  phi / (n1 - get_volumetric_strain (mscale dt (get_sym_tensor L))).
(** math_helpers.py 520-522 *)
Definition get_e_from_bulk_density (abs_rho bulk_rho : T) : T := abs_rho / bulk_rho.
(** math_helpers.py 525-528 *)
Definition get_phi_from_bulk_density (abs_rho bulk_rho : T) : T := e_to_phi (get_e_from_bulk_density abs_rho bulk_rho).
(** math_helpers.py 574-592 (one entry of the stack) *)
Definition reconstruct_stress_from_triaxial (p q : T) : mat3 T :=
  let sv := p + lit 2 3 * q in let sh := p - lit 1 3 * q in mdiag sh sh sv.
(** math_helpers.py 595-620.  [res = d*slope + (inv_d - d*slope)]; stop_gradient is the identity on values. *)
Definition safe_inv_slope (d clip : T) : T :=
  let ds := d + lit 1 (10 ^ 20) * (if n0 <=? d then n1 else nofZ (-1)) in
  let g := nofZ (-1) / (ds * ds) in
  g * nmin n1 (clip / (nabs g + lit 1 (10 ^ 12))).
Definition safe_inv_scalar_clamped (d clip : T) : T :=
  let ds := d + lit 1 (10 ^ 20) * (if n0 <=? d then n1 else nofZ (-1)) in
  let inv := n1 / ds in
  let sl := safe_inv_slope d clip in
  d * sl + (inv - d * sl).
(** math_helpers.py 31-51; default gradient_clip_val = 1e6 is passed explicitly *)
Definition inv_3x3_robust (m : mat3 T) (clip : T) : mat3 T :=
  let a := m00 m in let b := m01 m in let c := m02 m in
  let d := m10 m in let e := m11 m in let f := m12 m in
  let g := m20 m in let h := m21 m in let i := m22 m in
  let A := e * i - f * h in
  let B := - (d * i - f * g) in
  let C := d * h - e * g in
  let D := - (b * i - c * h) in
  let E := a * i - c * g in
  let F := - (a * h - b * g) in
  let G := b * f - c * e in
  let HH := - (a * f - c * d) in
  let I := a * e - b * d in
  let det := a * A + b * B + c * C in
  let inv_det := safe_inv_scalar_clamped det clip in
  mmap (fun x => x * inv_det) (M3 A D G B E HH C F I).
(** 2x2 matrices of the Newton iterations *)
Record mat2 := M2 { a00 : T; a01 : T; a10 : T; a11 : T }.
Definition m2v (m : mat2) (v : T * T) : T * T :=
  (a00 m * fst v + a01 m * snd v, a10 m * fst v + a11 m * snd v).
(** math_helpers.py 623-636 *)
Definition inv_2x2_robust (m : mat2) (clip : T) : mat2 :=
  let det := a00 m * a11 m - a01 m * a10 m in
  let inv_det := safe_inv_scalar_clamped det clip in
  M2 (a11 m * inv_det) (- a01 m * inv_det) (- a10 m * inv_det) (a00 m * inv_det).

(** quaternions [w; x; y; z] *)
Record quat := Quat { qw : T; qv : vec3 T }.
(** math_helpers.py 647-656 *)
Definition quaternion_rotate (q : quat) (v : vec3 T) : vec3 T :=
  let uv := vcross (qv q) v in
  let uuv := vcross (qv q) uv in
  vadd v (vscale n2 (vadd (vscale (qw q) uv) uuv)).
(** math_helpers.py 659-661 *)
Definition quaternion_inv (q : quat) : quat := Quat (qw q) (vopp (qv q)).
(** math_helpers.py 696-709: the unnormalised update q + dt/2 * (0,w) * q *)
Definition quat_raw (q : quat) (w : vec3 T) (dt : T) : quat :=
  let k := lit 1 2 * dt in
  let bx := vx w in let by_ := vy w in let bz := vz w in
  let aw := qw q in let ax := vx (qv q) in let ay := vy (qv q) in let az := vz (qv q) in
  Quat (aw + k * (- bx * ax - by_ * ay - bz * az))
       (V3 (ax + k * (bx * aw + by_ * az - bz * ay))
           (ay + k * (- bx * az + by_ * aw + bz * ax))
           (az + k * (bx * ay - by_ * ax + bz * aw))).
Definition quat_norm2 (q : quat) : T := qw q * qw q + vnorm2 (qv q).
(** math_helpers.py 715-716 *)
Definition rotate_2d_update (theta omega dt : T) : T := theta + omega * dt.
End Math.
Arguments mat2 T : clear implicits.
Arguments quat T : clear implicits.

Section MathT.
Context {T : Type} `{NumT T}.
Local Open Scope num_scope.
(** math_helpers.py 119-139 *)
Definition get_q_vm (stress dev : option (mat3 T)) (p : option T) : res T :=
  rbind (get_J2 stress dev p) (fun j => Ok (nsqrt (n3 * j))).
Definition q_vm_dev (s : mat3 T) : T := nsqrt (n3 * J2_dev s).
(** math_helpers.py 141-146 *)
Definition get_scalar_shear_stress (stress dev : option (mat3 T)) (p : option T) : res T :=
  rbind (get_J2 stress dev p) (fun j => Ok (nsqrt j)).
(** math_helpers.py 195-222 *)
Definition get_shear_strain_vm (strain dev : option (mat3 T)) : res T :=
  let fin e := nsqrt (lit 2 3 * mddot e e + lit 1 (10 ^ 16)) in
  match dev, strain with
  | Some e, _ => Ok (fin e)
  | None, Some s => Ok (fin (get_dev_strain s None))
  | None, None => Err ValueError
  end.
(** math_helpers.py 307-314: without dev_strain it calls get_dev_strain with three positional arguments *)
Definition get_scalar_shear_strain (strain dev : option (mat3 T)) (v : option T) : res T :=
  let fin e := nsqrt (lit 1 2 * mtrace (mmul e (mtrans e))) in
  match dev with
  | Some e => Ok (fin e)
  | None => rbind (call_pos get_dev_strain_max_args 3 (rbind (oget strain AttributeError) (fun s => Ok (get_dev_strain s v))))
                  (fun e => Ok (fin e))
  end.
(** math_helpers.py 341-356 *)
Definition get_inertial_number (p dgamma d rho : T) : T :=
  (dgamma * d) / nsqrt (nmax p (lit 1 (10 ^ 6)) / rho).
(** math_helpers.py 543-571; jnp.radians(x) = x * pi / 180 *)
Definition precondition_from_lithostatic (rho depth g slope k0 : T) : T * T :=
  let th := slope * (npi / nofZ 180) in
  let sv := rho * g * depth * ncos th in
  let tau := rho * g * depth * nsin th in
  let sh := k0 * sv in
  ((sv + n2 * sh) / n3, nsqrt (sq (sv - sh) + n3 * sq tau)).
(** math_helpers.py 639-644 (eps = 1e-12) *)
Definition safe_norm (v : vec3 T) : T := nsqrt (vnorm2 v + lit 1 (10 ^ 12)).
(** math_helpers.py 664-669 and 672-677; the third component of the padded vector is untouched *)
Definition rotation_2d (th : T) (v : vec3 T) : vec3 T :=
  let c := ncos th in let s := nsin th in
  V3 (c * vx v - s * vy v) (s * vx v + c * vy v) (vz v).
Definition rotation_2d_inv (th : T) (v : vec3 T) : vec3 T :=
  let c := ncos th in let s := nsin th in
  V3 (c * vx v + s * vy v) (- s * vx v + c * vy v) (vz v).
(** math_helpers.py 680-712 *)
Definition integrate_quaternion (q : quat T) (w : vec3 T) (dt : T) : quat T :=
  let r := quat_raw q w dt in
  let n := nsqrt (quat_norm2 r) + lit 1 (10 ^ 12) in
  Quat (qw r / n) (vdivs (qv r) n).
End MathT.
