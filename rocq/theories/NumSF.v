(** IEEE binary64 scalars through the standard library's SpecFloat (correctly rounded, round to nearest even).
    Python floats are IEEE binary64, so this instance runs the host-side scalar code of the model
    (GridDomain.create) with the arithmetic Python uses. *)
From Coq Require Import ZArith Bool Floats.SpecFloat.
From Verif Require Import Num.
Local Open Scope Z_scope.

Definition b32_ofZ (z : Z) : spec_float := binary_normalize 24 128 z 0 false.
Definition b64_ofZ (z : Z) : spec_float := binary_normalize 53 1024 z 0 false.
(** truncation towards zero; 0 for infinities and NaN (Python's int() raises there, which does not occur below) *)
Definition b64_trunc (x : spec_float) : Z :=
  match x with
  | S754_finite s m e =>
      let a := match e with Zneg p => Z.div (Zpos m) (Z.pow 2 (Zpos p)) | _ => Zpos m * Z.pow 2 e end in
      if s then - a else a
  | _ => 0
  end.
Definition b64_floor (x : spec_float) : Z :=
  match x with
  | S754_finite s m e =>
      match e with
      | Zneg p => Z.div (if s then Zneg m else Zpos m) (Z.pow 2 (Zpos p))
      | _ => (if s then Zneg m else Zpos m) * Z.pow 2 e
      end
  | _ => 0
  end.
Definition Num_B64 : Num spec_float := {|
  nofZ := b64_ofZ;
  nadd := SFadd 53 1024; nsub := SFsub 53 1024; nmul := SFmul 53 1024; ndiv := SFdiv 53 1024;
  nopp := SFopp; nltb := SFltb; nleb := SFleb; neqb := SFeqb;
  nfloor := b64_floor; ntrunc := b64_trunc |}.
(** binary32, what JAX arrays hold unless 64-bit mode is switched on *)
Definition Num_B32 : Num spec_float := {|
  nofZ := b32_ofZ;
  nadd := SFadd 24 128; nsub := SFsub 24 128; nmul := SFmul 24 128; ndiv := SFdiv 24 128;
  nopp := SFopp; nltb := SFltb; nleb := SFleb; neqb := SFeqb;
  nfloor := b64_floor; ntrunc := b64_trunc |}.
