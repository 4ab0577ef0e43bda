(** Scalars of the model.

    The Python code of /repo computes with IEEE floats (Python float, JAX arrays).
    The model is written once over an abstract scalar type.  [Num] has the
    operations that make sense exactly over the rationals, [NumT] adds the
    irrational functions.  No algebraic law is part of the class, so a theorem
    stated for every instance also holds of floats. *)
From Coq Require Import ZArith QArith Qround Reals Bool.
From Flocq Require Import Core.Raux.

Class Num (T : Type) := {
  nofZ  : Z -> T;                 (* int literal / astype(float) *)
  nadd  : T -> T -> T;
  nsub  : T -> T -> T;
  nmul  : T -> T -> T;
  ndiv  : T -> T -> T;
  nopp  : T -> T;
  nltb  : T -> T -> bool;
  nleb  : T -> T -> bool;
  neqb  : T -> T -> bool;
  nfloor : T -> Z;                (* jnp.floor(x).astype(int32) *)
  ntrunc : T -> Z                 (* Python int(x) *)
}.

Class NumT (T : Type) := {
  numt_num :> Num T;
  nsqrt : T -> T;
  nexp  : T -> T;
  nln   : T -> T;
  npow  : T -> T -> T;
  ncos  : T -> T;
  nsin  : T -> T;
  ncbrt : T -> T;
  npi   : T
}.

Declare Scope num_scope.
Delimit Scope num_scope with num.
Notation "x + y" := (nadd x y) : num_scope.
Notation "x - y" := (nsub x y) : num_scope.
Notation "x * y" := (nmul x y) : num_scope.
Notation "x / y" := (ndiv x y) : num_scope.
Notation "- x"   := (nopp x) : num_scope.
Notation "x <? y" := (nltb x y) : num_scope.
Notation "x <=? y" := (nleb x y) : num_scope.
Notation "x =? y" := (neqb x y) : num_scope.

Section Derived.
Context {T : Type} `{Num T}.
Local Open Scope num_scope.
(** Literals of the Python source: a decimal literal is written as the exact ratio [p/q]. *)
Definition n0 : T := nofZ 0.
Definition n1 : T := nofZ 1.
Definition n2 : T := nofZ 2.
Definition n3 : T := nofZ 3.
Definition lit (p q : Z) : T := nofZ p / nofZ q.
(** jnp.abs, jnp.sign, jnp.maximum, jnp.minimum, jnp.clip, jnp.where on scalars *)
Definition nabs (x : T) : T := if x <? n0 then - x else x.
Definition nsign (x : T) : T := if x <? n0 then nofZ (-1) else if n0 <? x then n1 else n0.
Definition nmax (x y : T) : T := if x <? y then y else x.
Definition nmin (x y : T) : T := if y <? x then y else x.
Definition nclip (x lo hi : T) : T := nmin (nmax x lo) hi.
Definition sq (x : T) : T := x * x.
End Derived.

(** Real instance. *)
Definition Rltb (x y : R) : bool := if Rlt_dec x y then true else false.
Definition Rleb (x y : R) : bool := if Rle_dec x y then true else false.
Definition Reqb (x y : R) : bool := if Req_EM_T x y then true else false.

#[global] Instance Num_R : Num R := {|
  nofZ := IZR; nadd := Rplus; nsub := Rminus; nmul := Rmult; ndiv := Rdiv; nopp := Ropp;
  nltb := Rltb; nleb := Rleb; neqb := Reqb;
  nfloor := Zfloor; ntrunc := Ztrunc |}.

(** Real cube root, used only for non-negative arguments in the code (determinants). *)
Definition Rcbrt (x : R) : R :=
  if Rlt_dec 0 x then Rpower x (/ 3) else if Rlt_dec x 0 then (- Rpower (- x) (/ 3))%R else 0%R.

#[global] Instance NumT_R : NumT R := {|
  numt_num := Num_R;
  nsqrt := sqrt; nexp := exp; nln := ln; npow := Rpower; ncos := cos; nsin := sin;
  ncbrt := Rcbrt; npi := PI |}.

(** Rational instance, used to execute the model on concrete inputs. *)
Definition Qtrunc (x : Q) : Z := Z.quot (Qnum x) (Zpos (Qden x)).
#[global] Instance Num_Q : Num Q := {|
  nofZ := inject_Z;
  nadd := fun x y => Qred (Qplus x y); nsub := fun x y => Qred (Qminus x y);
  nmul := fun x y => Qred (Qmult x y); ndiv := fun x y => Qred (Qdiv x y);
  nopp := Qopp;
  nltb := fun x y => negb (Qle_bool y x); nleb := Qle_bool; neqb := Qeq_bool;
  nfloor := Qfloor; ntrunc := Qtrunc |}.
