(** Rounded scalars: every operation of the model followed by one rounding to a binary floating-point format.

    [p] is the precision and [e] the exponent of the smallest positive number of the format, so
    binary32 (what JAX arrays hold by default) is p = 24, e = -149 and binary64 is p = 53, e = -1074.
    Rounding is to nearest, ties to even, with gradual underflow.  Simplifications: no overflow (the exponent
    is unbounded above) and each operation is rounded separately (XLA may fuse a multiply and an add).
    jnp.sqrt is correctly rounded; the other elementary functions are taken as correctly rounded too. *)
From Coq Require Import ZArith Reals Bool.
From Flocq Require Import Core.
From Verif Require Import Num.
Local Open Scope R_scope.

Definition isfloat (p e : Z) (x : R) : Prop := generic_format radix2 (FLT_exp e p) x.
Definition fl (p e : Z) (x : R) : R := round radix2 (FLT_exp e p) ZnearestE x.

Definition Num_fl (p e : Z) : Num R := {|
  nofZ := fun z => fl p e (IZR z);
  nadd := fun x y => fl p e (x + y); nsub := fun x y => fl p e (x - y);
  nmul := fun x y => fl p e (x * y); ndiv := fun x y => fl p e (x / y); nopp := Ropp;
  nltb := Rltb; nleb := Rleb; neqb := Reqb;
  nfloor := Zfloor; ntrunc := Ztrunc |}.
Definition NumT_fl (p e : Z) : NumT R := {|
  numt_num := Num_fl p e;
  nsqrt := fun x => fl p e (sqrt x); nexp := fun x => fl p e (exp x); nln := fun x => fl p e (ln x);
  npow := fun x y => fl p e (Rpower x y); ncos := fun x => fl p e (cos x); nsin := fun x => fl p e (sin x);
  ncbrt := fun x => fl p e (Rcbrt x); npi := fl p e PI |}.

(** the formats in use: at least two digits, and small enough numbers *)
Definition format_ok (p e : Z) : Prop := (1 < p)%Z /\ (e <= 1 - p)%Z.
Definition binary32_ok : format_ok 24 (-149).
Proof. split; discriminate || reflexivity. Qed.
Definition binary64_ok : format_ok 53 (-1074).
Proof. split; discriminate || reflexivity. Qed.
(** unit roundoff 2^-p and half the smallest number 2^(e-1) *)
Definition uro (p : Z) : R := bpow radix2 (- p).
Definition tiny (e : Z) : R := bpow radix2 (e - 1).
