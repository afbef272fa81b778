(** Arithmetic with rounding: every operation of numpy on floats returns the
    rounded exact result.  The functions of the model are generic in the
    arithmetic, so they are evaluated in this one unchanged.

    Simplifications: overflow, infinities and the sign of zero are not
    represented (division by zero has no meaning here); sums are taken from the
    last to the first element (numpy: pairwise for long vectors); library
    functions (sqrt, power, tanh) are taken to be correctly rounded; vectorised
    numpy code rounds after each operation, as here. *)
From Coq Require Import Reals ZArith.
From Verif Require Import Num.
From Flocq Require Import Core.
Open Scope R_scope.

Definition Num_rnd (rnd : R -> R) : Num R := {|
  n0 := 0; n1 := 1;
  nadd := fun x y => rnd (x + y); nsub := fun x y => rnd (x - y);
  nmul := fun x y => rnd (x * y); ndiv := fun x y => rnd (x / y);
  nopp := Ropp; nabs := Rabs; nsqrt := fun x => rnd (sqrt x);
  nleb := Rleb; nltb := Rltb; neqb := Reqb;
  nlit := fun z p => rnd (IZR z / IZR (Zpos p));
  npowr := fun x y => rnd (Rpowr x y);
  ntanh := fun x => rnd (tanh x);
  nfloor := Int_part
|}.

(** the double format of numpy (IEEE 754 binary64, round to nearest, ties to
    even), with gradual underflow and without overflow *)
Definition binary64 (x : R) : R := round radix2 (FLT_exp (-1074) 53) ZnearestE x.
