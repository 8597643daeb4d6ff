(** binary64 as NumPy scalars compute it: a zero divisor gives an infinity or a NaN (and a RuntimeWarning)
    instead of ZeroDivisionError.  In ell.update the divisors [omega] (ell.py:139-140) and [self._tsq]
    (ell.py:177-196, 253) are NumPy scalars; [gamma] and [tau + beta] (ell.py:250, 252) are Python floats unless
    the caller's beta is a NumPy scalar.  [math.sqrt] (ell.py:199, 216, 233) raises ValueError below zero for
    both. *)
From Coq Require Import ZArith.
From Flocq Require Import IEEE754.BinarySingleNaN.
From Verif Require Import Base M_Float.

Definition FNumP (dot : nat -> (nat -> b64) -> (nat -> b64) -> b64) : Num b64 := {|
  nzero := fzero; none := fmake 1 0;
  nadd := fadd; nsub := fsub; nmul := fmul; nopp := Bopp;
  ndiv := fun x y => Ok (fdiv x y); nsqrt := fsqrtr; nabs := Babs;
  nltb := fun x y => Bltb x y; nleb := fun x y => Bleb x y; neqb := feqb;
  nofZ := fun n => fmake n 0; ndot := dot |}.
