(** IEEE-754 binary64, the type of Python's [float], as defined by Flocq (no NaN payloads).
    Rounding is to nearest, ties to even.

    [FNum] makes it an instance of the scalar interface of Base.v, so that every theorem stated for
    an arbitrary [Num] holds in particular for the arithmetic that CPython uses. *)
From Coq Require Import ZArith Reals List Bool.
From Flocq Require Import IEEE754.BinarySingleNaN.
From Verif Require Import Base.
Local Open Scope Z_scope.

Notation b64 := (binary_float 53 1024).

Lemma prec64 : FLX.Prec_gt_0 53.
Proof. reflexivity. Qed.
Lemma emax64 : Prec_lt_emax 53 1024.
Proof. reflexivity. Qed.

Definition fadd : b64 -> b64 -> b64 := @Bplus 53 1024 prec64 emax64 mode_NE.
Definition fsub : b64 -> b64 -> b64 := @Bminus 53 1024 prec64 emax64 mode_NE.
Definition fmul : b64 -> b64 -> b64 := @Bmult 53 1024 prec64 emax64 mode_NE.
Definition fdiv : b64 -> b64 -> b64 := @Bdiv 53 1024 prec64 emax64 mode_NE.
Definition fsqrt : b64 -> b64 := @Bsqrt 53 1024 prec64 emax64 mode_NE.
(** the float nearest to m * 2^e: numerals, [float(n)] and [pow(2.0, e)] *)
Definition fmake (m e : Z) : b64 := @binary_normalize 53 1024 prec64 emax64 mode_NE m e false.
Definition fzero : b64 := B754_zero false.

Definition feqb (x y : b64) : bool := Beqb x y.
(** Python's [x / y] raises ZeroDivisionError on a zero divisor; [math.sqrt] raises ValueError
    below zero. *)
Definition fdivr (x y : b64) : res b64 := if feqb y fzero then Raise FloatFault else Ok (fdiv x y).
Definition fsqrtr (x : b64) : res b64 := if Bltb x fzero then Raise ValueError else Ok (fsqrt x).

#[global] Instance FNum : Num b64 := {
  nzero := fzero; none := fmake 1 0;
  nadd := fadd; nsub := fsub; nmul := fmul; nopp := Bopp;
  ndiv := fdivr; nsqrt := fsqrtr; nabs := Babs;
  nltb := fun x y => Bltb x y; nleb := fun x y => Bleb x y; neqb := feqb;
  nofZ := fun n => fmake n 0;
  ndot := fun n u v =>
    (fix go (n : nat) : b64 :=
       match n with O => fzero | S m => fadd (go m) (fmul (u m) (v m)) end) n
}.
#[global] Instance FNum_ext : NdotExt b64.
Proof.
  intros n u u' v v' Hu Hv; cbn. induction n as [|n IH]; cbn; [reflexivity|].
  rewrite IH, Hu, Hv; auto.
Qed.
