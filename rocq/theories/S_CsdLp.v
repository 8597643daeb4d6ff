(** Specification side of the statements about multiplierless designs (C159). *)
From Coq Require Import ZArith Reals QArith Qreals List.
From Flocq Require Import Core.Core IEEE754.BinarySingleNaN.
From Verif Require Import Base M_Float S_Csd M_Lowpass.
Local Open Scope R_scope.

(** the autocorrelation of n coefficients *)
Definition autocorr (n : nat) (h : nat -> R) (t : nat) : R := rsum (n - t) (fun i => h (t + i)%nat * h i).

(** a binary64 number that is exactly a signed-digit number of at most nnz non-zero digits *)
Definition few_digits (nnz : Z) (v : b64) : Prop :=
  is_finite v = true /\ exists s, well_formed s /\ (points s <= 1)%nat /\ (Z.of_nat (nonzeros s) <= nnz)%Z /\
    B2R v = Q2R (csd_value s).

(** every row of the design problem sums to at most A in magnitude *)
Definition rows_sum (P : lowpass R) (A : R) : Prop :=
  (forall k, (k < lp_Np P)%nat -> rsum (lp_n P) (fun i => Rabs (lp_Ap P k i)) <= A) /\
  (forall k, (k < lp_Ns P)%nat -> rsum (lp_n P) (fun i => Rabs (lp_As P k i)) <= A) /\
  (forall k, (k < lp_Nr P)%nat -> rsum (lp_n P) (fun i => Rabs (lp_Anr P k i)) <= A).
