(** What is assumed of the platform's logarithm by the theorems about csd.py in binary64. *)
From Coq Require Import Reals.
From Flocq Require Import IEEE754.BinarySingleNaN.
From Verif Require Import Base M_Float.
Local Open Scope R_scope.

(** [log2 y] is a finite float within [err] of the base-2 logarithm of y, for every finite y >= 1 *)
Definition log2_within (err : R) (log2 : b64 -> b64) : Prop :=
  forall y : b64, is_finite y = true -> 1 <= B2R y ->
    is_finite (log2 y) = true /\ Rabs (B2R (log2 y) - ln (B2R y) / ln 2) <= err.
