(** Specification side of the statements about the monotone fit in binary64 (C184, C185). *)
From Coq Require Import Reals.
Local Open Scope R_scope.

(** each of the first n entries is below the one before it by at least s *)
Definition decreasing_by (s : R) (n : nat) (y : nat -> R) : Prop := forall i, (S i < n)%nat -> y (S i) <= y i - s.
