(** The determinant, by expansion along the first row. *)
From Coq Require Import Reals.
From Verif Require Import Base.
Local Open Scope R_scope.

Fixpoint det (n : nat) (M : nat -> nat -> R) : R :=
  match n with
  | 0%nat => 1
  | S m => rsum (S m) (fun j => (-1) ^ j * M 0%nat j *
             det m (fun r c => M (S r) (if Nat.ltb c j then c else S c)))
  end.
