(** Specifications for M_Misc.v, independent of its definitions. *)
From Coq Require Import Reals.
From Verif Require Import Base S_LinAlg.
Local Open Scope R_scope.

(** The Fibonacci numbers 1, 1, 2, 3, 5, ... indexed from 1 *)
Fixpoint fibonacci (n : nat) : Z :=
  match n with
  | 0%nat => 0%Z
  | S m => match m with 0%nat => 1%Z | S k => (fibonacci m + fibonacci k)%Z end
  end.

(** x_0 >= x_1 >= ... >= x_{n-1} *)
Definition non_increasing (n : nat) (x : nat -> R) : Prop :=
  forall i, (S i < n)%nat -> x (S i) <= x i.

(** Euclidean distance in dimension d *)
Definition edist (d : nat) (p q : nat -> R) : R := sqrt (rsum d (fun k => (p k - q k) * (p k - q k))).
