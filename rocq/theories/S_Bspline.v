(** Specification of B-splines, independent of the way they are evaluated. *)
From Coq Require Import Reals.
From Verif Require Import Base S_LinAlg.
Local Open Scope R_scope.

Definition increasing (n : nat) (t : nat -> R) : Prop := forall i, (S i < n)%nat -> t i < t (S i).

(** the Cox - de Boor definition of the basis function i of degree k on the knots t *)
Fixpoint basis (t : nat -> R) (k i : nat) (x : R) : R :=
  match k with
  | 0%nat => if Rle_dec (t i) x then (if Rlt_dec x (t (S i)) then 1 else 0) else 0
  | S k' => (x - t i) / (t (i + k)%nat - t i) * basis t k' i x
            + (t (i + k + 1)%nat - x) / (t (i + k + 1)%nat - t (S i)) * basis t k' (S i) x
  end.

(** the spline with the n coefficients c *)
Definition spline (t : nat -> R) (k n : nat) (c : nat -> R) (x : R) : R := rsum n (fun i => c i * basis t k i x).

Definition non_increasing_on (a b : R) (f : R -> R) : Prop := forall x y, a <= x -> x <= y -> y <= b -> f y <= f x.
