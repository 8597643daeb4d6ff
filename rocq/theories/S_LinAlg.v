(** Finite-dimensional linear algebra over R, vectors and matrices being
    functions of which the first n (n x n) entries matter. *)
From Coq Require Import Reals Lra.
From Verif Require Import Base.
Local Open Scope R_scope.

Definition dot (n : nat) (u v : nat -> R) : R := rsum n (fun k => u k * v k).
Definition mvr (n : nat) (M : nat -> nat -> R) (v : nat -> R) : nat -> R :=
  fun i => dot n (M i) v.
(** the bilinear form u' M v *)
Definition bf (n : nat) (M : nat -> nat -> R) (u v : nat -> R) : R :=
  dot n u (mvr n M v).

Definition sym (n : nat) (M : nat -> nat -> R) : Prop :=
  forall i j, (i < n)%nat -> (j < n)%nat -> M i j = M j i.
Definition nonzero (n : nat) (v : nat -> R) : Prop := exists i, (i < n)%nat /\ v i <> 0.
Definition psd (n : nat) (M : nat -> nat -> R) : Prop := forall v, 0 <= bf n M v v.
Definition pd (n : nat) (M : nat -> nat -> R) : Prop :=
  forall v, nonzero n v -> 0 < bf n M v v.
Definition idm : nat -> nat -> R := fun i j => if Nat.eqb i j then 1 else 0.
Definition mm (n : nat) (A B : nat -> nat -> R) : nat -> nat -> R :=
  fun i j => rsum n (fun k => A i k * B k j).
Definition meq (n : nat) (A B : nat -> nat -> R) : Prop :=
  forall i j, (i < n)%nat -> (j < n)%nat -> A i j = B i j.
(** P is a (two-sided) inverse of Q *)
Definition inverse (n : nat) (Q P : nat -> nat -> R) : Prop :=
  meq n (mm n Q P) idm /\ meq n (mm n P Q) idm.
