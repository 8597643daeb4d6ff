(** Specifications for the matrix inequality oracles: the affine matrix functions. *)
From Coq Require Import Reals.
From Verif Require Import Base S_LinAlg.
Local Open Scope R_scope.

(** F_1 x_1 + ... + F_n x_n *)
Definition lin_mat (F : list (nat -> nat -> R)) (x : nat -> R) : nat -> nat -> R :=
  fun i j => rsum (length F) (fun k => nth k F (fun _ _ => 0) i j * x k).
(** B - F(x) *)
Definition aff_mat (B : nat -> nat -> R) (F : list (nat -> nat -> R)) (x : nat -> R) : nat -> nat -> R :=
  fun i j => B i j - lin_mat F x i j.
(** t I - F(x)' F(x), with F(x) = F0 - F_1 x_1 - ... having [rows] rows *)
Definition qmi_mat (rows : nat) (F0 : nat -> nat -> R) (F : list (nat -> nat -> R)) (t : R)
    (x : nat -> R) : nat -> nat -> R :=
  fun i j => (if Nat.eqb i j then t else 0) -
             rsum rows (fun r => aff_mat F0 F x r i * aff_mat F0 F x r j).
Definition all_sym (n : nat) (F : list (nat -> nat -> R)) : Prop :=
  forall M, In M F -> sym n M.
