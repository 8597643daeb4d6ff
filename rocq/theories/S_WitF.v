(** Specification side of the statements about the cuts of the matrix oracles in binary64 (C156, C157). *)
From Coq Require Import ZArith Reals List.
From Flocq Require Import Core.Core IEEE754.BinarySingleNaN.
From Verif Require Import Base S_LinAlg M_Float S_Lmi S_Float S_Float2.
Local Open Scope R_scope.

(** every entry of the k-th matrix is at most MF k *)
Definition mats_le (m : nat) (F : list (nat -> nat -> b64)) (MF : nat -> R) : Prop :=
  forall k i j, (k < length F)%nat -> (i < m)%nat -> (j < m)%nat -> Rabs (nth k (matsR F) (fun _ _ => 0) i j) <= MF k.
(** the distance of z from x, coordinate k weighted with the size of the k-th matrix *)
Definition wdist (n : nat) (MF : nat -> R) (z x : nat -> R) : R :=
  rsum n (fun k => (MF k + bpow radix2 (-1000)) * Rabs (z k - x k)).
(** what the rounding of the oracle (m rows, n matrices, entries of size M) can add to a cut, per unit of |v|^2 *)
Definition cut_slack (m n : nat) (M Z : R) : R :=
  INR m * (INR m + INR n + 2) * bpow radix2 (-46) * (M + bpow radix2 (-1000)) + INR m * INR m * bpow radix2 (-50) * Z.
(** A - d I is positive semidefinite *)
Definition psd_by (m : nat) (d : R) (A : nat -> nat -> R) : Prop := forall y, d * S_LinAlg.dot m y y <= bf m A y y.

(** what a run of a driver over ell needs to know about its data, and what it certifies (C157, C158): the entries of B
    are at most MB, those of the k-th matrix at most MF k; the centres asked have entries at most X, the points
    considered entries at most Xz *)
Definition lmi_sizes (m : nat) (F : list (nat -> nat -> b64)) (B : nat -> nat -> b64) (MB : R) (MF : nat -> R) : Prop :=
  (forall i j, (i < m)%nat -> (j < m)%nat -> is_finite (B i j) = true /\ Rabs (matR B i j) <= MB /\ forall Fk, In Fk F -> is_finite (Fk i j) = true) /\
  mats_le m F MF.
Definition run_bound (n : nat) (MB : R) (MF : nat -> R) (X : R) : R := MB + X * rsum n MF.
Definition run_margin (m n : nat) (h MB : R) (MF : nat -> R) (X Xz : R) : R :=
  cut_slack m n (run_bound n MB MF X) ((X + Xz) * rsum n (fun k => MF k + bpow radix2 (-1000)))
    + 48 * h * (INR m * (run_bound n MB MF X + bpow radix2 (-1000))).
(** y satisfies the inequality B - F(y) >= 0 with that margin *)
Definition lmi_inside (m : nat) (F : list (nat -> nat -> b64)) (B : nat -> nat -> b64) (h MB : R) (MF : nat -> R) (X Xz : R) (y : nat -> R) : Prop :=
  (forall k, (k < length F)%nat -> Rabs (y k) <= Xz) /\
  psd_by m (run_margin m (length F) h MB MF X Xz) (aff_mat (matR B) (matsR F) y).
(** what rounding can hide in the value of the objective c'y, CX the sum of the bounds on |c_k| *)
Definition obj_slack (n : nat) (h CX X Xz : R) : R :=
  2 * (INR n * bpow radix2 (-52) * (CX * X) + INR n * bpow radix2 (-1073)) + (8 * h + bpow radix2 (-52)) * (CX * (X + Xz)).
(** c'y beats the value t by s; any y does when no value is known *)
Definition beats (n : nat) (c : nat -> b64) (s : R) (t : option b64) (y : nat -> R) : Prop :=
  match t with Some t => S_LinAlg.dot n (vecR c) y <= B2R t - s | None => True end.
