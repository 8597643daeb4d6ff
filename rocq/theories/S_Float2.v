(** Vocabulary for theorems about binary64 runs of the negative cycle finder and the matrix oracles. *)
From Coq Require Import ZArith Reals.
From Flocq Require Import Core.Core IEEE754.BinarySingleNaN.
From Verif Require Import Base M_Float S_LinAlg S_Lmi.

(** x is a finite multiple m * 2^ex with |m| <= B *)
Definition multiple64 (ex B : Z) (x : b64) : Prop :=
  is_finite x = true /\ exists m, (B2R x = IZR m * bpow radix2 ex)%R /\ (Z.abs m <= B)%Z.

(** the real matrices that binary64 matrices stand for *)
Definition matR (M : nat -> nat -> b64) : nat -> nat -> R := fun i j => B2R (M i j).
Definition matsR (F : list (nat -> nat -> b64)) : list (nat -> nat -> R) := map matR F.
Definition vecR (x : nat -> b64) : nat -> R := fun k => B2R (x k).
(** |B_ij| + sum_k |F_k,ij x_k| <= M for every entry, all numbers finite *)
Definition lmi_data (m : nat) (F : list (nat -> nat -> b64)) (B : nat -> nat -> b64) (x : nat -> b64) (M : R) : Prop :=
  (forall k, (k < length F)%nat -> is_finite (x k) = true) /\
  forall i j, (i < m)%nat -> (j < m)%nat ->
    is_finite (B i j) = true /\ (forall Fk, In Fk F -> is_finite (Fk i j) = true) /\
    (Rabs (matR B i j) + rsum (length F) (fun k => Rabs (nth k (matsR F) (fun _ _ => 0) i j * vecR x k)) <= M)%R.
