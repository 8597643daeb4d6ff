(** Specification side of the statements about profit_oracle in binary64 (C178, C179). *)
From Coq Require Import ZArith Reals.
From Flocq Require Import Core.Core IEEE754.BinarySingleNaN.
From Verif Require Import Base M_Float S_Profit.
Local Open Scope R_scope.

(** what is assumed of the exponential and the logarithm of the platform: four units in the last place *)
Definition libm_exp (fe : b64 -> b64) : Prop :=
  forall x, is_finite x = true -> Rabs (B2R x) <= 300 ->
    is_finite (fe x) = true /\ Rabs (B2R (fe x) - exp (B2R x)) <= bpow radix2 (-50) * exp (B2R x).
Definition libm_log (fl : b64 -> b64) : Prop :=
  forall x, is_finite x = true -> 0 < B2R x ->
    is_finite (fl x) = true /\ Rabs (B2R (fl x) - ln (B2R x)) <= bpow radix2 (-50) * Rabs (ln (B2R x)) + bpow radix2 (-1000).

(** revenue and cost; profit_of is their difference *)
Definition revenue (p sc : R) (a x : nat -> R) : R := p * (sc * Rpower (x 0%nat) (a 0%nat) * Rpower (x 1%nat) (a 1%nat)).
Definition spend (v x : nat -> R) : R := v 0%nat * x 0%nat + v 1%nat * x 1%nat.

Definition vec64 (a : nat -> b64) : nat -> R := fun i => B2R (a i).
(** the data are finite and far from overflow at points of size X *)
Definition profit_range (p sc k : b64) (a v : nat -> b64) (X : R) : Prop :=
  (is_finite p = true /\ is_finite sc = true /\ is_finite k = true /\ forall i, (i < 2)%nat -> is_finite (a i) = true /\ is_finite (v i) = true) /\
  (0 < B2R p * B2R sc /\ Rabs (ln (B2R p * B2R sc)) <= 128) /\
  (0 < B2R k /\ Rabs (ln (B2R k)) <= 256) /\
  (forall i, (i < 2)%nat -> Rabs (B2R (a i)) <= 256 /\ bpow radix2 (-100) <= B2R (v i) <= bpow radix2 100) /\
  (Rabs (B2R (a 0%nat)) + Rabs (B2R (a 1%nat))) * X <= 128 /\ X <= 128.
(** a point of size X *)
Definition point64 (X : R) (y : nat -> b64) : Prop := forall i, (i < 2)%nat -> is_finite (y i) = true /\ Rabs (B2R (y i)) <= X.
(** a best-so-far value that is not negative *)
Definition value64 (t : b64) : Prop := is_finite t = true /\ 0 <= B2R t <= bpow radix2 600.
(** no point of size X has a larger revenue *)
Definition revenue_max (p sc : R) (a : nat -> R) (X : R) : R := exp (ln (p * sc) + (Rabs (a 0%nat) + Rabs (a 1%nat)) * X).

(** what a cut, and a run, may lose to rounding, per unit of revenue: X and Z bound the centres and the points considered *)
Definition profit_room (h X Z : R) : R := bpow radix2 (-36) * (X + Z) + bpow radix2 (-39) + 8192 * h.
(** z keeps the first quantity below k and earns more than b, both with room *)
Definition profit_inside (p sc k : R) (a v : nat -> R) (h X Z b : R) (z : nat -> R) : Prop :=
  (forall i, (i < 2)%nat -> Rabs (z i) <= Z) /\
  z 0%nat <= ln k - (bpow radix2 (-40) + 8192 * h) /\
  b <= profit_of p sc a v (qty z) - profit_room h X Z * revenue p sc a (qty z).
