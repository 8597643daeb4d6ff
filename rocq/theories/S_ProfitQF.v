(** Specification side of the statements about profit_q_oracle in binary64 (C182, C183). *)
From Coq Require Import ZArith Reals.
From Flocq Require Import Core.Core IEEE754.BinarySingleNaN.
From Verif Require Import Base M_Float S_Profit S_ProfitF.
Local Open Scope R_scope.

(** np.round: an integer at distance at most 1/2 *)
Definition libm_round (fr : b64 -> b64) : Prop :=
  forall x, is_finite x = true -> is_finite (fr x) = true /\ exists n : Z, B2R (fr x) = IZR n /\ Rabs (IZR n - B2R x) <= / 2.
(** yd is the logarithm of the positive integer quantities q, up to rounding *)
Definition grid (yd : nat -> b64) (q : nat -> Z) : Prop :=
  forall i, (i < 2)%nat -> (0 < q i)%Z /\ is_finite (yd i) = true /\ Rabs (B2R (yd i) - ln (IZR (q i))) <= bpow radix2 (-50) * ln (IZR (q i)) + bpow radix2 (-1000).
(** q is exp y rounded, but 1 where this is 0 *)
Definition rounds (y : nat -> b64) (q : nat -> Z) : Prop :=
  forall i, (i < 2)%nat -> let x := exp (B2R (y i)) in
    Rabs (IZR (q i) - x) <= / 2 + bpow radix2 (-50) * x \/ (q i = 1%Z /\ x <= / 2 + bpow radix2 (-50) * x).
Definition qtyZ (q : nat -> Z) : nat -> R := fun i => IZR (q i).
(** s is the profit at the integer quantities q, which keep the limit, up to rounding *)
Definition profit_at (p sc k : R) (a v : nat -> R) (q : nat -> Z) (s : R) : Prop :=
  qtyZ q 0%nat <= k * exp (bpow radix2 (-40)) /\ Rabs (s - profit_of p sc a v (qtyZ q)) <= bpow radix2 (-38) * revenue p sc a (qtyZ q).
(** what the answer t1 to the value t says about the profit at the integers q *)
Definition answer_at (p sc k : R) (a v : nat -> R) (q : nat -> Z) (t : b64) (t1 : option b64) : Prop :=
  match t1 with
  | Some s => is_finite s = true /\ profit_at p sc k a v q (B2R s) /\ B2R t <= B2R s + bpow radix2 (-37) * revenue p sc a (qtyZ q)
  | None => ln k - bpow radix2 (-40) < ln (qtyZ q 0%nat) \/ profit_of p sc a v (qtyZ q) <= B2R t + bpow radix2 (-37) * (B2R t + spend v (qtyZ q))
  end.
