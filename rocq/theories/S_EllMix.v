(** Specification side of the statements about runs of ell in binary64 in which single and parallel cuts are mixed (C161, C162). *)
From Coq Require Import ZArith Reals List.
From Flocq Require Import Core.Core IEEE754.BinarySingleNaN.
From Verif Require Import Base M_Drivers M_Ell S_LinAlg M_Float S_Float S_EllF S_EllRun S_EllPar.
Import ListNotations.
Local Open Scope R_scope.

(** the near and, if there is one, the far side of a cut *)
Definition near64 (b : cut_beta b64) : option b64 := match b with BScalar b => Some b | BArr (b :: _) => Some b | BArr [] => None end.
Definition far_side64 (b : cut_beta b64) : option b64 := match b with BArr (_ :: b :: _) => Some b | _ => None end.

(** z satisfies the cut c given to the object in state st *)
Definition between64 (st : memory b64 * ell b64) (c : @cut b64) (z : nat -> R) : Prop :=
  (forall b, near64 (snd c) = Some b -> sat64 st (fst c) b z) /\ (forall b, far_side64 (snd c) = Some b -> far64 st (fst c) b z).
(** ... and does so with the near beta enlarged by the factor 1 + 8 h, for a cut taken at x *)
Definition holds_both64 (n : nat) (h : R) (x : nat -> b64) (c : @cut b64) (y : nat -> R) : Prop :=
  (forall b, near64 (snd c) = Some b -> holds64 n h x (fst c) b y) /\
  (forall b, far_side64 (snd c) = Some b -> 0 <= dot n (fun i => B2R (fst c i)) (fun i => y i - B2R (x i)) + B2R b).

(** the cut has a near side, the object is well scaled for it, a far side, if present, is finite, and if the sides are in
    order and the near one meets the set the two are conditioned by eps *)
Definition cut_scaled64 (h M G X eps : R) (st : memory b64 * ell b64) (c : @cut b64) : Prop :=
  exists b0, near64 (snd c) = Some b0 /\ scaled64 h M G X st (fst c) b0 /\
    forall b1, far_side64 (snd c) = Some b1 -> is_finite b1 = true /\
      (B2R b0 <= B2R b1 -> B2R b0 * B2R b0 <= reach2 (snd st) (fst c) -> par64 h eps (snd st) (fst c) b0 b1).

(** a sequence of successful updates with any cuts: the state each cut was given to, and the cut *)
Inductive ell_runs64 (dotf : nat -> (nat -> b64) -> (nat -> b64) -> b64)
  : memory b64 * ell b64 -> list ((memory b64 * ell b64) * @cut b64) -> memory b64 * ell b64 -> Prop :=
| EM_nil st : ell_runs64 dotf st [] st
| EM_cons st c st1 tsq l st2 :
    @ell_update b64 (FNumD dotf) st c = Ok (st1, (success, tsq)) ->
    ell_runs64 dotf st1 l st2 -> ell_runs64 dotf st ((st, c) :: l) st2.

(** how far one update may move a point, in every coordinate, when kappa * M is at most W *)
Definition drift_both64 (n : nat) (eps W X : R) : R :=
  80 * sqrt (IZR (Z.of_nat n) * eps * W) + 1280 * eps * sqrt W + bpow radix2 (-53) * X.
