(** Specification side of the statements about runs of binary64 updates of ell (C152, C153). *)
From Coq Require Import ZArith Reals List.
From Flocq Require Import Core.Core IEEE754.BinarySingleNaN.
From Verif Require Import Base M_Drivers M_Ell S_LinAlg M_Float S_Float S_EllF S_Drivers.
Import ListNotations.
Local Open Scope R_scope.

(** a sequence of successful updates with single cuts: the state each cut was given to, and the cut *)
Inductive ell_run64 (dot : nat -> (nat -> b64) -> (nat -> b64) -> b64)
  : memory b64 * ell b64 -> list ((memory b64 * ell b64) * ((nat -> b64) * b64)) -> memory b64 * ell b64 -> Prop :=
| ER_nil st : ell_run64 dot st [] st
| ER_cons st g b st1 tsq l st2 :
    @ell_update b64 (FNumD dot) st (g, BScalar b) = Ok (st1, (success, tsq)) ->
    ell_run64 dot st1 l st2 -> ell_run64 dot st ((st, (g, b)) :: l) st2.

(** how far one update may move a point, in every coordinate, when kappa * M is at most W *)
Definition drift64 (n : nat) (h W X : R) : R :=
  8 * sqrt (IZR (Z.of_nat n) * h * W) + 16 * h * sqrt W + bpow radix2 (-53) * X.

(** the cube of half-side rho around z lies in K *)
Definition cube_in (n : nat) (rho : R) (K : (nat -> R) -> Prop) (z : nat -> R) : Prop :=
  forall y, (forall i, (i < n)%nat -> Rabs (y i - z i) <= rho) -> K y.

(** the object is symmetric, positive semidefinite and has a nonnegative kappa *)
Definition ell_proper (e : ell b64) : Prop :=
  sym (e_n e) (fun i j => B2R (e_Q e i j)) /\ psd (e_n e) (fun i j => B2R (e_Q e i j)) /\ 0 <= B2R (e_kappa e).

(** the cut (g, b) taken at x holds at y even when b is enlarged by the factor 1 + 8 h *)
Definition holds64 (n : nat) (h : R) (x g : nat -> b64) (b : b64) (y : nat -> R) : Prop :=
  dot n (fun i => B2R (g i)) (fun i => y i - B2R (x i)) + B2R b * (1 + 8 * h) <= 0.

(** in a run of the feasibility driver, [asked64 ... tr st1 g b]: the oracle's cut (g, b) is given to the search space
    in state st1; and the same for the optimising driver *)
Definition asked64 {O} (sp : space (memory b64 * ell b64) nat (nat -> b64) (@cut b64) b64) (omega : O -> (nat -> b64) -> res (O * option (@cut b64)))
    (o : O) (st : memory b64 * ell b64) (tr : list ((nat -> b64) * option (@cut b64 * status * b64))) (st1 : memory b64 * ell b64) (c : @cut b64) : Prop :=
  exists tr1 x s q tr2 o1, tr = tr1 ++ (x, Some (c, s, q)) :: tr2 /\ feas_replay sp omega o st tr1 o1 st1.
Definition asked64_dc {O T} (sp : space (memory b64 * ell b64) nat (nat -> b64) (@cut b64) b64) (omega : O -> (nat -> b64) -> T -> res (O * (@cut b64 * option T)))
    (o : O) (st : memory b64 * ell b64) (t : T) (tr : list (devent (nat -> b64) (@cut b64) b64 T)) (st1 : memory b64 * ell b64) (c : @cut b64) : Prop :=
  exists tr1 e tr2 o1 t1, tr = tr1 ++ e :: tr2 /\ d_cut e = c /\ dc_replay sp omega o st t tr1 o1 st1 t1.

(** every cut of the run is a single one, given to a well-scaled state with kappa * M at most W *)
Definition single_scaled (h M G X W : R) (asked : memory b64 * ell b64 -> @cut b64 -> Prop) : Prop :=
  forall st1 c, asked st1 c -> exists g b, c = (g, BScalar b) /\ scaled64 h M G X st1 g b /\ B2R (e_kappa (snd st1)) * M <= W.
