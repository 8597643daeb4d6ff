(** Specification side of the statements about lowpass_oracle in binary64 (C154, C155). *)
From Coq Require Import ZArith Reals List.
From Flocq Require Import Core.Core IEEE754.BinarySingleNaN.
From Verif Require Import Base M_Drivers M_Ell S_LinAlg M_Float M_Lowpass S_Lowpass.
Local Open Scope R_scope.

(** the design problem whose data are the real values of the binary64 data *)
Definition lp_real (P : lowpass b64) : lowpass R :=
  {| lp_n := lp_n P;
     lp_Np := lp_Np P; lp_Ap := fun k i => B2R (lp_Ap P k i);
     lp_Ns := lp_Ns P; lp_As := fun k i => B2R (lp_As P k i);
     lp_Nr := lp_Nr P; lp_Anr := fun k i => B2R (lp_Anr P k i);
     lp_Lpsq := B2R (lp_Lpsq P); lp_Upsq := B2R (lp_Upsq P) |}.

(** the specification with every row relaxed by d (tightened, if d is negative) *)
Definition filter_within (P : lowpass R) (d Spsq : R) (z : nat -> R) : Prop :=
  (forall k, (k < lp_Np P)%nat -> lp_Lpsq P - d <= dot (lp_n P) (lp_Ap P k) z <= lp_Upsq P + d) /\
  (forall k, (k < lp_Ns P)%nat -> - d <= dot (lp_n P) (lp_As P k) z <= Spsq + d) /\
  (forall k, (k < lp_Nr P)%nat -> - d <= dot (lp_n P) (lp_Anr P k) z) /\ 0 <= z 0%nat.

(** a finite row and a finite point whose products are at most B in sum *)
Definition row_bound (n : nat) (a x : nat -> b64) (B : R) : Prop :=
  (forall i, (i < n)%nat -> is_finite (a i) = true /\ is_finite (x i) = true) /\
  rsum n (fun i => Rabs (B2R (a i) * B2R (x i))) <= B.
Definition lp_bound (P : lowpass b64) (x : nat -> b64) (B : R) : Prop :=
  ((0 < lp_n P)%nat /\ (Z.of_nat (lp_n P) <= 2 ^ 20)%Z) /\ 0 <= B <= bpow radix2 900 /\
  (forall k, (k < lp_Np P)%nat -> row_bound (lp_n P) (lp_Ap P k) x B) /\
  (forall k, (k < lp_Ns P)%nat -> row_bound (lp_n P) (lp_As P k) x B) /\
  (forall k, (k < lp_Nr P)%nat -> row_bound (lp_n P) (lp_Anr P k) x B) /\
  is_finite (x 0%nat) = true /\
  (is_finite (lp_Lpsq P) = true /\ Rabs (B2R (lp_Lpsq P)) <= B) /\ (is_finite (lp_Upsq P) = true /\ Rabs (B2R (lp_Upsq P)) <= B).

(** the error of one computed row *)
Definition row_err (n : nat) (B : R) : R := INR n * (bpow radix2 (-52) * B + bpow radix2 (-1073)).
(** z satisfies a cut taken at x up to d *)
Definition sat_within (n : nat) (d : R) (x : nat -> b64) (c : cut b64) (z : nat -> R) : Prop :=
  let s := dot n (fun i => B2R (fst c i)) (fun i => z i - B2R (x i)) in
  match snd c with
  | BScalar b => is_finite b = true /\ s + B2R b <= d
  | BArr (cons b0 (cons b1 nil)) => is_finite b0 = true /\ is_finite b1 = true /\ s + B2R b0 <= d /\ - d <= s + B2R b1
  | BArr _ => False
  end.
(** the first number of the cut *)
Definition beta0_64 (b : cut_beta b64) : R := match b with BScalar b => B2R b | BArr (cons b0 _) => B2R b0 | BArr nil => 0 end.
(** how far inside the specification a design must be for the cuts of the oracle to hold at it exactly, even with beta
    enlarged by the factor 1 + 8 h; X bounds the entries of the points asked *)
Definition lp_margin (n : nat) (h B X : R) : R :=
  (1 + 8 * h) * (2 * row_err n B + bpow radix2 (-51) * B) + 8 * h * (2 * B + X).
