(** Specification side of the accuracy statement about ell.update in binary64 (C142): which objects and
    cuts it speaks about. *)
From Coq Require Import ZArith Reals List.
From Flocq Require Import Core.Core IEEE754.BinarySingleNaN.
From Verif Require Import Base M_Drivers M_Ell S_LinAlg M_Float S_Float.
Local Open Scope R_scope.

(** the constants are those the constructor computes for the dimension of the object *)
Definition built64 (e : ell b64) : Prop :=
  exists val x e0, @ell_init b64 FNum val (e_n e) x = Ok e0 /\
    e_nPlus1 e = e_nPlus1 e0 /\ e_c1 e = e_c1 e0 /\ e_c2 e = e_c2 e0.

(** [scaled64 h M G X st g b]: finite data; the entries of the matrix, the gradient and the centre are at most
    M, G and X; the matrix is symmetric and positive semidefinite; the numbers are far from the ends of the
    exponent range; and g'Qg is not tiny against the sizes of its terms: 2^-50 n^3 M G^2 <= h (g'Qg). *)
Definition scaled64 (h M G X : R) (st : memory b64 * ell b64) (g : nat -> b64) (b : b64) : Prop :=
  let '(w, e) := st in let n := e_n e in let N := IZR (Z.of_nat n) in
  let Q := fun i j => B2R (e_Q e i j) in
  let gr := fun i => B2R (g i) in
  ((2 <= n)%nat /\ (Z.of_nat n <= 2 ^ 20)%Z) /\
  (forall i j, (i < n)%nat -> (j < n)%nat -> is_finite (e_Q e i j) = true /\ Rabs (Q i j) <= M) /\
  (forall i, (i < n)%nat -> is_finite (g i) = true /\ Rabs (gr i) <= G) /\
  (forall i, (i < n)%nat -> is_finite (w (e_xc e) i) = true /\ Rabs (B2R (w (e_xc e) i)) <= X) /\
  (is_finite (e_kappa e) = true /\ bpow radix2 (-200) <= B2R (e_kappa e) <= bpow radix2 200) /\
  (is_finite b = true /\ 0 <= B2R b <= bpow radix2 1000) /\
  sym n Q /\ psd n Q /\
  bpow radix2 (-200) <= M <= bpow radix2 200 /\ bpow radix2 (-200) <= G <= bpow radix2 200 /\ X <= bpow radix2 1000 /\
  bpow radix2 (-50) * (N * N * N) * (M * (G * G)) <= h * bf n Q gr gr /\ h <= / 1024.

(** sum of the absolute values of the entries of a direction *)
Definition norm1 (n : nat) (a : nat -> R) : R := dot n (fun i => Rabs (a i)) (fun _ => 1).
(** the support of the set in the direction a, squared: kappa a'Qa *)
Definition width2 (e : ell b64) (a : nat -> R) : R := B2R (e_kappa e) * bf (e_n e) (fun i j => B2R (e_Q e i j)) a a.
