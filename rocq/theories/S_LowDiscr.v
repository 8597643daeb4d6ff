(** Specifications for M_LowDiscr.v, independent of its definitions. *)
From Coq Require Import Reals.
From Verif Require Import Base S_LinAlg.
Local Open Scope R_scope.

(** digit i of k in base b (digit 0 is the lowest) *)
Definition digit (b k : Z) (i : nat) : Z := ((k / b ^ Z.of_nat i) mod b)%Z.

(** v is the radical inverse of k in base b: the base-b digits of k mirrored at the point,
    0.d0 d1 d2 ...   ([m] is any number of digits that k fits in) *)
Definition radical_inverse (b k : Z) (v : R) : Prop :=
  forall m : nat, (k < b ^ Z.of_nat m)%Z ->
    v = rsum m (fun i => IZR (digit b k i) / IZR b ^ S i).

(** x lies in the j-th of the N equal parts of [0, 1) *)
Definition in_cell (N j : Z) (x : R) : Prop := IZR j / IZR N <= x < (IZR j + 1) / IZR N.

(** exactly one k of the N consecutive integers from s on satisfies P *)
Definition unique_in_window (s N : Z) (P : Z -> Prop) : Prop :=
  exists k, (s <= k < s + N)%Z /\ P k /\ forall k', (s <= k' < s + N)%Z -> P k' -> k' = k.

(** sites i and j (i, j < n) are different points of dimension d *)
Definition distinct_sites (n d : nat) (s : nat -> nat -> R) : Prop :=
  forall i j, (i < n)%nat -> (j < n)%nat -> i <> j -> exists k, (k < d)%nat /\ s i k <> s j k.

(** the Gaussian kernel matrix of the sites *)
Definition gauss_kernel (c : R) (d : nat) (s : nat -> nat -> R) : nat -> nat -> R :=
  fun i j => exp (- c * dot d (fun k => s j k - s i k) (fun k => s j k - s i k)).

(** A is a lower triangular Cholesky factor of M *)
Definition lower_chol (n : nat) (M A : nat -> nat -> R) : Prop :=
  (forall i j, (i < j)%nat -> (j < n)%nat -> A i j = 0) /\ (forall i, (i < n)%nat -> 0 < A i i) /\
  forall i j, (i < n)%nat -> (j < n)%nat -> M i j = rsum n (fun k => A i k * A j k).

(** what numpy.linalg.cholesky promises: a factor for every symmetric positive definite matrix of
    size n, an exception for every other symmetric one *)
Definition np_cholesky_spec (chol : nat -> (nat -> nat -> R) -> res (nat -> nat -> R)) : Prop :=
  forall n M, sym n M ->
    (pd n M -> exists A, chol n M = Ok A /\ lower_chol n M A) /\
    (~ pd n M -> exists e, chol n M = Raise e).
