(** Specification side of the statements about the cuts of qmi_oracle and lsq_oracle in binary64 (C176, C177). *)
From Coq Require Import ZArith Reals List.
From Flocq Require Import Core.Core IEEE754.BinarySingleNaN.
From Verif Require Import Base S_LinAlg M_Float S_Lmi S_Float S_Float2 S_WitF.
Local Open Scope R_scope.

(** the size of the entries of t I - F(x)'F(x), those of F(x) at most M *)
Definition qmi_size (m : nat) (t M : R) : R := Rabs t + INR m * ((M + bpow radix2 (-500)) * (M + bpow radix2 (-500))).
(** what the rounding of qmi_oracle (m rows, n matrices) can add to a cut, per unit of |v|^2; Z is the distance of the
    point considered from the centre, coordinate k weighted with the size of the k-th matrix *)
Definition qcut_slack (m n : nat) (t M Z : R) : R :=
  INR m * (INR m + INR n + 2) * bpow radix2 (-45) * qmi_size m t M
  + INR m * INR m * (INR m + INR n + 2) * bpow radix2 (-48) * (M + bpow radix2 (-500)) * Z.
Definition wdistq (n : nat) (MF : nat -> R) (z x : nat -> R) : R := wdist n (fun k => MF k + bpow radix2 (-500)) z x.

(** what a run of the optimising driver over ell and lsq_oracle certifies (C177).  The variables are y_0, ..., y_(n-1),
    the coefficients of the fit, and y_n, the bound on the square of the residual; the entries of F0 are at most MB,
    those of the k-th matrix at most MF k; the centres asked have entries at most X, the points considered at most Xz *)
Definition lsq_margin (m n : nat) (h MB : R) (MF : nat -> R) (X Xz : R) : R :=
  qcut_slack m n X (run_bound n MB MF X) ((X + Xz) * rsum n (fun k => MF k + bpow radix2 (-500) + bpow radix2 (-1000)))
    + INR m * bpow radix2 (-51) * (X + Xz) + 96 * h * (INR m * qmi_size m X (run_bound n MB MF X)).
(** F(y) and y_n I - (F0 - F(y))'(F0 - F(y)) are positive definite, with margins *)
Definition lsq_inside (m : nat) (F : list (nat -> nat -> b64)) (F0 : nat -> nat -> b64) (h MB : R) (MF : nat -> R) (X Xz : R) (y : nat -> R) : Prop :=
  (forall k, (k <= length F)%nat -> Rabs (y k) <= Xz) /\
  psd_by m (run_margin m (length F) h MB MF X Xz) (lin_mat (matsR F) y) /\
  psd_by m (lsq_margin m (length F) h MB MF X Xz) (qmi_mat m (matR F0) (matsR F) (y (length F)) y).
(** what rounding can hide in the value *)
Definition val_slack (h X Xz : R) : R := (8 * h + bpow radix2 (-52)) * (X + Xz) + bpow radix2 (-1073).
(** v beats the value t by s; any v does when t is float('inf') *)
Definition beats_by (s : R) (t : b64) (v : R) : Prop := is_finite t = true -> v <= B2R t - s.
