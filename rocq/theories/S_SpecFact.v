(** Specification vocabulary for spectral factorisation, independent of the model. *)
From Coq Require Import Reals.
From Verif Require Import Base.
Local Open Scope R_scope.

(** R(w) = r_0 + 2 sum_{t=1}^{n-1} r_t cos(t w), the power spectrum with autocorrelation r *)
Definition power_of_autocorr (n : nat) (r : nat -> R) (w : R) : R :=
  r 0%nat + 2 * rsum (n - 1) (fun t => r (S t) * cos (INR (S t) * w)).

(** Real and imaginary part of the frequency response H(e^{iw}) = sum_t h_t e^{-iwt} *)
Definition resp_re (n : nat) (h : nat -> R) (w : R) : R := rsum n (fun t => h t * cos (INR t * w)).
Definition resp_im (n : nat) (h : nat -> R) (w : R) : R := - rsum n (fun t => h t * sin (INR t * w)).

(** |H(e^{iw})|^2 *)
Definition power_of_response (n : nat) (h : nat -> R) (w : R) : R :=
  resp_re n h w ^ 2 + resp_im n h w ^ 2.

(** The k-th of m equidistant frequencies on [0, 2 pi) *)
Definition grid (m k : nat) : R := 2 * PI * INR k / INR m.

(** c_0, ..., c_{p-1} are the coefficients of a causal (one-sided) log spectrum
    C(w) = sum_l c_l e^{-iwl} with 2 Re C = log |R| at the m grid frequencies.  exp(C) is a function
    of e^{-iw} without zeros outside the unit circle: the minimum phase factor of |R|. *)
Definition causal_log (m p : nat) (c : nat -> R) (Rw : R -> R) : Prop :=
  forall k, (k < m)%nat -> exp (2 * resp_re p c (grid m k)) = Rabs (Rw (grid m k)).
