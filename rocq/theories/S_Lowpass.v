(** What a low-pass filter design must satisfy (autocorrelation domain). *)
From Coq Require Import Reals.
From Verif Require Import Base S_LinAlg M_Lowpass.
Local Open Scope R_scope.

(** the power spectrum stays in its bounds at all sampled frequencies, the stop band below Spsq *)
Definition spectrum_ok (P : lowpass R) (Spsq : R) (z : nat -> R) : Prop :=
  (forall k, (k < lp_Np P)%nat -> lp_Lpsq P <= dot (lp_n P) (lp_Ap P k) z <= lp_Upsq P) /\
  (forall k, (k < lp_Ns P)%nat -> 0 <= dot (lp_n P) (lp_As P k) z <= Spsq) /\
  (forall k, (k < lp_Nr P)%nat -> 0 <= dot (lp_n P) (lp_Anr P k) z).
(** ... and the zeroth autocorrelation coefficient is not negative *)
Definition filter_ok (P : lowpass R) (Spsq : R) (z : nat -> R) : Prop :=
  spectrum_ok P Spsq z /\ 0 <= z 0%nat.

(** the counters of the object never exceed the numbers of rows *)
Definition counters_ok {A} (P : lowpass A) (s : lp_state) : Prop :=
  (lp_iAp s <= lp_Np P /\ lp_iAs s <= lp_Ns P /\ lp_iAnr s <= lp_Nr P)%nat.

(** the largest stop-band value of x *)
Definition is_stop_max (P : lowpass R) (x : nat -> R) (m : R) : Prop :=
  (exists k, (k < lp_Ns P)%nat /\ m = dot (lp_n P) (lp_As P k) x) /\
  forall k, (k < lp_Ns P)%nat -> dot (lp_n P) (lp_As P k) x <= m.
