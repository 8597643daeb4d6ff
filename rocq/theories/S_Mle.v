(** Specification of maximum likelihood estimation of a covariance matrix. *)
From Coq Require Import Reals.
From Verif Require Import Base S_LinAlg S_Det S_Lmi.
Local Open Scope R_scope.

Definition trace (n : nat) (M : nat -> nat -> R) : R := rsum n (fun i => M i i).
(** v = log det Om + Tr(Om^-1 Y) *)
Definition neg_loglik (n : nat) (Om Y : nat -> nat -> R) (v : R) : Prop :=
  exists W, inverse n Om W /\ v = ln (det n Om) + trace n (mm n W Y).
(** 2 Y - Om(x) *)
Definition mle_upper (Y : nat -> nat -> R) (Sig : list (nat -> nat -> R)) (x : nat -> R) : nat -> nat -> R :=
  aff_mat (fun i j => 2 * Y i j) Sig x.
(** x is feasible with value v *)
Definition mle_point (n : nat) (Y : nat -> nat -> R) (Sig : list (nat -> nat -> R)) (x : nat -> R) (v : R) : Prop :=
  psd n (mle_upper Y Sig x) /\ pd n (lin_mat Sig x) /\ neg_loglik n (lin_mat Sig x) Y v.
(** inv returns an inverse of every matrix that has one *)
Definition inverts (inv : nat -> (nat -> nat -> R) -> res (nat -> nat -> R)) : Prop :=
  forall n M, (exists W, inverse n M W) -> exists W, inv n M = Ok W /\ inverse n M W.
