(** Specifications of the problems of the repository's tests. *)
From Coq Require Import Reals.
From Verif Require Import Base S_LinAlg.
Local Open Scope R_scope.

(** t is an upper bound of v; None is plus infinity *)
Definition upto (v : R) (t : option R) : Prop := match t with Some t => v <= t | None => True end.
Definition ole (s t : option R) : Prop :=
  match s, t with Some s, Some t => s <= t | None, Some _ => False | _, None => True end.

(** squared magnitude of sum_k (ar_k + i ai_k) h_k - (hr + i hi) *)
Definition deviation (n : nat) (ar ai : nat -> R) (hr hi : R) (h : nat -> R) : R :=
  (dot n ar h - hr) * (dot n ar h - hr) + (dot n ai h - hi) * (dot n ai h - hi).

(** v is the largest of the m values d *)
Definition largest (m : nat) (d : nat -> R) (v : R) : Prop :=
  (forall i, (i < m)%nat -> d i <= v) /\ exists i, (i < m)%nat /\ v = d i.

(** The two forms of the quasiconvex problem: maximise s / e^l with s^2 <= l; minimise -sqrt(x) / y with e^x <= y. *)
Definition q1_feas (z : nat -> R) : Prop := z 0%nat * z 0%nat <= z 1%nat.
Definition q1_val (z : nat -> R) : R := z 0%nat / exp (z 1%nat).
Definition q2_feas (z : nat -> R) : Prop := exp (z 0%nat) <= z 1%nat /\ 0 < z 0%nat.
Definition q2_val (z : nat -> R) : R := - sqrt (z 0%nat) / z 1%nat.
(** the optimal value, at s = sqrt(1/2), x = 1/2 *)
Definition q_peak : R := / sqrt (2 * exp 1).

(** The linear problem: maximise x + y with x + y <= 3 and x - y >= 1.  t is a lower bound of v; None is minus infinity. *)
Definition ex_feas (z : nat -> R) : Prop := z 0%nat + z 1%nat <= 3 /\ 1 <= z 0%nat - z 1%nat.
Definition ex_val (z : nat -> R) : R := z 0%nat + z 1%nat.
Definition atleast (t : option R) (v : R) : Prop := match t with Some t => t <= v | None => True end.
