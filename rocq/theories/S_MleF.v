(** Specification side of the statements about mle_oracle in binary64 (C186, C187). *)
From Coq Require Import Reals List.
From Verif Require Import Base M_Float S_LinAlg S_Lmi S_Float2.
Local Open Scope R_scope.

(** z' A z > - s |z|^2 for all z <> 0 *)
Definition pd_upto (m : nat) (s : R) (A : nat -> nat -> R) : Prop := forall z, nonzero m z -> - s * S_LinAlg.dot m z z < bf m A z z.
(** z' A z <= s |z|^2 for some z <> 0 *)
Definition not_pd_by (m : nat) (s : R) (A : nat -> nat -> R) : Prop := exists z, nonzero m z /\ bf m A z z <= s * S_LinAlg.dot m z z.
(** 2 Y - Omega(x) and Omega(x) *)
Definition mle_upper (Sig : list (nat -> nat -> b64)) (Y : nat -> nat -> b64) (x : nat -> R) : nat -> nat -> R := aff_mat (fun i j => 2 * matR Y i j) (matsR Sig) x.
Definition mle_lower (Sig : list (nat -> nat -> b64)) (x : nat -> R) : nat -> nat -> R := lin_mat (matsR Sig) x.
