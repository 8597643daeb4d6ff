(** oracles/mle_corr_oracle.py in binary64.  The code is that of M_Mle.v; np.log is any function on binary64 (it warns and
    returns -inf or nan outside its domain, it does not raise) and np.linalg.inv any function that may raise. *)
From Coq Require Import List.
From Flocq Require Import IEEE754.BinarySingleNaN.
From Verif Require Import Base M_Chol M_Lmi M_Profit M_Mle M_Float S_Float M_ProfitF.

Section MleF.
Variable dot : nat -> (nat -> b64) -> (nat -> b64) -> b64.
Variables fe fl fr : b64 -> b64.
Variable np_inv : nat -> (nat -> nat -> b64) -> res (nat -> nat -> b64).
(** mle_corr_oracle.py:31-69; nx = len(x) = len(Sig) *)
Definition mle64_call (Sig : list (nat -> nat -> b64)) (Y : nat -> nat -> b64) (m : nat) : chol b64 * chol b64 -> (nat -> b64) -> b64 ->
    res ((chol b64 * chol b64) * (gcut b64 * option b64)) := @mle_call b64 (FNumD dot) (FNumT fe fl fr) np_inv Sig Y m (length Sig).
(** the oracle as the driver calls it; [conv] turns its cut into the cut type of the search space *)
Definition mle64_omega {C : Type} (conv : gcut b64 -> C) (Sig : list (nat -> nat -> b64)) (Y : nat -> nat -> b64) (m : nat)
    (o : chol b64 * chol b64) (x : nat -> b64) (t : b64) : res ((chol b64 * chol b64) * (C * option b64)) :=
  ' (o', (cut, t1)) <- mle64_call Sig Y m o x t ;; Ok (o', (conv cut, t1)).
End MleF.
