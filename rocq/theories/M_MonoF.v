(** mono_decreasing_oracle2 over lsq_oracle (oracles/corr_bspline_oracle.py:34-70 with oracles/lsq_corr_oracle.py) in binary64;
    the code is that of M_Misc.v and M_Lmi.v. *)
From Coq Require Import List.
From Flocq Require Import IEEE754.BinarySingleNaN.
From Verif Require Import Base M_Chol M_Ell M_Lmi M_Misc M_Float S_Float.

Section MonoF.
Variable dot : nat -> (nat -> b64) -> (nat -> b64) -> b64.
(** corr_bspline_oracle.py:50-70; n = len(x) *)
Definition mono64_call {O T : Type} : (O -> (nat -> b64) -> T -> res (O * (((nat -> b64) * b64) * option T))) -> nat -> O -> (nat -> b64) -> T ->
    res (O * (((nat -> b64) * b64) * option T)) := @mono2_call b64 (FNumD dot) O T.
(** the oracle of the monotone fit as the driver calls it; [conv] turns its cut into the cut type of the search space *)
Definition mono_lsq64_omega {C : Type} (conv : gcut b64 -> C) (m : nat) (F : list (nat -> nat -> b64)) (F0 : nat -> nat -> b64)
    (o : qmi b64 * chol b64 * chol b64) (x : nat -> b64) (t : b64) : res ((qmi b64 * chol b64 * chol b64) * (C * option b64)) :=
  ' (o', (cut, t1)) <- mono64_call (@lsq_call b64 (FNumD dot) F F0 m m (length F)) (S (length F)) o x t ;; Ok (o', (conv cut, t1)).
End MonoF.
