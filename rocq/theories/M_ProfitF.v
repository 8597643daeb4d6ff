(** oracles/profit_oracle.py in binary64.  The code is that of M_Profit.v; np.exp, np.log and np.round are any functions
    on binary64 (np.log warns and returns -inf or nan outside its domain, it does not raise). *)
From Coq Require Import Reals.
From Flocq Require Import IEEE754.BinarySingleNaN.
From Verif Require Import Base M_Drivers M_Ell M_Lowpass M_Float M_Profit S_Float.

Definition FNumT (fe fl fr : b64 -> b64) : NumT b64 := {| nexp := fe; nlog := fun x => Ok (fl x); nround := fr |}.

Section ProfitF.
Variable dot : nat -> (nat -> b64) -> (nat -> b64) -> b64.
Variables fe fl fr : b64 -> b64.
(** profit_oracle.py:29-41 *)
Definition profit64_init : b64 * b64 * b64 -> (nat -> b64) -> (nat -> b64) -> res (profit b64) := @profit_init b64 (FNumD dot) (FNumT fe fl fr).
(** profit_oracle.py:43-73 *)
Definition profit64_call : profit b64 -> (nat -> b64) -> b64 -> res (((nat -> b64) * b64) * option b64) := @profit_call b64 (FNumD dot) (FNumT fe fl fr).
(** the oracle as the driver calls it *)
Definition profit64_omega (P : profit b64) (_ : unit) (y : nat -> b64) (t : b64) : res (unit * (@cut b64 * option b64)) :=
  '((g, f), t1) <- profit64_call P y t ;; Ok (tt, ((g, BScalar f), t1)).
End ProfitF.
