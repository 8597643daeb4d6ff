(** profit_q_oracle (oracles/profit_oracle.py:138-200) in binary64; the code is that of M_Profit.v. *)
From Coq Require Import Reals.
From Flocq Require Import IEEE754.BinarySingleNaN.
From Verif Require Import Base M_Drivers M_Ell M_Lowpass M_Float M_Profit S_Float M_ProfitF.

Section ProfitQF.
Variable dot : nat -> (nat -> b64) -> (nat -> b64) -> b64.
Variables fe fl fr : b64 -> b64.
(** profit_oracle.py:173-200 *)
Definition profit_q64_call : profit b64 -> option (nat -> b64) -> (nat -> b64) -> b64 -> bool -> res (option (nat -> b64) * (((nat -> b64) * b64) * (nat -> b64) * option b64 * bool)) :=
  @profit_q_call b64 (FNumD dot) (FNumT fe fl fr).
(** the oracle as the driver calls it *)
Definition profit_q64_omega (P : profit b64) (o : option (nat -> b64)) (y : nat -> b64) (t : b64) (retry : bool)
  : res (option (nat -> b64) * (@cut b64 * (nat -> b64) * option b64 * bool)) :=
  '(o', (((g, f), x0), t1, more)) <- profit_q64_call P o y t retry ;; Ok (o', ((g, BScalar f), x0, t1, more)).
End ProfitQF.
