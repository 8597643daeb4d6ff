(** profit_rb_oracle (oracles/profit_oracle.py:76-135) in binary64; the code is that of M_Profit.v. *)
From Coq Require Import Reals.
From Flocq Require Import IEEE754.BinarySingleNaN.
From Verif Require Import Base M_Drivers M_Ell M_Lowpass M_Float M_Profit S_Float M_ProfitF.

Section ProfitRbF.
Variable dot : nat -> (nat -> b64) -> (nat -> b64) -> b64.
Variables fe fl fr : b64 -> b64.
(** profit_oracle.py:96-116 *)
Definition profit_rb64_init : b64 * b64 * b64 -> (nat -> b64) -> (nat -> b64) -> b64 * b64 * b64 * b64 * b64 -> res (profit_rb b64) :=
  @profit_rb_init b64 (FNumD dot) (FNumT fe fl fr).
(** profit_oracle.py:118-135 *)
Definition profit_rb64_call : profit_rb b64 -> (nat -> b64) -> b64 -> res (profit_rb b64 * (((nat -> b64) * b64) * option b64)) :=
  @profit_rb_call b64 (FNumD dot) (FNumT fe fl fr).
(** the oracle as the driver calls it *)
Definition profit_rb64_omega (o : profit_rb b64) (y : nat -> b64) (t : b64) : res (profit_rb b64 * (@cut b64 * option b64)) :=
  '(o', ((g, f), t1)) <- profit_rb64_call o y t ;; Ok (o', ((g, BScalar f), t1)).
(** the states after any number of calls *)
Inductive rb64_calls : profit_rb b64 -> profit_rb b64 -> Prop :=
| RC_nil o : rb64_calls o o
| RC_call o y t o1 r o2 : profit_rb64_call o y t = Ok (o1, r) -> rb64_calls o1 o2 -> rb64_calls o o2.
End ProfitRbF.
