(** The interval of an ell1d object as a set of points. *)
From Coq Require Import Reals.
From Verif Require Import Base M_Drivers M_Ell.
Local Open Scope R_scope.

(** The interval [xc - r, xc + r]. *)
Definition mem_itv (st : unit * ell1d R) (z : R) : Prop :=
  i_xc (snd st) - i_r (snd st) <= z <= i_xc (snd st) + i_r (snd st).

(** "z satisfies g (z - x) + beta <= 0": ell.py:310 *)
Definition sat_itv (x : R) (c : R * R) (z : R) : Prop := fst c * (z - x) + snd c <= 0.

Definition itv_wf (st : unit * ell1d R) : Prop := 0 <= i_r (snd st).
