(** Model of csdlowpass_oracle.py:50-52 in binary64: the rounding of a design to signed digits.

    [spectral_fact] (log, exp and the Fourier transforms of the platform) is an arbitrary partial
    function [sf]; [log2] as in M_CsdF.v.  The conversion functions are those of M_CsdF.v. *)
From Coq Require Import ZArith List.
From Verif Require Import Base M_Csd M_Float M_CsdF M_Misc S_Float.

(** csdlowpass_oracle.py:51: [to_decimal(to_csdfixed(hi, self.nnz)) for hi in h] *)
Definition csd_coefs (log2 : b64 -> b64) (nnz : Z) (n : nat) (h : nat -> b64) : res (nat -> b64) :=
  for_range n 0 (fun i v =>
    s <- fto_csdfixed log2 (h i) nnz ;;
    d <- fto_decimal s ;;
    Ok (vset v i d)) (fun _ => fzero).

(** csdlowpass_oracle.py:50-52 *)
Definition csd_rounding (dot : nat -> (nat -> b64) -> (nat -> b64) -> b64) (log2 : b64 -> b64)
    (sf : (nat -> b64) -> res (nat -> b64)) (nnz : Z) (n : nat) (r : nat -> b64) : res (nat -> b64) :=
  h <- sf r ;;                                                                    (* :50 *)
  hcsd <- csd_coefs log2 nnz n h ;;                                               (* :51 *)
  @inverse_spectral_fact b64 (FNumD dot) n hcsd.                                  (* :52 *)
