(** Specification side of the statements about parallel cuts of ell in binary64 (C160). *)
From Coq Require Import ZArith Reals List.
From Flocq Require Import Core.Core IEEE754.BinarySingleNaN.
From Verif Require Import Base M_Drivers M_Ell S_LinAlg M_Float S_Float S_EllF.
Local Open Scope R_scope.

(** the constants used by parallel cuts are those the constructor computes for the dimension of the object *)
Definition built64p (e : ell b64) : Prop :=
  exists val x e0, @ell_init b64 FNum val (e_n e) x = Ok e0 /\
    e_nPlus1 e = e_nPlus1 e0 /\ e_c1 e = e_c1 e0 /\ e_c2 e = e_c2 e0 /\ e_halfN e = e_halfN e0 /\ e_c3 e = e_c3 e0.

(** kappa g'Qg, the square of the distance (times the length of g) from the centre to the farthest supporting plane *)
Definition reach2 (e : ell b64) (g : nat -> b64) : R :=
  B2R (e_kappa e) * bf (e_n e) (fun i j => B2R (e_Q e i j)) (fun i => B2R (g i)) (fun i => B2R (g i)).

(** [par64 h eps e g b0 b1]: the far side is a finite number at most 2^50 times the reach, and the two sides are not
    both close to the centre and the near one is not close to the boundary, as measured by
    h t^2 <= eps (b0 + b1)^2 (t - b0^2). *)
Definition par64 (h eps : R) (e : ell b64) (g : nat -> b64) (b0 b1 : b64) : Prop :=
  let t := reach2 e g in let x0 := B2R b0 in let x1 := B2R b1 in
  is_finite b1 = true /\ x1 <= bpow radix2 50 * sqrt t /\ h <= 8 * eps /\ 0 < eps <= bpow radix2 (-18) /\
  h * (t * t) <= eps * ((x0 + x1) * (x0 + x1) * (t - x0 * x0)).

(** the far half of a parallel cut *)
Definition far64 (st : memory b64 * ell b64) (g : nat -> b64) (b1 : b64) (z : nat -> R) : Prop :=
  let '(w, e) := st in 0 <= dot (e_n e) (fun i => B2R (g i)) (fun i => z i - B2R (w (e_xc e) i)) + B2R b1.
