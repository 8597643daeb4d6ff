(** Vocabulary for theorems about binary64 computations: a dot product evaluated in an
    unspecified order, as NumPy and the BLAS behind it may do. *)
From Coq Require Import List Reals Permutation Arith.
From Flocq Require Import Core.Core IEEE754.BinarySingleNaN.
From Verif Require Import Base M_Drivers M_Float M_Ell S_LinAlg S_Ell.
Import ListNotations.

(** [fsum u v l s]: s is a binary64 evaluation of sum_(k in l) u_k v_k: products and sums are rounded,
    in some order and grouping, from accumulators that start at 0 or at a product, possibly with
    fused multiply-adds. *)
Inductive fsum (u v : nat -> b64) : list nat -> b64 -> Prop :=
| fs_zero : fsum u v [] fzero
| fs_mul k : fsum u v [k] (fmul (u k) (v k))
| fs_fma k l s : fsum u v l s -> fsum u v (k :: l) (@Bfma 53 1024 prec64 emax64 mode_NE (u k) (v k) s)
| fs_add l1 l2 s1 s2 : fsum u v l1 s1 -> fsum u v l2 s2 -> fsum u v (l1 ++ l2) (fadd s1 s2).

Definition fdot_any (dot : nat -> (nat -> b64) -> (nat -> b64) -> b64) : Prop :=
  forall n u v, exists l, Permutation l (seq 0 n) /\ fsum u v l (dot n u v).

(** binary64 with this dot product *)
Definition FNumD (dot : nat -> (nat -> b64) -> (nat -> b64) -> b64) : Num b64 := {|
  nzero := fzero; none := fmake 1 0;
  nadd := fadd; nsub := fsub; nmul := fmul; nopp := Bopp;
  ndiv := fdivr; nsqrt := fsqrtr; nabs := Babs;
  nltb := fun x y => Bltb x y; nleb := fun x y => Bleb x y; neqb := feqb;
  nofZ := fun n => fmake n 0; ndot := dot |}.

(** the symmetric real matrix of which a binary64 array holds the lower triangle *)
Definition low64 (a : nat -> nat -> b64) (i j : nat) : R := B2R (if (j <=? i)%nat then a i j else a j i).
(** every entry of the lower triangle is finite *)
Definition low_finite (n : nat) (a : nat -> nat -> b64) : Prop :=
  forall i j, (j <= i)%nat -> (i < n)%nat -> is_finite (a i j) = true.

(** any number of updates of a binary64 ell object *)
Inductive reach64 (dot : nat -> (nat -> b64) -> (nat -> b64) -> b64) : memory b64 * ell b64 -> memory b64 * ell b64 -> Prop :=
| r64_refl st : reach64 dot st st
| r64_step st c st1 r st2 : @ell_update b64 (FNumD dot) st c = Ok (st1, r) -> reach64 dot st1 st2 -> reach64 dot st st2.

(** the ellipsoid that a binary64 object stands for, and the cut that a binary64 cut stands for *)
Definition mem64 (st : memory b64 * ell b64) (z : nat -> R) : Prop :=
  let '(w, e) := st in in_ell (e_n e) (fun i j => B2R (e_Q e i j)) (B2R (e_kappa e)) (fun i => B2R (w (e_xc e) i)) z.
Definition sat64 (st : memory b64 * ell b64) (g : nat -> b64) (beta : b64) (z : nat -> R) : Prop :=
  let '(w, e) := st in (dot (e_n e) (fun i => B2R (g i)) (fun i => (z i - B2R (w (e_xc e) i))%R) + B2R beta <= 0)%R.

(** Runs of a binary64 ell1d object. [tame64 e c]: finite data, a nonnegative radius, and a product r * g
    that neither overflows nor comes near the subnormal range. *)
Definition tame64 (e : ell1d b64) (c : b64 * b64) : Prop :=
  is_finite (fst c) = true /\ is_finite (snd c) = true /\ (0 <= B2R (i_r e))%R /\
  (bpow radix2 (-900) <= Rabs (B2R (i_r e) * B2R (fst c)) <= bpow radix2 1000)%R.
(** the interval, and the half-line of a cut (ell.py:310) *)
Definition itv64 (e : ell1d b64) (z : R) : Prop := (Rabs (z - B2R (i_xc e)) <= B2R (i_r e))%R.
Definition cut64 (e : ell1d b64) (c : b64 * b64) (z : R) : Prop := (B2R (fst c) * (z - B2R (i_xc e)) + B2R (snd c) <= 0)%R.
(** [run64 Q k e e']: k successive updates lead from e to e', all successful, each with an object and a cut satisfying Q *)
Inductive run64 (Q : ell1d b64 -> b64 * b64 -> Prop) : nat -> ell1d b64 -> ell1d b64 -> Prop :=
| run64_nil e : run64 Q 0 e e
| run64_cons k e c e1 tsq e2 : Q e c -> @ell1d_update b64 FNum e c = Ok (e1, (success, tsq)) -> run64 Q k e1 e2 -> run64 Q (S k) e e2.
