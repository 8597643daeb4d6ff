(** The drivers on binary64 values. *)
From Flocq Require Import IEEE754.BinarySingleNaN.
From Verif Require Import Base M_Drivers M_Float.

(** cutting_plane.py:156-190 bsearch on float bounds: [T = float]; [(upper - lower) / 2] and
    [lower + tau] round to nearest; [t < tol] and [upper != u_orig] are IEEE comparisons. *)
Definition bsearch_F {O} (omega : O -> b64 -> res (O * bool)) max_it tol o itv :=
  bsearch (T := b64) (Sc := b64) (fun u l => fdiv (fsub u l) (fmake 2 0)) fadd (fun x y => Bltb x y)
          (fun a b => negb (feqb a b)) omega max_it tol o itv.
