(** Facts of linear algebra taken from MathComp. *)
From Coq Require Import Reals Lra.
From mathcomp Require Import all_ssreflect all_algebra.
From Verif Require Import Base S_LinAlg S_Det P_Det.
Set Implicit Arguments.
Unset Strict Implicit.
Unset Printing Implicit Defensive.
Import GRing.Theory.
Local Open Scope ring_scope.

Lemma mx_inj n A B : mx n A = mx n B -> meq n A B.
Proof.
  move=> /matrixP E i j /ltP Hi /ltP Hj. move: (E (Ordinal Hi) (Ordinal Hj)). by rewrite !mxE.
Qed.
(** a left inverse is a right inverse *)
Lemma mm_inv_comm n A B : meq n (mm n A B) idm -> meq n (mm n B A) idm.
Proof. move=> H. apply: mx_inj. move: (mx_ext H). rewrite !mx_mm mx_idm. exact: mulmx1C. Qed.

(** a matrix with non-zero determinant has an inverse *)
Definition unmx n (M : 'M[R]_n) (i j : nat) : R :=
  match insub i, insub j with Some a, Some b => M a b | _, _ => R0 end.
Lemma mx_unmx n (M : 'M[R]_n) : mx n (unmx M) = M.
Proof. apply/matrixP => i j. by rewrite mxE /unmx !valK. Qed.
Definition mat_inv n (M : nat -> nat -> R) : nat -> nat -> R := unmx (invmx (mx n M)).
Lemma mat_inv_inverse n M : det n M <> R0 -> inverse n M (mat_inv n M).
Proof.
  move=> H. have U : mx n M \in unitmx by rewrite unitmxE -det_mx unitfE; apply/eqP.
  split; apply: mx_inj; rewrite mx_mm mx_unmx mx_idm.
  - exact: mulmxV.
  - exact: mulVmx.
Qed.
Lemma det_inverse n M : det n M <> R0 -> exists W, inverse n M W.
Proof. move=> H. exists (mat_inv n M). exact: mat_inv_inverse. Qed.

(** fewer than n homogeneous equations have a non-zero solution *)
Lemma kernel_vec n k (a : nat -> nat -> R) : (k < n)%coq_nat ->
  exists u, nonzero n u /\ forall i, (i < k)%coq_nat -> dot n (a i) u = R0.
Proof.
  move=> /ltP H. pose Am : 'M[R]_(n, k) := \matrix_(i < n, j < k) a j i.
  have K : kermx Am != 0.
  { rewrite -mxrank_eq0 mxrank_ker subn_eq0 -ltnNge. exact: leq_ltn_trans (rank_leq_col _) H. }
  have /rowV0Pn [w /sub_kermxP Hw Nw] : kermx Am != 0 := K.
  pose u (i : nat) : R := if insub i is Some b then w ord0 b else R0.
  exists u. split.
  - have /existsP [j Hj] : [exists j, w ord0 j != 0].
    { apply: contraR Nw => /existsPn Z. apply/eqP/rowP => j. rewrite mxE. apply/eqP. by move: (Z j); rewrite negbK. }
    exists (nat_of_ord j). split; first exact/ltP. rewrite /u valK. exact/eqP.
  - move=> i /ltP Hi. move/rowP: Hw => /(_ (Ordinal Hi)). rewrite !mxE /dot rsum_big => E.
    apply: etrans E. apply: eq_bigr => l _. rewrite /u valK mxE /=. exact: Rmult_comm.
Qed.
