(** Determinants of real matrices: the spec's [det] is MathComp's. *)
From Coq Require Import Reals Lra ClassicalEpsilon FunctionalExtensionality.
From mathcomp Require Import all_ssreflect all_algebra.
From Verif Require Import Base S_LinAlg S_Det.
Set Implicit Arguments.
Unset Strict Implicit.
Unset Printing Implicit Defensive.

(** R as a MathComp field *)
Definition Reqb (x y : R) : bool := if Req_EM_T x y then true else false.
Lemma ReqbP : Equality.axiom Reqb.
Proof. move=> x y. rewrite /Reqb. case: Req_EM_T => H; by constructor. Qed.
Canonical R_eqMixin := EqMixin ReqbP.
Canonical R_eqType := Eval hnf in EqType R R_eqMixin.
Definition Rfind (P : pred R) (n : nat) : option R :=
  match excluded_middle_informative (exists x, P x) with
  | left H => Some (proj1_sig (constructive_indefinite_description _ H))
  | right _ => None
  end.
Lemma Rfind_correct P n x : Rfind P n = Some x -> P x.
Proof. rewrite /Rfind. case: excluded_middle_informative => // H [<-]. by case: constructive_indefinite_description. Qed.
Lemma Rfind_complete (P : pred R) : (exists x, P x) -> exists n, Rfind P n.
Proof. move=> H. exists 0. rewrite /Rfind. by case: excluded_middle_informative. Qed.
Lemma Rfind_ext (P Q : pred R) : P =1 Q -> Rfind P =1 Rfind Q.
Proof. move=> H. have -> : P = Q by exact: functional_extensionality. by []. Qed.
Definition R_choiceMixin : choiceMixin R := Choice.Mixin Rfind_correct Rfind_complete Rfind_ext.
Canonical R_choiceType := Eval hnf in ChoiceType R R_choiceMixin.

Lemma RaddA : associative Rplus. Proof. move=> x y z. by rewrite Rplus_assoc. Qed.
Lemma RaddC : commutative Rplus. Proof. exact: Rplus_comm. Qed.
Lemma Radd0 : left_id R0 Rplus. Proof. exact: Rplus_0_l. Qed.
Lemma RaddN : left_inverse R0 Ropp Rplus. Proof. exact: Rplus_opp_l. Qed.
Definition R_zmodMixin := ZmodMixin RaddA RaddC Radd0 RaddN.
Canonical R_zmodType := Eval hnf in ZmodType R R_zmodMixin.
Lemma RmulA : associative Rmult. Proof. move=> x y z. by rewrite Rmult_assoc. Qed.
Lemma RmulC : commutative Rmult. Proof. exact: Rmult_comm. Qed.
Lemma Rmul1 : left_id R1 Rmult. Proof. exact: Rmult_1_l. Qed.
Lemma RmulD : left_distributive Rmult Rplus. Proof. exact: Rmult_plus_distr_r. Qed.
Lemma R1neq0 : R1 != R0. Proof. apply/eqP. exact: R1_neq_R0. Qed.
Definition R_comRingMixin := ComRingMixin RmulA RmulC Rmul1 RmulD R1neq0.
Canonical R_ringType := Eval hnf in RingType R R_comRingMixin.
Canonical R_comRingType := Eval hnf in ComRingType R RmulC.
Definition Rinvx (x : R) : R := if x == R0 then R0 else Rinv x.
Lemma RmulVx (x : R) : x != R0 -> Rmult (Rinvx x) x = R1.
Proof. move=> H. rewrite /Rinvx (negbTE H). apply: Rinv_l. exact/eqP. Qed.
Lemma Rinvx0 : Rinvx R0 = R0. Proof. by rewrite /Rinvx eqxx. Qed.
Definition R_fieldUnitMixin := FieldUnitMixin RmulVx Rinvx0.
Canonical R_unitRingType := Eval hnf in UnitRingType R R_fieldUnitMixin.
Canonical R_comUnitRingType := Eval hnf in [comUnitRingType of R].
Lemma R_fieldMixin : GRing.Field.mixin_of R_unitRingType. Proof. by []. Qed.
Canonical R_idomainType := Eval hnf in IdomainType R (FieldIdomainMixin R_fieldMixin).
Canonical R_fieldType := Eval hnf in FieldType R R_fieldMixin.

Import GRing.Theory.
Local Open Scope ring_scope.
Section Det.
Implicit Types (M A B : nat -> nat -> R).
Definition mx n M : 'M[R]_n := \matrix_(i < n, j < n) M i j.

Lemma rsum_big n (f : nat -> R) : rsum n f = \sum_(i < n) f i.
Proof. elim: n => [|n IH]; first by rewrite big_ord0. by rewrite big_ord_recr /= IH. Qed.
Lemma pow_exp (x : R) k : pow x k = x ^+ k.
Proof. elim: k => [|k IH] //=. by rewrite IH GRing.exprS. Qed.
Lemma opp1 : (-1)%R = Ropp 1. Proof. by []. Qed.

Lemma det_mx n M : det n M = \det (mx n M).
Proof.
  elim: n M => [|n IH] M; first by rewrite det_mx00.
  rewrite (expand_det_row _ ord0).
  transitivity (rsum n.+1 (fun j => Rmult (Rmult (pow (-1) j) (M O j))
    (det n (fun r c => M r.+1 (if Nat.ltb c j then c else c.+1))))); first by [].
  rewrite rsum_big. apply: eq_bigr => j _.
  rewrite /cofactor IH mxE pow_exp /= add0n.
  have -> : row' ord0 (col' j (mx n.+1 M)) = mx n (fun r c => M r.+1 (if Nat.ltb c j then c else c.+1)).
  { apply/matrixP => r c. rewrite !mxE /= /bump leq0n add1n.
    have -> : Nat.ltb c j = leq c.+1 j by apply/idP/idP; [move/PeanoNat.Nat.ltb_lt/ltP|move=> H; apply/PeanoNat.Nat.ltb_lt/ltP].
    by case: ltnP => H; rewrite ?add0n ?add1n. }
  change (IZR (Zneg xH)) with (- (1 : R)).
  change Rmult with (@GRing.mul R_ringType).
  by rewrite -mulrA mulrCA.
Qed.

Lemma mx_ext n A B : meq n A B -> mx n A = mx n B.
Proof. move=> H. apply/matrixP => i j. rewrite !mxE. by apply: H; apply/ltP. Qed.
Lemma mx_mm n A B : mx n (mm n A B) = mx n A *m mx n B.
Proof. apply/matrixP => i j. rewrite !mxE /mm rsum_big. apply: eq_bigr => k _. by rewrite !mxE. Qed.
Lemma mx_idm n : mx n idm = 1%:M.
Proof.
  apply/matrixP => i j. rewrite !mxE /idm -val_eqE /=.
  have -> : Nat.eqb i j = (i == j :> nat) by apply/idP/idP; [move/PeanoNat.Nat.eqb_eq/eqP|move/eqP => H; apply/PeanoNat.Nat.eqb_eq].
  by case: eqP.
Qed.

Lemma det_ext n A B : meq n A B -> det n A = det n B.
Proof. move=> H. by rewrite !det_mx (mx_ext H). Qed.
Lemma det_mm n A B : det n (mm n A B) = Rmult (det n A) (det n B).
Proof. by rewrite !det_mx mx_mm det_mulmx. Qed.
Lemma det_idm n : det n idm = R1.
Proof. by rewrite det_mx mx_idm det1. Qed.
Lemma det_scal n c M : det n (fun i j => Rmult c (M i j)) = Rmult (pow c n) (det n M).
Proof.
  rewrite !det_mx pow_exp. have -> : mx n (fun i j => Rmult c (M i j)) = c *: mx n M by apply/matrixP => i j; rewrite !mxE.
  by rewrite detZ.
Qed.
Lemma det_tr n M : det n (fun i j => M j i) = det n M.
Proof. rewrite !det_mx -[RHS]det_tr. congr (\det _). by apply/matrixP => i j; rewrite !mxE. Qed.

Lemma det_rank1_mx n (u : 'cV[R]_n) (v : 'rV[R]_n) : \det (1%:M - u *m v) = 1 - (v *m u) ord0 ord0.
Proof.
  have H1 : block_mx 1%:M u v 1%:M = block_mx 1%:M 0 v 1%:M *m block_mx 1%:M u 0 (1%:M - v *m u).
  { by rewrite mulmx_block ?mulmx0 !mul1mx !mul0mx !mulmx1 !addr0 addrCA subrr addr0. }
  have H2 : block_mx 1%:M u v 1%:M = block_mx 1%:M u 0 1%:M *m block_mx (1%:M - u *m v) 0 v 1%:M.
  { rewrite mulmx_block ?mul1mx ?mul0mx ?mulmx1 ?mulmx0 ?add0r. by rewrite addrNK. }
  have D1 : \det (block_mx 1%:M u v 1%:M) = 1 - (v *m u) ord0 ord0.
  { by rewrite H1 det_mulmx det_lblock det_ublock !det1 !mul1r det_mx11 !mxE. }
  rewrite -D1 H2 det_mulmx det_ublock det_lblock !det1. by rewrite !mul1r mulr1.
Qed.
Lemma det_rank1 n (u v : nat -> R) :
  det n (fun i j => Rminus (idm i j) (Rmult (u i) (v j))) = Rminus R1 (dot n u v).
Proof.
  rewrite det_mx. pose uu : 'cV[R]_n := \col_i u i. pose vv : 'rV[R]_n := \row_i v i.
  have -> : mx n (fun i j => Rminus (idm i j) (Rmult (u i) (v j))) = 1%:M - uu *m vv.
  { rewrite -mx_idm. apply/matrixP => i j. by rewrite !mxE big_ord1 !mxE. }
  rewrite det_rank1_mx. congr (1 - _). rewrite mxE /dot rsum_big. apply: eq_bigr => k _. rewrite !mxE. exact: Rmult_comm.
Qed.
Fixpoint rprod (n : nat) (f : nat -> R) : R := match n with O => R1 | S m => Rmult (rprod m f) (f m) end.
Lemma rprod_big n f : rprod n f = \prod_(i < n) f i.
Proof. elim: n => [|n IH]; first by rewrite big_ord0. by rewrite big_ord_recr /= IH. Qed.
Lemma det_upper n M : (forall i j, (j < i)%coq_nat -> (i < n)%coq_nat -> M i j = R0) -> det n M = rprod n (fun i => M i i).
Proof.
  move=> H. rewrite -det_tr det_mx det_trig.
  - rewrite rprod_big. apply: eq_bigr => i _. by rewrite mxE.
  - apply/is_trig_mxP => i j Hij. rewrite mxE. apply: H; exact/ltP.
Qed.
End Det.
