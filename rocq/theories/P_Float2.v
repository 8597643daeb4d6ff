(** Rounded (inexact) binary64 operations: value and error of each operation. *)
From Coq Require Import ZArith Reals Lra Lia Bool Psatz.
From Flocq Require Import Core.Core IEEE754.BinarySingleNaN Relative.
From Verif Require Import Base M_Float P_Float.
Local Open Scope R_scope.

Lemma rnd_range r : Rabs r <= pow2 1023 -> Rlt_bool (Rabs (rnd r)) (pow2 1024) = true.
Proof.
  intros Hr. apply Rlt_bool_true. apply Rle_lt_trans with (pow2 1023); [|apply bpow_lt; lia].
  apply Rabs_le_inv in Hr as [H1 H2]. apply Rabs_le.
  split; [apply rnd_ge|apply rnd_le]; try assumption; [apply generic_format_opp|]; apply fmt_pow2; lia.
Qed.
Lemma fadd_rnd (x y : b64) : is_finite x = true -> is_finite y = true -> Rabs (B2R x + B2R y) <= pow2 1023 ->
  B2R (fadd x y) = rnd (B2R x + B2R y) /\ is_finite (fadd x y) = true.
Proof.
  intros Hx Hy Hr. pose proof (Bplus_correct 53 1024 prec64 emax64 mode_NE x y Hx Hy) as H. cbn [round_mode] in H.
  rewrite rnd_range in H by assumption. destruct H as (H & H' & _). split; [exact H|exact H'].
Qed.
Lemma fsub_rnd (x y : b64) : is_finite x = true -> is_finite y = true -> Rabs (B2R x - B2R y) <= pow2 1023 ->
  B2R (fsub x y) = rnd (B2R x - B2R y) /\ is_finite (fsub x y) = true.
Proof.
  intros Hx Hy Hr. pose proof (Bminus_correct 53 1024 prec64 emax64 mode_NE x y Hx Hy) as H. cbn [round_mode] in H.
  rewrite rnd_range in H by assumption. destruct H as (H & H' & _). split; [exact H|exact H'].
Qed.
Lemma fdiv_rnd (x y : b64) : is_finite x = true -> B2R y <> 0 -> Rabs (B2R x / B2R y) <= pow2 1023 ->
  B2R (fdiv x y) = rnd (B2R x / B2R y) /\ is_finite (fdiv x y) = true.
Proof.
  intros Hx Hy Hr. pose proof (Bdiv_correct 53 1024 prec64 emax64 mode_NE x y Hy) as H. cbn [round_mode] in H.
  rewrite rnd_range in H by assumption. destruct H as (H & H' & _). rewrite Hx in H'. split; [exact H|exact H'].
Qed.
Lemma fdivr_ok (x y : b64) : is_finite y = true -> B2R y <> 0 -> fdivr x y = Ok (fdiv x y).
Proof.
  intros Hy Hn. unfold fdivr, feqb. rewrite Beqb_correct by (auto; reflexivity).
  rewrite Req_bool_false by exact Hn. reflexivity.
Qed.

(** absolute error, from a bound on the exact result *)
Lemma rnd_err x e : Rabs x < pow2 e -> (-1021 <= e)%Z -> Rabs (rnd x - x) <= pow2 (e - 54).
Proof.
  intros Hx He. destruct (Req_dec x 0) as [->|H0].
  - rewrite round_0 by typeclasses eauto. rewrite Rminus_0_r, Rabs_R0. apply bpow_ge_0.
  - eapply Rle_trans; [apply error_le_half_ulp; typeclasses eauto|].
    replace (e - 54)%Z with (-1 + (e - 53))%Z by lia. rewrite bpow_plus. change (pow2 (-1)) with (/ 2).
    apply Rmult_le_compat_l; [lra|]. rewrite ulp_neq_0 by exact H0. unfold cexp. apply bpow_le.
    assert (mag radix2 x <= e)%Z by (apply mag_le_bpow; assumption).
    unfold SpecFloat.fexp, SpecFloat.emin. lia.
Qed.
(** mixed error: relative 2^-53 or absolute 2^-1075 *)
Lemma rnd_rel x : Rabs (rnd x - x) <= pow2 (-53) * Rabs x + pow2 (-1075).
Proof.
  destruct (Req_dec x 0) as [->|H0].
  - rewrite round_0 by typeclasses eauto. rewrite Rminus_0_r, Rabs_R0. assert (X := bpow_ge_0 radix2 (-1075)). lra.
  - eapply Rle_trans; [apply error_le_half_ulp; typeclasses eauto|].
    rewrite ulp_neq_0 by exact H0. unfold cexp, SpecFloat.fexp, SpecFloat.emin.
    assert (P1 := bpow_ge_0 radix2 (-1075)). assert (P2 := bpow_ge_0 radix2 (-53)). assert (P3 := Rabs_pos x).
    assert (E1 : / 2 * pow2 (-1074) = pow2 (-1075)) by (change (/ 2) with (pow2 (-1)); rewrite <- bpow_plus; reflexivity).
    destruct (Z.max_spec (mag radix2 x - 53) (3 - 1024 - 53)) as [[_ ->]|[_ ->]].
    + change (3 - 1024 - 53)%Z with (-1074)%Z. rewrite E1. assert (0 <= pow2 (-53) * Rabs x) by (apply Rmult_le_pos; assumption). lra.
    + assert (L := bpow_mag_le radix2 x H0).
      replace (mag radix2 x - 53)%Z with ((mag radix2 x - 1) + -52)%Z by lia. rewrite bpow_plus.
      replace (/ 2 * (pow2 (mag radix2 x - 1) * pow2 (-52))) with (pow2 (-53) * pow2 (mag radix2 x - 1)).
      * assert (pow2 (-53) * pow2 (mag radix2 x - 1) <= pow2 (-53) * Rabs x) by (apply Rmult_le_compat_l; assumption). lra.
      * change (pow2 (-53)) with (pow2 (-1 + -52)). rewrite (bpow_plus radix2 (-1) (-52)). change (pow2 (-1)) with (/ 2). ring.
Qed.
