(** Exactness lemmas for the binary64 operations of M_Float.v *)
From Coq Require Import ZArith Reals Lra Lia Bool Psatz.
From Flocq Require Import Core.Core IEEE754.BinarySingleNaN Sterbenz.
From Verif Require Import Base M_Float.
Local Open Scope R_scope.

Notation fexp64 := (SpecFloat.fexp 53 1024).
Notation fmt := (generic_format radix2 fexp64).
Notation rnd := (round radix2 fexp64 ZnearestE).
Notation pow2 := (bpow radix2).

#[global] Existing Instance prec64.
#[global] Existing Instance emax64.
#[global] Instance fexp64_valid : Valid_exp fexp64.
Proof. apply (fexp_correct 53 1024). exact prec64. Qed.
#[global] Instance fexp64_mono : Monotone_exp fexp64.
Proof. exact (fexp_monotone 53 1024). Qed.

Lemma fmt_b64 (x : b64) : fmt (B2R x).
Proof. apply generic_format_B2R. Qed.

Lemma fmt_pow2 e : (-1074 <= e)%Z -> fmt (pow2 e).
Proof. intros H. apply generic_format_bpow. unfold SpecFloat.fexp, SpecFloat.emin. lia. Qed.

Lemma fmt_scaled m e : (Z.abs m <= 2 ^ 53)%Z -> (-1074 <= e)%Z -> fmt (IZR m * pow2 e).
Proof.
  intros Hm He. destruct (Z.eq_dec (Z.abs m) (2 ^ 53)) as [Em|Em].
  - assert (E : IZR m * pow2 e = pow2 (53 + e) \/ IZR m * pow2 e = - pow2 (53 + e)).
    { rewrite bpow_plus. change (pow2 53) with (IZR (2 ^ 53)).
      destruct (Z_le_gt_dec 0 m); [left|right]; [replace m with (2 ^ 53)%Z by lia|replace m with (- 2 ^ 53)%Z by lia;rewrite opp_IZR]; ring. }
    destruct E as [-> | ->]; [|apply generic_format_opp]; apply fmt_pow2; lia.
  - change fexp64 with (FLT_exp (-1074) 53). apply generic_format_FLT.
    exists (Float radix2 m e); cbn; [reflexivity|lia|lia].
Qed.
Lemma fmt_Z m : (Z.abs m <= 2 ^ 53)%Z -> fmt (IZR m).
Proof. intros H. replace (IZR m) with (IZR m * pow2 0) by (cbn; ring). apply fmt_scaled; [assumption|lia]. Qed.

(** every finite float is an integer below 2^53 times a power of two *)
Lemma b64_scaled (x : b64) : exists m c, B2R x = IZR m * pow2 c /\ (Z.abs m < 2 ^ 53)%Z /\ (-1074 <= c)%Z.
Proof.
  pose proof (fmt_b64 x) as H. change fexp64 with (FLT_exp (-1074) 53) in H.
  apply FLT_format_generic in H; [|exact prec64]. destruct H as [[m c] H1 H2 H3]. exists m, c. cbn in *. split; [exact H1|]. split; [exact H2|exact H3].
Qed.

Lemma in_range r : fmt r -> Rabs r < pow2 1024 -> Rlt_bool (Rabs (rnd r)) (pow2 1024) = true.
Proof. intros Hf Hr. rewrite round_generic; [apply Rlt_bool_true; exact Hr|typeclasses eauto|exact Hf]. Qed.

Lemma fmake_exact m e : fmt (IZR m * pow2 e) -> Rabs (IZR m * pow2 e) < pow2 1024 ->
  B2R (fmake m e) = IZR m * pow2 e /\ is_finite (fmake m e) = true.
Proof.
  intros Hf Hr. pose proof (binary_normalize_correct 53 1024 prec64 emax64 mode_NE m e false) as H.
  cbv zeta in H. change (F2R (Float radix2 m e)) with (IZR m * pow2 e) in H. cbn [round_mode] in H.
  rewrite in_range in H by assumption. destruct H as (H & H' & _). split; [|exact H']. unfold fmake. rewrite H. apply round_generic; [typeclasses eauto|exact Hf].
Qed.
Lemma fmul_exact (x y : b64) : is_finite x = true -> is_finite y = true -> fmt (B2R x * B2R y) -> Rabs (B2R x * B2R y) < pow2 1024 ->
  B2R (fmul x y) = B2R x * B2R y /\ is_finite (fmul x y) = true.
Proof.
  intros Hx Hy Hf Hr. pose proof (Bmult_correct 53 1024 prec64 emax64 mode_NE x y) as H. cbn [round_mode] in H.
  rewrite in_range in H by assumption. destruct H as (H & H' & _). rewrite Hx, Hy in H'. split; [|exact H']. unfold fmul. rewrite H. apply round_generic; [typeclasses eauto|exact Hf].
Qed.
Lemma fadd_exact (x y : b64) : is_finite x = true -> is_finite y = true -> fmt (B2R x + B2R y) -> Rabs (B2R x + B2R y) < pow2 1024 ->
  B2R (fadd x y) = B2R x + B2R y /\ is_finite (fadd x y) = true.
Proof.
  intros Hx Hy Hf Hr. pose proof (Bplus_correct 53 1024 prec64 emax64 mode_NE x y Hx Hy) as H. cbn [round_mode] in H.
  rewrite in_range in H by assumption. destruct H as (H & H' & _). split; [|exact H']. unfold fadd. rewrite H. apply round_generic; [typeclasses eauto|exact Hf].
Qed.
Lemma fsub_exact (x y : b64) : is_finite x = true -> is_finite y = true -> fmt (B2R x - B2R y) -> Rabs (B2R x - B2R y) < pow2 1024 ->
  B2R (fsub x y) = B2R x - B2R y /\ is_finite (fsub x y) = true.
Proof.
  intros Hx Hy Hf Hr. pose proof (Bminus_correct 53 1024 prec64 emax64 mode_NE x y Hx Hy) as H. cbn [round_mode] in H.
  rewrite in_range in H by assumption. destruct H as (H & H' & _). split; [|exact H']. unfold fsub. rewrite H. apply round_generic; [typeclasses eauto|exact Hf].
Qed.
Lemma fdiv_exact (x y : b64) : is_finite x = true -> B2R y <> 0 -> fmt (B2R x / B2R y) -> Rabs (B2R x / B2R y) < pow2 1024 ->
  B2R (fdiv x y) = B2R x / B2R y /\ is_finite (fdiv x y) = true.
Proof.
  intros Hx Hy Hf Hr. pose proof (Bdiv_correct 53 1024 prec64 emax64 mode_NE x y Hy) as H. cbn [round_mode] in H.
  rewrite in_range in H by assumption. destruct H as (H & H' & _). rewrite Hx in H'. split; [|exact H']. unfold fdiv. rewrite H. apply round_generic; [typeclasses eauto|exact Hf].
Qed.

(** rounding cannot jump over a float *)
Lemma rnd_le x y : x <= y -> fmt y -> rnd x <= y.
Proof. intros H Hy. rewrite <- (round_generic radix2 fexp64 ZnearestE y Hy). apply round_le; [typeclasses eauto..|exact H]. Qed.
Lemma rnd_ge x y : y <= x -> fmt y -> y <= rnd x.
Proof. intros H Hy. rewrite <- (round_generic radix2 fexp64 ZnearestE y Hy). apply round_le; [typeclasses eauto..|exact H]. Qed.

Lemma fmul_rnd (x y : b64) : is_finite x = true -> is_finite y = true -> Rabs (B2R x * B2R y) <= pow2 1023 ->
  B2R (fmul x y) = rnd (B2R x * B2R y) /\ is_finite (fmul x y) = true.
Proof.
  intros Hx Hy Hr. pose proof (Bmult_correct 53 1024 prec64 emax64 mode_NE x y) as H. cbn [round_mode] in H.
  rewrite Rlt_bool_true in H.
  - destruct H as (H & H' & _). rewrite Hx, Hy in H'. split; [exact H|exact H'].
  - apply Rle_lt_trans with (pow2 1023); [|apply bpow_lt; lia].
    apply Rabs_le_inv in Hr as [H1 H2]. apply Rabs_le. split; [apply rnd_ge|apply rnd_le]; try assumption; [apply generic_format_opp|]; apply fmt_pow2; lia.
Qed.

Lemma sub_exact (x y : b64) : B2R y / 2 <= B2R x <= 2 * B2R y -> fmt (B2R x - B2R y).
Proof. intros H. apply sterbenz; [typeclasses eauto..|apply fmt_b64|apply fmt_b64|exact H]. Qed.

Lemma f64_ltb (x y : b64) : is_finite x = true -> is_finite y = true -> Bltb x y = Rlt_bool (B2R x) (B2R y).
Proof. apply Bltb_correct. Qed.
Lemma fopp_R (x : b64) : B2R (Bopp x) = - B2R x.
Proof. apply B2R_Bopp. Qed.
Lemma fopp_fin (x : b64) : is_finite (Bopp x) = is_finite x.
Proof. apply is_finite_Bopp. Qed.
Lemma fabs_R (x : b64) : B2R (Babs x) = Rabs (B2R x).
Proof. apply B2R_Babs. Qed.
Lemma fabs_fin (x : b64) : is_finite (Babs x) = is_finite x.
Proof. apply is_finite_Babs. Qed.

Lemma lt_1024 r : Rabs r <= 4 -> Rabs r < pow2 1024.
Proof. intros H. apply Rle_lt_trans with (1 := H). change 4 with (pow2 2). apply bpow_lt. lia. Qed.
Lemma fsmall m e v : IZR m * pow2 e = v -> (Z.abs m <= 3)%Z -> (-1 <= e)%Z -> Rabs v <= 4 -> B2R (fmake m e) = v /\ is_finite (fmake m e) = true.
Proof. intros E Hm He Hv. rewrite <- E in *. apply fmake_exact; [apply fmt_scaled; lia|apply lt_1024, Hv]. Qed.
Lemma fone : B2R (fmake 1 0) = 1 /\ is_finite (fmake 1 0) = true.
Proof. apply fsmall; [cbn; lra|lia|lia|rewrite Rabs_pos_eq; lra]. Qed.
Lemma ftwo : B2R (fmake 2 0) = 2 /\ is_finite (fmake 2 0) = true.
Proof. apply fsmall; [cbn; lra|lia|lia|rewrite Rabs_pos_eq; lra]. Qed.
Lemma f3half : B2R (fmake 3 (-1)) = 3 / 2 /\ is_finite (fmake 3 (-1)) = true.
Proof. apply fsmall; [cbn; lra|lia|lia|rewrite Rabs_pos_eq; lra]. Qed.
Lemma fpow_R e : (-1074 <= e <= 1023)%Z -> B2R (fmake 1 e) = pow2 e /\ is_finite (fmake 1 e) = true.
Proof.
  intros He. destruct (fmake_exact 1 e) as [H1 H2].
  - apply fmt_scaled; lia.
  - rewrite Rmult_1_l, Rabs_pos_eq by apply bpow_ge_0. apply bpow_lt. lia.
  - rewrite Rmult_1_l in H1. auto.
Qed.
