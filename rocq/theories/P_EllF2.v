(** Error analysis of ell.update with one cut in binary64. *)
From Coq Require Import ZArith Reals Lra Lia Bool List Permutation Psatz.
From Flocq Require Import Core.Core IEEE754.BinarySingleNaN.
From Verif Require Import Base M_Drivers M_Ell S_Ell S_LinAlg P_LinAlg M_Float P_Float P_Float2 S_Float P_FSum P_EllCalc P_Ell.
Import ListNotations.
Local Open Scope R_scope.

(** A sum of products of finite numbers whose absolute values add up to less than 2^1000 does not overflow. *)
Lemma sum_err_bound m S0 S1 s : sum_err m S0 S1 s -> (Z.of_nat m <= 2 ^ 30)%Z -> Rabs S0 <= S1 -> Rabs s <= 2 * S1 + pow2 (-1000).
Proof.
  intros H Hm H0. assert (P1 : 0 <= S1) by (eapply Rle_trans; [apply Rabs_pos|exact H0]).
  assert (Pt : 0 < pow2 (-1000)) by apply bpow_gt_0.
  destruct m as [|m]; [destruct H as [-> _]; rewrite Rabs_R0; lra|]. cbn [sum_err] in H.
  destruct (growth_bound (S m) Hm) as [G1 G2]. set (p := (1 + uro) ^ S m) in *.
  assert (G0 : 1 <= p) by apply growth_ge1.
  assert (T : Rabs s <= Rabs (s - S0) + Rabs S0) by (replace s with ((s - S0) + S0) at 1 by ring; apply Rabs_triang).
  assert (A1 : (p - 1) * S1 <= 1 * S1) by (apply Rmult_le_compat_r; lra).
  assert (A2 : (2 * INR (S m) - 1) * p * eta <= pow2 (-1000)).
  { assert (B : INR (S m) <= pow2 30) by (rewrite INR_IZR_INZ; change (pow2 30) with (IZR (2 ^ 30)); apply IZR_le; exact Hm).
    assert (B0 : 1 <= INR (S m)) by (rewrite S_INR; assert (X := pos_INR m); lra).
    assert (E0 := eta_pos). apply Rle_trans with (pow2 31 * pow2 1 * eta).
    - apply Rmult_le_compat_r; [lra|]. apply Rmult_le_compat; [lra|lra| |change (pow2 1) with 2; lra].
      change (pow2 31) with (2 * pow2 30). lra.
    - rewrite <- !bpow_plus. apply bpow_le. lia. }
  lra.
Qed.
Lemma fsum_finite u v l s : fsum u v l s -> (forall k, In k l -> is_finite (u k) = true /\ is_finite (v k) = true) ->
  (Z.of_nat (length l) <= 2 ^ 30)%Z -> lsum l (fun k => Rabs (B2R (u k) * B2R (v k))) <= pow2 1000 -> is_finite s = true.
Proof.
  assert (P0 : 0 < pow2 (-1000) <= 1) by (split; [apply bpow_gt_0|change 1 with (pow2 0); apply bpow_le; lia]).
  assert (P1 : 1 <= pow2 1000) by (change 1 with (pow2 0); apply bpow_le; lia).
  assert (P2 : 8 * pow2 1000 <= pow2 1023) by (change 8 with (pow2 3); rewrite <- bpow_plus; apply bpow_le; lia).
  assert (NN : forall l, 0 <= lsum l (fun k => Rabs (B2R (u k) * B2R (v k)))) by (intros l0; apply lsum_nonneg; intros; apply Rabs_pos).
  induction 1 as [|k|k l s H IH|l1 l2 s1 s2 H1 IH1 H2 IH2]; intros F L B.
  - reflexivity.
  - destruct (F k (or_introl eq_refl)) as [Fu Fv]. cbn [lsum] in B. apply fmul_rnd; auto. lra.
  - destruct (F k (or_introl eq_refl)) as [Fu Fv]. cbn [lsum length] in B, L.
    assert (Fs : is_finite s = true).
    { apply IH; [intros k' Hk; apply F; right; exact Hk|lia|]. assert (X := Rabs_pos (B2R (u k) * B2R (v k))). lra. }
    destruct (fsum_fin _ _ _ _ H Fs) as [_ E]. apply sum_err_bound in E; [|lia|apply lsum_abs].
    pose proof (Bfma_correct 53 1024 prec64 emax64 mode_NE (u k) (v k) s Fu Fv Fs) as C. cbv zeta in C. cbn [round_mode] in C.
    rewrite rnd_range in C; [apply C|]. assert (T := Rabs_triang (B2R (u k) * B2R (v k)) (B2R s)). assert (X := Rabs_pos (B2R (u k) * B2R (v k))).
    assert (Y := NN l). lra.
  - rewrite lsum_app in B. rewrite app_length in L. assert (N1 := NN l1). assert (N2 := NN l2).
    assert (F1 : is_finite s1 = true) by (apply IH1; [intros; apply F, in_or_app; auto|lia|lra]).
    assert (F2 : is_finite s2 = true) by (apply IH2; [intros; apply F, in_or_app; auto|lia|lra]).
    destruct (fsum_fin _ _ _ _ H1 F1) as [_ E1]. apply sum_err_bound in E1; [|lia|apply lsum_abs].
    destruct (fsum_fin _ _ _ _ H2 F2) as [_ E2]. apply sum_err_bound in E2; [|lia|apply lsum_abs].
    apply fadd_rnd; auto. assert (T := Rabs_triang (B2R s1) (B2R s2)). lra.
Qed.
Lemma fdot_bounded dot n u v : fdot_any dot -> (Z.of_nat n <= 2 ^ 30)%Z ->
  (forall k, (k < n)%nat -> is_finite (u k) = true /\ is_finite (v k) = true) ->
  rsum n (fun k => Rabs (B2R (u k) * B2R (v k))) <= pow2 1000 ->
  is_finite (dot n u v) = true /\
  Rabs (B2R (dot n u v) - rsum n (fun k => B2R (u k) * B2R (v k)))
    <= INR n * pow2 (-52) * rsum n (fun k => Rabs (B2R (u k) * B2R (v k))) + INR n * pow2 (-1073).
Proof.
  intros HD Hn HF HB. assert (F : is_finite (dot n u v) = true).
  { destruct (HD n u v) as (l & Pl & Hs). apply (fsum_finite _ _ _ _ Hs).
    - intros k Hk. apply HF. apply (Permutation_in k Pl) in Hk. apply in_seq in Hk. lia.
    - rewrite (Permutation_length Pl), seq_length. exact Hn.
    - rewrite (lsum_perm _ _ _ Pl), lsum_seq. exact HB. }
  split; [exact F|]. apply (fdot_fin dot n u v HD Hn F).
Qed.

(** *** Relative errors, in units of h *)
Section Rel.
Variable h : R.
Hypothesis Hh : pow2 (-50) <= h <= / 1024.
Definition ra (k a b : R) : Prop := Rabs (a - b) <= k * h * b.
Lemma h_pos : 0 < h. Proof. assert (0 < pow2 (-50)) by apply bpow_gt_0. lra. Qed.
Lemma uro_h : uro <= h / 8.
Proof. replace uro with (pow2 (-50) / 8); [lra|]. change (pow2 (-50)) with (/ 1125899906842624). change uro with (/ 9007199254740992). lra. Qed.
Lemma eta_h b : pow2 (-1000) <= b -> eta <= h / 8 * b.
Proof.
  intros H. apply Rle_trans with (pow2 (-50) / 8 * pow2 (-1000)).
  - change (pow2 (-50) / 8) with (pow2 (-50) * / 8). change (/ 8) with (pow2 (-3)). rewrite <- !bpow_plus. apply bpow_le. lia.
  - apply Rmult_le_compat; [|apply bpow_ge_0|lra|exact H]. assert (0 < pow2 (-50)) by apply bpow_gt_0. lra.
Qed.
Lemma ra_range k a b : ra k a b -> 0 <= k <= 42 -> 0 < b -> b * (23 / 24) <= a <= b * (25 / 24).
Proof.
  intros R K B. apply Rabs_le_inv in R. assert (HP := h_pos).
  assert (k * h * b <= 42 * / 1024 * b) by (apply Rmult_le_compat_r; [lra|]; apply Rmult_le_compat; lra). lra.
Qed.
Lemma ra_weak k l a b : ra k a b -> k <= l -> 0 < b -> ra l a b.
Proof.
  intros R K B. eapply Rle_trans; [exact R|]. assert (HP := h_pos). apply Rmult_le_compat_r; [lra|]. apply Rmult_le_compat_r; lra.
Qed.
Lemma ra_refl a : 0 < a -> ra 0 a a.
Proof. intros H. unfold ra. rewrite Rminus_eq_0, Rabs_R0. lra. Qed.
Lemma ra_mul k l a b c d : ra k a b -> ra l c d -> 0 < b -> 0 < d -> 0 <= k <= 20 -> 0 <= l <= 20 -> ra (k + l + 1) (a * c) (b * d).
Proof.
  intros R1 R2 B D K L. unfold ra in *. assert (HP := h_pos).
  replace (a * c - b * d) with ((a - b) * (c - d) + ((a - b) * d + b * (c - d))) by ring.
  eapply Rle_trans; [apply Rabs_triang|]. eapply Rle_trans; [apply Rplus_le_compat_l, Rabs_triang|].
  rewrite !Rabs_mult, (Rabs_pos_eq b), (Rabs_pos_eq d) by lra.
  assert (X1 : Rabs (a - b) * Rabs (c - d) <= k * h * b * (l * h * d)) by (apply Rmult_le_compat; try apply Rabs_pos; assumption).
  assert (X2 : Rabs (a - b) * d <= k * h * b * d) by (apply Rmult_le_compat_r; lra).
  assert (X3 : b * Rabs (c - d) <= b * (l * h * d)) by (apply Rmult_le_compat_l; lra).
  assert (X4 : k * l * h * (h * (b * d)) <= 1 * (h * (b * d))).
  { apply Rmult_le_compat_r; [apply Rmult_le_pos; [lra|nra]|]. apply Rle_trans with (20 * 20 * / 1024); [|lra].
    apply Rmult_le_compat; [nra|lra|nra|lra]. }
  lra.
Qed.
Lemma ra_div k l a b c d : ra k a b -> ra l c d -> 0 < b -> 0 < d -> 0 <= k <= 20 -> 0 <= l <= 20 -> ra (k + l + 1) (a / c) (b / d).
Proof.
  intros R1 R2 B D K L. assert (C := ra_range l c d R2 ltac:(lra) D). unfold ra in *. assert (HP := h_pos).
  assert (C0 : 0 < c) by lra. assert (ID : 0 < / d) by (apply Rinv_0_lt_compat; lra).
  replace (a / c - b / d) with (((a - b) * d - b * (c - d)) / (c * d)) by (field; lra).
  unfold Rdiv at 1. rewrite Rabs_mult, (Rabs_pos_eq (/ (c * d))) by (left; apply Rinv_0_lt_compat; nra).
  apply Rmult_le_reg_r with (c * d); [nra|]. rewrite Rmult_assoc, Rinv_l, Rmult_1_r by nra.
  replace ((k + l + 1) * h * (b / d) * (c * d)) with ((k + l + 1) * (h * b) * c) by (field; lra).
  eapply Rle_trans; [apply Rabs_triang|]. rewrite Rabs_Ropp, !Rabs_mult, (Rabs_pos_eq b), (Rabs_pos_eq d) by lra.
  assert (X2 : Rabs (a - b) * d <= k * h * b * d) by (apply Rmult_le_compat_r; lra).
  assert (X3 : b * Rabs (c - d) <= b * (l * h * d)) by (apply Rmult_le_compat_l; lra).
  assert (C1 : d - l * h * d <= c) by (apply Rabs_le_inv in R2; lra).
  assert (X4 : (k + l + 1) * (h * b) * (d - l * h * d) <= (k + l + 1) * (h * b) * c) by (apply Rmult_le_compat_l; [|lra]; apply Rmult_le_pos; nra).
  assert (X5 : (k + l + 1) * l * h * (h * b * d) <= 1 * (h * b * d)).
  { apply Rmult_le_compat_r; [apply Rmult_le_pos; [nra|lra]|]. apply Rle_trans with (41 * 20 * / 1024); [|lra].
    apply Rmult_le_compat; [apply Rmult_le_pos; lra|lra|apply Rmult_le_compat; lra|lra]. }
  lra.
Qed.
Lemma ra_sqrt k a b : ra k a b -> 0 < b -> 0 <= k <= 20 -> ra k (sqrt a) (sqrt b).
Proof.
  intros R B K. assert (A := ra_range k a b R ltac:(lra) B). unfold ra in *. assert (HP := h_pos).
  assert (SA : 0 < sqrt a) by (apply sqrt_lt_R0; lra). assert (SB : 0 < sqrt b) by (apply sqrt_lt_R0; lra).
  assert (EA : sqrt a * sqrt a = a) by (apply sqrt_sqrt; lra). assert (EB : sqrt b * sqrt b = b) by (apply sqrt_sqrt; lra).
  apply Rmult_le_reg_r with (sqrt b); [lra|]. rewrite Rmult_assoc, EB. eapply Rle_trans; [|exact R].
  rewrite <- (Rabs_pos_eq (sqrt b)) at 2 by lra. rewrite <- Rabs_mult.
  replace (a - b) with ((sqrt a - sqrt b) * (sqrt a + sqrt b)) by (transitivity (sqrt a * sqrt a - sqrt b * sqrt b); [ring|lra]).
  rewrite !Rabs_mult. apply Rmult_le_compat_l; [apply Rabs_pos|]. rewrite !Rabs_pos_eq by lra. lra.
Qed.
Lemma ra_rnd k a b : ra k a b -> pow2 (-1000) <= b -> 0 <= k <= 42 -> ra (k + 1) (rnd a) b.
Proof.
  intros R B K. assert (B0 : 0 < b) by (assert (0 < pow2 (-1000)) by apply bpow_gt_0; lra).
  assert (A := ra_range k a b R K B0). unfold ra in *. assert (HP := h_pos).
  assert (X := rnd_rel a). rewrite (Rabs_pos_eq a) in X by lra. assert (U := uro_h). assert (E := eta_h b B).
  assert (uro * a <= h / 8 * (b * (25 / 24))) by (apply Rmult_le_compat; try apply bpow_ge_0; lra).
  replace (rnd a - b) with ((rnd a - a) + (a - b)) by ring. eapply Rle_trans; [apply Rabs_triang|].
  assert (0 < h * b) by nra. lra.
Qed.
(** binary64 numbers with a relative error *)
Definition fra (k : R) (x : b64) (b : R) : Prop := is_finite x = true /\ ra k (B2R x) b.
Lemma fra_mul k l x y b d : fra k x b -> fra l y d -> 0 < b -> 0 < d -> 0 <= k <= 20 -> 0 <= l <= 20 ->
  pow2 (-1000) <= b * d <= pow2 1000 -> fra (k + l + 2) (fmul x y) (b * d).
Proof.
  intros [F1 R1] [F2 R2] B D K L BD. assert (R := ra_mul k l _ _ _ _ R1 R2 B D K L).
  assert (BD0 : 0 < b * d) by (apply Rmult_lt_0_compat; assumption).
  assert (RR := ra_range _ _ _ R ltac:(lra) BD0).
  destruct (fmul_rnd x y F1 F2) as [E F].
  { rewrite Rabs_pos_eq by lra. apply Rle_trans with (pow2 1000 * pow2 1); [change (pow2 1) with 2; lra|rewrite <- bpow_plus; apply bpow_le; lia]. }
  split; [exact F|]. rewrite E. replace (k + l + 2) with (k + l + 1 + 1) by ring. apply ra_rnd; [exact R|lra|lra].
Qed.
Lemma fra_div k l x y b d : fra k x b -> fra l y d -> 0 < b -> 0 < d -> 0 <= k <= 20 -> 0 <= l <= 19 ->
  pow2 (-1000) <= b / d <= pow2 1000 -> fdivr x y = Ok (fdiv x y) /\ fra (k + l + 2) (fdiv x y) (b / d).
Proof.
  intros [F1 R1] [F2 R2] B D K L BD. assert (R := ra_div k l _ _ _ _ R1 R2 B D K ltac:(lra)).
  assert (BD0 : 0 < b / d) by (apply Rdiv_lt_0_compat; assumption).
  assert (RR := ra_range _ _ _ R ltac:(lra) BD0). assert (RY := ra_range _ _ _ R2 ltac:(lra) D).
  split; [apply fdivr_ok; [exact F2|lra]|]. destruct (fdiv_rnd x y F1) as [E F]; [lra| |].
  { rewrite Rabs_pos_eq by lra. apply Rle_trans with (pow2 1000 * pow2 1); [change (pow2 1) with 2; lra|rewrite <- bpow_plus; apply bpow_le; lia]. }
  split; [exact F|]. rewrite E. replace (k + l + 2) with (k + l + 1 + 1) by ring. apply ra_rnd; [exact R|lra|lra].
Qed.
Lemma fra_add k x y b d : fra k x b -> fra k y d -> 0 < b -> 0 < d -> 0 <= k <= 20 ->
  pow2 (-1000) <= b + d <= pow2 1000 -> fra (k + 1) (fadd x y) (b + d).
Proof.
  intros [F1 R1] [F2 R2] B D K BD.
  assert (R : ra k (B2R x + B2R y) (b + d)).
  { unfold ra in *. replace (B2R x + B2R y - (b + d)) with ((B2R x - b) + (B2R y - d)) by ring. eapply Rle_trans; [apply Rabs_triang|]. lra. }
  assert (RR := ra_range _ _ _ R ltac:(lra) ltac:(lra)).
  destruct (fadd_rnd x y F1 F2) as [E F].
  { rewrite Rabs_pos_eq by lra. apply Rle_trans with (pow2 1000 * pow2 1); [change (pow2 1) with 2; lra|rewrite <- bpow_plus; apply bpow_le; lia]. }
  split; [exact F|]. rewrite E. apply ra_rnd; [exact R|lra|lra].
Qed.
Lemma fra_weak k l x b : fra k x b -> k <= l -> 0 < b -> fra l x b.
Proof. intros [F R] K B. split; [exact F|]. eapply ra_weak; eassumption. Qed.
Lemma fra_exact x : is_finite x = true -> 0 < B2R x -> fra 0 x (B2R x).
Proof. intros F P. split; [exact F|apply ra_refl, P]. Qed.
Lemma fra_sqrt k x b : fra k x b -> 0 <= k <= 20 -> pow2 (-1000) <= b -> pow2 (-1000) <= sqrt b ->
  fsqrtr x = Ok (fsqrt x) /\ fra (k + 1) (fsqrt x) (sqrt b).
Proof.
  intros [F R] K B SB. assert (B0 : 0 < b) by (assert (0 < pow2 (-1000)) by apply bpow_gt_0; lra).
  assert (RR := ra_range _ _ _ R ltac:(lra) B0). split.
  - unfold fsqrtr. rewrite f64_ltb by (auto; reflexivity). change (B2R fzero) with 0. rewrite Rlt_bool_false by lra. reflexivity.
  - pose proof (Bsqrt_correct 53 1024 prec64 emax64 mode_NE x) as (C1 & C2 & _). cbn [round_mode] in C1.
    split.
    + unfold fsqrt. rewrite C2. destruct x as [s|s| |s m e Hm]; try discriminate F; [reflexivity|]. destruct s; [|reflexivity].
      exfalso. cbn in RR. assert (F2R (Float radix2 (Zneg m) e) < 0) by (apply F2R_lt_0; reflexivity).
      change (F2R {| Fnum := Z.neg m; Fexp := e |}) with (F2R (Float radix2 (Zneg m) e)) in RR. lra.
    + unfold fsqrt. rewrite C1. apply ra_rnd; [|exact SB|lra]. apply ra_sqrt; [exact R|exact B0|lra].
Qed.
End Rel.

(** *** The scalar part of ell.update *)
Section Scal.
Variable h : R.
Hypothesis Hh : pow2 (-50) <= h <= / 1024.
Variables (dot : nat -> (nat -> b64) -> (nat -> b64) -> b64) (e : ell b64).
Let n := e_n e.
Let N := IZR (Z.of_nat n).
Hypothesis Hn : (2 <= n)%nat /\ (Z.of_nat n <= 2 ^ 20)%Z.
Hypothesis Hp1 : is_finite (e_nPlus1 e) = true /\ B2R (e_nPlus1 e) = N + 1.
Hypothesis Hc1 : fra h 1 (e_c1 e) (N * N / (N * N - 1)).
Hypothesis Hc2 : fra h 1 (e_c2 e) (2 / (N + 1)).
Variables (T b : b64) (t : R).
Hypothesis HT : fra h 3 T t.
Hypothesis Ht : pow2 (-850) <= t <= pow2 850.
Hypothesis Fb : is_finite b = true.
Hypothesis Hb : 0 <= B2R b.
Let tau := sqrt t.
Let beta := B2R b.

Lemma N_range : 2 <= N <= pow2 20.
Proof. unfold N. split; [apply IZR_le; lia|]. change (pow2 20) with (IZR (2 ^ 20)). apply IZR_le. lia. Qed.
Lemma t_pos : 0 < t. Proof. assert (0 < pow2 (-850)) by apply bpow_gt_0. lra. Qed.
Lemma tau_sq : tau * tau = t. Proof. apply sqrt_sqrt. assert (X := t_pos). lra. Qed.
Lemma tau_range : pow2 (-425) <= tau <= pow2 425.
Proof.
  assert (X := t_pos). split.
  - replace (pow2 (-425)) with (sqrt (pow2 (-850))); [apply sqrt_le_1_alt; lra|].
    replace (pow2 (-850)) with (pow2 (-425) * pow2 (-425)) by (rewrite <- bpow_plus; reflexivity). apply sqrt_square, bpow_ge_0.
  - replace (pow2 425) with (sqrt (pow2 850)); [apply sqrt_le_1_alt; lra|].
    replace (pow2 850) with (pow2 425 * pow2 425) by (rewrite <- bpow_plus; reflexivity). apply sqrt_square, bpow_ge_0.
Qed.
Lemma tau64 : fsqrtr T = Ok (fsqrt T) /\ fra h 4 (fsqrt T) tau.
Proof.
  replace 4 with (3 + 1) by ring. apply fra_sqrt; [exact Hh|exact HT|lra| |].
  - eapply Rle_trans; [|apply Ht]. apply bpow_le. lia.
  - eapply Rle_trans; [|apply tau_range]. apply bpow_le. lia.
Qed.
Lemma fn_exact : is_finite (fmake (Z.of_nat n) 0) = true /\ B2R (fmake (Z.of_nat n) 0) = N.
Proof.
  destruct (fmake_exact (Z.of_nat n) 0) as [N1 N2].
  - change (pow2 0) with 1. rewrite Rmult_1_r. apply fmt_Z. lia.
  - change (pow2 0) with 1. rewrite Rmult_1_r, <- abs_IZR. apply Rle_lt_trans with (pow2 20); [change (pow2 20) with (IZR (2 ^ 20)); apply IZR_le; lia|apply bpow_lt; lia].
  - split; [exact N2|]. rewrite N1. change (pow2 0) with 1. unfold N. ring.
Qed.

Definition tau_hat := fsqrt T.
Lemma nosoln64 : Bltb (fsub tau_hat b) fzero = true -> beta <= pow2 1000 -> tau * (1 - 4 * h) < beta.
Proof.
  intros L B. destruct tau64 as [_ [FT RT]]. fold tau_hat in FT, RT. assert (HP := h_pos h Hh). assert (TR := tau_range).
  assert (T0 : 0 < tau) by (assert (0 < pow2 (-425)) by apply bpow_gt_0; lra).
  assert (RR := ra_range h Hh _ _ _ RT ltac:(lra) T0).
  assert (P : pow2 425 <= pow2 1000) by (apply bpow_le; lia).
  destruct (fsub_rnd tau_hat b FT Fb) as [E F].
  { fold beta. apply Rle_trans with (pow2 1000 * pow2 2); [|rewrite <- bpow_plus; apply bpow_le; lia]. change (pow2 2) with 4.
    apply Rabs_le. fold beta in Hb. lra. }
  rewrite f64_ltb in L by (auto; reflexivity). change (B2R fzero) with 0 in L.
  destruct (Rlt_bool_spec (B2R (fsub tau_hat b)) 0) as [L'|]; [|discriminate]. rewrite E in L'. fold beta in L'.
  assert (LT : B2R tau_hat < beta).
  { destruct (Rlt_le_dec (B2R tau_hat) beta) as [|G]; [assumption|]. exfalso.
    assert (0 <= rnd (B2R tau_hat - beta)) by (apply rnd_ge; [lra|apply generic_format_0]). lra. }
  unfold ra in RT. apply Rabs_le_inv in RT. lra.
Qed.

Lemma dc64 : beta <= tau ->
  @calc_dc b64 (FNumD dot) e T b = Ok (T, Stop nosoln) \/
  exists rho sigma delta r0 s0 d0, @calc_dc b64 (FNumD dot) e T b = Ok (T, Go rho sigma delta) /\
    dc_formula N t beta r0 s0 d0 /\ fra h 8 rho r0 /\ fra h 17 sigma s0 /\ is_finite delta = true /\ Rabs (B2R delta - d0) <= 10 * h /\
    0 <= d0 <= 4 / 3 /\ tau / (N + 1) <= r0 <= tau /\ 2 / (N + 1) <= s0 <= 1.
Proof.
  intros HB. assert (HP := h_pos h Hh). assert (TR := tau_range). assert (NR := N_range). assert (T0 := t_pos). assert (TS := tau_sq).
  assert (TP : 0 < tau) by (assert (0 < pow2 (-425)) by apply bpow_gt_0; lra).
  assert (UH := uro_h h Hh). assert (P20 : pow2 20 <= pow2 21) by (apply bpow_le; lia).
  assert (N1 : 0 < N + 1 <= pow2 21) by (change (pow2 21) with (2 * pow2 20); change (pow2 20) with 1048576 in *; lra).
  assert (IN1 : 0 < / (N + 1)) by (apply Rinv_0_lt_compat; lra).
  assert (IN1' : pow2 (-21) <= / (N + 1)).
  { change (-21)%Z with (- (21))%Z. rewrite bpow_opp. apply Rinv_le; lra. }
  assert (C43 : 1 <= N * N / (N * N - 1) <= 4 / 3).
  { assert (0 < N * N - 1) by nra. split; apply Rmult_le_reg_r with (N * N - 1); try lra;
      replace (N * N / (N * N - 1) * (N * N - 1)) with (N * N) by (field; lra); nra. }
  destruct tau64 as [ES FT]. fold tau_hat in FT.
  unfold calc_dc. change (@nsqrt b64 (FNumD dot) T) with (fsqrtr T). rewrite ES. cbn [bind]. fold tau_hat.
  change (@nltb b64 (FNumD dot)) with (fun x y : b64 => Bltb x y). change (@nzero b64 (FNumD dot)) with fzero.
  change (@neqb b64 (FNumD dot)) with feqb. change (@nsub b64 (FNumD dot)) with fsub. change (@ndiv b64 (FNumD dot)) with fdivr. change (@nmul b64 (FNumD dot)) with fmul.
  change (@none b64 (FNumD dot)) with (fmake 1 0). change (@nadd b64 (FNumD dot)) with fadd. cbv beta.
  change (@two b64 (FNumD dot)) with (fmake 2 0). change (@nofnat b64 (FNumD dot) (e_n e)) with (fmake (Z.of_nat n) 0).
  destruct (Bltb (fsub tau_hat b) fzero); [left; reflexivity|right].
  assert (FP1 : fra h 0 (e_nPlus1 e) (N + 1)).
  { destruct Hp1 as [F E]. rewrite <- E. apply fra_exact; [exact F|lra]. }
  assert (TN : tau / (N + 1) <= tau).
  { unfold Rdiv. rewrite <- (Rmult_1_r tau) at 2. apply Rmult_le_compat_l; [lra|]. rewrite <- Rinv_1. apply Rinv_le; lra. }
  assert (TN' : pow2 (-446) <= tau / (N + 1)).
  { replace (-446)%Z with (-425 + -21)%Z by reflexivity. rewrite bpow_plus. apply Rmult_le_compat; try apply bpow_ge_0; lra. }
  assert (PA : pow2 (-1000) <= pow2 (-446)) by (apply bpow_le; lia).
  assert (TN0 : 0 < tau / (N + 1)) by (apply Rdiv_lt_0_compat; lra).
  assert (PB : pow2 425 <= pow2 900) by (apply bpow_le; lia).
  assert (PC : 4 * pow2 900 <= pow2 1000) by (change 4 with (pow2 2); rewrite <- bpow_plus; apply bpow_le; lia).
  assert (PD : pow2 (-446) <= pow2 (-425)) by (apply bpow_le; lia).
  assert (BE : feqb b fzero = Raux.Req_bool beta 0).
  { unfold feqb. rewrite Beqb_correct by (auto; reflexivity). reflexivity. }
  rewrite BE. destruct (Req_bool_spec beta 0) as [B0|B0].
  - destruct (fra_div h Hh 4 0 tau_hat (e_nPlus1 e) tau (N + 1) FT FP1) as [ED FD]; [lra|lra|lra|lra|lra|].
    unfold calc_cc. change (@ndiv b64 (FNumD dot)) with fdivr. rewrite ED. cbn [bind].
    exists (fdiv tau_hat (e_nPlus1 e)), (e_c2 e), (e_c1 e), (tau / (N + 1)), (2 / (N + 1)), (N * N / (N * N - 1)).
    assert (S1 : 2 / (N + 1) <= 1).
    { apply Rmult_le_reg_r with (N + 1); [lra|]. replace (2 / (N + 1) * (N + 1)) with 2 by (field; lra). lra. }
    split; [reflexivity|]. split; [left; repeat split; assumption|]. split; [eapply fra_weak; [exact Hh|exact FD|lra|lra]|].
    split; [eapply fra_weak; [exact Hh|exact Hc2|lra|unfold Rdiv; lra]|]. destruct Hc1 as [FC RC]. split; [exact FC|].
    split; [unfold ra in RC; eapply Rle_trans; [exact RC|]; nra|]. repeat split; try lra.
  - assert (BP : 0 < beta) by (fold beta in Hb; lra). destruct fn_exact as [Fn En].
    cbv zeta.
    (* gamma *)
    destruct (fmul_rnd (fmake (Z.of_nat n) 0) b Fn Fb) as [EM FM].
    { rewrite En. fold beta. rewrite Rabs_pos_eq by nra. apply Rle_trans with (pow2 20 * pow2 425).
      - apply Rmult_le_compat; lra.
      - rewrite <- bpow_plus. apply bpow_le. lia. }
    rewrite En in EM. fold beta in EM.
    assert (NB : 0 < N * beta) by nra.
    assert (G0 : pow2 (-425) <= tau + N * beta <= pow2 900).
    { split; [lra|]. apply Rle_trans with (pow2 425 * (1 + pow2 20)); [nra|]. apply Rle_trans with (pow2 425 * pow2 21).
      - apply Rmult_le_compat_l; [apply bpow_ge_0|]. change (pow2 21) with (2 * pow2 20). change (pow2 20) with 1048576. lra.
      - rewrite <- bpow_plus. apply bpow_le. lia. }
    set (gm := tau + N * beta) in *.
    assert (GM : ra h 5 (B2R tau_hat + B2R (fmul (fmake (Z.of_nat n) 0) b)) gm).
    { destruct FT as [FT RT]. unfold ra in *. rewrite EM. assert (X := rnd_rel (N * beta)). rewrite (Rabs_pos_eq (N * beta)) in X by lra.
      assert (E0 := eta_h h Hh tau ltac:(lra)).
      assert (uro * (N * beta) <= h / 8 * (N * beta)) by (apply Rmult_le_compat_r; lra).
      replace (B2R tau_hat + rnd (N * beta) - gm) with ((B2R tau_hat - tau) + (rnd (N * beta) - N * beta)) by (unfold gm; ring).
      eapply Rle_trans; [apply Rabs_triang|]. unfold gm. assert (0 < h * tau) by nra. assert (0 < h * (N * beta)) by nra. lra. }
    assert (GR := ra_range h Hh _ _ _ GM ltac:(lra) ltac:(assert (0 < pow2 (-425)) by apply bpow_gt_0; lra)).
    assert (GP : 0 < gm) by (assert (0 < pow2 (-425)) by apply bpow_gt_0; lra).
    destruct (fadd_rnd tau_hat (fmul (fmake (Z.of_nat n) 0) b) (proj1 FT) FM) as [EG FG].
    { rewrite Rabs_pos_eq by lra. apply Rle_trans with (pow2 1000); [lra|apply bpow_le; lia]. }
    set (gam := fadd tau_hat (fmul (fmake (Z.of_nat n) 0) b)) in *.
    assert (FGM : fra h 6 gam gm).
    { split; [exact FG|]. rewrite EG. replace 6 with (5 + 1) by ring. apply ra_rnd; [exact Hh|exact GM|lra|lra]. }
    assert (GR2 := ra_range h Hh _ _ _ (proj2 FGM) ltac:(lra) GP).
    replace (Bltb gam fzero) with false.
    2: { symmetry. rewrite f64_ltb by (auto; reflexivity). change (B2R fzero) with 0. apply Rlt_bool_false. lra. }
    (* mu, unused *)
    rewrite (fdivr_ok (fsub tau_hat b) gam FG) by lra. cbn [bind].
    (* rho *)
    destruct (fra_div h Hh 6 0 gam (e_nPlus1 e) gm (N + 1) FGM FP1) as [ED FD]; [lra|lra|lra|lra| |].
    { split.
      - eapply Rle_trans; [exact PA|]. eapply Rle_trans; [exact TN'|]. unfold Rdiv. apply Rmult_le_compat_r; [lra|]. unfold gm. lra.
      - apply Rle_trans with (gm * 1); [|lra]. unfold Rdiv. apply Rmult_le_compat_l; [lra|]. rewrite <- Rinv_1. apply Rinv_le; lra. }
    rewrite ED. cbn [bind]. set (rho := fdiv gam (e_nPlus1 e)) in *. set (r0 := gm / (N + 1)) in *.
    replace (6 + 0 + 2) with 8 in FD by ring.
    assert (R1 : tau / (N + 1) <= r0) by (unfold r0, Rdiv; apply Rmult_le_compat_r; [lra|unfold gm; lra]).
    assert (R2 : r0 <= tau).
    { unfold r0. apply Rmult_le_reg_r with (N + 1); [lra|]. replace (gm / (N + 1) * (N + 1)) with gm by (field; lra). unfold gm. nra. }
    assert (R0 : 0 < r0) by (assert (0 < pow2 (-446)) by apply bpow_gt_0; lra).
    (* sigma *)
    destruct ftwo as [E2 F2].
    assert (FTWO : fra h 0 (fmake 2 0) 2) by (split; [exact F2|rewrite E2; apply ra_refl; lra]).
    assert (FR2 : fra h 10 (fmul (fmake 2 0) rho) (2 * r0)).
    { replace 10 with (0 + 8 + 2) by ring. apply fra_mul; try lra; [exact FTWO|exact FD]. }
    assert (FTB : fra h 5 (fadd tau_hat b) (tau + beta)).
    { replace 5 with (4 + 1) by ring. apply fra_add; try lra; [exact FT|].
      apply fra_weak with (k := 0); [exact Hh|apply fra_exact; [exact Fb|exact BP]|lra|lra]. }
    set (s0 := 2 * r0 / (tau + beta)) in *.
    assert (S1 : 2 / (N + 1) <= s0).
    { unfold s0, r0. apply Rmult_le_reg_r with ((N + 1) * (tau + beta)); [nra|].
      replace (2 / (N + 1) * ((N + 1) * (tau + beta))) with (2 * (tau + beta)) by (field; lra).
      replace (2 * (gm / (N + 1)) / (tau + beta) * ((N + 1) * (tau + beta))) with (2 * gm) by (field; lra). unfold gm. nra. }
    assert (S2 : s0 <= 1).
    { unfold s0, r0. apply Rmult_le_reg_r with ((N + 1) * (tau + beta)); [nra|].
      replace (2 * (gm / (N + 1)) / (tau + beta) * ((N + 1) * (tau + beta))) with (2 * gm) by (field; lra). unfold gm. nra. }
    assert (S1' : pow2 (-21) <= 2 / (N + 1)) by (unfold Rdiv; lra).
    destruct (fra_div h Hh 10 5 _ _ (2 * r0) (tau + beta) FR2 FTB) as [ED2 FD2]; [lra|lra|lra|lra| |].
    { fold s0. split; [apply Rle_trans with (pow2 (-21)); [apply bpow_le; lia|lra]|]. apply Rle_trans with 1; [exact S2|change 1 with (pow2 0); apply bpow_le; lia]. }
    rewrite ED2. cbn [bind]. fold s0 in FD2.
    (* delta *)
    destruct HT as [FTT RT]. assert (RTT := ra_range h Hh _ _ _ RT ltac:(lra) T0).
    rewrite (fdivr_ok b T FTT) by lra. cbn [bind].
    assert (RBT : ra h 4 (beta / B2R T) (beta / t)).
    { replace 4 with (0 + 3 + 1) by ring. apply ra_div; try lra; [apply ra_refl; exact BP|exact RT]. }
    assert (BT0 : 0 < beta / t) by (apply Rdiv_lt_0_compat; lra).
    assert (BTR := ra_range h Hh _ _ _ RBT ltac:(lra) BT0).
    assert (BBT : beta * (beta / t) <= 1).
    { apply Rmult_le_reg_r with t; [lra|]. replace (beta * (beta / t) * t) with (beta * beta) by (field; lra). nra. }
    assert (BT2 : beta / t <= pow2 425).
    { apply Rmult_le_reg_r with t; [lra|]. replace (beta / t * t) with beta by (field; lra). rewrite <- TS.
      apply Rle_trans with (tau * 1); [lra|]. apply Rle_trans with (tau * (pow2 425 * pow2 (-425))); [rewrite <- bpow_plus; change (pow2 (425 + -425)) with 1; lra|].
      replace (pow2 425 * (tau * tau)) with (tau * (pow2 425 * tau)) by ring. apply Rmult_le_compat_l; [lra|]. apply Rmult_le_compat_l; [apply bpow_ge_0|lra]. }
    destruct (fdiv_rnd b T Fb) as [EBT FBT]; [lra| |].
    { fold beta. rewrite Rabs_pos_eq by lra. apply Rle_trans with (pow2 1000); [lra|apply bpow_le; lia]. }
    fold beta in EBT. set (bt := fdiv b T) in *.
    assert (ET : 0 < eta <= h / 1024 * (/ pow2 900)).
    { split; [apply bpow_gt_0|]. apply Rle_trans with (pow2 (-50) * / 1024 * / pow2 900); [|apply Rmult_le_compat_r; [left; apply Rinv_0_lt_compat, bpow_gt_0|lra]].
      change (/ 1024) with (pow2 (-10)). replace (/ pow2 900) with (pow2 (-900)) by (rewrite <- bpow_opp; reflexivity). rewrite <- !bpow_plus. apply bpow_le. lia. }
    assert (EBT2 : Rabs (B2R bt - beta / t) <= (4 + / 4) * h * (beta / t) + eta).
    { rewrite EBT. assert (X := rnd_rel (beta / B2R T)). rewrite (Rabs_pos_eq (beta / B2R T)) in X by lra. unfold ra in RBT.
      replace (rnd (beta / B2R T) - beta / t) with ((rnd (beta / B2R T) - beta / B2R T) + (beta / B2R T - beta / t)) by ring.
      eapply Rle_trans; [apply Rabs_triang|]. assert (uro * (beta / B2R T) <= h / 8 * (beta / t * (25 / 24))) by (apply Rmult_le_compat; try apply bpow_ge_0; lra).
      assert (0 < h * (beta / t)) by nra. lra. }
    assert (BE2 : beta * eta <= h / 1024).
    { apply Rle_trans with (pow2 900 * (h / 1024 * / pow2 900)); [apply Rmult_le_compat; lra|]. right. field. apply Rgt_not_eq, bpow_gt_0. }
    assert (X0 : 0 < beta * (beta / t)) by nra. set (x0 := beta * (beta / t)) in *.
    assert (EX1 : Rabs (beta * B2R bt - x0) <= (4 + 3 / 8) * h).
    { unfold x0. rewrite <- Rmult_minus_distr_l, Rabs_mult, (Rabs_pos_eq beta) by lra.
      apply Rle_trans with (beta * ((4 + / 4) * h * (beta / t) + eta)); [apply Rmult_le_compat_l; lra|].
      replace (beta * ((4 + / 4) * h * (beta / t) + eta)) with ((4 + / 4) * h * x0 + beta * eta) by (unfold x0; ring).
      assert ((4 + / 4) * h * x0 <= (4 + / 4) * h * 1) by (apply Rmult_le_compat_l; lra). lra. }
    assert (BX : Rabs (beta * B2R bt) <= 1 + / 16).
    { replace (beta * B2R bt) with ((beta * B2R bt - x0) + x0) by ring. eapply Rle_trans; [apply Rabs_triang|]. rewrite (Rabs_pos_eq x0) by lra. lra. }
    assert (ONE : forall x, Rabs x <= 4 -> Rabs x <= pow2 1023).
    { intros x Hx. eapply Rle_trans; [exact Hx|]. change 4 with (pow2 2). apply bpow_le. lia. }
    assert (ET1 : eta <= h / 1024).
    { apply Rle_trans with (h / 1024 * 1); [|lra]. eapply Rle_trans; [apply ET|]. apply Rmult_le_compat_l; [lra|]. rewrite <- Rinv_1. apply Rinv_le; [lra|].
      change 1 with (pow2 0). apply bpow_le. lia. }
    destruct (fmul_rnd b bt Fb FBT) as [EX FX]; [apply ONE; fold beta; lra|]. fold beta in EX. set (x := fmul b bt) in *.
    assert (EX2 : Rabs (B2R x - x0) <= 5 * h).
    { rewrite EX. assert (X := rnd_rel (beta * B2R bt)).
      assert (uro * Rabs (beta * B2R bt) <= h / 8 * (1 + / 16)) by (apply Rmult_le_compat; try apply bpow_ge_0; try apply Rabs_pos; lra).
      replace (rnd (beta * B2R bt) - x0) with ((rnd (beta * B2R bt) - beta * B2R bt) + (beta * B2R bt - x0)) by ring.
      eapply Rle_trans; [apply Rabs_triang|]. lra. }
    destruct fone as [E1 F1].
    assert (BX2 : Rabs (1 - B2R x) <= 1 + / 16).
    { replace (1 - B2R x) with ((1 - x0) + - (B2R x - x0)) by ring. eapply Rle_trans; [apply Rabs_triang|]. rewrite Rabs_Ropp, (Rabs_pos_eq (1 - x0)) by lra. lra. }
    destruct (fsub_rnd (fmake 1 0) x F1 FX) as [EY FY]; [rewrite E1; apply ONE; lra|]. rewrite E1 in EY. set (y := fsub (fmake 1 0) x) in *.
    assert (EY2 : Rabs (B2R y - (1 - x0)) <= 6 * h).
    { rewrite EY. assert (X := rnd_rel (1 - B2R x)).
      assert (uro * Rabs (1 - B2R x) <= h / 8 * (1 + / 16)) by (apply Rmult_le_compat; try apply bpow_ge_0; try apply Rabs_pos; lra).
      replace (rnd (1 - B2R x) - (1 - x0)) with ((rnd (1 - B2R x) - (1 - B2R x)) + - (B2R x - x0)) by ring.
      eapply Rle_trans; [apply Rabs_triang|]. rewrite Rabs_Ropp. lra. }
    destruct Hc1 as [FC RC]. set (C1 := N * N / (N * N - 1)) in *. set (c1 := e_c1 e) in *. set (d0 := C1 * (1 - x0)).
    assert (RC' : Rabs (B2R c1 - C1) <= 4 / 3 * h) by (unfold ra in RC; eapply Rle_trans; [exact RC|]; nra).
    assert (BC : Rabs (B2R c1) <= 4 / 3 + / 256).
    { replace (B2R c1) with ((B2R c1 - C1) + C1) by ring. eapply Rle_trans; [apply Rabs_triang|]. rewrite (Rabs_pos_eq C1) by lra. lra. }
    assert (ED3 : Rabs (B2R c1 * B2R y - d0) <= (9 + / 2) * h).
    { unfold d0. replace (B2R c1 * B2R y - C1 * (1 - x0)) with (B2R c1 * (B2R y - (1 - x0)) + (B2R c1 - C1) * (1 - x0)) by ring.
      eapply Rle_trans; [apply Rabs_triang|]. rewrite !Rabs_mult, (Rabs_pos_eq (1 - x0)) by lra.
      assert (Rabs (B2R c1) * Rabs (B2R y - (1 - x0)) <= (4 / 3 + / 256) * (6 * h)) by (apply Rmult_le_compat; try apply Rabs_pos; assumption).
      assert (Rabs (B2R c1 - C1) * (1 - x0) <= 4 / 3 * h * 1) by (apply Rmult_le_compat; try apply Rabs_pos; lra). lra. }
    assert (D0 : 0 <= d0 <= 4 / 3) by (unfold d0; split; [apply Rmult_le_pos; lra|]; apply Rle_trans with (4 / 3 * 1); [apply Rmult_le_compat; lra|lra]).
    assert (BD : Rabs (B2R c1 * B2R y) <= 3 / 2).
    { replace (B2R c1 * B2R y) with ((B2R c1 * B2R y - d0) + d0) by ring. eapply Rle_trans; [apply Rabs_triang|]. rewrite (Rabs_pos_eq d0) by lra. lra. }
    destruct (fmul_rnd c1 y FC FY) as [EDL FDL]; [apply ONE; lra|].
    exists rho, (fdiv (fmul (fmake 2 0) rho) (fadd tau_hat b)), (fmul c1 y), r0, s0, d0.
    split; [reflexivity|]. split.
    { right. fold tau. fold gm. repeat split; try assumption; reflexivity. }
    split; [eapply fra_weak; [exact Hh|exact FD|lra|lra]|]. split; [eapply fra_weak; [exact Hh|exact FD2|lra|lra]|]. split; [exact FDL|].
    split.
    { rewrite EDL. assert (X := rnd_rel (B2R c1 * B2R y)).
      assert (uro * Rabs (B2R c1 * B2R y) <= h / 8 * (3 / 2)) by (apply Rmult_le_compat; try apply bpow_ge_0; try apply Rabs_pos; lra).
      replace (rnd (B2R c1 * B2R y) - d0) with ((rnd (B2R c1 * B2R y) - B2R c1 * B2R y) + (B2R c1 * B2R y - d0)) by ring.
      eapply Rle_trans; [apply Rabs_triang|]. lra. }
    split; [exact D0|]. split; split; assumption.
Qed.
End Scal.
