(** Finite results of binary64 operations, and the error of dot products evaluated in any order. *)
From Coq Require Import ZArith Reals Lra Lia Bool Psatz List Permutation.
From Flocq Require Import Core.Core IEEE754.BinarySingleNaN.
From Verif Require Import Base M_Float P_Float P_Float2 S_Float P_LinAlg.
Local Open Scope R_scope.

Lemma overflow_not_finite m s (x : b64) : B2SF x = binary_overflow 53 1024 m s -> m = mode_NE -> is_finite x = false.
Proof. intros H ->. rewrite <- is_finite_SF_B2SF, H. reflexivity. Qed.

Lemma fadd_fin (x y : b64) : is_finite (fadd x y) = true ->
  is_finite x = true /\ is_finite y = true /\ B2R (fadd x y) = rnd (B2R x + B2R y).
Proof.
  intros H. assert (Hxy : is_finite x = true /\ is_finite y = true).
  { destruct x as [?|[]| |], y as [?|[]| |]; try discriminate H; auto. }
  destruct Hxy as [Hx Hy]. split; [exact Hx|split; [exact Hy|]].
  pose proof (Bplus_correct 53 1024 prec64 emax64 mode_NE x y Hx Hy) as C. cbn [round_mode] in C.
  destruct (Rlt_bool _ _) in C; [apply C|]. destruct C as [C _].
  apply overflow_not_finite in C; [|reflexivity]. unfold fadd in H. congruence.
Qed.
Lemma fsub_fin (x y : b64) : is_finite (fsub x y) = true ->
  is_finite x = true /\ is_finite y = true /\ B2R (fsub x y) = rnd (B2R x - B2R y).
Proof.
  intros H. assert (Hxy : is_finite x = true /\ is_finite y = true).
  { destruct x as [?|[]| |], y as [?|[]| |]; try discriminate H; auto. }
  destruct Hxy as [Hx Hy]. split; [exact Hx|split; [exact Hy|]].
  pose proof (Bminus_correct 53 1024 prec64 emax64 mode_NE x y Hx Hy) as C. cbn [round_mode] in C.
  destruct (Rlt_bool _ _) in C; [apply C|]. destruct C as [C _].
  apply overflow_not_finite in C; [|reflexivity]. unfold fsub in H. congruence.
Qed.
Lemma fmul_fin (x y : b64) : is_finite (fmul x y) = true ->
  is_finite x = true /\ is_finite y = true /\ B2R (fmul x y) = rnd (B2R x * B2R y).
Proof.
  intros H. assert (Hxy : is_finite x = true /\ is_finite y = true).
  { destruct x as [?|?| |], y as [?|?| |]; try discriminate H; auto. }
  destruct Hxy as [Hx Hy]. split; [exact Hx|split; [exact Hy|]].
  pose proof (Bmult_correct 53 1024 prec64 emax64 mode_NE x y) as C. cbn [round_mode] in C.
  destruct (Rlt_bool _ _) in C; [apply C|].
  apply overflow_not_finite in C; [|reflexivity]. unfold fmul in H. congruence.
Qed.
(** the divisor a finite number *)
Lemma fdiv_fin (x y : b64) : is_finite (fdiv x y) = true -> is_finite y = true -> B2R y <> 0 ->
  is_finite x = true /\ B2R (fdiv x y) = rnd (B2R x / B2R y).
Proof.
  intros H Hy Hn.
  pose proof (Bdiv_correct 53 1024 prec64 emax64 mode_NE x y Hn) as C. cbn [round_mode] in C.
  destruct (Rlt_bool _ _) in C.
  - destruct C as (C1 & C2 & _). unfold fdiv in H. split; [congruence|exact C1].
  - apply overflow_not_finite in C; [|reflexivity]. unfold fdiv in H. congruence.
Qed.
Notation ffma := (@Bfma 53 1024 prec64 emax64 mode_NE).
Lemma ffma_fin (x y z : b64) : is_finite (ffma x y z) = true ->
  is_finite x = true /\ is_finite y = true /\ is_finite z = true /\ B2R (ffma x y z) = rnd (B2R x * B2R y + B2R z).
Proof.
  intros H. assert (Hxy : is_finite x = true /\ is_finite y = true /\ is_finite z = true).
  { destruct x as [?|[]| |[]], y as [?|[]| |[]], z as [?|[]| |]; try discriminate H; auto. }
  destruct Hxy as (Hx & Hy & Hz). split; [exact Hx|split; [exact Hy|split; [exact Hz|]]].
  pose proof (Bfma_correct 53 1024 prec64 emax64 mode_NE x y z Hx Hy Hz) as C. cbv zeta in C. cbn [round_mode] in C.
  destruct (Rlt_bool _ _) in C; [apply C|].
  apply overflow_not_finite in C; [|reflexivity]. congruence.
Qed.

(** *** the error of a sum *)
Notation uro := (pow2 (-53)).
Notation eta := (pow2 (-1075)).
Fixpoint lsum (l : list nat) (f : nat -> R) : R := match l with [] => 0 | k :: l => f k + lsum l f end.
Lemma lsum_app l1 l2 f : lsum (l1 ++ l2) f = lsum l1 f + lsum l2 f.
Proof. induction l1 as [|k l1 IH]; cbn; [ring|rewrite IH; ring]. Qed.
Lemma lsum_perm l1 l2 f : Permutation l1 l2 -> lsum l1 f = lsum l2 f.
Proof. induction 1; cbn; lra. Qed.
Lemma lsum_seq n f : lsum (seq 0 n) f = rsum n f.
Proof. induction n as [|n IH]; [reflexivity|]. rewrite seq_S, lsum_app, IH. cbn. ring. Qed.
Lemma lsum_abs l f : Rabs (lsum l f) <= lsum l (fun k => Rabs (f k)).
Proof. induction l as [|k l IH]; cbn; [rewrite Rabs_R0; lra|]. eapply Rle_trans; [apply Rabs_triang|]. lra. Qed.
Lemma lsum_nonneg l f : (forall k, 0 <= f k) -> 0 <= lsum l f.
Proof. intros H. induction l as [|k l IH]; cbn; [lra|]. specialize (H k). lra. Qed.

Lemma uro_pos : 0 < uro. Proof. apply bpow_gt_0. Qed.
Lemma eta_pos : 0 < eta. Proof. apply bpow_gt_0. Qed.
Lemma growth_ge1 m : 1 <= (1 + uro) ^ m.
Proof. apply pow_R1_Rle. assert (X := uro_pos). lra. Qed.
Lemma growth_mono m m' : (m <= m')%nat -> (1 + uro) ^ m <= (1 + uro) ^ m'.
Proof. intros H. apply Rle_pow; [assert (X := uro_pos); lra|exact H]. Qed.

(** bounds with m terms: relative (1+u)^m - 1, absolute (2m-1) (1+u)^m eta *)
Definition sum_err (m : nat) (S0 S1 s : R) : Prop :=
  match m with
  | O => s = 0 /\ S0 = 0
  | _ => Rabs (s - S0) <= ((1 + uro) ^ m - 1) * S1 + (2 * INR m - 1) * (1 + uro) ^ m * eta
  end.
Lemma rnd_0 : rnd 0 = 0. Proof. apply round_0; typeclasses eauto. Qed.

Lemma sum_err_add m1 m2 S0 T0 S1 T1 x y :
  Rabs S0 <= S1 -> Rabs T0 <= T1 -> fmt x -> fmt y ->
  sum_err m1 S0 S1 x -> sum_err m2 T0 T1 y -> (m1 = 0%nat -> S1 = 0) -> (m2 = 0%nat -> T1 = 0) ->
  sum_err (m1 + m2) (S0 + T0) (S1 + T1) (rnd (x + y)).
Proof.
  intros HS HT Fx Fy H1 H2 Z1 Z2.
  destruct m1 as [|m1], m2 as [|m2]; cbn [sum_err] in *.
  - destruct H1 as [-> ->], H2 as [-> ->]. cbn. split; [rewrite Rplus_0_l; apply rnd_0|lra].
  - destruct H1 as [-> ->]. rewrite (Z1 eq_refl), !Rplus_0_l. rewrite round_generic; [|typeclasses eauto|exact Fy]. exact H2.
  - destruct H2 as [-> ->]. rewrite (Z2 eq_refl), !Rplus_0_r, Nat.add_0_r. rewrite round_generic; [|typeclasses eauto|exact Fx]. exact H1.
  - replace (S m1 + S m2)%nat with (S (m1 + S m2)) by lia. cbn [sum_err].
    set (a := S m1) in *. set (b := S m2) in *. replace (S (m1 + b)) with (a + b)%nat by (subst a b; lia).
    assert (P := uro_pos). assert (Pe := eta_pos).
    assert (Ha : 1 <= INR a) by (apply (le_INR 1); subst a; lia). assert (Hb : 1 <= INR b) by (apply (le_INR 1); subst b; lia).
    assert (Ga := growth_ge1 a). assert (Gb := growth_ge1 b).
    assert (E := rnd_rel (x + y)).
    assert (Ga1 : (1 + uro) * (1 + uro) ^ a <= (1 + uro) ^ (a + b)) by (change ((1 + uro) * (1 + uro) ^ a) with ((1 + uro) ^ (S a)); apply growth_mono; subst a b; lia).
    assert (Gb1 : (1 + uro) * (1 + uro) ^ b <= (1 + uro) ^ (a + b)) by (change ((1 + uro) * (1 + uro) ^ b) with ((1 + uro) ^ (S b)); apply growth_mono; subst a b; lia).
    rewrite plus_INR.
    set (pa := (1 + uro) ^ a) in *. set (pb := (1 + uro) ^ b) in *. set (pab := (1 + uro) ^ (a + b)) in *.
    assert (S1p : 0 <= S1) by (eapply Rle_trans; [apply Rabs_pos|exact HS]). assert (T1p : 0 <= T1) by (eapply Rle_trans; [apply Rabs_pos|exact HT]).
    assert (Hxy : Rabs (x + y - (S0 + T0)) <= (pa - 1) * S1 + (2 * INR a - 1) * pa * eta + ((pb - 1) * T1 + (2 * INR b - 1) * pb * eta)).
    { replace (x + y - (S0 + T0)) with ((x - S0) + (y - T0)) by ring. eapply Rle_trans; [apply Rabs_triang|]. lra. }
    assert (Hn : Rabs (x + y) <= Rabs (x + y - (S0 + T0)) + (S1 + T1)).
    { replace (x + y) with ((x + y - (S0 + T0)) + (S0 + T0)) at 1 by ring. eapply Rle_trans; [apply Rabs_triang|].
      assert (Rabs (S0 + T0) <= S1 + T1) by (eapply Rle_trans; [apply Rabs_triang|lra]). lra. }
    assert (Ht : Rabs (rnd (x + y) - (S0 + T0)) <= Rabs (rnd (x + y) - (x + y)) + Rabs (x + y - (S0 + T0))).
    { replace (rnd (x + y) - (S0 + T0)) with ((rnd (x + y) - (x + y)) + (x + y - (S0 + T0))) by ring. apply Rabs_triang. }
    set (e := Rabs (x + y - (S0 + T0))) in *.
    assert (Hu : uro * Rabs (x + y) <= uro * (e + (S1 + T1))) by (apply Rmult_le_compat_l; lra).
    apply Rle_trans with ((1 + uro) * e + uro * (S1 + T1) + eta); [lra|].
    assert (He : (1 + uro) * e <= (1 + uro) * ((pa - 1) * S1 + (2 * INR a - 1) * pa * eta + ((pb - 1) * T1 + (2 * INR b - 1) * pb * eta)))
      by (apply Rmult_le_compat_l; lra).
    assert (K1 : (1 + uro) * pa * S1 <= pab * S1) by (apply Rmult_le_compat_r; lra).
    assert (K2 : (1 + uro) * pb * T1 <= pab * T1) by (apply Rmult_le_compat_r; lra).
    assert (K3 : (1 + uro) * pa * ((2 * INR a - 1) * eta) <= pab * ((2 * INR a - 1) * eta)) by (apply Rmult_le_compat_r; [apply Rmult_le_pos; lra|lra]).
    assert (K4 : (1 + uro) * pb * ((2 * INR b - 1) * eta) <= pab * ((2 * INR b - 1) * eta)) by (apply Rmult_le_compat_r; [apply Rmult_le_pos; lra|lra]).
    assert (K5 : 1 * eta <= pab * eta) by (apply Rmult_le_compat_r; [lra|apply growth_ge1]).
    lra.
Qed.

Lemma sum_err_fma m p T0 T1 y :
  Rabs T0 <= T1 -> fmt y -> sum_err m T0 T1 y -> (m = 0%nat -> T1 = 0) ->
  sum_err (S m) (p + T0) (Rabs p + T1) (rnd (p + y)).
Proof.
  intros HT Fy H2 Z2. assert (P := uro_pos). assert (Pe := eta_pos). assert (E := rnd_rel (p + y)).
  assert (T1p : 0 <= T1) by (eapply Rle_trans; [apply Rabs_pos|exact HT]). assert (Pp := Rabs_pos p).
  destruct m as [|m]; cbn [sum_err] in *.
  - destruct H2 as [-> ->]. rewrite (Z2 eq_refl), !Rplus_0_r in *.
    replace (INR 1) with 1 by reflexivity. rewrite pow_1. assert (0 <= uro * eta) by (apply Rmult_le_pos; lra). lra.
  - set (b := S m) in *. change ((1 + uro) ^ S b) with ((1 + uro) * (1 + uro) ^ b). rewrite S_INR.
    assert (Hb : 1 <= INR b) by (apply (le_INR 1); subst b; lia). assert (Gb := growth_ge1 b).
    set (pb := (1 + uro) ^ b) in *. clearbody pb b.
    assert (Hn : Rabs (p + y) <= Rabs (y - T0) + (Rabs p + T1)).
    { replace (p + y) with ((y - T0) + (p + T0)) by ring. eapply Rle_trans; [apply Rabs_triang|].
      assert (Rabs (p + T0) <= Rabs p + T1) by (eapply Rle_trans; [apply Rabs_triang|lra]). lra. }
    assert (Ht : Rabs (rnd (p + y) - (p + T0)) <= Rabs (rnd (p + y) - (p + y)) + Rabs (y - T0)).
    { replace (rnd (p + y) - (p + T0)) with ((rnd (p + y) - (p + y)) + (y - T0)) by ring. apply Rabs_triang. }
    set (e := Rabs (y - T0)) in *.
    assert (Hu : uro * Rabs (p + y) <= uro * (e + (Rabs p + T1))) by (apply Rmult_le_compat_l; lra).
    apply Rle_trans with ((1 + uro) * e + uro * (Rabs p + T1) + eta); [lra|].
    assert (He : (1 + uro) * e <= (1 + uro) * ((pb - 1) * T1 + (2 * INR b - 1) * pb * eta)) by (apply Rmult_le_compat_l; lra).
    assert (K0 : (1 + uro) * Rabs p <= (1 + uro) * pb * Rabs p) by (apply Rmult_le_compat_r; [lra|]; rewrite <- (Rmult_1_r (1 + uro)) at 1; apply Rmult_le_compat_l; lra).
    assert (K5 : 1 * eta <= (1 + uro) * pb * eta) by (apply Rmult_le_compat_r; [lra|]; rewrite <- (Rmult_1_r 1); apply Rmult_le_compat; lra).
    lra.
Qed.

Lemma fsum_fin u v l s : fsum u v l s -> is_finite s = true ->
  (forall k, In k l -> is_finite (u k) = true /\ is_finite (v k) = true) /\
  sum_err (length l) (lsum l (fun k => B2R (u k) * B2R (v k))) (lsum l (fun k => Rabs (B2R (u k) * B2R (v k)))) (B2R s).
Proof.
  assert (LZ : forall l (f : nat -> R), length l = 0%nat -> lsum l f = 0) by (intros [|? ?] f H; [reflexivity|discriminate H]).
  induction 1 as [|k|k l s H IH|l1 l2 s1 s2 H1 IH1 H2 IH2]; intros F.
  - cbn. split; [tauto|auto].
  - apply fmul_fin in F as (Fu & Fv & E). split; [intros k' [->|[]]; auto|].
    rewrite E. cbn [length lsum]. rewrite <- (Rplus_0_r (B2R (u k) * B2R (v k))) at 3.
    apply (sum_err_fma 0); [rewrite Rabs_R0; lra|apply generic_format_0|cbn; auto|auto].
  - apply ffma_fin in F as (Fu & Fv & Fs & E). destruct (IH Fs) as [IHa IHb].
    split; [intros k' [<-|Hk]; auto|]. rewrite E. cbn [length lsum].
    apply sum_err_fma; [apply lsum_abs|apply fmt_b64|exact IHb|intros L; apply LZ, L].
  - apply fadd_fin in F as (F1 & F2 & E). destruct (IH1 F1) as [A1 B1]. destruct (IH2 F2) as [A2 B2].
    split; [intros k Hk; apply in_app_or in Hk as [Hk|Hk]; auto|].
    rewrite E, app_length, !lsum_app. apply sum_err_add; try apply lsum_abs; try apply fmt_b64; try assumption; intros L; apply LZ, L.
Qed.

(** (1+u)^n for up to 2^30 terms *)
Lemma growth_bound m : (Z.of_nat m <= 2 ^ 30)%Z -> (1 + uro) ^ m - 1 <= INR m * pow2 (-52) /\ (1 + uro) ^ m <= 2.
Proof.
  intros Hm. assert (P := uro_pos).
  assert (U52 : pow2 (-52) = 2 * uro) by (change (-52)%Z with (1 + -53)%Z; rewrite bpow_plus; reflexivity).
  assert (B : INR m * pow2 (-52) <= pow2 (-22)).
  { replace (pow2 (-22)) with (IZR (2 ^ 30) * pow2 (-52)) by (change (-22)%Z with (30 + -52)%Z; rewrite bpow_plus; reflexivity).
    apply Rmult_le_compat_r; [apply bpow_ge_0|]. rewrite INR_IZR_INZ. apply IZR_le, Hm. }
  assert (B22 : pow2 (-22) <= 1) by (change 1 with (pow2 0); apply bpow_le; lia).
  assert (Main : (1 + uro) ^ m <= 1 + INR m * pow2 (-52)); [|lra].
  clear Hm. revert B. induction m as [|m IH]; intros B; [cbn; lra|].
  rewrite S_INR in *. assert (M0 := pos_INR m).
  assert (Bm : INR m * pow2 (-52) <= pow2 (-22)) by (rewrite U52 in *; lra).
  specialize (IH Bm). change ((1 + uro) ^ S m) with ((1 + uro) * (1 + uro) ^ m).
  apply Rle_trans with ((1 + uro) * (1 + INR m * pow2 (-52))); [apply Rmult_le_compat_l; lra|].
  assert (uro * (INR m * pow2 (-52)) <= uro * 1) by (apply Rmult_le_compat_l; lra). rewrite U52 in *. lra.
Qed.

(** a finite dot product: all operands finite, and an error bound, whatever the order *)
Lemma fdot_fin dot n u v : fdot_any dot -> (Z.of_nat n <= 2 ^ 30)%Z -> is_finite (dot n u v) = true ->
  (forall k, (k < n)%nat -> is_finite (u k) = true /\ is_finite (v k) = true) /\
  Rabs (B2R (dot n u v) - rsum n (fun k => B2R (u k) * B2R (v k)))
    <= INR n * pow2 (-52) * rsum n (fun k => Rabs (B2R (u k) * B2R (v k))) + INR n * pow2 (-1073).
Proof.
  intros HD Hn F. destruct (HD n u v) as (l & Pl & Hs). destruct (fsum_fin _ _ _ _ Hs F) as [A B]. split.
  - intros k Hk. apply A. apply (Permutation_in k (Permutation_sym Pl)). apply in_seq. lia.
  - rewrite <- !lsum_seq, <- !(lsum_perm _ _ _ Pl). assert (L : length l = n) by (rewrite (Permutation_length Pl); apply seq_length).
    rewrite L in B. destruct n as [|n].
    + destruct B as [-> B]. rewrite B. cbn [INR]. rewrite Rminus_0_r, Rabs_R0. lra.
    + cbn [sum_err] in B. eapply Rle_trans; [exact B|]. destruct (growth_bound (S n) Hn) as [G1 G2].
      assert (P1 : 0 <= lsum l (fun k => Rabs (B2R (u k) * B2R (v k)))) by (apply lsum_nonneg; intros; apply Rabs_pos).
      apply Rplus_le_compat; [apply Rmult_le_compat_r; assumption|].
      assert (Pe := eta_pos). assert (1 <= INR (S n)) by (apply (le_INR 1); lia).
      replace (pow2 (-1073)) with (4 * eta) by (change (-1073)%Z with (2 + -1075)%Z; rewrite bpow_plus; reflexivity).
      apply Rle_trans with ((2 * INR (S n) * 2) * eta); [|lra].
      apply Rmult_le_compat_r; [lra|]. apply Rmult_le_compat; try lra. assert (G := growth_ge1 (S n)). lra.
Qed.

(** *** sums of non-negative terms *)
Definition nn (x : b64) : Prop := is_nan x = true \/ x = B754_infinity false \/ (is_finite x = true /\ 0 <= B2R x).
Definition same_sign (x y : b64) : Prop := is_nan x = true \/ is_nan y = true \/ Bsign x = Bsign y.
Lemma overflow_pos (x : b64) : B2SF x = binary_overflow 53 1024 mode_NE false -> x = B754_infinity false.
Proof. destruct x as [?|[]| |]; cbn; congruence. Qed.
Lemma sign_mul_nonneg (x y : b64) : Bsign x = Bsign y -> 0 <= B2R x * B2R y.
Proof.
  destruct x as [?|?| |sx mx ex ?], y as [?|?| |sy my ey ?]; cbn [B2R Bsign]; intros E; rewrite ?Rmult_0_l, ?Rmult_0_r; try lra.
  subst sy. destruct sx.
  - assert (F2R (Float radix2 (cond_Zopp true (Z.pos mx)) ex) <= 0) by (apply F2R_le_0; cbn; lia).
    assert (F2R (Float radix2 (cond_Zopp true (Z.pos my)) ey) <= 0) by (apply F2R_le_0; cbn; lia). nra.
  - assert (0 <= F2R (Float radix2 (cond_Zopp false (Z.pos mx)) ex)) by (apply F2R_ge_0; cbn; lia).
    assert (0 <= F2R (Float radix2 (cond_Zopp false (Z.pos my)) ey)) by (apply F2R_ge_0; cbn; lia). nra.
Qed.
Lemma rnd_nonneg r : 0 <= r -> 0 <= rnd r.
Proof. intros H. apply rnd_ge; [exact H|apply generic_format_0]. Qed.
Lemma nn_mul (x y : b64) : same_sign x y -> nn (fmul x y).
Proof.
  intros [H|[H|H]].
  - destruct x; try discriminate H. left. reflexivity.
  - destruct y; try discriminate H. left. destruct x; reflexivity.
  - destruct (is_finite x && is_finite y) eqn:F.
    + pose proof (Bmult_correct 53 1024 prec64 emax64 mode_NE x y) as C. cbn [round_mode] in C.
      destruct (Rlt_bool _ _) in C.
      * destruct C as (C1 & C2 & _). right; right. rewrite F in C2. split; [exact C2|]. unfold fmul. rewrite C1. apply rnd_nonneg, sign_mul_nonneg, H.
      * right; left. apply overflow_pos. unfold fmul. rewrite C, H, xorb_nilpotent. reflexivity.
    + destruct x as [?|sx| |sx ? ? ?], y as [?|sy| |sy ? ? ?]; try discriminate F; cbn [Bsign] in H; try subst sy;
        try (left; reflexivity); right; left; cbn; try rewrite xorb_nilpotent; try reflexivity; destruct sx; reflexivity.
Qed.
Lemma nn_fma (x y z : b64) : same_sign x y -> nn z -> nn (ffma x y z).
Proof.
  intros [H|[H|H]] Hz.
  - destruct x; try discriminate H. left. reflexivity.
  - destruct y; try discriminate H. left. destruct x; reflexivity.
  - destruct Hz as [Hz|[->|[Fz Hz]]].
    + destruct z; try discriminate Hz. left. destruct x as [?|?| |], y as [?|?| |]; reflexivity.
    + destruct x as [?|sx| |sx ? ? ?], y as [?|sy| |sy ? ? ?]; cbn [Bsign] in H; try subst sy;
        try (left; reflexivity); right; left; cbn; try rewrite xorb_nilpotent; try reflexivity; destruct sx; reflexivity.
    + destruct (is_finite x && is_finite y) eqn:F.
      * apply andb_true_iff in F as [Fx Fy].
        pose proof (Bfma_correct 53 1024 prec64 emax64 mode_NE x y z Fx Fy Fz) as C. cbv zeta in C. cbn [round_mode] in C.
        assert (0 <= B2R x * B2R y + B2R z) by (assert (X := sign_mul_nonneg x y H); lra).
        destruct (Rlt_bool _ _) in C.
        -- destruct C as (C1 & C2 & _). right; right. split; [exact C2|]. rewrite C1. apply rnd_nonneg. assumption.
        -- right; left. apply overflow_pos. rewrite C, Rlt_bool_false by assumption. reflexivity.
      * destruct x as [?|sx| |sx ? ? ?], y as [?|sy| |sy ? ? ?]; try discriminate F; cbn [Bsign] in H; try subst sy;
        try (left; reflexivity); destruct z as [?|?| |]; try discriminate Fz; try (left; reflexivity); right; left; cbn; try rewrite xorb_nilpotent; try reflexivity; destruct sx; reflexivity.
Qed.
Lemma nn_add (x y : b64) : nn x -> nn y -> nn (fadd x y).
Proof.
  intros Hx Hy. destruct Hx as [Hx|[->|[Fx Hx]]].
  - destruct x; try discriminate Hx. left. reflexivity.
  - destruct Hy as [Hy|[->|[Fy Hy]]]; [destruct y; try discriminate Hy; left; reflexivity|right; left; reflexivity|].
    destruct y; try discriminate Fy; right; left; reflexivity.
  - destruct Hy as [Hy|[->|[Fy Hy]]]; [destruct y; try discriminate Hy; left; destruct x; reflexivity|destruct x; try discriminate Fx; right; left; reflexivity|].
    pose proof (Bplus_correct 53 1024 prec64 emax64 mode_NE x y Fx Fy) as C. cbn [round_mode] in C.
    match type of C with (if ?b then _ else _) => destruct b eqn:B end.
    + destruct C as (C1 & C2 & _). right; right. split; [exact C2|]. unfold fadd. rewrite C1. apply rnd_nonneg. lra.
    + destruct C as [C Cs]. right; left. apply overflow_pos. unfold fadd. rewrite C. f_equal.
      destruct x as [sx|?| |sx mx ex Bx]; try discriminate Fx.
      * (* x zero: no overflow *)
        exfalso. cbn [B2R] in B. rewrite Rplus_0_l, round_generic in B; [|typeclasses eauto|apply fmt_b64].
        rewrite Rlt_bool_true in B; [discriminate B|]. apply abs_B2R_lt_emax.
      * cbn [Bsign]. destruct sx; [|reflexivity]. exfalso. cbn [B2R] in Hx.
        assert (F2R (Float radix2 (cond_Zopp true (Z.pos mx)) ex) < 0) by (apply F2R_lt_0; cbn; lia). lra.
Qed.
Lemma fsum_nn u v l s : fsum u v l s -> (forall k, In k l -> same_sign (u k) (v k)) -> nn s.
Proof.
  induction 1 as [|k|k l s H IH|l1 l2 s1 s2 H1 IH1 H2 IH2]; intros Hs.
  - right; right. split; [reflexivity|cbn; lra].
  - apply nn_mul, Hs. left; reflexivity.
  - apply nn_fma; [apply Hs; left; reflexivity|apply IH; intros; apply Hs; right; assumption].
  - apply nn_add; [apply IH1|apply IH2]; intros; apply Hs, in_or_app; auto.
Qed.
Lemma fdot_nn dot n u v : fdot_any dot -> (forall k, (k < n)%nat -> same_sign (u k) (v k)) -> nn (dot n u v).
Proof.
  intros HD H. destruct (HD n u v) as (l & Pl & Hs). apply (fsum_nn _ _ _ _ Hs). intros k Hk. apply H.
  apply (Permutation_in k Pl) in Hk. apply in_seq in Hk. lia.
Qed.

(** the sequential dot product of FNum is one of them *)
Lemma fnum_dot_any : fdot_any (@ndot b64 FNum).
Proof.
  intros n u v. exists (seq 0 n). split; [apply Permutation_refl|]. cbn [ndot FNum].
  induction n as [|n IH]; [apply fs_zero|]. rewrite seq_S. apply fs_add; [exact IH|apply fs_mul].
Qed.
