(** Error analysis of the parallel cut of ell in binary64: absolute errors and the scalar computations. *)
From Coq Require Import ZArith Reals Lra Lia Bool List Permutation Psatz.
From Flocq Require Import Core.Core IEEE754.BinarySingleNaN.
From Verif Require Import Base M_Drivers M_Ell S_Ell S_LinAlg P_LinAlg M_Float P_Float P_Float2 S_Float P_FSum P_EllCalc P_Ell P_EllF P_EllF2.
Import ListNotations.
Local Open Scope R_scope.

(** *** real facts about square roots *)
Lemma sqrt_pert a b u s : 0 <= a -> 0 <= b -> Rabs (b - a) <= u * a + s * s -> 0 <= u <= 1 -> 0 <= s -> Rabs (sqrt b - sqrt a) <= u * sqrt a + s.
Proof.
  intros A B D U S. apply Rabs_le_inv in D. set (x := sqrt a). set (y := sqrt b).
  assert (X0 : 0 <= x) by apply sqrt_pos. assert (Y0 : 0 <= y) by apply sqrt_pos.
  assert (XX : x * x = a) by (apply sqrt_sqrt; exact A). assert (YY : y * y = b) by (apply sqrt_sqrt; exact B).
  clearbody x y. subst a b. apply Rabs_le. split.
  - destruct (Rle_lt_dec (x - u * x - s) 0) as [N|N]; [lra|].
    assert (x - u * x - s <= y); [|lra]. apply Rsqr_incr_0_var; [|exact Y0]. unfold Rsqr.
    apply Rle_trans with (x * x - u * (x * x) - s * s); [|lra]. assert (0 <= u * x) by nra. assert (u * x <= x) by nra. nra.
  - assert (y <= x + u * x + s); [|lra]. assert (0 <= u * x) by nra. apply Rsqr_incr_0_var; [|lra]. unfold Rsqr.
    apply Rle_trans with (x * x + u * (x * x) + s * s); [lra|]. nra.
Qed.
Lemma sqrt_norm P x y : 0 <= P -> 0 <= x -> 0 <= y -> Rabs (sqrt (P + x * x) - sqrt (P + y * y)) <= Rabs (x - y).
Proof.
  assert (K : forall x y, 0 <= P -> 0 <= x -> 0 <= y -> sqrt (P + x * x) <= sqrt (P + y * y) + Rabs (x - y)).
  { clear x y. intros x y HP X Y. set (q := sqrt (P + y * y)). assert (Q0 : 0 <= q) by apply sqrt_pos.
    assert (QQ : q * q = P + y * y) by (apply sqrt_sqrt; nra). assert (QY : y <= q) by (apply Rsqr_incr_0_var; [unfold Rsqr; rewrite QQ; lra|exact Q0]).
    assert (A0 := Rabs_pos (x - y)). assert (A1 := Rle_abs (x - y)). assert (A2 : Rabs (x - y) * Rabs (x - y) = (x - y) * (x - y)) by (rewrite <- Rabs_mult; apply Rabs_pos_eq, Rle_0_sqr).
    assert (X2 := Rle_0_sqr x). unfold Rsqr in X2. assert (Y2' := Rle_0_sqr y). unfold Rsqr in Y2'.
    apply Rsqr_incr_0_var; [|lra]. unfold Rsqr. rewrite sqrt_sqrt by lra.
    assert (Y1 : y * (x - y) <= y * Rabs (x - y)) by (apply Rmult_le_compat_l; lra). assert (Y2 : y * Rabs (x - y) <= q * Rabs (x - y)) by (apply Rmult_le_compat_r; lra). lra. }
  intros HP X Y. assert (K1 := K x y HP X Y). assert (K2 := K y x HP Y X). rewrite Rabs_minus_sym in K2. apply Rabs_le. lra.
Qed.
Lemma sqrt_lip P P' c m : 0 <= P + c -> 0 <= P' + c -> 0 < m <= sqrt (P + c) -> Rabs (sqrt (P' + c) - sqrt (P + c)) <= Rabs (P' - P) / m.
Proof.
  intros A B [M1 M2]. set (x := sqrt (P + c)) in *. set (y := sqrt (P' + c)). assert (Y0 : 0 <= y) by apply sqrt_pos.
  assert (XX : x * x = P + c) by (apply sqrt_sqrt; exact A). assert (YY : y * y = P' + c) by (apply sqrt_sqrt; exact B).
  apply Rmult_le_reg_r with m; [exact M1|]. unfold Rdiv. rewrite Rmult_assoc, Rinv_l, Rmult_1_r by lra.
  replace (P' - P) with ((y - x) * (y + x)) by (transitivity (y * y - x * x); [ring|lra]). rewrite Rabs_mult.
  apply Rmult_le_compat_l; [apply Rabs_pos|]. rewrite Rabs_pos_eq by lra. lra.
Qed.

(** *** Absolute errors *)
Section Abs.
Variable h : R.
Hypothesis Hh : pow2 (-50) <= h <= / 1024.
Definition ab (e : R) (x : b64) (v : R) : Prop := is_finite x = true /\ Rabs (B2R x - v) <= e.
Lemma eta1 : eta <= h / 1024.
Proof. apply Rle_trans with (pow2 (-50) * pow2 (-10)); [rewrite <- bpow_plus; apply bpow_le; lia|]. change (pow2 (-10)) with (/ 1024). lra. Qed.
Lemma ab_nn e x v : ab e x v -> 0 <= e. Proof. intros [_ H]. eapply Rle_trans; [apply Rabs_pos|exact H]. Qed.
Lemma ab_weak e f x v : ab e x v -> e <= f -> ab f x v. Proof. intros [F H] L. split; [exact F|lra]. Qed.
Lemma ab_bound e x v : ab e x v -> Rabs (B2R x) <= Rabs v + e.
Proof. intros [_ H]. replace (B2R x) with ((B2R x - v) + v) by ring. eapply Rle_trans; [apply Rabs_triang|]. lra. Qed.
Lemma ab_rnd e x v V : Rabs (x - v) <= e -> Rabs v + e <= V -> 1 <= V -> Rabs (rnd x - v) <= e + h / 4 * V.
Proof.
  intros E B V1. assert (HP := h_pos h Hh). assert (U := uro_h h Hh). assert (T := eta1). assert (X := rnd_rel x).
  assert (BX : Rabs x <= V) by (replace x with ((x - v) + v) by ring; eapply Rle_trans; [apply Rabs_triang|]; lra).
  assert (Y : uro * Rabs x <= h / 8 * V) by (apply Rmult_le_compat; try apply bpow_ge_0; try apply Rabs_pos; assumption).
  assert (h <= h * V) by nra.
  replace (rnd x - v) with ((rnd x - x) + (x - v)) by ring. eapply Rle_trans; [apply Rabs_triang|]. lra.
Qed.
Lemma big x V : Rabs x <= V -> V <= pow2 1000 -> Rabs x <= pow2 1023.
Proof. intros A B. eapply Rle_trans; [exact A|]. eapply Rle_trans; [exact B|apply bpow_le; lia]. Qed.
Lemma ab_add e f V x y a b : ab e x a -> ab f y b -> Rabs (a + b) + (e + f) <= V -> 1 <= V <= pow2 1000 -> ab (e + f + h / 4 * V) (fadd x y) (a + b).
Proof.
  intros [F1 E1] [F2 E2] B V1.
  assert (D : Rabs (B2R x + B2R y - (a + b)) <= e + f) by (replace (B2R x + B2R y - (a + b)) with ((B2R x - a) + (B2R y - b)) by ring; eapply Rle_trans; [apply Rabs_triang|lra]).
  destruct (fadd_rnd x y F1 F2) as [E F].
  { apply big with V; [|lra]. replace (B2R x + B2R y) with ((B2R x + B2R y - (a + b)) + (a + b)) by ring. eapply Rle_trans; [apply Rabs_triang|]. lra. }
  split; [exact F|]. rewrite E. apply ab_rnd; lra.
Qed.
Lemma ab_sub e f V x y a b : ab e x a -> ab f y b -> Rabs (a - b) + (e + f) <= V -> 1 <= V <= pow2 1000 -> ab (e + f + h / 4 * V) (fsub x y) (a - b).
Proof.
  intros [F1 E1] [F2 E2] B V1.
  assert (D : Rabs (B2R x - B2R y - (a - b)) <= e + f) by (replace (B2R x - B2R y - (a - b)) with ((B2R x - a) + - (B2R y - b)) by ring; eapply Rle_trans; [apply Rabs_triang|rewrite Rabs_Ropp; lra]).
  destruct (fsub_rnd x y F1 F2) as [E F].
  { apply big with V; [|lra]. replace (B2R x - B2R y) with ((B2R x - B2R y - (a - b)) + (a - b)) by ring. eapply Rle_trans; [apply Rabs_triang|]. lra. }
  split; [exact F|]. rewrite E. apply ab_rnd; lra.
Qed.
Lemma ab_mul e f E0 V x y a b : ab e x a -> ab f y b -> Rabs a * f + e * Rabs b + e * f <= E0 -> Rabs (a * b) + E0 <= V -> 1 <= V <= pow2 1000 -> ab (E0 + h / 4 * V) (fmul x y) (a * b).
Proof.
  intros A1 A2 HE B V1. assert (P1 := ab_nn _ _ _ A1). assert (P2 := ab_nn _ _ _ A2). destruct A1 as [F1 E1], A2 as [F2 E2].
  assert (D : Rabs (B2R x * B2R y - a * b) <= E0).
  { replace (B2R x * B2R y - a * b) with ((B2R x - a) * (B2R y - b) + ((B2R x - a) * b + a * (B2R y - b))) by ring.
    eapply Rle_trans; [apply Rabs_triang|]. eapply Rle_trans; [apply Rplus_le_compat_l, Rabs_triang|]. rewrite !Rabs_mult.
    assert (Rabs (B2R x - a) * Rabs (B2R y - b) <= e * f) by (apply Rmult_le_compat; try apply Rabs_pos; assumption).
    assert (Rabs (B2R x - a) * Rabs b <= e * Rabs b) by (apply Rmult_le_compat_r; [apply Rabs_pos|assumption]).
    assert (Rabs a * Rabs (B2R y - b) <= Rabs a * f) by (apply Rmult_le_compat_l; [apply Rabs_pos|assumption]). lra. }
  destruct (fmul_rnd x y F1 F2) as [E F].
  { apply big with V; [|lra]. replace (B2R x * B2R y) with ((B2R x * B2R y - a * b) + a * b) by ring. eapply Rle_trans; [apply Rabs_triang|]. lra. }
  split; [exact F|]. rewrite E. apply ab_rnd; lra.
Qed.
Lemma fra_ab k x v : fra h k x v -> ab (k * h * v) x v. Proof. intros [F R]. split; [exact F|exact R]. Qed.
Lemma ab_exact x : is_finite x = true -> ab 0 x (B2R x). Proof. intros F. split; [exact F|]. rewrite Rminus_eq_0, Rabs_R0. lra. Qed.
(** the quotient of a number with an absolute error by one with a relative error, when it is at most 1 *)
Lemma ab_quot e k V x y a D : ab e x a -> fra h k y D -> 0 < D -> 0 <= k <= 42 -> Rabs (a / D) <= V -> e / D <= V -> 1 <= V <= pow2 500 ->
  fdivr x y = Ok (fdiv x y) /\ ab (9 / 8 * (e / D + k * h * V) + h * V) (fdiv x y) (a / D).
Proof.
  intros A1 [F2 R2] HD HK HQ HE V1. assert (P1 := ab_nn _ _ _ A1). destruct A1 as [F1 E1]. assert (HP := h_pos h Hh).
  assert (RR := ra_range h Hh k _ _ R2 HK HD). set (d := B2R y) in *. assert (d0 : 0 < d) by lra. assert (ID : 0 < / D) by (apply Rinv_0_lt_compat; exact HD).
  split; [apply fdivr_ok; [exact F2|fold d; lra]|].
  assert (Id : / d <= 24 / 23 * / D).
  { apply Rmult_le_reg_r with d; [exact d0|]. rewrite Rinv_l by lra. apply Rmult_le_reg_r with D; [exact HD|].
    replace (24 / 23 * / D * d * D) with (24 / 23 * d) by (field; lra). lra. }
  assert (Id0 : 0 < / d) by (apply Rinv_0_lt_compat; exact d0).
  assert (KV : 0 <= k * h * V) by (apply Rmult_le_pos; [apply Rmult_le_pos|]; lra).
  assert (DE : Rabs (B2R x / d - a / D) <= 24 / 23 * (e / D + k * h * V)).
  { replace (B2R x / d - a / D) with (((B2R x - a) - a / D * (d - D)) * / d) by (field; lra).
    rewrite Rabs_mult, (Rabs_pos_eq (/ d)) by lra.
    assert (N1 : Rabs (B2R x - a - a / D * (d - D)) <= e + k * h * V * D).
    { unfold Rminus at 1. eapply Rle_trans; [apply Rabs_triang|]. rewrite Rabs_Ropp, Rabs_mult. unfold ra in R2. fold d in R2.
      assert (Rabs (a / D) * Rabs (d - D) <= V * (k * h * D)) by (apply Rmult_le_compat; try apply Rabs_pos; assumption). lra. }
    apply Rle_trans with ((e + k * h * V * D) * (24 / 23 * / D)); [apply Rmult_le_compat; [apply Rabs_pos|lra|exact N1|exact Id]|].
    right. field. lra. }
  assert (ED : 0 <= e / D) by (apply Rmult_le_pos; lra).
  assert (KV1 : k * h * V <= 42 / 1024 * V) by (apply Rmult_le_compat_r; [lra|]; apply Rle_trans with (42 * / 1024); [apply Rmult_le_compat; lra|lra]).
  destruct (fdiv_rnd x y F1) as [E F]; [fold d; lra| |].
  { fold d. apply big with (4 * V).
    - replace (B2R x / d) with ((B2R x / d - a / D) + a / D) by ring. eapply Rle_trans; [apply Rabs_triang|]. lra.
    - apply Rle_trans with (pow2 2 * pow2 500); [change (pow2 2) with 4; lra|rewrite <- bpow_plus; apply bpow_le; lia]. }
  split; [exact F|]. rewrite E. fold d. eapply Rle_trans; [apply ab_rnd with (V := 4 * V); [exact DE|lra|lra]|]. lra.
Qed.
(** square root of a finite nonnegative number *)
Lemma fsqrt_fin x : is_finite x = true -> 0 <= B2R x -> fsqrtr x = Ok (fsqrt x) /\ is_finite (fsqrt x) = true /\ B2R (fsqrt x) = rnd (sqrt (B2R x)).
Proof.
  intros F X. split.
  - unfold fsqrtr. rewrite f64_ltb by (auto; reflexivity). change (B2R fzero) with 0. rewrite Rlt_bool_false by lra. reflexivity.
  - pose proof (Bsqrt_correct 53 1024 prec64 emax64 mode_NE x) as (C1 & C2 & _). cbn [round_mode] in C1. split; [|exact C1].
    unfold fsqrt. rewrite C2. destruct x as [s|s| |s m e Hm]; try discriminate F; [reflexivity|]. destruct s; [|reflexivity].
    exfalso. cbn in X. assert (F2R (Float radix2 (Zneg m) e) < 0) by (apply F2R_lt_0; reflexivity).
    change (F2R {| Fnum := Z.neg m; Fexp := e |}) with (F2R (Float radix2 (Zneg m) e)) in X. lra.
Qed.

(** xi: the square root of a product with a small error plus the square of a number with a small error *)
Lemma xi64 N t0 P tm Ph th : 2 <= N <= pow2 20 -> 0 < t0 <= 1 -> ab (15 * h) Ph P -> 0 <= B2R Ph -> 0 <= P <= 1 ->
  ab (12 * h * N) th tm -> 0 <= tm <= N / 2 -> t0 * (5 / 6) <= sqrt (P + tm * tm) ->
  exists xi, fsqrtr (fadd Ph (fmul th th)) = Ok xi /\ ab (23 * (h * N / t0)) xi (sqrt (P + tm * tm)).
Proof.
  intros HN HT [FP EP] P0 PR [Ft Et] TR HX. assert (HP := h_pos h Hh). assert (U := uro_h h Hh). assert (ET := eta1). assert (U0 : 0 < uro) by apply bpow_gt_0.
  assert (hN : 0 < h * N <= / 1024 * N) by (split; [nra|apply Rmult_le_compat_r; lra]).
  set (T := B2R th) in *. set (P' := B2R Ph) in *.
  assert (BT : Rabs T <= (1 / 2 + 12 / 1024) * N).
  { replace T with ((T - tm) + tm) by ring. eapply Rle_trans; [apply Rabs_triang|]. rewrite (Rabs_pos_eq tm) by lra. lra. }
  assert (AT := Rabs_pos T). assert (TT : T * T = Rabs T * Rabs T) by (rewrite <- Rabs_mult; symmetry; apply Rabs_pos_eq; nra).
  assert (TT0 : 0 <= T * T) by nra. assert (TTB : T * T <= 27 / 100 * (N * N)) by (rewrite TT; nra).
  assert (BP : P' <= 1 + 15 / 1024) by (apply Rabs_le_inv in EP; lra).
  assert (P40 : N * N <= pow2 40) by (replace (pow2 40) with (pow2 20 * pow2 20) by (rewrite <- bpow_plus; reflexivity); nra).
  assert (B40 : pow2 40 + 100 <= pow2 1000) by (apply Rle_trans with (pow2 41); [change (pow2 41) with (2 * pow2 40); change (pow2 40) with 1099511627776; lra|apply bpow_le; lia]).
  destruct (fmul_rnd th th Ft Ft) as [EQ FQ]; [fold T; apply big with (pow2 40 + 100); [rewrite Rabs_pos_eq by lra; nra|exact B40]|]. fold T in EQ.
  set (se := pow2 (-537)). assert (SE : eta <= se * se) by (unfold se; rewrite <- bpow_plus; apply bpow_le; lia).
  assert (SE1 : 0 < se <= h / 1024).
  { split; [apply bpow_gt_0|]. apply Rle_trans with (pow2 (-50) * pow2 (-10)); [rewrite <- bpow_plus; apply bpow_le; lia|]. change (pow2 (-10)) with (/ 1024). lra. }
  set (Tq := B2R (fmul th th)) in *.
  assert (TQ0 : 0 <= Tq) by (rewrite EQ; apply rnd_ge; [lra|apply generic_format_0]).
  assert (DQ : Rabs (Tq - T * T) <= uro * (T * T) + eta) by (rewrite EQ; assert (X := rnd_rel (T * T)); rewrite (Rabs_pos_eq (T * T)) in X by lra; exact X).
  assert (TQB : Tq <= 28 / 100 * (N * N)).
  { apply Rabs_le_inv in DQ. assert (uro * (T * T) <= / 1024 * (T * T)) by (apply Rmult_le_compat_r; lra). assert (4 <= N * N) by nra. lra. }
  (* the sum *)
  destruct (fadd_rnd Ph (fmul th th) FP FQ) as [ES FS]; [fold P' Tq; apply big with (pow2 40 + 100); [rewrite Rabs_pos_eq by lra; nra|exact B40]|].
  fold P' Tq in ES. set (S := P' + Tq) in *. assert (S0 : 0 <= S) by (unfold S; lra).
  set (A := B2R (fadd Ph (fmul th th))) in *. assert (A0 : 0 <= A) by (rewrite ES; apply rnd_ge; [exact S0|apply generic_format_0]).
  assert (DA : Rabs (A - S) <= uro * S + eta) by (rewrite ES; assert (X := rnd_rel S); rewrite (Rabs_pos_eq S) in X by lra; exact X).
  assert (SN : sqrt S <= N).
  { apply Rsqr_incr_0_var; [|lra]. unfold Rsqr. rewrite sqrt_sqrt by exact S0. unfold S. nra. }
  assert (SS0 := sqrt_pos S).
  assert (D1 : Rabs (sqrt A - sqrt S) <= uro * sqrt S + se) by (apply sqrt_pert; lra).
  assert (US : uro * sqrt S <= h / 8 * N) by (apply Rmult_le_compat; lra).
  assert (AN : sqrt A <= 2 * N) by (apply Rabs_le_inv in D1; lra). assert (SA0 := sqrt_pos A).
  destruct (fsqrt_fin (fadd Ph (fmul th th)) FS A0) as (EO & FO & ER). fold A in ER.
  exists (fsqrt (fadd Ph (fmul th th))). split; [exact EO|]. split; [exact FO|]. rewrite ER.
  assert (D2 : Rabs (rnd (sqrt A) - sqrt A) <= h / 8 * (2 * N) + h / 1024).
  { assert (X := rnd_rel (sqrt A)). rewrite (Rabs_pos_eq (sqrt A)) in X by lra. assert (uro * sqrt A <= h / 8 * (2 * N)) by (apply Rmult_le_compat; lra). lra. }
  (* sqrt S against sqrt (P' + tm^2) *)
  assert (D3 : Rabs (sqrt S - sqrt (P' + tm * tm)) <= 12 * h * N + h / 8 * N + se).
  { unfold S. rewrite <- (sqrt_sqrt Tq TQ0). eapply Rle_trans; [apply sqrt_norm; [exact P0|apply sqrt_pos|lra]|].
    assert (Y : Rabs (sqrt Tq - sqrt (T * T)) <= uro * sqrt (T * T) + se) by (apply sqrt_pert; lra).
    assert (ST : sqrt (T * T) = Rabs T) by (rewrite TT; apply sqrt_square; lra). rewrite ST in Y.
    assert (uro * Rabs T <= h / 8 * N) by (apply Rmult_le_compat; lra).
    assert (Z : Rabs (Rabs T - tm) <= 12 * h * N).
    { rewrite <- (Rabs_pos_eq tm) by lra. eapply Rle_trans; [apply Rabs_triang_inv2|exact Et]. }
    replace (sqrt Tq - tm) with ((sqrt Tq - Rabs T) + (Rabs T - tm)) by ring. eapply Rle_trans; [apply Rabs_triang|]. lra. }
  assert (D4 : Rabs (sqrt (P' + tm * tm) - sqrt (P + tm * tm)) <= 15 * h / (t0 * (5 / 6))).
  { eapply Rle_trans; [apply sqrt_lip with (m := t0 * (5 / 6)); [nra|nra|lra]|]. unfold Rdiv. apply Rmult_le_compat_r; [left; apply Rinv_0_lt_compat; lra|exact EP]. }
  assert (IT : 1 <= / t0) by (rewrite <- Rinv_1; apply Rinv_le; lra).
  replace (15 * h / (t0 * (5 / 6))) with (18 * (h * / t0)) in D4 by (field; lra).
  assert (J1 : h * N <= h * N / t0) by (unfold Rdiv; nra). assert (J2 : 2 * (h * / t0) <= h * N / t0) by (unfold Rdiv; assert (0 < h * / t0) by (apply Rmult_lt_0_compat; lra); nra).
  assert (J3 : h <= h * N / 2) by nra.
  replace (rnd (sqrt A) - sqrt (P + tm * tm)) with ((rnd (sqrt A) - sqrt A) + ((sqrt A - sqrt S) + ((sqrt S - sqrt (P' + tm * tm)) + (sqrt (P' + tm * tm) - sqrt (P + tm * tm))))) by ring.
  eapply Rle_trans; [apply Rabs_triang|]. eapply Rle_trans; [apply Rplus_le_compat_l, Rabs_triang|]. eapply Rle_trans; [apply Rplus_le_compat_l, Rplus_le_compat_l, Rabs_triang|].
  lra.
Qed.
End Abs.

(** *** the scalar computations of the parallel cut *)
Section Par.
Variable h : R.
Hypothesis Hh : pow2 (-50) <= h <= / 1024.
Variables (dot : nat -> (nat -> b64) -> (nat -> b64) -> b64) (e : ell b64).
Let n := e_n e.
Let N := IZR (Z.of_nat n).
Hypothesis Hn : (2 <= n)%nat /\ (Z.of_nat n <= 2 ^ 20)%Z.
Hypothesis Hp1 : is_finite (e_nPlus1 e) = true /\ B2R (e_nPlus1 e) = N + 1.
Hypothesis Hhf : is_finite (e_halfN e) = true /\ B2R (e_halfN e) = N / 2.
Hypothesis Hc1 : fra h 1 (e_c1 e) (N * N / (N * N - 1)).
Hypothesis Hc2 : fra h 1 (e_c2 e) (2 / (N + 1)).
Hypothesis Hc3 : fra h 1 (e_c3 e) (N / (N + 1)).
Variables (T b0 b1 : b64) (t : R).
Hypothesis HT : fra h 3 T t.
Hypothesis Ht : pow2 (-850) <= t <= pow2 850.
Hypothesis Fb0 : is_finite b0 = true.
Hypothesis Fb1 : is_finite b1 = true.
Let tau := sqrt t.
Let x0 := B2R b0.
Let x1 := B2R b1.
Hypothesis Hb0 : 0 <= x0 <= tau.
Hypothesis Hb1 : x0 <= x1 <= pow2 50 * tau.
Variable eps : R.
Hypothesis Heps : 0 < eps <= pow2 (-18).
Hypothesis Hcond : h * (t * t) <= eps * ((x0 + x1) * (x0 + x1) * (t - x0 * x0)).

(** the far side of the slab inside the set *)
Definition far : R := Rmin x1 tau.
Let y1 := far.

Lemma TP : 0 < t /\ 0 < tau /\ tau * tau = t /\ pow2 (-425) <= tau <= pow2 425 /\ 2 <= N <= pow2 20.
Proof.
  assert (X := t_pos t Ht). assert (Y := tau_range t Ht). fold tau in Y. assert (0 < pow2 (-425)) by apply bpow_gt_0.
  split; [exact X|]. split; [lra|]. split; [apply tau_sq; exact Ht|]. split; [exact Y|]. exact (N_range e Hn).
Qed.
Lemma x0_lt : 0 < t - x0 * x0.
Proof.
  destruct TP as (TP & TU & TS & _). assert (HP := h_pos h Hh). assert (x0 * x0 <= t) by nra. destruct (Rle_lt_or_eq_dec 0 (t - x0 * x0)) as [|E]; [lra|assumption|].
  rewrite <- E in Hcond. assert (0 < h * (t * t)) by (apply Rmult_lt_0_compat; nra). lra.
Qed.
(** once the code has seen b1^2 <= T, the far side is b1 up to a relative error *)
Hypothesis Hbr : @nltb b64 (FNumD dot) (fsub (fmake 1 0) (fmul b1 (fdiv b1 T))) fzero = false.
Lemma x1_pos : pow2 (-17) * tau <= x1.
Proof.
  destruct TP as (TP & TU & TS & TR & NR). assert (HP := h_pos h Hh). assert (XL := x0_lt).
  assert (A : h * (t * t) <= pow2 (-18) * (4 * (x1 * x1) * t)).
  { eapply Rle_trans; [exact Hcond|]. apply Rmult_le_compat; [lra| |lra|].
    - apply Rmult_le_pos; [nra|lra].
    - apply Rmult_le_compat; nra. }
  assert (B : h * t <= pow2 (-16) * (x1 * x1)).
  { apply Rmult_le_reg_r with t; [exact TP|]. replace (pow2 (-16)) with (pow2 (-18) * 4) by (change 4 with (pow2 2); rewrite <- bpow_plus; reflexivity). lra. }
  assert (C : pow2 (-50) * t <= pow2 (-16) * (x1 * x1)) by (apply Rle_trans with (h * t); [apply Rmult_le_compat_r; lra|exact B]).
  apply Rsqr_incr_0_var; [|lra]. unfold Rsqr. apply Rmult_le_reg_l with (pow2 (-16)); [apply bpow_gt_0|]. eapply Rle_trans; [|exact C].
  rewrite <- TS. replace (pow2 (-50)) with (pow2 (-16) * (pow2 (-17) * pow2 (-17))) by (rewrite <- !bpow_plus; reflexivity). lra.
Qed.
Lemma x1_p : 0 < x1. Proof. destruct TP as (TP & TU & _). assert (X := x1_pos). assert (0 < pow2 (-17)) by apply bpow_gt_0. nra. Qed.
Lemma itau : 0 < / tau /\ pow2 (-425) <= / tau <= pow2 425 /\ / t = / tau * / tau.
Proof.
  destruct TP as (TP & TU & TS & TR & NR). split; [apply Rinv_0_lt_compat; lra|]. split; [|rewrite <- TS; apply Rinv_mult]. split.
  - change (-425)%Z with (- (425))%Z. rewrite bpow_opp. apply Rinv_le; lra.
  - replace (pow2 425) with (/ pow2 (-425)) by (rewrite <- bpow_opp; reflexivity). apply Rinv_le; [apply bpow_gt_0|lra].
Qed.
(** c tau / t and c tau^2 / t in range *)
Lemma rng_t c : pow2 (-100) * tau <= c <= pow2 100 * tau -> pow2 (-1000) <= c / t <= pow2 1000.
Proof.
  destruct TP as (TP & TU & TS & TR & NR). destruct itau as (I0 & I1 & I2). intros H. unfold Rdiv. rewrite I2. rewrite <- Rmult_assoc.
  assert (A : pow2 (-100) <= c * / tau <= pow2 100).
  { split; apply Rmult_le_reg_r with tau; try lra; replace (c * / tau * tau) with c by (field; lra); lra. }
  split.
  - apply Rle_trans with (pow2 (-100) * pow2 (-425)); [rewrite <- bpow_plus; apply bpow_le; lia|]. apply Rmult_le_compat; try apply bpow_ge_0; lra.
  - apply Rle_trans with (pow2 100 * pow2 425); [|rewrite <- bpow_plus; apply bpow_le; lia]. assert (0 < pow2 (-100)) by apply bpow_gt_0. apply Rmult_le_compat; lra.
Qed.
Lemma rng_tt c d : pow2 (-100) * tau <= c <= pow2 100 * tau -> pow2 (-100) * tau <= d <= pow2 100 * tau -> pow2 (-200) <= c * (d / t) <= pow2 200.
Proof.
  destruct TP as (TP & TU & TS & TR & NR). destruct itau as (I0 & I1 & I2). intros H1 H2. unfold Rdiv. rewrite I2.
  replace (c * (d * (/ tau * / tau))) with (c * / tau * (d * / tau)) by ring.
  assert (A : forall c, pow2 (-100) * tau <= c <= pow2 100 * tau -> pow2 (-100) <= c * / tau <= pow2 100).
  { clear c d H1 H2. intros c H. split; apply Rmult_le_reg_r with tau; try lra; replace (c * / tau * tau) with c by (field; lra); lra. }
  apply A in H1. apply A in H2. assert (0 < pow2 (-100)) by apply bpow_gt_0. split.
  - apply Rle_trans with (pow2 (-100) * pow2 (-100)); [rewrite <- bpow_plus; apply bpow_le; lia|]. apply Rmult_le_compat; lra.
  - apply Rle_trans with (pow2 100 * pow2 100); [apply Rmult_le_compat; lra|rewrite <- bpow_plus; apply bpow_le; lia].
Qed.
Lemma p100 c : pow2 (-17) * tau <= c <= pow2 50 * tau -> pow2 (-100) * tau <= c <= pow2 100 * tau.
Proof.
  destruct TP as (TP & TU & _). intros H. assert (pow2 (-100) <= pow2 (-17)) by (apply bpow_le; lia). assert (pow2 50 <= pow2 100) by (apply bpow_le; lia).
  split; [apply Rle_trans with (pow2 (-17) * tau)|apply Rle_trans with (pow2 50 * tau)]; try lra; apply Rmult_le_compat_r; lra.
Qed.
Lemma b1sq : fdivr b1 T = Ok (fdiv b1 T) /\ fra h 7 (fmul b1 (fdiv b1 T)) (x1 * (x1 / t)) /\ B2R (fmul b1 (fdiv b1 T)) <= 1 /\ x1 <= tau * (1 + 4 * h).
Proof.
  destruct TP as (TP & TU & TS & TR & NR). assert (HP := h_pos h Hh). assert (X1 := x1_pos). assert (X1p := x1_p).
  assert (PX : pow2 (-100) * tau <= x1 <= pow2 100 * tau) by (apply p100; lra).
  assert (F1 : fra h 0 b1 x1) by (apply fra_exact; assumption).
  destruct (fra_div h Hh 0 3 b1 T x1 t F1 HT) as [ED FD]; [lra|lra|lra|lra|apply rng_t, PX|].
  split; [exact ED|].
  assert (XT : 0 < x1 / t) by (apply Rdiv_lt_0_compat; lra).
  assert (S1 : fra h 7 (fmul b1 (fdiv b1 T)) (x1 * (x1 / t))).
  { replace 7 with (0 + (0 + 3 + 2) + 2) by ring. apply fra_mul; try lra; [exact F1|exact FD|].
    assert (R := rng_tt x1 x1 PX PX). assert (pow2 (-1000) <= pow2 (-200)) by (apply bpow_le; lia). assert (pow2 200 <= pow2 1000) by (apply bpow_le; lia). lra. }
  split; [exact S1|]. destruct S1 as [FS RS].
  assert (L1 : B2R (fmul b1 (fdiv b1 T)) <= 1).
  { destruct fone as [E1 F1']. destruct (Rle_lt_dec (B2R (fmul b1 (fdiv b1 T))) 1) as [|L]; [assumption|exfalso].
    set (q := fmul b1 (fdiv b1 T)) in *.
    assert (Y : Bltb fzero (fsub q (fmake 1 0)) = true) by (apply fsub_pos; [exact FS|exact F1'|rewrite E1; exact L]).
    assert (RB : Rabs (B2R q - 1) <= pow2 1023).
    { assert (RR := ra_range h Hh _ _ _ RS ltac:(lra) ltac:(nra)). assert (R := rng_tt x1 x1 PX PX). rewrite Rabs_pos_eq by lra.
      apply Rle_trans with (pow2 200 * pow2 1); [change (pow2 1) with 2; lra|rewrite <- bpow_plus; apply bpow_le; lia]. }
    destruct (fsub_rnd q (fmake 1 0) FS F1') as [A1 A2]; [rewrite E1; exact RB|]. rewrite E1 in A1.
    destruct (fsub_rnd (fmake 1 0) q F1' FS) as [B1 B2]; [rewrite E1, Rabs_minus_sym; exact RB|]. rewrite E1 in B1.
    rewrite f64_ltb in Y by (auto; reflexivity). change (B2R fzero) with 0 in Y. destruct (Rlt_bool_spec 0 (B2R (fsub q (fmake 1 0)))) as [Y'|]; [|discriminate].
    change (Bltb (fsub (fmake 1 0) q) fzero = false) in Hbr. rewrite f64_ltb in Hbr by (auto; reflexivity). change (B2R fzero) with 0 in Hbr.
    destruct (Rlt_bool_spec (B2R (fsub (fmake 1 0) q)) 0) as [|Z]; [discriminate|]. rewrite A1 in Y'. rewrite B1 in Z.
    replace (1 - B2R q) with (- (B2R q - 1)) in Z by ring. rewrite round_NE_opp in Z. lra. }
  split; [exact L1|]. unfold ra in RS. apply Rabs_le_inv in RS.
  assert (XX : x1 * (x1 / t) * (1 - 7 * h) <= 1) by lra.
  assert (XX2 : x1 * x1 * (1 - 7 * h) <= t).
  { apply Rmult_le_reg_r with (/ t); [apply Rinv_0_lt_compat; exact TP|]. rewrite Rinv_r by lra. replace (x1 * x1 * (1 - 7 * h) * / t) with (x1 * (x1 / t) * (1 - 7 * h)) by (unfold Rdiv; ring). exact XX. }
  apply Rsqr_incr_0_var; [|nra]. unfold Rsqr.
  apply Rmult_le_reg_r with (1 - 7 * h); [lra|]. eapply Rle_trans; [exact XX2|]. rewrite <- TS.
  replace (tau * (1 + 4 * h) * (tau * (1 + 4 * h)) * (1 - 7 * h)) with (tau * tau * (1 + h * (1 - 40 * h - 112 * (h * h)))) by ring.
  rewrite <- (Rmult_1_r (tau * tau)) at 1. apply Rmult_le_compat_l; [nra|]. assert (h * h <= / 1024 * / 1024) by nra. assert (0 <= h * (1 - 40 * h - 112 * (h * h))) by (apply Rmult_le_pos; lra). lra.
Qed.
(** the near and the far side against the far side inside the set *)
Lemma far_fra : fra h 4 b1 y1 /\ x0 <= y1 <= tau /\ pow2 (-18) * tau <= y1.
Proof.
  destruct TP as (TP & TU & TS & TR & NR). destruct b1sq as (_ & _ & _ & L). assert (HP := h_pos h Hh). assert (X1 := x1_pos). assert (X1p := x1_p).
  assert (P17 : pow2 (-17) <= 1) by (change 1 with (pow2 0); apply bpow_le; lia). assert (P18 : pow2 (-17) = 2 * pow2 (-18)) by (change 2 with (pow2 1); rewrite <- bpow_plus; reflexivity).
  assert (P18' : 0 < pow2 (-18)) by apply bpow_gt_0. assert (PT : 0 < pow2 (-18) * tau) by nra. rewrite P18 in X1, P17.
  unfold y1, far, Rmin. destruct (Rle_dec x1 tau) as [C|C].
  - split; [|lra]. apply fra_weak with (k := 0); [exact Hh|apply fra_exact; assumption|lra|exact X1p].
  - split; [|nra]. split; [exact Fb1|]. unfold ra. fold x1. rewrite Rabs_pos_eq by lra. lra.
Qed.

Let t0 := 1 - x0 * (x0 / t).
Let t1 := 1 - y1 * (y1 / t).
Let th := (x0 + y1) * ((x0 + y1) / t).
Lemma sq_t x : x * (x / t) = (x / tau) * (x / tau).
Proof. destruct TP as (TP & TU & TS & _). rewrite <- TS. field. lra. Qed.
Lemma unit_t x : 0 <= x <= tau -> 0 <= x / tau <= 1.
Proof.
  destruct TP as (TP & TU & _). intros H. split; [apply Rmult_le_pos; [lra|left; apply Rinv_0_lt_compat; lra]|].
  apply Rmult_le_reg_r with tau; [lra|]. replace (x / tau * tau) with x by (field; lra). lra.
Qed.
Lemma cond_th : 0 < t0 <= 1 /\ 0 <= t1 <= t0 /\ 0 < th <= 4 /\ h <= 101 / 100 * eps * (th * t0).
Proof.
  destruct TP as (TP & TU & TS & TR & NR). destruct far_fra as (F4 & F5 & F6). assert (HP := h_pos h Hh). assert (XL := x0_lt). destruct b1sq as (_ & _ & _ & L1).
  assert (U0 := unit_t x0 Hb0). assert (U1 := unit_t y1 ltac:(lra)).
  assert (U01 : x0 / tau <= y1 / tau) by (apply Rmult_le_compat_r; [left; apply Rinv_0_lt_compat; lra|lra]).
  assert (Y0 : 0 < y1) by (assert (0 < pow2 (-18)) by apply bpow_gt_0; nra).
  assert (T0 : 0 < t0).
  { unfold t0. replace (1 - x0 * (x0 / t)) with ((t - x0 * x0) / t) by (field; lra). apply Rdiv_lt_0_compat; lra. }
  split; [split; [exact T0|unfold t0; rewrite sq_t; nra]|]. split; [unfold t0, t1; rewrite !sq_t; split; nra|].
  assert (TH : th = (x0 / tau + y1 / tau) * (x0 / tau + y1 / tau)) by (unfold th; rewrite sq_t; f_equal; field; lra).
  assert (Y1 : 0 < y1 / tau) by (apply Rdiv_lt_0_compat; lra).
  split; [rewrite TH; split; nra|].
  assert (B1 : x0 + x1 <= (x0 + y1) * (1 + 4 * h)).
  { destruct F4 as [_ R4]. unfold ra in R4. fold x1 in R4. apply Rabs_le_inv in R4. nra. }
  assert (B2 : (x0 + x1) * (x0 + x1) <= 101 / 100 * ((x0 + y1) * (x0 + y1))).
  { apply Rle_trans with ((x0 + y1) * (1 + 4 * h) * ((x0 + y1) * (1 + 4 * h))); [apply Rmult_le_compat; lra|].
    replace ((x0 + y1) * (1 + 4 * h) * ((x0 + y1) * (1 + 4 * h))) with ((1 + 4 * h) * (1 + 4 * h) * ((x0 + y1) * (x0 + y1))) by ring.
    apply Rmult_le_compat_r; [nra|]. nra. }
  apply Rmult_le_reg_r with (t * t); [nra|]. eapply Rle_trans; [exact Hcond|].
  replace (101 / 100 * eps * (th * t0) * (t * t)) with (eps * (101 / 100 * ((x0 + y1) * (x0 + y1)) * (t - x0 * x0))) by (unfold th, t0; field; lra).
  apply Rmult_le_compat_l; [lra|]. apply Rmult_le_compat_r; lra.
Qed.
Lemma b1t64 : fra h 9 (fdiv b1 T) (y1 / t).
Proof.
  destruct TP as (TP & TU & TS & TR & NR). destruct far_fra as (F4 & F5 & F6).
  assert (Y0 : 0 < y1) by (assert (0 < pow2 (-18)) by apply bpow_gt_0; nra).
  replace 9 with (4 + 3 + 2) by ring. apply (fra_div h Hh 4 3 b1 T y1 t F4 HT); try lra. apply rng_t.
  assert (pow2 (-100) <= pow2 (-18)) by (apply bpow_le; lia). assert (1 <= pow2 100) by (change 1 with (pow2 0); apply bpow_le; lia). split; nra.
Qed.
Lemma y1_100 : pow2 (-100) * tau <= y1 <= pow2 100 * tau /\ pow2 (-100) * tau <= x0 + y1 <= pow2 100 * tau /\ 0 < y1.
Proof.
  destruct TP as (TP & TU & TS & TR & NR). destruct far_fra as (F4 & F5 & F6).
  assert (0 < pow2 (-18)) by apply bpow_gt_0. assert (pow2 (-100) <= pow2 (-18)) by (apply bpow_le; lia). assert (2 <= pow2 100) by (change 2 with (pow2 1); apply bpow_le; lia).
  repeat split; nra.
Qed.
Lemma b1sq64 : fra h 15 (fmul b1 (fdiv b1 T)) (y1 * (y1 / t)) /\ ab (7 * h) (fmul b1 (fdiv b1 T)) (y1 * (y1 / t)).
Proof.
  destruct TP as (TP & TU & TS & TR & NR). destruct far_fra as (F4 & F5 & F6). assert (HP := h_pos h Hh). destruct y1_100 as (Y1 & Y2 & Y0).
  split.
  - replace 15 with (4 + 9 + 2) by ring. apply fra_mul; try lra; [exact F4|exact b1t64|apply Rdiv_lt_0_compat; lra|].
    assert (R := rng_tt y1 y1 Y1 Y1). assert (pow2 (-1000) <= pow2 (-200)) by (apply bpow_le; lia). assert (pow2 200 <= pow2 1000) by (apply bpow_le; lia). lra.
  - destruct b1sq as (_ & [FS RS] & L1 & _). split; [exact FS|]. unfold ra in RS.
    assert (U1 := unit_t y1 ltac:(lra)). assert (S1 := sq_t y1). unfold y1, far, Rmin in *. destruct (Rle_dec x1 tau) as [C|C].
    + eapply Rle_trans; [exact RS|]. rewrite <- (Rmult_1_r (7 * h)) at 2. apply Rmult_le_compat_l; [lra|]. rewrite S1. nra.
    + assert (E : tau * (tau / t) = 1) by (rewrite S1; field; lra). rewrite E in *.
      assert (G : 1 <= x1 * (x1 / t)) by (rewrite sq_t; assert (1 <= x1 / tau); [apply Rmult_le_reg_r with tau; [lra|]; replace (x1 / tau * tau) with x1 by (field; lra); lra|nra]).
      apply Rabs_le_inv in RS. apply Rabs_le. assert (1 * (1 - 7 * h) <= x1 * (x1 / t) * (1 - 7 * h)) by (apply Rmult_le_compat_r; lra). lra.
Qed.
Lemma one_ab : ab 0 (fmake 1 0) 1.
Proof. destruct fone as [E F]. split; [exact F|]. rewrite E, Rminus_eq_0, Rabs_R0. lra. Qed.
Lemma t1n64 : ab (8 * h) (fsub (fmake 1 0) (fmul b1 (fdiv b1 T))) t1.
Proof.
  destruct b1sq64 as [_ A]. destruct cond_th as (_ & T1 & _). assert (HP := h_pos h Hh). assert (B : 2 <= pow2 1000) by (change 2 with (pow2 1); apply bpow_le; lia).
  destruct cond_th as (T0 & _).
  eapply ab_weak; [apply (ab_sub h Hh 0 (7 * h) 2 _ _ 1 (y1 * (y1 / t)) one_ab A); [|lra]|lra].
  fold t1. rewrite Rabs_pos_eq by lra. lra.
Qed.
(** the near side, as in the deep cut *)
Lemma t0n64 : 0 < x0 -> fdivr b0 T = Ok (fdiv b0 T) /\ ab (6 * h) (fsub (fmake 1 0) (fmul b0 (fdiv b0 T))) t0.
Proof.
  intros X0. destruct TP as (TP & TU & TS & TR & NR). assert (HP := h_pos h Hh). destruct cond_th as (T0 & _). assert (B : 2 <= pow2 1000) by (change 2 with (pow2 1); apply bpow_le; lia).
  destruct HT as [FTT RT]. assert (RTT := ra_range h Hh _ _ _ RT ltac:(lra) TP). assert (UH := uro_h h Hh).
  split; [apply fdivr_ok; [exact FTT|lra]|].
  assert (RBT : ra h 4 (x0 / B2R T) (x0 / t)) by (replace 4 with (0 + 3 + 1) by ring; apply ra_div; try lra; [apply ra_refl; exact X0|exact RT]).
  assert (BT0 : 0 < x0 / t) by (apply Rdiv_lt_0_compat; lra). assert (BTR := ra_range h Hh _ _ _ RBT ltac:(lra) BT0).
  destruct itau as (I0 & I1 & I2).
  assert (BT2 : x0 / t <= pow2 425).
  { unfold Rdiv. rewrite I2. apply Rle_trans with (tau * (/ tau * / tau)); [apply Rmult_le_compat_r; nra|]. replace (tau * (/ tau * / tau)) with (/ tau) by (field; lra). lra. }
  destruct (fdiv_rnd b0 T Fb0) as [EBT FBT]; [lra| |].
  { fold x0. rewrite Rabs_pos_eq by lra. apply Rle_trans with (pow2 425 * pow2 1); [change (pow2 1) with 2; lra|rewrite <- bpow_plus; apply bpow_le; lia]. }
  fold x0 in EBT. set (bt := fdiv b0 T) in *.
  assert (EBT2 : Rabs (B2R bt - x0 / t) <= (4 + / 4) * h * (x0 / t) + eta).
  { rewrite EBT. assert (X := rnd_rel (x0 / B2R T)). rewrite (Rabs_pos_eq (x0 / B2R T)) in X by lra. unfold ra in RBT.
    replace (rnd (x0 / B2R T) - x0 / t) with ((rnd (x0 / B2R T) - x0 / B2R T) + (x0 / B2R T - x0 / t)) by ring.
    eapply Rle_trans; [apply Rabs_triang|]. assert (uro * (x0 / B2R T) <= h / 8 * (x0 / t * (25 / 24))) by (apply Rmult_le_compat; try apply bpow_ge_0; lra).
    assert (0 < h * (x0 / t)) by nra. lra. }
  assert (BE2 : x0 * eta <= h / 1024).
  { apply Rle_trans with (pow2 425 * eta); [apply Rmult_le_compat_r; [apply bpow_ge_0|lra]|].
    apply Rle_trans with (pow2 (-50) * pow2 (-10)); [rewrite <- !bpow_plus; apply bpow_le; lia|change (pow2 (-10)) with (/ 1024); lra]. }
  assert (U := sq_t x0). assert (U0 := unit_t x0 Hb0). assert (XB : 0 <= x0 * (x0 / t) <= 1) by (rewrite U; nra).
  assert (EX1 : Rabs (x0 * B2R bt - x0 * (x0 / t)) <= (4 + 3 / 8) * h).
  { rewrite <- Rmult_minus_distr_l, Rabs_mult, (Rabs_pos_eq x0) by lra.
    apply Rle_trans with (x0 * ((4 + / 4) * h * (x0 / t) + eta)); [apply Rmult_le_compat_l; lra|].
    replace (x0 * ((4 + / 4) * h * (x0 / t) + eta)) with ((4 + / 4) * h * (x0 * (x0 / t)) + x0 * eta) by ring.
    assert ((4 + / 4) * h * (x0 * (x0 / t)) <= (4 + / 4) * h * 1) by (apply Rmult_le_compat_l; lra). lra. }
  destruct (fmul_rnd b0 bt Fb0 FBT) as [EX FX].
  { fold x0. apply big with 2; [|exact B]. replace (x0 * B2R bt) with ((x0 * B2R bt - x0 * (x0 / t)) + x0 * (x0 / t)) by ring. eapply Rle_trans; [apply Rabs_triang|]. rewrite (Rabs_pos_eq (x0 * (x0 / t))) by lra. lra. }
  fold x0 in EX.
  assert (A : ab (5 * h) (fmul b0 bt) (x0 * (x0 / t))).
  { split; [exact FX|]. rewrite EX. eapply Rle_trans; [apply (ab_rnd h Hh) with (V := 1 + / 16); [exact EX1|rewrite Rabs_pos_eq by lra; lra|lra]|]. lra. }
  eapply ab_weak; [apply (ab_sub h Hh 0 (5 * h) 2 _ _ 1 (x0 * (x0 / t)) one_ab A); [|lra]|lra].
  fold t0. rewrite Rabs_pos_eq by lra. lra.
Qed.

Lemma h_eps : h <= 5 * eps /\ h / t0 <= 5 * eps /\ h / (t0 * th) <= 101 / 100 * eps.
Proof.
  destruct cond_th as (T0 & T1 & TH & C). assert (HP := h_pos h Hh).
  assert (A : h / (t0 * th) <= 101 / 100 * eps).
  { apply Rmult_le_reg_r with (t0 * th); [apply Rmult_lt_0_compat; lra|]. replace (h / (t0 * th) * (t0 * th)) with h by (field; lra). lra. }
  assert (B : h / t0 <= 5 * eps).
  { replace (h / t0) with (h / (t0 * th) * th) by (field; lra). apply Rle_trans with (101 / 100 * eps * 4); [|lra]. apply Rmult_le_compat; try lra. left. apply Rdiv_lt_0_compat; [lra|apply Rmult_lt_0_compat; lra]. }
  split; [|split; assumption]. apply Rle_trans with (h / t0); [|exact B].
  apply Rmult_le_reg_r with t0; [lra|]. replace (h / t0 * t0) with h by (field; lra). nra.
Qed.
Lemma c_rng : 1 <= N * N / (N * N - 1) <= 4 / 3 /\ 0 < N / (N + 1) <= 1 /\ 0 < 2 / (N + 1) <= 1.
Proof.
  destruct TP as (_ & _ & _ & _ & NR).
  assert (0 < N * N - 1) by nra. split; [split; apply Rmult_le_reg_r with (N * N - 1); try lra; replace (N * N / (N * N - 1) * (N * N - 1)) with (N * N) by (field; lra); nra|].
  split; split; try (apply Rdiv_lt_0_compat; lra); apply Rmult_le_reg_r with (N + 1); try lra.
  - replace (N / (N + 1) * (N + 1)) with N by (field; lra). lra.
  - replace (2 / (N + 1) * (N + 1)) with 2 by (field; lra). lra.
Qed.
Lemma p1000 : 10 * pow2 20 <= pow2 1000 /\ 10 <= pow2 500.
Proof. split; [apply Rle_trans with (pow2 4 * pow2 20); [change (pow2 4) with 16; assert (0 < pow2 20) by apply bpow_gt_0; lra|rewrite <- bpow_plus; apply bpow_le; lia]|apply Rle_trans with (pow2 4); [change (pow2 4) with 16; lra|apply bpow_le; lia]]. Qed.
Lemma eps18 : 0 < eps <= / 262144. Proof. split; [apply Heps|]. eapply Rle_trans; [apply Heps|]. change (pow2 (-18)) with (/ 262144). lra. Qed.
Lemma fin_sigma q q0 : ab (168 * eps) q q0 -> 0 <= N / (N + 1) + q0 <= 1 -> ab (178 * eps) (fadd (e_c3 e) q) (N / (N + 1) + q0).
Proof.
  intros A B. destruct h_eps as (E1 & _). destruct c_rng as (_ & C3 & _). assert (HP := h_pos h Hh). assert (E18 := eps18). destruct p1000 as [P1 P2].
  assert (C : ab h (e_c3 e) (N / (N + 1))) by (eapply ab_weak; [apply fra_ab, Hc3|]; nra).
  assert (P20 : 1 <= pow2 20) by (change 1 with (pow2 0); apply bpow_le; lia).
  eapply ab_weak; [apply (ab_add h Hh h (168 * eps) 2 _ _ _ _ C A); [rewrite Rabs_pos_eq by lra; lra|lra]|]. lra.
Qed.
Lemma fin_rho sg s0 m m0 : ab (178 * eps) sg s0 -> 0 <= s0 <= 1 -> fra h 7 m m0 -> pow2 (-100) * tau <= m0 <= tau -> ab (240 * eps * tau) (fmul sg m) (s0 * m0).
Proof.
  intros [FS ES] S [FM RM] M. destruct h_eps as (E1 & _). assert (HP := h_pos h Hh). assert (E18 := eps18). destruct TP as (TP & TU & TS & TR & NR). assert (UH := uro_h h Hh).
  assert (M0 : 0 < m0) by (assert (0 < pow2 (-100)) by apply bpow_gt_0; nra). assert (MR := ra_range h Hh 7 _ _ RM ltac:(lra) M0). unfold ra in RM.
  assert (D : Rabs (B2R sg * B2R m - s0 * m0) <= 225 * eps * tau).
  { replace (B2R sg * B2R m - s0 * m0) with ((B2R sg - s0) * B2R m + s0 * (B2R m - m0)) by ring. eapply Rle_trans; [apply Rabs_triang|]. rewrite !Rabs_mult, (Rabs_pos_eq s0), (Rabs_pos_eq (B2R m)) by lra.
    assert (A1 : Rabs (B2R sg - s0) * B2R m <= 178 * eps * (25 / 24 * tau)) by (apply Rmult_le_compat; [apply Rabs_pos|lra|exact ES|lra]).
    assert (A2 : s0 * Rabs (B2R m - m0) <= 1 * (7 * (5 * eps) * tau)).
    { apply Rmult_le_compat; [lra|apply Rabs_pos|lra|]. eapply Rle_trans; [exact RM|]. apply Rmult_le_compat; nra. }
    assert (0 < eps * tau) by nra. lra. }
  assert (ET : eps * tau <= / 262144 * tau) by (apply Rmult_le_compat_r; lra).
  assert (B : Rabs (B2R sg * B2R m) <= 2 * tau).
  { replace (B2R sg * B2R m) with ((B2R sg * B2R m - s0 * m0) + s0 * m0) by ring. eapply Rle_trans; [apply Rabs_triang|]. rewrite (Rabs_pos_eq (s0 * m0)) by nra. assert (s0 * m0 <= 1 * tau) by (apply Rmult_le_compat; lra). lra. }
  destruct (fmul_rnd sg m FS FM) as [E F].
  { apply big with (2 * tau); [exact B|]. apply Rle_trans with (pow2 1 * pow2 425); [change (pow2 1) with 2; lra|rewrite <- bpow_plus; apply bpow_le; lia]. }
  split; [exact F|]. rewrite E. assert (X := rnd_rel (B2R sg * B2R m)). assert (EH := eta_h h Hh tau ltac:(eapply Rle_trans; [|apply TR]; apply bpow_le; lia)).
  assert (uro * Rabs (B2R sg * B2R m) <= h / 8 * (2 * tau)) by (apply Rmult_le_compat; try apply bpow_ge_0; try apply Rabs_pos; lra).
  assert (h * tau <= 5 * eps * tau) by (apply Rmult_le_compat_r; lra).
  assert (0 < eps * tau) by nra.
  replace (rnd (B2R sg * B2R m) - s0 * m0) with ((rnd (B2R sg * B2R m) - B2R sg * B2R m) + (B2R sg * B2R m - s0 * m0)) by ring. eapply Rle_trans; [apply Rabs_triang|]. lra.
Qed.
Lemma fin_delta a a0 x v : ab (10 * h) a a0 -> 0 <= a0 <= 1 -> ab (27 * (h / t0)) x v -> 0 <= v <= 1 ->
  ab (256 * eps) (fmul (e_c1 e) (fadd a x)) (N * N / (N * N - 1) * (a0 + v)).
Proof.
  intros A HA X HX. destruct h_eps as (E1 & E2 & _). destruct c_rng as (C1 & _). assert (HP := h_pos h Hh). assert (E18 := eps18). destruct p1000 as [P1 P2].
  assert (P20 : 1 <= pow2 20) by (change 1 with (pow2 0); apply bpow_le; lia). destruct cond_th as (T0 & T1 & TH & CC).
  assert (HT0 : h <= h / t0) by (apply Rmult_le_reg_r with t0; [lra|]; replace (h / t0 * t0) with h by (field; lra); nra).
  assert (HE : h / t0 <= 101 / 100 * 4 * eps).
  { destruct h_eps as (_ & _ & E3). replace (h / t0) with (h / (t0 * th) * th) by (field; lra). apply Rle_trans with (101 / 100 * eps * 4); [|lra]. apply Rmult_le_compat; try lra. left. apply Rdiv_lt_0_compat; [lra|apply Rmult_lt_0_compat; lra]. }
  assert (S : ab (38 * (h / t0)) (fadd a x) (a0 + v)).
  { eapply ab_weak; [apply (ab_add h Hh _ _ 4 _ _ _ _ A X); [rewrite Rabs_pos_eq by lra; lra|lra]|]. lra. }
  assert (C : ab (4 / 3 * h) (e_c1 e) (N * N / (N * N - 1))) by (eapply ab_weak; [apply fra_ab, Hc1|]; nra).
  set (c := N * N / (N * N - 1)) in *. set (w := h / t0) in *.
  assert (CA : 0 <= c * (a0 + v) <= 4 / 3 * 2) by (split; [apply Rmult_le_pos; lra|apply Rmult_le_compat; lra]).
  eapply ab_weak; [apply (ab_mul h Hh _ _ (56 * w) 4 _ _ _ _ C S)|].
  - rewrite !Rabs_pos_eq by lra. assert (c * (38 * w) <= 4 / 3 * (38 * w)) by (apply Rmult_le_compat_r; lra).
    assert (4 / 3 * h * (a0 + v) <= 4 / 3 * h * 2) by (apply Rmult_le_compat_l; lra). assert (4 / 3 * h * (38 * w) <= 4 / 3 * / 1024 * (38 * w)) by (apply Rmult_le_compat_r; lra). lra.
  - rewrite Rabs_pos_eq by lra. lra.
  - lra.
  - lra.
Qed.
Lemma fn_fra : fra h 0 (fmake (Z.of_nat n) 0) N.
Proof. destruct TP as (_ & _ & _ & _ & NR). destruct (fn_exact e Hn) as [F E]. fold n N in E, F. rewrite <- E. apply fra_exact; [exact F|fold n; rewrite E; lra]. Qed.
Lemma two_fra : fra h 0 (fmake 2 0) 2.
Proof. destruct ftwo as [E F]. split; [exact F|]. rewrite E. apply ra_refl. lra. Qed.
(** xi / n *)
Lemma xn64 xi v : ab (23 * (h * N / t0)) xi v -> 0 <= v <= N -> fdivr xi (fmake (Z.of_nat n) 0) = Ok (fdiv xi (fmake (Z.of_nat n) 0)) /\
  ab (27 * (h / t0)) (fdiv xi (fmake (Z.of_nat n) 0)) (v / N) /\ 0 <= v / N <= 1.
Proof.
  intros A V. destruct TP as (_ & _ & _ & _ & NR). destruct h_eps as (E1 & E2 & _). assert (HP := h_pos h Hh). assert (E18 := eps18). destruct p1000 as [P1 P2]. destruct cond_th as (T0 & T1 & TH & CC).
  assert (HT0 : h <= h / t0) by (apply Rmult_le_reg_r with t0; [lra|]; replace (h / t0 * t0) with h by (field; lra); nra).
  assert (VN : 0 <= v / N <= 1) by (split; [apply Rmult_le_pos; [lra|left; apply Rinv_0_lt_compat; lra]|apply Rmult_le_reg_r with N; [lra|]; replace (v / N * N) with v by (field; lra); lra]).
  assert (EN : 23 * (h * N / t0) / N = 23 * (h / t0)) by (field; lra).
  destruct (ab_quot h Hh _ 0 1 _ _ v N A fn_fra) as [E Q]; try lra; [rewrite Rabs_pos_eq; lra|].
  split; [exact E|]. split; [|exact VN]. eapply ab_weak; [exact Q|]. rewrite EN. lra.
Qed.

Let tm := N / 2 * ((x0 + y1) / t) * (y1 - x0).
Let xi0 := sqrt (t0 * t1 + tm * tm).
Lemma tm_rng : (x0 + y1) / t * (y1 - x0) = t0 - t1 /\ 0 <= tm <= N / 2 /\ t0 * (5 / 6) <= xi0 <= N /\ xi0 * xi0 = t0 * t1 + tm * tm.
Proof.
  destruct TP as (TP & TU & TS & TR & NR). destruct cond_th as (T0 & T1 & TH & CC). destruct far_fra as (F4 & F5 & F6).
  assert (E : (x0 + y1) / t * (y1 - x0) = t0 - t1) by (unfold t0, t1; field; lra). split; [exact E|].
  assert (ET : tm = N / 2 * (t0 - t1)) by (unfold tm; rewrite <- E; ring).
  assert (TM : 0 <= tm <= N / 2) by (rewrite ET; split; nra). split; [exact TM|].
  assert (TM1 : t0 - t1 <= tm) by (rewrite ET; nra).
  assert (T01 : 0 <= t0 * t1 <= 1) by (split; nra). assert (TT0 : 0 <= tm * tm) by nra.
  assert (XX : xi0 * xi0 = t0 * t1 + tm * tm) by (apply sqrt_sqrt; lra). split; [|exact XX].
  assert (X0 : 0 <= xi0) by apply sqrt_pos. split.
  - apply Rsqr_incr_0_var; [|exact X0]. unfold Rsqr. rewrite XX. assert ((t0 - t1) * (t0 - t1) <= tm * tm) by (apply Rmult_le_compat; lra).
    assert (Y := Rle_0_sqr (t0 / 2 - t1)). unfold Rsqr in Y. nra.
  - apply Rsqr_incr_0_var; [|lra]. unfold Rsqr. rewrite XX. assert (tm * tm <= N / 2 * (N / 2)) by (apply Rmult_le_compat; lra). nra.
Qed.
(** the exact parameters *)
Let s0 := N / (N + 1) + (1 + x0 * (y1 / t) - xi0) / ((x0 + y1) / t * ((x0 + y1) / 2) * (N + 1)).
Let r0 := s0 * ((x0 + y1) / 2).
Let d0 := N * N / (N * N - 1) * ((t0 + t1) / 2 + xi0 / N).
Lemma par_exact : par_formula N t x0 y1 r0 s0 d0.
Proof.
  destruct TP as (TP & TU & TS & TR & NR). destruct far_fra as (F4 & F5 & F6). destruct tm_rng as (_ & _ & X & XX). destruct cond_th as (T0 & _). destruct y1_100 as (_ & _ & Y0).
  split; [exact TP|]. split; [lra|]. split; [rewrite <- TS; apply Rmult_le_compat; lra|]. split; [assert (0 <= x0 * y1) by nra; nra|]. split; [lra|].
  exists xi0. split; [lra|]. split; [rewrite XX; unfold t0, t1, tm; field; lra|]. split; [unfold s0; unfold Rdiv; rewrite !Rmult_assoc; reflexivity|]. split; [|reflexivity].
  unfold d0, t0, t1, Rdiv. rewrite !Rmult_assoc. reflexivity.
Qed.
Lemma par_step : step_ok t x0 y1 r0 s0 d0.
Proof.
  pose (eR := {| e_n := n; e_nPlus1 := 0; e_halfN := 0; e_halfNminus1 := 0; e_c1 := 0; e_c2 := 0; e_c3 := 0; e_xc := 0%nat; e_kappa := 0;
                 e_Q := fun _ _ => 0; e_par := true; e_nodefer := true |}).
  apply (par_formula_step_ok eR); [exact (proj1 Hn)|exact par_exact].
Qed.
Lemma s0_rng : 0 <= s0 <= 1 /\ 0 <= d0 <= 8 / 3 /\ Rabs ((1 + x0 * (y1 / t) - xi0) / ((x0 + y1) / t * ((x0 + y1) / 2) * (N + 1))) <= 1.
Proof.
  destruct TP as (TP & TU & TS & TR & NR). destruct par_step as (S & D & _). destruct c_rng as (C1 & C3 & _). split; [exact S|]. destruct cond_th as (T0 & T1 & _). destruct tm_rng as (_ & _ & X & _).
  split; [|apply Rabs_le; unfold s0 in S; lra]. split; [exact D|]. unfold d0.
  assert (VN : 0 <= xi0 / N <= 1) by (split; [apply Rmult_le_pos; [lra|left; apply Rinv_0_lt_compat; lra]|apply Rmult_le_reg_r with N; [lra|]; replace (xi0 / N * N) with xi0 by (field; lra); lra]).
  apply Rle_trans with (4 / 3 * 2); [apply Rmult_le_compat; lra|lra].
Qed.
Definition par_close (rho sigma delta : b64) (r s d : R) : Prop := ab (256 * eps * tau) rho r /\ ab (256 * eps) sigma s /\ ab (256 * eps) delta d.
Lemma w_eps : h * N / t0 <= 5 * eps * N /\ h * 2 <= h * N / t0 /\ h * N <= h * N / t0.
Proof.
  destruct TP as (_ & _ & _ & _ & NR). destruct h_eps as (E1 & E2 & _). destruct cond_th as (T0 & _). assert (HP := h_pos h Hh).
  split; [replace (h * N / t0) with (h / t0 * N) by (field; lra); apply Rmult_le_compat_r; lra|].
  assert (IT : 1 <= / t0) by (rewrite <- Rinv_1; apply Rinv_le; lra). assert (0 < h * N) by nra. unfold Rdiv. split; nra.
Qed.

Lemma par_go : 0 < x0 -> e_par e = true ->
  exists rho sigma delta, @calc_ll_core b64 (FNumD dot) e T b0 b1 = Ok (T, Go rho sigma delta) /\ par_close rho sigma delta r0 s0 d0.
Proof.
  intros X0 EP. destruct TP as (TP & TU & TS & TR & NR). destruct far_fra as (F4 & F5 & F6). destruct cond_th as (T0 & T1 & TH & CC). destruct tm_rng as (TMD & TM & XR & XX).
  destruct h_eps as (E1 & E2 & E3). assert (HP := h_pos h Hh). assert (E18 := eps18). destruct p1000 as [P1 P2]. destruct c_rng as (C1 & C3 & C2). destruct y1_100 as (Y1 & Y2 & Y0).
  destruct w_eps as (W1 & W2 & W3). assert (UH := uro_h h Hh). assert (ETA := eta1 h Hh). destruct itau as (I0 & I1 & I2).
  destruct b1sq as (EB1 & _ & _ & _). destruct (t0n64 X0) as [EB0 A0]. assert (A1 := t1n64).
  unfold calc_ll_core. change (@nltb b64 (FNumD dot)) with (fun x y : b64 => Bltb x y). change (@nzero b64 (FNumD dot)) with fzero.
  change (@neqb b64 (FNumD dot)) with feqb. change (@nsub b64 (FNumD dot)) with fsub. change (@ndiv b64 (FNumD dot)) with fdivr. change (@nmul b64 (FNumD dot)) with fmul.
  change (@none b64 (FNumD dot)) with (fmake 1 0). change (@nadd b64 (FNumD dot)) with fadd. cbv beta. change (@nsqrt b64 (FNumD dot)) with fsqrtr.
  change (@two b64 (FNumD dot)) with (fmake 2 0). change (@nofnat b64 (FNumD dot) (e_n e)) with (fmake (Z.of_nat n) 0). change (@nopp b64 (FNumD dot)) with (fun x : b64 => Bopp x). cbv beta.
  rewrite EB1. cbn [bind]. change (Bltb (fsub (fmake 1 0) (fmul b1 (fdiv b1 T))) fzero = false) in Hbr. rewrite Hbr, EP. cbn [orb negb].
  (* bdiff *)
  destruct (fsub_rnd b1 b0 Fb1 Fb0) as [EDF FDF].
  { fold x0 x1. apply big with (pow2 50 * pow2 425); [rewrite Rabs_pos_eq by lra|rewrite <- bpow_plus; apply bpow_le; lia]. apply Rle_trans with (pow2 50 * tau); [lra|apply Rmult_le_compat_l; [apply bpow_ge_0|lra]]. }
  fold x0 x1 in EDF.
  replace (Bltb (fsub b1 b0) fzero) with false.
  2: { symmetry. rewrite f64_ltb by (auto; reflexivity). change (B2R fzero) with 0. apply Rlt_bool_false. rewrite EDF. apply rnd_ge; [lra|apply generic_format_0]. }
  replace (feqb b0 fzero) with false.
  2: { symmetry. unfold feqb. rewrite Beqb_correct by (auto; reflexivity). fold x0. change (B2R fzero) with 0. apply Req_bool_false. lra. }
  (* b0b1n *)
  assert (FBT := b1t64). assert (U0 := unit_t x0 Hb0). assert (U1 := unit_t y1 ltac:(lra)).
  assert (PN : x0 * (y1 / t) = x0 / tau * (y1 / tau)) by (rewrite <- TS; field; lra).
  assert (PR : 0 <= x0 * (y1 / t) <= 1) by (rewrite PN; nra).
  assert (AP : ab (10 * h) (fmul b0 (fdiv b1 T)) (x0 * (y1 / t))).
  { eapply ab_weak; [apply (ab_mul h Hh 0 (9 * h * (y1 / t)) (9 * h) 2 _ _ _ _ (ab_exact b0 Fb0) (fra_ab h 9 _ _ FBT))|].
    - fold x0. rewrite (Rabs_pos_eq x0) by lra. replace (x0 * (9 * h * (y1 / t))) with (9 * h * (x0 * (y1 / t))) by ring. nra.
    - fold x0. rewrite Rabs_pos_eq by lra. lra.
    - assert (1 <= pow2 20) by (change 1 with (pow2 0); apply bpow_le; lia). lra.
    - lra. }
  set (b0b1n := fmul b0 (fdiv b1 T)) in *.
  assert (P20 : 1 <= pow2 20) by (change 1 with (pow2 0); apply bpow_le; lia).
  assert (NN0 : 0 <= B2R b0b1n).
  { destruct FBT as [FB RB]. assert (YT : 0 < y1 / t) by (apply Rdiv_lt_0_compat; lra). assert (RB2 := ra_range h Hh _ _ _ RB ltac:(lra) YT).
    unfold b0b1n. destruct (fmul_rnd b0 (fdiv b1 T) Fb0 FB) as [E _].
    { fold x0. apply big with 2; [|lra]. rewrite Rabs_pos_eq by (apply Rmult_le_pos; lra). apply Rle_trans with (x0 * (y1 / t * (25 / 24))); [apply Rmult_le_compat_l; lra|]. lra. }
    rewrite E. fold x0. apply rnd_ge; [apply Rmult_le_pos; lra|apply generic_format_0]. }
  destruct (fn_exact e Hn) as [FN EN]. fold n N in EN, FN. cbn [bind].
  replace (Bltb (fmul (fmake (Z.of_nat n) 0) b0b1n) (Bopp (fmake 1 0))) with false.
  2: { symmetry. destruct fone as [O1 O2].
    destruct (fmul_rnd (fmake (Z.of_nat n) 0) b0b1n FN (proj1 AP)) as [E F].
    { rewrite EN. apply big with (10 * pow2 20); [|lra]. assert (B := ab_bound _ _ _ AP). rewrite (Rabs_pos_eq (B2R b0b1n)), (Rabs_pos_eq (x0 * (y1 / t))) in B by lra.
      rewrite Rabs_pos_eq by (apply Rmult_le_pos; lra). apply Rle_trans with (pow2 20 * 2); [apply Rmult_le_compat; lra|lra]. }
    rewrite f64_ltb; [|exact F|rewrite is_finite_Bopp; exact O2]. apply Rlt_bool_false. rewrite E, EN, B2R_Bopp, O1.
    assert (0 <= rnd (N * B2R b0b1n)) by (apply rnd_ge; [apply Rmult_le_pos; lra|apply generic_format_0]). lra. }
  rewrite EB0. cbn [bind].
  (* bsum, bsumn, bav *)
  assert (FSUM : fra h 5 (fadd b0 b1) (x0 + y1)).
  { replace 5 with (4 + 1) by ring. apply fra_add; try lra; [apply fra_weak with (k := 0); [exact Hh|apply fra_exact; assumption|lra|exact X0]|exact F4|].
    assert (A : pow2 (-1000) <= pow2 (-100) * pow2 (-425)) by (rewrite <- bpow_plus; apply bpow_le; lia). assert (B : pow2 100 * pow2 425 <= pow2 1000) by (rewrite <- bpow_plus; apply bpow_le; lia).
    assert (pow2 (-100) * pow2 (-425) <= pow2 (-100) * tau) by (apply Rmult_le_compat_l; [apply bpow_ge_0|lra]).
    assert (pow2 100 * tau <= pow2 100 * pow2 425) by (apply Rmult_le_compat_l; [apply bpow_ge_0|lra]). lra. }
  destruct (fra_div h Hh 5 3 _ T _ t FSUM HT) as [ESN FSN]; [lra|lra|lra|lra|apply rng_t, Y2|]. replace (5 + 3 + 2) with 10 in FSN by ring.
  rewrite ESN. cbn [bind].
  assert (PMIN : pow2 (-1000) <= pow2 (-101) * pow2 (-425)) by (rewrite <- bpow_plus; apply bpow_le; lia).
  assert (PMIN2 : pow2 (-101) * pow2 (-425) <= pow2 (-101) * tau) by (apply Rmult_le_compat_l; [apply bpow_ge_0|lra]).
  assert (PMIN3 : 2 * pow2 (-101) = pow2 (-100)) by (change 2 with (pow2 1); rewrite <- bpow_plus; reflexivity).
  assert (BAV : pow2 (-100) * tau <= (x0 + y1) / 2 <= tau).
  { split; [|lra]. apply Rle_trans with (pow2 (-18) * tau / 2); [|lra]. assert (pow2 (-100) <= pow2 (-19)) by (apply bpow_le; lia). assert (pow2 (-18) = 2 * pow2 (-19)) by (change 2 with (pow2 1); rewrite <- bpow_plus; reflexivity). nra. }
  destruct (fra_div h Hh 5 0 _ (fmake 2 0) _ 2 FSUM two_fra) as [EAV FAV]; [lra|lra|lra|lra| |].
  { assert (tau <= pow2 1000) by (eapply Rle_trans; [apply TR|apply bpow_le; lia]). split; [|lra]. rewrite <- PMIN3 in BAV. assert (0 < pow2 (-101) * tau) by (apply Rmult_lt_0_compat; [apply bpow_gt_0|lra]). lra. }
  replace (5 + 0 + 2) with 7 in FAV by ring. rewrite EAV. cbn [bind]. set (bsumn := fdiv (fadd b0 b1) T) in *. set (bav := fdiv (fadd b0 b1) (fmake 2 0)) in *.
  (* tempn *)
  assert (SNR := rng_t (x0 + y1) Y2). assert (SN0 : 0 < (x0 + y1) / t) by (apply Rdiv_lt_0_compat; lra).
  assert (STAU : (x0 + y1) / t * tau <= 2).
  { replace ((x0 + y1) / t * tau) with (x0 / tau + y1 / tau) by (rewrite <- TS; field; lra). lra. }
  assert (FHF : fra h 12 (fmul (e_halfN e) bsumn) (N / 2 * ((x0 + y1) / t))).
  { destruct Hhf as [HF1 HF2]. replace 12 with (0 + 10 + 2) by ring. apply fra_mul; try lra; [rewrite <- HF2; apply fra_exact; [exact HF1|rewrite HF2; lra]|exact FSN|].
    split; [apply Rle_trans with (1 * ((x0 + y1) / t)); [lra|apply Rmult_le_compat_r; lra]|].
    assert (A : (x0 + y1) / t <= 2 * pow2 425).
    { apply Rle_trans with ((x0 + y1) / t * tau * / tau); [right; field; lra|]. apply Rmult_le_compat; try lra. apply Rmult_le_pos; lra. }
    apply Rle_trans with (pow2 20 * (2 * pow2 425)); [apply Rmult_le_compat; lra|]. change 2 with (pow2 1). rewrite <- !bpow_plus. apply bpow_le. lia. }
  assert (DDF : Rabs (B2R (fsub b1 b0) - (y1 - x0)) <= 5 * h * tau).
  { rewrite EDF. destruct F4 as [_ R4]. unfold ra in R4. fold x1 in R4. assert (X := rnd_rel (x1 - x0)). rewrite (Rabs_pos_eq (x1 - x0)) in X by lra.
    assert (X1U : x1 <= tau * (1 + 4 * h)) by apply b1sq. assert (HTA : 0 < h * tau <= / 1024 * tau) by (split; [nra|apply Rmult_le_compat_r; lra]).
    assert (uro * (x1 - x0) <= h / 8 * (2 * tau)) by (apply Rmult_le_compat; try apply bpow_ge_0; lra).
    assert (EH := eta_h h Hh tau ltac:(eapply Rle_trans; [|apply TR]; apply bpow_le; lia)).
    assert (4 * h * y1 <= 4 * h * tau) by (apply Rmult_le_compat_l; lra).
    replace (rnd (x1 - x0) - (y1 - x0)) with ((rnd (x1 - x0) - (x1 - x0)) + (x1 - y1)) by ring. eapply Rle_trans; [apply Rabs_triang|]. lra. }
  assert (hN : 0 < h * N <= / 1024 * N) by (split; [nra|apply Rmult_le_compat_r; lra]).
  assert (ATM : ab (12 * h * N) (fmul (fmul (e_halfN e) bsumn) (fsub b1 b0)) tm).
  { set (K := N / 2 * ((x0 + y1) / t)) in *. assert (K0 : 0 < K) by (apply Rmult_lt_0_compat; lra).
    assert (KT : K * tau <= N) by (unfold K; replace (N / 2 * ((x0 + y1) / t) * tau) with (N / 2 * ((x0 + y1) / t * tau)) by ring; nra).
    assert (KD : Rabs (K * (y1 - x0)) <= N / 2) by (change (K * (y1 - x0)) with tm; rewrite Rabs_pos_eq; lra).
    assert (hK : h * (K * tau) <= h * N) by (apply Rmult_le_compat_l; lra). assert (KT0 : 0 <= K * tau) by (apply Rmult_le_pos; lra). assert (hK0 : 0 <= h * (K * tau)) by (apply Rmult_le_pos; lra).
    assert (hhK : h * (h * (K * tau)) <= / 1024 * (h * N)) by (apply Rmult_le_compat; lra).
    eapply ab_weak; [apply (ab_mul h Hh (12 * h * K) (5 * h * tau) (23 / 2 * (h * N)) N _ _ K (y1 - x0) (fra_ab h 12 _ _ FHF) (conj FDF DDF))|].
    - rewrite (Rabs_pos_eq K) by lra. rewrite (Rabs_pos_eq (y1 - x0)) by lra.
      replace (K * (5 * h * tau) + 12 * h * K * (y1 - x0) + 12 * h * K * (5 * h * tau)) with (5 * (h * (K * tau)) + 12 * (h * (K * (y1 - x0))) + 60 * (h * (h * (K * tau)))) by ring.
      rewrite Rabs_pos_eq in KD by (apply Rmult_le_pos; lra). assert (h * (K * (y1 - x0)) <= h * (N / 2)) by (apply Rmult_le_compat_l; lra). lra.
    - lra.
    - lra.
    - lra. }
  set (tempn := fmul (fmul (e_halfN e) bsumn) (fsub b1 b0)) in *.
  (* t0n t1n *)
  set (t0n := fsub (fmake 1 0) (fmul b0 (fdiv b0 T))) in *. set (t1n := fsub (fmake 1 0) (fmul b1 (fdiv b1 T))) in *.
  assert (T0h : h <= / 1024 * t0).
  { apply Rle_trans with (h / t0 * t0); [right; field; lra|]. apply Rmult_le_compat_r; lra. }
  assert (T0P : 0 <= B2R t0n) by (destruct A0 as [_ E]; apply Rabs_le_inv in E; lra).
  assert (T1P : 0 <= B2R t1n).
  { rewrite f64_ltb in Hbr by (auto; try reflexivity; apply A1). change (B2R fzero) with 0 in Hbr. destruct (Rlt_bool_spec (B2R t1n) 0); [discriminate|assumption]. }
  assert (T01 : 0 <= t0 * t1 <= 1) by (split; [apply Rmult_le_pos; lra|apply Rle_trans with (1 * 1); [apply Rmult_le_compat; lra|lra]]).
  assert (AQ : ab (15 * h) (fmul t0n t1n) (t0 * t1)).
  { eapply ab_weak; [apply (ab_mul h Hh (6 * h) (8 * h) (29 / 2 * h) 2 _ _ t0 t1 A0 A1)|].
    - rewrite !Rabs_pos_eq by lra. assert (t0 * (8 * h) <= 1 * (8 * h)) by (apply Rmult_le_compat_r; lra). assert (6 * h * t1 <= 6 * h * 1) by (apply Rmult_le_compat_l; lra).
      assert (h * h <= / 1024 * h) by (apply Rmult_le_compat_r; lra). lra.
    - rewrite Rabs_pos_eq by lra. lra.
    - lra.
    - lra. }
  assert (QP : 0 <= B2R (fmul t0n t1n)).
  { destruct (fmul_rnd t0n t1n (proj1 A0) (proj1 A1)) as [E F].
    { apply big with 4; [|lra]. assert (B0 := ab_bound _ _ _ A0). assert (B1 := ab_bound _ _ _ A1). rewrite (Rabs_pos_eq t0) in B0 by lra. rewrite (Rabs_pos_eq t1) in B1 by lra.
      rewrite Rabs_mult. apply Rle_trans with (2 * 2); [apply Rmult_le_compat; try apply Rabs_pos; lra|lra]. }
    rewrite E. apply rnd_ge; [apply Rmult_le_pos; lra|apply generic_format_0]. }
  destruct (xi64 h Hh N t0 (t0 * t1) tm (fmul t0n t1n) tempn NR T0 AQ QP T01 ATM TM) as (xi & EXI & AXI); [fold xi0; lra|]. fold xi0 in AXI.
  rewrite EXI. cbn [bind].
  (* sigma *)
  assert (A1P : ab (11 * h) (fadd (fmake 1 0) b0b1n) (1 + x0 * (y1 / t))).
  { eapply ab_weak; [apply (ab_add h Hh 0 (10 * h) 3 _ _ _ _ one_ab AP); [rewrite Rabs_pos_eq by lra; lra|lra]|]. lra. }
  set (w := h * N / t0) in *.
  assert (EN1 : eps * N <= / 262144 * N) by (apply Rmult_le_compat_r; lra).
  assert (ANM : ab (30 * w) (fsub (fadd (fmake 1 0) b0b1n) xi) (1 + x0 * (y1 / t) - xi0)).
  { eapply ab_weak; [apply (ab_sub h Hh (11 * h) (23 * w) (2 * N) _ _ _ _ A1P AXI)|].
    - apply Rle_trans with (N + (11 * h + 23 * w)); [|lra]. apply Rplus_le_compat_r. apply Rabs_le. lra.
    - lra.
    - lra. }
  set (D := (x0 + y1) / t * ((x0 + y1) / 2) * (N + 1)) in *.
  assert (DT : D = th / 2 * (N + 1)) by (unfold D, th; field; lra). assert (D0 : 0 < D) by (rewrite DT; apply Rmult_lt_0_compat; lra).
  assert (FDN : fra h 21 (fmul (fmul bsumn bav) (e_nPlus1 e)) D).
  { assert (THR : pow2 (-200) <= th <= pow2 200) by (apply rng_tt; assumption).
    assert (HTH : (x0 + y1) / t * ((x0 + y1) / 2) = th / 2) by (unfold th; field; lra).
    assert (Q1 : pow2 (-1000) <= pow2 (-200) / 2).
    { apply Rle_trans with (pow2 (-201)); [apply bpow_le; lia|]. replace (pow2 (-200)) with (2 * pow2 (-201)) by (change 2 with (pow2 1); rewrite <- bpow_plus; reflexivity). lra. }
    assert (Q2 : 10 * pow2 20 <= pow2 1000) by exact P1.
    replace 21 with (10 + 7 + 2 + 0 + 2) by ring. destruct Hp1 as [PF PE]. apply fra_mul; try lra.
    - apply fra_mul; try exact FSN; try exact FAV; try lra; try (rewrite HTH; lra).
    - rewrite <- PE. apply fra_exact; [exact PF|rewrite PE; lra].
    - rewrite HTH. split; [apply Rle_trans with (th / 2 * 1); [lra|apply Rmult_le_compat_l; lra]|]. apply Rle_trans with (2 * (N + 1)); [apply Rmult_le_compat_r; lra|lra]. }
  assert (WD : 30 * w / D <= 606 / 10 * eps).
  { rewrite DT. unfold w. replace (30 * (h * N / t0) / (th / 2 * (N + 1))) with (60 * (h / (t0 * th)) * (N / (N + 1))) by (field; lra).
    apply Rle_trans with (60 * (101 / 100 * eps) * 1); [|lra]. apply Rmult_le_compat; try lra.
    apply Rmult_le_pos; [lra|left; apply Rdiv_lt_0_compat; [lra|apply Rmult_lt_0_compat; lra]]. }
  destruct s0_rng as (SR & DR & QR). fold D in QR.
  destruct (ab_quot h Hh (30 * w) 21 1 _ _ _ D ANM FDN) as [EQ AQT]; try lra.
  rewrite EQ. cbn [bind].
  assert (EH404 : h <= 404 / 100 * eps).
  { apply Rle_trans with (101 / 100 * eps * (th * t0)); [exact CC|]. apply Rle_trans with (101 / 100 * eps * (4 * 1)); [|lra]. apply Rmult_le_compat_l; [lra|]. apply Rmult_le_compat; lra. }
  assert (ASG : ab (178 * eps) (fadd (e_c3 e) (fdiv (fsub (fadd (fmake 1 0) b0b1n) xi) (fmul (fmul bsumn bav) (e_nPlus1 e)))) s0).
  { apply fin_sigma; [eapply ab_weak; [exact AQT|]; lra|exact SR]. }
  set (sg := fadd (e_c3 e) _) in *.
  (* delta *)
  assert (ATS : ab (15 * h) (fadd t0n t1n) (t0 + t1)).
  { eapply ab_weak; [apply (ab_add h Hh (6 * h) (8 * h) 3 _ _ _ _ A0 A1); [rewrite Rabs_pos_eq by lra; lra|lra]|]. lra. }
  destruct (ab_quot h Hh (15 * h) 0 1 _ _ (t0 + t1) 2 ATS two_fra) as [ETT ATT]; try lra; [rewrite Rabs_pos_eq; lra|].
  rewrite ETT. cbn [bind].
  destruct (xn64 xi xi0 AXI) as (EXN & AXN & XNR); [lra|]. rewrite EXN. cbn [bind].
  do 3 eexists. split; [reflexivity|]. split; [|split].
  - eapply ab_weak; [apply (fin_rho sg s0 bav ((x0 + y1) / 2) ASG SR FAV); exact BAV|]. assert (0 < eps * tau) by (apply Rmult_lt_0_compat; lra). lra.
  - eapply ab_weak; [exact ASG|]. lra.
  - apply fin_delta; [eapply ab_weak; [exact ATT|]; lra|lra|exact AXN|exact XNR].
Qed.
(** The same when the near side passes through the centre. *)
Lemma cc_go : x0 = 0 -> e_par e = true ->
  exists rho sigma delta, @calc_ll_core b64 (FNumD dot) e T b0 b1 = Ok (T, Go rho sigma delta) /\ par_close rho sigma delta r0 s0 d0.
Proof.
  intros X0 EP. destruct TP as (TP & TU & TS & TR & NR). destruct far_fra as (F4 & F5 & F6). destruct cond_th as (T0 & T1 & TH & CC). destruct tm_rng as (TMD & TM & XR & XX).
  destruct h_eps as (E1 & E2 & E3). assert (HP := h_pos h Hh). assert (E18 := eps18). destruct p1000 as [P1 P2]. destruct c_rng as (C1 & C3 & C2). destruct y1_100 as (Y1 & Y2 & Y0).
  destruct w_eps as (W1 & W2 & W3). assert (UH := uro_h h Hh).
  destruct b1sq as (EB1 & _ & _ & _). assert (A1 := t1n64). destruct b1sq64 as [FB AB].
  assert (T0E : t0 = 1) by (unfold t0; rewrite X0; field; lra).
  set (B := y1 * (y1 / t)) in *. assert (BE : B = 1 - t1) by (unfold t1, B; ring).
  assert (THE : th = B) by (unfold th, B; rewrite X0; field; lra).
  assert (TME : tm = N / 2 * B) by (unfold tm, B; rewrite X0; field; lra).
  assert (XIE : xi0 = sqrt (t1 + tm * tm)) by (unfold xi0; rewrite T0E, Rmult_1_l; reflexivity).
  assert (BR : 0 < B <= 1) by lra.
  assert (hB : h / B <= 101 / 100 * eps) by (rewrite T0E, THE, Rmult_1_l in E3; exact E3).
  assert (hE : h <= 101 / 100 * eps) by (apply Rle_trans with (h / B * B); [right; field; lra|]; apply Rle_trans with (h / B * 1); [apply Rmult_le_compat_l; [left; apply Rdiv_lt_0_compat|]; lra|lra]).
  unfold calc_ll_core. change (@nltb b64 (FNumD dot)) with (fun x y : b64 => Bltb x y). change (@nzero b64 (FNumD dot)) with fzero.
  change (@neqb b64 (FNumD dot)) with feqb. change (@nsub b64 (FNumD dot)) with fsub. change (@ndiv b64 (FNumD dot)) with fdivr. change (@nmul b64 (FNumD dot)) with fmul.
  change (@none b64 (FNumD dot)) with (fmake 1 0). cbv beta.
  rewrite EB1. cbn [bind]. change (Bltb (fsub (fmake 1 0) (fmul b1 (fdiv b1 T))) fzero = false) in Hbr. rewrite Hbr, EP. cbn [orb negb].
  destruct (fsub_rnd b1 b0 Fb1 Fb0) as [EDF FDF].
  { fold x0 x1. apply big with (pow2 50 * pow2 425); [rewrite Rabs_pos_eq by lra|rewrite <- bpow_plus; apply bpow_le; lia]. apply Rle_trans with (pow2 50 * tau); [lra|apply Rmult_le_compat_l; [apply bpow_ge_0|lra]]. }
  fold x0 x1 in EDF.
  replace (Bltb (fsub b1 b0) fzero) with false.
  2: { symmetry. rewrite f64_ltb by (auto; reflexivity). change (B2R fzero) with 0. apply Rlt_bool_false. rewrite EDF. apply rnd_ge; [lra|apply generic_format_0]. }
  replace (feqb b0 fzero) with true.
  2: { symmetry. unfold feqb. rewrite Beqb_correct by (auto; reflexivity). fold x0. change (B2R fzero) with 0. apply Req_bool_true. exact X0. }
  unfold calc_ll_cc. change (@nsqrt b64 (FNumD dot)) with fsqrtr. change (@nadd b64 (FNumD dot)) with fadd. change (@nsub b64 (FNumD dot)) with fsub. change (@ndiv b64 (FNumD dot)) with fdivr. change (@nmul b64 (FNumD dot)) with fmul.
  change (@none b64 (FNumD dot)) with (fmake 1 0). change (@two b64 (FNumD dot)) with (fmake 2 0). change (@nofnat b64 (FNumD dot) (e_n e)) with (fmake (Z.of_nat n) 0). cbv zeta.
  set (b1sqn := fmul b1 (fdiv b1 T)) in *. set (t1n := fsub (fmake 1 0) b1sqn) in *.
  assert (P20 : 1 <= pow2 20) by (change 1 with (pow2 0); apply bpow_le; lia).
  assert (hN : 0 < h * N <= / 1024 * N) by (split; [nra|apply Rmult_le_compat_r; lra]).
  assert (NB : 0 <= N / 2 * B <= N / 2) by lra.
  assert (ATM : ab (12 * h * N) (fmul (e_halfN e) b1sqn) tm).
  { destruct Hhf as [HF1 HF2]. assert (AH : ab 0 (e_halfN e) (N / 2)) by (rewrite <- HF2; apply ab_exact, HF1). rewrite TME.
    eapply ab_weak; [apply (ab_mul h Hh 0 (7 * h) (7 / 2 * (h * N)) N _ _ _ _ AH AB)|].
    - rewrite (Rabs_pos_eq (N / 2)) by lra. right. field.
    - rewrite Rabs_pos_eq by lra. lra.
    - lra.
    - lra. }
  assert (T1P : 0 <= B2R t1n).
  { rewrite f64_ltb in Hbr by (auto; try reflexivity; apply A1). change (B2R fzero) with 0 in Hbr. destruct (Rlt_bool_spec (B2R t1n) 0); [discriminate|assumption]. }
  destruct (xi64 h Hh N t0 t1 tm t1n (fmul (e_halfN e) b1sqn) NR T0 ltac:(eapply ab_weak; [exact A1|lra]) T1P ltac:(lra) ATM TM) as (xi & EXI & AXI); [rewrite <- XIE; lra|].
  rewrite <- XIE in AXI. rewrite EXI. cbn [bind].
  assert (WE : h * N / t0 = h * N) by (rewrite T0E; field). assert (AXI' := AXI). rewrite WE in AXI'.
  assert (ANM : ab (24 * (h * N)) (fsub (fmake 1 0) xi) (1 - xi0)).
  { eapply ab_weak; [apply (ab_sub h Hh 0 (23 * (h * N)) (2 * N) _ _ _ _ one_ab AXI')|].
    - apply Rle_trans with (N + (0 + 23 * (h * N))); [|lra]. apply Rplus_le_compat_r. apply Rabs_le. lra.
    - lra.
    - lra. }
  destruct s0_rng as (SR & DR & QR).
  assert (QE : (1 + x0 * (y1 / t) - xi0) / ((x0 + y1) / t * ((x0 + y1) / 2) * (N + 1)) = 2 / (N + 1) * (1 - xi0) / B) by (unfold B; rewrite X0; field; lra).
  rewrite QE in QR.
  assert (NUM : Rabs (2 / (N + 1) * (1 - xi0)) <= 1).
  { replace (2 / (N + 1) * (1 - xi0)) with (2 / (N + 1) * (1 - xi0) / B * B) by (field; lra). rewrite Rabs_mult, (Rabs_pos_eq B) by lra. apply Rle_trans with (1 * 1); [apply Rmult_le_compat; try apply Rabs_pos; lra|lra]. }
  assert (CN : 2 / (N + 1) * N <= 2) by (apply Rmult_le_reg_r with (N + 1); [lra|]; replace (2 / (N + 1) * N * (N + 1)) with (2 * N) by (field; lra); lra).
  assert (HHN : 2 / (N + 1) * (h * N) <= 2 * h) by (replace (2 / (N + 1) * (h * N)) with (h * (2 / (N + 1) * N)) by ring; rewrite (Rmult_comm 2 h); apply Rmult_le_compat_l; lra).
  assert (HHH : h * (2 / (N + 1) * (h * N)) <= / 1024 * (2 * h)) by (apply Rmult_le_compat; try lra; apply Rmult_le_pos; lra).
  assert (AC2 : ab (51 * h) (fmul (e_c2 e) (fsub (fmake 1 0) xi)) (2 / (N + 1) * (1 - xi0))).
  { eapply ab_weak; [apply (ab_mul h Hh (1 * h * (2 / (N + 1))) (24 * (h * N)) (50 * h) 2 _ _ _ _ (fra_ab h 1 _ _ Hc2) ANM)|].
    - rewrite (Rabs_pos_eq (2 / (N + 1))) by lra.
      assert (X : 2 / (N + 1) * Rabs (1 - xi0) <= 1) by (rewrite <- (Rabs_pos_eq (2 / (N + 1))) by lra; rewrite <- Rabs_mult; exact NUM).
      replace (2 / (N + 1) * (24 * (h * N)) + 1 * h * (2 / (N + 1)) * Rabs (1 - xi0) + 1 * h * (2 / (N + 1)) * (24 * (h * N)))
        with (24 * (2 / (N + 1) * (h * N)) + h * (2 / (N + 1) * Rabs (1 - xi0)) + 24 * (h * (2 / (N + 1) * (h * N)))) by ring.
      assert (h * (2 / (N + 1) * Rabs (1 - xi0)) <= h * 1) by (apply Rmult_le_compat_l; lra). lra.
    - lra.
    - lra.
    - lra. }
  assert (HB51 : 51 * h / B <= 52 * eps) by (replace (51 * h / B) with (51 * (h / B)) by (field; lra); lra).
  destruct (ab_quot h Hh (51 * h) 15 1 _ _ _ B AC2 FB) as [EQ AQT]; try lra.
  rewrite EQ. cbn [bind].
  assert (SE : s0 = N / (N + 1) + 2 / (N + 1) * (1 - xi0) / B) by (unfold s0; rewrite QE; reflexivity).
  assert (ASG : ab (178 * eps) (fadd (e_c3 e) (fdiv (fmul (e_c2 e) (fsub (fmake 1 0) xi)) b1sqn)) s0).
  { rewrite SE. apply fin_sigma; [eapply ab_weak; [exact AQT|]; lra|rewrite <- SE; exact SR]. }
  set (sg := fadd (e_c3 e) _) in *.
  assert (ARM : ab (240 * eps * tau) (fmul sg b1) (s0 * y1)).
  { apply fin_rho; [exact ASG|exact SR|apply fra_weak with (k := 4); [exact Hh|exact F4|lra|lra]|lra]. }
  assert (ET : 0 < eps * tau <= / 262144 * tau) by (split; [apply Rmult_lt_0_compat; lra|apply Rmult_le_compat_r; lra]).
  destruct ftwo as [E2V F2V].
  assert (RM : Rabs (B2R (fmul sg b1)) <= 2 * tau).
  { eapply Rle_trans; [apply (ab_bound _ _ _ ARM)|]. rewrite Rabs_pos_eq by (apply Rmult_le_pos; lra). assert (s0 * y1 <= 1 * tau) by (apply Rmult_le_compat; lra). lra. }
  assert (RM2 : Rabs (B2R (fmul sg b1) / 2) <= tau) by (unfold Rdiv; rewrite Rabs_mult, (Rabs_pos_eq (/ 2)) by lra; lra).
  destruct (fdiv_rnd (fmul sg b1) (fmake 2 0) (proj1 ARM)) as [ERH FRH]; [rewrite E2V; lra| |].
  { rewrite E2V. apply big with tau; [exact RM2|]. eapply Rle_trans; [apply TR|apply bpow_le; lia]. }
  rewrite E2V in ERH.
  rewrite (fdivr_ok (fmul sg b1) (fmake 2 0)) by (try exact F2V; rewrite E2V; lra). cbn [bind].
  destruct (ab_quot h Hh (7 * h) 0 1 _ _ B 2 AB two_fra) as [EHB AHB]; try lra; [rewrite Rabs_pos_eq; lra|].
  rewrite EHB. cbn [bind].
  destruct (xn64 xi xi0 AXI) as (EXN & AXN & XNR); [lra|]. rewrite EXN. cbn [bind].
  do 3 eexists. split; [reflexivity|]. split; [|split].
  - split; [exact FRH|]. rewrite ERH. assert (X := rnd_rel (B2R (fmul sg b1) / 2)). assert (EH := eta_h h Hh tau ltac:(eapply Rle_trans; [|apply TR]; apply bpow_le; lia)).
    assert (uro * Rabs (B2R (fmul sg b1) / 2) <= h / 8 * tau) by (apply Rmult_le_compat; try apply bpow_ge_0; try apply Rabs_pos; lra).
    assert (h * tau <= 101 / 100 * eps * tau) by (apply Rmult_le_compat_r; lra).
    destruct ARM as [_ ARM]. replace r0 with (s0 * y1 / 2) by (unfold r0; rewrite X0; field).
    assert (Y : Rabs (B2R (fmul sg b1) / 2 - s0 * y1 / 2) <= 120 * eps * tau).
    { replace (B2R (fmul sg b1) / 2 - s0 * y1 / 2) with ((B2R (fmul sg b1) - s0 * y1) * / 2) by field. rewrite Rabs_mult, (Rabs_pos_eq (/ 2)) by lra. lra. }
    replace (rnd (B2R (fmul sg b1) / 2) - s0 * y1 / 2) with ((rnd (B2R (fmul sg b1) / 2) - B2R (fmul sg b1) / 2) + (B2R (fmul sg b1) / 2 - s0 * y1 / 2)) by ring.
    eapply Rle_trans; [apply Rabs_triang|]. lra.
  - eapply ab_weak; [exact ASG|]. lra.
  - unfold d0. replace ((t0 + t1) / 2) with (1 - B / 2) by lra. apply fin_delta; [|lra|exact AXN|exact XNR].
    eapply ab_weak; [apply (ab_sub h Hh 0 (5 * h) 2 _ _ _ _ one_ab ltac:(eapply ab_weak; [exact AHB|lra])); [rewrite Rabs_pos_eq by lra; lra|lra]|]. lra.
Qed.
End Par.

(** What _calc_ll_core does with a parallel cut 0 <= beta0 <= beta1 whose near side meets the ellipsoid. *)
Lemma ll64 h dot e T b0 b1 t eps : pow2 (-50) <= h <= / 1024 -> (2 <= e_n e)%nat /\ (Z.of_nat (e_n e) <= 2 ^ 20)%Z ->
  let N := IZR (Z.of_nat (e_n e)) in let tau := sqrt t in let x0 := B2R b0 in let x1 := B2R b1 in
  is_finite (e_nPlus1 e) = true /\ B2R (e_nPlus1 e) = N + 1 -> is_finite (e_halfN e) = true /\ B2R (e_halfN e) = N / 2 ->
  fra h 1 (e_c1 e) (N * N / (N * N - 1)) -> fra h 1 (e_c2 e) (2 / (N + 1)) -> fra h 1 (e_c3 e) (N / (N + 1)) ->
  fra h 3 T t -> pow2 (-850) <= t <= pow2 850 -> is_finite b0 = true -> is_finite b1 = true ->
  0 <= x0 <= tau -> x0 <= x1 <= pow2 50 * tau -> h <= 8 * eps -> 0 < eps <= pow2 (-18) ->
  h * (t * t) <= eps * ((x0 + x1) * (x0 + x1) * (t - x0 * x0)) ->
  @calc_ll_core b64 (FNumD dot) e T b0 b1 = Ok (T, Stop nosoln) \/
  exists rho sigma delta r0 s0 d0 y, @calc_ll_core b64 (FNumD dot) e T b0 b1 = Ok (T, Go rho sigma delta) /\
    step_ok t x0 y r0 s0 d0 /\ Rmin x1 tau <= y <= tau /\ 0 <= r0 <= tau /\ d0 <= 8 / 3 /\
    ab (256 * eps * tau) rho r0 /\ ab (256 * eps) sigma s0 /\ ab (256 * eps) delta d0.
Proof.
  intros Hh Hn N tau x0 x1 Hp1 Hhf Hc1 Hc2 Hc3 HT Ht Fb0 Fb1 Hb0 Hb1 He Heps Hcond.
  assert (t0 : 0 < t) by (assert (0 < pow2 (-850)) by apply bpow_gt_0; lra). assert (HP := h_pos h Hh). assert (tp : 0 < tau) by (apply sqrt_lt_R0, t0).
  assert (ep : 0 < eps * tau) by (apply Rmult_lt_0_compat; lra).
  assert (DC : @calc_dc b64 (FNumD dot) e T b0 = Ok (T, Stop nosoln) \/ exists rho sigma delta r0 s0 d0 y, @calc_dc b64 (FNumD dot) e T b0 = Ok (T, Go rho sigma delta) /\
    step_ok t x0 y r0 s0 d0 /\ Rmin x1 tau <= y <= tau /\ 0 <= r0 <= tau /\ d0 <= 8 / 3 /\ ab (256 * eps * tau) rho r0 /\ ab (256 * eps) sigma s0 /\ ab (256 * eps) delta d0).
  { destruct (dc64 h Hh dot e Hn Hp1 Hc1 Hc2 T b0 t HT Ht Fb0 (proj1 Hb0) (proj2 Hb0)) as [E|(rho & sigma & delta & r0 & s0 & d0 & E & FORM & Fr & Fs & Fd & Ed & D0 & Rr & Rs)]; [left; exact E|right].
    exists rho, sigma, delta, r0, s0, d0, tau. split; [exact E|]. split.
    { pose (eR := {| e_n := e_n e; e_nPlus1 := 0; e_halfN := 0; e_halfNminus1 := 0; e_c1 := 0; e_c2 := 0; e_c3 := 0; e_xc := 0%nat; e_kappa := 0;
                     e_Q := fun _ _ => 0; e_par := true; e_nodefer := true |}).
      apply (dc_formula_step_ok eR); [exact (proj1 Hn)|lra|exact (proj2 Hb0)|exact FORM]. }
    fold N in Rr, Rs. fold tau in Rr. assert (NN : 2 <= N) by (apply IZR_le; lia).
    assert (A1 : 0 < tau / (N + 1)) by (apply Rdiv_lt_0_compat; lra). assert (A2 : 0 < 2 / (N + 1)) by (apply Rdiv_lt_0_compat; lra).
    split; [split; [apply Rmin_r|lra]|]. split; [lra|]. split; [lra|]. destruct Fr as [F1 R1]. destruct Fs as [F2 R2]. unfold ra in R1, R2.
    assert (hr : h * r0 <= 8 * eps * tau) by (apply Rmult_le_compat; lra). assert (hs : h * s0 <= 8 * eps * 1) by (apply Rmult_le_compat; lra).
    split; [split; [exact F1|lra]|]. split; [split; [exact F2|lra]|split; [exact Fd|lra]]. }
  destruct (e_par e) eqn:EP.
  - destruct (@nltb b64 (FNumD dot) (fsub (fmake 1 0) (fmul b1 (fdiv b1 T))) fzero) eqn:L.
    + assert (E1 : fdivr b1 T = Ok (fdiv b1 T)).
      { destruct HT as [FT RT]. assert (RR := ra_range h Hh 3 _ _ RT ltac:(lra) t0). apply fdivr_ok; [exact FT|lra]. }
      unfold calc_ll_core. change (@ndiv b64 (FNumD dot) b1 T) with (fdivr b1 T). rewrite E1. cbn [bind].
      change (@nsub b64 (FNumD dot) none (@nmul b64 (FNumD dot) b1 (fdiv b1 T))) with (fsub (fmake 1 0) (fmul b1 (fdiv b1 T))). change (@nzero b64 (FNumD dot)) with fzero. cbv zeta. rewrite L. cbn [orb]. exact DC.
    + right. assert (RES : exists r0 s0 d0, step_ok t x0 (Rmin x1 tau) r0 s0 d0 /\ 0 <= s0 <= 1 /\ d0 <= 8 / 3 /\ r0 = s0 * ((x0 + Rmin x1 tau) / 2) /\
        exists rho sigma delta, @calc_ll_core b64 (FNumD dot) e T b0 b1 = Ok (T, Go rho sigma delta) /\ ab (256 * eps * tau) rho r0 /\ ab (256 * eps) sigma s0 /\ ab (256 * eps) delta d0).
      { destruct (Rle_lt_or_eq_dec 0 x0 (proj1 Hb0)) as [P|P].
        - do 3 eexists. split; [apply (par_step h Hh dot e Hn T b0 b1 t HT Ht Fb1 Hb0 Hb1 eps Heps Hcond L)|].
          destruct (s0_rng h Hh dot e Hn T b0 b1 t HT Ht Fb1 Hb0 Hb1 eps Heps Hcond L) as (A & B & _).
          split; [exact A|]. split; [apply B|]. split; [reflexivity|].
          exact (par_go h Hh dot e Hn Hp1 Hhf Hc1 Hc3 T b0 b1 t HT Ht Fb0 Fb1 Hb0 Hb1 eps Heps Hcond L P EP).
        - do 3 eexists. split; [apply (par_step h Hh dot e Hn T b0 b1 t HT Ht Fb1 Hb0 Hb1 eps Heps Hcond L)|].
          destruct (s0_rng h Hh dot e Hn T b0 b1 t HT Ht Fb1 Hb0 Hb1 eps Heps Hcond L) as (A & B & _).
          split; [exact A|]. split; [apply B|]. split; [reflexivity|].
          exact (cc_go h Hh dot e Hn Hhf Hc1 Hc2 Hc3 T b0 b1 t HT Ht Fb0 Fb1 Hb0 Hb1 eps Heps Hcond L (eq_sym P) EP). }
      destruct RES as (r0 & s0 & d0 & ST & S & D & RE & rho & sigma & delta & E & CL).
      assert (Y : x0 <= Rmin x1 tau <= tau) by (split; [apply Rmin_glb; lra|apply Rmin_r]).
      exists rho, sigma, delta, r0, s0, d0, (Rmin x1 tau). split; [exact E|]. split; [exact ST|]. split; [lra|]. split; [|split; [exact D|exact CL]].
      rewrite RE. split; [apply Rmult_le_pos; lra|]. apply Rle_trans with (1 * tau); [apply Rmult_le_compat; lra|lra].
  - assert (E1 : fdivr b1 T = Ok (fdiv b1 T)).
    { destruct HT as [FT RT]. assert (RR := ra_range h Hh 3 _ _ RT ltac:(lra) t0). apply fdivr_ok; [exact FT|lra]. }
    unfold calc_ll_core. change (@ndiv b64 (FNumD dot) b1 T) with (fdivr b1 T). rewrite E1. cbn [bind]. rewrite EP. rewrite orb_true_r. exact DC.
Qed.
