(** profit_oracle in binary64: errors on the logarithmic scale. *)
From Coq Require Import ZArith Reals Lra Lia Bool Psatz.
From Flocq Require Import Core.Core IEEE754.BinarySingleNaN.
From Verif Require Import Base M_Drivers S_Drivers S_LinAlg P_LinAlg M_Ell M_Lowpass M_Profit S_Profit P_Profit M_Float P_Float P_Float2 S_Float P_FSum P_EllF P_EllF2 M_ProfitF S_ProfitF.
Local Open Scope R_scope.

(** x = y up to the factor exp(+-e) *)
Definition ln_near (e x y : R) : Prop := 0 < x /\ 0 < y /\ Rabs (ln x - ln y) <= e.
Lemma near_exp e x y : ln_near e x y <-> 0 < y /\ y * exp (- e) <= x <= y * exp e.
Proof.
  split.
  - intros (Hx & Hy & H). apply Rabs_le_inv in H. split; [exact Hy|].
    assert (E : x = y * exp (ln x - ln y)) by (unfold Rminus; rewrite exp_plus, exp_Ropp, !exp_ln by assumption; field; lra).
    split; rewrite E; apply Rmult_le_compat_l; try lra; apply exp_le_iff; lra.
  - intros (Hy & H1 & H2). assert (E1 := exp_pos (- e)). assert (Hx : 0 < x) by (eapply Rlt_le_trans; [|exact H1]; apply Rmult_lt_0_compat; assumption).
    split; [exact Hx|]. split; [exact Hy|]. apply (ln_le_iff _ _ (Rmult_lt_0_compat _ _ Hy E1) Hx) in H1. apply (ln_le_iff _ _ Hx (Rmult_lt_0_compat _ _ Hy (exp_pos e))) in H2.
    rewrite ln_mult, ln_exp in H1, H2 by (assumption || apply exp_pos). apply Rabs_le. lra.
Qed.
Lemma exp_up e : 0 <= e <= / 2 -> exp e <= 1 + 2 * e.
Proof.
  intros H. assert (A := exp_ge_1p (- e)). rewrite exp_Ropp in A. assert (P := exp_pos e).
  assert (B : (1 - e) * exp e <= 1). { replace 1 with (/ exp e * exp e) at 2 by (field; lra). apply Rmult_le_compat_r; lra. }
  apply Rmult_le_reg_l with (1 - e); [lra|]. nra.
Qed.
Lemma near_abs e x y : ln_near e x y -> e <= / 2 -> Rabs (x - y) <= 2 * e * y.
Proof.
  intros H He. assert (E0 : 0 <= e) by (destruct H as (_ & _ & H); assert (A := Rabs_pos (ln x - ln y)); lra).
  apply near_exp in H as (Hy & H1 & H2). assert (A := exp_up e (conj E0 He)). assert (B := exp_ge_1p (- e)).
  assert (y * exp e <= y * (1 + 2 * e)) by (apply Rmult_le_compat_l; lra). assert (y * (1 + - e) <= y * exp (- e)) by (apply Rmult_le_compat_l; lra).
  assert (0 <= e * y) by (apply Rmult_le_pos; lra). apply Rabs_le. lra.
Qed.
Lemma abs_near e x y : 0 < y -> Rabs (x - y) <= e * y -> e <= / 2 -> ln_near (2 * e) x y.
Proof.
  intros Hy H He. assert (E0 : 0 <= e). { assert (A := Rabs_pos (x - y)). apply Rmult_le_reg_r with y; lra. }
  apply Rabs_le_inv in H. apply near_exp. split; [exact Hy|]. split.
  - assert (A := exp_ge_1p (2 * e)). rewrite exp_Ropp. assert (P := exp_pos (2 * e)).
    apply Rmult_le_reg_r with (exp (2 * e)); [exact P|]. rewrite Rmult_assoc, Rinv_l, Rmult_1_r by lra.
    assert (B : y * (1 - e) * (1 + 2 * e) <= x * exp (2 * e)) by (apply Rmult_le_compat; try lra; apply Rmult_le_pos; lra). 
    assert (C : y * 1 <= y * ((1 - e) * (1 + 2 * e))) by (apply Rmult_le_compat_l; nra). lra.
  - assert (A := exp_ge_1p (2 * e)). assert (y * (1 + 2 * e) <= y * exp (2 * e)) by (apply Rmult_le_compat_l; lra). assert (0 <= e * y) by (apply Rmult_le_pos; lra). lra.
Qed.
Lemma near_trans e1 e2 x y z : ln_near e1 x y -> ln_near e2 y z -> ln_near (e1 + e2) x z.
Proof. intros (A1 & A2 & A3) (B1 & B2 & B3). split; [exact A1|]. split; [exact B2|]. apply Rabs_le_inv in A3, B3. apply Rabs_le. lra. Qed.
Lemma near_sym e x y : ln_near e x y -> ln_near e y x.
Proof. intros (A1 & A2 & A3). split; [exact A2|]. split; [exact A1|]. rewrite Rabs_minus_sym. exact A3. Qed.
Lemma near_mul e1 e2 x y z w : ln_near e1 x y -> ln_near e2 z w -> ln_near (e1 + e2) (x * z) (y * w).
Proof.
  intros (A1 & A2 & A3) (B1 & B2 & B3). split; [apply Rmult_lt_0_compat; assumption|]. split; [apply Rmult_lt_0_compat; assumption|].
  rewrite !ln_mult by assumption. apply Rabs_le_inv in A3, B3. apply Rabs_le. lra.
Qed.
Lemma near_div e1 e2 x y z w : ln_near e1 x y -> ln_near e2 z w -> ln_near (e1 + e2) (x / z) (y / w).
Proof.
  intros (A1 & A2 & A3) (B1 & B2 & B3). split; [apply Rdiv_lt_0_compat; assumption|]. split; [apply Rdiv_lt_0_compat; assumption|].
  unfold Rdiv. rewrite !ln_mult, !ln_Rinv by (assumption || apply Rinv_0_lt_compat; assumption). apply Rabs_le_inv in A3, B3. apply Rabs_le. lra.
Qed.
Lemma near_add e x y z w : ln_near e x y -> ln_near e z w -> ln_near e (x + z) (y + w).
Proof. rewrite !near_exp. intros (A1 & A2 & A3) (B1 & B2 & B3). split; [lra|]. lra. Qed.
Lemma near_addl e t x y : 0 <= t -> ln_near e x y -> ln_near e (t + x) (t + y).
Proof.
  intros Ht H. assert (E0 : 0 <= e) by (destruct H as (_ & _ & H); assert (A := Rabs_pos (ln x - ln y)); lra). revert H. rewrite !near_exp. intros (A1 & A2 & A3).
  assert (B1 : exp (- e) <= 1) by (rewrite <- exp_0; apply exp_le_iff; lra). assert (B2 : 1 <= exp e) by (rewrite <- exp_0; apply exp_le_iff; lra).
  assert (t * exp (- e) <= t * 1) by (apply Rmult_le_compat_l; lra). assert (t * 1 <= t * exp e) by (apply Rmult_le_compat_l; lra). split; lra.
Qed.
Lemma near_le e e' x y : ln_near e x y -> e <= e' -> ln_near e' x y.
Proof. intros (A1 & A2 & A3) H. repeat split; try assumption. lra. Qed.
Lemma near_refl x : 0 < x -> ln_near 0 x x.
Proof. intros H. repeat split; try assumption. rewrite Rminus_diag_eq, Rabs_R0 by reflexivity. lra. Qed.

(** the unit of all the bounds below *)
Notation u51 := (pow2 (-51)).
Lemma u51_bounds : 0 < u51 <= / 1048576 * / 1048576 * / 1024.
Proof. split; [apply bpow_gt_0|]. replace (/ 1048576 * / 1048576 * / 1024) with (pow2 (-50)) by (change (/ 1048576) with (pow2 (-20)); change (/ 1024) with (pow2 (-10)); rewrite <- !bpow_plus; reflexivity). apply bpow_le. lia. Qed.
Lemma pw (k j : Z) : pow2 (k + j) = pow2 k * pow2 j. Proof. apply bpow_plus. Qed.
Lemma near_rnd x : pow2 (-1000) <= x -> ln_near u51 (rnd x) x.
Proof.
  intros H. assert (P := bpow_gt_0 radix2 (-1000)). assert (E := rnd_rel x). rewrite (Rabs_right x) in E by lra.
  replace u51 with (2 * pow2 (-52)) by (change 2 with (pow2 1); rewrite <- bpow_plus; reflexivity).
  apply abs_near; [lra| |change (/ 2) with (pow2 (-1)); apply bpow_le; lia].
  assert (pow2 (-1075) <= pow2 (-53) * x). { apply Rle_trans with (pow2 (-53) * pow2 (-1000)); [rewrite <- bpow_plus; apply bpow_le; lia|apply Rmult_le_compat_l; [apply bpow_ge_0|exact H]]. }
  replace (pow2 (-52)) with (2 * pow2 (-53)) by (change 2 with (pow2 1); rewrite <- bpow_plus; reflexivity). lra.
Qed.
(** exp is at most 4^x *)
Lemma exp_4 n : (0 <= n)%Z -> exp (IZR n) <= pow2 (2 * n).
Proof.
  intros H. rewrite <- (Z2Nat.id n H). generalize (Z.to_nat n). clear n H. intros n. induction n as [|n IH]; [cbn; rewrite exp_0; lra|].
  rewrite Nat2Z.inj_succ. unfold Z.succ. rewrite plus_IZR, exp_plus. replace (2 * (Z.of_nat n + 1))%Z with (2 * Z.of_nat n + 2)%Z by lia. rewrite bpow_plus.
  apply Rmult_le_compat; [left; apply exp_pos|left; apply exp_pos|exact IH|]. eapply Rle_trans; [exact exp_le_3|]. change (pow2 2) with 4. lra.
Qed.
Lemma exp_range n x : (0 <= n)%Z -> Rabs x <= IZR n -> pow2 (- (2 * n)) <= exp x <= pow2 (2 * n).
Proof.
  intros Hn H. apply Rabs_le_inv in H. assert (A := exp_4 n Hn). split.
  - rewrite bpow_opp. apply Rle_trans with (exp (- IZR n)); [|apply exp_le_iff; lra]. rewrite exp_Ropp. apply Rinv_le_contravar; [apply exp_pos|exact A].
  - eapply Rle_trans; [|exact A]. apply exp_le_iff. lra.
Qed.
Lemma exp_2 n : (0 <= n)%Z -> pow2 n <= exp (IZR n).
Proof.
  intros H. rewrite <- (Z2Nat.id n H). generalize (Z.to_nat n). clear n H. intros n. induction n as [|n IH]; [cbn; rewrite exp_0; lra|].
  rewrite Nat2Z.inj_succ. unfold Z.succ. rewrite plus_IZR, exp_plus, bpow_plus.
  apply Rmult_le_compat; [apply bpow_ge_0|apply bpow_ge_0|exact IH|]. assert (A := exp_ge_1p 1). change (pow2 1) with 2. lra.
Qed.
Lemma ln_range n x : (0 <= n)%Z -> pow2 (- n) <= x <= pow2 n -> Rabs (ln x) <= IZR n.
Proof.
  intros Hn [H1 H2]. assert (P := bpow_gt_0 radix2 (- n)). assert (A := exp_2 n Hn). assert (Hx : 0 < x) by lra. apply Rabs_le. split.
  - rewrite <- (ln_exp (- IZR n)). apply ln_le_iff; [apply exp_pos|exact Hx|]. eapply Rle_trans; [|exact H1]. rewrite exp_Ropp, bpow_opp. apply Rinv_le_contravar; [apply bpow_gt_0|exact A].
  - rewrite <- (ln_exp (IZR n)). apply ln_le_iff; [exact Hx|apply exp_pos|lra].
Qed.

(** one call at a point of size X *)
Section Call.
Variable dot : nat -> (nat -> b64) -> (nat -> b64) -> b64.
Variables fe fl fr : b64 -> b64.
Hypothesis Hd : fdot_any dot.
Hypothesis He : libm_exp fe.
Hypothesis Hl : libm_log fl.
Variables (p sc k : b64) (a v : nat -> b64) (P : profit b64) (X : R).
Hypothesis HR : profit_range p sc k a v X.
Hypothesis HP : profit64_init dot fe fl fr (p, sc, k) a v = Ok P.
Variables (y : nat -> b64) (t : b64).
Hypothesis Hy : point64 X y.
Hypothesis Ht : value64 t.
Notation L := (ln (B2R p * B2R sc) + lin2 (vec64 a) (vec64 y)).
Notation C := (cost (vec64 v) (vec64 y)).

Lemma init_attrs : P = {| pf_log_pA := fl (fmul p sc); pf_log_k := fl k; pf_v := v; pf_a := a |}.
Proof. assert (H := HP). unfold profit64_init, profit_init in H. cbn [nlog FNumT bind nmul FNumD] in H. congruence. Qed.
Lemma size_ay : Rabs (B2R (a 0%nat) * B2R (y 0%nat)) + Rabs (B2R (a 1%nat) * B2R (y 1%nat)) <= 128.
Proof.
  destruct HR as (_ & _ & _ & _ & H & _). rewrite !Rabs_mult. destruct (Hy 0%nat ltac:(lia)) as [_ H0]. destruct (Hy 1%nat ltac:(lia)) as [_ H1].
  assert (Rabs (B2R (a 0%nat)) * Rabs (B2R (y 0%nat)) <= Rabs (B2R (a 0%nat)) * X) by (apply Rmult_le_compat_l; [apply Rabs_pos|exact H0]).
  assert (Rabs (B2R (a 1%nat)) * Rabs (B2R (y 1%nat)) <= Rabs (B2R (a 1%nat)) * X) by (apply Rmult_le_compat_l; [apply Rabs_pos|exact H1]). lra.
Qed.
Lemma L_size : Rabs L <= 256.
Proof.
  assert (A := size_ay). destruct HR as (_ & [_ B] & _). unfold vec64. eapply Rle_trans; [apply Rabs_triang|].
  assert (Cc := Rabs_triang (B2R (a 0%nat) * B2R (y 0%nat)) (B2R (a 1%nat) * B2R (y 1%nat))). lra.
Qed.
Lemma X_nn : 0 <= X. Proof. destruct (Hy 0%nat ltac:(lia)) as [_ H]. assert (A := Rabs_pos (B2R (y 0%nat))). lra. Qed.
Lemma log_pA_ok : is_finite (pf_log_pA P) = true /\ Rabs (B2R (pf_log_pA P) - ln (B2R p * B2R sc)) <= 260 * u51.
Proof.
  rewrite init_attrs. cbn [pf_log_pA]. destruct HR as ((Fp & Fs & _) & [Hp Hb] & _). assert (U := u51_bounds).
  assert (E := exp_range 128 _ ltac:(lia) Hb). rewrite exp_ln in E by exact Hp. change (- (2 * 128))%Z with (-256)%Z in E. change (2 * 128)%Z with 256%Z in E.
  destruct (fmul_rnd p sc Fp Fs) as [Em Fm]. { rewrite Rabs_right by lra. eapply Rle_trans; [apply E|apply bpow_le; lia]. }
  assert (N := near_rnd (B2R p * B2R sc) ltac:(eapply Rle_trans; [|apply E]; apply bpow_le; lia)). rewrite <- Em in N. destruct N as (N1 & _ & N3).
  destruct (Hl (fmul p sc) Fm N1) as [Fl El]. split; [exact Fl|].
  apply Rabs_le_inv in N3, Hb. assert (B1 : Rabs (ln (B2R (fmul p sc))) <= 129) by (apply Rabs_le; lra).
  assert (P50 : pow2 (-50) = 2 * u51) by (change 2 with (pow2 1); rewrite <- bpow_plus; reflexivity). rewrite P50 in El. assert (P1000 : pow2 (-1000) <= u51) by (apply bpow_le; lia).
  assert (B2 : 2 * u51 * Rabs (ln (B2R (fmul p sc))) <= 2 * u51 * 129) by (apply Rmult_le_compat_l; lra).
  assert (B3 : Rabs (B2R (fl (fmul p sc)) - ln (B2R (fmul p sc))) <= 259 * u51) by lra. apply Rabs_le_inv in B3. apply Rabs_le. lra.
Qed.
Lemma log_k_ok : is_finite (pf_log_k P) = true /\ Rabs (B2R (pf_log_k P) - ln (B2R k)) <= 514 * u51.
Proof.
  rewrite init_attrs. cbn [pf_log_k]. destruct HR as ((_ & _ & Fk & _) & _ & [Hk Hb] & _). destruct (Hl k Fk Hk) as [Fl El]. split; [exact Fl|]. assert (U := u51_bounds).
  assert (P50 : pow2 (-50) = 2 * u51) by (change 2 with (pow2 1); rewrite <- bpow_plus; reflexivity). rewrite P50 in El. assert (P1000 : pow2 (-1000) <= u51) by (apply bpow_le; lia).
  assert (B2 : 2 * u51 * Rabs (ln (B2R k)) <= 2 * u51 * 256) by (apply Rmult_le_compat_l; lra). lra.
Qed.
Definition lC : b64 := fadd (pf_log_pA P) (dot 2 a y).
Lemma lC_ok : is_finite lC = true /\ Rabs (B2R lC - L) <= 1024 * u51.
Proof.
  destruct log_pA_ok as [F1 E1]. assert (S := size_ay). assert (U := u51_bounds). destruct HR as ((_ & _ & _ & Fa) & [_ Hb] & _).
  assert (S' : rsum 2 (fun i => Rabs (B2R (a i) * B2R (y i))) <= 128) by (cbn [rsum]; lra).
  destruct (fdot_bounded dot 2 a y Hd ltac:(lia)) as [F2 E2].
  { intros i Hi. split; [apply Fa, Hi|apply Hy, Hi]. } { eapply Rle_trans; [exact S'|]. change 128 with (pow2 7). apply bpow_le. lia. }
  assert (E3 : Rabs (B2R (dot 2%nat a y) - rsum 2 (fun i => B2R (a i) * B2R (y i))) <= 256 * u51).
  { eapply Rle_trans; [exact E2|]. change (INR 2) with 2. assert (P52 : u51 = 2 * pow2 (-52)) by (change 2 with (pow2 1); rewrite <- bpow_plus; reflexivity). rewrite <- P52.
    assert (A : u51 * rsum 2 (fun i => Rabs (B2R (a i) * B2R (y i))) <= u51 * 128) by (apply Rmult_le_compat_l; lra).
    assert (B : pow2 (-1073) <= u51) by (apply bpow_le; lia). lra. }
  assert (E4 : rsum 2 (fun i => B2R (a i) * B2R (y i)) = lin2 (vec64 a) (vec64 y)) by (cbn [rsum]; unfold vec64; ring). rewrite E4 in E3.
  assert (LS := L_size). set (l1 := ln (B2R p * B2R sc)) in *. set (l2 := lin2 (vec64 a) (vec64 y)) in *.
  assert (B0 : Rabs (B2R (pf_log_pA P) + B2R (dot 2%nat a y) - (l1 + l2)) <= 516 * u51) by (apply Rabs_le_inv in E1, E3; apply Rabs_le; lra).
  assert (B1 : Rabs (B2R (pf_log_pA P) + B2R (dot 2%nat a y)) <= 257) by (apply Rabs_le_inv in LS, B0; apply Rabs_le; lra).
  destruct (fadd_rnd _ _ F1 F2) as [E5 F5]. { eapply Rle_trans; [exact B1|]. apply Rle_trans with (pow2 9); [change (pow2 9) with 512; lra|apply bpow_le; lia]. }
  unfold lC. split; [exact F5|]. rewrite E5. assert (Rr := rnd_rel (B2R (pf_log_pA P) + B2R (dot 2%nat a y))).
  assert (P53 : u51 = 4 * pow2 (-53)) by (change 4 with (pow2 2); rewrite <- bpow_plus; reflexivity). assert (P53' : 0 < pow2 (-53)) by apply bpow_gt_0.
  assert (B : pow2 (-1075) <= u51) by (apply bpow_le; lia).
  assert (R2 : pow2 (-53) * Rabs (B2R (pf_log_pA P) + B2R (dot 2%nat a y)) <= pow2 (-53) * 257) by (apply Rmult_le_compat_l; lra).
  apply Rabs_le_inv in B0. assert (R3 : Rabs (rnd (B2R (pf_log_pA P) + B2R (dot 2%nat a y)) - (B2R (pf_log_pA P) + B2R (dot 2%nat a y))) <= 66 * u51) by lra.
  apply Rabs_le_inv in R3. apply Rabs_le. lra.
Qed.
Definition q64 (i : nat) : b64 := fmul (v i) (fe (y i)).
Definition vx64 : b64 := fadd (q64 0) (q64 1).
Definition te64 : b64 := fadd t vx64.
Lemma exp_near (x : b64) : is_finite x = true -> Rabs (B2R x) <= 300 -> is_finite (fe x) = true /\ ln_near (4 * u51) (B2R (fe x)) (exp (B2R x)).
Proof.
  intros F B. destruct (He x F B) as [F1 E1]. split; [exact F1|]. replace (4 * u51) with (2 * pow2 (-50)) by (change 4 with (pow2 2); change 2 with (pow2 1); rewrite <- !bpow_plus; reflexivity).
  apply abs_near; [apply exp_pos|exact E1|change (/ 2) with (pow2 (-1)); apply bpow_le; lia].
Qed.
Lemma near_bounds e x z lo hi : ln_near e x z -> e <= / 2 -> lo <= z <= hi -> lo / 2 <= x <= 2 * hi.
Proof.
  intros N H [Z1 Z2]. apply near_exp in N as (Zp & N1 & N2). assert (A := exp_ge_1p (- e)). assert (E0 : exp (- e) >= / 2) by lra.
  assert (B : exp e <= 2). { destruct (Rle_dec 0 e); [assert (B := exp_up e (conj r H)); lra|]. apply Rle_trans with (exp 0); [apply exp_le_iff; lra|rewrite exp_0; lra]. }
  assert (z * / 2 <= z * exp (- e)) by (apply Rmult_le_compat_l; lra). assert (z * exp e <= z * 2) by (apply Rmult_le_compat_l; lra). lra.
Qed.
Lemma q_size i : (i < 2)%nat -> pow2 (-356) <= vec64 v i * exp (vec64 y i) <= pow2 356.
Proof.
  intros Hi. destruct HR as (_ & _ & _ & Hv & _ & HX). destruct (Hv i Hi) as [_ [V1 V2]]. destruct (Hy i Hi) as [_ Y1].
  assert (E := exp_range 128 (B2R (y i)) ltac:(lia) ltac:(lra)). change (- (2 * 128))%Z with (-256)%Z in E. change (2 * 128)%Z with 256%Z in E. unfold vec64.
  assert (A1 := bpow_gt_0 radix2 (-100)). assert (A2 := bpow_gt_0 radix2 (-256)).
  split; [change (-356)%Z with (-100 + -256)%Z|change 356%Z with (100 + 256)%Z]; rewrite bpow_plus; apply Rmult_le_compat; lra.
Qed.
Lemma q_ok i : (i < 2)%nat -> is_finite (q64 i) = true /\ ln_near (5 * u51) (B2R (q64 i)) (vec64 v i * exp (vec64 y i)).
Proof.
  intros Hi. assert (U := u51_bounds). destruct HR as ((_ & _ & _ & Fa) & _ & _ & Hv & _ & HX). destruct (Hv i Hi) as [_ [V1 V2]]. destruct (Hy i Hi) as [F1 Y1]. destruct (Fa i Hi) as [_ Fv].
  destruct (exp_near (y i) F1 ltac:(lra)) as [F2 N2]. assert (Vp : 0 < B2R (v i)) by (assert (A1 := bpow_gt_0 radix2 (-100)); lra).
  assert (N3 := near_mul _ _ _ _ _ _ (near_refl _ Vp) N2). assert (QS := q_size i Hi). unfold vec64 in QS |- *.
  assert (B := near_bounds _ _ _ _ _ N3 ltac:(lra) QS). assert (A3 := bpow_gt_0 radix2 (-356)).
  assert (B1 : pow2 (-357) = pow2 (-356) / 2) by (change (-357)%Z with (-356 + -1)%Z; rewrite bpow_plus; reflexivity). assert (B2 : pow2 357 = 2 * pow2 356) by (change 357%Z with (1 + 356)%Z; rewrite bpow_plus; reflexivity).
  destruct (fmul_rnd (v i) (fe (y i)) Fv F2) as [E4 F4]. { rewrite Rabs_right by lra. apply Rle_trans with (pow2 357); [lra|apply bpow_le; lia]. }
  unfold q64. split; [exact F4|]. rewrite E4.
  assert (N4 := near_rnd (B2R (v i) * B2R (fe (y i))) ltac:(apply Rle_trans with (pow2 (-357)); [apply bpow_le; lia|lra])).
  eapply near_le; [exact (near_trans _ _ _ _ _ N4 N3)|lra].
Qed.
Lemma C_size : pow2 (-356) <= C <= pow2 357.
Proof.
  assert (A0 := q_size 0 ltac:(lia)). assert (A1 := q_size 1 ltac:(lia)). assert (A3 := bpow_gt_0 radix2 (-356)). assert (B2 : pow2 357 = 2 * pow2 356) by (change 357%Z with (1 + 356)%Z; rewrite bpow_plus; reflexivity).
  lra.
Qed.
Lemma vx_ok : is_finite vx64 = true /\ ln_near (6 * u51) (B2R vx64) C.
Proof.
  assert (U := u51_bounds). destruct (q_ok 0 ltac:(lia)) as [F0 N0]. destruct (q_ok 1 ltac:(lia)) as [F1 N1]. assert (N := near_add _ _ _ _ _ N0 N1).
  assert (B := near_bounds _ _ _ _ _ N ltac:(lra) C_size). assert (A3 := bpow_gt_0 radix2 (-356)).
  assert (B1 : pow2 (-357) = pow2 (-356) / 2) by (change (-357)%Z with (-356 + -1)%Z; rewrite bpow_plus; reflexivity). assert (B2 : pow2 358 = 2 * pow2 357) by (change 358%Z with (1 + 357)%Z; rewrite bpow_plus; reflexivity).
  destruct (fadd_rnd _ _ F0 F1) as [E4 F4]. { rewrite Rabs_right by lra. apply Rle_trans with (pow2 358); [lra|apply bpow_le; lia]. }
  unfold vx64. split; [exact F4|]. rewrite E4.
  assert (N4 := near_rnd (B2R (q64 0) + B2R (q64 1)) ltac:(apply Rle_trans with (pow2 (-357)); [apply bpow_le; lia|lra])).
  eapply near_le; [exact (near_trans _ _ _ _ _ N4 N)|lra].
Qed.
Lemma te_size : pow2 (-356) <= B2R t + C <= pow2 601.
Proof.
  destruct Ht as [_ [T1 T2]]. assert (A := C_size). assert (pow2 357 <= pow2 600) by (apply bpow_le; lia). assert (pow2 601 = 2 * pow2 600) by (change 601%Z with (1 + 600)%Z; rewrite bpow_plus; reflexivity). lra.
Qed.
Lemma te_ok : is_finite te64 = true /\ ln_near (7 * u51) (B2R te64) (B2R t + C).
Proof.
  assert (U := u51_bounds). destruct vx_ok as [F0 N0]. destruct Ht as [F1 [T1 T2]]. assert (N := near_addl _ _ _ _ T1 N0).
  assert (B := near_bounds _ _ _ _ _ N ltac:(lra) te_size). assert (A3 := bpow_gt_0 radix2 (-356)).
  assert (B1 : pow2 (-357) = pow2 (-356) / 2) by (change (-357)%Z with (-356 + -1)%Z; rewrite bpow_plus; reflexivity). assert (B2 : pow2 602 = 2 * pow2 601) by (change 602%Z with (1 + 601)%Z; rewrite bpow_plus; reflexivity).
  destruct (fadd_rnd t vx64 F1 F0) as [E4 F4]. { rewrite Rabs_right by lra. apply Rle_trans with (pow2 602); [lra|apply bpow_le; lia]. }
  unfold te64. split; [exact F4|]. rewrite E4.
  assert (N4 := near_rnd (B2R t + B2R vx64) ltac:(apply Rle_trans with (pow2 (-357)); [apply bpow_le; lia|lra])).
  eapply near_le; [exact (near_trans _ _ _ _ _ N4 N)|lra].
Qed.
Lemma lte_ok : is_finite (fl te64) = true /\ Rabs (B2R (fl te64) - ln (B2R t + C)) <= 1216 * u51 /\ Rabs (ln (B2R t + C)) <= 601.
Proof.
  assert (U := u51_bounds). destruct te_ok as [F1 (N1 & N2 & N3)]. assert (TS := te_size).
  assert (B : Rabs (ln (B2R t + C)) <= 601). { apply (ln_range 601); [lia|]. split; [|apply TS]. eapply Rle_trans; [|apply TS]. apply bpow_le. lia. }
  destruct (Hl te64 F1 N1) as [F2 E2]. split; [exact F2|]. split; [|exact B].
  apply Rabs_le_inv in N3, B. assert (B1 : Rabs (ln (B2R te64)) <= 602) by (apply Rabs_le; lra).
  assert (P50 : pow2 (-50) = 2 * u51) by (change 2 with (pow2 1); rewrite <- bpow_plus; reflexivity). rewrite P50 in E2. assert (P1000 : pow2 (-1000) <= u51) by (apply bpow_le; lia).
  assert (B2 : 2 * u51 * Rabs (ln (B2R te64)) <= 2 * u51 * 602) by (apply Rmult_le_compat_l; lra).
  assert (B3 : Rabs (B2R (fl te64) - ln (B2R te64)) <= 1205 * u51) by lra. apply Rabs_le_inv in B3. apply Rabs_le. lra.
Qed.
(** log te - log_Cobb *)
Definition fj64 : b64 := fsub (fl te64) lC.
Lemma fj_ok : is_finite fj64 = true /\ Rabs (B2R fj64 - (ln (B2R t + C) - L)) <= 2560 * u51.
Proof.
  assert (U := u51_bounds). destruct lte_ok as (F1 & E1 & S1). destruct lC_ok as [F2 E2]. assert (S2 := L_size).
  set (l1 := ln (B2R t + C)) in *. set (l2 := L) in *. apply Rabs_le_inv in E1, E2, S1, S2.
  assert (B1 : Rabs (B2R (fl te64) - B2R lC) <= 858) by (apply Rabs_le; lra).
  destruct (fsub_rnd _ _ F1 F2) as [E5 F5]. { eapply Rle_trans; [exact B1|]. apply Rle_trans with (pow2 10); [change (pow2 10) with 1024; lra|apply bpow_le; lia]. }
  unfold fj64. split; [exact F5|]. rewrite E5. assert (Rr := rnd_rel (B2R (fl te64) - B2R lC)).
  assert (P53 : u51 = 4 * pow2 (-53)) by (change 4 with (pow2 2); rewrite <- bpow_plus; reflexivity). assert (P53' : 0 < pow2 (-53)) by apply bpow_gt_0.
  assert (B : pow2 (-1075) <= u51) by (apply bpow_le; lia).
  assert (R2 : pow2 (-53) * Rabs (B2R (fl te64) - B2R lC) <= pow2 (-53) * 858) by (apply Rmult_le_compat_l; lra).
  assert (R3 : Rabs (rnd (B2R (fl te64) - B2R lC) - (B2R (fl te64) - B2R lC)) <= 216 * u51) by lra.
  apply Rabs_le_inv in R3. apply Rabs_le. lra.
Qed.
Lemma fj_neg : Bltb fj64 fzero = true -> ln (B2R t + C) - L <= 2240 * u51.
Proof.
  intros H. destruct lte_ok as (F1 & E1 & S1). destruct lC_ok as [F2 E2]. destruct fj_ok as [F3 _].
  rewrite (f64_ltb fj64 fzero F3 eq_refl) in H. change (B2R fzero) with 0 in H.
  assert (Hn : B2R fj64 < 0) by (destruct (Rlt_bool_spec (B2R fj64) 0); [assumption|discriminate]). 
  destruct (fsub_fin _ _ F3) as (_ & _ & E). apply Rabs_le_inv in E1, E2.
  assert (B2R (fl te64) < B2R lC). { apply Rnot_le_lt. intros A. assert (0 <= rnd (B2R (fl te64) - B2R lC)) by (apply rnd_nonneg; lra). unfold fj64 in Hn. rewrite E in Hn. lra. }
  lra.
Qed.
(** q / te' - a, for a te' within e of w on the logarithmic scale *)
Lemma grad_ok (te' : b64) w e i : (i < 2)%nat -> is_finite te' = true -> ln_near (e * u51) (B2R te') w -> 0 <= e <= 8192 -> vec64 v i * exp (vec64 y i) / w <= 2 ->
  is_finite (fsub (fdiv (q64 i) te') (a i)) = true /\
  Rabs (B2R (fsub (fdiv (q64 i) te') (a i)) - (vec64 v i * exp (vec64 y i) / w - vec64 a i)) <= (4 * e + 128) * u51.
Proof.
  intros Hi F1 N1 E0 W. assert (U := u51_bounds). destruct (q_ok i Hi) as [F2 N2]. assert (N3 := near_div _ _ _ _ _ _ N2 N1).
  destruct HR as ((_ & _ & _ & Fa) & _ & _ & Hv & _). destruct (Hv i Hi) as [Ha _]. destruct (Fa i Hi) as [F3 _].
  assert (Eu : e * u51 <= 8192 * u51) by (apply Rmult_le_compat_r; lra). assert (E0u : 0 <= e * u51) by (apply Rmult_le_pos; lra).
  set (r := vec64 v i * exp (vec64 y i) / w) in *. assert (R0 : 0 < r) by apply N3.
  assert (A := near_abs _ _ _ N3 ltac:(lra)). assert (A' : Rabs (B2R (q64 i) / B2R te' - r) <= (20 + 4 * e) * u51).
  { eapply Rle_trans; [exact A|]. assert (0 <= (2 - r) * (2 * (5 * u51 + e * u51))) by (apply Rmult_le_pos; lra). lra. }
  clear A. assert (T0 : B2R te' <> 0) by (destruct N1 as (N1 & _); lra). set (x := B2R (q64 i) / B2R te') in *. apply Rabs_le_inv in A'.
  assert (X1 : Rabs x <= 3) by (apply Rabs_le; lra).
  destruct (fdiv_rnd (q64 i) te' F2 T0) as [E4 F4]. { fold x. eapply Rle_trans; [exact X1|]. apply Rle_trans with (pow2 2); [change (pow2 2) with 4; lra|apply bpow_le; lia]. }
  fold x in E4. assert (Rr := rnd_rel x). rewrite <- E4 in Rr.
  assert (P53 : u51 = 4 * pow2 (-53)) by (change 4 with (pow2 2); rewrite <- bpow_plus; reflexivity). assert (P53' : 0 < pow2 (-53)) by apply bpow_gt_0.
  assert (B : pow2 (-1075) <= u51) by (apply bpow_le; lia). assert (R2 : pow2 (-53) * Rabs x <= pow2 (-53) * 3) by (apply Rmult_le_compat_l; lra).
  assert (R3 : Rabs (B2R (fdiv (q64 i) te') - x) <= 2 * u51) by lra. clear Rr R2. apply Rabs_le_inv in R3.
  set (d := B2R (fdiv (q64 i) te')) in *. apply Rabs_le_inv in Ha, X1. assert (D1 : Rabs (d - B2R (a i)) <= 260) by (apply Rabs_le; lra).
  destruct (fsub_rnd _ _ F4 F3) as [E5 F5]. { fold d. eapply Rle_trans; [exact D1|]. apply Rle_trans with (pow2 9); [change (pow2 9) with 512; lra|apply bpow_le; lia]. }
  split; [exact F5|]. rewrite E5. fold d. assert (Rr := rnd_rel (d - B2R (a i))).
  assert (R2 : pow2 (-53) * Rabs (d - B2R (a i)) <= pow2 (-53) * 260) by (apply Rmult_le_compat_l; lra).
  assert (R4 : Rabs (rnd (d - B2R (a i)) - (d - B2R (a i))) <= 66 * u51) by lra. apply Rabs_le_inv in R4. unfold vec64 in *. apply Rabs_le. fold r. lra.
Qed.
Lemma pow_u (j n : Z) : (j = -51 + n)%Z -> pow2 j = pow2 n * u51.
Proof. intros ->. rewrite bpow_plus. ring. Qed.
Lemma call_spec :
  match profit64_call dot fe fl fr P y t with
  | Ok ((g, f), t1) => (forall i, (i < 2)%nat -> is_finite (g i) = true) /\ is_finite f = true /\ 0 <= B2R f <= 1024 /\
    ((ln (B2R k) - 514 * u51 < vec64 y 0%nat /\ t1 = None /\ B2R (g 0%nat) = 1 /\ B2R (g 1%nat) = 0 /\ B2R f <= vec64 y 0%nat - ln (B2R k) + 1024 * u51) \/
     (vec64 y 0%nat <= ln (B2R k) + 514 * u51 /\ exists tau, 0 <= tau /\
      (forall i, (i < 2)%nat -> Rabs (B2R (g i) - (vec64 v i * exp (vec64 y i) / (tau + C) - vec64 a i)) <= pow2 (-37)) /\
      B2R f <= ln (tau + C) - L + 4096 * u51 /\
      match t1 with
      | Some s => is_finite s = true /\ Rabs (B2R s - (exp L - C)) <= pow2 (-39) * exp L /\ B2R t <= B2R s + pow2 (-38) * exp L /\ tau <= B2R s + pow2 (-38) * exp L
      | None => tau = B2R t /\ exp L - C <= B2R t + pow2 (-38) * (B2R t + C)
      end))
  | Raise _ => False
  end.
Proof.
  assert (U := u51_bounds). unfold profit64_call, profit_call. cbn [nadd nsub nmul nzero none nltb ndot nexp nlog FNumD FNumT].
  destruct log_k_ok as [Fk Ek]. destruct (Hy 0%nat ltac:(lia)) as [Fy By]. assert (HX := X_nn).
  assert (Ev : pf_v P = v) by (rewrite init_attrs; reflexivity). assert (Ea : pf_a P = a) by (rewrite init_attrs; reflexivity). rewrite Ev, Ea.
  assert (P53 : u51 = 4 * pow2 (-53)) by (change 4 with (pow2 2); rewrite <- bpow_plus; reflexivity). assert (P53' : 0 < pow2 (-53)) by apply bpow_gt_0.
  assert (P75 : pow2 (-1075) <= u51) by (apply bpow_le; lia).
  destruct HR as (_ & _ & [_ Bk] & _ & _ & BX). apply Rabs_le_inv in Ek, Bk, By. fold (vec64 y 0%nat) in By.
  destruct (Bltb fzero (fsub (y 0%nat) (pf_log_k P))) eqn:B0.
  { apply (fsub_pos _ _ Fy Fk) in B0. fold (vec64 y 0%nat) in B0.
    assert (S1 : Rabs (vec64 y 0%nat - B2R (pf_log_k P)) <= 386) by (apply Rabs_le; lra).
    destruct (fsub_rnd _ _ Fy Fk) as [E5 F5]. { fold (vec64 y 0%nat). eapply Rle_trans; [exact S1|]. apply Rle_trans with (pow2 9); [change (pow2 9) with 512; lra|apply bpow_le; lia]. }
    fold (vec64 y 0%nat) in E5. assert (Rr := rnd_rel (vec64 y 0%nat - B2R (pf_log_k P))).
    assert (R2 : pow2 (-53) * Rabs (vec64 y 0%nat - B2R (pf_log_k P)) <= pow2 (-53) * 386) by (apply Rmult_le_compat_l; lra).
    assert (R3 : Rabs (rnd (vec64 y 0%nat - B2R (pf_log_k P)) - (vec64 y 0%nat - B2R (pf_log_k P))) <= 100 * u51) by lra. rewrite <- E5 in R3. apply Rabs_le_inv in R3, S1.
    assert (Nn : 0 <= B2R (fsub (y 0%nat) (pf_log_k P))) by (rewrite E5; apply rnd_nonneg; lra).
    split; [intros i Hi; destruct i as [|[|i]]; [reflexivity|reflexivity|lia]|]. split; [exact F5|]. split; [lra|]. left.
    split; [lra|]. split; [reflexivity|]. split; [exact (proj1 fone)|]. split; [reflexivity|]. lra. }
  assert (Yk : vec64 y 0%nat <= B2R (pf_log_k P)). { apply Rnot_lt_le. intros A. apply (fsub_pos _ _ Fy Fk) in A. congruence. }
  cbn [bind]. change (fadd (fmul (v 0%nat) (fe (y 0%nat))) (fmul (v 1%nat) (fe (y 1%nat)))) with vx64. change (fadd t vx64) with te64. change (fadd (pf_log_pA P) (dot 2%nat a y)) with lC. change (fsub (fl te64) lC) with fj64.
  destruct fj_ok as [Ff Ef]. destruct lC_ok as [FL EL]. destruct vx_ok as [Fv Nv]. destruct te_ok as [Ft Nt]. assert (CS := C_size). assert (LS := L_size). destruct Ht as (Ftt & T0 & T1). destruct lte_ok as (_ & _ & TL).
  assert (Cp : 0 < C) by (assert (A := bpow_gt_0 radix2 (-356)); lra).
  assert (RAT : forall w i, (i < 2)%nat -> C <= w -> vec64 v i * exp (vec64 y i) / w <= 2).
  { intros w i Hi Hw. assert (Q0 := q_size 0 ltac:(lia)). assert (Q1 := q_size 1 ltac:(lia)). assert (A := bpow_gt_0 radix2 (-356)). apply Rmult_le_reg_r with w; [lra|]. unfold Rdiv. rewrite Rmult_assoc, Rinv_l, Rmult_1_r by lra.
    destruct i as [|[|i]]; [| |lia]; lra. }
  assert (W37 : pow2 (-37) = 16384 * u51) by (apply (pow_u (-37) 14); lia). assert (W38 : pow2 (-38) = 8192 * u51) by (apply (pow_u (-38) 13); lia). assert (W39 : pow2 (-39) = 4096 * u51) by (apply (pow_u (-39) 12); lia).
  assert (Rp := exp_pos L). set (Lr := L) in *. set (Cr := C) in *. set (Rr := exp Lr) in *.
  destruct (Bltb fj64 fzero) eqn:B1.
  - assert (HN := fj_neg B1). fold Cr Lr in HN.
    apply Rabs_le_inv in EL, LS. destruct (exp_near lC FL) as [FE NE]. { apply Rabs_le. lra. }
    assert (NE2 : ln_near (1028 * u51) (B2R (fe lC)) Rr). { apply near_le with (4 * u51 + 1024 * u51); [|lra]. apply near_trans with (1 := NE). split; [apply exp_pos|]. split; [exact Rp|]. unfold Rr. rewrite !ln_exp. apply Rabs_le. lra. }
    assert (TE0 : B2R (fe lC) <> 0) by (destruct NE as (A & _); lra).
    unfold grad2. cbn [ndiv FNumD bind]. rewrite !(fdivr_ok _ _ FE TE0). cbn [bind nsub FNumD].
    assert (CR : Cr <= Rr * exp (2240 * u51)).
    { assert (A : ln Cr <= ln (B2R t + Cr)) by (apply ln_le_iff; lra). rewrite <- (exp_ln Cr) by exact Cp. unfold Rr. rewrite <- exp_plus. apply exp_le_iff. lra. }
    assert (TR : B2R t + Cr <= Rr * exp (2240 * u51)).
    { rewrite <- (exp_ln (B2R t + Cr)) by lra. unfold Rr. rewrite <- exp_plus. apply exp_le_iff. lra. }
    assert (EU := exp_up (2240 * u51) ltac:(lra)). assert (XU : Rr * exp (2240 * u51) <= Rr * (1 + 4480 * u51)) by (apply Rmult_le_compat_l; lra).
    assert (U4 : Rr * (4480 * u51) <= Rr * 1) by (apply Rmult_le_compat_l; lra).
    assert (A1 := near_abs _ _ _ NE2 ltac:(lra)). assert (A2 := near_abs _ _ _ Nv ltac:(lra)). fold Cr in A2.
    assert (UC : u51 * Cr <= u51 * (2 * Rr)) by (apply Rmult_le_compat_l; lra). assert (UR : 0 < u51 * Rr) by (apply Rmult_lt_0_compat; lra).
    assert (A1' : Rabs (B2R (fe lC) - Rr) <= 2056 * (u51 * Rr)) by lra. assert (A2' : Rabs (B2R vx64 - Cr) <= 24 * (u51 * Rr)) by lra. clear A1 A2. apply Rabs_le_inv in A1', A2'.
    assert (UR1 : u51 * Rr <= / 4096 * Rr) by (apply Rmult_le_compat_r; lra).
    assert (SB : Rabs (B2R (fe lC) - B2R vx64) <= 4 * Rr) by (apply Rabs_le; lra).
    assert (RS := exp_range 256 Lr ltac:(lia) ltac:(apply Rabs_le; lra)). fold Rr in RS. change (- (2 * 256))%Z with (-512)%Z in RS. change (2 * 256)%Z with 512%Z in RS.
    destruct (fsub_rnd _ _ FE Fv) as [Es Fs]. { eapply Rle_trans; [exact SB|]. apply Rle_trans with (4 * pow2 512); [lra|]. change 4 with (pow2 2). rewrite <- bpow_plus. apply bpow_le. lia. }
    assert (Er := rnd_rel (B2R (fe lC) - B2R vx64)). rewrite <- Es in Er.
    assert (R2 : pow2 (-53) * Rabs (B2R (fe lC) - B2R vx64) <= pow2 (-53) * (4 * Rr)) by (apply Rmult_le_compat_l; lra).
    assert (R75 : pow2 (-1075) <= u51 * Rr). { apply Rle_trans with (u51 * pow2 (-512)); [rewrite <- bpow_plus; apply bpow_le; lia|apply Rmult_le_compat_l; lra]. }
    assert (R4 : pow2 (-53) * (4 * Rr) = u51 * Rr) by (rewrite P53; ring).
    assert (R3 : Rabs (B2R (fsub (fe lC) vx64) - (B2R (fe lC) - B2R vx64)) <= 2 * (u51 * Rr)) by lra. clear Er R2. apply Rabs_le_inv in R3.
    set (tau := Rmax (Rr - Cr) 0).
    assert (W1 : Cr <= tau + Cr) by (unfold tau; assert (A := Rmax_r (Rr - Cr) 0); lra).
    assert (NW : ln_near (3268 * u51) (B2R (fe lC)) (tau + Cr)).
    { unfold tau, Rmax. destruct (Rle_dec (Rr - Cr) 0) as [r|r].
      - apply near_le with (1028 * u51 + 2240 * u51); [|lra]. apply near_trans with (1 := NE2). apply near_exp. split; [lra|]. split; [|rewrite Rplus_0_l; assert (Cr * 1 <= Cr * exp (2240 * u51)) by (apply Rmult_le_compat_l; [lra|rewrite <- exp_0; apply exp_le_iff; lra]); lra].
        rewrite Rplus_0_l, exp_Ropp. apply Rmult_le_reg_r with (exp (2240 * u51)); [apply exp_pos|]. rewrite Rmult_assoc, Rinv_l, Rmult_1_r by (assert (A := exp_pos (2240 * u51)); lra). exact CR.
      - replace (Rr - Cr + Cr) with Rr by ring. eapply near_le; [exact NE2|lra]. }
    assert (GO : forall i, (i < 2)%nat -> is_finite (fsub (fdiv (q64 i) (fe lC)) (a i)) = true /\
       Rabs (B2R (fsub (fdiv (q64 i) (fe lC)) (a i)) - (vec64 v i * exp (vec64 y i) / (tau + Cr) - vec64 a i)) <= pow2 (-37)).
    { intros i Hi. destruct (grad_ok (fe lC) (tau + Cr) 3268 i Hi FE NW ltac:(lra) (RAT _ i Hi W1)) as [G1 G2]. split; [exact G1|]. rewrite W37. lra. }
    destruct (GO 0%nat ltac:(lia)) as [G00 G01]. destruct (GO 1%nat ltac:(lia)) as [G10 G11].
    split; [intros i Hi; destruct i as [|[|i]]; [exact G00|exact G10|lia]|]. split; [reflexivity|]. change (B2R fzero) with 0. split; [lra|]. right. split; [lra|].
    exists tau. split; [apply Rmax_r|]. split; [intros i Hi; destruct i as [|[|i]]; [exact G01|exact G11|lia]|].
    split. { assert (ln (Rr) <= ln (tau + Cr)) by (apply ln_le_iff; [exact Rp|lra|]; unfold tau; assert (A := Rmax_l (Rr - Cr) 0); lra). unfold Rr in H. rewrite ln_exp in H. lra. }
    rewrite W38, W39. split; [exact Fs|]. split; [apply Rabs_le; lra|]. split; [lra|].
    unfold tau, Rmax. destruct (Rle_dec (Rr - Cr) 0); lra.
  - destruct Nt as (N1 & N2 & N3). assert (TE0 : B2R te64 <> 0) by lra.
    unfold grad2. cbn [ndiv FNumD bind]. rewrite !(fdivr_ok _ _ Ft TE0). cbn [bind nsub FNumD]. apply Rabs_le_inv in Ef, TL, LS.
    assert (F0 : 0 <= B2R fj64).
    { rewrite (f64_ltb fj64 fzero Ff eq_refl) in B1. change (B2R fzero) with 0 in B1. destruct (Rlt_bool_spec (B2R fj64) 0); [discriminate|assumption]. }
    assert (W1 : Cr <= B2R t + Cr) by lra.
    assert (GO : forall i, (i < 2)%nat -> is_finite (fsub (fdiv (q64 i) te64) (a i)) = true /\
       Rabs (B2R (fsub (fdiv (q64 i) te64) (a i)) - (vec64 v i * exp (vec64 y i) / (B2R t + Cr) - vec64 a i)) <= pow2 (-37)).
    { intros i Hi. destruct (grad_ok te64 (B2R t + Cr) 7 i Hi Ft (conj N1 (conj N2 N3)) ltac:(lra) (RAT _ i Hi W1)) as [G1 G2]. split; [exact G1|]. rewrite W37. lra. }
    destruct (GO 0%nat ltac:(lia)) as [G00 G01]. destruct (GO 1%nat ltac:(lia)) as [G10 G11].
    split; [intros i Hi; destruct i as [|[|i]]; [exact G00|exact G10|lia]|]. split; [exact Ff|]. split; [lra|]. right. split; [lra|].
    exists (B2R t). split; [exact T0|]. split; [intros i Hi; destruct i as [|[|i]]; [exact G01|exact G11|lia]|]. split; [lra|]. split; [reflexivity|].
    assert (A : Rr <= (B2R t + Cr) * exp (2560 * u51)). { rewrite <- (exp_ln (B2R t + Cr)) by lra. unfold Rr. rewrite <- exp_plus. apply exp_le_iff. lra. }
    assert (EU := exp_up (2560 * u51) ltac:(lra)). assert (XU : (B2R t + Cr) * exp (2560 * u51) <= (B2R t + Cr) * (1 + 5120 * u51)) by (apply Rmult_le_compat_l; lra).
    rewrite W38. assert (0 <= u51 * (B2R t + Cr)) by (apply Rmult_le_pos; lra). lra.
Qed.
End Call.
