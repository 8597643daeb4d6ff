(** Error analysis of ell.update with one cut in binary64: the vectors, the matrix and the centre. *)
From Coq Require Import ZArith Reals Lra Lia Bool List Permutation Psatz.
From Flocq Require Import Core.Core IEEE754.BinarySingleNaN.
From Verif Require Import Base M_Drivers M_Ell S_Ell S_LinAlg P_LinAlg M_Float P_Float P_Float2 S_Float P_FSum P_EllCalc P_Ell P_EllF2.
Import ListNotations.
Local Open Scope R_scope.

(** *** The vector part *)
Lemma P51 : pow2 (-51) = / 2 * pow2 (-50). Proof. change (pow2 (-51)) with (/ 2251799813685248). change (pow2 (-50)) with (/ 1125899906842624). lra. Qed.
Lemma P52 : pow2 (-52) = / 4 * pow2 (-50). Proof. change (pow2 (-52)) with (/ 4503599627370496). change (pow2 (-50)) with (/ 1125899906842624). lra. Qed.
Lemma P53 : pow2 (-53) = / 8 * pow2 (-50). Proof. change (pow2 (-53)) with (/ 9007199254740992). change (pow2 (-50)) with (/ 1125899906842624). lra. Qed.
Lemma rsum_bound m f c : (forall k, (k < m)%nat -> f k <= c) -> rsum m f <= INR m * c.
Proof.
  induction m as [|m IH]; intros H; [cbn; lra|]. cbn [rsum]. rewrite S_INR.
  assert (rsum m f <= INR m * c) by (apply IH; intros; apply H; lia). assert (f m <= c) by (apply H; lia). lra.
Qed.
Lemma rsum_absle m f : Rabs (rsum m f) <= rsum m (fun k => Rabs (f k)).
Proof. induction m as [|m IH]; cbn [rsum]; [rewrite Rabs_R0; lra|]. eapply Rle_trans; [apply Rabs_triang|]. lra. Qed.

Section Vec.
Variables (h : R) (dot : nat -> (nat -> b64) -> (nat -> b64) -> b64) (e : ell b64) (g : nat -> b64) (M G : R).
Hypothesis HD : fdot_any dot.
Let n := e_n e.
Let N := IZR (Z.of_nat n).
Hypothesis Hn : (2 <= n)%nat /\ (Z.of_nat n <= 2 ^ 20)%Z.
Let Q : nat -> nat -> R := fun i j => B2R (e_Q e i j).
Let gr : nat -> R := fun i => B2R (g i).
Let kappa := B2R (e_kappa e).
Let omega := bf n Q gr gr.
Hypothesis FQ : forall i j, (i < n)%nat -> (j < n)%nat -> is_finite (e_Q e i j) = true.
Hypothesis Fg : forall i, (i < n)%nat -> is_finite (g i) = true.
Hypothesis Fk : is_finite (e_kappa e) = true.
Hypothesis Hsym : sym n Q.
Hypothesis Hpsd : psd n Q.
Hypothesis BQ : forall i j, (i < n)%nat -> (j < n)%nat -> Rabs (Q i j) <= M.
Hypothesis Bg : forall i, (i < n)%nat -> Rabs (gr i) <= G.
Hypothesis RM : pow2 (-200) <= M <= pow2 200.
Hypothesis RG : pow2 (-200) <= G <= pow2 200.
Hypothesis Rk : pow2 (-200) <= kappa <= pow2 200.
Hypothesis Hom : pow2 (-50) * (N * N * N) * (M * (G * G)) <= h * omega.
Hypothesis Hh1 : h <= / 1024.

Lemma P200 : 0 < pow2 (-200). Proof. apply bpow_gt_0. Qed.
Lemma NV : 2 <= N <= pow2 20.
Proof. unfold N. split; [apply IZR_le; lia|]. change (pow2 20) with (IZR (2 ^ 20)). apply IZR_le. lia. Qed.
Lemma N_INR : INR n = N. Proof. unfold N. apply INR_IZR_INZ. Qed.
Let d := mvr n Q gr.
Let s := sqrt (M * omega).
Let dh (i : nat) : b64 := dot n (e_Q e i) g.
Let omh : b64 := dot n g dh.

Lemma d_abs i : (i < n)%nat -> rsum n (fun k => Rabs (Q i k * gr k)) <= N * (M * G).
Proof.
  intros Hi. rewrite <- N_INR. apply rsum_bound. intros k Hk. rewrite Rabs_mult.
  assert (P := P200). apply Rmult_le_compat; try apply Rabs_pos; auto.
Qed.
Lemma d_big i : (i < n)%nat -> Rabs (d i) <= N * (M * G).
Proof. intros Hi. eapply Rle_trans; [|apply (d_abs i Hi)]. apply rsum_absle. Qed.
Lemma om_nn : 0 <= omega. Proof. apply Hpsd. Qed.
Lemma om_le : omega <= N * N * (M * (G * G)).
Proof.
  apply Rle_trans with (Rabs omega); [apply RRle_abs|]. unfold omega, bf, S_LinAlg.dot. eapply Rle_trans; [apply rsum_absle|].
  replace (N * N * (M * (G * G))) with (N * (G * (N * (M * G)))) by ring. rewrite <- N_INR at 1. apply rsum_bound.
  intros k Hk. rewrite Rabs_mult. apply Rmult_le_compat; try apply Rabs_pos; [apply Bg, Hk|apply (d_big k Hk)].
Qed.
Lemma MG_pos : 0 < M * G /\ 0 < M * (G * G) /\ 0 < M /\ 0 < G.
Proof. assert (P := P200). repeat split; try lra; repeat apply Rmult_lt_0_compat; lra. Qed.
Lemma h_gt : 0 < h.
Proof.
  destruct MG_pos as (P1 & P2 & _). assert (NN := NV). assert (O := om_nn).
  assert (L : 0 < pow2 (-50) * (N * N * N) * (M * (G * G))).
  { apply Rmult_lt_0_compat; [|exact P2]. apply Rmult_lt_0_compat; [apply bpow_gt_0|]. repeat apply Rmult_lt_0_compat; lra. }
  destruct (Rle_lt_dec h 0) as [H|H]; [exfalso|exact H]. nra.
Qed.
Lemma h_lo : pow2 (-50) <= h.
Proof.
  destruct MG_pos as (P1 & P2 & _). assert (NN := NV). assert (O := om_le). assert (HP := h_gt). assert (P50 : 0 < pow2 (-50)) by apply bpow_gt_0.
  assert (X : pow2 (-50) * (N * N * N) * (M * (G * G)) <= h * (N * N * (M * (G * G)))) by (eapply Rle_trans; [exact Hom|]; apply Rmult_le_compat_l; lra).
  assert (Y : 0 < N * N * (M * (G * G))) by (apply Rmult_lt_0_compat; nra).
  assert (Z : pow2 (-50) * N <= h).
  { apply Rmult_le_reg_r with (N * N * (M * (G * G))); [exact Y|]. replace (pow2 (-50) * N * (N * N * (M * (G * G)))) with (pow2 (-50) * (N * N * N) * (M * (G * G))) by ring. exact X. }
  nra.
Qed.
Lemma Hh : pow2 (-50) <= h <= / 1024. Proof. split; [exact h_lo|exact Hh1]. Qed.
Lemma MGG_range : pow2 (-600) <= M * (G * G) <= pow2 600.
Proof.
  assert (P := P200). replace (pow2 (-600)) with (pow2 (-200) * (pow2 (-200) * pow2 (-200))) by (rewrite <- !bpow_plus; reflexivity).
  replace (pow2 600) with (pow2 200 * (pow2 200 * pow2 200)) by (rewrite <- !bpow_plus; reflexivity).
  split; repeat (apply Rmult_le_compat; try lra); apply Rmult_le_pos; lra.
Qed.
Lemma om_range : pow2 (-640) <= omega <= pow2 640.
Proof.
  assert (R := MGG_range). assert (NN := NV). assert (HP := h_gt). assert (P600 : 0 < pow2 (-600)) by apply bpow_gt_0. split.
  - apply Rmult_le_reg_l with h; [exact HP|]. eapply Rle_trans; [|exact Hom].
    apply Rle_trans with (/ 1024 * pow2 (-640)); [apply Rmult_le_compat_r; [apply bpow_ge_0|exact Hh1]|].
    change (/ 1024) with (pow2 (-10)). rewrite <- bpow_plus. change (-10 + -640)%Z with (-50 + -600)%Z. rewrite bpow_plus.
    apply Rmult_le_compat; try apply bpow_ge_0; [|lra]. rewrite <- (Rmult_1_r (pow2 (-50))) at 1. apply Rmult_le_compat_l; [apply bpow_ge_0|].
    assert (4 <= N * N) by nra. nra.
  - eapply Rle_trans; [apply om_le|]. apply Rle_trans with (pow2 20 * pow2 20 * pow2 600); [|rewrite <- !bpow_plus; apply bpow_le; lia].
    apply Rmult_le_compat; try lra; [nra|]. apply Rmult_le_compat; lra.
Qed.
Lemma om_pos : 0 < omega. Proof. assert (0 < pow2 (-640)) by apply bpow_gt_0. assert (X := om_range). lra. Qed.
Lemma s_nn : 0 <= s. Proof. apply sqrt_pos. Qed.
Lemma s_sq : s * s = M * omega.
Proof. apply sqrt_sqrt. destruct MG_pos as (_ & _ & P & _). assert (O := om_pos). nra. Qed.
Lemma s_pos : 0 < s.
Proof. apply sqrt_lt_R0. destruct MG_pos as (_ & _ & P & _). assert (O := om_pos). nra. Qed.
Lemma d_bound i : (i < n)%nat -> Rabs (d i) <= s.
Proof.
  intros Hi. assert (C := cauchy n Q (fun k => if Nat.eqb i k then 1 else 0) gr Hsym Hpsd). rewrite bf_unit_l in C by exact Hi. fold (d i) in C. fold omega in C.
  assert (E : bf n Q (fun k => if Nat.eqb i k then 1 else 0) (fun k => if Nat.eqb i k then 1 else 0) = Q i i).
  { rewrite bf_unit_l by exact Hi. unfold mvr. rewrite dot_comm, dot_unit_l by exact Hi. reflexivity. }
  rewrite E in C. assert (B := BQ i i Hi Hi). assert (O := om_pos). assert (Q i i <= M) by (assert (X := RRle_abs (Q i i)); lra).
  apply Rsqr_incr_0; [|apply Rabs_pos|apply s_nn]. unfold Rsqr. rewrite s_sq, <- Rabs_mult, Rabs_pos_eq by nra. nra.
Qed.
(** the scale of the error of Q g *)
Lemma q_s : pow2 (-50) * (N * N * (M * G)) <= h * s.
Proof.
  destruct MG_pos as (P1 & P2 & PM & PG). assert (NN := NV). assert (HP := h_gt). assert (O := om_pos). assert (OL := om_le).
  assert (SO : sqrt omega * sqrt omega = omega) by (apply sqrt_sqrt; lra). assert (SO0 : 0 < sqrt omega) by (apply sqrt_lt_R0; lra).
  assert (SM : sqrt M * sqrt M = M) by (apply sqrt_sqrt; lra). assert (SM0 : 0 < sqrt M) by (apply sqrt_lt_R0; lra).
  assert (ES : s = sqrt M * sqrt omega) by (unfold s; apply sqrt_mult; lra).
  assert (L : sqrt omega <= N * G * sqrt M).
  { apply Rsqr_incr_0; [|lra|apply Rmult_le_pos; nra]. unfold Rsqr. rewrite SO. replace (N * G * sqrt M * (N * G * sqrt M)) with (N * N * (sqrt M * sqrt M * (G * G))) by ring. rewrite SM. exact OL. }
  apply Rmult_le_reg_r with (N * G); [nra|].
  replace (pow2 (-50) * (N * N * (M * G)) * (N * G)) with (pow2 (-50) * (N * N * N) * (M * (G * G))) by ring.
  eapply Rle_trans; [exact Hom|]. rewrite ES, <- SO at 1. replace (h * (sqrt M * sqrt omega) * (N * G)) with (h * sqrt omega * (N * G * sqrt M)) by ring.
  rewrite <- Rmult_assoc. apply Rmult_le_compat_l; [nra|exact L].
Qed.
Lemma MG_lo : pow2 (-400) <= M * G.
Proof. assert (P := P200). replace (pow2 (-400)) with (pow2 (-200) * pow2 (-200)) by (rewrite <- bpow_plus; reflexivity). apply Rmult_le_compat; lra. Qed.
Lemma d_err i : (i < n)%nat -> is_finite (dh i) = true /\ Rabs (B2R (dh i) - d i) <= pow2 (-51) * (N * N * (M * G)).
Proof.
  intros Hi. assert (A := d_abs i Hi). assert (NN := NV). destruct MG_pos as (P1 & _). assert (ML := MG_lo).
  assert (MGu : M * G <= pow2 400).
  { assert (P := P200). replace (pow2 400) with (pow2 200 * pow2 200) by (rewrite <- bpow_plus; reflexivity). apply Rmult_le_compat; lra. }
  destruct (fdot_bounded dot n (e_Q e i) g HD ltac:(lia)) as [F E].
  - intros k Hk. split; [apply FQ; assumption|apply Fg; assumption].
  - eapply Rle_trans; [exact A|]. apply Rle_trans with (pow2 20 * pow2 400); [apply Rmult_le_compat; lra|rewrite <- bpow_plus; apply bpow_le; lia].
  - split; [exact F|]. eapply Rle_trans; [exact E|]. rewrite N_INR.
    assert (T1 : N * pow2 (-52) * rsum n (fun k => Rabs (Q i k * gr k)) <= N * pow2 (-52) * (N * (M * G))).
    { apply Rmult_le_compat_l; [|exact A]. apply Rmult_le_pos; [lra|apply bpow_ge_0]. }
    assert (T2 : N * pow2 (-1073) <= N * (pow2 (-53) * (M * G))).
    { apply Rmult_le_compat_l; [lra|]. apply Rle_trans with (pow2 (-53) * pow2 (-400)); [rewrite <- bpow_plus; apply bpow_le; lia|apply Rmult_le_compat_l; [apply bpow_ge_0|exact ML]]. }
    assert (T3 : N * (pow2 (-53) * (M * G)) <= N * N * (pow2 (-53) * (M * G))).
    { apply Rmult_le_compat_r; [apply Rmult_le_pos; [apply bpow_ge_0|lra]|nra]. }
    rewrite P51. rewrite P52 in *. rewrite P53 in *.
    assert (0 < N * N * (/ 8 * pow2 (-50) * (M * G))) by (assert (0 < pow2 (-50)) by apply bpow_gt_0; apply Rmult_lt_0_compat; [nra|apply Rmult_lt_0_compat; lra]).
    change (rsum n (fun k => Rabs (B2R (e_Q e i k) * B2R (g k)))) with (rsum n (fun k => Rabs (Q i k * gr k))). lra.
Qed.
Lemma d_err_s i : (i < n)%nat -> Rabs (B2R (dh i) - d i) <= h / 2 * s.
Proof.
  intros Hi. eapply Rle_trans; [apply d_err, Hi|]. assert (X := q_s). rewrite P51.
  replace (/ 2 * pow2 (-50) * (N * N * (M * G))) with (/ 2 * (pow2 (-50) * (N * N * (M * G)))) by ring. lra.
Qed.
Lemma om_err : fra h 1 omh omega.
Proof.
  assert (NN := NV). destruct MG_pos as (P1 & P2 & PM & PG). assert (HP := h_gt). assert (MR := MGG_range).
  assert (DB : forall k, (k < n)%nat -> Rabs (B2R (dh k)) <= 65 / 64 * (N * (M * G))).
  { intros k Hk. destruct (d_err k Hk) as [_ E]. assert (B := d_big k Hk).
    replace (B2R (dh k)) with ((B2R (dh k) - d k) + d k) by ring. eapply Rle_trans; [apply Rabs_triang|].
    assert (pow2 (-51) * (N * N * (M * G)) <= / 64 * (N * (M * G))).
    { replace (pow2 (-51) * (N * N * (M * G))) with (pow2 (-51) * N * (N * (M * G))) by ring. apply Rmult_le_compat_r; [nra|].
      apply Rle_trans with (pow2 (-51) * pow2 20); [apply Rmult_le_compat_l; [apply bpow_ge_0|lra]|].
      rewrite <- bpow_plus. change (/ 64) with (pow2 (-6)). apply bpow_le. lia. }
    lra. }
  assert (A : rsum n (fun k => Rabs (B2R (g k) * B2R (dh k))) <= N * (G * (65 / 64 * (N * (M * G))))).
  { rewrite <- N_INR at 1. apply rsum_bound. intros k Hk. rewrite Rabs_mult. apply Rmult_le_compat; try apply Rabs_pos; [apply Bg, Hk|apply DB, Hk]. }
  assert (EW : N * (G * (65 / 64 * (N * (M * G)))) = 65 / 64 * (N * N * (M * (G * G)))) by ring. rewrite EW in A.
  assert (WU : N * N * (M * (G * G)) <= pow2 640).
  { apply Rle_trans with (pow2 20 * pow2 20 * pow2 600); [|rewrite <- !bpow_plus; apply bpow_le; lia]. apply Rmult_le_compat; try lra; [nra|]. apply Rmult_le_compat; lra. }
  destruct (fdot_bounded dot n g dh HD ltac:(lia)) as [F E].
  - intros k Hk. split; [apply Fg, Hk|apply (d_err k Hk)].
  - eapply Rle_trans; [exact A|]. apply Rle_trans with (pow2 1 * pow2 640); [change (pow2 1) with 2; nra|rewrite <- bpow_plus; apply bpow_le; lia].
  - split; [exact F|]. unfold ra. rewrite N_INR in E.
    set (K := pow2 (-50) * (N * N * N) * (M * (G * G))) in *.
    assert (K0 : 0 < K) by (unfold K; apply Rmult_lt_0_compat; [|exact P2]; apply Rmult_lt_0_compat; [apply bpow_gt_0|repeat apply Rmult_lt_0_compat; lra]).
    assert (E1 : Rabs (B2R omh - rsum n (fun k => B2R (g k) * B2R (dh k))) <= 65 / 256 * K + / 64 * K).
    { eapply Rle_trans; [exact E|]. apply Rplus_le_compat.
      - apply Rle_trans with (N * pow2 (-52) * (65 / 64 * (N * N * (M * (G * G))))); [apply Rmult_le_compat_l; [apply Rmult_le_pos; [lra|apply bpow_ge_0]|exact A]|].
        right. unfold K. rewrite P52. field.
      - apply Rle_trans with (pow2 20 * pow2 (-1073)); [apply Rmult_le_compat_r; [apply bpow_ge_0|lra]|].
        apply Rle_trans with (pow2 (-6) * (pow2 (-50) * 1 * pow2 (-600))).
        + rewrite Rmult_1_r, <- !bpow_plus. apply bpow_le. lia.
        + change (/ 64) with (pow2 (-6)). apply Rmult_le_compat_l; [apply bpow_ge_0|]. unfold K.
          apply Rmult_le_compat; [rewrite Rmult_1_r; apply bpow_ge_0|apply bpow_ge_0| |lra]. apply Rmult_le_compat_l; [apply bpow_ge_0|].
          assert (4 <= N * N) by nra. nra. }
    assert (E2 : Rabs (rsum n (fun k => B2R (g k) * B2R (dh k)) - omega) <= / 2 * K).
    { unfold omega, bf, S_LinAlg.dot. rewrite <- rsum_minus. eapply Rle_trans; [apply rsum_absle|].
      apply Rle_trans with (N * (G * (pow2 (-51) * (N * N * (M * G))))).
      - rewrite <- N_INR at 1. apply rsum_bound. intros k Hk. change (B2R (g k)) with (gr k). change (mvr n Q gr k) with (d k).
        rewrite <- Rmult_minus_distr_l, Rabs_mult. apply Rmult_le_compat; try apply Rabs_pos; [apply Bg, Hk|apply (d_err k Hk)].
      - right. unfold K. rewrite P51. ring. }
    replace (B2R omh - omega) with ((B2R omh - rsum n (fun k => B2R (g k) * B2R (dh k))) + (rsum n (fun k => B2R (g k) * B2R (dh k)) - omega)) by ring.
    eapply Rle_trans; [apply Rabs_triang|]. lra.
Qed.
Lemma T_err : fra h 3 (fmul (e_kappa e) omh) (kappa * omega) /\ pow2 (-850) <= kappa * omega <= pow2 850.
Proof.
  assert (HH := Hh). assert (O := om_range). assert (OP := om_pos). assert (P := P200).
  assert (B : pow2 (-850) <= kappa * omega <= pow2 850).
  { split.
    - apply Rle_trans with (pow2 (-200) * pow2 (-640)); [rewrite <- bpow_plus; apply bpow_le; lia|]. apply Rmult_le_compat; try apply bpow_ge_0; lra.
    - apply Rle_trans with (pow2 200 * pow2 640); [|rewrite <- bpow_plus; apply bpow_le; lia]. apply Rmult_le_compat; lra. }
  split; [|exact B]. replace 3 with (0 + 1 + 2) by ring. apply fra_mul; try lra.
  - apply fra_exact; [exact Fk|fold kappa; lra].
  - exact om_err.
  - assert (pow2 (-1000) <= pow2 (-850)) by (apply bpow_le; lia). assert (pow2 850 <= pow2 1000) by (apply bpow_le; lia). lra.
Qed.

Hypothesis Hp1 : is_finite (e_nPlus1 e) = true /\ B2R (e_nPlus1 e) = N + 1.
Hypothesis Hc1 : fra h 1 (e_c1 e) (N * N / (N * N - 1)).
Hypothesis Hc2 : fra h 1 (e_c2 e) (2 / (N + 1)).
Variables (w : memory b64) (b : b64) (X : R).
Let x (i : nat) : R := B2R (w (e_xc e) i).
Hypothesis Fx : forall i, (i < n)%nat -> is_finite (w (e_xc e) i) = true.
Hypothesis Bx : forall i, (i < n)%nat -> Rabs (x i) <= X.
Hypothesis RX : X <= pow2 1000.
Hypothesis Fb : is_finite b = true.
Hypothesis Hb : 0 <= B2R b.
Let R0 := sqrt (kappa * M).
Let tau := sqrt (kappa * omega).

Lemma R0_range : pow2 (-200) <= R0 <= pow2 200 /\ R0 * R0 = kappa * M.
Proof.
  assert (P := P200). assert (K : 0 < kappa * M) by (apply Rmult_lt_0_compat; lra). split; [split|apply sqrt_sqrt; lra].
  - rewrite <- (sqrt_square (pow2 (-200))) by lra. apply sqrt_le_1_alt. apply Rmult_le_compat; lra.
  - rewrite <- (sqrt_square (pow2 200)) by apply bpow_ge_0. apply sqrt_le_1_alt. apply Rmult_le_compat; lra.
Qed.
Lemma tau_s : tau * s = R0 * omega.
Proof.
  assert (P := P200). assert (O := om_pos).
  unfold tau, s, R0. rewrite <- !sqrt_mult by nra.
  replace (kappa * omega * (M * omega)) with (kappa * M * (omega * omega)) by ring. rewrite sqrt_mult by nra. rewrite sqrt_square by lra. reflexivity.
Qed.

Lemma upd_nosoln64 st' tsq : @ell_update b64 (FNumD dot) (w, e) (g, BScalar b) = Ok (st', (nosoln, tsq)) -> B2R b <= pow2 1000 -> tau * (1 - 4 * h) < B2R b.
Proof.
  intros U BB. destruct T_err as [TE TR]. assert (HH := Hh).
  apply (nosoln64 h HH e Hn (fmul (e_kappa e) omh) b (kappa * omega) TE TR Fb Hb); [|exact BB].
  unfold ell_update in U. change (@ndot b64 (FNumD dot)) with dot in U.
  change (@calc_ll b64 (FNumD dot) e _ (BScalar b)) with (@calc_dc b64 (FNumD dot) e (fmul (e_kappa e) omh) b) in U.
  unfold calc_dc in U. destruct (tau64 h HH e Hn (fmul (e_kappa e) omh) (kappa * omega) TE TR) as [ES _].
  change (@nsqrt b64 (FNumD dot) (fmul (e_kappa e) omh)) with (fsqrtr (fmul (e_kappa e) omh)) in U. rewrite ES in U. cbn [bind] in U.
  change (@nltb b64 (FNumD dot)) with (fun x y : b64 => Bltb x y) in U. change (@nzero b64 (FNumD dot)) with fzero in U. cbv beta in U.
  change (@nsub b64 (FNumD dot) (fsqrt (fmul (e_kappa e) omh)) b) with (fsub (tau_hat (fmul (e_kappa e) omh)) b) in U.
  destruct (Bltb (fsub (tau_hat (fmul (e_kappa e) omh)) b) fzero) eqn:L; [reflexivity|exfalso].
  change (@neqb b64 (FNumD dot)) with feqb in U. change (@ndiv b64 (FNumD dot)) with fdivr in U.
  destruct (feqb b fzero).
  - unfold calc_cc in U. change (@ndiv b64 (FNumD dot)) with fdivr in U.
    repeat match type of U with context [bind (fdivr ?p ?q) _] => destruct (fdivr p q); cbn [bind] in U; [|discriminate U] end. cbv zeta in U. discriminate U.
  - cbv zeta in U. match type of U with context [if ?c then _ else _] => destruct c end; [cbn [bind] in U; discriminate U|].
    repeat match type of U with context [bind (fdivr ?p ?q) _] => destruct (fdivr p q); cbn [bind] in U; [|discriminate U] end. cbv zeta in U. discriminate U.
Qed.

Lemma upd64 st' tsq : @ell_update b64 (FNumD dot) (w, e) (g, BScalar b) = Ok (st', (success, tsq)) -> B2R b <= tau ->
  exists r0 s0 d0, dc_formula N (kappa * omega) (B2R b) r0 s0 d0 /\ 0 <= d0 <= 4 / 3 /\
    e_n (snd st') = n /\ e_xc (snd st') = e_xc e /\
    (forall i, (i < n)%nat -> is_finite (fst st' (e_xc e) i) = true /\
       Rabs (B2R (fst st' (e_xc e) i) - (x i - r0 / omega * d i)) <= 16 * h * R0 + uro * X) /\
    is_finite (e_kappa (snd st')) = true /\
    (forall i j, (i < n)%nat -> (j < n)%nat -> is_finite (e_Q (snd st') i j) = true /\
       Rabs (B2R (e_kappa (snd st')) * B2R (e_Q (snd st') i j) - kappa * d0 * (Q i j - s0 / omega * (d i * d j))) <= 64 * h * (kappa * M)).
Proof.
  intros U HB. destruct T_err as [TE TR]. assert (HH := Hh). assert (HP := h_gt). assert (UH := uro_h h HH).
  assert (OP := om_pos). assert (OR := om_range). assert (NN := NV). assert (P := P200).
  destruct R0_range as [RR RS]. assert (TS := tau_s). assert (SP := s_pos). assert (SS := s_sq).
  destruct MG_pos as (_ & _ & PM & _).
  assert (R0p : 0 < R0) by lra.
  assert (ETA : forall c, pow2 (-400) <= c -> eta <= h / 64 * c).
  { intros c Hc. apply Rle_trans with (pow2 (-50) * pow2 (-6) * pow2 (-400)); [rewrite <- !bpow_plus; apply bpow_le; lia|].
    apply Rmult_le_compat; try apply bpow_ge_0; [apply Rmult_le_pos; apply bpow_ge_0| |exact Hc]. change (pow2 (-6)) with (/ 64). lra. }
  assert (BIG : forall y, Rabs y <= pow2 1001 -> Rabs y <= pow2 1023) by (intros y Hy; eapply Rle_trans; [exact Hy|apply bpow_le; lia]).
  assert (B200 : 16 * pow2 200 <= pow2 1000) by (change 16 with (pow2 4); rewrite <- bpow_plus; apply bpow_le; lia).
  assert (B1001 : pow2 1001 = 2 * pow2 1000) by (change 1001%Z with (1 + 1000)%Z; rewrite bpow_plus; reflexivity).
  assert (L1 : 1 <= pow2 200) by (change 1 with (pow2 0); apply bpow_le; lia).
  assert (tp : 0 < tau) by (apply sqrt_lt_R0; assert (0 < pow2 (-850)) by apply bpow_gt_0; lra).
  assert (T425 := tau_range (kappa * omega) TR). fold tau in T425. assert (TSQ : tau * tau = kappa * omega) by (apply sqrt_sqrt; assert (0 < pow2 (-850)) by apply bpow_gt_0; lra).
  unfold ell_update in U. change (@ndot b64 (FNumD dot)) with dot in U.
  change (@calc_ll b64 (FNumD dot) e _ (BScalar b)) with (@calc_dc b64 (FNumD dot) e (fmul (e_kappa e) omh) b) in U.
  destruct (dc64 h HH dot e Hn Hp1 Hc1 Hc2 (fmul (e_kappa e) omh) b (kappa * omega) TE TR Fb Hb HB)
    as [E|(rho & sigma & delta & r0 & s0 & d0 & E & FORM & Fr & Fs & Fd & Ed & D0 & Rr & Rs)]; rewrite E in U; cbn [bind] in U; [discriminate U|].
  fold tau in Rr. fold n in Rr, Rs. fold N in FORM, Rr, Rs.
  assert (N1 : 0 < / (N + 1)) by (apply Rinv_0_lt_compat; lra).
  assert (N21 : pow2 (-21) <= / (N + 1)).
  { change (-21)%Z with (- (21))%Z. rewrite bpow_opp. apply Rinv_le; [lra|]. change (pow2 21) with (2 * pow2 20). change (pow2 20) with 1048576 in *. lra. }
  assert (r0p : 0 < r0) by (assert (0 < tau / (N + 1)) by (apply Rdiv_lt_0_compat; lra); lra).
  assert (s0p : 0 < s0) by (assert (0 < 2 / (N + 1)) by (apply Rdiv_lt_0_compat; lra); lra).
  assert (TO : tau / omega = kappa / tau) by (apply Rmult_eq_reg_r with (omega * tau); [|nra]; replace (tau / omega * (omega * tau)) with (tau * tau) by (field; lra); rewrite TSQ; field; lra).
  assert (om_err' := om_err).
  change (@ndiv b64 (FNumD dot)) with fdivr in U. change (dot (e_n e) g (mv (e_n e) (e_Q e) g)) with omh in U.
  destruct (fra_div h HH 8 1 rho omh r0 omega Fr om_err') as [ERO FRO]; [lra|lra|lra|lra| |].
  { split.
    - apply Rle_trans with (tau / omega * / (N + 1)).
      + rewrite TO. apply Rle_trans with (pow2 (-200) * pow2 (-425) * pow2 (-21)); [rewrite <- !bpow_plus; apply bpow_le; lia|].
        apply Rmult_le_compat; try apply bpow_ge_0; [apply Rmult_le_pos; apply bpow_ge_0| |exact N21]. unfold Rdiv. apply Rmult_le_compat; try apply bpow_ge_0; [lra|].
        change (-425)%Z with (- (425))%Z. rewrite bpow_opp. apply Rinv_le; lra.
      + unfold Rdiv. replace (tau * / omega * / (N + 1)) with (tau / (N + 1) * / omega) by (unfold Rdiv; ring). apply Rmult_le_compat_r; [left; apply Rinv_0_lt_compat; lra|lra].
    - apply Rle_trans with (tau / omega); [apply Rmult_le_compat_r; [left; apply Rinv_0_lt_compat; lra|lra]|]. rewrite TO.
      apply Rle_trans with (pow2 200 * pow2 425); [|rewrite <- bpow_plus; apply bpow_le; lia]. unfold Rdiv. apply Rmult_le_compat; [lra|left; apply Rinv_0_lt_compat; lra|lra|].
      replace (pow2 425) with (/ pow2 (-425)) by (rewrite <- bpow_opp; reflexivity). apply Rinv_le; [apply bpow_gt_0|lra]. }
  rewrite ERO in U. cbn [bind] in U. cbv zeta in U.
  destruct (fra_div h HH 17 1 sigma omh s0 omega Fs om_err') as [ESO FSO]; [lra|lra|lra|lra| |].
  { split.
    - apply Rle_trans with (pow2 (-21) * pow2 (-640)); [rewrite <- bpow_plus; apply bpow_le; lia|]. unfold Rdiv. apply Rmult_le_compat; try apply bpow_ge_0; [unfold Rdiv in Rs; lra|].
      change (-640)%Z with (- (640))%Z. rewrite bpow_opp. apply Rinv_le; lra.
    - apply Rle_trans with (1 * pow2 640); [|rewrite Rmult_1_l; apply bpow_le; lia]. unfold Rdiv. apply Rmult_le_compat; [lra|left; apply Rinv_0_lt_compat; lra|lra|].
      replace (pow2 640) with (/ pow2 (-640)) by (rewrite <- bpow_opp; reflexivity). apply Rinv_le; [apply bpow_gt_0|lra]. }
  rewrite ESO in U. cbn [bind] in U.
  set (ro := fdiv rho omh) in *. set (so := fdiv sigma omh) in *. set (ro0 := r0 / omega) in *. set (so0 := s0 / omega) in *.
  assert (ro0p : 0 < ro0) by (apply Rdiv_lt_0_compat; lra). assert (so0p : 0 < so0) by (apply Rdiv_lt_0_compat; lra).
  assert (RO : ro0 * s <= R0).
  { apply Rmult_le_reg_r with omega; [lra|]. rewrite <- TS. unfold ro0. replace (r0 / omega * s * omega) with (r0 * s) by (field; lra). apply Rmult_le_compat_r; lra. }
  assert (SO : so0 * (s * s) <= M).
  { rewrite SS. unfold so0. replace (s0 / omega * (M * omega)) with (s0 * M) by (field; lra). nra. }
  (* the centre *)
  assert (STEP : forall i, (i < n)%nat -> is_finite (fmul ro (dh i)) = true /\ Rabs (B2R (fmul ro (dh i)) - ro0 * d i) <= 13 * h * R0).
  { intros i Hi. destruct (d_err i Hi) as [Fdi _]. assert (E1 := d_err_s i Hi). assert (B1 := d_bound i Hi). destruct FRO as [Fro Rro]. unfold ra in Rro.
    assert (B2 : Rabs (B2R (dh i)) <= (1 + / 1024) * s).
    { replace (B2R (dh i)) with ((B2R (dh i) - d i) + d i) by ring. eapply Rle_trans; [apply Rabs_triang|]. assert (h / 2 * s <= / 1024 * s) by (apply Rmult_le_compat_r; lra). lra. }
    assert (E2 : Rabs (B2R ro * B2R (dh i) - ro0 * d i) <= 12 * h * R0).
    { replace (B2R ro * B2R (dh i) - ro0 * d i) with ((B2R ro - ro0) * B2R (dh i) + ro0 * (B2R (dh i) - d i)) by ring.
      eapply Rle_trans; [apply Rabs_triang|]. rewrite !Rabs_mult, (Rabs_pos_eq ro0) by lra.
      assert (Y1 : Rabs (B2R ro - ro0) * Rabs (B2R (dh i)) <= (8 + 1 + 2) * h * ro0 * ((1 + / 1024) * s)) by (apply Rmult_le_compat; try apply Rabs_pos; assumption).
      assert (Y2 : ro0 * Rabs (B2R (dh i) - d i) <= ro0 * (h / 2 * s)) by (apply Rmult_le_compat_l; lra).
      assert (Y3 : h * (ro0 * s) <= h * R0) by (apply Rmult_le_compat_l; lra). assert (0 < h * R0) by (apply Rmult_lt_0_compat; lra). lra. }
    assert (B3 : Rabs (ro0 * d i) <= R0).
    { rewrite Rabs_mult, Rabs_pos_eq by lra. eapply Rle_trans; [|exact RO]. apply Rmult_le_compat_l; lra. }
    assert (B4 : Rabs (B2R ro * B2R (dh i)) <= 2 * R0).
    { replace (B2R ro * B2R (dh i)) with ((B2R ro * B2R (dh i) - ro0 * d i) + ro0 * d i) by ring. eapply Rle_trans; [apply Rabs_triang|].
      assert (h * R0 <= / 1024 * R0) by (apply Rmult_le_compat_r; lra). lra. }
    destruct (fmul_rnd ro (dh i) Fro Fdi) as [EM FM]; [apply BIG; lra|]. split; [exact FM|]. rewrite EM.
    assert (Y := rnd_rel (B2R ro * B2R (dh i))). assert (ET := ETA R0 ltac:(eapply Rle_trans; [|apply RR]; apply bpow_le; lia)).
    assert (uro * Rabs (B2R ro * B2R (dh i)) <= h / 8 * (2 * R0)) by (apply Rmult_le_compat; try apply bpow_ge_0; try apply Rabs_pos; lra).
    replace (rnd (B2R ro * B2R (dh i)) - ro0 * d i) with ((rnd (B2R ro * B2R (dh i)) - B2R ro * B2R (dh i)) + (B2R ro * B2R (dh i) - ro0 * d i)) by ring.
    eapply Rle_trans; [apply Rabs_triang|]. assert (0 < h * R0) by (apply Rmult_lt_0_compat; lra). lra. }
  assert (XC : forall i, (i < n)%nat -> is_finite (fsub (w (e_xc e) i) (fmul ro (dh i))) = true /\
     Rabs (B2R (fsub (w (e_xc e) i) (fmul ro (dh i))) - (x i - ro0 * d i)) <= 16 * h * R0 + uro * X).
  { intros i Hi. destruct (STEP i Hi) as [F1 E1]. assert (B1 := d_bound i Hi). assert (BXi := Bx i Hi).
    assert (B3 : Rabs (ro0 * d i) <= R0).
    { rewrite Rabs_mult, Rabs_pos_eq by lra. eapply Rle_trans; [|exact RO]. apply Rmult_le_compat_l; lra. }
    assert (hR : h * R0 <= / 1024 * R0) by (apply Rmult_le_compat_r; lra).
    assert (B4 : Rabs (B2R (fmul ro (dh i))) <= 2 * R0).
    { replace (B2R (fmul ro (dh i))) with ((B2R (fmul ro (dh i)) - ro0 * d i) + ro0 * d i) by ring. eapply Rle_trans; [apply Rabs_triang|]. lra. }
    assert (B5 : Rabs (x i - B2R (fmul ro (dh i))) <= X + 2 * R0).
    { unfold Rminus. eapply Rle_trans; [apply Rabs_triang|]. rewrite Rabs_Ropp. lra. }
    destruct (fsub_rnd (w (e_xc e) i) (fmul ro (dh i)) (Fx i Hi) F1) as [EM FM]; [fold (x i); apply BIG; lra|]. split; [exact FM|]. fold (x i) in EM. rewrite EM.
    assert (Y := rnd_rel (x i - B2R (fmul ro (dh i)))). assert (ET := ETA R0 ltac:(eapply Rle_trans; [|apply RR]; apply bpow_le; lia)).
    assert (Y2 : uro * Rabs (x i - B2R (fmul ro (dh i))) <= uro * (X + 2 * R0)) by (apply Rmult_le_compat_l; [apply bpow_ge_0|lra]).
    assert (Y3 : uro * (2 * R0) <= h / 8 * (2 * R0)) by (apply Rmult_le_compat_r; lra).
    replace (rnd (x i - B2R (fmul ro (dh i))) - (x i - ro0 * d i)) with ((rnd (x i - B2R (fmul ro (dh i))) - (x i - B2R (fmul ro (dh i)))) + - (B2R (fmul ro (dh i)) - ro0 * d i)) by ring.
    eapply Rle_trans; [apply Rabs_triang|]. rewrite Rabs_Ropp. assert (0 < h * R0) by (apply Rmult_lt_0_compat; lra). lra. }
  (* the matrix *)
  set (Q1 := fun i j => Q i j - so0 * (d i * d j)).
  set (q1 := fun i j => fsub (e_Q e i j) (fmul so (fmul (dh i) (dh j)))).
  assert (hM : 0 < h * M <= / 1024 * M) by (split; [apply Rmult_lt_0_compat; lra|apply Rmult_le_compat_r; lra]).
  assert (MAT : forall i j, (i < n)%nat -> (j < n)%nat -> is_finite (q1 i j) = true /\ Rabs (B2R (q1 i j) - Q1 i j) <= 25 * h * M /\ Rabs (Q1 i j) <= 2 * M).
  { intros i j Hi Hj. destruct (d_err i Hi) as [Fi _]. destruct (d_err j Hj) as [Fj _].
    assert (Ei := d_err_s i Hi). assert (Ej := d_err_s j Hj). assert (Bi := d_bound i Hi). assert (Bj := d_bound j Hj).
    destruct FSO as [Fso Rso]. unfold ra in Rso.
    assert (hs : 0 < h * (s * s)) by (apply Rmult_lt_0_compat; nra).
    assert (hhs : h * (h * (s * s)) <= / 1024 * (h * (s * s))) by (apply Rmult_le_compat_r; lra).
    assert (DD : Rabs (d i * d j) <= s * s) by (rewrite Rabs_mult; apply Rmult_le_compat; try apply Rabs_pos; assumption).
    assert (E2 : Rabs (B2R (dh i) * B2R (dh j) - d i * d j) <= (1 + / 1024) * h * (s * s)).
    { replace (B2R (dh i) * B2R (dh j) - d i * d j) with ((B2R (dh i) - d i) * (B2R (dh j) - d j) + ((B2R (dh i) - d i) * d j + d i * (B2R (dh j) - d j))) by ring.
      eapply Rle_trans; [apply Rabs_triang|]. eapply Rle_trans; [apply Rplus_le_compat_l, Rabs_triang|]. rewrite !Rabs_mult.
      assert (Rabs (B2R (dh i) - d i) * Rabs (B2R (dh j) - d j) <= h / 2 * s * (h / 2 * s)) by (apply Rmult_le_compat; try apply Rabs_pos; assumption).
      assert (Rabs (B2R (dh i) - d i) * Rabs (d j) <= h / 2 * s * s) by (apply Rmult_le_compat; try apply Rabs_pos; assumption).
      assert (Rabs (d i) * Rabs (B2R (dh j) - d j) <= s * (h / 2 * s)) by (apply Rmult_le_compat; try apply Rabs_pos; assumption). lra. }
    assert (SSu : s * s <= pow2 840).
    { rewrite SS. apply Rle_trans with (pow2 200 * pow2 640); [apply Rmult_le_compat; lra|rewrite <- bpow_plus; apply bpow_le; lia]. }
    assert (SSl : pow2 (-840) <= s * s).
    { rewrite SS. apply Rle_trans with (pow2 (-200) * pow2 (-640)); [rewrite <- bpow_plus; apply bpow_le; lia|]. apply Rmult_le_compat; try apply bpow_ge_0; lra. }
    assert (hss : h * (s * s) <= / 1024 * (s * s)) by (apply Rmult_le_compat_r; [nra|lra]).
    assert (B2 : Rabs (B2R (dh i) * B2R (dh j)) <= 2 * (s * s)).
    { replace (B2R (dh i) * B2R (dh j)) with ((B2R (dh i) * B2R (dh j) - d i * d j) + d i * d j) by ring. eapply Rle_trans; [apply Rabs_triang|]. lra. }
    destruct (fmul_rnd (dh i) (dh j) Fi Fj) as [EM FM].
    { apply BIG. eapply Rle_trans; [exact B2|]. rewrite B1001. apply Rmult_le_compat_l; [lra|]. eapply Rle_trans; [exact SSu|apply bpow_le; lia]. }
    set (p := fmul (dh i) (dh j)) in *.
    assert (E3 : Rabs (B2R p - d i * d j) <= (1 + / 2) * h * (s * s)).
    { rewrite EM. assert (Y := rnd_rel (B2R (dh i) * B2R (dh j))).
      assert (ET : eta <= h / 64 * (s * s)).
      { apply Rle_trans with (pow2 (-50) * pow2 (-6) * pow2 (-840)); [rewrite <- !bpow_plus; apply bpow_le; lia|].
        apply Rmult_le_compat; try apply bpow_ge_0; [apply Rmult_le_pos; apply bpow_ge_0| |exact SSl]. change (pow2 (-6)) with (/ 64). lra. }
      assert (uro * Rabs (B2R (dh i) * B2R (dh j)) <= h / 8 * (2 * (s * s))) by (apply Rmult_le_compat; try apply bpow_ge_0; try apply Rabs_pos; lra).
      replace (rnd (B2R (dh i) * B2R (dh j)) - d i * d j) with ((rnd (B2R (dh i) * B2R (dh j)) - B2R (dh i) * B2R (dh j)) + (B2R (dh i) * B2R (dh j) - d i * d j)) by ring.
      eapply Rle_trans; [apply Rabs_triang|]. lra. }
    assert (B3 : Rabs (B2R p) <= (1 + / 512) * (s * s)).
    { replace (B2R p) with ((B2R p - d i * d j) + d i * d j) by ring. eapply Rle_trans; [apply Rabs_triang|]. lra. }
    assert (hSO : h * (so0 * (s * s)) <= h * M) by (apply Rmult_le_compat_l; lra).
    assert (E4 : Rabs (B2R so * B2R p - so0 * (d i * d j)) <= 22 * h * M).
    { replace (B2R so * B2R p - so0 * (d i * d j)) with ((B2R so - so0) * B2R p + so0 * (B2R p - d i * d j)) by ring.
      eapply Rle_trans; [apply Rabs_triang|]. rewrite !Rabs_mult, (Rabs_pos_eq so0) by lra.
      assert (Rabs (B2R so - so0) * Rabs (B2R p) <= (17 + 1 + 2) * h * so0 * ((1 + / 512) * (s * s))) by (apply Rmult_le_compat; try apply Rabs_pos; assumption).
      assert (so0 * Rabs (B2R p - d i * d j) <= so0 * ((1 + / 2) * h * (s * s))) by (apply Rmult_le_compat_l; lra). lra. }
    assert (BS : Rabs (so0 * (d i * d j)) <= M).
    { rewrite Rabs_mult, Rabs_pos_eq by lra. eapply Rle_trans; [|exact SO]. apply Rmult_le_compat_l; lra. }
    assert (B4 : Rabs (B2R so * B2R p) <= 2 * M).
    { replace (B2R so * B2R p) with ((B2R so * B2R p - so0 * (d i * d j)) + so0 * (d i * d j)) by ring. eapply Rle_trans; [apply Rabs_triang|]. lra. }
    destruct (fmul_rnd so p Fso FM) as [EN FN]; [apply BIG; lra|]. set (m := fmul so p) in *.
    assert (ETM := ETA M ltac:(eapply Rle_trans; [|apply RM]; apply bpow_le; lia)).
    assert (E5 : Rabs (B2R m - so0 * (d i * d j)) <= 23 * h * M).
    { rewrite EN. assert (Y := rnd_rel (B2R so * B2R p)).
      assert (uro * Rabs (B2R so * B2R p) <= h / 8 * (2 * M)) by (apply Rmult_le_compat; try apply bpow_ge_0; try apply Rabs_pos; lra).
      replace (rnd (B2R so * B2R p) - so0 * (d i * d j)) with ((rnd (B2R so * B2R p) - B2R so * B2R p) + (B2R so * B2R p - so0 * (d i * d j))) by ring.
      eapply Rle_trans; [apply Rabs_triang|]. lra. }
    assert (BQi := BQ i j Hi Hj).
    assert (B5 : Rabs (B2R m) <= 2 * M).
    { replace (B2R m) with ((B2R m - so0 * (d i * d j)) + so0 * (d i * d j)) by ring. eapply Rle_trans; [apply Rabs_triang|]. lra. }
    assert (B6 : Rabs (Q i j - B2R m) <= 3 * M) by (unfold Rminus; eapply Rle_trans; [apply Rabs_triang|]; rewrite Rabs_Ropp; lra).
    destruct (fsub_rnd (e_Q e i j) m (FQ i j Hi Hj) FN) as [EQ FQ1]; [fold (Q i j); apply BIG; lra|]. fold (Q i j) in EQ.
    change (q1 i j) with (fsub (e_Q e i j) m). split; [exact FQ1|]. split.
    - rewrite EQ. assert (Y := rnd_rel (Q i j - B2R m)).
      assert (uro * Rabs (Q i j - B2R m) <= h / 8 * (3 * M)) by (apply Rmult_le_compat; try apply bpow_ge_0; try apply Rabs_pos; lra).
      unfold Q1. replace (rnd (Q i j - B2R m) - (Q i j - so0 * (d i * d j))) with ((rnd (Q i j - B2R m) - (Q i j - B2R m)) + - (B2R m - so0 * (d i * d j))) by ring.
      eapply Rle_trans; [apply Rabs_triang|]. rewrite Rabs_Ropp. lra.
    - unfold Q1, Rminus. eapply Rle_trans; [apply Rabs_triang|]. rewrite Rabs_Ropp. lra. }
  (* kappa *)
  assert (hK : 0 < h * kappa <= / 1024 * kappa) by (split; [apply Rmult_lt_0_compat; lra|apply Rmult_le_compat_r; lra]).
  assert (BD : Rabs (B2R delta) <= 3 / 2).
  { replace (B2R delta) with ((B2R delta - d0) + d0) by ring. eapply Rle_trans; [apply Rabs_triang|]. rewrite (Rabs_pos_eq d0) by lra. lra. }
  assert (KAP : is_finite (fmul (e_kappa e) delta) = true /\ Rabs (B2R (fmul (e_kappa e) delta) - kappa * d0) <= 11 * h * kappa).
  { assert (B1 : Rabs (kappa * B2R delta) <= 3 / 2 * kappa) by (rewrite Rabs_mult, Rabs_pos_eq by lra; nra).
    destruct (fmul_rnd (e_kappa e) delta Fk Fd) as [EK FK]; [fold kappa; apply BIG; lra|]. split; [exact FK|]. fold kappa in EK. rewrite EK.
    assert (Y := rnd_rel (kappa * B2R delta)). assert (ET := ETA kappa ltac:(eapply Rle_trans; [|apply Rk]; apply bpow_le; lia)).
    assert (uro * Rabs (kappa * B2R delta) <= h / 8 * (3 / 2 * kappa)) by (apply Rmult_le_compat; try apply bpow_ge_0; try apply Rabs_pos; lra).
    replace (rnd (kappa * B2R delta) - kappa * d0) with ((rnd (kappa * B2R delta) - kappa * B2R delta) + kappa * (B2R delta - d0)) by ring.
    eapply Rle_trans; [apply Rabs_triang|]. rewrite (Rabs_mult kappa), (Rabs_pos_eq kappa) by lra.
    assert (kappa * Rabs (B2R delta - d0) <= kappa * (10 * h)) by (apply Rmult_le_compat_l; lra). lra. }
  exists r0, s0, d0. split; [exact FORM|]. split; [exact D0|].
  assert (kM : 0 < kappa * M) by (apply Rmult_lt_0_compat; lra). assert (hkM : 0 < h * (kappa * M)) by (apply Rmult_lt_0_compat; lra).
  assert (ST : forall i, fst st' (e_xc e) i = if Nat.ltb i n then fsub (w (e_xc e) i) (fmul ro (dh i)) else w (e_xc e) i).
  { intros i. inversion U; subst. cbn [fst]. unfold mem_set. rewrite Nat.eqb_refl. reflexivity. }
  assert (CEN : forall i, (i < n)%nat -> is_finite (fst st' (e_xc e) i) = true /\
       Rabs (B2R (fst st' (e_xc e) i) - (x i - r0 / omega * d i)) <= 16 * h * R0 + uro * X).
  { intros i Hi. rewrite ST. destruct (Nat.ltb_spec i n); [|lia]. apply XC, Hi. }
  assert (SN : snd st' = (if e_nodefer e then ell_set_Q e (fun i j => fmul (q1 i j) delta) else ell_set_kappa (ell_set_Q e q1) (fmul (e_kappa e) delta))).
  { inversion U; subst. reflexivity. }
  rewrite SN. destruct (e_nodefer e).
  - cbn [e_n e_xc e_kappa e_Q ell_set_Q ell_set_kappa]. split; [reflexivity|]. split; [reflexivity|]. split; [exact CEN|]. split; [exact Fk|].
    intros i j Hi Hj. destruct (MAT i j Hi Hj) as (F1 & E1 & B1). fold kappa.
    assert (B2 : Rabs (B2R (q1 i j)) <= (2 + / 32) * M).
    { replace (B2R (q1 i j)) with ((B2R (q1 i j) - Q1 i j) + Q1 i j) by ring. eapply Rle_trans; [apply Rabs_triang|]. lra. }
    assert (B3 : Rabs (B2R (q1 i j) * B2R delta) <= 4 * M).
    { rewrite Rabs_mult. apply Rle_trans with ((2 + / 32) * M * (3 / 2)); [apply Rmult_le_compat; try apply Rabs_pos; assumption|]. lra. }
    destruct (fmul_rnd (q1 i j) delta F1 Fd) as [EQ FQ1]; [apply BIG; lra|]. split; [exact FQ1|]. rewrite EQ.
    assert (E2 : Rabs (rnd (B2R (q1 i j) * B2R delta) - d0 * Q1 i j) <= 64 * h * M).
    { assert (Y := rnd_rel (B2R (q1 i j) * B2R delta)). assert (ETM := ETA M ltac:(eapply Rle_trans; [|apply RM]; apply bpow_le; lia)).
      assert (uro * Rabs (B2R (q1 i j) * B2R delta) <= h / 8 * (4 * M)) by (apply Rmult_le_compat; try apply bpow_ge_0; try apply Rabs_pos; lra).
      replace (rnd (B2R (q1 i j) * B2R delta) - d0 * Q1 i j) with ((rnd (B2R (q1 i j) * B2R delta) - B2R (q1 i j) * B2R delta) + (B2R (q1 i j) * (B2R delta - d0) + d0 * (B2R (q1 i j) - Q1 i j))) by ring.
      eapply Rle_trans; [apply Rabs_triang|]. eapply Rle_trans; [apply Rplus_le_compat_l, Rabs_triang|]. rewrite !(Rabs_mult _ (_ - _)), (Rabs_pos_eq d0) by lra.
      assert (Rabs (B2R (q1 i j)) * Rabs (B2R delta - d0) <= (2 + / 32) * M * (10 * h)) by (apply Rmult_le_compat; try apply Rabs_pos; assumption).
      assert (d0 * Rabs (B2R (q1 i j) - Q1 i j) <= 4 / 3 * (25 * h * M)) by (apply Rmult_le_compat; try apply Rabs_pos; lra). lra. }
    fold (so0). change (Q i j - so0 * (d i * d j)) with (Q1 i j).
    replace (kappa * rnd (B2R (q1 i j) * B2R delta) - kappa * d0 * Q1 i j) with (kappa * (rnd (B2R (q1 i j) * B2R delta) - d0 * Q1 i j)) by ring.
    rewrite Rabs_mult, (Rabs_pos_eq kappa) by lra. apply Rle_trans with (kappa * (64 * h * M)); [apply Rmult_le_compat_l; lra|lra].
  - cbn [e_n e_xc e_kappa e_Q ell_set_Q ell_set_kappa]. destruct KAP as [FK EK]. split; [reflexivity|]. split; [reflexivity|]. split; [exact CEN|]. split; [exact FK|].
    intros i j Hi Hj. destruct (MAT i j Hi Hj) as (F1 & E1 & B1). split; [exact F1|].
    assert (B2 : Rabs (B2R (q1 i j)) <= (2 + / 32) * M).
    { replace (B2R (q1 i j)) with ((B2R (q1 i j) - Q1 i j) + Q1 i j) by ring. eapply Rle_trans; [apply Rabs_triang|]. lra. }
    change (Q i j - s0 / omega * (d i * d j)) with (Q1 i j). set (k' := fmul (e_kappa e) delta) in *.
    replace (B2R k' * B2R (q1 i j) - kappa * d0 * Q1 i j) with ((B2R k' - kappa * d0) * B2R (q1 i j) + kappa * d0 * (B2R (q1 i j) - Q1 i j)) by ring.
    eapply Rle_trans; [apply Rabs_triang|]. rewrite !Rabs_mult, (Rabs_pos_eq kappa), (Rabs_pos_eq d0) by lra.
    assert (Y1 : Rabs (B2R k' - kappa * d0) * Rabs (B2R (q1 i j)) <= 11 * h * kappa * ((2 + / 32) * M)) by (apply Rmult_le_compat; try apply Rabs_pos; assumption).
    assert (Y2 : kappa * d0 * Rabs (B2R (q1 i j) - Q1 i j) <= kappa * (4 / 3) * (25 * h * M)) by (apply Rmult_le_compat; [nra|apply Rabs_pos|nra|exact E1]). lra.
Qed.

(** The same for any step parameters that are close to exact ones: [ee] is the error of the scalar part. *)
Lemma upd_abs beta ee rho sigma delta r0 s0 d0 :
  @calc_ll b64 (FNumD dot) e (fmul (e_kappa e) omh) beta = Ok (fmul (e_kappa e) omh, Go rho sigma delta) ->
  h <= ee <= / 1024 ->
  is_finite rho = true -> is_finite sigma = true -> is_finite delta = true ->
  Rabs (B2R rho - r0) <= ee * tau -> Rabs (B2R sigma - s0) <= ee -> Rabs (B2R delta - d0) <= ee ->
  0 <= r0 <= tau -> 0 <= s0 <= 1 -> 0 <= d0 <= 8 / 3 ->
  exists st' tsq, @ell_update b64 (FNumD dot) (w, e) (g, beta) = Ok (st', (success, tsq)) /\
    e_n (snd st') = n /\ e_xc (snd st') = e_xc e /\
    (forall i, (i < n)%nat -> is_finite (fst st' (e_xc e) i) = true /\
       Rabs (B2R (fst st' (e_xc e) i) - (x i - r0 / omega * d i)) <= 5 * ee * R0 + uro * X) /\
    is_finite (e_kappa (snd st')) = true /\
    (forall i j, (i < n)%nat -> (j < n)%nat -> is_finite (e_Q (snd st') i j) = true /\
       Rabs (B2R (e_kappa (snd st')) * B2R (e_Q (snd st') i j) - kappa * d0 * (Q i j - s0 / omega * (d i * d j))) <= 24 * ee * (kappa * M)).
Proof.
  intros U HE Fr Fs Fd Er Es Ed R0r S0r D0. destruct T_err as [TE TR]. assert (HH := Hh). assert (HP := h_gt). assert (UH := uro_h h HH).
  assert (OP := om_pos). assert (OR := om_range). assert (NN := NV). assert (P := P200).
  destruct R0_range as [RR RS]. assert (TS := tau_s). assert (SP := s_pos). assert (SS := s_sq).
  destruct MG_pos as (_ & _ & PM & _).
  assert (R0p : 0 < R0) by lra.
  assert (ETA : forall c, pow2 (-900) <= c -> eta <= h / 64 * c).
  { intros c Hc. apply Rle_trans with (pow2 (-50) * pow2 (-6) * pow2 (-900)); [rewrite <- !bpow_plus; apply bpow_le; lia|].
    apply Rmult_le_compat; try apply bpow_ge_0; [apply Rmult_le_pos; apply bpow_ge_0| |exact Hc]. change (pow2 (-6)) with (/ 64). lra. }
  assert (BIG : forall y, Rabs y <= pow2 1001 -> Rabs y <= pow2 1023) by (intros y Hy; eapply Rle_trans; [exact Hy|apply bpow_le; lia]).
  assert (B200 : 16 * pow2 200 <= pow2 1000) by (change 16 with (pow2 4); rewrite <- bpow_plus; apply bpow_le; lia).
  assert (B1001 : pow2 1001 = 2 * pow2 1000) by (change 1001%Z with (1 + 1000)%Z; rewrite bpow_plus; reflexivity).
  assert (L1 : 1 <= pow2 200) by (change 1 with (pow2 0); apply bpow_le; lia).
  assert (tp : 0 < tau) by (apply sqrt_lt_R0; assert (0 < pow2 (-850)) by apply bpow_gt_0; lra).
  assert (T425 := tau_range (kappa * omega) TR). fold tau in T425. assert (TSQ : tau * tau = kappa * omega) by (apply sqrt_sqrt; assert (0 < pow2 (-850)) by apply bpow_gt_0; lra).
  assert (TO : tau / omega = kappa / tau) by (apply Rmult_eq_reg_r with (omega * tau); [|nra]; replace (tau / omega * (omega * tau)) with (tau * tau) by (field; lra); rewrite TSQ; field; lra).
  destruct om_err as [FO RO1]. assert (OMR := ra_range h HH 1 _ _ RO1 ltac:(lra) OP). unfold ra in RO1. rewrite Rmult_1_l in RO1.
  set (omr := B2R omh) in *. assert (omr0 : 0 < omr) by lra. assert (IO : 0 < / omega) by (apply Rinv_0_lt_compat; lra).
  assert (Iom : 0 < / omr <= 24 / 23 * / omega).
  { split; [apply Rinv_0_lt_compat; exact omr0|]. apply Rmult_le_reg_r with omr; [exact omr0|]. rewrite Rinv_l by lra. apply Rmult_le_reg_r with omega; [exact OP|].
    replace (24 / 23 * / omega * omr * omega) with (24 / 23 * omr) by (field; lra). lra. }
  (* one quotient by omh: y close to v, at most c *)
  assert (QUO : forall y v c, is_finite y = true -> Rabs (B2R y - v) <= ee * c -> 0 <= v <= c -> 0 < c -> pow2 (-900) <= c / omega <= pow2 900 ->
    fdivr y omh = Ok (fdiv y omh) /\ is_finite (fdiv y omh) = true /\ Rabs (B2R (fdiv y omh) - v / omega) <= 3 * ee * (c / omega)).
  { intros y v c Fy Ey Hv Hc Rc. split; [apply fdivr_ok; [exact FO|fold omr; lra]|].
    assert (ec : 0 < ee * c <= / 1024 * c) by (split; [apply Rmult_lt_0_compat; lra|apply Rmult_le_compat_r; lra]).
    assert (hc : h * c <= ee * c) by (apply Rmult_le_compat_r; lra).
    set (C := c / omega) in *. assert (CE : c * / omega = C) by reflexivity. assert (C0 : 0 < C) by (apply Rdiv_lt_0_compat; lra).
    assert (hC : 0 < h * C) by (apply Rmult_lt_0_compat; lra). assert (eC : h * C <= ee * C <= / 1024 * C) by (split; apply Rmult_le_compat_r; lra).
    assert (E1 : Rabs (B2R y / omr - v / omega) <= 24 / 23 * (2 * (ee * C))).
    { replace (B2R y / omr - v / omega) with (((B2R y - v) - v / omega * (omr - omega)) * / omr) by (field; lra).
      rewrite Rabs_mult, (Rabs_pos_eq (/ omr)) by lra.
      assert (N1 : Rabs (B2R y - v - v / omega * (omr - omega)) <= 2 * (ee * c)).
      { unfold Rminus at 1. eapply Rle_trans; [apply Rabs_triang|]. rewrite Rabs_Ropp, Rabs_mult.
        assert (VO : 0 <= v / omega <= C) by (split; [apply Rmult_le_pos; lra|apply Rmult_le_compat_r; lra]). rewrite (Rabs_pos_eq (v / omega)) by lra.
        assert (v / omega * Rabs (omr - omega) <= C * (h * omega)) by (apply Rmult_le_compat; try apply Rabs_pos; lra).
        replace (C * (h * omega)) with (h * c) in * by (unfold C; field; lra). lra. }
      apply Rle_trans with (2 * (ee * c) * (24 / 23 * / omega)); [apply Rmult_le_compat; [apply Rabs_pos|lra|exact N1|lra]|]. right. unfold C. field. lra. }
    assert (B1 : Rabs (B2R y / omr) <= 2 * C).
    { replace (B2R y / omr) with ((B2R y / omr - v / omega) + v / omega) by ring. eapply Rle_trans; [apply Rabs_triang|].
      assert (VO : 0 <= v / omega <= C) by (split; [apply Rmult_le_pos; lra|apply Rmult_le_compat_r; lra]). rewrite (Rabs_pos_eq (v / omega)) by lra. lra. }
    destruct (fdiv_rnd y omh Fy) as [ED FD]; [fold omr; lra| |].
    { fold omr. apply BIG. eapply Rle_trans; [exact B1|]. rewrite B1001. apply Rmult_le_compat_l; [lra|]. eapply Rle_trans; [apply Rc|apply bpow_le; lia]. }
    split; [exact FD|]. rewrite ED. fold omr. assert (Y := rnd_rel (B2R y / omr)). assert (ET := ETA C (proj1 Rc)).
    assert (uro * Rabs (B2R y / omr) <= h / 8 * (2 * C)) by (apply Rmult_le_compat; try apply bpow_ge_0; try apply Rabs_pos; lra).
    replace (rnd (B2R y / omr) - v / omega) with ((rnd (B2R y / omr) - B2R y / omr) + (B2R y / omr - v / omega)) by ring.
    eapply Rle_trans; [apply Rabs_triang|]. lra. }
  assert (RK : pow2 (-900) <= tau / omega <= pow2 900).
  { rewrite TO. split.
    - apply Rle_trans with (pow2 (-200) * pow2 (-425)); [rewrite <- bpow_plus; apply bpow_le; lia|]. unfold Rdiv. apply Rmult_le_compat; try apply bpow_ge_0; [lra|].
      change (-425)%Z with (- (425))%Z. rewrite bpow_opp. apply Rinv_le; lra.
    - apply Rle_trans with (pow2 200 * pow2 425); [|rewrite <- bpow_plus; apply bpow_le; lia]. unfold Rdiv. apply Rmult_le_compat; [lra|left; apply Rinv_0_lt_compat; lra|lra|].
      replace (pow2 425) with (/ pow2 (-425)) by (rewrite <- bpow_opp; reflexivity). apply Rinv_le; [apply bpow_gt_0|lra]. }
  assert (R1K : pow2 (-900) <= 1 / omega <= pow2 900).
  { unfold Rdiv. rewrite Rmult_1_l. split.
    - apply Rle_trans with (pow2 (-640)); [apply bpow_le; lia|]. change (-640)%Z with (- (640))%Z. rewrite bpow_opp. apply Rinv_le; lra.
    - apply Rle_trans with (pow2 640); [|apply bpow_le; lia]. replace (pow2 640) with (/ pow2 (-640)) by (rewrite <- bpow_opp; reflexivity). apply Rinv_le; [apply bpow_gt_0|lra]. }
  destruct (QUO rho r0 tau Fr Er R0r tp RK) as (ERO & Fro & Rro).
  destruct (QUO sigma s0 1 Fs ltac:(rewrite Rmult_1_r; exact Es) S0r ltac:(lra) R1K) as (ESO & Fso & Rso).
  unfold ell_update. change (@ndot b64 (FNumD dot)) with dot. change (dot (e_n e) g (mv (e_n e) (e_Q e) g)) with omh. change (@nmul b64 (FNumD dot) (e_kappa e) omh) with (fmul (e_kappa e) omh).
  rewrite U. cbn [bind]. change (@ndiv b64 (FNumD dot)) with fdivr. rewrite ERO. cbn [bind]. rewrite ESO. cbn [bind]. cbv zeta.
  set (ro := fdiv rho omh) in *. set (so := fdiv sigma omh) in *. set (ro0 := r0 / omega) in *. set (so0 := s0 / omega) in *.
  set (K := tau / omega) in *. set (I := 1 / omega) in *.
  assert (ro0p : 0 <= ro0 <= K) by (unfold ro0, K; split; [apply Rmult_le_pos; lra|apply Rmult_le_compat_r; lra]).
  assert (so0p : 0 <= so0 <= I) by (unfold so0, I; split; [apply Rmult_le_pos; lra|apply Rmult_le_compat_r; lra]).
  assert (KS : K * s = R0) by (apply Rmult_eq_reg_r with omega; [|lra]; rewrite <- TS; unfold K; field; lra).
  assert (IS : I * (s * s) = M) by (rewrite SS; unfold I; field; lra).
  assert (eR : 0 < h * R0 <= ee * R0) by (split; [apply Rmult_lt_0_compat; lra|apply Rmult_le_compat_r; lra]).
  assert (eR1 : ee * R0 <= / 1024 * R0) by (apply Rmult_le_compat_r; lra).
  assert (eM : 0 < h * M <= ee * M) by (split; [apply Rmult_lt_0_compat; lra|apply Rmult_le_compat_r; lra]).
  assert (eM1 : ee * M <= / 1024 * M) by (apply Rmult_le_compat_r; lra).
  (* the centre *)
  assert (B3 : forall i, (i < n)%nat -> Rabs (ro0 * d i) <= R0).
  { intros i Hi. rewrite Rabs_mult, Rabs_pos_eq by lra. rewrite <- KS. apply Rmult_le_compat; [lra|apply Rabs_pos|lra|apply d_bound, Hi]. }
  assert (STEP : forall i, (i < n)%nat -> is_finite (fmul ro (dh i)) = true /\ Rabs (B2R (fmul ro (dh i)) - ro0 * d i) <= 4 * ee * R0).
  { intros i Hi. destruct (d_err i Hi) as [Fdi _]. assert (E1 := d_err_s i Hi). assert (B1 := d_bound i Hi).
    assert (B2 : Rabs (B2R (dh i)) <= (1 + / 1024) * s).
    { replace (B2R (dh i)) with ((B2R (dh i) - d i) + d i) by ring. eapply Rle_trans; [apply Rabs_triang|]. assert (h / 2 * s <= / 1024 * s) by (apply Rmult_le_compat_r; lra). lra. }
    assert (E2 : Rabs (B2R ro * B2R (dh i) - ro0 * d i) <= 36 / 10 * ee * R0).
    { replace (B2R ro * B2R (dh i) - ro0 * d i) with ((B2R ro - ro0) * B2R (dh i) + ro0 * (B2R (dh i) - d i)) by ring.
      eapply Rle_trans; [apply Rabs_triang|]. rewrite !Rabs_mult, (Rabs_pos_eq ro0) by lra.
      assert (Y1 : Rabs (B2R ro - ro0) * Rabs (B2R (dh i)) <= 3 * ee * K * ((1 + / 1024) * s)) by (apply Rmult_le_compat; try apply Rabs_pos; assumption).
      assert (Y2 : ro0 * Rabs (B2R (dh i) - d i) <= K * (h / 2 * s)) by (apply Rmult_le_compat; try apply Rabs_pos; lra).
      replace (3 * ee * K * ((1 + / 1024) * s)) with (3 * (1 + / 1024) * (ee * (K * s))) in Y1 by ring.
      replace (K * (h / 2 * s)) with (h / 2 * (K * s)) in Y2 by ring. rewrite KS in Y1, Y2. lra. }
    assert (B3' := B3 i Hi).
    assert (B4 : Rabs (B2R ro * B2R (dh i)) <= 2 * R0).
    { replace (B2R ro * B2R (dh i)) with ((B2R ro * B2R (dh i) - ro0 * d i) + ro0 * d i) by ring. eapply Rle_trans; [apply Rabs_triang|]. lra. }
    destruct (fmul_rnd ro (dh i) Fro Fdi) as [EM FM]; [apply BIG; lra|]. split; [exact FM|]. rewrite EM.
    assert (Y := rnd_rel (B2R ro * B2R (dh i))). assert (ET := ETA R0 ltac:(eapply Rle_trans; [|apply RR]; apply bpow_le; lia)).
    assert (uro * Rabs (B2R ro * B2R (dh i)) <= h / 8 * (2 * R0)) by (apply Rmult_le_compat; try apply bpow_ge_0; try apply Rabs_pos; lra).
    replace (rnd (B2R ro * B2R (dh i)) - ro0 * d i) with ((rnd (B2R ro * B2R (dh i)) - B2R ro * B2R (dh i)) + (B2R ro * B2R (dh i) - ro0 * d i)) by ring.
    eapply Rle_trans; [apply Rabs_triang|]. lra. }
  assert (XC : forall i, (i < n)%nat -> is_finite (fsub (w (e_xc e) i) (fmul ro (dh i))) = true /\
     Rabs (B2R (fsub (w (e_xc e) i) (fmul ro (dh i))) - (x i - ro0 * d i)) <= 5 * ee * R0 + uro * X).
  { intros i Hi. destruct (STEP i Hi) as [F1 E1]. assert (B1 := d_bound i Hi). assert (BXi := Bx i Hi). assert (B3' := B3 i Hi).
    assert (B4 : Rabs (B2R (fmul ro (dh i))) <= 2 * R0).
    { replace (B2R (fmul ro (dh i))) with ((B2R (fmul ro (dh i)) - ro0 * d i) + ro0 * d i) by ring. eapply Rle_trans; [apply Rabs_triang|]. lra. }
    assert (B5 : Rabs (x i - B2R (fmul ro (dh i))) <= X + 2 * R0).
    { unfold Rminus. eapply Rle_trans; [apply Rabs_triang|]. rewrite Rabs_Ropp. lra. }
    destruct (fsub_rnd (w (e_xc e) i) (fmul ro (dh i)) (Fx i Hi) F1) as [EM FM]; [fold (x i); apply BIG; lra|]. split; [exact FM|]. fold (x i) in EM. rewrite EM.
    assert (Y := rnd_rel (x i - B2R (fmul ro (dh i)))). assert (ET := ETA R0 ltac:(eapply Rle_trans; [|apply RR]; apply bpow_le; lia)).
    assert (Y2 : uro * Rabs (x i - B2R (fmul ro (dh i))) <= uro * (X + 2 * R0)) by (apply Rmult_le_compat_l; [apply bpow_ge_0|lra]).
    assert (Y3 : uro * (2 * R0) <= h / 8 * (2 * R0)) by (apply Rmult_le_compat_r; lra).
    replace (rnd (x i - B2R (fmul ro (dh i))) - (x i - ro0 * d i)) with ((rnd (x i - B2R (fmul ro (dh i))) - (x i - B2R (fmul ro (dh i)))) + - (B2R (fmul ro (dh i)) - ro0 * d i)) by ring.
    eapply Rle_trans; [apply Rabs_triang|]. rewrite Rabs_Ropp. lra. }
  (* the matrix *)
  set (Q1 := fun i j => Q i j - so0 * (d i * d j)).
  set (q1 := fun i j => fsub (e_Q e i j) (fmul so (fmul (dh i) (dh j)))).
  assert (MAT : forall i j, (i < n)%nat -> (j < n)%nat -> is_finite (q1 i j) = true /\ Rabs (B2R (q1 i j) - Q1 i j) <= 6 * ee * M /\ Rabs (Q1 i j) <= 2 * M).
  { intros i j Hi Hj. destruct (d_err i Hi) as [Fi _]. destruct (d_err j Hj) as [Fj _].
    assert (Ei := d_err_s i Hi). assert (Ej := d_err_s j Hj). assert (Bi := d_bound i Hi). assert (Bj := d_bound j Hj).
    assert (ss : 0 < s * s) by (apply Rmult_lt_0_compat; lra).
    assert (hs : 0 < h * (s * s)) by (apply Rmult_lt_0_compat; lra).
    assert (hhs : h * (h * (s * s)) <= / 1024 * (h * (s * s))) by (apply Rmult_le_compat_r; lra).
    assert (DD : Rabs (d i * d j) <= s * s) by (rewrite Rabs_mult; apply Rmult_le_compat; try apply Rabs_pos; assumption).
    assert (E2 : Rabs (B2R (dh i) * B2R (dh j) - d i * d j) <= (1 + / 1024) * h * (s * s)).
    { replace (B2R (dh i) * B2R (dh j) - d i * d j) with ((B2R (dh i) - d i) * (B2R (dh j) - d j) + ((B2R (dh i) - d i) * d j + d i * (B2R (dh j) - d j))) by ring.
      eapply Rle_trans; [apply Rabs_triang|]. eapply Rle_trans; [apply Rplus_le_compat_l, Rabs_triang|]. rewrite !Rabs_mult.
      assert (Rabs (B2R (dh i) - d i) * Rabs (B2R (dh j) - d j) <= h / 2 * s * (h / 2 * s)) by (apply Rmult_le_compat; try apply Rabs_pos; assumption).
      assert (Rabs (B2R (dh i) - d i) * Rabs (d j) <= h / 2 * s * s) by (apply Rmult_le_compat; try apply Rabs_pos; assumption).
      assert (Rabs (d i) * Rabs (B2R (dh j) - d j) <= s * (h / 2 * s)) by (apply Rmult_le_compat; try apply Rabs_pos; assumption). lra. }
    assert (SSu : s * s <= pow2 840).
    { rewrite SS. apply Rle_trans with (pow2 200 * pow2 640); [apply Rmult_le_compat; lra|rewrite <- bpow_plus; apply bpow_le; lia]. }
    assert (SSl : pow2 (-840) <= s * s).
    { rewrite SS. apply Rle_trans with (pow2 (-200) * pow2 (-640)); [rewrite <- bpow_plus; apply bpow_le; lia|]. apply Rmult_le_compat; try apply bpow_ge_0; lra. }
    assert (hss : h * (s * s) <= / 1024 * (s * s)) by (apply Rmult_le_compat_r; lra).
    assert (B2 : Rabs (B2R (dh i) * B2R (dh j)) <= 2 * (s * s)).
    { replace (B2R (dh i) * B2R (dh j)) with ((B2R (dh i) * B2R (dh j) - d i * d j) + d i * d j) by ring. eapply Rle_trans; [apply Rabs_triang|]. lra. }
    destruct (fmul_rnd (dh i) (dh j) Fi Fj) as [EM FM].
    { apply BIG. eapply Rle_trans; [exact B2|]. rewrite B1001. apply Rmult_le_compat_l; [lra|]. eapply Rle_trans; [exact SSu|apply bpow_le; lia]. }
    set (p := fmul (dh i) (dh j)) in *.
    assert (E3 : Rabs (B2R p - d i * d j) <= (1 + / 2) * h * (s * s)).
    { rewrite EM. assert (Y := rnd_rel (B2R (dh i) * B2R (dh j))).
      assert (ET : eta <= h / 64 * (s * s)) by (apply ETA; eapply Rle_trans; [|exact SSl]; apply bpow_le; lia).
      assert (uro * Rabs (B2R (dh i) * B2R (dh j)) <= h / 8 * (2 * (s * s))) by (apply Rmult_le_compat; try apply bpow_ge_0; try apply Rabs_pos; lra).
      replace (rnd (B2R (dh i) * B2R (dh j)) - d i * d j) with ((rnd (B2R (dh i) * B2R (dh j)) - B2R (dh i) * B2R (dh j)) + (B2R (dh i) * B2R (dh j) - d i * d j)) by ring.
      eapply Rle_trans; [apply Rabs_triang|]. lra. }
    assert (B3' : Rabs (B2R p) <= (1 + / 512) * (s * s)).
    { replace (B2R p) with ((B2R p - d i * d j) + d i * d j) by ring. eapply Rle_trans; [apply Rabs_triang|]. lra. }
    assert (E4 : Rabs (B2R so * B2R p - so0 * (d i * d j)) <= 46 / 10 * ee * M).
    { replace (B2R so * B2R p - so0 * (d i * d j)) with ((B2R so - so0) * B2R p + so0 * (B2R p - d i * d j)) by ring.
      eapply Rle_trans; [apply Rabs_triang|]. rewrite !Rabs_mult, (Rabs_pos_eq so0) by lra.
      assert (Y1 : Rabs (B2R so - so0) * Rabs (B2R p) <= 3 * ee * I * ((1 + / 512) * (s * s))) by (apply Rmult_le_compat; try apply Rabs_pos; assumption).
      assert (Y2 : so0 * Rabs (B2R p - d i * d j) <= I * ((1 + / 2) * h * (s * s))) by (apply Rmult_le_compat; try apply Rabs_pos; lra).
      replace (3 * ee * I * ((1 + / 512) * (s * s))) with (3 * (1 + / 512) * (ee * (I * (s * s)))) in Y1 by ring.
      replace (I * ((1 + / 2) * h * (s * s))) with ((1 + / 2) * (h * (I * (s * s)))) in Y2 by ring. rewrite IS in Y1, Y2. lra. }
    assert (BS : Rabs (so0 * (d i * d j)) <= M).
    { rewrite Rabs_mult, Rabs_pos_eq by lra. rewrite <- IS. apply Rmult_le_compat; try apply Rabs_pos; lra. }
    assert (B4 : Rabs (B2R so * B2R p) <= 2 * M).
    { replace (B2R so * B2R p) with ((B2R so * B2R p - so0 * (d i * d j)) + so0 * (d i * d j)) by ring. eapply Rle_trans; [apply Rabs_triang|]. lra. }
    destruct (fmul_rnd so p Fso FM) as [EN FN]; [apply BIG; lra|]. set (m := fmul so p) in *.
    assert (ETM := ETA M ltac:(eapply Rle_trans; [|apply RM]; apply bpow_le; lia)).
    assert (E5 : Rabs (B2R m - so0 * (d i * d j)) <= 5 * ee * M).
    { rewrite EN. assert (Y := rnd_rel (B2R so * B2R p)).
      assert (uro * Rabs (B2R so * B2R p) <= h / 8 * (2 * M)) by (apply Rmult_le_compat; try apply bpow_ge_0; try apply Rabs_pos; lra).
      replace (rnd (B2R so * B2R p) - so0 * (d i * d j)) with ((rnd (B2R so * B2R p) - B2R so * B2R p) + (B2R so * B2R p - so0 * (d i * d j))) by ring.
      eapply Rle_trans; [apply Rabs_triang|]. lra. }
    assert (BQi := BQ i j Hi Hj).
    assert (B5 : Rabs (B2R m) <= 2 * M).
    { replace (B2R m) with ((B2R m - so0 * (d i * d j)) + so0 * (d i * d j)) by ring. eapply Rle_trans; [apply Rabs_triang|]. lra. }
    assert (B6 : Rabs (Q i j - B2R m) <= 3 * M) by (unfold Rminus; eapply Rle_trans; [apply Rabs_triang|]; rewrite Rabs_Ropp; lra).
    destruct (fsub_rnd (e_Q e i j) m (FQ i j Hi Hj) FN) as [EQ FQ1]; [fold (Q i j); apply BIG; lra|]. fold (Q i j) in EQ.
    change (q1 i j) with (fsub (e_Q e i j) m). split; [exact FQ1|]. split.
    - rewrite EQ. assert (Y := rnd_rel (Q i j - B2R m)).
      assert (uro * Rabs (Q i j - B2R m) <= h / 8 * (3 * M)) by (apply Rmult_le_compat; try apply bpow_ge_0; try apply Rabs_pos; lra).
      unfold Q1. replace (rnd (Q i j - B2R m) - (Q i j - so0 * (d i * d j))) with ((rnd (Q i j - B2R m) - (Q i j - B2R m)) + - (B2R m - so0 * (d i * d j))) by ring.
      eapply Rle_trans; [apply Rabs_triang|]. rewrite Rabs_Ropp. lra.
    - unfold Q1, Rminus. eapply Rle_trans; [apply Rabs_triang|]. rewrite Rabs_Ropp. lra. }
  (* kappa *)
  assert (hK : 0 < h * kappa <= ee * kappa) by (split; [apply Rmult_lt_0_compat; lra|apply Rmult_le_compat_r; lra]).
  assert (hK1 : ee * kappa <= / 1024 * kappa) by (apply Rmult_le_compat_r; lra).
  assert (BD : Rabs (B2R delta) <= 3).
  { replace (B2R delta) with ((B2R delta - d0) + d0) by ring. eapply Rle_trans; [apply Rabs_triang|]. rewrite (Rabs_pos_eq d0) by lra. lra. }
  assert (KAP : is_finite (fmul (e_kappa e) delta) = true /\ Rabs (B2R (fmul (e_kappa e) delta) - kappa * d0) <= 15 / 10 * ee * kappa).
  { assert (B1 : Rabs (kappa * B2R delta) <= 3 * kappa) by (rewrite Rabs_mult, Rabs_pos_eq by lra; nra).
    destruct (fmul_rnd (e_kappa e) delta Fk Fd) as [EK FK]; [fold kappa; apply BIG; lra|]. split; [exact FK|]. fold kappa in EK. rewrite EK.
    assert (Y := rnd_rel (kappa * B2R delta)). assert (ET := ETA kappa ltac:(eapply Rle_trans; [|apply Rk]; apply bpow_le; lia)).
    assert (uro * Rabs (kappa * B2R delta) <= h / 8 * (3 * kappa)) by (apply Rmult_le_compat; try apply bpow_ge_0; try apply Rabs_pos; lra).
    replace (rnd (kappa * B2R delta) - kappa * d0) with ((rnd (kappa * B2R delta) - kappa * B2R delta) + kappa * (B2R delta - d0)) by ring.
    eapply Rle_trans; [apply Rabs_triang|]. rewrite (Rabs_mult kappa), (Rabs_pos_eq kappa) by lra.
    assert (kappa * Rabs (B2R delta - d0) <= kappa * ee) by (apply Rmult_le_compat_l; lra). lra. }
  assert (kM : 0 < kappa * M) by (apply Rmult_lt_0_compat; lra). assert (hkM : 0 < ee * (kappa * M)) by (apply Rmult_lt_0_compat; lra).
  do 2 eexists. split; [reflexivity|].
  match goal with |- e_n (snd ?st) = _ /\ _ => set (st' := st) end.
  assert (ST : forall i, fst st' (e_xc e) i = if Nat.ltb i n then fsub (w (e_xc e) i) (fmul ro (dh i)) else w (e_xc e) i).
  { intros i. unfold st'. cbn [fst]. unfold mem_set. rewrite Nat.eqb_refl. reflexivity. }
  assert (CEN : forall i, (i < n)%nat -> is_finite (fst st' (e_xc e) i) = true /\
       Rabs (B2R (fst st' (e_xc e) i) - (x i - ro0 * d i)) <= 5 * ee * R0 + uro * X).
  { intros i Hi. rewrite ST. destruct (Nat.ltb_spec i n); [|lia]. apply XC, Hi. }
  assert (SN : snd st' = (if e_nodefer e then ell_set_Q e (fun i j => fmul (q1 i j) delta) else ell_set_kappa (ell_set_Q e q1) (fmul (e_kappa e) delta))) by reflexivity.
  clearbody st'.
  rewrite SN. destruct (e_nodefer e).
  - cbn [e_n e_xc e_kappa e_Q ell_set_Q ell_set_kappa]. split; [reflexivity|]. split; [reflexivity|]. split; [exact CEN|]. split; [exact Fk|].
    intros i j Hi Hj. destruct (MAT i j Hi Hj) as (F1 & E1 & B1). fold kappa.
    assert (B2 : Rabs (B2R (q1 i j)) <= (2 + / 100) * M).
    { replace (B2R (q1 i j)) with ((B2R (q1 i j) - Q1 i j) + Q1 i j) by ring. eapply Rle_trans; [apply Rabs_triang|]. lra. }
    assert (BB3 : Rabs (B2R (q1 i j) * B2R delta) <= 8 * M).
    { rewrite Rabs_mult. apply Rle_trans with ((2 + / 100) * M * 3); [apply Rmult_le_compat; try apply Rabs_pos; assumption|]. lra. }
    destruct (fmul_rnd (q1 i j) delta F1 Fd) as [EQ FQ1]; [apply BIG; lra|]. split; [exact FQ1|]. rewrite EQ.
    assert (E2 : Rabs (rnd (B2R (q1 i j) * B2R delta) - d0 * Q1 i j) <= 24 * ee * M).
    { assert (Y := rnd_rel (B2R (q1 i j) * B2R delta)). assert (ETM := ETA M ltac:(eapply Rle_trans; [|apply RM]; apply bpow_le; lia)).
      assert (uro * Rabs (B2R (q1 i j) * B2R delta) <= h / 8 * (8 * M)) by (apply Rmult_le_compat; try apply bpow_ge_0; try apply Rabs_pos; lra).
      replace (rnd (B2R (q1 i j) * B2R delta) - d0 * Q1 i j) with ((rnd (B2R (q1 i j) * B2R delta) - B2R (q1 i j) * B2R delta) + (B2R (q1 i j) * (B2R delta - d0) + d0 * (B2R (q1 i j) - Q1 i j))) by ring.
      eapply Rle_trans; [apply Rabs_triang|]. eapply Rle_trans; [apply Rplus_le_compat_l, Rabs_triang|]. rewrite !(Rabs_mult _ (_ - _)), (Rabs_pos_eq d0) by lra.
      assert (Rabs (B2R (q1 i j)) * Rabs (B2R delta - d0) <= (2 + / 100) * M * ee) by (apply Rmult_le_compat; try apply Rabs_pos; assumption).
      assert (d0 * Rabs (B2R (q1 i j) - Q1 i j) <= 8 / 3 * (6 * ee * M)) by (apply Rmult_le_compat; try apply Rabs_pos; lra). lra. }
    change (Q i j - so0 * (d i * d j)) with (Q1 i j).
    replace (kappa * rnd (B2R (q1 i j) * B2R delta) - kappa * d0 * Q1 i j) with (kappa * (rnd (B2R (q1 i j) * B2R delta) - d0 * Q1 i j)) by ring.
    rewrite Rabs_mult, (Rabs_pos_eq kappa) by lra. apply Rle_trans with (kappa * (24 * ee * M)); [apply Rmult_le_compat_l; lra|lra].
  - cbn [e_n e_xc e_kappa e_Q ell_set_Q ell_set_kappa]. destruct KAP as [FK EK]. split; [reflexivity|]. split; [reflexivity|]. split; [exact CEN|]. split; [exact FK|].
    intros i j Hi Hj. destruct (MAT i j Hi Hj) as (F1 & E1 & B1). split; [exact F1|].
    assert (B2 : Rabs (B2R (q1 i j)) <= (2 + / 100) * M).
    { replace (B2R (q1 i j)) with ((B2R (q1 i j) - Q1 i j) + Q1 i j) by ring. eapply Rle_trans; [apply Rabs_triang|]. lra. }
    change (Q i j - so0 * (d i * d j)) with (Q1 i j). set (k' := fmul (e_kappa e) delta) in *.
    replace (B2R k' * B2R (q1 i j) - kappa * d0 * Q1 i j) with ((B2R k' - kappa * d0) * B2R (q1 i j) + kappa * d0 * (B2R (q1 i j) - Q1 i j)) by ring.
    eapply Rle_trans; [apply Rabs_triang|]. rewrite !Rabs_mult, (Rabs_pos_eq kappa), (Rabs_pos_eq d0) by lra.
    assert (Y1 : Rabs (B2R k' - kappa * d0) * Rabs (B2R (q1 i j)) <= 15 / 10 * ee * kappa * ((2 + / 100) * M)) by (apply Rmult_le_compat; try apply Rabs_pos; assumption).
    assert (Y2 : kappa * d0 * Rabs (B2R (q1 i j) - Q1 i j) <= kappa * (8 / 3) * (6 * ee * M)) by (apply Rmult_le_compat; [apply Rmult_le_pos; lra|apply Rabs_pos|apply Rmult_le_compat_l; lra|exact E1]). lra.
Qed.
End Vec.
