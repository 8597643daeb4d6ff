(** Property theorem about the accuracy of ell.update in binary64 (C142). *)
From Coq Require Import ZArith Reals Lra Lia Bool List Psatz.
From Flocq Require Import Core.Core IEEE754.BinarySingleNaN.
From Verif Require Import Base M_Drivers M_Ell S_Ell S_LinAlg P_LinAlg M_Float P_Float P_Float2 S_Float S_EllF P_FSum P_EllCalc P_Ell P_EllF2 P_EllF3 T_Float T_Float2.
Import ListNotations.
Local Open Scope R_scope.

Lemma fint_exact z : (Z.abs z <= 2 ^ 53)%Z -> is_finite (fmake z 0) = true /\ B2R (fmake z 0) = IZR z.
Proof.
  intros H. destruct (fmake_exact z 0) as [N1 N2].
  - change (pow2 0) with 1. rewrite Rmult_1_r. apply fmt_Z. lia.
  - change (pow2 0) with 1. rewrite Rmult_1_r, <- abs_IZR. apply Rle_lt_trans with (pow2 53); [change (pow2 53) with (IZR (2 ^ 53)); apply IZR_le; lia|apply bpow_lt; lia].
  - split; [exact N2|]. rewrite N1. change (pow2 0) with 1. ring.
Qed.

Lemma consts64 h e : pow2 (-50) <= h <= / 1024 -> (2 <= e_n e)%nat /\ (Z.of_nat (e_n e) <= 2 ^ 20)%Z -> built64 e ->
  let N := IZR (Z.of_nat (e_n e)) in
  (is_finite (e_nPlus1 e) = true /\ B2R (e_nPlus1 e) = N + 1) /\ fra h 1 (e_c1 e) (N * N / (N * N - 1)) /\ fra h 1 (e_c2 e) (2 / (N + 1)).
Proof.
  intros Hh Hn (val & x & e0 & E & -> & -> & ->) N. set (n := e_n e) in *.
  assert (NN : 2 <= N <= 1048576) by (unfold N; split; [apply IZR_le; lia|change 1048576 with (IZR (2 ^ 20)); apply IZR_le; lia]).
  assert (Z2 : (Z.of_nat (n * n) <= 2 ^ 40)%Z) by (rewrite Nat2Z.inj_mul; nia).
  assert (Z2' : (4 <= Z.of_nat (n * n))%Z) by (rewrite Nat2Z.inj_mul; nia).
  destruct (fint_exact (Z.of_nat (n * n))) as [F1 E1]; [lia|]. destruct (fint_exact (Z.of_nat n + 1)) as [F2 E2]; [lia|].
  destruct (fint_exact 1) as [F3 E3]; [lia|]. destruct (fint_exact 2) as [F4 E4]; [lia|]. destruct (fint_exact (Z.of_nat n - 1)) as [F5 E5]; [lia|].
  rewrite plus_IZR in E2. fold N in E2. assert (ZNN : IZR (Z.of_nat (n * n)) = N * N) by (rewrite Nat2Z.inj_mul, mult_IZR; reflexivity). rewrite ZNN in E1.
  destruct (fsub_exact (fmake (Z.of_nat (n * n)) 0) (fmake 1 0) F1 F3) as [E6 F6].
  { rewrite E1, E3, <- ZNN, <- minus_IZR. apply fmt_Z. lia. }
  { rewrite E1, E3. rewrite Rabs_pos_eq by nra. apply Rle_lt_trans with (pow2 40); [|apply bpow_lt; lia]. change (pow2 40) with 1099511627776. nra. }
  rewrite E1, E3 in E6.
  assert (P0 : pow2 (-1000) <= pow2 (-20)) by (apply bpow_le; lia). change (pow2 (-20)) with (/ 1048576) in P0.
  unfold ell_init in E.
  change (@ndiv b64 FNum) with fdivr in E. change (@nofZ b64 FNum) with (fun z => fmake z 0) in E. change (@nsub b64 FNum) with fsub in E. change (@none b64 FNum) with (fmake 1 0) in E.
  change (@two b64 FNum) with (fmake 2 0) in E. cbv zeta beta in E.
  assert (D2 : forall a, fdivr a (fmake 2 0) = Ok (fdiv a (fmake 2 0))) by (intros a; apply fdivr_ok; [exact F4|rewrite E4; lra]).
  rewrite !D2 in E. cbn [bind] in E.
  rewrite fdivr_ok in E; [|exact F6|rewrite E6; nra]. cbn [bind] in E.
  rewrite fdivr_ok in E; [|exact F2|rewrite E2; lra]. cbn [bind] in E.
  rewrite fdivr_ok in E; [|exact F2|rewrite E2; lra]. cbn [bind] in E.
  match type of E with Ok ?r = Ok _ => assert (EE : e0 = r) by congruence end. rewrite EE. cbn [e_nPlus1 e_c1 e_c2].
  split; [split; assumption|].
  assert (C1 : 1 <= N * N / (N * N - 1) <= 4 / 3).
  { assert (0 < N * N - 1) by nra. split; apply Rmult_le_reg_r with (N * N - 1); try lra;
      replace (N * N / (N * N - 1) * (N * N - 1)) with (N * N) by (field; lra); nra. }
  assert (C2 : / 1048576 <= 2 / (N + 1) <= 1).
  { split; apply Rmult_le_reg_r with (N + 1); try lra; replace (2 / (N + 1) * (N + 1)) with 2 by (field; lra); lra. }
  assert (P3 : 2 <= pow2 1023) by (change 2 with (pow2 1); apply bpow_le; lia).
  split.
  - destruct (fdiv_rnd (fmake (Z.of_nat (n * n)) 0) (fsub (fmake (Z.of_nat (n * n)) 0) (fmake 1 0)) F1) as [ED FD]; [rewrite E6; nra|rewrite E6, E1, Rabs_pos_eq; lra|].
    split; [exact FD|]. rewrite ED, E1, E6. replace 1 with (0 + 1) at 1 by ring. apply ra_rnd; [exact Hh|apply ra_refl; lra|lra|lra].
  - destruct (fdiv_rnd (fmake 2 0) (fmake (Z.of_nat n + 1) 0) F4) as [ED FD]; [rewrite E2; lra|rewrite E4, E2, Rabs_pos_eq; lra|].
    split; [exact FD|]. rewrite ED, E4, E2. replace 1 with (0 + 1) at 1 by ring. apply ra_rnd; [exact Hh|apply ra_refl; lra|lra|lra].
Qed.

Lemma norm1_nn n a : 0 <= norm1 n a.
Proof. unfold norm1, dot. induction n as [|n IH]; cbn [rsum]; [lra|]. assert (X := Rabs_pos (a n)). lra. Qed.
Lemma dot_norm1 n a v c : 0 <= c -> (forall i, (i < n)%nat -> Rabs (v i) <= c) -> Rabs (dot n a v) <= norm1 n a * c.
Proof.
  unfold norm1, dot. intros Hc. induction n as [|n IH]; intros H; cbn [rsum]; [rewrite Rabs_R0; lra|].
  eapply Rle_trans; [apply Rabs_triang|]. assert (IH' := IH ltac:(intros; apply H; lia)). rewrite Rabs_mult.
  assert (Rabs (a n) * Rabs (v n) <= Rabs (a n) * c) by (apply Rmult_le_compat_l; [apply Rabs_pos|apply H; lia]). lra.
Qed.
Lemma bf_norm1 n M a c : 0 <= c -> (forall i j, (i < n)%nat -> (j < n)%nat -> Rabs (M i j) <= c) -> Rabs (bf n M a a) <= norm1 n a * norm1 n a * c.
Proof.
  intros Hc H. unfold bf. assert (X := norm1_nn n a). rewrite Rmult_assoc. apply dot_norm1; [nra|].
  intros i Hi. unfold mvr. rewrite dot_comm. apply dot_norm1; [exact Hc|]. intros j Hj. apply H; assumption.
Qed.

(** ** C142: how much a successful update with one cut can lose.  Whatever the summation order of the dot
    products, every point of the old set that satisfies the cut stays within the support of the new set, up to
    64 h kappa M under the root and 16 h sqrt (kappa M) + 2^-53 X outside it, in every direction. *)
Theorem C142_ell_update_loss h M G X dotf w e g b st' tsq a z :
  fdot_any dotf -> built64 e -> scaled64 h M G X (w, e) g b ->
  @ell_update b64 (FNumD dotf) (w, e) (g, BScalar b) = Ok (st', (success, tsq)) ->
  mem64 (w, e) z -> sat64 (w, e) g b z ->
  let n := e_n e in let kM := B2R (e_kappa e) * M in
  e_n (snd st') = n /\
  (is_finite (e_kappa (snd st')) = true /\ (forall i, (i < n)%nat -> is_finite (fst st' (e_xc (snd st')) i) = true) /\
   forall i j, (i < n)%nat -> (j < n)%nat -> is_finite (e_Q (snd st') i j) = true) /\
  Rabs (dot n a (fun i => z i - B2R (fst st' (e_xc (snd st')) i)))
    <= sqrt (width2 (snd st') a + 64 * h * kM * (norm1 n a * norm1 n a)) + norm1 n a * (16 * h * sqrt kM + bpow radix2 (-53) * X).
Proof.
  intros HD HB (Hn & HQ & Hg & Hx & [Fk Rk] & [Fb Rb] & Hs & Hp & RM & RG & RX & Hom & Hh1) U Hz Hc. cbv zeta.
  assert (HH : pow2 (-50) <= h <= / 1024) by (apply Hh with (e := e) (g := g) (M := M) (G := G); try assumption; intros; apply HQ || apply Hg; assumption).
  destruct (consts64 h e HH Hn HB) as (Hp1 & Hc1 & Hc2).
  set (n := e_n e) in *. set (Q := fun i j => B2R (e_Q e i j)) in *. set (gr := fun i => B2R (g i)) in *. set (kappa := B2R (e_kappa e)) in *.
  set (x := fun i => B2R (w (e_xc e) i)).
  assert (OP : 0 < bf n Q gr gr) by (apply om_pos with (h := h) (e := e) (M := M) (G := G); try assumption; intros; apply HQ || apply Hg; assumption).
  assert (HT : 0 <= kappa * bf n Q gr gr) by (assert (0 < pow2 (-200)) by apply bpow_gt_0; nra).
  cbn [mem64] in Hz. fold n Q kappa x in Hz. cbn [sat64] in Hc. fold n gr in Hc.
  change (dot n gr (fun i => z i - x i) + B2R b <= 0) in Hc.
  assert (RNG := in_ell_range n Q kappa x z gr Hs Hp Hz). cbv zeta in RNG. set (al := dot n gr (fun i => z i - x i)) in *.
  set (tau := sqrt (kappa * bf n Q gr gr)).
  assert (TT : tau * tau = kappa * bf n Q gr gr) by (apply sqrt_sqrt; exact HT). assert (T0 : 0 <= tau) by apply sqrt_pos.
  assert (AT : - tau <= al) by nra.
  assert (BT : B2R b <= tau) by lra.
  destruct (upd64 h dotf e g M G HD Hn) with (w := w) (b := b) (X := X) (st' := st') (tsq := tsq)
    as (r0 & s0 & d0 & FORM & D0 & EN & EX & CEN & FK & MAT); try assumption; try (intros; apply HQ || apply Hg || apply Hx; assumption); [lra|].
  split; [exact EN|]. rewrite EX. split; [split; [exact FK|split; intros; [apply CEN|apply MAT]; assumption]|].
  fold n in FORM, CEN, MAT. fold Q gr kappa in FORM, CEN, MAT.
  set (om := bf n Q gr gr) in *. set (Q1 := fun i j => Q i j - s0 / om * (mvr n Q gr i * mvr n Q gr j)).
  set (x1 := fun i => x i - r0 / om * mvr n Q gr i).
  assert (SO : step_ok (kappa * om) (B2R b) (sqrt (kappa * om)) r0 s0 d0).
  { pose (eR := {| e_n := n; e_nPlus1 := 0; e_halfN := 0; e_halfNminus1 := 0; e_c1 := 0; e_c2 := 0; e_c3 := 0; e_xc := 0%nat; e_kappa := 0;
                   e_Q := fun _ _ => 0; e_par := true; e_nodefer := true |}).
    apply (dc_formula_step_ok eR); [exact (proj1 Hn)|exact HT|exact BT|exact FORM]. }
  assert (IN1 : in_ell n Q1 (kappa * d0) x1 z).
  { apply (step_keep n Q kappa x gr Hs Hp OP r0 s0 d0 (B2R b) (sqrt (kappa * om)) z SO Hz). cbv zeta. fold al. fold tau. nra. }
  assert (S01 : 0 <= s0 <= 1) by apply SO.
  assert (R1 := in_ell_range n Q1 (kappa * d0) x1 z a (Q1_sym n Q gr Hs s0) (Q1_psd n Q gr Hs Hp OP s0 S01) IN1). cbv zeta in R1.
  set (A1 := norm1 n a) in *. assert (A0 : 0 <= A1) by apply norm1_nn.
  assert (KM : 0 < kappa * M) by (assert (0 < pow2 (-200)) by apply bpow_gt_0; apply Rmult_lt_0_compat; lra).
  assert (HP : 0 < h) by (assert (0 < pow2 (-50)) by apply bpow_gt_0; lra).
  assert (X0 : 0 <= X) by (eapply Rle_trans; [apply Rabs_pos|apply (proj2 (Hx 0%nat ltac:(lia)))]).
  set (k1 := B2R (e_kappa (snd st'))) in *.
  assert (W : Rabs (width2 (snd st') a - kappa * d0 * bf n Q1 a a) <= A1 * A1 * (64 * h * (kappa * M))).
  { unfold width2. rewrite EN. fold n k1.
    replace (k1 * bf n (fun i j => B2R (e_Q (snd st') i j)) a a - kappa * d0 * bf n Q1 a a)
      with (bf n (fun i j => k1 * B2R (e_Q (snd st') i j) - kappa * d0 * Q1 i j) a a).
    2: { rewrite !bf_sums, <- !rsum_scal_l, <- rsum_minus. apply rsum_ext; intros i _. rewrite <- !rsum_scal_l, <- rsum_minus. apply rsum_ext; intros; ring. }
    apply (bf_norm1 n (fun i j => k1 * B2R (e_Q (snd st') i j) - kappa * d0 * Q1 i j) a); [nra|]. intros i j Hi Hj. exact (proj2 (MAT i j Hi Hj)). }
  assert (V : Rabs (dot n a (fun i => x1 i - B2R (fst st' (e_xc e) i))) <= A1 * (16 * h * sqrt (kappa * M) + uro * X)).
  { apply (dot_norm1 n a (fun i => x1 i - B2R (fst st' (e_xc e) i))).
    - assert (0 <= sqrt (kappa * M)) by apply sqrt_pos. assert (0 < uro) by apply bpow_gt_0. nra.
    - intros i Hi. rewrite Rabs_minus_sym. exact (proj2 (CEN i Hi)). }
  replace (dot n a (fun i => z i - B2R (fst st' (e_xc e) i))) with (dot n a (fun i => z i - x1 i) + dot n a (fun i => x1 i - B2R (fst st' (e_xc e) i))).
  2: { rewrite <- dot_plus_r. apply dot_ext; [reflexivity|]. intros; ring. }
  eapply Rle_trans; [apply Rabs_triang|]. apply Rplus_le_compat; [|exact V].
  rewrite <- sqrt_Rsqr_abs. apply sqrt_le_1_alt. unfold Rsqr. apply Rabs_le_inv in W. lra.
Qed.
Print Assumptions C142_ell_update_loss.

(** and a reported nosoln: no point of the set is inside the cut moved out by 8 h beta *)
Theorem C142_nosoln_margin h M G X dotf w e g b st' tsq z :
  fdot_any dotf -> scaled64 h M G X (w, e) g b ->
  @ell_update b64 (FNumD dotf) (w, e) (g, BScalar b) = Ok (st', (nosoln, tsq)) ->
  mem64 (w, e) z ->
  0 < dot (e_n e) (fun i => B2R (g i)) (fun i => z i - B2R (w (e_xc e) i)) + B2R b * (1 + 8 * h).
Proof.
  intros HD (Hn & HQ & Hg & Hx & [Fk Rk] & [Fb Rb] & Hs & Hp & RM & RG & RX & Hom & Hh1) U Hz.
  assert (HH : pow2 (-50) <= h <= / 1024) by (apply Hh with (e := e) (g := g) (M := M) (G := G); try assumption; intros; apply HQ || apply Hg; assumption).
  assert (L : sqrt (B2R (e_kappa e) * bf (e_n e) (fun i j => B2R (e_Q e i j)) (fun i => B2R (g i)) (fun i => B2R (g i))) * (1 - 4 * h) < B2R b).
  { apply upd_nosoln64 with (dot := dotf) (M := M) (G := G) (w := w) (st' := st') (tsq := tsq); try assumption; try (intros; apply HQ || apply Hg; assumption); lra. }
  set (n := e_n e) in *. set (Q := fun i j => B2R (e_Q e i j)) in *. set (gr := fun i => B2R (g i)) in *. set (kappa := B2R (e_kappa e)) in *.
  set (x := fun i => B2R (w (e_xc e) i)).
  cbn [mem64] in Hz. fold n Q kappa x in Hz. change (0 < dot n gr (fun i => z i - x i) + B2R b * (1 + 8 * h)).
  assert (RNG := in_ell_range n Q kappa x z gr Hs Hp Hz). cbv zeta in RNG. set (al := dot n gr (fun i => z i - x i)) in *.
  set (tau := sqrt (kappa * bf n Q gr gr)) in *.
  assert (HT : 0 <= kappa * bf n Q gr gr) by (assert (0 < pow2 (-200)) by apply bpow_gt_0; assert (0 <= bf n Q gr gr) by apply Hp; nra).
  assert (TT : tau * tau = kappa * bf n Q gr gr) by (apply sqrt_sqrt; exact HT). assert (T0 : 0 <= tau) by apply sqrt_pos.
  assert (AT : - tau <= al) by nra. assert (HP : 0 < h) by (assert (0 < pow2 (-50)) by apply bpow_gt_0; lra).
  assert (tau < B2R b * (1 + 8 * h)); [|lra].
  apply Rmult_lt_reg_r with (1 - 4 * h); [lra|]. eapply Rlt_le_trans; [exact L|].
  rewrite Rmult_assoc. rewrite <- (Rmult_1_r (B2R b)) at 1. apply Rmult_le_compat_l; [lra|]. nra.
Qed.
Print Assumptions C142_nosoln_margin.

(** Non-vacuity: the fresh unit disc in the plane, the cut (1, 0), 1/4 and h = 2^-47; the update succeeds and the
    point (-1/4, sqrt 15 / 4), which C124 shows to be lost, satisfies the hypotheses. *)
Example C142_ex : exists (e : ell b64) w g beta st' tsq z,
  fdot_any fdot_seq /\ @ell_init b64 FNum (VScalar (fmake 1 0)) 2 0%nat = Ok e /\ built64 e /\
  scaled64 (bpow radix2 (-47)) 1 1 0 (w, e) g beta /\
  @ell_update b64 (FNumD fdot_seq) (w, e) (g, BScalar beta) = Ok (st', (success, tsq)) /\
  mem64 (w, e) z /\ sat64 (w, e) g beta z.
Proof.
  set (g := fun i => if (i =? 0)%nat then fmake 1 0 else fzero). set (w := fun (_ i : nat) => fzero).
  set (a := fmake 0x19999999999998 (-55)).
  assert (X : ell2_info w g (fmake 1 (-2)) (@ell_init b64 FNum (VScalar (fmake 1 0)) 2 0%nat) =
    Some (2%nat, map B2SF [fmake 1 0; fmake 1 0; fzero; fzero; fmake 1 0; fzero; fzero],
         (2%nat, map B2SF [fmake 5 (-2); a; fzero; fzero; fmake 1 0; fmake (-1) (-1); fzero], success))) by (vm_compute; reflexivity).
  revert X. destruct (@ell_init b64 FNum (VScalar (fmake 1 0)) 2 0%nat) as [e|] eqn:E; [|discriminate]. cbn [ell2_info].
  match goal with |- match ?u with Ok _ => _ | Raise _ => _ end = _ -> _ => destruct u as [[[w' e'] [s tsq]]|] eqn:U; [|discriminate] end. intros X.
  unfold ell2_of in X. cbn [map] in X.
  assert (En : e_n e = 2%nat) by congruence. assert (Es : s = success) by congruence.
  assert (I : forall x y : b64, B2SF x = B2SF y -> x = y) by (intros x y; apply B2SF_inj).
  assert (X1 : e_kappa e = fmake 1 0) by (apply I; congruence).
  assert (X2 : e_Q e 0%nat 0%nat = fmake 1 0) by (apply I; congruence).
  assert (X3 : e_Q e 0%nat 1%nat = fzero) by (apply I; congruence).
  assert (X4 : e_Q e 1%nat 0%nat = fzero) by (apply I; congruence).
  assert (X5 : e_Q e 1%nat 1%nat = fmake 1 0) by (apply I; congruence).
  clear X I. subst s.
  set (z := fun i => if (i =? 0)%nat then - / 4 else sqrt 15 / 4).
  assert (S15 : sqrt 15 * sqrt 15 = 15) by (apply sqrt_sqrt; lra).
  assert (P200 : pow2 (-200) <= 1 <= pow2 200) by (change 1 with (pow2 0); split; apply bpow_le; lia).
  assert (R1 : B2R (fmake 1 0) = 1) by (rewrite fmakeR by lia; change (pow2 0) with 1; ring).
  assert (R4 : B2R (fmake 1 (-2)) = / 4) by (rewrite fmakeR by lia; change (pow2 (-2)) with (/ 4); ring).
  exists e, w, g, (fmake 1 (-2)), (w', e'), tsq, z. split; [exact fnum_dot_any|]. split; [reflexivity|]. split; [|split; [|split; [exact U|]]].
  - exists (VScalar (fmake 1 0)), 0%nat, e. rewrite En. split; [exact E|]. auto.
  - unfold scaled64. cbv zeta. rewrite En.
    split; [split; lia|]. split.
    { intros i j Hi Hj. assert (Z0 : Rabs 0 <= 1) by (rewrite Rabs_R0; lra). assert (Z1 : Rabs 1 <= 1) by (rewrite Rabs_R1; lra).
      destruct i as [|[|i]]; [| |lia]; (destruct j as [|[|j]]; [| |lia]); rewrite ?X2, ?X3, ?X4, ?X5, ?R1; change (B2R fzero) with 0; split; (reflexivity || assumption). }
    split.
    { intros i Hi. assert (Z0 : Rabs 0 <= 1) by (rewrite Rabs_R0; lra). assert (Z1 : Rabs 1 <= 1) by (rewrite Rabs_R1; lra).
      destruct i as [|[|i]]; [| |lia]; unfold g; cbn [Nat.eqb]; rewrite ?R1; change (B2R fzero) with 0; split; (reflexivity || assumption). }
    split. { intros i Hi. split; [reflexivity|]. change (Rabs 0 <= 0). rewrite Rabs_R0. lra. }
    split. { rewrite X1, R1. split; [reflexivity|lra]. }
    split. { rewrite R4. split; [reflexivity|]. assert (1 <= pow2 1000) by (change 1 with (pow2 0); apply bpow_le; lia). lra. }
    split. { intros i j Hi Hj. destruct i as [|[|i]]; [| |lia]; (destruct j as [|[|j]]; [| |lia]); rewrite ?X3, ?X4; reflexivity. }
    split. { intros u. rewrite bf2, X2, X3, X4, X5, R1. change (B2R fzero) with 0. assert (0 <= u 0%nat * u 0%nat) by apply Rle_0_sqr. assert (0 <= u 1%nat * u 1%nat) by apply Rle_0_sqr. lra. }
    split; [exact P200|]. split; [exact P200|]. split; [apply bpow_ge_0|]. split.
    + rewrite bf2, X2, X3, X4, X5. unfold g. cbn [Nat.eqb]. rewrite R1. change (B2R fzero) with 0.
      change (IZR (Z.of_nat 2)) with 2. replace (pow2 (-47)) with (8 * pow2 (-50)) by (change 8 with (pow2 3); rewrite <- bpow_plus; reflexivity). lra.
    + change (/ 1024) with (pow2 (-10)). apply bpow_le. lia.
  - unfold mem64, sat64. rewrite En. split.
    + exists z. split.
      * intros i Hi. unfold mvr, dot. destruct i as [|[|i]]; [| |lia]; cbn [rsum]; rewrite ?X2, ?X3, ?X4, ?X5; change (w (e_xc e)) with (fun _ : nat => fzero); cbv beta;
          rewrite R1; change (B2R fzero) with 0; lra.
      * rewrite bf2, X1, X2, X3, X4, X5, R1. change (B2R fzero) with 0. unfold z. cbn [Nat.eqb]. lra.
    + unfold dot. cbn [rsum]. change (w (e_xc e)) with (fun _ : nat => fzero). unfold g, z. cbn [Nat.eqb]. rewrite R1, R4. change (B2R fzero) with 0. lra.
Qed.
