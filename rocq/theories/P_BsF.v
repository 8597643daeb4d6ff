(** bsearch on binary64 bounds. *)
From Coq Require Import ZArith Reals Lra Lia Bool List.
From Flocq Require Import Core.Core IEEE754.BinarySingleNaN.
From Verif Require Import Base M_Drivers M_Float M_FloatD S_Drivers P_Drivers P_BSearch P_Float P_Float2 S_Float P_FSum.
Import ListNotations.
Local Open Scope R_scope.

Lemma b64_mult (x : b64) : exists z, B2R x = IZR z * pow2 (-1074).
Proof.
  destruct (b64_scaled x) as (m & c & E & _ & Hc). exists (m * 2 ^ (c + 1074))%Z. rewrite E, mult_IZR.
  change 2%Z with (radix_val radix2). rewrite IZR_Zpower by lia. rewrite Rmult_assoc, <- bpow_plus. do 2 f_equal. lia.
Qed.
Definition dlt (B : R) : R := pow2 (-51) * (B + pow2 (-1000)).

Definition tau64 (u l : b64) : b64 := fdiv (fsub u l) (fmake 2 0).

Section Mid.
Variables (l u : b64) (B : R).
Hypothesis Fl : is_finite l = true.
Hypothesis Fu : is_finite u = true.
Hypothesis Hlu : B2R l <= B2R u.
Hypothesis HBl : Rabs (B2R l) <= B.
Hypothesis HBu : Rabs (B2R u) <= B.
Hypothesis HB : B <= pow2 1022.
Notation d := (B2R u - B2R l).
Let HBl' := Rabs_le_inv _ _ HBl.
Let HBu' := Rabs_le_inv _ _ HBu.

Lemma d_range : 0 <= d <= 2 * B /\ Rabs d <= pow2 1023.
Proof.
  assert (0 <= d <= 2 * B) by lra. split; [assumption|]. rewrite Rabs_pos_eq by lra.
  apply Rle_trans with (2 * B); [lra|]. replace (pow2 1023) with (2 * pow2 1022); [lra|]. change 2 with (pow2 1) at 1. rewrite <- bpow_plus. reflexivity.
Qed.
Lemma sub64 : B2R (fsub u l) = rnd d /\ is_finite (fsub u l) = true.
Proof. apply fsub_rnd; try assumption. apply d_range. Qed.
Lemma tau64_R : B2R (tau64 u l) = rnd (rnd d / 2) /\ is_finite (tau64 u l) = true.
Proof.
  destruct sub64 as [E F]. destruct ftwo as [E2 F2]. unfold tau64.
  destruct (fdiv_rnd (fsub u l) (fmake 2 0) F) as [H1 H2]; [rewrite E2; lra| |rewrite H1, E, E2; auto].
  rewrite E, E2. destruct d_range as [D1 D2]. rewrite Rabs_pos_eq in D2 by lra.
  assert (R1 : 0 <= rnd d) by (apply rnd_ge; [lra|apply generic_format_0]).
  assert (R2 : rnd d <= pow2 1023) by (apply rnd_le; [exact D2|apply fmt_pow2; lia]).
  rewrite Rabs_pos_eq by lra. assert (0 < pow2 1023) by apply bpow_gt_0. lra.
Qed.
Lemma tau_nonneg : 0 <= B2R (tau64 u l).
Proof.
  destruct tau64_R as [-> _]. destruct d_range as [D1 _]. apply rnd_ge; [|apply generic_format_0].
  assert (0 <= rnd d) by (apply rnd_ge; [lra|apply generic_format_0]). lra.
Qed.
Lemma tau_le : B2R (tau64 u l) <= d.
Proof.
  destruct tau64_R as [-> _]. destruct d_range as [D1 _].
  destruct (b64_mult u) as [zu Eu], (b64_mult l) as [zl El].
  assert (Ed : d = IZR (zu - zl) * pow2 (-1074)) by (rewrite Eu, El, minus_IZR; ring).
  assert (P := bpow_gt_0 radix2 (-1074)).
  assert (Z0 : (0 <= zu - zl)%Z) by (apply le_IZR; apply Rmult_le_reg_r with (pow2 (-1074)); [exact P|rewrite <- Ed; lra]).
  destruct (Z_le_gt_dec (zu - zl) 1) as [S|S].
  - assert (Fd : fmt d) by (rewrite Ed; apply fmt_scaled; lia).
    rewrite (round_generic radix2 fexp64 ZnearestE d Fd). apply rnd_le; [lra|exact Fd].
  - assert (D2 : 2 * pow2 (-1074) <= d) by (rewrite Ed; apply Rmult_le_compat_r; [lra|apply IZR_le; lia]).
    assert (E : pow2 (-1074) = 2 * eta) by (change 2 with (pow2 1); rewrite <- bpow_plus; reflexivity).
    assert (R1 := rnd_rel d). rewrite (Rabs_pos_eq d) in R1 by lra. apply Rabs_le_inv in R1 as [_ R1].
    assert (R0 : 0 <= rnd d) by (apply rnd_ge; [lra|apply generic_format_0]).
    assert (R2 := rnd_rel (rnd d / 2)). rewrite (Rabs_pos_eq (rnd d / 2)) in R2 by lra. apply Rabs_le_inv in R2 as [_ R2].
    assert (U : 0 < uro <= / 1000) by (cbn; lra). assert (P2 := bpow_gt_0 radix2 (-1075)).
    assert (U1 : uro * d <= / 1000 * d) by (apply Rmult_le_compat_r; lra).
    assert (U2 : uro * (rnd d / 2) <= / 1000 * (rnd d / 2)) by (apply Rmult_le_compat_r; lra). lra.
Qed.
Definition mid64 : b64 := fadd l (tau64 u l).
Lemma mid64_R : B2R mid64 = rnd (B2R l + B2R (tau64 u l)) /\ is_finite mid64 = true.
Proof.
  destruct tau64_R as [_ F]. apply fadd_rnd; try assumption. assert (T0 := tau_nonneg). assert (T1 := tau_le).
  assert (pow2 1022 <= pow2 1023) by (apply bpow_le; lia). apply Rabs_le. lra.
Qed.
Lemma mid64_in : B2R l <= B2R mid64 <= B2R u.
Proof.
  destruct mid64_R as [-> _]. assert (T0 := tau_nonneg). assert (T1 := tau_le).
  split; [apply rnd_ge; [lra|apply fmt_b64]|apply rnd_le; [lra|apply fmt_b64]].
Qed.
Lemma mid64_err : Rabs (B2R mid64 - (B2R l + B2R u) / 2) <= dlt B.
Proof.
  destruct mid64_R as [-> _]. assert (T0 := tau_nonneg). assert (T1 := tau_le). destruct d_range as [D1 _].
  assert (R3 := rnd_rel (B2R l + B2R (tau64 u l))).
  assert (A3 : Rabs (B2R l + B2R (tau64 u l)) <= B) by (apply Rabs_le; lra).
  destruct tau64_R as [Et _].
  assert (R1 := rnd_rel d). rewrite (Rabs_pos_eq d) in R1 by lra. apply Rabs_le_inv in R1 as [R1 R1'].
  assert (R0 : 0 <= rnd d) by (apply rnd_ge; [lra|apply generic_format_0]).
  assert (R2 := rnd_rel (rnd d / 2)). rewrite (Rabs_pos_eq (rnd d / 2)) in R2 by lra. rewrite <- Et in R2. apply Rabs_le_inv in R2 as [R2 R2'].
  apply Rabs_le_inv in R3 as [R3 R3'].
  assert (U : 0 < uro <= / 1000) by (cbn; lra). assert (P2 := bpow_gt_0 radix2 (-1075)).
  assert (U1 : uro * d <= uro * (2 * B)) by (apply Rmult_le_compat_l; lra).
  assert (U2 : uro * (rnd d / 2) <= uro * (11 / 10 * B + eta)).
  { apply Rmult_le_compat_l; [lra|]. assert (uro * (2 * B) <= / 1000 * (2 * B)) by (apply Rmult_le_compat_r; lra). lra. }
  assert (U3 : uro * Rabs (B2R l + B2R (tau64 u l)) <= uro * B) by (apply Rmult_le_compat_l; lra).
  assert (U4 : uro * eta <= / 1000 * eta) by (apply Rmult_le_compat_r; lra).
  assert (E51 : pow2 (-51) = 4 * uro) by (change 4 with (pow2 2); rewrite <- bpow_plus; reflexivity).
  assert (E1000 : 3 * eta <= pow2 (-51) * pow2 (-1000)).
  { rewrite <- bpow_plus. replace (pow2 (-51 + -1000)) with (pow2 24 * eta) by (rewrite <- bpow_plus; reflexivity).
    apply Rmult_le_compat_r; [lra|cbn; lra]. }
  assert (0 <= uro * B) by (apply Rmult_le_pos; lra).
  unfold dlt. rewrite Rmult_plus_distr_l. rewrite E51 at 1. apply Rabs_le. lra.
Qed.
(** the test tau < tol is about the exact half-width *)
Lemma tau_lt (tol : b64) : is_finite tol = true -> Bltb (tau64 u l) tol = true -> d / 2 < B2R tol.
Proof.
  intros Ft H. destruct tau64_R as [E F]. rewrite f64_ltb in H by assumption.
  destruct (Rlt_bool_spec (B2R (tau64 u l)) (B2R tol)) as [L|]; [|discriminate H]. apply Rnot_le_lt. intros C.
  rewrite E in L. assert (H2 : B2R tol <= rnd (rnd d / 2)); [|lra]. apply rnd_ge; [|apply fmt_b64].
  assert (H3 : 2 * B2R tol <= rnd d); [|lra]. apply rnd_ge; [lra|].
  destruct (b64_scaled tol) as (m & c & Em & Hm & Hc). rewrite Em.
  replace (2 * (IZR m * pow2 c)) with (IZR m * pow2 (c + 1)) by (rewrite bpow_plus; cbn; ring). apply fmt_scaled; lia.
Qed.
Lemma tau_ge (tol : b64) : is_finite tol = true -> Bltb (tau64 u l) tol = false -> 0 <= B2R tol -> B2R tol <= d.
Proof.
  intros Ft H H0. destruct tau64_R as [E F]. rewrite f64_ltb in H by assumption.
  destruct (Rlt_bool_spec (B2R (tau64 u l)) (B2R tol)) as [|L]; [discriminate H|]. assert (T1 := tau_le). lra.
Qed.
End Mid.

Section Search.
Context {O : Type}.
Variable omega : O -> b64 -> res (O * bool).
Variable B : R.
Hypothesis HB : B <= pow2 1022.

Definition okf (x : b64) : Prop := is_finite x = true /\ Rabs (B2R x) <= B.

Lemma width_step w w' k : w' <= w / 2 + dlt B ->
  w' / 2 ^ k + 2 * dlt B * (1 - / 2 ^ k) <= w / (2 * 2 ^ k) + 2 * dlt B * (1 - / (2 * 2 ^ k)).
Proof.
  intros H. assert (P : 0 < 2 ^ k) by (apply pow_lt; lra). assert (P2 := Rinv_0_lt_compat _ P).
  assert (w' * / 2 ^ k <= (w / 2 + dlt B) * / 2 ^ k) by (apply Rmult_le_compat_r; lra).
  unfold Rdiv. rewrite Rinv_mult_distr by lra. lra.
Qed.

Lemma mids64 tol o lo hi tr o' l u :
  bs_replay omega o lo hi tr o' l u ->
  mids (fun u l => fdiv (fsub u l) (fmake 2 0)) fadd (fun x y => Bltb x y) tol lo hi tr ->
  okf lo -> okf hi -> B2R lo <= B2R hi ->
  okf l /\ okf u /\ B2R lo <= B2R l /\ B2R l <= B2R u /\ B2R u <= B2R hi /\
  B2R u - B2R l <= (B2R hi - B2R lo) / 2 ^ length tr + 2 * dlt B * (1 - / 2 ^ length tr) /\
  (forall t b, In (t, b) tr -> is_finite t = true /\ B2R lo <= B2R t <= B2R hi /\ (b = true -> B2R u <= B2R t) /\ (b = false -> B2R t <= B2R l)).
Proof.
  intros H.
  induction H as [o lo hi|o lo hi t o1 tr o' lo' hi' Ho Hr IH
                  |o lo hi t o1 tr o' lo' hi' Ho Hr IH]; cbn [mids length pow]; intros Hm Hlo Hhi Hle.
  - split; [assumption|split; [assumption|]]. split; [lra|]. split; [lra|]. split; [lra|]. split; [lra|]. intros t b [].
  - destruct Hm as (Et & _ & Hm). change (fadd lo _) with (mid64 lo hi) in Et.
    destruct Hlo as [Fl Bl], Hhi as [Fh Bh].
    assert (M1 := mid64_in lo hi B Fl Fh Hle Bl Bh HB). assert (M2 := mid64_err lo hi B Fl Fh Hle Bl Bh HB).
    destruct (mid64_R lo hi B Fl Fh Hle Bl Bh HB) as [_ M3]. rewrite <- Et in M1, M2, M3.
    assert (Ht : okf t).
    { split; [exact M3|]. apply Rabs_le_inv in Bl, Bh. apply Rabs_le. lra. }
    destruct (IH Hm (conj Fl Bl) Ht ltac:(lra)) as (A1 & A2 & A3 & A4 & A5 & A6 & A7).
    split; [exact A1|split; [exact A2|]]. split; [lra|]. split; [lra|]. split; [lra|]. split.
    + apply Rabs_le_inv in M2. eapply Rle_trans; [exact A6|]. apply width_step. lra.
    + intros t0 b [E|Hin].
      * injection E as <- <-. split; [exact M3|]. split; [lra|]. split; [intros _; lra|discriminate].
      * destruct (A7 t0 b Hin) as (C1 & C2 & C3 & C4). split; [exact C1|]. split; [lra|]. split; assumption.
  - destruct Hm as (Et & _ & Hm). change (fadd lo _) with (mid64 lo hi) in Et.
    destruct Hlo as [Fl Bl], Hhi as [Fh Bh].
    assert (M1 := mid64_in lo hi B Fl Fh Hle Bl Bh HB). assert (M2 := mid64_err lo hi B Fl Fh Hle Bl Bh HB).
    destruct (mid64_R lo hi B Fl Fh Hle Bl Bh HB) as [_ M3]. rewrite <- Et in M1, M2, M3.
    assert (Ht : okf t).
    { split; [exact M3|]. apply Rabs_le_inv in Bl, Bh. apply Rabs_le. lra. }
    destruct (IH Hm Ht (conj Fh Bh) ltac:(lra)) as (A1 & A2 & A3 & A4 & A5 & A6 & A7).
    split; [exact A1|split; [exact A2|]]. split; [lra|]. split; [lra|]. split; [lra|]. split.
    + apply Rabs_le_inv in M2. eapply Rle_trans; [exact A6|]. apply width_step. lra.
    + intros t0 b [E|Hin].
      * injection E as <- <-. split; [exact M3|]. split; [lra|]. split; [discriminate|intros _; lra].
      * destruct (A7 t0 b Hin) as (C1 & C2 & C3 & C4). split; [exact C1|]. split; [lra|]. split; assumption.
Qed.

(** while the search goes on, the bracket is wider than the tolerance *)
Lemma mids64_wide tol o lo hi tr o' l u :
  bs_replay omega o lo hi tr o' l u ->
  mids (fun u l => fdiv (fsub u l) (fmake 2 0)) fadd (fun x y => Bltb x y) tol lo hi tr ->
  okf lo -> okf hi -> B2R lo <= B2R hi -> is_finite tol = true -> 0 <= B2R tol -> (0 < length tr)%nat ->
  B2R tol <= (B2R hi - B2R lo) / 2 ^ (length tr - 1) + 2 * dlt B.
Proof.
  intros H.
  assert (Main : mids (fun u l => fdiv (fsub u l) (fmake 2 0)) fadd (fun x y => Bltb x y) tol lo hi tr ->
    okf lo -> okf hi -> B2R lo <= B2R hi -> is_finite tol = true -> 0 <= B2R tol -> forall m, length tr = S m ->
    B2R tol <= (B2R hi - B2R lo) / 2 ^ m + 2 * dlt B * (1 - / 2 ^ m)).
  { induction H as [o lo hi|o lo hi t o1 tr o' lo' hi' Ho Hr IH
                  |o lo hi t o1 tr o' lo' hi' Ho Hr IH]; cbn [mids length pow]; intros Hm Hlo Hhi Hle Ft T0 m Em; [discriminate Em| |].
    all: destruct Hm as (Et & El & Hm); change (fadd lo _) with (mid64 lo hi) in Et; destruct Hlo as [Fl Bl], Hhi as [Fh Bh];
      assert (M1 := mid64_in lo hi B Fl Fh Hle Bl Bh HB); assert (M2 := mid64_err lo hi B Fl Fh Hle Bl Bh HB);
      destruct (mid64_R lo hi B Fl Fh Hle Bl Bh HB) as [_ M3]; rewrite <- Et in M1, M2, M3;
      assert (Ht : okf t) by (split; [exact M3|]; apply Rabs_le_inv in Bl, Bh; apply Rabs_le; lra);
      apply Rabs_le_inv in M2; destruct m as [|m].
    1,3: assert (X := tau_ge lo hi B Fl Fh Hle Bl Bh HB tol Ft El T0); cbn [pow]; lra.
    - eapply Rle_trans; [apply (IH Hm (conj Fl Bl) Ht ltac:(lra) Ft T0 m); lia|]. apply width_step. lra.
    - eapply Rle_trans; [apply (IH Hm Ht (conj Fh Bh) ltac:(lra) Ft T0 m); lia|]. apply width_step. lra. }
  intros Hm Hlo Hhi Hle Ft T0 Hlen. destruct (length tr) as [|m] eqn:Em; [lia|].
  eapply Rle_trans; [apply (Main Hm Hlo Hhi Hle Ft T0 m eq_refl)|]. replace (S m - 1)%nat with m by lia.
  assert (0 <= dlt B).
  { unfold dlt. apply Rmult_le_pos; [apply bpow_ge_0|]. assert (X := bpow_ge_0 radix2 (-1000)).
    assert (0 <= B) by (eapply Rle_trans; [apply Rabs_pos|apply Hlo]). lra. }
  assert (P := Rinv_0_lt_compat (2 ^ m) ltac:(apply pow_lt; lra)).
  assert (0 <= dlt B * / 2 ^ m) by (apply Rmult_le_pos; lra). lra.
Qed.
End Search.
