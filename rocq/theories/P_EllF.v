(** ell and ell1d in binary64. *)
From Coq Require Import ZArith Reals Lra Lia Bool List Psatz.
From Flocq Require Import Core.Core IEEE754.BinarySingleNaN.
From Verif Require Import Base M_Drivers M_Float M_Ell M_Misc S_LinAlg S_Ell P_Float P_Float2 S_Float P_FSum P_BsF.
Import ListNotations.
Local Open Scope R_scope.

Lemma fmul_comm (x y : b64) : fmul x y = fmul y x.
Proof.
  unfold fmul. destruct x as [sx|sx| |sx mx ex Hx], y as [sy|sy| |sy my ey Hy]; try reflexivity; cbn [Bmult];
    try (rewrite (xorb_comm sx sy); reflexivity).
  apply B2SF_inj. rewrite !B2SF_SF2B. rewrite (xorb_comm sx sy), (Pos.mul_comm mx my), (Z.add_comm ex ey). reflexivity.
Qed.

Definition qsym (e : ell b64) : Prop := forall i j, (i < e_n e)%nat -> (j < e_n e)%nat -> e_Q e i j = e_Q e j i.
Lemma update_qsym dot w e c w' e' r : @ell_update b64 (FNumD dot) (w, e) c = Ok ((w', e'), r) -> qsym e -> e_n e' = e_n e /\ qsym e'.
Proof.
  intros H S. unfold ell_update in H. destruct c as [g beta].
  match type of H with bind ?x _ = _ => destruct x as [[tsq out]|] eqn:E1; [|discriminate H] end. cbn [bind] in H.
  destruct out as [s|rho sigma delta]; [assert (e' = e) as -> by congruence; auto|].
  match type of H with bind ?x _ = _ => destruct x as [ro|] eqn:E2; [|discriminate H] end. cbn [bind] in H.
  match type of H with bind ?x _ = _ => destruct x as [so|] eqn:E3; [|discriminate H] end. cbn [bind] in H.
  destruct (e_nodefer e); injection H as <- <- <-; (split; [reflexivity|]); intros i j Hi Hj; cbn [e_Q e_n ell_set_Q ell_set_kappa nsub nmul FNumD] in *; rewrite (S i j Hi Hj), (fmul_comm (@mv b64 (FNumD dot) (e_n e) (e_Q e) g i)); reflexivity.
Qed.

(** *** subtraction of two finite floats has the sign of the exact difference *)
Lemma fsub_pos (x y : b64) : is_finite x = true -> is_finite y = true -> (Bltb fzero (fsub x y) = true <-> B2R y < B2R x).
Proof.
  intros Fx Fy. pose proof (Bminus_correct 53 1024 prec64 emax64 mode_NE x y Fx Fy) as C. cbn [round_mode] in C.
  match type of C with (if ?b then _ else _) => destruct b eqn:Eb end.
  - destruct C as (C1 & C2 & _). change (Bminus mode_NE x y) with (fsub x y) in *. rewrite f64_ltb by (exact C2 || reflexivity).
    rewrite C1. change (B2R fzero) with 0.
    destruct (Rlt_bool_spec 0 (rnd (B2R x - B2R y))) as [L|L].
    + split; [intros _|reflexivity]. apply Rnot_le_lt. intros Cn.
      assert (rnd (B2R x - B2R y) <= 0); [|lra]. apply rnd_le; [lra|apply generic_format_0].
    + split; [discriminate|]. intros Hlt. exfalso.
      destruct (b64_mult x) as [zx Ex], (b64_mult y) as [zy Ey]. assert (P := bpow_gt_0 radix2 (-1074)).
      assert (Ed : B2R x - B2R y = IZR (zx - zy) * pow2 (-1074)) by (rewrite Ex, Ey, minus_IZR; ring).
      assert (Z0 : (0 < zx - zy)%Z) by (apply lt_IZR; apply Rmult_lt_reg_r with (pow2 (-1074)); [exact P|rewrite <- Ed; lra]).
      assert (pow2 (-1074) <= rnd (B2R x - B2R y)); [|lra]. apply rnd_ge; [|apply fmt_pow2; lia].
      rewrite Ed. rewrite <- (Rmult_1_l (pow2 (-1074))) at 1. apply Rmult_le_compat_r; [lra|]. apply IZR_le. lia.
  - destruct C as (C1 & C2). change (Bminus mode_NE x y) with (fsub x y) in *.
    assert (Sg : Bsign x = false -> 0 <= B2R x) by (destruct x as [s|s| |[] m e Hb]; intros Hs; try discriminate Hs; try (cbn; lra); unfold B2R; apply F2R_ge_0; cbn; lia).
    assert (Sg' : Bsign x = true -> B2R x <= 0) by (destruct x as [s|s| |[] m e Hb]; intros Hs; try discriminate Hs; try (cbn; lra); unfold B2R; apply F2R_le_0; cbn; lia).
    assert (Ty : Bsign y = false -> 0 <= B2R y) by (destruct y as [s|s| |[] m e Hb]; intros Hs; try discriminate Hs; try (cbn; lra); unfold B2R; apply F2R_ge_0; cbn; lia).
    assert (Ty' : Bsign y = true -> B2R y <= 0) by (destruct y as [s|s| |[] m e Hb]; intros Hs; try discriminate Hs; try (cbn; lra); unfold B2R; apply F2R_le_0; cbn; lia).
    assert (Ne : B2R x - B2R y <> 0).
    { intros E. rewrite E, round_0, Rabs_R0 in Eb by typeclasses eauto. rewrite Rlt_bool_true in Eb; [discriminate Eb|apply bpow_gt_0]. }
    destruct (Bsign x) eqn:Sx.
    + assert (E : fsub x y = B754_infinity true) by (apply B2SF_inj; rewrite C1; reflexivity). rewrite E. cbn.
      destruct (Bsign y) eqn:Sy; [discriminate C2|]. specialize (Sg' eq_refl). specialize (Ty eq_refl). split; [discriminate|lra].
    + assert (E : fsub x y = B754_infinity false) by (apply B2SF_inj; rewrite C1; reflexivity). rewrite E. cbn.
      destruct (Bsign y) eqn:Sy; [|discriminate C2]. specialize (Sg eq_refl). specialize (Ty' eq_refl). split; [lra|reflexivity].
Qed.

(** *** ell1d *)
Lemma Rdiv_nn x y : 0 <= x -> 0 < y -> 0 <= x / y.
Proof. intros. apply Rmult_le_pos; [assumption|]. left. apply Rinv_0_lt_compat. assumption. Qed.

Section E1.
Variables (r xc g beta : b64) (B : R).
Hypothesis Fr : is_finite r = true.
Hypothesis Fx : is_finite xc = true.
Hypothesis Fg : is_finite g = true.
Hypothesis Fb : is_finite beta = true.
Hypothesis R0 : 0 <= B2R r.
Hypothesis HB : Rabs (B2R xc) + B2R r <= B.
Hypothesis HB2 : B <= pow2 1000.
Hypothesis Hg : B2R g <> 0.
Hypothesis Hrg : Rabs (B2R r * B2R g) <= pow2 1000.
Notation b := (B + pow2 (-1000)).
Notation ub := (uro * (B + pow2 (-1000))).

Lemma b_facts : 0 <= B /\ 0 < b /\ 0 < ub /\ 100 * eta <= ub /\ 1000 * ub <= b /\ 100 * b <= pow2 1023.
Proof.
  assert (X := Rabs_pos (B2R xc)). assert (P := bpow_gt_0 radix2 (-1000)). assert (U := bpow_gt_0 radix2 (-53)).
  assert (B0 : 0 <= B) by lra. split; [exact B0|]. split; [lra|]. split; [apply Rmult_lt_0_compat; lra|]. split; [|split].
  - apply Rle_trans with (pow2 (-53) * pow2 (-1000)); [|apply Rmult_le_compat_l; lra]. rewrite <- bpow_plus.
    replace (pow2 (-53 + -1000)) with (pow2 22 * eta) by (rewrite <- bpow_plus; reflexivity). apply Rmult_le_compat_r; [apply bpow_ge_0|cbn; lra].
  - rewrite <- Rmult_assoc. rewrite <- (Rmult_1_l b) at 2. apply Rmult_le_compat_r; [lra|cbn; lra].
  - assert (pow2 (-1000) <= pow2 1000) by (apply bpow_le; lia).
    apply Rle_trans with (pow2 8 * pow2 1000); [|rewrite <- bpow_plus; apply bpow_le; lia].
    assert (200 <= pow2 8) by (cbn; lra). assert (0 < pow2 1000) by apply bpow_gt_0.
    apply Rle_trans with (200 * pow2 1000); [lra|]. apply Rmult_le_compat_r; lra.
Qed.
Lemma rnd_b K x : Rabs x <= K * b -> Rabs (rnd x - x) <= (K + / 100) * ub.
Proof.
  intros H. destruct b_facts as (B0 & b0 & u0 & E & _). assert (X := rnd_rel x). assert (U := bpow_gt_0 radix2 (-53)).
  assert (uro * Rabs x <= uro * (K * b)) by (apply Rmult_le_compat_l; lra). lra.
Qed.
Lemma b_over K x : Rabs x <= K * b -> K <= 100 -> Rabs x <= pow2 1023.
Proof.
  intros H HK. destruct b_facts as (B0 & b0 & _ & _ & _ & E). apply Rle_trans with (1 := H). eapply Rle_trans; [|exact E].
  apply Rmult_le_compat_r; lra.
Qed.
(** binary64 operations on numbers of size K b *)
Lemma add_b K (x y : b64) : is_finite x = true -> is_finite y = true -> Rabs (B2R x + B2R y) <= K * b -> K <= 100 ->
  is_finite (fadd x y) = true /\ Rabs (B2R (fadd x y) - (B2R x + B2R y)) <= (K + / 100) * ub.
Proof.
  intros F1 F2 H HK. destruct (fadd_rnd x y F1 F2 (b_over K _ H HK)) as [E F]. split; [exact F|]. rewrite E. apply rnd_b, H.
Qed.
Lemma sub_b K (x y : b64) : is_finite x = true -> is_finite y = true -> Rabs (B2R x - B2R y) <= K * b -> K <= 100 ->
  is_finite (fsub x y) = true /\ Rabs (B2R (fsub x y) - (B2R x - B2R y)) <= (K + / 100) * ub.
Proof.
  intros F1 F2 H HK. destruct (fsub_rnd x y F1 F2 (b_over K _ H HK)) as [E F]. split; [exact F|]. rewrite E. apply rnd_b, H.
Qed.
Lemma half_b K (x : b64) : is_finite x = true -> Rabs (B2R x / 2) <= K * b -> K <= 100 ->
  is_finite (fdiv x (fmake 2 0)) = true /\ Rabs (B2R (fdiv x (fmake 2 0)) - B2R x / 2) <= (K + / 100) * ub.
Proof.
  intros F1 H HK. destruct ftwo as [E2 F2]. destruct (fdiv_rnd x (fmake 2 0) F1) as [E F]; [rewrite E2; lra|rewrite E2; apply (b_over K _ H HK)|].
  split; [exact F|]. rewrite E, E2. apply rnd_b, H.
Qed.

Lemma tau_R : B2R (Babs (fmul r g)) = rnd (Rabs (B2R r * B2R g)) /\ is_finite (Babs (fmul r g)) = true.
Proof.
  destruct (fmul_rnd r g Fr Fg) as [E F]; [eapply Rle_trans; [exact Hrg|apply bpow_le; lia]|].
  rewrite fabs_R, fabs_fin, E. split; [|exact F]. symmetry. apply round_NE_abs. typeclasses eauto.
Qed.
(** the comparisons with tau are exact *)
Lemma nosoln_exact : Bltb (Babs (fmul r g)) beta = true -> Rabs (B2R r * B2R g) < B2R beta.
Proof.
  intros H. destruct tau_R as [E F]. rewrite f64_ltb, E in H by assumption. apply Rnot_le_lt. intros C.
  destruct (Rlt_bool_spec (rnd (Rabs (B2R r * B2R g))) (B2R beta)) as [L|]; [|discriminate H].
  assert (B2R beta <= rnd (Rabs (B2R r * B2R g))) by (apply rnd_ge; [exact C|apply fmt_b64]). lra.
Qed.
Lemma noeffect_exact : Bltb beta (Bopp (Babs (fmul r g))) = true -> B2R beta < - Rabs (B2R r * B2R g).
Proof.
  intros H. destruct tau_R as [E F]. rewrite f64_ltb, fopp_R, E in H by (assumption || (rewrite fopp_fin; assumption)). apply Rnot_le_lt. intros C.
  destruct (Rlt_bool_spec (B2R beta) (- rnd (Rabs (B2R r * B2R g)))) as [L|]; [|discriminate H].
  assert (- B2R beta <= rnd (Rabs (B2R r * B2R g))); [|lra]. apply rnd_ge; [lra|]. apply generic_format_opp, fmt_b64.
Qed.
Lemma tau_bounds : Bltb (Babs (fmul r g)) beta = false -> Bltb beta (Bopp (Babs (fmul r g))) = false ->
  Rabs (B2R beta) <= rnd (Rabs (B2R r * B2R g)).
Proof.
  intros H1 H2. destruct tau_R as [E F]. rewrite f64_ltb, E in H1 by assumption.
  rewrite f64_ltb, fopp_R, E in H2 by (assumption || (rewrite fopp_fin; assumption)).
  destruct (Rlt_bool_spec (rnd (Rabs (B2R r * B2R g))) (B2R beta)); [discriminate H1|].
  destruct (Rlt_bool_spec (B2R beta) (- rnd (Rabs (B2R r * B2R g)))); [discriminate H2|]. apply Rabs_le. lra.
Qed.

Lemma g_pos : Bltb fzero g = Rlt_bool 0 (B2R g).
Proof. rewrite f64_ltb by (exact Fg || reflexivity). reflexivity. Qed.
Lemma deep_keeps r' xc' (bound lower upper : b64) : pow2 (-900) <= Rabs (B2R r * B2R g) ->
  Bltb (Babs (fmul r g)) beta = false -> Bltb beta (Bopp (Babs (fmul r g))) = false ->
  bound = fsub xc (fdiv beta g) -> upper = (if Bltb fzero g then bound else fadd xc r) ->
  lower = (if Bltb fzero g then fsub xc r else bound) ->
  r' = fdiv (fsub upper lower) (fmake 2 0) -> xc' = fadd lower r' ->
  is_finite r' = true /\ is_finite xc' = true /\
  (B2R xc' + B2R r' <= B2R xc + B2R r + pow2 (-48) * b /\ B2R xc - B2R r - pow2 (-48) * b <= B2R xc' - B2R r' /\
   - (pow2 (-48) * b) <= B2R r' /\ (0 <= B2R beta -> B2R r' <= B2R r / 2 + pow2 (-48) * b)) /\
  forall eps z, 0 <= eps -> Rabs (z - B2R xc) <= B2R r + eps -> B2R g * (z - B2R xc) + B2R beta <= 0 -> Rabs (z - B2R xc') <= B2R r' + eps + pow2 (-48) * b.
Proof.
  intros Hmin H1 H2 Ebd Eup Elo Er Exc. destruct b_facts as (B0 & b0 & u0 & E & U & OV).
  assert (X := Rabs_pos (B2R xc)). assert (P := bpow_gt_0 radix2 (-1000)). assert (Uu := bpow_gt_0 radix2 (-53)).
  assert (TB := tau_bounds H1 H2).
  assert (G0 : 0 < Rabs (B2R g)) by (apply Rabs_pos_lt, Hg).
  set (q := B2R beta / B2R g).
  assert (Aq2 : Rabs q <= B2R r + ub + / 100 * ub).
  { apply Rle_trans with ((1 + uro + / 100 * uro) * B2R r).
    - unfold q, Rdiv. rewrite Rabs_mult, Rabs_Rinv by exact Hg. apply Rmult_le_reg_r with (Rabs (B2R g)); [exact G0|].
      rewrite Rmult_assoc, Rinv_l, Rmult_1_r by lra. eapply Rle_trans; [exact TB|].
      assert (Y := rnd_rel (Rabs (B2R r * B2R g))). rewrite Rabs_Rabsolu in Y. apply Rabs_le_inv in Y as [_ Y].
      assert (Ye : eta <= / 100 * uro * Rabs (B2R r * B2R g)).
      { apply Rle_trans with (/ 100 * uro * pow2 (-900)); [|apply Rmult_le_compat_l; lra].
        replace (/ 100 * uro * pow2 (-900)) with (/ 100 * pow2 122 * eta) by (rewrite !Rmult_assoc, <- !bpow_plus; reflexivity).
        assert (100 <= pow2 122) by (apply Rle_trans with (pow2 7); [cbn; lra|apply bpow_le; lia]).
        assert (0 < eta) by apply bpow_gt_0. rewrite <- (Rmult_1_l eta) at 1. apply Rmult_le_compat_r; lra. }
      rewrite Rabs_mult, (Rabs_pos_eq (B2R r)) in * by exact R0.
      replace ((1 + uro + / 100 * uro) * B2R r * Rabs (B2R g)) with ((1 + uro + / 100 * uro) * (B2R r * Rabs (B2R g))) by ring. lra.
    - assert (uro * B2R r <= ub) by (apply Rmult_le_compat_l; lra). lra. }
  assert (Aq : Rabs q <= 101 / 100 * b) by lra.
  destruct (fdiv_rnd beta g Fb Hg (b_over _ _ Aq ltac:(lra))) as [Eq Fq]. fold q in Eq.
  assert (Eq' := rnd_b _ _ Aq). rewrite <- Eq in Eq'. set (bg := fdiv beta g) in *.
  apply Rabs_le_inv in Eq', Aq, Aq2.
  assert (Xc : - b <= B2R xc - B2R r /\ B2R xc + B2R r <= b) by (assert (Y := Rle_abs (B2R xc)); assert (Y' := Rle_abs (- B2R xc)); rewrite Rabs_Ropp in Y'; lra).
  destruct (sub_b 3 xc bg Fx Fq) as [F1 E1]; [apply Rabs_le; lra|lra|]. rewrite <- Ebd in F1, E1. apply Rabs_le_inv in E1.
  destruct (add_b 2 xc r Fx Fr) as [F2 E2]; [apply Rabs_le; lra|lra|]. apply Rabs_le_inv in E2.
  destruct (sub_b 2 xc r Fx Fr) as [F3 E3]; [apply Rabs_le; lra|lra|]. apply Rabs_le_inv in E3.
  assert (E48 : pow2 (-48) * b = 32 * ub) by (replace (pow2 (-48)) with (32 * uro) by (change 32 with (pow2 5); rewrite <- bpow_plus; reflexivity); ring).
  rewrite E48.
  assert (Main : is_finite upper = true /\ is_finite lower = true /\ (forall eps z, 0 <= eps -> Rabs (z - B2R xc) <= B2R r + eps -> B2R g * (z - B2R xc) + B2R beta <= 0 -> z <= B2R upper + eps + 5 * ub /\ B2R lower - eps - 5 * ub <= z) /\ (B2R upper <= B2R xc + B2R r + 6 * ub /\ B2R xc - B2R r - 6 * ub <= B2R lower /\ - 8 * ub <= B2R upper - B2R lower /\ (0 <= B2R beta -> B2R upper - B2R lower <= B2R r + 8 * ub)) /\
            - (22 / 10) * b <= B2R upper <= 22 / 10 * b /\ - (22 / 10) * b <= B2R lower <= 22 / 10 * b /\ - (35 / 10) * b <= B2R upper - B2R lower <= 35 / 10 * b).
  { rewrite g_pos in Eup, Elo. destruct (Rlt_bool_spec 0 (B2R g)) as [G|G]; subst upper lower.
    - split; [assumption|]. split; [assumption|]. split; [|split; [repeat split; try lra; intros Hb; assert (0 <= q) by (unfold q; apply Rdiv_nn; assumption); lra|repeat split; lra]]. intros eps z He Hz Hcut. apply Rabs_le_inv in Hz.
      assert (Zq : z - B2R xc <= - q).
      { apply Rmult_le_reg_l with (B2R g); [exact G|]. unfold q. replace (B2R g * - (B2R beta / B2R g)) with (- B2R beta) by (field; exact Hg). lra. }
      split; lra.
    - assert (G' : B2R g < 0) by lra.
      split; [assumption|]. split; [assumption|]. split; [|split; [repeat split; try lra; intros Hb;
        assert (q <= 0) by (unfold q; replace (B2R beta / B2R g) with (- (B2R beta / - B2R g)) by (field; exact Hg); assert (0 <= B2R beta / - B2R g) by (apply Rdiv_nn; lra); lra); lra|repeat split; lra]]. intros eps z He Hz Hcut. apply Rabs_le_inv in Hz.
      assert (Zq : - q <= z - B2R xc).
      { apply Rmult_le_reg_l with (- B2R g); [lra|]. unfold q. replace (- B2R g * - (B2R beta / B2R g)) with (B2R beta) by (field; exact Hg). lra. }
      split; lra. }
  destruct Main as (Fup & Flo & Z & (C1 & C2 & C3 & C4) & Bup & Blo & Bd).
  destruct (sub_b (35 / 10) upper lower Fup Flo) as [F4 E4]; [apply Rabs_le; lra|lra|]. apply Rabs_le_inv in E4.
  destruct (half_b 2 (fsub upper lower) F4) as [F5 E5]; [apply Rabs_le; lra|lra|]. rewrite <- Er in F5, E5. apply Rabs_le_inv in E5.
  destruct (add_b 5 lower r' Flo F5) as [F6 E6]; [apply Rabs_le; lra|lra|]. rewrite <- Exc in F6, E6. apply Rabs_le_inv in E6.
  split; [exact F5|]. split; [exact F6|]. split.
  - repeat split; try (intros Hb; specialize (C4 Hb)); lra.
  - intros eps z He Hz Hcut. destruct (Z eps z He Hz Hcut). apply Rabs_le. lra.
Qed.


Lemma central_keeps r' xc' : B2R beta = 0 -> r' = fdiv r (fmake 2 0) -> xc' = fadd xc (if Bltb fzero g then Bopp r' else r') ->
  is_finite r' = true /\ is_finite xc' = true /\
  (B2R xc' + B2R r' <= B2R xc + B2R r + pow2 (-48) * b /\ B2R xc - B2R r - pow2 (-48) * b <= B2R xc' - B2R r' /\
   - (pow2 (-48) * b) <= B2R r' /\ (0 <= B2R beta -> B2R r' <= B2R r / 2 + pow2 (-48) * b)) /\
  forall eps z, 0 <= eps -> Rabs (z - B2R xc) <= B2R r + eps -> B2R g * (z - B2R xc) + B2R beta <= 0 -> Rabs (z - B2R xc') <= B2R r' + eps + pow2 (-48) * b.
Proof.
  intros Eb -> ->. destruct b_facts as (B0 & b0 & u0 & E & U & _).
  assert (X := Rabs_pos (B2R xc)). assert (P := bpow_gt_0 radix2 (-1000)).
  destruct (half_b 1 r Fr) as [F1 E1]; [rewrite Rabs_pos_eq; lra|lra|].
  set (r1 := fdiv r (fmake 2 0)) in *. split; [exact F1|].
  set (s := if Bltb fzero g then Bopp r1 else r1).
  assert (Fs : is_finite s = true) by (unfold s; destruct (Bltb fzero g); [rewrite fopp_fin|]; exact F1).
  assert (As : Rabs (B2R s) = Rabs (B2R r1)) by (unfold s; destruct (Bltb fzero g); [rewrite fopp_R, Rabs_Ropp|]; reflexivity).
  apply Rabs_le_inv in E1.
  assert (A1 : Rabs (B2R r1) <= b) by (apply Rabs_le; lra).
  destruct (add_b 2 xc s Fx Fs) as [F2 E2]; [eapply Rle_trans; [apply Rabs_triang|]; lra|lra|]. split; [exact F2|].
  apply Rabs_le_inv in E2.
  assert (E48 : pow2 (-48) * b = 32 * ub) by (replace (pow2 (-48)) with (32 * uro) by (change 32 with (pow2 5); rewrite <- bpow_plus; reflexivity); ring).
  rewrite E48. unfold s in *. rewrite g_pos in *. split.
  - destruct (Rlt_bool_spec 0 (B2R g)) as [G|G]; [rewrite fopp_R in *|]; repeat split; try intros _; lra.
  - intros eps z He Hz Hcut. apply Rabs_le_inv in Hz. rewrite Eb, Rplus_0_r in Hcut.
    destruct (Rlt_bool_spec 0 (B2R g)) as [G|G].
    + assert (z - B2R xc <= 0) by (apply Rmult_le_reg_l with (B2R g); [exact G|lra]). rewrite fopp_R in *. apply Rabs_le. lra.
    + assert (0 <= z - B2R xc) by (apply Rmult_le_reg_l with (- B2R g); lra). apply Rabs_le. lra.
Qed.

Lemma nosoln_none eps z : Rabs (z - B2R xc) <= B2R r + eps -> B2R g * (z - B2R xc) + B2R beta <= 0 ->
  B2R beta <= Rabs (B2R r * B2R g) + eps * Rabs (B2R g).
Proof.
  intros Hz Hcut. rewrite Rabs_mult, (Rabs_pos_eq (B2R r)) by exact R0.
  assert (Rabs (B2R g * (z - B2R xc)) <= (B2R r + eps) * Rabs (B2R g)).
  { rewrite Rabs_mult, Rmult_comm. apply Rmult_le_compat_r; [apply Rabs_pos|exact Hz]. }
  apply Rabs_le_inv in H. lra.
Qed.
End E1.
