(** Property theorems about the search spaces and mono_oracle in binary64 (C121-C124). *)
From Coq Require Import ZArith Reals Lra Lia Bool List SpecFloat.
From Flocq Require Import Core.Core IEEE754.BinarySingleNaN.
From Verif Require Import Base M_Drivers M_Float M_Ell M_Misc S_LinAlg S_Ell P_LinAlg P_Chol P_Float P_Float2 S_Float P_FSum P_BsF P_EllF T_Float.
Import ListNotations.
Local Open Scope R_scope.

(** ** C121 *)
Theorem C121_ell64_matrix_symmetric :
  forall dot w e w' e',
  (forall i j, (i < e_n e)%nat -> (j < e_n e)%nat -> e_Q e i j = e_Q e j i) ->
  reach64 dot (w, e) (w', e') ->
  e_n e' = e_n e /\ forall i j, (i < e_n e)%nat -> (j < e_n e)%nat -> e_Q e' i j = e_Q e' j i.
Proof.
  intros dot w e w' e' S H. change (qsym e) in S.
  enough (e_n e' = e_n e /\ qsym e') as [En Sq] by (split; [exact En|]; intros i j Hi Hj; apply Sq; rewrite En; assumption).
  remember (w, e) as st eqn:E1. remember (w', e') as st' eqn:E2. revert w e w' e' E1 E2 S.
  induction H as [st|st c st1 r st2 Hu Hr IH]; intros w e w' e' E1 E2 S; subst.
  - injection E2 as -> ->. auto.
  - destruct st1 as [w1 e1]. destruct (update_qsym dot w e c w1 e1 r Hu S) as [En S1].
    destruct (IH w1 e1 w' e' eq_refl eq_refl S1) as [En2 S2]. split; [congruence|exact S2].
Qed.
Print Assumptions C121_ell64_matrix_symmetric.

(** a freshly built object qualifies *)
Theorem C121_ell64_init_symmetric :
  forall dot val n x e, @ell_init b64 (FNumD dot) val n x = Ok e ->
  e_n e = n /\ forall i j, e_Q e i j = e_Q e j i.
Proof.
  intros dot val n x e H. unfold ell_init in H.
  repeat match type of H with bind ?x _ = _ => destruct x; [|discriminate H]; cbn [bind] in H end.
  injection H as <-. split; [reflexivity|]. intros i j. cbn [e_Q]. destruct val as [v|v]; unfold eye, diag; rewrite (Nat.eqb_sym j i);
    destruct (Nat.eqb_spec i j) as [->|]; reflexivity.
Qed.
Print Assumptions C121_ell64_init_symmetric.

(** ** C122 *)
Lemma upd1d64 (r xc g beta : b64) (B : R) e' s tsq :
  is_finite r = true -> is_finite xc = true -> is_finite g = true -> is_finite beta = true ->
  0 <= B2R r -> Rabs (B2R xc) + B2R r <= B -> B <= pow2 1000 ->
  pow2 (-900) <= Rabs (B2R r * B2R g) <= pow2 1000 ->
  ell1d_update {| i_r := r; i_xc := xc |} (g, beta) = Ok (e', (s, tsq)) ->
  (s = nosoln /\ e' = {| i_r := r; i_xc := xc |} /\ Rabs (B2R r * B2R g) < B2R beta) \/
  (s = noeffect /\ e' = {| i_r := r; i_xc := xc |} /\ B2R beta < - Rabs (B2R r * B2R g)) \/
  (s = success /\ is_finite (i_r e') = true /\ is_finite (i_xc e') = true /\
   (B2R (i_xc e') + B2R (i_r e') <= B2R xc + B2R r + pow2 (-48) * (B + pow2 (-1000)) /\
    B2R xc - B2R r - pow2 (-48) * (B + pow2 (-1000)) <= B2R (i_xc e') - B2R (i_r e') /\
    - (pow2 (-48) * (B + pow2 (-1000))) <= B2R (i_r e') /\ (0 <= B2R beta -> B2R (i_r e') <= B2R r / 2 + pow2 (-48) * (B + pow2 (-1000)))) /\
   forall eps z, 0 <= eps -> Rabs (z - B2R xc) <= B2R r + eps -> B2R g * (z - B2R xc) + B2R beta <= 0 ->
     Rabs (z - B2R (i_xc e')) <= B2R (i_r e') + eps + pow2 (-48) * (B + pow2 (-1000))).
Proof.
  intros Fr Fx Fg Fb R0 HB HB2 [Hm Hrg] H.
  assert (Hg : B2R g <> 0).
  { intros C. rewrite C, Rmult_0_r, Rabs_R0 in Hm. assert (X := bpow_gt_0 radix2 (-900)). lra. }
  unfold ell1d_update in H. cbn [i_r i_xc] in H.
  change (@nabs b64 FNum (@nmul b64 FNum r g)) with (Babs (fmul r g)) in H.
  change (@two b64 FNum) with (fmake 2 0) in H.
  change (@ndiv b64 FNum) with fdivr in H. change (@nltb b64 FNum) with (fun x y : b64 => Bltb x y) in H.
  change (@nopp b64 FNum) with (Bopp (prec := 53) (emax := 1024)) in H. change (@nadd b64 FNum) with fadd in H. change (@nsub b64 FNum) with fsub in H.
  change (@neqb b64 FNum) with feqb in H. change (@nzero b64 FNum) with fzero in H. cbv beta in H.
  destruct ftwo as [E2 F2].
  destruct (feqb beta fzero) eqn:Eb.
  - rewrite (fdivr_ok r (fmake 2 0) F2) in H by (rewrite E2; lra). cbn [bind] in H.
    assert (B0 : B2R beta = 0).
    { unfold feqb in Eb. rewrite Beqb_correct in Eb by (exact Fb || reflexivity). destruct (Req_bool_spec (B2R beta) (B2R fzero)); [assumption|discriminate Eb]. }
    assert (e' = {| i_r := fdiv r (fmake 2 0); i_xc := fadd xc (if Bltb fzero g then Bopp (fdiv r (fmake 2 0)) else fdiv r (fmake 2 0)) |}) as -> by congruence.
    right; right. split; [congruence|]. cbn [i_r i_xc].
    exact (central_keeps r xc g beta B Fr Fx Fg R0 HB HB2 Hg _ _ B0 eq_refl eq_refl).
  - destruct (Bltb (Babs (fmul r g)) beta) eqn:E1.
    + left. split; [congruence|]. split; [congruence|]. apply (nosoln_exact r g beta Fr Fg Fb Hrg E1).
    + destruct (Bltb beta (Bopp (Babs (fmul r g)))) eqn:E3.
      * right; left. split; [congruence|]. split; [congruence|]. apply (noeffect_exact r g beta Fr Fg Fb Hrg E3).
      * rewrite (fdivr_ok beta g Fg Hg) in H. cbn [bind] in H.
        rewrite (fdivr_ok _ (fmake 2 0) F2) in H by (rewrite E2; lra). cbn [bind] in H.
        right; right. split; [congruence|]. injection H as <- _. cbn [i_r i_xc].
        exact (deep_keeps r xc g beta B Fr Fx Fg Fb R0 HB HB2 Hg Hrg _ _ _ _ _ Hm E1 E3 eq_refl eq_refl eq_refl eq_refl eq_refl).
Qed.

Theorem C122_ell1d64_update :
  forall (e : ell1d b64) c (B : R) e' s tsq,
  is_finite (i_r e) = true -> is_finite (i_xc e) = true -> tame64 e c ->
  Rabs (B2R (i_xc e)) + B2R (i_r e) <= B -> B <= pow2 1000 ->
  ell1d_update e c = Ok (e', (s, tsq)) ->
  (s = nosoln /\ e' = e /\ forall z, itv64 e z -> ~ cut64 e c z) \/
  (s = noeffect /\ e' = e /\ forall z, itv64 e z -> cut64 e c z) \/
  (s = success /\ is_finite (i_r e') = true /\ is_finite (i_xc e') = true /\
   (forall z, itv64 e z -> cut64 e c z -> Rabs (z - B2R (i_xc e')) <= B2R (i_r e') + pow2 (-48) * (B + pow2 (-1000))) /\
   (0 <= B2R (snd c) -> B2R (i_r e') <= B2R (i_r e) / 2 + pow2 (-48) * (B + pow2 (-1000)))).
Proof.
  intros [r xc] [g beta] B e' s tsq Fr Fx (Fg & Fb & R0 & T) HB HB2 H. cbn [i_r i_xc fst snd] in *. unfold itv64, cut64. cbn [i_r i_xc fst snd].
  destruct (upd1d64 r xc g beta B e' s tsq Fr Fx Fg Fb R0 HB HB2 T H) as [(E1 & E2 & L)|[(E1 & E2 & L)|(E1 & F1 & F2 & L & K)]].
  - left. split; [exact E1|]. split; [exact E2|]. intros z Hz C. assert (Y := nosoln_none r xc g beta R0 0 z). rewrite Rplus_0_r in Y. specialize (Y Hz C). lra.
  - right; left. split; [exact E1|]. split; [exact E2|]. intros z Hz.
    assert (Y : B2R g * (z - B2R xc) <= Rabs (B2R r * B2R g)); [|lra].
    eapply Rle_trans; [apply Rle_abs|]. rewrite !Rabs_mult, (Rabs_pos_eq (B2R r)), Rmult_comm by exact R0. apply Rmult_le_compat_r; [apply Rabs_pos|exact Hz].
  - right; right. split; [exact E1|]. split; [exact F1|]. split; [exact F2|]. split; [|apply L].
    intros z Hz C. assert (Y := K 0 z (Rle_refl 0)). rewrite !Rplus_0_r in Y. apply Y; assumption.
Qed.
Print Assumptions C122_ell1d64_update.

(** ** C123: whole runs *)
Lemma u_nn B : 0 <= B -> 0 <= pow2 (-48) * (B + pow2 (-1000)).
Proof. intros H. assert (X := bpow_gt_0 radix2 (-48)). assert (Y := bpow_gt_0 radix2 (-1000)). apply Rmult_le_pos; lra. Qed.

Lemma run64_inv (Q : ell1d b64 -> b64 * b64 -> Prop) B : 0 <= B -> B <= pow2 1000 -> (forall e c, Q e c -> tame64 e c) ->
  forall k e e',
  is_finite (i_r e) = true -> is_finite (i_xc e) = true ->
  let u := pow2 (-48) * (B + pow2 (-1000)) in
  B2R (i_xc e) + B2R (i_r e) + INR k * u <= B -> - B <= B2R (i_xc e) - B2R (i_r e) - INR k * u ->
  run64 Q k e e' ->
  is_finite (i_r e') = true /\ is_finite (i_xc e') = true /\ B2R (i_xc e') + B2R (i_r e') <= B /\ - B <= B2R (i_xc e') - B2R (i_r e') /\
  (forall eps z, 0 <= eps -> (forall e c, Q e c -> cut64 e c z) -> Rabs (z - B2R (i_xc e)) <= B2R (i_r e) + eps -> Rabs (z - B2R (i_xc e')) <= B2R (i_r e') + eps + INR k * u) /\
  ((forall e c, Q e c -> 0 <= B2R (snd c)) -> B2R (i_r e') <= B2R (i_r e) / 2 ^ k + (2 - 2 / 2 ^ k) * u).
Proof.
  intros HB0 HB QT k. assert (u0 := u_nn B HB0). induction k as [|k IH]; intros e e' Fr Fx u H1 H2 R.
  - inversion R; subst. cbn [INR pow] in *. rewrite !Rmult_0_l in *. repeat split; try assumption; try lra. intros; lra.
  - inversion R as [|k' e0 c e1 tsq e2 Qc U R']; subst. rewrite S_INR in *. fold u in u0.
    assert (T := QT e c Qc). destruct T as (Fg & Fb & R0 & T).
    assert (K0 : 0 <= INR k * u) by (apply Rmult_le_pos; [apply pos_INR|exact u0]).
    assert (Q0 : forall z, (forall e c, Q e c -> cut64 e c z) -> cut64 e c z) by (intros z Hz; apply Hz, Qc).
    assert (Q1 : (forall e c, Q e c -> 0 <= B2R (snd c)) -> 0 <= B2R (snd c)) by (intros Hz; apply (Hz e c Qc)).
    destruct e as [r xc], c as [g beta]. unfold cut64 in Q0. cbn [i_r i_xc fst snd] in *.
    assert (HX : Rabs (B2R xc) + B2R r <= B) by (unfold Rabs; destruct (Rcase_abs (B2R xc)); lra).
    destruct (upd1d64 r xc g beta B e1 success tsq Fr Fx Fg Fb R0 HX HB T U) as [(E1 & _)|[(E1 & _)|(_ & F1 & F2 & (L1 & L2 & _ & L4) & K)]]; try discriminate E1.
    fold u in L1, L2, L4, K.
    destruct (IH e1 e') as (G1 & G2 & G3 & G4 & G5 & G6); try assumption; fold u; try lra.
    split; [exact G1|]. split; [exact G2|]. split; [exact G3|]. split; [exact G4|]. fold u in G5, G6. split.
    + intros eps z He Dz Hz. specialize (K eps z He Hz (Q0 z Dz)).
      assert (Y := G5 (eps + u) z ltac:(lra) Dz). rewrite <- !Rplus_assoc in Y. specialize (Y K). lra.
    + intros Hb. specialize (L4 (Q1 Hb)). specialize (G6 Hb).
      assert (P : 0 < 2 ^ k) by (apply pow_lt; lra).
      eapply Rle_trans; [exact G6|].
      assert (B2R (i_r e1) / 2 ^ k <= (B2R r / 2 + u) / 2 ^ k) by (apply Rmult_le_compat_r; [left; apply Rinv_0_lt_compat, P|exact L4]).
      replace (B2R r / 2 ^ S k + (2 - 2 / 2 ^ S k) * u) with ((B2R r / 2 + u) / 2 ^ k + (2 - 2 / 2 ^ k) * u) by (cbn [pow]; field; lra). lra.
Qed.

Theorem C123_ell1d64_runs :
  forall (D : R -> Prop) B N e e', 0 <= B -> B <= pow2 1000 ->
  let u := pow2 (-48) * (B + pow2 (-1000)) in
  is_finite (i_r e) = true -> is_finite (i_xc e) = true ->
  Rabs (B2R (i_xc e)) + B2R (i_r e) + INR N * u <= B ->
  run64 (fun e c => tame64 e c /\ forall z, D z -> cut64 e c z) N e e' ->
  (forall z, D z -> itv64 e z -> Rabs (z - B2R (i_xc e')) <= B2R (i_r e') + INR N * u) /\
  forall z c e2 s tsq, D z -> itv64 e z -> tame64 e' c ->
    (forall y, Rabs (y - z) <= INR N * u -> cut64 e' c y) -> ell1d_update e' c = Ok (e2, (s, tsq)) -> s <> nosoln.
Proof.
  intros D B N e e' HB0 HB u Fr Fx H R.
  assert (u0 := u_nn B HB0). fold u in u0.
  assert (X1 := Rle_abs (B2R (i_xc e))). assert (X2 := Rle_abs (- B2R (i_xc e))). rewrite Rabs_Ropp in X2.
  assert (I := run64_inv _ B HB0 HB (fun e0 c (q : tame64 e0 c /\ forall z, D z -> cut64 e0 c z) => proj1 q) N e e' Fr Fx). cbv zeta in I. fold u in I.
  destruct I as (F1 & F2 & G1 & G2 & G3 & _); [lra|lra|exact R|].
  assert (K : forall z, D z -> itv64 e z -> Rabs (z - B2R (i_xc e')) <= B2R (i_r e') + INR N * u).
  { intros z Dz Hz. assert (Y := G3 0 z (Rle_refl 0)). rewrite !Rplus_0_r in Y. apply Y; [|exact Hz]. intros e0 c [_ q]. apply q, Dz. }
  split; [exact K|].
  intros z c e2 s tsq Dz Hz T Hc U ->. destruct e' as [r xc], c as [g beta]. destruct T as (Fg & Fb & R0 & T). unfold cut64 in *. cbn [i_r i_xc fst snd] in *.
  assert (HX : Rabs (B2R xc) + B2R r <= B) by (unfold Rabs; destruct (Rcase_abs (B2R xc)); lra).
  destruct (upd1d64 r xc g beta B e2 nosoln tsq F1 F2 Fg Fb R0 HX HB T U) as [(_ & _ & L)|[(E1 & _)|(E1 & _)]]; try discriminate E1.
  assert (K0 : 0 <= INR N * u) by (apply Rmult_le_pos; [apply pos_INR|exact u0]).
  specialize (K z Dz Hz). apply Rabs_le_inv in K.
  rewrite Rabs_mult, (Rabs_pos_eq (B2R r)) in L by exact R0.
  unfold Rabs in L at 1. destruct (Rcase_abs (B2R g)) as [G|G].
  - assert (Y := Hc (z - INR N * u)). replace (z - INR N * u - z) with (- (INR N * u)) in Y by ring. rewrite Rabs_Ropp, (Rabs_pos_eq _ K0) in Y. specialize (Y (Rle_refl _)).
    assert (- B2R g * (z - INR N * u - B2R xc) <= - B2R g * B2R r) by (apply Rmult_le_compat_l; lra). lra.
  - assert (Y := Hc (z + INR N * u)). replace (z + INR N * u - z) with (INR N * u) in Y by ring. rewrite (Rabs_pos_eq _ K0) in Y. specialize (Y (Rle_refl _)).
    assert (B2R g * - B2R r <= B2R g * (z + INR N * u - B2R xc)) by (apply Rmult_le_compat_l; lra). lra.
Qed.
Print Assumptions C123_ell1d64_runs.

Theorem C123_ell1d64_halves :
  forall B N e e', 0 <= B -> B <= pow2 1000 ->
  let u := pow2 (-48) * (B + pow2 (-1000)) in
  is_finite (i_r e) = true -> is_finite (i_xc e) = true ->
  Rabs (B2R (i_xc e)) + B2R (i_r e) + INR N * u <= B ->
  run64 (fun e c => tame64 e c /\ 0 <= B2R (snd c)) N e e' ->
  B2R (i_r e') <= B2R (i_r e) / 2 ^ N + 2 * u.
Proof.
  intros B N e e' HB0 HB u Fr Fx H R.
  assert (u0 := u_nn B HB0). fold u in u0.
  assert (X1 := Rle_abs (B2R (i_xc e))). assert (X2 := Rle_abs (- B2R (i_xc e))). rewrite Rabs_Ropp in X2.
  assert (I := run64_inv _ B HB0 HB (fun e0 c (q : tame64 e0 c /\ 0 <= B2R (snd c)) => proj1 q) N e e' Fr Fx). cbv zeta in I. fold u in I.
  destruct I as (_ & _ & _ & _ & _ & I); [lra|lra|exact R|]. specialize (I (fun e0 c q => proj2 q)).
  assert (P : 0 < 2 / 2 ^ N) by (apply Rdiv_lt_0_compat; [lra|apply pow_lt; lra]).
  assert (0 <= 2 / 2 ^ N * u) by (apply Rmult_le_pos; lra). lra.
Qed.
Print Assumptions C123_ell1d64_halves.


(** a run of two updates that the three theorems above apply to, and one each of the other answers *)
Definition upd_info (x : res (ell1d b64 * (status * b64))) : option (spec_float * spec_float * status) :=
  match x with Ok (e, (s, _)) => Some (B2SF (i_r e), B2SF (i_xc e), s) | Raise _ => None end.
Lemma upd_info_ok x r xc s : upd_info x = Some (B2SF r, B2SF xc, s) -> exists tsq, x = Ok ({| i_r := r; i_xc := xc |}, (s, tsq)).
Proof.
  destruct x as [[[r1 xc1] [s1 t1]]|]; [|discriminate]. intros H. exists t1. cbn [upd_info i_r i_xc] in H.
  assert (E1 : B2SF r1 = B2SF r) by congruence. assert (E2 : B2SF xc1 = B2SF xc) by congruence. assert (E3 : s1 = s) by congruence.
  apply B2SF_inj in E1, E2. subst. reflexivity.
Qed.
Lemma tame_lit m e n f : (Z.abs m <= 2 ^ 53)%Z -> (-1074 <= e <= 900)%Z -> (Z.abs n <= 2 ^ 53)%Z -> (-1074 <= f <= 900)%Z ->
  (1 <= Z.abs (m * n) <= 2 ^ 106)%Z -> (-900 <= e + f <= 800)%Z ->
  pow2 (-900) <= Rabs (B2R (fmake m e) * B2R (fmake n f)) <= pow2 1000.
Proof.
  intros Hm He Hn Hf Hmn Hef. rewrite !fmakeR by assumption.
  replace (IZR m * pow2 e * (IZR n * pow2 f)) with (IZR (m * n) * pow2 (e + f)) by (rewrite mult_IZR, bpow_plus; ring).
  rewrite Rabs_mult, (Rabs_pos_eq (pow2 _)) by apply bpow_ge_0. rewrite <- abs_IZR.
  assert (X : 1 <= IZR (Z.abs (m * n)) <= pow2 106) by (change (pow2 106) with (IZR (2 ^ 106)); split; apply IZR_le; lia).
  assert (P := bpow_gt_0 radix2 (e + f)). split.
  - apply Rle_trans with (1 * pow2 (e + f)); [rewrite Rmult_1_l; apply bpow_le; lia|apply Rmult_le_compat_r; lra].
  - apply Rle_trans with (pow2 106 * pow2 (e + f)); [apply Rmult_le_compat_r; lra|]. rewrite <- bpow_plus. apply bpow_le. lia.
Qed.
Definition i64 (r xc : b64) : ell1d b64 := {| i_r := r; i_xc := xc |}.
Example C123_hypotheses_met :
  let D := fun z => -4 <= z <= -3 in
  let e0 := i64 (fmake 4 0) fzero in let e1 := i64 (fmake 3 (-1)) (fmake (-5) (-1)) in let e2 := i64 (fmake 3 (-2)) (fmake (-13) (-2)) in
  run64 (fun e c => tame64 e c /\ forall z, D z -> cut64 e c z) 2 e0 e2 /\
  run64 (fun e c => tame64 e c /\ 0 <= B2R (snd c)) 2 e0 e2 /\
  Rabs (B2R (i_xc e0)) + B2R (i_r e0) + INR 2 * (pow2 (-48) * (100 + pow2 (-1000))) <= 100 /\
  (exists tsq, @ell1d_update b64 FNum e0 (fmake 1 0, fmake 5 0) = Ok (e0, (nosoln, tsq))) /\
  (exists tsq, @ell1d_update b64 FNum e0 (fmake 1 0, fmake (-5) 0) = Ok (e0, (noeffect, tsq))).
Proof.
  assert (U1 : exists tsq, @ell1d_update b64 FNum (i64 (fmake 4 0) fzero) (fmake 1 0, fmake 1 0) = Ok (i64 (fmake 3 (-1)) (fmake (-5) (-1)), (success, tsq))) by (apply upd_info_ok; vm_compute; reflexivity).
  assert (U2 : exists tsq, @ell1d_update b64 FNum (i64 (fmake 3 (-1)) (fmake (-5) (-1))) (fmake 1 0, fzero) = Ok (i64 (fmake 3 (-2)) (fmake (-13) (-2)), (success, tsq))) by (apply upd_info_ok; vm_compute; reflexivity).
  destruct U1 as [t1 U1], U2 as [t2 U2].
  assert (T1 : tame64 (i64 (fmake 4 0) fzero) (fmake 1 0, fmake 1 0)).
  { split; [reflexivity|]. split; [reflexivity|]. split; [cbn [i64 i_r]; rewrite fmakeR by lia; cbn; lra|]. apply tame_lit; lia. }
  assert (T2 : tame64 (i64 (fmake 3 (-1)) (fmake (-5) (-1))) (fmake 1 0, fzero)).
  { split; [reflexivity|]. split; [reflexivity|]. split; [cbn [i64 i_r]; rewrite fmakeR by lia; cbn; lra|]. apply tame_lit; lia. }
  cbv zeta. split; [|split; [|split; [|split]]].
  - apply run64_cons with (2 := U1); [split; [exact T1|]|apply run64_cons with (2 := U2); [split; [exact T2|]|apply run64_nil]];
      intros z Hz; cbv beta in Hz; unfold cut64; cbn [i64 i_xc fst snd]; rewrite !fmakeR by lia; cbn; lra.
  - apply run64_cons with (2 := U1); [split; [exact T1|]|apply run64_cons with (2 := U2); [split; [exact T2|]|apply run64_nil]];
      cbn [i64 i_xc fst snd]; try rewrite !fmakeR by lia; cbn; lra.
  - cbn [i64 i_xc i_r]. rewrite fmakeR by lia. change (B2R fzero) with 0. rewrite Rabs_R0. cbn [INR].
    assert (pow2 (-1000) <= pow2 0) by (apply bpow_le; lia). change (pow2 0) with 1 in *. change (pow2 (-48)) with (/ 281474976710656). lra.
  - apply upd_info_ok. vm_compute. reflexivity.
  - apply upd_info_ok. vm_compute. reflexivity.
Qed.

(** what the update of a fresh two-dimensional ell object leaves *)
Definition ell2_of (e : ell b64) (w : memory b64) : list spec_float :=
  [B2SF (e_kappa e); B2SF (e_Q e 0%nat 0%nat); B2SF (e_Q e 0%nat 1%nat); B2SF (e_Q e 1%nat 0%nat); B2SF (e_Q e 1%nat 1%nat); B2SF (w (e_xc e) 0%nat); B2SF (w (e_xc e) 1%nat)].
Definition ell2_info (w : memory b64) (g : nat -> b64) (beta : b64) (x : res (ell b64)) : option (nat * list spec_float * (nat * list spec_float * status)) :=
  match x with
  | Ok e => match @ell_update b64 (FNumD fdot_seq) (w, e) (g, BScalar beta) with
            | Ok ((w', e'), (s, _)) => Some (e_n e, ell2_of e w, (e_n e', ell2_of e' w', s))
            | Raise _ => None end
  | Raise _ => None end.

(** ** C124: "a successful update keeps every point of the set that satisfies the cut" fails in binary64,
    for ell1d and for ell. *)
Theorem C124_no_point_lost_refuted :
  (exists e c e' tsq z, is_finite (i_r e) = true /\ is_finite (i_xc e) = true /\ tame64 e c /\
     @ell1d_update b64 FNum e c = Ok (e', (success, tsq)) /\ itv64 e z /\ cut64 e c z /\ ~ itv64 e' z) /\
  (exists (e : ell b64) w g beta st' tsq z, @ell_init b64 FNum (VScalar (fmake 1 0)) 2 0%nat = Ok e /\
     (forall i, w 0%nat i = fzero) /\
     @ell_update b64 (FNumD fdot_seq) (w, e) (g, BScalar beta) = Ok (st', (success, tsq)) /\
     mem64 (w, e) z /\ sat64 (w, e) g beta z /\ ~ mem64 st' z).
Proof.
  split.
  - assert (U : exists tsq, @ell1d_update b64 FNum (i64 (fmake 1 (-52)) (fmake 1 0)) (fmake (-1) 0, fzero) = Ok (i64 (fmake 1 (-53)) (fmake 1 0), (success, tsq))) by (apply upd_info_ok; vm_compute; reflexivity).
    destruct U as [tsq U]. exists (i64 (fmake 1 (-52)) (fmake 1 0)), (fmake (-1) 0, fzero), (i64 (fmake 1 (-53)) (fmake 1 0)), tsq, (1 + pow2 (-52)).
    assert (P := bpow_gt_0 radix2 (-53)). assert (P2 : pow2 (-52) = 2 * pow2 (-53)) by (change 2 with (pow2 1); rewrite <- bpow_plus; reflexivity).
    split; [reflexivity|]. split; [reflexivity|]. split; [|split; [exact U|]].
    + split; [reflexivity|]. split; [reflexivity|]. split; [cbn [i64 i_r]; rewrite fmakeR by lia; lra|]. apply tame_lit; lia.
    + unfold itv64, cut64. cbn [i64 i_r i_xc fst snd]. rewrite !fmakeR by lia. change (pow2 0) with 1. change (B2R fzero) with 0. rewrite P2.
      replace (1 + 2 * pow2 (-53) - 1 * 1) with (2 * pow2 (-53)) by ring. rewrite Rabs_pos_eq by lra. repeat split; lra.
  - set (g := fun i => if (i =? 0)%nat then fmake 1 0 else fzero). set (w := fun (_ i : nat) => fzero).
    set (a := fmake 0x19999999999998 (-55)).
    assert (X : ell2_info w g (fmake 1 (-2)) (@ell_init b64 FNum (VScalar (fmake 1 0)) 2 0%nat) =
      Some (2%nat, map B2SF [fmake 1 0; fmake 1 0; fzero; fzero; fmake 1 0; fzero; fzero],
           (2%nat, map B2SF [fmake 5 (-2); a; fzero; fzero; fmake 1 0; fmake (-1) (-1); fzero], success))) by (vm_compute; reflexivity).
    revert X. destruct (@ell_init b64 FNum (VScalar (fmake 1 0)) 2 0%nat) as [e|] eqn:E; [|discriminate]. cbn [ell2_info].
    match goal with |- match ?u with Ok _ => _ | Raise _ => _ end = _ -> _ => destruct u as [[[w' e'] [s tsq]]|] eqn:U; [|discriminate] end. intros X.
    unfold ell2_of in X. cbn [map] in X.
    assert (En : e_n e = 2%nat) by congruence. assert (En' : e_n e' = 2%nat) by congruence. assert (Es : s = success) by congruence.
    assert (I : forall x y : b64, B2SF x = B2SF y -> x = y) by (intros x y; apply B2SF_inj).
    assert (X1 : e_kappa e = fmake 1 0) by (apply I; congruence).
    assert (X2 : e_Q e 0%nat 0%nat = fmake 1 0) by (apply I; congruence).
    assert (X3 : e_Q e 0%nat 1%nat = fzero) by (apply I; congruence).
    assert (X4 : e_Q e 1%nat 0%nat = fzero) by (apply I; congruence).
    assert (X5 : e_Q e 1%nat 1%nat = fmake 1 0) by (apply I; congruence).
    assert (Y1 : e_kappa e' = fmake 5 (-2)) by (apply I; congruence).
    assert (Y2 : e_Q e' 0%nat 0%nat = a) by (apply I; congruence).
    assert (Y3 : e_Q e' 0%nat 1%nat = fzero) by (apply I; congruence).
    assert (Y4 : e_Q e' 1%nat 0%nat = fzero) by (apply I; congruence).
    assert (Y5 : e_Q e' 1%nat 1%nat = fmake 1 0) by (apply I; congruence).
    assert (Y6 : w' (e_xc e') 0%nat = fmake (-1) (-1)) by (apply I; congruence).
    assert (Y7 : w' (e_xc e') 1%nat = fzero) by (apply I; congruence).
    clear X I. subst s.
    set (z := fun i => if (i =? 0)%nat then - / 4 else sqrt 15 / 4).
    assert (S15 : sqrt 15 * sqrt 15 = 15) by (apply sqrt_sqrt; lra).
    exists e, w, g, (fmake 1 (-2)), (w', e'), tsq, z. split; [reflexivity|]. split; [reflexivity|]. split; [exact U|].
    unfold mem64, sat64. rewrite En, En'. split; [|split].
    + exists z. split.
      * intros i Hi. unfold mvr, dot. destruct i as [|[|i]]; [| |lia]; cbn [rsum]; rewrite ?X2, ?X3, ?X4, ?X5; change (w (e_xc e)) with (fun _ : nat => fzero); cbv beta;
          rewrite fmakeR by lia; change (B2R fzero) with 0; change (pow2 0) with 1; lra.
      * rewrite bf2, X1, X2, X3, X4, X5, fmakeR by lia. change (B2R fzero) with 0. change (pow2 0) with 1. unfold z. cbn [Nat.eqb]. lra.
    + unfold dot. cbn [rsum]. change (w (e_xc e)) with (fun _ : nat => fzero). unfold g, z. cbn [Nat.eqb]. rewrite !fmakeR by lia.
      change (B2R fzero) with 0. change (pow2 0) with 1. change (pow2 (-2)) with (/ 4). lra.
    + intros [v [Hv Hk]]. assert (H0 := Hv 0%nat ltac:(lia)). assert (H1 := Hv 1%nat ltac:(lia)).
      unfold mvr, dot in H0, H1. cbn [rsum] in H0, H1. rewrite bf2 in Hk. rewrite Y1, Y2, Y3, Y4, Y5 in Hk. rewrite Y2, Y3, Y6 in H0. rewrite Y4, Y5, Y7 in H1.
      assert (Ha : B2R a < / 5).
      { unfold a. rewrite fmakeR by lia. change (pow2 (-55)) with (/ 36028797018963968). lra. }
      assert (Ha0 : 0 < B2R a).
      { unfold a. rewrite fmakeR by lia. change (pow2 (-55)) with (/ 36028797018963968). lra. }
      clearbody a. unfold z in H0, H1. cbn [Nat.eqb] in H0, H1. rewrite fmakeR in H0, H1 by lia. rewrite !fmakeR in Hk by lia.
      change (B2R fzero) with 0 in *. change (pow2 0) with 1 in *. change (pow2 (-1)) with (/ 2) in *. change (pow2 (-2)) with (/ 4) in *.
      assert (V1 : v 1%nat = sqrt 15 / 4) by lra. assert (V0 : B2R a * v 0%nat = / 4) by lra. rewrite V1 in Hk.
      assert (Q : / 4 * v 0%nat <= / 4 * (5 / 4)) by (rewrite <- V0 at 1; lra).
      assert (v 0%nat <= 5 / 4) by lra.
      assert (B2R a * v 0%nat <= B2R a * (5 / 4)) by (apply Rmult_le_compat_l; lra). lra.
Qed.
Print Assumptions C124_no_point_lost_refuted.

(** What does hold: the loss is at most 2^-48 (B + 2^-1000), where B bounds the absolute values of the interval. *)
Theorem C124_no_point_lost_partial :
  forall (e : ell1d b64) c (B : R) e' tsq z,
  is_finite (i_r e) = true -> is_finite (i_xc e) = true -> tame64 e c ->
  Rabs (B2R (i_xc e)) + B2R (i_r e) <= B -> B <= pow2 1000 ->
  ell1d_update e c = Ok (e', (success, tsq)) -> itv64 e z -> cut64 e c z ->
  Rabs (z - B2R (i_xc e')) <= B2R (i_r e') + pow2 (-48) * (B + pow2 (-1000)).
Proof.
  intros e c B e' tsq z Fr Fx T HB HB2 U Hz Hc.
  destruct (C122_ell1d64_update e c B e' success tsq Fr Fx T HB HB2 U) as [(E & _)|[(E & _)|(_ & _ & _ & K & _)]]; try discriminate E. auto.
Qed.
Print Assumptions C124_no_point_lost_partial.

(** ** C125: "the radius of a binary64 ell1d object never becomes negative" fails: after ell1d([-1.5, 1.5]), the cut
    (0.1, 0.15000000000000002) leaves a negative radius and the answer is success. *)
Theorem C125_radius_nonneg_refuted :
  exists e c e' tsq, @ell1d_init b64 FNum (fmake (-3) (-1)) (fmake 3 (-1)) = Ok e /\ tame64 e c /\
    @ell1d_update b64 FNum e c = Ok (e', (success, tsq)) /\ B2R (i_r e') < 0.
Proof.
  assert (U : exists tsq, @ell1d_update b64 FNum (i64 (fmake 3 (-1)) fzero) (fmake 0x1999999999999a (-56), fmake 0x13333333333334 (-55)) = Ok (i64 (fmake (-1) (-53)) (fmake (-3) (-1)), (success, tsq)))
    by (apply upd_info_ok; vm_compute; reflexivity).
  destruct U as [tsq U].
  exists (i64 (fmake 3 (-1)) fzero), (fmake 0x1999999999999a (-56), fmake 0x13333333333334 (-55)), (i64 (fmake (-1) (-53)) (fmake (-3) (-1))), tsq.
  split; [|split; [|split; [exact U|]]].
  - assert (X : exists r xc, @ell1d_init b64 FNum (fmake (-3) (-1)) (fmake 3 (-1)) = Ok (i64 r xc) /\ B2SF r = B2SF (fmake 3 (-1)) /\ B2SF xc = B2SF fzero).
    { unfold ell1d_init. eexists _, _. split; [reflexivity|]. split; vm_compute; reflexivity. }
    destruct X as (r & xc & X & E1 & E2). apply B2SF_inj in E1, E2. subst. exact X.
  - split; [reflexivity|]. split; [reflexivity|]. split; [cbn [i64 i_r]; rewrite fmakeR by lia; cbn; lra|]. apply tame_lit; lia.
  - cbn [i64 i_r]. rewrite fmakeR by lia. assert (P := bpow_gt_0 radix2 (-53)). lra.
Qed.
Print Assumptions C125_radius_nonneg_refuted.

(** it is never below - 2^-48 (B + 2^-1000) *)
Theorem C125_radius_nonneg_partial :
  forall (e : ell1d b64) c (B : R) e' s tsq,
  is_finite (i_r e) = true -> is_finite (i_xc e) = true -> tame64 e c ->
  Rabs (B2R (i_xc e)) + B2R (i_r e) <= B -> B <= pow2 1000 ->
  ell1d_update e c = Ok (e', (s, tsq)) -> - (pow2 (-48) * (B + pow2 (-1000))) <= B2R (i_r e').
Proof.
  intros [r xc] [g beta] B e' s tsq Fr Fx (Fg & Fb & R0 & T) HB HB2 H. cbn [i_r i_xc fst snd] in *.
  assert (B0 : 0 <= B) by (assert (X := Rabs_pos (B2R xc)); lra). assert (u0 := u_nn B B0).
  destruct (upd1d64 r xc g beta B e' s tsq Fr Fx Fg Fb R0 HB HB2 T H) as [(_ & -> & _)|[(_ & -> & _)|(_ & _ & _ & L & _)]]; [cbn [i_r]; lra|cbn [i_r]; lra|apply L].
Qed.
Print Assumptions C125_radius_nonneg_partial.

(** ** C126: mono_oracle in binary64 *)
Theorem C126_mono64_decides :
  forall n (x : nat -> b64), (forall i, (i < n)%nat -> is_finite (x i) = true) ->
  match @mono_oracle b64 FNum n x with
  | None => forall i, (i + 1 < n)%nat -> B2R (x (i + 1)%nat) <= B2R (x i)
  | Some (g, fj) => exists i, (i + 1 < n)%nat /\ (forall j, (j < i)%nat -> B2R (x (j + 1)%nat) <= B2R (x j)) /\ B2R (x i) < B2R (x (i + 1)%nat) /\
      (forall k, B2R (g k) = if (k =? i + 1)%nat then 1 else if (k =? i)%nat then -1 else 0) /\ 
      (Rabs (B2R (x (i + 1)%nat)) <= pow2 1022 -> Rabs (B2R (x i)) <= pow2 1022 ->
       is_finite fj = true /\ Rabs (B2R fj - (B2R (x (i + 1)%nat) - B2R (x i))) <= pow2 (-53) * (B2R (x (i + 1)%nat) - B2R (x i)) + pow2 (-1075))
  end.
Proof.
  intros n x F. unfold mono_oracle.
  assert (G : forall k i, (i + k = n - 1)%nat -> (forall j, (j < i)%nat -> B2R (x (j + 1)%nat) <= B2R (x j)) ->
    match @mono_loop b64 FNum k i x with
    | None => forall i, (i + 1 < n)%nat -> B2R (x (i + 1)%nat) <= B2R (x i)
    | Some (g, fj) => exists i, (i + 1 < n)%nat /\ (forall j, (j < i)%nat -> B2R (x (j + 1)%nat) <= B2R (x j)) /\ B2R (x i) < B2R (x (i + 1)%nat) /\
      (forall k, B2R (g k) = if (k =? i + 1)%nat then 1 else if (k =? i)%nat then -1 else 0) /\ 
      (Rabs (B2R (x (i + 1)%nat)) <= pow2 1022 -> Rabs (B2R (x i)) <= pow2 1022 ->
       is_finite fj = true /\ Rabs (B2R fj - (B2R (x (i + 1)%nat) - B2R (x i))) <= pow2 (-53) * (B2R (x (i + 1)%nat) - B2R (x i)) + pow2 (-1075))
    end).
  { induction k as [|k IH]; intros i Hk Hi; cbn [mono_loop].
    - intros j Hj. apply Hi. lia.
    - change (@nltb b64 FNum (@nzero b64 FNum) (@nsub b64 FNum (x (i + 1)%nat) (x i))) with (Bltb fzero (fsub (x (i + 1)%nat) (x i))).
      assert (Fa : is_finite (x (i + 1)%nat) = true) by (apply F; lia). assert (Fc : is_finite (x i) = true) by (apply F; lia).
      assert (P := fsub_pos (x (i + 1)%nat) (x i) Fa Fc).
      destruct (Bltb fzero (fsub (x (i + 1)%nat) (x i))) eqn:E.
      + exists i. split; [lia|]. split; [exact Hi|]. assert (L : B2R (x i) < B2R (x (i + 1)%nat)) by (apply P; reflexivity). split; [exact L|]. split.
        * intros j. unfold vset. destruct (Nat.eqb_spec j (i + 1)); [apply (proj1 fone)|]. destruct (Nat.eqb_spec j i); [|reflexivity].
          change (@nopp b64 FNum (@none b64 FNum)) with (Bopp (fmake 1 0)). rewrite fopp_R, (proj1 fone). reflexivity.
        * intros A1 A2. change (@nsub b64 FNum) with fsub.
          destruct (fsub_rnd (x (i + 1)%nat) (x i) Fa Fc) as [E1 F1].
          { apply Rabs_le_inv in A1, A2. apply Rabs_le. assert (pow2 1023 = 2 * pow2 1022) by (change 2 with (pow2 1); rewrite <- bpow_plus; reflexivity). lra. }
          split; [exact F1|]. rewrite E1. eapply Rle_trans; [apply rnd_rel|]. rewrite (Rabs_pos_eq (B2R (x (i + 1)%nat) - B2R (x i))) by lra. lra.
      + apply IH; [lia|]. intros j Hj. destruct (Nat.eq_dec j i) as [->|]; [|apply Hi; lia].
        apply Rnot_lt_le. intros C. apply P in C. discriminate C. }
  apply (G (n - 1)%nat 0%nat); [lia|]. intros j Hj. inversion Hj.
Qed.
Print Assumptions C126_mono64_decides.

Example C126_hypotheses_met :
  let x := fun i => match i with 0%nat => fmake 3 0 | 1%nat => fmake 1 (-1) | _ => fmake 0x1999999999999a (-53) end in
  (forall i, (i < 3)%nat -> is_finite (x i) = true) /\
  (exists g fj, @mono_oracle b64 FNum 3 x = Some (g, fj)) /\ @mono_oracle b64 FNum 2 x = None.
Proof.
  cbv zeta. split; [|split].
  - intros [|[|[|i]]] Hi; try lia; reflexivity.
  - match goal with |- exists g fj, ?m = _ => assert (X : match m with Some _ => true | None => false end = true) by (vm_compute; reflexivity); destruct m as [[g fj]|]; [eauto|discriminate X] end.
  - match goal with |- ?m = None => assert (X : match m with Some _ => true | None => false end = false) by (vm_compute; reflexivity); destruct m; [discriminate X|reflexivity] end.
Qed.

(** C121 applies to a run that makes the matrix non-diagonal *)
Definition ell_offdiag (x : res (memory b64 * ell b64 * (status * b64))) : bool :=
  match x with Ok ((_, e), _) => negb (feqb (e_Q e 0%nat 1%nat) fzero) | Raise _ => false end.
Definition ell_step2 (x : res (ell b64)) : res (memory b64 * ell b64 * (status * b64)) :=
  match x with
  | Ok e => @ell_update b64 (FNumD fdot_seq) (fun _ _ => fzero, e) (fun i => if (i =? 0)%nat then fmake 1 0 else fmake 3 (-1), BScalar (fmake 1 (-3)))
  | Raise e => Raise e end.
Example C121_hypotheses_met :
  exists e w' e', @ell_init b64 FNum (VScalar (fmake 1 0)) 2 0%nat = Ok e /\
    reach64 fdot_seq (fun _ _ => fzero, e) (w', e') /\ feqb (e_Q e' 0%nat 1%nat) fzero = false.
Proof.
  assert (X : ell_offdiag (ell_step2 (@ell_init b64 FNum (VScalar (fmake 1 0)) 2 0%nat)) = true) by (vm_compute; reflexivity).
  revert X. destruct (@ell_init b64 FNum (VScalar (fmake 1 0)) 2 0%nat) as [e|] eqn:E; [|discriminate].
  destruct (ell_step2 (Ok e)) as [[[w' e'] sr]|] eqn:U; [|discriminate]. cbn [ell_offdiag ell_step2] in *. intros X.
  exists e, w', e'. split; [reflexivity|]. split; [|apply negb_true_iff, X]. eapply r64_step; [exact U|apply r64_refl].
Qed.
