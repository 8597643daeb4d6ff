(** ell.update in binary64 when the computed kappa * g'Qg is negative (C141). *)
From Coq Require Import ZArith Reals Lra Lia Bool List.
From Flocq Require Import Core.Core Relative IEEE754.BinarySingleNaN.
From Verif Require Import Base M_Drivers M_Ell S_Ell S_LinAlg M_Float P_Float P_Float2 S_Float P_FSum T_Float T_Float2.
Import ListNotations.
Local Open Scope R_scope.

Definition tsq64 (dot : nat -> (nat -> b64) -> (nat -> b64) -> b64) (e : ell b64) (g : nat -> b64) : b64 :=
  fmul (e_kappa e) (dot (e_n e) g (fun i => dot (e_n e) (e_Q e i) g)).

Lemma ltb_neg_cases (x : b64) : Bltb x fzero = true -> x = B754_infinity true \/ (is_finite x = true /\ B2R x < 0).
Proof.
  intros H. destruct x as [s|s| |s m e Hm]; try discriminate H.
  - destruct s; [left; reflexivity|discriminate H].
  - right. split; [reflexivity|]. rewrite f64_ltb in H by reflexivity. change (B2R fzero) with 0 in H.
    destruct (Rlt_bool_spec (B2R (B754_finite s m e Hm)) 0); [assumption|discriminate].
Qed.
Lemma omega_cases (k om : b64) : Bltb (fmul k om) fzero = true -> feqb om fzero = false /\ forall s, exists s', fdiv (B754_zero s) om = B754_zero s'.
Proof.
  intros H. destruct om as [s|s| |s m e Hm].
  - exfalso. destruct k; discriminate H.
  - split; [destruct s; reflexivity|]. intros s0. eexists. destruct s; reflexivity.
  - exfalso. destruct k; discriminate H.
  - split; [destruct s; reflexivity|]. intros s0. eexists. reflexivity.
Qed.
Lemma zero_mul s (x : b64) : is_finite x = true -> exists s', fmul (B754_zero s) x = B754_zero s'.
Proof. destruct x; try discriminate; intros _; eexists; reflexivity. Qed.
Lemma sub_zero (x : b64) s : is_finite x = true -> is_finite (fsub x (B754_zero s)) = true /\ B2R (fsub x (B754_zero s)) = B2R x.
Proof.
  intros F. destruct (fsub_exact x (B754_zero s)) as [E1 E2]; auto.
  - cbn [B2R]. rewrite Rminus_0_r. apply fmt_b64.
  - cbn [B2R]. rewrite Rminus_0_r. apply abs_B2R_lt_emax.
  - split; [exact E2|]. rewrite E1. cbn [B2R]. ring.
Qed.

(** ** C141 *)
Theorem C141_negative_tsq :
  forall dot w e g b, Bltb (tsq64 dot e g) fzero = true ->
  (1 <= e_n e)%nat -> (Z.of_nat (e_n e) <= 2 ^ 20)%Z -> is_finite (e_nPlus1 e) = true -> B2R (e_nPlus1 e) <> 0 ->
  is_finite b = true -> Rabs (B2R b) <= pow2 1000 ->
  (0 < B2R b -> @ell_update b64 (FNumD dot) (w, e) (g, BScalar b) = Ok ((w, e), (nosoln, fzero))) /\
  (B2R b < 0 -> @ell_update b64 (FNumD dot) (w, e) (g, BScalar b) = Ok ((w, e), (noeffect, fzero))) /\
  (B2R b = 0 -> exists w' e', @ell_update b64 (FNumD dot) (w, e) (g, BScalar b) = Ok ((w', e'), (success, fzero)) /\
     forall l i, is_finite (w l i) = true -> is_finite (dot (e_n e) (e_Q e i) g) = true ->
       is_finite (w' l i) = true /\ B2R (w' l i) = B2R (w l i)).
Proof.
  intros dot w e g b Ht Hn1 Hn2 Fp Hp Fb Bb. unfold tsq64 in Ht.
  set (om := dot (e_n e) g (fun i => dot (e_n e) (e_Q e i) g)) in *.
  destruct (omega_cases (e_kappa e) om Ht) as [Ho Hz].
  assert (U : @ell_update b64 (FNumD dot) (w, e) (g, BScalar b) =
    bind (@calc_dc b64 (FNumD dot) e (fmul (e_kappa e) om) b) (fun '(tsq, out) =>
      match out with
      | Stop s => Ok ((w, e), (s, tsq))
      | Go rho sigma delta =>
         bind (fdivr rho om) (fun ro => 
         let w' := mem_set w (e_xc e) (fun i => if Nat.ltb i (e_n e) then fsub (w (e_xc e) i) (fmul ro (dot (e_n e) (e_Q e i) g)) else w (e_xc e) i) in
         bind (fdivr sigma om) (fun so =>
         let Q1 := fun i j => fsub (e_Q e i j) (fmul so (fmul (dot (e_n e) (e_Q e i) g) (dot (e_n e) (e_Q e j) g))) in
         let e' := if e_nodefer e then ell_set_Q e (fun i j => fmul (Q1 i j) delta)
                   else ell_set_kappa (ell_set_Q e Q1) (fmul (e_kappa e) delta) in
         Ok ((w', e'), (success, tsq))))
      end)) by reflexivity.
  assert (C : @calc_dc b64 (FNumD dot) e (fmul (e_kappa e) om) b =
    if Bltb (fsub fzero b) fzero then Ok (fzero, Stop nosoln)
    else if feqb b fzero then bind (fdivr fzero (e_nPlus1 e)) (fun r => Ok (fzero, Go r (e_c2 e) (e_c1 e)))
    else let gamma := fadd fzero (fmul (fmake (Z.of_nat (e_n e)) 0) b) in
      if Bltb gamma fzero then Ok (fzero, Stop noeffect)
      else @calc_dc b64 (FNumD dot) e (fmul (e_kappa e) om) b).
  { unfold calc_dc at 1. change (@nsqrt b64 (FNumD dot) (fmul (e_kappa e) om)) with (fsqrtr (fmul (e_kappa e) om)).
    unfold fsqrtr at 1. rewrite Ht. cbn [bind].
    change (@nltb b64 (FNumD dot)) with (fun x y : b64 => Bltb x y). change (@nzero b64 (FNumD dot)) with fzero.
    change (@neqb b64 (FNumD dot)) with feqb. change (@nsub b64 (FNumD dot)) with fsub. cbv beta.
    destruct (Bltb (fsub fzero b) fzero) eqn:B1; [reflexivity|].
    destruct (feqb b fzero) eqn:B2; [unfold calc_cc; change (@ndiv b64 (FNumD dot)) with fdivr; destruct (fdivr fzero (e_nPlus1 e)); reflexivity|].
    cbv zeta. change (@nadd b64 (FNumD dot) fzero (@nmul b64 (FNumD dot) (@nofnat b64 (FNumD dot) (e_n e)) b))
      with (fadd fzero (fmul (fmake (Z.of_nat (e_n e)) 0) b)).
    destruct (Bltb (fadd fzero (fmul (fmake (Z.of_nat (e_n e)) 0) b)) fzero) eqn:B3; [reflexivity|].
    unfold calc_dc. change (@nsqrt b64 (FNumD dot) (fmul (e_kappa e) om)) with (fsqrtr (fmul (e_kappa e) om)).
    unfold fsqrtr at 1. rewrite Ht. cbn [bind].
    change (@nltb b64 (FNumD dot)) with (fun x y : b64 => Bltb x y). change (@nzero b64 (FNumD dot)) with fzero.
    change (@neqb b64 (FNumD dot)) with feqb. change (@nsub b64 (FNumD dot)) with fsub. cbv beta. rewrite B1, B2.
    change (@nadd b64 (FNumD dot) fzero (@nmul b64 (FNumD dot) (@nofnat b64 (FNumD dot) (e_n e)) b))
      with (fadd fzero (fmul (fmake (Z.of_nat (e_n e)) 0) b)). cbv zeta. rewrite B3. reflexivity. }
  assert (HB : Rabs (B2R fzero - B2R b) <= pow2 1023).
  { change (B2R fzero) with 0. replace (0 - B2R b) with (- B2R b) by ring. rewrite Rabs_Ropp. eapply Rle_trans; [exact Bb|]. apply bpow_le. lia. }
  destruct (fsub_exact fzero b) as [E1 F1]; [reflexivity|exact Fb| | |].
  { change (B2R fzero) with 0. replace (0 - B2R b) with (B2R (Bopp b)) by (rewrite fopp_R; ring). apply fmt_b64. }
  { change (B2R fzero) with 0. replace (0 - B2R b) with (B2R (Bopp b)) by (rewrite fopp_R; ring). apply abs_B2R_lt_emax. }
  change (B2R fzero) with 0 in E1. 
  assert (T1 : Bltb (fsub fzero b) fzero = Rlt_bool (- B2R b) 0).
  { rewrite f64_ltb by (auto; reflexivity). rewrite E1. change (B2R fzero) with 0. f_equal. ring. }
  assert (T2 : feqb b fzero = Raux.Req_bool (B2R b) 0).
  { unfold feqb. rewrite Beqb_correct by (auto; reflexivity). reflexivity. }
  rewrite U. split; [|split].
  - intros Hb. rewrite C, T1. destruct (Rlt_bool_spec (- B2R b) 0); [reflexivity|lra].
  - intros Hb. 
    assert (T3 : Bltb (fadd fzero (fmul (fmake (Z.of_nat (e_n e)) 0) b)) fzero = true).
    { set (nn := Z.of_nat (e_n e)) in *.
      assert (NE : B2R (fmake nn 0) = IZR nn /\ is_finite (fmake nn 0) = true).
      { destruct (fmake_exact nn 0) as [N1 N2].
        - change (pow2 0) with 1. rewrite Rmult_1_r. apply fmt_Z. lia.
        - change (pow2 0) with 1. rewrite Rmult_1_r, <- abs_IZR. apply Rle_lt_trans with (pow2 20); [change (pow2 20) with (IZR (2 ^ 20)); apply IZR_le; lia|apply bpow_lt; lia].
        - split; [rewrite N1; change (pow2 0) with 1; ring|exact N2]. }
      destruct NE as [NR NF].
      assert (N1 : 1 <= IZR nn <= pow2 20).
      { split; [apply IZR_le; lia|]. change (pow2 20) with (IZR (2 ^ 20)). apply IZR_le. lia. }
      destruct (fmul_rnd (fmake nn 0) b NF Fb) as [EM FM].
      { rewrite NR, Rabs_mult, (Rabs_pos_eq (IZR nn)) by lra. apply Rle_trans with (pow2 20 * pow2 1000).
        - apply Rmult_le_compat; [lra|apply Rabs_pos|lra|exact Bb].
        - rewrite <- bpow_plus. apply bpow_le. lia. }
      assert (LM : B2R (fmul (fmake nn 0) b) <= B2R b).
      { rewrite EM, NR. apply rnd_le; [nra|apply fmt_b64]. }
      destruct (fadd_exact fzero (fmul (fmake nn 0) b)) as [EA FA]; [reflexivity|exact FM| | |].
      { change (B2R fzero) with 0. rewrite Rplus_0_l. apply fmt_b64. }
      { change (B2R fzero) with 0. rewrite Rplus_0_l. apply abs_B2R_lt_emax. }
      rewrite f64_ltb by (auto; reflexivity). rewrite EA. change (B2R fzero) with 0. apply Rlt_bool_true. lra. }
    rewrite C, T1, T2. destruct (Rlt_bool_spec (- B2R b) 0); [lra|]. rewrite Raux.Req_bool_false by lra.
    cbv zeta. rewrite T3. reflexivity.
  - intros Hb. rewrite C, T1, T2, Hb. rewrite Rlt_bool_false by lra. rewrite Raux.Req_bool_true by reflexivity.
    rewrite (fdivr_ok fzero (e_nPlus1 e) Fp Hp). cbn [bind].
    assert (Z0 : exists s, fdiv fzero (e_nPlus1 e) = B754_zero s).
    { destruct (e_nPlus1 e) as [s|s| |s m ex Hm]; try discriminate Fp; [cbn in Hp; lra|]. eexists. reflexivity. }
    destruct Z0 as [s0 ->]. unfold fdivr. rewrite Ho. cbn [bind]. cbv zeta.
    destruct (Hz s0) as [s1 ->]. do 2 eexists. split; [reflexivity|].
    intros l i Fw Fq. unfold mem_set. destruct (Nat.eqb_spec l (e_xc e)) as [->|_]; [|split; [exact Fw|reflexivity]].
    destruct (Nat.ltb i (e_n e)); [|split; [exact Fw|reflexivity]].
    destruct (zero_mul s1 _ Fq) as [s2 ->]. apply sub_zero, Fw.
Qed.
Print Assumptions C141_negative_tsq.

(** "kappa stays positive" and "nosoln means that no point of the set satisfies the cuts" fail in binary64: in the
    ball of squared radius 5, the cut ((1, 11/2^30), fl(sqrt 5)) leaves kappa negative with the answer success, and the
    next cut ((0, 1), 2^-30) is answered nosoln, although the real point z lies in the ball and satisfies both cuts. *)
Definition ell2_run (w : memory b64) (g1 : nat -> b64) (b1 : b64) (g2 : nat -> b64) (b2 : b64) (x : res (ell b64)) :=
  match x with
  | Ok e => match @ell_update b64 (FNumD fdot_seq) (w, e) (g1, BScalar b1) with
            | Ok ((w', e'), (s, _)) =>
                match @ell_update b64 (FNumD fdot_seq) (w', e') (g2, BScalar b2) with
                | Ok (_, (s2, t2)) => Some (e_n e, ell2_of e w, (e_n e', ell2_of e' w', s), (s2, B2SF t2))
                | Raise _ => None end
            | Raise _ => None end
  | Raise _ => None end.

Theorem C141_kappa_positive_refuted :
  exists (e : ell b64) w g1 b1 st' t1 g2 b2 st'' t2 z,
    @ell_init b64 FNum (VScalar (fmake 5 0)) 2 0%nat = Ok e /\ (forall i, w 0%nat i = fzero) /\
    @ell_update b64 (FNumD fdot_seq) (w, e) (g1, BScalar b1) = Ok (st', (success, t1)) /\
    0 < B2R (e_kappa e) /\ B2R (e_kappa (snd st')) < 0 /\
    @ell_update b64 (FNumD fdot_seq) st' (g2, BScalar b2) = Ok (st'', (nosoln, t2)) /\
    mem64 (w, e) z /\ sat64 (w, e) g1 b1 z /\ sat64 st' g2 b2 z.
Proof.
  set (w := fun (_ _ : nat) => fzero).
  set (g1 := fun i : nat => if (i =? 0)%nat then fmake 1 0 else fmake 11 (-30)).
  set (b1 := fmake 629397181890197 (-48)).
  set (g2 := fun i : nat => if (i =? 0)%nat then fzero else fmake 1 0).
  set (b2 := fmake 1 (-30)).
  assert (X : ell2_run w g1 b1 g2 b2 (@ell_init b64 FNum (VScalar (fmake 5 0)) 2 0%nat) =
    Some (2%nat, map B2SF [fmake 5 0; fmake 1 0; fzero; fzero; fmake 1 0; fzero; fzero],
         (2%nat, map B2SF [fmake (-3752999689475413) (-101); fzero; fmake (-11) (-30); fmake (-11) (-30); fmake 9007199254740991 (-53);
            fmake (-629397181890197) (-48); fmake (-6923369000792167) (-78)], success), (nosoln, B2SF fzero))) by (vm_compute; reflexivity).
  revert X. destruct (@ell_init b64 FNum (VScalar (fmake 5 0)) 2 0%nat) as [e|] eqn:E; [|discriminate]. cbn [ell2_run].
  match goal with |- match ?u with Ok _ => _ | Raise _ => _ end = _ -> _ => destruct u as [[[w' e'] [s t1]]|] eqn:U; [|discriminate] end.
  match goal with |- match ?u with Ok _ => _ | Raise _ => _ end = _ -> _ => destruct u as [[st'' [s2 t2]]|] eqn:U2; [|discriminate] end. intros X.
  unfold ell2_of in X. cbn [map] in X.
  assert (En : e_n e = 2%nat) by congruence. assert (En' : e_n e' = 2%nat) by congruence. assert (Es : s = success) by congruence.
  assert (Es2 : s2 = nosoln) by congruence.
  assert (I : forall x y : b64, B2SF x = B2SF y -> x = y) by (intros x y; apply B2SF_inj).
  assert (X1 : e_kappa e = fmake 5 0) by (apply I; congruence).
  assert (X2 : e_Q e 0%nat 0%nat = fmake 1 0) by (apply I; congruence).
  assert (X3 : e_Q e 0%nat 1%nat = fzero) by (apply I; congruence).
  assert (X4 : e_Q e 1%nat 0%nat = fzero) by (apply I; congruence).
  assert (X5 : e_Q e 1%nat 1%nat = fmake 1 0) by (apply I; congruence).
  assert (Y1 : e_kappa e' = fmake (-3752999689475413) (-101)) by (apply I; congruence).
  assert (Y6 : w' (e_xc e') 0%nat = fmake (-629397181890197) (-48)) by (apply I; congruence).
  assert (Y7 : w' (e_xc e') 1%nat = fmake (-6923369000792167) (-78)) by (apply I; congruence).
  clear X I. subst s s2.
  set (z := fun i : nat => if (i =? 0)%nat then - (2639883117590780515775 / 1180591620717411303424) else - (29283 / 1099511627776)).
  exists e, w, g1, b1, (w', e'), t1, g2, b2, st'', t2, z.
  split; [reflexivity|]. split; [reflexivity|]. split; [exact U|]. cbn [snd].
  split; [rewrite X1, fmakeR by lia; change (pow2 0) with 1; lra|].
  split; [rewrite Y1, fmakeR by lia; assert (P := bpow_gt_0 radix2 (-101)); nra|].
  split; [exact U2|]. unfold mem64, sat64. rewrite En, En'. split; [|split].
  - exists z. split.
    + intros i Hi. unfold mvr, dot. destruct i as [|[|i]]; [| |lia]; cbn [rsum]; rewrite ?X2, ?X3, ?X4, ?X5; change (w (e_xc e)) with (fun _ : nat => fzero); cbv beta;
        rewrite fmakeR by lia; change (B2R fzero) with 0; change (pow2 0) with 1; lra.
    + rewrite bf2, X1, X2, X3, X4, X5, !fmakeR by lia. change (B2R fzero) with 0. change (pow2 0) with 1. unfold z. cbn [Nat.eqb]. lra.
  - unfold dot. cbn [rsum]. change (w (e_xc e)) with (fun _ : nat => fzero). unfold g1, b1, z. cbn [Nat.eqb]. rewrite !fmakeR by lia.
    change (B2R fzero) with 0. change (pow2 0) with 1. change (pow2 (-30)) with (/ 1073741824). change (pow2 (-48)) with (/ 281474976710656). lra.
  - unfold dot. cbn [rsum]. unfold g2, b2, z. cbn [Nat.eqb]. rewrite Y6, Y7, !fmakeR by lia.
    change (B2R fzero) with 0. change (pow2 0) with 1. change (pow2 (-30)) with (/ 1073741824). change (pow2 (-48)) with (/ 281474976710656).
    change (pow2 (-78)) with (/ 302231454903657293676544). lra.
Qed.
Print Assumptions C141_kappa_positive_refuted.

(** What does hold: kappa stays nonnegative as long as the computed kappa * g'Qg is in [2^-500, 2^500] and
    beta^2 is at most it - which the code compares only after rounding the square root. *)
Lemma rnd_one_ulp x : x <= 1 + pow2 (-53) -> rnd x <= 1.
Proof.
  intros H. assert (E : rnd (1 + pow2 (-53)) = 1).
  { assert (F1 : is_finite (fmake 1 0) = true /\ B2R (fmake 1 0) = 1) by (split; [reflexivity|rewrite fmakeR by lia; change (pow2 0) with 1; ring]).
    assert (F2 : is_finite (fmake 1 (-53)) = true /\ B2R (fmake 1 (-53)) = pow2 (-53)) by (split; [reflexivity|rewrite fmakeR by lia; ring]).
    destruct F1 as [F1 R1]. destruct F2 as [F2 R2].
    assert (P : Rabs (B2R (fmake 1 0) + B2R (fmake 1 (-53))) <= pow2 1023).
    { rewrite R1, R2. assert (0 < pow2 (-53)) by apply bpow_gt_0. rewrite Rabs_pos_eq by lra.
      apply Rle_trans with (pow2 1); [change (pow2 1) with 2; change (pow2 (-53)) with (/ 9007199254740992); lra|apply bpow_le; lia]. }
    destruct (fadd_rnd _ _ F1 F2 P) as [EA _]. rewrite R1, R2 in EA. rewrite <- EA.
    replace (fadd (fmake 1 0) (fmake 1 (-53))) with (fmake 1 0) by (apply B2SF_inj; vm_compute; reflexivity). exact R1. }
  rewrite <- E. apply round_le; [typeclasses eauto..|exact H].
Qed.
Lemma rnd_relN x : pow2 (-1021) <= Rabs x -> Rabs (rnd x - x) <= pow2 (-53) * Rabs x.
Proof.
  intros H. replace (pow2 (-53)) with (/ 2 * pow2 (- 53 + 1)) by (change (pow2 (-53)) with (/ 9007199254740992); change (pow2 (- 53 + 1)) with (/ 4503599627370496); lra).
  apply (relative_error_N_FLT radix2 (-1074) 53 ltac:(lia) (fun x => negb (Z.even x)) x). eapply Rle_trans; [|exact H]. apply bpow_le. lia.
Qed.
Theorem C141_kappa_nonneg_partial :
  forall dot w e g b st' tsq, @ell_update b64 (FNumD dot) (w, e) (g, BScalar b) = Ok (st', (success, tsq)) ->
  is_finite (tsq64 dot e g) = true -> pow2 (-500) <= B2R (tsq64 dot e g) <= pow2 500 ->
  is_finite b = true -> B2R b * B2R b <= B2R (tsq64 dot e g) ->
  is_finite (e_c1 e) = true -> 0 <= B2R (e_c1 e) <= 2 ->
  is_finite (e_kappa e) = true -> 0 <= B2R (e_kappa e) <= pow2 500 ->
  is_finite (e_kappa (snd st')) = true /\ 0 <= B2R (e_kappa (snd st')).
Proof.
  intros dot w e g b st' tsq U Ft Rt Fb Hb Fc Rc Fk Rk.
  assert (G : forall delta : b64, is_finite delta = true -> 0 <= B2R delta <= 2 ->
    is_finite (fmul (e_kappa e) delta) = true /\ 0 <= B2R (fmul (e_kappa e) delta)).
  { intros d Fd Rd. destruct (fmul_rnd (e_kappa e) d Fk Fd) as [EM FM].
    - rewrite Rabs_pos_eq by nra. apply Rle_trans with (pow2 500 * pow2 1); [change (pow2 1) with 2; nra|].
      rewrite <- bpow_plus. apply bpow_le. lia.
    - split; [exact FM|]. rewrite EM. apply rnd_ge; [nra|]. apply generic_format_0. }
  assert (D : forall out t, @calc_dc b64 (FNumD dot) e (tsq64 dot e g) b = Ok (t, out) ->
    match out with Stop _ => True | Go _ _ d => is_finite d = true /\ 0 <= B2R d <= 2 end).
  { intros out t. unfold calc_dc.
    change (@nsqrt b64 (FNumD dot) (tsq64 dot e g)) with (fsqrtr (tsq64 dot e g)). unfold fsqrtr at 1.
    assert (L : Bltb (tsq64 dot e g) fzero = false).
    { rewrite f64_ltb by (auto; reflexivity). change (B2R fzero) with 0. apply Rlt_bool_false. assert (0 < pow2 (-500)) by apply bpow_gt_0. lra. }
    rewrite L. cbn [bind]. set (T := tsq64 dot e g) in *.
    change (@nltb b64 (FNumD dot)) with (fun x y : b64 => Bltb x y). change (@nzero b64 (FNumD dot)) with fzero.
    change (@neqb b64 (FNumD dot)) with feqb. change (@nsub b64 (FNumD dot)) with fsub. change (@ndiv b64 (FNumD dot)) with fdivr. change (@nmul b64 (FNumD dot)) with fmul.
    change (@none b64 (FNumD dot)) with (fmake 1 0). cbv beta.
    destruct (Bltb (fsub (fsqrt T) b) fzero); [intros X; inversion X; exact I|].
    destruct (feqb b fzero) eqn:B0.
    { unfold calc_cc. change (@ndiv b64 (FNumD dot)) with fdivr. destruct (fdivr (fsqrt T) (e_nPlus1 e)); [|discriminate]. cbn [bind].
      intros X; inversion X; subst. split; [exact Fc|exact Rc]. }
    cbv zeta. match goal with |- context [Bltb ?u fzero] => destruct (Bltb u fzero) end; [intros X; inversion X; exact I|].
    repeat match goal with |- context [bind (fdivr ?u ?v) _] => lazymatch v with T => fail | _ => destruct (fdivr u v); [cbn [bind]|discriminate] end end.
    assert (T0 : 0 < B2R T) by (assert (0 < pow2 (-500)) by apply bpow_gt_0; lra).
    rewrite (fdivr_ok b T Ft) by lra. cbn [bind].
    intros X; inversion X; subst; clear X.
    assert (NB : B2R b <> 0).
    { intros Z. unfold feqb in B0. rewrite Beqb_correct in B0 by (auto; reflexivity). change (B2R fzero) with 0 in B0.
      rewrite Raux.Req_bool_true in B0 by exact Z. discriminate. }
    set (y := B2R b) in *. set (tt := B2R T) in *.
    assert (A1 : 0 < Rabs y) by (apply Rabs_pos_lt; exact NB).
    assert (YY : Rabs y * Rabs y = y * y) by (rewrite <- Rabs_mult; apply Rabs_pos_eq; nra).
    assert (A2 : Rabs y <= pow2 250).
    { apply Rsqr_incr_0; [|lra|apply bpow_ge_0]. unfold Rsqr. rewrite YY, <- bpow_plus. change (250 + 250)%Z with 500%Z. lra. }
    assert (Q1 : Rabs (y / tt) <= / Rabs y).
    { unfold Rdiv. rewrite Rabs_mult, (Rabs_pos_eq (/ tt)) by (left; apply Rinv_0_lt_compat; lra).
      apply Rmult_le_reg_r with tt; [lra|]. rewrite Rmult_assoc, Rinv_l, Rmult_1_r by lra.
      apply Rmult_le_reg_l with (Rabs y); [lra|]. rewrite YY. replace (Rabs y * (/ Rabs y * tt)) with tt by (field; lra). exact Hb. }
    assert (I1 : pow2 (-250) <= / Rabs y).
    { change (-250)%Z with (- (250))%Z. rewrite bpow_opp. apply Rinv_le; lra. }
    assert (Q2 : Rabs (y / tt) <= pow2 750).
    { unfold Rdiv. rewrite Rabs_mult, (Rabs_pos_eq (/ tt)) by (left; apply Rinv_0_lt_compat; lra).
      apply Rle_trans with (pow2 250 * pow2 500); [|rewrite <- bpow_plus; apply bpow_le; lia].
      apply Rmult_le_compat; [lra|left; apply Rinv_0_lt_compat; lra|exact A2|].
      replace (pow2 500) with (/ pow2 (-500)) by (rewrite <- bpow_opp; reflexivity). apply Rinv_le; [apply bpow_gt_0|lra]. }
    destruct (fdiv_rnd b T Fb) as [ED FD]; [fold tt; lra| |].
    { fold y tt. eapply Rle_trans; [exact Q2|apply bpow_le; lia]. }
    fold y tt in ED. set (q := fdiv b T) in *.
    assert (Q3 : Rabs (B2R q) <= / Rabs y * (1 + pow2 (-53))).
    { rewrite ED. assert (M : Rabs (rnd (y / tt)) <= rnd (/ Rabs y)).
      { rewrite <- round_NE_abs. apply round_le; [typeclasses eauto..|exact Q1]. typeclasses eauto. }
      assert (R := rnd_relN (/ Rabs y)). rewrite (Rabs_pos_eq (/ Rabs y)) in R by (left; apply Rinv_0_lt_compat; lra).
      assert (R' : Rabs (rnd (/ Rabs y) - / Rabs y) <= pow2 (-53) * / Rabs y).
      { apply R. eapply Rle_trans; [|exact I1]. apply bpow_le. lia. }
      apply Rabs_le_inv in R'. lra. }
    assert (YQ : 0 <= y * B2R q).
    { rewrite ED. destruct (Rle_dec 0 y) as [Hy|Hy].
      - assert (0 <= rnd (y / tt)); [|nra]. apply rnd_ge; [|apply generic_format_0]. unfold Rdiv. assert (0 < / tt) by (apply Rinv_0_lt_compat; lra). nra.
      - assert (rnd (y / tt) <= 0); [|nra]. apply rnd_le; [|apply generic_format_0]. unfold Rdiv. assert (0 < / tt) by (apply Rinv_0_lt_compat; lra). nra. }
    assert (P53 : 0 < pow2 (-53) < / 2) by (change (pow2 (-53)) with (/ 9007199254740992); lra).
    assert (YQ2 : y * B2R q <= 1 + pow2 (-53)).
    { apply Rle_trans with (Rabs (y * B2R q)); [apply RRle_abs|]. rewrite Rabs_mult.
      apply Rle_trans with (Rabs y * (/ Rabs y * (1 + pow2 (-53)))); [apply Rmult_le_compat_l; lra|]. right. field. lra. }
    destruct (fmul_rnd b q Fb FD) as [EM FM].
    { fold y. rewrite Rabs_pos_eq by exact YQ. apply Rle_trans with (pow2 1); [change (pow2 1) with 2; lra|apply bpow_le; lia]. }
    fold y in EM. set (x := fmul b q) in *.
    assert (X1 : 0 <= B2R x <= 1).
    { rewrite EM. split; [apply rnd_ge; [exact YQ|apply generic_format_0]|apply rnd_one_ulp, YQ2]. }
    assert (O1 : is_finite (fmake 1 0) = true /\ B2R (fmake 1 0) = 1) by (split; [reflexivity|rewrite fmakeR by lia; change (pow2 0) with 1; ring]).
    destruct O1 as [OF OR].
    destruct (fsub_rnd (fmake 1 0) x OF FM) as [ES FS].
    { rewrite OR, Rabs_pos_eq by lra. apply Rle_trans with (pow2 0); [change (pow2 0) with 1; lra|apply bpow_le; lia]. }
    assert (S1 : 0 <= B2R (fsub (fmake 1 0) x) <= 1).
    { rewrite ES, OR. split; [apply rnd_ge; [lra|apply generic_format_0]|apply rnd_le; [lra|]]. rewrite <- OR. apply fmt_b64. }
    destruct (fmul_rnd (e_c1 e) (fsub (fmake 1 0) x) Fc FS) as [EC FC].
    { rewrite Rabs_pos_eq by nra. apply Rle_trans with (pow2 1); [change (pow2 1) with 2; nra|apply bpow_le; lia]. }
    split; [exact FC|]. change (0 <= B2R (fmul (e_c1 e) (fsub (fmake 1 0) x)) <= 2). rewrite EC. split; [apply rnd_ge; [nra|apply generic_format_0]|].
    apply rnd_le; [nra|]. change 2 with (pow2 1). apply fmt_pow2. lia. }
  unfold ell_update in U. change (@ndot b64 (FNumD dot)) with dot in U. cbn [fst snd] in U.
  change (@calc_ll b64 (FNumD dot) e _ (BScalar b)) with (@calc_dc b64 (FNumD dot) e (tsq64 dot e g) b) in U.
  destruct (@calc_dc b64 (FNumD dot) e (tsq64 dot e g) b) as [[t out]|] eqn:E; [|discriminate U]. specialize (D out t eq_refl). cbn [bind] in U.
  destruct out as [s|rho sigma delta]; [inversion U; subst; cbn [snd]; split; [exact Fk|lra]|]. destruct D as [Fd Rd].
  change (@ndiv b64 (FNumD dot)) with fdivr in U. cbv zeta in U.
  destruct (fdivr rho _) as [ro|]; [|discriminate U]. cbn [bind] in U. destruct (fdivr sigma _) as [so|]; [|discriminate U]. cbn [bind] in U.
  inversion U; subst; clear U. cbn [snd]. destruct (e_nodefer e); cbn [e_kappa ell_set_Q ell_set_kappa].
  - split; [exact Fk|lra].
  - apply G; assumption.
Qed.
Print Assumptions C141_kappa_nonneg_partial.

(** Cases meeting the hypotheses. *)
Example C141_ex :
  (exists (e : ell b64) g, @ell_init b64 FNum (VScalar (fmake (-1) 0)) 2 0%nat = Ok e /\ Bltb (tsq64 fdot_seq e g) fzero = true /\
     e_n e = 2%nat /\ is_finite (e_nPlus1 e) = true /\ B2R (e_nPlus1 e) <> 0) /\
  (exists (e : ell b64) w g b st' tsq, @ell_init b64 FNum (VScalar (fmake 5 0)) 2 0%nat = Ok e /\
     @ell_update b64 (FNumD fdot_seq) (w, e) (g, BScalar b) = Ok (st', (success, tsq)) /\
     is_finite (tsq64 fdot_seq e g) = true /\ pow2 (-500) <= B2R (tsq64 fdot_seq e g) <= pow2 500 /\
     is_finite b = true /\ B2R b * B2R b <= B2R (tsq64 fdot_seq e g) /\ is_finite (e_c1 e) = true /\ 0 <= B2R (e_c1 e) <= 2 /\
     is_finite (e_kappa e) = true /\ 0 <= B2R (e_kappa e) <= pow2 500).
Proof.
  set (g := fun i : nat => if (i =? 0)%nat then fmake 1 0 else fzero).
  assert (I : forall x y : b64, B2SF x = B2SF y -> x = y) by (intros x y; apply B2SF_inj). split.
  - assert (X : match @ell_init b64 FNum (VScalar (fmake (-1) 0)) 2 0%nat with
        | Ok e => Some (Bltb (tsq64 fdot_seq e g) fzero, e_n e, B2SF (e_nPlus1 e)) | Raise _ => None end = Some (true, 2%nat, B2SF (fmake 3 0))) by (vm_compute; reflexivity).
    destruct (@ell_init b64 FNum (VScalar (fmake (-1) 0)) 2 0%nat) as [e|]; [|discriminate].
    assert (P : e_nPlus1 e = fmake 3 0) by (apply I; congruence).
    exists e, g. split; [reflexivity|]. split; [congruence|]. split; [congruence|]. rewrite P. split; [reflexivity|].
    rewrite fmakeR by lia. change (pow2 0) with 1. lra.
  - set (w := fun (_ _ : nat) => fzero).
    assert (X : match @ell_init b64 FNum (VScalar (fmake 5 0)) 2 0%nat with
        | Ok e => match @ell_update b64 (FNumD fdot_seq) (w, e) (g, BScalar (fmake 1 0)) with
                  | Ok (_, (s, _)) => Some (s, B2SF (tsq64 fdot_seq e g), B2SF (e_c1 e), B2SF (e_kappa e)) | Raise _ => None end
        | Raise _ => None end = Some (success, B2SF (fmake 5 0), B2SF (fdiv (fmake 4 0) (fmake 3 0)), B2SF (fmake 5 0))) by (vm_compute; reflexivity).
    destruct (@ell_init b64 FNum (VScalar (fmake 5 0)) 2 0%nat) as [e|]; [|discriminate].
    destruct (@ell_update b64 (FNumD fdot_seq) (w, e) (g, BScalar (fmake 1 0))) as [[st' [s t]]|] eqn:U; [|discriminate].
    assert (P1 : tsq64 fdot_seq e g = fmake 5 0) by (apply I; congruence).
    assert (P2 : e_c1 e = fmake 6004799503160661 (-52)).
    { transitivity (fdiv (fmake 4 0) (fmake 3 0)); [apply I; congruence|apply I; vm_compute; reflexivity]. }
    assert (P3 : e_kappa e = fmake 5 0) by (apply I; congruence).
    assert (P4 : s = success) by congruence. subst s.
    exists e, w, g, (fmake 1 0), st', t. split; [reflexivity|]. split; [exact U|]. rewrite P1, P2, P3.
    assert (B1 : pow2 (-500) <= 1) by (change 1 with (pow2 0); apply bpow_le; lia).
    assert (B2 : 8 <= pow2 500) by (change 8 with (pow2 3); apply bpow_le; lia).
    rewrite !fmakeR by lia. change (pow2 0) with 1. change (pow2 (-52)) with (/ 4503599627370496).
    repeat split; lra.
Qed.
