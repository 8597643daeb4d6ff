(** Property theorems about ell1d in binary64: building and copying (C163), the drivers over it (C164). *)
From Coq Require Import ZArith Reals Lra Lia Bool List Psatz SpecFloat.
From Flocq Require Import Core.Core IEEE754.BinarySingleNaN.
From Verif Require Import Base M_Drivers M_Float M_Ell S_Drivers P_Drivers S_Float P_Float P_Float2 P_FSum P_Ell4 T_Float T_Float2 S_Itv.
Import ListNotations.
Local Open Scope R_scope.

Lemma pow2_split a b c : (a = b + c)%Z -> pow2 a = pow2 b * pow2 c.
Proof. intros ->. apply bpow_plus. Qed.

(** ** C163: ell1d([l, u]) and copy() *)
Section Build.
Variables (l u : b64) (B : R).
Hypothesis Fl : is_finite l = true.
Hypothesis Fu : is_finite u = true.
Hypothesis Hl : Rabs (B2R l) <= B.
Hypothesis Hu : Rabs (B2R u) <= B.
Hypothesis HB : B <= pow2 1001.
Let Hl' := Rabs_le_inv _ _ Hl.
Let Hu' := Rabs_le_inv _ _ Hu.

Lemma init64 : exists e, @ell1d_init b64 FNum l u = Ok e /\ is_finite (i_r e) = true /\ is_finite (i_xc e) = true /\
  B2R (i_r e) = rnd (rnd (B2R u - B2R l) / 2) /\ B2R (i_xc e) = rnd (B2R l + B2R (i_r e)) /\
  Rabs (B2R (i_r e) - (B2R u - B2R l) / 2) <= pow2 (-51) * B + pow2 (-1074) /\
  Rabs (B2R (i_xc e) - (B2R l + B2R u) / 2) <= pow2 (-51) * B + pow2 (-1073).
Proof.
  unfold ell1d_init. change (@two b64 FNum) with (fmake 2 0). change (@ndiv b64 FNum) with fdivr.
  change (@nsub b64 FNum) with fsub. change (@nadd b64 FNum) with fadd. destruct ftwo as [E2 F2].
  rewrite fdivr_ok by (exact F2 || rewrite E2; lra). cbn [bind]. eexists. split; [reflexivity|]. cbn [i_r i_xc].
  assert (P53 : 0 < pow2 (-53)) by apply bpow_gt_0. assert (P5 : pow2 (-53) <= / 1000).
  { apply Rle_trans with (pow2 (-10)); [apply bpow_le; lia|]. cbn. lra. }
  assert (Q0 : 0 < pow2 (-1075)) by apply bpow_gt_0. assert (Q1 : pow2 (-1075) <= pow2 0) by (apply bpow_le; lia). change (pow2 0) with 1 in Q1.
  assert (E51 : pow2 (-51) = 4 * pow2 (-53)) by (rewrite (pow2_split (-51) 2 (-53)) by lia; reflexivity).
  assert (E74 : pow2 (-1074) = 2 * pow2 (-1075)) by (rewrite (pow2_split (-1074) 1 (-1075)) by lia; reflexivity).
  assert (E73 : pow2 (-1073) = 4 * pow2 (-1075)) by (rewrite (pow2_split (-1073) 2 (-1075)) by lia; reflexivity).
  assert (BIG : 4 * B + 4 <= pow2 1023).
  { assert (4 * pow2 1001 <= pow2 1022). { change 4 with (pow2 2). rewrite <- bpow_plus. apply bpow_le. lia. }
    assert (4 <= pow2 1022) by (change 4 with (pow2 2); apply bpow_le; lia). assert (pow2 1023 = 2 * pow2 1022) by (rewrite (pow2_split 1023 1 1022) by lia; reflexivity). lra. }
  assert (B0 : 0 <= B) by (eapply Rle_trans; [apply Rabs_pos|exact Hl]).
  set (d := B2R u - B2R l). assert (D : Rabs d <= 2 * B) by (apply Rabs_le; unfold d; lra).
  destruct (fsub_rnd u l Fu Fl) as [S1 S2]; [fold d; lra|]. fold d in S1.
  assert (R1 := rnd_rel d). set (rd := rnd d) in *.
  assert (R1' : Rabs (rd - d) <= pow2 (-53) * (2 * B) + pow2 (-1075)).
  { eapply Rle_trans; [exact R1|]. apply Rplus_le_compat_r, Rmult_le_compat_l; lra. }
  assert (SB : 0 <= pow2 (-53) * B <= B / 1000) by (split; [apply Rmult_le_pos; lra|]; replace (B / 1000) with (/ 1000 * B) by field; apply Rmult_le_compat_r; lra).
  apply Rabs_le_inv in R1'. apply Rabs_le_inv in D.
  assert (D2 : Rabs (rd / 2) <= B + B / 1000 + 1) by (apply Rabs_le; lra).
  destruct (fdiv_rnd (fsub u l) (fmake 2 0) S2) as [V1 V2]; [rewrite E2; lra|rewrite S1, E2; lra|]. rewrite S1, E2 in V1.
  assert (R2 := rnd_rel (rd / 2)). rewrite <- V1 in R2. set (r := fdiv (fsub u l) (fmake 2 0)) in *.
  assert (R2' : Rabs (B2R r - rd / 2) <= pow2 (-53) * (B + pow2 (-53) * B + pow2 (-1075)) + pow2 (-1075)).
  { eapply Rle_trans; [exact R2|]. apply Rplus_le_compat_r, Rmult_le_compat_l; [lra|]. apply Rabs_le. lra. }
  assert (SS : pow2 (-53) * (pow2 (-53) * B) <= / 1000 * (pow2 (-53) * B)) by (apply Rmult_le_compat_r; lra).
  assert (SQ : pow2 (-53) * pow2 (-1075) <= / 1000 * pow2 (-1075)) by (apply Rmult_le_compat_r; lra).
  assert (X1 : pow2 (-53) * (B + pow2 (-53) * B + pow2 (-1075)) = pow2 (-53) * B + pow2 (-53) * (pow2 (-53) * B) + pow2 (-53) * pow2 (-1075)) by ring.
  rewrite X1 in R2'. clear X1. apply Rabs_le_inv in R2'.
  assert (RE : Rabs (B2R r - d / 2) <= pow2 (-53) * B * (2 + / 500) + pow2 (-1075) * (16 / 10)) by (apply Rabs_le; lra).
  apply Rabs_le_inv in RE.
  assert (LR : Rabs (B2R l + B2R r) <= B + pow2 (-53) * B * (2 + / 500) + pow2 (-1075) * (16 / 10)) by (apply Rabs_le; unfold d in RE; lra).
  destruct (fadd_rnd l r Fl V2) as [A1 A2]; [lra|].
  assert (R3 := rnd_rel (B2R l + B2R r)). rewrite <- A1 in R3.
  assert (R3' : Rabs (B2R (fadd l r) - (B2R l + B2R r)) <= pow2 (-53) * (B + pow2 (-53) * B * (2 + / 500) + pow2 (-1075) * (16 / 10)) + pow2 (-1075)).
  { eapply Rle_trans; [exact R3|]. apply Rplus_le_compat_r, Rmult_le_compat_l; [lra|exact LR]. }
  assert (X1 : pow2 (-53) * (B + pow2 (-53) * B * (2 + / 500) + pow2 (-1075) * (16 / 10))
    = pow2 (-53) * B + pow2 (-53) * (pow2 (-53) * B) * (2 + / 500) + pow2 (-53) * pow2 (-1075) * (16 / 10)) by ring.
  rewrite X1 in R3'. clear X1. apply Rabs_le_inv in R3'.
  split; [exact V2|]. split; [exact A2|]. split; [exact V1|]. split; [exact A1|]. rewrite E51, E74, E73. unfold d in *. split; apply Rabs_le; lra.
Qed.
End Build.

(** ell1d([l, u]): radius and centre up to rounding, and no point of [l, u] is farther from the interval built than that *)
Theorem C163_ell1d64_init :
  forall (l u : b64) (B : R), is_finite l = true -> is_finite u = true -> Rabs (B2R l) <= B -> Rabs (B2R u) <= B -> B <= pow2 1000 ->
  exists e, @ell1d_init b64 FNum l u = Ok e /\ is_finite (i_r e) = true /\ is_finite (i_xc e) = true /\
    Rabs (B2R (i_r e) - (B2R u - B2R l) / 2) <= itv_ulp B /\ Rabs (B2R (i_xc e) - (B2R l + B2R u) / 2) <= itv_ulp B /\
    (B2R l <= B2R u -> 0 <= B2R (i_r e)) /\
    forall z, B2R l <= z <= B2R u -> Rabs (z - B2R (i_xc e)) <= B2R (i_r e) + itv_ulp B.
Proof.
  intros l u B Fl Fu Hl Hu HB.
  assert (HB2 : B <= pow2 1001) by (eapply Rle_trans; [exact HB|apply bpow_le; lia]).
  destruct (init64 l u B Fl Fu Hl Hu HB2) as (e & E & Fr & Fx & Rr & _ & E1 & E2). exists e.
  assert (B0 : 0 <= B) by (eapply Rle_trans; [apply Rabs_pos|exact Hl]).
  assert (U : pow2 (-51) * B + pow2 (-1073) <= itv_ulp B / 4).
  { unfold itv_ulp. assert (P := bpow_gt_0 radix2 (-51)). assert (E48 : pow2 (-48) = 8 * pow2 (-51)) by (rewrite (pow2_split (-48) 3 (-51)) by lia; reflexivity).
    assert (X : pow2 (-1073) <= pow2 (-51) * pow2 (-1000)) by (rewrite <- bpow_plus; apply bpow_le; lia). rewrite E48.
    assert (0 <= pow2 (-51) * B) by (apply Rmult_le_pos; lra). assert (0 < pow2 (-1073)) by apply bpow_gt_0. lra. }
  assert (T : pow2 (-1074) <= pow2 (-1073)) by (apply bpow_le; lia).
  assert (U0 : 0 <= itv_ulp B) by (apply u_nn; exact B0).
  split; [exact E|]. split; [exact Fr|]. split; [exact Fx|]. split; [lra|]. split; [lra|]. split.
  - intros H. rewrite Rr. apply rnd_nonneg. assert (0 <= rnd (B2R u - B2R l)) by (apply rnd_nonneg; lra). lra.
  - intros z Hz. apply Rabs_le_inv in E1, E2. apply Rabs_le. lra.
Qed.
Print Assumptions C163_ell1d64_init.

(** copy() keeps the interval exactly if its two end points are doubles, and up to rounding in general *)
Theorem C163_ell1d64_copy_partial :
  forall (e : ell1d b64) (B : R), is_finite (i_r e) = true -> is_finite (i_xc e) = true ->
  Rabs (B2R (i_xc e)) + Rabs (B2R (i_r e)) <= B -> B <= pow2 1000 ->
  exists e', @ell1d_copy b64 FNum e = Ok e' /\ is_finite (i_r e') = true /\ is_finite (i_xc e') = true /\
    Rabs (B2R (i_r e') - B2R (i_r e)) <= itv_ulp B /\ Rabs (B2R (i_xc e') - B2R (i_xc e)) <= itv_ulp B /\
    (forall z, itv64 e z -> Rabs (z - B2R (i_xc e')) <= B2R (i_r e') + itv_ulp B) /\
    ((exists l u : b64, B2R l = B2R (i_xc e) - B2R (i_r e) /\ B2R u = B2R (i_xc e) + B2R (i_r e)) ->
     B2R (i_r e') = B2R (i_r e) /\ B2R (i_xc e') = B2R (i_xc e)).
Proof.
  intros [r xc] B Fr Fx HB HB2. cbn [i_r i_xc] in *. unfold ell1d_copy. cbn [i_r i_xc].
  change (@nsub b64 FNum) with fsub. change (@nadd b64 FNum) with fadd.
  assert (A1 : Rabs (B2R xc - B2R r) <= B) by (eapply Rle_trans; [apply Rabs_triang|rewrite Rabs_Ropp; exact HB]).
  assert (A2 : Rabs (B2R xc + B2R r) <= B) by (eapply Rle_trans; [apply Rabs_triang|exact HB]).
  assert (HB3 : B <= pow2 1023) by (eapply Rle_trans; [exact HB2|apply bpow_le; lia]).
  assert (B0 : 0 <= B) by (eapply Rle_trans; [apply Rabs_pos|exact A1]).
  destruct (fsub_rnd xc r Fx Fr) as [L1 L2]; [lra|]. destruct (fadd_rnd xc r Fx Fr) as [U1 U2]; [lra|].
  assert (P53 : 0 < pow2 (-53)) by apply bpow_gt_0. assert (P5 : pow2 (-53) <= / 1000).
  { apply Rle_trans with (pow2 (-10)); [apply bpow_le; lia|]. cbn. lra. }
  assert (Q0 : 0 < pow2 (-1075)) by apply bpow_gt_0.
  assert (R1 := rnd_rel (B2R xc - B2R r)). assert (R2 := rnd_rel (B2R xc + B2R r)). rewrite <- L1 in R1. rewrite <- U1 in R2.
  assert (R1' : Rabs (B2R (fsub xc r) - (B2R xc - B2R r)) <= pow2 (-53) * B + pow2 (-1075)).
  { eapply Rle_trans; [exact R1|]. apply Rplus_le_compat_r, Rmult_le_compat_l; lra. }
  assert (R2' : Rabs (B2R (fadd xc r) - (B2R xc + B2R r)) <= pow2 (-53) * B + pow2 (-1075)).
  { eapply Rle_trans; [exact R2|]. apply Rplus_le_compat_r, Rmult_le_compat_l; lra. }
  clear R1 R2. apply Rabs_le_inv in R1', R2', A1, A2.
  set (B1 := B + (pow2 (-53) * B + pow2 (-1075))).
  assert (SB : 0 <= pow2 (-53) * B <= B / 1000) by (split; [apply Rmult_le_pos; lra|]; replace (B / 1000) with (/ 1000 * B) by field; apply Rmult_le_compat_r; lra).
  assert (HB4 : B1 <= pow2 1001).
  { unfold B1. assert (pow2 1001 = 2 * pow2 1000) by (rewrite (pow2_split 1001 1 1000) by lia; reflexivity). assert (1 <= pow2 1000) by (change 1 with (pow2 0); apply bpow_le; lia).
    assert (pow2 (-1075) <= / 4) by (apply Rle_trans with (pow2 (-2)); [apply bpow_le; lia|cbn; lra]). lra. }
  destruct (init64 (fsub xc r) (fadd xc r) B1 L2 U2) as (e' & E & Fr' & Fx' & Rr & Rx & E1 & E2); try (apply Rabs_le; unfold B1; lra); [exact HB4|].
  exists e'. split; [exact E|]. split; [exact Fr'|]. split; [exact Fx'|].
  assert (E51 : pow2 (-51) = 4 * pow2 (-53)) by (rewrite (pow2_split (-51) 2 (-53)) by lia; reflexivity).
  assert (E74 : pow2 (-1074) = 2 * pow2 (-1075)) by (rewrite (pow2_split (-1074) 1 (-1075)) by lia; reflexivity).
  assert (E73 : pow2 (-1073) = 4 * pow2 (-1075)) by (rewrite (pow2_split (-1073) 2 (-1075)) by lia; reflexivity).
  assert (U : 32 * (pow2 (-53) * B) + 32 * pow2 (-1075) <= itv_ulp B).
  { unfold itv_ulp. assert (E48 : pow2 (-48) = 32 * pow2 (-53)) by (rewrite (pow2_split (-48) 5 (-53)) by lia; reflexivity).
    assert (X : pow2 (-1075) <= pow2 (-53) * pow2 (-1000)) by (rewrite <- bpow_plus; apply bpow_le; lia). rewrite E48. lra. }
  assert (X : pow2 (-51) * B1 <= 4 * (pow2 (-53) * B) + 4 * / 1000 * (pow2 (-53) * B + pow2 (-1075))).
  { unfold B1. rewrite E51. replace (4 * pow2 (-53) * (B + (pow2 (-53) * B + pow2 (-1075)))) with (4 * (pow2 (-53) * B) + 4 * (pow2 (-53) * (pow2 (-53) * B + pow2 (-1075)))) by ring.
    assert (pow2 (-53) * (pow2 (-53) * B + pow2 (-1075)) <= / 1000 * (pow2 (-53) * B + pow2 (-1075))) by (apply Rmult_le_compat_r; lra). lra. }
  apply Rabs_le_inv in E1, E2.
  assert (D1 : Rabs (B2R (i_r e') - B2R r) <= itv_ulp B / 2) by (apply Rabs_le; lra).
  assert (D2 : Rabs (B2R (i_xc e') - B2R xc) <= itv_ulp B / 2) by (apply Rabs_le; lra).
  assert (U0 : 0 <= itv_ulp B) by (apply u_nn; exact B0).
  split; [lra|]. split; [lra|]. split.
  - intros z Hz. unfold itv64 in Hz. cbn [i_r i_xc] in Hz. apply Rabs_le_inv in Hz, D1, D2. apply Rabs_le. lra.
  - intros (l & u & El & Eu).
    assert (FL : B2R (fsub xc r) = B2R xc - B2R r) by (rewrite L1; apply round_generic; [typeclasses eauto|rewrite <- El; apply fmt_b64]).
    assert (FU : B2R (fadd xc r) = B2R xc + B2R r) by (rewrite U1; apply round_generic; [typeclasses eauto|rewrite <- Eu; apply fmt_b64]).
    rewrite FL, FU in Rr. rewrite FL in Rx. replace (B2R xc + B2R r - (B2R xc - B2R r)) with (2 * B2R r) in Rr by ring.
    assert (F2r : fmt (2 * B2R r)).
    { destruct (b64_scaled r) as (m & c & Em & Hm & Hc). rewrite Em. replace (2 * (IZR m * pow2 c)) with (IZR m * pow2 (c + 1)) by (rewrite bpow_plus; change (pow2 1) with 2; ring).
      apply fmt_scaled; lia. }
    rewrite (round_generic radix2 fexp64 ZnearestE _ F2r) in Rr. replace (2 * B2R r / 2) with (B2R r) in Rr by field.
    rewrite (round_generic radix2 fexp64 ZnearestE _ (fmt_b64 r)) in Rr. split; [exact Rr|]. rewrite Rr in Rx.
    replace (B2R xc - B2R r + B2R r) with (B2R xc) in Rx by ring. rewrite Rx. apply round_generic; [typeclasses eauto|apply fmt_b64].
Qed.
Print Assumptions C163_ell1d64_copy_partial.

(** in general it does not: the copy of [1 - 2^-60, 1 + 2^-60] is the single point 1 *)
Theorem C163_ell1d64_copy_refuted :
  ~ (forall (e e' : ell1d b64), is_finite (i_r e) = true -> is_finite (i_xc e) = true -> 0 <= B2R (i_r e) ->
     @ell1d_copy b64 FNum e = Ok e' -> forall z, itv64 e z -> itv64 e' z).
Proof.
  intros H. set (e := i64 (fmake 1 (-60)) (fmake 1 0)).
  assert (E : exists r x, @ell1d_copy b64 FNum e = Ok (i64 r x) /\ B2SF r = B2SF fzero /\ B2SF x = B2SF (fmake 1 0)).
  { do 2 eexists. split; [reflexivity|]. split; vm_compute; reflexivity. }
  destruct E as (r & x & E & Er & Ex). apply B2SF_inj in Er, Ex. subst r x.
  assert (R1 : B2R (fmake 1 (-60)) = pow2 (-60)) by exact (proj1 (fpow_R (-60) ltac:(lia))).
  assert (P := bpow_gt_0 radix2 (-60)). destruct fone as [O1 O2].
  specialize (H e (i64 fzero (fmake 1 0)) (proj2 (fpow_R (-60) ltac:(lia))) O2).
  unfold itv64, e, i64 in H. cbn [i_r i_xc] in H. rewrite R1, O1 in H. change (B2R fzero) with 0 in H.
  specialize (H ltac:(lra) E (1 + pow2 (-60))). replace (1 + pow2 (-60) - 1) with (pow2 (-60)) in H by ring. rewrite Rabs_pos_eq in H by lra. lra.
Qed.
Print Assumptions C163_ell1d64_copy_refuted.
Example C163_ex : exists e e', @ell1d_init b64 FNum (fmake (-3) 0) (fmake 4 0) = Ok e /\ @ell1d_copy b64 FNum e = Ok e' /\
  B2SF (i_xc e) = B2SF (fmake 1 (-1)) /\ B2SF (i_r e') = B2SF (fmake 7 (-1)) /\ B2SF (i_xc e') = B2SF (fmake 1 (-1)).
Proof. do 2 eexists. split; [reflexivity|]. split; [reflexivity|]. repeat split; vm_compute; reflexivity. Qed.

(** ** C164: the drivers over ell1d *)
Section Feas.
Context {O : Type}.
Variable omega : O -> b64 -> res (O * option (b64 * b64)).
Notation sp := (@ell1d_space b64 FNum).
Lemma upd_1d (st : unit * ell1d b64) c st1 s q : sp_update sp st c = Ok (st1, (s, q)) -> @ell1d_update b64 FNum (snd st) c = Ok (snd st1, (s, q)).
Proof. cbn [ell1d_space sp_update]. intros H. apply bind_ok in H as ([e' r] & E & H). rewrite E. assert (st1 = (tt, e')) by congruence. subst st1. cbn [snd]. congruence. Qed.
Lemma feas_run1 ltb tol : forall tr0 o st o1 st1 rest,
  feas_replay sp omega o st tr0 o1 st1 -> Forall (fgo ltb tol) tr0 ->
  run64 (fun e c => asked sp omega o st (tr0 ++ rest) (tt, e) c /\ exists q, In (i_xc e, Some (c, success, q)) tr0) (length tr0) (snd st) (snd st1).
Proof.
  intros tr0 o st o1 st1 rest HR. revert rest. induction HR as [o st|o st o1 E|o st c o1 st1 s q tr o' st' E U HR IH]; intros rest HF.
  - constructor.
  - inversion HF as [|e l0 F1 F2]; subst. destruct F1 as (x & c & q & Ee & _). discriminate Ee.
  - inversion HF as [|e l0 F1 F2]; subst. destruct F1 as (x & c1 & q1 & Ee & _).
    assert (E1 : s = success) by congruence. subst s. cbn [length].
    apply upd_1d in U as U'.
    econstructor; [|exact U'|].
    + destruct st as [[] e]. split; [|exists q; left; reflexivity].
      exists [], (centre sp (tt, e)), success, q, (tr ++ rest), o. split; [reflexivity|constructor].
    + specialize (IH rest F2). clear - IH E U.
      revert IH. generalize (length tr) (snd st1) (snd st'). intros k e1 e2 IH. induction IH as [e|k e c0 e1 tsq e2 [H1 [q0 H2]] U1 R1 IH1]; [constructor|].
      econstructor; [|exact U1|exact IH1]. destruct H1 as (t1 & x0 & s0 & q1 & t2 & o2 & Et & Hr). split; [|exists q0; right; exact H2].
      exists ((centre sp st, Some (c, success, q)) :: t1), x0, s0, q1, t2, o2. split; [cbn [app]; rewrite Et; reflexivity|]. eapply FR_cut; eassumption.
Qed.
End Feas.
Section DC.
Context {O T : Type}.
Variable omega : O -> b64 -> T -> res (O * ((b64 * b64) * option T)).
Notation sp := (@ell1d_space b64 FNum).
Lemma dc_run1 ltb tol : forall tr0 o st t o1 st1 t1 rest,
  dc_replay sp omega o st t tr0 o1 st1 t1 -> Forall (dgo ltb tol) tr0 ->
  run64 (fun e c => asked_dc sp omega o st t (tr0 ++ rest) (tt, e) c /\ exists ev, In ev tr0 /\ d_x ev = i_xc e /\ d_cut ev = c) (length tr0) (snd st) (snd st1).
Proof.
  intros tr0 o st t o1 st1 t1 rest HR. revert rest. induction HR as [o st t|o st t c t1 o1 st1 s q tr o' st' t' E U HR IH]; intros rest HF.
  - constructor.
  - inversion HF as [|e l0 F1 F2]; subst. destruct F1 as [Es _]. cbn [d_status] in Es. subst s. cbn [length].
    apply upd_1d in U as U'.
    econstructor; [|exact U'|].
    + destruct st as [[] e]. split.
      * eexists [], _, (tr ++ rest), o, t. split; [reflexivity|]. split; [reflexivity|constructor].
      * eexists. split; [left; reflexivity|]. split; reflexivity.
    + specialize (IH rest F2). clear - IH E U.
      revert IH. generalize (length tr) (snd st1) (snd st'). intros k e1 e2 IH. induction IH as [e|k e c0 e1 tsq e2 [H1 (ev & I1 & I2 & I3)] U1 R1 IH1]; [constructor|].
      econstructor; [|exact U1|exact IH1]. destruct H1 as (l1 & e0 & l2 & o2 & t2 & Et & Ec & Hr). split.
      * eexists (_ :: l1), e0, l2, o2, t2. split; [cbn [app]; rewrite Et; reflexivity|]. split; [exact Ec|]. eapply DR_cut; eassumption.
      * exists ev. split; [right; exact I1|]. auto.
Qed.
End DC.

Lemma run64_weak (P Q : ell1d b64 -> b64 * b64 -> Prop) k e e' : (forall e c, P e c -> Q e c) -> run64 P k e e' -> run64 Q k e e'.
Proof. intros H R. induction R; [constructor|]. econstructor; eauto. Qed.

Lemma end1 (D : R -> Prop) (K : R -> Prop) B N k (e e1 e2 : ell1d b64) c q : 0 <= B -> B <= pow2 1000 ->
  is_finite (i_r e) = true -> is_finite (i_xc e) = true -> Rabs (B2R (i_xc e)) + B2R (i_r e) + INR N * itv_ulp B <= B -> (k <= N)%nat ->
  run64 (fun e c => tame64 e c /\ forall y, K y -> cut64 e c y) k e e1 -> tame64 e1 c -> (forall y, K y -> cut64 e1 c y) ->
  @ell1d_update b64 FNum e1 c = Ok (e2, (nosoln, q)) ->
  forall z, itv64 e z -> ~ (forall y, Rabs (y - z) <= INR N * itv_ulp B -> K y).
Proof.
  intros B0 HB Fr Fx H Hk R T HK U z Hz HC.
  assert (u0 : 0 <= itv_ulp B) by (apply u_nn; exact B0).
  assert (LE : INR k * itv_ulp B <= INR N * itv_ulp B) by (apply Rmult_le_compat_r; [exact u0|apply le_INR; exact Hk]).
  assert (K0 : 0 <= INR k * itv_ulp B) by (apply Rmult_le_pos; [apply pos_INR|exact u0]).
  refine (proj2 (C123_ell1d64_runs K B k e e1 B0 HB Fr Fx _ R) z c e2 nosoln q _ Hz T _ U eq_refl).
  - fold (itv_ulp B). lra.
  - apply HC. rewrite Rminus_diag_eq, Rabs_R0 by reflexivity. lra.
  - intros y Hy. apply HK, HC. fold (itv_ulp B) in Hy. lra.
Qed.

(** K is a set on which every cut of the run holds: if the run ends with nosoln after N iterations, no point z of the
    initial interval has all of [z - N ulp, z + N ulp] in K *)
Theorem C164_feas_nosoln :
  forall ltb {O} (omega : O -> b64 -> res (O * option (b64 * b64))) max_it tol o e B tr o' st' info (K : R -> Prop),
  0 <= B -> B <= pow2 1000 -> is_finite (i_r e) = true -> is_finite (i_xc e) = true ->
  cutting_plane_feas (@ell1d_space b64 FNum) ltb omega max_it tol o (tt, e) = Ok (tr, o', st', info) -> cstatus info = nosoln ->
  let rho := INR (num_iters info) * itv_ulp B in
  Rabs (B2R (i_xc e)) + B2R (i_r e) + rho <= B ->
  (forall st1 c, asked (@ell1d_space b64 FNum) omega o (tt, e) tr st1 c -> tame64 (snd st1) c) ->
  (forall x c s q y, In (x, Some (c, s, q)) tr -> K y -> cut_at x c y) ->
  forall z, itv64 e z -> ~ (forall y, Rabs (y - z) <= rho -> K y).
Proof.
  intros ltb O omega max_it tol o e B tr o' st' info K B0 HB Fr Fx H HN rho HR0 HT HK z Hz.
  apply feas_spec in H as (HR & Hn & _ & tr0 & ev & Et & HF & Hl & _). subst tr.
  destruct ev as [x [[[c s] q]|]]; [|destruct Hl as [_ E]; congruence]. destruct Hl as (_ & H1 & H2 & H3).
  assert (s = nosoln).
  { destruct (ltb q tol) eqn:L; destruct s; try reflexivity; try (rewrite (H2 eq_refl eq_refl) in HN; discriminate HN);
      try (destruct (H3 eq_refl eq_refl) as [E _]; rewrite E in HN; discriminate HN); rewrite H1 in HN by discriminate; discriminate HN. }
  subst s. apply feas_replay_app in HR as (o1 & st1 & HR1 & HR2).
  2: { intros x0 Hi. rewrite Forall_forall in HF. destruct (HF _ Hi) as (x1 & c1 & q1 & E & _). discriminate E. }
  assert (AL : asked (@ell1d_space b64 FNum) omega o (tt, e) (tr0 ++ [(x, Some (c, nosoln, q))]) st1 c) by (exists tr0, x, nosoln, q, [], o1; auto).
  assert (RN := feas_run1 omega ltb tol tr0 o (tt, e) o1 st1 [(x, Some (c, nosoln, q))] HR1 HF).
  inversion HR2 as [| |o2 st2 c2 o3 st3 s3 q3 tr3 o4 st4 HO HU HTl]; subst. apply upd_1d in HU. cbn [snd] in RN.
  refine (end1 K K B (num_iters info) (length tr0) e (snd st1) (snd st3) c q B0 HB Fr Fx HR0 _ _ (HT _ _ AL) _ HU z Hz).
  - rewrite Hn, app_length. apply Nat.le_add_r.
  - eapply run64_weak; [|exact RN]. cbv beta. intros e1 c1 [A [q1 I]]. split; [exact (HT _ _ A)|]. intros y Ky.
    exact (HK _ _ _ _ y (in_or_app _ _ _ (or_introl I)) Ky).
  - intros y Ky. refine (HK (i_xc (snd st1)) c nosoln q y _ Ky). apply in_or_app. right. left. reflexivity.
Qed.
Print Assumptions C164_feas_nosoln.

Theorem C164_dc_nosoln :
  forall ltb {O T} tneq (omega : O -> b64 -> T -> res (O * ((b64 * b64) * option T))) max_it tol o e t B tr o' st' xb t' info (K : R -> Prop),
  0 <= B -> B <= pow2 1000 -> is_finite (i_r e) = true -> is_finite (i_xc e) = true ->
  cutting_plane_dc (@ell1d_space b64 FNum) ltb tneq omega max_it tol o (tt, e) t = Ok (tr, o', st', (xb, t', info)) -> cstatus info = nosoln ->
  let rho := INR (num_iters info) * itv_ulp B in
  Rabs (B2R (i_xc e)) + B2R (i_r e) + rho <= B ->
  (forall st1 c, asked_dc (@ell1d_space b64 FNum) omega o (tt, e) t tr st1 c -> tame64 (snd st1) c) ->
  (forall ev y, In ev tr -> K y -> cut_at (d_x ev) (d_cut ev) y) ->
  forall z, itv64 e z -> ~ (forall y, Rabs (y - z) <= rho -> K y).
Proof.
  intros ltb O T tneq omega max_it tol o e t B tr o' st' xb t' info K B0 HB Fr Fx H HN rho HR0 HT HK z Hz.
  apply dc_spec in H as (HR & _ & Hn & _ & (tr0 & ev & Et & HF & H1 & H2 & H3) & _). subst tr.
  assert (ES : d_status ev = nosoln).
  { destruct (ltb (d_tsq ev) tol) eqn:L; destruct (d_status ev); try reflexivity; try (rewrite (H2 eq_refl eq_refl) in HN; discriminate HN);
      try (destruct (H3 eq_refl eq_refl) as [E _]; rewrite E in HN; discriminate HN); rewrite H1 in HN by discriminate; discriminate HN. }
  apply dc_replay_app in HR as (o1 & st1 & t1 & HR1 & HR2).
  assert (AL : asked_dc (@ell1d_space b64 FNum) omega o (tt, e) t (tr0 ++ [ev]) st1 (d_cut ev)) by (exists tr0, ev, [], o1, t1; auto).
  assert (RN := dc_run1 omega ltb tol tr0 o (tt, e) t o1 st1 t1 [ev] HR1 HF). cbn [snd] in RN.
  inversion HR2 as [|o2 st2 t2 c2 t3 o3 st3 s3 q3 tr3 o4 st4 t4 HO HU HTl]; subst. cbn [d_cut d_status] in *. subst s3. apply upd_1d in HU.
  refine (end1 K K B (num_iters info) (length tr0) e (snd st1) (snd st3) c2 q3 B0 HB Fr Fx HR0 _ _ (HT _ _ AL) _ HU z Hz).
  - rewrite Hn, app_length. apply Nat.le_add_r.
  - eapply run64_weak; [|exact RN]. cbv beta. intros e1 c1 [A (ev & I1 & I2 & I3)]. split; [exact (HT _ _ A)|]. intros y Ky.
    assert (V := HK ev y (in_or_app _ _ _ (or_introl I1)) Ky). rewrite I2, I3 in V. exact V.
  - intros y Ky. match type of Hn with _ = length (_ ++ [?ev]) => exact (HK ev y ltac:(apply in_or_app; right; left; reflexivity) Ky) end.
Qed.
Print Assumptions C164_dc_nosoln.

(** how long the feasibility driver may go on: with deep or central cuts of slope at most G it stops as soon as the
    interval, which halves up to rounding, is short enough for tol *)
Lemma tsq64 (r g : b64) : is_finite r = true -> is_finite g = true -> pow2 (-900) <= Rabs (B2R r * B2R g) <= pow2 500 ->
  let q := fmul (Babs (fmul r g)) (Babs (fmul r g)) in
  is_finite q = true /\ B2R q <= (B2R r * B2R g) * (B2R r * B2R g) * (1 + pow2 (-49)) + pow2 (-1074).
Proof.
  intros Fr Fg [H1 H2] q. set (p := B2R r * B2R g) in *.
  assert (P53 : 0 < pow2 (-53)) by apply bpow_gt_0. assert (P5 : pow2 (-53) <= / 1000).
  { apply Rle_trans with (pow2 (-10)); [apply bpow_le; lia|]. cbn. lra. }
  assert (Q0 : 0 < pow2 (-1075)) by apply bpow_gt_0.
  assert (HP : Rabs p <= pow2 1023) by (eapply Rle_trans; [exact H2|apply bpow_le; lia]).
  destruct (fmul_rnd r g Fr Fg HP) as [M1 M2]. fold p in M1.
  assert (R1 := rnd_rel p). rewrite <- M1 in R1.
  set (a := B2R (Babs (fmul r g))). assert (Ea : a = Rabs (B2R (fmul r g))) by apply fabs_R.
  assert (A : 0 <= a <= Rabs p * (1 + 2 * pow2 (-53))).
  { split; [rewrite Ea; apply Rabs_pos|]. rewrite Ea. replace (B2R (fmul r g)) with (B2R (fmul r g) - p + p) by ring.
    assert (T := Rabs_triang (B2R (fmul r g) - p) p).
    assert (X : pow2 (-1075) <= pow2 (-53) * Rabs p).
    { apply Rle_trans with (pow2 (-53) * pow2 (-900)); [rewrite <- bpow_plus; apply bpow_le; lia|apply Rmult_le_compat_l; lra]. } lra. }
  assert (PP : Rabs p * Rabs p = p * p) by (rewrite <- Rabs_mult; apply Rabs_pos_eq, Rle_0_sqr).
  assert (P1000 : Rabs p * Rabs p <= pow2 1000).
  { replace (pow2 1000) with (pow2 500 * pow2 500) by (rewrite <- bpow_plus; reflexivity). apply Rmult_le_compat; try apply Rabs_pos; exact H2. }
  assert (AA : a * a <= p * p * (1 + 5 * pow2 (-53))).
  { apply Rle_trans with (Rabs p * (1 + 2 * pow2 (-53)) * (Rabs p * (1 + 2 * pow2 (-53)))); [apply Rmult_le_compat; lra|].
    replace (Rabs p * (1 + 2 * pow2 (-53)) * (Rabs p * (1 + 2 * pow2 (-53)))) with (p * p * (1 + 4 * pow2 (-53) + 4 * (pow2 (-53) * pow2 (-53)))) by (rewrite <- PP; ring).
    apply Rmult_le_compat_l; [apply Rle_0_sqr|]. assert (pow2 (-53) * pow2 (-53) <= / 1000 * pow2 (-53)) by (apply Rmult_le_compat_r; lra). lra. }
  assert (P0 : 0 <= p * p) by apply Rle_0_sqr.
  assert (S5 : p * p * (5 * pow2 (-53)) <= p * p * / 100) by (apply Rmult_le_compat_l; lra).
  assert (A0 : 0 <= a * a) by apply Rle_0_sqr.
  assert (AR : Rabs (a * a) <= pow2 1023).
  { rewrite Rabs_pos_eq by exact A0. assert (pow2 1023 = pow2 23 * pow2 1000) by (apply pow2_split; reflexivity). change (pow2 23) with 8388608 in H. lra. }
  destruct (fmul_rnd (Babs (fmul r g)) (Babs (fmul r g))) as [N1 N2]; try (rewrite fabs_fin; exact M2); [exact AR|].
  fold a in N1. fold q in N1, N2. split; [exact N2|]. rewrite N1.
  assert (R2 := rnd_rel (a * a)). apply Rabs_le_inv in R2. rewrite Rabs_pos_eq in R2 by exact A0.
  assert (E74 : pow2 (-1074) = 2 * pow2 (-1075)) by (rewrite (pow2_split (-1074) 1 (-1075)) by lia; reflexivity).
  assert (E49 : pow2 (-49) = 16 * pow2 (-53)) by (rewrite (pow2_split (-49) 4 (-53)) by lia; reflexivity).
  assert (X : pow2 (-53) * (a * a) <= pow2 (-53) * (p * p * (1 + / 100))) by (apply Rmult_le_compat_l; lra).
  assert (0 <= pow2 (-53) * (p * p)) by (apply Rmult_le_pos; lra). rewrite E49, E74.
  replace (p * p * (1 + 16 * pow2 (-53))) with (p * p + 16 * (pow2 (-53) * (p * p))) by ring. lra.
Qed.

Theorem C164_feas_stops :
  forall {O} (omega : O -> b64 -> res (O * option (b64 * b64))) max_it tol o e B G N tr o' st' info,
  0 <= B -> B <= pow2 1000 -> is_finite (i_r e) = true -> is_finite (i_xc e) = true -> is_finite tol = true -> B2R tol <= pow2 900 ->
  Rabs (B2R (i_xc e)) + B2R (i_r e) + INR N * itv_ulp B <= B ->
  cutting_plane_feas (@ell1d_space b64 FNum) Bltb omega max_it tol o (tt, e) = Ok (tr, o', st', info) ->
  (forall st1 c, asked (@ell1d_space b64 FNum) omega o (tt, e) tr st1 c -> tame64 (snd st1) c /\ 0 <= B2R (snd c) /\ Rabs (B2R (fst c)) <= G) ->
  let d := (B2R (i_r e) / 2 ^ N + 2 * itv_ulp B) * G in
  d * d * (1 + pow2 (-49)) + pow2 (-1074) < B2R tol ->
  (num_iters info <= S N)%nat.
Proof.
  intros O omega max_it tol o e B G N tr o' st' info B0 HB Fr Fx Ft Ht HR0 H HA d Hd.
  destruct (le_lt_dec (num_iters info) (S N)) as [L|L]; [exact L|exfalso].
  apply feas_spec in H as (HR & Hn & _ & tr0 & ev & Et & HF & _). subst tr.
  rewrite Hn, app_length in L. cbn [length] in L.
  assert (LN : (N < length tr0)%nat) by lia.
  destruct (nth_split tr0 ev LN) as (l1 & l2 & E0 & E1). set (en := nth N tr0 ev) in *. clearbody en.
  assert (HF' := HF). rewrite E0 in HF'. apply Forall_app in HF' as [HF1 HF2]. inversion HF2 as [|? ? HE HF3]; subst.
  destruct HE as (x & c & q & Een & Lq). subst en.
  rewrite <- app_assoc in HR. cbn [app] in HR.
  assert (HRA := HR). apply feas_replay_app in HRA as (o1 & st1 & HR1 & HR2).
  2: { intros x0 Hi. rewrite Forall_forall in HF1. destruct (HF1 _ Hi) as (x1 & c1 & q1 & E & _). discriminate E. }
  rewrite <- app_assoc in HA. cbn [app] in HA.
  assert (RN := feas_run1 omega Bltb tol l1 o (tt, e) o1 st1 ((x, Some (c, success, q)) :: l2 ++ [ev]) HR1 HF1). cbn [snd] in RN.
  assert (AL : asked (@ell1d_space b64 FNum) omega o (tt, e) (l1 ++ (x, Some (c, success, q)) :: l2 ++ [ev]) st1 c) by (exists l1, x, success, q, (l2 ++ [ev]), o1; auto).
  destruct (HA _ _ AL) as (TM & _ & GC).
  assert (RW : run64 (fun e c => tame64 e c /\ 0 <= B2R (snd c)) (length l1) e (snd st1)).
  { eapply run64_weak; [|exact RN]. cbv beta. intros e1 c1 [A _]. destruct (HA _ _ A) as (A1 & A2 & _). auto. }
  assert (u0 : 0 <= itv_ulp B) by (apply u_nn; exact B0).
  assert (I := run64_inv _ B B0 HB (fun e0 c0 (q0 : tame64 e0 c0 /\ 0 <= B2R (snd c0)) => proj1 q0) (length l1) e (snd st1) Fr Fx). cbv zeta in I. fold (itv_ulp B) in I.
  assert (X1 := Rle_abs (B2R (i_xc e))). assert (X2 := Rle_abs (- B2R (i_xc e))). rewrite Rabs_Ropp in X2.
  destruct I as (F1 & F2 & _); [lra|lra|exact RW|].
  assert (RH := C123_ell1d64_halves B (length l1) e (snd st1) B0 HB Fr Fx). cbv zeta in RH. fold (itv_ulp B) in RH.
  specialize (RH HR0 RW).
  inversion HR2 as [| |o2 st2 c2 o3 st3 s3 q3 tr3 o4 st4 HO HU HTl]; subst. apply upd_1d in HU.
  destruct st1 as [[] [r xc]]. destruct c as [g b]. cbn [snd fst i_r i_xc] in *. destruct TM as (Fg & Fb & R0 & T1 & T2). cbn [snd fst i_r i_xc] in *.
  assert (EQ : q = fmul (Babs (fmul r g)) (Babs (fmul r g))).
  { unfold ell1d_update in HU. cbn [i_r i_xc] in HU.
    repeat match type of HU with (if ?b then _ else _) = _ => destruct b | bind ?b _ = _ => destruct b; [cbn [bind] in HU|discriminate HU] end;
      change (@nabs b64 FNum (@nmul b64 FNum r g)) with (Babs (fmul r g)) in HU; change (@nmul b64 FNum) with fmul in HU; congruence. }
  assert (PD : Rabs (B2R r * B2R g) <= d).
  { rewrite Rabs_mult, (Rabs_pos_eq (B2R r)) by exact R0. unfold d. apply Rmult_le_compat; try assumption. apply Rabs_pos. }
  assert (D0 : 0 <= d) by (eapply Rle_trans; [apply Rabs_pos|exact PD]).
  assert (DD : d * d < pow2 900).
  { assert (0 < pow2 (-1074)) by apply bpow_gt_0. assert (0 < pow2 (-49)) by apply bpow_gt_0.
    assert (0 <= d * d * pow2 (-49)) by (apply Rmult_le_pos; [apply Rle_0_sqr|lra]). lra. }
  assert (D5 : d <= pow2 500).
  { destruct (Rle_lt_dec d (pow2 500)) as [|C]; [assumption|exfalso]. assert (pow2 500 * pow2 500 <= d * d) by (apply Rmult_le_compat; try apply bpow_ge_0; lra).
    rewrite <- bpow_plus in H. assert (pow2 900 <= pow2 (500 + 500)) by (apply bpow_le; lia). lra. }
  destruct (tsq64 r g F1 Fg) as [FQ LQ]; [lra|]. rewrite <- EQ in FQ, LQ.
  rewrite f64_ltb in Lq by assumption. destruct (Rlt_bool_spec (B2R q) (B2R tol)) as [|C]; [discriminate Lq|].
  assert (SQ : B2R r * B2R g * (B2R r * B2R g) <= d * d).
  { rewrite <- (Rabs_pos_eq (B2R r * B2R g * (B2R r * B2R g))), Rabs_mult by apply Rle_0_sqr. apply Rmult_le_compat; try apply Rabs_pos; exact PD. }
  assert (B2R r * B2R g * (B2R r * B2R g) * (1 + pow2 (-49)) <= d * d * (1 + pow2 (-49))).
  { apply Rmult_le_compat_r; [|exact SQ]. assert (0 < pow2 (-49)) by apply bpow_gt_0. lra. }
  lra.
Qed.
Print Assumptions C164_feas_stops.

(** Non-vacuity: the interval [-4, 4]; the oracle first asks for y <= -1, then, at -5/2, for y <= -9/2: nosoln after two
    iterations, the interval left being [-4, -1] *)
Definition ex164_omega (o : nat) (x : b64) : res (nat * option (b64 * b64)) :=
  Ok (S o, Some (fmake 1 0, match o with 0%nat => fmake 1 0 | _ => fmake 2 0 end)).
Example C164_ex :
  let e0 := i64 (fmake 4 0) fzero in let K := fun y => y <= -9 / 2 in
  exists tr o' st' info, cutting_plane_feas (@ell1d_space b64 FNum) Bltb ex164_omega 10 (fmake 5 0) 0%nat (tt, e0) = Ok (tr, o', st', info) /\
    cstatus info = nosoln /\ num_iters info = 2%nat /\ Rabs (B2R (i_xc e0)) + B2R (i_r e0) + INR 2 * itv_ulp 100 <= 100 /\
    (forall st1 c, asked (@ell1d_space b64 FNum) ex164_omega 0%nat (tt, e0) tr st1 c -> tame64 (snd st1) c /\ 0 <= B2R (snd c) /\ Rabs (B2R (fst c)) <= 1) /\
    (forall x c s q y, In (x, Some (c, s, q)) tr -> K y -> cut_at x c y) /\
    (let d := (B2R (i_r e0) / 2 ^ 1 + 2 * itv_ulp 100) * 1 in d * d * (1 + pow2 (-49)) + pow2 (-1074) < B2R (fmake 5 0)).
Proof.
  set (e0 := i64 (fmake 4 0) fzero). set (e1 := i64 (fmake 3 (-1)) (fmake (-5) (-1))). intros e0' K. change e0' with e0. clear e0'.
  set (c1 := (fmake 1 0, fmake 1 0)). set (c2 := (fmake 1 0, fmake 2 0)).
  set (q1 := fmul (Babs (fmul (fmake 4 0) (fmake 1 0))) (Babs (fmul (fmake 4 0) (fmake 1 0)))).
  set (q2 := fmul (Babs (fmul (fmake 3 (-1)) (fmake 1 0))) (Babs (fmul (fmake 3 (-1)) (fmake 1 0)))).
  assert (U1 : @ell1d_update b64 FNum e0 c1 = Ok (e1, (success, q1))).
  { assert (U : exists tsq, @ell1d_update b64 FNum e0 c1 = Ok (e1, (success, tsq))) by (apply upd_info_ok; vm_compute; reflexivity).
    destruct U as [t U]. rewrite U. assert (E : option_map B2SF (match @ell1d_update b64 FNum e0 c1 with Ok (_, (_, t)) => Some t | _ => None end) = Some (B2SF q1)) by (vm_compute; reflexivity).
    rewrite U in E. cbn [option_map] in E. assert (E' : B2SF t = B2SF q1) by congruence. apply B2SF_inj in E'. rewrite E'. reflexivity. }
  assert (U2 : @ell1d_update b64 FNum e1 c2 = Ok (e1, (nosoln, q2))).
  { assert (U : exists tsq, @ell1d_update b64 FNum e1 c2 = Ok (e1, (nosoln, tsq))) by (apply upd_info_ok; vm_compute; reflexivity).
    destruct U as [t U]. rewrite U. assert (E : option_map B2SF (match @ell1d_update b64 FNum e1 c2 with Ok (_, (_, t)) => Some t | _ => None end) = Some (B2SF q2)) by (vm_compute; reflexivity).
    rewrite U in E. cbn [option_map] in E. assert (E' : B2SF t = B2SF q2) by congruence. apply B2SF_inj in E'. rewrite E'. reflexivity. }
  assert (L1 : Bltb q1 (fmake 5 0) = false) by (vm_compute; reflexivity).
  set (ev1 := (i_xc e0, Some (c1, success, q1))). set (ev2 := (i_xc e1, Some (c2, nosoln, q2))).
  exists [ev1; ev2], 2%nat, (tt, e1), {| feasible := false; num_iters := 2; cstatus := nosoln |}.
  assert (PU : itv_ulp 100 <= / 1000000).
  { unfold itv_ulp. assert (pow2 (-1000) <= pow2 0) by (apply bpow_le; lia). change (pow2 0) with 1 in *. change (pow2 (-48)) with (/ 281474976710656). lra. }
  assert (PU0 : 0 <= itv_ulp 100) by (apply u_nn; lra).
  split.
  { unfold cutting_plane_feas, feas_loop. unfold ex164_omega at 1 2 3 4 5 6 7 8 9 10. cbn [bind centre ell1d_space sp_deref sp_xc sp_update snd].
    fold c1. rewrite U1. cbn [bind]. rewrite L1. cbn [snd]. fold c2. rewrite U2. cbn [bind]. reflexivity. }
  split; [reflexivity|]. split; [reflexivity|]. split.
  { unfold e0. cbn [i64 i_xc i_r]. rewrite fmakeR by lia. change (B2R fzero) with 0. rewrite Rabs_R0. change (INR 2) with (1 + 1). cbn [bpow]. lra. }
  assert (T1 : tame64 e0 c1).
  { split; [reflexivity|]. split; [reflexivity|]. split; [unfold e0; cbn [i64 i_r]; rewrite fmakeR by lia; cbn; lra|]. apply tame_lit; lia. }
  assert (T2 : tame64 e1 c2).
  { split; [reflexivity|]. split; [reflexivity|]. split; [unfold e1; cbn [i64 i_r]; rewrite fmakeR by lia; cbn; lra|]. apply tame_lit; lia. }
  assert (N1 : B2R (fmake 1 0) = 1) by (rewrite fmakeR by lia; cbn; lra).
  assert (N2 : B2R (fmake 2 0) = 2) by (rewrite fmakeR by lia; cbn; lra).
  split.
  { intros st1 c (tr1 & x & s & q & tr2 & o1 & Et & Hr). unfold ev1, ev2 in Et. destruct tr1 as [|a [|b [|d tr1]]]; try discriminate Et.
    - cbn [app] in Et. assert (c = c1) by congruence. inversion Hr; subst st1. subst c. split; [exact T1|]. unfold c1. cbn [fst snd]. rewrite N1, Rabs_pos_eq by lra. lra.
    - cbn [app] in Et. assert (c = c2) by congruence. assert (a = (i_xc e0, Some (c1, success, q1))) by congruence. subst a c.
      inversion Hr as [| |o2 st2 c3 o3 st3 s3 q3 tr3 o4 st4 HO HU HTl]; subst. apply upd_1d in HU. cbn [snd] in HU.
      rewrite U1 in HU. inversion HTl; subst. assert (Es : snd st1 = e1) by congruence. rewrite Es. split; [exact T2|]. unfold c2. cbn [fst snd]. rewrite N1, N2, Rabs_pos_eq by lra. lra. }
  split.
  { unfold ev1, ev2. intros x c s q y [Hi|[Hi|[]]] Hy; [assert (Ex : x = i_xc e0) by congruence; assert (Ec : c = c1) by congruence|assert (Ex : x = i_xc e1) by congruence; assert (Ec : c = c2) by congruence];
      subst x c; unfold cut_at, c1, c2, e0, e1, K in *; cbn [fst snd i64 i_xc]; rewrite ?N1, ?N2; [change (B2R fzero) with 0|rewrite fmakeR by lia; cbn]; lra. }
  cbv zeta. unfold e0. cbn [i64 i_r]. rewrite !fmakeR by lia. change (bpow radix2 0) with 1.
  assert (P : pow2 (-1074) <= pow2 (-10)) by (apply bpow_le; lia). assert (P2 : 0 < pow2 (-49) <= pow2 (-10)) by (split; [apply bpow_gt_0|apply bpow_le; lia]). change (pow2 (-10)) with (/ 1024) in *.
  set (d := (4 * 1 / 2 ^ 1 + 2 * itv_ulp 100) * 1). assert (D : 0 <= d <= 2 + / 100) by (unfold d; cbn [pow]; lra). clearbody d.
  assert (d * d <= (2 + / 100) * (2 + / 100)) by (apply Rmult_le_compat; lra).
  assert (d * d * (1 + pow2 (-49)) <= (2 + / 100) * (2 + / 100) * (1 + / 1024)) by (apply Rmult_le_compat; try lra; apply Rle_0_sqr). lra.
Qed.
