(** More proofs about M_CsdF.v: the number of integer digits, and agreement with exact arithmetic *)
From Coq Require Import ZArith Reals Lra Lia Bool Psatz Ascii QArith.Qreals QArith_base Qabs Qpower.
From Flocq Require Import Core.Core IEEE754.BinarySingleNaN Relative.
From Verif Require Import Base M_Csd S_Csd P_Csd M_Float P_Float M_CsdF P_CsdF S_CsdF.
Local Open Scope R_scope.

Lemma ln2_pos : 0 < ln 2.
Proof. rewrite <- ln_1. apply ln_increasing; lra. Qed.
Lemma ln_pow2 n : ln (pow2 n) = IZR n * ln 2.
Proof. rewrite bpow_exp. change (IZR radix2) with 2. apply ln_exp. Qed.
Lemma ln_le x y : 0 < x -> x <= y -> ln x <= ln y.
Proof. intros Hx H. destruct (Rle_lt_or_eq_dec _ _ H) as [L| ->]; [left; apply ln_increasing; assumption|lra]. Qed.
Lemma ln_lt_inv' x y : 0 < x -> 0 < y -> ln x < ln y -> x < y.
Proof. intros. apply ln_lt_inv; assumption. Qed.

Lemma rnd_rel z : 1 <= z -> 0.99 * z <= rnd z.
Proof.
  intros Hz. pose proof (relative_error_N_FLT radix2 (-1074) 53 ltac:(reflexivity) (fun x => negb (Z.even x)) z) as H.
  change (round radix2 (FLT_exp (-1074) 53) _ z) with (rnd z) in H. rewrite (Rabs_pos_eq z) in H by lra.
  assert (H1 : pow2 (-1074 + 53 - 1) <= z) by (apply Rle_trans with (2 := Hz); change 1 with (pow2 0); apply bpow_le; lia).
  specialize (H H1). apply Rabs_le_inv in H as [H _].
  assert (H2 : pow2 (- (53) + 1) <= / 64) by (change (/ 64) with (pow2 (-6)); apply bpow_le; lia).
  assert (H3 : / 2 * pow2 (- (53) + 1) * z <= / 128 * z) by (apply Rmult_le_compat_r; lra). lra.
Qed.

(** the n of csd.py:50 *)
Lemma fcsd_n_spec log2 (x : b64) m : log2_within (1 / 2) log2 -> is_finite x = true -> (0 <= m <= 1020)%Z -> Rabs (B2R x) <= pow2 m ->
  exists n, fcsd_n log2 x = Ok n /\ (0 <= n <= m + 2)%Z /\ Rabs (B2R x) < pow2 n /\ (Rabs (B2R x) < 1 -> n = 0%Z) /\
    (1 <= Rabs (B2R x) -> IZR n >= B2R (log2 (fmul (Babs x) (fmake 3 (-1))))).
Proof.
  intros Hlog Hf Hm Hx. destruct fone as [H1 H1f]. destruct f3half as [H3 H3f]. unfold fcsd_n.
  rewrite f64_ltb, fabs_R, H1 by (assumption || (rewrite fabs_fin; assumption)).
  destruct (Rlt_bool_spec (Rabs (B2R x)) 1) as [Hlt|Hge].
  - exists 0%Z. split; [reflexivity|]. split; [lia|]. cbn [bpow]. split; [exact Hlt|]. split; [reflexivity|]. intros. lra.
  - pose proof (bpow_gt_0 radix2 m) as Hpm.
    destruct (fmul_rnd (Babs x) (fmake 3 (-1))) as [Hy Hyf]; [rewrite fabs_fin; exact Hf|exact H3f| |].
    { rewrite fabs_R, H3, Rabs_pos_eq by (pose proof (Rabs_pos (B2R x)); lra).
      apply Rle_trans with (pow2 (m + 1)); [rewrite pow2_S; lra|apply bpow_le; lia]. }
    rewrite fabs_R, H3 in Hy. cbv zeta. set (y := fmul (Babs x) (fmake 3 (-1))) in *.
    set (a := Rabs (B2R x)) in *.
    assert (Hy1 : 0.99 * (a * (3 / 2)) <= B2R y) by (rewrite Hy; apply rnd_rel; lra).
    assert (Hy2 : B2R y <= pow2 (m + 1)) by (rewrite Hy; apply rnd_le; [rewrite pow2_S; lra|apply fmt_pow2; lia]).
    destruct (Hlog y Hyf ltac:(lra)) as [Hlf Hl]. rewrite Hlf. apply Rabs_le_inv in Hl as [Hl1 Hl2].
    pose proof ln2_pos as H2p.
    exists (Zceil (B2R (log2 y))). split; [reflexivity|].
    pose proof (Zceil_ub (B2R (log2 y))) as Hub.
    assert (Hd : ln (B2R y) = ln (B2R y) / ln 2 * ln 2) by (field; lra).
    assert (Hn : a < pow2 (Zceil (B2R (log2 y)))).
    { assert (Hn1 : ln (B2R y) - ln 2 / 2 <= ln (pow2 (Zceil (B2R (log2 y))))).
      { rewrite ln_pow2. assert (ln (B2R y) / ln 2 - 1 / 2 <= IZR (Zceil (B2R (log2 y)))) by lra.
        apply Rmult_le_compat_r with (r := ln 2) in H; [|lra]. lra. }
      assert (Hp : 0 < pow2 (Zceil (B2R (log2 y)))) by apply bpow_gt_0. set (P := pow2 (Zceil (B2R (log2 y)))) in *.
      assert (Hsq : ln (a * a) < ln (P * P)).
      { rewrite (ln_mult P P) by assumption. apply Rlt_le_trans with (ln (B2R y * B2R y / 2)).
        - apply ln_increasing; [nra|]. assert (1.485 * a * (1.485 * a) <= B2R y * B2R y) by (apply Rmult_le_compat; lra). nra.
        - unfold Rdiv. rewrite ln_mult, ln_mult, ln_Rinv by nra. lra. }
      apply ln_lt_inv in Hsq; [|nra|nra]. nra. }
    split; [split|split; [exact Hn|split; [intros; lra|intros _; apply Rle_ge, Hub]]].
    + apply Z.lt_succ_r. assert (pow2 0 < pow2 (Zceil (B2R (log2 y)))) by (cbn [bpow]; lra). apply lt_bpow in H. lia.
    + assert (Hc : (Zceil (B2R (log2 y)) < m + 3)%Z).
      { apply lt_IZR. pose proof (Zceil_lb (B2R (log2 y))) as Hlb.
        assert (ln (B2R y) / ln 2 <= IZR (m + 1)).
        { apply Rmult_le_reg_r with (ln 2); [lra|]. rewrite <- Hd, <- ln_pow2. apply ln_le; lra. }
        rewrite plus_IZR in *. lra. }
      lia.
Qed.

(** ** agreement with exact arithmetic for inputs of at most 51 significant bits *)
Lemma Qltb_R x y : Qltb x y = Rlt_bool (Q2R x) (Q2R y).
Proof.
  destruct (Qltb x y) eqn:E.
  - apply Qltb_true in E. apply Qlt_Rlt in E. rewrite Rlt_bool_true; [reflexivity|exact E].
  - apply Qltb_false in E. apply Qle_Rle in E. rewrite Rlt_bool_false; [reflexivity|exact E].
Qed.
Lemma Q2R_2 : Q2R 2 = 2.
Proof. unfold Q2R. cbn. lra. Qed.
Lemma Q2R_pow n : Q2R (2 ^ n) = pow2 n.
Proof.
  assert (Hpos : forall k, (0 <= k)%Z -> Q2R (2 ^ k) = pow2 k).
  { intros k Hk. change 2%Q with (inject_Z 2). rewrite <- (Qeq_eqR _ _ (Zpower_Qpower 2 k Hk)). unfold Q2R. cbn. rewrite pow2_IZR by exact Hk. lra. }
  destruct (Z_le_gt_dec 0 n) as [H|H]; [apply Hpos, H|].
  replace n with (- (- n))%Z by lia. rewrite (Qeq_eqR _ _ (Qpower_opp 2 (- n))), Q2R_inv, Hpos by (lia || apply Qnot_eq_sym, Qlt_not_eq, pow_pos).
  rewrite !bpow_opp. reflexivity.
Qed.
Lemma Q2R_abs q : Q2R (Qabs q) = Rabs (Q2R q).
Proof.
  apply (Qabs_case q (fun a => Q2R a = Rabs (Q2R q))); intros H; apply Qle_Rle in H.
  - rewrite Rabs_pos_eq; [reflexivity|]. replace (Q2R 0) with 0 in H by (unfold Q2R; cbn; lra). exact H.
  - rewrite Q2R_opp, Rabs_left1; [reflexivity|]. replace (Q2R 0) with 0 in H by (unfold Q2R; cbn; lra). exact H.
Qed.

(** the float is a multiple of 2^c by at most 51 bits *)
Definition short (c : Z) (x : b64) : Prop := exists m, B2R x = IZR m * pow2 c /\ (Z.abs m <= 2 ^ 51)%Z.

Lemma digit_agree n c (p dec : b64) P q : st n p dec -> (-1073 <= c)%Z -> short c dec ->
  Q2R P = pow2 (n - 1) -> Q2R q = B2R dec ->
  let '(ch, d1) := fcsd_digit p dec in
  let '(ch', q1) := csd_digit P q in
  ch = ch' /\ Q2R q1 = B2R d1 /\ short c d1 /\ st (n - 1) (fdiv p (fmake 2 0)) d1.
Proof.
  intros Hs Hc (m & Em & Hm) HP Hq. pose proof (step_spec n p dec Hs) as Hst.
  destruct f3half as [H3 H3f]. assert (Hdf : is_finite dec = true) by apply Hs. assert (Hpf : is_finite p = true) by apply Hs.
  assert (Hn : (n <= 1021)%Z) by apply Hs.
  assert (Hlt := st_lt _ _ _ Hs).
  assert (Hx : fmt (3 / 2 * B2R dec) /\ Rabs (3 / 2 * B2R dec) < pow2 1024).
  { split.
    - rewrite Em. replace (3 / 2 * (IZR m * pow2 c)) with (IZR (3 * m) * pow2 (c - 1)) by (rewrite mult_IZR, (pow2_pred c); field).
      apply fmt_scaled; lia.
    - rewrite Rabs_mult, (Rabs_pos_eq (3 / 2)) by lra. apply Rlt_le_trans with (pow2 (n + 1)); [rewrite pow2_S; pose proof (bpow_gt_0 radix2 n); lra|apply bpow_le; lia]. }
  destruct (fmul_exact (fmake 3 (-1)) dec) as [Hmu Hmf]; [assumption..|rewrite H3; apply Hx|rewrite H3; apply Hx|]. rewrite H3 in Hmu.
  assert (Hshort : forall d1 : b64, Rabs (B2R d1) <= Rabs (B2R dec) -> (exists m1, B2R d1 = IZR m1 * pow2 c) -> short c d1).
  { intros d1 Hle (m1 & E1). exists m1. split; [exact E1|]. rewrite E1, Em, !Rabs_mult in Hle.
    apply Rmult_le_reg_r in Hle; [|rewrite Rabs_pos_eq; [apply bpow_gt_0|apply bpow_ge_0]].
    rewrite <- !abs_IZR in Hle. apply le_IZR in Hle. lia. }
  assert (HPm : (m <> 0)%Z -> exists z, pow2 (n - 1) = IZR z * pow2 c).
  { intros Hm0. destruct (Z_le_gt_dec c (n - 1)) as [Hle|Hgt].
    - exists (2 ^ (n - 1 - c))%Z. rewrite <- pow2_IZR, <- bpow_plus by lia. f_equal. lia.
    - exfalso. rewrite Em, Rabs_mult, (Rabs_pos_eq (pow2 c)), <- abs_IZR in Hlt by apply bpow_ge_0.
      assert (pow2 n <= pow2 c) by (apply bpow_le; lia). pose proof (bpow_gt_0 radix2 c).
      assert (Ha : 1 <= IZR (Z.abs m)) by (apply IZR_le; lia). nra. }
  assert (Eps : B2R p = pow2 (n - 1) \/ (m = 0%Z /\ B2R p = 0)).
  { destruct Hs as (_ & _ & _ & [(_ & H & _)|(_ & H & H0)]); [left; exact H|right]. split; [|exact H].
    rewrite Em in H0. apply Rmult_integral in H0 as [H0|H0]; [apply eq_IZR in H0; exact H0|]. pose proof (bpow_gt_0 radix2 c). lra. }
  pose proof (bpow_gt_0 radix2 (n - 1)) as Hpp.
  unfold fcsd_digit, csd_digit in *. cbv zeta in *.
  assert (Ef1 : Bltb p (fmul (fmake 3 (-1)) dec) = Rlt_bool (pow2 (n - 1)) (3 / 2 * B2R dec)).
  { rewrite f64_ltb, Hmu by assumption. destruct Eps as [->|[E0 ->]]; [reflexivity|]. rewrite Em, E0, Rmult_0_l, Rmult_0_r.
    rewrite !Rlt_bool_false by lra. reflexivity. }
  assert (Ef2 : Bltb (fmul (fmake 3 (-1)) dec) (Bopp p) = Rlt_bool (3 / 2 * B2R dec) (- pow2 (n - 1))).
  { rewrite f64_ltb, Hmu, fopp_R by (assumption || (rewrite fopp_fin; assumption)). destruct Eps as [->|[E0 ->]]; [reflexivity|]. rewrite Em, E0, Rmult_0_l, Rmult_0_r.
    rewrite !Rlt_bool_false by lra. reflexivity. }
  assert (E32 : Q2R ((3#2) * q) = 3 / 2 * B2R dec) by (rewrite Q2R_mult, Hq; f_equal; unfold Q2R; cbn; lra).
  rewrite !Qltb_R, Q2R_opp, HP, E32. rewrite Ef1, Ef2 in *.
  destruct (Rlt_bool_spec (pow2 (n - 1)) (3 / 2 * B2R dec)) as [B1|B1];
    [|destruct (Rlt_bool_spec (3 / 2 * B2R dec) (- pow2 (n - 1))) as [B2|B2]].
  - destruct Hst as (_ & Hs' & Hd & _ & Hh & _). change (dv cPlus) with 1%Z in *. specialize (Hh ltac:(discriminate)).
    split; [reflexivity|]. split; [rewrite Q2R_minus, Hq, HP; lra|]. split; [|exact Hs'].
    apply Hshort; [pose proof (Rabs_pos (B2R (fsub dec p))); lra|].
    destruct HPm as (z & Ez); [intros ->; rewrite Em in B1; lra|]. exists (m - z)%Z. rewrite minus_IZR. rewrite Ez, Em in Hd. lra.
  - destruct Hst as (_ & Hs' & Hd & _ & Hh & _). change (dv cMinus) with (-1)%Z in *. specialize (Hh ltac:(discriminate)).
    split; [reflexivity|]. split; [rewrite Q2R_plus, Hq, HP; lra|]. split; [|exact Hs'].
    apply Hshort; [pose proof (Rabs_pos (B2R (fadd dec p))); lra|].
    destruct HPm as (z & Ez); [intros ->; rewrite Em in B2; lra|]. exists (m + z)%Z. rewrite plus_IZR. rewrite Ez, Em in Hd. lra.
  - destruct Hst as (_ & Hs' & _). split; [reflexivity|]. split; [exact Hq|]. split; [|exact Hs']. exists m. auto.
Qed.

Lemma Q2R_half P k : Q2R P = pow2 k -> Q2R (P / 2) = pow2 (k - 1).
Proof. intros H. rewrite Q2R_div by discriminate. rewrite H, Q2R_2, (pow2_pred k). lra. Qed.

Lemma loop_agree c places : forall fuel n (p dec : b64) P q, st n p dec -> (-1073 <= c)%Z -> short c dec ->
  Q2R P = pow2 (n - 1) -> Q2R q = B2R dec ->
  fcsd_loop fuel places n p dec = csd_loop fuel places n P q.
Proof.
  induction fuel as [|fuel IH]; intros n p dec P q Hs Hc Hsh HP Hq; [reflexivity|]. cbn [fcsd_loop csd_loop].
  destruct (- places <? n)%Z; [|reflexivity].
  pose proof (digit_agree n c p dec P q Hs Hc Hsh HP Hq) as H. destruct (fcsd_digit p dec) as [ch d1]. destruct (csd_digit P q) as [ch' q1].
  destruct H as (<- & Hq1 & Hsh1 & Hs1).
  rewrite (IH _ _ _ (P / 2)%Q q1 Hs1 Hc Hsh1 (Q2R_half P _ HP) Hq1). reflexivity.
Qed.

Lemma fto_csd_from_agree n (x : b64) places q c : (0 <= n <= 1020)%Z -> is_finite x = true -> Rabs (B2R x) < pow2 n ->
  (-1073 <= c)%Z -> short c x -> Q2R q = B2R x ->
  fto_csd_from n x places = to_csd_from n q places.
Proof.
  intros Hn Hf Hx Hc Hsh Hq. unfold fto_csd_from, to_csd_from. rewrite fpow2_ok by lia. cbn [bind].
  rewrite (loop_agree c places _ n (fmake 1 (n - 1)) x (2 ^ (n - 1)) q); [|apply st_init; assumption|exact Hc|exact Hsh|apply Q2R_pow|exact Hq].
  destruct fone as [H1 H1f]. rewrite f64_ltb, fabs_R, H1 by (assumption || (rewrite fabs_fin; assumption)).
  rewrite Qltb_R, Q2R_abs, Hq. replace (Q2R 1) with 1 by (unfold Q2R; cbn; lra). reflexivity.
Qed.
