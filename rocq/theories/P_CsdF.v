(** Proofs about M_CsdF.v: in binary64 every subtraction of the converters is exact *)
From Coq Require Import ZArith Reals Lra Lia Bool Psatz Ascii QArith.Qreals.
From Flocq Require Import Core.Core IEEE754.BinarySingleNaN Sterbenz Mult_error.
From Verif Require Import Base M_Csd S_Csd P_Csd M_Float P_Float M_CsdF.
Local Open Scope R_scope.

(** ** digit values *)
Lemma sd_value_snoc ds c : sd_value (ds ++ [c]) = (2 * sd_value ds + dv c)%Z.
Proof.
  induction ds as [|a ds IH]; cbn [app sd_value length]; [cbn; lia|].
  rewrite IH, app_length. cbn [length]. replace (Z.of_nat (length ds + 1)) with (Z.succ (Z.of_nat (length ds))) by lia.
  rewrite Z.pow_succ_r by lia. ring.
Qed.
Lemma sd_value_app a b : sd_value (a ++ b) = (sd_value a * 2 ^ Z.of_nat (length b) + sd_value b)%Z.
Proof.
  revert a. induction b as [|c b IH]; intros a.
  - rewrite app_nil_r. cbn. lia.
  - change (c :: b) with ([c] ++ b). rewrite app_assoc, IH, sd_value_snoc, app_length. cbn [length app sd_value].
    replace (Z.of_nat (1 + length b)) with (Z.succ (Z.of_nat (length b))) by lia. rewrite Z.pow_succ_r by lia. ring.
Qed.
Lemma dv_range c : (-1 <= dv c <= 1)%Z.
Proof. unfold dv. destruct (Ascii.eqb c "+"); [lia|]. destruct (Ascii.eqb c "-"); lia. Qed.
Lemma sd_value_bound ds : (Z.abs (sd_value ds) < 2 ^ Z.of_nat (length ds))%Z.
Proof.
  induction ds as [|c ds IH]; cbn [sd_value length]; [cbn; lia|].
  rewrite Nat2Z.inj_succ, Z.pow_succ_r by lia. pose proof (dv_range c). nia.
Qed.
Lemma sd_value_zeros k : sd_value (repeat cZero k) = 0%Z.
Proof. induction k as [|k IH]; cbn [repeat sd_value]; [reflexivity|]. rewrite IH. reflexivity. Qed.

Lemma pow2_S k : pow2 (k + 1) = 2 * pow2 k.
Proof. rewrite bpow_plus. change (pow2 1) with 2. ring. Qed.
Lemma pow2_pred k : pow2 k = 2 * pow2 (k - 1).
Proof. rewrite <- pow2_S. f_equal. lia. Qed.
Lemma pow2_IZR k : (0 <= k)%Z -> pow2 k = IZR (2 ^ k).
Proof. intros H. symmetry. apply (IZR_Zpower radix2). exact H. Qed.

Lemma csd_value_R s : Q2R (csd_value s) = IZR (sd_value (sdigits s)) * pow2 (- Z.of_nat (frac_len s)).
Proof.
  unfold csd_value. rewrite Q2R_div.
  - unfold Q2R at 1 2. cbn [QArith_base.inject_Z QArith_base.Qnum QArith_base.Qden]. rewrite bpow_opp, pow2_IZR by lia. field.
    apply IZR_neq. pose proof (Z.pow_pos_nonneg 2 (Z.of_nat (frac_len s))). lia.
  - intros H. unfold QArith_base.Qeq in H. cbn in H. pose proof (Z.pow_pos_nonneg 2 (Z.of_nat (frac_len s))). lia.
Qed.

(** ** one digit *)
Lemma tie_up : pow2 (-1074) < rnd (3 / 2 * pow2 (-1074)).
Proof.
  destruct (fpow_R (-1074)) as [H1 H2]; [lia|]. destruct f3half as [H3 H4].
  destruct (fmul_rnd (fmake 3 (-1)) (fmake 1 (-1074))) as [H5 _]; [assumption..| |].
  - rewrite H1, H3. rewrite Rabs_pos_eq; [|pose proof (bpow_gt_0 radix2 (-1074)); lra].
    apply Rle_trans with (pow2 (-1073)); [rewrite (pow2_pred (-1073)); change (-1073 - 1)%Z with (-1074)%Z; pose proof (bpow_gt_0 radix2 (-1074)); lra|apply bpow_le; lia].
  - rewrite H1, H3 in H5. rewrite <- H5.
    assert (E : fmul (fmake 3 (-1)) (fmake 1 (-1074)) = fmake 1 (-1073)) by (apply B2SF_inj; vm_compute; reflexivity).
    rewrite E. destruct (fpow_R (-1073)) as [H6 _]; [lia|]. rewrite H6. apply bpow_lt. lia.
Qed.
Lemma rnd_3half_gt k x : (-1074 <= k)%Z -> pow2 k <= x -> pow2 k < rnd (3 / 2 * x).
Proof.
  intros Hk Hx. pose proof (bpow_gt_0 radix2 k) as Hp.
  destruct (Z.eq_dec k (-1074)) as [->|Hn].
  - apply Rlt_le_trans with (1 := tie_up). apply round_le; [typeclasses eauto..|]. lra.
  - apply Rlt_le_trans with (3 / 2 * pow2 k); [lra|]. apply rnd_ge; [lra|].
    replace (3 / 2 * pow2 k) with (IZR 3 * pow2 (k - 1)) by (rewrite (pow2_pred k); lra). apply fmt_scaled; lia.
Qed.
Lemma rnd_opp x : rnd (- x) = - rnd x.
Proof. apply round_NE_opp. Qed.

Lemma fdigit_spec k (p dec : b64) : (-1074 <= k <= 1020)%Z ->
  is_finite p = true -> B2R p = pow2 k -> is_finite dec = true -> Rabs (B2R dec) < 2 * pow2 k ->
  let '(c, d1) := fcsd_digit p dec in
  sd_char c = true /\ is_finite d1 = true /\ B2R dec = IZR (dv c) * pow2 k + B2R d1 /\
  Rabs (B2R d1) < pow2 k /\ (dv c = 0%Z -> d1 = dec) /\
  (dv c <> 0%Z -> Rabs (B2R d1) * 2 < Rabs (B2R dec)) /\ (dv c = 0%Z <-> c = "0"%char).
Proof.
  intros Hk Hpf Hp Hdf Hd. pose proof (bpow_gt_0 radix2 k) as Hp0. apply Rabs_lt_inv in Hd as [Hd1 Hd2].
  destruct f3half as [H3 H3f].
  destruct (fmul_rnd (fmake 3 (-1)) dec) as [Hm Hmf]; [assumption..| |].
  { rewrite H3. apply Rabs_le. assert (pow2 k * 8 <= pow2 1023).
    { replace (pow2 k * 8) with (pow2 (k + 3)) by (rewrite bpow_plus; cbn; ring). apply bpow_le. lia. } split; lra. }
  rewrite H3 in Hm. unfold fcsd_digit. cbv zeta. rewrite !f64_ltb by (try assumption; rewrite fopp_fin; assumption). rewrite fopp_R, Hm, Hp.
  assert (Hmax : pow2 k * 2 <= pow2 1023) by (rewrite Rmult_comm, <- pow2_S; apply bpow_le; lia).
  assert (Hmax' : pow2 1023 < pow2 1024) by (apply bpow_lt; lia).
  destruct (Rlt_bool_spec (pow2 k) (rnd (3 / 2 * B2R dec))) as [B1|B1];
    [|destruct (Rlt_bool_spec (rnd (3 / 2 * B2R dec)) (- pow2 k)) as [B2|B2]].
  - assert (Hg : pow2 k < 3 / 2 * B2R dec).
    { apply Rnot_le_lt. intros Hle. apply (rnd_le _ (pow2 k)) in Hle; [lra|apply fmt_pow2; lia]. }
    destruct (fsub_exact dec p) as [Hs Hsf]; [assumption..| | |].
    { apply sub_exact. rewrite Hp. lra. }
    { rewrite Hp. apply Rabs_lt. split; lra. }
    change (dv cPlus) with 1%Z. split; [reflexivity|]. split; [assumption|]. rewrite Hs, Hp. split; [lra|].
    split; [apply Rabs_lt; split; lra|]. split; [discriminate|]. split; [|split; discriminate]. intros _.
    rewrite (Rabs_pos_eq (B2R dec)) by lra. unfold Rabs. destruct (Rcase_abs _); lra.
  - assert (Hg : 3 / 2 * B2R dec < - pow2 k).
    { apply Rnot_le_lt. intros Hle. apply (rnd_ge _ (- pow2 k)) in Hle; [lra|apply generic_format_opp, fmt_pow2; lia]. }
    destruct (fadd_exact dec p) as [Hs Hsf]; [assumption..| | |].
    { replace (B2R dec + B2R p) with (- (B2R (Bopp dec) - B2R p)) by (rewrite fopp_R; ring). apply generic_format_opp, sub_exact.
      rewrite fopp_R, Hp. lra. }
    { rewrite Hp. apply Rabs_lt. split; lra. }
    change (dv cMinus) with (-1)%Z. split; [reflexivity|]. split; [assumption|]. rewrite Hs, Hp. split; [lra|].
    split; [apply Rabs_lt; split; lra|]. split; [discriminate|]. split; [|split; discriminate]. intros _.
    rewrite (Rabs_left (B2R dec)) by lra. unfold Rabs. destruct (Rcase_abs _); lra.
  - change (dv cZero) with 0%Z. split; [reflexivity|]. split; [assumption|]. split; [lra|].
    split; [|split; [reflexivity|split; [intros E; exfalso; apply E; reflexivity|split; reflexivity]]].
    apply Rabs_lt. split.
    + apply Rnot_le_lt. intros Hle. pose proof (rnd_3half_gt k (- B2R dec)) as H.
      replace (3 / 2 * - B2R dec) with (- (3 / 2 * B2R dec)) in H by ring. rewrite rnd_opp in H. specialize (H ltac:(lia) ltac:(lra)). lra.
    + apply Rnot_le_lt. intros Hle. pose proof (rnd_3half_gt k (B2R dec) ltac:(lia) Hle). lra.
Qed.

(** ** the state of the loops: pow2n holds 2^(n-1), or 0 once that is below the range *)
Definition st (n : Z) (p dec : b64) : Prop :=
  is_finite p = true /\ is_finite dec = true /\ (n <= 1021)%Z /\
  (((-1073 <= n)%Z /\ B2R p = pow2 (n - 1) /\ Rabs (B2R dec) < pow2 n) \/
   ((n < -1073)%Z /\ B2R p = 0 /\ B2R dec = 0)).
Lemma tiny_zero (x : b64) : Rabs (B2R x) < pow2 (-1074) -> B2R x = 0.
Proof.
  destruct (b64_scaled x) as (m & c & E & _ & Hc). rewrite E. intros H.
  replace m with 0%Z; [ring|]. rewrite Rabs_mult, (Rabs_pos_eq (pow2 c)), <- abs_IZR in H by apply bpow_ge_0.
  pose proof (bpow_le radix2 _ _ Hc). pose proof (bpow_gt_0 radix2 (-1074)).
  assert (Hm1 : IZR (Z.abs m) < 1).
  { apply Rnot_le_lt. intros Hm. nra. }
  apply lt_IZR in Hm1. lia.
Qed.
Lemma half_p n (p : b64) : is_finite p = true -> (n <= 1021)%Z ->
  (((-1073 <= n)%Z /\ B2R p = pow2 (n - 1)) \/ ((n < -1073)%Z /\ B2R p = 0)) ->
  is_finite (fdiv p (fmake 2 0)) = true /\
  (((-1073 <= n - 1)%Z /\ B2R (fdiv p (fmake 2 0)) = pow2 (n - 1 - 1)) \/ ((n - 1 < -1073)%Z /\ B2R (fdiv p (fmake 2 0)) = 0)).
Proof.
  intros Hf Hn H. destruct ftwo as [H2 H2f].
  destruct H as [[Hl Hp]|[Hl Hp]].
  - destruct (Z.eq_dec n (-1073)) as [->|Hne].
    + assert (E : p = fmake 1 (-1074)).
      { destruct (fpow_R (-1074)) as [Q1 Q2]; [lia|].
        apply B2R_inj; [| |rewrite Hp, Q1; reflexivity]; apply is_finite_strict_B2R; [rewrite Hp|rewrite Q1]; apply Rgt_not_eq, bpow_gt_0. }
      subst p. assert (E : fdiv (fmake 1 (-1074)) (fmake 2 0) = fzero) by (apply B2SF_inj; vm_compute; reflexivity).
      rewrite E. split; [reflexivity|]. right. split; [lia|]. reflexivity.
    + assert (E : B2R p / B2R (fmake 2 0) = pow2 (n - 1 - 1)) by (rewrite Hp, H2, (pow2_pred (n - 1)); field).
      destruct (fdiv_exact p (fmake 2 0)) as [Q1 Q2]; [assumption|rewrite H2; lra|rewrite E; apply fmt_pow2; lia| |].
      { rewrite E, Rabs_pos_eq by apply bpow_ge_0. apply bpow_lt. lia. }
      split; [exact Q2|]. left. split; [lia|]. rewrite Q1. exact E.
  - assert (E : B2R p / B2R (fmake 2 0) = 0) by (rewrite Hp; field; rewrite H2; lra).
    destruct (fdiv_exact p (fmake 2 0)) as [Q1 Q2]; [assumption|rewrite H2; lra|rewrite E; apply generic_format_0| |].
    { rewrite E, Rabs_R0. apply bpow_gt_0. }
    split; [exact Q2|]. right. split; [lia|]. rewrite Q1. exact E.
Qed.

Lemma fdigit_zero (p dec : b64) : is_finite p = true -> 0 <= B2R p -> is_finite dec = true -> B2R dec = 0 ->
  fcsd_digit p dec = (cZero, dec).
Proof.
  intros Hpf Hp Hdf Hd. destruct f3half as [H3 H3f].
  destruct (fmul_exact (fmake 3 (-1)) dec) as [Hm Hmf]; [assumption..|rewrite Hd, Rmult_0_r; apply generic_format_0| |].
  { rewrite Hd, Rmult_0_r, Rabs_R0. apply bpow_gt_0. }
  rewrite Hd, Rmult_0_r in Hm. unfold fcsd_digit. cbv zeta. rewrite !f64_ltb by (try assumption; rewrite fopp_fin; assumption). rewrite fopp_R, Hm.
  rewrite !Rlt_bool_false by lra. reflexivity.
Qed.

Lemma step_spec n (p dec : b64) : st n p dec ->
  let '(c, d1) := fcsd_digit p dec in
  sd_char c = true /\ st (n - 1) (fdiv p (fmake 2 0)) d1 /\ B2R dec = IZR (dv c) * pow2 (n - 1) + B2R d1 /\
  (dv c = 0%Z -> d1 = dec) /\ (dv c <> 0%Z -> Rabs (B2R d1) * 2 < Rabs (B2R dec)) /\ (dv c = 0%Z <-> c = "0"%char).
Proof.
  intros (Hpf & Hdf & Hn & H).
  destruct (half_p n p Hpf Hn) as [Hf' H']; [tauto|].
  destruct H as [(Hl & Hp & Hd)|(Hl & Hp & Hd)].
  - pose proof (fdigit_spec (n - 1) p dec ltac:(lia) Hpf Hp Hdf) as Q. rewrite <- pow2_pred in Q. specialize (Q Hd).
    destruct (fcsd_digit p dec) as [c d1]. destruct Q as (Q1 & Q2 & Q3 & Q4 & Q5 & Q6 & Q7).
    split; [exact Q1|]. split; [|auto]. split; [exact Hf'|]. split; [exact Q2|]. split; [lia|].
    destruct H' as [[Hl' Hp']|[Hl' Hp']]; [left; auto|right]. split; [exact Hl'|]. split; [exact Hp'|].
    apply tiny_zero. replace (-1074)%Z with (n - 1)%Z by lia. exact Q4.
  - rewrite fdigit_zero by (assumption || (rewrite Hp; lra)).
    change (dv cZero) with 0%Z. split; [reflexivity|]. split; [|split; [rewrite Hd; ring|split; [reflexivity|split; [intros E; exfalso; apply E; reflexivity|split; reflexivity]]]].
    split; [exact Hf'|]. split; [exact Hdf|]. split; [lia|]. right. split; [lia|]. split; [|exact Hd].
    destruct H' as [[Hl' _]|[_ Hp']]; [lia|exact Hp'].
Qed.
Lemma st_lt n p dec : st n p dec -> Rabs (B2R dec) < pow2 n.
Proof.
  intros (_ & _ & _ & [(_ & _ & H)|(_ & _ & H)]); [exact H|]. rewrite H, Rabs_R0. apply bpow_gt_0.
Qed.

(** ds approximates x to within one unit of its last place, the first place being n-1 *)
Definition approx (n : Z) (x : R) (ds : chars) : Prop :=
  Rabs (x - IZR (sd_value ds) * pow2 (n - Z.of_nat (length ds))) < pow2 (n - Z.of_nat (length ds)).
Lemma approx_nil n x : Rabs x < pow2 n -> approx n x [].
Proof. intros H. unfold approx. cbn [sd_value length]. rewrite Rmult_0_l, Rminus_0_r. replace (n - Z.of_nat 0)%Z with n by lia. exact H. Qed.
Lemma approx_cons n x c d1 ds : x = IZR (dv c) * pow2 (n - 1) + d1 -> approx (n - 1) d1 ds -> approx n x (c :: ds).
Proof.
  intros E H. unfold approx in *. cbn [sd_value length]. rewrite Nat2Z.inj_succ.
  replace (n - Z.succ (Z.of_nat (length ds)))%Z with (n - 1 - Z.of_nat (length ds))%Z by lia.
  replace (x - _) with (d1 - IZR (sd_value ds) * pow2 (n - 1 - Z.of_nat (length ds))); [exact H|].
  rewrite E, plus_IZR, mult_IZR, <- pow2_IZR by lia.
  replace (pow2 (n - 1)) with (pow2 (Z.of_nat (length ds)) * pow2 (n - 1 - Z.of_nat (length ds))) by (rewrite <- bpow_plus; f_equal; lia). ring.
Qed.

Lemma fcsd_loop_spec places : forall fuel n p dec,
  (Z.to_nat (n + places) < fuel)%nat -> st n p dec ->
  exists ds, fcsd_loop fuel places n p dec = Ok (ins n ds) /\ alld ds /\ length ds = Z.to_nat (n + places) /\
    forall ds1 ds2, ds = ds1 ++ ds2 -> approx n (B2R dec) ds1.
Proof.
  induction fuel as [|fuel IH]; intros n p dec Hf Hs; [lia|]. cbn [fcsd_loop].
  destruct (Z.ltb_spec (- places) n) as [Hn|Hn].
  - pose proof (step_spec n p dec Hs) as Hc. destruct (fcsd_digit p dec) as [c d1].
    destruct Hc as (Hc & Hs' & Hd & _).
    destruct (IH (n - 1)%Z (fdiv p (fmake 2 0)) d1 ltac:(lia) Hs') as (ds & E & Ha & Hl & Hp).
    rewrite E. cbn [bind]. exists (c :: ds). split; [reflexivity|]. split; [constructor; assumption|]. split; [cbn [length]; lia|].
    intros ds1 ds2 Eds. destruct ds1 as [|c' ds1]; [apply approx_nil, (st_lt _ _ _ Hs)|]. injection Eds as <- Eds.
    eapply approx_cons; [exact Hd|]. apply (Hp ds1 ds2 Eds).
  - exists []. split; [reflexivity|]. split; [constructor|]. split; [cbn; lia|].
    intros ds1 ds2 E. destruct ds1; [|discriminate]. apply approx_nil, (st_lt _ _ _ Hs).
Qed.

(** ** what is close to a float on a coarser grid is a float *)
Lemma close_small m c N j : (Z.abs m < 2 ^ 53)%Z -> (c < j)%Z ->
  Rabs (IZR m * pow2 c - IZR N * pow2 j) < pow2 j -> (Z.abs N <= 2 ^ 53)%Z.
Proof.
  intros Hm Hj H.
  assert (Hle : pow2 c * 2 <= pow2 j) by (rewrite Rmult_comm, <- pow2_S; apply bpow_le; lia).
  pose proof (bpow_gt_0 radix2 c). apply IZR_lt in Hm. rewrite abs_IZR in Hm.
  assert (H1 : IZR (Z.abs N) < IZR (2 ^ 53)).
  { rewrite abs_IZR. assert (H2 : Rabs (IZR N * pow2 j) <= Rabs (IZR m * pow2 c) + pow2 j).
    { replace (IZR N * pow2 j) with (IZR m * pow2 c + - (IZR m * pow2 c - IZR N * pow2 j)) by ring.
      eapply Rle_trans; [apply Rabs_triang|]. rewrite Rabs_Ropp. lra. }
    rewrite !Rabs_mult, !(Rabs_pos_eq (pow2 _)) in H2 by apply bpow_ge_0.
    pose proof (Rabs_pos (IZR m)).
    assert (H3 : Rabs (IZR m) * pow2 c <= IZR (2 ^ 53) / 2 * pow2 j) by nra.
    assert (H4 : Rabs (IZR N) * pow2 j <= (IZR (2 ^ 53) / 2 + 1) * pow2 j) by lra.
    apply Rmult_le_reg_r in H4; [|apply bpow_gt_0]. eapply Rle_lt_trans; [exact H4|].
    change (2 ^ 53)%Z with 9007199254740992%Z. lra. }
  apply lt_IZR in H1. lia.
Qed.
Lemma fmt_close (x : b64) N j : Rabs (B2R x - IZR N * pow2 j) < pow2 j -> fmt (IZR N) /\ fmt (IZR N * pow2 j) /\
  (forall m, B2R x = IZR m * pow2 j -> IZR N * pow2 j = B2R x).
Proof.
  intros H. destruct (b64_scaled x) as (m & c & E & Hm & Hc).
  assert (Hmul : forall m', B2R x = IZR m' * pow2 j -> m' = N).
  { intros m' E'. rewrite E', <- Rmult_minus_distr_r, Rabs_mult, (Rabs_pos_eq (pow2 j)), <- minus_IZR, <- abs_IZR in H by apply bpow_ge_0.
    pose proof (bpow_gt_0 radix2 j).
    assert (H1 : IZR (Z.abs (m' - N)) < 1) by (apply Rnot_le_lt; intros H1; nra). apply lt_IZR in H1. lia. }
  split; [|split; [|intros m' E'; rewrite <- (Hmul _ E'); symmetry; exact E']].
  all: destruct (Z_le_gt_dec j c) as [Hj|Hj].
  1, 3: assert (E' : B2R x = IZR (m * 2 ^ (c - j)) * pow2 j)
    by (rewrite E, mult_IZR, <- pow2_IZR, Rmult_assoc, <- bpow_plus by lia; do 2 f_equal; lia);
    rewrite <- (Hmul _ E').
  - rewrite mult_IZR, <- pow2_IZR by lia. apply fmt_scaled; lia.
  - rewrite <- E'. apply fmt_b64.
  - apply fmt_Z, (close_small m c N j); [lia|lia|rewrite <- E; exact H].
  - apply fmt_scaled; [|lia]. apply (close_small m c N j); [lia|lia|rewrite <- E; exact H].
Qed.

(** ** reading a string back *)
Lemma fmt_double x : fmt x -> fmt (x * 2).
Proof.
  intros H. change 2 with (pow2 1). change fexp64 with (FLT_exp (-1074) 53) in *. apply mult_bpow_pos_exact_FLT; [exact H|lia].
Qed.
Lemma fmt_shift x e : fmt x -> (0 <= e)%Z -> fmt (x * pow2 e).
Proof.
  intros H He. change fexp64 with (FLT_exp (-1074) 53) in *. apply mult_bpow_pos_exact_FLT; [exact H|exact He].
Qed.
Lemma sd_value_small ds k : (Z.of_nat (length ds) <= k)%Z -> Rabs (IZR (sd_value ds)) < pow2 k.
Proof.
  intros Hk. rewrite <- abs_IZR, pow2_IZR by lia. apply IZR_lt. eapply Z.lt_le_trans; [apply sd_value_bound|].
  apply Z.pow_le_mono_r; lia.
Qed.

Lemma fdec_loop_spec s : forall done i (dec : b64) loc,
  well_formed s -> is_finite dec = true -> B2R dec = IZR (sd_value done) ->
  (Z.of_nat (length done + length (sdigits s)) <= 1022)%Z ->
  (forall p q, sdigits s = p ++ q -> fmt (IZR (sd_value (done ++ p)))) ->
  exists d', fdec_loop s i dec loc =
      Ok (d', match after_point s with Some k => (i + length s - k)%nat | None => loc end) /\
    is_finite d' = true /\ B2R d' = IZR (sd_value (done ++ sdigits s)).
Proof.
  induction s as [|c s IH]; intros done i dec loc Hwf Hf Hd Hl Hp; cbn [fdec_loop].
  - exists dec. cbn [sdigits filter after_point]. rewrite app_nil_r. auto.
  - inversion Hwf as [|? ? Hc Hwf']. subst. destruct ftwo as [H2 H2f]. destruct fone as [H1 H1f].
    assert (Hfd : fmt (IZR (sd_value done))) by (specialize (Hp [] _ eq_refl); rewrite app_nil_r in Hp; exact Hp).
    assert (Hbd : Rabs (IZR (sd_value done) * 2) < pow2 1023).
    { rewrite Rabs_mult, (Rabs_pos_eq 2), (pow2_pred 1023) by lra. pose proof (sd_value_small done (1023 - 1)). specialize (H ltac:(lia)). lra. }
    assert (Hlt : pow2 1023 < pow2 1024) by (apply bpow_lt; lia).
    destruct (fmul_exact dec (fmake 2 0)) as [Hm Hmf]; [assumption..|rewrite Hd, H2; apply fmt_double; exact Hfd|rewrite Hd, H2; lra|].
    rewrite Hd, H2 in Hm.
    assert (Hdig : forall dd : b64, sd_char c = true -> fdec_loop (c :: s) i dec loc = fdec_loop s (S i) dd loc ->
      is_finite dd = true -> B2R dd = IZR (sd_value done) * 2 + IZR (dv c) ->
      exists d', fdec_loop (c :: s) i dec loc =
        Ok (d', match after_point (c :: s) with Some k => (i + length (c :: s) - k)%nat | None => loc end) /\
      is_finite d' = true /\ B2R d' = IZR (sd_value (done ++ sdigits (c :: s)))).
    { intros dd Hsd E Hddf Hdd. rewrite E. assert (Es : sdigits (c :: s) = c :: sdigits s) by (unfold sdigits; cbn [filter]; rewrite (sd_not_point c Hsd); reflexivity).
      rewrite Es in *. destruct (IH (done ++ [c]) (S i) dd loc) as (d' & E' & Hf' & Hd').
      - exact Hwf'. - exact Hddf.
      - rewrite Hdd, sd_value_snoc, plus_IZR, mult_IZR. ring.
      - rewrite app_length. cbn [length] in *. lia.
      - intros p q Epq. rewrite <- app_assoc. cbn [app]. apply (Hp (c :: p) q). rewrite Epq. reflexivity.
      - exists d'. split; [|split; [exact Hf'|rewrite Hd', <- app_assoc; reflexivity]]. rewrite E'. f_equal. f_equal.
        cbn [after_point length]. rewrite (sd_not_point c Hsd). destruct (after_point s); [lia|reflexivity]. }
    assert (Hsum : forall z, sd_char c = true -> dv c = z -> fmt (IZR (sd_value done) * 2 + IZR z) /\ Rabs (IZR (sd_value done) * 2 + IZR z) < pow2 1024).
    { intros z Hsd Ez. assert (Es : sdigits (c :: s) = c :: sdigits s) by (unfold sdigits; cbn [filter]; rewrite (sd_not_point c Hsd); reflexivity).
      rewrite Es in *. specialize (Hp [c] (sdigits s) eq_refl). rewrite sd_value_snoc, Ez, plus_IZR, mult_IZR, Rmult_comm in Hp. split; [exact Hp|].
      pose proof (sd_value_small (done ++ [c]) 1024) as Hsm. rewrite sd_value_snoc, Ez, plus_IZR, mult_IZR, (Rmult_comm 2) in Hsm. apply Hsm.
      rewrite app_length. cbn [length] in *. lia. }
    cbn [fdec_loop] in Hdig.
    change cPlus with "+"%char in *. change cMinus with "-"%char in *. change cZero with "0"%char in *.
    change cPoint with "."%char in *.
    destruct (Ascii.eqb_spec c "+") as [->|E1].
    { destruct (Hsum 1%Z eq_refl eq_refl) as [Q1 Q2].
      destruct (fadd_exact (fmul dec (fmake 2 0)) (fmake 1 0)) as [Ha Haf]; [assumption..|rewrite Hm, H1; exact Q1|rewrite Hm, H1; exact Q2|].
      rewrite Hm, H1 in Ha. eapply Hdig; [reflexivity|reflexivity|exact Haf|exact Ha]. }
    destruct (Ascii.eqb_spec c "-") as [->|E2].
    { destruct (Hsum (-1)%Z eq_refl eq_refl) as [Q1 Q2].
      destruct (fsub_exact (fmul dec (fmake 2 0)) (fmake 1 0)) as [Ha Haf]; [assumption..|rewrite Hm, H1; exact Q1|rewrite Hm, H1; exact Q2|].
      rewrite Hm, H1 in Ha. eapply Hdig; [reflexivity|reflexivity|exact Haf|exact Ha]. }
    destruct (Ascii.eqb_spec c "0") as [->|E3].
    { eapply Hdig; [reflexivity|reflexivity|exact Hmf|]. rewrite Hm. change (dv "0") with 0%Z. ring. }
    destruct (Ascii.eqb_spec c ".") as [->|E4].
    + assert (Eh : B2R (fmul dec (fmake 2 0)) / B2R (fmake 2 0) = IZR (sd_value done)) by (rewrite Hm, H2; field).
      destruct (fdiv_exact (fmul dec (fmake 2 0)) (fmake 2 0)) as [Ha Haf]; [assumption|rewrite H2; lra|rewrite Eh; exact Hfd|rewrite Eh; apply sd_value_small; lia|].
      rewrite Eh in Ha. change (sdigits ("."%char :: s)) with (sdigits s) in *.
      destruct (IH done (S i) (fdiv (fmul dec (fmake 2 0)) (fmake 2 0)) (S i) Hwf' Haf Ha Hl Hp) as (d' & E' & Hd').
      exists d'. split; [|exact Hd']. rewrite E'. f_equal. f_equal. cbn [after_point length]. change (is_point ".") with true.
      destruct (after_point s); lia.
    + exfalso. destruct Hc as [Hc|Hc].
      * apply sd_cases in Hc. tauto.
      * unfold is_point in Hc. apply Ascii.eqb_eq in Hc. contradiction.
Qed.

Lemma after_point_lt s k : after_point s = Some k -> (k < length s)%nat.
Proof. apply after_point_le. Qed.
Lemma fto_decimal_exact s : well_formed s -> (Z.of_nat (length s) <= 1022)%Z ->
  (forall p q, sdigits s = p ++ q -> fmt (IZR (sd_value p))) ->
  fmt (Q2R (csd_value s)) ->
  exists v, fto_decimal s = Ok v /\ is_finite v = true /\ B2R v = Q2R (csd_value s).
Proof.
  intros Hwf Hl Hp Hv. unfold fto_decimal.
  assert (Hls : (length (sdigits s) <= length s)%nat).
  { unfold sdigits. induction s as [|c s IHs]; [cbn; lia|]. cbn [filter]. clear -s. revert c. induction s as [|d s IH]; intros c.
    - cbn. destruct (negb _); cbn; lia.
    - specialize (IH d). cbn [filter] in *. destruct (negb (is_point c)); cbn [length] in *; lia. }
  destruct (fdec_loop_spec s [] 0 fzero 0 Hwf) as (d & E & Hf & Hd); [reflexivity|reflexivity|cbn [length]; lia|exact Hp|].
  rewrite E. cbn [bind app] in *. rewrite csd_value_R in *. unfold frac_len in *.
  destruct (after_point s) as [k|] eqn:Ek.
  - pose proof (after_point_lt s k Ek). destruct (Nat.eqb_spec (0 + length s - k) 0); [lia|].
    replace (Z.of_nat (length s) - Z.of_nat (0 + length s - k))%Z with (Z.of_nat k) by lia.
    unfold fpow2. destruct (Z.ltb_spec 1023 (Z.of_nat k)); [lia|]. cbn [bind].
    destruct (fpow_R (Z.of_nat k)) as [Q1 Q2]; [lia|].
    assert (Ev : B2R d / B2R (fmake 1 (Z.of_nat k)) = IZR (sd_value (sdigits s)) * pow2 (- Z.of_nat k)).
    { rewrite Hd, Q1, bpow_opp. reflexivity. }
    destruct (fdiv_exact d (fmake 1 (Z.of_nat k))) as [Q3 Q4]; [assumption|rewrite Q1; apply Rgt_not_eq, bpow_gt_0|rewrite Ev; exact Hv| |].
    { rewrite Ev, Rabs_mult, (Rabs_pos_eq (pow2 _)) by apply bpow_ge_0.
      pose proof (sd_value_small (sdigits s) 1022 ltac:(lia)).
      assert (pow2 (- Z.of_nat k) <= 1) by (change 1 with (pow2 0); apply bpow_le; lia).
      pose proof (bpow_gt_0 radix2 (- Z.of_nat k)). pose proof (Rabs_pos (IZR (sd_value (sdigits s)))).
      apply Rle_lt_trans with (Rabs (IZR (sd_value (sdigits s)))); [nra|]. eapply Rlt_trans; [eassumption|]. apply bpow_lt. lia. }
    eexists. split; [reflexivity|]. split; [exact Q4|]. rewrite Q3. exact Ev.
  - cbn [Nat.eqb]. exists d. split; [reflexivity|]. split; [exact Hf|]. rewrite Hd. cbn [Z.of_nat Z.opp bpow]. ring.
Qed.
Lemma fdec_loop_bad s : forall i dec loc, forallb wchar s = false -> fdec_loop s i dec loc = Raise ValueError.
Proof.
  induction s as [|c s IH]; intros i dec loc H; [discriminate|]. cbn [fdec_loop forallb] in *. unfold wchar, sd_char, is_point in H.
  change cPlus with "+"%char in *. change cMinus with "-"%char in *. change cZero with "0"%char in *. change cPoint with "."%char in *.
  destruct (Ascii.eqb c "+"); [apply IH; exact H|]. destruct (Ascii.eqb c "-"); [apply IH; exact H|].
  destruct (Ascii.eqb c "0"); [apply IH; exact H|]. destruct (Ascii.eqb c "."); [apply IH; exact H|]. reflexivity.
Qed.
Lemma fto_decimal_bad s : ~ well_formed s -> fto_decimal s = Raise ValueError.
Proof.
  intros H. rewrite wf_wchar in H. unfold fto_decimal. rewrite fdec_loop_bad; [reflexivity|]. destruct (forallb wchar s); [contradiction H; reflexivity|reflexivity].
Qed.

(** ** the strings the converters return *)
Lemma pre_split (b : bool) ds p q : (if b then [cZero] else []) ++ ds = p ++ q ->
  p = [] \/ exists p', p = (if b then [cZero] else []) ++ p' /\ ds = p' ++ q.
Proof.
  intros E. destruct b; cbn [app] in *; [|right; exists p; auto].
  destruct p as [|c p]; [left; reflexivity|right]. injection E as <- E. exists p. auto.
Qed.
Lemma pre_value (b : bool) p : sd_value ((if b then [cZero] else []) ++ p) = sd_value p.
Proof. destruct b; reflexivity. Qed.
Lemma str_value (b : bool) n ds : alld ds -> (0 <= n <= Z.of_nat (length ds))%Z ->
  sdigits ((if b then [cZero] else []) ++ ins n ds) = (if b then [cZero] else []) ++ ds /\
  Q2R (csd_value ((if b then [cZero] else []) ++ ins n ds)) = IZR (sd_value ds) * pow2 (n - Z.of_nat (length ds)).
Proof.
  intros Ha Hn. assert (Es : sdigits ((if b then [cZero] else []) ++ ins n ds) = (if b then [cZero] else []) ++ ds).
  { rewrite sdigits_app, sdigits_ins by assumption. destruct b; reflexivity. }
  split; [exact Es|]. rewrite csd_value_R, Es, pre_value. do 2 f_equal. unfold frac_len.
  assert (Ea : after_point ((if b then [cZero] else []) ++ ins n ds) = after_point (ins n ds)).
  { destruct b; [|reflexivity]. cbn [app after_point]. destruct (after_point (ins n ds)); reflexivity. }
  rewrite Ea, after_point_ins by (assumption || lia). destruct (Z.ltb_spec n (Z.of_nat (length ds))); lia.
Qed.
Lemma str_wf (b : bool) s : well_formed s -> well_formed ((if b then [cZero] else []) ++ s).
Proof. intros H. destruct b; cbn [app]; [constructor; [left; reflexivity|assumption]|assumption]. Qed.
Lemma str_points (b : bool) s : points ((if b then [cZero] else []) ++ s) = points s.
Proof. destruct b; reflexivity. Qed.
Lemma ins_length ds : forall n, (length (ins n ds) <= length ds + 1)%nat.
Proof.
  induction ds as [|c ds IH]; intros n; cbn [ins length]; [lia|].
  destruct (Z.eqb_spec n 0); [rewrite ins_len_neg by lia; cbn; lia|]. cbn [app length]. specialize (IH (n - 1)%Z). lia.
Qed.

(** ds0 followed by zeros, ds0 approximating x *)
Definition good (n : Z) (x : R) (ds : chars) : Prop :=
  exists ds0 k, ds = ds0 ++ repeat cZero k /\ approx n x ds0.
Lemma good_approx n x ds : approx n x ds -> good n x ds.
Proof. intros H. exists ds, 0%nat. cbn. rewrite app_nil_r. auto. Qed.
Lemma good_fmt n (x : b64) ds : good n (B2R x) ds ->
  fmt (IZR (sd_value ds)) /\ fmt (IZR (sd_value ds) * pow2 (n - Z.of_nat (length ds))).
Proof.
  intros (ds0 & k & -> & H). unfold approx in H. apply fmt_close in H as (H1 & H2 & _).
  rewrite sd_value_app, sd_value_zeros, Z.add_0_r, repeat_length, app_length, repeat_length, mult_IZR, <- pow2_IZR by lia.
  split; [apply fmt_shift; [exact H1|lia]|].
  rewrite Rmult_assoc, <- bpow_plus. replace (Z.of_nat k + (n - Z.of_nat (length ds0 + k)))%Z with (n - Z.of_nat (length ds0))%Z by lia. exact H2.
Qed.
Lemma str_decimal (b : bool) n (x : b64) ds : alld ds -> (0 <= n <= Z.of_nat (length ds))%Z -> (Z.of_nat (length ds) <= 1020)%Z ->
  (forall ds1 ds2, ds = ds1 ++ ds2 -> good n (B2R x) ds1) ->
  exists v, fto_decimal ((if b then [cZero] else []) ++ ins n ds) = Ok v /\ is_finite v = true /\
    B2R v = Q2R (csd_value ((if b then [cZero] else []) ++ ins n ds)).
Proof.
  intros Ha Hn Hl Hg. destruct (str_value b n ds Ha Hn) as [Es Ev]. apply fto_decimal_exact.
  - apply str_wf, wf_ins, Ha.
  - rewrite app_length. pose proof (ins_length ds n). destruct b; cbn [length]; lia.
  - intros p q E. rewrite Es in E. apply pre_split in E as [->|(p' & -> & E)]; [apply generic_format_0|].
    rewrite pre_value. apply (good_fmt n x), (Hg p' q E).
  - rewrite Ev. apply (good_fmt n x), (Hg ds []). rewrite app_nil_r. reflexivity.
Qed.

Lemma st_init n (x : b64) : (0 <= n <= 1020)%Z -> is_finite x = true -> Rabs (B2R x) < pow2 n -> st n (fmake 1 (n - 1)) x.
Proof.
  intros Hn Hf Hx. destruct (fpow_R (n - 1)) as [H1 H2]; [lia|]. split; [exact H2|]. split; [exact Hf|]. split; [lia|]. left. split; [lia|]. auto.
Qed.
Lemma fpow2_ok e : (e <= 1023)%Z -> fpow2 e = Ok (fmake 1 e).
Proof. intros H. unfold fpow2. destruct (Z.ltb_spec 1023 e); [lia|reflexivity]. Qed.

Lemma fto_csd_from_spec n (x : b64) places : (0 <= n)%Z -> (0 <= places)%Z -> (n + places <= 1020)%Z ->
  is_finite x = true -> Rabs (B2R x) < pow2 n ->
  exists s v, fto_csd_from n x places = Ok s /\ well_formed s /\ (points s <= 1)%nat /\
    fto_decimal s = Ok v /\ is_finite v = true /\ B2R v = Q2R (csd_value s) /\
    Rabs (B2R v - B2R x) < pow2 (- places) /\
    (forall k, B2R x * pow2 places = IZR k -> B2R v = B2R x).
Proof.
  intros Hn Hp Hnp Hf Hx. unfold fto_csd_from. rewrite fpow2_ok by lia. cbn [bind].
  destruct (fcsd_loop_spec places (S (Z.to_nat (n + places))) n (fmake 1 (n - 1)) x ltac:(lia)) as (ds & E & Ha & Hl & Hap).
  { apply st_init; (lia || assumption). }
  rewrite E. cbn [bind]. set (b := Bltb (Babs x) (fmake 1 0)).
  assert (Hln : (n - Z.of_nat (length ds) = - places)%Z) by lia.
  destruct (str_value b n ds Ha ltac:(lia)) as [Es Ev].
  destruct (str_decimal b n x ds Ha) as (v & E' & Hvf & Hv); [lia|lia| |].
  { intros ds1 ds2 Eds. apply good_approx, (Hap ds1 ds2 Eds). }
  eexists. exists v. split; [reflexivity|]. split; [apply str_wf, wf_ins, Ha|]. split; [rewrite str_points; apply points_ins, Ha|].
  split; [exact E'|]. split; [exact Hvf|]. split; [exact Hv|]. rewrite Hv, Ev.
  pose proof (Hap ds [] ltac:(rewrite app_nil_r; reflexivity)) as Hf0. unfold approx in Hf0. rewrite Hln in *.
  split; [rewrite Rabs_minus_sym; exact Hf0|]. intros k Ek. apply fmt_close in Hf0 as (_ & _ & Hf0). apply (Hf0 k).
  rewrite <- Ek, Rmult_assoc, <- bpow_plus. replace (places + - places)%Z with 0%Z by lia. cbn. ring.
Qed.

(** ** to_csdfixed *)
Lemma ftiny_R : is_finite ftiny = true /\ pow2 (-333) < B2R ftiny /\ B2R ftiny <= / 10 ^ 100 * (1 + / 2 ^ 50).
Proof.
  destruct (fmake_exact 0x1BFF2EE48E0530 (-385)) as [H1 H2].
  - apply fmt_scaled; lia.
  - rewrite Rabs_pos_eq.
    + apply Rlt_trans with (pow2 53 * pow2 (-385)); [apply Rmult_lt_compat_r; [apply bpow_gt_0|change (pow2 53) with (IZR (2 ^ 53)); apply IZR_lt; lia]|].
      rewrite <- bpow_plus. apply bpow_lt. lia.
    + apply Rmult_le_pos; [apply IZR_le; lia|apply bpow_ge_0].
  - split; [exact H2|]. unfold ftiny. rewrite H1. split.
    + replace (pow2 (-333)) with (pow2 52 * pow2 (-385)) by (rewrite <- bpow_plus; f_equal; lia).
      apply Rmult_lt_compat_r; [apply bpow_gt_0|]. change (pow2 52) with (IZR (2 ^ 52)). apply IZR_lt. lia.
    + change (-385)%Z with (- (385))%Z. rewrite bpow_opp, pow2_IZR by lia.
      rewrite (pow_IZR 10 100), (pow_IZR 2 50). change (Z.of_nat 100) with 100%Z. change (Z.of_nat 50) with 50%Z.
      assert (G1 : 0 < IZR (10 ^ 100)) by (apply IZR_lt; lia). assert (G2 : 0 < IZR (2 ^ 50)) by (apply IZR_lt; lia).
      assert (G3 : 0 < IZR (2 ^ 385)) by (apply IZR_lt; lia).
      apply Rmult_le_reg_r with (IZR (2 ^ 385) * (IZR (10 ^ 100) * IZR (2 ^ 50))); [apply Rmult_lt_0_compat; [exact G3|apply Rmult_lt_0_compat; assumption]|].
      replace (IZR 7880401239278896 * / IZR (2 ^ 385) * (IZR (2 ^ 385) * (IZR (10 ^ 100) * IZR (2 ^ 50))))
        with (IZR (7880401239278896 * (10 ^ 100 * 2 ^ 50))) by (rewrite !mult_IZR; field; lra).
      replace (/ IZR (10 ^ 100) * (1 + / IZR (2 ^ 50)) * (IZR (2 ^ 385) * (IZR (10 ^ 100) * IZR (2 ^ 50))))
        with (IZR (2 ^ 385 * (2 ^ 50 + 1))) by (rewrite !mult_IZR, plus_IZR; field; lra).
      apply IZR_le. vm_compute. discriminate.
Qed.

Lemma alld_zeros k : alld (repeat cZero k).
Proof. induction k; constructor; [reflexivity|assumption]. Qed.
Lemma fixed_zero : forall fuel n p (dec : b64), (Z.to_nat n < fuel)%nat -> st n p dec -> B2R dec = 0 ->
  fcsdfixed_loop fuel n 0 p dec = Ok (ins n (repeat cZero (Z.to_nat n))).
Proof.
  induction fuel as [|fuel IH]; intros n p dec Hf Hs Hd; [lia|]. cbn [fcsdfixed_loop].
  change (0 <? 0)%Z with false. cbn [andb]. rewrite orb_false_r. destruct (Z.ltb_spec 0 n) as [Hn0|Hn0].
  - pose proof (step_spec n p dec Hs) as H.
    assert (Hp0 : 0 <= B2R p) by (destruct Hs as (_ & _ & _ & [(_ & -> & _)|(_ & -> & _)]); [apply bpow_ge_0|lra]).
    assert (E0 : fcsd_digit p dec = (cZero, dec)) by (apply fdigit_zero; [apply Hs|exact Hp0|apply Hs|exact Hd]).
    rewrite E0 in *. destruct H as (_ & Hs' & _). change (Ascii.eqb cZero cZero) with true. cbn iota. cbn [Z.eqb].
    rewrite IH; [|lia| |reflexivity].
    + cbn [bind]. replace (Z.to_nat n) with (S (Z.to_nat (n - 1))) by lia. reflexivity.
    + destruct Hs' as (Q1 & Q2 & Q3 & Q4). split; [exact Q1|]. split; [reflexivity|]. split; [exact Q3|].
      change (B2R fzero) with 0. rewrite Hd in Q4. exact Q4.
  - replace (Z.to_nat n) with 0%nat by lia. reflexivity.
Qed.

Lemma good_cons n x c d1 ds : x = IZR (dv c) * pow2 (n - 1) + d1 -> good (n - 1) d1 ds -> good n x (c :: ds).
Proof.
  intros E (ds0 & k & -> & H). exists (c :: ds0), k. split; [reflexivity|]. eapply approx_cons; eassumption.
Qed.
Lemma zeros_prefix k p q : repeat cZero k = p ++ q -> p = repeat cZero (length p).
Proof.
  revert p. induction k as [|k IH]; intros p E; cbn [repeat] in E.
  - destruct p; [reflexivity|discriminate].
  - destruct p as [|c p]; [reflexivity|]. injection E as <- E. cbn [length repeat]. f_equal. apply IH, E.
Qed.
Lemma nonzeros_zeros k : nonzeros (repeat cZero k) = 0%nat.
Proof. induction k; [reflexivity|]. exact IHk. Qed.

Lemma fixed_spec : forall fuel n nnz p (dec : b64), (n + 334 <= Z.of_nat fuel)%Z -> (1 <= fuel)%nat -> (-333 <= n)%Z -> (1 <= nnz)%Z -> st n p dec ->
  exists ds, fcsdfixed_loop fuel n nnz p dec = Ok (ins n ds) /\ alld ds /\
    (n <= Z.of_nat (length ds) <= n + 333)%Z /\ (Z.of_nat (nonzeros ds) <= nnz)%Z /\
    (let e := Rabs (B2R dec - IZR (sd_value ds) * pow2 (n - Z.of_nat (length ds))) in
     e <= B2R ftiny \/ e * pow2 nnz <= Rabs (B2R dec)) /\
    forall ds1 ds2, ds = ds1 ++ ds2 -> good n (B2R dec) ds1.
Proof.
  destruct ftiny_R as (Tf & Tlo & _).
  induction fuel as [|fuel IH]; intros n nnz p dec Hfu Hf1 Hn Hz Hs; [lia|]. cbn [fcsdfixed_loop].
  assert (Hdf : is_finite dec = true) by apply Hs.
  destruct (orb _ _) eqn:B.
  - assert (Hn' : (-333 < n)%Z).
    { apply orb_true_iff in B as [B|B]; [apply Z.ltb_lt in B; lia|]. apply andb_true_iff in B as [_ B].
      rewrite f64_ltb in B by (assumption || (rewrite fabs_fin; assumption)). rewrite fabs_R in B.
      destruct (Rlt_bool_spec (B2R ftiny) (Rabs (B2R dec))) as [Hlt|]; [|discriminate].
      apply st_lt in Hs. apply (lt_bpow radix2). lra. }
    pose proof (step_spec n p dec Hs) as Hc. destruct (fcsd_digit p dec) as [c d1].
    destruct Hc as (Hc & Hs' & Hd & Hcz & Hcn & Hciff).
    assert (Eb : Ascii.eqb c cZero = (dv c =? 0)%Z).
    { change cZero with "0"%char. destruct (Z.eqb_spec (dv c) 0) as [E|E]; [apply Hciff in E; subst; reflexivity|].
      apply Ascii.eqb_neq. intros ->. apply E. reflexivity. }
    rewrite Eb.
    assert (Hshift : forall ds, IZR (sd_value (c :: ds)) * pow2 (n - Z.of_nat (length (c :: ds))) =
      IZR (dv c) * pow2 (n - 1) + IZR (sd_value ds) * pow2 (n - 1 - Z.of_nat (length ds))).
    { intros ds. cbn [sd_value length]. rewrite Nat2Z.inj_succ.
      replace (n - Z.succ (Z.of_nat (length ds)))%Z with (n - 1 - Z.of_nat (length ds))%Z by lia.
      rewrite plus_IZR, mult_IZR, <- pow2_IZR by lia.
      replace (pow2 (n - 1)) with (pow2 (Z.of_nat (length ds)) * pow2 (n - 1 - Z.of_nat (length ds))) by (rewrite <- bpow_plus; f_equal; lia). ring. }
    assert (Hpre : forall ds, (forall ds1 ds2, ds = ds1 ++ ds2 -> good (n - 1) (B2R d1) ds1) ->
      forall ds1 ds2, c :: ds = ds1 ++ ds2 -> good n (B2R dec) ds1).
    { intros ds H ds1 ds2 E. destruct ds1 as [|c' ds1]; [apply good_approx, approx_nil, (st_lt _ _ _ Hs)|]. injection E as <- E.
      eapply good_cons; [exact Hd|]. apply (H ds1 ds2 E). }
    destruct (Z.eqb_spec (dv c) 0) as [Ec|Ec].
    + destruct (Z.eqb_spec nnz 0); [lia|].
      destruct (IH (n - 1)%Z nnz (fdiv p (fmake 2 0)) d1) as (ds & E & Ha & Hl & Hnz & He & Hg); [lia|lia|lia|lia|exact Hs'|].
      rewrite E. cbn [bind]. exists (c :: ds). split; [reflexivity|]. split; [constructor; assumption|].
      split; [cbn [length]; lia|]. split; [unfold nonzeros in *; cbn [filter]; rewrite Ec; exact Hnz|].
      split; [|exact (Hpre ds Hg)]. cbv zeta in *. rewrite Hshift, Ec, Rmult_0_l, Rplus_0_l, <- (Hcz Ec). exact He.
    + specialize (Hcn Ec). assert (Hnzs : forall ds, nonzeros (c :: ds) = S (nonzeros ds)).
      { intros ds. unfold nonzeros. cbn [filter]. destruct (Z.eqb_spec (dv c) 0); [contradiction|reflexivity]. }
      destruct (Z.eqb_spec (nnz - 1) 0) as [En|En].
      * rewrite En, fixed_zero; [|lia| |reflexivity].
        { cbn [bind]. exists (c :: repeat cZero (Z.to_nat (n - 1))). split; [reflexivity|].
          split; [constructor; [exact Hc|apply alld_zeros]|]. split; [cbn [length]; rewrite repeat_length; lia|].
          split; [rewrite Hnzs, nonzeros_zeros; lia|]. split.
          - cbv zeta. rewrite Hshift, sd_value_zeros, Rmult_0_l, Rplus_0_r. right.
            replace (B2R dec - IZR (dv c) * pow2 (n - 1)) with (B2R d1) by lra. replace nnz with 1%Z by lia. change (pow2 1) with 2. lra.
          - intros ds1 ds2 E. destruct ds1 as [|c' ds1]; [apply good_approx, approx_nil, (st_lt _ _ _ Hs)|]. injection E as <- E.
            apply zeros_prefix in E. rewrite E. exists [c], (length ds1). split; [reflexivity|].
            eapply approx_cons; [exact Hd|]. apply approx_nil, (st_lt _ _ _ Hs'). }
        { destruct Hs' as (Q1 & Q2 & Q3 & Q4). split; [exact Q1|]. split; [reflexivity|]. split; [exact Q3|].
          change (B2R fzero) with 0. destruct Q4 as [(Q4 & Q5 & Q6)|(Q4 & Q5 & Q6)]; [left|right; auto].
          split; [exact Q4|]. split; [exact Q5|]. rewrite Rabs_R0. apply bpow_gt_0. }
      * destruct (IH (n - 1)%Z (nnz - 1)%Z (fdiv p (fmake 2 0)) d1) as (ds & E & Ha & Hl & Hnz & He & Hg); [lia|lia|lia|lia|exact Hs'|].
        rewrite E. cbn [bind]. exists (c :: ds). split; [reflexivity|]. split; [constructor; assumption|].
        split; [cbn [length]; lia|]. split; [rewrite Hnzs; lia|]. split; [|exact (Hpre ds Hg)].
        cbv zeta in *. rewrite Hshift. replace (B2R dec - _) with (B2R d1 - IZR (sd_value ds) * pow2 (n - 1 - Z.of_nat (length ds))) by lra.
        destruct He as [He|He]; [left; exact He|right]. rewrite (pow2_pred nnz). lra.
  - apply orb_false_iff in B as [B1 B2]. apply Z.ltb_ge in B1.
    exists []. split; [reflexivity|]. split; [constructor|]. split; [cbn [length]; lia|]. split; [cbn; lia|]. split.
    + cbv zeta. cbn [sd_value length]. rewrite Rmult_0_l, Rminus_0_r. left.
      destruct (Z.ltb_spec 0 nnz); [|lia]. cbn [andb] in B2.
      rewrite f64_ltb in B2 by (assumption || (rewrite fabs_fin; assumption)). rewrite fabs_R in B2.
      destruct (Rlt_bool_spec (B2R ftiny) (Rabs (B2R dec))); [discriminate|assumption].
    + intros ds1 ds2 E. destruct ds1; [|discriminate]. apply good_approx, approx_nil, (st_lt _ _ _ Hs).
Qed.

Lemma fto_csdfixed_from_spec n (x : b64) nnz : (1 <= nnz)%Z -> (0 <= n <= 680)%Z -> is_finite x = true -> Rabs (B2R x) < pow2 n ->
  exists s v, fto_csdfixed_from n x nnz = Ok s /\ well_formed s /\ (points s <= 1)%nat /\ (Z.of_nat (nonzeros s) <= nnz)%Z /\
    fto_decimal s = Ok v /\ is_finite v = true /\ B2R v = Q2R (csd_value s) /\
    (Rabs (B2R v - B2R x) <= B2R ftiny \/ Rabs (B2R v - B2R x) * pow2 nnz <= Rabs (B2R x)).
Proof.
  intros Hz Hn Hf Hx. unfold fto_csdfixed_from. rewrite fpow2_ok by lia. cbn [bind].
  destruct (fixed_spec (Z.to_nat n + 340) n nnz (fmake 1 (n - 1)) x) as (ds & E & Ha & Hl & Hnz & He & Hg); [lia|lia|lia|lia|apply st_init; (lia || assumption)|].
  rewrite E. cbn [bind]. set (b := Bltb (Babs x) (fmake 1 0)).
  destruct (str_value b n ds Ha ltac:(lia)) as [Es Ev].
  destruct (str_decimal b n x ds Ha ltac:(lia) ltac:(lia) Hg) as (v & E' & Hvf & Hv).
  eexists. exists v. split; [reflexivity|]. split; [apply str_wf, wf_ins, Ha|]. split; [rewrite str_points; apply points_ins, Ha|].
  split. { replace (nonzeros _) with (nonzeros (ins n ds)) by (destruct b; reflexivity).
    replace (nonzeros (ins n ds)) with (nonzeros ds); [exact Hnz|].
    clear. revert n. induction ds as [|c ds IH]; intros n; [reflexivity|]. cbn [ins]. specialize (IH (n - 1)%Z). unfold nonzeros in *.
    destruct (n =? 0)%Z; cbn [app filter]; [change (negb (dv cPoint =? 0)%Z) with false; cbn iota|]; destruct (negb (dv c =? 0)%Z); cbn [length]; rewrite IH; reflexivity. }
  split; [exact E'|]. split; [exact Hvf|]. split; [exact Hv|]. rewrite Hv, Ev. rewrite Rabs_minus_sym. exact He.
Qed.
