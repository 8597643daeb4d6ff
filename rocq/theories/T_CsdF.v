(** Property theorems for csd.py in IEEE binary64, the arithmetic it runs in *)
From Coq Require Import ZArith Reals Lra Lia Bool Psatz Ascii String QArith.Qreals QArith_base Qabs Qpower.
From Flocq Require Import Core.Core IEEE754.BinarySingleNaN.
From Verif Require Import Base M_Csd S_Csd P_Csd P_Csd2 T_Csd M_Float P_Float M_CsdF P_CsdF S_CsdF P_CsdF2.
Local Open Scope R_scope.

Lemma log2_weaken a b l : a <= b -> log2_within a l -> log2_within b l.
Proof. intros H Hl y Hy H1. destruct (Hl y Hy H1) as [H2 H3]. split; [exact H2|]. lra. Qed.
Lemma fzero_eqb (x : b64) : is_finite x = true -> feqb x fzero = Req_bool (B2R x) 0.
Proof.
  intros H. unfold feqb. rewrite Beqb_correct by (assumption || reflexivity). change (B2R fzero) with 0. unfold Req_bool, Raux.Req_bool.
  destruct (Rcompare_spec (B2R x) 0), (Req_EM_T (B2R x) 0); try reflexivity; lra.
Qed.
Lemma str0_decimal : exists v, fto_decimal [cZero] = Ok v /\ is_finite v = true /\ B2R v = 0.
Proof.
  eexists. split; [reflexivity|]. assert (E : fmul fzero (fmake 2 0) = fzero) by (apply B2SF_inj; vm_compute; reflexivity).
  rewrite E. split; reflexivity.
Qed.
Lemma csd_value_0 : Q2R (csd_value [cZero]) = 0.
Proof. rewrite csd_value_R. cbn. ring. Qed.

(** ** C85: to_csd and to_decimal on doubles *)
Theorem C85_float_csd_error : forall log2 (x : b64) m places, log2_within (1 / 2) log2 ->
  is_finite x = true -> (0 <= m)%Z -> (0 <= places)%Z -> (m + places <= 1018)%Z -> Rabs (B2R x) <= 2 ^ Z.to_nat m ->
  exists s v, fto_csd log2 x places = Ok s /\ well_formed s /\ (points s <= 1)%nat /\
    fto_decimal s = Ok v /\ is_finite v = true /\ B2R v = Q2R (csd_value s) /\
    Rabs (B2R v - B2R x) < / 2 ^ Z.to_nat places /\
    (forall k, B2R x * 2 ^ Z.to_nat places = IZR k -> B2R v = B2R x).
Proof.
  intros log2 x m places Hlog Hf Hm Hp Hmp Hx.
  assert (Epow : forall z, (0 <= z)%Z -> 2 ^ Z.to_nat z = pow2 z).
  { intros z Hz. rewrite pow_IZR, Z2Nat.id by exact Hz. symmetry. apply pow2_IZR, Hz. }
  rewrite Epow in * by assumption. rewrite <- bpow_opp. unfold fto_csd. rewrite fzero_eqb by exact Hf. unfold Req_bool. destruct (Req_EM_T (B2R x) 0) as [E0|E0].
  - destruct str0_decimal as (v & Ev & Hvf & Hv). exists [cZero], v. split; [reflexivity|]. split; [repeat constructor|]. split; [cbn; lia|].
    split; [exact Ev|]. split; [exact Hvf|]. rewrite csd_value_0, Hv, E0. split; [reflexivity|].
    rewrite Rminus_0_r, Rabs_R0. split; [apply bpow_gt_0|]. reflexivity.
  - destruct (fcsd_n_spec log2 x m Hlog Hf ltac:(lia) Hx) as (n & En & Hn & Hxn & _). rewrite En. cbn [bind].
    apply fto_csd_from_spec; (assumption || lia).
Qed.
Print Assumptions C85_float_csd_error.
(** the same whatever n the logarithm returned, as long as 2^n exceeds |x| *)
Theorem C85_float_csd_any_start : forall (x : b64) n places, (0 <= n)%Z -> (0 <= places)%Z -> (n + places <= 1020)%Z ->
  is_finite x = true -> Rabs (B2R x) < 2 ^ Z.to_nat n ->
  exists s v, fto_csd_from n x places = Ok s /\ well_formed s /\ (points s <= 1)%nat /\
    fto_decimal s = Ok v /\ is_finite v = true /\ B2R v = Q2R (csd_value s) /\
    Rabs (B2R v - B2R x) < / 2 ^ Z.to_nat places /\
    (forall k, B2R x * 2 ^ Z.to_nat places = IZR k -> B2R v = B2R x).
Proof.
  intros x n places Hn Hp Hnp Hf Hx.
  assert (Epow : forall z, (0 <= z)%Z -> 2 ^ Z.to_nat z = pow2 z).
  { intros z Hz. rewrite pow_IZR, Z2Nat.id by exact Hz. symmetry. apply pow2_IZR, Hz. }
  rewrite Epow in * by assumption. rewrite <- bpow_opp. apply fto_csd_from_spec; assumption.
Qed.
Print Assumptions C85_float_csd_any_start.

(** the largest doubles: the range computation overflows (OverflowError) *)
Theorem C85_float_csd_overflow : forall log2 (x : b64) places, log2 (B754_infinity false) = B754_infinity false ->
  is_finite x = true -> 3 * 2 ^ 1022 <= Rabs (B2R x) -> fto_csd log2 x places = Raise FloatFault.
Proof.
  intros log2 x places Hl Hf Hx. unfold fto_csd. rewrite fzero_eqb by exact Hf.
  assert (Hp : 0 < 2 ^ 1022) by (apply pow_lt; lra).
  unfold Req_bool. destruct (Req_EM_T (B2R x) 0) as [E|_]; [rewrite E, Rabs_R0 in Hx; lra|].
  unfold fcsd_n. destruct fone as [H1 H1f]. destruct f3half as [H3 H3f].
  assert (H2 : 1 <= 2 ^ 1022) by (apply pow_R1_Rle; lra).
  rewrite f64_ltb, fabs_R, H1 by (assumption || (rewrite fabs_fin; assumption)). rewrite Rlt_bool_false by lra.
  assert (E : fmul (Babs x) (fmake 3 (-1)) = B754_infinity false).
  { pose proof (Bmult_correct 53 1024 prec64 emax64 mode_NE (Babs x) (fmake 3 (-1))) as H. cbn [round_mode] in H. rewrite fabs_R, H3 in H.
    rewrite Rlt_bool_false in H.
    - apply B2SF_inj. unfold fmul. rewrite H. replace (xorb _ _) with false; [reflexivity|]. destruct x; try discriminate; reflexivity.
    - assert (Hb : pow2 1024 = 4 * 2 ^ 1022).
      { replace (2 ^ 1022) with (pow2 1022); [change 1024%Z with (2 + 1022)%Z; rewrite bpow_plus; reflexivity|].
        rewrite pow_IZR. apply pow2_IZR. lia. }
      apply Rle_trans with (2 := Rle_abs _). apply round_ge_generic; [typeclasses eauto..|apply fmt_pow2; lia|]. lra. }
  rewrite E, Hl. reflexivity.
Qed.
Print Assumptions C85_float_csd_overflow.

(** Logarithms as assumed exist. *)
Definition log2_ex (y : b64) : b64 := fmake (ZnearestE (ln (B2R y) / ln 2 * 2 ^ 40)) (-40).
Lemma log2_ex_within : log2_within (/ 2 ^ 34) log2_ex.
Proof.
  intros y Hf Hy. unfold log2_ex. pose proof ln2_pos as H2. set (l := ln (B2R y) / ln 2).
  assert (Hl0 : 0 <= l) by (apply Rmult_le_pos; [rewrite <- ln_1; apply ln_le; lra|apply Rlt_le, Rinv_0_lt_compat, H2]).
  assert (Hl1 : l <= 1024).
  { apply Rmult_le_reg_r with (ln 2); [exact H2|]. unfold l, Rdiv. rewrite Rmult_assoc, Rinv_l, Rmult_1_r by lra. rewrite <- (ln_pow2 1024).
    apply ln_le; [lra|]. apply Rlt_le. pose proof (abs_B2R_lt_emax 53 1024 y). rewrite Rabs_pos_eq in H by lra. exact H. }
  pose proof (Znearest_half (fun x => negb (Z.even x)) (l * 2 ^ 40)) as Hn. set (z := ZnearestE (l * 2 ^ 40)) in *. apply Rabs_le_inv in Hn.
  assert (H40 : 2 ^ 40 = 1099511627776) by (rewrite pow_IZR; f_equal). rewrite H40 in *.
  assert (Hz : (0 <= z <= 2 ^ 52)%Z).
  { split; [apply Z.lt_succ_r; apply (lt_IZR 0); rewrite succ_IZR; lra|apply le_IZR; rewrite <- pow2_IZR by lia; change (pow2 52) with 4503599627370496; lra]. }
  destruct (fmake_exact z (-40)) as [E Ef].
  - apply fmt_scaled; lia.
  - rewrite Rabs_pos_eq by (apply Rmult_le_pos; [apply IZR_le; lia|apply bpow_ge_0]).
    apply Rle_lt_trans with (pow2 52 * pow2 (-40)); [apply Rmult_le_compat_r; [apply bpow_ge_0|change (pow2 52) with (IZR (2 ^ 52)); apply IZR_le; lia]|].
    rewrite <- bpow_plus. apply bpow_lt. lia.
  - split; [exact Ef|]. rewrite E. change (pow2 (-40)) with (/ 1099511627776).
    assert (H34 : 2 ^ 34 = 17179869184) by (rewrite pow_IZR; f_equal). rewrite H34. apply Rabs_le. lra.
Qed.
Definition show (r : res chars) : option string := match r with Ok s => Some (string_of_list_ascii s) | Raise _ => None end.
(** 0.1 to eight places, read back as 0.1015625 *)
Example C85_ex : exists v, show (fto_csd_from 0 (fdiv (fmake 1 0) (fmake 10 0)) 8) = Some "0.00+0-0+0"%string /\
  fto_decimal (chars_of "0.00+0-0+0"%string) = Ok v /\ B2SF v = B2SF (fmake 13 (-7)).
Proof. eexists. split; [vm_compute; reflexivity|]. split; [reflexivity|]. vm_compute. reflexivity. Qed.

(** ** C86: canonical form on doubles *)
(** For inputs of at most 51 significant bits the float program writes the digits that exact
    arithmetic gives. *)
Theorem C86_float_agrees : forall (x : b64) n places M c, (0 <= n <= 1020)%Z -> is_finite x = true ->
  Rabs (B2R x) < 2 ^ Z.to_nat n ->
  B2R x = IZR M * powerRZ 2 c -> (Z.abs M <= 2 ^ 51)%Z -> (-1073 <= c)%Z ->
  forall q : Q, Q2R q = B2R x -> fto_csd_from n x places = to_csd_from n q places.
Proof.
  intros x n places M c Hn Hf Hx HM Hb Hc q Hq. apply (fto_csd_from_agree n x places q c); try assumption.
  - rewrite pow_IZR, Z2Nat.id in Hx by lia. rewrite pow2_IZR by lia. exact Hx.
  - exists M. split; [|exact Hb]. rewrite HM. rewrite bpow_powerRZ. reflexivity.
Qed.
Print Assumptions C86_float_agrees.
Example C86_ex : fto_csd_from 6 (fmake 57 (-1)) 2 = Ok (chars_of "+00-00.+0"%string) /\ to_csd_from 6 (57 # 2) 2 = Ok (chars_of "+00-00.+0"%string).
Proof. split; vm_compute; reflexivity. Qed.

Lemma ln_1p t : 0 < t <= 1 -> t / 2 <= ln (1 + t).
Proof.
  intros Ht. assert (H : ln (/ (1 + t)) <= / (1 + t) - 1).
  { pose proof (exp_ineq1_le (/ (1 + t) - 1)) as H. assert (Hp : 0 < / (1 + t)) by (apply Rinv_0_lt_compat; lra).
    rewrite <- (ln_exp (/ (1 + t) - 1)). apply ln_le; lra. }
  rewrite ln_Rinv in H by lra. assert (Hi : / (1 + t) = 1 - t / (1 + t)) by (field; lra).
  assert (Hh : t / 2 <= t / (1 + t)) by (apply Rmult_le_compat_l; [lra|]; apply Rinv_le_contravar; lra). lra.
Qed.
Lemma ln2_lt1 : ln 2 < 1.
Proof. rewrite <- (ln_exp 1). apply ln_increasing; [lra|]. pose proof (exp_ineq1 1 ltac:(lra)). lra. Qed.

(** Fixed-point numbers of at most 30 bits: canonical outside 2/3 < |x| < 1, as in exact arithmetic. *)
Theorem C86_float_canonical_partial : forall log2 (x : b64) M q places, log2_within (/ 2 ^ 34) log2 ->
  is_finite x = true -> (Z.abs M <= 2 ^ 30)%Z -> (0 <= q <= 900)%Z -> B2R x = IZR M / 2 ^ Z.to_nat q ->
  (0 <= places <= 900)%Z -> Rabs (B2R x) <= 2 / 3 \/ 1 <= Rabs (B2R x) ->
  exists s, fto_csd log2 x places = Ok s /\ canonical s.
Proof.
  intros log2 x M q places Hlog Hf HM Hq Hx Hp Hrange. rewrite pow_IZR, Z2Nat.id in Hx by lia.
  assert (Hx' : B2R x = IZR M * pow2 (- q)) by (rewrite Hx, bpow_opp, pow2_IZR by lia; reflexivity).
  unfold fto_csd. rewrite fzero_eqb by exact Hf. unfold Req_bool. destruct (Req_EM_T (B2R x) 0) as [E0|E0].
  - exists [cZero]. split; [reflexivity|]. intros [|a [|b s1]] ? ? ? E; cbn in E; inversion E; destruct s1; discriminate.
  - assert (H30 : Rabs (B2R x) <= pow2 30).
    { rewrite Hx', Rabs_mult, (Rabs_pos_eq (pow2 _)), <- abs_IZR by apply bpow_ge_0.
      assert (pow2 (- q) <= 1) by (change 1 with (pow2 0); apply bpow_le; lia).
      assert (IZR (Z.abs M) <= pow2 30) by (rewrite pow2_IZR by lia; apply IZR_le; exact HM).
      pose proof (bpow_gt_0 radix2 (- q)). assert (0 <= IZR (Z.abs M)) by (apply IZR_le; lia). nra. }
    assert (Hw : log2_within (1 / 2) log2).
    { apply log2_weaken with (2 := Hlog). assert (1 <= 2 ^ 33) by (apply pow_R1_Rle; lra). replace (2 ^ 34) with (2 * 2 ^ 33) by (cbn; ring).
      rewrite Rinv_mult. assert (/ 2 ^ 33 <= / 1) by (apply Rinv_le_contravar; lra). lra. }
    destruct (fcsd_n_spec log2 x 30 Hw Hf ltac:(lia) H30) as (n & En & Hn & Hxn & Hn0 & Hn1). rewrite En. cbn [bind].
    assert (Hcan : Rabs (B2R x) <= 2 / 3 * pow2 n).
    { destruct (Rlt_or_le (Rabs (B2R x)) 1) as [Hlt|Hge].
      - rewrite (Hn0 Hlt). cbn [bpow]. lra.
      - specialize (Hn1 Hge). apply Rnot_lt_le. intros Hgt.
        destruct f3half as [H3 H3f].
        destruct (fmul_exact (Babs x) (fmake 3 (-1))) as [Hy Hyf]; [rewrite fabs_fin; exact Hf|exact H3f| | |].
        { rewrite fabs_R, H3, Hx', Rabs_mult, (Rabs_pos_eq (pow2 _)), <- abs_IZR by apply bpow_ge_0.
          replace (IZR (Z.abs M) * pow2 (- q) * (3 / 2)) with (IZR (3 * Z.abs M) * pow2 (- q - 1)) by (rewrite mult_IZR, (pow2_pred (- q)); field).
          apply fmt_scaled; lia. }
        { rewrite fabs_R, H3, Rabs_pos_eq by (pose proof (Rabs_pos (B2R x)); lra). apply Rle_lt_trans with (pow2 31); [rewrite (pow2_pred 31); change (31 - 1)%Z with 30%Z; lra|apply bpow_lt; lia]. }
        rewrite fabs_R, H3 in Hy. set (y := fmul (Babs x) (fmake 3 (-1))) in *.
        destruct (Hlog y Hyf ltac:(lra)) as [_ Hl]. apply Rabs_le_inv in Hl as [Hl _].
        pose proof (bpow_gt_0 radix2 n) as Hpn.
        assert (Hint : (2 ^ (n + q + 1) + 1 <= 3 * Z.abs M)%Z).
        { apply Zlt_le_succ, lt_IZR. rewrite mult_IZR, <- pow2_IZR by lia.
          replace (pow2 (n + q + 1)) with (2 * (pow2 n * pow2 q)) by (rewrite <- bpow_plus, <- pow2_S; reflexivity).
          assert (EM : IZR (Z.abs M) = Rabs (B2R x) * pow2 q).
          { rewrite Hx', Rabs_mult, (Rabs_pos_eq (pow2 _)), <- abs_IZR, Rmult_assoc, <- bpow_plus by apply bpow_ge_0. replace (- q + q)%Z with 0%Z by lia. cbn. ring. }
          rewrite EM. pose proof (bpow_gt_0 radix2 q). nra. }
        set (t := pow2 (- (n + q + 1))).
        assert (Ht : pow2 (-32) <= t <= 1).
        { split; [|change 1 with (pow2 0)]; apply bpow_le; [|lia].
          assert (H32 : (2 ^ (n + q + 1) < 2 ^ 32)%Z) by lia. apply Z.pow_lt_mono_r_iff in H32; lia. }
        assert (Hy2 : pow2 n * (1 + t) <= B2R y).
        { rewrite Hy. apply IZR_le in Hint. rewrite plus_IZR, mult_IZR, <- pow2_IZR in Hint by lia.
          assert (EM : IZR (Z.abs M) = Rabs (B2R x) * pow2 q).
          { rewrite Hx', Rabs_mult, (Rabs_pos_eq (pow2 _)), <- abs_IZR, Rmult_assoc, <- bpow_plus by apply bpow_ge_0. replace (- q + q)%Z with 0%Z by lia. cbn. ring. }
          rewrite EM in Hint. apply Rmult_le_reg_r with (2 * pow2 q); [pose proof (bpow_gt_0 radix2 q); lra|].
          replace (pow2 n * (1 + t) * (2 * pow2 q)) with (pow2 (n + q + 1) + 1); [lra|].
          unfold t. replace (pow2 n * (1 + pow2 (- (n + q + 1))) * (2 * pow2 q)) with (2 * (pow2 n * pow2 q) * (1 + pow2 (- (n + q + 1)))) by ring.
          rewrite <- bpow_plus, <- pow2_S, Rmult_plus_distr_l, <- bpow_plus. replace (n + q + 1 + - (n + q + 1))%Z with 0%Z by lia. cbn [bpow]. ring. }
        pose proof ln2_pos. pose proof ln2_lt1. pose proof (bpow_gt_0 radix2 (-32)) as H32.
        assert (Hln : IZR n * ln 2 + t / 2 <= ln (B2R y)).
        { rewrite <- ln_pow2. apply Rle_trans with (ln (pow2 n) + ln (1 + t)); [pose proof (ln_1p t ltac:(lra)); lra|].
          rewrite <- ln_mult by lra. apply ln_le; [apply Rmult_lt_0_compat; lra|exact Hy2]. }
        assert (Hq2 : IZR n + t / 2 <= ln (B2R y) / ln 2).
        { apply Rmult_le_reg_r with (ln 2); [assumption|]. unfold Rdiv at 2. rewrite Rmult_assoc, Rinv_l, Rmult_1_r by lra. nra. }
        assert (E34 : / 2 ^ 34 = pow2 (-32) / 4).
        { change (-32)%Z with (- (32))%Z. rewrite bpow_opp, pow2_IZR by lia. replace (2 ^ 34) with (4 * IZR (2 ^ 32)); [field; apply IZR_neq; lia|].
          replace (IZR (2 ^ 32)) with (2 ^ 32) by (rewrite pow_IZR; reflexivity). cbn. ring. }
        rewrite E34 in Hl. lra. }
    assert (Hqx : Q2R (inject_Z M / inject_Z (2 ^ q)) = B2R x).
    { rewrite Q2R_div; [unfold Q2R, Rdiv; cbn; rewrite !Rinv_1, !Rmult_1_r; symmetry; exact Hx|].
      intros H. unfold Qeq in H. cbn in H. pose proof (Z.pow_pos_nonneg 2 q). lia. }
    set (qx := (inject_Z M / inject_Z (2 ^ q))%Q) in *.
    rewrite (fto_csd_from_agree n x places qx (- q)); [|lia|exact Hf|exact Hxn|lia|exists M; split; [exact Hx'|lia]|exact Hqx].
    destruct (C69_csd_error_any_start n qx places ltac:(lia) ltac:(lia)) as (s & v & Es & _ & _ & _ & _ & H).
    { apply Rlt_Qlt. rewrite Q2R_abs, Q2R_pow, Hqx. exact Hxn. }
    exists s. split; [exact Es|]. apply H. apply Rle_Qle. rewrite Q2R_abs, Q2R_mult, Q2R_pow, Hqx.
    replace (Q2R (2 # 3)) with (2 / 3) by (unfold Q2R; cbn; lra). exact Hcan.
Qed.
Print Assumptions C86_float_canonical_partial.
Example C86_ex_canonical : exists s, fto_csd log2_ex (fmake 57 (-1)) 2 = Ok s /\ canonical s.
Proof.
  destruct (fmake_exact 57 (-1)) as [E Ef]; [apply fmt_scaled; lia| |].
  { rewrite Rabs_pos_eq by (apply Rmult_le_pos; [lra|apply bpow_ge_0]). change (pow2 (-1)) with (/ 2).
    apply Rlt_trans with (pow2 5); [change (pow2 5) with 32; lra|apply bpow_lt; lia]. }
  change (pow2 (-1)) with (/ 2) in E.
  apply (C86_float_canonical_partial log2_ex _ 57 1); [exact log2_ex_within|exact Ef|lia|lia| |lia|].
  - rewrite E. change (2 ^ Z.to_nat 1) with (2 * 1). lra.
  - right. rewrite E, Rabs_pos_eq; lra.
Qed.

(** The float just above 4/3: rounding 1.5*x to 2.0 puts two non-zero digits side by side, although
    exact arithmetic would not (|x| >= 1: C50_csd_canonical_partial). *)
Theorem C86_float_canonical_refuted : forall log2, log2 (fmake 2 0) = fmake 1 0 ->
  ~ (forall (x : b64) places, is_finite x = true -> (0 <= places)%Z -> 1 <= Rabs (B2R x) <= 2 ->
       exists s, fto_csd log2 x places = Ok s /\ canonical s).
Proof.
  intros log2 Hl H. set (x := fmake 6004799503160662 (-52)).
  assert (Hx : B2R x = IZR 6004799503160662 * pow2 (-52) /\ is_finite x = true).
  { apply fmake_exact; [apply fmt_scaled; lia|]. rewrite Rabs_pos_eq by (apply Rmult_le_pos; [lra|apply bpow_ge_0]).
    change (pow2 (-52)) with (/ 4503599627370496). apply Rlt_trans with (pow2 1); [change (pow2 1) with 2; lra|apply bpow_lt; lia]. }
  destruct Hx as [Hx Hf]. destruct (H x 4%Z Hf ltac:(lia)) as (s & E & Hc).
  { rewrite Hx, Rabs_pos_eq by (apply Rmult_le_pos; [lra|apply bpow_ge_0]). change (pow2 (-52)) with (/ 4503599627370496). lra. }
  unfold fto_csd, fcsd_n in E. replace (feqb x fzero) with false in E by (vm_compute; reflexivity).
  replace (Bltb (Babs x) (fmake 1 0)) with false in E by (vm_compute; reflexivity).
  replace (fmul (Babs x) (fmake 3 (-1))) with (fmake 2 0) in E by (apply B2SF_inj; vm_compute; reflexivity).
  rewrite Hl in E. destruct fone as [H1 H1f]. rewrite H1f, H1 in E. change 1 with (IZR 1) in E. rewrite Zceil_IZR in E. cbn [bind] in E.
  vm_compute in E. injection E as <-.
  destruct (Hc [] cPlus cPlus [cZero; cMinus; cZero] eq_refl); discriminate.
Qed.
Print Assumptions C86_float_canonical_refuted.

(** ** C87: to_decimal on doubles *)
Theorem C87_float_to_decimal_exact : forall s, well_formed s -> (List.length (sdigits s) <= 53)%nat -> (List.length s <= 1022)%nat ->
  exists v, fto_decimal s = Ok v /\ is_finite v = true /\ B2R v = Q2R (csd_value s).
Proof.
  intros s Hwf Hd Hl.
  assert (Hb : forall p, (List.length p <= 53)%nat -> (Z.abs (sd_value p) <= 2 ^ 53)%Z).
  { intros p Hp. pose proof (sd_value_bound p). assert (2 ^ Z.of_nat (List.length p) <= 2 ^ 53)%Z by (apply Z.pow_le_mono_r; lia). lia. }
  apply fto_decimal_exact; [exact Hwf|lia| |].
  - intros p q E. apply fmt_Z, Hb. assert (List.length (sdigits s) = (List.length p + List.length q)%nat) by (rewrite E; apply app_length). lia.
  - rewrite csd_value_R. apply fmt_scaled; [apply Hb, Hd|]. unfold frac_len. destruct (after_point s) as [k|] eqn:Ek; [|lia].
    apply after_point_lt in Ek. lia.
Qed.
Print Assumptions C87_float_to_decimal_exact.
Theorem C87_float_to_decimal_rejects : forall s, ~ well_formed s -> fto_decimal s = Raise ValueError.
Proof. exact fto_decimal_bad. Qed.
Print Assumptions C87_float_to_decimal_rejects.
Example C87_ex : exists v, fto_decimal (chars_of "+00-00.+0"%string) = Ok v /\ B2SF v = B2SF (fmake 57 (-1)) /\
  fto_decimal (chars_of "+0x"%string) = Raise ValueError.
Proof. eexists. split; [reflexivity|]. split; vm_compute; reflexivity. Qed.

(** ** C88: to_csdfixed on doubles *)
Theorem C88_float_csdfixed : forall log2 (x : b64) m nnz, log2_within (1 / 2) log2 ->
  is_finite x = true -> (0 <= m <= 678)%Z -> (1 <= nnz)%Z -> Rabs (B2R x) <= 2 ^ Z.to_nat m ->
  exists s v, fto_csdfixed log2 x nnz = Ok s /\ well_formed s /\ (points s <= 1)%nat /\ (Z.of_nat (nonzeros s) <= nnz)%Z /\
    fto_decimal s = Ok v /\ is_finite v = true /\ B2R v = Q2R (csd_value s) /\
    (Rabs (B2R v - B2R x) <= / 10 ^ 100 * (1 + / 2 ^ 50) \/ Rabs (B2R v - B2R x) * 2 ^ Z.to_nat nnz <= Rabs (B2R x)).
Proof.
  intros log2 x m nnz Hlog Hf Hm Hz Hx.
  assert (Epow : forall z, (0 <= z)%Z -> 2 ^ Z.to_nat z = pow2 z).
  { intros z Hz'. rewrite pow_IZR, Z2Nat.id by exact Hz'. symmetry. apply pow2_IZR, Hz'. }
  rewrite Epow in * by lia. unfold fto_csdfixed. rewrite fzero_eqb by exact Hf. unfold Req_bool. destruct (Req_EM_T (B2R x) 0) as [E0|E0].
  - destruct str0_decimal as (v & Ev & Hvf & Hv). exists [cZero], v. split; [reflexivity|]. split; [repeat constructor|]. split; [cbn; lia|].
    split; [cbn; lia|]. split; [exact Ev|]. split; [exact Hvf|]. rewrite csd_value_0, Hv, E0. split; [reflexivity|].
    rewrite Rminus_0_r, Rabs_R0. right. lra.
  - destruct (fcsd_n_spec log2 x m Hlog Hf ltac:(lia) Hx) as (n & En & Hn & Hxn & _). rewrite En. cbn [bind].
    destruct (fto_csdfixed_from_spec n x nnz Hz ltac:(lia) Hf Hxn) as (s & v & E & H1 & H2 & H3 & H4 & H5 & H6 & H7).
    exists s, v. repeat (split; [assumption|]). destruct ftiny_R as (_ & _ & Ht). destruct H7 as [H7|H7]; [left|right; exact H7]. lra.
Qed.
Print Assumptions C88_float_csdfixed.
Example C88_ex : show (fto_csdfixed_from 6 (fmake 57 (-1)) 2) = Some "+00-00"%string /\
  show (fto_csdfixed_from 0 (fdiv (fmake 1 0) (fmake 10 0)) 3) = Some "0.00+0-0+"%string.
Proof. split; vm_compute; reflexivity. Qed.
