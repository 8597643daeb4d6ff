(** The van der Corput loop in binary64. *)
From Coq Require Import ZArith Reals Lra Lia Bool Psatz.
From Flocq Require Import Core.Core IEEE754.BinarySingleNaN.
From Verif Require Import Base S_LinAlg P_LinAlg S_LowDiscr M_Misc M_LowDiscr P_LowDiscr M_Float P_Float P_Float2.
Local Open Scope R_scope.

Lemma fofZ_R z : (Z.abs z <= 2 ^ 53)%Z -> B2R (nofZ z : b64) = IZR z /\ is_finite (nofZ z : b64) = true.
Proof.
  intros H. change (nofZ z : b64) with (fmake z 0).
  replace (IZR z) with (IZR z * pow2 0) by (cbn; ring). apply fmake_exact.
  - apply fmt_scaled; lia.
  - change (pow2 0) with 1. rewrite Rmult_1_r, <- abs_IZR. apply Rle_lt_trans with (IZR (2 ^ 53)); [apply IZR_le; exact H|].
    change (IZR (2 ^ 53)) with (pow2 53). apply bpow_lt; lia.
Qed.
Lemma fmul_Z (x y : b64) a b : is_finite x = true -> is_finite y = true -> B2R x = IZR a -> B2R y = IZR b ->
  (Z.abs (a * b) <= 2 ^ 53)%Z -> B2R (fmul x y) = IZR (a * b) /\ is_finite (fmul x y) = true.
Proof.
  intros Hx Hy Ex Ey H. rewrite mult_IZR, <- Ex, <- Ey. apply fmul_exact; try assumption; rewrite Ex, Ey, <- mult_IZR.
  - apply fmt_Z, H.
  - rewrite <- abs_IZR. apply Rle_lt_trans with (IZR (2 ^ 53)); [apply IZR_le; exact H|].
    change (IZR (2 ^ 53)) with (pow2 53). apply bpow_lt; lia.
Qed.

(** the quotient of a step, for any base *)
Lemma fquot (rem den : b64) r D : is_finite rem = true -> is_finite den = true -> B2R rem = IZR r -> B2R den = IZR D ->
  (0 <= r < D)%Z -> exists q, ndiv rem den = Ok q /\ is_finite q = true /\ B2R q = rnd (IZR r / IZR D) /\ 0 <= IZR r / IZR D < 1.
Proof.
  intros Hr Hd Er Ed Hrd. assert (HD : 0 < IZR D) by (apply IZR_lt; lia).
  assert (H01 : 0 <= IZR r / IZR D < 1).
  { destruct Hrd as [A1 A2]. apply IZR_le in A1. apply IZR_lt in A2. split.
    - apply Rmult_le_pos; [exact A1|]. left; apply Rinv_0_lt_compat, HD.
    - apply Rmult_lt_reg_r with (IZR D); [exact HD|]. unfold Rdiv. rewrite Rmult_assoc, Rinv_l by lra. lra. }
  exists (fdiv rem den). split; [apply fdivr_ok; [exact Hd|lra]|].
  destruct (fdiv_rnd rem den Hr) as [E F]; [lra| |rewrite Er, Ed in E; auto].
  rewrite Er, Ed, Rabs_pos_eq by lra. change (pow2 1023) with (pow2 (1 + 1022)).
  apply Rle_trans with (pow2 0); [cbn; lra|apply bpow_le; lia].
Qed.

Lemma IZR_pow2 e : (0 <= e)%Z -> IZR (2 ^ e) = pow2 e.
Proof. intros H. rewrite <- (IZR_Zpower radix2) by exact H. reflexivity. Qed.

(** base 2: no rounding error at all for at most 53 digits *)
Lemma fvdc_loop_2 : forall m fuel k (i : nat) N (v d : b64), (m <= fuel)%nat -> (0 <= k < 2 ^ Z.of_nat m)%Z -> (i + m <= 53)%nat ->
  is_finite v = true -> is_finite d = true -> B2R v = IZR N * pow2 (- Z.of_nat i) -> (0 <= N < 2 ^ Z.of_nat i)%Z -> B2R d = IZR (2 ^ Z.of_nat i) ->
  exists r, vdc_loop fuel k 2 v d = Ok r /\ is_finite r = true /\ B2R r = B2R v + phi 2 k m * pow2 (- Z.of_nat i).
Proof.
  induction m as [|m IH]; intros fuel k i N v d Hf Hk Him Fv Fd Ev HN Ed.
  - assert (k = 0)%Z as -> by (cbn in Hk; lia). exists v. destruct fuel; cbn [vdc_loop Z.eqb]; (split; [reflexivity|]); split; [exact Fv| |exact Fv|];
      unfold phi; cbn [rsum]; ring.
  - destruct (Z.eqb_spec k 0) as [->|Hk0].
    { exists v. rewrite phi_0 by lia. destruct fuel; cbn [vdc_loop Z.eqb]; (split; [reflexivity|]); split; try exact Fv; ring. }
    destruct fuel as [|fuel]; [lia|]. cbn [vdc_loop].
    destruct (Z.eqb_spec k 0) as [|_]; [lia|]. destruct (Z.eqb_spec 2 0) as [|_]; [lia|].
    assert (P53 : (2 ^ Z.of_nat i * 2 <= 2 ^ 53)%Z).
    { replace (2 ^ Z.of_nat i * 2)%Z with (2 ^ (Z.of_nat i + 1))%Z by (rewrite Z.pow_add_r by lia; reflexivity). apply Z.pow_le_mono_r; lia. }
    assert (Pi : (0 < 2 ^ Z.of_nat i)%Z) by (apply Z.pow_pos_nonneg; lia).
    destruct (fofZ_R 2 ltac:(lia)) as [E2 F2].
    destruct (fmul_Z d (nofZ 2) _ _ Fd F2 Ed E2 ltac:(lia)) as [Ed' Fd'].
    assert (Hr := Z.mod_pos_bound k 2 ltac:(lia)).
    destruct (fofZ_R (k mod 2) ltac:(lia)) as [Er Fr].
    assert (EdS : B2R (fmul d (nofZ 2)) = IZR (2 ^ Z.of_nat (S i))).
    { rewrite Ed'. f_equal. rewrite Nat2Z.inj_succ, Z.pow_succ_r by lia. ring. }
    set (q := (k mod 2)%Z) in *.
    destruct (fquot (nofZ q) (fmul d (nofZ 2)) q (2 ^ Z.of_nat (S i)) Fr Fd' Er EdS) as (f & Ef & Ff & Rf & _).
    { rewrite Nat2Z.inj_succ, Z.pow_succ_r by lia. lia. }
    change (nmul d (nofZ 2)) with (fmul d (nofZ 2)). rewrite Ef. cbn [bind].
    assert (Eq : IZR q / IZR (2 ^ Z.of_nat (S i)) = IZR q * pow2 (- Z.of_nat (S i))).
    { rewrite IZR_pow2 by lia. rewrite bpow_opp. reflexivity. }
    rewrite Eq, round_generic in Rf; [|typeclasses eauto|apply fmt_scaled; lia].
    assert (Esum : B2R v + B2R f = IZR (2 * N + q) * pow2 (- Z.of_nat (S i))).
    { rewrite Ev, Rf, plus_IZR, mult_IZR.
      replace (- Z.of_nat i)%Z with (1 + - Z.of_nat (S i))%Z by lia. rewrite bpow_plus. change (pow2 1) with 2. ring. }
    assert (HNS : (0 <= 2 * N + q < 2 ^ Z.of_nat (S i))%Z) by (rewrite Nat2Z.inj_succ, Z.pow_succ_r by lia; lia).
    destruct (fadd_exact v f Fv Ff) as [Ea Fa].
    + rewrite Esum. apply fmt_scaled; [|lia]. rewrite Nat2Z.inj_succ, Z.pow_succ_r in HNS by lia. lia.
    + rewrite Esum. rewrite Rabs_pos_eq.
      * apply Rlt_le_trans with (IZR (2 ^ Z.of_nat (S i)) * pow2 (- Z.of_nat (S i))).
        -- apply Rmult_lt_compat_r; [apply bpow_gt_0|apply IZR_lt; lia].
        -- rewrite IZR_pow2, <- bpow_plus by lia. apply bpow_le. lia.
      * apply Rmult_le_pos; [apply IZR_le; lia|apply bpow_ge_0].
    + change (nadd v f) with (fadd v f).
      destruct (IH fuel (k / 2)%Z (S i) (2 * N + q)%Z (fadd v f) (fmul d (nofZ 2))) as (r & Eqr & Fr' & Err).
      * lia.
      * rewrite Nat2Z.inj_succ, Z.pow_succ_r in Hk by lia. split; [apply Z.div_pos; lia|apply Z.div_lt_upper_bound; lia].
      * lia.
      * exact Fa.
      * exact Fd'.
      * rewrite Ea; exact Esum.
      * exact HNS.
      * exact EdS.
      * exists r. split; [exact Eqr|]. split; [exact Fr'|]. rewrite Err, Ea, Rf. rewrite phi_S by lia. fold q.
        replace (- Z.of_nat i)%Z with (1 + - Z.of_nat (S i))%Z by lia. rewrite (bpow_plus radix2 1). change (pow2 1) with 2.
        field.
Qed.

(** any base: at most 2^-52 per digit as long as the last denominator is below 2^53 *)
Lemma fvdc_loop_err b : (2 <= b)%Z -> forall m fuel k (i : nat) x (v d : b64), (m <= fuel)%nat -> (0 <= k < b ^ Z.of_nat m)%Z ->
  (b ^ Z.of_nat (i + m) <= 2 ^ 53)%Z -> is_finite v = true -> is_finite d = true -> B2R d = IZR (b ^ Z.of_nat i) ->
  0 <= B2R v -> 0 <= x <= 1 - / IZR (b ^ Z.of_nat i) -> Rabs (B2R v - x) <= INR i * pow2 (-52) -> (i + m <= 53)%nat ->
  exists r, vdc_loop fuel k b v d = Ok r /\ is_finite r = true /\ 0 <= B2R r /\
    Rabs (B2R r - (x + phi b k m / IZR (b ^ Z.of_nat i))) <= INR (i + m) * pow2 (-52).
Proof.
  intros Hb. induction m as [|m IH]; intros fuel k i x v d Hf Hk Hpow Fv Fd Ed Hv0 Hx Herr Him.
  - assert (k = 0)%Z as -> by (cbn in Hk; lia). exists v.
    replace (x + phi b 0 0 / IZR (b ^ Z.of_nat i)) with x by (unfold phi; cbn [rsum]; unfold Rdiv; ring).
    rewrite Nat.add_0_r. destruct fuel; cbn [vdc_loop Z.eqb]; auto.
  - assert (Hmono : INR i * pow2 (-52) <= INR (i + S m) * pow2 (-52)).
    { apply Rmult_le_compat_r; [apply bpow_ge_0|apply le_INR; lia]. }
    destruct (Z.eqb_spec k 0) as [->|Hk0].
    { exists v. rewrite phi_0 by lia. replace (x + 0 / IZR (b ^ Z.of_nat i)) with x by (unfold Rdiv; ring).
      destruct fuel; cbn [vdc_loop Z.eqb]; (split; [reflexivity|]); (split; [exact Fv|]); split; try exact Hv0; lra. }
    destruct fuel as [|fuel]; [lia|]. cbn [vdc_loop].
    destruct (Z.eqb_spec k 0) as [|_]; [lia|]. destruct (Z.eqb_spec b 0) as [|_]; [lia|].
    assert (PS : (b ^ Z.of_nat (S i) = b ^ Z.of_nat i * b)%Z) by (rewrite Nat2Z.inj_succ, Z.pow_succ_r by lia; ring).
    assert (Pi := bpow_pos b i Hb).
    assert (P53 : (b ^ Z.of_nat i * b <= 2 ^ 53)%Z).
    { rewrite <- PS. eapply Z.le_trans; [|exact Hpow]. apply Z.pow_le_mono_r; lia. }
    assert (Hb53 : (b <= 2 ^ 53)%Z) by nia.
    destruct (fofZ_R b ltac:(lia)) as [E2 F2].
    destruct (fmul_Z d (nofZ b) _ _ Fd F2 Ed E2 ltac:(nia)) as [Ed' Fd'].
    assert (Hr := Z.mod_pos_bound k b ltac:(lia)).
    destruct (fofZ_R (k mod b) ltac:(lia)) as [Er Fr].
    set (q := (k mod b)%Z) in *.
    destruct (fquot (nofZ q) (fmul d (nofZ b)) q _ Fr Fd' Er Ed') as (f & Ef & Ff & Rf & Hq01); [nia|].
    change (nmul d (nofZ b)) with (fmul d (nofZ b)). rewrite Ef. cbn [bind].
    set (D := (b ^ Z.of_nat i * b)%Z) in *.
    assert (HDp : 0 < IZR D) by (apply IZR_lt; unfold D; nia).
    assert (HIp : 0 < IZR (b ^ Z.of_nat i)) by (apply IZR_lt, Pi).
    assert (HBp : 0 < IZR b) by (apply IZR_lt; lia).
    assert (ED : IZR D = IZR (b ^ Z.of_nat i) * IZR b) by (unfold D; apply mult_IZR).
    (* new partial sum *)
    set (x' := x + IZR q / IZR D).
    assert (Hx' : 0 <= x' <= 1 - / IZR D).
    { unfold x'. split; [lra|].
      assert (IZR q <= IZR b - 1) by (rewrite <- minus_IZR; apply IZR_le; lia).
      assert (IZR q / IZR D <= (IZR b - 1) / IZR D) by (apply Rmult_le_compat_r; [left; apply Rinv_0_lt_compat, HDp|lra]).
      assert ((IZR b - 1) / IZR D = / IZR (b ^ Z.of_nat i) - / IZR D).
      { rewrite ED. field. split; lra. }
      lra. }
    assert (HiD : 0 < / IZR D) by (apply Rinv_0_lt_compat, HDp).
    assert (Ee : Rabs (B2R f - IZR q / IZR D) <= pow2 (-54)).
    { rewrite Rf. apply (rnd_err (IZR q / IZR D) 0); [rewrite Rabs_pos_eq; cbn; lra|lia]. }
    assert (Hf0 : 0 <= B2R f).
    { rewrite Rf. apply rnd_ge; [lra|apply generic_format_0]. }
    assert (Hsmall : INR i * pow2 (-52) <= 53 * pow2 (-52)).
    { apply Rmult_le_compat_r; [apply bpow_ge_0|]. replace 53 with (INR 53) by (cbn; ring). apply le_INR; lia. }
    assert (P52 : pow2 (-52) = / 4503599627370496) by reflexivity.
    assert (P54 : pow2 (-54) = / 4 * pow2 (-52)).
    { change (pow2 (-54)) with (pow2 (-2 + -52)). rewrite bpow_plus. reflexivity. }
    assert (Hsum : 0 <= B2R v + B2R f < 2).
    { split; [lra|]. apply Rabs_le_inv in Herr, Ee. unfold x' in Hx'. rewrite P54, P52 in *. lra. }
    destruct (fadd_rnd v f Fv Ff) as [Ea Fa].
    { rewrite Rabs_pos_eq by lra. apply Rle_trans with (pow2 1); [cbn; lra|apply bpow_le; lia]. }
    assert (Eadd : Rabs (B2R (fadd v f) - (B2R v + B2R f)) <= pow2 (-53)).
    { rewrite Ea. apply (rnd_err (B2R v + B2R f) 1); [rewrite Rabs_pos_eq by lra; cbn; lra|lia]. }
    assert (Ha0 : 0 <= B2R (fadd v f)).
    { rewrite Ea. apply rnd_ge; [lra|apply generic_format_0]. }
    assert (P53' : pow2 (-53) = / 2 * pow2 (-52)).
    { change (pow2 (-53)) with (pow2 (-1 + -52)). rewrite bpow_plus. reflexivity. }
    assert (Enew : Rabs (B2R (fadd v f) - x') <= INR (S i) * pow2 (-52)).
    { rewrite S_INR. apply Rabs_le. apply Rabs_le_inv in Eadd, Ee, Herr. unfold x'. rewrite P53', P54 in *. assert (PP := bpow_ge_0 radix2 (-52)). lra. }
    change (nadd v f) with (fadd v f).
    destruct (IH fuel (k / b)%Z (S i) x' (fadd v f) (fmul d (nofZ b))) as (r & Eqr & Fr' & Hr0 & Err).
    + lia.
    + rewrite Nat2Z.inj_succ, Z.pow_succ_r in Hk by lia. split; [apply Z.div_pos; lia|apply Z.div_lt_upper_bound; lia].
    + replace (S i + m)%nat with (i + S m)%nat by lia. exact Hpow.
    + exact Fa.
    + exact Fd'.
    + rewrite Ed', PS. reflexivity.
    + exact Ha0.
    + rewrite PS. exact Hx'.
    + exact Enew.
    + lia.
    + exists r. split; [exact Eqr|]. split; [exact Fr'|]. split; [exact Hr0|].
      replace (i + S m)%nat with (S i + m)%nat by lia.
      replace (x + phi b k (S m) / IZR (b ^ Z.of_nat i)) with (x' + phi b (k / b) m / IZR (b ^ Z.of_nat (S i))); [exact Err|].
      rewrite phi_S by lia. rewrite PS. fold D. unfold x'. fold q. rewrite ED. field. split; lra.
Qed.
