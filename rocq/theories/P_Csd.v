(** Proofs about M_Csd.v *)
From Coq Require Import Setoid Morphisms QArith Qabs Qround Qpower Lqa Ascii ZArith.
From Verif Require Import Base M_Csd S_Csd.
Local Open Scope Q_scope.

Lemma Qltb_true x y : Qltb x y = true <-> x < y.
Proof.
  unfold Qltb. rewrite negb_true_iff. split; intros H.
  - apply Qnot_le_lt. intros Hle. apply Qle_bool_iff in Hle. congruence.
  - destruct (Qle_bool y x) eqn:E; [|reflexivity]. apply Qle_bool_iff in E. lra.
Qed.
Lemma Qltb_false x y : Qltb x y = false <-> y <= x.
Proof. unfold Qltb. rewrite negb_false_iff. apply Qle_bool_iff. Qed.

Lemma Qabs_lt x y : Qabs x < y <-> - y < x /\ x < y.
Proof. apply (Qabs_case x (fun a => a < y <-> - y < x /\ x < y)); intros; split; intros; try split; lra. Qed.
Lemma Qabs_le x y : Qabs x <= y <-> - y <= x /\ x <= y.
Proof. apply (Qabs_case x (fun a => a <= y <-> - y <= x /\ x <= y)); intros; split; intros; try split; lra. Qed.

(** ** characters *)
Lemma sd_cases c : sd_char c = true -> c = "+"%char \/ c = "-"%char \/ c = "0"%char.
Proof.
  unfold sd_char. rewrite !orb_true_iff, !Ascii.eqb_eq. tauto.
Qed.
Lemma sd_not_point c : sd_char c = true -> is_point c = false.
Proof. intros H. apply sd_cases in H as [->|[->| ->]]; reflexivity. Qed.

(** ** reading strings *)
Definition wchar (c : ascii) : bool := (sd_char c || is_point c)%bool.
Lemma wf_wchar s : well_formed s <-> forallb wchar s = true.
Proof.
  unfold well_formed. rewrite Forall_forall, forallb_forall. unfold wchar.
  split; intros H c Hc; specialize (H c Hc); rewrite orb_true_iff in *; assumption.
Qed.

Lemma dec_loop_spec s : forall i dec loc,
  if forallb wchar s then exists d', dec_loop s i dec loc =
      Ok (d', match after_point s with Some k => (i + length s - k)%nat | None => loc end) /\
      d' == dec * inject_Z (2 ^ Z.of_nat (length (sdigits s))) + inject_Z (sd_value (sdigits s))
  else dec_loop s i dec loc = Raise ValueError.
Proof.
  induction s as [|c s IH]; intros i dec loc; cbn [forallb dec_loop].
  - exists dec. split; [reflexivity|]. cbn. ring.
  - assert (Hp : forall dd, sd_char c = true -> dec_loop (c :: s) i dec loc = dec_loop s (S i) dd loc ->
        dd == dec * 2 + inject_Z (dv c) ->
        if forallb wchar s then exists d', dec_loop (c :: s) i dec loc =
          Ok (d', match after_point (c :: s) with Some k => (i + length (c :: s) - k)%nat | None => loc end) /\
          d' == dec * inject_Z (2 ^ Z.of_nat (length (sdigits (c :: s)))) + inject_Z (sd_value (sdigits (c :: s)))
        else dec_loop (c :: s) i dec loc = Raise ValueError).
    { intros dd Hc E Hd. rewrite E. specialize (IH (S i) dd loc). destruct (forallb wchar s); [|assumption].
      destruct IH as (d' & E' & Hd'). exists d'. rewrite E'. pose proof (sd_not_point c Hc) as Hnp.
      split.
      - f_equal. f_equal. cbn [after_point length]. rewrite Hnp. destruct (after_point s); [lia|reflexivity].
      - rewrite Hd', Hd. unfold sdigits at 3 4. cbn [filter]. rewrite Hnp. cbn [negb length sd_value].
        fold (sdigits s). rewrite Nat2Z.inj_succ, Z.pow_succ_r by lia.
        rewrite inject_Z_plus, !inject_Z_mult. ring. }
    cbn [dec_loop] in Hp. unfold wchar at 1.
    change cPlus with "+"%char in *. change cMinus with "-"%char in *. change cZero with "0"%char in *.
    change cPoint with "."%char in *.
    destruct (Ascii.eqb_spec c "+") as [->|E1].
    { cbn [Ascii.eqb sd_char orb andb]. apply (Hp (dec * 2 + 1)); [reflexivity|reflexivity|].
      unfold dv. cbn [Ascii.eqb Bool.eqb]. change (inject_Z 1) with 1. ring. }
    destruct (Ascii.eqb_spec c "-") as [->|E2].
    { apply (Hp (dec * 2 - 1)); [reflexivity|reflexivity|]. change (inject_Z (dv "-")) with (-(1)). ring. }
    destruct (Ascii.eqb_spec c "0") as [->|E3].
    { apply (Hp (dec * 2)); [reflexivity|reflexivity|]. change (inject_Z (dv "0")) with 0. ring. }
    destruct (Ascii.eqb_spec c ".") as [->|E4].
    + cbn [sd_char Ascii.eqb Bool.eqb orb is_point andb].
      change (wchar "." && forallb wchar s)%bool with (forallb wchar s).
      specialize (IH (S i) (dec * 2 / 2) (S i)).
      destruct (forallb wchar s); [|assumption]. destruct IH as (d' & E' & Hd'). exists d'.
      cbn [after_point length]. change (is_point ".") with true. split.
      * rewrite E'. f_equal. f_equal. destruct (after_point s); lia.
      * rewrite Hd'. change (sdigits ("."%char :: s)) with (sdigits s). field.
    + replace (sd_char c) with false; [replace (is_point c) with false; [reflexivity|]|].
      * unfold is_point. symmetry. apply Ascii.eqb_neq. assumption.
      * unfold sd_char. symmetry. rewrite !orb_false_iff, !Ascii.eqb_neq. auto.
Qed.

Lemma after_point_le s k : after_point s = Some k -> (k < length s)%nat.
Proof.
  revert k. induction s as [|c s IH]; intros k H; cbn in *; [discriminate|].
  destruct (after_point s) as [k'|]; [injection H as <-; specialize (IH _ eq_refl); lia|].
  destruct (is_point c); [injection H as <-; lia|discriminate].
Qed.

Lemma to_decimal_ok s : well_formed s -> exists v, to_decimal s = Ok v /\ v == csd_value s.
Proof.
  intros H. apply wf_wchar in H. unfold to_decimal. pose proof (dec_loop_spec s 0 0 0) as Hs. rewrite H in Hs.
  destruct Hs as (d & E & Hd). rewrite E. cbn [bind]. unfold csd_value, frac_len.
  destruct (after_point s) as [k|] eqn:Ek.
  - pose proof (after_point_le s k Ek). destruct (Nat.eqb_spec (0 + length s - k) 0); [lia|].
    eexists. split; [reflexivity|].
    replace (Z.of_nat (length s) - Z.of_nat (0 + length s - k))%Z with (Z.of_nat k) by lia.
    rewrite Hd, Qmult_0_l, Qplus_0_l. change 2 with (inject_Z 2). rewrite <- Zpower_Qpower by lia. reflexivity.
  - cbn [Nat.eqb]. exists d. split; [reflexivity|]. rewrite Hd. cbn. field.
Qed.
Lemma to_decimal_bad s : ~ well_formed s -> to_decimal s = Raise ValueError.
Proof.
  intros H. rewrite wf_wchar in H. unfold to_decimal. pose proof (dec_loop_spec s 0 0 0) as Hs.
  destruct (forallb wchar s); [contradiction H; reflexivity|]. rewrite Hs. reflexivity.
Qed.

(** ** one digit *)
Lemma csd_digit_spec P dec : 0 < P ->
  let '(c, dec1) := csd_digit P dec in
  sd_char c = true /\ dec == inject_Z (dv c) * P + dec1 /\
  (dv c = 0%Z -> dec1 = dec /\ Qabs dec <= (2#3) * P) /\
  (dv c <> 0%Z -> (2#3) * P < Qabs dec /\
     (Qabs dec < 2 * P -> Qabs dec1 < P /\ Qabs dec1 * 2 < Qabs dec) /\ (Qabs dec <= (4#3) * P -> Qabs dec1 <= (1#3) * P)) /\
  (Qabs dec < 2 * P -> Qabs dec1 < P) /\
  (dv c = 0%Z <-> c = "0"%char).
Proof.
  intros HP. unfold csd_digit. cbv zeta.
  destruct (Qltb P ((3#2) * dec)) eqn:B1; [|destruct (Qltb ((3#2) * dec) (- P)) eqn:B2].
  - apply Qltb_true in B1. change (inject_Z (dv cPlus)) with 1. split; [reflexivity|].
    split; [ring|]. split; [discriminate|].
    assert (Ea : Qabs dec == dec) by (apply Qabs_pos; lra). rewrite Ea.
    assert (H1 : dec < 2 * P -> Qabs (dec - P) < P) by (intros; apply Qabs_lt; split; lra).
    split; [|split; [exact H1|split; discriminate]]. intros _. split; [lra|]. split.
    + intros H. split; [auto|]. apply (Qabs_case (dec - P) (fun a => a * 2 < dec)); intros; lra.
    + intros H. apply Qabs_le. split; lra.
  - apply Qltb_true in B2. change (inject_Z (dv cMinus)) with (-(1)). split; [reflexivity|].
    split; [ring|]. split; [discriminate|].
    assert (Ea : Qabs dec == - dec) by (apply Qabs_neg; lra). rewrite Ea.
    assert (H1 : - dec < 2 * P -> Qabs (dec + P) < P) by (intros; apply Qabs_lt; split; lra).
    split; [|split; [exact H1|split; discriminate]]. intros _. split; [lra|]. split.
    + intros H. split; [auto|]. apply (Qabs_case (dec + P) (fun a => a * 2 < - dec)); intros; lra.
    + intros H. apply Qabs_le. split; lra.
  - apply Qltb_false in B1. apply Qltb_false in B2. change (inject_Z (dv cZero)) with 0. split; [reflexivity|].
    assert (H : Qabs dec <= (2#3) * P) by (apply Qabs_le; split; lra).
    split; [ring|]. split; [auto|]. split; [intros E; exfalso; apply E; reflexivity|].
    split; [intros _; lra|]. split; reflexivity.
Qed.

(** ** digit lists *)
Fixpoint dsum (P : Q) (ds : chars) : Q :=
  match ds with [] => 0 | c :: r => inject_Z (dv c) * P + dsum (P / 2) r end.
Fixpoint ins (n : Z) (ds : chars) : chars :=
  match ds with
  | [] => []
  | c :: r => (if (n =? 0)%Z then [cPoint] else []) ++ c :: ins (n - 1) r
  end.
Fixpoint canon (ds : chars) : Prop :=
  match ds with
  | c :: r => match r with d :: _ => (dv c = 0%Z \/ dv d = 0%Z) | [] => True end /\ canon r
  | [] => True
  end.
Definition head0 (ds : chars) : Prop := match ds with [] => True | c :: _ => dv c = 0%Z end.
Definition alld (ds : chars) : Prop := Forall (fun c => sd_char c = true) ds.

Definition half (P : Q) (k : nat) : Q := P * / inject_Z (2 ^ Z.of_nat k).
Lemma half_S P k : half P (S k) == half (P / 2) k.
Proof.
  unfold half. rewrite Nat2Z.inj_succ, Z.pow_succ_r, inject_Z_mult by lia. change (inject_Z 2) with 2. field.
  intros H. assert (H0 : (0 < 2 ^ Z.of_nat k)%Z) by (apply Z.pow_pos_nonneg; lia). rewrite Zlt_Qlt, H in H0. apply (Qlt_irrefl _ H0).
Qed.
#[local] Instance half_proper : Proper (Qeq ==> eq ==> Qeq) half.
Proof. intros a b E k k' <-. unfold half. rewrite E. reflexivity. Qed.
Lemma half_0 P : half P 0 == P.
Proof. unfold half. cbn. field. Qed.

Lemma csd_loop_spec places : forall fuel n P dec,
  (Z.to_nat (n + places) < fuel)%nat -> 0 < P -> Qabs dec < 2 * P ->
  exists ds r, csd_loop fuel places n P dec = Ok (ins n ds) /\ alld ds /\
    length ds = Z.to_nat (n + places) /\ dec == dsum P ds + r /\
    Qabs r < half (2 * P) (length ds) /\
    (Qabs dec <= (4#3) * P -> canon ds /\ Qabs r <= half ((4#3) * P) (length ds)) /\
    (Qabs dec <= (2#3) * P -> head0 ds) /\
    ((2#3) * P < Qabs dec -> match ds with [] => True | c :: _ => dv c <> 0%Z end).
Proof.
  induction fuel as [|fuel IH]; intros n P dec Hf HP Hd; [lia|]. cbn [csd_loop].
  destruct (Z.ltb_spec (- places) n) as [Hn|Hn].
  - pose proof (csd_digit_spec P dec HP) as Hc. destruct (csd_digit P dec) as [c dec1].
    destruct Hc as (Hc & Hdec & Hz & Hnz & Hlt & _).
    destruct (IH (n - 1)%Z (P / 2) dec1) as (ds & r & E & Ha & Hl & Hs & Hr & Hcan & Hh0 & Hh1).
    { lia. } { apply Qlt_shift_div_l; lra. } { setoid_replace (2 * (P / 2)) with P by field. auto. }
    rewrite E. cbn [bind]. exists (c :: ds), r. split; [reflexivity|]. split; [constructor; assumption|].
    split; [cbn [length]; lia|]. split; [cbn [dsum]; rewrite Hdec, Hs at 1; ring|].
    split.
    { cbn [length]. rewrite half_S. setoid_replace (2 * P / 2) with (2 * (P / 2)) by field. assumption. }
    assert (EP : (4#3) * (P / 2) == (2#3) * P) by field.
    assert (EP2 : (2#3) * (P / 2) == (1#3) * P) by field.
    assert (EP3 : (4#3) * P / 2 == (4#3) * (P / 2)) by field.
    rewrite EP in Hcan. rewrite EP2 in Hh0.
    destruct (Z.eq_dec (dv c) 0) as [Ez|Ez].
    + destruct (Hz Ez) as [-> Hle]. destruct (Hcan Hle) as [H1 H2].
      split; [|split; [intros _; exact Ez|intros; lra]].
      intros _. split; [cbn [canon]; split; [destruct ds; auto|exact H1]|].
      cbn [length]. rewrite half_S, EP3, EP. exact H2.
    + destruct (Hnz Ez) as (Hgt & _ & H4). split; [|split; [intros; lra|intros _; exact Ez]].
      intros H. specialize (H4 H). destruct Hcan as [H1 H2]; [lra|]. split.
      * cbn [canon]. split; [|exact H1]. destruct ds as [|d ds']; [exact I|]. right. apply Hh0. exact H4.
      * cbn [length]. rewrite half_S, EP3, EP. exact H2.
  - exists [], dec. split; [reflexivity|]. split; [constructor|]. split; [cbn; lia|].
    split; [cbn; ring|]. cbn [length]. rewrite !half_0. split; [assumption|].
    split; [|split; intros; exact I]. intros H. split; [exact I|exact H].
Qed.

(** ** what the produced strings denote *)
Lemma sdigits_app a b : sdigits (a ++ b) = sdigits a ++ sdigits b.
Proof. apply filter_app. Qed.
Lemma sdigits_alld ds : alld ds -> sdigits ds = ds.
Proof.
  induction 1 as [|c ds Hc _ IH]; [reflexivity|]. cbn. rewrite (sd_not_point c Hc). cbn. f_equal. exact IH.
Qed.
Lemma sdigits_ins ds : alld ds -> forall n, sdigits (ins n ds) = ds.
Proof.
  induction 1 as [|c ds Hc _ IH]; intros n; [reflexivity|]. cbn [ins].
  assert (E : sdigits (c :: ins (n - 1) ds) = c :: ds).
  { unfold sdigits. cbn [filter]. rewrite (sd_not_point c Hc). cbn [negb]. f_equal. apply IH. }
  destruct (n =? 0)%Z; cbn [app]; [|exact E]. exact E.
Qed.
Lemma ins_len_neg ds : forall n, (n < 0)%Z -> ins n ds = ds.
Proof.
  induction ds as [|c ds IH]; intros n Hn; [reflexivity|]. cbn [ins].
  destruct (Z.eqb_spec n 0); [lia|]. cbn [app]. rewrite IH by lia. reflexivity.
Qed.
Lemma after_point_alld ds : alld ds -> after_point ds = None.
Proof.
  induction 1 as [|c ds Hc _ IH]; [reflexivity|]. cbn. rewrite IH, (sd_not_point c Hc). reflexivity.
Qed.
Lemma after_point_ins ds : alld ds -> forall n, (0 <= n)%Z ->
  after_point (ins n ds) = if (n <? Z.of_nat (length ds))%Z then Some (length ds - Z.to_nat n)%nat else None.
Proof.
  induction 1 as [|c ds Hc Ha IH]; intros n Hn; cbn [ins].
  - destruct (Z.ltb_spec n (Z.of_nat (@length ascii []))); [cbn in *; lia|reflexivity].
  - destruct (Z.eqb_spec n 0) as [->|Hz].
    + rewrite ins_len_neg by lia. cbn [app after_point]. rewrite (after_point_alld ds Ha), (sd_not_point c Hc).
      change (is_point cPoint) with true. cbn iota. cbn [length Z.of_nat Z.ltb Z.compare Z.to_nat Nat.sub].
      reflexivity.
    + cbn [app after_point]. rewrite IH by lia. rewrite (sd_not_point c Hc). cbn [length].
      destruct (Z.ltb_spec (n - 1) (Z.of_nat (length ds))), (Z.ltb_spec n (Z.of_nat (S (length ds)))); try lia.
      * f_equal. lia.
      * reflexivity.
Qed.
Lemma dsum_value ds : forall P,
  dsum P ds * inject_Z (2 ^ Z.of_nat (length ds)) == 2 * P * inject_Z (sd_value ds).
Proof.
  induction ds as [|c ds IH]; intros P; [cbn; ring|].
  cbn [dsum length sd_value]. rewrite Nat2Z.inj_succ, Z.pow_succ_r by lia.
  rewrite inject_Z_plus, !inject_Z_mult.
  setoid_replace ((inject_Z (dv c) * P + dsum (P / 2) ds) * (inject_Z 2 * inject_Z (2 ^ Z.of_nat (length ds))))
    with (2 * P * (inject_Z (dv c) * inject_Z (2 ^ Z.of_nat (length ds)))
          + 2 * (dsum (P / 2) ds * inject_Z (2 ^ Z.of_nat (length ds)))) by ring.
  rewrite IH. field.
Qed.
Lemma pow2_pos k : 0 < inject_Z (2 ^ Z.of_nat k).
Proof. rewrite <- (Zlt_Qlt 0). apply Z.pow_pos_nonneg; lia. Qed.

(** the value of a produced string; the optional "0" prefix adds nothing *)
Lemma ins_value n ds : alld ds -> (0 <= n <= Z.of_nat (length ds))%Z ->
  csd_value (ins n ds) == dsum (2 ^ (n - 1)) ds.
Proof.
  intros Ha Hn. unfold csd_value, frac_len. rewrite sdigits_ins, after_point_ins by (assumption || lia).
  assert (Ek : match (if (n <? Z.of_nat (length ds))%Z then Some (length ds - Z.to_nat n)%nat else None)
               with Some k => k | None => 0%nat end = (length ds - Z.to_nat n)%nat).
  { destruct (Z.ltb_spec n (Z.of_nat (length ds))); [reflexivity|lia]. }
  rewrite Ek.
  pose proof (dsum_value ds (2 ^ (n - 1))) as H.
  assert (E2 : 2 * 2 ^ (n - 1) == inject_Z (2 ^ n)).
  { rewrite Zpower_Qpower by lia. change (inject_Z 2) with 2.
    replace n with (1 + (n - 1))%Z at 2 by lia. rewrite Qpower_plus by discriminate.
    change (2 ^ 1) with 2. reflexivity. }
  rewrite E2 in H.
  replace (Z.of_nat (length ds)) with (n + Z.of_nat (length ds - Z.to_nat n))%Z in H by lia.
  rewrite Z.pow_add_r, inject_Z_mult in H by lia.
  assert (H1 := pow2_pos (length ds - Z.to_nat n)). assert (H2 := pow2_pos (Z.to_nat n)).
  rewrite Z2Nat.id in H2 by lia.
  apply Qmult_inj_r with (z := inject_Z (2 ^ n) * inject_Z (2 ^ Z.of_nat (length ds - Z.to_nat n))).
  - intros E. assert (0 < inject_Z (2 ^ n) * inject_Z (2 ^ Z.of_nat (length ds - Z.to_nat n))).
    { apply Qmult_lt_0_compat; assumption. } lra.
  - rewrite H. field. lra.
Qed.
Lemma value_zero_prefix s : csd_value (cZero :: s) == csd_value s.
Proof.
  unfold csd_value, frac_len. cbn [after_point]. change (is_point cZero) with false.
  change (sdigits (cZero :: s)) with (cZero :: sdigits s). cbn [sd_value].
  change (dv cZero) with 0%Z. rewrite Z.mul_0_l, Z.add_0_l.
  destruct (after_point s); reflexivity.
Qed.

Lemma wf_ins ds : alld ds -> forall n, well_formed (ins n ds).
Proof.
  unfold well_formed. induction 1 as [|c ds Hc _ IH]; intros n; cbn [ins]; [constructor|].
  destruct (n =? 0)%Z; cbn [app]; [constructor; [right; reflexivity|]|]; (constructor; [left; exact Hc|apply IH]).
Qed.
Lemma points_alld ds : alld ds -> points ds = 0%nat.
Proof. unfold points. induction 1 as [|c ds Hc _ IH]; [reflexivity|]. cbn. rewrite (sd_not_point c Hc). exact IH. Qed.
Lemma points_ins ds : alld ds -> forall n, (points (ins n ds) <= 1)%nat.
Proof.
  unfold points. induction 1 as [|c ds Hc Ha IH]; intros n; cbn [ins]; [cbn; lia|].
  destruct (Z.eqb_spec n 0) as [->|].
  - rewrite ins_len_neg by lia. cbn [app filter]. change (is_point cPoint) with true. cbn iota. cbn [filter].
    rewrite (sd_not_point c Hc). cbn [length]. pose proof (points_alld ds Ha) as H. unfold points in H. lia.
  - cbn [app filter]. rewrite (sd_not_point c Hc). apply IH.
Qed.
Lemma canon_canonical ds : alld ds -> canon ds -> forall n, canonical (ins n ds).
Proof.
  intros Ha Hc n s1 a b s2 E. rewrite sdigits_ins in E by assumption. subst ds. clear Ha.
  induction s1 as [|c s1 IH]; cbn [app canon] in Hc; [tauto|]. apply IH. apply Hc.
Qed.
Lemma canonical_zero_prefix s : canonical s -> canonical (cZero :: s).
Proof.
  intros H [|c s1] a b s2 E.
  - change (sdigits (cZero :: s)) with (cZero :: sdigits s) in E. injection E as <- E. left; reflexivity.
  - change (sdigits (cZero :: s)) with (cZero :: sdigits s) in E. injection E as <- E. apply (H s1 a b s2 E).
Qed.

(** ** the starting power *)
Lemma clog2_spec q : 1 < q -> (1 <= clog2 q)%Z /\ 2 ^ (clog2 q - 1) < q /\ q <= 2 ^ clog2 q.
Proof.
  intros Hq. unfold clog2. pose proof (Qle_ceiling q) as H1. pose proof (Qceiling_lt q) as H2.
  assert (Hc : (1 < Qceiling q)%Z) by (rewrite Zlt_Qlt; change (inject_Z 1) with 1; lra).
  destruct (Z.log2_up_spec _ Hc) as [H3 H4]. assert (H5 := Z.log2_up_pos _ Hc).
  split; [lia|]. change 2 with (inject_Z 2). rewrite <- !Zpower_Qpower by lia. split.
  - apply Qle_lt_trans with (inject_Z (Qceiling q - 1)); [|exact H2]. rewrite <- Zle_Qle.
    replace (Z.log2_up (Qceiling q) - 1)%Z with (Z.pred (Z.log2_up (Qceiling q))) by lia. lia.
  - apply Qle_trans with (inject_Z (Qceiling q)); [exact H1|]. rewrite <- Zle_Qle. exact H4.
Qed.
Lemma csd_n_spec x : ~ x == 0 ->
  (Qabs x < 1 -> csd_n x = 0%Z) /\
  (1 <= Qabs x -> (1 <= csd_n x)%Z /\ (2#3) * 2 ^ (csd_n x - 1) < Qabs x /\ Qabs x <= (4#3) * 2 ^ (csd_n x - 1)).
Proof.
  intros Hx. unfold csd_n. split; intros H.
  - apply Qltb_true in H. rewrite H. reflexivity.
  - destruct (Qltb (Qabs x) 1) eqn:B; [apply Qltb_true in B; lra|].
    destruct (clog2_spec (Qabs x * (3#2))) as (H1 & H2 & H3); [lra|]. split; [assumption|].
    assert (E : 2 ^ clog2 (Qabs x * (3 # 2)) == 2 * 2 ^ (clog2 (Qabs x * (3 # 2)) - 1)).
    { replace (clog2 (Qabs x * (3 # 2))) with (1 + (clog2 (Qabs x * (3 # 2)) - 1))%Z at 1 by lia.
      rewrite Qpower_plus by discriminate. reflexivity. }
    rewrite E in H3. split; lra.
Qed.
Lemma pow_pos n : 0 < 2 ^ n.
Proof. apply Qpower_0_lt. reflexivity. Qed.
Lemma pow_S n : 2 * 2 ^ (n - 1) == 2 ^ n.
Proof.
  replace n with (1 + (n - 1))%Z at 2 by lia. rewrite Qpower_plus by discriminate. reflexivity.
Qed.

(** ** to_csd: everything about the output *)
Lemma half_pow n places : (0 <= n)%Z -> (0 <= places)%Z ->
  half (2 * 2 ^ (n - 1)) (Z.to_nat (n + places)) == / inject_Z (2 ^ places).
Proof.
  intros Hn Hp. unfold half. rewrite Z2Nat.id by lia. rewrite pow_S.
  change (2 ^ n) with (inject_Z 2 ^ n). rewrite <- Zpower_Qpower by lia.
  rewrite Z.pow_add_r, inject_Z_mult by lia.
  assert (H1 := pow2_pos (Z.to_nat n)). rewrite Z2Nat.id in H1 by lia.
  assert (H2 := pow2_pos (Z.to_nat places)). rewrite Z2Nat.id in H2 by lia.
  field. split; lra.
Qed.

Lemma to_csd_from_spec n x places : (0 <= places)%Z -> (0 <= n)%Z -> Qabs x < 2 ^ n ->
  exists s r ds, to_csd_from n x places = Ok s /\
    s = (if Qltb (Qabs x) 1 then [cZero] else []) ++ ins n ds /\ alld ds /\
    length ds = Z.to_nat (n + places) /\
    x == csd_value s + r /\
    Qabs r < / inject_Z (2 ^ places) /\
    (Qabs x <= (2#3) * 2 ^ n -> canon ds /\ Qabs r <= (2#3) * / inject_Z (2 ^ places)) /\
    ((2#3) * 2 ^ (n - 1) < Qabs x -> match ds with [] => True | c :: _ => dv c <> 0%Z end).
Proof.
  intros Hp Hn Hx. unfold to_csd_from.
  destruct (csd_loop_spec places (S (Z.to_nat (n + places))) n (2 ^ (n - 1)) x) as (ds & r & E & Ha & Hl & Hd & Hr & Hc & _ & Hh).
  { lia. } { apply pow_pos. } { rewrite pow_S. exact Hx. }
  rewrite E. cbn [bind]. eexists _, r, ds. split; [reflexivity|]. split; [reflexivity|].
  split; [assumption|]. split; [assumption|].
  assert (Ev : csd_value ((if Qltb (Qabs x) 1 then [cZero] else []) ++ ins n ds) == dsum (2 ^ (n - 1)) ds).
  { rewrite <- ins_value by (assumption || lia). destruct (Qltb (Qabs x) 1); cbn [app]; [apply value_zero_prefix|reflexivity]. }
  rewrite Ev. split; [exact Hd|]. rewrite Hl in *. rewrite half_pow in Hr by assumption. split; [exact Hr|].
  split; [|exact Hh].
  intros H. destruct Hc as [H1 H2]; [rewrite <- pow_S in H; lra|]. split; [exact H1|].
  assert (EH : half ((4#3) * 2 ^ (n - 1)) (Z.to_nat (n + places)) == (2#3) * half (2 * 2 ^ (n - 1)) (Z.to_nat (n + places)))
    by (unfold half; ring).
  rewrite EH, half_pow in H2 by assumption. exact H2.
Qed.
