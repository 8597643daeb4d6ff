(** C165, C166: src/csdigit.m *)
From Coq Require Import Setoid Morphisms QArith Qabs Qround Qpower Lqa Ascii String ZArith List Bool Lia.
From Verif Require Import Base M_Csd M_Csdigit S_Csd P_Csd P_Csd2 P_Csdigit T_Csd.
From Verif Require P_CsdF.
Import ListNotations.
Local Open Scope Q_scope.

(** ** specification *)
(** a digit text with only its '+' (its '-') digits kept *)
Definition plus_part (s : list ascii) : list ascii := map (fun c => if Ascii.eqb c "-" then "0"%char else c) s.
Definition minus_part (s : list ascii) : list ascii := map (fun c => if Ascii.eqb c "+" then "0"%char else c) s.
(** |x| in units of 2^-res, rounded down *)
Definition units (x : Q) (res : Z) : Z := Qfloor (Qabs x * inject_Z (2 ^ res)).
(** x rounded toward 0 to a multiple of 2^-res *)
Definition trunc (x : Q) (res : Z) : Q := (if Qlt_le_dec x 0 then -1 else 1) * inject_Z (units x res) / inject_Z (2 ^ res).
(** leading zeros dropped *)
Fixpoint strip0 (s : list ascii) : list ascii :=
  match s with c :: r => if Ascii.eqb c "0" then strip0 r else s | [] => [] end.

(** ** proofs *)
Lemma flip_dv c : sd_char c = true -> dv (flip_char c) = (- dv c)%Z /\ sd_char (flip_char c) = true.
Proof. intros H. destruct (sd_cases c H) as [->|[->| ->]]; split; reflexivity. Qed.
Lemma flip_alld ds : alld ds -> alld (map flip_char ds).
Proof. induction 1; cbn; constructor; auto. apply flip_dv; assumption. Qed.
Lemma flip_value ds : alld ds -> sd_value (map flip_char ds) = (- sd_value ds)%Z.
Proof.
  induction 1 as [|c ds Hc _ IH]; [reflexivity|]. cbn [map sd_value]. rewrite IH, map_length.
  rewrite (proj1 (flip_dv c Hc)). lia.
Qed.
Definition canl (ds : chars) : Prop := forall s1 a b s2, ds = s1 ++ a :: b :: s2 -> dv a = 0%Z \/ dv b = 0%Z.
Lemma flip_canl ds : alld ds -> canl ds -> canl (map flip_char ds).
Proof.
  intros Ha H s1 a b s2 E.
  assert (Ed : ds = map flip_char (map flip_char ds)).
  { clear -Ha. induction Ha as [|c ds Hc _ IH]; [reflexivity|]. cbn [map]. rewrite <- IH.
    destruct (sd_cases c Hc) as [->|[->| ->]]; reflexivity. }
  rewrite E, map_app in Ed. cbn [map] in Ed.
  assert (F : Forall (fun c => sd_char c = true) (s1 ++ a :: b :: s2)) by (rewrite <- E; apply flip_alld, Ha).
  apply Forall_app in F. destruct F as (_ & F). specialize (H _ _ _ _ Ed). inversion F as [|? ? Fa F']; subst. inversion F' as [|? ? Fb _]; subst.
  destruct H as [D|D]; [left|right].
  - rewrite (proj1 (flip_dv a Fa)) in D. lia.
  - rewrite (proj1 (flip_dv b Fb)) in D. lia.
Qed.
Lemma split_sdigits a b : alld a -> alld b -> sdigits (a ++ cPoint :: b) = a ++ b.
Proof.
  intros Ha Hb. rewrite sdigits_app. change (sdigits (cPoint :: b)) with (sdigits b). rewrite !sdigits_alld by assumption. reflexivity.
Qed.
Lemma split_frac a b : alld b -> frac_len (a ++ cPoint :: b) = List.length b.
Proof.
  intros Hb. unfold frac_len. assert (H : after_point (cPoint :: b) = Some (List.length b)).
  { cbn [after_point]. rewrite (after_point_alld b Hb). reflexivity. }
  induction a as [|c a IH]; cbn [app]; [rewrite H; reflexivity|]. cbn [after_point].
  destruct (after_point (a ++ cPoint :: b)) as [k|] eqn:E; [exact IH|]. exfalso. clear IH.
  revert E. induction a as [|d a IHa]; cbn [app]; [rewrite H; discriminate|]. cbn [after_point].
  destruct (after_point (a ++ cPoint :: b)); [discriminate|]. intros _. apply IHa. reflexivity.
Qed.
Lemma split_wf a b : alld a -> alld b -> well_formed (a ++ cPoint :: b).
Proof.
  intros Ha Hb. unfold well_formed. apply Forall_app. split; [eapply Forall_impl; [|exact Ha]; cbn; auto|].
  constructor; [right; reflexivity|]. eapply Forall_impl; [|exact Hb]; cbn; auto.
Qed.
Lemma plus_alld ds : alld ds -> alld (plus_part ds).
Proof. induction 1 as [|c ds Hc _ IH]; cbn; constructor; auto. destruct (sd_cases c Hc) as [->|[->| ->]]; reflexivity. Qed.
Lemma minus_alld ds : alld ds -> alld (minus_part ds).
Proof. induction 1 as [|c ds Hc _ IH]; cbn; constructor; auto. destruct (sd_cases c Hc) as [->|[->| ->]]; reflexivity. Qed.
Lemma plus_sdl n m L : plus_part (sdl n m L) = sdl n 0 L.
Proof.
  induction L as [|L IH]; [reflexivity|]. cbn [sdl plus_part map]. unfold plus_part in IH. rewrite IH. f_equal.
  unfold ch. rewrite Z.bits_0. destruct (Z.testbit n _); [reflexivity|]. destruct (Z.testbit m _); reflexivity.
Qed.
Lemma minus_sdl n m L : sep n m -> minus_part (sdl n m L) = sdl 0 m L.
Proof.
  intros S. induction L as [|L IH]; [reflexivity|]. cbn [sdl minus_part map]. unfold minus_part in IH. rewrite IH. f_equal.
  assert (SL := S (Z.of_nat L)).
  unfold ch. rewrite Z.bits_0. destruct (Z.testbit n _), (Z.testbit m _); try reflexivity. destruct (SL eq_refl); discriminate.
Qed.
Lemma plus_flip ds : alld ds -> plus_part (map flip_char ds) = map flip_char (minus_part ds).
Proof.
  induction 1 as [|c ds Hc _ IH]; [reflexivity|]. unfold plus_part, minus_part in *. cbn [map]. rewrite IH. f_equal.
  destruct (sd_cases c Hc) as [->|[->| ->]]; reflexivity.
Qed.
Lemma minus_flip ds : alld ds -> minus_part (map flip_char ds) = map flip_char (plus_part ds).
Proof.
  induction 1 as [|c ds Hc _ IH]; [reflexivity|]. unfold plus_part, minus_part in *. cbn [map]. rewrite IH. f_equal.
  destruct (sd_cases c Hc) as [->|[->| ->]]; reflexivity.
Qed.
Lemma sep_0 n : sep n 0.
Proof. intros j. rewrite Z.bits_0. discriminate. Qed.
Lemma sep_l n m : sep n m -> sep 0 m.
Proof. intros S j H. rewrite !Z.bits_0. destruct (S j H) as (_ & _ & _ & ?). auto. Qed.

Lemma pow_inj k : (0 <= k)%Z -> 2 ^ k == inject_Z (2 ^ k).
Proof. intros H. rewrite Zpower_Qpower by exact H. reflexivity. Qed.
Lemma pow_neg k : (0 <= k)%Z -> 2 ^ (- k) == / inject_Z (2 ^ k).
Proof. intros H. rewrite Qpower_opp, pow_inj by exact H. reflexivity. Qed.
Lemma injp k : (0 <= k)%Z -> 0 < inject_Z (2 ^ k).
Proof. intros H. rewrite <- (Zlt_Qlt 0). apply p2_pos, H. Qed.
Lemma units_eq x res : (0 <= res)%Z -> Qfloor (Qabs x / 2 ^ (- res)) = units x res.
Proof.
  intros H. unfold units. apply Qfloor_comp. rewrite pow_neg by exact H. assert (P := injp res H). field. lra.
Qed.
Lemma units_nonneg x res : (0 <= res)%Z -> (0 <= units x res)%Z.
Proof.
  intros H. unfold units. change 0%Z with (Qfloor 0). apply Qfloor_resp_le. apply Qmult_le_0_compat; [apply Qabs_nonneg|].
  assert (P := injp res H). lra.
Qed.
Lemma units_bound x res : (0 <= res)%Z ->
  inject_Z (units x res) <= Qabs x * inject_Z (2 ^ res) < inject_Z (units x res) + 1.
Proof.
  intros H. unfold units. split; [apply Qfloor_le|]. assert (L := Qlt_floor (Qabs x * inject_Z (2 ^ res))).
  rewrite inject_Z_plus in L. exact L.
Qed.

(** what is computed before the digits are put together *)
Lemma csdigit_core x range res b : (0 <= range)%Z -> (0 <= res)%Z -> (0 <= b)%Z ->
  (units x res = 0%Z -> x == 0) -> (units x res <= 2 ^ (range + res))%Z ->
  ((units x res < 2 ^ b)%Z \/ (no_pair (units x res) /\ (units x res < 2 ^ (b + 1))%Z)) ->
  exists n m, let L := len (range + res) n in let k := (L - Z.to_nat res)%nat in
    let D := if Qltb x 0 then map flip_char (sdl n m L) else sdl n m L in
    let p := inject_Z n * 2 ^ (- res) in let q := inject_Z m * 2 ^ (- res) in
    exists r, csdigit x range res = Ok r /\
      cd_digits r = firstn k D ++ cPoint :: skipn k D /\
      cd_pos r = (if Qltb x 0 then q else p) /\ cd_neg r = (if Qltb x 0 then p else q) /\
      cd_err r = x - (cd_pos r - cd_neg r) /\
      cd_lost r = negb (Qeq_bool (Qabs x / 2 ^ (- res)) (inject_Z (units x res))) /\
      cd_over r = (range <? Z.of_nat L - res)%Z /\
      (Z.to_nat res <= L)%nat /\ (range + res <= Z.of_nat L)%Z /\
      (0 <= m <= n)%Z /\ (n - m = units x res)%Z /\ sep n m /\ no_pair n /\ (n < 2 ^ (b + 1))%Z.
Proof.
  intros Hr Hs Hb Hz Hle Hlt. assert (T0 := units_nonneg x res Hs). set (t := units x res) in *.
  destruct (loop_all t b (range + res)%Z ltac:(lia) Hb T0 Hlt) as (n & m & El & Hm & Hnm & S & NP & Hn).
  exists n, m. cbv zeta. set (L := len (range + res) n) in *.
  assert (HL : (range + res <= Z.of_nat L)%Z) by (unfold L, len; lia).
  assert (BN := len_lt (range + res) n ltac:(lia)). fold L in BN.
  unfold csdigit. cbv zeta. rewrite units_eq by exact Hs. fold t.
  assert (G1 : (negb (Qeq_bool (Qabs x / 2 ^ (- res)) (inject_Z t)) && (t =? 0)%Z)%bool = false).
  { destruct (Z.eqb_spec t 0) as [E|E]; [|apply andb_false_r]. rewrite andb_true_r. apply negb_false_iff. apply Qeq_eq_bool.
    rewrite E, (Hz E). change (Qabs 0) with 0. unfold Qdiv. rewrite Qmult_0_l. reflexivity. }
  rewrite G1.
  assert (G2 : Qltb (2 ^ (range + res)) (inject_Z t) = false).
  { apply Qltb_false. rewrite pow_inj by lia. rewrite <- Zle_Qle. exact Hle. }
  rewrite G2, dec2bin_ok by lia. cbn [bind]. rewrite El. cbn [bind]. fold L.
  rewrite put_plus_dg, dg_minus, sdl_len, !bin2dec_small by lia.
  destruct (Z.ltb_spec (Z.of_nat L) res) as [X|_]; [lia|]. destruct (Z.ltb_spec res 0) as [X|_]; [lia|].
  rewrite sdl_len.
  destruct (Qltb x 0); eexists; (split; [reflexivity|]); cbn [cd_digits cd_pos cd_neg cd_err cd_lost cd_over].
  - split.
    { rewrite map_app. cbn [map]. change (flip_char cPoint) with cPoint. rewrite firstn_map, skipn_map. reflexivity. }
    repeat (split; [first [reflexivity|lia|assumption]|]). exact Hn.
  - repeat (split; [first [reflexivity|lia|assumption]|]). exact Hn.
Qed.

(** the digits and everything returned with them *)
Theorem C165_csdigit : forall x range res, (0 <= range)%Z -> (0 <= res)%Z -> (0 < range + res)%Z ->
  (units x res = 0%Z -> x == 0) -> (units x res <= 2 ^ (range + res))%Z ->
  exists r, csdigit x range res = Ok r /\
    (exists a b, cd_digits r = a ++ "."%char :: b /\ Forall (fun c => sd_char c = true) (a ++ b) /\
       Z.of_nat (List.length b) = res /\ (range <= Z.of_nat (List.length a))%Z /\
       (cd_over r = true <-> (range < Z.of_nat (List.length a))%Z)) /\
    canonical (cd_digits r) /\
    csd_value (cd_digits r) == trunc x res /\
    cd_pos r == csd_value (plus_part (cd_digits r)) /\ cd_neg r == - csd_value (minus_part (cd_digits r)) /\
    cd_pos r - cd_neg r == trunc x res /\ 0 <= cd_pos r /\ 0 <= cd_neg r /\
    cd_err r == x - trunc x res /\ Qabs (cd_err r) < / inject_Z (2 ^ res) /\
    (cd_lost r = true <-> ~ cd_err r == 0).
Proof.
  intros x range res Hr Hs Hw Hz Hle.
  destruct (csdigit_core x range res (range + res + 1)%Z Hr Hs ltac:(lia) Hz Hle) as (n & m & H).
  { rewrite Z.pow_add_r by lia. change (2 ^ 1)%Z with 2%Z. assert (P := p2_pos (range + res) ltac:(lia)). lia. }
  cbv zeta in H. set (L := len (range + res) n) in *. set (k := (L - Z.to_nat res)%nat) in *.
  set (D := if Qltb x 0 then map flip_char (sdl n m L) else sdl n m L) in *.
  destruct H as (r & E & Ed & Ep & Eq & Ee & El & Eo & HL & HwL & Hm & Hnm & S & NP & _).
  assert (BN := len_lt (range + res) n ltac:(lia)). fold L in BN.
  exists r. split; [exact E|].
  assert (A0 : alld (sdl n m L)) by apply sdl_sd.
  assert (AD : alld D) by (unfold D; destruct (Qltb x 0); [apply flip_alld|]; exact A0).
  assert (LD : List.length D = L) by (unfold D; destruct (Qltb x 0); rewrite ?map_length; apply sdl_len).
  assert (CD : canl D).
  { unfold D. destruct (Qltb x 0); [apply flip_canl; [exact A0|]|]; exact (sdl_canonical n m L S NP). }
  assert (AA : alld (firstn k D) /\ alld (skipn k D)).
  { unfold alld. rewrite <- (firstn_skipn k D) in AD. apply Forall_app in AD. exact AD. }
  destruct AA as (AA & AB).
  assert (LB : List.length (skipn k D) = Z.to_nat res) by (rewrite skipn_length, LD; unfold k; lia).
  assert (LA : List.length (firstn k D) = k) by (rewrite firstn_length, LD; unfold k; lia).
  assert (P := injp res Hs).
  assert (V : forall f, (forall ds, alld ds -> alld (map f ds)) -> f cPoint = cPoint ->
             csd_value (map f (firstn k D ++ cPoint :: skipn k D)) == inject_Z (sd_value (map f D)) / inject_Z (2 ^ res)).
  { intros f Hf Hfp. rewrite map_app. cbn [map]. rewrite Hfp. unfold csd_value.
    rewrite split_sdigits, split_frac by (apply Hf; assumption). rewrite map_length, LB, Z2Nat.id by lia.
    rewrite <- map_app, firstn_skipn. reflexivity. }
  assert (VI : csd_value (cd_digits r) == inject_Z (sd_value D) / inject_Z (2 ^ res)).
  { rewrite Ed. specialize (V (fun c => c)). rewrite !map_id in V. apply V; [intros ds; rewrite map_id; auto|reflexivity]. }
  assert (V0 : sd_value (sdl n m L) = (n - m)%Z) by (rewrite sdl_value by exact S; rewrite !Z.mod_small by lia; reflexivity).
  assert (VP : sd_value (sdl n 0 L) = n) by (rewrite sdl_value by apply sep_0; rewrite !Z.mod_small by lia; lia).
  assert (VM : sd_value (sdl 0 m L) = (- m)%Z) by (rewrite sdl_value by (eapply sep_l, S); rewrite !Z.mod_small by lia; lia).
  assert (Sgn : inject_Z (sd_value D) / inject_Z (2 ^ res) == trunc x res).
  { unfold trunc, D. rewrite <- Hnm. destruct (Qltb x 0) eqn:B.
    - apply Qltb_true in B. destruct (Qlt_le_dec x 0); [|lra]. rewrite flip_value, V0, inject_Z_opp by exact A0. field. lra.
    - apply Qltb_false in B. destruct (Qlt_le_dec x 0); [lra|]. rewrite V0. field. lra. }
  assert (EP : cd_pos r == csd_value (plus_part (cd_digits r))).
  { rewrite Ed, Ep. unfold plus_part. rewrite V; [|exact plus_alld|reflexivity]. change (map _ D) with (plus_part D). unfold D.
    destruct (Qltb x 0); rewrite pow_neg by exact Hs.
    - rewrite plus_flip, minus_sdl by assumption. rewrite flip_value by apply sdl_sd. rewrite VM. replace (- - m)%Z with m by lia. field. lra.
    - rewrite plus_sdl, VP. field. lra. }
  assert (EN : cd_neg r == - csd_value (minus_part (cd_digits r))).
  { rewrite Ed, Eq. unfold minus_part. rewrite V; [|exact minus_alld|reflexivity]. change (map _ D) with (minus_part D). unfold D.
    destruct (Qltb x 0); rewrite pow_neg by exact Hs.
    - rewrite minus_flip, plus_sdl by assumption. rewrite flip_value by apply sdl_sd. rewrite VP, inject_Z_opp. field. lra.
    - rewrite minus_sdl, VM, inject_Z_opp by exact S. field. lra. }
  assert (EPN : cd_pos r - cd_neg r == trunc x res).
  { rewrite Ep, Eq. unfold trunc. rewrite <- Hnm. unfold Zminus. destruct (Qltb x 0) eqn:B; rewrite pow_neg by exact Hs; rewrite inject_Z_plus, inject_Z_opp.
    - apply Qltb_true in B. destruct (Qlt_le_dec x 0); [|lra]. field. lra.
    - apply Qltb_false in B. destruct (Qlt_le_dec x 0); [lra|]. field. lra. }
  assert (EE : cd_err r == x - trunc x res) by (rewrite Ee, EPN; reflexivity).
  assert (UB := units_bound x res Hs). set (t := units x res) in *.
  assert (EA : Qabs (cd_err r) * inject_Z (2 ^ res) == Qabs x * inject_Z (2 ^ res) - inject_Z t).
  { assert (Y : trunc x res * inject_Z (2 ^ res) == (if Qlt_le_dec x 0 then -1 else 1) * inject_Z t).
    { unfold trunc. fold t. field. lra. }
    rewrite <- (Qabs_pos (inject_Z (2 ^ res))) at 1 by lra. rewrite <- Qabs_Qmult, EE.
    setoid_replace ((x - trunc x res) * inject_Z (2 ^ res)) with (x * inject_Z (2 ^ res) - (if Qlt_le_dec x 0 then -1 else 1) * inject_Z t) by (rewrite <- Y; ring).
    destruct (Qlt_le_dec x 0) as [X|X].
    - rewrite (Qabs_neg x) in * by lra. rewrite Qabs_neg by lra. ring.
    - rewrite (Qabs_pos x) in * by lra. rewrite Qabs_pos by lra. ring. }
  split; [|split; [|split; [|split; [|split; [|split; [|split; [|split; [|split; [|split]]]]]]]]]; try assumption.
  - exists (firstn k D), (skipn k D). split; [exact Ed|]. split; [rewrite firstn_skipn; exact AD|].
    split; [rewrite LB; lia|]. rewrite LA, Eo, Z.ltb_lt. unfold k. lia.
  - intros s1 a b s2 Es. rewrite Ed, split_sdigits, firstn_skipn in Es by assumption. apply (CD s1 a b s2 Es).
  - rewrite VI. exact Sgn.
  - rewrite Ep. assert (I := Qinv_lt_0_compat _ P).
    destruct (Qltb x 0); rewrite pow_neg by exact Hs; apply Qmult_le_0_compat; try (change 0 with (inject_Z 0); rewrite <- Zle_Qle; lia); lra.
  - rewrite Eq. assert (I := Qinv_lt_0_compat _ P).
    destruct (Qltb x 0); rewrite pow_neg by exact Hs; apply Qmult_le_0_compat; try (change 0 with (inject_Z 0); rewrite <- Zle_Qle; lia); lra.
  - apply Qmult_lt_r with (z := inject_Z (2 ^ res)); [exact P|]. rewrite EA.
    rewrite (Qmult_comm (/ _)), Qmult_inv_r by lra. lra.
  - rewrite El, negb_true_iff.
    assert (Y : Qabs x / 2 ^ (- res) == Qabs x * inject_Z (2 ^ res)) by (rewrite pow_neg by exact Hs; field; lra).
    split.
    + intros B Z0. apply Qeq_bool_neq in B. apply B. rewrite Y. rewrite Z0 in EA. change (Qabs 0) with 0 in EA. lra.
    + intros B. apply not_true_iff_false. intros C. apply Qeq_bool_eq in C. rewrite Y in C. apply B.
      assert (A0' : Qabs (cd_err r) * inject_Z (2 ^ res) == 0) by lra.
      apply Qmult_integral in A0'. destruct A0' as [A1|A1]; [|lra].
      assert (Q1 := Qle_Qabs (cd_err r)). assert (Q2 := Qle_Qabs (- cd_err r)). rewrite Qabs_opp in Q2. lra.
Qed.
Print Assumptions C165_csdigit.
Example C165_ex : units (47 # 2) 2 = 94%Z /\
  match csdigit (- (47 # 2)) 6 2 with
  | Ok r => cd_digits r = list_ascii_of_string "-0+000.+0" /\ Qred (cd_pos r) = 17 # 2 /\ Qred (cd_neg r) = 32 /\ cd_lost r = false /\ cd_over r = false
  | Raise _ => False
  end.
Proof. split; [reflexivity|]. vm_compute. auto. Qed.

(** otherwise: an error, and no digits *)
Theorem C165_csdigit_raises : forall x range res, (0 <= range)%Z -> (0 <= res)%Z ->
  ((units x res = 0%Z /\ ~ x == 0) \/ (2 ^ (range + res) < units x res)%Z) -> csdigit x range res = Raise ValueError.
Proof.
  intros x range res Hr Hs H. unfold csdigit. cbv zeta. rewrite units_eq by exact Hs.
  destruct H as [(H1 & H2)|H].
  - rewrite H1. replace (Qeq_bool (Qabs x / 2 ^ (- res)) (inject_Z 0)) with false; [reflexivity|].
    symmetry. apply not_true_iff_false. intros C. apply Qeq_bool_eq in C. rewrite pow_neg in C by exact Hs.
    assert (P := injp res Hs). unfold Qdiv in C. rewrite Qinv_involutive in C. apply Qmult_integral in C.
    change (inject_Z 0) with 0 in C. destruct C as [C|C]; [|lra]. apply H2.
    assert (Q1 := Qle_Qabs x). assert (Q2 := Qle_Qabs (- x)). rewrite Qabs_opp in Q2. lra.
  - destruct (_ && _)%bool; [reflexivity|]. replace (Qltb (2 ^ (range + res)) (inject_Z (units x res))) with true; [reflexivity|].
    symmetry. apply Qltb_true. rewrite pow_inj by lia. rewrite <- Zlt_Qlt. exact H.
Qed.
Print Assumptions C165_csdigit_raises.
Example C165_raises_ex : csdigit (1 # 8) 3 2 = Raise ValueError /\ csdigit 9 3 0 = Raise ValueError.
Proof. split; vm_compute; reflexivity. Qed.

(** ** the same digits as to_csd *)
Lemma strip0_split s : exists z, s = repeat cZero z ++ strip0 s.
Proof.
  induction s as [|c s IH]; [exists 0%nat; reflexivity|]. cbn [strip0]. destruct (Ascii.eqb_spec c "0") as [->|_].
  - destruct IH as (z & IH). exists (S z). cbn [repeat app]. rewrite <- IH. reflexivity.
  - exists 0%nat. reflexivity.
Qed.
Lemma strip0_alld s : alld s -> alld (strip0 s).
Proof. intros H. destruct (strip0_split s) as (z & E). rewrite E in H. apply Forall_app in H. apply H. Qed.
Lemma strip0_starts s : alld s -> strip0 s = [] \/ starts_nonzero (strip0 s).
Proof.
  induction 1 as [|c s Hc _ IH]; [left; reflexivity|]. cbn [strip0]. destruct (Ascii.eqb_spec c "0") as [->|N]; [exact IH|].
  right. exists c, s. split; [reflexivity|]. destruct (sd_cases c Hc) as [->|[->| ->]]; [discriminate|discriminate|contradiction].
Qed.
Lemma zeros_value z s : csd_value (repeat cZero z ++ s) == csd_value s.
Proof. induction z as [|z IH]; [reflexivity|]. cbn [repeat app]. rewrite value_zero_prefix. exact IH. Qed.
Lemma strip0_canonical s : canonical s -> canonical (strip0 s).
Proof.
  intros H s1 a b s2 E. destruct (strip0_split s) as (z & Es).
  apply (H (sdigits (repeat cZero z) ++ s1) a b s2). rewrite Es at 1. rewrite sdigits_app, E, app_assoc. reflexivity.
Qed.
Lemma strip0_pt a b : alld a -> strip0 a <> [] -> strip0 (a ++ cPoint :: b) = strip0 a ++ cPoint :: b.
Proof.
  induction 1 as [|c a Hc Ha IH]; intros N; [contradiction N; reflexivity|]. cbn [app strip0] in *.
  destruct (Ascii.eqb c "0"); [apply IH, N|reflexivity].
Qed.
Lemma csd_value_trail a : alld a -> csd_value (a ++ [cPoint]) == csd_value a.
Proof.
  intros H. unfold csd_value. rewrite split_sdigits by (assumption || constructor). rewrite split_frac by constructor.
  rewrite app_nil_r. unfold frac_len. rewrite (after_point_alld a H), (sdigits_alld a H). reflexivity.
Qed.
Lemma frac_lt_1 b : alld b -> canonical (cPoint :: b) -> Qabs (csd_value (cPoint :: b)) < 1.
Proof.
  intros Hb Hc. change (cPoint :: b) with ([] ++ cPoint :: b). unfold csd_value.
  rewrite split_sdigits, split_frac by (assumption || constructor). cbn [app].
  assert (B := P_CsdF.sd_value_bound b). assert (P := pow2_pos (List.length b)).
  apply Qabs_lt. assert (U : (- 2 ^ Z.of_nat (List.length b) < sd_value b < 2 ^ Z.of_nat (List.length b))%Z) by lia.
  destruct U as (U1 & U2). rewrite Zlt_Qlt in U1, U2. rewrite inject_Z_opp in U1. split.
  - apply Qlt_shift_div_l; [exact P|]. lra.
  - apply Qlt_shift_div_r; [exact P|]. lra.
Qed.

Theorem C165_same_as_to_csd : forall x range res r, (0 <= range)%Z -> (0 <= res)%Z -> (0 < range + res)%Z ->
  csdigit x range res = Ok r -> 1 <= Qabs x ->
  to_csd (trunc x res) res = Ok (if (res =? 0)%Z then removelast (strip0 (cd_digits r)) else strip0 (cd_digits r)).
Proof.
  intros x range res r Hr Hs Hw E Hx.
  assert (Hz : units x res = 0%Z -> x == 0).
  { intros U. assert (B := proj2 (units_bound x res Hs)). rewrite U in B. exfalso.
    assert (1 <= inject_Z (2 ^ res)) by (change 1 with (inject_Z 1); rewrite <- Zle_Qle; assert (P := p2_pos res Hs); lia).
    change (inject_Z 0) with 0 in B. nra. }
  destruct (Z_le_gt_dec (units x res) (2 ^ (range + res))) as [Hle|G].
  2:{ rewrite C165_csdigit_raises in E by (auto; right; lia). discriminate. }
  destruct (C165_csdigit x range res Hr Hs Hw Hz Hle) as (r' & E' & (a & b & Ed & F & Lb & _ & _) & Hc & Hv & _).
  assert (r' = r) by congruence. subst r'. clear E'. apply Forall_app in F. destruct F as (Fa & Fb).
  assert (T1 : 1 <= Qabs (trunc x res)).
  { assert (P := injp res Hs). assert (U : (2 ^ res <= units x res)%Z).
    { unfold units. rewrite <- (Qfloor_Z (2 ^ res)) at 1. apply Qfloor_resp_le. nra. }
    rewrite Zle_Qle in U. unfold trunc. unfold Qdiv. rewrite !Qabs_Qmult.
    assert (E1 : Qabs (if Qlt_le_dec x 0 then -1 else 1) == 1) by (destruct (Qlt_le_dec x 0); reflexivity). rewrite E1.
    rewrite (Qabs_pos (inject_Z (units x res))) by lra. rewrite (Qabs_pos (/ _)) by (assert (I := Qinv_lt_0_compat _ P); lra).
    rewrite Qmult_1_l. apply Qle_shift_div_l; [exact P|]. lra. }
  assert (Ns : strip0 a <> []).
  { intros C. destruct (strip0_split a) as (z & Ea). rewrite C, app_nil_r in Ea.
    assert (V : csd_value (cd_digits r) == csd_value (cPoint :: b)) by (rewrite Ed, Ea; apply zeros_value).
    assert (Cb : canonical (cPoint :: b)).
    { intros s1 c d s2 Es. apply (Hc (sdigits (repeat cZero z) ++ s1) c d s2). rewrite Ed, Ea, sdigits_app.
      change "."%char with cPoint. rewrite Es, app_assoc. reflexivity. }
    assert (B := frac_lt_1 b Fb Cb). rewrite <- V, Hv in B. lra. }
  assert (Es : strip0 (cd_digits r) = strip0 a ++ cPoint :: b) by (rewrite Ed; apply strip0_pt; assumption).
  assert (Cs := strip0_canonical _ Hc). rewrite Es in Cs.
  assert (Vs : csd_value (strip0 a ++ cPoint :: b) == trunc x res).
  { rewrite <- Hv, Ed. destruct (strip0_split a) as (z & Ea). rewrite Ea at 2. rewrite <- app_assoc. symmetry. apply zeros_value. }
  assert (Ss : starts_nonzero (strip0 a)) by (destruct (strip0_starts a Fa); [contradiction|assumption]).
  assert (As := strip0_alld a Fa).
  destruct (Z.eqb_spec res 0) as [Er|Er].
  - assert (b = []) by (destruct b; [reflexivity|cbn [List.length] in Lb; lia]). subst b. rewrite Es, removelast_last.
    destruct (C51_round_trip_integer (strip0 a) As) as (v & Ev & Et).
    + intros s1 c d s2 E1. apply (Cs s1 c d s2). rewrite split_sdigits by (assumption || constructor). rewrite app_nil_r.
      rewrite <- E1. symmetry. apply sdigits_alld, As.
    + exact Ss.
    + assert (W : well_formed (strip0 a)) by (eapply Forall_impl; [|exact As]; cbn; auto).
      destruct (to_decimal_ok _ W) as (v' & Ev' & Hv'). assert (v' = v) by congruence. subst v'.
      rewrite Er in *. rewrite (to_csd_ext (trunc x 0) v); [exact Et|]. rewrite Hv', <- Vs. apply csd_value_trail, As.
  - assert (Nb : b <> []) by (intros ->; cbn in Lb; lia). rewrite Es.
    destruct (C51_round_trip_point_partial (strip0 a) b As Fb Nb Cs) as (v & Ev & Et).
    + destruct Ss as (c & s & Ec & Hn). exists c, (s ++ cPoint :: b). rewrite Ec. split; [reflexivity|exact Hn].
    + change "."%char with cPoint. rewrite Vs. exact T1.
    + destruct (to_decimal_ok _ (split_wf _ _ As Fb)) as (v' & Ev' & Hv').
      change "."%char with cPoint in *. assert (v' = v) by congruence. subst v'.
      rewrite (to_csd_ext (trunc x res) v); [rewrite <- Lb; exact Et|]. rewrite Hv', Vs. reflexivity.
Qed.
Print Assumptions C165_same_as_to_csd.
Example C165_same_ex : match csdigit (57 # 2) 7 2 with Ok r => to_csd (57 # 2) 2 = Ok (strip0 (cd_digits r)) | Raise _ => False end.
Proof. vm_compute. reflexivity. Qed.

(** ** csdigit(x) with the default range *)
Theorem C166_default_range : forall x, 1 <= Qabs x ->
  exists r, csdigit1 x = Ok r /\ cd_over r = false /\ csd_value (cd_digits r) == trunc x 0 /\ canonical (cd_digits r).
Proof.
  intros x Hx. unfold csdigit1. replace (Qltb (Qabs x) 1) with false by (symmetry; apply Qltb_false; lra).
  set (c := clog2 (Qabs x)).
  assert (Hc : (0 <= c)%Z) by apply Z.log2_up_nonneg.
  assert (Cl : (1 <= Qceiling (Qabs x))%Z).
  { change 1%Z with (Qceiling 1). apply Qceiling_resp_le. exact Hx. }
  assert (Hu : (units x 0 <= 2 ^ c)%Z).
  { unfold units. change (inject_Z (2 ^ 0)) with 1. rewrite (Qfloor_comp _ (Qabs x)) by ring.
    eapply Z.le_trans with (Qceiling (Qabs x)).
    - rewrite Zle_Qle. eapply Qle_trans; [apply Qfloor_le|apply Qle_ceiling].
    - unfold c, clog2. destruct (Z.eq_dec (Qceiling (Qabs x)) 1) as [->|N]; [cbn; lia|].
      apply Z.log2_up_spec. lia. }
  assert (U1 : (1 <= units x 0)%Z).
  { unfold units. change 1%Z with (Qfloor 1). apply Qfloor_resp_le. change (inject_Z (2 ^ 0)) with 1. lra. }
  assert (P := p2_pos c Hc).
  assert (P1 : (2 ^ (c + 1) = 2 * 2 ^ c)%Z) by (rewrite Z.pow_add_r by lia; change (2 ^ 1)%Z with 2%Z; lia).
  destruct (C165_csdigit x (c + 1) 0 ltac:(lia) ltac:(lia) ltac:(lia) ltac:(lia)) as (r & E & _ & Hcan & Hv & _).
  { rewrite Z.add_0_r. lia. }
  exists r. split; [exact E|]. split; [|split; assumption].
  destruct (csdigit_core x (c + 1) 0 c ltac:(lia) ltac:(lia) ltac:(lia) ltac:(lia) ltac:(rewrite Z.add_0_r; lia))
    as (n & m & r' & E' & _ & _ & _ & _ & _ & Eo & _ & _ & Hm & Hnm & S & NP & Hn).
  { destruct (Z.eq_dec (units x 0) (2 ^ c)) as [Eu|Nu]; [right|left; lia]. split; [|lia]. rewrite Eu.
    intros k Hk (A & B). rewrite Z.pow2_bits_eqb in A, B by lia. apply Z.eqb_eq in A. apply Z.eqb_eq in B. lia. }
  assert (r' = r) by congruence. subst r'. rewrite Eo. apply Z.ltb_ge.
  unfold len. assert (B := bitlen_le n (c + 1) ltac:(lia) ltac:(lia)). assert (B0 := bitlen_nonneg n). lia.
Qed.
Print Assumptions C166_default_range.
Example C166_ex :
  (match csdigit1 23 with Ok r => cd_digits r = list_ascii_of_string "+0-00-." /\ cd_over r = false | Raise _ => False end) /\
  (match csdigit1 (- (17 # 2)) with Ok r => cd_digits r = list_ascii_of_string "0-000." | Raise _ => False end).
Proof. vm_compute. repeat split. Qed.

(** "An error is generated if num does not fit inside the representation" (csdigit.m:22): the digits returned without an
    error fit in range + resolution places.  They need not: 3 in two places comes back as three digits, with a warning. *)
Theorem C166_fits_refuted :
  ~ (forall x range res r, (0 <= range)%Z -> (0 <= res)%Z -> csdigit x range res = Ok r ->
       (Z.of_nat (List.length (sdigits (cd_digits r))) <= range + res)%Z).
Proof.
  intros H. specialize (H 3 2%Z 0%Z). destruct (csdigit 3 2 0) as [r|] eqn:E; [|vm_compute in E; discriminate].
  specialize (H r ltac:(lia) ltac:(lia) eq_refl). vm_compute in E.
  assert (L : List.length (sdigits (cd_digits r)) = 3%nat) by (replace r with {| cd_digits := ["+"%char; "0"%char; "-"%char; "."%char]; cd_pos := 4; cd_neg := 1; cd_err := 0; cd_lost := false; cd_over := true |} by congruence; reflexivity).
  rewrite L in H. lia.
Qed.
Print Assumptions C166_fits_refuted.
(** what holds: numbers below 2^(range-1) fit *)
Theorem C166_fits_partial : forall x range res, (1 <= range)%Z -> (0 <= res)%Z ->
  (units x res = 0%Z -> x == 0) -> (units x res <= 2 ^ (range + res - 1))%Z ->
  exists r, csdigit x range res = Ok r /\ cd_over r = false /\ (Z.of_nat (List.length (sdigits (cd_digits r))) = range + res)%Z.
Proof.
  intros x range res Hr Hs Hz Hle.
  set (c := (range + res - 1)%Z) in *. assert (P := p2_pos c ltac:(lia)).
  assert (P1 : (2 ^ (range + res) = 2 * 2 ^ c)%Z).
  { replace (range + res)%Z with (c + 1)%Z by (unfold c; lia). rewrite Z.pow_add_r by lia. change (2 ^ 1)%Z with 2%Z. lia. }
  destruct (C165_csdigit x range res ltac:(lia) Hs ltac:(lia) Hz ltac:(lia)) as (r & E & (a & b & Ed & F & Lb & La & Ho) & _).
  exists r. split; [exact E|].
  destruct (csdigit_core x range res c ltac:(lia) Hs ltac:(lia) Hz ltac:(lia))
    as (n & m & r' & E' & _ & _ & _ & _ & _ & Eo & _ & _ & Hm & Hnm & S & NP & Hn).
  { destruct (Z.eq_dec (units x res) (2 ^ c)) as [Eu|Nu]; [right|left; lia].
    split; [|replace (c + 1)%Z with (range + res)%Z by (unfold c; lia); lia]. rewrite Eu.
    intros k Hk (A & B). rewrite Z.pow2_bits_eqb in A, B by lia. apply Z.eqb_eq in A. apply Z.eqb_eq in B. lia. }
  assert (r' = r) by congruence. subst r'.
  assert (Of : cd_over r = false).
  { rewrite Eo. apply Z.ltb_ge. replace (c + 1)%Z with (range + res)%Z in Hn by (unfold c; lia).
    unfold len. assert (B := bitlen_le n (range + res) ltac:(lia) ltac:(lia)). assert (B0 := bitlen_nonneg n). lia. }
  split; [exact Of|]. apply Forall_app in F. destruct F as (Fa & Fb).
  rewrite Ed. change "."%char with cPoint. rewrite split_sdigits, app_length by assumption.
  assert (~ (range < Z.of_nat (List.length a))%Z) by (intros X; apply Ho in X; congruence). lia.
Qed.
Print Assumptions C166_fits_partial.
Example C166_fits_ex : (units (15 # 4) 2 <= 2 ^ (3 + 2 - 1))%Z /\
  (match csdigit (15 # 4) 3 2 with Ok r => cd_digits r = list_ascii_of_string "+00.0-" | Raise _ => False end).
Proof. split; [vm_compute; discriminate|]. vm_compute. reflexivity. Qed.

(** With a negative range the missing places are filled at the wrong end: the digits do not denote pos - neg. *)
Theorem C167_digits_value_refuted :
  ~ (forall x range res r, (0 <= range + res)%Z -> (0 <= res)%Z -> csdigit x range res = Ok r ->
       csd_value (cd_digits r) == cd_pos r - cd_neg r).
Proof.
  intros H. specialize (H (1 # 16) (-2)%Z 6%Z). destruct (csdigit (1 # 16) (-2) 6) as [r|] eqn:E; [|vm_compute in E; discriminate].
  specialize (H r ltac:(lia) ltac:(lia) eq_refl).
  assert (B : match csdigit (1 # 16) (-2) 6 with Ok r => Qeq_bool (csd_value (cd_digits r)) (cd_pos r - cd_neg r) | Raise _ => true end = false)
    by (vm_compute; reflexivity).
  rewrite E in B. apply Qeq_bool_neq in B. contradiction.
Qed.
Print Assumptions C167_digits_value_refuted.
(** what holds: they do for a range of at least 0 *)
Theorem C167_digits_value_partial : forall x range res r, (0 <= range)%Z -> (0 <= res)%Z -> (0 < range + res)%Z ->
  csdigit x range res = Ok r -> csd_value (cd_digits r) == cd_pos r - cd_neg r.
Proof.
  intros x range res r Hr Hs Hw E.
  assert (Hz : units x res = 0%Z -> x == 0).
  { intros U. destruct (Qeq_dec x 0) as [X|X]; [exact X|]. rewrite C165_csdigit_raises in E by auto. discriminate. }
  destruct (Z_le_gt_dec (units x res) (2 ^ (range + res))) as [Hle|G].
  2:{ rewrite C165_csdigit_raises in E by (auto; right; lia). discriminate. }
  destruct (C165_csdigit x range res Hr Hs Hw Hz Hle) as (r' & E' & _ & _ & Hv & _ & _ & Hp & _).
  assert (r' = r) by congruence. subst r'. rewrite Hv, Hp. reflexivity.
Qed.
Print Assumptions C167_digits_value_partial.
Example C167_ex : exists r, csdigit (1 # 16) 0 6 = Ok r /\ cd_digits r = list_ascii_of_string ".000+00".
Proof. eexists. split; vm_compute; reflexivity. Qed.

(** range + resolution < 0: rejected, whatever the number *)
Theorem C167_negative_width : forall x range res, (range + res < 0)%Z -> csdigit x range res = Raise ValueError.
Proof.
  intros x range res H. unfold csdigit. cbv zeta. destruct (_ && _)%bool; [reflexivity|]. destruct (Qltb _ _); [reflexivity|].
  unfold dec2bin. destruct (Z.ltb_spec (range + res) 0); [reflexivity|lia].
Qed.
Print Assumptions C167_negative_width.

(** what is returned for a negative range: no digits before the point, res behind it, of which the first range + res (one
    more if the number needs it) are those of the number and the rest zeros.  So the text stands for
    2^(res - number of digits) times the number that pos - neg stands for. *)
Theorem C167_negative_range : forall x range res, (range < 0)%Z -> (0 < range + res)%Z ->
  (units x res = 0%Z -> x == 0) -> (units x res <= 2 ^ (range + res))%Z ->
  exists r D L, csdigit x range res = Ok r /\ (L = range + res \/ L = range + res + 1)%Z /\
    cd_digits r = "."%char :: D ++ repeat "0"%char (Z.to_nat (res - L)) /\ Z.of_nat (List.length D) = L /\ Forall (fun c => sd_char c = true) D /\
    csd_value (cd_digits r) == inject_Z (2 ^ (res - L)) * trunc x res /\
    cd_pos r - cd_neg r == trunc x res /\ cd_err r == x - trunc x res /\ cd_over r = Z.ltb (range + res) L.
Proof.
  intros x range res Hr Hw Hz Hle. assert (Hs : (0 <= res)%Z) by lia. assert (T0 := units_nonneg x res Hs).
  set (w := (range + res)%Z) in *. assert (P := p2_pos w ltac:(lia)).
  destruct (loop_all (units x res) w w ltac:(lia) ltac:(lia) T0) as (n & m & El & Hm & Hnm & S & NP & Hn).
  { destruct (Z.eq_dec (units x res) (2 ^ w)) as [Eu|Nu]; [right|left; lia].
    split; [|rewrite Z.pow_add_r by lia; change (2 ^ 1)%Z with 2%Z; lia]. rewrite Eu.
    intros k Hk (A & B). rewrite Z.pow2_bits_eqb in A, B by lia. apply Z.eqb_eq in A. apply Z.eqb_eq in B. lia. }
  set (L := len w n) in *. set (t := units x res) in *.
  assert (HL : (Z.of_nat L = w \/ Z.of_nat L = w + 1)%Z).
  { unfold L, len. assert (B := bitlen_nonneg n). assert (B1 := bitlen_le n (w + 1) ltac:(lia) ltac:(lia)). lia. }
  assert (BN := len_lt w n ltac:(lia)). fold L in BN.
  set (D := if Qltb x 0 then map flip_char (sdl n m L) else sdl n m L) in *.
  set (p := inject_Z n * 2 ^ (- res)). set (q := inject_Z m * 2 ^ (- res)).
  assert (A0 : alld (sdl n m L)) by apply sdl_sd.
  assert (AD : alld D) by (unfold D; destruct (Qltb x 0); [apply flip_alld|]; exact A0).
  assert (LD : List.length D = L) by (unfold D; destruct (Qltb x 0); rewrite ?map_length; apply sdl_len).
  assert (HR : exists r, csdigit x range res = Ok r /\ cd_digits r = cPoint :: D ++ repeat cZero (Z.to_nat (res - Z.of_nat L)) /\
      cd_pos r = (if Qltb x 0 then q else p) /\ cd_neg r = (if Qltb x 0 then p else q) /\ cd_err r = x - (cd_pos r - cd_neg r) /\
      cd_over r = (range <? Z.of_nat L - res)%Z).
  { unfold csdigit. cbv zeta. rewrite units_eq by exact Hs. fold t.
    assert (G1 : (negb (Qeq_bool (Qabs x / 2 ^ (- res)) (inject_Z t)) && (t =? 0)%Z)%bool = false).
    { destruct (Z.eqb_spec t 0) as [E|E]; [|apply andb_false_r]. rewrite andb_true_r. apply negb_false_iff. apply Qeq_eq_bool.
      rewrite E, (Hz E). change (Qabs 0) with 0. unfold Qdiv. rewrite Qmult_0_l. reflexivity. }
    rewrite G1. fold w.
    assert (G2 : Qltb (2 ^ w) (inject_Z t) = false).
    { apply Qltb_false. rewrite pow_inj by lia. rewrite <- Zle_Qle. exact Hle. }
    rewrite G2, dec2bin_ok by lia. cbn [bind]. rewrite El. cbn [bind]. fold L.
    rewrite put_plus_dg, dg_minus, sdl_len, !bin2dec_small by lia.
    set (Z := repeat cZero (Z.to_nat (res - Z.of_nat L))).
    assert (EZ : (if (Z.of_nat L <? res)%Z then sdl n m L ++ Z else sdl n m L) = sdl n m L ++ Z).
    { destruct (Z.ltb_spec (Z.of_nat L) res) as [_|X]; [reflexivity|]. unfold Z. replace (res - Z.of_nat L)%Z with 0%Z by lia. cbn. rewrite app_nil_r. reflexivity. }
    rewrite EZ. destruct (Z.ltb_spec res 0) as [X|_]; [lia|].
    replace (List.length (sdl n m L ++ Z) - Z.to_nat res)%nat with 0%nat by (unfold Z; rewrite app_length, sdl_len, repeat_length; lia).
    cbn [firstn skipn app]. unfold D. destruct (Qltb x 0); eexists; (split; [reflexivity|]); cbn [cd_digits cd_pos cd_neg cd_err cd_over map].
    - rewrite map_app. unfold Z. assert (MR : forall j, map flip_char (repeat cZero j) = repeat cZero j) by (induction j as [|j IH]; [reflexivity|cbn [repeat map]; rewrite IH; reflexivity]). rewrite MR. repeat split; reflexivity.
    - repeat split; reflexivity. }
  destruct HR as (r & E & Ed & Ep & Eq & Ee & Eo).
  assert (PI := injp res Hs).
  assert (V0 : sd_value (sdl n m L) = (n - m)%Z) by (rewrite sdl_value by exact S; rewrite !Z.mod_small by lia; reflexivity).
  assert (EPN : cd_pos r - cd_neg r == trunc x res).
  { rewrite Ep, Eq. unfold trunc. fold t. rewrite <- Hnm. unfold p, q, Zminus. destruct (Qltb x 0) eqn:B; rewrite pow_neg by exact Hs; rewrite inject_Z_plus, inject_Z_opp.
    - apply Qltb_true in B. destruct (Qlt_le_dec x 0); [|lra]. field. lra.
    - apply Qltb_false in B. destruct (Qlt_le_dec x 0); [lra|]. field. lra. }
  exists r, D, (Z.of_nat L). split; [exact E|]. split; [lia|]. split; [exact Ed|]. split; [rewrite LD; reflexivity|]. split; [exact AD|].
  split; [|split; [exact EPN|split; [rewrite Ee, EPN; reflexivity|]]].
  - rewrite Ed. set (k := Z.to_nat (res - Z.of_nat L)).
    assert (AZ : alld (D ++ repeat cZero k)).
    { apply Forall_app. split; [exact AD|]. clearbody k. induction k; cbn; constructor; auto. }
    unfold csd_value. rewrite (split_sdigits [] _ (Forall_nil _) AZ : sdigits (cPoint :: D ++ repeat cZero k) = D ++ repeat cZero k).
    rewrite (split_frac [] _ AZ : frac_len (cPoint :: D ++ repeat cZero k) = List.length (D ++ repeat cZero k)).
    rewrite P_CsdF.sd_value_app, P_CsdF.sd_value_zeros, Z.add_0_r, app_length, LD, !repeat_length.
    replace (Z.of_nat (L + k)) with res by (unfold k; lia). replace (Z.of_nat k) with (res - Z.of_nat L)%Z by (unfold k; lia).
    rewrite inject_Z_mult.
    assert (Sgn : inject_Z (sd_value D) == (if Qlt_le_dec x 0 then -1 else 1) * inject_Z t).
    { unfold D. rewrite <- Hnm. destruct (Qltb x 0) eqn:B.
      - apply Qltb_true in B. destruct (Qlt_le_dec x 0); [|lra]. rewrite flip_value, V0, inject_Z_opp by exact A0. ring.
      - apply Qltb_false in B. destruct (Qlt_le_dec x 0); [lra|]. rewrite V0. ring. }
    rewrite Sgn. unfold trunc. fold t. field. lra.
  - rewrite Eo. destruct (Z.ltb_spec range (Z.of_nat L - res)), (Z.ltb_spec w (Z.of_nat L)); try reflexivity; lia.
Qed.
Print Assumptions C167_negative_range.
Example C167_negative_ex : units (1 # 16) 6 = 4%Z /\
  match csdigit (1 # 16) (-2) 6 with Ok r => cd_digits r = list_ascii_of_string ".0+0000" | Raise _ => False end.
Proof. split; vm_compute; reflexivity. Qed.
