(** Property theorems about the table built by csd_numbers.py (C133, C134). *)
From Coq Require Import ZArith QArith Qabs Lia Lra List Bool Ascii String FinFun.
From Verif Require Import Base M_Csd S_Csd P_Csd T_Csd M_CsdNum.
Import ListNotations.
Local Open Scope nat_scope.

(** the strings the table is about: n signed digits, no two adjacent ones non-zero *)
Definition proper_string (n : nat) (s : list ascii) : Prop :=
  length s = n /\ Forall (fun c => sd_char c = true) s /\ canonical s.

(** ** the enumeration *)
Fixpoint strs (i : nat) (rest : chars) : list chars :=
  match i with
  | O => [cZero :: rest; cMinus :: rest; cPlus :: rest]
  | S i' => strs i' (cZero :: rest) ++ strs i' (cMinus :: rest) ++ strs i' (cPlus :: rest)
  end.
Lemma in_strs i : forall rest s, In s (strs i rest) <-> exists pre, s = pre ++ rest /\ length pre = S i /\ alld pre.
Proof.
  induction i as [|i IH]; intros rest s; cbn [strs].
  - split.
    + intros [<-|[<-|[<-|[]]]]; [exists [cZero]|exists [cMinus]|exists [cPlus]]; repeat split; repeat constructor.
    + intros (pre & -> & Hl & Ha). destruct pre as [|c [|]]; try discriminate. inversion Ha as [|? ? Hc]; subst.
      apply sd_cases in Hc as [-> | [-> | ->]]; cbn; auto.
  - rewrite !in_app_iff, !IH. split.
    + intros [(pre & -> & Hl & Ha)|[(pre & -> & Hl & Ha)|(pre & -> & Hl & Ha)]];
        eexists (pre ++ [_]); rewrite <- app_assoc; (split; [reflexivity|]); (split; [rewrite app_length; cbn; lia|]);
        apply Forall_app; (split; [exact Ha|]); repeat constructor.
    + intros (pre & -> & Hl & Ha).
      destruct (exists_last (l := pre)) as (pre' & c & ->); [intros ->; discriminate|].
      rewrite app_length in Hl. cbn in Hl. apply Forall_app in Ha as [Ha Hc]. inversion Hc as [|? ? Hcc]; subst.
      assert (Hl' : length pre' = S i) by lia.
      rewrite <- !app_assoc. cbn [app]. apply sd_cases in Hcc as [-> | [-> | ->]].
      * right. right. exists pre'. auto.
      * right. left. exists pre'. auto.
      * left. exists pre'. auto.
Qed.
Definition dval (s : chars) : Q := match to_decimal s with Ok v => v | Raise _ => 0%Q end.
Definition ins_leaf (d : list (Q * chars)) (s : chars) : list (Q * chars) :=
  if is_proper_csd s then dict_set d (dval s) s else d.
Lemma set_char_mid pre : forall a rest c, set_char (pre ++ a :: rest) (length pre) c = Ok (pre ++ c :: rest).
Proof. induction pre as [|b pre IH]; intros; cbn; [reflexivity|]. rewrite IH. reflexivity. Qed.
Lemma leaf_ok l z d : alld l -> exists d', cn_leaf {| cn_num := l; cn_indent := z; cn_dict := d |} =
  Ok {| cn_num := l; cn_indent := z; cn_dict := d' |} /\ d' = ins_leaf d l.
Proof.
  intros Ha. unfold cn_leaf, ins_leaf, dval. cbn. destruct (is_proper_csd l); [|eauto].
  destruct (to_decimal_ok l) as (v & E & _).
  - eapply Forall_impl; [|exact Ha]. cbn. auto.
  - rewrite E. cbn. eauto.
Qed.
Lemma cycle_bits_spec i : forall pre rest z d, length pre = S i -> alld pre -> alld rest ->
  exists pre', length pre' = S i /\ alld pre' /\
  cycle_bits i {| cn_num := pre ++ rest; cn_indent := z; cn_dict := d |} =
  Ok {| cn_num := pre' ++ rest; cn_indent := z; cn_dict := fold_left ins_leaf (strs i rest) d |}.
Proof.
  induction i as [|i IH]; intros pre rest z d Hl Ha Hr.
  - destruct pre as [|a [|]]; try discriminate. exists [cPlus]. split; [reflexivity|]. split; [repeat constructor|].
    cbn [cycle_bits cn_chars set_char app bind cn_num cn_indent cn_dict].
    assert (H0 : forall c, sd_char c = true -> alld (c :: rest)) by (intros; constructor; assumption).
    destruct (leaf_ok (cZero :: rest) (z + 2) d (H0 cZero eq_refl)) as (d1 & E1 & D1). rewrite E1. cbn [bind cn_num cn_indent cn_dict set_char].
    destruct (leaf_ok (cMinus :: rest) (z + 2) d1 (H0 cMinus eq_refl)) as (d2 & E2 & D2). rewrite E2. cbn [bind cn_num cn_indent cn_dict set_char].
    destruct (leaf_ok (cPlus :: rest) (z + 2) d2 (H0 cPlus eq_refl)) as (d3 & E3 & D3). rewrite E3. cbn [bind cn_num cn_indent cn_dict set_char].
    replace (z + 2 - 2)%Z with z by lia. cbn [strs fold_left]. rewrite D3, D2, D1. reflexivity.
  - destruct (exists_last (l := pre)) as (p0 & a & ->); [intros ->; discriminate|].
    rewrite app_length in Hl. cbn in Hl. apply Forall_app in Ha as [Ha _]. assert (Hl0 : length p0 = S i) by lia.
    rewrite <- app_assoc. cbn [app].
    change (cycle_bits (S i) {| cn_num := p0 ++ a :: rest; cn_indent := z; cn_dict := d |}) with
      (st1 <- cn_chars [cZero; cMinus; cPlus] (S i) (cycle_bits i) {| cn_num := p0 ++ a :: rest; cn_indent := z + 2; cn_dict := d |} ;;
       Ok {| cn_num := cn_num st1; cn_indent := cn_indent st1 - 2; cn_dict := cn_dict st1 |}).
    assert (H0 : forall c, sd_char c = true -> alld (c :: rest)) by (intros; constructor; assumption).
    cbn [cn_chars cn_num cn_indent cn_dict]. rewrite <- Hl0, set_char_mid, Hl0. cbn [bind cn_num cn_indent cn_dict].
    destruct (IH p0 (cZero :: rest) (z + 2)%Z d Hl0 Ha (H0 cZero eq_refl)) as (p1 & L1 & A1 & E1).
    rewrite E1. cbn [bind cn_num cn_indent cn_dict]. rewrite <- L1, set_char_mid, L1. cbn [bind cn_num cn_indent cn_dict].
    destruct (IH p1 (cMinus :: rest) (z + 2)%Z (fold_left ins_leaf (strs i (cZero :: rest)) d) L1 A1 (H0 cMinus eq_refl)) as (p2 & L2 & A2 & E2).
    rewrite E2. cbn [bind cn_num cn_indent cn_dict]. rewrite <- L2, set_char_mid, L2. cbn [bind cn_num cn_indent cn_dict].
    match goal with |- context [cycle_bits i {| cn_num := _; cn_indent := _; cn_dict := ?dd |}] =>
      destruct (IH p2 (cPlus :: rest) (z + 2)%Z dd L2 A2 (H0 cPlus eq_refl)) as (p3 & L3 & A3 & E3) end.
    rewrite E3. cbn [bind cn_num cn_indent cn_dict]. exists (p3 ++ [cPlus]). split; [rewrite app_length; cbn; lia|].
    split; [apply Forall_app; split; [exact A3|repeat constructor]|].
    rewrite <- app_assoc. cbn [app strs]. rewrite !fold_left_app. replace (z + 2 - 2)%Z with z by lia. reflexivity.
Qed.

(** ** the numbers with n proper digits *)
Definition lead0 (ds : chars) : Prop := match ds with [] => True | c :: _ => dv c = 0%Z end.
Lemma canon_range ds : alld ds -> canon ds ->
  (3 * Z.abs (sd_value ds) < 2 ^ (Z.of_nat (length ds) + 1))%Z /\
  (lead0 ds -> 3 * Z.abs (sd_value ds) < 2 ^ Z.of_nat (length ds))%Z.
Proof.
  induction 1 as [|c r Hc Ha IH]; intros Hcan; [cbn; split; intros; lia|].
  cbn [canon] in Hcan. destruct Hcan as [Hh Hcan]. destruct (IH Hcan) as [I1 I2]. cbn [sd_value length lead0].
  rewrite Nat2Z.inj_succ. set (k := Z.of_nat (length r)) in *.
  assert (Hk : (0 <= k)%Z) by lia. assert (P := Z.pow_pos_nonneg 2 k ltac:(lia) Hk).
  assert (E1 : (2 ^ (k + 1) = 2 * 2 ^ k)%Z) by (rewrite Z.pow_add_r by lia; ring).
  assert (E2 : (2 ^ Z.succ k = 2 * 2 ^ k)%Z) by (rewrite Z.pow_succ_r by lia; ring).
  assert (E3 : (2 ^ (Z.succ k + 1) = 4 * 2 ^ k)%Z) by (rewrite Z.pow_add_r, Z.pow_succ_r by lia; ring).
  rewrite E1 in I1. rewrite E2, E3.
  destruct (Z.eq_dec (dv c) 0) as [Ez|En].
  - rewrite Ez. split; intros; lia.
  - split; [|tauto]. assert (Hl : lead0 r) by (destruct r; [exact I|]; cbn; tauto). specialize (I2 Hl).
    apply sd_cases in Hc as [-> | [-> | ->]]; cbn [dv Ascii.eqb Bool.eqb] in *; [| |exfalso; apply En; reflexivity].
    + change (dv "+") with 1%Z. lia.
    + change (dv "-") with (-1)%Z. lia.
Qed.
Lemma canon_unique ds : forall ds', alld ds -> canon ds -> alld ds' -> canon ds' -> length ds = length ds' ->
  sd_value ds = sd_value ds' -> ds = ds'.
Proof.
  induction ds as [|c r IH]; intros [|c' r'] Ha Hc Ha' Hc' Hl Hv; try discriminate; [reflexivity|].
  assert (R := canon_range _ Ha Hc). assert (R' := canon_range _ Ha' Hc').
  inversion Ha as [|? ? Hd Har]; subst. inversion Ha' as [|? ? Hd' Har']; subst.
  cbn [canon] in Hc, Hc'. destruct Hc as [Hh Hc]. destruct Hc' as [Hh' Hc'].
  destruct (canon_range r Har Hc) as [A1 A2]. destruct (canon_range r' Har' Hc') as [B1 B2].
  cbn [sd_value] in Hv. cbn [length] in Hl. injection Hl as Hl. rewrite <- Hl in *. set (k := Z.of_nat (length r)) in *.
  assert (P := Z.pow_pos_nonneg 2 k ltac:(lia) ltac:(lia)).
  assert (E1 : (2 ^ (k + 1) = 2 * 2 ^ k)%Z) by (rewrite Z.pow_add_r by lia; ring). rewrite E1 in *.
  assert (L : dv c <> 0%Z -> lead0 r) by (intros; destruct r; [exact I|]; cbn; tauto).
  assert (L' : dv c' <> 0%Z -> lead0 r') by (intros; destruct r'; [exact I|]; cbn; tauto).
  assert (Ec : c = c').
  { apply sd_cases in Hd as [-> | [-> | ->]]; apply sd_cases in Hd' as [-> | [-> | ->]]; try reflexivity; exfalso;
      change (dv "+") with 1%Z in *; change (dv "-") with (-1)%Z in *; change (dv "0") with 0%Z in *;
      try (assert (X := A2 (L ltac:(lia)))); try (assert (X' := B2 (L' ltac:(lia)))); lia. }
  subst c'. f_equal. apply IH; auto. lia.
Qed.
Lemma pow2_mod3 k : (0 <= k)%Z -> (2 ^ k mod 3 <> 0)%Z.
Proof.
  intros Hk. pattern k. apply natlike_ind; [cbn; lia| |exact Hk].
  intros x Hx IH. rewrite Z.pow_succ_r by assumption. rewrite Z.mul_mod by lia.
  assert (H := Z.mod_pos_bound (2 ^ x) 3 ltac:(lia)). assert (C : (2 ^ x mod 3 = 1 \/ 2 ^ x mod 3 = 2)%Z) by lia.
  destruct C as [-> | ->]; cbn; lia.
Qed.
Lemma canon_exists n : forall v, (3 * Z.abs v < 2 ^ (Z.of_nat n + 1))%Z ->
  exists ds, length ds = n /\ alld ds /\ canon ds /\ sd_value ds = v /\ ((3 * Z.abs v < 2 ^ Z.of_nat n)%Z -> lead0 ds).
Proof.
  induction n as [|n IH]; intros v Hv.
  - exists []. change (2 ^ (Z.of_nat 0 + 1))%Z with 2%Z in Hv. split; [reflexivity|]. split; [constructor|]. split; [exact I|].
    split; [cbn [sd_value]; lia|]. intros _. exact I.
  - rewrite Nat2Z.inj_succ in *. set (k := Z.of_nat n) in *.
    assert (P := Z.pow_pos_nonneg 2 k ltac:(lia) ltac:(lia)).
    assert (E1 : (2 ^ (k + 1) = 2 * 2 ^ k)%Z) by (rewrite Z.pow_add_r by lia; ring).
    assert (E2 : (2 ^ Z.succ k = 2 * 2 ^ k)%Z) by (rewrite Z.pow_succ_r by lia; ring).
    assert (E3 : (2 ^ (Z.succ k + 1) = 4 * 2 ^ k)%Z) by (rewrite Z.pow_add_r, Z.pow_succ_r by lia; ring).
    rewrite E1 in IH. rewrite E3 in Hv. rewrite E2.
    assert (M : forall u : Z, (3 * u <> 2 * 2 ^ k)%Z).
    { intros u Hu. apply (pow2_mod3 (Z.succ k) ltac:(lia)). rewrite E2, <- Hu, Z.mul_comm. apply Z.mod_mul. lia. }
    destruct (Z_lt_ge_dec (3 * Z.abs v) (2 * 2 ^ k)) as [H|H].
    + destruct (IH v H) as (ds & L & A & C & V & _). exists (cZero :: ds).
      split; [cbn; lia|]. split; [constructor; [reflexivity|exact A]|]. split; [cbn; split; [destruct ds; auto|exact C]|].
      split; [cbn [sd_value]; change (dv cZero) with 0%Z; lia|]. intros _. reflexivity.
    + assert (M1 := M v). assert (M2 := M (- v)%Z).
      assert (Hs : exists c, (c = cPlus \/ c = cMinus) /\ (3 * Z.abs (v - dv c * 2 ^ k) < 2 ^ k)%Z).
      { destruct (Z_le_gt_dec 0 v).
        - exists cPlus. split; [auto|]. change (dv cPlus) with 1%Z. lia.
        - exists cMinus. split; [auto|]. change (dv cMinus) with (-1)%Z. lia. }
      destruct Hs as (c & Hc & Hb).
      destruct (IH (v - dv c * 2 ^ k)%Z ltac:(lia)) as (ds & L & A & C & V & Hz). specialize (Hz Hb).
      exists (c :: ds). split; [cbn; lia|].
      split; [constructor; [destruct Hc as [-> | ->]; reflexivity|exact A]|].
      split; [cbn; split; [destruct ds; cbn in Hz; auto|exact C]|].
      split; [cbn [sd_value]; rewrite L; fold k; lia|]. intros. lia.
Qed.
(** ** proper strings *)
Lemma dv0 c : sd_char c = true -> (Ascii.eqb c cZero = true <-> dv c = 0%Z).
Proof. intros H. apply sd_cases in H as [-> | [-> | ->]]; cbn; split; intros; congruence. Qed.
Lemma proper_canon s : alld s -> (is_proper_csd s = true <-> canon s).
Proof.
  destruct s as [|c r]; [cbn; tauto|]. intros Ha. inversion Ha as [|? ? Hc Har]; subst. cbn [is_proper_csd].
  clear Ha. revert c Hc. induction Har as [|d r Hd Har IH]; intros c Hc; [cbn; tauto|].
  cbn [proper_loop]. change (canon (c :: d :: r)) with ((dv c = 0%Z \/ dv d = 0%Z) /\ canon (d :: r)).
  rewrite <- (IH d Hd), <- (dv0 c Hc), <- (dv0 d Hd).
  destruct (Ascii.eqb d cZero), (Ascii.eqb c cZero); cbn; intuition congruence.
Qed.
Lemma proper_iff n s : proper_string n s <-> length s = n /\ alld s /\ canon s.
Proof.
  unfold proper_string. split; intros (L & A & C); (split; [exact L|]); (split; [exact A|]).
  - apply canonical_canon; [exact A|]. intros s1 a b s2 E. apply (C s1 a b s2). rewrite sdigits_alld by exact A. exact E.
  - rewrite <- (ins_all s (Z.of_nat (length s)) ltac:(lia)). apply canon_canonical; assumption.
Qed.
Lemma value_int s : alld s -> (csd_value s == inject_Z (sd_value s))%Q.
Proof. intros Ha. unfold csd_value, frac_len. rewrite sdigits_alld, after_point_alld by assumption. cbn. field. Qed.
Lemma dval_int s : alld s -> to_decimal s = Ok (dval s) /\ (dval s == inject_Z (sd_value s))%Q.
Proof.
  intros Ha. unfold dval. destruct (to_decimal_ok s) as (v & E & Hv); [eapply Forall_impl; [|exact Ha]; cbn; auto|].
  rewrite E. split; [reflexivity|]. rewrite Hv. apply value_int, Ha.
Qed.

(** ** the dictionary *)
Definition dkeys (d : list (Q * chars)) : Prop := ForallOrdPairs (fun a b => ~ (fst a == fst b)%Q) d.
Definition table (n : nat) (d : list (Q * chars)) : Prop :=
  dkeys d /\ forall k s, In (k, s) d -> proper_string n s /\ to_decimal s = Ok k.
Lemma dict_set_fresh d k s : (forall k' s', In (k', s') d -> ~ (k' == k)%Q) -> dict_set d k s = d ++ [(k, s)].
Proof.
  induction d as [|[k' s'] d IH]; intros H; [reflexivity|]. cbn. destruct (Qeq_bool k' k) eqn:E.
  - apply Qeq_bool_iff in E. exfalso. apply (H k' s'); [left; reflexivity|exact E].
  - rewrite IH; [reflexivity|]. intros k2 s2 Hin. apply (H k2 s2). right. exact Hin.
Qed.
Lemma dict_set_same d k s : dkeys d -> In (k, s) d -> dict_set d k s = d.
Proof.
  intros Hd. induction Hd as [|[k' s'] d Hh Hd IH]; intros Hin; [contradiction|]. cbn. destruct (Qeq_bool k' k) eqn:E.
  - apply Qeq_bool_iff in E. destruct Hin as [[= -> ->]|Hin]; [reflexivity|].
    rewrite Forall_forall in Hh. exfalso. apply (Hh _ Hin). cbn. exact E.
  - f_equal. apply IH. destruct Hin as [[= -> ->]|Hin]; [|exact Hin]. rewrite Qeq_bool_refl in E. discriminate.
Qed.
Lemma dkeys_app d a : dkeys d -> (forall b, In b d -> ~ (fst b == fst a)%Q) -> dkeys (d ++ [a]).
Proof.
  induction 1 as [|b d Hh Hd IH]; intros H; cbn; [repeat constructor|].
  constructor; [|apply IH; intros; apply H; right; assumption].
  apply Forall_app. split; [exact Hh|]. constructor; [|constructor]. apply H. left. reflexivity.
Qed.
Lemma ins_table n d s : table n d -> length s = n -> alld s ->
  table n (ins_leaf d s) /\ (forall p, In p d -> In p (ins_leaf d s)) /\ (proper_string n s -> In (dval s, s) (ins_leaf d s)) /\
  forall k u, In (k, u) (ins_leaf d s) -> In (k, u) d \/ u = s.
Proof.
  intros [Hk Ht] Hl Ha. unfold ins_leaf. destruct (is_proper_csd s) eqn:Ep.
  2:{ split; [split; assumption|]. split; [auto|]. split; [|auto]. intros Hp. apply proper_iff in Hp. destruct Hp as (_ & _ & C).
      apply (proper_canon s Ha) in C. congruence. }
  apply (proper_canon s Ha) in Ep. assert (Hp : proper_string n s) by (apply proper_iff; auto).
  destruct (dval_int s Ha) as [Ev Hv].
  destruct (in_dec (list_eq_dec ascii_dec) s (map snd d)) as [Hin|Hn].
  - apply in_map_iff in Hin as ([k s'] & Es & Hin). cbn in Es. subst s'. destruct (Ht k s Hin) as [_ E]. rewrite Ev in E. injection E as <-.
    rewrite dict_set_same by assumption. split; [split; assumption|]. split; [auto|]. split; [auto|auto].
  - assert (Hf : forall k' s', In (k', s') d -> ~ (k' == dval s)%Q).
    { intros k' s' Hin E. destruct (Ht k' s' Hin) as [Hp' E']. apply proper_iff in Hp' as (L' & A' & C').
      destruct (dval_int s' A') as [Ev' Hv']. rewrite E' in Ev'. injection Ev' as ->. rewrite Hv, Hv' in E.
      rewrite inject_Z_injective in E. apply Hn. apply in_map_iff. exists (dval s', s'). split; [|exact Hin]. cbn.
      apply canon_unique; auto; congruence. }
    rewrite dict_set_fresh by exact Hf. split; [split|].
    + apply dkeys_app; [exact Hk|]. intros [k' s'] Hin. cbn. apply (Hf k' s' Hin).
    + intros k u Hin. apply in_app_iff in Hin as [Hin|[[= <- <-]|[]]]; [apply Ht, Hin|]. split; assumption.
    + split; [intros p Hin; apply in_or_app; auto|]. split; [intros _; apply in_or_app; right; left; reflexivity|].
      intros k u Hin. apply in_app_iff in Hin as [Hin|[[= <- <-]|[]]]; auto.
Qed.
Lemma fold_table n l : forall d, table n d -> (forall s, In s l -> length s = n /\ alld s) ->
  table n (fold_left ins_leaf l d) /\ (forall p, In p d -> In p (fold_left ins_leaf l d)) /\
  forall s, In s l -> proper_string n s -> In (dval s, s) (fold_left ins_leaf l d).
Proof.
  induction l as [|s l IH]; intros d Hd Hl; cbn [fold_left]; [split; [exact Hd|split; [auto|intros ? []]]|].
  destruct (Hl s (or_introl eq_refl)) as [L A].
  destruct (ins_table n d s Hd L A) as (T & K & N & _).
  destruct (IH (ins_leaf d s) T (fun u Hu => Hl u (or_intror Hu))) as (T2 & K2 & N2).
  split; [exact T2|]. split; [intros p Hp; apply K2, K, Hp|].
  intros u [<-|Hu] Hp; [apply K2, N, Hp|apply N2; assumption].
Qed.
Lemma fill_table n : (0 < n)%nat -> exists st, cn_fill n = Ok st /\ cn_indent st = 2%Z /\ table n (cn_dict st) /\
  forall s, proper_string n s -> In (dval s, s) (cn_dict st).
Proof.
  destruct n as [|i]; [lia|]. intros _. unfold cn_fill, cn_init.
  assert (Ha : forall m, alld (repeat cZero m)) by (induction m; constructor; [reflexivity|assumption]).
  destruct (cycle_bits_spec i (repeat cZero (S i)) [] 2 [] (repeat_length _ _) (Ha _) (Forall_nil _)) as (pre' & L & A & E).
  rewrite app_nil_r in E. rewrite E. eexists. split; [reflexivity|]. cbn [cn_indent cn_dict]. split; [reflexivity|].
  destruct (fold_table (S i) (strs i []) []) as (T & _ & N).
  - split; [constructor|intros ? ? []].
  - intros s Hs. apply in_strs in Hs as (pre & -> & Hl & Hp). rewrite app_nil_r. auto.
  - split; [exact T|]. intros s Hs. apply N; [|exact Hs]. apply in_strs. exists s. rewrite app_nil_r.
    destruct Hs as (Hl & Hp & _). auto.
Qed.
Lemma zrange_spec K : (0 <= K)%Z -> exists l : list Z, NoDup l /\ (forall v, In v l <-> (Z.abs v <= K)%Z) /\ Z.of_nat (length l) = (2 * K + 1)%Z.
Proof.
  intros HK. exists (map (fun i => Z.of_nat i - K)%Z (seq 0 (Z.to_nat (2 * K + 1)))). split; [|split].
  - apply Injective_map_NoDup; [intros a b; lia|apply seq_NoDup].
  - intros v. rewrite in_map_iff. split.
    + intros (i & <- & Hi). apply in_seq in Hi. lia.
    + intros Hv. exists (Z.to_nat (v + K)). split; [lia|]. apply in_seq. lia.
  - rewrite map_length, seq_length. lia.
Qed.

(** ** C133 *)
Theorem C133_table : forall n, (0 < n)%nat ->
  exists st, cn_fill n = Ok st /\ cn_indent st = 2%Z /\
  ForallOrdPairs (fun a b => ~ (fst a == fst b)%Q) (cn_dict st) /\
  (forall k s, In (k, s) (cn_dict st) -> proper_string n s /\ (k == csd_value s)%Q) /\
  (forall s, proper_string n s -> exists k, In (k, s) (cn_dict st)) /\
  (forall v : Z, (exists k s, In (k, s) (cn_dict st) /\ (k == inject_Z v)%Q) <-> (Z.abs v <= 2 ^ (Z.of_nat n + 1) / 3)%Z) /\
  Z.of_nat (length (cn_dict st)) = (2 * (2 ^ (Z.of_nat n + 1) / 3) + 1)%Z.
Proof.
  intros n Hn. destruct (fill_table n Hn) as (st & E & Hi & [Hk Ht] & Hs). exists st.
  split; [exact E|]. split; [exact Hi|]. split; [exact Hk|].
  assert (Hin : forall k s, In (k, s) (cn_dict st) -> length s = n /\ alld s /\ canon s /\ k = dval s /\ (k == inject_Z (sd_value s))%Q).
  { intros k s H. destruct (Ht k s H) as [Hp Ek]. apply proper_iff in Hp as (L & A & C).
    destruct (dval_int s A) as [Ev Hv]. rewrite Ek in Ev. injection Ev as ->. auto. }
  split.
  { intros k s H. split; [apply (Ht k s H)|]. destruct (Hin k s H) as (_ & A & _ & _ & Hv). rewrite Hv. symmetry. apply value_int, A. }
  split; [intros s H; exists (dval s); apply Hs, H|].
  assert (Hb : forall v, (3 * Z.abs v < 2 ^ (Z.of_nat n + 1))%Z <-> (Z.abs v <= 2 ^ (Z.of_nat n + 1) / 3)%Z).
  { intros v. assert (M := pow2_mod3 (Z.of_nat n + 1) ltac:(lia)). assert (D := Z.div_mod (2 ^ (Z.of_nat n + 1)) 3 ltac:(lia)).
    assert (B := Z.mod_pos_bound (2 ^ (Z.of_nat n + 1)) 3 ltac:(lia)). lia. }
  assert (Hr : forall v : Z, (exists k s, In (k, s) (cn_dict st) /\ (k == inject_Z v)%Q) <-> (Z.abs v <= 2 ^ (Z.of_nat n + 1) / 3)%Z).
  { intros v. rewrite <- Hb. split.
    - intros (k & s & H & Ek). destruct (Hin k s H) as (L & A & C & _ & Hv). rewrite Hv in Ek. apply (proj1 (inject_Z_injective _ _)) in Ek. subst v.
      rewrite <- L. apply canon_range; assumption.
    - intros H. destruct (canon_exists n v H) as (s & L & A & C & V & _). exists (dval s), s.
      split; [apply Hs, proper_iff; auto|]. destruct (dval_int s A) as [_ Hv]. rewrite Hv, V. reflexivity. }
  split; [exact Hr|].
  destruct (zrange_spec (2 ^ (Z.of_nat n + 1) / 3)) as (l & Nl & Hl & Ll); [apply Z.div_pos; [apply Z.pow_nonneg; lia|lia]|].
  rewrite <- Ll. f_equal.
  set (l2 := map (fun p => sd_value (snd p)) (cn_dict st)).
  assert (L2 : length l2 = length (cn_dict st)) by apply map_length.
  assert (I12 : forall v, In v l2 <-> In v l).
  { intros v. rewrite Hl, <- Hr. unfold l2. rewrite in_map_iff. split.
    - intros ([k s] & <- & H). exists k, s. split; [exact H|]. apply (Hin k s H).
    - intros (k & s & H & Ek). exists (k, s). split; [|exact H]. destruct (Hin k s H) as (_ & _ & _ & _ & Hv). rewrite Hv in Ek.
      apply (proj1 (inject_Z_injective _ _)) in Ek. exact Ek. }
  assert (N2 : NoDup l2).
  { unfold l2. clear -Hk Hin. induction Hk as [|[k s] d Hh Hk IH]; cbn; [constructor|]. constructor.
    - intros Hx. apply in_map_iff in Hx as ([k' s'] & Ev & H'). rewrite Forall_forall in Hh. apply (Hh _ H'). cbn in *.
      destruct (Hin k s (or_introl eq_refl)) as (_ & _ & _ & _ & V1). destruct (Hin k' s' (or_intror H')) as (_ & _ & _ & _ & V2).
      rewrite V1, V2, Ev. reflexivity.
    - apply IH. intros k' s' H'. apply Hin. right. exact H'. }
  rewrite <- L2. apply Nat.le_antisymm; apply NoDup_incl_length; auto; intros v Hv; apply I12; exact Hv.
Qed.
Print Assumptions C133_table.

(** the table filled again over an older one (other num_digits, same session): the numbers with n proper digits get
    their string of n digits, the other entries stay *)
Definition entry (d : list (Q * chars)) (v : Q) (s : chars) : Prop := exists k, In (k, s) d /\ (k == v)%Q.
Lemma dict_set_in d k s p : In p (dict_set d k s) -> In p d \/ (fst p == k)%Q /\ snd p = s.
Proof.
  induction d as [|[k' s'] d IH]; cbn [dict_set]; [intros [<-|[]]; right; split; reflexivity|].
  destruct (Qeq_bool k' k) eqn:E.
  - apply Qeq_bool_iff in E. intros [<-|H]; [right; split; [exact E|reflexivity]|left; right; exact H].
  - intros [<-|H]; [left; left; reflexivity|]. destruct (IH H) as [I|I]; [left; right; exact I|right; exact I].
Qed.
Lemma dict_set_keys d k s : dkeys d -> dkeys (dict_set d k s).
Proof.
  induction 1 as [|[k' s'] d Hh Hd IH]; cbn [dict_set]; [repeat constructor|].
  destruct (Qeq_bool k' k) eqn:E; [constructor; assumption|].
  constructor; [|exact IH]. rewrite Forall_forall in *. intros p Hp. apply dict_set_in in Hp as [Hp|[Hp _]]; [apply Hh, Hp|].
  cbn [fst]. intros X. apply Qeq_bool_neq in E. apply E. rewrite X. exact Hp.
Qed.
Lemma dict_set_entry d k s v u : dkeys d ->
  entry (dict_set d k s) v u <-> ((v == k)%Q /\ u = s) \/ (~ (v == k)%Q /\ entry d v u).
Proof.
  induction 1 as [|[k' s'] d Hh Hd IH]; cbn [dict_set].
  - split.
    + intros (k0 & [[= <- <-]|[]] & E). left. split; [symmetry; exact E|reflexivity].
    + intros [[E ->]|[_ (k0 & [] & _)]]. exists k. split; [left; reflexivity|symmetry; exact E].
  - rewrite Forall_forall in Hh. destruct (Qeq_bool k' k) eqn:E.
    + apply Qeq_bool_iff in E. split.
      * intros (k0 & [[= <- <-]|Hin] & Ek); [left; split; [rewrite <- Ek; exact E|reflexivity]|].
        right. split; [|exists k0; split; [right; exact Hin|exact Ek]]. intros Ev. apply (Hh _ Hin). cbn [fst]. rewrite E, <- Ev. symmetry. exact Ek.
      * intros [[Ev ->]|[Nv (k0 & [[= <- <-]|Hin] & Ek)]].
        -- exists k'. split; [left; reflexivity|rewrite E; symmetry; exact Ev].
        -- exfalso. apply Nv. rewrite <- Ek. exact E.
        -- exists k0. split; [right; exact Hin|exact Ek].
    + apply Qeq_bool_neq in E. split.
      * intros (k0 & [[= <- <-]|Hin] & Ek).
        -- right. split; [intros Ev; apply E; rewrite Ek; exact Ev|]. exists k'. split; [left; reflexivity|exact Ek].
        -- assert (En : entry (dict_set d k s) v u) by (exists k0; split; assumption). apply IH in En as [En|[Nv (k1 & H1 & H2)]]; [left; exact En|].
           right. split; [exact Nv|]. exists k1. split; [right; exact H1|exact H2].
      * intros [En|[Nv (k0 & [[= <- <-]|Hin] & Ek)]].
        -- assert (X : entry (dict_set d k s) v u) by (apply IH; left; exact En). destruct X as (k1 & H1 & H2). exists k1. split; [right; exact H1|exact H2].
        -- exists k'. split; [left; reflexivity|exact Ek].
        -- assert (X : entry (dict_set d k s) v u) by (apply IH; right; split; [exact Nv|exists k0; auto]). destruct X as (k1 & H1 & H2). exists k1. split; [right; exact H1|exact H2].
Qed.
Lemma proper_unique n u s : proper_string n u -> proper_string n s -> (csd_value u == csd_value s)%Q -> u = s.
Proof.
  intros Hu Hs. apply proper_iff in Hu as (L & A & C). apply proper_iff in Hs as (L' & A' & C').
  rewrite (value_int u A), (value_int s A'), inject_Z_injective. intros E. apply canon_unique; auto; congruence.
Qed.
Lemma fold_entries n l : forall d, dkeys d -> (forall s, In s l -> length s = n /\ alld s) ->
  let d' := fold_left ins_leaf l d in dkeys d' /\
  (forall s, proper_string n s -> (In s l \/ entry d (csd_value s) s) -> entry d' (csd_value s) s) /\
  (forall v s, (forall u, proper_string n u -> ~ (csd_value u == v)%Q) -> (entry d' v s <-> entry d v s)).
Proof.
  induction l as [|a l IH]; intros d Hd Hl; cbn [fold_left]; [split; [exact Hd|]; split; [intros s _ [[]|H]; exact H|intros; reflexivity]|].
  destruct (Hl a (or_introl eq_refl)) as [L A].
  assert (D1 : dkeys (ins_leaf d a)) by (unfold ins_leaf; destruct (is_proper_csd a); [apply dict_set_keys|]; exact Hd).
  destruct (IH (ins_leaf d a) D1 (fun u Hu => Hl u (or_intror Hu))) as (D2 & H1 & H2). split; [exact D2|].
  assert (VA : (dval a == csd_value a)%Q) by (destruct (dval_int a A) as [_ E]; rewrite E; symmetry; apply value_int; exact A).
  split.
  - intros s Hs Hin. apply (H1 s Hs). destruct Hin as [[->|Hin]|He]; [|left; exact Hin|]; right.
    + unfold ins_leaf. assert (Hp := Hs). apply proper_iff in Hp as (_ & _ & C). apply (proper_canon s A) in C. rewrite C.
      apply dict_set_entry; [exact Hd|]. left. split; [symmetry; exact VA|reflexivity].
    + unfold ins_leaf. destruct (is_proper_csd a) eqn:P; [|exact He]. apply (proper_canon a A) in P.
      assert (Hpa : proper_string n a) by (apply proper_iff; auto).
      apply dict_set_entry; [exact Hd|]. destruct (Qeq_dec (csd_value s) (dval a)) as [E|E]; [|right; split; assumption].
      left. split; [exact E|]. apply (proper_unique n); auto. rewrite <- VA. exact E.
  - intros v s Hv. rewrite (H2 v s Hv). unfold ins_leaf. destruct (is_proper_csd a) eqn:P; [|reflexivity]. apply (proper_canon a A) in P.
    assert (Hpa : proper_string n a) by (apply proper_iff; auto). rewrite (dict_set_entry d (dval a) a v s Hd).
    assert (Nv : ~ (v == dval a)%Q) by (intros E; apply (Hv a Hpa); rewrite <- VA; symmetry; exact E). tauto.
Qed.
Theorem C133_refill : forall i st, length (cn_num st) = S i -> Forall (fun c => sd_char c = true) (cn_num st) ->
  ForallOrdPairs (fun a b => ~ (fst a == fst b)%Q) (cn_dict st) ->
  exists st', cycle_bits i st = Ok st' /\ length (cn_num st') = S i /\ cn_indent st' = cn_indent st /\
  ForallOrdPairs (fun a b => ~ (fst a == fst b)%Q) (cn_dict st') /\
  (forall s, proper_string (S i) s -> exists k, In (k, s) (cn_dict st') /\ (k == csd_value s)%Q) /\
  (forall v s, (forall u, proper_string (S i) u -> ~ (csd_value u == v)%Q) ->
     ((exists k, In (k, s) (cn_dict st') /\ (k == v)%Q) <-> (exists k, In (k, s) (cn_dict st) /\ (k == v)%Q))).
Proof.
  intros i [num ind d] Hl Ha Hd. cbn [cn_num cn_indent cn_dict] in *.
  destruct (cycle_bits_spec i num [] ind d Hl Ha (Forall_nil _)) as (pre & L & A & E). rewrite !app_nil_r in E. rewrite E.
  eexists. split; [reflexivity|]. cbn [cn_num cn_indent cn_dict]. split; [exact L|]. split; [reflexivity|].
  destruct (fold_entries (S i) (strs i []) d Hd) as (H0 & H1 & H2).
  { intros s Hs. apply in_strs in Hs as (p & -> & Hp & Hp2). rewrite app_nil_r. auto. }
  split; [exact H0|]. split; [|exact H2].
  intros s Hs. apply (H1 s Hs). left. apply in_strs. exists s. rewrite app_nil_r. destruct Hs as (? & ? & _). auto.
Qed.
Print Assumptions C133_refill.
(** a table of three digits filled again with two: 2 gets "+0", 5 keeps "+0+" *)
Example C133_refill_ex : exists st0 st1 k, cn_fill 3 = Ok st0 /\
  length (cn_num {| cn_num := repeat cZero 2; cn_indent := 2; cn_dict := cn_dict st0 |}) = 2%nat /\
  ForallOrdPairs (fun a b => ~ (fst a == fst b)%Q) (cn_dict st0) /\
  cycle_bits 1 {| cn_num := repeat cZero 2; cn_indent := 2; cn_dict := cn_dict st0 |} = Ok st1 /\
  In (k, [cPlus; cZero]) (cn_dict st1) /\ (k == 2)%Q.
Proof.
  destruct (C133_table 3 ltac:(lia)) as (st0 & E & _ & Hk & _).
  destruct (C133_refill 1 {| cn_num := repeat cZero 2; cn_indent := 2; cn_dict := cn_dict st0 |}) as (st1 & E1 & _ & _ & _ & H & _);
    [reflexivity|repeat constructor|exact Hk|].
  destruct (H [cPlus; cZero]) as (k & H1 & H2).
  { apply proper_iff. split; [reflexivity|]. split; [repeat constructor|]. cbn. auto. }
  exists st0, st1, k. split; [exact E|]. split; [reflexivity|]. split; [exact Hk|]. split; [exact E1|]. split; [exact H1|]. rewrite H2. reflexivity.
Qed.

(** the strings of the table are to_csd's, padded with zeros on the left *)
Theorem C133_table_is_to_csd : forall n st k s, cn_fill n = Ok st -> In (k, s) (cn_dict st) ->
  ((k == 0)%Q -> s = repeat cZero n) /\
  (~ (k == 0)%Q -> exists s', to_csd k 0 = Ok s' /\ s = repeat cZero (n - length s') ++ s').
Proof.
  intros n st k s E Hin. assert (Hn : (0 < n)%nat) by (destruct n; [discriminate|lia]).
  destruct (fill_table n Hn) as (st' & E' & _ & [_ Ht] & _). rewrite E in E'. injection E' as <-.
  destruct (Ht k s Hin) as [Hp Ek]. apply proper_iff in Hp as (L & A & C).
  destruct (dval_int s A) as [Ev Hv]. rewrite Ek in Ev. injection Ev as ->.
  assert (Hz : forall m, alld (repeat cZero m) /\ canon (repeat cZero m) /\ sd_value (repeat cZero m) = 0%Z).
  { induction m as [|m (I1 & I2 & I3)]; [repeat split; constructor|]. cbn [repeat]. split; [constructor; [reflexivity|exact I1]|].
    split; [cbn [canon]; split; [destruct (repeat cZero m); auto|exact I2]|]. cbn [sd_value]. rewrite I3. reflexivity. }
  split.
  - intros H0. rewrite Hv in H0. apply (proj1 (inject_Z_injective _ 0%Z)) in H0. destruct (Hz n) as (Z1 & Z2 & Z3).
    apply canon_unique; auto; [rewrite repeat_length; exact L|congruence].
  - intros H0. assert (Hsplit : exists m s', s = repeat cZero m ++ s' /\ (s' = [] \/ starts_nonzero s')).
    { clear -A. induction A as [|c r Hc A (m & s' & -> & H)]; [exists 0, []; auto|].
      destruct (Z.eq_dec (dv c) 0) as [Ez|Ez].
      - apply (dv0 c Hc) in Ez. apply Ascii.eqb_eq in Ez. subst c. exists (S m), s'. auto.
      - exists 0, (c :: repeat cZero m ++ s'). split; [reflexivity|]. right. exists c, (repeat cZero m ++ s'). auto. }
    destruct Hsplit as (m & s' & -> & [-> | Hs']).
    { exfalso. apply H0. rewrite Hv, app_nil_r. destruct (Hz m) as (_ & _ & ->). reflexivity. }
    assert (A' : alld s') by (apply Forall_app in A; apply A).
    assert (C' : canon s') by (clear -C; induction m as [|m IH]; [exact C|]; apply IH; cbn [repeat app canon] in C; apply C).
    assert (V' : sd_value (repeat cZero m ++ s') = sd_value s').
    { clear. induction m as [|m IH]; [reflexivity|]. cbn [repeat app sd_value]. rewrite IH. reflexivity. }
    assert (P' : proper_string (length s') s') by (apply proper_iff; auto).
    destruct P' as (_ & F' & K').
    destruct (C51_round_trip_integer s' F' K' Hs') as (v & Ev' & Et).
    exists s'. split.
    + destruct (dval_int s' A') as [Ed Hd']. rewrite Ev' in Ed. injection Ed as ->.
      assert (Eq : dval (repeat cZero m ++ s') = dval s').
      { assert (D : forall j, dec_loop (repeat cZero m ++ s') j 0 0 = dec_loop s' (m + j) 0 0).
        { clear. induction m as [|m IH]; intros j; [reflexivity|]. cbn [repeat app dec_loop].
          change (Ascii.eqb cZero cPlus) with false. change (Ascii.eqb cZero cMinus) with false. change (Ascii.eqb cZero cZero) with true. cbn iota.
          change (0 * 2)%Q with 0%Q. rewrite IH. f_equal. lia. }
        assert (D2 : forall l i i' dec, alld l -> dec_loop l i dec 0 = dec_loop l i' dec 0).
        { clear. induction l as [|c l IH]; intros i i' dec Ha; [reflexivity|]. inversion Ha as [|? ? Hc Hl]; subst.
          cbn [dec_loop]. apply sd_cases in Hc as [-> | [-> | ->]]; cbn; apply IH, Hl. }
        assert (D3 : forall l i dec dec1 loc1, alld l -> dec_loop l i dec 0 = Ok (dec1, loc1) -> loc1 = 0).
        { clear. induction l as [|c l IH]; intros i dec dec1 loc1 Ha H; [cbn in H; congruence|]. inversion Ha as [|? ? Hc Hl]; subst.
          cbn [dec_loop] in H. apply sd_cases in Hc as [-> | [-> | ->]]; cbn in H; apply IH in H; assumption. }
        unfold dval, to_decimal. rewrite D, (D2 s' (m + 0) 0 0%Q A').
        destruct (dec_loop s' 0 0 0) as [[d1 l1]|e] eqn:Ed1; [|reflexivity]. cbn [bind].
        apply D3 in Ed1; [|exact A']. subst l1. reflexivity. }
      rewrite Eq. exact Et.
    + f_equal. f_equal. rewrite app_length, repeat_length in L. lia.
Qed.
Print Assumptions C133_table_is_to_csd.
Example C133_ex : exists st, cn_fill 4 = Ok st /\ length (cn_dict st) = 21 /\ In (10%Q, chars_of "+0+0") (cn_dict st) /\ In ((-7)%Q, chars_of "-00+") (cn_dict st).
Proof. eexists. split; [vm_compute; reflexivity|]. vm_compute. repeat split; tauto. Qed.

(** ** C134: the script raises once the table is complete *)
Theorem C134_script_fails : forall n,
  (n = 0%nat -> cn_main n = Raise IndexError) /\
  ((0 < n)%nat -> (exists st, cn_fill n = Ok st /\ cn_dict st <> []) /\ cn_main n = Raise AttributeError).
Proof.
  intros n. split; [intros ->; reflexivity|]. intros Hn. destruct (C133_table n Hn) as (st & E & _ & _ & _ & _ & _ & Hl).
  split.
  - exists st. split; [exact E|]. intros H. rewrite H in Hl. cbn [List.length] in Hl.
    assert (0 <= 2 ^ (Z.of_nat n + 1) / 3)%Z by (apply Z.div_pos; [apply Z.pow_nonneg; lia|lia]). lia.
  - unfold cn_main. rewrite E. reflexivity.
Qed.
Print Assumptions C134_script_fails.

(** a list of digits that is too short makes the recursion fail at its first assignment *)
Lemma set_char_short l : forall i c, (length l <= i)%nat -> set_char l i c = Raise IndexError.
Proof. induction l as [|a l IH]; intros i c H; [destruct i; reflexivity|]. destruct i as [|i]; [cbn in H; lia|]. cbn [set_char]. rewrite IH by (cbn in H; lia). reflexivity. Qed.
Theorem C134_too_short : forall i st, (length (cn_num st) <= i)%nat -> cycle_bits i st = Raise IndexError.
Proof. intros i st H. destruct i; cbn [cycle_bits cn_chars cn_num]; rewrite set_char_short by exact H; reflexivity. Qed.
Print Assumptions C134_too_short.
Example C134_too_short_ex : (length (cn_num (cn_init 3)) <= 3)%nat.
Proof. cbn. lia. Qed.

(** the other printing function fails in the same way, whatever the table *)
Theorem C134_show_fails : forall st, show_csd st = Raise AttributeError.
Proof. reflexivity. Qed.
Print Assumptions C134_show_fails.
