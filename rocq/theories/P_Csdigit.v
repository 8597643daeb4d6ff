(** Lemmas about the model of csdigit.m: the loop keeps value, and separates the digits. *)
From Coq Require Import QArith Qabs Qround Ascii ZArith List Bool Lia.
From Verif Require Import Base M_Csd M_Csdigit S_Csd.
Import ListNotations.
Local Open Scope Z_scope.

Lemma p2_pos k : 0 <= k -> 0 < 2 ^ k.
Proof. intros H. apply Z.pow_pos_nonneg; lia. Qed.
Lemma tb_low a b s j : 0 <= j < s -> 0 <= b < 2 ^ s -> Z.testbit (a * 2 ^ s + b) j = Z.testbit b j.
Proof.
  intros Hj Hb. rewrite <- (Z.mod_pow2_bits_low (a * 2 ^ s + b) s j) by lia.
  f_equal. rewrite Z.add_comm, Z.mod_add by lia. apply Z.mod_small; lia.
Qed.
Lemma tb_high a b s j : 0 <= s <= j -> 0 <= b < 2 ^ s -> Z.testbit (a * 2 ^ s + b) j = Z.testbit a (j - s).
Proof.
  intros Hj Hb. replace j with ((j - s) + s) at 1 by lia. rewrite <- Z.div_pow2_bits by lia.
  f_equal. rewrite Z.div_add_l by lia. rewrite Z.div_small by lia. lia.
Qed.
Lemma tb_small m s j : 0 <= m < 2 ^ s -> s <= j -> Z.testbit m j = false.
Proof.
  intros Hm Hj. assert (0 <= s) by (destruct (Z.leb_spec 0 s); [assumption|rewrite (Z.pow_neg_r 2 s) in Hm by lia; lia]).
  rewrite <- (Z.add_0_l m). replace (0 + m) with (0 * 2 ^ s + m) by lia. rewrite tb_high by lia. apply Z.bits_0.
Qed.
Lemma mod_S n L : 0 <= L -> n mod 2 ^ (L + 1) = (if Z.testbit n L then 2 ^ L else 0) + n mod 2 ^ L.
Proof.
  intros HL. assert (P := p2_pos L HL). rewrite Z.pow_add_r, Z.pow_1_r by lia.
  assert (E := Z.div_mod n (2 ^ L) ltac:(lia)). assert (B := Z.mod_pos_bound n (2 ^ L) P).
  assert (T : Z.testbit n L = Z.odd (n / 2 ^ L)).
  { rewrite <- Z.bit0_odd, Z.div_pow2_bits by lia. f_equal. }
  rewrite T. assert (O := Zdiv2_odd_eqn (n / 2 ^ L)).
  symmetry. apply Z.mod_unique with (q := Z.div2 (n / 2 ^ L)).
  - left. destruct (Z.odd (n / 2 ^ L)); lia.
  - destruct (Z.odd (n / 2 ^ L)); nia.
Qed.

Definition no_pair (n : Z) : Prop := forall k, 0 <= k -> ~ (Z.testbit n k = true /\ Z.testbit n (k + 1) = true).
Definition sep (n m : Z) : Prop := forall j, Z.testbit m j = true ->
  Z.testbit n j = false /\ Z.testbit n (j - 1) = false /\ Z.testbit n (j + 1) = false /\ Z.testbit m (j + 1) = false.

(** ** the texts *)
Lemma bits_len n L : length (bits n L) = L.
Proof. induction L; cbn; auto. Qed.
Lemma bin2dec_acc n L : forall a, fold_left (fun a (b : bool) => 2 * a + (if b then 1 else 0)) (bits n L) a = a * 2 ^ Z.of_nat L + n mod 2 ^ Z.of_nat L.
Proof.
  induction L as [|L IH]; intros a.
  - cbn [bits fold_left]. rewrite Z.mod_1_r. cbn. lia.
  - cbn [bits fold_left]. rewrite IH. replace (Z.of_nat (S L)) with (Z.of_nat L + 1) by lia.
    rewrite mod_S by lia. rewrite Z.pow_add_r, Z.pow_1_r by lia. destruct (Z.testbit n (Z.of_nat L)); lia.
Qed.
Lemma bin2dec_bits n L : bin2dec (bits n L) = n mod 2 ^ Z.of_nat L.
Proof. unfold bin2dec. rewrite bin2dec_acc. lia. Qed.
Lemma bin2dec_small n L : 0 <= n < 2 ^ Z.of_nat L -> bin2dec (bits n L) = n.
Proof. intros H. rewrite bin2dec_bits. apply Z.mod_small, H. Qed.
Lemma bitlen_lt n : 0 <= n -> n < 2 ^ bitlen n.
Proof.
  intros H. unfold bitlen. destruct (Z.eqb_spec n 0) as [->|N]; [cbn; lia|].
  assert (S := Z.log2_spec n ltac:(lia)). rewrite <- Z.add_1_r in S. lia.
Qed.
Lemma bitlen_nonneg n : 0 <= bitlen n.
Proof. unfold bitlen. destruct (n =? 0); [lia|]. assert (H := Z.log2_nonneg n). lia. Qed.
Lemma bitlen_le n b : 0 <= n < 2 ^ b -> 0 <= b -> bitlen n <= b.
Proof.
  intros H Hb. unfold bitlen. destruct (Z.eqb_spec n 0) as [->|N]; [lia|].
  assert (Z.log2 n < b) by (apply Z.log2_lt_pow2; lia). lia.
Qed.
Lemma bitlen_mono n n' : 0 <= n <= n' -> bitlen n <= bitlen n'.
Proof.
  intros H. apply bitlen_le; [|apply bitlen_nonneg]. assert (B := bitlen_lt n' ltac:(lia)). lia.
Qed.
Definition len (w n : Z) : nat := Z.to_nat (Z.max w (bitlen n)).
Lemma len_lt w n : 0 <= n -> n < 2 ^ Z.of_nat (len w n).
Proof.
  intros H. unfold len. assert (B := bitlen_nonneg n). rewrite Z2Nat.id by lia.
  eapply Z.lt_le_trans; [apply bitlen_lt, H|]. apply Z.pow_le_mono_r; lia.
Qed.
Lemma dec2bin_ok n w : 0 <= w -> dec2bin n w = Ok (bits n (len w n)).
Proof. intros H. unfold dec2bin, len. destruct (Z.ltb_spec w 0); [lia|reflexivity]. Qed.

Lemma last_pair_spec n : forall L i prev,
  match last_pair i prev (bits n L) with
  | None => (forall k, 0 <= k < Z.of_nat L - 1 -> ~ (Z.testbit n k = true /\ Z.testbit n (k + 1) = true)) /\
            (L = 0%nat \/ prev = false \/ Z.testbit n (Z.of_nat L - 1) = false)
  | Some p => exists k, (p = i + L - 1 - k /\ k < L)%nat /\ Z.testbit n (Z.of_nat k) = true /\
            ((S k < L)%nat -> Z.testbit n (Z.of_nat k + 1) = true) /\ ((S k = L)%nat -> prev = true) /\
            (forall j, 0 <= j < Z.of_nat k -> ~ (Z.testbit n j = true /\ Z.testbit n (j + 1) = true))
  end.
Proof.
  induction L as [|L IH]; intros i prev.
  - cbn. split; [intros k Hk; lia|left; reflexivity].
  - cbn [bits last_pair]. specialize (IH (S i) (Z.testbit n (Z.of_nat L))).
    destruct (last_pair (S i) (Z.testbit n (Z.of_nat L)) (bits n L)) as [p|].
    + destruct IH as (k & (Ep & Hk) & T & T1 & T2 & Hj). exists k. split; [lia|]. split; [exact T|]. split; [|split; [lia|exact Hj]].
      intros _. destruct (Nat.eq_dec (S k) L) as [E|E]; [|apply T1; lia].
      replace (Z.of_nat k + 1) with (Z.of_nat L) by lia. apply T2, E.
    + destruct IH as (Hn & Ho).
      assert (Hn' : forall k, 0 <= k < Z.of_nat L -> ~ (Z.testbit n k = true /\ Z.testbit n (k + 1) = true)).
      { intros k Hk (A & B). destruct (Z.eq_dec k (Z.of_nat L - 1)) as [E|E]; [|apply (Hn k); [lia|auto]].
        rewrite E in A. replace (k + 1) with (Z.of_nat L) in B by lia. destruct Ho as [Ho|[Ho|Ho]]; [lia|congruence|congruence]. }
      destruct (prev && Z.testbit n (Z.of_nat L))%bool eqn:E.
      * apply andb_true_iff in E. destruct E as (-> & E). exists L. split; [lia|]. split; [exact E|]. split; [lia|]. split; [auto|].
        exact Hn'.
      * split; [intros k Hk; apply Hn'; lia|]. right. replace (Z.of_nat (S L) - 1) with (Z.of_nat L) by lia.
        destruct prev; [right|left]; auto.
Qed.

(** digits: '-' where m has a 1 *)
Fixpoint dg (m : Z) (L : nat) : chars :=
  match L with O => [] | S L => (if Z.testbit m (Z.of_nat L) then cMinus else cZero) :: dg m L end.
Definition ch (n m j : Z) : ascii := if Z.testbit n j then cPlus else if Z.testbit m j then cMinus else cZero.
Fixpoint sdl (n m : Z) (L : nat) : chars :=
  match L with O => [] | S L => ch n m (Z.of_nat L) :: sdl n m L end.
Lemma dg_len m L : length (dg m L) = L.
Proof. induction L; cbn; auto. Qed.
Lemma sdl_len n m L : length (sdl n m L) = L.
Proof. induction L; cbn; auto. Qed.
Lemma dg_0 L : dg 0 L = repeat cZero L.
Proof. induction L; cbn [dg repeat]; [reflexivity|]. rewrite Z.bits_0, IHL. reflexivity. Qed.
Lemma bits_0 L : bits 0 L = repeat false L.
Proof. induction L; cbn [bits repeat]; [reflexivity|]. rewrite Z.bits_0, IHL. reflexivity. Qed.
Lemma put_plus_dg n m L : put_plus (bits n L) (dg m L) = sdl n m L.
Proof. induction L; cbn; [reflexivity|]. rewrite IHL. unfold ch. destruct (Z.testbit n _); reflexivity. Qed.
Lemma dg_minus m L : map (fun c => Ascii.eqb c cMinus) (dg m L) = bits m L.
Proof. induction L; cbn; [reflexivity|]. rewrite IHL. destruct (Z.testbit m _); reflexivity. Qed.
Lemma tb_add_pow m k j : 0 <= k -> 0 <= m -> Z.testbit m k = false -> Z.testbit (m + 2 ^ k) j = (Z.testbit m j || (j =? k))%bool.
Proof.
  intros Hk Hm T. rewrite Z.add_nocarry_lxor.
  - rewrite Z.lxor_spec, Z.pow2_bits_eqb by lia. rewrite (Z.eqb_sym k j).
    destruct (Z.eqb_spec j k) as [->|E]; [rewrite T; reflexivity|]. destruct (Z.testbit m j); reflexivity.
  - apply Z.bits_inj. intros i. rewrite Z.land_spec, Z.pow2_bits_eqb, Z.bits_0 by lia.
    destruct (Z.eqb_spec k i) as [<-|E]; [rewrite T; reflexivity|]. apply andb_false_r.
Qed.
Lemma dg_put m k : 0 <= m -> Z.testbit m (Z.of_nat k) = false -> forall L, (k < L)%nat ->
  put (dg m L) (L - 1 - k) cMinus = dg (m + 2 ^ Z.of_nat k) L.
Proof.
  intros Hm T. 
  assert (G : forall L, (L <= k)%nat -> dg (m + 2 ^ Z.of_nat k) L = dg m L).
  { induction L as [|L IH]; intros HL; [reflexivity|]. cbn [dg]. rewrite IH by lia. rewrite tb_add_pow by (auto; lia).
    destruct (Z.eqb_spec (Z.of_nat L) (Z.of_nat k)); [lia|]. rewrite orb_false_r. reflexivity. }
  induction L as [|L IH]; intros HL; [lia|]. cbn [dg]. rewrite tb_add_pow by (auto; lia).
  destruct (Nat.eq_dec k L) as [E|E].
  - replace (S L - 1 - k)%nat with 0%nat by lia. cbn [put]. rewrite G by lia. rewrite (proj2 (Z.eqb_eq _ _)) by lia.
    rewrite orb_true_r. reflexivity.
  - replace (S L - 1 - k)%nat with (S (L - 1 - k)) by lia. cbn [put]. rewrite IH by lia.
    destruct (Z.eqb_spec (Z.of_nat L) (Z.of_nat k)); [lia|]. rewrite orb_false_r. reflexivity.
Qed.
Lemma bits_put k : forall L, (k < L)%nat -> put (repeat false L) (L - 1 - k) true = bits (2 ^ Z.of_nat k) L.
Proof.
  assert (G : forall L, (L <= k)%nat -> bits (2 ^ Z.of_nat k) L = repeat false L).
  { induction L as [|L IH]; intros HL; [reflexivity|]. cbn [bits repeat]. rewrite IH by lia. rewrite Z.pow2_bits_eqb by lia.
    destruct (Z.eqb_spec (Z.of_nat k) (Z.of_nat L)); [lia|]. reflexivity. }
  induction L as [|L IH]; intros HL; [lia|]. cbn [bits repeat]. rewrite Z.pow2_bits_eqb by lia.
  destruct (Nat.eq_dec k L) as [E|E].
  - replace (S L - 1 - k)%nat with 0%nat by lia. cbn [put]. rewrite G by lia. rewrite (proj2 (Z.eqb_eq _ _)) by lia. reflexivity.
  - replace (S L - 1 - k)%nat with (S (L - 1 - k)) by lia. cbn [put]. rewrite IH by lia.
    destruct (Z.eqb_spec (Z.of_nat k) (Z.of_nat L)); [lia|]. reflexivity.
Qed.

(** ** one round *)
Lemma pair_split n k : 0 <= k -> 0 <= n -> Z.testbit n k = true -> Z.testbit n (k + 1) = true ->
  exists a b, n = (4 * a + 3) * 2 ^ k + b /\ 0 <= b < 2 ^ k /\ 0 <= a.
Proof.
  intros Hk Hn T T1. assert (P := p2_pos k Hk).
  exists (n / 2 ^ k / 4), (n mod 2 ^ k). split; [|split; [apply Z.mod_pos_bound, P|]].
  2:{ apply Z.div_pos; [apply Z.div_pos|]; lia. }
  assert (E := Z.div_mod n (2 ^ k) ltac:(lia)). set (q := n / 2 ^ k) in *.
  assert (Q0 : Z.odd q = true) by (rewrite <- Z.bit0_odd; unfold q; rewrite Z.div_pow2_bits by lia; exact T).
  assert (Q1 : Z.odd (Z.div2 q) = true).
  { rewrite <- Z.bit0_odd, Z.div2_div, Z.div2_bits by lia. unfold q. rewrite Z.div_pow2_bits by lia.
    replace (Z.succ 0 + k) with (k + 1) by lia. exact T1. }
  assert (E0 := Zdiv2_odd_eqn q). assert (E1 := Zdiv2_odd_eqn (Z.div2 q)). rewrite Q0 in E0. rewrite Q1 in E1.
  assert (q / 4 = Z.div2 (Z.div2 q)).
  { symmetry. apply Z.div_unique with (r := 3); lia. }
  assert (q = 4 * (q / 4) + 3) by lia. nia.
Qed.

Record inv (N0 b : Z) (n m K : Z) : Prop := {
  iv_n : 0 <= n; iv_m : 0 <= m; iv_eq : n - m = N0; iv_K : 0 <= K; iv_mK : 2 * m < 2 ^ K;
  iv_sep : sep n m;
  iv_pair : forall k, 0 <= k -> Z.testbit n k = true -> Z.testbit n (k + 1) = true -> K <= k;
  iv_b : n < 2 ^ b \/ (no_pair n /\ n < 2 ^ (b + 1)) }.

Lemma inv_step N0 b n m K k : 0 <= b -> inv N0 b n m K -> 0 <= k -> Z.testbit n k = true -> Z.testbit n (k + 1) = true ->
  (forall j, 0 <= j < k -> ~ (Z.testbit n j = true /\ Z.testbit n (j + 1) = true)) ->
  K <= k /\ Z.testbit m k = false /\ inv N0 b (n + 2 ^ k) (m + 2 ^ k) (k + 2) /\
  (forall F, 0 <= F -> n / 2 ^ K < 2 ^ F -> 1 <= F /\ (n + 2 ^ k) / 2 ^ (k + 2) < 2 ^ (F - 1)).
Proof.
  intros Hb [Hn Hm He HK HmK Hs Hp Hbd] Hk T T1 Hlow.
  assert (KK : K <= k) by (apply Hp; assumption).
  destruct (pair_split n k Hk Hn T T1) as (a & r & En & Hr & Ha).
  assert (P := p2_pos k Hk).
  assert (P2 : 2 ^ (k + 2) = 4 * 2 ^ k) by (rewrite Z.pow_add_r by lia; change (2 ^ 2) with 4; lia).
  assert (P1 : 2 ^ (k + 1) = 2 * 2 ^ k) by (rewrite Z.pow_add_r by lia; change (2 ^ 1) with 2; lia).
  assert (En' : n + 2 ^ k = (a + 1) * 2 ^ (k + 2) + r) by lia.
  assert (Hr' : 0 <= r < 2 ^ (k + 2)) by lia.
  assert (mk : 2 * m < 2 ^ k) by (assert (M := Z.pow_le_mono_r 2 K k ltac:(lia) KK); lia).
  assert (Tm : forall j, k - 1 <= j -> Z.testbit m j = false).
  { intros j Hj. destruct (Z.eq_dec k 0) as [E|E].
    - assert (m = 0) as -> by (rewrite E in mk; change (2 ^ 0) with 1 in mk; lia). apply Z.bits_0.
    - apply (tb_small m (k - 1)); [|lia]. split; [lia|].
      assert (2 ^ k = 2 * 2 ^ (k - 1)) by (rewrite <- Z.pow_succ_r by lia; f_equal; lia). lia. }
  assert (Tn : forall j, j < k -> Z.testbit (n + 2 ^ k) j = Z.testbit n j).
  { intros j Hj. destruct (Z.leb_spec 0 j); [|rewrite !Z.testbit_neg_r by lia; reflexivity].
    rewrite En', En. rewrite !tb_low by lia. reflexivity. }
  assert (Tk : Z.testbit (n + 2 ^ k) k = false).
  { rewrite En', tb_low by lia. apply (tb_small r k); lia. }
  assert (Tk1 : Z.testbit (n + 2 ^ k) (k + 1) = false).
  { rewrite En', tb_low by lia. apply (tb_small r k); lia. }
  assert (Tkm : Z.testbit n (k - 1) = false).
  { destruct (Z.eq_dec k 0) as [->|E]; [apply Z.testbit_neg_r; lia|].
    destruct (Z.testbit n (k - 1)) eqn:E1; [|reflexivity]. exfalso. apply (Hlow (k - 1)); [lia|]. split; [exact E1|].
    replace (k - 1 + 1) with k by lia. exact T. }
  assert (Tmk : Z.testbit m k = false) by (apply Tm; lia).
  split; [exact KK|]. split; [exact Tmk|].
  assert (Hpair : forall j, 0 <= j -> Z.testbit (n + 2 ^ k) j = true -> Z.testbit (n + 2 ^ k) (j + 1) = true -> k + 2 <= j).
  { intros j Hj A B. destruct (Z.leb_spec (k + 2) j); [assumption|]. exfalso.
    destruct (Z.eq_dec j (k + 1)) as [->|]; [congruence|]. destruct (Z.eq_dec j k) as [->|]; [congruence|].
    destruct (Z.eq_dec j (k - 1)) as [->|]; [replace (k - 1 + 1) with k in B by lia; congruence|].
    rewrite Tn in A by lia. rewrite Tn in B by lia. apply (Hlow j); [lia|auto]. }
  split.
  - constructor; try lia.
    + intros j. rewrite (tb_add_pow m k j), (tb_add_pow m k (j + 1)) by (auto; lia). intros A. apply orb_true_iff in A. destruct A as [A|A].
      * assert (j < k - 1).
        { destruct (Z.ltb_spec j (k - 1)); [assumption|]. rewrite Tm in A by lia. discriminate. }
        rewrite !Tn by lia. destruct (Hs j A) as (B1 & B2 & B3 & B4). rewrite B4. repeat split; auto.
        destruct (Z.eqb_spec (j + 1) k); [lia|reflexivity].
      * apply Z.eqb_eq in A. subst j. rewrite Tk, Tk1, Tn by lia. rewrite Tm by lia. repeat split; auto.
        destruct (Z.eqb_spec (k + 1) k); [lia|reflexivity].
    + exact Hpair.
    + destruct Hbd as [Hbd|(Hbd & _)]; [|exfalso; apply (Hbd k Hk); auto].
      assert (kb : k + 2 <= b).
      { destruct (Z.leb_spec (k + 2) b); [assumption|]. exfalso.
        assert (M := Z.pow_le_mono_r 2 b (k + 1) ltac:(lia) ltac:(lia)). nia. }
      assert (Pb : 2 ^ b = 2 ^ (b - k - 2) * 2 ^ (k + 2)) by (rewrite <- Z.pow_add_r by lia; f_equal; lia).
      assert (Pbp := p2_pos (b - k - 2) ltac:(lia)). set (c := 2 ^ (b - k - 2)) in *.
      assert (a + 1 <= c) by nia.
      destruct (Z.eq_dec (a + 1) c) as [E|E]; [right|left; nia].
      assert (Pb1 : 2 ^ (b + 1) = 2 * 2 ^ b) by (rewrite Z.pow_add_r by lia; change (2 ^ 1) with 2; lia).
      split; [|nia].
      intros j Hj (A & B). assert (J := Hpair j Hj A B).
      rewrite En', E in A, B. unfold c in A, B. rewrite tb_high in A by lia. rewrite tb_high in B by lia.
      rewrite Z.pow2_bits_eqb in A, B by lia. apply Z.eqb_eq in A. apply Z.eqb_eq in B. lia.
  - intros F HF HnF. assert (PK := p2_pos K HK).
    assert (D : n / 2 ^ k <= n / 2 ^ K).
    { apply Z.div_le_compat_l; [lia|]. split; [lia|]. apply Z.pow_le_mono_r; lia. }
    assert (Dn : n / 2 ^ k = 4 * a + 3).
    { rewrite En. rewrite Z.div_add_l by lia. rewrite Z.div_small by lia. lia. }
    assert (F2 : 2 <= F).
    { destruct (Z.leb_spec 2 F); [assumption|]. assert (M := Z.pow_le_mono_r 2 F 1 ltac:(lia) ltac:(lia)). lia. }
    split; [lia|]. rewrite En', Z.div_add_l by lia. rewrite Z.div_small by lia.
    assert (2 ^ F = 2 * 2 ^ (F - 1)) by (rewrite <- Z.pow_succ_r by lia; f_equal; lia). lia.
Qed.

Lemma loop_spec N0 b w : 0 <= w -> 0 <= b -> forall fuel n m K, inv N0 b n m K ->
  n / 2 ^ K < 2 ^ Z.of_nat fuel ->
  exists n' m' K', csdigit_loop fuel w (bits n (len w n)) (dg m (len w n)) = Ok (bits n' (len w n'), dg m' (len w n')) /\
    inv N0 b n' m' K' /\ no_pair n'.
Proof.
  intros Hw Hb. induction fuel as [|fuel IH]; intros n m K I HF.
  - exists n, m, K. cbn [csdigit_loop].
    assert (S := last_pair_spec n (len w n) 0 false). destruct (last_pair 0 false (bits n (len w n))) as [p|].
    + destruct S as (k & _ & T & T1 & T2 & _). exfalso.
      destruct (Nat.eq_dec (S k) (len w n)) as [E|E]; [discriminate (T2 E)|].
      assert (Hk : K <= Z.of_nat k).
      { apply (iv_pair _ _ _ _ _ I); [lia|exact T|]. apply T1.
        destruct (Nat.ltb_spec (S k) (len w n)); [assumption|].
        assert (B := len_lt w n (iv_n _ _ _ _ _ I)). rewrite (tb_small n (Z.of_nat (len w n))) in T; [discriminate| |lia].
        split; [apply (iv_n _ _ _ _ _ I)|exact B]. }
      assert (P := p2_pos K (iv_K _ _ _ _ _ I)). assert (n < 2 ^ K).
      { change (2 ^ Z.of_nat 0) with 1 in HF. assert (E2 := Z.div_mod n (2 ^ K) ltac:(lia)). assert (B2 := Z.mod_pos_bound n (2 ^ K) P). nia. }
      rewrite (tb_small n K) in T; [discriminate| |lia]. split; [apply (iv_n _ _ _ _ _ I)|assumption].
    + split; [reflexivity|]. split; [exact I|]. intros k Hk (A & B).
      assert (BB := len_lt w n (iv_n _ _ _ _ _ I)).
      destruct (Z.ltb_spec k (Z.of_nat (len w n) - 1)) as [L|L]; [apply (proj1 S k); [lia|auto]|].
      rewrite (tb_small n (Z.of_nat (len w n))) in B; [discriminate| |lia]. split; [apply (iv_n _ _ _ _ _ I)|assumption].
  - cbn [csdigit_loop].
    assert (S := last_pair_spec n (len w n) 0 false). destruct (last_pair 0 false (bits n (len w n))) as [p|].
    + destruct S as (k & (Ep & Hk) & T & T1 & T2 & Hlow).
      destruct (Nat.eq_dec (S k) (len w n)) as [E|E]; [discriminate (T2 E)|].
      assert (Hk2 : (S k < len w n)%nat) by lia. specialize (T1 Hk2).
      destruct (inv_step N0 b n m K (Z.of_nat k) Hb I ltac:(lia) T T1 Hlow) as (KK & Tm & I' & HF').
      specialize (HF' (Z.of_nat (S fuel)) ltac:(lia) HF). destruct HF' as (_ & HF').
      replace (Z.of_nat (S fuel) - 1) with (Z.of_nat fuel) in HF' by lia.
      set (n1 := n + 2 ^ Z.of_nat k) in *. set (m1 := m + 2 ^ Z.of_nat k) in *.
      assert (Pk := p2_pos (Z.of_nat k) ltac:(lia)).
      assert (Hn := iv_n _ _ _ _ _ I). assert (Hm := iv_m _ _ _ _ _ I).
      assert (B := len_lt w n Hn). rewrite bits_len, dec2bin_ok by assumption. subst p.
      replace (0 + len w n - 1 - k)%nat with (len w n - 1 - k)%nat by lia.
      rewrite bits_put, dg_put by (auto; lia). fold m1.
      rewrite (bin2dec_small n) by lia. rewrite bin2dec_small.
      2:{ split; [lia|]. apply Z.pow_lt_mono_r; lia. }
      fold n1. cbn [bind]. rewrite dg_len, bits_len.
      assert (L1 : (len w n <= len w n1 <= S (len w n))%nat).
      { unfold len. assert (M := bitlen_mono n n1 ltac:(lia)).
        assert (N1 : bitlen n1 <= Z.of_nat (len w n) + 1).
        { apply bitlen_le; [|lia]. split; [lia|]. rewrite Z.pow_add_r by lia. change (2 ^ 1) with 2.
          assert (2 ^ Z.of_nat k < 2 ^ Z.of_nat (len w n)) by (apply Z.pow_lt_mono_r; lia). lia. }
        unfold len in N1. assert (bitlen n >= 0) by (assert (X := bitlen_nonneg n); lia). lia. }
      assert (ED : (if Nat.ltb (len w n) (len w n1) then cZero :: dg m1 (len w n) else dg m1 (len w n)) = dg m1 (len w n1)).
      { destruct (Nat.ltb_spec (len w n) (len w n1)).
        - replace (len w n1) with (S (len w n)) by lia. cbn [dg].
          rewrite (tb_small m1 (Z.of_nat (len w n))); [reflexivity| |lia].
          assert (2 * m < 2 ^ Z.of_nat k).
          { assert (X := iv_mK _ _ _ _ _ I). assert (M := Z.pow_le_mono_r 2 K (Z.of_nat k) ltac:(lia) KK). lia. }
          assert (2 ^ (Z.of_nat k + 1) <= 2 ^ Z.of_nat (len w n)) by (apply Z.pow_le_mono_r; lia).
          rewrite Z.pow_add_r in H1 by lia. change (2 ^ 1) with 2 in H1. unfold m1. lia.
        - replace (len w n1) with (len w n) by lia. reflexivity. }
      rewrite ED. destruct (IH n1 m1 _ I' HF') as (n' & m' & K' & E1 & I1 & NP). exists n', m', K'. auto.
    + exists n, m, K. split; [reflexivity|]. split; [exact I|]. intros k Hk (A & B).
      assert (BB := len_lt w n (iv_n _ _ _ _ _ I)).
      destruct (Z.ltb_spec k (Z.of_nat (len w n) - 1)) as [L|L]; [apply (proj1 S k); [lia|auto]|].
      rewrite (tb_small n (Z.of_nat (len w n))) in B; [discriminate| |lia]. split; [apply (iv_n _ _ _ _ _ I)|assumption].
Qed.

Lemma loop_all n0 b w : 0 <= w -> 0 <= b -> 0 <= n0 -> n0 < 2 ^ b \/ (no_pair n0 /\ n0 < 2 ^ (b + 1)) ->
  exists n m, csdigit_loop (S (length (bits n0 (len w n0)))) w (bits n0 (len w n0)) (repeat cZero (length (bits n0 (len w n0)))) =
      Ok (bits n (len w n), dg m (len w n)) /\
    0 <= m <= n /\ n - m = n0 /\ sep n m /\ no_pair n /\ n < 2 ^ (b + 1).
Proof.
  intros Hw Hb H H0. rewrite bits_len.
  assert (I : inv n0 b n0 0 0).
  { constructor; try lia; [intros j; rewrite Z.bits_0; discriminate|exact H0]. }
  assert (B := len_lt w n0 ltac:(lia)).
  destruct (loop_spec n0 b w Hw Hb (S (len w n0)) n0 0 0 I) as (n & m & K & E & J & NP).
  { change (2 ^ 0) with 1. rewrite Z.div_1_r. replace (Z.of_nat (S (len w n0))) with (Z.of_nat (len w n0) + 1) by lia.
    rewrite Z.pow_add_r by lia. change (2 ^ 1) with 2. lia. }
  rewrite dg_0 in E. exists n, m. split; [exact E|]. destruct J as [J1 J2 J3 J4 J5 J6 J7 J8].
  assert (2 ^ (b + 1) = 2 * 2 ^ b) by (rewrite Z.pow_add_r by lia; change (2 ^ 1) with 2; lia).
  assert (Pb := p2_pos b Hb).
  split; [lia|]. split; [exact J3|]. split; [exact J6|]. split; [exact NP|]. destruct J8 as [J8|(_ & J8)]; lia.
Qed.

(** ** the digits *)
Lemma ch_sd n m j : sd_char (ch n m j) = true.
Proof. unfold ch. destruct (Z.testbit n j); [|destruct (Z.testbit m j)]; reflexivity. Qed.
Lemma sdl_sd n m L : Forall (fun c => sd_char c = true) (sdl n m L).
Proof. induction L; cbn; constructor; auto. apply ch_sd. Qed.
Lemma sdl_value n m L : sep n m -> sd_value (sdl n m L) = n mod 2 ^ Z.of_nat L - m mod 2 ^ Z.of_nat L.
Proof.
  intros S. induction L as [|L IH].
  - cbn [sdl sd_value]. rewrite !Z.mod_1_r. reflexivity.
  - cbn [sdl sd_value]. rewrite IH, sdl_len. replace (Z.of_nat (Datatypes.S L)) with (Z.of_nat L + 1) by lia.
    rewrite !mod_S by lia. unfold ch. assert (SL := S (Z.of_nat L)).
    destruct (Z.testbit n (Z.of_nat L)), (Z.testbit m (Z.of_nat L)); cbn [dv]; try (destruct (SL eq_refl); discriminate);
      [change (dv cPlus) with 1|change (dv cMinus) with (-1)|change (dv cZero) with 0]; lia.
Qed.
Lemma sdl_canonical n m L : sep n m -> no_pair n ->
  forall s1 a b s2, sdl n m L = s1 ++ a :: b :: s2 -> dv a = 0 \/ dv b = 0.
Proof.
  intros S NP. induction L as [|L IH]; intros s1 a b s2 E.
  - destruct s1; discriminate.
  - destruct s1 as [|c s1].
    + cbn [sdl app] in E. destruct L as [|L]; [discriminate|]. cbn [sdl] in E. assert (Ea : a = ch n m (Z.of_nat (Datatypes.S L))) by congruence.
      assert (Eb : b = ch n m (Z.of_nat L)) by congruence. rewrite Ea, Eb. clear Ea Eb E IH.
      replace (Z.of_nat (Datatypes.S L)) with (Z.of_nat L + 1) by lia.
      assert (N := NP (Z.of_nat L) ltac:(lia)). assert (S0 := S (Z.of_nat L)). assert (S1 := S (Z.of_nat L + 1)).
      replace (Z.of_nat L + 1 - 1) with (Z.of_nat L) in S1 by lia.
      unfold ch. destruct (Z.testbit n (Z.of_nat L + 1)), (Z.testbit m (Z.of_nat L + 1)), (Z.testbit n (Z.of_nat L)), (Z.testbit m (Z.of_nat L));
        try (left; reflexivity); try (right; reflexivity); exfalso;
        first [apply N; split; reflexivity | destruct (S0 eq_refl) as (? & ? & ? & ?); discriminate | destruct (S1 eq_refl) as (? & ? & ? & ?); discriminate].
    + cbn [sdl app] in E. injection E as _ E. apply (IH s1 a b s2 E).
Qed.
