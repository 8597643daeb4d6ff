(** Proofs about M_Csd.v: round trip and to_csdfixed *)
From Coq Require Import Setoid Morphisms QArith Qabs Qround Qpower Lqa Ascii ZArith.
From Verif Require Import Base M_Csd S_Csd P_Csd.
Local Open Scope Q_scope.

(** ** Qeq does not matter to the output *)
Lemma csd_digit_ext P P' d d' : P == P' -> d == d' ->
  fst (csd_digit P d) = fst (csd_digit P' d') /\ snd (csd_digit P d) == snd (csd_digit P' d').
Proof.
  intros EP Ed. unfold csd_digit. cbv zeta.
  assert (B : forall a b a' b', a == a' -> b == b' -> Qltb a b = Qltb a' b').
  { intros a b a' b' Ea Eb. destruct (Qltb a b) eqn:H1, (Qltb a' b') eqn:H2; try reflexivity.
    - apply Qltb_true in H1. apply Qltb_false in H2. lra.
    - apply Qltb_false in H1. apply Qltb_true in H2. lra. }
  rewrite (B P ((3#2) * d) P' ((3#2) * d')), (B ((3#2) * d) (- P) ((3#2) * d') (- P'));
    [|rewrite Ed; reflexivity|rewrite EP; reflexivity|assumption|rewrite Ed; reflexivity].
  destruct (Qltb P' ((3#2) * d')); [split; [reflexivity|cbn; lra]|].
  destruct (Qltb ((3#2) * d') (- P')); (split; [reflexivity|cbn; lra]).
Qed.
Lemma csd_loop_ext places : forall fuel n P P' d d', P == P' -> d == d' ->
  csd_loop fuel places n P d = csd_loop fuel places n P' d'.
Proof.
  induction fuel as [|fuel IH]; intros n P P' d d' EP Ed; [reflexivity|]. cbn [csd_loop].
  destruct (- places <? n)%Z; [|reflexivity].
  destruct (csd_digit_ext P P' d d' EP Ed) as [E1 E2].
  destruct (csd_digit P d) as [c d1], (csd_digit P' d') as [c' d1']. cbn [fst snd] in *. subst c'.
  rewrite (IH (n - 1)%Z (P / 2) (P' / 2) d1 d1'); [reflexivity|rewrite EP; reflexivity|assumption].
Qed.
Lemma Qltb_ext a b a' b' : a == a' -> b == b' -> Qltb a b = Qltb a' b'.
Proof.
  intros Ea Eb. destruct (Qltb a b) eqn:H1, (Qltb a' b') eqn:H2; try reflexivity.
  - apply Qltb_true in H1. apply Qltb_false in H2. lra.
  - apply Qltb_false in H1. apply Qltb_true in H2. lra.
Qed.
Lemma csd_n_ext x y : x == y -> csd_n x = csd_n y.
Proof.
  intros E. unfold csd_n. rewrite (Qltb_ext (Qabs x) 1 (Qabs y) 1); [|rewrite E; reflexivity|reflexivity].
  destruct (Qltb (Qabs y) 1); [reflexivity|]. unfold clog2. f_equal. rewrite E. reflexivity.
Qed.
Lemma to_csd_ext x y places : x == y -> to_csd x places = to_csd y places.
Proof.
  intros E. unfold to_csd. replace (Qeq_bool x 0) with (Qeq_bool y 0).
  2:{ destruct (Qeq_bool y 0) eqn:H1, (Qeq_bool x 0) eqn:H2; try reflexivity.
      - apply Qeq_bool_eq in H1. apply Qeq_bool_neq in H2. rewrite E in H2. contradiction.
      - apply Qeq_bool_neq in H1. apply Qeq_bool_eq in H2. rewrite E in H2. contradiction. }
  rewrite (csd_n_ext x y E). destruct (Qeq_bool y 0); [reflexivity|].
  unfold to_csd_from. rewrite (Qltb_ext (Qabs x) 1 (Qabs y) 1); [|rewrite E; reflexivity|reflexivity].
  rewrite (csd_loop_ext places _ (csd_n y) (2 ^ (csd_n y - 1)) (2 ^ (csd_n y - 1)) x y); [reflexivity|reflexivity|exact E].
Qed.

(** ** round trip *)
Lemma canon_bound ds : canon ds -> alld ds -> forall P, 0 < P ->
  Qabs (dsum P ds) < (4#3) * P /\ (head0 ds -> Qabs (dsum P ds) < (2#3) * P).
Proof.
  induction ds as [|c ds IH]; intros Hc Ha P HP.
  - cbn [dsum]. change (Qabs 0) with 0. split; [lra|intros _; lra].
  - cbn [canon] in Hc. destruct Hc as [Hh Hc]. inversion Ha as [|c' ds' Hcc Ha']; subst.
    assert (HP2 : 0 < P / 2) by (apply Qlt_shift_div_l; lra).
    destruct (IH Hc Ha' (P / 2) HP2) as [H1 H2].
    assert (EP : (4#3) * (P / 2) == (2#3) * P) by field.
    assert (EP2 : (2#3) * (P / 2) == (1#3) * P) by field.
    rewrite EP in H1. rewrite EP2 in H2.
    cbn [dsum head0]. destruct (Z.eq_dec (dv c) 0) as [Ez|Ez].
    + rewrite Ez. change (inject_Z 0) with 0.
      assert (E : 0 * P + dsum (P / 2) ds == dsum (P / 2) ds) by ring. rewrite E. split; [lra|auto].
    + split; [|intros; contradiction].
      assert (Hh0 : head0 ds) by (destruct ds; cbn; [exact I|destruct Hh; [contradiction|assumption]]).
      specialize (H2 Hh0). apply Qabs_lt in H2. apply Qabs_lt.
      apply sd_cases in Hcc as [->|[->| ->]].
      * change (inject_Z (dv "+")) with 1. split; lra.
      * change (inject_Z (dv "-")) with (-(1)). split; lra.
      * exfalso. apply Ez. reflexivity.
Qed.

Lemma csd_loop_round places : forall ds fuel n P dec,
  canon ds -> alld ds -> 0 < P -> dec == dsum P ds -> (0 <= n + places)%Z ->
  length ds = Z.to_nat (n + places) -> (length ds < fuel)%nat ->
  csd_loop fuel places n P dec = Ok (ins n ds).
Proof.
  induction ds as [|c ds IH]; intros fuel n P dec Hc Ha HP Hd Hn Hl Hf.
  - destruct fuel as [|fuel]; [lia|]. cbn [csd_loop]. cbn [length] in Hl.
    destruct (Z.ltb_spec (- places) n); [lia|reflexivity].
  - destruct fuel as [|fuel]; [cbn in Hf; lia|]. cbn [csd_loop length] in *.
    destruct (Z.ltb_spec (- places) n) as [_|]; [|lia].
    cbn [canon] in Hc. destruct Hc as [Hh Hc]. inversion Ha as [|c' ds' Hcc Ha']; subst.
    assert (HP2 : 0 < P / 2) by (apply Qlt_shift_div_l; lra).
    destruct (canon_bound ds Hc Ha' (P / 2) HP2) as [H1 H2].
    assert (EP : (4#3) * (P / 2) == (2#3) * P) by field.
    assert (EP2 : (2#3) * (P / 2) == (1#3) * P) by field.
    rewrite EP in H1. rewrite EP2 in H2. cbn [dsum] in Hd.
    assert (Hdig : fst (csd_digit P dec) = c /\ snd (csd_digit P dec) == dsum (P / 2) ds).
    { unfold csd_digit. cbv zeta.
      assert (Hh0 : dv c <> 0%Z -> head0 ds).
      { intros Ez. destruct ds; cbn; [exact I|destruct Hh; [contradiction|assumption]]. }
      apply sd_cases in Hcc as [->|[->| ->]].
      - specialize (H2 (Hh0 ltac:(discriminate))). apply Qabs_lt in H2. change (inject_Z (dv "+")) with 1 in Hd.
        destruct (Qltb P ((3#2) * dec)) eqn:B; [split; [reflexivity|cbn [snd]; lra]|].
        apply Qltb_false in B. lra.
      - specialize (H2 (Hh0 ltac:(discriminate))). apply Qabs_lt in H2. change (inject_Z (dv "-")) with (-(1)) in Hd.
        destruct (Qltb P ((3#2) * dec)) eqn:B; [apply Qltb_true in B; lra|].
        destruct (Qltb ((3#2) * dec) (- P)) eqn:B2; [split; [reflexivity|cbn [snd]; lra]|].
        apply Qltb_false in B2. lra.
      - apply Qabs_lt in H1. change (inject_Z (dv "0")) with 0 in Hd.
        destruct (Qltb P ((3#2) * dec)) eqn:B; [apply Qltb_true in B; lra|].
        destruct (Qltb ((3#2) * dec) (- P)) eqn:B2; [apply Qltb_true in B2; lra|].
        split; [reflexivity|cbn [snd]; lra]. }
    destruct (csd_digit P dec) as [c1 d1]. cbn [fst snd] in Hdig. destruct Hdig as [-> Hd1].
    rewrite (IH fuel (n - 1)%Z (P / 2) d1 Hc Ha' HP2 Hd1); [reflexivity|lia|lia|lia].
Qed.

(** a canonical digit list with non-zero head has the n that csd_n computes *)
Lemma csd_n_unique x n : 1 <= Qabs x -> (1 <= n)%Z ->
  (2#3) * 2 ^ (n - 1) < Qabs x -> Qabs x <= (4#3) * 2 ^ (n - 1) -> csd_n x = n.
Proof.
  intros Hx Hn H1 H2.
  assert (Hx0 : ~ x == 0) by (intros E; rewrite E in Hx; change (Qabs 0) with 0 in Hx; lra).
  destruct (csd_n_spec x Hx0) as [_ H]. destruct (H Hx) as (Hm & H3 & H4). set (m := csd_n x) in *.
  assert (Hmono : forall a b, (0 <= a < b)%Z -> 2 * 2 ^ a <= 2 ^ b).
  { intros a b Hab. change 2 with (inject_Z 2). rewrite <- !Zpower_Qpower by lia. rewrite <- inject_Z_mult, <- Zle_Qle.
    rewrite <- Z.pow_succ_r by lia. apply Z.pow_le_mono_r; lia. }
  destruct (Z.lt_trichotomy m n) as [Hlt|[?|Hlt]]; [|assumption|].
  - assert (2 * 2 ^ (m - 1) <= 2 ^ (n - 1)) by (apply Hmono; lia). lra.
  - assert (2 * 2 ^ (n - 1) <= 2 ^ (m - 1)) by (apply Hmono; lia). lra.
Qed.

Lemma round_big n ds places : canon ds -> alld ds -> (1 <= n)%Z -> (0 <= places)%Z ->
  length ds = Z.to_nat (n + places) -> (exists c r, ds = c :: r /\ dv c <> 0%Z) ->
  1 <= Qabs (csd_value (ins n ds)) ->
  forall x, x == csd_value (ins n ds) -> to_csd x places = Ok (ins n ds).
Proof.
  intros Hc Ha Hn Hp Hl (c & r & E & Hnz) H1 x Hx.
  assert (Hv : csd_value (ins n ds) == dsum (2 ^ (n - 1)) ds) by (apply ins_value; [assumption|lia]).
  assert (HP := pow_pos (n - 1)).
  destruct (canon_bound ds Hc Ha _ HP) as [Hb _].
  assert (Hlow : (2#3) * 2 ^ (n - 1) < Qabs (dsum (2 ^ (n - 1)) ds)).
  { subst ds. cbn [dsum canon] in *. destruct Hc as [Hh Hc]. inversion Ha as [|c' ds' Hcc Ha']; subst.
    assert (HP2 : 0 < 2 ^ (n - 1) / 2) by (apply Qlt_shift_div_l; lra).
    destruct (canon_bound r Hc Ha' _ HP2) as [_ H2].
    assert (Hh0 : head0 r) by (destruct r; cbn; [exact I|destruct Hh; [contradiction|assumption]]).
    specialize (H2 Hh0).
    assert (EP2 : (2#3) * (2 ^ (n - 1) / 2) == (1#3) * 2 ^ (n - 1)) by field. rewrite EP2 in H2.
    apply Qabs_lt in H2. set (Q0 := dsum (2 ^ (n - 1) / 2) r) in *. set (P := 2 ^ (n - 1)) in *.
    apply sd_cases in Hcc as [->|[->| ->]].
    - change (inject_Z (dv "+")) with 1. rewrite Qabs_pos by lra. lra.
    - change (inject_Z (dv "-")) with (-(1)). rewrite Qabs_neg by lra. lra.
    - exfalso. apply Hnz. reflexivity. }
  assert (Hxd : x == dsum (2 ^ (n - 1)) ds) by (rewrite Hx; exact Hv).
  assert (Hax : 1 <= Qabs x) by (rewrite Hx; exact H1).
  assert (En : csd_n x = n).
  { apply csd_n_unique; try assumption; rewrite Hxd; lra. }
  unfold to_csd. destruct (Qeq_bool x 0) eqn:B0.
  { apply Qeq_bool_eq in B0. rewrite B0 in Hax. change (Qabs 0) with 0 in Hax. lra. }
  rewrite En. unfold to_csd_from. destruct (Qltb (Qabs x) 1) eqn:B; [apply Qltb_true in B; lra|].
  rewrite (csd_loop_round places ds); auto; try lia.
Qed.

Lemma round_small ds places : canon ds -> alld ds -> (0 <= places)%Z ->
  length ds = Z.to_nat places ->
  forall x, x == csd_value (ins 0 ds) -> ~ x == 0 -> to_csd x places = Ok (cZero :: ins 0 ds).
Proof.
  intros Hc Ha Hp Hl x Hx Hx0.
  assert (Hv : csd_value (ins 0 ds) == dsum (2 ^ (0 - 1)) ds) by (apply ins_value; [assumption|lia]).
  destruct (canon_bound ds Hc Ha _ (pow_pos (0 - 1))) as [Hb _].
  assert (Hxd : x == dsum (2 ^ (0 - 1)) ds) by (rewrite Hx; exact Hv).
  assert (Hax : Qabs x < 1).
  { rewrite Hxd. apply Qlt_le_trans with ((4#3) * 2 ^ (0 - 1)); [exact Hb|]. change (2 ^ (0 - 1)) with (1#2). lra. }
  unfold to_csd. destruct (Qeq_bool x 0) eqn:B0; [apply Qeq_bool_eq in B0; contradiction|].
  destruct (csd_n_spec x Hx0) as [-> _]; [|assumption].
  unfold to_csd_from. assert (B := proj2 (Qltb_true (Qabs x) 1) Hax). rewrite B.
  rewrite (csd_loop_round places ds); auto; try lia. apply pow_pos.
Qed.

(** ** to_csdfixed *)
Lemma tiny_pow : 2 ^ (-334) < tiny.
Proof. vm_compute. reflexivity. Qed.
Lemma pow_le a b : (a <= b)%Z -> 2 ^ a <= 2 ^ b.
Proof.
  intros H. replace b with (a + (b - a))%Z by lia. rewrite Qpower_plus by discriminate.
  assert (1 <= 2 ^ (b - a)).
  { change 2 with (inject_Z 2). rewrite <- Zpower_Qpower by lia. change 1 with (inject_Z 1). rewrite <- Zle_Qle.
    assert (0 < 2 ^ (b - a))%Z by (apply Z.pow_pos_nonneg; lia). lia. }
  pose proof (pow_pos a). set (u := 2 ^ a) in *. set (w := 2 ^ (b - a)) in *.
  setoid_replace u with (u * 1) at 1 by ring. apply Qmult_le_l; assumption.
Qed.

Definition cnt (ds : chars) : nat := nonzeros ds.
Lemma cnt_cons c ds : cnt (c :: ds) = ((if (dv c =? 0)%Z then 0 else 1) + cnt ds)%nat.
Proof. unfold cnt, nonzeros. cbn. destruct (dv c =? 0)%Z; reflexivity. Qed.

Lemma csdfixed_zero : forall fuel n nnz P d, d == 0 -> (0 <= nnz)%Z -> 0 < P -> (Z.to_nat n < fuel)%nat ->
  exists ds, csdfixed_loop fuel n nnz P d = Ok (ins n ds) /\ alld ds /\ cnt ds = 0%nat /\
    dsum P ds == 0 /\ length ds = Z.to_nat n.
Proof.
  induction fuel as [|fuel IH]; intros n nnz P d Hd Hnnz HP Hf; [lia|]. cbn [csdfixed_loop].
  assert (Ht : Qltb tiny (Qabs d) = false).
  { apply Qltb_false. rewrite Hd. change (Qabs 0) with 0. discriminate. }
  rewrite Ht, andb_false_r, orb_false_r. destruct (Z.ltb_spec 0 n) as [Hn|Hn].
  - unfold csd_digit. cbv zeta.
    destruct (Qltb P ((3#2) * d)) eqn:B1; [apply Qltb_true in B1; lra|].
    destruct (Qltb ((3#2) * d) (- P)) eqn:B2; [apply Qltb_true in B2; lra|].
    change (Ascii.eqb cZero cZero) with true. cbn iota.
    destruct (IH (n - 1)%Z nnz (P / 2) (if (nnz =? 0)%Z then 0 else d)) as (ds & E & Ha & Hc & Hs & Hl).
    { destruct (nnz =? 0)%Z; [reflexivity|assumption]. } { assumption. } { apply Qlt_shift_div_l; lra. } { lia. }
    rewrite E. cbn [bind]. exists (cZero :: ds). split; [reflexivity|]. split; [constructor; [reflexivity|assumption]|].
    split; [rewrite cnt_cons, Hc; reflexivity|]. split; [|cbn [length]; lia].
    cbn [dsum]. change (inject_Z (dv cZero)) with 0. rewrite Hs. ring.
  - exists []. repeat split; [constructor|cbn; lia].
Qed.

Lemma csdfixed_loop_spec : forall fuel n nnz P dec,
  (1 <= nnz)%Z -> 0 < P -> 2 * P == 2 ^ n -> Qabs dec < 2 * P -> (Z.max 0 n < Z.of_nat fuel)%Z ->
  (n + 335 <= Z.of_nat fuel)%Z ->
  exists ds r, csdfixed_loop fuel n nnz P dec = Ok (ins n ds) /\ alld ds /\
    (Z.to_nat n <= length ds)%nat /\ (Z.of_nat (cnt ds) <= nnz)%Z /\
    dec == dsum P ds + r /\
    (Qabs r <= tiny \/ Qabs r * inject_Z (2 ^ nnz) <= Qabs dec) /\
    (Qabs dec <= (4#3) * P -> canon ds) /\
    (Qabs dec <= (2#3) * P -> head0 ds) /\
    ((2#3) * P < Qabs dec -> match ds with [] => True | c :: _ => dv c <> 0%Z end).
Proof.
  induction fuel as [|fuel IH]; intros n nnz P dec Hnnz HP Hpow Hd Hf Hf2; [lia|]. cbn [csdfixed_loop].
  destruct (orb (0 <? n)%Z (andb (0 <? nnz)%Z (Qltb tiny (Qabs dec)))) eqn:Hcond.
  - assert (Hn : (-334 < n)%Z).
    { apply orb_true_iff in Hcond as [H|H]; [apply Z.ltb_lt in H; lia|].
      apply andb_true_iff in H as [_ H]. apply Qltb_true in H.
      destruct (Z.le_gt_cases n (-334)) as [Hle|]; [|lia].
      pose proof (pow_le n (-334) Hle). pose proof tiny_pow. rewrite Hpow in Hd. lra. }
    pose proof (csd_digit_spec P dec HP) as Hc. destruct (csd_digit P dec) as [c dec1].
    destruct Hc as (Hc & Hdec & Hz & Hnz & Hlt & Hiff).
    assert (HP2 : 0 < P / 2) by (apply Qlt_shift_div_l; lra).
    assert (E1 : 2 * (P / 2) == P) by field.
    assert (E2 : P == 2 ^ (n - 1)).
    { apply Qmult_inj_l with (z := 2); [discriminate|]. rewrite pow_S. exact Hpow. }
    assert (EP : (4#3) * (P / 2) == (2#3) * P) by field.
    assert (EP2 : (2#3) * (P / 2) == (1#3) * P) by field.
    change cZero with "0"%char.
    destruct (Ascii.eqb_spec c "0") as [Ec|Ec].
    + assert (Ez : dv c = 0%Z) by (apply Hiff; exact Ec). destruct (Hz Ez) as [-> Hle].
      destruct (Z.eqb_spec nnz 0) as [|_]; [lia|].
      destruct (IH (n - 1)%Z nnz (P / 2) dec) as (ds & r & E & Ha & Hl & Hcnt & Hs & Hr & Hcan & Hh0 & Hh1);
        try assumption; try lia.
      { rewrite E1. exact E2. } { rewrite E1. auto. }
      rewrite E. cbn [bind]. exists (c :: ds), r. split; [reflexivity|]. split; [constructor; assumption|].
      split; [cbn [length]; lia|]. split; [rewrite cnt_cons, Ez; cbn; assumption|].
      split; [cbn [dsum]; rewrite Hs at 1; rewrite Ez; ring|].
      split; [exact Hr|]. rewrite EP in Hcan. split; [|split; [intros _; exact Ez|intros; lra]].
      intros _. cbn [canon]. split; [destruct ds; auto|]. apply Hcan. exact Hle.
    + assert (Ez : dv c <> 0%Z) by (intros H; apply Ec, Hiff, H).
      destruct (Hnz Ez) as (Hgt & Hh & H4). destruct (Hh Hd) as [Hd1 Hd1'].
      destruct (Z.eqb_spec (nnz - 1) 0) as [Hz1|Hz1].
      * destruct (csdfixed_zero fuel (n - 1)%Z (nnz - 1) (P / 2) 0) as (ds & E & Ha & Hcnt & Hs & Hl);
          [reflexivity|lia|assumption|lia|].
        rewrite E. cbn [bind]. exists (c :: ds), dec1. split; [reflexivity|]. split; [constructor; assumption|].
        split; [cbn [length]; lia|].
        split; [rewrite cnt_cons, Hcnt; destruct (dv c =? 0)%Z; lia|].
        split; [cbn [dsum]; rewrite Hs, Hdec at 1; ring|].
        split.
        { right. replace nnz with 1%Z by lia. change (inject_Z (2 ^ 1)) with 2. lra. }
        split; [|split; [intros; lra|intros _; exact Ez]].
        intros _. clear - Hcnt. cbn [canon].
        assert (Hall : Forall (fun d => dv d = 0%Z) ds).
        { clear - Hcnt. induction ds as [|d ds IH]; constructor.
          - rewrite cnt_cons in Hcnt. destruct (Z.eqb_spec (dv d) 0); [assumption|lia].
          - apply IH. rewrite cnt_cons in Hcnt. lia. }
        split; [destruct Hall; auto|]. clear - Hall. induction Hall as [|d ds Hd _ IH]; cbn [canon]; [exact I|].
        split; [destruct ds; auto|exact IH].
      * destruct (IH (n - 1)%Z (nnz - 1)%Z (P / 2) dec1) as (ds & r & E & Ha & Hl & Hcnt & Hs & Hr & Hcan & Hh0 & Hh1);
          try assumption; try lia.
        { rewrite E1. exact E2. } { rewrite E1. auto. }
        rewrite E. cbn [bind]. exists (c :: ds), r. split; [reflexivity|]. split; [constructor; assumption|].
        split; [cbn [length]; lia|].
        split; [rewrite cnt_cons; destruct (dv c =? 0)%Z; lia|].
        split; [cbn [dsum]; rewrite Hdec, Hs at 1; ring|].
        split.
        { destruct Hr as [Hr|Hr]; [left; exact Hr|right].
          replace nnz with (1 + (nnz - 1))%Z by lia. rewrite Z.pow_add_r, inject_Z_mult by lia.
          change (inject_Z (2 ^ 1)) with 2.
          setoid_replace (Qabs r * (2 * inject_Z (2 ^ (nnz - 1)))) with (Qabs r * inject_Z (2 ^ (nnz - 1)) * 2) by ring.
          lra. }
        rewrite EP in Hcan. rewrite EP2 in Hh0.
        split; [|split; [intros; lra|intros _; exact Ez]].
        intros H. specialize (H4 H). cbn [canon]. split; [|apply Hcan; lra].
        destruct ds as [|d ds']; [exact I|]. right. apply Hh0. exact H4.
  - apply orb_false_iff in Hcond as [Hn Hc]. apply Z.ltb_ge in Hn.
    exists [], dec. split; [reflexivity|]. split; [constructor|]. split; [cbn; lia|].
    split; [cbn; lia|]. split; [cbn; ring|]. split.
    { left. apply andb_false_iff in Hc as [Hc|Hc]; [apply Z.ltb_ge in Hc; lia|]. apply Qltb_false in Hc. exact Hc. }
    split; [|split]; intros; exact I.
Qed.

(** with no budget to_csdfixed is to_csd with no places *)
Lemma csdfixed_nobudget : forall fuel fuel' n nnz P dec, (nnz < 0)%Z -> (Z.to_nat n < fuel)%nat -> (Z.to_nat n < fuel')%nat ->
  csdfixed_loop fuel n nnz P dec = csd_loop fuel' 0 n P dec.
Proof.
  induction fuel as [|fuel IH]; intros fuel' n nnz P dec Hnn Hf Hf'; [lia|]. destruct fuel' as [|fuel']; [lia|].
  cbn [csdfixed_loop csd_loop]. destruct (Z.ltb_spec 0 nnz); [lia|]. cbn [andb]. rewrite orb_false_r.
  change (- 0)%Z with 0%Z. destruct (Z.ltb_spec 0 n) as [Hn|]; [|reflexivity].
  destruct (csd_digit P dec) as [c d1].
  set (nnz1 := if Ascii.eqb c cZero then nnz else (nnz - 1)%Z).
  assert (nnz1 < 0)%Z by (unfold nnz1; destruct (Ascii.eqb c cZero); lia).
  destruct (Z.eqb_spec nnz1 0); [lia|]. rewrite (IH fuel' (n - 1)%Z nnz1); [reflexivity|assumption|lia|lia].
Qed.
