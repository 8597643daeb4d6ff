(** Proofs about M_LowDiscr.v: radical inverses, stratification, points on spheres. *)
From Coq Require Import Reals Lra Znumtheory.
From Verif Require Import Base S_LinAlg P_LinAlg S_LowDiscr M_Misc M_LowDiscr.
Local Open Scope R_scope.

(** ** radical inverse as a number *)
Definition phi (b k : Z) (m : nat) : R := rsum m (fun i => IZR (digit b k i) / IZR b ^ S i).

Lemma digit_0 b k : digit b k 0 = (k mod b)%Z.
Proof. unfold digit. rewrite Z.pow_0_r, Z.div_1_r. reflexivity. Qed.
Lemma digit_S b k i : (0 < b)%Z -> digit b k (S i) = digit b (k / b) i.
Proof.
  intros Hb. unfold digit. rewrite Nat2Z.inj_succ, Z.pow_succ_r by lia.
  rewrite Z.div_div by (try apply Z.pow_pos_nonneg; lia). reflexivity.
Qed.
Lemma phi_S b k m : (0 < b)%Z -> phi b k (S m) = (IZR (k mod b) + phi b (k / b) m) / IZR b.
Proof.
  intros Hb. assert (HB : IZR b <> 0) by (apply not_0_IZR; lia).
  unfold phi. rewrite rsum_shift, digit_0.
  rewrite (rsum_ext _ _ (fun i => / IZR b * (IZR (digit b (k / b) i) / IZR b ^ S i))).
  - rewrite rsum_scal_l. cbn [pow]. field. exact HB.
  - intros i _. rewrite digit_S by exact Hb. cbn [pow]. field. split; [apply pow_nonzero|]; exact HB.
Qed.
Lemma phi_0 b m : (0 < b)%Z -> phi b 0 m = 0.
Proof.
  intros Hb. unfold phi. apply rsum_0. intros i _. unfold digit.
  rewrite Zdiv_0_l, Zmod_0_l. unfold Rdiv. ring.
Qed.

Lemma vdc_loop_ok b : (2 <= b)%Z -> forall m fuel k v d, (m <= fuel)%nat -> (0 <= k < b ^ Z.of_nat m)%Z -> 0 < d ->
  vdc_loop fuel k b v d = Ok (v + phi b k m / d).
Proof.
  intros Hb m. induction m as [|m IH]; intros fuel k v d Hf Hk Hd.
  - cbn in Hk. assert (k = 0)%Z as -> by lia. destruct fuel; cbn [vdc_loop Z.eqb]; f_equal; unfold phi; cbn; unfold Rdiv; ring.
  - destruct (Z.eqb_spec k 0) as [->|Hk0].
    { rewrite phi_0 by lia. destruct fuel; cbn [vdc_loop Z.eqb]; f_equal; unfold Rdiv; ring. }
    destruct fuel as [|fuel]; [lia|]. cbn [vdc_loop].
    destruct (Z.eqb_spec k 0) as [|_]; [lia|]. destruct (Z.eqb_spec b 0) as [|_]; [lia|].
    assert (HB : 0 < IZR b) by (apply IZR_lt; lia).
    assert (Hdb : 0 < d * IZR b) by (apply Rmult_lt_0_compat; assumption).
    change (nmul d (nofZ b)) with (d * IZR b). change (nofZ (k mod b)) with (IZR (k mod b)).
    rewrite rdiv_ok by lra. cbn [bind].
    rewrite IH; [|lia| |exact Hdb].
    + f_equal. rewrite phi_S by lia. cbn. field. lra.
    + rewrite Nat2Z.inj_succ, Z.pow_succ_r in Hk by lia. split; [apply Z.div_pos; lia|].
      apply Z.div_lt_upper_bound; lia.
Qed.

Lemma vdc_ok b k m fuel : (2 <= b)%Z -> (0 <= k < b ^ Z.of_nat m)%Z -> (m <= fuel)%nat ->
  vdc fuel k b = Ok (phi b k m).
Proof.
  intros Hb Hk Hf. unfold vdc. rewrite (vdc_loop_ok b Hb m) by (auto; cbn; lra).
  f_equal. cbn. field.
Qed.

(** the number of digits never matters *)
Lemma phi_irrel b k m m' : (2 <= b)%Z -> (0 <= k < b ^ Z.of_nat m)%Z -> (0 <= k < b ^ Z.of_nat m')%Z ->
  phi b k m = phi b k m'.
Proof.
  intros Hb H1 H2.
  assert (E1 := vdc_ok b k m (m + m') Hb H1 ltac:(lia)).
  assert (E2 := vdc_ok b k m' (m + m') Hb H2 ltac:(lia)).
  rewrite E1 in E2. injection E2 as E2. exact E2.
Qed.

Lemma vdc_radical b k fuel v : (2 <= b)%Z -> (0 <= k)%Z -> vdc fuel k b = Ok v -> radical_inverse b k v.
Proof.
  intros Hb Hk H m Hm. fold (phi b k m).
  assert (Hmono : forall f1 f2 kk vv dd r, (f1 <= f2)%nat -> vdc_loop f1 kk b vv dd = Ok r -> vdc_loop f2 kk b vv dd = Ok (r : R)).
  { clear. intros f1. induction f1 as [|f1 IH]; intros f2 kk vv dd r Hf Hr.
    - destruct f2; [exact Hr|]. cbn [vdc_loop] in *. destruct (kk =? 0)%Z; [exact Hr|discriminate].
    - destruct f2 as [|f2]; [lia|]. cbn [vdc_loop] in *. destruct (kk =? 0)%Z; [exact Hr|].
      destruct (b =? 0)%Z; [exact Hr|]. destruct (ndiv _ _) as [q|e]; cbn [bind] in *; [|exact Hr].
      apply IH; [lia|exact Hr]. }
  apply (Hmono fuel (fuel + m)%nat) in H; [|lia].
  change (vdc (fuel + m) k b = Ok v) in H.
  rewrite (vdc_ok b k m) in H by lia. injection H as H. symmetry; exact H.
Qed.

Lemma enough_digits b k : (2 <= b)%Z -> (0 <= k)%Z -> exists m, (k < b ^ Z.of_nat m)%Z.
Proof.
  intros Hb Hk. exists (Z.to_nat k). rewrite Z2Nat.id by lia.
  apply Z.pow_gt_lin_r; lia.
Qed.

(** fewer digits than the binary ones *)
Lemma log2_digits b k : (2 <= b)%Z -> (0 <= k)%Z -> (k < b ^ Z.of_nat (S (Z.to_nat (Z.log2 k))))%Z.
Proof.
  intros Hb Hk. assert (0 <= Z.log2 k)%Z by apply Z.log2_nonneg.
  rewrite Nat2Z.inj_succ, Z2Nat.id by assumption.
  apply Z.lt_le_trans with (2 ^ Z.succ (Z.log2 k))%Z.
  - destruct (Z.eq_dec k 0) as [->|]; [cbn; lia|]. apply Z.log2_spec; lia.
  - apply Z.pow_le_mono_l; lia.
Qed.

(** ** range *)
Lemma phi_range b k m : (2 <= b)%Z -> 0 <= phi b k m <= 1 - / IZR (b ^ Z.of_nat m).
Proof.
  intros Hb. revert k. induction m as [|m IH]; intros k.
  - cbn. replace (/ 1) with 1 by field. lra.
  - rewrite phi_S by lia. specialize (IH (k / b)%Z).
    assert (HB : 0 < IZR b) by (apply IZR_lt; lia).
    assert (HM : 0 < IZR (b ^ Z.of_nat m)) by (apply IZR_lt, Z.pow_pos_nonneg; lia).
    assert (Hr : (0 <= k mod b <= b - 1)%Z) by (assert (X := Z.mod_pos_bound k b ltac:(lia)); lia).
    destruct Hr as [Hr1 Hr2]. apply IZR_le in Hr1, Hr2. rewrite minus_IZR in Hr2.
    rewrite Nat2Z.inj_succ, Z.pow_succ_r, mult_IZR by lia.
    split.
    + apply Rmult_le_pos; [lra|]. left; apply Rinv_0_lt_compat; exact HB.
    + apply Rmult_le_reg_r with (IZR b); [exact HB|].
      replace ((IZR (k mod b) + phi b (k / b) m) / IZR b * IZR b) with (IZR (k mod b) + phi b (k / b) m) by (field; lra).
      replace ((1 - / (IZR b * IZR (b ^ Z.of_nat m))) * IZR b) with (IZR b - / IZR (b ^ Z.of_nat m)) by (field; split; lra).
      lra.
Qed.

(** ** digit reversal *)
Fixpoint rev (b : Z) (m : nat) (k : Z) : Z :=
  match m with
  | O => 0
  | S m' => (k mod b) * b ^ Z.of_nat m' + rev b m' (k / b)
  end%Z.
Fixpoint unrev (b : Z) (m : nat) (j : Z) : Z :=
  match m with
  | O => 0
  | S m' => j / b ^ Z.of_nat m' + b * unrev b m' (j mod b ^ Z.of_nat m')
  end%Z.

Lemma bpow_pos b m : (2 <= b)%Z -> (0 < b ^ Z.of_nat m)%Z.
Proof. intros; apply Z.pow_pos_nonneg; lia. Qed.

Lemma rev_range b m : (2 <= b)%Z -> forall k, (0 <= rev b m k < b ^ Z.of_nat m)%Z.
Proof.
  intros Hb. induction m as [|m IH]; intros k; cbn [rev]; [cbn; lia|].
  specialize (IH (k / b)%Z). assert (Hp := bpow_pos b m Hb).
  assert (X := Z.mod_pos_bound k b ltac:(lia)).
  rewrite Nat2Z.inj_succ, Z.pow_succ_r by lia. nia.
Qed.
Lemma unrev_range b m : (2 <= b)%Z -> forall j, (0 <= j < b ^ Z.of_nat m)%Z -> (0 <= unrev b m j < b ^ Z.of_nat m)%Z.
Proof.
  intros Hb. induction m as [|m IH]; intros j Hj; cbn [unrev]; [cbn; lia|].
  assert (Hp := bpow_pos b m Hb). rewrite Nat2Z.inj_succ, Z.pow_succ_r in * by lia.
  assert (X := Z.mod_pos_bound j _ Hp). specialize (IH _ X).
  assert (0 <= j / b ^ Z.of_nat m < b)%Z by (split; [apply Z.div_pos; lia|apply Z.div_lt_upper_bound; lia]).
  nia.
Qed.
Lemma rev_unrev b m : (2 <= b)%Z -> forall j, (0 <= j < b ^ Z.of_nat m)%Z -> rev b m (unrev b m j) = j.
Proof.
  intros Hb. induction m as [|m IH]; intros j Hj; cbn [rev unrev]; [cbn in Hj; lia|].
  assert (Hp := bpow_pos b m Hb). rewrite Nat2Z.inj_succ, Z.pow_succ_r in Hj by lia.
  assert (X := Z.mod_pos_bound j _ Hp).
  assert (Hq : (0 <= j / b ^ Z.of_nat m < b)%Z) by (split; [apply Z.div_pos; lia|apply Z.div_lt_upper_bound; lia]).
  rewrite (Z.mul_comm b), Z.mod_add, (Z.mod_small (j / _)), Z.div_add, (Z.div_small (j / _)) by lia.
  rewrite Z.add_0_l, IH by exact X. rewrite (Z.div_mod j (b ^ Z.of_nat m)) at 3 by lia. lia.
Qed.
Lemma rev_inj b m : (2 <= b)%Z -> forall k k', rev b m k = rev b m k' -> (k mod b ^ Z.of_nat m = k' mod b ^ Z.of_nat m)%Z.
Proof.
  intros Hb. induction m as [|m IH]; intros k k' H; [rewrite !Z.mod_1_r; reflexivity|].
  cbn [rev] in H. assert (R1 := rev_range b m Hb (k / b)). assert (R2 := rev_range b m Hb (k' / b)).
  assert (Hp := bpow_pos b m Hb).
  assert (E : (k mod b = k' mod b)%Z).
  { nia. }
  rewrite E in H. assert (H' : rev b m (k / b) = rev b m (k' / b)) by lia. apply IH in H'.
  rewrite Nat2Z.inj_succ, Z.pow_succ_r by lia.
  rewrite !Z.rem_mul_r by lia. rewrite E, H'. reflexivity.
Qed.
Lemma rev_mod b m k : (2 <= b)%Z -> rev b m (k mod b ^ Z.of_nat m) = rev b m k.
Proof.
  intros Hb. revert k. induction m as [|m IH]; intros k; [reflexivity|].
  cbn [rev]. assert (Hp := bpow_pos b m Hb). rewrite Nat2Z.inj_succ, Z.pow_succ_r by lia.
  rewrite Z.rem_mul_r by lia.
  rewrite (Z.mul_comm b), Z.mod_add, Z.mod_mod by lia.
  rewrite Z.div_add by lia. rewrite (Z.div_small (k mod b)) by (apply Z.mod_pos_bound; lia).
  rewrite Z.add_0_l, IH. reflexivity.
Qed.

(** the cell of the radical inverse is the reversal of the low digits *)
Lemma phi_cell b k m M : (2 <= b)%Z -> (0 <= k < b ^ Z.of_nat M)%Z ->
  in_cell (b ^ Z.of_nat m) (rev b m k) (phi b k M).
Proof.
  intros Hb. revert k M. induction m as [|m IH]; intros k M Hk.
  - assert (X := phi_range b k M Hb). assert (Y : 0 < / IZR (b ^ Z.of_nat M)) by (apply Rinv_0_lt_compat, IZR_lt, bpow_pos, Hb).
    unfold in_cell. cbn [rev]. change (b ^ Z.of_nat 0)%Z with 1%Z. unfold Rdiv. rewrite Rinv_1. lra.
  - assert (HkS : (0 <= k < b ^ Z.of_nat (S M))%Z).
    { rewrite Nat2Z.inj_succ, Z.pow_succ_r by lia. assert (Hp := bpow_pos b M Hb). nia. }
    rewrite (phi_irrel b k M (S M)) by assumption. rewrite phi_S by lia.
    assert (HkM : (0 <= k / b < b ^ Z.of_nat M)%Z).
    { rewrite Nat2Z.inj_succ, Z.pow_succ_r in HkS by lia.
      split; [apply Z.div_pos; lia|apply Z.div_lt_upper_bound; lia]. }
    destruct (IH (k / b)%Z M HkM) as [I1 I2].
    assert (HB : 0 < IZR b) by (apply IZR_lt; lia).
    assert (HM : 0 < IZR (b ^ Z.of_nat m)) by (apply IZR_lt, bpow_pos, Hb).
    unfold in_cell. cbn [rev]. rewrite Nat2Z.inj_succ, Z.pow_succ_r, mult_IZR, plus_IZR, mult_IZR by lia.
    set (r := IZR (rev b m (k / b))) in *. set (p := IZR (b ^ Z.of_nat m)) in *. set (d := IZR (k mod b)).
    replace ((d * p + r) / (IZR b * p)) with ((d + r / p) / IZR b) by (field; split; lra).
    replace ((d * p + r + 1) / (IZR b * p)) with ((d + (r + 1) / p) / IZR b) by (field; split; lra).
    assert (HBi : 0 < / IZR b) by (apply Rinv_0_lt_compat; exact HB).
    split; [apply Rmult_le_compat_r|apply Rmult_lt_compat_r]; lra.
Qed.

Lemma in_cell_unique N i j x : (0 < N)%Z -> in_cell N i x -> in_cell N j x -> i = j.
Proof.
  intros HN [A1 A2] [B1 B2]. assert (H : 0 < IZR N) by (apply IZR_lt; exact HN).
  assert (Hi : 0 < / IZR N) by (apply Rinv_0_lt_compat; exact H).
  assert (IZR i < IZR j + 1) by (apply Rmult_lt_reg_r with (/ IZR N); [exact Hi|]; unfold Rdiv in *; lra).
  assert (IZR j < IZR i + 1) by (apply Rmult_lt_reg_r with (/ IZR N); [exact Hi|]; unfold Rdiv in *; lra).
  rewrite <- plus_IZR in *. apply lt_IZR in H0, H1. lia.
Qed.

Lemma radical_phi b k v : (2 <= b)%Z -> (0 <= k)%Z -> radical_inverse b k v -> exists M, (0 <= k < b ^ Z.of_nat M)%Z /\ v = phi b k M.
Proof.
  intros Hb Hk H. destruct (enough_digits b k Hb Hk) as [M HM]. exists M. split; [lia|]. apply H, HM.
Qed.
Lemma radical_cell b k v m j : (2 <= b)%Z -> (0 <= k)%Z -> radical_inverse b k v ->
  in_cell (b ^ Z.of_nat m) j v <-> j = rev b m k.
Proof.
  intros Hb Hk H. destruct (radical_phi b k v Hb Hk H) as [M [HM ->]].
  assert (X := phi_cell b k m M Hb HM). split; intros Y.
  - eapply in_cell_unique; [apply bpow_pos, Hb|exact Y|exact X].
  - rewrite Y; exact X.
Qed.
Lemma radical_range b k v : (2 <= b)%Z -> (0 <= k)%Z -> radical_inverse b k v -> 0 <= v < 1.
Proof.
  intros Hb Hk H. destruct (radical_phi b k v Hb Hk H) as [M [HM ->]].
  assert (X := phi_range b k M Hb). assert (Y : 0 < / IZR (b ^ Z.of_nat M)) by (apply Rinv_0_lt_compat, IZR_lt, bpow_pos, Hb). lra.
Qed.
Lemma radical_inj b k k' v : (2 <= b)%Z -> (0 <= k)%Z -> (0 <= k')%Z -> radical_inverse b k v -> radical_inverse b k' v -> k = k'.
Proof.
  intros Hb Hk Hk' H H'. destruct (enough_digits b (Z.max k k') Hb ltac:(lia)) as [M HM].
  assert (E := proj1 (radical_cell b k v M (rev b M k) Hb Hk H) ).
  assert (C := proj2 (radical_cell b k v M (rev b M k) Hb Hk H) eq_refl).
  apply (radical_cell b k' v M _ Hb Hk' H') in C. apply rev_inj in C; [|exact Hb].
  rewrite !Z.mod_small in C by lia. exact C.
Qed.
Lemma radical_pos b k v : (2 <= b)%Z -> (0 < k)%Z -> radical_inverse b k v -> 0 < v.
Proof.
  intros Hb Hk H. destruct (radical_range b k v Hb ltac:(lia) H) as [[L|L] _]; [exact L|].
  exfalso. assert (Z0 : radical_inverse b 0 v).
  { intros m _. fold (phi b 0 m). rewrite phi_0 by lia. symmetry; exact L. }
  assert (E := radical_inj b k 0 v Hb ltac:(lia) ltac:(lia) H Z0). lia.
Qed.
Lemma radical_fun b k v v' : (2 <= b)%Z -> (0 <= k)%Z -> radical_inverse b k v -> radical_inverse b k v' -> v = v'.
Proof.
  intros Hb Hk H H'. destruct (enough_digits b k Hb Hk) as [M HM]. rewrite (H M HM), (H' M HM). reflexivity.
Qed.
Lemma vdc_ok_ex b k fuel : (2 <= b)%Z -> (0 <= k)%Z -> (Z.to_nat (Z.log2 k) < fuel)%nat ->
  exists v, vdc fuel k b = Ok v /\ radical_inverse b k v.
Proof.
  intros Hb Hk Hf. assert (Hd := log2_digits b k Hb Hk).
  assert (E := vdc_ok b k _ fuel Hb (conj Hk Hd) Hf). eexists; split; [exact E|].
  eapply vdc_radical; eassumption.
Qed.

(** ** windows and residues *)
Lemma window_residue s N r (P : Z -> Prop) : (0 < N)%Z -> (0 <= r < N)%Z ->
  (forall k, (s <= k)%Z -> P k <-> (k mod N = r)%Z) -> unique_in_window s N P.
Proof.
  intros HN Hr HP. assert (X := Z.mod_pos_bound (r - s) N HN).
  exists (s + (r - s) mod N)%Z. split; [lia|]. split.
  - apply HP; [lia|]. rewrite Zplus_mod_idemp_r. replace (s + (r - s))%Z with r by lia. apply Z.mod_small; exact Hr.
  - intros k' Hk' Pk'. apply HP in Pk'; [|lia].
    assert (E : ((r - s) mod N = (k' - s) mod N)%Z).
    { rewrite <- Pk'. rewrite Zminus_mod_idemp_l. reflexivity. }
    rewrite E, Z.mod_small by lia. lia.
Qed.

Lemma crt2 N M a c : (0 < N)%Z -> (0 < M)%Z -> rel_prime N M -> (0 <= a < N)%Z -> (0 <= c < M)%Z ->
  exists r, (0 <= r < N * M)%Z /\ forall k, (k mod N = a /\ k mod M = c)%Z <-> (k mod (N * M) = r)%Z.
Proof.
  intros HN HM HP Ha Hc. destruct (rel_prime_bezout _ _ HP) as [u v Huv].
  set (x0 := (a * (v * M) + c * (u * N))%Z).
  assert (HNM : (0 < N * M)%Z) by nia.
  assert (D : forall k, ((k mod N = a /\ k mod M = c) <-> (N * M | k - x0))%Z).
  { intros k.
    assert (E1 : (x0 = a + N * (c * u - a * u))%Z) by (unfold x0; nia).
    assert (E2 : (x0 = c + M * (a * v - c * v))%Z) by (unfold x0; nia).
    split.
    - intros [H1 H2].
      assert (D1 : (N | k - x0)%Z).
      { exists (k / N - (c * u - a * u))%Z. assert (Y := Z.div_mod k N ltac:(lia)). rewrite E1. nia. }
      assert (D2 : (M | k - x0)%Z).
      { exists (k / M - (a * v - c * v))%Z. assert (Y := Z.div_mod k M ltac:(lia)). rewrite E2. nia. }
      destruct D1 as [q Hq]. rewrite Hq in D2. rewrite Hq.
      apply rel_prime_sym in HP. rewrite Z.mul_comm in D2. apply Gauss in D2; [|exact HP].
      destruct D2 as [w Hw]. exists w. rewrite Hw. ring.
    - intros [q Hq]. split.
      + replace k with (a + (c * u - a * u + q * M) * N)%Z by nia. rewrite Z.mod_add by lia. apply Z.mod_small; exact Ha.
      + replace k with (c + (a * v - c * v + q * N) * M)%Z by nia. rewrite Z.mod_add by lia. apply Z.mod_small; exact Hc. }
  exists (x0 mod (N * M))%Z. split; [apply Z.mod_pos_bound; exact HNM|].
  intros k. rewrite D. split.
  - intros [q Hq]. replace k with (x0 + q * (N * M))%Z by lia. apply Z.mod_add; lia.
  - intros H. exists (k / (N * M) - x0 / (N * M))%Z.
    assert (Y := Z.div_mod k (N * M) ltac:(lia)). assert (Y' := Z.div_mod x0 (N * M) ltac:(lia)). nia.
Qed.

(** a cell of an axis: base, number of digits, index *)
Definition axis : Type := Z * nat * Z.
Definition a_base (a : axis) : Z := fst (fst a).
Definition a_parts (a : axis) : Z := (fst (fst a) ^ Z.of_nat (snd (fst a)))%Z.
Definition a_idx (a : axis) : Z := snd a.
Definition a_ok (a : axis) : Prop := (2 <= a_base a)%Z /\ (0 <= a_idx a < a_parts a)%Z.
Definition parts (l : list axis) : Z := fold_right (fun a N => (a_parts a * N)%Z) 1%Z l.

Lemma parts_pos l : Forall a_ok l -> (0 < parts l)%Z.
Proof.
  induction 1 as [|a l [Ha _] _ IH]; [cbn; lia|]. change (parts (a :: l)) with (a_parts a * parts l)%Z.
  assert (0 < a_parts a)%Z by (apply bpow_pos, Ha). nia.
Qed.
Lemma rel_prime_pow_r a b m : rel_prime a b -> rel_prime a (b ^ Z.of_nat m).
Proof.
  intros H. induction m as [|m IH]; [apply rel_prime_sym, rel_prime_1|].
  rewrite Nat2Z.inj_succ, Z.pow_succ_r by lia. apply rel_prime_mult; assumption.
Qed.
Lemma parts_coprime a l : (forall a', In a' l -> rel_prime (a_base a) (a_base a')) -> Forall a_ok (a :: l) ->
  rel_prime (a_parts a) (parts l).
Proof.
  intros H Hok. induction l as [|c l IH]; [apply rel_prime_sym, rel_prime_1|].
  change (parts (c :: l)) with (a_parts c * parts l)%Z.
  apply rel_prime_mult.
  - unfold a_parts. apply rel_prime_pow_r, rel_prime_sym, rel_prime_pow_r, rel_prime_sym. apply H; left; reflexivity.
  - apply IH; [intros; apply H; right; assumption|].
    inversion Hok as [|? ? Ha Hl]; inversion Hl; constructor; assumption.
Qed.
Lemma crt_list l : Forall a_ok l -> ForallOrdPairs (fun a a' => rel_prime (a_base a) (a_base a')) l ->
  exists r, (0 <= r < parts l)%Z /\
    forall k, Forall (fun a => rev (a_base a) (snd (fst a)) k = a_idx a) l <-> (k mod parts l = r)%Z.
Proof.
  intros Hok Hcop. induction l as [|a l IH].
  - exists 0%Z. split; [cbn; lia|]. intros k. cbn. rewrite Z.mod_1_r. split; auto.
  - inversion Hok as [|? ? Ha Hl]; subst. inversion Hcop as [|? ? Hc1 Hc2]; subst.
    destruct (IH Hl Hc2) as [r [Hr HIH]]. destruct Ha as [Hb Hj].
    assert (Hu := unrev_range _ _ Hb _ Hj).
    destruct (crt2 (a_parts a) (parts l) (unrev (a_base a) (snd (fst a)) (a_idx a)) r) as [r' [Hr' H']].
    + apply bpow_pos, Hb.
    + apply parts_pos, Hl.
    + apply parts_coprime; [|exact Hok]. apply Forall_forall. exact Hc1.
    + exact Hu.
    + exact Hr.
    + exists r'. split; [exact Hr'|]. intros k. rewrite <- (H' k), <- (HIH k).
      rewrite Forall_cons_iff. unfold a_parts in *. fold (a_base a) in *.
      assert (Hk : rev (a_base a) (snd (fst a)) k = a_idx a <->
                   (k mod a_base a ^ Z.of_nat (snd (fst a)) = unrev (a_base a) (snd (fst a)) (a_idx a))%Z).
      { split; intros E.
        - assert (E2 : rev (a_base a) (snd (fst a)) k = rev (a_base a) (snd (fst a)) (unrev (a_base a) (snd (fst a)) (a_idx a))).
          { rewrite rev_unrev by assumption. exact E. }
          apply rev_inj in E2; [|exact Hb]. rewrite E2. apply Z.mod_small; exact Hu.
        - rewrite <- (rev_mod _ _ k Hb), E. apply rev_unrev; assumption. }
      rewrite Hk. reflexivity.
Qed.

(** ** repeated calls of a generator *)
Lemma calls_spec {O V} (gen : O -> res (O * V)) (st : Z -> O) (P : Z -> V -> Prop) n : forall lo,
  (forall c, (lo <= c < lo + Z.of_nat n)%Z -> exists v, gen (st c) = Ok (st (c + 1)%Z, v) /\ P c v) ->
  exists vs, calls gen n (st lo) = Ok (st (lo + Z.of_nat n)%Z, vs) /\ length vs = n /\
    forall i d, (i < n)%nat -> P (lo + Z.of_nat i)%Z (nth i vs d).
Proof.
  induction n as [|n IH]; intros lo H.
  - exists []. cbn [calls]. rewrite Z.add_0_r. split; [reflexivity|]. split; [reflexivity|]. intros; lia.
  - destruct (H lo ltac:(lia)) as [v [Hv Pv]].
    destruct (IH (lo + 1)%Z) as [vs [Hvs [Hl Hn]]]. { intros c Hc. apply H; lia. }
    exists (v :: vs). cbn [calls]. rewrite Hv. cbn [bind]. rewrite Hvs. cbn [bind].
    replace (lo + 1 + Z.of_nat n)%Z with (lo + Z.of_nat (S n))%Z by lia.
    split; [reflexivity|]. split; [cbn; lia|]. intros [|i] d Hi; cbn [nth].
    + rewrite Z.add_0_r. exact Pv.
    + replace (lo + Z.of_nat (S i))%Z with (lo + 1 + Z.of_nat i)%Z by lia. apply Hn; lia.
Qed.

Lemma vdcorput_call_ok b c fuel : (2 <= b)%Z -> (0 <= c)%Z -> (Z.to_nat (Z.log2 (c + 1)) < fuel)%nat ->
  exists v, vdcorput_call fuel (mkVdc b c) = Ok (mkVdc b (c + 1), v) /\ radical_inverse b (c + 1) v.
Proof.
  intros Hb Hc Hf. destruct (vdc_ok_ex b (c + 1) fuel Hb ltac:(lia) Hf) as [v [Hv Hr]].
  exists v. unfold vdcorput_call. cbn [vd_base vd_count]. rewrite Hv. cbn [bind]. auto.
Qed.
Lemma log2_fuel c c' fuel : (0 <= c <= c')%Z -> (Z.to_nat (Z.log2 c') < fuel)%nat -> (Z.to_nat (Z.log2 c) < fuel)%nat.
Proof. intros Hc Hf. assert (X := Z.log2_le_mono c c' ltac:(lia)). lia. Qed.

Lemma vdcorput_calls b c n fuel : (2 <= b)%Z -> (0 <= c)%Z -> (Z.to_nat (Z.log2 (c + Z.of_nat n)) < fuel)%nat ->
  exists vs, calls (vdcorput_call fuel) n (mkVdc b c) = Ok (mkVdc b (c + Z.of_nat n), vs) /\ length vs = n /\
    forall i d, (i < n)%nat -> radical_inverse b (c + Z.of_nat i + 1) (nth i vs d).
Proof.
  intros Hb Hc Hf. apply (calls_spec (vdcorput_call fuel) (mkVdc b) (fun c v => radical_inverse b (c + 1) v) n c).
  intros c' Hc'. apply vdcorput_call_ok; [exact Hb|lia|]. eapply log2_fuel; [|exact Hf]; lia.
Qed.

Lemma halton_call_ok b0 b1 c fuel : (2 <= b0)%Z -> (2 <= b1)%Z -> (0 <= c)%Z -> (Z.to_nat (Z.log2 (c + 1)) < fuel)%nat ->
  exists v : R * R, halton_call fuel (mkVdc b0 c, mkVdc b1 c) = Ok ((mkVdc b0 (c + 1), mkVdc b1 (c + 1)), v) /\
    radical_inverse b0 (c + 1) (fst v) /\ radical_inverse b1 (c + 1) (snd v).
Proof.
  intros H0 H1 Hc Hf. destruct (vdcorput_call_ok b0 c fuel H0 Hc Hf) as [v0 [E0 R0]].
  destruct (vdcorput_call_ok b1 c fuel H1 Hc Hf) as [v1 [E1 R1]].
  exists (v0, v1). unfold halton_call. cbn [fst snd]. rewrite E0. cbn [bind]. rewrite E1. cbn [bind]. auto.
Qed.

Definition halton_n_st (bs : list Z) (c : Z) : list vdcorput := map (fun b => mkVdc b c) bs.
Lemma halton_n_call_ok bs c fuel : Forall (fun b => 2 <= b)%Z bs -> (0 <= c)%Z -> (Z.to_nat (Z.log2 (c + 1)) < fuel)%nat ->
  exists vs : list R, halton_n_call fuel (halton_n_st bs c) = Ok (halton_n_st bs (c + 1), vs) /\
    Forall2 (fun b v => radical_inverse b (c + 1) v) bs vs.
Proof.
  intros Hb Hc Hf. induction Hb as [|b bs Hb _ [vs [E F]]]; [exists []; cbn; auto|].
  destruct (vdcorput_call_ok b c fuel Hb Hc Hf) as [v [E0 R0]].
  exists (v :: vs). cbn [halton_n_st map halton_n_call]. rewrite E0. cbn [bind].
  change (map (fun b => mkVdc b c) bs) with (halton_n_st bs c). rewrite E. cbn [bind]. auto.
Qed.

(** ** sites *)
Lemma nth_map2 {A B} (f : A -> B) l i d d' : (i < length l)%nat -> nth i (map f l) d = f (nth i l d').
Proof. intros H. rewrite (nth_indep _ d (f d')) by (rewrite map_length; exact H). apply map_nth. Qed.

Lemma create_2d_sites_ok nx ny fuel : (Z.to_nat (Z.log2 (nx * ny)) < fuel)%nat ->
  exists s : list (R * R), create_2d_sites fuel nx ny = Ok s /\ length s = Z.to_nat (nx * ny) /\
    forall i d, (i < length s)%nat -> exists v0 v1, nth i s d = (10 * v0, 8 * v1) /\
      radical_inverse 2 (Z.of_nat i + 1) v0 /\ radical_inverse 3 (Z.of_nat i + 1) v1.
Proof.
  intros Hf. unfold create_2d_sites. cbn [halton_init bind].
  change (vdcorput_init 2, vdcorput_init 3) with ((fun c => (mkVdc 2 c, mkVdc 3 c)) 0%Z).
  destruct (calls_spec (halton_call (A := R) fuel) (fun c => (mkVdc 2 c, mkVdc 3 c))
     (fun c v => radical_inverse 2 (c + 1) (fst v) /\ radical_inverse 3 (c + 1) (snd v)) (Z.to_nat (nx * ny)) 0%Z)
    as [vs [E [Hl Hv]]].
  - intros c Hc. apply halton_call_ok; try lia. eapply log2_fuel; [|exact Hf]; lia.
  - rewrite E. cbn [bind]. eexists; split; [reflexivity|]. rewrite map_length. split; [exact Hl|].
    intros i d Hi. rewrite (nth_map2 _ _ _ _ (0, 0)) by exact Hi. rewrite Hl in Hi.
    destruct (Hv i (0, 0) Hi) as [H0 H1]. rewrite Z.add_0_l in *.
    exists (fst (nth i vs (0, 0))), (snd (nth i vs (0, 0))). cbn. auto.
Qed.
