(** chol_ext over the reals. *)
From Coq Require Import Reals Lra Psatz.
From Verif Require Import Base M_Chol S_LinAlg P_LinAlg.
Local Open Scope R_scope.

Lemma mset_eq {A} (T : nat -> nat -> A) i j x : mset T i j x i j = x.
Proof. unfold mset. rewrite !Nat.eqb_refl. reflexivity. Qed.
Lemma mset_ne {A} (T : nat -> nat -> A) i j x a b : ~ (a = i /\ b = j) -> mset T i j x a b = T a b.
Proof.
  intros H. unfold mset. destruct (Nat.eqb_spec a i), (Nat.eqb_spec b j); cbn; tauto.
Qed.
Lemma vset_eq {A} (v : nat -> A) i x : vset v i x i = x.
Proof. unfold vset. rewrite Nat.eqb_refl. reflexivity. Qed.
Lemma vset_ne {A} (v : nat -> A) i x k : k <> i -> vset v i x k = v k.
Proof. intros H. unfold vset. destruct (Nat.eqb_spec k i); tauto. Qed.

(** what the callback must satisfy: its answers are the entries of M; [GI k]
    holds of its state when rows 0..k-1 have been asked for *)
Definition getter {G} (n : nat) (M : nat -> nat -> R) (GI : nat -> G -> Prop)
    (getA : G -> nat -> nat -> res (G * R)) : Prop :=
  forall g i j, (j <= i)%nat -> (i < n)%nat -> GI i g \/ GI (S i) g ->
    exists g', getA g i j = Ok (g', M i j) /\ GI (S i) g'.

Lemma pure_getter n M : getter n M (fun _ _ => True) (pure_getA M).
Proof. intros g i j _ _ _. exists tt. split; [reflexivity|trivial]. Qed.

(** the factorisation computed so far for the block [s, e) *)
Definition part (s : nat) (T : nat -> nat -> R) (a b c : nat) : R :=
  rsum (b - s) (fun l => T a (s + l)%nat * T (s + l)%nat c).
Definition ldl (M : nat -> nat -> R) (s e : nat) (T : nat -> nat -> R) : Prop :=
  (forall a b, (s <= b <= a)%nat -> (a < e)%nat -> T b a = M a b - part s T a b b) /\
  (forall a b, (s <= b < a)%nat -> (a < e)%nat -> T a b * T b b = T b a).

Lemma part_ext s T T' a b c :
  (forall l, (s <= l < b)%nat -> T a l = T' a l /\ T l c = T' l c) -> part s T a b c = part s T' a b c.
Proof. intros H. apply rsum_ext. intros k Hk. destruct (H (s + k)%nat) as [-> ->]; [lia|reflexivity]. Qed.

Section Rows.
Context {G : Type}.
Variables (n : nat) (M : nat -> nat -> R) (GI : nat -> G -> Prop)
          (getA : G -> nat -> nat -> res (G * R)).
Hypothesis Hget : getter n M GI getA.

Lemma chol_row_spec s i : (i < n)%nat -> forall cnt j g T d,
  (s <= j)%nat -> (j + cnt = i)%nat -> GI (S i) g ->
  (forall a, (s <= a < i)%nat -> T a a <> 0) ->
  (forall b, (s <= b < j)%nat -> T i b * T b b = T b i /\ T b i = M i b - part s T i b b) ->
  d = M i j - part s T i j j ->
  exists g' T' d', chol_row getA cnt s i j g T d = Ok (g', T', d') /\ GI (S i) g' /\
    (forall a b, ~ (a = i /\ s <= b < i)%nat -> ~ (b = i /\ s <= a < i)%nat -> T' a b = T a b) /\
    (forall b, (s <= b < i)%nat -> T' i b * T' b b = T' b i /\ T' b i = M i b - part s T' i b b) /\
    d' = M i i - part s T' i i i.
Proof.
  intros Hi. induction cnt as [|cnt IH]; intros j g T d Hj Hc Hg Hnz Hrow Hd.
  - replace j with i in * by lia.
    exists g, T, d. split; [reflexivity|]. auto.
  - cbn [chol_row].
    rewrite (mset_ne T j i d j j) by lia.
    rewrite rdiv_ok by (apply Hnz; lia). cbn [bind].
    set (T2 := mset (mset T j i d) i j (d / T j j)).
    destruct (Hget g i (j + 1)%nat) as (g1 & -> & Hg1); [lia|lia|auto|]. cbn [bind].
    assert (E2 : forall a b, ~ (a = i /\ b = j) -> ~ (a = j /\ b = i) -> T2 a b = T a b).
    { intros a b H1 H2. unfold T2. rewrite mset_ne by assumption. apply mset_ne; assumption. }
    assert (E2ij : T2 i j = d / T j j) by apply mset_eq.
    assert (E2ji : T2 j i = d).
    { unfold T2. rewrite mset_ne by lia. apply mset_eq. }
    edestruct (IH (j + 1)%nat g1 T2) as (g' & T' & d' & Hr & Hg' & Hf & Hrow' & Hd');
      [lia|lia|assumption| | | |].
    + intros a Ha. rewrite E2 by lia. apply Hnz; lia.
    + intros b Hb. destruct (Nat.eq_dec b j) as [->|Hne].
      * rewrite E2ij, E2ji, (E2 j j) by lia. split; [field; apply Hnz; lia|].
        rewrite Hd. f_equal. apply part_ext. intros l Hl. rewrite !E2 by lia. auto.
      * rewrite !E2 by lia. destruct (Hrow b) as [H1 H2]; [lia|]. split; [assumption|].
        rewrite H2. f_equal. apply part_ext. intros l Hl. rewrite !E2 by lia. auto.
    + reflexivity.
    + exists g', T', d'. split; [|split; [assumption|split; [|split; assumption]]].
      * exact Hr.
      * intros a b H1 H2. rewrite Hf by lia. apply E2; lia.
Qed.

Lemma chol_rows_spec semi : forall cnt i s g T,
  (i + cnt = n)%nat -> (s <= i)%nat -> GI i g ->
  ldl M s i T -> (forall a, (s <= a < i)%nat -> 0 < T a a) ->
  exists g' T' p, chol_rows getA semi cnt i s g T = Ok (g', T', p) /\
   ((p = (0, 0)%nat /\ GI n g' /\
     (semi = false -> ldl M s n T' /\ forall a, (s <= a < n)%nat -> 0 < T' a a)) \/
    exists s' m, p = (s', m + 1)%nat /\ (s <= s' <= m)%nat /\ (m < n)%nat /\ GI (S m) g' /\
      (semi = false -> s' = s) /\
      ldl M s' (m + 1) T' /\ (forall a, (s' <= a < m)%nat -> 0 < T' a a) /\
      T' m m <= 0 /\ (semi = true -> T' m m < 0)).
Proof.
  induction cnt as [|cnt IH]; intros i s g T Hn Hs Hg HL Hp.
  - replace i with n in * by lia.
    exists g, T, (0, 0)%nat. split; [reflexivity|]. left. auto.
  - cbn [chol_rows].
    destruct (Hget g i s) as (g1 & -> & Hg1); [lia|lia|auto|]. cbn [bind].
    destruct (chol_row_spec s i ltac:(lia) (i - s) s g1 T (M i s)) as (g2 & T1 & d & -> & Hg2 & Hf & Hrow & Hd);
      [lia|lia|assumption| |lia| |].
    { intros a Ha. specialize (Hp a Ha). lra. }
    { unfold part. rewrite Nat.sub_diag. cbn. lra. }
    cbn [bind]. set (T2 := mset T1 i i d).
    assert (E2 : forall a b, ~ (a = i /\ b = i) -> T2 a b = T1 a b) by (intros; apply mset_ne; assumption).
    assert (E2i : T2 i i = d) by apply mset_eq.
    assert (HL2 : ldl M s (i + 1) T2).
    { destruct HL as [HL1 HL2]. split.
      - intros a b Hb Ha. destruct (Nat.eq_dec a i) as [->|Ha'].
        + destruct (Nat.eq_dec b i) as [->|Hb'].
          * rewrite E2i, Hd. f_equal. apply part_ext. intros l Hl. rewrite !E2 by lia. auto.
          * rewrite E2 by lia. destruct (Hrow b) as [_ ->]; [lia|]. f_equal.
            apply part_ext. intros l Hl. rewrite !E2 by lia. auto.
        + rewrite E2, Hf by lia. rewrite HL1 by lia. f_equal.
          apply part_ext. intros l Hl. rewrite !E2, !Hf by lia. auto.
      - intros a b Hb Ha. destruct (Nat.eq_dec a i) as [->|Ha'].
        + rewrite !E2 by lia. apply Hrow; lia.
        + rewrite !E2, !Hf by lia. apply HL2; lia. }
    assert (Hp2 : forall a, (s <= a < i)%nat -> 0 < T2 a a).
    { intros a Ha. rewrite E2, Hf by lia. apply Hp; assumption. }
    change (@nltb R RNum) with Rltb. change (@nzero R RNum) with 0.
    destruct (Rltb 0 d) eqn:B1.
    + apply Rltb_true in B1.
      destruct (IH (i + 1)%nat s g2 T2) as (g' & T' & p & Hr & H);
        [lia|lia|replace (i + 1)%nat with (S i) by lia; assumption|assumption| |].
      { intros a Ha. destruct (Nat.eq_dec a i) as [->|]; [rewrite E2i; assumption|apply Hp2; lia]. }
      exists g', T', p. split; [exact Hr|exact H].
    + apply Rltb_false in B1.
      destruct (orb (Rltb d 0) (negb semi)) eqn:B2.
      * exists g2, T2, (s, i + 1)%nat. split; [reflexivity|]. right. exists s, i.
        split; [reflexivity|]. split; [lia|]. split; [lia|]. split; [assumption|].
        split; [reflexivity|]. split; [assumption|]. split; [assumption|].
        rewrite E2i. split; [assumption|]. intros ->. rewrite orb_false_r in B2.
        apply Rltb_true in B2. assumption.
      * apply orb_false_iff in B2 as [B2 B3]. apply negb_false_iff in B3. subst semi.
        destruct (IH (i + 1)%nat (i + 1)%nat g2 T2) as (g' & T' & p & Hr & H);
          [lia|lia|replace (i + 1)%nat with (S i) by lia; assumption| | |].
        { split; intros; lia. }
        { intros; lia. }
        exists g', T', p. split; [exact Hr|].
        destruct H as [(Hp0 & Hg' & _)|(s' & m & Ep & Hs' & Hm & Hg' & _ & H)].
        -- left. split; [assumption|]. split; [assumption|discriminate].
        -- right. exists s', m. split; [assumption|]. split; [lia|]. split; [assumption|].
           split; [assumption|]. split; [discriminate|exact H].
Qed.
End Rows.

(** *** unit lower triangular factor and the quadratic form *)
Definition blk (M : nat -> nat -> R) (s : nat) : nat -> nat -> R := fun i j => M (s + i)%nat (s + j)%nat.
Definition Lh (s : nat) (T : nat -> nat -> R) (i l : nat) : R :=
  if (l <? i)%nat then T (s + i)%nat (s + l)%nat else if (l =? i)%nat then 1 else 0.
Definition Dg (s : nat) (T : nat -> nat -> R) (l : nat) : R := T (s + l)%nat (s + l)%nat.
(** (L' u)_l *)
Definition Ltu (m s : nat) (T : nat -> nat -> R) (u : nat -> R) (l : nat) : R :=
  rsum m (fun i => Lh s T i l * u i).

Lemma Lh_lt s T i l : (l < i)%nat -> Lh s T i l = T (s + i)%nat (s + l)%nat.
Proof. intros H. unfold Lh. destruct (Nat.ltb_spec l i); [reflexivity|lia]. Qed.
Lemma Lh_eq s T i : Lh s T i i = 1.
Proof. unfold Lh. destruct (Nat.ltb_spec i i); [lia|]. rewrite Nat.eqb_refl. reflexivity. Qed.
Lemma Lh_gt s T i l : (i < l)%nat -> Lh s T i l = 0.
Proof. intros H. unfold Lh. destruct (Nat.ltb_spec l i); [lia|]. destruct (Nat.eqb_spec l i); [lia|reflexivity]. Qed.

Lemma rsum_trunc m b f : (b <= m)%nat -> (forall k, (b <= k < m)%nat -> f k = 0) -> rsum m f = rsum b f.
Proof.
  intros Hb H. rewrite (rsum_split_at m b f) by assumption.
  rewrite (rsum_0 (m - b)); [lra|]. intros k Hk. apply H; lia.
Qed.

Lemma ldl_entry M s e T i j m : ldl M s e T -> (s + m <= e)%nat -> (j <= i)%nat -> (i < m)%nat ->
  blk M s i j = rsum m (fun l => Lh s T i l * Dg s T l * Lh s T j l).
Proof.
  intros [H1 H2] Hm Hj Hi.
  rewrite (rsum_trunc m (S j)); [|lia|intros k Hk; rewrite (Lh_gt s T j k) by lia; ring].
  cbn [rsum]. rewrite Lh_eq. unfold blk.
  assert (E := H1 (s + i)%nat (s + j)%nat ltac:(lia) ltac:(lia)).
  unfold part in E. replace (s + j - s)%nat with j in E by lia.
  rewrite (rsum_ext j _ (fun l => T (s + i)%nat (s + l)%nat * T (s + l)%nat (s + j)%nat)).
  2: { intros l Hl. rewrite !Lh_lt by lia. unfold Dg.
       rewrite <- (H2 (s + j)%nat (s + l)%nat) by lia. ring. }
  destruct (Nat.eq_dec i j) as [->|Hne].
  - rewrite Lh_eq. unfold Dg. lra.
  - rewrite Lh_lt by lia. unfold Dg.
    rewrite <- (H2 (s + i)%nat (s + j)%nat) in E by lia. lra.
Qed.

Lemma ldl_entry_sym M s e T i j m : ldl M s e T -> (s + m <= e)%nat -> sym e M ->
  (i < m)%nat -> (j < m)%nat ->
  blk M s i j = rsum m (fun l => Lh s T i l * Dg s T l * Lh s T j l).
Proof.
  intros HL Hm Hsy Hi Hj. destruct (le_lt_dec j i) as [H|H].
  - eapply ldl_entry; eauto.
  - unfold blk. rewrite Hsy by lia. fold (blk M s j i).
    rewrite (ldl_entry M s e T j i m) by (auto; lia).
    apply rsum_ext. intros l _. ring.
Qed.

Lemma ldl_form M s e T m u : ldl M s e T -> (s + m <= e)%nat -> sym e M ->
  bf m (blk M s) u u = rsum m (fun l => Dg s T l * (Ltu m s T u l * Ltu m s T u l)).
Proof.
  intros HL Hm Hsy. rewrite bf_sums.
  transitivity (rsum m (fun i => rsum m (fun j => rsum m (fun l =>
     (Lh s T i l * u i) * (Dg s T l * (Lh s T j l * u j)))))).
  { apply rsum_ext. intros i Hi. apply rsum_ext. intros j Hj.
    rewrite (ldl_entry_sym M s e T i j m) by assumption.
    rewrite <- (rsum_scal_l m (u i)). rewrite <- rsum_scal_r. apply rsum_ext. intros; ring. }
  transitivity (rsum m (fun l => rsum m (fun i => rsum m (fun j =>
     (Lh s T i l * u i) * (Dg s T l * (Lh s T j l * u j)))))).
  { rewrite (rsum_exchange m m (fun l i => rsum m (fun j =>
     (Lh s T i l * u i) * (Dg s T l * (Lh s T j l * u j))))).
    apply rsum_ext. intros i _. apply rsum_exchange. }
  apply rsum_ext. intros l _. unfold Ltu at 1.
  transitivity (rsum m (fun i => (Lh s T i l * u i) * (Dg s T l * Ltu m s T u l))).
  { apply rsum_ext. intros i _. rewrite rsum_scal_l. rewrite rsum_scal_l. reflexivity. }
  rewrite rsum_scal_r. ring.
Qed.

(** L' is injective *)
Lemma Ltu_inj m s T u : (forall l, (l < m)%nat -> Ltu m s T u l = 0) -> forall i, (i < m)%nat -> u i = 0.
Proof.
  intros H. 
  assert (Hd : forall d i, (i + S d = m)%nat -> forall k, (i <= k < m)%nat -> u k = 0).
  { induction d as [|d IH]; intros i Hi k Hk.
    - assert (k = i) as -> by lia. assert (E := H i ltac:(lia)). unfold Ltu in E.
      rewrite (rsum_single m i) in E; [rewrite Lh_eq in E; lra|lia|].
      intros k' Hk' Hne. rewrite Lh_gt by lia. ring.
    - destruct (Nat.eq_dec k i) as [->|Hne]; [|apply (IH (S i)); lia].
      assert (E := H i ltac:(lia)). unfold Ltu in E.
      rewrite (rsum_single m i) in E; [rewrite Lh_eq in E; lra|lia|].
      intros k' Hk' Hne. destruct (le_lt_dec k' i).
      + rewrite Lh_gt by lia. ring.
      + rewrite (IH (S i) ltac:(lia) k') by lia. ring. }
  intros i Hi. apply (Hd (m - S i)%nat i); lia.
Qed.

Lemma ldl_pd M n T : ldl M 0 n T -> sym n M -> (forall a, (a < n)%nat -> 0 < T a a) -> pd n M.
Proof.
  intros HL Hsy Hp u (k & Hk & Hu).
  change (bf n M u u) with (bf n (blk M 0) u u).
  rewrite (ldl_form M 0 n T n) by (auto; lia).
  assert (Hnn : forall l, (l < n)%nat -> 0 <= Dg 0 T l * (Ltu n 0 T u l * Ltu n 0 T u l)).
  { intros l Hl. specialize (Hp l Hl). unfold Dg. cbn.
    apply Rmult_le_pos; [lra|apply Rle_0_sqr]. }
  destruct (Rle_lt_or_eq_dec 0 (rsum n (fun l => Dg 0 T l * (Ltu n 0 T u l * Ltu n 0 T u l))))
    as [H|H]; [apply rsum_nonneg; assumption|assumption|].
  exfalso. apply Hu. apply (Ltu_inj n 0 T u); [|assumption].
  intros l Hl. destruct (Req_dec (Ltu n 0 T u l) 0) as [E|E]; [assumption|exfalso].
  assert (0 < rsum n (fun l => Dg 0 T l * (Ltu n 0 T u l * Ltu n 0 T u l))); [|lra].
  apply (rsum_pos_term n _ l); auto. specialize (Hp l Hl). unfold Dg; cbn.
  apply Rmult_lt_0_compat; [assumption|]. nra.
Qed.

(** *** witness *)
Lemma witness_loop_spec n T : forall cnt i v,
  (cnt <= i)%nat ->
  let v' := witness_loop cnt i n T v in
  (forall k, ~ (i - cnt <= k < i)%nat -> v' k = v k) /\
  (forall r, (i - cnt <= r < i)%nat ->
     v' r = - rsum (n - S r) (fun k => T (S r + k)%nat r * v' (S r + k)%nat)).
Proof.
  induction cnt as [|cnt IH]; intros i v Hc; cbn [witness_loop].
  - split; [reflexivity|intros; lia].
  - set (v1 := vset v (i - 1) _).
    destruct (IH (i - 1)%nat v1) as [H1 H2]; [lia|]. split.
    + intros k Hk. rewrite H1 by lia. apply vset_ne. lia.
    + intros r Hr. destruct (Nat.eq_dec r (i - 1)) as [->|Hne].
      * rewrite H1 by lia. unfold v1 at 1. rewrite vset_eq. cbn [nopp ndot RNum].
        f_equal. replace (n - S (i - 1))%nat with (n - i)%nat by lia.
        apply rsum_ext. intros k Hk. rewrite H1 by lia. unfold v1. rewrite vset_ne by lia.
        replace (S (i - 1) + k)%nat with (i + k)%nat by lia. reflexivity.
      * apply H2. lia.
Qed.

Lemma chol_witness_spec (Q : chol R) s m :
  c_p Q = (s, m + 1)%nat -> (s <= m)%nat ->
  exists Q', chol_witness Q = Ok (Q', - c_T Q m m) /\
    c_p Q' = c_p Q /\ c_n Q' = c_n Q /\ c_T Q' = c_T Q /\ c_semi Q' = c_semi Q /\
    c_v Q' m = 1 /\
    (forall k, ~ (s <= k <= m)%nat -> c_v Q' k = c_v Q k) /\
    (forall l, (l < S (m - s))%nat ->
       Ltu (S (m - s)) s (c_T Q) (fun k => c_v Q' (s + k)%nat) l = if (l =? m - s)%nat then 1 else 0).
Proof.
  intros Hp Hs. unfold chol_witness, chol_is_spd. rewrite Hp. cbn [snd].
  destruct (Nat.eqb_spec (m + 1) 0); [lia|].
  replace (m + 1 - 1)%nat with m by lia.
  destruct (witness_loop_spec (m + 1) (c_T Q) (m - s) m (vset (c_v Q) m none)) as [H1 H2]; [lia|].
  cbn zeta in H1, H2.
  set (v := witness_loop (m - s) m (m + 1) (c_T Q) (vset (c_v Q) m none)) in *.
  eexists. split; [reflexivity|]. cbn [c_p c_n c_T c_semi c_v].
  split; [auto|]. do 3 (split; [reflexivity|]).
  assert (Hvm : v m = 1) by (rewrite H1 by lia; apply vset_eq).
  split; [assumption|]. split.
  { intros k Hk. rewrite H1 by lia. apply vset_ne. lia. }
  intros l Hl. unfold Ltu. destruct (Nat.eqb_spec l (m - s)) as [->|Hne].
  - rewrite (rsum_single _ (m - s)); [|lia|intros k Hk Hk'; rewrite Lh_gt by lia; ring].
    rewrite Lh_eq. replace (s + (m - s))%nat with m by lia. lra.
  - rewrite (rsum_split_at _ (S l)) by lia.
    rewrite (rsum_single (S l) l); [|lia|intros k Hk Hk'; rewrite Lh_gt by lia; ring].
    rewrite Lh_eq.
    rewrite (H2 (s + l)%nat) by lia.
    replace (m + 1 - S (s + l))%nat with (S (m - s) - S l)%nat by lia.
    rewrite (rsum_ext (S (m - s) - S l) (fun k => Lh s (c_T Q) (S l + k) l * v (s + (S l + k))%nat)
               (fun k => c_T Q (S (s + l) + k)%nat (s + l)%nat * v (S (s + l) + k)%nat)).
    + lra.
    + intros k Hk. rewrite Lh_lt by lia. replace (s + (S l + k))%nat with (S (s + l) + k)%nat by lia. reflexivity.
Qed.

Lemma sym_quad_bf (Q : chol R) M :
  chol_sym_quad Q M =
  bf (snd (c_p Q) - fst (c_p Q)) (blk M (fst (c_p Q)))
     (fun k => c_v Q (fst (c_p Q) + k)%nat) (fun k => c_v Q (fst (c_p Q) + k)%nat).
Proof.
  unfold chol_sym_quad. destruct (c_p Q) as [s n]. cbn [fst snd]. cbn [ndot RNum].
  rewrite bf_sums. rewrite rsum_exchange. apply rsum_ext. intros j _.
  rewrite <- rsum_scal_r. apply rsum_ext. intros i _. unfold blk. ring.
Qed.

Lemma ldl_witness M s m T v : ldl M s (m + 1) T -> sym (m + 1) M -> (s <= m)%nat ->
  (forall l, (l < S (m - s))%nat -> Ltu (S (m - s)) s T v l = if (l =? m - s)%nat then 1 else 0) ->
  bf (m + 1 - s) (blk M s) v v = T m m.
Proof.
  intros HL Hsy Hs Hv. replace (m + 1 - s)%nat with (S (m - s)) by lia.
  rewrite (ldl_form M s (m + 1) T) by (auto; lia).
  rewrite (rsum_single _ (m - s)); [|lia|].
  - rewrite Hv by lia. rewrite Nat.eqb_refl. unfold Dg. replace (s + (m - s))%nat with m by lia. lra.
  - intros k Hk Hne. rewrite Hv by lia. destruct (Nat.eqb_spec k (m - s)); [contradiction|]. ring.
Qed.

(** zero extension of a block vector *)
Definition zext (s m : nat) (v : nat -> R) : nat -> R :=
  fun k => if andb (s <=? k)%nat (k <? s + m)%nat then v (k - s)%nat else 0.
Lemma zext_in s m v k : (k < m)%nat -> zext s m v (s + k)%nat = v k.
Proof.
  intros H. unfold zext. destruct (Nat.leb_spec s (s + k)); [|lia].
  destruct (Nat.ltb_spec (s + k) (s + m)); [|lia]. cbn. f_equal. lia.
Qed.
Lemma zext_out s m v k : ~ (s <= k < s + m)%nat -> zext s m v k = 0.
Proof.
  intros H. unfold zext. destruct (Nat.leb_spec s k); [|reflexivity].
  destruct (Nat.ltb_spec k (s + m)); [lia|reflexivity].
Qed.
Lemma rsum_zext n s m v f : (s + m <= n)%nat ->
  rsum n (fun k => zext s m v k * f k) = rsum m (fun k => v k * f (s + k)%nat).
Proof.
  intros H. rewrite (rsum_split_at n s) by lia.
  rewrite (rsum_0 s); [|intros k Hk; rewrite zext_out by lia; ring].
  rewrite (rsum_trunc (n - s) m); [|lia|intros k Hk; rewrite zext_out by lia; ring].
  rewrite Rplus_0_l. apply rsum_ext. intros k Hk. rewrite zext_in by assumption. reflexivity.
Qed.
Lemma bf_zext n s m M v : (s + m <= n)%nat ->
  bf n M (zext s m v) (zext s m v) = bf m (blk M s) v v.
Proof.
  intros H. unfold bf at 1. unfold dot at 1. rewrite rsum_zext by assumption.
  unfold bf, dot. apply rsum_ext. intros i Hi. f_equal. unfold mvr, dot.
  rewrite (rsum_ext n _ (fun k => zext s m v k * M (s + i)%nat k)) by (intros; ring).
  rewrite rsum_zext by assumption. apply rsum_ext. intros j Hj. unfold blk. ring.
Qed.

Lemma sym_le n m M : (m <= n)%nat -> sym n M -> sym m M.
Proof. intros H Hs i j Hi Hj. apply Hs; lia. Qed.

(** *** factor *)
Section FactorSpec.
Context {G : Type}.
Variables (M : nat -> nat -> R) (GI : nat -> G -> Prop) (getA : G -> nat -> nat -> res (G * R)).
Variable Q : chol R.
Hypothesis Hget : getter (c_n Q) M GI getA.

(** The result of factor, with what the LMI oracles need about it *)
Lemma chol_factor_spec g : GI 0%nat g ->
  exists g' Q' b, chol_factor getA g Q = Ok (g', Q', b) /\ c_n Q' = c_n Q /\ c_semi Q' = c_semi Q /\
   c_v Q' = c_v Q /\
   if b then c_p Q' = (0, 0)%nat /\ GI (c_n Q) g' /\
     (c_semi Q = false -> ldl M 0 (c_n Q) (c_T Q') /\ forall a, (a < c_n Q)%nat -> 0 < c_T Q' a a)
   else exists s m, c_p Q' = (s, m + 1)%nat /\ (s <= m < c_n Q)%nat /\ GI (S m) g' /\
      (c_semi Q = false -> s = 0%nat) /\
      ldl M s (m + 1) (c_T Q') /\ c_T Q' m m <= 0 /\ (c_semi Q = true -> c_T Q' m m < 0).
Proof.
  intros Hg.
  destruct (chol_rows_spec (c_n Q) M GI getA Hget (c_semi Q) (c_n Q) 0%nat 0%nat g (c_T Q))
    as (g' & T' & p & Hr & H); [lia|lia|assumption|split; intros; lia|intros; lia|].
  unfold chol_factor. rewrite Hr. cbn [bind].
  exists g'. eexists. eexists. split; [reflexivity|]. cbn [c_n c_semi c_v].
  do 3 (split; [reflexivity|]).
  destruct H as [(-> & Hg' & H)|(s & m & -> & Hs & Hm & Hg' & H0 & HL & _ & H1 & H2)].
  - cbn. split; [reflexivity|]. split; [assumption|]. intros E. destruct (H E) as [HL Hp].
    split; [assumption|]. intros a Ha. apply Hp. lia.
  - unfold chol_is_spd; cbn [c_p snd]. destruct (Nat.eqb_spec (m + 1) 0); [lia|].
    exists s, m. cbn [c_p c_T]. split; [reflexivity|]. split; [lia|]. split; [assumption|]. auto.
Qed.
End FactorSpec.

(** factor followed by witness on failure: the certificate *)
Lemma chol_failed_witness {G} M (GI : nat -> G -> Prop) getA (Q : chol R) g g' Q' :
  getter (c_n Q) M GI getA -> GI 0%nat g -> sym (c_n Q) M ->
  chol_factor getA g Q = Ok (g', Q', false) ->
  exists Q2 ep s e, chol_witness Q' = Ok (Q2, ep) /\ c_p Q2 = c_p Q' /\ c_n Q2 = c_n Q' /\
    c_T Q2 = c_T Q' /\ c_semi Q2 = c_semi Q' /\
    c_p Q' = (s, e) /\ (s < e <= c_n Q)%nat /\ (c_semi Q = false -> s = 0%nat) /\ GI e g' /\
    0 <= ep /\ (c_semi Q = true -> 0 < ep) /\ c_v Q2 (e - 1)%nat = 1 /\
    let v := fun k => c_v Q2 (s + k)%nat in
    bf (e - s) (blk M s) v v = - ep.
Proof.
  intros Hget Hg Hsy H.
  destruct (chol_factor_spec M GI getA Q Hget g Hg) as (g1 & Q1 & b & H1 & Hn & Hse & Hv & Hb).
  rewrite H in H1. injection H1 as <- <- <-. 
  destruct Hb as (s & m & Hp & Hs & Hg' & H0 & HL & Hd & Hd').
  destruct (chol_witness_spec Q' s m Hp) as (Q2 & Hw & P1 & P2 & P3 & P4 & P5 & P6 & P7); [lia|].
  exists Q2, (- c_T Q' m m), s, (m + 1)%nat. split; [assumption|].
  do 4 (split; [assumption|]). split; [assumption|]. split; [lia|]. split; [assumption|].
  split; [replace (m + 1)%nat with (S m) by lia; assumption|].
  split; [lra|]. split; [intros E; specialize (Hd' E); lra|].
  split; [replace (m + 1 - 1)%nat with m by lia; assumption|].
  cbn zeta. rewrite (ldl_witness M s m (c_T Q') _ HL); [lra| |lia|exact P7].
  apply (sym_le (c_n Q)); [lia|assumption].
Qed.

Lemma nonzero_zext n s e v : (s < e <= n)%nat -> v (e - 1 - s)%nat <> 0 -> nonzero n (zext s (e - s) v).
Proof.
  intros H Hv. exists (e - 1)%nat. split; [lia|].
  replace (e - 1)%nat with (s + (e - 1 - s))%nat by lia. rewrite zext_in by lia. assumption.
Qed.

Lemma chol_factor_pd {G} M (GI : nat -> G -> Prop) getA (Q : chol R) g :
  getter (c_n Q) M GI getA -> GI 0%nat g -> sym (c_n Q) M -> c_semi Q = false ->
  exists g' Q' b, chol_factor getA g Q = Ok (g', Q', b) /\ (b = true <-> pd (c_n Q) M).
Proof.
  intros Hget Hg Hsy Hse.
  destruct (chol_factor_spec M GI getA Q Hget g Hg) as (g' & Q' & b & H & Hn & Hse' & Hv & Hb).
  exists g', Q', b. split; [assumption|]. destruct b.
  - split; [intros _|reflexivity]. destruct Hb as (_ & _ & Hb). destruct (Hb Hse) as [HL Hp].
    apply (ldl_pd M _ (c_T Q')); auto.
  - split; [discriminate|]. intros Hpd. exfalso.
    destruct (chol_failed_witness M GI getA Q g g' Q' Hget Hg Hsy H)
      as (Q2 & ep & s & e & Hw & _ & _ & _ & _ & Hp & Hse2 & _ & _ & Hep & _ & Hv1 & Hq). cbn zeta in Hq.
    assert (Hnz : nonzero (c_n Q) (zext s (e - s) (fun k => c_v Q2 (s + k)%nat))).
    { apply nonzero_zext; [lia|]. replace (s + (e - 1 - s))%nat with (e - 1)%nat by lia. rewrite Hv1. lra. }
    specialize (Hpd _ Hnz). rewrite bf_zext in Hpd by lia. lra.
Qed.
