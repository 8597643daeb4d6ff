(** chol_ext in binary64: the recurrences left in the workspace, and their backward error. *)
From Coq Require Import ZArith Reals Lra Lia Bool Psatz List.
From Flocq Require Import Core.Core IEEE754.BinarySingleNaN.
From Verif Require Import Base M_Chol M_Float S_LinAlg P_LinAlg P_Chol P_Float P_Float2 S_Float P_FSum.
Local Open Scope R_scope.

(** *** the workspace after factorize, for any arithmetic *)
Section Structure.
Context {A : Type} {N : Num A} {NE : NdotExt A}.
Variable a : nat -> nat -> A.

Definition crec (T : nat -> nat -> A) (i j : nat) : A :=
  match j with O => a i 0%nat | S _ => nsub (a i j) (ndot j (T i) (fun k => T k j)) end.
Definition crow (T : nat -> nat -> A) (i m : nat) : Prop :=
  forall k, (k < m)%nat -> T k i = crec T i k /\ ndiv (T k i) (T k k) = Ok (T i k).

Lemma crec_ext T T' i j : (forall k, (k < j)%nat -> T i k = T' i k /\ T k j = T' k j) -> crec T i j = crec T' i j.
Proof.
  intros H. unfold crec. destruct j as [|j]; [reflexivity|]. f_equal. apply ndot_ext; intros k Hk; apply H, Hk.
Qed.

Lemma chol_row_rec i : forall cnt j g T d g' T' d',
  (j + cnt = i)%nat -> crow T i j -> d = crec T i j ->
  chol_row (pure_getA a) cnt 0 i j g T d = Ok (g', T', d') ->
  crow T' i i /\ d' = crec T' i i /\
  (forall p q, ~ (p = i /\ q < i)%nat -> ~ (q = i /\ p < i)%nat -> T' p q = T p q).
Proof.
  induction cnt as [|cnt IH]; intros j g T d g' T' d' Hc Hrow Hd H; cbn [chol_row] in H.
  - assert (j = i) as -> by lia. injection H as <- <- <-. auto.
  - destruct (ndiv d (mset T j i d j j)) as [q|] eqn:Eq; [|discriminate H]. cbn [bind] in H.
    unfold pure_getA at 1 in H. cbn [bind] in H. rewrite !Nat.sub_0_r in H. cbn [Nat.add] in H.
    rewrite (mset_ne T j i d j j) in Eq by lia.
    set (T2 := mset (mset T j i d) i j q) in *.
    assert (Keep : forall p r, ~ (p = j /\ r = i)%nat -> ~ (p = i /\ r = j)%nat -> T2 p r = T p r)
      by (intros p r H1 H2; unfold T2; rewrite !mset_ne by lia; reflexivity).
    assert (E1 : T2 j i = d) by (unfold T2; rewrite mset_ne by lia; apply mset_eq).
    assert (E2 : T2 i j = q) by (unfold T2; apply mset_eq).
    assert (R2 : crow T2 i (j + 1)).
    { intros k Hk. destruct (Nat.eq_dec k j) as [->|Hkj].
      - split.
        + rewrite E1, Hd. apply crec_ext. intros l Hl. rewrite !Keep by lia. auto.
        + rewrite E1, E2, (Keep j j) by lia. exact Eq.
      - destruct (Hrow k ltac:(lia)) as [A1 A2]. rewrite !(Keep k i), (Keep k k), (Keep i k) by lia. split; [|exact A2].
        rewrite A1. apply crec_ext. intros l Hl. rewrite !Keep by lia. auto. }
    assert (D2 : nsub (a i (j + 1)) (ndot (j + 1) (fun k => T2 i k) (fun k => T2 k (j + 1)%nat)) = crec T2 i (j + 1)).
    { unfold crec. rewrite Nat.add_1_r. reflexivity. }
    destruct (IH (j + 1)%nat _ T2 _ g' T' d' ltac:(lia) R2 D2 H) as (B1 & B2 & B3).
    split; [exact B1|split; [exact B2|]]. intros p r H1 H2. rewrite B3 by assumption. apply Keep; lia.
Qed.

(** rows 0..r-1 *)
Definition cdone (T : nat -> nat -> A) (r : nat) : Prop :=
  forall i, (i < r)%nat -> crow T i i /\ T i i = crec T i i.

Lemma cdone_ext T T' r : (forall p q, (p < r)%nat -> (q < r)%nat -> T' p q = T p q) -> cdone T r -> cdone T' r.
Proof.
  intros E H i Hi. destruct (H i Hi) as [H1 H2]. split.
  - intros k Hk. destruct (H1 k Hk) as [A1 A2]. rewrite !E by lia. split; [|exact A2].
    rewrite A1. apply crec_ext. intros l Hl. rewrite !E by lia. auto.
  - rewrite E by lia. rewrite H2. apply crec_ext. intros l Hl. rewrite !E by lia. auto.
Qed.

Lemma chol_rows_rec : forall cnt i g T g' T' p,
  cdone T i -> (forall k, (k < i)%nat -> nltb nzero (T k k) = true) ->
  chol_rows (pure_getA a) false cnt i 0 g T = Ok (g', T', p) ->
  exists r, (r <= i + cnt)%nat /\ cdone T' r /\
    ((p = (0, 0)%nat /\ r = (i + cnt)%nat /\ forall k, (k < r)%nat -> nltb nzero (T' k k) = true) \/
     (p = (0%nat, r) /\ (0 < r)%nat /\ (forall k, (k < r - 1)%nat -> nltb nzero (T' k k) = true) /\
      nltb nzero (T' (r - 1)%nat (r - 1)%nat) = false)).
Proof.
  induction cnt as [|cnt IH]; intros i g T g' T' p Hd Hp H; cbn [chol_rows] in H.
  - injection H as <- <- <-. exists i. split; [lia|split; [exact Hd|]]. left. split; [reflexivity|split; [lia|exact Hp]].
  - unfold pure_getA at 1 in H. cbn [bind] in H. rewrite Nat.sub_0_r in H.
    destruct (chol_row _ i 0 i 0 tt T (a i 0%nat)) as [[[g2 T1] d]|] eqn:Er; [|discriminate H]. cbn [bind] in H.
    destruct (chol_row_rec i i 0%nat tt T (a i 0%nat) g2 T1 d eq_refl) as (B1 & B2 & B3); [intros k Hk; lia|reflexivity|exact Er|].
    set (T2 := mset T1 i i d) in *.
    assert (K : forall p q, (p < i)%nat -> (q < i)%nat -> T2 p q = T p q)
      by (intros x y Hx Hy; unfold T2; rewrite mset_ne by lia; apply B3; lia).
    assert (D2 : cdone T2 (i + 1)).
    { intros x Hx. destruct (Nat.eq_dec x i) as [->|Hxi].
      - assert (K1 : forall p q, ~ (p = i /\ q = i)%nat -> T2 p q = T1 p q) by (intros; unfold T2; apply mset_ne; assumption).
        split.
        + intros k Hk. destruct (B1 k Hk) as [A1 A2]. rewrite !K1 by lia. split; [|exact A2].
          rewrite A1. apply crec_ext. intros l Hl. rewrite !K1 by lia. auto.
        + unfold T2 at 1. rewrite mset_eq, B2. apply crec_ext. intros l Hl. rewrite !K1 by lia. auto.
      - apply (cdone_ext T T2 i K Hd). lia. }
    assert (Ed : T2 i i = d) by apply mset_eq.
    destruct (nltb nzero d) eqn:El.
    + destruct (IH (i + 1)%nat g2 T2 g' T' p D2) as (r & R1 & R2 & R3); [|exact H|].
      * intros k Hk. destruct (Nat.eq_dec k i) as [->|]; [rewrite Ed; exact El|rewrite K by lia; apply Hp; lia].
      * exists r. split; [lia|split; [exact R2|]]. destruct R3 as [(P1 & P2 & P3)|R3]; [left|right; exact R3].
        split; [exact P1|split; [lia|exact P3]].
    + rewrite orb_true_r in H. injection H as <- <- <-. exists (i + 1)%nat. split; [lia|split; [exact D2|]]. right.
      split; [reflexivity|split; [lia|]]. replace (i + 1 - 1)%nat with i by lia. rewrite Ed. split; [|exact El].
      intros k Hk. rewrite K by lia. apply Hp, Hk.
Qed.

Lemma chol_factorize_rec (Q Q' : chol A) b : c_semi Q = false -> chol_factorize a Q = Ok (Q', b) ->
  exists r, (r <= c_n Q)%nat /\ cdone (c_T Q') r /\
    ((b = true /\ r = c_n Q /\ forall k, (k < r)%nat -> nltb nzero (c_T Q' k k) = true) \/
     (b = false /\ c_p Q' = (0%nat, r) /\ (0 < r)%nat /\ (forall k, (k < r - 1)%nat -> nltb nzero (c_T Q' k k) = true) /\
      nltb nzero (c_T Q' (r - 1)%nat (r - 1)%nat) = false)).
Proof.
  intros Hs H. unfold chol_factorize, chol_factor in H. rewrite Hs in H.
  destruct (chol_rows (pure_getA a) false (c_n Q) 0 0 tt (c_T Q)) as [[[g1 T] p]|] eqn:E; [|discriminate H]. cbn [bind] in H.
  injection H as <- <-. cbn [c_T c_p].
  destruct (chol_rows_rec (c_n Q) 0 tt (c_T Q) g1 T p) as (r & R1 & R2 & R3); [intros i Hi; lia|intros k Hk; lia|exact E|].
  exists r. split; [lia|split; [exact R2|]]. unfold chol_is_spd. cbn [c_p].
  destruct R3 as [(-> & P2 & P3)|(-> & P2 & P3 & P4)]; [left|right].
  - split; [reflexivity|split; [lia|exact P3]].
  - cbn [snd]. destruct (Nat.eqb_spec r 0); [lia|]. auto.
Qed.

(** no division fails when a positive number divides *)
Hypothesis Hdiv : forall x y : A, nltb nzero y = true -> exists q, ndiv x y = Ok q.
Lemma chol_row_ok i : forall cnt j g T d, (j + cnt = i)%nat ->
  (forall k, (k < i)%nat -> nltb nzero (T k k) = true) ->
  exists g' T' d', chol_row (pure_getA a) cnt 0 i j g T d = Ok (g', T', d') /\ forall k, k <> i -> T' k k = T k k.
Proof.
  induction cnt as [|cnt IH]; intros j g T d Hc Hp; cbn [chol_row]; [eauto 6|].
  rewrite (mset_ne T j i d j j) by lia. destruct (Hdiv d (T j j) (Hp j ltac:(lia))) as [q ->]. cbn [bind].
  unfold pure_getA at 1. cbn [bind].
  edestruct (IH (j + 1)%nat tt (mset (mset T j i d) i j q)) as (g' & T' & d' & E & K); [lia| |].
  { intros k Hk. rewrite !mset_ne by lia. apply Hp, Hk. }
  rewrite E. exists g', T', d'. split; [reflexivity|]. intros k Hk. rewrite K by assumption. rewrite !mset_ne by lia. reflexivity.
Qed.
Lemma chol_rows_ok : forall cnt i g T, (forall k, (k < i)%nat -> nltb nzero (T k k) = true) ->
  exists g' T' p, chol_rows (pure_getA a) false cnt i 0 g T = Ok (g', T', p).
Proof.
  induction cnt as [|cnt IH]; intros i g T Hp; cbn [chol_rows]; [eauto|].
  unfold pure_getA at 1. cbn [bind]. rewrite Nat.sub_0_r.
  destruct (chol_row_ok i i 0%nat tt T (a i 0%nat) eq_refl Hp) as (g' & T' & d' & E & K). rewrite E. cbn [bind].
  destruct (nltb nzero d') eqn:El.
  - apply IH. intros k Hk. destruct (Nat.eq_dec k i) as [->|]; [rewrite mset_eq; exact El|].
    rewrite mset_ne by lia. rewrite K by lia. apply Hp. lia.
  - cbn [negb]. rewrite orb_true_r. eauto.
Qed.
End Structure.

Lemma zext_quad n r B x : (r <= n)%nat ->
  bf n B (zext 0 r x) (zext 0 r x) = bf r B x x /\ S_LinAlg.dot n (zext 0 r x) (zext 0 r x) = S_LinAlg.dot r x x /\ (nonzero r x -> nonzero n (zext 0 r x)).
Proof.
  intros Hr. split; [|split].
  - rewrite !bf_sums.
    transitivity (rsum n (fun i => zext 0 r x i * rsum n (fun j => zext 0 r x j * B i j))).
    { apply rsum_ext. intros i _. rewrite <- rsum_scal_l. apply rsum_ext. intros j _. ring. }
    rewrite rsum_zext by lia. apply rsum_ext. intros i _. cbn [Nat.add]. rewrite rsum_zext by lia. rewrite <- rsum_scal_l.
    apply rsum_ext. intros j _. cbn [Nat.add]. ring.
  - unfold S_LinAlg.dot. rewrite rsum_zext by lia. apply rsum_ext. intros i Hi. rewrite zext_in by assumption. reflexivity.
  - intros (k & Hk & Hx). exists (0 + k)%nat. split; [lia|]. rewrite zext_in by assumption. exact Hx.
Qed.

(** *** real numbers: a factorisation with perturbed recurrences *)
Section Perturbed.
Variables (a w : nat -> nat -> R) (r : nat) (eps c : R).
Notation D k := (w k k).
Definition Gp (i j : nat) : R := rsum j (fun k => w i k * w j k / D k) + w i j.
Definition Pp (i j : nat) : R := rsum j (fun k => Rabs (w i k * w j k / D k)) + Rabs (w i j).
Definition Gm (i j : nat) : R := if (j <=? i)%nat then Gp i j else Gp j i.
Definition Tm (i j : nat) : R := if (i <=? j)%nat then w j i else w i j / D j.

Lemma Tm_up i j : (i <= j)%nat -> Tm i j = w j i.
Proof. intros H. unfold Tm. destruct (Nat.leb_spec i j); [reflexivity|lia]. Qed.
Lemma Tm_lo i j : (j < i)%nat -> Tm i j = w i j / D j.
Proof. intros H. unfold Tm. destruct (Nat.leb_spec i j); [lia|reflexivity]. Qed.
Lemma Gm_lo i j : (j <= i)%nat -> Gm i j = Gp i j.
Proof. intros H. unfold Gm. destruct (Nat.leb_spec j i); [reflexivity|lia]. Qed.
Lemma Gm_sym n : sym n Gm.
Proof.
  intros i j _ _. unfold Gm. destruct (Nat.leb_spec j i), (Nat.leb_spec i j); try reflexivity; [|lia].
  assert (i = j) as -> by lia. reflexivity.
Qed.
Lemma Gm_ldl m : (forall k, (S k < m)%nat -> D k <> 0) -> ldl Gm 0 m Tm.
Proof.
  intros HD. split.
  - intros i j Hj Hi. rewrite Tm_up, Gm_lo by lia. unfold Gp, part. rewrite Nat.sub_0_r.
    rewrite (rsum_ext j (fun l => Tm i (0 + l) * Tm (0 + l)%nat j) (fun k => w i k * w j k / D k)); [ring|].
    intros k Hk. cbn [Nat.add]. rewrite (Tm_lo i k), (Tm_up k j) by lia. field. apply HD; lia.
  - intros i j Hj Hi. rewrite Tm_lo, !Tm_up by lia. field. apply HD; lia.
Qed.

Hypothesis Heps : 0 <= eps.
Hypothesis Hc : 0 <= c.
Hypothesis Hpos : forall k, (S k < r)%nat -> 0 < D k.
Hypothesis Hrec : forall i j, (j <= i)%nat -> (i < r)%nat ->
  Rabs (a i j - Gp i j) <= eps * Pp i j + c * (1 + rsum j (fun k => Rabs (w j k))).

Lemma Pp_diag i : (i < r)%nat -> (S i < r)%nat \/ 0 < D i -> Pp i i = Gp i i.
Proof.
  intros Hi H. unfold Pp, Gp. f_equal.
  - apply rsum_ext. intros k Hk. apply Rabs_pos_eq. assert (0 < D k) by (apply Hpos; lia).
    apply Rmult_le_pos; [apply Rle_0_sqr|]. left; apply Rinv_0_lt_compat; assumption.
  - apply Rabs_pos_eq. destruct H as [H|H]; [apply Hpos in H|]; lra.
Qed.
Lemma amgm x y t : 0 < t -> Rabs (x * y / t) <= (x * x / t + y * y / t) / 2.
Proof.
  intros Ht. unfold Rdiv. rewrite Rabs_mult, Rabs_mult, (Rabs_pos_eq (/ t)) by (left; apply Rinv_0_lt_compat, Ht).
  assert (Ti := Rinv_0_lt_compat t Ht).
  assert (Rabs x * Rabs y <= (x * x + y * y) / 2).
  { assert (X := Rle_0_sqr (Rabs x - Rabs y)). unfold Rsqr in X.
    assert (Rabs x * Rabs x = x * x) by (rewrite <- Rabs_mult; apply Rabs_pos_eq, Rle_0_sqr).
    assert (Rabs y * Rabs y = y * y) by (rewrite <- Rabs_mult; apply Rabs_pos_eq, Rle_0_sqr). lra. }
  replace ((x * x * / t + y * y * / t) * / 2) with ((x * x + y * y) / 2 * / t) by (field; lra).
  apply Rmult_le_compat_r; lra.
Qed.
(** weighted: for s > 0 *)
Lemma amgm_s x y t s : 0 < t -> 0 < s -> Rabs (x * y / t) * 2 <= x * x / t / s + s * (y * y / t).
Proof.
  intros Ht Hs. assert (H := amgm x (s * y) t Ht).
  replace (x * (s * y) / t) with (s * (x * y / t)) in H by (field; lra). rewrite Rabs_mult, (Rabs_pos_eq s) in H by lra.
  replace (s * y * (s * y) / t) with (s * s * (y * y / t)) in H by (field; lra).
  apply Rmult_le_reg_l with s; [exact Hs|].
  replace (s * (x * x / t / s + s * (y * y / t))) with (x * x / t + s * s * (y * y / t)) by (field; lra). lra.
Qed.
Lemma sq_div_nonneg i k : (k < i)%nat -> (i < r)%nat -> 0 <= w i k * w i k / D k.
Proof.
  intros Hk Hi. apply Rmult_le_pos; [apply Rle_0_sqr|]. left; apply Rinv_0_lt_compat, Hpos. lia.
Qed.
(** the part of G_ii before the pivot *)
Definition Gh (i : nat) : R := rsum i (fun k => w i k * w i k / D k).
Lemma Gh_nonneg i : (i < r)%nat -> 0 <= Gh i.
Proof. intros Hi. apply rsum_nonneg. intros k Hk. apply sq_div_nonneg; lia. Qed.
Lemma Gp_diag i : Gp i i = Gh i + D i.
Proof. reflexivity. Qed.

Lemma abs_row j M2 : (j < r)%nat -> (forall k, (k < j)%nat -> Gp k k <= M2) ->
  rsum j (fun k => Rabs (w j k)) <= (INR j * M2 + Gh j) / 2.
Proof.
  intros Hj HG. apply Rle_trans with (rsum j (fun k => (M2 + w j k * w j k / D k) / 2)).
  - apply rsum_le. intros k Hk. assert (Dk : 0 < D k) by (apply Hpos; lia).
    assert (H := amgm (w j k) (D k) (D k) Dk). replace (w j k * D k / D k) with (w j k) in H by (field; lra).
    replace (D k * D k / D k) with (D k) in H by (field; lra).
    assert (Hg := HG k Hk). rewrite Gp_diag in Hg. assert (X := Gh_nonneg k ltac:(lia)). lra.
  - unfold Gh. apply Req_le. rewrite (rsum_ext j _ (fun k => M2 / 2 + w j k * w j k / D k * / 2)).
    2: { intros k Hk. field. assert (0 < D k) by (apply Hpos; lia). lra. }
    rewrite rsum_plus, rsum_scal_r. replace (rsum j (fun _ : nat => M2 / 2)) with (INR j * (M2 / 2)); [field|].
    clear. induction j as [|j IH]; [cbn; ring|]. rewrite S_INR. cbn [rsum]. rewrite <- IH. ring.
Qed.

Variables (n : nat) (M kap : R).
Hypothesis Hrn : (r <= n)%nat.
Hypothesis HM : forall i, (i < r)%nat -> a i i <= M.
Hypothesis HM0 : 0 <= M.
Hypothesis Hk : 0 < kap.
(** the size of the constants *)
Hypothesis Hsz1 : eps + c * INR n + c <= / 1000.
Hypothesis Hsz2 : c * 1000 <= eps * kap.
Hypothesis Hsz3 : c * INR n * 1000 <= eps.
Hypothesis Hsz4 : c * 1000 <= eps.

Notation M2 := (2 * (M + kap)).
Lemma Gp_bound i : (i < r)%nat -> (S i < r)%nat \/ 0 < D i -> Gp i i <= M2.
Proof.
  induction i as [i IH] using lt_wf_ind. intros Hi Hd.
  assert (H := Hrec i i (le_n i) Hi). rewrite Pp_diag in H by assumption.
  assert (IHk : forall k, (k < i)%nat -> Gp k k <= M2) by (intros k Hk'; apply IH; [exact Hk'|lia|left; lia]).
  assert (Hs := abs_row i M2 Hi IHk). assert (Gi := Gh_nonneg i Hi).
  assert (Di : 0 < D i) by (destruct Hd as [Hd|Hd]; [apply Hpos, Hd|exact Hd]).
  assert (Gle : Gh i <= Gp i i) by (rewrite Gp_diag; lra).
  apply Rabs_le_inv in H as [H1 H2]. specialize (HM i Hi).
  assert (In : INR i <= INR n) by (apply le_INR; lia). assert (I0 := pos_INR i).
  assert (S1 : rsum i (fun k => Rabs (w i k)) <= INR n * M2 / 2 + Gp i i / 2).
  { assert (INR i * M2 <= INR n * M2) by (apply Rmult_le_compat_r; lra). lra. }
  assert (S2 : c * rsum i (fun k => Rabs (w i k)) <= c * (INR n * M2 / 2 + Gp i i / 2)) by (apply Rmult_le_compat_l; assumption).
  assert (G0 : 0 <= Gp i i) by lra.
  assert (E1 : eps * Gp i i <= / 1000 * Gp i i) by (apply Rmult_le_compat_r; [assumption|]; assert (0 <= c * INR n) by (apply Rmult_le_pos; [assumption|apply pos_INR]); lra).
  assert (E2 : c * Gp i i <= / 1000 * Gp i i) by (apply Rmult_le_compat_r; [assumption|]; assert (0 <= c * INR n) by (apply Rmult_le_pos; [assumption|apply pos_INR]); lra).
  assert (E3 : c * INR n * M2 <= / 1000 * M2) by (apply Rmult_le_compat_r; lra).
  assert (E4 : eps * kap <= / 1000 * kap) by (apply Rmult_le_compat_r; [lra|]; assert (0 <= c * INR n) by (apply Rmult_le_pos; [assumption|apply pos_INR]); lra).
  lra.
Qed.

Definition Ebound : R := (eps + eps / 100) * M2.
Lemma abs_term j : (j < r)%nat -> (S j < r)%nat \/ 0 < D j -> c * (1 + rsum j (fun k => Rabs (w j k))) <= eps / 100 * M2.
Proof.
  intros Hj Hd. assert (Hs := abs_row j M2 Hj (fun k Hk' => Gp_bound k ltac:(lia) ltac:(left; lia))).
  assert (Gj := Gp_bound j Hj Hd). assert (Gi := Gh_nonneg j Hj).
  assert (Di : 0 < D j) by (destruct Hd as [Hd|Hd]; [apply Hpos, Hd|exact Hd]).
  rewrite Gp_diag in Gj.
  assert (In : INR j <= INR n) by (apply le_INR; lia). assert (I0 := pos_INR j).
  assert (S1 : rsum j (fun k => Rabs (w j k)) <= INR n * M2 / 2 + M2 / 2).
  { assert (INR j * M2 <= INR n * M2) by (apply Rmult_le_compat_r; lra). lra. }
  assert (S2 : c * rsum j (fun k => Rabs (w j k)) <= c * (INR n * M2 / 2 + M2 / 2)) by (apply Rmult_le_compat_l; assumption).
  assert (E3 : c * INR n * 1000 * M2 <= eps * M2) by (apply Rmult_le_compat_r; lra).
  assert (E5 : c * 1000 * M2 <= eps * M2) by (apply Rmult_le_compat_r; lra).
  assert (E6 : eps * kap <= eps * (M + kap)) by (apply Rmult_le_compat_l; lra).
  lra.
Qed.

Lemma Pp_bound i j : (j <= i)%nat -> (i < r)%nat -> (S i < r)%nat \/ 0 < D i -> Pp i j <= M2.
Proof.
  intros Hj Hi Hd. assert (Gi := Gp_bound i Hi Hd).
  assert (Dj : (S j < r)%nat \/ 0 < D j) by (destruct (Nat.eq_dec i j) as [<-|]; [exact Hd|left; lia]).
  assert (Gj := Gp_bound j ltac:(lia) Dj).
  destruct (Nat.eq_dec i j) as [<-|Hne]; [rewrite Pp_diag by assumption; exact Gi|].
  assert (Djp : 0 < D j) by (destruct Dj as [Hd'|Hd']; [apply Hpos, Hd'|exact Hd']).
  assert (Dip : 0 < D i) by (destruct Hd as [Hd'|Hd']; [apply Hpos, Hd'|exact Hd']).
  assert (Sj : rsum (S j) (fun k => Rabs (w i k * w j k / D k)) <= (rsum (S j) (fun k => w i k * w i k / D k) + rsum (S j) (fun k => w j k * w j k / D k)) / 2).
  { rewrite <- rsum_plus. match goal with |- _ <= ?x / 2 => change (x / 2) with (x * / 2) end. rewrite <- rsum_scal_r. apply rsum_le. intros k Hk'.
    destruct (Nat.eq_dec k j) as [->|]; (apply amgm; [assumption]) || (apply amgm; apply Hpos; lia). }
  assert (A1 : rsum (S j) (fun k => w i k * w i k / D k) <= Gh i).
  { unfold Gh. rewrite (rsum_split_at i (S j)) by lia. rewrite <- Rplus_0_r at 1. apply Rplus_le_compat_l, rsum_nonneg.
    intros k Hk'. apply sq_div_nonneg; lia. }
  assert (A2 : rsum (S j) (fun k => w j k * w j k / D k) = Gp j j).
  { cbn [rsum]. rewrite Gp_diag. unfold Gh. f_equal. field. lra. }
  rewrite A2 in Sj. unfold Pp. cbn [rsum] in Sj. replace (w i j * w j j / w j j) with (w i j) in Sj by (field; lra).
  rewrite Gp_diag in Gi. cbn [rsum] in A1. lra.
Qed.
Lemma E_bound i j : (j <= i)%nat -> (i < r)%nat -> (S i < r)%nat \/ 0 < D i -> Rabs (a i j - Gp i j) <= Ebound.
Proof.
  intros Hj Hi Hd. eapply Rle_trans; [apply Hrec; assumption|].
  assert (P := Pp_bound i j Hj Hi Hd).
  assert (Dj : (S j < r)%nat \/ 0 < D j) by (destruct (Nat.eq_dec i j) as [<-|]; [exact Hd|left; lia]).
  assert (Aj := abs_term j ltac:(lia) Dj). unfold Ebound.
  assert (eps * Pp i j <= eps * M2) by (apply Rmult_le_compat_l; assumption). lra.
Qed.

(** sums against a bounded matrix *)
Lemma sq_sum_le m x : rsum m (fun i => rsum m (fun j => Rabs (x i) * Rabs (x j))) <= INR m * dot m x x.
Proof.
  apply Rle_trans with (rsum m (fun i => rsum m (fun j => (x i * x i + x j * x j) / 2))).
  - apply rsum_le. intros i _. apply rsum_le. intros j _.
    assert (H := amgm (x i) (x j) 1 Rlt_0_1). unfold Rdiv in H at 1. rewrite Rinv_1, Rmult_1_r, Rabs_mult in H.
    replace (x i * x i / 1 + x j * x j / 1) with (x i * x i + x j * x j) in H by field. exact H.
  - apply Req_le. unfold dot. set (q := rsum m (fun k => x k * x k)).
    assert (K : forall f, rsum m (fun _ => f) = INR m * f).
    { intros f. clear. induction m as [|m IH]; [cbn; ring|]. rewrite S_INR. cbn [rsum]. rewrite IH. ring. }
    rewrite (rsum_ext m _ (fun i => x i * x i * (INR m / 2) + q / 2)).
    + rewrite rsum_plus, rsum_scal_r, K. fold q. field.
    + intros i _. rewrite (rsum_ext m _ (fun j => x i * x i / 2 + x j * x j * / 2)) by (intros; field).
      rewrite rsum_plus, rsum_scal_r, K. fold q. field.
Qed.

(** the symmetric matrix of which the lower triangle is a *)
Definition Am (i j : nat) : R := if (j <=? i)%nat then a i j else a j i.
Lemma Am_lo i j : (j <= i)%nat -> Am i j = a i j.
Proof. intros H. unfold Am. destruct (Nat.leb_spec j i); [reflexivity|lia]. Qed.
Lemma Am_hi i j : (i <= j)%nat -> Am i j = a j i.
Proof. intros H. unfold Am. destruct (Nat.leb_spec j i); [assert (i = j) as -> by lia|]; reflexivity. Qed.

Theorem success_pd : (forall k, (k < r)%nat -> 0 < D k) ->
  pd r Gm /\ forall i j, (i < r)%nat -> (j < r)%nat -> Rabs (Am i j - Gm i j) <= Ebound.
Proof.
  intros HD. split.
  - apply (ldl_pd Gm r Tm); [apply Gm_ldl; intros k Hk'; specialize (HD k ltac:(lia)); lra|apply Gm_sym|].
    intros k Hk'. rewrite Tm_up by lia. apply HD, Hk'.
  - intros i j Hi Hj. unfold Am, Gm. destruct (Nat.leb_spec j i); apply E_bound; try lia; right; apply HD; lia.
Qed.

Theorem success_quad : (forall k, (k < r)%nat -> 0 < D k) ->
  forall x, nonzero r x -> - (INR r * Ebound) * dot r x x < bf r Am x x.
Proof.
  intros HD x Hx. destruct (success_pd HD) as [HG HE]. specialize (HG x Hx).
  assert (B : bf r Gm x x - bf r Am x x <= INR r * Ebound * dot r x x); [|lra].
  rewrite !bf_sums, <- rsum_minus.
  eapply Rle_trans; [|apply Rle_trans with (Ebound * (INR r * dot r x x)); [apply Rmult_le_compat_l; [|apply (sq_sum_le r x)]|lra]].
  - rewrite <- rsum_scal_l. apply rsum_le. intros i Hi. rewrite <- rsum_minus, <- rsum_scal_l. apply rsum_le. intros j Hj.
    specialize (HE i j Hi Hj). rewrite <- Rabs_Ropp in HE.
    replace (x i * Gm i j * x j - x i * Am i j * x j) with (- (Am i j - Gm i j) * (x i * x j)) by ring.
    eapply Rle_trans; [apply Rle_abs|]. rewrite Rabs_mult, Rabs_mult. apply Rmult_le_compat_r; [apply Rmult_le_pos; apply Rabs_pos|exact HE].
  - unfold Ebound. apply Rmult_le_pos; lra.
Qed.

(** *** the last pivot is not positive *)
Section Fail.
Variable p : nat.
Hypothesis Hr : r = S p.
Hypothesis Hlast : D p <= 0.

Definition vfail : nat -> R := witness_loop (p - 0) p (p + 1) Tm (vset (fun _ => 0) p 1).
Lemma vfail_last : vfail p = 1.
Proof.
  unfold vfail. destruct (witness_loop_spec (p + 1) Tm (p - 0) p (vset (fun _ => 0) p 1) ltac:(lia)) as [H1 _]. cbn zeta in H1.
  rewrite H1 by lia. apply vset_eq.
Qed.
Lemma vfail_quad : bf r Gm vfail vfail = D p.
Proof.
  set (Q := mk_chol r (0%nat, p + 1)%nat (fun _ : nat => 0) Tm false).
  destruct (chol_witness_spec Q 0 p eq_refl ltac:(lia)) as (Q' & W1 & _ & _ & _ & _ & _ & _ & W2).
  unfold chol_witness, chol_is_spd in W1. cbn [c_p Q snd c_n c_v c_T c_semi] in W1.
  destruct (Nat.eqb_spec (p + 1) 0) as [|_]; [lia|]. replace (p + 1 - 1)%nat with p in W1 by lia. injection W1 as W1.
  assert (LD : ldl Gm 0 (p + 1) Tm).
  { apply Gm_ldl. intros k Hk'. assert (0 < D k) by (apply Hpos; lia). lra. }
  assert (X := ldl_witness Gm 0 p Tm (fun k => c_v Q' (0 + k)%nat) LD (Gm_sym _) ltac:(lia) W2).
  rewrite Nat.sub_0_r in X. rewrite (Tm_up p p) in X by lia. rewrite <- X, Hr, Nat.add_1_r.
  rewrite <- W1. reflexivity.
Qed.

Lemma Gh_fail : Gh p * (1 - eps - c) <= M + (1 + eps) * - D p + eps / 100 * M2.
Proof.
  assert (H := Hrec p p (le_n p) ltac:(lia)). apply Rabs_le_inv in H as [H1 H2]. assert (HMp := HM p ltac:(lia)).
  rewrite Gp_diag in H1, H2. assert (Hs := abs_row p M2 ltac:(lia) (fun k Hk' => Gp_bound k ltac:(lia) ltac:(left; lia))).
  assert (EP : Pp p p = Gh p + - D p).
  { unfold Pp, Gh. f_equal; [|rewrite Rabs_left1 by lra; reflexivity]. apply rsum_ext. intros k Hk'.
    apply Rabs_pos_eq, sq_div_nonneg; lia. }
  rewrite EP in *. assert (G0 := Gh_nonneg p ltac:(lia)).
  assert (In : INR p <= INR n) by (apply le_INR; lia). assert (I0 := pos_INR p).
  assert (S1 : rsum p (fun k => Rabs (w p k)) <= INR n * M2 / 2 + Gh p / 2).
  { assert (INR p * M2 <= INR n * M2) by (apply Rmult_le_compat_r; lra). lra. }
  assert (S2 : c * rsum p (fun k => Rabs (w p k)) <= c * (INR n * M2 / 2 + Gh p / 2)) by (apply Rmult_le_compat_l; assumption).
  assert (E3 : c * INR n * 1000 * M2 <= eps * M2) by (apply Rmult_le_compat_r; lra).
  assert (E6 : eps * kap <= eps * (M + kap)) by (apply Rmult_le_compat_l; lra).
  assert (E7 : 0 <= c * Gh p) by (apply Rmult_le_pos; assumption).
  lra.
Qed.

(** column sums of the last row *)
Lemma row_fail (y : nat -> R) : (0 < p)%nat ->
  rsum p (fun j => 2 * (Rabs (a p j - Gp p j) * Rabs (y j))) <=
  eps * (Gh p + INR n * M2 * dot p y y) + eps / 100 * M2 * (INR n + dot p y y).
Proof.
  intros Hp.
  assert (Pn : 0 < INR p) by (apply lt_0_INR; lia).
  assert (Pnn : INR p <= INR n) by (apply le_INR; lia).
  apply Rle_trans with (rsum p (fun j => eps * (Gh p * / INR p + INR p * M2 * (y j * y j)) + eps / 100 * M2 * (1 + y j * y j))).
  - apply rsum_le. intros j Hj.
    assert (H := Hrec p j ltac:(lia) ltac:(lia)). assert (Aj := abs_term j ltac:(lia) ltac:(left; lia)).
    assert (Ya : Rabs (y j) * 2 <= 1 + y j * y j).
    { assert (X := Rle_0_sqr (Rabs (y j) - 1)). unfold Rsqr in X.
      assert (Rabs (y j) * Rabs (y j) = y j * y j) by (rewrite <- Rabs_mult; apply Rabs_pos_eq, Rle_0_sqr). lra. }
    assert (Y0 := Rabs_pos (y j)).
    assert (PB : Pp p j * Rabs (y j) * 2 <= Gh p * / INR p + INR p * M2 * (y j * y j)).
    { assert (Djp : 0 < D j) by (apply Hpos; lia).
      assert (Sj : rsum (S j) (fun k => Rabs (w p k * w j k / D k)) * Rabs (y j) * 2 <=
                   rsum (S j) (fun k => w p k * w p k / D k) * / INR p + INR p * (rsum (S j) (fun k => w j k * w j k / D k) * (y j * y j))).
      { rewrite <- !rsum_scal_r, <- rsum_scal_l, <- rsum_plus. apply rsum_le. intros k Hk'.
        assert (Dk : 0 < D k) by (apply Hpos; lia).
        assert (X := amgm_s (w p k) (w j k * y j) (D k) (INR p) Dk Pn).
        replace (w p k * (w j k * y j) / D k) with (w p k * w j k / D k * y j) in X by (field; lra). rewrite Rabs_mult in X.
        replace (w j k * y j * (w j k * y j) / D k) with (w j k * w j k / D k * (y j * y j)) in X by (field; lra).
        unfold Rdiv at 2 in X. lra. }
      assert (A1 : rsum (S j) (fun k => w p k * w p k / D k) <= Gh p).
      { unfold Gh. rewrite (rsum_split_at p (S j)) by lia. rewrite <- Rplus_0_r at 1. apply Rplus_le_compat_l, rsum_nonneg.
        intros k Hk'. apply sq_div_nonneg; lia. }
      assert (A2 : rsum (S j) (fun k => w j k * w j k / D k) = Gp j j).
      { cbn [rsum]. rewrite Gp_diag. unfold Gh. f_equal. field. lra. }
      assert (Gj := Gp_bound j ltac:(lia) ltac:(left; lia)).
      replace (rsum (S j) (fun k => Rabs (w p k * w j k / D k))) with (Pp p j) in Sj.
      2: { unfold Pp. cbn [rsum]. f_equal. f_equal. field. lra. }
      assert (Y2 : 0 <= y j * y j) by apply Rle_0_sqr.
      assert (B1 : rsum (S j) (fun k => w p k * w p k / D k) * / INR p <= Gh p * / INR p) by (apply Rmult_le_compat_r; [left; apply Rinv_0_lt_compat, Pn|exact A1]).
      assert (B2 : INR p * (rsum (S j) (fun k => w j k * w j k / D k) * (y j * y j)) <= INR p * M2 * (y j * y j)).
      { rewrite A2, Rmult_assoc. apply Rmult_le_compat_l; [lra|]. apply Rmult_le_compat_r; assumption. }
      lra. }
    assert (H' : Rabs (a p j - Gp p j) * Rabs (y j) <= (eps * Pp p j + eps / 100 * M2) * Rabs (y j)) by (apply Rmult_le_compat_r; [assumption|lra]).
    assert (Z1 : eps * (Pp p j * Rabs (y j) * 2) <= eps * (Gh p * / INR p + INR p * M2 * (y j * y j))) by (apply Rmult_le_compat_l; assumption).
    assert (Z2 : eps / 100 * M2 * (Rabs (y j) * 2) <= eps / 100 * M2 * (1 + y j * y j)) by (apply Rmult_le_compat_l; [apply Rmult_le_pos; lra|assumption]).
    lra.
  - assert (K : forall f, rsum p (fun _ => f) = INR p * f).
    { intros f. clear. induction p as [|m IH]; [cbn; ring|]. rewrite S_INR. cbn [rsum]. rewrite IH. ring. }
    rewrite rsum_plus, rsum_scal_l, (rsum_scal_l p (eps / 100 * M2)), !rsum_plus, !K, (rsum_scal_l p (INR p * M2)). fold (dot p y y).
    replace (INR p * (Gh p * / INR p)) with (Gh p) by (field; lra).
    assert (Y2 : 0 <= dot p y y) by (apply rsum_nonneg; intros; apply Rle_0_sqr).
    assert (0 <= M2 * dot p y y) by (apply Rmult_le_pos; lra).
    assert (B2 : INR p * M2 * dot p y y <= INR n * M2 * dot p y y).
    { rewrite (Rmult_assoc (INR p)), (Rmult_assoc (INR n)). apply Rmult_le_compat_r; assumption. }
    apply Rplus_le_compat.
    + apply Rmult_le_compat_l; [assumption|]. lra.
    + apply Rmult_le_compat_l; [apply Rmult_le_pos; lra|]. lra.
Qed.

Lemma diag_fail : a p p - Gp p p <= eps * (Gh p - D p) + eps / 100 * M2 + c * Gh p.
Proof.
  assert (H := Hrec p p (le_n p) ltac:(lia)). apply Rabs_le_inv in H as [H1 H2].
  assert (Hs := abs_row p M2 ltac:(lia) (fun k Hk' => Gp_bound k ltac:(lia) ltac:(left; lia))).
  assert (EP : Pp p p = Gh p - D p).
  { unfold Pp, Gh, Rminus. f_equal; [|rewrite Rabs_left1 by lra; reflexivity]. apply rsum_ext. intros k Hk'.
    apply Rabs_pos_eq, sq_div_nonneg; lia. }
  rewrite EP in H2. assert (G0 := Gh_nonneg p ltac:(lia)).
  assert (In : INR p <= INR n) by (apply le_INR; lia). assert (I0 := pos_INR p).
  assert (S1 : rsum p (fun k => Rabs (w p k)) <= INR n * M2 / 2 + Gh p / 2).
  { assert (INR p * M2 <= INR n * M2) by (apply Rmult_le_compat_r; lra). lra. }
  assert (S2 : c * rsum p (fun k => Rabs (w p k)) <= c * (INR n * M2 / 2 + Gh p / 2)) by (apply Rmult_le_compat_l; assumption).
  assert (E3 : c * INR n * 1000 * M2 <= eps * M2) by (apply Rmult_le_compat_r; lra).
  assert (E6 : eps * kap <= eps * (M + kap)) by (apply Rmult_le_compat_l; lra).
  assert (E7 : 0 <= c * Gh p) by (apply Rmult_le_pos; assumption).
  lra.
Qed.

Theorem fail_quad : nonzero r vfail /\
  bf r Am vfail vfail <= 5 * (eps * INR n * (M + kap)) * dot r vfail vfail.
Proof.
  split; [exists p; split; [lia|rewrite vfail_last; lra]|].
  set (v := vfail). set (E := fun i j => Am i j - Gm i j).
  assert (V1 : v p = 1) by apply vfail_last.
  assert (Sym : forall i j, E i j = E j i).
  { intros i j. unfold E, Am, Gm. destruct (Nat.leb_spec j i), (Nat.leb_spec i j); try reflexivity; [|lia].
    assert (i = j) as -> by lia. reflexivity. }
  assert (Dec : bf r Am v v = D p + (bf p E v v + rsum p (fun j => 2 * (E p j * v j)) + E p p)).
  { transitivity (bf r Gm v v + bf r E v v).
    - rewrite !bf_sums, <- rsum_plus. apply rsum_ext. intros i _. rewrite <- rsum_plus. apply rsum_ext. intros j _. unfold E. ring.
    - unfold v at 1 2. rewrite vfail_quad. fold v. f_equal. rewrite !bf_sums, Hr. cbn [rsum].
      rewrite rsum_plus, V1.
      rewrite (rsum_ext p (fun j => 2 * (E p j * v j)) (fun j => 1 * E p j * v j + v j * E j p * 1)) by (intros j _; rewrite (Sym j p); ring).
      rewrite rsum_plus. ring. }
  set (q := dot p v v). assert (Q0 : 0 <= q) by (apply rsum_nonneg; intros; apply Rle_0_sqr).
  assert (Dv : dot r v v = q + 1) by (unfold dot; rewrite Hr; cbn [rsum]; rewrite V1; unfold q, dot; ring).
  assert (Pn : INR p <= INR n) by (apply le_INR; lia).
  assert (N1 : 1 <= INR n) by (change 1 with (INR 1); apply le_INR; lia).
  assert (B1 : bf p E v v <= Ebound * (INR n * q)).
  { eapply Rle_trans; [|apply Rmult_le_compat_l; [unfold Ebound; apply Rmult_le_pos; lra|apply Rmult_le_compat_r; [exact Q0|exact Pn]]].
    eapply Rle_trans; [|apply Rmult_le_compat_l; [unfold Ebound; apply Rmult_le_pos; lra|apply (sq_sum_le p v)]].
    rewrite bf_sums, <- rsum_scal_l. apply rsum_le. intros i Hi. rewrite <- rsum_scal_l. apply rsum_le. intros j Hj.
    replace (v i * E i j * v j) with (E i j * (v i * v j)) by ring.
    eapply Rle_trans; [apply Rle_abs|]. rewrite Rabs_mult, Rabs_mult. apply Rmult_le_compat_r; [apply Rmult_le_pos; apply Rabs_pos|].
    unfold E, Am, Gm. destruct (Nat.leb_spec j i); apply E_bound; lia. }
  assert (B2 : rsum p (fun j => 2 * (E p j * v j)) <= eps * (Gh p + INR n * M2 * q) + eps / 100 * M2 * (INR n + q)).
  { destruct (Nat.eq_dec p 0) as [E0|E0].
    - replace (rsum p (fun j => 2 * (E p j * v j))) with 0 by (rewrite E0; reflexivity).
      assert (0 <= Gh p) by (apply Gh_nonneg; lia).
      assert (0 <= INR n * M2 * q) by (apply Rmult_le_pos; [apply Rmult_le_pos|]; lra).
      apply Rplus_le_le_0_compat; apply Rmult_le_pos; try lra. apply Rmult_le_pos; lra.
    - eapply Rle_trans; [|apply (row_fail v); lia]. apply rsum_le. intros j Hj. apply Rmult_le_compat_l; [lra|].
      rewrite <- Rabs_mult. unfold E. rewrite Am_lo, Gm_lo by lia. apply Rle_abs. }
  assert (B3 : E p p <= eps * (Gh p - D p) + eps / 100 * M2 + c * Gh p).
  { unfold E. rewrite Am_lo, Gm_lo by lia. apply diag_fail. }
  assert (GF := Gh_fail). assert (G0 := Gh_nonneg p ltac:(lia)).
  assert (c * INR n >= 0) by (apply Rle_ge, Rmult_le_pos; [assumption|apply pos_INR]).
  assert (C1 : (eps + c) * Gh p <= / 1000 * Gh p) by (apply Rmult_le_compat_r; lra).
  assert (C2 : eps * - D p <= / 1000 * - D p) by (apply Rmult_le_compat_r; lra).
  assert (C3 : eps * M2 <= / 1000 * M2) by (apply Rmult_le_compat_r; lra).
  assert (C4 : Gh p <= 51 / 100 * M2 + 101 / 100 * - D p) by lra.
  assert (C5 : (2 * eps + c) * Gh p <= (2 * eps + c) * (51 / 100 * M2 + 101 / 100 * - D p)) by (apply Rmult_le_compat_l; lra).
  assert (C6 : c * 1000 * M2 <= eps * M2) by (apply Rmult_le_compat_r; lra).
  assert (C7 : c * 1000 * - D p <= eps * - D p) by (apply Rmult_le_compat_r; lra).
  assert (C9 : 0 <= eps * M2) by (apply Rmult_le_pos; lra). assert (C10 : 0 <= eps * - D p) by (apply Rmult_le_pos; lra).
  assert (C8 : bf p E v v + eps * (INR n * M2 * q) + eps / 100 * M2 * (INR n + q) + 11 / 10 * (eps * M2) >= bf r Am v v) by (rewrite Dec; lra).
  rewrite Dv. unfold Ebound in B1.
  set (m := eps * M2) in *. assert (m0 : 0 <= m) by (unfold m; apply Rmult_le_pos; lra).
  assert (X1 : m * q <= m * (INR n * q)) by (apply Rmult_le_compat_l; [assumption|]; rewrite <- (Rmult_1_l q) at 1; apply Rmult_le_compat_r; assumption).
  assert (X2 : m <= m * INR n) by (rewrite <- (Rmult_1_r m) at 1; apply Rmult_le_compat_l; assumption).
  replace (5 * (eps * INR n * (M + kap)) * (q + 1)) with (5 / 2 * (m * (INR n * q)) + 5 / 2 * (m * INR n)) by (unfold m; field).
  replace ((eps + eps / 100) * M2 * (INR n * q)) with (101 / 100 * (m * (INR n * q))) in B1 by (unfold m; field).
  replace (eps * (INR n * M2 * q)) with (m * (INR n * q)) in C8 by (unfold m; ring).
  replace (eps / 100 * M2 * (INR n + q)) with (/ 100 * (m * INR n) + / 100 * (m * q)) in C8 by (unfold m; field).
  assert (0 <= m * (INR n * q)) by (apply Rmult_le_pos; [assumption|apply Rmult_le_pos; lra]).
  lra.
Qed.
End Fail.
End Perturbed.

(** *** binary64 *)
Section Binary64.
Variable dot64 : nat -> (nat -> b64) -> (nat -> b64) -> b64.
Hypothesis Hdot : fdot_any dot64.
Variables (a T : nat -> nat -> b64) (n r : nat).
Hypothesis Hn : (Z.of_nat n <= 2 ^ 20)%Z.
Hypothesis Hrn : (r <= n)%nat.
Hypothesis Ha : forall i j, (j <= i)%nat -> (i < r)%nat -> is_finite (a i j) = true.
Hypothesis HT : @cdone b64 (FNumD dot64) a T r.
Notation crecf := (@crec b64 (FNumD dot64) a).

Lemma c_rec i j : (j <= i)%nat -> (i < r)%nat -> T j i = crecf T i j.
Proof. intros Hj Hi. destruct (HT i Hi) as [H1 H2]. destruct (Nat.eq_dec j i) as [->|]; [exact H2|apply H1; lia]. Qed.
Lemma c_div i j : (j < i)%nat -> (i < r)%nat -> T i j = fdiv (T j i) (T j j).
Proof.
  intros Hj Hi. destruct (HT i Hi) as [H1 _]. destruct (H1 j Hj) as [_ H]. cbn [ndiv FNumD] in H. unfold fdivr in H.
  destruct (feqb _ _); [discriminate H|]. congruence.
Qed.
Lemma c_sub i j : (0 < j)%nat -> (j <= i)%nat -> (i < r)%nat -> T j i = fsub (a i j) (dot64 j (T i) (fun k => T k j)).
Proof. intros H0 Hj Hi. rewrite c_rec by assumption. destruct j; [lia|reflexivity]. Qed.

Lemma fpos_split (d : b64) : Bltb fzero d = true -> d = B754_infinity false \/ (is_finite d = true /\ 0 < B2R d).
Proof.
  destruct d as [s|s| |s m e Hb]; intros H.
  - destruct s; discriminate H.
  - destruct s; [discriminate H|left; reflexivity].
  - discriminate H.
  - right. split; [reflexivity|]. rewrite f64_ltb in H by reflexivity. destruct (Rlt_bool_spec (B2R fzero) (B2R (B754_finite s m e Hb))) as [L|]; [exact L|discriminate H].
Qed.

Lemma neg_finite m e Hb : B2R (B754_finite true m e Hb : b64) < 0.
Proof. unfold B2R. apply F2R_lt_0. reflexivity. Qed.
Lemma rsum_Rabs m f : Rabs (rsum m f) <= rsum m (fun k => Rabs (f k)).
Proof.
  induction m as [|m IH]; cbn [rsum]; [rewrite Rabs_R0; apply Rle_refl|]. eapply Rle_trans; [apply Rabs_triang|]. lra.
Qed.
Lemma div_sign (x y : b64) : is_finite y = true -> 0 < B2R y -> same_sign (fdiv x y) x.
Proof.
  intros Fy Hy. destruct (is_nan (fdiv x y)) eqn:En; [left; exact En|]. right; right.
  assert (Sy : Bsign y = false).
  { destruct y as [s|s| |[] m e Hb]; try discriminate Fy; [cbn in Hy; lra| |reflexivity].
    exfalso. assert (X := neg_finite m e Hb). lra. }
  pose proof (Bdiv_correct 53 1024 prec64 emax64 mode_NE x y ltac:(lra)) as C.
  destruct (Rlt_bool _ _) in C.
  - destruct C as (_ & _ & C). unfold fdiv. rewrite C by exact En. rewrite Sy. apply xorb_false_r.
  - rewrite Sy, xorb_false_r in C. unfold fdiv. destruct (Bdiv mode_NE x y) as [s|s| |s m e Hb]; cbn in C |- *; try discriminate C; try congruence.
Qed.

(** a positive pivot of finite data is finite *)
Lemma sub_nn (x s : b64) : is_finite x = true -> nn s -> Bltb fzero (fsub x s) = true -> is_finite s = true /\ is_finite (fsub x s) = true /\ 0 < B2R (fsub x s).
Proof.
  intros Fx Hs Hp. destruct Hs as [Hs|[->|[Fs Hs]]].
  - exfalso. destruct s; try discriminate Hs. destruct x; discriminate Hp.
  - exfalso. destruct x; try discriminate Fx; discriminate Hp.
  - split; [exact Fs|]. destruct (fpos_split _ Hp) as [E|E]; [exfalso|exact E].
    pose proof (Bminus_correct 53 1024 prec64 emax64 mode_NE x s Fx Fs) as C. cbn [round_mode] in C.
    match type of C with (if ?b then _ else _) => destruct b eqn:Eb end.
    + destruct C as (_ & C & _). unfold fsub in E. rewrite E in C. discriminate C.
    + destruct C as [C1 C2]. unfold fsub in E. rewrite E in C1.
      destruct (Bsign x) eqn:Sx; [discriminate C1|].
      assert (Z0 : B2R s = 0).
      { destruct s as [s|s| |[] m e Hb]; try discriminate Fs; [reflexivity| |discriminate C2].
        exfalso. assert (X := neg_finite m e Hb). lra. }
      rewrite Z0, Rminus_0_r in Eb. rewrite in_range in Eb; [discriminate Eb|apply fmt_b64|apply abs_B2R_lt_emax].
Qed.

Lemma pivots_finite m : (m <= r)%nat -> (forall k, (k < m)%nat -> Bltb fzero (T k k) = true) ->
  forall k, (k < m)%nat -> is_finite (T k k) = true /\ 0 < B2R (T k k).
Proof.
  intros Hm Hp k. induction k as [k IH] using lt_wf_ind. intros Hk.
  destruct (Nat.eq_dec k 0) as [->|Hk0].
  - destruct (fpos_split _ (Hp 0%nat Hk)) as [E|E]; [|exact E].
    assert (E0 : T 0%nat 0%nat = a 0%nat 0%nat) by (apply c_rec; lia). rewrite E0 in E. assert (F := Ha 0%nat 0%nat ltac:(lia) ltac:(lia)). rewrite E in F. discriminate F.
  - assert (E := c_sub k k ltac:(lia) (le_n k) ltac:(lia)). rewrite E. apply sub_nn.
    + apply Ha; lia.
    + apply fdot_nn; [exact Hdot|]. intros l Hl. rewrite (c_div k l) by lia. destruct (IH l Hl ltac:(lia)) as [F P]. apply div_sign; assumption.
    + rewrite <- E. apply Hp, Hk.
Qed.

(** with finite last pivots, every entry of the rows is finite *)
Lemma entries_finite i : (i < r)%nat -> is_finite (T i i) = true ->
  forall k, (k <= i)%nat -> is_finite (T i k) = true /\ is_finite (T k i) = true.
Proof.
  intros Hi Hf k Hk. destruct (Nat.eq_dec k i) as [->|]; [auto|].
  rewrite (c_sub i i) in Hf by lia. apply fsub_fin in Hf as (_ & Hf & _).
  apply fdot_fin in Hf; [|exact Hdot|lia]. destruct Hf as [Hf _]. apply Hf. lia.
Qed.

Definition wf (i j : nat) : R := B2R (T j i).
Notation af := (fun i j => B2R (a i j)).
Definition epsf : R := (INR n + 1) * pow2 (-52).
Definition cf : R := (INR n + 1) * pow2 (-1073).

Lemma rnd_rel' x : Rabs (rnd x - x) <= pow2 (-52) * Rabs (rnd x) + 2 * eta.
Proof.
  assert (H := rnd_rel x). set (y := rnd x) in *.
  assert (Hx : Rabs x <= Rabs y + Rabs (y - x)) by (replace x with (y - (y - x)) at 1 by ring; apply Rabs_triang_inv2 || (eapply Rle_trans; [apply Rabs_triang|rewrite Rabs_Ropp; lra])).
  assert (E : pow2 (-52) = 2 * uro) by (cbn; lra). rewrite E.
  assert (U : 0 < uro <= / 4) by (cbn; lra). assert (0 < eta) by apply bpow_gt_0.
  assert (X : Rabs x <= 2 * Rabs y + 2 * eta).
  { assert (uro * Rabs x <= / 4 * Rabs x) by (apply Rmult_le_compat_r; [apply Rabs_pos|lra]).
    assert (Y0 := Rabs_pos y). assert (X0 := Rabs_pos x). lra. }
  assert (uro * Rabs x <= uro * (2 * Rabs y + 2 * eta)) by (apply Rmult_le_compat_l; lra).
  assert (uro * eta <= / 4 * eta) by (apply Rmult_le_compat_r; lra). lra.
Qed.

Lemma rec_err i j : (j <= i)%nat -> (i < r)%nat ->
  is_finite (T j i) = true ->
  (forall k, (k < j)%nat -> 0 < B2R (T k k) /\ is_finite (T k k) = true) ->
  Rabs (af i j - Gp wf i j) <= epsf * Pp wf i j + cf * (1 + rsum j (fun k => Rabs (wf j k))).
Proof.
  intros Hj Hi Fw Hp.
  assert (N0 := pos_INR n).
  assert (Pn : 0 <= Pp wf i j) by (unfold Pp; apply Rplus_le_le_0_compat; [apply rsum_nonneg; intros; apply Rabs_pos|apply Rabs_pos]).
  assert (W0 : 0 <= rsum j (fun k => Rabs (wf j k))) by (apply rsum_nonneg; intros; apply Rabs_pos).
  assert (e0 : 0 <= epsf) by (apply Rmult_le_pos; [lra|apply bpow_ge_0]).
  assert (c0 : 0 <= cf) by (apply Rmult_le_pos; [lra|apply bpow_ge_0]).
  destruct (Nat.eq_dec j 0) as [->|Hj0].
  { unfold Gp. cbn [rsum]. unfold wf at 1. rewrite (c_rec i 0) by lia. cbn [crec].
    replace (B2R (a i 0%nat) - (0 + B2R (a i 0%nat))) with 0 by ring. rewrite Rabs_R0.
    apply Rplus_le_le_0_compat; [apply Rmult_le_pos; assumption|apply Rmult_le_pos; [assumption|cbn; lra]]. }
  assert (Es := c_sub i j ltac:(lia) Hj Hi). rewrite Es in Fw. apply fsub_fin in Fw as (_ & FS & ES).
  rewrite <- Es in ES. set (S0 := dot64 j (T i) (fun k => T k j)) in *.
  assert (FD := FS). apply fdot_fin in FD; [|exact Hdot|lia]. destruct FD as [FO FE]. fold S0 in FE.
  set (L := fun k => B2R (T i k)) in *.
  assert (EL : forall k, (k < j)%nat -> Rabs (L k - wf i k / B2R (T k k)) <= uro * Rabs (wf i k / B2R (T k k)) + eta).
  { intros k Hk. destruct (Hp k Hk) as [Dk Fk]. unfold L. destruct (fdiv_fin (T k i) (T k k)) as [_ E].
    - rewrite <- c_div by lia. apply FO, Hk.
    - exact Fk.
    - lra.
    - rewrite (c_div i k) by lia. rewrite E. unfold wf. apply rnd_rel. }
  set (Q := rsum j (fun k => Rabs (wf i k * wf j k / wf k k))).
  set (W := rsum j (fun k => Rabs (wf j k))) in *.
  assert (E1 : Rabs (rsum j (fun k => L k * wf j k) - rsum j (fun k => wf i k * wf j k / wf k k)) <= uro * Q + eta * W).
  { rewrite <- rsum_minus. eapply Rle_trans; [apply rsum_Rabs|]. unfold Q, W. rewrite <- !rsum_scal_l, <- rsum_plus. apply rsum_le. intros k Hk.
    assert (H := EL k Hk). destruct (Hp k Hk) as [Dk _]. change (B2R (T k k)) with (wf k k) in *.
    replace (L k * wf j k - wf i k * wf j k / wf k k) with ((L k - wf i k / wf k k) * wf j k) by (field; lra).
    replace (wf i k * wf j k / wf k k) with (wf i k / wf k k * wf j k) by (field; lra). rewrite !Rabs_mult.
    rewrite <- Rmult_assoc, <- Rmult_plus_distr_r. apply Rmult_le_compat_r; [apply Rabs_pos|exact H]. }
  assert (E2 : rsum j (fun k => Rabs (L k * wf j k)) <= (1 + uro) * Q + eta * W).
  { unfold Q, W. rewrite <- !rsum_scal_l, <- rsum_plus. apply rsum_le. intros k Hk.
    assert (H := EL k Hk). destruct (Hp k Hk) as [Dk _]. change (B2R (T k k)) with (wf k k) in *.
    replace (wf i k * wf j k / wf k k) with (wf i k / wf k k * wf j k) by (field; lra). rewrite !Rabs_mult.
    rewrite <- Rmult_assoc, <- Rmult_plus_distr_r. apply Rmult_le_compat_r; [apply Rabs_pos|].
    assert (X := Rabs_triang (L k - wf i k / wf k k) (wf i k / wf k k)).
    replace (L k - wf i k / wf k k + wf i k / wf k k) with (L k) in X by ring. lra. }
  assert (E3 := rnd_rel' (B2R (a i j) - B2R S0)). rewrite <- ES in E3. change (B2R (T j i)) with (wf i j) in E3.
  assert (Q0 : 0 <= Q) by (apply rsum_nonneg; intros; apply Rabs_pos).
  assert (J : INR j + 1 <= INR n) by (rewrite <- S_INR; apply le_INR; lia).
  assert (J0 := pos_INR j).
  assert (Nn : INR n <= pow2 20) by (rewrite INR_IZR_INZ; change (pow2 20) with (IZR (2 ^ 20)); apply IZR_le, Hn).
  assert (eta0 : 0 < eta) by apply bpow_gt_0. assert (u0 : 0 < uro) by apply bpow_gt_0.
  assert (P1 : pow2 (-1073) = 4 * eta) by (change 4 with (pow2 2); rewrite <- bpow_plus; reflexivity).
  assert (P2 : pow2 (-52) = 2 * uro) by (change 2 with (pow2 1); rewrite <- bpow_plus; reflexivity).
  assert (Ju : INR j * pow2 (-52) <= / 4).
  { apply Rle_trans with (pow2 20 * pow2 (-52)); [apply Rmult_le_compat_r; [apply bpow_ge_0|lra]|]. rewrite <- bpow_plus. cbn. lra. }
  set (s1 := rsum j (fun k => wf i k * wf j k / wf k k)) in *.
  set (s2 := rsum j (fun k => L k * wf j k)) in *.
  set (s3 := rsum j (fun k => Rabs (L k * wf j k))) in *.
  change (rsum j (fun k => B2R (T i k) * B2R (T k j))) with s2 in FE.
  change (rsum j (fun k => Rabs (B2R (T i k) * B2R (T k j)))) with s3 in FE.
  unfold Gp, Pp. fold Q s1.
  replace (B2R (a i j) - (s1 + wf i j)) with (- (wf i j - (B2R (a i j) - B2R S0)) + ((B2R S0 - s2) + (s2 - s1))) by ring.
  eapply Rle_trans; [apply Rabs_triang|]. rewrite Rabs_Ropp.
  assert (X := Rabs_triang (B2R S0 - s2) (s2 - s1)).
  assert (Y1 : INR j * pow2 (-52) * s3 <= INR j * pow2 (-52) * ((1 + uro) * Q + eta * W)) by (apply Rmult_le_compat_l; [apply Rmult_le_pos; [assumption|apply bpow_ge_0]|exact E2]).
  set (J52 := INR j * pow2 (-52)) in *.
  assert (Y2 : J52 * (uro * Q) <= / 4 * (uro * Q)) by (apply Rmult_le_compat_r; [apply Rmult_le_pos; lra|exact Ju]).
  assert (Y3 : J52 * (eta * W) <= / 4 * (eta * W)) by (apply Rmult_le_compat_r; [apply Rmult_le_pos; lra|exact Ju]).
  assert (Z1 : J52 * Q + pow2 (-52) * Q + pow2 (-52) * Q <= epsf * Q).
  { unfold J52, epsf. rewrite <- !Rmult_plus_distr_r. apply Rmult_le_compat_r; [exact Q0|].
    replace (INR j * pow2 (-52) + pow2 (-52) + pow2 (-52)) with ((INR j + 1 + 1) * pow2 (-52)) by ring.
    apply Rmult_le_compat_r; [apply bpow_ge_0|lra]. }
  assert (Z2 : pow2 (-52) * Rabs (wf i j) <= epsf * Rabs (wf i j)).
  { apply Rmult_le_compat_r; [apply Rabs_pos|]. unfold epsf. rewrite <- (Rmult_1_l (pow2 (-52))) at 1. apply Rmult_le_compat_r; [apply bpow_ge_0|lra]. }
  assert (Z3 : INR j * pow2 (-1073) + pow2 (-1073) <= cf).
  { unfold cf. replace (INR j * pow2 (-1073) + pow2 (-1073)) with ((INR j + 1) * pow2 (-1073)) by ring. apply Rmult_le_compat_r; [apply bpow_ge_0|lra]. }
  assert (Z4 : 4 * eta * W <= cf * W).
  { apply Rmult_le_compat_r; [exact W0|]. rewrite <- P1. assert (0 <= INR j * pow2 (-1073)) by (apply Rmult_le_pos; [assumption|apply bpow_ge_0]). lra. }
  assert (0 <= eta * W) by (apply Rmult_le_pos; lra). assert (0 <= uro * Q) by (apply Rmult_le_pos; lra).
  rewrite P1 in *. rewrite P2 in *. lra.
Qed.

Notation kapf := (pow2 (-1000)).
Lemma sizes : (0 < n)%nat -> 0 <= epsf /\ 0 <= cf /\ epsf + cf * INR n + cf <= / 1000 /\ cf * 1000 <= epsf * kapf /\
  cf * INR n * 1000 <= epsf /\ cf * 1000 <= epsf.
Proof.
  intros H0. unfold epsf, cf. assert (N0 := pos_INR n).
  assert (Nn : INR n <= pow2 20) by (rewrite INR_IZR_INZ; change (pow2 20) with (IZR (2 ^ 20)); apply IZR_le, Hn).
  assert (N1 : 1 <= INR n) by (change 1 with (INR 1); apply le_INR; lia).
  assert (X : INR n + 1 <= pow2 21) by (replace (pow2 21) with (pow2 20 + pow2 20) by (cbn; ring); lra).
  assert (K : 1000 <= pow2 10) by (cbn; lra).
  assert (B : forall e, 0 < pow2 e) by (intros; apply bpow_gt_0).
  assert (c1 : (INR n + 1) * pow2 (-1073) <= pow2 (-1052)) by (change (pow2 (-1052)) with (pow2 (21 + -1073)); rewrite bpow_plus; apply Rmult_le_compat_r; [left; apply B|exact X]).
  assert (c0 : 0 <= (INR n + 1) * pow2 (-1073)) by (apply Rmult_le_pos; [lra|left; apply B]).
  assert (e1 : (INR n + 1) * pow2 (-52) <= pow2 (-31)) by (change (pow2 (-31)) with (pow2 (21 + -52)); rewrite bpow_plus; apply Rmult_le_compat_r; [left; apply B|exact X]).
  assert (e0 : pow2 (-52) <= (INR n + 1) * pow2 (-52)) by (rewrite <- (Rmult_1_l (pow2 (-52))) at 1; apply Rmult_le_compat_r; [left; apply B|lra]).
  assert (cn : (INR n + 1) * pow2 (-1073) * INR n <= pow2 (-1032)).
  { apply Rle_trans with (pow2 (-1052) * pow2 20); [apply Rmult_le_compat; lra|]. rewrite <- bpow_plus. apply Rle_refl. }
  assert (s1 : pow2 (-31) <= / 4000) by (cbn; lra).
  assert (s2 : pow2 (-1052) <= pow2 (-31)) by (apply bpow_le; lia).
  assert (s3 : pow2 (-1032) <= pow2 (-31)) by (apply bpow_le; lia).
  assert (s4 : pow2 (-1032) * 1000 <= pow2 (-52)).
  { apply Rle_trans with (pow2 (-1032) * pow2 10); [apply Rmult_le_compat_l; [left; apply B|exact K]|]. rewrite <- bpow_plus. apply bpow_le. lia. }
  assert (s5 : pow2 (-1052) * 1000 <= pow2 (-52)).
  { apply Rle_trans with (pow2 (-1052) * pow2 10); [apply Rmult_le_compat_l; [left; apply B|exact K]|]. rewrite <- bpow_plus. apply bpow_le. lia. }
  assert (B52 := B (-52)%Z).
  repeat split; try lra.
  replace ((INR n + 1) * pow2 (-1073) * 1000) with ((INR n + 1) * (pow2 (-1073) * 1000)) by ring. rewrite (Rmult_assoc (INR n + 1) (pow2 (-52))).
  apply Rmult_le_compat_l; [lra|]. rewrite <- bpow_plus.
  apply Rle_trans with (pow2 (-1073) * pow2 10); [apply Rmult_le_compat_l; [left; apply B|exact K]|]. rewrite <- bpow_plus. apply bpow_le. lia.
Qed.

Variable M : R.
Hypothesis HM : forall i, (i < r)%nat -> af i i <= M.
Hypothesis HM0 : 0 <= M.
Notation Amf := (Am af).

Theorem chol64_success : (0 < n)%nat -> (forall k, (k < r)%nat -> Bltb fzero (T k k) = true) ->
  (exists B, pd r B /\ forall i j, (i < r)%nat -> (j < r)%nat -> Rabs (Amf i j - B i j) <= (INR n + 1) * pow2 (-50) * (M + kapf)) /\
  forall x, nonzero r x -> - (INR n * (INR n + 1) * pow2 (-50) * (M + kapf)) * dot r x x < bf r Amf x x.
Proof.
  intros H0 Hp. assert (Hf := pivots_finite r (le_n r) Hp).
  destruct (sizes H0) as (e0 & c0 & z1 & z2 & z3 & z4).
  assert (Hpos : forall k, (S k < r)%nat -> 0 < wf k k) by (intros k Hk; apply Hf; lia).
  assert (Hall : forall k, (k < r)%nat -> 0 < wf k k) by (intros k Hk; apply Hf; lia).
  assert (k0 : 0 < kapf) by apply bpow_gt_0.
  assert (Hrec : forall i j, (j <= i)%nat -> (i < r)%nat -> Rabs (af i j - Gp wf i j) <= epsf * Pp wf i j + cf * (1 + rsum j (fun k => Rabs (wf j k)))).
  { intros i j Hj Hi. apply rec_err; try assumption; [apply (entries_finite i); [exact Hi|apply Hf, Hi|exact Hj]|].
    intros k Hk. split; apply Hf; lia. }
  assert (EB : Ebound epsf M kapf <= (INR n + 1) * pow2 (-50) * (M + kapf)).
  { unfold Ebound, epsf. replace (pow2 (-50)) with (4 * pow2 (-52)) by (change 4 with (pow2 2); rewrite <- bpow_plus; reflexivity).
    assert (0 <= (INR n + 1) * pow2 (-52) * (M + kapf)) by (apply Rmult_le_pos; [exact e0|lra]).
    lra. }
  split.
  - destruct (success_pd af wf r epsf cf e0 c0 Hpos Hrec n M kapf Hrn HM HM0 k0 z1 z2 z3 z4 Hall) as [P1 P2].
    exists (Gm wf). split; [exact P1|]. intros i j Hi Hj. eapply Rle_trans; [apply P2; assumption|exact EB].
  - intros x Hx. assert (S := success_quad af wf r epsf cf e0 c0 Hpos Hrec n M kapf Hrn HM HM0 k0 z1 z2 z3 z4 Hall x Hx).
    eapply Rle_lt_trans; [|exact S]. apply Rmult_le_compat_r; [apply rsum_nonneg; intros; apply Rle_0_sqr|].
    apply Ropp_le_contravar. rewrite (Rmult_assoc (INR n)), (Rmult_assoc (INR n)).
    apply Rmult_le_compat; [apply pos_INR| |apply le_INR, Hrn|exact EB].
    unfold Ebound. apply Rmult_le_pos; lra.
Qed.

Theorem chol64_failure p : r = S p -> (forall k, (k < p)%nat -> Bltb fzero (T k k) = true) ->
  is_finite (T p p) = true -> Bltb fzero (T p p) = false ->
  exists x, nonzero r x /\ bf r Amf x x <= INR n * (INR n + 1) * pow2 (-49) * (M + kapf) * dot r x x.
Proof.
  intros Hr Hp Fp Hl. assert (Hf := pivots_finite p ltac:(lia) Hp).
  destruct (sizes ltac:(lia)) as (e0 & c0 & z1 & z2 & z3 & z4).
  assert (Hpos : forall k, (S k < r)%nat -> 0 < wf k k) by (intros k Hk; apply Hf; lia).
  assert (k0 : 0 < kapf) by apply bpow_gt_0.
  assert (Hlast : wf p p <= 0).
  { rewrite f64_ltb in Hl by (exact Fp || reflexivity). destruct (Rlt_bool_spec (B2R fzero) (B2R (T p p))) as [|L]; [discriminate Hl|exact L]. }
  assert (Hrec : forall i j, (j <= i)%nat -> (i < r)%nat -> Rabs (af i j - Gp wf i j) <= epsf * Pp wf i j + cf * (1 + rsum j (fun k => Rabs (wf j k)))).
  { intros i j Hj Hi. apply rec_err; try assumption.
    - apply (entries_finite i); [exact Hi| |exact Hj]. destruct (Nat.eq_dec i p) as [->|]; [exact Fp|apply Hf; lia].
    - intros k Hk. split; apply Hf; lia. }
  destruct (fail_quad af wf r epsf cf e0 c0 Hpos Hrec n M kapf Hrn HM HM0 k0 z1 z2 z3 z4 p Hr Hlast) as [V1 V2].
  eexists. split; [exact V1|]. eapply Rle_trans; [exact V2|]. apply Rmult_le_compat_r; [apply rsum_nonneg; intros; apply Rle_0_sqr|].
  unfold epsf. replace (pow2 (-49)) with (8 * pow2 (-52)) by (change 8 with (pow2 3); rewrite <- bpow_plus; reflexivity).
  assert (0 <= (INR n + 1) * pow2 (-52) * INR n * (M + kapf)) by (apply Rmult_le_pos; [apply Rmult_le_pos; [exact e0|apply pos_INR]|lra]).
  lra.
Qed.
End Binary64.
