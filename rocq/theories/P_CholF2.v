(** chol_ext in binary64: on a matrix that is positive definite with a margin nothing overflows. *)
From Coq Require Import ZArith Reals Lra Lia Bool Psatz List.
From Flocq Require Import Core.Core IEEE754.BinarySingleNaN.
From Verif Require Import Base M_Chol M_Float S_LinAlg P_LinAlg P_Chol P_Float P_Float2 S_Float P_FSum P_EllF2 P_CholF.
Local Open Scope R_scope.

Lemma rsum_const m c : rsum m (fun _ => c) = INR m * c.
Proof. induction m as [|m IH]; [cbn; ring|]. rewrite S_INR. cbn [rsum]. rewrite IH. ring. Qed.
Lemma rsum_ge_term m (f : nat -> R) k : (k < m)%nat -> (forall l, (l < m)%nat -> 0 <= f l) -> f k <= rsum m f.
Proof.
  induction m as [|m IH]; intros Hk H; [lia|]. cbn [rsum]. destruct (Nat.eq_dec k m) as [->|].
  - assert (0 <= rsum m f) by (apply rsum_nonneg; intros; apply H; lia). lra.
  - assert (X := IH ltac:(lia) ltac:(intros; apply H; lia)). assert (Y := H m ltac:(lia)). lra.
Qed.
(** a vector on the indices 0..j-1 and p, the last entry of which is v j *)
Definition spread (j p : nat) (v : nat -> R) (i : nat) : R :=
  if (i <? j)%nat then v i else if (i =? p)%nat then v j else 0.
Lemma rsum_spread j p v f : (j <= p)%nat -> rsum (S p) (fun i => spread j p v i * f i) = rsum j (fun i => v i * f i) + v j * f p.
Proof.
  intros Hj. cbn [rsum]. f_equal.
  - rewrite (rsum_split_at p j) by lia. rewrite <- Rplus_0_r. f_equal.
    + apply rsum_ext. intros i Hi. unfold spread. destruct (Nat.ltb_spec i j); [reflexivity|lia].
    + apply rsum_0. intros i Hi. unfold spread.
      destruct (Nat.ltb_spec (j + i) j); [lia|]. destruct (Nat.eqb_spec (j + i) p); [lia|ring].
  - unfold spread. destruct (Nat.ltb_spec p j); [lia|]. rewrite Nat.eqb_refl. reflexivity.
Qed.

Lemma Am_l (a : nat -> nat -> R) i j : (j <= i)%nat -> Am a i j = a i j.
Proof. apply (Am_lo a 0 0 (le_n 0)). Qed.
Lemma Am_h (a : nat -> nat -> R) i j : (i <= j)%nat -> Am a i j = a j i.
Proof. apply (Am_hi a 0 0 (le_n 0)). Qed.

Section NoOverflow.
Variable dot64 : nat -> (nat -> b64) -> (nat -> b64) -> b64.
Hypothesis Hdot : fdot_any dot64.
Variables (a T : nat -> nat -> b64) (n p : nat).
Notation r := (S p).
Hypothesis Hn : (Z.of_nat n <= 2 ^ 20)%Z.
Hypothesis Hrn : (r <= n)%nat.
Hypothesis Ha : forall i j, (j <= i)%nat -> (i < r)%nat -> is_finite (a i j) = true.
Hypothesis HT : @cdone b64 (FNumD dot64) a T r.
Hypothesis Hp : forall k, (k < p)%nat -> Bltb fzero (T k k) = true.
Notation af := (fun i j => B2R (a i j)).
Notation wf := (wf T).
Notation kapf := (pow2 (-1000)).
Notation eps := (epsf n).
Notation cf := (cf n).
Variable M : R.
Hypothesis HM : forall i, (i < r)%nat -> af i i <= M.
Hypothesis HM0 : 0 <= M.
Hypothesis HM9 : M <= pow2 900.
(** a vector showing that the matrix is not positive definite with a margin *)
Definition bad : Prop := exists x, nonzero r x /\ bf r (Am af) x x <= 5 * (eps * INR n * (M + kapf)) * dot r x x.
Lemma margin_nonneg x : 0 <= 5 * (eps * INR n * (M + kapf)) * dot r x x.
Proof.
  destruct (sizes n r Hn Hrn ltac:(lia)) as (e0 & _). assert (k0 : 0 < kapf) by apply bpow_gt_0.
  apply Rmult_le_pos; [|apply rsum_nonneg; intros; apply Rle_0_sqr]. apply Rmult_le_pos; [lra|].
  apply Rmult_le_pos; [apply Rmult_le_pos; [exact e0|apply pos_INR]|lra].
Qed.

Lemma Dpos k : (k < p)%nat -> is_finite (T k k) = true /\ 0 < wf k k.
Proof. apply (pivots_finite dot64 Hdot a T n r Hrn Ha HT p ltac:(lia) Hp). Qed.
Lemma rowfin i j : (j <= i)%nat -> (i < p)%nat -> is_finite (T j i) = true.
Proof.
  intros Hj Hi. apply (entries_finite dot64 Hdot a T n r Hn Hrn HT i ltac:(lia) (proj1 (Dpos i Hi)) j Hj).
Qed.
Lemma recs i j : (j <= i)%nat -> (i < r)%nat -> is_finite (T j i) = true -> (j < p)%nat \/ (j = p)%nat ->
  Rabs (af i j - Gp wf i j) <= eps * Pp wf i j + cf * (1 + rsum j (fun k => Rabs (wf j k))).
Proof.
  intros Hj Hi F Hc. apply (rec_err dot64 Hdot a T n r Hn Hrn HT i j Hj Hi F). intros k Hk. destruct (Dpos k ltac:(lia)). auto.
Qed.

(** the squares of a row that has been computed up to column j *)
Notation Gr j := (rsum j (fun k => wf p k * wf p k / wf k k)).
Section Partial.
Variable j : nat.
Hypothesis Hj : (j <= p)%nat.
Hypothesis Hf : forall k, (k < j)%nat -> is_finite (T k p) = true.
Let a' (i k : nat) : R := af (if (i =? j)%nat then p else i) (if (k =? j)%nat then p else k).
Let w' (i k : nat) : R := if (i =? j)%nat then (if (k =? j)%nat then af p p - Gr j else wf p k) else wf i k.

Lemma w_old i k : (i < j)%nat -> w' i k = wf i k.
Proof. intros H. unfold w'. destruct (Nat.eqb_spec i j); [lia|reflexivity]. Qed.
Lemma w_row k : (k < j)%nat -> w' j k = wf p k.
Proof. intros H. unfold w'. rewrite Nat.eqb_refl. destruct (Nat.eqb_spec k j); [lia|reflexivity]. Qed.
Lemma w_last : w' j j = af p p - Gr j.
Proof. unfold w'. rewrite !Nat.eqb_refl. reflexivity. Qed.
Lemma Gp_old i k : (k <= i)%nat -> (i < j)%nat -> Gp w' i k = Gp wf i k.
Proof.
  intros Hk Hi. unfold Gp. rewrite w_old by lia. f_equal. apply rsum_ext. intros l Hl. rewrite !w_old by lia. reflexivity.
Qed.
Lemma Pp_old i k : (k <= i)%nat -> (i < j)%nat -> Pp w' i k = Pp wf i k.
Proof.
  intros Hk Hi. unfold Pp. rewrite w_old by lia. f_equal. apply rsum_ext. intros l Hl. rewrite !w_old by lia. reflexivity.
Qed.
Lemma Gp_row k : (k < j)%nat -> Gp w' j k = Gp wf p k.
Proof.
  intros Hk. unfold Gp. rewrite w_row by lia. f_equal. apply rsum_ext. intros l Hl. rewrite w_row, !w_old by lia. reflexivity.
Qed.
Lemma Pp_row k : (k < j)%nat -> Pp w' j k = Pp wf p k.
Proof.
  intros Hk. unfold Pp. rewrite w_row by lia. f_equal. apply rsum_ext. intros l Hl. rewrite w_row, !w_old by lia. reflexivity.
Qed.
Lemma Gp_last : Gp w' j j = af p p.
Proof.
  unfold Gp. rewrite w_last. rewrite (rsum_ext j _ (fun k => wf p k * wf p k / wf k k)); [ring|].
  intros l Hl. rewrite w_row, w_old by lia. reflexivity.
Qed.
Lemma a_old i k : (k <= i)%nat -> (i < j)%nat -> a' i k = af i k.
Proof. intros Hk Hi. unfold a'. destruct (Nat.eqb_spec i j); [lia|]. destruct (Nat.eqb_spec k j); [lia|reflexivity]. Qed.
Lemma a_row k : (k < j)%nat -> a' j k = af p k.
Proof. intros Hk. unfold a'. rewrite Nat.eqb_refl. destruct (Nat.eqb_spec k j); [lia|reflexivity]. Qed.
Lemma a_last : a' j j = af p p.
Proof. unfold a'. rewrite !Nat.eqb_refl. reflexivity. Qed.

Lemma part_rec i k : (k <= i)%nat -> (i < S j)%nat ->
  Rabs (a' i k - Gp w' i k) <= eps * Pp w' i k + cf * (1 + rsum k (fun l => Rabs (w' k l))).
Proof.
  intros Hk Hi. assert (Hs := sizes n r Hn Hrn ltac:(lia)). destruct Hs as (e0 & c0 & _).
  destruct (Nat.eq_dec i j) as [->|Hij].
  - destruct (Nat.eq_dec k j) as [->|Hkj].
    + rewrite Gp_last, a_last, Rminus_diag_eq, Rabs_R0 by reflexivity.
      apply Rplus_le_le_0_compat; apply Rmult_le_pos; try assumption.
      * unfold Pp. apply Rplus_le_le_0_compat; [apply rsum_nonneg; intros; apply Rabs_pos|apply Rabs_pos].
      * apply Rplus_le_le_0_compat; [lra|apply rsum_nonneg; intros; apply Rabs_pos].
    + rewrite a_row, Gp_row, Pp_row by lia. rewrite (rsum_ext k (fun l => Rabs (w' k l)) (fun l => Rabs (wf k l))).
      * apply recs; [lia|lia|apply Hf; lia|left; lia].
      * intros l Hl. rewrite w_old by lia. reflexivity.
  - rewrite a_old, Gp_old, Pp_old by lia. rewrite (rsum_ext k (fun l => Rabs (w' k l)) (fun l => Rabs (wf k l))).
    + apply recs; [lia|lia|apply rowfin; lia|left; lia].
    + intros l Hl. rewrite w_old by lia. reflexivity.
Qed.

Lemma spread_bf v : bf r (Am af) (spread j p v) (spread j p v) = bf (S j) (Am a') v v.
Proof.
  rewrite !bf_sums.
  transitivity (rsum r (fun i => spread j p v i * rsum r (fun k => spread j p v k * Am af i k))).
  { apply rsum_ext. intros i _. rewrite <- rsum_scal_l. apply rsum_ext. intros k _. ring. }
  rewrite rsum_spread by lia. rewrite rsum_spread by lia.
  rewrite (rsum_ext j _ (fun i => v i * (rsum j (fun k => v k * Am af i k) + v j * Am af i p))) by (intros i _; rewrite rsum_spread by lia; reflexivity).
  transitivity (rsum (S j) (fun i => v i * rsum (S j) (fun k => v k * Am a' i k))).
  2: { apply rsum_ext. intros i _. rewrite <- rsum_scal_l. apply rsum_ext. intros k _. ring. }
  cbn [rsum]. f_equal.
  - apply rsum_ext. intros i Hi. f_equal. f_equal.
    + apply rsum_ext. intros k Hk. f_equal. unfold Am. destruct (Nat.leb_spec k i); rewrite a_old by lia; reflexivity.
    + f_equal. rewrite !Am_h by lia. rewrite a_row by lia. reflexivity.
  - f_equal. f_equal.
    + apply rsum_ext. intros k Hk. f_equal. rewrite !Am_l by lia. rewrite a_row by lia. reflexivity.
    + f_equal. rewrite !Am_l by lia. rewrite a_last. reflexivity.
Qed.
Lemma spread_dot v : dot r (spread j p v) (spread j p v) = dot (S j) v v.
Proof.
  unfold dot. rewrite rsum_spread by lia. cbn [rsum]. f_equal.
  - apply rsum_ext. intros i Hi. unfold spread. destruct (Nat.ltb_spec i j); [reflexivity|lia].
  - unfold spread. destruct (Nat.ltb_spec p j); [lia|]. rewrite Nat.eqb_refl. reflexivity.
Qed.
Lemma spread_nz v : nonzero (S j) v -> nonzero r (spread j p v).
Proof.
  intros (k & Hk & Hv). destruct (Nat.eq_dec k j) as [->|].
  - exists p. split; [lia|]. unfold spread. destruct (Nat.ltb_spec p j); [lia|]. rewrite Nat.eqb_refl. exact Hv.
  - exists k. split; [lia|]. unfold spread. destruct (Nat.ltb_spec k j); [exact Hv|lia].
Qed.

Lemma part_bound : Gr j <= M \/ bad.
Proof.
  destruct (Rle_lt_dec (Gr j) M) as [|Hg]; [left; assumption|right].
  destruct (sizes n r Hn Hrn ltac:(lia)) as (e0 & c0 & z1 & z2 & z3 & z4).
  assert (Hpos : forall k, (S k < S j)%nat -> 0 < w' k k) by (intros k Hk; rewrite w_old by lia; apply Dpos; lia).
  assert (k0 : 0 < kapf) by apply bpow_gt_0.
  assert (Hd : forall i, (i < S j)%nat -> a' i i <= M).
  { intros i Hi. destruct (Nat.eq_dec i j) as [->|]; [rewrite a_last; apply HM; lia|rewrite a_old by lia; apply HM; lia]. }
  assert (Hlast : w' j j <= 0) by (rewrite w_last; assert (X := HM p ltac:(lia)); lra).
  destruct (fail_quad a' w' (S j) eps cf e0 c0 Hpos part_rec n M kapf ltac:(lia) Hd HM0 k0 z1 z2 z3 z4 j eq_refl Hlast) as [V1 V2].
  eexists. split; [exact (spread_nz _ V1)|]. rewrite spread_bf, spread_dot. exact V2.
Qed.
End Partial.

Lemma offdiag j : (j < p)%nat -> Rabs (af p j) <= pow2 901 \/ bad.
Proof.
  intros Hj. destruct (Rle_lt_dec (Rabs (af p j)) (pow2 901)) as [|Hg]; [left; assumption|right].
  set (s := if Rle_dec 0 (af p j) then -1 else 1).
  assert (S2 : s * s = 1) by (unfold s; destruct (Rle_dec 0 (af p j)); lra).
  assert (SA : s * af p j = - Rabs (af p j)) by (unfold s; destruct (Rle_dec 0 (af p j)); [rewrite Rabs_pos_eq|rewrite Rabs_left1]; lra).
  set (x := fun i => if (i =? p)%nat then 1 else if (i =? j)%nat then s else 0).
  assert (Xp : x p = 1) by (unfold x; rewrite Nat.eqb_refl; reflexivity).
  assert (Hs : forall f, rsum p (fun i => x i * f i) = s * f j).
  { intros f. rewrite (rsum_single p j); [|lia|].
    - unfold x. destruct (Nat.eqb_spec j p); [lia|]. rewrite Nat.eqb_refl. reflexivity.
    - intros i Hi Hne. unfold x. destruct (Nat.eqb_spec i p); [lia|]. destruct (Nat.eqb_spec i j); [contradiction|ring]. }
  assert (NZ : nonzero r x) by (exists p; split; [lia|rewrite Xp; lra]).
  assert (Q : bf r (Am af) x x = s * s * af j j + 2 * (s * af p j) + af p p).
  { rewrite bf_sums.
    transitivity (rsum r (fun i => x i * rsum r (fun k => x k * Am af i k))).
    { apply rsum_ext. intros i _. rewrite <- rsum_scal_l. apply rsum_ext. intros k _. ring. }
    cbn [rsum]. rewrite Xp.
    rewrite (rsum_ext p _ (fun i => x i * (s * Am af i j + Am af i p))) by (intros i _; rewrite Hs; ring).
    rewrite !Hs. rewrite (Am_l af j j), (Am_h af j p), (Am_l af p j), (Am_l af p p) by lia. ring. }
  exists x. split; [exact NZ|]. rewrite Q, SA, S2. assert (X := margin_nonneg x).
  assert (M1 := HM j ltac:(lia)). assert (M2 := HM p ltac:(lia)).
  assert (P : pow2 901 = 2 * pow2 900) by (change 901%Z with (1 + 900)%Z; rewrite bpow_plus; reflexivity).
  assert (0 < pow2 900) by apply bpow_gt_0. lra.
Qed.

Lemma diag_lo : 0 < af p p \/ bad.
Proof.
  destruct (Rlt_le_dec 0 (af p p)) as [|Hg]; [left; assumption|right].
  exists (fun i => if (i =? p)%nat then 1 else 0).
  assert (NZ : nonzero r (fun i => if (i =? p)%nat then 1 else 0)) by (exists p; split; [lia|rewrite Nat.eqb_refl; lra]).
  split; [exact NZ|]. eapply Rle_trans; [|apply margin_nonneg]. rewrite bf_sums. rewrite (rsum_single r p); [|lia|].
  - rewrite (rsum_single r p); [|lia|].
    + rewrite Nat.eqb_refl, Am_l by lia. lra.
    + intros k Hk Hne. destruct (Nat.eqb_spec k p); [contradiction|ring].
  - intros i Hi Hne. apply rsum_0. intros k _. destruct (Nat.eqb_spec i p); [contradiction|ring].
Qed.

(** the quotients of the row *)
Lemma quot_fin j : (j <= p)%nat -> (forall k, (k < j)%nat -> is_finite (T k p) = true) -> Gr j <= M ->
  forall k, (k < j)%nat -> is_finite (T p k) = true /\ Rabs (B2R (T p k) - wf p k / wf k k) <= uro * Rabs (wf p k / wf k k) + eta.
Proof.
  intros Hj Hf B k Hk. destruct (Dpos k ltac:(lia)) as [Fd Dk].
  assert (Hq : Rabs (wf p k / wf k k) <= pow2 1023).
  { destruct (Rle_lt_dec (Rabs (wf p k / wf k k)) (pow2 1023)) as [|Hg]; [assumption|exfalso].
    assert (Dm : pow2 (-1074) <= wf k k).
    { destruct (b64_scaled (T k k)) as (m & c & E & _ & Hc). change (wf k k) with (B2R (T k k)) in *. rewrite E in Dk |- *.
      assert (0 < IZR m) by (apply Rmult_lt_reg_r with (pow2 c); [apply bpow_gt_0|lra]).
      assert (1 <= IZR m) by (apply (IZR_le 1); apply lt_IZR in H; lia).
      apply Rle_trans with (pow2 c); [apply bpow_le; lia|]. assert (0 < pow2 c) by apply bpow_gt_0.
      rewrite <- (Rmult_1_l (pow2 c)) at 1. apply Rmult_le_compat_r; lra. }
    assert (T1 : wf p k * wf p k / wf k k <= Gr j).
    { apply (rsum_ge_term j (fun k => wf p k * wf p k / wf k k) k Hk). intros l Hl.
      apply Rmult_le_pos; [apply Rle_0_sqr|]. left. apply Rinv_0_lt_compat, Dpos. lia. }
    assert (E : wf p k * wf p k / wf k k = Rabs (wf p k / wf k k) * Rabs (wf p k / wf k k) * wf k k).
    { rewrite <- Rabs_mult, Rabs_pos_eq by apply Rle_0_sqr. field. lra. }
    assert (P0 : 0 < pow2 1023) by apply bpow_gt_0. assert (P1 : 0 < pow2 (-1074)) by apply bpow_gt_0.
    assert (X : pow2 1023 * pow2 1023 * pow2 (-1074) <= Rabs (wf p k / wf k k) * Rabs (wf p k / wf k k) * wf k k).
    { apply Rmult_le_compat; [apply Rmult_le_pos; lra|lra| |exact Dm]. apply Rmult_le_compat; lra. }
    rewrite <- !bpow_plus in X. assert (pow2 900 < pow2 (1023 + 1023 + -1074)) by (apply bpow_lt; lia). lra. }
  rewrite (c_div dot64 a T r HT p k) by lia.
  destruct (fdiv_rnd (T k p) (T k k) (Hf k Hk) ltac:(change (B2R (T k k)) with (wf k k); lra) Hq) as [E F].
  split; [exact F|]. rewrite E. apply rnd_rel.
Qed.

Lemma old_bound i : (i < p)%nat -> Gp wf i i <= 2 * (M + kapf).
Proof.
  intros Hi. destruct (sizes n r Hn Hrn ltac:(lia)) as (e0 & c0 & z1 & z2 & z3 & z4). assert (k0 : 0 < kapf) by apply bpow_gt_0.
  apply (Gp_bound af wf p eps cf e0 c0) with (n := n); try assumption; try lia.
  - intros k Hk. apply Dpos. lia.
  - intros i' j' Hj' Hi'. apply recs; [exact Hj'|lia|apply rowfin; lia|left; lia].
  - intros k Hk. apply HM. lia.
  - right. apply Dpos, Hi.
Qed.

Lemma all_or j : (forall k, (k < j)%nat -> is_finite (T k p) = true \/ bad) ->
  (forall k, (k < j)%nat -> is_finite (T k p) = true) \/ bad.
Proof.
  induction j as [|j IH]; intros H; [left; intros; lia|].
  destruct IH as [IH|IH]; [intros k Hk; apply H; lia| |right; exact IH].
  destruct (H j ltac:(lia)) as [Hj|Hj]; [left|right; exact Hj].
  intros k Hk. destruct (Nat.eq_dec k j) as [->|]; [exact Hj|apply IH; lia].
Qed.
Theorem row_finite : forall j, (j <= p)%nat -> is_finite (T j p) = true \/ bad.
Proof.
  induction j as [j IH] using lt_wf_ind. intros Hj.
  destruct (Nat.eq_dec j 0) as [->|Hj0].
  { left. rewrite (c_rec dot64 a T n r Hrn HT p 0) by lia. cbn [crec]. apply Ha; lia. }
  rewrite (c_sub dot64 a T n r Hrn HT p j) by lia.
  destruct (all_or j) as [Hf|]; [intros k Hk; apply IH; lia| |right; assumption].
  destruct (part_bound j Hj Hf) as [HG|]; [|right; assumption].
  assert (HQ := quot_fin j Hj Hf HG).
  assert (A1 : Rabs (af p j) <= pow2 901 \/ bad).
  { destruct (Nat.eq_dec j p) as [->|]; [|apply offdiag; lia].
    destruct diag_lo as [X|]; [left|right; assumption]. rewrite Rabs_pos_eq by lra. assert (Y := HM p ltac:(lia)).
    apply Rle_trans with (pow2 900); [lra|apply bpow_le; lia]. }
  destruct A1 as [A1|]; [left|right; assumption].
  assert (k0 : 0 < kapf <= 1) by (split; [apply bpow_gt_0|change 1 with (pow2 0); apply bpow_le; lia]).
  assert (P9 : 1 <= pow2 900) by (change 1 with (pow2 0); apply bpow_le; lia).
  assert (u0 : 0 < uro <= / 4) by (cbn; lra). assert (eta0 : 0 < eta <= kapf) by (split; [apply bpow_gt_0|apply bpow_le; lia]).
  (* the other factor of the dot product *)
  assert (Fj : forall k, (k < j)%nat -> is_finite (T k j) = true).
  { intros k Hk. destruct (Nat.eq_dec j p) as [->|]; [apply Hf, Hk|apply rowfin; lia]. }
  assert (Gj : rsum j (fun k => wf j k * wf j k / wf k k) <= 2 * (M + kapf)).
  { destruct (Nat.eq_dec j p) as [E|]; [rewrite E in HG |- *; lra|]. assert (X := old_bound j ltac:(lia)).
    unfold Gp in X. destruct (Dpos j ltac:(lia)) as [_ Dj]. lra. }
  assert (Wj : forall k, (k < j)%nat -> Rabs (wf j k) <= 2 * (M + kapf)).
  { intros k Hk. destruct (Dpos k ltac:(lia)) as [_ Dk].
    assert (H := amgm (wf j k) (wf k k) (wf k k) Dk). replace (wf j k * wf k k / wf k k) with (wf j k) in H by (field; lra).
    replace (wf k k * wf k k / wf k k) with (wf k k) in H by (field; lra).
    assert (T1 : wf j k * wf j k / wf k k <= rsum j (fun k => wf j k * wf j k / wf k k)).
    { apply (rsum_ge_term j (fun k => wf j k * wf j k / wf k k) k Hk). intros l Hl.
      apply Rmult_le_pos; [apply Rle_0_sqr|]. left. apply Rinv_0_lt_compat, Dpos. lia. }
    assert (X := old_bound k ltac:(lia)). unfold Gp in X.
    assert (0 <= rsum k (fun l => wf k l * wf k l / wf l l)).
    { apply rsum_nonneg. intros l Hl. apply Rmult_le_pos; [apply Rle_0_sqr|]. left. apply Rinv_0_lt_compat, Dpos. lia. }
    lra. }
  assert (Nj : INR j <= pow2 20).
  { rewrite INR_IZR_INZ. change (pow2 20) with (IZR (2 ^ 20)). apply IZR_le. lia. }
  assert (S0 : rsum j (fun k => Rabs (B2R (T p k) * B2R (T k j))) <= pow2 930).
  { apply Rle_trans with (rsum j (fun k => (wf p k * wf p k / wf k k + wf j k * wf j k / wf k k) + 2 * (M + kapf))).
    - apply rsum_le. intros k Hk. destruct (HQ k Hk) as [_ E]. destruct (Dpos k ltac:(lia)) as [_ Dk].
      change (B2R (T k j)) with (wf j k).
      assert (H := amgm (wf p k) (wf j k) (wf k k) Dk).
      replace (wf p k * wf j k / wf k k) with (wf p k / wf k k * wf j k) in H by (field; lra). rewrite Rabs_mult in H |- *.
      set (q := wf p k / wf k k) in *. assert (Q0 := Rabs_pos q). assert (W0 := Rabs_pos (wf j k)).
      assert (L : Rabs (B2R (T p k)) <= 5 / 4 * Rabs q + kapf).
      { assert (X := Rabs_triang (B2R (T p k) - q) q). replace (B2R (T p k) - q + q) with (B2R (T p k)) in X by ring.
        assert (uro * Rabs q <= / 4 * Rabs q) by (apply Rmult_le_compat_r; lra). lra. }
      apply Rle_trans with ((5 / 4 * Rabs q + kapf) * Rabs (wf j k)); [apply Rmult_le_compat_r; assumption|].
      assert (kapf * Rabs (wf j k) <= 1 * Rabs (wf j k)) by (apply Rmult_le_compat_r; lra).
      assert (W := Wj k Hk).
      assert (0 <= wf p k * wf p k / wf k k) by (apply Rmult_le_pos; [apply Rle_0_sqr|left; apply Rinv_0_lt_compat, Dk]).
      assert (0 <= wf j k * wf j k / wf k k) by (apply Rmult_le_pos; [apply Rle_0_sqr|left; apply Rinv_0_lt_compat, Dk]).
      lra.
    - rewrite rsum_plus, rsum_plus, rsum_const.
      assert (INR j * (2 * (M + kapf)) <= pow2 20 * (2 * (pow2 900 + pow2 900))) by (apply Rmult_le_compat; [apply pos_INR|lra|exact Nj|lra]).
      replace (pow2 20 * (2 * (pow2 900 + pow2 900))) with (pow2 922) in H by (replace (2 * (pow2 900 + pow2 900)) with (pow2 2 * pow2 900) by (change (pow2 2) with 4; ring); rewrite <- !bpow_plus; reflexivity).
      assert (pow2 900 <= pow2 922) by (apply bpow_le; lia).
      assert (16 * pow2 922 <= pow2 930) by (change 16 with (pow2 4); rewrite <- bpow_plus; apply bpow_le; lia).
      lra. }
  assert (P93 : pow2 930 <= pow2 1000) by (apply bpow_le; lia).
  destruct (fdot_bounded dot64 j (T p) (fun k => T k j) Hdot) as [F E].
  { lia. }
  { intros k Hk. split; [apply HQ, Hk|apply Fj, Hk]. }
  { lra. }
  apply fsub_rnd; [apply Ha; lia|exact F|].
  set (S1 := rsum j (fun k => Rabs (B2R (T p k) * B2R (T k j)))) in *.
  assert (S10 : 0 <= S1) by (apply rsum_nonneg; intros; apply Rabs_pos).
  assert (R1 : Rabs (rsum j (fun k => B2R (T p k) * B2R (T k j))) <= S1) by apply rsum_Rabs.
  assert (C1 : INR j * pow2 (-52) <= 1).
  { apply Rle_trans with (pow2 20 * pow2 (-52)); [apply Rmult_le_compat_r; [apply bpow_ge_0|exact Nj]|]. rewrite <- bpow_plus. cbn. lra. }
  assert (C2 : INR j * pow2 (-1073) <= 1).
  { apply Rle_trans with (pow2 20 * pow2 (-1073)); [apply Rmult_le_compat_r; [apply bpow_ge_0|exact Nj]|]. rewrite <- bpow_plus. change 1 with (pow2 0). apply bpow_le. lia. }
  assert (C3 : INR j * pow2 (-52) * S1 <= 1 * S1) by (apply Rmult_le_compat_r; assumption).
  set (d := dot64 j (T p) (fun k => T k j)) in *. set (e := rsum j (fun k => B2R (T p k) * B2R (T k j))) in *.
  assert (D1 : Rabs (B2R d) <= 2 * S1 + 1) by (assert (X := Rabs_triang (B2R d - e) e); replace (B2R d - e + e) with (B2R d) in X by ring; lra).
  assert (X := Rabs_triang (af p j) (- B2R d)). rewrite Rabs_Ropp in X. unfold Rminus.
  assert (Y1 : pow2 901 <= pow2 930) by (apply bpow_le; lia). assert (Y2 : pow2 900 <= pow2 930) by (apply bpow_le; lia).
  assert (Y3 : 8 * pow2 930 <= pow2 1023) by (change 8 with (pow2 3); rewrite <- bpow_plus; apply bpow_le; lia).
  cbv beta in *. lra.
Qed.
(** a rejected pivot, finite or not, comes with a vector on which the quadratic form is at most the margin *)
Theorem chol64_reject_any : Bltb fzero (T p p) = false ->
  exists x, nonzero r x /\ bf r (Am af) x x <= INR n * (INR n + 1) * pow2 (-49) * (M + kapf) * dot r x x.
Proof.
  intros Hl. destruct (row_finite p ltac:(lia)) as [F|(x & Hx & H)].
  - apply (chol64_failure dot64 Hdot a T n r Hn Hrn Ha HT M HM HM0 p eq_refl Hp F Hl).
  - exists x. split; [exact Hx|]. eapply Rle_trans; [exact H|]. apply Rmult_le_compat_r; [apply rsum_nonneg; intros; apply Rle_0_sqr|].
    assert (k0 : 0 < kapf) by apply bpow_gt_0. assert (N0 := pos_INR n).
    unfold epsf. replace (pow2 (-49)) with (8 * pow2 (-52)) by (change 8 with (pow2 3); rewrite <- bpow_plus; reflexivity).
    assert (X : 0 <= (INR n + 1) * pow2 (-52) * INR n * (M + kapf)).
    { apply Rmult_le_pos; [|lra]. apply Rmult_le_pos; [|exact N0]. apply Rmult_le_pos; [lra|apply bpow_ge_0]. }
    lra.
Qed.
End NoOverflow.
