(** Lemmas on finite sums, bilinear forms and semidefinite matrices. *)
From Coq Require Import Reals Lra Psatz.
From Verif Require Import Base S_LinAlg.
Local Open Scope R_scope.

Lemma rsum_ext n f g : (forall k, (k < n)%nat -> f k = g k) -> rsum n f = rsum n g.
Proof.
  induction n as [|n IH]; intros H; cbn; [reflexivity|].
  rewrite IH, H by (intros; try apply H; lia). reflexivity.
Qed.
Lemma rsum_plus n f g : rsum n (fun k => f k + g k) = rsum n f + rsum n g.
Proof. induction n as [|n IH]; cbn; [lra|]. rewrite IH; lra. Qed.
Lemma rsum_minus n f g : rsum n (fun k => f k - g k) = rsum n f - rsum n g.
Proof. induction n as [|n IH]; cbn; [lra|]. rewrite IH; lra. Qed.
Lemma rsum_opp n f : rsum n (fun k => - f k) = - rsum n f.
Proof. induction n as [|n IH]; cbn; [lra|]. rewrite IH; lra. Qed.
Lemma rsum_scal_l n c f : rsum n (fun k => c * f k) = c * rsum n f.
Proof. induction n as [|n IH]; cbn; [lra|]. rewrite IH; lra. Qed.
Lemma rsum_scal_r n c f : rsum n (fun k => f k * c) = rsum n f * c.
Proof. induction n as [|n IH]; cbn; [lra|]. rewrite IH; lra. Qed.
Lemma rsum_zero n : rsum n (fun _ => 0) = 0.
Proof. induction n as [|n IH]; cbn; [lra|]. rewrite IH; lra. Qed.
Lemma rsum_0 n f : (forall k, (k < n)%nat -> f k = 0) -> rsum n f = 0.
Proof. intros H. rewrite (rsum_ext n f (fun _ => 0)) by assumption. apply rsum_zero. Qed.
Lemma rsum_exchange n m (f : nat -> nat -> R) :
  rsum n (fun i => rsum m (fun j => f i j)) = rsum m (fun j => rsum n (fun i => f i j)).
Proof.
  induction n as [|n IH]; cbn.
  - symmetry; apply rsum_zero.
  - rewrite IH, <- rsum_plus. reflexivity.
Qed.
Lemma rsum_nonneg n f : (forall k, (k < n)%nat -> 0 <= f k) -> 0 <= rsum n f.
Proof.
  induction n as [|n IH]; intros H; cbn; [lra|].
  assert (0 <= rsum n f) by (apply IH; intros; apply H; lia).
  assert (0 <= f n) by (apply H; lia). lra.
Qed.
Lemma rsum_le n f g : (forall k, (k < n)%nat -> f k <= g k) -> rsum n f <= rsum n g.
Proof.
  intros H. assert (0 <= rsum n (fun k => g k - f k)).
  { apply rsum_nonneg. intros k Hk. specialize (H k Hk); lra. }
  rewrite rsum_minus in *. lra.
Qed.
(** a single selected term *)
Lemma rsum_single n i f : (i < n)%nat -> (forall k, (k < n)%nat -> k <> i -> f k = 0) ->
  rsum n f = f i.
Proof.
  induction n as [|n IH]; intros Hi H; [lia|]; cbn.
  destruct (Nat.eq_dec i n) as [->|Hne].
  - rewrite rsum_0; [lra|]. intros; apply H; lia.
  - rewrite IH by (try lia; intros; apply H; lia). rewrite (H n) by lia. lra.
Qed.
Lemma rsum_delta n i f : (i < n)%nat ->
  rsum n (fun k => (if Nat.eqb i k then 1 else 0) * f k) = f i.
Proof.
  intros Hi. rewrite (rsum_single n i); [rewrite Nat.eqb_refl; lra|assumption|].
  intros k _ Hne. destruct (Nat.eqb_spec i k); [congruence|lra].
Qed.
Lemma rsum_delta' n i f : (i < n)%nat ->
  rsum n (fun k => f k * (if Nat.eqb k i then 1 else 0)) = f i.
Proof.
  intros Hi. rewrite (rsum_single n i); [rewrite Nat.eqb_refl; lra|assumption|].
  intros k _ Hne. destruct (Nat.eqb_spec k i); [congruence|lra].
Qed.
Lemma rsum_pos_term n f i : (forall k, (k < n)%nat -> 0 <= f k) -> (i < n)%nat -> 0 < f i ->
  0 < rsum n f.
Proof.
  induction n as [|n IH]; intros H Hi Hf; [lia|]; cbn.
  assert (0 <= f n) by (apply H; lia).
  destruct (Nat.eq_dec i n) as [->|Hne].
  - assert (0 <= rsum n f) by (apply rsum_nonneg; intros; apply H; lia). lra.
  - assert (0 < rsum n f) by (apply IH; try lia; try assumption; intros; apply H; lia). lra.
Qed.
Lemma rsum_split_at n k f : (k <= n)%nat ->
  rsum n f = rsum k f + rsum (n - k) (fun i => f (k + i)%nat).
Proof.
  intros Hk. replace n with (k + (n - k))%nat at 1 by lia.
  induction (n - k)%nat as [|m IH]; cbn.
  - rewrite Nat.add_0_r; lra.
  - rewrite Nat.add_succ_r; cbn. rewrite IH; lra.
Qed.
Lemma rsum_shift n f : rsum (S n) f = f 0%nat + rsum n (fun k => f (S k)).
Proof.
  induction n as [|n IH]; [cbn; lra|].
  change (rsum (S (S n)) f) with (rsum (S n) f + f (S n)). rewrite IH. cbn. lra.
Qed.

(** *** dot *)
Lemma dot_ext n u u' v v' :
  (forall i, (i < n)%nat -> u i = u' i) -> (forall i, (i < n)%nat -> v i = v' i) ->
  dot n u v = dot n u' v'.
Proof. intros Hu Hv; apply rsum_ext; intros k Hk. rewrite Hu, Hv by assumption. reflexivity. Qed.
Lemma dot_comm n u v : dot n u v = dot n v u.
Proof. apply rsum_ext; intros; ring. Qed.
Lemma dot_plus_r n u v w : dot n u (fun i => v i + w i) = dot n u v + dot n u w.
Proof. unfold dot; rewrite <- rsum_plus; apply rsum_ext; intros; ring. Qed.
Lemma dot_minus_r n u v w : dot n u (fun i => v i - w i) = dot n u v - dot n u w.
Proof. unfold dot; rewrite <- rsum_minus; apply rsum_ext; intros; ring. Qed.
Lemma dot_scal_r n u c v : dot n u (fun i => c * v i) = c * dot n u v.
Proof. unfold dot; rewrite <- rsum_scal_l; apply rsum_ext; intros; ring. Qed.
Lemma dot_plus_l n u v w : dot n (fun i => u i + v i) w = dot n u w + dot n v w.
Proof. unfold dot; rewrite <- rsum_plus; apply rsum_ext; intros; ring. Qed.
Lemma dot_minus_l n u v w : dot n (fun i => u i - v i) w = dot n u w - dot n v w.
Proof. unfold dot; rewrite <- rsum_minus; apply rsum_ext; intros; ring. Qed.
Lemma dot_scal_l n u c v : dot n (fun i => c * u i) v = c * dot n u v.
Proof. unfold dot; rewrite <- rsum_scal_l; apply rsum_ext; intros; ring. Qed.
Lemma dot_zero_r n u : dot n u (fun _ => 0) = 0.
Proof. apply rsum_0; intros; ring. Qed.

(** *** bilinear forms *)
Lemma mvr_ext n M v v' i : (forall k, (k < n)%nat -> v k = v' k) -> mvr n M v i = mvr n M v' i.
Proof. intros H; apply dot_ext; auto. Qed.
Lemma mvr_mext n M M' v i : (i < n)%nat -> meq n M M' -> mvr n M v i = mvr n M' v i.
Proof. intros Hi H; apply dot_ext; auto. Qed.
Lemma mvr_plus n M u v i : mvr n M (fun k => u k + v k) i = mvr n M u i + mvr n M v i.
Proof. apply dot_plus_r. Qed.
Lemma mvr_scal n M c v i : mvr n M (fun k => c * v k) i = c * mvr n M v i.
Proof. apply dot_scal_r. Qed.

Lemma bf_ext n M u u' v v' :
  (forall i, (i < n)%nat -> u i = u' i) -> (forall i, (i < n)%nat -> v i = v' i) ->
  bf n M u v = bf n M u' v'.
Proof. intros Hu Hv; apply dot_ext; [assumption|]. intros i Hi; apply mvr_ext; assumption. Qed.
Lemma bf_mext n M M' u v : meq n M M' -> bf n M u v = bf n M' u v.
Proof. intros H; apply dot_ext; [reflexivity|]. intros i Hi; apply mvr_mext; assumption. Qed.
Lemma bf_plus_r n M u v w : bf n M u (fun i => v i + w i) = bf n M u v + bf n M u w.
Proof.
  unfold bf. rewrite <- dot_plus_r. apply dot_ext; [reflexivity|]; intros; apply mvr_plus.
Qed.
Lemma bf_scal_r n M u c v : bf n M u (fun i => c * v i) = c * bf n M u v.
Proof.
  unfold bf. rewrite <- dot_scal_r. apply dot_ext; [reflexivity|]; intros; apply mvr_scal.
Qed.
Lemma bf_plus_l n M u v w : bf n M (fun i => u i + v i) w = bf n M u w + bf n M v w.
Proof. apply dot_plus_l. Qed.
Lemma bf_scal_l n M c u v : bf n M (fun i => c * u i) v = c * bf n M u v.
Proof. apply dot_scal_l. Qed.
Lemma bf_sums n M u v :
  bf n M u v = rsum n (fun i => rsum n (fun j => u i * M i j * v j)).
Proof.
  unfold bf, mvr, dot. apply rsum_ext; intros i _. rewrite <- rsum_scal_l.
  apply rsum_ext; intros; ring.
Qed.
Lemma bf_sym n M u v : sym n M -> bf n M u v = bf n M v u.
Proof.
  intros H. rewrite !bf_sums, rsum_exchange. apply rsum_ext; intros i Hi.
  apply rsum_ext; intros j Hj. rewrite (H i j) by assumption. ring.
Qed.
Lemma bf_unit_l n M i v : (i < n)%nat ->
  bf n M (fun k => if Nat.eqb i k then 1 else 0) v = mvr n M v i.
Proof. intros Hi. apply (rsum_delta n i (mvr n M v) Hi). Qed.
Lemma dot_unit_l n i v : (i < n)%nat ->
  dot n (fun k => if Nat.eqb i k then 1 else 0) v = v i.
Proof. apply rsum_delta. Qed.

(** scaled rank-one subtraction *)
Lemma mvr_rank1 n M c (p q : nat -> R) v i :
  mvr n (fun i j => M i j - c * (p i * q j)) v i = mvr n M v i - c * (p i * dot n q v).
Proof.
  unfold mvr, dot.
  rewrite (rsum_ext n _ (fun k => M i k * v k - c * p i * (q k * v k))) by (intros; ring).
  rewrite rsum_minus, rsum_scal_l. ring.
Qed.
Lemma bf_rank1 n M c (p q : nat -> R) u v :
  bf n (fun i j => M i j - c * (p i * q j)) u v = bf n M u v - c * (dot n u p * dot n q v).
Proof.
  unfold bf.
  rewrite (dot_ext n u u _ (fun i => mvr n M v i - (c * dot n q v) * p i)).
  - rewrite dot_minus_r, dot_scal_r. ring.
  - reflexivity.
  - intros i Hi. rewrite mvr_rank1. ring.
Qed.
Lemma mvr_scale n M c v i : mvr n (fun i j => M i j * c) v i = c * mvr n M v i.
Proof.
  unfold mvr, dot. rewrite <- rsum_scal_l. apply rsum_ext; intros; ring.
Qed.
Lemma bf_scale n M c u v : bf n (fun i j => M i j * c) u v = c * bf n M u v.
Proof.
  unfold bf. rewrite <- dot_scal_r. apply dot_ext; [reflexivity|]. intros; apply mvr_scale.
Qed.

(** Cauchy-Schwarz for a positive semidefinite form *)
Lemma cauchy n M u v : sym n M -> psd n M ->
  bf n M u v * bf n M u v <= bf n M u u * bf n M v v.
Proof.
  intros Hs Hp.
  assert (Hq : forall s t, 0 <= s * s * bf n M u u + 2 * s * t * bf n M u v + t * t * bf n M v v).
  { intros s t. specialize (Hp (fun i => s * u i + t * v i)).
    rewrite bf_plus_r, !bf_plus_l, !bf_scal_r, !bf_scal_l in Hp.
    rewrite (bf_sym n M v u Hs) in Hp. lra. }
  set (a := bf n M u u) in *. set (b := bf n M u v) in *. set (c := bf n M v v) in *.
  assert (0 <= a) by (specialize (Hq 1 0); lra).
  assert (0 <= c) by (specialize (Hq 0 1); lra).
  destruct (Req_dec c 0) as [E|E].
  - rewrite E in *. destruct (Req_dec b 0) as [Eb|Eb]; [rewrite Eb; lra|].
    exfalso. specialize (Hq 1 (- (a + 1) / (2 * b))).
    assert (2 * 1 * (- (a + 1) / (2 * b)) * b = - (a + 1)) as E2 by (field; assumption).
    lra.
  - specialize (Hq c (- b)).
    assert (0 <= c * (a * c - b * b)) as H1 by (ring_simplify; ring_simplify in Hq; lra).
    assert (0 < c) by lra.
    assert (0 <= a * c - b * b); [|lra].
    apply Rmult_le_reg_l with c; [assumption|]. lra.
Qed.

Lemma psd_null n M v : sym n M -> psd n M -> bf n M v v = 0 ->
  (forall u, bf n M u v = 0) /\ (forall i, (i < n)%nat -> mvr n M v i = 0).
Proof.
  intros Hs Hp H0.
  assert (forall u, bf n M u v = 0) as Hu.
  { intros u. pose proof (cauchy n M u v Hs Hp) as Hc. rewrite H0 in Hc.
    assert (bf n M u v * bf n M u v = 0) by nra. nra. }
  split; [assumption|].
  intros i Hi. rewrite <- bf_unit_l by assumption. apply Hu.
Qed.

Lemma pd_psd n M : pd n M -> psd n M.
Proof.
  intros H v. destruct (Req_dec (dot n v v) 0) as [E|E].
  - assert (forall i, (i < n)%nat -> v i = 0) as Hz.
    { intros i Hi. destruct (Req_dec (v i) 0) as [|Hne]; [assumption|exfalso].
      assert (0 < dot n v v); [|lra].
      apply rsum_pos_term with i; [intros; nra|assumption|nra]. }
    unfold bf. rewrite (dot_ext n v (fun _ => 0) _ (mvr n M v)); auto.
    rewrite dot_comm, dot_zero_r. lra.
  - apply Rlt_le, H.
    destruct (Classical_Prop.classic (nonzero n v)) as [|Hn]; [assumption|exfalso].
    apply E, rsum_0. intros k Hk.
    destruct (Req_dec (v k) 0) as [->|Hne]; [ring|]. exfalso; apply Hn; exists k; auto.
Qed.

Lemma mm_mv n A B v i : (i < n)%nat -> mvr n (mm n A B) v i = mvr n A (mvr n B v) i.
Proof.
  intros Hi. unfold mvr, mm, dot.
  rewrite (rsum_ext n (fun k => rsum n (fun k0 => A i k0 * B k0 k) * v k)
             (fun k => rsum n (fun k0 => A i k0 * B k0 k * v k)))
    by (intros; rewrite rsum_scal_r; reflexivity).
  rewrite rsum_exchange. apply rsum_ext; intros k Hk.
  rewrite <- rsum_scal_l. apply rsum_ext; intros; ring.
Qed.
Lemma idm_mv n v i : (i < n)%nat -> mvr n idm v i = v i.
Proof. intros Hi. apply (rsum_delta n i v Hi). Qed.
Lemma meq_mvr n A B v i : meq n A B -> (i < n)%nat -> mvr n A v i = mvr n B v i.
Proof. intros; apply mvr_mext; assumption. Qed.
