(** Two symmetric forms, one of them positive definite, are diagonal in a common basis. *)
From Coq Require Import Reals Lra Lia Classical.
From Verif Require Import Base S_LinAlg P_LinAlg S_Det P_Det P_Mat P_Volume.
Local Open Scope R_scope.

Lemma dot_sq_nonneg n u : 0 <= dot n u u.
Proof. apply rsum_nonneg. intros; nra. Qed.
Lemma sq_le_dot n u i : (i < n)%nat -> u i * u i <= dot n u u.
Proof.
  induction n as [|n IH]; intros Hi; [lia|].
  unfold dot in *. cbn [rsum]. destruct (Nat.eq_dec i n) as [->|].
  - pose proof (dot_sq_nonneg n u). unfold dot in *. lra.
  - specialize (IH ltac:(lia)). pose proof (Rle_0_sqr (u n)) as E. unfold Rsqr in E. lra.
Qed.
Lemma nonzero_dot n u : nonzero n u -> 0 < dot n u u.
Proof. intros (i & Hi & H). pose proof (sq_le_dot n u i Hi). nra. Qed.

(** |u'Mu| <= C u'u *)
Lemma bf_bound n M : exists C, 0 < C /\ forall u, Rabs (bf n M u u) <= C * dot n u u.
Proof.
  set (C := rsum n (fun i => rsum n (fun j => Rabs (M i j)))).
  assert (HC : 0 <= C).
  { apply rsum_nonneg; intros. apply rsum_nonneg; intros. apply Rabs_pos. }
  exists (C + 1). split; [lra|]. intros u.
  apply Rle_trans with (C * dot n u u); [|pose proof (dot_sq_nonneg n u); lra].
  rewrite bf_sums. unfold C. rewrite <- rsum_scal_r.
  assert (Habs : forall k f, Rabs (rsum k f) <= rsum k (fun i => Rabs (f i))).
  { clear. intros k f. induction k as [|k IH]; cbn [rsum]; [rewrite Rabs_R0; lra|].
    eapply Rle_trans; [apply Rabs_triang|]. lra. }
  eapply Rle_trans; [apply Habs|]. apply rsum_le. intros i Hi. rewrite <- rsum_scal_r.
  eapply Rle_trans; [apply Habs|]. apply rsum_le. intros j Hj.
  replace (u i * M i j * u j) with (M i j * (u i * u j)) by ring. rewrite Rabs_mult.
  apply Rmult_le_compat_l; [apply Rabs_pos|].
  pose proof (sq_le_dot n u i Hi). pose proof (sq_le_dot n u j Hj).
  apply Rabs_le. nra.
Qed.

(** a positive definite form is at least a positive multiple of u'u *)
Lemma pd_eps n M : sym n M -> pd n M -> exists e, 0 < e /\ forall u, e * dot n u u <= bf n M u u.
Proof.
  intros Hs Hp. pose proof (det_pd n M Hs Hp) as Hd.
  destruct (det_inverse (n := n) (M := M)) as (W & HW & _); [intros E; lra|].
  destruct (bf_bound n W) as (C & HC & HB).
  exists (/ C). split; [apply Rinv_0_lt_compat; assumption|]. intros u.
  pose proof (cauchy n M u (mvr n W u) Hs (pd_psd n M Hp)) as Hc.
  assert (E : forall v, bf n M v (mvr n W u) = dot n v u).
  { intros v. unfold bf. apply dot_ext; [reflexivity|]. intros i Hi.
    rewrite <- mm_mv by assumption. rewrite (meq_mvr n _ idm) by assumption. apply idm_mv; assumption. }
  rewrite !E in Hc. specialize (HB u). pose proof (Rle_abs (bf n W u u)) as Ha.
  rewrite (dot_comm n (mvr n W u) u) in Hc. change (dot n u (mvr n W u)) with (bf n W u u) in Hc.
  pose proof (dot_sq_nonneg n u) as H0. pose proof (pd_psd n M Hp u) as H1.
  set (d := dot n u u) in *. set (w := bf n W u u) in *. set (a := bf n M u u) in *.
  assert (d <= C * a).
  { destruct (Rle_lt_or_eq_dec 0 d H0) as [Hpos|Hz]; [|rewrite <- Hz; nra].
    apply Rmult_le_reg_r with d; [assumption|]. eapply Rle_trans; [exact Hc|].
    replace (C * a * d) with (a * (C * d)) by ring. apply Rmult_le_compat_l; lra. }
  apply Rmult_le_reg_l with C; [assumption|]. rewrite <- Rmult_assoc, Rinv_r by lra. lra.
Qed.

(** M + c X *)
Definition madd (M : nat -> nat -> R) (c : R) (X : nat -> nat -> R) : nat -> nat -> R :=
  fun i j => M i j + c * X i j.
Lemma mvr_madd n M c X v i : mvr n (madd M c X) v i = mvr n M v i + c * mvr n X v i.
Proof.
  unfold mvr, dot, madd. rewrite <- rsum_scal_l, <- rsum_plus. apply rsum_ext. intros; ring.
Qed.
Lemma bf_madd n M c X u v : bf n (madd M c X) u v = bf n M u v + c * bf n X u v.
Proof.
  unfold bf. rewrite <- dot_scal_r, <- dot_plus_r. apply dot_ext; [reflexivity|].
  intros; apply mvr_madd.
Qed.
Lemma sym_madd n M c X : sym n M -> sym n X -> sym n (madd M c X).
Proof. intros HM HX i j Hi Hj. unfold madd. rewrite (HM i j), (HX i j) by assumption. reflexivity. Qed.

Lemma not_nonzero n v : ~ nonzero n v -> forall M, bf n M v v = 0.
Proof.
  intros H M. unfold bf. apply rsum_0. intros k Hk.
  destruct (Req_dec (v k) 0) as [->|E]; [ring|]. exfalso. apply H. exists k. auto.
Qed.

(** the smallest generalised eigenvalue of (M, X) *)
Lemma eigen_min n M X : (0 < n)%nat -> sym n M -> sym n X -> pd n X ->
  exists l v, nonzero n v /\ (forall u, l * bf n X u u <= bf n M u u) /\
    (forall i, (i < n)%nat -> mvr n M v i = l * mvr n X v i).
Proof.
  intros Hn HM HX HP.
  destruct (pd_eps n X HX HP) as (e & He & HE).
  destruct (bf_bound n M) as (C & HC & HB).
  destruct (bf_bound n X) as (D & HD & HBX).
  set (S := fun t => forall u, t * bf n X u u <= bf n M u u).
  set (e0 := fun i => if Nat.eqb i 0 then 1 else 0).
  assert (N0 : nonzero n e0) by (exists 0%nat; split; [assumption|unfold e0; cbn; lra]).
  assert (Hb : bound S).
  { exists (bf n M e0 e0 / bf n X e0 e0). intros t Ht. specialize (Ht e0).
    pose proof (HP e0 N0) as Hpos. apply Rmult_le_reg_r with (bf n X e0 e0); [assumption|].
    unfold Rdiv. rewrite Rmult_assoc, Rinv_l by lra. lra. }
  assert (Hne : exists t, S t).
  { exists (- (C / e)). intros u. specialize (HE u). specialize (HB u).
    pose proof (Rle_abs (- bf n M u u)) as Ha. rewrite Rabs_Ropp in Ha.
    assert (C * dot n u u <= C / e * bf n X u u); [|lra].
    replace (C * dot n u u) with (C / e * (e * dot n u u)) by (field; lra).
    apply Rmult_le_compat_l; [|assumption]. apply Rlt_le, Rdiv_lt_0_compat; assumption. }
  destruct (completeness S Hb Hne) as (l & Hub & Hlub).
  assert (Hl : S l).
  { intros u. destruct (classic (nonzero n u)) as [Hu|Hu]; [|rewrite !(not_nonzero n u) by assumption; lra].
    pose proof (HP u Hu) as Hpos. apply Rnot_lt_le. intros Hlt.
    assert (l <= bf n M u u / bf n X u u).
    { apply Hlub. intros t Ht. specialize (Ht u). apply Rmult_le_reg_r with (bf n X u u); [assumption|].
      unfold Rdiv. rewrite Rmult_assoc, Rinv_l by lra. lra. }
    assert (l * bf n X u u <= bf n M u u); [|lra].
    replace (bf n M u u) with (bf n M u u / bf n X u u * bf n X u u) by (field; lra).
    apply Rmult_le_compat_r; lra. }
  assert (Hs : sym n (madd M (- l) X)) by (apply sym_madd; assumption).
  assert (Hps : psd n (madd M (- l) X)).
  { intros u. rewrite bf_madd. specialize (Hl u). lra. }
  destruct (classic (pd n (madd M (- l) X))) as [Hpd|Hpd].
  - exfalso. destruct (pd_eps n _ Hs Hpd) as (e' & He' & HE').
    assert (S (l + e' / D)).
    { intros u. specialize (HE' u). rewrite bf_madd in HE'. specialize (HBX u).
      pose proof (Rle_abs (bf n X u u)) as Ha.
      assert (e' / D * bf n X u u <= e' * dot n u u); [|lra].
      replace (e' * dot n u u) with (e' / D * (D * dot n u u)) by (field; lra).
      apply Rmult_le_compat_l; [|lra]. apply Rlt_le, Rdiv_lt_0_compat; assumption. }
    specialize (Hub _ H). assert (0 < e' / D) by (apply Rdiv_lt_0_compat; assumption). lra.
  - apply not_all_ex_not in Hpd. destruct Hpd as (v & Hv). apply imply_to_and in Hv. destruct Hv as [Nv Hv].
    exists l, v. split; [assumption|]. split; [assumption|].
    assert (E : bf n (madd M (- l) X) v v = 0) by (pose proof (Hps v); lra).
    destruct (psd_null n _ v Hs Hps E) as [_ Hz]. intros i Hi. specialize (Hz i Hi).
    rewrite mvr_madd in Hz. lra.
Qed.

Lemma mvr_scal' n M c v i : mvr n M (fun k => c * v k) i = c * mvr n M v i.
Proof. apply mvr_scal. Qed.

(** v is a family of X-orthonormal generalised eigenvectors *)
Definition eigfam (n k : nat) (M X : nat -> nat -> R) (v : nat -> nat -> R) (l : nat -> R) : Prop :=
  (forall a b, (a < k)%nat -> (b < k)%nat -> bf n X (v a) (v b) = idm a b) /\
  (forall a i, (a < k)%nat -> (i < n)%nat -> mvr n M (v a) i = l a * mvr n X (v a) i).

(** M + sum_a (c - l_a) (X v_a) (X v_a)' *)
Fixpoint defl (n k : nat) (M X : nat -> nat -> R) (v : nat -> nat -> R) (d : nat -> R) : nat -> nat -> R :=
  match k with
  | O => M
  | S k => madd (defl n k M X v d) (d k) (fun i j => mvr n X (v k) i * mvr n X (v k) j)
  end.
Lemma mvr_outer n p q u i : mvr n (fun i j => p i * q j) u i = p i * dot n q u.
Proof. unfold mvr, dot. rewrite <- rsum_scal_l. apply rsum_ext. intros; ring. Qed.
Lemma mvr_defl n k M X v d u i : sym n X ->
  mvr n (defl n k M X v d) u i = mvr n M u i + rsum k (fun a => d a * bf n X (v a) u * mvr n X (v a) i).
Proof.
  intros HX. induction k as [|k IH]; cbn [defl rsum]; [ring|].
  rewrite mvr_madd, IH, mvr_outer. rewrite (dot_comm n _ u). change (dot n u (mvr n X (v k))) with (bf n X u (v k)).
  rewrite (bf_sym n X u (v k)) by assumption. ring.
Qed.
Lemma sym_defl n k M X v d : sym n M -> sym n (defl n k M X v d).
Proof.
  intros HM. induction k as [|k IH]; [assumption|]. apply sym_madd; [assumption|]. intros i j _ _. ring.
Qed.

Lemma eig_step n k M X v l : (k < n)%nat -> sym n M -> sym n X -> pd n X -> eigfam n k M X v l ->
  exists w lam, bf n X w w = 1 /\ (forall a, (a < k)%nat -> bf n X (v a) w = 0) /\
    (forall i, (i < n)%nat -> mvr n M w i = lam * mvr n X w i).
Proof.
  intros Hk HM HX HP [H1 H2].
  destruct (bf_bound n M) as (C & HC & HB).
  destruct (pd_eps n X HX HP) as (e & He & HE).
  set (c := C / e + 1).
  set (B := defl n k M X v (fun a => c - l a)).
  destruct (eigen_min n B X ltac:(lia) (sym_defl n k M X v _ HM) HX HP) as (lam & w & Nw & Hmin & Hev).
  assert (Bv : forall a i, (a < k)%nat -> (i < n)%nat -> mvr n B (v a) i = c * mvr n X (v a) i).
  { intros a i Ha Hi. unfold B. rewrite mvr_defl by assumption. rewrite H2 by assumption.
    rewrite (rsum_single k a).
    - rewrite H1 by assumption. unfold idm. rewrite Nat.eqb_refl. ring.
    - assumption.
    - intros b Hb Hne. rewrite H1 by assumption. unfold idm.
      destruct (Nat.eqb_spec b a); [contradiction|ring]. }
  assert (Hlam : lam < c).
  { destruct (kernel_vec (n := n) (k := k) (fun a => mvr n X (v a))) as (u & Nu & Hu); [assumption|].
    assert (Hu' : forall a, (a < k)%nat -> bf n X (v a) u = 0).
    { intros a Ha. rewrite bf_sym by assumption. unfold bf. rewrite dot_comm. exact (Hu a Ha). }
    assert (Eb : bf n B u u = bf n M u u).
    { unfold bf. apply dot_ext; [reflexivity|]. intros i Hi. unfold B. rewrite mvr_defl by assumption.
      rewrite rsum_0; [ring|]. intros a Ha. rewrite Hu' by assumption. ring. }
    specialize (Hmin u). rewrite Eb in Hmin. specialize (HB u). pose proof (Rle_abs (bf n M u u)) as Ha.
    specialize (HE u). pose proof (HP u Nu) as Hpos.
    assert (C * dot n u u <= C / e * bf n X u u).
    { replace (C * dot n u u) with (C / e * (e * dot n u u)) by (field; lra).
      apply Rmult_le_compat_l; [|assumption]. apply Rlt_le, Rdiv_lt_0_compat; assumption. }
    apply Rmult_lt_reg_r with (bf n X u u); [assumption|]. unfold c. lra. }
  assert (Hort : forall a, (a < k)%nat -> bf n X (v a) w = 0).
  { intros a Ha.
    assert (E1 : bf n B (v a) w = lam * bf n X (v a) w).
    { unfold bf. rewrite <- dot_scal_r. apply dot_ext; [reflexivity|]. intros; apply Hev; assumption. }
    assert (E2 : bf n B w (v a) = c * bf n X w (v a)).
    { unfold bf. rewrite <- dot_scal_r. apply dot_ext; [reflexivity|]. intros; apply Bv; assumption. }
    rewrite (bf_sym n B w) in E2 by (apply sym_defl; assumption).
    rewrite (bf_sym n X w) in E2 by assumption. nra. }
  assert (Hm : forall i, (i < n)%nat -> mvr n M w i = lam * mvr n X w i).
  { intros i Hi. rewrite <- Hev by assumption. unfold B. rewrite mvr_defl by assumption.
    rewrite rsum_0; [ring|]. intros a Ha. rewrite Hort by assumption. ring. }
  pose proof (HP w Nw) as Hpos. set (s := / sqrt (bf n X w w)).
  assert (Hs : s * s * bf n X w w = 1).
  { unfold s. pose proof (sqrt_lt_R0 _ Hpos) as Hq. pose proof (sqrt_sqrt (bf n X w w) ltac:(lra)) as E.
    rewrite <- E at 3. field. lra. }
  exists (fun i => s * w i), lam. split; [|split].
  - rewrite bf_scal_l, bf_scal_r. lra.
  - intros a Ha. rewrite bf_scal_r, Hort by assumption. ring.
  - intros i Hi. rewrite !mvr_scal, Hm by assumption. ring.
Qed.

Lemma eig_all n M X : sym n M -> sym n X -> pd n X ->
  forall k, (k <= n)%nat -> exists v l, eigfam n k M X v l.
Proof.
  intros HM HX HP. induction k as [|k IH]; intros Hk.
  - exists (fun _ _ => 0), (fun _ => 0). split; intros; lia.
  - destruct IH as (v & l & Hf); [lia|].
    destruct (eig_step n k M X v l ltac:(lia) HM HX HP Hf) as (w & lam & W1 & W2 & W3).
    destruct Hf as [H1 H2].
    exists (fun a => if Nat.eqb a k then w else v a), (fun a => if Nat.eqb a k then lam else l a).
    split.
    + intros a b Ha Hb. unfold idm. destruct (Nat.eqb_spec a k), (Nat.eqb_spec b k); subst.
      * rewrite Nat.eqb_refl. assumption.
      * destruct (Nat.eqb_spec k b); [lia|]. rewrite bf_sym by assumption. apply W2. lia.
      * destruct (Nat.eqb_spec a k); [lia|]. apply W2. lia.
      * apply H1; lia.
    + intros a i Ha Hi. destruct (Nat.eqb_spec a k); [apply W3; assumption|apply H2; [lia|assumption]].
Qed.

(** P' X P = I and P' M P = diag l, the columns of P being v_a *)
Theorem simdiag n M X : sym n M -> sym n X -> pd n X ->
  exists v l, (forall a b, (a < n)%nat -> (b < n)%nat -> bf n X (v a) (v b) = idm a b) /\
              (forall a b, (a < n)%nat -> (b < n)%nat -> bf n M (v a) (v b) = l a * idm a b).
Proof.
  intros HM HX HP. destruct (eig_all n M X HM HX HP n (le_n n)) as (v & l & H1 & H2).
  exists v, l. split; [assumption|]. intros a b Ha Hb. rewrite bf_sym by assumption.
  transitivity (l a * bf n X (v b) (v a)).
  - unfold bf. rewrite <- dot_scal_r. apply dot_ext; [reflexivity|]. intros; apply H2; assumption.
  - rewrite bf_sym, H1 by assumption. reflexivity.
Qed.
