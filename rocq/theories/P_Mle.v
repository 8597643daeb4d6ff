(** Convexity of log det Om + Tr(Om^-1 Y) on 2Y >= Om > 0, and the oracle. *)
From Coq Require Import Reals Lra Lia Classical.
From Verif Require Import Base M_Drivers M_Ell M_Chol M_Lmi M_Profit M_Mle S_LinAlg P_LinAlg S_Det P_Det P_Mat
  P_Volume P_Spectral S_Lmi S_Mle S_Volume P_Chol P_Chol2 P_Lmi.
Local Open Scope R_scope.

(** *** the scalar inequality *)
Lemma ln_quad x : 1 <= x -> x - 1 - (x - 1) * (x - 1) / 2 <= ln x.
Proof.
  intros Hx. destruct (Req_dec x 1) as [->|Hne]; [rewrite ln_1; lra|].
  destruct (MVT_cor2 (fun x => ln x - ((x - 1) - (x - 1) * (x - 1) * / 2)) (fun c => / c - (1 - (c - 1))) 1 x)
    as (c & Hc & Hc2); [lra| |].
  - intros c Hc. apply (derivable_pt_lim_minus ln (fun x => (x - 1) - (x - 1) * (x - 1) * / 2)).
    + apply derivable_pt_lim_ln. lra.
    + assert (D1 : derivable_pt_lim (fun x => x - 1) c (1 - 0)).
      { apply (derivable_pt_lim_minus id (fun _ => 1)); [apply derivable_pt_lim_id|apply derivable_pt_lim_const]. }
      apply (derivable_pt_lim_minus (fun x => x - 1) (fun x => (x - 1) * (x - 1) * / 2)).
      * replace 1 with (1 - 0) at 1 by ring. exact D1.
      * replace (c - 1) with (((1 - 0) * (c - 1) + (c - 1) * (1 - 0)) * / 2 + ((c - 1) * (c - 1)) * 0) at 1 by field.
        apply (derivable_pt_lim_mult (fun x => (x - 1) * (x - 1)) (fun _ => / 2)); [|apply derivable_pt_lim_const].
        apply (derivable_pt_lim_mult (fun x => x - 1) (fun x => x - 1)); exact D1.
  - cbv beta in Hc. rewrite ln_1 in Hc.
    assert (0 <= / c - (1 - (c - 1))).
    { replace (/ c - (1 - (c - 1))) with ((c - 1) * (c - 1) * / c) by (field; lra).
      assert (0 < / c) by (apply Rinv_0_lt_compat; lra).
      apply Rmult_le_pos; [apply Rle_0_sqr|lra]. }
    nra.
Qed.
Lemma ln_hyp x : 0 < x <= 1 -> (x - / x) / 2 <= ln x.
Proof.
  intros Hx. destruct (Req_dec x 1) as [->|Hne]; [rewrite ln_1, Rinv_1; lra|].
  destruct (MVT_cor2 (fun x => ln x - (x - / x) * / 2)
     (fun c => / c - (1 + / (c * c)) * / 2) x 1) as (c & Hc & Hc2); [lra| |].
  - intros c Hc. apply (derivable_pt_lim_minus ln (fun x => (x - / x) * / 2)).
    + apply derivable_pt_lim_ln. lra.
    + replace ((1 + / (c * c)) * / 2) with ((1 + / (c * c)) * / 2 + (c - / c) * 0) by ring.
      apply (derivable_pt_lim_mult (fun x => x - / x) (fun _ => / 2)); [|apply derivable_pt_lim_const].
      replace (1 + / (c * c)) with (1 - - / (c * c)) by ring.
      apply (derivable_pt_lim_minus id (fun x => / x)); [apply derivable_pt_lim_id|].
      replace (- / (c * c)) with ((0 * c - 1 * 1) / (c * c)) by (field; lra).
      apply derivable_pt_lim_ext with (f := (fct_cte 1 / id)%F).
      { intros t. unfold div_fct, fct_cte, id, Rdiv. ring. }
      replace (0 * c - 1 * 1) with (0 * id c - 1 * fct_cte 1 c) by (unfold id, fct_cte; ring).
      replace (c * c) with (Rsqr (id c)) by reflexivity.
      apply derivable_pt_lim_div; [apply derivable_pt_lim_const|apply derivable_pt_lim_id|unfold id; lra].
  - cbv beta in Hc. rewrite ln_1, Rinv_1 in Hc.
    assert (/ c - (1 + / (c * c)) * / 2 <= 0).
    { replace (/ c - (1 + / (c * c)) * / 2) with (- ((1 - / c) * (1 - / c) * / 2)) by (field; lra).
      pose proof (Rle_0_sqr (1 - / c)) as Hq. unfold Rsqr in Hq. lra. }
    assert (0 <= (- (/ c - (1 + / (c * c)) * / 2)) * (1 - x)) by (apply Rmult_le_pos; lra).
    unfold Rdiv. lra.
Qed.
Lemma mle_scalar l y : 0 < l -> 1 <= 2 * y -> l <= 2 * y ->
  0 <= ln l + y * / l - y - (l - 1) + (l - 1) * y.
Proof.
  intros Hl H1 H2.
  assert (E : y * / l - y + (l - 1) * y = y * ((l - 1) * (l - 1) * / l)) by (field; lra).
  assert (Hi : 0 < / l) by (apply Rinv_0_lt_compat; assumption).
  assert (Hs : 0 <= (l - 1) * (l - 1) * / l) by (apply Rmult_le_pos; [apply Rle_0_sqr|lra]).
  destruct (Rle_lt_dec 1 l) as [L|L].
  - pose proof (ln_quad l L) as Hq.
    assert (l / 2 * ((l - 1) * (l - 1) * / l) <= y * ((l - 1) * (l - 1) * / l)) by (apply Rmult_le_compat_r; lra).
    assert (l / 2 * ((l - 1) * (l - 1) * / l) = (l - 1) * (l - 1) / 2) by (field; lra). lra.
  - pose proof (ln_hyp l ltac:(lra)) as Hq.
    assert (1 / 2 * ((l - 1) * (l - 1) * / l) <= y * ((l - 1) * (l - 1) * / l)) by (apply Rmult_le_compat_r; lra).
    assert (1 / 2 * ((l - 1) * (l - 1) * / l) = (l - 2 + / l) / 2) by (field; lra). lra.
Qed.

(** *** matrix products and traces *)
Lemma mm_ext n A A' B B' : meq n A A' -> meq n B B' -> meq n (mm n A B) (mm n A' B').
Proof. intros HA HB i j Hi Hj. unfold mm. apply rsum_ext. intros k Hk. rewrite HA, HB by assumption. reflexivity. Qed.
Lemma mm_assoc n A B C i j : mm n (mm n A B) C i j = mm n A (mm n B C) i j.
Proof.
  unfold mm.
  rewrite (rsum_ext n _ (fun k => rsum n (fun l => A i l * B l k * C k j)))
    by (intros; rewrite rsum_scal_r; reflexivity).
  rewrite rsum_exchange. apply rsum_ext. intros k _. rewrite <- rsum_scal_l. apply rsum_ext. intros; ring.
Qed.
Lemma mm_idl n A i j : (i < n)%nat -> mm n idm A i j = A i j.
Proof. intros Hi. exact (rsum_delta n i (fun k => A k j) Hi). Qed.
Lemma mm_idr n A i j : (j < n)%nat -> mm n A idm i j = A i j.
Proof.
  intros Hj. unfold mm. rewrite (rsum_single n j).
  - unfold idm. rewrite Nat.eqb_refl. ring.
  - assumption.
  - intros k _ Hk. unfold idm. destruct (Nat.eqb_spec k j); [contradiction|ring].
Qed.
Lemma meq_sym n A B : meq n A B -> meq n B A.
Proof. intros H i j Hi Hj. symmetry. apply H; assumption. Qed.
Lemma meq_trans n A B C : meq n A B -> meq n B C -> meq n A C.
Proof. intros H1 H2 i j Hi Hj. rewrite H1, H2 by assumption. reflexivity. Qed.
(** a left and a right inverse coincide *)
Lemma inverse_unique n M V W : meq n (mm n V M) idm -> meq n (mm n M W) idm -> meq n V W.
Proof.
  intros HV HW i j Hi Hj.
  rewrite <- (mm_idr n V) by assumption.
  transitivity (mm n V (mm n M W) i j).
  - apply mm_ext; [intros a b _ _; reflexivity|apply meq_sym; assumption|assumption|assumption].
  - rewrite <- mm_assoc. transitivity (mm n idm W i j); [|apply mm_idl; assumption].
    apply mm_ext; [assumption|intros a b _ _; reflexivity|assumption|assumption].
Qed.
Lemma trace_ext n A B : meq n A B -> trace n A = trace n B.
Proof. intros H. apply rsum_ext. intros i Hi. apply H; assumption. Qed.

(** sum_a c_a v_a v_a' *)
Definition wsum (n : nat) (v : nat -> nat -> R) (c : nat -> R) : nat -> nat -> R :=
  fun i j => rsum n (fun a => c a * (v a i * v a j)).
Lemma bf_mm_wsum n v c H Y u w :
  bf n (mm n H (mm n (wsum n v c) Y)) u w = rsum n (fun b => c b * bf n H u (v b) * bf n Y (v b) w).
Proof.
  transitivity (bf n H u (mvr n (mm n (wsum n v c) Y) w)).
  { unfold bf. apply dot_ext; [reflexivity|]. intros; apply mm_mv; assumption. }
  assert (E : forall i, (i < n)%nat ->
    mvr n (mm n (wsum n v c) Y) w i = rsum n (fun b => c b * bf n Y (v b) w * v b i)).
  { intros i Hi. rewrite mm_mv by assumption. unfold mvr at 1, dot, wsum.
    rewrite (rsum_ext n _ (fun k => rsum n (fun a => c a * (v a i * v a k) * mvr n Y w k)))
      by (intros; rewrite rsum_scal_r; reflexivity).
    rewrite rsum_exchange. apply rsum_ext. intros b _. unfold bf, dot.
    rewrite (rsum_ext n _ (fun k => c b * v b i * (v b k * mvr n Y w k))) by (intros; ring).
    rewrite rsum_scal_l. ring. }
  rewrite (bf_ext n H u u _ (fun i => rsum n (fun b => c b * bf n Y (v b) w * v b i))) by auto.
  clear E. set (q := fun b => bf n Y (v b) w). change (rsum n (fun b => c b * bf n H u (v b) * bf n Y (v b) w)) with (rsum n (fun b => c b * bf n H u (v b) * q b)).
  change (fun i => rsum n (fun b => c b * bf n Y (v b) w * v b i)) with (fun i => rsum n (fun b => c b * q b * v b i)).
  clearbody q.
  rewrite bf_sums.
  rewrite (rsum_ext n _ (fun i => rsum n (fun b => rsum n (fun j => u i * H i j * (c b * q b * v b j))))).
  2:{ intros i _. rewrite rsum_exchange. apply rsum_ext. intros j _. rewrite <- rsum_scal_l. reflexivity. }
  rewrite rsum_exchange. apply rsum_ext. intros b _. rewrite bf_sums.
  rewrite (rsum_ext n _ (fun i => (c b * q b) * rsum n (fun j => u i * H i j * v b j))).
  2:{ intros i _. rewrite <- rsum_scal_l. apply rsum_ext. intros; ring. }
  rewrite rsum_scal_l. ring.
Qed.
Lemma trace_wsum n v c B : trace n (mm n (wsum n v c) B) = rsum n (fun a => c a * bf n B (v a) (v a)).
Proof.
  unfold trace, mm, wsum.
  rewrite (rsum_ext n _ (fun i => rsum n (fun a => rsum n (fun k => c a * (v a i * v a k) * B k i)))).
  2:{ intros i _. rewrite rsum_exchange. apply rsum_ext. intros k _. rewrite <- rsum_scal_r. reflexivity. }
  rewrite rsum_exchange. apply rsum_ext. intros a _. rewrite bf_sums, <- rsum_scal_l.
  rewrite rsum_exchange. apply rsum_ext. intros k _. rewrite <- rsum_scal_l. apply rsum_ext. intros; ring.
Qed.

(** if P' M P = diag l then M^-1 = P diag(1/l) P' *)
Lemma diag_inverse n M v l W : inverse n M W ->
  (forall a b, (a < n)%nat -> (b < n)%nat -> bf n M (v a) (v b) = l a * idm a b) ->
  (forall a, (a < n)%nat -> l a <> 0) ->
  meq n W (wsum n v (fun a => / l a)).
Proof.
  intros [HW1 HW2] HD Hl.
  set (Pt := fun a i => v a i). set (Pl := fun i a => / l a * v a i).
  assert (H1 : meq n (mm n Pt (mm n M Pl)) idm).
  { intros a b Ha Hb. transitivity (/ l b * bf n M (v a) (v b)).
    - unfold mm, Pt, Pl, bf, mvr, dot. rewrite <- rsum_scal_l. apply rsum_ext. intros i _.
      rewrite (rsum_ext n _ (fun k => / l b * (M i k * v b k))) by (intros; ring).
      rewrite rsum_scal_l. ring.
    - rewrite HD by assumption. unfold idm. destruct (Nat.eqb_spec a b) as [->|].
      + field. apply Hl; assumption.
      + ring. }
  apply mm_inv_comm in H1.
  assert (H2 : meq n (mm n M (wsum n v (fun a => / l a))) idm).
  { apply meq_trans with (mm n (mm n M Pl) Pt); [|assumption].
    intros i j Hi Hj. rewrite mm_assoc. apply mm_ext; auto; [intros a b _ _; reflexivity|].
    intros a b _ _. unfold wsum, mm, Pl, Pt. apply rsum_ext. intros; ring. }
  apply (inverse_unique n M); assumption.
Qed.

Lemma diag_det n M v l :
  (forall a b, (a < n)%nat -> (b < n)%nat -> bf n M (v a) (v b) = l a * idm a b) ->
  det n v * det n v * det n M = rprod n l.
Proof.
  intros HD. set (Pt := v).
  assert (E : meq n (mm n Pt (mm n M (fun i a => v a i))) (fun a b => l a * idm a b)).
  { intros a b Ha Hb. rewrite <- HD by assumption. unfold mm, Pt, bf, mvr, dot. apply rsum_ext. intros; reflexivity. }
  apply det_ext in E. rewrite !det_mm in E. change (fun i a : nat => v a i) with (fun i j => Pt j i) in E.
  clearbody Pt.
  rewrite (@det_tr n Pt) in E. rewrite (@det_upper n (fun a b => l a * idm a b)) in E.
  - transitivity (det n Pt * (det n M * det n Pt)); [ring|].
    etransitivity; [exact E|]. clear.
    assert (H : forall k, (k <= n)%nat -> rprod k (fun i => l i * idm i i) = rprod k l); [|apply H; lia].
    induction k as [|k IH]; intros Hk; [reflexivity|]. cbn [rprod]. rewrite IH by lia.
    unfold idm. rewrite Nat.eqb_refl. rewrite Rmult_1_r. reflexivity.
  - intros i j Hj _. unfold idm. destruct (Nat.eqb_spec i j); [lia|]. apply Rmult_0_r.
Qed.
Lemma ln_rprod n l : (forall a, (a < n)%nat -> 0 < l a) -> 0 < rprod n l /\ ln (rprod n l) = rsum n (fun a => ln (l a)).
Proof.
  induction n as [|n IH]; intros H; cbn [rprod rsum].
  - split; [exact Rlt_0_1|exact ln_1].
  - destruct IH as [P E]; [intros; apply H; lia|]. specialize (H n ltac:(lia)).
    split; [apply Rmult_lt_0_compat; assumption|]. etransitivity; [apply ln_mult; assumption|]. rewrite E. reflexivity.
Qed.

(** *** the tangent inequality *)
Definition mle_dir (n : nat) (W Y H : nat -> nat -> R) : R :=
  trace n (mm n W H) - trace n (mm n (mm n W H) (mm n W Y)).
Lemma psd_2 n Y M u : psd n (fun i j => 2 * Y i j - M i j) -> bf n M u u <= 2 * bf n Y u u.
Proof.
  intros H. specialize (H u).
  assert (E : bf n (fun i j => 2 * Y i j - M i j) u u = 2 * bf n Y u u - bf n M u u); [|lra].
  rewrite !bf_sums, <- rsum_scal_l, <- rsum_minus. apply rsum_ext. intros i _.
  rewrite <- rsum_scal_l, <- rsum_minus. apply rsum_ext. intros; ring.
Qed.
Theorem mle_tangent n X Z Y W V : sym n X -> sym n Z -> pd n X -> pd n Z ->
  psd n (fun i j => 2 * Y i j - X i j) -> psd n (fun i j => 2 * Y i j - Z i j) ->
  inverse n X W -> inverse n Z V ->
  ln (det n X) + trace n (mm n W Y) + mle_dir n W Y (fun i j => Z i j - X i j)
  <= ln (det n Z) + trace n (mm n V Y).
Proof.
  intros SX SZ PX PZ UX UZ IW IV.
  destruct (simdiag n Z X SZ SX PX) as (v & l & DX & DZ).
  assert (Nv : forall a, (a < n)%nat -> nonzero n (v a)).
  { intros a Ha. destruct (classic (nonzero n (v a))) as [|N]; [assumption|exfalso].
    pose proof (DX a a Ha Ha) as E. rewrite (not_nonzero n (v a) N X) in E. unfold idm in E.
    rewrite Nat.eqb_refl in E. lra. }
  assert (Haa : forall a, idm a a = 1) by (intros; unfold idm; rewrite Nat.eqb_refl; reflexivity).
  assert (Lp : forall a, (a < n)%nat -> 0 < l a).
  { intros a Ha. pose proof (PZ _ (Nv a Ha)) as P. rewrite DZ, Haa in P by assumption. lra. }
  set (H := fun i j => Z i j - X i j).
  set (y := fun a => bf n Y (v a) (v a)).
  assert (EW : meq n W (wsum n v (fun _ => 1))).
  { apply meq_trans with (wsum n v (fun _ => / 1)).
    - apply (diag_inverse n X v (fun _ => 1)); [assumption| |intros; lra].
      intros a b Ha Hb. rewrite DX by assumption. ring.
    - intros i j _ _. unfold wsum. apply rsum_ext. intros. rewrite Rinv_1. reflexivity. }
  assert (EV : meq n V (wsum n v (fun a => / l a))).
  { apply (diag_inverse n Z v l); [assumption|assumption|]. intros a Ha. specialize (Lp a Ha). lra. }
  assert (DH : forall a b, (a < n)%nat -> (b < n)%nat -> bf n H (v a) (v b) = (l a - 1) * idm a b).
  { intros a b Ha Hb. transitivity (bf n Z (v a) (v b) - bf n X (v a) (v b)).
    - rewrite !bf_sums, <- rsum_minus. apply rsum_ext. intros. rewrite <- rsum_minus. apply rsum_ext. intros; unfold H; ring.
    - rewrite DZ, DX by assumption. ring. }
  assert (T1 : trace n (mm n W Y) = rsum n y).
  { rewrite (trace_ext n _ (mm n (wsum n v (fun _ => 1)) Y)).
    - rewrite trace_wsum. apply rsum_ext. intros. unfold y. ring.
    - apply mm_ext; [assumption|intros i j _ _; reflexivity]. }
  assert (T2 : trace n (mm n V Y) = rsum n (fun a => y a * / l a)).
  { rewrite (trace_ext n _ (mm n (wsum n v (fun a => / l a)) Y)).
    - rewrite trace_wsum. apply rsum_ext. intros. unfold y. ring.
    - apply mm_ext; [assumption|intros i j _ _; reflexivity]. }
  assert (T3 : trace n (mm n W H) = rsum n (fun a => l a - 1)).
  { rewrite (trace_ext n _ (mm n (wsum n v (fun _ => 1)) H)).
    - rewrite trace_wsum. apply rsum_ext. intros a Ha. rewrite DH, Haa by assumption. ring.
    - apply mm_ext; [assumption|intros i j _ _; reflexivity]. }
  assert (T4 : trace n (mm n (mm n W H) (mm n W Y)) = rsum n (fun a => (l a - 1) * y a)).
  { rewrite (trace_ext n _ (mm n (wsum n v (fun _ => 1)) (mm n H (mm n (wsum n v (fun _ => 1)) Y)))).
    - rewrite trace_wsum. apply rsum_ext. intros a Ha. rewrite bf_mm_wsum.
      rewrite (rsum_single n a).
      + rewrite DH, Haa by assumption. unfold y. ring.
      + assumption.
      + intros b Hb Hne. rewrite DH by assumption. unfold idm. destruct (Nat.eqb_spec a b); [congruence|ring].
    - intros i j Hi Hj. rewrite mm_assoc. apply mm_ext; try assumption.
      apply mm_ext; [intros a b _ _; reflexivity|]. apply mm_ext; [assumption|intros a b _ _; reflexivity]. }
  assert (D1 : ln (det n Z) = ln (det n X) + rsum n (fun a => ln (l a))).
  { pose proof (diag_det n X v (fun _ => 1)) as E1. pose proof (diag_det n Z v l DZ) as E2.
    specialize (E1 ltac:(intros a b Ha Hb; rewrite DX by assumption; ring)).
    assert (O : forall k, rprod k (fun _ => 1) = 1).
    { clear. induction k as [|k IH]; [reflexivity|]. cbn [rprod]. rewrite IH. apply Rmult_1_r. }
    rewrite O in E1. set (p := det n v) in *.
    destruct (ln_rprod n l Lp) as [P0 <-]. rewrite <- E2.
    pose proof (det_pd n X SX PX) as PdX. pose proof (det_pd n Z SZ PZ) as PdZ.
    assert (0 < p * p) by nra.
    rewrite (ln_mult (p * p) (det n Z)) by assumption.
    assert (ln (p * p) + ln (det n X) = 0); [|lra].
    rewrite <- ln_mult by assumption. rewrite E1. apply ln_1. }
  unfold mle_dir. fold H. rewrite T1, T2, T3, T4, D1.
  assert (0 <= rsum n (fun a => ln (l a) + y a * / l a - y a - (l a - 1) + (l a - 1) * y a)).
  { apply rsum_nonneg. intros a Ha. apply mle_scalar; [apply Lp; assumption| |].
    - pose proof (psd_2 n Y X (v a) UX) as E. rewrite DX, Haa in E by assumption. exact E.
    - pose proof (psd_2 n Y Z (v a) UZ) as E. rewrite DZ, Haa in E by assumption. unfold y. lra. }
  repeat rewrite ?rsum_plus, ?rsum_minus in H0. rewrite ?rsum_plus, ?rsum_minus. lra.
Qed.

(** *** linearity of the gradient *)
Lemma mm_madd_r n W A c B i j : mm n W (madd A c B) i j = madd (mm n W A) c (mm n W B) i j.
Proof.
  unfold mm, madd. rewrite <- rsum_scal_l, <- rsum_plus. apply rsum_ext. intros; ring.
Qed.
Lemma mm_madd_l n A c B C i j : mm n (madd A c B) C i j = madd (mm n A C) c (mm n B C) i j.
Proof.
  unfold mm, madd. rewrite <- rsum_scal_l, <- rsum_plus. apply rsum_ext. intros; ring.
Qed.
Lemma trace_madd n A c B : trace n (madd A c B) = trace n A + c * trace n B.
Proof. unfold trace, madd. rewrite <- rsum_scal_l, <- rsum_plus. reflexivity. Qed.
Lemma mle_dir_madd n W Y A c B : mle_dir n W Y (madd A c B) = mle_dir n W Y A + c * mle_dir n W Y B.
Proof.
  unfold mle_dir.
  rewrite (trace_ext n (mm n W (madd A c B)) (madd (mm n W A) c (mm n W B)))
    by (intros i j _ _; apply mm_madd_r).
  rewrite (trace_ext n (mm n (mm n W (madd A c B)) (mm n W Y))
     (madd (mm n (mm n W A) (mm n W Y)) c (mm n (mm n W B) (mm n W Y)))).
  2:{ intros i j Hi Hj. rewrite <- mm_madd_l. apply mm_ext; try assumption; [|intros a b _ _; reflexivity].
      intros a b _ _. apply mm_madd_r. }
  rewrite !trace_madd. ring.
Qed.
Lemma mle_dir_ext n W Y A B : meq n A B -> mle_dir n W Y A = mle_dir n W Y B.
Proof.
  intros H. unfold mle_dir.
  assert (E : meq n (mm n W A) (mm n W B)) by (apply mm_ext; [intros a b _ _; reflexivity|assumption]).
  rewrite (trace_ext n (mm n W A) (mm n W B)) by assumption.
  rewrite (trace_ext n (mm n (mm n W A) (mm n W Y)) (mm n (mm n W B) (mm n W Y))); [reflexivity|].
  apply mm_ext; [assumption|intros a b _ _; reflexivity].
Qed.
Lemma mle_dir_zero n W Y : mle_dir n W Y (fun _ _ => 0) = 0.
Proof.
  pose proof (mle_dir_madd n W Y (fun _ _ => 0) 1 (fun _ _ => 0)) as E.
  rewrite (mle_dir_ext n W Y (madd (fun _ _ => 0) 1 (fun _ _ => 0)) (fun _ _ => 0)) in E; [lra|].
  intros i j _ _. unfold madd. ring.
Qed.
Lemma mle_dir_sum n W Y N (Fk : nat -> nat -> nat -> R) (c : nat -> R) :
  mle_dir n W Y (fun i j => rsum N (fun k => Fk k i j * c k)) = rsum N (fun k => mle_dir n W Y (Fk k) * c k).
Proof.
  induction N as [|N IH]; cbn [rsum]; [apply mle_dir_zero|].
  rewrite <- IH, (Rmult_comm (mle_dir n W Y (Fk N))), <- mle_dir_madd. apply mle_dir_ext.
  intros i j _ _. unfold madd. ring.
Qed.
Lemma mle_grad_dir Sig Y m S k : mle_grad Sig Y m S k = mle_dir m S Y (nth k Sig (fun _ _ => 0)).
Proof. unfold mle_grad, np_trace. rewrite !psum_rsum. reflexivity. Qed.
Lemma mle_grad_dot Sig Y m S z x :
  dot (length Sig) (mle_grad Sig Y m S) (fun i => z i - x i) =
  mle_dir m S Y (fun i j => lin_mat Sig z i j - lin_mat Sig x i j).
Proof.
  rewrite (mle_dir_ext m S Y _ (fun i j => rsum (length Sig) (fun k => nth k Sig (fun _ _ => 0) i j * (z k - x k)))).
  - rewrite mle_dir_sum. apply rsum_ext. intros k _. rewrite mle_grad_dir. reflexivity.
  - intros i j _ _. unfold lin_mat. rewrite <- rsum_minus. apply rsum_ext. intros; ring.
Qed.

(** *** value *)
Lemma sum_log_diag_ok m (U : nat -> nat -> R) : (forall i, (i < m)%nat -> 0 < U i i) ->
  sum_log_diag m U = Ok (rsum m (fun i => ln (U i i))).
Proof.
  induction m as [|m IH]; intros H; [reflexivity|]. cbn [sum_log_diag rsum].
  rewrite IH by (intros; apply H; lia). cbn [bind]. cbn [nlog RNumT].
  destruct (Rlt_dec 0 (U m m)) as [|N]; [reflexivity|]. exfalso. apply N, H. lia.
Qed.
(** M = U'U, U upper triangular with positive diagonal *)
Definition chol_of (m : nat) (M U : nat -> nat -> R) : Prop :=
  (forall i j, (j < i)%nat -> U i j = 0) /\ (forall i, (i < m)%nat -> 0 < U i i) /\
  (forall i j, (i < m)%nat -> (j < m)%nat -> rsum m (fun k => U k i * U k j) = M i j).
Lemma chol_of_det m M U : chol_of m M U -> det m M = det m U * det m U /\ 0 < det m U /\
  ln (det m M) = 2 * rsum m (fun i => ln (U i i)).
Proof.
  intros (H1 & H2 & H3).
  assert (E : det m M = det m U * det m U).
  { rewrite <- (@det_tr m U) at 1.
    rewrite <- det_mm. apply det_ext. intros i j Hi Hj. rewrite <- H3 by assumption. reflexivity. }
  assert (D : det m U = rprod m (fun i => U i i)).
  { apply det_upper. intros i j Hj _. apply H1. assumption. }
  destruct (ln_rprod m (fun i => U i i) H2) as [P L].
  split; [assumption|]. rewrite E, D. split; [assumption|].
  rewrite ln_mult by assumption. rewrite L. ring.
Qed.
Lemma chol_of_inverse m M U V : chol_of m M U -> inverse m U V -> inverse m M (mm m V (fun i j => V j i)).
Proof.
  intros (H1 & H2 & H3) [I1 I2].
  assert (EM : meq m M (mm m (fun i j => U j i) U)).
  { intros i j Hi Hj. rewrite <- H3 by assumption. reflexivity. }
  assert (T1 : meq m (mm m (fun i j => V j i) (fun i j => U j i)) idm).
  { intros i j Hi Hj. transitivity (mm m U V j i).
    - unfold mm. apply rsum_ext. intros; ring.
    - rewrite I1 by assumption. unfold idm. rewrite Nat.eqb_sym. reflexivity. }
  assert (L : meq m (mm m (mm m V (fun i j => V j i)) M) idm).
  { intros i j Hi Hj. rewrite mm_assoc.
    transitivity (mm m V (mm m (mm m (fun i j => V j i) (fun i j => U j i)) U) i j).
    - apply mm_ext; try assumption; [intros a b _ _; reflexivity|].
      intros a b Ha Hb. rewrite mm_assoc. apply mm_ext; try assumption. intros c d _ _; reflexivity.
    - transitivity (mm m V U i j); [|apply I2; assumption].
      apply mm_ext; try assumption; [intros a b _ _; reflexivity|].
      intros a b Ha Hb. transitivity (mm m idm U a b); [|apply mm_idl; assumption].
      apply mm_ext; try assumption. intros c d _ _; reflexivity. }
  split; [apply mm_inv_comm|]; assumption.
Qed.
Lemma neg_loglik_unique m Om Y v v' : neg_loglik m Om Y v -> neg_loglik m Om Y v' -> v = v'.
Proof.
  intros (W & IW & ->) (W' & IW' & ->). f_equal. apply trace_ext. apply mm_ext; [|intros a b _ _; reflexivity].
  apply (inverse_unique m Om); [apply IW|apply IW'].
Qed.

(** *** the oracle *)
Lemma lmi0_none_sqrt m F Q x Q' : all_sym m F -> chol_for m Q ->
  lmi0_call F (length F) Q x = Ok (Q', None) ->
  exists U, chol_sqrt Q' = Ok U /\ chol_of m (lin_mat F x) U.
Proof.
  intros HF [Hn Hse] H. unfold lmi0_call in H.
  apply bind_ok in H as ([[[] Q1] b] & Hf & H). destruct b.
  2:{ apply bind_ok in H as ([? ?] & _ & H). discriminate. }
  injection H as <-.
  assert (Hget : getter (c_n Q) (lin_mat F x) (fun _ (_ : unit) => True) (lmi0_getA F (length F) x)).
  { intros [] i j _ _ _. exists tt. unfold lmi0_getA. rewrite lin_sum_ok. auto. }
  destruct (chol_factor_spec (lin_mat F x) _ _ Q Hget tt I) as ([] & Q2 & b & Hf' & Hn2 & _ & _ & Hb).
  rewrite Hf in Hf'. injection Hf' as <- <-. destruct Hb as (Hp & _ & Hb). destruct (Hb Hse) as [HL Hd].
  rewrite Hn in *.
  destruct (chol_sqrt_spec Q1 (lin_mat F x) m Hp Hn2 HL Hd (lin_mat_sym m F x HF)) as (U & EU & H1 & H2 & H3).
  exists U. split; [assumption|]. split; [assumption|]. split; assumption.
Qed.

Theorem mle_call_spec inv m Sig Y Q Q0 x t : inverts inv -> all_sym m Sig -> sym m Y ->
  chol_for m Q -> chol_for m Q0 ->
  exists Q' Q0' g ep s, mle_call inv Sig Y m (length Sig) (Q, Q0) x t = Ok ((Q', Q0'), ((g, ep), s)) /\
    chol_for m Q' /\ chol_for m Q0' /\ 0 <= ep /\ (s <> None -> ep = 0) /\
    (forall v, s = Some v <->
       pd m (mle_upper Y Sig x) /\ pd m (lin_mat Sig x) /\ neg_loglik m (lin_mat Sig x) Y v /\ v < t) /\
    (forall z v, mle_point m Y Sig z v -> v <= match s with Some t1 => t1 | None => t end ->
       dot (length Sig) g (fun i => z i - x i) + ep <= 0) /\
    (pd m (mle_upper Y Sig x) -> pd m (lin_mat Sig x) -> forall z v, mle_point m Y Sig z v ->
       dot (length Sig) g (fun i => z i - x i) + ep <= v - match s with Some t1 => t1 | None => t end).
Proof.
  intros Hinv HF HY HQ HQ0.
  assert (H2Y : sym m (fun i j => 2 * Y i j)).
  { intros i j Hi Hj. rewrite (HY i j) by assumption. reflexivity. }
  destruct (lmi_call_spec m Sig (fun i j => 2 * Y i j) HF Q x H2Y HQ) as (Q1 & c1 & E1 & HQ1 & D1 & V1).
  destruct (lmi0_call_spec m Sig HF Q0 x HQ0) as (Q2 & c2 & E2 & HQ2 & D2 & V2).
  unfold mle_call. change (fun i j : nat => (nofZ 2 * Y i j)%num) with (fun i j => 2 * Y i j). rewrite E1. cbn [bind].
  destruct c1 as [[g1 ep1]|].
  { exists Q1, Q0, g1, ep1, None. split; [reflexivity|]. split; [assumption|]. split; [assumption|].
    destruct (V1 g1 ep1 eq_refl) as [He Hz]. split; [assumption|]. split; [congruence|]. split.
    - intros v. split; [discriminate|]. intros (Hp & _). apply D1 in Hp. discriminate.
    - split; [intros z v (Hz1 & _) _; apply Hz; exact Hz1|]. intros Hp. apply D1 in Hp. discriminate. }
  rewrite E2. cbn [bind]. destruct c2 as [[g2 ep2]|].
  { exists Q1, Q2, g2, ep2, None. split; [reflexivity|]. split; [assumption|]. split; [assumption|].
    destruct (V2 g2 ep2 eq_refl) as [He Hz]. split; [assumption|]. split; [congruence|]. split.
    - intros v. split; [discriminate|]. intros (_ & Hp & _). apply D2 in Hp. discriminate.
    - split; [intros z v (_ & Hz1 & _) _; apply Hz, pd_psd; exact Hz1|].
      intros _ Hp. apply D2 in Hp. discriminate. }
  destruct (lmi0_none_sqrt m Sig Q0 x Q2 HF HQ0 E2) as (U & EU & HU). rewrite EU. cbn [bind].
  destruct (chol_of_det m _ U HU) as (EdM & PdU & ElM).
  destruct (Hinv m U) as (V & EV & HV).
  { apply det_inverse. apply Rgt_not_eq. exact PdU. }
  rewrite EV. cbn [bind].
  set (S := matmul m V (fun i j => V j i)).
  assert (IS : inverse m (lin_mat Sig x) S) by (apply (chol_of_inverse m _ U V HU HV)).
  clearbody S.
  set (f1 := ln (det m (lin_mat Sig x)) + trace m (mm m S Y)).
  assert (Ef : mle_value Y m U S = Ok f1).
  { unfold mle_value. rewrite sum_log_diag_ok by apply HU. cbn [bind]. unfold np_trace. rewrite psum_rsum.
    unfold f1. rewrite ElM. reflexivity. }
  rewrite Ef. cbn [bind].
  assert (L : neg_loglik m (lin_mat Sig x) Y f1) by (exists S; split; [assumption|reflexivity]).
  pose proof (proj1 D1 eq_refl) as P1. pose proof (proj1 D2 eq_refl) as P2.
  assert (Cut : forall z v, mle_point m Y Sig z v ->
    f1 + dot (length Sig) (mle_grad Sig Y m S) (fun i => z i - x i) <= v).
  { intros z v (Z1 & Z2 & (W & IW & ->)). rewrite mle_grad_dot. unfold f1.
    apply mle_tangent; try assumption; try (apply lin_mat_sym; assumption).
    apply pd_psd. exact P1. }
  change (f1 - t <? nzero)%num with (Rltb (f1 - t) 0).
  destruct (Rltb (f1 - t) 0) eqn:Eb.
  - apply Rltb_true in Eb. do 5 eexists. split; [reflexivity|]. split; [assumption|]. split; [assumption|].
    change nzero with 0. split; [lra|]. split; [reflexivity|]. split.
    + intros v. split.
      * intros E. injection E as <-. repeat split; try assumption. lra.
      * intros (_ & _ & L' & _). f_equal. apply (neg_loglik_unique m (lin_mat Sig x) Y); assumption.
    + split; [intros z v Hz Hv|intros _ _ z v Hz]; specialize (Cut z v Hz); lra.
  - apply Rltb_false in Eb. do 5 eexists. split; [reflexivity|]. split; [assumption|]. split; [assumption|].
    change (f1 - t)%num with (f1 - t). split; [lra|]. split; [congruence|]. split.
    + intros v. split; [discriminate|]. intros (_ & _ & L' & Lt).
      pose proof (neg_loglik_unique m (lin_mat Sig x) Y v f1 L' L). lra.
    + split; [intros z v Hz Hv|intros _ _ z v Hz]; specialize (Cut z v Hz); lra.
Qed.

(** *** a concrete inverse, and convexity *)
Definition np_inv_spec (n : nat) (M : nat -> nat -> R) : res (nat -> nat -> R) :=
  match Req_EM_T (det n M) 0 with
  | left _ => Raise ValueError
  | right _ => Ok (mat_inv n M)
  end.
Lemma np_inv_spec_inverts : inverts np_inv_spec.
Proof.
  intros n M (W & H1 & H2). unfold np_inv_spec.
  assert (det n M * det n W = 1).
  { apply det_ext in H1. rewrite det_mm, det_idm in H1. exact H1. }
  destruct (Req_EM_T (det n M) 0) as [E|E].
  - rewrite E in H. lra.
  - exists (mat_inv n M). split; [reflexivity|]. apply mat_inv_inverse. assumption.
Qed.
(** the objective as a function *)
Definition mle_fun (n : nat) (Y : nat -> nat -> R) (Sig : list (nat -> nat -> R)) (x : nat -> R) : R :=
  ln (det n (lin_mat Sig x)) + trace n (mm n (mat_inv n (lin_mat Sig x)) Y).
Definition mle_dom (n : nat) (Y : nat -> nat -> R) (Sig : list (nat -> nat -> R)) (x : nat -> R) : Prop :=
  psd n (mle_upper Y Sig x) /\ pd n (lin_mat Sig x).
Lemma mle_fun_spec n (Y : nat -> nat -> R) Sig x : all_sym n Sig -> pd n (lin_mat Sig x) ->
  inverse n (lin_mat Sig x) (mat_inv n (lin_mat Sig x)).
Proof.
  intros HF Hp. apply mat_inv_inverse. apply Rgt_not_eq. apply det_pd; [apply lin_mat_sym|]; assumption.
Qed.
Lemma mle_point_fun n Y Sig x v : all_sym n Sig ->
  mle_point n Y Sig x v <-> mle_dom n Y Sig x /\ v = mle_fun n Y Sig x.
Proof.
  intros HF. split.
  - intros (H1 & H2 & H3). split; [split; assumption|].
    apply (neg_loglik_unique n (lin_mat Sig x) Y); [assumption|].
    exists (mat_inv n (lin_mat Sig x)). split; [apply mle_fun_spec; assumption|reflexivity].
  - intros [[H1 H2] ->]. split; [assumption|]. split; [assumption|].
    exists (mat_inv n (lin_mat Sig x)). split; [apply mle_fun_spec; assumption|reflexivity].
Qed.
Lemma lin_mat_comb Sig x y z th i j : (forall i, z i = (1 - th) * x i + th * y i) ->
  lin_mat Sig z i j = (1 - th) * lin_mat Sig x i j + th * lin_mat Sig y i j.
Proof.
  intros Ez. unfold lin_mat. rewrite <- !rsum_scal_l, <- rsum_plus. apply rsum_ext. intros k _. rewrite Ez. ring.
Qed.
Lemma bf_comb n M A B c d u : (forall i j, M i j = c * A i j + d * B i j) ->
  bf n M u u = c * bf n A u u + d * bf n B u u.
Proof.
  intros E. rewrite !bf_sums, <- !rsum_scal_l, <- rsum_plus. apply rsum_ext. intros i _.
  rewrite <- !rsum_scal_l, <- rsum_plus. apply rsum_ext. intros j _. rewrite E. ring.
Qed.
Lemma mle_dom_convex n Y Sig : convex_set (mle_dom n Y Sig).
Proof.
  intros x y z th Hth Ez [X1 X2] [Y1 Y2]. split.
  - intros u. rewrite (bf_comb n _ (mle_upper Y Sig x) (mle_upper Y Sig y) (1 - th) th).
    + specialize (X1 u). specialize (Y1 u). nra.
    + intros i j. unfold mle_upper, aff_mat. rewrite (lin_mat_comb Sig x y z th) by assumption. ring.
  - intros u Hu. rewrite (bf_comb n _ (lin_mat Sig x) (lin_mat Sig y) (1 - th) th).
    + specialize (X2 u Hu). specialize (Y2 u Hu). nra.
    + intros i j. apply lin_mat_comb. assumption.
Qed.
Lemma mle_fun_convex n Y Sig : all_sym n Sig -> convex_on (mle_dom n Y Sig) (mle_fun n Y Sig).
Proof.
  intros HF x y z th Hth Ez Hx Hy. pose proof (mle_dom_convex n Y Sig x y z th Hth Ez Hx Hy) as Hz.
  destruct Hx as [X1 X2], Hy as [Y1 Y2], Hz as [Z1 Z2].
  pose proof (mle_tangent n (lin_mat Sig z) (lin_mat Sig x) Y _ _ (lin_mat_sym n Sig z HF) (lin_mat_sym n Sig x HF)
    Z2 X2 Z1 X1 (mle_fun_spec n Y Sig z HF Z2) (mle_fun_spec n Y Sig x HF X2)) as Tx.
  pose proof (mle_tangent n (lin_mat Sig z) (lin_mat Sig y) Y _ _ (lin_mat_sym n Sig z HF) (lin_mat_sym n Sig y HF)
    Z2 Y2 Z1 Y1 (mle_fun_spec n Y Sig z HF Z2) (mle_fun_spec n Y Sig y HF Y2)) as Ty.
  fold (mle_fun n Y Sig z) in Tx, Ty. fold (mle_fun n Y Sig x) in Tx. fold (mle_fun n Y Sig y) in Ty.
  set (W := mat_inv n (lin_mat Sig z)) in *.
  assert (E : (1 - th) * mle_dir n W Y (fun i j => lin_mat Sig x i j - lin_mat Sig z i j)
            + th * mle_dir n W Y (fun i j => lin_mat Sig y i j - lin_mat Sig z i j) = 0).
  { pose proof (mle_dir_zero n W Y) as Z0.
    rewrite <- (mle_dir_ext n W Y (madd (madd (fun _ _ => 0) (1 - th) (fun i j => lin_mat Sig x i j - lin_mat Sig z i j))
       th (fun i j => lin_mat Sig y i j - lin_mat Sig z i j))) in Z0.
    - rewrite !mle_dir_madd, mle_dir_zero in Z0. lra.
    - intros i j _ _. unfold madd. rewrite (lin_mat_comb Sig x y z th) by assumption. ring. }
  nra.
Qed.
