(** Proofs about spectral_fact. *)
From Coq Require Import Reals Lra Psatz.
From Verif Require Import Base S_LinAlg P_LinAlg P_Misc P_Trig M_SpecFact S_SpecFact.
Local Open Scope R_scope.

Lemma an_grid m k t : INR t * grid m k = an m k t.
Proof. unfold grid, an, Rdiv. ring. Qed.
Lemma resp_re_an p c m k : resp_re p c (grid m k) = rsum p (fun l => c l * cos (an m k l)).
Proof. apply rsum_ext. intros l _. rewrite an_grid. reflexivity. Qed.
Lemma resp_im_an p c m k : resp_im p c (grid m k) = - rsum p (fun l => c l * sin (an m k l)).
Proof. unfold resp_im. f_equal. apply rsum_ext. intros l _. rewrite an_grid. reflexivity. Qed.

(** ** The last step: a Hermitian sequence is the transform of its real inverse transform *)
Section Inverse.
Variable n : nat.
Hypothesis Hn : (0 < n)%nat.
Let Hn' : 0 < INR n. Proof. apply lt_0_INR. exact Hn. Qed.
Variables X Y : nat -> R.
Hypothesis HX : forall k, (k < n)%nat -> X (neg n k) = X k.
Hypothesis HY : forall k, (k < n)%nat -> Y (neg n k) = - Y k.
Let h t := / INR n * rsum n (fun k => X k * cos (an n k t) - Y k * sin (an n k t)).

Lemma inverse_re j : (j < n)%nat -> rsum n (fun t => h t * cos (an n j t)) = X j.
Proof.
  intros Hj. unfold h.
  rewrite (rsum_ext n _ (fun t => / INR n * rsum n (fun k => X k * (cos (an n k t) * cos (an n j t))
                                         - Y k * (sin (an n k t) * cos (an n j t))))).
  2:{ intros t _. rewrite Rmult_assoc, <- rsum_scal_r. f_equal. apply rsum_ext. intros; ring. }
  rewrite rsum_scal_l, rsum_exchange.
  rewrite (rsum_ext n _ (fun k => INR n / 2 * (X k * dl k j + X k * dl k (neg n j)))).
  2:{ intros k Hk. rewrite rsum_minus, !rsum_scal_l, orth_cc, orth_sc by assumption. ring. }
  rewrite rsum_scal_l, rsum_plus, !dl_sum by (try apply neg_lt; assumption).
  rewrite HX by assumption. field. lra.
Qed.
Lemma inverse_im j : (j < n)%nat -> - rsum n (fun t => h t * sin (an n j t)) = Y j.
Proof.
  intros Hj. unfold h.
  rewrite (rsum_ext n _ (fun t => / INR n * rsum n (fun k => X k * (sin (an n j t) * cos (an n k t))
                                         - Y k * (sin (an n k t) * sin (an n j t))))).
  2:{ intros t _. rewrite Rmult_assoc, <- rsum_scal_r. f_equal. apply rsum_ext. intros; ring. }
  rewrite rsum_scal_l, rsum_exchange.
  rewrite (rsum_ext n _ (fun k => - (INR n / 2) * (Y k * dl k j - Y k * dl k (neg n j)))).
  2:{ intros k Hk. rewrite rsum_minus, !rsum_scal_l, orth_ss, orth_sc by assumption. ring. }
  rewrite rsum_scal_l, rsum_minus, !dl_sum by (try apply neg_lt; assumption).
  rewrite HY by assumption. field. lra.
Qed.
End Inverse.

(** ** The Hilbert transform step *)
Section Hilbert.
Variable p : nat.
Hypothesis Hp : (0 < p)%nat.
Notation m := (2 * p)%nat.
Let Hm : (0 < m)%nat. Proof. lia. Qed.
Let Hm' : 0 < INR m. Proof. apply lt_0_INR. exact Hm. Qed.

Lemma sin_half k : sin (an m p k) = 0.
Proof.
  unfold an. rewrite mult_INR. change (INR 2) with 2.
  replace (2 * PI * INR p * INR k / (2 * INR p)) with (0 + INR k * PI) by (field; apply not_0_INR; lia).
  clear. induction k as [|k IH]; [cbn; rewrite Rmult_0_l, Rplus_0_r; apply sin_0|].
  rewrite S_INR. replace (0 + (INR k + 1) * PI) with (0 + INR k * PI + PI) by ring.
  rewrite neg_sin, IH. lra.
Qed.
Lemma neg_p : neg m p = p.
Proof. rewrite neg_pos by lia. lia. Qed.

Lemma even_fold f : (forall l, (l < m)%nat -> f (neg m l) = f l) ->
  rsum m f = rsum (S p) (fun l => (if Nat.eqb l 0 then 1 else if Nat.eqb l p then 1 else 2) * f l).
Proof.
  intros Hf. rewrite (rsum_split_at m (S p)) by lia.
  destruct p as [|q] eqn:Eq; [lia|]. rewrite <- Eq in *.
  replace (m - S p)%nat with q by lia.
  rewrite (rsum_rev q). rewrite (rsum_shift p), (rsum_shift p (fun l => _ * f l)). cbn [Nat.eqb].
  rewrite (rsum_ext q _ (fun k => f (S k))).
  2:{ intros k Hk. rewrite <- (Hf (S k)) by lia. rewrite neg_pos by lia. f_equal. lia. }
  rewrite Eq. cbn [rsum]. rewrite Nat.eqb_refl.
  rewrite (rsum_ext q (fun k => (if Nat.eqb k q then 1 else 2) * f (S k)) (fun k => f (S k) + f (S k))).
  2:{ intros k Hk. destruct (Nat.eqb_spec k q); [lia|ring]. }
  rewrite rsum_plus. lra.
Qed.

Variable alpha : nat -> R.
Let At l := rsum m (fun j => alpha j * cos (an m j l)).

Section Given.
Variable c : nat -> R.
Hypothesis Hc : forall k, (k < m)%nat -> alpha k = rsum (S p) (fun l => c l * cos (an m k l)).

Lemma trunc_sum f : rsum (S p) (fun i => c i * f i) = rsum m (fun i => (if Nat.leb i p then c i else 0) * f i).
Proof.
  rewrite (rsum_split_at m (S p)) by lia.
  rewrite (rsum_0 (m - S p)).
  - rewrite Rplus_0_r. apply rsum_ext. intros i Hi. destruct (Nat.leb_spec i p); [reflexivity|lia].
  - intros i Hi. destruct (Nat.leb_spec (S p + i) p); [lia|ring].
Qed.

Lemma At_c l : (l < m)%nat ->
  At l = INR m / 2 * ((if Nat.leb l p then c l else 0) + (if Nat.leb (neg m l) p then c (neg m l) else 0)).
Proof.
  intros Hl. unfold At.
  rewrite (rsum_ext m _ (fun j => rsum m (fun i => (if Nat.leb i p then c i else 0) * (cos (an m i j) * cos (an m l j))))).
  2:{ intros j Hj. rewrite Hc, trunc_sum, <- rsum_scal_r by assumption. apply rsum_ext. intros i _.
      rewrite (an_sym m Hm j i), (an_sym m Hm j l). ring. }
  rewrite rsum_exchange.
  rewrite (rsum_ext m _ (fun i => INR m / 2 * ((if Nat.leb i p then c i else 0) * dl i l +
                                       (if Nat.leb i p then c i else 0) * dl i (neg m l)))).
  2:{ intros i Hi. rewrite rsum_scal_l, orth_cc by assumption. ring. }
  rewrite rsum_scal_l, rsum_plus, !dl_sum by (try apply neg_lt; assumption). reflexivity.
Qed.
Lemma At_im l : rsum m (fun j => alpha j * sin (an m j l)) = 0.
Proof.
  rewrite (rsum_ext m _ (fun j => rsum (S p) (fun i => c i * (sin (an m l j) * cos (an m i j))))).
  2:{ intros j Hj. rewrite Hc, <- rsum_scal_r by assumption. apply rsum_ext. intros i _.
      rewrite (an_sym m Hm j i), (an_sym m Hm j l). ring. }
  rewrite rsum_exchange. apply rsum_0. intros i _. rewrite rsum_scal_l, orth_sc by assumption. ring.
Qed.

Let u l := if Nat.eqb l p then 0 else if Nat.eqb l 0 then 0 else if andb (Nat.leb p l) (Nat.ltb l m) then - At l else At l.
Let C l := if Nat.eqb l 0 then 0 else if Nat.ltb l p then c l else 0.
Lemma u_C l : (l < m)%nat -> u l = INR m / 2 * (C l - C (neg m l)).
Proof.
  intros Hl. unfold u, C.
  destruct (Nat.eqb_spec l p) as [->|Hlp].
  { rewrite neg_p. destruct (Nat.eqb_spec p 0); [lia|]. rewrite Nat.ltb_irrefl. ring. }
  destruct (Nat.eqb_spec l 0) as [->|Hl0]; [rewrite neg_0 by assumption; cbn; ring|].
  rewrite At_c by assumption. rewrite neg_pos by lia.
  destruct (Nat.eqb_spec (m - l) 0); [lia|].
  destruct (Nat.ltb_spec l p).
  - destruct (Nat.leb_spec p l); [lia|]. cbn [andb].
    destruct (Nat.leb_spec l p); [|lia]. destruct (Nat.leb_spec (m - l) p); [lia|].
    destruct (Nat.ltb_spec (m - l) p); [lia|]. ring.
  - destruct (Nat.leb_spec p l); [|lia]. destruct (Nat.ltb_spec l m); [|lia]. cbn [andb].
    destruct (Nat.leb_spec l p); [lia|]. destruct (Nat.leb_spec (m - l) p); [|lia].
    destruct (Nat.ltb_spec (m - l) p); [|lia]. ring.
Qed.
Lemma hilbert k : / INR m * rsum m (fun l => - u l * sin (an m l k)) = - rsum (S p) (fun l => c l * sin (an m k l)).
Proof.
  rewrite (rsum_ext m _ (fun l => - (INR m / 2) * (C l * sin (an m l k) + C (neg m l) * sin (an m (neg m l) k)))).
  2:{ intros l Hl. rewrite u_C, sin_neg_idx by assumption. ring. }
  rewrite rsum_scal_l, rsum_plus.
  rewrite (rsum_neg m Hm (fun l => C l * sin (an m l k))).
  rewrite trunc_sum.
  rewrite (rsum_ext m (fun i => (if Nat.leb i p then c i else 0) * _) (fun l => C l * sin (an m l k))).
  { field. lra. }
  intros l Hl. unfold C. rewrite (an_sym m Hm k l).
  destruct (Nat.eqb_spec l 0) as [->|].
  { unfold an. cbn [INR]. replace (2 * PI * 0 * INR k / INR m) with 0 by (field; lra). rewrite sin_0. ring. }
  destruct (Nat.eq_dec l p) as [->|].
  { rewrite sin_half. ring. }
  destruct (Nat.ltb_spec l p), (Nat.leb_spec l p); try lia; ring.
Qed.
End Given.

Hypothesis Heven : forall k, (k < m)%nat -> alpha (neg m k) = alpha k.
Definition cepstrum l := (if Nat.eqb l 0 then 1 else if Nat.eqb l p then 1 else 2) * (At l / INR m).
Lemma cepstrum_ok k : (k < m)%nat -> alpha k = rsum (S p) (fun l => cepstrum l * cos (an m k l)).
Proof.
  intros Hk. unfold cepstrum.
  rewrite (rsum_ext (S p) _ (fun l => (if Nat.eqb l 0 then 1 else if Nat.eqb l p then 1 else 2) * (At l / INR m * cos (an m k l))))
    by (intros; ring).
  rewrite <- even_fold.
  2:{ intros l Hl. rewrite (an_sym m Hm k l), (an_sym m Hm k (neg m l)), cos_neg_idx by assumption. f_equal. f_equal.
      unfold At. apply rsum_ext. intros j Hj. rewrite (an_sym m Hm j l), (an_sym m Hm j (neg m l)), cos_neg_idx by assumption. reflexivity. }
  unfold At.
  rewrite (rsum_ext m _ (fun l => / INR m * rsum m (fun j => alpha j * (cos (an m j l) * cos (an m k l))))).
  2:{ intros l _. unfold Rdiv. rewrite Rmult_assoc, <- (rsum_scal_r m (/ INR m * _)), <- rsum_scal_l.
      apply rsum_ext. intros; ring. }
  rewrite rsum_scal_l, rsum_exchange.
  rewrite (rsum_ext m _ (fun j => INR m / 2 * (alpha j * dl j k + alpha j * dl j (neg m k)))).
  2:{ intros j Hj. rewrite rsum_scal_l, orth_cc by assumption. ring. }
  rewrite rsum_scal_l, rsum_plus, !dl_sum by (try apply neg_lt; assumption).
  rewrite Heven by assumption. field. lra.
Qed.
End Hilbert.

(** ** The whole function *)
Lemma ifft_re n a t : (0 < n)%nat ->
  fst (ifft n a t) = / INR n * rsum n (fun k => fst (a k) * cos (an n k t) - snd (a k) * sin (an n k t)).
Proof.
  intros Hn. unfold ifft, csum, cmul, cexp. cbn [fst snd]. rewrite Rmult_0_l, Rminus_0_r. f_equal.
  apply rsum_ext. intros k _. fold (an n k t). rewrite exp_0. ring.
Qed.
Lemma fft_re n a t : (0 < n)%nat -> fst (fft n (fun k => (a k, 0)) t) = rsum n (fun k => a k * cos (an n k t)).
Proof.
  intros Hn. unfold fft, csum, cmul, cexp. cbn [fst snd].
  apply rsum_ext. intros k _. fold (an n k t). rewrite exp_0, cos_neg. ring.
Qed.
Lemma fft_im n a t : (0 < n)%nat -> snd (fft n (fun k => (a k, 0)) t) = - rsum n (fun k => a k * sin (an n k t)).
Proof.
  intros Hn. unfold fft, csum, cmul, cexp. cbn [fst snd]. rewrite <- rsum_opp.
  apply rsum_ext. intros k _. fold (an n k t). rewrite exp_0, sin_neg. ring.
Qed.

Lemma power_sum n r w : (0 < n)%nat ->
  rsum n (fun j => match j with O => 1 | S j => 2 * cos (w * INR (1 + j)) end * r j) = power_of_autocorr n r w.
Proof.
  intros Hn. destruct n as [|n]; [lia|]. rewrite rsum_shift. unfold power_of_autocorr.
  replace (S n - 1)%nat with n by lia. rewrite <- rsum_scal_l. f_equal; [ring|].
  apply rsum_ext. intros k _. rewrite (Rmult_comm w). change (1 + k)%nat with (S k). ring.
Qed.

Lemma power_neg n r m k : (0 < m)%nat -> (k < m)%nat -> power_of_autocorr n r (grid m (neg m k)) = power_of_autocorr n r (grid m k).
Proof.
  intros Hm Hk. unfold power_of_autocorr. f_equal. f_equal. apply rsum_ext. intros t _. rewrite !an_grid, cos_neg_idx by assumption.
  reflexivity.
Qed.
Lemma resp_re_neg p c m k : (0 < m)%nat -> (k < m)%nat -> resp_re p c (grid m (neg m k)) = resp_re p c (grid m k).
Proof.
  intros Hm Hk. apply rsum_ext. intros t _. rewrite !an_grid, cos_neg_idx by assumption. reflexivity.
Qed.
Lemma resp_im_neg p c m k : (0 < m)%nat -> (k < m)%nat -> resp_im p c (grid m (neg m k)) = - resp_im p c (grid m k).
Proof.
  intros Hm Hk. unfold resp_im. f_equal. rewrite <- rsum_opp. apply rsum_ext. intros t _. rewrite !an_grid, sin_neg_idx by assumption. ring.
Qed.
Lemma grid_mult a n k : (0 < a)%nat -> (0 < n)%nat -> grid (a * n) (k * a) = grid n k.
Proof. intros Ha Hn. unfold grid. rewrite !mult_INR. field. split; apply not_0_INR; lia. Qed.

Lemma log_half x y : x <> 0 -> exp (2 * y) = Rabs x <-> y = / 2 * ln (Rabs x).
Proof.
  intros Hx. assert (0 < Rabs x) by (apply Rabs_pos_lt; exact Hx). split.
  - intros <-. rewrite ln_exp. field.
  - intros ->. replace (2 * (/ 2 * ln (Rabs x))) with (ln (Rabs x)) by field. apply exp_ln. assumption.
Qed.

Section Whole.
Variable n : nat.
Hypothesis Hn : (0 < n)%nat.
Variable r : nat -> R.
Notation m := (2 * (50 * n))%nat.
Notation p := (50 * n)%nat.
Notation Rw := (power_of_autocorr n r).
Hypothesis Hnz : forall k, (k < m)%nat -> Rw (grid m k) <> 0.
Let alpha k := / 2 * ln (Rabs (Rw (grid m k))).
Let Hp : (0 < p)%nat. Proof. lia. Qed.

Lemma alpha_log c : causal_log m (S p) c Rw <-> forall k, (k < m)%nat -> alpha k = rsum (S p) (fun l => c l * cos (an m k l)).
Proof.
  unfold causal_log, alpha. split; intros H k Hk.
  - rewrite <- resp_re_an. symmetry. apply log_half; auto.
  - apply log_half; [auto|]. rewrite resp_re_an. symmetry. auto.
Qed.
Lemma alpha_even k : (k < m)%nat -> alpha (neg m k) = alpha k.
Proof. intros Hk. unfold alpha. rewrite power_neg by (try assumption; lia). reflexivity. Qed.

Lemma causal_exists : exists c, causal_log m (S p) c Rw.
Proof. exists (cepstrum p alpha). apply alpha_log. intros k Hk. apply cepstrum_ok; try assumption. exact alpha_even. Qed.
Lemma causal_unique c c' : causal_log m (S p) c Rw -> causal_log m (S p) c' Rw -> forall l, (l < S p)%nat -> c l = c' l.
Proof.
  rewrite !alpha_log. intros H H' l Hl.
  assert (E : INR m <> 0) by (apply not_0_INR; lia).
  assert (Hlm : (l < m)%nat) by lia.
  pose proof (At_c p Hp alpha c H l Hlm) as E1. pose proof (At_c p Hp alpha c' H' l Hlm) as E2.
  apply (eq_trans (eq_sym E2)) in E1. clear E2.
  apply Rmult_eq_reg_l in E1; [|lra].
  destruct (Nat.leb_spec l p); [|lia].
  destruct (Nat.eq_dec l 0) as [->|]; [rewrite neg_0 in E1 by lia; cbn in E1; lra|].
  destruct (Nat.eq_dec l p) as [->|].
  - rewrite neg_p in E1 by assumption. rewrite Nat.leb_refl in E1. lra.
  - rewrite neg_pos in E1 by lia. destruct (Nat.leb_spec (m - l) p); [lia|lra].
Qed.

Lemma spectral_fact_spec : exists h, spectral_fact n r = Ok h /\
  forall c, causal_log m (S p) c Rw -> forall k, (k < n)%nat ->
    let a := resp_re (S p) c (grid n k) in let b := resp_im (S p) c (grid n k) in
    resp_re n h (grid n k) = exp a * cos b /\ resp_im n h (grid n k) = exp a * sin b.
Proof.
  unfold spectral_fact. destruct (Nat.eqb_spec n 0) as [|_]; [lia|].
  set (mm := (100 * n)%nat). assert (Em : mm = m) by (unfold mm; lia). clearbody mm. subst mm.
  cbv zeta. change (ndot (A := R)) with (fun n u v => rsum n (fun k => u k * v k)). cbv beta.
  assert (EW : forall k, rsum n (fun j => match j with O => 1 | S j => 2 * cos (INR k * (2 * PI / INR m) * INR (1 + j)) end * r j)
     = Rw (grid m k)).
  { intros k. rewrite power_sum by exact Hn. f_equal. unfold grid, Rdiv. ring. }
  destruct (existsb _ _) eqn:B.
  { apply existsb_exists in B as (k & Hk & B). apply in_seq in Hk. exfalso.
    apply (Hnz k); [lia|]. rewrite <- EW. unfold Req_bool in B. destruct (Req_EM_T _ _) as [E|]; [exact E|discriminate]. }
  clear B. eexists. split; [reflexivity|].
  intros c Hc k Hk.
  pose proof (proj1 (alpha_log c) Hc) as Hc'.
  set (h := fun t => fst (ifft n _ t)).
  set (X := fun k => exp (resp_re (S p) c (grid n k)) * cos (resp_im (S p) c (grid n k))).
  set (Y := fun k => exp (resp_re (S p) c (grid n k)) * sin (resp_im (S p) c (grid n k))).
  assert (Eh : forall t, h t = / INR n * rsum n (fun k => X k * cos (an n k t) - Y k * sin (an n k t))).
  { intros t. unfold h. rewrite ifft_re by exact Hn. f_equal. apply rsum_ext. intros j Hj.
    unfold cexp. cbn [fst snd]. rewrite EW.
    assert (Hjm : (j * 100 < m)%nat) by lia.
    assert (Ej : grid m (j * 100) = grid n j).
    { replace m with (100 * n)%nat by lia. apply grid_mult; lia. }
    match goal with |- context [fst (ifft m ?a ?b)] => assert (Ep : fst (ifft m a b) = resp_im (S p) c (grid n j)) end.
    { rewrite ifft_re by lia. rewrite <- Ej, resp_im_an, <- (hilbert p Hp alpha c Hc'). f_equal.
      apply rsum_ext. intros l Hl. unfold cmul. cbn [fst snd].
      assert (D : (m / 2 = p)%nat) by (rewrite Nat.mul_comm; apply Nat.div_mul; lia). rewrite D.
      assert (F1 : fst (fft m (fun k0 : nat => (/ 2 * ln (Rabs (rsum n (fun j => match j with O => 1 | S j => 2 * cos (INR k0 * (2 * PI / INR m) * INR (1 + j)) end * r j))), 0)) l)
        = rsum m (fun j => alpha j * cos (an m j l))).
      { rewrite fft_re by lia. apply rsum_ext. intros i _. rewrite EW. reflexivity. }
      assert (F2 : snd (fft m (fun k0 : nat => (/ 2 * ln (Rabs (rsum n (fun j => match j with O => 1 | S j => 2 * cos (INR k0 * (2 * PI / INR m) * INR (1 + j)) end * r j))), 0)) l)
        = 0).
      { rewrite fft_im by lia.
        rewrite (rsum_ext m _ (fun j => alpha j * sin (an m j l))) by (intros i _; rewrite EW; reflexivity).
        rewrite (At_im p Hp alpha c Hc'). ring. }
      unfold vset. destruct (Nat.eqb l p); [cbn [fst snd]; ring|]. destruct (Nat.eqb l 0); [cbn [fst snd]; ring|].
      destruct (andb _ _); unfold copp; cbn [fst snd]; rewrite F1, F2; ring. }
    rewrite Ep. fold (alpha (j * 100)). rewrite (Hc' (j * 100)%nat Hjm), <- resp_re_an, Ej. reflexivity. }
  assert (HX : forall k, (k < n)%nat -> X (neg n k) = X k).
  { intros j Hj. unfold X. rewrite resp_re_neg, resp_im_neg, cos_neg by assumption. reflexivity. }
  assert (HY : forall k, (k < n)%nat -> Y (neg n k) = - Y k).
  { intros j Hj. unfold Y. rewrite resp_re_neg, resp_im_neg, sin_neg by assumption. ring. }
  split.
  - rewrite resp_re_an. rewrite (rsum_ext n _ (fun t => / INR n * rsum n (fun k => X k * cos (an n k t) - Y k * sin (an n k t)) * cos (an n k t)))
      by (intros t _; rewrite Eh; reflexivity).
    apply (inverse_re n Hn X Y HX k Hk).
  - rewrite resp_im_an. rewrite (rsum_ext n _ (fun t => / INR n * rsum n (fun k => X k * cos (an n k t) - Y k * sin (an n k t)) * sin (an n k t)))
      by (intros t _; rewrite Eh; reflexivity).
    apply (inverse_im n Hn X Y HY k Hk).
Qed.
End Whole.

(** ** Autocorrelations with the same samples of the power spectrum *)
Lemma samples_determine n (d : nat -> R) : (0 < n)%nat ->
  (forall k, (k < n)%nat -> power_of_autocorr n d (grid n k) = 0) ->
  d 0%nat = 0 /\ forall t, (0 < t < n)%nat -> d t + d (n - t)%nat = 0.
Proof.
  intros Hn HP. assert (E0 : 0 < INR n) by (apply lt_0_INR; exact Hn).
  set (e := fun t => match t with O => d 0%nat | S _ => 2 * d t end).
  assert (HE : forall k, (k < n)%nat -> rsum n (fun t => e t * cos (an n t k)) = 0).
  { intros k Hk. rewrite <- (HP k Hk). unfold power_of_autocorr. destruct n as [|q]; [lia|].
    rewrite rsum_shift. replace (S q - 1)%nat with q by lia. rewrite <- rsum_scal_l. f_equal.
    - unfold an. change (INR 0) with 0. replace (2 * PI * 0 * INR k / INR (S q)) with 0 by (field; lra). rewrite cos_0. unfold e. ring.
    - apply rsum_ext. intros t _. rewrite an_grid, (an_sym (S q) Hn (S t) k). unfold e. ring. }
  assert (HS : forall s, (s < n)%nat -> e s + e (neg n s) = 0).
  { intros s Hs. apply Rmult_eq_reg_l with (INR n / 2); [|lra]. rewrite Rmult_0_r.
    transitivity (rsum n (fun k => rsum n (fun t => e t * cos (an n t k)) * cos (an n s k))).
    - rewrite (rsum_ext n _ (fun k => rsum n (fun t => e t * (cos (an n t k) * cos (an n s k))))).
      2:{ intros k _. rewrite <- rsum_scal_r. apply rsum_ext. intros; ring. }
      rewrite rsum_exchange.
      rewrite (rsum_ext n _ (fun t => INR n / 2 * (e t * dl t s + e t * dl t (neg n s)))).
      2:{ intros t Ht. rewrite rsum_scal_l, orth_cc by assumption. ring. }
      rewrite rsum_scal_l, rsum_plus, !dl_sum by (try apply neg_lt; assumption). reflexivity.
    - apply rsum_0. intros k Hk. rewrite HE by assumption. ring. }
  split.
  - specialize (HS 0%nat Hn). rewrite neg_0 in HS by assumption. cbn in HS. lra.
  - intros t Ht. specialize (HS t ltac:(lia)). rewrite neg_pos in HS by lia.
    destruct t as [|t]; [lia|]. destruct (n - S t)%nat as [|u] eqn:Eu; [lia|]. unfold e in HS. lra.
Qed.
Lemma power_minus n f g w : power_of_autocorr n (fun t => f t - g t) w = power_of_autocorr n f w - power_of_autocorr n g w.
Proof.
  unfold power_of_autocorr.
  rewrite (rsum_ext (n - 1) _ (fun t => f (S t) * cos (INR (S t) * w) - g (S t) * cos (INR (S t) * w))) by (intros; ring).
  rewrite rsum_minus. ring.
Qed.
