(** Property theorems about cholutil and the draft oracles (C113-C116). *)
From Coq Require Import Reals Lra Psatz.
From Verif Require Import Base M_Chol M_Ell M_Lmi M_Cholutil S_LinAlg P_LinAlg S_Lmi P_Chol P_Chol2 P_Lmi
  P_Cholutil T_Chol.
Local Open Scope R_scope.

(** the symmetric matrix of a lower triangle *)
Definition low (M : nat -> nat -> R) : nat -> nat -> R := fun i j => if (j <=? i)%nat then M i j else M j i.
Lemma low_sym n M : sym n (low M).
Proof.
  intros i j Hi Hj. unfold low. destruct (Nat.leb_spec j i), (Nat.leb_spec i j); try reflexivity; try lia.
  replace j with i by lia. reflexivity.
Qed.
Lemma low_of_sym n M : sym n M -> forall i j, (i < n)%nat -> (j < n)%nat -> low M i j = M i j.
Proof. intros H i j Hi Hj. unfold low. destruct (Nat.leb_spec j i); [reflexivity|apply H; assumption]. Qed.

(** ** C113 *)
Theorem C113_factor :
  forall (G : Type) (getA : G -> nat -> nat -> res (G * R)) (M : nat -> nat -> R) (Q : cutil R) g,
  (forall g i j, (j <= i)%nat -> (i < u_n Q)%nat -> exists g', getA g i j = Ok (g', M i j)) ->
  exists g' Q', cu_factor getA g Q = Ok (g', Q') /\ u_n Q' = u_n Q /\
    (cu_is_spd Q' = true <-> pd (u_n Q) (low M)) /\
    (cu_is_spd Q' = true ->
       (forall i, (i < u_n Q)%nat -> 0 < u_R Q' i i) /\
       forall i j, (i < u_n Q)%nat -> (j < u_n Q)%nat ->
         rsum (S (Nat.min i j)) (fun k => u_R Q' k i * u_R Q' k j) = low M i j) /\
    (cu_is_spd Q' = false ->
       (1 <= u_p Q' <= u_n Q)%nat /\ pd (u_p Q' - 1) (low M) /\ ~ pd (u_p Q') (low M)).
Proof.
  intros G getA M Q g Hg.
  assert (Hget : getter (u_n Q) (low M) (fun _ _ => True) getA).
  { intros g0 i j Hj Hi _. destruct (Hg g0 i j Hj Hi) as (g' & ->). exists g'. split; [|trivial].
    unfold low. destruct (Nat.leb_spec j i); [reflexivity|lia]. }
  destruct (cu_factor_spec (low M) _ getA Q Hget (low_sym _ _) g I) as (g' & Q' & E & En & H).
  exists g', Q'. split; [assumption|]. split; [assumption|]. unfold cu_is_spd.
  destruct H as [(Hp & _ & Hpd & HU & Hpos)|(m & Hp & Hm & _ & Hpd & Hnpd & _)]; rewrite Hp.
  - cbn [Nat.eqb]. split; [tauto|]. split; [|discriminate]. intros _. split; [assumption|].
    intros i j Hi Hj. destruct (Nat.le_ge_cases j i) as [H|H].
    + rewrite Nat.min_r by assumption. apply HU; assumption.
    + rewrite Nat.min_l by assumption. rewrite (low_sym (u_n Q)) by assumption.
      rewrite <- (HU j i) by assumption. apply rsum_ext. intros; ring.
  - cbn [Nat.eqb]. split; [|split; [discriminate|]].
    + split; [discriminate|]. intros H. exfalso. apply Hnpd. apply (pd_le (u_n Q)); [lia|assumption].
    + intros _. split; [lia|]. rewrite Nat.sub_succ, Nat.sub_0_r. auto.
Qed.
Print Assumptions C113_factor.

Theorem C113_witness :
  forall (M : nat -> nat -> R) (Q Q1 : cutil R),
  sym (u_n Q) M -> cu_factorize M Q = Ok Q1 ->
  if cu_is_spd Q1 then cu_witness Q1 = Raise AssertionError
  else exists v f, cu_witness Q1 = Ok (v, f) /\ (f = 0 \/ f = 1) /\
    0 < v (u_p Q1 - 1)%nat /\
    rsum (u_p Q1) (fun i => rsum (u_p Q1) (fun j => v i * M i j * v j)) = - f /\
    cu_sym_quad Q1 v M = - f /\
    (f = 0 <-> psd (u_p Q1) M).
Proof.
  intros M Q Q1 Hs H. unfold cu_factorize in H. apply bind_ok in H as ([[] Q1'] & Hf & H). injection H as ->.
  destruct (cu_factor_spec M (fun _ _ => True) (pure_getA M) Q (pure_getter _ _) Hs tt I)
    as (g' & Q' & E & En & H).
  rewrite Hf in E. injection E as _ <-. unfold cu_is_spd.
  destruct H as [(Hp & _)|(m & Hp & Hm & _ & Hpd & Hnpd & Hpos & Hr & v & f & Hw & Hf01 & Hf0 & Hv & Hb & Hpsd & _)].
  - rewrite Hp. cbn [Nat.eqb]. unfold cu_witness, cu_is_spd. rewrite Hp. reflexivity.
  - rewrite Hp. cbn [Nat.eqb]. exists v, f. split; [assumption|]. split; [assumption|].
    rewrite Nat.sub_succ, Nat.sub_0_r. split; [assumption|].
    split; [rewrite <- Hb, bf_sums; reflexivity|].
    split; [rewrite cu_sym_quad_R, Hp; exact Hb|].
    split.
    + intros E. apply Hpsd, Hf0, E.
    + intros Hps. specialize (Hps v). destruct Hf01 as [->| ->]; [reflexivity|lra].
Qed.
Print Assumptions C113_witness.

(** The answers agree with those of chol_ext: same decision, same order p. *)
Theorem C113_same_as_chol_ext :
  forall (M : nat -> nat -> R) (Q Q1 : cutil R) (C C1 : chol R) b,
  sym (u_n Q) M -> c_n C = u_n Q -> c_semi C = false ->
  cu_factorize M Q = Ok Q1 -> chol_factorize M C = Ok (C1, b) ->
  cu_is_spd Q1 = b /\ (b = false -> c_p C1 = (0%nat, u_p Q1)).
Proof.
  intros M Q Q1 C C1 b Hs En Hse H HC.
  assert (HsC : sym (c_n C) M) by (rewrite En; assumption).
  pose proof (chol_factorize_lead M C C1 b HsC Hse HC) as Hb. rewrite En in Hb.
  unfold cu_factorize in H. apply bind_ok in H as ([[] Q1'] & Hf & H). injection H as ->.
  destruct (cu_factor_spec M (fun _ _ => True) (pure_getA M) Q (pure_getter _ _) Hs tt I)
    as (g' & Q' & E & _ & H).
  rewrite Hf in E. injection E as _ <-. unfold cu_is_spd.
  destruct H as [(Hp & _ & Hpd & _)|(m & Hp & Hm & _ & Hpd & Hnpd & _)]; rewrite Hp; cbn [Nat.eqb].
  - destruct b; [split; [reflexivity|discriminate]|]. exfalso.
    destruct Hb as (m & _ & Hm & _ & Hn). apply Hn. apply (pd_le (u_n Q)); [lia|assumption].
  - destruct b.
    + exfalso. apply Hnpd. apply (pd_le (u_n Q)); [lia|assumption].
    + split; [reflexivity|]. intros _. destruct Hb as (m' & Hp' & Hm' & Hpd' & Hn'). rewrite Hp'. repeat f_equal.
      destruct (Nat.lt_trichotomy m m') as [Hlt|[->|Hlt]]; [|reflexivity|]; exfalso.
      * apply Hnpd. apply (pd_le m'); [lia|assumption].
      * apply Hn'. apply (pd_le m); [lia|assumption].
Qed.
Print Assumptions C113_same_as_chol_ext.

(** In any arithmetic: what earlier calls left in the object does not matter. *)
Theorem C113_history_independent :
  forall (A : Type) (N : Num A) (G : Type) (getA : G -> nat -> nat -> res (G * A)) g (Q Q' : cutil A),
  u_n Q = u_n Q' ->
  match cu_factor getA g Q with
  | Ok (g1, Q1) => exists Q1', cu_factor getA g Q' = Ok (g1, Q1') /\ cu_is_spd Q1' = cu_is_spd Q1 /\
      u_p Q1' = u_p Q1 /\ cu_witness Q1' = cu_witness Q1
  | Raise e => cu_factor getA g Q' = Raise e
  end.
Proof.
  intros A N G getA g Q Q' En. pose proof (cu_factor_agree getA g Q Q' En) as H.
  destruct (cu_factor getA g Q) as [[g1 Q1]|e]; [|assumption].
  destruct H as (Q1' & E & En1 & En1' & Ep & Ha). exists Q1'. split; [assumption|].
  split; [unfold cu_is_spd; rewrite Ep; reflexivity|]. split; [assumption|].
  apply cu_witness_agree; [assumption|]. rewrite En1. assumption.
Qed.
Print Assumptions C113_history_independent.

(** Concrete cases: a definite and an indefinite matrix. *)
Example C113_hypotheses_met :
  (exists Q1, cu_factorize (mat22 2 1 2) (cutil_init 2) = Ok Q1 /\ cu_is_spd Q1 = true) /\
  (exists Q1, sym 2 (mat22 1 2 1) /\ cu_factorize (mat22 1 2 1) (cutil_init 2) = Ok Q1 /\ cu_is_spd Q1 = false).
Proof.
  assert (H : forall M, sym 2 M -> exists Q1, cu_factorize M (cutil_init 2) = Ok Q1 /\
              ((u_p Q1 = 0%nat /\ pd 2 M) \/ (u_p Q1 <> 0%nat /\ ~ pd 2 M))).
  { intros M Hs. destruct (cu_factor_spec M (fun _ _ => True) (pure_getA M) (cutil_init 2) (pure_getter _ _) Hs tt I)
      as (g' & Q1 & E & _ & H).
    exists Q1. split; [unfold cu_factorize; rewrite E; reflexivity|].
    destruct H as [(Hp & _ & Hpd & _)|(m & Hp & Hm & _ & _ & Hn & _)]; [left|right]; split; try assumption; try lia.
    intros Hpd. apply Hn. apply (pd_le 2); [cbn in Hm; lia|assumption]. }
  split.
  - destruct (H _ (mat22_sym 2 1 2)) as (Q1 & E & [[Hp _]|[_ Hn]]); [|destruct (Hn mat22_pd)].
    exists Q1. split; [assumption|]. unfold cu_is_spd. rewrite Hp. reflexivity.
  - destruct (H _ (mat22_sym 1 2 1)) as (Q1 & E & [[_ Hn]|[Hp _]]); [destruct (mat22_not_pd Hn)|].
    exists Q1. split; [apply mat22_sym|]. split; [assumption|]. unfold cu_is_spd. apply Nat.eqb_neq. assumption.
Qed.

(** ** C114: "such that v = R^{-1} e_p is a certificate vector to make v'*A[:p,:p]*v < 0"
    (cholutil.pyx:55-57) *)
Theorem C114_certificate_strict_refuted :
  ~ (forall (M : nat -> nat -> R) (Q Q1 : cutil R) v f,
     sym (u_n Q) M -> cu_factorize M Q = Ok Q1 -> cu_witness Q1 = Ok (v, f) ->
     bf (u_p Q1) M v v < 0).
Proof.
  intros H. set (M := mat22 1 1 1).
  assert (Hs : sym (u_n (cutil_init 2)) M) by apply mat22_sym.
  assert (Hn : ~ pd 2 M).
  { intros Hp. specialize (Hp (fun i => if (i =? 0)%nat then 1 else -1)). unfold M in Hp. rewrite mat22_bf in Hp.
    cbn in Hp. assert (0 < 1 * (1 * 1) + 2 * 1 * (1 * -1) + 1 * (-1 * -1)); [|lra]. apply Hp. exists 0%nat.
    split; [lia|cbn; lra]. }
  destruct (cu_factor_spec M (fun _ _ => True) (pure_getA M) (cutil_init 2) (pure_getter _ _) Hs tt I)
    as (g' & Q1 & E & _ & [(_ & _ & Hpd & _)|(m & Hp & _ & _ & _ & _ & _ & _ & v & f & Hw & _)]);
    [destruct (Hn Hpd)|].
  assert (Hf : cu_factorize M (cutil_init 2) = Ok Q1) by (unfold cu_factorize; rewrite E; reflexivity).
  specialize (H M (cutil_init 2) Q1 v f Hs Hf Hw).
  pose proof (C113_witness M (cutil_init 2) Q1 Hs Hf) as HC. unfold cu_is_spd in HC. rewrite Hp in HC. cbn [Nat.eqb] in HC.
  destruct HC as (v' & f' & Hw' & _ & _ & Hq & _). rewrite Hw in Hw'. injection Hw' as <- <-.
  rewrite <- bf_sums in Hq.
  assert (Hps : forall u, 0 <= bf (S m) M u u).
  { intros u. assert (Hle : psd 2 M).
    { intros w. unfold M. rewrite mat22_bf. assert (0 <= (w 0%nat + w 1%nat) * (w 0%nat + w 1%nat)) by apply Rle_0_sqr. lra. }
    destruct (cu_factor_spec M (fun _ _ => True) (pure_getA M) (cutil_init 2) (pure_getter _ _) Hs tt I)
      as (g'' & Q1' & E' & _ & [(Hp' & _)|(m' & Hp' & Hm' & _)]); rewrite E in E'; injection E' as _ <-;
      [congruence|].
    assert (m' = m) as -> by lia. cbn [u_n cutil_init] in Hm'.
    pose proof (psd_blk 2 0 (S m) M u ltac:(lia) Hle) as H0. exact H0. }
  specialize (Hps v). rewrite Hp in H. lra.
Qed.
Print Assumptions C114_certificate_strict_refuted.

(** It does when the failing leading block is not singular positive semidefinite, and then the value is
    -1; when it is, the value is 0. *)
Theorem C114_certificate_strict_partial :
  forall (M : nat -> nat -> R) (Q Q1 : cutil R) v f,
  sym (u_n Q) M -> cu_factorize M Q = Ok Q1 -> cu_witness Q1 = Ok (v, f) ->
  (~ psd (u_p Q1) M -> bf (u_p Q1) M v v = -1 /\ f = 1) /\
  (psd (u_p Q1) M -> bf (u_p Q1) M v v = 0 /\ f = 0).
Proof.
  intros M Q Q1 v f Hs Hf Hw. pose proof (C113_witness M Q Q1 Hs Hf) as H.
  destruct (cu_is_spd Q1); [congruence|].
  destruct H as (v' & f' & Hw' & H01 & _ & Hb & _ & H0). rewrite Hw in Hw'. injection Hw' as <- <-.
  rewrite <- bf_sums in Hb.
  split; intros H.
  - destruct H01 as [->| ->]; [exfalso; apply H, H0; reflexivity|]. split; [exact Hb|reflexivity].
  - apply H0 in H as ->. split; [lra|reflexivity].
Qed.
Print Assumptions C114_certificate_strict_partial.
Example C114_hypotheses_met : exists Q1 v f, sym 2 (mat22 1 2 1) /\
  cu_factorize (mat22 1 2 1) (cutil_init 2) = Ok Q1 /\ cu_witness Q1 = Ok (v, f).
Proof.
  destruct C113_hypotheses_met as [_ (Q1 & Hs & E & Hb)].
  pose proof (C113_witness (mat22 1 2 1) (cutil_init 2) Q1 Hs E) as H. rewrite Hb in H.
  destruct H as (v & f & H & _). exists Q1, v, f. auto.
Qed.

(** ** C115: the drafts lmi2_oracle (0 <= F x <= U) and lmi3_oracle (B <= F x) *)
Lemma bf_sub_lin m s B F x v :
  bf m (blk (fun i j => lin_mat F x i j - B i j) s) v v =
  rsum (length F) (fun k => bf m (blk (nth k F (fun _ _ => 0)) s) v v * x k) - bf m (blk B s) v v.
Proof.
  rewrite <- bf_lin_mat. rewrite !bf_sums. rewrite <- rsum_minus. apply rsum_ext. intros i _.
  rewrite <- rsum_minus. apply rsum_ext. intros j _. unfold blk. ring.
Qed.

Theorem C115_lmi3 :
  forall m F B (Q : chol R) x,
  all_sym m F -> sym m B -> chol_for m Q ->
  exists Q' c, lmi3_call F B (length F) Q x = Ok (Q', c) /\ chol_for m Q' /\
    (c = None <-> pd m (fun i j => lin_mat F x i j - B i j)) /\
    forall g f, c = Some (g, f) -> 0 <= f /\
      forall z, psd m (fun i j => lin_mat F z i j - B i j) -> dot (length F) g (fun i => z i - x i) + f <= 0.
Proof.
  intros m F B Q x HF HB HQ.
  destruct (lmi_core m (lmi3_getA F B (length F) x) (fun i j => lin_mat F x i j - B i j) Q HQ)
    as (Q1 & b & Hf & HQ1 & Hb & Hc).
  { intros i j Hi Hj. rewrite (lin_mat_sym m F x HF i j Hi Hj), (HB i j Hi Hj). reflexivity. }
  { intros [] i j. unfold lmi3_getA. rewrite lin_sum_ok. cbn [bind nadd nopp RNum]. do 2 f_equal. ring. }
  unfold lmi3_call. rewrite Hf. cbn [bind]. destruct b.
  - exists Q1, None. split; [reflexivity|]. split; [assumption|]. split; [|discriminate].
    split; [intros _; apply Hb; reflexivity|reflexivity].
  - destruct Hc as (Q2 & ep & s & e & -> & HQ2 & Hep & Hse & Hp & Hv & Hq & Hsq); [reflexivity|].
    cbn [bind]. eexists _, _. split; [reflexivity|]. split; [assumption|]. split.
    + split; [discriminate|]. intros Hpd. apply Hb in Hpd. discriminate.
    + intros g ep' E. injection E as <- <-. split; [assumption|].
      intros z Hz. apply (psd_blk m s (e - s) _ (fun k => c_v Q2 (s + k)%nat)) in Hz; [|lia].
      rewrite bf_sub_lin in Hz, Hq. unfold dot.
      set (q := fun k => bf (e - s) (blk (nth k F (fun _ _ => 0)) s)
          (fun k => c_v Q2 (s + k)%nat) (fun k => c_v Q2 (s + k)%nat)) in *.
      rewrite (rsum_ext _ _ (fun k => q k * x k - q k * z k)).
      * rewrite rsum_minus. unfold q. cbv beta. lra.
      * intros k Hk. rewrite Hsq. change (nf F k) with (nth k F (fun _ _ => 0)). unfold q. cbn [nopp RNum]. ring.
Qed.
Print Assumptions C115_lmi3.

(** The pair is a parallel cut: every point satisfying both inequalities lies between the two
    hyperplanes. *)
Theorem C115_lmi2 :
  forall m F U (Q : chol R) x,
  all_sym m F -> sym m U -> chol_for m Q ->
  exists Q' c, lmi2_call F U (length F) Q x = Ok (Q', c) /\ chol_for m Q' /\
    (c = None <-> pd m (lin_mat F x) /\ pd m (aff_mat U F x)) /\
    forall g be, c = Some (g, be) -> exists f fj, be = BArr [f; fj] /\ 0 <= f /\
      forall z, psd m (lin_mat F z) -> psd m (aff_mat U F z) ->
        dot (length F) g (fun i => z i - x i) + f <= 0 <= dot (length F) g (fun i => z i - x i) + fj.
Proof.
  intros m F U Q x HF HU HQ.
  destruct (lmi_core m (lmi_getA F U (length F) x) (aff_mat U F x) Q HQ (aff_mat_sym m U F x HU HF))
    as (Q1 & b & Hf & HQ1 & Hb & Hc).
  { intros [] i j. unfold lmi_getA. rewrite lin_sum_ok. reflexivity. }
  unfold lmi2_call. rewrite Hf. cbn [bind]. destruct b; cbn [negb].
  - destruct (lmi_core m (lmi0_getA F (length F) x) (lin_mat F x) Q1 HQ1 (lin_mat_sym m F x HF))
      as (Q3 & b & Hf3 & HQ3 & Hb3 & Hc3).
    { intros [] i j. unfold lmi0_getA. rewrite lin_sum_ok. reflexivity. }
    rewrite Hf3. cbn [bind]. destruct b; cbn [negb].
    + exists Q3, None. split; [reflexivity|]. split; [assumption|]. split; [|discriminate].
      split; [intros _; split; [apply Hb3|apply Hb]; reflexivity|reflexivity].
    + destruct Hc3 as (Q4 & ep & s & e & -> & HQ4 & Hep & Hse & Hp & Hv & Hq & Hsq); [reflexivity|].
      cbn [bind]. eexists _, _. split; [reflexivity|]. split; [assumption|]. split.
      * split; [discriminate|]. intros [Hpd _]. apply Hb3 in Hpd. discriminate.
      * intros g be E. injection E as <- <-. eexists _, _. split; [reflexivity|]. split; [assumption|].
        intros z Hz1 Hz2. apply (psd_blk m s (e - s) _ (fun k => c_v Q4 (s + k)%nat)) in Hz1; [|lia].
        apply (psd_blk m s (e - s) _ (fun k => c_v Q4 (s + k)%nat)) in Hz2; [|lia].
        rewrite bf_aff_mat in Hz2. rewrite bf_lin_mat in Hz1, Hq. rewrite (Hsq U). cbn [nadd RNum]. unfold dot.
        set (q := fun k => bf (e - s) (blk (nth k F (fun _ _ => 0)) s)
          (fun k => c_v Q4 (s + k)%nat) (fun k => c_v Q4 (s + k)%nat)) in *.
        rewrite (rsum_ext _ _ (fun k => q k * x k - q k * z k)).
        -- rewrite rsum_minus. unfold q. cbv beta. lra.
        -- intros k Hk. rewrite Hsq. change (nf F k) with (nth k F (fun _ _ => 0)). unfold q. cbn [nopp RNum]. ring.
  - destruct Hc as (Q2 & ep & s & e & -> & HQ2 & Hep & Hse & Hp & Hv & Hq & Hsq); [reflexivity|].
    cbn [bind]. eexists _, _. split; [reflexivity|]. split; [assumption|]. split.
    + split; [discriminate|]. intros [_ Hpd]. apply Hb in Hpd. discriminate.
    + intros g be E. injection E as <- <-. eexists _, _. split; [reflexivity|]. split; [assumption|].
      intros z Hz1 Hz2. apply (psd_blk m s (e - s) _ (fun k => c_v Q2 (s + k)%nat)) in Hz1; [|lia].
        apply (psd_blk m s (e - s) _ (fun k => c_v Q2 (s + k)%nat)) in Hz2; [|lia].
      rewrite bf_aff_mat in Hz2, Hq. rewrite bf_lin_mat in Hz1. rewrite (Hsq U). cbn [nadd RNum]. unfold dot.
      set (q := fun k => bf (e - s) (blk (nth k F (fun _ _ => 0)) s)
          (fun k => c_v Q2 (s + k)%nat) (fun k => c_v Q2 (s + k)%nat)) in *.
      rewrite (rsum_ext _ _ (fun k => q k * z k - q k * x k)).
      * rewrite rsum_minus. unfold q. cbv beta. lra.
      * intros k Hk. rewrite Hsq. change (nf F k) with (nth k F (fun _ _ => 0)). unfold q. ring.
Qed.
Print Assumptions C115_lmi2.
Example C115_hypotheses_met :
  all_sym 2 [mat22 1 0 1] /\ sym 2 (mat22 2 1 2) /\ chol_for 2 (chol_init 2) /\
  psd 2 (lin_mat [mat22 1 0 1] (fun _ => 1)) /\ psd 2 (aff_mat (mat22 2 1 2) [mat22 1 0 1] (fun _ => 1)).
Proof.
  split; [intros M [<-|[]]; apply mat22_sym|]. split; [apply mat22_sym|]. split; [split; reflexivity|].
  assert (E1 : forall v, bf 2 (lin_mat [mat22 1 0 1] (fun _ => 1)) v v = v 0%nat * v 0%nat + v 1%nat * v 1%nat).
  { intros v. unfold bf, dot, mvr, dot, lin_mat, mat22; cbn. ring. }
  assert (E2 : forall v, bf 2 (aff_mat (mat22 2 1 2) [mat22 1 0 1] (fun _ => 1)) v v =
     (v 0%nat + v 1%nat) * (v 0%nat + v 1%nat)).
  { intros v. unfold bf, dot, mvr, dot, aff_mat, lin_mat, mat22; cbn. ring. }
  split; intros v; [rewrite E1|rewrite E2]; [|apply Rle_0_sqr].
  assert (0 <= v 0%nat * v 0%nat) by apply Rle_0_sqr. assert (0 <= v 1%nat * v 1%nat) by apply Rle_0_sqr. lra.
Qed.

(** ** C116: the draft qmi_c_oracle never accepts a point *)
(** t I - F(x) F(x)' for n x n matrices *)
Definition qmic_mat (n : nat) (F0 : nat -> nat -> R) (F : list (nat -> nat -> R)) (t : R) (x : nat -> R)
  : nat -> nat -> R := fun i j =>
  (if Nat.eqb i j then t else 0) - rsum n (fun c => aff_mat F0 F x i c * aff_mat F0 F x j c).
Definition trm (M : nat -> nat -> R) : nat -> nat -> R := fun i j => M j i.
Lemma nf_trm F k i j : nth k (map trm F) (fun _ _ => 0) i j = nth k F (fun _ _ => 0) j i.
Proof. change (fun _ _ : nat => 0) with (trm (fun _ _ => 0)) at 1. rewrite map_nth. reflexivity. Qed.
Lemma aff_trm F0 F x i j : aff_mat (trm F0) (map trm F) x i j = aff_mat F0 F x j i.
Proof.
  unfold aff_mat, lin_mat, trm at 1. f_equal. rewrite map_length. apply rsum_ext. intros k _.
  rewrite nf_trm. reflexivity.
Qed.
Lemma qmic_mat_tr n F0 F t x i j : qmic_mat n F0 F t x i j = qmi_mat n (trm F0) (map trm F) t x i j.
Proof.
  unfold qmic_mat, qmi_mat. f_equal. apply rsum_ext. intros c _. rewrite !aff_trm. reflexivity.
Qed.
Definition qmic_cache (F : list (nat -> nat -> R)) F0 t x (k : nat) (q : qmi R) : Prop :=
  q_t q = Some t /\ q_count q = k /\ forall i c, (i < k)%nat -> q_Fx q i c = aff_mat F0 F x i c.
Lemma qmic_getter n F F0 t x :
  getter n (qmic_mat n F0 F t x) (qmic_cache F F0 t x) (qmic_getA F F0 n (length F) x).
Proof.
  intros q i j Hj Hi Hq. unfold qmic_getA.
  destruct (Nat.ltb_spec i j); [lia|].
  assert (exists q1, (if (q_count q <? i + 1)%nat then
             if (length F <=? length F)%nat
             then Ok (mk_qmi (q_t q) (i + 1)
                        (rowset (q_Fx q) i
                           (fun c => nsub (F0 i c) (psum (length F) (fun k => nmul (nf F k i c) (x k))))))
             else Raise IndexError
           else Ok q) = Ok q1 /\ qmic_cache F F0 t x (S i) q1) as (q1 & -> & Hc).
  { destruct Hq as [(Ht & Hc & Hr)|(Ht & Hc & Hr)]; rewrite Hc.
    - destruct (Nat.ltb_spec i (i + 1)); [|lia]. rewrite Nat.leb_refl. eexists. split; [reflexivity|].
      split; [assumption|]. split; [cbn; lia|]. intros a r Ha. cbn [q_Fx]. unfold rowset.
      destruct (Nat.eqb_spec a i) as [->|Hne].
      + rewrite psum_rsum. reflexivity.
      + apply Hr. lia.
    - destruct (Nat.ltb_spec (S i) (i + 1)); [lia|]. eexists. split; [reflexivity|].
      split; [assumption|]. split; [assumption|assumption]. }
  cbn [bind]. destruct Hc as (Ht & Hcn & Hr). rewrite Ht.
  assert (Ed : ndot n (q_Fx q1 i) (q_Fx q1 j) =
               rsum n (fun c => aff_mat F0 F x i c * aff_mat F0 F x j c)).
  { cbn [ndot RNum]. apply rsum_ext. intros r _. rewrite !Hr by lia. reflexivity. }
  rewrite Ed. unfold qmic_mat.
  destruct (Nat.eqb_spec i j); (eexists; split; [|split; [exact Ht|split; assumption]]);
    f_equal; f_equal; cbn; ring.
Qed.
Lemma qmic_mat_sym m n F0 F t x : sym m (qmic_mat n F0 F t x).
Proof.
  intros i j _ _. unfold qmic_mat. rewrite (Nat.eqb_sym j i). f_equal. apply rsum_ext. intros; ring.
Qed.

Lemma qmic_call_core :
  forall n F F0 (q : qmi R) (Q : cutil R) x t,
  q_t q = Some t -> u_n Q = n ->
  (pd n (qmic_mat n F0 F t x) -> qmic_call F F0 n (length F) q Q x = Raise AssertionError) /\
  (~ pd n (qmic_mat n F0 F t x) -> exists q' Q' g f,
     qmic_call F F0 n (length F) q Q x = Ok (q', Q', Some (g, f)) /\ q_t q' = Some t /\ u_n Q' = n /\
     (f = 0 \/ f = 1) /\ exists v, cu_witness Q' = Ok (v, f) /\ (u_p Q' <= n)%nat /\
     forall z, dot (length F) g (fun i => z i - x i) + f <= - bf (u_p Q') (qmic_mat n F0 F t z) v v).
Proof.
  intros n F F0 q Q x t Ht Hn.
  pose proof (qmic_getter n F F0 t x) as Hget. rewrite <- Hn in Hget at 1.
  destruct (cu_factor_spec _ _ _ Q Hget (qmic_mat_sym _ _ _ _ _ _) (mk_qmi (q_t q) 0 (q_Fx q)))
    as (q1 & Q1 & E & En & H).
  { split; [exact Ht|]. split; [reflexivity|]. intros; lia. }
  unfold qmic_call. rewrite E. cbn [bind]. rewrite Hn in *.
  destruct H as [(Hp & _ & Hpd & _)|(m & Hp & Hm & (Ht1 & _ & Hr) & Hpdm & Hnpd & _ & _ & v & f & Hw & H01 & _ & _ & Hb & _ & _)].
  - split; [|contradiction]. intros _. unfold cu_witness, cu_is_spd. rewrite Hp. reflexivity.
  - split. { intros Hpd. exfalso. apply Hnpd. apply (pd_le n); [lia|assumption]. }
    intros _. rewrite Hw. cbn [bind]. eexists q1, Q1, _, f. split; [reflexivity|]. split; [assumption|].
    split; [assumption|]. split; [assumption|]. exists v. split; [assumption|]. split; [lia|].
    intros z. rewrite Hp. remember (bf (S m) (qmic_mat n F0 F t z) v v) as b eqn:Hz.
    assert (Eb : forall y, bf (S m) (qmic_mat n F0 F t y) v v =
              bf (S m) (blk (qmi_mat n (trm F0) (map trm F) t y) 0) v v).
    { intros y. rewrite !bf_sums. apply rsum_ext. intros i _. apply rsum_ext. intros j _.
      unfold blk. cbn [Nat.add]. rewrite qmic_mat_tr. reflexivity. }
    rewrite Eb, bf_qmi_mat in Hz, Hb.
    set (a := fun r => Fv 0 (S m) (aff_mat (trm F0) (map trm F) x) v r) in *.
    set (fk := fun k r => Fv 0 (S m) (nth k (map trm F) (fun _ _ => 0)) v r).
    set (d := fun r => rsum (length F) (fun k => fk k r * (z k - x k))).
    assert (Hzr : forall r, Fv 0 (S m) (aff_mat (trm F0) (map trm F) z) v r = a r - d r).
    { intros r. unfold a, d. rewrite !Fv_aff. rewrite map_length.
      rewrite (rsum_ext (length F) (fun k => fk k r * (z k - x k)) (fun k => fk k r * z k - fk k r * x k))
        by (intros; ring).
      rewrite rsum_minus. unfold fk. ring. }
    rewrite (rsum_ext n (fun r => Fv 0 (S m) (aff_mat (trm F0) (map trm F) z) v r * Fv 0 (S m) (aff_mat (trm F0) (map trm F) z) v r)
             (fun r => (a r - d r) * (a r - d r))) in Hz by (intros; rewrite !Hzr; reflexivity).
    pose proof (sq_lower n a d) as Hsq.
    assert (Hgz : dot (length F) (fun k => nmul (nofZ (-2)) (ndot n (fun c => ndot (S m) v (fun r => nf F k r c))
              (fun c => ndot (S m) v (fun r => q_Fx q1 r c)))) (fun i => z i - x i) = - 2 * rsum n (fun r => a r * d r)).
    { unfold dot. change (@nofZ R RNum (-2)) with (-2). cbn [nmul ndot RNum].
      rewrite (rsum_ext (length F) _ (fun k => -2 * (rsum n (fun r => a r * (fk k r * (z k - x k)))))).
      - rewrite rsum_scal_l. f_equal. rewrite rsum_exchange. apply rsum_ext. intros r _.
        unfold d. rewrite <- rsum_scal_l. reflexivity.
      - intros k Hk. rewrite Rmult_assoc, <- rsum_scal_r. f_equal. apply rsum_ext. intros r Hr'.
        rewrite (rsum_ext (S m) (fun k0 => v k0 * nf F k k0 r)
                   (fun k0 => nth k (map trm F) (fun _ _ => 0) r (0 + k0)%nat * v k0)).
        2: { intros i Hi. rewrite nf_trm. cbn [Nat.add]. unfold nf. cbn [nzero RNum]. ring. }
        rewrite (rsum_ext (S m) (fun k0 => v k0 * q_Fx q1 k0 r)
                   (fun k0 => aff_mat (trm F0) (map trm F) x r (0 + k0)%nat * v k0)).
        2: { intros i Hi. rewrite aff_trm. rewrite Hr by lia. cbn [Nat.add]. ring. }
        fold (Fv 0 (S m) (nth k (map trm F) (fun _ _ => 0)) v r).
        fold (Fv 0 (S m) (aff_mat (trm F0) (map trm F) x) v r). unfold a, fk. ring. }
    rewrite Hgz. lra.
Qed.
Theorem C116_qmi_c_never_accepts :
  forall n F F0 (q : qmi R) (Q : cutil R) x t,
  q_t q = Some t -> u_n Q = n ->
  (pd n (qmic_mat n F0 F t x) -> qmic_call F F0 n (length F) q Q x = Raise AssertionError) /\
  (~ pd n (qmic_mat n F0 F t x) -> exists q' Q' g f,
     qmic_call F F0 n (length F) q Q x = Ok (q', Q', Some (g, f)) /\ q_t q' = Some t /\ u_n Q' = n /\
     (f = 0 \/ f = 1) /\
     forall z, psd n (qmic_mat n F0 F t z) -> dot (length F) g (fun i => z i - x i) + f <= 0).
Proof.
  intros n F F0 q Q x t Ht Hn. destruct (qmic_call_core n F F0 q Q x t Ht Hn) as [H1 H2]. split; [exact H1|].
  intros Hnp. destruct (H2 Hnp) as (q' & Q' & g & f & E & Et & En & H01 & v & _ & Hp & Hc). exists q', Q', g, f.
  split; [exact E|]. split; [exact Et|]. split; [exact En|]. split; [exact H01|]. intros z Hz. specialize (Hc z).
  apply (psd_blk n 0 (u_p Q') _ v) in Hz; [|lia].
  change (blk (qmic_mat n F0 F t z) 0) with (qmic_mat n F0 F t z) in Hz. lra.
Qed.
Print Assumptions C116_qmi_c_never_accepts.
Example C116_hypotheses_met :
  q_t (qmi_update (A := R) qmi_init 1) = Some 1 /\ u_n (cutil_init (A := R) 2) = 2%nat /\
  pd 2 (qmic_mat 2 (fun _ _ => 0) [mat22 1 0 1] 1 (fun _ => 0)) /\
  ~ pd 2 (qmic_mat 2 (fun _ _ => 0) [mat22 1 0 1] 1 (fun _ => 1)).
Proof.
  split; [reflexivity|]. split; [reflexivity|].
  assert (E : forall y v, bf 2 (qmic_mat 2 (fun _ _ => 0) [mat22 1 0 1] 1 (fun _ => y)) v v =
     (1 - y * y) * (v 0%nat * v 0%nat + v 1%nat * v 1%nat)).
  { intros y v. unfold bf, dot, mvr, dot, qmic_mat, aff_mat, lin_mat, mat22; cbn. ring. }
  split.
  - intros v (k & Hk & Hv). rewrite E.
    assert (0 <= v 0%nat * v 0%nat) by apply Rle_0_sqr. assert (0 <= v 1%nat * v 1%nat) by apply Rle_0_sqr.
    assert (0 < v k * v k) by nra. destruct k as [|[|k]]; [| |lia]; lra.
  - intros H. specialize (H (fun _ => 1)). rewrite E in H. assert (0 < (1 - 1 * 1) * (1 * 1 + 1 * 1)); [|lra].
    apply H. exists 0%nat. split; [lia|lra].
Qed.
