(** Proofs about the matrix inequality oracles in binary64. *)
From Coq Require Import ZArith Reals Lra Lia Bool Psatz List.
From Flocq Require Import Core.Core IEEE754.BinarySingleNaN.
From Verif Require Import Base M_Chol M_Lmi M_Float S_LinAlg P_LinAlg P_Chol P_Lmi P_Float P_Float2 S_Float P_FSum P_CholF T_Float P_Chol2 S_Lmi S_Float2.
Local Open Scope R_scope.

(** Python's sum of products, whatever the dot product of NumPy *)
Lemma psum_seq dot n u v : @psum b64 (FNumD dot) n (fun k => fmul (u k) (v k)) = @ndot b64 FNum n u v.
Proof. induction n as [|n IH]; [reflexivity|]. cbn [psum]. rewrite IH. reflexivity. Qed.

Lemma INR_pow2 n k : (Z.of_nat n <= 2 ^ k)%Z -> (0 <= k)%Z -> INR n <= pow2 k.
Proof.
  intros H Hk. rewrite INR_IZR_INZ. replace (pow2 k) with (IZR (2 ^ k)); [apply IZR_le, H|].
  rewrite <- IZR_Zpower by exact Hk. reflexivity.
Qed.
Lemma dotseq_bound n u v M : (Z.of_nat n <= 2 ^ 30)%Z -> is_finite (@ndot b64 FNum n u v) = true ->
  rsum n (fun k => Rabs (B2R (u k) * B2R (v k))) <= M -> M <= pow2 1000 -> Rabs (B2R (@ndot b64 FNum n u v)) <= pow2 1001.
Proof.
  intros Hn F HM HM2. destruct (fdot_fin _ n u v fnum_dot_any Hn F) as [_ E].
  set (S0 := rsum n (fun k => B2R (u k) * B2R (v k))) in *. set (S1 := rsum n (fun k => Rabs (B2R (u k) * B2R (v k)))) in *.
  assert (H0 : Rabs S0 <= S1) by (unfold S0, S1; rewrite <- !lsum_seq; apply lsum_abs).
  assert (HN := INR_pow2 n 30 Hn ltac:(lia)). assert (N0 := pos_INR n).
  assert (P1 : 0 <= S1) by (unfold S1; rewrite <- lsum_seq; apply lsum_nonneg; intros; apply Rabs_pos).
  assert (K1 : INR n * pow2 (-52) <= pow2 (-22)).
  { replace (pow2 (-22)) with (pow2 30 * pow2 (-52)) by (rewrite <- bpow_plus; reflexivity). apply Rmult_le_compat_r; [apply bpow_ge_0|exact HN]. }
  assert (K2 : INR n * pow2 (-1073) <= pow2 (-22)).
  { replace (pow2 (-22)) with (pow2 30 * pow2 (-52)) by (rewrite <- bpow_plus; reflexivity). apply Rmult_le_compat; [exact N0|apply bpow_ge_0|exact HN|apply bpow_le; lia]. }
  assert (B22 : pow2 (-22) <= / 4) by (change (/ 4) with (pow2 (-2)); apply bpow_le; lia).
  assert (Q22 := bpow_gt_0 radix2 (-22)).
  assert (K3 : INR n * pow2 (-52) * S1 <= / 4 * pow2 1000) by (apply Rmult_le_compat; [apply Rmult_le_pos; [exact N0|apply bpow_ge_0]|exact P1|lra|lra]).
  assert (one : 1 <= pow2 1000) by (change 1 with (pow2 0); apply bpow_le; lia).
  replace (pow2 1001) with (2 * pow2 1000) by (change 2 with (pow2 1); rewrite <- bpow_plus; reflexivity).
  replace (B2R (ndot n u v)) with ((B2R (ndot n u v) - S0) + S0) by ring.
  eapply Rle_trans; [apply Rabs_triang|]. lra.
Qed.
Lemma dotseq_finite n u v M : (Z.of_nat n <= 2 ^ 30)%Z ->
  (forall k, (k < n)%nat -> is_finite (u k) = true /\ is_finite (v k) = true) ->
  rsum n (fun k => Rabs (B2R (u k) * B2R (v k))) <= M -> M <= pow2 1000 -> is_finite (@ndot b64 FNum n u v) = true.
Proof.
  induction n as [|n IH]; intros Hn Hf HM HM2; [reflexivity|].
  cbn [rsum] in HM. assert (P0 := Rabs_pos (B2R (u n) * B2R (v n))).
  assert (P1 : 0 <= rsum n (fun k => Rabs (B2R (u k) * B2R (v k)))) by (rewrite <- lsum_seq; apply lsum_nonneg; intros; apply Rabs_pos).
  assert (F : is_finite (@ndot b64 FNum n u v) = true) by (apply IH; [lia|intros; apply Hf; lia|lra|exact HM2]).
  assert (B := dotseq_bound n u v M ltac:(lia) F ltac:(lra) HM2).
  destruct (Hf n ltac:(lia)) as [Fu Fv].
  change (@ndot b64 FNum (S n) u v) with (fadd (@ndot b64 FNum n u v) (fmul (u n) (v n))).
  assert (Hp : Rabs (B2R (u n) * B2R (v n)) <= pow2 1000) by lra.
  destruct (fmul_rnd (u n) (v n) Fu Fv) as [Em Fm]; [eapply Rle_trans; [exact Hp|apply bpow_le; lia]|].
  assert (Bm : Rabs (B2R (fmul (u n) (v n))) <= pow2 1000).
  { rewrite Em. apply Rabs_le_inv in Hp. apply Rabs_le. split; [apply rnd_ge|apply rnd_le]; try lra; [apply generic_format_opp|]; apply fmt_pow2; lia. }
  apply fadd_rnd; [exact F|exact Fm|]. eapply Rle_trans; [apply Rabs_triang|].
  apply Rle_trans with (pow2 1001 + pow2 1001); [apply Rplus_le_compat; [exact B|eapply Rle_trans; [exact Bm|apply bpow_le; lia]]|].
  replace (pow2 1001 + pow2 1001) with (pow2 1002); [apply bpow_le; lia|].
  change 1002%Z with (1 + 1001)%Z. rewrite bpow_plus. change (pow2 1) with 2. ring.
Qed.

(** one entry of the matrix B - sum_k F_k x_k *)
Lemma entry64 n (b : b64) u v M : (Z.of_nat n <= 2 ^ 20)%Z -> is_finite b = true ->
  (forall k, (k < n)%nat -> is_finite (u k) = true /\ is_finite (v k) = true) ->
  Rabs (B2R b) + rsum n (fun k => Rabs (B2R (u k) * B2R (v k))) <= M -> M <= pow2 1000 ->
  let s := @ndot b64 FNum n u v in
  is_finite s = true /\ is_finite (fsub b s) = true /\
  Rabs (B2R s - rsum n (fun k => B2R (u k) * B2R (v k))) <= (INR n + 2) * pow2 (-52) * (M + pow2 (-1000)) /\
  Rabs (B2R (fsub b s) - (B2R b - rsum n (fun k => B2R (u k) * B2R (v k)))) <= (INR n + 2) * pow2 (-52) * (M + pow2 (-1000)) /\
  Rabs (B2R (fsub b s)) <= 2 * (M + pow2 (-1000)) /\ Rabs (B2R s) <= 2 * (M + pow2 (-1000)).
Proof.
  intros Hn Fb Hf HM HM2 s.
  set (S0 := rsum n (fun k => B2R (u k) * B2R (v k))) in *. set (S1 := rsum n (fun k => Rabs (B2R (u k) * B2R (v k)))) in *.
  assert (H0 : Rabs S0 <= S1) by (unfold S0, S1; rewrite <- !lsum_seq; apply lsum_abs).
  assert (P1 : 0 <= S1) by (unfold S1; rewrite <- lsum_seq; apply lsum_nonneg; intros; apply Rabs_pos).
  assert (Pb := Rabs_pos (B2R b)).
  assert (F : is_finite s = true) by (apply dotseq_finite with M; [lia|exact Hf|fold S1; lra|exact HM2]).
  destruct (fdot_fin _ n u v fnum_dot_any ltac:(lia) F) as [_ E]. fold s in E. fold S0 S1 in E.
  assert (HN := INR_pow2 n 20 Hn ltac:(lia)). assert (N0 := pos_INR n).
  set (kap := pow2 (-1000)). assert (K0 : 0 < kap) by apply bpow_gt_0.
  assert (E1 : INR n * pow2 (-1073) <= INR n * pow2 (-52) * (kap / 4)).
  { rewrite Rmult_assoc. apply Rmult_le_compat_l; [exact N0|]. unfold kap.
    replace (pow2 (-52) * (pow2 (-1000) / 4)) with (pow2 (-1054)); [apply bpow_le; lia|].
    unfold Rdiv. change (/ 4) with (pow2 (-2)). rewrite <- !bpow_plus. reflexivity. }
  assert (Pn : 0 <= INR n * pow2 (-52)) by (apply Rmult_le_pos; [exact N0|apply bpow_ge_0]).
  assert (Bs : Rabs (B2R s - S0) <= INR n * pow2 (-52) * (S1 + kap / 4)) by lra.
  assert (Sm : INR n * pow2 (-52) <= / 1000).
  { apply Rle_trans with (pow2 (-32)).
    - replace (pow2 (-32)) with (pow2 20 * pow2 (-52)) by (rewrite <- bpow_plus; reflexivity). apply Rmult_le_compat_r; [apply bpow_ge_0|exact HN].
    - cbn. lra. }
  assert (Hs2 : Rabs (B2R s) <= S1 + / 1000 * (S1 + kap / 4)).
  { replace (B2R s) with ((B2R s - S0) + S0) by ring. eapply Rle_trans; [apply Rabs_triang|].
    assert (INR n * pow2 (-52) * (S1 + kap / 4) <= / 1000 * (S1 + kap / 4)) by (apply Rmult_le_compat_r; lra). lra. }
  assert (Hd : Rabs (B2R b - B2R s) <= M + / 1000 * (M + kap)).
  { unfold Rminus. eapply Rle_trans; [apply Rabs_triang|]. rewrite Rabs_Ropp. lra. }
  assert (M1000 : M + kap <= pow2 1001).
  { replace (pow2 1001) with (pow2 1000 + pow2 1000) by (change 1001%Z with (1 + 1000)%Z; rewrite bpow_plus; change (pow2 1) with 2; ring).
    apply Rplus_le_compat; [exact HM2|apply bpow_le; lia]. }
  destruct (fsub_rnd b s Fb F) as [Es Fs].
  { apply Rle_trans with (2 * (M + kap)); [lra|]. apply Rle_trans with (2 * pow2 1001); [lra|].
    change 2 with (pow2 1). rewrite <- bpow_plus. apply bpow_le. lia. }
  assert (R := rnd_rel (B2R b - B2R s)). rewrite <- Es in R.
  assert (P52 : 0 < pow2 (-52)) by apply bpow_gt_0.
  assert (E53 : pow2 (-53) = pow2 (-52) / 2) by (change (-53)%Z with (-1 + -52)%Z; rewrite bpow_plus; change (pow2 (-1)) with (/ 2); field).
  assert (Eeta : pow2 (-1075) <= pow2 (-52) * kap / 4).
  { unfold kap, Rdiv. change (/ 4) with (pow2 (-2)). rewrite <- !bpow_plus. apply bpow_le. lia. }
  assert (Pd := Rabs_pos (B2R b - B2R s)).
  assert (Rr : Rabs (B2R (fsub b s) - (B2R b - B2R s)) <= pow2 (-52) * (M + kap)).
  { eapply Rle_trans; [exact R|]. rewrite E53.
    assert (pow2 (-52) / 2 * Rabs (B2R b - B2R s) <= pow2 (-52) / 2 * (M + / 1000 * (M + kap))) by (apply Rmult_le_compat_l; lra).
    assert (0 <= pow2 (-52) * M) by (apply Rmult_le_pos; lra). assert (0 <= pow2 (-52) * kap) by (apply Rmult_le_pos; lra). lra. }
  assert (Pm : 0 <= pow2 (-52) * (M + kap)) by (apply Rmult_le_pos; lra).
  assert (Bs2 : INR n * pow2 (-52) * (S1 + kap / 4) <= INR n * pow2 (-52) * (M + kap)) by (apply Rmult_le_compat_l; lra).
  split; [exact F|]. split; [exact Fs|]. split; [|split; [|split]].
  - replace ((INR n + 2) * pow2 (-52) * (M + kap)) with (INR n * pow2 (-52) * (M + kap) + 2 * (pow2 (-52) * (M + kap))) by ring. lra.
  - replace ((INR n + 2) * pow2 (-52) * (M + kap)) with (INR n * pow2 (-52) * (M + kap) + 2 * (pow2 (-52) * (M + kap))) by ring.
    replace (B2R (fsub b s) - (B2R b - S0)) with ((B2R (fsub b s) - (B2R b - B2R s)) + - (B2R s - S0)) by ring.
    eapply Rle_trans; [apply Rabs_triang|]. rewrite Rabs_Ropp. lra.
  - replace (B2R (fsub b s)) with ((B2R (fsub b s) - (B2R b - B2R s)) + (B2R b - B2R s)) by ring.
    eapply Rle_trans; [apply Rabs_triang|].
    assert (pow2 (-52) * (M + kap) <= / 4 * (M + kap)) by (apply Rmult_le_compat_r; [lra|change (/ 4) with (pow2 (-2)); apply bpow_le; lia]). lra.
  - lra.
Qed.

(** the quadratic form of a matrix close to another *)
Lemma bf_close n A B e x : (forall i j, (i < n)%nat -> (j < n)%nat -> Rabs (A i j - B i j) <= e) ->
  Rabs (bf n A x x - bf n B x x) <= INR n * e * dot n x x.
Proof.
  intros H. rewrite !bf_sums.
  replace (rsum n (fun i => rsum n (fun j => x i * A i j * x j)) - rsum n (fun i => rsum n (fun j => x i * B i j * x j)))
    with (rsum n (fun i => rsum n (fun j => (A i j - B i j) * (x i * x j)))).
  - eapply Rle_trans; [apply rsum_Rabs|]. destruct n as [|n'] eqn:En.
    { cbn. unfold dot. cbn. lra. }
    rewrite <- En in *. assert (e0 : 0 <= e) by (eapply Rle_trans; [apply Rabs_pos|apply (H 0%nat 0%nat); lia]).
    apply Rle_trans with (rsum n (fun i => rsum n (fun j => Rabs (x i) * Rabs (x j))) * e).
    + rewrite <- rsum_scal_r. apply rsum_le. intros i Hi. rewrite <- rsum_scal_r. eapply Rle_trans; [apply rsum_Rabs|]. apply rsum_le. intros j Hj.
      rewrite Rabs_mult, Rabs_mult, Rmult_comm. apply Rmult_le_compat_l; [apply Rmult_le_pos; apply Rabs_pos|]. apply H; assumption.
    + replace (INR n * e * dot n x x) with (INR n * dot n x x * e) by ring. apply Rmult_le_compat_r; [exact e0|apply sq_sum_le].
  - replace (rsum n (fun i => rsum n (fun j => x i * A i j * x j)) - rsum n (fun i => rsum n (fun j => x i * B i j * x j)))
      with (rsum n (fun i => rsum n (fun j => x i * A i j * x j)) + (-1) * rsum n (fun i => rsum n (fun j => x i * B i j * x j))) by ring.
    rewrite <- rsum_scal_l, <- rsum_plus. apply rsum_ext. intros i _. rewrite <- rsum_scal_l, <- rsum_plus. apply rsum_ext. intros j _. ring.
Qed.

(** ** an oracle that factors a matrix lazily *)
Section Oracle.
Variable dot : nat -> (nat -> b64) -> (nat -> b64) -> b64.
Hypothesis Hd : fdot_any dot.
Hypothesis NE : ext64 dot.
Lemma factor_pure getA (a : nat -> nat -> b64) (Q Q1 : chol b64) g1 b :
  (forall g i j, (j <= i)%nat -> (i < c_n Q)%nat -> getA g i j = Ok (tt, a i j)) ->
  @chol_factor b64 (FNumD dot) unit getA tt Q = Ok (g1, Q1, b) ->
  c_n Q1 = c_n Q /\ c_semi Q1 = c_semi Q /\
  exists Q1', chol64 dot a Q = Ok (Q1', b) /\
    (b = false -> exists Q2 Q2' ep, @chol_witness b64 (FNumD dot) Q1 = Ok (Q2, ep) /\ @chol_witness b64 (FNumD dot) Q1' = Ok (Q2', ep) /\
       c_n Q2 = c_n Q /\ c_semi Q2 = c_semi Q).
Proof.
  intros Hg E.
  pose proof (factor_agree (H := FNumD dot) (NE := NE) getA (pure_getA a) (c_n Q) tt Q Q eq_refl eq_refl) as Hf.
  assert (Hg2 : forall (g : unit) i j, (j <= i)%nat -> (i < c_n Q)%nat -> getA g i j = pure_getA a g i j).
  { intros g i j Hj Hi. rewrite Hg by assumption. reflexivity. }
  specialize (Hf Hg2). rewrite E in Hf.
  pose proof (factor_p_lt (H := FNumD dot) _ _ _ _ _ _ E) as [Hb Hp].
  assert (K : c_n Q1 = c_n Q /\ c_semi Q1 = c_semi Q).
  { unfold chol_factor in E. apply bind_ok in E as ([[g' T] p] & _ & E). injection E as <- <- <-. split; reflexivity. }
  destruct K as [K1 K2]. split; [exact K1|]. split; [exact K2|].
  destruct Hf as (Q1' & E' & Hso). { unfold rows_used. destruct (Nat.eqb_spec (snd (c_p Q1)) 0); lia. }
  exists Q1'. split; [unfold chol_factorize; rewrite E'; reflexivity|].
  intros ->. unfold chol_is_spd in Hb. symmetry in Hb. apply Nat.eqb_neq in Hb.
  destruct (witness_agree (H := FNumD dot) _ _ Q1 Q1' Hso Hb) as (Qa & Qb & ep & W1 & W2 & _); [lia|].
  exists Qa, Qb, ep. split; [exact W1|]. split; [exact W2|].
  unfold chol_witness in W1. destruct (chol_is_spd Q1); [discriminate|]. destruct (c_p Q1). injection W1 as <- _. cbn. auto.
Qed.

Variables (m : nat) (a : nat -> nat -> b64) (Ar : nat -> nat -> R) (e Ma : R).
Hypothesis Hm0 : (0 < m)%nat.
Hypothesis Hm : (Z.of_nat m <= 2 ^ 20)%Z.
Hypothesis Hsym : sym m Ar.
Hypothesis Hfin : low_finite m a.
Hypothesis Hclose : forall i j, (j <= i)%nat -> (i < m)%nat -> Rabs (B2R (a i j) - Ar i j) <= e.
Hypothesis Hdiag : forall i, (i < m)%nat -> B2R (a i i) <= Ma.
Hypothesis HMa : 0 <= Ma.
Lemma low_close z : Rabs (bf m (low64 a) z z - bf m Ar z z) <= INR m * e * S_LinAlg.dot m z z.
Proof.
  apply bf_close. intros i j Hi Hj. unfold low64. destruct (Nat.leb_spec j i) as [L|L]; [apply Hclose; assumption|].
  rewrite (Hsym i j) by assumption. apply Hclose; lia.
Qed.
Lemma accept64 (Q Q' : chol b64) : c_n Q = m -> c_semi Q = false -> chol64 dot a Q = Ok (Q', true) ->
  forall z, nonzero m z ->
  - (INR m * (INR m + 1) * pow2 (-50) * (Ma + pow2 (-1000)) + INR m * e) * S_LinAlg.dot m z z < bf m Ar z z.
Proof.
  intros En Es H z Hz. destruct (C117_chol64_accepts dot a Q Q' m Ma Hd NE Es En Hm0 Hm Hfin Hdiag HMa H) as [_ K].
  specialize (K z Hz). assert (L := low_close z). apply Rabs_le_inv in L. lra.
Qed.
Lemma reject64 (Q Q' Q2 : chol b64) ep : c_n Q = m -> c_semi Q = false -> chol64 dot a Q = Ok (Q', false) ->
  @chol_witness b64 (FNumD dot) Q' = Ok (Q2, ep) ->
  (is_finite ep = true -> 0 <= B2R ep) /\ (is_finite ep = true \/ Ma <= pow2 900 -> exists z, nonzero m z /\
  bf m Ar z z <= (INR m * (INR m + 1) * pow2 (-49) * (Ma + pow2 (-1000)) + INR m * e) * S_LinAlg.dot m z z).
Proof.
  intros En Es H W. destruct (C117_chol64_rejects dot a Q Q' Q2 m Ma ep Hd NE Es En Hm Hfin Hdiag HMa H W) as (P & K0).
  split; [exact P|]. intros F. destruct (K0 F) as (z & Hz & K). exists z. split; [exact Hz|]. assert (L := low_close z). apply Rabs_le_inv in L. lra.
Qed.
End Oracle.

(** the entries of lmi_oracle's matrix *)
Lemma nth_matsR F k i j : nth k (matsR F) (fun _ _ => 0) i j = B2R (nth k F (fun _ _ => fzero) i j).
Proof. unfold matsR. revert k. induction F as [|f F IH]; intros [|k]; cbn; try reflexivity; apply IH. Qed.
Section Entries.
Variable dot : nat -> (nat -> b64) -> (nat -> b64) -> b64.
Variables (m : nat) (F : list (nat -> nat -> b64)) (B : nat -> nat -> b64) (x : nat -> b64) (M : R).
Hypothesis Hdata : lmi_data m F B x M.
Hypothesis HM : M <= pow2 1000.
Hypothesis HF : (Z.of_nat (length F) <= 2 ^ 20)%Z.
Notation s64 i j := (@psum b64 (FNumD dot) (length F) (fun k => fmul (nth k F (fun _ _ => fzero) i j) (x k))).
Lemma lmi_entry i j : (i < m)%nat -> (j < m)%nat ->
  is_finite (s64 i j) = true /\ is_finite (fsub (B i j) (s64 i j)) = true /\
  Rabs (B2R (s64 i j) - lin_mat (matsR F) (vecR x) i j) <= (INR (length F) + 2) * pow2 (-52) * (M + pow2 (-1000)) /\
  Rabs (B2R (fsub (B i j) (s64 i j)) - aff_mat (matR B) (matsR F) (vecR x) i j) <= (INR (length F) + 2) * pow2 (-52) * (M + pow2 (-1000)) /\
  Rabs (B2R (fsub (B i j) (s64 i j))) <= 2 * (M + pow2 (-1000)) /\ Rabs (B2R (s64 i j)) <= 2 * (M + pow2 (-1000)).
Proof.
  intros Hi Hj. destruct Hdata as [Hx Hij]. destruct (Hij i j Hi Hj) as (HB & HFk & HS).
  rewrite psum_seq.
  assert (E : lin_mat (matsR F) (vecR x) i j = rsum (length F) (fun k => B2R (nth k F (fun _ _ => fzero) i j) * B2R (x k))).
  { unfold lin_mat. replace (length (matsR F)) with (length F) by (unfold matsR; rewrite map_length; reflexivity).
    apply rsum_ext. intros k _. rewrite nth_matsR. reflexivity. }
  unfold aff_mat. rewrite E. apply entry64; try assumption.
  - intros k Hk. split; [apply HFk, nth_In, Hk|apply Hx, Hk].
  - rewrite (rsum_ext _ (fun k => Rabs (B2R (nth k F (fun _ _ => fzero) i j) * B2R (x k)))
      (fun k => Rabs (nth k (matsR F) (fun _ _ => 0) i j * vecR x k))) by (intros k _; rewrite nth_matsR; reflexivity).
    exact HS.
Qed.
Lemma lmi_data_nonneg : (0 < m)%nat -> 0 <= M.
Proof.
  intros H0. destruct Hdata as [_ Hij]. destruct (Hij 0%nat 0%nat H0 H0) as (_ & _ & HS).
  eapply Rle_trans; [|exact HS]. apply Rplus_le_le_0_compat; [apply Rabs_pos|]. rewrite <- lsum_seq. apply lsum_nonneg. intros; apply Rabs_pos.
Qed.
End Entries.
