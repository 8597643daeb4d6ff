(** Proofs about qmi_oracle and lsq_oracle in binary64. *)
From Coq Require Import ZArith Reals Lra Lia Bool Psatz List.
From Flocq Require Import Core.Core IEEE754.BinarySingleNaN.
From Verif Require Import Base M_Chol M_Lmi M_Float S_LinAlg P_LinAlg P_Chol P_Lmi P_Float P_Float2 S_Float P_FSum P_EllF2 P_CholF P_CholF2 T_Float P_Chol2 S_Lmi S_Float2 P_LmiF.
Local Open Scope R_scope.

(** ** a callback with state, in any arithmetic *)
Section Stateful.
Context {A : Type} `{Num A} {G : Type}.
Variables (n : nat) (M : nat -> nat -> A) (GI : nat -> G -> Prop) (getA : G -> nat -> nat -> res (G * A)).
Hypothesis Hget : forall g i j, (j <= i)%nat -> (i < n)%nat -> GI i g \/ GI (S i) g ->
  exists g', getA g i j = Ok (g', M i j) /\ GI (S i) g'.

Lemma row_state s i : (i < n)%nat -> forall cnt j g T d, (j + cnt = i)%nat -> GI (S i) g ->
  match chol_row (pure_getA M) cnt s i j tt T d with
  | Ok (_, T1, d1) => exists g1, chol_row getA cnt s i j g T d = Ok (g1, T1, d1) /\ GI (S i) g1
  | Raise e => chol_row getA cnt s i j g T d = Raise e
  end.
Proof.
  intros Hi. induction cnt as [|cnt IH]; intros j g T d Hj Hg; cbn [chol_row].
  - exists g. auto.
  - destruct (ndiv d _) as [q|e]; cbn [bind]; [|reflexivity].
    destruct (Hget g i (j + 1)%nat) as (g1 & -> & Hg1); [lia|lia|auto|]. unfold pure_getA at 1. cbn [bind].
    apply IH; [lia|exact Hg1].
Qed.
Lemma rows_state semi : forall cnt i s g T, (i + cnt = n)%nat -> (s <= i)%nat -> GI i g ->
  match chol_rows (pure_getA M) semi cnt i s tt T with
  | Ok (_, T1, p) => exists g1, chol_rows getA semi cnt i s g T = Ok (g1, T1, p) /\ GI (rows_used n p) g1
  | Raise e => chol_rows getA semi cnt i s g T = Raise e
  end.
Proof.
  induction cnt as [|cnt IH]; intros i s g T Hn Hs Hg; cbn [chol_rows].
  - exists g. split; [reflexivity|]. cbn. replace n with i by lia. exact Hg.
  - destruct (Hget g i s) as (g1 & -> & Hg1); [lia|lia|auto|]. unfold pure_getA at 1. cbn [bind].
    pose proof (row_state s i ltac:(lia) (i - s) s g1 T (M i s) ltac:(lia) Hg1) as R.
    destruct (chol_row (pure_getA M) (i - s) s i s tt T (M i s)) as [[[u T1] d]|e]; cbn [bind]; [|rewrite R; reflexivity].
    destruct u. destruct R as (g2 & -> & Hg2). cbn [bind].
    destruct (nltb nzero d).
    + apply IH; [lia|lia|]. replace (i + 1)%nat with (S i) by lia. exact Hg2.
    + destruct (orb _ _).
      * exists g2. split; [reflexivity|]. unfold rows_used. cbn [snd]. destruct (Nat.eqb_spec (i + 1) 0); [lia|]. replace (i + 1)%nat with (S i) by lia. exact Hg2.
      * apply IH; [lia|lia|]. replace (i + 1)%nat with (S i) by lia. exact Hg2.
Qed.
End Stateful.

Lemma factor_state {A} `{Num A} {G} (M : nat -> nat -> A) (GI : nat -> G -> Prop) getA (Q Q1 : chol A) b g :
  (forall g i j, (j <= i)%nat -> (i < c_n Q)%nat -> GI i g \/ GI (S i) g -> exists g', getA g i j = Ok (g', M i j) /\ GI (S i) g') ->
  GI 0%nat g -> chol_factorize M Q = Ok (Q1, b) ->
  exists g1, chol_factor getA g Q = Ok (g1, Q1, b) /\ GI (rows_used (c_n Q) (c_p Q1)) g1.
Proof.
  intros Hget Hg E. unfold chol_factorize, chol_factor in *.
  pose proof (rows_state (c_n Q) M GI getA Hget (c_semi Q) (c_n Q) 0 0 g (c_T Q) eq_refl (le_n 0) Hg) as R.
  destruct (chol_rows (pure_getA M) (c_semi Q) (c_n Q) 0 0 tt (c_T Q)) as [[[u T1] p]|e]; cbn [bind] in E; [|discriminate E].
  destruct R as (g1 & -> & Hg1). injection E as <- <-. exists g1. split; [reflexivity|exact Hg1].
Qed.

(** ** the entries of qmi_oracle's matrix *)
Section Entries.
Variable dot64 : nat -> (nat -> b64) -> (nat -> b64) -> b64.
Hypothesis Hd : fdot_any dot64.
Hypothesis NE : ext64 dot64.
Variables (m : nat) (F : list (nat -> nat -> b64)) (F0 : nat -> nat -> b64) (x : nat -> b64) (t : b64).
(** column i of F(x), as eval computes it *)
Definition col64 (i r : nat) : b64 := fsub (F0 r i) (@psum b64 (FNumD dot64) (length F) (fun k => fmul (nth k F (fun _ _ => fzero) r i) (x k))).
Definition ent64 (i j : nat) : b64 :=
  let a := Bopp (dot64 m (col64 i) (col64 j)) in if Nat.eqb i j then fadd t a else a.
Definition cache64 (k : nat) (q : qmi b64) : Prop :=
  q_t q = Some t /\ q_count q = k /\ forall i r, (i < k)%nat -> q_Fx q i r = col64 i r.
Lemma qmi64_getter q i j : (j <= i)%nat -> cache64 i q \/ cache64 (S i) q ->
  exists q', @qmi_eval b64 (FNumD dot64) F F0 m (length F) q i j x = Ok (q', ent64 i j) /\ cache64 (S i) q'.
Proof.
  intros Hj Hq. unfold qmi_eval. destruct (Nat.ltb_spec i j); [lia|]. rewrite Nat.leb_refl.
  match goal with |- exists q', bind ?e _ = _ /\ _ => assert (X : exists q1, e = Ok q1 /\ cache64 (S i) q1) end.
  { destruct Hq as [(Ht & Hc & Hr)|(Ht & Hc & Hr)]; rewrite Hc.
    - destruct (Nat.ltb_spec i (i + 1)); [|lia]. eexists. split; [reflexivity|].
      split; [assumption|]. split; [cbn; lia|]. intros a r Ha. cbn [q_Fx]. unfold rowset.
      destruct (Nat.eqb_spec a i) as [->|Hne]; [reflexivity|apply Hr; lia].
    - destruct (Nat.ltb_spec (S i) (i + 1)); [lia|]. eexists. split; [reflexivity|]. split; [assumption|]. split; assumption. }
  destruct X as (q1 & -> & Hc). cbn [bind]. exists q1. destruct Hc as (Ht & Hc & Hr). rewrite Ht.
  rewrite (NE m (q_Fx q1 i) (col64 i) (q_Fx q1 j) (col64 j)) by (intros k _; apply Hr; lia).
  split; [|split; [exact Ht|split; assumption]]. unfold ent64. cbv zeta. destruct (Nat.eqb i j); reflexivity.
Qed.

Variable M : R.
Hypothesis Hm0 : (0 < m)%nat.
Hypothesis Hm : (Z.of_nat m <= 2 ^ 20)%Z.
Hypothesis HF : (Z.of_nat (length F) <= 2 ^ 20)%Z.
Hypothesis Hdata : lmi_data m F F0 x M.
Hypothesis HM : M <= pow2 400.
Hypothesis Ft : is_finite t = true.
Hypothesis Ht : Rabs (B2R t) <= pow2 800.
Definition Kq : R := M + pow2 (-500).
Definition Eq : R := Rabs (B2R t) + INR m * (Kq * Kq).
Notation aff := (aff_mat (matR F0) (matsR F) (vecR x)).
Lemma aff_bound r i : (r < m)%nat -> (i < m)%nat -> Rabs (aff r i) <= M.
Proof.
  intros Hr Hi. destruct Hdata as [_ Hij]. destruct (Hij r i Hr Hi) as (_ & _ & S).
  unfold aff_mat, lin_mat. replace (length (matsR F)) with (length F) by (unfold matsR; rewrite map_length; reflexivity).
  unfold Rminus. eapply Rle_trans; [apply Rabs_triang|]. rewrite Rabs_Ropp. eapply Rle_trans; [|exact S].
  apply Rplus_le_compat_l, rsum_Rabs.
Qed.
Lemma Kq_pos : pow2 (-500) <= Kq /\ pow2 (-1000) <= Kq * Kq /\ Kq <= pow2 401.
Proof.
  assert (M0 := lmi_data_nonneg m F F0 x M Hdata Hm0). assert (p := bpow_gt_0 radix2 (-500)).
  unfold Kq. split; [lra|]. split.
  - change (-1000)%Z with (-500 + -500)%Z. rewrite bpow_plus. apply Rmult_le_compat; lra.
  - replace (pow2 401) with (pow2 400 + pow2 400) by (change 401%Z with (1 + 400)%Z; rewrite bpow_plus; change (pow2 1) with 2; ring).
    apply Rplus_le_compat; [exact HM|apply bpow_le; lia].
Qed.
Lemma col_entry i r : (r < m)%nat -> (i < m)%nat ->
  is_finite (col64 i r) = true /\ Rabs (B2R (col64 i r) - aff r i) <= (INR (length F) + 2) * pow2 (-52) * Kq /\
  Rabs (B2R (col64 i r)) <= 2 * Kq.
Proof.
  intros Hr Hi. destruct (lmi_entry dot64 m F F0 x M Hdata) with (i := r) (j := i) as (_ & E1 & _ & E2 & E3 & _); try assumption.
  { eapply Rle_trans; [exact HM|apply bpow_le; lia]. }
  assert (P : M + pow2 (-1000) <= Kq) by (unfold Kq; apply Rplus_le_compat_l, bpow_le; lia).
  split; [exact E1|]. split.
  - eapply Rle_trans; [exact E2|]. apply Rmult_le_compat_l; [|exact P]. apply Rmult_le_pos; [|apply bpow_ge_0].
    assert (X := pos_INR (length F)). lra.
  - eapply Rle_trans; [exact E3|]. lra.
Qed.
Lemma Eq_pos : pow2 (-1000) <= Eq /\ Eq <= pow2 824.
Proof.
  destruct Kq_pos as (K1 & K2 & K3). assert (N1 : 1 <= INR m) by (change 1 with (INR 1); apply le_INR; lia).
  assert (N2 := INR_pow2 m 20 Hm ltac:(lia)). assert (T0 := Rabs_pos (B2R t)). assert (p := bpow_gt_0 radix2 (-1000)).
  assert (p5 := bpow_gt_0 radix2 (-500)).
  unfold Eq. split.
  - assert (1 * (Kq * Kq) <= INR m * (Kq * Kq)) by (apply Rmult_le_compat_r; lra). lra.
  - assert (A1 : INR m * (Kq * Kq) <= pow2 20 * (pow2 401 * pow2 401)).
    { apply Rmult_le_compat; [lra|lra|exact N2|]. apply Rmult_le_compat; lra. }
    rewrite <- !bpow_plus in A1. change (20 + (401 + 401))%Z with 822%Z in A1.
    assert (A2 : pow2 800 <= pow2 822) by (apply bpow_le; lia).
    assert (A3 : 4 * pow2 822 = pow2 824) by (change 4 with (pow2 2); rewrite <- bpow_plus; reflexivity).
    assert (p8 := bpow_gt_0 radix2 822). lra.
Qed.

Lemma qmi_entry i j : (i < m)%nat -> (j < m)%nat ->
  is_finite (ent64 i j) = true /\
  Rabs (B2R (ent64 i j) - qmi_mat m (matR F0) (matsR F) (B2R t) (vecR x) i j) <= (INR m + INR (length F) + 3) * pow2 (-50) * Eq /\
  Rabs (B2R (ent64 i j)) <= 5 * Eq.
Proof.
  intros Hi Hj. destruct Kq_pos as (K1 & K2 & K3). destruct Eq_pos as [E1 E2].
  assert (T0 := Rabs_pos (B2R t)). assert (p5 := bpow_gt_0 radix2 (-500)).
  assert (N0 := pos_INR m). assert (N1 : 1 <= INR m) by (change 1 with (INR 1); apply le_INR; lia).
  assert (n0 := pos_INR (length F)).
  assert (N2 := INR_pow2 m 20 Hm ltac:(lia)).
  assert (p10 := bpow_gt_0 radix2 (-1000)).
  set (P := INR m * (Kq * Kq)). assert (P1 : pow2 (-1000) <= P) by (unfold P; assert (1 * (Kq * Kq) <= INR m * (Kq * Kq)) by (apply Rmult_le_compat_r; lra); lra).
  assert (EP : Eq = Rabs (B2R t) + P) by reflexivity.
  set (u := pow2 (-52)). assert (u0 : 0 < u) by apply bpow_gt_0.
  set (U := fun i r => B2R (col64 i r)).
  set (S1 := rsum m (fun r => Rabs (U i r * U j r))). set (S0 := rsum m (fun r => U i r * U j r)).
  set (A0 := rsum m (fun r => aff r i * aff r j)).
  assert (HS1 : S1 <= 4 * P).
  { unfold S1, P. replace (4 * (INR m * (Kq * Kq))) with (rsum m (fun _ => 2 * Kq * (2 * Kq))) by (rewrite P_CholF2.rsum_const; ring).
    apply rsum_le. intros r Hr. rewrite Rabs_mult. apply Rmult_le_compat; try apply Rabs_pos; apply col_entry; assumption. }
  assert (S10 : 0 <= S1) by (apply rsum_nonneg; intros; apply Rabs_pos).
  assert (HS0 : Rabs S0 <= S1) by apply rsum_Rabs.
  assert (HSA : Rabs (S0 - A0) <= 3 * (INR (length F) + 2) * u * P).
  { unfold S0, A0. rewrite <- rsum_minus. eapply Rle_trans; [apply rsum_Rabs|].
    replace (3 * (INR (length F) + 2) * u * P) with (rsum m (fun _ => 3 * ((INR (length F) + 2) * u * Kq) * Kq)) by (rewrite P_CholF2.rsum_const; unfold P; ring).
    apply rsum_le. intros r Hr. destruct (col_entry i r Hr Hi) as (_ & B1 & B2). destruct (col_entry j r Hr Hj) as (_ & C1 & C2).
    assert (D := aff_bound r i Hr Hi). fold u in B1, C1. set (e1 := (INR (length F) + 2) * u * Kq) in *.
    change (B2R (col64 i r)) with (U i r) in *. change (B2R (col64 j r)) with (U j r) in *.
    replace (U i r * U j r - aff r i * aff r j) with ((U i r - aff r i) * U j r + aff r i * (U j r - aff r j)) by ring.
    eapply Rle_trans; [apply Rabs_triang|]. rewrite !Rabs_mult.
    assert (X1 : Rabs (U i r - aff r i) * Rabs (U j r) <= e1 * (2 * Kq)) by (apply Rmult_le_compat; try apply Rabs_pos; assumption).
    assert (X2 : Rabs (aff r i) * Rabs (U j r - aff r j) <= Kq * e1) by (apply Rmult_le_compat; try apply Rabs_pos; [unfold Kq; lra|assumption]).
    lra. }
  set (d := dot64 m (col64 i) (col64 j)).
  assert (P8 : 4 * P <= pow2 1000).
  { apply Rle_trans with (4 * pow2 824); [lra|]. change 4 with (pow2 2). rewrite <- bpow_plus. apply bpow_le. lia. }
  destruct (fdot_bounded dot64 m (col64 i) (col64 j) Hd) as [Fd Ed].
  { lia. }
  { intros k Hk. split; apply col_entry; assumption. }
  { change (S1 <= pow2 1000). lra. }
  fold d in Fd, Ed. change (rsum m (fun k => B2R (col64 i k) * B2R (col64 j k))) with S0 in Ed.
  change (rsum m (fun k => Rabs (B2R (col64 i k) * B2R (col64 j k)))) with S1 in Ed. fold u in Ed.
  assert (Q1 : INR m * u * S1 <= INR m * u * (4 * P)) by (apply Rmult_le_compat_l; [apply Rmult_le_pos; lra|exact HS1]).
  assert (Q2 : INR m * pow2 (-1073) <= u * P / 4).
  { unfold P, u. replace (pow2 (-52) * (INR m * (Kq * Kq)) / 4) with (INR m * (pow2 (-52) * (Kq * Kq) / 4)) by field.
    apply Rmult_le_compat_l; [exact N0|]. apply Rle_trans with (pow2 (-52) * pow2 (-1000) / 4).
    - unfold Rdiv. change (/ 4) with (pow2 (-2)). rewrite <- !bpow_plus. apply bpow_le. lia.
    - apply Rmult_le_compat_r; [lra|]. apply Rmult_le_compat_l; [apply bpow_ge_0|exact K2]. }
  assert (um : INR m * u <= / 1000).
  { apply Rle_trans with (pow2 20 * u); [apply Rmult_le_compat_r; lra|]. unfold u. rewrite <- bpow_plus. cbn. lra. }
  assert (um2 : u <= / 1000) by (apply Rle_trans with (INR m * u); [|exact um]; rewrite <- (Rmult_1_l u) at 1; apply Rmult_le_compat_r; lra).
  assert (P0 : 0 < P) by lra.
  assert (Q3 : INR m * u * (4 * P) <= / 1000 * (4 * P)) by (apply Rmult_le_compat_r; lra).
  assert (Q4 : u * P / 4 <= / 1000 * P) by (unfold Rdiv; assert (u * P <= / 1000 * P) by (apply Rmult_le_compat_r; lra); lra).
  assert (Dd : Rabs (B2R d) <= 4 * P + 5 / 1000 * P).
  { replace (B2R d) with ((B2R d - S0) + S0) by ring. eapply Rle_trans; [apply Rabs_triang|]. lra. }
  assert (DA : Rabs (B2R d - A0) <= INR m * u * (4 * P) + u * P / 4 + 3 * (INR (length F) + 2) * u * P).
  { replace (B2R d - A0) with ((B2R d - S0) + (S0 - A0)) by ring. eapply Rle_trans; [apply Rabs_triang|]. lra. }
  replace (pow2 (-50)) with (4 * u) by (unfold u; change 4 with (pow2 2); rewrite <- bpow_plus; reflexivity).
  assert (M1 : 0 <= INR m * (u * P)) by (apply Rmult_le_pos; [lra|apply Rmult_le_pos; lra]).
  assert (M2 : 0 <= INR (length F) * (u * P)) by (apply Rmult_le_pos; [lra|apply Rmult_le_pos; lra]).
  assert (M3 : 0 <= INR m * (u * Rabs (B2R t))) by (apply Rmult_le_pos; [lra|apply Rmult_le_pos; lra]).
  assert (M4 : 0 <= INR (length F) * (u * Rabs (B2R t))) by (apply Rmult_le_pos; [lra|apply Rmult_le_pos; lra]).
  assert (M5 : 0 <= u * P) by (apply Rmult_le_pos; lra). assert (M6 : 0 <= u * Rabs (B2R t)) by (apply Rmult_le_pos; lra).
  replace ((INR m + INR (length F) + 3) * (4 * u) * Eq) with
    (4 * (INR m * (u * P)) + 4 * (INR (length F) * (u * P)) + 12 * (u * P) + 4 * (INR m * (u * Rabs (B2R t))) + 4 * (INR (length F) * (u * Rabs (B2R t))) + 12 * (u * Rabs (B2R t)))
    by (rewrite EP; ring).
  replace (INR m * u * (4 * P) + u * P / 4 + 3 * (INR (length F) + 2) * u * P) with
    (4 * (INR m * (u * P)) + (u * P) / 4 + 3 * (INR (length F) * (u * P)) + 6 * (u * P)) in DA by field.
  unfold ent64, qmi_mat. cbv zeta. fold A0 d. destruct (Nat.eqb i j).
  - destruct (fadd_rnd t (Bopp d) Ft) as [Es Fs].
    { rewrite fopp_fin. exact Fd. }
    { rewrite fopp_R. eapply Rle_trans; [apply Rabs_triang|]. rewrite Rabs_Ropp. apply Rle_trans with (5 * Eq); [rewrite EP; lra|].
      apply Rle_trans with (pow2 3 * pow2 824); [change (pow2 3) with 8; assert (0 <= pow2 824) by apply bpow_ge_0; lra|].
      rewrite <- bpow_plus. apply bpow_le. lia. }
    rewrite fopp_R in Es. assert (R := rnd_rel (B2R t + - B2R d)). rewrite <- Es in R.
    assert (E53 : pow2 (-53) = u / 2) by (unfold u; change (-53)%Z with (-1 + -52)%Z; rewrite bpow_plus; change (pow2 (-1)) with (/ 2); field).
    assert (X := Rabs_triang (B2R t) (- B2R d)). rewrite Rabs_Ropp in X.
    assert (Eeta : pow2 (-1075) <= u * P / 4).
    { eapply Rle_trans; [|exact Q2]. apply Rle_trans with (1 * pow2 (-1073)); [rewrite Rmult_1_l; apply bpow_le; lia|apply Rmult_le_compat_r; [apply bpow_ge_0|exact N1]]. }
    assert (R2 : u / 2 * Rabs (B2R t + - B2R d) <= u / 2 * (Rabs (B2R t) + (4 * P + 5 / 1000 * P))) by (apply Rmult_le_compat_l; lra).
    replace (u / 2 * (Rabs (B2R t) + (4 * P + 5 / 1000 * P))) with ((u * Rabs (B2R t)) / 2 + 4005 / 2000 * (u * P)) in R2 by field.
    rewrite E53 in R. split; [exact Fs|]. split.
    + replace (B2R (fadd t (Bopp d)) - (B2R t - A0)) with ((B2R (fadd t (Bopp d)) - (B2R t + - B2R d)) + - (B2R d - A0)) by ring.
      eapply Rle_trans; [apply Rabs_triang|]. rewrite Rabs_Ropp. lra.
    + replace (B2R (fadd t (Bopp d))) with ((B2R (fadd t (Bopp d)) - (B2R t + - B2R d)) + (B2R t + - B2R d)) by ring.
      eapply Rle_trans; [apply Rabs_triang|]. rewrite EP.
      assert (u * Rabs (B2R t) <= / 1000 * Rabs (B2R t)) by (apply Rmult_le_compat_r; lra).
      assert (u * P <= / 1000 * P) by (apply Rmult_le_compat_r; lra). lra.
  - rewrite fopp_fin, fopp_R. split; [exact Fd|]. split.
    + replace (- B2R d - (0 - A0)) with (- (B2R d - A0)) by ring. rewrite Rabs_Ropp. lra.
    + rewrite Rabs_Ropp, EP. lra.
Qed.
End Entries.
