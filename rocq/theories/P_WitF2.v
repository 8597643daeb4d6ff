(** The cuts of the matrix oracles in binary64. *)
From Coq Require Import ZArith Reals Lra Lia Bool Psatz List.
From Flocq Require Import Core.Core IEEE754.BinarySingleNaN.
From Verif Require Import Base M_Chol M_Lmi M_Float S_LinAlg P_LinAlg P_Chol P_Lmi P_Float P_Float2 S_Float P_FSum P_CholF P_CholF2 P_Chol2 S_Lmi S_Float2 P_LmiF P_WitF S_WitF T_Float.
Local Open Scope R_scope.

(** v' F v as chol_ext.sym_quad evaluates it *)
Section Quad.
Variable dot : nat -> (nat -> b64) -> (nat -> b64) -> b64.
Hypothesis Hd : fdot_any dot.
Variables (r : nat) (v : nat -> b64) (F : nat -> nat -> b64) (MF : R).
Hypothesis Hr0 : (0 < r)%nat.
Hypothesis Hr : (Z.of_nat r <= 2 ^ 20)%Z.
Hypothesis HMF : forall i j, (i < r)%nat -> (j < r)%nat -> Rabs (B2R (F i j)) <= MF.
Notation vr := (fun k => B2R (v k)).
Notation q1 := (S_LinAlg.dot r vr vr).
Hypothesis Hq : 1 <= q1.
Hypothesis Fin : is_finite (dot r (fun j => dot r v (fun i => F i j)) v) = true.
Lemma quad_fin : forall k, (k < r)%nat -> is_finite (v k) = true.
Proof. intros k Hk. apply fdot_fin in Fin as [H _]; [|exact Hd|lia]. apply H. exact Hk. Qed.
Lemma quad_err : Rabs (B2R (dot r (fun j => dot r v (fun i => F i j)) v) - bf r (fun i j => B2R (F i j)) vr vr)
  <= INR r * INR r * pow2 (-50) * (MF + pow2 (-1000)) * q1.
Proof.
  set (s := fun j => dot r v (fun i => F i j)) in *.
  destruct (fdot_fin dot r s v Hd ltac:(lia) Fin) as [FO E].
  set (g := dot r s v) in *. set (R := INR r). assert (R1 : 1 <= R) by (change 1 with (INR 1); apply le_INR; lia).
  set (V := rsum r (fun i => Rabs (vr i))).
  assert (V0 : 0 <= V) by (apply rsum_nonneg; intros; apply Rabs_pos).
  assert (MF0 : 0 <= MF) by (eapply Rle_trans; [apply Rabs_pos|apply (HMF 0%nat 0%nat); lia]).
  set (u := pow2 (-52)). set (h := pow2 (-1073)). assert (u0 : 0 < u) by apply bpow_gt_0. assert (h0 : 0 < h) by apply bpow_gt_0.
  assert (Vq : V * V <= R * q1).
  { assert (C := csum r (fun _ => 1) (fun i => Rabs (vr i))). cbv beta in C.
    rewrite (rsum_ext r (fun i => 1 * Rabs (vr i)) (fun i => Rabs (vr i))) in C by (intros; ring). fold V in C.
    rewrite (rsum_ext r (fun i => Rabs (vr i) * Rabs (vr i)) (fun i => vr i * vr i)) in C by (intros; rewrite <- Rabs_mult; apply Rabs_pos_eq, Rle_0_sqr).
    rewrite rsum_const in C. rewrite !Rmult_1_r in C. exact C. }
  assert (Rq : 1 <= R * q1) by nra.
  assert (Vl : V <= R * q1) by (assert (Z := Rle_0_sqr (V - 1)); unfold Rsqr in Z; lra).
  assert (RU : R * u <= / 4).
  { apply Rle_trans with (pow2 20 * u); [apply Rmult_le_compat_r; [lra|apply (INR_pow2 r 20 Hr); lia]|]. unfold u. rewrite <- bpow_plus.
    change (/ 4) with (pow2 (-2)). apply bpow_le. lia. }
  assert (Inner : forall j, (j < r)%nat -> Rabs (B2R (s j) - rsum r (fun i => vr i * B2R (F i j))) <= R * u * (MF * V) + R * h /\
                            Rabs (B2R (s j)) <= 5 / 4 * (MF * V) + R * h).
  { intros j Hj. destruct (FO j Hj) as [Fs _]. destruct (fdot_fin dot r v (fun i => F i j) Hd ltac:(lia) Fs) as [_ Ej]. fold (s j) in Ej.
    assert (A : rsum r (fun i => Rabs (vr i * B2R (F i j))) <= MF * V).
    { unfold V. rewrite <- rsum_scal_l. apply rsum_le. intros i Hi. rewrite Rabs_mult, Rmult_comm. apply Rmult_le_compat_r; [apply Rabs_pos|apply HMF; assumption]. }
    assert (B : Rabs (rsum r (fun i => vr i * B2R (F i j))) <= MF * V) by (eapply Rle_trans; [apply rsum_Rabs|exact A]).
    fold R u h in Ej.
    assert (C : R * u * rsum r (fun i => Rabs (vr i * B2R (F i j))) <= R * u * (MF * V)) by (apply Rmult_le_compat_l; [apply Rmult_le_pos; lra|exact A]).
    assert (D : R * u * (MF * V) <= / 4 * (MF * V)) by (apply Rmult_le_compat_r; [apply Rmult_le_pos; assumption|exact RU]).
    split; [lra|]. replace (B2R (s j)) with ((B2R (s j) - rsum r (fun i => vr i * B2R (F i j))) + rsum r (fun i => vr i * B2R (F i j))) by ring.
    eapply Rle_trans; [apply Rabs_triang|]. lra. }
  assert (EB : bf r (fun i j => B2R (F i j)) vr vr = rsum r (fun j => rsum r (fun i => vr i * B2R (F i j)) * vr j)).
  { rewrite bf_sums, rsum_exchange. apply rsum_ext. intros j _. rewrite <- rsum_scal_r. reflexivity. }
  rewrite EB.
  assert (E1 : Rabs (rsum r (fun j => B2R (s j) * vr j) - rsum r (fun j => rsum r (fun i => vr i * B2R (F i j)) * vr j)) <= (R * u * (MF * V) + R * h) * V).
  { rewrite <- rsum_minus. eapply Rle_trans; [apply rsum_Rabs|]. unfold V at 2. rewrite <- rsum_scal_l. apply rsum_le. intros j Hj.
    rewrite <- Rmult_minus_distr_r, Rabs_mult. apply Rmult_le_compat_r; [apply Rabs_pos|apply Inner, Hj]. }
  assert (E2 : rsum r (fun j => Rabs (B2R (s j) * vr j)) <= (5 / 4 * (MF * V) + R * h) * V).
  { unfold V at 2. rewrite <- rsum_scal_l. apply rsum_le. intros j Hj. rewrite Rabs_mult. apply Rmult_le_compat_r; [apply Rabs_pos|apply Inner, Hj]. }
  fold R u h in E.
  set (s2 := rsum r (fun j => B2R (s j) * vr j)) in *. set (s3 := rsum r (fun j => Rabs (B2R (s j) * vr j))) in *.
  set (b := rsum r (fun j => rsum r (fun i => vr i * B2R (F i j)) * vr j)) in *.
  assert (T : Rabs (B2R g - b) <= R * u * ((5 / 4 * (MF * V) + R * h) * V) + R * h + (R * u * (MF * V) + R * h) * V).
  { replace (B2R g - b) with ((B2R g - s2) + (s2 - b)) by ring. eapply Rle_trans; [apply Rabs_triang|].
    assert (R * u * s3 <= R * u * ((5 / 4 * (MF * V) + R * h) * V)) by (apply Rmult_le_compat_l; [apply Rmult_le_pos; lra|exact E2]). lra. }
  eapply Rle_trans; [exact T|].
  replace (R * u * ((5 / 4 * (MF * V) + R * h) * V) + R * h + (R * u * (MF * V) + R * h) * V)
    with (9 / 4 * (R * u * (MF * (V * V))) + R * u * (R * h * V) + R * h * V + R * h) by field.
  set (kap := pow2 (-1000)). assert (k0 : 0 < kap) by apply bpow_gt_0.
  assert (P50 : pow2 (-50) = 4 * u) by (unfold u; change 4 with (pow2 2); rewrite <- bpow_plus; reflexivity). rewrite P50.
  assert (hk : h <= u * kap) by (unfold h, u, kap; rewrite <- bpow_plus; apply bpow_le; lia).
  assert (T1 : R * u * (MF * (V * V)) <= R * u * (MF * (R * q1))).
  { apply Rmult_le_compat_l; [apply Rmult_le_pos; lra|]. apply Rmult_le_compat_l; assumption. }
  assert (Rh : 0 <= R * h) by (apply Rmult_le_pos; lra).
  assert (T2 : R * h * V <= R * (u * kap) * (R * q1)).
  { apply Rmult_le_compat; [exact Rh|exact V0| |exact Vl]. apply Rmult_le_compat_l; lra. }
  assert (T3 : R * h <= R * (u * kap) * (R * q1)).
  { rewrite <- (Rmult_1_r (R * h)). apply Rmult_le_compat; [exact Rh|lra| |exact Rq]. apply Rmult_le_compat_l; lra. }
  assert (T4 : R * u * (R * h * V) <= / 4 * (R * h * V)) by (apply Rmult_le_compat_r; [apply Rmult_le_pos; lra|exact RU]).
  assert (P1 : 0 <= R * u * (MF * (R * q1))) by (apply Rmult_le_pos; [apply Rmult_le_pos; lra|apply Rmult_le_pos; lra]).
  assert (P2 : 0 <= R * (u * kap) * (R * q1)) by (apply Rmult_le_pos; [apply Rmult_le_pos; [lra|apply Rmult_le_pos; lra]|lra]).
  replace (R * R * (4 * u) * (MF + kap) * q1) with (4 * (R * u * (MF * (R * q1))) + 4 * (R * (u * kap) * (R * q1))) by ring.
  lra.
Qed.
End Quad.

Section Cut.
Variable dot : nat -> (nat -> b64) -> (nat -> b64) -> b64.
Hypothesis Hd : fdot_any dot.
Hypothesis NE : ext64 dot.
Variables (m : nat) (a : nat -> nat -> b64) (Ar : nat -> nat -> R) (e Ma : R).
Hypothesis Hm0 : (0 < m)%nat.
Hypothesis Hm : (Z.of_nat m <= 2 ^ 20)%Z.
Hypothesis Hsym : sym m Ar.
Hypothesis Hfin : low_finite m a.
Hypothesis Hclose : forall i j, (j <= i)%nat -> (i < m)%nat -> Rabs (B2R (a i j) - Ar i j) <= e.
Hypothesis Hent : forall i j, (j <= i)%nat -> (i < m)%nat -> Rabs (B2R (a i j)) <= Ma.
Notation kap := (pow2 (-1000)).

Theorem wit_cut (Q Q' Q2 : chol b64) ep Mx : c_n Q = m -> c_semi Q = false -> chol64 dot a Q = Ok (Q', false) ->
  @chol_witness b64 (FNumD dot) Q' = Ok (Q2, ep) -> is_finite ep = true ->
  is_finite (@chol_sym_quad b64 (FNumD dot) Q2 Mx) = true ->
  exists v, 1 <= S_LinAlg.dot m v v /\
    0 <= B2R ep <= 2 * (INR m * (Ma + kap)) * S_LinAlg.dot m v v /\
    bf m Ar v v + B2R ep <= (12 * (INR m * (INR m + 1) * pow2 (-52) * (Ma + kap)) + INR m * e) * S_LinAlg.dot m v v /\
    forall (M : nat -> nat -> b64) MF, (forall i j, (i < m)%nat -> (j < m)%nat -> Rabs (B2R (M i j)) <= MF) ->
      is_finite (@chol_sym_quad b64 (FNumD dot) Q2 M) = true ->
      Rabs (B2R (@chol_sym_quad b64 (FNumD dot) Q2 M) - bf m (fun i j => B2R (M i j)) v v) <= INR m * INR m * pow2 (-50) * (MF + kap) * S_LinAlg.dot m v v.
Proof.
  intros En Es H W Fe FM.
  assert (Ma0 : 0 <= Ma) by (eapply Rle_trans; [apply Rabs_pos|apply (Hent 0%nat 0%nat); lia]).
  assert (e0 : 0 <= e) by (eapply Rle_trans; [apply Rabs_pos|apply (Hclose 0%nat 0%nat); lia]).
  assert (k0 : 0 < kap) by apply bpow_gt_0.
  destruct (chol_factorize_rec (N := FNumD dot) a Q Q' false Es H) as (r & Hr & R2 & [(C & _)|(_ & Ep & R0 & R3 & R4)]); [discriminate C|].
  rewrite En in Hr.
  unfold chol_witness, chol_is_spd in W. rewrite Ep in W. cbn [snd] in W. destruct (Nat.eqb_spec r 0); [lia|].
  cbn [nopp none FNumD] in W. rewrite Nat.sub_0_r in W.
  destruct (witness_loop_rec (H := FNumD dot) (NE := NE) r (c_T Q') (r - 1) (r - 1) (vset (c_v Q') (r - 1) (fmake 1 0)) (le_n _)) as [L1 L2]. cbn zeta in L1, L2.
  set (v := @witness_loop b64 (FNumD dot) (r - 1) (r - 1) r (c_T Q') (vset (c_v Q') (r - 1) (fmake 1 0))) in *.
  assert (E : ep = Bopp (c_T Q' (r - 1)%nat (r - 1)%nat)) by congruence.
  assert (EQ2 : Q2 = mk_chol (c_n Q') (0%nat, r) v (c_T Q') (c_semi Q')) by congruence.
  clear W. subst ep Q2. rewrite fopp_fin in Fe. rewrite fopp_R.
  assert (ESQ : forall M, @chol_sym_quad b64 (FNumD dot) (mk_chol (c_n Q') (0%nat, r) v (c_T Q') (c_semi Q')) M = dot r (fun j => dot r v (fun i => M i j)) v).
  { intros M. unfold chol_sym_quad. cbn [c_p c_v Nat.add ndot FNumD]. rewrite Nat.sub_0_r. reflexivity. }
  rewrite ESQ in FM.
  assert (Vp : v (r - 1)%nat = fmake 1 0) by (rewrite L1 by lia; apply vset_eq).
  assert (Vfin : forall k, (k < r)%nat -> is_finite (v k) = true) by (apply (quad_fin dot Hd r v Mx R0 ltac:(lia) FM)).
  set (vr := fun k => B2R (v k)). set (z := zext 0 r vr).
  destruct (zext_quad m r Ar vr Hr) as (Z1 & Z2 & _). fold z in Z1, Z2.
  assert (q1 : 1 <= S_LinAlg.dot r vr vr).
  { apply Rle_trans with (vr (r - 1)%nat * vr (r - 1)%nat); [unfold vr; rewrite Vp, (proj1 fone); lra|].
    unfold S_LinAlg.dot. apply (rsum_ge_term r (fun k => vr k * vr k)); [lia|]. intros; apply Rle_0_sqr. }
  destruct (wit64_quad dot Hd a (c_T Q') m r (r - 1) Hm Hr (fun i j Hj Hi => Hfin i j Hj ltac:(lia)) R2 ltac:(lia) R3 Fe R4 v Vp) with (M := Ma) as (W1 & W2 & W3).
  { intros k Hk. apply L2. lia. }
  { exact Vfin. }
  { intros i j Hj Hi. apply Hent; [exact Hj|lia]. }
  { exact Ma0. }
  fold vr in W1, W2, W3.
  exists z. rewrite Z2. split; [exact q1|]. split; [split; [lra|exact W3]|]. split.
  - rewrite Z1. assert (LC : Rabs (bf r (Am (fun i j => B2R (a i j))) vr vr - bf r Ar vr vr) <= INR r * e * S_LinAlg.dot r vr vr).
    { apply bf_close. intros i j Hi Hj. unfold Am. destruct (Nat.leb_spec j i) as [L|L]; [apply Hclose; [assumption|lia]|].
      rewrite (Hsym i j) by lia. apply Hclose; lia. }
    apply Rabs_le_inv in LC. unfold epsf in W1.
    assert (RM : INR r * e * S_LinAlg.dot r vr vr <= INR m * e * S_LinAlg.dot r vr vr).
    { apply Rmult_le_compat_r; [lra|]. apply Rmult_le_compat_r; [exact e0|apply le_INR, Hr]. }
    lra.
  - intros M MF HMF FMM. rewrite ESQ in FMM |- *. destruct (zext_quad m r (fun i j => B2R (M i j)) vr Hr) as (Y1 & _). fold z in Y1. rewrite Y1.
    eapply Rle_trans; [apply (quad_err dot Hd r v M MF R0 ltac:(lia)); try assumption; intros i j Hi Hj; apply HMF; lia|].
    assert (MF0 : 0 <= MF) by (eapply Rle_trans; [apply Rabs_pos|apply (HMF 0%nat 0%nat); lia]).
    fold vr. apply Rmult_le_compat_r; [lra|]. apply Rmult_le_compat_r; [lra|]. apply Rmult_le_compat_r; [apply bpow_ge_0|].
    apply Rmult_le_compat; try apply pos_INR; apply le_INR, Hr.
Qed.

(** the factorisation with lazily read entries, as factor_pure, keeping the values of sym_quad *)
Lemma factor_pure_sq getA (Q Q1 Q2 : chol b64) g1 ep :
  (forall g i j, (j <= i)%nat -> (i < c_n Q)%nat -> getA g i j = Ok (tt, a i j)) ->
  @chol_factor b64 (FNumD dot) unit getA tt Q = Ok (g1, Q1, false) ->
  @chol_witness b64 (FNumD dot) Q1 = Ok (Q2, ep) ->
  exists Q1' Q2', chol64 dot a Q = Ok (Q1', false) /\ @chol_witness b64 (FNumD dot) Q1' = Ok (Q2', ep) /\
    forall M, @chol_sym_quad b64 (FNumD dot) Q2 M = @chol_sym_quad b64 (FNumD dot) Q2' M.
Proof.
  intros Hg E W.
  pose proof (factor_agree (H := FNumD dot) (NE := NE) getA (pure_getA a) (c_n Q) tt Q Q eq_refl eq_refl) as Hf.
  assert (Hg2 : forall (g : unit) i j, (j <= i)%nat -> (i < c_n Q)%nat -> getA g i j = pure_getA a g i j).
  { intros g i j Hj Hi. rewrite Hg by assumption. reflexivity. }
  specialize (Hf Hg2). rewrite E in Hf.
  pose proof (factor_p_lt (H := FNumD dot) _ _ _ _ _ _ E) as [Hb Hp].
  destruct Hf as (Q1' & E' & Hso). { unfold rows_used. destruct (Nat.eqb_spec (snd (c_p Q1)) 0); lia. }
  unfold chol_is_spd in Hb. symmetry in Hb. apply Nat.eqb_neq in Hb.
  destruct (witness_agree (H := FNumD dot) _ _ Q1 Q1' Hso Hb) as (Qa & Qb & ep' & W1 & W2 & _ & _ & _ & SQ); [lia|].
  assert (Qa = Q2) by congruence. assert (ep' = ep) by congruence. subst.
  exists Q1', Qb. split; [unfold chol_factorize; rewrite E'; reflexivity|]. split; [exact W2|exact SQ].
Qed.
End Cut.

(** the slack of the cut of lmi_oracle and lmi0_oracle *)
Lemma cut_slack_ok m n M Z : 0 <= M -> 0 <= Z ->
  12 * (INR m * (INR m + 1) * pow2 (-52) * (2 * (M + pow2 (-1000)) + pow2 (-1000))) + INR m * ((INR n + 2) * pow2 (-52) * (M + pow2 (-1000))) + INR m * INR m * pow2 (-50) * Z <= cut_slack m n M Z.
Proof.
  intros HM HZ. unfold cut_slack. set (kap := pow2 (-1000)). assert (K : 0 < kap) by apply bpow_gt_0.
  assert (E52 : pow2 (-46) = 64 * pow2 (-52)) by (change 64 with (pow2 6); rewrite <- bpow_plus; reflexivity).
  assert (P : 0 < pow2 (-52)) by apply bpow_gt_0. assert (N1 := pos_INR m). assert (N2 := pos_INR n). rewrite E52.
  apply Rplus_le_compat_r. set (t := INR m * pow2 (-52) * (M + kap)). assert (t0 : 0 <= t) by (unfold t; apply Rmult_le_pos; [apply Rmult_le_pos; lra|lra]).
  assert (A1 : 12 * (INR m * (INR m + 1) * pow2 (-52) * (2 * (M + kap) + kap)) <= 36 * ((INR m + 1) * t)).
  { replace (36 * ((INR m + 1) * t)) with (12 * (INR m * (INR m + 1) * pow2 (-52) * (3 * (M + kap)))) by (unfold t; ring).
    apply Rmult_le_compat_l; [lra|]. apply Rmult_le_compat_l; [|lra]. apply Rmult_le_pos; [apply Rmult_le_pos; lra|lra]. }
  replace (INR m * ((INR n + 2) * pow2 (-52) * (M + kap))) with ((INR n + 2) * t) by (unfold t; ring).
  replace (INR m * (INR m + INR n + 2) * (64 * pow2 (-52)) * (M + kap)) with (64 * ((INR m + INR n + 2) * t)) by (unfold t; ring).
  assert (0 <= INR m * t) by (apply Rmult_le_pos; lra). assert (0 <= INR n * t) by (apply Rmult_le_pos; lra). lra.
Qed.

(** sums of gradients *)
Lemma grad_sum n (g G : nat -> R) (MF x z : nat -> R) c : 0 <= c ->
  (forall k, (k < n)%nat -> Rabs (g k - G k) <= c * (MF k + pow2 (-1000))) ->
  Rabs (S_LinAlg.dot n g (fun k => z k - x k) - rsum n (fun k => G k * (z k - x k))) <= c * wdist n MF z x.
Proof.
  intros Hc H. unfold S_LinAlg.dot, wdist. rewrite <- rsum_minus. eapply Rle_trans; [apply rsum_Rabs|]. rewrite <- rsum_scal_l. apply rsum_le. intros k Hk.
  rewrite <- Rmult_minus_distr_r, Rabs_mult, <- Rmult_assoc. apply Rmult_le_compat_r; [apply Rabs_pos|apply H, Hk].
Qed.
