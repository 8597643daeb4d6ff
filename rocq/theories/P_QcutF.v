(** The cuts of qmi_oracle in binary64. *)
From Coq Require Import ZArith Reals Lra Lia Bool Psatz List.
From Flocq Require Import Core.Core IEEE754.BinarySingleNaN.
From Verif Require Import Base M_Chol M_Lmi M_Float S_LinAlg P_LinAlg P_Chol P_Lmi P_Float P_Float2 S_Float P_FSum P_CholF P_CholF2 P_Chol2 S_Lmi S_Float2 P_LmiF P_QmiF P_WitF S_WitF P_WitF2 S_WitQ T_Float.
Local Open Scope R_scope.

(** -2 (v'Fk)(F(x)v) as qmi_oracle evaluates it *)
Section QGrad.
Variable dot : nat -> (nat -> b64) -> (nat -> b64) -> b64.
Hypothesis Hd : fdot_any dot.
Variables (r m n : nat) (v : nat -> b64) (Fk col : nat -> nat -> b64) (A : nat -> nat -> R) (K L : R).
Hypothesis Hr : (r <= m)%nat.
Hypothesis Hm0 : (0 < m)%nat.
Hypothesis Hm : (Z.of_nat m <= 2 ^ 20)%Z.
Hypothesis Hn : (Z.of_nat n <= 2 ^ 20)%Z.
Hypothesis HK : pow2 (-1000) <= K.
Hypothesis HL : pow2 (-1000) <= L.
Hypothesis HKL : pow2 (-1000) <= K * L.
Hypothesis Hcol : forall k c, (k < r)%nat -> (c < m)%nat ->
  Rabs (B2R (col k c) - A c k) <= (INR n + 2) * pow2 (-52) * K /\ Rabs (B2R (col k c)) <= 2 * K /\ Rabs (A c k) <= K.
Hypothesis HF : forall i c, (i < r)%nat -> (c < m)%nat -> Rabs (B2R (Fk i c)) <= L.
Notation vr := (fun k => B2R (v k)).
Notation q1 := (S_LinAlg.dot r vr vr).
Notation V := (rsum r (fun i => Rabs (vr i))).
Hypothesis HV : 1 <= V.
Let fv c := dot r v (fun i => Fk i c).
Let av c := dot r v (fun k => col k c).
Let gp := dot m fv av.
Let g := fmul (fmake (-2) 0) gp.
Hypothesis Fin : is_finite g = true.
Let Mm := INR m.
Let Nn := INR n.
Let u := pow2 (-52).
Let h := pow2 (-1073).
Let F0 c := rsum r (fun i => vr i * B2R (Fk i c)).
Let A0 c := rsum r (fun k => vr k * A c k).

Lemma qg_fin_p : is_finite gp = true.
Proof. unfold g in Fin. apply fmul_fin in Fin as (_ & H & _). exact H. Qed.
Lemma qg_fin_fa c : (c < m)%nat -> is_finite (fv c) = true /\ is_finite (av c) = true.
Proof. intros Hc. destruct (fdot_fin dot m fv av Hd ltac:(lia) qg_fin_p) as [H _]. exact (H c Hc). Qed.
Lemma qg_fin_v k : (k < r)%nat -> is_finite (v k) = true.
Proof.
  intros Hk. destruct (qg_fin_fa 0%nat Hm0) as [H _]. destruct (fdot_fin dot r v (fun i => Fk i 0%nat) Hd ltac:(lia) H) as [H1 _]. exact (proj1 (H1 k Hk)).
Qed.
Lemma qg_u : 0 < u. Proof. apply bpow_gt_0. Qed.
Lemma qg_M : 1 <= Mm. Proof. change 1 with (INR 1). apply le_INR. lia. Qed.
Lemma qg_R : INR r <= Mm. Proof. apply le_INR, Hr. Qed.
Lemma qg_h : h <= u * pow2 (-1000). Proof. unfold h, u. rewrite <- bpow_plus. apply bpow_le. lia. Qed.
Lemma qg_small : (8 * Mm + 2 * Nn + 4) * u <= / 4.
Proof.
  assert (M1 := INR_pow2 m 20 Hm ltac:(lia)). assert (N1 := INR_pow2 n 20 Hn ltac:(lia)). fold Mm in M1. fold Nn in N1.
  assert (P : 1 <= pow2 20) by (change 1 with (pow2 0); apply bpow_le; lia).
  apply Rle_trans with (pow2 24 * u).
  - apply Rmult_le_compat_r; [left; apply qg_u|]. change 24%Z with (4 + 20)%Z. rewrite bpow_plus. change (pow2 4) with 16. lra.
  - unfold u. rewrite <- bpow_plus. change (/ 4) with (pow2 (-2)). apply bpow_le. lia.
Qed.
Lemma qg_pos : 0 < K /\ 0 < L.
Proof. assert (P := bpow_gt_0 radix2 (-1000)). split; lra. Qed.
Lemma qg_sum c f B : (c < m)%nat -> (forall k, (k < r)%nat -> Rabs (f k) <= B) -> rsum r (fun k => Rabs (vr k * f k)) <= B * V.
Proof.
  intros Hc H. rewrite <- rsum_scal_l. apply rsum_le. intros k Hk. rewrite Rabs_mult, Rmult_comm. apply Rmult_le_compat_r; [apply Rabs_pos|exact (H k Hk)].
Qed.
(** h is negligible: INR r h <= Mm u B V for B >= 2^-1000 *)
Lemma qg_rh B : pow2 (-1000) <= B -> INR r * h <= Mm * u * (B * V).
Proof.
  intros HB. assert (P := bpow_gt_0 radix2 (-1000)). assert (M1 := qg_M). assert (U := qg_u). assert (H := qg_h). assert (h0 : 0 < h) by apply bpow_gt_0.
  apply Rle_trans with (Mm * h); [apply Rmult_le_compat_r; [lra|apply qg_R]|]. rewrite Rmult_assoc. apply Rmult_le_compat_l; [lra|].
  eapply Rle_trans; [exact H|]. apply Rmult_le_compat_l; [lra|]. apply Rle_trans with (B * 1); [lra|]. apply Rmult_le_compat_l; lra.
Qed.
Lemma qg_f c : (c < m)%nat -> Rabs (B2R (fv c) - F0 c) <= 2 * Mm * u * (L * V) /\ Rabs (F0 c) <= L * V.
Proof.
  intros Hc. destruct (qg_fin_fa c Hc) as [H _]. destruct (fdot_fin dot r v (fun i => Fk i c) Hd ltac:(lia) H) as [_ E]. fold (fv c) (F0 c) u h in E.
  assert (S := qg_sum c (fun i => B2R (Fk i c)) L Hc (fun k Hk => HF k c Hk Hc)). cbv beta in S.
  assert (R := qg_rh L HL). assert (U := qg_u). assert (RM := qg_R). assert (R0 := pos_INR r). destruct qg_pos as [K0 L0].
  assert (C : INR r * u * rsum r (fun i => Rabs (vr i * B2R (Fk i c))) <= Mm * u * (L * V)).
  { apply Rmult_le_compat; [apply Rmult_le_pos; lra|apply rsum_nonneg; intros; apply Rabs_pos|apply Rmult_le_compat_r; lra|exact S]. }
  split; [lra|]. eapply Rle_trans; [apply rsum_Rabs|exact S].
Qed.
Lemma qg_a c : (c < m)%nat -> Rabs (B2R (av c) - A0 c) <= (3 * Mm + Nn + 2) * u * (K * V) /\ Rabs (A0 c) <= K * V.
Proof.
  intros Hc. destruct (qg_fin_fa c Hc) as [_ H]. destruct (fdot_fin dot r v (fun k => col k c) Hd ltac:(lia) H) as [_ E]. fold (av c) u h in E.
  assert (S := qg_sum c (fun k => B2R (col k c)) (2 * K) Hc (fun k Hk => proj1 (proj2 (Hcol k c Hk Hc)))). cbv beta in S.
  assert (S2 := qg_sum c (fun k => B2R (col k c) - A c k) ((Nn + 2) * u * K) Hc (fun k Hk => proj1 (Hcol k c Hk Hc))). cbv beta in S2.
  assert (S3 := qg_sum c (fun k => A c k) K Hc (fun k Hk => proj2 (proj2 (Hcol k c Hk Hc)))). cbv beta in S3.
  assert (R := qg_rh K HK). assert (U := qg_u). assert (RM := qg_R). assert (R0 := pos_INR r). destruct qg_pos as [K0 L0].
  assert (C : INR r * u * rsum r (fun i => Rabs (vr i * B2R (col i c))) <= Mm * u * (2 * K * V)).
  { apply Rmult_le_compat; [apply Rmult_le_pos; lra|apply rsum_nonneg; intros; apply Rabs_pos|apply Rmult_le_compat_r; lra|exact S]. }
  assert (D : Rabs (rsum r (fun k => vr k * B2R (col k c)) - A0 c) <= (Nn + 2) * u * K * V).
  { unfold A0. rewrite <- rsum_minus. eapply Rle_trans; [apply rsum_Rabs|]. eapply Rle_trans; [|exact S2]. apply Req_le, rsum_ext. intros k _. f_equal. ring. }
  split; [|eapply Rle_trans; [apply rsum_Rabs|exact S3]].
  replace (B2R (av c) - A0 c) with ((B2R (av c) - rsum r (fun k => vr k * B2R (col k c))) + (rsum r (fun k => vr k * B2R (col k c)) - A0 c)) by ring.
  eapply Rle_trans; [apply Rabs_triang|]. lra.
Qed.
Lemma prod_err (a b x y Ea Eb X Y : R) : Rabs (a - x) <= Ea -> Rabs (b - y) <= Eb -> Rabs x <= X -> Rabs y <= Y -> Ea <= / 4 * X -> Eb <= / 4 * Y ->
  Rabs (a * b - x * y) <= 5 / 4 * X * Eb + Y * Ea /\ Rabs (a * b) <= 25 / 16 * (X * Y).
Proof.
  intros Ha Hb Hx Hy H1 H2. assert (Pa := Rabs_pos (a - x)). assert (Pb := Rabs_pos (b - y)). assert (Px := Rabs_pos x). assert (Py := Rabs_pos y).
  assert (A1 : Rabs a <= 5 / 4 * X) by (replace a with ((a - x) + x) by ring; eapply Rle_trans; [apply Rabs_triang|lra]).
  assert (B1 : Rabs b <= 5 / 4 * Y) by (replace b with ((b - y) + y) by ring; eapply Rle_trans; [apply Rabs_triang|lra]).
  split.
  - replace (a * b - x * y) with (a * (b - y) + y * (a - x)) by ring. eapply Rle_trans; [apply Rabs_triang|]. rewrite !Rabs_mult.
    apply Rplus_le_compat; apply Rmult_le_compat; try apply Rabs_pos; assumption.
  - rewrite Rabs_mult. replace (25 / 16 * (X * Y)) with (5 / 4 * X * (5 / 4 * Y)) by field. apply Rmult_le_compat; try apply Rabs_pos; assumption.
Qed.
Let T := K * L * (V * V).
Lemma qg_T : pow2 (-1000) <= T.
Proof.
  unfold T. destruct qg_pos as [K0 L0]. assert (V1 : 1 <= V * V) by (apply Rle_trans with (1 * 1); [lra|apply Rmult_le_compat; lra]).
  apply Rle_trans with (K * L * 1); [lra|]. apply Rmult_le_compat_l; [apply Rmult_le_pos; lra|exact V1].
Qed.
Lemma qg_prod c : (c < m)%nat -> Rabs (B2R (fv c) * B2R (av c) - F0 c * A0 c) <= (23 / 4 * Mm + 5 / 4 * Nn + 5 / 2) * u * T /\ Rabs (B2R (fv c) * B2R (av c)) <= 25 / 16 * T /\ Rabs (F0 c * A0 c) <= T.
Proof.
  intros Hc. destruct (qg_f c Hc) as [F1 F2]. destruct (qg_a c Hc) as [A1 A2]. assert (S := qg_small). assert (U := qg_u). assert (M1 := qg_M). assert (N1 : 0 <= Nn) by apply pos_INR.
  destruct qg_pos as [K0 L0]. assert (LV : 0 <= L * V) by (apply Rmult_le_pos; lra). assert (KV : 0 <= K * V) by (apply Rmult_le_pos; lra).
  assert (S1 : 2 * Mm * u <= / 4) by (assert (0 <= (6 * Mm + 2 * Nn + 4) * u) by (apply Rmult_le_pos; lra); lra).
  assert (S2 : (3 * Mm + Nn + 2) * u <= / 4) by (assert (0 <= (5 * Mm + Nn + 2) * u) by (apply Rmult_le_pos; lra); lra).
  destruct (prod_err _ _ _ _ _ _ _ _ F1 A1 F2 A2) as [P1 P2]; [apply Rmult_le_compat_r; assumption|apply Rmult_le_compat_r; assumption|].
  split; [|split].
  - eapply Rle_trans; [exact P1|]. apply Req_le. unfold T. field.
  - eapply Rle_trans; [exact P2|]. apply Req_le. unfold T. ring.
  - rewrite Rabs_mult. replace T with (L * V * (K * V)) by (unfold T; ring). apply Rmult_le_compat; try apply Rabs_pos; assumption.
Qed.
Lemma qg_outer : Rabs (B2R gp - rsum m (fun c => F0 c * A0 c)) <= (8 * Mm + 2 * Nn + 4) * u * (Mm * T) /\ Rabs (B2R gp) <= 2 * (Mm * T).
Proof.
  destruct (fdot_fin dot m fv av Hd ltac:(lia) qg_fin_p) as [_ E]. fold gp Mm u h in E. assert (T0 := qg_T). assert (P := bpow_gt_0 radix2 (-1000)).
  assert (U := qg_u). assert (M1 := qg_M). assert (N1 : 0 <= Nn) by apply pos_INR. assert (S := qg_small). assert (H := qg_h).
  assert (S1 : rsum m (fun c => Rabs (B2R (fv c) * B2R (av c))) <= Mm * (25 / 16 * T)).
  { unfold Mm. rewrite <- rsum_const. apply rsum_le. intros c Hc. apply qg_prod, Hc. }
  assert (S2 : Rabs (rsum m (fun c => B2R (fv c) * B2R (av c)) - rsum m (fun c => F0 c * A0 c)) <= Mm * ((23 / 4 * Mm + 5 / 4 * Nn + 5 / 2) * u * T)).
  { rewrite <- rsum_minus. eapply Rle_trans; [apply rsum_Rabs|]. unfold Mm at 1. rewrite <- rsum_const. apply rsum_le. intros c Hc. apply qg_prod, Hc. }
  assert (S3 : Rabs (rsum m (fun c => F0 c * A0 c)) <= Mm * T).
  { eapply Rle_trans; [apply rsum_Rabs|]. unfold Mm. rewrite <- rsum_const. apply rsum_le. intros c Hc. apply qg_prod, Hc. }
  assert (E1 : Mm * u * rsum m (fun c => Rabs (B2R (fv c) * B2R (av c))) <= Mm * u * (Mm * (25 / 16 * T))) by (apply Rmult_le_compat_l; [apply Rmult_le_pos; lra|exact S1]).
  assert (E2 : Mm * h <= Mm * (u * T)) by (apply Rmult_le_compat_l; [lra|]; eapply Rle_trans; [exact H|apply Rmult_le_compat_l; lra]).
  assert (MT : 0 <= Mm * T) by (apply Rmult_le_pos; lra).
  assert (uMT : 0 <= u * (Mm * T)) by (apply Rmult_le_pos; lra).
  assert (uMMT : 0 <= Mm * (u * (Mm * T))) by (apply Rmult_le_pos; lra). assert (uNMT : 0 <= Nn * (u * (Mm * T))) by (apply Rmult_le_pos; lra).
  match goal with |- ?P1 /\ _ => assert (D : P1) end.
  { replace (B2R gp - rsum m (fun c => F0 c * A0 c)) with ((B2R gp - rsum m (fun c => B2R (fv c) * B2R (av c))) + (rsum m (fun c => B2R (fv c) * B2R (av c)) - rsum m (fun c => F0 c * A0 c))) by ring.
    eapply Rle_trans; [apply Rabs_triang|]. lra. }
  split; [exact D|]. replace (B2R gp) with ((B2R gp - rsum m (fun c => F0 c * A0 c)) + rsum m (fun c => F0 c * A0 c)) by ring.
  eapply Rle_trans; [apply Rabs_triang|]. assert ((8 * Mm + 2 * Nn + 4) * u * (Mm * T) <= / 4 * (Mm * T)) by (apply Rmult_le_compat_r; assumption). lra.
Qed.
Lemma qg_Vq : V * V <= Mm * q1.
Proof.
  assert (C := csum r (fun _ => 1) (fun i => Rabs (vr i))). cbv beta in C.
  rewrite (rsum_ext r (fun i => 1 * Rabs (vr i)) (fun i => Rabs (vr i))) in C by (intros; ring).
  rewrite (rsum_ext r (fun i => Rabs (vr i) * Rabs (vr i)) (fun i => vr i * vr i)) in C by (intros; rewrite <- Rabs_mult; apply Rabs_pos_eq, Rle_0_sqr).
  rewrite rsum_const in C. rewrite !Rmult_1_r in C. eapply Rle_trans; [exact C|]. apply Rmult_le_compat_r; [apply rsum_nonneg; intros; apply Rle_0_sqr|apply qg_R].
Qed.
Lemma qgrad_err : Rabs (B2R g + 2 * rsum m (fun c => F0 c * A0 c)) <= Mm * Mm * (Mm + Nn + 2) * pow2 (-48) * K * L * q1.
Proof.
  destruct qg_outer as [O1 O2]. assert (T0 := qg_T). assert (P := bpow_gt_0 radix2 (-1000)). assert (U := qg_u). assert (M1 := qg_M). assert (N1 : 0 <= Nn) by apply pos_INR.
  assert (E : B2R g = rnd (-2 * B2R gp)).
  { unfold g in Fin |- *. destruct (fmul_fin _ _ Fin) as (_ & _ & E). rewrite E. f_equal. f_equal. rewrite fmakeR by lia. change (pow2 0) with 1. ring. }
  assert (Er := rnd_rel (-2 * B2R gp)). rewrite <- E, Rabs_mult in Er. replace (Rabs (-2)) with 2 in Er by (rewrite Rabs_left; lra).
  assert (U53 : pow2 (-53) = u / 2) by (unfold u; change (-52)%Z with (1 + -53)%Z; rewrite bpow_plus; change (pow2 1) with 2; field).
  assert (E75 : pow2 (-1075) <= u * T).
  { apply Rle_trans with (u * pow2 (-1000)); [unfold u; rewrite <- bpow_plus; apply bpow_le; lia|apply Rmult_le_compat_l; lra]. }
  assert (MT : 0 <= u * (Mm * T)) by (apply Rmult_le_pos; [lra|apply Rmult_le_pos; lra]).
  assert (uT : u * T <= u * (Mm * T)). { apply Rmult_le_compat_l; [lra|]. rewrite <- (Rmult_1_l T) at 1. apply Rmult_le_compat_r; lra. }
  change uro with (pow2 (-53)) in Er. rewrite U53 in Er.
  assert (E2 : u / 2 * (2 * Rabs (B2R gp)) <= u / 2 * (2 * (2 * (Mm * T)))) by (apply Rmult_le_compat_l; lra).
  assert (D : Rabs (B2R g + 2 * rsum m (fun c => F0 c * A0 c)) <= (16 * Mm + 4 * Nn + 11) * u * (Mm * T)).
  { replace (B2R g + 2 * rsum m (fun c => F0 c * A0 c)) with ((B2R g - -2 * B2R gp) + -2 * (B2R gp - rsum m (fun c => F0 c * A0 c))) by ring.
    eapply Rle_trans; [apply Rabs_triang|]. rewrite (Rabs_mult (-2)). replace (Rabs (-2)) with 2 by (rewrite Rabs_left; lra). lra. }
  eapply Rle_trans; [exact D|]. assert (W := qg_Vq). destruct qg_pos as [K0 L0].
  assert (P48 : pow2 (-48) = 16 * u) by (unfold u; change 16 with (pow2 4); rewrite <- bpow_plus; reflexivity). rewrite P48.
  apply Rle_trans with (16 * (Mm + Nn + 2) * u * (Mm * (K * L * (Mm * q1)))); [|apply Req_le; ring].
  apply Rmult_le_compat.
  - apply Rmult_le_pos; lra.
  - apply Rmult_le_pos; lra.
  - apply Rmult_le_compat_r; lra.
  - apply Rmult_le_compat_l; [lra|]. apply Rmult_le_compat_l; [apply Rmult_le_pos; lra|exact W].
Qed.
End QGrad.

(** the quadratic form of t I - F(x)'F(x) is concave in x *)
Lemma qmi_concave m r (F0 : nat -> nat -> R) F t t' x z v : (r <= m)%nat -> all_sym m F ->
  rsum (length F) (fun k => -2 * rsum m (fun c => rsum r (fun i => v i * nth k F (fun _ _ => 0) i c) * rsum r (fun i => v i * aff_mat F0 F x c i)) * (z k - x k))
  - dot r v v * (t' - t) <= bf r (qmi_mat m F0 F t x) v v - bf r (qmi_mat m F0 F t' z) v v.
Proof.
  intros Hr HF.
  change (bf r (qmi_mat m F0 F t x) v v) with (bf r (blk (qmi_mat m F0 F t x) 0) v v).
  change (bf r (qmi_mat m F0 F t' z) v v) with (bf r (blk (qmi_mat m F0 F t' z) 0) v v). rewrite !bf_qmi_mat.
  set (a := fun c => Fv 0 r (aff_mat F0 F x) v c).
  set (d := fun c => rsum (length F) (fun k => Fv 0 r (nth k F (fun _ _ => 0)) v c * (z k - x k))).
  assert (Hzr : forall c, Fv 0 r (aff_mat F0 F z) v c = a c - d c).
  { intros c. unfold a, d. rewrite !Fv_aff.
    rewrite (rsum_ext (length F) (fun k => Fv 0 r (nth k F (fun _ _ => 0)) v c * (z k - x k))
      (fun k => Fv 0 r (nth k F (fun _ _ => 0)) v c * z k - Fv 0 r (nth k F (fun _ _ => 0)) v c * x k)) by (intros; ring).
    rewrite rsum_minus. ring. }
  rewrite (rsum_ext m (fun c => Fv 0 r (aff_mat F0 F z) v c * Fv 0 r (aff_mat F0 F z) v c) (fun c => (a c - d c) * (a c - d c))) by (intros; rewrite Hzr; reflexivity).
  assert (S := sq_lower m a d).
  assert (E : rsum (length F) (fun k => -2 * rsum m (fun c => rsum r (fun i => v i * nth k F (fun _ _ => 0) i c) * rsum r (fun i => v i * aff_mat F0 F x c i)) * (z k - x k))
    = -2 * rsum m (fun c => a c * d c)).
  { unfold d. rewrite (rsum_ext m (fun c => a c * rsum (length F) (fun k => Fv 0 r (nth k F (fun _ _ => 0)) v c * (z k - x k)))
      (fun c => rsum (length F) (fun k => a c * (Fv 0 r (nth k F (fun _ _ => 0)) v c * (z k - x k))))) by (intros; rewrite rsum_scal_l; reflexivity).
    rewrite rsum_exchange, <- rsum_scal_l. apply rsum_ext. intros k Hk. rewrite Rmult_assoc. f_equal. rewrite <- rsum_scal_r. apply rsum_ext. intros c Hc.
    assert (E1 : rsum r (fun i => v i * nth k F (fun _ _ => 0) i c) = Fv 0 r (nth k F (fun _ _ => 0)) v c).
    { unfold Fv. apply rsum_ext. intros i Hi. cbn [Nat.add]. rewrite (HF (nth k F (fun _ _ => 0)) (nth_In _ _ Hk) i c) by lia. ring. }
    assert (E2 : rsum r (fun i => v i * aff_mat F0 F x c i) = a c) by (unfold a, Fv; apply rsum_ext; intros i Hi; cbn [Nat.add]; ring).
    rewrite E1, E2. ring. }
  rewrite E. change (rsum m (fun c => Fv 0 r (aff_mat F0 F x) v c * Fv 0 r (aff_mat F0 F x) v c)) with (rsum m (fun c => a c * a c)). lra.
Qed.

(** witness() called twice sets the same entries *)
Lemma witness_twice {A} `{NE : NdotExt A} (Q Q2 Q3 : chol A) ep ep3 r : c_p Q = (0%nat, r) -> (0 < r)%nat ->
  chol_witness Q = Ok (Q2, ep) -> chol_witness Q2 = Ok (Q3, ep3) ->
  c_p Q3 = (0%nat, r) /\ forall k, (k < r)%nat -> c_v Q3 k = c_v Q2 k.
Proof.
  intros Ep R0 W2 W3. unfold chol_witness, chol_is_spd in W2. rewrite Ep in W2. cbn [snd] in W2. destruct (Nat.eqb_spec r 0); [lia|].
  rewrite Nat.sub_0_r in W2. injection W2 as EQ2 _.
  unfold chol_witness, chol_is_spd in W3. rewrite <- EQ2 in W3. cbn [c_p c_T c_v snd] in W3. rewrite ?Ep in W3. cbn [snd] in W3. destruct (Nat.eqb_spec r 0); [lia|].
  rewrite Nat.sub_0_r in W3. injection W3 as EQ3 _.
  subst Q2 Q3. cbn [c_p c_v c_T]. split; [assumption || reflexivity|].
  set (v2 := witness_loop (r - 1) (r - 1) r (c_T Q) (vset (c_v Q) (r - 1) none)).
  destruct (witness_loop_rec r (c_T Q) (r - 1) (r - 1) (vset (c_v Q) (r - 1) none) (le_n _)) as [L1 L2]. cbn zeta in L1, L2. fold v2 in L1, L2.
  destruct (witness_loop_rec r (c_T Q) (r - 1) (r - 1) (vset v2 (r - 1) none) (le_n _)) as [K1 K2]. cbn zeta in K1, K2.
  set (v3 := witness_loop (r - 1) (r - 1) r (c_T Q) (vset v2 (r - 1) none)) in *.
  assert (HH : forall d k, (k < r)%nat -> (r - 1 - k <= d)%nat -> v3 k = v2 k).
  { induction d as [|d IH]; intros k Hk Hd.
    - assert (k = r - 1)%nat by lia. subst k. rewrite L1, K1 by lia. rewrite !vset_eq. reflexivity.
    - destruct (Nat.eq_dec k (r - 1)) as [->|Hne]; [apply IH; lia|]. rewrite L2, K2 by lia. f_equal. apply ndot_ext; [reflexivity|]. intros l Hl. apply IH; lia. }
  intros k Hk. apply (HH (r - 1 - k)%nat); lia.
Qed.

Section CutV.
Variable dot : nat -> (nat -> b64) -> (nat -> b64) -> b64.
Hypothesis Hd : fdot_any dot.
Hypothesis NE : ext64 dot.
Variables (m : nat) (a : nat -> nat -> b64) (Ar : nat -> nat -> R) (e Ma : R).
Hypothesis Hm0 : (0 < m)%nat.
Hypothesis Hm : (Z.of_nat m <= 2 ^ 20)%Z.
Hypothesis Hsym : sym m Ar.
Hypothesis Hfin : low_finite m a.
Hypothesis Hclose : forall i j, (j <= i)%nat -> (i < m)%nat -> Rabs (B2R (a i j) - Ar i j) <= e.
Hypothesis Hent : forall i j, (j <= i)%nat -> (i < m)%nat -> Rabs (B2R (a i j)) <= Ma.
Notation kap := (pow2 (-1000)).
(** [wit_cut] with the witness vector in view *)
Theorem wit_vec (Q Q' Q2 : chol b64) ep : c_n Q = m -> c_semi Q = false -> chol64 dot a Q = Ok (Q', false) ->
  @chol_witness b64 (FNumD dot) Q' = Ok (Q2, ep) -> is_finite ep = true ->
  exists r, c_p Q' = (0%nat, r) /\ c_p Q2 = (0%nat, r) /\ (0 < r <= m)%nat /\
  let vr := fun k => B2R (c_v Q2 k) in
  ((forall k, (k < r)%nat -> is_finite (c_v Q2 k) = true) ->
    vr (r - 1)%nat = 1 /\ 1 <= S_LinAlg.dot r vr vr /\
    0 <= B2R ep <= 2 * (INR m * (Ma + kap)) * S_LinAlg.dot r vr vr /\
    bf r Ar vr vr + B2R ep <= (12 * (INR m * (INR m + 1) * pow2 (-52) * (Ma + kap)) + INR m * e) * S_LinAlg.dot r vr vr).
Proof.
  intros En Es H W Fe.
  assert (Ma0 : 0 <= Ma) by (eapply Rle_trans; [apply Rabs_pos|apply (Hent 0%nat 0%nat); lia]).
  assert (e0 : 0 <= e) by (eapply Rle_trans; [apply Rabs_pos|apply (Hclose 0%nat 0%nat); lia]).
  assert (k0 : 0 < kap) by apply bpow_gt_0.
  destruct (chol_factorize_rec (N := FNumD dot) a Q Q' false Es H) as (r & Hr & R2 & [(C & _)|(_ & Ep & R0 & R3 & R4)]); [discriminate C|].
  rewrite En in Hr. exists r. split; [exact Ep|].
  unfold chol_witness, chol_is_spd in W. rewrite Ep in W. cbn [snd] in W. destruct (Nat.eqb_spec r 0); [lia|].
  cbn [nopp none FNumD] in W. rewrite Nat.sub_0_r in W.
  destruct (witness_loop_rec (H := FNumD dot) (NE := NE) r (c_T Q') (r - 1) (r - 1) (vset (c_v Q') (r - 1) (fmake 1 0)) (le_n _)) as [L1 L2]. cbn zeta in L1, L2.
  set (v := @witness_loop b64 (FNumD dot) (r - 1) (r - 1) r (c_T Q') (vset (c_v Q') (r - 1) (fmake 1 0))) in *.
  assert (E : ep = Bopp (c_T Q' (r - 1)%nat (r - 1)%nat)) by congruence.
  assert (EQ2 : Q2 = mk_chol (c_n Q') (0%nat, r) v (c_T Q') (c_semi Q')) by congruence.
  clear W. subst ep Q2. cbn [c_p c_v]. split; [reflexivity|]. split; [lia|]. cbv zeta. intros Vfin.
  rewrite fopp_fin in Fe. rewrite fopp_R.
  assert (Vp : v (r - 1)%nat = fmake 1 0) by (rewrite L1 by lia; apply vset_eq).
  set (vr := fun k => B2R (v k)).
  assert (q1 : 1 <= S_LinAlg.dot r vr vr).
  { apply Rle_trans with (vr (r - 1)%nat * vr (r - 1)%nat); [unfold vr; rewrite Vp, (proj1 fone); lra|].
    unfold S_LinAlg.dot. apply (rsum_ge_term r (fun k => vr k * vr k)); [lia|]. intros; apply Rle_0_sqr. }
  destruct (wit64_quad dot Hd a (c_T Q') m r (r - 1) Hm Hr (fun i j Hj Hi => Hfin i j Hj ltac:(lia)) R2 ltac:(lia) R3 Fe R4 v Vp) with (M := Ma) as (W1 & W2 & W3).
  { intros k Hk. apply L2. lia. }
  { exact Vfin. }
  { intros i j Hj Hi. apply Hent; [exact Hj|lia]. }
  { exact Ma0. }
  fold vr in W1, W2, W3.
  split; [unfold vr; rewrite Vp; apply (proj1 fone)|]. split; [exact q1|]. split; [split; [lra|exact W3]|].
  assert (LC : Rabs (bf r (Am (fun i j => B2R (a i j))) vr vr - bf r Ar vr vr) <= INR r * e * S_LinAlg.dot r vr vr).
  { apply bf_close. intros i j Hi Hj. unfold Am. destruct (Nat.leb_spec j i) as [L|L]; [apply Hclose; [assumption|lia]|].
    rewrite (Hsym i j) by lia. apply Hclose; lia. }
  apply Rabs_le_inv in LC. unfold epsf in W1.
  assert (RM : INR r * e * S_LinAlg.dot r vr vr <= INR m * e * S_LinAlg.dot r vr vr).
  { apply Rmult_le_compat_r; [lra|]. apply Rmult_le_compat_r; [exact e0|apply le_INR, Hr]. }
  lra.
Qed.
End CutV.
