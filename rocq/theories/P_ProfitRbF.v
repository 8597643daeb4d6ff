(** profit_rb_oracle in binary64: the inner oracle against the worst case. *)
From Coq Require Import ZArith Reals Lra Lia Bool List Psatz.
From Flocq Require Import Core.Core IEEE754.BinarySingleNaN.
From Verif Require Import Base M_Drivers S_Drivers M_Ell M_Lowpass M_Profit S_Profit P_Profit M_Float P_Float P_Float2 S_Float P_FSum M_ProfitF S_ProfitF P_ProfitF T_ProfitF M_ProfitRbF S_ProfitRbF.
Local Open Scope R_scope.

(** the exponents used at y, and what they stand for *)
Definition ain (D : rb_params b64) (y : nat -> b64) : nat -> b64 :=
  pair2 (A := b64) (H := FNum) (fadd (ba D 0%nat) (if Bltb fzero (y 0%nat) then Bopp (be1 D) else be1 D)) (fadd (ba D 1%nat) (if Bltb fzero (y 1%nat) then Bopp (be2 D) else be2 D)).
Definition ac (D : rb_params b64) (y : nat -> b64) : nat -> R := rb_exp (vec64 (ba D)) (B2R (be1 D)) (B2R (be2 D)) (vec64 y).
Definition pin (D : rb_params b64) := fsub (bp D) (be3 D).
Definition kin (D : rb_params b64) := fsub (bk D) (be4 D).
Definition vin (D : rb_params b64) : nat -> b64 := fun i => fadd (bv D i) (be5 D).
Definition pc (D : rb_params b64) := B2R (bp D) - B2R (be3 D).
Definition kc (D : rb_params b64) := B2R (bk D) - B2R (be4 D).
Definition vc (D : rb_params b64) : nat -> R := fun i => B2R (bv D i) + B2R (be5 D).

Section Rb.
Variables (D : rb_params b64) (X : R).
Hypothesis HR : rb_range D X.
Notation d := (real_of D).
Notation el := (elast (real_of D)).

Lemma tiny j : (j <= -51)%Z -> pow2 j <= u51. Proof. intros H. apply bpow_le. exact H. Qed.
Lemma pin_ok : is_finite (pin D) = true /\ ln_near u51 (B2R (pin D)) (pc D).
Proof.
  destruct HR as ((F1 & _ & _ & _ & _ & _ & F2 & _) & (_ & _ & H3 & _) & (P1 & P2 & _) & _). cbn [real_of bp be3] in *. assert (A := bpow_gt_0 radix2 (-900)).
  destruct (fsub_rnd (bp D) (be3 D) F1 F2) as [E F]. { rewrite Rabs_right by lra. assert (pow2 900 <= pow2 1023) by (apply bpow_le; lia). lra. }
  split; [exact F|]. unfold pin. rewrite E. apply near_rnd. assert (pow2 (-1000) <= pow2 (-900)) by (apply bpow_le; lia). unfold pc. lra.
Qed.
Lemma kin_ok : is_finite (kin D) = true /\ ln_near u51 (B2R (kin D)) (kc D).
Proof.
  destruct HR as ((_ & _ & F1 & _ & _ & _ & _ & F2 & _) & _ & _ & (P1 & P2) & _). cbn [real_of bk be4] in *.
  assert (E0 := exp_range 255 _ ltac:(lia) P2). rewrite exp_ln in E0 by exact P1.
  destruct (fsub_rnd (bk D) (be4 D) F1 F2) as [E F]. { rewrite Rabs_right by lra. eapply Rle_trans; [apply E0|]. apply bpow_le; lia. }
  split; [exact F|]. unfold kin. rewrite E. apply near_rnd. eapply Rle_trans; [|apply E0]. apply bpow_le; lia.
Qed.
Lemma vin_ok i : (i < 2)%nat -> is_finite (vin D i) = true /\ ln_near u51 (B2R (vin D i)) (vc D i).
Proof.
  intros Hi. destruct HR as ((_ & _ & _ & F1 & _ & _ & _ & _ & F2) & _ & _ & _ & Hv & _). destruct (F1 i Hi) as [_ Fv]. destruct (Hv i Hi) as [_ V]. cbn [real_of bv be5] in V. unfold vec64 in V. assert (A := bpow_gt_0 radix2 (-99)).
  destruct (fadd_rnd (bv D i) (be5 D) Fv F2) as [E F]. { rewrite Rabs_right by lra. eapply Rle_trans; [apply V|]. apply bpow_le; lia. }
  split; [exact F|]. unfold vin. rewrite E. apply near_rnd. eapply Rle_trans; [|apply V]. apply bpow_le; lia.
Qed.
Lemma add_e (c e u : b64) : is_finite c = true -> is_finite e = true -> is_finite u = true -> 0 <= B2R e -> Rabs (B2R c) + B2R e <= 255 ->
  let r := fadd c (if Bltb fzero u then Bopp e else e) in
  is_finite r = true /\ Rabs (B2R r - (B2R c + (if Rltb 0 (B2R u) then - B2R e else B2R e))) <= pow2 (-53) * (Rabs (B2R c) + B2R e) + pow2 (-1075).
Proof.
  intros Fc Fe Fu He Hs. cbv zeta. set (e' := if Bltb fzero u then Bopp e else e).
  assert (E' : B2R e' = (if Rltb 0 (B2R u) then - B2R e else B2R e) /\ is_finite e' = true).
  { unfold e'. rewrite f64_ltb by (reflexivity || assumption). change (B2R fzero) with 0. destruct (Rlt_bool_spec 0 (B2R u)) as [Q|Q].
    - destruct (Rltb 0 (B2R u)) eqn:B; [|apply Rltb_false in B; lra]. rewrite B2R_Bopp, is_finite_Bopp. auto.
    - destruct (Rltb 0 (B2R u)) eqn:B; [apply Rltb_true in B; lra|auto]. }
  destruct E' as [E' F']. rewrite <- E'. assert (S : Rabs (B2R c + B2R e') <= Rabs (B2R c) + B2R e).
  { eapply Rle_trans; [apply Rabs_triang|]. apply Rplus_le_compat_l. rewrite E'. destruct (Rltb _ _); rewrite ?Rabs_Ropp, Rabs_right by lra; lra. }
  destruct (fadd_rnd c e' Fc F') as [E F]. { eapply Rle_trans; [exact S|]. eapply Rle_trans; [exact Hs|]. change 255 with (IZR 255). apply Rle_trans with (pow2 8); [change (pow2 8) with 256; lra|apply bpow_le; lia]. }
  split; [exact F|]. rewrite E. eapply Rle_trans; [apply rnd_rel|]. apply Rplus_le_compat_r. apply Rmult_le_compat_l; [apply bpow_ge_0|exact S].
Qed.
Lemma el_nn i : (i < 2)%nat -> 0 <= el i <= 255.
Proof.
  intros Hi. destruct HR as (_ & (H1 & H2 & _) & _ & _ & Ha & _). destruct (Ha i Hi) as [A _]. split; [|exact A]. unfold elast. assert (B := Rabs_pos (ba d i)). destruct i; lra.
Qed.
Section At.
Variable y : nat -> b64.
Hypothesis Hy : point64 X y.
Lemma ain_ok i : (i < 2)%nat -> is_finite (ain D y i) = true /\ Rabs (vec64 (ain D y) i - ac D y i) <= pow2 (-53) * el i + pow2 (-1075).
Proof.
  intros Hi. destruct HR as ((_ & _ & _ & Fa & F1 & F2 & _) & (H1 & H2 & _) & _ & _ & Ha & _). destruct (Fa i Hi) as [F _]. destruct (Hy i Hi) as [Fy _]. destruct (Ha i Hi) as [A _].
  destruct i as [|[|i]]; [| |lia]; unfold ain, ac, rb_exp, vec64; cbn [pair2]; unfold elast in *; cbn [real_of ba be1 be2] in *; apply add_e; assumption.
Qed.
Lemma ac_size i : (i < 2)%nat -> Rabs (ac D y i) <= el i.
Proof.
  intros Hi. destruct HR as (_ & (H1 & H2 & _) & _). cbn [real_of be1 be2] in H1, H2.
  destruct i as [|[|i]]; [| |lia]; unfold ac, rb_exp; cbn [pair2]; unfold elast; cbn [real_of ba be1 be2]; (eapply Rle_trans; [apply Rabs_triang|]); apply Rplus_le_compat_l; destruct (Rltb _ _); rewrite ?Rabs_Ropp, Rabs_right by lra; lra.
Qed.
Lemma ain_size i : (i < 2)%nat -> Rabs (vec64 (ain D y) i) <= el i + (pow2 (-53) * el i + pow2 (-1075)).
Proof. intros Hi. destruct (ain_ok i Hi) as [_ E]. assert (S := ac_size i Hi). replace (vec64 (ain D y) i) with (ac D y i + (vec64 (ain D y) i - ac D y i)) by ring. eapply Rle_trans; [apply Rabs_triang|]. lra. Qed.
Lemma lin_near (z : nat -> R) B : (forall i, (i < 2)%nat -> Rabs (z i) <= B) -> Rabs (lin2 (vec64 (ain D y)) z - lin2 (ac D y) z) <= ((el 0%nat + el 1%nat) * B / 4 + B / 16) * u51.
Proof.
  intros Hz. assert (P : forall i, (i < 2)%nat -> Rabs ((vec64 (ain D y) i - ac D y i) * z i) <= (pow2 (-53) * el i + pow2 (-1075)) * B).
  { intros i Hi. rewrite Rabs_mult. apply Rmult_le_compat; [apply Rabs_pos|apply Rabs_pos|apply ain_ok; exact Hi|exact (Hz i Hi)]. }
  assert (P0 := P 0%nat ltac:(lia)). assert (P1 := P 1%nat ltac:(lia)). assert (B0 : 0 <= B) by (assert (A := Hz 0%nat ltac:(lia)); assert (A' := Rabs_pos (z 0%nat)); lra).
  assert (W : pow2 (-53) = u51 / 4) by (change (-51)%Z with (-53 + 2)%Z; rewrite pw; change (pow2 2) with 4; field). rewrite W in P0, P1.
  assert (T : pow2 (-1075) * B <= (u51 / 32) * B). { apply Rmult_le_compat_r; [exact B0|]. replace (u51 / 32) with (pow2 (-56)); [apply bpow_le; lia|]. change (-51)%Z with (-56 + 5)%Z. rewrite pw. change (pow2 5) with 32. field. }
  apply Rabs_le_inv in P0, P1. apply Rabs_le. lra.
Qed.
(** revenue and cost with the inner parameters and in the worst case *)
Notation rin z := (exp (ln (B2R (pin D) * B2R (bsc D)) + lin2 (vec64 (ain D y)) z)).
Notation rc z := (exp (ln (pc D * B2R (bsc D)) + lin2 (ac D y) z)).
Lemma psc_ok : 0 < B2R (pin D) * B2R (bsc D) /\ 0 < pc D * B2R (bsc D) /\ Rabs (ln (B2R (pin D) * B2R (bsc D)) - ln (pc D * B2R (bsc D))) <= u51.
Proof.
  destruct HR as (_ & _ & (_ & _ & S & _) & _). cbn [real_of bsc] in S. destruct pin_ok as [_ N].
  assert (M := near_mul _ _ _ _ _ _ N (near_refl _ S)). rewrite Rplus_0_r in M. exact M.
Qed.
Lemma rev_near z B : (forall i, (i < 2)%nat -> Rabs (z i) <= B) -> ln_near ((1 + (el 0%nat + el 1%nat) * B / 4 + B / 16) * u51) (rin z) (rc z).
Proof.
  intros Hz. split; [apply exp_pos|]. split; [apply exp_pos|]. rewrite !ln_exp. destruct psc_ok as (_ & _ & A1). assert (A2 := lin_near z B Hz). apply Rabs_le_inv in A1, A2. apply Rabs_le. lra.
Qed.
Lemma cost_near z : ln_near u51 (cost (vec64 (vin D)) z) (cost (vc D) z).
Proof.
  assert (A : forall i, (i < 2)%nat -> ln_near u51 (vec64 (vin D) i * exp (z i)) (vc D i * exp (z i))).
  { intros i Hi. destruct (vin_ok i Hi) as [_ N]. assert (M := near_mul _ _ _ _ _ _ N (near_refl _ (exp_pos (z i)))). rewrite Rplus_0_r in M. exact M. }
  apply near_add; apply A; lia.
Qed.
Lemma in_range : profit_range (pin D) (bsc D) (kin D) (ain D y) (vin D) X.
Proof.
  destruct psc_ok as (Q1 & Q2 & Q3). destruct pin_ok as [Fp _]. destruct kin_ok as [Fk (K1 & K2 & K3)]. assert (U := u51_bounds). assert (X0 := X_nn X y Hy).
  assert (E0 := el_nn 0 ltac:(lia)). assert (E1 := el_nn 1 ltac:(lia)). assert (S0 := ain_size 0 ltac:(lia)). assert (S1 := ain_size 1 ltac:(lia)). unfold vec64 in S0, S1.
  assert (T1 : pow2 (-53) <= / 1048576) by (change (/ 1048576) with (pow2 (-20)); apply bpow_le; lia). assert (T2 : pow2 (-1075) <= / 1048576) by (change (/ 1048576) with (pow2 (-20)); apply bpow_le; lia). assert (T0 := bpow_gt_0 radix2 (-53)).
  assert (T3 : forall x, 0 <= x -> pow2 (-53) * x <= / 1048576 * x) by (intros x Hx; apply Rmult_le_compat_r; assumption). assert (T30 := T3 _ (proj1 E0)). assert (T31 := T3 _ (proj1 E1)).
  pose proof HR as ((_ & Fs & _ & _) & _ & (_ & _ & _ & R1) & (_ & R2) & R3 & R4 & R5). cbn [real_of bp be3 bsc bk be4] in R1, R2. fold (pc D) in R1. fold (kc D) in R2.
  split. { split; [exact Fp|]. split; [exact Fs|]. split; [exact Fk|]. intros i Hi. split; [apply ain_ok, Hi|apply vin_ok, Hi]. }
  split. { split; [exact Q1|]. apply Rabs_le_inv in Q3, R1. apply Rabs_le. lra. }
  split. { split; [exact K1|]. apply Rabs_le_inv in K3, R2. apply Rabs_le. lra. }
  split. { intros i Hi. split; [destruct i as [|[|i]]; [lra|lra|lia]|]. destruct (vin_ok i Hi) as [_ N]. apply near_abs in N; [|lra]. destruct (R3 i Hi) as [_ V]. cbn [real_of bv be5] in V. fold (vec64 (bv D) i) in N. unfold vc in N.
    assert (V0 := bpow_gt_0 radix2 (-99)). unfold vec64 in V. set (vv := B2R (bv D i) + B2R (be5 D)) in *. assert (2 * u51 * vv <= / 2 * vv) by (apply Rmult_le_compat_r; lra). apply Rabs_le_inv in N.
    replace (pow2 (-100)) with (pow2 (-99) / 2) by (change (-99)%Z with (-100 + 1)%Z; rewrite pw; change (pow2 1) with 2; field). replace (pow2 100) with (2 * pow2 99) by (change 100%Z with (1 + 99)%Z; rewrite pw; reflexivity). unfold vc in *. fold vv. lra. }
  split; [|exact R5]. assert ((Rabs (B2R (ain D y 0%nat)) + Rabs (B2R (ain D y 1%nat))) * X <= (el 0%nat + el 1%nat + (/ 1048576 * (el 0%nat + el 1%nat) + 2 * / 1048576)) * X) by (apply Rmult_le_compat_r; lra). lra.
Qed.
(** at the centre *)
Lemma rev_near_y : ln_near (42 * u51) (rin (vec64 y)) (rc (vec64 y)).
Proof.
  eapply near_le; [apply (rev_near (vec64 y) X); intros i Hi; apply (Hy i Hi)|]. destruct HR as (_ & _ & _ & _ & _ & R4 & R5). apply Rmult_le_compat_r; [apply bpow_ge_0|]. lra.
Qed.
Lemma rmax_le : revenue_max (B2R (pin D)) (B2R (bsc D)) (vec64 (ain D y)) X <= 2 * rb_revenue_max d X.
Proof.
  unfold rb_revenue_max, revenue_max. cbn [real_of bp be3 bsc]. fold (pc D). destruct psc_ok as (_ & _ & Q). apply Rabs_le_inv in Q. assert (X0 := X_nn X y Hy).
  assert (E0 := el_nn 0 ltac:(lia)). assert (E1 := el_nn 1 ltac:(lia)). rewrite (Rabs_right (el 0%nat)), (Rabs_right (el 1%nat)) by lra.
  assert (S0 := ain_size 0 ltac:(lia)). assert (S1 := ain_size 1 ltac:(lia)). destruct HR as (_ & _ & _ & _ & _ & R4 & R5). assert (U := u51_bounds).
  assert (T2 : pow2 (-1075) <= u51) by (apply tiny; lia). assert (T1 : pow2 (-53) <= u51) by (apply tiny; lia).
  assert (T3 : forall x, 0 <= x -> pow2 (-53) * x <= u51 * x) by (intros x Hx; apply Rmult_le_compat_r; assumption). assert (T30 := T3 _ (proj1 E0)). assert (T31 := T3 _ (proj1 E1)).
  assert (A : (Rabs (vec64 (ain D y) 0%nat) + Rabs (vec64 (ain D y) 1%nat)) * X <= (el 0%nat + el 1%nat) * X + u51 * (((el 0%nat + el 1%nat) * X) + 2 * X)).
  { replace ((el 0%nat + el 1%nat) * X + u51 * (((el 0%nat + el 1%nat) * X) + 2 * X)) with ((el 0%nat + el 1%nat + u51 * (el 0%nat + el 1%nat) + 2 * u51) * X) by ring. apply Rmult_le_compat_r; lra. }
  assert (B : u51 * (((el 0%nat + el 1%nat) * X) + 2 * X) <= u51 * 400) by (apply Rmult_le_compat_l; lra).
  match goal with |- _ <= 2 * exp ?w => apply Rle_trans with (exp (w + / 2)) end; [apply exp_le_iff; lra|]. rewrite exp_plus. assert (Eh := exp_up (/ 2) ltac:(lra)).
  match goal with |- exp ?w * _ <= _ => assert (Ew := exp_pos w); assert (exp w * exp (/ 2) <= exp w * 2) by (apply Rmult_le_compat_l; lra) end. lra.
Qed.
(** the worst case is one of the scenarios, and its revenue is the least *)
Lemma corner : scenario d (pc D) (kc D) (ac D y) (vc D).
Proof.
  destruct HR as (_ & (H1 & H2 & H3 & H4 & H5) & _). cbn [real_of be1 be2 be3 be4 be5] in *. destruct (rb_worst (vec64 (ba D)) _ _ (vec64 y) H1 H2) as (W1 & W2 & _).
  unfold scenario, within in *. cbn [real_of bp bk ba bv be1 be2 be3 be4 be5]. unfold pc, kc, vc, ac, vec64 in *. repeat split; lra.
Qed.
Lemma worst p' k' a' v' : scenario d p' k' a' v' ->
  0 < p' * B2R (bsc D) /\ kc D <= k' /\ rc (vec64 y) <= exp (ln (p' * B2R (bsc D)) + lin2 a' (vec64 y)) /\ forall z, cost v' z <= cost (vc D) z.
Proof.
  intros (S1 & S2 & S3 & S4 & S5 & S6). destruct HR as (_ & (H1 & H2 & _) & (P1 & _ & P2 & _) & _). cbn [real_of be1 be2 bp bk ba bv be3 be4 be5 bsc] in *. fold (pc D) in P1. unfold within in *.
  destruct psc_ok as (_ & Q & _). destruct (rb_worst (vec64 (ba D)) _ _ (vec64 y) H1 H2) as (_ & _ & W). assert (A := bpow_gt_0 radix2 (-900)).
  assert (Q' : pc D * B2R (bsc D) <= p' * B2R (bsc D)) by (apply Rmult_le_compat_r; unfold pc in *; lra). split; [lra|]. split; [unfold kc; lra|]. split.
  - apply exp_le_iff. apply Rplus_le_compat; [apply ln_le_iff; lra|]. apply W; unfold within; lra.
  - intros z. unfold vc. unfold vec64 in *. apply Rplus_le_compat; (apply Rmult_le_compat_r; [left; apply exp_pos|lra]).
Qed.
End At.
End Rb.
