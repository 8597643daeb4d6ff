(** chol_ext.witness in binary64: the quadratic form of the computed witness. *)
From Coq Require Import ZArith Reals Lra Lia Bool Psatz List.
From Flocq Require Import Core.Core IEEE754.BinarySingleNaN.
From Verif Require Import Base M_Chol M_Float S_LinAlg P_LinAlg P_Chol P_Float P_Float2 S_Float P_FSum P_EllF2 P_CholF P_CholF2.
Local Open Scope R_scope.

Lemma csum m a b : rsum m (fun i => a i * b i) * rsum m (fun i => a i * b i) <= rsum m (fun i => a i * a i) * rsum m (fun i => b i * b i).
Proof.
  induction m as [|m IH]; cbn [rsum]; [lra|].
  set (s := rsum m (fun i => a i * b i)) in *. set (A := rsum m (fun i => a i * a i)) in *. set (B := rsum m (fun i => b i * b i)) in *.
  assert (A0 : 0 <= A) by (apply rsum_nonneg; intros; apply Rle_0_sqr). assert (B0 : 0 <= B) by (apply rsum_nonneg; intros; apply Rle_0_sqr).
  set (x := a m). set (y := b m).
  assert (P0 : 0 <= A * (y * y) + B * (x * x)) by (apply Rplus_le_le_0_compat; (apply Rmult_le_pos; [assumption|apply Rle_0_sqr])).
  assert (K : 2 * (s * (x * y)) <= A * (y * y) + B * (x * x)).
  { destruct (Rle_lt_dec (s * (x * y)) 0) as [L|L]; [lra|].
    apply Rsqr_incr_0_var; [|exact P0]. unfold Rsqr.
    assert (Z := Rle_0_sqr (A * (y * y) - B * (x * x))). unfold Rsqr in Z.
    assert (W : 0 <= (x * y) * (x * y)) by apply Rle_0_sqr.
    assert (s * s * ((x * y) * (x * y)) <= A * B * ((x * y) * (x * y))) by (apply Rmult_le_compat_r; assumption). lra. }
  lra.
Qed.

Section Wit.
Variables (a w : nat -> nat -> R) (r : nat) (eps c : R).
Notation D k := (w k k).
Hypothesis Heps : 0 <= eps.
Hypothesis Hc : 0 <= c.
Hypothesis Hpos : forall k, (S k < r)%nat -> 0 < D k.
Hypothesis Hrec : forall i j, (j <= i)%nat -> (i < r)%nat ->
  Rabs (a i j - Gp w i j) <= eps * Pp w i j + c * (1 + rsum j (fun k => Rabs (w j k))).
Variables (n : nat) (M kap : R).
Hypothesis Hrn : (r <= n)%nat.
Hypothesis HM : forall i j, (j <= i)%nat -> (i < r)%nat -> Rabs (a i j) <= M.
Hypothesis HM0 : 0 <= M.
Hypothesis Hk : 0 < kap.
Hypothesis Hsz1 : eps + c * INR n + c <= / 1000.
Hypothesis Hsz2 : c * 1000 <= eps * kap.
Hypothesis Hsz3 : c * INR n * 1000 <= eps.
Hypothesis Hsz4 : c * 1000 <= eps.
Notation M2 := (2 * (M + kap)).
Variable p : nat.
Hypothesis Hr : r = S p.
Hypothesis Hlast : D p <= 0.
Variable v : nat -> R.
Hypothesis Vp : v p = 1.
Definition R1 (k : nat) : R := rsum p (fun i => (if (k <? i)%nat then Rabs (w i k) / D k else 0) * Rabs (v i)).
Notation V1 := (rsum r (fun i => Rabs (v i))).
Hypothesis Hv : forall k, (k < p)%nat ->
  Rabs (Ltu r 0 (Tm w) v k) <= eps * (R1 k + Rabs (w p k) / D k) + c * (1 + V1).

Let HM' i : (i < r)%nat -> a i i <= M.
Proof. intros Hi. eapply Rle_trans; [apply Rle_abs|]. apply HM; [apply le_n|exact Hi]. Qed.
Notation q1 := (dot r v v).
Notation X := (INR n * M2 * q1).
Lemma q1_ge : 1 <= q1.
Proof.
  unfold dot. rewrite Hr. cbn [rsum]. rewrite Vp. assert (0 <= rsum p (fun i => v i * v i)) by (apply rsum_nonneg; intros; apply Rle_0_sqr). lra.
Qed.
Lemma n_ge : 1 <= INR n.
Proof. change 1 with (INR 1). apply le_INR. lia. Qed.
Lemma Gb k : (k < p)%nat -> Gp w k k <= M2.
Proof. intros H. apply (Gp_bound a w r eps c Heps Hc Hpos Hrec n M kap Hrn HM' HM0 Hk Hsz1 Hsz2 Hsz4 k); [lia|left; lia]. Qed.
Lemma Gh_b k : (k < p)%nat -> Gh w k <= M2 /\ D k <= M2 /\ 0 < D k.
Proof.
  intros H. assert (G := Gb k H). rewrite Gp_diag in G. assert (G0 := Gh_nonneg w r Hpos k ltac:(lia)).
  assert (P := Hpos k ltac:(lia)). lra.
Qed.

Lemma R1_sq k : (k < p)%nat -> D k * (R1 k * R1 k) <= rsum p (fun i => if (k <? i)%nat then w i k * w i k / D k else 0) * q1.
Proof.
  intros Hkp. assert (P := Hpos k ltac:(lia)).
  assert (C := csum p (fun i => if (k <? i)%nat then Rabs (w i k) / D k else 0) (fun i => Rabs (v i))). cbv beta in C. fold (R1 k) in C.
  assert (Q : rsum p (fun i => Rabs (v i) * Rabs (v i)) <= q1).
  { unfold dot. rewrite Hr. cbn [rsum]. rewrite <- (Rplus_0_r (rsum p (fun i => Rabs (v i) * Rabs (v i)))). apply Rplus_le_compat; [|apply Rle_0_sqr].
    apply Req_le, rsum_ext. intros i _. rewrite <- Rabs_mult. apply Rabs_pos_eq, Rle_0_sqr. }
  set (s := rsum p (fun i => (if (k <? i)%nat then Rabs (w i k) / D k else 0) * (if (k <? i)%nat then Rabs (w i k) / D k else 0))) in *.
  assert (E : D k * s = rsum p (fun i => if (k <? i)%nat then w i k * w i k / D k else 0)).
  { unfold s. rewrite <- rsum_scal_l. apply rsum_ext. intros i _. destruct (k <? i)%nat; [|ring].
    assert (Rabs (w i k) * Rabs (w i k) = w i k * w i k) as <- by (rewrite <- Rabs_mult; apply Rabs_pos_eq, Rle_0_sqr). field. lra. }
  assert (s0 : 0 <= s) by (apply rsum_nonneg; intros; apply Rle_0_sqr).
  rewrite <- E. apply Rle_trans with (D k * (s * q1)); [|lra]. apply Rmult_le_compat_l; [lra|].
  eapply Rle_trans; [exact C|]. apply Rmult_le_compat_l; [exact s0|exact Q].
Qed.
Lemma Gh_all : rsum p (fun k => rsum p (fun i => if (k <? i)%nat then w i k * w i k / D k else 0)) <= INR p * M2.
Proof.
  rewrite rsum_exchange, <- rsum_const. apply rsum_le. intros i Hi.
  apply Rle_trans with (Gh w i); [|apply Gh_b; exact Hi]. apply Req_le. rewrite (rsum_trunc p i); [|lia|intros k Hk'; destruct (Nat.ltb_spec k i); [lia|reflexivity]].
  apply rsum_ext. intros k Hk'. destruct (Nat.ltb_spec k i); [reflexivity|lia].
Qed.
Lemma V1_sq : (1 + V1) * (1 + V1) <= 4 * INR n * q1.
Proof.
  assert (C := csum r (fun _ => 1) (fun i => Rabs (v i))). cbv beta in C.
  rewrite (rsum_ext r (fun i => 1 * Rabs (v i)) (fun i => Rabs (v i))) in C by (intros; ring).
  rewrite (rsum_ext r (fun i => Rabs (v i) * Rabs (v i)) (fun i => v i * v i)) in C by (intros; rewrite <- Rabs_mult; apply Rabs_pos_eq, Rle_0_sqr).
  rewrite rsum_const in C. fold (dot r v v) in C. rewrite !Rmult_1_r in C.
  assert (Q := q1_ge). assert (N := n_ge). assert (RN : INR r <= INR n) by (apply le_INR; exact Hrn).
  assert (INR r * q1 <= INR n * q1) by (apply Rmult_le_compat_r; lra).
  assert (1 <= INR n * q1) by nra.
  set (V := V1) in *. assert (Z := Rle_0_sqr (1 - V)). unfold Rsqr in Z. lra.
Qed.

Lemma S_bound : 0 <= rsum p (fun k => D k * (Ltu r 0 (Tm w) v k * Ltu r 0 (Tm w) v k)) <= 3 * (eps * eps) * (X + Gh w p) + 12 / 1000 / 1000 * (eps * eps) * X.
Proof.
  assert (Q := q1_ge). assert (N := n_ge). assert (PN : INR p <= INR n) by (apply le_INR; lia).
  assert (M20 : 0 < M2) by lra.
  split; [apply rsum_nonneg; intros k Hkp; apply Rmult_le_pos; [left; apply Hpos; lia|apply Rle_0_sqr]|].
  apply Rle_trans with (rsum p (fun k => 3 * (eps * eps) * (rsum p (fun i => if (k <? i)%nat then w i k * w i k / D k else 0) * q1)
     + 3 * (eps * eps) * (w p k * w p k / D k) + 3 * (c * c) * (4 * INR n * q1) * M2)).
  { apply rsum_le. intros k Hkp. destruct (Gh_b k Hkp) as (_ & D2 & D0). assert (H := Hv k Hkp). set (L := Ltu r 0 (Tm w) v k) in *.
    set (x := eps * R1 k). set (y := eps * (Rabs (w p k) / D k)). set (z := c * (1 + V1)).
    assert (H' : Rabs L <= x + y + z) by (unfold x, y, z; lra).
    assert (LL : L * L <= 3 * (x * x) + 3 * (y * y) + 3 * (z * z)).
    { assert (A0 := Rabs_pos L). assert (L * L = Rabs L * Rabs L) as -> by (rewrite <- Rabs_mult; symmetry; apply Rabs_pos_eq, Rle_0_sqr).
      apply Rle_trans with ((x + y + z) * (x + y + z)); [apply Rmult_le_compat; lra|].
      assert (Z1 := Rle_0_sqr (x - y)). assert (Z2 := Rle_0_sqr (y - z)). assert (Z3 := Rle_0_sqr (x - z)). unfold Rsqr in *. lra. }
    apply Rle_trans with (D k * (3 * (x * x) + 3 * (y * y) + 3 * (z * z))); [apply Rmult_le_compat_l; lra|].
    assert (RS := R1_sq k Hkp). set (u := rsum p (fun i => if (k <? i)%nat then w i k * w i k / D k else 0)) in *.
    replace (D k * (3 * (x * x) + 3 * (y * y) + 3 * (z * z))) with (3 * (eps * eps) * (D k * (R1 k * R1 k)) + 3 * (eps * eps) * (w p k * w p k / D k) + 3 * (c * c) * ((1 + V1) * (1 + V1)) * D k).
    2: { unfold x, y, z. assert (w p k * w p k = Rabs (w p k) * Rabs (w p k)) as -> by (rewrite <- Rabs_mult; symmetry; apply Rabs_pos_eq, Rle_0_sqr). field. lra. }
    assert (e2 : 0 <= eps * eps) by (apply Rmult_le_pos; assumption). assert (c2 : 0 <= c * c) by (apply Rmult_le_pos; assumption).
    apply Rplus_le_compat; [apply Rplus_le_compat_r|].
    - apply Rmult_le_compat_l; lra.
    - apply Rmult_le_compat; [apply Rmult_le_pos; [lra|apply Rle_0_sqr]|lra| |exact D2]. apply Rmult_le_compat_l; [lra|apply V1_sq]. }
  rewrite !rsum_plus, rsum_const, !rsum_scal_l, rsum_scal_r. fold (Gh w p). assert (GA := Gh_all).
  set (u := rsum p (fun k => rsum p (fun i => if (k <? i)%nat then w i k * w i k / D k else 0))) in *.
  assert (e2 : 0 <= eps * eps) by (apply Rmult_le_pos; assumption). assert (c2 : 0 <= c * c) by (apply Rmult_le_pos; assumption).
  assert (U1 : u * q1 <= X) by (apply Rmult_le_compat_r; [lra|]; eapply Rle_trans; [exact GA|]; apply Rmult_le_compat_r; lra).
  assert (U2 : 3 * (eps * eps) * (u * q1) <= 3 * (eps * eps) * X) by (apply Rmult_le_compat_l; lra).
  assert (X0 : 0 <= X) by (apply Rmult_le_pos; [apply Rmult_le_pos|]; lra).
  assert (U3 : INR p * (3 * (c * c) * (4 * INR n * q1) * M2) <= 12 / 1000 / 1000 * (eps * eps) * X).
  { replace (INR p * (3 * (c * c) * (4 * INR n * q1) * M2)) with (12 * (c * (c * INR p)) * X) by ring.
    apply Rmult_le_compat_r; [exact X0|].
    assert (c * INR p <= eps / 1000) by (assert (c * INR p <= c * INR n) by (apply Rmult_le_compat_l; assumption); lra).
    assert (c * (c * INR p) <= eps / 1000 * (eps / 1000)) by (apply Rmult_le_compat; [exact Hc|apply Rmult_le_pos; [exact Hc|apply pos_INR]|lra|assumption]). lra. }
  lra.
Qed.

Lemma wit_form : bf r (Gm w) v v = rsum p (fun k => D k * (Ltu r 0 (Tm w) v k * Ltu r 0 (Tm w) v k)) + D p.
Proof.
  assert (LD : ldl (Gm w) 0 r (Tm w)).
  { apply Gm_ldl. intros k Hk'. assert (0 < D k) by (apply Hpos; lia). lra. }
  change (bf r (Gm w) v v) with (bf r (blk (Gm w) 0) v v). rewrite (ldl_form (Gm w) 0 r (Tm w) r) by (auto using Gm_sym; lia).
  assert (Z : forall m (f g : nat -> R), m = S p -> rsum p f = rsum p g -> f p = g p -> rsum m f = rsum p g + g p) by (intros m f g -> E1 E2; cbn [rsum]; rewrite E1, E2; reflexivity).
  rewrite (Z r _ (fun k => D k * (Ltu r 0 (Tm w) v k * Ltu r 0 (Tm w) v k)) Hr).
  2: { apply rsum_ext. intros k Hkp. unfold Dg. cbn [Nat.add]. rewrite Tm_up by lia. reflexivity. }
  2: { unfold Dg. cbn [Nat.add]. rewrite Tm_up by lia. reflexivity. }
  f_equal. replace (Ltu r 0 (Tm w) v p) with 1; [ring|]. unfold Ltu.
  rewrite (rsum_single r p); [rewrite Lh_eq, Vp; ring|lia|]. intros k Hk1 Hk2. rewrite Lh_gt by lia. ring.
Qed.

Theorem wit_quad : bf r (Am a) v v - D p <= 12 * (eps * INR n * (M + kap)) * q1 /\ - D p <= 2 * (INR n * (M + kap)) * q1.
Proof.
  set (E := fun i j => Am a i j - Gm w i j).
  assert (Sym : forall i j, E i j = E j i).
  { intros i j. unfold E, Am, Gm. destruct (Nat.leb_spec j i), (Nat.leb_spec i j); try reflexivity; [|lia].
    assert (i = j) as -> by lia. reflexivity. }
  set (S0 := rsum p (fun k => D k * (Ltu r 0 (Tm w) v k * Ltu r 0 (Tm w) v k))).
  assert (Dec : bf r (Am a) v v = S0 + D p + (bf p E v v + rsum p (fun j => 2 * (E p j * v j)) + E p p)).
  { transitivity (bf r (Gm w) v v + bf r E v v).
    - rewrite !bf_sums, <- rsum_plus. apply rsum_ext. intros i _. rewrite <- rsum_plus. apply rsum_ext. intros j _. unfold E. ring.
    - rewrite wit_form. fold S0. f_equal. rewrite !bf_sums, Hr. cbn [rsum].
      rewrite rsum_plus, Vp.
      rewrite (rsum_ext p (fun j => 2 * (E p j * v j)) (fun j => 1 * E p j * v j + v j * E j p * 1)) by (intros j _; rewrite (Sym j p); ring).
      rewrite rsum_plus. ring. }
  destruct S_bound as [_ SB]. fold S0 in SB.
  set (q := dot p v v). assert (Q0 : 0 <= q) by (apply rsum_nonneg; intros; apply Rle_0_sqr).
  assert (Dv : q1 = q + 1) by (unfold dot; rewrite Hr; cbn [rsum]; rewrite Vp; unfold q, dot; ring).
  assert (Pn : INR p <= INR n) by (apply le_INR; lia). assert (N1 := n_ge).
  assert (B1 : bf p E v v <= Ebound eps M kap * (INR n * q)).
  { eapply Rle_trans; [|apply Rmult_le_compat_l; [unfold Ebound; apply Rmult_le_pos; lra|apply Rmult_le_compat_r; [exact Q0|exact Pn]]].
    eapply Rle_trans; [|apply Rmult_le_compat_l; [unfold Ebound; apply Rmult_le_pos; lra|apply (sq_sum_le p v)]].
    rewrite bf_sums, <- rsum_scal_l. apply rsum_le. intros i Hi. rewrite <- rsum_scal_l. apply rsum_le. intros j Hj.
    replace (v i * E i j * v j) with (E i j * (v i * v j)) by ring.
    eapply Rle_trans; [apply Rle_abs|]. rewrite Rabs_mult, Rabs_mult. apply Rmult_le_compat_r; [apply Rmult_le_pos; apply Rabs_pos|].
    unfold E, Am, Gm. destruct (Nat.leb_spec j i); apply (E_bound a w r eps c Heps Hc Hpos Hrec n M kap Hrn HM' HM0 Hk Hsz1 Hsz2 Hsz3 Hsz4); lia. }
  assert (B2 : rsum p (fun j => 2 * (E p j * v j)) <= eps * (Gh w p + INR n * M2 * q) + eps / 100 * M2 * (INR n + q)).
  { destruct (Nat.eq_dec p 0) as [E0|E0].
    - replace (rsum p (fun j => 2 * (E p j * v j))) with 0 by (rewrite E0; reflexivity).
      assert (0 <= Gh w p) by (apply (Gh_nonneg w r Hpos); lia).
      assert (0 <= INR n * M2 * q) by (apply Rmult_le_pos; [apply Rmult_le_pos|]; lra).
      apply Rplus_le_le_0_compat; apply Rmult_le_pos; try lra. apply Rmult_le_pos; lra.
    - eapply Rle_trans; [|apply (row_fail a w r eps c Heps Hc Hpos Hrec n M kap Hrn HM' HM0 Hk Hsz1 Hsz2 Hsz3 Hsz4 p Hr v); lia].
      apply rsum_le. intros j Hj. apply Rmult_le_compat_l; [lra|].
      rewrite <- Rabs_mult. unfold E. rewrite Am_l by lia. unfold Gm. destruct (Nat.leb_spec j p); [|lia]. apply Rle_abs. }
  assert (B3 : E p p <= eps * (Gh w p - D p) + eps / 100 * M2 + c * Gh w p).
  { unfold E. rewrite Am_l by lia. unfold Gm. rewrite Nat.leb_refl.
    apply (diag_fail a w r eps c Heps Hc Hpos Hrec n M kap Hrn HM' HM0 Hk Hsz1 Hsz2 Hsz3 Hsz4 p Hr Hlast). }
  assert (GF := Gh_fail a w r eps c Heps Hc Hpos Hrec n M kap Hrn HM' HM0 Hk Hsz1 Hsz2 Hsz3 Hsz4 p Hr Hlast).
  assert (G0 := Gh_nonneg w r Hpos p ltac:(lia)).
  (* the quadratic form is at least - n M q1 *)
  assert (BL : - (INR n * M * q1) <= bf r (Am a) v v).
  { assert (Hb : - bf r (Am a) v v <= M * rsum r (fun i => rsum r (fun j => Rabs (v i) * Rabs (v j)))).
    { rewrite bf_sums. replace (- rsum r (fun i => rsum r (fun j => v i * Am a i j * v j))) with (rsum r (fun i => rsum r (fun j => - (v i * Am a i j * v j)))).
      2: { replace (- rsum r (fun i => rsum r (fun j => v i * Am a i j * v j))) with ((-1) * rsum r (fun i => rsum r (fun j => v i * Am a i j * v j))) by ring.
           rewrite <- rsum_scal_l. apply rsum_ext. intros i _. rewrite <- rsum_scal_l. apply rsum_ext. intros j _. ring. }
      rewrite <- rsum_scal_l. apply rsum_le. intros i Hi. rewrite <- rsum_scal_l. apply rsum_le. intros j Hj.
      eapply Rle_trans; [apply Rle_abs|]. rewrite Rabs_Ropp, !Rabs_mult.
      replace (Rabs (v i) * Rabs (Am a i j) * Rabs (v j)) with (Rabs (Am a i j) * (Rabs (v i) * Rabs (v j))) by ring.
      apply Rmult_le_compat_r; [apply Rmult_le_pos; apply Rabs_pos|]. unfold Am. destruct (Nat.leb_spec j i); apply HM; lia. }
    assert (Q2 := sq_sum_le r v). assert (RN : INR r <= INR n) by (apply le_INR; exact Hrn). assert (Q1 := q1_ge).
    assert (INR r * q1 <= INR n * q1) by (apply Rmult_le_compat_r; lra).
    assert (M * rsum r (fun i => rsum r (fun j => Rabs (v i) * Rabs (v j))) <= M * (INR n * q1)) by (apply Rmult_le_compat_l; [exact HM0|lra]). lra. }
  assert (Q1 := q1_ge).
  assert (X0 : 0 <= X) by (apply Rmult_le_pos; [apply Rmult_le_pos|]; lra).
  assert (XM : M2 * INR n <= X) by (rewrite (Rmult_comm M2); rewrite <- (Rmult_1_r (INR n * M2)) at 1; apply Rmult_le_compat_l; [apply Rmult_le_pos; lra|exact Q1]).
  assert (XM2 : M2 <= X) by (eapply Rle_trans; [|exact XM]; rewrite <- (Rmult_1_r M2) at 1; apply Rmult_le_compat_l; lra).
  assert (XQ : INR n * M2 * q <= X) by (apply Rmult_le_compat_l; [apply Rmult_le_pos; lra|lra]).
  assert (XQ2 : M2 * q <= X).
  { eapply Rle_trans; [|exact XQ]. apply Rmult_le_compat_r; [exact Q0|]. rewrite <- (Rmult_1_l M2) at 1. apply Rmult_le_compat_r; lra. }
  assert (XA : INR n * M * q1 <= X / 2).
  { replace (X / 2) with (INR n * (M + kap) * q1) by field. apply Rmult_le_compat_r; [lra|]. apply Rmult_le_compat_l; lra. }
  replace (12 * (eps * INR n * (M + kap)) * q1) with (6 * (eps * X)) by field.
  replace (2 * (INR n * (M + kap)) * q1) with X by ring.
  set (x := X) in *. set (G := Gh w p) in *. set (ep := - D p) in *. assert (ep0 : 0 <= ep) by (unfold ep; lra).
  set (b := bf r (Am a) v v) in *.
  assert (nn : 0 <= c * INR n) by (apply Rmult_le_pos; [exact Hc|apply pos_INR]).
  assert (e1 : eps <= / 1000) by lra.
  assert (C1 : (eps + c) * G <= / 1000 * G) by (apply Rmult_le_compat_r; lra).
  assert (C2 : eps * ep <= / 1000 * ep) by (apply Rmult_le_compat_r; lra).
  assert (C3 : eps * M2 <= / 1000 * M2) by (apply Rmult_le_compat_r; lra).
  assert (C4 : G <= 51 / 100 * x + 101 / 100 * ep) by (unfold ep in *; lra).
  unfold Ebound in B1.
  assert (ex0 : 0 <= eps * x) by (apply Rmult_le_pos; lra).
  assert (eG0 : 0 <= eps * G) by (apply Rmult_le_pos; lra).
  assert (eG : eps * G <= eps * (51 / 100 * x + 101 / 100 * ep)) by (apply Rmult_le_compat_l; lra).
  assert (ex1 : eps * x <= / 1000 * x) by (apply Rmult_le_compat_r; lra).
  assert (F1 : (eps + eps / 100) * M2 * (INR n * q) <= 101 / 100 * (eps * x)).
  { replace ((eps + eps / 100) * M2 * (INR n * q)) with (101 / 100 * (eps * (INR n * M2 * q))) by field.
    apply Rmult_le_compat_l; [lra|]. apply Rmult_le_compat_l; lra. }
  assert (F2 : eps * (INR n * M2 * q) <= eps * x) by (apply Rmult_le_compat_l; lra).
  assert (F3 : eps / 100 * M2 * (INR n + q) <= / 50 * (eps * x)).
  { replace (eps / 100 * M2 * (INR n + q)) with (/ 100 * (eps * (M2 * INR n)) + / 100 * (eps * (M2 * q))) by field.
    assert (eps * (M2 * INR n) <= eps * x) by (apply Rmult_le_compat_l; lra). assert (eps * (M2 * q) <= eps * x) by (apply Rmult_le_compat_l; lra). lra. }
  assert (F4 : eps / 100 * M2 <= / 100 * (eps * x)).
  { replace (eps / 100 * M2) with (/ 100 * (eps * M2)) by field. assert (eps * M2 <= eps * x) by (apply Rmult_le_compat_l; lra). lra. }
  assert (F5 : c * G <= / 1000 * (eps * G)) by (assert (c * 1000 * G <= eps * G) by (apply Rmult_le_compat_r; lra); lra).
  assert (F6 : eps * eps * x <= / 1000 * (eps * x)) by (rewrite Rmult_assoc; apply Rmult_le_compat_r; lra).
  assert (F7 : eps * eps * G <= / 1000 * (eps * G)) by (rewrite Rmult_assoc; apply Rmult_le_compat_r; lra).
  assert (SB' : S0 <= 4 / 1000 * (eps * x) + 3 / 1000 * (eps * G)) by lra.
  assert (T : b + ep <= 11 / 10 * (eps * x) + eps * x + (2 + 4 / 1000) * (eps * G) + eps * ep).
  { unfold ep in *. rewrite Dec. lra. }
  assert (EPB : ep <= 6 / 10 * x) by lra.
  assert (eep : eps * ep <= 6 / 10 * (eps * x)) by (replace (6 / 10 * (eps * x)) with (eps * (6 / 10 * x)) by field; apply Rmult_le_compat_l; lra).
  split; unfold ep in *; lra.
Qed.
End Wit.

(** the recurrence of the back substitution, in any arithmetic *)
Lemma witness_loop_rec {A} `{NE : NdotExt A} n (T : nat -> nat -> A) : forall cnt i v,
  (cnt <= i)%nat ->
  let v' := witness_loop cnt i n T v in
  (forall k, ~ (i - cnt <= k < i)%nat -> v' k = v k) /\
  (forall k, (i - cnt <= k < i)%nat ->
     v' k = nopp (ndot (n - S k) (fun l => T (S k + l)%nat k) (fun l => v' (S k + l)%nat))).
Proof.
  induction cnt as [|cnt IH]; intros i v Hc; cbn [witness_loop].
  - split; [reflexivity|intros; lia].
  - set (v1 := vset v (i - 1) _).
    destruct (IH (i - 1)%nat v1) as [H1 H2]; [lia|]. split.
    + intros k Hk. rewrite H1 by lia. apply vset_ne. lia.
    + intros k Hk. destruct (Nat.eq_dec k (i - 1)) as [->|Hne].
      * rewrite H1 by lia. unfold v1 at 1. rewrite vset_eq.
        f_equal. replace (n - S (i - 1))%nat with (n - i)%nat by lia.
        apply ndot_ext.
        -- intros l Hl. replace (S (i - 1) + l)%nat with (i + l)%nat by lia. reflexivity.
        -- intros l Hl. rewrite H1 by lia. unfold v1. rewrite vset_ne by lia.
           replace (S (i - 1) + l)%nat with (i + l)%nat by lia. reflexivity.
      * apply H2. lia.
Qed.

Section Wit64.
Variable dot64 : nat -> (nat -> b64) -> (nat -> b64) -> b64.
Hypothesis Hdot : fdot_any dot64.
Variables (a T : nat -> nat -> b64) (n r p : nat).
Hypothesis Hn : (Z.of_nat n <= 2 ^ 20)%Z.
Hypothesis Hrn : (r <= n)%nat.
Hypothesis Ha : forall i j, (j <= i)%nat -> (i < r)%nat -> is_finite (a i j) = true.
Hypothesis HT : @cdone b64 (FNumD dot64) a T r.
Hypothesis Hr : r = S p.
Hypothesis Hp : forall k, (k < p)%nat -> Bltb fzero (T k k) = true.
Hypothesis Fp : is_finite (T p p) = true.
Hypothesis Hl : Bltb fzero (T p p) = false.
Notation af := (fun i j => B2R (a i j)).
Notation wf := (wf T).
Variable v : nat -> b64.
Hypothesis Vp : v p = fmake 1 0.
Hypothesis Vrec : forall k, (k < p)%nat -> v k = Bopp (dot64 (r - S k)%nat (fun l => T (S k + l)%nat k) (fun l => v (S k + l)%nat)).
Hypothesis Vfin : forall k, (k < r)%nat -> is_finite (v k) = true.
Notation vr := (fun k => B2R (v k)).
Notation V1 := (rsum r (fun i => Rabs (vr i))).

Lemma wit_row k : (k < p)%nat ->
  Rabs (Ltu r 0 (Tm wf) vr k) <= epsf n * (R1 wf p vr k + Rabs (wf p k) / wf k k) + cf n * (1 + V1).
Proof.
  intros Hk. assert (Hf := pivots_finite dot64 Hdot a T n r Hrn Ha HT p ltac:(lia) Hp).
  destruct (Hf k Hk) as [Fk Dk]. change (B2R (T k k)) with (wf k k) in Dk.
  assert (N0 := pos_INR n). assert (Vp1 : vr p = 1) by (cbv beta; rewrite Vp; apply (proj1 fone)).
  set (len := (r - S k)%nat). assert (Elen : len = S (p - S k)) by (unfold len; lia).
  assert (Fv := Vfin k ltac:(lia)). rewrite (Vrec k Hk), fopp_fin in Fv.
  apply fdot_fin in Fv as FD; [|exact Hdot|lia]. destruct FD as [FO FE]. fold len in FE, FO.
  set (d := dot64 len (fun l => T (S k + l)%nat k) (fun l => v (S k + l)%nat)) in *.
  assert (Ed : vr k = - B2R d) by (cbv beta; rewrite (Vrec k Hk), fopp_R; reflexivity).
  set (L := fun l => B2R (T (S k + l)%nat k)) in *. set (t := fun l => wf (S k + l) k / wf k k). set (y := fun l => vr (S k + l)%nat).
  assert (EL : forall l, (l < len)%nat -> Rabs (L l - t l) <= uro * Rabs (t l) + eta).
  { intros l Hll. unfold L, t. destruct (fdiv_fin (T k (S k + l)%nat) (T k k)) as [_ E].
    - rewrite <- (c_div dot64 a T r HT) by (unfold len in Hll; lia). apply FO, Hll.
    - exact Fk.
    - change (wf k k <> 0). lra.
    - rewrite (c_div dot64 a T r HT (S k + l) k) by (unfold len in Hll; lia). rewrite E. apply rnd_rel. }
  set (Q := rsum len (fun l => Rabs (t l * y l))). set (W := rsum len (fun l => Rabs (y l))).
  assert (ELtu : Ltu r 0 (Tm wf) vr k = vr k + rsum len (fun l => t l * y l)).
  { unfold Ltu. rewrite (rsum_split_at r (S k)) by lia. fold len. f_equal.
    - rewrite (rsum_single (S k) k); [rewrite Lh_eq; ring|lia|]. intros i Hi1 Hi2. rewrite Lh_gt by lia. ring.
    - apply rsum_ext. intros l Hll. rewrite Lh_lt by lia. cbn [Nat.add]. rewrite Tm_lo by lia. reflexivity. }
  assert (EQ : Q = R1 wf p vr k + Rabs (wf p k) / wf k k).
  { unfold R1. rewrite (rsum_split_at p (S k)) by lia. rewrite (rsum_0 (S k)).
    2: { intros i Hi. destruct (Nat.ltb_spec k i); [lia|ring]. }
    assert (Ab : forall i, Rabs (wf i k / wf k k) = Rabs (wf i k) / wf k k).
    { intros i. unfold Rdiv. rewrite Rabs_mult, (Rabs_pos_eq (/ wf k k)) by (left; apply Rinv_0_lt_compat, Dk). reflexivity. }
    unfold Q. rewrite Elen. cbn [rsum]. rewrite Rplus_0_l. f_equal.
    - apply rsum_ext. intros l Hll. destruct (Nat.ltb_spec k (S k + l)); [|lia]. unfold t, y. rewrite Rabs_mult, Ab. reflexivity.
    - unfold t, y. replace (S k + (p - S k))%nat with p by lia. rewrite Vp1, Rmult_1_r. apply Ab. }
  assert (E1 : Rabs (rsum len (fun l => L l * y l) - rsum len (fun l => t l * y l)) <= uro * Q + eta * W).
  { rewrite <- rsum_minus. eapply Rle_trans; [apply rsum_Rabs|]. unfold Q, W. rewrite <- !rsum_scal_l, <- rsum_plus. apply rsum_le. intros l Hll.
    assert (H := EL l Hll). replace (L l * y l - t l * y l) with ((L l - t l) * y l) by ring. rewrite !Rabs_mult.
    rewrite <- Rmult_assoc, <- Rmult_plus_distr_r. apply Rmult_le_compat_r; [apply Rabs_pos|exact H]. }
  assert (E2 : rsum len (fun l => Rabs (L l * y l)) <= (1 + uro) * Q + eta * W).
  { unfold Q, W. rewrite <- !rsum_scal_l, <- rsum_plus. apply rsum_le. intros l Hll.
    assert (H := EL l Hll). rewrite !Rabs_mult.
    rewrite <- Rmult_assoc, <- Rmult_plus_distr_r. apply Rmult_le_compat_r; [apply Rabs_pos|].
    assert (X := Rabs_triang (L l - t l) (t l)). replace (L l - t l + t l) with (L l) in X by ring. lra. }
  assert (Q0 : 0 <= Q) by (apply rsum_nonneg; intros; apply Rabs_pos).
  assert (W0 : 0 <= W) by (apply rsum_nonneg; intros; apply Rabs_pos).
  assert (WV : W <= V1).
  { rewrite (rsum_split_at r (S k)) by lia. fold len. unfold W, y. assert (0 <= rsum (S k) (fun i => Rabs (vr i))) by (apply rsum_nonneg; intros; apply Rabs_pos). lra. }
  assert (J : INR len + 1 <= INR n) by (rewrite <- S_INR; apply le_INR; lia).
  assert (J0 := pos_INR len).
  assert (Nn : INR n <= pow2 20) by (rewrite INR_IZR_INZ; change (pow2 20) with (IZR (2 ^ 20)); apply IZR_le, Hn).
  assert (eta0 : 0 < eta) by apply bpow_gt_0. assert (u0 : 0 < uro) by apply bpow_gt_0.
  assert (P1 : pow2 (-1073) = 4 * eta) by (change 4 with (pow2 2); rewrite <- bpow_plus; reflexivity).
  assert (P2 : pow2 (-52) = 2 * uro) by (change 2 with (pow2 1); rewrite <- bpow_plus; reflexivity).
  assert (Ju : INR len * pow2 (-52) <= / 4).
  { apply Rle_trans with (pow2 20 * pow2 (-52)); [apply Rmult_le_compat_r; [apply bpow_ge_0|lra]|]. rewrite <- bpow_plus. cbn. lra. }
  set (s1 := rsum len (fun l => t l * y l)) in *. set (s2 := rsum len (fun l => L l * y l)) in *. set (s3 := rsum len (fun l => Rabs (L l * y l))) in *.
  change (rsum len (fun l => B2R (T (S k + l)%nat k) * B2R (v (S k + l)%nat))) with s2 in FE.
  change (rsum len (fun l => Rabs (B2R (T (S k + l)%nat k) * B2R (v (S k + l)%nat)))) with s3 in FE.
  rewrite ELtu, <- EQ, Ed.
  replace (- B2R d + s1) with (- (B2R d - s2) + - (s2 - s1)) by ring.
  eapply Rle_trans; [apply Rabs_triang|]. rewrite !Rabs_Ropp.
  assert (Y1 : INR len * pow2 (-52) * s3 <= INR len * pow2 (-52) * ((1 + uro) * Q + eta * W)) by (apply Rmult_le_compat_l; [apply Rmult_le_pos; [assumption|apply bpow_ge_0]|exact E2]).
  set (J52 := INR len * pow2 (-52)) in *.
  assert (Y2 : J52 * (uro * Q) <= / 4 * (uro * Q)) by (apply Rmult_le_compat_r; [apply Rmult_le_pos; lra|exact Ju]).
  assert (Y3 : J52 * (eta * W) <= / 4 * (eta * W)) by (apply Rmult_le_compat_r; [apply Rmult_le_pos; lra|exact Ju]).
  assert (Z1 : J52 * Q + pow2 (-52) * Q <= epsf n * Q).
  { unfold J52, epsf. rewrite <- !Rmult_plus_distr_r. apply Rmult_le_compat_r; [exact Q0|].
    replace (INR len * pow2 (-52) + pow2 (-52)) with ((INR len + 1) * pow2 (-52)) by ring.
    apply Rmult_le_compat_r; [apply bpow_ge_0|lra]. }
  assert (Z3 : INR len * pow2 (-1073) + pow2 (-1073) <= cf n).
  { unfold cf. replace (INR len * pow2 (-1073) + pow2 (-1073)) with ((INR len + 1) * pow2 (-1073)) by ring. apply Rmult_le_compat_r; [apply bpow_ge_0|lra]. }
  assert (C4 : 4 * eta <= cf n) by (rewrite <- P1; assert (0 <= INR len * pow2 (-1073)) by (apply Rmult_le_pos; [assumption|apply bpow_ge_0]); lra).
  assert (Z4 : 4 * eta * W <= cf n * W) by (apply Rmult_le_compat_r; [exact W0|exact C4]).
  assert (Z5 : cf n * W <= cf n * V1) by (apply Rmult_le_compat_l; [lra|exact WV]).
  assert (0 <= eta * W) by (apply Rmult_le_pos; lra). assert (0 <= uro * Q) by (apply Rmult_le_pos; lra).
  rewrite P1 in *. rewrite P2 in *. lra.
Qed.

Variable M : R.
Hypothesis HM : forall i j, (j <= i)%nat -> (i < r)%nat -> Rabs (af i j) <= M.
Hypothesis HM0 : 0 <= M.
Notation kapf := (pow2 (-1000)).
Theorem wit64_quad :
  bf r (Am af) vr vr - B2R (T p p) <= 12 * (epsf n * INR n * (M + kapf)) * S_LinAlg.dot r vr vr /\
  0 <= - B2R (T p p) <= 2 * (INR n * (M + kapf)) * S_LinAlg.dot r vr vr.
Proof.
  assert (Hf := pivots_finite dot64 Hdot a T n r Hrn Ha HT p ltac:(lia) Hp).
  destruct (sizes n r Hn Hrn ltac:(lia)) as (e0 & c0 & z1 & z2 & z3 & z4).
  assert (Hpos : forall k, (S k < r)%nat -> 0 < wf k k) by (intros k Hk; apply Hf; lia).
  assert (k0 : 0 < kapf) by apply bpow_gt_0.
  assert (Hlast : wf p p <= 0).
  { rewrite f64_ltb in Hl by (exact Fp || reflexivity). destruct (Rlt_bool_spec (B2R fzero) (B2R (T p p))) as [|L]; [discriminate Hl|exact L]. }
  assert (Hrec : forall i j, (j <= i)%nat -> (i < r)%nat -> Rabs (af i j - Gp wf i j) <= epsf n * Pp wf i j + cf n * (1 + rsum j (fun k => Rabs (wf j k)))).
  { intros i j Hj Hi. apply (rec_err dot64 Hdot a T n r Hn Hrn HT); try assumption.
    - apply (entries_finite dot64 Hdot a T n r Hn Hrn HT i); [exact Hi| |exact Hj]. destruct (Nat.eq_dec i p) as [->|]; [exact Fp|apply Hf; lia].
    - intros k Hk. split; apply Hf; lia. }
  assert (V1p : vr p = 1) by (cbv beta; rewrite Vp; apply (proj1 fone)).
  destruct (wit_quad af wf r (epsf n) (cf n) e0 c0 Hpos Hrec n M kapf Hrn HM HM0 k0 z1 z2 z3 z4 p Hr Hlast vr V1p wit_row) as [W1 W2].
  split; [exact W1|]. change (B2R (T p p)) with (wf p p). split; [lra|exact W2].
Qed.
End Wit64.
