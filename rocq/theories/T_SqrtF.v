(** Property theorem about the square root of chol_ext in binary64 (C188). *)
From Coq Require Import ZArith Reals Lra Lia Bool List Psatz Floats.SpecFloat FunctionalExtensionality.
From Flocq Require Import Core.Core IEEE754.BinarySingleNaN.
From Verif Require Import Base M_Chol M_Lmi S_LinAlg S_Lmi P_Lmi P_LinAlg P_Chol P_Chol2 P_CholF P_CholF2 M_Float P_Float P_Float2 S_Float S_Float2 P_FSum P_LmiF P_EllF P_EllF4 T_Float T_Float2 T_Float4 T_MleF.
Import ListNotations.
Local Open Scope R_scope.

(** ** The entries that chol_ext.sqrt writes, over any number type *)
Section Rows.
Context {A : Type} `{Num A}.
Lemma sqrt_row_get i (T : nat -> nat -> A) : forall cnt j M, (i < j)%nat ->
  (forall a b, ~ (a = i /\ j <= b < j + cnt)%nat -> sqrt_row cnt j i T M a b = M a b) /\
  (forall b, (j <= b < j + cnt)%nat -> sqrt_row cnt j i T M i b = nmul (T b i) (M i i)).
Proof.
  induction cnt as [|cnt IH]; intros j M Hj; cbn [sqrt_row]; [split; [reflexivity|intros; lia]|].
  destruct (IH (j + 1)%nat (mset M i j (nmul (T j i) (M i i)))) as [H1 H2]; [lia|]. split.
  - intros a b Hab. rewrite H1 by lia. apply mset_ne. lia.
  - intros b Hb. destruct (Nat.eq_dec b j) as [->|Hne].
    + rewrite H1 by lia. apply mset_eq.
    + rewrite H2 by lia. rewrite mset_ne by lia. reflexivity.
Qed.
Lemma sqrt_rows_get n (T : nat -> nat -> A) (sq : nat -> A) : forall cnt i M, (i + cnt = n)%nat ->
  (forall a, (i <= a < n)%nat -> nsqrt (T a a) = Ok (sq a)) ->
  exists M', sqrt_rows cnt i n T M = Ok M' /\
   (forall a b, ((a < i) \/ (b < a))%nat -> M' a b = M a b) /\
   (forall a, (i <= a < n)%nat -> M' a a = sq a) /\
   (forall a b, (i <= a < b)%nat -> (b < n)%nat -> M' a b = nmul (T b a) (sq a)).
Proof.
  induction cnt as [|cnt IH]; intros i M Hi Hp; cbn [sqrt_rows].
  - exists M. repeat split; intros; reflexivity || lia.
  - rewrite (Hp i) by lia. cbn [bind].
    destruct (sqrt_row_get i T (n - (i + 1)) (i + 1)%nat (mset M i i (sq i))) as [H1 H2]; [lia|].
    destruct (IH (i + 1)%nat (sqrt_row (n - (i + 1)) (i + 1) i T (mset M i i (sq i)))) as (M' & Hr & F1 & F2 & F3); [lia|intros a Ha; apply Hp; lia|].
    exists M'. split; [exact Hr|]. split; [|split].
    + intros a b Hab. rewrite F1 by lia. rewrite H1 by lia. apply mset_ne. lia.
    + intros a Ha. destruct (Nat.eq_dec a i) as [->|Hne]; [|apply F2; lia]. rewrite F1 by lia. rewrite H1 by lia. apply mset_eq.
    + intros a b Hab Hb. destruct (Nat.eq_dec a i) as [->|Hne]; [|apply F3; lia]. rewrite F1 by lia. rewrite H2 by lia. rewrite mset_eq. reflexivity.
Qed.
End Rows.

(** ** Rounding errors of one entry *)
Lemma min_pos (d : b64) : is_finite d = true -> 0 < B2R d -> pow2 (-1074) <= B2R d.
Proof.
  intros F P. apply (generic_format_ge_bpow radix2 fexp64); [|exact P|apply fmt_b64].
  intros e. apply Z.le_max_r.
Qed.
Lemma sqrt_min D : pow2 (-1074) <= D -> pow2 (-537) <= sqrt D.
Proof.
  intros HD. replace (pow2 (-537)) with (sqrt (pow2 (-537) * pow2 (-537))) by (apply sqrt_square, bpow_ge_0).
  apply sqrt_le_1_alt. rewrite <- bpow_plus. exact HD.
Qed.
Lemma sqrt_err D : pow2 (-1074) <= D -> Rabs (rnd (sqrt D) - sqrt D) <= 2 * pow2 (-53) * sqrt D.
Proof.
  intros HD. assert (S0 := sqrt_min D HD). assert (R := rnd_rel (sqrt D)).
  assert (B := bpow_gt_0 radix2 (-537)). rewrite (Rabs_pos_eq (sqrt D)) in R by lra.
  assert (E : pow2 (-1075) <= pow2 (-53) * pow2 (-537)) by (rewrite <- bpow_plus; apply bpow_le; lia).
  assert (U := bpow_gt_0 radix2 (-53)).
  assert (pow2 (-53) * pow2 (-537) <= pow2 (-53) * sqrt D) by (apply Rmult_le_compat_l; lra). lra.
Qed.
(** z = (w / D) sqrt D, the exact entry *)
Lemma entry_err w D : pow2 (-1074) <= D ->
  let q := rnd (w / D) in let s := rnd (sqrt D) in let z := w / D * sqrt D in
  Rabs (q * s) <= 2 * Rabs z + pow2 (-1074) * sqrt D /\
  Rabs (rnd (q * s) - z) <= 5 * pow2 (-53) * Rabs z + pow2 (-1074) * (1 + sqrt D).
Proof.
  intros HD q s z. assert (S0 := sqrt_min D HD). assert (B := bpow_gt_0 radix2 (-537)).
  assert (Hs := sqrt_err D HD). fold s in Hs. assert (Hq := rnd_rel (w / D)). fold q in Hq. assert (Hp := rnd_rel (q * s)).
  set (u := pow2 (-53)) in *. set (e := pow2 (-1075)) in *. set (r := sqrt D) in *. set (y := w / D) in *.
  assert (U : 0 < u <= / 1000) by (unfold u; cbn; lra). assert (E0 : 0 < e) by apply bpow_gt_0.
  assert (E2 : pow2 (-1074) = 2 * e) by (unfold e; change 2 with (pow2 1); rewrite <- bpow_plus; reflexivity). rewrite E2.
  assert (r0 : 0 < r) by lra. assert (Y0 := Rabs_pos y).
  assert (Zy : Rabs z = Rabs y * r) by (unfold z; rewrite Rabs_mult, (Rabs_pos_eq r) by lra; reflexivity).
  assert (Z0 := Rabs_pos z).
  assert (ur : u * r <= / 1000 * r) by (apply Rmult_le_compat_r; lra).
  assert (Hs' := Rabs_le_inv _ _ Hs).
  assert (Sb : 0 <= s <= 101 / 100 * r) by lra.
  assert (D1 : Rabs ((q - y) * s) <= (u * Rabs y + e) * (101 / 100 * r)).
  { rewrite Rabs_mult, (Rabs_pos_eq s) by lra. apply Rmult_le_compat; [apply Rabs_pos|lra|exact Hq|lra]. }
  assert (D2 : Rabs (y * (s - r)) <= Rabs y * (2 * u * r)) by (rewrite Rabs_mult; apply Rmult_le_compat_l; assumption).
  assert (D3 : Rabs (q * s - z) <= 101 / 100 * (u * Rabs z) + 101 / 100 * (e * r) + 2 * (u * Rabs z)).
  { replace (q * s - z) with ((q - y) * s + y * (s - r)) by (unfold z; ring). eapply Rle_trans; [apply Rabs_triang|]. rewrite Zy. lra. }
  assert (uz : 0 <= u * Rabs z <= / 1000 * Rabs z) by (split; [apply Rmult_le_pos; lra|apply Rmult_le_compat_r; lra]).
  assert (er : 0 <= e * r) by (apply Rmult_le_pos; lra).
  assert (D4 : Rabs (q * s) <= 101 / 100 * Rabs z + 101 / 100 * (e * r)).
  { replace (q * s) with ((q * s - z) + z) by ring. eapply Rle_trans; [apply Rabs_triang|]. lra. }
  split; [lra|].
  assert (D5 : u * Rabs (q * s) <= u * (101 / 100 * Rabs z + 101 / 100 * (e * r))) by (apply Rmult_le_compat_l; lra).
  assert (uer : u * (e * r) <= / 1000 * (e * r)) by (apply Rmult_le_compat_r; lra).
  replace (rnd (q * s) - z) with ((rnd (q * s) - q * s) + (q * s - z)) by ring. eapply Rle_trans; [apply Rabs_triang|]. lra.
Qed.
(** the product of two entries *)
Lemma prod_err p1 p2 z1 z2 b S : 0 <= b <= S -> Rabs z1 <= S -> Rabs z2 <= S ->
  Rabs (p1 - z1) <= 5 * pow2 (-53) * Rabs z1 + b -> Rabs (p2 - z2) <= 5 * pow2 (-53) * Rabs z2 + b ->
  Rabs (p1 * p2 - z1 * z2) <= 11 * pow2 (-53) * Rabs (z1 * z2) + 4 * (b * S).
Proof.
  intros Hb H1 H2 E1 E2. set (u := pow2 (-53)) in *. assert (U : 0 < u <= / 1000) by (unfold u; cbn; lra).
  assert (Z1 := Rabs_pos z1). assert (Z2 := Rabs_pos z2).
  assert (P2 : Rabs p2 <= (1 + 5 * u) * Rabs z2 + b).
  { replace p2 with ((p2 - z2) + z2) by ring. eapply Rle_trans; [apply Rabs_triang|]. lra. }
  replace (p1 * p2 - z1 * z2) with ((p1 - z1) * p2 + z1 * (p2 - z2)) by ring. eapply Rle_trans; [apply Rabs_triang|]. rewrite !Rabs_mult.
  assert (A1 : Rabs (p1 - z1) * Rabs p2 <= (5 * u * Rabs z1 + b) * ((1 + 5 * u) * Rabs z2 + b)) by (apply Rmult_le_compat; try apply Rabs_pos; assumption).
  assert (A2 : Rabs z1 * Rabs (p2 - z2) <= Rabs z1 * (5 * u * Rabs z2 + b)) by (apply Rmult_le_compat_l; assumption).
  set (x := Rabs z1) in *. set (y := Rabs z2) in *.
  assert (X : 0 <= x * y) by (apply Rmult_le_pos; assumption).
  assert (uu : u * (u * (x * y)) <= / 1000 * (u * (x * y))) by (apply Rmult_le_compat_r; [apply Rmult_le_pos; lra|lra]).
  assert (xb : 0 <= x * b <= b * S) by (split; [apply Rmult_le_pos; lra|rewrite Rmult_comm; apply Rmult_le_compat_l; lra]).
  assert (yb : 0 <= y * b <= b * S) by (split; [apply Rmult_le_pos; lra|rewrite Rmult_comm; apply Rmult_le_compat_l; lra]).
  assert (bb : b * b <= b * S) by (apply Rmult_le_compat_l; lra).
  assert (uxb : u * (x * b) <= / 1000 * (x * b)) by (apply Rmult_le_compat_r; lra).
  assert (uyb : u * (y * b) <= / 1000 * (y * b)) by (apply Rmult_le_compat_r; lra).
  assert (0 <= u * (x * y)) by (apply Rmult_le_pos; lra).
  replace ((5 * u * x + b) * ((1 + 5 * u) * y + b)) with (5 * (u * (x * y)) + 25 * (u * (u * (x * y))) + 5 * (u * (x * b)) + y * b + 5 * (u * (y * b)) + b * b) in A1 by ring.
  replace (x * (5 * u * y + b)) with (5 * (u * (x * y)) + x * b) in A2 by ring. lra.
Qed.

(** ** The square root of an accepted matrix *)
Section Root.
Variable dot64 : nat -> (nat -> b64) -> (nat -> b64) -> b64.
Hypothesis Hdot : fdot_any dot64.
Variables (a T : nat -> nat -> b64) (n : nat) (M : R).
Hypothesis H0 : (0 < n)%nat.
Hypothesis Hn : (Z.of_nat n <= 2 ^ 20)%Z.
Hypothesis Ha : forall i j, (j <= i)%nat -> (i < n)%nat -> is_finite (a i j) = true.
Hypothesis HT : @cdone b64 (FNumD dot64) a T n.
Hypothesis HM : forall i, (i < n)%nat -> B2R (a i i) <= M.
Hypothesis HM0 : 0 <= M.
Hypothesis HM1 : M <= pow2 1000.
Hypothesis Hp : forall k, (k < n)%nat -> Bltb fzero (T k k) = true.
Notation af := (fun i j => B2R (a i j)).
Notation w := (wf T).
Notation kapf := (pow2 (-1000)).
Notation M2 := (2 * (M + kapf)).

Lemma r_piv k : (k < n)%nat -> is_finite (T k k) = true /\ 0 < w k k.
Proof. apply (pivots_finite dot64 Hdot a T n n (le_n n) Ha HT n (le_n n) Hp). Qed.
Lemma r_fin i k : (k <= i)%nat -> (i < n)%nat -> is_finite (T i k) = true /\ is_finite (T k i) = true.
Proof. intros Hk Hi. apply (entries_finite dot64 Hdot a T n n Hn (le_n n) HT i Hi); [apply r_piv, Hi|exact Hk]. Qed.
Lemma r_bounds i j : (j <= i)%nat -> (i < n)%nat ->
  Gp w i i <= M2 /\ Pp w i j <= M2 /\ Rabs (af i j - Gp w i j) <= (INR n + 1) * pow2 (-50) * (M + kapf).
Proof.
  intros Hj Hi.
  destruct (sizes n n Hn (le_n n) H0) as (e0 & c0 & z1 & z2 & z3 & z4).
  assert (Hpos : forall k, (S k < n)%nat -> 0 < w k k) by (intros k Hk; apply r_piv; lia).
  assert (Hall : forall k, (k < n)%nat -> 0 < w k k) by (intros k Hk; apply r_piv; lia).
  assert (k0 : 0 < kapf) by apply bpow_gt_0.
  assert (Hrec : forall i j, (j <= i)%nat -> (i < n)%nat -> Rabs (af i j - Gp w i j) <= epsf n * Pp w i j + cf n * (1 + rsum j (fun k => Rabs (w j k)))).
  { intros i' j' Hj' Hi'. apply (rec_err dot64 Hdot a T n n Hn (le_n n) HT); try assumption; [apply r_fin; assumption|].
    intros k Hk. split; apply r_piv; lia. }
  split; [|split].
  - apply (Gp_bound af w n (epsf n) (cf n) e0 c0 Hpos Hrec n M kapf (le_n n) HM HM0 k0 z1 z2 z4 i Hi). right. apply Hall, Hi.
  - apply (Pp_bound af w n (epsf n) (cf n) e0 c0 Hpos Hrec n M kapf (le_n n) HM HM0 k0 z1 z2 z4 i j Hj Hi). right. apply Hall, Hi.
  - eapply Rle_trans; [apply (E_bound af w n (epsf n) (cf n) e0 c0 Hpos Hrec n M kapf (le_n n) HM HM0 k0 z1 z2 z3 z4 i j Hj Hi); right; apply Hall, Hi|].
    unfold Ebound, epsf. replace (pow2 (-50)) with (4 * pow2 (-52)) by (change 4 with (pow2 2); rewrite <- bpow_plus; reflexivity).
    assert (0 <= (INR n + 1) * pow2 (-52) * (M + kapf)) by (apply Rmult_le_pos; [exact e0|lra]). lra.
Qed.

(** the exact entry k i of the root of the factors, k <= i *)
Definition zf (k i : nat) : R := w i k / w k k * sqrt (w k k).
Lemma zf_prod k i j : (k < n)%nat -> zf k i * zf k j = w i k * w j k / w k k.
Proof.
  intros Hk. destruct (r_piv k Hk) as [_ P]. unfold zf.
  replace (w i k / w k k * sqrt (w k k) * (w j k / w k k * sqrt (w k k))) with (w i k / w k k * (w j k / w k k) * (sqrt (w k k) * sqrt (w k k))) by ring.
  rewrite sqrt_sqrt by lra. field. lra.
Qed.
Lemma zf_diag k : (k < n)%nat -> zf k k = sqrt (w k k).
Proof. intros Hk. destruct (r_piv k Hk) as [_ P]. unfold zf. replace (w k k / w k k) with 1 by (field; lra). ring. Qed.
Lemma sq_le_sqrt x y : x * x <= y -> Rabs x <= sqrt y.
Proof. intros Hx. rewrite <- sqrt_Rsqr_abs. apply sqrt_le_1_alt. exact Hx. Qed.
Lemma zf_size k i : (k <= i)%nat -> (i < n)%nat -> Rabs (zf k i) <= sqrt M2.
Proof.
  intros Hk Hi. apply sq_le_sqrt. rewrite zf_prod by lia. destruct (r_bounds i i (le_n i) Hi) as (G & _ & _).
  eapply Rle_trans; [|exact G]. unfold Gp. destruct (r_piv i Hi) as [_ Pi].
  assert (N : forall l, (l < i)%nat -> 0 <= w i l * w i l / w l l).
  { intros l Hl. apply Rmult_le_pos; [apply Rle_0_sqr|]. left. apply Rinv_0_lt_compat, r_piv. lia. }
  destruct (Nat.eq_dec k i) as [->|].
  - replace (w i i * w i i / w i i) with (w i i) by (field; lra). assert (X := rsum_nonneg i _ N). lra.
  - assert (X : w i k * w i k / w k k <= rsum i (fun l => w i l * w i l / w l l)).
    { rewrite (rsum_split_at i (S k)) by lia. cbn [rsum]. assert (X1 := rsum_nonneg k (fun l => w i l * w i l / w l l) ltac:(intros l Hl; apply N; lia)).
      match goal with |- _ <= _ + ?t => assert (X2 : 0 <= t) by (apply rsum_nonneg; intros l Hl; apply N; lia) end. lra. }
    lra.
Qed.
Lemma S_facts : 0 < kapf /\ pow2 (-500) <= sqrt M2 /\ sqrt M2 * sqrt M2 = M2 /\ sqrt M2 <= pow2 1002.
Proof.
  assert (k0 : 0 < kapf) by apply bpow_gt_0. split; [exact k0|]. split; [|split].
  - replace (pow2 (-500)) with (sqrt (pow2 (-500) * pow2 (-500))) by (apply sqrt_square, bpow_ge_0). apply sqrt_le_1_alt. rewrite <- bpow_plus.
    change (-500 + -500)%Z with (-1000)%Z. lra.
  - apply sqrt_sqrt. lra.
  - apply Rle_trans with (sqrt (pow2 1002 * pow2 1002)); [|rewrite sqrt_square by apply bpow_ge_0; lra]. apply sqrt_le_1_alt.
    assert (K : kapf <= pow2 1000) by (apply bpow_le; lia).
    assert (E : pow2 1002 = 4 * pow2 1000) by (change 4 with (pow2 2); rewrite <- bpow_plus; reflexivity).
    assert (O : 1 <= pow2 1002) by (change 1 with (pow2 0); apply bpow_le; lia).
    apply Rle_trans with (1 * pow2 1002); [lra|]. apply Rmult_le_compat_r; lra.
Qed.
Definition bS : R := pow2 (-1074) * (1 + sqrt M2).
Lemma bS_facts : 0 <= bS <= sqrt M2 /\ INR n * (4 * (bS * sqrt M2)) <= pow2 (-53) * M2.
Proof.
  destruct S_facts as (k0 & S0 & SS & S1). unfold bS. set (S := sqrt M2) in *. assert (E0 := bpow_gt_0 radix2 (-1074)). assert (B0 := bpow_gt_0 radix2 (-500)).
  assert (E1 : pow2 (-1074) * 4 <= pow2 (-500)) by (change 4 with (pow2 2); rewrite <- bpow_plus; apply bpow_le; lia).
  assert (E2 : pow2 (-1074) <= / 4) by (change (/ 4) with (pow2 (-2)); apply bpow_le; lia).
  assert (E3 : pow2 (-1074) * S <= / 4 * S) by (apply Rmult_le_compat_r; lra).
  assert (P0 : 0 <= pow2 (-1074) * S) by (apply Rmult_le_pos; lra).
  split; [lra|].
  assert (Nn : INR n <= pow2 20) by (rewrite INR_IZR_INZ; change (pow2 20) with (IZR (2 ^ 20)); apply IZR_le, Hn). assert (N0 := pos_INR n).
  assert (Q1 : S <= pow2 500 * (S * S)).
  { rewrite <- Rmult_assoc. rewrite <- (Rmult_1_l S) at 1. apply Rmult_le_compat_r; [lra|].
    apply Rle_trans with (pow2 500 * pow2 (-500)); [rewrite <- bpow_plus; apply Rle_refl|]. apply Rmult_le_compat_l; [apply bpow_ge_0|exact S0]. }
  rewrite SS in Q1. assert (M20 : 0 < M2) by lra.
  assert (O : 1 <= pow2 500) by (change 1 with (pow2 0); apply bpow_le; lia).
  assert (Q2 : (1 + S) * S <= pow2 501 * M2).
  { replace (pow2 501) with (2 * pow2 500) by (change 2 with (pow2 1); rewrite <- bpow_plus; reflexivity).
    replace ((1 + S) * S) with (S + S * S) by ring. rewrite SS. assert (1 * M2 <= pow2 500 * M2) by (apply Rmult_le_compat_r; lra). lra. }
  apply Rle_trans with (pow2 20 * (4 * (pow2 (-1074) * (pow2 501 * M2)))).
  - apply Rmult_le_compat; [exact N0| |exact Nn|].
    + apply Rmult_le_pos; [lra|]. apply Rmult_le_pos; [apply Rmult_le_pos; lra|lra].
    + apply Rmult_le_compat_l; [lra|]. rewrite Rmult_assoc. apply Rmult_le_compat_l; [lra|exact Q2].
  - replace (pow2 20 * (4 * (pow2 (-1074) * (pow2 501 * M2)))) with (pow2 20 * pow2 2 * pow2 (-1074) * pow2 501 * M2) by (change (pow2 2) with 4; ring).
    rewrite <- !bpow_plus. apply Rmult_le_compat_r; [lra|]. apply bpow_le. lia.
Qed.

Variable U : nat -> nat -> b64.
Hypothesis U1 : forall i j, (j < i)%nat -> U i j = fzero.
Hypothesis U2 : forall i, (i < n)%nat -> U i i = fsqrt (T i i).
Hypothesis U3 : forall i j, (i < j)%nat -> (j < n)%nat -> U i j = fmul (T j i) (fsqrt (T i i)).

Lemma root_entry k i : (k <= i)%nat -> (i < n)%nat ->
  is_finite (U k i) = true /\ Rabs (B2R (U k i) - zf k i) <= 5 * pow2 (-53) * Rabs (zf k i) + bS.
Proof.
  intros Hk Hi. destruct (r_piv k ltac:(lia)) as [Fk Pk]. assert (Mk := min_pos _ Fk Pk). change (B2R (T k k)) with (w k k) in Mk.
  destruct (fsqrt_fin (T k k) Fk ltac:(change (B2R (T k k)) with (w k k); lra)) as (_ & Fs & Es). change (B2R (T k k)) with (w k k) in Es.
  assert (Sk : sqrt (w k k) <= sqrt M2).
  { assert (X := zf_size k k (le_n k) ltac:(lia)). rewrite zf_diag in X by lia. rewrite Rabs_pos_eq in X by apply sqrt_pos. exact X. }
  destruct bS_facts as [[B0 B1] _]. assert (E0 := bpow_gt_0 radix2 (-1074)).
  destruct (Nat.eq_dec k i) as [<-|Hne].
  - rewrite U2 by lia. split; [exact Fs|]. rewrite Es, zf_diag by lia. rewrite (Rabs_pos_eq (sqrt (w k k))) by apply sqrt_pos.
    assert (X := sqrt_err _ Mk). assert (Y := sqrt_pos (w k k)). assert (0 <= pow2 (-53) * sqrt (w k k)) by (apply Rmult_le_pos; [apply bpow_ge_0|exact Y]). lra.
  - rewrite U3 by lia. destruct (r_fin i k ltac:(lia) Hi) as [Fik Fki].
    assert (Ed := c_div dot64 a T n HT i k ltac:(lia) Hi). assert (Fd := Fik). rewrite Ed in Fd.
    destruct (fdiv_fin (T k i) (T k k) Fd Fk ltac:(change (B2R (T k k)) with (w k k); lra)) as [_ Eq]. rewrite <- Ed in Eq.
    change (B2R (T k i)) with (w i k) in Eq. change (B2R (T k k)) with (w k k) in Eq.
    destruct (entry_err (w i k) (w k k) Mk) as [V1 V2]. cbn zeta in V1, V2. fold (zf k i) in V1, V2.
    rewrite <- Eq, <- Es in V1, V2.
    assert (Zs := zf_size k i Hk Hi). destruct S_facts as (_ & _ & _ & S1).
    assert (E2 : pow2 (-1074) <= / 4) by (change (/ 4) with (pow2 (-2)); apply bpow_le; lia).
    assert (X1 : pow2 (-1074) * sqrt (w k k) <= / 4 * sqrt (w k k)) by (apply Rmult_le_compat_r; [apply sqrt_pos|exact E2]).
    assert (X2 : pow2 (-1074) * sqrt (w k k) <= pow2 (-1074) * sqrt M2) by (apply Rmult_le_compat_l; lra).
    destruct (fmul_rnd (T i k) (fsqrt (T k k)) Fik Fs) as [Em Fm].
    { apply Rle_trans with (4 * pow2 1002); [lra|]. change 4 with (pow2 2). rewrite <- bpow_plus. apply bpow_le. lia. }
    split; [exact Fm|]. rewrite Em. unfold bS. lra.
Qed.
Lemma rsum_le' m f g : (forall k, (k < m)%nat -> f k <= g k) -> rsum m f <= rsum m g.
Proof. apply rsum_le. Qed.
Lemma root_gram i j : (j <= i)%nat -> (i < n)%nat ->
  Rabs (rsum n (fun k => B2R (U k i) * B2R (U k j)) - B2R (a i j)) <= (INR n + 4) * pow2 (-50) * (M + kapf).
Proof.
  intros Hj Hi. destruct (r_bounds i j Hj Hi) as (_ & P & E). destruct bS_facts as [B BN].
  assert (Z : rsum n (fun k => B2R (U k i) * B2R (U k j)) = rsum (S j) (fun k => B2R (U k i) * B2R (U k j))).
  { rewrite (rsum_split_at n (S j)) by lia. rewrite (rsum_0 (n - S j)); [ring|].
    intros k Hk. rewrite (U1 _ j) by lia. change (B2R fzero) with 0. ring. }
  rewrite Z. destruct (r_piv j ltac:(lia)) as [_ Pj].
  assert (G : Gp w i j = rsum (S j) (fun k => zf k i * zf k j)).
  { unfold Gp. cbn [rsum]. f_equal; [apply rsum_ext; intros k Hk; rewrite zf_prod by lia; reflexivity|]. rewrite zf_prod by lia. field. lra. }
  assert (PP : rsum (S j) (fun k => Rabs (zf k i * zf k j)) = Pp w i j).
  { unfold Pp. cbn [rsum]. f_equal; [apply rsum_ext; intros k Hk; rewrite zf_prod by lia; reflexivity|]. rewrite zf_prod by lia. f_equal. field. lra. }
  assert (D : Rabs (rsum (S j) (fun k => B2R (U k i) * B2R (U k j)) - rsum (S j) (fun k => zf k i * zf k j)) <= 11 * pow2 (-53) * Pp w i j + INR (S j) * (4 * (bS * sqrt M2))).
  { rewrite <- rsum_minus. eapply Rle_trans; [apply rsum_Rabs|]. rewrite <- PP, <- (rsum_const (S j)), <- rsum_scal_l, <- rsum_plus. apply rsum_le. intros k Hk.
    destruct (root_entry k i ltac:(lia) Hi) as [_ Ei]. destruct (root_entry k j ltac:(lia) ltac:(lia)) as [_ Ej].
    apply prod_err; try assumption; apply zf_size; lia. }
  rewrite <- G in D.
  assert (J : INR (S j) <= INR n) by (apply le_INR; lia).
  assert (bS0 : 0 <= 4 * (bS * sqrt M2)) by (apply Rmult_le_pos; [lra|]; apply Rmult_le_pos; lra).
  assert (JB : INR (S j) * (4 * (bS * sqrt M2)) <= INR n * (4 * (bS * sqrt M2))) by (apply Rmult_le_compat_r; assumption).
  assert (U0 := bpow_gt_0 radix2 (-53)).
  assert (PM : pow2 (-53) * Pp w i j <= pow2 (-53) * M2) by (apply Rmult_le_compat_l; lra).
  replace (rsum (S j) (fun k => B2R (U k i) * B2R (U k j)) - B2R (a i j)) with ((rsum (S j) (fun k => B2R (U k i) * B2R (U k j)) - Gp w i j) - (B2R (a i j) - Gp w i j)) by ring.
  eapply Rle_trans; [apply Rabs_triang|]. rewrite Rabs_Ropp.
  assert (E50 : pow2 (-50) = 8 * pow2 (-53)) by (change 8 with (pow2 3); rewrite <- bpow_plus; reflexivity). rewrite E50 in *. lra.
Qed.
End Root.

(** After a successful factorisation of finite data the root returns; it is upper triangular with positive diagonal, and its
    Gram matrix is the factored matrix up to (n + 4) 2^-50 (M + 2^-1000), M a bound on the diagonal. *)
Theorem C188_sqrt64 :
  forall dot a (Q Q' : chol b64) n M,
  fdot_any dot -> ext64 dot -> c_semi Q = false -> c_n Q = n -> (0 < n)%nat -> (Z.of_nat n <= 2 ^ 20)%Z ->
  low_finite n a -> (forall i, (i < n)%nat -> B2R (a i i) <= M) -> 0 <= M -> M <= pow2 1000 ->
  chol64 dot a Q = Ok (Q', true) ->
  exists U, @chol_sqrt b64 (FNumD dot) Q' = Ok U /\
    (forall i j, (i < n)%nat -> (j < n)%nat -> is_finite (U i j) = true) /\
    (forall i j, (j < i)%nat -> B2R (U i j) = 0) /\
    (forall i, (i < n)%nat -> 0 < B2R (U i i)) /\
    (forall i j, (i < n)%nat -> (j < n)%nat ->
      Rabs (rsum n (fun k => B2R (U k i) * B2R (U k j)) - low64 a i j) <= (INR n + 4) * pow2 (-50) * (M + pow2 (-1000))).
Proof.
  intros dot a Q Q' n M Hd NE Hs Hn H0 Hn2 Ha HM HM0 HM1 H. subst n.
  destruct (chol_factorize_rec (N := FNumD dot) a Q Q' true Hs H) as (r & _ & R2 & [(_ & -> & R3)|(C & _)]); [|discriminate C].
  assert (HP := r_piv dot Hd a (c_T Q') (c_n Q) Ha R2 R3).
  assert (HF : chol_is_spd Q' = true /\ c_n Q' = c_n Q).
  { unfold chol_factorize in H. apply bind_ok in H as ([[g1 Q1] b] & H & E). assert (Q1 = Q') by congruence. assert (b = true) by congruence. subst Q1 b.
    destruct (factor_diag _ _ _ _ _ Hs H) as (S1 & S2 & _). split; assumption. }
  destruct HF as [Es En]. unfold chol_sqrt. rewrite Es, En.
  destruct (sqrt_rows_get (H := FNumD dot) (c_n Q) (c_T Q') (fun k => fsqrt (c_T Q' k k)) (c_n Q) 0%nat (fun _ _ => fzero)) as (U & EU & F1 & F2 & F3); [lia| |].
  { intros k Hk. destruct (HP k ltac:(lia)) as [Fk Pk]. apply (fsqrt_fin (c_T Q' k k) Fk). apply Rlt_le, Pk. }
  exists U. split; [exact EU|].
  assert (U1 : forall i j, (j < i)%nat -> U i j = fzero) by (intros; apply F1; lia).
  assert (U2 : forall i, (i < c_n Q)%nat -> U i i = fsqrt (c_T Q' i i)) by (intros; apply F2; lia).
  assert (U3 : forall i j, (i < j)%nat -> (j < c_n Q)%nat -> U i j = fmul (c_T Q' j i) (fsqrt (c_T Q' i i))) by (intros; apply F3; lia).
  split; [|split; [|split]].
  - intros i j Hi Hj. destruct (le_lt_dec i j) as [L|L]; [|rewrite U1 by exact L; reflexivity].
    apply (root_entry dot Hd a (c_T Q') (c_n Q) M H0 Hn2 Ha R2 HM HM0 HM1 R3 U U2 U3 i j L Hj).
  - intros i j L. rewrite U1 by exact L. reflexivity.
  - intros i Hi. rewrite U2 by exact Hi. destruct (HP i Hi) as [Fk Pk]. destruct (fsqrt_fin (c_T Q' i i) Fk (Rlt_le _ _ Pk)) as (_ & _ & ->).
    assert (Mk := min_pos _ Fk Pk). assert (X := sqrt_err _ Mk). assert (Y := sqrt_min _ Mk). assert (B := bpow_gt_0 radix2 (-537)).
    apply Rabs_le_inv in X. assert (u : pow2 (-53) <= / 8) by (change (/ 8) with (pow2 (-3)); apply bpow_le; lia).
    assert (pow2 (-53) * sqrt (B2R (c_T Q' i i)) <= / 8 * sqrt (B2R (c_T Q' i i))) by (apply Rmult_le_compat_r; lra). lra.
  - intros i j Hi Hj. unfold low64. destruct (Nat.leb_spec j i) as [L|L].
    + apply (root_gram dot Hd a (c_T Q') (c_n Q) M H0 Hn2 Ha R2 HM HM0 HM1 R3 U U1 U2 U3 i j L Hi).
    + rewrite (rsum_ext _ _ (fun k => B2R (U k j) * B2R (U k i))) by (intros; apply Rmult_comm).
      apply (root_gram dot Hd a (c_T Q') (c_n Q) M H0 Hn2 Ha R2 HM HM0 HM1 R3 U U1 U2 U3 j i ltac:(lia) Hj).
Qed.
Print Assumptions C188_sqrt64.

(** The same for the factors that lmi0_oracle leaves behind when it accepts x: they are those of F(x) = sum x_k F_k. *)
Theorem C188_lmi0_64_sqrt :
  forall dot m F (Q Q' : chol b64) x M,
  fdot_any dot -> ext64 dot -> c_n Q = m -> c_semi Q = false ->
  (0 < m)%nat -> (Z.of_nat m <= 2 ^ 20)%Z -> (Z.of_nat (length F) <= 2 ^ 20)%Z -> M <= pow2 998 ->
  all_sym m (matsR F) -> lmi_data m F (fun _ _ => fzero) x M ->
  @lmi0_call b64 (FNumD dot) F (length F) Q x = Ok (Q', None) ->
  exists U, @chol_sqrt b64 (FNumD dot) Q' = Ok U /\
    (forall i j, (i < m)%nat -> (j < m)%nat -> is_finite (U i j) = true) /\
    (forall i j, (j < i)%nat -> B2R (U i j) = 0) /\
    (forall i, (i < m)%nat -> 0 < B2R (U i i)) /\
    (forall i j, (i < m)%nat -> (j < m)%nat ->
      Rabs (rsum m (fun k => B2R (U k i) * B2R (U k j)) - lin_mat (matsR F) (vecR x) i j) <= (INR m + INR (length F) + 4) * pow2 (-48) * (M + pow2 (-1000))).
Proof.
  intros dot m F Q Q' x M Hd NE En Es H0 Hm HF HM SF Hdata HC.
  assert (HM1 : M <= pow2 1000) by (eapply Rle_trans; [exact HM|apply bpow_le; lia]).
  set (a := fun i j => @psum b64 (FNumD dot) (length F) (fun k => fmul (nth k F (fun _ _ => fzero) i j) (x k))).
  assert (Hg : @lmi0_getA b64 (FNumD dot) F (length F) x = pure_getA a).
  { do 3 (apply functional_extensionality; intro). unfold lmi0_getA, lin_sum, pure_getA. rewrite Nat.leb_refl. cbn [bind]. match goal with u : unit |- _ => destruct u end. reflexivity. }
  assert (HM0 := lmi_data_nonneg m F _ x M Hdata H0).
  assert (Ent := lmi_entry dot m F _ x M Hdata HM1 HF).
  assert (Hsym : sym m (lin_mat (matsR F) (vecR x))) by (apply lin_mat_sym; assumption).
  assert (Hfin : low_finite m a) by (intros i j Hj Hi; apply (Ent i j); lia).
  assert (Hcl : forall i j, (j <= i)%nat -> (i < m)%nat -> Rabs (B2R (a i j) - lin_mat (matsR F) (vecR x) i j) <= (INR (length F) + 2) * pow2 (-52) * (M + pow2 (-1000)))
    by (intros i j Hj Hi; apply (Ent i j); lia).
  assert (Hdg : forall i, (i < m)%nat -> B2R (a i i) <= 2 * (M + pow2 (-1000))).
  { intros i Hi. eapply Rle_trans; [apply Rle_abs|]. apply (Ent i i); lia. }
  assert (K := bpow_gt_0 radix2 (-1000)).
  assert (HD1 : 2 * (M + pow2 (-1000)) <= pow2 1000).
  { apply Rle_trans with (2 * (pow2 998 + pow2 998)); [assert (pow2 (-1000) <= pow2 998) by (apply bpow_le; lia); lra|].
    replace (2 * (pow2 998 + pow2 998)) with (pow2 2 * pow2 998) by (change (pow2 2) with 4; ring). rewrite <- bpow_plus. apply bpow_le. lia. }
  assert (E : chol64 dot a Q = Ok (Q', true)).
  { unfold lmi0_call in HC. rewrite Hg in HC. unfold chol_factorize. destruct (chol_factor (pure_getA a) tt Q) as [[[g1 Q1] b]|e] eqn:EF; cbn [bind] in *; [|discriminate HC].
    destruct b; [congruence|]. apply bind_ok in HC as ([Q2 ep] & _ & HC). discriminate HC. }
  destruct (C188_sqrt64 dot a Q Q' m (2 * (M + pow2 (-1000))) Hd NE Es En H0 Hm Hfin Hdg ltac:(lra) HD1 E) as (U & EU & A1 & A2 & A3 & A4).
  exists U. split; [exact EU|]. split; [exact A1|]. split; [exact A2|]. split; [exact A3|]. intros i j Hi Hj.
  assert (Lc : Rabs (low64 a i j - lin_mat (matsR F) (vecR x) i j) <= (INR (length F) + 2) * pow2 (-52) * (M + pow2 (-1000))).
  { unfold low64. destruct (Nat.leb_spec j i) as [L|L]; [apply Hcl; assumption|]. rewrite (Hsym i j) by assumption. apply Hcl; lia. }
  specialize (A4 i j Hi Hj).
  match type of A4 with Rabs (?g - _) <= _ => replace (g - lin_mat (matsR F) (vecR x) i j) with ((g - low64 a i j) + (low64 a i j - lin_mat (matsR F) (vecR x) i j)) by ring end.
  eapply Rle_trans; [apply Rabs_triang|].
  assert (E50 : pow2 (-50) = 4 * pow2 (-52)) by (change 4 with (pow2 2); rewrite <- bpow_plus; reflexivity).
  assert (E48 : pow2 (-48) = 16 * pow2 (-52)) by (change 16 with (pow2 4); rewrite <- bpow_plus; reflexivity).
  rewrite E50 in A4. rewrite E48. clear E50 E48. assert (U0 := bpow_gt_0 radix2 (-52)).
  set (k := pow2 (-1000)) in *. set (u := pow2 (-52)) in *. assert (N1 := pos_INR m). assert (N2 := pos_INR (length F)). set (p := INR m) in *. set (q := INR (length F)) in *.
  apply Rle_trans with ((p + 4) * (4 * u) * (3 * (M + k)) + (q + 2) * u * (M + k)).
  - apply Rplus_le_compat; [|exact Lc]. eapply Rle_trans; [exact A4|]. apply Rmult_le_compat_l; [apply Rmult_le_pos; lra|lra].
  - replace ((p + 4) * (4 * u) * (3 * (M + k)) + (q + 2) * u * (M + k)) with ((12 * (p + 4) + (q + 2)) * (u * (M + k))) by ring.
    replace ((p + q + 4) * (16 * u) * (M + k)) with (16 * (p + q + 4) * (u * (M + k))) by ring.
    apply Rmult_le_compat_r; [apply Rmult_le_pos; lra|lra].
Qed.
Print Assumptions C188_lmi0_64_sqrt.

(** Non-vacuity: [[4, 1], [1, 3]] is accepted; its root is [[2, 1/2], [0, fl(sqrt(11/4))]].  lmi0_oracle accepts 3 I. *)
Definition root_bits (r : res (nat -> nat -> b64)) : option (list spec_float) :=
  match r with Ok U => Some [B2SF (U 0%nat 0%nat); B2SF (U 0%nat 1%nat); B2SF (U 1%nat 0%nat); B2SF (U 1%nat 1%nat)] | Raise _ => None end.
Example C188_ex :
  let a := mat2 (fmake 4 0) (fmake 1 0) (fmake 3 0) in
  fdot_any fdot_seq /\ ext64 fdot_seq /\ low_finite 2 a /\ (forall i, (i < 2)%nat -> B2R (a i i) <= 4) /\ 4 <= pow2 1000 /\
  (exists Q', chol64 fdot_seq a (@chol_init b64 FNum 2) = Ok (Q', true) /\
     root_bits (@chol_sqrt b64 (FNumD fdot_seq) Q') = Some [B2SF (fmake 2 0); B2SF (fmake 1 (-1)); B2SF fzero; B2SF (fsqrt (fmake 11 (-2)))]) /\
  (exists Q', @lmi0_call b64 (FNumD fdot_seq) exF64 1 (@chol_init b64 FNum 2) (fun _ => fmake 3 0) = Ok (Q', None)).
Proof.
  intros a. split; [exact fnum_dot_any|]. split; [exact fdot_seq_ext|]. split; [|split; [|split; [|split]]].
  - intros i j Hj Hi. destruct i as [|[|i]], j as [|[|j]]; try lia; reflexivity.
  - intros i Hi. destruct i as [|[|i]]; try lia; unfold a, mat2; rewrite fmakeR by lia; change (pow2 0) with 1; lra.
  - change 4 with (pow2 2). apply bpow_le. lia.
  - destruct (chol64 fdot_seq a (@chol_init b64 FNum 2)) as [[Q' b]|] eqn:E.
    + assert (X : match chol64 fdot_seq a (@chol_init b64 FNum 2) with
        | Ok (Q', b) => b = true /\ root_bits (@chol_sqrt b64 (FNumD fdot_seq) Q') = Some [B2SF (fmake 2 0); B2SF (fmake 1 (-1)); B2SF fzero; B2SF (fsqrt (fmake 11 (-2)))]
        | Raise _ => False end) by (vm_compute; split; reflexivity).
      rewrite E in X. destruct X as [-> X]. exists Q'. split; [reflexivity|exact X].
    + exfalso. assert (X : match chol64 fdot_seq a (@chol_init b64 FNum 2) with Ok _ => True | Raise _ => False end) by (vm_compute; exact I). rewrite E in X. exact X.
  - assert (X : match @lmi0_call b64 (FNumD fdot_seq) exF64 1 (@chol_init b64 FNum 2) (fun _ => fmake 3 0) with Ok (_, None) => true | _ => false end = true) by (vm_compute; reflexivity).
    destruct (@lmi0_call b64 (FNumD fdot_seq) exF64 1 (@chol_init b64 FNum 2) (fun _ => fmake 3 0)) as [[Q' [c|]]|]; try discriminate X. exists Q'. reflexivity.
Qed.
