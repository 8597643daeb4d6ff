(** Orthogonality of the sampled cosines and sines. *)
From Coq Require Import Reals Lra Psatz.
From Verif Require Import Base S_LinAlg P_LinAlg.
Local Open Scope R_scope.

Section Trig.
Variable n : nat.
Hypothesis Hn : (0 < n)%nat.
Let Hn' : 0 < INR n. Proof. apply lt_0_INR. exact Hn. Qed.

Definition ca (d : Z) (t : nat) : R := cos (2 * PI * IZR d * INR t / INR n).
Definition sa (d : Z) (t : nat) : R := sin (2 * PI * IZR d * INR t / INR n).

Lemma cos_periodZ x k : cos (x + 2 * IZR k * PI) = cos x.
Proof.
  destruct (Z_le_gt_dec 0 k).
  - rewrite <- (Z2Nat.id k) by assumption. rewrite <- INR_IZR_INZ. apply cos_period.
  - rewrite <- (cos_period (x + 2 * IZR k * PI) (Z.to_nat (- k))). f_equal.
    rewrite INR_IZR_INZ, Z2Nat.id, opp_IZR by lia. lra.
Qed.
Lemma sin_periodZ x k : sin (x + 2 * IZR k * PI) = sin x.
Proof.
  destruct (Z_le_gt_dec 0 k).
  - rewrite <- (Z2Nat.id k) by assumption. rewrite <- INR_IZR_INZ. apply sin_period.
  - rewrite <- (sin_period (x + 2 * IZR k * PI) (Z.to_nat (- k))). f_equal.
    rewrite INR_IZR_INZ, Z2Nat.id, opp_IZR by lia. lra.
Qed.

Lemma ca_shift d k t : ca (d + k * Z.of_nat n) t = ca d t.
Proof.
  unfold ca. rewrite <- (cos_periodZ (2 * PI * IZR d * INR t / INR n) (k * Z.of_nat t)). f_equal.
  rewrite plus_IZR, !mult_IZR, <- !INR_IZR_INZ. field. lra.
Qed.
Lemma sa_shift d k t : sa (d + k * Z.of_nat n) t = sa d t.
Proof.
  unfold sa. rewrite <- (sin_periodZ (2 * PI * IZR d * INR t / INR n) (k * Z.of_nat t)). f_equal.
  rewrite plus_IZR, !mult_IZR, <- !INR_IZR_INZ. field. lra.
Qed.
Lemma ca_opp d t : ca (- d) t = ca d t.
Proof. unfold ca. rewrite opp_IZR, <- cos_neg. f_equal. field. lra. Qed.
Lemma sa_opp d t : sa (- d) t = - sa d t.
Proof. unfold sa. rewrite opp_IZR, <- sin_neg. f_equal. field. lra. Qed.

Lemma half_sin d : (d mod Z.of_nat n <> 0)%Z -> sin (PI * IZR d / INR n) <> 0.
Proof.
  intros Hd E. apply sin_eq_0_0 in E as [k E].
  assert (HP := PI_RGT_0).
  assert (IZR d = IZR (k * Z.of_nat n)) as E2.
  { rewrite mult_IZR, <- INR_IZR_INZ. apply Rmult_eq_reg_l with PI; [|lra].
    apply (f_equal (fun x => x * INR n)) in E. field_simplify in E; lra. }
  apply eq_IZR in E2. apply Hd. rewrite E2. apply Z.mod_mul. lia.
Qed.

Lemma cos_telescope th m :
  2 * sin (th / 2) * rsum m (fun t => cos (INR t * th)) = sin ((INR m - / 2) * th) + sin (th / 2).
Proof.
  induction m as [|m IH].
  - cbn [rsum INR]. replace ((0 - / 2) * th) with (- (th / 2)) by field. rewrite sin_neg. lra.
  - cbn [rsum]. rewrite Rmult_plus_distr_l, IH, S_INR.
    replace ((INR m + 1 - / 2) * th) with (INR m * th + th / 2) by field.
    replace ((INR m - / 2) * th) with (INR m * th - th / 2) by field.
    rewrite sin_plus, sin_minus. lra.
Qed.
Lemma sin_telescope th m :
  2 * sin (th / 2) * rsum m (fun t => sin (INR t * th)) = cos (th / 2) - cos ((INR m - / 2) * th).
Proof.
  induction m as [|m IH].
  - cbn [rsum INR]. replace ((0 - / 2) * th) with (- (th / 2)) by field. rewrite cos_neg. lra.
  - cbn [rsum]. rewrite Rmult_plus_distr_l, IH, S_INR.
    replace ((INR m + 1 - / 2) * th) with (INR m * th + th / 2) by field.
    replace ((INR m - / 2) * th) with (INR m * th - th / 2) by field.
    rewrite cos_plus, cos_minus. lra.
Qed.

Lemma ca_sum d : rsum n (ca d) = if (d mod Z.of_nat n =? 0)%Z then INR n else 0.
Proof.
  destruct (Z.eqb_spec (d mod Z.of_nat n) 0) as [E|E].
  - rewrite (rsum_ext n _ (fun _ => 1)).
    + clear. induction n as [|m IH]; [reflexivity|]. cbn [rsum]. rewrite IH, S_INR. lra.
    + intros t _. rewrite (Z.div_mod d (Z.of_nat n)) by lia. rewrite E, Z.add_0_r, Z.mul_comm.
      rewrite <- (Z.add_0_l (_ * _)), ca_shift. unfold ca.
      replace (2 * PI * 0 * INR t / INR n) with 0 by (field; lra). apply cos_0.
  - assert (Hs := half_sin d E). set (th := 2 * PI * IZR d / INR n).
    assert (sin (th / 2) <> 0) as Hs' by (unfold th; replace (2 * PI * IZR d / INR n / 2) with (PI * IZR d / INR n) by (field; lra); exact Hs).
    apply Rmult_eq_reg_l with (2 * sin (th / 2)); [|nra].
    rewrite (rsum_ext n (ca d) (fun t => cos (INR t * th))).
    2:{ intros t _. unfold ca, th. f_equal. field. lra. }
    rewrite cos_telescope, Rmult_0_r.
    replace ((INR n - / 2) * th) with (- (th / 2) + 2 * IZR d * PI) by (unfold th; field; lra).
    rewrite sin_periodZ, sin_neg. lra.
Qed.
Lemma sa_sum d : rsum n (sa d) = 0.
Proof.
  destruct (Z.eqb_spec (d mod Z.of_nat n) 0) as [E|E].
  - apply rsum_0. intros t _. rewrite (Z.div_mod d (Z.of_nat n)) by lia. rewrite E, Z.add_0_r, Z.mul_comm.
    rewrite <- (Z.add_0_l (_ * _)), sa_shift. unfold sa.
    replace (2 * PI * 0 * INR t / INR n) with 0 by (field; lra). apply sin_0.
  - assert (Hs := half_sin d E). set (th := 2 * PI * IZR d / INR n).
    assert (sin (th / 2) <> 0) as Hs' by (unfold th; replace (2 * PI * IZR d / INR n / 2) with (PI * IZR d / INR n) by (field; lra); exact Hs).
    apply Rmult_eq_reg_l with (2 * sin (th / 2)); [|nra].
    rewrite (rsum_ext n (sa d) (fun t => sin (INR t * th))).
    2:{ intros t _. unfold sa, th. f_equal. field. lra. }
    rewrite sin_telescope, Rmult_0_r.
    replace ((INR n - / 2) * th) with (- (th / 2) + 2 * IZR d * PI) by (unfold th; field; lra).
    rewrite cos_periodZ, cos_neg. lra.
Qed.

(** the same with natural indices *)
Definition an (k t : nat) : R := 2 * PI * INR k * INR t / INR n.
Definition neg (b : nat) : nat := ((n - b) mod n)%nat.
Definition dl (a b : nat) : R := if Nat.eqb a b then 1 else 0.

Lemma neg_lt b : (neg b < n)%nat. Proof. unfold neg. apply Nat.mod_upper_bound. lia. Qed.
Lemma neg_0 : neg 0 = 0%nat. Proof. unfold neg. rewrite Nat.sub_0_r. apply Nat.mod_same. lia. Qed.
Lemma neg_pos b : (0 < b)%nat -> neg b = (n - b)%nat.
Proof. intros Hb. unfold neg. apply Nat.mod_small. lia. Qed.
Lemma neg_neg b : (b < n)%nat -> neg (neg b) = b.
Proof.
  intros Hb. destruct b as [|b]; [rewrite neg_0; apply neg_0|].
  rewrite (neg_pos (S b)) by lia. rewrite neg_pos by lia. lia.
Qed.

Lemma an_ca k t : cos (an k t) = ca (Z.of_nat k) t.
Proof. unfold an, ca. rewrite <- INR_IZR_INZ. reflexivity. Qed.
Lemma an_sa k t : sin (an k t) = sa (Z.of_nat k) t.
Proof. unfold an, sa. rewrite <- INR_IZR_INZ. reflexivity. Qed.
Lemma cos_neg_idx b t : (b < n)%nat -> cos (an (neg b) t) = cos (an b t).
Proof.
  intros Hb. destruct b as [|b]; [rewrite neg_0; reflexivity|]. rewrite neg_pos by lia.
  rewrite !an_ca, Nat2Z.inj_sub by lia.
  replace (Z.of_nat n - Z.of_nat (S b))%Z with (- Z.of_nat (S b) + 1 * Z.of_nat n)%Z by lia.
  rewrite ca_shift. apply ca_opp.
Qed.
Lemma sin_neg_idx b t : (b < n)%nat -> sin (an (neg b) t) = - sin (an b t).
Proof.
  intros Hb. destruct b as [|b].
  { rewrite neg_0. unfold an. replace (2 * PI * INR 0 * INR t / INR n) with 0 by (cbn; field; lra). rewrite sin_0. lra. }
  rewrite neg_pos by lia.
  rewrite !an_sa, Nat2Z.inj_sub by lia.
  replace (Z.of_nat n - Z.of_nat (S b))%Z with (- Z.of_nat (S b) + 1 * Z.of_nat n)%Z by lia.
  rewrite sa_shift. apply sa_opp.
Qed.
Lemma an_sym a b : an a b = an b a.
Proof. unfold an. field. lra. Qed.

Lemma diff_idx a b : (a < n)%nat -> (b < n)%nat ->
  ((Z.of_nat a - Z.of_nat b) mod Z.of_nat n =? 0)%Z = Nat.eqb a b.
Proof.
  intros Ha Hb. destruct (Nat.eqb_spec a b) as [->|H].
  - rewrite Z.sub_diag, Z.mod_0_l by lia. reflexivity.
  - apply Z.eqb_neq. intros E. apply Z.mod_divide in E as [q E]; [|lia].
    assert (q = 0)%Z by (assert (-1 < q < 1)%Z by nia; lia). subst q. lia.
Qed.
Lemma sum_idx a b : (a < n)%nat -> (b < n)%nat ->
  ((Z.of_nat a + Z.of_nat b) mod Z.of_nat n =? 0)%Z = Nat.eqb a (neg b).
Proof.
  intros Ha Hb. rewrite <- (diff_idx a (neg b) Ha (neg_lt b)). f_equal.
  destruct b as [|b]; [rewrite neg_0; f_equal; lia|]. rewrite neg_pos by lia. rewrite Nat2Z.inj_sub by lia.
  replace (Z.of_nat a - (Z.of_nat n - Z.of_nat (S b)))%Z
    with (Z.of_nat a + Z.of_nat (S b) + (-1) * Z.of_nat n)%Z by lia.
  rewrite Z.mod_add by lia. reflexivity.
Qed.

Lemma orth_cc a b : (a < n)%nat -> (b < n)%nat ->
  rsum n (fun t => cos (an a t) * cos (an b t)) = INR n / 2 * (dl a b + dl a (neg b)).
Proof.
  intros Ha Hb.
  rewrite (rsum_ext n _ (fun t => / 2 * (ca (Z.of_nat a - Z.of_nat b) t + ca (Z.of_nat a + Z.of_nat b) t))).
  2:{ intros t _. unfold ca, an. rewrite minus_IZR, plus_IZR, <- !INR_IZR_INZ.
      replace (2 * PI * (INR a - INR b) * INR t / INR n) with (2 * PI * INR a * INR t / INR n - 2 * PI * INR b * INR t / INR n) by (field; lra).
      replace (2 * PI * (INR a + INR b) * INR t / INR n) with (2 * PI * INR a * INR t / INR n + 2 * PI * INR b * INR t / INR n) by (field; lra).
      rewrite cos_plus, cos_minus. lra. }
  rewrite rsum_scal_l, rsum_plus, !ca_sum, diff_idx, sum_idx by assumption. unfold dl.
  destruct (Nat.eqb a b), (Nat.eqb a (neg b)); lra.
Qed.
Lemma orth_ss a b : (a < n)%nat -> (b < n)%nat ->
  rsum n (fun t => sin (an a t) * sin (an b t)) = INR n / 2 * (dl a b - dl a (neg b)).
Proof.
  intros Ha Hb.
  rewrite (rsum_ext n _ (fun t => / 2 * (ca (Z.of_nat a - Z.of_nat b) t - ca (Z.of_nat a + Z.of_nat b) t))).
  2:{ intros t _. unfold ca, an. rewrite minus_IZR, plus_IZR, <- !INR_IZR_INZ.
      replace (2 * PI * (INR a - INR b) * INR t / INR n) with (2 * PI * INR a * INR t / INR n - 2 * PI * INR b * INR t / INR n) by (field; lra).
      replace (2 * PI * (INR a + INR b) * INR t / INR n) with (2 * PI * INR a * INR t / INR n + 2 * PI * INR b * INR t / INR n) by (field; lra).
      rewrite cos_plus, cos_minus. lra. }
  rewrite rsum_scal_l, rsum_minus, !ca_sum, diff_idx, sum_idx by assumption. unfold dl.
  destruct (Nat.eqb a b), (Nat.eqb a (neg b)); lra.
Qed.
Lemma orth_sc a b : rsum n (fun t => sin (an a t) * cos (an b t)) = 0.
Proof.
  rewrite (rsum_ext n _ (fun t => / 2 * (sa (Z.of_nat a + Z.of_nat b) t + sa (Z.of_nat a - Z.of_nat b) t))).
  2:{ intros t _. unfold sa, an. rewrite minus_IZR, plus_IZR, <- !INR_IZR_INZ.
      replace (2 * PI * (INR a - INR b) * INR t / INR n) with (2 * PI * INR a * INR t / INR n - 2 * PI * INR b * INR t / INR n) by (field; lra).
      replace (2 * PI * (INR a + INR b) * INR t / INR n) with (2 * PI * INR a * INR t / INR n + 2 * PI * INR b * INR t / INR n) by (field; lra).
      rewrite sin_plus, sin_minus. lra. }
  rewrite rsum_scal_l, rsum_plus, !sa_sum. lra.
Qed.

Lemma dl_sum (f : nat -> R) b : (b < n)%nat -> rsum n (fun a => f a * dl a b) = f b.
Proof. apply rsum_delta'. Qed.

(** sums over the grid are invariant under reflection *)
Lemma rsum_neg (f : nat -> R) : rsum n (fun t => f (neg t)) = rsum n f.
Proof.
  rewrite (rsum_ext n (fun t => f (neg t)) (fun t => rsum n (fun a => f a * dl a (neg t)))).
  2:{ intros t Ht. symmetry. apply dl_sum, neg_lt. }
  rewrite rsum_exchange. apply rsum_ext. intros a Ha. rewrite rsum_scal_l.
  rewrite (rsum_single n (neg a)).
  - unfold dl. rewrite neg_neg, Nat.eqb_refl by assumption. lra.
  - apply neg_lt.
  - intros k Hk Hne. unfold dl. destruct (Nat.eqb_spec a (neg k)) as [->|]; [|reflexivity].
    exfalso. apply Hne. rewrite neg_neg by assumption. reflexivity.
Qed.
End Trig.
