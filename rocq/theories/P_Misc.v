(** Proofs about M_Misc.v *)
From Coq Require Import Reals Lra Psatz.
From Verif Require Import Base M_Drivers M_Misc S_LinAlg P_LinAlg S_Misc S_Drivers P_Drivers.
Local Open Scope R_scope.

(** ** for_range *)
Lemma for_range_inv {St} (P : nat -> St -> Prop) (body : nat -> St -> res St) k lo s s' :
  P lo s -> (forall i a a', (lo <= i < lo + k)%nat -> P i a -> body i a = Ok a' -> P (S i) a') ->
  for_range k lo body s = Ok s' -> P (lo + k)%nat s'.
Proof.
  revert lo s. induction k as [|k IH]; intros lo s H0 Hs H; cbn in H.
  - injection H as <-. rewrite Nat.add_0_r. assumption.
  - apply bind_ok in H as (s1 & H1 & H2). replace (lo + S k)%nat with (S lo + k)%nat by lia.
    apply (IH (S lo) s1); [|intros; eapply Hs; [lia|eassumption|eassumption]|assumption].
    eapply Hs; [lia|eassumption|eassumption].
Qed.
Lemma for_range_ok {St} (P : nat -> St -> Prop) (body : nat -> St -> res St) k lo s :
  P lo s -> (forall i a, (lo <= i < lo + k)%nat -> P i a -> exists a', body i a = Ok a' /\ P (S i) a') ->
  exists s', for_range k lo body s = Ok s' /\ P (lo + k)%nat s'.
Proof.
  revert lo s. induction k as [|k IH]; intros lo s H0 Hs; cbn.
  - exists s. rewrite Nat.add_0_r. auto.
  - destruct (Hs lo s) as (s1 & E & H1); [lia|assumption|]. rewrite E. cbn [bind].
    replace (lo + S k)%nat with (S lo + k)%nat by lia. apply IH; [assumption|].
    intros; apply Hs; [lia|assumption].
Qed.

(** ** fib *)
Lemma fib_spec n : (0 < n)%Z -> fib n = Ok (fibonacci (Z.to_nat n)).
Proof.
  intros Hn. unfold fib. destruct (Z.ltb_spec 0 n) as [_|]; [|lia].
  destruct (for_range_ok (fun i '(a, b) => a = fibonacci (S i) /\ b = fibonacci (S (S i)))
              (fun _ '(a, b) => Ok (b, a + b)%Z) (Z.to_nat (n - 1)) 0 (1, 1)%Z) as ([a b] & E & Ha & _).
  - split; reflexivity.
  - intros i [a b] _ [-> ->]. eexists. split; [reflexivity|]. split; [reflexivity|].
    change (fibonacci (S (S (S i)))) with (fibonacci (S (S i)) + fibonacci (S i))%Z. lia.
  - rewrite E. cbn [bind]. rewrite Ha. do 2 f_equal. lia.
Qed.

(** ** mono_oracle *)
Lemma mono_loop_spec k : forall i n x, (i + k < n \/ k = 0)%nat ->
  match mono_loop k i x with
  | None => forall j, (i <= j < i + k)%nat -> x (S j) <= x j
  | Some (g, fj) => exists j, (i <= j < i + k)%nat /\ 0 < fj /\ fj = x (S j) - x j /\
      forall z, dot n g z = z (S j) - z j
  end.
Proof.
  induction k as [|k IH]; intros i n x Hn; cbn [mono_loop]; [intros; lia|].
  change (@nltb R RNum) with Rltb. change (@nsub R RNum) with Rminus. change (@nzero R RNum) with 0.
  change (@nopp R RNum) with Ropp. change (@none R RNum) with 1.
  destruct (Rltb 0 (x (i + 1)%nat - x i)) eqn:B.
  - apply Rltb_true in B. exists i. rewrite Nat.add_1_r in *. split; [lia|]. split; [assumption|].
    split; [reflexivity|]. intros z. unfold dot.
    rewrite (rsum_ext n _ (fun k0 => - z k0 * (if Nat.eqb k0 i then 1 else 0) + z k0 * (if Nat.eqb k0 (S i) then 1 else 0))).
    + rewrite rsum_plus, (rsum_delta' n i (fun k0 => - z k0)), rsum_delta' by lia. lra.
    + intros a Ha. unfold vset.
      destruct (Nat.eqb_spec a (S i)) as [->|E1]; [destruct (Nat.eqb_spec (S i) i); [lia|lra]|].
      destruct (Nat.eqb_spec a i) as [->|E2]; lra.
  - apply Rltb_false in B. rewrite Nat.add_1_r in *. specialize (IH (S i) n x).
    destruct (mono_loop k (S i) x) as [[g fj]|].
    + destruct IH as (j & Hj & H); [lia|]. exists j. split; [lia|exact H].
    + intros j Hj. destruct (Nat.eq_dec j i) as [->|]; [lra|]. apply IH; [|lia].
      destruct Hn as [?|?]; [left; lia|lia].
Qed.

(** ** distance matrix *)
Lemma edist_sym d p q : edist d p q = edist d q p.
Proof. unfold edist. f_equal. apply rsum_ext. intros. ring. Qed.
Lemma edist_refl d p : edist d p p = 0.
Proof.
  unfold edist. rewrite (rsum_ext d _ (fun _ => 0)) by (intros; ring). rewrite rsum_zero. apply sqrt_0.
Qed.
Lemma edist_nonneg d p q : 0 <= edist d p q.
Proof. apply sqrt_pos. Qed.

Lemma mset_get {A} (M : nat -> nat -> A) i j x a b :
  mset M i j x a b = if andb (Nat.eqb a i) (Nat.eqb b j) then x else M a b.
Proof. reflexivity. Qed.

Lemma distance_matrix_spec n d s : exists D, distance_matrix n d s = Ok D /\
  forall i j, (i < n)%nat -> (j < n)%nat -> D i j = edist d (s i) (s j).
Proof.
  unfold distance_matrix.
  (* after the rows < i have been processed *)
  set (P := fun (i : nat) (D : nat -> nat -> R) => forall a b, (a < n)%nat -> (b < n)%nat ->
        D a b = if andb (i <=? a)%nat (i <=? b)%nat then 0 else edist d (s a) (s b)).
  destruct (for_range_ok P (fun i D =>
    for_range (n - (i + 1)) (i + 1) (fun j D =>
      let h k := nsub (s j k) (s i k) in
      dd <- nsqrt (ndot d h h) ;;
      Ok (mset (mset D i j dd) j i dd)) D) n 0 (fun _ _ => nzero)) as (D & E & HD).
  - intros a b _ _. reflexivity.
  - intros i D Hi HD.
    set (P2 := fun (j : nat) (D : nat -> nat -> R) => forall a b, (a < n)%nat -> (b < n)%nat ->
        D a b = if orb (andb (Nat.eqb a i) (andb (i <? b)%nat (b <? j)%nat))
                       (andb (Nat.eqb b i) (andb (i <? a)%nat (a <? j)%nat))
                then edist d (s a) (s b)
                else if andb (i <=? a)%nat (i <=? b)%nat then 0 else edist d (s a) (s b)).
    destruct (for_range_ok P2 (fun j D =>
      let h k := nsub (s j k) (s i k) in
      dd <- nsqrt (ndot d h h) ;;
      Ok (mset (mset D i j dd) j i dd)) (n - (i + 1)) (i + 1) D) as (D' & E' & HD').
    + intros a b Ha Hb. rewrite (HD a b Ha Hb).
      replace (andb (Nat.eqb a i) (andb (i <? b)%nat (b <? i + 1)%nat)) with false.
      2:{ destruct (Nat.ltb_spec i b), (Nat.ltb_spec b (i+1)); try lia; rewrite ?andb_false_r; reflexivity. }
      replace (andb (Nat.eqb b i) (andb (i <? a)%nat (a <? i + 1)%nat)) with false.
      2:{ destruct (Nat.ltb_spec i a), (Nat.ltb_spec a (i+1)); try lia; rewrite ?andb_false_r; reflexivity. }
      reflexivity.
    + intros j M Hj HM. cbv zeta.
      assert (Hnn : 0 <= rsum d (fun k => (s j k - s i k) * (s j k - s i k))).
      { apply rsum_nonneg. intros. apply Rle_0_sqr. }
      change (ndot d (fun k => nsub (s j k) (s i k)) (fun k => nsub (s j k) (s i k)))
        with (rsum d (fun k => (s j k - s i k) * (s j k - s i k))).
      rewrite (rsqrt_ok _ Hnn). cbn [bind]. fold (edist d (s j) (s i)).
      eexists. split; [reflexivity|]. intros a b Ha Hb. rewrite !mset_get, (HM a b Ha Hb).
      destruct (Nat.eqb_spec a j) as [Ea|Ea], (Nat.eqb_spec b i) as [Eb|Eb],
               (Nat.eqb_spec a i) as [Fa|Fa], (Nat.eqb_spec b j) as [Fb|Fb]; cbn [andb orb]; subst; try lia;
      repeat match goal with |- context [Nat.ltb ?u ?v] => destruct (Nat.ltb_spec u v); try lia end;
      cbn [andb orb]; try reflexivity; apply edist_sym.
    + exists D'. split; [exact E'|]. intros a b Ha Hb. rewrite (HD' a b Ha Hb).
      replace (i + 1 + (n - (i + 1)))%nat with n by lia.
      destruct (Nat.eqb_spec a i) as [Ea|Ea], (Nat.eqb_spec b i) as [Eb|Eb]; cbn [andb orb]; subst;
      repeat match goal with
             | |- context [Nat.ltb ?u ?v] => destruct (Nat.ltb_spec u v); try lia
             | |- context [Nat.leb ?u ?v] => destruct (Nat.leb_spec u v); try lia
             end;
      cbn [andb orb]; rewrite ?edist_refl; reflexivity.
  - exists D. split; [exact E|]. intros i j Hi Hj. rewrite (HD i j Hi Hj).
    destruct (Nat.leb_spec (0 + n) i); [lia|reflexivity].
Qed.

Lemma poly_matrix_spec n d s m : exists D Sig, distance_matrix n d s = Ok D /\
  poly_matrix n d s m = Ok Sig /\ length Sig = S (Z.to_nat (m - 1)) /\
  forall k, (k < length Sig)%nat -> forall i j, nth k Sig (fun _ _ => 0) i j = (D i j) ^ k.
Proof.
  destruct (distance_matrix_spec n d s) as (D & E & _). unfold poly_matrix. rewrite E. cbn [bind].
  destruct (for_range_ok (fun c '(M, Sig) => (forall i j, M i j = (D i j) ^ c) /\ length Sig = S c /\
      forall k, (k < S c)%nat -> forall i j, nth k Sig (fun _ _ => 0) i j = (D i j) ^ k)
    (fun _ '(M, Sig) => Ok ((fun i j => nmul (M i j) (D i j)), Sig ++ [fun i j => nmul (M i j) (D i j)]))
    (Z.to_nat (m - 1)) 0 ((fun _ _ => 1), [(fun _ _ => 1)])) as ([M Sig] & E1 & H1 & H2 & H3).
  - split; [reflexivity|]. split; [reflexivity|]. intros k Hk i j. replace k with 0%nat by lia. reflexivity.
  - intros c [M Sig] _ (H1 & H2 & H3). eexists. split; [reflexivity|].
    assert (HM : forall i j, M i j * D i j = (D i j) ^ (S c)) by (intros; rewrite H1; cbn [pow]; ring).
    split; [exact HM|]. split; [rewrite app_length; cbn; lia|].
    intros k Hk i j. destruct (Nat.eq_dec k (S c)) as [->|].
    + rewrite app_nth2 by lia. rewrite H2, Nat.sub_diag. exact (HM i j).
    + rewrite app_nth1 by lia. apply H3. lia.
  - exists D, Sig. split; [reflexivity|].
    change (@none R RNum) with 1. rewrite E1. cbn [bind]. split; [reflexivity|].
    split; [exact H2|]. intros k Hk. apply H3. rewrite <- H2. exact Hk.
Qed.

(** ** polynomial evaluation *)
Lemma corr_poly_eval_spec n a d : corr_poly_eval n a d = rsum n (fun k => a k * d ^ k).
Proof.
  unfold corr_poly_eval. change (@nzero R RNum) with 0. change (@nadd R RNum) with Rplus.
  change (@nmul R RNum) with Rmult.
  assert (H : forall k, (k <= n)%nat ->
    fold_left (fun y p => y * d + p) (map (fun i => a (n - 1 - i)%nat) (seq 0 k)) 0
    = rsum k (fun i => a (n - k + i)%nat * d ^ i)).
  { induction k as [|k IH]; intros Hk; [reflexivity|].
    rewrite seq_S, map_app, fold_left_app, IH by lia. cbn [map fold_left Nat.add].
    rewrite rsum_shift. replace (n - S k + 0)%nat with (n - 1 - k)%nat by lia. cbn [pow].
    rewrite Rmult_1_r, Rplus_comm. f_equal. rewrite Rmult_comm, <- rsum_scal_l. apply rsum_ext. intros i Hi.
    replace (n - S k + S i)%nat with (n - k + i)%nat by lia. ring. }
  rewrite H by lia. apply rsum_ext. intros k Hk. rewrite Nat.sub_diag. reflexivity.
Qed.

(** ** inverse_spectral_fact *)
Lemma rsum_rev n f : rsum n f = rsum n (fun k => f (n - 1 - k)%nat).
Proof.
  revert f. induction n as [|n IH]; intros f; [reflexivity|].
  rewrite rsum_shift. cbn [rsum]. rewrite IH, Rplus_comm.
  replace (S n - 1 - n)%nat with 0%nat by lia. f_equal.
  apply rsum_ext. intros k Hk. f_equal. lia.
Qed.
Lemma inverse_spectral_fact_spec n h : exists r, inverse_spectral_fact n h = Ok r /\
  forall t, (t < n)%nat -> r t = rsum (n - t) (fun i => h (i + t)%nat * h i).
Proof.
  unfold inverse_spectral_fact.
  destruct (for_range_ok (fun c (r : nat -> R) => forall t, (t < c)%nat ->
      r t = rsum (n - t) (fun i => h (i + t)%nat * h i))
    (fun t r => Ok (vset r t (ndot (n - t) (fun i => h (t + i)%nat) h))) n 0 (fun _ => nzero)) as (r & E & Hr).
  - intros; lia.
  - intros c r _ Hr. eexists. split; [reflexivity|]. intros t Ht. unfold vset.
    destruct (Nat.eqb_spec t c) as [->|].
    + cbn [ndot RNum]. apply rsum_ext. intros i _. rewrite (Nat.add_comm c i). reflexivity.
    + apply Hr. lia.
  - exists r. auto.
Qed.

Lemma spectrum_square n h w :
  let r t := rsum (n - t) (fun i => h (i + t)%nat * h i) in
  r 0%nat + 2 * rsum (n - 1) (fun t => r (S t) * cos (INR (S t) * w))
  = (rsum n (fun i => h i * cos (INR i * w))) ^ 2 + (rsum n (fun i => h i * sin (INR i * w))) ^ 2.
Proof.
  cbv zeta.
  set (r := fun n t => rsum (n - t) (fun i => h (i + t)%nat * h i)).
  assert (H : forall n, r n 0%nat + 2 * rsum n (fun t => r n (S t) * cos (INR (S t) * w))
   = (rsum n (fun i => h i * cos (INR i * w))) ^ 2 + (rsum n (fun i => h i * sin (INR i * w))) ^ 2).
  { clear n. induction n as [|n IH]; [cbn; ring|].
    assert (Hr : forall t, (t <= n)%nat -> r (S n) t = r n t + h n * h (n - t)%nat).
    { intros t Ht. unfold r. replace (S n - t)%nat with (S (n - t)) by lia. cbn [rsum].
      replace (n - t + t)%nat with n by lia. reflexivity. }
    rewrite Hr, Nat.sub_0_r by lia.
    cbn [rsum].
    assert (E0 : r (S n) (S n) = 0) by (unfold r; rewrite Nat.sub_diag; reflexivity).
    rewrite E0, Rmult_0_l, Rplus_0_r.
    rewrite (rsum_ext n _ (fun t => r n (S t) * cos (INR (S t) * w) + h n * (h (n - S t)%nat * cos (INR (S t) * w)))).
    2:{ intros t Ht. rewrite Hr by lia. ring. }
    rewrite rsum_plus, rsum_scal_l.
    assert (E1 : rsum n (fun t => h (n - S t)%nat * cos (INR (S t) * w))
       = cos (INR n * w) * rsum n (fun i => h i * cos (INR i * w))
         + sin (INR n * w) * rsum n (fun i => h i * sin (INR i * w))).
    { rewrite rsum_rev, <- !rsum_scal_l, <- rsum_plus. apply rsum_ext. intros i Hi.
      replace (n - S (n - 1 - i))%nat with i by lia.
      replace (INR (S (n - 1 - i)) * w) with (INR n * w - INR i * w).
      - rewrite cos_minus. ring.
      - rewrite S_INR, !minus_INR by lia. cbn [INR]. ring. }
    rewrite E1.
    assert (E2 := sin2_cos2 (INR n * w)). unfold Rsqr in E2.
    set (C := rsum n (fun i => h i * cos (INR i * w))) in *.
    set (S0 := rsum n (fun i => h i * sin (INR i * w))) in *.
    set (X := rsum n (fun t => r n (S t) * cos (INR (S t) * w))) in *.
    replace (r n 0%nat + h n * h n + 2 * (X + h n * (cos (INR n * w) * C + sin (INR n * w) * S0)))
      with ((r n 0%nat + 2 * X) + h n * h n * 1 + 2 * h n * (cos (INR n * w) * C + sin (INR n * w) * S0)) by ring.
    rewrite IH, <- E2. ring. }
  destruct n as [|n]; [cbn; ring|].
  rewrite <- (H (S n)). cbn [Nat.sub rsum]. rewrite Nat.sub_0_r.
  fold (r (S n) 0%nat).
  assert (E0 : r (S n) (S n) = 0) by (unfold r; rewrite Nat.sub_diag; reflexivity).
  rewrite E0, Rmult_0_l, Rplus_0_r. reflexivity.
Qed.
