(** Property theorems about chol_ext (C27-C32). *)
From Coq Require Import QArith.
From Coq Require Import Reals Lra Psatz.
From Verif Require Import Base M_Chol S_LinAlg P_LinAlg P_Chol P_Chol2.
Local Open Scope nat_scope.
Local Open Scope R_scope.

(** Sample matrices: [[2,1],[1,2]] (definite) and [[1,2],[2,1]] (indefinite). *)
Definition mat22 (a b c : R) : nat -> nat -> R :=
  fun i j => if (i =? j)%nat then (if (i =? 0)%nat then a else c) else b.
Lemma mat22_sym a b c : sym 2 (mat22 a b c).
Proof. intros i j _ _. unfold mat22. rewrite (Nat.eqb_sym j i). destruct (Nat.eqb_spec i j); subst; reflexivity. Qed.
Lemma mat22_bf a b c v : bf 2 (mat22 a b c) v v =
  a * (v 0%nat * v 0%nat) + 2 * b * (v 0%nat * v 1%nat) + c * (v 1%nat * v 1%nat).
Proof. unfold bf, dot, mvr, dot, mat22; cbn. ring. Qed.
Lemma mat22_pd : pd 2 (mat22 2 1 2).
Proof.
  intros v (k & Hk & Hv). rewrite mat22_bf.
  assert (0 < v 0%nat * v 0%nat + v 1%nat * v 1%nat).
  { assert (0 <= v 0%nat * v 0%nat) by apply Rle_0_sqr. assert (0 <= v 1%nat * v 1%nat) by apply Rle_0_sqr.
    assert (0 < v k * v k) by nra. destruct k as [|[|k]]; [| |lia]; lra. }
  nra.
Qed.
Lemma mat22_not_pd : ~ pd 2 (mat22 1 2 1).
Proof.
  intros H. specialize (H (fun i => if (i =? 0)%nat then 1 else -1)).
  rewrite mat22_bf in H. cbn in H. assert (0 < -2); [|lra].
  replace (-2) with (1 * (1 * 1) + 2 * 2 * (1 * -1) + 1 * (-1 * -1)) by ring.
  apply H. exists 0%nat. split; [lia|cbn; lra].
Qed.

(** ** C27 *)
Theorem C27_factorize_decides_pd :
  forall (M : nat -> nat -> R) (Q : chol R),
  sym (c_n Q) M -> c_semi Q = false ->
  exists Q' b, chol_factorize M Q = Ok (Q', b) /\ (b = true <-> pd (c_n Q) M) /\
               chol_is_spd Q' = b.
Proof.
  intros M Q Hs Hse.
  destruct (chol_factor_pd M (fun _ _ => True) (pure_getA M) Q tt (pure_getter _ _) I Hs Hse)
    as ([] & Q' & b & H & Hb).
  exists Q', b. unfold chol_factorize. rewrite H. cbn [bind]. split; [reflexivity|]. split; [assumption|].
  apply factor_p_lt in H as [-> _]. reflexivity.
Qed.
Print Assumptions C27_factorize_decides_pd.

(** The same for factor with a callback that may have state, as long as it answers with the
    entries of the matrix; and for a matrix that is not symmetric the lower triangle decides. *)
Theorem C27_factor_decides_pd :
  forall (G : Type) (getA : G -> nat -> nat -> res (G * R)) (M : nat -> nat -> R) (Q : chol R) g,
  (forall g i j, (j <= i)%nat -> (i < c_n Q)%nat -> exists g', getA g i j = Ok (g', M i j)) ->
  c_semi Q = false ->
  exists g' Q' b, chol_factor getA g Q = Ok (g', Q', b) /\
    (b = true <-> pd (c_n Q) (fun i j => if (j <=? i)%nat then M i j else M j i)).
Proof.
  intros G getA M Q g Hg Hse.
  apply (chol_factor_pd _ (fun _ _ => True)); auto.
  - intros g0 i j Hj Hi _. destruct (Hg g0 i j Hj Hi) as (g' & ->). exists g'. split; [|trivial].
    destruct (Nat.leb_spec j i); [reflexivity|lia].
  - intros i j Hi Hj. cbn. destruct (Nat.leb_spec j i), (Nat.leb_spec i j); try reflexivity; try lia.
    replace j with i by lia. reflexivity.
Qed.
Print Assumptions C27_factor_decides_pd.

Example C27_hypotheses_met :
  sym 2 (mat22 2 1 2) /\ pd 2 (mat22 2 1 2) /\ sym 2 (mat22 1 2 1) /\ ~ pd 2 (mat22 1 2 1) /\
  c_n (chol_init (A := R) 2) = 2%nat /\ c_semi (chol_init (A := R) 2) = false.
Proof.
  repeat (split; [first [apply mat22_sym|apply mat22_pd|apply mat22_not_pd|reflexivity]|]). reflexivity.
Qed.

(** ** C28 *)
Theorem C28_witness_certifies :
  forall (M : nat -> nat -> R) (Q Q1 : chol R),
  sym (c_n Q) M -> chol_factorize M Q = Ok (Q1, false) ->
  exists Q2 ep p0 p1, chol_witness Q1 = Ok (Q2, ep) /\ c_p Q2 = (p0, p1) /\ (p0 < p1 <= c_n Q)%nat /\
    (c_semi Q = false -> p0 = 0%nat /\ 0 <= ep) /\ (c_semi Q = true -> 0 < ep) /\
    c_v Q2 (p1 - 1)%nat = 1 /\
    rsum (p1 - p0) (fun i => rsum (p1 - p0) (fun j =>
       c_v Q2 (p0 + i)%nat * M (p0 + i)%nat (p0 + j)%nat * c_v Q2 (p0 + j)%nat)) = - ep /\
    chol_sym_quad Q2 M = - ep.
Proof.
  intros M Q Q1 Hs H. unfold chol_factorize in H.
  apply bind_ok in H as ([[[] Q1'] b] & Hf & H). injection H as -> ->.
  destruct (chol_failed_witness M (fun _ _ => True) (pure_getA M) Q tt tt Q1 (pure_getter _ _) I Hs Hf)
    as (Q2 & ep & s & e & Hw & P1 & _ & _ & _ & P2 & P3 & P4 & _ & P5 & P6 & P7 & P8).
  cbn zeta in P8.
  exists Q2, ep, s, e. split; [assumption|]. split; [congruence|]. split; [assumption|].
  split; [auto|]. split; [assumption|]. split; [assumption|].
  split.
  - rewrite bf_sums in P8. rewrite <- P8. apply rsum_ext. intros i _. apply rsum_ext. intros j _.
    reflexivity.
  - rewrite sym_quad_bf, P1, P2. exact P8.
Qed.
Print Assumptions C28_witness_certifies.

Theorem C28_no_witness_after_success :
  forall (A : Type) (N : Num A) (M : nat -> nat -> A) (Q Q1 : chol A),
  chol_factorize M Q = Ok (Q1, true) -> chol_witness Q1 = Raise AssertionError.
Proof.
  intros A N M Q Q1 H. unfold chol_factorize in H.
  apply bind_ok in H as ([[[] Q1'] b] & Hf & H). injection H as -> ->.
  apply factor_p_lt in Hf as [Hb _]. unfold chol_witness. rewrite <- Hb. reflexivity.
Qed.
Print Assumptions C28_no_witness_after_success.

Theorem C28_witness_repeatable :
  forall (A : Type) (N : Num A) (NE : NdotExt A) (M : nat -> nat -> A) (Q Q1 Q2 : chol A) ep,
  chol_factorize M Q = Ok (Q1, false) -> chol_witness Q1 = Ok (Q2, ep) ->
  exists Q3, chol_witness Q2 = Ok (Q3, ep) /\ c_p Q3 = c_p Q2 /\
    forall k, (fst (c_p Q2) <= k < snd (c_p Q2))%nat -> c_v Q3 k = c_v Q2 k.
Proof.
  intros A N NE M Q Q1 Q2 ep H Hw. unfold chol_factorize in H.
  apply bind_ok in H as ([[[] Q1'] b] & Hf & H). injection H as -> ->.
  apply factor_p_lt in Hf as [Hb Hp]. unfold chol_is_spd in Hb. symmetry in Hb. apply Nat.eqb_neq in Hb.
  assert (Hso : same_outcome true 0 Q1 Q2).
  { unfold chol_witness in Hw. destruct (chol_is_spd Q1); [discriminate|].
    destruct (c_p Q1) as [s e] eqn:E. injection Hw as <- <-. cbn. unfold same_outcome. cbn [c_p c_T].
    rewrite E. split; [reflexivity|]. split; [intros _ a b0 _ _; reflexivity|discriminate]. }
  destruct (witness_agree true 0 Q1 Q2 Hso Hb) as (Qa & Qb & ep' & H1 & H2 & H3 & H4 & H5 & _); [lia|].
  rewrite Hw in H1. injection H1 as <- <-. exists Qb. split; [assumption|]. split; [congruence|].
  rewrite H3. intros k Hk. symmetry. apply H5. assumption.
Qed.
Print Assumptions C28_witness_repeatable.

(** an object that has factored nothing yet: nothing to witness, an empty quadratic form, and strict mode *)
Theorem C28_new_object :
  forall (A : Type) (N : Num A) (NE : NdotExt A) (n : nat) (M : nat -> nat -> A),
  chol_is_spd (chol_init n) = true /\ chol_witness (chol_init n) = Raise AssertionError /\
  chol_sym_quad (chol_init n) M = ndot 0 (fun _ => nzero) (fun _ => nzero) /\
  c_p (chol_init n) = (0, 0)%nat /\ c_n (chol_init n) = n /\ c_semi (chol_init n) = false /\
  forall k, c_v (chol_init n) k = nzero.
Proof. intros A N NE n M. repeat split. cbn. apply ndot_ext; intros i Hi; lia. Qed.
Print Assumptions C28_new_object.
Example C28_hypotheses_met : exists Q1,
  sym 2 (mat22 1 2 1) /\ chol_factorize (mat22 1 2 1) (chol_init 2) = Ok (Q1, false).
Proof.
  destruct (C27_factorize_decides_pd (mat22 1 2 1) (chol_init 2) (mat22_sym _ _ _) eq_refl)
    as (Q1 & b & H & Hb & _).
  exists Q1. split; [apply mat22_sym|]. destruct b; [|assumption].
  exfalso. apply mat22_not_pd. apply Hb. reflexivity.
Qed.

(** ** C29 *)
(** The list of accesses (in order) of a run: rows 0, 1, ... up to the failing one (all n rows on
    success); row k from some column st k <= k (0 in the default mode) to k. *)
Theorem C29_lazy_accesses :
  forall (A : Type) (N : Num A) (M : nat -> nat -> A) (Q : chol A) log Q1 b,
  chol_factor (fun l i j => Ok (l ++ [(i, j)], M i j)) [] Q = Ok (log, Q1, b) ->
  exists st : nat -> nat, (forall k, (st k <= k)%nat) /\ (c_semi Q = false -> forall k, st k = 0%nat) /\
    log = flat_map (fun k => map (pair k) (seq (st k) (S k - st k)))
                   (seq 0 (if b then c_n Q else snd (c_p Q1))).
Proof.
  intros A N M Q log Q1 b H. 
  pose proof (factor_p_lt _ _ _ _ _ _ H) as [Hb _].
  unfold chol_factor in H. apply bind_ok in H as ([[l T] p] & Hr & H).
  injection H as <- <- <-. cbn [c_p]. change (fun l0 i j => Ok (l0 ++ [(i, j)], M i j)) with (log_getA M) in Hr.
  apply rows_log in Hr as (st & H1 & H2 & H3); [|lia].
  exists st. split; [intros k; apply H1; lia|]. split; [intros E k; apply (H2 E); lia|].
  rewrite H3. cbn [app]. rewrite Nat.sub_0_r. unfold rows_used, chol_is_spd. cbn [c_p Nat.add].
  unfold row_accesses. reflexivity.
Qed.
Print Assumptions C29_lazy_accesses.

(** Changing entries that were not accessed (above the diagonal, or beyond the failing row) does
    not change the outcome, also for a stateful callback. *)
Theorem C29_only_lower_triangle_matters :
  forall (A : Type) (N : Num A) (NE : NdotExt A) (M M' : nat -> nat -> A) (Q Q1 : chol A) b,
  chol_factorize M Q = Ok (Q1, b) ->
  (forall i j, (j <= i)%nat -> (i < if b then c_n Q else snd (c_p Q1))%nat -> M i j = M' i j) ->
  exists Q1', chol_factorize M' Q = Ok (Q1', b) /\ c_p Q1' = c_p Q1 /\
    (b = false -> exists Q2 Q2' ep, chol_witness Q1 = Ok (Q2, ep) /\ chol_witness Q1' = Ok (Q2', ep) /\
       forall k, (fst (c_p Q1) <= k < snd (c_p Q1))%nat -> c_v Q2 k = c_v Q2' k).
Proof.
  intros A N NE M M' Q Q1 b H Hag. unfold chol_factorize in *.
  apply bind_ok in H as ([[[] Q1'] b'] & Hf & H). injection H as -> ->.
  pose proof (factor_p_lt _ _ _ _ _ _ Hf) as [Hb Hp].
  pose proof (factor_agree (pure_getA M) (pure_getA M') (if b then c_n Q else snd (c_p Q1)) tt Q Q
                eq_refl eq_refl) as Ha.
  rewrite Hf in Ha. destruct Ha as (Q1' & -> & Hso).
  { intros [] i j Hj Hi. unfold pure_getA. rewrite Hag by assumption. reflexivity. }
  { unfold rows_used. unfold chol_is_spd in Hb. rewrite <- Hb. destruct b; lia. }
  cbn [bind]. exists Q1'. split; [reflexivity|]. split; [symmetry; apply Hso|].
  intros ->. unfold chol_is_spd in Hb. symmetry in Hb. apply Nat.eqb_neq in Hb.
  destruct (witness_agree _ _ Q1 Q1' Hso Hb) as (Qa & Qb & ep & H1 & H2 & _ & _ & H5 & _); [lia|].
  eauto 6.
Qed.
Print Assumptions C29_only_lower_triangle_matters.

Example C29_run_example :
  exists Q1, chol_factor (fun l i j => Ok (l ++ [(i, j)], mat_of [[1; 2; 0]; [2; 1; 0]; [0; 0; 1]]%Q i j))
    [] (chol_init 3) = Ok ([(0, 0); (1, 0); (1, 1)]%nat, Q1, false).
Proof. eexists. vm_compute. reflexivity. Qed.

(** ** C30 *)
Theorem C30_history_independent :
  forall (A : Type) (N : Num A) (NE : NdotExt A) (G : Type)
         (getA : G -> nat -> nat -> res (G * A)) g (Q Q' : chol A),
  c_n Q = c_n Q' -> c_semi Q = c_semi Q' ->
  match chol_factor getA g Q, chol_factor getA g Q' with
  | Ok (g1, Q1, b), Ok (g1', Q1', b') =>
      g1 = g1' /\ b = b' /\ c_p Q1 = c_p Q1' /\
      match chol_witness Q1, chol_witness Q1' with
      | Ok (Q2, ep), Ok (Q2', ep') =>
          ep = ep' /\ (forall k, (fst (c_p Q1) <= k < snd (c_p Q1))%nat -> c_v Q2 k = c_v Q2' k) /\
          forall M, chol_sym_quad Q2 M = chol_sym_quad Q2' M
      | Raise e, Raise e' => e = e'
      | _, _ => False
      end
  | Raise e, Raise e' => e = e'
  | _, _ => False
  end.
Proof.
  intros A N NE G getA g Q Q' En Es.
  pose proof (factor_agree getA getA (c_n Q) g Q Q' En Es (fun _ _ _ _ _ => eq_refl)) as H.
  destruct (chol_factor getA g Q) as [[[g1 Q1] b]|e] eqn:Hf.
  - pose proof (factor_p_lt _ _ _ _ _ _ Hf) as [Hb Hp].
    destruct H as (Q1' & -> & Hso).
    { unfold rows_used. destruct (Nat.eqb_spec (snd (c_p Q1)) 0); lia. }
    split; [reflexivity|]. split; [reflexivity|]. split; [apply Hso|].
    destruct (Nat.eq_dec (snd (c_p Q1)) 0) as [E|E].
    + unfold chol_witness, chol_is_spd. destruct Hso as [<- _]. rewrite E. cbn. reflexivity.
    + destruct (witness_agree _ _ Q1 Q1' Hso E) as (Qa & Qb & ep & -> & -> & _ & _ & H5 & H6); [lia|]. auto.
  - rewrite (H (le_n _)). reflexivity.
Qed.
Print Assumptions C30_history_independent.

(** a used object (after a failed factorisation) and a fresh one *)
Example C30_hypotheses_met : exists Q1,
  chol_factorize (mat22 1 2 1) (chol_init 2) = Ok (Q1, false) /\
  c_n Q1 = c_n (chol_init (A := R) 2) /\ c_semi Q1 = c_semi (chol_init (A := R) 2) /\ c_p Q1 <> (0, 0)%nat.
Proof.
  destruct C28_hypotheses_met as (Q1 & _ & H). exists Q1. split; [assumption|].
  unfold chol_factorize in H. apply bind_ok in H as ([[[] Q1'] b'] & Hf & H). injection H as -> ->.
  pose proof (factor_p_lt _ _ _ _ _ _ Hf) as [Hb _].
  unfold chol_factor in Hf. apply bind_ok in Hf as ([[g T] p] & _ & Hf). injection Hf as _ <- _.
  cbn in *. do 2 (split; [reflexivity|]). intros ->. discriminate.
Qed.

(** ** C31 *)
Theorem C31_sqrt_is_cholesky :
  forall (M : nat -> nat -> R) (Q Q1 : chol R) b,
  sym (c_n Q) M -> c_semi Q = false -> chol_factorize M Q = Ok (Q1, b) ->
  let n := c_n Q in
  if b then
    exists U, chol_sqrt Q1 = Ok U /\
      (forall i j, (j < i)%nat -> U i j = 0) /\ (forall i, (i < n)%nat -> 0 < U i i) /\
      (forall i j, (i < n)%nat -> (j < n)%nat -> rsum n (fun k => U k i * U k j) = M i j)
  else chol_sqrt Q1 = Raise AssertionError.
Proof.
  intros M Q Q1 b Hs Hse H n. unfold chol_factorize in H.
  apply bind_ok in H as ([[[] Q1'] b'] & Hf & H). injection H as -> ->.
  destruct (chol_factor_spec M (fun _ _ => True) (pure_getA M) Q (pure_getter _ _) tt I)
    as ([] & Q1' & b' & Hf' & Hn & _ & _ & Hb).
  rewrite Hf in Hf'. injection Hf' as <- <-. destruct b.
  - destruct Hb as (Hp & _ & Hb). destruct (Hb Hse) as [HL Hd].
    apply (chol_sqrt_spec Q1 M n); auto.
  - apply factor_p_lt in Hf as [Hb' _]. unfold chol_sqrt. rewrite <- Hb'. reflexivity.
Qed.
Print Assumptions C31_sqrt_is_cholesky.

Example C31_hypotheses_met : exists Q1,
  sym 2 (mat22 2 1 2) /\ chol_factorize (mat22 2 1 2) (chol_init 2) = Ok (Q1, true).
Proof.
  destruct (C27_factorize_decides_pd (mat22 2 1 2) (chol_init 2) (mat22_sym _ _ _) eq_refl)
    as (Q1 & b & H & Hb & _).
  exists Q1. split; [apply mat22_sym|]. rewrite (proj2 Hb mat22_pd) in H. assumption.
Qed.

(** ** C32 *)
(** Full claim: with allow_semidefinite, factor returns True exactly for positive semidefinite
    matrices.  Proved: every positive semidefinite matrix is accepted (and every rejection
    carries a vector with v'Av < 0, C28).  The converse is refuted. *)
Theorem C32_psd_accepted_partial :
  forall (M : nat -> nat -> R) (Q : chol R),
  sym (c_n Q) M -> c_semi Q = true -> psd (c_n Q) M ->
  exists Q1, chol_factorize M Q = Ok (Q1, true).
Proof.
  intros M Q Hs Hse Hpsd.
  destruct (chol_factor_spec M (fun _ _ => True) (pure_getA M) Q (pure_getter _ _) tt I)
    as ([] & Q1 & b & Hf & _).
  exists Q1. unfold chol_factorize. rewrite Hf. cbn [bind]. destruct b; [reflexivity|exfalso].
  destruct (chol_failed_witness M (fun _ _ => True) (pure_getA M) Q tt tt Q1 (pure_getter _ _) I Hs Hf)
    as (Q2 & ep & s & e & _ & _ & _ & _ & _ & _ & P3 & _ & _ & _ & P6 & _ & P8).
  cbn zeta in P8. specialize (P6 Hse).
  specialize (Hpsd (zext s (e - s) (fun k => c_v Q2 (s + k)%nat))).
  rewrite bf_zext in Hpsd by lia. lra.
Qed.
Print Assumptions C32_psd_accepted_partial.

Theorem C32_semidefinite_exact_refuted :
  ~ (forall (M : nat -> nat -> R) (Q Q1 : chol R),
     sym (c_n Q) M -> c_semi Q = true -> chol_factorize M Q = Ok (Q1, true) -> psd (c_n Q) M).
Proof.
  intros H.
  assert (exists Q1, chol_factorize (mat22 0 1 0) (chol_set_semi (chol_init 2) true) = Ok (Q1, true)) as (Q1 & HQ).
  { unfold chol_factorize, chol_factor. cbn [c_semi c_n c_T chol_set_semi chol_init chol_rows].
    unfold pure_getA at 1. cbn [bind]. change (0 - 0)%nat with 0%nat. cbn [chol_row bind].
    change (mat22 0 1 0 0 0) with 0. change (@nltb R RNum) with Rltb. change (@nzero R RNum) with 0.
    assert (E : Rltb 0 0 = false) by (apply Rltb_false; lra). rewrite E. cbn [orb negb].
    unfold pure_getA at 1. cbn [bind]. change (0 + 1 - (0 + 1))%nat with 0%nat. cbn [chol_row bind].
    change (mat22 0 1 0 (0 + 1) (0 + 1)) with 0. rewrite E. cbn [orb negb].
    eexists. reflexivity. }
  specialize (H (mat22 0 1 0) (chol_set_semi (chol_init 2) true) Q1 (mat22_sym _ _ _) eq_refl HQ).
  cbn [c_n chol_set_semi chol_init] in H.
  specialize (H (fun i => if (i =? 0)%nat then 1 else -1)). rewrite mat22_bf in H. cbn in H. lra.
Qed.
Print Assumptions C32_semidefinite_exact_refuted.

Example C32_hypotheses_met : sym 2 (mat22 1 1 1) /\ psd 2 (mat22 1 1 1) /\ ~ pd 2 (mat22 1 1 1).
Proof.
  split; [apply mat22_sym|]. split.
  - intros v. rewrite mat22_bf.
    assert (0 <= (v 0%nat + v 1%nat) * (v 0%nat + v 1%nat)) by apply Rle_0_sqr. lra.
  - intros H. specialize (H (fun i => if (i =? 0)%nat then 1 else -1)).
    rewrite mat22_bf in H. cbn in H. assert (0 < 0); [|lra].
    replace 0 with (1 * (1 * 1) + 2 * 1 * (1 * -1) + 1 * (-1 * -1)) at 2 by ring.
    apply H. exists 0%nat. split; [lia|cbn; lra].
Qed.

(** In that mode sqrt can be wrong: for the 3x3 matrix of ones (positive semidefinite) the last
    diagonal entry of R'R is right but entry (0,2) is 0 instead of 1. *)
Example C32_semidefinite_sqrt :
  (' (Q1, b) <- chol_factorize (mat_of [[1; 1; 1]; [1; 1; 1]; [1; 1; 1]]%Q)
                 (chol_set_semi (chol_init 3) true) ;;
   U <- chol_sqrt Q1 ;;
   Ok (b, map (fun i => map (U i) (seq 0 3)) (seq 0 3)))
  = Ok (true, [[1; 1; 0]; [0; 0; 0]; [0; 0; 1]]%Q).
Proof. vm_compute. reflexivity. Qed.
