(** The volume of the ellipsoid under an update. *)
From Coq Require Import Reals Lra Psatz.
From Verif Require Import P_Det.
From Verif Require Import Base M_Drivers M_Ell M_Chol S_LinAlg S_Ell S_Det S_Volume P_LinAlg P_Chol P_EllCalc P_Ell.
Local Open Scope R_scope.

Lemma mm_rank1 n Q u v :
  meq n (mm n Q (fun i j => idm i j - u i * v j)) (fun i j => Q i j - mvr n Q u i * v j).
Proof.
  intros i j Hi Hj. unfold mm.
  rewrite (rsum_ext n _ (fun k => Q i k * idm k j - v j * (Q i k * u k))) by (intros; ring).
  rewrite rsum_minus, rsum_scal_l. f_equal; [|unfold mvr, dot; ring].
  rewrite (rsum_single n j); [unfold idm; rewrite Nat.eqb_refl; ring|assumption|].
  intros k Hk Hne. unfold idm. destruct (Nat.eqb_spec k j); [contradiction|ring].
Qed.

Lemma shape_det_new e g sigma delta :
  bf (e_n e) (e_Q e) g g <> 0 ->
  shape_det (new_e e g sigma delta) = delta ^ e_n e * (1 - sigma) * shape_det e.
Proof.
  intros Hom. unfold shape_det. rewrite new_e_n.
  set (n := e_n e) in *. set (om := bf n (e_Q e) g g) in *.
  set (v := fun j => sigma / om * mvr n (e_Q e) g j).
  transitivity (det n (fun i j => delta * (mm n (fun i j => e_kappa e * e_Q e i j) (fun i j => idm i j - g i * v j) i j))).
  { apply det_ext. intros i j Hi Hj. cbv beta.
    rewrite (mm_rank1 n (fun i j => e_kappa e * e_Q e i j) g v i j Hi Hj).
    assert (E : mvr n (fun i j => e_kappa e * e_Q e i j) g i = e_kappa e * mvr n (e_Q e) g i).
    { unfold mvr, dot. rewrite <- rsum_scal_l. apply rsum_ext. intros; ring. }
    rewrite E. unfold new_e, v. destruct (e_nodefer e); cbn; unfold new_Q; fold n om; field; assumption. }
  rewrite det_scal.
  rewrite (det_mm n (fun i j => e_kappa e * e_Q e i j) (fun i j => idm i j - g i * v j)).
  rewrite (det_rank1 n g v).
  assert (E : dot n g v = sigma).
  { unfold dot, v. rewrite (rsum_ext n _ (fun k => sigma / om * (g k * mvr n (e_Q e) g k))) by (intros; ring).
    rewrite rsum_scal_l. change (rsum n (fun k => g k * mvr n (e_Q e) g k)) with om. field. assumption. }
  rewrite E. ring.
Qed.

(** *** determinants of positive definite matrices *)
Lemma ldl_det M n T : ldl M 0 n T -> sym n M -> det n M = rprod n (fun i => T i i).
Proof.
  intros HL Hs.
  transitivity (det n (mm n (fun i l => Lh 0 T i l) (fun l j => Dg 0 T l * Lh 0 T j l))).
  { apply det_ext. intros i j Hi Hj.
    change (M i j) with (blk M 0 i j).
    rewrite (ldl_entry_sym M 0 n T i j n) by (auto; lia).
    unfold mm. apply rsum_ext. intros; ring. }
  rewrite det_mm.
  rewrite <- (det_tr n (fun i l => Lh 0 T i l)).
  rewrite (det_upper (n := n) (M := fun i j => Lh 0 T j i)) by (intros i j H _; apply Lh_gt; assumption).
  rewrite (det_upper (n := n) (M := fun l j => Dg 0 T l * Lh 0 T j l)) by (intros i j H _; rewrite Lh_gt by assumption; ring).
  clear. assert (forall m, rprod m (fun i => Lh 0 T i i) = 1) as -> .
  { induction m; cbn; [reflexivity|]. rewrite IHm, Lh_eq. ring. }
  rewrite Rmult_1_l. induction n; cbn; [reflexivity|]. rewrite IHn, Lh_eq. unfold Dg. cbn. ring.
Qed.

Lemma pd_ldl n M : sym n M -> pd n M -> exists T, ldl M 0 n T /\ forall a, (a < n)%nat -> 0 < T a a.
Proof.
  intros Hs Hp.
  set (Q := chol_init (A := R) n).
  assert (EQ : c_n Q = n /\ c_semi Q = false) by (split; reflexivity). destruct EQ as [En Es].
  assert (Hg : getter (c_n Q) M (fun _ (_ : unit) => True) (pure_getA M)) by apply pure_getter.
  destruct (chol_factor_spec M _ _ Q Hg tt I) as (g' & Q' & b & H & Hn & Hse' & Hv & Hb).
  destruct (chol_factor_pd M _ (pure_getA M) Q tt Hg I) as (g2 & Q2 & b2 & H2 & Hiff).
  { rewrite En; assumption. } { assumption. }
  rewrite H in H2. injection H2 as <- <- <-. rewrite En in *.
  destruct Hiff as [_ Hiff]. rewrite (Hiff Hp) in Hb. destruct Hb as (_ & _ & Hb).
  exists (c_T Q'). apply Hb. assumption.
Qed.

Lemma rprod_pos n f : (forall i, (i < n)%nat -> 0 < f i) -> 0 < rprod n f.
Proof.
  induction n as [|n IH]; intros H; cbn; [lra|]. apply Rmult_lt_0_compat; [apply IH; intros; apply H; lia|apply H; lia].
Qed.
Lemma rprod_ge n f c : 0 <= c -> (forall i, (i < n)%nat -> c <= f i) -> c ^ n <= rprod n f.
Proof.
  intros Hc. induction n as [|n IH]; intros H; [cbn; lra|].
  replace (c ^ S n) with (c ^ n * c) by (cbn; ring). cbn [rprod].
  apply Rmult_le_compat; [apply pow_le; assumption|assumption|apply IH; intros; apply H; lia|apply H; lia].
Qed.

Lemma det_pd n M : sym n M -> pd n M -> 0 < det n M.
Proof.
  intros Hs Hp. destruct (pd_ldl n M Hs Hp) as (T & HL & HT). rewrite (ldl_det M n T) by assumption.
  apply rprod_pos. assumption.
Qed.

(** M >= c I implies det M >= c^n *)
Lemma det_ge n M c : sym n M -> 0 < c -> (forall u, c * dot n u u <= bf n M u u) -> c ^ n <= det n M.
Proof.
  intros Hs Hc HM.
  assert (Hp : pd n M).
  { intros u Hu. specialize (HM u). assert (0 < dot n u u); [|nra].
    destruct Hu as (k & Hk & Hu). unfold dot. apply (rsum_pos_term n _ k); [intros; nra|assumption|nra]. }
  destruct (pd_ldl n M Hs Hp) as (T & HL & HT). rewrite (ldl_det M n T) by assumption.
  apply rprod_ge; [lra|]. intros m Hm.
  set (Q := mk_chol n (0, m + 1)%nat (fun _ => 0) T false).
  destruct (chol_witness_spec Q 0 m) as (Q' & _ & _ & _ & _ & _ & P5 & _ & P7); [reflexivity|lia|].
  replace (m - 0)%nat with m in P7 by lia.
  assert (HL' : ldl M 0 (m + 1) T).
  { destruct HL as [H1 H2]. split; intros a b Hb Ha; [apply H1|apply H2]; lia. }
  assert (E := ldl_witness M 0 m T (fun k => c_v Q' (0 + k)%nat) HL').
  rewrite <- E; [|apply (sym_le n); [lia|assumption]|lia|].
  2:{ intros l Hl. replace (m - 0)%nat with m in * by lia. apply (P7 l Hl). }
  replace (m + 1 - 0)%nat with (m + 1)%nat by lia.
  rewrite <- (bf_zext n 0 (m + 1)) by lia.
  eapply Rle_trans; [|apply HM].
  rewrite <- (Rmult_1_r c) at 1. apply Rmult_le_compat_l; [lra|].
  set (v := zext 0 (m + 1) (fun k => c_v Q' (0 + k)%nat)).
  assert (Ev : v m = 1).
  { unfold v. change m with (0 + m)%nat at 2. rewrite zext_in by lia. exact P5. }
  unfold dot. apply Rle_trans with (rsum n (fun k => if (k =? m)%nat then 1 else 0)).
  - rewrite (rsum_single n m); [rewrite Nat.eqb_refl; lra|assumption|].
    intros k Hk Hne. destruct (Nat.eqb_spec k m); [contradiction|reflexivity].
  - apply rsum_le. intros k Hk. destruct (Nat.eqb_spec k m) as [->|]; [rewrite Ev; lra|nra].
Qed.

(** *** the factor delta^n (1 - sigma) *)
Lemma pow_exp_le x k : 0 <= x -> x ^ k <= exp (INR k * (x - 1)).
Proof.
  intros Hx. induction k as [|k IH]; [cbn; rewrite Rmult_0_l, exp_0; lra|].
  rewrite S_INR. replace ((INR k + 1) * (x - 1)) with ((x - 1) + INR k * (x - 1)) by ring.
  rewrite exp_plus. cbn [pow]. apply Rmult_le_compat; [assumption|apply pow_le; assumption| |assumption].
  pose proof (exp_ineq1_le (x - 1)). lra.
Qed.

(** scalar cut at b, alpha = b / sqrt T *)
Lemma dc_ratio_eq n T b rho sigma delta :
  (2 <= n)%nat -> 0 < T -> b <= sqrt T ->
  dc_formula (IZR (Z.of_nat n)) T b rho sigma delta ->
  let N := INR n in let al := b / sqrt T in
  al <= 1 /\ 0 < 1 + N * al /\ 0 < 1 + al /\
  delta ^ n * (1 - sigma) = dc_axis N al ^ (n - 1) * (dc_depth N al * dc_depth N al).
Proof.
  intros Hn HT Hb HF N al.
  assert (HN : 2 <= N) by (apply (le_INR 2); assumption).
  rewrite <- INR_IZR_INZ in HF. fold N in HF.
  assert (Ht : 0 < sqrt T) by (apply sqrt_lt_R0; assumption).
  assert (Htt : sqrt T * sqrt T = T) by (apply sqrt_sqrt; lra).
  assert (Eb : b = al * sqrt T) by (unfold al; field; lra).
  assert (Hal : al <= 1).
  { apply Rmult_le_reg_r with (sqrt T); [assumption|]. rewrite <- Eb. lra. }
  assert (HNN : 0 < N * N - 1) by nra.
  assert (Hal1 : 0 < 1 + N * al).
  { destruct HF as [(E & _)|(_ & _ & Hg & _)].
    - assert (al = 0) as -> by (unfold al; rewrite E; field; lra). lra.
    - rewrite Eb in Hg. apply Rmult_lt_reg_r with (sqrt T); [assumption|]. nra. }
  assert (Hal2 : 0 < 1 + al) by nra.
  assert (Ed : delta = dc_axis N al).
  { unfold dc_axis. destruct HF as [(E & _ & _ & ->)|(_ & _ & _ & _ & _ & ->)].
    - assert (al = 0) as -> by (unfold al; rewrite E; field; lra). field; lra.
    - replace (b * (b / T)) with (al * al); [field; lra|].
      rewrite Eb. rewrite <- Htt at 3. field. lra. }
  assert (Es : 1 - sigma = (N - 1) * (1 - al) / ((N + 1) * (1 + al))).
  { destruct HF as [(E & _ & -> & _)|(_ & _ & _ & -> & -> & _)].
    - assert (al = 0) as -> by (unfold al; rewrite E; field; lra). field; lra.
    - rewrite Eb. field. repeat split; try lra. nra. }
  do 3 (split; [assumption|]). clearbody al.
  destruct n as [|m]; [lia|]. replace (S m - 1)%nat with m by lia.
  cbn [pow]. rewrite Ed. transitivity (dc_axis N al ^ m * (dc_axis N al * (1 - sigma))); [ring|]. f_equal.
  rewrite Es. unfold dc_axis, dc_depth. clearbody N. field. repeat split; lra.
Qed.

Lemma dc_axis_bound n al : (2 <= n)%nat -> al <= 1 -> 0 < 1 + al -> let N := INR n in
  0 <= dc_axis N al ^ (n - 1) * (dc_depth N al * dc_depth N al)
    <= exp (- ((1 + N * al) * (1 + N * al)) / (N + 1)).
Proof.
  intros Hn Hal Hal2 N.
  assert (HN : 2 <= N) by (apply (le_INR 2); assumption).
  assert (HNN : 0 < N * N - 1) by nra.
  set (A := dc_axis N al). set (C := dc_depth N al).
  assert (Hd : 0 <= A).
  { apply Rmult_le_pos; [apply Rmult_le_pos; nra|left; apply Rinv_0_lt_compat; assumption]. }
  assert (HC : 0 <= C).
  { apply Rmult_le_pos; [nra|left; apply Rinv_0_lt_compat; lra]. }
  split.
  { apply Rmult_le_pos; [apply pow_le; assumption|nra]. }
  replace (- ((1 + N * al) * (1 + N * al)) / (N + 1)) with (INR (n - 1) * (A - 1) + INR 2 * (C - 1)).
  2:{ assert (EN : INR (n - 1) = N - 1) by (unfold N; rewrite minus_INR by lia; reflexivity).
      change (INR 2) with (1 + 1). rewrite EN. unfold A, C, dc_axis, dc_depth. clearbody N. field. repeat split; lra. }
  rewrite exp_plus. apply Rmult_le_compat; [apply pow_le; assumption|nra|apply pow_exp_le; assumption|].
  replace (C * C) with (C ^ 2) by ring. apply pow_exp_le; assumption.
Qed.

Lemma dc_ratio n T b rho sigma delta :
  (2 <= n)%nat -> 0 < T -> b <= sqrt T ->
  dc_formula (IZR (Z.of_nat n)) T b rho sigma delta ->
  0 <= delta ^ n * (1 - sigma) <= exp (- ((1 + INR n * (b / sqrt T)) * (1 + INR n * (b / sqrt T))) / (INR n + 1)).
Proof.
  intros Hn HT Hb HF. destruct (dc_ratio_eq n T b rho sigma delta Hn HT Hb HF) as (H1 & _ & H2 & ->).
  apply dc_axis_bound; assumption.
Qed.

Lemma dc_ratio_central n T b rho sigma delta :
  (2 <= n)%nat -> 0 < T -> 0 <= b -> b <= sqrt T ->
  dc_formula (IZR (Z.of_nat n)) T b rho sigma delta ->
  delta ^ n * (1 - sigma) <= exp (- / (INR n + 1)).
Proof.
  intros Hn HT Hb Hbq Hf.
  destruct (dc_ratio n T b rho sigma delta Hn HT Hbq Hf) as [_ Hra].
  eapply Rle_trans; [exact Hra|].
  assert (HN : 2 <= INR n) by (apply (le_INR 2); assumption).
  assert (Hal : 0 <= b / sqrt T).
  { apply Rmult_le_pos; [assumption|]. left. apply Rinv_0_lt_compat, sqrt_lt_R0. assumption. }
  set (al := b / sqrt T) in *. set (N := INR n) in *.
  destruct (Req_dec al 0) as [->|Hne].
  { right. f_equal. field. lra. }
  left. apply exp_increasing.
  apply Rmult_lt_reg_r with (N + 1); [lra|].
  replace (- ((1 + N * al) * (1 + N * al)) / (N + 1) * (N + 1)) with (- ((1 + N * al) * (1 + N * al))) by (field; lra).
  replace (- / (N + 1) * (N + 1)) with (-1) by (field; lra). assert (0 < al) by lra. nra.
Qed.

Lemma bernoulli x n : -1 <= x -> 1 + INR n * x <= (1 + x) ^ n.
Proof.
  intros Hx. induction n as [|n IH]; [cbn; lra|].
  rewrite S_INR. cbn [pow].
  assert (0 <= INR n) by apply pos_INR.
  apply Rle_trans with ((1 + x) * (1 + INR n * x)); [nra|].
  apply Rmult_le_compat_l; [lra|assumption].
Qed.

(** parallel cuts *)
Lemma par_ratio n T b0 b1 rho sigma delta :
  (2 <= n)%nat -> 0 <= sigma <= 1 -> 0 <= delta ->
  par_formula (IZR (Z.of_nat n)) T b0 b1 rho sigma delta ->
  0 <= delta ^ n * (1 - sigma) <= 1 /\
  (- T < INR n * (b0 * b1) -> delta ^ n * (1 - sigma) < 1).
Proof.
  intros Hn Hs Hd HF.
  assert (HN : 2 <= INR n) by (apply (le_INR 2); assumption).
  rewrite <- INR_IZR_INZ in HF. set (N := INR n) in *.
  destruct HF as (HT & Hb & Hb1 & Hnp & Hsum & xi & Hxi & Exi & Es & Ed & _).
  assert (HNN : 0 < N * N - 1) by nra.
  set (s := (b0 + b1) / 2 * ((b0 + b1) / 2) / T).
  set (p := b0 * b1 / T).
  assert (Hsp : 0 < s).
  { apply Rmult_lt_0_compat; [|apply Rinv_0_lt_compat; assumption]. nra. }
  assert (Ex2 : xi * xi = (1 + p) * (1 + p) - 4 * s + 4 * (N * N) * s * (s - p)).
  { rewrite Exi. unfold s, p. field. lra. }
  assert (Exi1 : xi = 1 + p + 2 * s * (N - sigma * (N + 1))).
  { rewrite Es. unfold s, p. field. repeat split; lra. }
  assert (Ed1 : delta = N * N / (N * N - 1) * (1 - 2 * s + p + xi / N)).
  { rewrite Ed. unfold s, p. field. repeat split; lra. }
  clear Ed Es Exi.
  set (Y := 1 - sigma / N).
  assert (HY : 0 < Y).
  { unfold Y. assert (sigma / N < 1); [|lra]. apply Rmult_lt_reg_r with N; [lra|].
    unfold Rdiv. rewrite Rmult_assoc, Rinv_l by lra. lra. }
  assert (Ekey : delta * Y = 1 - s * (sigma * sigma)).
  { assert (Hq : (1 + p + 2 * s * (N - sigma * (N + 1))) * (1 + p + 2 * s * (N - sigma * (N + 1)))
             = (1 + p) * (1 + p) - 4 * s + 4 * (N * N) * s * (s - p)) by (rewrite <- Exi1; assumption).
    (* divide by 4 s *)
    assert (Hq2 : (1 + p) * (N - sigma * (N + 1)) + s * ((N - sigma * (N + 1)) * (N - sigma * (N + 1)))
             = - 1 + N * N * (s - p)).
    { apply Rmult_eq_reg_l with (4 * s); [|lra]. nra. }
    rewrite Ed1, Exi1. unfold Y. apply Rmult_eq_reg_r with (N * N - 1); [|lra].
    match goal with |- ?L = _ => replace L with
      ((N * (1 - 2 * s + p) + (1 + p + 2 * s * (N - sigma * (N + 1)))) * (N - sigma)) by (field; repeat split; lra) end.
    assert (Hp : p * (N - sigma * (N + 1) + N * N) = - 1 + N * N * s - (N - sigma * (N + 1)) - s * ((N - sigma * (N + 1)) * (N - sigma * (N + 1)))) by lra.
    assert (Hfac : N - sigma * (N + 1) + N * N = (N + 1) * (N - sigma)) by ring.
    rewrite Hfac in Hp.
    replace ((N * (1 - 2 * s + p) + (1 + p + 2 * s * (N - sigma * (N + 1)))) * (N - sigma))
      with ((N + 1 - 2 * s * sigma * (N + 1)) * (N - sigma) + p * ((N + 1) * (N - sigma))) by ring.
    rewrite Hp. ring. }
  assert (HBn : 1 - sigma <= Y ^ n).
  { assert (H := bernoulli (- sigma / N) n). fold N in H.
    replace (1 + N * (- sigma / N)) with (1 - sigma) in H by (field; lra).
    replace (1 + - sigma / N) with Y in H by (unfold Y; field; lra). apply H. unfold Y in HY. 
    unfold Rdiv in *. lra. }
  assert (HYn : 0 < Y ^ n) by (apply pow_lt; assumption).
  assert (Hz : 0 <= 1 - s * (sigma * sigma)) by (rewrite <- Ekey; nra).
  assert (Hz1 : (1 - s * (sigma * sigma)) ^ n <= 1).
  { apply Rle_trans with (1 ^ n); [|rewrite pow1; lra]. apply pow_incr. split; [assumption|]. nra. }
  assert (Hz0 : 0 <= (1 - s * (sigma * sigma)) ^ n) by (apply pow_le; assumption).
  assert (Eprod : delta ^ n * (1 - sigma) * Y ^ n = (1 - s * (sigma * sigma)) ^ n * (1 - sigma)).
  { rewrite <- Ekey, Rpow_mult_distr. ring. }
  assert (Hdn : 0 <= delta ^ n) by (apply pow_le; assumption).
  split; [split; [nra|]|].
  - apply Rmult_le_reg_r with (Y ^ n); [assumption|]. rewrite Eprod. nra.
  - intros Hst. assert (Hs0 : 0 < sigma).
    { destruct (Rle_lt_or_eq_dec 0 sigma (proj1 Hs)) as [|E]; [assumption|exfalso].
      rewrite <- E in Exi1. rewrite Rmult_0_l, Rminus_0_r in Exi1. rewrite Exi1 in Ex2.
      assert (N * p = -1).
      { apply Rmult_eq_reg_l with (4 * s * (N + 1)); [|nra]. nra. }
      assert (N * (b0 * b1) = - T); [|lra].
      apply Rmult_eq_reg_r with (/ T); [|apply Rinv_neq_0_compat; lra].
      transitivity (N * p); [unfold p; field; lra|]. rewrite H. field. lra. }
    apply Rmult_lt_reg_r with (Y ^ n); [assumption|]. rewrite Eprod, Rmult_1_l.
    assert (Hz2 : (1 - s * (sigma * sigma)) ^ n < 1).
    { destruct n as [|m]; [lia|]. cbn [pow].
      assert ((1 - s * (sigma * sigma)) ^ m <= 1).
      { apply Rle_trans with (1 ^ m); [|rewrite pow1; lra]. apply pow_incr. split; [assumption|nra]. }
      assert (0 <= (1 - s * (sigma * sigma)) ^ m) by (apply pow_le; assumption).
      assert (0 < s * (sigma * sigma)) by (apply Rmult_lt_0_compat; [assumption|apply Rmult_lt_0_compat; assumption]). apply Rle_lt_trans with ((1 - s * (sigma * sigma)) * 1); [apply Rmult_le_compat_l; assumption|lra]. }
    destruct (Rle_lt_or_eq_dec sigma 1 (proj2 Hs)) as [L|E]; [|rewrite E; lra].
    nra.
Qed.

(** Parallel cuts with b0 >= 0 shrink at least as much as a central cut: the squared semi-axes delta across and
    lambda = delta (1 - sigma) along the cut satisfy a linear inequality that is tight for the
    ellipsoid of the central cut, and the inequality of the means does the rest. *)
Lemma par_sigma_ge N s p sigma :
  2 <= N -> 0 <= sigma <= 1 -> 0 <= p <= 1 -> 4 * s <= (1 + p) * (1 + p) ->
  p * (N - sigma) = s * sigma * (2 * N - (N + 1) * sigma) - (1 - sigma) -> 2 <= (N + 1) * sigma.
Proof.
  intros HN Hs Hp Hsp E. apply Rnot_lt_le. intros L.
  set (k := sigma * (2 * N - (N + 1) * sigma)) in *.
  assert (Hk0 : 0 <= k) by (unfold k; apply Rmult_le_pos; nra).
  assert (Hk : k < 4 * (1 - sigma)).
  { unfold k. assert (0 < (2 - (N + 1) * sigma) * (2 - sigma)) by (apply Rmult_lt_0_compat; lra). nra. }
  assert (Hk1 : k - 1 + sigma - N + sigma < 0).
  { unfold k. assert (sigma < 1) by nra. assert (0 < (N + 1) * ((1 - sigma) * (1 - sigma))) by (apply Rmult_lt_0_compat; [lra|nra]). nra. }
  assert (H : p * (N - sigma) <= (1 + p) * (1 + p) / 4 * k - (1 - sigma)).
  { rewrite E. unfold k. assert (s * k <= (1 + p) * (1 + p) / 4 * k) by (apply Rmult_le_compat_r; lra). unfold k in *. nra. }
  assert ((1 + p) * (1 + p) / 4 * k <= (1 - p) * (k / 4) + p * k).
  { assert (0 <= k * (p * (1 - p))) by (apply Rmult_le_pos; [assumption|nra]). nra. }
  assert (Hsum : 0 <= (1 - p) * (k / 4 - (1 - sigma)) + p * (k - 1 + sigma - N + sigma)) by lra.
  assert (0 <= (1 - p) * (1 - sigma - k / 4)) by (apply Rmult_le_pos; lra).
  assert (0 <= p * (- (k - 1 + sigma - N + sigma))) by (apply Rmult_le_pos; lra).
  assert (E1 : (1 - p) * (1 - sigma - k / 4) = 0) by lra.
  assert (E2 : p * (- (k - 1 + sigma - N + sigma)) = 0) by lra.
  apply Rmult_integral in E1, E2. lra.
Qed.

Lemma par_linear N s p sigma :
  2 <= N -> 0 <= sigma <= 1 -> 0 <= p <= 1 -> 4 * s <= (1 + p) * (1 + p) -> 0 <= s ->
  p * (N - sigma) = s * sigma * (2 * N - (N + 1) * sigma) - (1 - sigma) ->
  (N + 1) * (1 - s * (sigma * sigma)) * (N * N - N + 2 - (N + 1) * sigma) <= N * N * (N - sigma).
Proof.
  intros HN Hs Hp Hsp Hs0 E.
  assert (H2 := par_sigma_ge N s p sigma HN Hs Hp Hsp E).
  set (A := (N + 1) * (N * N - N + 2 - (N + 1) * sigma)).
  assert (HA : 0 <= A) by (apply Rmult_le_pos; nra).
  assert (Hd : 0 < 2 * N - (N + 1) * sigma) by nra.
  assert (Hlow : 1 - sigma <= s * sigma * (2 * N - (N + 1) * sigma)).
  { assert (0 <= p * (N - sigma)) by (apply Rmult_le_pos; lra). lra. }
  assert (Hq : 0 <= (N + 1) * (sigma * sigma) - (N * N + 2 * N + 2) * sigma + N * (N + 2)).
  { assert (0 <= (1 - sigma) * (N * N + 2 * N + 2 - (N + 1) * (1 + sigma))) by (apply Rmult_le_pos; nra). nra. }
  assert (HPhi : ((N + 2) - (2 * N + 1) * sigma) * (2 * N - (N + 1) * sigma) <= A * sigma * (1 - sigma)).
  { assert (0 <= ((N + 1) * sigma - 2) * ((N + 1) * (sigma * sigma) - (N * N + 2 * N + 2) * sigma + N * (N + 2)))
      by (apply Rmult_le_pos; lra). unfold A. nra. }
  assert (Hfin : (N + 2) - (2 * N + 1) * sigma <= A * (s * (sigma * sigma))).
  { apply Rmult_le_reg_r with (2 * N - (N + 1) * sigma); [assumption|]. eapply Rle_trans; [exact HPhi|].
    replace (A * (s * (sigma * sigma)) * (2 * N - (N + 1) * sigma))
      with (A * sigma * (s * sigma * (2 * N - (N + 1) * sigma))) by ring.
    apply Rmult_le_compat_l; [apply Rmult_le_pos; lra|assumption]. }
  replace ((N + 1) * (1 - s * (sigma * sigma)) * (N * N - N + 2 - (N + 1) * sigma))
    with (A - A * (s * (sigma * sigma))) by (unfold A; ring).
  unfold A in *. nra.
Qed.

Lemma par_ratio_deep n T b0 b1 rho sigma delta :
  (2 <= n)%nat -> 0 <= sigma <= 1 -> 0 <= delta -> 0 <= b0 ->
  par_formula (IZR (Z.of_nat n)) T b0 b1 rho sigma delta ->
  delta ^ n * (1 - sigma) <= exp (- / (INR n + 1)).
Proof.
  intros Hn Hs Hd Hb0 HF.
  assert (HN : 2 <= INR n) by (apply (le_INR 2); assumption).
  rewrite <- INR_IZR_INZ in HF. set (N := INR n) in *.
  destruct HF as (HT & Hb & Hb1 & Hnp & Hsum & xi & Hxi & Exi & Es & Ed & _).
  assert (HNN : 0 < N * N - 1) by nra.
  set (s := (b0 + b1) / 2 * ((b0 + b1) / 2) / T).
  set (p := b0 * b1 / T).
  assert (HiT : 0 < / T) by (apply Rinv_0_lt_compat; assumption).
  assert (Hsp : 0 < s).
  { apply Rmult_lt_0_compat; [|assumption]. nra. }
  assert (Hp : 0 <= p <= 1).
  { unfold p. split; [apply Rmult_le_pos; [nra|lra]|].
    apply Rmult_le_reg_r with T; [assumption|]. unfold Rdiv. rewrite Rmult_assoc, Rinv_l by lra. nra. }
  assert (H4s : 4 * s <= (1 + p) * (1 + p)).
  { assert (E4 : (1 + p) * (1 + p) - 4 * s = (1 - b0 * b0 / T) * (1 - b1 * b1 / T)) by (unfold p, s; field; lra).
    assert (Hq : forall b, 0 <= b -> b * b <= T -> 0 <= 1 - b * b / T).
    { intros b _ Hbb. replace (1 - b * b / T) with ((T - b * b) * / T) by (field; lra). apply Rmult_le_pos; lra. }
    assert (0 <= (1 - b0 * b0 / T) * (1 - b1 * b1 / T)) by (apply Rmult_le_pos; apply Hq; nra). lra. }
  assert (Ex2 : xi * xi = (1 + p) * (1 + p) - 4 * s + 4 * (N * N) * s * (s - p)).
  { rewrite Exi. unfold s, p. field. lra. }
  assert (Exi1 : xi = 1 + p + 2 * s * (N - sigma * (N + 1))).
  { rewrite Es. unfold s, p. field. repeat split; lra. }
  assert (Ed1 : delta = N * N / (N * N - 1) * (1 - 2 * s + p + xi / N)).
  { rewrite Ed. unfold s, p. field. repeat split; lra. }
  clear Ed Es Exi.
  assert (Hq2 : (1 + p) * (N - sigma * (N + 1)) + s * ((N - sigma * (N + 1)) * (N - sigma * (N + 1)))
             = - 1 + N * N * (s - p)).
  { rewrite Exi1 in Ex2. apply Rmult_eq_reg_l with (4 * s); [|lra]. nra. }
  assert (Hp2 : p * (N - sigma) = s * sigma * (2 * N - (N + 1) * sigma) - (1 - sigma)).
  { apply Rmult_eq_reg_l with (N + 1); [|lra]. nra. }
  assert (Ekey : delta * (N - sigma) = N * (1 - s * (sigma * sigma))).
  { rewrite Ed1, Exi1. apply Rmult_eq_reg_r with (N * N - 1); [|lra].
    match goal with |- ?L = _ => replace L with
      (N * ((N + 1 - 2 * s * sigma * (N + 1)) * (N - sigma) + (N + 1) * (p * (N - sigma)))) by (field; repeat split; lra) end.
    rewrite Hp2. ring. }
  assert (Hlin := par_linear N s p sigma HN Hs Hp H4s ltac:(lra) Hp2).
  assert (HL : (N + 1) * (delta * ((N - 1) * (N - 1) + (N + 1) * (1 - sigma))) <= N * N * N).
  { apply Rmult_le_reg_r with (N - sigma); [lra|].
    replace ((N + 1) * (delta * ((N - 1) * (N - 1) + (N + 1) * (1 - sigma))) * (N - sigma))
      with (N * ((N + 1) * (1 - s * (sigma * sigma)) * (N * N - N + 2 - (N + 1) * sigma))).
    - replace (N * N * N * (N - sigma)) with (N * (N * N * (N - sigma))) by ring.
      apply Rmult_le_compat_l; lra.
    - replace ((N + 1) * (delta * ((N - 1) * (N - 1) + (N + 1) * (1 - sigma))) * (N - sigma))
        with ((N + 1) * ((N - 1) * (N - 1) + (N + 1) * (1 - sigma)) * (delta * (N - sigma))) by ring.
      rewrite Ekey. ring. }
  (* compare with the central cut *)
  destruct (dc_axis_bound n 0 Hn ltac:(lra) ltac:(lra)) as [_ HV]. cbn zeta in HV. fold N in HV.
  replace (- ((1 + N * 0) * (1 + N * 0)) / (N + 1)) with (- / (N + 1)) in HV by (field; lra).
  eapply Rle_trans; [|exact HV].
  assert (EA : dc_axis N 0 = N * N / (N * N - 1)) by (unfold dc_axis; field; lra).
  assert (EC : dc_depth N 0 = N / (N + 1)) by (unfold dc_depth; field; lra).
  rewrite EA, EC.
  assert (HA : 0 < N * N / (N * N - 1)) by (apply Rmult_lt_0_compat; [nra|apply Rinv_0_lt_compat; assumption]).
  assert (HC : 0 < N / (N + 1)) by (apply Rmult_lt_0_compat; [lra|apply Rinv_0_lt_compat; lra]).
  set (A := N * N / (N * N - 1)) in *. set (C := N / (N + 1)) in *.
  set (x := delta / A). set (y := delta * (1 - sigma) / (C * C)).
  assert (Hx : 0 <= x) by (apply Rmult_le_pos; [assumption|left; apply Rinv_0_lt_compat; assumption]).
  assert (Hy : 0 <= y) by (apply Rmult_le_pos; [nra|left; apply Rinv_0_lt_compat; nra]).
  assert (Hxy : (N - 1) * (x - 1) + (y - 1) <= 0).
  { assert (E : ((N - 1) * (x - 1) + (y - 1)) * (N * N) =
       (N + 1) * (delta * ((N - 1) * (N - 1) + (N + 1) * (1 - sigma))) - N * N * N).
    { unfold x, y, A, C. field. repeat split; lra. }
    apply Rmult_le_reg_r with (N * N); [nra|]. rewrite E. lra. }
  destruct n as [|m]; [lia|]. replace (S m - 1)%nat with m by lia.
  assert (EV : delta ^ S m * (1 - sigma) = A ^ m * (C * C) * (x ^ m * y)).
  { cbn [pow]. transitivity ((A * x) ^ m * ((C * C) * y)).
    - replace (A * x) with delta by (unfold x; field; lra). unfold y. field. lra.
    - rewrite Rpow_mult_distr. ring. }
  rewrite EV. rewrite <- (Rmult_1_r (A ^ m * (C * C))) at 2. apply Rmult_le_compat_l.
  { apply Rmult_le_pos; [apply pow_le; lra|nra]. }
  apply Rle_trans with (exp ((N - 1) * (x - 1)) * exp (y - 1)).
  - apply Rmult_le_compat; [apply pow_le; assumption|assumption| |pose proof (exp_ineq1_le (y - 1)); lra].
    replace (N - 1) with (INR m) by (unfold N; rewrite S_INR; ring). apply pow_exp_le. assumption.
  - rewrite <- exp_plus. apply Rle_trans with (exp 0); [|rewrite exp_0; lra].
    destruct (Rle_lt_or_eq_dec _ _ Hxy) as [L|E]; [left; apply exp_increasing; exact L|].
    right. f_equal. exact E.
Qed.
