(** Property theorems about multiplierless filter design in binary64 (C159). *)
From Coq Require Import ZArith Reals QArith Qreals Lra Lia Bool List Ascii String.
From Flocq Require Import Core.Core IEEE754.BinarySingleNaN.
From Verif Require Import Base M_Drivers S_Drivers T_Drivers M_Ell S_LinAlg P_LinAlg M_Float P_Float P_Float2 S_Float P_FSum P_EllF P_EllF2 P_LmiF T_Float
  P_CholF M_Csd S_Csd M_CsdF S_CsdF P_CsdF T_CsdF M_Misc P_Misc M_Lowpass S_Lowpass P_Lowpass S_LowpassF P_LowpassF T_Lowpass T_Float11 M_CsdLp S_CsdLp.
Import ListNotations.
Local Open Scope R_scope.

(** ** the budget holds for every double *)
Definition nonneg64 (p : b64) : Prop := is_nan p = true \/ Bsign p = false.
Lemma half_nonneg p : nonneg64 p -> nonneg64 (fdiv p (fmake 2 0)).
Proof.
  intros [N|S0]; [left; destruct p; try discriminate N; reflexivity|].
  destruct (is_nan (fdiv p (fmake 2 0))) eqn:N; [left; exact N|right].
  pose proof (Bdiv_correct 53 1024 prec64 emax64 mode_NE p (fmake 2 0)) as C.
  assert (R2 : B2R (fmake 2 0) = 2) by (rewrite fmakeR by lia; change (pow2 0) with 1; lra).
  specialize (C ltac:(rewrite R2; lra)). destruct (Rlt_bool _ _) in C.
  - destruct C as (_ & _ & C). change (Bdiv mode_NE p (fmake 2 0)) with (fdiv p (fmake 2 0)) in C. rewrite (C N), S0.
    replace (Bsign (fmake 2 0)) with false by (vm_compute; reflexivity). reflexivity.
  - change (Bdiv mode_NE p (fmake 2 0)) with (fdiv p (fmake 2 0)) in C. rewrite S0 in C.
    replace (Bsign (fmake 2 0)) with false in C by (vm_compute; reflexivity). destruct (fdiv p (fmake 2 0)) as [[]|[]| |[]]; try discriminate C; reflexivity.
Qed.
Lemma zero_digit p : nonneg64 p -> fcsd_digit p fzero = (cZero, fzero).
Proof.
  intros Hp. unfold fcsd_digit. replace (fmul (fmake 3 (-1)) fzero) with fzero by (apply B2SF_inj; vm_compute; reflexivity).
  replace (Bltb p fzero) with false; [replace (Bltb fzero (Bopp p)) with false; [reflexivity|]|];
    destruct Hp as [N|S0]; destruct p as [[]|[]| |[]]; try discriminate; reflexivity.
Qed.
Lemma budget_zero fuel : forall n p s, nonneg64 p -> fcsdfixed_loop fuel n 0 p fzero = Ok s -> nonzeros s = 0%nat.
Proof.
  induction fuel as [|fuel IH]; intros n p s Hp E; [discriminate E|]. cbn [fcsdfixed_loop] in E.
  destruct (orb _ _); [|injection E as <-; reflexivity]. rewrite zero_digit in E by exact Hp. cbn iota beta in E.
  change (Ascii.eqb cZero cZero) with true in E. cbn iota in E. change (0 =? 0)%Z with true in E. cbn iota in E.
  apply bind_ok in E as (r & E1 & E2). injection E2 as <-. apply IH in E1; [|apply half_nonneg, Hp].
  destruct (n =? 0)%Z; exact E1.
Qed.
Lemma budget_loop fuel : forall n nnz p dec s, (1 <= nnz)%Z -> nonneg64 p -> fcsdfixed_loop fuel n nnz p dec = Ok s -> (Z.of_nat (nonzeros s) <= nnz)%Z.
Proof.
  induction fuel as [|fuel IH]; intros n nnz p dec s Hn Hp E; [discriminate E|]. cbn [fcsdfixed_loop] in E.
  destruct (orb _ _); [|injection E as <-; cbn; lia]. destruct (fcsd_digit p dec) as [c d1] eqn:D.
  apply bind_ok in E as (r & E1 & E2). injection E2 as <-. apply half_nonneg in Hp.
  assert (NP : nonzeros ((if (n =? 0)%Z then [cPoint] else []) ++ c :: r) = nonzeros (c :: r)) by (destruct (n =? 0)%Z; reflexivity).
  rewrite NP. clear NP.
  assert (Hc : c = cPlus \/ c = cMinus \/ c = cZero).
  { unfold fcsd_digit in D. destruct (Bltb p _); [left; congruence|]. destruct (Bltb _ (Bopp p)); [right; left; congruence|right; right; congruence]. }
  assert (NZ : c <> cZero -> Ascii.eqb c cZero = false /\ nonzeros (c :: r) = S (nonzeros r)).
  { intros Hne. destruct Hc as [-> | [-> | ->]]; [split; reflexivity|split; reflexivity|congruence]. }
  destruct (Ascii.ascii_dec c cZero) as [->|Hne].
  - change (Ascii.eqb cZero cZero) with true in E1. cbn iota in E1. destruct (Z.eqb_spec nnz 0); [lia|].
    apply IH in E1; [exact E1|exact Hn|exact Hp].
  - destruct (NZ Hne) as [N1 N2]. rewrite N1 in E1. rewrite N2. destruct (Z.eqb_spec (nnz - 1) 0) as [En|En].
    + rewrite En in E1. apply budget_zero in E1; [lia|exact Hp].
    + apply IH in E1; [lia|lia|exact Hp].
Qed.
Lemma fpow2_nonneg e p : fpow2 e = Ok p -> nonneg64 p.
Proof.
  unfold fpow2. destruct (1023 <? e)%Z; [discriminate|]. intros E. assert (E' : p = fmake 1 e) by congruence. subst p. right.
  pose proof (binary_normalize_correct 53 1024 prec64 emax64 mode_NE 1 e false) as C. cbv zeta in C.
  change (binary_normalize 53 1024 prec64 emax64 mode_NE 1 e false) with (fmake 1 e) in C.
  assert (Hpos : 0 < F2R (Float radix2 1 e)) by (apply F2R_gt_0; cbn; lia). destruct (Rlt_bool _ _) in C.
  - destruct C as (_ & _ & C). rewrite C, Rcompare_Gt by exact Hpos. reflexivity.
  - rewrite Rlt_bool_false in C by lra. destruct (fmake 1 e) as [[]|[]| |[]]; try discriminate C; reflexivity.
Qed.
Theorem C159_budget_every_double :
  forall log2 (x : b64) nnz s, (1 <= nnz)%Z -> fto_csdfixed log2 x nnz = Ok s -> (Z.of_nat (nonzeros s) <= nnz)%Z.
Proof.
  intros log2 x nnz s Hn E. unfold fto_csdfixed in E. destruct (feqb x fzero); [injection E as <-; cbn; lia|].
  apply bind_ok in E as (n & _ & E). unfold fto_csdfixed_from in E. apply bind_ok in E as (p & Ep & E). apply bind_ok in E as (r & Er & E).
  apply fpow2_nonneg in Ep. apply (budget_loop _ _ _ _ _ _ Hn Ep) in Er. injection E as <-. destruct (Bltb _ _); exact Er.
Qed.
Print Assumptions C159_budget_every_double.

(** ** the rounded design *)
Lemma csd_coefs_spec log2 nnz n h v : csd_coefs log2 nnz n h = Ok v ->
  forall i, (i < n)%nat -> exists s, fto_csdfixed log2 (h i) nnz = Ok s /\ fto_decimal s = Ok (v i).
Proof.
  intros E. unfold csd_coefs in E.
  refine (for_range_inv (fun k (v : nat -> b64) => forall i, (i < k)%nat -> exists s, fto_csdfixed log2 (h i) nnz = Ok s /\ fto_decimal s = Ok (v i)) _ n 0 _ _ _ _ E).
  - intros i Hi. lia.
  - intros k a a' _ IH Ea i Hi. apply bind_ok in Ea as (s & E1 & Ea). apply bind_ok in Ea as (d & E2 & Ea).
    assert (Ea' : a' = vset a k d) by congruence. subst a'. unfold vset. destruct (Nat.eqb_spec i k) as [->|Hne]; [exists s; auto|]. apply IH. lia.
Qed.
Lemma inverse_spec64 dot n h r : @inverse_spectral_fact b64 (FNumD dot) n h = Ok r ->
  forall t, (t < n)%nat -> r t = dot (n - t)%nat (fun i => h (t + i)%nat) h.
Proof.
  intros E. unfold inverse_spectral_fact in E.
  refine (for_range_inv (fun k (r : nat -> b64) => forall t, (t < k)%nat -> r t = dot (n - t)%nat (fun i => h (t + i)%nat) h) _ n 0 _ _ _ _ E).
  - intros i Hi. lia.
  - intros k a a' _ IH Ea i Hi. assert (Ea' : a' = vset a k (dot (n - k)%nat (fun i => h (k + i)%nat) h)) by (injection Ea as <-; reflexivity). subst a'.
    unfold vset. destruct (Nat.eqb_spec i k) as [->|Hne]; [reflexivity|]. apply IH. lia.
Qed.
(** the coefficients found at r: at most nnz non-zero digits each, and the autocorrelation computed from them *)
Definition rounded_at dot log2 sf nnz n (r x : nat -> b64) (h0 h : nat -> b64) : Prop :=
  sf r = Ok h0 /\
  (forall i, (i < n)%nat -> exists s, fto_csdfixed log2 (h0 i) nnz = Ok s /\ fto_decimal s = Ok (h i)) /\
  (forall t, (t < n)%nat -> x t = dot (n - t)%nat (fun i => h (t + i)%nat) h).
Lemma csd_rounding_spec dot log2 (sf : (nat -> b64) -> res (nat -> b64)) nnz n r x : csd_rounding dot log2 sf nnz n r = Ok x ->
  exists h0 h, rounded_at dot log2 sf nnz n r x h0 h.
Proof.
  intros E. unfold csd_rounding in E. apply bind_ok in E as (h0 & E0 & E). apply bind_ok in E as (h & E1 & E).
  exists h0, h. split; [exact E0|]. split; [exact (csd_coefs_spec _ _ _ _ _ E1)|]. exact (inverse_spec64 _ _ _ _ E).
Qed.

Notation csd64_call dot P rounding := (@csd_call b64 (FNumD dot) P rounding).
(** a point is only reported together with the rounded design it was tested at *)
Lemma csd_call_inv dot P rounding s rcsd r Spsq retry s' rcsd' c x0 t1 more : counters_ok P s ->
  csd64_call dot P rounding (s, rcsd) r Spsq retry = Ok ((s', rcsd'), (c, x0, t1, more)) ->
  counters_ok P s' /\ (rcsd' = rcsd \/ (exists rc, rounding r = Ok rc /\ rcsd' = Some rc)) /\
  (t1 <> None -> rcsd' = Some x0 /\ exists s1 g b', counters_ok P s1 /\ lowpass64_call dot P s1 x0 Spsq = Ok (s', ((g, b'), t1))).
Proof.
  intros Hs E. unfold csd_call in E.
  assert (Hsec : forall s1 rc0, counters_ok P s1 -> @csd_second b64 (FNumD dot) P s1 rc0 r Spsq retry = Ok ((s', rcsd'), (c, x0, t1, more)) ->
    counters_ok P s' /\ rcsd' = rc0 /\
    (t1 <> None -> rcsd' = Some x0 /\ exists s1 g b', counters_ok P s1 /\ lowpass64_call dot P s1 x0 Spsq = Ok (s', ((g, b'), t1)))).
  { intros s1 [rc|] H1 E1; [|discriminate E1]. unfold csd_second in E1. apply bind_ok in E1 as ([s2 [[g b] t2]] & El & E1).
    injection E1 as <- <- <- <- <- _. split; [apply (lowpass_call_any P _ _ _ _ _ _ H1 El)|]. split; [reflexivity|].
    intros _. split; [reflexivity|]. exists s1, g, b. auto. }
  destruct retry.
  - destruct (Hsec s rcsd Hs E) as (A1 & A2 & A3). split; [exact A1|]. split; [left; exact A2|exact A3].
  - apply bind_ok in E as ([s2 [c2 t2]] & El & E). assert (H2 : counters_ok P s2) by apply (lowpass_call_any P _ _ _ _ _ _ Hs El).
    destruct t2 as [m|].
    + apply bind_ok in E as (rc & Er & E). destruct (Hsec s2 (Some rc) H2 E) as (A1 & A2 & A3).
      split; [exact A1|]. split; [right; exists rc; auto|exact A3].
    + injection E as <- <- _ _ <- _. split; [exact H2|]. split; [left; reflexivity|]. congruence.
Qed.

(** every reported point of a run is the rounded design of some centre of that run *)
Lemma q_rounded {St X Sc} (sp : space St X (nat -> b64) (cut b64) Sc) dot P rounding s rcsd st t tr o' st' t' :
  counters_ok P s ->
  q_replay sp (csd64_call dot P rounding) (s, rcsd) st t tr o' st' t' ->
  forall ev, In ev tr -> q_t1 ev <> None ->
    (exists s1 s2 c, counters_ok P s1 /\ lowpass64_call dot P s1 (q_x0 ev) (q_t ev) = Ok (s2, (c, q_t1 ev))) /\
    (rcsd = Some (q_x0 ev) \/ exists ev0, In ev0 tr /\ rounding (q_x ev0) = Ok (q_x0 ev)).
Proof.
  intros Hs Hrep. remember (s, rcsd) as o eqn:Eo. revert s rcsd Hs Eo.
  induction Hrep as [|o st t retry c x0 t1 more o1 st1 q0 q tr o' st' t' Ho Hu Hrep IH]; intros s rcsd Hs Eo ev Hin Ht; [destruct Hin|]. subst o.
  destruct o1 as [s1 rcsd1]. destruct (csd_call_inv dot P rounding s rcsd (centre sp st) t retry s1 rcsd1 c x0 t1 more Hs Ho) as (K1 & K2 & K3).
  destruct Hin as [<-|Hin].
  - cbn [q_t1 q_x0 q_t q_x] in *. destruct (K3 Ht) as (K4 & s2 & g & b & K5 & K6). split; [exists s2, s1, (g, b); auto|].
    destruct K2 as [K2|(rc & K2 & K7)]; [left; congruence|right]. eexists. split; [left; reflexivity|]. cbn [q_x]. rewrite K2. congruence.
  - destruct (IH s1 rcsd1 K1 eq_refl ev Hin Ht) as (K4 & [K5|(ev0 & K5 & K6)]).
    + split; [exact K4|]. destruct K2 as [K2|(rc & K2 & K7)]; [left; congruence|right]. eexists. split; [left; reflexivity|]. cbn [q_x]. rewrite K2. congruence.
    + split; [exact K4|]. right. exists ev0. split; [right; exact K5|exact K6].
Qed.

(** the computed autocorrelation against the real one *)
Lemma shift_prod n h t : (t <= n)%nat -> rsum (n - t) (fun i => Rabs (h (t + i)%nat * h i)) <= rsum n (fun i => h i * h i).
Proof.
  intros Ht.
  assert (Hsq : forall i, 0 <= h i * h i) by (intros i; apply Rle_0_sqr).
  assert (A : rsum (n - t) (fun i => h (t + i)%nat * h (t + i)%nat) <= rsum n (fun i => h i * h i)).
  { clear -Ht Hsq. rewrite (rsum_split_at n t (fun i => h i * h i) Ht). assert (0 <= rsum t (fun i => h i * h i)) by (apply rsum_nonneg; intros; apply Hsq).
    match goal with |- ?a <= _ + ?b => replace a with b; [lra|] end. apply rsum_ext. intros. reflexivity. }
  assert (B : rsum (n - t) (fun i => h i * h i) <= rsum n (fun i => h i * h i)).
  { rewrite (rsum_split_at n (n - t) (fun i => h i * h i)) by lia. assert (0 <= rsum (n - (n - t)) (fun i => h (n - t + i)%nat * h (n - t + i)%nat)) by (apply rsum_nonneg; intros; apply Hsq). lra. }
  assert (C : rsum (n - t) (fun i => Rabs (h (t + i)%nat * h i)) <= rsum (n - t) (fun i => / 2 * (h (t + i)%nat * h (t + i)%nat) + / 2 * (h i * h i))).
  { apply rsum_le. intros i _. assert (S1 := Rle_0_sqr (h (t + i)%nat - h i)). assert (S2 := Rle_0_sqr (h (t + i)%nat + h i)). unfold Rsqr in *. apply Rabs_le. lra. }
  rewrite rsum_plus, !rsum_scal_l in C. lra.
Qed.
Lemma autocorr64 dot n (h x : nat -> b64) E : fdot_any dot -> (Z.of_nat n <= 2 ^ 20)%Z ->
  (forall i, (i < n)%nat -> is_finite (h i) = true) -> rsum n (fun i => B2R (h i) * B2R (h i)) <= E <= pow2 900 ->
  (forall t, (t < n)%nat -> x t = dot (n - t)%nat (fun i => h (t + i)%nat) h) ->
  forall t, (t < n)%nat -> is_finite (x t) = true /\ Rabs (B2R (x t) - autocorr n (fun i => B2R (h i)) t) <= row_err n E.
Proof.
  intros HD Hn HF [HE HE9] Hx t Ht. rewrite (Hx t Ht).
  assert (SP := shift_prod n (fun i => B2R (h i)) t ltac:(lia)). cbv beta in SP.
  destruct (fdot_bounded dot (n - t) (fun i => h (t + i)%nat) h HD) as [F D]; [lia|intros k Hk; split; apply HF; lia| |].
  { cbv beta. eapply Rle_trans; [exact SP|]. eapply Rle_trans; [exact HE|]. eapply Rle_trans; [exact HE9|]. apply bpow_le; lia. }
  split; [exact F|]. unfold autocorr. eapply Rle_trans; [exact D|]. unfold row_err. rewrite Rmult_plus_distr_l, <- Rmult_assoc.
  assert (NI : 0 <= INR (n - t) <= INR n) by (split; [apply pos_INR|apply le_INR; lia]).
  assert (P1 := bpow_gt_0 radix2 (-52)). assert (P2 := bpow_gt_0 radix2 (-1073)).
  assert (S0 : 0 <= rsum (n - t) (fun i => Rabs (B2R (h (t + i)%nat) * B2R (h i)))) by (apply rsum_nonneg; intros; apply Rabs_pos).
  apply Rplus_le_compat; [|apply Rmult_le_compat_r; lra]. apply Rmult_le_compat; [|exact S0| |lra].
  - apply Rmult_le_pos; lra.
  - apply Rmult_le_compat_r; lra.
Qed.
Lemma dot_close n a x z d A : 0 <= d -> rsum n (fun i => Rabs (a i)) <= A -> (forall i, (i < n)%nat -> Rabs (x i - z i) <= d) ->
  Rabs (dot n a x - dot n a z) <= A * d.
Proof.
  intros Hd HA Hx. unfold dot. rewrite <- rsum_minus. eapply Rle_trans; [apply rsum_Rabs|].
  apply Rle_trans with (rsum n (fun i => Rabs (a i)) * d); [|apply Rmult_le_compat_r; assumption].
  rewrite <- rsum_scal_r. apply rsum_le. intros i Hi. replace (a i * x i - a i * z i) with (a i * (x i - z i)) by ring. rewrite Rabs_mult.
  apply Rmult_le_compat_l; [apply Rabs_pos|apply Hx, Hi].
Qed.

(** ** C159 *)
Theorem C159_multiplierless64 :
  forall (St X Sc : Type) (sp : space St X (nat -> b64) (cut b64) Sc) ltb tneq dot (P : lowpass b64) log2 sf nnz
         s max_it tol st t tr o' st' x t' info,
  fdot_any dot -> counters_ok P s -> (0 < lp_Ns P)%nat -> (1 <= nnz)%Z -> log2_within (1 / 2) log2 ->
  let n := lp_n P in
  cutting_plane_q sp ltb tneq (csd64_call dot P (csd_rounding dot log2 sf nnz n)) max_it tol (s, None) st t
    = Ok (tr, o', st', (Some x, t', info)) ->
  exists ev h0 h, In ev tr /\ sf (q_x ev) = Ok h0 /\
    (forall i, (i < n)%nat -> exists str, fto_csdfixed log2 (h0 i) nnz = Ok str /\ (Z.of_nat (nonzeros str) <= nnz)%Z /\ fto_decimal str = Ok (h i)) /\
    (forall i, (i < n)%nat -> is_finite (h0 i) = true -> Rabs (B2R (h0 i)) <= 2 ^ 678 -> few_digits nnz (h i) /\
       (Rabs (B2R (h i) - B2R (h0 i)) <= / 10 ^ 100 * (1 + / 2 ^ 50) \/
        Rabs (B2R (h i) - B2R (h0 i)) * 2 ^ Z.to_nat nnz <= Rabs (B2R (h0 i)))) /\
    (forall B, lp_bound P x B ->
       is_finite t' = true /\ (exists k, (k < lp_Ns P)%nat /\ t' = dot n (lp_As P k) x) /\
       filter_within (lp_real P) (row_err n B) (B2R t') (fun i => B2R (x i)) /\
       forall A E, rows_sum (lp_real P) A -> (forall i, (i < n)%nat -> is_finite (h i) = true) ->
         rsum n (fun i => B2R (h i) * B2R (h i)) <= E <= pow2 900 ->
         filter_within (lp_real P) (row_err n B + A * row_err n E) (B2R t') (autocorr n (fun i => B2R (h i)))).
Proof.
  intros St X Sc sp ltb tneq dot P log2 sf nnz s max_it tol st t tr o' st' x t' info HD Hs HN Hz Hlog n Hrun.
  destruct (C09_q_snapshot_and_retry _ _ _ _ _ _ _ _ _ _ _ _ _ _ _ _ _ _ _ _ _ _ Hrun) as (Hrep & Hx & _). clear Hrun.
  destruct Hx as [(_ & _ & Hx)|(tr1 & ev & tr2 & Etr & _ & Et & Ex)]; [congruence|].
  assert (Hin : In ev tr) by (rewrite Etr; apply in_or_app; right; left; reflexivity).
  destruct (q_rounded sp dot P _ s None st t tr o' st' t' Hs Hrep ev Hin ltac:(congruence)) as ((s1 & s2 & c & Hs1 & El) & Hr).
  rewrite Et in El. assert (Ex' : q_x0 ev = x) by congruence. rewrite Ex' in *. destruct Hr as [Hr|(ev0 & Hin0 & Hr)]; [discriminate Hr|].
  destruct (csd_rounding_spec dot log2 sf nnz n (q_x ev0) x Hr) as (h0 & h & Esf & Hh & Hxt).
  exists ev0, h0, h. split; [exact Hin0|]. split; [exact Esf|]. split; [|split].
  - intros i Hi. destruct (Hh i Hi) as (str & E1 & E2). exists str. split; [exact E1|]. split; [exact (C159_budget_every_double _ _ _ _ Hz E1)|exact E2].
  - intros i Hi Fi Bi. destruct (Hh i Hi) as (str & E1 & E2).
    destruct (C88_float_csdfixed log2 (h0 i) 678 nnz Hlog Fi ltac:(lia) Hz Bi) as (str' & v & E1' & W1 & W2 & W3 & E2' & Fv & Rv & Hv).
    assert (str' = str) by congruence. subst str'. assert (v = h i) by congruence. subst v.
    split; [|exact Hv]. split; [exact Fv|]. exists str. auto.
  - intros B HB. destruct (C154_lowpass64 dot P s1 x (q_t ev) B HD HB Hs1 HN) as (s3 & c3 & t3 & E3 & _ & H3). cbv zeta in H3.
    assert (t3 = Some t') by congruence. subst t3. destruct H3 as (H3 & _ & k & Hk & Em & Fm & _).
    split; [exact Fm|]. split; [exists k; auto|]. split; [exact H3|]. intros A E HA HF HE.
    assert (Hn : (0 < n)%nat /\ (Z.of_nat n <= 2 ^ 20)%Z) by apply HB.
    assert (AC := autocorr64 dot n h x E HD (proj2 Hn) HF HE Hxt). set (ac := autocorr n (fun i => B2R (h i))) in *.
    assert (Dp : 0 <= row_err n E) by (eapply Rle_trans; [apply Rabs_pos|apply (AC 0%nat), Hn]).
    assert (CL : forall a, rsum n (fun i => Rabs (a i)) <= A -> Rabs (S_LinAlg.dot n a (fun i => B2R (x i)) - S_LinAlg.dot n a ac) <= A * row_err n E).
    { intros a Ha. apply dot_close; [exact Dp|exact Ha|]. intros i Hi. apply AC, Hi. }
    change (lp_n P) with n in H3. destruct HA as (A1 & A2 & A3). destruct H3 as (F1 & F2 & F3 & F4). split; [|split; [|split]].
    + intros j Hj. specialize (F1 j Hj). specialize (CL (lp_Ap (lp_real P) j) (A1 j Hj)). apply Rabs_le_inv in CL. change (lp_n (lp_real P)) with n in *. unfold n in *. lra.
    + intros j Hj. specialize (F2 j Hj). specialize (CL (lp_As (lp_real P) j) (A2 j Hj)). apply Rabs_le_inv in CL. change (lp_n (lp_real P)) with n in *. unfold n in *. lra.
    + intros j Hj. specialize (F3 j Hj). specialize (CL (lp_Anr (lp_real P) j) (A3 j Hj)). apply Rabs_le_inv in CL. change (lp_n (lp_real P)) with n in *. unfold n in *. lra.
    + unfold ac, autocorr. apply rsum_nonneg. intros i _. rewrite Nat.add_0_l. apply Rle_0_sqr.
Qed.
Print Assumptions C159_multiplierless64.

(** the spectral factor of two coefficients: h0 + h1 = sqrt (r0 + 2 r1), h0 - h1 = sqrt (r0 - 2 r1) *)
Definition sf2 (r : nat -> b64) : res (nat -> b64) :=
  let a := fsqrt (fadd (r 0%nat) (fmul (fmake 2 0) (r 1%nat))) in
  let b := fsqrt (fsub (r 0%nat) (fmul (fmake 2 0) (r 1%nat))) in
  Ok (fv2 (fdiv (fadd a b) (fmake 2 0)) (fdiv (fsub a b) (fmake 2 0))).
(** two non-zero digits per coefficient, from the ball of radius 1/4 about (1/2, 1/8) *)
Definition csdlp_run log2 :=
  match @ell_init b64 FNum (VScalar (fmake 1 (-4))) 2 0%nat with
  | Raise e => Raise e
  | Ok e => cutting_plane_q (@ell_space b64 FNum) (fun x y => Bltb x y) (fun _ _ => true)
              (csd64_call fdot_seq lpF (csd_rounding fdot_seq log2 sf2 2 2)) 8 (fmake 1 (-30))
              (lp_init, None) (fun _ => fv2 (fmake 1 (-1)) (fmake 1 (-3)), e) (fmake 1 0)
  end.
Definition csdlp_info log2 :=
  match csdlp_run log2 with
  | Ok (tr, s', st', (xb, t', info)) => Some (match xb with Some x => Some (B2SF (x 0%nat), B2SF (x 1%nat)) | None => None end, num_iters info, B2SF t')
  | Raise _ => None
  end.
(** the design returned: the autocorrelation of (9/16, 3/8), written with the digits "0.+00+" and "0.+0-", with stop-band
    value 9/256 after 5 iterations *)
Example C159_ex : forall log2, csdlp_info log2 =
    Some (Some (B2SF (fmake 117 (-8)), B2SF (fmake 27 (-7))), 5%nat, B2SF (fmake 9 (-8))) /\
  show (fto_csdfixed log2 (fmake 9 (-4)) 2) = Some "0.+00+"%string /\ show (fto_csdfixed log2 (fmake 3 (-3)) 2) = Some "0.+0-"%string /\
  rows_sum (lp_real lpF) 3 /\ lp_bound lpF (fv2 (fmake 117 (-8)) (fmake 27 (-7))) 512.
Proof.
  intros log2. split; [vm_compute; reflexivity|]. split; [vm_compute; reflexivity|]. split; [vm_compute; reflexivity|].
  split; [|apply lpF_bound; reflexivity].
  unfold rows_sum, lpF, lp_real, fv2, vec2. cbn [lp_n lp_Np lp_Ns lp_Nr lp_Ap lp_As lp_Anr rsum]. rewrite !fmakeR by lia. change (B2R fzero) with 0. change (pow2 0) with 1.
  assert (R1 : Rabs (1 * 1) = 1) by (rewrite Rmult_1_r; apply Rabs_R1). assert (R2 : Rabs (2 * 1) = 2) by (rewrite Rabs_pos_eq; lra).
  assert (R3 : Rabs (-2 * 1) = 2) by (rewrite Rabs_left; lra). rewrite R1, R2, R3, Rabs_R0. repeat split; intros; lra.
Qed.
