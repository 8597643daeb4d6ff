(** Property theorems about the cuts of the matrix oracles in binary64 and nosoln of the driver over them (C156, C157). *)
From Coq Require Import ZArith Reals Lra Lia Bool List Psatz Floats.SpecFloat.
From Flocq Require Import Core.Core IEEE754.BinarySingleNaN.
From Verif Require Import Base M_Chol M_Lmi M_Drivers M_Ell S_Drivers P_Drivers S_Ell S_LinAlg P_LinAlg P_Chol P_CholF S_Lmi P_Lmi M_Float P_Float P_Float2 S_Float S_Float2 S_EllF S_EllRun P_FSum P_LmiF P_WitF P_WitF2 S_WitF P_RunF P_EllRun P_EllF P_EllF2 M_Examples T_Float T_Float2 T_Float4 T_Float10.
Import ListNotations.
Local Open Scope R_scope.

(** ** C156: the cut of lmi_oracle *)
Lemma nf_nth F k : @nf b64 FNum F k = nth k F (fun _ _ => fzero).
Proof. reflexivity. Qed.
Lemma wdist_nn n MF z x : (forall k, (k < n)%nat -> 0 <= MF k) -> 0 <= wdist n MF z x.
Proof.
  intros H. apply rsum_nonneg. intros k Hk. apply Rmult_le_pos; [|apply Rabs_pos].
  assert (X := H k Hk). assert (0 < pow2 (-1000)) by apply bpow_gt_0. lra.
Qed.
Lemma mats_le_nn m F MF : (0 < m)%nat -> mats_le m F MF -> forall k, (k < length F)%nat -> 0 <= MF k.
Proof. intros H0 H k Hk. eapply Rle_trans; [apply Rabs_pos|apply (H k 0%nat 0%nat Hk H0 H0)]. Qed.

Lemma blk0 m (A : nat -> nat -> R) v w : bf m (blk A 0) v w = bf m A v w.
Proof. reflexivity. Qed.
Section Common.
Variables (dot : nat -> (nat -> b64) -> (nat -> b64) -> b64) (m : nat) (F : list (nat -> nat -> b64)).
Variables (Q2 : chol b64) (g : nat -> b64) (ep : b64) (x : nat -> b64) (M : R) (MF : nat -> R) (sg : R) (Ax : (nat -> R) -> nat -> nat -> R) (v : nat -> R).
Hypothesis Hm0 : (0 < m)%nat.
Hypothesis HM0 : 0 <= M.
Hypothesis HMF : mats_le m F MF.
Hypothesis Hsg : sg = 1 \/ sg = -1.
Hypothesis Hlin : forall z, bf m (Ax (vecR x)) v v - bf m (Ax z) v v = sg * rsum (length F) (fun k => bf m (nth k (matsR F) (fun _ _ => 0)) v v * (z k - vecR x k)).
Hypothesis Hq : 1 <= S_LinAlg.dot m v v.
Hypothesis Hcut : bf m (Ax (vecR x)) v v + B2R ep <= (12 * (INR m * (INR m + 1) * pow2 (-52) * (2 * (M + pow2 (-1000)) + pow2 (-1000)))
   + INR m * ((INR (length F) + 2) * pow2 (-52) * (M + pow2 (-1000)))) * S_LinAlg.dot m v v.
Hypothesis Hg : forall k, (k < length F)%nat -> Rabs (B2R (g k) - sg * bf m (nth k (matsR F) (fun _ _ => 0)) v v) <= INR m * INR m * pow2 (-50) * (MF k + pow2 (-1000)) * S_LinAlg.dot m v v.
Lemma cut_common z : S_LinAlg.dot (length F) (vecR g) (fun k => z k - vecR x k) + B2R ep <= - bf m (Ax z) v v + cut_slack m (length F) M (wdist (length F) MF z (vecR x)) * S_LinAlg.dot m v v.
Proof.
  set (q := S_LinAlg.dot m v v) in *. set (c := INR m * INR m * pow2 (-50) * q).
  assert (c0 : 0 <= c) by (unfold c; apply Rmult_le_pos; [apply Rmult_le_pos; [apply Rmult_le_pos; apply pos_INR|apply bpow_ge_0]|lra]).
  assert (S := grad_sum (length F) (vecR g) (fun k => sg * bf m (nth k (matsR F) (fun _ _ => 0)) v v) MF (vecR x) z c c0).
  match type of S with ?P -> _ => assert (S0 : P) end.
  { intros k Hk. eapply Rle_trans; [apply Hg, Hk|]. apply Req_le. unfold c. ring. }
  specialize (S S0). clear S0.
  assert (HL := Hlin z).
  rewrite (rsum_ext _ (fun k => sg * bf m (nth k (matsR F) (fun _ _ => 0)) v v * (z k - vecR x k))
     (fun k => sg * (bf m (nth k (matsR F) (fun _ _ => 0)) v v * (z k - vecR x k)))) in S by (intros; ring).
  rewrite rsum_scal_l, <- HL in S. apply Rabs_le_inv in S.
  assert (W0 := wdist_nn (length F) MF z (vecR x) (mats_le_nn m F MF Hm0 HMF)).
  assert (K := cut_slack_ok m (length F) M (wdist (length F) MF z (vecR x)) HM0 W0).
  set (wd := wdist (length F) MF z (vecR x)) in *.
  assert (KQ : (12 * (INR m * (INR m + 1) * pow2 (-52) * (2 * (M + pow2 (-1000)) + pow2 (-1000)))
   + INR m * ((INR (length F) + 2) * pow2 (-52) * (M + pow2 (-1000))) + INR m * INR m * pow2 (-50) * wd) * q <= cut_slack m (length F) M wd * q) by (apply Rmult_le_compat_r; lra).
  unfold c in S. lra.
Qed.
End Common.

Lemma bf_nf dot F k m v : bf m (fun i j => B2R (@nf b64 (FNumD dot) F k i j)) v v = bf m (nth k (matsR F) (fun _ _ => 0)) v v.
Proof. rewrite !bf_sums. apply rsum_ext. intros i _. apply rsum_ext. intros j _. rewrite nth_matsR. reflexivity. Qed.
Lemma ep_bound m (Ma q ep : R) : 0 <= q -> ep <= 2 * (INR m * (2 * (Ma + pow2 (-1000)) + pow2 (-1000))) * q -> 0 <= Ma ->
  ep <= 6 * (INR m * (Ma + pow2 (-1000))) * q.
Proof.
  intros Hq H HM. eapply Rle_trans; [exact H|]. apply Rmult_le_compat_r; [exact Hq|]. assert (K : 0 < pow2 (-1000)) by apply bpow_gt_0.
  assert (N := pos_INR m). assert (INR m * (2 * (Ma + pow2 (-1000)) + pow2 (-1000)) <= INR m * (3 * (Ma + pow2 (-1000)))) by (apply Rmult_le_compat_l; lra). lra.
Qed.

Theorem C156_lmi64_cut :
  forall dot m F B (Q Q' : chol b64) x M MF g ep,
  fdot_any dot -> ext64 dot -> c_n Q = m -> c_semi Q = false ->
  (0 < m)%nat -> (Z.of_nat m <= 2 ^ 20)%Z -> (0 < length F)%nat -> (Z.of_nat (length F) <= 2 ^ 20)%Z -> M <= pow2 1000 ->
  sym m (matR B) -> all_sym m (matsR F) -> lmi_data m F B x M -> mats_le m F MF ->
  lmi64 dot F B (length F) Q x = Ok (Q', Some (g, ep)) ->
  is_finite ep = true -> (forall k, (k < length F)%nat -> is_finite (g k) = true) ->
  exists v, 1 <= S_LinAlg.dot m v v /\ 0 <= B2R ep <= 6 * (INR m * (M + pow2 (-1000))) * S_LinAlg.dot m v v /\
    forall z, S_LinAlg.dot (length F) (vecR g) (fun k => z k - vecR x k) + B2R ep <=
      - bf m (aff_mat (matR B) (matsR F) z) v v + cut_slack m (length F) M (wdist (length F) MF z (vecR x)) * S_LinAlg.dot m v v.
Proof.
  intros dot m F B Q Q' x M MF g ep Hd NE En Es H0 Hm HF0 HF HM SB SF Hdata HMF Hc Fe Fg.
  set (a := fun i j => fsub (B i j) (@psum b64 (FNumD dot) (length F) (fun k => fmul (nth k F (fun _ _ => fzero) i j) (x k)))).
  assert (Hg : forall g i j, (j <= i)%nat -> (i < c_n Q)%nat -> @lmi_getA b64 (FNumD dot) F B (length F) x g i j = Ok (tt, a i j)).
  { intros [] i j _ _. unfold lmi_getA, lin_sum. rewrite Nat.leb_refl. reflexivity. }
  assert (HM0 := lmi_data_nonneg m F B x M Hdata H0).
  assert (Ent := lmi_entry dot m F B x M Hdata HM HF).
  assert (Hsym : sym m (aff_mat (matR B) (matsR F) (vecR x))) by (apply aff_mat_sym; assumption).
  assert (Hfin : low_finite m a) by (intros i j Hj Hi; apply (Ent i j); lia).
  assert (Hcl : forall i j, (j <= i)%nat -> (i < m)%nat -> Rabs (B2R (a i j) - aff_mat (matR B) (matsR F) (vecR x) i j) <= (INR (length F) + 2) * pow2 (-52) * (M + pow2 (-1000)))
    by (intros i j Hj Hi; apply (Ent i j); lia).
  assert (Hen : forall i j, (j <= i)%nat -> (i < m)%nat -> Rabs (B2R (a i j)) <= 2 * (M + pow2 (-1000))) by (intros i j Hj Hi; apply (Ent i j); lia).
  unfold lmi_call in Hc. apply bind_ok in Hc as ([[g1 Q1] b] & E & Hc). destruct b; [discriminate Hc|].
  apply bind_ok in Hc as ([Q2 ep'] & W & Hc).
  assert (Eg : g = fun k => @chol_sym_quad b64 (FNumD dot) Q2 (@nf b64 (FNumD dot) F k)) by congruence. assert (ep' = ep) by congruence. subst ep'. clear Hc.
  destruct (factor_pure_sq dot NE m a H0 _ Q Q1 Q2 g1 ep Hg E W) as (Q1' & Q2' & E' & W' & SQ).
  assert (Eg' : forall k, g k = @chol_sym_quad b64 (FNumD dot) Q2' (@nf b64 (FNumD dot) F k)) by (intros k; rewrite Eg; apply SQ).
  assert (F0 := Fg 0%nat HF0). rewrite Eg' in F0.
  destruct (wit_cut dot Hd NE m a _ _ (2 * (M + pow2 (-1000))) H0 Hm Hsym Hfin Hcl Hen Q Q1' Q2' ep _ En Es E' W' Fe F0) as (v & V1 & (V2 & V3) & V4 & V5).
  exists v. split; [exact V1|]. split; [split; [exact V2|apply ep_bound; [lra|exact V3|exact HM0]]|].
  apply (cut_common m F g ep x M MF 1 (fun z => aff_mat (matR B) (matsR F) z) v H0 HM0 HMF); try assumption.
  - intros z. change (bf m (aff_mat (matR B) (matsR F) (vecR x)) v v) with (bf m (blk (aff_mat (matR B) (matsR F) (vecR x)) 0) v v).
    change (bf m (aff_mat (matR B) (matsR F) z) v v) with (bf m (blk (aff_mat (matR B) (matsR F) z) 0) v v). rewrite !bf_aff_mat.
    replace (length (matsR F)) with (length F) by (unfold matsR; rewrite map_length; reflexivity).
    rewrite (rsum_ext (length F) (fun k => bf m (nth k (matsR F) (fun _ _ => 0)) v v * (z k - vecR x k))
      (fun k => bf m (blk (nth k (matsR F) (fun _ _ => 0)) 0) v v * z k - bf m (blk (nth k (matsR F) (fun _ _ => 0)) 0) v v * vecR x k)) by (intros k _; rewrite blk0; ring).
    rewrite rsum_minus. ring.
  - intros k Hk. rewrite Rmult_1_l, Eg', <- (bf_nf dot). apply V5.
    + intros i j Hi Hj. change (@nf b64 (FNumD dot) F k i j) with (nth k F (fun _ _ => fzero) i j). rewrite <- nth_matsR. apply HMF; assumption.
    + rewrite <- Eg'. apply Fg, Hk.
Qed.
Print Assumptions C156_lmi64_cut.

(** a point at which the matrix is positive definite with the margin of the slack satisfies the cut, and with beta
    enlarged by 8 h when the margin is larger by 48 h m M *)
Lemma cut_holds m n h M MF x g ep v (A : nat -> nat -> R) z :
  0 <= h -> 1 <= S_LinAlg.dot m v v -> 0 <= B2R ep <= 6 * (INR m * (M + pow2 (-1000))) * S_LinAlg.dot m v v ->
  S_LinAlg.dot n (vecR g) (fun k => z k - vecR x k) + B2R ep <= - bf m A v v + cut_slack m n M (wdist n MF z (vecR x)) * S_LinAlg.dot m v v ->
  psd_by m (cut_slack m n M (wdist n MF z (vecR x)) + 48 * h * (INR m * (M + pow2 (-1000)))) A -> holds64 n h x g ep z.
Proof.
  intros Hh Hq [E0 E1] HC HA. specialize (HA v). unfold holds64. change (fun i => B2R (g i)) with (vecR g). change (fun i => z i - B2R (x i)) with (fun k => z k - vecR x k).
  assert (8 * h * B2R ep <= 8 * h * (6 * (INR m * (M + pow2 (-1000))) * S_LinAlg.dot m v v)) by (apply Rmult_le_compat_l; lra). lra.
Qed.
Theorem C156_lmi64_cut_valid :
  forall dot m F B (Q Q' : chol b64) x M MF g ep h z,
  fdot_any dot -> ext64 dot -> c_n Q = m -> c_semi Q = false ->
  (0 < m)%nat -> (Z.of_nat m <= 2 ^ 20)%Z -> (0 < length F)%nat -> (Z.of_nat (length F) <= 2 ^ 20)%Z -> M <= pow2 1000 ->
  sym m (matR B) -> all_sym m (matsR F) -> lmi_data m F B x M -> mats_le m F MF ->
  lmi64 dot F B (length F) Q x = Ok (Q', Some (g, ep)) ->
  is_finite ep = true -> (forall k, (k < length F)%nat -> is_finite (g k) = true) ->
  0 <= h -> psd_by m (cut_slack m (length F) M (wdist (length F) MF z (vecR x)) + 48 * h * (INR m * (M + pow2 (-1000)))) (aff_mat (matR B) (matsR F) z) ->
  holds64 (length F) h x g ep z.
Proof.
  intros dot m F B Q Q' x M MF g ep h z Hd NE En Es H0 Hm HF0 HF HM SB SF Hdata HMF Hc Fe Fg Hh HP.
  destruct (C156_lmi64_cut dot m F B Q Q' x M MF g ep Hd NE En Es H0 Hm HF0 HF HM SB SF Hdata HMF Hc Fe Fg) as (v & V1 & V2 & V3).
  exact (cut_holds m (length F) h M MF x g ep v _ z Hh V1 V2 (V3 z) HP).
Qed.
Print Assumptions C156_lmi64_cut_valid.

(** the same for lmi0_oracle, whose matrix is F(x) and whose gradient has the opposite sign *)
Theorem C156_lmi0_64_cut :
  forall dot m F (Q Q' : chol b64) x M MF g ep,
  fdot_any dot -> ext64 dot -> c_n Q = m -> c_semi Q = false ->
  (0 < m)%nat -> (Z.of_nat m <= 2 ^ 20)%Z -> (0 < length F)%nat -> (Z.of_nat (length F) <= 2 ^ 20)%Z -> M <= pow2 1000 ->
  all_sym m (matsR F) -> lmi_data m F (fun _ _ => fzero) x M -> mats_le m F MF ->
  lmi0_64 dot F (length F) Q x = Ok (Q', Some (g, ep)) ->
  is_finite ep = true -> (forall k, (k < length F)%nat -> is_finite (g k) = true) ->
  (exists v, 1 <= S_LinAlg.dot m v v /\ 0 <= B2R ep <= 6 * (INR m * (M + pow2 (-1000))) * S_LinAlg.dot m v v /\
    forall z, S_LinAlg.dot (length F) (vecR g) (fun k => z k - vecR x k) + B2R ep <=
      - bf m (lin_mat (matsR F) z) v v + cut_slack m (length F) M (wdist (length F) MF z (vecR x)) * S_LinAlg.dot m v v) /\
  forall h z, 0 <= h -> psd_by m (cut_slack m (length F) M (wdist (length F) MF z (vecR x)) + 48 * h * (INR m * (M + pow2 (-1000)))) (lin_mat (matsR F) z) ->
    holds64 (length F) h x g ep z.
Proof.
  intros dot m F Q Q' x M MF g ep Hd NE En Es H0 Hm HF0 HF HM SF Hdata HMF Hc Fe Fg.
  match goal with |- ?P /\ _ => assert (KP : P) end.
  2: { split; [exact KP|]. intros h z Hh HP. destruct KP as (v & V1 & V2 & V3). exact (cut_holds m (length F) h M MF x g ep v _ z Hh V1 V2 (V3 z) HP). }
  set (a := fun i j => @psum b64 (FNumD dot) (length F) (fun k => fmul (nth k F (fun _ _ => fzero) i j) (x k))).
  assert (Hg : forall g i j, (j <= i)%nat -> (i < c_n Q)%nat -> @lmi0_getA b64 (FNumD dot) F (length F) x g i j = Ok (tt, a i j)).
  { intros [] i j _ _. unfold lmi0_getA, lin_sum. rewrite Nat.leb_refl. reflexivity. }
  assert (HM0 := lmi_data_nonneg m F _ x M Hdata H0).
  assert (Ent := lmi_entry dot m F _ x M Hdata HM HF).
  assert (Hsym : sym m (lin_mat (matsR F) (vecR x))) by (apply lin_mat_sym; assumption).
  assert (Hfin : low_finite m a) by (intros i j Hj Hi; apply (Ent i j); lia).
  assert (Hcl : forall i j, (j <= i)%nat -> (i < m)%nat -> Rabs (B2R (a i j) - lin_mat (matsR F) (vecR x) i j) <= (INR (length F) + 2) * pow2 (-52) * (M + pow2 (-1000)))
    by (intros i j Hj Hi; apply (Ent i j); lia).
  assert (Hen : forall i j, (j <= i)%nat -> (i < m)%nat -> Rabs (B2R (a i j)) <= 2 * (M + pow2 (-1000))) by (intros i j Hj Hi; apply (Ent i j); lia).
  unfold lmi0_call in Hc. apply bind_ok in Hc as ([[g1 Q1] b] & E & Hc). destruct b; [discriminate Hc|].
  apply bind_ok in Hc as ([Q2 ep'] & W & Hc).
  assert (Eg : g = fun k => @nopp b64 (FNumD dot) (@chol_sym_quad b64 (FNumD dot) Q2 (@nf b64 (FNumD dot) F k))) by congruence. assert (ep' = ep) by congruence. subst ep'. clear Hc.
  destruct (factor_pure_sq dot NE m a H0 _ Q Q1 Q2 g1 ep Hg E W) as (Q1' & Q2' & E' & W' & SQ).
  assert (Eg' : forall k, g k = Bopp (@chol_sym_quad b64 (FNumD dot) Q2' (@nf b64 (FNumD dot) F k))) by (intros k; rewrite Eg, SQ; reflexivity).
  assert (F0 := Fg 0%nat HF0). rewrite Eg', fopp_fin in F0.
  destruct (wit_cut dot Hd NE m a _ _ (2 * (M + pow2 (-1000))) H0 Hm Hsym Hfin Hcl Hen Q Q1' Q2' ep _ En Es E' W' Fe F0) as (v & V1 & (V2 & V3) & V4 & V5).
  exists v. split; [exact V1|]. split; [split; [exact V2|apply ep_bound; [lra|exact V3|exact HM0]]|].
  apply (cut_common m F g ep x M MF (-1) (fun z => lin_mat (matsR F) z) v H0 HM0 HMF); try assumption.
  - intros z. change (bf m (lin_mat (matsR F) (vecR x)) v v) with (bf m (blk (lin_mat (matsR F) (vecR x)) 0) v v).
    change (bf m (lin_mat (matsR F) z) v v) with (bf m (blk (lin_mat (matsR F) z) 0) v v). rewrite !bf_lin_mat.
    replace (length (matsR F)) with (length F) by (unfold matsR; rewrite map_length; reflexivity).
    rewrite (rsum_ext (length F) (fun k => bf m (nth k (matsR F) (fun _ _ => 0)) v v * (z k - vecR x k))
      (fun k => bf m (blk (nth k (matsR F) (fun _ _ => 0)) 0) v v * z k - bf m (blk (nth k (matsR F) (fun _ _ => 0)) 0) v v * vecR x k)) by (intros k _; rewrite blk0; ring).
    rewrite rsum_minus. ring.
  - intros k Hk. rewrite Eg', fopp_R, <- (bf_nf dot).
    match goal with |- Rabs (- ?s - -1 * ?t) <= _ => replace (- s - -1 * t) with (- (s - t)) by ring end. rewrite Rabs_Ropp. apply V5.
    + intros i j Hi Hj. change (@nf b64 (FNumD dot) F k i j) with (nth k F (fun _ _ => fzero) i j). rewrite <- nth_matsR. apply HMF; assumption.
    + rewrite <- fopp_fin, <- Eg'. apply Fg, Hk.
Qed.
Print Assumptions C156_lmi0_64_cut.

(** ** C157: nosoln of the feasibility driver over ell and lmi_oracle *)
Notation cut1 := (fun c : @gcut b64 => (fst c, BScalar (snd c))).
Lemma psd_by_mono m d d' A : d' <= d -> psd_by m d A -> psd_by m d' A.
Proof. intros H HP y. eapply Rle_trans; [|apply HP]. apply Rmult_le_compat_r; [apply rsum_nonneg; intros; apply Rle_0_sqr|exact H]. Qed.
Lemma sizes_data m F B MB MF X x : (0 < m)%nat -> lmi_sizes m F B MB MF -> 0 <= X -> (forall k, (k < length F)%nat -> is_finite (x k) = true /\ Rabs (B2R (x k)) <= X) ->
  lmi_data m F B x (run_bound (length F) MB MF X).
Proof.
  intros H0 [HB HF] HX Hx. split; [intros k Hk; apply Hx, Hk|]. intros i j Hi Hj. destruct (HB i j Hi Hj) as (B1 & B2 & B3).
  split; [exact B1|]. split; [exact B3|]. unfold run_bound. apply Rplus_le_compat; [exact B2|]. rewrite <- rsum_scal_l. apply rsum_le. intros k Hk.
  rewrite Rabs_mult, (Rmult_comm X). apply Rmult_le_compat; try apply Rabs_pos; [apply HF; assumption|apply Hx, Hk].
Qed.
Lemma wdist_le n MF X Xz z x : (forall k, (k < n)%nat -> 0 <= MF k) -> (forall k, (k < n)%nat -> Rabs (z k) <= Xz) -> (forall k, (k < n)%nat -> Rabs (x k) <= X) ->
  wdist n MF z x <= (X + Xz) * rsum n (fun k => MF k + pow2 (-1000)).
Proof.
  intros H0 Hz Hx. unfold wdist. rewrite <- rsum_scal_l. apply rsum_le. intros k Hk. rewrite (Rmult_comm (X + Xz)). apply Rmult_le_compat_l.
  - assert (A := H0 k Hk). assert (0 < pow2 (-1000)) by apply bpow_gt_0. lra.
  - unfold Rminus. eapply Rle_trans; [apply Rabs_triang|]. rewrite Rabs_Ropp. assert (A := Hz k Hk). assert (B := Hx k Hk). lra.
Qed.
Lemma cut_slack_mono m n M Z Z' : Z <= Z' -> cut_slack m n M Z <= cut_slack m n M Z'.
Proof.
  intros H. unfold cut_slack. apply Rplus_le_compat_l. apply Rmult_le_compat_l; [|exact H].
  apply Rmult_le_pos; [apply Rmult_le_pos; apply pos_INR|apply bpow_ge_0].
Qed.
(** a cut of the oracle at a centre of size X holds (with 8 h to spare) at every point inside the inequality *)
Lemma inside_holds dot m F B (Q Q' : chol b64) x MB MF X Xz g ep h y :
  fdot_any dot -> ext64 dot -> c_n Q = m -> c_semi Q = false ->
  (0 < m)%nat -> (Z.of_nat m <= 2 ^ 20)%Z -> (0 < length F)%nat -> (Z.of_nat (length F) <= 2 ^ 20)%Z -> run_bound (length F) MB MF X <= pow2 1000 ->
  sym m (matR B) -> all_sym m (matsR F) -> lmi_sizes m F B MB MF ->
  0 <= X -> (forall k, (k < length F)%nat -> is_finite (x k) = true /\ Rabs (B2R (x k)) <= X) ->
  lmi64 dot F B (length F) Q x = Ok (Q', Some (g, ep)) ->
  is_finite ep = true -> (forall k, (k < length F)%nat -> is_finite (g k) = true) ->
  0 <= h -> lmi_inside m F B h MB MF X Xz y -> holds64 (length F) h x g ep y.
Proof.
  intros Hd NE En Es H0 Hm HF0 HF HM SB SF HS HX Hx Hc Fe Fg Hh [Hy HP].
  apply (C156_lmi64_cut_valid dot m F B Q Q' x (run_bound (length F) MB MF X) MF g ep h y Hd NE En Es H0 Hm HF0 HF HM SB SF); try assumption.
  - apply sizes_data; assumption.
  - apply HS.
  - apply (psd_by_mono m (run_margin m (length F) h MB MF X Xz)); [|exact HP]. unfold run_margin. apply Rplus_le_compat_r. apply cut_slack_mono.
    apply wdist_le; [apply (mats_le_nn m F MF H0), HS|exact Hy|]. intros k Hk. apply Hx, Hk.
Qed.

Theorem C157_lmi64_nosoln :
  forall h M G X W Xz MB MF dot dotf ltb m F B (Q : chol b64) max_it tol w e tr Q' st' info,
  fdot_any dot -> ext64 dot -> fdot_any dotf -> c_n Q = m -> c_semi Q = false ->
  (0 < m)%nat -> (Z.of_nat m <= 2 ^ 20)%Z -> built64 e -> e_n e = length F ->
  sym m (matR B) -> all_sym m (matsR F) -> lmi_sizes m F B MB MF -> run_bound (length F) MB MF X <= pow2 1000 ->
  cutting_plane_feas (@ell_space b64 (FNumD dotf)) ltb (lmi_omega cut1 dot F B) max_it tol Q (w, e) = Ok (tr, Q', st', info) -> cstatus info = nosoln ->
  single_scaled h M G X W (asked64 (@ell_space b64 (FNumD dotf)) (lmi_omega cut1 dot F B) Q (w, e) tr) ->
  forall z, mem64 (w, e) z -> ~ cube_in (e_n e) (INR (num_iters info) * drift64 (e_n e) h W X) (lmi_inside m F B h MB MF X Xz) z.
Proof.
  intros h M G X W Xz MB MF dot dotf ltb m F B Q max_it tol w e tr Q' st' info Hd NE Hdf En Es H0 Hm HB EF SB SF HSz HM Hrun HN HS.
  apply (C153_feas_nosoln h M G X W dotf ltb (lmi_omega cut1 dot F B) max_it tol Q w e tr Q' st' info (lmi_inside m F B h MB MF X Xz) Hdf HB Hrun HN HS).
  intros x g b s q y Hin Hy. destruct (feas_spec _ _ _ _ _ _ _ _ _ _ _ Hrun) as (HR & _).
  assert (KI : forall o x o' c, c_n o = m /\ c_semi o = false -> lmi_omega cut1 dot F B o x = Ok (o', c) -> c_n o' = m /\ c_semi o' = false).
  { intros o x0 o' c [K1 K2] Ho. unfold lmi_omega in Ho. apply bind_ok in Ho as ([Q1 c1] & Ho & Eo). assert (Q1 = o') by congruence. subst Q1.
    destruct (lmi_keep _ _ _ _ _ _ _ _ Ho). split; congruence. }
  destruct (feas_events dotf _ _ KI _ _ _ _ _ HR (conj En Es) _ _ _ _ Hin) as (st1 & o1 & o2 & HA & EN & Ex & [I1 I2] & Ho).
  destruct (HS st1 _ HA) as (g1 & b1 & Eg & S1 & _). assert (g1 = g) by congruence. assert (b1 = b) by congruence. subst g1 b1. clear Eg.
  destruct (scaled_proper _ _ _ _ _ _ _ S1) as (_ & Hh & HX & _). destruct st1 as [w1 e1]. cbn [fst snd] in *.
  destruct S1 as ([N1 N2] & _ & Sg & Sx & _ & [Fb _] & _). rewrite EN, EF in *.
  unfold lmi_omega in Ho. apply bind_ok in Ho as ([Q1 [[g2 b2]|]] & Ho & Eo); [|discriminate Eo]. cbn [option_map fst snd] in Eo.
  assert (g2 = g) by congruence. assert (b2 = b) by congruence. subst g2 b2.
  apply (inside_holds dot m F B o1 Q1 x MB MF X Xz g b h y); try assumption; try lia; try lra.
  - rewrite Ex. exact Sx.
  - intros k Hk. apply Sg, Hk.
Qed.
Print Assumptions C157_lmi64_nosoln.

(** ** C158: nosoln of the optimising driver over ell and the two matrix inequalities of tests/test_lmi.py *)
Definition t_fin (t : option b64) : Prop := match t with Some v => is_finite v = true | None => True end.
Definition t_le (a b : option b64) : Prop :=
  match b with None => True | Some v => match a with Some u => B2R u <= B2R v | None => False end end.
Lemma t_le_refl a : t_le a a.
Proof. destruct a; cbn; [lra|exact I]. Qed.
Lemma t_le_trans a b c : t_le a b -> t_le b c -> t_le a c.
Proof. destruct a, b, c; cbn; try tauto; lra. Qed.

Section Obj.
Variables (dot : nat -> (nat -> b64) -> (nat -> b64) -> b64) (n : nat) (c x : nat -> b64) (Cb : nat -> R) (X : R).
Hypothesis Hd : fdot_any dot.
Hypothesis Hn : (Z.of_nat n <= 2 ^ 20)%Z.
Hypothesis HX : 0 <= X.
Hypothesis Hc : forall k, (k < n)%nat -> is_finite (c k) = true /\ Rabs (B2R (c k)) <= Cb k.
Hypothesis HC : rsum n Cb * X <= pow2 1000.
Hypothesis Hx : forall k, (k < n)%nat -> is_finite (x k) = true /\ Rabs (B2R (x k)) <= X.
Let E0 := INR n * pow2 (-52) * (rsum n Cb * X) + INR n * pow2 (-1073).
Lemma abs_sum : rsum n (fun k => Rabs (B2R (c k) * B2R (x k))) <= rsum n Cb * X.
Proof.
  rewrite (Rmult_comm (rsum n Cb)), <- rsum_scal_l. apply rsum_le. intros k Hk. rewrite Rabs_mult, (Rmult_comm X).
  apply Rmult_le_compat; try apply Rabs_pos; [apply Hc, Hk|apply Hx, Hk].
Qed.
Lemma obj_value : is_finite (dot n c x) = true /\ Rabs (B2R (dot n c x) - S_LinAlg.dot n (vecR c) (vecR x)) <= E0.
Proof.
  assert (A := abs_sum).
  destruct (fdot_bounded dot n c x Hd) as [F Er]; [lia|intros k Hk; split; [apply Hc, Hk|apply Hx, Hk]|lra|].
  split; [exact F|]. eapply Rle_trans; [exact Er|]. unfold E0. apply Rplus_le_compat_r. apply Rmult_le_compat_l; [|exact A].
  apply Rmult_le_pos; [apply pos_INR|apply bpow_ge_0].
Qed.
Lemma dot_abs y Xz : (forall k, (k < n)%nat -> Rabs (y k) <= Xz) -> Rabs (S_LinAlg.dot n (vecR c) y) <= rsum n Cb * Xz.
Proof.
  intros Hy. eapply Rle_trans; [apply rsum_Rabs|]. rewrite (Rmult_comm (rsum n Cb)), <- rsum_scal_l. apply rsum_le. intros k Hk. rewrite Rabs_mult, (Rmult_comm Xz).
  apply Rmult_le_compat; try apply Rabs_pos; [apply Hc, Hk|apply Hy, Hk].
Qed.
Lemma cb_nn : 0 <= rsum n Cb.
Proof. apply rsum_nonneg. intros k Hk. eapply Rle_trans; [apply Rabs_pos|apply Hc, Hk]. Qed.
Lemma e0_nn : 0 <= E0.
Proof.
  assert (A := cb_nn). assert (B := pos_INR n). unfold E0. apply Rplus_le_le_0_compat; [|apply Rmult_le_pos; [exact B|apply bpow_ge_0]].
  apply Rmult_le_pos; [apply Rmult_le_pos; [exact B|apply bpow_ge_0]|apply Rmult_le_pos; assumption].
Qed.
Variables (h Xz : R) (y : nat -> R) (t' : b64).
Hypothesis Hh : 0 <= h <= / 1024.
Hypothesis Hy : forall k, (k < n)%nat -> Rabs (y k) <= Xz.
Hypothesis HXz : 0 <= Xz.
Hypothesis Hb : S_LinAlg.dot n (vecR c) y <= B2R t' - obj_slack n h (rsum n Cb) X Xz.
Lemma slack_parts : obj_slack n h (rsum n Cb) X Xz = 2 * E0 + (8 * h + pow2 (-52)) * (rsum n Cb * (X + Xz)) /\ 0 <= (8 * h + pow2 (-52)) * (rsum n Cb * (X + Xz)).
Proof.
  split; [reflexivity|]. assert (A := cb_nn). assert (0 < pow2 (-52)) by apply bpow_gt_0. apply Rmult_le_pos; [lra|]. apply Rmult_le_pos; lra.
Qed.
Lemma dot_minus : S_LinAlg.dot n (vecR c) (fun k => y k - vecR x k) = S_LinAlg.dot n (vecR c) y - S_LinAlg.dot n (vecR c) (vecR x).
Proof. unfold S_LinAlg.dot. rewrite <- rsum_minus. apply rsum_ext. intros. ring. Qed.
(** the cut (c, 0) that goes with a new best value *)
Lemma obj_holds0 : B2R t' <= B2R (dot n c x) -> holds64 n h x c fzero y.
Proof.
  intros Ht. unfold holds64. change (fun i => B2R (c i)) with (vecR c). change (fun i => y i - B2R (x i)) with (fun k => y k - vecR x k). rewrite dot_minus.
  destruct obj_value as [_ V]. apply Rabs_le_inv in V. destruct slack_parts as [SE S0]. assert (E := e0_nn). change (B2R fzero) with 0. lra.
Qed.
(** the cut (c, f0 - t) *)
Lemma obj_holds1 t : (0 < n)%nat -> is_finite t = true -> B2R t' <= B2R t -> Bltb fzero (fsub (dot n c x) t) = true -> is_finite (fsub (dot n c x) t) = true ->
  holds64 n h x c (fsub (dot n c x) t) y.
Proof.
  intros Hn0 Ft Ht Hp Ff. destruct obj_value as [F V]. apply Rabs_le_inv in V. destruct slack_parts as [SE S0]. assert (E := e0_nn).
  apply (fsub_pos _ _ F Ft) in Hp. destruct (fsub_fin _ _ Ff) as (_ & _ & Ef). assert (Er := rnd_rel (B2R (dot n c x) - B2R t)). rewrite <- Ef in Er. clear Ef.
  unfold holds64. change (fun i => B2R (c i)) with (vecR c). change (fun i => y i - B2R (x i)) with (fun k => y k - vecR x k). rewrite dot_minus.
  set (u := B2R (dot n c x) - B2R t) in *. assert (U0 : 0 < u) by (unfold u; lra). rewrite (Rabs_right u) in Er by lra. apply Rabs_le_inv in Er.
  assert (D1 := dot_abs y Xz Hy). assert (D2 := dot_abs (vecR x) X (fun k Hk => proj2 (Hx k Hk))). apply Rabs_le_inv in D1. apply Rabs_le_inv in D2.
  assert (UB : u <= rsum n Cb * (X + Xz) + E0) by (unfold u; lra).
  assert (P52 : pow2 (-52) = 2 * pow2 (-53)) by (change 2 with (pow2 1); rewrite <- bpow_plus; reflexivity).
  assert (P53 : 0 < pow2 (-53)) by apply bpow_gt_0. assert (P53' : pow2 (-53) <= / 1024) by (change (/ 1024) with (pow2 (-10)); apply bpow_le; lia).
  assert (K1 : B2R (fsub (dot n c x) t) * (1 + 8 * h) <= (u + pow2 (-53) * u + pow2 (-1075)) * (1 + 8 * h)) by (apply Rmult_le_compat_r; lra).
  assert (K5 : pow2 (-1075) * (1 + 8 * h) <= pow2 (-1075) * 2) by (apply Rmult_le_compat_l; [apply bpow_ge_0|lra]).
  assert (K6 : 4 * pow2 (-1075) <= E0).
  { assert (N1 : 1 <= INR n) by (apply (le_INR 1); lia). assert (0 <= INR n * pow2 (-52) * (rsum n Cb * X)).
    { apply Rmult_le_pos; [apply Rmult_le_pos; [lra|apply bpow_ge_0]|apply Rmult_le_pos; [apply cb_nn|exact HX]]. }
    assert (P : pow2 (-1073) = 4 * pow2 (-1075)) by (change (-1073)%Z with (2 + -1075)%Z; rewrite bpow_plus; reflexivity).
    assert (1 * pow2 (-1073) <= INR n * pow2 (-1073)) by (apply Rmult_le_compat_r; [apply bpow_ge_0|exact N1]). unfold E0. lra. }
  assert (K2 : (u + pow2 (-53) * u) * (1 + 8 * h) <= u + (8 * h + pow2 (-52)) * u).
  { rewrite P52. assert (pow2 (-53) * u * (8 * h) <= pow2 (-53) * u * 1) by (apply Rmult_le_compat_l; [apply Rmult_le_pos; lra|lra]). lra. }
  assert (K3 : (8 * h + pow2 (-52)) * u <= (8 * h + pow2 (-52)) * (rsum n Cb * (X + Xz) + E0)) by (apply Rmult_le_compat_l; lra).
  assert (K4 : (8 * h + pow2 (-52)) * E0 <= / 2 * E0) by (apply Rmult_le_compat_r; lra).
  unfold u in *. lra.
Qed.
End Obj.

Theorem C158_lmi_opt64_nosoln :
  forall h M G X W Xz MB1 MB2 MF1 MF2 Cb dot dotf ltb tneq c m1 m2 F1 F2 B1 B2 (Q1 Q2 : chol b64) max_it tol w e t tr o' st' xb t' info,
  fdot_any dot -> ext64 dot -> fdot_any dotf -> c_n Q1 = m1 -> c_semi Q1 = false -> c_n Q2 = m2 -> c_semi Q2 = false ->
  (0 < m1)%nat -> (0 < m2)%nat -> (Z.of_nat m1 <= 2 ^ 20)%Z -> (Z.of_nat m2 <= 2 ^ 20)%Z ->
  built64 e -> e_n e = length F1 -> length F2 = length F1 ->
  sym m1 (matR B1) -> sym m2 (matR B2) -> all_sym m1 (matsR F1) -> all_sym m2 (matsR F2) ->
  lmi_sizes m1 F1 B1 MB1 MF1 -> lmi_sizes m2 F2 B2 MB2 MF2 ->
  run_bound (length F1) MB1 MF1 X <= pow2 1000 -> run_bound (length F1) MB2 MF2 X <= pow2 1000 ->
  (forall k, (k < length F1)%nat -> is_finite (c k) = true /\ Rabs (B2R (c k)) <= Cb k) -> rsum (length F1) Cb * X <= pow2 1000 ->
  match t with Some v => is_finite v = true | None => True end -> 0 <= Xz ->
  cutting_plane_dc (@ell_space b64 (FNumD dotf)) ltb tneq (lmi_opt64 cut1 dot c F1 F2 B1 B2) max_it tol (Q1, Q2) (w, e) t = Ok (tr, o', st', (xb, t', info)) ->
  cstatus info = nosoln ->
  single_scaled h M G X W (asked64_dc (@ell_space b64 (FNumD dotf)) (lmi_opt64 cut1 dot c F1 F2 B1 B2) (Q1, Q2) (w, e) t tr) ->
  forall z, mem64 (w, e) z ->
  ~ cube_in (e_n e) (INR (num_iters info) * drift64 (e_n e) h W X)
      (fun y => lmi_inside m1 F1 B1 h MB1 MF1 X Xz y /\ lmi_inside m2 F2 B2 h MB2 MF2 X Xz y /\
                beats (length F1) c (obj_slack (length F1) h (rsum (length F1) Cb) X Xz) t' y) z.
Proof.
  intros h M G X W Xz MB1 MB2 MF1 MF2 Cb dot dotf ltb tneq c m1 m2 F1 F2 B1 B2 Q1 Q2 max_it tol w e t tr o' st' xb t' info
    Hd NE Hdf En1 Es1 En2 Es2 H01 H02 Hm1 Hm2 HB EF L2 SB1 SB2 SF1 SF2 Z1 Z2 RB1 RB2 Hc HC Ht HXz Hrun HN HS.
  match goal with |- forall z, _ -> ~ cube_in _ _ ?K0 z => set (K := K0) end.
  apply (C153_dc_nosoln h M G X W dotf ltb tneq (lmi_opt64 cut1 dot c F1 F2 B1 B2) max_it tol (Q1, Q2) w e t tr o' st' xb t' info K Hdf HB Hrun HN HS).
  destruct (dc_spec _ _ _ _ _ _ _ _ _ _ _ _ _ _ _ Hrun) as (HR & _).
  set (P := fun x : nat -> b64 => (Z.of_nat (length F1) <= 2 ^ 20)%Z /\ 0 <= X /\ forall k, (k < length F1)%nat -> is_finite (x k) = true /\ Rabs (B2R (x k)) <= X).
  set (I := fun (o : chol b64 * chol b64) t => chols m1 m2 o /\ t_fin t).
  assert (ST : forall o x t0 o1 cu t1, I o t0 -> P x -> lmi_opt64 cut1 dot c F1 F2 B1 B2 o x t0 = Ok (o1, (cu, t1)) -> I o1 (best t0 t1) /\ t_le (best t0 t1) t0).
  { intros o x t0 o1 cu t1 [I1 I2] (N2 & HX & Hx) Ho. destruct (lmi_opt64_step _ _ _ _ _ _ _ _ _ _ _ _ _ _ _ I1 Ho) as [J1 J2].
    destruct t1 as [s|]; [|cbn [best]; split; [split; assumption|apply t_le_refl]].
    destruct (J2 s eq_refl) as (-> & J3 & _). cbn [best].
    destruct (obj_value dot (length F1) c x Cb X Hd N2 Hc HC Hx) as [F _].
    split; [split; [exact J1|exact F]|]. destruct t0 as [v|]; [|exact Logic.I]. cbn [t_le t_fin] in *.
    apply Rnot_lt_le. intros L. apply (fsub_pos _ _ F I2) in L. congruence. }
  assert (PA : forall st1 cu, asked64_dc (@ell_space b64 (FNumD dotf)) (lmi_opt64 cut1 dot c F1 F2 B1 B2) (Q1, Q2) (w, e) t tr st1 cu ->
     e_n (snd st1) = length F1 -> P (fst st1 (e_xc (snd st1)))).
  { intros st1 cu HA EN. destruct (HS st1 cu HA) as (g & b & _ & S1 & _). destruct (scaled_proper _ _ _ _ _ _ _ S1) as (_ & _ & HX & _).
    destruct st1 as [w1 e1]. cbn [fst snd] in *. destruct S1 as ([N1 N2] & _ & _ & Sx & _). rewrite EN in *. split; [exact N2|]. split; assumption. }
  assert (PN : forall st1 cu, asked64_dc (@ell_space b64 (FNumD dotf)) (lmi_opt64 cut1 dot c F1 F2 B1 B2) (Q1, Q2) (w, e) t tr st1 cu -> e_n (snd st1) = length F1).
  { intros st1 cu (u1 & ev & u2 & o2 & t2 & _ & _ & Hr). rewrite <- EF. change e with (snd (w, e)). clear - Hr.
    remember (w, e) as st eqn:Est. clear Est. induction Hr as [|? ? ? ? ? ? ? ? ? ? ? ? ? E U Hr IH]; [reflexivity|]. rewrite IH. exact (update_n64 dotf _ _ _ _ U). }
  destruct (dc_events dotf (lmi_opt64 cut1 dot c F1 F2 B1 B2) I P t_le (fun _ t0 _ => t_le_refl t0) t_le_trans ST _ _ _ _ _ _ _ HR) as [_ HE].
  { split; [repeat split; assumption|exact Ht]. }
  { intros st1 cu HA. apply (PA st1 cu HA), (PN st1 cu HA). }
  intros ev g b y Hin Ec (Y1 & Y2 & Y3). destruct (HE ev Hin) as (st1 & o1 & o2 & t0 & HA & EN & Ex & [I1 I2] & Ho & R1 & R2).
  destruct (PA st1 _ HA (PN st1 _ HA)) as (N2 & HX & Hx). rewrite <- Ex in Hx.
  destruct (HS st1 _ HA) as (g1 & b1 & Eg & S1 & _). assert (g1 = g) by congruence. assert (b1 = b) by congruence. subst g1 b1. clear Eg.
  destruct (scaled_proper _ _ _ _ _ _ _ S1) as (_ & Hh & _ & _). destruct st1 as [w1 e1]. cbn [fst snd] in *.
  destruct S1 as ([N1 _] & _ & Sg & _ & _ & [Fb _] & _ & _ & _ & _ & _ & _ & Hh1). rewrite EN, EF in *. rewrite Ec in Ho.
  destruct o1 as [P1 P2]. destruct I1 as (A1 & A2 & A3 & A4). cbn [fst snd] in *. unfold lmi_opt64, lmi_opt_call in Ho.
  apply bind_ok in Ho as ([o3 [cu s3]] & Ho & Eo). assert (Eu : cut1 cu = (g, BScalar b)) by congruence. assert (Es : s3 = d_t1 ev) by congruence. clear Eo. rewrite <- Es in *. clear Es.
  destruct cu as [gu bu]. cbn [fst snd] in Eu. assert (gu = g) by congruence. assert (bu = b) by congruence. subst gu bu. clear Eu.
  apply bind_ok in Ho as ([Q1' c1] & E1 & Ho). destruct c1 as [[gc bc]|].
  { assert (gc = g) by congruence. assert (bc = b) by congruence. subst gc bc.
    apply (inside_holds dot m1 F1 B1 P1 Q1' (d_x ev) MB1 MF1 X Xz g b h y); try assumption; try lia; try lra. intros k Hk. apply Sg, Hk. }
  apply bind_ok in Ho as ([Q2' c2] & E2 & Ho). destruct c2 as [[gc bc]|].
  { assert (gc = g) by congruence. assert (bc = b) by congruence. subst gc bc. rewrite <- L2 in *.
    apply (inside_holds dot m2 F2 B2 P2 Q2' (d_x ev) MB2 MF2 X Xz g b h y); try assumption; try lia; try lra. intros k Hk. apply Sg, Hk. }
  destruct Y1 as [Hy _].
  cbn [ndot nltb nsub nzero FNumD] in Ho. destruct t0 as [t0|].
  - match type of Ho with (if ?bb then _ else _) = _ => destruct bb eqn:Bw end.
    + assert (c = g) by congruence. assert (fsub (dot (length F1) c (d_x ev)) t0 = b) by congruence. subst g b.
      cbn [t_le] in R2. destruct t' as [tf|]; [|destruct R2]. cbn [beats] in Y3.
      apply (obj_holds1 dot (length F1) c (d_x ev) Cb X) with (Xz := Xz) (t' := tf); try assumption; try lia. lra.
    + assert (c = g) by congruence. assert (fzero = b) by congruence. assert (s3 = Some (Some (dot (length F1) c (d_x ev)))) by congruence. subst g b s3.
      cbn [best t_le] in R1. destruct t' as [tf|]; [|destruct R1]. cbn [beats] in Y3.
      apply (obj_holds0 dot (length F1) c (d_x ev) Cb X) with (Xz := Xz) (t' := tf); try assumption. lra.
  - assert (c = g) by congruence. assert (fzero = b) by congruence. assert (s3 = Some (Some (dot (length F1) c (d_x ev)))) by congruence. subst g b s3.
    cbn [best t_le] in R1. destruct t' as [tf|]; [|destruct R1]. cbn [beats] in Y3.
    apply (obj_holds0 dot (length F1) c (d_x ev) Cb X) with (Xz := Xz) (t' := tf); try assumption. lra.
Qed.
Print Assumptions C158_lmi_opt64_nosoln.

(** Non-vacuity.  Data: F = (diag(0,1), 0) with B = diag(1,-4) (C156, C157) or B = diag(1,1) (C158), from the unit
    disc; at its centre the first matrix is indefinite, and the cut says x0 + 4 <= 0. *)
Definition exF5 : list (nat -> nat -> b64) := [mat2 fzero fzero (fmake 1 0); mat2 fzero fzero fzero].
Definition exB5 : nat -> nat -> b64 := mat2 (fmake 1 0) fzero (fmake (-4) 0).
Definition exB6 : nat -> nat -> b64 := mat2 (fmake 1 0) fzero (fmake 1 0).
Definition exMF (k : nat) : R := if (k =? 0)%nat then 1 else 0.
Definition x5 : nat -> b64 := fun _ => fzero.
Lemma r1 : B2R (fmake 1 0) = 1. Proof. rewrite fmakeR by lia. change (pow2 0) with 1. ring. Qed.
Lemma r4 : B2R (fmake 4 0) = 4. Proof. rewrite fmakeR by lia. change (pow2 0) with 1. ring. Qed.
Lemma rm4 : B2R (fmake (-4) 0) = -4. Proof. rewrite fmakeR by lia. change (pow2 0) with 1. ring. Qed.
Lemma sym_mat2 a b d : sym 2 (matR (mat2 a b d)).
Proof. intros i j Hi Hj. destruct i as [|[|i]], j as [|[|j]]; try lia; reflexivity. Qed.
Lemma exF5_sym : all_sym 2 (matsR exF5).
Proof. intros Fk [<-|[<-|[]]]; apply sym_mat2. Qed.
Lemma ex_sizes B b11 : (B = exB5 /\ b11 = 4) \/ (B = exB6 /\ b11 = 1) -> lmi_sizes 2 exF5 B 4 exMF.
Proof.
  intros HB. split.
  - intros i j Hi Hj. split; [|split].
    + destruct HB as [[-> _]|[-> _]]; (destruct i as [|[|i]], j as [|[|j]]; try lia; reflexivity).
    + destruct HB as [[-> _]|[-> _]]; (destruct i as [|[|i]], j as [|[|j]]; try lia); unfold matR, exB5, exB6, mat2;
        rewrite ?r1, ?rm4; change (B2R fzero) with 0; apply Rabs_le; lra.
    + intros Fk [<-|[<-|[]]]; (destruct i as [|[|i]], j as [|[|j]]; try lia; reflexivity).
  - intros k i j Hk Hi Hj. rewrite nth_matsR. unfold exMF. destruct k as [|[|k]]; [| |cbn in Hk; lia]; cbn [Nat.eqb nth exF5];
      (destruct i as [|[|i]], j as [|[|j]]; try lia); unfold mat2; rewrite ?r1; change (B2R fzero) with 0; apply Rabs_le; lra.
Qed.
Lemma ex_bound : run_bound 2 4 exMF 1 = 5.
Proof. unfold run_bound, exMF. cbn [rsum Nat.eqb]. ring. Qed.
Lemma ex_margin : run_margin 2 2 (pow2 (-40)) 4 exMF 1 10 <= / 2.
Proof.
  unfold run_margin. rewrite ex_bound. unfold cut_slack, exMF. cbn [rsum Nat.eqb]. change (INR 2) with 2.
  assert (A : pow2 (-1000) <= / 1024) by (change (/ 1024) with (pow2 (-10)); apply bpow_le; lia).
  assert (A1 : pow2 (-46) <= / 1048576) by (change (/ 1048576) with (pow2 (-20)); apply bpow_le; lia).
  assert (A2 : pow2 (-50) <= / 1048576) by (change (/ 1048576) with (pow2 (-20)); apply bpow_le; lia).
  assert (A3 : pow2 (-40) <= / 1048576) by (change (/ 1048576) with (pow2 (-20)); apply bpow_le; lia).
  assert (0 < pow2 (-1000)) by apply bpow_gt_0. assert (0 < pow2 (-46)) by apply bpow_gt_0. assert (0 < pow2 (-50)) by apply bpow_gt_0. assert (0 < pow2 (-40)) by apply bpow_gt_0.
  assert (B1 : pow2 (-46) * (5 + pow2 (-1000)) <= / 1048576 * 6) by (apply Rmult_le_compat; lra).
  assert (B2 : pow2 (-50) * ((1 + 10) * (0 + (1 + pow2 (-1000)) + (0 + pow2 (-1000)))) <= / 1048576 * (11 * 3)) by (apply Rmult_le_compat; lra).
  assert (B3 : pow2 (-40) * (5 + pow2 (-1000)) <= / 1048576 * 6) by (apply Rmult_le_compat; lra). lra.
Qed.
Lemma ex_aff B y : aff_mat (matR B) (matsR exF5) y = fun i j => matR B i j - (0 + B2R (mat2 fzero fzero (fmake 1 0) i j) * y 0%nat + B2R (mat2 fzero fzero fzero i j) * y 1%nat).
Proof. reflexivity. Qed.
Lemma ex_inside B b y : (B = exB5 /\ b = -4) \/ (B = exB6 /\ b = 1) -> y 0%nat <= b - 1 -> Rabs (y 0%nat) <= 10 -> Rabs (y 1%nat) <= 10 -> lmi_inside 2 exF5 B (pow2 (-40)) 4 exMF 1 10 y.
Proof.
  intros HB H0 H1 H2. split; [intros k Hk; destruct k as [|[|k]]; [exact H1|exact H2|cbn in Hk; lia]|].
  apply (psd_by_mono 2 (/ 2)); [exact ex_margin|]. intros v. rewrite ex_aff, bf2. unfold S_LinAlg.dot. cbn [rsum]. unfold matR.
  destruct HB as [[-> ->]|[-> ->]]; unfold exB5, exB6, mat2; rewrite ?r1, ?rm4; change (B2R fzero) with 0;
    assert (V0 := Rle_0_sqr (v 0%nat)); assert (V1 := Rle_0_sqr (v 1%nat)); unfold Rsqr in *; nra.
Qed.
Lemma scaled_ext h M G X w e g g' b : e_n e = 2%nat -> g 0%nat = g' 0%nat -> g 1%nat = g' 1%nat -> scaled64 h M G X (w, e) g' b -> scaled64 h M G X (w, e) g b.
Proof.
  unfold scaled64. cbv zeta. intros En E0 E1. rewrite En, !bf2, E0, E1. intros (A1 & A2 & A3 & A4). split; [exact A1|]. split; [exact A2|]. split; [|exact A4].
  intros i Hi. destruct i as [|[|i]]; [rewrite E0|rewrite E1|lia]; apply A3; lia.
Qed.
Definition lmi_info (r : res (chol b64 * option (@gcut b64))) : option (list spec_float) :=
  match r with Ok (_, Some (g, ep)) => Some [B2SF (g 0%nat); B2SF (g 1%nat); B2SF ep] | _ => None end.
Lemma ex_call : exists Q' g, lmi64 fdot_seq exF5 exB5 (length exF5) (@chol_init b64 FNum 2) x5 = Ok (Q', Some (g, fmake 4 0)) /\ g 0%nat = fmake 1 0 /\ g 1%nat = fzero.
Proof.
  assert (X : lmi_info (lmi64 fdot_seq exF5 exB5 (length exF5) (@chol_init b64 FNum 2) x5) = Some (map B2SF [fmake 1 0; fzero; fmake 4 0])) by (vm_compute; reflexivity).
  revert X. destruct (lmi64 fdot_seq exF5 exB5 (length exF5) (@chol_init b64 FNum 2) x5) as [[Q' [[g ep]|]]|]; try discriminate. unfold lmi_info. cbn [map]. intros X.
  assert (I : forall x y : b64, B2SF x = B2SF y -> x = y) by (intros x y; apply B2SF_inj).
  assert (E0 : g 0%nat = fmake 1 0) by (apply I; congruence). assert (E1 : g 1%nat = fzero) by (apply I; congruence). assert (E2 : ep = fmake 4 0) by (apply I; congruence).
  exists Q', g. subst ep. auto.
Qed.
Example C156_ex : exists Q' g ep,
  fdot_any fdot_seq /\ ext64 fdot_seq /\ sym 2 (matR exB5) /\ all_sym 2 (matsR exF5) /\ lmi_data 2 exF5 exB5 x5 5 /\ mats_le 2 exF5 exMF /\
  lmi64 fdot_seq exF5 exB5 (length exF5) (@chol_init b64 FNum 2) x5 = Ok (Q', Some (g, ep)) /\
  is_finite ep = true /\ (forall k, (k < length exF5)%nat -> is_finite (g k) = true) /\ B2R ep = 4 /\
  psd_by 2 (cut_slack 2 2 5 (wdist 2 exMF (fun k => if (k =? 0)%nat then -6 else 0) (vecR x5)) + 48 * pow2 (-40) * (INR 2 * (5 + pow2 (-1000))))
    (aff_mat (matR exB5) (matsR exF5) (fun k => if (k =? 0)%nat then -6 else 0)).
Proof.
  destruct ex_call as (Q' & g & E & E0 & E1). exists Q', g, (fmake 4 0).
  assert (HS := ex_sizes exB5 4 (or_introl (conj eq_refl eq_refl))).
  split; [exact fnum_dot_any|]. split; [exact fdot_seq_ext|]. split; [apply sym_mat2|]. split; [exact exF5_sym|]. split.
  { rewrite <- ex_bound. apply (sizes_data 2 exF5 exB5 4 exMF 1 x5); [lia|exact HS|lra|]. intros k _. split; [reflexivity|]. change (Rabs 0 <= 1). rewrite Rabs_R0. lra. }
  split; [apply HS|]. split; [exact E|]. split; [reflexivity|]. split; [|split; [exact r4|]].
  - intros k Hk. destruct k as [|[|k]]; [rewrite E0; reflexivity|rewrite E1; reflexivity|cbn in Hk; lia].
  - set (y := fun k => if (k =? 0)%nat then -6 else 0).
    destruct (ex_inside exB5 (-4) y (or_introl (conj eq_refl eq_refl))) as [Hy HP]; [unfold y; cbn; lra|apply Rabs_le; unfold y; cbn; lra|apply Rabs_le; unfold y; cbn; lra|].
    apply (psd_by_mono _ (run_margin 2 2 (pow2 (-40)) 4 exMF 1 10)); [|exact HP]. unfold run_margin. rewrite ex_bound. apply Rplus_le_compat_r, cut_slack_mono.
    apply wdist_le; [intros k _; unfold exMF; destruct (k =? 0)%nat; lra|exact Hy|]. intros k _. change (Rabs 0 <= 1). rewrite Rabs_R0. lra.
Qed.
(** lmi0_oracle: F(x) = x0 diag(0,1) at x = (-4, 0) *)
Definition x6 : nat -> b64 := fun k => if (k =? 0)%nat then fmake (-4) 0 else fzero.
Example C156_ex0 : lmi_info (lmi0_64 fdot_seq [mat2 (fmake 1 0) fzero (fmake 1 0); mat2 fzero fzero fzero] 2 (@chol_init b64 FNum 2) x6)
  = Some (map B2SF [fmake (-1) 0; Bopp fzero; fmake 4 0]).
Proof. vm_compute. reflexivity. Qed.

Lemma disc_scaled e g : e_n e = 2%nat -> e_kappa e = fmake 1 0 ->
  e_Q e 0%nat 0%nat = fmake 1 0 -> e_Q e 0%nat 1%nat = fzero -> e_Q e 1%nat 0%nat = fzero -> e_Q e 1%nat 1%nat = fmake 1 0 ->
  g 0%nat = fmake 1 0 -> g 1%nat = fzero ->
  scaled64 (pow2 (-40)) 1 1 1 (fun _ _ => fzero, e) g (fmake 4 0) /\ mem64 (fun _ _ => fzero, e) (fun _ => 0).
Proof.
  intros En X1 X2 X3 X4 X5 E0 E1. split.
  - apply scaled_ext with (g' := g10); try assumption.
    apply scaled_diag2 with (q0 := fmake 1 0) (q1 := fmake 1 0); rewrite ?X1; try assumption; try reflexivity; try (rewrite ?r1, ?r4; lra).
    intros i Hi. split; [reflexivity|]. change (Rabs 0 <= 1). rewrite Rabs_R0. lra.
  - unfold mem64. rewrite En. exists (fun _ => 0). split.
    + intros i Hi. unfold mvr, S_LinAlg.dot. cbn [rsum]. change (B2R fzero) with 0. lra.
    + rewrite bf2, X1, r1. lra.
Qed.
Definition ex157_info (w : memory b64) (x : res (ell b64)) : option (nat * list spec_float * list spec_float * status) :=
  match x with
  | Ok e => match lmi64 fdot_seq exF5 exB5 (length exF5) (@chol_init b64 FNum 2) x5 with
            | Ok (_, Some (g, ep)) =>
                match @ell_update b64 (FNumD fdot_seq) (w, e) (g, BScalar ep) with
                | Ok (_, (s, _)) => Some (e_n e, ell2_of e w, [B2SF (g 0%nat); B2SF (g 1%nat); B2SF ep], s)
                | Raise _ => None end
            | _ => None end
  | Raise _ => None end.
Example C157_ex : exists (e : ell b64) w tr Q' st' info z y,
  fdot_any fdot_seq /\ ext64 fdot_seq /\ built64 e /\ e_n e = length exF5 /\ sym 2 (matR exB5) /\ all_sym 2 (matsR exF5) /\
  lmi_sizes 2 exF5 exB5 4 exMF /\ run_bound (length exF5) 4 exMF 1 <= pow2 1000 /\
  cutting_plane_feas (@ell_space b64 (FNumD fdot_seq)) (fun _ _ => false) (lmi_omega cut1 fdot_seq exF5 exB5) 5 fzero (@chol_init b64 FNum 2) (w, e) = Ok (tr, Q', st', info) /\
  cstatus info = nosoln /\
  single_scaled (pow2 (-40)) 1 1 1 2 (asked64 (@ell_space b64 (FNumD fdot_seq)) (lmi_omega cut1 fdot_seq exF5 exB5) (@chol_init b64 FNum 2) (w, e) tr) /\
  mem64 (w, e) z /\ lmi_inside 2 exF5 exB5 (pow2 (-40)) 4 exMF 1 10 y.
Proof.
  set (w := (fun (_ : loc) (_ : nat) => fzero) : memory b64).
  assert (X : ex157_info w (@ell_init b64 FNum (VScalar (fmake 1 0)) 2 0%nat) =
    Some (2%nat, map B2SF [fmake 1 0; fmake 1 0; fzero; fzero; fmake 1 0; fzero; fzero], map B2SF [fmake 1 0; fzero; fmake 4 0], nosoln)) by (vm_compute; reflexivity).
  revert X. destruct (@ell_init b64 FNum (VScalar (fmake 1 0)) 2 0%nat) as [e|] eqn:E; [|discriminate]. unfold ex157_info.
  destruct (lmi64 fdot_seq exF5 exB5 (length exF5) (@chol_init b64 FNum 2) x5) as [[Q' [[g ep]|]]|] eqn:L; try discriminate.
  match goal with |- match ?u with Ok _ => _ | Raise _ => _ end = _ -> _ => destruct u as [[st2 [s tsq]]|] eqn:U; [|discriminate] end. intros X.
  unfold ell2_of in X. cbn [map] in X.
  assert (En : e_n e = 2%nat) by congruence. assert (Es : s = nosoln) by congruence.
  assert (I : forall x y : b64, B2SF x = B2SF y -> x = y) by (intros x y; apply B2SF_inj).
  assert (X1 : e_kappa e = fmake 1 0) by (apply I; congruence).
  assert (X2 : e_Q e 0%nat 0%nat = fmake 1 0) by (apply I; congruence).
  assert (X3 : e_Q e 0%nat 1%nat = fzero) by (apply I; congruence).
  assert (X4 : e_Q e 1%nat 0%nat = fzero) by (apply I; congruence).
  assert (X5 : e_Q e 1%nat 1%nat = fmake 1 0) by (apply I; congruence).
  assert (G0 : g 0%nat = fmake 1 0) by (apply I; congruence).
  assert (G1 : g 1%nat = fzero) by (apply I; congruence).
  assert (G2 : ep = fmake 4 0) by (apply I; congruence). clear X I. subst s ep.
  destruct (disc_scaled e g En X1 X2 X3 X4 X5 G0 G1) as [S1 M1].
  set (tr := [(x5, Some ((g, BScalar (fmake 4 0)), nosoln, tsq))]).
  exists e, w, tr, Q', st2, {| feasible := false; num_iters := 1; cstatus := nosoln |}, (fun _ => 0), (fun k => if (k =? 0)%nat then -6 else 0).
  split; [exact fnum_dot_any|]. split; [exact fdot_seq_ext|]. split; [exists (VScalar (fmake 1 0)), 0%nat, e; rewrite En; split; [exact E|auto]|].
  split; [exact En|]. split; [apply sym_mat2|]. split; [exact exF5_sym|]. split; [exact (ex_sizes exB5 4 (or_introl (conj eq_refl eq_refl)))|].
  split; [change (length exF5) with 2%nat; rewrite ex_bound; assert (8 <= pow2 1000) by (change 8 with (pow2 3); apply bpow_le; lia); lra|].
  split.
  { unfold cutting_plane_feas. cbn [feas_loop]. unfold lmi_omega. change (centre (@ell_space b64 (FNumD fdot_seq)) (w, e)) with x5. rewrite L. cbn [bind option_map fst snd sp_update ell_space]. rewrite U.
    cbn [bind status_eqb negb]. reflexivity. }
  split; [reflexivity|]. split.
  { intros st1 c (tr1 & x & s & q & tr2 & o1 & Et & HR). unfold tr in Et. destruct tr1 as [|ev tr1]; [|destruct tr1; discriminate Et].
    inversion HR; subst. exists g, (fmake 4 0). split; [cbn [app] in Et; congruence|]. split; [exact S1|]. cbn [snd]. rewrite X1, r1. lra. }
  split; [exact M1|]. apply (ex_inside exB5 (-4)); [left; auto|cbn; lra|apply Rabs_le; cbn; lra|apply Rabs_le; cbn; lra].
Qed.

(** C158: both inequalities diag(1, 1 - x0) >= 0, the objective x0, and the value -4 to beat *)
Definition ex158_info (w : memory b64) (x : res (ell b64)) : option (nat * list spec_float * list spec_float * status) :=
  match x with
  | Ok e => match lmi_opt64 cut1 fdot_seq g10 exF5 exF5 exB6 exB6 (@chol_init b64 FNum 2, @chol_init b64 FNum 2) x5 (Some (fmake (-4) 0)) with
            | Ok (_, ((g, BScalar ep), None)) =>
                match @ell_update b64 (FNumD fdot_seq) (w, e) (g, BScalar ep) with
                | Ok (_, (s, _)) => Some (e_n e, ell2_of e w, [B2SF (g 0%nat); B2SF (g 1%nat); B2SF ep], s)
                | Raise _ => None end
            | _ => None end
  | Raise _ => None end.
Example C158_ex : exists (e : ell b64) w tr o' st' xb info z y,
  fdot_any fdot_seq /\ ext64 fdot_seq /\ built64 e /\ e_n e = length exF5 /\ sym 2 (matR exB6) /\ all_sym 2 (matsR exF5) /\
  lmi_sizes 2 exF5 exB6 4 exMF /\ run_bound (length exF5) 4 exMF 1 <= pow2 1000 /\
  (forall k, (k < length exF5)%nat -> is_finite (g10 k) = true /\ Rabs (B2R (g10 k)) <= exMF k) /\ rsum (length exF5) exMF * 1 <= pow2 1000 /\
  cutting_plane_dc (@ell_space b64 (FNumD fdot_seq)) (fun _ _ => false) (fun _ _ => false) (lmi_opt64 cut1 fdot_seq g10 exF5 exF5 exB6 exB6) 5 fzero
    (@chol_init b64 FNum 2, @chol_init b64 FNum 2) (w, e) (Some (fmake (-4) 0)) = Ok (tr, o', st', (xb, Some (fmake (-4) 0), info)) /\
  cstatus info = nosoln /\
  single_scaled (pow2 (-40)) 1 1 1 2 (asked64_dc (@ell_space b64 (FNumD fdot_seq)) (lmi_opt64 cut1 fdot_seq g10 exF5 exF5 exB6 exB6)
     (@chol_init b64 FNum 2, @chol_init b64 FNum 2) (w, e) (Some (fmake (-4) 0)) tr) /\
  mem64 (w, e) z /\ lmi_inside 2 exF5 exB6 (pow2 (-40)) 4 exMF 1 10 y /\
  beats (length exF5) g10 (obj_slack (length exF5) (pow2 (-40)) (rsum (length exF5) exMF) 1 10) (Some (fmake (-4) 0)) y.
Proof.
  set (w := (fun (_ : loc) (_ : nat) => fzero) : memory b64).
  assert (X : ex158_info w (@ell_init b64 FNum (VScalar (fmake 1 0)) 2 0%nat) =
    Some (2%nat, map B2SF [fmake 1 0; fmake 1 0; fzero; fzero; fmake 1 0; fzero; fzero], map B2SF [fmake 1 0; fzero; fmake 4 0], nosoln)) by (vm_compute; reflexivity).
  revert X. destruct (@ell_init b64 FNum (VScalar (fmake 1 0)) 2 0%nat) as [e|] eqn:E; [|discriminate]. unfold ex158_info.
  match goal with |- match ?u with Ok _ => _ | Raise _ => _ end = _ -> _ => destruct u as [[o' [[g [ep|?]] [t1|]]]|] eqn:L; try discriminate end.
  match goal with |- match ?u with Ok _ => _ | Raise _ => _ end = _ -> _ => destruct u as [[st2 [s tsq]]|] eqn:U; [|discriminate] end. intros X.
  unfold ell2_of in X. cbn [map] in X.
  assert (En : e_n e = 2%nat) by congruence. assert (Es : s = nosoln) by congruence.
  assert (I : forall x y : b64, B2SF x = B2SF y -> x = y) by (intros x y; apply B2SF_inj).
  assert (X1 : e_kappa e = fmake 1 0) by (apply I; congruence).
  assert (X2 : e_Q e 0%nat 0%nat = fmake 1 0) by (apply I; congruence).
  assert (X3 : e_Q e 0%nat 1%nat = fzero) by (apply I; congruence).
  assert (X4 : e_Q e 1%nat 0%nat = fzero) by (apply I; congruence).
  assert (X5 : e_Q e 1%nat 1%nat = fmake 1 0) by (apply I; congruence).
  assert (G0 : g 0%nat = fmake 1 0) by (apply I; congruence).
  assert (G1 : g 1%nat = fzero) by (apply I; congruence).
  assert (G2 : ep = fmake 4 0) by (apply I; congruence). clear X I. subst s ep.
  destruct (disc_scaled e g En X1 X2 X3 X4 X5 G0 G1) as [S1 M1].
  set (tr := [{| d_x := x5; d_t := Some (fmake (-4) 0); d_cut := (g, BScalar (fmake 4 0)); d_t1 := None; d_status := nosoln; d_tsq := tsq |}]).
  exists e, w, tr, o', st2, None, {| feasible := false; num_iters := 1; cstatus := nosoln |}, (fun _ => 0), (fun k => if (k =? 0)%nat then -6 else 0).
  assert (B8 : 8 <= pow2 1000) by (change 8 with (pow2 3); apply bpow_le; lia).
  split; [exact fnum_dot_any|]. split; [exact fdot_seq_ext|]. split; [exists (VScalar (fmake 1 0)), 0%nat, e; rewrite En; split; [exact E|auto]|].
  split; [exact En|]. split; [apply sym_mat2|]. split; [exact exF5_sym|]. split; [exact (ex_sizes exB6 1 (or_intror (conj eq_refl eq_refl)))|].
  split; [change (length exF5) with 2%nat; rewrite ex_bound; lra|].
  split. { intros k Hk. destruct k as [|[|k]]; [| |cbn in Hk; lia]; unfold g10, exMF; cbn [Nat.eqb]; rewrite ?r1; change (B2R fzero) with 0; (split; [reflexivity|apply Rabs_le; lra]). }
  split; [unfold exMF; cbn [length exF5 rsum Nat.eqb]; lra|].
  split.
  { unfold cutting_plane_dc. cbn [dc_loop]. change (centre (@ell_space b64 (FNumD fdot_seq)) (w, e)) with x5. rewrite L. cbn [bind fst snd sp_update ell_space]. rewrite U.
    cbn [bind status_eqb negb]. reflexivity. }
  split; [reflexivity|]. split.
  { intros st1 c (tr1 & ev & tr2 & o1 & t2 & Et & Ec & HR). unfold tr in Et. destruct tr1 as [|e1 tr1]; [|destruct tr1; discriminate Et].
    inversion HR; subst. exists g, (fmake 4 0). split; [cbn [app] in Et; assert (Ee : ev = {| d_x := x5; d_t := Some (fmake (-4) 0); d_cut := (g, BScalar (fmake 4 0)); d_t1 := None; d_status := nosoln; d_tsq := tsq |}) by congruence; rewrite Ee; reflexivity|]. split; [exact S1|]. cbn [snd]. rewrite X1, r1. lra. }
  split; [exact M1|]. split; [apply (ex_inside exB6 1); [right; auto|cbn; lra|apply Rabs_le; cbn; lra|apply Rabs_le; cbn; lra]|].
  unfold beats, S_LinAlg.dot, vecR, obj_slack, exMF, g10. cbn [length exF5 rsum Nat.eqb]. rewrite r1, rm4. change (B2R fzero) with 0. change (INR 2) with 2.
  assert (A1 : pow2 (-52) <= / 1048576) by (change (/ 1048576) with (pow2 (-20)); apply bpow_le; lia).
  assert (A2 : pow2 (-1073) <= / 1048576) by (change (/ 1048576) with (pow2 (-20)); apply bpow_le; lia).
  assert (A3 : pow2 (-40) <= / 1048576) by (change (/ 1048576) with (pow2 (-20)); apply bpow_le; lia). lra.
Qed.
