(** Property theorems about the cuts of qmi_oracle and lsq_oracle in binary64 and nosoln of the driver over them (C176, C177). *)
From Coq Require Import ZArith Reals Lra Lia Bool List Psatz Floats.SpecFloat.
From Flocq Require Import Core.Core IEEE754.BinarySingleNaN.
From Verif Require Import Base M_Chol M_Lmi M_Drivers M_Ell S_Drivers P_Drivers S_Ell S_LinAlg P_LinAlg P_Chol P_Chol2 P_CholF P_CholF2 S_Lmi P_Lmi M_Float P_Float P_Float2 S_Float S_Float2 S_EllF S_EllRun P_FSum P_LmiF P_QmiF P_WitF P_WitF2 S_WitF S_WitQ P_QcutF P_RunF P_EllRun P_EllF P_EllF2 M_Examples T_Float T_Float2 T_Float4 T_Float9 T_Float10 T_Float12 T_Float14.
Import ListNotations.
Local Open Scope R_scope.

(** ** C176: the cut of qmi_oracle *)
Lemma qcut_slack_ok m n E : pow2 (-1000) <= E ->
  12 * (INR m * (INR m + 1) * pow2 (-52) * (5 * E + pow2 (-1000))) + INR m * ((INR m + INR n + 3) * pow2 (-50) * E) <= INR m * (INR m + INR n + 2) * pow2 (-45) * E.
Proof.
  intros HE. set (kap := pow2 (-1000)) in *. assert (K : 0 < kap) by apply bpow_gt_0.
  set (u := pow2 (-52)). assert (U : 0 < u) by apply bpow_gt_0.
  assert (E50 : pow2 (-50) = 4 * u) by (unfold u; change 4 with (pow2 2); rewrite <- bpow_plus; reflexivity).
  assert (E45 : pow2 (-45) = 128 * u) by (unfold u; change 128 with (pow2 7); rewrite <- bpow_plus; reflexivity).
  rewrite E50, E45. assert (N1 := pos_INR m). assert (N2 := pos_INR n).
  assert (A1 : INR m * (INR m + 1) * u * (5 * E + kap) <= INR m * (INR m + 1) * u * (6 * E)).
  { apply Rmult_le_compat_l; [|lra]. apply Rmult_le_pos; [apply Rmult_le_pos; lra|lra]. }
  apply Rle_trans with ((INR m * u * E) * (72 * (INR m + 1) + 4 * (INR m + INR n + 3))); [lra|].
  replace (INR m * (INR m + INR n + 2) * (128 * u) * E) with ((INR m * u * E) * (128 * (INR m + INR n + 2))) by ring.
  apply Rmult_le_compat_l; [apply Rmult_le_pos; [apply Rmult_le_pos; lra|lra]|lra].
Qed.
Lemma qmi_cut_v dot m F F0 (q q' : qmi b64) (Q Q' : chol b64) x t M MF g ep :
  fdot_any dot -> ext64 dot -> c_n Q = m -> c_semi Q = false ->
  (0 < m)%nat -> (Z.of_nat m <= 2 ^ 20)%Z -> (0 < length F)%nat -> (Z.of_nat (length F) <= 2 ^ 20)%Z -> M <= pow2 400 ->
  M_Lmi.q_t q = Some t -> is_finite t = true -> Rabs (B2R t) <= pow2 800 ->
  all_sym m (matsR F) -> lmi_data m F F0 x M -> mats_le m F MF ->
  qmi64 dot F F0 m m (length F) q Q x = Ok (q', Q', Some (g, ep)) ->
  is_finite ep = true -> (forall k, (k < length F)%nat -> is_finite (g k) = true) ->
  exists r, c_p Q' = (0%nat, r) /\ (0 < r <= m)%nat /\ (forall k, (k < r)%nat -> is_finite (c_v Q' k) = true) /\
    (forall Q3 ep3, @chol_witness b64 (FNumD dot) Q' = Ok (Q3, ep3) -> c_p Q3 = (0%nat, r) /\ forall k, (k < r)%nat -> c_v Q3 k = c_v Q' k) /\
    let vr := fun k => B2R (c_v Q' k) in let qq := S_LinAlg.dot r vr vr in
    1 <= qq /\ 0 <= B2R ep <= 12 * (INR m * qmi_size m (B2R t) M) * qq /\
    forall z t', S_LinAlg.dot (length F) (vecR g) (fun k => z k - vecR x k) - qq * (t' - B2R t) + B2R ep <=
      - bf r (qmi_mat m (matR F0) (matsR F) t' z) vr vr + qcut_slack m (length F) (B2R t) M (wdistq (length F) MF z (vecR x)) * qq.
Proof.
  intros Hd NE En Es H0 Hm HF0 HF HM Hq Ft Ht SF Hdata HMF Hc Fe Fg.
  set (a := ent64 dot m F F0 x t).
  destruct (C117_chol64_total dot a Q NE Es) as (Q1 & b & E).
  destruct (factor_state (H := FNumD dot) a (cache64 dot F F0 x t) (fun q i j => @qmi_eval b64 (FNumD dot) F F0 m (length F) q i j x) Q Q1 b (mk_qmi (M_Lmi.q_t q) 0 (q_Fx q)))
    as (q1 & E1 & (T1 & _ & Ca)).
  { intros g0 i j Hj _ Hg. apply qmi64_getter; assumption. }
  { split; [exact Hq|]. split; [reflexivity|]. intros; lia. }
  { exact E. }
  assert (Ent := qmi_entry dot Hd m F F0 x t M H0 Hm HF Hdata HM Ft Ht). fold a in Ent.
  assert (Col := col_entry dot m F F0 x M H0 HF Hdata HM).
  destruct (Kq_pos m F F0 x M H0 Hdata HM) as (KP1 & KP2 & KP3).
  destruct (Eq_pos m F F0 x t M H0 Hm Hdata HM Ht) as [P1 P2].
  assert (AB := aff_bound m F F0 x M Hdata).
  set (Ez := Eq m t M) in *. change (qmi_size m (B2R t) M) with Ez.
  assert (Hsym := qmi_mat_sym m m (matR F0) (matsR F) (B2R t) (vecR x)).
  assert (Hfin : low_finite m a) by (intros i j Hj Hi; apply (Ent i j); lia).
  assert (Hcl : forall i j, (j <= i)%nat -> (i < m)%nat -> Rabs (B2R (a i j) - qmi_mat m (matR F0) (matsR F) (B2R t) (vecR x) i j) <= (INR m + INR (length F) + 3) * pow2 (-50) * Ez)
    by (intros i j Hj Hi; apply (Ent i j); lia).
  assert (Hen : forall i j, (j <= i)%nat -> (i < m)%nat -> Rabs (B2R (a i j)) <= 5 * Ez) by (intros i j Hj Hi; apply (Ent i j); lia).
  unfold qmi_call, gmi_call in Hc. cbv beta in E1, Hc. rewrite E1 in Hc. cbn [bind] in Hc. destruct b; cbn [negb] in Hc; [discriminate Hc|].
  apply bind_ok in Hc as ([Q2 ep'] & W & Hc). apply bind_ok in Hc as (gr & G & Hc).
  assert (q1 = q') by congruence. assert (Q2 = Q') by congruence. assert (gr = g) by congruence. assert (ep' = ep) by congruence. subst q1 Q2 gr ep'. clear Hc.
  destruct (wit_vec dot Hd NE m a _ _ _ H0 Hm Hsym Hfin Hcl Hen Q Q1 Q' ep En Es E W Fe) as (r & C1 & C2 & R0 & HV). cbv zeta in HV.
  unfold qmi_grad in G. rewrite C2, Nat.eqb_refl, orb_true_r in G. rewrite C1 in Ca. unfold rows_used in Ca. cbn [snd] in Ca.
  destruct (Nat.eqb_spec r 0); [lia|]. rewrite Nat.sub_0_r in G.
  assert (Eg : forall k, g k = fmul (fmake (-2) 0) (dot m (fun c => dot r (c_v Q') (fun i => nth k F (fun _ _ => fzero) i c)) (fun c => dot r (c_v Q') (fun i => col64 dot F F0 x i c)))).
  { intros k. assert (E0 : Ok (fun k => @nmul b64 (FNumD dot) (fmake (-2) 0) (dot m (fun c => dot r (c_v Q') (fun i => @nf b64 (FNumD dot) F k i c)) (fun c => dot r (c_v Q') (fun i => q_Fx q' i c)))) = Ok g) by exact G.
    assert (E2 : forall f1 f2 : nat -> b64, Ok f1 = Ok f2 -> f2 = f1) by (intros; congruence). rewrite (E2 _ _ E0). cbn [nmul FNumD]. f_equal. apply (ndot_ext (NdotExt := NE)); [intros c Hc; reflexivity|]. intros c Hc. apply (ndot_ext (NdotExt := NE)); [reflexivity|]. intros i Hi. apply Ca. exact Hi. }
  clear G. exists r. split; [exact C2|]. split; [exact R0|].
  assert (Vfin : forall k, (k < r)%nat -> is_finite (c_v Q' k) = true).
  { assert (F1 := Fg 0%nat HF0). rewrite Eg in F1. intros k Hk. eapply (qg_fin_v dot Hd r m); try eassumption; lia. }
  split; [exact Vfin|]. split; [intros Q3 ep3 W3; apply (witness_twice (H := FNumD dot) (NE := NE) Q1 Q' Q3 ep ep3 r C1 (proj1 R0) W W3)|].
  cbv zeta. destruct (HV Vfin) as (V1 & V2 & [V3 V4] & V5). clear HV.
  set (vr := fun k => B2R (c_v Q' k)) in *. set (qq := S_LinAlg.dot r vr vr) in *.
  assert (kp := bpow_gt_0 radix2 (-1000)). assert (N0 := pos_INR m).
  split; [exact V2|]. split.
  { split; [exact V3|]. eapply Rle_trans; [exact V4|]. apply Rmult_le_compat_r; [lra|].
    assert (INR m * (5 * Ez + pow2 (-1000)) <= INR m * (6 * Ez)) by (apply Rmult_le_compat_l; lra). lra. }
  intros z t'. set (K := M + pow2 (-500)). set (N := INR (length F)). assert (N0' : 0 <= N) by apply pos_INR.
  assert (K0 : 0 < K) by (change K with (Kq M); assert (X := bpow_gt_0 radix2 (-500)); lra).
  assert (Kk : pow2 (-1000) <= K) by (change K with (Kq M); apply Rle_trans with (pow2 (-500)); [apply bpow_le; lia|exact KP1]).
  set (c := INR m * INR m * (INR m + N + 2) * pow2 (-48) * K * qq).
  assert (c0 : 0 <= c).
  { unfold c. repeat apply Rmult_le_pos; try lra. apply bpow_ge_0. }
  set (G := fun k => -2 * rsum m (fun c => rsum r (fun i => vr i * nth k (matsR F) (fun _ _ => 0) i c) * rsum r (fun i => vr i * aff_mat (matR F0) (matsR F) (vecR x) c i))).
  assert (S := grad_sum (length F) (vecR g) G (fun k => MF k + pow2 (-500)) (vecR x) z c c0).
  match type of S with ?P -> _ => assert (S0 : P) end.
  { intros k Hk. assert (MFk := mats_le_nn m F MF H0 HMF k Hk). assert (p5 := bpow_gt_0 radix2 (-500)).
    assert (QE : Rabs (B2R (g k) + 2 * rsum m (fun c => rsum r (fun i => vr i * B2R (nth k F (fun _ _ => fzero) i c)) * rsum r (fun i => vr i * aff_mat (matR F0) (matsR F) (vecR x) c i)))
      <= INR m * INR m * (INR m + INR (length F) + 2) * pow2 (-48) * K * (MF k + pow2 (-500)) * qq).
    { rewrite Eg. apply (qgrad_err dot Hd r m (length F) (c_v Q') (nth k F (fun _ _ => fzero)) (col64 dot F F0 x) (aff_mat (matR F0) (matsR F) (vecR x)) K (MF k + pow2 (-500))); try assumption; try lia.
      - apply Rle_trans with (pow2 (-500)); [apply bpow_le; lia|lra].
      - change (-1000)%Z with (-500 + -500)%Z. rewrite bpow_plus. apply Rmult_le_compat; try lra. exact KP1.
      - intros i c1 Hi Hc1. destruct (Col i c1 Hc1 ltac:(lia)) as (_ & X1 & X2). split; [exact X1|]. split; [exact X2|].
        eapply Rle_trans; [apply AB; lia|]. unfold K. lra.
      - intros i c1 Hi Hc1. assert (X := HMF k i c1 Hk ltac:(lia) Hc1). rewrite nth_matsR in X. lra.
      - apply Rle_trans with (Rabs (vr (r - 1)%nat)); [change (vr (r - 1)%nat) with (B2R (c_v Q' (r - 1)%nat)); rewrite V1, Rabs_R1; lra|]. apply (rsum_ge_term r (fun k => Rabs (vr k))); [lia|intros; apply Rabs_pos].
      - rewrite <- Eg. apply Fg, Hk. }
    unfold vecR, G. match goal with |- Rabs (?x1 - -2 * ?y1) <= _ => match type of QE with Rabs (_ + 2 * ?y2) <= _ => assert (EY : y1 = y2) end end.
    { apply rsum_ext. intros c1 _. f_equal. apply rsum_ext. intros i _. rewrite nth_matsR. reflexivity. }
    rewrite EY. match goal with |- Rabs (?x1 - -2 * ?y1) <= _ => replace (x1 - -2 * y1) with (x1 + 2 * y1) by ring end.
    eapply Rle_trans; [exact QE|]. apply Rle_trans with (c * (MF k + pow2 (-500))); [apply Req_le; unfold c, N; ring|]. apply Rmult_le_compat_l; [exact c0|lra]. }
  specialize (S S0). clear S0.
  assert (CV := qmi_concave m r (matR F0) (matsR F) (B2R t) t' (vecR x) z vr (proj2 R0) SF).
  replace (length (matsR F)) with (length F) in CV by (unfold matsR; rewrite map_length; reflexivity).
  change (rsum (length F) (fun k => -2 * rsum m (fun c => rsum r (fun i => vr i * nth k (matsR F) (fun _ _ => 0) i c) * rsum r (fun j => vr j * aff_mat (matR F0) (matsR F) (vecR x) c j)) * (z k - vecR x k)))
    with (rsum (length F) (fun k => G k * (z k - vecR x k))) in CV. fold qq in CV. apply Rabs_le_inv in S.
  assert (SL := qcut_slack_ok m (length F) Ez P1). fold N in SL.
  assert (SQ : (12 * (INR m * (INR m + 1) * pow2 (-52) * (5 * Ez + pow2 (-1000))) + INR m * ((INR m + N + 3) * pow2 (-50) * Ez)) * qq <= INR m * (INR m + N + 2) * pow2 (-45) * Ez * qq)
    by (apply Rmult_le_compat_r; lra).
  fold N in V5. unfold qcut_slack, wdistq. fold N K. change (qmi_size m (B2R t) M) with Ez.
  change (fun k => MF k + bpow radix2 (-500)) with (fun k => MF k + pow2 (-500)). set (WD := wdist (length F) (fun k => MF k + pow2 (-500)) z (vecR x)) in *.
  unfold c in S. lra.
Qed.

Theorem C176_qmi64_cut :
  forall dot m F F0 (q q' : qmi b64) (Q Q' : chol b64) x t M MF g ep,
  fdot_any dot -> ext64 dot -> c_n Q = m -> c_semi Q = false ->
  (0 < m)%nat -> (Z.of_nat m <= 2 ^ 20)%Z -> (0 < length F)%nat -> (Z.of_nat (length F) <= 2 ^ 20)%Z -> M <= pow2 400 ->
  M_Lmi.q_t q = Some t -> is_finite t = true -> Rabs (B2R t) <= pow2 800 ->
  all_sym m (matsR F) -> lmi_data m F F0 x M -> mats_le m F MF ->
  qmi64 dot F F0 m m (length F) q Q x = Ok (q', Q', Some (g, ep)) ->
  is_finite ep = true -> (forall k, (k < length F)%nat -> is_finite (g k) = true) ->
  exists v, 1 <= S_LinAlg.dot m v v /\ 0 <= B2R ep <= 12 * (INR m * qmi_size m (B2R t) M) * S_LinAlg.dot m v v /\
    forall z, S_LinAlg.dot (length F) (vecR g) (fun k => z k - vecR x k) + B2R ep <=
      - bf m (qmi_mat m (matR F0) (matsR F) (B2R t) z) v v + qcut_slack m (length F) (B2R t) M (wdistq (length F) MF z (vecR x)) * S_LinAlg.dot m v v.
Proof.
  intros dot m F F0 q q' Q Q' x t M MF g ep Hd NE En Es H0 Hm HF0 HF HM Hq Ft Ht SF Hdata HMF Hc Fe Fg.
  destruct (qmi_cut_v dot m F F0 q q' Q Q' x t M MF g ep Hd NE En Es H0 Hm HF0 HF HM Hq Ft Ht SF Hdata HMF Hc Fe Fg) as (r & _ & R0 & _ & _ & HV).
  cbv zeta in HV. set (vr := fun k => B2R (c_v Q' k)) in *. destruct HV as (V1 & V2 & V3).
  exists (zext 0 r vr). rewrite (proj1 (proj2 (zext_quad m r (fun _ _ => 0) vr (proj2 R0)))). split; [exact V1|]. split; [exact V2|].
  intros z. rewrite (proj1 (zext_quad m r (qmi_mat m (matR F0) (matsR F) (B2R t) z) vr (proj2 R0))). specialize (V3 z (B2R t)). lra.
Qed.
Print Assumptions C176_qmi64_cut.
Lemma qcut_holds m n h S E x g ep v (A : nat -> nat -> R) z :
  0 <= h -> 1 <= S_LinAlg.dot m v v -> 0 <= B2R ep <= 12 * E * S_LinAlg.dot m v v ->
  S_LinAlg.dot n (vecR g) (fun k => z k - vecR x k) + B2R ep <= - bf m A v v + S * S_LinAlg.dot m v v ->
  psd_by m (S + 96 * h * E) A -> holds64 n h x g ep z.
Proof.
  intros Hh Hq [E0 E1] HC HA. specialize (HA v). unfold holds64. change (fun i => B2R (g i)) with (vecR g). change (fun i => z i - B2R (x i)) with (fun k => z k - vecR x k).
  assert (8 * h * B2R ep <= 8 * h * (12 * E * S_LinAlg.dot m v v)) by (apply Rmult_le_compat_l; lra). lra.
Qed.
Theorem C176_qmi64_cut_valid :
  forall dot m F F0 (q q' : qmi b64) (Q Q' : chol b64) x t M MF g ep h z,
  fdot_any dot -> ext64 dot -> c_n Q = m -> c_semi Q = false ->
  (0 < m)%nat -> (Z.of_nat m <= 2 ^ 20)%Z -> (0 < length F)%nat -> (Z.of_nat (length F) <= 2 ^ 20)%Z -> M <= pow2 400 ->
  M_Lmi.q_t q = Some t -> is_finite t = true -> Rabs (B2R t) <= pow2 800 ->
  all_sym m (matsR F) -> lmi_data m F F0 x M -> mats_le m F MF ->
  qmi64 dot F F0 m m (length F) q Q x = Ok (q', Q', Some (g, ep)) ->
  is_finite ep = true -> (forall k, (k < length F)%nat -> is_finite (g k) = true) ->
  0 <= h ->
  psd_by m (qcut_slack m (length F) (B2R t) M (wdistq (length F) MF z (vecR x)) + 96 * h * (INR m * qmi_size m (B2R t) M)) (qmi_mat m (matR F0) (matsR F) (B2R t) z) ->
  holds64 (length F) h x g ep z.
Proof.
  intros dot m F F0 q q' Q Q' x t M MF g ep h z Hd NE En Es H0 Hm HF0 HF HM Hq Ft Ht SF Hdata HMF Hc Fe Fg Hh HP.
  destruct (C176_qmi64_cut dot m F F0 q q' Q Q' x t M MF g ep Hd NE En Es H0 Hm HF0 HF HM Hq Ft Ht SF Hdata HMF Hc Fe Fg) as (v & V1 & V2 & V3).
  exact (qcut_holds m (length F) h _ _ x g ep v _ z Hh V1 V2 (V3 z) HP).
Qed.
Print Assumptions C176_qmi64_cut_valid.

(** ** C177: nosoln of the optimising driver over ell and lsq_oracle *)
Lemma qmi_size_mono m t X M : Rabs t <= X -> qmi_size m t M <= qmi_size m X M.
Proof. intros H. unfold qmi_size. apply Rplus_le_compat_r. eapply Rle_trans; [exact H|apply Rle_abs]. Qed.
Lemma qcut_slack_mono m n t X M Z Z' : Rabs t <= X -> 0 <= M -> Z <= Z' -> qcut_slack m n t M Z <= qcut_slack m n X M Z'.
Proof.
  intros Ht HM HZ. assert (N1 := pos_INR m). assert (N2 := pos_INR n). assert (p := bpow_gt_0 radix2 (-500)). unfold qcut_slack. apply Rplus_le_compat.
  - apply Rmult_le_compat_l; [|apply qmi_size_mono, Ht]. repeat apply Rmult_le_pos; try lra; apply bpow_ge_0.
  - apply Rmult_le_compat_l; [|exact HZ]. repeat apply Rmult_le_pos; try lra; apply bpow_ge_0.
Qed.
Lemma wdistq_le n MF X Xz z x : (forall k, (k < n)%nat -> 0 <= MF k) -> (forall k, (k < n)%nat -> Rabs (z k) <= Xz) -> (forall k, (k < n)%nat -> Rabs (x k) <= X) ->
  wdistq n MF z x <= (X + Xz) * rsum n (fun k => MF k + pow2 (-500) + pow2 (-1000)).
Proof.
  intros H0 Hz Hx. unfold wdistq. apply (wdist_le n (fun k => MF k + bpow radix2 (-500))); try assumption.
  intros k Hk. assert (A := H0 k Hk). assert (p := bpow_gt_0 radix2 (-500)). lra.
Qed.
Lemma dot_last n (g d : nat -> R) : S_LinAlg.dot (S n) g d = S_LinAlg.dot n g d + g n * d n.
Proof. reflexivity. Qed.
Lemma dot_ext2 n (g g' d : nat -> R) : (forall k, (k < n)%nat -> g k = g' k) -> S_LinAlg.dot n g d = S_LinAlg.dot n g' d.
Proof. intros H. apply rsum_ext. intros k Hk. rewrite H by exact Hk. reflexivity. Qed.

Section Lsq.
Variables (dot : nat -> (nat -> b64) -> (nat -> b64) -> b64) (m : nat) (F : list (nat -> nat -> b64)) (F0 : nat -> nat -> b64) (x : nat -> b64) (h MB : R) (MF : nat -> R) (X Xz : R).
Notation n := (length F).
Notation M := (run_bound n MB MF X).
Hypothesis Hd : fdot_any dot.
Hypothesis NE : ext64 dot.
Hypothesis H0 : (0 < m)%nat.
Hypothesis Hm : (Z.of_nat m <= 2 ^ 20)%Z.
Hypothesis HF0 : (0 < n)%nat.
Hypothesis HF : (Z.of_nat n <= 2 ^ 20)%Z.
Hypothesis HM : M <= pow2 400.
Hypothesis HX8 : X <= pow2 800.
Hypothesis SF : all_sym m (matsR F).
Hypothesis HS : lmi_sizes m F F0 MB MF.
Hypothesis HX : 0 <= X.
Hypothesis Hx : forall k, (k < S n)%nat -> is_finite (x k) = true /\ Rabs (B2R (x k)) <= X.
Hypothesis Hh : 0 <= h <= / 1024.
Variable y : nat -> R.
Hypothesis Hy : lsq_inside m F F0 h MB MF X Xz y.
Lemma lsq_data : lmi_data m F F0 x M.
Proof. apply sizes_data; try assumption. intros k Hk. apply Hx. lia. Qed.
Lemma lsq_M0 : 0 <= M.
Proof. apply (lmi_data_nonneg m F F0 x M lsq_data H0). Qed.
Lemma lsq_lin (Q Q' : chol b64) g1 g ep : c_n Q = m -> c_semi Q = false ->
  lmi0_64 dot F n Q x = Ok (Q', Some (g1, ep)) -> (forall k, g k = if (k <? n)%nat then g1 k else fzero) ->
  is_finite ep = true -> (forall k, (k < S n)%nat -> is_finite (g k) = true) -> holds64 (S n) h x g ep y.
Proof.
  intros En Es Hc Eg Fe Fg. destruct Hy as (Y1 & Y2 & _).
  assert (HM1 : M <= pow2 1000) by (eapply Rle_trans; [exact HM|apply bpow_le; lia]).
  destruct (C156_lmi0_64_cut dot m F Q Q' x M MF g1 ep Hd NE En Es H0 Hm HF0 HF HM1 SF (lmi_data_zero _ _ _ _ _ lsq_data) (proj2 HS) Hc Fe) as [_ V].
  { intros k Hk. assert (A := Fg k ltac:(lia)). rewrite Eg in A. destruct (Nat.ltb_spec k n); [exact A|lia]. }
  assert (HD : holds64 n h x g1 ep y).
  { apply V; [lra|]. apply (psd_by_mono m (run_margin m n h MB MF X Xz)); [|exact Y2]. unfold run_margin. apply Rplus_le_compat_r. apply cut_slack_mono.
    apply wdist_le; [apply (mats_le_nn m F MF H0), HS|intros k Hk; apply Y1; lia|]. intros k Hk. apply Hx. lia. }
  unfold holds64 in HD |- *. rewrite dot_last.
  rewrite (dot_ext2 n (fun i => B2R (g i)) (fun i => B2R (g1 i))) by (intros k Hk; rewrite Eg; destruct (Nat.ltb_spec k n); [reflexivity|lia]).
  rewrite Eg, Nat.ltb_irrefl. change (B2R fzero) with 0. lra.
Qed.
Lemma lsq_quad (q q' : qmi b64) (Q Q' Q3 : chol b64) g1 g ep ep3 : c_n Q = m -> c_semi Q = false -> M_Lmi.q_t q = Some (x n) ->
  qmi64 dot F F0 m m n q Q x = Ok (q', Q', Some (g1, ep)) -> @chol_witness b64 (FNumD dot) Q' = Ok (Q3, ep3) ->
  (forall k, (k < n)%nat -> g k = g1 k) -> g n = Bopp (dot (snd (c_p Q3) - fst (c_p Q3))%nat (fun k => c_v Q3 (fst (c_p Q3) + k)%nat) (fun k => c_v Q3 (fst (c_p Q3) + k)%nat)) ->
  is_finite ep = true -> (forall k, (k < S n)%nat -> is_finite (g k) = true) -> holds64 (S n) h x g ep y.
Proof.
  intros En Es Hq Hc W Eg Egn Fe Fg. destruct Hy as (Y1 & _ & Y2). destruct (Hx n ltac:(lia)) as [Fx Bx].
  destruct (qmi_cut_v dot m F F0 q q' Q Q' x (x n) M MF g1 ep Hd NE En Es H0 Hm HF0 HF HM Hq Fx ltac:(lra) SF lsq_data (proj2 HS) Hc Fe) as (r & _ & R0 & _ & W2 & HV).
  { intros k Hk. rewrite <- Eg by exact Hk. apply Fg. lia. }
  destruct (W2 Q3 ep3 W) as [Ep Ev]. rewrite Ep in Egn. cbn [fst snd] in Egn. rewrite Nat.sub_0_r in Egn.
  cbv zeta in HV. set (vr := fun k => B2R (c_v Q' k)) in *. destruct HV as (V1 & [V2 V2'] & V3).
  set (qq := S_LinAlg.dot r vr vr) in *. specialize (V3 y (y n)).
  assert (GN : is_finite (dot r (fun k => c_v Q3 (0 + k)%nat) (fun k => c_v Q3 (0 + k)%nat)) = true).
  { assert (A := Fg n ltac:(lia)). rewrite Egn, fopp_fin in A. exact A. }
  destruct (fdot_fin dot r _ _ Hd ltac:(lia) GN) as [_ GE].
  assert (Q1 : rsum r (fun k => B2R (c_v Q3 (0 + k)%nat) * B2R (c_v Q3 (0 + k)%nat)) = qq) by (apply rsum_ext; intros k Hk; cbn [Nat.add]; rewrite Ev by exact Hk; reflexivity).
  assert (Q2 : rsum r (fun k => Rabs (B2R (c_v Q3 (0 + k)%nat) * B2R (c_v Q3 (0 + k)%nat))) = qq).
  { rewrite <- Q1. apply rsum_ext. intros k Hk. apply Rabs_pos_eq, Rle_0_sqr. }
  rewrite Q1, Q2 in GE. clear Q1 Q2.
  set (sn := B2R (dot r (fun k => c_v Q3 (0 + k)%nat) (fun k => c_v Q3 (0 + k)%nat))) in *.
  assert (u0 := bpow_gt_0 radix2 (-52)). assert (N0 := pos_INR m). assert (M0 := lsq_M0).
  assert (SN : Rabs (sn - qq) <= INR m * pow2 (-51) * qq).
  { eapply Rle_trans; [exact GE|]. assert (RM : INR r <= INR m) by (apply le_INR; lia). assert (R1 := pos_INR r).
    assert (P51 : pow2 (-51) = 2 * pow2 (-52)) by (change 2 with (pow2 1); rewrite <- bpow_plus; reflexivity). rewrite P51.
    assert (A1 : INR r * pow2 (-52) * qq <= INR m * pow2 (-52) * qq) by (apply Rmult_le_compat_r; [lra|apply Rmult_le_compat_r; lra]).
    assert (A2 : INR r * pow2 (-1073) <= INR m * pow2 (-52) * qq).
    { apply Rle_trans with (INR m * pow2 (-52) * 1); [rewrite Rmult_1_r; apply Rmult_le_compat; try lra; [apply bpow_ge_0|apply bpow_le; lia]|].
      apply Rmult_le_compat_l; [apply Rmult_le_pos; lra|lra]. }
    lra. }
  assert (Yn := Y1 n ltac:(lia)).
  assert (DN : Rabs (y n - B2R (x n)) <= X + Xz) by (unfold Rminus; eapply Rle_trans; [apply Rabs_triang|rewrite Rabs_Ropp; lra]).
  assert (DE : - (sn * (y n - B2R (x n))) <= - (qq * (y n - B2R (x n))) + INR m * pow2 (-51) * (X + Xz) * qq).
  { assert (A : Rabs ((sn - qq) * (y n - B2R (x n))) <= INR m * pow2 (-51) * qq * (X + Xz)) by (rewrite Rabs_mult; apply Rmult_le_compat; try apply Rabs_pos; assumption).
    apply Rabs_le_inv in A. lra. }
  assert (PV := Y2 (zext 0 r vr)). rewrite (proj1 (proj2 (zext_quad m r (fun _ _ => 0) vr (proj2 R0)))), (proj1 (zext_quad m r _ vr (proj2 R0))) in PV. fold qq in PV.
  assert (SZ : qmi_size m (B2R (x n)) M <= qmi_size m X M) by (apply qmi_size_mono, Bx).
  assert (SL : qcut_slack m n (B2R (x n)) M (wdistq n MF y (vecR x)) <= qcut_slack m n X M ((X + Xz) * rsum n (fun k => MF k + bpow radix2 (-500) + bpow radix2 (-1000)))).
  { apply qcut_slack_mono; [exact Bx|exact M0|]. apply wdistq_le; [apply (mats_le_nn m F MF H0), HS|intros k Hk; apply Y1; lia|intros k Hk; apply Hx; lia]. }
  unfold lsq_margin in PV. set (S1 := qcut_slack m n (B2R (x n)) M (wdistq n MF y (vecR x))) in *.
  set (S2 := qcut_slack m n X M ((X + Xz) * rsum n (fun k => MF k + bpow radix2 (-500) + bpow radix2 (-1000)))) in *.
  assert (B1 : S1 * qq <= S2 * qq) by (apply Rmult_le_compat_r; lra).
  assert (B2 : 8 * h * B2R ep <= 8 * h * (12 * (INR m * qmi_size m X M) * qq)).
  { apply Rmult_le_compat_l; [lra|]. eapply Rle_trans; [exact V2'|]. apply Rmult_le_compat_r; [lra|]. apply Rmult_le_compat_l; [lra|]. apply Rmult_le_compat_l; lra. }
  unfold holds64. rewrite dot_last. rewrite (dot_ext2 n (fun i => B2R (g i)) (vecR g1)) by (intros k Hk; rewrite Eg by exact Hk; reflexivity).
  change (fun i => y i - B2R (x i)) with (fun k => y k - vecR x k). rewrite Egn, fopp_R. fold sn. change (vecR x n) with (B2R (x n)).
  set (b0 := bf r (qmi_mat m (matR F0) (matsR F) (y n) y) vr vr) in *. set (d0 := S_LinAlg.dot n (vecR g1) (fun k => y k - vecR x k)) in *.
  set (Z := qmi_size m X M) in *. lra.
Qed.
(** the cuts on the last variable *)
Lemma unit_dot (g : nat -> b64) : (forall k, g k = if (k =? n)%nat then fmake 1 0 else fzero) -> S_LinAlg.dot (S n) (fun i => B2R (g i)) (fun i => y i - B2R (x i)) = y n - B2R (x n).
Proof.
  intros Eg. rewrite dot_last, Eg, Nat.eqb_refl, (proj1 fone). replace (S_LinAlg.dot n _ _) with 0; [ring|].
  symmetry. apply rsum_0. intros k Hk. rewrite Eg. destruct (Nat.eqb_spec k n); [lia|]. change (B2R fzero) with 0. ring.
Qed.
Lemma lsq_val0 (g : nat -> b64) t' : (forall k, g k = if (k =? n)%nat then fmake 1 0 else fzero) -> is_finite t' = true -> B2R t' <= B2R (x n) -> 0 <= Xz ->
  beats_by (val_slack h X Xz) t' (y n) -> holds64 (S n) h x g fzero y.
Proof.
  intros Eg Ft Ht HXz Hb. unfold holds64. rewrite (unit_dot g Eg). specialize (Hb Ft). unfold val_slack in Hb. change (B2R fzero) with 0.
  assert (u0 := bpow_gt_0 radix2 (-52)). assert (h0 := bpow_gt_0 radix2 (-1073)). assert (0 <= (8 * h + pow2 (-52)) * (X + Xz)) by (apply Rmult_le_pos; lra). lra.
Qed.
Lemma lsq_val1 (g : nat -> b64) t t' : (forall k, g k = if (k =? n)%nat then fmake 1 0 else fzero) -> is_finite t' = true -> is_finite t = true -> B2R t' <= B2R t -> 0 <= Xz ->
  Bltb fzero (fsub (x n) t) = true -> is_finite (fsub (x n) t) = true ->
  beats_by (val_slack h X Xz) t' (y n) -> holds64 (S n) h x g (fsub (x n) t) y.
Proof.
  intros Eg Ft' Ft Ht HXz Hp Ff Hb. specialize (Hb Ft'). unfold val_slack in Hb. destruct (Hx n ltac:(lia)) as [Fx Bx].
  apply (fsub_pos _ _ Fx Ft) in Hp. destruct (fsub_fin _ _ Ff) as (_ & _ & Ef). assert (Er := rnd_rel (B2R (x n) - B2R t)). rewrite <- Ef in Er. clear Ef.
  unfold holds64. rewrite (unit_dot g Eg). set (U := B2R (x n) - B2R t) in *. assert (U0 : 0 < U) by (unfold U; lra). rewrite (Rabs_right U) in Er by lra. apply Rabs_le_inv in Er.
  destruct Hy as (Y1 & _). assert (Yn := Y1 n ltac:(lia)). apply Rabs_le_inv in Yn. apply Rabs_le_inv in Bx.
  assert (P52 : pow2 (-52) = 2 * pow2 (-53)) by (change 2 with (pow2 1); rewrite <- bpow_plus; reflexivity).
  assert (P53 : 0 < pow2 (-53)) by apply bpow_gt_0. assert (P53' : pow2 (-53) <= / 1024) by (change (/ 1024) with (pow2 (-10)); apply bpow_le; lia).
  assert (P73 : pow2 (-1073) = 4 * pow2 (-1075)) by (change (-1073)%Z with (2 + -1075)%Z; rewrite bpow_plus; reflexivity). assert (P75 := bpow_gt_0 radix2 (-1075)).
  assert (G0 : 0 <= (8 * h + pow2 (-52)) * (X + Xz)) by (apply Rmult_le_pos; lra).
  assert (UB : U <= X + Xz) by (unfold U; lra).
  assert (K1 : B2R (fsub (x n) t) * (1 + 8 * h) <= (U + pow2 (-53) * U + pow2 (-1075)) * (1 + 8 * h)) by (apply Rmult_le_compat_r; lra).
  assert (K5 : pow2 (-1075) * (1 + 8 * h) <= pow2 (-1075) * 2) by (apply Rmult_le_compat_l; lra).
  assert (K2 : (U + pow2 (-53) * U) * (1 + 8 * h) <= U + (8 * h + pow2 (-52)) * U).
  { rewrite P52. assert (pow2 (-53) * U * (8 * h) <= pow2 (-53) * U * 1) by (apply Rmult_le_compat_l; [apply Rmult_le_pos; lra|lra]). lra. }
  assert (K3 : (8 * h + pow2 (-52)) * U <= (8 * h + pow2 (-52)) * (X + Xz)) by (apply Rmult_le_compat_l; lra).
  unfold U in *. lra.
Qed.
End Lsq.

(** every cut of lsq_oracle holds, enlarged, at the points kept by the final value t' *)
Lemma lsq64_call_holds dot m F F0 x h MB MF X Xz y o1 o2 t0 t' g b s3 :
  fdot_any dot -> ext64 dot -> (0 < m)%nat -> (Z.of_nat m <= 2 ^ 20)%Z -> (0 < length F)%nat -> (Z.of_nat (length F) <= 2 ^ 20)%Z ->
  run_bound (length F) MB MF X <= pow2 400 -> X <= pow2 800 -> all_sym m (matsR F) -> lmi_sizes m F F0 MB MF -> 0 <= X ->
  (forall k, (k < S (length F))%nat -> is_finite (x k) = true /\ Rabs (B2R (x k)) <= X) -> 0 <= h <= / 1024 -> 0 <= Xz ->
  lsq_inside m F F0 h MB MF X Xz y -> beats_by (val_slack h X Xz) t' (y (length F)) ->
  lsq_chols m o1 -> is_finite t0 = true \/ t0 = B754_infinity false ->
  (is_finite (best t0 s3) = true -> is_finite t' = true /\ B2R t' <= B2R (best t0 s3)) -> (is_finite t0 = true -> is_finite t' = true /\ B2R t' <= B2R t0) ->
  lsq64 dot F F0 m m (length F) o1 x t0 = Ok (o2, ((g, b), s3)) ->
  (forall k, (k < S (length F))%nat -> is_finite (g k) = true) -> is_finite b = true -> holds64 (S (length F)) h x g b y.
Proof.
  intros Hd NE H0 Hm N1 N2 HM HX8 SF HSz HX Hx Hh HXz Y1 Y2 I1 I2 R1 R2 Hs Fg Fb. unfold lsq64 in Hs. set (n := length F) in *.
  destruct o1 as [[q Qq] Q0]. destruct I1 as (A1 & A2 & A3 & A4).
  unfold lsq_call in Hs. rewrite Nat.eqb_refl in Hs. cbn [negb] in Hs. fold n in Hs.
  apply bind_ok in Hs as ([Q0' c1] & E1 & Hs). destruct c1 as [[gc bc]|].
  { assert (bc = b) by congruence. subst bc.
    apply (lsq_lin dot m F F0 x h MB MF X Xz Hd NE H0 Hm N1 N2 HM SF HSz HX Hx Hh y Y1 Q0 Q0' gc g b); try assumption.
    intros k. assert (E : g = fun k => if (k <? n)%nat then gc k else @nzero b64 (FNumD dot)) by congruence. rewrite E. reflexivity. }
  apply bind_ok in Hs as ([[q' Qq'] c2] & E2 & Hs). destruct c2 as [[gc bc]|].
  { apply bind_ok in Hs as ([Q3 ep3] & W3 & Hs). destruct (c_p Q3) as [s0 n0] eqn:Ep3. assert (bc = b) by congruence. subst bc.
    assert (E : g = fun k => if (k <? n)%nat then gc k else if (k =? n)%nat then @nopp b64 (FNumD dot) (@ndot b64 (FNumD dot) (n0 - s0) (fun k => c_v Q3 (s0 + k)%nat) (fun k => c_v Q3 (s0 + k)%nat)) else @nzero b64 (FNumD dot)) by congruence.
    apply (lsq_quad dot m F F0 x h MB MF X Xz Hd NE H0 Hm N1 N2 HM HX8 SF HSz HX Hx Hh y Y1 (qmi_update q (x n)) q' Qq Qq' Q3 gc g b ep3); try assumption; try reflexivity.
    - intros k Hk. rewrite E. destruct (Nat.ltb_spec k n); [reflexivity|unfold n in *; lia].
    - rewrite E, Ep3. fold n. rewrite Nat.ltb_irrefl, Nat.eqb_refl. reflexivity. }
  cbn [nltb nsub nzero none FNumD] in Hs. match type of Hs with (if ?bb then _ else _) = _ => destruct bb eqn:Bw end.
  - assert (E : g = fun k => if (k =? n)%nat then fmake 1 0 else fzero) by congruence. assert (fsub (x n) t0 = b) by congruence. subst b.
    assert (F0t : is_finite t0 = true).
    { destruct I2 as [A|A]; [exact A|]. exfalso. rewrite A in Bw. destruct (Hx n ltac:(lia)) as [Fx _]. clear - Bw Fx. destruct (x n) as [|[]| |[]]; try discriminate Fx; vm_compute in Bw; discriminate Bw. }
    destruct (R2 F0t) as [Ft' Lt']. apply (lsq_val1 m F F0 x h MB MF X Xz) with (t' := t'); try assumption. intros k. rewrite E. reflexivity.
  - assert (E : g = fun k => if (k =? n)%nat then fmake 1 0 else fzero) by congruence. assert (fzero = b) by congruence. assert (s3 = Some (x n)) by congruence. subst b s3.
    cbn [best] in R1. destruct (R1 (proj1 (Hx n ltac:(lia)))) as [Ft' Lt']. apply (lsq_val0 m F x h X Xz) with (t' := t'); try assumption. intros k. rewrite E. reflexivity.
Qed.

Theorem C177_lsq64_nosoln :
  forall h M G X W Xz MB MF dot dotf ltb tneq m F F0 o max_it tol w e t tr o' st' xb t' info,
  fdot_any dot -> ext64 dot -> fdot_any dotf -> lsq_chols m o ->
  (0 < m)%nat -> (Z.of_nat m <= 2 ^ 20)%Z -> built64 e -> e_n e = S (length F) ->
  all_sym m (matsR F) -> lmi_sizes m F F0 MB MF -> run_bound (length F) MB MF X <= pow2 400 -> X <= pow2 800 ->
  is_finite t = true \/ t = B754_infinity false -> 0 <= Xz ->
  cutting_plane_dc (@ell_space b64 (FNumD dotf)) ltb tneq (lsq64_omega cut1 dot m F F0) max_it tol o (w, e) t = Ok (tr, o', st', (xb, t', info)) ->
  cstatus info = nosoln ->
  single_scaled h M G X W (asked64_dc (@ell_space b64 (FNumD dotf)) (lsq64_omega cut1 dot m F F0) o (w, e) t tr) ->
  forall z, mem64 (w, e) z ->
  ~ cube_in (e_n e) (INR (num_iters info) * drift64 (e_n e) h W X)
      (fun y => lsq_inside m F F0 h MB MF X Xz y /\ beats_by (val_slack h X Xz) t' (y (length F))) z.
Proof.
  intros h M G X W Xz MB MF dot dotf ltb tneq m F F0 o max_it tol w e t tr o' st' xb t' info Hd NE Hdf Ho H0 Hm HB EF SF HSz HM HX8 Ht HXz Hrun HN HS.
  match goal with |- forall z, _ -> ~ cube_in _ _ ?K0 z => set (K := K0) end.
  set (om := lsq64_omega cut1 dot m F F0) in *.
  apply (C153_dc_nosoln h M G X W dotf ltb tneq om max_it tol o w e t tr o' st' xb t' info K Hdf HB Hrun HN HS).
  destruct (dc_spec _ _ _ _ _ _ _ _ _ _ _ _ _ _ _ Hrun) as (HR & _). set (n := length F) in *.
  set (P := fun x : nat -> b64 => (0 < n)%nat /\ (Z.of_nat n <= 2 ^ 20)%Z /\ 0 <= X /\ 0 <= h <= / 1024 /\ forall k, (k < S n)%nat -> is_finite (x k) = true /\ Rabs (B2R (x k)) <= X).
  set (I := fun (o : qmi b64 * chol b64 * chol b64) (t : b64) => lsq_chols m o /\ (is_finite t = true \/ t = B754_infinity false)).
  set (Rl := fun a b : b64 => is_finite b = true -> is_finite a = true /\ B2R a <= B2R b).
  assert (ST : forall o x t0 o1 cu t1, I o t0 -> P x -> om o x t0 = Ok (o1, (cu, t1)) -> I o1 (best t0 t1) /\ Rl (best t0 t1) t0).
  { intros o2 x t0 o1 cu t1 [I1 I2] (_ & _ & _ & _ & Hx) Hs. destruct (lsq64_step _ _ _ _ _ _ _ _ _ _ _ I1 Hs) as [J1 J2].
    destruct t1 as [s|]; cbn [best]; [|split; [split; assumption|intros A; split; [exact A|lra]]].
    destruct (J2 s eq_refl) as [-> J3]. fold n in J3. destruct (Hx n ltac:(lia)) as [Fx _]. specialize (J3 Fx).
    split; [split; [exact J1|left; exact Fx]|]. intros Ft. split; [exact Fx|]. rewrite (f64_ltb t0 (x n) Ft Fx) in J3. apply Rnot_lt_le. intros L. rewrite Rlt_bool_true in J3 by exact L. discriminate J3. }
  assert (PN : forall st1 cu, asked64_dc (@ell_space b64 (FNumD dotf)) om o (w, e) t tr st1 cu -> e_n (snd st1) = S n).
  { intros st1 cu (u1 & ev & u2 & o2 & t2 & _ & _ & Hr). rewrite <- EF. change e with (snd (w, e)). clear - Hr.
    remember (w, e) as st eqn:Est. clear Est. induction Hr as [|? ? ? ? ? ? ? ? ? ? ? ? ? E U Hr IH]; [reflexivity|]. rewrite IH. exact (update_n64 dotf _ _ _ _ U). }
  assert (PA : forall st1 cu, asked64_dc (@ell_space b64 (FNumD dotf)) om o (w, e) t tr st1 cu -> P (fst st1 (e_xc (snd st1)))).
  { intros st1 cu HA. assert (EN := PN st1 cu HA). destruct (HS st1 cu HA) as (g & b & _ & S1 & _). destruct (scaled_proper _ _ _ _ _ _ _ S1) as (_ & Hh & HX & _).
    destruct st1 as [w1 e1]. cbn [fst snd] in *. destruct S1 as ([N1 N2] & _ & _ & Sx & _ & _ & _ & _ & _ & _ & _ & _ & Hh1). rewrite EN in *.
    split; [lia|]. split; [lia|]. split; [exact HX|]. split; [lra|exact Sx]. }
  destruct (dc_events dotf om I P Rl (fun _ t0 _ A => conj A (Rle_refl _)) (fun a b c A1 A2 A3 => conj (proj1 (A1 (proj1 (A2 A3)))) (Rle_trans _ _ _ (proj2 (A1 (proj1 (A2 A3)))) (proj2 (A2 A3)))) ST _ _ _ _ _ _ _ HR) as [_ HE].
  { split; assumption. }
  { exact PA. }
  intros ev g b y Hin Ec [Y1 Y2]. destruct (HE ev Hin) as (st1 & o1 & o2 & t0 & HA & EN & Ex & [I1 I2] & Hs & R1 & R2).
  assert (PX := PA st1 _ HA). rewrite <- Ex in PX. destruct PX as (N1 & N2 & HX & Hh & Hx).
  destruct (HS st1 _ HA) as (g1 & b1 & Eg & S1 & _). assert (g1 = g) by congruence. assert (b1 = b) by congruence. subst g1 b1. clear Eg.
  assert (EN1 := PN st1 _ HA). destruct st1 as [w1 e1]. cbn [fst snd] in *.
  destruct S1 as (_ & _ & Sg & _ & _ & [Fb _] & _). rewrite EN1 in Sg. rewrite EF. rewrite Ec in Hs.
  set (x := d_x ev) in *. unfold om, lsq64_omega in Hs. apply bind_ok in Hs as ([o3 [cu s3]] & Hs & Eo).
  assert (Eu : cut1 cu = (g, BScalar b)) by congruence. assert (Es : s3 = d_t1 ev) by congruence. clear Eo. rewrite <- Es in *. clear Es.
  destruct cu as [gu bu]. cbn [fst snd] in Eu. assert (gu = g) by congruence. assert (bu = b) by congruence. subst gu bu. clear Eu.
  apply (lsq64_call_holds dot m F F0 x h MB MF X Xz y o1 o3 t0 t' g b s3); try assumption. intros k Hk. apply Sg, Hk.
Qed.
Print Assumptions C177_lsq64_nosoln.

(** Non-vacuity.  C176: the matrix F(x) = exB64 - x I is [[1, 1/2], [1/2, 2]] at x = 1, and t = 1 is refused; at x = 5/2
    the matrix F(x)'F(x) is I/2.  C177: one coefficient, the residual 9/4 - y_0/4 of order 1, from the unit disc
    about (1, 0), where the cut is -(y_0 - 1) - y_1 + 4 <= 0 *)
Lemma tiny k : (k <= -20)%Z -> 0 < pow2 k <= / 1048576.
Proof. intros H. split; [apply bpow_gt_0|]. change (/ 1048576) with (pow2 (-20)). apply bpow_le. exact H. Qed.
Lemma r_of (a k : Z) : (Z.abs a < 2 ^ 53)%Z -> (-1000 <= k <= 900)%Z -> B2R (fmake a k) = IZR a * pow2 k.
Proof. intros. apply fmakeR; lia. Qed.
Definition z176 : nat -> R := fun _ => 5 / 2.
Definition qmi_cut_info (r : res (qmi b64 * chol b64 * option (@gcut b64))) : option (list spec_float) :=
  match r with Ok (_, _, Some (g, ep)) => Some [B2SF (g 0%nat); B2SF ep] | _ => None end.
Example C176_ex : exists q' Q' g ep,
  fdot_any fdot_seq /\ ext64 fdot_seq /\ all_sym 2 (matsR exF64) /\ lmi_data 2 exF64 exB64 (fun _ => fmake 1 0) 4 /\ mats_le 2 exF64 (fun _ => 1) /\
  qmi64 fdot_seq exF64 exB64 2 2 (length exF64) (qmi_update qmi_init (fmake 1 0)) (@chol_init b64 FNum 2) (fun _ => fmake 1 0) = Ok (q', Q', Some (g, ep)) /\
  is_finite ep = true /\ (forall k, (k < length exF64)%nat -> is_finite (g k) = true) /\ B2R ep = / 4 /\ B2R (g 0%nat) = -2 /\
  psd_by 2 (qcut_slack 2 1 (B2R (fmake 1 0)) 4 (wdistq 1 (fun _ => 1) z176 (vecR (fun _ => fmake 1 0))) + 96 * pow2 (-40) * (INR 2 * qmi_size 2 (B2R (fmake 1 0)) 4))
    (qmi_mat 2 (matR exB64) (matsR exF64) (B2R (fmake 1 0)) z176).
Proof.
  assert (X : qmi_cut_info (qmi64 fdot_seq exF64 exB64 2 2 (length exF64) (qmi_update qmi_init (fmake 1 0)) (@chol_init b64 FNum 2) (fun _ => fmake 1 0)) = Some (map B2SF [fmake (-2) 0; fmake 1 (-2)])) by (vm_compute; reflexivity).
  revert X. destruct (qmi64 fdot_seq exF64 exB64 2 2 (length exF64) (qmi_update qmi_init (fmake 1 0)) (@chol_init b64 FNum 2) (fun _ => fmake 1 0)) as [[[q' Q'] [[g ep]|]]|]; try discriminate. unfold qmi_cut_info. cbn [map]. intros X.
  assert (I : forall x y : b64, B2SF x = B2SF y -> x = y) by (intros x y; apply B2SF_inj).
  assert (E0 : g 0%nat = fmake (-2) 0) by (apply I; congruence). assert (E1 : ep = fmake 1 (-2)) by (apply I; congruence). clear X I. subst ep.
  exists q', Q', g, (fmake 1 (-2)). destruct C130_ex as (_ & _ & _ & A4 & A5 & _).
  split; [exact fnum_dot_any|]. split; [exact fdot_seq_ext|]. split; [exact A4|]. split; [exact A5|].
  split. { intros k i j Hk Hi Hj. rewrite nth_matsR. destruct k as [|k]; [|cbn in Hk; lia]. cbn [nth exF64]. destruct i as [|[|i]], j as [|[|j]]; try lia; unfold mat2; rewrite ?r1; change (B2R (fmake 0 0)) with 0; apply Rabs_le; lra. }
  split; [reflexivity|]. split; [reflexivity|]. split; [intros k Hk; destruct k as [|k]; [rewrite E0; reflexivity|cbn in Hk; lia]|].
  split; [rewrite r_of by lia; change (pow2 (-2)) with (/ 4); lra|]. split; [rewrite E0, r_of by lia; change (pow2 0) with 1; lra|].
  apply (psd_by_mono 2 (/ 2)).
  - unfold qcut_slack, wdistq, wdist, qmi_size, z176, vecR. cbn [rsum]. rewrite r1. change (INR 2) with 2. change (INR 1) with 1. rewrite (Rabs_right 1) by lra. rewrite (Rabs_right (5 / 2 - 1)) by lra.
    assert (T1 := tiny (-500) ltac:(lia)). assert (T2 := tiny (-1000) ltac:(lia)). assert (T3 := tiny (-45) ltac:(lia)). assert (T4 := tiny (-48) ltac:(lia)). assert (T5 := tiny (-40) ltac:(lia)).
    set (a := bpow radix2 (-500)) in *. set (b := bpow radix2 (-1000)) in *.
    assert (S1 : 1 + 2 * ((4 + a) * (4 + a)) <= 51) by nra. assert (S0 : 0 <= (4 + a) * (4 + a)) by nra.
    assert (B1 : pow2 (-45) * (1 + 2 * ((4 + a) * (4 + a))) <= / 1048576 * 51) by (apply Rmult_le_compat; lra).
    assert (B2 : pow2 (-40) * (1 + 2 * ((4 + a) * (4 + a))) <= / 1048576 * 51) by (apply Rmult_le_compat; lra).
    assert (B3 : (4 + a) * ((1 + a + b) * (5 / 2 - 1)) <= 5 * (3 * (5 / 2 - 1))) by (apply Rmult_le_compat; [lra|apply Rmult_le_pos; lra|lra|apply Rmult_le_compat_r; lra]).
    assert (B4 : pow2 (-48) * ((4 + a) * ((1 + a + b) * (5 / 2 - 1))) <= / 1048576 * (5 * (3 * (5 / 2 - 1)))) by (apply Rmult_le_compat; [lra|apply Rmult_le_pos; [lra|apply Rmult_le_pos; lra]|lra|exact B3]).
    lra.
  - intros v. rewrite bf2. unfold qmi_mat, aff_mat, lin_mat, z176, S_LinAlg.dot. cbn [rsum Nat.eqb length matsR map exF64 nth]. unfold matR, exB64, mat2. rewrite !r_of by lia.
    change (pow2 0) with 1. change (pow2 (-1)) with (/ 2).
    assert (V0 := Rle_0_sqr (v 0%nat)); assert (V1 := Rle_0_sqr (v 1%nat)); unfold Rsqr in *; lra.
Qed.

Definition exF7 : list (nat -> nat -> b64) := [fun _ _ => fmake 1 (-2)].
Definition exB7 : nat -> nat -> b64 := fun _ _ => fmake 9 (-2).
Definition x7 : nat -> b64 := fun k => if (k =? 0)%nat then fmake 1 0 else fzero.
Definition o7 : qmi b64 * chol b64 * chol b64 := (@qmi_init b64 FNum, @chol_init b64 FNum 1, @chol_init b64 FNum 1).
Definition y7 : nat -> R := fun k => if (k =? 0)%nat then 9 else 5.
Definition ex177_info (w : memory b64) (x : res (ell b64)) : option (nat * list spec_float * list spec_float * status) :=
  match x with
  | Ok e => match lsq64_omega cut1 fdot_seq 1 exF7 exB7 o7 x7 (B754_infinity false) with
            | Ok (_, ((g, BScalar ep), None)) =>
                match @ell_update b64 (FNumD fdot_seq) (w, e) (g, BScalar ep) with
                | Ok (_, (s, _)) => Some (e_n e, ell2_of e w, [B2SF (g 0%nat); B2SF (g 1%nat); B2SF ep], s)
                | Raise _ => None end
            | _ => None end
  | Raise _ => None end.
Lemma ex7_bound : run_bound 1 (9 / 4) (fun _ => / 4) 1 = 5 / 2.
Proof. unfold run_bound. cbn [rsum]. field. Qed.
Lemma ex7_sizes : lmi_sizes 1 exF7 exB7 (9 / 4) (fun _ => / 4).
Proof.
  split.
  - intros i j _ _. split; [reflexivity|]. split; [unfold matR, exB7; rewrite r_of by lia; change (pow2 (-2)) with (/ 4); apply Rabs_le; lra|]. intros Fk [<-|[]]. reflexivity.
  - intros k i j Hk _ _. rewrite nth_matsR. destruct k as [|k]; [|cbn in Hk; lia]. cbn [nth exF7]. rewrite r_of by lia. change (pow2 (-2)) with (/ 4). apply Rabs_le. lra.
Qed.
Lemma ex7_inside : lsq_inside 1 exF7 exB7 (pow2 (-37)) (9 / 4) (fun _ => / 4) 1 10 y7.
Proof.
  assert (T1 := tiny (-500) ltac:(lia)). assert (T2 := tiny (-1000) ltac:(lia)). assert (T3 := tiny (-45) ltac:(lia)). assert (T4 := tiny (-48) ltac:(lia)). assert (T5 := tiny (-37) ltac:(lia)).
  assert (T6 := tiny (-46) ltac:(lia)). assert (T7 := tiny (-50) ltac:(lia)). assert (T8 := tiny (-51) ltac:(lia)).
  set (a := pow2 (-500)) in *. set (b := pow2 (-1000)) in *.
  split; [|split].
  - intros k Hk. destruct k as [|[|k]]; [| |cbn in Hk; lia]; unfold y7; cbn [Nat.eqb]; apply Rabs_le; lra.
  - apply (psd_by_mono 1 1).
    + unfold run_margin. change (length exF7) with 1%nat. rewrite ex7_bound. unfold cut_slack. cbn [rsum]. change (INR 1) with 1. fold b.
      assert (B1 : pow2 (-46) * (5 / 2 + b) <= / 1048576 * 3) by (apply Rmult_le_compat; lra).
      assert (B2 : pow2 (-50) * ((1 + 10) * (0 + (/ 4 + b))) <= / 1048576 * (11 * 1)) by (apply Rmult_le_compat; lra).
      assert (B3 : pow2 (-37) * (5 / 2 + b) <= / 1048576 * 3) by (apply Rmult_le_compat; lra). lra.
    + intros v. rewrite bf_sums. unfold lin_mat, S_LinAlg.dot, y7, matsR, exF7, matR. cbn [rsum length map nth Nat.eqb]. rewrite !r_of by lia. change (pow2 (-2)) with (/ 4).
      assert (V0 := Rle_0_sqr (v 0%nat)). unfold Rsqr in *. lra.
  - apply (psd_by_mono 1 1).
    + unfold lsq_margin. change (length exF7) with 1%nat. rewrite ex7_bound. unfold qcut_slack, qmi_size. cbn [rsum]. change (INR 1) with 1. rewrite (Rabs_right 1) by lra. fold a b.
      set (z := 5 / 2 + a). assert (Z0 : 0 <= z <= 3) by (unfold z; lra). assert (S0 : 0 <= z * z) by (apply Rmult_le_pos; lra). assert (S1 : z * z <= 3 * 3) by (apply Rmult_le_compat; lra).
      assert (B1 : pow2 (-45) * (1 + 1 * (z * z)) <= / 1048576 * 10) by (apply Rmult_le_compat; lra).
      assert (B2 : pow2 (-37) * (1 + 1 * (z * z)) <= / 1048576 * 10) by (apply Rmult_le_compat; lra).
      assert (B3 : z * ((1 + 10) * (0 + (/ 4 + a + b))) <= 3 * 11) by (apply Rmult_le_compat; lra).
      assert (B5 : 0 <= z * ((1 + 10) * (0 + (/ 4 + a + b)))) by (apply Rmult_le_pos; lra).
      assert (B4 : pow2 (-48) * (z * ((1 + 10) * (0 + (/ 4 + a + b)))) <= / 1048576 * (3 * 11)) by (apply Rmult_le_compat; lra).
      lra.
    + intros v. rewrite bf_sums. unfold qmi_mat, aff_mat, lin_mat, S_LinAlg.dot, y7, matsR, exF7, matR, exB7. cbn [rsum length map nth Nat.eqb]. rewrite !r_of by lia. change (pow2 (-2)) with (/ 4).
      assert (V0 := Rle_0_sqr (v 0%nat)). unfold Rsqr in *. lra.
Qed.
Example C177_ex : exists (e : ell b64) w tr o' st' xb info z,
  fdot_any fdot_seq /\ ext64 fdot_seq /\ lsq_chols 1 o7 /\ built64 e /\ e_n e = S (length exF7) /\ all_sym 1 (matsR exF7) /\
  lmi_sizes 1 exF7 exB7 (9 / 4) (fun _ => / 4) /\ run_bound (length exF7) (9 / 4) (fun _ => / 4) 1 <= pow2 400 /\ 1 <= pow2 800 /\
  cutting_plane_dc (@ell_space b64 (FNumD fdot_seq)) (fun _ _ => false) (fun _ _ => false) (lsq64_omega cut1 fdot_seq 1 exF7 exB7) 5 fzero o7 (w, e) (B754_infinity false)
    = Ok (tr, o', st', (xb, B754_infinity false, info)) /\
  cstatus info = nosoln /\
  single_scaled (pow2 (-37)) 1 1 1 2 (asked64_dc (@ell_space b64 (FNumD fdot_seq)) (lsq64_omega cut1 fdot_seq 1 exF7 exB7) o7 (w, e) (B754_infinity false) tr) /\
  mem64 (w, e) z /\ lsq_inside 1 exF7 exB7 (pow2 (-37)) (9 / 4) (fun _ => / 4) 1 10 y7 /\ beats_by (val_slack (pow2 (-37)) 1 10) (B754_infinity false) (y7 1%nat).
Proof.
  set (w := (fun (_ : loc) => x7) : memory b64).
  assert (X : ex177_info w (@ell_init b64 FNum (VScalar (fmake 1 0)) 2 0%nat) =
    Some (2%nat, map B2SF [fmake 1 0; fmake 1 0; fzero; fzero; fmake 1 0; fmake 1 0; fzero], map B2SF [fmake (-1) 0; fmake (-1) 0; fmake 4 0], nosoln)) by (vm_compute; reflexivity).
  revert X. destruct (@ell_init b64 FNum (VScalar (fmake 1 0)) 2 0%nat) as [e|] eqn:E; [|discriminate]. unfold ex177_info.
  match goal with |- match ?u with Ok _ => _ | Raise _ => _ end = _ -> _ => destruct u as [[o' [[g [ep|?]] [t1|]]]|] eqn:L; try discriminate end.
  match goal with |- match ?u with Ok _ => _ | Raise _ => _ end = _ -> _ => destruct u as [[st2 [s tsq]]|] eqn:U; [|discriminate] end. intros X.
  unfold ell2_of in X. cbn [map] in X.
  assert (En : e_n e = 2%nat) by congruence. assert (Es : s = nosoln) by congruence.
  assert (I : forall x y : b64, B2SF x = B2SF y -> x = y) by (intros x y; apply B2SF_inj).
  assert (X1 : e_kappa e = fmake 1 0) by (apply I; congruence).
  assert (X2 : e_Q e 0%nat 0%nat = fmake 1 0) by (apply I; congruence).
  assert (X3 : e_Q e 0%nat 1%nat = fzero) by (apply I; congruence).
  assert (X4 : e_Q e 1%nat 0%nat = fzero) by (apply I; congruence).
  assert (X5 : e_Q e 1%nat 1%nat = fmake 1 0) by (apply I; congruence).
  assert (G0 : g 0%nat = fmake (-1) 0) by (apply I; congruence).
  assert (G1 : g 1%nat = fmake (-1) 0) by (apply I; congruence).
  assert (G2 : ep = fmake 4 0) by (apply I; congruence). clear X I. subst s ep.
  assert (RM : B2R (fmake (-1) 0) = -1) by (rewrite r_of by lia; change (pow2 0) with 1; lra).
  assert (S1 : scaled64 (pow2 (-37)) 1 1 1 (w, e) g (fmake 4 0)).
  { apply scaled_diag2g with (q0 := fmake 1 0) (q1 := fmake 1 0); rewrite ?X1, ?G0, ?G1, ?RM; try assumption; try reflexivity; try (rewrite ?r1, ?r4; lra).
    - intros i Hi. destruct i as [|[|i]]; [| |lia]; (split; [reflexivity|]); unfold w, x7; cbn [Nat.eqb]; rewrite ?r1; change (B2R fzero) with 0; apply Rabs_le; lra.
    - intros i Hi. destruct i as [|[|i]]; [| |lia]; rewrite ?G0, ?G1; (split; [reflexivity|]); rewrite RM; apply Rabs_le; lra. }
  set (tr := [{| d_x := x7; d_t := B754_infinity false : b64; d_cut := (g, BScalar (fmake 4 0)); d_t1 := None; d_status := nosoln; d_tsq := tsq |}]).
  exists e, w, tr, o', st2, None, {| feasible := false; num_iters := 1; cstatus := nosoln |}, (vecR x7).
  split; [exact fnum_dot_any|]. split; [exact fdot_seq_ext|]. split; [repeat split|]. split; [exists (VScalar (fmake 1 0)), 0%nat, e; rewrite En; split; [exact E|auto]|].
  split; [exact En|]. split; [intros Fk [<-|[]] i j _ _; reflexivity|]. split; [exact ex7_sizes|].
  split; [change (length exF7) with 1%nat; rewrite ex7_bound; assert (8 <= pow2 400) by (change 8 with (pow2 3); apply bpow_le; lia); lra|].
  split; [change 1 with (pow2 0); apply bpow_le; lia|].
  split.
  { unfold cutting_plane_dc. cbn [dc_loop]. change (centre (@ell_space b64 (FNumD fdot_seq)) (w, e)) with x7. rewrite L. cbn [bind fst snd sp_update ell_space]. rewrite U.
    cbn [bind status_eqb negb]. reflexivity. }
  split; [reflexivity|]. split.
  { intros st1 c (tr1 & ev & tr2 & o1 & t2 & Et & Ec & HR). unfold tr in Et. destruct tr1 as [|e1 tr1]; [|destruct tr1; discriminate Et].
    inversion HR; subst. exists g, (fmake 4 0). split; [cbn [app] in Et; assert (Ee : ev = {| d_x := x7; d_t := B754_infinity false : b64; d_cut := (g, BScalar (fmake 4 0)); d_t1 := None; d_status := nosoln; d_tsq := tsq |}) by congruence; rewrite Ee; reflexivity|]. split; [exact S1|]. cbn [snd]. rewrite X1, r1. lra. }
  split. { unfold mem64. rewrite En. exists (fun _ => 0). split.
    + intros i Hi. unfold mvr, S_LinAlg.dot. cbn [rsum]. unfold vecR, w. ring.
    + rewrite bf2, X1, r1. lra. }
  split; [exact ex7_inside|]. intros A. discriminate A.
Qed.
