(** Property theorems about qmi_oracle and lsq_oracle in binary64 (C149-). *)
From Coq Require Import ZArith Reals Lra Lia Bool List.
From Flocq Require Import Core.Core IEEE754.BinarySingleNaN.
From Verif Require Import Base M_Chol M_Ell M_Lmi M_Examples M_Drivers S_Drivers T_Drivers M_Float S_LinAlg P_LinAlg P_Chol S_Lmi P_Lmi P_Float P_Float2 S_Float S_Float2 P_FSum P_EllF P_CholF P_Chol2 P_LmiF P_QmiF T_Float T_Float4.
Import ListNotations.
Local Open Scope R_scope.

(** ** C149 *)
Definition qmi_slack (m n : nat) (t M : R) : R :=
  INR m * (INR m + INR n + 2) * pow2 (-46) * (Rabs t + INR m * ((M + pow2 (-500)) * (M + pow2 (-500)))).
Lemma qslack_ok (c : R) m n E : pow2 (-1000) <= E -> 0 <= c <= pow2 (-49) ->
  INR m * (INR m + 1) * c * (5 * E + pow2 (-1000)) + INR m * ((INR m + INR n + 3) * pow2 (-50) * E) <= INR m * (INR m + INR n + 2) * pow2 (-46) * E.
Proof.
  intros HE Hc. set (kap := pow2 (-1000)) in *. assert (K : 0 < kap) by apply bpow_gt_0.
  assert (E49 : pow2 (-49) = pow2 (-46) / 8) by (change (-49)%Z with (-3 + -46)%Z; rewrite bpow_plus; change (pow2 (-3)) with (/ 8); field).
  assert (E50 : pow2 (-50) = pow2 (-46) / 16) by (change (-50)%Z with (-4 + -46)%Z; rewrite bpow_plus; change (pow2 (-4)) with (/ 16); field).
  assert (P : 0 < pow2 (-46)) by apply bpow_gt_0. assert (N1 := pos_INR m). assert (N2 := pos_INR n).
  rewrite E49 in Hc. rewrite E50.
  assert (A1 : INR m * (INR m + 1) * c * (5 * E + kap) <= INR m * (INR m + 1) * (pow2 (-46) / 8) * (6 * E)).
  { apply Rmult_le_compat; [|lra| |lra].
    - apply Rmult_le_pos; [apply Rmult_le_pos; lra|lra].
    - apply Rmult_le_compat_l; [apply Rmult_le_pos; lra|lra]. }
  eapply Rle_trans; [apply Rplus_le_compat_r, A1|].
  replace (INR m * (INR m + 1) * (pow2 (-46) / 8) * (6 * E) + INR m * ((INR m + INR n + 3) * (pow2 (-46) / 16) * E))
    with ((INR m * pow2 (-46) * E) * ((INR m + 1) * (3 / 4) + (INR m + INR n + 3) / 16)) by field.
  replace (INR m * (INR m + INR n + 2) * pow2 (-46) * E) with ((INR m * pow2 (-46) * E) * (INR m + INR n + 2)) by ring.
  apply Rmult_le_compat_l; [apply Rmult_le_pos; [apply Rmult_le_pos; lra|lra]|lra].
Qed.

Notation qmi64 dot := (@qmi_call b64 (FNumD dot)).
Theorem C149_qmi64_decides :
  forall dot m F F0 (q : qmi b64) (Q : chol b64) x t M,
  fdot_any dot -> ext64 dot -> c_n Q = m -> c_semi Q = false ->
  (0 < m)%nat -> (Z.of_nat m <= 2 ^ 20)%Z -> (Z.of_nat (length F) <= 2 ^ 20)%Z -> M <= pow2 400 ->
  M_Lmi.q_t q = Some t -> is_finite t = true -> Rabs (B2R t) <= pow2 800 -> lmi_data m F F0 x M ->
  exists q' Q' c, qmi64 dot F F0 m m (length F) q Q x = Ok (q', Q', c) /\ M_Lmi.q_t q' = Some t /\ c_n Q' = m /\ c_semi Q' = false /\
    match c with
    | None => forall z, nonzero m z ->
        - qmi_slack m (length F) (B2R t) M * S_LinAlg.dot m z z < bf m (qmi_mat m (matR F0) (matsR F) (B2R t) (vecR x)) z z
    | Some (g, ep) => (is_finite ep = true -> 0 <= B2R ep) /\ exists z, nonzero m z /\
        bf m (qmi_mat m (matR F0) (matsR F) (B2R t) (vecR x)) z z <= qmi_slack m (length F) (B2R t) M * S_LinAlg.dot m z z
    end.
Proof.
  intros dot m F F0 q Q x t M Hd NE En Es H0 Hm HF HM Hq Ft Ht Hdata.
  set (a := ent64 dot m F F0 x t).
  destruct (C117_chol64_total dot a Q NE Es) as (Q1 & b & E).
  destruct (factor_state (H := FNumD dot) a (cache64 dot F F0 x t) (fun q i j => @qmi_eval b64 (FNumD dot) F F0 m (length F) q i j x) Q Q1 b (mk_qmi (M_Lmi.q_t q) 0 (q_Fx q)))
    as (q1 & E1 & (T1 & _)).
  { intros g i j Hj _ Hg. apply qmi64_getter; assumption. }
  { split; [exact Hq|]. split; [reflexivity|]. intros; lia. }
  { exact E. }
  assert (Keep : c_n Q1 = c_n Q /\ c_semi Q1 = c_semi Q /\ b = chol_is_spd Q1).
  { unfold chol_factor in E1. apply bind_ok in E1 as ([[g' T'] p] & _ & E1). injection E1 as _ <- <-. repeat split. }
  destruct Keep as (K1 & K2 & Kb).
  assert (Ent := qmi_entry dot Hd m F F0 x t M H0 Hm HF Hdata HM Ft Ht). fold a in Ent.
  destruct (Eq_pos m F F0 x t M H0 Hm Hdata HM Ht) as [P1 P2].
  set (Ma := 5 * Eq m t M) in *.
  assert (Hsym := qmi_mat_sym m m (matR F0) (matsR F) (B2R t) (vecR x)).
  assert (Hfin : low_finite m a) by (intros i j Hj Hi; apply (Ent i j); lia).
  assert (Hcl : forall i j, (j <= i)%nat -> (i < m)%nat -> Rabs (B2R (a i j) - qmi_mat m (matR F0) (matsR F) (B2R t) (vecR x) i j) <= (INR m + INR (length F) + 3) * pow2 (-50) * Eq m t M)
    by (intros i j Hj Hi; apply (Ent i j); lia).
  assert (Hdg : forall i, (i < m)%nat -> B2R (a i i) <= Ma).
  { intros i Hi. eapply Rle_trans; [apply Rle_abs|]. apply (Ent i i); lia. }
  assert (K := bpow_gt_0 radix2 (-1000)).
  assert (HMa : 0 <= Ma) by (unfold Ma; lra).
  assert (HMb : Ma <= pow2 900).
  { unfold Ma. apply Rle_trans with (pow2 3 * pow2 824); [change (pow2 3) with 8; lra|]. rewrite <- bpow_plus. apply bpow_le. lia. }
  unfold qmi_call, gmi_call. cbv beta in E1 |- *. rewrite E1. cbn [bind]. destruct b; cbn [negb].
  - exists q1, Q1, None. split; [reflexivity|]. split; [exact T1|]. split; [congruence|]. split; [congruence|]. intros z Hz.
    pose proof (accept64 dot Hd NE m a _ _ Ma H0 Hm Hsym Hfin Hcl Hdg HMa Q Q1 En Es E z Hz) as A.
    eapply Rle_lt_trans; [|exact A]. apply Rmult_le_compat_r; [apply dot_nonneg|].
    apply Ropp_le_contravar. apply (qslack_ok (pow2 (-50)) m (length F) (Eq m t M) P1). split; [apply bpow_ge_0|apply bpow_le; lia].
  - destruct (@chol_witness b64 (FNumD dot) Q1) as [[Q2 ep]|e] eqn:W.
    2: { unfold chol_witness in W. rewrite <- Kb in W. destruct (c_p Q1). discriminate W. }
    cbn [bind]. unfold qmi_grad. destruct (c_p Q2) as [s n] eqn:Ep. rewrite Nat.eqb_refl, orb_true_r. cbn [bind].
    assert (Kw : c_n Q2 = c_n Q1 /\ c_semi Q2 = c_semi Q1).
    { unfold chol_witness in W. rewrite <- Kb in W. destruct (c_p Q1). injection W as <- _. split; reflexivity. }
    destruct Kw. eexists q1, Q2, (Some _). split; [reflexivity|]. split; [exact T1|]. split; [congruence|]. split; [congruence|]. cbv beta iota.
    destruct (reject64 dot Hd NE m a _ _ Ma H0 Hm Hsym Hfin Hcl Hdg HMa Q Q1 Q2 ep En Es E W) as (P & A0).
    split; [exact P|]. destruct (A0 (or_intror HMb)) as (z & Hz & A).
    exists z. split; [exact Hz|]. eapply Rle_trans; [exact A|]. apply Rmult_le_compat_r; [apply dot_nonneg|].
    apply (qslack_ok (pow2 (-49)) m (length F) (Eq m t M) P1). split; [apply bpow_ge_0|apply Rle_refl].
Qed.
Print Assumptions C149_qmi64_decides.

(** exB64 - x I with x = 1 is [[1, 1/2], [1/2, 2]]: |F(x)| lies between 1 and 4; t = 16 is accepted, t = 1 rejected *)
Definition qmi_info (r : res (qmi b64 * chol b64 * option (@gcut b64))) : option (option bool) :=
  match r with Ok (_, _, None) => Some None | Ok (_, _, Some (_, ep)) => Some (Some (is_finite ep)) | Raise _ => None end.
Example C149_ex :
  lmi_data 2 exF64 exB64 (fun _ => fmake 1 0) 4 /\
  is_finite (fmake 16 0) = true /\ Rabs (B2R (fmake 16 0)) <= pow2 800 /\ is_finite (fmake 1 0) = true /\ Rabs (B2R (fmake 1 0)) <= pow2 800 /\
  qmi_info (qmi64 fdot_seq exF64 exB64 2 2 1 (qmi_update qmi_init (fmake 16 0)) (@chol_init b64 FNum 2) (fun _ => fmake 1 0)) = Some None /\
  qmi_info (qmi64 fdot_seq exF64 exB64 2 2 1 (qmi_update qmi_init (fmake 1 0)) (@chol_init b64 FNum 2) (fun _ => fmake 1 0)) = Some (Some true).
Proof.
  assert (B : 16 <= pow2 800) by (change 16 with (pow2 4); apply bpow_le; lia).
  split; [apply C130_ex|]. split; [reflexivity|]. split; [rewrite fmakeR by lia; change (pow2 0) with 1; rewrite Rabs_right; lra|].
  split; [reflexivity|]. split; [rewrite fmakeR by lia; change (pow2 0) with 1; rewrite Rabs_right; lra|].
  split; vm_compute; reflexivity.
Qed.

(** ** C150: lsq_oracle *)
Notation lsq64 dot := (@lsq_call b64 (FNumD dot)).
Lemma lmi0_keep dot F n (Q Q' : chol b64) x c : @lmi0_call b64 (FNumD dot) F n Q x = Ok (Q', c) ->
  c_n Q' = c_n Q /\ c_semi Q' = c_semi Q.
Proof.
  unfold lmi0_call. intros H. apply bind_ok in H as ([[g1 Q1] b] & E & H).
  assert (K : c_n Q1 = c_n Q /\ c_semi Q1 = c_semi Q).
  { unfold chol_factor in E. apply bind_ok in E as ([[g' T] p] & _ & E). injection E as <- <- <-. split; reflexivity. }
  destruct b; [injection H as <- <-; exact K|]. apply bind_ok in H as ([Q2 ep] & W & H). injection H as <- <-.
  unfold chol_witness in W. destruct (chol_is_spd Q1); [discriminate|]. destruct (c_p Q1). injection W as <- _. exact K.
Qed.
Lemma witness_keep dot (Q Q' : chol b64) ep : @chol_witness b64 (FNumD dot) Q = Ok (Q', ep) -> c_n Q' = c_n Q /\ c_semi Q' = c_semi Q /\ c_p Q' = c_p Q.
Proof. unfold chol_witness. destruct (chol_is_spd Q); [discriminate|]. destruct (c_p Q) eqn:E. intros H. injection H as <- _. auto. Qed.
Lemma qmi_keep dot F F0 rows cols n (q q' : qmi b64) (Q Q' : chol b64) x c : qmi64 dot F F0 rows cols n q Q x = Ok (q', Q', c) ->
  c_n Q' = c_n Q /\ c_semi Q' = c_semi Q /\ (c <> None -> chol_is_spd Q' = false).
Proof.
  unfold qmi_call, gmi_call. intros H. apply bind_ok in H as ([[g1 Q1] b] & E & H).
  assert (K : c_n Q1 = c_n Q /\ c_semi Q1 = c_semi Q /\ b = chol_is_spd Q1).
  { unfold chol_factor in E. apply bind_ok in E as ([[g' T] p] & _ & E). injection E as <- <- <-. repeat split. }
  destruct K as (K1 & K2 & Kb). destruct b; cbn [negb] in H; [injection H as <- <- <-; split; [exact K1|]; split; [exact K2|intros Hn; elim Hn; reflexivity]|].
  apply bind_ok in H as ([Q2 ep] & W & H). apply bind_ok in H as (gr & _ & H). injection H as <- <- <-.
  destruct (witness_keep _ _ _ _ W) as (W1 & W2 & W3). split; [congruence|]. split; [congruence|]. intros _.
  unfold chol_is_spd in *. rewrite W3. symmetry. exact Kb.
Qed.
(** x - t > 0 exactly when x > t, for every t (infinities and NaN included) *)
Lemma fsub_gt (x t : b64) : is_finite x = true -> Bltb fzero (fsub x t) = Bltb t x.
Proof.
  intros Fx. destruct (is_finite t) eqn:Ft.
  - assert (A := fsub_pos x t Fx Ft). rewrite (f64_ltb t x Ft Fx). destruct (Rlt_bool_spec (B2R t) (B2R x)) as [L|L].
    + apply A. exact L.
    + destruct (Bltb fzero (fsub x t)); [|reflexivity]. exfalso. assert (B2R t < B2R x) by (apply A; reflexivity). lra.
  - destruct t as [|[]| |]; try discriminate Ft; destruct x as [|[]| |[]]; try discriminate Fx; reflexivity.
Qed.
Lemma lmi_data_zero m F F0 x M : lmi_data m F F0 x M -> lmi_data m F (fun _ _ => fzero) x M.
Proof.
  intros [H1 H2]. split; [exact H1|]. intros i j Hi Hj. destruct (H2 i j Hi Hj) as (_ & A & B). split; [reflexivity|]. split; [exact A|].
  assert (P := Rabs_pos (matR F0 i j)). unfold matR at 1. change (B2R fzero) with 0. rewrite Rabs_R0. lra.
Qed.
Definition lsq_chols (m : nat) (o : qmi b64 * chol b64 * chol b64) : Prop :=
  let '(q, Qq, Q0) := o in c_n Qq = m /\ c_semi Qq = false /\ c_n Q0 = m /\ c_semi Q0 = false.

Theorem C150_lsq64_decides :
  forall dot m F F0 o x t M,
  fdot_any dot -> ext64 dot -> lsq_chols m o ->
  (0 < m)%nat -> (Z.of_nat m <= 2 ^ 20)%Z -> (Z.of_nat (length F) <= 2 ^ 20)%Z -> M <= pow2 400 -> all_sym m (matsR F) ->
  lmi_data m F F0 x M -> is_finite (x (length F)) = true -> Rabs (B2R (x (length F))) <= pow2 800 ->
  let n := length F in
  let lin := lin_mat (matsR F) (vecR x) in
  let quad := qmi_mat m (matR F0) (matsR F) (B2R (x n)) (vecR x) in
  exists o' g fj t1, lsq64 dot F F0 m m n o x t = Ok (o', ((g, fj), t1)) /\ lsq_chols m o' /\
    match t1 with
    | Some s => s = x n /\ Bltb t (x n) = false /\ fj = fzero /\ (forall k, g k = if Nat.eqb k n then fmake 1 0 else fzero) /\
        (forall z, nonzero m z -> - lmi_slack m n M * S_LinAlg.dot m z z < bf m lin z z) /\
        (forall z, nonzero m z -> - qmi_slack m n (B2R (x n)) M * S_LinAlg.dot m z z < bf m quad z z)
    | None =>
        (Bltb t (x n) = true /\ fj = fsub (x n) t /\ (forall k, g k = if Nat.eqb k n then fmake 1 0 else fzero)) \/
        ((is_finite fj = true -> 0 <= B2R fj) /\
         ((g n = fzero /\ exists z, nonzero m z /\ bf m lin z z <= lmi_slack m n M * S_LinAlg.dot m z z) \/
          (exists z, nonzero m z /\ bf m quad z z <= qmi_slack m n (B2R (x n)) M * S_LinAlg.dot m z z)))
    end.
Proof.
  intros dot m F F0 [[q Qq] Q0] x t M Hd NE Ho H0 Hm HF HM SF Hdata Fx Bx n lin quad. cbn [lsq_chols] in Ho. destruct Ho as (C1 & C2 & C3 & C4).
  assert (HM1 : M <= pow2 1000) by (eapply Rle_trans; [exact HM|apply bpow_le; lia]).
  destruct (C130_lmi0_64_decides dot m F Q0 x M Hd NE C3 C4 H0 Hm HF HM1 SF (lmi_data_zero _ _ _ _ _ Hdata)) as (Q0' & c & E & K1 & K2 & Hc).
  unfold lsq_call. rewrite Nat.eqb_refl. cbn [negb]. fold n. fold n in E. rewrite E. cbn [bind]. destruct c as [[g1 fj]|].
  { eexists _, _, _, _. split; [reflexivity|]. split; [cbn; auto|]. cbv beta iota. right. destruct Hc as [P1 P2]. split; [exact P1|]. left.
    rewrite Nat.ltb_irrefl. split; [reflexivity|]. apply P2. right. eapply Rle_trans; [exact HM|apply bpow_le; lia]. }
  destruct (C149_qmi64_decides dot m F F0 (qmi_update q (x n)) Qq x (x n) M Hd NE C1 C2 H0 Hm HF HM eq_refl Fx Bx Hdata) as (q' & Qq' & c & E2 & _ & L1 & L2 & Hq).
  fold n in E2. rewrite E2. cbn [bind]. destruct c as [[g1 fj]|].
  { destruct (qmi_keep _ _ _ _ _ _ _ _ _ _ _ _ E2) as (_ & _ & Spd).
    destruct (@chol_witness b64 (FNumD dot) Qq') as [[Qq2 ep]|e] eqn:W.
    2: { unfold chol_witness in W. rewrite Spd in W by discriminate. destruct (c_p Qq'). discriminate W. }
    destruct (witness_keep _ _ _ _ W) as (W1 & W2 & _). cbn [bind]. destruct (c_p Qq2) as [s n2].
    eexists _, _, _, _. split; [reflexivity|]. split; [cbn; repeat split; congruence|]. cbv beta iota. right.
    destruct Hq as [P1 P2]. split; [exact P1|]. right. exact P2. }
  cbn [nltb nsub nzero FNumD]. change (Bltb fzero (fsub (x n) t)) with (Bltb fzero (fsub (x n) t)).
  match goal with |- context [if ?b then Ok _ else Ok _] => assert (Eb : b = Bltb t (x n)) by (apply (fsub_gt (x n) t Fx)); rewrite Eb end.
  destruct (Bltb t (x n)).
  - eexists _, _, _, _. split; [reflexivity|]. split; [cbn; auto|]. cbv beta iota. left. split; [reflexivity|]. split; [reflexivity|]. intros k. reflexivity.
  - eexists _, _, _, _. split; [reflexivity|]. split; [cbn; auto|]. cbv beta iota. split; [reflexivity|]. split; [reflexivity|]. split; [reflexivity|].
    split; [intros k; reflexivity|]. split; [exact Hc|exact Hq].
Qed.
Print Assumptions C150_lsq64_decides.
(** C150_ex: F(x) = x_0 I, F0 = exB64; at x_0 = 1 with x_1 = 16 both inequalities are accepted; x_1 = 1 or x_0 = -1 give cuts *)
Definition pt (a b : Z) : nat -> b64 := fun k => match k with O => fmake a 0 | _ => fmake b 0 end.
Definition lsq_info (r : res ((qmi b64 * chol b64 * chol b64) * (@gcut b64 * option b64))) : option (bool * bool) :=
  match r with Ok (_, ((_, fj), t1)) => Some (match t1 with Some _ => true | None => false end, Bltb fzero fj) | Raise _ => None end.
Definition ex_lsq_o : qmi b64 * chol b64 * chol b64 := (@qmi_init b64 FNum, @chol_init b64 FNum 2, @chol_init b64 FNum 2).
Example C150_ex :
  lsq_chols 2 ex_lsq_o /\ all_sym 2 (matsR exF64) /\
  lmi_data 2 exF64 exB64 (pt 1 16) 4 /\ is_finite (pt 1 16 1%nat) = true /\ Rabs (B2R (pt 1 16 1%nat)) <= pow2 800 /\
  lsq_info (lsq64 fdot_seq exF64 exB64 2 2 1 ex_lsq_o (pt 1 16) (B754_infinity false)) = Some (true, false) /\
  lsq_info (lsq64 fdot_seq exF64 exB64 2 2 1 ex_lsq_o (pt 1 16) (fmake 15 0)) = Some (false, true) /\
  lsq_info (lsq64 fdot_seq exF64 exB64 2 2 1 ex_lsq_o (pt 1 1) (B754_infinity false)) = Some (false, true) /\
  lsq_info (lsq64 fdot_seq exF64 exB64 2 2 1 ex_lsq_o (pt (-1) 16) (B754_infinity false)) = Some (false, true).
Proof.
  assert (B : 16 <= pow2 800) by (change 16 with (pow2 4); apply bpow_le; lia).
  split; [repeat split|]. split; [apply C130_ex|]. split.
  { destruct C130_ex as (_ & _ & _ & _ & [H1 H2] & _). split; [intros [|k] Hk; [reflexivity|cbn in Hk; lia]|].
    intros i j Hi Hj. destruct (H2 i j Hi Hj) as (A & A2 & A3). split; [exact A|]. split; [exact A2|]. exact A3. }
  split; [reflexivity|]. split; [cbn [pt]; rewrite fmakeR by lia; change (pow2 0) with 1; rewrite Rabs_right; lra|].
  repeat split; vm_compute; reflexivity.
Qed.

(** ** C151: the optimising driver over lsq_oracle, with any search space *)
Definition lsq64_omega {C : Type} (conv : @gcut b64 -> C) (dot : nat -> (nat -> b64) -> (nat -> b64) -> b64) m F F0
    (o : qmi b64 * chol b64 * chol b64) (x : nat -> b64) (t : b64) : res ((qmi b64 * chol b64 * chol b64) * (C * option b64)) :=
  ' (o', (cut, t1)) <- lsq64 dot F F0 m m (length F) o x t ;; Ok (o', (conv cut, t1)).
Lemma lsq64_step {C} (conv : @gcut b64 -> C) dot m F F0 o x t o' cu t1 : lsq_chols m o ->
  lsq64_omega conv dot m F F0 o x t = Ok (o', (cu, t1)) ->
  lsq_chols m o' /\ forall s, t1 = Some s -> s = x (length F) /\ (is_finite s = true -> Bltb t s = false).
Proof.
  destruct o as [[q Qq] Q0]. intros (C1 & C2 & C3 & C4) H. unfold lsq64_omega, lsq_call in H. rewrite Nat.eqb_refl in H. cbn [negb] in H.
  apply bind_ok in H as ([o2 [cut t2]] & H & H2). injection H2 as <- <- <-.
  apply bind_ok in H as ([Q1 c1] & E1 & H). destruct (lmi0_keep _ _ _ _ _ _ _ E1) as [K1 K2].
  destruct c1 as [[g1 fj]|].
  { injection H as <- _ <-. split; [repeat split; cbn; congruence|discriminate]. }
  apply bind_ok in H as ([[q' Q2] c2] & E2 & H). destruct (qmi_keep _ _ _ _ _ _ _ _ _ _ _ _ E2) as (K3 & K4 & _).
  destruct c2 as [[g1 fj]|].
  { apply bind_ok in H as ([Q3 ep] & W & H). destruct (witness_keep _ _ _ _ W) as (W1 & W2 & _). destruct (c_p Q3).
    injection H as <- _ <-. split; [repeat split; cbn; congruence|discriminate]. }
  cbn [nltb nsub nzero FNumD] in H.
  match type of H with (if ?b then _ else _) = _ => destruct b eqn:Bw end; injection H as <- _ <-; (split; [repeat split; cbn; congruence|]); [discriminate|].
  intros s [= <-]. split; [reflexivity|]. intros Fs. rewrite <- (fsub_gt _ t Fs). exact Bw.
Qed.
(** not (t < u) and not (u < v) give not (t < v), if u is not a NaN *)
Lemma nlt_trans (t u v : b64) : is_nan u = false -> Bltb t u = false -> Bltb u v = false -> Bltb t v = false.
Proof.
  intros Nu H1 H2. destruct (is_finite t) eqn:Ft, (is_finite u) eqn:Fu, (is_finite v) eqn:Fv.
  1: { rewrite (f64_ltb t u Ft Fu) in H1. rewrite (f64_ltb u v Fu Fv) in H2. rewrite (f64_ltb t v Ft Fv).
       destruct (Rlt_bool_spec (B2R t) (B2R u)); [discriminate|]. destruct (Rlt_bool_spec (B2R u) (B2R v)); [discriminate|].
       apply Rlt_bool_false. lra. }
  all: destruct t as [|[]| |[]], u as [|[]| |[]], v as [|[]| |[]]; try discriminate; try reflexivity.
Qed.

Theorem C151_lsq64_returned :
  forall (St X C Sc : Type) (sp : space St X (nat -> b64) C Sc) (conv : @gcut b64 -> C) ltb tneq dot m F F0
         o max_it tol st t tr o' st' xb t' info,
  fdot_any dot -> ext64 dot -> lsq_chols m o -> (0 < m)%nat -> (Z.of_nat m <= 2 ^ 20)%Z -> (Z.of_nat (length F) <= 2 ^ 20)%Z ->
  all_sym m (matsR F) ->
  cutting_plane_dc sp ltb tneq (lsq64_omega conv dot m F F0) max_it tol o st t = Ok (tr, o', st', (xb, t', info)) ->
  let n := length F in
  (xb = None -> t' = t) /\
  ((forall ev, In ev tr -> is_finite (d_x ev n) = true) -> is_nan t = false -> xb <> None -> Bltb t t' = false) /\
  (xb <> None -> exists ev, In ev tr /\ t' = d_x ev n /\
     forall M, M <= pow2 400 -> lmi_data m F F0 (d_x ev) M -> is_finite t' = true -> Rabs (B2R t') <= pow2 800 ->
     (forall z, nonzero m z -> - lmi_slack m n M * S_LinAlg.dot m z z < bf m (lin_mat (matsR F) (vecR (d_x ev))) z z) /\
     (forall z, nonzero m z ->
        rsum m (fun r => S_LinAlg.dot m (aff_mat (matR F0) (matsR F) (vecR (d_x ev)) r) z * S_LinAlg.dot m (aff_mat (matR F0) (matsR F) (vecR (d_x ev)) r) z)
        < (B2R t' + qmi_slack m n (B2R t') M) * S_LinAlg.dot m z z)).
Proof.
  intros St X C Sc sp conv ltb tneq dot m F F0 o max_it tol st t tr o' st' xb t' info Hd NE Ho H0 Hm HF SF Hrun n.
  destruct (C04_dc_last_improvement _ _ _ _ _ _ _ sp ltb tneq (lsq64_omega conv dot m F F0) max_it tol o st t tr o' st' xb t' info Hrun)
    as (Hrep & Hx & _). clear Hrun.
  split.
  { intros ->. destruct Hx as [(_ & -> & _)|(tr1 & ev & tr2 & _ & _ & _ & Hxb)]; [reflexivity|congruence]. }
  split.
  { intros Hfin Nt _. clear Hx. revert t Nt Hrep. revert st. revert o Ho. induction tr as [|e1 tr IH]; intros o Ho st t Nt Hrep.
    - inversion Hrep; subst. destruct t' as [|[]| |[]]; try discriminate Nt; try reflexivity.
      all: rewrite f64_ltb by reflexivity; apply Rlt_bool_false, Rle_refl.
    - inversion Hrep as [|? ? ? c0 t1 o1 st1 s q tr0 ? ? ? Ho1 ? Hr]; subst.
      destruct (lsq64_step conv dot m F F0 _ _ _ _ _ _ Ho Ho1) as [Hk1 Ht1].
      assert (F1 := Hfin _ (or_introl eq_refl)). cbn [d_x] in F1. unfold n in F1.
      destruct t1 as [u|]; cbn [best] in Hr.
      + destruct (Ht1 u eq_refl) as [Eu Lu]. rewrite <- Eu in F1. assert (Nu : is_nan u = false) by (destruct u; try discriminate F1; reflexivity).
        apply (nlt_trans t u t' Nu (Lu F1)). apply (IH (fun ev H => Hfin ev (or_intror H)) o1 Hk1 st1 u Nu Hr).
      + apply (IH (fun ev H => Hfin ev (or_intror H)) o1 Hk1 st1 t Nt Hr). }
  intros Hxb. destruct Hx as [(_ & -> & ->)|(tr1 & ev & tr2 & -> & _ & Hev & _)]; [congruence|].
  exists ev. split; [apply in_or_app; right; left; reflexivity|].
  assert (Key : exists o x t0 o1 cu, lsq_chols m o /\ x = d_x ev /\ lsq64_omega conv dot m F F0 o x t0 = Ok (o1, (cu, Some t'))).
  { generalize dependent t. generalize dependent st. generalize dependent o. clear -Hev.
    induction tr1 as [|e1 tr1 IH]; intros o Hk st t Hrep.
    - cbn in Hrep. inversion Hrep as [|? ? ? c0 t1 o1 st1 s q tr0 ? ? ? Ho]; subst. cbn in Hev. subst t1.
      exists o, (centre sp st), t, o1, c0. auto.
    - cbn in Hrep. inversion Hrep as [|? ? ? c0 t1 o1 st1 s q tr0 ? ? ? Ho ? Hr]; subst.
      destruct (lsq64_step conv dot m F F0 _ _ _ _ _ _ Hk Ho) as [Hk1 _]. apply (IH o1 Hk1 st1 (best t t1) Hr). }
  destruct Key as (oe & x & t0 & o1 & cu & Hko & -> & Hoe).
  destruct (lsq64_step conv dot m F F0 _ _ _ _ _ _ Hko Hoe) as [_ Hs]. destruct (Hs t' eq_refl) as [Et _]. fold n in Et.
  split; [exact Et|]. intros M HM Hdata Ft Bt. rewrite Et in Ft, Bt.
  destruct (C150_lsq64_decides dot m F F0 oe (d_x ev) t0 M Hd NE Hko H0 Hm HF HM SF Hdata Ft Bt) as (o2 & g & fj & t1 & E & _ & Hc).
  unfold lsq64_omega in Hoe. rewrite E in Hoe. cbn [bind] in Hoe. assert (T1 : t1 = Some t') by congruence. subst t1. cbv beta iota in Hc.
  destruct Hc as (_ & _ & _ & _ & Hl & Hqd). split; [exact Hl|]. intros z Hz. specialize (Hqd z Hz). fold n in Hqd. rewrite <- Et in Hqd.
  pose proof (bf_qmi_mat m (matR F0) (matsR F) (B2R t') (vecR (d_x ev)) 0 m z) as Eb.
  change (blk (qmi_mat m (matR F0) (matsR F) (B2R t') (vecR (d_x ev))) 0) with (qmi_mat m (matR F0) (matsR F) (B2R t') (vecR (d_x ev))) in Eb.
  rewrite Eb in Hqd. change (rsum m (fun r => Fv 0 m (aff_mat (matR F0) (matsR F) (vecR (d_x ev))) z r * Fv 0 m (aff_mat (matR F0) (matsR F) (vecR (d_x ev))) z r))
    with (rsum m (fun r => S_LinAlg.dot m (aff_mat (matR F0) (matsR F) (vecR (d_x ev)) r) z * S_LinAlg.dot m (aff_mat (matR F0) (matsR F) (vecR (d_x ev)) r) z)) in Hqd.
  lra.
Qed.
Print Assumptions C151_lsq64_returned.
(** fit [[2, 1/2], [1/2, 3]] by x_0 I, from the ball of radius 8 about (1, 16) *)
Definition ex_lsq_run : option (bool * nat * bool) :=
  match @ell_init b64 FNum (VScalar (fmake 64 0)) 2 0%nat with
  | Raise _ => None
  | Ok e =>
      match cutting_plane_dc (@ell_space b64 FNum) (fun x y => Bltb x y) (fun _ _ => true)
              (lsq64_omega (fun c => (fst c, BScalar (snd c))) fdot_seq 2 exF64 exB64) 6 (fmake 1 (-20))
              ex_lsq_o (fun _ => pt 1 16, e) (B754_infinity false) with
      | Ok (tr, Q', st', (xb, t', info)) => Some (match xb with Some _ => true | None => false end, num_iters info, Bltb t' (fmake 16 0))
      | Raise _ => None
      end
  end.
Example C151_ex : ex_lsq_run = Some (true, 6%nat, true).
Proof. vm_compute. reflexivity. Qed.
