(** Property theorems about the matrix inequality oracles in binary64, alone and under the drivers (C130-). *)
From Coq Require Import ZArith Reals Lra Lia Bool List.
From Flocq Require Import Core.Core IEEE754.BinarySingleNaN.
From Verif Require Import Base M_Chol M_Ell M_Lmi M_Examples M_Drivers S_Drivers T_Drivers M_Float S_LinAlg P_LinAlg P_Chol S_Lmi P_Lmi T_Lmi P_Float P_Float2 S_Float S_Float2 P_FSum P_CholF P_Chol2 P_LmiF T_Float.
Import ListNotations.
Local Open Scope R_scope.

Lemma dot_nonneg m z : 0 <= S_LinAlg.dot m z z.
Proof. apply rsum_nonneg. intros; apply Rle_0_sqr. Qed.
(** ** C130 *)
Definition lmi_slack (m n : nat) (M : R) : R := INR m * (INR m + INR n + 2) * pow2 (-47) * (M + pow2 (-1000)).
Lemma slack_ok (c : R) m n M : 0 <= M -> 0 <= c <= pow2 (-49) ->
  INR m * (INR m + 1) * c * (2 * (M + pow2 (-1000)) + pow2 (-1000)) + INR m * ((INR n + 2) * pow2 (-52) * (M + pow2 (-1000))) <= lmi_slack m n M.
Proof.
  intros HM Hc. unfold lmi_slack. set (kap := pow2 (-1000)). assert (K : 0 < kap) by apply bpow_gt_0.
  assert (E49 : pow2 (-49) = pow2 (-47) / 4) by (change (-49)%Z with (-2 + -47)%Z; rewrite bpow_plus; change (pow2 (-2)) with (/ 4); field).
  assert (E52 : pow2 (-52) = pow2 (-47) / 32) by (change (-52)%Z with (-5 + -47)%Z; rewrite bpow_plus; change (pow2 (-5)) with (/ 32); field).
  assert (P : 0 < pow2 (-47)) by apply bpow_gt_0. assert (N1 := pos_INR m). assert (N2 := pos_INR n).
  rewrite E49 in Hc. rewrite E52.
  assert (A1 : INR m * (INR m + 1) * c * (2 * (M + kap) + kap) <= INR m * (INR m + 1) * (pow2 (-47) / 4) * (3 * (M + kap))).
  { apply Rmult_le_compat; [|lra| |lra].
    - apply Rmult_le_pos; [apply Rmult_le_pos; lra|lra].
    - apply Rmult_le_compat_l; [apply Rmult_le_pos; lra|lra]. }
  eapply Rle_trans; [apply Rplus_le_compat_r, A1|].
  replace (INR m * (INR m + 1) * (pow2 (-47) / 4) * (3 * (M + kap)) + INR m * ((INR n + 2) * (pow2 (-47) / 32) * (M + kap)))
    with ((INR m * pow2 (-47) * (M + kap)) * ((INR m + 1) * (3 / 4) + (INR n + 2) / 32)) by field.
  replace (INR m * (INR m + INR n + 2) * pow2 (-47) * (M + kap)) with ((INR m * pow2 (-47) * (M + kap)) * (INR m + INR n + 2)) by ring.
  apply Rmult_le_compat_l; [apply Rmult_le_pos; [apply Rmult_le_pos; lra|lra]|lra].
Qed.

Notation lmi64 dot := (@lmi_call b64 (FNumD dot)).
Notation lmi0_64 dot := (@lmi0_call b64 (FNumD dot)).
Lemma factor_total dot getA a (Q : chol b64) : ext64 dot -> c_semi Q = false ->
  (forall g i j, (j <= i)%nat -> (i < c_n Q)%nat -> getA g i j = Ok (tt, a i j)) ->
  exists Q1 b, @chol_factor b64 (FNumD dot) unit getA tt Q = Ok (tt, Q1, b).
Proof.
  intros NE Hs Hg. destruct (C117_chol64_total dot a Q NE Hs) as (Q' & b & E).
  unfold chol_factorize in E. apply bind_ok in E as ([[[] Q0] b0] & E & _).
  pose proof (factor_agree (H := FNumD dot) (NE := NE) (pure_getA a) getA (c_n Q) tt Q Q eq_refl eq_refl) as Hf.
  rewrite E in Hf. pose proof (factor_p_lt (H := FNumD dot) _ _ _ _ _ _ E) as [_ Hp].
  destruct Hf as (Q1 & E1 & _).
  - intros [] i j Hj Hi. rewrite Hg by assumption. reflexivity.
  - unfold rows_used. destruct (Nat.eqb_spec (snd (c_p Q0)) 0); lia.
  - eauto.
Qed.

Theorem C130_lmi64_decides :
  forall dot m F B (Q : chol b64) x M,
  fdot_any dot -> ext64 dot -> c_n Q = m -> c_semi Q = false ->
  (0 < m)%nat -> (Z.of_nat m <= 2 ^ 20)%Z -> (Z.of_nat (length F) <= 2 ^ 20)%Z -> M <= pow2 1000 ->
  sym m (matR B) -> all_sym m (matsR F) -> lmi_data m F B x M ->
  exists Q' c, lmi64 dot F B (length F) Q x = Ok (Q', c) /\ c_n Q' = m /\ c_semi Q' = false /\
    match c with
    | None => forall z, nonzero m z ->
        - lmi_slack m (length F) M * S_LinAlg.dot m z z < bf m (aff_mat (matR B) (matsR F) (vecR x)) z z
    | Some (g, ep) => (is_finite ep = true -> 0 <= B2R ep) /\ (is_finite ep = true \/ M <= pow2 890 -> exists z, nonzero m z /\
        bf m (aff_mat (matR B) (matsR F) (vecR x)) z z <= lmi_slack m (length F) M * S_LinAlg.dot m z z)
    end.
Proof.
  intros dot m F B Q x M Hd NE En Es H0 Hm HF HM SB SF Hdata.
  set (a := fun i j => fsub (B i j) (@psum b64 (FNumD dot) (length F) (fun k => fmul (nth k F (fun _ _ => fzero) i j) (x k)))).
  assert (Hg : forall g i j, (j <= i)%nat -> (i < c_n Q)%nat -> @lmi_getA b64 (FNumD dot) F B (length F) x g i j = Ok (tt, a i j)).
  { intros [] i j _ _. unfold lmi_getA, lin_sum. rewrite Nat.leb_refl. reflexivity. }
  assert (HM0 := lmi_data_nonneg m F B x M Hdata H0).
  assert (Ent := lmi_entry dot m F B x M Hdata HM HF).
  assert (Hsym : sym m (aff_mat (matR B) (matsR F) (vecR x))) by (apply aff_mat_sym; assumption).
  assert (Hfin : low_finite m a) by (intros i j Hj Hi; apply (Ent i j); lia).
  assert (Hcl : forall i j, (j <= i)%nat -> (i < m)%nat -> Rabs (B2R (a i j) - aff_mat (matR B) (matsR F) (vecR x) i j) <= (INR (length F) + 2) * pow2 (-52) * (M + pow2 (-1000)))
    by (intros i j Hj Hi; apply (Ent i j); lia).
  assert (Hdg : forall i, (i < m)%nat -> B2R (a i i) <= 2 * (M + pow2 (-1000))).
  { intros i Hi. eapply Rle_trans; [apply Rle_abs|]. apply (Ent i i); lia. }
  assert (K := bpow_gt_0 radix2 (-1000)).
  destruct (factor_total dot _ a Q NE Es Hg) as (Q1 & b & E).
  destruct (factor_pure dot NE _ a Q Q1 tt b Hg E) as (K1 & K2 & Q1' & E' & W).
  unfold lmi_call. rewrite E. cbn [bind]. destruct b.
  - exists Q1, None. split; [reflexivity|]. split; [congruence|]. split; [congruence|]. intros z Hz.
    pose proof (accept64 dot Hd NE m a _ _ (2 * (M + pow2 (-1000))) H0 Hm Hsym Hfin Hcl Hdg ltac:(lra) Q Q1' En Es E' z Hz) as A.
    eapply Rle_lt_trans; [|exact A]. apply Rmult_le_compat_r; [apply dot_nonneg|].
    apply Ropp_le_contravar, slack_ok; [exact HM0|]. split; [apply bpow_ge_0|apply bpow_le; lia].
  - destruct (W eq_refl) as (Q2 & Q2' & ep & W1 & W2 & K3 & K4). rewrite W1. cbn [bind].
    eexists _, (Some _). split; [reflexivity|]. split; [congruence|]. split; [congruence|]. cbv beta iota.
    destruct (reject64 dot Hd NE m a _ _ (2 * (M + pow2 (-1000))) H0 Hm Hsym Hfin Hcl Hdg ltac:(lra) Q Q1' Q2' ep En Es E' W2) as (P & A0).
    split; [exact P|]. intros Fe. destruct A0 as (z & Hz & A).
    { destruct Fe as [Fe|M9]; [left; exact Fe|right]. apply Rle_trans with (2 * (pow2 890 + pow2 890)).
      - assert (pow2 (-1000) <= pow2 890) by (apply bpow_le; lia). lra.
      - replace (2 * (pow2 890 + pow2 890)) with (pow2 2 * pow2 890) by (change (pow2 2) with 4; ring). rewrite <- bpow_plus. apply bpow_le. lia. }
    exists z. split; [exact Hz|]. eapply Rle_trans; [exact A|]. apply Rmult_le_compat_r; [apply dot_nonneg|].
    apply slack_ok; [exact HM0|]. split; [apply bpow_ge_0|apply Rle_refl].
Qed.
Print Assumptions C130_lmi64_decides.

(** lmi0_oracle: the matrix is F(x) itself *)
Theorem C130_lmi0_64_decides :
  forall dot m F (Q : chol b64) x M,
  fdot_any dot -> ext64 dot -> c_n Q = m -> c_semi Q = false ->
  (0 < m)%nat -> (Z.of_nat m <= 2 ^ 20)%Z -> (Z.of_nat (length F) <= 2 ^ 20)%Z -> M <= pow2 1000 ->
  all_sym m (matsR F) -> lmi_data m F (fun _ _ => fzero) x M ->
  exists Q' c, lmi0_64 dot F (length F) Q x = Ok (Q', c) /\ c_n Q' = m /\ c_semi Q' = false /\
    match c with
    | None => forall z, nonzero m z ->
        - lmi_slack m (length F) M * S_LinAlg.dot m z z < bf m (lin_mat (matsR F) (vecR x)) z z
    | Some (g, ep) => (is_finite ep = true -> 0 <= B2R ep) /\ (is_finite ep = true \/ M <= pow2 890 -> exists z, nonzero m z /\
        bf m (lin_mat (matsR F) (vecR x)) z z <= lmi_slack m (length F) M * S_LinAlg.dot m z z)
    end.
Proof.
  intros dot m F Q x M Hd NE En Es H0 Hm HF HM SF Hdata.
  set (a := fun i j => @psum b64 (FNumD dot) (length F) (fun k => fmul (nth k F (fun _ _ => fzero) i j) (x k))).
  assert (Hg : forall g i j, (j <= i)%nat -> (i < c_n Q)%nat -> @lmi0_getA b64 (FNumD dot) F (length F) x g i j = Ok (tt, a i j)).
  { intros [] i j _ _. unfold lmi0_getA, lin_sum. rewrite Nat.leb_refl. reflexivity. }
  assert (HM0 := lmi_data_nonneg m F _ x M Hdata H0).
  assert (Ent := lmi_entry dot m F _ x M Hdata HM HF).
  assert (Hsym : sym m (lin_mat (matsR F) (vecR x))) by (apply lin_mat_sym; assumption).
  assert (Hfin : low_finite m a) by (intros i j Hj Hi; apply (Ent i j); lia).
  assert (Hcl : forall i j, (j <= i)%nat -> (i < m)%nat -> Rabs (B2R (a i j) - lin_mat (matsR F) (vecR x) i j) <= (INR (length F) + 2) * pow2 (-52) * (M + pow2 (-1000)))
    by (intros i j Hj Hi; apply (Ent i j); lia).
  assert (Hdg : forall i, (i < m)%nat -> B2R (a i i) <= 2 * (M + pow2 (-1000))).
  { intros i Hi. eapply Rle_trans; [apply Rle_abs|]. apply (Ent i i); lia. }
  assert (K := bpow_gt_0 radix2 (-1000)).
  destruct (factor_total dot _ a Q NE Es Hg) as (Q1 & b & E).
  destruct (factor_pure dot NE _ a Q Q1 tt b Hg E) as (K1 & K2 & Q1' & E' & W).
  unfold lmi0_call. rewrite E. cbn [bind]. destruct b.
  - exists Q1, None. split; [reflexivity|]. split; [congruence|]. split; [congruence|]. intros z Hz.
    pose proof (accept64 dot Hd NE m a _ _ (2 * (M + pow2 (-1000))) H0 Hm Hsym Hfin Hcl Hdg ltac:(lra) Q Q1' En Es E' z Hz) as A.
    eapply Rle_lt_trans; [|exact A]. apply Rmult_le_compat_r; [apply dot_nonneg|].
    apply Ropp_le_contravar, slack_ok; [exact HM0|]. split; [apply bpow_ge_0|apply bpow_le; lia].
  - destruct (W eq_refl) as (Q2 & Q2' & ep & W1 & W2 & K3 & K4). rewrite W1. cbn [bind].
    eexists _, (Some _). split; [reflexivity|]. split; [congruence|]. split; [congruence|]. cbv beta iota.
    destruct (reject64 dot Hd NE m a _ _ (2 * (M + pow2 (-1000))) H0 Hm Hsym Hfin Hcl Hdg ltac:(lra) Q Q1' Q2' ep En Es E' W2) as (P & A0).
    split; [exact P|]. intros Fe. destruct A0 as (z & Hz & A).
    { destruct Fe as [Fe|M9]; [left; exact Fe|right]. apply Rle_trans with (2 * (pow2 890 + pow2 890)).
      - assert (pow2 (-1000) <= pow2 890) by (apply bpow_le; lia). lra.
      - replace (2 * (pow2 890 + pow2 890)) with (pow2 2 * pow2 890) by (change (pow2 2) with 4; ring). rewrite <- bpow_plus. apply bpow_le. lia. }
    exists z. split; [exact Hz|]. eapply Rle_trans; [exact A|]. apply Rmult_le_compat_r; [apply dot_nonneg|].
    apply slack_ok; [exact HM0|]. split; [apply bpow_ge_0|apply Rle_refl].
Qed.
Print Assumptions C130_lmi0_64_decides.

(** a 2 x 2 matrix with one parameter: accepted at x = 1, rejected at x = 4 *)
Definition exF64 : list (nat -> nat -> b64) := [mat2 (fmake 1 0) (fmake 0 0) (fmake 1 0)].
Definition exB64 : nat -> nat -> b64 := mat2 (fmake 2 0) (fmake 1 (-1)) (fmake 3 0).
Definition lmi_info (r : res (chol b64 * option (@gcut b64))) : option (option bool) :=
  match r with Ok (_, None) => Some None | Ok (_, Some (_, ep)) => Some (Some (is_finite ep)) | Raise _ => None end.
Example C130_ex :
  fdot_any fdot_seq /\ ext64 fdot_seq /\ sym 2 (matR exB64) /\ all_sym 2 (matsR exF64) /\
  lmi_data 2 exF64 exB64 (fun _ => fmake 1 0) 4 /\ lmi_data 2 exF64 exB64 (fun _ => fmake 4 0) 8 /\
  lmi_info (lmi64 fdot_seq exF64 exB64 1 (@chol_init b64 FNum 2) (fun _ => fmake 1 0)) = Some None /\
  lmi_info (lmi64 fdot_seq exF64 exB64 1 (@chol_init b64 FNum 2) (fun _ => fmake 4 0)) = Some (Some true).
Proof.
  assert (HD : forall q M, (0 < q <= 4)%Z -> 3 + IZR q <= M -> lmi_data 2 exF64 exB64 (fun _ => fmake q 0) M).
  { intros q M Hq HM. split.
    - intros k Hk. apply (fmake_exact q 0); [apply fmt_scaled; lia|]. apply Rle_lt_trans with 4.
      + cbn [bpow]. rewrite Rmult_1_r. rewrite Rabs_right by (apply Rle_ge, IZR_le; lia). apply IZR_le. lia.
      + change 4 with (pow2 2). apply bpow_lt. lia.
    - intros i j Hi Hj. assert (Q : 0 <= IZR q) by (apply IZR_le; lia).
      destruct i as [|[|]]; try lia; destruct j as [|[|]]; try lia; (split; [reflexivity|]; split; [intros Fk [<-|[]]; reflexivity|]);
        unfold matsR, matR, vecR, exB64, exF64; cbn [map length rsum nth mat2]; rewrite !fmakeR by lia; cbn [bpow];
        rewrite !Rabs_right; cbn; try lra; apply Rle_ge; nra. }
  split; [exact fnum_dot_any|]. split; [exact fdot_seq_ext|]. split; [|split; [|split; [|split; [|split]]]].
  - intros i j Hi Hj. destruct i as [|[|]]; try lia; destruct j as [|[|]]; try lia; reflexivity.
  - intros M [<-|[]] i j Hi Hj. destruct i as [|[|]]; try lia; destruct j as [|[|]]; try lia; reflexivity.
  - apply HD; [lia|lra].
  - apply HD; [lia|lra].
  - vm_compute. reflexivity.
  - vm_compute. reflexivity.
Qed.

(** ** C131: the feasibility driver over lmi_oracle, with any search space: what "feasible" means in binary64 *)
Definition lmi_omega {C : Type} (conv : @gcut b64 -> C) (dot : nat -> (nat -> b64) -> (nat -> b64) -> b64) (F : list (nat -> nat -> b64)) (B : nat -> nat -> b64)
    (Q : chol b64) (x : nat -> b64) : res (chol b64 * option C) :=
  ' (Q', c) <- lmi64 dot F B (length F) Q x ;; Ok (Q', option_map conv c).
Lemma lmi_keep dot F B n (Q Q' : chol b64) x c : @lmi_call b64 (FNumD dot) F B n Q x = Ok (Q', c) ->
  c_n Q' = c_n Q /\ c_semi Q' = c_semi Q.
Proof.
  unfold lmi_call. intros H. apply bind_ok in H as ([[g1 Q1] b] & E & H).
  assert (K : c_n Q1 = c_n Q /\ c_semi Q1 = c_semi Q).
  { unfold chol_factor in E. apply bind_ok in E as ([[g' T] p] & _ & E). injection E as <- <- <-. split; reflexivity. }
  destruct b; [injection H as <- <-; exact K|]. apply bind_ok in H as ([Q2 ep] & W & H). injection H as <- <-.
  unfold chol_witness in W. destruct (chol_is_spd Q1); [discriminate|]. destruct (c_p Q1). injection W as <- _. exact K.
Qed.

Theorem C131_lmi64_feasible :
  forall (St X C Sc : Type) (sp : space St X (nat -> b64) C Sc) (conv : @gcut b64 -> C) ltb dot m F B (Q : chol b64) max_it tol st tr Q' st' info,
  fdot_any dot -> ext64 dot -> c_n Q = m -> c_semi Q = false ->
  (0 < m)%nat -> (Z.of_nat m <= 2 ^ 20)%Z -> (Z.of_nat (length F) <= 2 ^ 20)%Z ->
  sym m (matR B) -> all_sym m (matsR F) ->
  cutting_plane_feas sp ltb (lmi_omega conv dot F B) max_it tol Q st = Ok (tr, Q', st', info) ->
  feasible info = true ->
  forall M, M <= pow2 1000 -> lmi_data m F B (centre sp st') M ->
  forall z, nonzero m z ->
    - lmi_slack m (length F) M * S_LinAlg.dot m z z < bf m (aff_mat (matR B) (matsR F) (vecR (centre sp st'))) z z.
Proof.
  intros St X C Sc sp conv ltb dot m F B Q max_it tol st tr Q' st' info Hd NE En Es H0 Hm HF SB SF Hrun Hfe M HM Hdata.
  destruct (C01_feas_only_at_approved_centre _ _ _ _ _ _ sp ltb (lmi_omega conv dot F B) max_it tol Q st tr Q' st' info Hrun) as (Hrep & H1 & _).
  destruct (H1 Hfe) as (tr0 & ->).
  assert (Key : exists Qe Qe', c_n Qe = m /\ c_semi Qe = false /\ lmi64 dot F B (length F) Qe (centre sp st') = Ok (Qe', None)).
  { clear Hrun H1 Hfe Hdata HM M. revert Q st Hrep En Es. induction tr0 as [|ev tr0 IH]; intros Q st Hrep En Es.
    - cbn in Hrep. inversion Hrep; subst. unfold lmi_omega in *. 
      match goal with Hx : bind _ _ = Ok (Q', None) |- _ => rename Hx into Ho end.
      apply bind_ok in Ho as ([Q1 [c|]] & E & Eo); [discriminate Eo|]. exists Q, Q1. auto.
    - cbn in Hrep. inversion Hrep as [|? ? ? ? E1 E2|o0 st0 c o1 st1 s q tr1 o2 st2 Ho Hu Hr E1 E2 E3]; subst.
      + destruct tr0; discriminate.
      + unfold lmi_omega in Ho. apply bind_ok in Ho as ([Q1 c1] & Ho & Eo). injection Eo as <- _.
        destruct (lmi_keep _ _ _ _ _ _ _ _ Ho) as [K1 K2]. apply (IH Q1 st1 Hr); congruence. }
  destruct Key as (Qe & Qe' & Kn & Ks & Hok).
  destruct (C130_lmi64_decides dot m F B Qe (centre sp st') M Hd NE Kn Ks H0 Hm HF HM SB SF Hdata) as (Q2 & c & E & _ & _ & Hc).
  rewrite Hok in E. injection E as <- <-. exact Hc.
Qed.
Print Assumptions C131_lmi64_feasible.

(** diag(x_1 - 1, x_2 - 1) > 0, from the ball of radius 8 about 0 *)
Definition exB2 : nat -> nat -> b64 := mat2 (fmake (-1) 0) fzero (fmake (-1) 0).
Definition exF2 : list (nat -> nat -> b64) := [mat2 (fmake (-1) 0) fzero fzero; mat2 fzero fzero (fmake (-1) 0)].
Definition ex_run : option (bool * nat * bool) :=
  match @ell_init b64 FNum (VScalar (fmake 64 0)) 2 0%nat with
  | Raise _ => None
  | Ok e =>
      match cutting_plane_feas (@ell_space b64 FNum) (fun x y => Bltb x y) (lmi_omega (fun c => (fst c, BScalar (snd c))) fdot_seq exF2 exB2) 20 (fmake 1 (-20))
              (@chol_init b64 FNum 2) (fun _ _ => fzero, e) with
      | Ok (tr, Q', st', info) => Some (feasible info, num_iters info,
           (Bltb (fmake 1 0) (centre (@ell_space b64 FNum) st' 0%nat) && Bltb (fmake 1 0) (centre (@ell_space b64 FNum) st' 1%nat))%bool)
      | Raise _ => None
      end
  end.
Example C131_ex : ex_run = Some (true, 3%nat, true).
Proof. vm_compute. reflexivity. Qed.

(** ** C132: the optimising driver over the two matrix inequalities of tests/test_lmi.py, with any search space *)
Definition lmi_opt64 {C : Type} (conv : @gcut b64 -> C) (dot : nat -> (nat -> b64) -> (nat -> b64) -> b64) c F1 F2 B1 B2
    (o : chol b64 * chol b64) (x : nat -> b64) (t : option b64) : res ((chol b64 * chol b64) * (C * option (option b64))) :=
  ' (o', (cut, t1)) <- @lmi_opt_call b64 (FNumD dot) (@lmi_call b64 (FNumD dot)) c F1 F2 B1 B2 (length F1) o x t ;; Ok (o', (conv cut, t1)).
Definition chols (m1 m2 : nat) (o : chol b64 * chol b64) : Prop :=
  c_n (fst o) = m1 /\ c_semi (fst o) = false /\ c_n (snd o) = m2 /\ c_semi (snd o) = false.
Lemma lmi_opt64_step {C} (conv : @gcut b64 -> C) dot c F1 F2 B1 B2 m1 m2 o x t o' cu t1 : chols m1 m2 o ->
  lmi_opt64 conv dot c F1 F2 B1 B2 o x t = Ok (o', (cu, t1)) ->
  chols m1 m2 o' /\
  forall s, t1 = Some s -> s = Some (dot (length F1) c x) /\
    (match t with Some t0 => Bltb fzero (fsub (dot (length F1) c x) t0) = false | None => True end) /\
    (exists Q Q', c_n Q = m1 /\ c_semi Q = false /\ lmi64 dot F1 B1 (length F1) Q x = Ok (Q', None)) /\
    (exists Q Q', c_n Q = m2 /\ c_semi Q = false /\ lmi64 dot F2 B2 (length F1) Q x = Ok (Q', None)).
Proof.
  destruct o as [P1 P2]. intros (A1 & A2 & A3 & A4) H. cbn [fst snd] in *. unfold lmi_opt64, lmi_opt_call in H.
  apply bind_ok in H as ([o2 [cut t2]] & H & H2). injection H2 as <- <- <-.
  apply bind_ok in H as ([Q1 c1] & E1 & H). destruct (lmi_keep _ _ _ _ _ _ _ _ E1) as [K1 K2].
  destruct c1 as [c1|].
  { injection H as <- <- <-. split; [repeat split; cbn; congruence|discriminate]. }
  apply bind_ok in H as ([Q2 c2] & E2 & H). destruct (lmi_keep _ _ _ _ _ _ _ _ E2) as [K3 K4].
  destruct c2 as [c2|].
  { injection H as <- <- <-. split; [repeat split; cbn; congruence|discriminate]. }
  assert (Hk : chols m1 m2 (Q1, Q2)) by (repeat split; cbn; congruence).
  assert (HE : (exists Q Q', c_n Q = m1 /\ c_semi Q = false /\ lmi64 dot F1 B1 (length F1) Q x = Ok (Q', None)) /\
    (exists Q Q', c_n Q = m2 /\ c_semi Q = false /\ lmi64 dot F2 B2 (length F1) Q x = Ok (Q', None))).
  { split; [exists P1, Q1|exists P2, Q2]; auto. }
  cbn [ndot nltb nsub nzero FNumD] in H. destruct t as [t0|].
  - match type of H with (if ?b then _ else _) = _ => destruct b eqn:Bw end; injection H as <- _ <-; (split; [exact Hk|]); [discriminate|].
    intros s [= <-]. split; [reflexivity|]. split; [first [reflexivity|exact Bw]|exact HE].
  - injection H as <- _ <-. split; [exact Hk|]. intros s [= <-]. split; [reflexivity|]. split; [exact I|exact HE].
Qed.
Theorem C132_lmi_opt64_returned :
  forall (St X C Sc : Type) (sp : space St X (nat -> b64) C Sc) (conv : @gcut b64 -> C) ltb tneq dot c m1 m2 F1 F2 B1 B2
         Q1 Q2 max_it tol st t tr o' st' xb t' info,
  fdot_any dot -> ext64 dot -> c_n Q1 = m1 -> c_semi Q1 = false -> c_n Q2 = m2 -> c_semi Q2 = false ->
  (0 < m1)%nat -> (0 < m2)%nat -> (Z.of_nat m1 <= 2 ^ 20)%Z -> (Z.of_nat m2 <= 2 ^ 20)%Z ->
  (Z.of_nat (length F1) <= 2 ^ 20)%Z -> length F2 = length F1 ->
  sym m1 (matR B1) -> sym m2 (matR B2) -> all_sym m1 (matsR F1) -> all_sym m2 (matsR F2) ->
  cutting_plane_dc sp ltb tneq (lmi_opt64 conv dot c F1 F2 B1 B2) max_it tol (Q1, Q2) st t = Ok (tr, o', st', (xb, t', info)) ->
  (xb = None -> t' = t) /\
  (xb <> None -> exists ev, In ev tr /\ t' = Some (dot (length F1) c (d_x ev)) /\
     forall M, M <= pow2 1000 -> lmi_data m1 F1 B1 (d_x ev) M -> lmi_data m2 F2 B2 (d_x ev) M ->
     (forall z, nonzero m1 z -> - lmi_slack m1 (length F1) M * S_LinAlg.dot m1 z z < bf m1 (aff_mat (matR B1) (matsR F1) (vecR (d_x ev))) z z) /\
     (forall z, nonzero m2 z -> - lmi_slack m2 (length F2) M * S_LinAlg.dot m2 z z < bf m2 (aff_mat (matR B2) (matsR F2) (vecR (d_x ev))) z z)).
Proof.
  intros St X C Sc sp conv ltb tneq dot c m1 m2 F1 F2 B1 B2 Q1 Q2 max_it tol st t tr o' st' xb t' info
    Hd NE N1 S1 N2 S2 P1 P2 L1 L2 LF EF SB1 SB2 SF1 SF2 Hrun.
  destruct (C04_dc_last_improvement _ _ _ _ _ _ _ sp ltb tneq (lmi_opt64 conv dot c F1 F2 B1 B2) max_it tol (Q1, Q2) st t tr o' st' xb t' info Hrun)
    as (Hrep & Hx & _).
  assert (Hk : chols m1 m2 (Q1, Q2)) by (repeat split; assumption).
  destruct Hx as [(_ & -> & ->)|(tr1 & ev & tr2 & -> & _ & Hev & Hxb)]; [split; [reflexivity|congruence]|].
  split; [intros ->; congruence|]. intros _. exists ev. split; [apply in_or_app; right; left; reflexivity|].
  assert (Key : exists o x t0 o1 cu, chols m1 m2 o /\ x = d_x ev /\ lmi_opt64 conv dot c F1 F2 B1 B2 o x t0 = Ok (o1, (cu, Some t'))).
  { clear Hrun. generalize dependent t. generalize dependent st. generalize dependent (Q1, Q2). clear -Hev.
    induction tr1 as [|e1 tr1 IH]; intros o Hk st t Hrep.
    - cbn in Hrep. inversion Hrep as [|? ? ? c0 t1 o1 st1 s q tr0 ? ? ? Ho]; subst. cbn in Hev. subst t1.
      exists o, (centre sp st), t, o1, c0. auto.
    - cbn in Hrep. inversion Hrep as [|? ? ? c0 t1 o1 st1 s q tr0 ? ? ? Ho ? Hr]; subst.
      destruct (lmi_opt64_step conv dot c F1 F2 B1 B2 m1 m2 _ _ _ _ _ _ Hk Ho) as [Hk1 _]. apply (IH o1 Hk1 st1 (best t t1) Hr). }
  destruct Key as (o & x & t0 & o1 & cu & Hko & -> & Ho).
  destruct (lmi_opt64_step conv dot c F1 F2 B1 B2 m1 m2 _ _ _ _ _ _ Hko Ho) as [_ Hs].
  destruct (Hs t' eq_refl) as (-> & _ & (Qa & Qa' & A1 & A2 & A3) & (Qb & Qb' & D1 & D2 & D3)).
  split; [reflexivity|]. intros M HM Hd1 Hd2. split.
  - destruct (C130_lmi64_decides dot m1 F1 B1 Qa (d_x ev) M Hd NE A1 A2 P1 L1 LF HM SB1 SF1 Hd1) as (Q0 & c0 & E & _ & _ & Hc).
    rewrite A3 in E. injection E as <- <-. exact Hc.
  - destruct (C130_lmi64_decides dot m2 F2 B2 Qb (d_x ev) M Hd NE D1 D2 P2 L2) as (Q0 & c0 & E & _ & _ & Hc); try assumption; [congruence|].
    rewrite EF, D3 in E. injection E as <- <-. rewrite EF in *. exact Hc.
Qed.
Print Assumptions C132_lmi_opt64_returned.
(** minimise x_1 + x_2 under diag(x_1 - 1, x_2 - 1) > 0 and 4 - x_1 - x_2 > 0, from the ball of radius 1 about (3/2, 3/2) *)
Definition exB3 : nat -> nat -> b64 := fun _ _ => fmake 4 0.
Definition exF3 : list (nat -> nat -> b64) := [fun _ _ => fmake 1 0; fun _ _ => fmake 1 0].
Definition ex_run2 : option (bool * nat * bool) :=
  match @ell_init b64 FNum (VScalar (fmake 1 0)) 2 0%nat with
  | Raise _ => None
  | Ok e =>
      match cutting_plane_dc (@ell_space b64 FNum) (fun x y => Bltb x y) (fun _ _ => true)
              (lmi_opt64 (fun c => (fst c, BScalar (snd c))) fdot_seq (fun _ => fmake 1 0) exF2 exF3 exB2 exB3) 3 (fmake 1 (-20))
              (@chol_init b64 FNum 2, @chol_init b64 FNum 1) (fun _ _ => fmake 3 (-1), e) None with
      | Ok (tr, Q', st', (xb, t', info)) => Some (match xb with Some _ => true | None => false end, num_iters info,
           match t' with Some t => (Bltb (fmake 2 0) t && Bltb t (fmake 3 0))%bool | None => false end)
      | Raise _ => None
      end
  end.
Example C132_ex : ex_run2 = Some (true, 3%nat, true).
Proof. vm_compute. reflexivity. Qed.
