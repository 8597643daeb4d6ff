(** Property theorems about the algorithms as they run in binary64 (C117-). *)
From Coq Require Import ZArith Reals Lra Lia Bool List.
From Flocq Require Import Core.Core IEEE754.BinarySingleNaN.
From Verif Require Import Base M_Chol M_Float S_LinAlg P_LinAlg P_Chol P_Float P_Float2 M_Drivers M_FloatD S_Drivers P_Drivers P_BSearch S_Float P_FSum P_CholF P_CholF2 P_BsF.
Local Open Scope R_scope.

Notation chol64 dot := (@chol_factorize b64 (FNumD dot)).
Notation ext64 dot := (@NdotExt b64 (FNumD dot)).

Lemma low64_Am a i j : low64 a i j = Am (fun i j => B2R (a i j)) i j.
Proof. unfold low64, Am. destruct (j <=? i)%nat; reflexivity. Qed.
Lemma bf_low64 a m x : bf m (low64 a) x x = bf m (Am (fun i j => B2R (a i j))) x x.
Proof.
  rewrite !bf_sums. apply rsum_ext. intros i _. apply rsum_ext. intros j _. rewrite low64_Am. reflexivity.
Qed.

(** ** C117 *)
Theorem C117_chol64_total :
  forall dot a (Q : chol b64), ext64 dot -> c_semi Q = false -> exists Q' b, chol64 dot a Q = Ok (Q', b).
Proof.
  intros dot a Q NE Hs. unfold chol_factorize, chol_factor. rewrite Hs.
  destruct (chol_rows_ok (N := FNumD dot) a) with (cnt := c_n Q) (i := 0%nat) (g := tt) (T := c_T Q) as (g' & T' & p & E).
  - intros x y Hy. cbn in *. unfold fdivr. destruct (feqb y fzero) eqn:Ez; [|eauto].
    exfalso. destruct y as [[]|[]| |[] m e Hb]; discriminate.
  - intros k Hk. lia.
  - rewrite E. cbn [bind]. eauto.
Qed.
Print Assumptions C117_chol64_total.

Theorem C117_chol64_accepts :
  forall dot a (Q Q' : chol b64) n M,
  fdot_any dot -> ext64 dot -> c_semi Q = false -> c_n Q = n -> (0 < n)%nat -> (Z.of_nat n <= 2 ^ 20)%Z ->
  low_finite n a -> (forall i, (i < n)%nat -> B2R (a i i) <= M) -> 0 <= M ->
  chol64 dot a Q = Ok (Q', true) ->
  (exists B, pd n B /\ forall i j, (i < n)%nat -> (j < n)%nat ->
     Rabs (low64 a i j - B i j) <= (INR n + 1) * pow2 (-50) * (M + pow2 (-1000))) /\
  forall x, nonzero n x -> - (INR n * (INR n + 1) * pow2 (-50) * (M + pow2 (-1000))) * S_LinAlg.dot n x x < bf n (low64 a) x x.
Proof.
  intros dot a Q Q' n M Hd NE Hs Hn H0 Hn2 Ha HM HM0 H. subst n.
  destruct (chol_factorize_rec (N := FNumD dot) a Q Q' true Hs H) as (r & _ & R2 & [(_ & -> & R3)|(C & _)]); [|discriminate C].
  destruct (chol64_success dot Hd a (c_T Q') (c_n Q) (c_n Q) Hn2 (le_n _) Ha R2 M HM HM0 H0 R3) as [(B & B1 & B2) B3].
  split.
  - exists B. split; [exact B1|]. intros i j Hi Hj. rewrite low64_Am. apply B2; assumption.
  - intros x Hx. rewrite bf_low64. apply B3, Hx.
Qed.
Print Assumptions C117_chol64_accepts.

Theorem C117_chol64_rejects :
  forall dot a (Q Q' Q2 : chol b64) n M ep,
  fdot_any dot -> ext64 dot -> c_semi Q = false -> c_n Q = n -> (Z.of_nat n <= 2 ^ 20)%Z ->
  low_finite n a -> (forall i, (i < n)%nat -> B2R (a i i) <= M) -> 0 <= M ->
  chol64 dot a Q = Ok (Q', false) ->
  @chol_witness b64 (FNumD dot) Q' = Ok (Q2, ep) ->
  (is_finite ep = true -> 0 <= B2R ep) /\
  (is_finite ep = true \/ M <= pow2 900 ->
   exists x, nonzero n x /\ bf n (low64 a) x x <= INR n * (INR n + 1) * pow2 (-49) * (M + pow2 (-1000)) * S_LinAlg.dot n x x).
Proof.
  intros dot a Q Q' Q2 n M ep Hd NE Hs Hn Hn2 Ha HM HM0 H W. subst n.
  destruct (chol_factorize_rec (N := FNumD dot) a Q Q' false Hs H) as (r & Hr & R2 & [(C & _)|(_ & Ep & R0 & R3 & R4)]); [discriminate C|].
  unfold chol_witness, chol_is_spd in W. rewrite Ep in W. cbn [snd] in W. destruct (Nat.eqb_spec r 0); [lia|].
  cbn [nopp FNumD] in W. assert (E : ep = Bopp (c_T Q' (r - 1)%nat (r - 1)%nat)) by congruence. subst ep. rewrite fopp_fin, fopp_R.
  split.
  { intros Fe. cbn in R4. rewrite f64_ltb in R4 by (exact Fe || reflexivity).
    destruct (Rlt_bool_spec (B2R fzero) (B2R (c_T Q' (r - 1)%nat (r - 1)%nat))) as [|L]; [discriminate R4|]. cbn in L. lra. }
  intros Hfe.
  assert (Hx : exists x, nonzero r x /\ bf r (Am (fun i j => B2R (a i j))) x x <= INR (c_n Q) * (INR (c_n Q) + 1) * pow2 (-49) * (M + pow2 (-1000)) * S_LinAlg.dot r x x).
  { destruct Hfe as [Fe|HM9].
    - apply (chol64_failure dot Hd a (c_T Q') (c_n Q) r Hn2 Hr) with (p := (r - 1)%nat); try assumption; try lia.
      + intros i j Hj Hi. apply Ha; lia.
      + intros i Hi. apply HM. lia.
    - destruct r as [|p]; [lia|]. replace (S p - 1)%nat with p in * by lia.
      apply (chol64_reject_any dot Hd a (c_T Q') (c_n Q) p Hn2 Hr); try assumption.
      + intros i j Hj Hi. apply Ha; lia.
      + intros i Hi. apply HM. lia. }
  destruct Hx as (x & X1 & X2).
  - exists (zext 0 r x). rewrite bf_low64. destruct (zext_quad (c_n Q) r (Am (fun i j => B2R (a i j))) x Hr) as (Z1 & Z2 & Z3).
    rewrite Z1, Z2. split; [apply Z3, X1|exact X2].
Qed.
Print Assumptions C117_chol64_rejects.

(** 2 x 2 matrices *)
Definition mat2 (a b c : b64) : nat -> nat -> b64 :=
  fun i j => match i, j with O, O => a | S O, S O => c | _, _ => b end.
Definition fdot_seq := @ndot b64 FNum.
Lemma fdot_seq_ext : ext64 fdot_seq.
Proof. exact FNum_ext. Qed.
Lemma bf2 B x : bf 2 B x x = x 0%nat * B 0%nat 0%nat * x 0%nat + x 0%nat * B 0%nat 1%nat * x 1%nat + (x 1%nat * B 1%nat 0%nat * x 0%nat + x 1%nat * B 1%nat 1%nat * x 1%nat).
Proof. rewrite bf_sums. cbn [rsum]. ring. Qed.
Definition outcome (r : res (chol b64 * bool)) : option bool := match r with Ok (_, b) => Some b | Raise _ => None end.
Lemma outcome_ok r b : outcome r = Some b -> exists Q', r = Ok (Q', b).
Proof. destruct r as [[Q' b']|]; [|discriminate]. intros H. injection H as ->. eauto. Qed.

Definition wit_outcome (r : res (chol b64 * bool)) : bool :=
  match r with
  | Ok (Q', b) => match @chol_witness b64 (FNumD fdot_seq) Q' with Ok (_, ep) => (negb b && is_finite ep)%bool | _ => false end
  | _ => false end.
Lemma fmakeR m e : (Z.abs m <= 2 ^ 53)%Z -> (-1074 <= e <= 900)%Z -> B2R (fmake m e) = IZR m * pow2 e.
Proof.
  intros Hm He. apply fmake_exact; [apply fmt_scaled; lia|].
  rewrite Rabs_mult, (Rabs_pos_eq (pow2 e)) by apply bpow_ge_0. rewrite <- abs_IZR.
  apply Rle_lt_trans with (pow2 53 * pow2 900).
  - apply Rmult_le_compat; [apply IZR_le; lia|apply bpow_ge_0|change (pow2 53) with (IZR (2 ^ 53)); apply IZR_le, Hm|apply bpow_le; lia].
  - rewrite <- bpow_plus. apply bpow_lt. lia.
Qed.

(** the hypotheses of C117 are met by a matrix that is accepted and one that is rejected *)
Example C117_hypotheses_met :
  fdot_any fdot_seq /\ ext64 fdot_seq /\
  low_finite 2 (mat2 (fmake 4 0) (fmake 1 0) (fmake 3 0)) /\
  (exists Q', chol64 fdot_seq (mat2 (fmake 4 0) (fmake 1 0) (fmake 3 0)) (@chol_init b64 FNum 2) = Ok (Q', true)) /\
  (exists Q' Q2 ep, chol64 fdot_seq (mat2 (fmake 1 0) (fmake 2 0) (fmake 3 0)) (@chol_init b64 FNum 2) = Ok (Q', false) /\
     @chol_witness b64 (FNumD fdot_seq) Q' = Ok (Q2, ep) /\ is_finite ep = true).
Proof.
  split; [exact fnum_dot_any|split; [exact fdot_seq_ext|split; [|split]]].
  - intros i j Hj Hi. destruct i as [|[|i]], j as [|[|j]]; try lia; reflexivity.
  - apply outcome_ok. vm_compute. reflexivity.
  - destruct (chol64 fdot_seq (mat2 (fmake 1 0) (fmake 2 0) (fmake 3 0)) (@chol_init b64 FNum 2)) as [[Q' b]|] eqn:E.
    + assert (X : wit_outcome (Ok (Q', b)) = true) by (rewrite <- E; vm_compute; reflexivity).
      cbn [wit_outcome] in X. destruct (chol_witness Q') as [[Q2 ep]|] eqn:W; [|discriminate X].
      apply andb_prop in X as [X1 X2]. destruct b; [discriminate X1|]. exists Q', Q2, ep. auto.
    + exfalso. assert (X : outcome (Raise e) = Some false) by (rewrite <- E; vm_compute; reflexivity). discriminate X.
Qed.

(** a rejection whose ep is not finite, on a matrix with diagonal entries at most 1: 2^400 / 2^-1000 overflows *)
Example C117_overflow :
  let a := mat2 (fmake 1 (-1000)) (fmake 1 400) (fmake 1 0) in
  low_finite 2 a /\ (forall i, (i < 2)%nat -> B2R (a i i) <= 1) /\
  outcome (chol64 fdot_seq a (@chol_init b64 FNum 2)) = Some false /\
  match chol64 fdot_seq a (@chol_init b64 FNum 2) with
  | Ok (Q', _) => match @chol_witness b64 (FNumD fdot_seq) Q' with Ok (_, ep) => is_finite ep | _ => true end
  | _ => true end = false.
Proof.
  split; [|split; [|split; vm_compute; reflexivity]].
  - intros i j Hj Hi. destruct i as [|[|i]], j as [|[|j]]; try lia; reflexivity.
  - intros i Hi. destruct i as [|[|i]]; try lia; unfold mat2; rewrite fmakeR by lia; rewrite Rmult_1_l; change 1 with (pow2 0); apply bpow_le; lia.
Qed.

(** ** C118: the claim "factorize answers True exactly for positive definite matrices" fails in
    binary64, in both directions, on finite symmetric arrays. *)
Theorem C118_chol64_decides_refuted :
  (exists a Q', low_finite 2 a /\ chol64 fdot_seq a (@chol_init b64 FNum 2) = Ok (Q', true) /\ ~ psd 2 (low64 a)) /\
  (exists a Q', low_finite 2 a /\ chol64 fdot_seq a (@chol_init b64 FNum 2) = Ok (Q', false) /\ pd 2 (low64 a)).
Proof.
  split.
  - exists (mat2 (fmake 21 0) (fmake 97 0) (fmake 0x1c00c30c30c30c (-44))).
    destruct (outcome_ok (chol64 fdot_seq (mat2 (fmake 21 0) (fmake 97 0) (fmake 0x1c00c30c30c30c (-44))) (@chol_init b64 FNum 2)) true) as [Q' HQ];
      [vm_compute; reflexivity|]. exists Q'.
    split; [|split; [exact HQ|]].
    + intros i j Hj Hi. destruct i as [|[|i]], j as [|[|j]]; try lia; reflexivity.
    + intros H. specialize (H (fun i => match i with O => 97 | _ => -21 end)). rewrite bf2 in H.
      unfold low64, mat2 in H. cbn [Nat.leb] in H.
      rewrite !fmakeR in H by lia. cbn [bpow] in H. cbn in H. lra.
  - exists (mat2 (fmake 3 0) (fmake 5 0) (fmake 0x10aaaaaaaaaaab (-49))).
    destruct (outcome_ok (chol64 fdot_seq (mat2 (fmake 3 0) (fmake 5 0) (fmake 0x10aaaaaaaaaaab (-49))) (@chol_init b64 FNum 2)) false) as [Q' HQ];
      [vm_compute; reflexivity|]. exists Q'.
    split; [|split; [exact HQ|]].
    + intros i j Hj Hi. destruct i as [|[|i]], j as [|[|j]]; try lia; reflexivity.
    + intros x (k & Hk & Hx). rewrite bf2. unfold low64, mat2. cbn [Nat.leb]. rewrite !fmakeR by lia.
      set (c := IZR 0x10aaaaaaaaaaab * pow2 (-49)). assert (Hc : 25 / 3 < c) by (unfold c; cbn; lra).
      change (pow2 0) with 1. clearbody c.
      replace (x 0%nat * (3 * 1) * x 0%nat + x 0%nat * (5 * 1) * x 1%nat + (x 1%nat * (5 * 1) * x 0%nat + x 1%nat * c * x 1%nat))
        with (3 * ((x 0%nat + 5 / 3 * x 1%nat) * (x 0%nat + 5 / 3 * x 1%nat)) + (c - 25 / 3) * (x 1%nat * x 1%nat)) by field.
      assert (A1 := Rle_0_sqr (x 0%nat + 5 / 3 * x 1%nat)). assert (A2 := Rle_0_sqr (x 1%nat)). unfold Rsqr in A1, A2.
      assert (B2 : 0 <= (c - 25 / 3) * (x 1%nat * x 1%nat)) by (apply Rmult_le_pos; lra).
      destruct (Req_dec (x 1%nat) 0) as [E|E].
      * rewrite E in *. destruct k as [|[|k]]; [|contradiction|lia].
        assert (0 < x 0%nat * x 0%nat) by (apply Rsqr_pos_lt; exact Hx). lra.
      * assert (0 < (c - 25 / 3) * (x 1%nat * x 1%nat)) by (apply Rmult_lt_0_compat; [lra|apply Rsqr_pos_lt; exact E]). lra.
Qed.
Print Assumptions C118_chol64_decides_refuted.

(** What holds of C118: beyond the margin of C117 the answer is the right one. *)
Theorem C118_chol64_decides_partial :
  forall dot a (Q : chol b64) n M,
  fdot_any dot -> ext64 dot -> c_semi Q = false -> c_n Q = n -> (0 < n)%nat -> (Z.of_nat n <= 2 ^ 20)%Z ->
  low_finite n a -> (forall i, (i < n)%nat -> B2R (a i i) <= M) -> 0 <= M -> M <= pow2 900 ->
  let d := INR n * (INR n + 1) * pow2 (-49) * (M + pow2 (-1000)) in
  exists Q' b, chol64 dot a Q = Ok (Q', b) /\
    ((exists x, nonzero n x /\ bf n (low64 a) x x <= - d * S_LinAlg.dot n x x) -> b = false) /\
    ((forall x, nonzero n x -> d * S_LinAlg.dot n x x < bf n (low64 a) x x) ->
     b = true).
Proof.
  intros dot a Q n M Hd NE Hs Hn H0 Hn2 Ha HM HM0 HM9 d.
  destruct (C117_chol64_total dot a Q NE Hs) as (Q' & b & E). exists Q', b. split; [exact E|split].
  - intros (x & Hx & Hb). destruct b; [exfalso|reflexivity].
    destruct (C117_chol64_accepts dot a Q Q' n M Hd NE Hs Hn H0 Hn2 Ha HM HM0 E) as [_ S]. specialize (S x Hx).
    assert (Hd' : - d * S_LinAlg.dot n x x <= - (INR n * (INR n + 1) * pow2 (-50) * (M + pow2 (-1000))) * S_LinAlg.dot n x x); [|lra].
    apply Rmult_le_compat_r; [apply rsum_nonneg; intros; apply Rle_0_sqr|]. apply Ropp_le_contravar. unfold d.
    apply Rmult_le_compat_r; [assert (X := bpow_gt_0 radix2 (-1000)); lra|]. apply Rmult_le_compat_l; [|apply bpow_le; lia].
    assert (X := pos_INR n). apply Rmult_le_pos; lra.
  - intros Hp. destruct b; [reflexivity|exfalso].
    destruct (@chol_witness b64 (FNumD dot) Q') as [[Q2 ep]|] eqn:W.
    + destruct (C117_chol64_rejects dot a Q Q' Q2 n M ep Hd NE Hs Hn Hn2 Ha HM HM0 E W) as [_ Hr].
      destruct (Hr (or_intror HM9)) as (x & Hx & Hb).
      specialize (Hp x Hx). unfold d in Hp. lra.
    + destruct (chol_factorize_rec (N := FNumD dot) a Q Q' false Hs E) as (r & Hr & R2 & [(C & _)|(_ & Ep & R0 & _)]); [discriminate C|].
      unfold chol_witness, chol_is_spd in W. rewrite Ep in W. cbn [snd] in W. destruct (Nat.eqb_spec r 0); [lia|discriminate W].
Qed.
Print Assumptions C118_chol64_decides_partial.

(** ** C119 *)
Theorem C119_bsearch64_brackets :
  forall (O : Type) (omega : O -> b64 -> res (O * bool)) (P : b64 -> Prop) max_it tol o lower upper tr o' u info B,
  decides omega P ->
  (forall a b : b64, is_finite a = true -> is_finite b = true -> B2R a <= B2R b -> P a -> P b) ->
  is_finite lower = true -> is_finite upper = true -> is_finite tol = true ->
  Rabs (B2R lower) <= B -> Rabs (B2R upper) <= B -> B <= pow2 1022 ->
  ~ P lower -> P upper ->
  bsearch_F omega max_it tol o (lower, upper) = Ok (tr, o', (u, info)) ->
  P u /\ is_finite u = true /\
  (exists l, is_finite l = true /\ ~ P l /\ B2R lower <= B2R l < B2R u /\ B2R u <= B2R upper /\
     B2R u - B2R l <= (B2R upper - B2R lower) / 2 ^ length tr + pow2 (-50) * (B + pow2 (-1000)) /\
     (forall x, is_finite x = true -> B2R x <= B2R l -> ~ P x) /\
     (forall x, is_finite x = true -> B2R u <= B2R x -> P x) /\
     (cstatus info = smallenough -> (B2R u - B2R l) / 2 < B2R tol)) /\
  (forall t b, In (t, b) tr -> is_finite t = true /\ B2R lower <= B2R t <= B2R upper) /\
  (feasible info = true <-> B2R u <> B2R upper) /\
  (cstatus info = smallenough \/ cstatus info = success /\ length tr = max_it).
Proof.
  intros O omega P max_it tol o lower upper tr o' u info B HP Hup Fl Fu Ft Bl Bu HB Hl Hu H.
  apply bsearch_spec in H as (l & Hr & Hm & Hf & Hs).
  assert (Hle : B2R lower <= B2R upper).
  { destruct (Rle_dec (B2R lower) (B2R upper)) as [|C]; [assumption|]. exfalso. apply Hl, (Hup upper); try assumption; lra. }
  destruct (bs_replay_bracket omega P _ _ _ _ _ _ _ HP Hr Hl Hu) as [Hl' Hu'].
  destruct (mids64 omega B HB _ _ _ _ _ _ _ _ Hr Hm (conj Fl Bl) (conj Fu Bu) Hle) as ([A1 A1'] & [A2 A2'] & A3 & A4 & A5 & A6 & A7).
  assert (B0 : 0 <= B) by (eapply Rle_trans; [apply Rabs_pos|exact Bl]).
  split; [exact Hu'|]. split; [exact A2|]. split; [|split; [|split]].
  - exists l. split; [exact A1|]. split; [exact Hl'|]. split; [|split; [exact A5|split; [|split; [|split]]]].
    + split; [exact A3|]. destruct A4 as [A4|A4]; [exact A4|]. exfalso. apply Hl', (Hup u); try assumption. lra.
    + eapply Rle_trans; [exact A6|]. apply Rplus_le_compat_l. unfold dlt.
      replace (pow2 (-50)) with (2 * pow2 (-51)) by (change 2 with (pow2 1); rewrite <- bpow_plus; reflexivity).
      assert (P1 := Rinv_0_lt_compat (2 ^ length tr) ltac:(apply pow_lt; lra)).
      assert (X : 0 <= 2 * (pow2 (-51) * (B + pow2 (-1000)))).
      { assert (X := bpow_ge_0 radix2 (-51)). assert (Y := bpow_ge_0 radix2 (-1000)). apply Rmult_le_pos; [lra|apply Rmult_le_pos; lra]. }
      assert (0 <= 2 * (pow2 (-51) * (B + pow2 (-1000))) * / 2 ^ length tr) by (apply Rmult_le_pos; lra). lra.
    + intros x Fx Hx Px. apply Hl', (Hup x); assumption.
    + intros x Fx Hx. apply (Hup u); assumption.
    + intros E. destruct Hs as [(_ & A & _)|(A & _)]; [|congruence].
      exact (tau_lt l u B A1 A2 A4 A1' A2' HB tol Ft A).
  - intros t b Hin. destruct (A7 t b Hin) as (C1 & C2 & _). auto.
  - rewrite Hf. rewrite negb_true_iff. unfold feqb. rewrite Beqb_correct by assumption.
    destruct (Req_bool_spec (B2R u) (B2R upper)); [|tauto]. split; [discriminate|tauto].
  - destruct Hs as [(A & _)|(A & _ & A')]; auto.
Qed.
Print Assumptions C119_bsearch64_brackets.

(** threshold 1/3 on [0, 1] with tolerance 1/16 *)
Definition third64 (o : unit) (t : b64) : res (unit * bool) := Ok (tt, Bleb (fdiv (fmake 1 0) (fmake 3 0)) t).
Definition bs_info (r : res (list (b64 * bool) * unit * (b64 * CInfo))) : option CInfo :=
  match r with Ok (_, _, (_, i)) => Some i | Raise _ => None end.
Example C119_hypotheses_met :
  let P := fun t : b64 => Bleb (fdiv (fmake 1 0) (fmake 3 0)) t = true in
  decides third64 P /\
  (forall a b : b64, is_finite a = true -> is_finite b = true -> B2R a <= B2R b -> P a -> P b) /\
  ~ P fzero /\ P (fmake 1 0) /\
  exists tr u, bsearch_F third64 100 (fmake 1 (-4)) tt (fzero, fmake 1 0)
    = Ok (tr, tt, (u, {| feasible := true; num_iters := 4; cstatus := smallenough |})).
Proof.
  cbv zeta. split; [intros o t o' b H; injection H as <- <-; reflexivity|]. split; [|split; [|split]].
  - intros a b Fa Fb Hab Pa. assert (F3 : is_finite (fdiv (fmake 1 0) (fmake 3 0)) = true) by (vm_compute; reflexivity).
    unfold Bleb in *. revert Pa. change (Bleb (fdiv (fmake 1 0) (fmake 3 0)) a = true -> Bleb (fdiv (fmake 1 0) (fmake 3 0)) b = true).
    rewrite !Bleb_correct by assumption.
    destruct (Rle_bool_spec (B2R (fdiv (fmake 1 0) (fmake 3 0))) (B2R a)); [|discriminate]. intros _. apply Rle_bool_true. lra.
  - intros H. vm_compute in H. discriminate H.
  - vm_compute. reflexivity.
  - destruct (bsearch_F third64 100 (fmake 1 (-4)) tt (fzero, fmake 1 0)) as [[[tr []] [u info]]|e] eqn:E.
    + exists tr, u. repeat f_equal.
      assert (X : bs_info (Ok (tr, tt, (u, info))) = Some {| feasible := true; num_iters := 4; cstatus := smallenough |}) by (rewrite <- E; vm_compute; reflexivity).
      injection X as X. exact X.
    + exfalso. assert (X : bs_info (Raise e) = Some {| feasible := true; num_iters := 4; cstatus := smallenough |}) by (rewrite <- E; vm_compute; reflexivity).
      discriminate X.
Qed.

(** ** C120: "with a positive tolerance and enough iterations bsearch reports smallenough" *)
Theorem C120_bsearch64_reaches_tol_partial :
  forall (O : Type) (omega : O -> b64 -> res (O * bool)) max_it tol o lower upper tr o' u info B N,
  is_finite lower = true -> is_finite upper = true -> is_finite tol = true -> B2R lower <= B2R upper ->
  Rabs (B2R lower) <= B -> Rabs (B2R upper) <= B -> B <= pow2 1022 ->
  pow2 (-49) * (B + pow2 (-1000)) <= B2R tol ->
  4 * (B2R upper - B2R lower) < B2R tol * 2 ^ N -> (N < max_it)%nat ->
  bsearch_F omega max_it tol o (lower, upper) = Ok (tr, o', (u, info)) ->
  cstatus info = smallenough /\ (length tr <= N)%nat.
Proof.
  intros O omega max_it tol o lower upper tr o' u info B N Fl Fu Ft Hle Bl Bu HB Htol HN Hmax H.
  apply bsearch_spec in H as (l & Hr & Hm & Hf & Hs).
  assert (B0 : 0 <= B) by (eapply Rle_trans; [apply Rabs_pos|exact Bl]).
  assert (D0 : 4 * dlt B <= B2R tol /\ 0 < dlt B).
  { unfold dlt. replace (pow2 (-49)) with (4 * pow2 (-51)) in Htol by (change 4 with (pow2 2); rewrite <- bpow_plus; reflexivity).
    split; [lra|]. assert (X := bpow_gt_0 radix2 (-51)). assert (Y := bpow_gt_0 radix2 (-1000)). apply Rmult_lt_0_compat; lra. }
  assert (Len : (length tr <= N)%nat).
  { destruct (Nat.le_gt_cases (length tr) N) as [|C]; [assumption|exfalso].
    assert (X := mids64_wide omega B HB _ _ _ _ _ _ _ _ Hr Hm (conj Fl Bl) (conj Fu Bu) Hle Ft ltac:(lra) ltac:(lia)).
    assert (P : 2 ^ N <= 2 ^ (length tr - 1)) by (apply Rle_pow; [lra|lia]).
    assert (PN : 0 < 2 ^ N) by (apply pow_lt; lra).
    assert (Y : (B2R upper - B2R lower) / 2 ^ (length tr - 1) <= (B2R upper - B2R lower) / 2 ^ N).
    { apply Rmult_le_compat_l; [lra|]. apply Rinv_le_contravar; assumption. }
    assert (Z : B2R tol / 2 <= (B2R upper - B2R lower) / 2 ^ N) by lra.
    apply (Rmult_le_compat_r (2 ^ N)) in Z; [|lra]. replace ((B2R upper - B2R lower) / 2 ^ N * 2 ^ N) with (B2R upper - B2R lower) in Z by (field; lra).
    assert (0 < B2R tol * 2 ^ N) by (apply Rmult_lt_0_compat; lra). lra. }
  split; [|exact Len]. destruct Hs as [(A & _)|(_ & _ & A)]; [exact A|lia].
Qed.
Print Assumptions C120_bsearch64_reaches_tol_partial.

Definition above1 (o : unit) (t : b64) : res (unit * bool) := Ok (tt, Bltb (fmake 1 0) t).
Definition one_up : b64 := fmake (2 ^ 52 + 1) (-52).
(** the search between 1 and the next float probes 1 for ever *)
Theorem C120_bsearch64_reaches_tol_refuted :
  decides above1 (fun t => Bltb (fmake 1 0) t = true) /\
  0 < B2R (fmake 1 (-60)) /\
  forall max_it, (0 < max_it)%nat -> exists tr,
    bsearch_F above1 max_it (fmake 1 (-60)) tt (fmake 1 0, one_up)
      = Ok (tr, tt, (one_up, {| feasible := false; num_iters := max_it - 1; cstatus := success |})) /\
    forall t b, In (t, b) tr -> B2R t = 1.
Proof.
  split; [intros o t o' b H; injection H as <- <-; reflexivity|].
  split; [rewrite fmakeR by lia; cbn; lra|].
  intros max_it H0. destruct max_it as [|max_it]; [lia|]. unfold bsearch_F, bsearch. clear H0.
  assert (L : forall k n, exists tr, bs_loop (T := b64) (Sc := b64) (fun u l => fdiv (fsub u l) (fmake 2 0)) fadd (fun x y => Bltb x y)
          (fun a b => negb (feqb a b)) above1 k n (fmake 1 (-60)) one_up tt (fmake 1 0) one_up
      = Ok (tr, tt, (one_up, {| feasible := false; num_iters := n + k - 1; cstatus := success |})) /\
    forall t b, In (t, b) tr -> t = fmake 1 0).
  { induction k as [|k IH]; intros n; cbn [bs_loop].
    - exists nil. rewrite Nat.add_0_r. replace (feqb one_up one_up) with true by (vm_compute; reflexivity). split; [reflexivity|intros t b []].
    - replace (Bltb (fdiv (fsub one_up (fmake 1 0)) (fmake 2 0)) (fmake 1 (-60))) with false by (vm_compute; reflexivity).
      replace (fadd (fmake 1 0) (fdiv (fsub one_up (fmake 1 0)) (fmake 2 0))) with (fmake 1 0).
      2: { apply B2SF_inj. vm_compute. reflexivity. }
      unfold above1 at 1. replace (Bltb (fmake 1 0) (fmake 1 0)) with false by (vm_compute; reflexivity). cbn [bind].
      destruct (IH (n + 1)%nat) as (tr & E & Hin). rewrite E. cbn [bind]. eexists. split; [|].
      + replace (n + S k - 1)%nat with (n + 1 + k - 1)%nat by lia. reflexivity.
      + intros t b [Et|Ht]; [congruence|apply (Hin t b Ht)]. }
  destruct (L (S max_it) 0%nat) as (tr & E & Hin). exists tr. split; [exact E|].
  intros t b Ht. rewrite (Hin t b Ht). apply fone.
Qed.
Print Assumptions C120_bsearch64_reaches_tol_refuted.
