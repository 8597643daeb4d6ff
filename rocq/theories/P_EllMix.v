(** Proofs about sequences of binary64 updates of ell with single and parallel cuts. *)
From Coq Require Import ZArith Reals Lra Lia Bool List Psatz.
From Flocq Require Import Core.Core IEEE754.BinarySingleNaN.
From Verif Require Import Base M_Drivers M_Ell S_Drivers P_Drivers S_Ell S_LinAlg P_LinAlg M_Float P_Float P_Float2 S_Float S_EllF S_EllPar P_FSum P_EllCalc P_Ell P_EllF2 P_EllF3 T_Float T_Float2 T_Float7 P_CholF2 S_EllRun P_EllRun T_Float13 S_EllMix P_RunF.
Import ListNotations.
Local Open Scope R_scope.

(** ** a point of an ellipsoid against a perturbed ellipsoid *)
Lemma moved n Q1 k1 x1 z k2 Q2 x2 em ec : (0 < n)%nat -> sym n Q1 -> psd n Q1 -> sym n Q2 -> psd n Q2 -> 0 <= k2 -> 0 < em ->
  in_ell n Q1 k1 x1 z ->
  (forall i j, (i < n)%nat -> (j < n)%nat -> Rabs (k2 * Q2 i j - k1 * Q1 i j) <= em) ->
  (forall i, (i < n)%nat -> Rabs (x2 i - x1 i) <= ec) ->
  exists y, in_ell n Q2 k2 x2 y /\ forall i, (i < n)%nat -> Rabs (y i - z i) <= sqrt (INR n * em) + ec.
Proof.
  intros Hn S1 P1 S2 P2 K2 EM IN MAT CEN.
  assert (N1 : 0 < INR n) by (apply lt_0_INR; exact Hn). assert (EP : 0 < INR n * em) by (apply Rmult_lt_0_compat; assumption).
  assert (WD : forall a, dot n a (fun i => z i - x1 i) * dot n a (fun i => z i - x1 i) <= k2 * bf n Q2 a a + INR n * em * dot n a a).
  { intros a. assert (R1 := in_ell_range n Q1 k1 x1 z a S1 P1 IN). cbv zeta in R1.
    assert (A2 := norm1_sq n a). set (A1 := norm1 n a) in *.
    assert (W1 : Rabs (k2 * bf n Q2 a a - k1 * bf n Q1 a a) <= A1 * A1 * em).
    { replace (k2 * bf n Q2 a a - k1 * bf n Q1 a a) with (bf n (fun i j => k2 * Q2 i j - k1 * Q1 i j) a a).
      2: { rewrite !bf_sums, <- !rsum_scal_l, <- rsum_minus. apply rsum_ext; intros i _. rewrite <- !rsum_scal_l, <- rsum_minus. apply rsum_ext; intros; ring. }
      apply (bf_norm1 n (fun i j => k2 * Q2 i j - k1 * Q1 i j) a); [lra|exact MAT]. }
    apply Rabs_le_inv in W1.
    assert (A1 * A1 * em <= INR n * dot n a a * em) by (apply Rmult_le_compat_r; lra). lra. }
  destruct (split_sum n Q2 k2 x2 (INR n * em) (fun i => z i - x1 i) S2 P2 K2 EP WD) as (y & Hy & Dy).
  exists y. split; [exact Hy|]. intros i Hi. assert (D1 := Dy i Hi). assert (D2 := CEN i Hi).
  replace (y i - z i) with (- (x2 i + (z i - x1 i) - y i) + (x2 i - x1 i)) by ring.
  eapply Rle_trans; [apply Rabs_triang|]. rewrite Rabs_Ropp. lra.
Qed.

(** ** one update with a parallel cut *)
Lemma par_split h M G X eps W dotf w e g b0 b1 st' tsq z :
  fdot_any dotf -> built64p e -> scaled64 h M G X (w, e) g b0 -> 0 < eps ->
  (B2R b0 <= B2R b1 -> B2R b0 * B2R b0 <= reach2 e g -> par64 h eps e g b0 b1) -> B2R (e_kappa e) * M <= W ->
  @ell_update b64 (FNumD dotf) (w, e) (g, BArr [b0; b1]) = Ok (st', (success, tsq)) -> ell_proper (snd st') ->
  mem64 (w, e) z -> sat64 (w, e) g b0 z -> far64 (w, e) g b1 z ->
  e_n (snd st') = e_n e /\ exists y, mem64 st' y /\ forall i, (i < e_n e)%nat -> Rabs (y i - z i) <= drift_both64 (e_n e) eps W X.
Proof.
  intros HD HB HS EPS HPar HW U (Hs' & Hp' & Hk') Hz Hc Hf.
  assert (HS' := HS). destruct HS' as (Hn & HQ & Hg & Hx & [Fk Rk] & [Fb Rb] & Hs & Hp & RM & RG & RX & Hom & Hh1).
  set (n := e_n e) in *. set (Q := fun i j => B2R (e_Q e i j)) in *. set (gr := fun i => B2R (g i)) in *. set (kappa := B2R (e_kappa e)) in *.
  set (x := fun i => B2R (w (e_xc e) i)).
  assert (OP : 0 < bf n Q gr gr) by (apply om_pos with (h := h) (e := e) (M := M) (G := G); try assumption; intros; apply HQ || apply Hg; assumption).
  assert (KP : 0 < kappa) by (assert (0 < pow2 (-200)) by apply bpow_gt_0; lra).
  assert (MP : 0 < M) by (assert (0 < pow2 (-200)) by apply bpow_gt_0; lra).
  assert (HT : 0 <= kappa * bf n Q gr gr) by (apply Rmult_le_pos; lra).
  cbn [mem64] in Hz. fold n Q kappa x in Hz. cbn [sat64] in Hc. fold n gr in Hc. cbn [far64] in Hf. fold n gr in Hf.
  change (dot n gr (fun i => z i - x i) + B2R b0 <= 0) in Hc. change (0 <= dot n gr (fun i => z i - x i) + B2R b1) in Hf.
  assert (RNG := in_ell_range n Q kappa x z gr Hs Hp Hz). cbv zeta in RNG. set (al := dot n gr (fun i => z i - x i)) in *.
  set (tau := sqrt (kappa * bf n Q gr gr)).
  assert (TT : tau * tau = kappa * bf n Q gr gr) by (apply sqrt_sqrt; exact HT). assert (T0 : 0 <= tau) by apply sqrt_pos.
  assert (AT : - tau <= al) by nra.
  assert (BT : B2R b0 <= tau) by lra. assert (BB : B2R b0 <= B2R b1) by lra.
  specialize (HPar BB). assert (BQ : B2R b0 * B2R b0 <= reach2 e g) by (change (reach2 e g) with (kappa * bf n Q gr gr); rewrite <- TT; apply Rmult_le_compat; lra). specialize (HPar BQ).
  destruct (par_upd h M G X eps dotf w e g b0 b1 HD HB HS HPar BB BT) as [(q & E)|(st2 & q & r0 & s0 & d0 & y & E & SO & Y & EN & EX & CEN & FK & MAT)]; rewrite U in E; [discriminate E|].
  assert (st2 = st') by congruence. subst st2. clear E.
  split; [exact EN|]. fold n Q gr kappa x in SO, Y, CEN, MAT.
  set (om := bf n Q gr gr) in *. set (Q1 := fun i j => Q i j - s0 / om * (mvr n Q gr i * mvr n Q gr j)).
  set (x1 := fun i => x i - r0 / om * mvr n Q gr i). fold tau in Y.
  assert (AY : 0 <= al + y) by (revert Y; unfold Rmin; destruct (Rle_dec (B2R b1) tau); intros Y; lra).
  assert (IN1 : in_ell n Q1 (kappa * d0) x1 z).
  { apply (step_keep n Q kappa x gr Hs Hp OP r0 s0 d0 (B2R b0) y z SO Hz). cbv zeta. fold al. nra. }
  assert (S01 : 0 <= s0 <= 1) by apply SO.
  assert (KM : 0 < kappa * M) by (apply Rmult_lt_0_compat; lra). assert (WP : 0 < W) by lra.
  assert (EW : 0 < eps * W) by (apply Rmult_lt_0_compat; lra).
  rewrite EN in Hs', Hp'. fold n in Hs', Hp'. set (k2 := B2R (e_kappa (snd st'))) in *. set (Q2 := fun i j => B2R (e_Q (snd st') i j)) in *.
  destruct (moved n Q1 (kappa * d0) x1 z k2 Q2 (fun i => B2R (fst st' (e_xc (snd st')) i)) (6144 * (eps * W)) (1280 * eps * sqrt W + uro * X)) as (y1 & Hy1 & Dy1); try assumption.
  - lia.
  - exact (Q1_sym n Q gr Hs s0).
  - exact (Q1_psd n Q gr Hs Hp OP s0 S01).
  - lra.
  - intros i j Hi Hj. eapply Rle_trans; [exact (proj2 (MAT i j Hi Hj))|]. rewrite !Rmult_assoc. apply Rmult_le_compat_l; [lra|]. apply Rmult_le_compat_l; lra.
  - intros i Hi. rewrite EX. eapply Rle_trans; [exact (proj2 (CEN i Hi))|]. apply Rplus_le_compat_r. apply Rmult_le_compat_l; [lra|]. apply sqrt_le_1_alt. exact HW.
  - exists y1. split.
    + unfold mem64. destruct st' as [w' e']. cbn [fst snd] in *. rewrite EN. exact Hy1.
    + intros i Hi. eapply Rle_trans; [exact (Dy1 i Hi)|]. unfold drift_both64. fold uro. rewrite <- INR_IZR_INZ, Rplus_assoc. apply Rplus_le_compat_r.
      replace (INR n * (6144 * (eps * W))) with (6144 * (INR n * eps * W)) by ring. assert (NN := pos_INR n).
      assert (P0 : 0 <= INR n * eps * W) by (rewrite Rmult_assoc; apply Rmult_le_pos; lra).
      rewrite sqrt_mult_alt by lra. apply Rmult_le_compat_r; [apply sqrt_pos|].
      rewrite <- (sqrt_square 80) by lra. apply sqrt_le_1_alt. lra.
Qed.

Lemma drift_le n h eps W X : h <= 8 * eps -> 0 <= h -> 0 <= W -> drift64 n h W X <= drift_both64 n eps W X.
Proof.
  intros H1 H0 HW. unfold drift64, drift_both64. set (N := IZR (Z.of_nat n)). assert (NN : 0 <= N) by (apply IZR_le; lia).
  assert (SW := sqrt_pos W).
  assert (A : sqrt (N * h * W) <= 3 * sqrt (N * eps * W)).
  { assert (P0 : 0 <= N * eps * W) by (apply Rmult_le_pos; [apply Rmult_le_pos; lra|exact HW]).
    rewrite <- (sqrt_square 3) by lra. rewrite <- sqrt_mult_alt by lra. apply sqrt_le_1_alt.
    apply Rle_trans with (8 * (N * eps * W)); [|lra]. replace (8 * (N * eps * W)) with (N * (8 * eps) * W) by ring.
    apply Rmult_le_compat_r; [exact HW|]. apply Rmult_le_compat_l; assumption. }
  assert (B : 16 * h * sqrt W <= 16 * (8 * eps) * sqrt W) by (apply Rmult_le_compat_r; lra).
  assert (C := sqrt_pos (N * eps * W)). assert (0 <= eps * sqrt W) by (apply Rmult_le_pos; lra). lra.
Qed.
Lemma drift_both_nn n eps W X : 0 <= eps -> 0 <= X -> 0 <= drift_both64 n eps W X.
Proof. intros Hh HX. unfold drift_both64. assert (A := sqrt_pos (IZR (Z.of_nat n) * eps * W)). assert (B := sqrt_pos W). assert (C := bpow_ge_0 radix2 (-53)). nra. Qed.

Lemma built_p (e : ell b64) : built64p e -> built64 e.
Proof. intros (val & x & e0 & E & A1 & A2 & A3 & _). exists val, x, e0. auto. Qed.
Lemma upd_builtp dotf st c st' r : @ell_update b64 (FNumD dotf) st c = Ok (st', r) -> built64p (snd st) -> built64p (snd st').
Proof.
  destruct st as [w e], c as [g b]. unfold ell_update. intros H HB.
  repeat match type of H with
  | bind ?u _ = _ => destruct u as [?|?]; cbn [bind] in H; [|discriminate H]
  | (let '(_, _) := ?u in _) = _ => destruct u as [? ?]
  | (match ?u with _ => _ end) = _ => destruct u
  end; try discriminate H; inversion H; subst; try exact HB; cbn [snd]; destruct (e_nodefer e); exact HB.
Qed.

(** ** one update with any cut *)
Lemma cut_split h M G X eps W dotf st c st' tsq z :
  fdot_any dotf -> built64p (snd st) -> h <= 8 * eps -> cut_scaled64 h M G X eps st c -> B2R (e_kappa (snd st)) * M <= W ->
  @ell_update b64 (FNumD dotf) st c = Ok (st', (success, tsq)) -> ell_proper (snd st') ->
  mem64 st z -> between64 st c z ->
  e_n (snd st') = e_n (snd st) /\ exists y, mem64 st' y /\ forall i, (i < e_n (snd st))%nat -> Rabs (y i - z i) <= drift_both64 (e_n (snd st)) eps W X.
Proof.
  intros HD HB HE (b0 & NB & HS & HF) HW U HP Hz [B0 B1]. destruct st as [w e], c as [g b]. cbn [fst snd] in *.
  destruct (scaled_proper _ _ _ _ _ _ _ HS) as (_ & H0 & X0 & _).
  assert (W0 : 0 <= W).
  { eapply Rle_trans; [|exact HW]. destruct HS as (_ & _ & _ & _ & [_ Rk] & _ & _ & _ & RM & _). assert (0 < pow2 (-200)) by apply bpow_gt_0. apply Rmult_le_pos; lra. }
  assert (ONE : @ell_update b64 (FNumD dotf) (w, e) (g, BScalar b0) = Ok (st', (success, tsq)) ->
    e_n (snd st') = e_n e /\ exists y, mem64 st' y /\ forall i, (i < e_n e)%nat -> Rabs (y i - z i) <= drift_both64 (e_n e) eps W X).
  { intros U1. destruct (upd64_split h M G X W dotf w e g b0 st' tsq z HD (built_p e HB) HS HW U1 HP Hz (B0 b0 NB)) as (EN & y & Hy & Dy).
    split; [exact EN|]. exists y. split; [exact Hy|]. intros i Hi. eapply Rle_trans; [exact (Dy i Hi)|]. apply drift_le; lra. }
  destruct b as [b|[|b [|b1 l]]]; cbn [near64 far_side64] in *; try discriminate NB; assert (b = b0) by congruence; subst b.
  - apply ONE. exact U.
  - apply ONE. exact U.
  - destruct (HF b1 eq_refl) as [_ HF1]. apply (par_split h M G X eps W dotf w e g b0 b1 st' tsq z); auto. lra.
Qed.

(** a reported nosoln: no point of the set satisfies the cut with its near beta enlarged *)
Lemma cut_nosoln h M G X eps dotf st c st' tsq z :
  fdot_any dotf -> cut_scaled64 h M G X eps st c ->
  @ell_update b64 (FNumD dotf) st c = Ok (st', (nosoln, tsq)) -> mem64 st z ->
  ~ holds_both64 (e_n (snd st)) h (fst st (e_xc (snd st))) c z.
Proof.
  intros HD (b0 & NB & HS & HF) U Hz [H0 H1]. destruct st as [w e], c as [g b]. cbn [fst snd] in *. specialize (H0 b0 NB). unfold holds64 in H0.
  destruct (scaled_proper _ _ _ _ _ _ _ HS) as (_ & HP & _ & B0).
  assert (ONE : @ell_update b64 (FNumD dotf) (w, e) (g, BScalar b0) = Ok (st', (nosoln, tsq)) -> False).
  { intros U1. assert (N := C142_nosoln_margin h M G X dotf w e g b0 st' tsq z HD HS U1 Hz). lra. }
  destruct b as [b|[|b [|b1 l]]]; cbn [near64 far_side64] in *; try discriminate NB; assert (b = b0) by congruence; subst b.
  - apply ONE. exact U.
  - apply ONE. exact U.
  - specialize (H1 b1 eq_refl). assert (F1 : is_finite b1 = true) by exact (proj1 (HF b1 eq_refl)).
    destruct (C160_parallel_nosoln h M G X dotf w e g b0 b1 st' tsq z HD HS F1 U Hz) as [N|N]; [|lra].
    assert (0 <= B2R b0 * (8 * h)) by (apply Rmult_le_pos; lra). lra.
Qed.

(** ** a run *)
Lemma runs_keep h M G X eps W dotf st l st' : fdot_any dotf -> ell_runs64 dotf st l st' -> built64p (snd st) -> h <= 8 * eps ->
  (forall s c, In (s, c) l -> cut_scaled64 h M G X eps s c /\ B2R (e_kappa (snd s)) * M <= W) ->
  ell_proper (snd st') ->
  forall z y0 rho0, mem64 st y0 -> (forall i, (i < e_n (snd st))%nat -> Rabs (y0 i - z i) <= rho0) ->
  (forall s c, In (s, c) l -> cube_in (e_n (snd st)) (rho0 + INR (length l) * drift_both64 (e_n (snd st)) eps W X) (between64 s c) z) ->
  e_n (snd st') = e_n (snd st) /\
  exists y, mem64 st' y /\ forall i, (i < e_n (snd st))%nat -> Rabs (y i - z i) <= rho0 + INR (length l) * drift_both64 (e_n (snd st)) eps W X.
Proof.
  intros HD HR. induction HR as [st|st c st1 tsq l st2 U HR IH]; intros HB HE HS HP z y0 rho0 Hy0 Dy0 HC.
  - split; [reflexivity|]. exists y0. split; [exact Hy0|]. intros i Hi. cbn [length INR]. rewrite Rmult_0_l, Rplus_0_r. apply Dy0. exact Hi.
  - destruct (HS st c) as [S1 K1]; [left; reflexivity|]. assert (S1' := S1). destruct S1' as (b0 & _ & SS & _). destruct (scaled_proper _ _ _ _ _ _ _ SS) as (PR & H0 & X0 & B0). clear SS b0 B0.
    set (n := e_n (snd st)) in *. set (u := drift_both64 n eps W X) in *. assert (U0 : 0 <= u) by (apply drift_both_nn; lra).
    assert (LEN : INR (length ((st, c) :: l)) = INR (length l) + 1) by (cbn [length]; apply S_INR).
    assert (L0 := pos_INR (length l)).
    assert (SAT : between64 st c y0).
    { apply (HC st c (or_introl eq_refl) y0). intros i Hi. eapply Rle_trans; [apply Dy0; exact Hi|]. rewrite LEN. nra. }
    assert (P1 : ell_proper (snd st1)).
    { inversion HR as [|st0 c0 st3 q0 l0 st4 U1 HR1]; subst; [exact HP|].
      destruct (HS st1 c0) as [(b0 & _ & SS & _) _]; [right; left; reflexivity|]. exact (proj1 (scaled_proper _ _ _ _ _ _ _ SS)). }
    destruct (cut_split h M G X eps W dotf st c st1 tsq y0 HD HB HE S1 K1 U P1 Hy0 SAT) as (EN & y1 & Hy1 & Dy1). fold n in Dy1. fold u in Dy1.
    assert (B1 := upd_builtp _ _ _ _ _ U HB). specialize (IH B1 HE (fun s c0 Hi => HS s c0 (or_intror Hi)) HP z y1 (rho0 + u) Hy1).
    rewrite EN in IH. fold n in IH. fold u in IH. rewrite LEN. replace (rho0 + (INR (length l) + 1) * u) with (rho0 + u + INR (length l) * u) by ring. apply IH.
    + intros i Hi. replace (y1 i - z i) with ((y1 i - y0 i) + (y0 i - z i)) by ring. eapply Rle_trans; [apply Rabs_triang|].
      assert (A1 := Dy1 i Hi). assert (A2 := Dy0 i Hi). lra.
    + intros s c0 Hi. replace (rho0 + u + INR (length l) * u) with (rho0 + INR (length ((st, c) :: l)) * u) by (rewrite LEN; ring).
      apply (HC s c0 (or_intror Hi)).
Qed.

Lemma runs_n dotf st l st' : ell_runs64 dotf st l st' -> e_n (snd st') = e_n (snd st) /\ forall s c, In (s, c) l -> e_n (snd s) = e_n (snd st).
Proof.
  intros H. induction H as [|st c st1 tsq l st2 U HR [IH1 IH2]]; [split; [reflexivity|intros s c []]|].
  assert (E := update_n64 dotf st c st1 (success, tsq) U). split; [congruence|]. intros s c0 [Eq|Hi]; [congruence|]. rewrite (IH2 s c0 Hi). exact E.
Qed.
Lemma cube_mono n r1 r2 (K1 K2 : (nat -> R) -> Prop) z : r1 <= r2 -> (forall y, K2 y -> K1 y) -> cube_in n r2 K2 z -> cube_in n r1 K1 z.
Proof. intros Hr HK H y Hy. apply HK, H. intros i Hi. eapply Rle_trans; [apply Hy; exact Hi|exact Hr]. Qed.

Lemma holds_between h M G X eps st c y : cut_scaled64 h M G X eps st c -> holds_both64 (e_n (snd st)) h (fst st (e_xc (snd st))) c y -> between64 st c y.
Proof.
  intros (b0 & NB & HS & _) [A B]. destruct (scaled_proper _ _ _ _ _ _ _ HS) as (_ & HP & _ & B0). destruct st as [w e]. cbn [fst snd] in *. split.
  - intros b Eb. assert (b = b0) by congruence. subst b. specialize (A b0 NB). unfold holds64 in A. cbn [sat64]. assert (0 <= B2R b0 * (8 * h)) by (apply Rmult_le_pos; lra). lra.
  - intros b Eb. exact (B b Eb).
Qed.

(** the common end of both drivers: K is any set on which every cut of the run holds *)
Lemma runs_end h M G X eps W dotf st l st1 c st' tsq (K : (nat -> R) -> Prop) z N :
  fdot_any dotf -> ell_runs64 dotf st l st1 -> built64p (snd st) -> h <= 8 * eps ->
  (forall s c, In (s, c) l -> cut_scaled64 h M G X eps s c /\ B2R (e_kappa (snd s)) * M <= W) -> (length l <= N)%nat ->
  (forall s c y, In (s, c) l -> K y -> holds_both64 (e_n (snd st)) h (fst s (e_xc (snd s))) c y) ->
  cut_scaled64 h M G X eps st1 c ->
  @ell_update b64 (FNumD dotf) st1 c = Ok (st', (nosoln, tsq)) ->
  (forall y, K y -> holds_both64 (e_n (snd st)) h (fst st1 (e_xc (snd st1))) c y) ->
  mem64 st z -> ~ cube_in (e_n (snd st)) (INR N * drift_both64 (e_n (snd st)) eps W X) K z.
Proof.
  intros HD HR HB HE HS HN HK S1 U HK1 Hz HC. assert (S1' := S1). destruct S1' as (b0 & _ & SS & _). destruct (scaled_proper _ _ _ _ _ _ _ SS) as (P1 & H0 & X0 & _).
  assert (U0 := drift_both_nn (e_n (snd st)) eps W X ltac:(lra) X0). set (n := e_n (snd st)) in *. set (u := drift_both64 n eps W X) in *.
  assert (LE : 0 + INR (length l) * u <= INR N * u) by (rewrite Rplus_0_l; apply Rmult_le_compat_r; [exact U0|apply le_INR; exact HN]).
  destruct (runs_n dotf st l st1 HR) as [EN1 EN2]. fold n in EN1, EN2.
  destruct (runs_keep h M G X eps W dotf st l st1 HD HR HB HE HS P1 z z 0 Hz) as (EN & y & Hy & Dy).
  - intros i _. rewrite Rminus_diag_eq, Rabs_R0 by reflexivity. lra.
  - intros s c0 Hi. fold n. fold u. eapply cube_mono; [exact LE| |exact HC]. intros y Ky. destruct (HS s c0 Hi) as [S2 _].
    apply (holds_between h M G X eps); [exact S2|]. rewrite (EN2 s c0 Hi). exact (HK s c0 y Hi Ky).
  - fold n in Dy. fold u in Dy. apply (cut_nosoln h M G X eps dotf st1 c st' tsq y HD S1 U Hy). rewrite EN1. apply HK1. apply HC.
    intros i Hi. eapply Rle_trans; [exact (Dy i Hi)|exact LE].
Qed.

Section Feas.
Context {O : Type}.
Variables (dotf : nat -> (nat -> b64) -> (nat -> b64) -> b64) (omega : O -> (nat -> b64) -> res (O * option (@cut b64))).
Notation sp := (@ell_space b64 (FNumD dotf)).
Lemma feas_runs ltb tol : forall tr0 o st o1 st1 rest,
  feas_replay sp omega o st tr0 o1 st1 -> Forall (fgo ltb tol) tr0 ->
  exists l, ell_runs64 dotf st l st1 /\ length l = length tr0 /\
    forall s c, In (s, c) l -> asked64 sp omega o st (tr0 ++ rest) s c /\ exists q, In (fst s (e_xc (snd s)), Some (c, success, q)) tr0.
Proof.
  intros tr0 o st o1 st1 rest HR. revert rest. induction HR as [o st|o st o1 E|o st c o1 st1 s q tr o' st' E U HR IH]; intros rest HF.
  - exists []. split; [constructor|]. split; [reflexivity|]. intros s c [].
  - inversion HF as [|e l0 F1 F2]; subst. destruct F1 as (x & c & q & Ee & _). discriminate Ee.
  - inversion HF as [|e l0 F1 F2]; subst. destruct F1 as (x & c1 & q1 & Ee & _).
    assert (E1 : s = success) by congruence. subst s.
    assert (EX : centre sp st = fst st (e_xc (snd st))) by (destruct st; reflexivity).
    destruct (IH rest F2) as (l & HL & LL & HI).
    exists ((st, c) :: l). split; [exact (EM_cons dotf st c st1 q l st' U HL)|]. split; [cbn [length]; congruence|].
    intros s c0 [Eh|Hi].
    + assert (s = st) by congruence. assert (c0 = c) by congruence. subst. split.
      * exists [], (centre sp st), success, q, (tr ++ rest), o. split; [reflexivity|constructor].
      * exists q. left. rewrite EX. reflexivity.
    + destruct (HI s c0 Hi) as [(t1 & x0 & s0 & q0 & t2 & o2 & Et & Hr) [q9 HI2]]. split; [|exists q9; right; exact HI2].
      exists ((centre sp st, Some (c, success, q)) :: t1), x0, s0, q0, t2, o2. split; [cbn [app]; rewrite Et; reflexivity|]. eapply FR_cut; eassumption.
Qed.
End Feas.

Section DC.
Context {O T : Type}.
Variables (dotf : nat -> (nat -> b64) -> (nat -> b64) -> b64) (omega : O -> (nat -> b64) -> T -> res (O * (@cut b64 * option T))).
Notation sp := (@ell_space b64 (FNumD dotf)).
Lemma dc_runs ltb tol : forall tr0 o st t o1 st1 t1 rest,
  dc_replay sp omega o st t tr0 o1 st1 t1 -> Forall (dgo ltb tol) tr0 ->
  exists l, ell_runs64 dotf st l st1 /\ length l = length tr0 /\
    forall s c, In (s, c) l -> asked64_dc sp omega o st t (tr0 ++ rest) s c /\ exists ev, In ev tr0 /\ d_x ev = fst s (e_xc (snd s)) /\ d_cut ev = c.
Proof.
  intros tr0 o st t o1 st1 t1 rest HR. revert rest. induction HR as [o st t|o st t c t1 o1 st1 s q tr o' st' t' E U HR IH]; intros rest HF.
  - exists []. split; [constructor|]. split; [reflexivity|]. intros s c [].
  - inversion HF as [|e l0 F1 F2]; subst. destruct F1 as [F1 _]. cbn [d_status] in F1. subst s.
    assert (EX : centre sp st = fst st (e_xc (snd st))) by (destruct st; reflexivity).
    destruct (IH rest F2) as (l & HL & LL & HI).
    exists ((st, c) :: l). split; [exact (EM_cons dotf st c st1 q l st' U HL)|]. split; [cbn [length]; congruence|].
    set (e0 := {| d_x := centre sp st; d_t := t; d_cut := c; d_t1 := t1; d_status := success; d_tsq := q |}) in *.
    intros s c0 [Eh|Hi].
    + assert (s = st) by congruence. assert (c0 = c) by congruence. subst. split.
      * exists [], e0, (tr ++ rest), o, t. split; [reflexivity|]. split; [reflexivity|constructor].
      * exists e0. split; [left; reflexivity|]. split; [exact EX|reflexivity].
    + destruct (HI s c0 Hi) as [(u1 & ev & u2 & o2 & t2 & Et & Ec & Hr) (ev9 & I1 & I2)]. split; [|exists ev9; split; [right; exact I1|exact I2]].
      exists (e0 :: u1), ev, u2, o2, t2. split; [cbn [app]; rewrite Et; reflexivity|]. split; [exact Ec|]. unfold e0. eapply DR_cut; eassumption.
Qed.
End DC.
