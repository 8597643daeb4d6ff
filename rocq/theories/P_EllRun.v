(** Proofs about sequences of binary64 updates of ell: a point of the set whose neighbourhood satisfies the
    cuts is moved by at most a fixed amount per update. *)
From Coq Require Import ZArith Reals Lra Lia Bool List Psatz.
From Flocq Require Import Core.Core IEEE754.BinarySingleNaN.
From Verif Require Import Base M_Drivers M_Ell S_Ell S_LinAlg P_LinAlg M_Float P_Float P_Float2 S_Float S_EllF P_FSum P_EllCalc P_Ell P_EllF2 P_EllF3 T_Float T_Float2 T_Float7 P_CholF2 S_EllRun.
Import ListNotations.
Local Open Scope R_scope.

(** ** solving a positive definite system, by elimination of the last unknown *)
Lemma bf_last n A v : bf (S n) A v v = bf n A v v + v n * dot n (A n) v + dot n v (fun i => A i n) * v n + v n * A n n * v n.
Proof.
  unfold bf at 1. unfold dot at 1. cbn [rsum]. unfold mvr at 2. unfold dot at 1. cbn [rsum].
  rewrite (rsum_ext n _ (fun k => v k * mvr n A v k + v k * A k n * v n)).
  2: { intros k _. unfold mvr, dot. cbn [rsum]. ring. }
  rewrite rsum_plus, rsum_scal_r. unfold bf, dot at 1. unfold dot. ring.
Qed.
Lemma pd_solve : forall n A z, sym n A -> pd n A -> exists s, forall i, (i < n)%nat -> mvr n A s i = z i.
Proof.
  induction n as [|n IH]; intros A z Hs Hp; [exists z; intros; lia|].
  set (p := A n n).
  assert (Pp : 0 < p).
  { specialize (Hp (fun i => if Nat.eqb i n then 1 else 0)). rewrite bf_last in Hp. rewrite Nat.eqb_refl in Hp.
    assert (E1 : forall M, bf n M (fun i => if Nat.eqb i n then 1 else 0) (fun i => if Nat.eqb i n then 1 else 0) = 0).
    { intros M. unfold bf, dot. apply rsum_0. intros k Hk. destruct (Nat.eqb_spec k n); [lia|ring]. }
    rewrite E1 in Hp. unfold dot in Hp. rewrite !rsum_0 in Hp by (intros k Hk; destruct (Nat.eqb_spec k n); [lia|ring]).
    fold p in Hp. assert (0 < 0 + 1 * 0 + 0 * 1 + 1 * p * 1); [|lra]. apply Hp. exists n. rewrite Nat.eqb_refl. split; [lia|lra]. }
  set (B := fun i j => A i j - A i n * A n j / p).
  assert (Bs : sym n B) by (intros i j Hi Hj; unfold B; rewrite (Hs i j), (Hs i n), (Hs j n) by lia; unfold Rdiv; ring).
  assert (Bb : forall v, bf n B v v = bf n A v v - dot n v (fun i => A i n) * dot n (A n) v / p).
  { intros v. unfold bf. rewrite (dot_ext n v v (mvr n B v) (fun i => mvr n A v i - (dot n (A n) v / p) * A i n)).
    - rewrite dot_minus_r, dot_scal_r. field. lra.
    - reflexivity.
    - intros i Hi. unfold mvr, B, dot. rewrite (rsum_ext n _ (fun k => A i k * v k - A i n / p * (A n k * v k))) by (intros; unfold Rdiv; ring).
      rewrite rsum_minus, rsum_scal_l. unfold Rdiv. ring. }
  assert (Bp : pd n B).
  { intros v (k & Hk & Hv). set (v1 := fun i => if Nat.eqb i n then - (dot n (A n) v / p) else v i).
    assert (X : 0 < bf (S n) A v1 v1).
    { apply Hp. exists k. split; [lia|]. unfold v1. destruct (Nat.eqb_spec k n); [lia|exact Hv]. }
    assert (E : forall i, (i < n)%nat -> v1 i = v i) by (intros i Hi; unfold v1; destruct (Nat.eqb_spec i n); [lia|reflexivity]).
    assert (En : v1 n = - (dot n (A n) v / p)) by (unfold v1; rewrite Nat.eqb_refl; reflexivity).
    rewrite bf_last, (bf_ext n A v1 v v1 v), (dot_ext n (A n) (A n) v1 v), (dot_ext n v1 v (fun i => A i n) (fun i => A i n)), En in X by (auto).
    assert (Es : dot n v (fun i => A i n) = dot n (A n) v).
    { rewrite dot_comm. apply dot_ext; [|reflexivity]. intros i Hi. apply Hs; lia. }
    rewrite Bb. rewrite Es in *. fold p in X. set (c := dot n (A n) v) in *.
    replace (bf n A v v + - (c / p) * c + c * - (c / p) + - (c / p) * p * - (c / p)) with (bf n A v v - c * c / p) in X by (field; lra). exact X. }
  destruct (IH B (fun i => z i - A i n * z n / p) Bs Bp) as [s Hsol].
  set (sn := (z n - dot n (A n) s) / p). exists (fun i => if Nat.eqb i n then sn else s i).
  assert (Sp : forall i, mvr (S n) A (fun k => if Nat.eqb k n then sn else s k) i = dot n (A i) s + A i n * sn).
  { intros i. unfold mvr, dot. cbn [rsum]. rewrite Nat.eqb_refl. f_equal. apply rsum_ext. intros k Hk. destruct (Nat.eqb_spec k n); [lia|reflexivity]. }
  intros i Hi. rewrite Sp. destruct (Nat.eq_dec i n) as [->|Ne].
  - unfold sn. fold p. field. lra.
  - assert (H1 := Hsol i ltac:(lia)).
    assert (E : mvr n B s i = dot n (A i) s - A i n / p * dot n (A n) s).
    { unfold mvr, B, dot. rewrite (rsum_ext n _ (fun k => A i k * s k - A i n / p * (A n k * s k))) by (intros; unfold Rdiv; ring).
      rewrite rsum_minus, rsum_scal_l. reflexivity. }
    rewrite E in H1. unfold sn. replace (dot n (A i) s) with (z i - A i n * z n / p + A i n / p * dot n (A n) s) by lra. field. lra.
Qed.

(** ** a set inside the sum of an ellipsoid and a ball *)
Lemma norm1_sq n a : norm1 n a * norm1 n a <= INR n * dot n a a.
Proof.
  assert (C := cauchy n idm (fun i => Rabs (a i)) (fun _ => 1)).
  assert (Hs : sym n idm) by (intros i j _ _; unfold idm; rewrite Nat.eqb_sym; reflexivity).
  assert (E : forall u v, bf n idm u v = dot n u v).
  { intros u v. unfold bf. apply dot_ext; [reflexivity|]. intros i Hi. apply idm_mv. exact Hi. }
  rewrite !E in C. unfold norm1.
  assert (P : psd n idm) by (intros v; rewrite E; apply rsum_nonneg; intros; apply Rle_0_sqr).
  specialize (C Hs P). eapply Rle_trans; [exact C|].
  assert (E1 : dot n (fun _ => 1) (fun _ => 1) = INR n) by (unfold dot; rewrite P_CholF2.rsum_const; ring).
  assert (E2 : dot n (fun i => Rabs (a i)) (fun i => Rabs (a i)) = dot n a a).
  { apply rsum_ext. intros i _. rewrite <- Rabs_mult. apply Rabs_pos_eq. apply Rle_0_sqr. }
  rewrite E1, E2. lra.
Qed.
Lemma dot_term n v i : (i < n)%nat -> v i * v i <= dot n v v.
Proof. intros Hi. unfold dot. apply (rsum_ge_term n (fun k => v k * v k)); [exact Hi|]. intros; apply Rle_0_sqr. Qed.

Lemma split_sum n Q k x eps v : sym n Q -> psd n Q -> 0 <= k -> 0 < eps ->
  (forall a, dot n a v * dot n a v <= k * bf n Q a a + eps * dot n a a) ->
  exists y, in_ell n Q k x y /\ forall i, (i < n)%nat -> Rabs (x i + v i - y i) <= sqrt eps.
Proof.
  intros Hs Hp Hk He Hv. set (A := fun i j => k * Q i j + eps * idm i j).
  assert (Am : forall s i, (i < n)%nat -> mvr n A s i = k * mvr n Q s i + eps * s i).
  { intros s i Hi. unfold mvr, A, dot. rewrite (rsum_ext n _ (fun j => k * (Q i j * s j) + eps * (idm i j * s j))) by (intros; ring).
    rewrite rsum_plus, !rsum_scal_l. f_equal. f_equal. exact (idm_mv n s i Hi). }
  assert (Ab : forall s, bf n A s s = k * bf n Q s s + eps * dot n s s).
  { intros s. unfold bf. rewrite (dot_ext n s s (mvr n A s) (fun i => k * mvr n Q s i + eps * s i)) by (auto). rewrite dot_plus_r, !dot_scal_r. reflexivity. }
  assert (As : sym n A) by (intros i j Hi Hj; unfold A, idm; rewrite (Hs i j Hi Hj), Nat.eqb_sym; reflexivity).
  assert (Ap : pd n A).
  { intros s (i & Hi & Hi0). rewrite Ab. assert (B := Hp s). assert (D := dot_term n s i Hi). assert (0 < s i * s i) by nra. nra. }
  destruct (pd_solve n A v As Ap) as [s Hsol].
  assert (V : bf n A s s = dot n s v) by (unfold bf; apply dot_ext; [reflexivity|exact Hsol]).
  assert (H1 := Hv s). rewrite <- Ab, V in H1. set (c := dot n s v) in *.
  assert (QS := Hp s). assert (D0 : 0 <= dot n s s) by (apply rsum_nonneg; intros; apply Rle_0_sqr).
  rewrite Ab in V. assert (C0 : 0 <= c) by (rewrite <- V; assert (0 <= k * bf n Q s s) by (apply Rmult_le_pos; assumption); assert (0 <= eps * dot n s s) by (apply Rmult_le_pos; lra); lra).
  assert (C1 : c <= 1) by nra.
  exists (fun i => x i + k * mvr n Q s i). split.
  - exists (fun i => k * s i). split.
    + intros i Hi. rewrite mvr_scal. reflexivity.
    + rewrite bf_scal_l, bf_scal_r. assert (E1 : k * bf n Q s s <= 1) by (assert (0 <= eps * dot n s s) by (apply Rmult_le_pos; lra); lra).
      rewrite <- (Rmult_1_r k) at 3. apply Rmult_le_compat_l; [exact Hk|exact E1].
  - intros i Hi. assert (Ei := Hsol i Hi). rewrite Am in Ei by exact Hi.
    replace (x i + v i - (x i + k * mvr n Q s i)) with (eps * s i) by lra.
    rewrite <- sqrt_Rsqr_abs. apply sqrt_le_1_alt. unfold Rsqr.
    assert (D := dot_term n s i Hi). assert (0 <= k * bf n Q s s) by (apply Rmult_le_pos; assumption).
    assert (eps * dot n s s <= 1) by lra. nra.
Qed.

(** ** one update *)
Lemma upd64_split h M G X W dotf w e g b st' tsq z :
  fdot_any dotf -> built64 e -> scaled64 h M G X (w, e) g b -> B2R (e_kappa e) * M <= W ->
  @ell_update b64 (FNumD dotf) (w, e) (g, BScalar b) = Ok (st', (success, tsq)) -> ell_proper (snd st') ->
  mem64 (w, e) z -> sat64 (w, e) g b z ->
  e_n (snd st') = e_n e /\ exists y, mem64 st' y /\ forall i, (i < e_n e)%nat -> Rabs (y i - z i) <= drift64 (e_n e) h W X.
Proof.
  intros HD HB (Hn & HQ & Hg & Hx & [Fk Rk] & [Fb Rb] & Hs & Hp & RM & RG & RX & Hom & Hh1) HW U (Hs' & Hp' & Hk') Hz Hc.
  assert (HH : pow2 (-50) <= h <= / 1024) by (apply Hh with (e := e) (g := g) (M := M) (G := G); try assumption; intros; apply HQ || apply Hg; assumption).
  destruct (consts64 h e HH Hn HB) as (Hp1 & Hc1 & Hc2).
  set (n := e_n e) in *. set (Q := fun i j => B2R (e_Q e i j)) in *. set (gr := fun i => B2R (g i)) in *. set (kappa := B2R (e_kappa e)) in *.
  set (x := fun i => B2R (w (e_xc e) i)).
  assert (OP : 0 < bf n Q gr gr) by (apply om_pos with (h := h) (e := e) (M := M) (G := G); try assumption; intros; apply HQ || apply Hg; assumption).
  assert (HT : 0 <= kappa * bf n Q gr gr) by (assert (0 < pow2 (-200)) by apply bpow_gt_0; nra).
  cbn [mem64] in Hz. fold n Q kappa x in Hz. cbn [sat64] in Hc. fold n gr in Hc.
  change (dot n gr (fun i => z i - x i) + B2R b <= 0) in Hc.
  assert (RNG := in_ell_range n Q kappa x z gr Hs Hp Hz). cbv zeta in RNG. set (al := dot n gr (fun i => z i - x i)) in *.
  set (tau := sqrt (kappa * bf n Q gr gr)).
  assert (TT : tau * tau = kappa * bf n Q gr gr) by (apply sqrt_sqrt; exact HT). assert (T0 : 0 <= tau) by apply sqrt_pos.
  assert (AT : - tau <= al) by nra.
  assert (BT : B2R b <= tau) by lra.
  destruct (upd64 h dotf e g M G HD Hn) with (w := w) (b := b) (X := X) (st' := st') (tsq := tsq)
    as (r0 & s0 & d0 & FORM & D0 & EN & EX & CEN & FK & MAT); try assumption; try (intros; apply HQ || apply Hg || apply Hx; assumption); [lra|].
  split; [exact EN|].
  fold n in FORM, CEN, MAT. fold Q gr kappa in FORM, CEN, MAT.
  set (om := bf n Q gr gr) in *. set (Q1 := fun i j => Q i j - s0 / om * (mvr n Q gr i * mvr n Q gr j)).
  set (x1 := fun i => x i - r0 / om * mvr n Q gr i).
  assert (SO : step_ok (kappa * om) (B2R b) (sqrt (kappa * om)) r0 s0 d0).
  { pose (eR := {| e_n := n; e_nPlus1 := 0; e_halfN := 0; e_halfNminus1 := 0; e_c1 := 0; e_c2 := 0; e_c3 := 0; e_xc := 0%nat; e_kappa := 0;
                   e_Q := fun _ _ => 0; e_par := true; e_nodefer := true |}).
    apply (dc_formula_step_ok eR); [exact (proj1 Hn)|exact HT|exact BT|exact FORM]. }
  assert (IN1 : in_ell n Q1 (kappa * d0) x1 z).
  { apply (step_keep n Q kappa x gr Hs Hp OP r0 s0 d0 (B2R b) (sqrt (kappa * om)) z SO Hz). cbv zeta. fold al. fold tau. nra. }
  assert (S01 : 0 <= s0 <= 1) by apply SO.
  assert (KM : 0 < kappa * M) by (assert (0 < pow2 (-200)) by apply bpow_gt_0; apply Rmult_lt_0_compat; lra).
  assert (HP : 0 < h) by (assert (0 < pow2 (-50)) by apply bpow_gt_0; lra).
  set (k1 := B2R (e_kappa (snd st'))) in *. set (Q2 := fun i j => B2R (e_Q (snd st') i j)) in *.
  assert (NE : INR n = IZR (Z.of_nat n)) by apply INR_IZR_INZ.
  assert (N2 : 2 <= INR n) by (rewrite NE; apply IZR_le; lia).
  set (eps := 64 * (INR n * h * W)).
  assert (EP : 0 < eps) by (unfold eps; assert (0 < INR n * h) by nra; assert (0 < INR n * h * W) by (apply Rmult_lt_0_compat; lra); lra).
  assert (WD : forall a, dot n a (fun i => z i - x1 i) * dot n a (fun i => z i - x1 i) <= k1 * bf n Q2 a a + eps * dot n a a).
  { intros a. assert (R1 := in_ell_range n Q1 (kappa * d0) x1 z a (Q1_sym n Q gr Hs s0) (Q1_psd n Q gr Hs Hp OP s0 S01) IN1). cbv zeta in R1.
    set (A1 := norm1 n a) in *. assert (A0 : 0 <= A1) by apply norm1_nn. assert (A2 := norm1_sq n a). fold A1 in A2.
    assert (D2 : 0 <= dot n a a) by (apply rsum_nonneg; intros; apply Rle_0_sqr).
    assert (W1 : Rabs (k1 * bf n Q2 a a - kappa * d0 * bf n Q1 a a) <= A1 * A1 * (64 * h * (kappa * M))).
    { replace (k1 * bf n Q2 a a - kappa * d0 * bf n Q1 a a) with (bf n (fun i j => k1 * Q2 i j - kappa * d0 * Q1 i j) a a).
      2: { rewrite !bf_sums, <- !rsum_scal_l, <- rsum_minus. apply rsum_ext; intros i _. rewrite <- !rsum_scal_l, <- rsum_minus. apply rsum_ext; intros; ring. }
      apply (bf_norm1 n (fun i j => k1 * Q2 i j - kappa * d0 * Q1 i j) a); [nra|]. intros i j Hi Hj. exact (proj2 (MAT i j Hi Hj)). }
    apply Rabs_le_inv in W1.
    assert (A1 * A1 * (64 * h * (kappa * M)) <= INR n * dot n a a * (64 * h * W)).
    { apply Rmult_le_compat; try nra. }
    unfold eps. nra. }
  rewrite EN in Hs', Hp'. fold n in Hs', Hp'.
  destruct (split_sum n Q2 k1 (fun i => B2R (fst st' (e_xc (snd st')) i)) eps (fun i => z i - x1 i) Hs' Hp' Hk' EP WD) as (y & Hy & Dy).
  exists y. split.
  - unfold mem64. destruct st' as [w' e']. cbn [fst snd] in *. rewrite EN. exact Hy.
  - intros i Hi. assert (D1 := Dy i Hi). assert (D2 := proj2 (CEN i Hi)). rewrite EX in D1.
    assert (SE : sqrt eps = 8 * sqrt (IZR (Z.of_nat n) * h * W)).
    { unfold eps in *. rewrite <- NE. assert (S64 : sqrt 64 = 8) by (replace 64 with (8 * 8) by ring; apply sqrt_square; lra).
      rewrite sqrt_mult_alt by lra. rewrite S64. reflexivity. }
    rewrite SE in D1. assert (SW : sqrt (kappa * M) <= sqrt W) by (apply sqrt_le_1_alt; exact HW).
    assert (16 * h * sqrt (kappa * M) <= 16 * h * sqrt W) by (apply Rmult_le_compat_l; lra).
    unfold drift64. fold uro. change (Rabs (B2R (fst st' (e_xc e) i) - x1 i) <= 16 * h * sqrt (kappa * M) + uro * X) in D2.
    replace (y i - z i) with (- (B2R (fst st' (e_xc e) i) + (z i - x1 i) - y i) + (B2R (fst st' (e_xc e) i) - x1 i)) by ring.
    eapply Rle_trans; [apply Rabs_triang|]. rewrite Rabs_Ropp. lra.
Qed.

Lemma upd_built dotf st c st' r : @ell_update b64 (FNumD dotf) st c = Ok (st', r) -> built64 (snd st) -> built64 (snd st').
Proof.
  destruct st as [w e], c as [g b]. unfold ell_update. intros H HB.
  repeat match type of H with
  | bind ?u _ = _ => destruct u as [?|?]; cbn [bind] in H; [|discriminate H]
  | (let '(_, _) := ?u in _) = _ => destruct u as [? ?]
  | (match ?u with _ => _ end) = _ => destruct u
  end; try discriminate H; inversion H; subst; try exact HB; cbn [snd]; destruct (e_nodefer e); exact HB.
Qed.

Lemma drift_nn n h W X : 0 <= h -> 0 <= X -> 0 <= drift64 n h W X.
Proof. intros Hh HX. unfold drift64. assert (A := sqrt_pos (IZR (Z.of_nat n) * h * W)). assert (B := sqrt_pos W). assert (C := bpow_ge_0 radix2 (-53)). nra. Qed.

Lemma scaled_proper h M G X st g b : scaled64 h M G X st g b -> ell_proper (snd st) /\ 0 < h /\ 0 <= X /\ 0 <= B2R b.
Proof.
  destruct st as [w e]. intros (Hn & HQ & Hg & Hx & [Fk Rk] & [Fb Rb] & Hs & Hp & RM & RG & RX & Hom & Hh1).
  assert (HH : pow2 (-50) <= h <= / 1024) by (apply Hh with (e := e) (g := g) (M := M) (G := G); try assumption; intros; apply HQ || apply Hg; assumption).
  assert (0 < pow2 (-50)) by apply bpow_gt_0. assert (0 < pow2 (-200)) by apply bpow_gt_0.
  split; [split; [exact Hs|split; [exact Hp|cbn [snd]; lra]]|]. split; [lra|]. split; [|lra].
  eapply Rle_trans; [apply Rabs_pos|apply (proj2 (Hx 0%nat ltac:(lia)))].
Qed.

(** ** a run *)
Lemma run_keeps h M G X W dotf st l st' : fdot_any dotf -> ell_run64 dotf st l st' -> built64 (snd st) ->
  (forall s g b, In (s, (g, b)) l -> scaled64 h M G X s g b /\ B2R (e_kappa (snd s)) * M <= W) ->
  ell_proper (snd st') ->
  forall z y0 rho0, mem64 st y0 -> (forall i, (i < e_n (snd st))%nat -> Rabs (y0 i - z i) <= rho0) ->
  (forall s g b, In (s, (g, b)) l -> cube_in (e_n (snd st)) (rho0 + INR (length l) * drift64 (e_n (snd st)) h W X) (sat64 s g b) z) ->
  built64 (snd st') /\ e_n (snd st') = e_n (snd st) /\
  exists y, mem64 st' y /\ forall i, (i < e_n (snd st))%nat -> Rabs (y i - z i) <= rho0 + INR (length l) * drift64 (e_n (snd st)) h W X.
Proof.
  intros HD HR. induction HR as [st|st g b st1 tsq l st2 U HR IH]; intros HB HS HP z y0 rho0 Hy0 Dy0 HC.
  - split; [exact HB|]. split; [reflexivity|]. exists y0. split; [exact Hy0|]. intros i Hi. cbn [length INR]. rewrite Rmult_0_l, Rplus_0_r. apply Dy0. exact Hi.
  - destruct (HS st g b) as [S1 K1]; [left; reflexivity|]. destruct (scaled_proper _ _ _ _ _ _ _ S1) as (PR & H0 & X0 & B0).
    set (n := e_n (snd st)) in *. set (u := drift64 n h W X) in *. assert (U0 : 0 <= u) by (apply drift_nn; lra).
    assert (LEN : INR (length ((st, (g, b)) :: l)) = INR (length l) + 1) by (cbn [length]; apply S_INR).
    assert (L0 := pos_INR (length l)).
    assert (SAT : sat64 st g b y0).
    { apply (HC st g b (or_introl eq_refl) y0). intros i Hi. eapply Rle_trans; [apply Dy0; exact Hi|]. rewrite LEN. nra. }
    assert (P1 : ell_proper (snd st1)).
    { inversion HR; subst; [exact HP|]. apply (scaled_proper h M G X st1 g0 b0). apply HS. right. left. reflexivity. }
    destruct st as [w e]. cbn [snd] in *.
    destruct (upd64_split h M G X W dotf w e g b st1 tsq y0 HD HB S1 K1 U P1 Hy0 SAT) as (EN & y1 & Hy1 & Dy1). fold n u in Dy1.
    assert (B1 := upd_built _ _ _ _ _ U HB). specialize (IH B1 (fun s g0 b0 Hi => HS s g0 b0 (or_intror Hi)) HP z y1 (rho0 + u) Hy1).
    rewrite EN in IH. fold n u in IH. rewrite LEN. replace (rho0 + (INR (length l) + 1) * u) with (rho0 + u + INR (length l) * u) by ring. apply IH.
    + intros i Hi. replace (y1 i - z i) with ((y1 i - y0 i) + (y0 i - z i)) by ring. eapply Rle_trans; [apply Rabs_triang|].
      assert (A1 := Dy1 i Hi). assert (A2 := Dy0 i Hi). lra.
    + intros s g0 b0 Hi. replace (rho0 + u + INR (length l) * u) with (rho0 + INR (length ((w, e, (g, b)) :: l)) * u) by (rewrite LEN; ring).
      apply (HC s g0 b0 (or_intror Hi)).
Qed.
