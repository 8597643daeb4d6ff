(** Convergence of the cutting plane drivers on ell. *)
From Coq Require Import Reals Lra Psatz.
From Verif Require Import Base M_Drivers M_Ell S_LinAlg S_Ell S_Drivers S_Det S_Volume S_Lmi M_Chol M_Lmi
  P_LinAlg P_Drivers P_EllCalc P_Chol P_Lmi P_Ell P_Ell2 P_Ell4 P_Volume.
Local Open Scope R_scope.

Lemma bf_scale_l n k M u v : bf n (fun i j => k * M i j) u v = k * bf n M u v.
Proof.
  rewrite <- bf_scale. unfold bf, mvr, dot. apply rsum_ext. intros i Hi. f_equal.
  apply rsum_ext. intros; ring.
Qed.

Lemma ball_width n Q kappa xc c r :
  sym n Q -> psd n Q -> 0 <= kappa -> 0 < r ->
  (forall z, ball n c r z -> in_ell n Q kappa xc z) ->
  forall g, r * r * dot n g g <= kappa * bf n Q g g.
Proof.
  intros Hs Hp Hk Hr HB g.
  assert (H0 : 0 <= dot n g g) by (unfold dot; apply rsum_nonneg; intros; nra).
  destruct (Req_dec (dot n g g) 0) as [E|E].
  { rewrite E, Rmult_0_r. apply Rmult_le_pos; [assumption|apply Hp]. }
  set (G := sqrt (dot n g g)).
  assert (HG : 0 < G) by (apply sqrt_lt_R0; lra).
  assert (EG : G * G = dot n g g) by (apply sqrt_sqrt; lra).
  assert (Hz : forall s, s * s = 1 ->
    let a := dot n g (fun i => c i - xc i) + s * (r * G) in a * a <= kappa * bf n Q g g).
  { intros s Hss a.
    set (z := fun i => c i + s * (r / G) * g i).
    assert (Bz : ball n c r z).
    { unfold ball, z. rewrite (dot_ext n _ (fun i => s * (r / G) * g i) _ (fun i => s * (r / G) * g i));
        try (intros; ring).
      unfold dot. rewrite (rsum_ext n _ (fun i => (s * s * (r / G) * (r / G)) * (g i * g i))) by (intros; ring).
      rewrite rsum_scal_l. change (rsum n (fun i => g i * g i)) with (dot n g g).
      rewrite <- EG, Hss. right. field. lra. }
    pose proof (in_ell_range n Q kappa xc z g Hs Hp (HB z Bz)) as Hra. cbn zeta in Hra.
    replace (dot n g (fun i => z i - xc i)) with a in Hra; [assumption|].
    unfold a, z, dot.
    rewrite (rsum_ext n (fun k => g k * (c k + s * (r / G) * g k - xc k))
              (fun k => g k * (c k - xc k) + s * (r / G) * (g k * g k))) by (intros; ring).
    rewrite rsum_plus, rsum_scal_l. f_equal. change (rsum n (fun i => g i * g i)) with (dot n g g).
    rewrite <- EG. field. lra. }
  pose proof (Hz 1 ltac:(ring)) as H1. pose proof (Hz (-1) ltac:(ring)) as H2. cbn zeta in H1, H2.
  rewrite <- EG. nra.
Qed.

Definition has_ball (c : nat -> R) (r : R) (st : memory R * ell R) : Prop :=
  forall z, ball (e_n (snd st)) c r z -> mem_ell st z.

Lemma ball_proper c r w e : ell_wf e -> 0 < r -> has_ball c r (w, e) -> ell_proper e.
Proof.
  intros He Hr HB. split; [assumption|]. destruct He as (Hn & Hc & Hs & Hp & Hk).
  assert (Hw := ball_width (e_n e) (e_Q e) (e_kappa e) (w (e_xc e)) c r Hs Hp Hk Hr HB).
  assert (Hpos : forall u, nonzero (e_n e) u -> 0 < e_kappa e * bf (e_n e) (e_Q e) u u).
  { intros u (k & Hk1 & Hu). eapply Rlt_le_trans; [|apply Hw].
    apply Rmult_lt_0_compat; [nra|]. unfold dot. apply (rsum_pos_term _ _ k); [intros; nra|assumption|nra]. }
  split.
  - intros u Hu. specialize (Hpos u Hu). specialize (Hp u). 
    destruct (Rle_lt_or_eq_dec _ _ Hp) as [|E]; [assumption|]. rewrite <- E in Hpos. lra.
  - assert (H := Hpos (fun i => if (i =? 0)%nat then 1 else 0)).
    destruct (Rle_lt_or_eq_dec _ _ Hk) as [|E]; [assumption|]. rewrite <- E in H.
    exfalso. assert (0 < 0); [|lra]. rewrite Rmult_0_l in H. apply H. exists 0%nat. split; [lia|]. cbn. lra.
Qed.

Lemma ball_shape c r w e : ell_wf e -> 0 < r -> has_ball c r (w, e) -> (r * r) ^ e_n e <= shape_det e.
Proof.
  intros He Hr HB. destruct He as (Hn & Hc & Hs & Hp & Hk). unfold shape_det. apply det_ge.
  - intros i j Hi Hj. rewrite (Hs i j) by assumption. reflexivity.
  - nra.
  - intros u. rewrite bf_scale_l.
    apply (ball_width (e_n e) (e_Q e) (e_kappa e) (w (e_xc e)) c r Hs Hp Hk Hr HB).
Qed.

Lemma deep_step n c r w e cu st1 s q :
  ell_wf e -> e_n e = n -> 0 < r -> has_ball c r (w, e) ->
  (forall z, ball n c r z -> sat_cut n (w (e_xc e)) cu z) -> deep cu ->
  ell_update (w, e) cu = Ok (st1, (s, q)) ->
  s = success /\ 0 < q /\ st_wf st1 /\ e_n (snd st1) = n /\ has_ball c r st1 /\
  shape_det (snd st1) <= exp (- / (INR n + 1)) * shape_det e.
Proof.
  intros He En Hr HB Hsat Hd H. subst n. unfold deep in Hd.
  assert (Hpr := ball_proper c r w e He Hr HB).
  destruct (ell_space_sound (e_n e) (w, e) cu st1 s q (conj He eq_refl) H) as [[Hw1 Hn1] Hs1].
  cbn [snd] in Hn1. destruct st1 as [w1 e1]. cbn [snd] in *. destruct cu as [g beta]. cbn [fst snd] in *.
  assert (HB0 : ball (e_n e) c r c).
  { unfold ball. rewrite (dot_ext _ _ (fun _ => 0) _ (fun _ => 0)) by (intros; ring).
    unfold dot. rewrite rsum_0 by (intros; ring). nra. }
  pose proof H as Hup. apply ell_update_spec in Hup as (Eq & HT & Hup); [|assumption].
  assert (HN : 2 <= INR (e_n e)) by (apply (le_INR 2); apply He).
  assert (Hpar : forall b0 b1 bs, beta = BArr (b0 :: b1 :: bs) -> b0 <= b1).
  { intros b0 b1 bs ->. specialize (Hsat c HB0). unfold sat_cut in Hsat. cbn in Hsat. lra. }
  destruct Hup as [(-> & -> & Hstop)|(-> & Hom & rho & sigma & delta & Hfor & -> & ->)].
  - exfalso. rewrite Eq in Hstop. set (T := e_kappa e * bf (e_n e) (e_Q e) g g) in *. rewrite Eq in HT.
    assert (Hnf : forall b, 0 <= b -> ~ sqrt T + IZR (Z.of_nat (e_n e)) * b < 0).
    { intros b Hb Hx. rewrite <- INR_IZR_INZ in Hx. pose proof (sqrt_pos T). nra. }
    destruct s; try (destruct beta as [b|[|b0 [|b1 bs]]]; contradiction).
    + apply (Hs1 c); [apply HB; exact HB0|]. apply Hsat; assumption.
    + destruct beta as [b|[|b0 [|b1 bs]]]; cbn in Hstop; try contradiction;
        try (eapply Hnf; [exact Hd|exact Hstop]).
      destruct Hstop as [Hx|Hx]; [eapply Hnf; [exact Hd|exact Hx]|].
      specialize (Hpar b0 b1 bs eq_refl). rewrite <- INR_IZR_INZ in Hx. cbn in Hd.
      assert (0 <= b0 * b1) by (apply Rmult_le_pos; lra). nra.
  - assert (HTp : 0 < q) by (rewrite Eq; apply Rmult_lt_0_compat; [apply Hpr|assumption]).
    split; [reflexivity|]. split; [assumption|]. split; [exact Hw1|]. split; [assumption|]. split.
    { intros z Hz. cbn [snd] in Hz. rewrite Hn1 in Hz. apply Hs1; [apply HB; exact Hz|]. apply Hsat; assumption. }
    rewrite shape_det_new by lra. apply Rmult_le_compat_r.
    { left. apply det_pd.
      - intros i j Hi Hj. destruct He as (_ & _ & Hs & _). rewrite (Hs i j) by assumption. reflexivity.
      - intros u Hu. rewrite bf_scale_l. apply Rmult_lt_0_compat; apply Hpr; assumption. }
    assert (Hdc : forall b, 0 <= b -> b <= sqrt q -> dc_formula (IZR (Z.of_nat (e_n e))) q b rho sigma delta ->
      delta ^ e_n e * (1 - sigma) <= exp (- / (INR (e_n e) + 1))).
    { intros b Hb Hbq Hf. apply (dc_ratio_central _ q b rho); try assumption. apply He. }
    destruct beta as [b|[|b0 [|b1 bs]]]; cbn in Hfor, Hd.
    + apply (Hdc b); tauto.
    + contradiction.
    + apply (Hdc b0); tauto.
    + destruct Hfor as [(Hb & Hf & _)|(Hf & Ep)]; [apply (Hdc b0); assumption|].
      destruct (step_for_ok e q (BArr [b0; b1]) rho sigma delta (proj1 He) HT) as (c0 & c1 & (Hs & Hdl & _) & _).
      { right. split; assumption. }
      apply (par_ratio_deep (e_n e) q b0 b1 rho sigma delta (proj1 He)); assumption.
Qed.



Lemma ln_mono x y : 0 < x -> x <= y -> ln x <= ln y.
Proof.
  intros Hx H. destruct (Rle_lt_or_eq_dec _ _ H) as [L| ->]; [left; apply ln_increasing; assumption|lra].
Qed.

(** number of successful deep cuts while a ball stays inside *)
Lemma rate_bound n k D D' r : 0 < r ->
  (r * r) ^ n <= D' -> D' <= exp (INR k * - / (INR n + 1)) * D -> INR k <= cut_bound n D r.
Proof.
  intros Hr H1 H2. set (N := INR n) in *. assert (HN : 0 <= N) by apply pos_INR.
  assert (Hp : 0 < (r * r) ^ n) by (apply pow_lt; nra).
  assert (HE : 0 < exp (INR k * - / (N + 1))) by apply exp_pos.
  assert (HD : 0 < D) by (destruct (Rlt_le_dec 0 D); [assumption|nra]).
  unfold cut_bound. fold N.
  assert (Hl : INR k * / (N + 1) <= ln (D / (r * r) ^ n)).
  { rewrite <- (ln_exp (INR k * / (N + 1))). apply ln_mono; [apply exp_pos|].
    apply Rmult_le_reg_r with ((r * r) ^ n); [assumption|].
    unfold Rdiv. rewrite Rmult_assoc, Rinv_l, Rmult_1_r by lra.
    apply Rmult_le_reg_l with (exp (INR k * - / (N + 1))); [assumption|].
    rewrite <- Rmult_assoc, <- exp_plus.
    replace (INR k * - / (N + 1) + INR k * / (N + 1)) with 0 by ring. rewrite exp_0. lra. }
  apply Rmult_le_reg_r with (/ (N + 1)); [apply Rinv_0_lt_compat; lra|].
  replace ((N + 1) * ln (D / (r * r) ^ n) * / (N + 1)) with (ln (D / (r * r) ^ n)) by (field; lra).
  exact Hl.
Qed.

Section Feas.
Context {Or : Type}.
Variable omega : Or -> (nat -> R) -> res (Or * option (cut R)).
Variables (OI : Or -> Prop) (n : nat) (c : nat -> R) (r : R).
Hypothesis Hr : 0 < r.
(** every cut is deep and holds on the ball *)
Hypothesis Hom : forall o x o' a, OI o -> omega o x = Ok (o', a) ->
  OI o' /\ match a with None => True
           | Some cu => deep cu /\ forall z, ball n c r z -> sat_cut n x cu z end.

Lemma feas_replay_rate o w e tr o' st' :
  feas_replay ell_space omega o (w, e) tr o' st' -> OI o -> ell_wf e -> e_n e = n -> has_ball c r (w, e) ->
  exists k, (length tr <= k + 1)%nat /\ ((forall x, ~ In (x, None) tr) -> k = length tr) /\
    (forall x cu s q, In (x, Some (cu, s, q)) tr -> s = success /\ 0 < q) /\
    st_wf st' /\ e_n (snd st') = n /\ has_ball c r st' /\
    shape_det (snd st') <= exp (INR k * - / (INR n + 1)) * shape_det e.
Proof.
  intros H. remember (w, e) as st eqn:Est. revert w e Est.
  induction H as [o st|o st o1 Ho|o st cu o1 st1 s q tr o' st' Ho Hu Hr' IH]; intros w e -> Hoi He En HB.
  - exists 0%nat. cbn [INR]. rewrite Rmult_0_l, exp_0, Rmult_1_l. cbn [snd length].
    split; [lia|]. split; [reflexivity|]. split; [intros ? ? ? ? []|]. split; [exact He|]. split; [exact En|]. split; [exact HB|]. apply Rle_refl.
  - exists 0%nat. cbn [INR]. rewrite Rmult_0_l, exp_0, Rmult_1_l. cbn [snd length].
    split; [lia|]. split; [intros Hno; exfalso; eapply Hno; left; reflexivity|].
    split; [intros ? ? ? ? [E|[]]; discriminate|]. split; [exact He|]. split; [exact En|]. split; [exact HB|]. apply Rle_refl.
  - destruct (Hom _ _ _ _ Hoi Ho) as [Hoi1 [Hdc Hsat]].
    change (sp_update ell_space) with (ell_update (A := R)) in Hu.
    destruct (deep_step n c r w e cu st1 s q He En Hr HB) as (-> & Hq & Hw1 & Hn1 & HB1 & Hsd); try assumption.
    destruct st1 as [w1 e1]. 
    destruct (IH w1 e1 eq_refl Hoi1 Hw1 Hn1 HB1) as (k & Hk & Hk2 & Hsu & Hwf & Hnn & HBB & Hdet).
    exists (S k). split; [cbn [length]; lia|].
    split. { intros Hno. cbn [length]. f_equal. apply Hk2. intros x Hx. apply (Hno x). right; assumption. }
    split. { intros x cu' s' q' [E|Hin]; [injection E as _ _ <- <-; split; [reflexivity|assumption]|eauto]. }
    split; [assumption|]. split; [assumption|]. split; [assumption|].
    eapply Rle_trans; [exact Hdet|]. rewrite S_INR.
    replace ((INR k + 1) * - / (INR n + 1)) with (INR k * - / (INR n + 1) + - / (INR n + 1)) by ring.
    rewrite exp_plus, Rmult_assoc. apply Rmult_le_compat_l; [left; apply exp_pos|]. exact Hsd.
Qed.

Lemma feas_loop_total tol : (forall o x, OI o -> exists a, omega o x = Ok a) ->
  (forall o x o' cu, OI o -> omega o x = Ok (o', Some cu) -> nonzero n (fst cu)) ->
  forall k niter o w e, OI o -> ell_wf e -> e_n e = n -> has_ball c r (w, e) ->
  exists a, feas_loop ell_space Rltb omega k niter tol o (w, e) = Ok a.
Proof.
  intros Hto Hnz. induction k as [|k IH]; intros niter o w e Ho He En HB; [eexists; reflexivity|].
  cbn [feas_loop]. destruct (Hto o (centre ell_space (w, e)) Ho) as [[o1 a] Ha]. rewrite Ha. cbn [bind].
  destruct (Hom _ _ _ _ Ho Ha) as [Ho1 Hcu]. destruct a as [cu|]; [|eexists; reflexivity].
  destruct Hcu as [Hd Hsat]. pose proof (Hnz _ _ _ _ Ho Ha) as Hg. unfold deep in Hd.
  destruct cu as [g beta]. cbn [fst snd] in Hg, Hd.
  assert (Hpr := ball_proper c r w e He Hr HB). subst n.
  destruct (ell_update_total w e g beta Hpr Hg) as [Hok _]; [destruct beta as [|[]]; [discriminate|contradiction|discriminate]|].
  cbn zeta in Hok.
  destruct Hok as [[st1 [s q]] Hu].
  { assert (Hnf : forall T b, 0 <= b -> ~ dc_fault (IZR (Z.of_nat (e_n e))) T b).
    { intros T b Hb [Hb0 E]. pose proof (sqrt_pos T).
      assert (0 < IZR (Z.of_nat (e_n e))) by (apply IZR_lt; destruct He as [He _]; lia). nra. }
    destruct beta as [b|[|b [|b1 bs]]]; cbn [cut_fault]; try contradiction; try (apply Hnf; exact Hd).
    intros [[_ Hf]|(_ & E & Hb1 & _)]; [eapply Hnf; [exact Hd|exact Hf]|].
    cbn in Hd. assert (b = 0) by lra. assert (b1 = 0) by lra. subst b b1.
    destruct Hg as (j & Hj & Hgk).
    assert (Hball : forall s, s * s <= r * r -> ball (e_n e) c r (fun i => c i + s * (if Nat.eqb i j then 1 else 0))).
    { intros s Hs. unfold ball, dot. rewrite (rsum_ext _ _ (fun i => s * s * (if Nat.eqb i j then 1 else 0))).
      - rewrite rsum_scal_l. rewrite (rsum_single _ j _ Hj).
        + rewrite Nat.eqb_refl. lra.
        + intros i Hi Hne. apply Nat.eqb_neq in Hne. rewrite Hne. reflexivity.
      - intros i Hi. destruct (Nat.eqb i j); ring. }
    assert (Hz0 := Hsat _ (Hball 0 ltac:(nra))). assert (Hz1 := Hsat _ (Hball r ltac:(lra))).
    unfold sat_cut in Hz0, Hz1. cbn [fst snd] in Hz0, Hz1.
    set (x := centre ell_space (w, e)) in *.
    assert (Ed : forall s, dot (e_n e) g (fun i => c i + s * (if Nat.eqb i j then 1 else 0) - x i)
                 = dot (e_n e) g (fun i => c i - x i) + s * g j).
    { intros s. unfold dot. rewrite (rsum_ext _ _ (fun i => g i * (c i - x i) + s * (g i * (if Nat.eqb i j then 1 else 0)))) by (intros; ring).
      rewrite rsum_plus, rsum_scal_l. f_equal. f_equal. rewrite (rsum_single _ j _ Hj).
      - rewrite Nat.eqb_refl. ring.
      - intros i Hi Hne. apply Nat.eqb_neq in Hne. rewrite Hne. ring. }
    rewrite Ed in Hz0, Hz1. assert (r * g j = 0) by lra. apply Rmult_integral in H. lra. }
  change (sp_update ell_space) with (ell_update (A := R)). rewrite Hu. cbn [bind].
  destruct (deep_step (e_n e) c r w e (g, beta) st1 s q He eq_refl Hr HB Hsat Hd Hu)
    as (-> & _ & Hw1 & Hn1 & HB1 & _).
  cbn [status_eqb negb]. destruct (Rltb q tol); [eexists; reflexivity|].
  destruct st1 as [w1 e1]. destruct (IH (niter + 1)%nat o1 w1 e1 Ho1 Hw1 Hn1 HB1) as [[[[tr o2] st2] info] Hl].
  rewrite Hl. cbn [bind]. eexists; reflexivity.
Qed.
End Feas.

Section Dc.
Context {Or T : Type}.
Variable omega : Or -> (nat -> R) -> T -> res (Or * (cut R * option T)).
Variables (OI : Or -> Prop) (n : nat) (c : nat -> R) (r : R) (better : T -> (nat -> R) -> Prop).
Hypothesis Hr : 0 < r.
Hypothesis Hopt : optimizes omega OI (sat_cut n) better.
Hypothesis Hdeep : forall o x t o' cu t1, OI o -> omega o x t = Ok (o', (cu, t1)) -> deep cu.

Lemma dc_replay_better o st t tr o' st' t' :
  dc_replay ell_space omega o st t tr o' st' t' -> OI o -> forall z, better t' z -> better t z.
Proof.
  induction 1 as [|o st t cu t1 o1 st1 s q tr o' st' t' Ho Hu Hr' IH]; intros Hoi z Hz; [assumption|].
  destruct (Hopt _ _ _ _ _ _ Hoi Ho) as (Hoi1 & _ & Hb). apply Hb, IH; assumption.
Qed.

Lemma dc_replay_rate o w e t tr o' st' t' :
  dc_replay ell_space omega o (w, e) t tr o' st' t' -> OI o -> ell_wf e -> e_n e = n -> has_ball c r (w, e) ->
  (forall z, ball n c r z -> better t' z) ->
  (forall ev, In ev tr -> d_status ev = success /\ 0 < d_tsq ev) /\
  st_wf st' /\ e_n (snd st') = n /\ has_ball c r st' /\
  shape_det (snd st') <= exp (INR (length tr) * - / (INR n + 1)) * shape_det e.
Proof.
  intros H. remember (w, e) as st eqn:Est. revert w e Est.
  induction H as [o st t|o st t cu t1 o1 st1 s q tr o' st' t' Ho Hu Hr' IH]; intros w e -> Hoi He En HB Hbt.
  - cbn [INR length]. rewrite Rmult_0_l, exp_0, Rmult_1_l. cbn [snd].
    split; [intros ev []|]. split; [exact He|]. split; [exact En|]. split; [exact HB|]. apply Rle_refl.
  - destruct (Hopt _ _ _ _ _ _ Hoi Ho) as (Hoi1 & Hsat & _).
    pose proof (Hdeep _ _ _ _ _ _ Hoi Ho) as Hdc.
    change (sp_update ell_space) with (ell_update (A := R)) in Hu.
    destruct (deep_step n c r w e cu st1 s q He En Hr HB) as (-> & Hq & Hw1 & Hn1 & HB1 & Hsd); try assumption.
    { intros z Hz. apply Hsat. eapply dc_replay_better; [exact Hr'|assumption|]. apply Hbt; assumption. }
    destruct st1 as [w1 e1].
    destruct (IH w1 e1 eq_refl Hoi1 Hw1 Hn1 HB1 Hbt) as (Hsu & Hwf & Hnn & HBB & Hdet).
    split. { intros ev [<-|Hin]; [split; [reflexivity|exact Hq]|eauto]. }
    split; [assumption|]. split; [assumption|]. split; [assumption|].
    eapply Rle_trans; [exact Hdet|]. cbn [length]. rewrite S_INR.
    replace ((INR (length tr) + 1) * - / (INR n + 1)) with (INR (length tr) * - / (INR n + 1) + - / (INR n + 1)) by ring.
    rewrite exp_plus, Rmult_assoc. apply Rmult_le_compat_l; [left; apply exp_pos|]. exact Hsd.
Qed.
End Dc.

(** ellipsoids are convex *)
Lemma mem_ell_convex st : st_wf st -> convex_set (mem_ell st).
Proof.
  destruct st as [w e]. intros (Hn & Hc & Hs & Hp & Hk) x y z th Hth Ez (u & Hx & Hu) (v & Hy & Hv).
  exists (fun i => (1 - th) * u i + th * v i). split.
  - intros i Hi. rewrite Ez, Hx, Hy by assumption.
    assert (E : mvr (e_n e) (e_Q e) (fun i => (1 - th) * u i + th * v i) i
              = (1 - th) * mvr (e_n e) (e_Q e) u i + th * mvr (e_n e) (e_Q e) v i).
    { unfold mvr, dot. rewrite <- !rsum_scal_l, <- rsum_plus. apply rsum_ext. intros; ring. }
    rewrite E. ring.
  - pose proof (Hp (fun i => u i + (-1) * v i)) as Hd.
    assert (Bsym : bf (e_n e) (e_Q e) v u = bf (e_n e) (e_Q e) u v) by (apply bf_sym; assumption).
    cbn [snd] in Hd. rewrite bf_plus_r, !bf_plus_l, !bf_scal_r, !bf_scal_l in Hd.
    rewrite bf_plus_r, !bf_plus_l, !bf_scal_r, !bf_scal_l.
    rewrite Bsym in *. set (a := bf (e_n e) (e_Q e) u u) in *. set (b := bf (e_n e) (e_Q e) u v) in *.
    set (d := bf (e_n e) (e_Q e) v v) in *.
    assert (0 <= th * (1 - th)) by nra.
    assert (0 <= th * (1 - th) * (a - 2 * b + d)) by (apply Rmult_le_pos; lra).
    assert (0 <= (1 - th) * (e_kappa e - a)) by (apply Rmult_le_pos; lra).
    assert (0 <= th * (e_kappa e - d)) by (apply Rmult_le_pos; lra).
    lra.
Qed.

Lemma nonzero_dec n g : nonzero n g \/ forall k, (k < n)%nat -> g k = 0.
Proof.
  induction n as [|n IH]; [right; intros; lia|].
  destruct IH as [(k & Hk & Hg)|IH]; [left; exists k; split; [lia|assumption]|].
  destruct (Req_dec (g n) 0) as [E|E]; [|left; exists n; split; [lia|assumption]].
  right. intros k Hk. destruct (Nat.eq_dec k n) as [->|]; [assumption|apply IH; lia].
Qed.

(** the LMI cut is minus a value of the quadratic form of the matrix *)
Lemma lmi_call_witness m F B Q x Q' g ep : all_sym m F -> sym m B -> chol_for m Q ->
  lmi_call F B (length F) Q x = Ok (Q', Some (g, ep)) ->
  exists v, nonzero m v /\ forall z, dot (length F) g (fun i => z i - x i) + ep = - bf m (aff_mat B F z) v v.
Proof.
  intros HF HB HQ H.
  destruct (lmi_core m (lmi_getA F B (length F) x) (aff_mat B F x) Q HQ (aff_mat_sym m B F x HB HF))
    as (Q1 & b & Hf & HQ1 & Hb & Hc).
  { intros [] i j. unfold lmi_getA. rewrite lin_sum_ok. reflexivity. }
  unfold lmi_call in H. rewrite Hf in H. cbn [bind] in H. destruct b; [discriminate|].
  destruct Hc as (Q2 & ep' & s & e & Hw & HQ2 & Hep & Hse & Hp & Hv & Hq & Hsq); [reflexivity|].
  rewrite Hw in H. cbn [bind] in H. injection H as <- <- <-.
  exists (zext s (e - s) (fun k => c_v Q2 (s + k)%nat)). split.
  { apply nonzero_zext; [lia|]. replace (s + (e - 1 - s))%nat with (e - 1)%nat by lia. rewrite Hv. lra. }
  intros z. rewrite bf_zext by lia. rewrite bf_aff_mat in Hq |- *. unfold dot.
  rewrite (rsum_ext _ _ (fun k => bf (e - s) (blk (nth k F (fun _ _ => 0)) s)
      (fun k => c_v Q2 (s + k)%nat) (fun k => c_v Q2 (s + k)%nat) * z k -
      bf (e - s) (blk (nth k F (fun _ _ => 0)) s)
      (fun k => c_v Q2 (s + k)%nat) (fun k => c_v Q2 (s + k)%nat) * x k)).
  - rewrite rsum_minus. lra.
  - intros k Hk. rewrite Hsq. change (nf F k) with (nth k F (fun _ _ => 0)). ring.
Qed.

Lemma lmi_call_deep m F B Q x Q' g ep z0 : all_sym m F -> sym m B -> chol_for m Q ->
  pd m (aff_mat B F z0) -> lmi_call F B (length F) Q x = Ok (Q', Some (g, ep)) ->
  nonzero (length F) g /\ 0 <= ep.
Proof.
  intros HF HB HQ Hz H.
  destruct (lmi_call_spec m F B HF Q x HB HQ) as (Q1 & c1 & H1 & _ & _ & Hc).
  rewrite H in H1. injection H1 as <- <-. destruct (Hc g ep eq_refl) as [Hep _].
  split; [|assumption].
  destruct (lmi_call_witness m F B Q x Q' g ep HF HB HQ H) as (v & Hv & E).
  specialize (E z0). specialize (Hz v Hv).
  destruct (nonzero_dec (length F) g) as [|Hn]; [assumption|exfalso].
  assert (E0 : dot (length F) g (fun i => z0 i - x i) = 0).
  { unfold dot. apply rsum_0. intros k Hk. rewrite Hn by assumption. ring. }
  lra.
Qed.
