(** Rates of convergence of cutting_plane_dc over ell with the repository's oracles (C91 - C94). *)
From Coq Require Import Reals Lra Psatz FunctionalExtensionality.
From Verif Require Import Base M_Drivers S_Drivers P_Drivers S_LinAlg P_LinAlg M_Ell S_Ell P_EllCalc P_Ell P_Ell3 P_Ell4
  S_Det S_Volume P_Volume P_Conv M_Chol M_Lmi S_Lmi P_Chol P_Lmi P_Lmi2 M_Lowpass S_Lowpass P_Lowpass
  M_Net S_Net P_Net M_Profit S_Profit P_Profit T_Drivers T_Ell T_Chol T_Lmi T_Net T_Lowpass T_Profit T_Volume.
Local Open Scope R_scope.

(** A run longer than the bound for radius th r has found a value that not all the points
    (1-th) xs + th y, y in the ball of radius r, can beat. *)
Lemma dc_shrunk_ball {Or T : Type} (omega : Or -> (nat -> R) -> T -> res (Or * (cut R * option T))) tneq
      (OI : Or -> Prop) (better : T -> (nat -> R) -> Prop) xs c r th max_it tol o w e t tr o' st' xb t' info :
  0 < r -> 0 < th <= 1 -> tol <= 0 -> ell_wf e -> OI o ->
  optimizes omega OI (sat_cut (e_n e)) better ->
  (forall o x t o' cu t1, OI o -> omega o x t = Ok (o', (cu, t1)) -> deep cu) ->
  mem_ell (w, e) xs -> (forall y, ball (e_n e) c r y -> mem_ell (w, e) y) ->
  cutting_plane_dc ell_space Rltb tneq omega max_it tol o (w, e) t = Ok (tr, o', st', (xb, t', info)) ->
  cut_bound (e_n e) (shape_det e) (th * r) < INR max_it ->
  ~ (forall y z, ball (e_n e) c r y -> (forall i, z i = (1 - th) * xs i + th * y i) -> better t' z).
Proof.
  intros Hr Hth Htol He Ho Hopt Hdeep Hxs Hball H Hbd Hall.
  assert (Hrt : 0 < th * r) by nra.
  destruct (C80_dc_iteration_bound Or T omega tneq OI better
     (fun i => (1 - th) * xs i + th * c i) (th * r) max_it tol o w e t tr o' st' xb t' info) as (H1 & _ & H3); try assumption.
  2:{ rewrite (H3 Htol) in H1. lra. }
  intros z Hz.
  set (y := fun i => / th * (z i - (1 - th) * xs i)).
  assert (Ez : forall i, z i = (1 - th) * xs i + th * y i) by (intros i; unfold y; field; lra).
  assert (Hy : ball (e_n e) c r y).
  { unfold ball in Hz |- *.
    apply Rmult_le_reg_l with (th * th); [nra|].
    replace (th * th * (r * r)) with (th * r * (th * r)) by ring. eapply Rle_trans; [|exact Hz].
    right. unfold dot. rewrite <- rsum_scal_l. apply rsum_ext. intros i Hi. rewrite Ez. ring. }
  split; [apply (mem_ell_convex (w, e) He xs y z th); auto; lra|].
  exact (Hall y z Hy Ez).
Qed.

(** The same for the minimisation of a value t over a convex problem (z, t). *)
Lemma dc_epi_rate {Or : Type} (omega : Or -> (nat -> R) -> R -> res (Or * (cut R * option R))) tneq
      (OI : Or -> Prop) (better : R -> (nat -> R) -> Prop) xs vs c r F th max_it tol o w e t tr o' st' xb t' info :
  0 < r -> 0 < th <= 1 -> tol <= 0 -> ell_wf e -> OI o ->
  (forall s s' z, s <= s' -> better s z -> better s' z) ->
  (forall x y z s s', (forall i, z i = (1 - th) * x i + th * y i) -> better s x -> better s' y ->
     better ((1 - th) * s + th * s') z) ->
  optimizes omega OI (sat_cut (e_n e)) better ->
  (forall o x t o' cu t1, OI o -> omega o x t = Ok (o', (cu, t1)) -> deep cu) ->
  better vs xs -> mem_ell (w, e) xs -> (forall y, ball (e_n e) c r y -> mem_ell (w, e) y /\ better F y) ->
  cutting_plane_dc ell_space Rltb tneq omega max_it tol o (w, e) t = Ok (tr, o', st', (xb, t', info)) ->
  cut_bound (e_n e) (shape_det e) (th * r) < INR max_it ->
  t' <= (1 - th) * vs + th * F.
Proof.
  intros Hr Hth Htol He Ho Hmono Hconv Hopt Hdeep Hxs Hxs2 Hball H Hbd.
  destruct (Rle_lt_dec t' ((1 - th) * vs + th * F)) as [L|L]; [assumption|exfalso].
  eapply (dc_shrunk_ball omega tneq OI better xs c r th); try eassumption.
  - intros y Hy. apply Hball, Hy.
  - intros y z Hy Ez. eapply Hmono; [left; exact L|]. eapply Hconv; [exact Ez|assumption|]. apply Hball, Hy.
Qed.

Lemma dot_comb n a x y z th : (forall i, z i = (1 - th) * x i + th * y i) ->
  dot n a z = (1 - th) * dot n a x + th * dot n a y.
Proof.
  intros Ez. unfold dot. rewrite <- !rsum_scal_l, <- rsum_plus. apply rsum_ext. intros i Hi. rewrite Ez. ring.
Qed.

(** ** C91: low-pass filter design *)
Lemma lowpass_call_deep P s x t s' c t1 : (0 < lp_n P)%nat -> counters_ok P s ->
  lowpass_call P s x t = Ok (s', (c, t1)) -> deep c.
Proof.
  intros Hn Hc H. pose proof (lowpass_call_spec P s x t Hn Hc) as Hs. rewrite H in Hs. destruct c as [g b].
  destruct t1 as [m|].
  - clear Hs. unfold lowpass_call in H. apply bind_ok in H as ([[k c]|] & _ & H); [discriminate|].
    apply bind_ok in H as ([[k c]|[fm im]] & _ & H); [discriminate|].
    apply bind_ok in H as ([[k c]|] & _ & H); [discriminate|]. destruct (nltb _ _); [discriminate|].
    apply bind_ok in H as (g' & _ & H). destruct fm; [|discriminate]. injection H as _ _ <- _. cbn. lra.
  - destruct Hs as (_ & Hb & _ & [_ H0] & _). unfold deep. cbn [snd].
    destruct b as [b|[|b0 [|b1 [|? ?]]]]; cbn in *; try contradiction; lra.
Qed.
Theorem C91_lowpass_rate :
  forall P tneq xs Sopt c r F th max_it tol s w e t tr s' st' xb t' info,
  (0 < lp_n P)%nat -> counters_ok P s -> ell_wf e -> e_n e = lp_n P ->
  0 < r -> 0 < th <= 1 -> tol <= 0 ->
  filter_ok P Sopt xs -> mem_ell (w, e) xs ->
  (forall y, ball (lp_n P) c r y -> mem_ell (w, e) y /\ filter_ok P F y) ->
  cutting_plane_dc ell_space Rltb tneq (lowpass_call P) max_it tol s (w, e) t = Ok (tr, s', st', (xb, t', info)) ->
  cut_bound (lp_n P) (shape_det e) (th * r) < INR max_it ->
  t' <= (1 - th) * Sopt + th * F.
Proof.
  intros P tneq xs Sopt c r F th max_it tol s w e t tr s' st' xb t' info Hn Hs He En Hr Hth Htol Hxs Hms Hball H Hbd.
  rewrite <- En in Hball, Hbd.
  apply (dc_epi_rate (lowpass_call P) tneq (counters_ok P) (filter_ok P) xs Sopt c r F th max_it tol s w e t tr s' st' xb t' info);
    try assumption.
  - intros S1 S2 z L [(Z1 & Z2 & Z3) Z4]. split; [|exact Z4]. split; [exact Z1|]. split; [|exact Z3].
    intros k Hk. specialize (Z2 k Hk). lra.
  - intros x y z S1 S2 Ez [(X1 & X2 & X3) X4] [(Y1 & Y2 & Y3) Y4].
    split; [|rewrite Ez; nra]. split; [|split]; intros k Hk; rewrite (dot_comb _ _ x y z th Ez).
    + specialize (X1 k Hk). specialize (Y1 k Hk). nra.
    + specialize (X2 k Hk). specialize (Y2 k Hk). nra.
    + specialize (X3 k Hk). specialize (Y3 k Hk). nra.
  - rewrite En. apply lowpass_optimizes. exact Hn.
  - intros o x t0 o1 cu t1 Ho Hx. eapply lowpass_call_deep; eassumption.
Qed.
Print Assumptions C91_lowpass_rate.

(** One iteration from a disc of feasible filters: pass band row (1, 2) in [1, 9], stop band row (1, -2). *)
Definition lpT : lowpass R :=
  {| lp_n := 2; lp_Np := 1; lp_Ap := fun _ => vec2 0 1 2; lp_Ns := 1; lp_As := fun _ => vec2 0 1 (-2);
     lp_Nr := 1; lp_Anr := fun _ => vec2 0 1 0; lp_Lpsq := 1; lp_Upsq := 9 |}.
Lemma lpT_ok S x : filter_ok lpT S x <->
  (1 <= x 0%nat + 2 * x 1%nat <= 9 /\ 0 <= x 0%nat - 2 * x 1%nat <= S /\ 0 <= x 0%nat) /\ 0 <= x 0%nat.
Proof.
  unfold filter_ok, spectrum_ok, lpT, dot; cbn. split.
  - intros [(H1 & H2 & H3) H4]. specialize (H1 0%nat ltac:(lia)). specialize (H2 0%nat ltac:(lia)). lra.
  - intros [(H1 & H2 & H3) H4]. repeat split; intros; lra.
Qed.
Lemma small_bound : cut_bound 2 1 (19 / 20 * 1) < INR 1.
Proof.
  unfold cut_bound. change (INR 2) with (1 + 1). change (INR 1) with 1. set (x := 1 / (19 / 20 * 1 * (19 / 20 * 1)) ^ 2).
  assert (Hx : 0 < x < 4 / 3).
  { unfold x. replace (1 / (19 / 20 * 1 * (19 / 20 * 1)) ^ 2) with (160000 / 130321) by field. lra. }
  assert (L : ln x < 1 / 3); [|lra].
  rewrite <- (ln_exp (1 / 3)). apply ln_increasing; [lra|]. pose proof (exp_ineq1_le (1 / 3)). lra.
Qed.
Example C91_ex : exists tr s' st' t' info,
  cutting_plane_dc ell_space Rltb (fun a b => negb (Req_bool a b)) (lowpass_call lpT) 1 0 lp_init
    (fun _ => vec2 0 5 0, ball2) 9 = Ok (tr, s', st', (Some 0%nat, t', info)) /\
  t' <= (1 - 19 / 20) * (14 / 5) + 19 / 20 * (29 / 4).
Proof.
  set (v := 0 + 1 * 5 + -2 * 0).
  destruct (dc_one_step (lowpass_call lpT) (fun a b => negb (Req_bool a b)) 0 lp_init (fun _ => vec2 0 5 0) ball2 9
    {| lp_more := false; lp_iAnr := 0; lp_iAs := 0; lp_iAp := 0 |} (vec2 0 1 (-2)) (BArr [0; v]) (Some v))
    as (tr & s' & st' & info & H).
  - apply ball2_proper.
  - exists 0%nat. split; [cbn; lia|cbn; lra].
  - unfold lowpass_call, round_robin; cbn. unfold row; cbn. rdec. rewrite (proj2 (Reqb_true _ _) eq_refl). cbn. rdec. reflexivity.
  - unfold v. lra.
  - exists tr, s', st', v, info. split; [exact H|].
    assert (E1 : shape_det ball2 = 1) by (unfold shape_det; cbn; unfold idm; cbn; ring).
    assert (Hb : forall y, mem_ell (fun _ => vec2 0 5 0, ball2) y <-> ball 2 (vec2 0 5 0) 1 y).
    { intros y. cbn [mem_ell].
      assert (inverse (e_n ball2) (e_Q ball2) idm) as Hi.
      { split; intros i j Hi Hj; cbn in Hi, Hj |- *; unfold mm, eye, idm;
          destruct i as [|[|i]]; try lia; destruct j as [|[|j]]; try lia; cbn; ring. }
      rewrite (in_ell_inverse _ _ _ _ _ _ Hi). unfold ball. cbn. unfold bf, mvr, dot, idm; cbn.
      split; intros L; lra. }
    apply (C91_lowpass_rate lpT (fun a b => negb (Req_bool a b)) (vec2 0 (22 / 5) (4 / 5)) (14 / 5) (vec2 0 5 0) 1 (29 / 4) (19 / 20)
      1 0 lp_init (fun _ => vec2 0 5 0) ball2 9 tr s' st' (Some 0%nat) v info); try lra; try exact H.
    + cbn; lia.
    + unfold counters_ok; cbn; lia.
    + apply ball2_proper.
    + reflexivity.
    + apply lpT_ok. cbn. lra.
    + apply Hb. unfold ball, dot. cbn. lra.
    + intros y Hy. split; [apply Hb; exact Hy|]. apply lpT_ok. unfold ball, dot in Hy. cbn in Hy.
      set (a := y 0%nat) in *. set (b := y 1%nat) in *. assert ((a - 5) * (a - 5) + b * b <= 1) by lra.
      assert (Hk : forall p q, p * p + q * q = 5 -> p * (a - 5) + q * b <= 9 / 4).
      { intros p q E. assert (0 <= (p * b - q * (a - 5)) * (p * b - q * (a - 5))) by apply Rle_0_sqr.
        assert (E2 : (p * (a - 5) + q * b) * (p * (a - 5) + q * b) =
          (p * p + q * q) * ((a - 5) * (a - 5) + b * b) - (p * b - q * (a - 5)) * (p * b - q * (a - 5))) by ring.
        rewrite E in E2. nra. }
      pose proof (Hk 1 2 ltac:(lra)). pose proof (Hk (-1) (-2) ltac:(lra)).
      pose proof (Hk 1 (-2) ltac:(lra)). pose proof (Hk (-1) 2 ltac:(lra)). nra.
    + rewrite E1. exact small_bound.
Qed.

(** ** C92: least squares estimation *)
Lemma lin_mat_comb F x y z th i j : (forall k, z k = (1 - th) * x k + th * y k) ->
  lin_mat F z i j = (1 - th) * lin_mat F x i j + th * lin_mat F y i j.
Proof.
  intros Ez. unfold lin_mat. rewrite <- !rsum_scal_l, <- rsum_plus. apply rsum_ext. intros k Hk. rewrite Ez. ring.
Qed.
Lemma bf_comb m A B C u v th : (forall i j, C i j = (1 - th) * A i j + th * B i j) ->
  bf m C u v = (1 - th) * bf m A u v + th * bf m B u v.
Proof.
  intros E. rewrite !bf_sums, <- !rsum_scal_l, <- rsum_plus. apply rsum_ext. intros i Hi.
  rewrite <- !rsum_scal_l, <- rsum_plus. apply rsum_ext. intros j Hj. rewrite E. ring.
Qed.
Lemma qmi_concave m rows F0 F t t' x y z th v : 0 <= th <= 1 -> (forall k, z k = (1 - th) * x k + th * y k) ->
  (1 - th) * bf m (qmi_mat rows F0 F t x) v v + th * bf m (qmi_mat rows F0 F t' y) v v
    <= bf m (qmi_mat rows F0 F ((1 - th) * t + th * t') z) v v.
Proof.
  intros Hth Ez.
  assert (E : forall t x, bf m (qmi_mat rows F0 F t x) v v
     = t * dot m v v - rsum rows (fun r => Fv 0 m (aff_mat F0 F x) v r * Fv 0 m (aff_mat F0 F x) v r)).
  { intros t0 x0. exact (bf_qmi_mat rows F0 F t0 x0 0 m v). }
  rewrite !E.
  assert (L : rsum rows (fun r => Fv 0 m (aff_mat F0 F z) v r * Fv 0 m (aff_mat F0 F z) v r)
     <= (1 - th) * rsum rows (fun r => Fv 0 m (aff_mat F0 F x) v r * Fv 0 m (aff_mat F0 F x) v r)
        + th * rsum rows (fun r => Fv 0 m (aff_mat F0 F y) v r * Fv 0 m (aff_mat F0 F y) v r)); [|lra].
  rewrite <- !rsum_scal_l, <- rsum_plus. apply rsum_le. intros r Hr.
  assert (Ez2 : Fv 0 m (aff_mat F0 F z) v r = (1 - th) * Fv 0 m (aff_mat F0 F x) v r + th * Fv 0 m (aff_mat F0 F y) v r).
  { unfold Fv. rewrite <- !rsum_scal_l, <- rsum_plus. apply rsum_ext. intros k Hk. unfold aff_mat.
    rewrite (lin_mat_comb F x y z th _ _ Ez). ring. }
  rewrite Ez2. set (a := Fv 0 m (aff_mat F0 F x) v r). set (b := Fv 0 m (aff_mat F0 F y) v r).
  assert (0 <= th * (1 - th) * ((a - b) * (a - b))) by (apply Rmult_le_pos; [nra|apply Rle_0_sqr]). nra.
Qed.
Theorem C92_lsq_rate :
  forall m F F0 tneq xs c r Fb th max_it tol q Qq Q0 w e t tr o' st' xb t' info,
  all_sym m F -> oracle_chol m Qq -> oracle_chol m Q0 -> ell_wf e -> e_n e = S (length F) ->
  0 < r -> 0 < th <= 1 -> tol <= 0 ->
  let n := length F in
  let feas z := psd m (lin_mat F z) /\ psd m (qmi_mat m F0 F (z n) z) in
  feas xs -> mem_ell (w, e) xs ->
  (forall y, ball (S n) c r y -> mem_ell (w, e) y /\ feas y /\ y n <= Fb) ->
  cutting_plane_dc ell_space Rltb tneq (lsq_omega m F F0) max_it tol (q, Qq, Q0) (w, e) t
    = Ok (tr, o', st', (xb, t', info)) ->
  cut_bound (S n) (shape_det e) (th * r) < INR max_it ->
  t' <= (1 - th) * xs n + th * Fb.
Proof.
  intros m F F0 tneq xs c r Fb th max_it tol q Qq Q0 w e t tr o' st' xb t' info HF Hq H0 He En Hr Hth Htol n feas
    Hxs Hms Hball H Hbd.
  unfold n in Hball, Hbd. rewrite <- En in Hball, Hbd.
  apply (dc_epi_rate (lsq_omega m F F0) tneq
    (fun o => let '(q, Qq, Q0) := o in oracle_chol m Qq /\ oracle_chol m Q0)
    (fun t z => psd m (lin_mat F z) /\ psd m (qmi_mat m F0 F (z n) z) /\ z n <= t)
    xs (xs n) c r Fb th max_it tol (q, Qq, Q0) w e t tr o' st' xb t' info); try assumption.
  - split; assumption.
  - intros s s' z L (Z1 & Z2 & Z3). split; [assumption|]. split; [assumption|lra].
  - intros x y z s s' Ez (X1 & X2 & X3) (Y1 & Y2 & Y3). split; [|split].
    + intros v. rewrite (bf_comb m (lin_mat F x) (lin_mat F y) (lin_mat F z) v v th).
      * specialize (X1 v). specialize (Y1 v). nra.
      * intros i j. apply lin_mat_comb. exact Ez.
    + intros v. specialize (X2 v). specialize (Y2 v). rewrite (Ez n).
      eapply Rle_trans; [|apply (qmi_concave m m F0 F (x n) (y n) x y z th v ltac:(lra) Ez)]. nra.
    + rewrite Ez. nra.
  - rewrite En. apply lsq_omega_optimizes. exact HF.
  - intros o x t0 o1 cu t1 Ho Hx. unfold lsq_omega in Hx. apply bind_ok in Hx as ([o2 [[g fj] t2]] & Hl & Hx).
    injection Hx as _ <- _.
    destruct (C38_lsq_oracle_valid m F F0 o x t0 HF Ho) as (o3 & g3 & fj3 & t3 & Hl' & _ & Hfj & _).
    rewrite Hl in Hl'. injection Hl' as _ <- <- _. exact Hfj.
  - destruct Hxs as [X1 X2]. split; [exact X1|]. split; [exact X2|]. lra.
  - intros y Hy. destruct (Hball y Hy) as (Y0 & [Y1 Y2] & Y3). split; [exact Y0|]. split; [exact Y1|]. split; [exact Y2|exact Y3].
Qed.
Print Assumptions C92_lsq_rate.

(** F(x) = x I, F0 = I, from the disc of centre (2, 9): x >= 0 and (1 - x)^2 <= w hold on it. *)
Lemma disc_mem c0 c1 y : mem_ell (fun _ => vec2 0 c0 c1, ball2) y <-> ball 2 (vec2 0 c0 c1) 1 y.
Proof.
  cbn [mem_ell].
  assert (inverse (e_n ball2) (e_Q ball2) idm) as Hi.
  { split; intros i j Hi Hj; cbn in Hi, Hj |- *; unfold mm, eye, idm;
      destruct i as [|[|i]]; try lia; destruct j as [|[|j]]; try lia; cbn; ring. }
  rewrite (in_ell_inverse _ _ _ _ _ _ Hi). unfold ball. cbn. unfold bf, mvr, dot, idm; cbn.
  split; intros L; lra.
Qed.
Lemma unit_det : shape_det ball2 = 1.
Proof. unfold shape_det; cbn; unfold idm; cbn; ring. Qed.
Lemma exq_form x w v : bf 2 (qmi_mat 2 (mat22 1 0 1) exF w x) v v =
  (w - (1 - x 0%nat) * (1 - x 0%nat)) * (v 0%nat * v 0%nat + v 1%nat * v 1%nat).
Proof. unfold bf, dot, mvr, dot, qmi_mat, aff_mat, lin_mat, exF, mat22; cbn. ring. Qed.
Lemma exl_form x v : bf 2 (lin_mat exF x) v v = x 0%nat * (v 0%nat * v 0%nat + v 1%nat * v 1%nat).
Proof. unfold bf, dot, mvr, dot, lin_mat, exF, mat22; cbn. ring. Qed.
Example C92_ex : exists tr o' st' info,
  cutting_plane_dc ell_space Rltb (fun a b => negb (Req_bool a b)) (lsq_omega 2 exF (mat22 1 0 1)) 1 0
    (qmi_init, chol_init 2, chol_init 2) (fun _ => vec2 0 2 9, ball2) 20 = Ok (tr, o', st', (Some 0%nat, 9, info)) /\
  9 <= (1 - 19 / 20) * 8 + 19 / 20 * 10.
Proof.
  set (x0 := vec2 0 2 9).
  assert (Hsq : forall v : nat -> R, 0 <= v 0%nat * v 0%nat + v 1%nat * v 1%nat) by (intros v; nra).
  assert (Hnz : forall v : nat -> R, nonzero 2 v -> 0 < v 0%nat * v 0%nat + v 1%nat * v 1%nat).
  { intros v (k & Hk & Hv). assert (0 <= v 0%nat * v 0%nat) by apply Rle_0_sqr. assert (0 <= v 1%nat * v 1%nat) by apply Rle_0_sqr.
    assert (0 < v k * v k) by nra. destruct k as [|[|k]]; [| |lia]; lra. }
  destruct (C33_lmi0_decides 2 exF (chol_init 2) x0 exF_sym (conj eq_refl eq_refl)) as (Q1 & c1 & E1 & _ & Hd1).
  assert (c1 = None) as -> by (apply Hd1, C38_hypotheses_met; unfold x0; cbn; lra).
  destruct (C36_qmi_decides 2 2 exF (mat22 1 0 1) (qmi_update qmi_init 9) (chol_init 2) x0 9 eq_refl
    (conj eq_refl eq_refl) (or_intror eq_refl)) as (q2 & Q2 & c2 & E2 & _ & _ & Hd2).
  assert (c2 = None) as ->.
  { apply Hd2. intros v Hv. rewrite exq_form. apply Rmult_lt_0_compat; [unfold x0; cbn; lra|apply Hnz, Hv]. }
  assert (E : exists o' g, lsq_omega 2 exF (mat22 1 0 1) (qmi_init, chol_init 2, chol_init 2) x0 20
    = Ok (o', ((g, BScalar 0), Some 9)) /\ nonzero 2 g).
  { unfold lsq_omega, lsq_call. change (length exF) with 1%nat in *. cbn [Nat.eqb negb]. rewrite E1. cbn [bind].
    change (x0 1%nat) with 9. rewrite E2. cbn [bind].
    change (@nltb R RNum) with Rltb. change (@nzero R RNum) with 0. change (@nsub R RNum) with Rminus.
    destruct (Rltb 0 (9 - 20)) eqn:B; [apply Rltb_true in B; lra|]. cbn [bind].
    eexists _, _. split; [reflexivity|]. exists 1%nat. split; [lia|cbn; lra]. }
  destruct E as (o1 & g & E & Hg).
  destruct (dc_one_step (lsq_omega 2 exF (mat22 1 0 1)) (fun a b => negb (Req_bool a b)) 0 (qmi_init, chol_init 2, chol_init 2)
    (fun _ => x0) ball2 20 o1 g (BScalar 0) (Some 9) ball2_proper Hg E (Rle_refl 0)) as (tr & o' & st' & info & H).
  exists tr, o', st', info. split; [exact H|].
  apply (C92_lsq_rate 2 exF (mat22 1 0 1) (fun a b => negb (Req_bool a b)) (vec2 0 2 8) x0 1 10 (19 / 20)
    1 0 qmi_init (chol_init 2) (chol_init 2) (fun _ => x0) ball2 20 tr o' st' (Some 0%nat) 9 info);
    try lra; try (split; reflexivity); try exact H; try reflexivity.
  - apply exF_sym.
  - apply ball2_proper.
  - split; intros v; [rewrite exl_form|rewrite exq_form]; apply Rmult_le_pos; try apply Hsq; cbn; lra.
  - apply disc_mem. unfold ball, dot. cbn. lra.
  - intros y Hy. split; [apply disc_mem; exact Hy|]. unfold ball, dot, x0 in Hy. cbn in Hy.
    set (a := y 0%nat) in *. set (b := y 1%nat) in *. assert ((a - 2) * (a - 2) + (b - 9) * (b - 9) <= 1) by lra.
    assert (Hs1 : forall u, u * u <= 1 -> -1 <= u <= 1) by (intros u Hu; split; nra).
    assert (0 <= (a - 2) * (a - 2)) by apply Rle_0_sqr. assert (0 <= (b - 9) * (b - 9)) by apply Rle_0_sqr.
    pose proof (Hs1 (a - 2) ltac:(lra)). pose proof (Hs1 (b - 9) ltac:(lra)).
    split; [|change (b <= 10); lra]. split; intros v; [rewrite exl_form|rewrite exq_form]; apply Rmult_le_pos; try apply Hsq.
    + fold a. lra.
    + change (y (length exF)) with b. fold a. nra.
  - rewrite unit_det. exact small_bound.
Qed.

(** ** C93: optimal matrix scaling *)
Theorem C93_optscaling_rate :
  forall g cost tneq xs c r F th max_it tol u w e t tr u' st' xb t' info,
  graph_ok g -> sym_graph (g_edges g) cost -> no_loops (g_edges g) -> ell_wf e -> e_n e = 2%nat ->
  0 < r -> 0 < th <= 1 -> tol <= 0 ->
  attainable (g_edges g) cost xs -> mem_ell (w, e) xs ->
  (forall y, ball 2 c r y -> mem_ell (w, e) y /\ attainable (g_edges g) cost y /\ y 0%nat - y 1%nat <= F) ->
  cutting_plane_dc ell_space Rltb tneq (scaling_omega g cost) max_it tol u (w, e) t = Ok (tr, u', st', (xb, t', info)) ->
  cut_bound 2 (shape_det e) (th * r) < INR max_it ->
  t' <= (1 - th) * (xs 0%nat - xs 1%nat) + th * F.
Proof.
  intros g cost tneq xs c r F th max_it tol u w e t tr u' st' xb t' info Hg Hs Hl He En Hr Hth Htol Hxs Hms Hball H Hbd.
  rewrite <- En in Hball, Hbd.
  apply (dc_epi_rate (scaling_omega g cost) tneq (fun _ => True)
    (fun t z => attainable (g_edges g) cost z /\ z 0%nat - z 1%nat <= t)
    xs (xs 0%nat - xs 1%nat) c r F th max_it tol u w e t tr u' st' xb t' info); try assumption; try exact I.
  - intros s s' z L (Z1 & Z2). split; [assumption|lra].
  - intros x y z s s' Ez ((p & X1) & X2) ((q & Y1) & Y2). split; [|rewrite !Ez; nra].
    exists (fun i => (1 - th) * p i + th * q i). intros i j Hij Hin. specialize (X1 i j Hij Hin). specialize (Y1 i j Hij Hin).
    rewrite !Ez. nra.
  - rewrite En. apply scaling_omega_optimizes; assumption.
  - intros o x t0 o1 cu t1 _ Hx. unfold scaling_omega in Hx. apply bind_ok in Hx as ([u1 [[gr f] t2]] & Ho & Hx).
    injection Hx as _ <- _. unfold deep. cbn [snd]. destruct t2 as [s|].
    + unfold optscaling_call in Ho. destruct (nleb _ _); [discriminate|].
      apply bind_ok in Ho as ([u2 [cut|]] & _ & Ho); [discriminate|]. injection Ho as _ _ <- _. cbn. lra.
    + destruct (C43_optscaling_oracle _ _ cost o x t0 u1 gr f None (cycles_of_ok g Hg) Hs Hl Ho) as (_ & _ & H3).
      destruct (H3 eq_refl) as [|[-> _]]; lra.
  - split; [exact Hxs|lra].
Qed.
Print Assumptions C93_optscaling_rate.
Example C93_ex : exists tr u' st' info,
  cutting_plane_dc ell_space Rltb (fun a b => negb (Req_bool a b)) (scaling_omega sg scost) 1 0 (fun _ => 0)
    (fun _ => vec2 0 5 (-1), ball2) 20 = Ok (tr, u', st', (Some 0%nat, 5 - -1, info)) /\
  5 - -1 <= (1 - 19 / 20) * (4 - -1) + 19 / 20 * (15 / 2).
Proof.
  assert (E : exists u1 g, scaling_omega sg scost (fun _ => 0) (vec2 0 5 (-1)) 20
    = Ok (u1, ((g, BScalar 0), Some (5 - -1))) /\ nonzero 2 g).
  { unfold scaling_omega, optscaling_call. cbn [vec2].
    change (@nleb R RNum) with Rleb. change (@nzero R RNum) with 0. change (@nsub R RNum) with Rminus.
    destruct (Rleb 0 _) eqn:B; [apply Rleb_true in B; lra|]. clear B.
    unfold network_call, cycles_of, find_neg_cycle. cbn. unfold scost. cbn. rdec.
    do 2 eexists. split; [reflexivity|]. exists 0%nat. split; [lia|cbn; lra]. }
  destruct E as (u1 & g & E & Hg).
  destruct (dc_one_step (scaling_omega sg scost) (fun a b => negb (Req_bool a b)) 0 (fun _ => 0)
    (fun _ => vec2 0 5 (-1)) ball2 20 u1 g (BScalar 0) (Some (5 - -1)) ball2_proper Hg E (Rle_refl 0)) as (tr & u' & st' & info & H).
  exists tr, u', st', info. split; [exact H|].
  assert (Hat : forall y, 4 <= y 0%nat -> y 1%nat <= 0 -> attainable (g_edges sg) scost y).
  { intros y Y0 Y1. exists (fun _ => 0). intros i j Hij Hin.
    cbn in Hin. unfold scost.
    repeat (destruct Hin as [[= <- <-]|Hin]; [cbn; lra|]). contradiction. }
  apply (C93_optscaling_rate sg scost (fun a b => negb (Req_bool a b)) (vec2 0 4 (-1)) (vec2 0 5 (-1)) 1 (15 / 2) (19 / 20)
    1 0 (fun _ => 0) (fun _ => vec2 0 5 (-1)) ball2 20 tr u' st' (Some 0%nat) (5 - -1) info); try lra; try exact H; try reflexivity.
  - exact (proj1 C43_C73_ex).
  - exact (proj1 (proj2 C43_C73_ex)).
  - exact (proj1 (proj2 (proj2 C43_C73_ex))).
  - apply ball2_proper.
  - apply Hat; cbn; lra.
  - apply disc_mem. unfold ball, dot. cbn. lra.
  - intros y Hy. split; [apply disc_mem; exact Hy|]. unfold ball, dot in Hy. cbn in Hy.
    set (a := y 0%nat) in *. set (b := y 1%nat) in *. assert (Hs : (a - 5) * (a - 5) + (b - -1) * (b - -1) <= 1) by lra.
    assert (Hs1 : forall u, u * u <= 1 -> -1 <= u <= 1) by (intros u Hu; split; nra).
    assert (0 <= (a - 5) * (a - 5)) by apply Rle_0_sqr. assert (0 <= (b - -1) * (b - -1)) by apply Rle_0_sqr.
    pose proof (Hs1 (a - 5) ltac:(lra)). pose proof (Hs1 (b - -1) ltac:(lra)).
    split; [apply Hat; fold a b; lra|].
    assert (0 <= ((a - 5) + (b - -1)) * ((a - 5) + (b - -1))) by apply Rle_0_sqr.
    assert (((a - 5) - (b - -1)) * ((a - 5) - (b - -1)) <= 2) by lra.
    assert (Hs2 : forall u, u * u <= 2 -> u <= 3 / 2) by (intros u Hu; nra).
    pose proof (Hs2 ((a - 5) - (b - -1)) ltac:(lra)). lra.
  - rewrite unit_det. exact small_bound.
Qed.

(** ** C94: profit maximisation *)
Lemma exp_convex th u v : 0 <= th <= 1 -> exp ((1 - th) * u + th * v) <= (1 - th) * exp u + th * exp v.
Proof.
  intros Hth. set (m := (1 - th) * u + th * v).
  assert (E : forall s, exp s = exp m * exp (s - m)) by (intros s; rewrite <- exp_plus; f_equal; ring).
  pose proof (exp_pos m) as Hm. pose proof (exp_ge_1p (u - m)) as Hu. pose proof (exp_ge_1p (v - m)) as Hv.
  rewrite (E u), (E v).
  assert (1 <= (1 - th) * exp (u - m) + th * exp (v - m)).
  { assert ((1 - th) * (1 + (u - m)) + th * (1 + (v - m)) = 1) by (unfold m; ring). nra. }
  nra.
Qed.
(** profit is log-concave in the log quantities where it is positive *)
Lemma profit_mix p sc a v th A B x y z :
  0 < p * sc -> 0 <= v 0%nat -> 0 <= v 1%nat -> 0 <= th <= 1 -> 0 < A -> 0 < B ->
  (forall i, z i = (1 - th) * x i + th * y i) ->
  A <= profit_of p sc a v (qty x) -> B <= profit_of p sc a v (qty y) ->
  Rpower A (1 - th) * Rpower B th <= profit_of p sc a v (qty z).
Proof.
  intros Hp Hv0 Hv1 Hth HA HB Ez Hx Hy. rewrite profit_of_log in * by assumption.
  set (lx := ln (p * sc) + lin2 a x) in *. set (ly := ln (p * sc) + lin2 a y) in *.
  set (lz := ln (p * sc) + lin2 a z).
  assert (El : lz = (1 - th) * lx + th * ly) by (unfold lz, lx, ly; rewrite !Ez; ring).
  assert (Hterm : forall s u w, s = (1 - th) * u + th * w -> exp s * exp (- lz) <= (1 - th) * (exp u * exp (- lx)) + th * (exp w * exp (- ly))).
  { intros s u w ->. rewrite <- !exp_plus. replace ((1 - th) * u + th * w + - lz) with ((1 - th) * (u + - lx) + th * (w + - ly))
      by (rewrite El; ring). apply exp_convex, Hth. }
  pose proof (Hterm _ (x 0%nat) (y 0%nat) (Ez 0%nat)) as T0. pose proof (Hterm _ (x 1%nat) (y 1%nat) (Ez 1%nat)) as T1.
  pose proof (Hterm _ (ln A) (ln B) eq_refl) as TA. rewrite !exp_ln in TA by assumption.
  unfold Rpower. rewrite <- exp_plus.
  assert (Ex : exp lx * exp (- lx) = 1) by (rewrite <- exp_plus, Rplus_opp_r; apply exp_0).
  assert (Ey : exp ly * exp (- ly) = 1) by (rewrite <- exp_plus, Rplus_opp_r; apply exp_0).
  assert (Ezz : exp lz * exp (- lz) = 1) by (rewrite <- exp_plus, Rplus_opp_r; apply exp_0).
  pose proof (exp_pos (- lx)) as Px. pose proof (exp_pos (- ly)) as Py. pose proof (exp_pos lz) as Pz.
  set (S := exp ((1 - th) * ln A + th * ln B)) in *.
  assert (Hsum : (S + cost v z) * exp (- lz) <= 1).
  { pose proof (Rmult_le_compat_l _ _ _ Hv0 T0) as T0'. pose proof (Rmult_le_compat_l _ _ _ Hv1 T1) as T1'.
    assert (Qx : (A + cost v x) * exp (- lx) <= 1) by (rewrite <- Ex; apply Rmult_le_compat_r; lra).
    assert (Qy : (B + cost v y) * exp (- ly) <= 1) by (rewrite <- Ey; apply Rmult_le_compat_r; lra).
    pose proof (Rmult_le_compat_l (1 - th) _ _ ltac:(lra) Qx) as Qx'. pose proof (Rmult_le_compat_l th _ _ ltac:(lra) Qy) as Qy'.
    lra. }
  pose proof (Rmult_le_compat_l _ _ _ (Rlt_le _ _ Pz) Hsum) as Hf.
  replace (exp lz * ((S + cost v z) * exp (- lz))) with ((S + cost v z) * (exp lz * exp (- lz))) in Hf by ring.
  rewrite Ezz in Hf. lra.
Qed.
Lemma qty_mix th k x y z : 0 <= th <= 1 -> (forall i, z i = (1 - th) * x i + th * y i) ->
  qty x 0%nat <= k -> qty y 0%nat <= k -> qty z 0%nat <= k.
Proof.
  intros Hth Ez Hx Hy. unfold qty in *. rewrite Ez. pose proof (exp_convex th (x 0%nat) (y 0%nat) Hth). nra.
Qed.

Theorem C94_profit_rate :
  forall p sc k a v P tneq xs vs c r F th max_it tol w e t tr o' st' xb t' info,
  profit_init (p, sc, k) a v = Ok P -> 0 <= v 0%nat -> 0 <= v 1%nat -> 0 <= t -> ell_wf e -> e_n e = 2%nat ->
  0 < r -> 0 < th <= 1 -> tol <= 0 -> 0 < vs -> 0 < F ->
  qty xs 0%nat <= k -> vs <= profit_of p sc a v (qty xs) -> mem_ell (w, e) xs ->
  (forall y, ball 2 c r y -> mem_ell (w, e) y /\ qty y 0%nat <= k /\ F <= profit_of p sc a v (qty y)) ->
  cutting_plane_dc ell_space Rltb tneq (profit_omega P) max_it tol tt (w, e) t = Ok (tr, o', st', (xb, t', info)) ->
  cut_bound 2 (shape_det e) (th * r) < INR max_it ->
  Rpower vs (1 - th) * Rpower F th <= t'.
Proof.
  intros p sc k a v P tneq xs vs c r F th max_it tol w e t tr o' st' xb t' info
    HP Hv0 Hv1 Ht He En Hr Hth Htol Hvs HF Hk Hxs Hms Hball H Hbd.
  set (good := fun s z => qty z 0%nat <= k /\ s <= profit_of p sc a v (qty z)).
  assert (Hcut : forall o x t o' c t1, True -> 0 <= t -> profit_omega P o x t = Ok (o', (c, t1)) ->
    True /\ forall z, good (best t t1) z -> sat_cut 2 x c z).
  { intros o x t0 o1 cu t1 _ Ht0 E. split; [exact I|]. unfold profit_omega in E. apply bind_ok in E as ([[g f] t2] & E & E').
    injection E' as _ <- <-. intros z [Z1 Z2]. unfold sat_cut; cbn [fst snd beta0].
    exact (proj1 (C55_profit_cut_valid _ _ _ _ _ _ _ _ _ _ _ HP Hv0 Hv1 Ht0 E) z Z1 Z2). }
  assert (Hrep : forall o x t o' c t1, True -> 0 <= t -> profit_omega P o x t = Ok (o', (c, Some t1)) -> t < t1 /\ good t1 x).
  { intros o x t0 o1 cu t1 _ Ht0 E. unfold profit_omega in E. apply bind_ok in E as ([[g f] t2] & E & E'). injection E' as _ _ ->.
    destruct (C54_profit_report _ _ _ _ _ _ _ _ _ _ _ HP E) as (R1 & -> & R2). split; [exact R2|]. split; [exact R1|apply Rle_refl]. }
  assert (Hanti : forall t t' z, t <= t' -> good t' z -> good t z) by (intros s s' z Hs [Z1 Z2]; split; [exact Z1|lra]).
  rewrite <- (guard_run (profit_omega P) (fun _ => True) good Hcut Hrep) in H by (assumption || exact I).
  pose proof (guard_optimizes (profit_omega P) (fun _ => True) good Hcut Hrep Hanti) as Hopt.
  destruct (Rle_lt_dec (Rpower vs (1 - th) * Rpower F th) t') as [L|L]; [exact L|exfalso].
  rewrite <- En in Hball, Hbd, Hopt.
  eapply (dc_shrunk_ball (om' (profit_omega P)) tneq (fun _ => True) good xs c r th); try eassumption; try exact I.
  - intros o x t0 o1 [g b] t1 _ E. destruct (guard_inv _ _ _ Hcut _ _ _ _ _ _ I E) as (Ht0 & E1 & _).
    unfold profit_omega in E1. apply bind_ok in E1 as ([[g2 f] t2] & E1 & E2). injection E2 as _ _ <- _.
    exact (proj2 (C55_profit_cut_valid _ _ _ _ _ _ _ _ _ _ _ HP Hv0 Hv1 Ht0 E1)).
  - intros y Hy. apply Hball, Hy.
  - intros y z Hy Ez. destruct (Hball y Hy) as (_ & Hky & HFy). pose proof (profit_init_ok _ _ _ _ _ _ HP) as (Hp & _).
    split; [eapply (qty_mix th); try eassumption; lra|]. left. eapply Rlt_le_trans; [exact L|].
    eapply (profit_mix p sc a v th); try eassumption; lra.
Qed.
Print Assumptions C94_profit_rate.

Lemma guaranteed_mix p sc k a v e1 e2 e3 e4 e5 th A B x y z :
  0 < sc -> 0 < p - e3 -> 0 <= e3 -> 0 <= e5 -> 0 <= v 0%nat -> 0 <= v 1%nat -> 0 <= th <= 1 -> 0 < A -> 0 < B ->
  (forall i, z i = (1 - th) * x i + th * y i) ->
  guaranteed p sc k a v e1 e2 e3 e4 e5 A (qty x) -> guaranteed p sc k a v e1 e2 e3 e4 e5 B (qty y) ->
  guaranteed p sc k a v e1 e2 e3 e4 e5 (Rpower A (1 - th) * Rpower B th) (qty z).
Proof.
  intros Hsc Hp H3 H5 Hv0 Hv1 Hth HA HB Ez Gx Gy p' k' a' v' Bp Bk Ba0 Ba1 Bv0 Bv1.
  set (vw := fun i => v i + e5).
  assert (W : forall i, within e5 (v i) (vw i)) by (intros i; unfold within, vw; lra).
  destruct (Gx p' k' a' vw Bp Bk Ba0 Ba1 (W 0%nat) (W 1%nat)) as [X1 X2].
  destruct (Gy p' k' a' vw Bp Bk Ba0 Ba1 (W 0%nat) (W 1%nat)) as [Y1 Y2].
  split; [eapply (qty_mix th k' x y); eassumption|].
  assert (Hps : 0 < p' * sc) by (unfold within in Bp; apply Rmult_lt_0_compat; lra).
  eapply Rle_trans; [eapply (profit_mix p' sc a' vw th A B x y z); try eassumption; unfold vw; lra|].
  unfold profit_of, vw, within, qty in *. pose proof (exp_pos (z 0%nat)). pose proof (exp_pos (z 1%nat)). nra.
Qed.
Theorem C94_profit_rb_rate :
  forall p sc k a v e1 e2 e3 e4 e5 o tneq xs vs c r F th max_it tol w e t tr o' st' xb t' info,
  0 < sc -> 0 <= e1 -> 0 <= e2 -> 0 <= e3 -> 0 <= e4 -> 0 <= e5 -> 0 <= v 0%nat -> 0 <= v 1%nat -> 0 <= t ->
  profit_rb_init (p, sc, k) a v (e1, e2, e3, e4, e5) = Ok o -> ell_wf e -> e_n e = 2%nat ->
  0 < r -> 0 < th <= 1 -> tol <= 0 -> 0 < vs -> 0 < F ->
  guaranteed p sc k a v e1 e2 e3 e4 e5 vs (qty xs) -> mem_ell (w, e) xs ->
  (forall y, ball 2 c r y -> mem_ell (w, e) y /\ guaranteed p sc k a v e1 e2 e3 e4 e5 F (qty y)) ->
  cutting_plane_dc ell_space Rltb tneq profit_rb_omega max_it tol o (w, e) t = Ok (tr, o', st', (xb, t', info)) ->
  cut_bound 2 (shape_det e) (th * r) < INR max_it ->
  Rpower vs (1 - th) * Rpower F th <= t'.
Proof.
  intros p sc k a v e1 e2 e3 e4 e5 o tneq xs vs c r F th max_it tol w e t tr o' st' xb t' info
    Hsc H1 H2 H3 H4 H5 Hv0 Hv1 Ht Hi He En Hr Hth Htol Hvs HF Hxs Hms Hball H Hbd.
  pose (OI := fun o1 => exists cs, rb_calls o cs o1).
  assert (HO : forall o1 cs o2 y t r, rb_calls o cs o1 -> profit_rb_call o1 y t = Ok (o2, r) -> OI o2).
  { intros o1 cs o2 y t0 r0 Hcs Hc. exists (cs ++ [(y, t0)]). clear - Hcs Hc. induction Hcs; cbn.
    - eapply RC_cons; [exact Hc|constructor].
    - eapply RC_cons; [eassumption|]. apply IHHcs. exact Hc. }
  set (good := fun s z => guaranteed p sc k a v e1 e2 e3 e4 e5 s (qty z)).
  assert (Hcut : forall o x t o' c t1, OI o -> 0 <= t -> profit_rb_omega o x t = Ok (o', (c, t1)) ->
    OI o' /\ forall z, good (best t t1) z -> sat_cut 2 x c z).
  { intros o1 x t0 o2 cu t1 (cs & Hcs) Ht0 E. unfold profit_rb_omega in E. apply bind_ok in E as ([o3 [[g f] t2]] & E & E').
    injection E' as <- <- <-. split; [eapply HO; eassumption|]. intros z Hz. unfold sat_cut; cbn [fst snd beta0].
    exact (C75_rb_cut_valid _ _ _ _ _ _ _ _ _ _ _ _ _ _ _ _ _ _ _ Hsc H1 H2 H3 H4 H5 Hv0 Hv1 Ht0 Hi Hcs E z Hz). }
  assert (Hrep : forall o x t o' c t1, OI o -> 0 <= t -> profit_rb_omega o x t = Ok (o', (c, Some t1)) -> t < t1 /\ good t1 x).
  { intros o1 x t0 o2 cu t1 (cs & Hcs) Ht0 E. unfold profit_rb_omega in E. apply bind_ok in E as ([o3 [[g f] t2]] & E & E').
    injection E' as _ _ ->.
    destruct (C56_rb_guaranteed_profit _ _ _ _ _ _ _ _ _ _ _ _ _ _ _ _ _ _ _ Hsc H1 H2 H3 H4 H5 Hi Hcs E) as (G1 & G2 & _). auto. }
  assert (Hanti : forall t t' z, t <= t' -> good t' z -> good t z).
  { intros s s' z Hs G p' k' a' v' B1 B2 B3 B4 B5 B6. destruct (G p' k' a' v' B1 B2 B3 B4 B5 B6). split; [assumption|lra]. }
  assert (Ho : OI o) by (exists []; constructor).
  rewrite <- (guard_run profit_rb_omega OI good Hcut Hrep) in H by assumption.
  pose proof (guard_optimizes profit_rb_omega OI good Hcut Hrep Hanti) as Hopt.
  destruct (Rle_lt_dec (Rpower vs (1 - th) * Rpower F th) t') as [L|L]; [exact L|exfalso].
  rewrite <- En in Hball, Hbd, Hopt. pose proof (profit_rb_init_ok _ _ _ _ _ _ _ _ _ _ _ Hi) as Hf.
  assert (Hp : 0 < p - e3) by (destruct Hf as (_ & _ & a0 & Hp & _); nra).
  eapply (dc_shrunk_ball (om' profit_rb_omega) tneq OI good xs c r th); try eassumption.
  - intros o1 x t0 o2 [g b] t1 Ho1 E. destruct (guard_inv _ _ _ Hcut _ _ _ _ _ _ Ho1 E) as (Ht0 & E1 & _).
    unfold profit_rb_omega in E1. apply bind_ok in E1 as ([o3 [[g2 f] t2]] & E1 & E2). injection E2 as _ _ <- _.
    destruct Ho1 as (cs & Hcs). pose proof (rb_calls_for _ _ _ _ _ _ _ _ _ _ _ _ _ Hcs Hf) as Hf1.
    destruct (rb_call_inv _ _ _ _ _ _ _ _ _ _ _ _ _ _ _ Hf1 E1) as (_ & P & HP & Hc).
    pose proof (profit_call_spec P _ _ _ _ _ x t0 HP) as Hs. rewrite Hc in Hs. unfold deep; cbn [snd].
    destruct Hs as [(? & _ & -> & _)|(_ & _ & [(_ & -> & _)|(? & _ & -> & _)])]; lra.
  - intros y Hy. apply Hball, Hy.
  - intros y z Hy Ez. apply (Hanti t' (Rpower vs (1 - th) * Rpower F th)); [lra|].
    eapply (guaranteed_mix p sc k a v e1 e2 e3 e4 e5 th); try eassumption; try lra. apply Hball, Hy.
Qed.
Print Assumptions C94_profit_rb_rate.

Lemma disc_coords y : ball 2 (vec2 0 0 0) 1 y -> -1 <= y 0%nat <= 1 /\ -1 <= y 1%nat <= 1.
Proof.
  unfold ball, dot. cbn. intros Hy. assert (Hs1 : forall u, u * u <= 1 -> -1 <= u <= 1) by (intros u Hu; split; nra).
  assert (0 <= y 0%nat * y 0%nat) by apply Rle_0_sqr. assert (0 <= y 1%nat * y 1%nat) by apply Rle_0_sqr.
  split; apply Hs1; lra.
Qed.
(** on the unit disc, in the box of parameters of tests/test_profit.py *)
Lemma profit_low p' a' v' y : 19 <= p' -> 0 <= a' 0%nat <= 11 / 100 -> 0 <= a' 1%nat <= 41 / 100 -> v' 0%nat <= 11 -> v' 1%nat <= 36 ->
  -1 <= y 0%nat <= 1 -> -1 <= y 1%nat <= 1 -> 200 <= profit_of p' 40 a' v' (qty y) /\ qty y 0%nat <= 3.
Proof.
  intros Hp Ha0 Ha1 Hv0 Hv1 Hy0 Hy1.
  assert (He : forall u, u <= 1 -> 0 < exp u <= 3).
  { intros u Hu. split; [apply exp_pos|]. eapply Rle_trans; [apply exp_le_iff; exact Hu|]. apply exp_le_3. }
  destruct (He (y 0%nat) ltac:(lra)). destruct (He (y 1%nat) ltac:(lra)). split; [|unfold qty; lra].
  rewrite profit_of_log by lra. rewrite exp_plus, exp_ln by lra.
  pose proof (exp_ge_1p (lin2 a' y)) as Hl. assert (- (52 / 100) <= lin2 a' y) by nra.
  assert (48 / 100 <= exp (lin2 a' y)) by lra. assert (19 * 40 * (48 / 100) <= p' * 40 * exp (lin2 a' y)) by nra.
  assert (v' 0%nat * exp (y 0%nat) <= 33) by nra. assert (v' 1%nat * exp (y 1%nat) <= 108) by nra. lra.
Qed.
Example C94_ex : exists P tr o' st' s info, profit_init (20, 40, 61 / 2) pa pv = Ok P /\
  cutting_plane_dc ell_space Rltb (fun a b => negb (Req_bool a b)) (profit_omega P) 1 0 tt (fun _ => vec2 0 0 0, ball2) 0
  = Ok (tr, o', st', (Some 0%nat, s, info)) /\ Rpower 755 (1 - 19 / 20) * Rpower 200 (19 / 20) <= s.
Proof.
  assert (Ez : (fun _ : nat => 0) = vec2 0 0 0) by (apply functional_extensionality; intros [|[|i]]; reflexivity).
  destruct C54_ex as (P & [g f] & s & HP & Hc & _). rewrite Ez in Hc.
  pose proof (profit_call_spec P _ _ _ _ _ (vec2 0 0 0) 0 (profit_init_ok _ _ _ _ _ _ HP)) as Hs. rewrite Hc in Hs.
  destruct Hs as [(_ & _ & _ & Hs)|(_ & _ & [(_ & Hf & _ & Hg)|(_ & Hs & _)])]; try discriminate.
  destruct (dc_one_step (profit_omega P) (fun a b => negb (Req_bool a b)) 0 tt (fun _ => vec2 0 0 0) ball2 0 tt g (BScalar f) (Some s))
    as (tr & o' & st' & info & H).
  - apply ball2_proper.
  - exists 0%nat. split; [cbn; lia|]. rewrite Hg. cbn [pair2 vec2]. rewrite exp_0, !Rmult_0_r, !Rplus_0_r, exp_ln by lra. unfold pa, pv; cbn. lra.
  - unfold profit_omega. rewrite Hc. reflexivity.
  - lra.
  - exists P, tr, o', st', s, info. split; [exact HP|]. split; [exact H|].
    apply (C94_profit_rate 20 40 (61 / 2) pa pv P (fun a b => negb (Req_bool a b)) (vec2 0 0 0) 755 (vec2 0 0 0) 1 200 (19 / 20)
      1 0 (fun _ => vec2 0 0 0) ball2 0 tr o' st' (Some 0%nat) s info); try lra; try exact HP; try exact H; try reflexivity.
    + unfold pv; cbn; lra.
    + unfold pv; cbn; lra.
    + apply ball2_proper.
    + unfold qty. cbn. rewrite exp_0. lra.
    + unfold profit_of, qty, Rpower, pa, pv; cbn. rewrite exp_0, ln_1, !Rmult_0_r, exp_0. lra.
    + apply disc_mem. unfold ball, dot. cbn. lra.
    + intros y Hy. split; [apply disc_mem; exact Hy|]. destruct (disc_coords y Hy) as [Y0 Y1].
      destruct (profit_low 20 pa pv y); try assumption; try (unfold pa, pv; cbn; lra). split; lra.
    + rewrite unit_det. exact small_bound.
Qed.
Example C94_rb_ex : exists o tr o' st' s info, profit_rb_init (20, 40, 61 / 2) pa pv (3 / 1000, 7 / 1000, 1, 1, 1) = Ok o /\
  cutting_plane_dc ell_space Rltb (fun a b => negb (Req_bool a b)) profit_rb_omega 1 0 o (fun _ => vec2 0 0 0, ball2) 0
  = Ok (tr, o', st', (Some 0%nat, s, info)) /\ Rpower 713 (1 - 19 / 20) * Rpower 200 (19 / 20) <= s.
Proof.
  assert (Ez : (fun _ : nat => 0) = vec2 0 0 0) by (apply functional_extensionality; intros [|[|i]]; reflexivity).
  destruct C56_ex as (o & Hi & o1 & [g f] & s & Hc). rewrite Ez in Hc.
  pose proof (profit_rb_init_ok _ _ _ _ _ _ _ _ _ _ _ Hi) as Hf.
  destruct (rb_call_inv _ _ _ _ _ _ _ _ _ _ _ _ _ _ _ Hf Hc) as (_ & P & HP & Hc').
  pose proof (profit_call_spec P _ _ _ _ _ (vec2 0 0 0) 0 HP) as Hs. rewrite Hc' in Hs.
  destruct Hs as [(_ & _ & _ & Hs)|(_ & _ & [(_ & Hff & _ & Hg)|(_ & Hs & _)])]; try discriminate.
  destruct (dc_one_step profit_rb_omega (fun a b => negb (Req_bool a b)) 0 o (fun _ => vec2 0 0 0) ball2 0 o1 g (BScalar f) (Some s))
    as (tr & o' & st' & info & H).
  - apply ball2_proper.
  - exists 0%nat. split; [cbn; lia|]. rewrite Hg. cbn [pair2 vec2]. rewrite exp_0, !Rmult_0_r, !Rplus_0_r, exp_ln by lra.
    unfold rb_exp, pa, pv; cbn. destruct (Rltb 0 0); lra.
  - unfold profit_rb_omega. rewrite Hc. reflexivity.
  - lra.
  - exists o, tr, o', st', s, info. split; [exact Hi|]. split; [exact H|].
    apply (C94_profit_rb_rate 20 40 (61 / 2) pa pv (3 / 1000) (7 / 1000) 1 1 1 o (fun a b => negb (Req_bool a b)) (vec2 0 0 0) 713 (vec2 0 0 0) 1 200 (19 / 20)
      1 0 (fun _ => vec2 0 0 0) ball2 0 tr o' st' (Some 0%nat) s info); try lra; try exact Hi; try exact H; try reflexivity.
    + unfold pv; cbn; lra.
    + unfold pv; cbn; lra.
    + apply ball2_proper.
    + intros p' k' a' v' Bp Bk Ba0 Ba1 Bv0 Bv1. unfold within, pv in *; cbn in *. unfold profit_of, qty, Rpower; cbn.
      rewrite exp_0, ln_1, !Rmult_0_r, exp_0. lra.
    + apply disc_mem. unfold ball, dot. cbn. lra.
    + intros y Hy. split; [apply disc_mem; exact Hy|]. destruct (disc_coords y Hy) as [Y0 Y1].
      intros p' k' a' v' Bp Bk Ba0 Ba1 Bv0 Bv1. unfold within, pa, pv in *; cbn in *.
      destruct (profit_low p' a' v' y); try assumption; try lra.
    + rewrite unit_det. exact small_bound.
Qed.
