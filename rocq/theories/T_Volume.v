(** Volume reduction (C22) and convergence (C79 - C82). *)
From Coq Require Import Reals Lra Psatz.
From Verif Require Import Base M_Drivers M_Ell M_Chol M_Lmi S_LinAlg S_Ell S_Drivers S_Lmi S_Det S_Volume
  P_LinAlg P_Drivers P_EllCalc P_Ell P_Ell2 P_Ell3 P_Ell4 P_Chol P_Lmi P_Volume P_Conv T_Ell T_Chol T_Lmi.
Local Open Scope R_scope.

Lemma shape_det_pos e : ell_proper e -> 0 < shape_det e.
Proof.
  intros ((_ & _ & Hs & _) & Hpd & Hk). apply det_pd.
  - intros i j Hi Hj. rewrite (Hs i j) by assumption. reflexivity.
  - intros u Hu. rewrite bf_scale_l. apply Rmult_lt_0_compat; [assumption|apply Hpd; assumption].
Qed.

Lemma nat_above x : exists m, x < INR m.
Proof.
  exists (Z.to_nat (up x)). destruct (archimed x) as [H _].
  destruct (Z_le_gt_dec 0 (up x)) as [L|L].
  - rewrite INR_IZR_INZ, Z2Nat.id by assumption. lra.
  - assert (IZR (up x) < 0) by (apply IZR_lt; lia). pose proof (pos_INR (Z.to_nat (up x))). lra.
Qed.

(** A successful single cut at relative depth al = b / sqrt(tsq) multiplies the squared
    volume by exactly the factor of the minimum-volume ellipsoid, which is at most
    exp(-(1 + n al)^2 / (n + 1)) and less than 1. *)
Theorem C22_single_cut_volume : forall w e g beta b w' e' tsq,
  ell_proper e -> (beta = BScalar b \/ beta = BArr [b]) ->
  ell_update (w, e) (g, beta) = Ok ((w', e'), (success, tsq)) ->
  let N := INR (e_n e) in let al := b / sqrt tsq in
  0 < tsq /\ - 1 < N * al /\ al <= 1 /\
  shape_det e' = dc_axis N al ^ (e_n e - 1) * (dc_depth N al * dc_depth N al) * shape_det e /\
  shape_det e' <= exp (- ((1 + N * al) * (1 + N * al)) / (N + 1)) * shape_det e /\
  shape_det e' < shape_det e.
Proof.
  intros w e g beta b w' e' tsq He Hbeta H N al.
  assert (Hpos := shape_det_pos e He).
  apply ell_update_spec in H as (Eq & HT & H); [|apply He].
  destruct H as [(-> & -> & Hst)|(_ & Hom & rho & sigma & delta & Hst & -> & ->)].
  { destruct Hbeta as [-> | ->]; contradiction. }
  assert (HTp : 0 < tsq) by (rewrite Eq; apply Rmult_lt_0_compat; [apply He|assumption]).
  assert (Hf : b <= sqrt tsq /\ dc_formula (IZR (Z.of_nat (e_n e))) tsq b rho sigma delta)
    by (destruct Hbeta as [-> | ->]; exact Hst).
  destruct Hf as [Hb Hf].
  assert (Hn : (2 <= e_n e)%nat) by apply He.
  destruct (dc_ratio_eq (e_n e) tsq b rho sigma delta Hn HTp Hb Hf) as (H1 & H2 & H3 & H4).
  destruct (dc_axis_bound (e_n e) al Hn H1 H3) as [_ H5]. cbn zeta in H1, H2, H3, H4, H5. fold N in H2, H4, H5. fold al in H1, H2, H3, H4.
  assert (HN : 0 < N) by (unfold N; apply (lt_INR 0); lia).
  split; [assumption|]. split; [lra|]. split; [assumption|].
  rewrite shape_det_new by lra. rewrite H4. split; [reflexivity|]. split.
  - apply Rmult_le_compat_r; [lra|assumption].
  - apply Rle_lt_trans with (exp (- ((1 + N * al) * (1 + N * al)) / (N + 1)) * shape_det e).
    { apply Rmult_le_compat_r; [lra|assumption]. }
    rewrite <- (Rmult_1_l (shape_det e)) at 2. apply Rmult_lt_compat_r; [assumption|].
    apply Rlt_le_trans with (exp 0); [|rewrite exp_0; lra]. apply exp_increasing.
    apply Rmult_lt_reg_r with (N + 1); [lra|].
    replace (- ((1 + N * al) * (1 + N * al)) / (N + 1) * (N + 1)) with (- ((1 + N * al) * (1 + N * al))) by (field; lra).
    assert (0 < (1 + N * al) * (1 + N * al)) by (apply Rmult_lt_0_compat; lra). lra.
Qed.
Print Assumptions C22_single_cut_volume.

(** Parallel cuts never enlarge it, and strictly shrink it unless both cuts lie exactly on
    the no-effect boundary n b0 b1 = -tsq. *)
Theorem C22_parallel_cut_volume : forall w e g b0 b1 bs w' e' tsq,
  ell_proper e ->
  ell_update (w, e) (g, BArr (b0 :: b1 :: bs)) = Ok ((w', e'), (success, tsq)) ->
  shape_det e' <= shape_det e /\
  (INR (e_n e) * (b0 * b1) <> - tsq -> shape_det e' < shape_det e).
Proof.
  intros w e g b0 b1 bs w' e' tsq He H.
  assert (Hpos := shape_det_pos e He).
  apply ell_update_spec in H as (Eq & HT & H); [|apply He].
  destruct H as [(-> & -> & Hst)|(_ & Hom & rho & sigma & delta & Hst & -> & ->)].
  { destruct (e_n e); contradiction. }
  assert (HTp : 0 < tsq) by (rewrite Eq; apply Rmult_lt_0_compat; [apply He|assumption]).
  assert (Hn : (2 <= e_n e)%nat) by apply He.
  rewrite shape_det_new by lra.
  assert (HN : 0 < INR (e_n e)) by (apply (lt_INR 0); lia).
  destruct Hst as [(Hb & Hf & _)|(Hf & _)].
  - assert (delta ^ e_n e * (1 - sigma) < 1); [|split; [nra|intros _; nra]].
    destruct (dc_ratio_eq _ _ _ _ _ _ Hn HTp Hb Hf) as (_ & H2 & _ & _). cbn zeta in H2.
    eapply Rle_lt_trans; [apply (dc_ratio _ _ _ _ _ _ Hn HTp Hb Hf)|].
    set (al := b0 / sqrt tsq) in *. set (N := INR (e_n e)) in *.
    apply Rlt_le_trans with (exp 0); [|rewrite exp_0; lra]. apply exp_increasing.
    apply Rmult_lt_reg_r with (N + 1); [lra|].
    replace (- ((1 + N * al) * (1 + N * al)) / (N + 1) * (N + 1)) with (- ((1 + N * al) * (1 + N * al))) by (field; lra).
    assert (0 < (1 + N * al) * (1 + N * al)) by (apply Rmult_lt_0_compat; lra). lra.
  - destruct (par_formula_step_ok e Hn _ _ _ _ _ _ Hf) as (Hsg & Hd & _).
    destruct (par_ratio _ _ _ _ _ _ _ Hn Hsg Hd Hf) as [[H1 H2] H3].
    split; [nra|]. intros Hne. assert (delta ^ e_n e * (1 - sigma) < 1); [|nra]. apply H3.
    destruct Hf as (_ & _ & _ & Hnp & _). rewrite <- INR_IZR_INZ in Hnp. lra.
Qed.
Print Assumptions C22_parallel_cut_volume.

(** Parallel cuts whose nearer hyperplane passes through the centre or beyond it (b0 >= 0) shrink the
    squared volume at least by the factor exp(-1/(n+1)) of a central cut. *)
Theorem C22_parallel_deep_rate : forall w e g b0 b1 bs w' e' tsq,
  ell_proper e -> 0 <= b0 ->
  ell_update (w, e) (g, BArr (b0 :: b1 :: bs)) = Ok ((w', e'), (success, tsq)) ->
  shape_det e' <= exp (- / (INR (e_n e) + 1)) * shape_det e.
Proof.
  intros w e g b0 b1 bs w' e' tsq He Hb0 H.
  assert (Hpos := shape_det_pos e He).
  apply ell_update_spec in H as (Eq & HT & H); [|apply He].
  destruct H as [(-> & -> & Hst)|(_ & Hom & rho & sigma & delta & Hst & -> & ->)].
  { destruct (e_n e); contradiction. }
  assert (HTp : 0 < tsq) by (rewrite Eq; apply Rmult_lt_0_compat; [apply He|assumption]).
  assert (Hn : (2 <= e_n e)%nat) by apply He.
  rewrite shape_det_new by lra. apply Rmult_le_compat_r; [lra|].
  destruct Hst as [(Hb & Hf & _)|(Hf & _)].
  - apply (dc_ratio_central _ tsq b0 rho); assumption.
  - destruct (par_formula_step_ok e Hn _ _ _ _ _ _ Hf) as (Hsg & Hd & _).
    apply (par_ratio_deep _ tsq b0 b1 rho); assumption.
Qed.
Print Assumptions C22_parallel_deep_rate.
Example C22_parallel_deep_disc : exists w' e', ell_proper ball2 /\
  ell_update (zmem, ball2) (ex, BArr [1 / 4; 1 / 2]) = Ok ((w', e'), (success, 1)) /\
  shape_det e' <= exp (- (1 / 3)).
Proof.
  destruct (ball2_update (BArr [1 / 4; 1 / 2])) as (w' & e' & Hu & _).
  - cbn. tauto.
  - exists w', e'. split; [apply ball2_proper|]. split; [exact Hu|].
    assert (E1 : shape_det ball2 = 1) by (unfold shape_det; cbn; unfold idm; cbn; ring).
    pose proof (C22_parallel_deep_rate zmem ball2 ex (1 / 4) (1 / 2) [] w' e' 1 ball2_proper ltac:(lra) Hu) as Hr.
    rewrite E1, Rmult_1_r in Hr. eapply Rle_trans; [exact Hr|]. right. f_equal.
    change (INR (e_n ball2)) with (1 + 1). field.
Qed.

(** A central cut of the unit disc: 8/9 of ... the factor (4/3) (2/3)^2 = 16/27. *)
Example C22_unit_disc : exists w' e', ell_proper ball2 /\
  ell_update (zmem, ball2) (ex, BScalar 0) = Ok ((w', e'), (success, 1)) /\
  shape_det ball2 = 1 /\ shape_det e' = 16 / 27.
Proof.
  destruct (ball2_update (BScalar 0)) as (w' & e' & Hu & _).
  - cbn. tauto.
  - exists w', e'. split; [apply ball2_proper|]. split; [exact Hu|].
    assert (E1 : shape_det ball2 = 1) by (unfold shape_det; cbn; unfold idm; cbn; ring).
    split; [exact E1|].
    destruct (C22_single_cut_volume zmem ball2 ex (BScalar 0) 0 w' e' 1 ball2_proper (or_introl eq_refl) Hu)
      as (_ & _ & _ & -> & _).
    rewrite E1, sqrt_1. cbn. unfold dc_axis, dc_depth. field.
Qed.

(** *** Convergence of cutting_plane_feas on ell *)

(** If every cut the oracle returns is a central or deep cut (single or parallel) that the points of some ball
    of radius r > 0 satisfy, and the ball lies in the initial ellipsoid, then the number of
    iterations is bounded by (n+1) ln(vol^2 / r^(2n)), whatever max_it and tol. *)
Theorem C79_feas_iteration_bound :
  forall (Or : Type) (omega : Or -> (nat -> R) -> res (Or * option (cut R))) (OI : Or -> Prop)
         c r max_it tol o w e tr o' st' info,
  0 < r -> ell_wf e -> OI o ->
  (forall z, ball (e_n e) c r z -> mem_ell (w, e) z) ->
  separates omega OI (sat_cut (e_n e)) (ball (e_n e) c r) ->
  (forall o x o' cu, OI o -> omega o x = Ok (o', Some cu) -> deep cu) ->
  cutting_plane_feas ell_space Rltb omega max_it tol o (w, e) = Ok (tr, o', st', info) ->
  INR (num_iters info) <= cut_bound (e_n e) (shape_det e) r + (if feasible info then 1 else 0) /\
  (feasible info = false -> cstatus info = smallenough \/ (cstatus info = success /\ num_iters info = max_it)).
Proof.
  intros Or omega OI c r max_it tol o w e tr o' st' info Hr He Ho HB Hsep Hdeep H.
  set (n := e_n e) in *.
  assert (Hom : forall o x o' a, OI o -> omega o x = Ok (o', a) ->
    OI o' /\ match a with None => True
           | Some cu => deep cu /\ forall z, ball n c r z -> sat_cut n x cu z end).
  { intros o0 x o1 a Ho0 Hx. destruct (Hsep _ _ _ _ Ho0 Hx) as [H1 H2]. split; [assumption|].
    destruct a as [cu|]; [|exact I]. split; [exact (Hdeep _ _ _ _ Ho0 Hx)|assumption]. }
  pose proof (feas_feasible _ _ _ _ _ _ _ _ _ _ _ H) as (Hrep & Hf & Hnf).
  apply feas_spec in H as (_ & Hni & Hle & tr0 & ev & Etr & Hgo & Hfin & _).
  destruct (feas_replay_rate omega OI n c r Hr Hom o w e tr o' st' Hrep Ho He eq_refl HB)
    as (k & Hk & Hk2 & Hsu & Hwf & Hnn & HBB & Hdet).
  assert (Hb : INR k <= cut_bound n (shape_det e) r).
  { apply rate_bound with (shape_det (snd st')); [assumption| |assumption].
    destruct st' as [w' e']. cbn [snd] in *. rewrite <- Hnn. apply (ball_shape c r w'); assumption. }
  rewrite Hni. split.
  - destruct (feasible info).
    + eapply Rle_trans; [apply le_INR; exact Hk|]. rewrite plus_INR. change (INR 1) with 1. lra.
    + rewrite (Hk2 (Hnf eq_refl)) in Hb. rewrite Rplus_0_r. exact Hb.
  - intros Hff. destruct ev as [x [[[cu s] q]|]].
    + destruct (Hsu x cu s q) as [-> _]; [rewrite Etr; apply in_or_app; right; left; reflexivity|].
      destruct Hfin as (_ & _ & H1 & H2). destruct (Rltb q tol) eqn:E; [left; auto|right].
      destruct (H2 eq_refl eq_refl) as [Ha Hb2]. split; [exact Ha|exact Hb2].
    + destruct Hfin as [E _]. congruence.
Qed.
Print Assumptions C79_feas_iteration_bound.

(** With tol <= 0, a total oracle, and max_it beyond the bound, a feasible point is found. *)
Theorem C79_feas_finds_a_point :
  forall (Or : Type) (omega : Or -> (nat -> R) -> res (Or * option (cut R))) (OI : Or -> Prop)
         c r max_it tol o w e,
  0 < r -> tol <= 0 -> ell_wf e -> OI o ->
  (forall z, ball (e_n e) c r z -> mem_ell (w, e) z) ->
  separates omega OI (sat_cut (e_n e)) (ball (e_n e) c r) ->
  (forall o x o' cu, OI o -> omega o x = Ok (o', Some cu) -> deep_cut (e_n e) cu) ->
  (forall o x, OI o -> exists a, omega o x = Ok a) ->
  (1 <= max_it)%nat -> cut_bound (e_n e) (shape_det e) r < INR max_it ->
  exists tr o' st' info, cutting_plane_feas ell_space Rltb omega max_it tol o (w, e) = Ok (tr, o', st', info) /\
    feasible info = true /\ INR (num_iters info) <= cut_bound (e_n e) (shape_det e) r + 1.
Proof.
  intros Or omega OI c r max_it tol o w e Hr Htol He Ho HB Hsep Hdeep Htot Hm Hbd.
  assert (Hom : forall o x o' a, OI o -> omega o x = Ok (o', a) ->
    OI o' /\ match a with None => True
           | Some cu => deep cu /\ forall z, ball (e_n e) c r z -> sat_cut (e_n e) x cu z end).
  { intros o0 x o1 a Ho0 Hx. destruct (Hsep _ _ _ _ Ho0 Hx) as [H1 H2]. split; [assumption|].
    destruct a as [cu|]; [|exact I]. split; [apply (Hdeep _ _ _ _ Ho0 Hx)|assumption]. }
  destruct (feas_loop_total omega OI (e_n e) c r Hr Hom tol Htot
    (fun o x o' cu Ho Hx => proj1 (Hdeep o x o' cu Ho Hx)) max_it 0 o w e Ho He eq_refl HB)
    as [[[[tr o'] st'] info] Hl].
  assert (H : cutting_plane_feas ell_space Rltb omega max_it tol o (w, e) = Ok (tr, o', st', info)).
  { unfold cutting_plane_feas. destruct max_it; [lia|exact Hl]. }
  exists tr, o', st', info. split; [exact H|].
  destruct (C79_feas_iteration_bound Or omega OI c r max_it tol o w e tr o' st' info) as [H1 H2]; try assumption.
  { intros o0 x0 o1 cu Ho0 Hx0. apply (Hdeep _ _ _ _ Ho0 Hx0). }
  destruct (feasible info) eqn:Ef; [split; [reflexivity|exact H1]|exfalso].
  destruct (H2 eq_refl) as [Hs|[_ Hs]]; [|rewrite Hs in H1; lra].
  pose proof (feas_feasible _ _ _ _ _ _ _ _ _ _ _ H) as (Hrep & _ & Hnf).
  apply feas_spec in H as (_ & _ & _ & tr0 & ev & Etr & _ & Hfin & _).
  destruct (feas_replay_rate omega OI (e_n e) c r Hr Hom o w e tr o' st' Hrep Ho He eq_refl HB)
    as (k & _ & _ & Hsu & _).
  destruct ev as [x [[[cu s] q]|]].
  - destruct (Hsu x cu s q) as [-> Hq]; [rewrite Etr; apply in_or_app; right; left; reflexivity|].
    destruct Hfin as (_ & _ & _ & H3). destruct (Rltb q tol) eqn:E; [apply Rltb_true in E; lra|].
    destruct (H3 eq_refl eq_refl). congruence.
  - destruct Hfin as [E _]. congruence.
Qed.
Print Assumptions C79_feas_finds_a_point.

(** Concrete case: find x0 >= 1/2 in the unit disc; the target contains the ball of radius 1/8
    around (3/4, 0). *)
Definition half_omega (o : unit) (x : nat -> R) : res (unit * option (cut R)) :=
  if Rltb (x 0%nat) (1 / 2) then Ok (tt, Some (fun i => - ex i, BScalar (1 / 2 - x 0%nat))) else Ok (tt, None).
Definition half_c : nat -> R := fun i => if Nat.eqb i 0 then 3 / 4 else 0.
Example C79_hypotheses_met : exists max_it tr o' st' info,
  cutting_plane_feas ell_space Rltb half_omega max_it 0 tt (zmem, ball2) = Ok (tr, o', st', info) /\
  feasible info = true /\ INR (num_iters info) <= cut_bound 2 1 (1 / 8) + 1.
Proof.
  assert (E1 : shape_det ball2 = 1) by (unfold shape_det; cbn; unfold idm; cbn; ring).
  destruct (nat_above (cut_bound 2 1 (1 / 8))) as [m Hm].
  exists (S m).
  cut (exists tr o' st' info, cutting_plane_feas ell_space Rltb half_omega (S m) 0 tt (zmem, ball2) = Ok (tr, o', st', info) /\
    feasible info = true /\ INR (num_iters info) <= cut_bound 2 (shape_det ball2) (1 / 8) + 1).
  { rewrite E1. exact (fun h => h). }
  apply (C79_feas_finds_a_point unit half_omega (fun _ => True) half_c (1 / 8) (S m) 0 tt zmem ball2); try lra; try exact I.
  - apply ball2_proper.
  - intros z Hz. apply ball2_mem. unfold ball, dot, half_c in Hz. cbn in Hz. nra.
  - intros o x o' a _ H. split; [exact I|]. unfold half_omega in H.
    destruct (Rltb (x 0%nat) (1 / 2)); injection H as <- <-; [|exact I].
    intros z Hz. unfold ball, dot, half_c in Hz. cbn in Hz.
    unfold sat_cut, dot. cbn. unfold ex. cbn. nra.
  - intros o x o' cu _ H. unfold half_omega in H.
    destruct (Rltb (x 0%nat) (1 / 2)) eqn:E; [|discriminate]. apply Rltb_true in E. injection H as <- <-.
    split; [|cbn; lra]. exists 0%nat. split; [cbn; lia|]. cbn. unfold ex. cbn. lra.
  - intros o x _. unfold half_omega. destruct (Rltb _ _); eexists; reflexivity.
  - lia.
  - rewrite E1. change (e_n ball2) with 2%nat. rewrite S_INR. lra.
Qed.

(** *** Convergence of cutting_plane_dc on ell *)

(** As long as the points better than the value found contain a ball of radius r inside the initial
    ellipsoid, at most (n+1) ln(vol^2 / r^(2n)) iterations have been made, and the run did not
    stop with nosoln or noeffect. *)
Theorem C80_dc_iteration_bound :
  forall (Or T : Type) (omega : Or -> (nat -> R) -> T -> res (Or * (cut R * option T))) (tneq : T -> T -> bool)
         (OI : Or -> Prop) (better : T -> (nat -> R) -> Prop)
         c r max_it tol o w e t tr o' st' xb t' info,
  0 < r -> ell_wf e -> OI o ->
  optimizes omega OI (sat_cut (e_n e)) better ->
  (forall o x t o' cu t1, OI o -> omega o x t = Ok (o', (cu, t1)) -> deep cu) ->
  cutting_plane_dc ell_space Rltb tneq omega max_it tol o (w, e) t = Ok (tr, o', st', (xb, t', info)) ->
  (forall z, ball (e_n e) c r z -> mem_ell (w, e) z /\ better t' z) ->
  INR (num_iters info) <= cut_bound (e_n e) (shape_det e) r /\
  (cstatus info = smallenough \/ (cstatus info = success /\ num_iters info = max_it)) /\
  (tol <= 0 -> num_iters info = max_it).
Proof.
  intros Or T omega tneq OI better c r max_it tol o w e t tr o' st' xb t' info Hr He Ho Hopt Hdeep H HB.
  apply dc_spec in H as (Hrep & _ & Hni & Hle & (tr0 & ev & Etr & Hgo & Hfin) & _).
  destruct (dc_replay_rate omega OI (e_n e) c r better Hr Hopt Hdeep o w e t tr o' st' t' Hrep Ho He eq_refl)
    as (Hsu & Hwf & Hnn & HBB & Hdet).
  { intros z Hz. apply HB; exact Hz. }
  { intros z Hz. apply HB; exact Hz. }
  rewrite Hni. split; [|].
  - apply rate_bound with (shape_det (snd st')); [assumption| |assumption].
    destruct st' as [w' e']. cbn [snd] in *. rewrite <- Hnn. apply (ball_shape c r w'); assumption.
  - destruct (Hsu ev) as [Hs Hq]; [rewrite Etr; apply in_or_app; right; left; reflexivity|].
    destruct Hfin as (_ & H1 & H2). destruct (Rltb (d_tsq ev) tol) eqn:E.
    + split; [left; apply H1; auto|]. intros Ht. apply Rltb_true in E. lra.
    + destruct (H2 Hs eq_refl) as [H3 H4]. split; [right; split; assumption|intros _; assumption].
Qed.
Print Assumptions C80_dc_iteration_bound.

(** Rate of convergence: minimise a convex f over a convex set K that contains a ball of radius r on which
    f <= F.  If the run makes more than (n+1) ln(vol^2 / (th r)^(2n)) iterations (or stops early
    other than by tol), the value found is within th (F - f(xs)) of the optimum, 0 < th <= 1. *)
Theorem C81_dc_convex_rate :
  forall (Or : Type) (omega : Or -> (nat -> R) -> R -> res (Or * (cut R * option R))) (tneq : R -> R -> bool)
         (OI : Or -> Prop) (K : (nat -> R) -> Prop) (f : (nat -> R) -> R) xs c r F th
         max_it tol o w e t tr o' st' xb t' info,
  0 < r -> 0 < th <= 1 -> tol <= 0 -> ell_wf e -> OI o ->
  convex_set K -> convex_on K f ->
  optimizes omega OI (sat_cut (e_n e)) (fun t z => K z /\ f z < t) ->
  (forall o x t o' cu t1, OI o -> omega o x t = Ok (o', (cu, t1)) -> deep cu) ->
  K xs -> mem_ell (w, e) xs ->
  (forall y, ball (e_n e) c r y -> K y /\ mem_ell (w, e) y /\ f y <= F) ->
  cutting_plane_dc ell_space Rltb tneq omega max_it tol o (w, e) t = Ok (tr, o', st', (xb, t', info)) ->
  cut_bound (e_n e) (shape_det e) (th * r) < INR max_it ->
  t' <= (1 - th) * f xs + th * F.
Proof.
  intros Or omega tneq OI K f xs c r F th max_it tol o w e t tr o' st' xb t' info
    Hr Hth Htol He Ho HK Hf Hopt Hdeep Hxs Hxs2 Hball H Hbd.
  destruct (Rle_lt_dec t' ((1 - th) * f xs + th * F)) as [L|L]; [assumption|exfalso].
  assert (Hrt : 0 < th * r) by nra.
  destruct (C80_dc_iteration_bound Or R omega tneq OI (fun t z => K z /\ f z < t)
     (fun i => (1 - th) * xs i + th * c i) (th * r) max_it tol o w e t tr o' st' xb t' info) as (H1 & _ & H3); try assumption.
  2:{ rewrite (H3 Htol) in H1. lra. }
  intros z Hz.
  set (y := fun i => / th * (z i - (1 - th) * xs i)).
  assert (Ez : forall i, z i = (1 - th) * xs i + th * y i) by (intros i; unfold y; field; lra).
  assert (Hy : ball (e_n e) c r y).
  { unfold ball in Hz |- *.
    apply Rmult_le_reg_l with (th * th); [nra|].
    replace (th * th * (r * r)) with (th * r * (th * r)) by ring. eapply Rle_trans; [|exact Hz].
    right. unfold dot. rewrite <- rsum_scal_l. apply rsum_ext. intros i Hi. rewrite Ez. ring. }
  destruct (Hball y Hy) as (Ky & My & Fy).
  split; [apply (mem_ell_convex (w, e) He xs y z th); auto; lra|].
  split; [apply (HK xs y z th); auto; lra|].
  eapply Rle_lt_trans; [apply (Hf xs y z th); auto; lra|]. nra.
Qed.
Print Assumptions C81_dc_convex_rate.

(** Concrete case: minimise x0 over the half plane x0 >= -1/2, from the unit disc. *)
Definition lin_omega (o : unit) (x : nat -> R) (t : R) : res (unit * (cut R * option R)) :=
  if Rltb (x 0%nat) (- (1 / 2)) then Ok (tt, ((fun i => - ex i, BScalar (- (1 / 2) - x 0%nat)), None))
  else if Rltb (x 0%nat) t then Ok (tt, ((ex, BScalar 0), Some (x 0%nat)))
  else Ok (tt, ((ex, BScalar (x 0%nat - t)), None)).
Definition low_c : nat -> R := fun i => if Nat.eqb i 0 then - (1 / 4) else 0.
Example C81_hypotheses_met :
  let K := fun z : nat -> R => - (1 / 2) <= z 0%nat in let f := fun z : nat -> R => z 0%nat in
  convex_set K /\ convex_on K f /\
  optimizes lin_omega (fun _ => True) (sat_cut 2) (fun t z => K z /\ f z < t) /\
  (forall o x t o' cu t1, True -> lin_omega o x t = Ok (o', (cu, t1)) -> deep cu) /\
  K (fun i => - (1 / 2) * ex i) /\ mem_ell (zmem, ball2) (fun i => - (1 / 2) * ex i) /\
  (forall y, ball 2 low_c (1 / 4) y -> K y /\ mem_ell (zmem, ball2) y /\ f y <= 0).
Proof.
  intros K f. split; [|split; [|split; [|split; [|split; [|split]]]]].
  - intros x y z th Hth Ez Hx Hy. unfold K in *. rewrite Ez. nra.
  - intros x y z th Hth Ez _ _. unfold f. rewrite Ez. lra.
  - intros o x t o' cu t1 _ H. split; [exact I|]. unfold lin_omega in H.
    destruct (Rltb (x 0%nat) (- (1 / 2))) eqn:E1; [|destruct (Rltb (x 0%nat) t) eqn:E2]; injection H as <- <- <-.
    + split; [|auto]. intros z [Hz _]. unfold K in Hz. unfold sat_cut, dot. cbn. lra.
    + apply Rltb_true in E2. cbn [best]. split.
      * intros z [_ Hz]. unfold f in Hz. unfold sat_cut, dot. cbn. lra.
      * intros z [Hk Hz]. split; [assumption|]. unfold f in *. lra.
    + cbn [best]. split; [|auto]. intros z [_ Hz]. unfold f in Hz. unfold sat_cut, dot. cbn. lra.
  - intros o x t o' cu t1 _ H. unfold lin_omega in H.
    destruct (Rltb (x 0%nat) (- (1 / 2))) eqn:E1; [|destruct (Rltb (x 0%nat) t) eqn:E2]; injection H as <- <- <-.
    + apply Rltb_true in E1. unfold deep. cbn. lra.
    + unfold deep. cbn. lra.
    + apply Rltb_false in E2. unfold deep. cbn. lra.
  - unfold K. cbn. lra.
  - apply ball2_mem. cbn. lra.
  - intros y Hy. unfold ball, dot, low_c in Hy. cbn in Hy. unfold K, f. split; [nra|]. split; [|nra].
    apply ball2_mem. nra.
Qed.

(** *** LMI feasibility is decided: with enough iterations the LMI oracle on ell finds a strictly
    feasible point whenever the strictly feasible points contain a ball. *)
Theorem C82_lmi_feasibility_found :
  forall m F B c r max_it tol (Q : chol R) w e,
  all_sym m F -> sym m B -> oracle_chol m Q -> ell_wf e -> e_n e = length F -> 0 < r -> tol <= 0 ->
  (forall z, ball (length F) c r z -> mem_ell (w, e) z /\ pd m (aff_mat B F z)) ->
  (1 <= max_it)%nat -> cut_bound (length F) (shape_det e) r < INR max_it ->
  exists tr Q' w' e' info,
    cutting_plane_feas ell_space Rltb (lmi_omega F B) max_it tol Q (w, e) = Ok (tr, Q', (w', e'), info) /\
    feasible info = true /\ INR (num_iters info) <= cut_bound (length F) (shape_det e) r + 1 /\
    pd m (aff_mat B F (w' (e_xc e'))).
Proof.
  intros m F B c r max_it tol Q w e HF HB HQ He Hn Hr Htol Hball Hm Hbd.
  pose proof (lmi_omega_separates m F B HF HB) as Hsep.
  assert (Hc0 : ball (length F) c r c).
  { unfold ball. rewrite (dot_ext _ _ (fun _ => 0) _ (fun _ => 0)) by (intros; ring).
    unfold dot. rewrite rsum_0 by (intros; ring). nra. }
  rewrite <- Hn in *.
  destruct (C79_feas_finds_a_point _ (lmi_omega F B) (oracle_chol m) c r max_it tol Q w e)
    as (tr & Q' & [w' e'] & info & H & Hf & Hit); try assumption.
  - intros z Hz. apply Hball; exact Hz.
  - intros o x o' a Ho Hx. destruct (Hsep o x o' a Ho Hx) as [H1 H2]. split; [assumption|].
    destruct a; [|exact I]. intros z Hz. apply H2. apply pd_psd, Hball. exact Hz.
  - intros o x o' cu Ho Hx. unfold lmi_omega in Hx. apply bind_ok in Hx as ([Q2 a] & Hl & Hx).
    destruct a as [[g ep]|]; [|discriminate]. injection Hx as <- <-.
    rewrite Hn. destruct (lmi_call_deep m F B o x Q2 g ep c HF HB Ho (proj2 (Hball c Hc0)) Hl) as [Hg Hep].
    split; [exact Hg|exact Hep].
  - intros o x Ho. destruct (lmi_call_spec m F B HF o x HB Ho) as (Q2 & a & Hl & _).
    unfold lmi_omega. rewrite Hl. cbn [bind]. destruct a as [[? ?]|]; eexists; reflexivity.
  - exists tr, Q', w', e', info. split; [exact H|]. split; [assumption|]. split; [assumption|].
    rewrite Hn in *. destruct (C61_lmi_end_to_end m F B max_it tol Q w e tr Q' w' e' info) as [H1 _]; auto.
Qed.
Print Assumptions C82_lmi_feasibility_found.
(** x0 I + x1 [[0,1],[1,0]] < [[2,1],[1,2]] holds on the ball of radius 1/4 around the origin. *)
Example C82_hypotheses_met :
  all_sym 2 exF2 /\ sym 2 (mat22 2 1 2) /\ oracle_chol 2 (chol_init 2) /\ ell_wf ball2 /\
  e_n ball2 = length exF2 /\
  (forall z, ball (length exF2) (fun _ => 0) (1 / 4) z ->
     mem_ell (zmem, ball2) z /\ pd 2 (aff_mat (mat22 2 1 2) exF2 z)).
Proof.
  split; [intros M [<-|[<-|[]]]; apply mat22_sym|]. split; [apply mat22_sym|]. split; [split; reflexivity|].
  split; [apply ball2_proper|]. split; [reflexivity|].
  intros z Hz. unfold ball, dot in Hz. cbn in Hz. split; [apply ball2_mem; nra|].
  intros v (k & Hk & Hv).
  assert (E : bf 2 (aff_mat (mat22 2 1 2) exF2 z) v v =
      (2 - z 0%nat) * (v 0%nat * v 0%nat + v 1%nat * v 1%nat) + 2 * (1 - z 1%nat) * (v 0%nat * v 1%nat)).
  { unfold bf, dot, mvr, dot, aff_mat, lin_mat, exF2, mat22; cbn. ring. }
  rewrite E.
  assert (H0 : - (1 / 4) <= z 0%nat <= 1 / 4) by (split; nra).
  assert (H1 : - (1 / 4) <= z 1%nat <= 1 / 4) by (split; nra).
  assert (Hs : 0 < v 0%nat * v 0%nat + v 1%nat * v 1%nat).
  { assert (k = 0 \/ k = 1)%nat as [-> | ->] by lia; [assert (0 < v 0%nat * v 0%nat)|assert (0 < v 1%nat * v 1%nat)]; nra. }
  assert (Hp : - (v 0%nat * v 0%nat + v 1%nat * v 1%nat) <= 2 * (v 0%nat * v 1%nat)).
  { pose proof (Rle_0_sqr (v 0%nat + v 1%nat)) as Hq. unfold Rsqr in Hq. lra. }
  set (s := v 0%nat * v 0%nat + v 1%nat * v 1%nat) in *.
  set (p := 2 * (v 0%nat * v 1%nat)) in *.
  replace (2 * (1 - z 1%nat) * (v 0%nat * v 1%nat)) with ((1 - z 1%nat) * p) by (unfold p; ring).
  assert (0 <= (1 - z 1%nat) * (p + s)) by (apply Rmult_le_pos; lra).
  assert (0 < (1 + z 1%nat - z 0%nat) * s) by (apply Rmult_lt_0_compat; lra). lra.
Qed.
