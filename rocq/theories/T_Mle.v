(** Property theorems about the maximum likelihood oracle (C39, C83, C84). *)
From Coq Require Import Reals Lra Psatz.
From Verif Require Import Base M_Drivers M_Ell M_Chol M_Lmi M_Mle S_LinAlg S_Ell S_Drivers S_Lmi S_Det S_Volume S_Mle
  P_LinAlg P_Drivers P_Ell P_Ell2 P_Ell3 P_Ell4 P_Chol P_Lmi P_Lmi2 P_Volume P_Conv P_Mat P_Spectral P_Mle
  T_Ell T_Drivers T_Chol T_Lmi T_Volume.
Local Open Scope R_scope.

(** ** C39: what the oracle answers.  A value is reported exactly when 2Y - Om(x) and Om(x) are positive
    definite and the likelihood value improves on t; every cut holds at every feasible point at least
    as good as the best value after the call; at a strictly feasible x the cut is the tangent plane. *)
Theorem C39_mle_oracle :
  forall np_inv m Sig Y (Q Q0 : chol R) x t,
  inverts np_inv -> all_sym m Sig -> sym m Y -> oracle_chol m Q -> oracle_chol m Q0 ->
  exists Q' Q0' g ep s, mle_call np_inv Sig Y m (length Sig) (Q, Q0) x t = Ok ((Q', Q0'), ((g, ep), s)) /\
    oracle_chol m Q' /\ oracle_chol m Q0' /\ 0 <= ep /\ (s <> None -> ep = 0) /\
    (forall v, s = Some v <->
       pd m (mle_upper Y Sig x) /\ pd m (lin_mat Sig x) /\ neg_loglik m (lin_mat Sig x) Y v /\ v < t) /\
    (forall z v, mle_point m Y Sig z v -> v <= best t s -> dot (length Sig) g (fun i => z i - x i) + ep <= 0) /\
    (pd m (mle_upper Y Sig x) -> pd m (lin_mat Sig x) -> forall z v, mle_point m Y Sig z v ->
       dot (length Sig) g (fun i => z i - x i) + ep <= v - best t s).
Proof. exact mle_call_spec. Qed.
Print Assumptions C39_mle_oracle.

(** ** C83: the problem is convex: {x : 2Y >= Om(x) > 0} is convex and so is the objective on it. *)
Theorem C83_mle_convex :
  forall m Sig Y x y z th vx vy, all_sym m Sig -> 0 <= th <= 1 ->
  (forall i, z i = (1 - th) * x i + th * y i) ->
  mle_point m Y Sig x vx -> mle_point m Y Sig y vy ->
  exists vz, mle_point m Y Sig z vz /\ vz <= (1 - th) * vx + th * vy.
Proof.
  intros m Sig Y x y z th vx vy HF Hth Ez Hx Hy.
  apply mle_point_fun in Hx as [Hx ->]; [|assumption]. apply mle_point_fun in Hy as [Hy ->]; [|assumption].
  exists (mle_fun m Y Sig z). split.
  - apply mle_point_fun; [assumption|]. split; [|reflexivity]. apply (mle_dom_convex m Y Sig x y z th); assumption.
  - apply (mle_fun_convex m Y Sig HF x y z th); assumption.
Qed.
Print Assumptions C83_mle_convex.

(** ** C84: maximum likelihood estimation end to end *)
Definition mle_omega np_inv m Sig Y (o : chol R * chol R) (x : nat -> R) (t : R)
  : res ((chol R * chol R) * (cut R * option R)) :=
  ' (o', ((g, fj), t1)) <- mle_call np_inv Sig Y m (length Sig) o x t ;; Ok (o', ((g, BScalar fj), t1)).
Definition mle_inv (m : nat) (o : chol R * chol R) : Prop := oracle_chol m (fst o) /\ oracle_chol m (snd o).

(** the oracle as constructed is ready to be asked: what C39 and C84 suppose of the workspaces *)
Theorem C39_new_oracle : forall m, mle_inv m (mle_init m).
Proof. intros m. split; split; reflexivity. Qed.
Print Assumptions C39_new_oracle.

Lemma mle_omega_spec np_inv m Sig Y : inverts np_inv -> all_sym m Sig -> sym m Y ->
  forall o x t o' c t1, mle_inv m o -> mle_omega np_inv m Sig Y o x t = Ok (o', (c, t1)) ->
  mle_inv m o' /\ deep c /\
  (forall v, t1 = Some v <->
       pd m (mle_upper Y Sig x) /\ pd m (lin_mat Sig x) /\ neg_loglik m (lin_mat Sig x) Y v /\ v < t) /\
  (forall z v, mle_point m Y Sig z v -> v <= best t t1 -> sat_cut (length Sig) x c z).
Proof.
  intros Hi HF HY [Q Q0] x t o' c t1 [HQ HQ0] H. unfold mle_omega in H.
  apply bind_ok in H as ([o2 [[g fj] t2]] & Hl & H). injection H as <- <- <-.
  destruct (C39_mle_oracle np_inv m Sig Y Q Q0 x t Hi HF HY HQ HQ0)
    as (Q' & Q0' & g' & ep & s & E & H1 & H2 & H3 & _ & H5 & H6 & _).
  rewrite Hl in E. injection E as -> -> -> ->. split; [split; assumption|]. split; [exact H3|].
  split; [exact H5|]. exact H6.
Qed.
Lemma mle_omega_optimizes np_inv m Sig Y : inverts np_inv -> all_sym m Sig -> sym m Y ->
  optimizes (mle_omega np_inv m Sig Y) (mle_inv m) (sat_cut (length Sig))
    (fun t z => exists v, mle_point m Y Sig z v /\ v < t).
Proof.
  intros Hi HF HY o x t o' c t1 Ho H.
  destruct (mle_omega_spec np_inv m Sig Y Hi HF HY o x t o' c t1 Ho H) as (H1 & _ & H3 & H4).
  split; [assumption|]. split.
  - intros z (v & Hz & Hv). apply (H4 z v Hz). lra.
  - intros z (v & Hz & Hv). exists v. split; [assumption|]. destruct t1 as [u|]; [|assumption].
    destruct (proj1 (H3 u) eq_refl) as (_ & _ & _ & Hu). cbn [best] in Hv. lra.
Qed.

Theorem C84_mle_end_to_end :
  forall np_inv m Sig Y tneq max_it tol (Q Q0 : chol R) w e t tr o' w' e' xb t' info,
  inverts np_inv -> all_sym m Sig -> sym m Y -> oracle_chol m Q -> oracle_chol m Q0 -> ell_wf e -> e_n e = length Sig ->
  cutting_plane_dc ell_space Rltb tneq (mle_omega np_inv m Sig Y) max_it tol (Q, Q0) (w, e) t
    = Ok (tr, o', (w', e'), (xb, t', info)) ->
  let better z := exists v, mle_point m Y Sig z v /\ v < t' in
  (cstatus info = nosoln -> forall z, mem_ell (w, e) z -> ~ better z) /\
  (cstatus info <> nosoln -> forall z, mem_ell (w, e) z -> better z -> mem_ell (w', e') z) /\
  t' <= t /\
  (xb = None -> t' = t) /\
  (xb <> None -> exists x, mle_point m Y Sig x t').
Proof.
  intros np_inv m Sig Y tneq max_it tol Q Q0 w e t tr o' w' e' xb t' info Hi HF HY HQ HQ0 He Hn H better.
  set (om := mle_omega np_inv m Sig Y) in *.
  assert (Ho : mle_inv m (Q, Q0)) by (split; assumption).
  pose proof (mle_omega_optimizes np_inv m Sig Y Hi HF HY) as Hopt. fold om in Hopt. rewrite <- Hn in Hopt.
  pose proof (mle_omega_spec np_inv m Sig Y Hi HF HY) as Hsp. fold om in Hsp.
  destruct (C06_dc_ell_never_loses_better _ _ tneq om (mle_inv m) _
    max_it tol _ w e t tr o' w' e' xb t' info Hopt He Ho H) as [H1 H2].
  split; [exact H1|]. split; [exact H2|].
  destruct (C04_dc_last_improvement _ _ _ _ _ _ _ _ _ _ _ _ _ _ _ _ _ _ _ _ _ _ H) as (Hr & Hb & _).
  assert (HI : forall o x t o' c t1, mle_inv m o -> om o x t = Ok (o', (c, t1)) -> mle_inv m o').
  { intros o x t0 o1 c t1 Ho1 Hx. apply (Hopt o x t0 o1 c t1 Ho1 Hx). }
  split.
  { refine (dc_replay_mono_inv ell_space om (mle_inv m) Rle Rle_refl Rle_trans HI _
      (Q, Q0) (w, e) t tr o' (w', e') t' Ho Hr).
    intros o x t0 o1 c t1 Ho1 Hx. destruct (Hsp _ _ _ _ _ _ Ho1 Hx) as (_ & _ & H3 & _).
    destruct (proj1 (H3 t1) eq_refl) as (_ & _ & _ & Hu). lra. }
  destruct Hb as [(_ & -> & ->)|(tr1 & ev & tr2 & -> & _ & Hev & Hxb)].
  - split; [reflexivity|congruence].
  - split; [congruence|]. intros _.
    destruct (dc_replay_in ell_space om (mle_inv m) HI _ _ _ _ _ _ _ Ho Hr ev) as (o1 & o2 & Ho1 & Hx);
      [apply in_or_app; right; left; reflexivity|].
    rewrite Hev in Hx. destruct (Hsp _ _ _ _ _ _ Ho1 Hx) as (_ & _ & H3 & _).
    destruct (proj1 (H3 t') eq_refl) as (E1 & E2 & E3 & _).
    exists (d_x ev). split; [apply pd_psd; exact E1|]. split; assumption.
Qed.
Print Assumptions C84_mle_end_to_end.

(** Rate: if the feasible points of the ellipsoid contain a ball of radius r on which the objective is at
    most F, then after more than (n+1) ln(vol^2/(th r)^(2n)) iterations the value found is within
    th (F - vs) of the value vs of any feasible point. *)
Theorem C84_mle_rate :
  forall np_inv m Sig Y tneq xs vs c r F th max_it tol (Q Q0 : chol R) w e t tr o' st' xb t' info,
  inverts np_inv -> all_sym m Sig -> sym m Y -> oracle_chol m Q -> oracle_chol m Q0 -> ell_wf e -> e_n e = length Sig ->
  0 < r -> 0 < th <= 1 -> tol <= 0 ->
  mle_point m Y Sig xs vs -> mem_ell (w, e) xs ->
  (forall y, ball (length Sig) c r y -> mem_ell (w, e) y /\ exists v, mle_point m Y Sig y v /\ v <= F) ->
  cutting_plane_dc ell_space Rltb tneq (mle_omega np_inv m Sig Y) max_it tol (Q, Q0) (w, e) t
    = Ok (tr, o', st', (xb, t', info)) ->
  cut_bound (length Sig) (shape_det e) (th * r) < INR max_it ->
  t' <= (1 - th) * vs + th * F.
Proof.
  intros np_inv m Sig Y tneq xs vs c r F th max_it tol Q Q0 w e t tr o' st' xb t' info
    Hi HF HY HQ HQ0 He Hn Hr Hth Htol Hxs Hms Hball H Hbd.
  apply mle_point_fun in Hxs as [Hxs ->]; [|assumption]. rewrite <- Hn in *.
  apply (C81_dc_convex_rate _ (mle_omega np_inv m Sig Y) tneq (mle_inv m) (mle_dom m Y Sig) (mle_fun m Y Sig)
    xs c r F th max_it tol (Q, Q0) w e t tr o' st' xb t' info); try assumption.
  - split; assumption.
  - apply mle_dom_convex.
  - apply mle_fun_convex. assumption.
  - rewrite Hn. intros o x t0 o1 cu t1 Ho Hx.
    destruct (mle_omega_optimizes np_inv m Sig Y Hi HF HY o x t0 o1 cu t1 Ho Hx) as (H1 & H2 & H3).
    split; [assumption|]. split.
    + intros z [Hz Hv]. apply H2. exists (mle_fun m Y Sig z). split; [apply mle_point_fun; auto|assumption].
    + intros z [Hz Hv]. destruct (H3 z) as (v & Hv1 & Hv2).
      { exists (mle_fun m Y Sig z). split; [apply mle_point_fun; auto|assumption]. }
      apply mle_point_fun in Hv1 as [_ ->]; [|assumption]. split; assumption.
  - intros o x t0 o1 cu t1 Ho Hx. apply (mle_omega_spec np_inv m Sig Y Hi HF HY o x t0 o1 cu t1 Ho Hx).
  - intros y Hy. destruct (Hball y Hy) as (Hm & v & Hv & HvF).
    apply mle_point_fun in Hv as [Hv ->]; [|assumption]. auto.
Qed.
Print Assumptions C84_mle_rate.

(** Concrete case: Om(x) = [[x0, x1], [x1, x0]], Y = 5 I, from the disc of radius 1 around (4, 0). *)
Definition exSig : list (nat -> nat -> R) := [mat22 1 0 1; mat22 0 1 0].
Definition exY : nat -> nat -> R := mat22 5 0 5.
Definition mem4 : memory R := fun _ k => if Nat.eqb k 0 then 4 else 0.
Lemma exSig_sym : all_sym 2 exSig.
Proof. intros M [<-|[<-|[]]]; apply mat22_sym. Qed.
Lemma exSig_lin x v : bf 2 (lin_mat exSig x) v v =
  x 0%nat * (v 0%nat * v 0%nat + v 1%nat * v 1%nat) + x 1%nat * (2 * (v 0%nat * v 1%nat)).
Proof. unfold bf, dot, mvr, dot, lin_mat, exSig, mat22; cbn. ring. Qed.
Lemma exSig_up x v : bf 2 (mle_upper exY exSig x) v v =
  (10 - x 0%nat) * (v 0%nat * v 0%nat + v 1%nat * v 1%nat) - x 1%nat * (2 * (v 0%nat * v 1%nat)).
Proof. unfold bf, dot, mvr, dot, mle_upper, aff_mat, lin_mat, exSig, exY, mat22; cbn. ring. Qed.
Lemma two_pos v : nonzero 2 v -> 0 < v 0%nat * v 0%nat + v 1%nat * v 1%nat.
Proof.
  intros (k & Hk & Hv). pose proof (Rle_0_sqr (v 0%nat)) as A0. pose proof (Rle_0_sqr (v 1%nat)) as A1.
  unfold Rsqr in *. assert (k = 0 \/ k = 1)%nat as [-> | ->] by lia;
    [assert (0 < v 0%nat * v 0%nat)|assert (0 < v 1%nat * v 1%nat)]; nra.
Qed.
Lemma two_cross (a b s p : R) : 0 < s -> - s <= p <= s -> - a < b < a -> 0 < a * s + b * p.
Proof.
  intros Hs Hp Hb. destruct (Rle_lt_dec 0 b) as [L|L].
  - assert (0 <= b * (p + s)) by (apply Rmult_le_pos; lra). nra.
  - assert (0 <= - b * (s - p)) by (apply Rmult_le_pos; lra). nra.
Qed.
Lemma cross_le v : - (v 0%nat * v 0%nat + v 1%nat * v 1%nat) <= 2 * (v 0%nat * v 1%nat)
  <= v 0%nat * v 0%nat + v 1%nat * v 1%nat.
Proof.
  pose proof (Rle_0_sqr (v 0%nat + v 1%nat)) as A0. pose proof (Rle_0_sqr (v 0%nat - v 1%nat)) as A1.
  unfold Rsqr in *. lra.
Qed.
Lemma exSig_pd x : Rabs (x 1%nat) < x 0%nat -> pd 2 (lin_mat exSig x).
Proof.
  intros H v Hv. rewrite exSig_lin. apply Rabs_def2 in H. apply two_cross; [apply two_pos; assumption|apply cross_le|lra].
Qed.
Lemma exSig_up_pd x : Rabs (x 1%nat) < 10 - x 0%nat -> pd 2 (mle_upper exY exSig x).
Proof.
  intros H v Hv. rewrite exSig_up. apply Rabs_def2 in H.
  assert (0 < (10 - x 0%nat) * (v 0%nat * v 0%nat + v 1%nat * v 1%nat) + - x 1%nat * (2 * (v 0%nat * v 1%nat))).
  { apply two_cross; [apply two_pos; assumption|apply cross_le|lra]. }
  lra.
Qed.
Lemma exSig_val x : Rabs (x 1%nat) < x 0%nat ->
  neg_loglik 2 (lin_mat exSig x) exY
    (ln (x 0%nat * x 0%nat - x 1%nat * x 1%nat) + 10 * x 0%nat / (x 0%nat * x 0%nat - x 1%nat * x 1%nat)).
Proof.
  intros H. apply Rabs_def2 in H.
  assert (Hd : 0 < x 0%nat * x 0%nat - x 1%nat * x 1%nat) by nra.
  set (d := x 0%nat * x 0%nat - x 1%nat * x 1%nat) in *.
  exists (mat22 (x 0%nat / d) (- x 1%nat / d) (x 0%nat / d)). split.
  - split; intros i j Hi Hj; assert (i = 0 \/ i = 1)%nat as [-> | ->] by lia;
      assert (j = 0 \/ j = 1)%nat as [-> | ->] by lia;
      unfold mm, lin_mat, exSig, mat22, idm; cbn; try (unfold d; field; unfold d in Hd; lra);
      field; lra.
  - f_equal.
    + f_equal. unfold lin_mat, exSig, mat22, d; cbn. ring.
    + unfold trace, mm, exY, mat22; cbn. field. lra.
Qed.
Lemma mem4_ball y : ball 2 (mem4 0%nat) 1 y -> mem_ell (mem4, ball2) y.
Proof.
  intros H. cbn [mem_ell]. assert (inverse (e_n ball2) (e_Q ball2) idm) as Hi.
  { split; intros i j Hi Hj; cbn in Hi, Hj |- *; unfold mm, eye, idm;
      destruct i as [|[|i]]; try lia; destruct j as [|[|j]]; try lia; cbn; ring. }
  rewrite (in_ell_inverse _ _ _ _ _ _ Hi). unfold ball, dot in H. cbn in H. cbn. unfold bf, mvr, dot, idm, mem4 in *; cbn in *.
  nra.
Qed.
Lemma ex_point y : ball 2 (mem4 0%nat) 1 y -> exists v, mle_point 2 exY exSig y v /\ v <= 40.
Proof.
  intros H. unfold ball, dot, mem4 in H. cbn in H.
  assert (H0 : 3 <= y 0%nat <= 5) by (split; nra).
  assert (H1 : (y 1%nat - 0) * (y 1%nat - 0) <= 1) by (pose proof (Rle_0_sqr (y 0%nat - 4)) as Hq; unfold Rsqr in Hq; lra).
  assert (H2 : - (1) <= y 1%nat) by nra. assert (H3 : y 1%nat <= 1) by nra.
  assert (A : Rabs (y 1%nat) < y 0%nat) by (apply Rabs_def1; lra).
  assert (B : Rabs (y 1%nat) < 10 - y 0%nat) by (apply Rabs_def1; lra).
  exists (ln (y 0%nat * y 0%nat - y 1%nat * y 1%nat) + 10 * y 0%nat / (y 0%nat * y 0%nat - y 1%nat * y 1%nat)).
  split; [split; [apply pd_psd, exSig_up_pd; assumption|]; split; [apply exSig_pd|apply exSig_val]; assumption|].
  assert (8 <= y 0%nat * y 0%nat - y 1%nat * y 1%nat <= 25) as D by (split; nra).
  set (d := y 0%nat * y 0%nat - y 1%nat * y 1%nat) in *.
  assert (ln d <= d - 1).
  { rewrite <- (ln_exp (d - 1)). apply ln_mono; [lra|]. pose proof (exp_ineq1_le (d - 1)). lra. }
  assert (10 * y 0%nat / d <= 10).
  { apply Rmult_le_reg_r with d; [lra|]. unfold Rdiv. rewrite Rmult_assoc, Rinv_l by lra. lra. }
  lra.
Qed.
(** the oracle at (4, 0) with t = 7 reports log 16 + 5/2 *)
Lemma ex_answer : exists Q Q0 g, mle_call np_inv_spec exSig exY 2 2 (chol_init 2, chol_init 2) (mem4 0%nat) 7
    = Ok ((Q, Q0), ((g, 0), Some (ln 16 + 5 / 2))) /\ nonzero 2 g.
Proof.
  destruct (C39_mle_oracle np_inv_spec 2 exSig exY (chol_init 2) (chol_init 2) (mem4 0%nat) 7 np_inv_spec_inverts exSig_sym
    (mat22_sym _ _ _) (conj eq_refl eq_refl) (conj eq_refl eq_refl))
    as (Q' & Q0' & g & ep & s & E & _ & _ & _ & Hep & Hs & _ & Hg).
  assert (A : Rabs (mem4 0%nat 1%nat) < mem4 0%nat 0%nat) by (unfold mem4; cbn; rewrite Rabs_R0; lra).
  assert (B : Rabs (mem4 0%nat 1%nat) < 10 - mem4 0%nat 0%nat) by (unfold mem4; cbn; rewrite Rabs_R0; lra).
  assert (V : neg_loglik 2 (lin_mat exSig (mem4 0%nat)) exY (ln 16 + 5 / 2)).
  { pose proof (exSig_val (mem4 0%nat) A) as V. unfold mem4 at 2 3 4 5 6 7 8 9 10 in V. cbn in V.
    replace (4 * 4 - 0 * 0) with 16 in V by ring. replace (10 * 4 / 16) with (5 / 2) in V by field. exact V. }
  assert (L : ln 16 + 5 / 2 < 7).
  { assert (ln 16 < 9 / 2); [|lra].
    rewrite <- (ln_exp (9 / 2)). apply ln_increasing; [lra|].
    replace (9 / 2) with (1 + (1 + (1 + (1 + 1 / 2)))) by field. rewrite !exp_plus.
    pose proof exp_ineq1 1 ltac:(lra) as E1.
    pose proof (exp_ineq1 (1 / 2) ltac:(lra)) as E2.
    assert (4 < exp 1 * exp 1) by nra. assert (6 < exp 1 * exp 1 * exp (1 / 2)) by nra. nra. }
  assert (Es : s = Some (ln 16 + 5 / 2)).
  { apply Hs. split; [apply exSig_up_pd; exact B|]. split; [apply exSig_pd; exact A|]. split; assumption. }
  subst s. rewrite (Hep ltac:(discriminate)) in *.
  exists Q', Q0', g. split; [exact E|].
  destruct (nonzero_dec 2 g) as [|Z]; [assumption|exfalso].
  specialize (Hg (exSig_up_pd _ B) (exSig_pd _ A) (fun k => if Nat.eqb k 0 then 5 else 0) (ln 25 + 2)).
  unfold dot in Hg. rewrite rsum_0 in Hg by (intros k Hk; rewrite Z by assumption; ring). cbn [best] in Hg.
  assert (ln 25 - ln 16 < 1 / 2).
  { assert (ln 25 = ln 16 + 2 * ln (5 / 4)).
    { replace 25 with (16 * (5 / 4 * (5 / 4))) by field. rewrite !ln_mult by lra. ring. }
    assert (ln (5 / 4) < 1 / 4); [|lra].
    rewrite <- (ln_exp (1 / 4)). apply ln_increasing; [lra|]. pose proof (exp_ineq1 (1 / 4) ltac:(lra)). lra. }
  assert (0 + 0 <= ln 25 + 2 - (ln 16 + 5 / 2)); [|lra].
  apply Hg.
  assert (A' : Rabs 0 < 5) by (rewrite Rabs_R0; lra).
  split; [apply pd_psd, exSig_up_pd; cbn; lra|]. split; [apply exSig_pd; cbn; lra|].
  pose proof (exSig_val (fun k => if Nat.eqb k 0 then 5 else 0) A') as V'. cbn in V'.
  replace (5 * 5 - 0 * 0) with 25 in V' by ring. replace (10 * 5 / 25) with 2 in V' by field. exact V'.
Qed.
Example C39_hypotheses_met : inverts np_inv_spec /\ all_sym 2 exSig /\ sym 2 exY /\ oracle_chol 2 (chol_init 2) /\
  exists Q Q0 g, mle_call np_inv_spec exSig exY 2 2 (chol_init 2, chol_init 2) (mem4 0%nat) 7
    = Ok ((Q, Q0), ((g, 0), Some (ln 16 + 5 / 2))) /\ nonzero 2 g.
Proof.
  split; [apply np_inv_spec_inverts|]. split; [apply exSig_sym|]. split; [apply mat22_sym|]. split; [split; reflexivity|].
  apply ex_answer.
Qed.
Example C83_hypotheses_met : mle_point 2 exY exSig (mem4 0%nat) (ln 16 + 5 / 2) /\
  mle_point 2 exY exSig (fun k => if Nat.eqb k 0 then 5 else 0) (ln 25 + 2).
Proof.
  split.
  - assert (A : Rabs (mem4 0%nat 1%nat) < mem4 0%nat 0%nat) by (unfold mem4; cbn; rewrite Rabs_R0; lra).
    assert (B : Rabs (mem4 0%nat 1%nat) < 10 - mem4 0%nat 0%nat) by (unfold mem4; cbn; rewrite Rabs_R0; lra).
    split; [apply pd_psd, exSig_up_pd; exact B|]. split; [apply exSig_pd; exact A|].
    pose proof (exSig_val (mem4 0%nat) A) as V. unfold mem4 at 2 3 4 5 6 7 8 9 10 in V. cbn in V.
    replace (4 * 4 - 0 * 0) with 16 in V by ring. replace (10 * 4 / 16) with (5 / 2) in V by field. exact V.
  - assert (A' : Rabs 0 < 5) by (rewrite Rabs_R0; lra).
    split; [apply pd_psd, exSig_up_pd; cbn; lra|]. split; [apply exSig_pd; cbn; lra|].
    pose proof (exSig_val (fun k => if Nat.eqb k 0 then 5 else 0) A') as V'. cbn in V'.
    replace (5 * 5 - 0 * 0) with 25 in V' by ring. replace (10 * 5 / 25) with 2 in V' by field. exact V'.
Qed.
(** one iteration already satisfies the premises of both parts of C84 *)
Example C84_hypotheses_met :
  ell_wf ball2 /\ e_n ball2 = length exSig /\ mem_ell (mem4, ball2) (mem4 0%nat) /\
  mle_point 2 exY exSig (mem4 0%nat) (ln 16 + 5 / 2) /\
  (forall y, ball (length exSig) (mem4 0%nat) 1 y -> mem_ell (mem4, ball2) y /\ exists v, mle_point 2 exY exSig y v /\ v <= 40) /\
  cut_bound (length exSig) (shape_det ball2) (1 * 1) < INR 1 /\
  exists tr o' st' xb info, cutting_plane_dc ell_space Rltb (fun a b => negb (Req_bool a b))
     (mle_omega np_inv_spec 2 exSig exY) 1 0 (chol_init 2, chol_init 2) (mem4, ball2) 7
    = Ok (tr, o', st', (xb, ln 16 + 5 / 2, info)).
Proof.
  split; [apply ball2_proper|]. split; [reflexivity|]. split.
  { apply mem4_ball. unfold ball, dot. cbn. lra. }
  split; [apply C83_hypotheses_met|]. split.
  { intros y Hy. split; [apply mem4_ball|apply ex_point]; exact Hy. }
  split.
  { unfold cut_bound. assert (E1 : shape_det ball2 = 1) by (unfold shape_det; cbn; unfold idm; cbn; ring).
    rewrite E1. replace (1 / (1 * 1 * (1 * 1)) ^ length exSig) with 1 by (cbn; field). rewrite ln_1. cbn. lra. }
  destruct ex_answer as (Q & Q0 & g & E & Hg).
  assert (Eo : mle_omega np_inv_spec 2 exSig exY (chol_init 2, chol_init 2) (mem4 0%nat) 7
    = Ok ((Q, Q0), ((g, BScalar 0), Some (ln 16 + 5 / 2)))).
  { unfold mle_omega. change (length exSig) with 2%nat. rewrite E. reflexivity. }
  unfold cutting_plane_dc, dc_loop, centre.
  cbn [ell_space sp_deref sp_xc fst snd e_xc ball2]. rewrite Eo. cbn [bind].
  fold ball2. change (sp_update ell_space) with (ell_update (A := R)).
  destruct (C24_update_defined_partial mem4 ball2 g (BScalar 0) ball2_proper Hg) as [Hiff Hx]; [discriminate|].
  destruct (ell_update (mem4, ball2) (g, BScalar 0)) as [[st1 [s tsq]]|x] eqn:Eu.
  - cbn [bind]. destruct (negb (status_eqb s success)); [do 5 eexists; reflexivity|].
    destruct (Rltb tsq 0); do 5 eexists; reflexivity.
  - exfalso. rewrite (Hx x eq_refl) in Hiff. destruct (proj1 Hiff eq_refl) as [Hf _]. apply Hf. reflexivity.
Qed.
