(** Property theorems about the fits of experiments/corr_fn.tpy (C172, C173). *)
From Coq Require Import Reals Lra Psatz Classical_Prop.
From Verif Require Import Base M_Chol M_Ell M_Lmi M_Cholutil M_Misc M_Drivers M_Bisect M_CorrFn S_LinAlg P_LinAlg S_Lmi P_Chol P_Chol2 P_Lmi
  P_Cholutil T_Chol T_Cholutil S_Drivers P_Drivers S_Ell P_EllCalc P_Ell P_Ell2 P_Ell3.
Local Open Scope R_scope.

(** t I - F(x) F(x)' with t the entry of x behind the coefficients *)
Definition ext_mat (n : nat) (F0 : nat -> nat -> R) (F : list (nat -> nat -> R)) (x : nat -> R) : nat -> nat -> R :=
  qmic_mat n F0 F (x (length F)) x.

Lemma bf_shift p n F0 F t s z v :
  bf p (qmic_mat n F0 F t z) v v = bf p (qmic_mat n F0 F s z) v v + (t - s) * rsum p (fun i => v i * v i).
Proof.
  rewrite !bf_sums. rewrite <- rsum_scal_l, <- rsum_plus. apply rsum_ext. intros i Hi.
  rewrite (rsum_ext p (fun j => v i * qmic_mat n F0 F t z i j * v j)
             (fun j => v i * qmic_mat n F0 F s z i j * v j + (t - s) * (if Nat.eqb i j then v i * v j else 0))).
  - rewrite rsum_plus. f_equal. rewrite rsum_scal_l. f_equal. symmetry.
    rewrite (rsum_single p i); [rewrite Nat.eqb_refl; reflexivity|exact Hi|]. intros j _ Hj. destruct (Nat.eqb_spec i j); [congruence|reflexivity].
  - intros j Hj. unfold qmic_mat. destruct (Nat.eqb i j); ring.
Qed.

(** ** C172: poly_oracle2 and its fit *)
Theorem C172_poly2_cut n F F0 (q : qmi R) (Q : cutil R) x t :
  u_n Q = n -> let m := length F in
  (x m <= t -> pd n (ext_mat n F0 F x) -> poly2_call F F0 n m (q, Q) x t = Raise AssertionError) /\
  (~ (x m <= t /\ pd n (ext_mat n F0 F x)) -> exists q' Q' g f,
     poly2_call F F0 n m (q, Q) x t = Ok ((q', Q'), ((g, f), Some t)) /\ u_n Q' = n /\ 0 <= f /\
     forall z, psd n (ext_mat n F0 F z) -> z m <= t -> dot (S m) g (fun i => z i - x i) + f <= 0).
Proof.
  intros Hn m. unfold poly2_call, tail2_call. fold m.
  change (@nltb R RNum nzero (nsub (x m) t)) with (Rltb 0 (x m - t)).
  unfold Rltb. destruct (Rlt_dec 0 (x m - t)) as [H|H].
  - split; [intros; lra|]. intros _. do 4 eexists. split; [reflexivity|]. split; [exact Hn|]. split; [cbn; lra|].
    intros z _ Hz. unfold dot. cbn [rsum]. rewrite Nat.eqb_refl. rewrite rsum_0.
    + cbn. lra.
    + intros i Hi. destruct (Nat.eqb_spec i m); [lia|]. cbn. ring.
  - destruct (qmic_call_core n F F0 (qmi_update q (x m)) Q x (x m) eq_refl Hn) as [H1 H2]. fold m in H1, H2.
    split; [intros _ Hp; rewrite (H1 Hp); reflexivity|]. intros Hnp.
    destruct H2 as (q' & Q' & g & f & E & _ & En & H01 & v & Hw & Hp & Hc); [intros Hp; apply Hnp; split; [lra|exact Hp]|].
    rewrite E. cbn [bind]. rewrite Hw. cbn [bind]. do 4 eexists. split; [reflexivity|]. split; [exact En|]. split; [destruct H01; lra|].
    intros z Hz Hzt. specialize (Hc z).
    apply (psd_blk n 0 (u_p Q') _ v) in Hz; [|lia].
    change (blk (ext_mat n F0 F z) 0) with (qmic_mat n F0 F (z m) z) in Hz.
    rewrite (bf_shift (u_p Q') n F0 F (z m) (x m) z v) in Hz.
    unfold dot in Hc |- *. cbn [rsum]. rewrite Nat.ltb_irrefl, Nat.eqb_refl.
    rewrite (rsum_ext m _ (fun i => g i * (z i - x i))) by (intros i Hi; destruct (Nat.ltb_spec i m); [reflexivity|lia]).
    change (@nopp R RNum (ndot (u_p Q') v v)) with (- rsum (u_p Q') (fun i => v i * v i)). nra.
Qed.
Print Assumptions C172_poly2_cut.

Lemma tail2_t1 (F : list (nat -> nat -> R)) F0 n m o x t o' c t1 : tail2_call F F0 n m o x t = Ok (o', (c, t1)) -> t1 = Some t.
Proof.
  unfold tail2_call. destruct o as [q Q]. destruct (nltb nzero (nsub (x m) t)); [congruence|].
  intros H. apply bind_ok in H as ([[q1 Q1] cu] & H1 & H2). unfold qmic_call in H1.
  apply bind_ok in H1 as ([q2 Q2] & _ & H1). apply bind_ok in H1 as ([v f] & _ & H1).
  cbv zeta in H1. injection H1 as _ _ <-.
  apply bind_ok in H2 as ([v1 f1] & _ & H2). congruence.
Qed.

(** the value that the driver carries is never touched, whatever the search space *)
Lemma poly2_run {St X C Sc} (sp : space St X (nat -> R) C Sc) ltb tneq (mk : gcut R -> C) F F0 n m max_it tol o st t tr o' st' xb t' info :
  cutting_plane_dc sp ltb tneq (fun o x t => ' (o1, (c, t1)) <- poly2_call F F0 n m o x t ;; Ok (o1, (mk c, t1))) max_it tol o st t
    = Ok (tr, o', st', (xb, t', info)) -> t' = t /\ feasible info = tneq t t.
Proof.
  intros H. apply dc_spec in H as (HR & Hf & _). rewrite Hf. assert (t' = t); [|subst; auto]. clear Hf.
  induction HR as [|o st t c t1 o1 st1 s q tr o' st' t' E U HR IH]; [reflexivity|]. rewrite IH.
  apply bind_ok in E as ([o2 [c2 t2]] & E & E'). apply tail2_t1 in E. assert (t1 = t2) by congruence. subst. reflexivity.
Qed.

(** so the assertion on ell_info.feasible fails whenever the search ends: no call of the fit returns *)
Theorem C172_poly2_fit_never_returns ltb tneq F F0 n m max_it tol o normY :
  (forall a, tneq a a = false) -> exists ex, @fit2 R RNum ltb tneq (poly2_call F F0 n m) max_it tol o normY m = Raise ex.
Proof.
  intros Ht. unfold fit2. destruct (ell_init _ _ _) as [E|ex]; [|exists ex; reflexivity]. cbn [bind].
  match goal with |- exists ex, bind ?r _ = _ => destruct r as [[[[tr o'] [w' E']] [[xb t'] info]]|ex] eqn:Hr; [|exists ex; reflexivity] end.
  apply (poly2_run ell_space ltb tneq (fun c => (fst c, BScalar (snd c)))) in Hr as [_ Hf]. cbn [bind]. rewrite Hf, Ht. eexists. reflexivity.
Qed.
Print Assumptions C172_poly2_fit_never_returns.

(** ** C173: bsp_oracle2 and its fit *)
(** the coefficients rise somewhere: the constraint that bsp_oracle2 checks is violated *)
Definition rises (m : nat) (x : nat -> R) : Prop := exists i, (i + 1 < m)%nat /\ x i < x (i + 1)%nat.
Lemma mono_loop_rises : forall k i x, (exists j, (i <= j < i + k)%nat /\ x j < x (j + 1)%nat) <-> @mono_loop R RNum k i x <> None.
Proof.
  induction k as [|k IH]; intros i x; cbn [mono_loop].
  - split; [intros (j & Hj & _); lia|congruence].
  - change (@nltb R RNum nzero (nsub (x (i + 1)%nat) (x i))) with (Rltb 0 (x (i + 1)%nat - x i)).
    unfold Rltb. destruct (Rlt_dec 0 (x (i + 1)%nat - x i)) as [H|H].
    + split; [discriminate|]. intros _. exists i. split; [lia|lra].
    + rewrite <- IH. split; intros (j & Hj & Hx).
      * exists j. split; [|exact Hx]. destruct (Nat.eq_dec j i) as [->|]; [lra|lia].
      * exists j. split; [lia|exact Hx].
Qed.
Lemma mono_rises m x : rises m x <-> @mono_oracle R RNum m x <> None.
Proof.
  unfold mono_oracle. rewrite <- mono_loop_rises. split; intros (j & Hj & Hx); exists j; (split; [lia|exact Hx]).
Qed.
Lemma bsp2_t1 F F0 n m o x t o' c t1 : @bsp2_call R RNum F F0 n m o x t = Ok (o', (c, t1)) ->
  (rises m x -> t1 = Some 0) /\ (~ rises m x -> t1 = Some t).
Proof.
  unfold bsp2_call. rewrite mono_rises. destruct (mono_oracle m x) as [c0|].
  - intros H. split; [intros _; assert (t1 = Some nzero) by congruence; assumption|]. intros X. exfalso. apply X. discriminate.
  - intros H. apply tail2_t1 in H. split; [congruence|auto].
Qed.
Theorem C173_bsp2_run {St X C Sc} (sp : space St X (nat -> R) C Sc) ltb tneq (mk : gcut R -> C) F F0 n m max_it tol o st t tr o' st' xb t' info :
  cutting_plane_dc sp ltb tneq (fun o x t => ' (o1, (c, t1)) <- bsp2_call F F0 n m o x t ;; Ok (o1, (mk c, t1))) max_it tol o st t
    = Ok (tr, o', st', (xb, t', info)) ->
  ((exists ev, In ev tr /\ rises m (d_x ev)) -> t' = 0) /\
  ((forall ev, In ev tr -> ~ rises m (d_x ev)) -> t' = t) /\
  feasible info = tneq t' t.
Proof.
  intros H. apply dc_spec in H as (HR & Hf & _). rewrite <- and_assoc. split; [|exact Hf]. clear Hf.
  enough (Q : ((exists ev, In ev tr /\ rises m (d_x ev)) -> t' = 0) /\ ((forall ev, In ev tr -> ~ rises m (d_x ev)) -> t' = t) /\ (t = 0 -> t' = 0)) by tauto.
  induction HR as [|o st t c t1 o1 st1 s q tr o' st' t' E U HR IH].
  - split; [intros (ev & [] & _)|]. auto.
  - apply bind_ok in E as ([o2 [c2 t2]] & E & E'). apply bsp2_t1 in E as [E1 E2]. assert (t1 = t2) by congruence. subst t2. destruct IH as (IH1 & IH2 & IH3).
    destruct (mono_oracle m (centre sp st)) as [c0|] eqn:M.
    + assert (Hr : rises m (centre sp st)) by (apply mono_rises; congruence). rewrite (E1 Hr) in *. cbn [best] in *. specialize (IH3 eq_refl).
      split; [auto|]. split; [|auto]. intros Hn. exfalso. exact (Hn _ (or_introl eq_refl) Hr).
    + assert (Hr : ~ rises m (centre sp st)) by (rewrite mono_rises; intros X0; exact (X0 M)). rewrite (E2 Hr) in *. cbn [best] in *.
      split; [|split; [|exact IH3]].
      * intros (ev & [<-|Hi] & Hv); [contradiction|]. apply IH1. exists ev. auto.
      * intros Hn. apply IH2. intros ev Hi. apply Hn. right. exact Hi.
Qed.
Print Assumptions C173_bsp2_run.

(** the fit returns only when a query violated the constraint, and the value behind its coefficients is then 0 *)
Theorem C173_bsp2_fit ltb tneq F F0 n m max_it tol o normY c :
  (forall a b, tneq a b = true <-> a <> b) ->
  @fit2 R RNum ltb tneq (bsp2_call F F0 n m) max_it tol o normY m = Ok c ->
  normY <> 0 /\ exists E tr o' st' xb info,
    ell_init (VArray (lsq2_val normY m)) (m + 1) 0%nat = Ok E /\
    cutting_plane_dc ell_space ltb tneq (fun o x t => ' (o1, (c, t1)) <- bsp2_call F F0 n m o x t ;; Ok (o1, ((fst c, BScalar (snd c)), t1)))
      max_it tol o ((fun _ _ => 0), E) (lsq2_normY2 normY) = Ok (tr, o', st', (xb, 0, info)) /\
    exists ev, In ev tr /\ rises m (d_x ev).
Proof.
  intros Ht H. unfold fit2 in H. apply bind_ok in H as (E & HE & H). cbv zeta in H.
  apply bind_ok in H as ([[[tr o'] [w' E']] [[xb t'] info]] & Hr & H).
  destruct (feasible info) eqn:Hf; [|discriminate].
  destruct (C173_bsp2_run ell_space ltb tneq (fun c => (fst c, BScalar (snd c))) _ _ _ _ _ _ _ _ _ _ _ _ _ _ _ Hr) as (H1 & H2 & H3).
  assert (Hne : t' <> lsq2_normY2 normY) by (apply Ht; congruence).
  assert (Hx : exists ev, In ev tr /\ rises m (d_x ev)).
  { destruct (classic (exists ev, In ev tr /\ rises m (d_x ev))) as [?|Hn]; [assumption|]. exfalso. apply Hne, H2. intros ev Hi Hv. apply Hn. exists ev. auto. }
  assert (t' = 0) by auto. subst t'. split.
  - intros ->. apply Hne. unfold lsq2_normY2. cbn. ring.
  - exists E, tr, o', (w', E'), xb, info. split; [exact HE|]. split; [exact Hr|exact Hx].
Qed.
Print Assumptions C173_bsp2_fit.

(** Non-vacuity.  C172: with the 1 x 1 matrices F0 = 1, F = (4, 8) the oracle cuts at the zero vector and raises at
    (1/4, 0, 1).  C173: the same data, two iterations: the first cut pushes the second coefficient above the first, the
    second query is rejected for that, and the fit returns the centre after it. *)
Definition k172 (a : R) : nat -> nat -> R := fun _ _ => a.
Definition F172 : list (nat -> nat -> R) := [k172 4; k172 8].
Lemma call172 (q : qmi R) (Q : cutil R) (x : nat -> R) : u_n Q = 1%nat -> x 0%nat = 0 -> x 1%nat = 0 -> x 2%nat = 0 ->
  exists q1 Q1 g, tail2_call F172 (k172 1) 1 2 (q, Q) x 32 = Ok ((q1, Q1), ((g, 1), Some 32)) /\ g 0%nat = -8 /\ g 1%nat = -16 /\ g 2%nat = -1.
Proof.
  intros Hn H0 H1 H2. unfold tail2_call. rewrite H2. change (@nltb R RNum nzero (nsub 0 32)) with (Rltb 0 (0 - 32)).
  unfold Rltb. destruct (Rlt_dec 0 (0 - 32)); [lra|].
  unfold qmic_call, cu_factor. rewrite Hn. cbn [cu_rows cu_row bind Nat.add cu_reduce]. unfold qmic_getA.
  cbn [Nat.ltb Nat.leb q_count Nat.add length F172 bind M_Lmi.q_t qmi_update q_Fx Nat.eqb].
  set (row := fun c : nat => nsub (k172 1 0 c) (psum 2 (fun k => nmul (nf F172 k 0 c) (x k)))).
  assert (Er : row 0%nat = 1).
  { unfold row. cbn. rewrite H0, H1. unfold k172. ring. }
  match goal with |- context [@nleb R RNum ?a0 nzero] => set (a := a0) end. assert (Ea : a = -1).
  { unfold a, rowset. cbn [Nat.eqb]. change (- (0 + row 0%nat * row 0%nat) + 0 = -1). rewrite Er. ring. }
  rewrite Ea. change (@nleb R RNum (-1) nzero) with (Rleb (-1) 0). unfold Rleb. destruct (Rle_dec (-1) 0); [|lra].
  change (@nopp R RNum (-1)) with (- (-1)). replace (- (-1)) with 1 by lra.
  assert (Es : @nsqrt R RNum 1 = Ok 1).
  { cbn. destruct (Rlt_dec 1 0); [lra|]. rewrite sqrt_1. reflexivity. }
  assert (EW : cu_witness (mk_cutil 1 (mset (u_R Q) 0 0 1) 1) = Ok (vset (fun _ => 0) 0 1, 1)).
  { unfold cu_witness, cu_is_spd. cbn [u_p Nat.eqb Nat.sub u_R]. change (mset (u_R Q) 0 0 1 0%nat 0%nat) with 1.
    assert (E1 : @neqb R RNum 1 nzero = false) by (cbn; unfold Req_bool; destruct (Req_EM_T 1 0); [lra|reflexivity]).
    assert (E2 : @ndiv R RNum none 1 = Ok 1) by (cbn; destruct (Req_EM_T 1 0); [lra|]; f_equal; field).
    rewrite E1, E2. reflexivity. }
  rewrite Es. cbn [bind]. rewrite EW. cbn [bind]. rewrite EW. cbn [bind u_p].
  do 3 eexists. split; [reflexivity|]. clearbody row. cbn. unfold vset, rowset. cbn. rewrite Er. unfold k172. repeat split; ring.
Qed.
Example C172_ex :
  ~ (0 <= 32 /\ pd 1 (ext_mat 1 (k172 1) F172 (fun _ => 0))) /\
  pd 1 (ext_mat 1 (k172 1) F172 (fun i => match i with 0%nat => / 4 | 1%nat => 0 | _ => 1 end)).
Proof.
  assert (E : forall x v, bf 1 (ext_mat 1 (k172 1) F172 x) v v = v 0%nat * (x 2%nat - (1 - (4 * x 0%nat + 8 * x 1%nat)) * (1 - (4 * x 0%nat + 8 * x 1%nat))) * v 0%nat).
  { intros x v. unfold bf, dot, mvr, dot, ext_mat, qmic_mat, aff_mat, lin_mat, F172, k172. cbn. ring. }
  split.
  - intros [_ H]. specialize (H (fun _ => 1)). rewrite E in H. assert (0 < 1 * (0 - (1 - (4 * 0 + 8 * 0)) * (1 - (4 * 0 + 8 * 0))) * 1); [|lra].
    apply H. exists 0%nat. split; [lia|lra].
  - intros v (k & Hk & Hv). rewrite E. assert (0 < v k * v k) by nra. destruct k as [|k]; [|lia]. cbn beta iota. nra.
Qed.
Example C173_ex : exists c,
  @fit2 R RNum (fun _ _ => false) (fun a b => negb (Req_bool a b)) (bsp2_call F172 (k172 1) 1 2) 2 0 (qmi_init, cutil_init 1) 1 2 = Ok c.
Proof.
  unfold fit2. change (2 + 1)%nat with 3%nat. destruct (ell_init_ok (VArray (lsq2_val 1 2)) 3 0%nat) as (E & -> & Hc & En & Ex & _ & Ed & Ek & EQ); [lia|]. cbn [bind].
  assert (Et : @lsq2_normY2 R RNum 1 = 32) by (cbn; ring). rewrite Et.
  set (w := fun (_ : loc) (_ : nat) => @nzero R RNum).
  destruct (call172 qmi_init (cutil_init 1) (w (e_xc E)) eq_refl eq_refl eq_refl eq_refl) as (q1 & Q1 & g & EC & G0 & G1 & G2).
  assert (EB : bsp2_call F172 (k172 1) 1 2 (qmi_init, cutil_init 1) (w (e_xc E)) 32 = Ok ((q1, Q1), ((g, 1), Some 32))).
  { unfold bsp2_call. destruct (mono_oracle 2 (w (e_xc E))) eqn:M; [|exact EC].
    assert (R : rises 2 (w (e_xc E))) by (apply mono_rises; congruence). destruct R as (i & _ & R). unfold w in R. cbn in R. lra. }
  assert (Eb : forall u v, bf 3 (e_Q E) u v = 256 * (u 0%nat * v 0%nat) + 256 * (u 1%nat * v 1%nat) + 1024 * (u 2%nat * v 2%nat)).
  { intros u v. rewrite EQ. unfold bf, dot, mvr, dot, diag, lsq2_val, lsq2_normY2. cbn. ring. }
  assert (HP : ell_proper E).
  { split; [split; [rewrite En; lia|]; split; [exact Hc|]; rewrite En, Ek; split; [|split; [|lra]]|rewrite En, Ek; split; [|lra]].
    - intros i j _ _. rewrite EQ. unfold diag. rewrite (Nat.eqb_sym j i). destruct (Nat.eqb_spec i j); subst; reflexivity.
    - intros v. rewrite Eb. assert (A0 := Rle_0_sqr (v 0%nat)). assert (A1 := Rle_0_sqr (v 1%nat)). assert (A2 := Rle_0_sqr (v 2%nat)). unfold Rsqr in *. lra.
    - intros v (k & Hk & Hv). rewrite Eb. assert (A0 := Rle_0_sqr (v 0%nat)). assert (A1 := Rle_0_sqr (v 1%nat)). assert (A2 := Rle_0_sqr (v 2%nat)). unfold Rsqr in *.
      assert (0 < v k * v k) by nra. destruct k as [|[|[|k]]]; [| | |lia]; lra. }
  assert (Hg : nonzero (e_n E) g) by (exists 0%nat; rewrite En, G0; split; [lia|lra]).
  assert (ET : e_kappa E * bf (e_n E) (e_Q E) g g = 288 * 288) by (rewrite En, Ek, Eb, G0, G1, G2; ring).
  assert (ES : sqrt (288 * 288) = 288) by (apply sqrt_square; lra).
  destruct (proj1 (ell_update_total w E g (BScalar 1) HP Hg ltac:(discriminate))) as ([[w1 E1] [s1 T1]] & U1).
  { rewrite ET. unfold cut_fault, dc_fault. rewrite ES, En. cbn. intros [_ F]. lra. }
  destruct (ell_update_spec w E g (BScalar 1) w1 E1 s1 T1 (proj1 HP) U1) as (ET1 & _ & HS). rewrite ET in ET1. subst T1.
  destruct HS as [(_ & _ & HS)|(-> & _ & rho & sg & dl & HS & Ew & Ee)].
  { exfalso. unfold stop_for in HS. rewrite ES, En in HS. cbn in HS. destruct s1; try contradiction; lra. }
  assert (HP1 : ell_proper E1) by (apply (ell_update_proper w E g (BScalar 1) w1 E1 _ HP Hg U1); rewrite ES; lra).
  assert (Hrho : 0 < rho).
  { destruct HS as [_ HS]. unfold dc_formula in HS. rewrite ES, En in HS. cbn in HS. lra. }
  set (x1 := w1 (e_xc E1)).
  assert (X : x1 0%nat = rho / 82944 * 2048 /\ x1 1%nat = rho / 82944 * 4096).
  { unfold x1. rewrite Ee, new_e_xc, Ew. unfold mem_set. rewrite Nat.eqb_refl. unfold new_xc. rewrite En. cbn [Nat.ltb Nat.leb].
    rewrite Eb, G0, G1, G2, EQ. unfold mvr, dot, diag, lsq2_val. cbn. rewrite G0, G1. unfold w. cbn. split; field. }
  assert (Hr : rises 2 x1) by (exists 0%nat; split; [lia|]; destruct X as [-> X1]; cbn [Nat.add]; rewrite X1; lra).
  destruct (mono_oracle 2 x1) as [[g2 f2]|] eqn:M; [|exfalso; apply (proj1 (mono_rises 2 x1) Hr M)].
  assert (M2 := M). unfold mono_oracle in M2. cbn [Nat.sub mono_loop] in M2. cbn [Nat.add] in M2.
  change (@nltb R RNum nzero (nsub (x1 1%nat) (x1 0%nat))) with (Rltb 0 (x1 1%nat - x1 0%nat)) in M2. unfold Rltb in M2.
  destruct (Rlt_dec 0 (x1 1%nat - x1 0%nat)) as [Hf|]; [|discriminate M2]. injection M2 as M3 M4.
  assert (EB2 : bsp2_call F172 (k172 1) 1 2 (q1, Q1) x1 32 = Ok ((q1, Q1), ((g2, f2), Some 0))) by (unfold bsp2_call; rewrite M; reflexivity).
  assert (En1 : e_n E1 = 3%nat) by (rewrite Ee, new_e_n; exact En).
  assert (Hg2 : nonzero (e_n E1) g2).
  { exists 1%nat. rewrite En1, <- M3. split; [lia|]. unfold vset. cbn. lra. }
  destruct (proj1 (ell_update_total w1 E1 g2 (BScalar f2) HP1 Hg2 ltac:(discriminate))) as ([[w2 E2] [s2 T2]] & U2).
  { unfold cut_fault, dc_fault. rewrite En1, <- M4. intros [_ F]. revert F. change (IZR (Z.of_nat 3)) with 3.
    match goal with |- sqrt ?t + _ = _ -> _ => assert (S0 := sqrt_pos t); set (sq := sqrt t) in * end. clearbody sq. lra. }
  change (sp_update ell_space (w, E) (g, BScalar 1) = Ok (w1, E1, (success, 288 * 288))) in U1.
  change (sp_update ell_space (w1, E1) (g2, BScalar f2) = Ok (w2, E2, (s2, T2))) in U2.
  cbn [cutting_plane_dc dc_loop]. change (centre ell_space (w, E)) with (w (e_xc E)). rewrite EB. cbn [bind fst snd]. rewrite U1.
  cbn [bind status_eqb negb]. change (centre ell_space (w1, E1)) with x1. rewrite EB2. cbn [bind fst snd]. rewrite U2. cbn [bind].
  assert (Ef : negb (Req_bool 0 32) = true) by (unfold Req_bool; destruct (Req_EM_T 0 32); [lra|reflexivity]).
  destruct (negb (status_eqb s2 success)); cbn [bind feasible]; rewrite Ef; eexists; reflexivity.
Qed.

(** ** C174: the fits by bisection *)
(** the search for a feasible point with an oracle that never says None *)
Lemma feas_never {St X V C Sc O} (sp : space St X V C Sc) ltb (omega : O -> V -> res (O * option C)) max_it tol o st tr o' st' info :
  (forall o x o1, omega o x <> Ok (o1, None)) ->
  cutting_plane_feas sp ltb omega max_it tol o st = Ok (tr, o', st', info) -> feasible info = false.
Proof.
  intros Hn H. apply feas_feasible in H as (HR & Hf & _). destruct (feasible info); [|reflexivity]. exfalso.
  destruct (Hf eq_refl) as (tr0 & ->). clear Hf. revert o st HR. induction tr0 as [|e tr0 IH]; intros o st HR.
  - inversion HR; subst; [eapply Hn; eassumption].
  - inversion HR; subst; [match goal with H : [] = tr0 ++ _ |- _ => exact (app_cons_not_nil _ _ _ H) end|]. eapply IH; eassumption.
Qed.
Lemma bsearch_never {T Sc O} (tau_of : T -> T -> Sc) mid ltb neq (omega : O -> T -> res (O * bool)) max_it tol o l u tr o' v info :
  (forall o t o1, omega o t <> Ok (o1, true)) ->
  bsearch tau_of mid ltb neq omega max_it tol o (l, u) = Ok (tr, o', (v, info)) ->
  v = u /\ feasible info = neq u u /\ forall p, In p tr -> snd p = false.
Proof.
  intros Hn H. assert (HL : forall k i o l u0 tr o' v info, bs_loop tau_of mid ltb neq omega k i tol u0 o l u = Ok (tr, o', (v, info)) ->
    v = u /\ feasible info = neq u u0 /\ forall p, In p tr -> snd p = false).
  { clear H. induction k as [|k IH]; intros i o0 l0 u0 tr0 o0' v0 info0; cbn [bs_loop]; cbv zeta.
    - intros H. injection H as <- _ <- <-. split; [reflexivity|]. split; [reflexivity|intros p []].
    - destruct (ltb _ tol).
      + intros H. injection H as <- _ <- <-. split; [reflexivity|]. split; [reflexivity|intros p []].
      + intros H. apply bind_ok in H as ([o1 b] & E & H). destruct b; [exfalso; eapply Hn; exact E|].
        apply bind_ok in H as ([[tr1 o2] [v1 info1]] & E1 & H). injection H as <- _ <- <-.
        apply IH in E1 as (A1 & A2 & A3). split; [exact A1|]. split; [exact A2|]. intros p [<-|Hp]; [reflexivity|apply A3, Hp]. }
  destruct max_it as [|k]; [discriminate|]. cbn [bsearch] in H. apply HL in H. exact H.
Qed.
(** qmi_c_oracle never answers None, and bsp_oracle neither, so that no probe succeeds and both fits raise.  For every
    arithmetic, binary64 included. *)
Theorem C174_bisection_fits_never_return {A} `{Num A} (ltb tneq : A -> A -> bool) tau_of mid F F0 n m max_it tol check o normY omega :
  (forall a, tneq a a = false) -> omega = qmic_omega F F0 n m \/ omega = bsp_omega F F0 n m ->
  exists ex, fit1 ltb tneq tau_of mid omega max_it tol check o normY m = Raise ex.
Proof.
  intros Ht Ho. assert (Hn : forall o x o1, omega o x <> Ok (o1, None)).
  { assert (Hq : forall o x o1, qmic_omega F F0 n m o x <> Ok (o1, None)).
    { intros o0 x o1 E. unfold qmic_omega in E. apply bind_ok in E as ([[q Q] c] & E & E'). unfold qmic_call in E.
      apply bind_ok in E as ([q1 Q1] & _ & E). apply bind_ok in E as ([v f] & _ & E). cbv zeta in E.
      assert (c <> None) by congruence. destruct c; [|congruence]. destruct g. cbn [to_cut] in E'. congruence. }
    destruct Ho as [->| ->]; [exact Hq|]. intros o0 x o1 E. unfold bsp_omega in E. destruct (mono_oracle m x); [discriminate|]. exact (Hq _ _ _ E). }
  unfold fit1. destruct (ell_init _ _ _) as [E|ex]; [|exists ex; reflexivity]. cbn [bind].
  match goal with |- exists ex, bind ?r _ = _ => destruct r as [[[tr [[w' o'] s']] [v info]]|ex] eqn:Hr; [|exists ex; reflexivity] end.
  cbn [bind]. apply bsearch_never in Hr as (_ & Hf & _).
  - rewrite Hf, Ht. eexists. reflexivity.
  - intros [[w0 o0] s0] t [[w1 o1] s1] E1. unfold bis_omega in E1. apply bind_ok in E1 as ([[[w2 o2] s2] b] & E1 & E2).
    assert (b = true) by congruence. subst b. unfold ba_call in E1. apply bind_ok in E1 as ([w3 s3] & _ & E1). apply bind_ok in E1 as (o3 & _ & E1).
    apply bind_ok in E1 as ([[[tr4 o4] [w4 s4]] info4] & E1 & E3). apply (feas_never _ _ _ _ _ _ _ _ _ _ _ Hn) in E1. cbv zeta in E3. rewrite E1 in E3. congruence.
Qed.
Print Assumptions C174_bisection_fits_never_return.
