(** More proofs about ell: aliasing, exceptional cases, construction, the
    no_defer_trick, and the drivers over ell and ell1d. *)
From Coq Require Import Reals Lra Psatz QArith.
From Verif Require Import Base M_Drivers M_Ell S_LinAlg P_LinAlg S_Drivers S_Ell
  P_Drivers P_EllCalc P_Ell.
Local Open Scope nat_scope.

(** *** Facts that hold in every arithmetic *)
Section LawFree.
Context {A : Type} `{Num A}.

Lemma ell_update_frame (w w' : memory A) e e' g beta s q :
  ell_update (w, e) (g, beta) = Ok ((w', e'), (s, q)) ->
  (s <> success -> w' = w /\ e' = e) /\
  e_xc e' = e_xc e /\ e_n e' = e_n e /\ e_par e' = e_par e /\ e_nodefer e' = e_nodefer e /\
  (forall l, l <> e_xc e -> w' l = w l) /\
  (forall l i, ~ i < e_n e -> w' l i = w l i).
Proof.
  cbn [ell_update]. intros Hu.
  apply bind_ok in Hu as ([tsq out] & _ & Hu). destruct out as [s'|rho sigma delta].
  - injection Hu as <- <- <- <-. repeat split; auto.
  - apply bind_ok in Hu as (ro & _ & Hu). apply bind_ok in Hu as (so & _ & Hu).
    injection Hu as <- <- <- <-.
    split; [intros E; congruence|].
    split; [destruct (e_nodefer e); reflexivity|].
    split; [destruct (e_nodefer e); reflexivity|].
    split; [destruct (e_nodefer e); reflexivity|].
    split; [destruct (e_nodefer e) eqn:E; cbn; auto|]. split.
    + intros l Hl. unfold mem_set. destruct (Nat.eqb_spec l (e_xc e)); [contradiction|reflexivity].
    + intros l i Hi. unfold mem_set. destruct (Nat.eqb_spec l (e_xc e)) as [->|]; [|reflexivity].
      destruct (Nat.ltb_spec i (e_n e)); [lia|reflexivity].
Qed.

Lemma ell1d_update_frame (e e' : ell1d A) c s q :
  ell1d_update e c = Ok (e', (s, q)) -> s <> success -> e' = e.
Proof.
  destruct c as [g beta]. cbn [ell1d_update]. intros Hu Hs.
  destruct (neqb _ _).
  { apply bind_ok in Hu as (r & _ & Hu). injection Hu as <- <- <-. congruence. }
  destruct (nltb _ _); [injection Hu as <- <- <-; reflexivity|].
  destruct (nltb _ _); [injection Hu as <- <- <-; reflexivity|].
  apply bind_ok in Hu as (bg & _ & Hu). apply bind_ok in Hu as (r & _ & Hu).
  injection Hu as <- <- <-. congruence.
Qed.

(** every reference the drivers take from an ell is the same one *)
Lemma feas_replay_xc {O} (omega : O -> (nat -> A) -> res (O * option (cut A))) o st tr o' st' :
  feas_replay ell_space omega o st tr o' st' -> e_xc (snd st') = e_xc (snd st).
Proof.
  induction 1 as [| |o st c o1 st1 s q tr o' st' Ho Hu Hr IH]; auto.
  rewrite IH. destruct st as [w e], st1 as [w1 e1], c as [g beta].
  cbn in Hu. apply ell_update_frame in Hu. cbn. tauto.
Qed.

Lemma dc_loop_xc {O T} ltb tneq
   (omega : O -> (nat -> A) -> T -> res (O * (cut A * option T))) k :
  forall niter tol t0 o st t xb tr o' st' xb' t' info,
  dc_loop ell_space ltb tneq omega k niter tol t0 o st t xb = Ok (tr, o', st', (xb', t', info)) ->
  (xb = None \/ xb = Some (e_xc (snd st))) ->
  e_xc (snd st') = e_xc (snd st) /\ (xb' = None \/ xb' = Some (e_xc (snd st'))).
Proof.
  induction k as [|k IH]; intros niter tol t0 o st t xb tr o' st' xb' t' info; cbn [dc_loop].
  - intros E; injection E as <- <- <- <- <- <-. auto.
  - intros E Hxb. apply bind_ok in E as ([o1 [c t1]] & Ho & E).
    apply bind_ok in E as ([st1 [s q]] & Hu & E).
    assert (Hx : e_xc (snd st1) = e_xc (snd st)).
    { destruct st as [w e], st1 as [w1 e1], c as [g beta].
      cbn in Hu. apply ell_update_frame in Hu. cbn. tauto. }
    set (xb1 := match t1 with Some _ => _ | None => _ end) in E.
    assert (Hxb1 : xb1 = None \/ xb1 = Some (e_xc (snd st1))).
    { unfold xb1. rewrite Hx. destruct t1; [right; reflexivity|assumption]. }
    destruct (negb _).
    { injection E as <- <- <- <- <- <-. auto. }
    destruct (ltb q tol).
    { injection E as <- <- <- <- <- <-. auto. }
    apply bind_ok in E as ([[[tr1 o2] st2] [[xb2 t2] info2]] & Hl & E).
    injection E as <- <- <- <- <- <-. apply IH in Hl as [Hl1 Hl2]; [|assumption].
    split; [congruence|assumption].
Qed.

Lemma dc_xbest_final {O T} ltb tneq
   (omega : O -> (nat -> A) -> T -> res (O * (cut A * option T)))
   max_it tol o st t tr o' st' xb t' info :
  cutting_plane_dc ell_space ltb tneq omega max_it tol o st t
    = Ok (tr, o', st', (Some xb, t', info)) ->
  xb = e_xc (snd st) /\ sp_deref ell_space st' xb = centre ell_space st'.
Proof.
  unfold cutting_plane_dc. destruct max_it; [discriminate|]. intros E.
  apply dc_loop_xc in E as [E1 [E2|E2]]; [discriminate| |auto].
  injection E2 as ->. split; [assumption|reflexivity].
Qed.

(** copy keeps everything but recomputes the constants, and shares the centre *)
Lemma ell_copy_spec (e c : ell A) :
  ell_copy e = Ok c ->
  e_n c = e_n e /\ e_xc c = e_xc e /\ e_kappa c = e_kappa e /\ e_Q c = e_Q e /\
  e_par c = e_par e /\ e_nodefer c = e_nodefer e.
Proof.
  unfold ell_copy, ell_init. intros Hc.
  apply bind_ok in Hc as (E & HE & Hc).
  repeat (apply bind_ok in HE as (? & _ & HE)).
  injection HE as <-. injection Hc as <-. repeat split.
Qed.

(** bsearch_adaptor over ell: x_best is wherever the working copy went *)
Lemma ba_call_ell {O T} ltb (omega : O -> (nat -> A) -> res (O * option (cut A)))
   (p_update : O -> T -> res O) max_it tol w o s t w' o' s' b :
  ba_call ell_space ltb ell_copy_w ell_set_xc omega p_update max_it tol w o s t
    = Ok (w', o', s', b) ->
  exists c o1 tr c' info,
    ell_copy s = Ok c /\ p_update o t = Ok o1 /\
    cutting_plane_feas ell_space ltb omega max_it tol o1 (w, c) = Ok (tr, o', (w', c'), info) /\
    b = feasible info /\
    ba_x_best ell_space w' s' = w' (e_xc s) /\ centre ell_space (w', c') = w' (e_xc s) /\
    e_Q s' = e_Q s /\ e_kappa s' = e_kappa s.
Proof.
  unfold ba_call. intros Hc. apply bind_ok in Hc as ([w1 c] & Hcp & Hc).
  unfold ell_copy_w in Hcp. apply bind_ok in Hcp as (c0 & Hcp & E). injection E as <- <-.
  apply bind_ok in Hc as (o1 & Ho & Hc).
  apply bind_ok in Hc as ([[[tr o2] [w2 c']] info] & Hf & Hc).
  injection Hc as <- <- <- <-.
  exists c0, o1, tr, c', info. 
  pose proof (ell_copy_spec _ _ Hcp) as (_ & Hx & _).
  assert (Hxc : e_xc c' = e_xc s).
  { pose proof (feas_feasible _ _ _ _ _ _ _ _ _ _ _ Hf) as (Hr & _).
    apply feas_replay_xc in Hr. cbn in Hr. congruence. }
  repeat split; auto.
  - unfold ba_x_best, centre; cbn. destruct (feasible info); cbn; [|reflexivity].
    rewrite Hxc. reflexivity.
  - unfold centre; cbn. rewrite Hxc. reflexivity.
  - destruct (feasible info); reflexivity.
  - destruct (feasible info); reflexivity.
Qed.
End LawFree.

(** adaptor over a space whose centre is a value *)
Lemma ba_call_value {W E X V C Sc O T} (sp : space (W * E) X V C Sc) ltb copy
   (set_xc : E -> X -> E) (omega : O -> V -> res (O * option C)) (p_update : O -> T -> res O)
   max_it tol w o s t w' o' s' b :
  (forall st1 st2 x, sp_deref sp st1 x = sp_deref sp st2 x) ->
  (forall w1 w2 s, sp_xc sp (w1, s) = sp_xc sp (w2, s)) ->
  (forall w s x, sp_xc sp (w, set_xc s x) = x) ->
  ba_call sp ltb copy set_xc omega p_update max_it tol w o s t = Ok (w', o', s', b) ->
  (b = false -> s' = s /\ ba_x_best sp w' s' = ba_x_best sp w s) /\
  (b = true -> exists o1 st1 tr st2,
     feas_replay sp omega o1 st1 (tr ++ [(ba_x_best sp w' s', None)]) o' st2).
Proof.
  intros Hd Hx Hset. unfold ba_call. intros Hc.
  apply bind_ok in Hc as ([w1 c] & Hcp & Hc).
  apply bind_ok in Hc as (o1 & Ho & Hc).
  apply bind_ok in Hc as ([[[tr o2] [w2 c']] info] & Hf & Hc).
  injection Hc as <- <- <- <-. split; intros E0; rewrite E0.
  - split; [reflexivity|]. unfold ba_x_best, centre. rewrite (Hx w2 w).
    apply Hd.
  - apply feas_feasible in Hf as (Hr & Hfe & _). destruct (Hfe E0) as (tr0 & ->).
    exists o1, (w1, c), tr0, (w2, c').
    replace (ba_x_best sp w2 (set_xc s (sp_xc sp (w2, c')))) with (centre sp (w2, c'));
      [assumption|].
    unfold ba_x_best, centre. rewrite Hset. apply Hd.
Qed.

Local Open Scope R_scope.

(** *** nosoln is returned when the single cut misses the ellipsoid *)
Lemma extreme_point n Q kappa xc g :
  sym n Q -> psd n Q -> 0 <= kappa ->
  exists z, in_ell n Q kappa xc z /\
            dot n g (fun i => z i - xc i) = - sqrt (kappa * bf n Q g g).
Proof.
  intros Hs Hp Hk. set (om := bf n Q g g). assert (0 <= om) by apply Hp.
  assert (HT : 0 <= kappa * om) by (apply Rmult_le_pos; assumption).
  set (tau := sqrt (kappa * om)).
  assert (Htt : tau * tau = kappa * om) by (apply sqrt_sqrt; assumption).
  destruct (Req_dec om 0) as [E|E].
  - exists xc. split.
    + exists (fun _ => 0). split.
      * intros i _. unfold mvr. rewrite dot_zero_r. ring.
      * unfold bf. rewrite dot_comm, dot_zero_r. assumption.
    + assert (tau = 0) as -> by (unfold tau; rewrite E, Rmult_0_r; apply sqrt_0).
      rewrite (dot_ext n g g _ (fun _ => 0)); [rewrite dot_zero_r; ring|reflexivity|].
      intros; ring.
  - set (c := - tau / om).
    exists (fun i => xc i + mvr n Q (fun k => c * g k) i). split.
    + exists (fun k => c * g k). split; [reflexivity|].
      rewrite bf_scal_r, bf_scal_l. fold om. unfold c.
      replace (- tau / om * (- tau / om * om)) with (tau * tau / om) by (field; assumption).
      rewrite Htt. replace (kappa * om / om) with kappa by (field; assumption). lra.
    + rewrite (dot_ext n g g _ (mvr n Q (fun k => c * g k)));
        [|reflexivity|intros; ring].
      change (bf n Q g (fun k => c * g k) = - tau). rewrite bf_scal_r. fold om.
      unfold c. field. assumption.
Qed.

Lemma calc_dc_nosoln e T b : 0 <= T -> sqrt T < b -> calc_dc e T b = Ok (T, Stop nosoln).
Proof.
  intros HT Hb. unfold calc_dc. rewrite rsqrt_ok by assumption. cbn [bind].
  destruct (nltb _ _) eqn:B; [reflexivity|]. apply Rltb_false in B. cbn in B. lra.
Qed.

Lemma nosoln_complete w e g b :
  ell_wf e ->
  (forall z, mem_ell (w, e) z -> ~ sat_cut (e_n e) (w (e_xc e)) (g, BScalar b) z) ->
  exists tsq, ell_update (w, e) (g, BScalar b) = Ok ((w, e), (nosoln, tsq)).
Proof.
  intros (Hn & Hc & Hs & Hp & Hk) Hno.
  destruct (extreme_point (e_n e) (e_Q e) (e_kappa e) (w (e_xc e)) g Hs Hp Hk) as (z & Hz & Ha).
  specialize (Hno z Hz). unfold sat_cut in Hno; cbn in Hno. rewrite Ha in Hno.
  assert (0 <= bf (e_n e) (e_Q e) g g) by apply Hp.
  exists (e_kappa e * bf (e_n e) (e_Q e) g g). cbn [ell_update calc_ll].
  change (ndot (e_n e) g (mv (e_n e) (e_Q e) g)) with (bf (e_n e) (e_Q e) g g).
  change (nmul (e_kappa e) (bf (e_n e) (e_Q e) g g)) with (e_kappa e * bf (e_n e) (e_Q e) g g).
  rewrite calc_dc_nosoln; [reflexivity| |lra]. apply Rmult_le_pos; assumption.
Qed.

(** *** exactly when update faults *)
Definition dc_fault (N T b : R) : Prop := b <> 0 /\ sqrt T + N * b = 0.
Definition cut_fault (e : ell R) (T : R) (beta : cut_beta R) : Prop :=
  let N := IZR (Z.of_nat (e_n e)) in
  match beta with
  | BScalar b | BArr [b] => dc_fault N T b
  | BArr [] => True
  | BArr (b0 :: b1 :: _) =>
      ((T < b1 * b1 \/ e_par e = false) /\ dc_fault N T b0) \/
      (e_par e = true /\ b0 + b1 = 0 /\ 0 <= b1 /\ N * (b1 * b1) <= T)
  end.

Lemma calc_dc_total e T b :
  (2 <= e_n e)%nat -> ell_consts e -> 0 < T ->
  let N := IZR (Z.of_nat (e_n e)) in
  (~ dc_fault N T b -> exists out, calc_dc e T b = Ok (T, out)) /\
  (dc_fault N T b -> calc_dc e T b = Raise FloatFault).
Proof.
  intros Hn Hc HT N.
  assert (HN : 2 <= N) by (apply IZR_le; lia).
  assert (Ht : 0 < sqrt T) by (apply sqrt_lt_R0; assumption).
  destruct Hc as (E1 & E2 & E3 & E4 & E5 & E6). fold N in E1, E2, E3, E4, E5, E6.
  unfold calc_dc. rewrite rsqrt_ok by lra. cbn [bind].
  change (nofnat (e_n e)) with N.
  change (nsub (sqrt T) b) with (sqrt T - b).
  change (nadd (sqrt T) (nmul N b)) with (sqrt T + N * b).
  change (nzero (A := R)) with 0.
  split; intros Hf.
  - destruct (nltb (sqrt T - b) 0) eqn:B1; [eauto|]. apply Rltb_false in B1.
    destruct (neqb b 0) eqn:B2.
    { unfold calc_cc. rewrite E1, rdiv_ok by lra. cbn [bind]. eauto. }
    apply Reqb_false in B2.
    destruct (nltb (sqrt T + N * b) 0) eqn:B3; [eauto|]. apply Rltb_false in B3.
    assert (0 < sqrt T + N * b).
    { destruct (Rle_lt_or_eq_dec _ _ B3) as [|E]; [assumption|].
      exfalso; apply Hf; split; auto. }
    rewrite rdiv_ok by lra. cbn [bind]. rewrite E1, rdiv_ok by lra. cbn [bind].
    rewrite rdiv_ok by (cbn [nadd RNum]; nra). cbn [bind].
    rewrite rdiv_ok by lra. cbn [bind]. eauto.
  - destruct Hf as [Hb Hg].
    destruct (nltb (sqrt T - b) 0) eqn:B1; [apply Rltb_true in B1; nra|].
    destruct (neqb b 0) eqn:B2; [apply Reqb_true in B2; contradiction|].
    destruct (nltb (sqrt T + N * b) 0) eqn:B3; [apply Rltb_true in B3; lra|].
    rewrite Hg. cbn. destruct (Req_EM_T 0 0); [reflexivity|lra].
Qed.

Lemma xi_arg_nonneg N T b0 b1 : 2 <= N -> 0 < T ->
  0 <= (1 - b0 * (b0 / T)) * (1 - b1 * (b1 / T))
       + N / 2 * ((b0 + b1) / T) * (b1 - b0) * (N / 2 * ((b0 + b1) / T) * (b1 - b0)).
Proof.
  intros HN HT.
  set (t0 := 1 - b0 * (b0 / T)). set (t1 := 1 - b1 * (b1 / T)).
  replace (N / 2 * ((b0 + b1) / T) * (b1 - b0)) with (N / 2 * (t0 - t1))
    by (unfold t0, t1; field; lra).
  replace (t0 * t1 + N / 2 * (t0 - t1) * (N / 2 * (t0 - t1)))
    with (((t0 + t1) / 2) * ((t0 + t1) / 2) + (N * N - 1) * (((t0 - t1) / 2) * ((t0 - t1) / 2)))
    by field.
  assert (0 <= (N * N - 1) * (((t0 - t1) / 2) * ((t0 - t1) / 2))).
  { apply Rmult_le_pos; [nra|apply Rle_0_sqr]. }
  pose proof (Rle_0_sqr ((t0 + t1) / 2)) as Hq. unfold Rsqr in Hq. lra.
Qed.

Lemma calc_ll_total e T beta :
  (2 <= e_n e)%nat -> ell_consts e -> 0 < T -> beta <> BArr [] ->
  (~ cut_fault e T beta -> exists out, calc_ll e T beta = Ok (T, out)) /\
  (cut_fault e T beta -> calc_ll e T beta = Raise FloatFault).
Proof.
  intros Hn Hc HT Hne.
  destruct beta as [b|[|b0 [|b1 bs]]]; [| congruence | |]; cbn [calc_ll cut_fault].
  1, 2: apply calc_dc_total; assumption.
  clear Hne bs.
  set (N := IZR (Z.of_nat (e_n e))).
  assert (HN : 2 <= N) by (apply IZR_le; lia).
  unfold calc_ll_core. rewrite rdiv_ok by lra. cbn [bind].
  change (nofnat (e_n e)) with N. change two with 2.
  cbn [nadd nsub nmul nopp none nzero RNum].
  assert (Eb1 : b1 * (b1 / T) * T = b1 * b1) by (field; lra).
  destruct (orb _ _) eqn:B0.
  { assert (Hor : T < b1 * b1 \/ e_par e = false).
    { apply orb_true_iff in B0 as [B0|B0]; [left|right].
      - apply Rltb_true in B0. nra.
      - now apply negb_true_iff in B0. }
    destruct (calc_dc_total e T b0 Hn Hc HT) as [H1 H2]. fold N in H1, H2.
    split; intros Hf.
    - apply H1. intros Hd. apply Hf. left; auto.
    - destruct Hf as [[_ Hf]|(Hp & Hs & Hb & HNb)]; [auto|].
      exfalso. destruct Hor as [Hor|Hor]; [|congruence]. nra. }
  apply orb_false_iff in B0 as [B0 Bp]. apply negb_false_iff in Bp. apply Rltb_false in B0.
  assert (Hb1 : b1 * b1 <= T) by nra.
  assert (Hfe : forall P : Prop, ((T < b1 * b1 \/ e_par e = false) /\ P) \/
     (e_par e = true /\ b0 + b1 = 0 /\ 0 <= b1 /\ N * (b1 * b1) <= T) <->
     (b0 + b1 = 0 /\ 0 <= b1 /\ N * (b1 * b1) <= T)).
  { intros P; split; [intros [[[X|X] _]|X]|]; try congruence; try lra; tauto. }
  rewrite Hfe. clear Hfe.
  destruct Hc as (E1 & E2 & E3 & E4 & E5 & E6). fold N in E1, E2, E3, E4, E5, E6.
  destruct (nltb (b1 - b0) 0) eqn:B1.
  { apply Rltb_true in B1. split; [eauto|]. intros (X & Y & _). lra. }
  apply Rltb_false in B1.
  destruct (neqb b0 0) eqn:B2.
  { apply Reqb_true in B2. subst b0. unfold calc_ll_cc.
    change (nofnat (e_n e)) with N. change two with 2.
    cbn [nadd nsub nmul nopp none nzero RNum]. rewrite E2, E4, E5, E6.
    rewrite rsqrt_ok.
    2: { pose proof (xi_arg_nonneg N T 0 b1 HN HT) as Hx.
         replace (1 - 0 * (0 / T)) with 1 in Hx by (field; lra).
         replace (N / 2 * ((0 + b1) / T) * (b1 - 0)) with (N / 2 * (b1 * (b1 / T))) in Hx
           by (field; lra).
         lra. }
    cbn [bind].
    split; intros Hf.
    - assert (b1 <> 0) by (intros ->; apply Hf; repeat split; lra).
      rewrite rdiv_ok by (apply Rmult_integral_contrapositive_currified; [assumption|];
        apply Rmult_integral_contrapositive_currified; [assumption|];
        apply Rinv_neq_0_compat; lra).
      cbn [bind]. repeat (rewrite rdiv_ok by lra; cbn [bind]). eauto.
    - assert (b1 = 0) as -> by lra.
      replace (0 * (0 / T)) with 0 by (field; lra). cbn.
      destruct (Req_EM_T 0 0); [reflexivity|lra]. }
  apply Reqb_false in B2.
  rewrite rdiv_ok by lra. cbn [bind].
  assert (Enp : N * (b0 * (b1 / T)) * T = N * (b0 * b1)) by (field; lra).
  destruct (nltb (N * _) _) eqn:B3.
  { apply Rltb_true in B3. split; [eauto|]. intros (X & Y & Z).
    exfalso. assert (b0 = - b1) by lra. subst b0. nra. }
  apply Rltb_false in B3.
  rewrite rdiv_ok by lra. cbn [bind]. rewrite rdiv_ok by lra. cbn [bind].
  rewrite rdiv_ok by lra. cbn [bind]. rewrite E1, E2, E4, E6.
  rewrite rsqrt_ok by (apply xi_arg_nonneg; assumption). cbn [bind].
  split; intros Hf.
  - assert (b0 + b1 <> 0) as Hs.
    { intros Hs. apply Hf. assert (b0 = - b1) by lra. subst b0.
      repeat split; [lra|lra|]. nra. }
    rewrite rdiv_ok.
    2: { apply Rmult_integral_contrapositive_currified; [|lra].
         apply Rmult_integral_contrapositive_currified;
           (apply Rmult_integral_contrapositive_currified; [assumption|];
            apply Rinv_neq_0_compat; lra). }
    cbn [bind]. repeat (rewrite rdiv_ok by lra; cbn [bind]). eauto.
  - destruct Hf as (Hs & _). rewrite Hs.
    replace (0 / T * (0 / 2) * (N + 1)) with 0 by (field; lra). cbn.
    destruct (Req_EM_T 0 0); [reflexivity|lra].
Qed.

Lemma ell_update_total w e g beta :
  ell_proper e -> nonzero (e_n e) g -> beta <> BArr [] ->
  let T := e_kappa e * bf (e_n e) (e_Q e) g g in
  (~ cut_fault e T beta -> exists r, ell_update (w, e) (g, beta) = Ok r) /\
  (cut_fault e T beta -> ell_update (w, e) (g, beta) = Raise FloatFault).
Proof.
  intros ((Hn & Hc & Hs & Hp & _) & Hpd & Hk) Hg Hb T.
  assert (Hom : 0 < bf (e_n e) (e_Q e) g g) by (apply Hpd; assumption).
  assert (HT : 0 < T) by (apply Rmult_lt_0_compat; assumption).
  destruct (calc_ll_total e T beta Hn Hc HT Hb) as [H1 H2].
  cbn [ell_update].
  change (nmul (e_kappa e) (ndot (e_n e) g (mv (e_n e) (e_Q e) g))) with T.
  change (ndot (e_n e) g (mv (e_n e) (e_Q e) g)) with (bf (e_n e) (e_Q e) g g).
  split; intros Hf.
  - destruct (H1 Hf) as (out & ->). cbn [bind]. destruct out as [s|rho sigma delta]; [eauto|].
    rewrite !rdiv_ok by lra. cbn [bind]. eauto.
  - rewrite (H2 Hf). reflexivity.
Qed.
