(** The scalar computations of ell.update over the reals. *)
From Coq Require Import Reals Lra Psatz.
From Verif Require Import Base M_Drivers M_Ell S_LinAlg S_Ell.
Local Open Scope R_scope.

Ltac inv_ok H :=
  lazymatch type of H with
  | bind _ _ = Ok _ =>
      let x := fresh "v" in let Hx := fresh "Hv" in
      apply bind_ok in H; destruct H as [x [Hx H]];
      first [apply rdiv_inv in Hx; destruct Hx as [? Hx]; subst x
            |apply rsqrt_inv in Hx; destruct Hx as [? Hx]; subst x| idtac];
      cbv beta in H; inv_ok H
  | _ => idtac
  end.

(** What an update needs from the parameters for the slab -b1 <= a <= -b0. *)
Definition step_ok (T b0 b1 rho sigma delta : R) : Prop :=
  0 <= sigma <= 1 /\ 0 <= delta /\ 2 * rho = sigma * (b0 + b1) /\
  rho * rho - sigma * b0 * b1 = (1 - sigma) * T * (delta - 1) /\
  (sigma = 1 -> b0 = b1 /\ T - b0 * b0 <= T * delta).

(** Deep cut parameters (tau = sqrt T; b = 0 is the central cut). *)
Definition dc_formula (N T b rho sigma delta : R) : Prop :=
  let tau := sqrt T in
  (b = 0 /\ rho = tau / (N + 1) /\ sigma = 2 / (N + 1) /\ delta = N * N / (N * N - 1)) \/
  (b <> 0 /\ 0 < T /\ 0 < tau + N * b /\ rho = (tau + N * b) / (N + 1) /\
   sigma = 2 * rho / (tau + b) /\ delta = N * N / (N * N - 1) * (1 - b * (b / T))).

(** Parallel cut parameters. *)
Definition par_formula (N T b0 b1 rho sigma delta : R) : Prop :=
  0 < T /\ b0 <= b1 /\ b1 * b1 <= T /\ - T <= N * (b0 * b1) /\ b0 + b1 <> 0 /\
  exists xi, 0 <= xi /\
    xi * xi = (1 - b0 * b0 / T) * (1 - b1 * b1 / T)
            + (N / 2 * ((b0 + b1) / T) * (b1 - b0)) * (N / 2 * ((b0 + b1) / T) * (b1 - b0)) /\
    sigma = N / (N + 1)
          + (1 + b0 * b1 / T - xi) / ((b0 + b1) / T * ((b0 + b1) / 2) * (N + 1)) /\
    delta = N * N / (N * N - 1)
          * ((1 - b0 * b0 / T + (1 - b1 * b1 / T)) / 2 + xi / N) /\
    rho = sigma * ((b0 + b1) / 2).

Section Calc.
Variable e : ell R.
Hypothesis Hn : (2 <= e_n e)%nat.
Hypothesis Hc : ell_consts e.
Let N := IZR (Z.of_nat (e_n e)).

Lemma N_ge2 : 2 <= N.
Proof. unfold N. apply IZR_le. lia. Qed.

Lemma dc_step_ok T tau b rho sigma delta :
  0 < tau -> tau * tau = T -> b <= tau -> 0 <= tau + N * b ->
  rho = (tau + N * b) / (N + 1) ->
  sigma = 2 * rho / (tau + b) ->
  delta = N * N / (N * N - 1) * (1 - b * (b / T)) ->
  step_ok T b tau rho sigma delta.
Proof.
  pose proof N_ge2 as HN. clear Hc Hn. generalize dependent N. clear. intros N HN.
  intros Ht HT Hb Hg -> -> ->. subst T.
  assert (0 < tau + b) as Hs by nra.
  assert (0 < N * N - 1) by nra.
  assert (H1s : 1 - 2 * ((tau + N * b) / (N + 1)) / (tau + b)
                = (N - 1) * (tau - b) / ((N + 1) * (tau + b))) by (field; lra).
  assert (0 <= 1 - 2 * ((tau + N * b) / (N + 1)) / (tau + b)) as H1.
  { rewrite H1s. apply Rmult_le_pos; [nra|]. left; apply Rinv_0_lt_compat; nra. }
  assert (0 <= 2 * ((tau + N * b) / (N + 1)) / (tau + b)) as H2.
  { apply Rmult_le_pos; [|left; apply Rinv_0_lt_compat; lra].
    apply Rmult_le_pos; [lra|]. apply Rmult_le_pos; [lra|].
    left; apply Rinv_0_lt_compat; lra. }
  assert (- tau <= b) by nra.
  assert (Hd : 0 <= 1 - b * (b / (tau * tau))).
  { replace (1 - b * (b / (tau * tau))) with ((tau * tau - b * b) / (tau * tau))
      by (field; lra).
    apply Rmult_le_pos; [nra|]. left; apply Rinv_0_lt_compat; nra. }
  split; [lra|]. split; [|split; [|split]].
  - apply Rmult_le_pos; [|assumption]. apply Rmult_le_pos; [nra|].
    left; apply Rinv_0_lt_compat; lra.
  - field; lra.
  - field. repeat split; nra.
  - intros E. assert ((N - 1) * (tau - b) / ((N + 1) * (tau + b)) = 0) as E0 by lra.
    assert (tau = b) as <-.
    { assert ((N - 1) * (tau - b) = 0) as E1.
      { replace ((N - 1) * (tau - b))
          with ((N - 1) * (tau - b) / ((N + 1) * (tau + b)) * ((N + 1) * (tau + b)))
          by (field; lra). rewrite E0. ring. }
      nra. }
    split; [reflexivity|].
    replace (tau * (tau / (tau * tau))) with 1 by (field; lra). nra.
Qed.

Lemma cc_step_ok T tau :
  tau * tau = T ->
  step_ok T 0 tau (tau / (N + 1)) (2 / (N + 1)) (N * N / (N * N - 1)).
Proof.
  pose proof N_ge2 as HN. clear Hc Hn. generalize dependent N. clear. intros N HN <-.
  assert (0 < N * N - 1) by nra.
  assert (E1 : 1 - 2 / (N + 1) = (N - 1) / (N + 1)) by (field; lra).
  assert (0 < (N - 1) / (N + 1)).
  { apply Rmult_lt_0_compat; [lra|]. apply Rinv_0_lt_compat; lra. }
  assert (0 < 2 / (N + 1)).
  { apply Rmult_lt_0_compat; [lra|]. apply Rinv_0_lt_compat; lra. }
  split; [lra|]. split; [|split; [|split]].
  - apply Rmult_le_pos; [nra|]. left; apply Rinv_0_lt_compat; lra.
  - field; lra.
  - field; split; nra.
  - intros E; lra.
Qed.

(** Parallel cut parameters. *)
Lemma par_step_ok T b0 b1 xi sigma delta :
  0 < T -> b0 <= b1 -> b1 * b1 <= T -> - T <= N * (b0 * b1) -> b0 + b1 <> 0 ->
  0 <= xi ->
  xi * xi = (1 - b0 * b0 / T) * (1 - b1 * b1 / T)
            + (N / 2 * ((b0 + b1) / T) * (b1 - b0)) * (N / 2 * ((b0 + b1) / T) * (b1 - b0)) ->
  sigma = N / (N + 1)
          + (1 + b0 * b1 / T - xi) / ((b0 + b1) / T * ((b0 + b1) / 2) * (N + 1)) ->
  delta = N * N / (N * N - 1)
          * ((1 - b0 * b0 / T + (1 - b1 * b1 / T)) / 2 + xi / N) ->
  step_ok T b0 b1 (sigma * ((b0 + b1) / 2)) sigma delta.
Proof.
  pose proof N_ge2 as HN. clear Hc Hn. generalize dependent N. clear. intros N HN.
  intros HT Hb Hb1 Hnp Hs Hxi Exi Esig Edel.
  assert (0 < N * N - 1) as HNN by nra.
  assert (0 < N + 1) by lra.
  set (s := b0 + b1) in *. set (p := b0 * b1) in *. set (d := b1 - b0) in *.
  assert (Hss : 0 < s * s) by nra.
  set (X := T * xi). assert (0 <= X) by (unfold X; nra).
  assert (Exi2 : 4 * (X * X) = 4 * ((T - b0 * b0) * (T - b1 * b1)) + N * N * (s * s) * (d * d)).
  { unfold X. replace (4 * (T * xi * (T * xi))) with (4 * (T * T) * (xi * xi)) by ring.
    rewrite Exi. field. lra. }
  assert (Esig2 : sigma * ((N + 1) * (s * s)) = N * (s * s) + 2 * T + 2 * p - 2 * X).
  { rewrite Esig. unfold X. field. repeat split; lra. }
  assert (Edel2 : delta * (2 * T * (N * N - 1)) = N * N * (2 * T - b0 * b0 - b1 * b1) + 2 * N * X).
  { rewrite Edel. unfold X. field. repeat split; lra. }
  assert (Hsum : b0 * b0 + b1 * b1 = s * s - 2 * p) by (unfold s, p; ring).
  assert (Hdd : d * d = s * s - 4 * p) by (unfold s, p, d; ring).
  assert (Hprod : (T - b0 * b0) * (T - b1 * b1) = T * T - T * (s * s - 2 * p) + p * p)
    by (unfold s, p; ring).
  (* sigma >= 0 *)
  assert (Hs0 : 2 * X <= N * (s * s) + 2 * T + 2 * p).
  { assert (0 <= T + p) by nra.
    apply Rsqr_incr_0; [unfold Rsqr|nra|nra].
    replace (2 * X * (2 * X)) with (4 * (X * X)) by ring. rewrite Exi2, Hprod, Hdd.
    assert (0 <= s * s * (N + 1) * (T + N * p)); [|nra].
    apply Rmult_le_pos; [nra|nra]. }
  (* sigma <= 1 *)
  assert (Hs1 : 2 * T - b0 * b0 - b1 * b1 <= 2 * X /\
               (2 * T - b0 * b0 - b1 * b1 = 2 * X -> d = 0)).
  { assert (Hge : 0 <= (N * N - 1) * ((s * s) * (d * d))).
    { apply Rmult_le_pos; [lra|]. apply Rmult_le_pos; nra. }
    assert (Hsq : (2 * X) * (2 * X)
                  = (2 * T - b0 * b0 - b1 * b1) * (2 * T - b0 * b0 - b1 * b1)
                    + (N * N - 1) * ((s * s) * (d * d))).
    { replace (2 * X * (2 * X)) with (4 * (X * X)) by ring. rewrite Exi2.
      unfold s, d; ring. }
    split.
    - destruct (Rle_dec 0 (2 * T - b0 * b0 - b1 * b1)) as [L|L]; [|lra].
      apply Rsqr_incr_0; unfold Rsqr; lra.
    - intros E. rewrite <- E in Hsq.
      assert ((N * N - 1) * ((s * s) * (d * d)) = 0) as E0 by lra.
      assert ((s * s) * (d * d) = 0) as E1 by nra.
      assert (d * d = 0) by nra. nra. }
  destruct Hs1 as [Hs1 Hs1e].
  assert (Hden : 0 < (N + 1) * (s * s)) by (apply Rmult_lt_0_compat; assumption).
  assert (Hsig0 : 0 <= sigma).
  { apply Rmult_le_reg_r with ((N + 1) * (s * s)); [assumption|]. rewrite Esig2. lra. }
  assert (Hsig1 : sigma <= 1).
  { apply Rmult_le_reg_r with ((N + 1) * (s * s)); [assumption|]. rewrite Esig2. nra. }
  assert (Hdel : 0 <= delta).
  { apply Rmult_le_reg_r with (2 * T * (N * N - 1)); [nra|]. rewrite Edel2, Rmult_0_l.
    destruct (Rle_dec 0 (T - b0 * b0)) as [L|L]; [nra|].
    destruct (Rle_dec 0 (2 * T - b0 * b0 - b1 * b1)) as [L2|L2]; [nra|].
    assert (N * (b0 * b0 + b1 * b1 - 2 * T) <= 2 * X); [|nra].
    apply Rsqr_incr_0; unfold Rsqr; [|nra|nra].
    replace (2 * X * (2 * X)) with (4 * (X * X)) by ring. rewrite Exi2.
    assert (0 <= (N * N - 1) * ((b0 * b0 - T) * (T - b1 * b1))).
    { apply Rmult_le_pos; [lra|]. apply Rmult_le_pos; lra. }
    unfold s, d. nra. }
  split; [lra|]. split; [assumption|]. split; [unfold s; field|]. split.
  - (* the constant-term identity, multiplied out *)
    assert (Hgoal : sigma * (s / 2) * (sigma * (s / 2)) - sigma * b0 * b1
                    - (1 - sigma) * T * (delta - 1) = 0); [|lra].
    set (G := _ - _ - _).
    assert (G * (4 * ((N + 1) * (s * s)) * ((N * N - 1) * ((N + 1) * (s * s)))) = 0) as HG.
    { unfold G.
      replace ((sigma * (s / 2) * (sigma * (s / 2)) - sigma * b0 * b1 - (1 - sigma) * T * (delta - 1))
         * (4 * ((N + 1) * (s * s)) * ((N * N - 1) * ((N + 1) * (s * s)))))
        with ((N * N - 1) * (s * s) * (sigma * ((N + 1) * (s * s))) * (sigma * ((N + 1) * (s * s)))
              - 4 * (N * N - 1) * p * (sigma * ((N + 1) * (s * s))) * ((N + 1) * (s * s))
              - 2 * ((N + 1) * (s * s) - sigma * ((N + 1) * (s * s))) * ((N + 1) * (s * s))
                  * (delta * (2 * T * (N * N - 1)) - 2 * T * (N * N - 1)))
        by (unfold p; field).
      rewrite Esig2, Edel2.
      set (ss := s * s) in *.
      replace (2 * T - b0 * b0 - b1 * b1) with (2 * T - (ss - 2 * p)) by lra.
      rewrite Hprod, Hdd in Exi2.
      assert (EX : X * X = (T * T - T * (ss - 2 * p) + p * p) + N * N * ss * (ss - 4 * p) / 4) by lra.
      clearbody ss p X.
      match goal with |- ?L = 0 => 
        replace L with (L - 0) by ring end.
      ring_simplify. 
      replace (X ^ 2) with (X * X) by ring. rewrite EX. field. }
    assert (0 < 4 * ((N + 1) * (s * s)) * ((N * N - 1) * ((N + 1) * (s * s)))) as HP.
    { apply Rmult_lt_0_compat; [nra|]. apply Rmult_lt_0_compat; nra. }
    destruct (Rmult_integral _ _ HG); [assumption|lra].
  - intros E. rewrite E in Esig2.
    assert (d = 0) as Ed by (apply Hs1e; nra).
    assert (b0 = b1) as Eb by (unfold d in Ed; lra). split; [assumption|].
    assert (2 * X = 2 * T - b0 * b0 - b1 * b1) as EX by nra.
    assert (delta * (2 * T * (N * N - 1)) = (N * N + N) * (2 * T - 2 * (b0 * b0))) as Ed2.
    { rewrite Edel2. rewrite <- Eb in *. nra. }
    assert (T - b0 * b0 >= 0) by (rewrite Eb; lra).
    assert (T * delta * (N - 1) = N * (T - b0 * b0)) as Ed3.
    { apply Rmult_eq_reg_r with (2 * (N + 1)); [|lra].
      transitivity (delta * (2 * T * (N * N - 1))); [ring|]. rewrite Ed2. ring. }
    apply Rmult_le_reg_r with (N - 1); [lra|]. rewrite Ed3. nra.
Qed.

Lemma sqrt_sq T : 0 <= T -> sqrt T * sqrt T = T.
Proof. apply sqrt_sqrt. Qed.

Lemma dc_formula_step_ok T b rho sigma delta :
  0 <= T -> b <= sqrt T -> dc_formula N T b rho sigma delta ->
  step_ok T b (sqrt T) rho sigma delta.
Proof.
  intros HT Hb [(-> & -> & -> & ->) | (Hb0 & HT0 & Hg & Er & Es & Ed)].
  - apply cc_step_ok. apply sqrt_sq; assumption.
  - eapply dc_step_ok; eauto; [apply sqrt_lt_R0; assumption|apply sqrt_sq; assumption|lra].
Qed.

Lemma par_formula_step_ok T b0 b1 rho sigma delta :
  par_formula N T b0 b1 rho sigma delta -> step_ok T b0 b1 rho sigma delta.
Proof.
  intros (HT & Hb & H1 & Hp & Hs & xi & Hx & Ex & Es & Ed & ->).
  eapply par_step_ok; eauto.
Qed.

Lemma calc_dc_spec T b T' out :
  0 <= T -> calc_dc e T b = Ok (T', out) ->
  T' = T /\
  match out with
  | Stop nosoln => sqrt T < b
  | Stop noeffect => sqrt T + N * b < 0
  | Stop _ => False
  | Go rho sigma delta => b <= sqrt T /\ dc_formula N T b rho sigma delta
  end.
Proof.
  pose proof N_ge2 as HN.
  intros HT. unfold calc_dc. rewrite rsqrt_ok by assumption. cbn [bind].
  change (nofnat (e_n e)) with N.
  destruct Hc as (E1 & E2 & E3 & E4 & E5 & E6). fold N in E1, E2, E3, E4, E5, E6.
  destruct (nltb _ _) eqn:B1.
  { intros H; injection H as <- <-. apply Rltb_true in B1. cbn in B1. split; [reflexivity|lra]. }
  apply Rltb_false in B1. cbn [nsub RNum nzero] in B1.
  destruct (neqb b _) eqn:B2.
  { apply Reqb_true in B2. cbn in B2. subst b. unfold calc_cc.
    rewrite E1, E4, E5, rdiv_ok by lra. cbn [bind].
    intros H; injection H as <- <-. split; [reflexivity|].
    split; [lra|]. left. auto. }
  apply Reqb_false in B2. cbn [RNum nzero] in B2.
  destruct (nltb _ _) eqn:B3.
  { intros H; injection H as <- <-. apply Rltb_true in B3. cbn in B3. auto. }
  apply Rltb_false in B3. cbn [nadd nmul RNum nzero] in B3.
  intros H; inv_ok H. injection H as <- <-. split; [reflexivity|].
  rewrite E1, E4 in *. cbn [nadd nmul nsub none RNum] in *.
  split; [lra|]. right. 
  assert (0 < T).
  { destruct (Rle_lt_or_eq_dec 0 T HT); [assumption|]. congruence. }
  repeat split; auto. lra.
Qed.

Lemma ll_cc_formula T b1 :
  0 < T -> 0 <= b1 -> b1 * b1 <= T -> forall out, calc_ll_cc e b1 (b1 * (b1 / T)) = Ok out ->
  exists rho sigma delta, out = Go rho sigma delta /\ par_formula N T 0 b1 rho sigma delta.
Proof.
  pose proof N_ge2 as HN. intros HT Hb0 Hb out H. unfold calc_ll_cc in H. inv_ok H.
  injection H as <-. do 3 eexists; split; [reflexivity|].
  destruct Hc as (E1 & E2 & E3 & E4 & E5 & E6). fold N in E1, E2, E3, E4, E5, E6.
  change (nofnat (e_n e)) with N in *. change two with 2 in *.
  rewrite E2, E4, E5, E6 in *. cbn [nadd nmul nsub none RNum] in *.
  match goal with Hx : 0 <= 1 - _ + _ |- _ => rename Hx into Hsq end.
  match goal with Hx : b1 * (b1 / T) <> 0 |- _ => rename Hx into Hne end.
  assert (b1 <> 0) by (intros ->; apply Hne; field; lra).
  fold N.
  repeat split; try lra.
  - exists (sqrt (1 - b1 * (b1 / T) + N / 2 * (b1 * (b1 / T)) * (N / 2 * (b1 * (b1 / T))))).
    split; [apply sqrt_pos|]. split; [rewrite sqrt_sqrt by assumption; field; lra|].
    split; [field; repeat split; lra|]. split; [field; repeat split; nra|field; repeat split; lra].
Qed.

Lemma calc_ll_core_spec T b0 b1 T' out :
  0 <= T -> calc_ll_core e T b0 b1 = Ok (T', out) ->
  T' = T /\ 0 < T /\
  match out with
  | Stop nosoln => sqrt T < b0 \/ b1 < b0
  | Stop noeffect => sqrt T + N * b0 < 0 \/ N * (b0 * b1) < - T
  | Stop _ => False
  | Go rho sigma delta =>
      (b0 <= sqrt T /\ dc_formula N T b0 rho sigma delta /\
       (T < b1 * b1 \/ e_par e = false)) \/
      (par_formula N T b0 b1 rho sigma delta /\ e_par e = true)
  end.
Proof.
  pose proof N_ge2 as HN.
  intros HT H. unfold calc_ll_core in H.
  apply bind_ok in H as (b1t & Hb1t & H). apply rdiv_inv in Hb1t as [HT0 ->].
  assert (0 < T) as HTp by lra.
  change (nofnat (e_n e)) with N in *. change two with 2 in *.
  destruct (orb _ _) eqn:B0.
  { apply calc_dc_spec in H as [-> H]; [|assumption].
    split; [reflexivity|]. split; [assumption|].
    destruct out as [[]|rho sigma delta]; auto. left.
    destruct H as [H1 H2]. split; [assumption|]. split; [assumption|].
    apply orb_true_iff in B0 as [B0|B0]; [left|right].
    - apply Rltb_true in B0. cbn [nadd nmul nsub none nzero RNum] in B0.
      assert (b1 * (b1 / T) * T = b1 * b1) by (field; lra). nra.
    - now apply negb_true_iff in B0. }
  apply orb_false_iff in B0 as [B0 Bp]. apply negb_false_iff in Bp.
  apply Rltb_false in B0. cbn [nadd nmul nsub none nzero RNum] in B0.
  assert (b1 * b1 <= T) as Hb1.
  { assert (b1 * (b1 / T) * T = b1 * b1) by (field; lra). nra. }
  destruct (nltb (nsub b1 b0) nzero) eqn:B1.
  { injection H as <- <-. apply Rltb_true in B1. cbn in B1.
    split; [reflexivity|]. split; [assumption|]. right; lra. }
  apply Rltb_false in B1. cbn [nsub RNum nzero] in B1.
  destruct (neqb b0 nzero) eqn:B2.
  { apply Reqb_true in B2. cbn in B2. subst b0.
    apply bind_ok in H as (r & Hr & H). injection H as <- <-.
    apply ll_cc_formula in Hr as (rho & sigma & delta & -> & HF); try assumption; [|lra].
    split; [reflexivity|]. split; [assumption|]. right; auto. }
  apply Reqb_false in B2. cbn [nzero RNum] in B2.
  rewrite rdiv_ok in H by assumption. cbn [bind] in H.
  destruct (nltb (nmul N _) _) eqn:B3.
  { injection H as <- <-. apply Rltb_true in B3.
    cbn [nadd nmul nsub none nopp nzero RNum] in B3.
    split; [reflexivity|]. split; [assumption|]. right.
    assert (N * (b0 * (b1 / T)) * T = N * (b0 * b1)) by (field; lra). nra. }
  apply Rltb_false in B3. cbn [nadd nmul nsub none nopp nzero RNum] in B3.
  inv_ok H. injection H as <- <-.
  destruct Hc as (E1 & E2 & E3 & E4 & E5 & E6). fold N in E1, E2, E3, E4, E5, E6.
  rewrite E1, E2, E4, E6 in *. cbn [nadd nmul nsub none RNum] in *.
  split; [reflexivity|]. split; [assumption|]. right. split; [|assumption].
  match goal with Hx : 0 <= (1 - _) * _ + _ |- _ => rename Hx into Hsq end.
  match goal with Hx : _ * _ * (N + 1) <> 0 |- _ => rename Hx into Hne end.
  fold N. assert (b0 + b1 <> 0) as Hs.
  { intros E. apply Hne. rewrite E. field. lra. }
  repeat split; try lra.
  - assert (N * (b0 * (b1 / T)) * T = N * (b0 * b1)) by (field; lra). nra.
  - eexists; split; [apply sqrt_pos|]. split; [rewrite sqrt_sqrt by exact Hsq|].
    + field; lra.
    + split; [field; repeat split; lra|]. split; [|reflexivity].
      f_equal. f_equal. f_equal. field. lra.
Qed.
End Calc.
