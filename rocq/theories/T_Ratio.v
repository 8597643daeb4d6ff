(** Minimum cycle ratio by bisection: convergence of cutting_plane_dc over ell1d *)
From Coq Require Import Reals Lra QArith.
From Verif Require Import Base M_Drivers S_Drivers P_Drivers M_Ell S_LinAlg P_LinAlg S_Ell S_Ell1d P_Ell1d M_Net S_Net P_Net P_Ell3 P_Lmi2 T_Drivers T_Ell T_Net.
Local Close Scope Q_scope.
Local Open Scope R_scope.

(** the oracle always answers, with one of three cuts *)
Lemma ratio_cut g cost time u x t : graph_ok g -> exists u' gr f t1,
  cycle_ratio_call (cycles_of g) cost time u x t = Ok (u', ((gr, f), t1)) /\ 0 <= f /\
  ((t1 = None /\ gr = -1 /\ exists t0, t = Some t0 /\ f = t0 - x) \/
   (t1 = None /\ 0 < f /\ exists c, simple_cycle (g_edges g) c /\ gr = total time c) \/
   (t1 = Some (Some x) /\ gr = -1 /\ f = 0)).
Proof.
  intros Hg. unfold cycle_ratio_call. change (nleb (A := R)) with Rleb.
  set (b := match t with Some t0 => Rleb nzero (nsub t0 x) | None => false end).
  destruct b eqn:B.
  - destruct t as [t0|]; [|discriminate]. unfold b in B. apply Rleb_true in B. cbn in B.
    do 4 eexists. split; [reflexivity|]. split; [cbn; lra|]. left. split; [reflexivity|]. split; [cbn; lra|].
    exists t0. split; [reflexivity|]. cbn. lra.
  - set (w := fun e => cost e - time e * x).
    assert (Hw : forall e, In e (g_edges g) -> ratio_eval cost time e x = Ok (w e)) by (intros; reflexivity).
    destruct (find_neg_cycle_spec g Hg (fun e => ratio_eval cost time e x) w Hw u) as (c & u1 & Hf & H1 & H2).
    unfold network_call, cycles_of. rewrite Hf. cbn [bind].
    destruct c as [|e0 c0].
    + cbn [bind]. do 4 eexists. split; [reflexivity|]. split; [cbn; lra|]. right. right. cbn. repeat split; lra.
    + set (c := e0 :: c0) in *. assert (Hne : c <> []) by discriminate. destruct (H2 Hne) as [Hc Ht].
      assert (Hi : incl c (g_edges g)) by (apply cycle_incl, Hc).
      rewrite (lsum_total w _ (g_edges g) Hw) by assumption. cbn [bind].
      rewrite (lsum_total (fun e => - time e) _ (g_edges g)) by (assumption || reflexivity). cbn [bind].
      do 4 eexists. split; [reflexivity|]. 
      change (nopp (nzero + total w c)) with (- (0 + total w c)).
      split; [lra|]. right. left. split; [reflexivity|]. split; [lra|]. exists (rev c). split; [exact Hc|].
      rewrite total_rev. clearbody c. cbn.
      assert (E : total (fun e => - time e) c = - total time c).
      { clear. induction c as [|e c IH]; cbn [total]; [lra|]. rewrite IH. lra. }
      rewrite E. lra.
Qed.

(** one bisection step *)
Lemma ell1d_step e gr f : 0 <= i_r e -> gr <> 0 -> 0 <= f -> exists e' s,
  ell1d_update e (gr, f) = Ok (e', (s, (i_r e * gr)²)) /\ 0 <= i_r e' /\
  ((s = nosoln) \/
   (s = success /\ i_r e' <= i_r e / 2 /\
    (0 < gr -> i_xc e' - i_r e' = i_xc e - i_r e) /\
    (gr < 0 -> i_xc e' - i_r e' = i_xc e - f / gr))).
Proof.
  intros Hr Hg Hf. destruct (ell1d_update_spec e gr f Hr Hg) as (e' & s & Hu & Hr' & H).
  exists e', s. split.
  { rewrite Hu. replace (Rabs (i_r e * gr) * Rabs (i_r e * gr)) with (i_r e * gr)²; [reflexivity|]. rewrite Rsqr_abs. reflexivity. }
  split; [exact Hr'|].
  destruct H as [(-> & Hb & ->)|[(-> & Hb & ->)|(-> & Hb & H1 & H2)]]; [left; reflexivity| |].
  - exfalso. pose proof (Rabs_pos gr). nra.
  - right. split; [reflexivity|]. destruct (Rdichotomy _ _ Hg) as [L|L].
    + destruct (H2 L) as [E1 E2]. split; [|split; [lra|intros _; exact E1]].
      assert (f / gr <= 0). { unfold Rdiv. pose proof (Rinv_lt_0_compat _ L). nra. } lra.
    + destruct (H1 L) as [E1 E2]. split; [|split; [intros _; exact E1|lra]].
      assert (0 <= f / gr). { unfold Rdiv. pose proof (Rinv_0_lt_compat _ L). nra. } lra.
Qed.

(** the lower end of the values that are still possible *)
Definition lower_end (l : R) (t : option R) : R := match t with Some t => Rmax l t | None => l end.
Lemma lower_end_ge l t : l <= lower_end l t.
Proof. destruct t; cbn; [apply Rmax_l|lra]. Qed.

Section Run.
Variables (g : digraph) (cost time : edge -> R) (lo T : R).
Hypothesis Hg : graph_ok g.
Hypothesis Hlo : 0 < lo.
Hypothesis Ht : forall c, simple_cycle (g_edges g) c -> lo <= total time c <= T.
Notation call := (cycle_ratio_call (cycles_of g) cost time).

(** one iteration of the driver *)
Lemma ratio_step l u e t : 0 <= i_r e -> i_xc e - i_r e <= lower_end l t ->
  exists u1 c t1 e1 s q, call u (i_xc e) t = Ok (u1, (c, t1)) /\
    sp_update ell1d_space (tt, e) c = Ok ((tt, e1), (s, q)) /\ 0 <= i_r e1 /\
    (Rmin 1 lo * i_r e)² <= q <= (Rmax 1 T * i_r e)² /\
    ((s = nosoln) \/
     (s = success /\ i_r e1 <= i_r e / 2 /\ i_xc e1 - i_r e1 <= lower_end l (best t t1))).
Proof.
  intros Hr Hl. destruct (ratio_cut g cost time u (i_xc e) t Hg) as (u1 & gr & f & t1 & Hc & Hf & Hk).
  assert (Hgr : gr <> 0 /\ Rmin 1 lo <= Rabs gr <= Rmax 1 T).
  { destruct Hk as [(_ & -> & _)|[(_ & _ & c & Hs & ->)|(_ & -> & _)]].
    - replace (Rabs (-1)) with 1 by (rewrite Rabs_left; lra). split; [lra|]. split; [apply Rmin_l|apply Rmax_l].
    - specialize (Ht c Hs). rewrite Rabs_pos_eq by lra. split; [lra|]. split.
      + eapply Rle_trans; [apply Rmin_r|lra].
      + eapply Rle_trans; [|apply Rmax_r]; lra.
    - replace (Rabs (-1)) with 1 by (rewrite Rabs_left; lra). split; [lra|]. split; [apply Rmin_l|apply Rmax_l]. }
  destruct Hgr as [Hgr Ha].
  destruct (ell1d_step e gr f Hr Hgr Hf) as (e1 & s & Hu & Hr1 & Hs).
  exists u1, (gr, f), t1, e1, s, (i_r e * gr)². split; [exact Hc|].
  split; [cbn [sp_update ell1d_space snd]; rewrite Hu; reflexivity|]. split; [exact Hr1|]. split.
  { rewrite (Rsqr_abs (i_r e * gr)), Rabs_mult, (Rabs_pos_eq (i_r e)) by assumption.
    assert (0 < Rmin 1 lo) by (apply Rmin_pos; lra).
    assert (0 < Rmax 1 T) by (eapply Rlt_le_trans; [|apply Rmax_l]; lra).
    pose proof (Rabs_pos gr).
    split; apply Rsqr_incr_1; nra. }
  destruct Hs as [->|(-> & H1 & H2 & H3)]; [left; reflexivity|]. right. split; [reflexivity|]. split; [exact H1|].
  destruct Hk as [(-> & -> & t0 & -> & ->)|[(-> & _ & c & Hs & ->)|(-> & -> & ->)]]; cbn [best].
  - rewrite H3 by lra. replace (i_xc e - (t0 - i_xc e) / -1) with t0 by field. cbn. apply Rmax_r.
  - rewrite H2; [exact Hl|]. specialize (Ht c Hs). lra.
  - rewrite H3 by lra. replace (i_xc e - 0 / -1) with (i_xc e) by field. cbn. apply Rmax_r.
Qed.

(** the driver answers, and either no better value is left or the interval has shrunk to
    the length announced *)
Lemma ratio_loop tneq tol t0 l : forall k n u e t xb, 0 <= i_r e -> i_xc e - i_r e <= lower_end l t ->
  exists tr u' e' xb' t' info,
    dc_loop ell1d_space Rltb tneq call k n tol t0 u (tt, e) t xb = Ok (tr, u', (tt, e'), (xb', t', info)) /\
    num_iters info = (n + length tr)%nat /\
    (cstatus info = nosoln \/
     ((cstatus info = success /\ length tr = k \/
       cstatus info = smallenough /\ (Rmin 1 lo * (2 * i_r e'))² < tol) /\
      i_r e' <= i_r e / 2 ^ length tr /\ i_xc e' - i_r e' <= lower_end l t')) /\
    (forall j, (j < length tr)%nat -> (S j < length tr)%nat \/ cstatus info = success ->
       tol <= (Rmax 1 T * (i_r e / 2 ^ j))²).
Proof.
  induction k as [|k IH]; intros n u e t xb Hr Hl.
  - do 6 eexists. split; [reflexivity|]. cbn [cstatus num_iters length pow]. split; [lia|]. split; [|intros; lia].
    right. split; [left; split; reflexivity|]. split; [lra|exact Hl].
  - destruct (ratio_step l u e t Hr Hl) as (u1 & c & t1 & e1 & s & q & Hc & Hu & Hr1 & Hq & Hs).
    cbn [dc_loop]. change (centre ell1d_space (tt, e)) with (i_xc e). rewrite Hc. cbn [bind]. rewrite Hu. cbn [bind].
    destruct Hs as [->|(-> & Hh & Hl1)]; cbn [status_eqb negb].
    + do 6 eexists. split; [reflexivity|]. cbn [cstatus num_iters length]. split; [lia|]. split; [left; reflexivity|].
      intros j Hj [Hj2|Hj2]; [lia|discriminate].
    + destruct (Rltb q tol) eqn:B.
      * apply Rltb_true in B. do 6 eexists. split; [reflexivity|]. cbn [cstatus num_iters length]. split; [lia|]. split.
        -- right. split; [right; split; [reflexivity|]|].
           ++ eapply Rle_lt_trans; [|exact B]. eapply Rle_trans; [|apply (proj1 Hq)].
              assert (0 < Rmin 1 lo) by (apply Rmin_pos; lra). apply Rsqr_incr_1; nra.
           ++ split; [cbn [pow]; lra|exact Hl1].
        -- intros j Hj [Hj2|Hj2]; [lia|discriminate].
      * apply Rltb_false in B.
        destruct (IH (n + 1)%nat u1 e1 (match t1 with Some t1 => t1 | None => t end)
          (match t1 with Some _ => Some (sp_xc ell1d_space (tt, e)) | None => xb end) Hr1 Hl1) as
          (tr & u2 & e2 & xb2 & t2 & info & Hrun & Hn & Hst & Hmany).
        do 6 eexists. rewrite Hrun. cbn [bind]. split; [reflexivity|]. cbn [length]. split; [lia|]. split.
        -- destruct Hst as [Hst|(Hst & Hsh & Hl2)]; [left; exact Hst|]. right. split; [|split; [|exact Hl2]].
           ++ destruct Hst as [[? ?]|Hst]; [left; split; [assumption|lia]|right; exact Hst].
           ++ eapply Rle_trans; [exact Hsh|]. cbn [pow].
              assert (0 < 2 ^ length tr) by (apply pow_lt; lra).
              replace (i_r e / (2 * 2 ^ length tr)) with (i_r e / 2 / 2 ^ length tr) by (field; lra).
              apply Rmult_le_compat_r; [left; apply Rinv_0_lt_compat; assumption|exact Hh].
        -- assert (Hm : 1 <= Rmax 1 T) by apply Rmax_l.
           intros [|j] Hj Hj2.
           ++ cbn [pow]. replace (i_r e / 1) with (i_r e) by field. lra.
           ++ eapply Rle_trans; [apply (Hmany j)|].
              ** lia.
              ** destruct Hj2; [left; lia|right; assumption].
              ** assert (0 < 2 ^ j) by (apply pow_lt; lra). cbn [pow].
                 assert (i_r e1 / 2 ^ j <= i_r e / (2 * 2 ^ j)).
                 { replace (i_r e / (2 * 2 ^ j)) with (i_r e / 2 / 2 ^ j) by (field; lra).
                   apply Rmult_le_compat_r; [left; apply Rinv_0_lt_compat; assumption|exact Hh]. }
                 assert (0 <= i_r e1 / 2 ^ j) by (apply Rmult_le_pos; [assumption|left; apply Rinv_0_lt_compat; assumption]).
                 apply Rsqr_incr_1; nra.
Qed.
End Run.

(** ** C139 *)
(** [lower_end (xc - r) t'] is the larger of the lower end of the initial interval and the returned
    value; [lo] and [T] are bounds on the total time of the simple cycles. *)
Theorem C139_cycle_ratio_rate :
  forall g cost time lo T tneq max_it tol u e t,
  graph_ok g -> 0 <= i_r e -> 0 < lo ->
  (forall c, simple_cycle (g_edges g) c -> lo <= total time c <= T) -> (1 <= max_it)%nat ->
  exists tr u' e' xb t' info,
  cutting_plane_dc ell1d_space Rltb tneq (cycle_ratio_call (cycles_of g) cost time) max_it tol u (tt, e) t
    = Ok (tr, u', (tt, e'), (xb, t', info)) /\
  (forall z, i_xc e - i_r e <= z <= i_xc e + i_r e ->
     (forall c, cycle (g_edges g) c -> z * total time c <= total cost c) ->
     z <= lower_end (i_xc e - i_r e) t' + 2 * i_r e / 2 ^ num_iters info /\
     (cstatus info = nosoln -> z <= lower_end (i_xc e - i_r e) t') /\
     (cstatus info = smallenough -> z <= lower_end (i_xc e - i_r e) t' + sqrt tol / Rmin 1 lo)) /\
  (cstatus info = nosoln \/ cstatus info = smallenough \/ cstatus info = success /\ num_iters info = max_it) /\
  (forall k, (Rmax 1 T * (i_r e / 2 ^ k))² < tol -> (k < max_it)%nat ->
     (num_iters info <= S k)%nat /\ cstatus info <> success).
Proof.
  intros g cost time lo T tneq max_it tol u e t Hg Hr Hlo Ht Hmax.
  set (l := i_xc e - i_r e).
  assert (Hl : i_xc e - i_r e <= lower_end l t) by apply lower_end_ge.
  destruct (ratio_loop g cost time lo T Hg Hlo Ht tneq tol t l max_it 0 u e t None Hr Hl) as
    (tr & u' & e' & xb & t' & info & Hrun & Hn & Hst & Hmany).
  assert (Hdc : cutting_plane_dc ell1d_space Rltb tneq (cycle_ratio_call (cycles_of g) cost time) max_it tol u (tt, e) t
    = Ok (tr, u', (tt, e'), (xb, t', info))).
  { unfold cutting_plane_dc. destruct max_it; [lia|]. exact Hrun. }
  exists tr, u', e', xb, t', info. split; [exact Hdc|]. cbn [plus] in Hn.
  destruct (C72_cycle_ratio_end_to_end g cost time tneq max_it tol u e t tr u' e' xb t' info Hg Hr Hdc)
    as (_ & _ & H1 & H2). cbn zeta in H1, H2.
  assert (Hp : 0 < 2 ^ length tr) by (apply pow_lt; lra).
  assert (Hq : 0 <= 2 * i_r e / 2 ^ length tr).
  { apply Rmult_le_pos; [lra|left; apply Rinv_0_lt_compat; assumption]. }
  assert (Hmin : 0 < Rmin 1 lo) by (apply Rmin_pos; lra).
  assert (Hsq : 0 <= sqrt tol / Rmin 1 lo).
  { apply Rmult_le_pos; [apply sqrt_pos|left; apply Rinv_0_lt_compat; assumption]. }
  split; [|split].
  - intros z Hz Hb. rewrite Hn.
    assert (Hcase : z <= lower_end l t' \/ (cstatus info <> nosoln /\ below t' z)).
    { destruct t' as [t'|]; cbn [lower_end below] in *.
      - destruct (Rle_lt_dec z t') as [H|H]; [left; eapply Rle_trans; [exact H|apply Rmax_r]|].
        right. split; [|exact H]. intros Hs. exact (H1 Hs z Hz Hb H).
      - right. split; [|exact I]. intros Hs. exact (H1 Hs z Hz Hb I). }
    destruct Hcase as [Hc|[Hc Hbl]].
    { split; [lra|]. split; intros _; lra. }
    pose proof (H2 Hc z Hz Hb Hbl) as Hz'. destruct Hst as [Hst|(Hst & Hsh & Hle)]; [contradiction|].
    split; [|split; [contradiction|]].
    + replace (2 * i_r e / 2 ^ length tr) with (2 * (i_r e / 2 ^ length tr)) by (field; lra). lra.
    + intros Hs. destruct Hst as [[Hst _]|[_ Hst]]; [congruence|].
      assert (Hr' : 0 <= i_r e') by lra.
      apply (fun H => sqrt_lt_1_alt _ _ (conj (Rle_0_sqr _) H)) in Hst.
      rewrite sqrt_Rsqr in Hst by nra.
      assert (2 * i_r e' <= sqrt tol / Rmin 1 lo).
      { apply (Rmult_le_reg_l (Rmin 1 lo)); [assumption|].
        replace (Rmin 1 lo * (sqrt tol / Rmin 1 lo)) with (sqrt tol) by (field; lra). lra. }
      lra.
  - destruct Hst as [Hst|([[Hst Hk]|[Hst _]] & _)]; auto. right. right. split; [exact Hst|lia].
  - intros k Hk Hkm. rewrite Hn.
    destruct (Nat.le_gt_cases (length tr) (S k)) as [Hle|Hgt].
    + split; [exact Hle|]. intros Hs. 
      destruct Hst as [Hst|([[_ Hlen]|[Hst _]] & _)]; try congruence.
      specialize (Hmany k ltac:(lia) (or_intror Hs)). lra.
    + exfalso. specialize (Hmany k ltac:(lia) (or_introl Hgt)). lra.
Qed.
Print Assumptions C139_cycle_ratio_rate.

(** the triangle and two-cycle of C72 in the interval [-4, 12]: the total times are between 1 and 3,
    the optimum is 2.  23 iterations are enough for tol = 1e-10. *)
Definition rcostR (e : edge) : R := match e with (1, 0)%nat => 5 | _ => 2 end.
Lemma rg_times c : simple_cycle (g_edges rg) c -> 1 <= total (fun _ => 1) c <= 3.
Proof.
  intros [Hc Hnd].
  assert (E : total (fun _ => 1) c = INR (length c)).
  { clear. induction c as [|e c IH]; [reflexivity|]. cbn [total length]. rewrite IH, S_INR. lra. }
  rewrite E. split.
  - destruct Hc as [Hne _]. destruct c; [contradiction|]. cbn [length]. rewrite S_INR. pose proof (pos_INR (length c)). lra.
  - replace 3 with (INR 3) by (cbn; lra). apply le_INR. rewrite <- (map_length snd c).
    apply (NoDup_incl_length (l' := [0; 1; 2]%nat) Hnd). intros v Hv. apply in_map_iff in Hv as ([a b] & <- & Hab).
    pose proof (cycle_incl (g_edges rg) (rev c)) as Hi. rewrite rev_involutive in Hi.
    specialize (Hi Hc (a, b) ltac:(apply in_rev in Hab; exact Hab)). cbn in Hi.
    repeat destruct Hi as [Hi|Hi]; try (injection Hi as <- <-; cbn; tauto); contradiction.
Qed.
Example C139_ex : exists tr u' e' xb t' info,
  cutting_plane_dc ell1d_space Rltb (fun _ _ => true) (cycle_ratio_call (cycles_of rg) rcostR (fun _ => 1)) 50 (1 / 10000000000)
    (fun _ => 0) (tt, {| i_r := 8; i_xc := 4 |}) None = Ok (tr, u', (tt, e'), (xb, t', info)) /\
  (num_iters info <= 23)%nat /\ cstatus info <> success.
Proof.
  destruct (C139_cycle_ratio_rate rg rcostR (fun _ => 1) 1 3 (fun _ _ => true) 50 (1 / 10000000000) (fun _ => 0)
    {| i_r := 8; i_xc := 4 |} None rg_ok ltac:(cbn; lra) ltac:(lra) rg_times ltac:(lia))
    as (tr & u' & e' & xb & t' & info & H & _ & _ & Hk).
  exists tr, u', e', xb, t', info. split; [exact H|]. apply (Hk 22%nat); [|lia].
  rewrite Rmax_right by lra. unfold Rsqr. cbn [i_r pow]. lra.
Qed.
