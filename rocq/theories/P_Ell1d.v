(** Proofs about ell1d. *)
From Coq Require Import Reals Lra Psatz.
From Verif Require Import Base M_Drivers M_Ell S_Drivers S_Ell1d.
Local Open Scope R_scope.

Lemma nabs_R (x : R) : nabs (A := R) x = Rabs x.
Proof. reflexivity. Qed.

Lemma tau_abs r g : 0 <= r -> Rabs (r * g) = r * Rabs g.
Proof. intros H. rewrite Rabs_mult, (Rabs_right r) by lra. reflexivity. Qed.

(** what update does, for g <> 0 *)
Lemma ell1d_update_spec e g b :
  0 <= i_r e -> g <> 0 ->
  exists e' s, ell1d_update e (g, b) = Ok (e', (s, Rabs (i_r e * g) * Rabs (i_r e * g))) /\
  0 <= i_r e' /\
  ((s = nosoln /\ i_r e * Rabs g < b /\ e' = e) \/
   (s = noeffect /\ b < - (i_r e * Rabs g) /\ e' = e) \/
   (s = success /\ - (i_r e * Rabs g) <= b <= i_r e * Rabs g /\
    (0 < g -> i_xc e' - i_r e' = i_xc e - i_r e /\ i_xc e' + i_r e' = i_xc e - b / g) /\
    (g < 0 -> i_xc e' - i_r e' = i_xc e - b / g /\ i_xc e' + i_r e' = i_xc e + i_r e))).
Proof.
  intros Hr Hg. cbn [ell1d_update]. rewrite nabs_R.
  change (nmul (i_r e) g) with (i_r e * g).
  change (nzero (A := R)) with 0. change (two (A := R)) with 2.
  assert (Ht : 0 <= i_r e * Rabs g) by (pose proof (Rabs_pos g); nra).
  assert (Hab : 0 < Rabs g) by (apply Rabs_pos_lt; assumption).
  destruct (neqb b 0) eqn:B0.
  { apply Reqb_true in B0. subst b. rewrite rdiv_ok by lra. cbn [bind].
    eexists _, _; split; [reflexivity|]. cbn [i_r i_xc nadd nopp RNum].
    split; [lra|]. right; right. split; [reflexivity|]. split; [lra|].
    replace (0 / g) with 0 by (field; assumption).
    destruct (nltb 0 g) eqn:Bg; [apply Rltb_true in Bg|apply Rltb_false in Bg];
      split; intros; try lra. }
  apply Reqb_false in B0.
  rewrite (tau_abs _ _ Hr).
  destruct (nltb (i_r e * Rabs g) b) eqn:B1.
  { apply Rltb_true in B1. eexists _, _; split; [reflexivity|]. split; [assumption|]. auto. }
  apply Rltb_false in B1.
  destruct (nltb b _) eqn:B2.
  { apply Rltb_true in B2. cbn in B2. eexists _, _; split; [reflexivity|].
    split; [assumption|]. auto. }
  apply Rltb_false in B2. cbn in B2.
  rewrite rdiv_ok by assumption. cbn [bind]. rewrite rdiv_ok by lra. cbn [bind].
  eexists _, _; split; [reflexivity|]. cbn [i_r i_xc nadd nsub nopp RNum].
  assert (Hbg : - i_r e <= b / g <= i_r e).
  { assert (E : Rabs (b / g) <= i_r e).
    { unfold Rdiv. rewrite Rabs_mult, Rabs_inv.
      apply Rmult_le_reg_r with (Rabs g); [assumption|].
      rewrite Rmult_assoc, Rinv_l, Rmult_1_r by lra.
      apply Rabs_le. lra. }
    split; [|exact (Rle_trans _ _ _ (Rle_abs _) E)].
    apply Ropp_le_cancel. rewrite Ropp_involutive.
    refine (Rle_trans _ _ _ (Rle_abs _) _). rewrite Rabs_Ropp. exact E. }
  destruct (nltb 0 g) eqn:Bg; [apply Rltb_true in Bg|apply Rltb_false in Bg].
  - split; [lra|]. right; right. split; [reflexivity|]. split; [lra|].
    split; intros; lra.
  - split; [lra|]. right; right. split; [reflexivity|]. split; [lra|].
    split; intros; lra.
Qed.

Lemma sat_range e g z :
  0 <= i_r e -> mem_itv (tt, e) z -> - (i_r e * Rabs g) <= g * (z - i_xc e) <= i_r e * Rabs g.
Proof.
  unfold mem_itv; cbn. intros Hr Hz.
  assert (E : Rabs (g * (z - i_xc e)) <= i_r e * Rabs g).
  { rewrite Rabs_mult, Rmult_comm. apply Rmult_le_compat_r; [apply Rabs_pos|].
    apply Rabs_le. lra. }
  split; [|exact (Rle_trans _ _ _ (Rle_abs _) E)].
  apply Ropp_le_cancel. rewrite Ropp_involutive.
  refine (Rle_trans _ _ _ (Rle_abs _) _). rewrite Rabs_Ropp. exact E.
Qed.

Lemma sat_bound g b z x : g <> 0 ->
  (sat_itv x (g, b) z <-> (0 < g -> z <= x - b / g) /\ (g < 0 -> x - b / g <= z)).
Proof.
  intros Hg. unfold sat_itv; cbn.
  assert (E : g * (z - x) + b = g * (z - (x - b / g))) by (field; assumption).
  rewrite E. set (y := x - b / g). clearbody y.
  destruct (Rdichotomy _ _ Hg); split; intros H'; try split; try intros; try lra; nra.
Qed.

Lemma ell1d_update_exact e g b :
  0 <= i_r e -> g <> 0 ->
  exists e' s q, ell1d_update e (g, b) = Ok (e', (s, q)) /\ 0 <= i_r e' /\
   match s with
   | nosoln => forall z, mem_itv (tt, e) z -> ~ sat_itv (i_xc e) (g, b) z
   | success => (exists z, mem_itv (tt, e) z /\ sat_itv (i_xc e) (g, b) z) /\
       forall z, mem_itv (tt, e') z <-> mem_itv (tt, e) z /\ sat_itv (i_xc e) (g, b) z
   | noeffect => e' = e /\ forall z, mem_itv (tt, e) z -> sat_itv (i_xc e) (g, b) z
   | smallenough => False
   end.
Proof.
  intros Hr Hg. destruct (ell1d_update_spec e g b Hr Hg) as (e' & s & Hu & Hr' & H).
  exists e', s. eexists. split; [exact Hu|]. split; [assumption|].
  destruct H as [(-> & Hb & ->)|[(-> & Hb & ->)|(-> & Hb & H1 & H2)]].
  - intros z Hz Hsat. pose proof (sat_range e g z Hr Hz). unfold sat_itv in Hsat; cbn in Hsat. lra.
  - split; [reflexivity|]. intros z Hz. pose proof (sat_range e g z Hr Hz).
    unfold sat_itv; cbn. lra.
  - assert (Hiff : forall z, mem_itv (tt, e') z <-> mem_itv (tt, e) z /\ sat_itv (i_xc e) (g, b) z).
    { intros z. rewrite (sat_bound g b z (i_xc e) Hg). unfold mem_itv; cbn.
      assert (Hbg : - i_r e <= b / g <= i_r e).
      { assert (0 < Rabs g) by (apply Rabs_pos_lt; assumption).
        destruct (Rdichotomy _ _ Hg) as [L|L].
        - rewrite Rabs_left in Hb by assumption. 
          assert (E : b = b / g * g) by (field; assumption).
          set (y := b / g) in *. clearbody y. subst b. nra.
        - rewrite Rabs_right in Hb by lra.
          assert (E : b = b / g * g) by (field; assumption).
          set (y := b / g) in *. clearbody y. subst b. nra. }
      destruct (Rdichotomy _ _ Hg) as [L|L].
      - destruct (H2 L) as [E1 E2]. rewrite E1, E2. split.
        + intros Hz. split; [lra|]. split; intros; lra.
        + intros [Hz [_ Hz']]. specialize (Hz' L). lra.
      - destruct (H1 L) as [E1 E2]. rewrite E1, E2. split.
        + intros Hz. split; [lra|]. split; intros; lra.
        + intros [Hz [Hz' _]]. specialize (Hz' L). lra. }
    split; [|assumption]. exists (i_xc e'). apply Hiff. unfold mem_itv; cbn. lra.
Qed.

(** as a search space; cuts with g = 0, beta = 0 are excluded *)
Definition sat_itv_g (x : R) (c : R * R) (z : R) : Prop := fst c <> 0 /\ sat_itv x c z.

Lemma ell1d_update_g0 e b e' s q :
  0 <= i_r e -> ell1d_update e (0, b) = Ok (e', (s, q)) ->
  0 <= i_r e' /\ (s = nosoln \/ s = success \/ s = noeffect /\ e' = e).
Proof.
  intros Hr. cbn [ell1d_update]. rewrite nabs_R.
  change (nzero (A := R)) with 0. change (two (A := R)) with 2.
  destruct (neqb b 0) eqn:B0.
  - rewrite rdiv_ok by lra. cbn [bind]. intros E; injection E as <- <- <-. cbn. split; [lra|auto].
  - destruct (nltb _ b); [intros E; injection E as <- <- <-; auto|].
    destruct (nltb b _); [intros E; injection E as <- <- <-; auto|].
    cbn. destruct (Req_EM_T 0 0); [discriminate|lra].
Qed.

Lemma ell1d_space_sound : space_sound ell1d_space itv_wf mem_itv sat_itv_g.
Proof.
  intros [[] e] [g b] [[] e'] s q Hw H. unfold itv_wf in *; cbn [snd] in *.
  cbn [sp_update ell1d_space snd] in H.
  apply bind_ok in H as ([e1 r1] & Hu & E). injection E as -> ->.
  unfold centre; cbn [ell1d_space sp_deref sp_xc snd].
  destruct (Req_dec g 0) as [->|Hg].
  - apply ell1d_update_g0 in Hu as [Hr H]; [|assumption]. split; [assumption|].
    destruct H as [->|[->|[-> ->]]]; [intros z _ [X _]|intros z _ [X _]|auto]; cbn in X; lra.
  - destruct (ell1d_update_exact e g b Hw Hg) as (e2 & s2 & q2 & Hu2 & Hr & Hm).
    rewrite Hu in Hu2. injection Hu2 as -> -> ->. split; [assumption|].
    destruct s2; auto.
    + intros z Hz [_ Hs]. apply Hm; auto.
    + intros z Hz [_ Hs]. exact (Hm z Hz Hs).
    + destruct Hm as [-> _]. auto.
Qed.

Lemma ell1d_init_spec l u : exists e, ell1d_init l u = Ok e /\
  forall z, mem_itv (tt, e) z <-> l <= z <= u.
Proof.
  unfold ell1d_init. change (two (A := R)) with 2. rewrite rdiv_ok by lra. cbn [bind].
  eexists; split; [reflexivity|]. intros z; unfold mem_itv; cbn. split; intros; lra.
Qed.
