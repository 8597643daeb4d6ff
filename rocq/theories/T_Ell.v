(** Property theorems about ell and ell1d (C08, C15-C21, C23-C26) and about the drivers
    over them (C03, C05, C06). *)
From Coq Require Import Reals Lra Psatz.
From Verif Require Import Base M_Drivers M_Ell S_LinAlg P_LinAlg S_Drivers S_Ell S_Ell1d
  P_Drivers P_EllCalc P_Ell P_Ell2 P_Ell3 P_Ell4 P_Ell1d.
Local Open Scope R_scope.

(** ** C17 *)
(** The set used below is the one of the docstring: for an invertible Q with inverse P,
    (x-xc)' P (x-xc) <= kappa. *)
Theorem C17_ellipsoid_is_quadratic_form :
  forall n Q P kappa xc x, inverse n Q P ->
  (in_ell n Q kappa xc x <->
   bf n P (fun i => x i - xc i) (fun i => x i - xc i) <= kappa).
Proof. exact in_ell_inverse. Qed.
Print Assumptions C17_ellipsoid_is_quadratic_form.

Theorem C17_deep_cut_keeps :
  forall w e g b w' e' tsq,
  ell_wf e ->
  ell_update (w, e) (g, BScalar b) = Ok ((w', e'), (success, tsq)) ->
  forall z, mem_ell (w, e) z ->
    dot (e_n e) g (fun i => z i - w (e_xc e) i) + b <= 0 ->
    mem_ell (w', e') z.
Proof.
  intros w e g b w' e' tsq Hw H z Hz Hc.
  destruct (ell_space_sound (e_n e) (w, e) (g, BScalar b) (w', e') success tsq) as [_ Hs];
    [split; auto|exact H|]. apply Hs; assumption.
Qed.
Print Assumptions C17_deep_cut_keeps.

(** Every object obtained from the constructor by setting the flags and updating is well-formed. *)
Theorem C17_reachable_well_formed :
  forall val n x e0 par nodefer w cs w' e' l,
  (2 <= n)%nat ->
  match val with VScalar v => 0 <= v | VArray v => forall i, (i < n)%nat -> 0 <= v i end ->
  ell_init val n x = Ok e0 ->
  ell_run (w, ell_set_flags e0 par nodefer) cs = Ok ((w', e'), l) ->
  ell_wf e'.
Proof.
  intros val n x e0 par nodefer w cs w' e' l Hn Hv Hi Hr.
  destruct (ell_init_ok val n x) as (e & He & Hc & En & Ex & _ & _ & Ek & EQ); [lia|].
  rewrite Hi in He. injection He as <-.
  apply ell_run_wf in Hr; [exact Hr|].
  unfold st_wf, ell_wf; cbn. rewrite En. split; [assumption|]. split; [exact Hc|].
  rewrite Ek, EQ. destruct val as [v|v].
  - split; [apply eye_sym|]. split; [apply pd_psd, eye_pd|assumption].
  - split.
    + intros i j _ _. unfold diag. rewrite (Nat.eqb_sym j i).
      destruct (Nat.eqb_spec i j); [subst; reflexivity|reflexivity].
    + split; [|lra]. intros u. unfold bf, dot. apply rsum_nonneg. intros k Hk.
      rewrite diag_mv by assumption. specialize (Hv k Hk). nra.
Qed.
Print Assumptions C17_reachable_well_formed.

Example C17_hypotheses_met :
  exists w' e', ell_wf ball2 /\
    ell_update (zmem, ball2) (ex, BScalar (1 / 4)) = Ok ((w', e'), (success, 1)) /\
    mem_ell (zmem, ball2) (fun i => if Nat.eqb i 0 then - (1 / 2) else 1 / 2) /\
    w' 0%nat 0%nat < 0.
Proof.
  destruct (ball2_update (BScalar (1 / 4))) as (w' & e' & H & Hx & _); [auto|].
  exists w', e'. split; [apply ball2_proper|]. split; [assumption|]. split; [|assumption].
  apply ball2_mem. cbn. lra.
Qed.

(** ** C18 *)
Theorem C18_parallel_cut_keeps :
  forall w e g b0 b1 w' e' tsq,
  ell_wf e ->
  ell_update (w, e) (g, BArr [b0; b1]) = Ok ((w', e'), (success, tsq)) ->
  forall z, mem_ell (w, e) z ->
    dot (e_n e) g (fun i => z i - w (e_xc e) i) + b0 <= 0 ->
    dot (e_n e) g (fun i => z i - w (e_xc e) i) + b1 >= 0 ->
    mem_ell (w', e') z.
Proof.
  intros w e g b0 b1 w' e' tsq Hw H z Hz Hc0 Hc1.
  destruct (ell_space_sound (e_n e) (w, e) (g, BArr [b0; b1]) (w', e') success tsq) as [_ Hs];
    [split; auto|exact H|]. apply Hs; [assumption|]. split; [exact Hc0|].
  apply Rge_le in Hc1. exact Hc1.
Qed.
Print Assumptions C18_parallel_cut_keeps.

Example C18_hypotheses_met :
  exists w' e', ell_wf ball2 /\ e_par ball2 = true /\
    ell_update (zmem, ball2) (ex, BArr [1 / 4; 1 / 2]) = Ok ((w', e'), (success, 1)).
Proof.
  destruct (ball2_update (BArr [1 / 4; 1 / 2])) as (w' & e' & H & Hx & _); [auto|].
  exists w', e'. split; [apply ball2_proper|]. split; [reflexivity|assumption].
Qed.

(** ** C19 *)
Theorem C19_nosoln_means_empty :
  forall w e g beta w' e' tsq,
  ell_wf e ->
  ell_update (w, e) (g, beta) = Ok ((w', e'), (nosoln, tsq)) ->
  forall z, mem_ell (w, e) z ->
    let a := dot (e_n e) g (fun i => z i - w (e_xc e) i) in
    match beta with
    | BScalar b => ~ (a + b <= 0)
    | BArr [] => False
    | BArr [b] => ~ (a + b <= 0)
    | BArr (b0 :: b1 :: _) => ~ (a + b0 <= 0 /\ a + b1 >= 0)
    end.
Proof.
  intros w e g beta w' e' tsq Hw H z Hz a.
  destruct (ell_space_sound (e_n e) (w, e) (g, beta) (w', e') nosoln tsq) as [_ Hs];
    [split; auto|exact H|].
  specialize (Hs z Hz). unfold sat_cut, centre in Hs; cbn [fst snd ell_space sp_deref sp_xc] in Hs.
  fold a in Hs. destruct beta as [b|[|b0 [|b1 bs]]]; auto.
  - intros [H0 H1]. apply Hs. split; [assumption|lra].
Qed.
Print Assumptions C19_nosoln_means_empty.

Theorem C19_scalar_miss_gives_nosoln :
  forall w e g b,
  ell_wf e ->
  (forall z, mem_ell (w, e) z -> ~ (dot (e_n e) g (fun i => z i - w (e_xc e) i) + b <= 0)) ->
  exists tsq, ell_update (w, e) (g, BScalar b) = Ok ((w, e), (nosoln, tsq)).
Proof. intros w e g b Hw H. apply nosoln_complete; [assumption|]. intros z Hz. exact (H z Hz). Qed.
Print Assumptions C19_scalar_miss_gives_nosoln.

Example C19_hypotheses_met :
  ell_wf ball2 /\
  forall z, mem_ell (zmem, ball2) z ->
    ~ (dot (e_n ball2) ex (fun i => z i - zmem (e_xc ball2) i) + 2 <= 0).
Proof.
  split; [apply ball2_proper|]. intros z Hz H. apply ball2_mem in Hz.
  unfold dot, ex, zmem in H; cbn in H. nra.
Qed.

(** ** C20 (in every arithmetic) *)
Theorem C20_ell_unsuccessful_update_changes_nothing :
  forall (A : Type) (N : Num A) (w w' : memory A) (e e' : ell A) g beta s tsq,
  ell_update (w, e) (g, beta) = Ok ((w', e'), (s, tsq)) -> s <> success ->
  w' = w /\ e' = e.
Proof. intros * H. apply ell_update_frame in H as [H _]. exact H. Qed.
Print Assumptions C20_ell_unsuccessful_update_changes_nothing.

Theorem C20_ell1d_unsuccessful_update_changes_nothing :
  forall (A : Type) (N : Num A) (e e' : ell1d A) c s tsq,
  ell1d_update e c = Ok (e', (s, tsq)) -> s <> success -> e' = e.
Proof. intros *. apply ell1d_update_frame. Qed.
Print Assumptions C20_ell1d_unsuccessful_update_changes_nothing.

Example C20_hypotheses_met :
  exists tsq, ell_update (zmem, ball2) (ex, BScalar 2) = Ok ((zmem, ball2), (nosoln, tsq)).
Proof.
  destruct C19_hypotheses_met as [Hw Hn].
  apply C19_scalar_miss_gives_nosoln; assumption.
Qed.

(** ** C21 *)
Theorem C21_stays_symmetric_psd :
  forall w e g beta w' e' s tsq,
  ell_wf e ->
  ell_update (w, e) (g, beta) = Ok ((w', e'), (s, tsq)) ->
  e_n e' = e_n e /\ sym (e_n e) (e_Q e') /\ psd (e_n e) (e_Q e') /\ 0 <= e_kappa e'.
Proof.
  intros w e g beta w' e' s tsq Hw H.
  pose proof (ell_update_n (w, e) (g, beta) (w', e') _ H) as En. cbn in En.
  pose proof (ell_update_wf (w, e) (g, beta) (w', e') _ Hw H) as (_ & _ & H1 & H2 & H3).
  cbn in H1, H2, H3. rewrite En in *. auto.
Qed.
Print Assumptions C21_stays_symmetric_psd.

Theorem C21_stays_proper :
  forall w e g beta w' e' tsq,
  ell_proper e -> nonzero (e_n e) g ->
  ell_update (w, e) (g, beta) = Ok ((w', e'), (success, tsq)) ->
  match beta with
  | BScalar b | BArr [b] => b < sqrt tsq
  | BArr [] => False
  | BArr (b0 :: b1 :: _) => b0 < sqrt tsq /\ b0 < b1 /\ - sqrt tsq < b1
  end ->
  sym (e_n e) (e_Q e') /\ pd (e_n e) (e_Q e') /\ 0 < e_kappa e'.
Proof.
  intros w e g beta w' e' tsq He Hg H Hin.
  pose proof (ell_update_n (w, e) (g, beta) (w', e') _ H) as En. cbn in En.
  destruct (ell_update_proper w e g beta w' e' tsq He Hg H Hin) as ((_ & _ & H1 & _) & H2 & H3).
  rewrite En in *. auto.
Qed.
Print Assumptions C21_stays_proper.

Example C21_hypotheses_met :
  exists w' e', ell_proper ball2 /\ nonzero (e_n ball2) ex /\
    ell_update (zmem, ball2) (ex, BArr [1 / 4; 1 / 2]) = Ok ((w', e'), (success, 1)) /\
    (1 / 4 < sqrt 1 /\ 1 / 4 < 1 / 2 /\ - sqrt 1 < 1 / 2).
Proof.
  destruct (ball2_update (BArr [1 / 4; 1 / 2])) as (w' & e' & H & Hx & _); [auto|].
  exists w', e'. split; [apply ball2_proper|]. split; [apply ex_nonzero|]. split; [assumption|].
  rewrite sqrt_1. lra.
Qed.

(** ** C23 *)
Theorem C23_no_defer_same_ellipsoids :
  forall w e par cs,
  ell_consts e ->
  kappa_stays (w, ell_set_flags e par false) cs ->
  match ell_run (w, ell_set_flags e par false) cs,
        ell_run (w, ell_set_flags e par true) cs with
  | Ok ((w1, e1), l1), Ok ((w2, e2), l2) =>
      l1 = l2 /\
      (forall i, (i < e_n e)%nat -> w1 (e_xc e1) i = w2 (e_xc e2) i) /\
      (forall i j, (i < e_n e)%nat -> (j < e_n e)%nat ->
         e_kappa e1 * e_Q e1 i j = e_kappa e2 * e_Q e2 i j)
  | Raise x1, Raise x2 => x1 = x2
  | _, _ => False
  end.
Proof.
  intros w e par cs Hc Hk.
  assert (Hn : forall cs st st' l, ell_run st cs = Ok (st', l) -> e_n (snd st') = e_n (snd st)).
  { clear. induction cs as [|c cs IH]; intros st st' l H; cbn [ell_run] in H.
    - injection H as <- <-. reflexivity.
    - apply bind_ok in H as ([st1 a] & Hu & H). apply bind_ok in H as ([st2 l2] & Hr & H).
      injection H as <- <-. rewrite (IH _ _ _ Hr). eapply ell_update_n; eauto. }
  pose proof (same_ell_run cs (w, ell_set_flags e par false) (w, ell_set_flags e par true)) as H.
  pose proof (Hn cs (w, ell_set_flags e par false)) as Hn1.
  destruct (ell_run (w, ell_set_flags e par false) cs) as [[[w1 e1] l1]|x1];
    destruct (ell_run (w, ell_set_flags e par true) cs) as [[[w2 e2] l2]|x2].
  1: destruct H as (El & Hs); [exact Hc|exact Hc| |assumption| |].
  - repeat split; reflexivity.
  - apply kappa_stays_nodefer; [reflexivity|].
    destruct cs; destruct Hk as [Hk _]; exact Hk.
  - specialize (Hn1 _ _ eq_refl). cbn in Hn1. destruct Hs as (_ & _ & H1 & H2).
    rewrite Hn1 in *. auto.
  - apply H; auto; [repeat split; reflexivity|].
    apply kappa_stays_nodefer; [reflexivity|]. destruct cs; destruct Hk as [Hk _]; exact Hk.
  - apply H; auto; [repeat split; reflexivity|].
    apply kappa_stays_nodefer; [reflexivity|]. destruct cs; destruct Hk as [Hk _]; exact Hk.
  - apply H; auto; [repeat split; reflexivity|].
    apply kappa_stays_nodefer; [reflexivity|]. destruct cs; destruct Hk as [Hk _]; exact Hk.
Qed.
Print Assumptions C23_no_defer_same_ellipsoids.

(** The side condition holds for a proper ellipsoid whose successful cuts are interior (the
    only way for kappa to become 0 is a cut that touches the boundary). *)
Fixpoint interior_cuts (st : memory R * ell R) (cs : list (cut R)) : Prop :=
  match cs with
  | [] => True
  | (g, beta) :: cs' =>
      nonzero (e_n (snd st)) g /\
      match ell_update st (g, beta) with
      | Ok (st1, (s, tsq)) =>
          (s = success -> match beta with
             | BScalar b | BArr [b] => b < sqrt tsq
             | BArr [] => False
             | BArr (b0 :: b1 :: _) => b0 < sqrt tsq /\ b0 < b1 /\ - sqrt tsq < b1
             end) /\ interior_cuts st1 cs'
      | Raise _ => True
      end
  end.
Theorem C23_interior_cuts_suffice :
  forall cs w e, ell_proper e -> interior_cuts (w, e) cs -> kappa_stays (w, e) cs.
Proof.
  induction cs as [|[g beta] cs IH]; intros w e He Hi; cbn [kappa_stays interior_cuts] in *.
  - split; [|trivial]. destruct He as (_ & _ & Hk). cbn; lra.
  - split; [destruct He as (_ & _ & Hk); cbn; lra|].
    destruct Hi as [Hg Hi].
    destruct (ell_update (w, e) (g, beta)) as [[[w1 e1] [s q]]|] eqn:Hu; [|trivial].
    destruct Hi as [Hin Hi]. apply IH; [|assumption].
    destruct (status_eqb s success) eqn:Es; [apply status_eqb_eq in Es|apply status_eqb_neq in Es].
    + subst s. exact (ell_update_proper w e g beta w1 e1 q He Hg Hu (Hin eq_refl)).
    + apply C20_ell_unsuccessful_update_changes_nothing in Hu as [_ ->]; assumption.
Qed.
Print Assumptions C23_interior_cuts_suffice.

Example C23_hypotheses_met :
  ell_consts ball2 /\ kappa_stays (zmem, ell_set_flags ball2 true false) [(ex, BScalar (1 / 4))] /\
  exists st l, ell_run (zmem, ball2) [(ex, BScalar (1 / 4))] = Ok (st, l) /\ l = [(success, 1)].
Proof.
  destruct (ball2_update (BScalar (1 / 4))) as (w' & e' & H & Hx & _); [auto|].
  split; [apply ball2_consts|]. split.
  - change (ell_set_flags ball2 true false) with ball2.
    apply C23_interior_cuts_suffice; [apply ball2_proper|].
    cbn [interior_cuts]. split; [apply ex_nonzero|]. rewrite H. rewrite sqrt_1. split; [intros; lra|trivial].
  - exists (w', e'), [(success, 1)]. cbn [ell_run]. rewrite H. split; reflexivity.
Qed.

(** ** C24 *)
(** Full claim: for a proper ellipsoid and g <> 0, update never divides by zero nor takes the
    square root of a negative number.  It is false ([C24_update_defined_refuted]); proved:
    the exact exceptional set. *)
Theorem C24_update_defined_partial :
  forall w e g beta,
  ell_proper e -> nonzero (e_n e) g -> beta <> BArr [] ->
  let N := IZR (Z.of_nat (e_n e)) in
  let tsq := e_kappa e * bf (e_n e) (e_Q e) g g in
  let tau := sqrt tsq in
  let single b := b <> 0 /\ tau + N * b = 0 in
  (ell_update (w, e) (g, beta) = Raise FloatFault <->
   match beta with
   | BScalar b | BArr [b] => single b
   | BArr [] => True
   | BArr (b0 :: b1 :: _) =>
       ((tsq < b1 * b1 \/ e_par e = false) /\ single b0) \/
       (e_par e = true /\ b0 + b1 = 0 /\ 0 <= b1 /\ N * (b1 * b1) <= tsq)
   end) /\
  (forall x, ell_update (w, e) (g, beta) = Raise x -> x = FloatFault).
Proof.
  intros w e g beta He Hg Hb N tsq tau single.
  destruct (ell_update_total w e g beta He Hg Hb) as [H1 H2]. cbn zeta in H1, H2. fold tsq in H1, H2.
  assert (Hdec : cut_fault e tsq beta \/ ~ cut_fault e tsq beta).
  { assert (Hd : forall b, dc_fault N tsq b \/ ~ dc_fault N tsq b).
    { intros b. unfold dc_fault. destruct (Req_dec b 0); destruct (Req_dec (sqrt tsq + N * b) 0); tauto. }
    assert (Hp : forall b0 b1,
      (b0 + b1 = 0 /\ 0 <= b1 /\ N * (b1 * b1) <= tsq) \/ ~ (b0 + b1 = 0 /\ 0 <= b1 /\ N * (b1 * b1) <= tsq)).
    { intros b0 b1. destruct (Req_dec (b0 + b1) 0); destruct (Rle_dec 0 b1);
        destruct (Rle_dec (N * (b1 * b1)) tsq); tauto. }
    destruct beta as [b|[|b0 [|b1 bs]]]; cbn; fold N; auto.
    destruct (Hd b0), (Hp b0 b1), (Rlt_dec tsq (b1 * b1)), (e_par e); try tauto;
      right; intros [[[X|X] _]|[X _]]; congruence || tauto. }
  split.
  - change (match beta with
   | BScalar b | BArr [b] => single b
   | BArr [] => True
   | BArr (b0 :: b1 :: _) =>
       ((tsq < b1 * b1 \/ e_par e = false) /\ single b0) \/
       (e_par e = true /\ b0 + b1 = 0 /\ 0 <= b1 /\ N * (b1 * b1) <= tsq)
   end) with (cut_fault e tsq beta).
    split; [|exact H2]. intros E. destruct Hdec as [Hd|Hd]; [assumption|].
    destruct (H1 Hd) as [r Hr]. congruence.
  - intros x E. destruct Hdec as [Hd|Hd].
    + rewrite (H2 Hd) in E. congruence.
    + destruct (H1 Hd) as [r Hr]. congruence.
Qed.
Print Assumptions C24_update_defined_partial.

Theorem C24_update_defined_refuted :
  ~ (forall w e g beta, ell_proper e -> nonzero (e_n e) g -> beta <> BArr [] ->
       ell_update (w, e) (g, beta) <> Raise FloatFault).
Proof.
  intros H. apply (H zmem ball2 ex (BArr [- (1 / 4); 1 / 4]) ball2_proper ex_nonzero); [discriminate|].
  assert (Hom : bf 2 eye ex ex = 1) by (rewrite eye_bf; unfold dot, ex; cbn; ring).
  apply (C24_update_defined_partial zmem ball2 ex _ ball2_proper ex_nonzero); [discriminate|].
  cbn [e_kappa e_n e_Q e_par ball2]. rewrite Hom. right. cbn. repeat split; lra.
Qed.
Print Assumptions C24_update_defined_refuted.

(** ** C25 *)
Theorem C25_ell1d_exact_intersection :
  forall e g b, 0 <= i_r e -> g <> 0 ->
  exists e' s tsq, ell1d_update e (g, b) = Ok (e', (s, tsq)) /\ 0 <= i_r e' /\
   let itv e z := i_xc e - i_r e <= z <= i_xc e + i_r e in
   let holds z := g * (z - i_xc e) + b <= 0 in
   (s = nosoln <-> forall z, itv e z -> ~ holds z) /\
   (s = success -> forall z, itv e' z <-> itv e z /\ holds z) /\
   (s = noeffect -> e' = e /\ forall z, itv e z -> holds z) /\
   s <> smallenough.
Proof.
  intros e g b Hr Hg. destruct (ell1d_update_exact e g b Hr Hg) as (e' & s & q & Hu & Hr' & H).
  exists e', s, q. split; [assumption|]. split; [assumption|]. cbn zeta.
  destruct s; try contradiction; (split; [|split; [|split; [|discriminate]]]); try discriminate.
  - split; [discriminate|]. intros Hn. exfalso. destruct H as [(z & Hz & Hs) _]. exact (Hn z Hz Hs).
  - intros _. exact (proj2 H).
  - split; [intros _; exact H|reflexivity].
  - destruct H as [-> H]. split; [discriminate|]. intros Hn. exfalso.
    apply (Hn (i_xc e)); [lra|]. apply (H (i_xc e)). unfold mem_itv; cbn; lra.
  - intros _. exact H.
Qed.
Print Assumptions C25_ell1d_exact_intersection.

(** g = 0, beta = 0: every point satisfies the cut, half of the interval is dropped *)
Theorem C25_ell1d_zero_gradient_drops_half :
  forall e, 0 < i_r e -> exists e', ell1d_update e (0, 0) = Ok (e', (success, 0)) /\
   exists z, (i_xc e - i_r e <= z <= i_xc e + i_r e) /\ 0 * (z - i_xc e) + 0 <= 0 /\
             ~ (i_xc e' - i_r e' <= z <= i_xc e' + i_r e').
Proof.
  intros e Hr. cbn [ell1d_update]. rewrite nabs_R.
  change (nmul (i_r e) 0) with (i_r e * 0). rewrite Rmult_0_r, Rabs_R0.
  destruct (neqb 0 nzero) eqn:B; [|apply Reqb_false in B; cbn in B; lra].
  change (two (A := R)) with 2. rewrite rdiv_ok by lra. cbn [bind].
  eexists. split.
  { replace (nmul 0 0) with 0 by (cbn; ring). reflexivity. }
  exists (i_xc e - i_r e). split; [lra|]. split; [lra|]. cbn.
  unfold Rltb. destruct (Rlt_dec 0 0); [lra|]. lra.
Qed.
Print Assumptions C25_ell1d_zero_gradient_drops_half.

(** ell1d([l, u]) is the interval [l, u], and a copy represents the same interval *)
Theorem C25_ell1d_construct :
  forall l u, exists e, ell1d_init l u = Ok e /\ i_xc e = (l + u) / 2 /\
   (forall z, i_xc e - i_r e <= z <= i_xc e + i_r e <-> l <= z <= u) /\
   exists c, ell1d_copy e = Ok c /\ c = e.
Proof.
  intros l u. unfold ell1d_copy, ell1d_init. change (two (A := R)) with 2.
  rewrite rdiv_ok by lra. cbn [bind]. eexists. split; [reflexivity|]. cbn [i_xc i_r].
  split; [cbn; lra|]. split; [intros z; cbn; split; intros; lra|].
  rewrite rdiv_ok by lra. cbn [bind]. eexists. split; [reflexivity|]. f_equal; cbn; lra.
Qed.
Print Assumptions C25_ell1d_construct.

(** assigning xc moves the interval and keeps its length *)
Theorem C25_ell1d_set_xc :
  forall (e : ell1d R) x z, mem_itv (tt, ell1d_set_xc e x) z <-> mem_itv (tt, e) (z - x + i_xc e).
Proof. intros [r xc] x z. unfold mem_itv, ell1d_set_xc. cbn. split; intros; lra. Qed.
Print Assumptions C25_ell1d_set_xc.

Example C25_hypotheses_met :
  exists e, ell1d_init 0 4 = Ok e /\ 0 <= i_r e.
Proof.
  destruct (ell1d_init_spec 0 4) as (e & He & Hm). exists e. split; [assumption|].
  assert (mem_itv (tt, e) 2) as H by (apply Hm; lra). unfold mem_itv in H; cbn in H. lra.
Qed.

(** ** C26 *)
Theorem C26_dimension_one_rejected :
  forall val x, ell_init (A := R) val 1 x = Raise FloatFault.
Proof. exact ell_init_1. Qed.
Print Assumptions C26_dimension_one_rejected.

Theorem C26_construction :
  forall val n x (w : memory R), (2 <= n)%nat ->
  exists e, ell_init val n x = Ok e /\ e_n e = n /\ w (e_xc e) = w x /\
  (let d z i := z i - w x i in
   match val with
   | VScalar v => forall z, mem_ell (w, e) z <-> dot n (d z) (d z) <= v
   | VArray v => (forall i, (i < n)%nat -> 0 < v i) ->
       forall z, mem_ell (w, e) z <-> rsum n (fun i => d z i * d z i / v i) <= 1
   end) /\
  (match val with VScalar v => 0 <= v | VArray v => forall i, (i < n)%nat -> 0 <= v i end ->
   ell_wf e) /\
  (match val with VScalar v => 0 < v | VArray v => forall i, (i < n)%nat -> 0 < v i end ->
   ell_proper e).
Proof.
  intros val n x w Hn.
  destruct (ell_init_ok val n x) as (e & He & Hc & En & Ex & _ & _ & Ek & EQ); [lia|].
  exists e. split; [assumption|]. split; [assumption|]. split; [congruence|].
  assert (Hwf : match val with VScalar v => 0 <= v | VArray v => forall i, (i < n)%nat -> 0 <= v i end ->
     ell_wf e).
  { intros Hv.
    apply (C17_reachable_well_formed val n x e (e_par e) (e_nodefer e) w [] w e []); auto.
    cbn. destruct e; reflexivity. }
  split; [|split; [exact Hwf|]].
  - cbn zeta. cbn [mem_ell]. rewrite En, Ek, EQ, Ex. destruct val as [v|v].
    + intros z. rewrite (in_ell_inverse n eye idm).
      2: { assert (H : meq n (mm n eye idm) idm).
           { intros i j Hi Hj. unfold mm, eye. 
             rewrite (rsum_single n i); [rewrite Nat.eqb_refl; cbn; ring|assumption|].
             intros k _ Hk. destruct (Nat.eqb_spec i k); [congruence|]. cbn. ring. }
           split; exact H. }
      change idm with (eye (A := R)). rewrite eye_bf. reflexivity.
    + intros Hv z. rewrite (in_ell_inverse n (diag v) (diag (fun i => / v i))).
      * unfold bf. rewrite (dot_ext n _ (fun i => z i - w x i) _ (fun i => / v i * (z i - w x i)));
          [|reflexivity|intros i Hi; apply diag_mv; assumption].
        unfold dot. rewrite (rsum_ext n _ (fun i => (z i - w x i) * (z i - w x i) / v i)); [reflexivity|].
        intros k Hk. specialize (Hv k Hk). field. lra.
      * split; intros i j Hi Hj; unfold mm;
          (rewrite (rsum_single n i); [|assumption|
             intros k _ Hk; unfold diag; destruct (Nat.eqb_spec i k); [congruence|cbn; ring]]);
          unfold diag, idm; rewrite Nat.eqb_refl; cbn [nzero RNum];
          destruct (Nat.eqb_spec i j); subst; try ring; field; specialize (Hv j Hj); lra.
  - intros Hv. split; [apply Hwf; destruct val; [lra|intros i Hi; left; auto]|].
    rewrite En, Ek, EQ. destruct val as [v|v]; (split; [|lra]).
    + apply eye_pd.
    + intros u (k & Hk & Hu). unfold bf, dot.
      apply (rsum_pos_term n _ k); auto.
      * intros i Hi. rewrite diag_mv by assumption. specialize (Hv i Hi). nra.
      * rewrite diag_mv by assumption. specialize (Hv k Hk).
        assert (0 < u k * u k) by nra. nra.
Qed.
Print Assumptions C26_construction.

Example C26_ball : ell_init (VScalar 1) 2 0%nat <> Raise FloatFault /\
  (forall z, mem_ell (zmem, ball2) z <-> z 0%nat * z 0%nat + z 1%nat * z 1%nat <= 1).
Proof.
  split; [|exact ball2_mem].
  destruct (C26_construction (VScalar 1) 2 0%nat zmem) as (e & -> & _); [lia|discriminate].
Qed.

(** ** C03 *)
Theorem C03_feas_ell_never_loses :
  forall (O : Type) (omega : O -> (nat -> R) -> res (O * option (cut R))) (OI : O -> Prop)
         (K : (nat -> R) -> Prop) max_it tol o w e tr o' w' e' info,
  separates omega OI (sat_cut (e_n e)) K ->
  ell_wf e -> OI o ->
  cutting_plane_feas ell_space Rltb omega max_it tol o (w, e) = Ok (tr, o', (w', e'), info) ->
  (cstatus info = nosoln -> forall z, mem_ell (w, e) z -> ~ K z) /\
  (cstatus info <> nosoln -> forall z, mem_ell (w, e) z -> K z -> mem_ell (w', e') z).
Proof.
  intros O omega OI K max_it tol o w e tr o' w' e' info Hsep Hw Ho H.
  eapply (feas_sound ell_space Rltb omega _ _ _ OI K (ell_space_sound (e_n e)) Hsep) in H;
    [|split; [exact Hw|reflexivity]|exact Ho].
  tauto.
Qed.
Print Assumptions C03_feas_ell_never_loses.

Theorem C03_feas_ell1d_never_loses :
  forall (O : Type) (omega : O -> R -> res (O * option (R * R))) (OI : O -> Prop)
         (K : R -> Prop) max_it tol o e tr o' e' info,
  separates omega OI (fun x c z => fst c <> 0 /\ fst c * (z - x) + snd c <= 0) K ->
  0 <= i_r e -> OI o ->
  cutting_plane_feas ell1d_space Rltb omega max_it tol o (tt, e) = Ok (tr, o', (tt, e'), info) ->
  let itv e z := i_xc e - i_r e <= z <= i_xc e + i_r e in
  (cstatus info = nosoln -> forall z, itv e z -> ~ K z) /\
  (cstatus info <> nosoln -> forall z, itv e z -> K z -> itv e' z).
Proof.
  intros O omega OI K max_it tol o e tr o' e' info Hsep Hw Ho H.
  eapply (feas_sound ell1d_space Rltb omega _ _ _ OI K ell1d_space_sound Hsep) in H;
    [|exact Hw|exact Ho].
  destruct H as (_ & _ & H1 & H2). split; assumption.
Qed.
Print Assumptions C03_feas_ell1d_never_loses.

(** A valid oracle: the half plane z0 <= -1/4 (and any memory). *)
Definition half_oracle (o : unit) (x : nat -> R) : res (unit * option (cut R)) :=
  if Rltb (- (1 / 4)) (x 0%nat) then Ok (tt, Some (ex, BScalar (x 0%nat + 1 / 4))) else Ok (tt, None).
Example C03_hypotheses_met :
  separates half_oracle (fun _ => True) (sat_cut (e_n ball2)) (fun z => z 0%nat <= - (1 / 4)) /\
  exists tr st' info,
    cutting_plane_feas ell_space Rltb half_oracle 1 (1 / 100) tt (zmem, ball2)
    = Ok (tr, tt, st', info) /\ cstatus info = success /\ feasible info = false.
Proof.
  split.
  - intros o x o' a _ H. split; [trivial|]. unfold half_oracle in H.
    destruct (Rltb _ _); injection H as <- <-; [|trivial].
    intros z Hz. unfold sat_cut, dot, ex; cbn. lra.
  - destruct (ball2_update (BScalar (1 / 4))) as (w' & e' & H & Hx & _); [auto|].
    unfold cutting_plane_feas, feas_loop. unfold half_oracle, centre.
    cbn [ell_space sp_deref sp_xc fst snd e_xc ball2]. fold ball2.
    change (zmem 0%nat 0%nat) with 0.
    destruct (Rltb (- (1 / 4)) 0) eqn:B; [|apply Rltb_false in B; lra].
    cbn [bind]. rewrite Rplus_0_l. change (sp_update ell_space) with (ell_update (A := R)).
    rewrite H. cbn [bind status_eqb negb].
    destruct (Rltb 1 (1 / 100)) eqn:B2; [apply Rltb_true in B2; lra|].
    do 3 eexists. split; [reflexivity|]. split; reflexivity.
Qed.

(** ** C06 *)
Theorem C06_dc_ell_never_loses_better :
  forall (O T : Type) (tneq : T -> T -> bool)
         (omega : O -> (nat -> R) -> T -> res (O * (cut R * option T))) (OI : O -> Prop)
         (better : T -> (nat -> R) -> Prop) max_it tol o w e t tr o' w' e' xb t' info,
  optimizes omega OI (sat_cut (e_n e)) better ->
  ell_wf e -> OI o ->
  cutting_plane_dc ell_space Rltb tneq omega max_it tol o (w, e) t
    = Ok (tr, o', (w', e'), (xb, t', info)) ->
  (cstatus info = nosoln -> forall z, mem_ell (w, e) z -> ~ better t' z) /\
  (cstatus info <> nosoln -> forall z, mem_ell (w, e) z -> better t' z -> mem_ell (w', e') z).
Proof.
  intros O T tneq omega OI better max_it tol o w e t tr o' w' e' xb t' info Hopt Hw Ho H.
  eapply (dc_sound ell_space Rltb tneq omega _ _ _ OI better (ell_space_sound (e_n e)) Hopt) in H;
    [|split; [exact Hw|reflexivity]|exact Ho].
  tauto.
Qed.
Print Assumptions C06_dc_ell_never_loses_better.

Theorem C06_dc_ell1d_never_loses_better :
  forall (O T : Type) (tneq : T -> T -> bool)
         (omega : O -> R -> T -> res (O * ((R * R) * option T))) (OI : O -> Prop)
         (better : T -> R -> Prop) max_it tol o e t tr o' e' xb t' info,
  optimizes omega OI (fun x c z => fst c <> 0 /\ fst c * (z - x) + snd c <= 0) better ->
  0 <= i_r e -> OI o ->
  cutting_plane_dc ell1d_space Rltb tneq omega max_it tol o (tt, e) t
    = Ok (tr, o', (tt, e'), (xb, t', info)) ->
  let itv e z := i_xc e - i_r e <= z <= i_xc e + i_r e in
  (cstatus info = nosoln -> forall z, itv e z -> ~ better t' z) /\
  (cstatus info <> nosoln -> forall z, itv e z -> better t' z -> itv e' z).
Proof.
  intros O T tneq omega OI better max_it tol o e t tr o' e' xb t' info Hopt Hw Ho H.
  eapply (dc_sound ell1d_space Rltb tneq omega _ _ _ OI better ell1d_space_sound Hopt) in H;
    [|exact Hw|exact Ho].
  destruct H as (_ & _ & H1 & H2). split; assumption.
Qed.
Print Assumptions C06_dc_ell1d_never_loses_better.

(** The same for cutting_plane_q. *)
Theorem C06_q_ell_never_loses_better :
  forall (O T : Type) (tneq : T -> T -> bool)
         (omega : O -> (nat -> R) -> T -> bool -> res (O * (cut R * (nat -> R) * option T * bool)))
         (OI : O -> Prop)
         (better : T -> (nat -> R) -> Prop) max_it tol o w e t tr o' w' e' xb t' info,
  optimizes_q omega OI (sat_cut (e_n e)) better ->
  ell_wf e -> OI o ->
  cutting_plane_q ell_space Rltb tneq omega max_it tol o (w, e) t
    = Ok (tr, o', (w', e'), (xb, t', info)) ->
  (cstatus info = nosoln -> forall z, mem_ell (w, e) z -> ~ better t' z) /\
  (cstatus info <> nosoln -> forall z, mem_ell (w, e) z -> better t' z -> mem_ell (w', e') z).
Proof.
  intros O T tneq omega OI better max_it tol o w e t tr o' w' e' xb t' info Hopt Hw Ho H.
  eapply (q_sound ell_space Rltb tneq omega _ _ _ OI better (ell_space_sound (e_n e)) Hopt) in H;
    [|split; [exact Hw|reflexivity]|exact Ho].
  tauto.
Qed.
Print Assumptions C06_q_ell_never_loses_better.

(** Minimise z0: the oracle reports the value at the centre with a central cut. *)
Definition min_oracle (o : unit) (x : nat -> R) (t : R) : res (unit * (cut R * option R)) :=
  if Rltb (x 0%nat) t then Ok (tt, ((ex, BScalar 0), Some (x 0%nat)))
  else Ok (tt, ((ex, BScalar (x 0%nat - t)), None)).
Lemma min_oracle_optimizes :
  optimizes min_oracle (fun _ => True) (sat_cut 2) (fun t z => z 0%nat < t).
Proof.
  intros o x t o' c t1 _ H. split; [trivial|]. unfold min_oracle in H.
  destruct (Rltb _ _) eqn:B; injection H as <- <- <-; cbn [best]; split; intros z Hz.
  - unfold sat_cut, dot, ex; cbn. lra.
  - apply Rltb_true in B. lra.
  - unfold sat_cut, dot, ex; cbn. lra.
  - assumption.
Qed.
Lemma min_run : exists tr w' e' info,
  cutting_plane_dc ell_space Rltb (fun a b => negb (Req_bool a b)) min_oracle 1 (1 / 100) tt
    (zmem, ball2) 1 = Ok (tr, tt, (w', e'), (Some 0%nat, 0, info)) /\
  map d_x tr = [zmem 0%nat] /\ w' 0%nat 0%nat < 0 /\ feasible info = true.
Proof.
  destruct (ball2_update (BScalar 0)) as (w' & e' & H & Hx & He & _); [auto|].
  unfold cutting_plane_dc, dc_loop. unfold min_oracle, centre.
  cbn [ell_space sp_deref sp_xc fst snd e_xc ball2].
  change (zmem 0%nat 0%nat) with 0.
  destruct (Rltb 0 1) eqn:B; [|apply Rltb_false in B; lra].
  cbn [bind]. fold ball2. change (sp_update ell_space) with (ell_update (A := R)). rewrite H. cbn [bind status_eqb negb].
  destruct (Rltb 1 (1 / 100)) eqn:B2; [apply Rltb_true in B2; lra|].
  do 4 eexists. split; [reflexivity|]. split; [reflexivity|]. split; [assumption|].
  cbn. unfold Req_bool. destruct (Req_EM_T 0 1); [lra|reflexivity].
Qed.
Example C06_hypotheses_met :
  optimizes min_oracle (fun _ => True) (sat_cut (e_n ball2)) (fun t z => z 0%nat < t) /\
  ell_wf ball2 /\
  exists tr w' e' info,
    cutting_plane_dc ell_space Rltb (fun a b => negb (Req_bool a b)) min_oracle 1 (1 / 100) tt
      (zmem, ball2) 1 = Ok (tr, tt, (w', e'), (Some 0%nat, 0, info)).
Proof.
  split; [exact min_oracle_optimizes|]. split; [apply ball2_proper|].
  destruct min_run as (tr & w' & e' & info & H & _). eauto.
Qed.

(** ** C05, negative part *)
Theorem C05_dc_xbest_ell_refuted :
  ~ (forall (O T : Type) tneq (omega : O -> (nat -> R) -> T -> res (O * (cut R * option T)))
            max_it tol o w e t tr o' st' xb t' info,
     ell_proper e ->
     cutting_plane_dc ell_space Rltb tneq omega max_it tol o (w, e) t
       = Ok (tr, o', st', (Some xb, t', info)) ->
     exists tr1 ev tr2, tr = tr1 ++ ev :: tr2 /\ Forall no_t1 tr2 /\ d_t1 ev = Some t' /\
       forall i, (i < e_n e)%nat -> d_x ev i = sp_deref ell_space st' xb i).
Proof.
  intros H. destruct min_run as (tr & w' & e' & info & Hr & Hx & Hneg & _).
  destruct (H _ _ _ _ _ _ _ _ _ _ _ _ _ _ _ _ ball2_proper Hr) as (tr1 & ev & tr2 & E & _ & _ & Hc).
  subst tr. destruct tr1 as [|a tr1]; cbn in Hx.
  - injection Hx as Hx _. specialize (Hc 0%nat). rewrite Hx in Hc. cbn in Hc.
    unfold zmem in Hc. rewrite <- Hc in Hneg by lia. lra.
  - injection Hx as _ Hx. destruct tr1; discriminate.
Qed.
Print Assumptions C05_dc_xbest_ell_refuted.

(** ** C63: what x_best is for ell *)
Theorem C63_dc_xbest_ell_is_final_centre :
  forall (A : Type) (N : Num A) (O T : Type) ltb tneq
         (omega : O -> (nat -> A) -> T -> res (O * (cut A * option T)))
         max_it tol o st t tr o' st' xb t' info,
  cutting_plane_dc ell_space ltb tneq omega max_it tol o st t
    = Ok (tr, o', st', (Some xb, t', info)) ->
  sp_deref ell_space st' xb = centre ell_space st' /\ xb = sp_xc ell_space st.
Proof. intros * H. apply dc_xbest_final in H as [H1 H2]. split; assumption. Qed.
Print Assumptions C63_dc_xbest_ell_is_final_centre.
Example C63_hypotheses_met :
  exists tr w' e' info,
    cutting_plane_dc ell_space Rltb (fun a b => negb (Req_bool a b)) min_oracle 1 (1 / 100) tt
      (zmem, ball2) 1 = Ok (tr, tt, (w', e'), (Some 0%nat, 0, info)).
Proof. destruct min_run as (tr & w' & e' & info & H & _). eauto. Qed.

(** ** C08 *)
Theorem C08_feas_smallenough_bound :
  forall (O : Type) (omega : O -> (nat -> R) -> res (O * option (cut R)))
         max_it tol o w e tr o' st' info,
  ell_wf e ->
  cutting_plane_feas ell_space Rltb omega max_it tol o (w, e) = Ok (tr, o', st', info) ->
  cstatus info = smallenough ->
  exists tr0 x g beta tsq o1 st1,
    tr = tr0 ++ [(x, Some ((g, beta), success, tsq))] /\
    feas_replay ell_space omega o (w, e) tr0 o1 st1 /\ x = centre ell_space st1 /\
    tsq < tol /\
    (forall z, mem_ell st1 z -> let a := dot (e_n e) g (fun i => z i - x i) in a * a <= tsq) /\
    (forall f : (nat -> R) -> R,
       (forall z, f x + dot (e_n e) g (fun i => z i - x i) <= f z) ->
       forall z, mem_ell st1 z -> f x - sqrt tol < f z).
Proof.
  intros O omega max_it tol o w e tr o' st' info Hw H Hs.
  apply feas_spec in H as (Hr & _ & _ & tr0 & ev & -> & Hgo & Hfin & _).
  destruct ev as [x [[[[g beta] s] q]|]]; cbn in Hfin; [|destruct Hfin; congruence].
  destruct Hfin as (_ & F1 & F2 & F3).
  assert (s = success /\ Rltb q tol = true) as [-> Hq].
  { destruct (status_eqb s success) eqn:Es; [apply status_eqb_eq in Es|apply status_eqb_neq in Es].
    - split; [assumption|]. destruct (Rltb q tol) eqn:B; [reflexivity|].
      destruct (F3 Es eq_refl) as [X _]. congruence.
    - rewrite (F1 Es) in Hs. subst s. exfalso.
      apply feas_replay_app in Hr as (o1 & st1 & H1 & H2).
      + assert (Hw1 : st_wf st1 /\ e_n (snd st1) = e_n e).
        { refine (feas_replay_wf ell_space (fun st => st_wf st /\ e_n (snd st) = e_n e) _ omega _ _ _ _ _ H1 _).
          - intros st c st2 [s2 q2] Hw2 Hu. exact (proj1 (ell_space_sound (e_n e) st c st2 s2 q2 Hw2 Hu)).
          - split; [exact Hw|reflexivity]. }
        inversion H2; subst.
        match goal with Hu : sp_update _ _ _ = Ok _ |- _ =>
          apply (ell_space_sound (e_n e)) in Hu; [|assumption]; destruct Hu as [_ Hu]; exact Hu end.
      + intros y Hy. rewrite Forall_forall in Hgo. destruct (Hgo _ Hy) as (? & ? & ? & X & _). discriminate. }
  apply feas_replay_app in Hr as (o1 & st1 & H1 & H2).
  2: { intros y Hy. rewrite Forall_forall in Hgo. destruct (Hgo _ Hy) as (? & ? & ? & X & _). discriminate. }
  assert (Hw1 : st_wf st1 /\ e_n (snd st1) = e_n e).
  { refine (feas_replay_wf ell_space (fun st => st_wf st /\ e_n (snd st) = e_n e) _ omega _ _ _ _ _ H1 _).
    - intros st c st2 [s2 q2] Hw2 Hu. exact (proj1 (ell_space_sound (e_n e) st c st2 s2 q2 Hw2 Hu)).
    - split; [exact Hw|reflexivity]. }
  apply Rltb_true in Hq.
  exists tr0, x, g, beta, q, o1, st1. split; [reflexivity|]. split; [assumption|].
  inversion H2; subst. split; [reflexivity|]. split; [assumption|].
  assert (Hm : forall z, mem_ell st1 z ->
     let a := dot (e_n e) g (fun i => z i - centre ell_space st1 i) in a * a <= q).
  { destruct st1 as [w1 e1]. destruct Hw1 as [Hw1 En]. cbn in En. rewrite <- En.
    match goal with Hu : sp_update _ _ _ = Ok (?s2, _) |- _ => destruct s2 as [w2 e2]; 
      exact (ell_update_width w1 e1 g beta w2 e2 success q Hw1 Hu) end. }
  split; [exact Hm|].
  intros f Hf. exact (smallenough_improvement (e_n e) g _ q tol (mem_ell st1) f Hq Hm Hf).
Qed.
Print Assumptions C08_feas_smallenough_bound.

Theorem C08_dc_smallenough_bound :
  forall (O T : Type) tneq (omega : O -> (nat -> R) -> T -> res (O * (cut R * option T)))
         max_it tol o w e t tr o' st' xb t' info,
  ell_wf e ->
  cutting_plane_dc ell_space Rltb tneq omega max_it tol o (w, e) t
    = Ok (tr, o', st', (xb, t', info)) ->
  cstatus info = smallenough ->
  exists tr0 ev g o1 st1 t1,
    tr = tr0 ++ [ev] /\ dc_replay ell_space omega o (w, e) t tr0 o1 st1 t1 /\
    d_x ev = centre ell_space st1 /\ fst (d_cut ev) = g /\ d_status ev = success /\
    d_tsq ev < tol /\
    (forall z, mem_ell st1 z ->
       let a := dot (e_n e) g (fun i => z i - d_x ev i) in a * a <= d_tsq ev) /\
    (forall f : (nat -> R) -> R,
       (forall z, f (d_x ev) + dot (e_n e) g (fun i => z i - d_x ev i) <= f z) ->
       forall z, mem_ell st1 z -> f (d_x ev) - sqrt tol < f z).
Proof.
  intros O T tneq omega max_it tol o w e t tr o' st' xb t' info Hw H Hs.
  apply dc_spec in H as (Hr & _ & _ & _ & (tr0 & ev & -> & Hgo & F1 & F2 & F3) & _).
  apply dc_replay_app in Hr as (o1 & st1 & t1 & H1 & H2).
  assert (Hw1 : st_wf st1 /\ e_n (snd st1) = e_n e).
  { refine (dc_replay_wf ell_space (fun st => st_wf st /\ e_n (snd st) = e_n e) _ omega _ _ _ _ _ _ _ H1 _).
    - intros st c st2 [s2 q2] Hw2 Hu. exact (proj1 (ell_space_sound (e_n e) st c st2 s2 q2 Hw2 Hu)).
    - split; [exact Hw|reflexivity]. }
  inversion H2; subst. cbn [d_x d_cut d_status d_tsq] in *.
  match goal with Hu : sp_update _ _ _ = Ok _ |- _ => rename Hu into Hupd end.
  match goal with Hu : sp_update _ _ ?c0 = Ok (?s2, (?s0, ?q0)) |- _ =>
    rename s0 into s; rename q0 into q; rename s2 into st2; destruct c0 as [g beta] end.
  assert (s = success /\ Rltb q tol = true) as [-> Hq].
  { destruct (status_eqb s success) eqn:Es; [apply status_eqb_eq in Es|apply status_eqb_neq in Es].
    - split; [assumption|]. destruct (Rltb q tol) eqn:B; [reflexivity|].
      destruct (F3 Es eq_refl) as [X _]. congruence.
    - exfalso. rewrite (F1 Es) in Hs. subst s.
      exact (proj2 (ell_space_sound (e_n e) _ _ _ _ _ Hw1 Hupd)). }
  apply Rltb_true in Hq.
  eexists tr0, _, g, o1, st1, t1. split; [reflexivity|]. cbn [d_x d_cut d_status d_tsq].
  split; [assumption|]. split; [reflexivity|]. split; [reflexivity|]. split; [reflexivity|].
  split; [assumption|].
  assert (Hm : forall z, mem_ell st1 z ->
     let a := dot (e_n e) g (fun i => z i - centre ell_space st1 i) in a * a <= q).
  { destruct st1 as [w1 e1], st2 as [w2 e2]. destruct Hw1 as [Hw1 En]. cbn in En. rewrite <- En.
    exact (ell_update_width w1 e1 g beta w2 e2 success q Hw1 Hupd). }
  split; [exact Hm|].
  intros f Hf. exact (smallenough_improvement (e_n e) g _ q tol (mem_ell st1) f Hq Hm Hf).
Qed.
Print Assumptions C08_dc_smallenough_bound.

Example C08_hypotheses_met :
  exists tr st' info,
    cutting_plane_dc ell_space Rltb (fun a b => negb (Req_bool a b)) min_oracle 1 2 tt
      (zmem, ball2) 1 = Ok (tr, tt, st', (Some 0%nat, 0, info)) /\ cstatus info = smallenough.
Proof.
  destruct (ball2_update (BScalar 0)) as (w' & e' & H & Hx & He & _); [auto|].
  unfold cutting_plane_dc, dc_loop. unfold min_oracle, centre.
  cbn [ell_space sp_deref sp_xc fst snd e_xc ball2].
  change (zmem 0%nat 0%nat) with 0.
  destruct (Rltb 0 1) eqn:B; [|apply Rltb_false in B; lra].
  cbn [bind]. fold ball2. change (sp_update ell_space) with (ell_update (A := R)). rewrite H. cbn [bind status_eqb negb].
  destruct (Rltb 1 2) eqn:B2; [|apply Rltb_false in B2; lra].
  do 3 eexists. split; reflexivity.
Qed.

(** ** C16 *)
(** Full claim (refuted below): updating a copy changes nothing observable of the original.
    Proved: the copy has the same dimension, size, matrix and flags, updates only ever write the
    array of the centre, and construction keeps the caller's array by reference. *)
Theorem C16_copy_same_and_frame_partial :
  forall (A : Type) (N : Num A) (w : memory A) (e c : ell A),
  ell_copy e = Ok c ->
  e_n c = e_n e /\ w (e_xc c) = w (e_xc e) /\ e_kappa c = e_kappa e /\ e_Q c = e_Q e /\
  e_par c = e_par e /\ e_nodefer c = e_nodefer e /\
  (forall g beta w' c' a, ell_update (w, c) (g, beta) = Ok ((w', c'), a) ->
     (forall l, l <> e_xc e -> w' l = w l) /\ w' (e_xc e) = w' (e_xc c')).
Proof.
  intros * H. pose proof (ell_copy_spec _ _ H) as (H1 & H2 & H3 & H4 & H5 & H6).
  split; [assumption|]. split; [congruence|]. repeat (split; [assumption|]).
  intros g beta w' c' [s q] Hu. apply ell_update_frame in Hu as (_ & Hx & _ & _ & _ & Hl & _).
  rewrite H2 in *. split; [assumption|congruence].
Qed.
Print Assumptions C16_copy_same_and_frame_partial.

Lemma ball2_copy : ell_copy ball2 = Ok ball2.
Proof.
  unfold ell_copy. destruct (ell_init_ok (VScalar (e_kappa ball2)) (e_n ball2) (e_xc ball2))
    as (e & -> & Hc & En & Ex & Ep & Ed & Ek & EQ); [discriminate|].
  cbn [bind]. f_equal. destruct e as [n n1 h h1 c1 c2 c3 xc k Q p d]. cbn in *. subst.
  unfold ell_consts in Hc; cbn in Hc. destruct Hc as (-> & -> & -> & -> & -> & ->).
  unfold ell_set_flags, ell_set_Q, ball2; cbn. f_equal; lra.
Qed.

Theorem C16_copy_independent_refuted :
  ~ (forall (w : memory R) e c g beta w' c' a,
       ell_proper e -> ell_copy e = Ok c -> ell_update (w, c) (g, beta) = Ok ((w', c'), a) ->
       forall i, (i < e_n e)%nat -> w' (e_xc e) i = w (e_xc e) i).
Proof.
  intros H. destruct (ball2_update (BScalar 0)) as (w' & e' & Hu & Hx & _); [auto|].
  specialize (H zmem ball2 ball2 ex (BScalar 0) w' e' _ ball2_proper ball2_copy Hu 0%nat).
  cbn in H. unfold zmem in H. rewrite H in Hx by lia. lra.
Qed.
Print Assumptions C16_copy_independent_refuted.

(** ** C64: the copy and the original always share their centre; so do the object and the
    array it was constructed with *)
Theorem C64_copy_shares_centre :
  forall (w : memory R) e c cs w' c' l,
  ell_copy e = Ok c -> ell_run (w, c) cs = Ok ((w', c'), l) ->
  w' (e_xc e) = w' (e_xc c').
Proof.
  intros w e c cs w' c' l Hc Hr. apply ell_copy_spec in Hc as (_ & Hx & _).
  rewrite <- Hx. clear Hx e. revert w c l Hr.
  assert (H : forall cs st st' l, ell_run st cs = Ok (st', l) -> e_xc (snd st') = e_xc (snd st)).
  { clear. induction cs as [|c cs IH]; intros st st' l H; cbn [ell_run] in H.
    - injection H as <- <-. reflexivity.
    - apply bind_ok in H as ([[w1 e1] [s q]] & Hu & H). apply bind_ok in H as ([st2 l2] & Hr & H).
      injection H as <- <-. rewrite (IH _ _ _ Hr). destruct st as [w e], c as [g b].
      apply ell_update_frame in Hu. cbn. tauto. }
  intros w c l Hr. apply H in Hr. cbn in Hr. congruence.
Qed.
Print Assumptions C64_copy_shares_centre.

Theorem C64_callers_array_follows_centre :
  forall val n (w : memory R) x e cs w' e' l,
  ell_init val n x = Ok e -> ell_run (w, e) cs = Ok ((w', e'), l) ->
  w' x = w' (e_xc e').
Proof.
  intros val n w x e cs w' e' l Hi Hr.
  assert (e_xc e = x) as <-.
  { unfold ell_init in Hi. repeat (apply bind_ok in Hi as (? & _ & Hi)). injection Hi as <-. reflexivity. }
  assert (H : forall cs st st' l, ell_run st cs = Ok (st', l) -> e_xc (snd st') = e_xc (snd st)).
  { clear. induction cs as [|c cs IH]; intros st st' l H; cbn [ell_run] in H.
    - injection H as <- <-. reflexivity.
    - apply bind_ok in H as ([[w1 e1] [s q]] & Hu & H). apply bind_ok in H as ([st2 l2] & Hr & H).
      injection H as <- <-. rewrite (IH _ _ _ Hr). destruct st as [w e], c as [g b].
      apply ell_update_frame in Hu. cbn. tauto. }
  apply H in Hr. cbn in Hr. congruence.
Qed.
Print Assumptions C64_callers_array_follows_centre.
Example C64_hypotheses_met :
  ell_copy ball2 = Ok ball2 /\
  exists w' e' l, ell_run (zmem, ball2) [(ex, BScalar 0)] = Ok ((w', e'), l) /\ w' 0%nat 0%nat < 0.
Proof.
  split; [exact ball2_copy|].
  destruct (ball2_update (BScalar 0)) as (w' & e' & Hu & Hx & _); [auto|].
  do 3 eexists. cbn [ell_run]. rewrite Hu. split; [reflexivity|assumption].
Qed.

(** ** C15 *)
(** Full claim (refuted for ell below): a failed probe leaves x_best unchanged, a successful one
    sets it to the feasible point found.  Proved for spaces whose centre is an immutable value
    (ell1d). *)
Theorem C15_adaptor_value_spaces_partial :
  forall (W E X V C Sc O T : Type) (sp : space (W * E) X V C Sc) ltb copy
     (set_xc : E -> X -> E) (omega : O -> V -> res (O * option C)) (p_update : O -> T -> res O)
     max_it tol w o s t w' o' s' b,
  (forall st1 st2 x, sp_deref sp st1 x = sp_deref sp st2 x) ->
  (forall w1 w2 s, sp_xc sp (w1, s) = sp_xc sp (w2, s)) ->
  (forall w s x, sp_xc sp (w, set_xc s x) = x) ->
  ba_call sp ltb copy set_xc omega p_update max_it tol w o s t = Ok (w', o', s', b) ->
  (b = false -> ba_x_best sp w' s' = ba_x_best sp w s) /\
  (b = true -> exists o1 st1 tr st2,
     feas_replay sp omega o1 st1 (tr ++ [(ba_x_best sp w' s', None)]) o' st2).
Proof.
  intros * H1 H2 H3 H. 
  destruct (ba_call_value sp ltb copy set_xc omega p_update max_it tol w o s t w' o' s' b H1 H2 H3 H)
    as [Ha Hb].
  split; [|exact Hb]. intros E0. apply (Ha E0).
Qed.
Print Assumptions C15_adaptor_value_spaces_partial.
Example C15_ell1d_meets_hypotheses :
  (forall st1 st2 (x : R), sp_deref ell1d_space st1 x = sp_deref ell1d_space st2 x) /\
  (forall w1 w2 (s : ell1d R), sp_xc ell1d_space (w1, s) = sp_xc ell1d_space (w2, s)) /\
  (forall w (s : ell1d R) x, sp_xc ell1d_space (w, ell1d_set_xc s x) = x).
Proof. repeat split. Qed.

Lemma adaptor_run : exists w',
  ba_call ell_space Rltb ell_copy_w ell_set_xc half_oracle (fun (o : unit) (t : R) => Ok o) 1 (1 / 100)
    zmem tt ball2 0 = Ok (w', tt, ball2, false) /\ w' 0%nat 0%nat < 0.
Proof.
  destruct (ball2_update (BScalar (1 / 4))) as (w' & e' & H & Hx & _); [auto|].
  exists w'. unfold ba_call, ell_copy_w. rewrite ball2_copy. cbn [bind].
  unfold cutting_plane_feas, feas_loop, half_oracle, centre.
  cbn [ell_space sp_deref sp_xc fst snd e_xc ball2].
  change (zmem 0%nat 0%nat) with 0.
  destruct (Rltb (- (1 / 4)) 0) eqn:B; [|apply Rltb_false in B; lra].
  cbn [bind]. rewrite Rplus_0_l. fold ball2. change (sp_update ell_space) with (ell_update (A := R)). rewrite H. cbn [bind status_eqb negb].
  destruct (Rltb 1 (1 / 100)) eqn:B2; [apply Rltb_true in B2; lra|].
  cbn [bind feasible]. split; [reflexivity|assumption].
Qed.

Theorem C15_adaptor_ell_refuted :
  ~ (forall (O T : Type) (omega : O -> (nat -> R) -> res (O * option (cut R)))
       (p_update : O -> T -> res O) max_it tol w o s t w' o' s',
     ell_proper s ->
     ba_call ell_space Rltb ell_copy_w ell_set_xc omega p_update max_it tol w o s t
       = Ok (w', o', s', false) ->
     forall i, (i < e_n s)%nat -> ba_x_best ell_space w' s' i = ba_x_best ell_space w s i).
Proof.
  intros H. destruct adaptor_run as (w' & Hr & Hx).
  specialize (H _ _ _ _ _ _ _ _ _ _ _ _ _ ball2_proper Hr 0%nat). cbn in H.
  unfold zmem in H. rewrite H in Hx by lia. lra.
Qed.
Print Assumptions C15_adaptor_ell_refuted.

(** ** C65: what the adaptor over ell does *)
Theorem C65_adaptor_ell_tracks_working_copy :
  forall (A : Type) (N : Num A) (O T : Type) ltb (omega : O -> (nat -> A) -> res (O * option (cut A)))
     (p_update : O -> T -> res O) max_it tol w o s t w' o' s' b,
  ba_call ell_space ltb ell_copy_w ell_set_xc omega p_update max_it tol w o s t
    = Ok (w', o', s', b) ->
  exists c o1 tr c' info,
    ell_copy s = Ok c /\ p_update o t = Ok o1 /\
    cutting_plane_feas ell_space ltb omega max_it tol o1 (w, c) = Ok (tr, o', (w', c'), info) /\
    b = feasible info /\
    ba_x_best ell_space w' s' = centre ell_space (w', c') /\
    e_Q s' = e_Q s /\ e_kappa s' = e_kappa s.
Proof.
  intros * H. apply ba_call_ell in H as (c & o1 & tr & c' & info & H1 & H2 & H3 & H4 & H5 & H6 & H7 & H8).
  exists c, o1, tr, c', info. repeat (split; [assumption|]). split; [congruence|]. auto.
Qed.
Print Assumptions C65_adaptor_ell_tracks_working_copy.
Example C65_hypotheses_met :
  exists w', ba_call ell_space Rltb ell_copy_w ell_set_xc half_oracle
    (fun (o : unit) (t : R) => Ok o) 1 (1 / 100) zmem tt ball2 0 = Ok (w', tt, ball2, false).
Proof. destruct adaptor_run as (w' & H & _). eauto. Qed.
