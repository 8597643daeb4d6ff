(** ell: construction, the no_defer_trick, and a worked ball. *)
From Coq Require Import Reals Lra Psatz.
From Verif Require Import Base M_Drivers M_Ell S_LinAlg P_LinAlg S_Drivers S_Ell
  P_Drivers P_EllCalc P_Ell P_Ell2.
Local Open Scope R_scope.

(** *** Construction *)
Lemma ell_init_ok val n x : n <> 1%nat ->
  exists e, ell_init val n x = Ok e /\ ell_consts e /\ e_n e = n /\ e_xc e = x /\
    e_par e = true /\ e_nodefer e = false /\
    e_kappa e = match val with VScalar v => v | VArray _ => 1 end /\
    e_Q e = match val with VScalar _ => eye | VArray v => diag v end.
Proof.
  intros Hn. unfold ell_init.
  change (two (A := R)) with 2. unfold nofnat. cbn [nofZ none nsub RNum].
  rewrite plus_IZR, minus_IZR, Nat2Z.inj_mul, mult_IZR.
  set (N := IZR (Z.of_nat n)).
  assert (HN : N = 0 \/ 2 <= N).
  { destruct n as [|[|n]]; [left; reflexivity|lia|right; apply IZR_le; lia]. }
  do 6 (rewrite rdiv_ok by nra; cbn [bind]).
  eexists; split; [reflexivity|]. cbn. split; [|repeat split].
  unfold ell_consts; cbn. fold N. repeat split; reflexivity.
Qed.

Lemma ell_init_1 val x : ell_init (A := R) val 1 x = Raise FloatFault.
Proof.
  unfold ell_init. change (two (A := R)) with 2. cbn [nofnat nofZ none nsub RNum].
  do 3 (rewrite rdiv_ok by lra; cbn [bind]).
  cbn. destruct (Req_EM_T (1 - 1) 0); [reflexivity|lra].
Qed.

Lemma eye_bf n u v : bf n eye u v = dot n u v.
Proof.
  unfold bf. apply dot_ext; [reflexivity|]. intros i Hi.
  apply (idm_mv n v i Hi).
Qed.
Lemma diag_mv n d v i : (i < n)%nat -> mvr n (diag d) v i = d i * v i.
Proof.
  intros Hi. unfold mvr, dot, diag.
  rewrite (rsum_single n i); [rewrite Nat.eqb_refl; reflexivity|assumption|].
  intros k _ Hk. destruct (Nat.eqb_spec i k); [congruence|]. cbn. ring.
Qed.

(** *** no_defer_trick *)
Lemma calc_ll_indep (e1 e2 : ell R) T beta :
  ell_consts e1 -> ell_consts e2 -> e_n e1 = e_n e2 -> e_par e1 = e_par e2 ->
  calc_ll e1 T beta = calc_ll e2 T beta.
Proof.
  intros H1 H2 En Ep. destruct e1, e2. cbn in En, Ep. subst.
  unfold ell_consts in *; cbn in *.
  destruct H1 as (-> & -> & -> & -> & -> & ->).
  destruct H2 as (-> & -> & -> & -> & -> & ->). reflexivity.
Qed.

Lemma same_ell_update w1 e1 w2 e2 g beta :
  ell_consts e1 -> ell_consts e2 -> same_ell (w1, e1) (w2, e2) ->
  e_kappa e1 <> 0 -> e_kappa e2 <> 0 ->
  match ell_update (w1, e1) (g, beta), ell_update (w2, e2) (g, beta) with
  | Ok (st1, a1), Ok (st2, a2) =>
      a1 = a2 /\ same_ell st1 st2 /\ ell_consts (snd st1) /\ ell_consts (snd st2)
  | Raise x1, Raise x2 => x1 = x2
  | _, _ => False
  end.
Proof.
  intros C1 C2 (En & Ep & Ex & EQ) K1 K2.
  set (n := e_n e1) in *. set (k1 := e_kappa e1) in *. set (k2 := e_kappa e2) in *.
  set (r := k2 / k1).
  assert (Hr : r <> 0).
  { unfold r. apply Rmult_integral_contrapositive_currified; [assumption|].
    apply Rinv_neq_0_compat; assumption. }
  assert (EQ1 : meq n (e_Q e1) (fun i j => e_Q e2 i j * r)).
  { intros i j Hi Hj. apply Rmult_eq_reg_l with k1; [|assumption].
    rewrite (EQ i j Hi Hj). unfold r. field. assumption. }
  assert (Emv : forall i, (i < n)%nat -> mvr n (e_Q e1) g i = r * mvr n (e_Q e2) g i).
  { intros i Hi. rewrite (mvr_mext n _ _ g i Hi EQ1). apply mvr_scale. }
  assert (Eom : bf n (e_Q e1) g g = r * bf n (e_Q e2) g g).
  { rewrite (bf_mext n _ _ g g EQ1). apply bf_scale. }
  cbn [ell_update]. rewrite <- En. fold n.
  change (ndot n g (mv n (e_Q e1) g)) with (bf n (e_Q e1) g g).
  change (ndot n g (mv n (e_Q e2) g)) with (bf n (e_Q e2) g g).
  change (mv n (e_Q e1) g) with (mvr n (e_Q e1) g).
  change (mv n (e_Q e2) g) with (mvr n (e_Q e2) g).
  fold k1 k2.
  change (nmul k1 (bf n (e_Q e1) g g)) with (k1 * bf n (e_Q e1) g g).
  change (nmul k2 (bf n (e_Q e2) g g)) with (k2 * bf n (e_Q e2) g g).
  replace (k1 * bf n (e_Q e1) g g) with (k2 * bf n (e_Q e2) g g)
    by (rewrite Eom; unfold r; field; assumption).
  rewrite (calc_ll_indep e1 e2) by assumption.
  destruct (calc_ll e2 (k2 * bf n (e_Q e2) g g) beta) as [[tsq out]|x]; cbn [bind]; [|reflexivity].
  destruct out as [s|rho sigma delta].
  { split; [reflexivity|]. split; [repeat split; assumption|]. split; assumption. }
  rewrite Eom. set (om := bf n (e_Q e2) g g) in *.
  destruct (Req_dec om 0) as [E0|E0].
  { rewrite E0, Rmult_0_r. cbn. destruct (Req_EM_T 0 0); [reflexivity|lra]. }
  assert (r * om <> 0) by (apply Rmult_integral_contrapositive_currified; assumption).
  repeat (rewrite rdiv_ok by assumption; cbn [bind]).
  split; [reflexivity|]. split.
  - cbn [same_ell].
    assert (N1 : forall (e : ell R) Q1 d, e_n (if e_nodefer e then ell_set_Q e (fun i j => nmul (Q1 i j) d)
        else ell_set_kappa (ell_set_Q e Q1) (nmul (e_kappa e) d)) = e_n e)
      by (intros; destruct (e_nodefer e); reflexivity).
    assert (N2 : forall (e : ell R) Q1 d, e_xc (if e_nodefer e then ell_set_Q e (fun i j => nmul (Q1 i j) d)
        else ell_set_kappa (ell_set_Q e Q1) (nmul (e_kappa e) d)) = e_xc e)
      by (intros; destruct (e_nodefer e); reflexivity).
    assert (N3 : forall (e : ell R) Q1 d, e_par (if e_nodefer e then ell_set_Q e (fun i j => nmul (Q1 i j) d)
        else ell_set_kappa (ell_set_Q e Q1) (nmul (e_kappa e) d)) = e_par e)
      by (intros; destruct (e_nodefer e); reflexivity).
    assert (N4 : forall (e : ell R) Q1 d i j,
        e_kappa (if e_nodefer e then ell_set_Q e (fun i j => nmul (Q1 i j) d)
          else ell_set_kappa (ell_set_Q e Q1) (nmul (e_kappa e) d))
        * e_Q (if e_nodefer e then ell_set_Q e (fun i j => nmul (Q1 i j) d)
          else ell_set_kappa (ell_set_Q e Q1) (nmul (e_kappa e) d)) i j
        = e_kappa e * Q1 i j * d).
    { intros; destruct (e_nodefer e); cbn; ring. }
    fold k1 in N4. fold k2 in N4. 
    split; [rewrite !N1; assumption|]. split; [rewrite !N3; assumption|]. split.
    + rewrite N1. fold n. intros i Hi. rewrite !N2. unfold mem_set. rewrite !Nat.eqb_refl.
      destruct (Nat.ltb_spec i n); [|lia]. cbn [nsub nmul RNum].
      rewrite Ex, Emv by assumption. field. split; assumption.
    + rewrite N1. fold n. intros i j Hi Hj.
      rewrite (N4 e1), (N4 e2). cbn [nsub nmul RNum]. fold k1 k2.
      rewrite !Emv, (EQ1 i j Hi Hj) by assumption. unfold r. field.
      repeat split; assumption.
  - cbn [snd]. split.
    + destruct (e_nodefer e1); exact C1.
    + destruct (e_nodefer e2); exact C2.
Qed.

Lemma ell_update_kappa_nodefer (w w' : memory R) e e' c a :
  ell_update (w, e) c = Ok ((w', e'), a) -> e_nodefer e = true ->
  e_kappa e' = e_kappa e /\ e_nodefer e' = true.
Proof.
  destruct c as [g beta], a as [s q]. cbn [ell_update]. intros H Hd.
  apply bind_ok in H as ([tsq out] & _ & H). destruct out.
  - injection H as <- <- <- <-. auto.
  - apply bind_ok in H as (ro & _ & H). apply bind_ok in H as (so & _ & H).
    rewrite Hd in H. injection H as <- <- <- <-. split; [reflexivity|assumption].
Qed.

Lemma same_ell_run cs : forall st1 st2,
  ell_consts (snd st1) -> ell_consts (snd st2) -> same_ell st1 st2 ->
  kappa_stays st1 cs -> kappa_stays st2 cs ->
  match ell_run st1 cs, ell_run st2 cs with
  | Ok (st1', l1), Ok (st2', l2) => l1 = l2 /\ same_ell st1' st2'
  | Raise x1, Raise x2 => x1 = x2
  | _, _ => False
  end.
Proof.
  induction cs as [|[g beta] cs IH]; intros [w1 e1] [w2 e2] C1 C2 Hs [K1 H1] [K2 H2].
  - cbn. auto.
  - cbn [ell_run].
    pose proof (same_ell_update w1 e1 w2 e2 g beta C1 C2 Hs K1 K2) as Hu.
    destruct (ell_update (w1, e1) (g, beta)) as [[st1 a1]|x1];
      destruct (ell_update (w2, e2) (g, beta)) as [[st2 a2]|x2]; try contradiction;
      cbn [bind]; [|assumption].
    destruct Hu as (-> & Hs' & C1' & C2').
    specialize (IH st1 st2 C1' C2' Hs' H1 H2).
    destruct (ell_run st1 cs) as [[st1' l1]|x1], (ell_run st2 cs) as [[st2' l2]|x2];
      try contradiction; cbn [bind]; [|assumption].
    destruct IH as [-> IH]. auto.
Qed.

Lemma kappa_stays_nodefer cs : forall st,
  e_nodefer (snd st) = true -> e_kappa (snd st) <> 0 -> kappa_stays st cs.
Proof.
  induction cs as [|c cs IH]; intros [w e] Hd Hk; cbn [kappa_stays]; split; auto.
  destruct (ell_update (w, e) c) as [[[w' e'] a]|] eqn:E; [|trivial].
  apply ell_update_kappa_nodefer in E as [E1 E2]; [|assumption].
  apply IH; cbn in *; congruence.
Qed.

(** *** A worked example: the unit ball in the plane, cut by x <= 0 *)
Definition ball2 : ell R :=
  {| e_n := 2; e_nPlus1 := 3; e_halfN := 2 / 2; e_halfNminus1 := 1 / 2;
     e_c1 := 4 / 3; e_c2 := 2 / 3; e_c3 := 2 / 3; e_xc := 0%nat; e_kappa := 1;
     e_Q := eye; e_par := true; e_nodefer := false |}.
Definition zmem : memory R := fun _ _ => 0.
Definition ex : nat -> R := fun i => if Nat.eqb i 0 then 1 else 0.

Lemma ball2_consts : ell_consts ball2.
Proof. unfold ell_consts; cbn. repeat split; lra. Qed.
Lemma eye_sym n : sym n (eye (A := R)).
Proof. intros i j _ _. unfold eye. rewrite Nat.eqb_sym. reflexivity. Qed.
Lemma dot_self_pos n v : nonzero n v -> 0 < dot n v v.
Proof.
  intros (i & Hi & Hv). unfold dot. apply (rsum_pos_term n _ i); auto.
  - intros; nra.
  - nra.
Qed.
Lemma eye_pd n : pd n eye.
Proof. intros v Hv. rewrite eye_bf. apply dot_self_pos; assumption. Qed.
Lemma ball2_proper : ell_proper ball2.
Proof.
  split; [|split; [apply eye_pd|cbn; lra]].
  split; [cbn; lia|]. split; [apply ball2_consts|]. split; [apply eye_sym|].
  split; [apply pd_psd, eye_pd|cbn; lra].
Qed.
Lemma ball2_mem z : mem_ell (zmem, ball2) z <-> z 0%nat * z 0%nat + z 1%nat * z 1%nat <= 1.
Proof.
  cbn [mem_ell]. assert (inverse (e_n ball2) (e_Q ball2) idm) as Hi.
  { split; intros i j Hi Hj; cbn in Hi, Hj |- *; unfold mm, eye, idm;
      destruct i as [|[|i]]; try lia; destruct j as [|[|j]]; try lia; cbn; ring. }
  rewrite (in_ell_inverse _ _ _ _ _ _ Hi). cbn. unfold bf, mvr, dot, idm, zmem; cbn.
  split; intros H; nra.
Qed.
Lemma ex_nonzero : nonzero 2 ex.
Proof. exists 0%nat. split; [lia|]. unfold ex; cbn; lra. Qed.

Lemma ball2_update beta :
  beta = BScalar 0 \/ beta = BScalar (1 / 4) \/ beta = BArr [1 / 4; 1 / 2] ->
  exists w' e', ell_update (zmem, ball2) (ex, beta) = Ok ((w', e'), (success, 1)) /\
    w' 0%nat 0%nat < 0 /\ e_xc e' = 0%nat /\ e_kappa e' <> 1.
Proof.
  intros Hb.
  assert (Hom : bf 2 eye ex ex = 1) by (rewrite eye_bf; unfold dot, ex; cbn; ring).
  assert (HT : e_kappa ball2 * bf (e_n ball2) (e_Q ball2) ex ex = 1) by (cbn [e_kappa e_n e_Q ball2]; rewrite Hom; ring).
  destruct (ell_update_total zmem ball2 ex beta ball2_proper ex_nonzero) as [Hok _].
  { destruct Hb as [->|[->| ->]]; discriminate. }
  cbn zeta in Hok. rewrite HT in Hok.
  destruct Hok as ([[w' e'] [s q]] & Hu).
  { destruct Hb as [->|[->| ->]]; cbn; rewrite ?sqrt_1; unfold dc_fault; rewrite ?sqrt_1; lra. }
  pose proof Hu as Hu'.
  apply ell_update_spec in Hu as (Eq & Hq & Hc); [|apply ball2_proper].
  rewrite HT in Eq. subst q. exists w', e'.
  destruct Hc as [(-> & -> & Hst)|(-> & _ & rho & sigma & delta & Hst & -> & ->)].
  { exfalso. destruct Hb as [->|[->| ->]]; destruct s; cbn in Hst; rewrite ?sqrt_1 in Hst; lra. }
  split; [assumption|].
  assert (Ex : mem_set zmem (e_xc ball2) (new_xc ball2 (zmem (e_xc ball2)) ex rho) 0%nat 0%nat = - rho).
  { unfold mem_set, new_xc. cbn [e_xc ball2 Nat.eqb e_n e_Q Nat.ltb Nat.leb]. rewrite Hom.
    unfold mvr, dot, ex, eye, zmem; cbn. field. }
  rewrite Ex. cbn [new_e ball2 e_nodefer ell_set_kappa ell_set_Q e_xc e_kappa].
  assert (Hgoal : 0 < rho /\ delta <> 1); [|split; [lra|split; [reflexivity|lra]]].
  destruct Hb as [->|[->| ->]]; cbn in Hst; rewrite ?sqrt_1 in Hst; unfold dc_formula in Hst; rewrite ?sqrt_1 in Hst.
  - destruct Hst as (_ & [(_ & -> & _ & ->)|(X & _)]); [|lra].
    replace (2 * 2 / (2 * 2 - 1)) with (4 / 3) by field. split; lra.
  - destruct Hst as (_ & [(X & _)|(_ & _ & _ & -> & _ & ->)]); [lra|].
    replace (1 / 4 * (1 / 4 / 1)) with (1 / 16) by field.
    replace (2 * 2 / (2 * 2 - 1)) with (4 / 3) by field.
    split; [lra|]. intros X. lra.
  - destruct Hst as [(_ & _ & [X|X])|(HF & _)]; [lra|discriminate|].
    destruct HF as (_ & _ & _ & _ & _ & xi & Hxi & Exi & Es & Ed & Er).
    replace ((1 - 1 / 4 * (1 / 4) / 1) * (1 - 1 / 2 * (1 / 2) / 1) +
        2 / 2 * ((1 / 4 + 1 / 2) / 1) * (1 / 2 - 1 / 4) *
        (2 / 2 * ((1 / 4 + 1 / 2) / 1) * (1 / 2 - 1 / 4))) with (189 / 256) in Exi by field.
    assert (xi < 7 / 8) by nra. assert (3 / 4 < xi) by nra.
    assert (0 < sigma).
    { rewrite Es. replace ((1 / 4 + 1 / 2) / 1 * ((1 / 4 + 1 / 2) / 2) * (2 + 1)) with (27 / 32) by field.
      replace (1 + 1 / 4 * (1 / 2) / 1 - xi) with (9 / 8 - xi) by field. lra. }
    split; [rewrite Er; lra|].
    rewrite Ed.
    replace (2 * 2 / (2 * 2 - 1) *
      ((1 - 1 / 4 * (1 / 4) / 1 + (1 - 1 / 2 * (1 / 2) / 1)) / 2 + xi / 2))
      with (4 / 3 * (27 / 32 + xi / 2)) by field. intros X. lra.
Qed.
