(** Property theorems about the monotone least squares fit in binary64 (C184, C185). *)
From Coq Require Import ZArith Reals Lra Lia Bool List Psatz Floats.SpecFloat.
From Flocq Require Import Core.Core IEEE754.BinarySingleNaN.
From Verif Require Import Base M_Chol M_Lmi M_Misc S_Misc M_MonoF S_MonoF M_Drivers M_Ell S_Drivers P_Drivers T_Drivers S_Ell S_LinAlg P_LinAlg P_Chol P_Chol2 P_CholF P_CholF2 S_Lmi P_Lmi M_Float P_Float P_Float2 S_Float S_Float2 S_EllF S_EllRun P_FSum P_LmiF P_QmiF P_WitF P_WitF2 S_WitF S_WitQ P_QcutF P_RunF P_EllRun P_EllF P_EllF2 M_Examples T_Float T_Float2 T_Float4 T_Float9 T_Float10 T_Float12 T_Float14 T_Float19.
Import ListNotations.
Local Open Scope R_scope.

(** ** C184: mono_decreasing_oracle2 in binary64 *)
Lemma mono_pos (x : nat -> b64) : forall k i g fj, @mono_loop b64 FNum k i x = Some (g, fj) -> Bltb fzero fj = true.
Proof.
  induction k as [|k IH]; intros i g fj H; cbn [mono_loop] in H; [discriminate H|].
  match type of H with (if ?b then _ else _) = _ => destruct b eqn:B end; [|exact (IH _ _ _ H)].
  assert (@nsub b64 FNum (x (i + 1)%nat) (x i) = fj) by congruence. subst fj. exact B.
Qed.
Lemma dot_two n i (g d : nat -> R) : (i + 1 < n)%nat -> (forall k, (k < n)%nat -> g k = if (k =? i + 1)%nat then 1 else if (k =? i)%nat then -1 else 0) ->
  S_LinAlg.dot n g d = d (i + 1)%nat - d i.
Proof.
  intros Hi Hg. transitivity (rsum n (fun k => (if (k =? i + 1)%nat then d k else 0) + (if (k =? i)%nat then - d k else 0))).
  { apply rsum_ext. intros k Hk. rewrite (Hg k Hk). destruct (Nat.eqb_spec k (i + 1)), (Nat.eqb_spec k i); try lia; ring. }
  assert (G : forall m, rsum m (fun k => (if (k =? i + 1)%nat then d k else 0) + (if (k =? i)%nat then - d k else 0)) =
    (if (i + 1 <? m)%nat then d (i + 1)%nat else 0) - (if (i <? m)%nat then d i else 0)).
  { induction m as [|m IH]; cbn [rsum]; [destruct (Nat.ltb_spec (i + 1) 0), (Nat.ltb_spec i 0); try lia; ring|]. rewrite IH.
    destruct (Nat.ltb_spec (i + 1) m), (Nat.ltb_spec i m), (Nat.ltb_spec (i + 1) (S m)), (Nat.ltb_spec i (S m)), (Nat.eqb_spec m (i + 1)), (Nat.eqb_spec m i); try lia; subst; ring. }
  rewrite G. destruct (Nat.ltb_spec (i + 1) n), (Nat.ltb_spec i n); try lia. ring.
Qed.

(** the difference of two neighbours, rounded and enlarged by 8 h *)
Lemma enlarged_le h X D fj : 0 <= h <= / 1024 -> 0 <= D <= X + X -> Rabs (fj - D) <= pow2 (-53) * D + pow2 (-1075) -> fj * (1 + 8 * h) <= D + val_slack h X X.
Proof.
  intros Hh HD Hf. apply Rabs_le_inv in Hf. unfold val_slack.
  assert (P52 : pow2 (-52) = 2 * pow2 (-53)) by (change 2 with (pow2 1); rewrite <- bpow_plus; reflexivity).
  assert (P53 : 0 < pow2 (-53)) by apply bpow_gt_0.
  assert (P73 : pow2 (-1073) = 4 * pow2 (-1075)) by (change (-1073)%Z with (2 + -1075)%Z; rewrite bpow_plus; reflexivity). assert (P75 := bpow_gt_0 radix2 (-1075)).
  assert (K1 : fj * (1 + 8 * h) <= (D + pow2 (-53) * D + pow2 (-1075)) * (1 + 8 * h)) by (apply Rmult_le_compat_r; lra).
  assert (K5 : pow2 (-1075) * (1 + 8 * h) <= pow2 (-1075) * 2) by (apply Rmult_le_compat_l; lra).
  assert (K2 : (D + pow2 (-53) * D) * (1 + 8 * h) <= D + (8 * h + pow2 (-52)) * D).
  { rewrite P52. assert (pow2 (-53) * D * (8 * h) <= pow2 (-53) * D * 1) by (apply Rmult_le_compat_l; [apply Rmult_le_pos; lra|lra]). lra. }
  assert (K3 : (8 * h + pow2 (-52)) * D <= (8 * h + pow2 (-52)) * (X + X)) by (apply Rmult_le_compat_l; lra).
  lra.
Qed.

(** The verdict is exact: the basis oracle is asked exactly when the n coefficients do not increase.  The cut keeps every
    point whose coefficients decrease by at least the rounding of a difference. *)
Theorem C184_mono64_call :
  forall (O T : Type) dot (basis : O -> (nat -> b64) -> T -> res (O * (((nat -> b64) * b64) * option T))) n o x t,
  (forall i, (i < n)%nat -> is_finite (x i) = true) ->
  (non_increasing n (vecR x) -> mono64_call dot basis (S n) o x t = basis o x t) /\
  (~ non_increasing n (vecR x) -> exists g fj, mono64_call dot basis (S n) o x t = Ok (o, ((g, fj), None)) /\
     (forall k, is_finite (g k) = true) /\ g n = fzero /\
     forall X, X <= pow2 1022 -> (forall i, (i < n)%nat -> Rabs (B2R (x i)) <= X) ->
       is_finite fj = true /\ 0 < B2R fj /\
       forall h z, 0 <= h <= / 1024 -> decreasing_by (val_slack h X X) n z -> holds64 (S n) h x g fj z).
Proof.
  intros O T dot basis n o x t Fx. assert (H := C126_mono64_decides n x Fx). unfold mono64_call, mono2_call. cbn [Nat.sub]. rewrite Nat.sub_0_r.
  change (@mono_oracle b64 (FNumD dot) n x) with (@mono_oracle b64 FNum n x).
  destruct (@mono_oracle b64 FNum n x) as [[g1 fj]|] eqn:E.
  - destruct H as (i & Hi & _ & L & Hg & Hf). split.
    { intros N. exfalso. assert (A := N i ltac:(lia)). unfold vecR in A. replace (S i) with (i + 1)%nat in A by lia. lra. }
    intros _. eexists _, fj. split; [reflexivity|]. split.
    { intros k. unfold vset. destruct (Nat.eqb_spec k n); [reflexivity|]. destruct (Nat.ltb_spec k n); [|reflexivity].
      assert (G : forall k0 i0, @mono_loop b64 FNum k0 i0 x = Some (g1, fj) -> is_finite (g1 k) = true).
      { induction k0 as [|k0 IH]; intros i0 H1; cbn [mono_loop] in H1; [discriminate H1|].
        match type of H1 with (if ?b then _ else _) = _ => destruct b end; [|exact (IH _ H1)].
        assert (Eg : g1 = vset (vset (fun _ => @nzero b64 FNum) i0 (@nopp b64 FNum (@none b64 FNum))) (i0 + 1)%nat (@none b64 FNum)) by congruence.
        rewrite Eg. unfold vset. destruct (k =? i0 + 1)%nat; [reflexivity|]. destruct (k =? i0)%nat; reflexivity. }
      exact (G _ _ E). }
    split; [unfold vset; rewrite Nat.eqb_refl; reflexivity|].
    intros X HX Hx. destruct Hf as [Ff Ef]; [eapply Rle_trans; [apply Hx; lia|exact HX]|eapply Rle_trans; [apply Hx; lia|exact HX]|].
    split; [exact Ff|]. split.
    { assert (B := mono_pos x _ _ _ _ E). rewrite (f64_ltb fzero fj eq_refl Ff) in B. destruct (Rlt_bool_spec (B2R fzero) (B2R fj)) as [A|]; [exact A|discriminate B]. }
    intros h z Hh Hz. unfold holds64. rewrite (dot_two (S n) i); [|lia|].
    2: { intros k Hk. unfold vset. change (@nzero b64 (FNumD dot)) with fzero. rewrite <- Hg. destruct (Nat.eqb_spec k n) as [->|].
         - rewrite Hg. destruct (Nat.eqb_spec n (i + 1)); [lia|]. destruct (Nat.eqb_spec n i); [lia|]. reflexivity.
         - destruct (Nat.ltb_spec k n); [reflexivity|lia]. }
    assert (A := Hz i ltac:(lia)). replace (S i) with (i + 1)%nat in A by lia.
    assert (X1 := Hx i ltac:(lia)). assert (X2 := Hx (i + 1)%nat ltac:(lia)). apply Rabs_le_inv in X1, X2.
    assert (K := enlarged_le h X (B2R (x (i + 1)%nat) - B2R (x i)) (B2R fj) Hh ltac:(lra) Ef). lra.
  - split; [reflexivity|]. intros N. exfalso. apply N. intros i Hi. unfold vecR. replace (S i) with (i + 1)%nat by lia. apply H. lia.
Qed.
Print Assumptions C184_mono64_call.

(** what one call of the monotone fit can do *)
Lemma mono_lsq_step {C} (conv : @gcut b64 -> C) dot m F F0 o x t o' cu t1 :
  mono_lsq64_omega dot conv m F F0 o x t = Ok (o', (cu, t1)) -> (forall i, (i < length F)%nat -> is_finite (x i) = true) ->
  (non_increasing (length F) (vecR x) /\ lsq64_omega conv dot m F F0 o x t = Ok (o', (cu, t1))) \/
  (~ non_increasing (length F) (vecR x) /\ o' = o /\ t1 = None /\ exists g fj, cu = conv (g, fj) /\ mono64_call dot (@lsq_call b64 (FNumD dot) F F0 m m (length F)) (S (length F)) o x t = Ok (o, ((g, fj), None))).
Proof.
  intros H Fx. destruct (C184_mono64_call _ _ dot (@lsq_call b64 (FNumD dot) F F0 m m (length F)) (length F) o x t Fx) as [H1 H2].
  unfold mono_lsq64_omega in H. unfold lsq64_omega. 
  assert (D : non_increasing (length F) (vecR x) \/ ~ non_increasing (length F) (vecR x)).
  { assert (A := C126_mono64_decides (length F) x Fx). destruct (@mono_oracle b64 FNum (length F) x) as [[g1 fj]|].
    - right. destruct A as (i & Hi & _ & L & _). intros N. assert (B := N i ltac:(lia)). unfold vecR in B. replace (S i) with (i + 1)%nat in B by lia. lra.
    - left. intros i Hi. unfold vecR. replace (S i) with (i + 1)%nat by lia. apply A. lia. }
  destruct D as [D|D].
  - left. split; [exact D|]. rewrite (H1 D) in H. exact H.
  - right. split; [exact D|]. destruct (H2 D) as (g & fj & E & _). rewrite E in H. cbn [bind] in H.
    split; [congruence|]. split; [congruence|]. exists g, fj. split; [congruence|exact E].
Qed.

(** the optimising driver over the monotone fit, with any search space: the value returned was reported at a point whose
    coefficients do not increase, exactly, and which satisfies both inequalities up to the backward error *)
Theorem C184_mono_lsq64_returned :
  forall (St X C Sc : Type) (sp : space St X (nat -> b64) C Sc) (conv : @gcut b64 -> C) ltb tneq dot m F F0
         o max_it tol st t tr o' st' xb t' info,
  fdot_any dot -> ext64 dot -> lsq_chols m o -> (0 < m)%nat -> (Z.of_nat m <= 2 ^ 20)%Z -> (Z.of_nat (length F) <= 2 ^ 20)%Z ->
  all_sym m (matsR F) ->
  cutting_plane_dc sp ltb tneq (mono_lsq64_omega dot conv m F F0) max_it tol o st t = Ok (tr, o', st', (xb, t', info)) ->
  let n := length F in
  (forall ev i, In ev tr -> (i < n)%nat -> is_finite (d_x ev i) = true) ->
  (xb = None -> t' = t) /\
  (xb <> None -> exists ev, In ev tr /\ t' = d_x ev n /\ non_increasing n (vecR (d_x ev)) /\
     forall M, M <= pow2 400 -> lmi_data m F F0 (d_x ev) M -> is_finite t' = true -> Rabs (B2R t') <= pow2 800 ->
     (forall z, nonzero m z -> - lmi_slack m n M * S_LinAlg.dot m z z < bf m (lin_mat (matsR F) (vecR (d_x ev))) z z) /\
     (forall z, nonzero m z ->
        rsum m (fun r => S_LinAlg.dot m (aff_mat (matR F0) (matsR F) (vecR (d_x ev)) r) z * S_LinAlg.dot m (aff_mat (matR F0) (matsR F) (vecR (d_x ev)) r) z)
        < (B2R t' + qmi_slack m n (B2R t') M) * S_LinAlg.dot m z z)).
Proof.
  intros St X C Sc sp conv ltb tneq dot m F F0 o max_it tol st t tr o' st' xb t' info Hd NE Ho H0 Hm HF SF Hrun n Hfin.
  destruct (C04_dc_last_improvement _ _ _ _ _ _ _ sp ltb tneq (mono_lsq64_omega dot conv m F F0) max_it tol o st t tr o' st' xb t' info Hrun)
    as (Hrep & Hx & _). clear Hrun.
  split.
  { intros ->. destruct Hx as [(_ & -> & _)|(tr1 & ev & tr2 & _ & _ & _ & Hxb)]; [reflexivity|congruence]. }
  intros Hxb. destruct Hx as [(_ & -> & ->)|(tr1 & ev & tr2 & -> & _ & Hev & _)]; [congruence|].
  exists ev. split; [apply in_or_app; right; left; reflexivity|].
  assert (Key : exists o x t0 o1 cu, lsq_chols m o /\ x = d_x ev /\ mono_lsq64_omega dot conv m F F0 o x t0 = Ok (o1, (cu, Some t'))).
  { generalize dependent t. generalize dependent st. generalize dependent o. clear -Hev Hfin.
    induction tr1 as [|e1 tr1 IH]; intros o Hk st t Hrep.
    - cbn in Hrep. inversion Hrep as [|? ? ? c0 t1 o1 st1 s q tr0 ? ? ? Ho]; subst. cbn in Hev. subst t1.
      exists o, (centre sp st), t, o1, c0. auto.
    - cbn in Hrep. inversion Hrep as [|? ? ? c0 t1 o1 st1 s q tr0 ? ? ? Ho ? Hr]; subst.
      assert (Hk1 : lsq_chols m o1).
      { destruct (mono_lsq_step conv dot m F F0 _ _ _ _ _ _ Ho) as [[_ L]|(_ & -> & _)]; [|exact (proj1 (lsq64_step conv dot m F F0 _ _ _ _ _ _ Hk L))|exact Hk].
        intros i Hi. exact (Hfin _ i (or_introl eq_refl) Hi). }
      refine (IH _ o1 Hk1 st1 (best t t1) Hr). intros ev0 i Hi. apply Hfin. right. exact Hi. }
  destruct Key as (oe & x & t0 & o1 & cu & Hko & -> & Hoe).
  destruct (mono_lsq_step conv dot m F F0 _ _ _ _ _ _ Hoe) as [[D L]|(_ & _ & A & _)]; [|clear Hoe|discriminate A].
  { intros i Hi. apply Hfin; [apply in_or_app; right; left; reflexivity|exact Hi]. }
  rename L into Hoe. destruct (lsq64_step conv dot m F F0 _ _ _ _ _ _ Hko Hoe) as [_ Hs]. destruct (Hs t' eq_refl) as [Et _]. fold n in Et.
  split; [exact Et|]. split; [exact D|]. intros M HM Hdata Ft Bt. rewrite Et in Ft, Bt.
  destruct (C150_lsq64_decides dot m F F0 oe (d_x ev) t0 M Hd NE Hko H0 Hm HF HM SF Hdata Ft Bt) as (o2 & g & fj & t1 & E & _ & Hc).
  unfold lsq64_omega in Hoe. rewrite E in Hoe. cbn [bind] in Hoe. assert (T1 : t1 = Some t') by congruence. subst t1. cbv beta iota in Hc.
  destruct Hc as (_ & _ & _ & _ & Hl & Hqd). split; [exact Hl|]. intros z Hz. specialize (Hqd z Hz). fold n in Hqd. rewrite <- Et in Hqd.
  pose proof (bf_qmi_mat m (matR F0) (matsR F) (B2R t') (vecR (d_x ev)) 0 m z) as Eb.
  change (blk (qmi_mat m (matR F0) (matsR F) (B2R t') (vecR (d_x ev))) 0) with (qmi_mat m (matR F0) (matsR F) (B2R t') (vecR (d_x ev))) in Eb.
  rewrite Eb in Hqd. change (rsum m (fun r => Fv 0 m (aff_mat (matR F0) (matsR F) (vecR (d_x ev))) z r * Fv 0 m (aff_mat (matR F0) (matsR F) (vecR (d_x ev))) z r))
    with (rsum m (fun r => S_LinAlg.dot m (aff_mat (matR F0) (matsR F) (vecR (d_x ev)) r) z * S_LinAlg.dot m (aff_mat (matR F0) (matsR F) (vecR (d_x ev)) r) z)) in Hqd.
  lra.
Qed.
Print Assumptions C184_mono_lsq64_returned.

(** ** C185: nosoln of the monotone fit over ell *)
Theorem C185_mono_lsq64_nosoln :
  forall h M G X W Xz MB MF dot dotf ltb tneq m F F0 o max_it tol w e t tr o' st' xb t' info,
  fdot_any dot -> ext64 dot -> fdot_any dotf -> lsq_chols m o ->
  (0 < m)%nat -> (Z.of_nat m <= 2 ^ 20)%Z -> built64 e -> e_n e = S (length F) ->
  all_sym m (matsR F) -> lmi_sizes m F F0 MB MF -> run_bound (length F) MB MF X <= pow2 400 -> X <= pow2 800 ->
  is_finite t = true \/ t = B754_infinity false -> 0 <= Xz ->
  cutting_plane_dc (@ell_space b64 (FNumD dotf)) ltb tneq (mono_lsq64_omega dot cut1 m F F0) max_it tol o (w, e) t = Ok (tr, o', st', (xb, t', info)) ->
  cstatus info = nosoln ->
  single_scaled h M G X W (asked64_dc (@ell_space b64 (FNumD dotf)) (mono_lsq64_omega dot cut1 m F F0) o (w, e) t tr) ->
  forall z, mem64 (w, e) z ->
  ~ cube_in (e_n e) (INR (num_iters info) * drift64 (e_n e) h W X)
      (fun y => lsq_inside m F F0 h MB MF X Xz y /\ decreasing_by (val_slack h X X) (length F) y /\ beats_by (val_slack h X Xz) t' (y (length F))) z.
Proof.
  intros h M G X W Xz MB MF dot dotf ltb tneq m F F0 o max_it tol w e t tr o' st' xb t' info Hd NE Hdf Ho H0 Hm HB EF SF HSz HM HX8 Ht HXz Hrun HN HS.
  match goal with |- forall z, _ -> ~ cube_in _ _ ?K0 z => set (K := K0) end.
  set (om := mono_lsq64_omega dot cut1 m F F0) in *.
  apply (C153_dc_nosoln h M G X W dotf ltb tneq om max_it tol o w e t tr o' st' xb t' info K Hdf HB Hrun HN HS).
  destruct (dc_spec _ _ _ _ _ _ _ _ _ _ _ _ _ _ _ Hrun) as (HR & _). set (n := length F) in *.
  set (P := fun x : nat -> b64 => (0 < n)%nat /\ (Z.of_nat n <= 2 ^ 20)%Z /\ 0 <= X /\ 0 <= h <= / 1024 /\ forall k, (k < S n)%nat -> is_finite (x k) = true /\ Rabs (B2R (x k)) <= X).
  set (I := fun (o : qmi b64 * chol b64 * chol b64) (t : b64) => lsq_chols m o /\ (is_finite t = true \/ t = B754_infinity false)).
  set (Rl := fun a b : b64 => is_finite b = true -> is_finite a = true /\ B2R a <= B2R b).
  assert (ST : forall o x t0 o1 cu t1, I o t0 -> P x -> om o x t0 = Ok (o1, (cu, t1)) -> I o1 (best t0 t1) /\ Rl (best t0 t1) t0).
  { intros o2 x t0 o1 cu t1 [I1 I2] (_ & _ & _ & _ & Hx) Hs.
    destruct (mono_lsq_step cut1 dot m F F0 _ _ _ _ _ _ Hs) as [[_ L]|(_ & -> & -> & _)]; [intros i Hi; apply Hx; unfold n; lia| |].
    2: { cbn [best]. split; [split; assumption|]. intros A. split; [exact A|lra]. }
    clear Hs. destruct (lsq64_step _ _ _ _ _ _ _ _ _ _ _ I1 L) as [J1 J2].
    destruct t1 as [s|]; cbn [best]; [|split; [split; assumption|intros A; split; [exact A|lra]]].
    destruct (J2 s eq_refl) as [-> J3]. fold n in J3. destruct (Hx n ltac:(lia)) as [Fx _]. specialize (J3 Fx).
    split; [split; [exact J1|left; exact Fx]|]. intros Ft. split; [exact Fx|]. rewrite (f64_ltb t0 (x n) Ft Fx) in J3. apply Rnot_lt_le. intros A. rewrite Rlt_bool_true in J3 by exact A. discriminate J3. }
  assert (PN : forall st1 cu, asked64_dc (@ell_space b64 (FNumD dotf)) om o (w, e) t tr st1 cu -> e_n (snd st1) = S n).
  { intros st1 cu (u1 & ev & u2 & o2 & t2 & _ & _ & Hr). rewrite <- EF. change e with (snd (w, e)). clear - Hr.
    remember (w, e) as st eqn:Est. clear Est. induction Hr as [|? ? ? ? ? ? ? ? ? ? ? ? ? E U Hr IH]; [reflexivity|]. rewrite IH. exact (update_n64 dotf _ _ _ _ U). }
  assert (PA : forall st1 cu, asked64_dc (@ell_space b64 (FNumD dotf)) om o (w, e) t tr st1 cu -> P (fst st1 (e_xc (snd st1)))).
  { intros st1 cu HA. assert (EN := PN st1 cu HA). destruct (HS st1 cu HA) as (g & b & _ & S1 & _). destruct (scaled_proper _ _ _ _ _ _ _ S1) as (_ & Hh & HX & _).
    destruct st1 as [w1 e1]. cbn [fst snd] in *. destruct S1 as ([N1 N2] & _ & _ & Sx & _ & _ & _ & _ & _ & _ & _ & _ & Hh1). rewrite EN in *.
    split; [lia|]. split; [lia|]. split; [exact HX|]. split; [lra|exact Sx]. }
  destruct (dc_events dotf om I P Rl (fun _ t0 _ A => conj A (Rle_refl _)) (fun a b c A1 A2 A3 => conj (proj1 (A1 (proj1 (A2 A3)))) (Rle_trans _ _ _ (proj2 (A1 (proj1 (A2 A3)))) (proj2 (A2 A3)))) ST _ _ _ _ _ _ _ HR) as [_ HE].
  { split; assumption. }
  { exact PA. }
  intros ev g b y Hin Ec (Y1 & YD & Y2). destruct (HE ev Hin) as (st1 & o1 & o2 & t0 & HA & EN & Ex & [I1 I2] & Hs & R1 & R2).
  assert (PX := PA st1 _ HA). rewrite <- Ex in PX. destruct PX as (N1 & N2 & HX & Hh & Hx).
  destruct (HS st1 _ HA) as (g1 & b1 & Eg & S1 & _). assert (g1 = g) by congruence. assert (b1 = b) by congruence. subst g1 b1. clear Eg.
  assert (EN1 := PN st1 _ HA). destruct st1 as [w1 e1]. cbn [fst snd] in *.
  destruct S1 as (_ & _ & Sg & _ & _ & [Fb _] & _). rewrite EN1 in Sg. rewrite EF. rewrite Ec in Hs.
  set (x := d_x ev) in *. destruct (mono_lsq_step cut1 dot m F F0 _ _ _ _ _ _ Hs) as [[_ L]|(D & _ & _ & g1 & fj & Eu & L)]; [intros i Hi; apply Hx; unfold n; lia| |].
  - unfold lsq64_omega in L. apply bind_ok in L as ([o3 [cu s3]] & L & Eo).
    assert (Eu : cut1 cu = (g, BScalar b)) by congruence. assert (Es : s3 = d_t1 ev) by congruence. clear Eo. rewrite <- Es in *. clear Es.
    destruct cu as [gu bu]. cbn [fst snd] in Eu. assert (gu = g) by congruence. assert (bu = b) by congruence. subst gu bu. clear Eu.
    apply (lsq64_call_holds dot m F F0 x h MB MF X Xz y o1 o3 t0 t' g b s3); try assumption. intros k Hk. apply Sg, Hk.
  - cbn [fst snd] in Eu. assert (g1 = g) by congruence. assert (fj = b) by congruence. subst g1 fj. clear Eu.
    destruct (C184_mono64_call _ _ dot (@lsq_call b64 (FNumD dot) F F0 m m (length F)) (length F) o1 x t0) as [_ H2]; [intros i Hi; apply Hx; unfold n; lia|].
    destruct (H2 D) as (g2 & f2 & E2 & _ & _ & V). rewrite L in E2. assert (g2 = g) by congruence. assert (f2 = b) by congruence. subst g2 f2.
    destruct (V X) as (_ & _ & V2); [eapply Rle_trans; [exact HX8|apply bpow_le; lia]|intros i Hi; apply Hx; unfold n; lia|].
    apply V2; assumption.
Qed.
Print Assumptions C185_mono_lsq64_nosoln.

(** Non-vacuity.  C184: a run that meets a rising vector of coefficients, cuts it, and later reports a value.  C185: two
    coefficients; the unit ball about (0, 4, 0) misses y_1 - y_0 <= 0. *)
Definition x184 : nat -> b64 := fun k => match k with 0%nat => fmake 1 0 | 1%nat => fmake 3 0 | _ => fmake 16 0 end.
Example C184_ex_call : (forall i, (i < 2)%nat -> is_finite (x184 i) = true) /\ ~ non_increasing 2 (vecR x184) /\
  (forall i, (i < 2)%nat -> Rabs (B2R (x184 i)) <= 4) /\ decreasing_by (val_slack (pow2 (-37)) 4 4) 2 (fun i => 2 - INR i) /\ non_increasing 2 (vecR (fun k => if (k =? 0)%nat then fmake 3 0 else fmake 1 0)).
Proof.
  assert (E3 : B2R (fmake 3 0) = 3) by (rewrite r_of by lia; change (pow2 0) with 1; lra).
  split; [intros [|[|i]] Hi; try lia; reflexivity|]. split.
  { intros N. assert (A := N 0%nat ltac:(lia)). unfold vecR, x184 in A. rewrite E3, r1 in A. lra. }
  split; [intros [|[|i]] Hi; try lia; unfold x184; rewrite ?E3, ?r1; apply Rabs_le; lra|]. split.
  { intros i Hi. assert (i = 0%nat) by lia. subst i. unfold val_slack. assert (T1 := tiny (-37) ltac:(lia)). assert (T2 := tiny (-52) ltac:(lia)). assert (T3 := tiny (-1073) ltac:(lia)). cbn [INR]. lra. }
  intros i Hi. assert (i = 0%nat) by lia. subst i. unfold vecR. cbn [Nat.eqb]. rewrite E3, r1. lra.
Qed.
Definition exF8 : list (nat -> nat -> b64) := [fun _ _ => fmake 1 (-2); fun _ _ => fmake 1 (-2)].
Definition exB8 : nat -> nat -> b64 := fun _ _ => fmake 9 (-2).
Definition ex_mono_run : option (bool * list bool * bool) :=
  match @ell_init b64 FNum (VScalar (fmake 64 0)) 3 0%nat with
  | Raise _ => None
  | Ok e =>
      match cutting_plane_dc (@ell_space b64 FNum) (fun x y => Bltb x y) (fun _ _ => true)
              (mono_lsq64_omega fdot_seq (fun c => (fst c, BScalar (snd c))) 1 exF8 exB8) 3 (fmake 1 (-20))
              o7 (fun _ => x184, e) (B754_infinity false) with
      | Ok (tr, Q', st', (xb, t', info)) =>
          Some (match xb with Some _ => true | None => false end,
                map (fun ev => match d_t1 ev with Some _ => true | None => false end) tr, Bltb t' (fmake 16 0))
      | Raise _ => None
      end
  end.
Example C184_ex : ex_mono_run = Some (true, [false; true; true], true).
Proof. vm_compute. reflexivity. Qed.

Definition ell3_of (e : ell b64) (w : memory b64) : list spec_float :=
  B2SF (e_kappa e) :: flat_map (fun i => map (fun j => B2SF (e_Q e i j)) [0; 1; 2]%nat) [0; 1; 2]%nat.
Definition x185 : nat -> b64 := fun k => if (k =? 1)%nat then fmake 4 0 else fzero.
Definition y185 : nat -> R := fun k => match k with 0%nat => 9 | 1%nat => 1 | _ => 5 end.
Definition ex185_info (w : memory b64) (x : res (ell b64)) : option (nat * list spec_float * list spec_float * status) :=
  match x with
  | Ok e => match mono_lsq64_omega fdot_seq cut1 1 exF8 exB8 o7 x185 (B754_infinity false) with
            | Ok (_, ((g, BScalar ep), None)) =>
                match @ell_update b64 (FNumD fdot_seq) (w, e) (g, BScalar ep) with
                | Ok (_, (s, _)) => Some (e_n e, ell3_of e w, [B2SF (g 0%nat); B2SF (g 1%nat); B2SF (g 2%nat); B2SF ep], s)
                | Raise _ => None end
            | _ => None end
  | Raise _ => None end.
Lemma ex8_bound : run_bound 2 (9 / 4) (fun _ => / 4) 4 = 17 / 4.
Proof. unfold run_bound. cbn [rsum]. field. Qed.
Lemma ex8_sizes : lmi_sizes 1 exF8 exB8 (9 / 4) (fun _ => / 4).
Proof.
  split.
  - intros i j _ _. split; [reflexivity|]. split; [unfold matR, exB8; rewrite r_of by lia; change (pow2 (-2)) with (/ 4); apply Rabs_le; lra|]. intros Fk [<-|[<-|[]]]; reflexivity.
  - intros k i j Hk _ _. rewrite nth_matsR. destruct k as [|[|k]]; [| |cbn in Hk; lia]; cbn [nth exF8]; rewrite r_of by lia; change (pow2 (-2)) with (/ 4); apply Rabs_le; lra.
Qed.
Lemma ex8_inside : lsq_inside 1 exF8 exB8 (pow2 (-37)) (9 / 4) (fun _ => / 4) 4 10 y185.
Proof.
  assert (T1 := tiny (-500) ltac:(lia)). assert (T2 := tiny (-1000) ltac:(lia)). assert (T3 := tiny (-45) ltac:(lia)). assert (T4 := tiny (-48) ltac:(lia)). assert (T5 := tiny (-37) ltac:(lia)).
  assert (T6 := tiny (-46) ltac:(lia)). assert (T7 := tiny (-50) ltac:(lia)). assert (T8 := tiny (-51) ltac:(lia)).
  set (a := pow2 (-500)) in *. set (b := pow2 (-1000)) in *.
  split; [|split].
  - intros k Hk. destruct k as [|[|[|k]]]; [| | |cbn in Hk; lia]; unfold y185; apply Rabs_le; lra.
  - apply (psd_by_mono 1 1).
    + unfold run_margin. change (length exF8) with 2%nat. rewrite ex8_bound. unfold cut_slack. cbn [rsum]. change (INR 1) with 1. change (INR 2) with 2. fold b.
      assert (B1 : pow2 (-46) * (17 / 4 + b) <= / 1048576 * 5) by (apply Rmult_le_compat; lra).
      assert (B2 : pow2 (-50) * ((4 + 10) * (0 + (/ 4 + b) + (/ 4 + b))) <= / 1048576 * (14 * 1)) by (apply Rmult_le_compat; lra).
      assert (B3 : pow2 (-37) * (17 / 4 + b) <= / 1048576 * 5) by (apply Rmult_le_compat; lra). lra.
    + intros v. rewrite bf_sums. unfold lin_mat, S_LinAlg.dot, y185, matsR, exF8, matR. cbn [rsum length map nth Nat.eqb]. rewrite !r_of by lia. change (pow2 (-2)) with (/ 4).
      assert (V0 := Rle_0_sqr (v 0%nat)). unfold Rsqr in *. lra.
  - apply (psd_by_mono 1 1).
    + unfold lsq_margin. change (length exF8) with 2%nat. rewrite ex8_bound. unfold qcut_slack, qmi_size. cbn [rsum]. change (INR 1) with 1. change (INR 2) with 2. rewrite (Rabs_right 4) by lra. fold a b.
      set (z := 17 / 4 + a). assert (Z0 : 0 <= z <= 5) by (unfold z; lra). assert (S0 : 0 <= z * z) by (apply Rmult_le_pos; lra). assert (S1 : z * z <= 5 * 5) by (apply Rmult_le_compat; lra).
      assert (B1 : pow2 (-45) * (4 + 1 * (z * z)) <= / 1048576 * 29) by (apply Rmult_le_compat; lra).
      assert (B2 : pow2 (-37) * (4 + 1 * (z * z)) <= / 1048576 * 29) by (apply Rmult_le_compat; lra).
      assert (B3 : z * ((4 + 10) * (0 + (/ 4 + a + b) + (/ 4 + a + b))) <= 5 * 14) by (apply Rmult_le_compat; lra).
      assert (B5 : 0 <= z * ((4 + 10) * (0 + (/ 4 + a + b) + (/ 4 + a + b)))) by (apply Rmult_le_pos; lra).
      assert (B4 : pow2 (-48) * (z * ((4 + 10) * (0 + (/ 4 + a + b) + (/ 4 + a + b)))) <= / 1048576 * (5 * 14)) by (apply Rmult_le_compat; lra).
      lra.
    + intros v. rewrite bf_sums. unfold qmi_mat, aff_mat, lin_mat, S_LinAlg.dot, y185, matsR, exF8, matR, exB8. cbn [rsum length map nth Nat.eqb]. rewrite !r_of by lia. change (pow2 (-2)) with (/ 4).
      assert (V0 := Rle_0_sqr (v 0%nat)). unfold Rsqr in *. lra.
Qed.
Example C185_ex : exists (e : ell b64) w tr o' st' xb info z,
  fdot_any fdot_seq /\ ext64 fdot_seq /\ lsq_chols 1 o7 /\ built64 e /\ e_n e = S (length exF8) /\ all_sym 1 (matsR exF8) /\
  lmi_sizes 1 exF8 exB8 (9 / 4) (fun _ => / 4) /\ run_bound (length exF8) (9 / 4) (fun _ => / 4) 4 <= pow2 400 /\ 4 <= pow2 800 /\
  cutting_plane_dc (@ell_space b64 (FNumD fdot_seq)) (fun _ _ => false) (fun _ _ => false) (mono_lsq64_omega fdot_seq cut1 1 exF8 exB8) 5 fzero o7 (w, e) (B754_infinity false)
    = Ok (tr, o', st', (xb, B754_infinity false, info)) /\
  cstatus info = nosoln /\
  single_scaled (pow2 (-37)) 1 1 4 2 (asked64_dc (@ell_space b64 (FNumD fdot_seq)) (mono_lsq64_omega fdot_seq cut1 1 exF8 exB8) o7 (w, e) (B754_infinity false) tr) /\
  mem64 (w, e) z /\ lsq_inside 1 exF8 exB8 (pow2 (-37)) (9 / 4) (fun _ => / 4) 4 10 y185 /\ decreasing_by (val_slack (pow2 (-37)) 4 4) 2 y185 /\ beats_by (val_slack (pow2 (-37)) 4 10) (B754_infinity false) (y185 2%nat).
Proof.
  set (w := (fun (_ : loc) => x185) : memory b64).
  assert (X : ex185_info w (@ell_init b64 FNum (VScalar (fmake 1 0)) 3 0%nat) =
    Some (3%nat, map B2SF [fmake 1 0; fmake 1 0; fzero; fzero; fzero; fmake 1 0; fzero; fzero; fzero; fmake 1 0], map B2SF [fmake (-1) 0; fmake 1 0; fzero; fmake 4 0], nosoln)) by (vm_compute; reflexivity).
  revert X. destruct (@ell_init b64 FNum (VScalar (fmake 1 0)) 3 0%nat) as [e|] eqn:E; [|discriminate]. unfold ex185_info.
  match goal with |- match ?u with Ok _ => _ | Raise _ => _ end = _ -> _ => destruct u as [[o' [[g [ep|?]] [t1|]]]|] eqn:L; try discriminate end.
  match goal with |- match ?u with Ok _ => _ | Raise _ => _ end = _ -> _ => destruct u as [[st2 [s tsq]]|] eqn:U; [|discriminate] end. intros X.
  unfold ell3_of in X. cbn [map flat_map app] in X.
  assert (En : e_n e = 3%nat) by congruence. assert (Es : s = nosoln) by congruence.
  assert (I : forall x y : b64, B2SF x = B2SF y -> x = y) by (intros x y; apply B2SF_inj).
  assert (X1 : e_kappa e = fmake 1 0) by (apply I; congruence).
  assert (Q00 : e_Q e 0%nat 0%nat = fmake 1 0) by (apply I; congruence).
  assert (Q01 : e_Q e 0%nat 1%nat = fzero) by (apply I; congruence).
  assert (Q02 : e_Q e 0%nat 2%nat = fzero) by (apply I; congruence).
  assert (Q10 : e_Q e 1%nat 0%nat = fzero) by (apply I; congruence).
  assert (Q11 : e_Q e 1%nat 1%nat = fmake 1 0) by (apply I; congruence).
  assert (Q12 : e_Q e 1%nat 2%nat = fzero) by (apply I; congruence).
  assert (Q20 : e_Q e 2%nat 0%nat = fzero) by (apply I; congruence).
  assert (Q21 : e_Q e 2%nat 1%nat = fzero) by (apply I; congruence).
  assert (Q22 : e_Q e 2%nat 2%nat = fmake 1 0) by (apply I; congruence).
  assert (G0 : g 0%nat = fmake (-1) 0) by (apply I; congruence).
  assert (G1 : g 1%nat = fmake 1 0) by (apply I; congruence).
  assert (G3 : g 2%nat = fzero) by (apply I; congruence).
  assert (G2 : ep = fmake 4 0) by (apply I; congruence). clear X I. subst s ep.
  assert (RM : B2R (fmake (-1) 0) = -1) by (rewrite r_of by lia; change (pow2 0) with 1; lra).
  assert (BF : forall u v, bf 3 (fun i j => B2R (e_Q e i j)) u v = u 0%nat * v 0%nat + u 1%nat * v 1%nat + u 2%nat * v 2%nat).
  { intros u v. rewrite bf_sums. cbn [rsum]. rewrite Q00, Q01, Q02, Q10, Q11, Q12, Q20, Q21, Q22, r1. change (B2R fzero) with 0. ring. }
  assert (S1 : scaled64 (pow2 (-37)) 1 1 4 (w, e) g (fmake 4 0)).
  { assert (P200 : pow2 (-200) <= 1 <= pow2 200) by (change 1 with (pow2 0); split; apply bpow_le; lia).
    assert (P1000 : 4 <= pow2 1000) by (change 4 with (pow2 2); apply bpow_le; lia).
    unfold scaled64. cbv zeta. rewrite En. split; [split; lia|]. split.
    { intros i j Hi Hj. destruct i as [|[|[|i]]]; [| | |lia]; (destruct j as [|[|[|j]]]; [| | |lia]); rewrite ?Q00, ?Q01, ?Q02, ?Q10, ?Q11, ?Q12, ?Q20, ?Q21, ?Q22;
        (split; [reflexivity|]); rewrite ?r1; change (B2R fzero) with 0; apply Rabs_le; lra. }
    split. { intros i Hi. destruct i as [|[|[|i]]]; [| | |lia]; rewrite ?G0, ?G1, ?G3; (split; [reflexivity|]); rewrite ?RM, ?r1; change (B2R fzero) with 0; apply Rabs_le; lra. }
    split. { intros i Hi. destruct i as [|[|[|i]]]; [| | |lia]; (split; [reflexivity|]); unfold w, x185; cbn [Nat.eqb]; rewrite ?r4; change (B2R fzero) with 0; apply Rabs_le; lra. }
    rewrite X1, r1, r4. split; [split; [reflexivity|lra]|]. split; [split; [reflexivity|lra]|].
    split. { intros i j Hi Hj. destruct i as [|[|[|i]]]; [| | |lia]; (destruct j as [|[|[|j]]]; [| | |lia]); rewrite ?Q01, ?Q02, ?Q10, ?Q12, ?Q20, ?Q21; reflexivity. }
    split. { intros u. rewrite BF. assert (A0 := Rle_0_sqr (u 0%nat)). assert (A1 := Rle_0_sqr (u 1%nat)). assert (A2 := Rle_0_sqr (u 2%nat)). unfold Rsqr in *. lra. }
    split; [lra|]. split; [lra|]. split; [lra|]. split.
    + rewrite BF, G0, G1, G3, RM, r1. change (B2R fzero) with 0. change (IZR (Z.of_nat 3)) with 3.
      replace (pow2 (-37)) with (8192 * pow2 (-50)) by (change 8192 with (pow2 13); rewrite <- bpow_plus; reflexivity). assert (0 < pow2 (-50)) by apply bpow_gt_0. lra.
    + change (/ 1024) with (pow2 (-10)). apply bpow_le. lia. }
  set (tr := [{| d_x := x185; d_t := B754_infinity false : b64; d_cut := (g, BScalar (fmake 4 0)); d_t1 := None; d_status := nosoln; d_tsq := tsq |}]).
  exists e, w, tr, o', st2, None, {| feasible := false; num_iters := 1; cstatus := nosoln |}, (vecR x185).
  split; [exact fnum_dot_any|]. split; [exact fdot_seq_ext|]. split; [repeat split|]. split; [exists (VScalar (fmake 1 0)), 0%nat, e; rewrite En; split; [exact E|auto]|].
  split; [exact En|]. split; [intros Fk [<-|[<-|[]]] i j _ _; reflexivity|]. split; [exact ex8_sizes|].
  split; [change (length exF8) with 2%nat; rewrite ex8_bound; assert (8 <= pow2 400) by (change 8 with (pow2 3); apply bpow_le; lia); lra|].
  split; [change 4 with (pow2 2); apply bpow_le; lia|].
  split.
  { unfold cutting_plane_dc. cbn [dc_loop]. change (centre (@ell_space b64 (FNumD fdot_seq)) (w, e)) with x185. rewrite L. cbn [bind fst snd sp_update ell_space]. rewrite U.
    cbn [bind status_eqb negb]. reflexivity. }
  split; [reflexivity|]. split.
  { intros st1 c (tr1 & ev & tr2 & o1 & t2 & Et & Ec & HR). unfold tr in Et. destruct tr1 as [|e1 tr1]; [|destruct tr1; discriminate Et].
    inversion HR; subst. exists g, (fmake 4 0). split; [cbn [app] in Et; assert (Ee : ev = {| d_x := x185; d_t := B754_infinity false : b64; d_cut := (g, BScalar (fmake 4 0)); d_t1 := None; d_status := nosoln; d_tsq := tsq |}) by congruence; rewrite Ee; reflexivity|]. split; [exact S1|]. cbn [snd]. rewrite X1, r1. lra. }
  split. { unfold mem64. rewrite En. exists (fun _ => 0). split.
    + intros i Hi. unfold mvr, S_LinAlg.dot. cbn [rsum]. unfold vecR, w. ring.
    + rewrite BF, X1, r1. lra. }
  split; [exact ex8_inside|]. split.
  { intros i Hi. assert (i = 0%nat) by lia. subst i. unfold val_slack, y185. assert (T1 := tiny (-37) ltac:(lia)). assert (T2 := tiny (-52) ltac:(lia)). assert (T3 := tiny (-1073) ltac:(lia)). lra. }
  intros A. discriminate A.
Qed.
