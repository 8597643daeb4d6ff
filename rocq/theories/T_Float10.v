(** Property theorems about runs of ell in binary64 (C152, C153). *)
From Coq Require Import ZArith Reals Lra Lia Bool List Psatz Floats.SpecFloat.
From Flocq Require Import Core.Core IEEE754.BinarySingleNaN.
From Verif Require Import Base M_Drivers M_Ell S_Drivers P_Drivers S_Ell S_LinAlg P_LinAlg M_Float P_Float P_Float2 S_Float S_EllF S_EllRun P_FSum P_EllF2 P_EllF3 P_Ell4 T_Float T_Float2 T_Float7 P_EllRun.
Import ListNotations.
Local Open Scope R_scope.

(** ** C152: a successful update moves a point that satisfies the cut by at most drift64 *)
Theorem C152_update_moves h M G X W dotf w e g b st' tsq z :
  fdot_any dotf -> built64 e -> scaled64 h M G X (w, e) g b -> B2R (e_kappa e) * M <= W ->
  @ell_update b64 (FNumD dotf) (w, e) (g, BScalar b) = Ok (st', (success, tsq)) -> ell_proper (snd st') ->
  mem64 (w, e) z -> sat64 (w, e) g b z ->
  e_n (snd st') = e_n e /\ exists y, mem64 st' y /\ forall i, (i < e_n e)%nat -> Rabs (y i - z i) <= drift64 (e_n e) h W X.
Proof. exact (upd64_split h M G X W dotf w e g b st' tsq z). Qed.
Print Assumptions C152_update_moves.

(** a run of N successful updates: a point whose cube of half-side N * drift64 satisfies every cut is still
    within N * drift64 of the set *)
Theorem C152_run_keeps h M G X W dotf st l st' z :
  fdot_any dotf -> ell_run64 dotf st l st' -> built64 (snd st) ->
  (forall s g b, In (s, (g, b)) l -> scaled64 h M G X s g b /\ B2R (e_kappa (snd s)) * M <= W) ->
  ell_proper (snd st') -> mem64 st z ->
  let rho := INR (length l) * drift64 (e_n (snd st)) h W X in
  (forall s g b, In (s, (g, b)) l -> cube_in (e_n (snd st)) rho (sat64 s g b) z) ->
  e_n (snd st') = e_n (snd st) /\ exists y, mem64 st' y /\ forall i, (i < e_n (snd st))%nat -> Rabs (y i - z i) <= rho.
Proof.
  intros HD HR HB HS HP Hz rho HC.
  destruct (run_keeps h M G X W dotf st l st' HD HR HB HS HP z z 0 Hz) as (_ & EN & y & Hy & Dy).
  - intros i _. rewrite Rminus_diag_eq, Rabs_R0 by reflexivity. lra.
  - rewrite Rplus_0_l. exact HC.
  - split; [exact EN|]. exists y. split; [exact Hy|]. rewrite Rplus_0_l in Dy. exact Dy.
Qed.
Print Assumptions C152_run_keeps.

(** and if the next update answers nosoln, the cube leaves the half-space of that cut, enlarged by 8 h beta *)
Theorem C152_run_nosoln h M G X W dotf st l st1 g b st' tsq z :
  fdot_any dotf -> ell_run64 dotf st l st1 -> built64 (snd st) ->
  (forall s g b, In (s, (g, b)) l -> scaled64 h M G X s g b /\ B2R (e_kappa (snd s)) * M <= W) ->
  scaled64 h M G X st1 g b ->
  @ell_update b64 (FNumD dotf) st1 (g, BScalar b) = Ok (st', (nosoln, tsq)) -> mem64 st z ->
  let rho := INR (length l) * drift64 (e_n (snd st)) h W X in
  (forall s g b, In (s, (g, b)) l -> cube_in (e_n (snd st)) rho (sat64 s g b) z) ->
  ~ cube_in (e_n (snd st)) rho (holds64 (e_n (snd st)) h (fst st1 (e_xc (snd st1))) g b) z.
Proof.
  intros HD HR HB HS S1 U Hz rho HC HN.
  destruct (C152_run_keeps h M G X W dotf st l st1 z HD HR HB HS (proj1 (scaled_proper _ _ _ _ _ _ _ S1)) Hz HC) as (EN & y & Hy & Dy).
  destruct st1 as [w1 e1]. cbn [fst snd] in *.
  assert (N := C142_nosoln_margin h M G X dotf w1 e1 g b st' tsq y HD S1 U Hy). rewrite EN in N. specialize (HN y Dy). unfold holds64 in HN. lra.
Qed.
Print Assumptions C152_run_nosoln.

(** ** C153: nosoln of the drivers over ell in binary64 *)
Lemma feas_run {O} dotf ltb tol (omega : O -> (nat -> b64) -> res (O * option (@cut b64))) : forall tr0 o st o1 st1 rest,
  feas_replay (@ell_space b64 (FNumD dotf)) omega o st tr0 o1 st1 -> Forall (fgo ltb tol) tr0 ->
  (forall s c, asked64 (@ell_space b64 (FNumD dotf)) omega o st (tr0 ++ rest) s c -> exists g b, c = (g, BScalar b)) ->
  exists l, ell_run64 dotf st l st1 /\ length l = length tr0 /\
    forall s g b, In (s, (g, b)) l -> asked64 (@ell_space b64 (FNumD dotf)) omega o st (tr0 ++ rest) s (g, BScalar b) /\
      exists q, In (fst s (e_xc (snd s)), Some ((g, BScalar b), success, q)) tr0.
Proof.
  intros tr0 o st o1 st1 rest HR. revert rest. induction HR as [o st|o st o1 E|o st c o1 st1 s q tr o' st' E U HR IH]; intros rest HF HA.
  - exists []. split; [constructor|]. split; [reflexivity|]. intros s g b [].
  - inversion HF as [|e l0 F1 F2]; subst. destruct F1 as (x & c & q & Ee & _). discriminate Ee.
  - inversion HF as [|e l0 F1 F2]; subst. destruct F1 as (x & c1 & q1 & Ee & _).
    assert (E1 : s = success) by congruence. subst s.
    assert (A0 : asked64 (@ell_space b64 (FNumD dotf)) omega o st (((centre (@ell_space b64 (FNumD dotf)) st, Some (c, success, q)) :: tr) ++ rest) st c).
    { exists [], (centre (@ell_space b64 (FNumD dotf)) st), success, q, (tr ++ rest), o. split; [reflexivity|constructor]. }
    assert (AT : forall s c0, asked64 (@ell_space b64 (FNumD dotf)) omega o1 st1 (tr ++ rest) s c0 ->
      asked64 (@ell_space b64 (FNumD dotf)) omega o st (((centre (@ell_space b64 (FNumD dotf)) st, Some (c, success, q)) :: tr) ++ rest) s c0).
    { intros s c0 (t1 & x0 & s0 & q0 & t2 & o2 & Et & Hr). exists ((centre (@ell_space b64 (FNumD dotf)) st, Some (c, success, q)) :: t1), x0, s0, q0, t2, o2.
      split; [cbn [app]; rewrite Et; reflexivity|]. eapply FR_cut; eassumption. }
    destruct (HA st c A0) as (g & b & ->).
    destruct (IH rest F2) as (l & HL & LL & HI); [intros s c0 H; exact (HA s c0 (AT s c0 H))|].
    exists ((st, (g, b)) :: l). split; [exact (ER_cons dotf st g b st1 q l st' U HL)|]. split; [cbn [length]; congruence|].
    intros s g0 b0 [Eh|Hi].
    + assert (s = st) by congruence. assert (g0 = g) by congruence. assert (b0 = b) by congruence. subst. split; [exact A0|]. exists q. left. reflexivity.
    + destruct (HI s g0 b0 Hi) as [HI1 [q0 HI2]]. split; [apply AT; exact HI1|]. exists q0. right. exact HI2.
Qed.

Lemma holds_sat h n x g b y : 0 <= h -> 0 <= B2R b -> holds64 n h x g b y -> dot n (fun i => B2R (g i)) (fun i => y i - B2R (x i)) + B2R b <= 0.
Proof. unfold holds64. intros H1 H2 H3. nra. Qed.
Lemma cube_mono n r1 r2 (K1 K2 : (nat -> R) -> Prop) z : r1 <= r2 -> (forall y, K2 y -> K1 y) -> cube_in n r2 K2 z -> cube_in n r1 K1 z.
Proof. intros Hr HK H y Hy. apply HK, H. intros i Hi. eapply Rle_trans; [apply Hy; exact Hi|exact Hr]. Qed.

Lemma run_n dotf st l st' : ell_run64 dotf st l st' -> e_n (snd st') = e_n (snd st).
Proof.
  intros H. induction H as [|st g b st1 tsq l st2 U HR IH]; [reflexivity|]. rewrite IH. clear IH HR.
  destruct st as [w e]. unfold ell_update in U.
  repeat match type of U with
  | bind ?u _ = _ => destruct u as [?|?]; cbn [bind] in U; [|discriminate U]
  | (let '(_, _) := ?u in _) = _ => destruct u as [? ?]
  | (match ?u with _ => _ end) = _ => destruct u
  end; try discriminate U; inversion U; subst; try reflexivity; cbn [snd]; destruct (e_nodefer e); reflexivity.
Qed.

(** the common end of both drivers *)
Lemma run_end h M G X W dotf st l st1 g b st' tsq (K : (nat -> R) -> Prop) z N :
  fdot_any dotf -> ell_run64 dotf st l st1 -> built64 (snd st) ->
  (forall s g b, In (s, (g, b)) l -> scaled64 h M G X s g b /\ B2R (e_kappa (snd s)) * M <= W) -> (length l <= N)%nat ->
  (forall s g b y, In (s, (g, b)) l -> K y -> holds64 (e_n (snd st)) h (fst s (e_xc (snd s))) g b y) ->
  scaled64 h M G X st1 g b ->
  @ell_update b64 (FNumD dotf) st1 (g, BScalar b) = Ok (st', (nosoln, tsq)) ->
  (forall y, K y -> holds64 (e_n (snd st)) h (fst st1 (e_xc (snd st1))) g b y) ->
  mem64 st z -> ~ cube_in (e_n (snd st)) (INR N * drift64 (e_n (snd st)) h W X) K z.
Proof.
  intros HD HR HB HS HN HK S1 U HK1 Hz HC. destruct (scaled_proper _ _ _ _ _ _ _ S1) as (_ & H0 & X0 & _).
  assert (U0 := drift_nn (e_n (snd st)) h W X ltac:(lra) X0).
  assert (LE : INR (length l) * drift64 (e_n (snd st)) h W X <= INR N * drift64 (e_n (snd st)) h W X) by (apply Rmult_le_compat_r; [exact U0|apply le_INR; exact HN]).
  refine (C152_run_nosoln h M G X W dotf st l st1 g b st' tsq z HD HR HB HS S1 U Hz _ _).
  - intros s g0 b0 Hi. eapply cube_mono; [exact LE| |exact HC]. intros y Ky.
    assert (EN : e_n (snd s) = e_n (snd st)).
    { clear - HR Hi. induction HR as [|st g b st1 tsq l st2 U HR IH]; [destruct Hi|]. destruct Hi as [E|Hi]; [congruence|]. rewrite (IH Hi).
      exact (run_n dotf st [(st, (g, b))] st1 (ER_cons dotf st g b st1 tsq [] st1 U (ER_nil dotf st1))). }
    assert (H1 := HK s g0 b0 y Hi Ky). destruct (scaled_proper _ _ _ _ _ _ _ (proj1 (HS s g0 b0 Hi))) as (_ & _ & _ & B0).
    apply holds_sat in H1; [|lra|exact B0]. destruct s as [w e]. cbn [fst snd sat64] in *. rewrite EN. exact H1.
  - eapply cube_mono; [exact LE|exact HK1|exact HC].
Qed.

(** K is any set on which every cut of the run holds (with its beta enlarged by 8 h): nosoln means that no point
    of the initial ellipsoid has its cube of half-side (number of iterations) * drift64 inside K. *)
Theorem C153_feas_nosoln h M G X W dotf ltb {O} (omega : O -> (nat -> b64) -> res (O * option (@cut b64))) max_it tol o w e tr o' st' info (K : (nat -> R) -> Prop) :
  fdot_any dotf -> built64 e ->
  cutting_plane_feas (@ell_space b64 (FNumD dotf)) ltb omega max_it tol o (w, e) = Ok (tr, o', st', info) -> cstatus info = nosoln ->
  single_scaled h M G X W (asked64 (@ell_space b64 (FNumD dotf)) omega o (w, e) tr) ->
  (forall x g b s q y, In (x, Some ((g, BScalar b), s, q)) tr -> K y -> holds64 (e_n e) h x g b y) ->
  forall z, mem64 (w, e) z -> ~ cube_in (e_n e) (INR (num_iters info) * drift64 (e_n e) h W X) K z.
Proof.
  intros HD HB H HN HS HK z Hz. apply feas_spec in H as (HR & Hn & _ & tr0 & ev & Et & HF & Hl & _). subst tr.
  destruct ev as [x [[[c s] q]|]]; [|destruct Hl as [_ E]; congruence]. destruct Hl as (_ & H1 & H2 & H3).
  assert (s = nosoln).
  { destruct (ltb q tol) eqn:L; destruct s; try reflexivity; try (rewrite (H2 eq_refl eq_refl) in HN; discriminate HN);
      try (destruct (H3 eq_refl eq_refl) as [E _]; rewrite E in HN; discriminate HN); rewrite H1 in HN by discriminate; discriminate HN. }
  subst s. apply feas_replay_app in HR as (o1 & st1 & HR0 & HR1).
  2: { intros x0 Hi. rewrite Forall_forall in HF. destruct (HF _ Hi) as (x1 & c1 & q1 & E & _). discriminate E. }
  assert (AL : asked64 (@ell_space b64 (FNumD dotf)) omega o (w, e) (tr0 ++ [(x, Some (c, nosoln, q))]) st1 c) by (exists tr0, x, nosoln, q, [], o1; auto).
  destruct (feas_run dotf ltb tol omega tr0 o (w, e) o1 st1 [(x, Some (c, nosoln, q))] HR0 HF) as (l & HL & LL & HI).
  { intros s c0 A. destruct (HS s c0 A) as (g & b & E & _). eauto. }
  destruct (HS st1 c AL) as (g & b & -> & S1 & K1).
  inversion HR1 as [| |o2 st2 c2 o3 st3 s3 q3 tr3 o4 st4 HO HU HT]; subst.
  apply (run_end h M G X W dotf (w, e) l st1 g b st3 q); try assumption.
  - intros s g0 b0 Hi. destruct (HI s g0 b0 Hi) as [A _]. destruct (HS s _ A) as (g1 & b1 & E & S2). assert (g1 = g0) by congruence. assert (b1 = b0) by congruence. subst. exact S2.
  - rewrite Hn, LL, app_length. apply Nat.le_add_r.
  - intros s g0 b0 y Hi Ky. destruct (HI s g0 b0 Hi) as [_ [q0 I0]]. refine (HK _ g0 b0 success q0 y _ Ky). apply in_or_app. left. exact I0.
  - intros y Ky. refine (HK _ g b nosoln q y _ Ky). apply in_or_app. right. left. reflexivity.
Qed.
Print Assumptions C153_feas_nosoln.

Lemma dc_run {O T} dotf ltb tol (omega : O -> (nat -> b64) -> T -> res (O * (@cut b64 * option T))) : forall tr0 o st t o1 st1 t1 rest,
  dc_replay (@ell_space b64 (FNumD dotf)) omega o st t tr0 o1 st1 t1 -> Forall (dgo ltb tol) tr0 ->
  (forall s c, asked64_dc (@ell_space b64 (FNumD dotf)) omega o st t (tr0 ++ rest) s c -> exists g b, c = (g, BScalar b)) ->
  exists l, ell_run64 dotf st l st1 /\ length l = length tr0 /\
    forall s g b, In (s, (g, b)) l -> asked64_dc (@ell_space b64 (FNumD dotf)) omega o st t (tr0 ++ rest) s (g, BScalar b) /\
      exists ev, In ev tr0 /\ d_x ev = fst s (e_xc (snd s)) /\ d_cut ev = (g, BScalar b).
Proof.
  intros tr0 o st t o1 st1 t1 rest HR. revert rest. induction HR as [o st t|o st t c t1 o1 st1 s q tr o' st' t' E U HR IH]; intros rest HF HA.
  - exists []. split; [constructor|]. split; [reflexivity|]. intros s g b [].
  - inversion HF as [|e l0 F1 F2]; subst. destruct F1 as [E1 _]. cbn [d_status] in E1. subst s.
    match goal with |- context [?ev :: tr] => set (e0 := ev) in * end.
    assert (A0 : asked64_dc (@ell_space b64 (FNumD dotf)) omega o st t ((e0 :: tr) ++ rest) st c).
    { exists [], e0, (tr ++ rest), o, t. split; [reflexivity|]. split; [reflexivity|constructor]. }
    assert (AT : forall s c0, asked64_dc (@ell_space b64 (FNumD dotf)) omega o1 st1 (best t t1) (tr ++ rest) s c0 ->
      asked64_dc (@ell_space b64 (FNumD dotf)) omega o st t ((e0 :: tr) ++ rest) s c0).
    { intros s c0 (u1 & ev & u2 & o2 & t2 & Et & Ec & Hr). exists (e0 :: u1), ev, u2, o2, t2.
      split; [cbn [app]; rewrite Et; reflexivity|]. split; [exact Ec|]. unfold e0. eapply DR_cut; eassumption. }
    destruct (HA st c A0) as (g & b & ->).
    destruct (IH rest F2) as (l & HL & LL & HI); [intros s c0 H; exact (HA s c0 (AT s c0 H))|].
    exists ((st, (g, b)) :: l). split; [exact (ER_cons dotf st g b st1 q l st' U HL)|]. split; [cbn [length]; congruence|].
    intros s g0 b0 [Eh|Hi].
    + assert (s = st) by congruence. assert (g0 = g) by congruence. assert (b0 = b) by congruence. subst. split; [exact A0|]. exists e0. split; [left; reflexivity|]. split; reflexivity.
    + destruct (HI s g0 b0 Hi) as [HI1 (ev & I1 & I2 & I3)]. split; [apply AT; exact HI1|]. exists ev. split; [right; exact I1|]. split; assumption.
Qed.

(** the same for the optimising driver; K may be the set of the points better than the value returned *)
Theorem C153_dc_nosoln h M G X W dotf ltb {O T} tneq (omega : O -> (nat -> b64) -> T -> res (O * (@cut b64 * option T))) max_it tol o w e t tr o' st' xb t' info (K : (nat -> R) -> Prop) :
  fdot_any dotf -> built64 e ->
  cutting_plane_dc (@ell_space b64 (FNumD dotf)) ltb tneq omega max_it tol o (w, e) t = Ok (tr, o', st', (xb, t', info)) -> cstatus info = nosoln ->
  single_scaled h M G X W (asked64_dc (@ell_space b64 (FNumD dotf)) omega o (w, e) t tr) ->
  (forall ev g b y, In ev tr -> d_cut ev = (g, BScalar b) -> K y -> holds64 (e_n e) h (d_x ev) g b y) ->
  forall z, mem64 (w, e) z -> ~ cube_in (e_n e) (INR (num_iters info) * drift64 (e_n e) h W X) K z.
Proof.
  intros HD HB H HN HS HK z Hz. apply dc_spec in H as (HR & _ & Hn & _ & (tr0 & ev & Et & HF & H1 & H2 & H3) & _). subst tr.
  assert (ES : d_status ev = nosoln).
  { destruct (ltb (d_tsq ev) tol) eqn:L; destruct (d_status ev); try reflexivity; try (rewrite (H2 eq_refl eq_refl) in HN; discriminate HN);
      try (destruct (H3 eq_refl eq_refl) as [E _]; rewrite E in HN; discriminate HN); rewrite H1 in HN by discriminate; discriminate HN. }
  apply dc_replay_app in HR as (o1 & st1 & t1 & HR0 & HR1).
  assert (AL : asked64_dc (@ell_space b64 (FNumD dotf)) omega o (w, e) t (tr0 ++ [ev]) st1 (d_cut ev)) by (exists tr0, ev, [], o1, t1; auto).
  destruct (dc_run dotf ltb tol omega tr0 o (w, e) t o1 st1 t1 [ev] HR0 HF) as (l & HL & LL & HI).
  { intros s c0 A. destruct (HS s c0 A) as (g & b & E & _). eauto. }
  destruct (HS st1 (d_cut ev) AL) as (g & b & EC & S1 & K1).
  inversion HR1 as [|o2 st2 t2 c2 t3 o3 st3 s3 q3 tr3 o4 st4 t4 HO HU HT]; subst. cbn [d_cut d_status] in *. subst s3 c2.
  apply (run_end h M G X W dotf (w, e) l st1 g b st3 q3); try assumption.
  - intros s g0 b0 Hi. destruct (HI s g0 b0 Hi) as [A _]. destruct (HS s _ A) as (g1 & b1 & E & S2). assert (g1 = g0) by congruence. assert (b1 = b0) by congruence. subst. exact S2.
  - rewrite Hn, LL, app_length. apply Nat.le_add_r.
  - intros s g0 b0 y Hi Ky. destruct (HI s g0 b0 Hi) as [_ (ev0 & I1 & I2 & I3)].
    assert (HV := HK ev0 g0 b0 y (in_or_app _ _ _ (or_introl I1)) I3 Ky). rewrite I2 in HV. exact HV.
  - intros y Ky. match type of Hn with _ = length (_ ++ [?ev]) => apply (HK ev g b y); [apply in_or_app; right; left; reflexivity|reflexivity|exact Ky] end.
Qed.
Print Assumptions C153_dc_nosoln.

(** Non-vacuity: the fresh unit disc; the oracle asks first for x0 <= -1/4 and then for x0 - xc0 <= -4; the second
    update answers nosoln.  K is the half-plane x0 <= -5. *)
Definition g10 : nat -> b64 := fun i => if (i =? 0)%nat then fmake 1 0 else fzero.
Lemma scaled_diag2 (w : memory b64) e b q0 q1 : e_n e = 2%nat ->
  e_Q e 0%nat 0%nat = q0 -> e_Q e 0%nat 1%nat = fzero -> e_Q e 1%nat 0%nat = fzero -> e_Q e 1%nat 1%nat = q1 ->
  is_finite q0 = true -> / 8 <= B2R q0 <= 1 -> is_finite q1 = true -> 0 <= B2R q1 <= 1 ->
  is_finite (e_kappa e) = true -> 1 <= B2R (e_kappa e) <= 2 ->
  (forall i, (i < 2)%nat -> is_finite (w (e_xc e) i) = true /\ Rabs (B2R (w (e_xc e) i)) <= 1) ->
  is_finite b = true -> 0 <= B2R b <= 4 -> scaled64 (bpow radix2 (-40)) 1 1 1 (w, e) g10 b.
Proof.
  intros En X2 X3 X4 X5 F0 R0 F1 R1 Fk Rk Hx Fb Rb.
  assert (P200 : pow2 (-200) <= 1 <= pow2 200) by (change 1 with (pow2 0); split; apply bpow_le; lia).
  assert (P201 : 2 <= pow2 200) by (change 2 with (pow2 1); apply bpow_le; lia).
  assert (P1000 : 4 <= pow2 1000) by (change 4 with (pow2 2); apply bpow_le; lia).
  assert (RO : B2R (fmake 1 0) = 1) by (rewrite fmakeR by lia; change (pow2 0) with 1; ring).
  unfold scaled64. cbv zeta. rewrite En.
  split; [split; lia|]. split.
  { intros i j Hi Hj. assert (Z0 : Rabs 0 <= 1) by (rewrite Rabs_R0; lra).
    destruct i as [|[|i]]; [| |lia]; (destruct j as [|[|j]]; [| |lia]); rewrite ?X2, ?X3, ?X4, ?X5; change (B2R fzero) with 0;
      split; try assumption; try reflexivity; apply Rabs_le; lra. }
  split.
  { intros i Hi. assert (Z0 : Rabs 0 <= 1) by (rewrite Rabs_R0; lra). assert (Z1 : Rabs 1 <= 1) by (rewrite Rabs_R1; lra).
    destruct i as [|[|i]]; [| |lia]; unfold g10; cbn [Nat.eqb]; rewrite ?RO; change (B2R fzero) with 0; split; (reflexivity || assumption). }
  split; [exact Hx|]. split; [split; [exact Fk|lra]|]. split; [split; [exact Fb|lra]|].
  split. { intros i j Hi Hj. destruct i as [|[|i]]; [| |lia]; (destruct j as [|[|j]]; [| |lia]); rewrite ?X3, ?X4; reflexivity. }
  split. { intros u. rewrite bf2, X2, X3, X4, X5. change (B2R fzero) with 0. assert (0 <= u 0%nat * u 0%nat) by apply Rle_0_sqr. assert (0 <= u 1%nat * u 1%nat) by apply Rle_0_sqr. nra. }
  split; [lra|]. split; [lra|]. split; [lra|]. split.
  + rewrite bf2, X2, X3, X4, X5. unfold g10. cbn [Nat.eqb]. rewrite RO. change (B2R fzero) with 0.
    change (IZR (Z.of_nat 2)) with 2. replace (pow2 (-40)) with (1024 * pow2 (-50)) by (change 1024 with (pow2 10); rewrite <- bpow_plus; reflexivity).
    assert (0 < pow2 (-50)) by apply bpow_gt_0. nra.
  + change (/ 1024) with (pow2 (-10)). apply bpow_le. lia.
Qed.

Definition ell2_info2 (w : memory b64) (x : res (ell b64)) : option (nat * list spec_float * (nat * list spec_float * status) * status) :=
  match x with
  | Ok e => match @ell_update b64 (FNumD fdot_seq) (w, e) (g10, BScalar (fmake 1 (-2))) with
            | Ok ((w', e'), (s, _)) =>
                match @ell_update b64 (FNumD fdot_seq) (w', e') (g10, BScalar (fmake 4 0)) with
                | Ok (_, (s2, _)) => Some (e_n e, ell2_of e w, (e_n e', ell2_of e' w', s), s2)
                | Raise _ => None end
            | Raise _ => None end
  | Raise _ => None end.

Definition om153 (o : bool) (x : nat -> b64) : res (bool * option (@cut b64)) := Ok (true, Some (g10, BScalar (if o then fmake 4 0 else fmake 1 (-2)))).

Example C153_ex : exists (e : ell b64) w tr o' st' info z,
  fdot_any fdot_seq /\ built64 e /\
  cutting_plane_feas (@ell_space b64 (FNumD fdot_seq)) (fun _ _ => false) om153 5 fzero false (w, e) = Ok (tr, o', st', info) /\
  cstatus info = nosoln /\ num_iters info = 2%nat /\
  single_scaled (bpow radix2 (-40)) 1 1 1 2 (asked64 (@ell_space b64 (FNumD fdot_seq)) om153 false (w, e) tr) /\
  (forall x g b s q y, In (x, Some ((g, BScalar b), s, q)) tr -> y 0%nat <= -5 -> holds64 (e_n e) (bpow radix2 (-40)) x g b y) /\
  mem64 (w, e) z.
Proof.
  set (w := fun (_ i : nat) => fzero). set (a := fmake 0x19999999999998 (-55)).
  assert (X : ell2_info2 w (@ell_init b64 FNum (VScalar (fmake 1 0)) 2 0%nat) =
    Some (2%nat, map B2SF [fmake 1 0; fmake 1 0; fzero; fzero; fmake 1 0; fzero; fzero],
         (2%nat, map B2SF [fmake 5 (-2); a; fzero; fzero; fmake 1 0; fmake (-1) (-1); fzero], success), nosoln)) by (vm_compute; reflexivity).
  revert X. destruct (@ell_init b64 FNum (VScalar (fmake 1 0)) 2 0%nat) as [e|] eqn:E; [|discriminate]. unfold ell2_info2.
  match goal with |- match ?u with Ok _ => _ | Raise _ => _ end = _ -> _ => destruct u as [[[w' e'] [s tsq]]|] eqn:U; [|discriminate] end.
  match goal with |- match ?u with Ok _ => _ | Raise _ => _ end = _ -> _ => destruct u as [[st2 [s2 tsq2]]|] eqn:U2; [|discriminate] end. intros X.
  unfold ell2_of in X. cbn [map] in X.
  assert (En : e_n e = 2%nat) by congruence. assert (En' : e_n e' = 2%nat) by congruence. assert (Es : s = success) by congruence. assert (Es2 : s2 = nosoln) by congruence. 
  assert (I : forall x y : b64, B2SF x = B2SF y -> x = y) by (intros x y; apply B2SF_inj).
  assert (X1 : e_kappa e = fmake 1 0) by (apply I; congruence).
  assert (X2 : e_Q e 0%nat 0%nat = fmake 1 0) by (apply I; congruence).
  assert (X3 : e_Q e 0%nat 1%nat = fzero) by (apply I; congruence).
  assert (X4 : e_Q e 1%nat 0%nat = fzero) by (apply I; congruence).
  assert (X5 : e_Q e 1%nat 1%nat = fmake 1 0) by (apply I; congruence).
  assert (Y1 : e_kappa e' = fmake 5 (-2)) by (apply I; congruence).
  assert (Y2 : e_Q e' 0%nat 0%nat = a) by (apply I; congruence).
  assert (Y3 : e_Q e' 0%nat 1%nat = fzero) by (apply I; congruence).
  assert (Y4 : e_Q e' 1%nat 0%nat = fzero) by (apply I; congruence).
  assert (Y5 : e_Q e' 1%nat 1%nat = fmake 1 0) by (apply I; congruence).
  assert (Y6 : w' (e_xc e') 0%nat = fmake (-1) (-1)) by (apply I; congruence).
  assert (Y7 : w' (e_xc e') 1%nat = fzero) by (apply I; congruence).
  clear X I. subst s s2.
  assert (RO : B2R (fmake 1 0) = 1) by (rewrite fmakeR by lia; change (pow2 0) with 1; ring).
  assert (R4 : B2R (fmake 1 (-2)) = / 4) by (rewrite fmakeR by lia; change (pow2 (-2)) with (/ 4); ring).
  assert (R5 : B2R (fmake 5 (-2)) = 5 / 4) by (rewrite fmakeR by lia; change (pow2 (-2)) with (/ 4); field).
  assert (RH : B2R (fmake (-1) (-1)) = - / 2) by (rewrite fmakeR by lia; change (pow2 (-1)) with (/ 2); field).
  assert (RF : B2R (fmake 4 0) = 4) by (rewrite fmakeR by lia; change (pow2 0) with 1; ring).
  assert (RA : / 8 <= B2R a <= 1).
  { unfold a. rewrite fmakeR by lia. change 0x19999999999998%Z with 7205759403792792%Z. change (-55)%Z with (- (55))%Z. rewrite bpow_opp. change (pow2 55) with 36028797018963968. lra. }
  set (tr := [(w (e_xc e), Some ((g10, BScalar (fmake 1 (-2))), success, tsq)); (w' (e_xc e'), Some ((g10, BScalar (fmake 4 0)), nosoln, tsq2))]).
  exists e, w, tr, true, st2, {| feasible := false; num_iters := 2; cstatus := nosoln |}, (fun _ => 0).
  split; [exact fnum_dot_any|]. split; [exists (VScalar (fmake 1 0)), 0%nat, e; rewrite En; split; [exact E|auto]|].
  split.
  { unfold cutting_plane_feas. cbn [feas_loop]. unfold om153 at 1. cbn [bind sp_update ell_space]. rewrite U. cbn [bind status_eqb negb].
    unfold om153 at 1. cbn [bind]. rewrite U2. cbn [bind status_eqb negb]. reflexivity. }
  split; [reflexivity|]. split; [reflexivity|].
  assert (S1 : scaled64 (bpow radix2 (-40)) 1 1 1 (w, e) g10 (fmake 1 (-2))).
  { apply scaled_diag2 with (q0 := fmake 1 0) (q1 := fmake 1 0); rewrite ?X1; try assumption; try reflexivity; try (rewrite ?RO, ?R4; lra).
    intros i Hi. split; [reflexivity|]. change (Rabs 0 <= 1). rewrite Rabs_R0. lra. }
  assert (S2 : scaled64 (bpow radix2 (-40)) 1 1 1 (w', e') g10 (fmake 4 0)).
  { apply scaled_diag2 with (q0 := a) (q1 := fmake 1 0); rewrite ?Y1; try assumption; try reflexivity; try (rewrite ?RO, ?R5, ?RF; lra).
    intros i Hi. destruct i as [|[|i]]; [| |lia]; [rewrite Y6, RH|rewrite Y7; change (B2R fzero) with 0]; (split; [reflexivity|]); apply Rabs_le; lra. }
  split; [|split].
  - intros st1 c (tr1 & x & s & q & tr2 & o1 & Et & HR). unfold tr in Et. destruct tr1 as [|ev tr1].
    + inversion HR; subst. cbn [app] in Et. exists g10, (fmake 1 (-2)). split; [congruence|]. split; [exact S1|]. cbn [snd]. rewrite X1, RO. lra.
    + destruct tr1 as [|ev1 tr1]; [|cbn [app] in Et; destruct tr1; discriminate Et].
      cbn [app] in Et. assert (Ee : ev = (w (e_xc e), Some ((g10, BScalar (fmake 1 (-2))), success, tsq))) by congruence. subst ev.
      assert (Ec : c = (g10, BScalar (fmake 4 0))) by congruence. subst c.
      inversion HR as [| |o2 st3 c2 o3 st4 s3 q3 tr3 o4 st5 HO HU HT E1 E2]; subst. inversion HT; subst.
      assert (HU' : @ell_update b64 (FNumD fdot_seq) (w, e) (g10, BScalar (fmake 1 (-2))) = Ok (st1, (success, tsq))) by exact HU.
      assert (EE := eq_trans (eq_sym U) HU'). assert (st1 = (w', e')) by congruence. subst st1.
      exists g10, (fmake 4 0). split; [reflexivity|]. split; [exact S2|]. cbn [snd]. rewrite Y1, R5. lra.
  - intros x g b s q y Hin Hy. unfold holds64. rewrite En.
    assert (HQ : pow2 (-40) <= / 1024) by (change (/ 1024) with (pow2 (-10)); apply bpow_le; lia).
    assert (HQ0 : 0 < pow2 (-40)) by apply bpow_gt_0.
    destruct Hin as [Hi|[Hi|[]]].
    + assert (x = w (e_xc e)) by congruence. assert (g = g10) by congruence. assert (b = fmake 1 (-2)) by congruence. subst x g b.
      unfold dot. cbn [rsum]. unfold g10, w. cbn [Nat.eqb]. rewrite RO, R4. change (B2R fzero) with 0. lra.
    + assert (x = w' (e_xc e')) by congruence. assert (g = g10) by congruence. assert (b = fmake 4 0) by congruence. subst x g b.
      unfold dot. cbn [rsum]. unfold g10. cbn [Nat.eqb]. rewrite RO, RF, Y6, Y7, RH. change (B2R fzero) with 0. lra.
  - unfold mem64. rewrite En. exists (fun _ => 0). split.
    + intros i Hi. unfold mvr, dot. cbn [rsum]. unfold w. change (B2R fzero) with 0. lra.
    + rewrite bf2, X1, RO. lra.
Qed.
