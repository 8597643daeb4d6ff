(** Property theorems about runs of ell in binary64 with single and parallel cuts (C161) and about lowpass_oracle under
    cutting_plane_dc over ell, all in binary64 (C162). *)
From Coq Require Import ZArith Reals Lra Lia Bool List Psatz Floats.SpecFloat.
From Flocq Require Import Core.Core IEEE754.BinarySingleNaN.
From Verif Require Import Base M_Drivers M_Ell M_Lowpass S_Drivers P_Drivers S_Ell S_LinAlg P_LinAlg M_Float P_Float P_Float2 S_Float S_EllF S_EllPar P_FSum P_EllF2 P_EllF3 T_Float T_Float2 T_Float7 S_EllRun P_Ell4 P_EllRun T_Float10 T_Float13 S_EllMix P_EllMix P_RunF S_Lowpass S_LowpassF P_LowpassF T_Float11.
Import ListNotations.
Local Open Scope R_scope.

(** ** C161: a run of N successful updates with single or parallel cuts: a point whose cube of half-side
    N * drift_both64 satisfies every cut is still within N * drift_both64 of the set *)
Theorem C161_run_keeps h M G X eps W dotf st l st' z :
  fdot_any dotf -> ell_runs64 dotf st l st' -> built64p (snd st) -> h <= 8 * eps ->
  (forall s c, In (s, c) l -> cut_scaled64 h M G X eps s c /\ B2R (e_kappa (snd s)) * M <= W) ->
  ell_proper (snd st') -> mem64 st z ->
  let rho := INR (length l) * drift_both64 (e_n (snd st)) eps W X in
  (forall s c, In (s, c) l -> cube_in (e_n (snd st)) rho (between64 s c) z) ->
  e_n (snd st') = e_n (snd st) /\ exists y, mem64 st' y /\ forall i, (i < e_n (snd st))%nat -> Rabs (y i - z i) <= rho.
Proof.
  intros HD HR HB HE HS HP Hz rho HC.
  destruct (runs_keep h M G X eps W dotf st l st' HD HR HB HE HS HP z z 0 Hz) as (EN & y & Hy & Dy).
  - intros i _. rewrite Rminus_diag_eq, Rabs_R0 by reflexivity. lra.
  - rewrite Rplus_0_l. exact HC.
  - split; [exact EN|]. exists y. split; [exact Hy|]. rewrite Rplus_0_l in Dy. exact Dy.
Qed.
Print Assumptions C161_run_keeps.

(** K is any set on which every cut of the run holds (with its near beta enlarged by 8 h): nosoln means that no point of
    the initial set has its cube of half-side N * drift_both64 in K, N the number of iterations *)
Theorem C161_feas_nosoln h M G X eps W dotf ltb {O} (omega : O -> (nat -> b64) -> res (O * option (@cut b64))) max_it tol o w e tr o' st' info (K : (nat -> R) -> Prop) :
  fdot_any dotf -> built64p e -> h <= 8 * eps ->
  cutting_plane_feas (@ell_space b64 (FNumD dotf)) ltb omega max_it tol o (w, e) = Ok (tr, o', st', info) -> cstatus info = nosoln ->
  (forall st1 c, asked64 (@ell_space b64 (FNumD dotf)) omega o (w, e) tr st1 c -> cut_scaled64 h M G X eps st1 c /\ B2R (e_kappa (snd st1)) * M <= W) ->
  (forall x c s q y, In (x, Some (c, s, q)) tr -> K y -> holds_both64 (e_n e) h x c y) ->
  forall z, mem64 (w, e) z -> ~ cube_in (e_n e) (INR (num_iters info) * drift_both64 (e_n e) eps W X) K z.
Proof.
  intros HD HB HE H HN HS HK z Hz. apply feas_spec in H as (HR & Hn & _ & tr0 & ev & Et & HF & Hl & _). subst tr.
  destruct ev as [x [[[c s] q]|]]; [|destruct Hl as [_ E]; congruence]. destruct Hl as (_ & H1 & H2 & H3).
  assert (s = nosoln).
  { destruct (ltb q tol) eqn:L; destruct s; try reflexivity; try (rewrite (H2 eq_refl eq_refl) in HN; discriminate HN);
      try (destruct (H3 eq_refl eq_refl) as [E _]; rewrite E in HN; discriminate HN); rewrite H1 in HN by discriminate; discriminate HN. }
  subst s. apply feas_replay_app in HR as (o1 & st1 & HR0 & HR1).
  2: { intros x0 Hi. rewrite Forall_forall in HF. destruct (HF _ Hi) as (x1 & c1 & q1 & E & _). discriminate E. }
  assert (AL : asked64 (@ell_space b64 (FNumD dotf)) omega o (w, e) (tr0 ++ [(x, Some (c, nosoln, q))]) st1 c) by (exists tr0, x, nosoln, q, [], o1; auto).
  destruct (feas_runs dotf omega ltb tol tr0 o (w, e) o1 st1 [(x, Some (c, nosoln, q))] HR0 HF) as (l & HL & LL & HI).
  destruct (HS st1 c AL) as [S1 K1].
  inversion HR1 as [| |o2 st2 c2 o3 st3 s3 q3 tr3 o4 st4 HO HU HT]; subst.
  apply (runs_end h M G X eps W dotf (w, e) l st1 c st3 q); try assumption.
  - intros s c0 Hi. destruct (HI s c0 Hi) as [A _]. exact (HS s _ A).
  - rewrite Hn, LL, app_length. apply Nat.le_add_r.
  - intros s c0 y Hi Ky. destruct (HI s c0 Hi) as [_ [q0 I0]]. refine (HK _ c0 success q0 y _ Ky). apply in_or_app. left. exact I0.
  - intros y Ky. refine (HK _ c nosoln q y _ Ky). apply in_or_app. right. left. destruct st1. reflexivity.
Qed.
Print Assumptions C161_feas_nosoln.

Theorem C161_dc_nosoln h M G X eps W dotf ltb {O T} tneq (omega : O -> (nat -> b64) -> T -> res (O * (@cut b64 * option T))) max_it tol o w e t tr o' st' xb t' info (K : (nat -> R) -> Prop) :
  fdot_any dotf -> built64p e -> h <= 8 * eps ->
  cutting_plane_dc (@ell_space b64 (FNumD dotf)) ltb tneq omega max_it tol o (w, e) t = Ok (tr, o', st', (xb, t', info)) -> cstatus info = nosoln ->
  (forall st1 c, asked64_dc (@ell_space b64 (FNumD dotf)) omega o (w, e) t tr st1 c -> cut_scaled64 h M G X eps st1 c /\ B2R (e_kappa (snd st1)) * M <= W) ->
  (forall ev y, In ev tr -> K y -> holds_both64 (e_n e) h (d_x ev) (d_cut ev) y) ->
  forall z, mem64 (w, e) z -> ~ cube_in (e_n e) (INR (num_iters info) * drift_both64 (e_n e) eps W X) K z.
Proof.
  intros HD HB HE H HN HS HK z Hz. apply dc_spec in H as (HR & _ & Hn & _ & (tr0 & ev & Et & HF & H1 & H2 & H3) & _). subst tr.
  assert (ES : d_status ev = nosoln).
  { destruct (ltb (d_tsq ev) tol) eqn:L; destruct (d_status ev); try reflexivity; try (rewrite (H2 eq_refl eq_refl) in HN; discriminate HN);
      try (destruct (H3 eq_refl eq_refl) as [E _]; rewrite E in HN; discriminate HN); rewrite H1 in HN by discriminate; discriminate HN. }
  apply dc_replay_app in HR as (o1 & st1 & t1 & HR0 & HR1).
  assert (AL : asked64_dc (@ell_space b64 (FNumD dotf)) omega o (w, e) t (tr0 ++ [ev]) st1 (d_cut ev)) by (exists tr0, ev, [], o1, t1; auto).
  destruct (dc_runs dotf omega ltb tol tr0 o (w, e) t o1 st1 t1 [ev] HR0 HF) as (l & HL & LL & HI).
  destruct (HS st1 (d_cut ev) AL) as [S1 K1].
  inversion HR1 as [|o2 st2 t2 c2 t3 o3 st3 s3 q3 tr3 o4 st4 t4 HO HU HT]; subst. cbn [d_cut d_status] in *. subst s3.
  apply (runs_end h M G X eps W dotf (w, e) l st1 c2 st3 q3); try assumption.
  - intros s c0 Hi. destruct (HI s c0 Hi) as [A _]. exact (HS s _ A).
  - rewrite Hn, LL, app_length. apply Nat.le_add_r.
  - intros s c0 y Hi Ky. destruct (HI s c0 Hi) as [_ (ev0 & I1 & I2 & I3)].
    assert (HV := HK ev0 y (in_or_app _ _ _ (or_introl I1)) Ky). rewrite I2, I3 in HV. exact HV.
  - intros y Ky. match type of Hn with _ = length (_ ++ [?ev]) => assert (HV := HK ev y ltac:(apply in_or_app; right; left; reflexivity) Ky) end.
    cbn [d_x d_cut] in HV. destruct st1. exact HV.
Qed.
Print Assumptions C161_dc_nosoln.

(** ** C162: lowpass_oracle under cutting_plane_dc over ell in binary64.  If the run answers nosoln, no design of the
    initial set is surrounded by a cube, of half-side N times the drift, of designs that meet the specification with the
    final stop-band value t' and lp_margin to spare. *)
Theorem C162_lowpass64_nosoln h M G X eps W B dotf ltb tneq (P : lowpass b64) s max_it tol w e t tr s' st' xb t' info :
  fdot_any dotf -> built64p e -> h <= 8 * eps -> counters_ok P s -> (0 < lp_Ns P)%nat -> e_n e = lp_n P -> is_finite t = true -> Rabs (B2R t) <= B ->
  cutting_plane_dc (@ell_space b64 (FNumD dotf)) ltb tneq (lowpass64_call dotf P) max_it tol s (w, e) t = Ok (tr, s', st', (xb, t', info)) ->
  cstatus info = nosoln ->
  (forall st1 c, asked64_dc (@ell_space b64 (FNumD dotf)) (lowpass64_call dotf P) s (w, e) t tr st1 c ->
     cut_scaled64 h M G X eps st1 c /\ B2R (e_kappa (snd st1)) * M <= W /\ lp_bound P (fst st1 (e_xc (snd st1))) B) ->
  let n := lp_n P in let d := lp_margin n h B X in
  forall z, mem64 (w, e) z ->
  ~ cube_in n (INR (num_iters info) * drift_both64 n eps W X) (fun y => filter_within (lp_real P) (- d) (B2R t') y /\ d <= y 0%nat) z.
Proof.
  intros HD HB HE Hs HN EN Ft Rt H HNS HS n d z Hz. subst n. rewrite <- EN.
  assert (HR := H). apply dc_spec in HR as (HR & _).
  destruct (dc_events dotf (lowpass64_call dotf P) (fun o t => counters_ok P o /\ is_finite t = true /\ Rabs (B2R t) <= B) (fun x => lp_bound P x B) (fun a b => B2R a <= B2R b)) with (tr := tr) (o := s) (st := (w, e)) (t := t) (o' := s') (st' := st') (t' := t') as [_ HEV]; try assumption.
  { intros o t0 _. lra. }
  { intros a b c A1 A2. lra. }
  { intros o x t0 o2 c t1 (I1 & I2 & I3) PX E. destruct (C154_lowpass64 dotf P o x t0 B HD PX I1 HN) as (o3 & c3 & t3 & E3 & C3 & H3). cbv zeta in H3.
    assert (o3 = o2) by congruence. assert (t3 = t1) by congruence. subst o3 t3. destruct t1 as [m|]; cbn [best].
    - destruct H3 as (_ & L3 & k & _ & _ & Fm & Pm & _). rewrite f64_ltb in L3 by assumption. destruct (Rlt_bool_spec (B2R t0) (B2R m)) as [L|L]; [discriminate L3|].
      apply Rabs_le_inv in I3. split; [|exact L]. split; [exact C3|]. split; [exact Fm|]. apply Rabs_le. lra.
    - split; [auto|lra]. }
  { auto. }
  { intros st1 c A. apply (HS st1 c A). }
  refine (C161_dc_nosoln h M G X eps W dotf ltb tneq (lowpass64_call dotf P) max_it tol s w e t tr s' st' xb t' info _ HD HB HE H HNS _ _ z Hz).
  { intros st1 c A. destruct (HS st1 c A) as (A1 & A2 & _). auto. }
  intros ev y Hin [HY HY0]. destruct (HEV ev Hin) as (st1 & o1 & o2 & t0 & A & En & Ex & (I1 & I2 & I3) & E & R1 & R2).
  destruct (HS st1 _ A) as ((b0 & NB & SC & _) & _ & LB). rewrite <- Ex in LB.
  assert (X0 : Rabs (B2R (d_x ev 0%nat)) <= X).
  { destruct st1 as [w1 e1]. cbn [fst snd] in Ex, En. rewrite Ex. destruct SC as ([N2 _] & _ & _ & Hx & _). apply Hx. lia. }
  destruct (scaled_proper _ _ _ _ _ _ _ SC) as (_ & HP & _ & B0). clear SC.
  destruct (C154_lowpass64 dotf P o1 (d_x ev) t0 B HD LB I1 HN) as (o3 & c3 & t3 & E3 & _ & H3). cbv zeta in H3. assert (c3 = d_cut ev) by congruence. assert (t3 = d_t1 ev) by congruence. subst c3 t3.
  rewrite EN. set (tau := 2 * row_err (lp_n P) B + pow2 (-51) * B) in *.
  assert (EPS := proj1 (eps_pos P (d_x ev) B LB)). assert (P0 : 0 < pow2 (-1073)) by apply bpow_gt_0.
  assert (BB := proj1 (B_range P (d_x ev) B LB)). assert (XX := Rabs_pos (B2R (d_x ev 0%nat))).
  assert (PB : 0 <= pow2 (-51) * B) by (apply Rmult_le_pos; [apply bpow_ge_0|lra]).
  assert (ED : d = tau + 8 * h * (2 * B + tau + X)) by (unfold d, lp_margin; fold tau; ring).
  assert (TP : 0 < tau) by (unfold tau; lra).
  assert (DP : 0 <= 8 * h * (2 * B + tau + X)) by (apply Rmult_le_pos; lra).
  destruct (d_t1 ev) as [m|] eqn:ET; cbn [best] in R1.
  - destruct H3 as (_ & _ & k & Hk & Em & Fm & _ & EC).
    destruct (row_val dotf P (d_x ev) B HD LB (lp_As P k) ltac:(apply LB; exact Hk)) as (_ & Ev & _). rewrite <- Em in Ev. apply Rabs_le_inv in Ev.
    destruct HY as (_ & HY & _). specialize (HY k Hk). cbn [lp_real lp_n lp_As] in HY.
    rewrite EC. unfold holds_both64, holds64. cbn [fst snd near64 far_side64].
    assert (TD : row_err (lp_n P) B <= d) by (assert (row_err (lp_n P) B <= tau) by (unfold tau; lra); lra).
    assert (ES : dot (lp_n P) (fun i => B2R (lp_As P k i)) (fun i => y i - B2R (d_x ev i)) = dot (lp_n P) (fun i => B2R (lp_As P k i)) y - dot (lp_n P) (fun i => B2R (lp_As P k i)) (fun i => B2R (d_x ev i))) by apply dot_minus_r.
    split; intros b Eb; [assert (b = fzero) by congruence|assert (b = m) by congruence]; subst b; rewrite ES; [change (B2R fzero) with 0|]; lra.
  - destruct (H3 I2 I3) as (_ & [BP BQ] & HC).
    assert (HY' : filter_within (lp_real P) (- d) (B2R t0) y).
    { destruct HY as (Y1 & Y2 & Y3 & Y4). split; [exact Y1|]. split; [|split; [exact Y3|exact Y4]]. intros k Hk. specialize (Y2 k Hk). lra. }
    assert (SW := HC y (- d) HY' ltac:(lra)).
    assert (MG : beta0_64 (snd (d_cut ev)) * (8 * h) <= 8 * h * (2 * B + tau + X)) by (rewrite Rmult_comm; apply Rmult_le_compat_l; lra).
    destruct (d_cut ev) as [g [b|[|b [|b1 [|? ?]]]]]; unfold sat_within in SW; cbn [fst snd beta0_64] in *; try contradiction; unfold holds_both64, holds64; cbn [fst snd near64 far_side64].
    + split; [|discriminate]. intros b2 E2. assert (b2 = b) by congruence. subst b2. lra.
    + split; intros b2 E2; [assert (b2 = b) by congruence|assert (b2 = b1) by congruence]; subst b2; lra.
Qed.
Print Assumptions C162_lowpass64_nosoln.

(** Non-vacuity: the fresh unit disc in the plane; pass-band rows (1, 0) and (0, 1/16) between 1/4 and 1/2, stop-band row
    (1, 0).  The first answer is the parallel cut 1/4 <= z0 <= 1/2 and succeeds; the second asks for 4 <= z1 <= 8 and is
    answered nosoln.  The design (3/8, 6) has room on all sides, but lies outside the disc. *)
Lemma scaled_diag2g (w : memory b64) e g b q0 q1 : e_n e = 2%nat ->
  e_Q e 0%nat 0%nat = q0 -> e_Q e 0%nat 1%nat = fzero -> e_Q e 1%nat 0%nat = fzero -> e_Q e 1%nat 1%nat = q1 ->
  is_finite q0 = true -> 0 <= B2R q0 <= 1 -> is_finite q1 = true -> 0 <= B2R q1 <= 1 ->
  is_finite (e_kappa e) = true -> 1 <= B2R (e_kappa e) <= 2 ->
  (forall i, (i < 2)%nat -> is_finite (w (e_xc e) i) = true /\ Rabs (B2R (w (e_xc e) i)) <= 1) ->
  (forall i, (i < 2)%nat -> is_finite (g i) = true /\ Rabs (B2R (g i)) <= 1) ->
  / 1024 <= B2R q0 * (B2R (g 0%nat) * B2R (g 0%nat)) + B2R q1 * (B2R (g 1%nat) * B2R (g 1%nat)) ->
  is_finite b = true -> 0 <= B2R b <= 4 -> scaled64 (bpow radix2 (-37)) 1 1 1 (w, e) g b.
Proof.
  intros En X2 X3 X4 X5 F0 R0 F1 R1 Fk Rk Hx Hg HQ Fb Rb.
  assert (P200 : pow2 (-200) <= 1 <= pow2 200) by (change 1 with (pow2 0); split; apply bpow_le; lia).
  assert (P201 : 2 <= pow2 200) by (change 2 with (pow2 1); apply bpow_le; lia).
  assert (P1000 : 4 <= pow2 1000) by (change 4 with (pow2 2); apply bpow_le; lia).
  unfold scaled64. cbv zeta. rewrite En.
  split; [split; lia|]. split.
  { intros i j Hi Hj. assert (Z0 : Rabs 0 <= 1) by (rewrite Rabs_R0; lra).
    destruct i as [|[|i]]; [| |lia]; (destruct j as [|[|j]]; [| |lia]); rewrite ?X2, ?X3, ?X4, ?X5; change (B2R fzero) with 0;
      split; try assumption; try reflexivity; apply Rabs_le; lra. }
  split; [exact Hg|]. split; [exact Hx|]. split; [split; [exact Fk|lra]|]. split; [split; [exact Fb|lra]|].
  split. { intros i j Hi Hj. destruct i as [|[|i]]; [| |lia]; (destruct j as [|[|j]]; [| |lia]); rewrite ?X3, ?X4; reflexivity. }
  split. { intros u. rewrite bf2, X2, X3, X4, X5. change (B2R fzero) with 0. assert (0 <= u 0%nat * u 0%nat) by apply Rle_0_sqr. assert (0 <= u 1%nat * u 1%nat) by apply Rle_0_sqr. nra. }
  split; [lra|]. split; [lra|]. split; [lra|]. split.
  + rewrite bf2, X2, X3, X4, X5. change (B2R fzero) with 0.
    change (IZR (Z.of_nat 2)) with 2. replace (pow2 (-37)) with (8192 * pow2 (-50)) by (change 8192 with (pow2 13); rewrite <- bpow_plus; reflexivity).
    assert (0 < pow2 (-50)) by apply bpow_gt_0. nra.
  + change (/ 1024) with (pow2 (-10)). apply bpow_le. lia.
Qed.

Definition lp162 : lowpass b64 :=
  {| lp_n := 2; lp_Np := 2; lp_Ap := fun k => if Nat.eqb k 0 then fv2 (fmake 1 0) fzero else fv2 fzero (fmake 1 (-4));
     lp_Ns := 1; lp_As := fun _ => fv2 (fmake 1 0) fzero; lp_Nr := 0; lp_Anr := fun _ => fv2 fzero fzero;
     lp_Lpsq := fmake 1 (-2); lp_Upsq := fmake 1 (-1) |}.
Definition cut2_of (c : @cut b64) : option (list spec_float) :=
  match snd c with BArr [a; b] => Some (map B2SF [fst c 0%nat; fst c 1%nat; a; b]) | _ => None end.
Definition info162 (w : memory b64) (x : res (ell b64)) :=
  match x with
  | Ok e => match lowpass64_call fdot_seq lp162 lp_init (w (e_xc e)) (fmake 1 0) with
    | Ok (o1, (c1, None)) => match @ell_update b64 (FNumD fdot_seq) (w, e) c1 with
      | Ok ((w', e'), (s, _)) => match lowpass64_call fdot_seq lp162 o1 (w' (e_xc e')) (fmake 1 0) with
        | Ok (o2, (c2, None)) => match @ell_update b64 (FNumD fdot_seq) (w', e') c2 with
          | Ok (_, (s2, _)) => Some (e_n e, ell2_of e w, cut2_of c1, (e_n e', ell2_of e' w', s), cut2_of c2, s2)
          | Raise _ => None end
        | _ => None end
      | Raise _ => None end
    | _ => None end
  | Raise _ => None end.

Example C162_ex : exists (e : ell b64) w tr s' st' xb info z,
  fdot_any fdot_seq /\ built64p e /\ counters_ok lp162 lp_init /\ (0 < lp_Ns lp162)%nat /\ e_n e = lp_n lp162 /\
  cutting_plane_dc (@ell_space b64 (FNumD fdot_seq)) (fun _ _ => false) (fun a b => negb (feqb a b)) (lowpass64_call fdot_seq lp162) 6 fzero lp_init (w, e) (fmake 1 0)
    = Ok (tr, s', st', (xb, fmake 1 0, info)) /\
  cstatus info = nosoln /\ num_iters info = 2%nat /\
  (forall st1 c, asked64_dc (@ell_space b64 (FNumD fdot_seq)) (lowpass64_call fdot_seq lp162) lp_init (w, e) (fmake 1 0) tr st1 c ->
     cut_scaled64 (bpow radix2 (-37)) 1 1 1 (bpow radix2 (-20)) st1 c /\ B2R (e_kappa (snd st1)) * 1 <= 2 /\ lp_bound lp162 (fst st1 (e_xc (snd st1))) 2) /\
  mem64 (w, e) z /\
  (let d := lp_margin 2 (bpow radix2 (-37)) 2 1 in cube_in 2 (/ 16) (fun y => filter_within (lp_real lp162) (- d) 1 y /\ d <= y 0%nat) (fun i => if Nat.eqb i 0 then 3 / 8 else 6)).
Proof.
  set (w := fun (_ i : nat) => fzero).
  set (q := fmake 5289071915135744 (-58)). set (x0 := fmake 6631436818044750 (-54)). set (k := fmake 7646310354816834 (-52)).
  assert (X : info162 w (@ell_init b64 FNum (VScalar (fmake 1 0)) 2 0%nat) =
    Some (2%nat, map B2SF [fmake 1 0; fmake 1 0; fzero; fzero; fmake 1 0; fzero; fzero], Some (map B2SF [fmake (-1) 0; Bopp fzero; fmake 1 (-2); fmake 1 (-1)]),
         (2%nat, map B2SF [k; q; fzero; fzero; fmake 1 0; x0; fzero], success), Some (map B2SF [Bopp fzero; fmake (-1) (-4); fmake 1 (-2); fmake 1 (-1)]), nosoln)) by (vm_compute; reflexivity).
  revert X. destruct (@ell_init b64 FNum (VScalar (fmake 1 0)) 2 0%nat) as [e|] eqn:E; [|discriminate]. unfold info162.
  destruct (lowpass64_call fdot_seq lp162 lp_init (w (e_xc e)) (fmake 1 0)) as [[o1 [c1 [?|]]]|] eqn:L1; try discriminate.
  match goal with |- match ?u with Ok _ => _ | Raise _ => _ end = _ -> _ => destruct u as [[[w' e'] [s tsq]]|] eqn:U; [|discriminate] end.
  destruct (lowpass64_call fdot_seq lp162 o1 (w' (e_xc e')) (fmake 1 0)) as [[o2 [c2 [?|]]]|] eqn:L2; try discriminate.
  match goal with |- match ?u with Ok _ => _ | Raise _ => _ end = _ -> _ => destruct u as [[st2 [s2 tsq2]]|] eqn:U2; [|discriminate] end. intros X.
  destruct c1 as [g1 [?|[|b10 [|b11 [|? ?]]]]]; try (exfalso; cbn [cut2_of snd] in X; congruence). destruct c2 as [g2 [?|[|b20 [|b21 [|? ?]]]]]; try (exfalso; cbn [cut2_of snd] in X; congruence).
  unfold ell2_of, cut2_of in X. cbn [map fst snd] in X.
  assert (En : e_n e = 2%nat) by congruence. assert (En' : e_n e' = 2%nat) by congruence. assert (Es : s = success) by congruence. assert (Es2 : s2 = nosoln) by congruence. 
  assert (I : forall x y : b64, B2SF x = B2SF y -> x = y) by (intros x y; apply B2SF_inj).
  assert (X1 : e_kappa e = fmake 1 0) by (apply I; congruence).
  assert (X2 : e_Q e 0%nat 0%nat = fmake 1 0) by (apply I; congruence).
  assert (X3 : e_Q e 0%nat 1%nat = fzero) by (apply I; congruence).
  assert (X4 : e_Q e 1%nat 0%nat = fzero) by (apply I; congruence).
  assert (X5 : e_Q e 1%nat 1%nat = fmake 1 0) by (apply I; congruence).
  assert (Y1 : e_kappa e' = k) by (apply I; congruence).
  assert (Y2 : e_Q e' 0%nat 0%nat = q) by (apply I; congruence).
  assert (Y3 : e_Q e' 0%nat 1%nat = fzero) by (apply I; congruence).
  assert (Y4 : e_Q e' 1%nat 0%nat = fzero) by (apply I; congruence).
  assert (Y5 : e_Q e' 1%nat 1%nat = fmake 1 0) by (apply I; congruence).
  assert (Y6 : w' (e_xc e') 0%nat = x0) by (apply I; congruence).
  assert (Y7 : w' (e_xc e') 1%nat = fzero) by (apply I; congruence).
  assert (G10 : g1 0%nat = fmake (-1) 0) by (apply I; congruence). assert (G11 : g1 1%nat = Bopp fzero) by (apply I; congruence).
  assert (G20 : g2 0%nat = Bopp fzero) by (apply I; congruence). assert (G21 : g2 1%nat = fmake (-1) (-4)) by (apply I; congruence).
  assert (H10 : b10 = fmake 1 (-2)) by (apply I; congruence). assert (H11 : b11 = fmake 1 (-1)) by (apply I; congruence).
  assert (H20 : b20 = fmake 1 (-2)) by (apply I; congruence). assert (H21 : b21 = fmake 1 (-1)) by (apply I; congruence).
  clear X I. subst s s2 b10 b11 b20 b21.
  assert (RO : B2R (fmake 1 0) = 1) by (rewrite fmakeR by lia; change (pow2 0) with 1; ring).
  assert (RM : B2R (fmake (-1) 0) = -1) by (rewrite fmakeR by lia; change (pow2 0) with 1; ring).
  assert (R4 : B2R (fmake 1 (-2)) = / 4) by (rewrite fmakeR by lia; change (pow2 (-2)) with (/ 4); ring).
  assert (R2 : B2R (fmake 1 (-1)) = / 2) by (rewrite fmakeR by lia; change (pow2 (-1)) with (/ 2); ring).
  assert (R16 : B2R (fmake (-1) (-4)) = - / 16) by (rewrite fmakeR by lia; change (pow2 (-4)) with (/ 16); field).
  assert (R16p : B2R (fmake 1 (-4)) = / 16) by (rewrite fmakeR by lia; change (pow2 (-4)) with (/ 16); field).
  assert (RZ : B2R (Bopp fzero) = 0) by reflexivity.
  assert (RQ : 0 <= B2R q <= 1).
  { unfold q. rewrite fmakeR by lia. change (-58)%Z with (- (58))%Z. rewrite bpow_opp. change (pow2 58) with 288230376151711744. lra. }
  assert (RX : 0 <= B2R x0 <= 1).
  { unfold x0. rewrite fmakeR by lia. change (-54)%Z with (- (54))%Z. rewrite bpow_opp. change (pow2 54) with 18014398509481984. lra. }
  assert (RK : 1 <= B2R k <= 2).
  { unfold k. rewrite fmakeR by lia. change (-52)%Z with (- (52))%Z. rewrite bpow_opp. change (pow2 52) with 4503599627370496. lra. }
  set (tr := [{| d_x := w (e_xc e); d_t := fmake 1 0; d_cut := (g1, BArr [fmake 1 (-2); fmake 1 (-1)]); d_t1 := None; d_status := success; d_tsq := tsq |};
              {| d_x := w' (e_xc e'); d_t := fmake 1 0; d_cut := (g2, BArr [fmake 1 (-2); fmake 1 (-1)]); d_t1 := None; d_status := nosoln; d_tsq := tsq2 |}]).
  exists e, w, tr, o2, st2, None, {| feasible := false; num_iters := 2; cstatus := nosoln |}, (fun _ => 0).
  split; [exact fnum_dot_any|]. split; [exists (VScalar (fmake 1 0)), 0%nat, e; rewrite En; split; [exact E|auto]|].
  split; [unfold counters_ok; cbn; lia|]. split; [cbn; lia|]. split; [exact En|]. split.
  { assert (NE : feqb (fmake 1 0) (fmake 1 0) = true) by reflexivity.
    unfold cutting_plane_dc. cbn [dc_loop]. change (centre (@ell_space b64 (FNumD fdot_seq)) (w, e)) with (w (e_xc e)). rewrite L1. cbn [bind sp_update ell_space]. rewrite U. cbn [bind status_eqb negb].
    change (centre (@ell_space b64 (FNumD fdot_seq)) (w', e')) with (w' (e_xc e')). rewrite L2. cbn [bind]. rewrite U2. cbn [bind status_eqb negb]. rewrite NE. reflexivity. }
  split; [reflexivity|]. split; [reflexivity|].
  assert (Z1 : Rabs 1 <= 1) by (rewrite Rabs_R1; lra). assert (Z0 : Rabs 0 <= 1) by (rewrite Rabs_R0; lra).
  assert (S1 : scaled64 (bpow radix2 (-37)) 1 1 1 (w, e) g1 (fmake 1 (-2))).
  { apply scaled_diag2g with (q0 := fmake 1 0) (q1 := fmake 1 0); rewrite ?X1; try assumption; try reflexivity; try (rewrite ?RO, ?R4; lra).
    - intros i Hi. split; [reflexivity|exact Z0].
    - intros i Hi. destruct i as [|[|i]]; [| |lia]; rewrite ?G10, ?G11, ?RM, ?RZ; (split; [reflexivity|]); apply Rabs_le; lra.
    - rewrite G10, G11, RO, RM, RZ. lra. }
  assert (S2 : scaled64 (bpow radix2 (-37)) 1 1 1 (w', e') g2 (fmake 1 (-2))).
  { apply scaled_diag2g with (q0 := q) (q1 := fmake 1 0); rewrite ?Y1; try assumption; try reflexivity; try (rewrite ?RO, ?R4; lra).
    - intros i Hi. destruct i as [|[|i]]; [| |lia]; rewrite ?Y6, ?Y7; change (B2R fzero) with 0; (split; [reflexivity|]); apply Rabs_le; lra.
    - intros i Hi. destruct i as [|[|i]]; [| |lia]; rewrite ?G20, ?G21, ?R16, ?RZ; (split; [reflexivity|]); apply Rabs_le; lra.
    - rewrite G20, G21, RO, R16, RZ. lra. }
  assert (LB : forall x : nat -> b64, is_finite (x 0%nat) = true -> 0 <= B2R (x 0%nat) <= 1 -> is_finite (x 1%nat) = true -> B2R (x 1%nat) = 0 -> lp_bound lp162 x 2).
  { intros x F0 A0 F1 A1. assert (P9 : 2 <= pow2 900) by (change 2 with (pow2 1); apply bpow_le; lia).
    assert (RB : forall a : nat -> b64, is_finite (a 0%nat) = true -> Rabs (B2R (a 0%nat)) <= 1 -> is_finite (a 1%nat) = true -> row_bound 2 a x 2).
    { intros a FA AA FB. split; [intros [|[|i]] Hi; [split; assumption|split; assumption|lia]|]. cbn [rsum]. rewrite A1, Rmult_0_r, Rabs_R0, Rabs_mult, (Rabs_right (B2R (x 0%nat))) by lra.
      assert (Rabs (B2R (a 0%nat)) * B2R (x 0%nat) <= 1 * 1) by (apply Rmult_le_compat; try apply Rabs_pos; lra). lra. }
    split; [cbn; lia|]. split; [lra|]. split; [|split; [|split; [intros k0 Hk; cbn in Hk; lia|split; [exact F0|]]]].
    - intros k0 Hk. cbn [lp162 lp_Ap lp_n]. destruct (Nat.eqb k0 0); apply RB; try reflexivity.
      + change (Rabs (B2R (fmake 1 0)) <= 1). rewrite RO. exact Z1.
      + change (Rabs 0 <= 1). exact Z0.
    - intros k0 Hk. cbn [lp162 lp_As lp_n]. apply RB; try reflexivity. change (Rabs (B2R (fmake 1 0)) <= 1). rewrite RO. exact Z1.
    - cbn [lp162 lp_Lpsq lp_Upsq]. rewrite R4, R2. split; (split; [reflexivity|]); apply Rabs_le; lra. }
  split; [|split].
  - intros st1 c (tr1 & ev & tr2 & o3 & t3 & Et & Ec & HR). unfold tr in Et. destruct tr1 as [|ev0 tr1].
    + inversion HR; subst. cbn [app] in Et. match type of Et with ?a :: _ = _ => assert (EV : ev = a) by congruence end. subst ev. cbn [d_cut]. split; [|split].
      * exists (fmake 1 (-2)). split; [reflexivity|]. split; [exact S1|]. intros b1 Eb. cbn [snd far_side64] in Eb. assert (b1 = fmake 1 (-1)) by congruence. subst b1. split; [reflexivity|]. intros _ _.
        assert (RE : reach2 e g1 = 1).
        { unfold reach2. rewrite En, bf2, X1, X2, X3, X4, X5, G10, G11, RO, RM, RZ. change (B2R fzero) with 0. ring. }
        unfold par64. cbv zeta. cbn [fst snd]. rewrite RE, R4, R2, sqrt_1. split; [reflexivity|].
        assert (P50 : 1 <= pow2 50) by (change 1 with (pow2 0); apply bpow_le; lia).
        assert (P37 : pow2 (-20) = 131072 * pow2 (-37)) by (change 131072 with (pow2 17); rewrite <- bpow_plus; reflexivity). assert (P0 : 0 < pow2 (-37)) by apply bpow_gt_0.
        split; [lra|]. split; [lra|]. split; [split; [apply bpow_gt_0|apply bpow_le; lia]|]. rewrite P37. lra.
      * cbn [snd]. rewrite X1, RO. lra.
      * cbn [fst snd]. apply LB; try reflexivity. change (0 <= 0 <= 1). lra.
    + destruct tr1 as [|ev1 tr1]; [|cbn [app] in Et; destruct tr1; discriminate Et].
      cbn [app] in Et. match type of Et with ?a :: ?b :: _ = _ => assert (EV0 : ev0 = a) by congruence; assert (EV : ev = b) by congruence end.
      inversion HR as [|oo ss tt cc tt1 oo1 ss1 sg qq trr oo2 ss2 tt2 HO HU HT]; subst oo ss tt oo2 ss2 tt2 trr. rewrite EV0 in *.
      change (centre (@ell_space b64 (FNumD fdot_seq)) (w, e)) with (w (e_xc e)) in HO.
      assert (EC : cc = (g1, BArr [fmake 1 (-2); fmake 1 (-1)])) by congruence. rewrite EC in HU. cbn [sp_update ell_space] in HU.
      assert (ES : ss1 = (w', e')) by congruence. assert (E1 : st1 = (w', e')) by (inversion HT; congruence).
      clear - Ec EV E1 S2 LB Y1 Y2 Y3 Y4 Y5 Y6 Y7 RK RX En' G20 G21 RO R16 RZ R4 RQ. subst c ev st1. cbn [d_cut fst snd]. split; [|split].
      * exists (fmake 1 (-2)). split; [reflexivity|]. split; [exact S2|]. intros b1 Eb. cbn [snd far_side64] in Eb. assert (b1 = fmake 1 (-1)) by congruence. subst b1. split; [reflexivity|]. intros _ RE. exfalso.
        unfold reach2 in RE. cbn [fst snd] in RE. rewrite En', bf2, Y1, Y2, Y3, Y4, Y5, G20, G21, RO, R16, RZ, R4 in RE. change (B2R fzero) with 0 in RE. lra.
      * rewrite Y1. lra.
      * apply LB; rewrite ?Y6, ?Y7; try reflexivity. exact RX.
  - unfold mem64. rewrite En. exists (fun _ => 0). split.
    + intros i Hi. unfold mvr, dot. cbn [rsum].
      change (B2R (w (e_xc e) i)) with 0. ring.
    + rewrite bf2, X1, RO. lra.
  - cbv zeta. set (d := lp_margin 2 (pow2 (-37)) 2 1).
    assert (DB : d <= / 128).
    { unfold d, lp_margin, row_err. change (INR 2) with 2.
      assert (A1 : pow2 (-52) <= / 1048576) by (change (/ 1048576) with (pow2 (-20)); apply bpow_le; lia).
      assert (A2 : pow2 (-51) <= / 1048576) by (change (/ 1048576) with (pow2 (-20)); apply bpow_le; lia).
      assert (A3 : pow2 (-1073) <= / 1048576) by (change (/ 1048576) with (pow2 (-20)); apply bpow_le; lia).
      assert (A4 : pow2 (-37) <= / 1048576) by (change (/ 1048576) with (pow2 (-20)); apply bpow_le; lia).
      assert (B1 : 0 < pow2 (-52)) by apply bpow_gt_0. assert (B2 : 0 < pow2 (-51)) by apply bpow_gt_0. assert (B3 : 0 < pow2 (-1073)) by apply bpow_gt_0. assert (B4 : 0 < pow2 (-37)) by apply bpow_gt_0.
      set (t1 := 2 * (2 * (pow2 (-52) * 2 + pow2 (-1073))) + pow2 (-51) * 2). assert (T1 : 0 <= t1 <= / 65536) by (unfold t1; lra).
      assert ((1 + 8 * pow2 (-37)) * t1 <= 2 * (/ 65536)) by (apply Rmult_le_compat; lra). lra. }
    intros y Hy. assert (C0 := Hy 0%nat ltac:(lia)). assert (C1 := Hy 1%nat ltac:(lia)). cbn [Nat.eqb] in C0, C1. apply Rabs_le_inv in C0, C1.
    split; [|lra]. split; [|split; [|split; [intros k0 Hk; cbn in Hk; lia|lra]]].
    + intros k0 Hk. cbn [lp_real lp162 lp_n lp_Ap lp_Lpsq lp_Upsq]. rewrite R4, R2. unfold dot. cbn [rsum].
      destruct (Nat.eqb k0 0).
      * change (fv2 (fmake 1 0) fzero 0%nat) with (fmake 1 0). change (fv2 (fmake 1 0) fzero 1%nat) with fzero. rewrite RO. change (B2R fzero) with 0. lra.
      * change (fv2 fzero (fmake 1 (-4)) 0%nat) with fzero. change (fv2 fzero (fmake 1 (-4)) 1%nat) with (fmake 1 (-4)). rewrite R16p. change (B2R fzero) with 0. lra.
    + intros k0 Hk. cbn [lp_real lp162 lp_n lp_As]. unfold dot. cbn [rsum].
      change (fv2 (fmake 1 0) fzero 0%nat) with (fmake 1 0). change (fv2 (fmake 1 0) fzero 1%nat) with fzero. rewrite RO. change (B2R fzero) with 0. lra.
Qed.
