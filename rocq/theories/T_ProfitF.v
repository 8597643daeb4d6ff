(** Property theorems about profit_oracle in binary64 and the drivers over it (C178, C179). *)
From Coq Require Import ZArith Reals Lra Lia Bool List Psatz Floats.SpecFloat.
From Flocq Require Import Core.Core IEEE754.BinarySingleNaN.
From Verif Require Import Base M_Drivers S_Drivers P_Drivers S_LinAlg P_LinAlg M_Ell S_Ell M_Lowpass M_Profit S_Profit P_Profit M_Float P_Float P_Float2 S_Float S_EllF S_EllRun P_FSum P_EllF P_EllF2 P_RunF P_EllRun M_ProfitF S_ProfitF P_ProfitF T_Float T_Float2 T_Float10 T_Float12 T_Float14.
Import ListNotations.
Local Open Scope R_scope.

Lemma revenue_log p sc a y : 0 < p * sc -> revenue p sc a (qty y) = exp (ln (p * sc) + lin2 a y).
Proof. intros H. unfold revenue, qty, Rpower. rewrite !ln_exp, !exp_plus, exp_ln by assumption. ring. Qed.
Lemma revenue_le p sc k a v X y : profit_range p sc k a v X -> point64 X y ->
  revenue (B2R p) (B2R sc) (vec64 a) (qty (vec64 y)) <= revenue_max (B2R p) (B2R sc) (vec64 a) X.
Proof.
  intros (_ & [Hp _] & _) Hy. rewrite revenue_log by exact Hp. unfold revenue_max. apply exp_le_iff. apply Rplus_le_compat_l.
  destruct (Hy 0%nat ltac:(lia)) as [_ H0]. destruct (Hy 1%nat ltac:(lia)) as [_ H1]. fold (vec64 y 0%nat) in H0. fold (vec64 y 1%nat) in H1.
  assert (A : forall b c, Rabs c <= X -> b * c <= Rabs b * X). { intros b c Hc. eapply Rle_trans; [apply Rle_abs|]. rewrite Rabs_mult. apply Rmult_le_compat_l; [apply Rabs_pos|exact Hc]. }
  assert (A0 := A (vec64 a 0%nat) _ H0). assert (A1 := A (vec64 a 1%nat) _ H1). lra.
Qed.

(** ** C178: one call *)
Theorem C178_profit64_call :
  forall dot fe fl fr p sc k a v P X y t,
  fdot_any dot -> libm_exp fe -> libm_log fl -> profit_range p sc k a v X ->
  profit64_init dot fe fl fr (p, sc, k) a v = Ok P -> point64 X y -> value64 t ->
  exists g f t1, profit64_call dot fe fl fr P y t = Ok ((g, f), t1) /\
    (forall i, (i < 2)%nat -> is_finite (g i) = true) /\ is_finite f = true /\ 0 <= B2R f /\
    match t1 with
    | Some s => is_finite s = true /\ B2R (y 0%nat) <= ln (B2R k) + pow2 (-41) /\
        Rabs (B2R s - profit_of (B2R p) (B2R sc) (vec64 a) (vec64 v) (qty (vec64 y))) <= pow2 (-39) * revenue (B2R p) (B2R sc) (vec64 a) (qty (vec64 y)) /\
        B2R t <= B2R s + pow2 (-38) * revenue (B2R p) (B2R sc) (vec64 a) (qty (vec64 y))
    | None => ln (B2R k) - pow2 (-41) < B2R (y 0%nat) \/
        profit_of (B2R p) (B2R sc) (vec64 a) (vec64 v) (qty (vec64 y)) <= B2R t + pow2 (-38) * (B2R t + spend (vec64 v) (qty (vec64 y)))
    end.
Proof.
  intros dot fe fl fr p sc k a v P X y t Hd He Hl HR HP Hy Ht. assert (CS := call_spec dot fe fl fr Hd He Hl p sc k a v P X HR HP y t Hy Ht).
  assert (Hp : 0 < B2R p * B2R sc) by (destruct HR as (_ & [Hp _] & _); exact Hp).
  destruct (profit64_call dot fe fl fr P y t) as [[[g f] t1]|]; [|contradiction]. destruct CS as (G & F & [F0 _] & CS). exists g, f, t1.
  split; [reflexivity|]. split; [exact G|]. split; [exact F|]. split; [exact F0|]. rewrite profit_of_log, revenue_log by exact Hp. unfold spend, qty. fold (vec64 y 0%nat).
  assert (U := u51_bounds). assert (W41 : pow2 (-41) = 1024 * u51) by (apply (pow_u (-41) 10); lia). rewrite W41.
  destruct CS as [(A1 & -> & _)|(A1 & tau & _ & _ & _ & A2)]; [left; lra|]. destruct t1 as [s|].
  - destruct A2 as (A3 & A4 & A5 & _). split; [exact A3|]. split; [lra|]. split; [exact A4|exact A5].
  - right. destruct A2 as (_ & A3). exact A3.
Qed.
Print Assumptions C178_profit64_call.

Theorem C178_profit64_cut :
  forall dot fe fl fr p sc k a v P X y t h Z b z g f t1,
  fdot_any dot -> libm_exp fe -> libm_log fl -> profit_range p sc k a v X ->
  profit64_init dot fe fl fr (p, sc, k) a v = Ok P -> point64 X y -> value64 t ->
  profit64_call dot fe fl fr P y t = Ok ((g, f), t1) ->
  0 <= h -> B2R (best t t1) + pow2 (-38) * revenue_max (B2R p) (B2R sc) (vec64 a) X <= b ->
  profit_inside (B2R p) (B2R sc) (B2R k) (vec64 a) (vec64 v) h X Z b z ->
  holds64 2 h y g f z.
Proof.
  intros dot fe fl fr p sc k a v P X y t h Z b z g f t1 Hd He Hl HR HP Hy Ht Hc Hh Hb (HZ & Hzk & Hz). assert (CS := call_spec dot fe fl fr Hd He Hl p sc k a v P X HR HP y t Hy Ht).
  rewrite Hc in CS. destruct CS as (G & F & [F0 F1] & CS). assert (Hp : 0 < B2R p * B2R sc) by (destruct HR as (_ & [Hp _] & _); exact Hp).
  assert (RM := revenue_le p sc k a v X y HR Hy). rewrite revenue_log in RM by exact Hp.
  assert (U := u51_bounds). assert (FH : 8 * h * B2R f <= 8192 * h) by (assert (0 <= h * (1024 - B2R f)) by (apply Rmult_le_pos; lra); lra).
  unfold holds64. rewrite dot2. fold (vec64 y 0%nat) (vec64 y 1%nat).
  destruct CS as [(A1 & -> & G0 & G1 & A2)|(A1 & tau & T0 & GE & FE & A2)].
  { rewrite G0, G1. assert (W40 : pow2 (-40) = 2048 * u51) by (apply (pow_u (-40) 11); lia). rewrite W40 in Hzk. lra. }
  assert (V : forall i, (i < 2)%nat -> 0 <= vec64 v i). { intros i Hi. destruct HR as (_ & _ & _ & Hv & _). destruct (Hv i Hi) as [_ [V1 _]]. assert (A := bpow_gt_0 radix2 (-100)). unfold vec64. lra. }
  rewrite profit_of_log, revenue_log in Hz by exact Hp.
  assert (CS := C_size p sc k a v X HR y Hy). assert (P356 := bpow_gt_0 radix2 (-356)).
  assert (TB : tau <= b).
  { assert (M0 : 0 <= pow2 (-38) * revenue_max (B2R p) (B2R sc) (vec64 a) X) by (apply Rmult_le_pos; [apply bpow_ge_0|left; apply exp_pos]).
    destruct t1 as [s|]; cbn [best] in Hb; [|destruct A2 as [-> _]; lra]. destruct A2 as (_ & _ & _ & A2).
    assert (pow2 (-38) * exp (ln (B2R p * B2R sc) + lin2 (vec64 a) (vec64 y)) <= pow2 (-38) * revenue_max (B2R p) (B2R sc) (vec64 a) X) by (apply Rmult_le_compat_l; [apply bpow_ge_0|exact RM]). lra. }
  destruct (logsumexp_tangent tau (vec64 v 0%nat) (vec64 v 1%nat) (vec64 y 0%nat) (vec64 y 1%nat) (z 0%nat) (z 1%nat) T0 (V 0%nat ltac:(lia)) (V 1%nat ltac:(lia)) ltac:(lra)) as [TZ TT].
  set (Cy := cost (vec64 v) (vec64 y)) in *. set (Cz := cost (vec64 v) z) in *. set (Lz := ln (B2R p * B2R sc) + lin2 (vec64 a) z) in *. set (rm := profit_room h X Z) in *.
  assert (LN : ln (tau + Cz) <= Lz - rm).
  { assert (R0 := exp_pos Lz). assert (E := exp_ge_1p (- rm)). assert (exp Lz * (1 + - rm) <= exp Lz * exp (- rm)) by (apply Rmult_le_compat_l; lra). rewrite <- exp_plus in H.
    rewrite <- (ln_exp (Lz - rm)). apply ln_le_iff; [exact TZ|apply exp_pos|]. unfold Rminus. lra. }
  assert (X0 := X_nn X y Hy).
  assert (D : forall i, (i < 2)%nat -> B2R (g i) * (z i - vec64 y i) <= (vec64 v i * exp (vec64 y i) / (tau + Cy) - vec64 a i) * (z i - vec64 y i) + pow2 (-37) * (X + Z)).
  { intros i Hi. assert (E := GE i Hi). fold Cy in E. set (gi := vec64 v i * exp (vec64 y i) / (tau + Cy) - vec64 a i) in *. destruct (Hy i Hi) as [_ By]. fold (vec64 y i) in By. assert (Bz := HZ i Hi).
    assert (B : Rabs (z i - vec64 y i) <= X + Z) by (apply Rabs_le_inv in By, Bz; apply Rabs_le; lra).
    assert (Q : Rabs ((B2R (g i) - gi) * (z i - vec64 y i)) <= pow2 (-37) * (X + Z)) by (rewrite Rabs_mult; apply Rmult_le_compat; [apply Rabs_pos|apply Rabs_pos|exact E|exact B]).
    apply Rabs_le_inv in Q. lra. }
  assert (D0 := D 0%nat ltac:(lia)). assert (D1 := D 1%nat ltac:(lia)).
  assert (W36 : pow2 (-36) = 2 * pow2 (-37)) by (change 2 with (pow2 1); rewrite <- bpow_plus; reflexivity). assert (W39 : pow2 (-39) = 4096 * u51) by (apply (pow_u (-39) 12); lia).
  unfold rm, profit_room in LN. rewrite W36, W39 in LN. unfold Lz in LN. unfold Rminus in *. lra.
Qed.
Print Assumptions C178_profit64_cut.

(** ** C179: the optimising driver *)
Lemma dc_step_of {St Loc V Cc Sc O T} (sp : space St Loc V Cc Sc) (omega : O -> V -> T -> res (O * (Cc * option T))) tr o st t o' st' t' :
  dc_replay sp omega o st t tr o' st' t' -> forall ev, In ev tr -> exists o1 o2, omega o1 (d_x ev) (d_t ev) = Ok (o2, (d_cut ev, d_t1 ev)).
Proof. induction 1 as [|o st t c t1 o1 st1 s q tr o' st' t' E U H IH]; intros ev; [intros []|]. intros [<-|Hi]; [exists o, o1; exact E|apply IH, Hi]. Qed.

Section Run.
Variables (dot : nat -> (nat -> b64) -> (nat -> b64) -> b64) (fe fl fr : b64 -> b64).
Hypotheses (Hd : fdot_any dot) (He : libm_exp fe) (Hl : libm_log fl).
Variables (p sc k : b64) (a v : nat -> b64) (P : profit b64) (X : R).
Hypothesis HR : profit_range p sc k a v X.
Hypothesis HP : profit64_init dot fe fl fr (p, sc, k) a v = Ok P.
Notation om := (profit64_omega dot fe fl fr P).
Notation Rm := (revenue_max (B2R p) (B2R sc) (vec64 a) X).
Lemma Rm_size : Rm <= pow2 512.
Proof.
  destruct HR as (_ & [_ Hb] & _ & _ & Hx & _). unfold revenue_max. apply Rabs_le_inv in Hb. unfold vec64. apply Rle_trans with (exp (IZR 256)); [apply exp_le_iff; lra|]. exact (exp_4 256 ltac:(lia)).
Qed.
Lemma step_value (u u' : unit) x t c t1 : point64 X x -> value64 t -> om u x t = Ok (u', (c, t1)) -> (forall s, t1 = Some s -> 0 <= B2R s) ->
  value64 (best t t1) /\ B2R t <= B2R (best t t1) + pow2 (-38) * Rm.
Proof.
  intros Hx Ht Hc Hs. unfold profit64_omega in Hc. apply bind_ok in Hc as ([[g f] t2] & Hc & E).
  assert (t2 = t1) by congruence. subst t2. assert (M0 : 0 <= pow2 (-38) * Rm) by (apply Rmult_le_pos; [apply bpow_ge_0|left; apply exp_pos]).
  destruct (C178_profit64_call dot fe fl fr p sc k a v P X x t Hd He Hl HR HP Hx Ht) as (g1 & f1 & t3 & Hc1 & _ & _ & _ & K).
  assert (t3 = t1) by congruence. subst t3. destruct t1 as [s|]; cbn [best]; [|split; [exact Ht|lra]].
  destruct K as (K1 & _ & K3 & K4). assert (RL := revenue_le p sc k a v X x HR Hx). set (rv := revenue (B2R p) (B2R sc) (vec64 a) (qty (vec64 x))) in *.
  assert (pow2 (-38) * rv <= pow2 (-38) * Rm) by (apply Rmult_le_compat_l; [apply bpow_ge_0|exact RL]). split; [|lra].
  split; [exact K1|]. split; [apply Hs; reflexivity|]. apply Rabs_le_inv in K3.
  assert (PR : profit_of (B2R p) (B2R sc) (vec64 a) (vec64 v) (qty (vec64 x)) <= rv).
  { destruct HR as (_ & [Hp _] & _). rewrite profit_of_log by exact Hp. unfold rv. rewrite revenue_log by exact Hp. assert (CS := C_size p sc k a v X HR x Hx). assert (A := bpow_gt_0 radix2 (-356)). lra. }
  assert (RS := Rm_size). assert (T39 : pow2 (-39) <= 1) by (change 1 with (pow2 0); apply bpow_le; lia). assert (R0 : 0 < rv). { unfold rv. destruct HR as (_ & [Hp _] & _). rewrite revenue_log by exact Hp. apply exp_pos. }
  assert (pow2 (-39) * rv <= 1 * rv) by (apply Rmult_le_compat_r; lra). assert (2 * pow2 512 <= pow2 600) by (change 2 with (pow2 1); rewrite <- bpow_plus; apply bpow_le; lia). lra.
Qed.
Lemma run_values {St Loc Sc} (sp : space St Loc (nat -> b64) (@cut b64) Sc) tr u st t u' st' t' : dc_replay sp om u st t tr u' st' t' -> value64 t ->
  (forall ev, In ev tr -> point64 X (d_x ev)) -> (forall ev s, In ev tr -> d_t1 ev = Some s -> 0 <= B2R s) ->
  value64 t' /\ B2R t <= B2R t' + INR (length tr) * (pow2 (-38) * Rm) /\
  forall ev, In ev tr -> value64 (d_t ev) /\ B2R (best (d_t ev) (d_t1 ev)) <= B2R t' + INR (length tr) * (pow2 (-38) * Rm).
Proof.
  assert (M0 : 0 <= pow2 (-38) * Rm) by (apply Rmult_le_pos; [apply bpow_ge_0|left; apply exp_pos]). set (ep := pow2 (-38) * Rm) in *.
  induction 1 as [u st t|u st t c t1 u1 st1 s q tr u' st' t' E U H IH]; intros Ht Hx Hs.
  - split; [exact Ht|]. cbn [length INR]. split; [lra|intros ev []].
  - destruct (step_value _ _ _ _ _ _ (Hx _ (or_introl eq_refl)) Ht E (fun s0 => Hs _ s0 (or_introl eq_refl))) as [V1 V2]. fold ep in V2.
    destruct (IH V1 (fun ev A => Hx ev (or_intror A)) (fun ev s0 A => Hs ev s0 (or_intror A))) as (I1 & I2 & I3). cbn [length]. rewrite S_INR.
    split; [exact I1|]. split; [lra|]. intros ev [<-|Hi]; [cbn [d_t d_t1]; split; [exact Ht|lra]|]. destruct (I3 ev Hi) as [J1 J2]. split; [exact J1|lra].
Qed.
End Run.

(** the value returned is the profit at a centre that was visited and keeps the constraint, up to rounding *)
Theorem C179_profit64_value :
  forall {St Loc Sc} (sp : space St Loc (nat -> b64) (@cut b64) Sc) ltb tneq dot fe fl fr p sc k a v P X max_it tol u st t tr u' st' xb t' info,
  fdot_any dot -> libm_exp fe -> libm_log fl -> profit_range p sc k a v X -> profit64_init dot fe fl fr (p, sc, k) a v = Ok P -> value64 t ->
  cutting_plane_dc sp ltb tneq (profit64_omega dot fe fl fr P) max_it tol u st t = Ok (tr, u', st', (xb, t', info)) ->
  (forall ev, In ev tr -> point64 X (d_x ev)) -> (forall ev s, In ev tr -> d_t1 ev = Some s -> 0 <= B2R s) ->
  B2R t <= B2R t' + INR (num_iters info) * (pow2 (-38) * revenue_max (B2R p) (B2R sc) (vec64 a) X) /\
  ((xb = None /\ t' = t) \/
   exists stm, xb = Some (sp_xc sp stm) /\
     let y := centre sp stm in
     (exists ev, In ev tr /\ d_x ev = y) /\ is_finite t' = true /\ B2R (y 0%nat) <= ln (B2R k) + pow2 (-41) /\
     Rabs (B2R t' - profit_of (B2R p) (B2R sc) (vec64 a) (vec64 v) (qty (vec64 y))) <= pow2 (-39) * revenue (B2R p) (B2R sc) (vec64 a) (qty (vec64 y))).
Proof.
  intros St Loc Sc sp ltb tneq dot fe fl fr p sc k a v P X max_it tol u st t tr u' st' xb t' info Hd He Hl HR HP Ht Hrun Hx Hs.
  destruct (dc_spec _ _ _ _ _ _ _ _ _ _ _ _ _ _ _ Hrun) as (HRp & _ & Hn & _ & _ & Hxb). rewrite Hn.
  destruct (run_values dot fe fl fr Hd He Hl p sc k a v P X HR HP sp tr u st t u' st' t' HRp Ht Hx Hs) as (_ & V2 & V3).
  split; [exact V2|]. destruct Hxb as [(_ & -> & ->)|(tr1 & ev & tr2 & stm & Et & _ & E1 & -> & Ex)]; [left; auto|right].
  exists stm. split; [reflexivity|]. cbv zeta. assert (Hin : In ev tr) by (rewrite Et; apply in_or_app; right; left; reflexivity).
  split; [exists ev; auto|]. rewrite <- Ex. destruct (V3 ev Hin) as [Vt _]. destruct (dc_step_of _ _ _ _ _ _ _ _ _ HRp ev Hin) as (o1 & o2 & Hc).
  unfold profit64_omega in Hc. apply bind_ok in Hc as ([[g f] t2] & Hc & E). assert (E2 : t2 = Some t') by congruence. subst t2.
  destruct (C178_profit64_call dot fe fl fr p sc k a v P X (d_x ev) (d_t ev) Hd He Hl HR HP (Hx ev Hin) Vt) as (g1 & f1 & t3 & Hc1 & _ & _ & _ & K).
  assert (E3 : t3 = Some t') by congruence. subst t3. destruct K as (K1 & K2 & K3 & _). auto.
Qed.
Print Assumptions C179_profit64_value.

Theorem C179_profit64_nosoln :
  forall h M G X W Z dot dotf fe fl fr ltb tneq p sc k a v P max_it tol w e t tr u' st' xb t' info,
  fdot_any dot -> libm_exp fe -> libm_log fl -> fdot_any dotf -> profit_range p sc k a v X -> profit64_init dot fe fl fr (p, sc, k) a v = Ok P -> value64 t ->
  built64 e -> e_n e = 2%nat ->
  cutting_plane_dc (@ell_space b64 (FNumD dotf)) ltb tneq (profit64_omega dot fe fl fr P) max_it tol tt (w, e) t = Ok (tr, u', st', (xb, t', info)) ->
  cstatus info = nosoln ->
  single_scaled h M G X W (asked64_dc (@ell_space b64 (FNumD dotf)) (profit64_omega dot fe fl fr P) tt (w, e) t tr) ->
  (forall ev s, In ev tr -> d_t1 ev = Some s -> 0 <= B2R s) ->
  forall z, mem64 (w, e) z ->
  ~ cube_in 2 (INR (num_iters info) * drift64 2 h W X)
      (profit_inside (B2R p) (B2R sc) (B2R k) (vec64 a) (vec64 v) h X Z
         (B2R t' + (INR (num_iters info) + 1) * (pow2 (-38) * revenue_max (B2R p) (B2R sc) (vec64 a) X))) z.
Proof.
  intros h M G X W Z dot dotf fe fl fr ltb tneq p sc k a v P max_it tol w e t tr u' st' xb t' info Hd He Hl Hdf HR HP Ht HB En Hrun HN HS Hs.
  match goal with |- forall z, _ -> ~ cube_in _ _ ?K0 z => set (K := K0) end. set (om := profit64_omega dot fe fl fr P) in *. rewrite <- En.
  apply (C153_dc_nosoln h M G X W dotf ltb tneq om max_it tol tt w e t tr u' st' xb t' info K Hdf HB Hrun HN HS).
  destruct (dc_spec _ _ _ _ _ _ _ _ _ _ _ _ _ _ _ Hrun) as (HRp & _ & Hn & _).
  destruct (dc_events dotf om (fun _ _ => True) (fun _ => True) (fun _ _ => True) (fun _ _ _ => Logic.I) (fun _ _ _ _ _ => Logic.I) (fun _ _ _ _ _ _ _ _ _ => conj Logic.I Logic.I) _ _ _ _ _ _ _ HRp Logic.I (fun _ _ _ => Logic.I)) as [_ HE].
  assert (AX : forall ev, In ev tr -> exists st1, asked64_dc (@ell_space b64 (FNumD dotf)) om tt (w, e) t tr st1 (d_cut ev) /\ e_n (snd st1) = 2%nat /\ d_x ev = fst st1 (e_xc (snd st1))).
  { intros ev Hi. destruct (HE ev Hi) as (st1 & _ & _ & _ & A1 & A2 & A3 & _). exists st1. split; [exact A1|]. split; [rewrite A2; exact En|exact A3]. }
  assert (HX : forall ev, In ev tr -> point64 X (d_x ev) /\ 0 <= h).
  { intros ev Hi. destruct (AX ev Hi) as (st1 & A1 & A2 & A3). destruct (HS st1 _ A1) as (g & b & _ & S1 & _). destruct (scaled_proper _ _ _ _ _ _ _ S1) as (_ & Hh & _). split; [|lra].
    destruct st1 as [w1 e1]. cbn [fst snd] in *. destruct S1 as (_ & _ & _ & Sx & _). rewrite A2 in Sx. rewrite A3. exact Sx. }
  destruct (run_values dot fe fl fr Hd He Hl p sc k a v P X HR HP _ tr tt (w, e) t u' st' t' HRp Ht (fun ev A => proj1 (HX ev A)) Hs) as (_ & _ & V3).
  intros ev g b y Hin Ec HK. destruct (HX ev Hin) as [Px Hh]. destruct (V3 ev Hin) as [Vt Vb]. destruct (dc_step_of _ _ _ _ _ _ _ _ _ HRp ev Hin) as (o1 & o2 & Hc).
  unfold om, profit64_omega in Hc. apply bind_ok in Hc as ([[g1 f1] t2] & Hc & E).
  assert (Eq : d_cut ev = (g1, BScalar f1)) by congruence. assert (t2 = d_t1 ev) by congruence. assert (g1 = g) by congruence. assert (f1 = b) by congruence. subst g1 f1 t2. rewrite En.
  apply (C178_profit64_cut dot fe fl fr p sc k a v P X (d_x ev) (d_t ev) h Z _ y g b (d_t1 ev) Hd He Hl HR HP Px Vt Hc Hh) with (2 := HK). rewrite Hn. lra.
Qed.
Print Assumptions C179_profit64_nosoln.

(** Non-vacuity: the correctly rounded exponential and logarithm are as assumed.  The problem has p = A = k = 1 and
    a = (1/4, 1/4), v = (1/4, 1/4).  At y = (0, 0) the profit is 1/2; at y = (5, 0) the constraint is broken, and the
    unit disc about that point contains no design that keeps it. *)
Definition fround (r : R) : b64 := fmake (Ztrunc (scaled_mantissa radix2 fexp64 (rnd r))) (cexp radix2 fexp64 (rnd r)).
Lemma fround_ok r : Rabs r <= pow2 1023 -> B2R (fround r) = rnd r /\ is_finite (fround r) = true.
Proof.
  intros H. assert (E : rnd r = IZR (Ztrunc (scaled_mantissa radix2 fexp64 (rnd r))) * pow2 (cexp radix2 fexp64 (rnd r))) by (apply generic_format_round; [typeclasses eauto|typeclasses eauto]).
  destruct (fmake_exact (Ztrunc (scaled_mantissa radix2 fexp64 (rnd r))) (cexp radix2 fexp64 (rnd r))) as [E1 F1].
  - rewrite <- E. apply generic_format_round; typeclasses eauto.
  - rewrite <- E. assert (A := rnd_range r H). destruct (Rlt_bool_spec (Rabs (rnd r)) (pow2 1024)); [assumption|discriminate].
  - unfold fround. rewrite <- E in E1. split; assumption.
Qed.
Definition cr_exp (x : b64) : b64 := fround (exp (B2R x)).
Definition cr_log (x : b64) : b64 := fround (ln (B2R x)).
Lemma cr_exp_ok : libm_exp cr_exp.
Proof.
  intros x F B. assert (E := exp_range 300 (B2R x) ltac:(lia) B). change (- (2 * 300))%Z with (-600)%Z in E. change (2 * 300)%Z with 600%Z in E. assert (P0 := bpow_gt_0 radix2 (-600)).
  destruct (fround_ok (exp (B2R x))) as [E1 F1]. { rewrite Rabs_right by lra. apply Rle_trans with (pow2 600); [lra|apply bpow_le; lia]. }
  unfold cr_exp. split; [exact F1|]. rewrite E1. assert (A := rnd_rel (exp (B2R x))). rewrite (Rabs_right (exp (B2R x))) in A by lra. eapply Rle_trans; [exact A|].
  assert (pow2 (-1075) <= pow2 (-53) * exp (B2R x)). { apply Rle_trans with (pow2 (-53) * pow2 (-600)); [rewrite <- bpow_plus; apply bpow_le; lia|apply Rmult_le_compat_l; [apply bpow_ge_0|lra]]. }
  replace (pow2 (-50)) with (8 * pow2 (-53)) by (change 8 with (pow2 3); rewrite <- bpow_plus; reflexivity). assert (0 <= pow2 (-53) * exp (B2R x)) by (apply Rmult_le_pos; [apply bpow_ge_0|lra]). lra.
Qed.
Lemma cr_log_ok : libm_log cr_log.
Proof.
  intros x F H. assert (B : Rabs (ln (B2R x)) <= IZR 1100).
  { apply ln_range; [lia|]. split.
    - destruct (b64_scaled x) as (m & c & E & _ & Hc). rewrite E in H |- *. assert (Pc := bpow_gt_0 radix2 c). assert (M : (1 <= m)%Z). { apply (Zlt_le_succ 0). apply lt_IZR. apply Rmult_lt_reg_r with (pow2 c); lra. }
      apply IZR_le in M. apply Rle_trans with (1 * pow2 c); [rewrite Rmult_1_l; apply bpow_le; lia|apply Rmult_le_compat_r; lra].
    - assert (A := abs_B2R_lt_emax 53 1024 x). rewrite Rabs_right in A by lra. left. apply Rlt_le_trans with (1 := A). apply bpow_le. lia. }
  destruct (fround_ok (ln (B2R x))) as [E1 F1]. { eapply Rle_trans; [exact B|]. apply Rle_trans with (pow2 11); [change (pow2 11) with 2048; lra|apply bpow_le; lia]. }
  unfold cr_log. split; [exact F1|]. rewrite E1. eapply Rle_trans; [apply rnd_rel|]. apply Rplus_le_compat; [apply Rmult_le_compat_r; [apply Rabs_pos|]|]; apply bpow_le; lia.
Qed.
Definition one64 : b64 := fmake 1 0.
Definition quart : nat -> b64 := fun _ => fmake 1 (-2).
Lemma quart_R : B2R (fmake 1 (-2)) = / 4.
Proof. rewrite (proj1 (fpow_R (-2) ltac:(lia))). reflexivity. Qed.
Lemma range178 : profit_range one64 one64 one64 quart quart 10.
Proof.
  unfold profit_range, one64, quart. rewrite (proj1 fone), quart_R, Rmult_1_r, ln_1, Rabs_R0, (Rabs_right (/ 4)) by lra.
  assert (pow2 (-100) <= / 4) by (change (/ 4) with (pow2 (-2)); apply bpow_le; lia). assert (/ 4 <= pow2 100) by (change (/ 4) with (pow2 (-2)); apply bpow_le; lia).
  split; [repeat split|]. split; [lra|]. split; [lra|]. split; [intros i _; split; lra|]. split; lra.
Qed.
Lemma cr_log1 : cr_log one64 = fzero.
Proof. unfold cr_log, one64. rewrite (proj1 fone), ln_1. unfold fround. rewrite rnd_0. unfold scaled_mantissa. rewrite Rmult_0_l, Ztrunc_IZR. reflexivity. Qed.
Definition P178 : profit b64 := {| pf_log_pA := cr_log (fmul one64 one64); pf_log_k := cr_log one64; pf_v := quart; pf_a := quart |}.
Definition ym1 : nat -> b64 := fun _ => fmake (-1) 0.
Lemma half_bounds : / 2 <= exp (- / 2) <= 1 /\ 0 < exp (- (1)) <= / 2.
Proof.
  assert (A := exp_ge_1p (- / 2)). assert (B : exp (- / 2) <= exp 0) by (apply exp_le_iff; lra). rewrite exp_0 in B. split; [lra|].
  assert (C := exp_ge_1p 1). assert (Pe := exp_pos (- (1))). split; [exact Pe|]. rewrite exp_Ropp. apply Rinv_le_contravar; lra.
Qed.
Lemma m1_profit z : z 0%nat = - (1) -> z 1%nat = - (1) ->
  / 4 <= profit_of (B2R one64) (B2R one64) (vec64 quart) (vec64 quart) (qty z) /\ 0 < revenue (B2R one64) (B2R one64) (vec64 quart) (qty z) <= 1 /\ 0 < spend (vec64 quart) (qty z) <= 1.
Proof.
  intros E0 E1. destruct half_bounds as (A & B). unfold one64. rewrite profit_of_log, revenue_log by (rewrite (proj1 fone); lra). unfold spend, qty. rewrite (proj1 fone), Rmult_1_r, ln_1, E0, E1.
  unfold vec64, quart. rewrite quart_R. replace (0 + (/ 4 * - (1) + / 4 * - (1))) with (- / 2) by field. lra.
Qed.
Lemma m1_R : B2R (fmake (-1) 0) = - (1).
Proof. rewrite fmakeR by lia. change (pow2 0) with 1. ring. Qed.
(** the oracle accepts y = (-1, -1) *)
Example C178_ex : fdot_any fdot_seq /\ libm_exp cr_exp /\ libm_log cr_log /\ profit_range one64 one64 one64 quart quart 10 /\
  profit64_init fdot_seq cr_exp cr_log cr_exp (one64, one64, one64) quart quart = Ok P178 /\ point64 10 ym1 /\ value64 fzero /\
  exists g f s, profit64_call fdot_seq cr_exp cr_log cr_exp P178 ym1 fzero = Ok ((g, f), Some s) /\ / 5 <= B2R s.
Proof.
  assert (H1 : fdot_any fdot_seq) by exact fnum_dot_any. assert (H4 := range178).
  assert (H5 : profit64_init fdot_seq cr_exp cr_log cr_exp (one64, one64, one64) quart quart = Ok P178) by reflexivity.
  assert (H6 : point64 10 ym1). { intros i _. split; [reflexivity|]. unfold ym1. rewrite m1_R. apply Rabs_le. lra. }
  assert (H7 : value64 fzero). { split; [reflexivity|]. change (B2R fzero) with 0. split; [lra|apply bpow_ge_0]. }
  repeat (split; [first [exact cr_exp_ok|exact cr_log_ok|assumption]|]).
  destruct (C178_profit64_call _ _ _ _ _ _ _ _ _ _ _ _ _ H1 cr_exp_ok cr_log_ok H4 H5 H6 H7) as (g & f & t1 & Hc & _ & _ & _ & K). exists g, f.
  destruct (m1_profit (vec64 ym1)) as (A1 & A2 & A3); [exact m1_R|exact m1_R|].
  assert (T : pow2 (-38) <= / 1024) by (change (/ 1024) with (pow2 (-10)); apply bpow_le; lia). assert (T0 : 0 < pow2 (-38)) by apply bpow_gt_0.
  assert (T' : pow2 (-39) <= / 1024) by (change (/ 1024) with (pow2 (-10)); apply bpow_le; lia). assert (T0' : 0 < pow2 (-39)) by apply bpow_gt_0.
  destruct t1 as [s|].
  - exists s. split; [exact Hc|]. destruct K as (_ & _ & K & _). apply Rabs_le_inv in K.
    set (rv := revenue (B2R one64) (B2R one64) (vec64 quart) (qty (vec64 ym1))) in *. assert (pow2 (-39) * rv <= / 1024 * 1) by (apply Rmult_le_compat; lra). lra.
  - exfalso. destruct K as [K|K].
    + unfold one64 in K. rewrite (proj1 fone), ln_1 in K. unfold ym1 in K. rewrite m1_R in K. assert (pow2 (-41) <= / 1024) by (change (/ 1024) with (pow2 (-10)); apply bpow_le; lia). lra.
    + change (B2R fzero) with 0 in K. set (sp := spend (vec64 quart) (qty (vec64 ym1))) in *. assert (pow2 (-38) * (0 + sp) <= / 1024 * 1) by (apply Rmult_le_compat; lra). lra.
Qed.

Definition x179 : nat -> b64 := fun i => if (i =? 0)%nat then fmake 1 0 else fzero.
Definition v179 : nat -> b64 := fun i => if (i =? 0)%nat then fmake 1 (-2) else fmake 1 0.
Definition ex179_info (w : memory b64) (x : res (ell b64)) : option (nat * list spec_float * status) :=
  match x with
  | Ok e => match @ell_update b64 (FNumD fdot_seq) (w, e) (@pair2 b64 FNum (fmake 1 0) fzero, BScalar (fmake 1 0)) with
            | Ok (_, (s, _)) => Some (e_n e, ell2_of e w, s)
            | Raise _ => None end
  | Raise _ => None end.
Example C179_ex : exists (e : ell b64) w tr u' st' xb info z,
  fdot_any fdot_seq /\ libm_exp cr_exp /\ libm_log cr_log /\ profit_range one64 one64 one64 quart quart 1 /\
  profit64_init fdot_seq cr_exp cr_log cr_exp (one64, one64, one64) quart quart = Ok P178 /\ value64 fzero /\ built64 e /\ e_n e = 2%nat /\
  cutting_plane_dc (@ell_space b64 (FNumD fdot_seq)) (fun _ _ => false) (fun _ _ => false) (profit64_omega fdot_seq cr_exp cr_log cr_exp P178) 5 fzero tt (w, e) fzero = Ok (tr, u', st', (xb, fzero, info)) /\
  cstatus info = nosoln /\
  single_scaled (pow2 (-37)) 1 1 1 2 (asked64_dc (@ell_space b64 (FNumD fdot_seq)) (profit64_omega fdot_seq cr_exp cr_log cr_exp P178) tt (w, e) fzero tr) /\
  (forall ev s, In ev tr -> d_t1 ev = Some s -> 0 <= B2R s) /\ (forall ev, In ev tr -> point64 1 (d_x ev)) /\ mem64 (w, e) z /\
  profit_inside (B2R one64) (B2R one64) (B2R one64) (vec64 quart) (vec64 quart) (pow2 (-37)) 1 1 (B2R fzero + (INR (num_iters info) + 1) * (pow2 (-38) * revenue_max (B2R one64) (B2R one64) (vec64 quart) 1)) (vec64 ym1).
Proof.
  set (w := (fun (_ : loc) => x179) : memory b64).
  assert (X : ex179_info w (@ell_init b64 FNum (VArray v179) 2 0%nat) =
    Some (2%nat, map B2SF [fmake 1 0; fmake 1 (-2); fzero; fzero; fmake 1 0; fmake 1 0; fzero], nosoln)) by (vm_compute; reflexivity).
  revert X. destruct (@ell_init b64 FNum (VArray v179) 2 0%nat) as [e|] eqn:E; [|discriminate]. unfold ex179_info.
  match goal with |- match ?u with Ok _ => _ | Raise _ => _ end = _ -> _ => destruct u as [[st2 [s tsq]]|] eqn:U; [|discriminate] end. intros X.
  unfold ell2_of in X. cbn [map] in X.
  assert (En : e_n e = 2%nat) by congruence. assert (Es : s = nosoln) by congruence.
  assert (I : forall x y : b64, B2SF x = B2SF y -> x = y) by (intros x y; apply B2SF_inj).
  assert (X1 : e_kappa e = fmake 1 0) by (apply I; congruence).
  assert (X2 : e_Q e 0%nat 0%nat = fmake 1 (-2)) by (apply I; congruence).
  assert (X3 : e_Q e 0%nat 1%nat = fzero) by (apply I; congruence).
  assert (X4 : e_Q e 1%nat 0%nat = fzero) by (apply I; congruence).
  assert (X5 : e_Q e 1%nat 1%nat = fmake 1 0) by (apply I; congruence). clear X I. subst s.
  set (g := @pair2 b64 FNum (fmake 1 0) fzero) in *. assert (R1 := proj1 fone).
  assert (S1 : scaled64 (pow2 (-37)) 1 1 1 (w, e) g (fmake 1 0)).
  { apply scaled_diag2g with (q0 := fmake 1 (-2)) (q1 := fmake 1 0); rewrite ?X1; try assumption; try reflexivity; try (rewrite ?R1, ?quart_R; lra).
    - intros i Hi. destruct i as [|[|i]]; [| |lia]; (split; [reflexivity|]); unfold w, x179; cbn [Nat.eqb]; rewrite ?R1; change (B2R fzero) with 0; apply Rabs_le; lra.
    - intros i Hi. destruct i as [|[|i]]; [| |lia]; (split; [reflexivity|]); unfold g; cbn [pair2]; rewrite ?R1; change (B2R fzero) with 0; apply Rabs_le; lra.
    - unfold g. cbn [pair2]. rewrite R1, quart_R. change (B2R fzero) with 0. lra. }
  assert (LO : profit64_omega fdot_seq cr_exp cr_log cr_exp P178 tt x179 fzero = Ok (tt, ((g, BScalar (fmake 1 0)), None))).
  { assert (S0 : fsub (fmake 1 0) fzero = fmake 1 0) by reflexivity. assert (B0 : Bltb fzero (fmake 1 0 : b64) = true) by reflexivity.
    unfold profit64_omega, profit64_call, profit_call. cbn [nsub nzero nltb FNumD pf_log_k P178 none]. rewrite cr_log1. change (x179 0%nat) with (fmake 1 0). rewrite S0, B0. reflexivity. }
  set (tr := [{| d_x := x179; d_t := fzero; d_cut := (g, BScalar (fmake 1 0)); d_t1 := None; d_status := nosoln; d_tsq := tsq |}]).
  exists e, w, tr, tt, st2, None, {| feasible := false; num_iters := 1; cstatus := nosoln |}, (vec64 x179).
  split; [exact fnum_dot_any|]. split; [exact cr_exp_ok|]. split; [exact cr_log_ok|].
  split. { destruct range178 as (A1 & A2 & A3 & A4 & A5 & A6). split; [exact A1|]. split; [exact A2|]. split; [exact A3|]. split; [exact A4|]. unfold quart. rewrite quart_R, (Rabs_right (/ 4)) by lra. split; lra. }
  split; [reflexivity|]. split. { split; [reflexivity|]. change (B2R fzero) with 0. split; [lra|apply bpow_ge_0]. }
  split; [exists (VArray v179), 0%nat, e; rewrite En; split; [exact E|auto]|]. split; [exact En|].
  split. { unfold cutting_plane_dc. cbn [dc_loop]. change (centre (@ell_space b64 (FNumD fdot_seq)) (w, e)) with x179. rewrite LO. cbn [bind fst snd sp_update ell_space]. rewrite U. cbn [bind status_eqb negb]. reflexivity. }
  split; [reflexivity|]. split.
  { intros st1 c (tr1 & ev & tr2 & o1 & t2 & Et & Ec & HR). unfold tr in Et. destruct tr1 as [|e1 tr1]; [|destruct tr1; discriminate Et].
    inversion HR; subst. exists g, (fmake 1 0). split; [cbn [app] in Et; assert (Ee : ev = {| d_x := x179; d_t := fzero; d_cut := (g, BScalar (fmake 1 0)); d_t1 := None; d_status := nosoln; d_tsq := tsq |}) by congruence; rewrite Ee; reflexivity|]. split; [exact S1|]. cbn [snd]. rewrite X1, R1. lra. }
  split; [intros ev s [<-|[]] A; discriminate A|].
  split. { intros ev [<-|[]] i Hi. cbn [d_x]. destruct i as [|[|i]]; [| |lia]; (split; [reflexivity|]); unfold x179; cbn [Nat.eqb]; rewrite ?R1; change (B2R fzero) with 0; apply Rabs_le; lra. }
  split. { unfold mem64. rewrite En. exists (fun _ => 0). split.
    + intros i Hi. unfold mvr, S_LinAlg.dot. cbn [rsum]. unfold vec64, w. ring.
    + rewrite bf2, X1, R1. lra. }
  destruct (m1_profit (vec64 ym1)) as (A1 & A2 & A3); [exact m1_R|exact m1_R|].
  assert (T : forall j, (j <= -24)%Z -> 0 < pow2 j <= / 16777216) by (intros j Hj; split; [apply bpow_gt_0|change (/ 16777216) with (pow2 (-24)); apply bpow_le; exact Hj]).
  assert (T1 := T (-36)%Z ltac:(lia)). assert (T2 := T (-39)%Z ltac:(lia)). assert (T3 := T (-37)%Z ltac:(lia)). assert (T4 := T (-38)%Z ltac:(lia)). assert (T5 := T (-40)%Z ltac:(lia)).
  split; [intros i _; unfold vec64, ym1; rewrite m1_R; apply Rabs_le; lra|].
  split; [unfold one64, vec64, ym1; rewrite R1, ln_1, m1_R; lra|].
  cbn [num_iters]. change (B2R fzero) with 0. change (INR 1) with 1. unfold profit_room. set (rv := revenue (B2R one64) (B2R one64) (vec64 quart) (qty (vec64 ym1))) in *.
  assert (RM : revenue_max (B2R one64) (B2R one64) (vec64 quart) 1 <= 2).
  { unfold revenue_max, one64, vec64, quart. rewrite R1, Rmult_1_r, ln_1, quart_R, (Rabs_right (/ 4)) by lra. replace (0 + (/ 4 + / 4) * 1) with (/ 2) by field. assert (B := exp_up (/ 2) ltac:(lra)). lra. }
  assert (RM0 : 0 <= revenue_max (B2R one64) (B2R one64) (vec64 quart) 1) by (left; apply exp_pos).
  set (rm := revenue_max (B2R one64) (B2R one64) (vec64 quart) 1) in *.
  assert (B1 : pow2 (-38) * rm <= / 16777216 * 2) by (apply Rmult_le_compat; lra).
  assert (B2 : (pow2 (-36) * (1 + 1) + pow2 (-39) + 8192 * pow2 (-37)) * rv <= (/ 1024) * 1) by (apply Rmult_le_compat; lra). lra.
Qed.
