(** Property theorems about profit_rb_oracle in binary64 and the driver over it (C180, C181). *)
From Coq Require Import ZArith Reals Lra Lia Bool List Psatz.
From Flocq Require Import Core.Core IEEE754.BinarySingleNaN.
From Verif Require Import Base M_Drivers S_Drivers P_Drivers S_LinAlg M_Ell S_Ell M_Lowpass M_Profit S_Profit P_Profit M_Float P_Float P_Float2 S_Float S_EllF S_EllRun P_FSum P_EllF P_EllF2 P_RunF P_EllRun M_ProfitF S_ProfitF P_ProfitF T_Float T_Float2 T_Float10 T_Float12 T_Float14 T_ProfitF M_ProfitRbF S_ProfitRbF P_ProfitRbF.
Import ListNotations.
Local Open Scope R_scope.

Definition rb64_built dot fe fl fr (D : rb_params b64) (o : profit_rb b64) : Prop :=
  profit_rb64_init dot fe fl fr (bp D, bsc D, bk D) (ba D) (bv D) (be1 D, be2 D, be3 D, be4 D, be5 D) = Ok o.
(** an object for the data D, whatever it was asked before *)
Definition rb64_for fl (D : rb_params b64) (o : profit_rb b64) : Prop :=
  rb_a o = ba D /\ rb_e o = @pair2 b64 FNum (be1 D) (be2 D) /\ pf_log_pA (rb_P o) = fl (fmul (pin D) (bsc D)) /\ pf_log_k (rb_P o) = fl (kin D) /\ pf_v (rb_P o) = vin D.
Lemma built_for dot fe fl fr D o : rb64_built dot fe fl fr D o -> rb64_for fl D o.
Proof. unfold rb64_built, profit_rb64_init, profit_rb_init, profit_init. cbn [nlog FNumT bind nmul nsub nadd FNumD]. intros H. injection H as <-. repeat split. Qed.
Lemma call_inv dot fe fl fr D o y t : rb64_for fl D o -> exists P, profit64_init dot fe fl fr (pin D, bsc D, kin D) (ain D y) (vin D) = Ok P /\
  forall r, (profit64_call dot fe fl fr P y t = r -> match r with Ok c => exists o', profit_rb64_call dot fe fl fr o y t = Ok (o', c) /\ rb64_for fl D o' | Raise e => profit_rb64_call dot fe fl fr o y t = Raise e end).
Proof.
  intros (E1 & E2 & E3 & E4 & E5). exists {| pf_log_pA := fl (fmul (pin D) (bsc D)); pf_log_k := fl (kin D); pf_v := vin D; pf_a := ain D y |}. split; [reflexivity|].
  intros r Hr. unfold profit_rb64_call, profit_rb_call. rewrite E3, E4, E5.
  assert (Ea : @rb_exponents b64 (FNumD dot) o y = ain D y). { unfold rb_exponents. rewrite E1, E2. reflexivity. } rewrite Ea. unfold profit64_call in Hr. rewrite Hr.
  destruct r as [c|e]; cbn [bind]; [|reflexivity]. eexists; split; [reflexivity|]. repeat split; assumption.
Qed.
Lemma calls_for dot fe fl fr D o o' : rb64_calls dot fe fl fr o o' -> rb64_for fl D o -> rb64_for fl D o'.
Proof.
  induction 1 as [|o y t o1 r o2 Hc _ IH]; [auto|]. intros H. apply IH. destruct (call_inv dot fe fl fr D o y t H) as (P & _ & K). specialize (K _ eq_refl).
  destruct (profit64_call dot fe fl fr P y t) as [c|e]; [|congruence]. destruct K as (o3 & K1 & K2). congruence.
Qed.

(** ** C180: one call *)
Lemma rb_call dot fe fl fr D X o y t :
  fdot_any dot -> libm_exp fe -> libm_log fl -> rb_range D X -> rb64_for fl D o -> point64 X y -> value64 t ->
  let d := real_of D in
  exists o' g f t1, profit_rb64_call dot fe fl fr o y t = Ok (o', ((g, f), t1)) /\ rb64_for fl D o' /\
    (forall i, (i < 2)%nat -> is_finite (g i) = true) /\ is_finite f = true /\ 0 <= B2R f /\
    match t1 with
    | Some s => is_finite s = true /\
        (forall p' k' a' v', scenario d p' k' a' v' ->
           let x := qty (vec64 y) in
           x 0%nat <= k' * exp (pow2 (-40)) /\
           B2R s <= profit_of p' (bsc d) a' v' x + pow2 (-37) * revenue p' (bsc d) a' x /\
           B2R t <= B2R s + pow2 (-37) * revenue p' (bsc d) a' x) /\
        (exists p' k' a' v', scenario d p' k' a' v' /\
           profit_of p' (bsc d) a' v' (qty (vec64 y)) <= B2R s + pow2 (-37) * revenue p' (bsc d) a' (qty (vec64 y)))
    | None => exists p' k' a' v', scenario d p' k' a' v' /\
        (ln k' - pow2 (-40) < B2R (y 0%nat) \/
         profit_of p' (bsc d) a' v' (qty (vec64 y)) <= B2R t + pow2 (-37) * (B2R t + spend v' (qty (vec64 y))))
    end.
Proof.
  intros Hd He Hl HR Ho Hy Ht d. assert (IR := in_range D X HR y Hy). destruct (call_inv dot fe fl fr D o y t Ho) as (P & HP & K).
  destruct (C178_profit64_call dot fe fl fr _ _ _ _ _ P X y t Hd He Hl IR HP Hy Ht) as (g & f & t1 & Hc & G & F & F0 & S). destruct (K _ Hc) as (o' & K1 & K2).
  exists o', g, f, t1. split; [exact K1|]. split; [exact K2|]. split; [exact G|]. split; [exact F|]. split; [exact F0|].
  destruct (psc_ok D X HR) as (Q1 & Q2 & _). rewrite !profit_of_log, !revenue_log in S by exact Q1. unfold spend, qty in S.
  assert (RN := rev_near_y D X HR y Hy). assert (CN := cost_near D X HR (vec64 y)). destruct (kin_ok D X HR) as [_ (K01 & K02 & K03)]. apply Rabs_le_inv in K03.
  set (rin := exp (ln (B2R (pin D) * B2R (bsc D)) + lin2 (vec64 (ain D y)) (vec64 y))) in *. set (rc := exp (ln (pc D * B2R (bsc D)) + lin2 (ac D y) (vec64 y))) in *.
  set (cin := cost (vec64 (vin D)) (vec64 y)) in *. set (cc := cost (vc D) (vec64 y)) in *.
  assert (U := u51_bounds). assert (R0 : 0 < rin) by apply exp_pos. assert (R1 : 0 < rc) by apply exp_pos. assert (C0 : 0 < cin) by apply CN. assert (C1 : 0 < cc) by apply CN.
  assert (A1 := near_abs _ _ _ RN ltac:(lra)). assert (A2 := near_abs _ _ _ (near_sym _ _ _ RN) ltac:(lra)). assert (B1 := near_abs _ _ _ CN ltac:(lra)). assert (B2 := near_abs _ _ _ (near_sym _ _ _ CN) ltac:(lra)).
  apply Rabs_le_inv in A1, A2, B1, B2.
  assert (sm : forall x y, 0 <= x <= y -> 0 <= u51 * x <= u51 * y) by (intros x0 y0 H; split; [apply Rmult_le_pos; lra|apply Rmult_le_compat_l; lra]).
  assert (sm2 : forall x, 0 <= x -> 0 <= u51 * x <= / 1048576 * x) by (intros x0 H; split; [apply Rmult_le_pos; lra|apply Rmult_le_compat_r; lra]).
  assert (RI : rin <= 2 * rc) by (assert (T := sm2 rc ltac:(lra)); lra). assert (RC : rc <= 2 * rin) by (assert (T := sm2 rin ltac:(lra)); lra).
  assert (CI : cin <= 2 * cc) by (assert (T := sm2 cc ltac:(lra)); lra). assert (CC : cc <= 2 * cin) by (assert (T := sm2 cin ltac:(lra)); lra).
  assert (W37 : pow2 (-37) = 16384 * u51) by (apply (pow_u (-37) 14); lia). assert (W38 : pow2 (-38) = 8192 * u51) by (apply (pow_u (-38) 13); lia). assert (W39 : pow2 (-39) = 4096 * u51) by (apply (pow_u (-39) 12); lia).
  assert (W40 : pow2 (-40) = 2048 * u51) by (apply (pow_u (-40) 11); lia). assert (W41 : pow2 (-41) = 1024 * u51) by (apply (pow_u (-41) 10); lia). rewrite W38, ?W39, W41 in S. rewrite W37, W40.
  assert (Q2' : 0 < pc D * bsc d) by exact Q2.
  destruct Ht as (Ft & Ht0 & _).
  destruct t1 as [s|].
  - destruct S as (S1 & S2 & S3 & S4). fold (vec64 y 0%nat) in S2. fold cin in S3. apply Rabs_le_inv in S3.
    assert (CR : cin <= 2 * rin) by (assert (T := sm2 rin ltac:(lra)); lra).
    assert (T1 := sm rin (2 * rc) ltac:(lra)). assert (T2 := sm rc (2 * rin) ltac:(lra)). assert (T3 := sm cin (2 * rin) ltac:(lra)). assert (T4 := sm cc (2 * cin) ltac:(lra)).
    split; [exact S1|]. split.
    + intros p' k' a' v' Sc. destruct (worst D X HR y p' k' a' v' Sc) as (V1 & V2 & V3 & V4). fold rc in V3. specialize (V4 (vec64 y)). fold cc in V4. cbv zeta.
      change (bsc d) with (B2R (bsc D)). rewrite profit_of_log, revenue_log by exact V1. set (r' := exp (ln (p' * B2R (bsc D)) + lin2 a' (vec64 y))) in *. set (c' := cost v' (vec64 y)) in *.
      assert (T5 := sm rc r' ltac:(lra)). split; [|split; lra].
      unfold qty. apply Rle_trans with (exp (ln (kc D) + 2048 * u51)); [apply exp_le_iff; lra|]. rewrite exp_plus, exp_ln by exact K02. apply Rmult_le_compat_r; [left; apply exp_pos|exact V2].
    + exists (pc D), (kc D), (ac D y), (vc D). split; [exact (corner D X HR y)|]. rewrite profit_of_log, revenue_log by exact Q2'. change (bsc d) with (B2R (bsc D)). fold rc cc. lra.
  - exists (pc D), (kc D), (ac D y), (vc D). split; [exact (corner D X HR y)|]. destruct S as [S|S]; [left; lra|right]. rewrite profit_of_log by exact Q2'. unfold spend, qty. change (bsc d) with (B2R (bsc D)). fold rc cc. fold cin in S.
    assert (RT : rin <= 2 * (B2R t + cin)) by (assert (T := sm2 (B2R t + cin) ltac:(lra)); lra).
    assert (T1 := sm rin _ (conj (Rlt_le _ _ R0) RT)). assert (T2 := sm cin (2 * cc) ltac:(lra)). assert (T3 := sm cc (2 * cin) ltac:(lra)). assert (T4 := sm 0 (B2R t) ltac:(lra)).
    assert (T5 := sm2 (u51 * cc) ltac:(lra)). assert (T6 : u51 * cin <= u51 * cc + u51 * (2 * u51 * cc)). { rewrite <- Rmult_plus_distr_l. apply Rmult_le_compat_l; lra. }
    lra.
Qed.
Theorem C180_rb64_call :
  forall dot fe fl fr D X o0 o y t,
  fdot_any dot -> libm_exp fe -> libm_log fl -> rb_range D X -> rb64_built dot fe fl fr D o0 -> rb64_calls dot fe fl fr o0 o -> point64 X y -> value64 t ->
  let d := real_of D in
  exists o' g f t1, profit_rb64_call dot fe fl fr o y t = Ok (o', ((g, f), t1)) /\
    (forall i, (i < 2)%nat -> is_finite (g i) = true) /\ is_finite f = true /\ 0 <= B2R f /\
    match t1 with
    | Some s => is_finite s = true /\
        (forall p' k' a' v', scenario d p' k' a' v' ->
           let x := qty (vec64 y) in
           x 0%nat <= k' * exp (pow2 (-40)) /\
           B2R s <= profit_of p' (bsc d) a' v' x + pow2 (-37) * revenue p' (bsc d) a' x /\
           B2R t <= B2R s + pow2 (-37) * revenue p' (bsc d) a' x) /\
        (exists p' k' a' v', scenario d p' k' a' v' /\
           profit_of p' (bsc d) a' v' (qty (vec64 y)) <= B2R s + pow2 (-37) * revenue p' (bsc d) a' (qty (vec64 y)))
    | None => exists p' k' a' v', scenario d p' k' a' v' /\
        (ln k' - pow2 (-40) < B2R (y 0%nat) \/
         profit_of p' (bsc d) a' v' (qty (vec64 y)) <= B2R t + pow2 (-37) * (B2R t + spend v' (qty (vec64 y))))
    end.
Proof.
  intros dot fe fl fr D X o0 o y t Hd He Hl HR H0 Hcs Hy Ht d. assert (Ho := calls_for _ _ _ _ _ _ _ Hcs (built_for _ _ _ _ _ _ H0)).
  destruct (rb_call dot fe fl fr D X o y t Hd He Hl HR Ho Hy Ht) as (o' & g & f & t1 & A & _ & B). exists o', g, f, t1. split; [exact A|exact B].
Qed.
Print Assumptions C180_rb64_call.

Lemma inside_in D X y h Z b z : rb_range D X -> point64 X y -> 0 <= h -> 0 <= b -> rb_inside (real_of D) h X Z b z ->
  profit_inside (B2R (pin D)) (B2R (bsc D)) (B2R (kin D)) (vec64 (ain D y)) (vec64 (vin D)) h X Z b z.
Proof.
  intros HR Hy Hh Hb [HZ HI]. destruct (HI _ _ _ _ (corner D X HR y)) as [I1 I2]. destruct (psc_ok D X HR) as (Q1 & Q2 & _). destruct (kin_ok D X HR) as [_ (K01 & K02 & K03)]. apply Rabs_le_inv in K03.
  assert (U := u51_bounds). assert (X0 := X_nn X y Hy). assert (Z0 : 0 <= Z) by (assert (A := HZ 0%nat ltac:(lia)); assert (A' := Rabs_pos (z 0%nat)); lra).
  assert (W35 : pow2 (-35) = 65536 * u51) by (apply (pow_u (-35) 16); lia). assert (W36 : pow2 (-36) = 32768 * u51) by (apply (pow_u (-36) 15); lia). assert (W38 : pow2 (-38) = 8192 * u51) by (apply (pow_u (-38) 13); lia). assert (W39 : pow2 (-39) = 4096 * u51) by (apply (pow_u (-39) 12); lia). assert (W40 : pow2 (-40) = 2048 * u51) by (apply (pow_u (-40) 11); lia).
  split; [exact HZ|]. split; [rewrite W39 in I1; rewrite W40; lra|].
  change (bsc (real_of D)) with (B2R (bsc D)) in I2. rewrite profit_of_log, revenue_log in I2 by exact Q2. rewrite profit_of_log, revenue_log by exact Q1.
  assert (RN := rev_near D X HR y Hy z Z HZ). assert (CN := cost_near D X HR z).
  set (rin := exp (ln (B2R (pin D) * B2R (bsc D)) + lin2 (vec64 (ain D y)) z)) in *. set (rc := exp (ln (pc D * B2R (bsc D)) + lin2 (ac D y) z)) in *.
  set (cin := cost (vec64 (vin D)) z) in *. set (cc := cost (vc D) z) in *. assert (R1 : 0 < rc) by apply exp_pos. assert (C1 : 0 < cc) by apply CN.
  assert (B1 := near_abs _ _ _ CN ltac:(lra)). apply Rabs_le_inv in B1.
  assert (E0 := el_nn D X HR 0 ltac:(lia)). assert (E1 := el_nn D X HR 1 ltac:(lia)). set (e0 := elast (real_of D) 0) in *. set (e1 := elast (real_of D) 1) in *.
  apply near_le with (e' := (1 + 128 * Z) * u51) in RN; [|apply Rmult_le_compat_r; [lra|]; assert ((e0 + e1) * Z <= 510 * Z) by (apply Rmult_le_compat_r; lra); lra].
  apply near_exp in RN as (_ & RN & _). set (de := (1 + 128 * Z) * u51) in *. assert (EX := exp_ge_1p (- de)).
  unfold rb_room in I2. rewrite W35, W38 in I2. unfold profit_room. rewrite W36, W39.
  set (q := u51 * (X + Z)) in *. assert (q0 : 0 <= q) by (apply Rmult_le_pos; lra). assert (dq : de <= u51 + 128 * q) by (unfold de, q; assert (0 <= u51 * X) by (apply Rmult_le_pos; lra); lra).
  replace (65536 * u51 * (X + Z)) with (65536 * q) in I2 by (unfold q; ring). replace (32768 * u51 * (X + Z)) with (32768 * q) by (unfold q; ring).
  set (rm := 32768 * q + 4096 * u51 + 8192 * h) in *. assert (rm0 : 0 <= rm) by (unfold rm; lra). assert (de0 : 0 <= de) by (apply Rmult_le_pos; lra).
  set (r2 := 65536 * q + 8192 * u51 + 8192 * h) in *. assert (RR : rm + de + 2 * u51 <= r2) by (unfold rm, r2; lra).
  destruct (Rlt_or_le r2 1) as [L|L]; [|exfalso; assert (rc * 1 <= rc * r2) by (apply Rmult_le_compat_l; lra); lra].
  assert (0 <= r2 * rc) by (apply Rmult_le_pos; lra). assert (CR : u51 * cc <= u51 * rc) by (apply Rmult_le_compat_l; lra).
  assert (M1 : rc * (1 - de) * (1 - rm) <= rin * (1 - rm)). { apply Rmult_le_compat_r; [lra|]. eapply Rle_trans; [|exact RN]. apply Rmult_le_compat_l; lra. }
  assert (M2 : 0 <= rc * (de * rm)) by (apply Rmult_le_pos; [lra|apply Rmult_le_pos; lra]). assert (M3 : rc * (rm + de + 2 * u51) <= rc * r2) by (apply Rmult_le_compat_l; lra). lra.
Qed.
Lemma rb_cut dot fe fl fr D X o y t h Z b z o' g f t1 :
  fdot_any dot -> libm_exp fe -> libm_log fl -> rb_range D X -> rb64_for fl D o -> point64 X y -> value64 t ->
  profit_rb64_call dot fe fl fr o y t = Ok (o', ((g, f), t1)) ->
  0 <= h -> B2R (best t t1) + pow2 (-37) * rb_revenue_max (real_of D) X <= b ->
  rb_inside (real_of D) h X Z b z -> holds64 2 h y g f z.
Proof.
  intros Hd He Hl HR Ho Hy Ht Hc Hh Hb HI. assert (IR := in_range D X HR y Hy). destruct (call_inv dot fe fl fr D o y t Ho) as (P & HP & K).
  destruct (C178_profit64_call dot fe fl fr _ _ _ _ _ P X y t Hd He Hl IR HP Hy Ht) as (g2 & f2 & t2 & Hc2 & _ & _ & _ & S). destruct (K _ Hc2) as (o2 & K1 & _).
  assert (Er : (g2, f2, t2) = (g, f, t1)) by congruence. assert (g2 = g) by congruence. assert (f2 = f) by congruence. assert (t2 = t1) by congruence. subst g2 f2 t2.
  assert (RM := rmax_le D X HR y Hy). set (Rm := rb_revenue_max (real_of D) X) in *. assert (RL := revenue_le _ _ _ _ _ X y IR Hy).
  set (Ri := revenue_max (B2R (pin D)) (B2R (bsc D)) (vec64 (ain D y)) X) in *. assert (W : pow2 (-37) = 2 * pow2 (-38)) by (change 2 with (pow2 1); rewrite <- bpow_plus; reflexivity).
  assert (M : pow2 (-38) * Ri <= pow2 (-37) * Rm). { rewrite W. assert (pow2 (-38) * Ri <= pow2 (-38) * (2 * Rm)) by (apply Rmult_le_compat_l; [apply bpow_ge_0|exact RM]). lra. }
  assert (Ri0 : 0 < Ri) by apply exp_pos. assert (M0 : 0 <= pow2 (-38) * Ri) by (apply Rmult_le_pos; [apply bpow_ge_0|lra]).
  assert (B0 : 0 <= b). { destruct Ht as (_ & T0 & _). destruct t1 as [s|]; cbn [best] in Hb; [|lra]. destruct S as (_ & _ & _ & S).
    assert (pow2 (-38) * revenue (B2R (pin D)) (B2R (bsc D)) (vec64 (ain D y)) (qty (vec64 y)) <= pow2 (-38) * Ri) by (apply Rmult_le_compat_l; [apply bpow_ge_0|exact RL]). lra. }
  apply (C178_profit64_cut dot fe fl fr (pin D) (bsc D) (kin D) (ain D y) (vin D) P X y t h Z b z g f t1 Hd He Hl IR HP Hy Ht Hc2 Hh); [fold Ri; lra|]. apply inside_in; assumption.
Qed.
Theorem C180_rb64_cut :
  forall dot fe fl fr D X o0 o y t h Z b z o' g f t1,
  fdot_any dot -> libm_exp fe -> libm_log fl -> rb_range D X -> rb64_built dot fe fl fr D o0 -> rb64_calls dot fe fl fr o0 o -> point64 X y -> value64 t ->
  profit_rb64_call dot fe fl fr o y t = Ok (o', ((g, f), t1)) ->
  0 <= h -> B2R (best t t1) + pow2 (-37) * rb_revenue_max (real_of D) X <= b ->
  rb_inside (real_of D) h X Z b z -> holds64 2 h y g f z.
Proof.
  intros dot fe fl fr D X o0 o y t h Z b z o' g f t1 Hd He Hl HR H0 Hcs. assert (Ho := calls_for _ _ _ _ _ _ _ Hcs (built_for _ _ _ _ _ _ H0)). apply (rb_cut dot fe fl fr D X o y t h Z b z o' g f t1 Hd He Hl HR Ho).
Qed.
Print Assumptions C180_rb64_cut.

(** ** C181: the optimising driver *)
Section Run.
Variables (dot : nat -> (nat -> b64) -> (nat -> b64) -> b64) (fe fl fr : b64 -> b64).
Hypotheses (Hd : fdot_any dot) (He : libm_exp fe) (Hl : libm_log fl).
Variables (D : rb_params b64) (X : R).
Hypothesis HR : rb_range D X.
Notation om := (profit_rb64_omega dot fe fl fr).
Notation Rm := (rb_revenue_max (real_of D) X).
Lemma rb_step_value o o' x t c t1 : rb64_for fl D o -> point64 X x -> value64 t -> om o x t = Ok (o', (c, t1)) -> (forall s, t1 = Some s -> 0 <= B2R s) ->
  rb64_for fl D o' /\ value64 (best t t1) /\ B2R t <= B2R (best t t1) + pow2 (-37) * Rm.
Proof.
  intros Ho Hx Ht Hc Hs. unfold profit_rb64_omega in Hc. apply bind_ok in Hc as ([o2 [[g f] t2]] & Hc & E). assert (t2 = t1) by congruence. assert (o2 = o') by congruence. subst t2 o2.
  assert (IR := in_range D X HR x Hx). destruct (call_inv dot fe fl fr D o x t Ho) as (P & HP & K).
  destruct (C178_profit64_call dot fe fl fr _ _ _ _ _ P X x t Hd He Hl IR HP Hx Ht) as (g2 & f2 & t2 & Hc2 & _). destruct (K _ Hc2) as (o2 & K1 & K2). assert (o2 = o') by congruence. assert (t2 = t1) by congruence. subst o2 t2. split; [exact K2|].
  assert (Ho2 : profit64_omega dot fe fl fr P tt x t = Ok (tt, ((g2, BScalar f2), t1))) by (unfold profit64_omega; rewrite Hc2; reflexivity).
  destruct (step_value dot fe fl fr Hd He Hl _ _ _ _ _ P X IR HP tt tt x t _ t1 Hx Ht Ho2 Hs) as [V1 V2]. split; [exact V1|].
  assert (RM := rmax_le D X HR x Hx). assert (W : pow2 (-37) = 2 * pow2 (-38)) by (change 2 with (pow2 1); rewrite <- bpow_plus; reflexivity). rewrite W.
  match type of V2 with _ <= _ + ?u * ?r => assert (u * r <= u * (2 * Rm)) by (apply Rmult_le_compat_l; [apply bpow_ge_0|exact RM]) end. lra.
Qed.
Lemma rb_run_values {St Loc Sc} (sp : space St Loc (nat -> b64) (@cut b64) Sc) tr o st t o' st' t' : dc_replay sp om o st t tr o' st' t' -> rb64_for fl D o -> value64 t ->
  (forall ev, In ev tr -> point64 X (d_x ev)) -> (forall ev s, In ev tr -> d_t1 ev = Some s -> 0 <= B2R s) ->
  B2R t <= B2R t' + INR (length tr) * (pow2 (-37) * Rm) /\
  forall ev, In ev tr -> value64 (d_t ev) /\ B2R (best (d_t ev) (d_t1 ev)) <= B2R t' + INR (length tr) * (pow2 (-37) * Rm) /\
    exists o1 o2, rb64_for fl D o1 /\ om o1 (d_x ev) (d_t ev) = Ok (o2, (d_cut ev, d_t1 ev)).
Proof.
  assert (M0 : 0 <= pow2 (-37) * Rm) by (apply Rmult_le_pos; [apply bpow_ge_0|left; apply exp_pos]). set (ep := pow2 (-37) * Rm) in *.
  induction 1 as [o st t|o st t c t1 o1 st1 s q tr o' st' t' E U H IH]; intros Ho Ht Hx Hs.
  - cbn [length INR]. split; [lra|intros ev []].
  - destruct (rb_step_value _ _ _ _ _ _ Ho (Hx _ (or_introl eq_refl)) Ht E (fun s0 => Hs _ s0 (or_introl eq_refl))) as (V0 & V1 & V2). fold ep in V2.
    destruct (IH V0 V1 (fun ev A => Hx ev (or_intror A)) (fun ev s0 A => Hs ev s0 (or_intror A))) as (I2 & I3). cbn [length]. rewrite S_INR.
    split; [lra|]. intros ev [<-|Hi]; [cbn [d_t d_t1 d_x d_cut]; split; [exact Ht|]; split; [lra|exists o, o1; auto]|]. destruct (I3 ev Hi) as (J1 & J2 & J3). split; [exact J1|]. split; [lra|exact J3].
Qed.
End Run.

(** the value returned is guaranteed at a centre that was visited, up to rounding *)
Theorem C181_rb64_value :
  forall {St Loc Sc} (sp : space St Loc (nat -> b64) (@cut b64) Sc) ltb tneq dot fe fl fr D X max_it tol o0 st t tr o' st' xb t' info,
  fdot_any dot -> libm_exp fe -> libm_log fl -> rb_range D X -> rb64_built dot fe fl fr D o0 -> value64 t ->
  cutting_plane_dc sp ltb tneq (profit_rb64_omega dot fe fl fr) max_it tol o0 st t = Ok (tr, o', st', (xb, t', info)) ->
  (forall ev, In ev tr -> point64 X (d_x ev)) -> (forall ev s, In ev tr -> d_t1 ev = Some s -> 0 <= B2R s) ->
  let d := real_of D in
  B2R t <= B2R t' + INR (num_iters info) * (pow2 (-37) * rb_revenue_max d X) /\
  ((xb = None /\ t' = t) \/
   exists stm, xb = Some (sp_xc sp stm) /\
     let y := centre sp stm in
     (exists ev, In ev tr /\ d_x ev = y) /\ is_finite t' = true /\
     forall p' k' a' v', scenario d p' k' a' v' ->
       qty (vec64 y) 0%nat <= k' * exp (pow2 (-40)) /\
       B2R t' <= profit_of p' (bsc d) a' v' (qty (vec64 y)) + pow2 (-37) * revenue p' (bsc d) a' (qty (vec64 y))).
Proof.
  intros St Loc Sc sp ltb tneq dot fe fl fr D X max_it tol o0 st t tr o' st' xb t' info Hd He Hl HR H0 Ht Hrun Hx Hs d.
  destruct (dc_spec _ _ _ _ _ _ _ _ _ _ _ _ _ _ _ Hrun) as (HRp & _ & Hn & _ & _ & Hxb). rewrite Hn. assert (Ho := built_for _ _ _ _ _ _ H0).
  destruct (rb_run_values dot fe fl fr Hd He Hl D X HR sp tr o0 st t o' st' t' HRp Ho Ht Hx Hs) as (V2 & V3).
  split; [exact V2|]. destruct Hxb as [(_ & -> & ->)|(tr1 & ev & tr2 & stm & Et & _ & E1 & -> & Ex)]; [left; auto|right].
  exists stm. split; [reflexivity|]. cbv zeta. assert (Hin : In ev tr) by (rewrite Et; apply in_or_app; right; left; reflexivity).
  split; [exists ev; auto|]. rewrite <- Ex. destruct (V3 ev Hin) as (Vt & _ & o1 & o2 & Fo & Hc).
  unfold profit_rb64_omega in Hc. apply bind_ok in Hc as ([o3 [[g f] t2]] & Hc & E). assert (E2 : t2 = Some t') by congruence. subst t2.
  destruct (rb_call dot fe fl fr D X o1 (d_x ev) (d_t ev) Hd He Hl HR Fo (Hx ev Hin) Vt) as (o4 & g1 & f1 & t3 & Hc1 & _ & _ & _ & _ & K).
  assert (E3 : t3 = Some t') by congruence. subst t3. destruct K as (K1 & K2 & _). split; [exact K1|]. intros p' k' a' v' Sc'. destruct (K2 p' k' a' v' Sc') as (A1 & A2 & _). auto.
Qed.
Print Assumptions C181_rb64_value.

Theorem C181_rb64_nosoln :
  forall h M G X W Z dot dotf fe fl fr ltb tneq D max_it tol o0 w e t tr o' st' xb t' info,
  fdot_any dot -> libm_exp fe -> libm_log fl -> fdot_any dotf -> rb_range D X -> rb64_built dot fe fl fr D o0 -> value64 t ->
  built64 e -> e_n e = 2%nat ->
  cutting_plane_dc (@ell_space b64 (FNumD dotf)) ltb tneq (profit_rb64_omega dot fe fl fr) max_it tol o0 (w, e) t = Ok (tr, o', st', (xb, t', info)) ->
  cstatus info = nosoln ->
  single_scaled h M G X W (asked64_dc (@ell_space b64 (FNumD dotf)) (profit_rb64_omega dot fe fl fr) o0 (w, e) t tr) ->
  (forall ev s, In ev tr -> d_t1 ev = Some s -> 0 <= B2R s) ->
  forall z, mem64 (w, e) z ->
  ~ cube_in 2 (INR (num_iters info) * drift64 2 h W X)
      (rb_inside (real_of D) h X Z (B2R t' + (INR (num_iters info) + 1) * (pow2 (-37) * rb_revenue_max (real_of D) X))) z.
Proof.
  intros h M G X W Z dot dotf fe fl fr ltb tneq D max_it tol o0 w e t tr o' st' xb t' info Hd He Hl Hdf HR H0 Ht HB En Hrun HN HS Hs. assert (Ho := built_for _ _ _ _ _ _ H0).
  match goal with |- forall z, _ -> ~ cube_in _ _ ?K0 z => set (K := K0) end. set (om := profit_rb64_omega dot fe fl fr) in *. rewrite <- En.
  apply (C153_dc_nosoln h M G X W dotf ltb tneq om max_it tol o0 w e t tr o' st' xb t' info K Hdf HB Hrun HN HS).
  destruct (dc_spec _ _ _ _ _ _ _ _ _ _ _ _ _ _ _ Hrun) as (HRp & _ & Hn & _).
  destruct (dc_events dotf om (fun _ _ => True) (fun _ => True) (fun _ _ => True) (fun _ _ _ => Logic.I) (fun _ _ _ _ _ => Logic.I) (fun _ _ _ _ _ _ _ _ _ => conj Logic.I Logic.I) _ _ _ _ _ _ _ HRp Logic.I (fun _ _ _ => Logic.I)) as [_ HE].
  assert (HX : forall ev, In ev tr -> point64 X (d_x ev) /\ 0 <= h).
  { intros ev Hi. destruct (HE ev Hi) as (st1 & _ & _ & _ & A1 & A2 & A3 & _). destruct (HS st1 _ A1) as (g & b & _ & S1 & _). destruct (scaled_proper _ _ _ _ _ _ _ S1) as (_ & Hh & _). split; [|lra].
    destruct st1 as [w1 e1]. cbn [fst snd] in *. destruct S1 as (_ & _ & _ & Sx & _). rewrite A2, En in Sx. rewrite A3. exact Sx. }
  destruct (rb_run_values dot fe fl fr Hd He Hl D X HR _ tr o0 (w, e) t o' st' t' HRp Ho Ht (fun ev A => proj1 (HX ev A)) Hs) as (_ & V3).
  intros ev g b y Hin Ec HK. destruct (HX ev Hin) as [Px Hh]. destruct (V3 ev Hin) as (Vt & Vb & o1 & o2 & Fo & Hc).
  unfold profit_rb64_omega in Hc. apply bind_ok in Hc as ([o3 [[g1 f1] t2]] & Hc & E).
  assert (Eq : d_cut ev = (g1, BScalar f1)) by congruence. assert (t2 = d_t1 ev) by congruence. assert (g1 = g) by congruence. assert (f1 = b) by congruence. subst g1 f1 t2. rewrite En.
  apply (rb_cut dot fe fl fr D X o1 (d_x ev) (d_t ev) h Z _ y o3 g b (d_t1 ev) Hd He Hl HR Fo Px Vt Hc Hh) with (2 := HK). rewrite Hn. lra.
Qed.
Print Assumptions C181_rb64_nosoln.

(** ** a case: price and limit 5/4 +- 1/4, elasticities 3/8 +- 1/8, input prices 1/8 +- 1/8 *)
Definition D180 : rb_params b64 :=
  {| bp := fmake 5 (-2); bsc := one64; bk := fmake 5 (-2); ba := fun _ => fmake 3 (-3); bv := fun _ => fmake 1 (-3);
     be1 := fmake 1 (-3); be2 := fmake 1 (-3); be3 := fmake 1 (-2); be4 := fmake 1 (-2); be5 := fmake 1 (-3) |}.
Definition d180 : rb_params R :=
  {| bp := 5 / 4; bsc := 1; bk := 5 / 4; ba := fun _ => 3 / 8; bv := fun _ => / 8; be1 := / 8; be2 := / 8; be3 := / 4; be4 := / 4; be5 := / 8 |}.
Lemma lit54 : B2R (fmake 5 (-2)) = 5 / 4. Proof. rewrite fmakeR by lia. change (pow2 (-2)) with (/ 4). field. Qed.
Lemma lit38 : B2R (fmake 3 (-3)) = 3 / 8. Proof. rewrite fmakeR by lia. change (pow2 (-3)) with (/ 8). field. Qed.
Lemma lit18 : B2R (fmake 1 (-3)) = / 8. Proof. rewrite fmakeR by lia. change (pow2 (-3)) with (/ 8). field. Qed.
Lemma real180 : real_of D180 = d180.
Proof. unfold real_of, D180, vec64, d180, one64. cbn [bp bsc bk ba bv be1 be2 be3 be4 be5]. rewrite lit54, lit38, lit18, quart_R, (proj1 fone). reflexivity. Qed.
Lemma elast180 i : elast d180 i = / 2.
Proof. unfold elast. cbn [d180 ba be1 be2]. rewrite Rabs_right by lra. destruct i; lra. Qed.
Lemma range180 X : 0 <= X <= 100 -> rb_range D180 X.
Proof.
  intros HX. split. { repeat split. } cbv zeta. rewrite real180, !elast180. cbn [d180 bp bsc bk ba bv be1 be2 be3 be4 be5].
  replace (5 / 4 - / 4) with 1 by field. rewrite Rmult_1_r, ln_1, Rabs_R0.
  assert (pow2 (-900) <= 1) by (change 1 with (pow2 0); apply bpow_le; lia). assert (2 <= pow2 900) by (change 2 with (pow2 1); apply bpow_le; lia).
  assert (pow2 (-99) <= / 4) by (change (/ 4) with (pow2 (-2)); apply bpow_le; lia). assert (1 <= pow2 99) by (change 1 with (pow2 0); apply bpow_le; lia).
  split; [lra|]. split; [lra|]. split; [lra|]. split; [intros i _; rewrite elast180; lra|]. lra.
Qed.
(** what every scenario earns at (-1, -1) *)
Lemma m1_scenario z p' k' a' v' : z 0%nat = - (1) -> z 1%nat = - (1) -> scenario d180 p' k' a' v' ->
  0 <= ln k' /\ / 8 <= profit_of p' 1 a' v' (qty z) /\ 0 < revenue p' 1 a' (qty z) <= 2 /\ spend v' (qty z) <= / 2.
Proof.
  intros E0 E1 (S1 & S2 & S3 & S4 & S5 & S6). unfold within in *. cbn [d180 bp bsc bk ba bv be1 be2 be3 be4 be5] in *.
  assert (Hp : 0 < p' * 1) by lra. rewrite profit_of_log, revenue_log by exact Hp. unfold spend, qty. rewrite E0, E1. rewrite exp_plus, exp_ln, Rmult_1_r by exact Hp.
  destruct half_bounds as ((A1 & A2) & B1 & B2). set (h := exp (- / 2)) in *.
  assert (Eh : exp (- (1)) = h * h) by (unfold h; rewrite <- exp_plus; f_equal; field). assert (Q : / 4 <= exp (- (1))) by (rewrite Eh; assert (/ 2 * / 2 <= h * h) by (apply Rmult_le_compat; lra); lra).
  set (l := a' 0%nat * - (1) + a' 1%nat * - (1)) in *. assert (L1 : exp (- (1)) <= exp l) by (apply exp_le_iff; unfold l; lra). assert (L2 : exp l <= h) by (apply exp_le_iff; unfold l; lra).
  set (x := exp (- (1))) in *. assert (V0 : v' 0%nat * x <= / 4 * x) by (apply Rmult_le_compat_r; lra). assert (V1 : v' 1%nat * x <= / 4 * x) by (apply Rmult_le_compat_r; lra).
  assert (P1 : 1 * exp l <= p' * exp l) by (apply Rmult_le_compat_r; lra). assert (P2 : p' * exp l <= 2 * 1) by (apply Rmult_le_compat; lra).
  split; [rewrite <- ln_1; apply ln_le_iff; lra|]. lra.
Qed.
Example C180_ex : exists o0, fdot_any fdot_seq /\ libm_exp cr_exp /\ libm_log cr_log /\ rb_range D180 10 /\ rb64_built fdot_seq cr_exp cr_log cr_exp D180 o0 /\ point64 10 ym1 /\ value64 fzero /\
  exists o1 g f s, profit_rb64_call fdot_seq cr_exp cr_log cr_exp o0 ym1 fzero = Ok (o1, ((g, f), Some s)) /\ rb64_calls fdot_seq cr_exp cr_log cr_exp o0 o1 /\
  exists o2 c, profit_rb64_call fdot_seq cr_exp cr_log cr_exp o1 (fun _ => fzero) fzero = Ok (o2, c).
Proof.
  assert (H1 : fdot_any fdot_seq) by exact fnum_dot_any. assert (H4 := range180 10 ltac:(lra)). assert (H5 : exists o0, rb64_built fdot_seq cr_exp cr_log cr_exp D180 o0) by (eexists; reflexivity). destruct H5 as [o0 H5]. exists o0. split; [exact H1|]. split; [exact cr_exp_ok|]. split; [exact cr_log_ok|]. split; [exact H4|]. split; [exact H5|].
  assert (H6 : point64 10 ym1). { intros i _. split; [reflexivity|]. unfold ym1. rewrite m1_R. apply Rabs_le. lra. } split; [exact H6|].
  assert (H7 : value64 fzero). { split; [reflexivity|]. change (B2R fzero) with 0. split; [lra|apply bpow_ge_0]. } split; [exact H7|].
  destruct (C180_rb64_call _ _ _ _ _ _ _ _ _ _ H1 cr_exp_ok cr_log_ok H4 H5 (RC_nil _ _ _ _ o0) H6 H7) as (o1 & g & f & t1 & Hc & _ & _ & _ & K). exists o1, g, f.
  assert (HC : rb64_calls fdot_seq cr_exp cr_log cr_exp o0 o1) by (eapply RC_call; [exact Hc|constructor]).
  assert (H8 : point64 10 (fun _ => fzero)). { intros i _. split; [reflexivity|]. change (B2R fzero) with 0. rewrite Rabs_R0. lra. }
  destruct (C180_rb64_call _ _ _ _ _ _ _ _ _ _ H1 cr_exp_ok cr_log_ok H4 H5 HC H8 H7) as (o2 & g2 & f2 & t2 & Hc2 & _).
  destruct t1 as [s|]; [exists s; split; [exact Hc|]; split; [exact HC|]; exists o2, ((g2, f2), t2); exact Hc2|]. exfalso. cbv zeta in K. rewrite real180 in K. destruct K as (p' & k' & a' & v' & Sc & K).
  destruct (m1_scenario (vec64 ym1) p' k' a' v' m1_R m1_R Sc) as (A1 & A2 & A3 & A4). change (B2R fzero) with 0 in K. cbn [d180 bsc] in K. unfold ym1 in K at 1. rewrite m1_R in K.
  assert (pow2 (-40) <= / 1024) by (change (/ 1024) with (pow2 (-10)); apply bpow_le; lia). assert (T : 0 < pow2 (-37) <= / 1024) by (split; [apply bpow_gt_0|change (/ 1024) with (pow2 (-10)); apply bpow_le; lia]).
  set (sp := spend v' (qty (vec64 ym1))) in *. assert (pow2 (-37) * (0 + sp) <= pow2 (-37) * / 2) by (apply Rmult_le_compat_l; lra). lra.
Qed.

Example C181_ex : exists (e : ell b64) w o0 tr o' st' xb info z,
  fdot_any fdot_seq /\ libm_exp cr_exp /\ libm_log cr_log /\ rb_range D180 1 /\ rb64_built fdot_seq cr_exp cr_log cr_exp D180 o0 /\ value64 fzero /\ built64 e /\ e_n e = 2%nat /\
  cutting_plane_dc (@ell_space b64 (FNumD fdot_seq)) (fun _ _ => false) (fun _ _ => false) (profit_rb64_omega fdot_seq cr_exp cr_log cr_exp) 5 fzero o0 (w, e) fzero = Ok (tr, o', st', (xb, fzero, info)) /\
  cstatus info = nosoln /\
  single_scaled (pow2 (-37)) 1 1 1 2 (asked64_dc (@ell_space b64 (FNumD fdot_seq)) (profit_rb64_omega fdot_seq cr_exp cr_log cr_exp) o0 (w, e) fzero tr) /\
  (forall ev s, In ev tr -> d_t1 ev = Some s -> 0 <= B2R s) /\ (forall ev, In ev tr -> point64 1 (d_x ev)) /\ mem64 (w, e) z /\
  rb_inside (real_of D180) (pow2 (-37)) 1 1 (B2R fzero + (INR (num_iters info) + 1) * (pow2 (-37) * rb_revenue_max (real_of D180) 1)) (vec64 ym1).
Proof.
  set (w := (fun (_ : loc) => x179) : memory b64).
  assert (X : ex179_info w (@ell_init b64 FNum (VArray v179) 2 0%nat) =
    Some (2%nat, map B2SF [fmake 1 0; fmake 1 (-2); fzero; fzero; fmake 1 0; fmake 1 0; fzero], nosoln)) by (vm_compute; reflexivity).
  revert X. destruct (@ell_init b64 FNum (VArray v179) 2 0%nat) as [e|] eqn:E; [|discriminate]. unfold ex179_info.
  match goal with |- match ?u with Ok _ => _ | Raise _ => _ end = _ -> _ => destruct u as [[st2 [s tsq]]|] eqn:U; [|discriminate] end. intros X.
  unfold ell2_of in X. cbn [map] in X.
  assert (En : e_n e = 2%nat) by congruence. assert (Es : s = nosoln) by congruence.
  assert (I : forall x y : b64, B2SF x = B2SF y -> x = y) by (intros x y; apply B2SF_inj).
  assert (X1 : e_kappa e = fmake 1 0) by (apply I; congruence).
  assert (X2 : e_Q e 0%nat 0%nat = fmake 1 (-2)) by (apply I; congruence).
  assert (X3 : e_Q e 0%nat 1%nat = fzero) by (apply I; congruence).
  assert (X4 : e_Q e 1%nat 0%nat = fzero) by (apply I; congruence).
  assert (X5 : e_Q e 1%nat 1%nat = fmake 1 0) by (apply I; congruence). clear X I. subst s.
  set (g := @pair2 b64 FNum (fmake 1 0) fzero) in *. assert (R1 := proj1 fone).
  assert (S1 : scaled64 (pow2 (-37)) 1 1 1 (w, e) g (fmake 1 0)).
  { apply scaled_diag2g with (q0 := fmake 1 (-2)) (q1 := fmake 1 0); rewrite ?X1; try assumption; try reflexivity; try (rewrite ?R1, ?quart_R; lra).
    - intros i Hi. destruct i as [|[|i]]; [| |lia]; (split; [reflexivity|]); unfold w, x179; cbn [Nat.eqb]; rewrite ?R1; change (B2R fzero) with 0; apply Rabs_le; lra.
    - intros i Hi. destruct i as [|[|i]]; [| |lia]; (split; [reflexivity|]); unfold g; cbn [pair2]; rewrite ?R1; change (B2R fzero) with 0; apply Rabs_le; lra.
    - unfold g. cbn [pair2]. rewrite R1, quart_R. change (B2R fzero) with 0. lra. }
  assert (H0 : exists o0, rb64_built fdot_seq cr_exp cr_log cr_exp D180 o0) by (eexists; reflexivity). destruct H0 as [o0 H0]. assert (Ho := built_for _ _ _ _ _ _ H0).
  destruct (call_inv fdot_seq cr_exp cr_log cr_exp D180 o0 x179 fzero Ho) as (P & HP & K).
  assert (LO : profit64_call fdot_seq cr_exp cr_log cr_exp P x179 fzero = Ok ((g, fmake 1 0), None)).
  { rewrite (init_attrs _ _ _ _ _ _ _ _ _ _ HP). assert (Kn : kin D180 = one64) by (apply B2SF_inj; vm_compute; reflexivity). rewrite Kn.
    assert (S0 : fsub (fmake 1 0) fzero = fmake 1 0) by reflexivity. assert (B0 : Bltb fzero (fmake 1 0 : b64) = true) by reflexivity.
    unfold profit64_call, profit_call. cbn [nsub nzero nltb FNumD pf_log_k none]. rewrite cr_log1. change (x179 0%nat) with (fmake 1 0). rewrite S0, B0. reflexivity. }
  destruct (K _ LO) as (o1 & K1 & _).
  assert (LO2 : profit_rb64_omega fdot_seq cr_exp cr_log cr_exp o0 x179 fzero = Ok (o1, ((g, BScalar (fmake 1 0)), None))) by (unfold profit_rb64_omega; rewrite K1; reflexivity).
  set (tr := [{| d_x := x179; d_t := fzero; d_cut := (g, BScalar (fmake 1 0)); d_t1 := None; d_status := nosoln; d_tsq := tsq |}]).
  exists e, w, o0, tr, o1, st2, None, {| feasible := false; num_iters := 1; cstatus := nosoln |}, (vec64 x179).
  split; [exact fnum_dot_any|]. split; [exact cr_exp_ok|]. split; [exact cr_log_ok|]. split; [apply range180; lra|]. split; [exact H0|].
  split. { split; [reflexivity|]. change (B2R fzero) with 0. split; [lra|apply bpow_ge_0]. }
  split; [exists (VArray v179), 0%nat, e; rewrite En; split; [exact E|auto]|]. split; [exact En|].
  split. { unfold cutting_plane_dc. cbn [dc_loop]. change (centre (@ell_space b64 (FNumD fdot_seq)) (w, e)) with x179. rewrite LO2. cbn [bind fst snd sp_update ell_space]. rewrite U. cbn [bind status_eqb negb]. reflexivity. }
  split; [reflexivity|]. split.
  { intros st1 c (tr1 & ev & tr2 & o2 & t2 & Et & Ec & HR). unfold tr in Et. destruct tr1 as [|e1 tr1]; [|destruct tr1; discriminate Et].
    inversion HR; subst. exists g, (fmake 1 0). split; [cbn [app] in Et; assert (Ee : ev = {| d_x := x179; d_t := fzero; d_cut := (g, BScalar (fmake 1 0)); d_t1 := None; d_status := nosoln; d_tsq := tsq |}) by congruence; rewrite Ee; reflexivity|]. split; [exact S1|]. cbn [snd]. rewrite X1, R1. lra. }
  split; [intros ev s [<-|[]] A; discriminate A|].
  split. { intros ev [<-|[]] i Hi. cbn [d_x]. destruct i as [|[|i]]; [| |lia]; (split; [reflexivity|]); unfold x179; cbn [Nat.eqb]; rewrite ?R1; change (B2R fzero) with 0; apply Rabs_le; lra. }
  split. { unfold mem64. rewrite En. exists (fun _ => 0). split.
    + intros i Hi. unfold mvr, S_LinAlg.dot. cbn [rsum]. unfold vec64, w. ring.
    + rewrite bf2, X1, R1. lra. }
  rewrite real180. assert (T : forall j, (j <= -24)%Z -> 0 < pow2 j <= / 16777216) by (intros j Hj; split; [apply bpow_gt_0|change (/ 16777216) with (pow2 (-24)); apply bpow_le; exact Hj]).
  assert (T1 := T (-35)%Z ltac:(lia)). assert (T2 := T (-39)%Z ltac:(lia)). assert (T3 := T (-37)%Z ltac:(lia)). assert (T4 := T (-38)%Z ltac:(lia)).
  split; [intros i _; unfold vec64, ym1; rewrite m1_R; apply Rabs_le; lra|]. intros p' k' a' v' Sc. destruct (m1_scenario (vec64 ym1) p' k' a' v' m1_R m1_R Sc) as (A1 & A2 & A3 & _). cbn [d180 bsc].
  split; [unfold vec64, ym1; rewrite m1_R; lra|].
  cbn [num_iters]. change (B2R fzero) with 0. change (INR 1) with 1. unfold rb_room. set (rv := revenue p' 1 a' (qty (vec64 ym1))) in *.
  assert (RM : 0 <= rb_revenue_max d180 1 <= 4).
  { unfold rb_revenue_max, revenue_max. rewrite !elast180. cbn [d180 bp be3 bsc]. replace ((5 / 4 - / 4) * 1) with 1 by field. rewrite ln_1, Rabs_right by lra. replace (0 + (/ 2 + / 2) * 1) with 1 by field. split; [left; apply exp_pos|exact (exp_4 1 ltac:(lia))]. }
  set (rm := rb_revenue_max d180 1) in *.
  assert (B1 : pow2 (-37) * rm <= / 16777216 * 4) by (apply Rmult_le_compat; lra).
  assert (B2 : (pow2 (-35) * (1 + 1) + pow2 (-38) + 8192 * pow2 (-37)) * rv <= (/ 1024) * 2) by (apply Rmult_le_compat; lra). lra.
Qed.
