(** Property theorems about profit_q_oracle in binary64 and cutting_plane_q over it (C182, C183). *)
From Coq Require Import ZArith Reals Lra Lia Bool List Psatz.
From Flocq Require Import Core.Core IEEE754.BinarySingleNaN.
From Verif Require Import Base M_Drivers S_Drivers P_Drivers M_Ell M_Lowpass M_Profit S_Profit P_Profit M_Float P_Float P_Float2 S_Float P_FSum P_EllF2 M_ProfitF S_ProfitF P_ProfitF T_Float T_ProfitF M_ProfitQF S_ProfitQF.
Import ListNotations.
Local Open Scope R_scope.

(** the rounded point *)
Lemma round_point64 dot fe fl fr X y : libm_exp fe -> libm_log fl -> libm_round fr -> X <= 127 -> point64 X y ->
  exists yd q, @round_point b64 (FNumD dot) (FNumT fe fl fr) y = Ok yd /\ grid yd q /\ rounds y q /\ point64 (X + 1) yd.
Proof.
  intros He Hl Hr HX Hy. assert (X0 := X_nn X y Hy). assert (U := u51_bounds).
  assert (P50 : pow2 (-50) = 2 * u51) by (apply (pow_u (-50) 1); lia). assert (P1000 : 0 < pow2 (-1000) <= u51) by (split; [apply bpow_gt_0|apply bpow_le; lia]).
  set (x := fun i => let r := fr (fe (y i)) in if feqb r fzero then one64 else r).
  assert (K : forall i, (i < 2)%nat -> exists n, (0 < n)%Z /\ is_finite (x i) = true /\ B2R (x i) = IZR n /\ ln (IZR n) <= X + 9 / 10 /\
    (let e := exp (B2R (y i)) in Rabs (IZR n - e) <= / 2 + pow2 (-50) * e \/ (n = 1%Z /\ e <= / 2 + pow2 (-50) * e))).
  { intros i Hi. destruct (Hy i Hi) as [Fy By]. destruct (He (y i) Fy ltac:(lra)) as [Fe Ee]. destruct (Hr _ Fe) as [Fr (n & En & Dn)]. apply Rabs_le_inv in Ee, Dn, By.
    set (e := exp (B2R (y i))) in *. assert (e0 : 0 < e) by apply exp_pos. assert (eX : e <= exp X) by (apply exp_le_iff; lra). assert (X1 : 1 <= exp X) by (assert (A := exp_ge_1p X); lra).
    assert (sm : 0 <= pow2 (-50) * e <= / 1024 * e) by (rewrite P50; split; [apply Rmult_le_pos; lra|apply Rmult_le_compat_r; lra]).
    unfold x. cbv zeta. unfold feqb. rewrite Beqb_correct by (reflexivity || assumption). change (B2R fzero) with 0. rewrite En. destruct (Req_bool_spec (IZR n) 0) as [Z0|Z0].
    - exists 1%Z. split; [lia|]. split; [reflexivity|]. split; [exact (proj1 fone)|]. split; [rewrite ln_1; lra|]. right. split; [reflexivity|]. lra.
    - exists n. assert (Hn : (0 < n)%Z). { assert (IZR (-1) < IZR n) by (change (IZR (-1)) with (- (1)); lra). apply lt_IZR in H. destruct (Z.eq_dec n 0) as [->|]; [elim Z0; reflexivity|lia]. }
      split; [exact Hn|]. split; [exact Fr|]. split; [exact En|]. apply IZR_lt in Hn. split.
      + rewrite <- (ln_exp (X + 9 / 10)). apply ln_le_iff; [exact Hn|apply exp_pos|]. rewrite exp_plus. assert (A := exp_ge_1p (9 / 10)). assert (exp X * (19 / 10) <= exp X * exp (9 / 10)) by (apply Rmult_le_compat_l; lra). lra.
      + left. apply Rabs_le. lra. }
  destruct (K 0%nat ltac:(lia)) as (n0 & K0). destruct (K 1%nat ltac:(lia)) as (n1 & K1).
  exists (@pair2 b64 FNum (fl (x 0%nat)) (fl (x 1%nat))), (fun i => match i with O => n0 | _ => n1 end).
  assert (L : forall i n, (0 < n)%Z -> is_finite (x i) = true -> B2R (x i) = IZR n -> ln (IZR n) <= X + 9 / 10 ->
    is_finite (fl (x i)) = true /\ Rabs (B2R (fl (x i)) - ln (IZR n)) <= pow2 (-50) * ln (IZR n) + pow2 (-1000) /\ Rabs (B2R (fl (x i))) <= X + 1).
  { intros i n Hn Fx Ex Ln. assert (N1 : 1 <= IZR n) by (apply IZR_le; lia). destruct (Hl (x i) Fx ltac:(lra)) as [F E]. rewrite Ex in E. assert (L0 : 0 <= ln (IZR n)) by (rewrite <- ln_1; apply ln_le_iff; lra).
    rewrite (Rabs_right (ln (IZR n))) in E by lra. split; [exact F|]. split; [exact E|]. apply Rabs_le_inv in E. assert (pow2 (-50) * ln (IZR n) <= 2 * u51 * 128) by (rewrite P50; apply Rmult_le_compat_l; lra). apply Rabs_le. lra. }
  destruct K0 as (A0 & B0 & C0 & D0 & E0). destruct K1 as (A1 & B1 & C1 & D1 & E1). destruct (L _ _ A0 B0 C0 D0) as (F0 & G0 & H0). destruct (L _ _ A1 B1 C1 D1) as (F1 & G1 & H1).
  split; [reflexivity|]. split; [|split]; intros i Hi; (destruct i as [|[|i]]; [| |lia]); cbn [pair2]; auto.
Qed.

Section Vals.
Variables (p sc k : b64) (a v : nat -> b64) (X : R) (yd : nat -> b64) (q : nat -> Z).
Hypothesis HR : profit_range p sc k a v X.
Hypothesis Hy : point64 X yd.
Hypothesis Hg : grid yd q.
Notation lq := (fun i => ln (IZR (q i))).
Lemma lq_near i : (i < 2)%nat -> 0 <= lq i /\ Rabs (B2R (yd i) - lq i) <= 2 * u51 * (X + / 1000) + pow2 (-1000) /\ Rabs (B2R (yd i) - lq i) <= 260 * u51.
Proof.
  intros Hi. destruct (Hg i Hi) as (Q & _ & E). destruct (Hy i Hi) as [_ B]. assert (U := u51_bounds). assert (X0 := X_nn X yd Hy). assert (HX : X <= 128) by (destruct HR as (_ & _ & _ & _ & _ & H); exact H).
  assert (Q1 : 1 <= IZR (q i)) by (apply IZR_le; lia). assert (L0 : 0 <= ln (IZR (q i))) by (rewrite <- ln_1; apply ln_le_iff; lra). cbv beta. split; [exact L0|].
  assert (P50 : pow2 (-50) = 2 * u51) by (apply (pow_u (-50) 1); lia). assert (P1000 : 0 < pow2 (-1000) <= u51) by (split; [apply bpow_gt_0|apply bpow_le; lia]). rewrite P50 in E.
  assert (E' := E). apply Rabs_le_inv in E', B. assert (S : 2 * u51 * ln (IZR (q i)) <= / 1048576 * ln (IZR (q i))) by (apply Rmult_le_compat_r; lra). assert (Lq : ln (IZR (q i)) <= X + / 1000) by lra.
  assert (T : 2 * u51 * ln (IZR (q i)) <= 2 * u51 * (X + / 1000)) by (apply Rmult_le_compat_l; lra). assert (2 * u51 * (X + / 1000) <= 2 * u51 * (128 + / 1000)) by (apply Rmult_le_compat_l; lra).
  split; lra.
Qed.
Lemma rev_grid : ln_near (300 * u51) (revenue (B2R p) (B2R sc) (vec64 a) (qty (vec64 yd))) (revenue (B2R p) (B2R sc) (vec64 a) (qtyZ q)).
Proof.
  destruct HR as (_ & [Hp _] & _ & Ha & HX & H8). assert (E : qtyZ q 0%nat = qty lq 0%nat /\ qtyZ q 1%nat = qty lq 1%nat).
  { unfold qtyZ, qty. destruct (Hg 0%nat ltac:(lia)) as (Q0 & _). destruct (Hg 1%nat ltac:(lia)) as (Q1 & _). apply IZR_lt in Q0, Q1. rewrite !exp_ln by assumption. auto. }
  assert (Er : revenue (B2R p) (B2R sc) (vec64 a) (qtyZ q) = revenue (B2R p) (B2R sc) (vec64 a) (qty lq)) by (unfold revenue; destruct E as [-> ->]; reflexivity).
  rewrite Er, !revenue_log by exact Hp. split; [apply exp_pos|]. split; [apply exp_pos|]. rewrite !ln_exp.
  destruct (lq_near 0 ltac:(lia)) as (_ & N0 & _). destruct (lq_near 1 ltac:(lia)) as (_ & N1 & _). assert (U := u51_bounds). assert (X0 := X_nn X yd Hy). assert (P1000 : 0 < pow2 (-1000)) by apply bpow_gt_0.
  destruct (Ha 0%nat ltac:(lia)) as [A0 _]. destruct (Ha 1%nat ltac:(lia)) as [A1 _]. set (m := 2 * u51 * (X + / 1000) + pow2 (-1000)) in *.
  assert (M : forall i, Rabs (B2R (yd i) - lq i) <= m -> Rabs (vec64 a i * vec64 yd i - vec64 a i * lq i) <= Rabs (B2R (a i)) * m).
  { intros i Hm. replace (vec64 a i * vec64 yd i - vec64 a i * lq i) with (vec64 a i * (B2R (yd i) - lq i)) by (unfold vec64; ring). rewrite Rabs_mult. apply Rmult_le_compat_l; [apply Rabs_pos|exact Hm]. }
  assert (M0 := M 0%nat N0). assert (M1 := M 1%nat N1). set (s := Rabs (B2R (a 0%nat)) + Rabs (B2R (a 1%nat))) in *. assert (S0 := Rabs_pos (B2R (a 0%nat))). assert (S1 := Rabs_pos (B2R (a 1%nat))).
  assert (Sm : s * m <= 300 * u51).
  { unfold m. replace (s * (2 * u51 * (X + / 1000) + pow2 (-1000))) with (2 * u51 * (s * X) + 2 * / 1000 * (u51 * s) + s * pow2 (-1000)) by ring.
    assert (u51 * (s * X) <= u51 * 128) by (apply Rmult_le_compat_l; lra). assert (u51 * s <= u51 * 512) by (apply Rmult_le_compat_l; [lra|unfold s; lra]).
    assert (s * pow2 (-1000) <= 512 * pow2 (-1000)) by (apply Rmult_le_compat_r; [lra|unfold s; lra]). assert (512 * pow2 (-1000) <= u51) by (change 512 with (pow2 9); rewrite <- bpow_plus; apply bpow_le; lia). lra. }
  unfold s in Sm. apply Rabs_le_inv in M0, M1. apply Rabs_le. lra.
Qed.
Lemma spend_grid : ln_near (300 * u51) (spend (vec64 v) (qty (vec64 yd))) (spend (vec64 v) (qtyZ q)).
Proof.
  assert (A : forall i, (i < 2)%nat -> ln_near (300 * u51) (vec64 v i * qty (vec64 yd) i) (vec64 v i * qtyZ q i)).
  { intros i Hi. destruct HR as (_ & _ & _ & Ha & _). destruct (Ha i Hi) as [_ [V _]]. assert (V0 := bpow_gt_0 radix2 (-100)). destruct (Hg i Hi) as (Q & _). apply IZR_lt in Q. destruct (lq_near i Hi) as (_ & _ & N). assert (U := u51_bounds).
    assert (M : ln_near (300 * u51) (qty (vec64 yd) i) (qtyZ q i)). { split; [apply exp_pos|]. split; [exact Q|]. unfold qty. rewrite ln_exp. unfold qtyZ, vec64. lra. }
    assert (W := near_mul _ _ _ _ _ _ (near_refl (vec64 v i) ltac:(unfold vec64; lra)) M). rewrite Rplus_0_l in W. exact W. }
  apply near_add; apply A; lia.
Qed.
(** what C178 says of a report at yd, at the integers *)
Lemma report_grid (t s : b64) : 0 <= B2R t ->
  B2R (yd 0%nat) <= ln (B2R k) + pow2 (-41) ->
  Rabs (B2R s - profit_of (B2R p) (B2R sc) (vec64 a) (vec64 v) (qty (vec64 yd))) <= pow2 (-39) * revenue (B2R p) (B2R sc) (vec64 a) (qty (vec64 yd)) ->
  B2R t <= B2R s + pow2 (-38) * revenue (B2R p) (B2R sc) (vec64 a) (qty (vec64 yd)) ->
  profit_at (B2R p) (B2R sc) (B2R k) (vec64 a) (vec64 v) q (B2R s) /\ B2R t <= B2R s + pow2 (-37) * revenue (B2R p) (B2R sc) (vec64 a) (qtyZ q).
Proof.
  intros T0 S1 S2 S3. assert (RN := rev_grid). assert (CN := spend_grid). assert (U := u51_bounds).
  assert (PE : forall x, profit_of (B2R p) (B2R sc) (vec64 a) (vec64 v) x = revenue (B2R p) (B2R sc) (vec64 a) x - spend (vec64 v) x) by reflexivity. unfold profit_at. rewrite PE in *.
  set (r := revenue (B2R p) (B2R sc) (vec64 a) (qty (vec64 yd))) in *. set (r' := revenue (B2R p) (B2R sc) (vec64 a) (qtyZ q)) in *. set (c := spend (vec64 v) (qty (vec64 yd))) in *. set (c' := spend (vec64 v) (qtyZ q)) in *.
  assert (R0 : 0 < r) by apply RN. assert (R1 : 0 < r') by apply RN. assert (C0 : 0 < c) by apply CN. assert (C1 : 0 < c') by apply CN.
  assert (A1 := near_abs _ _ _ RN ltac:(lra)). assert (A2 := near_abs _ _ _ (near_sym _ _ _ RN) ltac:(lra)). assert (B2 := near_abs _ _ _ (near_sym _ _ _ CN) ltac:(lra)). apply Rabs_le_inv in A1, A2, B2, S2.
  assert (W37 : pow2 (-37) = 16384 * u51) by (apply (pow_u (-37) 14); lia). assert (W38 : pow2 (-38) = 8192 * u51) by (apply (pow_u (-38) 13); lia). assert (W39 : pow2 (-39) = 4096 * u51) by (apply (pow_u (-39) 12); lia).
  assert (W40 : pow2 (-40) = 2048 * u51) by (apply (pow_u (-40) 11); lia). assert (W41 : pow2 (-41) = 1024 * u51) by (apply (pow_u (-41) 10); lia). rewrite W38 in S3. rewrite W39 in S2. rewrite W41 in S1. rewrite W37, W38, W40.
  assert (sm : forall x y, 0 <= x <= y -> 0 <= u51 * x <= u51 * y) by (intros x0 y0 H; split; [apply Rmult_le_pos; lra|apply Rmult_le_compat_l; lra]).
  assert (sm2 : forall x, 0 <= x -> 0 <= u51 * x <= / 1048576 * / 1048576 * x) by (intros x0 H; split; [apply Rmult_le_pos; lra|apply Rmult_le_compat_r; lra]).
  assert (Tr := sm2 r ltac:(lra)). assert (Tr' := sm2 r' ltac:(lra)). assert (RI : r <= 11 / 10 * r') by lra. assert (CR : c <= 11 / 10 * r) by lra. assert (T1 := sm r (11 / 10 * r') ltac:(lra)). assert (T3 := sm c (11 / 10 * r) ltac:(lra)).
  split; [split|lra].
  - destruct HR as (_ & _ & [Hk _] & _). destruct (Hg 0%nat ltac:(lia)) as (Q & _). destruct (lq_near 0 ltac:(lia)) as (_ & _ & N). apply Rabs_le_inv in N. cbv beta in N. apply IZR_lt in Q. unfold qtyZ.
    rewrite <- (exp_ln (IZR (q 0%nat)) Q), <- (exp_ln (B2R k) Hk) at 1. rewrite <- exp_plus. apply exp_le_iff. lra.
  - apply Rabs_le. lra.
Qed.
Lemma noreport_grid (t : b64) : 0 <= B2R t ->
  ln (B2R k) - pow2 (-41) < B2R (yd 0%nat) \/
  profit_of (B2R p) (B2R sc) (vec64 a) (vec64 v) (qty (vec64 yd)) <= B2R t + pow2 (-38) * (B2R t + spend (vec64 v) (qty (vec64 yd))) ->
  ln (B2R k) - pow2 (-40) < ln (qtyZ q 0%nat) \/ profit_of (B2R p) (B2R sc) (vec64 a) (vec64 v) (qtyZ q) <= B2R t + pow2 (-37) * (B2R t + spend (vec64 v) (qtyZ q)).
Proof.
  intros T0 S. assert (RN := rev_grid). assert (CN := spend_grid). assert (U := u51_bounds).
  assert (PE : forall x, profit_of (B2R p) (B2R sc) (vec64 a) (vec64 v) x = revenue (B2R p) (B2R sc) (vec64 a) x - spend (vec64 v) x) by reflexivity. rewrite PE in *.
  set (r := revenue (B2R p) (B2R sc) (vec64 a) (qty (vec64 yd))) in *. set (r' := revenue (B2R p) (B2R sc) (vec64 a) (qtyZ q)) in *. set (c := spend (vec64 v) (qty (vec64 yd))) in *. set (c' := spend (vec64 v) (qtyZ q)) in *.
  assert (R0 : 0 < r) by apply RN. assert (R1 : 0 < r') by apply RN. assert (C0 : 0 < c) by apply CN. assert (C1 : 0 < c') by apply CN.
  assert (A2 := near_abs _ _ _ (near_sym _ _ _ RN) ltac:(lra)). assert (B1 := near_abs _ _ _ CN ltac:(lra)). assert (B2 := near_abs _ _ _ (near_sym _ _ _ CN) ltac:(lra)). apply Rabs_le_inv in A2, B1, B2.
  assert (W37 : pow2 (-37) = 16384 * u51) by (apply (pow_u (-37) 14); lia). assert (W38 : pow2 (-38) = 8192 * u51) by (apply (pow_u (-38) 13); lia).
  assert (W40 : pow2 (-40) = 2048 * u51) by (apply (pow_u (-40) 11); lia). assert (W41 : pow2 (-41) = 1024 * u51) by (apply (pow_u (-41) 10); lia). rewrite W38, W41 in S. rewrite W37, W40.
  assert (sm : forall x y, 0 <= x <= y -> 0 <= u51 * x <= u51 * y) by (intros x0 y0 H; split; [apply Rmult_le_pos; lra|apply Rmult_le_compat_l; lra]).
  assert (sm2 : forall x, 0 <= x -> 0 <= u51 * x <= / 1048576 * / 1048576 * x) by (intros x0 H; split; [apply Rmult_le_pos; lra|apply Rmult_le_compat_r; lra]).
  destruct S as [S|S].
  - left. destruct (lq_near 0 ltac:(lia)) as (_ & _ & N). apply Rabs_le_inv in N. cbv beta in N. unfold qtyZ. lra.
  - right. assert (Tc := sm2 c ltac:(lra)). assert (Tc' := sm2 c' ltac:(lra)). assert (Tt := sm2 (B2R t) ltac:(lra)). assert (CI : c <= 11 / 10 * c') by lra. assert (RT : r <= 11 / 10 * (B2R t + c)) by lra.
    assert (T1 := sm r (11 / 10 * (B2R t + c)) ltac:(lra)). assert (T2 := sm c (11 / 10 * c') ltac:(lra)). lra.
Qed.
End Vals.

(** ** C182: one call *)
Theorem C182_profit_q64_call :
  forall dot fe fl fr p sc k a v P X o y t,
  fdot_any dot -> libm_exp fe -> libm_log fl -> libm_round fr -> profit_range p sc k a v (X + 1) ->
  profit64_init dot fe fl fr (p, sc, k) a v = Ok P -> point64 X y -> value64 t ->
  exists g f yd t1 q, profit_q64_call dot fe fl fr P o y t false = Ok (Some yd, ((g, f), yd, t1, true)) /\ grid yd q /\ rounds y q /\
    answer_at (B2R p) (B2R sc) (B2R k) (vec64 a) (vec64 v) q t t1 /\
    (* the next call, should the driver ask again *)
    forall y' t', value64 t' -> exists g' f' t1', profit_q64_call dot fe fl fr P (Some yd) y' t' true = Ok (Some yd, ((g', f'), yd, t1', false)) /\
      answer_at (B2R p) (B2R sc) (B2R k) (vec64 a) (vec64 v) q t' t1'.
Proof.
  intros dot fe fl fr p sc k a v P X o y t Hd He Hl Hr HR HP Hy Ht. assert (HX : X <= 127) by (destruct HR as (_ & _ & _ & _ & _ & H); lra).
  destruct (round_point64 dot fe fl fr X y He Hl Hr HX Hy) as (yd & q & E & Hg & Hq & Hyd).
  assert (K : forall t, value64 t -> exists g f t1, profit64_call dot fe fl fr P yd t = Ok ((g, f), t1) /\ answer_at (B2R p) (B2R sc) (B2R k) (vec64 a) (vec64 v) q t t1).
  { intros t0 H0. destruct (C178_profit64_call dot fe fl fr p sc k a v P (X + 1) yd t0 Hd He Hl HR HP Hyd H0) as (g & f & t1 & Hc & _ & _ & _ & S). exists g, f, t1. split; [exact Hc|]. destruct H0 as (_ & H0 & _). destruct t1 as [s|].
    - destruct S as (S1 & S2 & S3 & S4). split; [exact S1|]. exact (report_grid p sc k a v (X + 1) yd q HR Hyd Hg t0 s H0 S2 S3 S4).
    - exact (noreport_grid p sc k a v (X + 1) yd q HR Hyd Hg t0 H0 S). }
  destruct (K t Ht) as (g & f & t1 & Hc & S). eexists g, _, yd, t1, q. split; [|split; [exact Hg|]; split; [exact Hq|]; split; [exact S|]].
  - unfold profit_q64_call, profit_q_call. rewrite E. cbn [bind]. unfold profit64_call in Hc. rewrite Hc. cbn [bind negb]. reflexivity.
  - intros y' t' H'. destruct (K t' H') as (g' & f' & t1' & Hc' & S'). eexists g', _, t1'. split; [|exact S']. unfold profit_q64_call, profit_q_call. cbn [bind]. unfold profit64_call in Hc'. rewrite Hc'. cbn [bind negb]. reflexivity.
Qed.
Print Assumptions C182_profit_q64_call.

(** the gradient of profit_oracle is at most 258 in every entry *)
Lemma grad_size dot fe fl fr p sc k a v P X y t g f t1 : fdot_any dot -> libm_exp fe -> libm_log fl -> profit_range p sc k a v X ->
  profit64_init dot fe fl fr (p, sc, k) a v = Ok P -> point64 X y -> value64 t -> profit64_call dot fe fl fr P y t = Ok ((g, f), t1) ->
  (forall i, (i < 2)%nat -> is_finite (g i) = true /\ Rabs (B2R (g i)) <= 258) /\ is_finite f = true /\ 0 <= B2R f <= 1024.
Proof.
  intros Hd He Hl HR HP Hy Ht Hc. assert (CS := call_spec dot fe fl fr Hd He Hl p sc k a v P X HR HP y t Hy Ht). rewrite Hc in CS. destruct CS as (G & F & F0 & CS).
  split; [|split; assumption]. intros i Hi. split; [exact (G i Hi)|].
  destruct CS as [(_ & _ & G0 & G1 & _)|(_ & tau & T0 & GE & _)]; [destruct i as [|[|i]]; [rewrite G0|rewrite G1|lia]; apply Rabs_le; lra|].
  assert (E := GE i Hi). assert (V : forall j, (j < 2)%nat -> 0 < vec64 v j * exp (vec64 y j)).
  { intros j Hj. destruct HR as (_ & _ & _ & Hv & _). destruct (Hv j Hj) as [_ [V1 _]]. assert (A := bpow_gt_0 radix2 (-100)). apply Rmult_lt_0_compat; [unfold vec64; lra|apply exp_pos]. }
  assert (V0 := V 0%nat ltac:(lia)). assert (V1 := V 1%nat ltac:(lia)). match type of E with context [?u / ?d] => set (D := d) in E end.
  assert (HD : 0 < D) by (unfold D; lra). assert (VD : vec64 v i * exp (vec64 y i) <= D) by (destruct i as [|[|i]]; [| |lia]; unfold D; lra).
  assert (W : 0 <= vec64 v i * exp (vec64 y i) / D <= 1).
  { split; [apply Rmult_le_pos; [left; exact (V i Hi)|left; apply Rinv_0_lt_compat; exact HD]|]. apply Rmult_le_reg_r with D; [exact HD|]. unfold Rdiv. rewrite Rmult_assoc, Rinv_l by lra. lra. }
  assert (A : Rabs (vec64 a i) <= 256) by (destruct HR as (_ & _ & _ & Ha & _); exact (proj1 (Ha i Hi))). apply Rabs_le_inv in A, E.
  assert (pow2 (-37) <= 1) by (change 1 with (pow2 0); apply bpow_le; lia). apply Rabs_le. lra.
Qed.

(** the cut handed back for y, as a statement about z, is what the cut of profit_oracle at the rounded point yd says of
    z moved by 2 (yd - y), up to 2^-32.  (The offset is added with the wrong sign; without that error the two would agree
    at z itself, see C46.) *)
Theorem C182_profit_q64_cut :
  forall dot fe fl fr p sc k a v P X o y t retry o' g f yd t1 more,
  fdot_any dot -> libm_exp fe -> libm_log fl -> libm_round fr -> profit_range p sc k a v (X + 1) ->
  profit64_init dot fe fl fr (p, sc, k) a v = Ok P -> point64 X y -> value64 t ->
  (retry = true -> exists yd0, o = Some yd0 /\ point64 (X + 1) yd0) ->
  profit_q64_call dot fe fl fr P o y t retry = Ok (o', ((g, f), yd, t1, more)) ->
  exists h, profit64_call dot fe fl fr P yd t = Ok ((g, h), t1) /\ is_finite f = true /\
    (forall z, Rabs ((S_LinAlg.dot 2 (fun j => B2R (g j)) (fun i => z i - B2R (y i)) + B2R f) - (S_LinAlg.dot 2 (fun j => B2R (g j)) (fun i => (z i + 2 * (B2R (yd i) - B2R (y i))) - B2R (yd i)) + B2R h)) <= pow2 (-32)) /\
    (forall Z b z, B2R (best t t1) + pow2 (-38) * revenue_max (B2R p) (B2R sc) (vec64 a) (X + 1) <= b ->
      profit_inside (B2R p) (B2R sc) (B2R k) (vec64 a) (vec64 v) 0 (X + 1) Z b (fun i => z i + 2 * (B2R (yd i) - B2R (y i))) ->
      S_LinAlg.dot 2 (fun j => B2R (g j)) (fun i => z i - B2R (y i)) + B2R f <= pow2 (-32)).
Proof.
  intros dot fe fl fr p sc k a v P X o y t retry o' g f yd t1 more Hd He Hl Hr HR HP Hy Ht Ho Hc.
  assert (HX : X <= 127) by (destruct HR as (_ & _ & _ & _ & _ & H); lra). assert (X0 := X_nn X y Hy).
  assert (K : exists h, profit64_call dot fe fl fr P yd t = Ok ((g, h), t1) /\ point64 (X + 1) yd /\ f = fadd h (dot 2%nat g (fun i => fsub (yd i) (y i)))).
  { unfold profit_q64_call, profit_q_call in Hc. destruct retry.
    - destruct (Ho eq_refl) as (yd0 & -> & Hyd). cbn [bind] in Hc. fold (profit64_call dot fe fl fr P yd0 t) in Hc. destruct (profit64_call dot fe fl fr P yd0 t) as [[[g0 h] t0]|] eqn:E; [|discriminate Hc]. cbn [bind nadd nsub ndot FNumD] in Hc.
      assert (yd0 = yd) by congruence. assert (g0 = g) by congruence. assert (t0 = t1) by congruence. subst yd0 g0 t0. exists h. split; [exact E|]. split; [exact Hyd|]. congruence.
    - destruct (round_point64 dot fe fl fr X y He Hl Hr HX Hy) as (yd0 & q & E0 & _ & _ & Hyd). rewrite E0 in Hc. cbn [bind] in Hc. fold (profit64_call dot fe fl fr P yd0 t) in Hc. destruct (profit64_call dot fe fl fr P yd0 t) as [[[g0 h] t0]|] eqn:E; [|discriminate Hc]. cbn [bind nadd nsub ndot FNumD] in Hc.
      assert (yd0 = yd) by congruence. assert (g0 = g) by congruence. assert (t0 = t1) by congruence. subst yd0 g0 t0. exists h. split; [exact E|]. split; [exact Hyd|]. congruence. }
  destruct K as (h & E & Hyd & Ef). destruct (grad_size dot fe fl fr p sc k a v P (X + 1) yd t g h t1 Hd He Hl HR HP Hyd Ht E) as (G & Fh & Bh).
  assert (T53 : pow2 (-53) = pow2 (-32) * / 2097152) by (change (/ 2097152) with (pow2 (-21)); rewrite <- bpow_plus; reflexivity).
  assert (T52 : pow2 (-52) = pow2 (-32) * / 1048576) by (change (/ 1048576) with (pow2 (-20)); rewrite <- bpow_plus; reflexivity).
  assert (P32 : 0 < pow2 (-32) <= / 1024) by (split; [apply bpow_gt_0|change (/ 1024) with (pow2 (-10)); apply bpow_le; lia]).
  assert (TE : 0 < pow2 (-1075) <= pow2 (-1073)) by (split; [apply bpow_gt_0|apply bpow_le; lia]).
  assert (TE' : pow2 (-1073) <= pow2 (-32) * / 1073741824) by (change (/ 1073741824) with (pow2 (-30)); rewrite <- bpow_plus; apply bpow_le; lia).
  assert (B1000 : 1048576 <= pow2 1000) by (change 1048576 with (pow2 20); apply bpow_le; lia).
  assert (B1023 : 1048576 <= pow2 1023) by (change 1048576 with (pow2 20); apply bpow_le; lia).
  set (w := pow2 (-32)) in *. set (dd := fun i => fsub (yd i) (y i)) in *.
  assert (D : forall i, (i < 2)%nat -> is_finite (dd i) = true /\ Rabs (B2R (dd i) - (B2R (yd i) - B2R (y i))) <= w * (/ 2097152 * 258) /\ Rabs (B2R (dd i)) <= 258).
  { intros i Hi. destruct (Hyd i Hi) as [F1 B1]. destruct (Hy i Hi) as [F2 B2]. assert (B : Rabs (B2R (yd i) - B2R (y i)) <= 257) by (unfold Rminus; eapply Rle_trans; [apply Rabs_triang|]; rewrite Rabs_Ropp; lra).
    destruct (fsub_rnd (yd i) (y i) F1 F2 ltac:(lra)) as [R1 R2]. assert (R3 := rnd_rel (B2R (yd i) - B2R (y i))). unfold dd. rewrite R1. split; [exact R2|].
    assert (M : pow2 (-53) * Rabs (B2R (yd i) - B2R (y i)) <= pow2 (-53) * 257) by (apply Rmult_le_compat_l; [apply bpow_ge_0|exact B]). rewrite T53 in M, R3. split; [lra|].
    set (r := rnd _) in *. replace r with ((r - (B2R (yd i) - B2R (y i))) + (B2R (yd i) - B2R (y i))) by ring. eapply Rle_trans; [apply Rabs_triang|]. lra. }
  assert (PB : forall i, (i < 2)%nat -> Rabs (B2R (g i) * B2R (dd i)) <= 258 * 258).
  { intros i Hi. rewrite Rabs_mult. apply Rmult_le_compat; try apply Rabs_pos; [apply G, Hi|apply D, Hi]. }
  assert (PE : forall i, (i < 2)%nat -> Rabs (B2R (g i) * B2R (dd i) - B2R (g i) * (B2R (yd i) - B2R (y i))) <= 258 * (w * (/ 2097152 * 258))).
  { intros i Hi. rewrite <- Rmult_minus_distr_l, Rabs_mult. apply Rmult_le_compat; try apply Rabs_pos; [apply G, Hi|apply D, Hi]. }
  assert (P0 := PB 0%nat ltac:(lia)). assert (P1 := PB 1%nat ltac:(lia)). assert (E0 := PE 0%nat ltac:(lia)). assert (E1 := PE 1%nat ltac:(lia)).
  destruct (fdot_bounded dot 2 g dd Hd ltac:(lia)) as [Fd Bd]; [intros i Hi; split; [apply G, Hi|apply D, Hi]|cbn [rsum]; lra|].
  cbn [rsum] in Bd. change (INR 2) with 2 in Bd. rewrite T52 in Bd. set (q := dot 2%nat g dd) in *.
  assert (M : 2 * (w * / 1048576) * (0 + Rabs (B2R (g 0%nat) * B2R (dd 0%nat)) + Rabs (B2R (g 1%nat) * B2R (dd 1%nat))) <= 2 * (w * / 1048576) * (2 * (258 * 258))) by (apply Rmult_le_compat_l; lra).
  set (a0 := B2R (g 0%nat) * B2R (dd 0%nat)) in *. set (a1 := B2R (g 1%nat) * B2R (dd 1%nat)) in *.
  set (b0 := B2R (g 0%nat) * (B2R (yd 0%nat) - B2R (y 0%nat))) in *. set (b1 := B2R (g 1%nat) * (B2R (yd 1%nat) - B2R (y 1%nat))) in *.
  apply Rabs_le_inv in Bd, P0, P1, E0, E1.
  assert (BS : Rabs (B2R h + B2R q) <= 140000) by (apply Rabs_le; lra).
  destruct (fadd_rnd h q Fh Fd ltac:(lra)) as [R1 R2]. assert (R3 := rnd_rel (B2R h + B2R q)). rewrite <- R1, <- Ef in R3. rewrite T53 in R3.
  assert (M2 : w * / 2097152 * Rabs (B2R h + B2R q) <= w * / 2097152 * 140000) by (apply Rmult_le_compat_l; lra). apply Rabs_le_inv in R3.
  assert (EQ : Rabs (B2R f - (B2R h + b0 + b1)) <= w) by (apply Rabs_le; lra).
  assert (CUT : forall z, Rabs ((S_LinAlg.dot 2 (fun j => B2R (g j)) (fun i => z i - B2R (y i)) + B2R f) - (S_LinAlg.dot 2 (fun j => B2R (g j)) (fun i => (z i + 2 * (B2R (yd i) - B2R (y i))) - B2R (yd i)) + B2R h)) <= w).
  { intros z. replace (S_LinAlg.dot 2 (fun j => B2R (g j)) (fun i => z i - B2R (y i)) + B2R f - (S_LinAlg.dot 2 (fun j => B2R (g j)) (fun i => (z i + 2 * (B2R (yd i) - B2R (y i))) - B2R (yd i)) + B2R h)) with (B2R f - (B2R h + b0 + b1)); [exact EQ|]. rewrite !dot2. unfold b0, b1. ring. }
  exists h. split; [exact E|]. split; [rewrite Ef; exact R2|]. split; [exact CUT|].
  intros Z b z Hb Hz. assert (H := C178_profit64_cut dot fe fl fr p sc k a v P (X + 1) yd t 0 Z b (fun i => z i + 2 * (B2R (yd i) - B2R (y i))) g h t1 Hd He Hl HR HP Hyd Ht E ltac:(lra) Hb Hz).
  unfold S_EllRun.holds64 in H.
  assert (C := CUT z). apply Rabs_le_inv in C. lra.
Qed.
Print Assumptions C182_profit_q64_cut.

(** ** C183: the driver with retries *)
Section Run.
Variables (dot : nat -> (nat -> b64) -> (nat -> b64) -> b64) (fe fl fr : b64 -> b64).
Hypotheses (Hd : fdot_any dot) (He : libm_exp fe) (Hl : libm_log fl) (Hr : libm_round fr).
Variables (p sc k : b64) (a v : nat -> b64) (P : profit b64) (X : R).
Hypothesis HR : profit_range p sc k a v (X + 1).
Hypothesis HP : profit64_init dot fe fl fr (p, sc, k) a v = Ok P.
Variable Vis : (nat -> b64) -> Prop.
Notation om := (profit_q64_omega dot fe fl fr P).
Notation Rm := (revenue_max (B2R p) (B2R sc) (vec64 a) (X + 1)).
Definition yd_ok (yd : nat -> b64) (q : nat -> Z) : Prop := grid yd q /\ point64 (X + 1) yd /\ exists y, Vis y /\ rounds y q.
Definition oinv (o : option (nat -> b64)) : Prop := forall yd, o = Some yd -> exists q, yd_ok yd q.
Lemma q_step o o' x t retry c x0 t1 more : oinv o -> Vis x -> point64 X x -> value64 t -> om o x t retry = Ok (o', (c, x0, t1, more)) -> (forall s, t1 = Some s -> 0 <= B2R s) ->
  oinv o' /\ value64 (best t t1) /\ B2R t <= B2R (best t t1) + pow2 (-38) * Rm /\
  exists q, yd_ok x0 q /\ forall s, t1 = Some s -> profit_at (B2R p) (B2R sc) (B2R k) (vec64 a) (vec64 v) q (B2R s).
Proof.
  intros Ho Hv Hx Ht Hc Hs. unfold profit_q64_omega in Hc. apply bind_ok in Hc as ([o2 [[[[g f] x1] t2] m]] & Hc & E).
  assert (o2 = o') by congruence. assert (x1 = x0) by congruence. assert (t2 = t1) by congruence. subst o2 x1 t2. clear E.
  unfold profit_q64_call, profit_q_call in Hc. apply bind_ok in Hc as (yd & Hyd & Hc). apply bind_ok in Hc as ([[g1 f1] t2] & Hc & E). assert (x0 = yd) by congruence. assert (o' = Some yd) by congruence. assert (t2 = t1) by congruence. subst x0 o' t2. clear E.
  assert (Q : exists q, yd_ok yd q).
  { destruct retry; [destruct o as [y0|]; [|discriminate Hyd]; assert (y0 = yd) by congruence; subst y0; apply Ho; reflexivity|].
    assert (HX : X <= 127) by (destruct HR as (_ & _ & _ & _ & _ & H); lra). destruct (round_point64 dot fe fl fr X x He Hl Hr HX Hx) as (yd1 & q & E & Hg & Hq & Hp). assert (yd1 = yd) by congruence. subst yd1. exists q. split; [exact Hg|]. split; [exact Hp|]. exists x. auto. }
  destruct Q as [q Q]. pose proof Q as (Hg & Hp & _). fold (profit64_call dot fe fl fr P yd t) in Hc.
  assert (Ho2 : profit64_omega dot fe fl fr P tt yd t = Ok (tt, ((g1, BScalar f1), t1))) by (unfold profit64_omega; rewrite Hc; reflexivity).
  destruct (step_value dot fe fl fr Hd He Hl p sc k a v P (X + 1) HR HP tt tt yd t _ t1 Hp Ht Ho2 Hs) as [V1 V2].
  split; [intros y0 E; exists q; assert (y0 = yd) by congruence; subst y0; exact Q|]. split; [exact V1|]. split; [exact V2|]. exists q. split; [exact Q|]. intros s ->.
  destruct (C178_profit64_call dot fe fl fr p sc k a v P (X + 1) yd t Hd He Hl HR HP Hp Ht) as (g2 & f2 & t3 & Hc1 & _ & _ & _ & K). assert (t3 = Some s) by congruence. subst t3. destruct K as (K1 & K2 & K3 & K4).
  destruct Ht as (_ & T0 & _). exact (proj1 (report_grid p sc k a v (X + 1) yd q HR Hp Hg t s T0 K2 K3 K4)).
Qed.
Lemma q_run_values {St Loc Sc} (sp : space St Loc (nat -> b64) (@cut b64) Sc) tr o st t o' st' t' : q_replay sp om o st t tr o' st' t' -> oinv o -> value64 t ->
  (forall ev, In ev tr -> Vis (q_x ev) /\ point64 X (q_x ev)) -> (forall ev s, In ev tr -> q_t1 ev = Some s -> 0 <= B2R s) ->
  B2R t <= B2R t' + INR (length tr) * (pow2 (-38) * Rm) /\
  forall ev s, In ev tr -> q_t1 ev = Some s -> is_finite s = true /\ exists q, yd_ok (q_x0 ev) q /\ profit_at (B2R p) (B2R sc) (B2R k) (vec64 a) (vec64 v) q (B2R s).
Proof.
  assert (M0 : 0 <= pow2 (-38) * Rm) by (apply Rmult_le_pos; [apply bpow_ge_0|left; apply exp_pos]). set (ep := pow2 (-38) * Rm) in *.
  induction 1 as [o st t|o st t retry c x0 t1 more o1 st1 s q tr o' st' t' E U H IH]; intros Ho Ht Hx Hs.
  - cbn [length INR]. split; [lra|intros ev s []].
  - destruct (Hx _ (or_introl eq_refl)) as [W1 W2]. destruct (q_step _ _ _ _ _ _ _ _ _ Ho W1 W2 Ht E (fun s0 => Hs _ s0 (or_introl eq_refl))) as (V0 & V1 & V2 & q0 & V3 & V4). fold ep in V2.
    destruct (IH V0 V1 (fun ev A => Hx ev (or_intror A)) (fun ev s0 A => Hs ev s0 (or_intror A))) as (I2 & I3). cbn [length]. rewrite S_INR.
    split; [lra|]. intros ev s0 [<-|Hi] Es; [|exact (I3 ev s0 Hi Es)]. cbn [q_t1 q_x0] in *. split; [|exists q0; auto]. subst t1. cbn [best] in V1. apply V1.
Qed.
End Run.
Theorem C183_profit_q64_value :
  forall {St Loc Sc} (sp : space St Loc (nat -> b64) (@cut b64) Sc) ltb tneq dot fe fl fr p sc k a v P X max_it tol st t tr o' st' xb t' info,
  fdot_any dot -> libm_exp fe -> libm_log fl -> libm_round fr -> profit_range p sc k a v (X + 1) -> profit64_init dot fe fl fr (p, sc, k) a v = Ok P -> value64 t ->
  cutting_plane_q sp ltb tneq (profit_q64_omega dot fe fl fr P) max_it tol None st t = Ok (tr, o', st', (xb, t', info)) ->
  (forall ev, In ev tr -> point64 X (q_x ev)) -> (forall ev s, In ev tr -> q_t1 ev = Some s -> 0 <= B2R s) ->
  B2R t <= B2R t' + INR (num_iters info) * (pow2 (-38) * revenue_max (B2R p) (B2R sc) (vec64 a) (X + 1)) /\
  ((xb = None /\ t' = t) \/
   exists yd q, xb = Some yd /\ grid yd q /\ (exists ev, In ev tr /\ rounds (q_x ev) q) /\ is_finite t' = true /\
     profit_at (B2R p) (B2R sc) (B2R k) (vec64 a) (vec64 v) q (B2R t')).
Proof.
  intros St Loc Sc sp ltb tneq dot fe fl fr p sc k a v P X max_it tol st t tr o' st' xb t' info Hd He Hl Hr HR HP Ht Hrun Hx Hs.
  destruct (q_spec _ _ _ _ _ _ _ _ _ _ _ _ _ _ _ Hrun) as (HRp & _ & Hn & _ & _ & _ & Hxb). rewrite Hn.
  destruct (q_run_values dot fe fl fr Hd He Hl Hr p sc k a v P X HR HP (fun y => exists ev, In ev tr /\ q_x ev = y) sp tr None st t o' st' t' HRp) as (V2 & V3); [intros yd E; discriminate E|exact Ht|intros ev Hi; split; [exists ev; auto|auto]|exact Hs|].
  split; [exact V2|]. destruct Hxb as [(_ & -> & ->)|(tr1 & ev & tr2 & Et & _ & E1 & ->)]; [left; auto|right]. assert (Hin : In ev tr) by (rewrite Et; apply in_or_app; right; left; reflexivity).
  destruct (V3 ev t' Hin E1) as (F & q & (Q1 & _ & y & (ev' & Hi' & <-) & Q3) & Q4). exists (q_x0 ev), q. split; [reflexivity|]. split; [exact Q1|]. split; [exists ev'; auto|]. auto.
Qed.
Print Assumptions C183_profit_q64_value.

(** ** a case: a limit of 2, and a search space that cannot move *)
Definition rne (x : b64) : b64 := Bnearbyint mode_NE x.
Lemma rne_ok : libm_round rne.
Proof.
  intros x Fx. destruct (Bnearbyint_correct 53 1024 emax64 mode_NE x) as (E & F & _). unfold rne. rewrite F. split; [exact Fx|]. rewrite E. cbn [round_mode]. rewrite round_FIX_IZR. exists (ZnearestE (B2R x)). split; [reflexivity|].
  rewrite Rabs_minus_sym. apply Znearest_half.
Qed.
Definition two64 : b64 := fmake 2 0.
Lemma two_R : B2R two64 = 2. Proof. unfold two64. rewrite fmakeR by lia. change (pow2 0) with 1. ring. Qed.
Definition P182 : profit b64 := {| pf_log_pA := cr_log (fmul one64 one64); pf_log_k := cr_log two64; pf_v := quart; pf_a := quart |}.
Definition z64 : nat -> b64 := fun _ => fzero.
Lemma range182 : profit_range one64 one64 two64 quart quart (10 + 1).
Proof.
  destruct range178 as ((A1 & A2 & _ & A3) & A4 & _ & A5 & A6 & A7). split; [split; [exact A1|]; split; [exact A2|]; split; [reflexivity|exact A3]|]. split; [exact A4|]. rewrite two_R.
  assert (L : 0 <= ln 2 <= 1). { split; [rewrite <- ln_1; apply ln_le_iff; lra|]. rewrite <- (ln_exp 1). apply ln_le_iff; [lra|apply exp_pos|]. assert (A := exp_ge_1p 1). lra. }
  split; [split; [lra|rewrite Rabs_right; lra]|]. split; [exact A5|]. unfold quart. rewrite quart_R, Rabs_right by lra. lra.
Qed.
Lemma zero_grid q : rounds z64 q -> q 0%nat = 1%Z /\ q 1%nat = 1%Z.
Proof.
  assert (K : forall i, (i < 2)%nat -> rounds z64 q -> q i = 1%Z).
  { intros i Hi H. specialize (H i Hi). cbv zeta in H. unfold z64 in H. change (B2R fzero) with 0 in H. rewrite exp_0 in H. destruct H as [H|[H _]]; [|exact H].
    assert (pow2 (-50) <= / 1024) by (change (/ 1024) with (pow2 (-10)); apply bpow_le; lia). apply Rabs_le_inv in H. assert (H1 : IZR 0 < IZR (q i)) by lra. assert (H2 : IZR (q i) < IZR 2) by lra. apply lt_IZR in H1, H2. lia. }
  intros H. split; apply K; auto; lia.
Qed.
Lemma at11 q : rounds z64 q -> profit_of (B2R one64) (B2R one64) (vec64 quart) (vec64 quart) (qtyZ q) = / 2 /\ revenue (B2R one64) (B2R one64) (vec64 quart) (qtyZ q) = 1 /\ spend (vec64 quart) (qtyZ q) = / 2 /\ qtyZ q 0%nat = 1.
Proof.
  intros H. destruct (zero_grid q H) as [E0 E1]. unfold profit_of, revenue, spend, qtyZ, Rpower, one64, vec64, quart. rewrite E0, E1, ln_1, (proj1 fone), quart_R, Rmult_0_r, exp_0. lra.
Qed.
Definition still : space unit unit (nat -> b64) (@cut b64) b64 := {| sp_xc := fun _ => tt; sp_deref := fun _ _ => z64; sp_update := fun _ _ => Ok (tt, (noeffect, fzero)) |}.
Lemma ln2_big : / 2 <= ln 2.
Proof. rewrite <- (ln_exp (/ 2)). apply ln_le_iff; [apply exp_pos|lra|]. assert (A := exp_up (/ 2) ltac:(lra)). lra. Qed.
Example C182_ex : fdot_any fdot_seq /\ libm_exp cr_exp /\ libm_log cr_log /\ libm_round rne /\ profit_range one64 one64 two64 quart quart (10 + 1) /\
  profit64_init fdot_seq cr_exp cr_log rne (one64, one64, two64) quart quart = Ok P182 /\ point64 10 z64 /\ value64 fzero /\
  exists g f yd s, profit_q64_call fdot_seq cr_exp cr_log rne P182 None z64 fzero false = Ok (Some yd, ((g, f), yd, Some s, true)) /\ / 3 <= B2R s.
Proof.
  assert (H1 : fdot_any fdot_seq) by exact fnum_dot_any. assert (H6 : point64 10 z64). { intros i _. split; [reflexivity|]. change (B2R (z64 i)) with 0. rewrite Rabs_R0. lra. }
  assert (H7 : value64 fzero). { split; [reflexivity|]. change (B2R fzero) with 0. split; [lra|apply bpow_ge_0]. }
  assert (H5 : profit64_init fdot_seq cr_exp cr_log rne (one64, one64, two64) quart quart = Ok P182) by reflexivity.
  split; [exact H1|]. split; [exact cr_exp_ok|]. split; [exact cr_log_ok|]. split; [exact rne_ok|]. split; [exact range182|]. split; [exact H5|]. split; [exact H6|]. split; [exact H7|].
  destruct (C182_profit_q64_call _ _ _ _ _ _ _ _ _ _ _ None z64 fzero H1 cr_exp_ok cr_log_ok rne_ok range182 H5 H6 H7) as (g & f & yd & t1 & q & Hc & Hg & Hq & A & _). exists g, f, yd.
  destruct (at11 q Hq) as (Q1 & Q2 & Q3 & Q4). assert (T : forall j, (j <= -20)%Z -> 0 < pow2 j <= / 1024) by (intros j Hj; split; [apply bpow_gt_0|change (/ 1024) with (pow2 (-10)); apply bpow_le; lia]).
  assert (T1 := T (-37)%Z ltac:(lia)). assert (T2 := T (-38)%Z ltac:(lia)). assert (T3 := T (-40)%Z ltac:(lia)). destruct t1 as [s|]; unfold answer_at, profit_at in A; rewrite Q1, ?Q2, ?Q3, ?Q4 in A.
  - exists s. split; [exact Hc|]. destruct A as (_ & [_ A] & _). apply Rabs_le_inv in A. lra.
  - exfalso. change (B2R fzero) with 0 in A. rewrite two_R, ln_1 in A. assert (L := ln2_big). lra.
Qed.
(** a run of two iterations, the second of which asks again *)
Example C183_ex : exists tr o' st' xb t' info,
  cutting_plane_q still (fun _ _ => false) (fun _ _ => true) (profit_q64_omega fdot_seq cr_exp cr_log rne P182) 5 fzero None tt fzero = Ok (tr, o', st', (xb, t', info)) /\ num_iters info = 2%nat /\
  (forall ev, In ev tr -> point64 10 (q_x ev)) /\ (forall ev s, In ev tr -> q_t1 ev = Some s -> 0 <= B2R s) /\ xb <> None.
Proof.
  destruct C182_ex as (H1 & H2 & H3 & H4 & HR & H5 & H6 & H7 & _).
  destruct (C182_profit_q64_call _ _ _ _ _ _ _ _ _ _ _ None z64 fzero H1 H2 H3 H4 HR H5 H6 H7) as (g & f & yd & t1 & q & Hc & Hg & Hq & A & K).
  destruct (at11 q Hq) as (Q1 & Q2 & Q3 & Q4). assert (T : forall j, (j <= -20)%Z -> 0 < pow2 j <= / 1024) by (intros j Hj; split; [apply bpow_gt_0|change (/ 1024) with (pow2 (-10)); apply bpow_le; lia]).
  assert (T1 := T (-37)%Z ltac:(lia)). assert (T2 := T (-38)%Z ltac:(lia)). assert (T3 := T (-40)%Z ltac:(lia)). destruct t1 as [s|]; unfold answer_at, profit_at in A; rewrite Q1, ?Q2, ?Q3, ?Q4 in A.
  2: { exfalso. change (B2R fzero) with 0 in A. rewrite two_R, ln_1 in A. assert (L := ln2_big). lra. }
  destruct A as (Fs & [_ A] & _). apply Rabs_le_inv in A. assert (Hv : value64 s). { split; [exact Fs|]. assert (1 <= pow2 600) by (change 1 with (pow2 0); apply bpow_le; lia). lra. }
  destruct (K z64 s Hv) as (g' & f' & t1' & Hc' & A'). unfold cutting_plane_q. cbn [q_loop]. change (centre still tt) with z64. cbn [status_eqb]. unfold profit_q64_omega at 1. rewrite Hc. cbn [bind sp_update still status_eqb negb andb].
  change (centre still tt) with z64. unfold profit_q64_omega at 1. rewrite Hc'. cbn [bind sp_update still status_eqb negb andb].
  do 6 eexists. split; [reflexivity|]. split; [reflexivity|]. split; [intros ev [<-|[<-|[]]]; exact H6|]. split.
  - intros ev s0 [<-|[<-|[]]] E; cbn [q_t1] in E; [assert (s0 = s) by congruence; subst; lra|]. subst t1'. unfold answer_at in A'. rewrite Q2 in A'. destruct A' as (_ & _ & A'). lra.
  - destruct t1'; discriminate.
Qed.
