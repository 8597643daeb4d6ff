(** Property theorem about nosoln of cutting_plane_dc with cycle_ratio_oracle over ell1d, in binary64 (C171). *)
From Coq Require Import ZArith Reals Lra Lia Bool List SpecFloat.
From Flocq Require Import Core.Core IEEE754.BinarySingleNaN.
From Verif Require Import Base M_Net S_Net P_Net T_Net M_Drivers S_Drivers P_Drivers T_Drivers M_Ell M_Float P_Float P_Float2 S_Float S_Float2
  P_Ell4 P_FSum P_NetF T_Float T_Float2 T_Float3 T_Float5 S_Itv T_Float15 T_Float17.
Import ListNotations.
Local Open Scope R_scope.

(** the events of a run over any search space, with an invariant that may depend on the number of the query *)
Section DCm.
Context {St X V C Sc O T : Type}.
Variables (sp : space St X V C Sc) (omega : O -> V -> T -> res (O * (C * option T))).
Variables (I : nat -> O -> T -> Prop) (P : V -> Prop) (R : T -> T -> Prop).
Hypothesis Rrefl : forall t, R t t.
Hypothesis Rtrans : forall a b c, R a b -> R b c -> R a c.
Hypothesis step : forall n o x t o' c t1, I n o t -> P x -> omega o x t = Ok (o', (c, t1)) -> I (S n) o' (best t t1) /\ R (best t t1) t.
Lemma dc_events_m : forall tr o st t o' st' t', dc_replay sp omega o st t tr o' st' t' -> forall n, I n o t ->
  (forall ev, In ev tr -> P (d_x ev)) ->
  R t' t /\
  forall ev, In ev tr -> exists m o1 o2 t0, (m < n + length tr)%nat /\ I m o1 t0 /\ I (S m) o2 (best t0 (d_t1 ev)) /\
    omega o1 (d_x ev) t0 = Ok (o2, (d_cut ev, d_t1 ev)) /\ R t' (best t0 (d_t1 ev)) /\ R t' t0.
Proof.
  intros tr o st t o' st' t' H. induction H as [o st t|o st t c t1 o1 st1 s q tr o' st' t' E U H IH]; intros n HI HP.
  - split; [apply Rrefl|]. intros ev [].
  - destruct (step _ _ _ _ _ _ _ HI (HP _ (or_introl eq_refl)) E) as [I1 R1].
    destruct (IH (S n) I1) as [R2 HE]; [intros ev A; exact (HP ev (or_intror A))|].
    split; [exact (Rtrans _ _ _ R2 R1)|]. cbn [length].
    intros ev [<-|Hi].
    + exists n, o, o1, t. split; [lia|]. split; [exact HI|]. split; [exact I1|]. split; [exact E|].
      split; [exact R2|exact (Rtrans _ _ _ R2 R1)].
    + destruct (HE ev Hi) as (m & o2 & o3 & t0 & Q0 & Q1). exists m, o2, o3, t0. split; [lia|]. exact Q1.
Qed.
End DCm.

(** the points asked by a run over ell1d are finite and stay in [-X, X] *)
Lemma asked_bounded {O T} (omega : O -> b64 -> T -> res (O * ((b64 * b64) * option T))) ltb tneq max_it tol o e t tr o' st' xb t' info X :
  0 <= X -> X <= pow2 1000 -> is_finite (i_r e) = true -> is_finite (i_xc e) = true ->
  cutting_plane_dc (@ell1d_space b64 FNum) ltb tneq omega max_it tol o (tt, e) t = Ok (tr, o', st', (xb, t', info)) ->
  Rabs (B2R (i_xc e)) + B2R (i_r e) + INR (num_iters info) * itv_ulp X <= X ->
  (forall st1 c, asked_dc (@ell1d_space b64 FNum) omega o (tt, e) t tr st1 c -> tame64 (snd st1) c) ->
  forall ev, In ev tr -> is_finite (d_x ev) = true /\ Rabs (B2R (d_x ev)) <= X.
Proof.
  intros X0 HX Fr Fx H HR0 HT ev Hev. apply dc_spec in H as (HR & _ & Hn & _ & (tr0 & ev0 & Et & HF & _) & _).
  apply in_split in Hev as (l1 & l2 & E).
  assert (HF1 : Forall (dgo ltb tol) l1).
  { assert (E' := E). rewrite Et in E'. destruct (exists_last (l := ev :: l2)) as (l3 & ev3 & E3); [discriminate|].
    rewrite E3, app_assoc in E'. apply app_inj_tail in E' as [E' _]. rewrite E' in HF. apply Forall_app in HF. apply HF. }
  clear Et. subst tr. assert (HRA := HR). apply dc_replay_app in HRA as (o1 & st1 & t1 & HR1 & HR2).
  assert (RN := dc_run1 omega ltb tol l1 o (tt, e) t o1 st1 t1 (ev :: l2) HR1 HF1). cbn [snd] in RN.
  assert (AL : asked_dc (@ell1d_space b64 FNum) omega o (tt, e) t (l1 ++ ev :: l2) st1 (d_cut ev)) by (exists l1, ev, l2, o1, t1; auto).
  assert (u0 : 0 <= itv_ulp X) by (apply u_nn; exact X0).
  assert (LE : INR (length l1) * itv_ulp X <= INR (num_iters info) * itv_ulp X).
  { apply Rmult_le_compat_r; [exact u0|]. apply le_INR. rewrite Hn, app_length. lia. }
  assert (RW : run64 (fun e c => tame64 e c) (length l1) e (snd st1)).
  { eapply run64_weak; [|exact RN]. intros e1 c1 [A _]. exact (HT _ _ A). }
  assert (A := Rabs_le_inv _ _ (Rle_refl (Rabs (B2R (i_xc e))))).
  assert (I := run64_inv (fun e c => tame64 e c) X X0 HX (fun e c q => q) (length l1) e (snd st1) Fr Fx). cbv zeta in I. fold (itv_ulp X) in I.
  destruct (I ltac:(lra) ltac:(lra) RW) as (_ & F2 & I1 & I2 & _). destruct (HT _ _ AL) as (_ & _ & R0 & _).
  inversion HR2; subst. cbn [d_x]. destruct st1 as [[] e1]. change (centre (@ell1d_space b64 FNum) (tt, e1)) with (i_xc e1). cbn [snd] in *.
  split; [exact F2|]. apply Rabs_le. lra.
Qed.

Lemma ratio_report g cost time u x t u' c v : @cycle_ratio_call b64 FNum (cycles_of g) cost time u x t = Ok (u', (c, Some v)) ->
  v = Some x /\ forall t0, t = Some t0 -> Bleb fzero (fsub t0 x) = false.
Proof.
  unfold cycle_ratio_call. set (stop := match t with Some t0 => nleb nzero (nsub t0 x) | None => false end).
  destruct stop eqn:E; [destruct t; intros; congruence|]. intros H. apply bind_ok in H as ([u1 [c1|]] & _ & H); [congruence|].
  split; [congruence|]. intros t0 ->. exact E.
Qed.

(** room that a ratio must leave on every cycle: N nodes, times of size T0, labels of size L, points of size X *)
Definition ratio_margin (N L T0 X : R) : R := N * (N + 3) * pow2 (-52) * (L + 2 * T0 * X).

(** ** C171 *)
Theorem C171_ratio64_nosoln ltb tneq g cost time max_it tol u e t tr u' st' xb t' info B T0 X :
  graph_ok g -> (Z.of_nat (length (g_nodes g)) <= 2 ^ 30)%Z -> (Z.of_nat (max_it * passes g) <= 2 ^ 49)%Z ->
  (forall v, is_finite (u v) = true /\ Rabs (B2R (u v)) <= B) ->
  (forall t0, t = Some t0 -> is_finite t0 = true /\ Rabs (B2R t0) <= X) ->
  pow2 (-700) <= B <= pow2 700 -> pow2 (-700) <= X <= pow2 700 -> pow2 (-700) <= T0 <= pow2 700 ->
  is_finite (i_r e) = true -> is_finite (i_xc e) = true ->
  cutting_plane_dc (@ell1d_space b64 FNum) ltb tneq (@cycle_ratio_call b64 FNum (cycles_of g) cost time) max_it tol u (tt, e) t
    = Ok (tr, u', st', (xb, t', info)) ->
  cstatus info = nosoln ->
  let rho := INR (num_iters info) * itv_ulp X in
  Rabs (B2R (i_xc e)) + B2R (i_r e) + rho <= X ->
  (forall st1 c, asked_dc (@ell1d_space b64 FNum) (@cycle_ratio_call b64 FNum (cycles_of g) cost time) u (tt, e) t tr st1 c -> tame64 (snd st1) c) ->
  (forall d, In d (g_edges g) -> is_finite (cost d) = true /\ is_finite (time d) = true /\ Rabs (B2R (time d)) <= T0 /\
     Rabs (B2R (cost d)) + Rabs (B2R (time d)) * X <= B) ->
  let m := ratio_margin (INR (length (g_nodes g))) ((1 + 4 * INR (max_it * passes g)) * B) T0 X in
  forall z, itv64 e z ->
  ~ (forall y, Rabs (y - z) <= rho ->
       (forall c, cycle (g_edges g) c -> y * total (fun d => B2R (time d)) c + m <= total (fun d => B2R (cost d)) c) /\
       (forall v, t' = Some v -> B2R v + pow2 (-51) * X <= y)).
Proof.
  intros Hg HN Hk Hu Ht HB7 HX7 HT7 Fr Fx Hrun HNS rho HR0 HT Hd m z Hz HC.
  assert (P7 := bpow_gt_0 radix2 (-700)).
  assert (X10 : X <= pow2 1000) by (apply Rle_trans with (pow2 700); [lra|apply bpow_le; lia]).
  set (omega := @cycle_ratio_call b64 FNum (cycles_of g) cost time) in *.
  assert (HP := asked_bounded omega ltb tneq max_it tol u e t tr u' st' xb t' info X ltac:(lra) X10 Fr Fx Hrun HR0 HT).
  assert (R8 : forall b, pow2 (-700) <= b <= pow2 700 -> pow2 (-800) <= b <= pow2 800).
  { intros b Hb. split; [apply Rle_trans with (pow2 (-700))|apply Rle_trans with (pow2 700)]; try (apply bpow_le; lia); lra. }
  set (KK := INR (max_it * passes g)) in *. set (L := (1 + 4 * KK) * B) in *.
  assert (K0 : 0 <= KK) by apply pos_INR.
  assert (K1 : KK <= 562949953421312) by (unfold KK; rewrite INR_IZR_INZ; apply IZR_le; lia).
  assert (LB : B <= L) by (unfold L; nra).
  assert (L8 : pow2 (-800) <= L <= pow2 800).
  { split; [assert (Q := R8 B HB7); lra|]. apply Rle_trans with (pow2 60 * pow2 700).
    - unfold L. apply Rmult_le_compat; [lra|lra| |apply HB7]. change (pow2 60) with 1152921504606846976. lra.
    - rewrite <- bpow_plus. apply bpow_le. lia. }
  set (P := fun x : b64 => is_finite x = true /\ Rabs (B2R x) <= X).
  assert (PD : forall x Bx, P x -> B <= Bx -> pow2 (-800) <= Bx <= pow2 800 -> ratio_data (g_edges g) cost time x Bx).
  { intros x Bx [F1 X1] H1 H2. split; [exact F1|]. split; [exact H2|]. intros d Hi. destruct (Hd d Hi) as (F2 & F3 & _ & H3). split; [exact F2|]. split; [exact F3|].
    rewrite Rabs_mult. assert (Rabs (B2R (time d)) * Rabs (B2R x) <= Rabs (B2R (time d)) * X) by (apply Rmult_le_compat_l; [apply Rabs_pos|exact X1]). lra. }
  set (I := fun (n : nat) (o : nat -> b64) (t0 : option b64) =>
     ((n <= max_it)%nat -> labels B (n * passes g) o) /\ forall v, t0 = Some v -> P v).
  set (RR := fun a b : option b64 => forall v, b = Some v -> exists v', a = Some v' /\ B2R v <= B2R v').
  assert (ST : forall n o x t0 o1 c t1, I n o t0 -> P x -> omega o x t0 = Ok (o1, (c, t1)) -> I (S n) o1 (best t0 t1) /\ RR (best t0 t1) t0).
  { intros n o x t0 o1 c t1 (I1 & I2) Px Ho.
    assert (IL : (S n <= max_it)%nat -> labels B (S n * passes g) o1).
    { intros Hn. cbn [mult]. rewrite Nat.add_comm. eapply ratio_call_labels; [exact Hg|apply (PD x B Px); [lra|apply R8, HB7]| |apply I1; lia|exact Ho].
      replace (n * passes g + passes g)%nat with (S n * passes g)%nat by (cbn; lia).
      assert (S n * passes g <= max_it * passes g)%nat by (apply Nat.mul_le_mono_r; exact Hn). lia. }
    destruct t1 as [v|]; cbn [best]; [|split; [split; [exact IL|exact I2]|intros v Ev; exists v; split; [exact Ev|lra]]].
    destruct (ratio_report g cost time o x t0 o1 c v Ho) as [-> Hlt]. split; [split; [exact IL|intros v0 [= <-]; exact Px]|].
    intros v Ev. exists x. split; [reflexivity|]. destruct (I2 v Ev) as [F1 V1]. destruct Px as [F2 V2].
    left. apply (not_leb_sub v x X (R8 X HX7) F1 F2 V1 V2 (Hlt v Ev)). }
  destruct (dc_spec _ _ _ _ _ _ _ _ _ _ _ _ _ _ _ Hrun) as (HR & _ & _ & [_ Hlen] & _).
  assert (I0 : I 0%nat u t).
  { split; [|exact Ht]. intros _ v. destruct (Hu v) as [F1 F2]. split; [exact F1|]. cbn [mult INR]. lra. }
  assert (Rrefl : forall t0, RR t0 t0) by (intros t0 v Ev; exists v; split; [exact Ev|lra]).
  assert (Rtrans : forall a b c, RR a b -> RR b c -> RR a c).
  { intros a b c H1 H2 v Ev. destruct (H2 v Ev) as (v1 & E1 & L1). destruct (H1 v1 E1) as (v2 & E2 & L2). exists v2. split; [exact E2|lra]. }
  destruct (dc_events_m _ omega I P RR Rrefl Rtrans ST tr u (tt, e) t u' st' t' HR 0%nat I0 HP) as [_ HE].
  set (K := fun y : R => Rabs y <= X /\
       (forall c, cycle (g_edges g) c -> y * total (fun d => B2R (time d)) c + m <= total (fun d => B2R (cost d)) c) /\
       (forall v, t' = Some v -> B2R v + pow2 (-51) * X <= y)).
  refine (C164_dc_nosoln ltb tneq omega max_it tol u e t X tr u' st' xb t' info K ltac:(lra) X10 Fr Fx Hrun HNS HR0 HT _ z Hz _).
  2: { intros y Hy. split; [|apply HC; exact Hy]. unfold itv64 in Hz. apply Rabs_le_inv in Hz. assert (A := Rabs_le_inv _ _ (Rle_refl (Rabs (B2R (i_xc e))))).
       fold rho in Hy. apply Rabs_le_inv in Hy. apply Rabs_le. lra. }
  intros ev y Hev (Y0 & Y1 & Y2). destruct (HP ev Hev) as [F1 X1].
  destruct (HE ev Hev) as (n & o1 & o2 & t0 & Hn & (I1 & I2) & (I3 & _) & Ho & R1 & R2).
  destruct (d_cut ev) as [g0 f] eqn:Ec. unfold cut_at. cbn [fst snd].
  assert (Hl1 : labels B (n * passes g) o1) by (apply I1; lia).
  assert (Hl2 : forall v, In v (g_nodes g) -> is_finite (o2 v) = true /\ Rabs (B2R (o2 v)) <= L).
  { intros v _. assert (Q : labels B (max_it * passes g) o2).
    { eapply labels_mono; [lra| |apply I3; lia]. apply Nat.mul_le_mono_r. lia. }
    exact (Q v). }
  assert (Hnan : forall v, is_nan (o1 v) = false) by (intros v; destruct (Hl1 v) as [F _]; destruct (o1 v); cbn in F |- *; congruence).
  destruct (C140_ratio64_oracle g cost time o1 (d_x ev) t0 o2 g0 f (d_t1 ev) L T0 Hg HN Hnan (PD _ _ (conj F1 X1) LB L8) (R8 _ HT7) (fun d Hi => proj1 (proj2 (proj2 (Hd d Hi)))) Ho) as [_ Hor].
  destruct Hor as [(v0 & Ev & _ & G0 & Ef & Et)|Hor].
  - destruct (I2 v0 Ev) as [FV XV]. destruct (spread_val v0 (d_x ev) X (R8 X HX7) FV F1 XV X1) as (_ & S1 & _). apply Rabs_le_inv in S1.
    destruct (R2 v0 Ev) as (v' & E' & L'). specialize (Y2 v' E'). rewrite Ef, G0, B2R_Bopp. rewrite fmakeR by lia. change (pow2 0) with 1. lra.
  - destruct (Hor Hl2) as [(Et & G0 & Ef & _)|(Et & Fg & Ff & (c & Hc & _ & E1 & E2) & _)].
    + rewrite Et in R1. cbn [best] in R1. destruct (R1 _ eq_refl) as (v' & E' & L'). specialize (Y2 v' E'). rewrite G0, Ef.
      assert (0 <= pow2 (-51) * X) by (apply Rmult_le_pos; [apply bpow_ge_0|lra]). lra.
    + specialize (Y1 c ltac:(apply Hc)). 
      set (N := INR (length (g_nodes g))) in *. set (Tc := total (fun d => B2R (time d)) c) in *. set (Cc := total (fun d => B2R (cost d)) c) in *.
      assert (N0 : 0 <= N) by apply pos_INR.
      replace (B2R g0 * (y - B2R (d_x ev)) + B2R f) with
        ((B2R g0 - Tc) * (y - B2R (d_x ev)) + (B2R f - (B2R (d_x ev) * Tc - Cc)) + (y * Tc - Cc)) by ring.
      assert (D : Rabs ((B2R g0 - Tc) * (y - B2R (d_x ev))) <= N * (N + 1) * pow2 (-53) * T0 * (2 * X)).
      { rewrite Rabs_mult. apply Rmult_le_compat; [apply Rabs_pos|apply Rabs_pos|exact E1|]. apply Rabs_le_inv in Y0. apply Rabs_le_inv in X1. apply Rabs_le. lra. }
      apply Rabs_le_inv in D. apply Rabs_le_inv in E2. unfold m, ratio_margin in Y1. fold N L in Y1.
      assert (E53 : pow2 (-52) = 2 * pow2 (-53)) by (change 2 with (pow2 1); rewrite <- bpow_plus; reflexivity).
      assert (W : N * (N + 1) * pow2 (-53) * T0 * (2 * X) <= N * (N + 3) * pow2 (-52) * (2 * T0 * X)).
      { rewrite E53. assert (Q := bpow_gt_0 radix2 (-53)). assert (0 < pow2 (-53) * T0 * X) by (apply Rmult_lt_0_compat; [apply Rmult_lt_0_compat|]; lra).
        replace (N * (N + 1) * pow2 (-53) * T0 * (2 * X)) with (2 * (N * (N + 1)) * (pow2 (-53) * T0 * X)) by ring.
        replace (N * (N + 3) * (2 * pow2 (-53)) * (2 * T0 * X)) with (4 * (N * (N + 3)) * (pow2 (-53) * T0 * X)) by ring.
        apply Rmult_le_compat_r; [lra|]. assert (0 <= N * N) by apply Rle_0_sqr. lra. }
      lra.
Qed.
Print Assumptions C171_ratio64_nosoln.

(** Non-vacuity: a cycle of two edges of cost 1 and time 1 (ratio 1) and the interval [3, 5]: the oracle's cut 2 z <= 2
    misses it.  The ratio 1/2 has room on both sides but lies outside. *)
Definition g171 : digraph := {| g_nodes := [0; 1]%nat; g_edges := [(0, 1); (1, 0)]%nat |}.
Definition one171 : edge -> b64 := fun _ => fmake 1 0.
Definition om171 := @cycle_ratio_call b64 FNum (cycles_of g171) one171 one171.
Definition e171 := i64 (fmake 1 0) (fmake 4 0).
Definition info171 :=
  match om171 (fun _ => fzero) (i_xc e171) None with
  | Ok (_, ((a, b), None)) => match @ell1d_update b64 FNum e171 (a, b) with Ok (_, (s, _)) => Some (B2SF a, B2SF b, s) | Raise _ => None end
  | _ => None end.
Lemma total_one171 c : total (fun d => B2R (one171 d)) c = INR (length c).
Proof.
  induction c as [|d c IH]; [reflexivity|]. cbn [total length]. rewrite S_INR, IH. unfold one171. rewrite fmakeR by lia. change (pow2 0) with 1. ring.
Qed.
Example C171_ex : exists tr u' st' info,
  graph_ok g171 /\
  cutting_plane_dc (@ell1d_space b64 FNum) (fun x y => Bltb x y) ob64_neq om171 5 fzero (fun _ => fzero) (tt, e171) None
    = Ok (tr, u', st', (None, None, info)) /\
  cstatus info = nosoln /\ num_iters info = 1%nat /\
  let rho := INR (num_iters info) * itv_ulp 8 in
  Rabs (B2R (i_xc e171)) + B2R (i_r e171) + rho <= 8 /\
  (forall st1 c, asked_dc (@ell1d_space b64 FNum) om171 (fun _ => fzero) (tt, e171) None tr st1 c -> tame64 (snd st1) c) /\
  (forall d, In d (g_edges g171) -> is_finite (one171 d) = true /\ Rabs (B2R (one171 d)) <= 1 /\
     Rabs (B2R (one171 d)) + Rabs (B2R (one171 d)) * 8 <= 32) /\
  itv64 e171 4 /\
  let m := ratio_margin (INR (length (g_nodes g171))) ((1 + 4 * INR (5 * passes g171)) * 32) 1 8 in
  (forall y, Rabs (y - 1 / 2) <= rho -> forall c, cycle (g_edges g171) c -> y * total (fun d => B2R (one171 d)) c + m <= total (fun d => B2R (one171 d)) c).
Proof.
  assert (X : info171 = Some (B2SF (fmake 2 0), B2SF (fmake 6 0), nosoln)) by (vm_compute; reflexivity).
  revert X. unfold info171.
  match goal with |- match ?u with Ok _ => _ | Raise _ => _ end = _ -> _ => destruct u as [[o' [[a b] [t1|]]]|] eqn:L; try discriminate end.
  match goal with |- match ?u with Ok _ => _ | Raise _ => _ end = _ -> _ => destruct u as [[e2 [s tsq]]|] eqn:U; [|discriminate] end. intros X.
  assert (E1 : B2SF a = B2SF (fmake 2 0)) by congruence. assert (E2 : B2SF b = B2SF (fmake 6 0)) by congruence. assert (s = nosoln) by congruence. subst s.
  apply B2SF_inj in E1. apply B2SF_inj in E2. subst a b. clear X.
  set (ev := {| d_x := i_xc e171; d_t := @None b64; d_cut := (fmake 2 0, fmake 6 0); d_t1 := None; d_status := nosoln; d_tsq := tsq |}).
  exists [ev], o', (tt, e2), {| feasible := false; num_iters := 1; cstatus := nosoln |}.
  assert (PU : 0 <= itv_ulp 8 <= / 1000000).
  { split; [apply u_nn; lra|]. unfold itv_ulp. assert (pow2 (-1000) <= pow2 0) by (apply bpow_le; lia). change (pow2 0) with 1 in *. change (pow2 (-48)) with (/ 281474976710656). lra. }
  assert (R1 : B2R (fmake 1 0) = 1) by (rewrite fmakeR by lia; change (pow2 0) with 1; ring).
  assert (R2 : B2R (fmake 2 0) = 2) by (rewrite fmakeR by lia; change (pow2 0) with 1; ring).
  assert (R4 : B2R (fmake 4 0) = 4) by (rewrite fmakeR by lia; change (pow2 0) with 1; ring).
  split. { intros u v H. cbn in H. repeat destruct H as [H|H]; try (injection H as <- <-; cbn; tauto); contradiction. }
  split.
  { unfold cutting_plane_dc. cbn [dc_loop]. change (centre (@ell1d_space b64 FNum) (tt, e171)) with (i_xc e171). rewrite L.
    cbn [bind fst snd sp_update ell1d_space]. rewrite U. cbn [bind status_eqb negb]. reflexivity. }
  split; [reflexivity|]. split; [reflexivity|]. cbv zeta. cbn [num_iters]. change (INR 1) with 1.
  split. { unfold e171. cbn [i64 i_xc i_r]. rewrite R1, R4, Rabs_pos_eq by lra. lra. }
  split.
  { intros st1 c (tr1 & ev1 & tr2 & o1 & t2 & Et & Ec & HR). destruct tr1 as [|d1 tr1]; [|destruct tr1; discriminate Et].
    inversion HR; subst. cbn [app] in Et. assert (Ee : ev1 = ev) by congruence. rewrite Ee. unfold ev. cbn [d_cut snd].
    split; [reflexivity|]. split; [reflexivity|]. cbn [e171 i64 i_r fst]. rewrite R1, R2. split; [lra|]. rewrite Rabs_pos_eq by lra.
    split; [apply Rle_trans with (pow2 0); [apply bpow_le; lia|change (pow2 0) with 1; lra]|apply Rle_trans with (pow2 1); [change (pow2 1) with 2; lra|apply bpow_le; lia]]. }
  split. { intros d _. unfold one171. rewrite R1, Rabs_pos_eq by lra. split; [reflexivity|]. lra. }
  split. { unfold itv64, e171. cbn [i64 i_xc i_r]. rewrite R4, R1. rewrite Rminus_diag_eq, Rabs_R0 by reflexivity. lra. }
  intros y Hy c [Hc _]. rewrite total_one171. apply Rabs_le_inv in Hy.
  assert (1 <= INR (length c)). { destruct c; [congruence|]. apply (le_INR 1). cbn [length]. lia. }
  assert (M : ratio_margin (INR (length (g_nodes g171))) ((1 + 4 * INR (5 * passes g171)) * 32) 1 8 <= / 4).
  { unfold ratio_margin. change (INR (length (g_nodes g171))) with 2. change (5 * passes g171)%nat with 20%nat. replace (INR 20) with 20 by (cbn; ring).
    change (pow2 (-52)) with (/ 4503599627370496). lra. }
  assert (y * INR (length c) <= 3 / 4 * INR (length c)) by (apply Rmult_le_compat_r; lra). lra.
Qed.
