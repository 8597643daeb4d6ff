(** Property theorems about the linear oracle of tests/test_example1.py and tests/test_example2.py in binary64 (C189, C190). *)
From Coq Require Import ZArith Reals Lra Lia Bool List Psatz Floats.SpecFloat.
From Flocq Require Import Core.Core IEEE754.BinarySingleNaN.
From Verif Require Import Base M_Net M_Drivers M_Ell S_Drivers P_Drivers T_Drivers S_Ell S_LinAlg P_LinAlg S_Examples M_Float P_Float P_Float2 S_Float S_EllF S_EllRun P_EllF P_FSum P_RunF P_EllRun P_Lmi2 M_Examples T_Float T_Float2 T_Float10 T_Float12 T_Float19.
Import ListNotations.
Local Open Scope R_scope.

(** the oracle in the form the drivers call it; test_example2.py:10-29 *)
Definition ex2_omega64 (o : unit) (z : nat -> b64) : res (unit * option (@cut b64)) :=
  Ok (tt, match @ex_cons b64 FNum z with Some (g, f) => Some (g, BScalar f) | None => None end).
(** both inequalities, x + y <= 3 and x - y >= 1, hold up to d; with a negative d, with a margin *)
Definition ex_within (d : R) (z : nat -> R) : Prop := z 0%nat + z 1%nat <= 3 + d /\ 1 - d <= z 0%nat - z 1%nat.
Definition ex_slack (h X : R) : R := (8 * h + bpow radix2 (-53)) * (5 * X + 4).

Lemma fadd_as_sub (s : b64) : fadd s (fmake 1 0) = fsub s (Bopp (fmake 1 0)).
Proof.
  generalize (fmake 1 0). intros y. unfold fadd, fsub, Bminus, Bplus.
  destruct s as [?|?| |? ? ? ?], y as [?|?| |? ? ? ?]; cbn [Bopp]; rewrite ?negb_involutive; reflexivity.
Qed.

(** one constraint: s = fl(a), f = fl(s - c) *)
Lemma lin_err X a c s f : 0 <= X -> Rabs a <= 2 * X -> Rabs c <= 3 -> s = rnd a -> f = rnd (s - c) ->
  Rabs (f - (a - c)) <= pow2 (-53) * (5 * X + 4) /\ Rabs f <= 3 * X + 4.
Proof.
  intros HX Ha Hc Es Ef. assert (T := tiny (-53) ltac:(lia)). assert (T1 := rnd_rel a). assert (T2 := rnd_rel (s - c)). rewrite <- Es in T1. rewrite <- Ef in T2.
  assert (E0 : 0 < pow2 (-1075) <= pow2 (-53) * / 1048576).
  { split; [apply bpow_gt_0|]. change (/ 1048576) with (pow2 (-20)). rewrite <- bpow_plus. apply bpow_le. lia. }
  set (u := pow2 (-53)) in *. set (eta := pow2 (-1075)) in *.
  assert (A1 : u * Rabs a <= u * (2 * X)) by (apply Rmult_le_compat_l; lra).
  assert (Hs : Rabs (s - c) <= 2 * X + u * (2 * X) + eta + 3).
  { replace (s - c) with ((s - a) + (a + - c)) by ring. eapply Rle_trans; [apply Rabs_triang|]. assert (B := Rabs_triang a (- c)). rewrite Rabs_Ropp in B. lra. }
  assert (UX : 0 <= u * X <= / 1048576 * X) by (split; [apply Rmult_le_pos; lra|apply Rmult_le_compat_r; lra]).
  assert (A2 : u * Rabs (s - c) <= u * (2 * X + / 2 * X + 3 + / 2)) by (apply Rmult_le_compat_l; [lra|]; assert (u * / 1048576 <= / 2) by lra; lra).
  assert (A : Rabs (f - (a - c)) <= u * (5 * X + 4)).
  { replace (f - (a - c)) with ((f - (s - c)) + (s - a)) by ring. eapply Rle_trans; [apply Rabs_triang|]. lra. }
  split; [exact A|]. replace f with ((f - (a - c)) + (a + - c)) by ring. eapply Rle_trans; [apply Rabs_triang|].
  assert (B := Rabs_triang a (- c)). rewrite Rabs_Ropp in B. lra.
Qed.
(** a rounded sum that does not exceed c *)
Lemma rnd_upto a c : Rabs c <= 3 -> rnd a <= c -> a <= c + pow2 (-51).
Proof.
  intros Hc H. assert (T := tiny (-53) ltac:(lia)). assert (T1 := rnd_rel a). apply Rabs_le_inv in T1. apply Rabs_le_inv in Hc.
  assert (E0 : 0 < pow2 (-1075) <= pow2 (-53) * / 1048576).
  { split; [apply bpow_gt_0|]. change (/ 1048576) with (pow2 (-20)). rewrite <- bpow_plus. apply bpow_le. lia. }
  replace (pow2 (-51)) with (4 * pow2 (-53)) by (change 4 with (pow2 2); rewrite <- bpow_plus; reflexivity).
  set (u := pow2 (-53)) in *. apply Rnot_lt_le. intros N.
  destruct (Rle_lt_dec 4 (Rabs a)) as [L|L].
  - destruct (Rle_lt_dec 0 a) as [P|P]; [rewrite Rabs_pos_eq in * by lra|rewrite Rabs_left in * by lra; lra].
    assert (u * a <= / 1048576 * a) by (apply Rmult_le_compat_r; lra). lra.
  - destruct (Rle_lt_dec (Rabs a) (7 / 2)) as [L2|L2].
    + assert (u * Rabs a <= u * (7 / 2)) by (apply Rmult_le_compat_l; lra). lra.
    + assert (u * Rabs a <= u * 4) by (apply Rmult_le_compat_l; lra). destruct (Rle_lt_dec 0 a) as [P|P]; [rewrite Rabs_pos_eq in * by lra; lra|rewrite Rabs_left in * by lra; lra].
Qed.
Lemma dot2 (g d : nat -> R) : S_LinAlg.dot 2 g d = g 0%nat * d 0%nat + g 1%nat * d 1%nat.
Proof. unfold S_LinAlg.dot. cbn [rsum]. ring. Qed.

(** ** C189: a refusal is never wrong and names the violated inequality; an approved point satisfies both up to 2^-51;
    the cut holds, even with beta enlarged by the factor 1 + 8 h, at every point that keeps the margin *)
Theorem C189_linear64_call : forall X z,
  X <= bpow radix2 1000 -> (forall i, (i < 2)%nat -> is_finite (z i) = true /\ Rabs (B2R (z i)) <= X) ->
  match @ex_cons b64 FNum z with
  | None => ex_within (bpow radix2 (-51)) (fun i => B2R (z i))
  | Some (g, f) =>
      ~ ex_feas (fun i => B2R (z i)) /\ is_finite f = true /\ 0 < B2R f /\
      (forall i, is_finite (g i) = true /\ Rabs (B2R (g i)) <= 1) /\
      forall h y, 0 <= h <= / 1024 -> ex_within (- ex_slack h X) y -> holds64 2 h z g f y
  end.
Proof.
  intros X z HXb Hz. destruct (Hz 0%nat ltac:(lia)) as [F0 B0]. destruct (Hz 1%nat ltac:(lia)) as [F1 B1]. clear Hz.
  assert (HX : 0 <= X) by (eapply Rle_trans; [apply Rabs_pos|exact B0]).
  assert (R3 : B2R (fmake 3 0) = 3) by (rewrite r_of by lia; change (pow2 0) with 1; lra).
  assert (R1 := r1). assert (P : 3 * pow2 1000 + 4 <= pow2 1023).
  { replace (pow2 1023) with (8388608 * pow2 1000) by (change 8388608 with (pow2 23); rewrite <- bpow_plus; reflexivity). assert (1 <= pow2 1000) by (change 1 with (pow2 0); apply bpow_le; lia). lra. }
  assert (Q : forall a, Rabs a <= 2 * X -> Rabs (rnd a) <= 3 * X + 1).
  { intros a Ha. assert (T1 := rnd_rel a). assert (T := tiny (-53) ltac:(lia)). assert (T3 := tiny (-1075) ltac:(lia)).
    assert (pow2 (-53) * Rabs a <= / 1048576 * (2 * X)) by (apply Rmult_le_compat; try lra; apply Rabs_pos).
    replace (rnd a) with ((rnd a - a) + a) by ring. eapply Rle_trans; [apply Rabs_triang|]. lra. }
  (* the two sums *)
  assert (A0 : Rabs (B2R (z 0%nat) + B2R (z 1%nat)) <= 2 * X) by (eapply Rle_trans; [apply Rabs_triang|]; lra).
  assert (A1 : Rabs (- B2R (z 0%nat) + B2R (z 1%nat)) <= 2 * X) by (eapply Rle_trans; [apply Rabs_triang|]; rewrite Rabs_Ropp; lra).
  destruct (fadd_rnd (z 0%nat) (z 1%nat) F0 F1 ltac:(lra)) as [S0 FS0].
  destruct (fadd_rnd (Bopp (z 0%nat)) (z 1%nat)) as [S1 FS1]; [rewrite is_finite_Bopp; exact F0|exact F1|rewrite fopp_R; lra|]. rewrite fopp_R in S1.
  assert (Q0 := Q _ A0). assert (Q1 := Q _ A1).
  destruct (fsub_rnd (fadd (z 0%nat) (z 1%nat)) (fmake 3 0) FS0 eq_refl) as [D0 FD0].
  { rewrite R3, S0. unfold Rminus. eapply Rle_trans; [apply Rabs_triang|]. rewrite Rabs_Ropp, (Rabs_right 3) by lra. lra. }
  destruct (fadd_rnd (fadd (Bopp (z 0%nat)) (z 1%nat)) (fmake 1 0) FS1 eq_refl) as [D1 FD1].
  { rewrite R1, S1. eapply Rle_trans; [apply Rabs_triang|]. rewrite (Rabs_right 1) by lra. lra. }
  assert (V0 := fsub_pos (fadd (z 0%nat) (z 1%nat)) (fmake 3 0) FS0 eq_refl). rewrite R3, S0 in V0.
  assert (V1 := fsub_pos (fadd (Bopp (z 0%nat)) (z 1%nat)) (Bopp (fmake 1 0)) FS1 eq_refl). rewrite <- fadd_as_sub, fopp_R, R1, S1 in V1.
  rewrite R3, S0 in D0. rewrite R1, S1 in D1.
  unfold ex_cons. cbn [nadd nsub nopp nzero none nofZ nltb FNum].
  set (f0 := fsub (fadd (z 0%nat) (z 1%nat)) (fmake 3 0)) in *. set (f1 := fadd (fadd (Bopp (z 0%nat)) (z 1%nat)) (fmake 1 0)) in *.
  destruct (Bltb fzero f0) eqn:L0; [|destruct (Bltb fzero f1) eqn:L1].
  - assert (N := proj1 V0 eq_refl). split.
    { intros [E _]. cbv beta in E. assert (rnd (B2R (z 0%nat) + B2R (z 1%nat)) <= 3) by (apply rnd_le; [exact E|apply (fmt_Z 3); lia]). lra. }
    split; [exact FD0|]. split.
    { rewrite (f64_ltb fzero f0 eq_refl FD0) in L0. change (B2R fzero) with 0 in L0. destruct (Rlt_bool_spec 0 (B2R f0)); [assumption|discriminate]. }
    split. { intros [|[|i]]; unfold arr2; [split; [reflexivity|rewrite R1, Rabs_R1; lra]..|]. split; [reflexivity|]. change (Rabs 0 <= 1). rewrite Rabs_R0. lra. }
    intros h y Hh [Y _]. unfold holds64. rewrite dot2. unfold arr2. rewrite R1.
    destruct (lin_err X _ 3 _ _ HX A0 ltac:(rewrite Rabs_right; lra) eq_refl D0) as [W1 W2].
    apply Rabs_le_inv in W1. unfold ex_slack in Y. assert (8 * h * B2R f0 <= 8 * h * (3 * X + 4)) by (apply Rmult_le_compat_l; [lra|]; eapply Rle_trans; [apply Rle_abs|exact W2]).
    assert (0 <= h * X) by (apply Rmult_le_pos; lra). lra.
  - assert (N := proj1 V1 eq_refl). split.
    { intros [_ E]. cbv beta in E. assert (rnd (- B2R (z 0%nat) + B2R (z 1%nat)) <= -1) by (apply rnd_le; [lra|apply (fmt_Z (-1)); lia]). lra. }
    split; [exact FD1|]. split.
    { rewrite (f64_ltb fzero f1 eq_refl FD1) in L1. change (B2R fzero) with 0 in L1. destruct (Rlt_bool_spec 0 (B2R f1)); [assumption|discriminate]. }
    split. { intros [|[|i]]; unfold arr2; [split; [reflexivity|rewrite ?fopp_R, ?R1, ?Rabs_Ropp, Rabs_R1; lra]..|]. split; [reflexivity|]. change (Rabs 0 <= 1). rewrite Rabs_R0. lra. }
    intros h y Hh [_ Y]. unfold holds64. rewrite dot2. unfold arr2. rewrite fopp_R, R1.
    replace (rnd (- B2R (z 0%nat) + B2R (z 1%nat)) + 1) with (rnd (- B2R (z 0%nat) + B2R (z 1%nat)) - (-1)) in D1 by ring.
    destruct (lin_err X _ (-1) _ _ HX A1 ltac:(rewrite Rabs_left; lra) eq_refl D1) as [W1 W2].
    apply Rabs_le_inv in W1. unfold ex_slack in Y. assert (8 * h * B2R f1 <= 8 * h * (3 * X + 4)) by (apply Rmult_le_compat_l; [lra|]; eapply Rle_trans; [apply Rle_abs|exact W2]).
    assert (0 <= h * X) by (apply Rmult_le_pos; lra). lra.
  - assert (N0 : rnd (B2R (z 0%nat) + B2R (z 1%nat)) <= 3) by (apply Rnot_lt_le; intros C; apply V0 in C; discriminate C).
    assert (N1 : rnd (- B2R (z 0%nat) + B2R (z 1%nat)) <= -1) by (apply Rnot_lt_le; intros C; apply V1 in C; discriminate C).
    apply rnd_upto in N0; [|rewrite Rabs_right; lra]. apply rnd_upto in N1; [|rewrite Rabs_left; lra]. split; cbv beta; lra.
Qed.
Print Assumptions C189_linear64_call.

(** a feasible answer of the driver over ell: the centre it stops at satisfies both inequalities up to 2^-51 *)
Theorem C189_linear64_found : forall dotf ltb X max_it tol w e tr o' w' e' info,
  cutting_plane_feas (@ell_space b64 (FNumD dotf)) ltb ex2_omega64 max_it tol tt (w, e) = Ok (tr, o', (w', e'), info) ->
  feasible info = true -> X <= bpow radix2 1000 -> (forall i, (i < 2)%nat -> is_finite (w' (e_xc e') i) = true /\ Rabs (B2R (w' (e_xc e') i)) <= X) ->
  ex_within (bpow radix2 (-51)) (fun i => B2R (w' (e_xc e') i)).
Proof.
  intros dotf ltb X max_it tol w e tr o' w' e' info H F HX Hz.
  destruct (C01_feas_only_at_approved_centre _ _ _ _ _ _ _ _ _ _ _ _ _ _ _ _ _ H) as (Hr & Hc & _).
  destruct (Hc F) as (tr0 & ->).
  destruct (replay_last_none (@ell_space b64 (FNumD dotf)) ex2_omega64 (fun _ => True)) with
    (tr0 := tr0) (o := tt) (st := (w, e)) (x := centre (@ell_space b64 (FNumD dotf)) (w', e')) (o' := o') (st' := (w', e')) as (o1 & _ & Hq & _); auto.
  unfold ex2_omega64 in Hq. assert (C := C189_linear64_call X (w' (e_xc e')) HX Hz).
  change (centre (@ell_space b64 (FNumD dotf)) (w', e')) with (w' (e_xc e')) in Hq.
  destruct (@ex_cons b64 FNum (w' (e_xc e'))) as [[g f]|]; [discriminate Hq|exact C].
Qed.
Print Assumptions C189_linear64_found.

(** nosoln: no point of the initial ellipsoid has a cube of half-side (number of iterations) * drift64 of points that
    keep the margin *)
Theorem C189_linear64_nosoln : forall h M G X W dotf ltb max_it tol w e tr o' st' info,
  fdot_any dotf -> built64 e -> e_n e = 2%nat ->
  cutting_plane_feas (@ell_space b64 (FNumD dotf)) ltb ex2_omega64 max_it tol tt (w, e) = Ok (tr, o', st', info) -> cstatus info = nosoln ->
  single_scaled h M G X W (asked64 (@ell_space b64 (FNumD dotf)) ex2_omega64 tt (w, e) tr) ->
  forall z, mem64 (w, e) z -> ~ cube_in 2 (INR (num_iters info) * drift64 2 h W X) (ex_within (- ex_slack h X)) z.
Proof.
  intros h M G X W dotf ltb max_it tol w e tr o' st' info HD HB En H HN HS z Hz.
  assert (A := C153_feas_nosoln h M G X W dotf ltb ex2_omega64 max_it tol tt w e tr o' st' info (ex_within (- ex_slack h X)) HD HB H HN HS).
  rewrite En in A. apply A; [|exact Hz]. clear A Hz z. intros x g b s q y Hin HK.
  apply feas_spec in H as (HR & _).
  destruct (feas_events dotf ex2_omega64 (fun _ => True) ltac:(auto) _ _ _ _ _ HR I _ _ _ _ Hin) as (st1 & o1 & o2 & HA & EN & Ex & _ & Ho).
  destruct (HS st1 _ HA) as (g1 & b1 & _ & S1 & _). destruct (scaled_proper _ _ _ _ _ _ _ S1) as (_ & Hh & _).
  destruct st1 as [w1 e1]. cbn [fst snd] in *. destruct S1 as (_ & _ & _ & Sx & _ & _ & _ & _ & _ & _ & HX & _ & Hh1). rewrite EN, En in Sx.
  assert (C := C189_linear64_call X x HX). rewrite Ex in C, Ho. specialize (C Sx). rewrite <- Ex in C, Ho. unfold ex2_omega64 in Ho.
  destruct (@ex_cons b64 FNum x) as [[g2 f2]|]; [|discriminate Ho]. assert (g2 = g) by congruence. assert (f2 = b) by congruence. subst g2 f2.
  destruct C as (_ & _ & _ & _ & C). apply C; [lra|exact HK].
Qed.
Print Assumptions C189_linear64_nosoln.

(** ** C190: maximising x + y, test_example1.py:32-52 *)
Definition ex1_omega64 (o : unit) (z : nat -> b64) (t : option b64) : res (unit * (@cut b64 * option (option b64))) :=
  let '((g, fj), t1) := @ex1_call b64 FNum z t in Ok (tt, ((g, BScalar fj), t1)).
(** a best-so-far value that is -inf or of the size of the values *)
Definition ex_value (X : R) (t : option b64) : Prop := match t with Some s => is_finite s = true /\ Rabs (B2R s) <= 3 * X + 1 | None => True end.
(** a is no smaller than b *)
Definition later (a b : option b64) : Prop := match b with Some s => exists v, a = Some v /\ B2R s <= B2R v | None => True end.
Definition opt_slack (h X : R) : R := (8 * h + bpow radix2 (-53)) * (9 * X + 4).
Definition ex_beats (d : R) (t : option b64) (y : nat -> R) : Prop := match t with Some v => B2R v + d <= ex_val y | None => True end.
Lemma later_refl a : later a a. Proof. destruct a as [s|]; [exists s; split; [reflexivity|lra]|exact I]. Qed.
Lemma later_trans a b c : later a b -> later b c -> later a c.
Proof. unfold later. destruct c as [s|]; [|auto]. intros H (v & -> & L). destruct H as (v' & -> & L'). exists v'. split; [reflexivity|lra]. Qed.

(** the comparison t - f0 < 0 *)
Lemma fsub_neg (t s : b64) : is_finite t = true -> is_finite s = true -> Rabs (B2R t - B2R s) <= pow2 1023 -> (Bltb (fsub t s) fzero = true <-> B2R t < B2R s).
Proof.
  intros Ft Fs B. destruct (fsub_rnd t s Ft Fs B) as [R1 R2]. assert (B' : Rabs (B2R s - B2R t) <= pow2 1023) by (rewrite Rabs_minus_sym; exact B).
  destruct (fsub_rnd s t Fs Ft B') as [R3 R4]. rewrite <- (fsub_pos s t Fs Ft). rewrite (f64_ltb (fsub t s) fzero R2 eq_refl), (f64_ltb fzero (fsub s t) eq_refl R4), R1, R3. change (B2R fzero) with 0.
  replace (B2R t - B2R s) with (- (B2R s - B2R t)) by ring. rewrite round_NE_opp.
  destruct (Rlt_bool_spec (- rnd (B2R s - B2R t)) 0), (Rlt_bool_spec 0 (rnd (B2R s - B2R t))); split; intros; try reflexivity; try discriminate; lra.
Qed.

(** one call *)
Theorem C190_linear64_opt_call : forall X z t,
  X <= bpow radix2 1000 -> (forall i, (i < 2)%nat -> is_finite (z i) = true /\ Rabs (B2R (z i)) <= X) -> ex_value X t ->
  exists g f t1, @ex1_call b64 FNum z t = ((g, f), Some t1) /\ is_finite f = true /\ 0 <= B2R f /\ ex_value X t1 /\ later t1 t /\
    (* the value changes only at a point that satisfies the constraints up to rounding, and is the correctly rounded sum *)
    (t1 = t \/ exists v, t1 = Some v /\ ex_within (bpow radix2 (-51)) (fun i => B2R (z i)) /\ B2R v = rnd (ex_val (fun i => B2R (z i))) /\ B2R v <= 3 /\
       match t with Some s => B2R s < B2R v | None => True end) /\
    (* a feasible point is never passed over *)
    (ex_feas (fun i => B2R (z i)) -> exists v, t1 = Some v /\ rnd (ex_val (fun i => B2R (z i))) <= B2R v) /\
    (forall h y, 0 <= h <= / 1024 -> ex_within (- opt_slack h X) y -> ex_beats (opt_slack h X) t1 y -> holds64 2 h z g f y).
Proof.
  intros X z t HXb Hz Ht. assert (C := C189_linear64_call X z HXb Hz).
  destruct (Hz 0%nat ltac:(lia)) as [F0 B0]. destruct (Hz 1%nat ltac:(lia)) as [F1 B1]. clear Hz.
  assert (HX : 0 <= X) by (eapply Rle_trans; [apply Rabs_pos|exact B0]).
  assert (SL : forall h, 0 <= h -> ex_slack h X <= opt_slack h X) by (intros h Hh; unfold ex_slack, opt_slack; apply Rmult_le_compat_l; [assert (A := bpow_ge_0 radix2 (-53)); lra|lra]).
  unfold ex1_call. destruct (@ex_cons b64 FNum z) as [[g f]|] eqn:EC.
  { destruct C as (NF & Ff & Pf & _ & Cv). exists g, f, t. split; [reflexivity|]. split; [exact Ff|]. split; [lra|]. split; [exact Ht|]. split; [apply later_refl|]. split; [left; reflexivity|]. split; [intros A; elim (NF A)|].
    intros h y Hh [Y1 Y2] _. apply Cv; [exact Hh|]. assert (S := SL h ltac:(lra)). split; lra. }
  assert (A0 : Rabs (B2R (z 0%nat) + B2R (z 1%nat)) <= 2 * X) by (eapply Rle_trans; [apply Rabs_triang|]; lra).
  assert (P : 8 * pow2 1000 + 4 <= pow2 1023).
  { replace (pow2 1023) with (8388608 * pow2 1000) by (change 8388608 with (pow2 23); rewrite <- bpow_plus; reflexivity). assert (1 <= pow2 1000) by (change 1 with (pow2 0); apply bpow_le; lia). lra. }
  destruct (fadd_rnd (z 0%nat) (z 1%nat) F0 F1 ltac:(lra)) as [S0 FS0].
  assert (T := tiny (-53) ltac:(lia)). assert (TE : 0 < pow2 (-1075) <= pow2 (-53) * / 1048576).
  { split; [apply bpow_gt_0|]. change (/ 1048576) with (pow2 (-20)). rewrite <- bpow_plus. apply bpow_le. lia. }
  assert (T1 := rnd_rel (B2R (z 0%nat) + B2R (z 1%nat))). rewrite <- S0 in T1.
  (* the sum itself passed the test against 3 *)
  assert (V3 : B2R (fadd (z 0%nat) (z 1%nat)) <= 3).
  { unfold ex_cons in EC. cbn [nadd nsub nopp nzero none nofZ nltb FNum] in EC. assert (V := fsub_pos (fadd (z 0%nat) (z 1%nat)) (fmake 3 0) FS0 eq_refl).
    assert (R3 : B2R (fmake 3 0) = 3) by (rewrite r_of by lia; change (pow2 0) with 1; lra). rewrite R3 in V.
    destruct (Bltb fzero (fsub (fadd (z 0%nat) (z 1%nat)) (fmake 3 0))); [discriminate EC|]. apply Rnot_lt_le. intros A. apply V in A. discriminate A. }
  assert (UA : pow2 (-53) * Rabs (B2R (z 0%nat) + B2R (z 1%nat)) <= pow2 (-53) * (2 * X)) by (apply Rmult_le_compat_l; lra).
  assert (UX : 0 <= pow2 (-53) * X <= / 1048576 * X) by (split; [apply Rmult_le_pos; lra|apply Rmult_le_compat_r; lra]).
  assert (VB : Rabs (B2R (fadd (z 0%nat) (z 1%nat))) <= 2 * X + / 2 * X + / 2).
  { replace (B2R (fadd (z 0%nat) (z 1%nat))) with ((B2R (fadd (z 0%nat) (z 1%nat)) - (B2R (z 0%nat) + B2R (z 1%nat))) + (B2R (z 0%nat) + B2R (z 1%nat))) by ring. eapply Rle_trans; [apply Rabs_triang|]. lra. }
  cbn [nadd nsub nopp nzero none nofZ nltb FNum]. set (f0 := fadd (z 0%nat) (z 1%nat)) in *.
  assert (EV : ex_val (fun i => B2R (z i)) = B2R (z 0%nat) + B2R (z 1%nat)) by reflexivity. rewrite EV.
  set (imp := match t with Some t => Bltb (fsub t f0) fzero | None => true end). set (u := pow2 (-53)) in *.
  assert (G : forall y, S_LinAlg.dot 2 (fun i => B2R (@arr2 b64 FNum (Bopp (fmake 1 0)) (Bopp (fmake 1 0)) i)) (fun i => y i - B2R (z i)) = (B2R (z 0%nat) + B2R (z 1%nat)) - ex_val y).
  { intros y. rewrite dot2. unfold arr2. rewrite fopp_R, r1. unfold ex_val. ring. }
  destruct imp eqn:EI.
  - (* improvement *)
    exists (@arr2 b64 FNum (Bopp (fmake 1 0)) (Bopp (fmake 1 0))), fzero, (Some f0).
    assert (LT : match t with Some s => B2R s < B2R f0 | None => True end).
    { destruct t as [s|]; [|exact I]. destruct Ht as [Fs Bs]. unfold imp in EI. apply (fsub_neg s f0 Fs FS0); [|exact EI].
      unfold Rminus. eapply Rle_trans; [apply Rabs_triang|]. rewrite Rabs_Ropp. lra. }
    split; [destruct t; reflexivity|]. split; [reflexivity|]. split; [change (B2R fzero) with 0; lra|]. split; [split; [exact FS0|lra]|].
    split; [destruct t as [s|]; [exists f0; split; [reflexivity|lra]|exact I]|]. split.
    { right. exists f0. split; [reflexivity|]. split; [exact C|]. split; [exact S0|]. split; [exact V3|exact LT]. }
    split. { intros _. exists f0. split; [reflexivity|]. rewrite S0. lra. }
    intros h y Hh _ Y. cbn in Y. unfold holds64. rewrite G. change (B2R fzero) with 0. unfold opt_slack in Y. fold u in Y. apply Rabs_le_inv in T1.
    assert (0 <= h * X) by (apply Rmult_le_pos; lra). lra.
  - destruct t as [s|]; [|discriminate EI]. destruct Ht as [Fs Bs]. unfold imp in EI.
    assert (BD : Rabs (B2R s - B2R f0) <= 6 * X + 2) by (unfold Rminus; eapply Rle_trans; [apply Rabs_triang|]; rewrite Rabs_Ropp; lra).
    assert (GE : B2R f0 <= B2R s). { apply Rnot_lt_le. intros A. apply (fsub_neg s f0 Fs FS0 ltac:(lra)) in A. congruence. }
    destruct (fsub_rnd s f0 Fs FS0 ltac:(lra)) as [R1 R2]. assert (T2 := rnd_rel (B2R s - B2R f0)). rewrite <- R1 in T2.
    exists (@arr2 b64 FNum (Bopp (fmake 1 0)) (Bopp (fmake 1 0))), (fsub s f0), (Some s).
    split; [reflexivity|]. split; [exact R2|]. split; [rewrite R1; apply rnd_ge; [lra|apply generic_format_0]|]. split; [split; assumption|]. split; [apply later_refl|]. split; [left; reflexivity|].
    split. { intros _. exists s. split; [reflexivity|]. rewrite <- S0. exact GE. }
    intros h y Hh _ Y. cbn in Y. unfold holds64. rewrite G. unfold opt_slack in Y. fold u in Y. fold u in T2.
    assert (M : u * Rabs (B2R s - B2R f0) <= u * (6 * X + 2)) by (apply Rmult_le_compat_l; lra). apply Rabs_le_inv in T1, T2, BD.
    assert (FB : B2R (fsub s f0) <= 7 * X + 3) by lra. assert (M2 : 8 * h * B2R (fsub s f0) <= 8 * h * (7 * X + 3)) by (apply Rmult_le_compat_l; lra).
    assert (0 <= h * X) by (apply Rmult_le_pos; lra). lra.
Qed.
Print Assumptions C190_linear64_opt_call.

Lemma ex1_64_step X x t o o' c t1 : X <= bpow radix2 1000 -> (forall i, (i < 2)%nat -> is_finite (x i) = true /\ Rabs (B2R (x i)) <= X) -> ex_value X t ->
  ex1_omega64 o x t = Ok (o', (c, t1)) -> exists g f t2, c = (g, BScalar f) /\ t1 = Some t2 /\ ex1_call x t = ((g, f), Some t2).
Proof.
  intros H1 H2 H3 E. destruct (C190_linear64_opt_call X x t H1 H2 H3) as (g & f & t2 & Ec & _). unfold ex1_omega64 in E. rewrite Ec in E. exists g, f, t2. split; [congruence|]. split; [congruence|exact Ec].
Qed.

(** runs over any search space: the value is the one given, or the correctly rounded sum of a visited point that satisfies
    both constraints up to 2^-51; it never decreases, never exceeds 3 and is at least the sum of every feasible visited point *)
Theorem C190_linear64_value : forall {St Loc Sc} (sp : space St Loc (nat -> b64) (@cut b64) Sc) ltb tneq X max_it tol st t tr o' st' xb t' info,
  cutting_plane_dc sp ltb tneq ex1_omega64 max_it tol tt st t = Ok (tr, o', st', (xb, t', info)) ->
  X <= bpow radix2 1000 -> (forall ev, In ev tr -> forall i, (i < 2)%nat -> is_finite (d_x ev i) = true /\ Rabs (B2R (d_x ev i)) <= X) -> ex_value X t ->
  later t' t /\
  (t' = t \/ exists ev v, In ev tr /\ t' = Some v /\ ex_within (bpow radix2 (-51)) (fun i => B2R (d_x ev i)) /\ B2R v = rnd (ex_val (fun i => B2R (d_x ev i))) /\ B2R v <= 3 /\
     match t with Some s => B2R s < B2R v | None => True end) /\
  (forall ev, In ev tr -> ex_feas (fun i => B2R (d_x ev i)) -> exists v, t' = Some v /\ rnd (ex_val (fun i => B2R (d_x ev i))) <= B2R v).
Proof.
  intros St Loc Sc sp ltb tneq X max_it tol st t tr o' st' xb t' info H HX Hx Ht. apply dc_spec in H as (HR & _). clear - HR HX Hx Ht. revert Ht Hx.
  induction HR as [o st t|o st t c t1 o1 st1 s q tr o' st' t' E U HR IH]; intros Ht Hx.
  { split; [apply later_refl|]. split; [left; reflexivity|]. intros ev []. }
  assert (Hc := Hx _ (or_introl eq_refl)). cbn [d_x] in Hc.
  destruct (ex1_64_step X _ _ _ _ _ _ HX Hc Ht E) as (g & f & t2 & _ & -> & Ec).
  destruct (C190_linear64_opt_call X _ t HX Hc Ht) as (g' & f' & t3 & Ec' & _ & _ & V & L & Ch & Fe & _). assert (t3 = t2) by congruence. subst t3. clear Ec Ec'.
  change (match Some t2 with Some t1 => t1 | None => t end) with t2 in *.
  destruct IH as (I1 & I2 & I3); [exact V|intros ev Hi; apply Hx; right; exact Hi|].
  split; [exact (later_trans _ _ _ I1 L)|]. split.
  - destruct I2 as [->|(ev & v & Hi & -> & W & R & T3 & TT)].
    + destruct Ch as [->|(v & -> & W & R & T3 & TT)]; [left; reflexivity|]. right. eexists; exists v. split; [left; reflexivity|]. split; [reflexivity|]. cbn [d_x]. auto.
    + right. exists ev, v. split; [right; exact Hi|]. split; [reflexivity|]. split; [exact W|]. split; [exact R|]. split; [exact T3|].
      destruct t as [s0|]; [|exact I]. destruct L as (v2 & -> & L). cbn in TT. lra.
  - intros ev [<-|Hi] Hf; [|exact (I3 ev Hi Hf)]. cbn [d_x] in *. destruct (Fe Hf) as (v & -> & L2). destruct I1 as (v' & -> & L3). exists v'. split; [reflexivity|lra].
Qed.
Print Assumptions C190_linear64_value.

(** nosoln over ell: no point of the initial ellipsoid has a cube of points that keep the margin and beat the value *)
Theorem C190_linear64_opt_nosoln : forall h M G X W dotf ltb tneq max_it tol w e t tr o' st' xb t' info,
  fdot_any dotf -> built64 e -> e_n e = 2%nat -> X <= bpow radix2 1000 -> ex_value X t ->
  cutting_plane_dc (@ell_space b64 (FNumD dotf)) ltb tneq ex1_omega64 max_it tol tt (w, e) t = Ok (tr, o', st', (xb, t', info)) -> cstatus info = nosoln ->
  single_scaled h M G X W (asked64_dc (@ell_space b64 (FNumD dotf)) ex1_omega64 tt (w, e) t tr) ->
  forall z, mem64 (w, e) z -> ~ cube_in 2 (INR (num_iters info) * drift64 2 h W X) (fun y => ex_within (- opt_slack h X) y /\ ex_beats (opt_slack h X) t' y) z.
Proof.
  intros h M G X W dotf ltb tneq max_it tol w e t tr o' st' xb t' info HD HB En HX Ht H HN HS z Hz.
  match goal with |- ~ cube_in _ _ ?K0 z => set (K := K0) end.
  assert (A := C153_dc_nosoln h M G X W dotf ltb tneq ex1_omega64 max_it tol tt w e t tr o' st' xb t' info K HD HB H HN HS).
  rewrite En in A. apply A; [|exact Hz]. clear A Hz z. apply dc_spec in H as (HR & _).
  set (P := fun x : nat -> b64 => 0 <= h <= / 1024 /\ forall i, (i < 2)%nat -> is_finite (x i) = true /\ Rabs (B2R (x i)) <= X).
  assert (PA : forall st1 cu, asked64_dc (@ell_space b64 (FNumD dotf)) ex1_omega64 tt (w, e) t tr st1 cu -> P (fst st1 (e_xc (snd st1)))).
  { intros st1 cu HA. destruct (HS st1 cu HA) as (g & b & _ & S1 & _). destruct (scaled_proper _ _ _ _ _ _ _ S1) as (_ & Hh & _).
    assert (EN : e_n (snd st1) = 2%nat).
    { destruct HA as (u1 & ev & u2 & o2 & t2 & _ & _ & Hr). rewrite <- En. change e with (snd (w, e)). clear - Hr.
      remember (w, e) as st eqn:Est. clear Est. induction Hr as [|? ? ? ? ? ? ? ? ? ? ? ? ? E U Hr IH]; [reflexivity|]. rewrite IH. exact (update_n64 dotf _ _ _ _ U). }
    destruct st1 as [w1 e1]. cbn [fst snd] in *. destruct S1 as (_ & _ & _ & Sx & _ & _ & _ & _ & _ & _ & _ & _ & Hh1). rewrite EN in Sx. split; [lra|exact Sx]. }
  assert (ST : forall (o : unit) x t0 o1 c t1, ex_value X t0 -> P x -> ex1_omega64 o x t0 = Ok (o1, (c, t1)) -> ex_value X (best t0 t1) /\ later (best t0 t1) t0).
  { intros o x t0 o1 c t1 I0 [_ Px] E. destruct (ex1_64_step X x t0 _ _ _ _ HX Px I0 E) as (g & f & t2 & _ & -> & Ec).
    destruct (C190_linear64_opt_call X x t0 HX Px I0) as (g' & f' & t3 & Ec' & _ & _ & V & L & _). assert (t3 = t2) by congruence. subst t3. cbn [best]. auto. }
  destruct (dc_events dotf ex1_omega64 (fun _ t0 => ex_value X t0) P later (fun _ t0 _ => later_refl t0) later_trans ST _ _ _ _ _ _ _ HR Ht PA) as [_ HE].
  intros ev g b y Hin Ec [Y1 Y2]. destruct (HE ev Hin) as (st1 & o1 & o2 & t0 & HA & EN & Ex & I0 & Hs & R1 & _).
  assert (PX := PA st1 _ HA). rewrite <- Ex in PX. destruct PX as [Hh Px].
  destruct (ex1_64_step X _ t0 _ _ _ _ HX Px I0 Hs) as (g1 & f1 & t2 & Eg & E2 & Ek). rewrite E2 in R1. cbn [best] in R1.
  destruct (C190_linear64_opt_call X _ t0 HX Px I0) as (g2 & f2 & t3 & Ek' & _ & _ & _ & _ & _ & _ & Cv).
  assert (t3 = t2) by congruence. assert (g2 = g) by congruence. assert (f2 = b) by congruence. subst t3 g2 f2.
  apply Cv; [exact Hh|exact Y1|]. unfold ex_beats in *. destruct t2 as [v2|]; [|exact I]. destruct R1 as (v' & -> & L). lra.
Qed.
Print Assumptions C190_linear64_opt_nosoln.

(** Non-vacuity: a refused and an approved point; a run from the ball of test_example2.py:35 that ends at a feasible
    point; and the unit disc about (0, 8), which misses x + y <= 3. *)
Definition z189 (a b : Z) : nat -> b64 := fun i => if (i =? 0)%nat then fmake a 0 else fmake b 0.
Definition refuses189 (z : nat -> b64) : option (list spec_float) := match @ex_cons b64 FNum z with Some (g, f) => Some [B2SF (g 0%nat); B2SF (g 1%nat); B2SF f] | None => None end.
Example C189_ex_call : refuses189 (z189 0 8) = Some (map B2SF [fmake 1 0; fmake 1 0; fmake 5 0]) /\ refuses189 (z189 0 0) = Some (map B2SF [fmake (-1) 0; fmake 1 0; fmake 1 0]) /\ refuses189 (z189 2 1) = None /\
  ex_within (- ex_slack (bpow radix2 (-40)) 8) (fun i => if (i =? 0)%nat then 2 else 0).
Proof.
  split; [vm_compute; reflexivity|]. split; [vm_compute; reflexivity|]. split; [vm_compute; reflexivity|].
  assert (T1 := tiny (-40) ltac:(lia)). assert (T2 := tiny (-53) ltac:(lia)). unfold ex_within, ex_slack. cbn [Nat.eqb]. lra.
Qed.
Definition ex189_run : option (bool * nat * bool) :=
  match @ell_init b64 FNum (VScalar (fmake 10 0)) 2 0%nat with
  | Raise _ => None
  | Ok e =>
      match cutting_plane_feas (@ell_space b64 FNum) (fun x y => Bltb x y) ex2_omega64 2000 (fmake 1 (-26)) tt (fun _ _ => fzero, e) with
      | Ok (tr, _, (w', e'), info) => Some (feasible info, num_iters info, match @ex_cons b64 FNum (w' (e_xc e')) with None => true | _ => false end)
      | Raise _ => None
      end
  end.
Example C189_ex_run : ex189_run = Some (true, 2%nat, true).
Proof. vm_compute. reflexivity. Qed.
Definition ex189_info (w : memory b64) (x : res (ell b64)) : option (nat * list spec_float * status) :=
  match x with
  | Ok e => match @ex_cons b64 FNum (z189 0 8) with
            | Some (g, f) =>
                match @ell_update b64 (FNumD fdot_seq) (w, e) (g, BScalar f) with
                | Ok (_, (s, _)) => Some (e_n e, ell2_of e w ++ [B2SF (g 0%nat); B2SF (g 1%nat); B2SF f], s)
                | Raise _ => None end
            | None => None end
  | Raise _ => None end.
Lemma disc189 : exists (e : ell b64) g st2 tsq, let w := (fun (_ : loc) => z189 0 8) : memory b64 in
  built64 e /\ e_n e = 2%nat /\ @ex_cons b64 FNum (z189 0 8) = Some (g, fmake 5 0) /\
  @ell_update b64 (FNumD fdot_seq) (w, e) (g, BScalar (fmake 5 0)) = Ok (st2, (nosoln, tsq)) /\
  scaled64 (pow2 (-40)) 1 1 8 (w, e) g (fmake 5 0) /\ B2R (e_kappa e) = 1 /\ mem64 (w, e) (fun i => B2R (z189 0 8 i)).
Proof.
  set (w := (fun (_ : loc) => z189 0 8) : memory b64).
  assert (X : ex189_info w (@ell_init b64 FNum (VScalar (fmake 1 0)) 2 0%nat) =
    Some (2%nat, map B2SF [fmake 1 0; fmake 1 0; fzero; fzero; fmake 1 0; fzero; fmake 8 0; fmake 1 0; fmake 1 0; fmake 5 0], nosoln)) by (vm_compute; reflexivity).
  revert X. destruct (@ell_init b64 FNum (VScalar (fmake 1 0)) 2 0%nat) as [e|] eqn:E; [|discriminate]. unfold ex189_info.
  match goal with |- match ?u with Some _ => _ | None => _ end = _ -> _ => destruct u as [[g f]|] eqn:L; try discriminate end.
  match goal with |- match ?u with Ok _ => _ | Raise _ => _ end = _ -> _ => destruct u as [[st2 [s tsq]]|] eqn:U; [|discriminate] end. intros X.
  unfold ell2_of in X. cbn [map app] in X.
  assert (En : e_n e = 2%nat) by congruence. assert (Es : s = nosoln) by congruence.
  assert (I : forall x y : b64, B2SF x = B2SF y -> x = y) by (intros x y; apply B2SF_inj).
  assert (X1 : e_kappa e = fmake 1 0) by (apply I; congruence).
  assert (Q00 : e_Q e 0%nat 0%nat = fmake 1 0) by (apply I; congruence).
  assert (Q01 : e_Q e 0%nat 1%nat = fzero) by (apply I; congruence).
  assert (Q10 : e_Q e 1%nat 0%nat = fzero) by (apply I; congruence).
  assert (Q11 : e_Q e 1%nat 1%nat = fmake 1 0) by (apply I; congruence).
  assert (G0 : g 0%nat = fmake 1 0) by (apply I; congruence).
  assert (G1 : g 1%nat = fmake 1 0) by (apply I; congruence).
  assert (G2 : f = fmake 5 0) by (apply I; congruence). clear X I. subst s f.
  assert (R5 : B2R (fmake 5 0) = 5) by (rewrite r_of by lia; change (pow2 0) with 1; lra).
  assert (R8 : B2R (fmake 8 0) = 8) by (rewrite r_of by lia; change (pow2 0) with 1; lra).
  assert (BF : forall u v, bf 2 (fun i j => B2R (e_Q e i j)) u v = u 0%nat * v 0%nat + u 1%nat * v 1%nat).
  { intros u v. rewrite bf_sums. cbn [rsum]. rewrite Q00, Q01, Q10, Q11, r1. change (B2R fzero) with 0. ring. }
  assert (S1 : scaled64 (pow2 (-40)) 1 1 8 (w, e) g (fmake 5 0)).
  { assert (P200 : pow2 (-200) <= 1 <= pow2 200) by (change 1 with (pow2 0); split; apply bpow_le; lia).
    assert (P1000 : 8 <= pow2 1000) by (change 8 with (pow2 3); apply bpow_le; lia).
    unfold scaled64. cbv zeta. rewrite En. split; [split; lia|]. split.
    { intros i j Hi Hj. destruct i as [|[|i]]; [| |lia]; (destruct j as [|[|j]]; [| |lia]); rewrite ?Q00, ?Q01, ?Q10, ?Q11;
        (split; [reflexivity|]); rewrite ?r1; change (B2R fzero) with 0; apply Rabs_le; lra. }
    split. { intros i Hi. destruct i as [|[|i]]; [| |lia]; rewrite ?G0, ?G1; (split; [reflexivity|]); rewrite ?r1; apply Rabs_le; lra. }
    split. { intros i Hi. destruct i as [|[|i]]; [| |lia]; (split; [reflexivity|]); unfold w, z189; cbn [Nat.eqb]; rewrite ?R8; try (change (B2R (fmake 0 0)) with 0); apply Rabs_le; lra. }
    rewrite X1, r1, R5. split; [split; [reflexivity|lra]|]. split; [split; [reflexivity|lra]|].
    split. { intros i j Hi Hj. destruct i as [|[|i]]; [| |lia]; (destruct j as [|[|j]]; [| |lia]); rewrite ?Q01, ?Q10; reflexivity. }
    split. { intros u. rewrite BF. assert (A0 := Rle_0_sqr (u 0%nat)). assert (A1 := Rle_0_sqr (u 1%nat)). unfold Rsqr in *. lra. }
    split; [lra|]. split; [lra|]. split; [lra|]. split.
    + rewrite BF, G0, G1, r1. change (IZR (Z.of_nat 2)) with 2.
      replace (pow2 (-40)) with (1024 * pow2 (-50)) by (change 1024 with (pow2 10); rewrite <- bpow_plus; reflexivity). assert (0 < pow2 (-50)) by apply bpow_gt_0. lra.
    + change (/ 1024) with (pow2 (-10)). apply bpow_le. lia. }
  exists e, g, st2, tsq. cbv zeta. fold w.
  split; [exists (VScalar (fmake 1 0)), 0%nat, e; rewrite En; split; [exact E|auto]|].
  split; [exact En|]. split; [reflexivity|]. split; [exact U|]. split; [exact S1|]. split; [rewrite X1, r1; reflexivity|].
  unfold mem64. rewrite En. exists (fun _ => 0). split.
  + intros i Hi. unfold mvr, S_LinAlg.dot. cbn [rsum]. unfold w. ring.
  + rewrite BF, X1, r1. lra.
Qed.
Example C189_ex : exists (e : ell b64) w tr o' st' info z,
  fdot_any fdot_seq /\ built64 e /\ e_n e = 2%nat /\
  cutting_plane_feas (@ell_space b64 (FNumD fdot_seq)) (fun _ _ => false) ex2_omega64 5 fzero tt (w, e) = Ok (tr, o', st', info) /\
  cstatus info = nosoln /\ single_scaled (bpow radix2 (-40)) 1 1 8 2 (asked64 (@ell_space b64 (FNumD fdot_seq)) ex2_omega64 tt (w, e) tr) /\ mem64 (w, e) z.
Proof.
  destruct disc189 as (e & g & st2 & tsq & HB & En & L & U & S1 & X1 & Hm). set (w := (fun (_ : loc) => z189 0 8) : memory b64) in *.
  set (tr := [(z189 0 8, Some ((g, BScalar (fmake 5 0)), nosoln, tsq))]).
  exists e, w, tr, tt, st2, {| feasible := false; num_iters := 1; cstatus := nosoln |}, (fun i => B2R (z189 0 8 i)).
  split; [exact fnum_dot_any|]. split; [exact HB|]. split; [exact En|]. split.
  { unfold cutting_plane_feas. cbn [feas_loop]. change (centre (@ell_space b64 (FNumD fdot_seq)) (w, e)) with (z189 0 8). unfold ex2_omega64 at 1. rewrite L. cbn [bind sp_update ell_space]. rewrite U.
    cbn [bind status_eqb negb]. reflexivity. }
  split; [reflexivity|]. split; [|exact Hm].
  intros st1 c (tr1 & x & s & q & tr2 & o1 & Et & HR). unfold tr in Et. destruct tr1 as [|e1 tr1]; [|destruct tr1; discriminate Et].
  inversion HR; subst. exists g, (fmake 5 0). split; [cbn [app] in Et; congruence|]. split; [exact S1|]. cbn [snd]. rewrite X1. lra.
Qed.

(** C190: the run of test_example1.py:55-61 (ball of radius sqrt 10 about the origin, t = -inf), limited to three
    iterations, ends with a value in
    (0, 3]; and the disc about (0, 8) again. *)
Definition ex190_run : option (bool * bool * bool) :=
  match @ell_init b64 FNum (VScalar (fmake 10 0)) 2 0%nat with
  | Raise _ => None
  | Ok e =>
      match cutting_plane_dc (@ell_space b64 FNum) (fun x y => Bltb x y) (fun a b => match a, b with None, None => false | _, _ => true end) ex1_omega64 3 (fmake 1 (-26)) tt (fun _ _ => fzero, e) None with
      | Ok (tr, _, _, (xb, Some t', info)) => Some (feasible info, Bltb fzero t', Bleb t' (fmake 3 0))
      | _ => None
      end
  end.
Example C190_ex_run : ex190_run = Some (true, true, true).
Proof. vm_compute. reflexivity. Qed.
Example C190_ex : exists (e : ell b64) w tr o' st' xb info z,
  fdot_any fdot_seq /\ built64 e /\ e_n e = 2%nat /\ 8 <= bpow radix2 1000 /\
  cutting_plane_dc (@ell_space b64 (FNumD fdot_seq)) (fun _ _ => false) (fun _ _ => false) ex1_omega64 5 fzero tt (w, e) None = Ok (tr, o', st', (xb, None, info)) /\
  cstatus info = nosoln /\ single_scaled (bpow radix2 (-40)) 1 1 8 2 (asked64_dc (@ell_space b64 (FNumD fdot_seq)) ex1_omega64 tt (w, e) None tr) /\ mem64 (w, e) z.
Proof.
  destruct disc189 as (e & g & st2 & tsq & HB & En & L & U & S1 & X1 & Hm). set (w := (fun (_ : loc) => z189 0 8) : memory b64) in *.
  set (ev0 := {| d_x := z189 0 8; d_t := None : option b64; d_cut := (g, BScalar (fmake 5 0)); d_t1 := Some None; d_status := nosoln; d_tsq := tsq |}).
  exists e, w, [ev0], tt, st2, (Some (e_xc e)), {| feasible := false; num_iters := 1; cstatus := nosoln |}, (fun i => B2R (z189 0 8 i)).
  split; [exact fnum_dot_any|]. split; [exact HB|]. split; [exact En|]. split; [change 8 with (pow2 3); apply bpow_le; lia|]. split.
  { unfold cutting_plane_dc. cbn [dc_loop]. change (centre (@ell_space b64 (FNumD fdot_seq)) (w, e)) with (z189 0 8). unfold ex1_omega64 at 1, ex1_call. rewrite L. cbn [bind fst snd sp_update ell_space]. rewrite U.
    cbn [bind status_eqb negb]. reflexivity. }
  split; [reflexivity|]. split; [|exact Hm].
  intros st1 c (tr1 & ev & tr2 & o1 & t2 & Et & Ec & HR). destruct tr1 as [|e1 tr1]; [|destruct tr1; discriminate Et].
  inversion HR; subst. assert (Ee : ev = ev0) by (cbn [app] in Et; congruence). rewrite Ee. exists g, (fmake 5 0). split; [reflexivity|]. split; [exact S1|]. cbn [snd]. rewrite X1. lra.
Qed.
