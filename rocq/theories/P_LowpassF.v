(** Proofs about lowpass_oracle in binary64. *)
From Coq Require Import ZArith Reals Lra Lia Bool List Psatz.
From Flocq Require Import Core.Core IEEE754.BinarySingleNaN.
From Verif Require Import Base M_Drivers M_Ell S_LinAlg P_LinAlg M_Float P_Float P_Float2 S_Float P_FSum P_EllF P_EllF2 P_CholF M_Lowpass S_Lowpass P_Lowpass S_LowpassF.
Import ListNotations.
Local Open Scope R_scope.

(** a sum of two binary64 numbers that is positive stays positive when rounded *)
Lemma fsub_gt0 (x y : b64) : is_finite x = true -> is_finite y = true -> Rabs (B2R x - B2R y) <= pow2 1023 -> B2R y < B2R x ->
  0 < rnd (B2R x - B2R y).
Proof.
  intros Fx Fy HB Hlt. destruct (fsub_rnd x y Fx Fy HB) as [E F]. apply (fsub_pos x y Fx Fy) in Hlt. rewrite f64_ltb in Hlt by (exact F || reflexivity).
  rewrite E in Hlt. change (B2R fzero) with 0 in Hlt. destruct (Rlt_bool_spec 0 (rnd (B2R x - B2R y))) as [L|L]; [exact L|discriminate Hlt].
Qed.

Section LPF.
Variable dotf : nat -> (nat -> b64) -> (nat -> b64) -> b64.
Variable P : lowpass b64.
Variable x : nat -> b64.
Variable B : R.
Hypothesis HD : fdot_any dotf.
Hypothesis HB : lp_bound P x B.
Local Existing Instance FNumD.
Notation n := (lp_n P).
Notation eps := (row_err n B).
Let xr : nat -> R := fun i => B2R (x i).
Notation rv a := (dot n (fun i => B2R (a i)) xr).

Lemma B_range : 0 <= B <= pow2 900. Proof. apply HB. Qed.
Lemma eps_pos : pow2 (-1073) <= eps /\ eps <= pow2 901.
Proof.
  destruct HB as ((N0 & N1) & (B0 & B1) & _). assert (NI : 1 <= INR n) by (change 1 with (INR 1); apply le_INR; lia).
  assert (NU : INR n <= pow2 20) by (rewrite INR_IZR_INZ; change (pow2 20) with (IZR (2 ^ 20)); apply IZR_le; exact N1).
  unfold row_err. assert (P1 := bpow_gt_0 radix2 (-52)). assert (P2 := bpow_gt_0 radix2 (-1073)).
  split.
  - assert (0 <= pow2 (-52) * B) by (apply Rmult_le_pos; lra). nra.
  - apply Rle_trans with (pow2 20 * (pow2 (-52) * pow2 900 + pow2 (-1073))).
    + apply Rmult_le_compat; try lra; [|apply Rplus_le_compat_r, Rmult_le_compat_l; lra].
      assert (0 <= pow2 (-52) * B) by (apply Rmult_le_pos; lra). lra.
    + rewrite Rmult_plus_distr_l, <- !bpow_plus. change 901%Z with (1 + 900)%Z. rewrite (bpow_plus radix2 1 900). change (pow2 1) with 2.
      assert (pow2 (20 + (-52 + 900)) <= pow2 900) by (apply bpow_le; lia). assert (pow2 (20 + -1073) <= pow2 900) by (apply bpow_le; lia). lra.
Qed.

(** one computed row *)
Lemma row_val a : row_bound n a x B -> is_finite (dotf n a x) = true /\ Rabs (B2R (dotf n a x) - rv a) <= eps /\ Rabs (rv a) <= B.
Proof.
  intros [Fa Ba]. destruct HB as ((N0 & N1) & (B0 & B1) & _).
  destruct (fdot_bounded dotf n a x HD) as [F E]; [lia|exact Fa|eapply Rle_trans; [exact Ba|eapply Rle_trans; [exact B1|apply bpow_le; lia]]|].
  split; [exact F|]. split.
  - eapply Rle_trans; [exact E|]. unfold row_err. assert (P1 := bpow_gt_0 radix2 (-52)). assert (NI := pos_INR n).
    rewrite Rmult_plus_distr_l. apply Rplus_le_compat_r. rewrite Rmult_assoc. apply Rmult_le_compat_l; [exact NI|]. apply Rmult_le_compat_l; [lra|exact Ba].
  - eapply Rle_trans; [|exact Ba]. unfold dot, xr. apply rsum_Rabs.
Qed.

(** v - u and -v + u computed, |u| <= B *)
Lemma diff_val (v u : b64) r : is_finite v = true -> is_finite u = true -> Rabs (B2R v - r) <= eps -> Rabs r <= B -> Rabs (B2R u) <= B ->
  let d := 2 * eps + pow2 (-51) * B in
  (is_finite (fsub v u) = true /\ Rabs (B2R (fsub v u) - (r - B2R u)) <= d /\ (B2R u < B2R v -> 0 < B2R (fsub v u))) /\
  (is_finite (fadd (Bopp v) u) = true /\ Rabs (B2R (fadd (Bopp v) u) - (B2R u - r)) <= d /\ (B2R v < B2R u -> 0 < B2R (fadd (Bopp v) u))).
Proof.
  intros Fv Fu Ev Hr Hu d. destruct eps_pos as [E1 E2]. destruct B_range as [B0 B1].
  assert (P901 : pow2 901 <= pow2 1020) by (apply bpow_le; lia). assert (P900 : pow2 900 <= pow2 1020) by (apply bpow_le; lia).
  assert (P1023 : pow2 1023 = 8 * pow2 1020) by (change 1023%Z with (3 + 1020)%Z; rewrite bpow_plus; reflexivity).
  apply Rabs_le_inv in Ev. apply Rabs_le_inv in Hr. apply Rabs_le_inv in Hu.
  assert (HM : Rabs (B2R v - B2R u) <= 2 * B + eps) by (apply Rabs_le; lra).
  assert (HM2 : Rabs (B2R v - B2R u) <= pow2 1023) by (eapply Rle_trans; [exact HM|lra]).
  assert (RR := rnd_rel (B2R v - B2R u)).
  assert (P53 : pow2 (-51) = 4 * pow2 (-53)) by (change (-51)%Z with (2 + -53)%Z; rewrite bpow_plus; reflexivity).
  assert (P1075 : pow2 (-1073) = 4 * pow2 (-1075)) by (change (-1073)%Z with (2 + -1075)%Z; rewrite bpow_plus; reflexivity).
  assert (Q53 : 0 < pow2 (-53) <= / 2) by (split; [apply bpow_gt_0|change (/ 2) with (pow2 (-1)); apply bpow_le; lia]).
  assert (Q1075 : 0 < pow2 (-1075)) by apply bpow_gt_0.
  assert (RB : pow2 (-53) * Rabs (B2R v - B2R u) <= pow2 (-53) * (2 * B + eps)) by (apply Rmult_le_compat_l; lra).
  assert (RE : Rabs (rnd (B2R v - B2R u) - (B2R v - B2R u)) <= eps + pow2 (-51) * B) by (rewrite P53; nra).
  apply Rabs_le_inv in RE. assert (PB : 0 <= pow2 (-51) * B) by (apply Rmult_le_pos; [apply bpow_ge_0|lra]).
  destruct (fsub_rnd v u Fv Fu HM2) as [ES FS]. split.
  - split; [exact FS|]. rewrite ES. split; [apply Rabs_le; unfold d; lra|]. intros Hlt. apply fsub_gt0; assumption.
  - destruct (fadd_rnd (Bopp v) u) as [EA FA]; [rewrite fopp_fin; exact Fv|exact Fu|rewrite fopp_R; replace (- B2R v + B2R u) with (- (B2R v - B2R u)) by ring; rewrite Rabs_Ropp; exact HM2|].
    rewrite fopp_R in EA. replace (- B2R v + B2R u) with (B2R u - B2R v) in EA by ring.
    assert (EO : rnd (B2R u - B2R v) = - rnd (B2R v - B2R u)) by (replace (B2R u - B2R v) with (- (B2R v - B2R u)) by ring; apply round_NE_opp).
    split; [exact FA|]. rewrite EA. split; [rewrite EO; apply Rabs_le; unfold d; lra|]. intros Hlt. apply fsub_gt0; try assumption.
    replace (B2R u - B2R v) with (- (B2R v - B2R u)) by ring. rewrite Rabs_Ropp. exact HM2.
Qed.

Lemma ltb_true (a b : b64) : is_finite a = true -> is_finite b = true -> Bltb a b = true -> B2R a < B2R b.
Proof. intros Fa Fb. rewrite (f64_ltb a b Fa Fb). destruct (Rlt_bool_spec (B2R a) (B2R b)); [auto|discriminate]. Qed.
Lemma ltb_false (a b : b64) : is_finite a = true -> is_finite b = true -> Bltb a b = false -> B2R b <= B2R a.
Proof. intros Fa Fb. rewrite (f64_ltb a b Fa Fb). destruct (Rlt_bool_spec (B2R a) (B2R b)); [discriminate|auto]. Qed.

Notation tau := (2 * eps + pow2 (-51) * B).
Notation PR := (lp_real P).

Lemma dot_z (a : nat -> b64) (z : nat -> R) : dot n (fun i => B2R (a i)) (fun i => z i - B2R (x i)) = dot n (fun i => B2R (a i)) z - rv a.
Proof. unfold xr. apply dot_minus_r. Qed.
Lemma dot_zo (a : nat -> b64) (z : nat -> R) : dot n (fun i => B2R (@vopp b64 (FNumD dotf) a i)) (fun i => z i - B2R (x i)) = rv a - dot n (fun i => B2R (a i)) z.
Proof.
  replace (rv a - dot n (fun i => B2R (a i)) z) with (- (dot n (fun i => B2R (a i)) z - rv a)) by ring. rewrite <- dot_z. unfold dot. rewrite <- rsum_opp.
  apply rsum_ext. intros i _. unfold vopp. cbn [nopp FNumD]. rewrite fopp_R. ring.
Qed.

(** the three loops *)
Lemma pass64 : forall ks, (forall k, In k ks -> (k < lp_Np P)%nat) ->
  exists r, @pass_loop b64 (FNumD dotf) P ks x = Ok r /\
  match r with
  | None => forall k, In k ks -> B2R (lp_Lpsq P) - eps <= rv (lp_Ap P k) <= B2R (lp_Upsq P) + eps
  | Some (k, c) => In k ks /\ ~ (B2R (lp_Lpsq P) + eps <= rv (lp_Ap P k) <= B2R (lp_Upsq P) - eps) /\ 0 < beta0_64 (snd c) <= 2 * B + tau /\
      forall z d, B2R (lp_Lpsq P) - d <= dot n (fun i => B2R (lp_Ap P k i)) z <= B2R (lp_Upsq P) + d -> sat_within n (tau + d) x c z
  end.
Proof.
  induction ks as [|k ks IH]; intros Hks; cbn [pass_loop]; [exists None; split; [reflexivity|intros k []]|].
  assert (Hk : (k < lp_Np P)%nat) by (apply Hks; left; reflexivity).
  unfold row. rewrite (proj2 (Nat.ltb_lt _ _) Hk). cbn [bind].
  assert (HB' := HB). destruct HB' as (_ & _ & H1 & _ & _ & _ & [FL RL] & [FU RU]).
  destruct (row_val _ (H1 k Hk)) as (Fv & Ev & Rv). change (@ndot b64 (FNumD dotf)) with dotf.
  set (a := lp_Ap P k) in *. set (v := dotf n a x) in *.
  destruct (diff_val v (lp_Upsq P) (rv a) Fv FU Ev Rv RU) as [(F1 & E1 & G1) (F2 & E2 & G2)].
  destruct (diff_val v (lp_Lpsq P) (rv a) Fv FL Ev Rv RL) as [(F3 & E3 & G3) (F4 & E4 & G4)].
  apply Rabs_le_inv in E1, E2, E3, E4, Ev.
  cbn [nltb nsub nadd nopp FNumD].
  destruct (Bltb (lp_Upsq P) v) eqn:B1.
  { apply ltb_true in B1; [|exact FU|exact Fv]. eexists. split; [reflexivity|]. cbv beta iota. split; [left; reflexivity|]. split; [fold a; lra|].
    cbn [snd beta0_64]. split; [split; [apply G1, B1|apply Rabs_le_inv in Rv, RU; lra]|]. intros z d Hz. unfold sat_within. cbn [fst snd]. fold a in Hz. rewrite dot_z.
    split; [exact F1|]. split; [exact F3|]. lra. }
  apply ltb_false in B1; [|exact FU|exact Fv].
  destruct (Bltb v (lp_Lpsq P)) eqn:B2.
  { apply ltb_true in B2; [|exact Fv|exact FL]. eexists. split; [reflexivity|]. cbv beta iota. split; [left; reflexivity|]. split; [fold a; lra|].
    cbn [snd beta0_64]. split; [split; [apply G4, B2|apply Rabs_le_inv in Rv, RL; lra]|]. intros z d Hz. unfold sat_within. cbn [fst snd]. fold a in Hz. rewrite dot_zo.
    split; [exact F4|]. split; [exact F2|]. lra. }
  apply ltb_false in B2; [|exact Fv|exact FL].
  destruct (IH ltac:(intros j Hj; apply Hks; right; exact Hj)) as (r & -> & Hr). exists r. split; [reflexivity|].
  destruct r as [[j c]|].
  - destruct Hr as [Hj Hr]. split; [right; exact Hj|exact Hr].
  - intros j [<-|Hj]; [fold a; lra|auto].
Qed.

Lemma stop64 S : forall ks fm im, (forall k, In k ks -> (k < lp_Ns P)%nat) -> (forall m, fm = Some m -> is_finite m = true) ->
  exists r, @stop_loop b64 (FNumD dotf) P ks x S fm im = Ok r /\
  match r with
  | inr (fm', im') =>
      (forall k, In k ks -> - eps <= rv (lp_As P k) /\ Bltb S (dotf n (lp_As P k) x) = false /\ 0 <= B2R (dotf n (lp_As P k) x) /\ exists m, fm' = Some m /\ rv (lp_As P k) <= B2R m + eps) /\
      (forall m, fm = Some m -> exists m', fm' = Some m' /\ B2R m <= B2R m') /\
      ((fm' = fm /\ im' = im) \/ (In im' ks /\ fm' = Some (dotf n (lp_As P im') x)))
  | inl (k, c) => In k ks /\ (is_finite S = true -> Rabs (B2R S) <= B -> ~ (eps <= rv (lp_As P k) <= B2R S - eps) /\ 0 < beta0_64 (snd c) <= 2 * B + tau /\
      forall z d, - d <= dot n (fun i => B2R (lp_As P k i)) z <= B2R S + d -> sat_within n (tau + d) x c z)
  end.
Proof.
  induction ks as [|k ks IH]; intros fm im Hks Hfm; cbn [stop_loop].
  { exists (inr (fm, im)). split; [reflexivity|]. split; [intros k []|]. split; [intros m ->; exists m; split; [reflexivity|lra]|]. left. split; reflexivity. }
  assert (Hk : (k < lp_Ns P)%nat) by (apply Hks; left; reflexivity).
  assert (Hks' : forall j, In j ks -> (j < lp_Ns P)%nat) by (intros j Hj; apply Hks; right; exact Hj).
  unfold row. rewrite (proj2 (Nat.ltb_lt _ _) Hk). cbn [bind].
  assert (HB' := HB). destruct HB' as (_ & [B0 _] & _ & H1 & _ & _ & _ & _).
  destruct (row_val _ (H1 k Hk)) as (Fv & Ev & Rv). change (@ndot b64 (FNumD dotf)) with dotf.
  set (a := lp_As P k) in *. set (v := dotf n a x) in *.
  destruct eps_pos as [EP _]. assert (EP0 : 0 < pow2 (-1073)) by apply bpow_gt_0.
  assert (PB : 0 <= pow2 (-51) * B) by (apply Rmult_le_pos; [apply bpow_ge_0|lra]).
  assert (Ev' := Ev). apply Rabs_le_inv in Ev'.
  cbn [nltb nsub nadd nopp nzero neqb FNumD].
  destruct (Bltb S v) eqn:B1.
  { eexists. split; [reflexivity|]. cbv beta iota. split; [left; reflexivity|]. intros FS RS. fold a.
    destruct (diff_val v S (rv a) Fv FS Ev Rv RS) as [(F1 & E1 & G1) (F2 & E2 & G2)]. apply Rabs_le_inv in E1, E2.
    apply ltb_true in B1; [|exact FS|exact Fv]. split; [lra|]. cbn [snd beta0_64]. split; [split; [apply G1, B1|apply Rabs_le_inv in Rv, RS; lra]|].
    intros z d Hz. unfold sat_within. cbn [fst snd]. rewrite dot_z. split; [exact F1|]. split; [exact Fv|]. lra. }
  destruct (Bltb v fzero) eqn:B2.
  { apply ltb_true in B2; [|exact Fv|reflexivity]. change (B2R fzero) with 0 in B2.
    eexists. split; [reflexivity|]. cbv beta iota. split; [left; reflexivity|]. intros FS RS. fold a.
    destruct (diff_val v S (rv a) Fv FS Ev Rv RS) as [(F1 & E1 & G1) (F2 & E2 & G2)]. apply Rabs_le_inv in E1, E2.
    split; [lra|]. cbn [snd beta0_64]. rewrite fopp_R. split; [apply Rabs_le_inv in Rv; lra|].
    intros z d Hz. unfold sat_within. cbn [fst snd]. rewrite dot_zo, fopp_fin, fopp_R. split; [exact Fv|]. split; [exact F2|]. lra. }
  apply ltb_false in B2; [|exact Fv|reflexivity]. change (B2R fzero) with 0 in B2.
  assert (NX : exists fm1 im1, (if match fm with Some m => Bltb m v | None => feqb v v end then @stop_loop b64 (FNumD dotf) P ks x S (Some v) k else @stop_loop b64 (FNumD dotf) P ks x S fm im)
      = @stop_loop b64 (FNumD dotf) P ks x S fm1 im1 /\ (forall m, fm1 = Some m -> is_finite m = true) /\
      (exists m, fm1 = Some m /\ B2R v <= B2R m) /\ (forall m, fm = Some m -> exists m', fm1 = Some m' /\ B2R m <= B2R m') /\
      ((fm1 = fm /\ im1 = im) \/ (im1 = k /\ fm1 = Some v))).
  { destruct fm as [m|].
    - specialize (Hfm m eq_refl). destruct (Bltb m v) eqn:Bm.
      + apply ltb_true in Bm; [|exact Hfm|exact Fv]. exists (Some v), k. split; [reflexivity|]. split; [intros m0 [= <-]; exact Fv|].
        split; [exists v; split; [reflexivity|lra]|]. split; [intros m0 [= <-]; exists v; split; [reflexivity|lra]|]. right. split; reflexivity.
      + apply ltb_false in Bm; [|exact Hfm|exact Fv]. exists (Some m), im. split; [reflexivity|]. split; [intros m0 [= <-]; exact Hfm|].
        split; [exists m; split; [reflexivity|lra]|]. split; [intros m0 [= <-]; exists m; split; [reflexivity|lra]|]. left. split; reflexivity.
    - assert (Bv : feqb v v = true) by (unfold feqb; rewrite Beqb_correct by exact Fv; apply Req_bool_true; reflexivity). rewrite Bv.
      exists (Some v), k. split; [reflexivity|]. split; [intros m0 [= <-]; exact Fv|].
      split; [exists v; split; [reflexivity|lra]|]. split; [discriminate|]. right. split; reflexivity. }
  destruct NX as (fm1 & im1 & ENX & Hfm1 & (m1 & Em1 & Hm1) & Hle & Hor).
  destruct (IH fm1 im1 Hks' Hfm1) as (r & Er & Hr). exists r. split; [exact (eq_trans ENX Er)|].
  destruct r as [[j c]|[fm2 im2]].
  - destruct Hr as [Hj Hr]. split; [right; exact Hj|exact Hr].
  - destruct Hr as (R1 & R2 & R3). destruct (R2 m1 Em1) as (m2 & E2 & Hm2). split; [|split].
    + intros j [<-|Hj]; [|exact (R1 j Hj)]. fold a v. split; [lra|]. split; [exact B1|]. split; [exact B2|]. exists m2. split; [exact E2|]. lra.
    + intros m Em. destruct (Hle m Em) as (m' & Em' & Hm'). destruct (R2 m' Em') as (m'' & Em'' & Hm''). exists m''. split; [exact Em''|lra].
    + destruct R3 as [[-> ->]|[Hin E3]]; [|right; split; [right; exact Hin|exact E3]].
      destruct Hor as [[-> ->]|[-> ->]]; [left; split; reflexivity|right; split; [left; reflexivity|reflexivity]].
Qed.

Lemma nonneg64 : forall ks, (forall k, In k ks -> (k < lp_Nr P)%nat) ->
  exists r, @nonneg_loop b64 (FNumD dotf) P ks x = Ok r /\
  match r with
  | None => forall k, In k ks -> - eps <= rv (lp_Anr P k)
  | Some (k, c) => In k ks /\ ~ eps <= rv (lp_Anr P k) /\ 0 < beta0_64 (snd c) <= 2 * B + tau /\
      forall z d, - d <= dot n (fun i => B2R (lp_Anr P k i)) z -> sat_within n (tau + d) x c z
  end.
Proof.
  induction ks as [|k ks IH]; intros Hks; cbn [nonneg_loop]; [exists None; split; [reflexivity|intros k []]|].
  assert (Hk : (k < lp_Nr P)%nat) by (apply Hks; left; reflexivity).
  unfold row. rewrite (proj2 (Nat.ltb_lt _ _) Hk). cbn [bind].
  assert (HB' := HB). destruct HB' as (_ & [B0 _] & _ & _ & H1 & _ & _ & _).
  destruct (row_val _ (H1 k Hk)) as (Fv & Ev & Rv). change (@ndot b64 (FNumD dotf)) with dotf.
  set (a := lp_Anr P k) in *. set (v := dotf n a x) in *. apply Rabs_le_inv in Ev.
  destruct eps_pos as [EP _]. assert (EP0 : 0 < pow2 (-1073)) by apply bpow_gt_0.
  assert (PB : 0 <= pow2 (-51) * B) by (apply Rmult_le_pos; [apply bpow_ge_0|lra]).
  cbn [nltb nsub nadd nopp nzero FNumD].
  destruct (Bltb v fzero) eqn:B2.
  { apply ltb_true in B2; [|exact Fv|reflexivity]. change (B2R fzero) with 0 in B2.
    eexists. split; [reflexivity|]. cbv beta iota. split; [left; reflexivity|]. fold a. split; [lra|]. cbn [snd beta0_64]. rewrite fopp_R. split; [apply Rabs_le_inv in Rv; lra|].
    intros z d Hz. unfold sat_within. cbn [fst snd]. rewrite dot_zo, fopp_fin, fopp_R. split; [exact Fv|]. lra. }
  apply ltb_false in B2; [|exact Fv|reflexivity]. change (B2R fzero) with 0 in B2.
  destruct (IH ltac:(intros j Hj; apply Hks; right; exact Hj)) as (r & -> & Hr). exists r. split; [reflexivity|].
  destruct r as [[j c]|].
  - destruct Hr as [Hj Hr]. split; [right; exact Hj|exact Hr].
  - intros j [<-|Hj]; [fold a; lra|auto].
Qed.

Lemma lowpass64 s S : counters_ok P s -> (0 < lp_Ns P)%nat ->
  exists s' c t1, @lowpass_call b64 (FNumD dotf) P s x S = Ok (s', (c, t1)) /\ counters_ok P s' /\
  match t1 with
  | Some m => filter_within PR eps (B2R m) xr /\ Bltb S m = false /\
      exists k, (k < lp_Ns P)%nat /\ m = dotf n (lp_As P k) x /\ is_finite m = true /\ 0 <= B2R m /\ c = (lp_As P k, BArr [fzero; m])
  | None => is_finite S = true -> Rabs (B2R S) <= B -> ~ filter_within PR (- eps) (B2R S) xr /\ 0 < beta0_64 (snd c) <= 2 * B + tau + Rabs (B2R (x 0%nat)) /\
      forall z d, filter_within PR d (B2R S) z -> - d <= z 0%nat -> sat_within n (tau + d) x c z
  end.
Proof.
  intros (C1 & C2 & C3) HN. unfold lowpass_call. destruct eps_pos as [EP _]. assert (EP0 : 0 < pow2 (-1073)) by apply bpow_gt_0.
  assert (B0 := proj1 B_range). assert (PB : 0 <= pow2 (-51) * B) by (apply Rmult_le_pos; [apply bpow_ge_0|lra]).
  destruct (pass64 (round_robin (lp_iAp s) (lp_Np P)) (fun k => proj1 (round_robin_in _ _ k C1))) as (r & -> & Hr). cbn [bind].
  destruct r as [[k c]|].
  { destruct Hr as (Hk & Hn & Hb & Hz). apply (round_robin_in _ _ k C1) in Hk. do 3 eexists. split; [reflexivity|]. split; [unfold counters_ok; cbn; lia|].
    cbv beta iota. intros _ _. split; [|split; [assert (X0 := Rabs_pos (B2R (x 0%nat))); lra|]].
    - intros (F1 & _). specialize (F1 k Hk). change (B2R (lp_Lpsq P) - - eps <= rv (lp_Ap P k) <= B2R (lp_Upsq P) + - eps) in F1. apply Hn. lra.
    - intros z d (Z1 & _) _. apply Hz. exact (Z1 k Hk). }
  assert (HP : forall k, (k < lp_Np P)%nat -> B2R (lp_Lpsq P) - eps <= rv (lp_Ap P k) <= B2R (lp_Upsq P) + eps) by (intros k Hk; apply Hr, (round_robin_in _ _ k C1), Hk).
  destruct (stop64 S (round_robin (lp_iAs s) (lp_Ns P)) None 0%nat (fun k => proj1 (round_robin_in _ _ k C2)) ltac:(discriminate)) as (r & -> & Hr2). cbn [bind].
  destruct r as [[k c]|[fm im]].
  { destruct Hr2 as (Hk & Hn). apply (round_robin_in _ _ k C2) in Hk. do 3 eexists. split; [reflexivity|]. split; [unfold counters_ok; cbn; lia|].
    cbv beta iota. intros FS RS. destruct (Hn FS RS) as (Hn1 & Hb & Hz). split; [|split; [assert (X0 := Rabs_pos (B2R (x 0%nat))); lra|]].
    - intros (_ & F1 & _). specialize (F1 k Hk). change (- - eps <= rv (lp_As P k) <= B2R S + - eps) in F1. apply Hn1. lra.
    - intros z d (_ & Z1 & _) _. apply Hz. exact (Z1 k Hk). }
  destruct (nonneg64 (round_robin (lp_iAnr s) (lp_Nr P)) (fun k => proj1 (round_robin_in _ _ k C3))) as (r & -> & Hr3). cbn [bind].
  destruct r as [[k c]|].
  { destruct Hr3 as (Hk & Hn & Hb & Hz). apply (round_robin_in _ _ k C3) in Hk. do 3 eexists. split; [reflexivity|]. split; [unfold counters_ok; cbn; lia|].
    cbv beta iota. intros _ _. split; [|split; [assert (X0 := Rabs_pos (B2R (x 0%nat))); lra|]].
    - intros (_ & _ & F1 & _). specialize (F1 k Hk). change (- - eps <= rv (lp_Anr P k)) in F1. apply Hn. lra.
    - intros z d (_ & _ & Z1 & _) _. apply Hz. exact (Z1 k Hk). }
  assert (HR : forall k, (k < lp_Nr P)%nat -> - eps <= rv (lp_Anr P k)) by (intros k Hk; apply Hr3, (round_robin_in _ _ k C3), Hk).
  cbn [nltb nopp nzero none FNumD]. assert (HB' := HB). destruct HB' as ((N0 & N1) & _ & _ & HS & _ & Fx & _ & _).
  destruct (Bltb (x 0%nat) fzero) eqn:Bx.
  { apply ltb_true in Bx; [|exact Fx|reflexivity]. change (B2R fzero) with 0 in Bx.
    do 3 eexists. split; [reflexivity|]. split; [unfold counters_ok; cbn; lia|]. cbv beta iota. intros _ _. split; [|split].
    - intros (_ & _ & _ & F1). unfold xr in F1. lra.
    - cbn [snd beta0_64]. rewrite fopp_R, Rabs_left by exact Bx. lra.
    - intros z d _ Z0. unfold sat_within. cbn [fst snd]. rewrite fopp_fin, fopp_R. split; [exact Fx|].
      assert (ED : dot n (fun i => B2R (vset (fun _ => fzero) 0 (Bopp (fmake 1 0)) i)) (fun i => z i - B2R (x i)) = - (z 0%nat - B2R (x 0%nat))).
      { destruct (lp_n P) as [|m]; [lia|]. unfold dot. rewrite rsum_shift. unfold vset at 1. cbn [Nat.eqb]. rewrite fopp_R, (proj1 fone).
        rewrite (rsum_ext m _ (fun _ => 0)); [|intros k _; unfold vset; cbn [Nat.eqb]; change (B2R fzero) with 0; ring].
        rewrite (rsum_0 m (fun _ => 0)) by reflexivity. ring. }
      rewrite ED. lra. }
  apply ltb_false in Bx; [|exact Fx|reflexivity]. change (B2R fzero) with 0 in Bx.
  destruct Hr2 as (R1 & _ & R3).
  assert (IM : In im (round_robin (lp_iAs s) (lp_Ns P)) /\ fm = Some (dotf n (lp_As P im) x)).
  { destruct R3 as [[-> ->]|R3]; [|exact R3]. destruct (R1 0%nat) as (_ & _ & _ & m & E & _); [apply (round_robin_in _ _ 0 C2); exact HN|]. discriminate E. }
  destruct IM as [Hin ->]. assert (Him := proj1 (round_robin_in _ _ im C2) Hin). unfold row. rewrite (proj2 (Nat.ltb_lt _ _) Him). cbn [bind].
  do 3 eexists. split; [reflexivity|]. split; [unfold counters_ok; cbn; lia|]. cbv beta iota. split; [|split].
  - split; [exact HP|]. split; [|split; [exact HR|exact Bx]]. intros k Hk. destruct (R1 k) as (Q1 & _ & _ & m & Em & Q2); [apply (round_robin_in _ _ k C2); exact Hk|].
    assert (m = dotf n (lp_As P im) x) by congruence. subst m. split; [exact Q1|exact Q2].
  - apply (R1 im Hin).
  - exists im. split; [exact Him|]. split; [reflexivity|]. split; [apply (row_val _ (HS im Him))|]. split; [apply (R1 im Hin)|reflexivity].
Qed.
End LPF.
